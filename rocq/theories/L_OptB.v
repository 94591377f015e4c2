(** * Bounds on the steps of RMSProp and Adam: lemmas for C90 *)
From Coq Require Import Reals Lra Psatz.
From Verif Require Import Base Scalar ScalarR Types Spec M_Shape M_Tensor M_Layers M_Opt SpecR SpecOpt L_Index L_Shape L_Tensor L_Nest L_Glue L_Matmul L_RSum L_Opt L_Opt2 L_OptR.
Local Open Scope R_scope.

(** ** RMSProp *)
Definition U_ (alpha : R) : R := / sqrt (1 - alpha).
Lemma rms_ratio : forall alpha eps s g, 0 <= alpha < 1 -> 0 < eps -> 0 <= s -> Rabs (g / sqrt (alpha * s + (1 - alpha) * g * g + eps)) <= U_ alpha.
Proof.
  intros alpha eps s g HA HE HS. set (d := alpha * s + (1 - alpha) * g * g + eps).
  assert (HG : 0 <= g * g) by apply Rle_0_sqr. assert (HAS : 0 <= alpha * s) by (apply Rmult_le_pos; lra).
  assert (HD : (1 - alpha) * (g * g) <= d) by (unfold d; lra). assert (HD0 : 0 < d) by (unfold d; assert (0 <= (1 - alpha) * (g * g)) by (apply Rmult_le_pos; lra); lra).
  assert (H1 : 0 < sqrt (1 - alpha)) by (apply sqrt_lt_R0; lra). assert (H2 : 0 < sqrt d) by (apply sqrt_lt_R0; lra).
  unfold U_, Rdiv. rewrite Rabs_mult, (Rabs_pos_eq (/ sqrt d)) by (left; apply Rinv_0_lt_compat; auto).
  apply Rmult_le_reg_r with (sqrt d); [auto|]. rewrite Rmult_assoc, Rinv_l by lra. apply Rmult_le_reg_l with (sqrt (1 - alpha)); [auto|]. replace (sqrt (1 - alpha) * (/ sqrt (1 - alpha) * sqrt d)) with (sqrt d) by (field; lra).
  rewrite Rmult_1_r, <- (sqrt_Rsqr_abs g), <- sqrt_mult by (unfold Rsqr; lra). apply sqrt_le_1_alt. unfold Rsqr. lra.
Qed.
Lemma U_pos : forall alpha, alpha < 1 -> 0 < U_ alpha.
Proof. intros alpha H. apply Rinv_0_lt_compat, sqrt_lt_R0. lra. Qed.
Definition rms_calm (alpha mom : R) (p : R * R * R * R) : Prop := let '(_, s, _, v) := p in 0 <= s /\ Rabs v <= U_ alpha / (1 - mom).
Lemma rms_rule_step : forall alpha eps mom wd lr g p, 0 <= alpha < 1 -> 0 < eps -> 0 <= mom < 1 -> rms_calm alpha mom p ->
  rms_calm alpha mom (rms_rule alpha eps mom false wd lr g p) /\
  Rabs (fst (fst (fst (rms_rule alpha eps mom false wd lr g p))) - fst (fst (fst p))) <= Rabs lr * (U_ alpha / (1 - mom)).
Proof.
  intros alpha eps mom wd lr g (((w & s) & m) & v) HA HE HM (H1 & H2). unfold rms_rule. cbn [s_eq s_lt s_add s_mul s_sub s_div s_sqrt s_z RScalar fst snd rms_calm].
  set (g1 := if Reqb wd 0 then g else g + wd * w). pose proof (rms_ratio alpha eps s g1 HA HE H1) as HR. set (d := sqrt _) in *.
  assert (HU : 0 < U_ alpha) by (apply U_pos; lra). assert (HB : U_ alpha <= U_ alpha / (1 - mom)).
  { apply Rmult_le_reg_r with (1 - mom); [lra|]. unfold Rdiv. rewrite Rmult_assoc, Rinv_l by lra. nra. }
  assert (HS : 0 <= alpha * s + (1 - alpha) * g1 * g1).
  { apply Rplus_le_le_0_compat; [apply Rmult_le_pos; lra|]. rewrite Rmult_assoc. apply Rmult_le_pos; [lra|apply Rle_0_sqr]. }
  assert (HV : Rabs (mom * v + g1 / d) <= U_ alpha / (1 - mom)).
  { eapply Rle_trans; [apply Rabs_triang|]. rewrite Rabs_mult, (Rabs_pos_eq mom) by lra.
    replace (U_ alpha / (1 - mom)) with (mom * (U_ alpha / (1 - mom)) + U_ alpha) by (field; lra). apply Rplus_le_compat; [apply Rmult_le_compat_l; lra|auto]. }
  destruct (Rltb 0 mom) eqn:EM.
  - split; [split; auto|]. replace (w - lr * (mom * v + g1 / d) - w) with (- (lr * (mom * v + g1 / d))) by ring. rewrite Rabs_Ropp, Rabs_mult. apply Rmult_le_compat_l; [apply Rabs_pos|auto].
  - split; [split; auto|]. replace (w - lr * (g1 / d) - w) with (- (lr * (g1 / d))) by ring. rewrite Rabs_Ropp, Rabs_mult. apply Rmult_le_compat_l; [apply Rabs_pos|lra].
Qed.
Lemma rms_fold_step : forall alpha eps mom wd lr (f : R * tensor R -> R) l p, 0 <= alpha < 1 -> 0 < eps -> 0 <= mom < 1 -> rms_calm alpha mom p ->
  let q := fold_left (fun p e => rms_rule alpha eps mom false wd (rate lr (fst e)) (f e) p) l p in
  rms_calm alpha mom q /\ Rabs (fst (fst (fst q)) - fst (fst (fst p))) <= rsum l (fun e => Rabs (rate lr (fst e))) * (U_ alpha / (1 - mom)).
Proof.
  intros alpha eps mom wd lr f l. induction l as [|e l IH]; intros p HA HE HM HP; cbn [fold_left].
  - split; [auto|]. rewrite Rminus_eq_0, Rabs_R0, rsum_nil. lra.
  - destruct (rms_rule_step alpha eps mom wd (rate lr (fst e)) (f e) p HA HE HM HP) as (H1 & H2). set (p1 := rms_rule _ _ _ _ _ _ _ _) in *.
    destruct (IH p1 HA HE HM H1) as (H3 & H4). split; [exact H3|]. set (q := fold_left _ l p1) in *. rewrite rsum_cons.
    replace (fst (fst (fst q)) - fst (fst (fst p))) with ((fst (fst (fst q)) - fst (fst (fst p1))) + (fst (fst (fst p1)) - fst (fst (fst p)))) by ring.
    eapply Rle_trans; [apply Rabs_triang|]. lra.
Qed.
Lemma rms_new_ok : forall D lr alpha eps mom cent wd, rms_ok D (rms_new (T := R) lr alpha eps mom cent wd).
Proof. intros. split; [|split]; intros ? ?; discriminate. Qed.
Lemma rms_bounded : forall D cs0 cs lr alpha eps mom wd (o1 o2 : rms R) st st1 st2 k idx, 0 <= alpha < 1 -> 0 < eps -> 0 <= mom < 1 ->
  store_ok D st -> calls_ok D cs0 -> calls_ok D cs -> in_range (D k) idx ->
  opt_run rms_optimize cs0 (rms_new lr alpha eps mom false wd) st = (o1, st1, Ok tt) -> opt_run rms_optimize (cs0 ++ cs) (rms_new lr alpha eps mom false wd) st = (o2, st2, Ok tt) ->
  Rabs (el (st2 k) idx - el (st1 k) idx) <= rsum (updates k cs) (fun e => Rabs (rate lr (fst e))) / (sqrt (1 - alpha) * (1 - mom)).
Proof.
  intros D cs0 cs lr alpha eps mom wd o1 o2 st st1 st2 k idx HA HE HM HS HC0 HC HI E1 E2.
  destruct (rms_history_spec D cs0 _ st (rms_new_ok D lr alpha eps mom false wd) HS HC0) as (p & q & F & _ & _ & _ & V1). rewrite E1 in F. injection F as <- <-.
  destruct (rms_history_spec D (cs0 ++ cs) _ st (rms_new_ok D lr alpha eps mom false wd) HS (calls_ok_app D _ _ HC0 HC)) as (p & q & F & _ & _ & _ & V2). rewrite E2 in F. injection F as <- <-.
  specialize (V1 k idx HI). specialize (V2 k idx HI). rewrite updates_app, fold_left_app in V2. rewrite <- V1 in V2. cbn [rms_new rp_lr rp_alpha rp_eps rp_mom rp_cent rp_wd rp_sq rp_mean rp_vel] in V1, V2.
  match type of V1 with _ = fold_left _ ?l ?s => destruct (rms_fold_step alpha eps mom wd lr (fun e => el (snd e) idx) l s HA HE HM) as (C1 & _) end.
  { unfold buf_el, rms_calm. cbn. split; [lra|]. rewrite Rabs_R0. apply Rmult_le_pos; [left; apply U_pos; lra|left; apply Rinv_0_lt_compat; lra]. }
  cbv zeta in C1. rewrite <- V1 in C1.
  match type of V2 with _ = fold_left _ ?l ?s => destruct (rms_fold_step alpha eps mom wd lr (fun e => el (snd e) idx) l s HA HE HM C1) as (_ & B) end.
  cbv zeta in B. rewrite <- V2 in B. cbn [fst] in B. eapply Rle_trans; [exact B|]. right. unfold U_. assert (0 < sqrt (1 - alpha)) by (apply sqrt_lt_R0; lra). field. lra.
Qed.

(** ** Adam *)
(** The square of the largest ratio of the first moment to the root of the second. *)
Definition K2 (b1 b2 : R) : R := (1 - b1) ^ 2 * b2 / ((b2 - b1 ^ 2) * (1 - b2)).
Lemma K2_pos : forall b1 b2, 0 <= b1 < 1 -> b1 ^ 2 < b2 < 1 -> 0 < K2 b1 b2.
Proof.
  intros b1 b2 H1 H2. pose proof (pow2_ge_0 b1). unfold K2, Rdiv. apply Rmult_lt_0_compat; [apply Rmult_lt_0_compat; [|lra]|apply Rinv_0_lt_compat, Rmult_lt_0_compat; lra].
  assert (0 < 1 - b1) by lra. nra.
Qed.
Lemma moment_step : forall b1 b2 m v a, 0 <= b1 < 1 -> b1 ^ 2 < b2 < 1 -> 0 <= v -> m ^ 2 <= K2 b1 b2 * v ->
  0 <= b2 * v + (1 - b2) * a * a /\ (b1 * m + (1 - b1) * a) ^ 2 <= K2 b1 b2 * (b2 * v + (1 - b2) * a * a).
Proof.
  intros b1 b2 m v a H1 H2 HV HM. pose proof (pow2_ge_0 b1) as P1. pose proof (pow2_ge_0 a) as PA. split.
  - apply Rplus_le_le_0_compat; [apply Rmult_le_pos; lra|]. rewrite Rmult_assoc. apply Rmult_le_pos; [lra|apply Rle_0_sqr].
  - (* (b1 m + c a)^2 <= b2 m^2 + c^2 b2 / (b2 - b1^2) a^2 *)
    set (c := 1 - b1). set (e := b2 - b1 ^ 2). assert (He : 0 < e) by (unfold e; lra).
    assert (HK : K2 b1 b2 * ((1 - b2) * a * a) = c ^ 2 * b2 / e * a ^ 2) by (unfold K2, c, e; field; lra).
    assert (HQ : (b1 * m + c * a) ^ 2 <= b2 * m ^ 2 + c ^ 2 * b2 / e * a ^ 2).
    { apply Rmult_le_reg_l with e; [auto|]. replace (e * (b2 * m ^ 2 + c ^ 2 * b2 / e * a ^ 2)) with (e * b2 * m ^ 2 + c ^ 2 * b2 * a ^ 2) by (field; lra).
      pose proof (pow2_ge_0 (e * m - b1 * c * a)) as HP. unfold e in *. nra. }
    assert (b2 * m ^ 2 <= b2 * (K2 b1 b2 * v)) by (apply Rmult_le_compat_l; lra). fold c. lra.
Qed.
Lemma bern : forall x n, -1 <= x -> 1 + INR n * x <= (1 + x) ^ n.
Proof.
  intros x n Hx. induction n as [|n IH]; [cbn; lra|]. rewrite S_INR. cbn [pow]. pose proof (pos_INR n).
  assert ((1 + x) * (1 + INR n * x) <= (1 + x) * (1 + x) ^ n) by (apply Rmult_le_compat_l; lra). nra.
Qed.
(** 1 - b2^n <= (1 - b1^n)^2 if it holds for n = 1. *)
Lemma powers : forall b1 b2 n, 0 <= b1 <= 1 -> 1 - b2 <= (1 - b1) ^ 2 -> 1 - b2 ^ n <= (1 - b1 ^ n) ^ 2.
Proof.
  intros b1 b2 n H1 H2. assert (HB : b1 * (1 + (1 - b1)) <= b2) by nra.
  assert (0 <= b1 * (1 + (1 - b1))) by (apply Rmult_le_pos; lra).
  assert (HP : b1 ^ n * (1 + (1 - b1)) ^ n <= b2 ^ n) by (rewrite <- Rpow_mult_distr; apply pow_incr; lra).
  pose proof (bern (1 - b1) n ltac:(lra)) as B1. pose proof (bern (- (1 - b1)) n ltac:(lra)) as B2. replace (1 + - (1 - b1)) with b1 in B2 by ring.
  pose proof (pow_le b1 n (proj1 H1)) as B0. set (u := b1 ^ n) in *. set (z := (1 + (1 - b1)) ^ n) in *. nra.
Qed.
Lemma power_nat : forall b n, (0 <= n)%Z -> powerRZ b n = b ^ Z.to_nat n.
Proof. intros b n H. rewrite pow_powerRZ, Z2Nat.id by auto. reflexivity. Qed.
Lemma tiny_pos : 0 < tiny. Proof. unfold tiny. cbn [s_lit RScalar]. lra. Qed.
Definition adam_K (b1 b2 : R) : R := (1 - b1) * sqrt (b2 / ((b2 - b1 ^ 2) * (1 - b2))).
Lemma adam_K_sqrt : forall b1 b2, 0 <= b1 < 1 -> b1 ^ 2 < b2 < 1 -> sqrt (K2 b1 b2) = adam_K b1 b2.
Proof.
  intros b1 b2 H1 H2. pose proof (pow2_ge_0 b1). unfold adam_K, K2. unfold Rdiv. rewrite Rmult_assoc, sqrt_mult, sqrt_pow2; [reflexivity|lra|apply pow2_ge_0|].
  apply Rmult_le_pos; [lra|left; apply Rinv_0_lt_compat, Rmult_lt_0_compat; lra].
Qed.
Definition adam_calm (b1 b2 : R) (p : R * R * R) : Prop := let '(_, m, v) := p in 0 <= v /\ m ^ 2 <= K2 b1 b2 * v.
Lemma max_R : forall a b : R, (s_max a b = a \/ s_max a b = b) /\ a <= s_max a b /\ b <= s_max a b.
Proof. intros a b. unfold s_max. cbn [s_lt RScalar]. destruct (Rltb a b) eqn:E; [apply Rltb_true in E; split; [auto|lra]|apply Rltb_false in E; split; [auto|lra]]. Qed.
Lemma adam_rule_step : forall b1 b2 eps (n : Z) lr a p, 0 <= b1 < 1 -> b1 ^ 2 < b2 < 1 -> 1 - b2 <= (1 - b1) ^ 2 -> 0 < eps -> (1 <= n)%Z -> adam_calm b1 b2 p ->
  adam_calm b1 b2 (adam_rule b1 b2 eps 0 0 (adam_scaled b1 b2) n lr a p) /\
  Rabs (fst (fst (adam_rule b1 b2 eps 0 0 (adam_scaled b1 b2) n lr a p)) - fst (fst p)) <= Rabs lr * (adam_K b1 b2 / (1 - tiny)).
Proof.
  intros b1 b2 eps n lr a ((w & m) & v) H1 H2 H3 HE Hn (HV & HM). unfold adam_rule, adam_m, adam_v, adam_scaled. cbn [s_add s_sub s_mul s_div s_z s_lt s_sqrt s_powi s_corr RScalar fst snd adam_calm].
  rewrite (proj2 (Rltb_false 0 0)) by lra. destruct (moment_step b1 b2 m v a H1 H2 HV HM) as (HV1 & HM1). set (m1 := b1 * m + (1 - b1) * a) in *. set (v1 := b2 * v + (1 - b2) * a * a) in *.
  split; [split; auto|]. rewrite !power_nat by lia. set (N := Z.to_nat n). assert (HN : (0 < N)%nat) by lia.
  pose proof (pow2_ge_0 b1) as PB. pose proof (K2_pos b1 b2 H1 H2) as HK. pose proof tiny_pos as T0. pose proof tiny_small as T1.
  assert (L1 : forall b, 0 <= b < 1 -> 0 <= b ^ N < 1).
  { intros b Hb. split; [apply pow_le; lra|]. destruct N as [|N']; [lia|]. cbn [pow]. assert (b ^ N' <= 1) by (rewrite <- (pow1 N'); apply pow_incr; lra). assert (0 <= b ^ N') by (apply pow_le; lra). nra. }
  pose proof (L1 b1 H1) as P1. pose proof (L1 b2 ltac:(lra)) as P2. pose proof (powers b1 b2 N ltac:(lra) H3) as PW.
  set (p1 := b1 ^ N) in *. set (p2 := b2 ^ N) in *. destruct (max_R p2 tiny) as (M2 & M2a & M2b). destruct (max_R p1 tiny) as (M1 & M1a & M1b). set (q1 := s_max p1 tiny) in *. set (q2 := s_max p2 tiny) in *.
  assert (Q1 : q1 < 1) by (destruct M1 as [-> | ->]; lra). assert (Q2 : q2 < 1) by (destruct M2 as [-> | ->]; lra).
  (* (1 - p1) (1 - tiny) <= 1 - q1 *)
  assert (QB : (1 - p1) * (1 - tiny) <= 1 - q1) by (destruct M1 as [-> | ->]; nra).
  set (S2 := sqrt (1 - p2)). assert (HS2 : 0 < S2) by (apply sqrt_lt_R0; lra). assert (ES2 : S2 * S2 = 1 - p2) by (apply sqrt_sqrt; lra).
  assert (HSq : sqrt (1 - q2) <= S2) by (apply sqrt_le_1_alt; lra). pose proof (sqrt_pos (1 - q2)) as HSq0.
  set (sv := sqrt v1). assert (Hsv : 0 <= sv) by apply sqrt_pos. 
  assert (Esv : sqrt (v1 / (1 - p2)) = sv / S2) by (apply sqrt_div_alt; lra).
  rewrite Esv. set (K := adam_K b1 b2). assert (EK : sqrt (K2 b1 b2) = K) by (apply adam_K_sqrt; auto).
  assert (HKp : 0 < K) by (rewrite <- EK; apply sqrt_lt_R0; auto).
  assert (Hm : Rabs m1 <= K * sv). { rewrite <- EK. unfold sv. rewrite <- sqrt_mult by lra. rewrite <- sqrt_Rsqr_abs. apply sqrt_le_1_alt. unfold Rsqr. lra. }
  match goal with |- Rabs (w - ?u - w) <= _ => replace (w - u - w) with (- u) by ring; rewrite Rabs_Ropp; set (U := u) end.
  set (X := sv / S2 + eps). assert (HSd : 0 <= sv / S2) by (apply Rmult_le_pos; [auto|left; apply Rinv_0_lt_compat; auto]). assert (HX : 0 < X) by (unfold X; lra).
  assert (EU : U = lr * (m1 * (sqrt (1 - q2) / ((1 - q1) * (1 - p1) * X)))) by (unfold U; fold X; field; lra).
  rewrite EU, Rabs_mult. apply Rmult_le_compat_l; [apply Rabs_pos|]. set (Y := (1 - q1) * (1 - p1) * X). assert (HY : 0 < Y) by (unfold Y; apply Rmult_lt_0_compat; [apply Rmult_lt_0_compat; lra|auto]).
  rewrite Rabs_mult, (Rabs_pos_eq (sqrt (1 - q2) / Y)) by (apply Rmult_le_pos; [auto|left; apply Rinv_0_lt_compat; auto]).
  apply Rmult_le_reg_r with Y; [auto|]. replace (Rabs m1 * (sqrt (1 - q2) / Y) * Y) with (Rabs m1 * sqrt (1 - q2)) by (field; lra).
  assert (A1 : Rabs m1 * sqrt (1 - q2) <= K * sv * S2) by (apply Rmult_le_compat; [apply Rabs_pos|auto|auto|auto]).
  assert (A2 : sv <= S2 * X) by (unfold X; replace (S2 * (sv / S2 + eps)) with (sv + S2 * eps) by (field; lra); assert (0 < S2 * eps) by (apply Rmult_lt_0_compat; auto); lra).
  assert (A3 : K * sv * S2 <= K * ((1 - p2) * X)). { rewrite Rmult_assoc. apply Rmult_le_compat_l; [lra|]. rewrite <- ES2. nra. }
  assert (A4 : K * ((1 - p2) * X) <= K * ((1 - p1) ^ 2 * X)) by (apply Rmult_le_compat_l; [lra|]; apply Rmult_le_compat_r; lra).
  eapply Rle_trans; [exact A1|]. eapply Rle_trans; [exact A3|]. eapply Rle_trans; [exact A4|].
  assert (A5 : (1 - p1) <= (1 - q1) / (1 - tiny)) by (apply Rmult_le_reg_r with (1 - tiny); [lra|]; unfold Rdiv; rewrite Rmult_assoc, Rinv_l by lra; lra).
  replace (K / (1 - tiny) * Y) with (K * ((1 - q1) / (1 - tiny) * (1 - p1) * X)) by (unfold Y; field; lra). apply Rmult_le_compat_l; [lra|]. apply Rmult_le_compat_r; [lra|].
  replace ((1 - p1) ^ 2) with ((1 - p1) * (1 - p1)) by ring. apply Rmult_le_compat_r; lra.
Qed.
Lemma numbered_app : forall {T} k (a b : list (call T)) n, numbered n k (a ++ b) = numbered n k a ++ numbered (n + Zlen a) k b.
Proof.
  intros T k a b. induction a as [|c a IH]; intros n; [cbn [app numbered]; rewrite Zlen_nil, Z.add_0_r; reflexivity|]. cbn [app numbered]. rewrite IH, Zlen_cons, app_assoc. do 2 f_equal. lia.
Qed.
Lemma numbered_ge : forall {T} k (a : list (call T)) n e, In e (numbered n k a) -> (n <= fst (fst e))%Z.
Proof.
  intros T k a. induction a as [|c a IH]; intros n e HI; [destruct HI|]. cbn [numbered] in HI. apply in_app_or in HI. destruct HI as [HI|HI].
  - apply in_map_iff in HI. destruct HI as (g & <- & _). cbn [fst]. lia.
  - apply IH in HI. lia.
Qed.
Lemma adam_fold_step : forall b1 b2 eps lr (f : Z * R * tensor R -> R) l p, 0 <= b1 < 1 -> b1 ^ 2 < b2 < 1 -> 1 - b2 <= (1 - b1) ^ 2 -> 0 < eps -> (forall e, In e l -> (1 <= fst (fst e))%Z) -> adam_calm b1 b2 p ->
  let q := fold_left (fun p e => adam_rule b1 b2 eps 0 0 (adam_scaled b1 b2) (fst (fst e)) (lr e) (f e) p) l p in
  adam_calm b1 b2 q /\ Rabs (fst (fst q) - fst (fst p)) <= rsum l (fun e => Rabs (lr e)) * (adam_K b1 b2 / (1 - tiny)).
Proof.
  intros b1 b2 eps lr f l. induction l as [|e l IH]; intros p H1 H2 H3 HE HL HP; cbn [fold_left].
  - split; [auto|]. rewrite Rminus_eq_0, Rabs_R0, rsum_nil. lra.
  - destruct (adam_rule_step b1 b2 eps (fst (fst e)) (lr e) (f e) p H1 H2 H3 HE (HL e (or_introl eq_refl)) HP) as (C1 & B1). set (p1 := adam_rule _ _ _ _ _ _ _ _ _ _) in *.
    destruct (IH p1 H1 H2 H3 HE (fun e' HI => HL e' (or_intror HI)) C1) as (C2 & B2). split; [exact C2|]. set (q := fold_left _ l p1) in *. rewrite rsum_cons.
    replace (fst (fst q) - fst (fst p)) with ((fst (fst q) - fst (fst p1)) + (fst (fst p1) - fst (fst p))) by ring.
    eapply Rle_trans; [apply Rabs_triang|]. lra.
Qed.
Lemma adam_bounded : forall D cs0 cs lr b1 b2 eps decay batch (o1 o2 : adam R) st st1 st2 k idx, 0 <= b1 < 1 -> b1 ^ 2 < b2 < 1 -> 1 - b2 <= (1 - b1) ^ 2 -> 0 < eps ->
  store_ok D st -> calls_ok D cs0 -> calls_ok D cs -> (Zlen cs0 + Zlen cs <= INT_MAX)%Z -> in_range (D k) idx ->
  opt_run adam_optimize cs0 (adam_new lr b1 b2 eps 0 0 decay batch) st = (o1, st1, Ok tt) -> opt_run adam_optimize (cs0 ++ cs) (adam_new lr b1 b2 eps 0 0 decay batch) st = (o2, st2, Ok tt) ->
  Rabs (el (st2 k) idx - el (st1 k) idx) <= rsum (numbered (Zlen cs0 + 1) k cs) (fun e => Rabs (adam_lr lr decay (fst (fst e)) (snd (fst e)))) * ((1 - b1) * sqrt (b2 / ((b2 - b1 ^ 2) * (1 - b2))) / (1 - tiny)).
Proof.
  intros D cs0 cs lr b1 b2 eps decay batch o1 o2 st st1 st2 k idx H1 H2 H3 HE HS HC0 HC HL HI E1 E2. pose proof (Zlen_nonneg cs0). pose proof (Zlen_nonneg cs).
  assert (HN : adam_ok D (adam_new (T := R) lr b1 b2 eps 0 0 decay batch)) by (split; intros ? ?; discriminate).
  destruct (adam_history_spec D cs0 _ st HN HS (Z.le_refl _) ltac:(cbn [adam_new ad_it]; lia) HC0) as (p & q & F & _ & _ & _ & V1). rewrite E1 in F. injection F as <- <-.
  destruct (adam_history_spec D (cs0 ++ cs) _ st HN HS (Z.le_refl _) ltac:(cbn [adam_new ad_it]; rewrite Zlen_app; lia) (calls_ok_app D _ _ HC0 HC)) as (p & q & F & _ & _ & _ & V2). rewrite E2 in F. injection F as <- <-.
  specialize (V1 k idx HI). specialize (V2 k idx HI). rewrite numbered_app, fold_left_app in V2. rewrite <- V1 in V2. cbn [adam_new ad_init ad_lr ad_b1 ad_b2 ad_eps ad_l1 ad_l2 ad_decay ad_it ad_batch ad_m ad_v] in V1, V2.
  replace (0 + 1 + Zlen cs0)%Z with (Zlen cs0 + 1)%Z in V2 by lia.
  match type of V1 with _ = fold_left _ ?l ?s => destruct (adam_fold_step b1 b2 eps (fun e => adam_lr lr decay (fst (fst e)) (snd (fst e))) (fun e => el (snd e) idx / IZR batch) l s H1 H2 H3 HE) as (C1 & _) end.
  { intros e HIn. apply numbered_ge in HIn. lia. } { unfold buf_el, adam_calm. cbn. lra. }
  cbv zeta in C1. cbn [s_div s_z RScalar] in V1, V2. rewrite <- V1 in C1.
  match type of V2 with _ = fold_left _ ?l ?s => destruct (adam_fold_step b1 b2 eps (fun e => adam_lr lr decay (fst (fst e)) (snd (fst e))) (fun e => el (snd e) idx / IZR batch) l s H1 H2 H3 HE) as (_ & B); [|exact C1|] end.
  { intros e HIn. apply numbered_ge in HIn. lia. }
  cbv zeta in B. rewrite <- V2 in B. cbn [fst] in B. exact B.
Qed.

(** ** Centered RMSProp: no bound.  Decay 1/2, epsilon 1, rate 1; 2j equal gradients 4^j. *)
Definition cent_rule (g : R) : R * R * R * R -> R * R * R * R := rms_rule (1 / 2) 1 0 true 0 1 g.
Lemma cent_state : forall g n p, exists w, fold_left (fun p (_ : R * tensor R) => cent_rule g p) (repeat p n) (0, 0, 0, 0) = (w, (1 - (1 / 2) ^ n) * g ^ 2, (1 - (1 / 2) ^ n) * g, 0).
Proof.
  intros g n p. induction n as [|n (w & IH)].
  - exists 0. cbn. do 3 f_equal; ring.
  - change (repeat p (S n)) with (p :: repeat p n). rewrite repeat_cons, fold_left_app, IH. cbn [fold_left]. unfold cent_rule, rms_rule. cbn [s_eq s_lt s_add s_mul s_sub s_div s_sqrt s_z RScalar].
    rewrite (proj2 (Reqb_true 0 0)), (proj2 (Rltb_false 0 0)) by (auto; lra). eexists. f_equal. cbn [pow]. f_equal; [f_equal|]; field.
Qed.
Lemma cent_move : forall j n p w, S n = (2 * j)%nat ->
  fold_left (fun p (_ : R * tensor R) => cent_rule (4 ^ j) p) (repeat p n) (0, 0, 0, 0) = (w, (1 - (1 / 2) ^ n) * (4 ^ j) ^ 2, (1 - (1 / 2) ^ n) * 4 ^ j, 0) ->
  fst (fst (fst (fold_left (fun p (_ : R * tensor R) => cent_rule (4 ^ j) p) (repeat p n ++ [p]) (0, 0, 0, 0)))) = w - 2 ^ j.
Proof.
  intros j n p w HN E. rewrite fold_left_app, E. cbn [fold_left]. unfold cent_rule, rms_rule. cbn [s_eq s_lt s_add s_mul s_sub s_div s_sqrt s_z RScalar fst].
  rewrite (proj2 (Reqb_true 0 0)), (proj2 (Rltb_false 0 0)) by (auto; lra). f_equal. rewrite Rmult_1_l.
  assert (E2 : (1 / 2) ^ n = 2 * / (4 ^ j)). { replace 4 with (2 * 2) by ring. rewrite Rpow_mult_distr. assert (P : 0 < 2 ^ j) by (apply pow_lt; lra). assert (Q : (1 / 2) ^ S n = / (2 ^ j * 2 ^ j)).
    { rewrite HN. replace (2 * j)%nat with (j + j)%nat by lia. rewrite pow_add. replace (1 / 2) with (/ 2) by field. rewrite pow_inv. field. lra. } cbn [pow] in Q. lra. }
  assert (P4 : 4 ^ j = 2 ^ j * 2 ^ j) by (replace 4 with (2 * 2) by ring; apply Rpow_mult_distr). assert (P : 0 < 2 ^ j) by (apply pow_lt; lra).
  match goal with |- _ / sqrt ?a = _ => replace a with (2 ^ j * 2 ^ j) end.
  - rewrite sqrt_square by lra. rewrite P4. field. lra.
  - rewrite E2, P4. field. lra.
Qed.
Definition cent_call (g : R) : call R := (-1, [(1%Z, cR g)]).
Lemma cent_updates : forall g n, updates 1 (repeat (cent_call g) n) = repeat (-1, cR g) n.
Proof. intros g n. induction n as [|n IH]; [reflexivity|]. cbn [repeat]. unfold updates in *. cbn [flat_map]. rewrite IH. reflexivity. Qed.
Lemma rms_centered : forall B : R, exists D cs c (o1 o2 : rms R) st st1 st2, store_ok D st /\ calls_ok D (cs ++ [c]) /\ (exists g, c = (-1, [(1%Z, g)])) /\ in_range (D 1%Z) [0%Z] /\
  opt_run rms_optimize cs (rms_new 1 (1 / 2) 1 0 true 0) st = (o1, st1, Ok tt) /\ opt_run rms_optimize (cs ++ [c]) (rms_new 1 (1 / 2) 1 0 true 0) st = (o2, st2, Ok tt) /\
  B < Rabs (el (st2 1%Z) [0%Z] - el (st1 1%Z) [0%Z]).
Proof.
  intros B. set (j0 := Z.to_nat (up B)). assert (HJ : B < INR j0). { destruct (archimed B) as (HU & _). unfold j0. rewrite INR_IZR_INZ. assert (IZR (up B) <= IZR (Z.of_nat (Z.to_nat (up B)))) by (apply IZR_le; lia). lra. }
  set (j := S j0). set (n := (2 * j - 1)%nat). set (g := 4 ^ j). set (cs := repeat (cent_call g) n).
  assert (CO : forall m, calls_ok D1 (repeat (cent_call g) m)) by (intros m; induction m as [|m IH]; [constructor|]; cbn [repeat]; constructor; [repeat constructor; apply cR_good|exact IH]).
  assert (CA : calls_ok D1 (cs ++ [cent_call g])) by (apply calls_ok_app; [apply CO|apply (CO 1%nat)]).
  pose proof (rms_new_ok D1 1 (1 / 2) 1 0 true 0) as HO.
  destruct (rms_history_spec D1 cs _ stR HO stR_ok (CO n)) as (o1 & st1 & E1 & _ & _ & _ & V1).
  destruct (rms_history_spec D1 (cs ++ [cent_call g]) _ stR HO stR_ok CA) as (o2 & st2 & E2 & _ & _ & _ & V2).
  assert (HI : in_range (D1 1%Z) [0%Z]) by (apply in_range1; lia).
  exists D1, cs, (cent_call g), o1, o2, stR, st1, st2. split; [exact stR_ok|]. split; [exact CA|]. split; [exists (cR g); reflexivity|]. split; [exact HI|]. split; [exact E1|]. split; [exact E2|].
  specialize (V1 1%Z [0%Z] HI). specialize (V2 1%Z [0%Z] HI). rewrite updates_app in V2. unfold cs in V1, V2. rewrite cent_updates in V1, V2. cbn [rms_new rp_lr rp_alpha rp_eps rp_mom rp_cent rp_wd rp_sq rp_mean rp_vel] in V1, V2.
  change (updates 1 [cent_call g]) with [(-1, cR g)] in V2. change (buf_el (fun _ : Z => None) 1 [0%Z]) with 0 in V1, V2. change (el (stR 1%Z) [0%Z]) with 0 in V1, V2.
  assert (FE : forall l s, Forall (eq (-1, cR g)) l -> fold_left (fun p e => rms_rule (1 / 2) 1 0 true 0 (rate 1 (fst e)) (el (snd e) [0%Z]) p) l s = fold_left (fun p (_ : R * tensor R) => cent_rule g p) l s).
  { intros l. induction l as [|e l IH]; intros s HF; [reflexivity|]. inversion HF as [|? ? HE HF']; subst. cbn [fold_left]. rewrite IH by auto. f_equal.
    unfold cent_rule, rate. cbn [fst snd s_lt s_z RScalar]. rewrite (proj2 (Rltb_false 0 (-1))) by lra. rewrite el_cR. reflexivity. }
  assert (FR : forall m, Forall (eq (-1, cR g)) (repeat (-1, cR g) m)) by (intros m; induction m; cbn [repeat]; constructor; auto).
  rewrite FE in V1 by apply FR. rewrite FE in V2 by (apply Forall_app; split; [apply FR|apply (FR 1%nat)]).
  destruct (cent_state g n (-1, cR g)) as (w & EW). pose proof (cent_move j n (-1, cR g) w ltac:(unfold n, j; lia) EW) as HM. fold g in HM.
  apply (f_equal (fun p => fst (fst (fst p)))) in V2. cbn [fst] in V2. rewrite HM in V2. rewrite EW in V1. assert (EV1 : el (st1 1%Z) [0%Z] = w) by congruence.
  rewrite V2, EV1. replace (w - 2 ^ j - w) with (- (2 ^ j)) by ring. rewrite Rabs_Ropp, Rabs_pos_eq by (apply pow_le; lra).
  pose proof (bern 1 j ltac:(lra)) as HB. replace (1 + 1) with 2 in HB by ring. unfold j in HB at 1. rewrite S_INR in HB. lra.
Qed.
