(** * A float32 network stays close to the exact one (C122) *)
From Coq Require Import Reals Lra SpecFloat.
From Flocq Require Import Core BinarySingleNaN.
From Verif Require Import Base Scalar ScalarR Types Spec SpecNN SpecR SpecF32 M_Shape M_Tensor M_Adv M_Act M_Layers M_Reg M_Net L_Index L_Shape L_Tensor L_Nest L_Matmul L_RSum L_AdvR L_Act L_ActR L_Layers L_Conv L_Float L_FloatAct L_FloatLib L_FloatT L_Drop L_Batch L_Slice SpecNear.
Local Open Scope R_scope.
Local Notation V := (SF2R radix2).
Local Notation fadd := (SFadd f32_prec f32_emax).
Local Notation fmul := (SFmul f32_prec f32_emax).

(** ** Numbers *)
Lemma big_is : big = 2 ^ 128.
Proof. unfold big. change f32_emax with (Z.of_nat 128). rewrite bpow_powerRZ, <- pow_powerRZ. reflexivity. Qed.
Lemma p128 : 2 ^ 128 = 256 * 2 ^ 120.
Proof. replace 128%nat with (8 + 120)%nat by reflexivity. rewrite pow_add. f_equal. lra. Qed.
Lemma p120 : 1024 <= 2 ^ 120.
Proof. replace 120%nat with (10 + 110)%nat by reflexivity. rewrite pow_add. pose proof (pow_R1_Rle 2 110). lra. Qed.
Lemma tiny_lt : tiny_half <= / 2 ^ 24.
Proof. unfold tiny_half. apply Rinv_le_contravar; [apply pow_lt; lra|]. apply Rle_pow; [lra|lia]. Qed.
Lemma ulp_is : ulp_half = / 2 ^ 24. Proof. reflexivity. Qed.
Lemma p24 : 2 ^ 24 = 2 * 2 ^ 23. Proof. reflexivity. Qed.
Lemma p23 : IZR (2 ^ 23)%Z = 2 ^ 23. Proof. symmetry. apply (pow_IZR 2 23). Qed.
Lemma growth_le1 : forall n, (Z.of_nat n <= 2 ^ 23)%Z -> (1 + ulp_half) ^ n <= 2 /\ (1 + ulp_half) ^ n - 1 <= INR n / 2 ^ 23.
Proof.
  intros n H. assert (H0 : 0 < 2 ^ 23) by (apply pow_lt; lra). assert (HR : INR n <= 2 ^ 23). { rewrite INR_IZR_INZ. rewrite <- p23. apply IZR_le. exact H. }
  assert (HU : ulp_half * 2 ^ 23 = / 2). { rewrite ulp_is, p24, Rinv_mult. field. }
  pose proof (growth_bound (Z.of_nat n) ltac:(lia)) as G. rewrite <- INR_IZR_INZ in G. pose proof (pos_INR n) as HN. pose proof ulp_pos as Hu.
  assert (HH : INR n * ulp_half <= / 2) by (rewrite <- HU; nra). specialize (G HH). unfold growth in G. rewrite Nat2Z.id in G.
  assert (E2 : 2 * INR n * ulp_half = INR n / 2 ^ 23). { rewrite ulp_is, p24, Rinv_mult. field. }
  rewrite E2 in G. split; [|exact G]. assert (INR n / 2 ^ 23 <= 1). { unfold Rdiv. rewrite <- (Rinv_r (2 ^ 23)) by lra. apply Rmult_le_compat_r; [left; apply Rinv_0_lt_compat; auto|auto]. } lra.
Qed.

Section N.
Variable lm : libm.
Let SF : Scalar f32 := F32Scalar lm.
#[local] Existing Instance SF.
Local Notation dotl := (L_Float.dotl lm).

(** ** Inner products *)
Lemma dotl_snoc : forall {A} (l : list A) f g a, dotl (l ++ [a]) f g = fadd (dotl l f g) (fmul (f a) (g a)).
Proof. intros A l f g a. unfold L_Float.dotl. rewrite map_app. cbn [map]. apply (fsum_snoc lm). Qed.
Lemma rnd_small : forall r, Rabs r <= 100 * 2 ^ 120 -> Rabs (rnd r) < big.
Proof.
  intros r H. pose proof (rnd_err r) as E. pose proof ulp_pos as Hu. pose proof tiny_lt as Ht. pose proof p120 as P. rewrite big_is, p128.
  assert (Rabs (rnd r) <= Rabs r + (ulp_half * Rabs r + tiny_half)). { replace (rnd r) with (r + (rnd r - r)) by ring. eapply Rle_trans; [apply Rabs_triang|]. lra. }
  assert (ulp_half * Rabs r <= Rabs r) by (pose proof (Rabs_pos r); nra). assert (/ 2 ^ 24 <= 1). { rewrite <- Rinv_1. apply Rinv_le_contravar; [lra|]. apply pow_R1_Rle. lra. } lra.
Qed.
Lemma dot_small : forall {A} (l : list A) f g, (Zlen l <= 2 ^ 23)%Z -> (forall a, In a l -> good_f (f a)) -> (forall a, In a l -> good_f (g a)) -> rsum l (fun a => Rabs (V (f a) * V (g a))) <= 2 ^ 120 ->
  fin (dotl l f g) /\ Rabs (V (dotl l f g)) <= 3 * 2 ^ 120.
Proof.
  intros A l f g. induction l as [|a l IH] using rev_ind; intros HL Hf Hg HD.
  - split; [reflexivity|]. change (V (dotl [] f g)) with 0. rewrite Rabs_R0. pose proof p120. lra.
  - assert (HL' : (Zlen l + 1 <= 2 ^ 23)%Z) by (unfold Zlen in *; rewrite app_length in HL; cbn [length] in HL; lia).
    pose proof HD as HD'. rewrite rsum_app, rsum_cons in HD. change (rsum [] (fun a => Rabs (V (f a) * V (g a)))) with 0 in HD. pose proof (Rabs_pos (V (f a) * V (g a))) as P1.
    assert (P2 : 0 <= rsum l (fun a => Rabs (V (f a) * V (g a)))) by (apply rsum_nonneg; intros; apply Rabs_pos).
    destruct IH as (F1 & B1); [lia|intros b Hb; apply Hf, in_or_app; auto|intros b Hb; apply Hg, in_or_app; auto|lra|].
    destruct (Hf a) as (Va & Fa); [apply in_or_app; right; left; reflexivity|]. destruct (Hg a) as (Vb & Fb); [apply in_or_app; right; left; reflexivity|].
    pose proof p120 as P. assert (FM : fin (fmul (f a) (g a))) by (apply mul_in; auto; apply rnd_small; lra). destruct (mul_fin _ _ Va Vb FM) as (_ & _ & EM). pose proof (mul_vok _ _ Va Vb) as VM.
    assert (VD : vok (dotl l f g)) by (apply (fsum_vok lm), dot_vok; intros b Hb; [apply Hf|apply Hg]; apply in_or_app; auto).
    assert (BM : Rabs (V (fmul (f a) (g a))) <= 3 * 2 ^ 120). { rewrite EM. pose proof (rnd_err (V (f a) * V (g a))) as E. pose proof ulp_pos. pose proof tiny_lt. set (p := V (f a) * V (g a)) in *.
      replace (rnd p) with (p + (rnd p - p)) by ring. eapply Rle_trans; [apply Rabs_triang|]. assert (ulp_half * Rabs p <= Rabs p) by nra. assert (/ 2 ^ 24 <= 1) by (rewrite <- Rinv_1; apply Rinv_le_contravar; [lra|apply pow_R1_Rle; lra]). lra. }
    assert (FS : fin (dotl (l ++ [a]) f g)). { rewrite dotl_snoc. apply add_in; auto. apply rnd_small. eapply Rle_trans; [apply Rabs_triang|]. lra. }
    split; [exact FS|]. pose proof (dot_err lm (l ++ [a]) f g) as E. specialize (E ltac:(intros b Hb; apply Hf; auto) ltac:(intros b Hb; apply Hg; auto) FS).
    destruct (growth_le1 (length (l ++ [a]))) as (G1 & G2); [unfold Zlen in HL; exact HL|]. set (q := (1 + ulp_half) ^ length (l ++ [a])) in *.
    set (D := rsum (l ++ [a]) (fun a => Rabs (V (f a) * V (g a)))) in *. assert (HA : Rabs (rsum (l ++ [a]) (fun a => V (f a) * V (g a))) <= D) by apply rsum_abs.
    assert (HN : INR (length (l ++ [a])) * tiny_half <= 1). { rewrite INR_IZR_INZ. apply Rle_trans with (IZR (2 ^ 23) * / 2 ^ 24); [apply Rmult_le_compat; [apply IZR_le; lia|left; apply tiny_half_pos|apply IZR_le; unfold Zlen in HL; lia|apply tiny_lt]|].
      rewrite p23. rewrite p24, Rinv_mult. assert (0 < 2 ^ 23) by (apply pow_lt; lra). replace (2 ^ 23 * (/ 2 * / 2 ^ 23)) with (/ 2) by (field; lra). lra. }
    assert (1 <= q) by apply pow_ge1. assert (0 <= D) by (apply rsum_nonneg; intros; apply Rabs_pos).
    set (s := V (dotl (l ++ [a]) f g)) in *. set (r := rsum (l ++ [a]) (fun a => V (f a) * V (g a))) in *. replace s with (r + (s - r)) by ring. eapply Rle_trans; [apply Rabs_triang|].
    assert ((q - 1) * D <= D) by nra. assert (q * INR (length (l ++ [a])) * tiny_half <= 2). { rewrite Rmult_assoc. apply Rle_trans with (2 * 1); [|lra]. apply Rmult_le_compat; try lra. apply Rmult_le_pos; [apply pos_INR|left; apply tiny_half_pos]. } lra.
Qed.
Lemma affine_close : forall {A} (l : list A) (f g : A -> f32) (b : f32) (x : A -> R) n SA SB M E, Zlen l = n -> (n < 2 ^ 23)%Z -> 0 <= M -> 0 <= E ->
  (forall a, In a l -> good_f (f a)) -> (forall a, In a l -> good_f (g a)) -> good_f b -> (forall a, In a l -> Rabs (x a) <= M /\ Rabs (V (f a) - x a) <= E) ->
  rsum l (fun a => Rabs (V (g a))) <= SA -> Rabs (V b) <= SB -> SA * (M + E) + SB <= 2 ^ 120 ->
  let r := fadd (dotl l f g) b in good_f r /\ Rabs (rsum l (fun a => x a * V (g a)) + V b) <= SA * M + SB /\
    Rabs (V r - (rsum l (fun a => x a * V (g a)) + V b)) <= next_error n SA SB M E.
Proof.
  intros A l f g b x n SA SB M E HL Hn HM HE Hf Hg (Vb & Fb) Hx HA HB HS r. set (D := rsum l (fun a => Rabs (V (f a) * V (g a)))). pose proof (Rabs_pos (V b)) as Pb.
  assert (HG0 : 0 <= rsum l (fun a => Rabs (V (g a)))) by (apply rsum_nonneg; intros; apply Rabs_pos).
  assert (HD : D <= SA * (M + E)). { unfold D. apply Rle_trans with (rsum l (fun a => (M + E) * Rabs (V (g a)))).
    - apply rsum_le. intros a Ha. rewrite Rabs_mult. apply Rmult_le_compat_r; [apply Rabs_pos|]. destruct (Hx a Ha) as (A1 & A2). replace (V (f a)) with (x a + (V (f a) - x a)) by ring. eapply Rle_trans; [apply Rabs_triang|]. lra.
    - rewrite rsum_scal_l. rewrite Rmult_comm. apply Rmult_le_compat_r; lra. }
  assert (HD0 : 0 <= D) by (apply rsum_nonneg; intros; apply Rabs_pos).
  assert (D120 : D <= 2 ^ 120) by lra.
  destruct (dot_small l f g ltac:(lia) Hf Hg D120) as (F1 & B1). assert (VD : vok (dotl l f g)) by (apply (fsum_vok lm), dot_vok; intros a Ha; [apply Hf|apply Hg]; auto).
  pose proof p120 as P. assert (FR : fin r) by (apply add_in; auto; apply rnd_small; eapply Rle_trans; [apply Rabs_triang|]; lra).
  split; [split; [apply add_vok; auto|exact FR]|].
  assert (HX : Rabs (rsum l (fun a => x a * V (g a))) <= SA * M). { eapply Rle_trans; [apply rsum_abs|]. apply Rle_trans with (rsum l (fun a => M * Rabs (V (g a)))).
    - apply rsum_le. intros a Ha. rewrite Rabs_mult. apply Rmult_le_compat_r; [apply Rabs_pos|]. apply Hx; auto.
    - rewrite rsum_scal_l, Rmult_comm. apply Rmult_le_compat_r; lra. }
  split; [eapply Rle_trans; [apply Rabs_triang|]; lra|].
  pose proof (affine_err lm l f g b ltac:(intros a Ha; apply Hf; auto) ltac:(intros a Ha; apply Hg; auto) Vb FR) as EA. fold r in EA. fold D in EA.
  destruct (growth_le1 (Datatypes.S (length l))) as (G1 & G2); [unfold Zlen in HL; lia|]. set (q := (1 + ulp_half) ^ Datatypes.S (length l)) in *.
  assert (HI : INR (Datatypes.S (length l)) = IZR (n + 1)) by (rewrite INR_IZR_INZ; f_equal; unfold Zlen in HL; lia). assert (HI2 : INR (length l) = IZR n) by (rewrite INR_IZR_INZ; f_equal; unfold Zlen in HL; lia).
  rewrite HI in G2. rewrite HI2 in EA. assert (1 <= q) by apply pow_ge1.
  assert (HDx : Rabs (rsum l (fun a => V (f a) * V (g a)) - rsum l (fun a => x a * V (g a))) <= SA * E). { rewrite <- rsum_minus. eapply Rle_trans; [apply rsum_abs|]. apply Rle_trans with (rsum l (fun a => E * Rabs (V (g a)))).
    - apply rsum_le. intros a Ha. replace (V (f a) * V (g a) - x a * V (g a)) with ((V (f a) - x a) * V (g a)) by ring. rewrite Rabs_mult. apply Rmult_le_compat_r; [apply Rabs_pos|]. apply Hx; auto.
    - rewrite rsum_scal_l, Rmult_comm. apply Rmult_le_compat_r; lra. }
  unfold next_error. assert (HN0 : 0 <= IZR n) by (rewrite <- HI2; apply pos_INR).
  assert (T1 : (q - 1) * (D + Rabs (V b)) <= IZR (n + 1) * (SA * (M + E) + SB) / 2 ^ 23). { replace (IZR (n + 1) * (SA * (M + E) + SB) / 2 ^ 23) with (IZR (n + 1) / 2 ^ 23 * (SA * (M + E) + SB)) by (unfold Rdiv; ring). apply Rmult_le_compat; lra. }
  assert (T2 : q * IZR n * tiny_half <= IZR n / 2 ^ 148). { apply Rle_trans with (2 * IZR n * tiny_half); [apply Rmult_le_compat_r; [left; apply tiny_half_pos|]; nra|]. unfold tiny_half. replace (2 ^ 150) with (4 * 2 ^ 148) by (replace 150%nat with (2 + 148)%nat by reflexivity; rewrite pow_add; f_equal; lra).
    assert (0 < 2 ^ 148) by (apply pow_lt; lra). rewrite Rinv_mult. assert (0 <= IZR n * / 2 ^ 148) by (apply Rmult_le_pos; [auto|left; apply Rinv_0_lt_compat; auto]). unfold Rdiv. lra. }
  replace (V r - (rsum l (fun a => x a * V (g a)) + V b)) with ((V r - (rsum l (fun a => V (f a) * V (g a)) + V b)) + (rsum l (fun a => V (f a) * V (g a)) - rsum l (fun a => x a * V (g a)))) by ring.
  eapply Rle_trans; [apply Rabs_triang|]. lra.
Qed.

(** ** Activations *)
Lemma relu_close : forall (v : f32) (r M E : R), good_f v -> Rabs r <= M -> Rabs (V v - r) <= E ->
  good_f (act_el ReLU v) /\ Rabs (act_el ReLU r) <= M /\ Rabs (V (act_el ReLU v) - act_el ReLU r) <= E.
Proof.
  intros v r M E (Hv & Fv) HM HE. destruct (relu_in lm v Hv Fv) as (R1 & R2 & _). split; [split; auto|]. cbn [act_el].
  assert (EV : V (s_max zero v) = Rmax 0 (V v)). { unfold s_max. change (s_lt zero v) with (SFltb (f32_of_Z 0) v). rewrite ltb_V by (auto; reflexivity). change (V (f32_of_Z 0)) with 0. destruct (Rlt_bool_spec 0 (V v)); [rewrite Rmax_right by lra; reflexivity|rewrite Rmax_left by lra; reflexivity]. }
  assert (ER : s_max zero r = Rmax 0 r). { unfold s_max. change (s_lt zero r) with (Rltb 0 r). unfold Rltb; destruct (Rlt_dec 0 r); [rewrite Rmax_right by lra; reflexivity|rewrite Rmax_left by lra; reflexivity]. }
  rewrite EV, ER. split.
  - destruct (Rle_dec 0 r); [rewrite Rmax_right by lra; auto|rewrite Rmax_left by lra; rewrite Rabs_R0; pose proof (Rabs_pos r); lra].
  - eapply Rle_trans; [|exact HE]. apply Rabs_le. pose proof (Rle_abs (V v - r)). pose proof (Rle_abs (- (V v - r))). rewrite Rabs_Ropp in *. destruct (Rle_dec 0 (V v)); destruct (Rle_dec 0 r); rewrite ?(Rmax_right 0 (V v)), ?(Rmax_left 0 (V v)), ?(Rmax_right 0 r), ?(Rmax_left 0 r) by lra; lra.
Qed.
Lemma leaky_close : forall al (v : f32) (r M E : R), f32_in (-1) 1 al -> good_f v -> Rabs r <= M -> Rabs (V v - r) <= E ->
  good_f (act_el (LeakyReLU al) v) /\ Rabs (act_el (LeakyReLU (f32_value al)) r) <= M /\ Rabs (V (act_el (LeakyReLU al) v) - act_el (LeakyReLU (f32_value al)) r) <= E + (M + E) / 2 ^ 24 + / 2 ^ 150.
Proof.
  intros al v r M E Hal (Hv & Fv) HM HE. apply within_in in Hal. destruct Hal as (Va & Fa & Ba). assert (Ba' : Rabs (V al) <= 1) by (apply Rabs_le; lra).
  destruct (leaky_in lm al v Va Fa Ba' Hv Fv) as (L1 & L2 & _). split; [split; auto|]. cbn [act_el]. rewrite value_V. set (a := V al) in *.
  assert (EV : Rabs (V (if s_lt zero v then v else s_mul al v) - (if Rlt_dec 0 (V v) then V v else a * V v)) <= Rabs (V v) / 2 ^ 24 + / 2 ^ 150).
  { change (s_lt zero v) with (SFltb (f32_of_Z 0) v) in *. rewrite ltb_V in * by (auto; reflexivity). change (V (f32_of_Z 0)) with 0 in *. pose proof (Rabs_pos (V v)). assert (0 <= Rabs (V v) / 2 ^ 24) by (apply Rmult_le_pos; [auto|left; apply Rinv_0_lt_compat, pow_lt; lra]).
    assert (0 < / 2 ^ 150) by (apply Rinv_0_lt_compat, pow_lt; lra). destruct (Rlt_bool_spec 0 (V v)); destruct (Rlt_dec 0 (V v)); try lra.
    - rewrite Rminus_eq_0, Rabs_R0. lra.
    - change (s_mul al v) with (fmul al v) in *. destruct (mul_fin al v Va Hv L2) as (_ & _ & EQ). rewrite EQ. eapply Rle_trans; [apply rnd_err|]. change ulp_half with (/ 2 ^ 24). change tiny_half with (/ 2 ^ 150).
      fold a. rewrite Rabs_mult. assert (Rabs a * Rabs (V v) <= Rabs (V v)) by nra. assert (0 < / 2 ^ 24) by (apply Rinv_0_lt_compat, pow_lt; lra). unfold Rdiv. nra. }
  assert (ER : (if s_lt zero r then r else s_mul a r) = if Rlt_dec 0 r then r else a * r). { change (s_lt zero r) with (Rltb 0 r). unfold Rltb; destruct (Rlt_dec 0 r); reflexivity. }
  rewrite ER. split.
  - destruct (Rlt_dec 0 r); [auto|]. rewrite Rabs_mult. pose proof (Rabs_pos r). nra.
  - set (w := if Rlt_dec 0 (V v) then V v else a * V v) in *.
    assert (HW : Rabs (w - (if Rlt_dec 0 r then r else a * r)) <= Rabs (V v - r)).
    { unfold w. assert (-1 <= a <= 1) by lra. destruct (Rlt_dec 0 (V v)); destruct (Rlt_dec 0 r).
      - lra.
      - rewrite (Rabs_pos_eq (V v - r)) by lra. apply Rabs_le. split; nra.
      - rewrite (Rabs_left1 (V v - r)) by lra. apply Rabs_le. split; nra.
      - rewrite <- Rmult_minus_distr_l, Rabs_mult. pose proof (Rabs_pos (V v - r)). nra. }
    assert (HVv : Rabs (V v) <= M + E). { replace (V v) with (r + (V v - r)) by ring. eapply Rle_trans; [apply Rabs_triang|]. lra. }
    assert (Rabs (V v) / 2 ^ 24 <= (M + E) / 2 ^ 24) by (apply Rmult_le_compat_r; [left; apply Rinv_0_lt_compat, pow_lt; lra|auto]).
    match goal with |- Rabs (?y - ?z) <= _ => replace (y - z) with ((y - w) + (w - z)) by ring end. eapply Rle_trans; [apply Rabs_triang|].
    rewrite (Rplus_assoc E), (Rplus_comm E). apply Rplus_le_compat; [|eapply Rle_trans; [exact HW|exact HE]]. eapply Rle_trans; [exact EV|]. apply Rplus_le_compat_r. exact H.
Qed.
(** The sigmoid is a contraction. *)
Lemma sigma_lip : forall x y, y <= x -> 0 <= / (1 + exp (- x)) - / (1 + exp (- y)) <= x - y.
Proof.
  intros x y H. pose proof (exp_pos (- x)) as Px. pose proof (exp_pos (- y)) as Py. assert (EM : exp (- x) <= exp (- y)) by (destruct (Req_dec x y) as [->|]; [lra|left; apply exp_increasing; lra]).
  assert (EL : exp (- y) * (1 - (x - y)) <= exp (- x)). { replace (- x) with (- y + (- (x - y))) by ring. rewrite exp_plus. apply Rmult_le_compat_l; [lra|]. pose proof (exp_ineq1_le (- (x - y))). lra. }
  replace (/ (1 + exp (- x)) - / (1 + exp (- y))) with ((exp (- y) - exp (- x)) * / ((1 + exp (- x)) * (1 + exp (- y)))) by (field; lra).
  set (p := exp (- x)) in *. set (q := exp (- y)) in *. assert (HD : 0 < (1 + p) * (1 + q)) by (apply Rmult_lt_0_compat; lra). pose proof (Rinv_0_lt_compat _ HD) as HI. split; [apply Rmult_le_pos; lra|].
  apply (Rmult_le_reg_r ((1 + p) * (1 + q))); [auto|]. rewrite Rmult_assoc, Rinv_l, Rmult_1_r by lra. assert (q <= (1 + p) * (1 + q)) by nra. assert (q - p <= q * (x - y)) by lra. nra.
Qed.
Lemma sigma_near : forall x y, Rabs (/ (1 + exp (- x)) - / (1 + exp (- y))) <= Rabs (x - y).
Proof.
  intros x y. destruct (Rle_dec y x) as [H|H].
  - pose proof (sigma_lip x y H). rewrite !Rabs_pos_eq by lra. lra.
  - pose proof (sigma_lip y x ltac:(lra)). rewrite !Rabs_left1 by lra. lra.
Qed.
Lemma sigm_close : exp_like (m_exp lm) -> forall d, exp_within d (m_exp lm) -> 0 <= d -> forall (v : f32) (r E : R), good_f v -> Rabs (V v - r) <= E ->
  good_f (act_el Sigmoid v) /\ Rabs (act_el Sigmoid r) <= 1 /\ Rabs (V (act_el Sigmoid v) - act_el Sigmoid r) <= E + d + / 2 ^ 21.
Proof.
  intros HL d HW Hd v r E (Hv & Fv) HE. destruct (sigm_in lm HL v Hv Fv) as (S1 & S2 & _). split; [split; auto|]. cbn [act_el]. change (sigm r) with (1 / (1 + exp (- r))). unfold Rdiv at 1 2. rewrite Rmult_1_l.
  pose proof (exp_pos (- r)) as Pr. split.
  { rewrite Rabs_pos_eq by (left; apply Rinv_0_lt_compat; lra). rewrite <- Rinv_1. apply Rinv_le_contravar; lra. }
  set (o := SFopp v). assert (Ho : vok o) by (apply opp_vok; auto). assert (Fo : fin o) by (apply opp_fin; auto). assert (Eo : V o = - V v) by (apply opp_V; auto).
  pose proof (sigma_near (V v) r) as HN. pose proof (exp_pos (- V v)) as Pv. destruct (HW o Ho (proj2 (finite_fin o) Fo)) as (W1 & W2). rewrite (value_V o), Eo in W1, W2. rewrite value_V in W1.
  pose proof ulp_pos as Hu. rewrite ulp_is in Hu. assert (P24 : / 2 ^ 21 = 8 * / 2 ^ 24). { replace (2 ^ 24) with (8 * 2 ^ 21) by (cbn; ring). rewrite Rinv_mult. field. }
  assert (HS : Rabs (V (sigm v) - / (1 + exp (- V v))) <= d + / 2 ^ 21).
  { change (sigm v) with (f32_div (f32_of_Z 1) (fadd (f32_of_Z 1) (m_exp lm o))). set (q := exp (- V v)) in *. destruct (fin_dec (m_exp lm o)) as [F1|F1].
    - pose proof (ex_vok lm HL o Ho) as VE. assert (P0 : 0 <= V (m_exp lm o)). { destruct (ex_any lm HL o Ho Fo) as [E1|(_ & P)]; [rewrite E1 in F1; discriminate|exact P]. }
      specialize (W1 (proj2 (finite_fin _) F1)). set (e := V (m_exp lm o)) in *. destruct (add_one _ VE F1 P0) as (A1 & _ & A3 & _ & A5 & _). fold e in A3, A5. set (a := rnd (1 + e)) in *.
      assert (VA : vok (fadd (f32_of_Z 1) (m_exp lm o))) by (apply add_vok; [apply of_Z_vok|auto]). pose proof V_one as E1.
      destruct (div_unit (f32_of_Z 1) (fadd (f32_of_Z 1) (m_exp lm o))) as (D1 & D2 & _); auto using one_fin, of_Z_vok; [rewrite A3; lra|rewrite E1, Rabs_R1, A3, Rabs_pos_eq; lra|].
      rewrite D2, E1, A3. replace (1 / a) with (/ a) by (field; lra).
      assert (T1 : Rabs (rnd (/ a) - / a) <= 2 * / 2 ^ 24). { eapply Rle_trans; [apply rnd_err|]. rewrite ulp_is. pose proof tiny_lt. assert (0 < / a <= 1) by (split; [apply Rinv_0_lt_compat; lra|rewrite <- Rinv_1; apply Rinv_le_contravar; lra]). rewrite Rabs_pos_eq by lra. nra. }
      assert (T2 : Rabs (/ a - / (1 + e)) <= 2 * / 2 ^ 24).
      { pose proof (rnd_add_err (f32_of_Z 1) (m_exp lm o) (of_Z_vok 1) VE) as HA. rewrite E1 in HA. fold e in HA. fold a in HA. rewrite (Rabs_pos_eq (1 + e)) in HA by lra. rewrite ulp_is in HA.
        replace (/ a - / (1 + e)) with ((1 + e - a) * (/ a * / (1 + e))) by (field; lra). rewrite Rabs_mult, (Rabs_pos_eq (/ a * / (1 + e))) by (apply Rmult_le_pos; left; apply Rinv_0_lt_compat; lra).
        rewrite Rabs_minus_sym in HA. apply Rle_trans with (/ 2 ^ 24 * (1 + e) * (/ a * / (1 + e))); [apply Rmult_le_compat_r; [apply Rmult_le_pos; left; apply Rinv_0_lt_compat; lra|exact HA]|].
        replace (/ 2 ^ 24 * (1 + e) * (/ a * / (1 + e))) with (/ 2 ^ 24 * / a) by (field; lra). assert (/ a <= 1) by (rewrite <- Rinv_1; apply Rinv_le_contravar; lra). nra. }
      assert (T3 : Rabs (/ (1 + e) - / (1 + q)) <= d + / 2 ^ 24).
      { replace (/ (1 + e) - / (1 + q)) with ((q - e) * (/ (1 + e) * / (1 + q))) by (field; lra). rewrite Rabs_mult, Rabs_minus_sym, (Rabs_pos_eq (/ (1 + e) * / (1 + q))) by (apply Rmult_le_pos; left; apply Rinv_0_lt_compat; lra).
        pose proof tiny_lt as Ht. pose proof tiny_half_pos. assert (I1 : 0 < / (1 + e) <= 1) by (split; [apply Rinv_0_lt_compat; lra|rewrite <- Rinv_1; apply Rinv_le_contravar; lra]). assert (I2 : 0 < / (1 + q) <= 1) by (split; [apply Rinv_0_lt_compat; lra|rewrite <- Rinv_1; apply Rinv_le_contravar; lra]).
        assert (I3 : q * / (1 + q) <= 1). { apply (Rmult_le_reg_r (1 + q)); [lra|]. rewrite Rmult_assoc, Rinv_l by lra. lra. }
        apply Rle_trans with ((d * q + tiny_half) * (1 * / (1 + q))); [apply Rmult_le_compat; [apply Rabs_pos|apply Rmult_le_pos; lra|exact W1|apply Rmult_le_compat_r; lra]|].
        replace ((d * q + tiny_half) * (1 * / (1 + q))) with (d * (q * / (1 + q)) + tiny_half * / (1 + q)) by ring. assert (0 <= q * / (1 + q)) by (apply Rmult_le_pos; lra). nra. }
      replace (rnd (/ a) - / (1 + q)) with ((rnd (/ a) - / a) + ((/ a - / (1 + e)) + (/ (1 + e) - / (1 + q)))) by ring. eapply Rle_trans; [apply Rabs_triang|]. pose proof (Rabs_triang (/ a - / (1 + e)) (/ (1 + e) - / (1 + q))). lra.
    - assert (NF : ~ f32_finite (m_exp lm o)) by (intros K; apply finite_fin in K; auto). specialize (W2 NF). destruct (ex_any lm HL o Ho Fo) as [E1|(K & _)]; [|tauto]. rewrite E1.
      change (f32_div (f32_of_Z 1) (fadd (f32_of_Z 1) (S754_infinity false))) with (S754_zero false). change (V (S754_zero false)) with 0. rewrite Rminus_0_l, Rabs_Ropp, Rabs_pos_eq by (left; apply Rinv_0_lt_compat; lra).
      assert (/ (1 + q) <= / 2 ^ 21). { apply Rinv_le_contravar; [apply pow_lt; lra|]. assert (2 ^ 21 <= 2 ^ 100) by (apply Rle_pow; [lra|lia]). lra. } lra. }
  replace (V (sigm v) - / (1 + exp (- r))) with ((V (sigm v) - / (1 + exp (- V v))) + (/ (1 + exp (- V v)) - / (1 + exp (- r)))) by ring. eapply Rle_trans; [apply Rabs_triang|]. lra.
Qed.

(** ** Softmax *)
Lemma rsum_has : forall {A} (l : list A) (f : A -> R) a, (forall x, In x l -> 0 <= f x) -> In a l -> f a <= rsum l f.
Proof.
  intros A l f a. induction l as [|b l IH]; intros H HI; [destruct HI|]. rewrite rsum_cons. assert (0 <= rsum l f) by (apply rsum_nonneg; intros; apply H; right; auto). destruct HI as [->|HI]; [lra|]. pose proof (H b (or_introl eq_refl)). specialize (IH (fun x Hx => H x (or_intror Hx)) HI). lra.
Qed.
Lemma soft_below : forall {A} (l : list A) (a h : A -> R) D i, (forall j, In j l -> Rabs (a j - h j) <= D) -> In i l ->
  exp (a i) / rsum l (fun j => exp (a j)) - exp (h i) / rsum l (fun j => exp (h j)) <= 2 * D.
Proof.
  intros A l a h D i H HI. assert (HX : forall x j, In j l -> exp (x j) <= rsum l (fun j => exp (x j))) by (intros x j Hj; apply (rsum_has l (fun j => exp (x j))); auto; intros; left; apply exp_pos).
  assert (D0 : 0 <= D) by (eapply Rle_trans; [apply Rabs_pos|exact (H i HI)]).
  assert (E1 : exp (a i) * exp (- D) <= exp (h i)). { rewrite <- exp_plus. pose proof (H i HI) as K. apply Rabs_le_inv in K. destruct (Req_dec (a i + - D) (h i)) as [->|]; [lra|left; apply exp_increasing; lra]. }
  assert (E2 : rsum l (fun j => exp (h j)) * exp (- D) <= rsum l (fun j => exp (a j))). { rewrite <- rsum_scal_r. apply rsum_le. intros j Hj. rewrite <- exp_plus. pose proof (H j Hj) as K. apply Rabs_le_inv in K. destruct (Req_dec (h j + - D) (a j)) as [->|]; [lra|left; apply exp_increasing; lra]. }
  pose proof (HX a i HI) as P1. pose proof (HX h i HI) as P2. pose proof (exp_pos (a i)) as Q1. pose proof (exp_pos (h i)) as Q2. pose proof (exp_pos (- D)) as Q3. pose proof (exp_ineq1_le (- D)) as Q4.
  set (x := exp (a i)) in *. set (y := exp (h i)) in *. set (X := rsum l (fun j => exp (a j))) in *. set (Y := rsum l (fun j => exp (h j))) in *. set (e := exp (- D)) in *.
  assert (Hx : 0 <= x / X <= 1) by (split; [apply Rmult_le_pos; [lra|left; apply Rinv_0_lt_compat; lra]|apply (Rmult_le_reg_r X); [lra|]; unfold Rdiv; rewrite Rmult_assoc, Rinv_l by lra; lra]).
  assert (HL : x / X * (e * e) <= y / Y).
  { apply (Rmult_le_reg_r (X * Y)); [apply Rmult_lt_0_compat; lra|]. replace (x / X * (e * e) * (X * Y)) with ((x * e) * (Y * e)) by (field; lra). replace (y / Y * (X * Y)) with (y * X) by (field; lra). apply Rmult_le_compat; try lra; apply Rmult_le_pos; lra. }
  assert (HE : 1 - 2 * D <= e * e). { destruct (Rle_dec D 1); [nra|]. nra. }
  assert (x / X * (1 - e * e) <= 2 * D) by (assert (0 <= e * e) by nra; destruct (Rle_dec 0 (1 - e * e)); nra). lra.
Qed.
Lemma soft_near : forall {A} (l : list A) (a h : A -> R) D i, (forall j, In j l -> Rabs (a j - h j) <= D) -> In i l ->
  Rabs (exp (a i) / rsum l (fun j => exp (a j)) - exp (h i) / rsum l (fun j => exp (h j))) <= 2 * D.
Proof.
  intros A l a h D i H HI. apply Rabs_le. pose proof (soft_below l a h D i H HI). pose proof (soft_below l h a D i (fun j Hj => eq_ind _ (fun v => v <= D) (H j Hj) _ (Rabs_minus_sym _ _)) HI). lra.
Qed.
Lemma softmax_close : exp_like (m_exp lm) -> forall d, exp_within d (m_exp lm) -> 0 <= d <= / 16 -> forall {A} (l : list A) (f : A -> f32) (h : A -> R) n M E i, Zlen l = n -> (n <= 2 ^ 20)%Z -> M + E <= 2 ^ 120 ->
  (forall j, In j l -> good_f (f j) /\ Rabs (h j) <= M /\ Rabs (V (f j) - h j) <= E) -> In i l ->
  good_f (softmax_of (map f l) (f i)) /\ 0 <= exp (h i) / rsum l (fun j => exp (h j)) <= 1 /\
  Rabs (V (softmax_of (map f l) (f i)) - exp (h i) / rsum l (fun j => exp (h j))) <= 2 * E + (M + E) / 2 ^ 22 + 4 * d + 5 * IZR n / 2 ^ 23.
Proof.
  intros HL d HW Hd A l f h n M E i Hn Hn2 HME H HI.
  assert (HF : Forall good_f (map f l)) by (apply Forall_map, Forall_forall; intros j Hj; apply H; auto). assert (HN : map f l <> []) by (intros K; apply map_eq_nil in K; subst l; destruct HI).
  destruct (softmax_in lm HL (map f l) (f i) HF (in_map f l i HI)) as (O1 & O2 & _). split; [split; auto|].
  assert (HX : forall j, In j l -> exp (h j) <= rsum l (fun j => exp (h j))) by (intros j Hj; apply (rsum_has l (fun j => exp (h j))); auto; intros; left; apply exp_pos).
  split. { pose proof (HX i HI). pose proof (exp_pos (h i)). set (X := rsum l (fun j => exp (h j))) in *. split; [apply Rmult_le_pos; [lra|left; apply Rinv_0_lt_compat; lra]|apply (Rmult_le_reg_r X); [lra|]; unfold Rdiv; rewrite Rmult_assoc, Rinv_l by lra; lra]. }
  destruct (softmax_parts lm HL (map f l) HN HF) as (W1 & (Hs & Fs & Bs)). destruct (list_max_props lm (map f l) HN HF) as (IM & LE). set (m := list_max (map f l)) in *. rewrite Forall_forall in LE.
  apply in_map_iff in IM. destruct IM as (j0 & Ej0 & Hj0). assert (Gm : good_f m) by (rewrite <- Ej0; apply H; auto).
  assert (HV : forall j, In j l -> Rabs (V (f j)) <= M + E). { intros j Hj. destruct (H j Hj) as (_ & B1 & B2). replace (V (f j)) with (h j + (V (f j) - h j)) by ring. eapply Rle_trans; [apply Rabs_triang|]. lra. }
  assert (HVm : Rabs (V m) <= M + E) by (rewrite <- Ej0; apply HV; auto). assert (ME0 : 0 <= M + E) by (eapply Rle_trans; [apply Rabs_pos|exact HVm]).
  set (s := fun j => SFsub f32_prec f32_emax (f j) m). pose proof ulp_pos as Hu. pose proof tiny_half_pos as Ht. pose proof tiny_lt as Htl.
  set (D := E + 2 * ulp_half * (M + E) + tiny_half).
  assert (HS : forall j, In j l -> vok (s j) /\ fin (s j) /\ V (s j) = rnd (V (f j) - V m) /\ Rabs ((V (s j) + V m) - h j) <= D).
  { intros j Hj. destruct (H j Hj) as ((G1 & G2) & B1 & B2). destruct Gm as (G3 & G4). pose proof (HV j Hj) as B3. assert (B4 : Rabs (V (f j) - V m) <= 2 * (M + E)) by (unfold Rminus; eapply Rle_trans; [apply Rabs_triang|]; rewrite Rabs_Ropp; lra).
    destruct (sub_in (f j) m G1 G3 G2 G4) as (S1 & S2); [apply rnd_small; eapply Rle_trans; [exact B4|]; pose proof p120; set (X := 2 ^ 120) in *; lra|]. split; [apply sub_vok; auto|]. split; [exact S1|]. split; [exact S2|]. fold (s j) in S2. rewrite S2. pose proof (rnd_err (V (f j) - V m)) as B5.
    replace (rnd (V (f j) - V m) + V m - h j) with ((rnd (V (f j) - V m) - (V (f j) - V m)) + (V (f j) - h j)) by ring. eapply Rle_trans; [apply Rabs_triang|]. unfold D. assert (ulp_half * Rabs (V (f j) - V m) <= ulp_half * (2 * (M + E))) by (apply Rmult_le_compat_l; lra). lra. }
  set (w := fun j => exp (V (s j))). set (e := fun j => V (m_exp lm (s j))).
  assert (We : forall j, In j l -> within 0 1 (m_exp lm (s j))). { intros j Hj. rewrite Forall_map in W1. rewrite Forall_map in W1. rewrite Forall_forall in W1. apply W1. auto. }
  assert (Hw : forall j, In j l -> 0 < w j <= 1). { intros j Hj. split; [apply exp_pos|]. unfold w. destruct (HS j Hj) as (_ & _ & S2 & _). rewrite <- exp_0. assert (V (s j) <= 0). { rewrite S2, <- rnd_0. apply rnd_le. pose proof (LE (f j) (in_map f l j Hj)). lra. } destruct (Req_dec (V (s j)) 0) as [->|]; [lra|left; apply exp_increasing; lra]. }
  assert (He : forall j, In j l -> Rabs (e j - w j) <= d * w j + tiny_half). { intros j Hj. destruct (HS j Hj) as (S0 & S1 & _). destruct (HW (s j) S0 (proj2 (finite_fin _) S1)) as (Q & _). destruct (We j Hj) as (_ & F1 & _). specialize (Q (proj2 (finite_fin _) F1)). rewrite !value_V in Q. exact Q. }
  assert (Hw0 : w j0 = 1). { unfold w. destruct (HS j0 Hj0) as (_ & _ & S2 & _). rewrite S2, Ej0, Rminus_eq_0, rnd_0, exp_0. reflexivity. }
  set (P := rsum l w). assert (HP : 1 <= P) by (rewrite <- Hw0; apply rsum_has; auto; intros; left; apply Hw; auto). assert (HPw : w i <= P) by (apply rsum_has; auto; intros; left; apply Hw; auto).
  set (K := IZR n / 2 ^ 23). assert (Hn1 : (1 <= n)%Z). { subst n. unfold Zlen. destruct l; [destruct HI|cbn [length]; lia]. }
  assert (P23 : 0 < 2 ^ 23) by (apply pow_lt; lra). assert (HK : 2 * ulp_half <= K <= / 8).
  { unfold K. split.
    - rewrite ulp_is, p24, Rinv_mult. apply (Rmult_le_reg_r (2 ^ 23)); [auto|]. unfold Rdiv. rewrite !Rmult_assoc, Rinv_l, !Rmult_1_r by lra. apply IZR_le in Hn1. lra.
    - apply (Rmult_le_reg_r (2 ^ 23)); [auto|]. unfold Rdiv. rewrite !Rmult_assoc, Rinv_l, !Rmult_1_r by lra. replace (/ 8 * 2 ^ 23) with (IZR (2 ^ 20)); [apply IZR_le; auto|]. replace (2 ^ 23) with (IZR (2 ^ 23)) by apply p23. replace (2 ^ 23)%Z with (8 * 2 ^ 20)%Z by reflexivity. rewrite mult_IZR. field. }
  assert (Hnt : IZR n * tiny_half <= K / 2). { unfold K. apply Rle_trans with (IZR n * / 2 ^ 24); [apply Rmult_le_compat_l; [apply IZR_le; lia|auto]|]. rewrite p24, Rinv_mult. right. field. }
  assert (HEs : Rabs (rsum l e - P) <= (d + K / 2) * P).
  { unfold P. rewrite <- rsum_minus. eapply Rle_trans; [apply rsum_abs|]. apply Rle_trans with (rsum l (fun j => d * w j + tiny_half)); [apply rsum_le; auto|]. rewrite rsum_plus, rsum_scal_l, rsum_const, Hn. fold P. assert (K / 2 <= K / 2 * P) by nra. lra. }
  set (F := @fsum f32 SF (map (fun v => m_exp lm (SFsub f32_prec f32_emax v m)) (map f l))). assert (HsF : vok F) by exact Hs. assert (FsF : fin F) by exact Fs. assert (BsF : 1 <= V F <= 2 ^ 24) by exact Bs. set (S := V F) in *.
  assert (HS2 : Rabs (S - rsum l e) <= K * rsum l e).
  { assert (VV : Forall vok (map (fun v => m_exp lm (SFsub f32_prec f32_emax v m)) (map f l))) by (eapply Forall_impl; [|exact W1]; intros v Hv; apply Hv). pose proof (fsum_err lm _ VV Fs) as B. rewrite !map_length, !rsum_map in B.
    destruct (growth_le1 (length l - 1)) as (_ & G2); [unfold Zlen in Hn; lia|]. assert (E1 : rsum l (fun j => Rabs (V (m_exp lm (SFsub f32_prec f32_emax (f j) m)))) = rsum l e) by (apply rsum_ext; intros j Hj; apply Rabs_pos_eq; apply (We j Hj)).
    eapply Rle_trans; [exact B|]. eapply Rle_trans; [apply Rmult_le_compat_l; [|right; exact E1]|]. { pose proof (pow_ge1 (length l - 1)). lra. }
    apply Rmult_le_compat_r; [apply rsum_nonneg; intros j Hj; apply (We j Hj)|]. eapply Rle_trans; [exact G2|]. unfold K. apply Rmult_le_compat_r; [left; apply Rinv_0_lt_compat; auto|]. rewrite INR_IZR_INZ. apply IZR_le. unfold Zlen in Hn. lia. }
  set (Q := rsum l e) in *. apply Rabs_le_inv in HEs. apply Rabs_le_inv in HS2.
  assert (HSP : Rabs (S - P) <= (d + 2 * K) * P). { apply Rabs_le. assert (Q <= (1 + d + K / 2) * P) by lra. assert (K * Q <= K * ((1 + d + K / 2) * P)) by (apply Rmult_le_compat_l; lra). assert (K * ((1 + d + K / 2) * P) <= 3 / 2 * K * P). { replace (K * ((1 + d + K / 2) * P)) with ((1 + d + K / 2) * (K * P)) by ring. replace (3 / 2 * K * P) with (3 / 2 * (K * P)) by ring. apply Rmult_le_compat_r; [apply Rmult_le_pos; lra|lra]. } lra. }
  assert (HSge : P / 2 <= S). { apply Rabs_le_inv in HSP. assert ((d + 2 * K) * P <= / 2 * P) by (apply Rmult_le_compat_r; lra). lra. }
  destruct (We i HI) as (X1 & X2 & X3). fold (e i) in X3. pose proof (Hw i HI) as Hwi. pose proof (He i HI) as Hei.
  assert (HR1 : Rabs (V (softmax_of (map f l) (f i)) - e i / S) <= ulp_half + tiny_half).
  { change (softmax_of (map f l) (f i)) with (f32_div (m_exp lm (s i)) F).
    destruct (div_unit (m_exp lm (s i)) F) as (_ & D2 & _); auto; [fold S; lra|fold S; fold (e i); rewrite !Rabs_pos_eq; lra|]. rewrite D2. fold S. fold (e i).
    eapply Rle_trans; [apply rnd_err|]. assert (0 <= e i / S <= 1). { split; [apply Rmult_le_pos; [lra|left; apply Rinv_0_lt_compat; lra]|]. apply (Rmult_le_reg_r S); [lra|]. unfold Rdiv. rewrite Rmult_assoc, Rinv_l by lra. lra. } rewrite Rabs_pos_eq by lra. nra. }
  assert (HR2 : Rabs (e i / S - w i / P) <= 2 * d + 2 * tiny_half + 2 * (d + 2 * K)).
  { replace (e i / S - w i / P) with (((e i - w i) + w i / P * (P - S)) * / S) by (field; lra). rewrite Rabs_mult, (Rabs_pos_eq (/ S)) by (left; apply Rinv_0_lt_compat; lra).
    apply (Rmult_le_reg_r S); [lra|]. rewrite Rmult_assoc, Rinv_l, Rmult_1_r by lra. eapply Rle_trans; [apply Rabs_triang|]. rewrite Rabs_mult. rewrite (Rabs_minus_sym P S).
    assert (HwP : 0 <= w i / P <= 1). { split; [apply Rmult_le_pos; [lra|left; apply Rinv_0_lt_compat; lra]|]. apply (Rmult_le_reg_r P); [lra|]. unfold Rdiv. rewrite Rmult_assoc, Rinv_l by lra. lra. }
    rewrite (Rabs_pos_eq (w i / P)) by lra. pose proof (Rabs_pos (S - P)). assert (w i / P * Rabs (S - P) <= (d + 2 * K) * P) by nra.
    assert (d * w i <= d * P) by (apply Rmult_le_compat_l; lra). assert (tiny_half <= tiny_half * P) by nra.
    apply Rle_trans with ((d + tiny_half + (d + 2 * K)) * P); [lra|]. replace (2 * d + 2 * tiny_half + 2 * (d + 2 * K)) with ((d + tiny_half + (d + 2 * K)) * 2) by ring. rewrite Rmult_assoc. apply Rmult_le_compat_l; lra. }
  assert (HR3 : Rabs (w i / P - exp (h i) / rsum l (fun j => exp (h j))) <= 2 * D).
  { pose proof (soft_near l (fun j => V (s j) + V m) h D i (fun j Hj => proj2 (proj2 (proj2 (HS j Hj)))) HI) as B. cbn beta in B. eapply Rle_trans; [|exact B]. right. f_equal. f_equal.
    rewrite exp_plus. fold (w i). rewrite (rsum_ext l (fun j => exp (V (s j) + V m)) (fun j => w j * exp (V m))) by (intros; apply exp_plus). rewrite rsum_scal_r. fold P. pose proof (exp_pos (V m)). field. lra. }
  set (y := V (softmax_of (map f l) (f i))) in *. set (z := exp (h i) / rsum l (fun j => exp (h j))) in *.
  replace (y - z) with ((y - e i / S) + ((e i / S - w i / P) + (w i / P - z))) by ring. eapply Rle_trans; [apply Rabs_triang|]. pose proof (Rabs_triang (e i / S - w i / P) (w i / P - z)) as HT.
  assert (H5 : 5 * tiny_half <= ulp_half). { unfold tiny_half, ulp_half. replace 150%nat with (24 + 126)%nat by reflexivity. rewrite pow_add, Rinv_mult. assert (0 < / 2 ^ 24) by (apply Rinv_0_lt_compat, pow_lt; lra). assert (/ 2 ^ 126 <= / 8). { apply Rinv_le_contravar; [lra|]. replace 8 with (2 ^ 3) by lra. apply Rle_pow; [lra|lia]. } nra. }
  replace ((M + E) / 2 ^ 22) with (4 * ulp_half * (M + E)) by (rewrite ulp_is; replace (2 ^ 24) with (4 * 2 ^ 22) by (cbn; ring); rewrite Rinv_mult; field).
  replace (5 * IZR n / 2 ^ 23) with (5 * K) by (unfold K; field). unfold D in HR3. lra.
Qed.

(** ** Layers *)
Lemma close_of : forall ds M E (f : list Z -> f32) (h : list Z -> R), pos_dims ds -> (prod ds <= INT_MAX)%Z ->
  (forall idx, in_range ds idx -> good_f (f idx) /\ Rabs (h idx) <= M /\ Rabs (V (f idx) - h idx) <= E) -> close lm ds M E (tensor_of ds f) (tensor_of ds h).
Proof.
  intros ds M E f h HP HM H. split; [apply good_tensor_of; auto|]. split; [reflexivity|]. split.
  { unfold all_finite, tensor_of. cbn [tdata]. unfold ztab. apply Forall_map, Forall_forall. intros k Hk. apply In_zrange in Hk. destruct (H (unravel ds k)) as ((A & B) & _); [apply unravel_range; auto; apply pos_forall; auto|]. split; [exact A|apply finite_fin; exact B]. }
  split; [apply good_tensor_of; auto|]. split; [reflexivity|]. intros idx HI. rewrite !el_tensor_of by auto. rewrite value_V. apply H. auto.
Qed.
Lemma close_pos : forall ds M E x y, close lm ds M E x y -> pos_dims ds /\ (prod ds <= INT_MAX)%Z /\ 0 <= M /\ 0 <= E.
Proof.
  intros ds M E x y (Gx & Ex & _ & _ & _ & H). assert (HP : pos_dims ds) by (rewrite <- Ex; apply good_pos; auto). split; [auto|]. split; [rewrite <- Ex; apply good_max; auto|].
  destruct (H (repeat 0%Z (length ds))) as (A & B); [apply in_range_zeros; apply pos_forall; auto|]. split; eapply Rle_trans; try (exact A); try (exact B); apply Rabs_pos.
Qed.
Lemma close_at : forall ds M E x y idx, close lm ds M E x y -> in_range ds idx -> good_f (el x idx) /\ Rabs (el y idx) <= M /\ Rabs (V (el x idx) - el y idx) <= E.
Proof.
  intros ds M E x y idx (Gx & Ex & Fx & _ & _ & H) HI. destruct (H idx HI) as (A & B). rewrite value_V in B. split; [apply el_good; auto; rewrite Ex; auto|auto].
Qed.
Lemma el_exact : forall (t : tensor f32) idx, good t -> in_range (tdims t) idx -> el (exact t) idx = V (el t idx).
Proof.
  intros t idx Hg HI. unfold el, exact, tdims. cbn [tdata tshape]. fold (tdims t). rewrite (znth_map (zero : f32)); [rewrite value_V; reflexivity|]. pose proof (ravel_bound _ _ HI) as B. destruct Hg as (_ & _ & _ & HL). rewrite HL. auto.
Qed.
Lemma good_exact : forall (t : tensor f32), good t -> good (exact t) /\ tdims (exact t) = tdims t.
Proof. intros t (A & B & C & D). split; [|reflexivity]. split; [exact A|]. split; [exact B|]. split; [exact C|]. unfold exact. cbn [tdata tshape]. unfold Zlen in *. rewrite map_length. exact D. Qed.

Context {G G' : Type} {HR : Rng f32 G} {HR' : Rng R G'}.
Lemma dense_step : forall l l' n k o M E A B x y, M_Layers.fc_w l' = exact (M_Layers.fc_w l) -> M_Layers.fc_b l' = exact (M_Layers.fc_b l) -> fc_wf l k o -> all_finite (M_Layers.fc_w l) -> all_finite (M_Layers.fc_b l) ->
  (n * o <= INT_MAX)%Z -> (k < 2 ^ 23)%Z ->
  (forall j, (0 <= j < o)%Z -> rsum (zrange 0 k) (fun p => Rabs (f32_value (el (M_Layers.fc_w l) [p; j]))) <= A) ->
  (forall j, (0 <= j < o)%Z -> Rabs (f32_value (el (M_Layers.fc_b l) [0%Z; j])) <= B) -> A * (M + E) + B <= 2 ^ 120 -> close lm [n; k] M E x y ->
  exists u v, snd (fc_forward l x) = Ok u /\ snd (fc_forward l' y) = Ok v /\ close lm [n; o] (A * M + B) (next_error k A B M E) u v.
Proof.
  intros l l' n k o M E A B x y EW EB HW FW FB HM Hk HA HB HS HC. destruct (close_pos _ _ _ _ _ HC) as (HP & _ & M0 & E0). destruct (pos2_inv _ _ HP) as (Hn & Hk0). pose proof HC as (Gx & Ex & Fx & Gy & Ey & _).
  pose proof HW as (Gw & Dw & Gb & Db). destruct (dims2_pos _ k o Gw Dw) as (_ & Ho & _).
  assert (HW' : fc_wf l' k o). { destruct (good_exact _ Gw) as (G1 & G2). destruct (good_exact _ Gb) as (G3 & G4). unfold fc_wf. rewrite EW, EB. rewrite G2, G4. auto. }
  rewrite (fc_forward_2 l k o x n), (fc_forward_2 l' k o y n) by auto. eexists. eexists. split; [reflexivity|]. split; [reflexivity|].
  apply close_of; [auto with idx|cbn [prod]; lia|]. intros idx HI. pose proof (in_range_length _ _ HI) as HL. destruct idx as [|i [|j [|]]]; try discriminate HL. rewrite !in_range_cons in HI. destruct HI as (Hi & Hj & _). unfold affine, fn2. cbn [nth]. rewrite EW, EB.
  assert (EQ : s_add (sum_to k (fun p => s_mul (el y [i; p]) (el (exact (M_Layers.fc_w l)) [p; j]))) (el (exact (M_Layers.fc_b l)) [0%Z; j]) = rsum (zrange 0 k) (fun p => el y [i; p] * V (el (M_Layers.fc_w l) [p; j])) + V (el (M_Layers.fc_b l) [0%Z; j])).
  { rewrite sum_to_R. rewrite el_exact by (auto; rewrite Db; auto with idx). cbn [s_add RScalar]. f_equal. apply rsum_ext. intros p Hp. apply In_zrange in Hp. rewrite el_exact by (auto; rewrite Dw; auto with idx). reflexivity. }
  rewrite EQ. apply (affine_close (zrange 0 k) (fun p => el x [i; p]) (fun p => el (M_Layers.fc_w l) [p; j]) (el (M_Layers.fc_b l) [0%Z; j]) (fun p => el y [i; p]) k A B M E); auto.
  - rewrite Zlen_zrange; lia.
  - intros p Hp. apply In_zrange in Hp. apply (close_at _ _ _ _ _ _ HC). auto with idx.
  - intros p Hp. apply In_zrange in Hp. apply el_good; auto. rewrite Dw. auto with idx.
  - apply el_good; auto. rewrite Db. auto with idx.
  - intros p Hp. apply In_zrange in Hp. apply (close_at _ _ _ _ _ _ HC). auto with idx.
  - specialize (HA j Hj). erewrite rsum_ext; [exact HA|]. intros p _. cbn beta. rewrite value_V. reflexivity.
  - rewrite <- value_V. auto.
Qed.
Lemma conv_step : forall l l' n h w M E A B x y, cv_w l' = exact (cv_w l) -> cv_b l' = exact (cv_b l) -> cv_ic l' = cv_ic l -> cv_oc l' = cv_oc l -> cv_kh l' = cv_kh l -> cv_kw l' = cv_kw l ->
  conv_wf l -> all_finite (cv_w l) -> all_finite (cv_b l) -> cv_ic l = 1%Z -> (cv_kh l <= h)%Z -> (cv_kw l <= w)%Z ->
  (n * (cv_oc l * ((h - cv_kh l + 1) * (w - cv_kw l + 1))) <= INT_MAX)%Z -> (cv_kh l * cv_kw l < 2 ^ 23)%Z ->
  (forall o, (0 <= o < cv_oc l)%Z -> rsum (all_indices [cv_kh l; cv_kw l]) (fun pq => Rabs (f32_value (el (cv_w l) (o :: 0%Z :: pq)))) <= A) ->
  (forall o, (0 <= o < cv_oc l)%Z -> Rabs (f32_value (el (cv_b l) [o; 0%Z])) <= B) -> A * (M + E) + B <= 2 ^ 120 -> close lm [n; 1%Z; h; w] M E x y ->
  exists u v, snd (conv_forward l x) = Ok u /\ snd (conv_forward l' y) = Ok v /\
    close lm [n; cv_oc l; h - cv_kh l + 1; w - cv_kw l + 1]%Z (A * M + B) (next_error (cv_kh l * cv_kw l) A B M E) u v.
Proof.
  intros l l' n h w M E A B x y EW EB E1 E2 E3 E4 HW FW FB Hic Hh Hw HM Hk HA HB HS HC. destruct (close_pos _ _ _ _ _ HC) as (HP & _ & M0 & E0). pose proof HC as (Gx & Ex & Fx & Gy & Ey & _).
  destruct (dims4_pos x _ _ _ _ Gx Ex) as (Hn & _ & Hh0 & Hw0 & _). pose proof HW as (Gw & Dw & Gb & Db). destruct (dims4_pos _ _ _ _ _ Gw Dw) as (Hoc & _ & Hkh & Hkw & _). rewrite Hic in Dw.
  assert (HW' : conv_wf l'). { destruct (good_exact _ Gw) as (G1 & G2). destruct (good_exact _ Gb) as (G3 & G4). unfold conv_wf. rewrite EW, EB, E1, E2, E3, E4. rewrite G2, G4, Hic. auto. }
  rewrite (conv_forward_ok l x n h w) by (auto; rewrite Hic; auto). rewrite (conv_forward_ok l' y n h w) by (rewrite ?E1, ?E2, ?E3, ?E4; auto; rewrite Hic; auto). rewrite EW, EB, E2, E3, E4. eexists. eexists. split; [reflexivity|]. split; [reflexivity|].
  apply close_of; [split; [discriminate|repeat constructor; lia]|cbn [prod]; lia|]. intros idx HI. pose proof (in_range_length _ _ HI) as HL. destruct idx as [|i [|o [|r [|c [|]]]]]; try discriminate HL. rewrite !in_range_cons in HI. destruct HI as (Hi & Ho & Hr & Hc & _).
  change (fn4 (conv0 x (cv_w l) (cv_b l) (cv_kh l) (cv_kw l)) [i; o; r; c]) with (conv0 x (cv_w l) (cv_b l) (cv_kh l) (cv_kw l) i o r c).
  change (fn4 (conv0 y (exact (cv_w l)) (exact (cv_b l)) (cv_kh l) (cv_kw l)) [i; o; r; c]) with (conv0 y (exact (cv_w l)) (exact (cv_b l)) (cv_kh l) (cv_kw l) i o r c).
  set (L := all_indices [cv_kh l; cv_kw l]). set (f := fun pq => el x [i; 0; r + nth 0 pq 0; c + nth 1 pq 0]%Z). set (q := fun pq => el (cv_w l) [o; 0; nth 0 pq 0; nth 1 pq 0]%Z). set (b := el (cv_b l) [o; 0]%Z). set (z := fun pq => el y [i; 0; r + nth 0 pq 0; c + nth 1 pq 0]%Z).
  assert (HIN : forall pq, In pq L -> exists p q, pq = [p; q] /\ (0 <= p < cv_kh l)%Z /\ (0 <= q < cv_kw l)%Z).
  { intros pq Hpq. apply In_all_indices in Hpq; [|auto with idx]. pose proof (in_range_length _ _ Hpq) as HLL. destruct pq as [|p [|s [|]]]; try discriminate HLL. rewrite !in_range_cons in Hpq. exists p, s. tauto. }
  assert (EQ : conv0 x (cv_w l) (cv_b l) (cv_kh l) (cv_kw l) i o r c = fadd (dotl L f q) b).
  { unfold conv0, L_Float.dotl. erewrite map_ext_in; [reflexivity|]. intros pq Hpq. destruct (HIN pq Hpq) as (p & s & -> & _). reflexivity. }
  assert (EQ' : conv0 y (exact (cv_w l)) (exact (cv_b l)) (cv_kh l) (cv_kw l) i o r c = rsum L (fun pq => z pq * V (q pq)) + V b).
  { unfold conv0. rewrite fsum_R. fold L. cbn [s_add RScalar]. rewrite el_exact by (auto; rewrite Db; apply in_range2; lia). f_equal. apply rsum_ext. intros pq Hpq. destruct (HIN pq Hpq) as (p & s & -> & Hp & Hs). unfold fn2, z, q. cbn [nth s_mul RScalar].
    rewrite el_exact by (auto; rewrite Dw; apply in_range4; lia). reflexivity. }
  rewrite EQ, EQ'. apply (affine_close L f q b z (cv_kh l * cv_kw l) A B M E); auto.
  - unfold L, all_indices. rewrite Zlen_ztab; cbn [prod]; lia.
  - intros pq Hpq. destruct (HIN pq Hpq) as (p & s & -> & Hp & Hs). unfold f. cbn [nth]. apply (close_at _ _ _ _ _ _ HC). apply in_range4; lia.
  - intros pq Hpq. destruct (HIN pq Hpq) as (p & s & -> & Hp & Hs). unfold q. cbn [nth]. apply el_good; auto. rewrite Dw. apply in_range4; lia.
  - apply el_good; auto. rewrite Db. apply in_range2; lia.
  - intros pq Hpq. destruct (HIN pq Hpq) as (p & s & -> & Hp & Hs). unfold f, z. cbn [nth]. apply (close_at _ _ _ _ _ _ HC). apply in_range4; lia.
  - specialize (HA o Ho). fold L in HA. erewrite rsum_ext; [exact HA|]. intros pq Hpq. destruct (HIN pq Hpq) as (p & s & -> & Hp & Hs). unfold q. cbn [nth]. rewrite value_V. reflexivity.
  - unfold b. rewrite <- value_V. auto.
Qed.
Lemma act_step : forall (a : act f32) (a' : act R) ds M E M' E' x y, a <> Softmax -> a' <> Softmax ->
  (forall v r, good_f v -> Rabs r <= M -> Rabs (V v - r) <= E -> good_f (act_el a v) /\ Rabs (act_el a' r) <= M' /\ Rabs (V (act_el a v) - act_el a' r) <= E') ->
  close lm ds M E x y -> exists u v, act_fwd a x = Ok u /\ act_fwd a' y = Ok v /\ close lm ds M' E' u v.
Proof.
  intros a a' ds M E M' E' x y N N' H HC. destruct (close_pos _ _ _ _ _ HC) as (HP & HM & _). pose proof HC as (Gx & Ex & Fx & Gy & Ey & _). rewrite (act_fwd_el a x), (act_fwd_el a' y) by auto. rewrite Ex, Ey. eexists. eexists. split; [reflexivity|]. split; [reflexivity|].
  apply close_of; auto. intros idx HI. destruct (close_at _ _ _ _ _ _ HC HI) as (A & B & C). apply H; auto.
Qed.
Lemma flat_step : forall n c r M E (x : tensor f32) (y : tensor R), close lm (n :: c :: r) M E x y -> close lm [n; prod (c :: r)] M E (in_shape [n; prod (c :: r)] x) (in_shape [n; prod (c :: r)] y).
Proof.
  intros n c r M E x y HC. destruct (close_pos _ _ _ _ _ HC) as (HP & HM & _). pose proof (pos_forall _ HP) as HF. inversion HF as [|? ? Hn HF']; subst. pose proof (prod_pos _ HF') as HP'. set (k := prod (c :: r)) in *.
  assert (EP : prod [n; k] = prod (n :: c :: r)) by (change (prod (n :: c :: r)) with (n * k)%Z; cbn [prod]; lia). pose proof HC as (Gx & Ex & _ & Gy & Ey & _).
  apply close_of; [auto with idx|rewrite EP; auto|]. intros idx HI. pose proof (ravel_bound _ _ HI) as HB. rewrite EP in HB.
  destruct (close_at _ _ _ _ _ (unravel (n :: c :: r) (ravel [n; k] idx)) HC) as (A & B & C); [apply unravel_range; auto|]. unfold el in A, B, C. rewrite Ex in A, C. rewrite Ey in B, C. rewrite ravel_unravel in A, B, C by auto. auto.
Qed.
Lemma close_self : forall ds M x, good x -> tdims x = ds -> all_finite x -> (forall idx, in_range ds idx -> Rabs (f32_value (el x idx)) <= M) -> close lm ds M 0 x (exact x).
Proof.
  intros ds M x Gx Ex Fx H. destruct (good_exact x Gx) as (G1 & G2). split; [auto|]. split; [auto|]. split; [auto|]. split; [auto|]. split; [rewrite G2; auto|].
  intros idx HI. rewrite el_exact by (auto; rewrite Ex; auto). rewrite <- value_V. split; [apply H; auto|]. rewrite Rminus_eq_0, Rabs_R0. lra.
Qed.
Lemma close_choice : forall n o M E x y i j k, close lm [n; o] M E x y -> (0 <= i < n)%Z -> (0 <= j < o)%Z -> (0 <= k < o)%Z -> el y [i; k] + 2 * E < el y [i; j] -> s_lt (el x [i; k]) (el x [i; j]) = true.
Proof.
  intros n o M E x y i j k HC Hi Hj Hk H. destruct (close_at _ _ _ _ _ [i; j] HC) as ((V1 & F1) & _ & B1); [auto with idx|]. destruct (close_at _ _ _ _ _ [i; k] HC) as ((V2 & F2) & _ & B2); [auto with idx|].
  change (s_lt (el x [i; k]) (el x [i; j])) with (SFltb (el x [i; k]) (el x [i; j])). rewrite ltb_V by auto. apply Rlt_bool_true. apply Rabs_le_inv in B1. apply Rabs_le_inv in B2. lra.
Qed.
End N.

(** The nearest float to the exponential is within half a unit in the last place. *)
Lemma cr_exp_within : exp_within (/ 2 ^ 24) cr_exp.
Proof.
  intros x Hx Fx. assert (HC : cr_exp x = f32_of_Z 1 /\ exp (f32_value x) = 1 \/ cr_exp x = near32 (exp (f32_value x))).
  { destruct x as [s|s| |s m e]; cbn in Fx; try tauto. left. split; [reflexivity|]. cbn. apply exp_0. }
  pose proof tiny_half_pos as Ht. pose proof ulp_pos as Hu. rewrite ulp_is in Hu. pose proof (exp_pos (f32_value x)) as Pe. destruct HC as [(E1 & E2)|E].
  - rewrite E1, E2, value_V, V_one, Rminus_eq_0, Rabs_R0. split; [intros _; lra|]. intros K. exfalso. apply K. apply finite_fin. reflexivity.
  - rewrite E. set (r := exp (f32_value x)) in *. destruct (Rlt_dec (Rabs (rnd r)) big) as [L|L].
    + destruct (near32_in r L) as (A & B). split.
      * intros _. rewrite value_V, B. pose proof (rnd_err r) as HE. rewrite (Rabs_pos_eq r), ulp_is in HE by lra. exact HE.
      * intros K. exfalso. apply K. apply finite_fin. exact A.
    + assert (HB : 2 ^ 100 <= r). { apply Rnot_lt_le. intros K. apply L. apply rnd_small. rewrite Rabs_pos_eq by lra. assert (2 ^ 100 <= 2 ^ 120) by (apply Rle_pow; [lra|lia]). set (X := 2 ^ 120) in *. set (Y := 2 ^ 100) in *. lra. }
      split; [|intros _; exact HB]. intros K. apply finite_fin in K. exfalso. rewrite near32_over in K; [discriminate K|]. apply Rnot_lt_le. intros Q. apply L. rewrite Rabs_pos_eq; [exact Q|]. rewrite <- rnd_0. apply rnd_le. lra.
Qed.
