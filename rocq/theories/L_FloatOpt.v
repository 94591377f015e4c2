(** * Float32 training: the weights stay finite *)
From Coq Require Import Reals Lra SpecFloat.
From Flocq Require Import Core BinarySingleNaN.
From Verif Require Import Base Scalar Types Spec SpecNN SpecR SpecF32 SpecOpt M_Shape M_Tensor M_Adv M_Act M_Opt L_Index L_Tensor L_RSum L_Float L_FloatAct L_FloatLib L_FloatT L_FloatB L_Double L_Opt L_Opt2 L_OptB.
Local Open Scope R_scope.
#[local] Existing Instance Hp32.
#[local] Existing Instance Hm32.
Local Notation B32 := (binary_float f32_prec f32_emax).
Local Notation V := (SF2R radix2).
Local Notation fadd := (SFadd f32_prec f32_emax).
Local Notation fsub := (SFsub f32_prec f32_emax).
Local Notation fmul := (SFmul f32_prec f32_emax).
Local Notation fsqrt := (SFsqrt f32_prec f32_emax).
Local Notation P e := (bpow radix2 e).

Lemma leb_V : forall x y, vok x -> vok y -> fin x -> fin y -> SFleb x y = Rle_bool (V x) (V y).
Proof. intros x y Hx Hy Fx Fy. unB. rewrite finB in *. rewrite !VB. apply Bleb_correct; auto. Qed.
Lemma decay_in : forall b, f32_decay b -> decay_ok b.
Proof. intros b (A & B & C). apply finite_fin in B. rewrite value_V in C. split; [exact A|]. split; [exact B|]. change (P (-10)) with (/ 1024). lra. Qed.
Lemma bnd_in : forall e x, f32_in (- P e) (P e) x <-> bnd e x.
Proof.
  intros e x. rewrite <- within_in. unfold within, bnd, good_f. split.
  - intros (A & B & C). split; [auto|]. apply Rabs_le. auto.
  - intros ((A & B) & C). split; [auto|]. split; [auto|]. apply Rabs_le_inv. auto.
Qed.

Section O.
Context (lm : libm).
Let SF : Scalar f32 := F32Scalar lm.
Local Existing Instance SF.

(** ** Learning rates *)
Lemma rate_unit : forall lr lro : f32, within 0 1 lr -> within (-1) 1 lro -> within 0 1 (rate lr lro).
Proof.
  intros lr lro H (A & B & C). unfold rate. change (s_lt zero lro) with (SFltb (f32_of_Z 0) lro). rewrite ltb_V by (auto; reflexivity). change (V (f32_of_Z 0)) with 0.
  destruct (Rlt_bool_spec 0 (V lro)); [|auto]. split; [auto|]. split; [auto|]. lra.
Qed.

(** ** SGD *)
Lemma sgd_step_fin : forall mom damp nest lr g w v, decay_ok mom -> within 0 1 damp -> within 0 1 lr -> bnd 30 g -> bnd 127 w -> bnd 42 v ->
  bnd 127 (fst (sgd_rule mom damp (f32_of_Z 0) nest lr g (w, v))) /\ bnd 42 (snd (sgd_rule mom damp (f32_of_Z 0) nest lr g (w, v))).
Proof.
  intros mom damp nest lr g w v DM UD UL BG BW BV. unfold sgd_rule. change (s_eq (f32_of_Z 0) zero) with true. cbv iota.
  assert (FIN : forall d, bnd 43 d -> bnd 127 (s_sub w (s_mul lr d))).
  { intros d Bd. apply (sat_sub w (fmul lr d) 102); [lia..|exact BW|]. apply (bnd_le (0 + 43)); [lia|]. apply mul_bnd; [lia|apply bnd_unit; auto|auto]. }
  destruct (s_eq mom zero); [cbn [fst snd]; split; [apply FIN; eapply bnd_le; [|exact BG]; lia|auto]|].
  assert (BC : bnd 30 (fmul (fsub (f32_of_Z 1) damp) g)).
  { change 30%Z with (0 + 30)%Z. apply mul_bnd; [lia| |auto]. apply bnd_unit. apply sub_within; auto. }
  pose proof (decay_step mom v _ 30 ltac:(lia) ltac:(lia) DM BV BC) as B1. cbn [fst snd]. change (30 + 12)%Z with 42%Z in B1. split; [|exact B1]. apply FIN. destruct nest; [|eapply bnd_le; [|exact B1]; lia].
  change 43%Z with (42 + 1)%Z. apply add_bnd; [lia|eapply bnd_le; [|exact BG]; lia|]. change 42%Z with (0 + 42)%Z. apply mul_bnd; [lia|apply bnd_unit, decay_unit; auto|exact B1].
Qed.

(** ** RMSProp, not centered *)
Definition eps_ok (e : f32) : Prop := good_f e /\ P (-40) <= V e <= 1.
Lemma eps_bnd : forall e, eps_ok e -> bnd 0 e.
Proof. intros e (G & L). pose proof (P_pos (-40)). split; [auto|]. rewrite Rabs_pos_eq, P_0; lra. Qed.
Lemma above : forall x e a, (0 <= a < 127)%Z -> bnd a x -> 0 <= V x -> eps_ok e -> bnd (a + 1) (fadd x e) /\ P (-40) <= V (fadd x e).
Proof.
  intros x e a Ha BX PX HE. pose proof (eps_bnd e HE) as BE. pose proof (bnd_le 0 a e ltac:(lia) BE) as BE'. split; [apply add_bnd; auto; lia|].
  destruct HE as (GE & LE). destruct BX as [GX LX]. destruct BE' as [_ L2]. destruct (add_to x e (a + 1) ltac:(lia) GX GE) as [_ E]; [rewrite P_succ; eapply Rle_trans; [apply Rabs_triang|lra]|].
  rewrite E. apply rnd_P_ge; [lia|lra].
Qed.
Lemma rms_step_fin : forall alpha eps mom lr g w s m v, decay_ok alpha -> eps_ok eps -> decay_ok mom -> within 0 1 lr -> bnd 30 g ->
  bnd 127 w -> bnd 72 s /\ 0 <= V s -> bnd 62 v ->
  let '(w', s', m', v') := rms_rule alpha eps mom false (f32_of_Z 0) lr g (w, s, m, v) in bnd 127 w' /\ (bnd 72 s' /\ 0 <= V s') /\ bnd 62 v'.
Proof.
  intros alpha eps mom lr g w s m v DA HE DM UL BG BW (BS & PS) BV. unfold rms_rule. change (s_eq (f32_of_Z 0) zero) with true. cbv iota.
  destruct (one_minus alpha DA) as (U1 & L1). set (oa := fsub (f32_of_Z 1) alpha) in *.
  assert (B1 : bnd 30 (fmul oa g)) by (change 30%Z with (0 + 30)%Z; apply mul_bnd; [lia|apply bnd_unit; auto|auto]).
  assert (B2 : bnd 60 (fmul (fmul oa g) g)) by (change 60%Z with (30 + 30)%Z; apply mul_bnd; [lia|auto..]).
  assert (P2 : 0 <= V (fmul (fmul oa g) g)).
  { destruct B1 as [G1 L1'], BG as [GG LG]. destruct (mul_to (fmul oa g) g 60 ltac:(lia) G1 GG) as [_ E]; [change 60%Z with (30 + 30)%Z; rewrite bpow_plus, Rabs_mult; apply Rmult_le_compat; auto using Rabs_pos|].
    rewrite E. apply rnd_nonneg. destruct U1 as (H1 & F1 & R1). destruct GG as [HG FG]. destruct (mul_to oa g 30 ltac:(lia) (conj H1 F1) (conj HG FG)) as [_ E2].
    { rewrite Rabs_mult, (Rabs_pos_eq (V oa)) by lra. pose proof (Rabs_pos (V g)). nra. }
    rewrite E2. destruct (Rle_dec 0 (V g)) as [Q|Q].
    - apply Rmult_le_pos; [|auto]. apply rnd_nonneg. apply Rmult_le_pos; lra.
    - replace (rnd (V oa * V g) * V g) with ((- rnd (V oa * V g)) * (- V g)) by ring. apply Rmult_le_pos; [|lra]. rewrite <- rnd_opp. apply rnd_nonneg. replace (- (V oa * V g)) with (V oa * - V g) by ring. apply Rmult_le_pos; lra. }
  pose proof (decay_step alpha s _ 60 ltac:(lia) ltac:(lia) DA BS B2) as B3. pose proof (decay_pos alpha s _ 60 ltac:(lia) ltac:(lia) DA BS B2 PS P2) as P3. change (60 + 12)%Z with 72%Z in B3.
  set (s1 := fadd (fmul alpha s) (fmul (fmul oa g) g)) in *. destruct (above s1 eps 72 ltac:(lia) B3 P3 HE) as (B4 & P4).
  pose proof (sqrt_low (fadd s1 eps) (-20) ltac:(lia) (proj1 B4) P4) as P5. pose proof (P_pos (-40)). destruct (sqrt_in (fadd s1 eps) (proj1 B4) ltac:(lra)) as (G5 & _).
  pose proof (div_bnd g (fsqrt (fadd s1 eps)) 30 (-20) ltac:(lia) BG G5 P5) as B6. change (30 - -20)%Z with 50%Z in B6.
  assert (B7 : bnd 62 (fadd (fmul mom v) (f32_div g (fsqrt (fadd s1 eps))))) by (apply (decay_step mom v _ 50); auto; lia).
  split; [|split; [split; [exact B3|exact P3]|]].
  - apply (sat_sub w _ 102); [lia..|exact BW|]. apply (bnd_le (0 + 62)); [lia|]. apply mul_bnd; [lia|apply bnd_unit; auto|]. destruct (s_lt zero mom); [exact B7|apply (bnd_le 50); [lia|exact B6]].
  - destruct (s_lt zero mom); [exact B7|exact BV].
Qed.

(** ** Adam *)
Lemma tiny_decay : decay_ok (tiny : f32).
Proof.
  assert (E : (tiny : f32) = S754_finite false 8388608 (-149)) by (vm_compute; reflexivity). rewrite E. split; [reflexivity|]. split; [reflexivity|].
  change (V (S754_finite false 8388608 (-149))) with (8388608 * P (-149)). replace (8388608 * P (-149)) with (P (-126)). 2:{ replace (-126)%Z with (23 + -149)%Z by lia. rewrite bpow_plus. reflexivity. }
  pose proof (P_pos (-126)). pose proof (P_le (-126) (-10) ltac:(lia)). change (P (-10)) with (/ 1024) in *. lra.
Qed.
Lemma max_decay : forall a b : f32, decay_ok a -> decay_ok b -> decay_ok (s_max a b).
Proof. intros a b A B. unfold s_max. destruct (s_lt a b); auto. Qed.
Section Ad.
Hypothesis HP : pow_like (m_pow lm).
Lemma powi_decay : forall b n, decay_ok b -> (1 <= n)%Z -> decay_ok (s_powi b n).
Proof. intros b n D H. apply (pow_decay (m_pow lm)); auto. Qed.
Lemma corr_in : forall x b n a, (-139 <= a < 118)%Z -> bnd a x -> decay_ok b -> (1 <= n)%Z -> bnd (a + 10) (s_corr x b n) /\ (0 <= V x -> 0 <= V (s_corr x b n)).
Proof. intros x b n a Ha B D Hn. destruct (pow_decay (m_pow lm) b n HP D Hn) as (G & L & _). apply corr_bnd; auto. Qed.
Lemma scaled_bnd : forall b1 b2 n lr, decay_ok b1 -> decay_ok b2 -> (1 <= n)%Z -> within 0 1 lr -> bnd 10 (adam_scaled b1 b2 n lr).
Proof.
  intros b1 b2 n lr D1 D2 Hn UL. unfold adam_scaled. destruct (one_minus _ (max_decay _ _ (powi_decay b1 n D1 Hn) tiny_decay)) as (U1 & L1). destruct (one_minus _ (max_decay _ _ (powi_decay b2 n D2 Hn) tiny_decay)) as (U2 & L2).
  change 10%Z with (0 - -10)%Z. apply div_bnd; [lia| |eapply within_good; exact U1|exact L1]. change 0%Z with (0 + 0)%Z at 1. apply mul_bnd; [lia|apply bnd_unit; auto|].
  apply (sqrt_bnd _ 0); [lia|apply bnd_unit; exact U2|]. apply U2.
Qed.
Lemma adam_lr_unit : forall lr decay n lro, within 0 1 lr -> within 0 1 decay -> within (-1) 1 lro -> (1 <= n <= INT_MAX)%Z -> within 0 1 (adam_lr lr decay n lro).
Proof.
  intros lr decay n lro UL UD (A & B & C) Hn. unfold adam_lr. change (s_le lro zero) with (SFleb lro (f32_of_Z 0)). rewrite leb_V by (auto; reflexivity). change (V (f32_of_Z 0)) with 0.
  destruct (Rle_bool_spec (V lro) 0); [|split; [auto|]; split; [auto|]; lra]. apply mul_within; [auto|].
  assert (U1 : within 0 1 (f32_of_Z 1)) by (split; [apply of_Z_vok|split; [reflexivity|rewrite V_one; lra]]).
  destruct (s_lt zero decay); [|exact U1]. destruct (of_Z_ge1 n Hn) as (GN & LN).
  assert (BN : bnd 31 (f32_of_Z n)).
  { split; [auto|]. assert (L : Rabs (IZR n) <= P 31). { rewrite Rabs_pos_eq by (apply IZR_le; lia). change (P 31) with (IZR 2147483648). apply IZR_le. unfold INT_MAX in *. lia. }
    destruct (of_Z_in n) as (F & E); [eapply fin_by; [|exact L]; lia|]. rewrite E. apply rnd_P; [lia|auto]. }
  pose proof (mul_bnd decay _ 0 31 ltac:(lia) (bnd_unit _ UD) BN) as BP. pose proof (mul_pos decay _ 0 31 ltac:(lia) (bnd_unit _ UD) BN ltac:(apply UD) ltac:(lra)) as PP. change (0 + 31)%Z with 31%Z in BP.
  set (p := fmul decay (f32_of_Z n)) in *. destruct (add_to (f32_of_Z 1) p 32 ltac:(lia)) as [GS ES]; [eapply within_good; exact U1|apply BP| |].
  { rewrite V_one. destruct BP as [_ LP]. rewrite Rabs_pos_eq in LP by auto. rewrite Rabs_pos_eq by lra. change (P 31) with 2147483648 in LP. change (P 32) with 4294967296. lra. }
  assert (LS : 1 <= V (fadd (f32_of_Z 1) p)) by (rewrite ES, V_one, <- P_0; apply rnd_P_ge; [lia|rewrite P_0; lra]).
  pose proof (div_bnd (f32_of_Z 1) (fadd (f32_of_Z 1) p) 0 0 ltac:(lia) (bnd_unit _ U1) GS ltac:(rewrite P_0; exact LS)) as [GD LD].
  pose proof (div_pos (f32_of_Z 1) (fadd (f32_of_Z 1) p) 0 0 ltac:(lia) (bnd_unit _ U1) GS ltac:(rewrite P_0; exact LS) ltac:(rewrite V_one; lra)) as PD.
  destruct GD as [HD FD]. split; [exact HD|]. split; [exact FD|]. split; [exact PD|]. rewrite Rabs_pos_eq in LD by exact PD. exact LD.
Qed.
Lemma adam_step_fin : forall b1 b2 eps n lr a w m v, decay_ok b1 -> decay_ok b2 -> eps_ok eps -> (1 <= n)%Z -> within 0 1 lr -> bnd 30 a -> bnd 127 w -> bnd 42 m -> bnd 72 v /\ 0 <= V v ->
  let '(w', m', v') := adam_rule b1 b2 eps (f32_of_Z 0) (f32_of_Z 0) (adam_scaled b1 b2) n lr a (w, m, v) in bnd 127 w' /\ bnd 42 m' /\ (bnd 72 v' /\ 0 <= V v').
Proof.
  intros b1 b2 eps n lr a w m v D1 D2 HE Hn UL BA BW BM (BV & PV). unfold adam_rule. change (s_lt zero (f32_of_Z 0)) with false. cbv iota. unfold adam_m, adam_v.
  destruct (one_minus b1 D1) as (U1 & _). destruct (one_minus b2 D2) as (U2 & _).
  assert (C1 : bnd 30 (fmul (fsub (f32_of_Z 1) b1) a)) by (change 30%Z with (0 + 30)%Z; apply mul_bnd; [lia|apply bnd_unit; auto|auto]).
  pose proof (decay_step b1 m _ 30 ltac:(lia) ltac:(lia) D1 BM C1) as BM1. change (30 + 12)%Z with 42%Z in BM1. set (m1 := fadd (fmul b1 m) (fmul (fsub (f32_of_Z 1) b1) a)) in *.
  set (oa := fsub (f32_of_Z 1) b2) in *.
  assert (B1 : bnd 30 (fmul oa a)) by (change 30%Z with (0 + 30)%Z; apply mul_bnd; [lia|apply bnd_unit; auto|auto]).
  assert (B2 : bnd 60 (fmul (fmul oa a) a)) by (change 60%Z with (30 + 30)%Z; apply mul_bnd; [lia|auto..]).
  assert (P2 : 0 <= V (fmul (fmul oa a) a)).
  { destruct B1 as [G1 L1'], BA as [GG LG]. destruct (mul_to (fmul oa a) a 60 ltac:(lia) G1 GG) as [_ E]; [change 60%Z with (30 + 30)%Z; rewrite bpow_plus, Rabs_mult; apply Rmult_le_compat; auto using Rabs_pos|].
    rewrite E. apply rnd_nonneg. destruct U2 as (H1 & F1 & R1). destruct GG as [HG FG]. destruct (mul_to oa a 30 ltac:(lia) (conj H1 F1) (conj HG FG)) as [_ E2].
    { rewrite Rabs_mult, (Rabs_pos_eq (V oa)) by lra. pose proof (Rabs_pos (V a)). nra. }
    rewrite E2. destruct (Rle_dec 0 (V a)) as [Q|Q].
    - apply Rmult_le_pos; [|auto]. apply rnd_nonneg. apply Rmult_le_pos; lra.
    - replace (rnd (V oa * V a) * V a) with ((- rnd (V oa * V a)) * (- V a)) by ring. apply Rmult_le_pos; [|lra]. rewrite <- rnd_opp. apply rnd_nonneg. replace (- (V oa * V a)) with (V oa * - V a) by ring. apply Rmult_le_pos; lra. }
  pose proof (decay_step b2 v _ 60 ltac:(lia) ltac:(lia) D2 BV B2) as B3. pose proof (decay_pos b2 v _ 60 ltac:(lia) ltac:(lia) D2 BV B2 PV P2) as P3. change (60 + 12)%Z with 72%Z in B3.
  set (v1 := fadd (fmul b2 v) (fmul (fmul oa a) a)) in *.
  split; [|split; [exact BM1|split; [exact B3|exact P3]]].
  destruct (corr_in m1 b1 n 42 ltac:(lia) BM1 D1 Hn) as (BMH & _). change (42 + 10)%Z with 52%Z in BMH.
  destruct (corr_in v1 b2 n 72 ltac:(lia) B3 D2 Hn) as (BVH & PVH). specialize (PVH P3). change (72 + 10)%Z with (2 * 41)%Z in BVH.
  destruct (sqrt_bnd _ 41 ltac:(lia) BVH PVH) as (BS & PS). destruct (above _ eps 41 ltac:(lia) BS PS HE) as (BD & LD).
  apply (sat_sub w _ 102); [lia..|exact BW|]. change 102%Z with (62 - -40)%Z. apply div_bnd; [lia| |exact (proj1 BD)|exact LD]. change 62%Z with (10 + 52)%Z. apply mul_bnd; [lia|apply scaled_bnd; auto|exact BMH].
Qed.

End Ad.

(** ** Histories *)
Lemma fold_keeps : forall {A B} (f : A -> B -> A) (I : A -> Prop) (Q : B -> Prop) l a, (forall a b, I a -> Q b -> I (f a b)) -> I a -> (forall b, In b l -> Q b) -> I (fold_left f l a).
Proof. intros A B f I Q. induction l as [|b l IH]; intros a H HI HQ; [auto|]. cbn [fold_left]. apply IH; [auto|apply H; [auto|apply HQ; left; auto]|intros; apply HQ; right; auto]. Qed.
Definition tame_up (q : Z) (D : Z -> list Z) (k : Z) (e : f32 * tensor f32) : Prop := within (-1) 1 (fst e) /\ forall idx, in_range (D k) idx -> bnd q (el (snd e) idx).
Lemma el_bnd : forall (t : tensor f32) e idx, good t -> Forall (f32_in (- P e) (P e)) (tdata t) -> in_range (tdims t) idx -> bnd e (el t idx).
Proof.
  intros t e idx G H HI. apply bnd_in. unfold el. assert (B : (0 <= ravel (tdims t) idx < Zlen (tdata t))%Z) by (rewrite (good_len t G); apply ravel_bound; auto; apply G).
  unfold znth. rewrite Forall_forall in H. apply H. apply nth_In. unfold Zlen in B. lia.
Qed.
Lemma up_tame : forall q D cs k e, calls_ok D cs -> tame_calls (P q) cs -> In e (updates k cs) -> tame_up q D k e.
Proof.
  intros q D cs k e HC HT HI. unfold updates in HI. apply in_flat_map in HI. destruct HI as (c & IC & HI). apply in_map_iff in HI. destruct HI as (g & <- & IG). unfold grads in IG. apply in_map_iff in IG. destruct IG as ((k', g') & <- & IG). cbn [snd] in *.
  apply filter_In in IG. destruct IG as (IG & EK). cbn [fst] in EK. apply Z.eqb_eq in EK. subst k'. unfold calls_ok in HC. rewrite Forall_forall in HC. specialize (HC c IC). rewrite Forall_forall in HC. specialize (HC _ IG). cbn [fst snd] in HC.
  unfold tame_calls in HT. rewrite Forall_forall in HT. destruct (HT c IC) as (HR & HG). rewrite Forall_forall in HG. specialize (HG _ IG). cbn [snd] in HG. split; [apply within_in; exact HR|]. intros idx HI. cbn [snd]. destruct HC as (G & E). apply el_bnd; auto. rewrite E. exact HI.
Qed.
Lemma num_tame : forall q D cs n k e, calls_ok D cs -> tame_calls (P q) cs -> In e (numbered n k cs) -> (n <= fst (fst e) < n + Zlen cs)%Z /\ tame_up q D k (snd (fst e), snd e).
Proof.
  intros q D. induction cs as [|c cs IH]; intros n k e HC HT HI; [destruct HI|]. cbn [numbered] in HI. pose proof (Zlen_nonneg cs). rewrite Zlen_cons. apply in_app_or in HI. destruct HI as [HI|HI].
  - apply in_map_iff in HI. destruct HI as (g & <- & IG). cbn [fst snd]. split; [lia|]. apply (up_tame q D (c :: cs) k); auto. unfold updates. cbn [flat_map]. apply in_or_app. left. apply in_map_iff. exists g. auto.
  - inversion HC; inversion HT; subst. destruct (IH (n + 1)%Z k e) as (A & B); auto. split; [lia|auto].
Qed.
Lemma tensor_tame : forall D (st : store f32) e, store_ok D st -> (forall k idx, in_range (D k) idx -> bnd e (el (st k) idx)) -> tame_weights (P e) st.
Proof.
  intros D st e HS H k. destruct (HS k) as (G & E). apply Forall_forall. intros x HX. apply (In_nth _ _ (f32_of_Z 0)) in HX. destruct HX as (i & Hi & EX). apply bnd_in.
  assert (B : (0 <= Z.of_nat i < prod (tdims (st k)))%Z) by (rewrite <- (good_len _ G); unfold Zlen; lia).
  specialize (H k (unravel (tdims (st k)) (Z.of_nat i))). rewrite <- E in H. unfold el in H. rewrite ravel_unravel in H by (auto; apply G). unfold znth in H. rewrite Nat2Z.id in H. rewrite <- EX. apply H. apply unravel_range; [apply G|auto].
Qed.

Lemma sgd_stays : forall D cs lr mom damp nest st, f32_in 0 1 lr -> f32_decay mom -> f32_in 0 1 damp -> store_ok D st -> calls_ok D cs -> tame_calls (P 30) cs -> tame_weights (P 127) st ->
  exists o' st', opt_run sgd_optimize cs (sgd_new lr mom damp zero nest) st = (o', st', Ok tt) /\ store_ok D st' /\ tame_weights (P 127) st'.
Proof.
  intros D cs lr mom damp nest st HL HM HD HS HC HT HW. apply within_in in HL. apply within_in in HD. apply decay_in in HM.
  destruct (sgd_history D cs (sgd_new lr mom damp zero nest) st ltac:(intros ? ?; discriminate) HS HC) as (o' & st' & E & _ & _ & HS' & VV). exists o', st'. split; [exact E|]. split; [exact HS'|].
  apply (tensor_tame D); auto. intros k idx HI. specialize (VV k idx HI). cbn [sgd_new sg_lr sg_mom sg_damp sg_wd sg_nest sg_buf] in VV.
  match type of VV with _ = fold_left ?f ?l ?a => assert (K : bnd 127 (fst (fold_left f l a)) /\ bnd 42 (snd (fold_left f l a))) end.
  - apply (fold_keeps _ (fun p => bnd 127 (fst p) /\ bnd 42 (snd p)) (tame_up 30 D k)).
    + intros (w, v) e (BW & BV) (TR & TG). apply sgd_step_fin; auto. apply rate_unit; auto.
    + cbn [fst snd]. split; [apply el_bnd; [apply HS|apply HW|rewrite (proj2 (HS k)); exact HI]|]. apply bnd_zero.
    + intros e HE. eapply up_tame; eauto.
  - rewrite <- VV in K. exact (proj1 K).
Qed.
Lemma rms_stays : forall D cs lr alpha eps mom st, f32_in 0 1 lr -> f32_decay alpha -> f32_in (P (-40)) 1 eps -> f32_decay mom -> store_ok D st -> calls_ok D cs -> tame_calls (P 30) cs -> tame_weights (P 127) st ->
  exists o' st', opt_run rms_optimize cs (rms_new lr alpha eps mom false zero) st = (o', st', Ok tt) /\ store_ok D st' /\ tame_weights (P 127) st'.
Proof.
  intros D cs lr alpha eps mom st HL HA HE HM HS HC HT HW. apply within_in in HL. apply within_in in HE. apply decay_in in HM. apply decay_in in HA.
  assert (HE' : eps_ok eps) by (destruct HE as (A & B & C); split; [split; auto|auto]).
  destruct (rms_history_spec D cs (rms_new lr alpha eps mom false zero) st ltac:(split; [|split]; intros ? ?; discriminate) HS HC) as (o' & st' & E & _ & _ & HS' & VV). exists o', st'. split; [exact E|]. split; [exact HS'|].
  apply (tensor_tame D); auto. intros k idx HI. specialize (VV k idx HI). cbn [rms_new rp_lr rp_alpha rp_eps rp_mom rp_cent rp_wd rp_sq rp_mean rp_vel] in VV.
  set (I := fun p : f32 * f32 * f32 * f32 => let '(w, s, m, v) := p in bnd 127 w /\ (bnd 72 s /\ 0 <= V s) /\ bnd 62 v).
  match type of VV with _ = fold_left ?f ?l ?a => assert (K : I (fold_left f l a)) end.
  - apply (fold_keeps _ I (tame_up 30 D k)).
    + intros (((w, s), m), v) e (BW & BS & BV) (TR & TG). apply rms_step_fin; auto. apply rate_unit; auto.
    + cbn [I]. split; [apply el_bnd; [apply HS|apply HW|rewrite (proj2 (HS k)); exact HI]|]. split; [split; [apply bnd_zero|change (0 <= 0); lra]|apply bnd_zero].
    + intros e He. eapply up_tame; eauto.
  - rewrite <- VV in K. exact (proj1 K).
Qed.
Lemma adam_stays : pow_like (m_pow lm) -> forall D cs lr b1 b2 eps decay batch st, f32_in 0 1 lr -> f32_decay b1 -> f32_decay b2 -> f32_in (P (-40)) 1 eps -> f32_in 0 1 decay -> (1 <= batch <= INT_MAX)%Z -> (Zlen cs <= INT_MAX)%Z ->
  store_ok D st -> calls_ok D cs -> tame_calls (P 30) cs -> tame_weights (P 127) st ->
  exists o' st', opt_run adam_optimize cs (adam_new lr b1 b2 eps zero zero decay batch) st = (o', st', Ok tt) /\ store_ok D st' /\ tame_weights (P 127) st'.
Proof.
  intros HP D cs lr b1 b2 eps decay batch st HL H1 H2 HE HD HB HN HS HC HT HW. apply within_in in HL. apply within_in in HE. apply within_in in HD. apply decay_in in H1. apply decay_in in H2.
  assert (HE' : eps_ok eps) by (destruct HE as (A & B & C); split; [split; auto|auto]).
  destruct (adam_history_spec D cs (adam_new lr b1 b2 eps zero zero decay batch) st ltac:(split; intros ? ?; discriminate) HS (Z.le_refl _) ltac:(cbn [adam_new ad_it]; lia) HC) as (o' & st' & E & _ & HS' & _ & VV). exists o', st'. split; [exact E|]. split; [exact HS'|].
  apply (tensor_tame D); auto. intros k idx HI. specialize (VV k idx HI). cbn [adam_new ad_init ad_lr ad_b1 ad_b2 ad_eps ad_l1 ad_l2 ad_decay ad_it ad_batch ad_m ad_v] in VV.
  set (I := fun p : f32 * f32 * f32 => let '(w, m, v) := p in bnd 127 w /\ bnd 42 m /\ (bnd 72 v /\ 0 <= V v)).
  match type of VV with _ = fold_left ?f ?l ?a => assert (K : I (fold_left f l a)) end.
  - apply (fold_keeps _ I (fun e => (1 <= fst (fst e) <= INT_MAX)%Z /\ tame_up 30 D k (snd (fst e), snd e))).
    + intros ((w, m), v) e (BW & BM & BV) (HN' & TR & TG). cbn [fst snd] in TR, TG. apply adam_step_fin; auto; [lia|apply adam_lr_unit; auto|].
      destruct (of_Z_ge1 batch HB) as (GB & LB). apply (div_bnd _ _ 30 0); [lia|apply TG; auto|auto|rewrite P_0; auto].
    + cbn [I]. split; [apply el_bnd; [apply HS|apply HW|rewrite (proj2 (HS k)); exact HI]|]. split; [apply bnd_zero|split; [apply bnd_zero|change (0 <= 0); lra]].
    + intros e He. destruct (num_tame 30 D cs _ k e HC HT He) as (A & B). split; [lia|auto].
  - rewrite <- VV in K. exact (proj1 K).
Qed.
End O.
