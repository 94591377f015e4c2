(** * More layers for C122: Tanh, Swish, Mish, max pooling and batch normalisation *)
From Coq Require Import Reals Lra SpecFloat.
From Flocq Require Import Core BinarySingleNaN Mult_error.
From Verif Require Import Base Scalar ScalarR Types Spec SpecNN SpecLayers SpecR SpecF32 M_Shape M_Tensor M_Adv M_Act M_Layers M_Reg M_Net L_Index L_Shape L_Tensor L_Nest L_Matmul L_RSum L_AdvR L_Act L_ActR L_Layers L_Conv L_Float L_FloatAct L_FloatLib L_FloatT L_FloatB L_Drop L_Batch L_Slice L_BN L_BNR L_Pool SpecFuse L_Swap SpecNear L_Near L_Robust.
Local Open Scope R_scope.
Local Notation V := (SF2R radix2).
Local Notation fadd := (SFadd f32_prec f32_emax).
Local Notation fsub := (SFsub f32_prec f32_emax).
Local Notation fmul := (SFmul f32_prec f32_emax).
Local Notation fsqrt := (SFsqrt f32_prec f32_emax).

Lemma tri : forall a b c x y, Rabs (a - b) <= x -> Rabs (b - c) <= y -> Rabs (a - c) <= x + y.
Proof. intros a b c x y H K. replace (a - c) with ((a - b) + (b - c)) by ring. eapply Rle_trans; [apply Rabs_triang|]. lra. Qed.
Lemma by_diff : forall a b x y, Rabs (a - b) <= x -> Rabs b <= y -> Rabs a <= x + y.
Proof. intros a b x y H K. replace a with ((a - b) + b) by ring. eapply Rle_trans; [apply Rabs_triang|]. lra. Qed.
Lemma u_le : 0 < ulp_half <= / 1024.
Proof. split; [apply ulp_pos|]. rewrite ulp_is. apply Rinv_le_contravar; [lra|]. replace 1024 with (2 ^ 10) by (cbn; ring). apply Rle_pow; [lra|lia]. Qed.
Lemma t_le : 0 < tiny_half <= ulp_half.
Proof. split; [apply tiny_half_pos|]. rewrite ulp_is. apply tiny_lt. Qed.
Lemma tiny_share : forall C, (C + 1) / 2 ^ 148 = 4 * (tiny_half * C) + 4 * tiny_half.
Proof.
  intros C. unfold tiny_half. assert (E : 2 ^ 150 = 4 * 2 ^ 148) by (change 150%nat with (2 + 148)%nat; rewrite pow_add; ring). rewrite E. pose proof (pow_nonzero 2 148 ltac:(lra)) as N. set (x := 2 ^ 148) in *. field. exact N.
Qed.
Lemma rnd_near : forall r x, Rabs r <= x -> Rabs (rnd r - r) <= ulp_half * x + tiny_half.
Proof. intros r x H. eapply Rle_trans; [apply rnd_err|]. pose proof u_le. nra. Qed.
Lemma rnd_double : forall x, vok x -> rnd (V x * 2) = V x * 2.
Proof.
  intros x H. apply round_generic; [apply valid_rnd_N|]. change 2 with (bpow radix2 1). apply mult_bpow_pos_exact_FLT; [apply (V_format x H)|lia].
Qed.
Lemma exp_le_pow3 : forall n, exp (INR n) <= 3 ^ n.
Proof. induction n as [|n IH]; [cbn; rewrite exp_0; lra|]. rewrite S_INR, exp_plus. cbn [pow]. pose proof exp_le_3. pose proof (exp_pos (INR n)). pose proof (exp_pos 1). nra. Qed.

Section N.
Variable lm : libm.
Let SF : Scalar f32 := F32Scalar lm.
#[local] Existing Instance SF.

(** ** Swish *)
Lemma swish_close : exp_like (m_exp lm) -> forall d, exp_within d (m_exp lm) -> 0 <= d -> forall (v : f32) (r M E : R), good_f v -> Rabs r <= M -> Rabs (V v - r) <= E ->
  good_f (act_el Swish v) /\ Rabs (act_el Swish r) <= M /\ Rabs (V (act_el Swish v) - act_el Swish r) <= 2 * E + (M + E) * (d + / 2 ^ 20) + / 2 ^ 150.
Proof.
  intros HL d HW Hd v r M E Hv HM HE. pose proof Hv as (Vv & Fv). destruct (sigm_close lm HL d HW Hd v (V v) 0 Hv) as (_ & SB & SC); [rewrite Rminus_eq_0, Rabs_R0; lra|].
  cbn [act_el] in SB, SC. destruct (sigm_in lm HL v Vv Fv) as (SV & SFi & SI). destruct (mul_unit v _ Vv Fv (conj SV (conj SFi SI))) as (A1 & A2 & _).
  split; [split; auto|]. cbn [act_el]. change (@sigm R RScalar r) with (1 / (1 + exp (- r))). pose proof (exp_pos (- r)) as Pr. pose proof (Rabs_pos r) as P0.
  assert (SR : 0 <= 1 / (1 + exp (- r)) <= 1). { unfold Rdiv. rewrite Rmult_1_l. split; [left; apply Rinv_0_lt_compat; lra|]. rewrite <- Rinv_1. apply Rinv_le_contravar; lra. }
  split. { change (Rabs (r * (1 / (1 + exp (- r)))) <= M). rewrite Rabs_mult, (Rabs_pos_eq (1 / _)) by lra. nra. }
  assert (HV : Rabs (V v) <= E + M) by (apply (by_diff _ r); auto). pose proof (Rabs_pos (V v)) as PV. pose proof (Rabs_pos (V v - r)) as PE.
  destruct (mul_fin _ _ Vv SV A1) as (_ & _ & EM). change (V (s_mul v (sigm v))) with (V (fmul v (@sigm f32 (F32Scalar lm) v))). rewrite EM. change (@sigm f32 SF v) with (@sigm f32 (F32Scalar lm) v) in *. set (g := @sigm f32 (F32Scalar lm) v) in *.
  assert (P20 : / 2 ^ 20 = 16 * / 2 ^ 24) by (replace (2 ^ 24) with (16 * 2 ^ 20) by (cbn; ring); rewrite Rinv_mult; field; apply pow_nonzero; lra).
  assert (P21 : / 2 ^ 21 = 8 * / 2 ^ 24) by (replace (2 ^ 24) with (8 * 2 ^ 21) by (cbn; ring); rewrite Rinv_mult; field; apply pow_nonzero; lra).
  pose proof (rnd_near (V v * V g) (E + M)) as R1. assert (LM : Rabs (V v * V g) <= E + M). { rewrite Rabs_mult, (Rabs_pos_eq (V g)) by lra. nra. } specialize (R1 LM).
  assert (R2 : Rabs (V v * V g - V v * @sigm R RScalar (V v)) <= (E + M) * (d + / 2 ^ 21)). { rewrite <- Rmult_minus_distr_l, Rabs_mult. rewrite Rplus_0_l in SC. apply Rmult_le_compat; auto; apply Rabs_pos. }
  assert (R3 : Rabs (V v * @sigm R RScalar (V v) - r * @sigm R RScalar r) <= 2 * E). { apply (act_near 0 Swish E 2 r (V v)); [discriminate|lra|lra|auto]. }
  pose proof (tri _ _ _ _ _ R1 (tri _ _ _ _ _ R2 R3)) as RT. change (s_mul r (sigm r)) with (r * @sigm R RScalar r). rewrite ulp_is in RT. change tiny_half with (/ 2 ^ 150) in RT. rewrite P20. rewrite P21 in RT.
  pose proof u_le as HU. rewrite ulp_is in HU. set (uu := / 2 ^ 24) in *. set (tt := / 2 ^ 150) in *. assert (0 <= (E + M) * uu) by (apply Rmult_le_pos; lra).
  replace ((M + E) * (d + 16 * uu)) with ((E + M) * (d + 8 * uu) + 8 * ((E + M) * uu)) by ring.
  eapply Rle_trans; [exact RT|]. lra.
Qed.

(** ** Tanh *)
Lemma tanh_close : exp_like (m_exp lm) -> forall d, exp_within d (m_exp lm) -> 0 <= d -> forall (v : f32) (r M E : R), good_f v -> Rabs r <= M -> Rabs (V v - r) <= E -> M + E <= 30 ->
  good_f (act_el Tanh v) /\ Rabs (act_el Tanh r) <= 1 /\ Rabs (V (act_el Tanh v) - act_el Tanh r) <= E + 2 * d + / 2 ^ 20.
Proof.
  intros HL d HW Hd v r M E Hv HM HE HS. pose proof Hv as (Vv & Fv). assert (HV : Rabs (V v) <= 30) by (pose proof (by_diff _ r _ _ HE HM); lra). apply Rabs_le_inv in HV.
  set (w := fmul v (f32_of_Z 2)). assert (Vw : vok w) by (apply mul_vok; auto using of_Z_vok). assert (EW : fin w /\ V w = V v * 2).
  { destruct (dbl v Vv Fv) as [K|[K|(F1 & K)]]; [| |split; [auto|unfold w; rewrite K; apply rnd_double; auto]]; exfalso.
    - assert (F : fin w); [|unfold w in F; rewrite K in F; discriminate F]. apply mul_in; auto using of_Z_vok; [reflexivity|]. rewrite V_two, rnd_double by auto. apply Rle_lt_trans with 60; [apply Rabs_le; lra|]. rewrite big_is, p128. pose proof p120. lra.
    - assert (F : fin w); [|unfold w in F; rewrite K in F; discriminate F]. apply mul_in; auto using of_Z_vok; [reflexivity|]. rewrite V_two, rnd_double by auto. apply Rle_lt_trans with 60; [apply Rabs_le; lra|]. rewrite big_is, p128. pose proof p120. lra. }
  destruct EW as (Fw & EW). destruct (HW w Vw (proj2 (finite_fin w) Fw)) as (W1 & W2). rewrite (value_V w), EW in W1, W2. set (q := exp (V v * 2)) in *.
  assert (Pq : 0 < q) by apply exp_pos.
  assert (Q100 : q < 2 ^ 100).
  { apply Rle_lt_trans with (3 ^ 60).
    - eapply Rle_trans; [|apply exp_le_pow3]. assert (I60 : INR 60 = 60) by (rewrite INR_IZR_INZ; reflexivity). rewrite I60. unfold q. destruct (Req_dec (V v * 2) 60) as [K|K]; [rewrite K; lra|]. left. apply exp_increasing. lra.
    - rewrite (pow_IZR 3 60), (pow_IZR 2 100). apply IZR_lt. reflexivity. }
  set (e := m_exp lm w) in *. assert (Fe : fin e). { destruct (fin_dec e) as [K|K]; auto. exfalso. assert (2 ^ 100 <= q) by (apply W2; intros K'; apply K, finite_fin, K'). set (X := 2 ^ 100) in *. lra. }
  specialize (W1 (proj2 (finite_fin e) Fe)). rewrite value_V in W1. assert (Ve : vok e) by (apply (ex_vok lm HL); auto).
  assert (Pe : 0 <= V e). { destruct (ex_any lm HL w Vw Fw) as [K|(_ & K)]; [unfold e in Fe; rewrite K in Fe; discriminate|exact K]. }
  destruct (tanh_fin lm HL v Vv Fe Pe) as (T1 & T2 & T3). split; [split; auto|]. clear T1.
  assert (EX : forall z, @act_el R RScalar Tanh z = (exp (z * 2) - 1) / (exp (z * 2) + 1)) by reflexivity.
  assert (ER : forall z, 0 < z -> -1 <= (z - 1) / (z + 1) <= 1). { intros z Hz. assert (0 < / (z + 1)) by (apply Rinv_0_lt_compat; lra). assert (z * / (z + 1) + / (z + 1) = 1) by (field; lra). assert (0 < z * / (z + 1)) by (apply Rmult_lt_0_compat; lra). unfold Rdiv. rewrite Rmult_minus_distr_r. lra. }
  split. { rewrite EX. apply Rabs_le. apply ER, exp_pos. }
  cbn [act_el]. change (s_div (s_sub (s_exp (s_mul v (s_z 2))) one) (s_add (s_exp (s_mul v (s_z 2))) one)) with (tanh_formula lm v). unfold tanh_formula in *. fold w in T2, T3 |- *. fold e in T2, T3 |- *.
  destruct (add_one e Ve Fe Pe) as (_ & A2 & _ & A4 & A5 & _). pose proof (of_Z_vok 1) as V1. pose proof V_one as E1.
  pose proof (V_big e Ve) as BE. rewrite Rabs_pos_eq in BE by auto.
  assert (RM : Rabs (rnd (V e - 1)) <= rnd (V e + 1)). { apply Rabs_le. split; [|apply rnd_le; lra]. rewrite <- (Ropp_involutive (rnd (V e - 1))). apply Ropp_le_contravar. unfold rnd. rewrite <- round_NE_opp. apply rnd_le. lra. }
  assert (RB : rnd (V e + 1) < big). { rewrite <- A4. eapply Rle_lt_trans; [apply Rle_abs|]. apply V_big. apply add_vok; auto. }
  destruct (sub_in e (f32_of_Z 1) Ve V1 Fe one_fin) as (B1 & B2); [rewrite E1; lra|]. rewrite E1 in B2. rewrite Rplus_comm in A5.
  destruct (div_unit (fsub e (f32_of_Z 1)) (fadd e (f32_of_Z 1))) as (D1 & D2 & D3); auto using sub_vok, add_vok; [rewrite A4; lra|rewrite B2, A4, (Rabs_pos_eq (rnd (V e + 1))); lra|].
  rewrite D2, B2, A4. pose proof (rnd_add_err e (f32_of_Z 1) Ve V1) as HA. pose proof (rnd_add_err e (SFopp (f32_of_Z 1)) Ve (opp_vok _ V1)) as HB. rewrite opp_V in HB by auto. rewrite E1 in HA, HB.
  set (x := V e) in *. set (a := rnd (x + 1)) in *. change (x + - (1)) with (x - 1) in HB. set (b := rnd (x - 1)) in *. pose proof u_le as HU.
  assert (PA : 0 < a) by lra. assert (IA : 0 < / a <= 1) by (split; [apply Rinv_0_lt_compat; auto|rewrite <- Rinv_1; apply Rinv_le_contravar; lra]).
  rewrite (Rabs_pos_eq (x + 1)) in HA by lra. assert (XB : Rabs (x - 1) <= x + 1) by (apply Rabs_le; lra). pose proof (Rabs_pos (x - 1)) as XB0.
  assert (LA : (x + 1) * / a <= 2). { apply (Rmult_le_reg_r a); [auto|]. rewrite Rmult_assoc, Rinv_l, Rmult_1_r by lra. apply Rabs_le_inv in HA. nra. }
  assert (T5 : Rabs (rnd (b / a) - b / a) <= 2 * ulp_half).
  { pose proof t_le. eapply Rle_trans; [apply (rnd_near _ 1)|lra]. unfold Rdiv. rewrite Rabs_mult, (Rabs_pos_eq (/ a)) by lra. apply (Rmult_le_reg_r a); [auto|]. rewrite Rmult_assoc, Rinv_l by lra. lra. }
  assert (T6 : Rabs (b / a - (x - 1) / (x + 1)) <= 4 * ulp_half).
  { replace (b / a - (x - 1) / (x + 1)) with ((b - (x - 1)) * / a + (x - 1) * (x + 1 - a) * / a * / (x + 1)) by (field; lra). eapply Rle_trans; [apply Rabs_triang|].
    assert (K1 : Rabs ((b - (x - 1)) * / a) <= 2 * ulp_half). { rewrite Rabs_mult, (Rabs_pos_eq (/ a)) by lra. apply Rle_trans with (ulp_half * (x + 1) * / a); [apply Rmult_le_compat_r; nra|]. rewrite Rmult_assoc. nra. }
    assert (K2 : Rabs ((x - 1) * (x + 1 - a) * / a * / (x + 1)) <= 2 * ulp_half).
    { rewrite !Rabs_mult, (Rabs_pos_eq (/ a)), (Rabs_pos_eq (/ (x + 1))), (Rabs_minus_sym (x + 1)) by (try lra; left; apply Rinv_0_lt_compat; lra).
      apply Rle_trans with ((x + 1) * (ulp_half * (x + 1)) * / a * / (x + 1)).
      - apply Rmult_le_compat_r; [left; apply Rinv_0_lt_compat; lra|]. apply Rmult_le_compat_r; [lra|]. apply Rmult_le_compat; auto; apply Rabs_pos.
      - replace ((x + 1) * (ulp_half * (x + 1)) * / a * / (x + 1)) with (ulp_half * ((x + 1) * / a)) by (field; lra). nra. }
    lra. }
  assert (T7 : Rabs ((x - 1) / (x + 1) - (q - 1) / (q + 1)) <= 2 * d + 2 * ulp_half).
  { replace ((x - 1) / (x + 1) - (q - 1) / (q + 1)) with (2 * (x - q) * (/ (x + 1) * / (q + 1))) by (field; lra). pose proof t_le as Ht.
    assert (I1 : 0 < / (x + 1) <= 1) by (split; [apply Rinv_0_lt_compat; lra|rewrite <- Rinv_1; apply Rinv_le_contravar; lra]). assert (I2 : 0 < / (q + 1) <= 1) by (split; [apply Rinv_0_lt_compat; lra|rewrite <- Rinv_1; apply Rinv_le_contravar; lra]).
    assert (I3 : q * / (q + 1) <= 1) by (apply (Rmult_le_reg_r (q + 1)); [lra|]; rewrite Rmult_assoc, Rinv_l by lra; lra). assert (I4 : 0 <= q * / (q + 1)) by (apply Rmult_le_pos; lra).
    rewrite !Rabs_mult, (Rabs_pos_eq 2), (Rabs_pos_eq (/ (x + 1))), (Rabs_pos_eq (/ (q + 1))) by lra.
    apply Rle_trans with (2 * (d * q + tiny_half) * (1 * / (q + 1))); [apply Rmult_le_compat; [apply Rmult_le_pos; [lra|apply Rabs_pos]|apply Rmult_le_pos; lra|lra|apply Rmult_le_compat_r; lra]|].
    replace (2 * (d * q + tiny_half) * (1 * / (q + 1))) with (2 * d * (q * / (q + 1)) + 2 * tiny_half * / (q + 1)) by ring. assert (2 * d * (q * / (q + 1)) <= 2 * d) by nra. assert (2 * tiny_half * / (q + 1) <= 2 * tiny_half) by nra. lra. }
  assert (T8 : Rabs ((q - 1) / (q + 1) - @act_el R RScalar Tanh r) <= E).
  { pose proof (Rabs_pos (V v - r)). pose proof (act_near 0 Tanh E 1 r (V v) ltac:(discriminate) ltac:(cbn; lra) ltac:(lra) HE) as K. rewrite Rmult_1_l in K. exact K. }
  pose proof (tri _ _ _ _ _ T5 (tri _ _ _ _ _ T6 (tri _ _ _ _ _ T7 T8))) as TT. eapply Rle_trans; [exact TT|].
  assert (P20 : / 2 ^ 20 = 16 * / 2 ^ 24) by (replace (2 ^ 24) with (16 * 2 ^ 20) by (cbn; ring); rewrite Rinv_mult; field; apply pow_nonzero; lra). rewrite P20, <- ulp_is. lra.
Qed.

(** ** Mish *)
Lemma ln_diff : forall a b k, 0 < a -> 0 < b -> 0 <= k <= / 2 -> Rabs (a - b) <= k * b -> Rabs (ln a - ln b) <= 2 * k.
Proof.
  intros a b k Ha Hb Hk H. apply Rabs_le_inv in H. assert (HL : forall z, 0 < z -> ln z <= z - 1). { intros z Hz. pose proof (exp_ineq1_le (ln z)). rewrite exp_ln in *; lra. }
  assert (E1 : ln a - ln b = ln (a / b)) by (unfold Rdiv; rewrite ln_mult, ln_Rinv; auto using Rinv_0_lt_compat). assert (E2 : ln b - ln a = ln (b / a)) by (unfold Rdiv; rewrite ln_mult, ln_Rinv; auto using Rinv_0_lt_compat).
  pose proof (HL (a / b) ltac:(apply Rdiv_lt_0_compat; auto)) as L1. pose proof (HL (b / a) ltac:(apply Rdiv_lt_0_compat; auto)) as L2.
  assert (K1 : a / b <= 1 + k) by (apply (Rmult_le_reg_r b); [auto|]; unfold Rdiv; rewrite Rmult_assoc, Rinv_l by lra; lra).
  assert (K2 : b / a <= 1 + 2 * k) by (apply (Rmult_le_reg_r a); [auto|]; unfold Rdiv; rewrite Rmult_assoc, Rinv_l by lra; nra).
  apply Rabs_le. lra.
Qed.
Lemma tanh_lip : forall a b, Rabs (tanh a - tanh b) <= Rabs (a - b).
Proof.
  intros a b. pose proof (act_near 0 Tanh (Rabs (a - b)) 1 b a ltac:(discriminate) ltac:(cbn; lra) (Rabs_pos _) (Rle_refl _)) as K. rewrite Rmult_1_l in K.
  change (@act_el R (RInf 0) Tanh) with (@act_el R RScalar Tanh) in K. rewrite !act_el_R in K. exact K.
Qed.
Lemma mish_close : libm_like lm -> forall d, exp_within d (m_exp lm) -> log_within d (m_log lm) -> tanh_within d (m_tanh lm) -> 0 <= d <= / 16 -> forall (v : f32) (r M E : R), good_f v -> Rabs r <= M -> Rabs (V v - r) <= E ->
  good_f (act_el Mish v) /\ Rabs (act_el Mish r) <= M /\ Rabs (V (act_el Mish v) - act_el Mish r) <= 2 * E + (M + E) * (d * (M + E + 6) + / 2 ^ 20) + / 2 ^ 150.
Proof.
  intros [HL HLo HTa] d HW HWL HWT Hd v r M E Hv HM HE. pose proof Hv as (Vv & Fv). assert (HV : Rabs (V v) <= E + M) by (apply (by_diff _ r); auto). pose proof (Rabs_pos (V v)) as PV. pose proof (Rabs_pos (V v - r)) as PE. pose proof (Rabs_pos r) as P0.
  destruct (mish_unit lm HL HLo HTa v Vv Fv) as (SV & SFi & SI). destruct (mul_unit v _ Vv Fv (conj SV (conj SFi SI))) as (A1 & A2 & _). split; [split; auto|].
  assert (RA : forall z, @act_el R RScalar Mish z = z * tanh (ln (1 + exp z))) by (intros z; rewrite act_el_R; reflexivity). rewrite RA.
  split. { rewrite Rabs_mult. assert (Rabs (tanh (ln (1 + exp r))) <= 1) by (pose proof (tanh_range (ln (1 + exp r))); apply Rabs_le; lra). nra. }
  cbn [act_el]. change (s_mul v (s_tanh (softplus v))) with (fmul v (m_tanh lm (softplus v))) in *. change (softplus v) with (m_log lm (fadd (f32_of_Z 1) (m_exp lm v))) in *.
  destruct (mul_fin _ _ Vv SV A1) as (_ & _ & EM). rewrite EM. set (h := m_tanh lm (m_log lm (fadd (f32_of_Z 1) (m_exp lm v)))) in *.
  assert (P20 : / 2 ^ 20 = 16 * / 2 ^ 24) by (replace (2 ^ 24) with (16 * 2 ^ 20) by (cbn; ring); rewrite Rinv_mult; field; apply pow_nonzero; lra).
  pose proof u_le as HU. pose proof t_le as Ht. set (q := exp (V v)). assert (Pq : 0 < q) by apply exp_pos.
  assert (KH : Rabs (V h - tanh (ln (1 + q))) <= d * (E + M + 6) + 12 * ulp_half).
  { destruct (HW v Vv (proj2 (finite_fin v) Fv)) as (W1 & W2). rewrite (value_V v) in W1, W2. fold q in W1, W2. set (e := m_exp lm v) in *. pose proof (ex_vok lm HL v Vv) as Ve. fold e in Ve. destruct (ex_any lm HL v Vv Fv) as [K|(Fe & Pe)]; fold e in K || fold e in Fe, Pe.
    - assert (NF : ~ f32_finite e) by (rewrite K; intros Z; exact Z). specialize (W2 NF).
      assert (EH : h = f32_of_Z 1) by (unfold h; rewrite K; change (fadd (f32_of_Z 1) (S754_infinity false)) with (S754_infinity false); rewrite (log_at_inf _ HLo), (tanh_at_inf _ HTa); reflexivity). rewrite EH, V_one.
      assert (ET : tanh (ln (1 + q)) = 1 - 2 / ((1 + q) * (1 + q) + 1)). { unfold tanh, sinh, cosh. rewrite exp_Ropp, exp_ln by lra. field. split; [nra|lra]. }
      rewrite ET. replace (1 - (1 - 2 / ((1 + q) * (1 + q) + 1))) with (2 * / ((1 + q) * (1 + q) + 1)) by (unfold Rdiv; ring). rewrite Rabs_pos_eq by (apply Rmult_le_pos; [lra|left; apply Rinv_0_lt_compat; nra]).
      assert (H24 : 2 ^ 24 <= (1 + q) * (1 + q) + 1) by (assert (2 ^ 24 <= 2 ^ 100) by (apply Rle_pow; [lra|lia]); set (X := 2 ^ 24) in *; set (Y := 2 ^ 100) in *; nra).
      pose proof (Rinv_le_contravar (2 ^ 24) _ (pow_lt 2 24 ltac:(lra)) H24) as HI. rewrite <- ulp_is in HI. assert (0 <= d * (E + M + 6)) by (apply Rmult_le_pos; lra). lra.
    - specialize (W1 (proj2 (finite_fin e) Fe)). rewrite value_V in W1. destruct (add_one e Ve Fe Pe) as (B1 & _ & B3 & _ & B5 & _). pose proof (of_Z_vok 1) as V1. pose proof V_one as E1.
      assert (VA : vok (fadd (f32_of_Z 1) e)) by (apply add_vok; auto). pose proof (rnd_add_err (f32_of_Z 1) e V1 Ve) as HA. rewrite E1 in HA. set (a := fadd (f32_of_Z 1) e) in *. rewrite <- B3 in HA, B5. set (x := V e) in *. rewrite (Rabs_pos_eq (1 + x)) in HA by lra.
      destruct (log_above _ HLo a VA (proj2 (finite_fin a) B1)) as (L1 & L2); [rewrite value_V; auto|]. pose proof (log_valid _ HLo a VA) as VL. pose proof (HWL a VA (proj2 (finite_fin a) B1)) as WL. rewrite !value_V in WL. specialize (WL B5).
      set (l := m_log lm a) in *. pose proof (HWT l VL L1) as WT. fold h in WT. rewrite !value_V in WT. 
      assert (DA : Rabs (V a - (1 + q)) <= (d + 3 * ulp_half) * (1 + q)). { apply Rle_trans with (ulp_half * (1 + x) + (d * q + tiny_half)); [apply (tri _ (1 + x)); [auto|]; replace (1 + x - (1 + q)) with (x - q) by ring; auto|]. apply Rabs_le_inv in W1.
        assert (d * q <= / 16 * q) by (apply Rmult_le_compat_r; lra). assert (ulp_half * x <= ulp_half * (2 * q + 1)) by (apply Rmult_le_compat_l; lra). replace ((d + 3 * ulp_half) * (1 + q)) with (d + d * q + 3 * ulp_half + 3 * (ulp_half * q)) by ring. assert (0 <= ulp_half * q) by (apply Rmult_le_pos; lra). lra. }
      assert (DL : Rabs (ln (V a) - ln (1 + q)) <= 2 * (d + 3 * ulp_half)). { apply ln_diff; try lra. }
      assert (LQ : 0 <= ln (1 + q) <= E + M + 1). { split; [rewrite <- ln_1; apply Rcomplements.ln_le; lra|]. apply Rle_trans with (ln (exp (E + M + 1))); [|rewrite ln_exp; lra]. apply Rcomplements.ln_le; [lra|]. apply Rabs_le_inv in HV.
        rewrite exp_plus. assert (q <= exp (E + M)). { unfold q. destruct (Req_dec (V v) (E + M)) as [->|]; [lra|left; apply exp_increasing; lra]. } assert (1 <= exp (E + M)). { pose proof (exp_ineq1_le (E + M)). lra. } pose proof (exp_ineq1_le 1). nra. }
      assert (LA : 0 <= ln (V a) <= E + M + 2). { split; [rewrite <- ln_1; apply Rcomplements.ln_le; lra|]. apply Rabs_le_inv in DL. lra. }
      assert (D2 : Rabs (V l - ln (1 + q)) <= d * (E + M + 2) + tiny_half + 2 * (d + 3 * ulp_half)). { apply (tri _ (ln (V a))); auto. eapply Rle_trans; [exact WL|]. rewrite Rabs_pos_eq by lra. nra. }
      pose proof (tanh_lip (V l) (ln (1 + q))) as TL. assert (D3 : Rabs (tanh (V l)) <= 1) by (pose proof (tanh_range (V l)); apply Rabs_le; lra).
      assert (WT' : Rabs (V h - tanh (V l)) <= d + tiny_half) by (eapply Rle_trans; [exact WT|]; nra).
      pose proof (tri _ _ _ _ _ WT' (Rle_trans _ _ _ TL D2)). lra. }
  pose proof (rnd_near (V v * V h) (E + M)) as R1. assert (LM : Rabs (V v * V h) <= E + M). { rewrite Rabs_mult, (Rabs_pos_eq (V h)) by lra. nra. } specialize (R1 LM).
  assert (R2 : Rabs (V v * V h - V v * tanh (ln (1 + q))) <= (E + M) * (d * (E + M + 6) + 12 * ulp_half)). { rewrite <- Rmult_minus_distr_l, Rabs_mult. apply Rmult_le_compat; auto; apply Rabs_pos. }
  assert (R3 : Rabs (V v * tanh (ln (1 + q)) - r * tanh (ln (1 + exp r))) <= 2 * E). { rewrite <- !RA. apply (act_near 0 Mish E 2 r (V v)); [discriminate|lra|lra|auto]. }
  pose proof (tri _ _ _ _ _ R1 (tri _ _ _ _ _ R2 R3)) as RT. change tiny_half with (/ 2 ^ 150) in RT. eapply Rle_trans; [exact RT|]. rewrite P20, <- ulp_is. replace (M + E) with (E + M) by ring. assert (0 <= (E + M) * ulp_half) by (apply Rmult_le_pos; lra). nra.
Qed.

(** ** Batch normalisation *)
Lemma bn_close : forall (eps m va ga be v : f32) r M E mu A B C, good_f eps -> good_f m -> good_f va -> good_f ga -> good_f be -> good_f v -> Rabs r <= M -> Rabs (V v - r) <= E ->
  / 2 ^ 40 <= V eps <= 1 -> 0 <= V va <= 2 ^ 100 -> Rabs (V m) <= mu -> Rabs (V ga) <= A * sqrt (V va + V eps) -> Rabs (V ga) <= C -> C <= 2 ^ 100 -> Rabs (V be) <= B ->
  M + E + mu <= 2 ^ 90 -> A * (M + E + mu) + B <= 2 ^ 119 ->
  let y := normalised eps m va ga be v in let z := (r - V m) / sqrt (V va + V eps) * V ga + V be in
  good_f y /\ Rabs z <= A * (M + mu) + B /\ Rabs (V y - z) <= A * E + (12 * A * (M + E + mu) + 2 * B) / 2 ^ 24 + (C + 1) / 2 ^ 148.
Proof.
  intros eps m va ga be v r M E mu A B C (Ve & Fe) (Vm & Fm) (Vva & Fva) (Vg & Fg) (Vb & Fb) (Vv & Fv) HM HE He Hva Hm Hg HC C100 HB HX HS y z.
  set (X := M + E + mu) in *. set (u := ulp_half). pose proof u_le as HU. fold u in HU. pose proof t_le as Ht. fold u in Ht. set (t := tiny_half) in *.
  pose proof (Rabs_pos r). pose proof (Rabs_pos (V v - r)). pose proof (Rabs_pos (V m)). pose proof (Rabs_pos (V ga)) as Pg. pose proof (Rabs_pos (V be)) as Pb.
  assert (P40 : 0 < / 2 ^ 40) by (apply Rinv_0_lt_compat, pow_lt; lra). set (s0 := sqrt (V va + V eps)) in *.
  assert (S0 : / 2 ^ 20 <= s0). { unfold s0. replace (/ 2 ^ 20) with (sqrt (/ 2 ^ 40)); [apply sqrt_le_1_alt; lra|]. replace (/ 2 ^ 40) with (/ 2 ^ 20 * / 2 ^ 20); [apply sqrt_square; left; apply Rinv_0_lt_compat, pow_lt; lra|]. rewrite <- Rinv_mult, <- pow_add. reflexivity. }
  assert (P20 : 0 < / 2 ^ 20) by (apply Rinv_0_lt_compat, pow_lt; lra). assert (SP : 0 < s0) by lra. assert (SS : s0 * s0 = V va + V eps) by (apply sqrt_sqrt; lra).
  assert (A0 : 0 <= A) by (destruct (Rle_dec 0 A); auto; exfalso; nra).
  assert (BX : forall e1 e2, (e1 <= e2)%nat -> 2 ^ e1 <= 2 ^ e2) by (intros; apply Rle_pow; [lra|auto]).
  (* the difference *)
  set (D := V v - V m). assert (HD : Rabs D <= X). { unfold D, X. replace (V v - V m) with ((V v - r) + (r + - V m)) by ring. eapply Rle_trans; [apply Rabs_triang|]. pose proof (Rabs_triang r (- V m)). rewrite Rabs_Ropp in *. lra. }
  assert (SM : forall w, Rabs w <= 2 ^ 120 -> Rabs (rnd w) < big) by (intros w Hw; apply rnd_small; pose proof p120; lra).
  destruct (sub_in v m Vv Vm Fv Fm) as (F1 & E1); [apply SM; fold D; pose proof (BX 90%nat 120%nat ltac:(lia)); lra|]. set (df := fsub v m) in *. assert (Vd : vok df) by (apply sub_vok; auto). fold D in E1.
  assert (K1 : Rabs (V df - D) <= u * X). { pose proof (rnd_add_err v (SFopp m) Vv (opp_vok _ Vm)) as K. rewrite opp_V in K by auto. change (V v + - V m) with D in K. rewrite E1. eapply Rle_trans; [exact K|]. fold u. nra. }
  (* the root *)
  assert (F2 : fin (fadd va eps)). { apply add_in; auto. apply SM. rewrite Rabs_pos_eq by lra. pose proof (BX 100%nat 119%nat ltac:(lia)). assert (2 ^ 120 = 2 * 2 ^ 119) by reflexivity. pose proof (pow_R1_Rle 2 119). lra. }
  assert (Va : vok (fadd va eps)) by (apply add_vok; auto). destruct (add_fin _ _ Vva Ve F2) as (_ & _ & E2). pose proof (rnd_add_err va eps Vva Ve) as K2. rewrite <- E2, <- SS in K2. set (a := V (fadd va eps)) in *. rewrite (Rabs_pos_eq (s0 * s0)) in K2 by nra. fold u in K2.
  apply Rabs_le_inv in K2. assert (S02 : 0 < s0 * s0) by nra. assert (PA : 0 <= a) by nra. destruct (sqrt_in (fadd va eps) (conj Va F2) PA) as ((Vs & Fs) & ES). fold a in ES.
  assert (RT : (1 - u) * s0 <= sqrt a <= (1 + u) * s0).
  { split; (apply Rsqr_incr_0; [unfold Rsqr; rewrite sqrt_sqrt by auto|first [apply sqrt_pos|apply Rmult_le_pos; lra]|first [apply sqrt_pos|apply Rmult_le_pos; lra]]).
    - replace ((1 - u) * s0 * ((1 - u) * s0)) with ((1 - u) * (1 - u) * (s0 * s0)) by ring. apply Rle_trans with ((1 - u) * (s0 * s0)); [apply Rmult_le_compat_r; nra|lra].
    - replace ((1 + u) * s0 * ((1 + u) * s0)) with ((1 + u) * (1 + u) * (s0 * s0)) by ring. apply Rle_trans with ((1 + u) * (s0 * s0)); [lra|apply Rmult_le_compat_r; nra]. }
  set (sq := fsqrt (fadd va eps)) in *. set (s := V sq) in *.
  assert (T20 : t <= u * / 2 ^ 20 * / 2). { unfold t, u, ulp_half, tiny_half. rewrite <- !Rinv_mult. apply Rinv_le_contravar; [pose proof (pow_lt 2 24 ltac:(lra)); pose proof (pow_lt 2 20 ltac:(lra)); nra|]. replace (2 ^ 24 * 2 ^ 20 * 2) with (2 ^ 45) by (cbn; ring). apply BX; lia. }
  assert (KS : Rabs (s - s0) <= 4 * u * s0).
  { assert (Rabs (s - sqrt a) <= u * ((1 + u) * s0) + t) by (rewrite ES; apply rnd_near; rewrite Rabs_pos_eq; [lra|apply sqrt_pos]). assert (Rabs (sqrt a - s0) <= u * s0) by (apply Rabs_le; lra). eapply Rle_trans; [eapply tri; eassumption|]. nra. }
  assert (SL : (1 - 4 * u) * s0 <= s) by (apply Rabs_le_inv in KS; lra). assert (SPo : 0 < s) by nra. assert (IS : 0 < / s) by (apply Rinv_0_lt_compat; auto). assert (I0 : 0 < / s0) by (apply Rinv_0_lt_compat; auto).
  assert (ISL : / s <= (1 + 5 * u) * / s0). { apply (Rmult_le_reg_r (s * s0)); [nra|]. replace (/ s * (s * s0)) with s0 by (field; lra). replace ((1 + 5 * u) * / s0 * (s * s0)) with ((1 + 5 * u) * s) by (field; lra). nra. }
  (* the quotient *)
  assert (PX : 0 <= X) by (pose proof (Rabs_pos D); lra). set (X0 := X * / s0). assert (X00 : 0 <= X0) by (apply Rmult_le_pos; lra).
  assert (K3 : Rabs (V df / s - D / s0) <= 6 * u * X0).
  { replace (V df / s - D / s0) with ((V df - D) * / s + D * (s0 - s) * / s * / s0) by (field; lra). eapply Rle_trans; [apply Rabs_triang|].
    assert (Q1 : Rabs ((V df - D) * / s) <= u * X * / s) by (rewrite Rabs_mult, (Rabs_pos_eq (/ s)) by lra; apply Rmult_le_compat_r; lra).
    assert (Q2 : Rabs (D * (s0 - s) * / s * / s0) <= 4 * u * X * / s).
    { rewrite !Rabs_mult, (Rabs_pos_eq (/ s)), (Rabs_pos_eq (/ s0)), (Rabs_minus_sym s0) by lra. apply Rle_trans with (X * (4 * u * s0) * / s * / s0).
      - apply Rmult_le_compat_r; [lra|]. apply Rmult_le_compat_r; [lra|]. apply Rmult_le_compat; auto; apply Rabs_pos.
      - right. field. lra. }
    assert (Q3 : 5 * u * X * / s <= 5 * u * X * ((1 + 5 * u) * / s0)) by (apply Rmult_le_compat_l; [apply Rmult_le_pos; lra|auto]). replace (5 * u * X * ((1 + 5 * u) * / s0)) with (5 * u * (1 + 5 * u) * X0) in Q3 by (unfold X0; ring).
    assert (5 * u * (1 + 5 * u) * X0 <= 6 * u * X0) by (apply Rmult_le_compat_r; nra). lra. }
  assert (K4 : Rabs (D / s0) <= X0). { unfold Rdiv. rewrite Rabs_mult, (Rabs_pos_eq (/ s0)) by lra. apply Rmult_le_compat_r; lra. }
  assert (X110 : X0 <= 2 ^ 110). { unfold X0. replace (2 ^ 110) with (2 ^ 90 * 2 ^ 20) by (rewrite <- pow_add; reflexivity). apply Rmult_le_compat; try lra. rewrite <- (Rinv_inv (2 ^ 20)). apply Rinv_le_contravar; auto. }
  pose proof (by_diff _ _ _ _ K3 K4) as K5. assert (U1 : u * X0 <= X0) by nra.
  destruct (div_in df sq Vd Vs F1) as (F3 & E3); [fold s; lra|fold s; apply SM; pose proof (BX 113%nat 120%nat ltac:(lia)); assert (2 ^ 113 = 8 * 2 ^ 110) by (cbn; ring); eapply Rle_trans; [exact K5|]; nra|]. fold s in E3.
  set (q := f32_div df sq) in *. assert (Vq : vok q) by (apply div_vok; auto).
  assert (K6 : Rabs (V q - D / s0) <= 8 * u * X0 + t). { assert (Rabs (V q - V df / s) <= u * (6 * u * X0 + X0) + t) by (rewrite E3; apply rnd_near; auto). eapply Rle_trans; [eapply tri; eassumption|]. assert (Q0 : 0 <= u * X0) by (apply Rmult_le_pos; [left; exact (proj1 HU)|exact X00]). assert (Q1 : u * (u * X0) <= / 1024 * (u * X0)) by (apply Rmult_le_compat_r; [exact Q0|exact (proj2 HU)]). clear - Q0 Q1. lra. }
  (* times gamma *)
  set (W := X * A). assert (W0 : 0 <= W) by (apply Rmult_le_pos; lra). assert (WB : W + B <= 2 ^ 119) by (unfold W; lra).
  assert (GX : X0 * Rabs (V ga) <= W). { unfold X0, W. replace (X * A) with (X * / s0 * (A * s0)) by (field; lra). apply Rmult_le_compat_l; auto. }
  assert (K7 : Rabs (V q * V ga - D / s0 * V ga) <= 8 * u * W + t * C). { rewrite <- Rmult_minus_distr_r, Rabs_mult. apply Rle_trans with ((8 * u * X0 + t) * Rabs (V ga)); [apply Rmult_le_compat_r; auto|]. assert (Q1 : u * (X0 * Rabs (V ga)) <= u * W) by (apply Rmult_le_compat_l; [left; exact (proj1 HU)|exact GX]). assert (Q2 : t * Rabs (V ga) <= t * C) by (apply Rmult_le_compat_l; [left; exact (proj1 Ht)|assumption]). clear - Q1 Q2. lra. }
  assert (K8 : Rabs (D / s0 * V ga) <= W) by (rewrite Rabs_mult; eapply Rle_trans; [apply Rmult_le_compat_r; [exact Pg|exact K4]|exact GX]).
  pose proof (by_diff _ _ _ _ K7 K8) as K9. assert (C0 : 0 <= C) by lra. assert (TC : t * C <= 1). { apply Rle_trans with (t * 2 ^ 100); [apply Rmult_le_compat_l; [left; exact (proj1 Ht)|assumption]|]. unfold t, tiny_half. apply (Rmult_le_reg_l (2 ^ 150)); [apply pow_lt; lra|]. rewrite <- Rmult_assoc, Rinv_r, Rmult_1_l, Rmult_1_r by (apply pow_nonzero; lra). apply BX. lia. }
  assert (UW : u * W <= / 1024 * W) by (apply Rmult_le_compat_r; [exact W0|exact (proj2 HU)]). assert (UW0 : 0 <= u * W) by (apply Rmult_le_pos; [left; exact (proj1 HU)|exact W0]). assert (D19 : 2 ^ 120 = 2 * 2 ^ 119) by reflexivity. pose proof (pow_R1_Rle 2 119 ltac:(lra)) as D20. assert (D21 : 1024 <= 2 ^ 119) by (replace 1024 with (2 ^ 10) by (cbn; ring); apply BX; lia).
  assert (F4 : fin (fmul q ga)). { apply mul_in; auto. apply SM. lra. } destruct (mul_fin _ _ Vq Vg F4) as (_ & _ & E4). set (p := fmul q ga) in *. assert (Vp : vok p) by (apply mul_vok; auto).
  assert (UT : u * (t * C) <= t * C) by (rewrite <- (Rmult_1_l (t * C)) at 2; apply Rmult_le_compat_r; [apply Rmult_le_pos; lra|lra]). assert (TC0 : 0 <= t * C) by (apply Rmult_le_pos; lra).
  assert (UUW : u * (u * W) <= / 1024 * (u * W)) by (apply Rmult_le_compat_r; [exact UW0|exact (proj2 HU)]).
  assert (K10 : Rabs (V p - D / s0 * V ga) <= 10 * u * W + 2 * (t * C) + t). { assert (Rabs (V p - V q * V ga) <= u * (8 * u * W + t * C + W) + t) by (rewrite E4; apply rnd_near; auto). eapply Rle_trans; [eapply tri; eassumption|]. clear - UUW UT UW0. replace (u * (8 * u * W + t * C + W)) with (8 * (u * (u * W)) + u * (t * C) + u * W) by ring. lra. }
  pose proof (by_diff _ _ _ _ K10 K8) as K11.
  (* plus beta *)
  assert (K12 : Rabs (V p + V be) <= 10 * u * W + 2 * (t * C) + t + W + B) by (eapply Rle_trans; [apply Rabs_triang|lra]).
  assert (F5 : fin (fadd p be)). { apply add_in; auto. apply SM. lra. } destruct (add_fin _ _ Vp Vb F5) as (_ & _ & E5).
  change y with (fadd p be). split; [split; [apply add_vok; auto|exact F5]|].
  assert (K13 : Rabs (V (fadd p be) - (V p + V be)) <= 2 * u * W + u * B + t * C + t). { rewrite E5. eapply Rle_trans; [apply rnd_add_err; auto|]. fold u. apply Rle_trans with (u * (10 * u * W + 2 * (t * C) + t + W + B)); [apply Rmult_le_compat_l; lra|]. assert (u * t <= / 1024 * t) by (apply Rmult_le_compat_r; lra). assert (u * (t * C) <= / 1024 * (t * C)) by (apply Rmult_le_compat_r; lra). assert (0 <= u * W) by (apply Rmult_le_pos; lra).
    replace (u * (10 * u * W + 2 * (t * C) + t + W + B)) with (10 * (u * (u * W)) + 2 * (u * (t * C)) + u * t + u * W + u * B) by ring. lra. }
  assert (EZ : (D / s0 * V ga + V be) - z = (V v - r) * (V ga / s0)) by (unfold z, D; field; lra).
  assert (GA : Rabs (V ga / s0) <= A). { unfold Rdiv. rewrite Rabs_mult, (Rabs_pos_eq (/ s0)) by lra. apply (Rmult_le_reg_r s0); [auto|]. rewrite Rmult_assoc, Rinv_l by lra. lra. }
  split.
  - unfold z. eapply Rle_trans; [apply Rabs_triang|]. apply Rplus_le_compat; [|auto]. replace ((r - V m) / s0 * V ga) with ((r - V m) * (V ga / s0)) by (field; lra). rewrite Rabs_mult, Rmult_comm. apply Rmult_le_compat; auto using Rabs_pos. unfold Rminus. eapply Rle_trans; [apply Rabs_triang|]. rewrite Rabs_Ropp. lra.
  - assert (K14 : Rabs (V p + V be - (D / s0 * V ga + V be)) <= 10 * u * W + 2 * (t * C) + t) by (replace (V p + V be - (D / s0 * V ga + V be)) with (V p - D / s0 * V ga) by ring; auto).
    assert (K15 : Rabs (D / s0 * V ga + V be - z) <= A * E) by (rewrite EZ, Rabs_mult, Rmult_comm; apply Rmult_le_compat; auto using Rabs_pos).
    eapply Rle_trans; [exact (tri _ _ _ _ _ K13 (tri _ _ _ _ _ K14 K15))|].
    assert (E24 : (12 * A * X + 2 * B) / 2 ^ 24 = 12 * (u * W) + 2 * (u * B)) by (unfold W, u, ulp_half, Rdiv; ring). assert (E148 : (C + 1) / 2 ^ 148 = 4 * (t * C) + 4 * t).
    { apply tiny_share. }
    rewrite E24, E148. assert (0 <= u * B) by (apply Rmult_le_pos; lra). lra.
Qed.
End N.
