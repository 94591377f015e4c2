(** * Adam with its default decay rates in float32: every step is small *)
From Coq Require Import Reals Lra SpecFloat.
From Flocq Require Import Core BinarySingleNaN Plus_error Relative.
From Verif Require Import Base Scalar Types Spec SpecNN SpecR SpecF32 SpecOpt M_Shape M_Tensor M_Adv M_Act M_Loss M_Opt L_Index L_Tensor L_RSum L_Float L_FloatAct L_FloatLib L_FloatT L_FloatB L_Double L_FloatLoss L_FloatOpt L_FloatTrain L_Opt L_Opt2 L_OptB.
Local Open Scope R_scope.
#[local] Existing Instance Hp32.
#[local] Existing Instance Hm32.
Local Notation B32 := (binary_float f32_prec f32_emax).
Local Notation V := (SF2R radix2).
Local Notation fadd := (SFadd f32_prec f32_emax).
Local Notation fsub := (SFsub f32_prec f32_emax).
Local Notation fmul := (SFmul f32_prec f32_emax).
Local Notation fsqrt := (SFsqrt f32_prec f32_emax).
Local Notation P e := (bpow radix2 e).
Local Notation inf := (S754_infinity false).
Local Notation u := ulp_half.
Local Notation t := tiny_half.

(** ** The default decay rates 0.9 and 0.999 *)
Definition b1F : f32 := f32_div (f32_of_Z 9) (f32_of_Z 10).
Definition b2F : f32 := f32_div (f32_of_Z 999) (f32_of_Z 1000).
Definition o1F : f32 := fsub (f32_of_Z 1) b1F.
Definition o2F : f32 := fsub (f32_of_Z 1) b2F.
Lemma b1_is : b1F = S754_finite false 15099494 (-24). Proof. vm_compute. reflexivity. Qed.
Lemma b2_is : b2F = S754_finite false 16760439 (-24). Proof. vm_compute. reflexivity. Qed.
Lemma o1_is : o1F = S754_finite false 13421776 (-27). Proof. vm_compute. reflexivity. Qed.
Lemma o2_is : o2F = S754_finite false 8589824 (-33). Proof. vm_compute. reflexivity. Qed.
Lemma V_fin : forall m e, V (S754_finite false m e) = IZR (Zpos m) * P e.
Proof. reflexivity. Qed.
Lemma P_m24 : P (-24) = / 16777216. Proof. reflexivity. Qed.
Lemma P_m27 : P (-27) = / 134217728. Proof. reflexivity. Qed.
Lemma P_m33 : P (-33) = / 8589934592. Proof. reflexivity. Qed.
Lemma V_b1 : 0.8999999 <= V b1F <= 0.9. Proof. rewrite b1_is, V_fin, P_m24. lra. Qed.
Lemma V_b2 : 0.999 <= V b2F <= 0.9990001. Proof. rewrite b2_is, V_fin, P_m24. lra. Qed.
Lemma V_o1 : 0.1 <= V o1F <= 0.1000001. Proof. rewrite o1_is, V_fin, P_m27. lra. Qed.
Lemma V_o2 : 0.00099998 <= V o2F <= 0.001. Proof. rewrite o2_is, V_fin, P_m33. lra. Qed.
Lemma g_b1 : good_f b1F. Proof. rewrite b1_is. split; reflexivity. Qed.
Lemma g_b2 : good_f b2F. Proof. rewrite b2_is. split; reflexivity. Qed.
Lemma g_o1 : good_f o1F. Proof. rewrite o1_is. split; reflexivity. Qed.
Lemma g_o2 : good_f o2F. Proof. rewrite o2_is. split; reflexivity. Qed.
Lemma d_b1 : decay_ok b1F.
Proof. destruct g_b1 as (A & B). pose proof V_b1. split; [auto|]. split; [auto|]. change (P (-10)) with (/ 1024). lra. Qed.
Lemma d_b2 : decay_ok b2F.
Proof. destruct g_b2 as (A & B). pose proof V_b2. split; [auto|]. split; [auto|]. change (P (-10)) with (/ 1024). lra. Qed.

(** ** Rounding *)
Lemma rnd_up_by : forall r, Rabs (rnd r) <= (1 + u) * Rabs r + t.
Proof. intros r. pose proof (rnd_err r) as H. replace (rnd r) with ((rnd r - r) + r) by ring. eapply Rle_trans; [apply Rabs_triang|]. lra. Qed.
Lemma rnd_low_by : forall r, 0 <= r -> (1 - u) * r - t <= rnd r.
Proof. intros r Hr. pose proof (rnd_err r) as H. apply Rabs_le_inv in H. rewrite (Rabs_pos_eq r Hr) in H. lra. Qed.
Lemma u_small : 0 < u <= / 16777216.
Proof. pose proof ulp_pos. unfold ulp_half in *. rewrite p_24 in *. lra. Qed.
Lemma t_small : 0 < t <= P (-100).
Proof. split; [apply tiny_half_pos|apply tiny_P]. Qed.
Lemma P_m100 : P (-100) <= / 1267650600228229401496703205376.
Proof. right. reflexivity. Qed.

Lemma form_le : forall b o X Y, 0 <= b <= 0.9 -> 0 <= o <= 0.1000001 -> 0 <= X -> 0 <= Y -> (b * X + o * Y) * (b * X + o * Y) <= 0.955 * (X * X) + 0.0667 * (Y * Y).
Proof.
  intros b o X Y Hb Ho HX HY. assert (A : b * X + o * Y <= 0.9 * X + 0.1000001 * Y) by nra. assert (A0 : 0 <= b * X + o * Y) by nra.
  apply Rle_trans with ((0.9 * X + 0.1000001 * Y) * (0.9 * X + 0.1000001 * Y)); [apply Rmult_le_compat; auto|].
  pose proof (Rle_0_sqr (0.38 * X - 0.23685 * Y)) as Q. unfold Rsqr in Q. nra.
Qed.

Definition delta : R := 16384 * t.
(** The new first moment is bounded by the new second moment. *)
Lemma moment_real : forall X Y v m1 v1, 0 <= X -> 0 <= Y -> 0 <= v -> X * X <= 68 * v + delta -> 0 <= m1 ->
  m1 <= (1 + 4 * u) * (V b1F * X + V o1F * Y) + 4 * t -> (1 - 4 * u) * (V b2F * v + V o2F * (Y * Y)) - 4 * t <= v1 -> m1 * m1 <= 68 * v1 + delta.
Proof.
  intros X Y v m1 v1 HX HY Hv HI H0 HM HV. pose proof V_b1 as B1. pose proof V_b2 as B2. pose proof V_o1 as O1. pose proof V_o2 as O2. destruct u_small as (U0 & U1). destruct t_small as (T0 & T1). pose proof P_m100 as T2.
  assert (F : (V b1F * X + V o1F * Y) * (V b1F * X + V o1F * Y) <= 0.955 * (X * X) + 0.0667 * (Y * Y)) by (apply form_le; lra).
  set (S := V b1F * X + V o1F * Y) in *. assert (S0 : 0 <= S) by (unfold S; nra).
  assert (M2 : m1 * m1 <= ((1 + 4 * u) * S + 4 * t) * ((1 + 4 * u) * S + 4 * t)) by (apply Rmult_le_compat; auto).
  set (A := (1 + 4 * u) * S) in *.
  assert (A2 : A * A <= 1.000001 * (S * S)). { unfold A. replace ((1 + 4 * u) * S * ((1 + 4 * u) * S)) with ((1 + 4 * u) * (1 + 4 * u) * (S * S)) by ring. apply Rmult_le_compat_r; [nra|]. nra. }
  assert (C : (A + 4 * t) * (A + 4 * t) <= 1.000001 * (A * A) + 17000000 * (t * t)).
  { pose proof (Rle_0_sqr (0.001 * A - 4000 * t)) as Q. unfold Rsqr in Q. nra. }
  assert (TT : 17000000 * (t * t) <= t) by nra.
  assert (W : (1 - 4 * u) * (V b2F * v + V o2F * (Y * Y)) >= 0.99899 * v + 0.0009999 * (Y * Y)).
  { assert (0 <= Y * Y) by nra. assert (V b2F * v >= 0.999 * v) by nra. assert (V o2F * (Y * Y) >= 0.00099998 * (Y * Y)) by nra. nra. }
  assert (0 <= Y * Y) by nra. unfold delta in *. lra.
Qed.

Lemma abs_mul_rnd : forall x y : f32, Rabs (rnd (V x * V y)) <= (1 + u) * (Rabs (V x) * Rabs (V y)) + t.
Proof. intros x y. rewrite <- Rabs_mult. apply rnd_up_by. Qed.

(** ** In double *)
#[local] Instance Hp64 : FLX.Prec_gt_0 f64_prec := eq_refl _.
#[local] Instance Hm64 : Prec_lt_emax f64_prec f64_emax := eq_refl _.
Local Notation gf64 := (gfl f64_prec f64_emax).
Lemma rnd64_err : forall r, Rabs (rnd64 r - r) <= u * Rabs r + t.
Proof.
  intros r. destruct (error_N_FLT radix2 (3 - f64_emax - f64_prec) f64_prec eq_refl (fun n => negb (Z.even n)) r) as (eps & eta & HE & HT & _ & E).
  unfold rnd64. change (round radix2 (SpecFloat.fexp f64_prec f64_emax) ZnearestE) with (round radix2 (FLT_exp (3 - f64_emax - f64_prec) f64_prec) (Znearest (fun n => negb (Z.even n)))). rewrite E.
  replace (r * (1 + eps) + eta - r) with (eps * r + eta) by ring. eapply Rle_trans; [apply Rabs_triang|]. rewrite Rabs_mult.
  assert (A : / 2 * P (- f64_prec + 1) <= u) by (rewrite <- half_ulp; apply Rmult_le_compat_l; [lra|]; apply P_le; unfold f64_prec, f32_prec; lia).
  assert (B : / 2 * P (3 - f64_emax - f64_prec) <= t) by (rewrite <- half_tiny; apply Rmult_le_compat_l; [lra|]; apply P_le; unfold f64_emax, f64_prec, f32_emax, f32_prec; lia).
  apply Rplus_le_compat; [apply Rmult_le_compat_r; [apply Rabs_pos|]|]; lra.
Qed.
Lemma down_pos : forall y, gf64 y -> 0 <= V y -> f32_of_f64 y = inf \/ (good_f (f32_of_f64 y) /\ V (f32_of_f64 y) = rnd (V y)).
Proof.
  intros y (Hy & Fy) PY. destruct (Rlt_dec (Rabs (rnd (V y))) big) as [L|L].
  - right. destruct (g_convert f32_prec f32_emax Hp32 Hm32 y Fy L) as (A & B). split; [exact A|exact B].
  - left. apply Rnot_lt_le in L. rewrite Rabs_pos_eq in L by (apply rnd_nonneg; auto). destruct y as [s|s| |s m e]; try discriminate Fy.
    + exfalso. change (V (S754_zero s)) with 0 in L. rewrite rnd_0 in L. pose proof (P_pos 128). unfold big, f32_emax in L. lra.
    + unfold f32_of_f64, sf_convert. rewrite normalize_equiv. pose proof (binary_normalize_correct f32_prec f32_emax Hp32 Hm32 mode_NE (cond_Zopp s (Zpos m)) e s) as C. cbv zeta in C.
      change (F2R (Float radix2 (cond_Zopp s (Zpos m)) e)) with (V (S754_finite s m e)) in C. rewrite Rlt_bool_false in C by (rewrite Rabs_pos_eq by (apply rnd_nonneg; auto); exact L).
      rewrite C, overflow_inf. f_equal. apply Rlt_bool_false. lra.
Qed.
Lemma V_1_b1 : 1 - V b1F = V o1F. Proof. rewrite b1_is, o1_is, !V_fin, P_m24, P_m27. lra. Qed.
(** 1 - p for a power p of 0.9 *)
Lemma rest_b1 : forall p, gf64 p -> 0 <= V p <= V b1F -> gf64 (SFsub f64_prec f64_emax (f64_of_Z 1) p) /\ V o1F <= V (SFsub f64_prec f64_emax (f64_of_Z 1) p).
Proof.
  intros p Gp Hp. assert (G1 : gf64 (f64_of_Z 1)) by (split; reflexivity). pose proof one64 as V1. pose proof V_b1 as B1. destruct (g_sub_to f64_prec f64_emax Hp64 Hm64 _ _ G1 Gp) as (A & B).
  { change (Rabs (rnd64 (V (f64_of_Z 1) - V p)) < P f64_emax). rewrite V1. eapply Rle_lt_trans; [apply (rnd64_P _ 0); [lia|]|apply big64; lia]. rewrite Rabs_pos_eq by lra. change (P 0) with 1. lra. }
  split; [exact A|]. rewrite B, V1. apply round_ge_generic; [typeclasses eauto..|apply wide, V_format; apply g_o1|]. rewrite <- V_1_b1. lra.
Qed.
Lemma rest_le1 : forall p, gf64 p -> 0 <= V p <= 1 - P (-10) -> V (SFsub f64_prec f64_emax (f64_of_Z 1) p) <= 1.
Proof.
  intros p Gp Hp. assert (G1 : gf64 (f64_of_Z 1)) by (split; reflexivity). pose proof one64 as V1. pose proof (P_pos (-10)). destruct (g_sub_to f64_prec f64_emax Hp64 Hm64 _ _ G1 Gp) as (A & B).
  { change (Rabs (rnd64 (V (f64_of_Z 1) - V p)) < P f64_emax). rewrite V1. eapply Rle_lt_trans; [apply (rnd64_P _ 0); [lia|]|apply big64; lia]. rewrite Rabs_pos_eq by lra. change (P 0) with 1. lra. }
  rewrite B, V1. apply rnd64_le; [change 1 with (P 0); apply format64; lia|lra].
Qed.
(** m / (1 - p): at most ten times m *)
Lemma corr_first : forall x p e, (-100 <= e < 120)%Z -> bnd e x -> gf64 p -> 0 <= V p <= V b1F ->
  let y := f32_of_f64 (SFdiv f64_prec f64_emax (f64_of_f32 x) (SFsub f64_prec f64_emax (f64_of_Z 1) p)) in bnd (e + 4) y /\ Rabs (V y) <= 10.0001 * Rabs (V x) + 3 * t.
Proof.
  intros x p e He (Gx & Lx) Gp Hp y. destruct (rest_b1 p Gp Hp) as (Gd & Ld). unfold y. clear y. set (d := SFsub f64_prec f64_emax (f64_of_Z 1) p) in *. destruct (up x Gx) as (Gu & Vu). pose proof V_o1 as O1. destruct u_small as (U0 & U1). destruct t_small as (T0 & T1).
  assert (LQ : Rabs (V (f64_of_f32 x) / V d) <= 10 * Rabs (V x)).
  { rewrite Vu. unfold Rdiv. rewrite Rabs_mult, Rabs_inv, (Rabs_pos_eq (V d)) by lra. apply Rmult_le_reg_r with (V d); [lra|]. rewrite Rmult_assoc, Rinv_l by lra. pose proof (Rabs_pos (V x)). nra. }
  assert (E4 : P (e + 4) = 16 * P e) by (rewrite bpow_plus, Rmult_comm; reflexivity). pose proof (P_pos e).
  assert (LQ' : Rabs (V (f64_of_f32 x) / V d) <= P (e + 4)) by lra.
  destruct (g_div_to f64_prec f64_emax Hp64 Hm64 _ _ Gu Gd ltac:(lra)) as (A & B). { change (Rabs (rnd64 (V (f64_of_f32 x) / V d)) < P f64_emax). eapply Rle_lt_trans; [apply (rnd64_P _ (e + 4)); [lia|exact LQ']|apply big64; lia]. }
  fold (rnd64 (V (f64_of_f32 x) / V d)) in B. destruct (down _ (e + 4) ltac:(lia) A) as (C & D). { rewrite B. apply rnd64_P; [lia|exact LQ']. }
  split; [exact C|]. rewrite D, B. set (q := V (f64_of_f32 x) / V d) in *. eapply Rle_trans; [apply rnd_up_by|]. pose proof (rnd64_err q) as RE. pose proof (Rabs_triang (rnd64 q - q) q) as TR. replace (rnd64 q - q + q) with (rnd64 q) in TR by ring.
  pose proof (Rabs_pos (V x)). pose proof (Rabs_pos q).
  assert (K : Rabs (rnd64 q) <= (1 + u) * (10 * Rabs (V x)) + t) by nra. assert (K2 : (1 + u) * Rabs (rnd64 q) <= (1 + u) * ((1 + u) * (10 * Rabs (V x)) + t)) by (apply Rmult_le_compat_l; lra).
  assert (K3 : (1 + u) * (1 + u) <= 1.00001) by nra. assert ((1 + u) * (1 + u) * (10 * Rabs (V x)) <= 1.00001 * (10 * Rabs (V x))) by (apply Rmult_le_compat_r; lra). nra.
Qed.
(** v / (1 - p): at least v, or infinite *)
Lemma corr_second : forall x p, good_f x -> 0 <= V x -> gf64 p -> 0 <= V p <= 1 - P (-10) ->
  let y := f32_of_f64 (SFdiv f64_prec f64_emax (f64_of_f32 x) (SFsub f64_prec f64_emax (f64_of_Z 1) p)) in y = inf \/ (good_f y /\ V x <= V y).
Proof.
  intros x p Gx PX Gp Hp y. destruct (rest p Gp Hp) as (Gd & Ld). pose proof (rest_le1 p Gp Hp) as Ud. unfold y. clear y. set (d := SFsub f64_prec f64_emax (f64_of_Z 1) p) in *. destruct (up x Gx) as (Gu & Vu). pose proof (P_pos (-10)) as P10.
  assert (Q0 : V x <= V (f64_of_f32 x) / V d). { rewrite Vu. apply Rmult_le_reg_r with (V d); [lra|]. unfold Rdiv. rewrite Rmult_assoc, Rinv_l by lra. nra. }
  assert (LQ : Rabs (V (f64_of_f32 x) / V d) <= P (128 + 10)).
  { rewrite Rabs_pos_eq by lra. rewrite Vu. apply Rmult_le_reg_r with (V d); [lra|]. unfold Rdiv. rewrite Rmult_assoc, Rinv_l by lra. rewrite Rmult_1_r. pose proof (V_big x (proj1 Gx)) as VBx. rewrite Rabs_pos_eq in VBx by auto. unfold big, f32_emax in VBx.
    apply Rle_trans with (P (128 + 10) * P (-10)); [rewrite <- bpow_plus; apply Rlt_le; exact VBx|]. apply Rmult_le_compat_l; [apply Rlt_le, P_pos|auto]. }
  destruct (g_div_to f64_prec f64_emax Hp64 Hm64 _ _ Gu Gd ltac:(lra)) as (A & B). { change (Rabs (rnd64 (V (f64_of_f32 x) / V d)) < P f64_emax). eapply Rle_lt_trans; [apply (rnd64_P _ (128 + 10)); [lia|exact LQ]|apply big64; lia]. }
  fold (rnd64 (V (f64_of_f32 x) / V d)) in B.
  assert (LB : V x <= rnd64 (V (f64_of_f32 x) / V d)) by (apply round_ge_generic; [typeclasses eauto..|apply wide, V_format; apply Gx|exact Q0]).
  destruct (down_pos _ A ltac:(rewrite B; lra)) as [E|(G & E)]; [left; exact E|right]. split; [exact G|]. rewrite E. apply rnd_down; [apply Gx|]. rewrite B. exact LB.
Qed.

Section O.
Context (lm : libm).
Let SF : Scalar f32 := F32Scalar lm.
Local Existing Instance SF.
Hypothesis HP : pow_like (m_pow lm).

(** ** The moments *)
Definition first (a m : f32) : f32 := fadd (fmul b1F m) (fmul o1F a).
Definition second (a v : f32) : f32 := fadd (fmul b2F v) (fmul (fmul o2F a) a).
(** The weights 0.9 and 0.1 of the average add up to one exactly, so it stays within a power of two. *)
Lemma first_same : forall a m, bnd 112 a -> bnd 112 m -> bnd 112 (first a m).
Proof.
  intros a m (GA & LA) (GM & LM). pose proof V_b1 as B1. pose proof V_o1 as O1. pose (x1 := S754_finite false 15099494 88). pose (x2 := S754_finite false 13421776 85).
  assert (P24 : P 112 * P (-24) = P 88) by (rewrite <- bpow_plus; reflexivity). assert (P27 : P 112 * P (-27) = P 85) by (rewrite <- bpow_plus; reflexivity). pose proof (P_pos 112) as PP.
  assert (X1 : V x1 = V b1F * P 112) by (rewrite b1_is; unfold x1; rewrite !V_fin, <- P24; ring). assert (X2 : V x2 = V o1F * P 112) by (rewrite o1_is; unfold x2; rewrite !V_fin, <- P27; ring).
  assert (SUM : V b1F + V o1F = 1) by (rewrite b1_is, o1_is, !V_fin, P_m24, P_m27; lra).
  assert (K : forall b y x, good_f b -> good_f y -> vok x -> 0 <= V b <= 1 -> Rabs (V y) <= P 112 -> V x = V b * P 112 -> good_f (fmul b y) /\ Rabs (V (fmul b y)) <= V b * P 112).
  { intros b y x Gb Gy Hx Hb Hy EX. assert (L : Rabs (V b * V y) <= V b * P 112) by (rewrite Rabs_mult, (Rabs_pos_eq (V b)) by lra; apply Rmult_le_compat_l; lra).
    destruct (mul_to b y 112 ltac:(lia) Gb Gy) as (Q1 & Q2); [nra|]. split; [exact Q1|]. rewrite Q2. rewrite <- EX. rewrite <- (Rabs_pos_eq (V x)) by (rewrite EX; nra). apply rnd_abs; [exact Hx|]. rewrite (Rabs_pos_eq (V x)) by (rewrite EX; nra). rewrite EX. exact L. }
  destruct (K b1F m x1 g_b1 GM ltac:(reflexivity) ltac:(lra) LM X1) as (G1 & L1). destruct (K o1F a x2 g_o1 GA ltac:(reflexivity) ltac:(lra) LA X2) as (G2 & L2).
  assert (L : Rabs (V (fmul b1F m) + V (fmul o1F a)) <= P 112) by (eapply Rle_trans; [apply Rabs_triang|]; nra).
  destruct (add_to _ _ 112 ltac:(lia) G1 G2 L) as (G3 & E3). split; [exact G3|]. unfold first. rewrite E3. apply rnd_P; [lia|exact L].
Qed.
Lemma first_bnd : forall a m, bnd 112 a -> bnd 112 m -> bnd 112 (first a m) /\ Rabs (V (first a m)) <= (1 + 4 * u) * (V b1F * Rabs (V m) + V o1F * Rabs (V a)) + 4 * t.
Proof.
  intros a m BA BM. pose proof V_b1 as B1. pose proof V_o1 as O1. assert (UO : within 0 1 o1F) by (destruct g_o1; split; [auto|split; [auto|lra]]). assert (UB : within 0 1 b1F) by (destruct g_b1; split; [auto|split; [auto|lra]]).
  assert (C : bnd 112 (fmul o1F a)) by (change 112%Z with (0 + 112)%Z; apply mul_bnd; [lia|apply bnd_unit; auto|auto]).
  assert (C' : bnd 112 (fmul b1F m)) by (change 112%Z with (0 + 112)%Z; apply mul_bnd; [lia|apply bnd_unit; auto|auto]).
  assert (B : bnd 112 (first a m)) by (apply first_same; auto). split; [exact B|].
  unfold first in *. destruct B as ((HB & FB) & _). destruct C as ((HC & FC) & _). destruct C' as ((HC' & FC') & _).
  destruct (add_fin _ _ HC' HC FB) as (_ & _ & E). destruct (mul_fin b1F m (proj1 g_b1) (proj1 (proj1 BM)) FC') as (_ & _ & E1). destruct (mul_fin o1F a (proj1 g_o1) (proj1 (proj1 BA)) FC) as (_ & _ & E2).
  rewrite E. eapply Rle_trans; [apply rnd_up_by|]. rewrite E1, E2. pose proof (abs_mul_rnd b1F m) as R1. pose proof (abs_mul_rnd o1F a) as R2. rewrite (Rabs_pos_eq (V b1F)) in R1 by lra. rewrite (Rabs_pos_eq (V o1F)) in R2 by lra.
  pose proof (Rabs_triang (rnd (V b1F * V m)) (rnd (V o1F * V a))) as TR. destruct u_small as (U0 & U1). destruct t_small as (T0 & T1).
  pose proof (Rabs_pos (V m)). pose proof (Rabs_pos (V a)). set (Sm := V b1F * Rabs (V m) + V o1F * Rabs (V a)) in *. assert (0 <= Sm) by (unfold Sm; nra).
  assert (Q : Rabs (rnd (V b1F * V m) + rnd (V o1F * V a)) <= (1 + u) * Sm + 2 * t) by (unfold Sm; lra).
  assert ((1 + u) * Rabs (rnd (V b1F * V m) + rnd (V o1F * V a)) <= (1 + u) * ((1 + u) * Sm + 2 * t)) by (apply Rmult_le_compat_l; lra).
  assert (u * (u * Sm) <= 1 * (u * Sm)) by (apply Rmult_le_compat_r; [apply Rmult_le_pos; lra|lra]). assert (u * t <= 0.25 * t) by (apply Rmult_le_compat_r; lra). assert (0 <= u * Sm) by (apply Rmult_le_pos; lra). lra.
Qed.
Lemma sq_sign : forall a, good_f a -> fin (fmul o2F a) -> 0 <= V (fmul o2F a) * V a.
Proof.
  intros a (HA & FA) F. destruct (mul_fin o2F a (proj1 g_o2) HA F) as (_ & _ & E). rewrite E. pose proof V_o2. destruct (Rle_dec 0 (V a)) as [Q|Q].
  - apply Rmult_le_pos; [|auto]. apply rnd_nonneg. apply Rmult_le_pos; lra.
  - replace (rnd (V o2F * V a) * V a) with ((- rnd (V o2F * V a)) * (- V a)) by ring. apply Rmult_le_pos; [|lra]. rewrite <- rnd_opp. apply rnd_nonneg. replace (- (V o2F * V a)) with (V o2F * - V a) by ring. apply Rmult_le_pos; lra.
Qed.
Lemma sq_low : forall a, V o2F * (Rabs (V a) * Rabs (V a)) * (1 - 2 * u) - t <= rnd (V o2F * V a) * V a.
Proof.
  intros a. pose proof V_o2 as O2. destruct u_small as (U0 & U1). destruct t_small as (T0 & T1). pose proof P_m100 as T2.
  assert (K : forall y, 0 <= y -> V o2F * (y * y) * (1 - 2 * u) - t <= rnd (V o2F * y) * y).
  { intros y Hy. pose proof (rnd_low_by (V o2F * y) ltac:(apply Rmult_le_pos; lra)) as L. destruct (Rle_dec y 1) as [Q|Q].
    - assert (((1 - u) * (V o2F * y) - t) * y <= rnd (V o2F * y) * y) by (apply Rmult_le_compat_r; auto). assert (t * y <= t) by nra. assert (0 <= u * (V o2F * (y * y))) by (apply Rmult_le_pos; [lra|apply Rmult_le_pos; [lra|nra]]). nra.
    - assert (T3 : t <= u * (V o2F * y)). { assert (V o2F * y >= 0.00099998) by nra. assert (U : / 16777216 <= u) by (unfold ulp_half; rewrite p_24; lra). nra. }
      assert (((1 - u) * (V o2F * y) - u * (V o2F * y)) * y <= rnd (V o2F * y) * y) by (apply Rmult_le_compat_r; lra). nra. }
  destruct (Rle_dec 0 (V a)) as [Q|Q]; [rewrite Rabs_pos_eq by auto; apply K; auto|].
  rewrite Rabs_left by lra. specialize (K (- V a) ltac:(lra)). replace (V o2F * - V a) with (- (V o2F * V a)) in K by ring. rewrite rnd_opp in K. lra.
Qed.
Lemma second_low : forall a v, bnd 112 a -> good_f v -> 0 <= V v -> second a v = inf \/
  (good_f (second a v) /\ 0 <= V (second a v) /\ (1 - 4 * u) * (V b2F * V v + V o2F * (Rabs (V a) * Rabs (V a))) - 4 * t <= V (second a v)).
Proof.
  intros a v BA GV PV. pose proof V_b2 as B2. pose proof V_o2 as O2. assert (UO : within 0 1 o2F) by (destruct g_o2; split; [auto|split; [auto|lra]]). assert (UB : within 0 1 b2F) by (destruct g_b2; split; [auto|split; [auto|lra]]).
  assert (C : bnd 112 (fmul o2F a)) by (change 112%Z with (0 + 112)%Z; apply mul_bnd; [lia|apply bnd_unit; auto|auto]).
  pose proof (sq_sign a (proj1 BA) (proj2 (proj1 C))) as SQ. pose proof (mul_signed false (fmul o2F a) a (proj1 C) (proj1 BA) ltac:(unfold sg; lra)) as DS.
  pose proof (mul_signed false b2F v g_b2 GV ltac:(unfold sg; nra)) as DB. pose proof (add_dir false _ _ DB DS) as DV. fold (second a v) in DV.
  destruct (fin_dec (second a v)) as [F|F]; [right|left; apply over_inf; auto].
  destruct DV as (HV & [E|(_ & PV1)]); [rewrite E in F; discriminate F|]. unfold sg in PV1. split; [split; auto|]. split; [lra|].
  destruct (add_fin _ _ (proj1 DB) (proj1 DS) F) as (F1 & F2 & E). destruct (mul_fin b2F v (proj1 g_b2) (proj1 GV) F1) as (_ & _ & E1). destruct (mul_fin _ a (proj1 (proj1 C)) (proj1 (proj1 BA)) F2) as (_ & _ & E2).
  destruct (mul_fin o2F a (proj1 g_o2) (proj1 (proj1 BA)) (proj2 (proj1 C))) as (_ & _ & E3). fold (second a v) in E. rewrite E, E1, E2, E3. rewrite E3 in SQ.
  pose proof (sq_low a) as L1. pose proof (rnd_low_by _ SQ) as L2. pose proof (rnd_low_by (V b2F * V v) ltac:(apply Rmult_le_pos; lra)) as L3.
  assert (N1 : 0 <= rnd (V b2F * V v)) by (apply rnd_nonneg, Rmult_le_pos; lra). assert (N2 : 0 <= rnd (rnd (V o2F * V a) * V a)) by (apply rnd_nonneg; auto).
  pose proof (rnd_low_by (rnd (V b2F * V v) + rnd (rnd (V o2F * V a) * V a)) ltac:(lra)) as L4. destruct u_small as (U0 & U1). destruct t_small as (T0 & T1).
  set (z := rnd (V o2F * V a) * V a) in *. set (y2 := Rabs (V a) * Rabs (V a)) in *. assert (0 <= y2) by (unfold y2; pose proof (Rabs_pos (V a)); nra).
  set (p := V b2F * V v) in *. set (q := V o2F * y2) in *. assert (0 <= q) by (unfold q; apply Rmult_le_pos; lra). assert (0 <= p) by (unfold p; apply Rmult_le_pos; lra).
  assert (A1 : rnd z >= (1 - u) * (q * (1 - 2 * u) - t) - t) by (assert ((1 - u) * (q * (1 - 2 * u) - t) <= (1 - u) * z) by (apply Rmult_le_compat_l; lra); lra).
  assert (A2 : rnd z >= q * (1 - 3 * u) - 2 * t) by nra.
  assert (A3 : (1 - u) * (rnd p + rnd z) >= (1 - u) * (((1 - u) * p - t) + (q * (1 - 3 * u) - 2 * t))) by (apply Rle_ge, Rmult_le_compat_l; lra).
  nra.
Qed.
(** What the optimizer keeps true of the two moments of a weight: the second is infinite, or bounds the first. *)
Definition moments (m v : f32) : Prop := bnd 112 m /\ (v = inf \/ (good_f v /\ 0 <= V v /\ V m * V m <= 68 * V v + delta)).
Lemma moments_zero : moments (f32_of_Z 0) (f32_of_Z 0).
Proof. split; [apply bnd_zero|]. right. split; [split; reflexivity|]. change (V (f32_of_Z 0)) with 0. destruct t_small. unfold delta. lra. Qed.
Lemma moments_step : forall a m v, bnd 112 a -> moments m v -> moments (first a m) (second a v).
Proof.
  intros a m v BA (BM & HV). destruct (first_bnd a m BA BM) as (B1 & L1). split; [exact B1|]. destruct HV as [->|(GV & PV & HI)].
  - left. unfold second. rewrite mul_inf; [|apply g_b2|pose proof V_b2; lra]. apply inf_add. pose proof V_o2 as O2. assert (UO : within 0 1 o2F) by (destruct g_o2; split; [auto|split; [auto|lra]]).
    assert (C : bnd 112 (fmul o2F a)) by (change 112%Z with (0 + 112)%Z; apply mul_bnd; [lia|apply bnd_unit; auto|auto]).
    apply mul_signed; [apply C|apply BA|]. unfold sg. pose proof (sq_sign a (proj1 BA) (proj2 (proj1 C))). lra.
  - destruct (second_low a v BA GV PV) as [E|(G1 & P1 & L2)]; [left; exact E|right]. split; [auto|]. split; [auto|].
    replace (V (first a m) * V (first a m)) with (Rabs (V (first a m)) * Rabs (V (first a m))) by (rewrite <- Rabs_mult; apply Rabs_pos_eq; nra).
    apply (moment_real (Rabs (V m)) (Rabs (V a)) (V v)); auto using Rabs_pos. rewrite <- Rabs_mult, Rabs_pos_eq by nra. exact HI.
Qed.

(** ** The step *)
Lemma scaled_small : forall s n lr, (-20 <= s <= 0)%Z -> (1 <= n)%Z -> within 0 (P s) lr -> bnd (s + 4) (adam_scaled b1F b2F n lr) /\ Rabs (V (adam_scaled b1F b2F n lr)) <= 10.001 * P s.
Proof.
  intros s n lr Hs Hn (HL & FL & LL). unfold adam_scaled. destruct (one_minus _ (max_decay lm _ _ (powi_decay lm HP b2F n d_b2 Hn) (tiny_decay lm))) as (U2 & _).
  set (q := fsqrt (fsub (f32_of_Z 1) (s_max (s_powi b2F n) tiny))). assert (BQ : bnd 0 q /\ 0 <= V q) by (apply (sqrt_bnd _ 0); [lia|apply bnd_unit; exact U2|apply U2]). destruct BQ as (BQ & PQ).
  assert (BL : bnd s lr) by (split; [split; auto|]; rewrite Rabs_pos_eq; lra). pose proof (mul_bnd lr q s 0 ltac:(lia) BL BQ) as BN. rewrite Z.add_0_r in BN.
  set (p := s_max (s_powi b1F n) tiny). pose proof V_b1 as B1. pose proof V_o1 as O1.
  assert (HPp : good_f p /\ 0 <= V p <= V b1F).
  { assert (Q1 : good_f (s_powi b1F n) /\ 0 <= V (s_powi b1F n) <= V b1F).
    { destruct (pow_decay (m_pow lm) b1F n HP d_b1 Hn) as (Gp & _ & (D1 & D2 & D3)). split; [split; [exact D1|exact D2]|]. split; [apply D3|].
      destruct (HP b1F n) as (A & B & C); [split; [apply g_b1|split; [apply finite_fin, g_b1|rewrite value_V; pose proof V_b1; lra]]|auto|]. rewrite !value_V in C.
      destruct (down (m_pow lm b1F n) 0 ltac:(lia) Gp) as (_ & E); [rewrite Rabs_pos_eq by lra; change (P 0) with 1; lra|]. change (s_powi b1F n) with (f32_of_f64 (m_pow lm b1F n)). rewrite E. apply rnd_up; [apply g_b1|lra]. }
    assert (Q2 : good_f (tiny : f32) /\ 0 <= V (tiny : f32) <= V b1F).
    { assert (E : (tiny : f32) = S754_finite false 8388608 (-149)) by (vm_compute; reflexivity). rewrite E. split; [split; reflexivity|]. rewrite V_fin. pose proof (P_pos (-149)). pose proof (P_le (-149) (-24) ltac:(lia)). rewrite P_m24 in *. lra. }
    unfold p, s_max. destruct (s_lt _ _); auto. }
  destruct HPp as (GP & LP). destruct (sub_to (f32_of_Z 1) p 0 ltac:(lia)) as (GD & ED); [split; [apply of_Z_vok|reflexivity]|exact GP|rewrite V_one, P_0, Rabs_pos_eq; lra|].
  assert (LD : V o1F <= V (fsub (f32_of_Z 1) p)) by (rewrite ED, V_one; apply rnd_down; [apply g_o1|rewrite <- V_1_b1; lra]).
  change (bnd (s + 4) (f32_div (fmul lr q) (fsub (f32_of_Z 1) p)) /\ Rabs (V (f32_div (fmul lr q) (fsub (f32_of_Z 1) p))) <= 10.001 * P s).
  set (d := fsub (f32_of_Z 1) p) in *. set (x := fmul lr q) in *. destruct BN as (GX & LX). pose proof (P_pos s) as PS. assert (E4 : P (s + 4) = 16 * P s) by (rewrite bpow_plus, Rmult_comm; reflexivity).
  assert (LQ : Rabs (V x / V d) <= 10 * P s). { unfold Rdiv. rewrite Rabs_mult, Rabs_inv, (Rabs_pos_eq (V d)) by lra. apply Rmult_le_reg_r with (V d); [lra|]. rewrite Rmult_assoc, Rinv_l by lra. nra. }
  destruct (div_to x d (s + 4) ltac:(lia) GX GD ltac:(lra)) as (G & E); [lra|]. split; [split; [exact G|rewrite E; apply rnd_P; [lia|lra]]|]. rewrite E. eapply Rle_trans; [apply rnd_up_by|].
  destruct u_small as (U0 & U1). destruct t_small as (T0 & T1). assert (P (-100) <= 0.0001 * P s). { pose proof (P_le (-20) s ltac:(lia)). change (P (-20)) with (/ 1048576) in *. pose proof P_m100. lra. } nra.
Qed.
Lemma sqrt_split : forall m v, 0 <= v -> m * m <= 68 * v + delta -> Rabs m <= 8.25 * sqrt v + 128 * sqrt t.
Proof.
  intros m v Hv H. destruct t_small as (T0 & _). pose proof (sqrt_pos v) as S0. pose proof (sqrt_pos t) as S1. apply Rsqr_incr_0; [|apply Rabs_pos|lra]. rewrite <- Rsqr_abs. unfold Rsqr.
  pose proof (sqrt_sqrt v Hv) as E1. pose proof (sqrt_sqrt t ltac:(lra)) as E2. unfold delta in H. nra.
Qed.
Lemma sqrt_t : sqrt t <= P (-50).
Proof. destruct t_small as (T0 & T1). replace (P (-50)) with (sqrt (P (-100))) by (apply (sqrt_Pn (-50))). apply sqrt_le_1_alt. exact T1. Qed.
Lemma step_ratio : forall s S E m1 mh num den sc, (-20 <= s <= 0)%Z -> 0 <= S -> P (-40) <= E -> Rabs m1 <= 8.25 * S + 128 * P (-50) -> Rabs mh <= 10.0001 * Rabs m1 + 3 * t -> Rabs sc <= 10.001 * P s ->
  Rabs num <= (1 + u) * (Rabs sc * Rabs mh) + t -> (1 - u) * ((1 - u) * S - t + E) - t <= den -> 0 < den /\ Rabs num / den <= P (s + 10).
Proof.
  intros s S E m1 mh num den sc Hs HS HE H1 H2 H3 H4 H5. destruct u_small as (U0 & U1). destruct t_small as (T0 & T1). pose proof (P_pos s) as PS.
  set (X := S + E). set (Q := P s) in *. assert (HX : P (-40) <= X) by (unfold X; lra). change (P (-50)) with (/ 1125899906842624) in *. change (P (-40)) with (/ 1099511627776) in *.
  assert (HQ : / 1048576 <= Q) by (unfold Q; change (/ 1048576) with (P (-20)); apply P_le; lia).
  assert (TT : t <= 0.0001 * X) by (pose proof P_m100; lra).
  assert (M : Rabs m1 <= 8.25 * X) by (unfold X; lra).
  assert (MH : Rabs mh <= 82.51 * X) by lra.
  assert (X0 : 0 < X) by lra. pose proof (Rabs_pos sc). pose proof (Rabs_pos mh).
  assert (N1 : Rabs sc * Rabs mh <= (10.001 * Q) * (82.51 * X)) by (apply Rmult_le_compat; lra). assert (QX : 0 < Q * X) by (apply Rmult_lt_0_compat; lra).
  assert (TQ : t <= Q * X). { pose proof P_m100. assert (/ 1048576 * / 1099511627776 <= Q * X) by (apply Rmult_le_compat; lra). lra. }
  assert (N2 : Rabs num <= 830 * (Q * X)). { assert (0 <= Rabs sc * Rabs mh) by (apply Rmult_le_pos; auto). nra. }
  assert (D : 0.999 * X <= den). { unfold X in *. nra. }
  split; [lra|]. replace (P (s + 10)) with (1024 * Q) by (unfold Q; rewrite bpow_plus, Rmult_comm; reflexivity). apply Rmult_le_reg_r with den; [lra|]. unfold Rdiv. rewrite Rmult_assoc, Rinv_l by lra. nra.
Qed.
Lemma adam_step_small : forall s eps n lr a w m v, (-20 <= s <= 0)%Z -> eps_ok eps -> (1 <= n)%Z -> within 0 (P s) lr -> bnd 112 a -> bnd (s + 35) w -> moments m v ->
  let '(w', m', v') := adam_rule b1F b2F eps (f32_of_Z 0) (f32_of_Z 0) (adam_scaled b1F b2F) n lr a (w, m, v) in bnd (s + 35) w' /\ moments m' v'.
Proof.
  intros s eps n lr a w m v Hs HE Hn HL BA BW HM. unfold adam_rule. change (s_lt zero (f32_of_Z 0)) with false. cbv iota.
  change (adam_m b1F m a) with (first a m). change (adam_v b2F v a) with (second a v). pose proof (moments_step a m v BA HM) as HM'. split; [|exact HM'].
  set (m1 := first a m) in *. set (v1 := second a v) in *. clearbody m1 v1. clear HM BA. destruct HM' as (BM & CV).
  destruct (scaled_small s n lr Hs Hn HL) as (BS & LS). set (sc := adam_scaled b1F b2F n lr) in *.
  assert (LP1 : gf64 (m_pow lm b1F n) /\ 0 <= V (m_pow lm b1F n) <= V b1F).
  { destruct (pow_decay (m_pow lm) b1F n HP d_b1 Hn) as (Gp & _ & _). split; [exact Gp|]. destruct (HP b1F n) as (A & B & C); [split; [apply g_b1|split; [apply finite_fin, g_b1|rewrite value_V; pose proof V_b1; lra]]|auto|]. rewrite !value_V in C. lra. }
  destruct LP1 as (G1 & LP1). destruct (corr_first m1 (m_pow lm b1F n) 112 ltac:(lia) BM G1 LP1) as (BH & LH). change (112 + 4)%Z with 116%Z in BH.
  change (f32_of_f64 (SFdiv f64_prec f64_emax (f64_of_f32 m1) (SFsub f64_prec f64_emax (f64_of_Z 1) (m_pow lm b1F n)))) with (s_corr m1 b1F n) in *. set (mh := s_corr m1 b1F n) in *.
  destruct (pow_decay (m_pow lm) b2F n HP d_b2 Hn) as (G2 & LP2 & _).
  assert (CH : s_corr v1 b2F n = inf \/ (good_f (s_corr v1 b2F n) /\ 0 <= V v1 <= V (s_corr v1 b2F n) /\ V m1 * V m1 <= 68 * V v1 + delta)).
  { destruct CV as [->|(GV & PV & HR)]; [left; exact (corr_inf _ G2 LP2)|]. destruct (corr_second v1 (m_pow lm b2F n) GV PV G2 LP2) as [E|(G & L)]; [left; exact E|right]. split; [exact G|]. split; [split; [exact PV|exact L]|exact HR]. }
  set (vh := s_corr v1 b2F n) in *. pose proof (mul_bnd sc mh (s + 4) 116 ltac:(lia) BS BH) as BN. change (s_mul sc mh) with (fmul sc mh). set (num := fmul sc mh) in *.
  change (bnd (s + 35) (fsub w (f32_div num (fadd (fsqrt vh) eps)))). destruct CH as [->|(GV & (PV & LV) & HR)].
  - change (fsqrt inf) with inf. rewrite inf_add. 2:{ destruct HE as ([A1 A2] & A3). split; [auto|right]. split; [auto|]. pose proof (P_pos (-40)). unfold sg. lra. }
    destruct (div_inf num (proj1 BN)) as (sg' & ->). destruct (sub_zero w sg' (proj1 BW)) as (GZ & VZ). split; [exact GZ|]. rewrite VZ. apply BW.
  - destruct (sqrt_in vh GV ltac:(lra)) as (GS & ES). assert (BQ : bnd 64 (fsqrt vh) /\ 0 <= V (fsqrt vh)).
    { pose proof (V_big vh (proj1 GV)) as VB. apply (sqrt_bnd vh 64); [lia| |lra]. split; [auto|]. unfold big, f32_emax in VB. change (2 * 64)%Z with 128%Z. lra. }
    destruct BQ as (BQ & PQ). destruct (above _ eps 64 ltac:(lia) BQ PQ HE) as (BD & LD). destruct HE as (GE & LE).
    destruct (add_to (fsqrt vh) eps 65 ltac:(lia) GS GE) as (_ & ED). { eapply Rle_trans; [apply Rabs_triang|]. destruct BQ as (_ & LQ). rewrite (Rabs_pos_eq (V eps)) by (pose proof (P_pos (-40)); lra). change (P 65) with 36893488147419103232. change (P 64) with 18446744073709551616 in *. lra. }
    set (den := fadd (fsqrt vh) eps) in *. destruct u_small as (U0 & U1). destruct t_small as (T0 & T1).
    destruct (step_ratio s (sqrt (V v1)) (V eps) (V m1) (V mh) (V num) (V den) (V sc) Hs (sqrt_pos _) (proj1 LE)) as (DP & LQ).
    + pose proof (sqrt_split (V m1) (V v1) PV HR). pose proof sqrt_t. lra.
    + exact LH.
    + exact LS.
    + destruct (mul_fin sc mh (proj1 (proj1 BS)) (proj1 (proj1 BH)) (proj2 (proj1 BN))) as (_ & _ & EN). unfold num. rewrite EN. apply abs_mul_rnd.
    + rewrite ED. eapply Rle_trans; [|apply rnd_low_by]; [|pose proof (P_pos (-40)); lra]. rewrite ES. apply Rplus_le_compat_r. apply Rmult_le_compat_l; [lra|]. apply Rplus_le_compat_r.
      eapply Rle_trans; [|apply rnd_low_by, sqrt_pos]. apply Rplus_le_compat_r. apply Rmult_le_compat_l; [lra|]. apply sqrt_le_1_alt. exact LV.
    + assert (BX : bnd (s + 10) (f32_div num den)).
      { assert (LA : Rabs (V num / V den) <= P (s + 10)) by (unfold Rdiv; rewrite Rabs_mult, Rabs_inv, (Rabs_pos_eq (V den)) by lra; exact LQ). destruct (div_to num den (s + 10) ltac:(lia) (proj1 BN) (proj1 BD) ltac:(lra) LA) as (G & E). split; [exact G|]. rewrite E. apply rnd_P; [lia|exact LA]. }
      replace (s + 35)%Z with (s + 10 + 25)%Z by lia. apply sat_sub; [lia|lia|replace (s + 10 + 25)%Z with (s + 35)%Z by lia; exact BW|exact BX].
Qed.
End O.
