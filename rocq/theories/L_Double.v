(** * binary64 where the library uses it: powers and the corrected moments of Adam *)
From Coq Require Import Reals Lra SpecFloat.
From Flocq Require Import Core BinarySingleNaN.
From Verif Require Import Base Scalar SpecF32 L_Float L_FloatAct L_FloatLib L_FloatB.
Local Open Scope R_scope.
#[local] Existing Instance Hp32.
#[local] Existing Instance Hm32.
Local Notation V := (SF2R radix2).
Local Notation P e := (bpow radix2 e).
Local Notation fx := (SpecFloat.fexp f32_prec f32_emax).

(** ** Any format *)
Section G.
Context (prec emax : Z) (Hp : FLX.Prec_gt_0 prec) (Hm : Prec_lt_emax prec emax).
Local Notation F := (binary_float prec emax).
Local Notation ok := (SpecFloat.valid_binary prec emax).
Local Notation gx := (SpecFloat.fexp prec emax).
Local Notation rn r := (round radix2 gx ZnearestE r).
Lemma g_aux : forall sx mx ex lx, SpecFloat.binary_round_aux prec emax sx mx ex lx = binary_round_aux prec emax mode_NE sx mx ex lx.
Proof. intros. unfold SpecFloat.binary_round_aux, binary_round_aux. set (mrse' := shr_fexp _ _ _). case mrse'; intros mrs' e'; simpl. now rewrite (round_nearest_even_equiv sx). Qed.
Lemma g_normalize : forall m e sz, SpecFloat.binary_normalize prec emax m e sz = B2SF (binary_normalize prec emax Hp Hm mode_NE m e sz).
Proof.
  intros m e sz. case m as [|p|p]; simpl; [reflexivity|rewrite B2SF_SF2B..]; unfold SpecFloat.binary_round, binary_round, shl_align_fexp; set (mez := shl_align _ _ _); case mez as [mz ez]; apply g_aux.
Qed.
Lemma g_valid : forall x, ok x = true -> exists b : F, B2SF b = x.
Proof. intros x H. exists (SF2B x H). apply B2SF_SF2B. Qed.
Lemma g_sub : forall x y : F, SFsub prec emax (B2SF x) (B2SF y) = B2SF (Bminus mode_NE x y).
Proof.
  intros x y. case x as [sx|sx| |sx mx ex Bx]; case y as [sy|sy| |sy my ey By]; [now (trivial || simpl; case Bool.eqb)..|]. simpl. unfold Zminus. rewrite <- cond_Zopp_negb. apply g_normalize.
Qed.
Lemma g_mul : forall x y : F, SFmul prec emax (B2SF x) (B2SF y) = B2SF (Bmult mode_NE x y).
Proof. intros x y. case x as [sx|sx| |sx mx ex Bx]; case y as [sy|sy| |sy my ey By]; [now trivial..|]. simpl. rewrite B2SF_SF2B. apply g_aux. Qed.
Lemma g_div : forall x y : F, SFdiv prec emax (B2SF x) (B2SF y) = B2SF (Bdiv mode_NE x y).
Proof.
  intros x y. case x as [sx|sx| |sx mx ex Bx]; case y as [sy|sy| |sy my ey By]; [now (trivial || simpl; case Bool.eqb)..|]. simpl. rewrite B2SF_SF2B.
  set (melz := SFdiv_core_binary _ _ _ _ _ _). case melz as [[mz ez] lz]. apply g_aux.
Qed.
Definition gfl (x : spec_float) : Prop := ok x = true /\ is_finite_SF x = true.
Lemma gflB : forall b : F, gfl (B2SF b) <-> is_finite b = true.
Proof. intros b. unfold gfl. split; [intros (_ & H); rewrite <- is_finite_SF_B2SF; auto|intros H; split; [apply valid_binary_B2SF|rewrite is_finite_SF_B2SF; auto]]. Qed.
Lemma gVB : forall b : F, V (B2SF b) = B2R b.
Proof. exact (@SF2R_B2SF _ _). Qed.
Lemma g_sub_to : forall x y, gfl x -> gfl y -> Rabs (rn (V x - V y)) < P emax -> gfl (SFsub prec emax x y) /\ V (SFsub prec emax x y) = rn (V x - V y).
Proof.
  intros x y Gx Gy HB. destruct (g_valid x (proj1 Gx)) as (a & <-). destruct (g_valid y (proj1 Gy)) as (b & <-). apply gflB in Gx. apply gflB in Gy. rewrite !gVB in *. rewrite g_sub, gflB, gVB.
  pose proof (Bminus_correct prec emax Hp Hm mode_NE a b Gx Gy) as C. rewrite Rlt_bool_true in C by exact HB. split; apply C.
Qed.
Lemma g_mul_to : forall x y, gfl x -> gfl y -> Rabs (rn (V x * V y)) < P emax -> gfl (SFmul prec emax x y) /\ V (SFmul prec emax x y) = rn (V x * V y).
Proof.
  intros x y Gx Gy HB. destruct (g_valid x (proj1 Gx)) as (a & <-). destruct (g_valid y (proj1 Gy)) as (b & <-). apply gflB in Gx. apply gflB in Gy. rewrite !gVB in *. rewrite g_mul, gflB, gVB.
  pose proof (Bmult_correct prec emax Hp Hm mode_NE a b) as C. rewrite Rlt_bool_true in C by exact HB. destruct C as (C1 & C2 & _). rewrite C1, C2, Gx, Gy. auto.
Qed.
Lemma g_div_to : forall x y, gfl x -> gfl y -> V y <> 0 -> Rabs (rn (V x / V y)) < P emax -> gfl (SFdiv prec emax x y) /\ V (SFdiv prec emax x y) = rn (V x / V y).
Proof.
  intros x y Gx Gy HN HB. destruct (g_valid x (proj1 Gx)) as (a & <-). destruct (g_valid y (proj1 Gy)) as (b & <-). apply gflB in Gx. apply gflB in Gy. rewrite !gVB in *. rewrite g_div, gflB, gVB.
  pose proof (Bdiv_correct prec emax Hp Hm mode_NE a b HN) as C. rewrite Rlt_bool_true in C by exact HB. destruct C as (C1 & C2 & _). rewrite C1, C2, Gx. auto.
Qed.
(** Converting a finite number rounds it to nearest. *)
Lemma g_convert : forall x, is_finite_SF x = true -> Rabs (rn (V x)) < P emax -> gfl (sf_convert prec emax x) /\ V (sf_convert prec emax x) = rn (V x).
Proof.
  intros x Fx HB. destruct x as [s|s| |s m e]; try discriminate Fx.
  - split; [split; reflexivity|]. cbn. rewrite round_0; [reflexivity|apply valid_rnd_N].
  - unfold sf_convert. rewrite g_normalize, gflB, gVB. pose proof (binary_normalize_correct prec emax Hp Hm mode_NE (cond_Zopp s (Zpos m)) e s) as C. cbv zeta in C.
    change (F2R (Float radix2 (cond_Zopp s (Zpos m)) e)) with (V (S754_finite s m e)) in C. rewrite Rlt_bool_true in C by exact HB. split; apply C.
Qed.
End G.

(** ** binary64 *)
#[local] Instance Hp64 : FLX.Prec_gt_0 f64_prec := eq_refl _.
#[local] Instance Hm64 : Prec_lt_emax f64_prec f64_emax := eq_refl _.
Local Notation fx64 := (SpecFloat.fexp f64_prec f64_emax).
Local Notation gf64 := (gfl f64_prec f64_emax).
Definition rnd64 (r : R) : R := round radix2 fx64 ZnearestE r.
Lemma format64 : forall e, (-1074 <= e)%Z -> generic_format radix2 fx64 (P e).
Proof. intros e H. apply generic_format_bpow. unfold SpecFloat.fexp, SpecFloat.emin, f64_prec, f64_emax. lia. Qed.
Lemma rnd64_P : forall r e, (-1074 <= e)%Z -> Rabs r <= P e -> Rabs (rnd64 r) <= P e.
Proof. intros r e H HR. unfold rnd64. apply abs_round_le_generic; [typeclasses eauto..|apply format64; auto|auto]. Qed.
Lemma rnd64_ge : forall r e, (-1074 <= e)%Z -> P e <= r -> P e <= rnd64 r.
Proof. intros r e H HR. unfold rnd64. apply round_ge_generic; [typeclasses eauto..|apply format64; auto|auto]. Qed.
Lemma rnd64_nonneg : forall r, 0 <= r -> 0 <= rnd64 r.
Proof. intros r H. unfold rnd64. apply round_ge_generic; [typeclasses eauto..|apply generic_format_0|auto]. Qed.
Lemma rnd64_le : forall r s, generic_format radix2 fx64 s -> r <= s -> rnd64 r <= s.
Proof. intros r s H HR. unfold rnd64. apply round_le_generic; [typeclasses eauto..|auto|auto]. Qed.
Lemma big64 : forall e, (e < 1024)%Z -> P e < P f64_emax.
Proof. intros. apply bpow_lt. auto. Qed.
Lemma wide : forall r, generic_format radix2 fx r -> generic_format radix2 fx64 r.
Proof. intros r. apply generic_inclusion_mag. intros _. unfold SpecFloat.fexp, SpecFloat.emin, f64_prec, f64_emax, f32_prec, f32_emax. lia. Qed.
(** float to double is exact *)
Lemma up : forall x, good_f x -> gf64 (f64_of_f32 x) /\ V (f64_of_f32 x) = V x.
Proof.
  intros x (Hx & Fx). assert (E : rnd64 (V x) = V x) by (apply round_generic; [typeclasses eauto|apply wide; apply V_format; auto]).
  destruct (g_convert f64_prec f64_emax Hp64 Hm64 x Fx) as (A & B). { change (Rabs (rnd64 (V x)) < P f64_emax). rewrite E. pose proof (V_big x Hx). pose proof (big64 128 ltac:(lia)). unfold big, f32_emax in *. lra. }
  split; [exact A|]. etransitivity; [exact B|exact E].
Qed.
(** double to float *)
Lemma down : forall y e, (-149 <= e < 128)%Z -> gf64 y -> Rabs (V y) <= P e -> bnd e (f32_of_f64 y) /\ V (f32_of_f64 y) = rnd (V y).
Proof.
  intros y e He (Hy & Fy) HB. destruct (g_convert f32_prec f32_emax Hp32 Hm32 y Fy) as (A & B); [apply (fin_by (V y) e He HB)|].
  change (V (f32_of_f64 y) = rnd (V y)) in B. split; [|exact B]. split; [exact A|]. rewrite B. apply rnd_P; [lia|auto].
Qed.
Lemma one64 : V (f64_of_Z 1) = 1.
Proof.
  assert (E : f64_of_Z 1 = S754_finite false 4503599627370496 (-52)) by (vm_compute; reflexivity). rewrite E. change (IZR 4503599627370496 * P (-52) = 1). change (IZR 4503599627370496) with (P 52). rewrite <- bpow_plus. reflexivity.
Qed.
(** 1 - p for a p from 0 to 1 - 2^-10 *)
Lemma rest : forall p, gf64 p -> 0 <= V p <= 1 - P (-10) -> gf64 (SFsub f64_prec f64_emax (f64_of_Z 1) p) /\ P (-10) <= V (SFsub f64_prec f64_emax (f64_of_Z 1) p).
Proof.
  intros p Gp Hp. assert (G1 : gf64 (f64_of_Z 1)) by (split; reflexivity). pose proof one64 as V1.
  pose proof (P_pos (-10)) as P10. destruct (g_sub_to f64_prec f64_emax Hp64 Hm64 _ _ G1 Gp) as (A & B).
  { change (Rabs (rnd64 (V (f64_of_Z 1) - V p)) < P f64_emax). rewrite V1. eapply Rle_lt_trans; [apply (rnd64_P _ 0); [lia|]|apply big64; lia]. rewrite Rabs_pos_eq by lra. change (P 0) with 1. lra. }
  split; [exact A|]. rewrite B, V1. apply rnd64_ge; [lia|lra].
Qed.
(** x / (1 - p) *)
Lemma corr_bnd : forall x p a, (-139 <= a < 118)%Z -> bnd a x -> gf64 p -> 0 <= V p <= 1 - P (-10) ->
  bnd (a + 10) (f32_of_f64 (SFdiv f64_prec f64_emax (f64_of_f32 x) (SFsub f64_prec f64_emax (f64_of_Z 1) p))) /\
  (0 <= V x -> 0 <= V (f32_of_f64 (SFdiv f64_prec f64_emax (f64_of_f32 x) (SFsub f64_prec f64_emax (f64_of_Z 1) p)))).
Proof.
  intros x p a Ha (Gx & Lx) Gp Hp. destruct (rest p Gp Hp) as (Gd & Ld). set (d := SFsub f64_prec f64_emax (f64_of_Z 1) p) in *. destruct (up x Gx) as (Gu & Vu). pose proof (P_pos (-10)) as P10.
  assert (LQ : Rabs (V (f64_of_f32 x) / V d) <= P (a + 10)).
  { rewrite Vu. unfold Rdiv. rewrite Rabs_mult, Rabs_inv, (Rabs_pos_eq (V d)) by lra. apply Rmult_le_reg_r with (V d); [lra|]. rewrite Rmult_assoc, Rinv_l by lra. rewrite Rmult_1_r.
    eapply Rle_trans; [exact Lx|]. replace (P a) with (P (a + 10) * P (-10)) by (rewrite <- bpow_plus; f_equal; lia). apply Rmult_le_compat_l; [apply Rlt_le, P_pos|auto]. }
  destruct (g_div_to f64_prec f64_emax Hp64 Hm64 _ _ Gu Gd ltac:(lra)) as (A & B). { change (Rabs (rnd64 (V (f64_of_f32 x) / V d)) < P f64_emax). eapply Rle_lt_trans; [apply (rnd64_P _ (a + 10)); [lia|exact LQ]|apply big64; lia]. }
  fold (rnd64 (V (f64_of_f32 x) / V d)) in B. destruct (down _ (a + 10) ltac:(lia) A) as (C & D). { rewrite B. apply rnd64_P; [lia|exact LQ]. }
  split; [exact C|]. intros HX. rewrite D. apply rnd_nonneg. rewrite B. apply rnd64_nonneg. rewrite Vu. apply Rmult_le_pos; [auto|]. apply Rlt_le, Rinv_0_lt_compat. lra.
Qed.
Lemma corr_inf : forall p, gf64 p -> 0 <= V p <= 1 - P (-10) -> f32_of_f64 (SFdiv f64_prec f64_emax (f64_of_f32 (S754_infinity false)) (SFsub f64_prec f64_emax (f64_of_Z 1) p)) = S754_infinity false.
Proof.
  intros p Gp Hp. destruct (rest p Gp Hp) as (Gd & Ld). set (d := SFsub f64_prec f64_emax (f64_of_Z 1) p) in *. pose proof (P_pos (-10)) as P10. destruct Gd as (_ & Fd).
  destruct d as [s|s| |s m e]; try discriminate Fd; [change (V (S754_zero s)) with 0 in Ld; lra|]. destruct s; [|reflexivity].
  exfalso. assert (V (S754_finite true m e) < 0); [|lra]. unfold SF2R. apply F2R_lt_0. reflexivity.
Qed.
(** ** Powers *)
Lemma pow_decay : forall f b n, pow_like f -> decay_ok b -> (1 <= n)%Z -> gf64 (f b n) /\ 0 <= V (f b n) <= 1 - P (-10) /\ decay_ok (f32_of_f64 (f b n)).
Proof.
  intros f b n HF (Hb & Fb & Lb) Hn. pose proof (P_pos (-10)) as P10. destruct (HF b n) as (A & B & C); [split; [exact Hb|split; [apply finite_fin; exact Fb|rewrite value_V; change (P (-10)) with (/ 1024) in *; lra]]|auto|].
  apply finite_fin in B. rewrite !value_V in C. assert (G : gf64 (f b n)) by (split; auto). split; [exact G|]. split; [lra|].
  destruct (down (f b n) 0 ltac:(lia) G) as (((D1 & D2) & _) & D3); [rewrite Rabs_pos_eq by lra; change (P 0) with 1; lra|]. split; [auto|]. split; [auto|]. rewrite D3. split; [apply rnd_nonneg; lra|].
  apply Rle_trans with (V b); [|lra]. apply rnd_up; [auto|lra].
Qed.
(** Repeated multiplication in binary64 is such a power. *)
Lemma pow64_like : pow_like pow64.
Proof.
  intros b n (Hb & Fb & Lb) Hn. apply finite_fin in Fb. rewrite value_V in Lb |- *. destruct (up b (conj Hb Fb)) as (Gu & Vu). unfold pow64. set (u := f64_of_f32 b) in *.
  assert (F1 : generic_format radix2 fx64 (V b)) by (apply wide, V_format; auto). assert (Q : 0 < / 2 ^ 10) by (apply Rinv_0_lt_compat; lra).
  assert (STEP : forall q, gf64 q -> 0 <= V q <= 1 -> gf64 (SFmul f64_prec f64_emax u q) /\ 0 <= V (SFmul f64_prec f64_emax u q) <= V b).
  { intros q Gq Lq. destruct (g_mul_to f64_prec f64_emax Hp64 Hm64 u q Gu Gq) as (A & B).
    - change (Rabs (rnd64 (V u * V q)) < P f64_emax). eapply Rle_lt_trans; [apply (rnd64_P _ 0); [lia|]|apply big64; lia]. rewrite Vu, Rabs_pos_eq; [change (P 0) with 1; nra|nra].
    - split; [exact A|]. rewrite B. fold (rnd64 (V u * V q)). rewrite Vu. split; [apply rnd64_nonneg; nra|apply rnd64_le; [auto|nra]]. }
  assert (ALL : forall k, gf64 (f64_pow_nat u k) /\ 0 <= V (f64_pow_nat u k) <= 1).
  { induction k as [|k (IG & IL)]; cbn [f64_pow_nat]; [split; [split; reflexivity|rewrite one64; lra]|]. destruct (STEP _ IG IL) as (A & B). split; [exact A|lra]. }
  destruct (Z.to_nat n) as [|k] eqn:EK; [lia|]. cbn [f64_pow_nat]. destruct (ALL k) as (A & B). destruct (STEP _ A B) as ((C1 & C2) & D). split; [exact C1|]. split; [apply finite_fin; exact C2|]. rewrite value_V. exact D.
Qed.
