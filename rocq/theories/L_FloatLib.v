(** * A correctly rounded math library, and float32 backward passes *)
From Coq Require Import Reals Lra SpecFloat.
From Flocq Require Import Core BinarySingleNaN.
From Verif Require Import Base Scalar Types Spec SpecNN SpecR SpecF32 M_Shape M_Tensor M_Adv M_Act L_Index L_Tensor L_RSum L_Act L_ActR L_Float L_FloatAct.
Local Open Scope R_scope.
#[local] Existing Instance Hp32.
#[local] Existing Instance Hm32.
Local Notation B32 := (binary_float f32_prec f32_emax).
Local Notation V := (SF2R radix2).
Local Notation fx := (SpecFloat.fexp f32_prec f32_emax).
Local Notation fadd := (SFadd f32_prec f32_emax).
Local Notation fsub := (SFsub f32_prec f32_emax).
Local Notation fmul := (SFmul f32_prec f32_emax).

(** The float nearest to a real number. *)
Definition near32 (r : R) : f32 := SpecFloat.binary_normalize f32_prec f32_emax (ZnearestE (scaled_mantissa radix2 fx r)) (cexp radix2 fx r) false.
Lemma near32_vok : forall r, vok (near32 r).
Proof. intros r. unfold near32. rewrite normalize_equiv. apply vokB. Qed.
Lemma rnd_rnd : forall r, rnd (rnd r) = rnd r.
Proof. intros r. apply round_generic; [typeclasses eauto|]. apply generic_format_round; typeclasses eauto. Qed.
Lemma near32_in : forall r, Rabs (rnd r) < big -> fin (near32 r) /\ V (near32 r) = rnd r.
Proof.
  intros r HB. unfold near32. rewrite normalize_equiv, finB, VB. pose proof (binary_normalize_correct f32_prec f32_emax Hp32 Hm32 mode_NE (ZnearestE (scaled_mantissa radix2 fx r)) (cexp radix2 fx r) false) as C.
  cbv zeta in C. change (round radix2 fx (round_mode mode_NE) (F2R (Float radix2 (ZnearestE (scaled_mantissa radix2 fx r)) (cexp radix2 fx r)))) with (rnd (rnd r)) in C. rewrite rnd_rnd in C.
  rewrite Rlt_bool_true in C by exact HB. split; apply C.
Qed.
Lemma near32_over : forall r, big <= rnd r -> near32 r = S754_infinity false.
Proof.
  intros r HB. unfold near32. rewrite normalize_equiv. pose proof (binary_normalize_correct f32_prec f32_emax Hp32 Hm32 mode_NE (ZnearestE (scaled_mantissa radix2 fx r)) (cexp radix2 fx r) false) as C.
  cbv zeta in C. change (round radix2 fx (round_mode mode_NE) (F2R (Float radix2 (ZnearestE (scaled_mantissa radix2 fx r)) (cexp radix2 fx r)))) with (rnd (rnd r)) in C. rewrite rnd_rnd in C.
  change (F2R (Float radix2 (ZnearestE (scaled_mantissa radix2 fx r)) (cexp radix2 fx r))) with (rnd r) in C. assert (P : 0 < big) by apply bpow_gt_0.
  rewrite Rlt_bool_false in C by (fold big; rewrite Rabs_pos_eq; lra). rewrite C, overflow_inf. f_equal. apply Rlt_bool_false. lra.
Qed.
Lemma rnd_big : forall r, big <= r -> big <= rnd r.
Proof.
  intros r H. rewrite <- (round_generic radix2 fx ZnearestE big); [apply rnd_le; auto|]. apply generic_format_bpow. vm_compute. discriminate.
Qed.

(** exp, log and tanh rounded to nearest. *)
Definition cr_exp (x : f32) : f32 :=
  match x with S754_zero _ => f32_of_Z 1 | S754_infinity s => if s then S754_zero false else S754_infinity false | S754_nan => S754_nan | _ => near32 (exp (f32_value x)) end.
Definition cr_log (x : f32) : f32 :=
  match x with
  | S754_zero _ => S754_infinity true | S754_infinity s => if s then S754_nan else S754_infinity false | S754_nan => S754_nan
  | S754_finite s _ _ => if s then S754_nan else near32 (ln (f32_value x)) end.
Definition cr_tanh (x : f32) : f32 :=
  match x with S754_zero s => S754_zero s | S754_infinity s => f32_of_Z (if s then -1 else 1) | S754_nan => S754_nan | _ => near32 (tanh (f32_value x)) end.
Definition cr_libm : libm := Build_libm cr_exp cr_log cr_tanh pow64.
Lemma big_128 : big = 2 ^ 128.
Proof. unfold big, f32_emax. rewrite bpow_powerRZ. reflexivity. Qed.
Lemma exp_ge_pow : forall n, 2 ^ n <= exp (INR n).
Proof.
  induction n as [|n IH]; [cbn; rewrite exp_0; lra|]. rewrite S_INR, exp_plus. cbn [pow]. pose proof (exp_ineq1 1 ltac:(lra)). assert (0 < 2 ^ n) by (apply pow_lt; lra). nra.
Qed.
Lemma rnd_unit : forall r, 0 <= r <= 1 -> 0 <= rnd r <= 1.
Proof. intros r H. pose proof V_one as E. split; [rewrite <- rnd_0; apply rnd_le; lra|]. rewrite <- E. apply rnd_up; [apply of_Z_vok|lra]. Qed.
Lemma small_big : forall r, Rabs r <= 1 -> Rabs r < big.
Proof. intros r H. pose proof big_gt. assert (1 <= 2 ^ 100) by (apply pow_R1_Rle; lra). lra. Qed.
Lemma cr_exp_like : exp_like cr_exp.
Proof.
  assert (Fl : forall x, f32_valid x -> f32_finite x -> (exists s, x = S754_zero s) \/ cr_exp x = near32 (exp (f32_value x))) by (intros [s|s| |s m e] _ HF; cbn in *; try tauto; left; eauto).
  constructor.
  - intros [s|[|]| |s m e] H; cbn [cr_exp]; try reflexivity. apply near32_vok.
  - reflexivity.
  - reflexivity.
  - intros x H F L. destruct (Fl x H F) as [[s ->]|E].
    + cbn [cr_exp]. rewrite finite_fin, value_V, V_one. split; [reflexivity|lra].
    + rewrite E. assert (HU : 0 <= exp (f32_value x) <= 1). { pose proof (exp_pos (f32_value x)). split; [lra|]. rewrite <- exp_0. destruct L as [L|L]; [left; apply exp_increasing; auto|rewrite L; lra]. }
      pose proof (rnd_unit _ HU) as HR. destruct (near32_in (exp (f32_value x))) as (A & B); [apply small_big; rewrite Rabs_pos_eq; lra|]. rewrite finite_fin, (value_V (near32 _)), B. auto.
  - intros x H F L. destruct (Fl x H F) as [[s ->]|E].
    + right. cbn [cr_exp]. rewrite finite_fin, value_V, V_one. split; [reflexivity|lra].
    + rewrite E. assert (HU : 1 <= exp (f32_value x)). { rewrite <- exp_0. destruct L as [L|L]; [left; apply exp_increasing; auto|rewrite <- L; lra]. }
      assert (HR : 1 <= rnd (exp (f32_value x))) by (rewrite <- V_one; apply rnd_down; [apply of_Z_vok|rewrite V_one; auto]).
      destruct (Rlt_dec (rnd (exp (f32_value x))) big) as [HB|HB].
      * right. destruct (near32_in (exp (f32_value x))) as (A & B); [rewrite Rabs_pos_eq; lra|]. rewrite finite_fin, (value_V (near32 _)), B. auto.
      * left. apply near32_over. lra.
  - intros x H F L. destruct (Fl x H F) as [[s ->]|E]; [cbn in L; lra|]. rewrite E. apply near32_over, rnd_big. rewrite big_128. eapply Rle_trans; [apply exp_ge_pow|].
    replace (INR 128) with 128 by (rewrite INR_IZR_INZ; reflexivity). destruct L as [L|L]; [left; apply exp_increasing; auto|rewrite <- L; lra].
Qed.
Lemma cr_exp_monotone : exp_monotone cr_exp.
Proof.
  assert (Fl : forall x, f32_finite x -> f32_value x <= 0 -> f32_value (cr_exp x) = rnd (exp (f32_value x))).
  { intros x HF L. destruct x as [s|s| |s m e]; try destruct HF.
    - cbn [cr_exp f32_value]. rewrite value_V, exp_0. rewrite <- V_one. symmetry. apply rnd_V, of_Z_vok.
    - set (x := S754_finite s m e) in *. change (cr_exp x) with (near32 (exp (f32_value x))). rewrite (value_V (near32 _)). apply near32_in. apply small_big.
      assert (HU : 0 <= exp (f32_value x) <= 1). { pose proof (exp_pos (f32_value x)). split; [lra|]. rewrite <- exp_0. destruct L as [L|L]; [left; apply exp_increasing; auto|rewrite L; lra]. }
      pose proof (rnd_unit _ HU). rewrite Rabs_pos_eq; lra. }
  intros x y Hx Fx Hy Fy L L0. rewrite !Fl by (auto; lra). apply rnd_le. destruct L as [L|L]; [left; apply exp_increasing; auto|rewrite L; lra].
Qed.
Lemma ln_le_self : forall v, 1 <= v -> 0 <= ln v <= v.
Proof.
  intros v H. split.
  - rewrite <- ln_1. destruct H as [H|H]; [left; apply ln_increasing; lra|rewrite H; lra].
  - rewrite <- (ln_exp v) at 2. left. apply ln_increasing; [lra|]. pose proof (exp_ineq1 v ltac:(lra)). lra.
Qed.
Lemma cr_log_like : log_like cr_log.
Proof.
  constructor.
  - intros [s|[|]| |[|] m e] H; cbn [cr_log]; try reflexivity. apply near32_vok.
  - reflexivity.
  - intros x H F L. destruct x as [s|s| |s m e]; try (cbn in L, F; lra || tauto). set (x := S754_finite s m e) in *. destruct s.
    { exfalso. rewrite value_V in L. assert (V x <= 0) by (apply F2R_le_0; cbn; lia). lra. }
    change (cr_log x) with (near32 (ln (f32_value x))). destruct (ln_le_self _ L) as [L0 L1]. rewrite (value_V x) in *.
    assert (A : Rabs (ln (V x)) <= Rabs (V x)) by (rewrite !Rabs_pos_eq; lra). destruct (near32_in _ (in_big _ x H A)) as (B & C). rewrite finite_fin, (value_V (near32 _)), C. split; [auto|]. rewrite <- rnd_0. apply rnd_le. auto.
Qed.
Lemma cr_tanh_like : tanh_like cr_tanh.
Proof.
  assert (U : forall r, -1 <= r <= 1 -> -1 <= rnd r <= 1).
  { intros r H. pose proof (rnd_abs r (f32_of_Z 1) (of_Z_vok 1)) as A. rewrite V_one, Rabs_R1 in A. apply Rabs_le_inv, A, Rabs_le. auto. }
  assert (N : forall r, fin (near32 (tanh r)) /\ V (near32 (tanh r)) = rnd (tanh r)). { intros r. apply near32_in, small_big, Rabs_le, U. pose proof (tanh_range r). lra. }
  constructor.
  - intros [s|[|]| |s m e] H; cbn [cr_tanh]; try reflexivity. apply near32_vok.
  - reflexivity.
  - intros x H F. destruct x as [s|s| |s m e]; try destruct F; [cbn; split; [auto|lra]|]. set (x := S754_finite s m e). change (cr_tanh x) with (near32 (tanh (f32_value x))). destruct (N (f32_value x)) as [A B].
    rewrite finite_fin, (value_V (near32 _)), B. split; [auto|]. apply U. pose proof (tanh_range (f32_value x)). lra.
  - intros x H F L. destruct x as [s|s| |s m e]; try destruct F; [cbn; lra|]. set (x := S754_finite s m e) in *. change (cr_tanh x) with (near32 (tanh (f32_value x))). destruct (N (f32_value x)) as [A B].
    rewrite (value_V (near32 _)), B. rewrite <- rnd_0. apply rnd_le. unfold tanh, sinh. pose proof (cosh_pos (f32_value x)). apply Rmult_le_pos; [|left; apply Rinv_0_lt_compat; auto].
    assert (exp (- f32_value x) <= exp (f32_value x)). { destruct L as [L|L]; [left; apply exp_increasing; lra|rewrite <- L, Ropp_0; lra]. } lra.
Qed.
Lemma cr_libm_like : libm_like cr_libm.
Proof. constructor; [apply cr_exp_like|apply cr_log_like|apply cr_tanh_like]. Qed.

(** ** Backward passes *)
Lemma mul_within : forall a b, within 0 1 a -> within 0 1 b -> within 0 1 (fmul a b).
Proof.
  intros a b (Ha & Fa & La) WB. destruct (mul_unit a b Ha Fa WB) as (F & H & L). destruct WB as (Hb & Fb & Lb). destruct (mul_fin a b Ha Hb F) as (_ & _ & E). split; [auto|]. split; [auto|].
  rewrite E in *. assert (0 <= rnd (V a * V b)) by (rewrite <- rnd_0; apply rnd_le, Rmult_le_pos; lra). rewrite !Rabs_pos_eq in L by lra. lra.
Qed.
Lemma sub_within : forall a, within 0 1 a -> within 0 1 (fsub (f32_of_Z 1) a).
Proof.
  intros a (Ha & Fa & La). pose proof (rnd_unit (1 - V a) ltac:(lra)) as U. destruct (sub_in (f32_of_Z 1) a) as (A & B); auto using of_Z_vok, one_fin; [rewrite V_one; apply small_big; rewrite Rabs_pos_eq; lra|].
  split; [apply sub_vok; auto using of_Z_vok|]. split; [auto|]. rewrite B, V_one. auto.
Qed.
(** Adding a number at most one in absolute value does not overflow. *)
Lemma add_small : forall a x, vok a -> fin a -> Rabs (V a) <= 1 -> vok x -> fin x -> good_f (fadd a x).
Proof.
  intros a x Ha Fa La Hx Fx. split; [apply add_vok; auto|]. apply add_in; auto. pose proof (near (V a + V x) x Hx) as N. replace (V x - (V a + V x)) with (- V a) in N by ring. rewrite Rabs_Ropp in N.
  pose proof (max_le x Hx) as M. replace (rnd (V a + V x)) with ((rnd (V a + V x) - (V a + V x)) + V a + V x) by ring. eapply Rle_lt_trans; [apply Rabs_triang|].
  pose proof (Rabs_triang (rnd (V a + V x) - (V a + V x)) (V a)). assert (2 < bpow radix2 104). { rewrite bpow_powerRZ. change (IZR radix2) with 2. change (powerRZ 2 104) with (2 ^ 104). replace 2 with (2 ^ 1) at 1 by ring. apply Rlt_pow; [lra|lia]. } lra.
Qed.
Lemma mul_number : forall a b, good_f a -> good_f b -> vok (fmul a b) /\ fmul a b <> S754_nan.
Proof.
  intros a b [Ha Fa] [Hb Fb]. split; [apply mul_vok; auto|]. intros E. destruct (of_valid a Ha) as [ba <-]. destruct (of_valid b Hb) as [bb <-]. rewrite finB in *. rewrite mul_equiv in E.
  pose proof (Bmult_correct _ _ _ _ mode_NE ba bb) as C. destruct (Rlt_bool _ _).
  - destruct C as (_ & C & _). rewrite Fa, Fb in C. destruct (Bmult mode_NE ba bb); cbn in *; discriminate.
  - rewrite C in E. discriminate.
Qed.
Lemma within_good : forall lo hi x, within lo hi x -> good_f x.
Proof. intros lo hi x (A & B & _). split; auto. Qed.
(** A factor in [-1, 1]. *)
Lemma mul_shrink : forall t g, good_f t -> Rabs (V t) <= 1 -> good_f g -> within (- Rabs (V g)) (Rabs (V g)) (fmul t g).
Proof.
  intros t g [Ht Ft] L [Hg Fg]. assert (Q : Rabs (V t * V g) <= Rabs (V g)) by (rewrite Rabs_mult; pose proof (Rabs_pos (V g)); nra).
  pose proof (mul_in t g Ht Hg Ft Fg (in_big _ _ Hg Q)) as F1. split; [apply mul_vok; auto|]. split; [auto|]. destruct (mul_fin t g Ht Hg F1) as (_ & _ & E). rewrite E. apply Rabs_le_inv. apply rnd_abs; auto.
Qed.
Lemma within_abs : forall t, within 0 1 t -> Rabs (V t) <= 1.
Proof. intros t (_ & _ & L). rewrite Rabs_pos_eq; lra. Qed.

Section Act.
Variable lm : libm.
Let SF : Scalar f32 := F32Scalar lm.
#[local] Existing Instance SF.
Hypothesis HL : libm_like lm.
Let HE := like_exp _ HL.
Local Notation sg := (@sigm f32 SF).

Lemma sig_slope : forall v, good_f v -> within 0 1 (fmul (sg v) (fadd (fmul (sg v) (f32_of_Z (-1))) (f32_of_Z 1))).
Proof.
  intros v [Hv Fv]. pose proof (sigm_in lm HE v Hv Fv) as W. apply mul_within; [exact W|]. set (s := sg v) in *. assert (W' : within 0 1 s) by exact W. destruct W' as (Hs & Fs & Ls).
  assert (Hm : vok (f32_of_Z (-1))) by apply of_Z_vok. assert (Em : V (f32_of_Z (-1)) = -1). { replace (f32_of_Z (-1)) with (SFopp (f32_of_Z 1)) by reflexivity. rewrite opp_V, V_one by apply of_Z_vok. ring. }
  assert (Q : Rabs (V s * V (f32_of_Z (-1))) <= Rabs (V s)) by (rewrite Em, Rabs_mult; replace (Rabs (-1)) with 1 by (rewrite Rabs_left; lra); lra).
  pose proof (mul_in s _ Hs Hm Fs eq_refl (in_big _ _ Hs Q)) as F1. destruct (mul_fin s _ Hs Hm F1) as (_ & _ & E1).
  assert (E2 : V (fmul s (f32_of_Z (-1))) = - V s). { rewrite E1, Em. replace (V s * -1) with (V (SFopp s)) by (rewrite opp_V by auto; ring). rewrite rnd_V by (apply opp_vok; auto). apply opp_V; auto. }
  pose proof (rnd_unit (1 - V s) ltac:(lra)) as U. assert (F2 : fin (fadd (fmul s (f32_of_Z (-1))) (f32_of_Z 1))).
  { apply add_in; auto using mul_vok, of_Z_vok, one_fin. rewrite E2, V_one. replace (- V s + 1) with (1 - V s) by ring. apply small_big. rewrite Rabs_pos_eq; lra. }
  destruct (add_fin _ _ (mul_vok _ _ Hs Hm) (of_Z_vok 1) F2) as (_ & _ & E3). split; [apply add_vok; auto using mul_vok, of_Z_vok|]. split; [auto|]. rewrite E3, E2, V_one. replace (- V s + 1) with (1 - V s) by ring. auto.
Qed.
Lemma sig_back : forall v g, good_f v -> good_f g -> within (- Rabs (V g)) (Rabs (V g)) (fmul (fmul (sg v) (fadd (fmul (sg v) (f32_of_Z (-1))) (f32_of_Z 1))) g).
Proof. intros v g Gv Gg. pose proof (sig_slope v Gv) as W. apply mul_shrink; [apply (within_good 0 1); auto|apply within_abs; auto|auto]. Qed.
Lemma tanh_back : forall v g, good_f v -> good_f g -> within (- Rabs (V g)) (Rabs (V g)) (fmul (fsub (f32_of_Z 1) (fmul (m_tanh lm v) (m_tanh lm v))) g).
Proof.
  intros v g [Hv Fv] Gg. pose proof (tanh_valid _ (like_tanh _ HL) v Hv) as Ht. destruct (tanh_between _ (like_tanh _ HL) v Hv) as [Ft Lt]; [apply finite_fin; auto|]. rewrite finite_fin in Ft. rewrite value_V in Lt.
  set (t := m_tanh lm v) in *. assert (Wt : within 0 1 (fmul t t)).
  { assert (Q : Rabs (V t * V t) <= Rabs (V t)) by (rewrite Rabs_mult; assert (Rabs (V t) <= 1) by (apply Rabs_le; auto); pose proof (Rabs_pos (V t)); nra).
    pose proof (mul_in t t Ht Ht Ft Ft (in_big _ _ Ht Q)) as F1. destruct (mul_fin t t Ht Ht F1) as (_ & _ & E). split; [apply mul_vok; auto|]. split; [auto|]. rewrite E. apply rnd_unit. nra. }
  pose proof (sub_within _ Wt) as W. apply mul_shrink; [apply (within_good 0 1); auto|apply within_abs; auto|auto].
Qed.
Lemma relu_back : forall v g, good_f g -> within (- Rabs (V g)) (Rabs (V g)) (fmul (if s_lt zero v then one else zero) g).
Proof.
  intros v g Gg. apply mul_shrink; auto; destruct (s_lt zero v).
  - split; reflexivity.
  - split; reflexivity.
  - change (V one) with (V (f32_of_Z 1)). rewrite V_one, Rabs_R1. lra.
  - change (V zero) with 0. rewrite Rabs_R0. lra.
Qed.
Lemma leaky_back : forall al v g, good_f al -> Rabs (V al) <= 1 -> good_f g -> within (- Rabs (V g)) (Rabs (V g)) (if s_le zero v then g else fmul al g).
Proof.
  intros al v g Ga La Gg. destruct (s_le zero v); [|apply mul_shrink; auto]. destruct Gg. split; [auto|]. split; [auto|]. apply Rabs_le_inv. lra.
Qed.
Lemma good_mul : forall x t, good_f x -> within 0 1 t -> good_f (fmul x t).
Proof. intros x t [Hx Fx] W. destruct (mul_unit x t Hx Fx W) as (A & B & _). split; auto. Qed.
Lemma swish_back : forall v g, good_f v -> good_f g -> let r := fmul g (fmul (sg v) (fadd (f32_of_Z 1) (fmul v (fsub (f32_of_Z 1) (sg v))))) in vok r /\ r <> S754_nan.
Proof.
  intros v g Gv Gg. apply mul_number; [auto|]. pose proof (sigm_in lm HE v (proj1 Gv) (proj2 Gv)) as W. pose proof (good_mul v _ Gv (sub_within _ W)) as G1.
  assert (G2 : good_f (fadd (f32_of_Z 1) (fmul v (fsub (f32_of_Z 1) (sg v))))). { apply add_small; try apply G1; auto using of_Z_vok, one_fin. rewrite V_one, Rabs_R1. lra. }
  apply (within_good (- Rabs (V (fadd (f32_of_Z 1) (fmul v (fsub (f32_of_Z 1) (sg v)))))) (Rabs (V (fadd (f32_of_Z 1) (fmul v (fsub (f32_of_Z 1) (sg v))))))).
  apply mul_shrink; [apply (within_good 0 1); exact W|apply within_abs; exact W|auto].
Qed.
Lemma mish_back : forall v g, good_f v -> good_f g -> let th := m_tanh lm (softplus v) in
  let r := fmul g (fadd th (fmul (fmul v (fsub (f32_of_Z 1) (fmul th th))) (sg v))) in vok r /\ r <> S754_nan.
Proof.
  intros v g Gv Gg th. apply mul_number; [auto|]. pose proof (sigm_in lm HE v (proj1 Gv) (proj2 Gv)) as W.
  assert (WT : within 0 1 th) by exact (mish_unit lm HE (like_log _ HL) (like_tanh _ HL) v (proj1 Gv) (proj2 Gv)).
  assert (G2 : good_f (fmul (fmul v (fsub (f32_of_Z 1) (fmul th th))) (sg v))) by (apply good_mul; [apply good_mul; [auto|apply sub_within, mul_within; exact WT]|exact W]).
  apply add_small; try apply G2; try apply WT. apply within_abs. exact WT.
Qed.
(** Softmax keeps the order of its inputs if exp does. *)
Lemma softmax_order : exp_monotone (m_exp lm) -> forall l v w, Forall good_f l -> In v l -> In w l -> V v <= V w -> V (softmax_of l v) <= V (softmax_of l w).
Proof.
  intros HM l v w HF Hv Hw L. assert (N : l <> []) by (intros ->; destruct Hv). destruct (softmax_parts lm HE l N HF) as (HW & (Hs & Fs & Bs)). destruct (list_max_props lm l N HF) as (IM & LE). rewrite Forall_forall in HF, LE.
  set (m := list_max l) in *. assert (Gm : good_f m) by auto. assert (Gv : good_f v) by auto. assert (Gw : good_f w) by auto.
  destruct (exp_shift_in lm HE v m Gv Gm (LE v Hv)) as ((Hn & Fn & Bn) & _). destruct (exp_shift_in lm HE w m Gw Gm (LE w Hw)) as ((Hn' & Fn' & Bn') & _).
  change (softmax_of l v) with (f32_div (m_exp lm (fsub v m)) (fsum (map (fun w => m_exp lm (fsub w m)) l))). change (softmax_of l w) with (f32_div (m_exp lm (fsub w m)) (fsum (map (fun w => m_exp lm (fsub w m)) l))).
  set (s := fsum (map (fun w => m_exp lm (fsub w m)) l)) in *.
  assert (Hs' : vok s) by exact Hs. assert (Bs' : 1 <= V s <= 2 ^ 24) by exact Bs. assert (LN : V (m_exp lm (fsub v m)) <= V (m_exp lm (fsub w m))).
  { destruct (sub_below v m Gv Gm (LE v Hv)) as [E|(F1 & L1 & _)]; [rewrite E, (exp_at_inf _ HE); change (V (S754_zero false)) with 0; apply Bn'|].
    destruct (sub_fin v m) as (_ & _ & E1); try apply Gv; try apply Gm; auto. pose proof (LE w Hw) as Lw. pose proof (LE v Hv) as Lv. cbv beta in Lw, Lv.
    assert (O1 : rnd (V v - V m) <= rnd (V w - V m)) by (apply rnd_le; lra). assert (O2 : rnd (V w - V m) <= 0) by (rewrite <- rnd_0; apply rnd_le; lra).
    assert (HB : Rabs (rnd (V w - V m)) < big). { apply Rle_lt_trans with (Rabs (V (fsub v m))); [|apply V_big, sub_vok; [apply Gv|apply Gm]]. rewrite E1. rewrite !Rabs_left1 by lra. lra. }
    destruct (sub_in w m) as (F2 & E2); try apply Gw; try apply Gm; auto.
    rewrite <- !value_V. apply HM; try (apply finite_fin; auto).
    - apply sub_vok; [apply Gv|apply Gm].
    - apply sub_vok; [apply Gw|apply Gm].
    - rewrite !value_V, E1, E2. auto.
    - rewrite value_V, E2. auto. }
  destruct (div_unit (m_exp lm (fsub v m)) s) as (_ & D & _); auto; [lra|rewrite !Rabs_pos_eq; lra|]. destruct (div_unit (m_exp lm (fsub w m)) s) as (_ & D' & _); auto; [lra|rewrite !Rabs_pos_eq; lra|].
  rewrite D, D'. apply rnd_le. apply Rmult_le_compat_r; [left; apply Rinv_0_lt_compat; lra|auto].
Qed.
End Act.
