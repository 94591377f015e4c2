(** * Activations in float32 *)
From Coq Require Import Reals Lra SpecFloat.
From Flocq Require Import Core BinarySingleNaN.
From Verif Require Import Base Scalar Types Spec SpecNN SpecR SpecF32 M_Shape M_Tensor M_Adv M_Act L_Index L_Tensor L_RSum L_Act L_Float.
Local Open Scope R_scope.
#[local] Existing Instance Hp32.
#[local] Existing Instance Hm32.
Local Notation B32 := (binary_float f32_prec f32_emax).
Local Notation V := (SF2R radix2).
Local Notation fx := (SpecFloat.fexp f32_prec f32_emax).
Local Notation fadd := (SFadd f32_prec f32_emax).
Local Notation fsub := (SFsub f32_prec f32_emax).
Local Notation fmul := (SFmul f32_prec f32_emax).
Ltac unB := repeat match goal with H : vok ?x |- _ => let b := fresh "b" in destruct (of_valid x H) as [b <-]; clear H end.

Definition within (lo hi : R) (x : f32) : Prop := vok x /\ fin x /\ lo <= V x <= hi.
Lemma within_in : forall lo hi x, within lo hi x <-> f32_in lo hi x.
Proof. intros. unfold within, f32_in, f32_valid, vok. rewrite finite_fin, value_V. tauto. Qed.
Lemma rnd_up : forall r x, vok x -> r <= V x -> rnd r <= V x.
Proof. intros r x H L. rewrite <- (rnd_V x H). apply rnd_le. auto. Qed.
Lemma rnd_down : forall r x, vok x -> V x <= r -> V x <= rnd r.
Proof. intros r x H L. rewrite <- (rnd_V x H). apply rnd_le. auto. Qed.
Lemma rnd_abs : forall r x, vok x -> Rabs r <= Rabs (V x) -> Rabs (rnd r) <= Rabs (V x).
Proof.
  intros r x H L. assert (H' : vok (SFopp x)) by (apply opp_vok; auto). pose proof (opp_V x H) as E. apply Rabs_le.
  assert (A : exists y, vok y /\ V y = Rabs (V x)) by (destruct (Rle_dec 0 (V x)); [exists x; rewrite Rabs_pos_eq by auto|exists (SFopp x); rewrite Rabs_left by lra]; auto).
  destruct A as (y & Hy & Ey). rewrite <- Ey in *. pose proof (opp_V y Hy) as E2. pose proof (Rle_abs r). pose proof (Rle_abs (- r)) as A2. rewrite Rabs_Ropp in A2. split.
  - rewrite <- E2. apply rnd_down; [apply opp_vok; auto|lra].
  - apply rnd_up; [auto|lra].
Qed.
Lemma V_one : V (f32_of_Z 1) = 1.
Proof.
  replace (f32_of_Z 1) with (S754_finite false 8388608 (-23)) by reflexivity. rewrite <- value_V. unfold f32_value. change (powerRZ 2 (-23)) with (/ 2 ^ 23).
  replace (IZR 8388608) with (2 ^ 23) by (rewrite pow_IZR; f_equal). field.
Qed.
Lemma V_two : V (f32_of_Z 2) = 2.
Proof.
  replace (f32_of_Z 2) with (S754_finite false 8388608 (-22)) by reflexivity. rewrite <- value_V. unfold f32_value. change (powerRZ 2 (-22)) with (/ 2 ^ 22).
  replace (IZR 8388608) with (2 * 2 ^ 22) by (rewrite pow_IZR, <- mult_IZR; f_equal). field.
Qed.
Lemma one_fin : fin (f32_of_Z 1). Proof. reflexivity. Qed.
Lemma big_gt : 2 ^ 100 < big.
Proof. unfold big, f32_emax. rewrite bpow_powerRZ. change (IZR radix2) with 2. change (powerRZ 2 128) with (2 ^ 128). apply Rlt_pow; [lra|lia]. Qed.
Lemma in_big : forall r x, vok x -> Rabs r <= Rabs (V x) -> Rabs (rnd r) < big.
Proof. intros r x H L. eapply Rle_lt_trans; [apply (rnd_abs r x); auto|]. apply V_big. auto. Qed.
Lemma fin_zero : forall x, vok x -> fin x -> V x = 0 -> exists s, x = S754_zero s.
Proof.
  intros x H F E. destruct x as [s|s| |s m e]; [eauto|discriminate|discriminate|]. exfalso. unfold SF2R in E. apply eq_0_F2R in E. destruct s; discriminate.
Qed.
Lemma opp_fin : forall x, fin x -> fin (SFopp x).
Proof. intros [s|s| |s m e] H; exact H. Qed.
Lemma nonfin : forall x, ~ fin x -> x = S754_nan \/ exists s, x = S754_infinity s.
Proof. intros x H. destruct x; [exfalso; apply H; reflexivity|eauto|auto|exfalso; apply H; reflexivity]. Qed.
Lemma fin_dec : forall x, {fin x} + {~ fin x}.
Proof. intros x. unfold fin. destruct (is_finite_SF x); [left|right]; auto. Qed.

(** ** Comparison *)
Lemma ltb_V : forall x y, vok x -> vok y -> fin x -> fin y -> SFltb x y = Rlt_bool (V x) (V y).
Proof. intros x y Hx Hy Fx Fy. unB. rewrite finB in *. rewrite !VB. apply Bltb_correct; auto. Qed.

(** ** Adding one *)
Lemma max_le : forall x, vok x -> Rabs (V x) <= big - bpow radix2 104.
Proof. intros x H. unB. rewrite VB. apply abs_B2R_le_emax_minus_prec. reflexivity. Qed.
Lemma near : forall r x, vok x -> Rabs (rnd r - r) <= Rabs (V x - r).
Proof. intros r x H. destruct (round_N_pt radix2 fx (fun n => negb (Z.even n)) r) as [_ N]. apply N. apply V_format. auto. Qed.
Lemma add_one : forall x, vok x -> fin x -> 0 <= V x -> fin (fadd (f32_of_Z 1) x) /\ fin (fadd x (f32_of_Z 1)) /\
  V (fadd (f32_of_Z 1) x) = rnd (1 + V x) /\ V (fadd x (f32_of_Z 1)) = rnd (V x + 1) /\ 1 <= rnd (1 + V x) /\ V x <= rnd (1 + V x).
Proof.
  intros x H F P. pose proof (of_Z_vok 1) as H1. pose proof V_one as E1.
  assert (L1 : 1 <= rnd (1 + V x)) by (rewrite <- E1; apply rnd_down; [auto|lra]). assert (L2 : V x <= rnd (1 + V x)) by (apply rnd_down; [auto|lra]).
  assert (U : Rabs (rnd (1 + V x)) < big).
  { pose proof (near (1 + V x) x H) as N. replace (V x - (1 + V x)) with (-1) in N by ring. replace (Rabs (-1)) with 1 in N by (rewrite Rabs_left; lra). pose proof (max_le x H) as M. rewrite Rabs_pos_eq in M by auto.
    rewrite Rabs_pos_eq by lra. pose proof (Rle_abs (rnd (1 + V x) - (1 + V x))). assert (2 < bpow radix2 104). { rewrite bpow_powerRZ. change (IZR radix2) with 2. change (powerRZ 2 104) with (2 ^ 104). replace 2 with (2 ^ 1) at 1 by ring. apply Rlt_pow; [lra|lia]. } lra. }
  assert (F1 : fin (fadd (f32_of_Z 1) x)) by (apply add_in; auto using one_fin; rewrite E1; auto). assert (F2 : fin (fadd x (f32_of_Z 1))) by (apply add_in; auto using one_fin; rewrite E1, Rplus_comm; auto).
  split; [auto|]. split; [auto|]. split; [|split; [|auto]].
  - destruct (add_fin _ _ H1 H F1) as (_ & _ & E). rewrite E, E1. reflexivity.
  - destruct (add_fin _ _ H H1 F2) as (_ & _ & E). rewrite E, E1. reflexivity.
Qed.
(** A quotient at most one in absolute value is finite and at most one. *)
Lemma div_unit : forall x y, vok x -> vok y -> fin x -> V y <> 0 -> Rabs (V x) <= Rabs (V y) -> fin (f32_div x y) /\ V (f32_div x y) = rnd (V x / V y) /\ -1 <= V (f32_div x y) <= 1.
Proof.
  intros x y Hx Hy Fx Ny L. pose proof (of_Z_vok 1) as H1. pose proof V_one as E1. assert (P : 0 < Rabs (V y)) by (apply Rabs_pos_lt; auto).
  assert (Q : Rabs (V x / V y) <= 1). { unfold Rdiv. rewrite Rabs_mult, Rabs_inv. apply Rmult_le_reg_r with (Rabs (V y)); [auto|]. rewrite Rmult_assoc, Rinv_l by lra. lra. }
  assert (Q1 : Rabs (V x / V y) <= Rabs (V (f32_of_Z 1))) by (rewrite E1, Rabs_R1; auto).
  destruct (div_in x y Hx Hy Fx Ny (in_big _ _ H1 Q1)) as (F & E). split; [auto|]. split; [auto|]. rewrite E. pose proof (rnd_abs _ _ H1 Q1) as R. rewrite E1, Rabs_R1 in R. apply Rabs_le_inv in R. lra.
Qed.
Lemma mul_unit : forall x t, vok x -> fin x -> within 0 1 t -> fin (fmul x t) /\ vok (fmul x t) /\ Rabs (V (fmul x t)) <= Rabs (V x).
Proof.
  intros x t Hx Fx (Ht & Ft & L). assert (Q : Rabs (V x * V t) <= Rabs (V x)). { rewrite Rabs_mult. rewrite (Rabs_pos_eq (V t)) by lra. pose proof (Rabs_pos (V x)). nra. }
  pose proof (mul_in x t Hx Ht Fx Ft (in_big _ _ Hx Q)) as F. split; [auto|]. split; [apply mul_vok; auto|]. destruct (mul_fin x t Hx Ht F) as (_ & _ & E). rewrite E. apply rnd_abs; auto.
Qed.

Lemma sign_neg : forall b : B32, Bsign b = true -> B2R b <= 0.
Proof. intros [s|s| |s m e Hb] H; cbn [Bsign] in H; unfold B2R; try lra; subst s. apply F2R_le_0. cbn. lia. Qed.
Lemma sign_pos : forall b : B32, Bsign b = false -> 0 <= B2R b.
Proof. intros [s|s| |s m e Hb] H; cbn [Bsign] in H; unfold B2R; try lra; subst s. apply F2R_ge_0. cbn. lia. Qed.

Section Act.
Variable lm : libm.
Let SF : Scalar f32 := F32Scalar lm.
#[local] Existing Instance SF.
Hypothesis HE : exp_like (m_exp lm).
Local Notation ex := (m_exp lm).
Lemma ex_vok : forall x, vok x -> vok (ex x).
Proof. intros x. apply (exp_valid _ HE). Qed.
Lemma ex_below : forall x, vok x -> fin x -> V x <= 0 -> within 0 1 (ex x).
Proof. intros x H F L. apply within_in. split; [apply ex_vok; auto|]. apply (exp_below _ HE); [auto|apply finite_fin; auto|rewrite value_V; auto]. Qed.
Lemma ex_above : forall x, vok x -> fin x -> 0 <= V x -> ex x = S754_infinity false \/ (fin (ex x) /\ 1 <= V (ex x)).
Proof. intros x H F L. rewrite <- finite_fin, <- value_V. apply (exp_above _ HE); [auto|apply finite_fin; auto|rewrite value_V; auto]. Qed.
(** exp of a finite number is plus infinity or a non-negative finite number. *)
Lemma ex_any : forall x, vok x -> fin x -> ex x = S754_infinity false \/ (fin (ex x) /\ 0 <= V (ex x)).
Proof.
  intros x H F. destruct (Rle_dec (V x) 0) as [L|L]; [right; destruct (ex_below x H F L) as (_ & F1 & B); split; [auto|lra]|]. destruct (ex_above x H F) as [E|[F1 B]]; [lra|auto|right; split; [auto|lra]].
Qed.

Lemma sigm_in : forall x, vok x -> fin x -> within 0 1 (sigm x).
Proof.
  intros x H F. change (sigm x) with (f32_div (f32_of_Z 1) (fadd (f32_of_Z 1) (ex (SFopp x)))). assert (H' : vok (SFopp x)) by (apply opp_vok; auto). assert (F' : fin (SFopp x)) by (apply opp_fin; auto).
  pose proof (ex_vok _ H') as Hv. pose proof (of_Z_vok 1) as H1. destruct (ex_any _ H' F') as [->|[F1 P]].
  - split; [reflexivity|]. split; [reflexivity|]. change (0 <= 0 <= 1). lra.
  - destruct (add_one _ Hv F1 P) as (A1 & _ & A3 & _ & A5 & _). assert (Hd : vok (fadd (f32_of_Z 1) (ex (SFopp x)))) by (apply add_vok; auto).
    destruct (div_unit (f32_of_Z 1) (fadd (f32_of_Z 1) (ex (SFopp x)))) as (D1 & D2 & D3); auto using one_fin; [rewrite A3; lra|rewrite V_one, Rabs_R1, A3; rewrite Rabs_pos_eq; lra|].
    split; [apply div_vok; auto|]. split; [auto|]. split; [|lra]. rewrite D2. rewrite <- rnd_0. apply rnd_le. rewrite V_one, A3. apply Rmult_le_pos; [lra|]. apply Rlt_le, Rinv_0_lt_compat. lra.
Qed.
Lemma swish_in : forall x, vok x -> fin x -> within (- Rabs (V x)) (Rabs (V x)) (fmul x (sigm x)).
Proof. intros x H F. destruct (mul_unit x (sigm x) H F (sigm_in x H F)) as (A & B & C). split; [auto|]. split; [auto|]. apply Rabs_le_inv. auto. Qed.
Lemma mish_unit : log_like (m_log lm) -> tanh_like (m_tanh lm) -> forall x, vok x -> fin x -> within 0 1 (m_tanh lm (softplus x)).
Proof.
  intros HL HT x H F. change (softplus x) with (m_log lm (fadd (f32_of_Z 1) (ex x))). pose proof (ex_vok x H) as Hv. pose proof (of_Z_vok 1) as H1. apply within_in. destruct (ex_any x H F) as [->|[F1 P]].
    - change (fadd (f32_of_Z 1) (S754_infinity false)) with (S754_infinity false). rewrite (log_at_inf _ HL), (tanh_at_inf _ HT). apply within_in. split; [apply H1|]. split; [reflexivity|]. rewrite V_one. lra.
    - destruct (add_one _ Hv F1 P) as (A1 & _ & A3 & _ & A5 & _). assert (Hd : vok (fadd (f32_of_Z 1) (ex x))) by (apply add_vok; auto).
      destruct (log_above _ HL _ Hd) as (L1 & L2); [apply finite_fin; auto|rewrite value_V, A3; auto|]. pose proof (log_valid _ HL _ Hd) as Hl. destruct (tanh_between _ HT _ Hl L1) as (T1 & T2). pose proof (tanh_above _ HT _ Hl L1 L2) as T3.
      split; [apply (tanh_valid _ HT); auto|]. split; [auto|lra].
Qed.
Lemma mish_in : log_like (m_log lm) -> tanh_like (m_tanh lm) -> forall x, vok x -> fin x -> within (- Rabs (V x)) (Rabs (V x)) (fmul x (m_tanh lm (softplus x))).
Proof.
  intros HL HT x H F. destruct (mul_unit x _ H F (mish_unit HL HT x H F)) as (A & B & C). split; [auto|]. split; [auto|]. apply Rabs_le_inv. auto.
Qed.
(** Tanh's formula. *)
Definition tanh_formula (v : f32) : f32 := f32_div (fsub (ex (fmul v (f32_of_Z 2))) (f32_of_Z 1)) (fadd (ex (fmul v (f32_of_Z 2))) (f32_of_Z 1)).
Lemma tanh_fin : forall x, vok x -> fin (ex (fmul x (f32_of_Z 2))) -> 0 <= V (ex (fmul x (f32_of_Z 2))) -> within (-1) 1 (tanh_formula x).
Proof.
  intros x H F P. unfold tanh_formula. set (e := ex (fmul x (f32_of_Z 2))) in *. pose proof (of_Z_vok 1) as H1. assert (He : vok e) by (apply ex_vok, mul_vok; auto using of_Z_vok). destruct (add_one e He F P) as (_ & A2 & _ & A4 & A5 & A6).
  assert (S1 : Rabs (rnd (V e - 1)) <= rnd (V e + 1)).
  { apply Rabs_le. split; [|apply rnd_le; lra]. rewrite <- (Ropp_involutive (rnd (V e - 1))). apply Ropp_le_contravar. unfold rnd. rewrite <- round_NE_opp. apply rnd_le. lra. }
  assert (S2 : rnd (V e + 1) < big). { rewrite <- A4. eapply Rle_lt_trans; [apply Rle_abs|]. apply V_big. apply add_vok; auto. }
  destruct (sub_in e (f32_of_Z 1) He H1 F one_fin) as (B1 & B2); [rewrite V_one; lra|]. rewrite V_one in B2. rewrite Rplus_comm in A5.
  destruct (div_unit (fsub e (f32_of_Z 1)) (fadd e (f32_of_Z 1))) as (D1 & _ & D3); auto using sub_vok, add_vok; [rewrite A4; lra|rewrite B2, A4, (Rabs_pos_eq (rnd (V e + 1))); lra|].
  split; [apply div_vok; auto using sub_vok, add_vok|]. split; auto.
Qed.
Lemma dbl : forall x, vok x -> fin x -> fmul x (f32_of_Z 2) = S754_infinity false \/ fmul x (f32_of_Z 2) = S754_infinity true \/ (fin (fmul x (f32_of_Z 2)) /\ V (fmul x (f32_of_Z 2)) = rnd (V x * 2)).
Proof.
  intros x H F. assert (H2 : vok (f32_of_Z 2)) by apply of_Z_vok. destruct (fin_dec (fmul x (f32_of_Z 2))) as [D|D].
  - right. right. split; [auto|]. destruct (mul_fin _ _ H H2 D) as (_ & _ & E). rewrite E, V_two. reflexivity.
  - destruct (nonfin _ D) as [E|[[|] E]]; auto. exfalso. destruct (of_valid x H) as [b <-]. rewrite of_Z_equiv in E. rewrite mul_equiv in E. rewrite finB in F.
    pose proof (Bmult_correct _ _ _ _ mode_NE b (binary_normalize f32_prec f32_emax Hp32 Hm32 mode_NE 2 0 false)) as C. destruct (Rlt_bool _ _).
    + destruct C as (_ & C & _). rewrite F in C. rewrite of_Z_equiv, mul_equiv, finB in D. apply D. rewrite C. reflexivity.
    + rewrite C in E. discriminate.
Qed.
Lemma tanh_cases : forall x, vok x -> fin x -> (ex (fmul x (f32_of_Z 2)) = S754_infinity false /\ tanh_formula x = S754_nan) \/ within (-1) 1 (tanh_formula x).
Proof.
  intros x H F. assert (H2 : vok (f32_of_Z 2)) by apply of_Z_vok. assert (HD : vok (fmul x (f32_of_Z 2))) by (apply mul_vok; auto).
  assert (I : ex (fmul x (f32_of_Z 2)) = S754_infinity false -> tanh_formula x = S754_nan) by (intros E; unfold tanh_formula; rewrite E; reflexivity).
  destruct (dbl x H F) as [E|[E|[F1 E]]].
  - left. assert (E1 : ex (fmul x (f32_of_Z 2)) = S754_infinity false) by (rewrite E; apply (exp_at_inf _ HE)). auto.
  - right. assert (E1 : ex (fmul x (f32_of_Z 2)) = S754_zero false) by (rewrite E; apply (exp_at_inf _ HE)). apply tanh_fin; [auto|rewrite E1; reflexivity|rewrite E1; cbn; lra].
  - destruct (ex_any _ HD F1) as [E1|[F2 P]]; [left; auto|right]. apply tanh_fin; auto.
Qed.
Lemma tanh_nan : forall x, vok x -> fin x -> 64 <= V x -> tanh_formula x = S754_nan.
Proof.
  intros x H F L. assert (HD : vok (fmul x (f32_of_Z 2))) by (apply mul_vok; auto using of_Z_vok). assert (E1 : ex (fmul x (f32_of_Z 2)) = S754_infinity false); [|unfold tanh_formula; rewrite E1; reflexivity].
  destruct (dbl x H F) as [E|[E|[F1 E]]].
  - rewrite E. apply (exp_at_inf _ HE).
  - exfalso. destruct (of_valid x H) as [b <-]. rewrite of_Z_equiv, mul_equiv in E. rewrite finB in F. rewrite VB in L.
    pose proof (Bmult_correct _ _ _ _ mode_NE b (binary_normalize f32_prec f32_emax Hp32 Hm32 mode_NE 2 0 false)) as C. destruct (Rlt_bool _ _).
    + destruct C as (_ & C & _). rewrite F in C. destruct (Bmult _ _ _); cbn in *; discriminate.
    + rewrite C, overflow_inf in E. assert (SB : Bsign b = true) by (destruct (Bsign b); [reflexivity|discriminate E]). pose proof (sign_neg b SB). lra.
  - apply (exp_huge _ HE); [auto|apply finite_fin; auto|]. rewrite value_V, E. 
    replace 128 with (V (S754_finite false 8388608 (-16))).
    + apply rnd_down; [reflexivity|]. rewrite <- value_V. unfold f32_value. change (powerRZ 2 (-16)) with (/ 2 ^ 16). replace (IZR 8388608) with (128 * 2 ^ 16) by (rewrite pow_IZR, <- mult_IZR; f_equal). rewrite Rmult_1_l, Rmult_assoc, Rinv_r by (apply pow_nonzero; lra). lra.
    + rewrite <- value_V. unfold f32_value. change (powerRZ 2 (-16)) with (/ 2 ^ 16). replace (IZR 8388608) with (128 * 2 ^ 16) by (rewrite pow_IZR, <- mult_IZR; f_equal). rewrite Rmult_1_l, Rmult_assoc, Rinv_r by (apply pow_nonzero; lra). lra.
Qed.
Lemma relu_in : forall x, vok x -> fin x -> within 0 (Rabs (V x)) (s_max zero x).
Proof.
  intros x H F. unfold s_max. change (s_lt zero x) with (SFltb (f32_of_Z 0) x). rewrite ltb_V by (auto; reflexivity). change (V (f32_of_Z 0)) with 0. pose proof (Rabs_pos (V x)). destruct (Rlt_bool_spec 0 (V x)).
  - split; [auto|]. split; [auto|]. rewrite Rabs_pos_eq; lra.
  - split; [reflexivity|]. split; [reflexivity|]. cbn. lra.
Qed.
Lemma leaky_in : forall al x, vok al -> fin al -> Rabs (V al) <= 1 -> vok x -> fin x -> within (- Rabs (V x)) (Rabs (V x)) (if s_lt zero x then x else s_mul al x).
Proof.
  intros al x Ha Fa La H F. destruct (s_lt zero x).
  - split; [auto|]. split; [auto|]. apply Rabs_le_inv. lra.
  - change (s_mul al x) with (fmul al x). assert (Q : Rabs (V al * V x) <= Rabs (V x)) by (rewrite Rabs_mult; pose proof (Rabs_pos (V x)); nra).
    pose proof (mul_in al x Ha H Fa F (in_big _ _ H Q)) as F1. split; [apply mul_vok; auto|]. split; [auto|]. destruct (mul_fin al x Ha H F1) as (_ & _ & E). rewrite E. apply Rabs_le_inv. apply rnd_abs; auto.
Qed.

(** ** Softmax *)
Definition good_f (x : f32) : Prop := vok x /\ fin x.
Lemma max_props : forall l a, good_f a -> Forall good_f l -> let m := fold_left s_max l a in In m (a :: l) /\ V a <= V m /\ Forall (fun w => V w <= V m) l.
Proof.
  induction l as [|b l IH]; intros a Ga HF m; [subst m; cbn; split; [auto|split; [lra|constructor]]|]. inversion HF as [|? ? Gb HF']; subst. subst m. cbn [fold_left].
  assert (Gm : good_f (s_max a b) /\ (s_max a b = a \/ s_max a b = b) /\ V a <= V (s_max a b) /\ V b <= V (s_max a b)).
  { destruct Ga as [A1 A2], Gb as [B1 B2]. unfold s_max. change (s_lt a b) with (SFltb a b). rewrite ltb_V by auto. destruct (Rlt_bool_spec (V a) (V b)); (split; [split; auto|]); (split; [auto|]); lra. }
  destruct Gm as (G1 & G2 & G3 & G4). destruct (IH (s_max a b) G1 HF') as (I1 & I2 & I3). split; [|split; [lra|constructor; [lra|auto]]].
  destruct I1 as [I1|I1]; [|right; right; auto]. rewrite <- I1. destruct G2 as [->| ->]; cbn; auto.
Qed.
Lemma list_max_props : forall l, l <> [] -> Forall good_f l -> In (list_max l) l /\ Forall (fun w => V w <= V (list_max l)) l.
Proof.
  intros [|a l] N HF; [congruence|]. inversion HF as [|? ? Ga HF']; subst. destruct (max_props l a Ga HF') as (A & B & C). cbn [list_max]. split; [exact A|constructor; auto].
Qed.
(** Subtracting a larger number: not positive, or minus infinity. *)
Lemma sub_below : forall x m, good_f x -> good_f m -> V x <= V m -> fsub x m = S754_infinity true \/ (fin (fsub x m) /\ V (fsub x m) <= 0 /\ (V x = V m -> V (fsub x m) = 0)).
Proof.
  intros x m [Hx Fx] [Hm Fm] L. destruct (Rlt_dec (Rabs (rnd (V x - V m))) big) as [HB|HB].
  - right. destruct (sub_in x m Hx Hm Fx Fm HB) as (F & E). split; [auto|]. rewrite E. split; [rewrite <- rnd_0; apply rnd_le; lra|]. intros EQ. rewrite EQ, Rminus_diag_eq by auto. apply rnd_0.
  - left. assert (R0 : rnd (V x - V m) <> 0). { intros E. apply HB. rewrite E, Rabs_R0. pose proof big_gt. assert (0 < 2 ^ 100) by (apply pow_lt; lra). lra. }
    destruct (of_valid x Hx) as [b1 <-]. destruct (of_valid m Hm) as [b2 <-]. rewrite finB in *. rewrite !VB in *. rewrite sub_equiv. pose proof (Bminus_correct _ _ _ _ mode_NE b1 b2 Fx Fm) as C. unfold rnd in HB, R0. 
    rewrite Rlt_bool_false in C by (apply Rnot_lt_le; exact HB). destruct C as [C1 C2]. rewrite C1, overflow_inf. f_equal. destruct (Bsign b1) eqn:S1; [reflexivity|]. exfalso. apply R0.
    pose proof (sign_pos b1 S1) as P1. assert (S2 : Bsign b2 = true) by (destruct (Bsign b2); [reflexivity|discriminate C2]). pose proof (sign_neg b2 S2) as P2.
    replace (B2R b1 - B2R b2) with 0 by lra. apply rnd_0.
Qed.
Lemma exp_shift_in : forall x m, good_f x -> good_f m -> V x <= V m -> within 0 1 (ex (fsub x m)) /\ (V x = V m -> V (ex (fsub x m)) = 1).
Proof.
  intros x m Gx Gm L. assert (Hs : vok (fsub x m)) by (apply sub_vok; [apply Gx|apply Gm]). destruct (sub_below x m Gx Gm L) as [E|(F & L0 & Z0)].
  - rewrite E, (exp_at_inf _ HE). split; [split; [reflexivity|]; split; [reflexivity|]; cbn; lra|]. intros EQ. exfalso.
    destruct Gx as [Hx Fx], Gm as [Hm Fm]. destruct (sub_in x m Hx Hm Fx Fm) as (F & _); [|rewrite E in F; discriminate]. rewrite EQ, Rminus_diag_eq, rnd_0, Rabs_R0 by auto. pose proof big_gt. assert (0 < 2 ^ 100) by (apply pow_lt; lra). lra.
  - split; [apply ex_below; auto|]. intros EQ. destruct (fin_zero _ Hs F (Z0 EQ)) as [s Es]. rewrite Es, (exp_at_zero _ HE). apply V_one.
Qed.
Lemma E_24 : V (S754_finite false 8388608 1) = IZR 16777216.
Proof. rewrite <- value_V. unfold f32_value. simpl. lra. Qed.
Lemma p_24 : 2 ^ 24 = IZR 16777216.
Proof. simpl. lra. Qed.
Lemma sat_24 : rnd (2 ^ 24 + 1) <= 2 ^ 24.
Proof.
  rewrite p_24. replace (IZR 16777216 + 1) with (IZR 16777217) by lra. assert (E25 : V (S754_finite false 8388608 2) = IZR 33554432) by (rewrite <- value_V; unfold f32_value; simpl; lra).
  destruct (of_Z_in 16777217) as (_ & E).
  { eapply (in_big _ (S754_finite false 8388608 2)); [reflexivity|]. rewrite E25. rewrite !Rabs_pos_eq by (apply IZR_le; lia). apply IZR_le. lia. }
  rewrite <- E. replace (f32_of_Z 16777217) with (S754_finite false 8388608 1) by reflexivity. rewrite E_24. lra.
Qed.
Lemma V_24 : exists y, vok y /\ V y = 2 ^ 24.
Proof. exists (S754_finite false 8388608 1). split; [reflexivity|]. rewrite E_24, p_24. reflexivity. Qed.
Lemma sum_unit : forall l, Forall (within 0 1) l -> within 0 (2 ^ 24) (fsum l) /\ Forall (fun x => V x <= V (fsum l)) l.
Proof.
  intros l. induction l as [|x l IH] using rev_ind; intros HF.
  - split; [|constructor]. split; [reflexivity|]. split; [reflexivity|]. cbn. assert (0 < 2 ^ 24) by (apply pow_lt; lra). simpl in *. lra.
  - apply Forall_app in HF. destruct HF as [H1 H2]. inversion H2 as [|? ? (Hx & Fx & Bx) _]; subst. destruct (IH H1) as ((Hs & Fs & Bs) & M). rewrite (fsum_snoc lm).
    change (@fsum f32 (F32Scalar lm) l) with (fsum l). set (s := fsum l) in *. destruct V_24 as (y & Hy & Ey).
    assert (U : rnd (V s + V x) <= 2 ^ 24) by (eapply Rle_trans; [|apply sat_24]; apply rnd_le; lra).
    assert (L1 : V s <= rnd (V s + V x)) by (apply rnd_down; [auto|lra]). assert (L2 : V x <= rnd (V s + V x)) by (apply rnd_down; [auto|lra]).
    assert (F : fin (fadd s x)). { apply add_in; auto. rewrite Rabs_pos_eq by lra. apply Rle_lt_trans with (V y); [lra|]. eapply Rle_lt_trans; [apply Rle_abs|apply V_big; auto]. }
    destruct (add_fin s x Hs Hx F) as (_ & _ & E). split.
    + split; [apply add_vok; auto|]. split; [auto|]. rewrite E. lra.
    + rewrite E. apply Forall_app. split; [|constructor; [auto|constructor]]. eapply Forall_impl; [|exact M]. cbn. intros a Ha. lra.
Qed.
Lemma softmax_parts : forall l, l <> [] -> Forall good_f l -> let es := map (fun w => ex (fsub w (list_max l))) l in
  Forall (within 0 1) es /\ within 1 (2 ^ 24) (fsum es).
Proof.
  intros l N HF es. destruct (list_max_props l N HF) as (IM & LE). set (m := list_max l) in *. rewrite Forall_forall in HF, LE. assert (Gm : good_f m) by auto.
  assert (HW : Forall (within 0 1) es) by (apply Forall_map, Forall_forall; intros w Hw; apply exp_shift_in; auto). split; [auto|]. destruct (sum_unit es HW) as ((A & B & C) & M). split; [auto|]. split; [auto|]. split; [|lra].
  rewrite Forall_forall in M. specialize (M (ex (fsub m m))). rewrite (proj2 (exp_shift_in m m Gm Gm (Rle_refl _)) eq_refl) in M. apply M. unfold es. apply in_map_iff. exists m. auto.
Qed.
Lemma softmax_in : forall l v, Forall good_f l -> In v l -> within 0 1 (softmax_of l v).
Proof.
  intros l v HF HI. assert (N : l <> []) by (intros ->; destruct HI). destruct (softmax_parts l N HF) as (HW & (Hs & Fs & Bs)). destruct (list_max_props l N HF) as (IM & LE). rewrite Forall_forall in HF, LE.
  destruct (exp_shift_in v (list_max l)) as ((Hn & Fn & Bn) & _); auto. change (softmax_of l v) with (f32_div (ex (fsub v (list_max l))) (fsum (map (fun w => ex (fsub w (list_max l))) l))).
  set (n := ex (fsub v (list_max l))) in *. set (s := fsum _) in *. destruct (div_unit n s) as (D1 & D2 & D3); auto; [lra|rewrite !Rabs_pos_eq; lra|]. split; [apply div_vok; auto|]. split; [auto|]. split; [|lra].
  rewrite D2, <- rnd_0. apply rnd_le. apply Rmult_le_pos; [lra|]. apply Rlt_le, Rinv_0_lt_compat. lra.
Qed.
(** The outputs of one row add up to almost one. *)
Lemma softmax_total : forall l, l <> [] -> Forall good_f l -> let q := (1 + ulp_half) ^ (length l - 1) in q < 2 ->
  Rabs (rsum l (fun v => V (softmax_of l v)) - 1) <= (q - 1 + ulp_half) / (2 - q) + INR (length l) * tiny_half.
Proof.
  intros l N HF q Hq. destruct (softmax_parts l N HF) as (HW & (Hs & Fs & Bs)). set (e := fun w => ex (fsub w (list_max l))) in *. set (s := fsum (map e l)) in *.
  assert (HV : Forall vok (map e l)) by (eapply Forall_impl; [|exact HW]; intros a Ha; apply Ha). pose proof (fsum_err lm _ HV Fs) as HErr. fold s in HErr. change (@fsum f32 (F32Scalar lm) (map e l)) with s in HErr. rewrite map_length, !rsum_map in HErr. fold q in HErr.
  assert (W : forall v, In v l -> 0 <= V (e v) <= 1). { intros v Hv. rewrite Forall_map, Forall_forall in HW. apply HW. auto. }
  set (E := rsum l (fun w => V (e w))) in *. assert (EA : rsum l (fun w => Rabs (V (e w))) = E) by (apply rsum_ext; intros v Hv; apply Rabs_pos_eq, W; auto). assert (HErr2 : Rabs (V s - E) <= (q - 1) * E) by (eapply Rle_trans; [exact HErr|]; right; f_equal; exact EA).
  assert (Hq1 : 1 <= q) by apply pow_ge1. pose proof ulp_pos as Hu. pose proof tiny_half_pos as Ht. assert (HE0 : 0 <= E) by (apply rsum_nonneg; intros v Hv; apply W; auto).
  set (x := E / V s). assert (Hx : E = x * V s) by (unfold x; field; lra). assert (Hx0 : 0 <= x) by (unfold x; apply Rmult_le_pos; [lra|apply Rlt_le, Rinv_0_lt_compat; lra]).
  assert (X1 : Rabs (x - 1) <= (q - 1) * x).
  { apply Rmult_le_reg_r with (V s); [lra|]. replace (Rabs (x - 1) * V s) with (Rabs (V s - E)); [rewrite Rmult_assoc, <- Hx; exact HErr2|]. rewrite Hx. rewrite <- (Rabs_pos_eq (V s)) at 3 by lra. rewrite <- Rabs_mult, Rabs_minus_sym. f_equal. ring. }
  assert (X2 : x <= / (2 - q)). { apply Rmult_le_reg_r with (2 - q); [lra|]. rewrite Rinv_l by lra. pose proof (Rle_abs (x - 1)). lra. }
  assert (X3 : Rabs (rsum l (fun v => V (softmax_of l v)) - x) <= ulp_half * x + INR (length l) * tiny_half).
  { assert (ex_ : x = rsum l (fun v => V (e v) / V s)) by (unfold Rdiv; rewrite rsum_scal_r; reflexivity). rewrite ex_ at 1. rewrite <- rsum_minus. eapply Rle_trans; [apply rsum_abs|].
    replace (ulp_half * x + INR (length l) * tiny_half) with (rsum l (fun v => ulp_half * (V (e v) / V s) + tiny_half)) by (rewrite rsum_plus, rsum_scal_l, <- ex_, rsum_const; unfold Zlen; rewrite INR_IZR_INZ; reflexivity).
    apply rsum_le. intros v Hv. change (softmax_of l v) with (f32_div (e v) s). assert (Wv : within 0 1 (e v)) by (rewrite Forall_map, Forall_forall in HW; auto). destruct Wv as (A & B & C).
    destruct (div_unit (e v) s) as (_ & D2 & _); auto; [lra|rewrite !Rabs_pos_eq; lra|]. rewrite D2. eapply Rle_trans; [apply rnd_err|]. rewrite Rabs_pos_eq; [lra|]. apply Rmult_le_pos; [lra|apply Rlt_le, Rinv_0_lt_compat; lra]. }
  replace (rsum l (fun v => V (softmax_of l v)) - 1) with ((rsum l (fun v => V (softmax_of l v)) - x) + (x - 1)) by ring. eapply Rle_trans; [apply Rabs_triang|].
  assert ((q - 1 + ulp_half) * x <= (q - 1 + ulp_half) * / (2 - q)) by (apply Rmult_le_compat_l; lra). unfold Rdiv. lra.
Qed.
End Act.
