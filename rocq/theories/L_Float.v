(** * Float32 arithmetic of the model as rounded real arithmetic *)
From Coq Require Import Reals Lra SpecFloat.
From Flocq Require Import Core BinarySingleNaN Plus_error Relative.
From Verif Require Import Base Scalar.
Local Open Scope R_scope.
#[local] Instance Hp32 : FLX.Prec_gt_0 f32_prec := eq_refl _.
#[local] Instance Hm32 : Prec_lt_emax f32_prec f32_emax := eq_refl _.
Local Notation B32 := (binary_float f32_prec f32_emax).
Local Notation V := (SF2R radix2).
Local Notation ok := (SpecFloat.valid_binary f32_prec f32_emax).
Local Notation fx := (SpecFloat.fexp f32_prec f32_emax).
Definition rnd (x : R) : R := round radix2 fx ZnearestE x.
Definition fin (x : f32) : Prop := is_finite_SF x = true.
Definition vok (x : f32) : Prop := ok x = true.
Definition big : R := bpow radix2 f32_emax.

Lemma round_nearest_even_equiv : forall s m l, round_nearest_even m l = choice_mode mode_NE s m l.
Proof. intros s m l. case l; [reflexivity|intro c]. case c; [|reflexivity..]. now simpl; unfold Round.cond_incr; case Z.even. Qed.
Lemma aux_equiv : forall sx mx ex lx, SpecFloat.binary_round_aux f32_prec f32_emax sx mx ex lx = binary_round_aux f32_prec f32_emax mode_NE sx mx ex lx.
Proof.
  intros. unfold SpecFloat.binary_round_aux, binary_round_aux. set (mrse' := shr_fexp _ _ _). case mrse'; intros mrs' e'; simpl. now rewrite (round_nearest_even_equiv sx).
Qed.
Lemma round_equiv : forall s m e, SpecFloat.binary_round f32_prec f32_emax s m e = binary_round f32_prec f32_emax mode_NE s m e.
Proof. intros. unfold SpecFloat.binary_round, binary_round, shl_align_fexp. set (mez := shl_align _ _ _); case mez as [mz ez]. apply aux_equiv. Qed.
Lemma normalize_equiv : forall m e sz, SpecFloat.binary_normalize f32_prec f32_emax m e sz = B2SF (binary_normalize f32_prec f32_emax Hp32 Hm32 mode_NE m e sz).
Proof. intros m e sz. case m as [|p|p]; simpl; [reflexivity|rewrite B2SF_SF2B; apply round_equiv..]. Qed.
Lemma of_valid : forall x, vok x -> exists b : B32, B2SF b = x.
Proof. intros x H. exists (SF2B x H). apply B2SF_SF2B. Qed.
Lemma add_equiv : forall x y : B32, SFadd f32_prec f32_emax (B2SF x) (B2SF y) = B2SF (Bplus mode_NE x y).
Proof. intros x y. case x as [sx|sx| |sx mx ex Bx]; case y as [sy|sy| |sy my ey By]; [now (trivial || simpl; case Bool.eqb)..|]. apply normalize_equiv. Qed.
Lemma sub_equiv : forall x y : B32, SFsub f32_prec f32_emax (B2SF x) (B2SF y) = B2SF (Bminus mode_NE x y).
Proof.
  intros x y. case x as [sx|sx| |sx mx ex Bx]; case y as [sy|sy| |sy my ey By]; [now (trivial || simpl; case Bool.eqb)..|]. simpl. unfold Zminus. rewrite <- cond_Zopp_negb. apply normalize_equiv.
Qed.
Lemma mul_equiv : forall x y : B32, SFmul f32_prec f32_emax (B2SF x) (B2SF y) = B2SF (Bmult mode_NE x y).
Proof. intros x y. case x as [sx|sx| |sx mx ex Bx]; case y as [sy|sy| |sy my ey By]; [now trivial..|]. simpl. rewrite B2SF_SF2B. apply aux_equiv. Qed.
Lemma div_equiv : forall x y : B32, SFdiv f32_prec f32_emax (B2SF x) (B2SF y) = B2SF (Bdiv mode_NE x y).
Proof.
  intros x y. case x as [sx|sx| |sx mx ex Bx]; case y as [sy|sy| |sy my ey By]; [now (trivial || simpl; case Bool.eqb)..|]. simpl. rewrite B2SF_SF2B.
  set (melz := SFdiv_core_binary _ _ _ _ _ _). case melz as [[mz ez] lz]. apply aux_equiv.
Qed.
Lemma opp_equiv : forall x : B32, SFopp (B2SF x) = B2SF (Bopp x).
Proof. intros x. now case x as [sx|sx| |sx mx ex Bx]. Qed.
Lemma of_Z_equiv : forall z, f32_of_Z z = B2SF (binary_normalize f32_prec f32_emax Hp32 Hm32 mode_NE z 0 false).
Proof. intros z. apply normalize_equiv. Qed.

(** ** Results are floats again *)
Ltac unB := repeat match goal with H : vok ?x |- _ => let b := fresh "b" in destruct (of_valid x H) as [b <-]; clear H end.
Lemma vokB : forall b : B32, vok (B2SF b).
Proof. exact (@valid_binary_B2SF _ _). Qed.
Lemma add_vok : forall x y, vok x -> vok y -> vok (SFadd f32_prec f32_emax x y).
Proof. intros x y Hx Hy. unB. rewrite add_equiv. apply vokB. Qed.
Lemma sub_vok : forall x y, vok x -> vok y -> vok (SFsub f32_prec f32_emax x y).
Proof. intros x y Hx Hy. unB. rewrite sub_equiv. apply vokB. Qed.
Lemma mul_vok : forall x y, vok x -> vok y -> vok (SFmul f32_prec f32_emax x y).
Proof. intros x y Hx Hy. unB. rewrite mul_equiv. apply vokB. Qed.
Lemma div_vok : forall x y, vok x -> vok y -> vok (f32_div x y).
Proof. intros x y Hx Hy. unB. unfold f32_div. rewrite div_equiv. apply vokB. Qed.
Lemma opp_vok : forall x, vok x -> vok (SFopp x).
Proof. intros x Hx. unB. rewrite opp_equiv. apply vokB. Qed.
Lemma of_Z_vok : forall z, vok (f32_of_Z z).
Proof. intros z. rewrite of_Z_equiv. apply vokB. Qed.

(** ** Values *)
Lemma VB : forall b : B32, V (B2SF b) = B2R b.
Proof. exact (@SF2R_B2SF _ _). Qed.
Lemma finB : forall b : B32, fin (B2SF b) <-> is_finite b = true.
Proof. intros b. unfold fin. rewrite is_finite_SF_B2SF. tauto. Qed.
Lemma overflow_inf : forall s, binary_overflow f32_prec f32_emax mode_NE s = S754_infinity s.
Proof. reflexivity. Qed.
(** A finite result means finite operands and a correctly rounded value; it is finite exactly when the rounded value is in range. *)
Lemma add_fin : forall x y, vok x -> vok y -> fin (SFadd f32_prec f32_emax x y) -> fin x /\ fin y /\ V (SFadd f32_prec f32_emax x y) = rnd (V x + V y).
Proof.
  intros x y Hx Hy HF. unB. rewrite add_equiv in *. rewrite !finB in *. rewrite !VB.
  assert (F : is_finite b0 = true /\ is_finite b = true). { destruct b0 as [sx|sx| |sx mx ex Bx], b as [sy|sy| |sy my ey By]; simpl in HF; try discriminate; auto; destruct (Bool.eqb _ _); discriminate. }
  destruct F as [F0 F1]. split; [auto|]. split; [auto|]. pose proof (Bplus_correct _ _ _ _ mode_NE b0 b F0 F1) as C. destruct (Rlt_bool _ _).
  - apply C.
  - destruct C as [C _]. rewrite overflow_inf in C. destruct (Bplus mode_NE b0 b); simpl in *; discriminate.
Qed.
Lemma add_in : forall x y, vok x -> vok y -> fin x -> fin y -> Rabs (rnd (V x + V y)) < big -> fin (SFadd f32_prec f32_emax x y).
Proof.
  intros x y Hx Hy Fx Fy HB. unB. rewrite add_equiv. rewrite !finB in *. rewrite !VB in HB. pose proof (Bplus_correct _ _ _ _ mode_NE b0 b Fx Fy) as C. 
  rewrite Rlt_bool_true in C by exact HB. apply C.
Qed.
Lemma mul_fin : forall x y, vok x -> vok y -> fin (SFmul f32_prec f32_emax x y) -> fin x /\ fin y /\ V (SFmul f32_prec f32_emax x y) = rnd (V x * V y).
Proof.
  intros x y Hx Hy HF. unB. rewrite mul_equiv in *. rewrite !finB in *. rewrite !VB.
  pose proof (Bmult_correct _ _ _ _ mode_NE b0 b) as C. destruct (Rlt_bool _ _).
  - destruct C as (C1 & C2 & _). rewrite C2 in HF. apply andb_prop in HF. split; [tauto|]. split; [tauto|]. exact C1.
  - rewrite overflow_inf in C. destruct (Bmult mode_NE b0 b); simpl in *; discriminate.
Qed.
Lemma mul_in : forall x y, vok x -> vok y -> fin x -> fin y -> Rabs (rnd (V x * V y)) < big -> fin (SFmul f32_prec f32_emax x y).
Proof.
  intros x y Hx Hy Fx Fy HB. unB. rewrite mul_equiv. rewrite !finB in *. rewrite !VB in HB. pose proof (Bmult_correct _ _ _ _ mode_NE b0 b) as C.
  rewrite Rlt_bool_true in C by exact HB. destruct C as (_ & C & _). rewrite C, Fx, Fy. reflexivity.
Qed.
Lemma sub_in : forall x y, vok x -> vok y -> fin x -> fin y -> Rabs (rnd (V x - V y)) < big -> fin (SFsub f32_prec f32_emax x y) /\ V (SFsub f32_prec f32_emax x y) = rnd (V x - V y).
Proof.
  intros x y Hx Hy Fx Fy HB. unB. rewrite sub_equiv. rewrite !finB in *. rewrite !VB in *. pose proof (Bminus_correct _ _ _ _ mode_NE b0 b Fx Fy) as C.
  rewrite Rlt_bool_true in C by exact HB. split; apply C.
Qed.
Lemma sub_fin : forall x y, vok x -> vok y -> fin (SFsub f32_prec f32_emax x y) -> fin x /\ fin y /\ V (SFsub f32_prec f32_emax x y) = rnd (V x - V y).
Proof.
  intros x y Hx Hy HF. unB. rewrite sub_equiv in *. rewrite !finB in *. rewrite !VB.
  assert (F : is_finite b0 = true /\ is_finite b = true). { destruct b0 as [sx|sx| |sx mx ex Bx], b as [sy|sy| |sy my ey By]; simpl in HF; try discriminate; auto; destruct (Bool.eqb _ _); discriminate. }
  destruct F as [F0 F1]. split; [auto|]. split; [auto|]. pose proof (Bminus_correct _ _ _ _ mode_NE b0 b F0 F1) as C. destruct (Rlt_bool _ _).
  - apply C.
  - destruct C as [C _]. rewrite overflow_inf in C. destruct (Bminus mode_NE b0 b); simpl in *; discriminate.
Qed.
Lemma div_in : forall x y, vok x -> vok y -> fin x -> V y <> 0 -> Rabs (rnd (V x / V y)) < big -> fin (f32_div x y) /\ V (f32_div x y) = rnd (V x / V y).
Proof.
  intros x y Hx Hy Fx Fy HB. unB. unfold f32_div. rewrite div_equiv. rewrite !finB in *. rewrite !VB in *. pose proof (Bdiv_correct _ _ _ _ mode_NE b0 b Fy) as C.
  rewrite Rlt_bool_true in C by exact HB. destruct C as (C1 & C2 & _). split; [rewrite C2; auto|exact C1].
Qed.
Lemma of_Z_in : forall z, Rabs (rnd (IZR z)) < big -> fin (f32_of_Z z) /\ V (f32_of_Z z) = rnd (IZR z).
Proof.
  intros z HB. rewrite of_Z_equiv. rewrite finB, VB. pose proof (binary_normalize_correct _ _ _ _ mode_NE z 0 false) as C. cbv zeta in C.
  unfold F2R in C. simpl Fnum in C. simpl Fexp in C. simpl bpow in C. rewrite Rmult_1_r in C. rewrite Rlt_bool_true in C by exact HB. split; apply C.
Qed.
Lemma opp_V : forall x, vok x -> V (SFopp x) = - V x.
Proof. intros x H. unB. rewrite opp_equiv, !VB. apply B2R_Bopp. Qed.
Lemma V_format : forall x, vok x -> generic_format radix2 fx (V x).
Proof. intros x H. unB. rewrite VB. apply generic_format_B2R. Qed.
Lemma V_big : forall x, vok x -> Rabs (V x) < big.
Proof. intros x H. unB. rewrite VB. apply abs_B2R_lt_emax. Qed.
#[global] Instance fx_valid : Valid_exp fx := fexp_correct _ _ _.
#[global] Instance fx_mono : Monotone_exp fx := fexp_monotone _ _.
Lemma rnd_V : forall x, vok x -> rnd (V x) = V x.
Proof. intros x H. apply round_generic; [typeclasses eauto|apply V_format; auto]. Qed.
Lemma rnd_le : forall x y, x <= y -> rnd x <= rnd y.
Proof. intros x y H. apply round_le; [typeclasses eauto..|auto]. Qed.
Lemma rnd_0 : rnd 0 = 0.
Proof. apply round_0. typeclasses eauto. Qed.

(** ** Bridging to the specification's words *)
From Verif Require Import Types Spec SpecR SpecF32 L_RSum.
Lemma value_V : forall x, f32_value x = V x.
Proof.
  intros [s|s| |s m e]; try reflexivity. unfold f32_value, SF2R, F2R. cbn [Fnum Fexp]. rewrite bpow_powerRZ. destruct s; cbn [cond_Zopp SpecFloat.cond_Zopp]; [rewrite opp_IZR|]; change (IZR radix2) with 2; ring.
Qed.
Lemma finite_fin : forall x, f32_finite x <-> fin x.
Proof. intros [s|s| |s m e]; unfold f32_finite, fin; cbn; intuition discriminate. Qed.
Lemma half_ulp : / 2 * bpow radix2 (- f32_prec + 1) = ulp_half.
Proof.
  unfold ulp_half, f32_prec. rewrite bpow_powerRZ. change (IZR radix2) with 2. change (- (24) + 1)%Z with (-23)%Z. cbn [powerRZ].
  change (Pos.to_nat 23) with 23%nat. change (2 ^ 24) with (2 * 2 ^ 23). rewrite Rinv_mult. ring.
Qed.
Lemma ulp_pos : 0 < ulp_half < 1.
Proof. unfold ulp_half. simpl pow. lra. Qed.
Lemma tiny_half_pos : 0 < tiny_half.
Proof. unfold tiny_half. apply Rinv_0_lt_compat, pow_lt. lra. Qed.
Lemma half_tiny : / 2 * bpow radix2 (3 - f32_emax - f32_prec) = tiny_half.
Proof.
  unfold tiny_half, f32_prec, f32_emax. rewrite bpow_powerRZ. change (IZR radix2) with 2. change (3 - 128 - 24)%Z with (-149)%Z. cbn [powerRZ]. 
  change (Pos.to_nat 149) with 149%nat. change (2 ^ 150) with (2 * 2 ^ 149). rewrite Rinv_mult. ring.
Qed.
Lemma rnd_add_err : forall x y, vok x -> vok y -> Rabs (rnd (V x + V y) - (V x + V y)) <= ulp_half * Rabs (V x + V y).
Proof.
  intros x y Hx Hy. destruct (FLT_plus_error_N_ex radix2 (3 - f32_emax - f32_prec) f32_prec (fun n => negb (Z.even n)) (V x) (V y) (V_format x Hx) (V_format y Hy)) as (eps & HE & E).
  unfold rnd. change (round radix2 fx ZnearestE) with (round radix2 (FLT_exp (3 - f32_emax - f32_prec) f32_prec) (Znearest (fun n => negb (Z.even n)))). rewrite E.
  replace ((V x + V y) * (1 + eps) - (V x + V y)) with (eps * (V x + V y)) by ring. rewrite Rabs_mult. apply Rmult_le_compat_r; [apply Rabs_pos|]. apply Rle_trans with (1 := HE).
  unfold u_ro. rewrite half_ulp. pose proof ulp_pos. apply Rmult_le_reg_r with (1 + ulp_half); [lra|]. unfold Rdiv. rewrite Rmult_assoc, Rinv_l by lra. nra.
Qed.
Lemma rnd_err : forall r, Rabs (rnd r - r) <= ulp_half * Rabs r + tiny_half.
Proof.
  intros r. destruct (error_N_FLT radix2 (3 - f32_emax - f32_prec) f32_prec eq_refl (fun n => negb (Z.even n)) r) as (eps & eta & HE & HT & _ & E).
  unfold rnd. change (round radix2 fx ZnearestE) with (round radix2 (FLT_exp (3 - f32_emax - f32_prec) f32_prec) (Znearest (fun n => negb (Z.even n)))). rewrite E.
  replace (r * (1 + eps) + eta - r) with (eps * r + eta) by ring. eapply Rle_trans; [apply Rabs_triang|]. rewrite Rabs_mult. rewrite half_ulp in HE. rewrite half_tiny in HT.
  apply Rplus_le_compat; [apply Rmult_le_compat_r; [apply Rabs_pos|]|]; auto.
Qed.

(** ** Sums *)
Section Sum.
Variable lm : libm.
Let SF : Scalar f32 := F32Scalar lm.
#[local] Existing Instance SF.
Local Notation u := ulp_half.
Lemma fsum_snoc : forall (l : list f32) x, fsum (l ++ [x]) = SFadd f32_prec f32_emax (fsum l) x.
Proof. intros. unfold fsum. rewrite fold_left_app. reflexivity. Qed.
Lemma fsum_vok : forall l, Forall vok l -> vok (fsum l).
Proof.
  intros l. induction l as [|x l IH] using rev_ind; intros H; [apply of_Z_vok|]. rewrite fsum_snoc. apply Forall_app in H. destruct H as [H1 H2]. inversion H2; subst. apply add_vok; auto.
Qed.
Lemma fsum_parts : forall l, Forall vok l -> fin (fsum l) -> Forall fin l.
Proof.
  intros l. induction l as [|x l IH] using rev_ind; intros H HF; [constructor|]. rewrite fsum_snoc in HF. apply Forall_app in H. destruct H as [H1 H2]. inversion H2; subst.
  apply add_fin in HF; auto using fsum_vok. apply Forall_app. split; [apply IH; tauto|]. constructor; [tauto|constructor].
Qed.
Lemma V_zero : V (zero : f32) = 0. Proof. reflexivity. Qed.
Lemma pow_ge1 : forall n, 1 <= (1 + u) ^ n.
Proof. intros n. apply pow_R1_Rle. pose proof ulp_pos. lra. Qed.
Lemma rsum_abs : forall {A} (l : list A) f, Rabs (rsum l f) <= rsum l (fun x => Rabs (f x)).
Proof. intros A l f. induction l as [|a l IH]; [unfold rsum; cbn; rewrite Rabs_R0; lra|]. rewrite !rsum_cons. eapply Rle_trans; [apply Rabs_triang|]. lra. Qed.
Lemma fsum_err : forall l, Forall vok l -> fin (fsum l) -> Rabs (V (fsum l) - rsum l V) <= ((1 + u) ^ (length l - 1) - 1) * rsum l (fun x => Rabs (V x)).
Proof.
  intros l. induction l as [|x l IH] using rev_ind; intros H HF.
  - unfold rsum; cbn. rewrite Rminus_0_r, Rabs_R0. lra.
  - rewrite fsum_snoc in *. apply Forall_app in H. destruct H as [H1 H2]. inversion H2 as [|? ? Hx _]; subst. pose proof (fsum_vok l H1) as Hs.
    destruct (add_fin _ _ Hs Hx HF) as (F1 & F2 & E). rewrite E. rewrite !rsum_app, !rsum_cons, !rsum_nil. rewrite app_length. cbn [length].
    destruct l as [|y l'].
    + change (V (fsum [])) with 0. cbn [length]. rewrite Rplus_0_l, rnd_V by auto. unfold rsum; cbn. rewrite !Rplus_0_l, !Rplus_0_r. replace (V x - V x) with 0 by ring. rewrite Rabs_R0. lra.
    + specialize (IH H1 F1). set (l := y :: l') in *. replace (length l + 1 - 1)%nat with (Datatypes.S (length l - 1)) by (cbn; lia). cbn [pow]. set (q := (1 + u) ^ (length l - 1)) in *.
      set (s := V (fsum l)) in *. set (r := rsum l V) in *. set (A := rsum l (fun z => Rabs (V z))) in *. pose proof (rnd_add_err (fsum l) x Hs Hx) as HE. fold s in HE.
      pose proof ulp_pos as Hu. assert (Hq : 1 <= q) by apply pow_ge1. assert (HA : Rabs r <= A) by apply rsum_abs. pose proof (Rabs_pos (V x)) as Px. pose proof (Rabs_pos r) as Pr.
      assert (B1 : Rabs (s + V x) <= Rabs (s - r) + A + Rabs (V x)). { replace (s + V x) with ((s - r) + (r + V x)) by ring. eapply Rle_trans; [apply Rabs_triang|]. pose proof (Rabs_triang r (V x)). lra. }
      replace (rnd (s + V x) - (r + (V x + 0))) with ((rnd (s + V x) - (s + V x)) + (s - r)) by ring. eapply Rle_trans; [apply Rabs_triang|].
      assert (B2 : Rabs (rnd (s + V x) - (s + V x)) <= u * ((q - 1) * A + A + Rabs (V x))). { eapply Rle_trans; [exact HE|]. apply Rmult_le_compat_l; lra. }
      eapply Rle_trans; [apply Rplus_le_compat; [exact B2|exact IH]|]. rewrite Rplus_0_r. assert (0 <= (1 + u) * (q - 1) * Rabs (V x)) by (apply Rmult_le_pos; [apply Rmult_le_pos; lra|lra]). nra.
Qed.

(** ** Inner products *)
Definition dotl {A} (l : list A) (f g : A -> f32) : f32 := fsum (map (fun a => SFmul f32_prec f32_emax (f a) (g a)) l).
Lemma dot_vok : forall {A} (l : list A) f g, (forall a, In a l -> vok (f a)) -> (forall a, In a l -> vok (g a)) -> Forall vok (map (fun a => SFmul f32_prec f32_emax (f a) (g a)) l).
Proof. intros A l f g Hf Hg. apply Forall_map, Forall_forall. intros a Ha. apply mul_vok; auto. Qed.
Lemma dot_err : forall {A} (l : list A) f g, (forall a, In a l -> vok (f a)) -> (forall a, In a l -> vok (g a)) -> fin (dotl l f g) ->
  Rabs (V (dotl l f g) - rsum l (fun a => V (f a) * V (g a))) <=
    ((1 + u) ^ length l - 1) * rsum l (fun a => Rabs (V (f a) * V (g a))) + (1 + u) ^ length l * INR (length l) * tiny_half.
Proof.
  intros A l f g Hf Hg HF. pose proof (dot_vok l f g Hf Hg) as HV. unfold dotl in *. pose proof (fsum_err _ HV HF) as HE. pose proof (fsum_parts _ HV HF) as HP. rewrite !rsum_map, map_length in HE.
  set (m := fun a => SFmul f32_prec f32_emax (f a) (g a)) in *. set (D := rsum l (fun a => Rabs (V (f a) * V (g a)))) in *. pose proof ulp_pos as Hu. pose proof tiny_half_pos as Ht.
  assert (HM : forall a, In a l -> Rabs (V (m a) - V (f a) * V (g a)) <= u * Rabs (V (f a) * V (g a)) + tiny_half).
  { intros a Ha. rewrite Forall_map, Forall_forall in HP. destruct (mul_fin (f a) (g a) (Hf a Ha) (Hg a Ha) (HP a Ha)) as (_ & _ & E). unfold m. rewrite E. apply rnd_err. }
  assert (HL : IZR (Zlen l) = INR (length l)) by (unfold Zlen; rewrite INR_IZR_INZ; reflexivity).
  assert (HT : rsum l (fun a => u * Rabs (V (f a) * V (g a)) + tiny_half) = u * D + INR (length l) * tiny_half) by (rewrite rsum_plus, rsum_scal_l, rsum_const, HL; reflexivity).
  assert (B1 : Rabs (rsum l (fun a => V (m a)) - rsum l (fun a => V (f a) * V (g a))) <= u * D + INR (length l) * tiny_half).
  { rewrite <- rsum_minus. eapply Rle_trans; [apply rsum_abs|]. rewrite <- HT. apply rsum_le. auto. }
  assert (B2 : rsum l (fun a => Rabs (V (m a))) <= (1 + u) * D + INR (length l) * tiny_half).
  { replace ((1 + u) * D + INR (length l) * tiny_half) with (D + (u * D + INR (length l) * tiny_half)) by ring. rewrite <- HT. unfold D. rewrite <- rsum_plus. apply rsum_le. intros a Ha.
    replace (V (m a)) with (V (f a) * V (g a) + (V (m a) - V (f a) * V (g a))) by ring. eapply Rle_trans; [apply Rabs_triang|]. apply Rplus_le_compat_l. apply HM; auto. }
  assert (HD : 0 <= D) by (apply rsum_nonneg; intros; apply Rabs_pos). pose proof (pos_INR (length l)) as HN.
  replace (V (fsum (map m l)) - rsum l (fun a => V (f a) * V (g a))) with ((V (fsum (map m l)) - rsum l (fun a => V (m a))) + (rsum l (fun a => V (m a)) - rsum l (fun a => V (f a) * V (g a)))) by ring.
  eapply Rle_trans; [apply Rabs_triang|]. set (q := (1 + u) ^ (length l - 1)) in *. assert (Hq : 1 <= q) by apply pow_ge1.
  assert (HQ : (1 + u) ^ length l = (1 + u) * q \/ length l = 0%nat). { destruct (length l) as [|k] eqn:El; [auto|left]. unfold q. cbn [Nat.sub]. rewrite Nat.sub_0_r. reflexivity. }
  assert (C1 : (q - 1) * rsum l (fun a => Rabs (V (m a))) <= (q - 1) * ((1 + u) * D + INR (length l) * tiny_half)) by (apply Rmult_le_compat_l; lra).
  destruct HQ as [->|H0].
  - assert (C2 : q * (INR (length l) * tiny_half) <= (1 + u) * q * (INR (length l) * tiny_half)). { apply Rmult_le_compat_r; [apply Rmult_le_pos; lra|nra]. }
    eapply Rle_trans; [apply Rplus_le_compat; [eapply Rle_trans; [exact HE|exact C1]|exact B1]|]. nra.
  - destruct l; [|discriminate]. unfold D, rsum. cbn. change (V (fsum [])) with 0. rewrite !Rminus_0_r, Rabs_R0. lra.
Qed.
(** An inner product plus one more number. *)
Lemma affine_err : forall {A} (l : list A) f g b, (forall a, In a l -> vok (f a)) -> (forall a, In a l -> vok (g a)) -> vok b -> fin (SFadd f32_prec f32_emax (dotl l f g) b) ->
  Rabs (V (SFadd f32_prec f32_emax (dotl l f g) b) - (rsum l (fun a => V (f a) * V (g a)) + V b)) <=
    ((1 + u) ^ Datatypes.S (length l) - 1) * (rsum l (fun a => Rabs (V (f a) * V (g a))) + Rabs (V b)) + (1 + u) ^ Datatypes.S (length l) * INR (length l) * tiny_half.
Proof.
  intros A l f g b Hf Hg Hb HF. assert (Hs : vok (dotl l f g)) by exact (fsum_vok _ (dot_vok l f g Hf Hg)). destruct (add_fin _ _ Hs Hb HF) as (F1 & F2 & E). rewrite E.
  pose proof (dot_err l f g Hf Hg F1) as HE. pose proof (rnd_add_err _ _ Hs Hb) as HR. set (s := V (dotl l f g)) in *. set (r := rsum l (fun a => V (f a) * V (g a))) in *. set (D := rsum l (fun a => Rabs (V (f a) * V (g a)))) in *.
  cbn [pow]. set (q := (1 + u) ^ length l) in *. set (N := INR (length l)) in *. pose proof ulp_pos as Hu. assert (Hq : 1 <= q) by apply pow_ge1. assert (HA : Rabs r <= D) by apply rsum_abs. pose proof (Rabs_pos (V b)) as Px.
  set (e := (q - 1) * D + q * N * tiny_half) in *.
  assert (B1 : Rabs (s + V b) <= e + D + Rabs (V b)). { replace (s + V b) with ((s - r) + (r + V b)) by ring. eapply Rle_trans; [apply Rabs_triang|]. pose proof (Rabs_triang r (V b)). lra. }
  replace (rnd (s + V b) - (r + V b)) with ((rnd (s + V b) - (s + V b)) + (s - r)) by ring. eapply Rle_trans; [apply Rabs_triang|].
  assert (B2 : u * Rabs (s + V b) <= u * (e + D + Rabs (V b))) by (apply Rmult_le_compat_l; lra).
  assert (0 <= (1 + u) * (q - 1) * Rabs (V b)) by (apply Rmult_le_pos; [apply Rmult_le_pos; lra|lra]).
  apply Rle_trans with (u * (e + D + Rabs (V b)) + e); [lra|]. unfold e. nra.
Qed.
End Sum.
