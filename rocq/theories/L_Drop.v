(** * Dropout *)
From Coq Require Import Reals Lra.
From Coquelicot Require Import Coquelicot.
From Verif Require Import Base Scalar ScalarR Types Spec M_Shape M_Tensor M_Adv M_Act M_Layers M_Reg SpecR SpecNN SpecLayers
  L_Index L_Shape L_Bcast L_Tensor L_Reduce L_Tensor2 L_Glue L_Nest L_Matmul L_Axes L_Adv L_RSum L_AdvR L_Act L_ActR L_Loss L_Layers L_LayersR L_Conv.
Local Open Scope Z_scope.

Section S.
Context {T : Type} {S : Scalar T} {G : Type} {HR : Rng T G}.
Definition drop_mask (rate : T) (r : tensor T) : tensor T := tensor_of (tdims r) (fun idx => if s_lt rate (el r idx) then one else zero).
Lemma dropout_train : forall (l : dropout T) (x : tensor T) (g : G), dr_train l = true -> good x ->
  exists r g', f_rand (tdims x) g = Ok (r, g') /\ good r /\ tdims r = tdims x /\
    dropout_forward l x g = (mkDrop (dr_rate l) (Some (drop_mask (dr_rate l) r)) true, g',
      Ok (tensor_of (tdims x) (fun idx => s_mul (s_mul (el x idx) (if s_lt (dr_rate l) (el r idx) then one else zero)) (s_div one (s_sub one (dr_rate l)))))).
Proof.
  intros l x g Ht Gx. destruct (rand_good (tdims x) g (good_pos x Gx) (good_max x Gx)) as (r & g' & E & Gr & Er).
  exists r, g'. split; [auto|]. split; [auto|]. split; [auto|]. unfold dropout_forward. rewrite Ht, E. rewrite apply_ok by auto. cbn [step].
  pose proof (good_dims x Gx) as HF. assert (HT : forall f : list Z -> T, good (tensor_of (tdims x) f)) by (intros; apply good_tensor_of; [apply good_pos; auto|apply good_max; auto]).
  unfold drop_mask. rewrite Er. f_equal. unfold t_mul. rewrite binop_same; auto. cbn [bind].
  destruct (scalar_ops _ (s_div one (s_sub one (dr_rate l))) (HT (fun idx => s_mul (el x idx) (el (tensor_of (tdims x) (fun i => if s_lt (dr_rate l) (el r i) then one else zero)) idx)))) as (_ & _ & EM & _).
  rewrite EM. f_equal. apply tensor_of_ext; auto. intros idx HI. rewrite !el_tensor_of by auto. reflexivity.
Qed.
Lemma dropout_eval : forall (l : dropout T) (x : tensor T) (g : G), dr_train l = false -> dropout_forward l x g = (l, g, Ok x).
Proof. intros l x g E. unfold dropout_forward. rewrite E. reflexivity. Qed.
Lemma dropout_backward_ok : forall (l : dropout T) (m g : tensor T), dr_mask l = Some m -> good m -> good g -> tdims g = tdims m ->
  dropout_backward l g = Ok (if dr_train l then tensor_of (tdims g) (fun idx => s_mul (el g idx) (el m idx)) else g).
Proof.
  intros l m g E Gm Gg Eg. unfold dropout_backward. rewrite E. assert (X : shape_eqb (tshape g) (tshape m) = true) by (apply shape_eqb_dims; auto). rewrite X. cbn [negb].
  destruct (dr_train l); [|reflexivity]. unfold t_mul. apply binop_same; auto.
Qed.
Lemma dropout_backward_shape : forall (l : dropout T) (m g : tensor T), dr_mask l = Some m -> tdims g <> tdims m -> dropout_backward l g = Throw InvalidArgument.
Proof.
  intros l m g E Eg. unfold dropout_backward. rewrite E. destruct (shape_eqb (tshape g) (tshape m)) eqn:X; [|reflexivity]. apply shape_eqb_dims in X. congruence.
Qed.
End S.

Local Open Scope R_scope.
Section SR.
Context {G : Type} {HR : Rng R G}.
Lemma dropout_train_R : forall (l : dropout R) (x : tensor R) (g : G), dr_train l = true -> good x -> dr_rate l <> 1 ->
  exists l' g' y, dropout_forward l x g = (l', g', Ok y) /\ good y /\ tdims y = tdims x /\
    forall idx, in_range (tdims x) idx -> el y idx = 0 \/ el y idx = el x idx * (1 / (1 - dr_rate l)).
Proof.
  intros l x g Ht Gx Hr. destruct (dropout_train l x g Ht Gx) as (r & g' & _ & Gr & Er & E). rewrite E. eexists; eexists; eexists. split; [reflexivity|].
  split; [apply good_tensor_of; [apply good_pos; auto|apply good_max; auto]|]. split; [reflexivity|]. intros idx HI. rewrite el_tensor_of by auto.
  cbn [s_lt s_z s_mul s_div s_sub RScalar]. destruct (Rltb _ _); [right|left]; ring.
Qed.
(** backward is (1 - rate) times the gradient of the sampled forward. *)
Lemma dropout_gradient : forall (l : dropout R) (e : G) ds X s dX, dr_train l = true -> dr_rate l <> 1 -> curve ds X s dX ->
  exists Y dY, (forall u, snd (dropout_forward l (X u) e) = Ok (Y u)) /\ curve ds Y s dY /\
    forall g, good g -> tdims g = ds -> exists gx,
      dropout_backward (fst (fst (dropout_forward l (X s) e))) g = Ok gx /\ good gx /\ tdims gx = ds /\ dot g dY = 1 / (1 - dr_rate l) * dot gx dX.
Proof.
  intros l e ds X s dX Ht Hr HX. destruct (curve_pos _ _ _ _ HX) as [HP HM]. pose proof (pos_forall _ HP) as HF.
  destruct (rand_good ds e HP HM) as (r & e' & ER & Gr & Er).
  assert (HFw : forall u, dropout_forward l (X u) e = (mkDrop (dr_rate l) (Some (drop_mask (dr_rate l) r)) true, e',
      Ok (tensor_of ds (fun idx => el (X u) idx * (if Rltb (dr_rate l) (el r idx) then 1 else 0) * (1 / (1 - dr_rate l)))))).
  { intros u. destruct (curve_good _ _ _ _ u HX) as [Gu Eu]. destruct (dropout_train l (X u) e Ht Gu) as (r' & e2 & ER' & _ & _ & E). rewrite Eu in ER'.
    rewrite ER' in ER. injection ER as -> ->. rewrite E, Eu. reflexivity. }
  exists (fun u => tensor_of ds (fun idx => el (X u) idx * (if Rltb (dr_rate l) (el r idx) then 1 else 0) * (1 / (1 - dr_rate l)))).
  exists (tensor_of ds (fun idx => el dX idx * (if Rltb (dr_rate l) (el r idx) then 1 else 0) * (1 / (1 - dr_rate l)))).
  split; [intros u; rewrite HFw; reflexivity|]. split.
  - apply (curve_of ds (fun u idx => el (X u) idx * (if Rltb (dr_rate l) (el r idx) then 1 else 0) * (1 / (1 - dr_rate l)))); auto. intros idx HI.
    destruct HX as (_ & _ & _ & HX). specialize (HX idx HI).
    apply (is_derive_ext (fun u => ((if Rltb (dr_rate l) (el r idx) then 1 else 0) * (1 / (1 - dr_rate l))) * el (X u) idx)); [intros; eqR; ring|].
    apply (der_eq _ _ _ _ (is_derive_scal (fun u => el (X u) idx) s _ _ HX)). eqR; ring.
  - intros g Gg Eg. rewrite HFw. cbn [fst].
    assert (Gm : good (drop_mask (dr_rate l) r)) by (unfold drop_mask; rewrite Er; apply good_tensor_of; auto).
    assert (Em : tdims (drop_mask (dr_rate l) r) = ds) by exact Er.
    eexists. split; [apply (dropout_backward_ok (mkDrop (dr_rate l) (Some (drop_mask (dr_rate l) r)) true) (drop_mask (dr_rate l) r)); auto; congruence|]. cbn [dr_train].
    rewrite Eg. split; [apply good_tensor_of; auto|]. split; [reflexivity|].
    rewrite (dot_tensor_of_r ds) by auto. rewrite dot_tensor_of by auto. rewrite rsum_mul_l. apply rsum_ext. intros idx HI. apply In_all_indices in HI; auto.
    unfold drop_mask. rewrite Er. rewrite el_tensor_of by auto. cbn [s_mul s_z s_lt RScalar]. destruct (Rltb _ _); ring.
Qed.
Lemma dropout_gradient_rate0 : forall (l : dropout R) (e : G) ds, dr_train l = true -> dr_rate l = 0 -> dropout_backward_is_gradient l e ds.
Proof.
  intros l e ds Ht Hr X s dX HX. destruct (dropout_gradient l e ds X s dX Ht) as (Y & dY & H1 & H2 & H3); [lra|auto|].
  exists Y, dY. split; [auto|]. split; [auto|]. intros g Gg Eg. destruct (H3 g Gg Eg) as (gx & A & B & C & D). exists gx. repeat split; auto; try apply B.
  rewrite D, Hr. field.
Qed.
Lemma curve_unique : forall ds Y s dY dY', curve ds Y s dY -> curve ds Y s dY' -> dY = dY'.
Proof.
  intros ds Y s dY dY' (_ & G1 & E1 & H1) (_ & G2 & E2 & H2). apply tensor_ext; [auto|auto|congruence|]. rewrite E1. intros idx HI.
  pose proof (is_derive_unique _ _ _ (H1 idx HI)) as A. pose proof (is_derive_unique _ _ _ (H2 idx HI)) as B. exact (eq_trans (eq_sym A) B).
Qed.
Lemma curve_ext : forall ds Y Y' s dY, curve ds Y s dY -> (forall u, Y u = Y' u) -> curve ds Y' s dY.
Proof.
  intros ds Y Y' s dY (H1 & H2 & H3 & H4) HE. split; [intros u; rewrite <- HE; auto|]. split; [auto|]. split; [auto|]. intros idx HI.
  apply (is_derive_ext (fun u => el (Y u) idx)); [intros u; rewrite HE; reflexivity|auto].
Qed.
Lemma dropout_gradient_only : forall (l : dropout R) (e : G) ds r e' idx, dr_train l = true -> dr_rate l <> 1 -> pos_dims ds -> (prod ds <= INT_MAX)%Z ->
  f_rand ds e = Ok (r, e') -> in_range ds idx -> dr_rate l < el r idx -> dropout_backward_is_gradient l e ds -> dr_rate l = 0.
Proof.
  intros l e ds r e' idx Ht Hr HP HM ER HI Hk HG. pose proof (pos_forall _ HP) as HF.
  assert (G1 : good (tensor_of ds (fun _ => 1) : tensor R)) by (apply good_tensor_of; auto).
  assert (HX : curve ds (fun u => tensor_of ds (fun _ => u)) 0 (tensor_of ds (fun _ => 1))).
  { apply (curve_of ds (fun u _ => u)); auto. intros. auto_derive; auto. }
  destruct (HG _ _ _ HX) as (Y & dY & F1 & C1 & B1). destruct (dropout_gradient l e ds _ _ _ Ht Hr HX) as (Y' & dY' & F2 & C2 & B2).
  assert (EY : forall u, Y u = Y' u) by (intros u; specialize (F1 u); specialize (F2 u); congruence).
  pose proof (curve_unique ds Y' 0 dY dY' (curve_ext ds Y Y' 0 dY C1 EY) C2) as ED. subst dY'.
  destruct (B1 _ G1 eq_refl) as (gx & E1 & _ & _ & D1). destruct (B2 _ G1 eq_refl) as (gx' & E2 & _ & _ & D2). rewrite E1 in E2. injection E2 as <-.
  destruct (dropout_train l (tensor_of ds (fun _ => 0)) e Ht (good_tensor_of ds _ HP HM)) as (r' & e2 & ER' & Gr & Er & EF). change (tdims (tensor_of ds (fun _ : list Z => 0))) with ds in *.
  rewrite ER in ER'. injection ER' as <- <-.
  rewrite EF in E1. cbn [fst] in E1.
  assert (Gm : good (drop_mask (dr_rate l) r)) by (unfold drop_mask; rewrite Er; apply good_tensor_of; auto).
  rewrite (dropout_backward_ok _ (drop_mask (dr_rate l) r)) in E1; [|reflexivity|auto|auto|symmetry; exact Er]. cbn [dr_train] in E1. injection E1 as <-. change (tdims (tensor_of ds (fun _ : list Z => 1))) with ds in *.
  assert (HPos : 0 < dot (tensor_of ds (fun i => s_mul (el (tensor_of ds (fun _ => 1)) i) (el (drop_mask (dr_rate l) r) i))) (tensor_of ds (fun _ => 1))).
  { rewrite dot_tensor_of by auto. apply Rlt_le_trans with (r2 := rsum (all_indices ds) (fun i => if idx_eqb i idx then 1 else 0)).
    - rewrite (rsum_single _ _ idx); [rewrite idx_eqb_refl; lra|apply NoDup_all_indices; auto|apply In_all_indices; auto|]. intros i _ Hne. rewrite idx_eqb_neq by auto. reflexivity.
    - apply rsum_le. intros i Hi. apply In_all_indices in Hi; auto. unfold drop_mask. rewrite Er. rewrite !el_tensor_of by auto. cbn [s_mul s_z s_lt RScalar].
      destruct (list_eq_dec Z.eq_dec i idx) as [->|Hne].
      + rewrite idx_eqb_refl. unfold Rltb. destruct (Rlt_dec _ _); [lra|tauto].
      + rewrite idx_eqb_neq by auto. destruct (Rltb _ _); lra. }
  rewrite D1 in D2. set (d := dot _ _) in *. 
  assert (EK : 1 / (1 - dr_rate l) = 1) by (apply (Rmult_eq_reg_r d); lra).
  assert (1 - dr_rate l <> 0) by lra. apply (f_equal (fun z => z * (1 - dr_rate l))) in EK. unfold Rdiv in EK. rewrite Rmult_assoc, Rinv_l in EK by auto. lra.
Qed.
End SR.

(** A stream that always draws one. *)
Definition one_rng : Rng R unit := {| rng_seed := fun _ => tt; rng_normal := fun _ g => (1, g); rng_uniform := fun _ _ g => (1, g) |}.
Definition zero_rng : Rng R unit := {| rng_seed := fun _ => tt; rng_normal := fun _ g => (0, g); rng_uniform := fun _ _ g => (0, g) |}.

Lemma one_rng_draw : exists r e, f_rand (H := one_rng) [1]%Z tt = Ok (r, e) /\ el r [0]%Z = 1.
Proof.
  eexists; eexists. split; [reflexivity|]. cbv [el tdata tdims tshape dims ravel znth]. cbn.
  unfold s_min, s_max. cbn [s_lt s_z RScalar]. unfold Rltb.
  match goal with |- nth _ (upd _ _ ?v) _ = ?w => change (v = w) end. repeat destruct (Rlt_dec _ _); lra.
Qed.
Lemma dropout_half_wrong : ~ dropout_backward_is_gradient (HR := one_rng) (mkDrop (1 / 2) None true) tt [1]%Z.
Proof.
  intros H. destruct one_rng_draw as (r & e & E & V).
  pose proof (dropout_gradient_only (HR := one_rng) (mkDrop (1 / 2) None true) tt [1]%Z r e [0]%Z eq_refl) as X. cbn [dr_rate] in X.
  assert (1 / 2 = 0); [|lra]. apply X; auto; try lra; auto with idx; try (vm_compute; discriminate).
Qed.
(** Rate 0 with draws that are not positive. *)
Lemma dropout_zero_drops : exists (x y : tensor R) l', good x /\ dropout_forward (H := zero_rng) (mkDrop 0 None true) x tt = (l', tt, Ok y) /\ y <> x.
Proof.
  destruct (dropout_train (HR := zero_rng) (mkDrop 0 None true) (tensor_of [1]%Z (fun _ => 1)) tt eq_refl) as (r & [] & ER & Gr & Er & E).
  { apply good_tensor_of; [auto with idx|vm_compute; discriminate]. }
  exists (tensor_of [1]%Z (fun _ => 1)). eexists; eexists. split; [apply good_tensor_of; [auto with idx|vm_compute; discriminate]|]. split; [exact E|].
  intros X. apply (f_equal (fun t => el t [0]%Z)) in X. change (tdims (tensor_of [1]%Z (fun _ : list Z => 1))) with [1]%Z in X. rewrite !el_tensor_of in X by (apply in_range1; lia).
  assert (V : el r [0]%Z = 0).
  { injection ER as <-. cbv [el tdata tdims tshape dims ravel znth]. cbn. unfold s_min, s_max. cbn [s_lt s_z RScalar]. unfold Rltb.
    change (Z.to_nat (0 * 1 + 0)) with 0%nat. cbv iota. repeat destruct (Rlt_dec _ _); lra. }
  rewrite V in X. cbn [dr_rate s_lt s_z s_mul s_div s_sub RScalar] in X. unfold Rltb in X. destruct (Rlt_dec 0 0); [lra|]. lra.
Qed.
Lemma dropout_zero_keeps : forall {G} {HR : Rng R G} (l : dropout R) (x r : tensor R) (e e' : G), dr_train l = true -> dr_rate l = 0 -> good x ->
  f_rand (tdims x) e = Ok (r, e') -> (forall idx, in_range (tdims x) idx -> 0 < el r idx) -> snd (dropout_forward l x e) = Ok x.
Proof.
  intros G HR l x r e e' Ht Hr Gx ER HP. destruct (dropout_train l x e Ht Gx) as (r' & e2 & ER' & _ & _ & E). rewrite ER in ER'. injection ER' as <- <-. rewrite E. cbn [snd]. f_equal. symmetry.
  apply tensor_eta; auto. intros idx HI. rewrite Hr. cbn [s_lt s_z s_mul s_div s_sub RScalar]. unfold Rltb. specialize (HP idx HI). destruct (Rlt_dec 0 (el r idx)); [field|lra].
Qed.
