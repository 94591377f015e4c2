(** * Fully connected layer over the reals *)
From Coq Require Import Reals Lra Permutation.
From Coquelicot Require Import Coquelicot.
From Verif Require Import Base Scalar ScalarR Types Spec M_Shape M_Tensor M_Adv M_Act M_Layers SpecR SpecNN
  L_Index L_Shape L_Bcast L_Tensor L_Reduce L_Tensor2 L_Glue L_Nest L_Matmul L_Axes L_Adv L_RSum L_AdvR L_Act L_ActR L_Layers.
Local Open Scope R_scope.

Lemma rsum1 : forall n f, (0 < n)%Z -> rsum (all_indices [n]) f = rsum (zrange 0 n) (fun i => f [i]).
Proof. intros. rewrite rsum_all_cons by auto. apply rsum_ext. intros. apply rsum_all_nil. Qed.
Lemma rsum2 : forall m n f, (0 < m)%Z -> (0 < n)%Z ->
  rsum (all_indices [m; n]) f = rsum (zrange 0 m) (fun i => rsum (zrange 0 n) (fun j => f [i; j])).
Proof. intros. rewrite rsum_all_cons by auto. apply rsum_ext. intros. apply rsum1. auto. Qed.
Lemma rsum3 : forall a b c f, (0 < a)%Z -> (0 < b)%Z -> (0 < c)%Z ->
  rsum (all_indices [a; b; c]) f = rsum (zrange 0 a) (fun i => rsum (zrange 0 b) (fun j => rsum (zrange 0 c) (fun k => f [i; j; k]))).
Proof. intros. rewrite rsum_all_cons by auto. apply rsum_ext. intros. apply rsum2; auto. Qed.
Lemma rsum4 : forall a b c d f, (0 < a)%Z -> (0 < b)%Z -> (0 < c)%Z -> (0 < d)%Z ->
  rsum (all_indices [a; b; c; d]) f = rsum (zrange 0 a) (fun i => rsum (zrange 0 b) (fun j => rsum (zrange 0 c) (fun k => rsum (zrange 0 d) (fun l => f [i; j; k; l])))).
Proof. intros. rewrite rsum_all_cons by auto. apply rsum_ext. intros. apply rsum3; auto. Qed.
Lemma rsum_one : forall f, rsum (zrange 0 1) f = f 0%Z.
Proof. intros. rewrite (zrange_cons 0 1) by lia. rewrite (zrange_nil (0 + 1) 1) by lia. rewrite rsum_cons, rsum_nil. ring. Qed.
Lemma rsum_mul_l : forall {A} (l : list A) f c, c * rsum l f = rsum l (fun x => c * f x).
Proof. intros. symmetry. apply rsum_scal_l. Qed.
Lemma rsum_mul_r : forall {A} (l : list A) f c, rsum l f * c = rsum l (fun x => f x * c).
Proof. intros. symmetry. apply rsum_scal_r. Qed.

Lemma fc_dot : forall (N K O : list Z) (g X W dX dW : Z -> Z -> R) (dB : Z -> R),
  rsum N (fun i => rsum O (fun j => g i j * (rsum K (fun p => dX i p * W p j + X i p * dW p j) + dB j))) =
  rsum N (fun i => rsum K (fun p => rsum O (fun j => g i j * W p j) * dX i p)) +
  rsum K (fun p => rsum O (fun j => rsum N (fun i => X i p * g i j) * dW p j)) +
  rsum O (fun j => rsum N (fun i => g i j) * dB j).
Proof.
  intros. rewrite (rsum_ext N _ (fun i => rsum K (fun p => rsum O (fun j => g i j * W p j * dX i p)) +
     rsum K (fun p => rsum O (fun j => X i p * g i j * dW p j)) + rsum O (fun j => g i j * dB j))).
  - rewrite !rsum_plus. f_equal; [f_equal|].
    + apply rsum_ext. intros i _. apply rsum_ext. intros p _. rewrite rsum_scal_r. reflexivity.
    + rewrite rsum_swap. apply rsum_ext. intros p _. rewrite rsum_swap. apply rsum_ext. intros j _. rewrite rsum_scal_r. reflexivity.
    + rewrite rsum_swap. apply rsum_ext. intros j _. rewrite rsum_scal_r. reflexivity.
  - intros i _. rewrite (rsum_swap K O), (rsum_swap K O), <- !rsum_plus. apply rsum_ext. intros j _.
    rewrite Rmult_plus_distr_l. f_equal. rewrite rsum_mul_l, <- rsum_plus. apply rsum_ext. intros p _. ring.
Qed.

Lemma affine_R : forall k (W b : tensor R) r j, affine k W b r j = rsum (zrange 0 k) (fun p => r p * el W [p; j]) + el b [0; j]%Z.
Proof. intros. unfold affine. rewrite sum_to_R. reflexivity. Qed.
Lemma affine_derive : forall k o (W B : R -> tensor R) s dW dB (r : R -> Z -> R) dr j,
  curve [k; o] W s dW -> curve [1; o]%Z B s dB -> (0 <= j < o)%Z -> (forall p, (0 <= p < k)%Z -> is_derive (fun u => r u p) s (dr p)) ->
  is_derive (fun u => affine k (W u) (B u) (r u) j) s (rsum (zrange 0 k) (fun p => dr p * el (W s) [p; j] + r s p * el dW [p; j]) + el dB [0; j]%Z).
Proof.
  intros k o W B s dW dB r dr j (_ & _ & _ & HW) (_ & _ & _ & HB) Hj Hr.
  apply (is_derive_ext (fun u => rsum (zrange 0 k) (fun p => r u p * el (W u) [p; j]) + el (B u) [0; j]%Z)); [intros; rewrite affine_R; reflexivity|].
  apply (is_derive_plus (fun u => rsum (zrange 0 k) (fun p => r u p * el (W u) [p; j])) (fun u => el (B u) [0; j]%Z)); [|apply HB; auto with idx].
  apply (is_derive_rsum (zrange 0 k) (fun p u => r u p * el (W u) [p; j])). intros p HI. apply In_zrange in HI.
  apply is_derive_multR; [apply Hr; auto|apply HW; auto with idx].
Qed.

(** Backward of a fully connected layer is the gradient, batched and for a single sample. *)
Lemma fc_gradient_2 : forall n k o X W B s dX dW dB i0 w0 b0,
  curve [n; k] X s dX -> curve [k; o] W s dW -> curve [1; o]%Z B s dB -> (n * o <= INT_MAX)%Z ->
  exists Y dY, (forall u, snd (fc_forward (mkFC (W u) (B u) i0 w0 b0) (X u)) = Ok (Y u)) /\ curve [n; o] Y s dY /\
    forall g, good g -> tdims g = [n; o] -> exists gx gw gb,
      fc_backward (fst (fc_forward (mkFC (W s) (B s) i0 w0 b0) (X s))) g = (mkFC (W s) (B s) (Some (X s)) (Some gw) (Some gb), Ok gx) /\
      good gx /\ tdims gx = [n; k] /\ good gw /\ tdims gw = [k; o] /\ good gb /\ tdims gb = [1; o]%Z /\
      dot g dY = dot gx dX + dot gw dW + dot gb dB.
Proof.
  intros n k o X W B s dX dW dB i0 w0 b0 HX HW HB HM.
  assert (HF : forall u i1 w1 b1, fc_wf (mkFC (W u) (B u) i1 w1 b1) k o).
  { intros u i1 w1 b1. destruct (curve_good _ _ _ _ u HW), (curve_good _ _ _ _ u HB). repeat split; auto; simpl; try apply H; try apply H1. }
  destruct (curve_good _ _ _ _ s HX) as [Gx Ex]. destruct (curve_good _ _ _ _ s HW) as [Gw Ew]. destruct (curve_good _ _ _ _ s HB) as [Gb Eb].
  destruct (dims2_pos (X s) n k Gx Ex) as (Hn & Hk & HM1). destruct (dims2_pos (W s) k o Gw Ew) as (_ & Ho & HM2).
  eexists (fun u => tensor_of [n; o] (fn2 (fun i j => affine k (W u) (B u) (fun p => el (X u) [i; p]) j))).
  exists (tensor_of [n; o] (fn2 (fun i j => rsum (zrange 0 k) (fun p => el dX [i; p] * el (W s) [p; j] + el (X s) [i; p] * el dW [p; j]) + el dB [0; j]%Z))).
  split; [|split].
  - intros u. destruct (curve_good _ _ _ _ u HX) as [Gu Eu]. rewrite (fc_forward_2 _ k o (X u) n (HF u _ _ _)); auto.
  - apply (curve_of [n; o] (fun u => fn2 (fun i j => affine k (W u) (B u) (fun p => el (X u) [i; p]) j))); [auto with idx|simpl; lia|].
    intros idx HI. apply in_range_2 in HI. destruct HI as (i & j & -> & Hi & Hj). unfold fn2. cbn [nth].
    apply (affine_derive k o W B s dW dB (fun u p => el (X u) [i; p]) (fun p => el dX [i; p]) j HW HB Hj).
    intros p Hp. destruct HX as (_ & _ & _ & HX). apply HX. auto with idx.
  - intros g Gg Eg. rewrite (fc_forward_2 _ k o (X s) n (HF s _ _ _)) by auto. cbn [fst].
    rewrite (fc_backward_rows _ k o n (X s) g (X s) g (HF s _ _ _) eq_refl (as_row_2 _ n k Ex) (as_row_2 _ n o Eg)) by auto. cbn [fc_w fc_b fc_in].
    eexists; eexists; eexists; split; [reflexivity|]. split; [apply good_2; lia|]. split; [reflexivity|]. split; [apply good_2; lia|]. split; [reflexivity|].
    split; [apply good_2; nia|]. split; [reflexivity|].
    rewrite (dot_tensor_of_r [n; o]); [|apply pos_forall; auto with idx|auto]. rewrite !dot_tensor_of by (apply pos_forall; auto with idx).
    rewrite !rsum2 by lia. unfold fn2. cbn [nth]. rewrite rsum_one. unfold fc_dx, fc_dw, fc_db.
    rewrite (fc_dot (zrange 0 n) (zrange 0 k) (zrange 0 o) (fun i j => el g [i; j]) (fun i p => el (X s) [i; p]) (fun p j => el (W s) [p; j]) (fun i p => el dX [i; p]) (fun p j => el dW [p; j]) (fun j => el dB [0; j]%Z)).
    f_equal; [f_equal|]; repeat (apply rsum_ext; intros ? _); rewrite sum_to_R; reflexivity.
Qed.
Lemma fc_gradient_1 : forall k o X W B s dX dW dB i0 w0 b0,
  curve [k] X s dX -> curve [k; o] W s dW -> curve [1; o]%Z B s dB ->
  exists Y dY, (forall u, snd (fc_forward (mkFC (W u) (B u) i0 w0 b0) (X u)) = Ok (Y u)) /\ curve [o] Y s dY /\
    forall g, good g -> tdims g = [o] -> exists gx gw gb,
      fc_backward (fst (fc_forward (mkFC (W s) (B s) i0 w0 b0) (X s))) g = (mkFC (W s) (B s) (Some (X s)) (Some gw) (Some gb), Ok gx) /\
      good gx /\ tdims gx = [1; k]%Z /\ good gw /\ tdims gw = [k; o] /\ good gb /\ tdims gb = [1; o]%Z /\
      dot g dY = rsum (zrange 0 k) (fun p => el gx [0; p]%Z * el dX [p]) + dot gw dW + dot gb dB.
Proof.
  intros k o X W B s dX dW dB i0 w0 b0 HX HW HB.
  assert (HF : forall u i1 w1 b1, fc_wf (mkFC (W u) (B u) i1 w1 b1) k o).
  { intros u i1 w1 b1. destruct (curve_good _ _ _ _ u HW), (curve_good _ _ _ _ u HB). repeat split; auto; simpl; try apply H; try apply H1. }
  destruct (curve_good _ _ _ _ s HX) as [Gx Ex]. destruct (curve_good _ _ _ _ s HW) as [Gw Ew]. destruct (curve_good _ _ _ _ s HB) as [Gb Eb].
  destruct (dims1_pos (X s) k Gx Ex) as (Hk & HM1). destruct (dims2_pos (W s) k o Gw Ew) as (_ & Ho & HM2). assert (HMo : (o <= INT_MAX)%Z) by nia.
  eexists (fun u => tensor_of [o] (fn1 (fun j => affine k (W u) (B u) (fun p => el (X u) [p]) j))).
  exists (tensor_of [o] (fn1 (fun j => rsum (zrange 0 k) (fun p => el dX [p] * el (W s) [p; j] + el (X s) [p] * el dW [p; j]) + el dB [0; j]%Z))).
  split; [|split].
  - intros u. destruct (curve_good _ _ _ _ u HX) as [Gu Eu]. rewrite (fc_forward_1 _ k o (X u) (HF u _ _ _)); auto.
  - apply (curve_of [o] (fun u => fn1 (fun j => affine k (W u) (B u) (fun p => el (X u) [p]) j))); [auto with idx|simpl; lia|].
    intros idx HI. apply in_range_1 in HI. destruct HI as (j & -> & Hj). unfold fn1. cbn [nth].
    apply (affine_derive k o W B s dW dB (fun u p => el (X u) [p]) (fun p => el dX [p]) j HW HB Hj).
    intros p Hp. destruct HX as (_ & _ & _ & HX). apply HX. auto with idx.
  - intros g Gg Eg. rewrite (fc_forward_1 _ k o (X s) (HF s _ _ _)) by auto. cbn [fst].
    rewrite (fc_backward_rows _ k o 1 (X s) g _ _ (HF s _ _ _) eq_refl (as_row_1 _ k Gx Ex) (as_row_1 _ o Gg Eg)) by (try reflexivity; apply good_2; lia). cbn [fc_w fc_b fc_in].
    eexists; eexists; eexists; split; [reflexivity|]. split; [apply good_2; lia|]. split; [reflexivity|]. split; [apply good_2; lia|]. split; [reflexivity|].
    split; [apply good_2; nia|]. split; [reflexivity|].
    rewrite (dot_tensor_of_r [o]); [|apply pos_forall; auto with idx|auto]. rewrite !dot_tensor_of by (apply pos_forall; auto with idx).
    rewrite !rsum2 by lia. rewrite rsum1 by lia. unfold fn2, fn1. cbn [nth]. rewrite rsum_one. unfold fc_dx, fc_dw, fc_db.
    pose proof (fc_dot (zrange 0 1) (zrange 0 k) (zrange 0 o) (fun i j => el g [j]) (fun i p => el (X s) [p]) (fun p j => el (W s) [p; j]) (fun i p => el dX [p]) (fun p j => el dW [p; j]) (fun j => el dB [0; j]%Z)) as E.
    rewrite !rsum_one in E. rewrite E. clear E.
    f_equal; [f_equal|].
    + apply rsum_ext. intros p Hp. apply In_zrange in Hp. rewrite el_tensor_of by auto with idx. cbn [nth]. rewrite sum_to_R. f_equal. apply rsum_ext. intros j Hj. apply In_zrange in Hj.
      rewrite el_tensor_of by auto with idx. reflexivity.
    + apply rsum_ext. intros p Hp. apply In_zrange in Hp. apply rsum_ext. intros j Hj. apply In_zrange in Hj. rewrite sum_to_R, !rsum_one.
      rewrite !el_tensor_of by auto with idx. reflexivity.
    + apply rsum_ext. intros j Hj. apply In_zrange in Hj. rewrite sum_to_R, !rsum_one. rewrite !el_tensor_of by auto with idx. reflexivity.
Qed.
