(** * Conv2D over the reals *)
From Coq Require Import Reals Lra Permutation.
From Coquelicot Require Import Coquelicot.
From Verif Require Import Base Scalar ScalarR Types Spec M_Shape M_Tensor M_Adv M_Act M_Layers SpecR SpecNN SpecLayers
  L_Index L_Shape L_Bcast L_Tensor L_Reduce L_Tensor2 L_Glue L_Nest L_Matmul L_Axes L_Adv L_RSum L_AdvR L_Act L_ActR L_Loss L_Layers L_LayersR L_Conv.
Local Open Scope R_scope.

Lemma scatter_R : forall {A} (v : A -> R) l z, fold_left s_add (map v l) z = z + rsum l v.
Proof. intros. cbn [s_add RScalar]. rewrite fold_Rsum. reflexivity. Qed.
Lemma rsum_group : forall {A} (P : list (list Z)) (K : list A) (pos : A -> list Z) (v : A -> R) (d : list Z -> R),
  NoDup P -> (forall k, In k K -> In (pos k) P) ->
  rsum P (fun p => rsum (filter (fun k => idx_eqb (pos k) p) K) v * d p) = rsum K (fun k => v k * d (pos k)).
Proof.
  intros A P K pos v d HN HP.
  rewrite (rsum_ext P _ (fun p => rsum K (fun k => (if idx_eqb (pos k) p then v k else 0) * d p))).
  2: { intros p _. rewrite rsum_filter, <- rsum_scal_r. reflexivity. }
  rewrite rsum_swap. apply rsum_ext. intros k HK. rewrite (rsum_single P _ (pos k)); auto.
  - rewrite idx_eqb_refl. reflexivity.
  - intros p _ Hne. rewrite idx_eqb_neq by congruence. ring.
Qed.

Lemma conv0_R : forall (x W b : tensor R) kh kw i o y z, (0 < kh)%Z -> (0 < kw)%Z ->
  conv0 x W b kh kw i o y z = rsum (zrange 0 kh) (fun p => rsum (zrange 0 kw) (fun q => el x [i; 0%Z; y + p; z + q]%Z * el W [o; 0; p; q]%Z)) + el b [o; 0]%Z.
Proof. intros. unfold conv0. rewrite fsum_R. change (Rsum (map ?f ?l)) with (rsum l f). rewrite rsum2 by auto. reflexivity. Qed.

Lemma conv_dot : forall (Y V P Q : list Z) (g : Z -> Z -> R) (x dx : Z -> Z -> R) (w dw : Z -> Z -> R) (db : R),
  rsum Y (fun y => rsum V (fun z => g y z * (rsum P (fun p => rsum Q (fun q => dx (y + p)%Z (z + q)%Z * w p q + x (y + p)%Z (z + q)%Z * dw p q)) + db))) =
  rsum Y (fun y => rsum V (fun z => rsum P (fun p => rsum Q (fun q => w p q * g y z * dx (y + p)%Z (z + q)%Z)))) +
  rsum P (fun p => rsum Q (fun q => rsum Y (fun y => rsum V (fun z => x (y + p)%Z (z + q)%Z * g y z)) * dw p q)) +
  rsum Y (fun y => rsum V (fun z => g y z)) * db.
Proof.
  intros. rewrite (rsum_ext P _ (fun p => rsum Y (fun y => rsum V (fun z => rsum Q (fun q => x (y + p)%Z (z + q)%Z * g y z * dw p q))))).
  2: { intros p _. rewrite (rsum_ext Q _ (fun q => rsum Y (fun y => rsum V (fun z => x (y + p)%Z (z + q)%Z * g y z * dw p q)))).
       - rewrite rsum_swap. apply rsum_ext. intros y _. rewrite rsum_swap. reflexivity.
       - intros q _. rewrite rsum_mul_r. apply rsum_ext. intros y _. rewrite rsum_mul_r. reflexivity. }
  rewrite (rsum_swap P Y). rewrite rsum_mul_r, <- !rsum_plus. apply rsum_ext. intros y _.
  rewrite (rsum_swap P V). rewrite rsum_mul_r, <- !rsum_plus. apply rsum_ext. intros z _.
  rewrite <- rsum_plus, Rmult_plus_distr_l. f_equal. rewrite rsum_mul_l. apply rsum_ext. intros p _.
  rewrite rsum_mul_l, <- rsum_plus. apply rsum_ext. intros q _. ring.
Qed.

Section G.
Variables (n ic h w oc kh kw st pd dl : Z).
Hypotheses (Hn : (0 < n)%Z) (Hic : (0 < ic)%Z) (Hoc : (0 < oc)%Z) (Hkh : (0 < kh <= h)%Z) (Hkw : (0 < kw <= w)%Z).
Hypothesis (HMx : (n * (ic * (h * w)) <= INT_MAX)%Z) (HMy : (n * (oc * ((h - kh + 1) * (w - kw + 1))) <= INT_MAX)%Z) (HMw : (oc * (ic * (kh * kw)) <= INT_MAX)%Z) (HMo : (oc <= INT_MAX)%Z).
Notation oh := (h - kh + 1)%Z.
Notation ow := (w - kw + 1)%Z.

Lemma conv_layer_wf : forall i0 w0 b0 W B, good W -> tdims W = [oc; ic; kh; kw] -> good B -> tdims B = [oc; 1%Z] -> conv_wf (conv_layer ic oc kh kw st pd dl i0 w0 b0 W B).
Proof. intros. repeat split; auto; try apply H; try apply H1. Qed.

Lemma conv_forward_curve : forall X W B s dX dW dB i0 w0 b0,
  curve [n; ic; h; w] X s dX -> curve [oc; ic; kh; kw] W s dW -> curve [oc; 1%Z] B s dB ->
  (forall u, conv_forward (conv_layer ic oc kh kw st pd dl i0 w0 b0 (W u) (B u)) (X u) =
     (conv_layer ic oc kh kw st pd dl (Some (X u)) w0 b0 (W u) (B u), Ok (tensor_of [n; oc; oh; ow] (fn4 (conv0 (X u) (W u) (B u) kh kw))))) /\
  curve [n; oc; oh; ow] (fun u => tensor_of [n; oc; oh; ow] (fn4 (conv0 (X u) (W u) (B u) kh kw))) s
    (tensor_of [n; oc; oh; ow] (fn4 (fun i o y z =>
       rsum (zrange 0 kh) (fun p => rsum (zrange 0 kw) (fun q => el dX [i; 0; y + p; z + q]%Z * el (W s) [o; 0; p; q]%Z + el (X s) [i; 0; y + p; z + q]%Z * el dW [o; 0; p; q]%Z)) + el dB [o; 0]%Z))).
Proof.
  intros X W B s dX dW dB i0 w0 b0 HX HW HB. split.
  - intros u. destruct (curve_good _ _ _ _ u HX) as [Gx Ex]. destruct (curve_good _ _ _ _ u HW) as [Gw Ew]. destruct (curve_good _ _ _ _ u HB) as [Gb Eb].
    rewrite (conv_forward_ok _ (X u) n h w); auto; try (simpl; lia). apply conv_layer_wf; auto.
  - apply (curve_of [n; oc; oh; ow] (fun u => fn4 (conv0 (X u) (W u) (B u) kh kw))); [auto with idx|simpl; lia|].
    intros idx HI. apply in_range_4 in HI. destruct HI as (i & o & y & z & -> & Hi & Ho & Hy & Hz). unfold fn4. cbn [nth].
    destruct HX as (_ & _ & _ & HX). destruct HW as (_ & _ & _ & HW). destruct HB as (_ & _ & _ & HB).
    apply (is_derive_ext (fun u => rsum (zrange 0 kh) (fun p => rsum (zrange 0 kw) (fun q => el (X u) [i; 0%Z; y + p; z + q]%Z * el (W u) [o; 0; p; q]%Z)) + el (B u) [o; 0]%Z)).
    { intros u. rewrite conv0_R by lia. reflexivity. }
    apply (is_derive_plus (fun u => rsum (zrange 0 kh) (fun p => rsum (zrange 0 kw) (fun q => el (X u) [i; 0%Z; y + p; z + q]%Z * el (W u) [o; 0; p; q]%Z))) (fun u => el (B u) [o; 0]%Z));
      [|apply HB; apply in_range2; lia].
    apply (is_derive_rsum (zrange 0 kh) (fun p u => rsum (zrange 0 kw) (fun q => el (X u) [i; 0%Z; y + p; z + q]%Z * el (W u) [o; 0; p; q]%Z))). intros p HP. apply In_zrange in HP.
    apply (is_derive_rsum (zrange 0 kw) (fun q u => el (X u) [i; 0%Z; y + p; z + q]%Z * el (W u) [o; 0; p; q]%Z)). intros q HQ. apply In_zrange in HQ.
    apply (is_derive_multR (fun u => el (X u) [i; 0%Z; y + p; z + q]%Z)); [apply HX; apply in_range4; lia|apply HW; apply in_range4; lia].
Qed.

Lemma conv_gradient_11 : n = 1%Z -> oc = 1%Z -> conv_backward_is_gradient n ic h w oc kh kw st pd dl.
Proof.
  intros En Eoc X W B s dX dW dB i0 w0 b0 HX HW HB.
  destruct (conv_forward_curve X W B s dX dW dB i0 w0 b0 HX HW HB) as [HF HC].
  eexists; eexists; split; [intros u; rewrite HF; reflexivity|]. split; [exact HC|].
  destruct (curve_good _ _ _ _ s HX) as [Gx Ex]. destruct (curve_good _ _ _ _ s HW) as [Gw Ew]. destruct (curve_good _ _ _ _ s HB) as [Gb Eb].
  intros g Gg Eg. rewrite HF. cbn [fst].
  rewrite (conv_backward_ok (conv_layer ic oc kh kw st pd dl (Some (X s)) w0 b0 (W s) (B s)) (X s) g n n h w oh ow); auto; [|apply conv_layer_wf; auto].
  unfold conv_layer. cbn [cv_w cv_b cv_in cv_ic cv_oc cv_kh cv_kw cv_stride cv_pad cv_dil].
  eexists; eexists; eexists; split; [reflexivity|]. split; [apply good_4; lia|]. split; [reflexivity|]. split; [apply good_4; lia|]. split; [reflexivity|].
  split; [apply good_2; lia|]. split; [reflexivity|].
  rewrite (dot_tensor_of_r [n; oc; oh; ow]); [|apply pos_forall; auto with idx|auto]. rewrite !dot_tensor_of by (apply pos_forall; auto with idx).
  subst n oc.
  rewrite (rsum4 1 1 oh ow), rsum_one, rsum_one by lia.
  unfold fn4 at 1. cbn [nth].
  rewrite (conv_dot (zrange 0 oh) (zrange 0 ow) (zrange 0 kh) (zrange 0 kw) (fun y z => el g [0; 0; y; z]%Z) (fun y z => el (X s) [0; 0; y; z]%Z) (fun y z => el dX [0; 0; y; z]%Z)
     (fun p q => el (W s) [0; 0; p; q]%Z) (fun p q => el dW [0; 0; p; q]%Z) (el dB [0; 0]%Z)).
  f_equal; [f_equal|].
  - unfold cgx. rewrite (rsum_ext (all_indices [1; ic; h; w]%Z) _ (fun p => rsum (filter (fun k => idx_eqb (fn4 (fun i j a b => [0; 0; i + a; j + b]%Z) k) p) (all_indices [oh; ow; kh; kw]))
        (fn4 (fun i j a b => s_mul (el (W s) [0; 0; a; b]%Z) (el g [0; 0; i; j]%Z))) * el dX p)).
    2: { intros p _. rewrite scatter_R. cbn [s_z RScalar]. ring. }
    rewrite rsum_group.
    + rewrite rsum4 by lia. reflexivity.
    + apply NoDup_all_indices. apply pos_forall; auto with idx.
    + intros k HK. apply In_all_indices in HK; [|apply pos_forall; auto with idx]. apply in_range_4 in HK. destruct HK as (i & j & a & b & -> & Hi & Hj & Ha & Hb).
      apply In_all_indices; [apply pos_forall; auto with idx|]. apply in_range4; cbn [nth]; lia.
  - rewrite rsum4, rsum_one by lia. symmetry. rewrite (rsum_single (zrange 0 ic) _ 0%Z).
    + apply rsum_ext. intros p _. apply rsum_ext. intros q _. f_equal. unfold cgw. rewrite fsum_R. change (Rsum (map ?f ?l)) with (rsum l f). rewrite rsum2 by lia. reflexivity.
    + apply NoDup_zrange.
    + apply In_zrange. lia.
    + intros c _ Hc. apply rsum_zero. intros p _. apply rsum_zero. intros q _. unfold cgw. destruct c; [congruence| |]; cbn [s_z RScalar]; ring.
  - rewrite rsum2, !rsum_one by lia. unfold cgb. rewrite idx_eqb_refl. rewrite fsum_R. change (Rsum (map ?f ?l)) with (rsum l f). rewrite rsum2 by lia. reflexivity.
Qed.

(** With more than one sample or output channel the bias gradient misses contributions. *)
Lemma conv_gradient_only_11 : conv_backward_is_gradient n ic h w oc kh kw st pd dl -> n = 1%Z /\ oc = 1%Z.
Proof.
  intros H.
  assert (HX : curve [n; ic; h; w] (fun _ => tensor_of [n; ic; h; w] (fun _ => 0)) 0 (tensor_of [n; ic; h; w] (fun _ => 0))).
  { apply (curve_of _ (fun _ _ => 0)); [auto with idx|simpl; lia|]. intros. auto_derive; auto. }
  assert (HW : curve [oc; ic; kh; kw] (fun _ => tensor_of [oc; ic; kh; kw] (fun _ => 0)) 0 (tensor_of [oc; ic; kh; kw] (fun _ => 0))).
  { apply (curve_of _ (fun _ _ => 0)); [auto with idx|simpl; lia|]. intros. auto_derive; auto. }
  assert (HB : curve [oc; 1%Z] (fun u => tensor_of [oc; 1%Z] (fun _ => u)) 0 (tensor_of [oc; 1%Z] (fun _ => 1))).
  { apply (curve_of [oc; 1%Z] (fun u _ => u)); [auto with idx|simpl; lia|]. intros. auto_derive; auto. }
  destruct (H _ _ _ _ _ _ _ None None None HX HW HB) as (Y & dY & HFwd & HY & HG).
  destruct (conv_forward_curve _ _ _ _ _ _ _ None None None HX HW HB) as [HF HC].
  set (g := tensor_of [n; oc; oh; ow] (fun _ => 1) : tensor R). destruct (HG g) as (gx & gw & gb & EB & _ & _ & _ & _ & _ & _ & ED); [apply good_4; lia|reflexivity|].
  rewrite HF in EB. cbn [fst] in EB.
  destruct (curve_good _ _ _ _ 0 HX) as [Gx Ex]. destruct (curve_good _ _ _ _ 0 HW) as [Gw Ew]. destruct (curve_good _ _ _ _ 0 HB) as [Gb Eb].
  rewrite (conv_backward_ok _ (tensor_of [n; ic; h; w] (fun _ => 0)) g n n h w oh ow) in EB; auto; [|apply conv_layer_wf; auto|apply good_4; lia].
  unfold conv_layer in EB. cbn [cv_w cv_b cv_in cv_ic cv_oc cv_kh cv_kw cv_stride cv_pad cv_dil] in EB. injection EB as Egw Egb Egx. subst gw gb gx.
  assert (HP : forall a b c d : Z, (0 < a)%Z -> (0 < b)%Z -> (0 < c)%Z -> (0 < d)%Z -> Forall (fun d => (0 < d)%Z) [a; b; c; d]) by (intros; apply pos_forall; auto with idx).
  assert (E1 : dot g dY = IZR (n * (oc * (oh * ow)))).
  { unfold g. rewrite dot_tensor_of by (apply HP; lia). rewrite (rsum_ext _ _ (fun _ => 1)).
    - rewrite rsum_const. unfold all_indices. rewrite Zlen_ztab by (pose proof (prod_pos [n; oc; oh; ow] ltac:(apply HP; lia)); lia). simpl prod. rewrite Rmult_1_r. f_equal. lia.
    - intros idx HI. apply In_all_indices in HI; [|apply HP; lia]. rewrite Rmult_1_l.
      destruct HY as (_ & _ & _ & HY). destruct HC as (_ & _ & _ & HC). specialize (HY idx HI). specialize (HC idx HI).
      assert (EY : forall u, Y u = tensor_of [n; oc; oh; ow] (fn4 (conv0 (tensor_of [n; ic; h; w] (fun _ => 0)) (tensor_of [oc; ic; kh; kw] (fun _ => 0)) (tensor_of [oc; 1%Z] (fun _ => u)) kh kw))).
      { intros u. specialize (HFwd u). rewrite HF in HFwd. cbn [snd] in HFwd. congruence. }
      apply (is_derive_ext _ (fun u => el (tensor_of [n; oc; oh; ow] (fn4 (conv0 (tensor_of [n; ic; h; w] (fun _ => 0)) (tensor_of [oc; ic; kh; kw] (fun _ => 0)) (tensor_of [oc; 1%Z] (fun _ => u)) kh kw))) idx)) in HY;
        [|intros u; rewrite EY; reflexivity].
      apply is_derive_unique in HY. apply is_derive_unique in HC. pose proof (eq_trans (eq_sym HY) HC) as HE. rewrite HE. rewrite el_tensor_of by (auto; apply HP; lia).
      apply in_range_4 in HI. destruct HI as (i & o & y & z & -> & Hi & Ho & Hy & Hz). unfold fn4. cbn [nth].
      rewrite el_tensor_of by (try apply pos_forall; auto with idx). rewrite rsum_zero; [ring|]. intros p HP1. apply In_zrange in HP1. apply rsum_zero. intros q HQ1. apply In_zrange in HQ1.
      rewrite !el_tensor_of by (apply in_range4; lia). ring. }
  assert (E2 : dot (tensor_of [n; ic; h; w] (cgx (tensor_of [oc; ic; kh; kw] (fun _ => 0)) g oh ow kh kw)) (tensor_of [n; ic; h; w] (fun _ => 0)) = 0).
  { rewrite dot_tensor_of by (apply HP; lia). apply rsum_zero. intros idx HI. apply In_all_indices in HI; [|apply HP; lia]. rewrite el_tensor_of by auto. ring. }
  assert (E3 : dot (tensor_of [oc; ic; kh; kw] (cgw (tensor_of [n; ic; h; w] (fun _ => 0)) g oh ow)) (tensor_of [oc; ic; kh; kw] (fun _ => 0)) = 0).
  { rewrite dot_tensor_of by (apply HP; lia). apply rsum_zero. intros idx HI. apply In_all_indices in HI; [|apply HP; lia]. rewrite el_tensor_of by auto. ring. }
  assert (E4 : dot (tensor_of [oc; 1%Z] (cgb g oh ow)) (tensor_of [oc; 1%Z] (fun _ => 1)) = IZR (oh * ow)).
  { rewrite dot_tensor_of by (apply pos_forall; auto with idx). rewrite (rsum_single _ _ [0; 0]%Z).
    - rewrite el_tensor_of by (apply in_range2; lia). unfold cgb. rewrite idx_eqb_refl, fsum_R. change (Rsum (map ?f ?l)) with (rsum l f).
      rewrite (rsum_ext _ _ (fun _ => 1)). 
      + rewrite rsum_const. unfold all_indices. rewrite Zlen_ztab by (simpl; nia). simpl prod. rewrite !Rmult_1_r. f_equal. lia.
      + intros idx HI. apply In_all_indices in HI; [|apply pos_forall; auto with idx]. apply in_range_2 in HI. destruct HI as (i & j & -> & Hi & Hj).
        unfold fn2. cbn [nth]. unfold g. rewrite el_tensor_of by (apply in_range4; lia). reflexivity.
    - apply NoDup_all_indices. apply pos_forall; auto with idx.
    - apply In_all_indices; [apply pos_forall; auto with idx|apply in_range2; lia].
    - intros idx _ Hne. unfold cgb. rewrite idx_eqb_neq by auto. cbn [s_z RScalar]. ring. }
  rewrite E1, E2, E3, E4, !Rplus_0_l in ED. apply eq_IZR in ED.
  assert (0 < oh * ow)%Z by nia. assert (n * oc = 1)%Z by nia. nia.
Qed.
End G.
Lemma conv_gradient_fails : exists n ic h w oc kh kw st pd dl, (0 < n /\ 0 < ic /\ 0 < oc /\ 0 < kh <= h /\ 0 < kw <= w)%Z /\ ~ conv_backward_is_gradient n ic h w oc kh kw st pd dl.
Proof.
  exists 2%Z, 1%Z, 1%Z, 1%Z, 1%Z, 1%Z, 1%Z, 1%Z, 0%Z, 1%Z. split; [lia|].
  intros H. apply conv_gradient_only_11 in H; try (vm_compute; discriminate || congruence); try lia; vm_compute; try congruence; split; congruence.
Qed.
