(** * Initial weights are not negative; what follows for ReLU *)
From Coq Require Import Reals Lra.
From Verif Require Import Base Scalar ScalarR Types Spec M_Shape M_Tensor M_Adv M_Act M_Loss M_Layers M_Reg M_Opt M_Net SpecNN SpecR SpecNet SpecInit
  L_Index L_Shape L_Tensor L_Tensor2 L_Nest L_Matmul L_Glue L_Layers L_ActR L_RSum L_OptR L_Init.
Local Open Scope Z_scope.
Local Existing Instance RScalar.

Lemma clamp_R : forall v : R, (0 <= clamp 0%R 1%R v <= 1)%R /\ ((v <= 0)%R -> clamp 0%R 1%R v = 0%R) /\ ((0 <= v <= 1)%R -> clamp 0%R 1%R v = v) /\ ((1 <= v)%R -> clamp 0%R 1%R v = 1%R).
Proof.
  intros v. unfold clamp. cbn [s_lt RScalar]. unfold Rltb. destruct (Rlt_dec v 0); destruct (Rlt_dec 1 _); repeat split; intros; lra.
Qed.
Section S.
Context {G : Type} {HR : Rng R G}.
Lemma drawn_el : forall ds (g : G) idx, in_range ds idx -> el (drawn ds 0%R 1%R g) idx = clamp 0%R 1%R (draw (deviation (prod ds)) (Z.to_nat (ravel ds idx)) g).
Proof. intros. unfold drawn. rewrite el_tensor_of by auto. reflexivity. Qed.
Lemma fc_weights_R : forall k o (g : G) l g' i j, 0 < k -> 0 < o -> k * o <= INT_MAX -> fc_new k o g = Ok (l, g') -> 0 <= i < k -> 0 <= j < o ->
  let v := draw (sqrt (2 / IZR (k * o))) (Z.to_nat (i * o + j)) g in
  (0 <= el (fc_w l) [i; j] <= 1)%R /\ ((v <= 0)%R -> el (fc_w l) [i; j] = 0%R) /\ ((0 <= v <= 1)%R -> el (fc_w l) [i; j] = v) /\ ((1 <= v)%R -> el (fc_w l) [i; j] = 1%R) /\ el (fc_b l) [0; j] = 0%R.
Proof.
  intros k o g l g' i j Hk Ho HM E Hi Hj v. rewrite fc_new_drawn in E by auto. injection E as <- <-. cbn [fc_w fc_b].
  rewrite el_tensor_of by auto with idx. change (@zero R RScalar) with 0%R. change (@one R RScalar) with 1%R. rewrite drawn_el by auto with idx. unfold deviation.
  replace (prod [k; o]) with (k * o) by (simpl; ring). replace (ravel [k; o] [i; j]) with (i * o + j) by (rewrite ravel2; ring).
  cbn [s_sqrt s_div s_z RScalar]. fold v. destruct (clamp_R v) as (A & B & C & D). auto.
Qed.
Lemma conv_weights_R : forall ic oc kh kw s p d (g : G) l g' idx, 0 < ic -> 0 < oc -> 0 < kh -> 0 < kw -> oc * (ic * (kh * kw)) <= INT_MAX ->
  conv_new ic oc kh kw s p d g = Ok (l, g') -> in_range [oc; ic; kh; kw] idx ->
  let v := draw (sqrt (2 / IZR (oc * (ic * (kh * kw))))) (Z.to_nat (ravel [oc; ic; kh; kw] idx)) g in
  (0 <= el (cv_w l) idx <= 1)%R /\ ((v <= 0)%R -> el (cv_w l) idx = 0%R) /\ ((0 <= v <= 1)%R -> el (cv_w l) idx = v) /\ ((1 <= v)%R -> el (cv_w l) idx = 1%R).
Proof.
  intros ic oc kh kw s p d g l g' idx H1 H2 H3 H4 HM E HI v. rewrite conv_new_drawn in E by auto. injection E as <- <-. cbn [cv_w cv_b].
  change (@zero R RScalar) with 0%R. change (@one R RScalar) with 1%R. rewrite drawn_el by auto. unfold deviation.
  replace (prod [oc; ic; kh; kw]) with (oc * (ic * (kh * kw))) by (simpl; ring).
  cbn [s_sqrt s_div s_z RScalar]. fold v. apply clamp_R.
Qed.

(** ** ReLU *)
Definition nonneg (x : tensor R) : Prop := forall idx, in_range (tdims x) idx -> (0 <= el x idx)%R.
Lemma relu_idle : forall x, good x -> nonneg x -> act_fwd ReLU x = Ok x.
Proof.
  intros x Gx HN. rewrite (act_fwd_el ReLU x) by (auto; discriminate). f_equal.
  apply tensor_ext; [apply good_tensor_of; [apply good_pos|apply good_max]; auto|auto|reflexivity|]. intros idx HI. change (in_range (tdims x) idx) in HI. rewrite el_tensor_of by auto.
  specialize (HN idx HI). cbn [act_el]. unfold s_max. cbn [s_lt s_z RScalar]. unfold Rltb. destruct (Rlt_dec 0 (el x idx)); lra.
Qed.
Lemma fc_fresh_nonneg : forall k o (g : G) l g' x n, 0 < k -> 0 < o -> k * o <= INT_MAX -> n * o <= INT_MAX -> fc_new k o g = Ok (l, g') -> good x -> tdims x = [n; k] -> nonneg x ->
  exists l' y, fc_forward l x = (l', Ok y) /\ good y /\ tdims y = [n; o] /\ nonneg y.
Proof.
  intros k o g l g' x n Hk Ho HM HMn E Gx Ex HN.
  assert (HW : fc_wf l k o). { destruct (fc_new_ok k o g Hk Ho HM) as (l2 & g2 & E2 & W & _). rewrite E in E2. injection E2 as <- <-. exact W. }
  rewrite (fc_forward_2 l k o x n HW Gx Ex HMn). do 2 eexists. split; [reflexivity|].
  assert (Hn : 0 < n). { pose proof (good_pos x Gx) as HP. rewrite Ex in HP. destruct HP as [_ HF]. inversion HF; auto. }
  split; [apply good_tensor_of; [auto with idx|simpl; lia]|]. split; [reflexivity|]. intros idx HI. change (in_range [n; o] idx) in HI.
  pose proof (in_range_length _ _ HI) as HL. destruct idx as [|i [|j [|]]]; try discriminate HL. rewrite el_tensor_of by auto. rewrite !in_range_cons in HI. destruct HI as (H1 & H2 & _).
  unfold fn2. cbn [nth]. unfold affine. rewrite sum_to_R. cbn [s_add s_mul RScalar].
  assert (B : el (fc_b l) [0; j] = 0%R) by (apply (fc_weights_R k o g l g' 0 j); auto; lia). rewrite B.
  assert (0 <= rsum (zrange 0 k) (fun p => el x [i; p] * el (fc_w l) [p; j]))%R; [|lra].
  apply rsum_nonneg. intros p HP. apply In_zrange in HP. apply Rmult_le_pos; [apply HN; rewrite Ex; apply in_range2; auto|apply (fc_weights_R k o g l g' p j); auto].
Qed.
Lemma relu_stack : forall n k (ls : list (layer R)) x (g : G), fresh_relu (G := G) n k ls -> good x -> tdims x = [n; k] -> nonneg x ->
  exists y, snd (forward_all ls x g) = Ok y /\ snd (forward_all (filter (fun l => negb (is_relu l)) ls) x g) = Ok y /\ nonneg y.
Proof.
  intros n k ls x g H. revert x. induction H as [k|k o g0 l g' ls Hk Ho HM HMn E _ IH|k ls _ IH]; intros x Gx Ex HN; cbn [filter is_relu al_act act_new negb forward_all layer_forward].
  - exists x. auto.
  - destruct (fc_fresh_nonneg k o g0 l g' x n Hk Ho HM HMn E Gx Ex HN) as (l' & y & F & Gy & Ey & Ny). unfold lift. rewrite F. cbn [fst snd].
    destruct (IH y Gy Ey Ny) as (z & A & B & C). exists z.
    destruct (forward_all ls y g) as [[a1 a2] a3]. destruct (forward_all (filter (fun l => negb (is_relu l)) ls) y g) as [[b1 b2] b3]. auto.
  - unfold lift, act_forward. cbn [fst snd al_act act_new]. rewrite relu_idle by auto.
    destruct (IH x Gx Ex HN) as (z & A & B & C). exists z. destruct (forward_all ls x g) as [[a1 a2] a3]. auto.
Qed.
End S.

(** ** An engine whose draws are known: minus the deviation *)
Definition minus_rng : Rng R unit := {| rng_seed := fun _ => tt; rng_normal := fun sd g => ((- sd)%R, g); rng_uniform := fun lo _ g => (lo, g) |}.
Definition plus_rng : Rng R unit := {| rng_seed := fun _ => tt; rng_normal := fun sd g => (sd, g); rng_uniform := fun lo _ g => (lo, g) |}.
