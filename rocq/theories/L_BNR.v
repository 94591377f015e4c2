(** * Batch normalisation and pooling over the reals *)
From Coq Require Import Reals Lra Permutation.
From Verif Require Import Base Scalar ScalarR Types Spec M_Shape M_Tensor M_Adv M_Act M_Layers M_Reg SpecR SpecNN SpecLayers
  L_Index L_Shape L_Bcast L_Tensor L_Reduce L_Tensor2 L_Glue L_Nest L_Matmul L_Axes L_Adv L_RSum L_AdvR L_Act L_ActR L_Layers L_LayersR L_Conv L_ConvR L_Pool L_BN.
Local Open Scope R_scope.

Definition sidx (ds : list Z) (j : Z) : list Z := (match ds with [_; _; _; _] => [0; j; 0; 0] | _ => [0; j] end)%Z.
Lemma sidx_ok : forall f ds j, featured f ds -> (0 <= j < f)%Z -> in_range (sdims ds) (sidx ds j) /\ nth 1 (sidx ds j) 0%Z = j /\ drop_axes (bn_axes ds) (sidx ds j) = [j].
Proof.
  intros f ds j [(n & ->)|(n & h & w & ->)] Hj; cbn [sdims nth sidx].
  - split; [apply in_range2; lia|]. split; reflexivity.
  - split; [apply in_range4; lia|]. split; reflexivity.
Qed.
Lemma feature_mean_R : forall f (x : tensor R) j, good x -> featured f (tdims x) -> (0 <= j < f)%Z -> feature_mean x j = ravg (feature_positions (tdims x) j) (el x).
Proof.
  intros f x j Gx HF Hj. destruct (featured_perm f _ HF) as (N & HR & ND & HL & _). destruct (featured_axes f _ HF) as (A1 & _).
  pose proof (mean_axes_R x (bn_axes (tdims x)) Gx N ND HR HL) as E. rewrite (bn_mean_ok f (tdims x)) in E by auto. rewrite A1 in E.
  destruct (sidx_ok f _ j HF Hj) as (I1 & I2 & I3).
  assert (E1 : spread (tdims x) (feature_mean x) = tensor_of (sdims (tdims x)) (slice_mean x (bn_axes (tdims x)))) by congruence.
  assert (E2 := f_equal (fun t => el t (sidx (tdims x) j)) E1). cbv beta in E2.
  unfold spread in E2. rewrite !el_tensor_of in E2 by auto. rewrite I2 in E2. rewrite E2. unfold slice_mean. rewrite I3. rewrite (bn_slice f) by auto. reflexivity.
Qed.
Lemma feature_length : forall f (x : tensor R) j, good x -> featured f (tdims x) -> (0 <= j < f)%Z -> Zlen (feature_positions (tdims x) j) = feature_count (tdims x) /\ (0 < feature_count (tdims x))%Z.
Proof.
  intros f x j Gx HF Hj. destruct (featured_perm f _ HF) as (N & HR & ND & HL & _). destruct (featured_axes f _ HF) as (A1 & _ & A3).
  destruct (sidx_ok f _ j HF Hj) as (I1 & I2 & I3). rewrite <- A3. split.
  - rewrite <- (slice_count x (bn_axes (tdims x)) Gx ND HR HL (sidx (tdims x) j)) by (rewrite A1; auto). rewrite I3, (bn_slice f) by auto. reflexivity.
  - apply count_pos; auto.
Qed.
Lemma feature_var_R : forall f (x : tensor R) j, good x -> featured f (tdims x) -> (0 <= j < f)%Z ->
  feature_var x j = ravg (feature_positions (tdims x) j) (fun idx => (el x idx - feature_mean x j) * (el x idx - feature_mean x j)) /\ 0 <= feature_var x j.
Proof.
  intros f x j Gx HF Hj. destruct (feature_length f x j Gx HF Hj) as [EL HC].
  assert (E : feature_var x j = ravg (feature_positions (tdims x) j) (fun idx => (el x idx - feature_mean x j) * (el x idx - feature_mean x j))).
  { unfold feature_var, ravg. rewrite EL. rewrite fsum_R. reflexivity. }
  split; [auto|]. rewrite E. unfold ravg. rewrite EL. apply Rmult_le_pos; [|left; apply Rinv_0_lt_compat, IZR_lt; auto].
  apply rsum_nonneg. intros. apply Rle_0_sqr.
Qed.
(** Output of feature [j] with gamma 1 and beta 0. *)
Lemma normalised_mean : forall f (x y : tensor R) eps j, good x -> featured f (tdims x) -> (0 <= j < f)%Z -> 0 < eps ->
  (forall idx, in_range (tdims x) idx -> nth 1 idx 0%Z = j -> el y idx = normalised eps (feature_mean x j) (feature_var x j) 1 0 (el x idx)) ->
  ravg (feature_positions (tdims x) j) (el y) = 0 /\
  ravg (feature_positions (tdims x) j) (fun idx => (el y idx - 0) * (el y idx - 0)) = feature_var x j / (feature_var x j + eps) /\
  0 <= feature_var x j / (feature_var x j + eps) < 1.
Proof.
  intros f x y eps j Gx HF Hj He HY. destruct (feature_length f x j Gx HF Hj) as [EL HC]. destruct (feature_var_R f x j Gx HF Hj) as [EV HV].
  pose proof (feature_mean_R f x j Gx HF Hj) as EM. set (m := feature_mean x j) in *. set (v := feature_var x j) in *.
  assert (HP : 0 < sqrt (v + eps)) by (apply sqrt_lt_R0; lra).
  assert (HI : forall idx, In idx (feature_positions (tdims x) j) -> el y idx = (el x idx - m) * / sqrt (v + eps)).
  { intros idx HI. apply filter_In in HI. destruct HI as [HI HN]. apply Z.eqb_eq in HN. apply In_all_indices in HI; [|apply good_dims; auto].
    rewrite HY by auto. unfold normalised. cbn [s_add s_mul s_div s_sub s_sqrt RScalar]. unfold Rdiv. ring. }
  assert (HZ : 0 < IZR (feature_count (tdims x))) by (apply IZR_lt; auto).
  split; [|split].
  - unfold ravg. rewrite (rsum_ext _ _ _ HI). rewrite rsum_scal_r, rsum_minus, rsum_const. rewrite EM. unfold ravg. rewrite EL. field. split; apply Rgt_not_eq; [exact HP|exact HZ].
  - unfold ravg. rewrite (rsum_ext _ _ (fun idx => (el x idx - m) * (el x idx - m) * / (v + eps))).
    + rewrite rsum_scal_r. rewrite EV at 2. unfold ravg. rewrite EL. field. split; apply Rgt_not_eq; lra.
    + intros idx Hx. rewrite (HI idx Hx). replace (/ (v + eps)) with (/ sqrt (v + eps) * / sqrt (v + eps)); [ring|].
      rewrite <- Rinv_mult. rewrite sqrt_sqrt by lra. reflexivity.
  - split; [apply Rmult_le_pos; [auto|left; apply Rinv_0_lt_compat; lra]|]. apply (Rmult_lt_reg_r (v + eps)); [lra|]. unfold Rdiv. rewrite Rmult_assoc, Rinv_l by lra. lra.
Qed.
(** Closed form of the moving average. *)
Lemma ema_closed : forall mom l r, fold_left (fun r x => ema mom r x) l r = mom ^ length l * r + (1 - mom) * weighted mom l.
Proof.
  intros mom. induction l as [|x l IH]; intros r; cbn [fold_left weighted length pow]; [ring|]. rewrite IH. unfold ema. cbn [s_add s_mul s_sub s_z RScalar]. ring.
Qed.
Lemma ema_nonneg : forall mom l r, 0 <= mom <= 1 -> 0 <= r -> (forall x, In x l -> 0 <= x) -> 0 <= fold_left (fun r x => ema mom r x) l r.
Proof.
  intros mom. induction l as [|x l IH]; intros r Hm Hr HL; cbn [fold_left]; [auto|]. apply IH; auto; [|intros; apply HL; right; auto].
  unfold ema. cbn [s_add s_mul s_sub s_z RScalar]. assert (0 <= x) by (apply HL; left; auto). apply Rplus_le_le_0_compat; apply Rmult_le_pos; lra.
Qed.
Lemma fold_map : forall {A B C} (g : C -> B -> C) (h : A -> B) l r, fold_left (fun r x => g r (h x)) l r = fold_left g (map h l) r.
Proof. intros A B C g h. induction l; intros; cbn; auto. Qed.

(** ** Max pooling: the gradient is conserved. *)
(** A training forward with gamma 1 and beta 0. *)
Lemma bn_train_standard : forall f (l : bn R) (x : tensor R) n, bn_rows f l -> bn_train l = true -> good x -> tdims x = [n; f] -> 0 < bn_eps l ->
  (forall j, (0 <= j < f)%Z -> el (bn_gamma l) [0; j]%Z = 1 /\ el (bn_beta l) [0; j]%Z = 0) ->
  exists l' y, bn_forward l x = (l', Ok y) /\ good y /\ tdims y = [n; f] /\
    forall j, (0 <= j < f)%Z ->
      ravg (feature_positions [n; f] j) (el y) = 0 /\
      ravg (feature_positions [n; f] j) (fun idx => (el y idx - 0) * (el y idx - 0)) = feature_var x j / (feature_var x j + bn_eps l) /\
      0 <= feature_var x j / (feature_var x j + bn_eps l) < 1.
Proof.
  intros f l x n HR HT Gx Ex HE H1. rewrite (bn_train_rows f l x n); auto. eexists. eexists. split; [reflexivity|].
  pose proof (good_pos x Gx) as HP. rewrite Ex in HP. pose proof (good_max x Gx) as HM. rewrite Ex in HM.
  split; [apply good_tensor_of; auto|]. split; [reflexivity|]. intros j Hj.
  set (y := tensor_of _ _). rewrite <- Ex. apply (normalised_mean f); auto; [rewrite Ex; apply rows_featured|].
  intros idx HI HJ. rewrite Ex in HI. unfold y. rewrite el_tensor_of by auto. apply in_range_2 in HI. destruct HI as (a & b & -> & Ha & Hb).
  cbn [nth] in HJ. subst b. unfold fn2. cbn [nth]. destruct (H1 j Hj) as (-> & ->). reflexivity.
Qed.

Section Pool.
Variable M : R.
Lemma comparable_R : forall (x : tensor R), (forall idx, in_range (tdims x) idx -> - M < el x idx) -> comparable (S := RInf M) x.
Proof.
  intros x H. split; [split; [|split]|].
  - intros v _. cbn. unfold Rltb. destruct (Rlt_dec v v); [lra|auto].
  - intros u v w _ _ _. cbn. unfold Rltb. destruct (Rlt_dec u v), (Rlt_dec v w), (Rlt_dec u w); intros; try discriminate; auto; lra.
  - intros u v w _ _ _. cbn. unfold Rltb. destruct (Rlt_dec u v), (Rlt_dec v w), (Rlt_dec u w); intros; try discriminate; auto; lra.
  - intros v (idx & HI & ->). cbn. unfold Rltb. destruct (Rlt_dec _ _) as [|N]; auto. exfalso. apply N. apply H. auto.
Qed.
Lemma pool_conserves : forall (l : pool R) (x g gx : tensor R) n c h w, good x -> tdims x = [n; c; h; w] -> (forall idx, in_range (tdims x) idx -> - M < el x idx) ->
  po_pad l = 0%Z -> (0 < po_stride l)%Z -> (0 < po_size l)%Z -> (po_size l <= h)%Z -> (po_size l <= w)%Z ->
  good g -> tdims g = [n; c; pool_extent (po_size l) (po_stride l) h; pool_extent (po_size l) (po_stride l) w] ->
  pool_backward (S := RInf M) (fst (pool_forward (S := RInf M) l x)) g = Ok gx -> rsum (all_indices (tdims x)) (el gx) = rsum (all_indices (tdims g)) (el g).
Proof.
  intros l x g gx n c h w Gx Ex HB Hp Hs Hz Hh Hw Gg Eg EB.
  destruct (@pool_backward_routes R (RInf M) l x g n c h w Gx Ex (comparable_R x HB) Hp Hs Hz Hh Hw Gg Eg) as (gx' & win & E & G' & E' & HW & HE).
  rewrite E in EB. injection EB as <-. pose proof (good_dims x Gx) as HF. pose proof (good_dims g Gg) as HFg.
  rewrite (rsum_ext _ _ (fun p => rsum (filter (fun o => idx_eqb (win o) p) (all_indices (tdims g))) (el g))).
  2: { intros p Hp'. apply In_all_indices in Hp'; auto. change (@el R (RInf M) gx' p = rsum (filter (fun o => idx_eqb (win o) p) (all_indices (tdims g))) (el g)).
       rewrite HE by auto. change (@s_add R (RInf M)) with Rplus. rewrite fold_Rsum. change (@zero R (RInf M)) with 0. rewrite Rplus_0_l. reflexivity. }
  pose proof (rsum_group (all_indices (tdims x)) (all_indices (tdims g)) win (el g) (fun _ => 1)) as RG.
  rewrite (rsum_ext _ _ (fun p => rsum (filter (fun o => idx_eqb (win o) p) (all_indices (tdims g))) (el g) * 1)) by (intros; ring). rewrite RG.
  - apply rsum_ext. intros; ring.
  - apply NoDup_all_indices; auto.
  - intros o Ho. apply In_all_indices in Ho; auto. apply In_all_indices; auto. apply HW; auto.
Qed.
End Pool.
