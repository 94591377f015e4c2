(** * Exact-arithmetic readings of mean, variance and matrix product *)
From Coq Require Import Reals Lra Permutation Sorting.Sorted.
From Verif Require Import Base Scalar ScalarR Types Spec SpecR M_Shape M_Tensor M_Adv L_Index L_Shape L_Bcast L_Tensor L_Reduce L_Tensor2 L_Glue L_Nest L_Matmul L_Axes L_Adv L_RSum.

(** ** Slices as products *)
Lemma NoDup_flat_map : forall {A B} (g : A -> list B) l, NoDup l -> (forall x, In x l -> NoDup (g x)) ->
  (forall x y z, In x l -> In y l -> In z (g x) -> In z (g y) -> x = y) -> NoDup (flat_map g l).
Proof.
  intros A B g. induction l as [|x l IH]; intros HN HG HD; simpl; [constructor|]. inversion HN as [|? ? HX HN']; subst.
  assert (H1 : NoDup (g x)) by (apply HG; left; auto).
  assert (H2 : NoDup (flat_map g l)).
  { apply IH; auto; [intros; apply HG; right; auto|]. intros a b z Ha Hb. apply HD; right; auto. }
  assert (H3 : forall z, In z (g x) -> ~ In z (flat_map g l)).
  { intros z Hz HI. apply in_flat_map in HI. destruct HI as (y & Hy & HI).
    assert (x = y) by (apply (HD x y z); auto; [left; auto|right; auto]). subst. contradiction. }
  clear - H1 H2 H3. induction (g x) as [|z r IHr]; simpl; auto. inversion H1; subst. constructor.
  - intro HI. apply in_app_or in HI. destruct HI as [HI|HI]; [contradiction|]. apply (H3 z); [left|]; auto.
  - apply IHr; auto. intros w Hw. apply H3. right; auto.
Qed.
Lemma In_all_indices : forall ds idx, Forall (fun d => 0 < d) ds -> In idx (all_indices ds) <-> in_range ds idx.
Proof.
  intros ds idx HF. unfold all_indices, ztab. rewrite in_map_iff. split.
  - intros (k & <- & HI). apply In_zrange in HI. apply unravel_range; auto.
  - intros HI. exists (ravel ds idx). rewrite unravel_ravel by auto. split; auto. apply In_zrange. apply ravel_bound; auto.
Qed.
Lemma NoDup_all_indices : forall ds, Forall (fun d => 0 < d) ds -> NoDup (all_indices ds).
Proof.
  intros ds HF. unfold all_indices, ztab. 
  assert (HN := NoDup_zrange 0 (prod ds)). assert (HI : forall k, In k (zrange 0 (prod ds)) -> 0 <= k < prod ds) by (intros k; apply In_zrange).
  induction (zrange 0 (prod ds)) as [|k l IH]; simpl; [constructor|]. inversion HN; subst. constructor.
  - intro X. apply in_map_iff in X. destruct X as (j & E & Hj). apply (f_equal (ravel ds)) in E.
    rewrite !ravel_unravel in E; auto; [congruence| |]; apply HI; [left|right]; auto.
  - apply IH; auto. intros; apply HI; right; auto.
Qed.
Lemma In_slice : forall axes ds ridx idx, Forall (fun d => 0 < d) ds ->
  In idx (slice_indices axes ds ridx) <-> in_range ds idx /\ drop_axes axes idx = ridx.
Proof.
  intros. unfold slice_indices. rewrite filter_In, In_all_indices by auto. unfold idx_eqb.
  destruct (list_eq_dec Z.eq_dec (drop_axes axes idx) ridx); intuition congruence.
Qed.
Lemma NoDup_slice : forall axes ds ridx, Forall (fun d => 0 < d) ds -> NoDup (slice_indices axes ds ridx).
Proof. intros. apply NoDup_filter, NoDup_all_indices. auto. Qed.

Lemma slice_nil : forall ds ridx, Forall (fun d => 0 < d) ds -> in_range ds ridx -> slice_indices [] ds ridx = [ridx].
Proof.
  intros ds ridx HF HR. apply Permutation_length_1_inv. apply Permutation_sym.
  apply NoDup_Permutation; [apply NoDup_slice; auto|repeat constructor; auto|].
  intros x. rewrite In_slice by auto. unfold drop_axes. rewrite drop_none by (intros a []). simpl. split.
  - intros [_ ->]; auto.
  - intros [<-|[]]; auto.
Qed.
Lemma in_range_remove' : forall n ds idx, (n < length ds)%nat -> in_range ds idx ->
  in_range (remove_at n ds) (remove_at n idx) /\ 0 <= nth n idx 0 < nth n ds 0.
Proof.
  intros n ds idx Hn HI. split; [apply in_range_remove; auto|].
  apply (Forall2_nth_iff (fun d i => 0 <= i < d)) in HI. destruct HI as [_ HI]. apply HI. auto.
Qed.
Lemma slice_cons : forall ax L ds ridx, pos_dims ds -> (1 < length ds)%nat -> 0 <= ax < Zlen ds -> (forall a, In a L -> 0 <= a < ax) ->
  Permutation (slice_indices (ax :: L) ds ridx)
    (flat_map (fun r => map (fun x => insert_at (Z.to_nat ax) x r) (zrange 0 (nth (Z.to_nat ax) ds 0)))
              (slice_indices L (remove_at (Z.to_nat ax) ds) ridx)).
Proof.
  intros ax L ds ridx HP H1 Hax HL. pose proof (pos_forall _ HP) as HF.
  set (n := Z.to_nat ax). assert (Hn : (n < length ds)%nat) by (unfold n, Zlen in *; lia).
  pose proof (pos_remove n ds HF H1 Hn) as HPr. pose proof (pos_forall _ HPr) as HFr.
  assert (DC : forall idx, length idx = length ds -> drop_axes (ax :: L) idx = drop_axes L (remove_at n idx)).
  { intros idx HLi. unfold drop_axes. rewrite drop_cons; [rewrite Z.sub_0_r; reflexivity| |lia]. intros a HI. specialize (HL a HI). lia. }
  assert (RI : forall x r, length r = (length ds - 1)%nat -> remove_at n (insert_at n x r) = r).
  { intros x r Hr. apply remove_insert. lia. }
  apply NoDup_Permutation.
  - apply NoDup_slice; auto.
  - apply NoDup_flat_map.
    + apply NoDup_slice; auto.
    + intros r HI. apply FinFun.Injective_map_NoDup; [|apply NoDup_zrange]. intros x y E.
      apply In_slice in HI; auto. destruct HI as [HI _]. apply in_range_length in HI. rewrite remove_at_length in HI by auto.
      apply (f_equal (fun l => nth n l 0)) in E. rewrite !nth_insert_at in E by lia. exact E.
    + intros x y z Hx Hy Hz Hz'. apply In_slice in Hx; auto. apply In_slice in Hy; auto.
      apply in_map_iff in Hz. apply in_map_iff in Hz'. destruct Hz as (u & <- & _). destruct Hz' as (v & E & _).
      destruct Hx as [Hx _]. destruct Hy as [Hy _]. apply in_range_length in Hx. apply in_range_length in Hy.
      rewrite remove_at_length in Hx, Hy by auto. apply (f_equal (remove_at n)) in E. rewrite !RI in E by lia. auto.
  - intros idx. rewrite In_slice, in_flat_map by auto. split.
    + intros [HI HD]. pose proof (in_range_length _ _ HI) as HLi. destruct (in_range_remove' n ds idx Hn HI) as [HR HX].
      exists (remove_at n idx). rewrite In_slice by auto. split; [split; [auto|]|].
      * rewrite <- DC; auto.
      * apply in_map_iff. exists (nth n idx 0). split; [apply insert_remove; lia|]. apply In_zrange. auto.
    + intros (r & HR & HX). apply In_slice in HR; auto. destruct HR as [HR HD]. apply in_map_iff in HX. destruct HX as (x & <- & HX).
      apply In_zrange in HX. pose proof (in_range_length _ _ HR) as HLr. rewrite remove_at_length in HLr by auto.
      assert (HI : in_range ds (insert_at n x r)) by (apply in_range_insert; auto). split; auto.
      rewrite DC by (apply (in_range_length _ _ HI)). rewrite RI by lia. auto.
Qed.

Lemma slices_ind : forall (P : list Z -> list Z -> Prop),
  (forall ds, pos_dims ds -> P [] ds) ->
  (forall ax L ds, pos_dims ds -> (1 < length ds)%nat -> 0 <= ax < Zlen ds -> (forall a, In a L -> 0 <= a < ax) ->
     P L (remove_at (Z.to_nat ax) ds) -> P (ax :: L) ds) ->
  forall L ds, pos_dims ds -> desc L -> (forall a, In a L -> 0 <= a < Zlen ds) -> (length L < length ds)%nat -> P L ds.
Proof.
  intros P H0 HS. induction L as [|ax L IH]; intros ds HP HD HR HL; [apply H0; auto|].
  inversion HD as [|? ? HD' HF]; subst. rewrite Forall_forall in HF. simpl in HL.
  assert (Hax : 0 <= ax < Zlen ds) by (apply HR; left; auto).
  assert (Hn : (Z.to_nat ax < length ds)%nat) by (unfold Zlen in Hax; lia).
  assert (HB : forall a, In a L -> 0 <= a < ax).
  { intros a HI. specialize (HF a HI). specialize (HR a (or_intror HI)). simpl in HF. lia. }
  apply HS; auto; [lia|]. apply IH; auto.
  - apply pos_remove; auto with idx. lia.
  - intros a HI. specialize (HB a HI). unfold Zlen in *. rewrite remove_at_length by auto. lia.
  - rewrite remove_at_length by auto. lia.
Qed.

Lemma slice_length : forall L ds, pos_dims ds -> desc L -> (forall a, In a L -> 0 <= a < Zlen ds) -> (length L < length ds)%nat ->
  forall ridx, in_range (drop_axes L ds) ridx -> Zlen (slice_indices L ds ridx) = axes_count L ds.
Proof.
  apply (slices_ind (fun L ds => forall ridx, in_range (drop_axes L ds) ridx -> Zlen (slice_indices L ds ridx) = axes_count L ds)).
  - intros ds HP ridx HR. unfold drop_axes in HR. rewrite drop_none in HR by (intros a []).
    rewrite slice_nil by (auto with idx). unfold axes_count. pose proof (prod_keep_drop [] ds 0) as X.
    rewrite drop_none in X by (intros a []). pose proof (prod_pos _ (pos_forall _ HP)). unfold Zlen; simpl. nia.
  - intros ax L ds HP H1 Hax HB IH ridx HR.
    assert (Hn : (Z.to_nat ax < length ds)%nat) by (unfold Zlen in Hax; lia).
    assert (ED : drop_axes (ax :: L) ds = drop_axes L (remove_at (Z.to_nat ax) ds)).
    { unfold drop_axes. rewrite drop_cons; [rewrite Z.sub_0_r; reflexivity| |lia]. intros a HI. specialize (HB a HI). lia. }
    rewrite ED in HR. specialize (IH ridx HR).
    pose proof (slice_cons ax L ds ridx HP H1 Hax HB) as HPm. unfold Zlen at 1. rewrite (Permutation_length HPm). fold (@Zlen (list Z)).
    assert (E : forall l, Z.of_nat (length (flat_map (fun r => map (fun x => insert_at (Z.to_nat ax) x r) (zrange 0 (nth (Z.to_nat ax) ds 0))) l))
       = nth (Z.to_nat ax) ds 0 * Zlen l).
    { assert (0 < nth (Z.to_nat ax) ds 0). { destruct HP as [_ HP]. rewrite Forall_forall in HP. apply HP. apply nth_In. auto. }
      induction l as [|r l IHl]; [unfold Zlen; simpl; lia|]. simpl. rewrite app_length, map_length, Nat2Z.inj_add, IHl, Zlen_cons.
      fold (Zlen (zrange 0 (nth (Z.to_nat ax) ds 0))). rewrite Zlen_zrange; lia. }
    rewrite E, IH.
    pose proof (prod_keep_drop (ax :: L) ds 0) as X1. pose proof (prod_keep_drop L (remove_at (Z.to_nat ax) ds) 0) as X2.
    fold (drop_axes (ax :: L) ds) in X1. fold (drop_axes L (remove_at (Z.to_nat ax) ds)) in X2. rewrite ED in X1.
    fold (axes_count (ax :: L) ds) in X1. fold (axes_count L (remove_at (Z.to_nat ax) ds)) in X2.
    pose proof (prod_remove (Z.to_nat ax) ds Hn) as X3.
    pose proof (pos_remove (Z.to_nat ax) ds (pos_forall _ HP) H1 Hn) as HPr.
    assert (0 < prod (drop_axes L (remove_at (Z.to_nat ax) ds))) by (apply prod_pos, drop_pos; auto with idx).
    rewrite X2 in X3. rewrite X3 in X1. nia.
Qed.

Lemma nested_slices : forall L ds, pos_dims ds -> desc L -> (forall a, In a L -> 0 <= a < Zlen ds) -> (length L < length ds)%nat ->
  forall (f : list Z -> R) ridx, in_range (drop_axes L ds) ridx -> nested_sum L ds f ridx = rsum (slice_indices L ds ridx) f.
Proof.
  apply (slices_ind (fun L ds => forall (f : list Z -> R) ridx, in_range (drop_axes L ds) ridx -> nested_sum L ds f ridx = rsum (slice_indices L ds ridx) f)).
  - intros ds HP f ridx HR. unfold drop_axes in HR. rewrite drop_none in HR by (intros a []).
    rewrite slice_nil by (auto with idx). rewrite rsum_cons, rsum_nil. simpl. ring.
  - intros ax L ds HP H1 Hax HB IH f ridx HR.
    assert (ED : drop_axes (ax :: L) ds = drop_axes L (remove_at (Z.to_nat ax) ds)).
    { unfold drop_axes. rewrite drop_cons; [rewrite Z.sub_0_r; reflexivity| |lia]. intros a HI. specialize (HB a HI). lia. }
    rewrite ED in HR. rewrite (rsum_perm _ _ f (slice_cons ax L ds ridx HP H1 Hax HB)). cbn [nested_sum]. rewrite IH by auto.
    rewrite rsum_flat_map. apply rsum_ext. intros r _. rewrite sum_to_R, rsum_map. reflexivity.
Qed.

Lemma drop_axes_ext : forall a b l, (forall i, In i a <-> In i b) -> drop_axes a l = drop_axes b l.
Proof. intros. apply drop_ext. auto. Qed.
Lemma slice_ext : forall a b ds ridx, (forall i, In i a <-> In i b) -> slice_indices a ds ridx = slice_indices b ds ridx.
Proof.
  intros. unfold slice_indices. apply filter_ext. intros idx. f_equal. apply drop_ext. auto.
Qed.
Lemma count_ext : forall a b ds, NoDup a -> NoDup b -> (forall i, In i a -> 0 <= i < Zlen ds) -> Permutation a b -> axes_count a ds = axes_count b ds.
Proof.
  intros a b ds Na Nb HR HP. rewrite !axes_count_list; auto.
  - apply prod_perm. apply Permutation_map. auto.
  - intros i HI. apply HR. apply (Permutation_in i (Permutation_sym HP)). auto.
Qed.

Lemma in_range_mem : forall axes (t : tensor R) k, good t -> in_range (ones_axes axes (tdims t)) k ->
  in_range (drop_axes axes (tdims t)) (drop_axes axes k).
Proof. intros. apply ones_drop_range; auto. Qed.

Definition slice_mean (t : tensor R) axes k : R :=
  ravg (slice_indices axes (tdims t) (drop_axes axes k)) (el t).

Section Axes.
Variables (t : tensor R) (axes : list Z).
Hypotheses (Hg : good t) (HNE : axes <> []) (HND : NoDup axes)
  (HR : forall a, In a axes -> 0 <= a < Zlen (tdims t)) (HL : (length axes < length (tdims t))%nat).
Local Notation slice k := (slice_indices axes (tdims t) (drop_axes axes k)).

Lemma slice_count : forall k, in_range (ones_axes axes (tdims t)) k -> Zlen (slice k) = axes_count axes (tdims t).
Proof.
  intros k HK. pose proof (sort_desc_perm axes) as HP.
  rewrite (slice_ext axes (sort_desc axes)) by (intros i; split; intro HI; [apply (Permutation_in i (Permutation_sym HP))|apply (Permutation_in i HP)]; auto).
  rewrite (count_ext axes (sort_desc axes)); auto.
  - apply slice_length; auto.
    + apply good_pos; auto.
    + apply sort_desc_sorted; auto.
    + intros a HI. apply HR. apply (Permutation_in a HP). auto.
    + rewrite (Permutation_length HP). auto.
    + rewrite <- (drop_axes_ext axes (sort_desc axes)) by (intros i; split; intro HI; [apply (Permutation_in i (Permutation_sym HP))|apply (Permutation_in i HP)]; auto).
      apply ones_drop_range; auto.
  - apply (Permutation_NoDup (Permutation_sym HP)); auto.
  - apply Permutation_sym; auto.
Qed.
Lemma count_pos : 0 < axes_count axes (tdims t).
Proof. apply prod_pos, keep_pos, good_dims; auto. Qed.

Lemma mean_axes_R : t_mean_axes t axes = Ok (tensor_of (ones_axes axes (tdims t)) (slice_mean t axes)).
Proof.
  pose proof (sort_desc_perm axes) as HP.
  assert (HX : forall i, In i axes <-> In i (sort_desc axes)) by (intros i; split; intro HI; [apply (Permutation_in i (Permutation_sym HP))|apply (Permutation_in i HP)]; auto).
  rewrite (mean_axes_ok t axes (sort_desc axes)); auto; [|apply sort_desc_sorted; auto].
  f_equal. apply tensor_of_ext; [apply ones_pos, good_dims; auto|]. intros k HK.
  rewrite nested_slices.
  - rewrite (slice_ext (sort_desc axes) axes) by (intros i; symmetry; auto).
    unfold slice_mean, ravg. rewrite slice_count by auto. simpl. field.
    apply not_0_IZR. pose proof count_pos. lia.
  - apply good_pos; auto.
  - apply sort_desc_sorted; auto.
  - intros a HI. apply HR, HX; auto.
  - rewrite (Permutation_length HP). auto.
  - rewrite (drop_axes_ext (sort_desc axes) axes) by (intros i; symmetry; auto). apply ones_drop_range; auto.
Qed.

Local Open Scope R_scope.
Definition slice_var k := ravg (slice k) (fun idx => (el t idx - slice_mean t axes k) * (el t idx - slice_mean t axes k)).
Lemma zero_drop : forall idx k, in_range (tdims t) idx -> in_range (ones_axes axes (tdims t)) k ->
  drop_axes axes idx = drop_axes axes k -> slice_mean t axes (zero_axes axes idx) = slice_mean t axes k.
Proof.
  intros idx k HI HK E. unfold slice_mean.
  assert (E2 : drop_axes axes (zero_axes axes idx) = drop_axes axes idx).
  { unfold drop_axes, zero_axes.
    assert (X : forall v i, drop_from i axes (set_from v i axes idx) = drop_from i axes idx); [|apply X]. clear.
    intros v. induction idx as [|x l IH]; intros i; simpl; auto.
    destruct (existsb (Z.eqb i) axes) eqn:X; simpl; rewrite ?X; rewrite IH; auto. }
  rewrite E2, E. reflexivity.
Qed.
Lemma variance_axes_R : forall m, t_mean_axes t axes = Ok m ->
  exists v, t_variance_axes t m axes = Ok v /\ tdims v = ones_axes axes (tdims t) /\
  forall k, in_range (ones_axes axes (tdims t)) k ->
    el v k = slice_var k /\ 0 <= el v k /\
    (el v k = 0 <-> forall i j, In i (slice k) -> In j (slice k) -> el t i = el t j).
Proof.
  intros m Em. rewrite mean_axes_R in Em. injection Em as <-.
  pose proof (good_pos t Hg) as HP. pose proof (pos_forall _ HP) as HF.
  assert (HPo : pos_dims (ones_axes axes (tdims t))).
  { split; [|apply ones_pos; auto]. destruct HP as [N _]. destruct (tdims t); [congruence|discriminate]. }
  assert (HM : (prod (ones_axes axes (tdims t)) <= INT_MAX)%Z).
  { unfold ones_axes. rewrite prod_ones. pose proof (prod_keep_drop axes (tdims t) 0). pose proof (good_max t Hg).
    pose proof count_pos. unfold axes_count in *. pose proof (prod_pos _ (drop_pos axes (tdims t) 0 HF)). nia. }
  assert (Gm : good (tensor_of (ones_axes axes (tdims t)) (slice_mean t axes))) by (apply good_tensor_of; auto).
  rewrite variance_axes_ok; auto. eexists; split; [reflexivity|]. split; [reflexivity|].
  intros k HK. rewrite el_tensor_of by auto.
  assert (EV : s_div (fsum (map (fun idx => s_mul (s_sub (el t idx) (el (tensor_of (ones_axes axes (tdims t)) (slice_mean t axes)) (zero_axes axes idx)))
      (s_sub (el t idx) (el (tensor_of (ones_axes axes (tdims t)) (slice_mean t axes)) (zero_axes axes idx)))) (slice k)))
      (s_z (axes_count axes (tdims t))) = slice_var k).
  { rewrite fsum_R. unfold slice_var, ravg. rewrite slice_count by auto. simpl s_div. simpl s_z. f_equal.
    apply rsum_ext. intros idx HI. apply In_slice in HI; auto. destruct HI as [HI HD].
    rewrite el_tensor_of by (apply ones_range; auto). rewrite (zero_drop idx k) by auto. reflexivity. }
  rewrite EV. pose proof (slice_count k HK) as SC. pose proof count_pos as CP.
  assert (HN : 0 < IZR (Zlen (slice k))) by (apply (IZR_lt 0); lia).
  assert (HSq : forall x, In x (slice k) -> 0 <= (el t x - slice_mean t axes k) * (el t x - slice_mean t axes k)) by (intros; apply Rle_0_sqr).
  split; [reflexivity|]. unfold slice_var, ravg. split; [|split].
  - apply Rmult_le_pos; [apply rsum_nonneg; auto|]. left. apply Rinv_0_lt_compat. auto.
  - intros E. assert (EZ : rsum (slice k) (fun idx => (el t idx - slice_mean t axes k) * (el t idx - slice_mean t axes k)) = 0).
    { apply (f_equal (fun x => x * IZR (Zlen (slice k)))) in E. field_simplify in E; lra. }
    intros i j Hi Hj. pose proof (rsum_zero_inv _ _ HSq EZ i Hi) as X. pose proof (rsum_zero_inv _ _ HSq EZ j Hj) as Y. simpl in X, Y.
    apply Rsqr_0_uniq in X. apply Rsqr_0_uniq in Y. lra.
  - intros HC. rewrite rsum_zero; [unfold Rdiv; ring|]. intros i Hi.
    assert (E : slice_mean t axes k = el t i).
    { unfold slice_mean, ravg. rewrite (rsum_ext _ (el t) (fun _ => el t i)) by (intros; apply HC; auto). rewrite rsum_const. field. lra. }
    rewrite E. ring.
Qed.
End Axes.

Lemma mean_all_R : forall (t : tensor R), good t ->
  t_mean_all t = Ok (tensor_of [1] (fun _ => ravg (all_indices (tdims t)) (el t))).
Proof.
  intros t Hg. rewrite mean_all_ok by auto. f_equal. apply tensor_of_ext; [repeat constructor|]. intros k _.
  rewrite fsum_R. unfold ravg. unfold all_indices at 3. pose proof (prod_pos _ (good_dims t Hg)). rewrite Zlen_ztab by lia.
  unfold rsum. simpl. field. apply not_0_IZR. lia.
Qed.

(** ** Matrix algebra *)
Definition mat (m n : Z) (f : Z -> Z -> R) : tensor R := tensor_of [m; n] (fn2 f).
Lemma good_mat : forall m n f, 0 < m -> 0 < n -> m * n <= INT_MAX -> good (mat m n f).
Proof. intros. apply good_tensor_of; auto with idx. simpl. lia. Qed.
Lemma el_mat : forall m n f i j, 0 <= i < m -> 0 <= j < n -> el (mat m n f) [i; j] = f i j.
Proof. intros. unfold mat. rewrite el_tensor_of by (apply in_range2; auto). reflexivity. Qed.
Lemma mat_ext : forall m n f g, 0 < m -> 0 < n -> (forall i j, 0 <= i < m -> 0 <= j < n -> f i j = g i j) -> mat m n f = mat m n g.
Proof.
  intros m n f g Hm Hn H. apply tensor_of_ext; [auto with idx|]. intros idx HI. apply in_range_2 in HI.
  destruct HI as (i & j & -> & Hi & Hj). apply H; auto.
Qed.
Lemma mat_eta : forall (A : tensor R) m n, good A -> tdims A = [m; n] -> A = mat m n (fun i j => el A [i; j]).
Proof.
  intros A m n Hg E. unfold mat. rewrite <- E. apply tensor_eta; auto. rewrite E. intros idx HI. apply in_range_2 in HI.
  destruct HI as (i & j & -> & _). reflexivity.
Qed.
Lemma matmul_mat : forall m k n f g, 0 < m -> 0 < k -> 0 < n -> m * k <= INT_MAX -> k * n <= INT_MAX -> m * n <= INT_MAX ->
  t_matmul (mat m k f) (mat k n g) = Ok (mat m n (fun i j => rsum (zrange 0 k) (fun p => (f i p * g p j)%R))).
Proof.
  intros. rewrite (matmul_22 _ _ m k n); auto; try (apply good_mat; auto). f_equal. apply mat_ext; auto.
  intros i j Hi Hj. rewrite sum_to_R. apply rsum_ext. intros p HI. apply In_zrange in HI. rewrite !el_mat by auto. reflexivity.
Qed.
Lemma transpose_mat : forall m n f, 0 < m -> 0 < n -> m * n <= INT_MAX -> t_transpose (mat m n f) 0 1 = Ok (mat n m (fun i j => f j i)).
Proof.
  intros. rewrite transpose_ok by (try apply good_mat; auto; change (Zlen (tdims (mat m n f))) with 2; lia).
  f_equal. apply tensor_of_ext; [change (swap_at _ _ _) with [n; m]; auto with idx|].
  change (swap_at (Z.to_nat 0) (Z.to_nat 1) (tdims (mat m n f))) with [n; m].
  intros idx HI. apply in_range_2 in HI. destruct HI as (i & j & -> & Hi & Hj).
  change (swap_at (Z.to_nat 0) (Z.to_nat 1) [i; j]) with [j; i]. rewrite el_mat by auto. reflexivity.
Qed.
Lemma add_mat : forall m n f g, 0 < m -> 0 < n -> m * n <= INT_MAX -> t_add (mat m n f) (mat m n g) = Ok (mat m n (fun i j => (f i j + g i j)%R)).
Proof.
  intros. unfold t_add. rewrite (t_binop_ok s_add (mat m n f) (mat m n g) [m; n]); try apply good_mat; auto; try apply bcast_refl; [|simpl; lia].
  f_equal. apply tensor_of_ext; [auto with idx|]. intros idx HI. unfold bel. 
  change (tdims (mat m n f)) with [m; n]. change (tdims (mat m n g)) with [m; n]. rewrite bproj_id by auto.
  apply in_range_2 in HI. destruct HI as (i & j & -> & Hi & Hj). rewrite !el_mat by auto. reflexivity.
Qed.
Lemma identity_mat : forall n, 0 < n -> n * n <= INT_MAX -> f_identity n = Ok (mat n n (fun i j => if i =? j then 1%R else 0%R)).
Proof. intros. rewrite identity_ok by auto. reflexivity. Qed.

Section Laws.
Local Open Scope R_scope.
Lemma identity_left : forall (A : tensor R) n m, good A -> tdims A = [n; m] -> (n * n <= INT_MAX)%Z ->
  exists I, f_identity n = Ok I /\ t_matmul I A = Ok A.
Proof.
  intros A n m Hg E HM. destruct (dims2_pos A n m Hg E) as (Hn & Hm & HP). rewrite identity_mat by auto.
  eexists; split; [reflexivity|]. rewrite (mat_eta A n m) at 1 by auto. rewrite matmul_mat by (auto; lia).
  f_equal. rewrite (mat_eta A n m) by auto. apply mat_ext; auto. intros i j Hi Hj.
  rewrite (rsum_single _ _ i); [|apply NoDup_zrange|apply In_zrange; auto|].
  - rewrite Z.eqb_refl. rewrite <- mat_eta by auto. ring.
  - intros p HI NE. destruct (Z.eqb_spec i p); [congruence|]. ring.
Qed.
Lemma identity_right : forall (A : tensor R) n m, good A -> tdims A = [n; m] -> (m * m <= INT_MAX)%Z ->
  exists I, f_identity m = Ok I /\ t_matmul A I = Ok A.
Proof.
  intros A n m Hg E HM. destruct (dims2_pos A n m Hg E) as (Hn & Hm & HP). rewrite identity_mat by auto.
  eexists; split; [reflexivity|]. rewrite (mat_eta A n m) at 1 by auto. rewrite matmul_mat by (auto; lia).
  f_equal. rewrite (mat_eta A n m) by auto. apply mat_ext; auto. intros i j Hi Hj.
  rewrite (rsum_single _ _ j); [|apply NoDup_zrange|apply In_zrange; auto|].
  - rewrite Z.eqb_refl. rewrite <- mat_eta by auto. ring.
  - intros p HI NE. destruct (Z.eqb_spec p j); [congruence|]. ring.
Qed.
Lemma transpose_product : forall (A B : tensor R) m k n, good A -> good B -> tdims A = [m; k] -> tdims B = [k; n] -> (m * n <= INT_MAX)%Z ->
  exists AB At Bt r, t_matmul A B = Ok AB /\ t_transpose A 0 1 = Ok At /\ t_transpose B 0 1 = Ok Bt /\
    t_transpose AB 0 1 = Ok r /\ t_matmul Bt At = Ok r.
Proof.
  intros A B m k n HA HB EA EB HM. destruct (dims2_pos A m k HA EA) as (Hm & Hk & HP). destruct (dims2_pos B k n HB EB) as (_ & Hn & HP').
  rewrite (mat_eta A m k), (mat_eta B k n) by auto.
  rewrite matmul_mat, !transpose_mat by (auto; lia). do 4 eexists. split; [reflexivity|]. split; [reflexivity|]. split; [reflexivity|].
  rewrite transpose_mat, matmul_mat by (auto; lia). split; [reflexivity|]. f_equal. apply mat_ext; auto.
  intros. apply rsum_ext. intros. ring.
Qed.
Lemma matmul_assoc : forall (A B C : tensor R) m k n p, good A -> good B -> good C -> tdims A = [m; k] -> tdims B = [k; n] -> tdims C = [n; p] ->
  (m * n <= INT_MAX)%Z -> (k * p <= INT_MAX)%Z -> (m * p <= INT_MAX)%Z ->
  exists AB BC r, t_matmul A B = Ok AB /\ t_matmul B C = Ok BC /\ t_matmul AB C = Ok r /\ t_matmul A BC = Ok r.
Proof.
  intros A B C m k n p HA HB HC EA EB EC H1 H2 H3. destruct (dims2_pos A m k HA EA) as (Hm & Hk & HP). destruct (dims2_pos B k n HB EB) as (_ & Hn & HP').
  destruct (dims2_pos C n p HC EC) as (_ & Hp & HP''). rewrite (mat_eta A m k), (mat_eta B k n), (mat_eta C n p) by auto.
  rewrite !matmul_mat by (auto; lia). do 3 eexists. split; [reflexivity|]. split; [reflexivity|].
  rewrite !matmul_mat by (auto; lia). split; [reflexivity|]. f_equal. apply mat_ext; auto. intros i j Hi Hj.
  transitivity (rsum (zrange 0 k) (fun p0 => rsum (zrange 0 n) (fun q => el A [i; p0] * (el B [p0; q] * el C [q; j])))).
  - apply rsum_ext. intros. rewrite rsum_scal_l. reflexivity.
  - rewrite rsum_swap. apply rsum_ext. intros. rewrite <- rsum_scal_r. apply rsum_ext. intros. ring.
Qed.
Lemma matmul_distr : forall (A B C : tensor R) m k n, good A -> good B -> good C -> tdims A = [m; k] -> tdims B = [k; n] -> tdims C = [k; n] ->
  (m * n <= INT_MAX)%Z ->
  exists BC AB AC r, t_add B C = Ok BC /\ t_matmul A B = Ok AB /\ t_matmul A C = Ok AC /\ t_matmul A BC = Ok r /\ t_add AB AC = Ok r.
Proof.
  intros A B C m k n HA HB HC EA EB EC H1. destruct (dims2_pos A m k HA EA) as (Hm & Hk & HP). destruct (dims2_pos B k n HB EB) as (_ & Hn & HP').
  rewrite (mat_eta A m k), (mat_eta B k n), (mat_eta C k n) by auto.
  rewrite add_mat, !matmul_mat by (auto; lia). do 4 eexists. do 3 (split; [reflexivity|]).
  rewrite add_mat, matmul_mat by (auto; lia). split; [reflexivity|]. f_equal. apply mat_ext; auto. intros i j Hi Hj.
  rewrite <- rsum_plus. apply rsum_ext. intros. ring.
Qed.
Lemma matmul_distr_r : forall (A B C : tensor R) m k n, good A -> good B -> good C -> tdims A = [m; k] -> tdims B = [m; k] -> tdims C = [k; n] ->
  (m * n <= INT_MAX)%Z ->
  exists AB AC BC r, t_add A B = Ok AB /\ t_matmul A C = Ok AC /\ t_matmul B C = Ok BC /\ t_matmul AB C = Ok r /\ t_add AC BC = Ok r.
Proof.
  intros A B C m k n HA HB HC EA EB EC H1. destruct (dims2_pos A m k HA EA) as (Hm & Hk & HP). destruct (dims2_pos C k n HC EC) as (_ & Hn & HP').
  rewrite (mat_eta A m k), (mat_eta B m k), (mat_eta C k n) by auto.
  rewrite add_mat, !matmul_mat by (auto; lia). do 4 eexists. do 3 (split; [reflexivity|]).
  rewrite add_mat, matmul_mat by (auto; lia). split; [reflexivity|]. f_equal. apply mat_ext; auto. intros i j Hi Hj.
  rewrite <- rsum_plus. apply rsum_ext. intros. ring.
Qed.
End Laws.
