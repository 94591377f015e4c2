(** * Lemmas about the index vocabulary of [Spec.v]. *)
From Verif Require Import Base Scalar Types Spec.

Lemma prod_pos : forall ds, Forall (fun d => 0 < d) ds -> 0 < prod ds.
Proof. induction 1; cbn in *; nia. Qed.
Lemma prod_app : forall a b, prod (a ++ b) = prod a * prod b.
Proof. induction a; cbn; intros; [lia|]. rewrite IHa. ring. Qed.
Lemma prod_rev : forall a, prod (rev a) = prod a.
Proof. induction a; simpl; auto. rewrite prod_app, IHa; simpl; lia. Qed.
Lemma prod_ge : forall ds d, Forall (fun d => 0 < d) ds -> In d ds -> d <= prod ds.
Proof.
  induction 1; simpl; intros HI; [tauto|].
  pose proof (prod_pos _ H0). destruct HI as [->|HI]; [nia|].
  specialize (IHForall HI). nia.
Qed.

Lemma pos_forall : forall ds, pos_dims ds -> Forall (fun d => 0 < d) ds.
Proof. intros ds [_ H]; auto. Qed.
#[global] Hint Resolve pos_forall : idx.

Lemma in_range_length : forall ds idx, in_range ds idx -> length idx = length ds.
Proof. induction 1; simpl; auto. Qed.

Lemma in_range_pos : forall ds idx, in_range ds idx -> Forall (fun d => 0 < d) ds.
Proof. induction 1; constructor; auto; lia. Qed.

Lemma ravel_bound : forall ds idx, in_range ds idx -> 0 <= ravel ds idx < prod ds.
Proof.
  induction 1; simpl; [lia|].
  assert (0 < prod l) by (apply prod_pos; eapply in_range_pos; eauto). nia.
Qed.

Lemma unravel_range : forall ds k,
  Forall (fun d => 0 < d) ds -> 0 <= k < prod ds -> in_range ds (unravel ds k).
Proof.
  induction ds; simpl; intros k HF Hk; [constructor|].
  inversion HF; subst. pose proof (prod_pos _ H2).
  constructor.
  - split; [apply Z.div_pos; lia|]. apply Z.div_lt_upper_bound; nia.
  - apply IHds; auto. apply Z.mod_pos_bound; auto.
Qed.

Lemma ravel_unravel : forall ds k,
  Forall (fun d => 0 < d) ds -> 0 <= k < prod ds -> ravel ds (unravel ds k) = k.
Proof.
  induction ds; simpl; intros k HF Hk; [lia|].
  inversion HF; subst. pose proof (prod_pos _ H2).
  rewrite IHds; auto; [|apply Z.mod_pos_bound; auto].
  rewrite Z.mul_comm. symmetry. apply Z.div_mod. lia.
Qed.

Lemma unravel_ravel : forall ds idx, in_range ds idx -> unravel ds (ravel ds idx) = idx.
Proof.
  induction 1 as [|d i ds idx Hi HF IH]; simpl; auto.
  pose proof (ravel_bound _ _ HF).
  rewrite Z.div_add_l by lia. rewrite Z.div_small by auto.
  rewrite (Z.add_comm (i * prod ds)), Z.mod_add by lia. rewrite Z.mod_small by auto.
  rewrite IH. f_equal; lia.
Qed.

Lemma ravel_inj : forall ds i j,
  in_range ds i -> in_range ds j -> ravel ds i = ravel ds j -> i = j.
Proof.
  intros. rewrite <- (unravel_ravel ds i), <- (unravel_ravel ds j) by auto. congruence.
Qed.

Lemma unravel_length : forall ds k, length (unravel ds k) = length ds.
Proof. induction ds; simpl; auto. Qed.

Lemma strides_length : forall ds, length (strides_of ds) = length ds.
Proof. induction ds; simpl; auto. Qed.

Lemma in_range_dec : forall ds idx, {in_range ds idx} + {~ in_range ds idx}.
Proof.
  induction ds as [|d ds IH]; destruct idx as [|i idx].
  - left; constructor.
  - right; intro H; inversion H.
  - right; intro H; inversion H.
  - destruct (IH idx) as [H|H]; [|right; intro K; inversion K; auto].
    destruct (Z_le_dec 0 i), (Z_lt_dec i d);
      [left; constructor; auto|right|right|right]; intro K; inversion K; lia.
Qed.

Lemma ravel_zeros : forall ds, ravel ds (repeat 0 (length ds)) = 0.
Proof. induction ds; simpl; auto. Qed.
Lemma in_range_zeros : forall ds, Forall (fun d => 0 < d) ds -> in_range ds (repeat 0 (length ds)).
Proof. induction 1; simpl; constructor; auto; lia. Qed.
Lemma unravel_zero : forall ds, Forall (fun d => 0 < d) ds -> unravel ds 0 = repeat 0 (length ds).
Proof.
  intros. rewrite <- (unravel_ravel ds (repeat 0 (length ds))) by (apply in_range_zeros; auto).
  rewrite ravel_zeros. reflexivity.
Qed.

(** Two well-formed tensors with the same dimensions and elements are equal. *)
Lemma good_shape_eq : forall {T} (a b : tensor T), good a -> good b -> tdims a = tdims b -> tshape a = tshape b.
Proof. intros T a b (?&E1&?&?) (?&E2&?&?) E. congruence. Qed.

Lemma tensor_ext : forall {T} `{Scalar T} (a b : tensor T),
  good a -> good b -> tdims a = tdims b ->
  (forall idx, in_range (tdims a) idx -> el a idx = el b idx) -> a = b.
Proof.
  intros T S a b Ha Hb E He.
  assert (tshape a = tshape b) by (apply good_shape_eq; auto).
  destruct a as [sa da], b as [sb db]; simpl in *. f_equal; auto.
  destruct Ha as (P1&S1&M1&L1), Hb as (P2&S2&M2&L2); unfold tdims in *; simpl in *.
  apply (list_ext zero); [congruence|].
  intros i Hi. rewrite L1 in Hi.
  specialize (He (unravel (dims sa) i)). unfold el, tdims in He; simpl in He.
  rewrite <- E in He.
  rewrite ravel_unravel in He; auto with idx.
  apply He. apply unravel_range; auto with idx.
Qed.

Lemma good_tensor_of : forall {T} ds (f : list Z -> T),
  pos_dims ds -> prod ds <= INT_MAX -> good (tensor_of ds f).
Proof.
  intros. unfold good, tensor_of, tdims; simpl.
  pose proof (prod_pos ds ltac:(auto with idx)).
  rewrite Zlen_ztab by lia. auto.
Qed.

Lemma el_tensor_of : forall {T} `{Scalar T} ds (f : list Z -> T) idx,
  in_range ds idx -> el (tensor_of ds f) idx = f idx.
Proof.
  intros. unfold el, tensor_of, tdims; simpl.
  rewrite znth_ztab by (apply ravel_bound; auto). rewrite unravel_ravel; auto.
Qed.

(** A tensor is determined by its elements. *)
Lemma tensor_eta : forall {T} `{Scalar T} (t : tensor T) f,
  good t -> (forall idx, in_range (tdims t) idx -> el t idx = f idx) ->
  t = tensor_of (tdims t) f.
Proof.
  intros T S t f Hg He. destruct Hg as (P1&S1&M1&L1).
  apply tensor_ext; auto.
  - repeat split; auto; apply P1.
  - apply good_tensor_of; auto.
  - intros. rewrite He, el_tensor_of; auto.
Qed.
