(** * Nested loops over index spaces *)
From Verif Require Import Base Scalar Types Spec M_Shape M_Tensor L_Index L_Shape L_Bcast L_Tensor L_Reduce L_Tensor2.

(** [for i0 < d0, for i1 < d1, ... body [i0; i1; ...]]. *)
Fixpoint nest {St} (ds : list Z) (body : list Z -> St -> outcome St) : St -> outcome St :=
  match ds with
  | [] => body []
  | d :: r => for_ 0 d (fun i => nest r (fun idx => body (i :: idx)))
  end.

Lemma for_ext : forall {St} lo hi (f g : Z -> St -> outcome St) s,
  (forall k s, lo <= k < hi -> f k s = g k s) -> for_ lo hi f s = for_ lo hi g s.
Proof. intros. unfold for_. apply foldM_ext. intros a s0 HI. apply In_zrange in HI. auto. Qed.

Lemma foldM_map : forall {A B St} (h : A -> B) (f : B -> St -> outcome St) l s,
  foldM f (map h l) s = foldM (fun a => f (h a)) l s.
Proof. induction l; simpl; intros; auto. apply bind_ext. intros; auto. Qed.

Lemma for_split : forall {St} d P (g : Z -> St -> outcome St) s, 0 <= d -> 0 <= P ->
  for_ 0 (d * P) g s = for_ 0 d (fun i => for_ 0 P (fun q => g (i * P + q))) s.
Proof.
  intros St d P g s Hd HP. revert s.
  replace d with (Z.of_nat (Z.to_nat d)) by lia. induction (Z.to_nat d) as [|n IH]; intros s.
  - reflexivity.
  - replace (Z.of_nat (S n)) with (Z.of_nat n + 1) by lia. unfold for_ in *.
    rewrite (zrange_snoc 0 (Z.of_nat n)) by lia. rewrite foldM_app.
    rewrite (zrange_app 0 (Z.of_nat n * P)) by nia. rewrite foldM_app, IH.
    apply bind_ext. intros s' _. simpl.
    replace (zrange (Z.of_nat n * P) ((Z.of_nat n + 1) * P)) with (map (fun k => k + Z.of_nat n * P) (zrange 0 P))
      by (rewrite <- zrange_shift; f_equal; lia).
    rewrite foldM_map.
    replace (foldM (fun a => g (a + Z.of_nat n * P)) (zrange 0 P) s') with
       (foldM (fun q => g (Z.of_nat n * P + q)) (zrange 0 P) s') by (apply foldM_ext; intros; f_equal; lia).
    destruct (foldM _ (zrange 0 P) s'); reflexivity.
Qed.

Lemma nest_flat : forall {St} ds (body : list Z -> St -> outcome St) s, Forall (fun d => 0 < d) ds ->
  nest ds body s = for_ 0 (prod ds) (fun k => body (unravel ds k)) s.
Proof.
  induction ds as [|d ds IH]; intros body s HF; simpl.
  - unfold for_. rewrite zrange_cons by lia. rewrite zrange_nil by lia. simpl. destruct (body [] s); reflexivity.
  - inversion HF as [|x l Hd HF']; subst. pose proof (prod_pos _ HF').
    rewrite for_split by lia. apply for_ext. intros i s' Hi. rewrite IH by auto.
    apply for_ext. intros q s'' Hq. simpl.
    rewrite Z.div_add_l by lia. rewrite Z.div_small by auto.
    replace ((i * prod ds + q) mod prod ds) with q
      by (rewrite Z.add_comm, Z.mod_add by lia; symmetry; apply Z.mod_small; auto).
    rewrite Z.add_0_r. reflexivity.
Qed.

Lemma for1_nest : forall {St} a (body : Z -> St -> outcome St) s,
  for_ 0 a body s = nest [a] (fun idx => body (nth 0 idx 0)) s.
Proof. reflexivity. Qed.
Lemma for2_nest : forall {St} a b (body : Z -> Z -> St -> outcome St) s,
  for_ 0 a (fun i => for_ 0 b (body i)) s = nest [a; b] (fun idx => body (nth 0 idx 0) (nth 1 idx 0)) s.
Proof. reflexivity. Qed.
Lemma for3_nest : forall {St} a b c (body : Z -> Z -> Z -> St -> outcome St) s,
  for_ 0 a (fun i => for_ 0 b (fun j => for_ 0 c (body i j))) s =
  nest [a; b; c] (fun idx => body (nth 0 idx 0) (nth 1 idx 0) (nth 2 idx 0)) s.
Proof. reflexivity. Qed.
Lemma for4_nest : forall {St} a b c d (body : Z -> Z -> Z -> Z -> St -> outcome St) s,
  for_ 0 a (fun i => for_ 0 b (fun j => for_ 0 c (fun k => for_ 0 d (body i j k)))) s =
  nest [a; b; c; d] (fun idx => body (nth 0 idx 0) (nth 1 idx 0) (nth 2 idx 0) (nth 3 idx 0)) s.
Proof. reflexivity. Qed.

(** Two groups of loops are one. *)
Lemma nest_app : forall {St} a b (body : list Z -> St -> outcome St) s,
  nest (a ++ b) body s = nest a (fun i => nest b (fun j => body (i ++ j))) s.
Proof.
  induction a; simpl; intros; auto. apply for_ext. intros. rewrite IHa. reflexivity.
Qed.

Lemma nest_ext : forall {St} ds (f g : list Z -> St -> outcome St) s,
  (forall idx s, in_range ds idx -> f idx s = g idx s) -> nest ds f s = nest ds g s.
Proof.
  induction ds as [|d ds IH]; simpl; intros f g s H; auto.
  - apply H. constructor.
  - apply for_ext. intros k s' Hk. apply IH. intros. apply H. constructor; auto.
Qed.

(** Invariant-style rule: a state that is a function of the position. *)
Lemma nest_inv : forall {St} (P : Z -> St -> Prop) ds (body : list Z -> St -> outcome St) s,
  Forall (fun d => 0 < d) ds -> P 0 s ->
  (forall k s, 0 <= k < prod ds -> P k s -> exists s', body (unravel ds k) s = Ok s' /\ P (k + 1) s') ->
  exists s', nest ds body s = Ok s' /\ P (prod ds) s'.
Proof.
  intros. rewrite nest_flat by auto. pose proof (prod_pos _ H). apply for_inv; auto. lia.
Qed.

Lemma in_range_cons : forall d ds i idx, in_range (d :: ds) (i :: idx) <-> 0 <= i < d /\ in_range ds idx.
Proof. intros; split; intro H; [inversion H; auto|constructor; tauto]. Qed.
Lemma in_range_nil : in_range [] []. Proof. constructor. Qed.

Section S.
Context {T : Type} {S : Scalar T}.

(** Left-to-right sums. *)
Lemma for_sum : forall n (x : Z -> T) body (z : T),
  (forall p acc, 0 <= p < n -> body p acc = Ok (s_add acc (x p))) ->
  for_ 0 n body z = Ok (fold_left s_add (map x (zrange 0 n)) z).
Proof.
  intros n x body z H. unfold for_.
  assert (G : forall l z, (forall p, In p l -> 0 <= p < n) -> foldM body l z = Ok (fold_left s_add (map x l) z)).
  { induction l as [|p l IH]; simpl; intros z0 HI; auto. rewrite H by auto. simpl. apply IH. auto. }
  apply G. intros p HI. apply In_zrange in HI. auto.
Qed.
Lemma for_fsum : forall n (x : Z -> T) body,
  (forall p acc, 0 <= p < n -> body p acc = Ok (s_add acc (x p))) ->
  for_ 0 n body zero = Ok (fsum (map x (zrange 0 n))).
Proof. intros. apply for_sum. auto. Qed.

(** Nested accumulation over an index space. *)
Lemma nest_sum : forall ds (x : list Z -> T) body (z : T), Forall (fun d => 0 < d) ds ->
  (forall idx acc, in_range ds idx -> body idx acc = Ok (s_add acc (x idx))) ->
  nest ds body z = Ok (fold_left s_add (map x (all_indices ds)) z).
Proof.
  intros ds x body z HF H. rewrite nest_flat by auto.
  rewrite (for_sum _ (fun k => x (unravel ds k))).
  - unfold all_indices, ztab. rewrite map_map. reflexivity.
  - intros p acc Hp. apply H. apply unravel_range; auto.
Qed.

(** Every element of a buffer written once, at its own index. *)
Lemma nest_write : forall ds (f : list Z -> T) body (out : list T),
  Forall (fun d => 0 < d) ds -> Zlen out = prod ds ->
  (forall idx (o : list T), in_range ds idx -> Zlen o = prod ds ->
     body idx o = Ok (upd o (Z.to_nat (ravel ds idx)) (f idx))) ->
  nest ds body out = Ok (ztab (prod ds) (fun k => f (unravel ds k))).
Proof.
  intros ds f body out HF HL Hb. rewrite nest_flat by auto. pose proof (prod_pos _ HF).
  apply (for_table zero); auto; try lia. intros k l Hk HLl _.
  rewrite Hb; auto; [|apply unravel_range; auto]. rewrite ravel_unravel by auto. reflexivity.
Qed.

(** The same through bounds-checked writes to a tensor. *)
Lemma nest_set : forall ds (f : list Z -> T) body (t : tensor T),
  good t -> tdims t = ds ->
  (forall idx (o : tensor T), in_range ds idx -> good o -> tdims o = ds -> body idx o = Ok (set_el o idx (f idx))) ->
  nest ds body t = Ok (tensor_of ds f).
Proof.
  intros ds f body t Hg HD Hb. assert (HF : Forall (fun d => 0 < d) ds) by (subst; apply pos_forall, good_pos; auto).
  pose proof (prod_pos _ HF).
  destruct (nest_inv (fun k (o : tensor T) => good o /\ tdims o = ds /\ forall j, 0 <= j < k -> znth zero (tdata o) j = f (unravel ds j))
      ds body t) as (o & E & Go & Do & Ho); auto.
  - split; [auto|split; auto]. intros; lia.
  - intros k o Hk (Go & Do & Ho). pose proof (unravel_range ds k HF Hk) as HR.
    rewrite Hb by auto. eexists; split; [reflexivity|]. split; [apply good_set_el; auto|]. split; [exact Do|].
    intros j Hj. unfold set_el; simpl. rewrite Do, ravel_unravel by auto.
    assert (Zlen (tdata o) = prod ds) by (rewrite good_len, Do; auto).
    destruct (Z.eq_dec j k) as [->|Hne].
    + apply znth_upd_eq. lia.
    + rewrite znth_upd_neq by lia. apply Ho. lia.
  - rewrite E. f_equal. rewrite <- Do. apply tensor_eta; auto. intros idx HI. rewrite Do in HI.
    unfold el. rewrite Do. rewrite Ho by (apply ravel_bound; auto). rewrite unravel_ravel; auto.
Qed.

Lemma tensor_of_ext : forall ds (f g : list Z -> T), Forall (fun d => 0 < d) ds ->
  (forall idx, in_range ds idx -> f idx = g idx) -> tensor_of ds f = tensor_of ds g.
Proof.
  intros. unfold tensor_of. f_equal. unfold ztab. apply map_ext_in. intros k HI. apply In_zrange in HI.
  apply H0. apply unravel_range; auto.
Qed.

Lemma good_ints : forall ds, Forall (fun d => 0 < d) ds -> prod ds <= INT_MAX -> Forall is_int ds.
Proof.
  intros. apply Forall_forall. intros d HI. pose proof (prod_ge ds d H HI).
  rewrite Forall_forall in H. specialize (H d HI). unfold is_int, INT_MIN. lia.
Qed.

Lemma t_reshape_ok : forall (t : tensor T) ds, good t -> pos_dims ds -> prod ds = prod (tdims t) ->
  t_reshape t ds = Ok (mkTensor (shape_of ds) (tdata t)).
Proof.
  intros t ds Hg HP HE.
  pose proof (reshape_ok t ds (good_wf t Hg) ltac:(apply good_ints; [apply pos_forall; auto|rewrite HE; apply good_max; auto]) HP HE) as H.
  unfold t_reshape_st, last_write in H. destruct (t_reshape t ds); congruence.
Qed.

Lemma reshaped_tensor_of : forall (t : tensor T) ds, good t -> pos_dims ds -> prod ds = prod (tdims t) ->
  mkTensor (shape_of ds) (tdata t) = tensor_of ds (fun idx => el t (unravel (tdims t) (ravel ds idx))).
Proof.
  intros t ds Hg HP HE. assert (G : good (mkTensor (shape_of ds) (tdata t))).
  { apply good_mk; auto. rewrite HE; apply good_max; auto. rewrite good_len by auto. lia. }
  apply (tensor_eta _ (fun idx => el t (unravel (tdims t) (ravel ds idx)))) in G; [exact G|].
  intros idx HI. unfold tdims in HI; simpl in HI. unfold el, tdims; simpl. fold (tdims t).
  rewrite ravel_unravel; auto; [apply pos_forall, good_pos; auto|]. rewrite <- HE. apply ravel_bound; auto.
Qed.

Lemma tensor_of_fill : forall ds (v : T), Forall (fun d => 0 < d) ds -> t_fill (shape_of ds) v = tensor_of ds (fun _ => v).
Proof.
  intros. unfold t_fill, tensor_of. f_equal. cbn [ssize shape_of]. pose proof (prod_pos _ H). apply (list_ext v).
  - rewrite Zlen_zrepeat, Zlen_ztab; lia.
  - intros i Hi. rewrite Zlen_zrepeat in Hi by lia. rewrite znth_zrepeat, znth_ztab by lia. reflexivity.
Qed.

End S.
