(** * Axis sets: dropping, keeping and masking positions *)
From Coq Require Import Permutation Sorting.Sorted.
From Verif Require Import Base Scalar Types Spec M_Shape M_Tensor M_Adv L_Index L_Shape L_Bcast L_Tensor L_Reduce L_Tensor2 L_Nest L_Matmul.

Definition has (axes : list Z) (i : Z) : bool := existsb (Z.eqb i) axes.
Lemma has_In : forall axes i, has axes i = true <-> In i axes.
Proof.
  intros. unfold has. rewrite existsb_exists. split.
  - intros (x & HI & E). apply Z.eqb_eq in E. subst. auto.
  - intros H. exists i. split; auto. apply Z.eqb_refl.
Qed.
Lemma has_ext : forall a b, (forall i, In i a <-> In i b) -> forall i, has a i = has b i.
Proof.
  intros a b H i. destruct (has a i) eqn:E1, (has b i) eqn:E2; auto.
  - apply has_In, H, has_In in E1. congruence.
  - apply has_In, H, has_In in E2. congruence.
Qed.
Lemma not_has : forall axes i, ~ In i axes -> has axes i = false.
Proof. intros. destruct (has axes i) eqn:E; auto. apply has_In in E. tauto. Qed.

Lemma drop_ext : forall a b, (forall i, In i a <-> In i b) -> forall l i, drop_from i a l = drop_from i b l.
Proof.
  intros a b H. induction l as [|x l IH]; intros i; simpl; auto. fold (has a i) (has b i).
  rewrite (has_ext a b H). destruct (has b i); rewrite IH; reflexivity.
Qed.

Lemma set_from_length : forall v axes l i, length (set_from v i axes l) = length l.
Proof. induction l; simpl; intros; auto. Qed.

Lemma set_from_zeros : forall axes n i, set_from 0 i axes (repeat 0 n) = repeat 0 n.
Proof. induction n; intros i; simpl; auto. rewrite IHn. destruct (existsb _ _); reflexivity. Qed.

Lemma drop_range : forall axes ds idx i, in_range ds idx -> in_range (drop_from i axes ds) (drop_from i axes idx).
Proof.
  intros axes ds idx i H. revert i. induction H; intros i; simpl; [constructor|].
  destruct (existsb _ _); [apply IHForall2|]. constructor; [auto|apply IHForall2].
Qed.
Lemma drop_pos : forall axes ds i, Forall (fun d => 0 < d) ds -> Forall (fun d => 0 < d) (drop_from i axes ds).
Proof. intros axes ds i H. revert i. induction H; intros i; simpl; auto. destruct (existsb _ _); auto. Qed.
Lemma ones_pos : forall axes ds i, Forall (fun d => 0 < d) ds -> Forall (fun d => 0 < d) (set_from 1 i axes ds).
Proof. intros axes ds i H. revert i. induction H; intros i; simpl; auto. constructor; auto. destruct (existsb _ _); lia. Qed.
Lemma ones_range : forall axes ds idx i, in_range ds idx -> in_range (set_from 1 i axes ds) (set_from 0 i axes idx).
Proof.
  intros axes ds idx i H. revert i. induction H; intros i; simpl; constructor; [destruct (existsb _ _); lia|apply IHForall2].
Qed.
Lemma prod_ones : forall axes ds i, prod (set_from 1 i axes ds) = prod (drop_from i axes ds).
Proof. induction ds; intros i; simpl; auto. destruct (existsb _ _); simpl; rewrite IHds; lia. Qed.
Lemma prod_keep_drop : forall axes ds i, prod ds = prod (keep_from i axes ds) * prod (drop_from i axes ds).
Proof. induction ds; intros i; simpl; auto. destruct (existsb _ _); simpl; rewrite (IHds (i + 1)); ring. Qed.
Lemma keep_pos : forall axes ds i, Forall (fun d => 0 < d) ds -> Forall (fun d => 0 < d) (keep_from i axes ds).
Proof. intros axes ds i H. revert i. induction H; intros i; simpl; auto. destruct (existsb _ _); auto. Qed.

(** Flat position of the kept part. *)
Lemma ravel_ones : forall axes ds idx i, length idx = length ds ->
  ravel (set_from 1 i axes ds) (set_from 0 i axes idx) = ravel (drop_from i axes ds) (drop_from i axes idx).
Proof.
  induction ds as [|d ds IH]; intros idx i HL; destruct idx as [|x idx]; simpl in HL; try lia; simpl; auto.
  destruct (existsb _ _); simpl; rewrite IH by lia; [lia|]. rewrite prod_ones. reflexivity.
Qed.
(** An index of the kept-rank shape has 0 on the axes. *)
Lemma ones_zero : forall axes ds kidx i, in_range (set_from 1 i axes ds) kidx -> set_from 0 i axes kidx = kidx.
Proof.
  induction ds as [|d ds IH]; intros kidx i H; simpl in H; inversion H as [|? x ? kidx' Hx Hr]; subst; simpl; auto.
  rewrite IH by auto. f_equal. destruct (existsb _ _); lia.
Qed.
Lemma ones_drop_range : forall axes ds kidx i, in_range (set_from 1 i axes ds) kidx ->
  in_range (drop_from i axes ds) (drop_from i axes kidx).
Proof.
  induction ds as [|d ds IH]; intros kidx i H; simpl in H; inversion H as [|? x ? kidx' Hx Hr]; subst; simpl; [constructor|].
  destruct (existsb _ _); [apply IH; auto|]. constructor; [auto|apply IH; auto].
Qed.

Lemma bproj_ones : forall axes ds idx i, in_range ds idx ->
  bproj (set_from 1 i axes ds) idx = set_from 0 i axes idx.
Proof.
  intros axes ds idx i H. unfold bproj. rewrite set_from_length, (in_range_length _ _ H), Nat.sub_diag. cbn [skipn].
  revert i. induction H as [|d x ds idx Hx Hr IH]; intros i; simpl; auto. rewrite IH. f_equal.
  destruct (existsb _ _); simpl; [reflexivity|]. destruct (Z.eqb_spec d 1); lia.
Qed.

Lemma bto_ones : forall axes ds i, Forall (fun d => 0 < d) ds -> bto (set_from 1 i axes ds) ds.
Proof.
  intros axes ds i HF. unfold bto, bcast. rewrite set_from_length, Nat.max_id. split; auto.
  unfold pad. rewrite set_from_length, Nat.sub_diag. cbn [repeat app]. intros n Hn.
  revert i n Hn. induction HF as [|d ds Hd HF IH]; intros i n Hn; simpl in Hn; [lia|].
  destruct n as [|n]; simpl; [|apply IH; lia]. unfold compatible. destruct (existsb _ _); lia.
Qed.

(** ** One axis at a time *)
Lemma drop_none : forall axes l i, (forall a, In a axes -> a < i) -> drop_from i axes l = l.
Proof.
  induction l as [|x l IH]; intros i H; simpl; auto. fold (has axes i).
  rewrite not_has by (intro HI; apply H in HI; lia). rewrite IH; auto. intros a HI. apply H in HI. lia.
Qed.
Lemma drop_cons : forall ax axes l i, (forall a, In a axes -> a < ax) -> i <= ax ->
  drop_from i (ax :: axes) l = drop_from i axes (remove_at (Z.to_nat (ax - i)) l).
Proof.
  intros ax axes. induction l as [|x l IH]; intros i H Hi; simpl.
  - unfold remove_at. rewrite firstn_nil, skipn_nil. reflexivity.
  - destruct (Z.eqb_spec i ax) as [->|Hne]; cbn [orb].
    + rewrite Z.sub_diag. change (Z.to_nat 0) with 0%nat. unfold remove_at. cbn [firstn skipn app].
      rewrite drop_none by (intros a [->|HI]; [lia|apply H in HI; lia]).
      rewrite drop_none by (intros a HI; apply H in HI; lia). reflexivity.
    + replace (Z.to_nat (ax - i)) with (Datatypes.S (Z.to_nat (ax - (i + 1)))) by lia.
      unfold remove_at. cbn [firstn skipn app]. simpl. fold (has axes i). rewrite !IH by (auto; lia).
      unfold remove_at. reflexivity.
Qed.

(** ** Sorting *)
Lemma insert_desc_perm : forall x l, Permutation (insert_desc x l) (x :: l).
Proof.
  induction l as [|y l IH]; simpl; auto. destruct (y <=? x); auto.
  eapply perm_trans; [apply perm_skip, IH|]. apply perm_swap.
Qed.
Lemma sort_desc_perm : forall l, Permutation (sort_desc l) l.
Proof. induction l; simpl; auto. eapply perm_trans; [apply insert_desc_perm|]. auto. Qed.
Definition desc (l : list Z) : Prop := StronglySorted (fun a b => b < a) l.
Lemma insert_desc_sorted : forall x l, desc l -> ~ In x l -> desc (insert_desc x l).
Proof.
  intros x l H. induction H as [|y l Hs IH HF]; intros HN; simpl.
  - repeat constructor.
  - destruct (Z.leb_spec y x).
    + assert (y <> x) by (intro; subst; apply HN; left; auto). constructor; [constructor; auto|].
      constructor; [lia|]. rewrite Forall_forall in *. intros z Hz. apply HF in Hz. lia.
    + constructor; [apply IH; intro; apply HN; right; auto|].
      rewrite Forall_forall in *. intros z Hz. apply (Permutation_in z (insert_desc_perm x l)) in Hz.
      destruct Hz as [->|Hz]; auto.
Qed.
Lemma sort_desc_sorted : forall l, NoDup l -> desc (sort_desc l).
Proof.
  induction 1; simpl; [constructor|]. apply insert_desc_sorted; auto.
  intro HI. apply H. apply (Permutation_in x (sort_desc_perm l)). auto.
Qed.
Lemma desc_unique : forall l1 l2, desc l1 -> desc l2 -> Permutation l1 l2 -> l1 = l2.
Proof.
  induction l1 as [|a l1 IH]; intros l2 H1 H2 HP.
  - apply Permutation_nil in HP. auto.
  - destruct l2 as [|b l2]; [apply Permutation_sym, Permutation_nil in HP; discriminate|].
    inversion H1 as [|? ? S1 F1]; inversion H2 as [|? ? S2 F2]; subst. rewrite Forall_forall in F1, F2.
    assert (a = b).
    { assert (Ia : In a (b :: l2)) by (apply (Permutation_in a HP); left; auto).
      assert (Ib : In b (a :: l1)) by (apply (Permutation_in b (Permutation_sym HP)); left; auto).
      destruct Ia as [->|Ia]; auto. destruct Ib as [->|Ib]; auto. apply F1 in Ib. apply F2 in Ia. lia. }
    subst. f_equal. apply IH; auto. eapply Permutation_cons_inv; eauto.
Qed.

(** ** Products over axis lists *)
Lemma prod_perm : forall a b, Permutation a b -> prod a = prod b.
Proof. induction 1; simpl; lia. Qed.
Lemma keep_filter : forall axes ds i, keep_from i axes ds =
  map (fun a => znth 0 ds (a - i)) (filter (has axes) (zrange i (i + Zlen ds))).
Proof.
  induction ds as [|d ds IH]; intros i; simpl.
  - rewrite zrange_nil by (unfold Zlen; simpl; lia). reflexivity.
  - rewrite Zlen_cons. rewrite (zrange_cons i) by (pose proof (Zlen_nonneg ds); lia). simpl. fold (has axes i).
    rewrite (IH (i + 1)). replace (i + 1 + Zlen ds) with (i + (Zlen ds + 1)) by lia.
    assert (G : map (fun a => znth 0 ds (a - (i + 1))) (filter (has axes) (zrange (i + 1) (i + (Zlen ds + 1)))) =
                map (fun a => znth 0 (d :: ds) (a - i)) (filter (has axes) (zrange (i + 1) (i + (Zlen ds + 1))))).
    { apply map_ext_in. intros a HI. apply filter_In in HI. destruct HI as [HI _]. apply In_zrange in HI.
      unfold znth. replace (Z.to_nat (a - i)) with (Datatypes.S (Z.to_nat (a - (i + 1)))) by lia. reflexivity. }
    rewrite G. destruct (has axes i); simpl; auto. f_equal. rewrite Z.sub_diag. reflexivity.
Qed.
Lemma axes_count_list : forall axes ds, NoDup axes -> (forall a, In a axes -> 0 <= a < Zlen ds) ->
  axes_count axes ds = prod (map (fun a => znth 0 ds a) axes).
Proof.
  intros axes ds HN HR. unfold axes_count. rewrite keep_filter. apply prod_perm.
  rewrite (map_ext _ (fun a => znth 0 ds a)) by (intros; f_equal; lia).
  apply Permutation_map. apply NoDup_Permutation; auto.
  - apply NoDup_filter, NoDup_zrange.
  - intros x. rewrite filter_In, In_zrange, has_In. split; [tauto|]. intros H; split; auto.
Qed.
Lemma axes_count_bound : forall axes ds, Forall (fun d => 0 < d) ds -> 0 < axes_count axes ds <= prod ds.
Proof.
  intros. unfold axes_count. pose proof (prod_keep_drop axes ds 0).
  pose proof (prod_pos _ (keep_pos axes ds 0 H)). pose proof (prod_pos _ (drop_pos axes ds 0 H)). nia.
Qed.

(** ** The masked odometer *)
Definition maskl (axes : list Z) (i n : Z) : list bool := map (has axes) (zrange i n).
Lemma maskl_cons : forall axes i n, i < n -> maskl axes i n = has axes i :: maskl axes (i + 1) n.
Proof. intros. unfold maskl. rewrite zrange_cons by auto. reflexivity. Qed.

Lemma incr_masked_spec : forall axes ds idx i, length idx = length ds ->
  incr_masked ds (maskl axes i (i + Zlen ds)) idx (set_from 0 i axes idx) =
  (fst (incr_idx ds idx), set_from 0 i axes (fst (incr_idx ds idx)), snd (incr_idx ds idx)).
Proof.
  induction ds as [|d ds IH]; intros idx i HL; destruct idx as [|x idx]; simpl in HL; try lia.
  - reflexivity.
  - rewrite Zlen_cons. rewrite maskl_cons by (pose proof (Zlen_nonneg ds); lia). simpl.
    replace (i + (Zlen ds + 1)) with (i + 1 + Zlen ds) by lia. rewrite IH by lia.
    destruct (incr_idx ds idx) as [r c] eqn:E. cbn [fst snd]. fold (has axes i).
    destruct c; [destruct (x + 1 <? d)|]; simpl; fold (has axes i); destruct (has axes i); reflexivity.
Qed.

Lemma final_dims_spec : forall axes ds i, final_dims (maskl axes i (i + Zlen ds)) (set_from 1 i axes ds) = drop_from i axes ds.
Proof.
  induction ds as [|d ds IH]; intros i.
  - unfold maskl. rewrite zrange_nil by (unfold Zlen; simpl; lia). reflexivity.
  - rewrite Zlen_cons. rewrite maskl_cons by (pose proof (Zlen_nonneg ds); lia). simpl.
    replace (i + (Zlen ds + 1)) with (i + 1 + Zlen ds) by lia. rewrite IH. fold (has axes i).
    destruct (has axes i); simpl; [reflexivity|]. rewrite orb_true_r. reflexivity.
Qed.

Lemma znth_set_from : forall v axes l i k, 0 <= k < Zlen l ->
  znth 0 (set_from v i axes l) k = if has axes (i + k) then v else znth 0 l k.
Proof.
  induction l as [|x l IH]; intros i k Hk; [unfold Zlen in Hk; simpl in Hk; lia|]. rewrite Zlen_cons in Hk.
  simpl. fold (has axes i). destruct (Z.eq_dec k 0) as [->|Hne].
  - rewrite Z.add_0_r. reflexivity.
  - unfold znth in *. replace (Z.to_nat k) with (Datatypes.S (Z.to_nat (k - 1))) by lia. cbn [nth].
    rewrite IH by lia. replace (i + 1 + (k - 1)) with (i + k) by lia. reflexivity.
Qed.

Lemma mark_axes_ok : forall r axes pre mask ds, 0 <= r -> (forall a, In a axes -> 0 <= a < r) ->
  Zlen mask = r -> Zlen ds = r -> 
  (forall i, 0 <= i < r -> znth false mask i = has pre i) ->
  exists mask' ds', mark_axes r axes (mask, ds) = Ok (mask', ds') /\ Zlen mask' = r /\ Zlen ds' = r /\
    (forall i, 0 <= i < r -> znth false mask' i = has (pre ++ axes) i) /\
    (forall i, 0 <= i < r -> znth 0 ds' i = if has axes i then 1 else znth 0 ds i).
Proof.
  intros r axes. induction axes as [|a axes IH]; intros pre mask ds Hr HA HM HD HP; unfold mark_axes; cbn [foldM].
  - exists mask, ds. rewrite app_nil_r. auto.
  - destruct (Z.leb_spec r a); [specialize (HA a (or_introl eq_refl)); lia|].
    assert (Ha : 0 <= a < r) by (apply HA; left; auto).
    rewrite wr_ok by lia. cbn [bind]. rewrite wr_ok by lia. cbn [bind].
    destruct (IH (pre ++ [a]) (upd mask (Z.to_nat a) true) (upd ds (Z.to_nat a) 1)) as (mask' & ds' & E & L1 & L2 & H1 & H2); auto.
    + intros; apply HA; right; auto.
    + rewrite Zlen_upd; auto.
    + rewrite Zlen_upd; auto.
    + intros i Hi. unfold has in *. rewrite existsb_app. simpl. destruct (Z.eqb_spec i a) as [->|Hne].
      * rewrite znth_upd_eq by lia. rewrite orb_true_r. reflexivity.
      * rewrite znth_upd_neq by lia. rewrite HP by auto. simpl. rewrite orb_false_r. reflexivity.
    + exists mask', ds'. split; [exact E|]. repeat split; auto.
      * intros i Hi. rewrite H1 by auto. rewrite <- app_assoc. reflexivity.
      * intros i Hi. rewrite H2 by auto. unfold has; simpl. destruct (Z.eqb_spec i a) as [->|Hne]; cbn [orb].
        -- rewrite znth_upd_eq by lia. destruct (existsb _ _); reflexivity.
        -- rewrite znth_upd_neq by lia. reflexivity.
Qed.

Lemma mark_axes_throw : forall r axes mask ds, (forall a, In a axes -> 0 <= a) -> Zlen mask = r -> Zlen ds = r ->
  (exists a, In a axes /\ r <= a) -> mark_axes r axes (mask, ds) = Throw RuntimeError.
Proof.
  intros r axes. induction axes as [|a axes IH]; intros mask ds H0 HM HD (x & HI & Hx); [destruct HI|]. unfold mark_axes; cbn [foldM].
  destruct (Z.leb_spec r a); [reflexivity|]. assert (0 <= a) by (apply H0; left; auto).
  rewrite wr_ok by lia. cbn [bind]. rewrite wr_ok by lia. cbn [bind]. destruct HI as [->|HI]; [lia|].
  apply IH; rewrite ?Zlen_upd; auto. intros; apply H0; right; auto. eauto.
Qed.

Lemma mark_axes_spec : forall axes (ds : list Z), (forall a, In a axes -> 0 <= a < Zlen ds) ->
  mark_axes (Zlen ds) axes (zrepeat false (Zlen ds), ds) = Ok (maskl axes 0 (0 + Zlen ds), ones_axes axes ds).
Proof.
  intros axes ds HA. pose proof (Zlen_nonneg ds).
  destruct (mark_axes_ok (Zlen ds) axes [] (zrepeat false (Zlen ds)) ds) as (mask' & ds' & E & L1 & L2 & H1 & H2); auto.
  - apply Zlen_zrepeat; auto.
  - intros i Hi. rewrite znth_zrepeat by auto. reflexivity.
  - rewrite E. do 2 f_equal.
    + apply (list_ext false).
      * unfold maskl. rewrite Zlen_map, Zlen_zrange; lia.
      * intros i Hi. rewrite H1 by lia. unfold maskl. rewrite (znth_map 0) by (rewrite Zlen_zrange; lia).
        rewrite znth_zrange by lia. reflexivity.
    + apply (list_ext 0).
      * unfold ones_axes, Zlen. rewrite set_from_length. unfold Zlen in L2. lia.
      * intros i Hi. rewrite H2 by lia. unfold ones_axes. rewrite znth_set_from by lia. reflexivity.
Qed.

Section S.
Context {T : Type} {S : Scalar T}.

Lemma sum_axes_loop_eq : forall (t : tensor T) axes, good t -> forall fuel q res,
  0 <= q < prod (tdims t) -> prod (tdims t) - q <= Z.of_nat fuel -> Zlen res = prod (ones_axes axes (tdims t)) ->
  sum_axes_loop fuel t (shape_of (ones_axes axes (tdims t))) (maskl axes 0 (0 + Zlen (tdims t)))
     (unravel (tdims t) q) (zero_axes axes (unravel (tdims t) q)) res =
  foldM (fun q res => let g := ravel (ones_axes axes (tdims t)) (zero_axes axes (unravel (tdims t) q)) in
           v <- rd res g ;; wr res g (s_add v (znth zero (tdata t) q))) (zrange q (prod (tdims t))) res.
Proof.
  intros t axes Hg. set (ds := tdims t). pose proof (good_dims t Hg) as HF. fold ds in HF.
  pose proof (good_max t Hg) as HM. fold ds in HM.
  assert (HO : prod (ones_axes axes ds) <= prod ds).
  { unfold ones_axes. rewrite prod_ones. pose proof (prod_keep_drop axes ds 0).
    pose proof (prod_pos _ (keep_pos axes ds 0 HF)). pose proof (prod_pos _ (drop_pos axes ds 0 HF)). nia. }
  induction fuel as [|fuel IH]; intros q res Hq Hf HL; [lia|].
  cbn [sum_axes_loop]. rewrite (good_shape t) by auto. fold ds.
  pose proof (unravel_range ds q HF Hq) as HR. pose proof (ones_range axes ds _ 0 HR) as HR1.
  rewrite flat_index_ok; auto; [|apply INT_MAX_two64; auto]. cbn [bind].
  rewrite flat_index_ok; auto; [|apply INT_MAX_two64; lia]. cbn [bind].
  pose proof (ravel_bound _ _ HR1) as HB. fold (ones_axes axes ds) in *. fold (zero_axes axes (unravel ds q)) in *.
  rewrite ravel_unravel by auto. rewrite !i32_id by (unfold INT_MIN; lia).
  rewrite (zrange_cons q) by lia. cbn [foldM].
  rewrite (rd_ok zero res) by lia. cbn [bind]. rewrite (rd_ok zero (tdata t)) by (rewrite good_len by auto; fold ds; lia).
  cbn [bind]. rewrite wr_ok by lia. cbn [bind]. 
  unfold zero_axes at 1. rewrite incr_masked_spec by apply unravel_length.
  destruct (Z.eq_dec (q + 1) (prod ds)) as [E|E].
  - rewrite incr_last by (auto; lia). cbn [fst snd]. rewrite zrange_nil by lia. reflexivity.
  - rewrite incr_unravel by (auto; lia). cbn [fst snd]. apply IH; try lia. rewrite Zlen_upd; auto.
Qed.

Lemma fold_map : forall {A B} (f : B -> T -> B) (h : A -> T) l b, fold_left (fun acc k => f acc (h k)) l b = fold_left f (map h l) b.
Proof. induction l; simpl; intros; auto. Qed.

Lemma filter_map_comm : forall {A B} (p : B -> bool) (h : A -> B) l, filter p (map h l) = map h (filter (fun a => p (h a)) l).
Proof. induction l; simpl; auto. destruct (p (h a)); simpl; rewrite IHl; auto. Qed.

(** Sum over axes, some axis remaining. *)
Lemma sum_axes_ok : forall (t : tensor T) axes, good t ->
  (forall a, In a axes -> 0 <= a < Zlen (tdims t)) -> drop_axes axes (tdims t) <> [] ->
  t_sum_axes t axes = Ok (tensor_of (drop_axes axes (tdims t))
    (fun ridx => fsum (map (el t) (slice_indices axes (tdims t) ridx)))).
Proof.
  intros t axes Hg HA HD. unfold t_sum_axes, rank. fold (tdims t). set (ds := tdims t) in *.
  pose proof (good_dims t Hg) as HF. fold ds in HF. pose proof (good_max t Hg) as HM. fold ds in HM.
  pose proof (prod_pos _ HF) as HP.
  rewrite mark_axes_spec by auto. cbn [bind].
  assert (HPo : pos_dims (ones_axes axes ds)).
  { split; [|apply ones_pos; auto]. pose proof (good_pos t Hg) as [N _]. fold ds in N. destruct ds; [congruence|discriminate]. }
  assert (HO : prod (ones_axes axes ds) <= prod ds).
  { unfold ones_axes. rewrite prod_ones. pose proof (prod_keep_drop axes ds 0).
    pose proof (prod_pos _ (keep_pos axes ds 0 HF)). pose proof (prod_pos _ (drop_pos axes ds 0 HF)). nia. }
  pose proof (prod_pos _ (pos_forall _ HPo)) as HPP.
  rewrite new_shape_ok_int by (auto; lia). cbn [bind]. cbn [ssize shape_of].
  rewrite (good_size t Hg). fold ds.
  assert (HZ : zrepeat 0 (Zlen ds) = unravel ds 0) by (rewrite unravel_zero by auto; unfold zrepeat, Zlen; rewrite Nat2Z.id; reflexivity).
  assert (HZ2 : zrepeat 0 (Zlen ds) = zero_axes axes (unravel ds 0)).
  { rewrite unravel_zero by auto. unfold zrepeat, Zlen. rewrite Nat2Z.id. unfold zero_axes. rewrite set_from_zeros. reflexivity. }
  rewrite HZ2 at 2. rewrite HZ. unfold ds. rewrite sum_axes_loop_eq; auto; try (fold ds; lia).
  2:{ fold ds. apply Zlen_zrepeat. lia. }
  fold ds.
  destruct (foldM_update zero (fun q => ravel (ones_axes axes ds) (zero_axes axes (unravel ds q)))
     (fun q v => s_add v (znth zero (tdata t) q)) (zrange 0 (prod ds)) (zrepeat zero (prod (ones_axes axes ds)))) as (res & E & EL & EN).
  { intros k HI. apply In_zrange in HI. rewrite Zlen_zrepeat by lia. apply ravel_bound.
    apply ones_range. apply unravel_range; auto. }
  cbv zeta. rewrite E. cbn [bind]. rewrite Zlen_zrepeat in * by lia.
  unfold ones_axes at 1. rewrite final_dims_spec. fold (drop_axes axes ds).
  assert (HPd : pos_dims (drop_axes axes ds)) by (split; [auto|apply drop_pos; auto]).
  assert (HOD : prod (ones_axes axes ds) = prod (drop_axes axes ds)) by apply prod_ones.
  rewrite new_shape_ok_int by (auto; lia). cbn [bind]. change (dims (shape_of (drop_axes axes ds))) with (drop_axes axes ds).
  assert (G : good (mkTensor (shape_of (ones_axes axes ds)) res)) by (apply good_mk; auto; lia).
  rewrite t_reshape_ok; auto. f_equal. cbn [tdata].
  assert (G2 : good (mkTensor (shape_of (drop_axes axes ds)) res)) by (apply good_mk; auto; lia).
  refine (tensor_eta (mkTensor (shape_of (drop_axes axes ds)) res) _ G2 _).
  intros ridx HR. unfold tdims in HR; cbn in HR. unfold el at 1. unfold tdims. cbn [tshape tdata shape_of dims].
  pose proof (ravel_bound _ _ HR). rewrite EN by lia. rewrite znth_zrepeat by lia.
  rewrite (fold_map s_add (fun k => znth zero (tdata t) k)). unfold fsum. f_equal.
  unfold slice_indices, all_indices, ztab. rewrite filter_map_comm, map_map.
  assert (EF : filter (fun k => ravel (ones_axes axes ds) (zero_axes axes (unravel ds k)) =? ravel (drop_axes axes ds) ridx) (zrange 0 (prod ds))
     = filter (fun k => idx_eqb (drop_axes axes (unravel ds k)) ridx) (zrange 0 (prod ds))).
  { apply filter_ext_in. intros k HI. apply In_zrange in HI. pose proof (unravel_range ds k HF HI) as HU.
    unfold ones_axes, zero_axes. rewrite ravel_ones by apply unravel_length. fold (drop_axes axes ds) (drop_axes axes (unravel ds k)).
    unfold idx_eqb. destruct (list_eq_dec Z.eq_dec (drop_axes axes (unravel ds k)) ridx) as [->|Hne]; [apply Z.eqb_refl|].
    apply Z.eqb_neq. intro X. apply Hne. apply (ravel_inj (drop_axes axes ds)); auto. apply drop_range; auto. }
  rewrite EF. apply map_ext_in. intros k HI. apply filter_In in HI. destruct HI as [HI _]. apply In_zrange in HI.
  unfold el. fold ds. rewrite ravel_unravel; auto.
Qed.

Lemma sum_axes_all : forall (t : tensor T) axes, good t ->
  (forall a, In a axes -> 0 <= a < Zlen (tdims t)) -> drop_axes axes (tdims t) = [] ->
  t_sum_axes t axes = Throw InvalidArgument.
Proof.
  intros t axes Hg HA HD. unfold t_sum_axes, rank. fold (tdims t). set (ds := tdims t) in *.
  pose proof (good_dims t Hg) as HF. fold ds in HF. pose proof (good_max t Hg) as HM. fold ds in HM.
  pose proof (prod_pos _ HF) as HP.
  rewrite mark_axes_spec by auto. cbn [bind].
  assert (HPo : pos_dims (ones_axes axes ds)).
  { split; [|apply ones_pos; auto]. pose proof (good_pos t Hg) as [N _]. fold ds in N. destruct ds; [congruence|discriminate]. }
  assert (HO : prod (ones_axes axes ds) <= prod ds).
  { unfold ones_axes. rewrite prod_ones. pose proof (prod_keep_drop axes ds 0).
    pose proof (prod_pos _ (keep_pos axes ds 0 HF)). pose proof (prod_pos _ (drop_pos axes ds 0 HF)). nia. }
  pose proof (prod_pos _ (pos_forall _ HPo)) as HPP.
  rewrite new_shape_ok_int by (auto; lia). cbn [bind]. cbn [ssize shape_of].
  rewrite (good_size t Hg). fold ds.
  assert (HZ : zrepeat 0 (Zlen ds) = unravel ds 0) by (rewrite unravel_zero by auto; unfold zrepeat, Zlen; rewrite Nat2Z.id; reflexivity).
  assert (HZ2 : zrepeat 0 (Zlen ds) = zero_axes axes (unravel ds 0)).
  { rewrite unravel_zero by auto. unfold zrepeat, Zlen. rewrite Nat2Z.id. unfold zero_axes. rewrite set_from_zeros. reflexivity. }
  rewrite HZ2 at 2. rewrite HZ. unfold ds. rewrite sum_axes_loop_eq; auto; try (fold ds; lia).
  2:{ fold ds. apply Zlen_zrepeat. lia. }
  fold ds.
  destruct (foldM_update zero (fun q => ravel (ones_axes axes ds) (zero_axes axes (unravel ds q)))
     (fun q v => s_add v (znth zero (tdata t) q)) (zrange 0 (prod ds)) (zrepeat zero (prod (ones_axes axes ds)))) as (res & E & EL & EN).
  { intros k HI. apply In_zrange in HI. rewrite Zlen_zrepeat by lia. apply ravel_bound.
    apply ones_range. apply unravel_range; auto. }
  cbv zeta. rewrite E. cbn [bind].
  unfold ones_axes at 1. rewrite final_dims_spec. fold (drop_axes axes ds). rewrite HD. reflexivity.
Qed.

Lemma sum_axes_bad : forall (t : tensor T) axes, good t -> (forall a, In a axes -> 0 <= a) ->
  (exists a, In a axes /\ Zlen (tdims t) <= a) -> t_sum_axes t axes = Throw RuntimeError.
Proof.
  intros t axes Hg H0 HA. unfold t_sum_axes, rank. fold (tdims t).
  rewrite mark_axes_throw; auto. apply Zlen_zrepeat, Zlen_nonneg.
Qed.

End S.
