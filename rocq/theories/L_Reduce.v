(** * Proofs about sums over all elements and over one axis. *)
From Verif Require Import Base Scalar Types Spec M_Shape M_Tensor L_Index L_Shape L_Bcast L_Tensor.
From Coq Require Import Sorted.

(** ** Sorted integer lists *)
Lemma sorted_ext : forall l1 l2 : list Z,
  StronglySorted Z.lt l1 -> StronglySorted Z.lt l2 -> (forall x, In x l1 <-> In x l2) -> l1 = l2.
Proof.
  induction l1 as [|a l1 IH]; intros [|b l2] H1 H2 HI; auto.
  - exfalso. apply (HI b). left; auto.
  - exfalso. apply (HI a). left; auto.
  - inversion H1 as [|? ? S1 F1]; inversion H2 as [|? ? S2 F2]; subst.
    rewrite Forall_forall in F1, F2.
    assert (a = b).
    { assert (Ia : In a (b :: l2)) by (apply HI; left; auto).
      assert (Ib : In b (a :: l1)) by (apply HI; left; auto).
      destruct Ia as [->|Ia]; auto. destruct Ib as [->|Ib]; auto.
      specialize (F1 _ Ib). specialize (F2 _ Ia). lia. }
    subst. f_equal. apply IH; auto. intros x. split; intros Hx.
    + assert (K : In x (b :: l2)) by (apply HI; right; auto). destruct K as [->|]; auto.
      specialize (F1 _ Hx). lia.
    + assert (K : In x (b :: l1)) by (apply HI; right; auto). destruct K as [->|]; auto.
      specialize (F2 _ Hx). lia.
Qed.
Lemma sorted_zrange : forall lo hi, StronglySorted Z.lt (zrange lo hi).
Proof.
  intros lo hi. remember (Z.to_nat (hi - lo)) as n eqn:Hn. revert lo Hn.
  induction n; intros.
  - rewrite zrange_nil by lia. constructor.
  - rewrite zrange_cons by lia. constructor; [apply IHn; lia|].
    apply Forall_forall. intros x Hx. rewrite In_zrange in Hx. lia.
Qed.
Lemma sorted_filter : forall (f : Z -> bool) l, StronglySorted Z.lt l -> StronglySorted Z.lt (filter f l).
Proof.
  induction 1; simpl; [constructor|]. destruct (f a); auto. constructor; auto.
  apply Forall_forall. intros x Hx. apply filter_In in Hx. rewrite Forall_forall in H0. apply H0. tauto.
Qed.
Lemma sorted_map : forall (f : Z -> Z) l, StronglySorted Z.lt l ->
  (forall x y, In x l -> In y l -> x < y -> f x < f y) -> StronglySorted Z.lt (map f l).
Proof.
  induction 1; simpl; intros Hf; [constructor|]. constructor.
  - apply IHStronglySorted. intros; apply Hf; auto.
  - apply Forall_forall. intros y Hy. apply in_map_iff in Hy. destruct Hy as (x & <- & Hx).
    rewrite Forall_forall in H0. apply Hf; simpl; auto.
Qed.

(** ** Insert/remove *)
Lemma firstn_in_range : forall n ds idx, in_range ds idx -> in_range (firstn n ds) (firstn n idx).
Proof. intros n ds idx H. revert n. induction H; intros [|n]; simpl; constructor; auto. apply IHForall2. Qed.
Lemma skipn_in_range : forall n ds idx, in_range ds idx -> in_range (skipn n ds) (skipn n idx).
Proof. intros n ds idx H. revert n. induction H; intros [|n]; simpl; try constructor; auto. Qed.
Lemma in_range_app : forall d1 d2 i1 i2, in_range d1 i1 -> in_range d2 i2 -> in_range (d1 ++ d2) (i1 ++ i2).
Proof. intros. apply Forall2_app; auto. Qed.
Lemma in_range_remove : forall n ds idx, in_range ds idx -> in_range (remove_at n ds) (remove_at n idx).
Proof. intros. apply in_range_app; [apply firstn_in_range|apply skipn_in_range]; auto. Qed.

Lemma ravel_app : forall d1 i1 d2 i2, length d1 = length i1 ->
  ravel (d1 ++ d2) (i1 ++ i2) = ravel d1 i1 * prod d2 + ravel d2 i2.
Proof.
  induction d1; destruct i1; simpl; intros; try discriminate; [lia|].
  rewrite IHd1, prod_app by lia. ring.
Qed.

Lemma split_at : forall {A} (d : A) n (l : list A), (n < length l)%nat ->
  l = firstn n l ++ nth n l d :: skipn (S n) l.
Proof.
  induction n; destruct l; simpl; intros; try lia; auto. f_equal. apply IHn. lia.
Qed.

Lemma remove_insert : forall n x l, (n <= length l)%nat -> remove_at n (insert_at n x l) = l.
Proof.
  intros. unfold remove_at, insert_at.
  rewrite firstn_app, firstn_firstn, Nat.min_id, firstn_length, Nat.min_l by lia.
  rewrite Nat.sub_diag. simpl firstn at 2. rewrite app_nil_r.
  rewrite skipn_app, firstn_length, Nat.min_l by lia.
  replace (S n - n)%nat with 1%nat by lia. rewrite skipn_all2 by (rewrite firstn_length; lia).
  simpl. apply firstn_skipn.
Qed.
Lemma insert_remove : forall n l, (n < length l)%nat -> insert_at n (nth n l 0) (remove_at n l) = l.
Proof.
  intros. unfold remove_at, insert_at.
  rewrite firstn_app, firstn_firstn, Nat.min_id, firstn_length, Nat.min_l by lia.
  rewrite Nat.sub_diag. simpl firstn at 2. rewrite app_nil_r.
  rewrite skipn_app, firstn_length, Nat.min_l by lia. rewrite Nat.sub_diag.
  rewrite skipn_all2 by (rewrite firstn_length; lia). simpl. symmetry. apply split_at; auto.
Qed.

Lemma remove_at_length : forall n (l : list Z), (n < length l)%nat -> length (remove_at n l) = (length l - 1)%nat.
Proof. intros. unfold remove_at. rewrite app_length, firstn_length, skipn_length. lia. Qed.

Lemma in_range_insert : forall n ds ridx x, (n < length ds)%nat ->
  in_range (remove_at n ds) ridx -> 0 <= x < nth n ds 0 -> in_range ds (insert_at n x ridx).
Proof.
  intros n ds ridx x Hn HR Hx.
  pose proof (in_range_length _ _ HR) as HL. rewrite remove_at_length in HL by auto.
  rewrite (split_at 0 n ds) by auto. unfold insert_at.
  pose proof (firstn_in_range n _ _ HR) as H1. pose proof (skipn_in_range n _ _ HR) as H2.
  assert (E1 : firstn n (remove_at n ds) = firstn n ds).
  { unfold remove_at. rewrite firstn_app, firstn_firstn, Nat.min_id, firstn_length, Nat.min_l by lia.
    rewrite Nat.sub_diag. simpl. apply app_nil_r. }
  assert (E2 : skipn n (remove_at n ds) = skipn (S n) ds).
  { unfold remove_at. rewrite skipn_app, firstn_length, Nat.min_l by lia. rewrite Nat.sub_diag.
    rewrite skipn_all2 by (rewrite firstn_length; lia). reflexivity. }
  rewrite E1 in H1. rewrite E2 in H2.
  apply in_range_app; auto. constructor; auto.
Qed.

Lemma ravel_insert : forall n ds ridx x, (n < length ds)%nat -> length ridx = (length ds - 1)%nat ->
  ravel ds (insert_at n x ridx) =
  x * prod (skipn (S n) ds) + ravel ds (insert_at n 0 ridx).
Proof.
  intros n ds ridx x Hn HL. unfold insert_at.
  rewrite (split_at 0 n ds) at 1 3 by auto.
  rewrite !ravel_app by (rewrite !firstn_length; lia). simpl. ring.
Qed.

Lemma nth_insert_at : forall n x l, (n <= length l)%nat -> nth n (insert_at n x l) 0 = x.
Proof.
  intros. unfold insert_at. rewrite app_nth2; rewrite firstn_length, Nat.min_l by lia; [|lia].
  rewrite Nat.sub_diag. reflexivity.
Qed.

Section S.
Context {T : Type} {S : Scalar T}.

Lemma for_fold : forall {A} (d : A) (l : list A) {B} (f : B -> A -> B) (b : B),
  for_ 0 (Zlen l) (fun k acc => x <- rd l k ;; Ok (f acc x)) b = Ok (fold_left f l b).
Proof.
  intros A d l B f b.
  destruct (for_inv (fun k acc => fold_left f (skipn (Z.to_nat k) l) acc = fold_left f l b) 0 (Zlen l)
     (fun k acc => x <- rd l k ;; Ok (f acc x)) b) as (acc & E & H).
  - apply Zlen_nonneg.
  - reflexivity.
  - intros k acc Hk H. rewrite (rd_ok d) by auto. simpl. eexists; split; [reflexivity|].
    rewrite (skipn_znth d) in H by auto. simpl in H. exact H.
  - rewrite E, <- H, skipn_all_Z. reflexivity.
Qed.

Lemma t_sum_ok : forall (t : tensor T), good t ->
  t_sum t = Ok (t_fill (shape_of [1]) (fsum (tdata t))).
Proof.
  intros t Hg. unfold t_sum. rewrite good_size, <- good_len by auto.
  rewrite (for_fold zero). simpl. unfold new_shape. reflexivity.
Qed.

Lemma data_all_indices : forall (t : tensor T), good t ->
  tdata t = map (el t) (all_indices (tdims t)).
Proof.
  intros t Hg. apply (list_ext zero).
  - rewrite Zlen_map. unfold all_indices. rewrite Zlen_ztab, good_len by (auto; pose proof (good_prod_pos t Hg); lia). reflexivity.
  - intros i Hi. rewrite good_len in Hi by auto.
    unfold all_indices. rewrite (znth_map []) by (rewrite Zlen_ztab; lia).
    rewrite znth_ztab by lia. unfold el. rewrite ravel_unravel; auto. apply pos_forall, good_pos; auto.
Qed.

(** Accumulation with an auxiliary state that is a function of the counter. *)
Lemma for_accum : forall {X} n m (g : Z -> Z) (x : Z -> T) (aux : Z -> X) (body : Z -> list T * X -> outcome (list T * X)) z,
  0 <= n -> 0 <= m -> (forall k, 0 <= k < n -> 0 <= g k < m) ->
  (forall k res, 0 <= k < n -> Zlen res = m ->
      body k (res, aux k) = Ok (upd res (Z.to_nat (g k)) (s_add (znth zero res (g k)) (x k)), aux (k + 1))) ->
  exists res, for_ 0 n body (zrepeat z m, aux 0) = Ok (res, aux n) /\ Zlen res = m /\
    forall j, 0 <= j < m ->
      znth zero res j = fold_left (fun acc k => s_add acc (x k)) (filter (fun k => g k =? j) (zrange 0 n)) z.
Proof.
  intros X n m g x aux body z Hn Hm Hg Hb.
  destruct (for_inv (fun k st => snd st = aux k /\ Zlen (fst st) = m /\ forall j, 0 <= j < m ->
     znth zero (fst st) j = fold_left (fun acc k => s_add acc (x k)) (filter (fun k => g k =? j) (zrange 0 k)) z)
     0 n body (zrepeat z m, aux 0)) as ([res a] & E & H1 & H2 & H3).
  - auto.
  - simpl. split; auto. split; [apply Zlen_zrepeat; auto|]. intros j Hj. rewrite znth_zrepeat by auto. reflexivity.
  - intros k [res a] Hk (A1 & A2 & A3). simpl in *. subst a.
    rewrite Hb by auto. eexists; split; [reflexivity|]. simpl. split; auto. rewrite Zlen_upd. split; auto.
    intros j Hj. rewrite zrange_snoc by lia. rewrite filter_app, fold_left_app, <- A3 by auto. simpl.
    specialize (Hg k Hk). destruct (Z.eqb_spec (g k) j) as [->|Hne]; simpl.
    + apply znth_upd_eq. lia.
    + apply znth_upd_neq; lia.
  - simpl in *. subst a. exists res. auto.
Qed.

Lemma filter_axis : forall ds n ridx, Forall (fun d => 0 < d) ds -> (n < length ds)%nat ->
  in_range (remove_at n ds) ridx ->
  filter (fun k => ravel (remove_at n ds) (remove_at n (unravel ds k)) =? ravel (remove_at n ds) ridx)
         (zrange 0 (prod ds)) =
  map (fun a => ravel ds (insert_at n a ridx)) (zrange 0 (nth n ds 0)).
Proof.
  intros ds n ridx HF Hn HR.
  pose proof (in_range_length _ _ HR) as HL. rewrite remove_at_length in HL by auto.
  apply sorted_ext.
  - apply sorted_filter, sorted_zrange.
  - apply sorted_map; [apply sorted_zrange|]. intros x y _ _ Hxy.
    rewrite (ravel_insert n ds ridx x), (ravel_insert n ds ridx y) by auto.
    assert (0 < prod (skipn (Datatypes.S n) ds)).
    { apply prod_pos. apply Forall_forall. intros z Hz. rewrite Forall_forall in HF. apply HF.
      rewrite <- (firstn_skipn (Datatypes.S n) ds). apply in_or_app; auto. }
    nia.
  - intros k. rewrite filter_In, In_zrange, in_map_iff. split.
    + intros [Hk E]. rewrite Z.eqb_eq in E.
      pose proof (unravel_range ds k HF Hk) as HU.
      apply ravel_inj in E; [|apply in_range_remove; auto|auto].
      exists (nth n (unravel ds k) 0). split.
      * rewrite <- E, insert_remove by (rewrite unravel_length; auto). apply ravel_unravel; auto.
      * rewrite In_zrange. pose proof (in_range_nth _ _ (Z.of_nat n) HU ltac:(unfold Zlen; lia)) as K.
        unfold znth in K. rewrite Nat2Z.id in K. exact K.
    + intros (a & <- & Ha). rewrite In_zrange in Ha.
      pose proof (in_range_insert n ds ridx a Hn HR Ha) as HI.
      pose proof (ravel_bound _ _ HI). split; auto. rewrite Z.eqb_eq.
      rewrite unravel_ravel by auto. rewrite remove_insert by lia. reflexivity.
Qed.

Lemma prod_remove : forall n ds, (n < length ds)%nat -> prod ds = nth n ds 0 * prod (remove_at n ds).
Proof.
  intros. rewrite (split_at 0 n ds) at 1 by auto. unfold remove_at. rewrite !prod_app. simpl. ring.
Qed.

Lemma pos_remove : forall n ds, Forall (fun d => 0 < d) ds -> (1 < length ds)%nat -> (n < length ds)%nat -> pos_dims (remove_at n ds).
Proof.
  intros n ds HF HL Hn. split.
  - intro E. apply (f_equal (@length Z)) in E. rewrite remove_at_length in E by auto. simpl in E. lia.
  - apply Forall_forall. intros x Hx. rewrite Forall_forall in HF. apply HF. unfold remove_at in Hx.
    apply in_app_or in Hx. rewrite (split_at 0 n ds) by auto. apply in_or_app. destruct Hx; auto. right; right; auto.
Qed.

Theorem t_sum_axis_ok : forall (t : tensor T) axis,
  good t -> (1 < length (tdims t))%nat -> 0 <= axis < Zlen (tdims t) ->
  t_sum_axis t axis = Ok (tensor_of (remove_at (Z.to_nat axis) (tdims t))
    (fun ridx => fsum (map (fun a => el t (insert_at (Z.to_nat axis) a ridx))
                           (zrange 0 (nth (Z.to_nat axis) (tdims t) 0))))).
Proof.
  intros t axis Hg HL Hax. unfold t_sum_axis, rank. fold (tdims t). pose proof (good_prod_pos t Hg) as HPP.
  destruct (Z.ltb_spec axis 0), (Z.leb_spec (Zlen (tdims t)) axis); try lia. cbn [orb].
  destruct (Z.eqb_spec (Zlen (tdims t)) 1) as [?|_]; [unfold Zlen in *; lia|].
  set (ds := tdims t) in *. set (n := Z.to_nat axis) in *.
  assert (HF : Forall (fun d => 0 < d) ds) by (apply pos_forall, good_pos; auto).
  assert (Hn : (n < length ds)%nat) by (unfold n, Zlen in *; lia).
  fold (remove_at n ds).
  pose proof (pos_remove n ds HF HL Hn) as HPr.
  pose proof (prod_remove n ds Hn) as HPrd.
  assert (Hd : 0 < nth n ds 0) by (rewrite Forall_forall in HF; apply HF, nth_In; auto).
  assert (HPos : 0 < prod (remove_at n ds)) by (apply prod_pos; auto with idx).
  assert (HMx : prod (remove_at n ds) <= INT_MAX) by (pose proof (good_max t Hg) as K; fold ds in K; nia).
  rewrite new_shape_ok_int by auto. cbn [bind]. rewrite good_size by auto. fold ds.
  set (rds := remove_at n ds) in *.
  change (ssize (shape_of rds)) with (prod rds).
  assert (EB : zrepeat 0 (Zlen ds) = unravel ds (if 0 <? prod ds then 0 else 0)).
  { destruct (0 <? prod ds); rewrite unravel_zero by auto; unfold zrepeat, Zlen; rewrite Nat2Z.id; reflexivity. }
  rewrite EB.
  destruct (for_accum (prod ds) (prod rds) (fun k => ravel rds (remove_at n (unravel ds k)))
     (fun k => znth zero (tdata t) k) (fun k => unravel ds (if k <? prod ds then k else 0))
     (fun i '(res, idx) =>
            k <- compute_flat_index (shape_of rds) (firstn n idx ++ skipn (Datatypes.S n) idx) ;;
            x <- rd (tdata t) i ;;
            v <- rd res k ;;
            res' <- wr res k (s_add v x) ;;
            Ok (res', fst (incr_idx ds idx))) zero) as (res & E & HLr & HRes).
  - lia.
  - lia.
  - intros k Hk. apply ravel_bound. apply in_range_remove. apply unravel_range; auto.
  - intros k res Hk HLr. destruct (Z.ltb_spec k (prod ds)); [|lia].
    pose proof (unravel_range ds k HF Hk) as HU. pose proof (in_range_remove n _ _ HU) as HRm.
    fold (remove_at n (unravel ds k)). fold rds in HRm. pose proof (ravel_bound _ _ HRm).
    cbv beta zeta. rewrite flat_index_ok by (auto; apply INT_MAX_two64; auto). cbn [bind].
    rewrite (rd_ok zero) by (rewrite good_len by auto; auto). cbn [bind].
    rewrite (rd_ok zero) by lia. cbn [bind]. rewrite wr_ok by lia. cbn [bind].
    rewrite incr_fst by auto. reflexivity.
  - rewrite E. cbn [bind fst]. f_equal. change (mkTensor (shape_of rds) res) with (mkTensor (shape_of rds) res : tensor T).
    replace rds with (tdims (mkTensor (shape_of rds) res)) at 2 by reflexivity.
    apply tensor_eta.
    + apply good_mk; auto.
    + intros ridx HR. unfold tdims in HR; simpl in HR.
      unfold el at 1. unfold tdims; simpl. pose proof (ravel_bound _ _ HR).
      rewrite HRes by auto. unfold rds at 1 2. rewrite filter_axis by auto.
      unfold fsum.
      assert (G : forall l z, fold_left (fun acc k => s_add acc (znth zero (tdata t) k)) (map (fun a => ravel ds (insert_at n a ridx)) l) z
         = fold_left s_add (map (fun a => el t (insert_at n a ridx)) l) z).
      { induction l; simpl; intros; auto. }
      apply G.
Qed.

Theorem t_sum_axis_rank1 : forall (t : tensor T), good t -> length (tdims t) = 1%nat ->
  t_sum_axis t 0 = t_sum t.
Proof.
  intros t Hg HL. unfold t_sum_axis, rank. fold (tdims t).
  unfold Zlen. rewrite HL. reflexivity.
Qed.
Theorem t_sum_axis_throw : forall (t : tensor T) axis, ~ (0 <= axis < Zlen (tdims t)) ->
  t_sum_axis t axis = Throw RuntimeError.
Proof.
  intros t axis H. unfold t_sum_axis, rank. fold (tdims t).
  destruct (Z.ltb_spec axis 0), (Z.leb_spec (Zlen (tdims t)) axis); try lia; reflexivity.
Qed.
End S.
