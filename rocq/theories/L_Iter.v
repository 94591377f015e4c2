(** * L_Iter: iterators of views *)
From Verif Require Import Base Scalar Types Spec SpecSlice M_Shape M_Tensor M_Iter L_Index L_Tensor L_Tensor2 L_Glue.
Local Open Scope Z_scope.

Section L.
Context {T : Type} {S : Scalar T}.

Lemma iter_stay : forall ds k, prod ds <= k -> iter_next (shape_of ds) (iter_at ds k) = iter_at ds (k + 1).
Proof. intros ds k Hk. unfold iter_next, iter_at. destruct (Z.ltb_spec k (prod ds)); [lia|]. destruct (Z.ltb_spec (k + 1) (prod ds)); [lia|]. reflexivity. Qed.
Lemma advance_from : forall ds, Forall (fun d => 0 < d) ds -> forall k j, 0 <= j -> advance (shape_of ds) k (iter_at ds j) = iter_at ds (j + Z.of_nat k).
Proof.
  intros ds HF. induction k as [|k IH]; intros j Hj; cbn [advance].
  - f_equal. lia.
  - assert (E : iter_next (shape_of ds) (iter_at ds j) = iter_at ds (j + 1)).
    { destruct (Z_lt_le_dec j (prod ds)); [apply iter_next_at; auto; lia|apply iter_stay; lia]. }
    rewrite E, IH by lia. f_equal. lia.
Qed.
Lemma advance_at : forall ds k, Forall (fun d => 0 < d) ds -> advance (shape_of ds) k (iter_begin (shape_of ds)) = iter_at ds (Z.of_nat k).
Proof. intros ds k HF. rewrite iter_begin_at by auto. rewrite advance_from by (auto; lia). reflexivity. Qed.

Lemma at_end : forall ds k, iter_eq (iter_at ds k) iter_end = (prod ds <=? k).
Proof.
  intros ds k. unfold iter_at, iter_eq, iter_ne, iter_end. destruct (Z.ltb_spec k (prod ds)), (Z.leb_spec (prod ds) k); try lia; reflexivity.
Qed.
Lemma positions_end : forall ds k, pos_dims ds ->
  iter_eq (advance (shape_of ds) k (iter_begin (shape_of ds))) iter_end = (prod ds <=? Z.of_nat k).
Proof. intros ds k HP. rewrite advance_at by auto with idx. apply at_end. Qed.
Lemma unravel_inj : forall ds j k, Forall (fun d => 0 < d) ds -> 0 <= j < prod ds -> 0 <= k < prod ds -> unravel ds j = unravel ds k -> j = k.
Proof. intros ds j k HF Hj Hk E. rewrite <- (ravel_unravel ds j), <- (ravel_unravel ds k) by auto. rewrite E. reflexivity. Qed.
Lemma positions_equal : forall ds j k, pos_dims ds ->
  (iter_eq (advance (shape_of ds) j (iter_begin (shape_of ds))) (advance (shape_of ds) k (iter_begin (shape_of ds))) = true <->
   j = k \/ (prod ds <= Z.of_nat j /\ prod ds <= Z.of_nat k)).
Proof.
  intros ds j k HP. assert (HF : Forall (fun d => 0 < d) ds) by auto with idx. rewrite !advance_at by auto. unfold iter_at.
  destruct (Z.ltb_spec (Z.of_nat j) (prod ds)), (Z.ltb_spec (Z.of_nat k) (prod ds)); unfold iter_eq, iter_ne; cbn [fst snd Bool.eqb negb orb andb].
  - destruct (list_eq_dec Z.eq_dec (unravel ds (Z.of_nat j)) (unravel ds (Z.of_nat k))) as [E|E]; cbn [negb orb andb].
    + apply unravel_inj in E; auto; try lia; try (split; [intros _; left; lia|reflexivity]).
    + split; [discriminate|]. intros [->|]; [contradiction|lia].
  - split; [discriminate|]. intros [->|]; lia.
  - split; [discriminate|]. intros [->|]; lia.
  - split; auto.
Qed.

Lemma slice_positions : forall (v : sview T) ds f k, shows v ds f ->
  sview_deref v (advance (sv_shape v) k (iter_begin (sv_shape v))) = if Z.of_nat k <? prod ds then Ok (f (unravel ds (Z.of_nat k))) else Throw OutOfRange.
Proof.
  intros v ds f k (Es & HP & HM & HV). rewrite Es. rewrite advance_at by auto with idx. unfold sview_deref, iter_at.
  destruct (Z.ltb_spec (Z.of_nat k) (prod ds)); cbn [fst snd]; [|reflexivity]. apply HV. apply unravel_range; auto with idx; lia.
Qed.
Lemma broadcast_positions : forall (t : tensor T) r, good t -> pos_dims r -> bcast (tdims t) r r ->
  exists v, bview_new t (shape_of r) = Ok v /\ bv_shape v = shape_of r /\
    forall k, bview_deref v (tdata t) (advance (bv_shape v) k (iter_begin (bv_shape v))) =
      if Z.of_nat k <? prod r then Ok (el t (bproj (tdims t) (unravel r (Z.of_nat k)))) else Throw OutOfRange.
Proof.
  intros t r Hg HP HB. assert (HF : Forall (fun d => 0 < d) r) by auto with idx. exists (mk_bview t r). split; [apply bview_new_ok; auto|]. split; [reflexivity|]. intros k. cbn [bv_shape mk_bview].
  rewrite advance_at by auto with idx. unfold bview_deref, iter_at.
  destruct (Z.ltb_spec (Z.of_nat k) (prod r)); cbn [fst snd]; [|reflexivity].
  assert (HR : in_range r (unravel r (Z.of_nat k))) by (apply unravel_range; auto with idx; lia).
  unfold bview_index. rewrite bview_map_ok by auto. cbn [bind].
  rewrite (rd_ok zero); [reflexivity|]. rewrite good_len by auto. apply ravel_bound. apply (bproj_range _ r); auto. apply pos_forall, good_pos; auto.
Qed.
Lemma slice_positions_new : forall (t : tensor T) slices steps,
  good t -> length slices = length (tdims t) -> length steps = length (tdims t) -> Forall (fun s => 0 < s) steps ->
  (forall i, (i < length (tdims t))%nat -> nth i (tdims t) 0 + nth i steps 0 <= INT_MAX) ->
  exists v starts, sview_new t slices steps = Ok v /\ in_range (tdims t) starts /\
    shows v (dims (sv_shape v)) (fun idx => el t (slice_src starts steps idx)).
Proof.
  intros t slices steps Hg H1 H2 HF HI.
  pose proof (sl_starts_range (tdims t) slices (pos_forall _ (good_pos t Hg)) H1) as HR.
  destruct (sl_exts_facts _ _ steps HR H2 HF) as (A & B & C & D).
  eexists. exists (sl_starts (tdims t) slices). split; [apply sview_new_ok; auto|]. split; [auto|]. cbn [sv_shape dims shape_of].
  split; [reflexivity|]. split; [|split].
  - split; [|auto]. pose proof (good_pos t Hg) as [HN _]. intros E. rewrite E in B. apply HN. destruct (tdims t); [reflexivity|discriminate B].
  - destruct Hg as (? & ? & ?). lia.
  - intros idx Hi. apply (sview_index_ok t _ steps idx Hg HR H2 HF Hi).
Qed.

Lemma range_for_at : forall {A} ds (deref : iter -> outcome T) g (f : A -> T -> A), Forall (fun d => 0 < d) ds ->
  (forall k, 0 <= k < prod ds -> deref (iter_at ds k) = Ok (g (unravel ds k))) ->
  forall fuel k s, 0 <= k <= prod ds -> prod ds - k <= Z.of_nat fuel ->
  range_for fuel (shape_of ds) deref f (iter_at ds k) s = Ok (fold_left f (map (fun i => g (unravel ds i)) (zrange k (prod ds))) s).
Proof.
  intros A ds deref g f HF HD. induction fuel as [|fuel IH]; intros k s Hk Hfu.
  - cbn [range_for]. fold (iter_eq (iter_at ds k) iter_end). assert (E : iter_ne (iter_at ds k) iter_end = false).
    { pose proof (at_end ds k) as E. unfold iter_eq in E. rewrite (proj2 (Z.leb_le _ _)) in E by lia. apply Bool.negb_true_iff. auto. }
    rewrite E. rewrite zrange_nil by lia. reflexivity.
  - cbn [range_for]. pose proof (at_end ds k) as E. unfold iter_eq in E. destruct (Z.leb_spec (prod ds) k).
    + apply Bool.negb_true_iff in E. rewrite E. rewrite zrange_nil by lia. reflexivity.
    + apply Bool.negb_false_iff in E. rewrite E. rewrite HD by lia. cbn [bind]. rewrite iter_next_at by (auto; lia). rewrite IH by lia.
      rewrite (zrange_cons k) by lia. reflexivity.
Qed.
Lemma slice_range_for : forall {A} (v : sview T) ds g (f : A -> T -> A) s, shows v ds g ->
  range_for (Z.to_nat (prod ds)) (sv_shape v) (sview_deref v) f (iter_begin (sv_shape v)) s = Ok (fold_left f (map g (all_indices ds)) s).
Proof.
  intros A v ds g f s HV. pose proof HV as (Es & HP & _ & _). pose proof (prod_pos ds (pos_forall _ HP)). rewrite Es. rewrite iter_begin_at by auto with idx.
  rewrite (range_for_at ds _ g); auto with idx; try lia.
  - do 2 f_equal. unfold all_indices, ztab. rewrite map_map. reflexivity.
  - intros k Hk. pose proof (slice_positions v ds g (Z.to_nat k) HV) as E. rewrite Es, advance_at in E by auto with idx. rewrite Z2Nat.id in E by lia. rewrite E.
    destruct (Z.ltb_spec k (prod ds)); [reflexivity|lia].
Qed.
End L.
