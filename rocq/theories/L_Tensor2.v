(** * More proofs about tensors: addressing, reshape, equality, construction,
      slices, views, factories. *)
From Verif Require Import Base Scalar Types Spec M_Shape M_Tensor L_Index L_Shape L_Bcast L_Tensor L_Reduce.

Section S.
Context {T : Type} {S : Scalar T}.

Lemma good_wf : forall t : tensor T, good t -> wf t.
Proof. intros t (A & B & C & D). repeat split; auto; try apply A. apply INT_MAX_two64; auto. Qed.

(** ** Shape construction *)
Lemma new_shape_facts : forall ds, pos_dims ds -> prod ds < two64 ->
  exists s, new_shape ds = Ok s /\ dims s = ds /\ rank s = Z.of_nat (length ds) /\ ssize s = prod ds /\
    length (sstride s) = length ds /\
    forall i, (i < length ds)%nat -> nth i (sstride s) 0 = prod (skipn (Datatypes.S i) ds).
Proof.
  intros ds HP HB. exists (shape_of ds). rewrite new_shape_ok by auto. repeat split.
  - apply strides_length.
  - intros i Hi. pose proof (znth_strides ds (Z.of_nat i) 0 ltac:(unfold Zlen; lia)) as K.
    unfold znth in K. rewrite Nat2Z.id in K. cbn [sstride shape_of]. rewrite K.
    replace (Z.to_nat (Z.of_nat i + 1)) with (Datatypes.S i) by lia. reflexivity.
Qed.

Lemma new_shape_wrap : forall ds, pos_dims ds ->
  exists s, new_shape ds = Ok s /\ dims s = ds /\ ssize s = prod ds mod two64.
Proof.
  intros ds HP. unfold new_shape. rewrite validate_ok by auto. simpl. eexists; split; [reflexivity|].
  simpl. split; auto. apply calc_size_u64.
Qed.

(** ** at() on consistent tensors of any size *)
Lemma at_ok : forall (t : tensor T) idx, wf t -> in_range (tdims t) idx -> t_at t idx = Ok (el t idx).
Proof.
  intros t idx (HP & HS & HB & HL) HI. unfold t_at. rewrite HS, flat_index_ok by auto. simpl.
  apply rd_ok. rewrite HL. apply ravel_bound; auto.
Qed.
Lemma at_fail : forall (t : tensor T) idx, wf t -> ~ in_range (tdims t) idx ->
  t_at t idx = Throw (if Nat.eqb (length idx) (length (tdims t)) then OutOfRange else InvalidArgument).
Proof.
  intros t idx (HP & HS & HB & HL) HI. unfold t_at. rewrite HS.
  destruct (Nat.eqb_spec (length idx) (length (tdims t))) as [E|E].
  - rewrite flat_index_spec by auto with idx. destruct (in_range_dec (tdims t) idx); [tauto|]. reflexivity.
  - rewrite flat_index_rank; [reflexivity|]. unfold rank, Zlen; simpl; lia.
Qed.
Lemma at_set_ok : forall (t : tensor T) idx v, wf t -> in_range (tdims t) idx ->
  t_at_set t idx v = Ok (set_el t idx v).
Proof.
  intros t idx v (HP & HS & HB & HL) HI. unfold t_at_set, t_set. rewrite HS, flat_index_ok by auto. cbn [bind].
  rewrite wr_ok by (rewrite HL; apply ravel_bound; auto). cbn [bind]. unfold set_el. rewrite HS. reflexivity.
Qed.
Lemma at_set_fail : forall (t : tensor T) idx v, wf t -> ~ in_range (tdims t) idx ->
  t_at_set t idx v = Throw (if Nat.eqb (length idx) (length (tdims t)) then OutOfRange else InvalidArgument).
Proof.
  intros t idx v (HP & HS & HB & HL) HI. unfold t_at_set. rewrite HS.
  destruct (Nat.eqb_spec (length idx) (length (tdims t))) as [E|E].
  - rewrite flat_index_spec by auto with idx. destruct (in_range_dec (tdims t) idx); [tauto|]. reflexivity.
  - rewrite flat_index_rank; [reflexivity|]. unfold rank, Zlen; simpl; lia.
Qed.
Lemma wf_set_el : forall (t : tensor T) idx v, wf t -> wf (set_el t idx v).
Proof.
  intros t idx v (HP & HS & HB & HL). unfold wf, set_el, tdims in *; simpl. rewrite Zlen_upd. auto.
Qed.
Lemma el_set_el_wf : forall (t : tensor T) i j v, wf t -> in_range (tdims t) i -> in_range (tdims t) j ->
  el (set_el t i v) j = if list_eq_dec Z.eq_dec j i then v else el t j.
Proof.
  intros t i j v (HP & HS & HB & HL) Hi Hj. unfold el, set_el, tdims; simpl. fold (tdims t).
  pose proof (ravel_bound _ _ Hi). pose proof (ravel_bound _ _ Hj).
  destruct (list_eq_dec Z.eq_dec j i) as [->|Hne].
  - apply znth_upd_eq. lia.
  - apply znth_upd_neq; try lia. intro E. apply Hne. apply (ravel_inj (tdims t)); auto.
Qed.

(** ** reshape *)
Lemma reshape_ok : forall (t : tensor T) ds, wf t -> Forall is_int ds ->
  pos_dims ds -> prod ds = prod (tdims t) ->
  t_reshape_st t ds = (mkTensor (shape_of ds) (tdata t), Ok tt).
Proof.
  intros t ds (HP & HS & HB & HL) HI HD HE. unfold t_reshape_st, t_reshape.
  rewrite shape_reshape_ok; auto.
  - eapply Forall_impl; [|exact HI]. unfold is_int; simpl; intros; lia.
  - lia.
  - rewrite HS. simpl. auto.
Qed.
Lemma reshape_fail : forall (t : tensor T) ds, wf t -> Forall is_int ds ->
  ~ (pos_dims ds /\ prod ds = prod (tdims t)) ->
  exists e, t_reshape_st t ds = (t, Throw e) /\ (~ pos_dims ds -> e = InvalidArgument) /\ (pos_dims ds -> e = if prod ds <? two64 then RuntimeError else OverflowError).
Proof.
  intros t ds (HP & HS & HB & HL) HI HN. unfold t_reshape_st, t_reshape.
  rewrite shape_reshape_throw.
  - eexists. split; [reflexivity|]. destruct (pos_dims_dec ds); split; intros; tauto.
  - eapply Forall_impl; [|exact HI]. unfold is_int; simpl; intros; lia.
  - rewrite HS. simpl. tauto.
Qed.

(** ** Equality *)
Lemma list_eqb_spec : forall a b, list_eqb a b = true <-> a = b.
Proof.
  induction a; destruct b; simpl; split; intros; try discriminate; auto.
  - apply andb_true_iff in H as [H1 H2]. apply Z.eqb_eq in H1. apply IHa in H2. congruence.
  - injection H as -> ->. apply andb_true_iff. split; [apply Z.eqb_refl|apply IHa; auto].
Qed.

Lemma for_all_ok : forall n (p : Z -> bool) (body : Z -> bool -> outcome bool), 0 <= n ->
  (forall i, 0 <= i < n -> body i true = Ok (p i)) -> (forall i, body i false = Ok false) ->
  exists b, for_ 0 n body true = Ok b /\ (b = true <-> forall i, 0 <= i < n -> p i = true).
Proof.
  intros n p body Hn H1 H2.
  destruct (for_inv (fun k (b : bool) => b = true <-> forall i, 0 <= i < k -> p i = true) 0 n body true) as (b & E & H); auto.
  - split; auto. intros; lia.
  - intros i b Hi HB. destruct b.
    + rewrite H1 by auto. eexists; split; [reflexivity|]. split.
      * intros Hp j Hj. destruct (Z.eq_dec j i); [subst; auto|]. apply HB; auto. lia.
      * intros Hp. apply Hp. lia.
    + rewrite H2. eexists; split; [reflexivity|]. split; [discriminate|].
      intros Hp. apply HB. intros; apply Hp; lia.
  - exists b; auto.
Qed.

Lemma eqb_spec : forall a b : tensor T, wf a -> wf b ->
  exists r, t_eqb a b = Ok r /\
    (r = true <-> tdims a = tdims b /\
       forall idx, in_range (tdims a) idx -> s_eq (el a idx) (el b idx) = true).
Proof.
  intros a b (HP & HS & HB & HL) (HP' & HS' & HB' & HL'). unfold t_eqb, shape_eqb. fold (tdims a) (tdims b).
  destruct (list_eqb (tdims a) (tdims b)) eqn:E.
  - apply list_eqb_spec in E. rewrite HS. cbn [ssize shape_of].
    assert (0 < prod (tdims a)) by (apply prod_pos; auto with idx).
    match goal with |- context[for_ 0 _ ?bd true] =>
      destruct (for_all_ok (prod (tdims a)) (fun i => s_eq (znth zero (tdata a) i) (znth zero (tdata b) i)) bd)
        as (r & Er & Hr) end.
    + lia.
    + intros i Hi. cbn beta iota. rewrite (rd_ok zero) by lia. cbn [bind].
      rewrite (rd_ok zero) by (rewrite HL', <- E; auto). reflexivity.
    + intros; reflexivity.
    + rewrite Er. eexists; split; [reflexivity|]. rewrite Hr. split.
      * intros Hp. split; auto. intros idx HI. unfold el. rewrite <- E. apply Hp. apply ravel_bound; auto.
      * intros [_ Hp] i Hi.
        specialize (Hp (unravel (tdims a) i)). unfold el in Hp. rewrite <- E in Hp.
        rewrite ravel_unravel in Hp by auto with idx. apply Hp. apply unravel_range; auto with idx.
  - eexists; split; [reflexivity|]. split; [discriminate|]. intros [K _]. apply list_eqb_spec in K. congruence.
Qed.

(** ** Construction from values *)
Lemma from_list_ok : forall ds (vals : list T), pos_dims ds -> prod ds <= INT_MAX -> Zlen vals <= prod ds ->
  t_from_list (shape_of ds) vals =
  Ok (tensor_of ds (fun idx => if ravel ds idx <? Zlen vals then znth zero vals (ravel ds idx) else zero)).
Proof.
  intros ds vals HP HM HL. unfold t_from_list. cbn [ssize shape_of].
  destruct (Z.leb_spec (Zlen vals) (prod ds)); [|lia]. f_equal.
  pose proof (Zlen_nonneg vals).
  assert (0 < prod ds) by (apply prod_pos; auto with idx).
  assert (G : good (mkTensor (shape_of ds) (vals ++ zrepeat zero (prod ds - Zlen vals)))).
  { apply good_mk; auto. rewrite Zlen_app, Zlen_zrepeat by lia. lia. }
  apply (tensor_eta _ _ G). intros idx HI. unfold el, tdims in *; simpl in *.
  pose proof (ravel_bound _ _ HI). destruct (Z.ltb_spec (ravel ds idx) (Zlen vals)).
  - apply znth_app1. lia.
  - rewrite znth_app2 by lia. apply znth_zrepeat. lia.
Qed.
Lemma from_list_ub : forall ds (vals : list T), prod ds < Zlen vals -> t_from_list (shape_of ds) vals = UB.
Proof. intros. unfold t_from_list. simpl. destruct (Z.leb_spec (Zlen vals) (prod ds)); auto; lia. Qed.

(** ** slice *)
Lemma znth_firstn : forall {A} (d : A) l n i, 0 <= i < Z.of_nat n -> znth d (firstn n l) i = znth d l i.
Proof.
  intros. unfold znth. assert (K : (Z.to_nat i < n)%nat) by lia. revert K. generalize (Z.to_nat i) as k. clear.
  intros k. revert l k. induction n; intros [|x l] [|k] H; simpl; auto; try lia. apply IHn. lia.
Qed.
Lemma znth_skipn : forall {A} (d : A) l n i, 0 <= i -> znth d (skipn n l) i = znth d l (i + Z.of_nat n).
Proof.
  intros. unfold znth. replace (Z.to_nat (i + Z.of_nat n)) with (n + Z.to_nat i)%nat by lia.
  generalize (Z.to_nat i). clear. intros k. revert l. induction n; intros [|x l]; simpl; auto.
  destruct k; auto.
Qed.

Lemma slice_block : forall (t : tensor T) dim index,
  good t -> (2 <= length (tdims t))%nat -> (dim < length (tdims t))%nat ->
  0 <= index < nth dim (tdims t) 0 ->
  let off := index * prod (skipn (Datatypes.S dim) (tdims t)) in
  let rds := remove_at dim (tdims t) in
  0 <= off /\ off + prod rds <= Zlen (tdata t) /\ pos_dims rds /\ prod rds <= INT_MAX /\
  t_slice t (Z.of_nat dim) index =
    Ok (tensor_of rds (fun idx => znth zero (tdata t) (off + ravel rds idx))).
Proof.
  intros t dim index Hg HL Hd HI. cbv zeta.
  set (ds := tdims t) in *. set (off := index * prod (skipn (Datatypes.S dim) ds)).
  set (rds := remove_at dim ds).
  assert (HF : Forall (fun d => 0 < d) ds) by (apply pos_forall, good_pos; auto).
  assert (HPr : pos_dims rds) by (apply pos_remove; auto; lia).
  pose proof (good_max t Hg) as HM. pose proof (good_len t Hg) as HLen. fold ds in HM, HLen.
  assert (HA : 0 < prod (firstn dim ds)).
  { apply prod_pos. apply Forall_forall. intros x Hx. rewrite Forall_forall in HF. apply HF.
    rewrite <- (firstn_skipn dim ds). apply in_or_app; auto. }
  assert (HB : 0 < prod (skipn (Datatypes.S dim) ds)).
  { apply prod_pos. apply Forall_forall. intros x Hx. rewrite Forall_forall in HF. apply HF.
    rewrite <- (firstn_skipn (Datatypes.S dim) ds). apply in_or_app; auto. }
  assert (HE : prod ds = prod (firstn dim ds) * (nth dim ds 0 * prod (skipn (Datatypes.S dim) ds))).
  { rewrite (split_at 0 dim ds) at 1 by auto. rewrite prod_app. reflexivity. }
  assert (HR : prod rds = prod (firstn dim ds) * prod (skipn (Datatypes.S dim) ds)).
  { unfold rds, remove_at. apply prod_app. }
  assert (HO : 0 <= off) by (unfold off; nia).
  assert (HOE : off + prod rds <= prod ds).
  { unfold off. rewrite HR, HE. nia. }
  assert (HPrd : 0 < prod rds) by (rewrite HR; nia).
  assert (HMx : prod rds <= INT_MAX) by lia.
  split; [auto|]. split; [lia|]. split; [auto|]. split; [auto|].
  unfold t_slice, rank. fold (tdims t). fold ds.
  rewrite (good_shape t Hg). fold ds.
  assert (E1 : rd (sstride (shape_of ds)) (Z.of_nat dim) = Ok (prod (skipn (Datatypes.S dim) ds))).
  { rewrite (rd_ok 0) by (simpl; unfold Zlen; rewrite strides_length; lia). f_equal.
    cbn [sstride shape_of]. rewrite znth_strides by (unfold Zlen; lia).
    replace (Z.to_nat (Z.of_nat dim + 1)) with (Datatypes.S dim) by lia. reflexivity. }
  rewrite E1. cbn [bind].
  assert (EO : i32 (u64 (u64 index * prod (skipn (Datatypes.S dim) ds))) = off).
  { rewrite u64_mul_l. fold off. unfold INT_MAX in *. rewrite u64_id by (unfold two64; lia).
    apply i32_id. unfold INT_MIN, INT_MAX. lia. }
  rewrite EO. cbn [dims shape_of].
  replace ((0 <=? Z.of_nat dim) && (Z.of_nat dim <? Zlen ds)) with true by (unfold Zlen; lia).
  rewrite Nat2Z.id. fold (remove_at dim ds). fold rds. rewrite new_shape_ok_int by auto. cbn [bind].
  replace ((0 <=? off) && (off <=? Zlen (tdata t))) with true by lia.
  unfold t_from_ptr. cbn [ssize shape_of].
  assert (HSk : Zlen (skipn (Z.to_nat off) (tdata t)) = Zlen (tdata t) - off).
  { unfold Zlen in *. rewrite skipn_length. lia. }
  replace (prod rds <=? Zlen (skipn (Z.to_nat off) (tdata t))) with true by lia.
  f_equal. assert (G : good (mkTensor (shape_of rds) (firstn (Z.to_nat (prod rds)) (skipn (Z.to_nat off) (tdata t))))).
  { apply good_mk; auto. unfold Zlen in *. rewrite firstn_length. lia. }
  apply (tensor_eta _ _ G). intros idx Hi. unfold el, tdims in *; simpl in *.
  pose proof (ravel_bound _ _ Hi).
  rewrite znth_firstn by lia. rewrite znth_skipn by lia. f_equal. lia.
Qed.

Lemma prod1_firstn_ravel : forall ds idx, in_range ds idx -> prod ds = 1 -> ravel ds idx = 0.
Proof. intros ds idx H E. pose proof (ravel_bound _ _ H). lia. Qed.

Lemma slice_leading : forall (t : tensor T) dim index,
  good t -> (2 <= length (tdims t))%nat -> (dim < length (tdims t))%nat ->
  0 <= index < nth dim (tdims t) 0 -> prod (firstn dim (tdims t)) = 1 ->
  t_slice t (Z.of_nat dim) index =
    Ok (tensor_of (remove_at dim (tdims t)) (fun idx => el t (insert_at dim index idx))).
Proof.
  intros t dim index Hg HL Hd HI H1.
  destruct (slice_block t dim index Hg HL Hd HI) as (_ & _ & HP & HM & E). rewrite E. f_equal.
  apply tensor_ext; auto using good_tensor_of.
  intros idx Hi. unfold tdims in Hi; simpl in Hi. fold (tdims t) in Hi.
  rewrite !el_tensor_of by auto. unfold el. f_equal.
  pose proof (in_range_length _ _ Hi) as HLi. rewrite remove_at_length in HLi by auto.
  pose proof (firstn_in_range dim _ _ Hi) as K.
  assert (Ef : firstn dim (remove_at dim (tdims t)) = firstn dim (tdims t)).
  { unfold remove_at. rewrite firstn_app, firstn_firstn, Nat.min_id, firstn_length, Nat.min_l by lia.
    rewrite Nat.sub_diag. simpl. apply app_nil_r. }
  rewrite Ef in K.
  assert (E1 : ravel (tdims t) (insert_at dim index idx) =
     index * prod (skipn (Datatypes.S dim) (tdims t)) + ravel (skipn (Datatypes.S dim) (tdims t)) (skipn dim idx)).
  { rewrite (split_at 0 dim (tdims t)) at 1 by auto. unfold insert_at.
    rewrite ravel_app by (rewrite !firstn_length; lia).
    rewrite (prod1_firstn_ravel _ _ K H1). cbn [ravel]. ring. }
  rewrite E1. f_equal.
  rewrite <- (firstn_skipn dim idx) at 1. unfold remove_at.
  rewrite ravel_app by (rewrite !firstn_length; lia).
  rewrite (prod1_firstn_ravel _ _ K H1). ring.
Qed.

(** ** View traversal *)
Lemma bview_elements_ok : forall (t : tensor T) r,
  good t -> pos_dims r -> bto (tdims t) r ->
  bview_elements (mk_bview t r) = Ok (map (bel t) (all_indices r)).
Proof.
  intros t r Hg HP HB. assert (HF : Forall (fun d => 0 < d) r) by auto with idx.
  assert (HPP : 0 < prod r) by (apply prod_pos; auto).
  assert (G : forall fuel k, 0 <= k <= prod r -> (Z.to_nat (prod r - k) <= fuel)%nat ->
     bview_traverse fuel (mk_bview t r) (iter_at r k) = Ok (map (fun j => bel t (unravel r j)) (zrange k (prod r)))).
  { induction fuel; intros k Hk Hfu.
    - assert (k = prod r) by lia. subst. unfold iter_at. rewrite Z.ltb_irrefl. simpl.
      rewrite zrange_nil by lia. reflexivity.
    - destruct (Z.eq_dec k (prod r)) as [->|Hne].
      + unfold iter_at. rewrite Z.ltb_irrefl. simpl. rewrite zrange_nil by lia. reflexivity.
      + cbn [bview_traverse]. cbn [bv_shape mk_bview]. rewrite iter_next_at by (auto; lia).
        rewrite IHfuel by lia. unfold iter_at at 1 2. destruct (Z.ltb_spec k (prod r)); [|lia]. cbn [snd fst bview_deref].
        rewrite (zrange_cons k) by lia. cbn [bv_orig mk_bview].
        unfold bview_deref. cbn [snd fst]. fold (mk_bview t r).
        rewrite bview_index_ok by (auto; apply unravel_range; auto; lia). reflexivity. }
  unfold bview_elements. cbn [bv_shape mk_bview]. rewrite iter_begin_at by auto.
  fold (mk_bview t r). rewrite G by (simpl; lia). unfold all_indices, ztab. rewrite map_map. reflexivity.
Qed.

(** ** SliceView *)
Definition sl_starts (ds : list Z) (slices : list (Z * Z)) : list Z :=
  map (fun p => sv_start_of (fst p) (fst (snd p))) (combine ds slices).
Definition sl_exts (ds starts steps : list Z) : list Z :=
  map (fun p => (fst p - fst (snd p) + snd (snd p) - 1) / snd (snd p)) (combine ds (combine starts steps)).

Lemma sl_starts_range : forall ds slices, Forall (fun d => 0 < d) ds -> length slices = length ds ->
  in_range ds (sl_starts ds slices).
Proof.
  induction ds; destruct slices as [|s sl]; simpl; intros HF HL; try discriminate; [constructor|].
  inversion HF; subst. constructor; [|apply IHds; auto].
  unfold sv_start_of; cbn [fst snd]. lia.
Qed.

Lemma ext_bound : forall d s st x, 0 <= s < d -> 0 < st -> 0 <= x < (d - s + st - 1) / st -> 0 <= s + x * st < d.
Proof.
  intros d s st x Hs Hst Hx. pose proof (Z.mul_div_le (d - s + st - 1) st Hst). nia.
Qed.
Lemma ext_ge1 : forall d s st, 0 <= s < d -> 0 < st -> 1 <= (d - s + st - 1) / st.
Proof. intros. apply Z.div_le_lower_bound; lia. Qed.
Lemma ext_le : forall d s st, 0 <= s < d -> 0 < st -> (d - s + st - 1) / st <= d.
Proof. intros. apply Z.div_le_upper_bound; nia. Qed.

Lemma sl_exts_facts : forall ds starts steps, in_range ds starts -> length steps = length ds ->
  Forall (fun s => 0 < s) steps ->
  Forall (fun d => 0 < d) (sl_exts ds starts steps) /\ length (sl_exts ds starts steps) = length ds /\
  prod (sl_exts ds starts steps) <= prod ds /\
  forall idx, in_range (sl_exts ds starts steps) idx -> in_range ds (slice_src starts steps idx).
Proof.
  intros ds starts steps HR. revert steps. induction HR as [|d s ds starts Hd HR IH]; intros [|st steps] HL HF; try discriminate.
  - simpl. repeat split; auto; try lia. intros idx H. inversion H. constructor.
  - inversion HF; subst. injection HL as HL. destruct (IH steps HL ltac:(auto)) as (A & B & C & D).
    unfold sl_exts. cbn [combine map fst snd]. fold (sl_exts ds starts steps).
    pose proof (ext_ge1 d s st Hd ltac:(auto)). pose proof (ext_le d s st Hd ltac:(auto)).
    pose proof (prod_pos _ A).
    repeat split.
    + constructor; auto. lia.
    + cbn [length]. lia.
    + cbn [prod]. nia.
    + intros idx HI. inversion HI as [|? x ? ? Hx HT]; subst. unfold slice_src. cbn [combine map fst snd].
      constructor; [apply ext_bound; auto|]. apply D; auto.
Qed.

Lemma sview_new_ok : forall (t : tensor T) slices steps,
  good t -> length slices = length (tdims t) -> length steps = length (tdims t) ->
  Forall (fun s => 0 < s) steps ->
  (forall i, (i < length (tdims t))%nat -> nth i (tdims t) 0 + nth i steps 0 <= INT_MAX) ->
  let starts := sl_starts (tdims t) slices in
  sview_new t slices steps = Ok (mkSV t (shape_of (sl_exts (tdims t) starts steps)) starts steps).
Proof.
  intros t slices steps Hg HL1 HL2 HF HI. cbv zeta.
  pose proof (good_pos t Hg) as HP. pose proof (good_max t Hg) as HM.
  pose proof (sl_starts_range (tdims t) slices ltac:(auto with idx) HL1) as HR.
  unfold sview_new, rank. fold (tdims t).
  replace ((Zlen slices =? Zlen (tdims t)) && (Zlen steps =? Zlen (tdims t))) with true by (unfold Zlen; lia).
  cbn [negb]. fold (sl_starts (tdims t) slices).
  destruct (sl_exts_facts _ _ steps HR HL2 HF) as (A & B & C & D).
  set (starts := sl_starts (tdims t) slices) in *.
  assert (E : mapM (fun p => sv_extent (fst p) (fst (snd p)) (snd (snd p))) (combine (tdims t) (combine starts steps))
     = Ok (sl_exts (tdims t) starts steps)).
  { unfold sl_exts. apply mapM_ok. intros (d & s & st) Hin. cbn [fst snd].
    assert (K : 0 <= s < d /\ 0 < st /\ d + st <= INT_MAX).
    { clear - HR HL2 HF HI Hin. revert steps HL2 HF HI Hin.
      induction HR as [|d0 s0 ds starts Hd HR IH]; intros [|st0 steps] HL HF HI Hin; try discriminate; [destruct Hin|].
      inversion HF; subst. cbn [combine] in Hin. destruct Hin as [E|Hin].
      - injection E as <- <- <-. specialize (HI O ltac:(simpl; lia)). simpl in HI. auto.
      - apply (IH steps); [simpl in HL; lia|auto| |auto]. intros i Hi. apply (HI (Datatypes.S i)). simpl. lia. }
    destruct K as (K1 & K2 & K3). unfold sv_extent.
    rewrite chk32_ok by (unfold INT_MIN, INT_MAX in *; lia). cbn [bind].
    destruct (Z.eqb_spec st 0); [lia|]. rewrite Z.quot_div_nonneg by lia. reflexivity. }
  rewrite E. cbn [bind]. rewrite new_shape_ok_int; [reflexivity| |lia].
  split; auto. intro K. rewrite K in B. destruct HP as [HP _]. simpl in B. destruct (tdims t); auto; discriminate.
Qed.

Lemma slice_src_nth : forall starts steps idx i, length steps = length starts -> length idx = length starts ->
  0 <= i < Zlen starts -> znth 0 (slice_src starts steps idx) i = znth 0 starts i + znth 0 idx i * znth 0 steps i.
Proof.
  intros starts steps idx i H1 H2 Hi. unfold znth, Zlen in *.
  assert (K : (Z.to_nat i < length starts)%nat) by lia. revert K. generalize (Z.to_nat i) as k. clear Hi i.
  revert steps idx H1 H2. induction starts; intros [|st steps] [|x idx] H1 H2 k Hk; try discriminate; simpl in *; try lia.
  destruct k; simpl; auto. apply IHstarts; lia.
Qed.
Lemma slice_src_length : forall starts steps idx, length steps = length starts -> length idx = length starts ->
  length (slice_src starts steps idx) = length starts.
Proof. intros. unfold slice_src. rewrite map_length, !combine_length. lia. Qed.

Lemma sview_map_ok : forall (t : tensor T) starts steps exts idx,
  good t -> in_range (tdims t) starts -> length steps = length (tdims t) -> Forall (fun s => 0 < s) steps ->
  length idx = length (tdims t) -> Forall (fun x => 0 <= x) idx ->
  in_range (tdims t) (slice_src starts steps idx) ->
  sview_map (mkSV t exts starts steps) idx = Ok (ravel (tdims t) (slice_src starts steps idx)).
Proof.
  intros t starts steps exts idx Hg HR HL2 HF HLi HNN HS.
  set (src := slice_src starts steps idx) in *. set (ds := tdims t) in *.
  pose proof (in_range_length _ _ HR) as HLs. pose proof (in_range_length _ _ HS) as HLr.
  pose proof (good_max t Hg) as HM. fold ds in HM. pose proof (ravel_bound _ _ HS) as HB.
  unfold sview_map. cbn [sv_start sv_step sv_orig].
  rewrite (good_shape t Hg). fold ds. cbn [sstride shape_of].
  match goal with |- for_ 0 _ ?bd 0 = _ =>
    destruct (for_inv (fun k flat => flat = ravel ds src - ravel (skipn (Z.to_nat k) ds) (skipn (Z.to_nat k) src))
      0 (Zlen idx) bd 0) as (r & E & Hr) end.
  - apply Zlen_nonneg.
  - simpl. lia.
  - intros k flat Hk ->.
    assert (HkD : 0 <= k < Zlen ds) by (unfold Zlen in *; lia).
    rewrite (rd_ok 0) by (unfold Zlen in *; lia). cbn [bind].
    rewrite (rd_ok 0) by (unfold Zlen in *; lia). cbn [bind].
    rewrite (rd_ok 0) by (unfold Zlen in *; lia). cbn [bind].
    rewrite (rd_ok 0) by (unfold Zlen in *; rewrite strides_length; lia). cbn [bind].
    assert (ES : znth 0 src k = znth 0 starts k + znth 0 idx k * znth 0 steps k).
    { apply slice_src_nth; unfold Zlen in *; lia. }
    pose proof (in_range_nth _ _ k HS HkD) as HB1. pose proof (in_range_nth _ _ k HR HkD) as HB2.
    assert (0 <= znth 0 idx k).
    { rewrite Forall_forall in HNN. apply HNN. apply nth_In. unfold Zlen in *; lia. }
    assert (0 < znth 0 steps k).
    { rewrite Forall_forall in HF. apply HF. apply nth_In. unfold Zlen in *; lia. }
    assert (HDm : znth 0 ds k <= prod ds).
    { apply prod_ge; [apply (in_range_pos _ _ HS)|]. apply nth_In. unfold Zlen in *; lia. }
    rewrite ES in HB1.
    rewrite chk32_ok by (unfold INT_MIN, INT_MAX in *; nia). cbn [bind].
    rewrite chk32_ok by (unfold INT_MIN, INT_MAX in *; nia). cbn [bind].
    rewrite <- ES in *.
    eexists; split; [reflexivity|].
    rewrite (skipn_znth 0 ds k HkD), (skipn_znth 0 src k) by (unfold Zlen in *; lia). cbn [ravel].
    rewrite znth_strides by auto.
    set (R := ravel (skipn (Z.to_nat (k + 1)) ds) (skipn (Z.to_nat (k + 1)) src)).
    set (P := prod (skipn (Z.to_nat (k + 1)) ds)).
    assert (HRk : 0 <= R <= ravel ds src) by (apply ravel_suffix_bound; auto).
    rewrite u64_mul_l, u64_add_r, u64_add_l.
    replace (ravel ds src - (znth 0 src k * P + R) + znth 0 src k * P) with (ravel ds src - R) by ring.
    unfold INT_MAX in *. rewrite u64_id by (unfold two64; lia). apply i32_id. unfold INT_MIN, INT_MAX; lia.
  - rewrite E, Hr. f_equal.
    rewrite !skipn_all2 by (unfold Zlen in *; lia). simpl. lia.
Qed.

Lemma in_range_nonneg : forall ds idx, in_range ds idx -> Forall (fun x => 0 <= x) idx.
Proof. induction 1; constructor; auto; lia. Qed.

Lemma sview_index_ok : forall (t : tensor T) starts steps idx,
  good t -> in_range (tdims t) starts -> length steps = length (tdims t) -> Forall (fun s => 0 < s) steps ->
  in_range (sl_exts (tdims t) starts steps) idx ->
  sview_map (mkSV t (shape_of (sl_exts (tdims t) starts steps)) starts steps) idx =
    Ok (ravel (tdims t) (slice_src starts steps idx)) /\
  sview_index (mkSV t (shape_of (sl_exts (tdims t) starts steps)) starts steps) idx =
    Ok (el t (slice_src starts steps idx)).
Proof.
  intros t starts steps idx Hg HR HL HF HI.
  destruct (sl_exts_facts _ _ steps HR HL HF) as (A & B & C & D). specialize (D _ HI).
  assert (E : sview_map (mkSV t (shape_of (sl_exts (tdims t) starts steps)) starts steps) idx =
    Ok (ravel (tdims t) (slice_src starts steps idx))).
  { apply sview_map_ok; auto.
    - apply in_range_length in HI. lia.
    - eapply in_range_nonneg; eauto. }
  split; auto. unfold sview_index. rewrite E. cbn [bind sv_orig]. apply rd_ok. rewrite good_len by auto.
  apply ravel_bound; auto.
Qed.

Lemma sview_elements_ok : forall (t : tensor T) starts steps,
  good t -> in_range (tdims t) starts -> length steps = length (tdims t) -> Forall (fun s => 0 < s) steps ->
  let exts := sl_exts (tdims t) starts steps in
  sview_elements (mkSV t (shape_of exts) starts steps) =
    Ok (map (fun idx => el t (slice_src starts steps idx)) (all_indices exts)).
Proof.
  intros t starts steps Hg HR HL HF. cbv zeta.
  destruct (sl_exts_facts _ _ steps HR HL HF) as (A & B & C & D).
  set (r := sl_exts (tdims t) starts steps) in *. set (v := mkSV t (shape_of r) starts steps).
  assert (HPP : 0 < prod r) by (apply prod_pos; auto).
  assert (G : forall fuel k, 0 <= k <= prod r -> (Z.to_nat (prod r - k) <= fuel)%nat ->
     sview_traverse fuel v (iter_at r k) = Ok (map (fun j => el t (slice_src starts steps (unravel r j))) (zrange k (prod r)))).
  { induction fuel; intros k Hk Hfu.
    - assert (k = prod r) by lia. subst k. unfold iter_at. rewrite Z.ltb_irrefl. simpl.
      rewrite zrange_nil by lia. reflexivity.
    - destruct (Z.eq_dec k (prod r)) as [->|Hne].
      + unfold iter_at. rewrite Z.ltb_irrefl. simpl. rewrite zrange_nil by lia. reflexivity.
      + cbn [sview_traverse]. cbn [sv_shape v]. rewrite iter_next_at by (auto; lia).
        rewrite IHfuel by lia. unfold iter_at. destruct (Z.ltb_spec k (prod r)); [|lia]. cbn [snd fst].
        rewrite (zrange_cons k) by lia.
        assert (EX : sview_index v (unravel r k) = Ok (el t (slice_src starts steps (unravel r k)))).
        { apply (proj2 (sview_index_ok t starts steps (unravel r k) Hg HR HL HF ltac:(apply unravel_range; auto; lia))). }
        rewrite EX.
        reflexivity. }
  unfold sview_elements. cbn [sv_shape v]. rewrite iter_begin_at by auto.
  rewrite G by (simpl; lia). unfold all_indices, ztab. rewrite map_map. reflexivity.
Qed.

(** ** Factories *)
Lemma identity_ok : forall n, 0 < n -> n * n <= INT_MAX ->
  f_identity n = Ok (tensor_of [n; n] (fun idx => if nth 0 idx 0 =? nth 1 idx 0 then one else zero)).
Proof.
  intros n Hn HM. unfold f_identity.
  assert (HP : pos_dims [n; n]) by (split; [discriminate|repeat constructor; auto]).
  assert (EP : prod [n; n] = n * n) by (simpl; ring).
  rewrite new_shape_ok_int by (auto; lia). cbn [bind].
  set (F := fun k => if k / n =? k mod n then (one : T) else zero).
  assert (HI : forall i out, 0 <= i < n -> Zlen out = n * n ->
     (forall j, 0 <= j < i * n -> znth zero out j = F j) ->
     exists out', for_ 0 n (fun j '(k, out) => out' <- wr out k (if i =? j then one else zero) ;; Ok (k + 1, out')) (i * n, out)
       = Ok ((i + 1) * n, out') /\ Zlen out' = n * n /\ (forall j, 0 <= j < (i + 1) * n -> znth zero out' j = F j)).
  { intros i out Hi HL HO.
    destruct (for_inv (fun j st => fst st = i * n + j /\ Zlen (snd st) = n * n /\
        forall q, 0 <= q < i * n + j -> znth zero (snd st) q = F q) 0 n
      (fun j '(k, out) => out' <- wr out k (if i =? j then one else zero) ;; Ok (k + 1, out')) (i * n, out))
      as ([k out'] & E & H1 & H2 & H3).
    - lia.
    - cbn [fst snd]. split; [lia|]. split; auto. intros q Hq. apply HO. lia.
    - intros j [k o] Hj (A1 & A2 & A3). cbn [fst snd] in *. subst k.
      rewrite wr_ok by nia. cbn [bind]. eexists; split; [reflexivity|]. cbn [fst snd].
      split; [lia|]. rewrite Zlen_upd. split; auto. intros q Hq.
      destruct (Z.eq_dec q (i * n + j)) as [->|Hne].
      + rewrite znth_upd_eq by nia. unfold F.
        rewrite Z.div_add_l, (Z.div_small j), Z.add_0_r by lia.
        rewrite Z.add_comm, Z.mod_add, Z.mod_small by lia. reflexivity.
      + rewrite znth_upd_neq by nia. apply A3. lia.
    - cbn [fst snd] in *. subst k. exists out'. split; [|split; auto].
      + rewrite E. do 2 f_equal. ring.
      + intros j Hj. apply H3. lia. }
  destruct (for_inv (fun i st => fst st = i * n /\ Zlen (snd st) = n * n /\
       forall q, 0 <= q < i * n -> znth zero (snd st) q = F q) 0 n
     (fun i st => for_ 0 n (fun j '(k, out) => out' <- wr out k (if i =? j then one else zero) ;; Ok (k + 1, out')) st)
     (0, tdata (t_new (shape_of [n; n])))) as ([k out] & E & H1 & H2 & H3).
  - lia.
  - cbn [fst snd]. split; [lia|]. split; [|intros; lia]. unfold t_new. cbn [tdata].
    rewrite Zlen_zrepeat; simpl; lia.
  - intros i [k out] Hi (A1 & A2 & A3). cbn [fst snd] in *. subst k.
    destruct (HI i out Hi A2 A3) as (out' & E & B1 & B2). eexists; split; [exact E|]. cbn [fst snd]. auto.
  - rewrite E. cbn [bind snd fst] in *. f_equal.
    assert (G : good (mkTensor (shape_of [n; n]) out)) by (apply good_mk; auto; lia).
    apply (tensor_eta _ _ G). intros idx Hi. unfold el, tdims in *. cbn [tshape dims shape_of tdata] in *.
    inversion Hi as [|? i ? ? Hi1 Hi']; subst. inversion Hi' as [|? j ? ? Hj1 Hi'']; subst. inversion Hi''; subst.
    cbn [ravel prod nth]. rewrite Z.mul_1_r. replace (i * n + (j * 1 + 0)) with (i * n + j) by ring.
    rewrite H3 by nia. unfold F.
    rewrite Z.div_add_l, (Z.div_small j), Z.add_0_r by lia.
    rewrite Z.add_comm, Z.mod_add, Z.mod_small by lia. reflexivity.
Qed.
Lemma identity_throw : forall n, n <= 0 -> f_identity n = Throw InvalidArgument.
Proof.
  intros n Hn. unfold f_identity. rewrite new_shape_throw; [reflexivity|].
  intros [_ H]. inversion H; subst; lia.
Qed.

Lemma random_ok : forall {G} {HR : Rng T G} ds mn mx g,
  pos_dims ds -> prod ds <= INT_MAX ->
  s_lt mn mn = false -> s_lt mx mx = false -> s_lt mx mn = false ->
  exists t g', f_random ds mn mx g = Ok (t, g') /\ good t /\ tdims t = ds /\
    forall idx, in_range ds idx -> s_lt (el t idx) mn = false /\ s_lt mx (el t idx) = false.
Proof.
  intros G HR ds mn mx g HP HM I1 I2 I3. unfold f_random. rewrite new_shape_ok_int by auto. cbn [bind].
  assert (HPP : 0 < prod ds) by (apply prod_pos; auto with idx).
  cbn [ssize shape_of].
  match goal with |- context[for_ 0 _ ?bd ?s0] =>
  destruct (for_inv (fun k st => Zlen (fst st) = prod ds /\
     forall q, 0 <= q < k -> s_lt (znth zero (fst st) q) mn = false /\ s_lt mx (znth zero (fst st) q) = false)
     0 (prod ds) bd s0) as ([out g'] & E & H1 & H2) end.
  - lia.
  - cbn [fst]. split; [|intros; lia]. unfold t_new; cbn [tdata]. rewrite Zlen_zrepeat; simpl; lia.
  - intros i [out g0] Hi (A1 & A2). cbn [fst] in *.
    destruct (he_rand_range (s_z (prod ds)) mn mx g0) as [v g1] eqn:EV.
    rewrite wr_ok by lia. cbn [bind]. eexists; split; [reflexivity|]. cbn [fst]. rewrite Zlen_upd. split; auto.
    intros q Hq. destruct (Z.eq_dec q i) as [->|Hne].
    + rewrite znth_upd_eq by lia. unfold he_rand_range in EV. destruct (rng_normal _ g0) as [w g2].
      injection EV as <- _. unfold s_min, s_max.
      destruct (s_lt w mn) eqn:E1; [rewrite I3; auto|]. destruct (s_lt mx w) eqn:E2; auto.
    + rewrite znth_upd_neq by lia. apply A2. lia.
  - rewrite E. cbn [bind fst snd] in *. eexists; eexists; split; [reflexivity|].
    split; [apply good_mk; auto|]. split; [reflexivity|]. intros idx HI. unfold el, tdims; simpl.
    apply H2. apply ravel_bound; auto.
Qed.

Lemma rand_ok : forall {G} {HR : Rng T G} ds g, pos_dims ds -> prod ds <= INT_MAX ->
  s_lt zero zero = false -> s_lt one one = false -> s_lt one zero = false ->
  exists t g', f_rand ds g = Ok (t, g') /\ good t /\ tdims t = ds /\
    forall idx, in_range ds idx -> s_lt (el t idx) zero = false /\ s_lt one (el t idx) = false.
Proof. intros G HR ds g. apply random_ok. Qed.

(** ** Scalar divided by tensor *)
Lemma s_div_t_ok : forall s (t : tensor T), good t ->
  s_div_t s t = Ok (tmap (fun x => s_div s x) t).
Proof.
  intros s t Hg. unfold s_div_t. cbn [t_fill tshape tdata]. rewrite Z.eqb_refl. cbn [negb].
  rewrite good_size by auto. pose proof (good_prod_pos t Hg). pose proof (good_len t Hg).
  rewrite (for_table zero (prod (tdims t)) (fun k => s_div s (znth zero (tdata t) k))).
  - cbn [bind]. unfold tmap. do 2 f_equal. rewrite <- good_len by auto. apply ztab_map.
  - lia.
  - apply Zlen_zrepeat. lia.
  - intros k l Hk HL Hl. rewrite (rd_ok zero) by lia. cbn [bind]. rewrite (rd_ok zero) by lia. cbn [bind].
    rewrite wr_ok by lia. rewrite Hl by lia. rewrite znth_zrepeat by lia. reflexivity.
Qed.
Lemma s_sub_t_ok : forall s (t : tensor T), good t ->
  s_sub_t s t = Ok (tmap (fun x => s_add (s_mul x (s_z (-1))) s) t).
Proof.
  intros s t Hg. unfold s_sub_t, t_neg, t_mul_s, t_add_s. rewrite t_map_ok by auto. cbn [bind].
  rewrite t_map_ok by (apply good_tmap; auto). unfold tmap. cbn [tdata tshape]. rewrite map_map. reflexivity.
Qed.
End S.
