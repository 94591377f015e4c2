(** * Glue lemmas: the exact statements used by the property files on shapes and tensors. *)
From Verif Require Import Base Scalar Types Spec M_Shape M_Tensor L_Index L_Shape L_Bcast L_Tensor L_Reduce L_Tensor2.

(** ** Shapes *)
Lemma bc_cases : forall a b sa ta sb tb, pos_dims a -> pos_dims b ->
  (exists r, bcast a b r /\ pos_dims r /\
     broadcast_shapes (mkShape a sa ta) (mkShape b sb tb) = Ok (mkShape r (u64 (prod r)) (map u64 (strides_of r)))) \/
  (~ (exists r, bcast a b r) /\ broadcast_shapes (mkShape a sa ta) (mkShape b sb tb) = Throw InvalidArgument).
Proof.
  intros a b sa ta sb tb Ha Hb.
  destruct (broadcast_loop a b sa ta sb tb) as [(r & HB & E)|(HN & E)]; auto with idx.
  - left. exists r. pose proof (bcast_pos _ _ _ Ha Hb HB) as Hr. split; [auto|]. split; [auto|].
    rewrite E. unfold new_shape. rewrite validate_ok by auto. simpl.
    rewrite calc_size_u64, calc_stride_u64. reflexivity.
  - right. split; auto. intros (r & HB). apply HN. eapply bcast_is_ok; eauto.
Qed.

Lemma broadcast_spec : forall a b, pos_dims a -> pos_dims b ->
  (forall r, bcast a b r -> prod r < two64 -> broadcast_shapes (shape_of a) (shape_of b) = Ok (shape_of r)) /\
  ((forall r, ~ bcast a b r) -> broadcast_shapes (shape_of a) (shape_of b) = Throw InvalidArgument) /\
  (exists b0, are_broadcastable (shape_of a) (shape_of b) = Ok b0 /\
     (b0 = true <-> exists r, bcast a b r)) /\
  (forall r r', bcast a b r -> bcast a b r' -> r = r').
Proof.
  intros a b Ha Hb. split; [|split; [|split]].
  - intros. apply broadcast_shapes_ok; auto.
  - intros. apply broadcast_shapes_throw; auto. intros (r & K). eapply H; eauto.
  - rewrite are_broadcastable_ok. eexists; split; [reflexivity|].
    destruct (bcast_ok_dec a b) as [K|K]; split; intros; auto; try discriminate.
    + apply bcast_exists; auto with idx.
    + destruct H as (r & H). exfalso. apply K. eapply bcast_is_ok; eauto.
  - intros. eapply bcast_fun; eauto.
Qed.

Lemma broadcast_comm : forall a b, pos_dims a -> pos_dims b ->
  broadcast_shapes (shape_of a) (shape_of b) = broadcast_shapes (shape_of b) (shape_of a).
Proof.
  intros a b Ha Hb. unfold shape_of.
  destruct (bc_cases a b (prod a) (strides_of a) (prod b) (strides_of b)) as [(r & HB & _ & E)|(HN & E)]; auto;
  destruct (bc_cases b a (prod b) (strides_of b) (prod a) (strides_of a)) as [(r' & HB' & _ & E')|(HN' & E')]; auto; rewrite E, E'.
  - apply bcast_sym in HB'. rewrite (bcast_fun _ _ _ _ HB HB'). reflexivity.
  - exfalso. apply HN'. exists r. apply bcast_sym; auto.
  - exfalso. apply HN. exists r'. apply bcast_sym; auto.
  - reflexivity.
Qed.

Lemma broadcast_assoc : forall a b c, pos_dims a -> pos_dims b -> pos_dims c ->
  bind (broadcast_shapes (shape_of a) (shape_of b)) (fun m => broadcast_shapes m (shape_of c)) =
  bind (broadcast_shapes (shape_of b) (shape_of c)) (fun m => broadcast_shapes (shape_of a) m).
Proof.
  intros a b c Ha Hb Hc. unfold shape_of.
  destruct (bc_cases a b (prod a) (strides_of a) (prod b) (strides_of b)) as [(m & HB & Hm & E)|(HN & E)]; auto;
  destruct (bc_cases b c (prod b) (strides_of b) (prod c) (strides_of c)) as [(n & HB' & Hn & E')|(HN' & E')]; auto; rewrite E, E'; cbn [bind].
  - destruct (bc_cases m c (u64 (prod m)) (map u64 (strides_of m)) (prod c) (strides_of c)) as [(r & HR & _ & F)|(HRN & F)]; auto;
    destruct (bc_cases a n (prod a) (strides_of a) (u64 (prod n)) (map u64 (strides_of n))) as [(r' & HR' & _ & F')|(HRN' & F')]; auto; rewrite F, F'.
    + destruct (bcast_assoc a b c m r) as (m' & K1 & K2); auto with idx.
      rewrite (bcast_fun _ _ _ _ K1 HB') in K2. rewrite (bcast_fun _ _ _ _ K2 HR'). reflexivity.
    + exfalso. destruct (bcast_assoc a b c m r) as (m' & K1 & K2); auto with idx.
      rewrite (bcast_fun _ _ _ _ K1 HB') in K2. apply HRN'. eauto.
    + exfalso. destruct (bcast_assoc c b a n r') as (m' & K1 & K2); auto with idx; try (apply bcast_sym; auto).
      apply bcast_sym in K1. rewrite (bcast_fun _ _ _ _ K1 HB) in K2. apply HRN. exists r'. apply bcast_sym; auto.
    + reflexivity.
  - destruct (bc_cases m c (u64 (prod m)) (map u64 (strides_of m)) (prod c) (strides_of c)) as [(r & HR & _ & F)|(HRN & F)]; auto.
    exfalso. destruct (bcast_assoc a b c m r) as (m' & K1 & K2); auto with idx. apply HN'. eauto.
  - destruct (bc_cases a n (prod a) (strides_of a) (u64 (prod n)) (map u64 (strides_of n))) as [(r' & HR' & _ & F')|(HRN' & F')]; auto.
    exfalso. destruct (bcast_assoc c b a n r') as (m' & K1 & K2); auto with idx; try (apply bcast_sym; auto).
    apply HN. exists m'. apply bcast_sym; auto.
  - reflexivity.
Qed.
Lemma broadcast_unit : forall a, pos_dims a -> prod a < two64 ->
  broadcast_shapes (shape_of a) (shape_of a) = Ok (shape_of a) /\
  broadcast_shapes (shape_of [1]) (shape_of a) = Ok (shape_of a).
Proof.
  intros a Ha HB. split; apply broadcast_shapes_ok; auto using bcast_refl, bcast_one.
  split; [discriminate|repeat constructor; lia].
Qed.

(** ** Addressing *)
Lemma flat_bijection : forall ds, pos_dims ds -> prod ds < two64 ->
  (forall idx, in_range ds idx -> exists k, compute_flat_index (shape_of ds) idx = Ok k /\ 0 <= k < prod ds) /\
  (forall i j k, in_range ds i -> in_range ds j ->
     compute_flat_index (shape_of ds) i = Ok k -> compute_flat_index (shape_of ds) j = Ok k -> i = j) /\
  (forall k, 0 <= k < prod ds -> exists idx, in_range ds idx /\ compute_flat_index (shape_of ds) idx = Ok k).
Proof.
  intros ds HP HB. split; [|split].
  - intros idx HI. rewrite flat_index_ok by auto. eexists; split; [reflexivity|]. apply ravel_bound; auto.
  - intros i j k Hi Hj. rewrite !flat_index_ok by auto. intros A B. injection A as <-. injection B as E.
    symmetry in E. eapply ravel_inj; eauto.
  - intros k Hk. exists (unravel ds k). assert (in_range ds (unravel ds k)) by (apply unravel_range; auto with idx).
    split; auto. rewrite flat_index_ok, ravel_unravel by auto with idx. reflexivity.
Qed.
Lemma new_shape_inv : forall ds s, new_shape ds = Ok s -> prod ds < two64 -> pos_dims ds /\ s = shape_of ds.
Proof.
  intros ds s E H. destruct (pos_dims_dec ds) as [HP|HP]; [|rewrite new_shape_throw in E by auto; discriminate].
  rewrite new_shape_ok in E by auto. split; auto. congruence.
Qed.
Lemma new_shape_ravel : forall ds s idx, new_shape ds = Ok s -> prod ds < two64 -> in_range ds idx ->
  compute_flat_index s idx = Ok (ravel ds idx).
Proof. intros ds s idx E H HI. destruct (new_shape_inv ds s E H) as (HP & ->). apply flat_index_ok; auto. Qed.
Lemma new_shape_bijection : forall ds s, new_shape ds = Ok s -> prod ds < two64 ->
  (forall idx, in_range ds idx -> exists k, compute_flat_index s idx = Ok k /\ 0 <= k < ssize s) /\
  (forall i j k, in_range ds i -> in_range ds j ->
     compute_flat_index s i = Ok k -> compute_flat_index s j = Ok k -> i = j) /\
  (forall k, 0 <= k < ssize s -> exists idx, in_range ds idx /\ compute_flat_index s idx = Ok k).
Proof. intros ds s E H. destruct (new_shape_inv ds s E H) as (HP & ->). apply flat_bijection; auto. Qed.
Lemma ravel_lex : forall ds i j, in_range ds i -> in_range ds j -> (lex_lt i j <-> ravel ds i < ravel ds j).
Proof.
  intros ds i j Hi. revert j. induction Hi as [|d x ds i Hx Hi IH]; intros j Hj; inversion Hj as [|? y ? j' Hy Hj']; subst; simpl.
  - split; [tauto|lia].
  - pose proof (ravel_bound _ _ Hi). pose proof (ravel_bound _ _ Hj'). rewrite (IH _ Hj'). nia.
Qed.
Lemma new_shape_lex : forall ds s i j, new_shape ds = Ok s -> prod ds < two64 -> in_range ds i -> in_range ds j ->
  exists k k', compute_flat_index s i = Ok k /\ compute_flat_index s j = Ok k' /\ (lex_lt i j <-> k < k').
Proof.
  intros ds s i j E H HI HJ. exists (ravel ds i), (ravel ds j). split; [apply (new_shape_ravel ds); auto|].
  split; [apply (new_shape_ravel ds); auto|apply ravel_lex; auto].
Qed.

Section S.
Context {T : Type} {S : Scalar T}.

(** ** BroadcastView construction *)
Lemma broadcast_factors_throw : forall a r, Forall (fun d => 0 < d) a -> Forall (fun d => 0 < d) r ->
  Zlen a <= Zlen r -> ~ bto a r -> bcast_ok a r ->
  broadcast_factors (shape_of a) (shape_of r) = Throw RuntimeError.
Proof.
  intros a r Ha Hr HL HN HOK. unfold broadcast_factors, rank. cbn [dims shape_of].
  assert (HBad : exists k, 0 <= k < Zlen r /\ dimr a k <> dimr r k /\ dimr a k <> 1).
  { destruct (Exists_dec (fun k => dimr a k <> dimr r k /\ dimr a k <> 1) (zrange 0 (Zlen r))) as [HE|HE].
    - intros k. destruct (Z.eq_dec (dimr a k) (dimr r k)), (Z.eq_dec (dimr a k) 1); (left; tauto) || (right; tauto).
    - apply Exists_exists in HE. destruct HE as (k & Hin & HK). apply In_zrange in Hin. eauto.
    - exfalso. apply HN. apply bcast_right. unfold rk2 in *. split; [lia|].
      intros k Hk. split; [apply HOK; auto|].
      assert (K : dimr a k = dimr r k \/ dimr a k = 1).
      { destruct (Z.eq_dec (dimr a k) (dimr r k)); auto. destruct (Z.eq_dec (dimr a k) 1); auto.
        exfalso. apply HE. apply Exists_exists. exists k. split; auto. apply In_zrange. lia. }
      pose proof (dimr_pos r k Hr ltac:(lia)). lia. }
  match goal with |- for_ 0 _ ?bd ?s0 = _ =>
    destruct (for_inv_or (fun k (fac : list Z) => Zlen fac = Zlen r /\
       forall j, 0 <= j < k -> dimr a j = dimr r j \/ dimr a j = 1) True (Throw RuntimeError) 0 (Zlen r) bd s0)
       as [(s' & E & _ & H)|(E & _)] end; auto.
  - apply Zlen_nonneg.
  - split; [apply Zlen_zrepeat, Zlen_nonneg|intros; lia].
  - intros k fac Hk [HF HJ]. assert (ER : dim_from_right (shape_of a) k = Ok (dimr a k)) by (apply dim_from_right_ok; lia). rewrite ER. cbn [bind].
    rewrite (rd_ok 0) by lia. cbn [bind].
    assert (ED : znth 0 r (Zlen r - 1 - k) = dimr r k).
    { unfold dimr. destruct (Z.ltb_spec k (Zlen r)); [reflexivity|lia]. }
    rewrite ED. destruct (Z.eqb_spec (dimr a k) (dimr r k)) as [E|E].
    + left. rewrite wr_ok by lia. eexists; split; [reflexivity|]. rewrite Zlen_upd. split; auto.
      intros j Hj. destruct (Z.eq_dec j k); [subst; auto|apply HJ; lia].
    + destruct (Z.eqb_spec (dimr a k) 1) as [E1|E1].
      * left. rewrite wr_ok by lia. eexists; split; [reflexivity|]. rewrite Zlen_upd. split; auto.
        intros j Hj. destruct (Z.eq_dec j k); [subst; auto|apply HJ; lia].
      * right. split; [reflexivity|exact I].
  - destruct HBad as (k & Hk & B1 & B2). destruct (H k Hk); contradiction.
Qed.

Lemma bview_new_throw : forall (t : tensor T) r, good t -> pos_dims r ->
  (length (tdims t) <= length r)%nat -> ~ bcast (tdims t) r r ->
  bview_new t (shape_of r) = Throw RuntimeError.
Proof.
  intros t r Hg HP HL HN. unfold bview_new. rewrite (good_shape t Hg). rewrite are_broadcastable_ok. cbn [bind].
  pose proof (good_pos t Hg) as HPt.
  destruct (bcast_ok_dec (tdims t) r) as [HOK|HOK]; cbn [negb]; [|reflexivity].
  rewrite broadcast_factors_throw; auto with idx. unfold Zlen; lia.
Qed.

Lemma bview_iterate : forall (t : tensor T) r, good t -> pos_dims r -> bcast (tdims t) r r ->
  exists v, bview_new t (shape_of r) = Ok v /\
    bview_elements v = Ok (map (fun idx => el t (bproj (tdims t) idx)) (all_indices r)) /\
    (forall idx, in_range r idx -> exists k, bview_map v idx = Ok k /\ 0 <= k < Zlen (tdata t)) /\
    Zlen (all_indices r) = prod r.
Proof.
  intros t r Hg HP HB. assert (HF : Forall (fun d => 0 < d) r) by auto with idx.
  exists (mk_bview t r). split; [apply bview_new_ok; auto|]. split; [apply bview_elements_ok; auto|].
  split.
  - intros idx HI. rewrite bview_map_ok by auto. eexists; split; [reflexivity|]. rewrite good_len by auto.
    apply ravel_bound. apply (bproj_range _ r); auto. apply pos_forall, good_pos; auto.
  - unfold all_indices. apply Zlen_ztab. pose proof (prod_pos r HF). lia.
Qed.

(** ** Reshape round trip *)
Lemma reshape_back : forall (t t' : tensor T) ds, wf t -> Forall is_int ds -> Forall is_int (tdims t) ->
  t_reshape_st t ds = (t', Ok tt) ->
  wf t' /\ tdims t' = ds /\ tdata t' = tdata t /\ prod ds = prod (tdims t) /\ t_reshape_st t' (tdims t) = (t, Ok tt).
Proof.
  intros t t' ds HW HI HIt E.
  destruct (pos_dims_dec ds) as [HP|HP]; [destruct (Z.eq_dec (prod ds) (prod (tdims t))) as [HE|HE]|].
  - rewrite reshape_ok in E by auto. injection E as <-.
    destruct HW as (A & B & C & D).
    assert (W' : wf (mkTensor (shape_of ds) (tdata t))).
    { repeat split; try apply HP; unfold tdims; simpl; fold (tdims t); lia. }
    split; [auto|]. split; [auto|]. split; [auto|]. split; [auto|].
    rewrite reshape_ok; auto. simpl. rewrite <- B. destruct t; reflexivity.
  - destruct (reshape_fail t ds HW HI) as (e & K & _); [tauto|]. rewrite K in E. discriminate.
  - destruct (reshape_fail t ds HW HI) as (e & K & _); [tauto|]. rewrite K in E. discriminate.
Qed.

Lemma at_read_write : forall (t : tensor T) i v, wf t -> in_range (tdims t) i ->
  exists t', t_at_set t i v = Ok t' /\ wf t' /\ tshape t' = tshape t /\ t_at t' i = Ok v /\
    forall j, in_range (tdims t) j -> j <> i -> t_at t' j = t_at t j.
Proof.
  intros t i v HW HI. exists (set_el t i v). rewrite at_set_ok by auto. split; [auto|].
  pose proof (wf_set_el t i v HW) as W. split; [auto|]. split; [reflexivity|]. split.
  - rewrite at_ok by auto. rewrite el_set_el_wf by auto. destruct (list_eq_dec Z.eq_dec i i); congruence.
  - intros j Hj Hne. rewrite !at_ok by auto. rewrite el_set_el_wf by auto.
    destruct (list_eq_dec Z.eq_dec j i); congruence.
Qed.

Lemma at_total : forall (t : tensor T) idx, wf t ->
  (in_range (tdims t) idx -> exists k, compute_flat_index (tshape t) idx = Ok k /\ 0 <= k < Zlen (tdata t) /\
      t_at t idx = Ok (znth zero (tdata t) k)) /\
  (length idx <> length (tdims t) -> t_at t idx = Throw InvalidArgument) /\
  (length idx = length (tdims t) -> ~ in_range (tdims t) idx -> t_at t idx = Throw OutOfRange).
Proof.
  intros t idx HW. split; [|split].
  - intros HI. destruct HW as (A & B & C & D). exists (ravel (tdims t) idx).
    rewrite B at 1. rewrite flat_index_ok by auto. split; [auto|].
    pose proof (ravel_bound _ _ HI). split; [lia|]. rewrite at_ok; [reflexivity|repeat split; auto; apply A|auto].
  - intros HL. rewrite at_fail; auto.
    + destruct (Nat.eqb_spec (length idx) (length (tdims t))); congruence.
    + intro K. apply in_range_length in K. congruence.
  - intros HL HI. rewrite at_fail by auto. destruct (Nat.eqb_spec (length idx) (length (tdims t))); congruence.
Qed.

(** ** In-place operators *)
Lemma inplace_ok : forall op (a b : tensor T) r (alias : bool),
  good a -> good b -> (alias = true -> b = a) ->
  bcast (tdims a) (tdims b) r -> prod r = prod (tdims a) ->
  exists c a', t_binop op a b = Ok c /\ t_binop_ip op alias a b = (a', Ok tt) /\
    tshape a' = tshape a /\ tdata a' = tdata c.
Proof.
  intros op a b r alias Ha Hb HA HB HP. eexists. eexists. split; [apply t_binop_ok; eauto|].
  - rewrite HP. apply good_max; auto.
  - split; [apply t_binop_ip_ok; eauto|]. split; reflexivity.
Qed.

(** ** Scalar operators *)
Lemma scalar_ops : forall (t : tensor T) (s : T), good t ->
  t_add_s t s = Ok (tensor_of (tdims t) (fun i => s_add (el t i) s)) /\
  t_sub_s t s = Ok (tensor_of (tdims t) (fun i => s_sub (el t i) s)) /\
  t_mul_s t s = Ok (tensor_of (tdims t) (fun i => s_mul (el t i) s)) /\
  (s_eq s zero = false -> t_div_s t s = Ok (tensor_of (tdims t) (fun i => s_div (el t i) s))) /\
  s_add_t s t = Ok (tensor_of (tdims t) (fun i => s_add (el t i) s)) /\
  s_sub_t s t = Ok (tensor_of (tdims t) (fun i => s_add (s_mul (el t i) (s_z (-1))) s)) /\
  s_mul_t s t = Ok (tensor_of (tdims t) (fun i => s_mul (el t i) s)) /\
  s_div_t s t = Ok (tensor_of (tdims t) (fun i => s_div s (el t i))).
Proof.
  intros t s Hg. unfold t_add_s, t_sub_s, t_mul_s, t_div_s, s_add_t, s_mul_t, t_add_s, t_mul_s.
  rewrite !t_map_ok, s_div_t_ok, s_sub_t_ok by auto. rewrite !t_map_tensor_of by auto.
  repeat split; auto. intros ->. reflexivity.
Qed.
Lemma scalar_ops_ip : forall (t : tensor T) (s : T), good t ->
  t_add_s_ip t s = t_add_s t s /\ t_sub_s_ip t s = t_sub_s t s /\ t_mul_s_ip t s = t_mul_s t s /\
  t_div_s_ip t s = t_div_s t s.
Proof.
  intros t s Hg. unfold t_add_s_ip, t_sub_s_ip, t_mul_s_ip, t_div_s_ip, t_add_s, t_sub_s, t_mul_s, t_div_s.
  rewrite !t_map_ip_ok, !t_map_ok by auto. auto.
Qed.
Lemma scalar_div_zero : forall (t : tensor T) (s : T), s_eq s zero = true ->
  t_div_s t s = Throw InvalidArgument /\ t_div_s_ip_st t s = (t, Throw InvalidArgument).
Proof. intros t s E. unfold t_div_s, t_div_s_ip_st, t_div_s_ip. rewrite E. auto. Qed.

(** ** SliceView *)
Lemma slice_view_ok : forall (t : tensor T) slices steps,
  good t -> length slices = length (tdims t) -> length steps = length (tdims t) ->
  Forall (fun s => 0 < s) steps ->
  (forall i, (i < length (tdims t))%nat -> nth i (tdims t) 0 + nth i steps 0 <= INT_MAX) ->
  exists v starts exts,
    sview_new t slices steps = Ok v /\ in_range (tdims t) starts /\ sv_shape v = shape_of exts /\
    length exts = length (tdims t) /\
    sview_elements v = Ok (map (fun idx => el t (slice_src starts steps idx)) (all_indices exts)) /\
    Zlen (all_indices exts) = ssize (sv_shape v) /\
    (forall idx, in_range exts idx -> in_range (tdims t) (slice_src starts steps idx)) /\
    (forall idx x, in_range exts idx -> sview_set v idx x = Ok (set_el t (slice_src starts steps idx) x)).
Proof.
  intros t slices steps Hg H1 H2 HF HI.
  pose proof (sl_starts_range (tdims t) slices (pos_forall _ (good_pos t Hg)) H1) as HR.
  destruct (sl_exts_facts _ _ steps HR H2 HF) as (A & B & C & D).
  eexists. exists (sl_starts (tdims t) slices). exists (sl_exts (tdims t) (sl_starts (tdims t) slices) steps).
  split; [apply sview_new_ok; auto|]. split; [auto|]. split; [reflexivity|]. split; [auto|].
  split; [apply sview_elements_ok; auto|]. split.
  { unfold all_indices. simpl. apply Zlen_ztab. pose proof (prod_pos _ A). lia. }
  split; [auto|]. intros idx x Hi. unfold sview_set.
  rewrite (proj1 (sview_index_ok t _ steps idx Hg HR H2 HF Hi)). cbn [bind sv_orig]. unfold t_set.
  rewrite wr_ok; [reflexivity|]. rewrite good_len by auto. apply ravel_bound; auto.
Qed.

(** When the requested end is the end of the axis on every axis, the view is
    exactly the strided range. *)
Lemma slice_view_full : forall (t : tensor T) slices steps,
  good t -> length slices = length (tdims t) -> length steps = length (tdims t) ->
  Forall (fun s => 0 < s) steps ->
  (forall i, (i < length (tdims t))%nat -> nth i (tdims t) 0 + nth i steps 0 <= INT_MAX) ->
  (forall i, (i < length (tdims t))%nat -> 0 <= fst (nth i slices (0, 0)) < nth i (tdims t) 0) ->
  exists v, sview_new t slices steps = Ok v /\
    (forall i, (i < length (tdims t))%nat ->
       nth i (dims (sv_shape v)) 0 = (nth i (tdims t) 0 - fst (nth i slices (0, 0)) + nth i steps 0 - 1) / nth i steps 0) /\
    (forall idx, in_range (dims (sv_shape v)) idx ->
       sview_index v idx = Ok (el t (slice_src (map fst slices) steps idx))).
Proof.
  intros t slices steps Hg H1 H2 HF HI HS.
  assert (ES : sl_starts (tdims t) slices = map fst slices).
  { clear - H1 HS. revert slices H1 HS. induction (tdims t) as [|d ds IH]; intros [|s sl] H1 HS; try discriminate; auto.
    unfold sl_starts in *. cbn [combine map fst snd]. f_equal.
    - specialize (HS O ltac:(simpl; lia)). simpl in HS. unfold sv_start_of.
      destruct (Z.ltb_spec (fst s) 0); lia.
    - apply IH; [simpl in H1; lia|]. intros i Hi. apply (HS (Datatypes.S i)). simpl; lia. }
  pose proof (sl_starts_range (tdims t) slices (pos_forall _ (good_pos t Hg)) H1) as HR.
  eexists. split; [apply sview_new_ok; auto|]. cbn [sv_shape dims shape_of]. rewrite ES in *. split.
  - clear - H1 H2. revert slices steps H1 H2. unfold sl_exts.
    induction (tdims t) as [|d ds IH]; intros [|s sl] [|st steps] H1 H2 i Hi; try discriminate; simpl in Hi; try lia.
    destruct i; [reflexivity|]. cbn [map combine nth]. apply IH; simpl in *; lia.
  - intros idx HX. apply sview_index_ok; auto.
Qed.

(** The same for arbitrary starts. *)
Lemma start_pos_of : forall d s, 0 < d -> start_pos d s (sv_start_of d s).
Proof.
  intros d s Hd. unfold sv_start_of. destruct (Z.ltb_spec s 0).
  - destruct (Z.le_gt_cases (- d) s).
    + replace (Z.max 0 (Z.min (s + d) (d - 1))) with (d + s) by lia. apply start_from_end. lia.
    + replace (Z.max 0 (Z.min (s + d) (d - 1))) with 0 by lia. apply start_too_low. lia.
  - destruct (Z.lt_ge_cases s d).
    + replace (Z.max 0 (Z.min s (d - 1))) with s by lia. apply start_inside. lia.
    + replace (Z.max 0 (Z.min s (d - 1))) with (d - 1) by lia. apply start_too_high. lia.
Qed.
Lemma slice_view_any_start : forall (t : tensor T) slices steps,
  good t -> length slices = length (tdims t) -> length steps = length (tdims t) ->
  Forall (fun s => 0 < s) steps ->
  (forall i, (i < length (tdims t))%nat -> nth i (tdims t) 0 + nth i steps 0 <= INT_MAX) ->
  exists v starts, sview_new t slices steps = Ok v /\ length starts = length (tdims t) /\
    (forall i, (i < length (tdims t))%nat -> start_pos (nth i (tdims t) 0) (fst (nth i slices (0, 0))) (nth i starts 0)) /\
    (forall i, (i < length (tdims t))%nat ->
       nth i (dims (sv_shape v)) 0 = (nth i (tdims t) 0 - nth i starts 0 + nth i steps 0 - 1) / nth i steps 0) /\
    (forall idx, in_range (dims (sv_shape v)) idx -> sview_index v idx = Ok (el t (slice_src starts steps idx))).
Proof.
  intros t slices steps Hg H1 H2 HF HI.
  pose proof (pos_forall _ (good_pos t Hg)) as HP.
  pose proof (sl_starts_range (tdims t) slices HP H1) as HR.
  exists (mkSV t (shape_of (sl_exts (tdims t) (sl_starts (tdims t) slices) steps)) (sl_starts (tdims t) slices) steps).
  exists (sl_starts (tdims t) slices).
  split; [apply sview_new_ok; auto|]. cbn [sv_shape dims shape_of].
  pose proof (in_range_length _ _ HR) as HL. split; [lia|]. split; [|split].
  - clear - H1 HP. revert slices H1. unfold sl_starts. induction HP as [|d ds Hd HP IH]; intros [|s sl] H1 i Hi; try discriminate; simpl in Hi; try lia.
    destruct i; [apply start_pos_of; auto|]. cbn [map combine nth]. apply IH; simpl in *; lia.
  - revert HL. generalize (sl_starts (tdims t) slices). clear - H2. intros starts HL. revert starts steps HL H2. unfold sl_exts.
    induction (tdims t) as [|d ds IH]; intros [|s sl] [|st steps] HL H2 i Hi; try discriminate; simpl in Hi; try lia.
    destruct i; [reflexivity|]. cbn [map combine nth]. apply IH; simpl in *; lia.
  - intros idx HX. apply sview_index_ok; auto.
Qed.
End S.

Lemma bcast_of_compatible : forall a b, pos_dims a -> pos_dims b ->
  (forall i, (i < Nat.max (length a) (length b))%nat ->
     compatible (nth i (pad (Nat.max (length a) (length b)) a) 0) (nth i (pad (Nat.max (length a) (length b)) b) 0)) ->
  exists r, bcast a b r.
Proof.
  intros a b Ha Hb H. apply bcast_exists; auto with idx. intros k Hk. unfold rk2, Zlen in Hk.
  set (n := Nat.max (length a) (length b)) in *.
  specialize (H (n - 1 - Z.to_nat k)%nat ltac:(lia)). rewrite !nth_pad in H by lia.
  replace (Z.of_nat n - 1 - Z.of_nat (n - 1 - Z.to_nat k)) with k in H by lia. exact H.
Qed.

Section S2.
Context {T : Type} {S : Scalar T}.

Lemma four_ops : forall (a b : tensor T) r,
  good a -> good b -> bcast (tdims a) (tdims b) r -> prod r <= INT_MAX ->
  t_add a b = Ok (tensor_of r (fun i => s_add (el a (bproj (tdims a) i)) (el b (bproj (tdims b) i)))) /\
  t_sub a b = Ok (tensor_of r (fun i => s_sub (el a (bproj (tdims a) i)) (el b (bproj (tdims b) i)))) /\
  t_mul a b = Ok (tensor_of r (fun i => s_mul (el a (bproj (tdims a) i)) (el b (bproj (tdims b) i)))) /\
  t_div a b = Ok (tensor_of r (fun i => s_div (el a (bproj (tdims a) i)) (el b (bproj (tdims b) i)))).
Proof. intros. repeat split; apply t_binop_ok; auto. Qed.

Lemma slice_rank1 : forall (t : tensor T) index,
  good t -> length (tdims t) = 1%nat -> t_slice t 0 index = Throw InvalidArgument.
Proof.
  intros t index Hg HL. unfold t_slice. rewrite (good_shape t Hg). unfold rank. cbn [dims sstride shape_of].
  fold (tdims t).
  destruct (tdims t) as [|d [|d' ds]]; try discriminate. reflexivity.
Qed.

Lemma fill_tensor_of : forall ds (v : T), pos_dims ds -> prod ds <= INT_MAX ->
  t_fill (shape_of ds) v = tensor_of ds (fun _ => v).
Proof.
  intros. apply (tensor_eta (t_fill (shape_of ds) v)); [apply good_fill; auto|].
  intros. apply el_fill. auto.
Qed.
Lemma sum_all : forall (t : tensor T), good t ->
  t_sum t = Ok (tensor_of [1] (fun _ => fsum (map (el t) (all_indices (tdims t))))).
Proof.
  intros t Hg. rewrite t_sum_ok by auto. rewrite fill_tensor_of.
  - rewrite <- data_all_indices by auto. reflexivity.
  - split; [discriminate|repeat constructor; lia].
  - discriminate.
Qed.
Lemma fills : forall ds (v : T), pos_dims ds -> prod ds <= INT_MAX ->
  f_fill ds v = Ok (tensor_of ds (fun _ => v)) /\
  f_ones ds = Ok (tensor_of ds (fun _ => one)) /\ f_zeros ds = Ok (tensor_of ds (fun _ => zero)).
Proof. intros. unfold f_ones, f_zeros. rewrite !f_fill_ok, !fill_tensor_of by auto. auto. Qed.

Lemma eqb_equiv :
  (forall x : T, s_eq x x = true) -> (forall x y : T, s_eq x y = true -> s_eq y x = true) ->
  (forall x y z : T, s_eq x y = true -> s_eq y z = true -> s_eq x z = true) ->
  (forall a : tensor T, wf a -> t_eqb a a = Ok true) /\
  (forall a b : tensor T, wf a -> wf b -> t_eqb a b = t_eqb b a) /\
  (forall a b c : tensor T, wf a -> wf b -> wf c -> t_eqb a b = Ok true -> t_eqb b c = Ok true -> t_eqb a c = Ok true).
Proof.
  intros HRf HSy HTr. split; [|split].
  - intros a Wa. destruct (eqb_spec a a Wa Wa) as (r & E & H). rewrite E. f_equal. apply H. auto.
  - intros a b Wa Wb. destruct (eqb_spec a b Wa Wb) as (r & E & H). destruct (eqb_spec b a Wb Wa) as (r' & E' & H').
    rewrite E, E'. f_equal. destruct r, r'; auto.
    + symmetry. apply H'. destruct (proj1 H eq_refl) as [K1 K2]. split; auto. intros idx HI. apply HSy, K2. congruence.
    + apply H. destruct (proj1 H' eq_refl) as [K1 K2]. split; auto. intros idx HI. apply HSy, K2. congruence.
  - intros a b c Wa Wb Wc E1 E2.
    destruct (eqb_spec a b Wa Wb) as (r & F1 & H1). destruct (eqb_spec b c Wb Wc) as (r2 & F2 & H2).
    destruct (eqb_spec a c Wa Wc) as (r3 & F3 & H3).
    rewrite E1 in F1. injection F1 as <-. rewrite E2 in F2. injection F2 as <-.
    destruct (proj1 H1 eq_refl) as [A1 A2]. destruct (proj1 H2 eq_refl) as [B1 B2].
    rewrite F3. f_equal. apply H3. split; [congruence|]. intros idx HI. eapply HTr; [apply A2; auto|apply B2; congruence].
Qed.
Lemma slice_view_rejects : forall (t : tensor T) slices steps, length slices <> length (tdims t) \/ length steps <> length (tdims t) -> sview_new t slices steps = Throw RuntimeError.
Proof.
  intros t slices steps H. unfold sview_new, rank. fold (tdims t). destruct (Z.eqb_spec (Zlen slices) (Zlen (tdims t))) as [E1|]; [|reflexivity]. destruct (Z.eqb_spec (Zlen steps) (Zlen (tdims t))) as [E2|]; [|reflexivity].
  unfold Zlen in E1, E2. exfalso. lia.
Qed.
End S2.
