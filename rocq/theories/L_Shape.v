(** * Proofs about the shape model. *)
From Verif Require Import Base Scalar Types Spec M_Shape L_Index.

Lemma validate_ok : forall ds, pos_dims ds -> validate_dims ds = Ok tt.
Proof.
  intros ds [Hne HF]. unfold validate_dims. destruct ds as [|d ds]; [congruence|].
  clear Hne. induction HF as [|x l Hx HF IH]; simpl; auto.
  simpl in Hx. destruct (Z.leb_spec x 0); [lia|]. simpl. auto.
Qed.

Lemma validate_throw : forall ds, ~ pos_dims ds -> validate_dims ds = Throw InvalidArgument.
Proof.
  intros ds H. unfold validate_dims. destruct ds as [|d ds]; auto.
  assert (HF : ~ Forall (fun d => 0 < d) (d :: ds)).
  { intro K. apply H. split; [congruence|auto]. }
  clear H. revert HF. generalize (d :: ds) as l. clear.
  induction l as [|d l IH]; simpl; intros HF.
  - exfalso; apply HF; constructor.
  - destruct (Z.leb_spec d 0); simpl; auto.
Qed.

Lemma pos_dims_dec : forall ds, {pos_dims ds} + {~ pos_dims ds}.
Proof.
  intros ds. destruct ds as [|d ds]; [right; intros [K _]; congruence|].
  destruct (Forall_dec (fun d => 0 < d) (fun x => Z_lt_dec 0 x) (d :: ds)) as [H|H];
    [left|right]; [split; auto; congruence|intros [_ K]; auto].
Qed.

Lemma calc_size_u64 : forall ds, calc_size ds = u64 (prod ds).
Proof.
  intros ds. unfold calc_size.
  assert (G : forall ds a, fold_left (fun acc d => u64 (acc * u64 d)) ds (u64 a) = u64 (a * prod ds)).
  { clear. induction ds; simpl; intros; [f_equal; lia|].
    rewrite u64_mul_r, u64_mul_l, IHds. f_equal; ring. }
  specialize (G ds 1). rewrite u64_id in G by (unfold two64; lia). rewrite G. f_equal; lia.
Qed.

Lemma calc_stride_u64 : forall ds, calc_stride ds = map u64 (strides_of ds).
Proof.
  induction ds as [|d ds IH]; simpl; auto.
  rewrite IH. destruct ds as [|d' ds]; simpl; auto.
  f_equal. rewrite u64_mul_r, u64_mul_l. f_equal; lia.
Qed.

Lemma strides_bound : forall ds, Forall (fun d => 0 < d) ds ->
  Forall (fun s => 0 < s <= prod ds) (strides_of ds).
Proof.
  induction 1; simpl; constructor.
  - pose proof (prod_pos _ H0). simpl in *. nia.
  - pose proof (prod_pos _ H0). simpl in *. eapply Forall_impl; [|exact IHForall].
    intros s Hs; simpl in *. nia.
Qed.

Lemma calc_stride_ok : forall ds,
  Forall (fun d => 0 < d) ds -> prod ds < two64 -> calc_stride ds = strides_of ds.
Proof.
  intros. rewrite calc_stride_u64. rewrite <- (map_id (strides_of ds)) at 2.
  apply map_ext_in. intros s Hs. pose proof (strides_bound ds H) as HB.
  rewrite Forall_forall in HB. apply HB in Hs. apply u64_id. lia.
Qed.

Lemma new_shape_ok : forall ds, pos_dims ds -> prod ds < two64 -> new_shape ds = Ok (shape_of ds).
Proof.
  intros. unfold new_shape. rewrite validate_ok by auto. simpl.
  pose proof (prod_pos ds ltac:(auto with idx)).
  rewrite calc_size_u64, u64_id, calc_stride_ok by (auto with idx; lia). reflexivity.
Qed.
Lemma INT_MAX_two64 : forall n, n <= INT_MAX -> n < two64.
Proof. unfold INT_MAX, two64. lia. Qed.
Lemma new_shape_ok_int : forall ds, pos_dims ds -> prod ds <= INT_MAX -> new_shape ds = Ok (shape_of ds).
Proof. intros. apply new_shape_ok; auto. apply INT_MAX_two64; auto. Qed.
Lemma new_shape_throw : forall ds, ~ pos_dims ds -> new_shape ds = Throw InvalidArgument.
Proof. intros. unfold new_shape. rewrite validate_throw by auto. reflexivity. Qed.

(** Reshape: newSize never wraps when it does not throw. *)
Lemma reshape_size_aux : forall ds a,
  Forall (fun d => 0 < d) ds -> 0 < a < two64 ->
  Forall (fun d => d <= INT_MAX) ds ->
  let f := (fun d acc => if (two64 - 1) / u64 d <? acc then Throw OverflowError
                         else Ok (u64 (acc * u64 d))) in
  (a * prod ds < two64 /\ foldM f ds a = Ok (a * prod ds)) \/
  (two64 <= a * prod ds /\ foldM f ds a = Throw OverflowError).
Proof.
  induction ds as [|d ds IH]; intros a HF Ha HI f.
  - left. simpl. split; [lia|]. f_equal; lia.
  - inversion HF; inversion HI; subst. pose proof (prod_pos _ H2).
    cbn [foldM].
    assert (Ed : u64 d = d) by (apply u64_id; unfold INT_MAX, two64 in *; lia).
    assert (Ef : f d a = if (two64 - 1) / d <? a then Throw OverflowError else Ok (u64 (a * d)))
      by (unfold f; rewrite Ed; reflexivity).
    rewrite Ef. destruct (Z.ltb_spec ((two64 - 1) / d) a) as [L|L].
    + right. simpl. split; auto.
      assert (two64 - 1 < a * d).
      { apply Z.nle_gt. intro K. assert (a <= (two64 - 1) / d) by (apply Z.div_le_lower_bound; lia). lia. }
      nia.
    + assert (a * d <= two64 - 1).
      { pose proof (Z.mul_div_le (two64 - 1) d ltac:(lia)). nia. }
      rewrite (u64_id (a * d)) by nia. cbn [bind].
      destruct (IH (a * d)) as [[A B]|[A B]]; auto; [nia| |].
      * left. simpl. rewrite <- Z.mul_assoc in A. split; [exact A|].
        fold f in B. rewrite B. f_equal. ring.
      * right. simpl. rewrite <- Z.mul_assoc in A. split; [exact A|]. exact B.
Qed.

Lemma shape_reshape_ok : forall s ds,
  pos_dims ds -> Forall (fun d => d <= INT_MAX) ds -> prod ds < two64 -> ssize s = prod ds ->
  shape_reshape s ds = Ok (shape_of ds).
Proof.
  intros s ds HP HI HB HS. unfold shape_reshape. rewrite validate_ok by auto. simpl.
  unfold reshape_size.
  destruct (reshape_size_aux ds 1 ltac:(auto with idx) ltac:(unfold two64; lia) HI) as [[A B]|[A B]]; [|lia].
  rewrite B. simpl. rewrite Z.mul_1_l, HS, Z.eqb_refl.
  rewrite calc_stride_ok by auto with idx. reflexivity.
Qed.

Lemma shape_reshape_throw : forall s ds,
  Forall (fun d => d <= INT_MAX) ds -> ~ (pos_dims ds /\ prod ds = ssize s /\ prod ds < two64) ->
  shape_reshape s ds = Throw (if pos_dims_dec ds then (if prod ds <? two64 then RuntimeError else OverflowError)
                              else InvalidArgument).
Proof.
  intros s ds HI HN. unfold shape_reshape. destruct (pos_dims_dec ds) as [HP|HP].
  - rewrite validate_ok by auto. simpl. unfold reshape_size.
    destruct (reshape_size_aux ds 1 ltac:(auto with idx) ltac:(unfold two64; lia) HI) as [[A B]|[A B]];
      rewrite B; simpl; rewrite Z.mul_1_l in *.
    + destruct (Z.ltb_spec (prod ds) two64); [|lia].
      destruct (Z.eqb_spec (ssize s) (prod ds)); auto. exfalso; apply HN; auto.
    + destruct (Z.ltb_spec (prod ds) two64); [lia|auto].
  - rewrite validate_throw by auto. reflexivity.
Qed.

(** ** computeFlatIndex *)

(** Loop rule with failure. *)
Lemma for_inv_or : forall {S} (P : Z -> S -> Prop) (F : Prop) (e : outcome S) lo hi body s,
  is_ok e = false -> (forall k, bind e k = e) ->
  lo <= hi -> P lo s ->
  (forall i s, lo <= i < hi -> P i s ->
     (exists s', body i s = Ok s' /\ P (i + 1) s') \/ (body i s = e /\ F)) ->
  (exists s', for_ lo hi body s = Ok s' /\ P hi s') \/ (for_ lo hi body s = e /\ F).
Proof.
  intros S P F e lo hi body s He Hk Hle HP Hstep. unfold for_.
  remember (Z.to_nat (hi - lo)) as n eqn:Hn.
  revert lo s Hle HP Hstep Hn. induction n; intros.
  - assert (hi = lo) by lia. subst. rewrite zrange_nil by lia. left; exists s; auto.
  - rewrite zrange_cons by lia. simpl.
    destruct (Hstep lo s) as [(s' & E & HP')|(E & HF)]; [lia|auto| |].
    + rewrite E. simpl. apply IHn; auto; try lia. intros; apply Hstep; auto; lia.
    + right. rewrite E. auto.
Qed.

Lemma skipn_znth : forall {A} (d : A) l i, 0 <= i < Zlen l ->
  skipn (Z.to_nat i) l = znth d l i :: skipn (Z.to_nat (i + 1)) l.
Proof.
  intros A d l i H. replace (Z.to_nat (i + 1)) with (S (Z.to_nat i)) by lia.
  unfold znth, Zlen in *. assert (Z.to_nat i < length l)%nat by lia. clear H.
  revert H0. generalize (Z.to_nat i) as n. clear. induction l; simpl; intros; [lia|].
  destruct n; auto. simpl. apply IHl. lia.
Qed.

Lemma znth_strides : forall ds i d, 0 <= i < Zlen ds ->
  znth d (strides_of ds) i = prod (skipn (Z.to_nat (i + 1)) ds).
Proof.
  intros ds i d H. replace (Z.to_nat (i + 1)) with (S (Z.to_nat i)) by lia.
  unfold znth, Zlen in *. assert (Z.to_nat i < length ds)%nat by lia. clear H.
  revert H0. generalize (Z.to_nat i) as n. clear. induction ds; simpl; intros; [lia|].
  destruct n; auto. apply IHds. lia.
Qed.

Lemma skipn_all_Z : forall {A} (l : list A), skipn (Z.to_nat (Zlen l)) l = [].
Proof. intros. unfold Zlen. rewrite Nat2Z.id. apply skipn_all. Qed.

Lemma ravel_suffix_bound : forall ds idx n, in_range ds idx ->
  0 <= ravel (skipn n ds) (skipn n idx) <= ravel ds idx.
Proof.
  intros ds idx n H. revert n. induction H; intros n; destruct n; simpl; try lia.
  - assert (in_range (x :: l) (y :: l')) as HR by (constructor; auto).
    apply ravel_bound in HR. simpl in HR. lia.
  - specialize (IHForall2 n). pose proof (prod_pos l ltac:(eapply in_range_pos; eauto)). nia.
Qed.

Lemma Forall2_nth_Z : forall ds idx,
  length idx = length ds ->
  (forall i, 0 <= i < Zlen ds -> 0 <= znth 0 idx i < znth 0 ds i) -> in_range ds idx.
Proof.
  induction ds as [|d ds IH]; destruct idx as [|x idx]; simpl; intros HL H; try lia; constructor.
  - specialize (H 0). rewrite Zlen_cons in H. pose proof (Zlen_nonneg ds). apply H. lia.
  - apply IH; [lia|]. intros i Hi. specialize (H (i + 1)). rewrite Zlen_cons in H.
    unfold znth in H. replace (Z.to_nat (i + 1)) with (S (Z.to_nat i)) in H by lia.
    apply H. lia.
Qed.

Lemma in_range_nth : forall ds idx i, in_range ds idx -> 0 <= i < Zlen ds ->
  0 <= znth 0 idx i < znth 0 ds i.
Proof.
  intros ds idx i H. revert i. induction H; intros i Hi.
  - unfold Zlen in Hi; simpl in Hi; lia.
  - rewrite Zlen_cons in Hi. destruct (Z.eq_dec i 0) as [->|Hn]; [exact H|].
    unfold znth in *. replace (Z.to_nat i) with (S (Z.to_nat (i - 1))) by lia. simpl. apply IHForall2. lia.
Qed.

(** The part of computeFlatIndex relevant for a consistent shape. *)
Lemma flat_index_spec : forall ds idx,
  Forall (fun d => 0 < d) ds -> prod ds < two64 -> length idx = length ds ->
  compute_flat_index (shape_of ds) idx =
    if in_range_dec ds idx then Ok (ravel ds idx) else Throw OutOfRange.
Proof.
  intros ds idx HF HB HL. unfold compute_flat_index, rank. simpl dims. simpl sstride.
  assert (HLZ : Zlen idx = Zlen ds) by (unfold Zlen; lia).
  rewrite HLZ, Z.eqb_refl. simpl.
  set (body := fun i flat => _).
  destruct (for_inv_or
    (fun i flat => (forall j, 0 <= j < i -> 0 <= znth 0 idx j < znth 0 ds j) /\
                   0 <= flat < two64 /\
                   u64 (flat + ravel (skipn (Z.to_nat i) ds) (skipn (Z.to_nat i) idx)) = u64 (ravel ds idx))
    (~ in_range ds idx) (Throw OutOfRange) 0 (Zlen ds) body 0)
    as [(r & E & HA & HP & HR)|(E & HN)]; auto.
  - apply Zlen_nonneg.
  - split; [intros; lia|]. split; [unfold two64; lia|]. simpl. f_equal; lia.
  - intros i flat Hi (HA & HP & HR). unfold body.
    rewrite (rd_ok 0 idx) by lia. simpl. rewrite (rd_ok 0 ds) by lia. simpl.
    destruct (Z.ltb_spec (znth 0 idx i) 0), (Z.leb_spec (znth 0 ds i) (znth 0 idx i)); simpl.
    1-3: right; split; auto; intro K; pose proof (in_range_nth _ _ i K); lia.
    left. rewrite (rd_ok 0) by (unfold Zlen in *; rewrite strides_length; lia). simpl.
    eexists; split; [reflexivity|].
    rewrite (skipn_znth 0 ds), (skipn_znth 0 idx) in HR by lia. simpl in HR.
    rewrite <- (znth_strides ds i 0) in HR by lia.
    split; [|split].
    + intros j Hj. destruct (Z.eq_dec j i) as [->|]; [lia|]. apply HA; lia.
    + apply u64_range.
    + rewrite <- HR. rewrite u64_add_l. rewrite u64_mul_l.
      rewrite <- Z.add_assoc, (Z.add_comm (u64 _)), Z.add_assoc, u64_add_r. f_equal. lia.
  - assert (HI : in_range ds idx) by (apply Forall2_nth_Z; auto).
    rewrite E. destruct (in_range_dec ds idx); [|tauto].
    rewrite skipn_all_Z in HR.
    simpl in HR. rewrite Z.add_0_r in HR. rewrite u64_id in HR by auto.
    pose proof (ravel_bound _ _ HI). rewrite u64_id in HR by lia. congruence.
  - rewrite E. destruct (in_range_dec ds idx); [tauto|auto].
Qed.

Lemma flat_index_rank : forall s idx, Zlen idx <> rank s -> compute_flat_index s idx = Throw InvalidArgument.
Proof. intros. unfold compute_flat_index. destruct (Z.eqb_spec (Zlen idx) (rank s)); [lia|reflexivity]. Qed.

Lemma flat_index_ok : forall ds idx,
  prod ds < two64 -> in_range ds idx -> compute_flat_index (shape_of ds) idx = Ok (ravel ds idx).
Proof.
  intros. rewrite flat_index_spec; auto.
  - destruct (in_range_dec ds idx); tauto.
  - eapply in_range_pos; eauto.
  - apply in_range_length; auto.
Qed.
