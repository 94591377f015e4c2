(** * Proofs about the tensor model (element access, maps, broadcasting). *)
From Verif Require Import Base Scalar Types Spec M_Shape M_Tensor L_Index L_Shape L_Bcast.

(** ** Odometer *)
Lemma incr_spec : forall ds idx, in_range ds idx ->
  let '(r, c) := incr_idx ds idx in
  in_range ds r /\
  (if c then r = repeat 0 (length ds) /\ ravel ds idx = prod ds - 1
   else ravel ds r = ravel ds idx + 1).
Proof.
  induction 1 as [|d i ds idx Hi HF IH]; simpl.
  - repeat split; constructor.
  - destruct (incr_idx ds idx) as [r c]. destruct IH as [HR HC]. destruct c.
    + destruct HC as [-> HC]. destruct (Z.ltb_spec (i + 1) d).
      * split; [constructor; [lia|auto]|]. simpl. rewrite ravel_zeros. lia.
      * split; [constructor; [lia|auto]|]. split; [reflexivity|].
        assert (i = d - 1) by lia. subst. rewrite HC. lia.
    + split; [constructor; auto|]. simpl. lia.
Qed.

Lemma incr_unravel : forall ds k, Forall (fun d => 0 < d) ds -> 0 <= k -> k + 1 < prod ds ->
  incr_idx ds (unravel ds k) = (unravel ds (k + 1), false).
Proof.
  intros ds k HF H0 H1. pose proof (unravel_range ds k HF ltac:(lia)) as HR.
  pose proof (incr_spec _ _ HR) as HS. destruct (incr_idx ds (unravel ds k)) as [r c].
  destruct HS as [HR' HC]. rewrite ravel_unravel in HC by (auto; lia). destruct c; [lia|].
  f_equal. rewrite <- HC. symmetry. apply unravel_ravel; auto.
Qed.

Lemma incr_last : forall ds k, Forall (fun d => 0 < d) ds -> 0 <= k -> k + 1 = prod ds ->
  incr_idx ds (unravel ds k) = (repeat 0 (length ds), true).
Proof.
  intros ds k HF H0 H1. pose proof (unravel_range ds k HF ltac:(lia)) as HR.
  pose proof (incr_spec _ _ HR) as HS. destruct (incr_idx ds (unravel ds k)) as [r c].
  destruct HS as [HR' HC]. rewrite ravel_unravel in HC by (auto; lia). destruct c.
  - destruct HC as [-> _]. reflexivity.
  - apply ravel_bound in HR'. lia.
Qed.

(** fst of the increment is always the next index modulo the size. *)
Lemma incr_fst : forall ds k, Forall (fun d => 0 < d) ds -> 0 <= k < prod ds ->
  fst (incr_idx ds (unravel ds k)) = unravel ds (if k + 1 <? prod ds then k + 1 else 0).
Proof.
  intros ds k HF Hk. destruct (Z.ltb_spec (k + 1) (prod ds)).
  - rewrite incr_unravel by (auto; lia). reflexivity.
  - rewrite incr_last by (auto; lia). rewrite unravel_zero by auto. reflexivity.
Qed.

Definition iter_at (ds : list Z) (k : Z) : iter :=
  if k <? prod ds then (unravel ds k, false) else (repeat 0 (length ds), true).

Lemma iter_begin_at : forall ds, Forall (fun d => 0 < d) ds -> iter_begin (shape_of ds) = iter_at ds 0.
Proof.
  intros ds HF. unfold iter_begin, iter_at, rank, shape_of, zrepeat, Zlen; simpl.
  pose proof (prod_pos _ HF). destruct (Z.ltb_spec 0 (prod ds)); [|lia].
  rewrite Nat2Z.id, unravel_zero by auto. reflexivity.
Qed.
Lemma iter_next_at : forall ds k, Forall (fun d => 0 < d) ds -> 0 <= k < prod ds ->
  iter_next (shape_of ds) (iter_at ds k) = iter_at ds (k + 1).
Proof.
  intros ds k HF Hk. unfold iter_next, iter_at.
  destruct (Z.ltb_spec k (prod ds)); [|lia]. simpl.
  destruct (Z.ltb_spec (k + 1) (prod ds)).
  - apply incr_unravel; auto; lia.
  - apply incr_last; auto; lia.
Qed.

(** When broadcasting does not enlarge [a], only leading ones are added. *)
Lemma prod_le_eq : forall x y, Forall2 (fun a b => 0 < a <= b) x y -> prod x <= prod y /\ (prod x = prod y -> x = y).
Proof.
  induction 1 as [|a b x y H HF IH]; simpl; [split; auto; lia|].
  assert (0 < prod x).
  { apply prod_pos. clear - HF. induction HF; constructor; auto; lia. }
  destruct IH as [IH1 IH2]. split; [nia|]. intro E.
  assert (prod x = prod y) by nia. rewrite IH2 by auto. f_equal. nia.
Qed.

Section S.
Context {T : Type} {S : Scalar T}.

(** ** Good tensors *)
Lemma good_len : forall t : tensor T, good t -> Zlen (tdata t) = prod (tdims t).
Proof. intros t H; apply H. Qed.
Lemma good_pos : forall t : tensor T, good t -> pos_dims (tdims t).
Proof. intros t H; apply H. Qed.
Lemma good_max : forall t : tensor T, good t -> prod (tdims t) <= INT_MAX.
Proof. intros t H; apply H. Qed.
Lemma good_shape : forall t : tensor T, good t -> tshape t = shape_of (tdims t).
Proof. intros t H; apply H. Qed.
Lemma good_size : forall t : tensor T, good t -> ssize (tshape t) = prod (tdims t).
Proof. intros t H. rewrite good_shape by auto. reflexivity. Qed.
Lemma good_prod_pos : forall t : tensor T, good t -> 0 < prod (tdims t).
Proof. intros t H. apply prod_pos. apply pos_forall. apply good_pos; auto. Qed.

Lemma good_mk : forall ds (l : list T),
  pos_dims ds -> prod ds <= INT_MAX -> Zlen l = prod ds -> good (mkTensor (shape_of ds) l).
Proof. intros. unfold good, tdims; simpl. auto. Qed.

Lemma good_with : forall (t : tensor T) (l : list T), good t -> Zlen l = Zlen (tdata t) -> good (mkTensor (tshape t) l).
Proof. intros t l (H1&H2&H3&H4) HL. unfold good, tdims in *; simpl. repeat split; auto; try apply H1. lia. Qed.

Lemma t_at_ok : forall (t : tensor T) idx,
  good t -> in_range (tdims t) idx -> t_at t idx = Ok (el t idx).
Proof.
  intros t idx Hg Hi. unfold t_at. rewrite good_shape by auto.
  rewrite flat_index_ok; auto; [|apply INT_MAX_two64, good_max; auto]. simpl.
  apply rd_ok. rewrite good_len by auto. apply ravel_bound; auto.
Qed.

Lemma t_at_fail : forall (t : tensor T) idx,
  good t -> ~ in_range (tdims t) idx ->
  t_at t idx = Throw (if Nat.eqb (length idx) (length (tdims t)) then OutOfRange else InvalidArgument).
Proof.
  intros t idx Hg Hi. unfold t_at. rewrite good_shape by auto.
  destruct (Nat.eqb_spec (length idx) (length (tdims t))).
  - rewrite flat_index_spec; auto; [|apply pos_forall, good_pos; auto|apply INT_MAX_two64, good_max; auto].
    destruct (in_range_dec (tdims t) idx); [tauto|reflexivity].
  - rewrite flat_index_rank; auto. unfold rank, shape_of, Zlen; simpl. lia.
Qed.

Definition set_el (t : tensor T) (idx : list Z) (v : T) : tensor T :=
  mkTensor (tshape t) (upd (tdata t) (Z.to_nat (ravel (tdims t) idx)) v).

Lemma t_at_set_ok : forall (t : tensor T) idx v,
  good t -> in_range (tdims t) idx -> t_at_set t idx v = Ok (set_el t idx v).
Proof.
  intros t idx v Hg Hi. unfold t_at_set. rewrite good_shape by auto.
  rewrite flat_index_ok; auto; [|apply INT_MAX_two64, good_max; auto]. simpl.
  unfold t_set. rewrite wr_ok by (rewrite good_len by auto; apply ravel_bound; auto).
  simpl. reflexivity.
Qed.

Lemma good_set_el : forall (t : tensor T) idx v, good t -> good (set_el t idx v).
Proof. intros. apply good_with; auto. apply Zlen_upd. Qed.

Lemma el_set_el : forall (t : tensor T) i j v, good t -> in_range (tdims t) i -> in_range (tdims t) j ->
  el (set_el t i v) j = if list_eq_dec Z.eq_dec j i then v else el t j.
Proof.
  intros t i j v Hg Hi Hj. unfold el, set_el, tdims; simpl. fold (tdims t).
  pose proof (ravel_bound _ _ Hi). pose proof (ravel_bound _ _ Hj).
  destruct (list_eq_dec Z.eq_dec j i) as [->|Hne].
  - apply znth_upd_eq. rewrite good_len by auto. auto.
  - apply znth_upd_neq; try lia. intro E. apply Hne. symmetry. eapply ravel_inj; eauto.
Qed.

(** ** Maps *)
Definition tmap (f : T -> T) (t : tensor T) : tensor T := mkTensor (tshape t) (map f (tdata t)).

Lemma good_tmap : forall f (t : tensor T), good t -> good (tmap f t).
Proof. intros. apply good_with; auto. apply Zlen_map. Qed.
Lemma el_tmap : forall f (t : tensor T) idx, good t -> in_range (tdims t) idx ->
  el (tmap f t) idx = f (el t idx).
Proof.
  intros. unfold el, tmap, tdims; simpl. fold (tdims t). apply znth_map.
  rewrite good_len by auto. apply ravel_bound; auto.
Qed.
Lemma tdims_tmap : forall f (t : tensor T), tdims (tmap f t) = tdims t.
Proof. reflexivity. Qed.

(** Loop writing a table. *)
Lemma for_table : forall {A} (d : A) n (f : Z -> A) (body : Z -> list A -> outcome (list A)) l0,
  0 <= n -> Zlen l0 = n ->
  (forall k l, 0 <= k < n -> Zlen l = n -> (forall j, k <= j < n -> znth d l j = znth d l0 j) ->
     body k l = Ok (upd l (Z.to_nat k) (f k))) ->
  for_ 0 n body l0 = Ok (ztab n f).
Proof.
  intros A d n f body l0 Hn HL Hb.
  destruct (for_inv (fun k l => Zlen l = n /\ (forall j, 0 <= j < k -> znth d l j = f j) /\
                       (forall j, k <= j < n -> znth d l j = znth d l0 j)) 0 n body l0) as (l & E & H1 & H2 & _).
  - lia.
  - repeat split; auto. intros; lia.
  - intros k l Hk (A1 & A2 & A3). exists (upd l (Z.to_nat k) (f k)). split; [apply Hb; auto|].
    rewrite Zlen_upd. repeat split; auto.
    + intros j Hj. destruct (Z.eq_dec j k) as [->|].
      * apply znth_upd_eq. lia.
      * rewrite znth_upd_neq by lia. apply A2. lia.
    + intros j Hj. rewrite znth_upd_neq by lia. apply A3. lia.
  - rewrite E. f_equal. apply (list_ext d).
    + rewrite Zlen_ztab; lia.
    + intros i Hi. rewrite znth_ztab by lia. apply H2. lia.
Qed.

Lemma ztab_map : forall {A B} (d : A) (f : A -> B) l, ztab (Zlen l) (fun k => f (znth d l k)) = map f l.
Proof.
  intros A B d f l. destruct l as [|a l'] eqn:E; [reflexivity|]. rewrite <- E.
  assert (HB : B) by (exact (f a)). apply (list_ext HB).
  - rewrite Zlen_ztab, Zlen_map by apply Zlen_nonneg. reflexivity.
  - intros i Hi. rewrite Zlen_ztab in Hi by apply Zlen_nonneg.
    rewrite znth_ztab by auto. symmetry. apply znth_map; auto.
Qed.

Lemma t_map_ok : forall f (t : tensor T), good t -> t_map f t = Ok (tmap f t).
Proof.
  intros f t Hg. unfold t_map, tmap. rewrite good_size by auto. rewrite <- good_len by auto.
  pose proof (Zlen_nonneg (tdata t)).
  rewrite (for_table zero _ (fun k => f (znth zero (tdata t) k))).
  - simpl. rewrite ztab_map. reflexivity.
  - auto.
  - apply Zlen_zrepeat; auto.
  - intros k l Hk HL _. rewrite (rd_ok zero) by auto. simpl. apply wr_ok. lia.
Qed.
Lemma t_map_ip_ok : forall f (t : tensor T), good t -> t_map_ip f t = Ok (tmap f t).
Proof.
  intros f t Hg. unfold t_map_ip, tmap. rewrite good_size by auto. rewrite <- good_len by auto.
  pose proof (Zlen_nonneg (tdata t)).
  rewrite (for_table zero _ (fun k => f (znth zero (tdata t) k))).
  - simpl. rewrite ztab_map. reflexivity.
  - auto.
  - auto.
  - intros k l Hk HL HO. rewrite (rd_ok zero) by lia. simpl. rewrite HO by lia. apply wr_ok. lia.
Qed.

Lemma t_map_tensor_of : forall f (t : tensor T), good t ->
  tmap f t = tensor_of (tdims t) (fun idx => f (el t idx)).
Proof.
  intros. rewrite <- tdims_tmap with (f := f). apply tensor_eta.
  - apply good_tmap; auto.
  - intros. apply el_tmap; auto.
Qed.

(** ** Constructors *)
Lemma good_fill : forall ds (v : T), pos_dims ds -> prod ds <= INT_MAX -> good (t_fill (shape_of ds) v).
Proof.
  intros. apply good_mk; auto. simpl. apply Zlen_zrepeat.
  pose proof (prod_pos ds ltac:(auto with idx)). lia.
Qed.
Lemma el_fill : forall ds (v : T) idx, in_range ds idx -> el (t_fill (shape_of ds) v) idx = v.
Proof.
  intros. unfold el, t_fill, tdims; simpl. apply znth_zrepeat. apply ravel_bound; auto.
Qed.
Lemma f_fill_ok : forall ds (v : T), pos_dims ds -> prod ds <= INT_MAX -> f_fill ds v = Ok (t_fill (shape_of ds) v).
Proof. intros. unfold f_fill. rewrite new_shape_ok_int by auto. reflexivity. Qed.
Lemma good_new : forall ds, pos_dims ds -> prod ds <= INT_MAX -> good (t_new (shape_of ds) : tensor T).
Proof. intros. apply (good_fill ds zero); auto. Qed.
Lemma el_new : forall ds idx, in_range ds idx -> el (t_new (shape_of ds) : tensor T) idx = zero.
Proof. intros. apply (el_fill ds zero); auto. Qed.
Lemma new_zero : forall ds, pos_dims ds -> prod ds <= INT_MAX ->
  exists s, new_shape ds = Ok s /\ good (t_new s : tensor T) /\ tdims (t_new s : tensor T) = ds /\ forall idx, in_range ds idx -> el (t_new s : tensor T) idx = zero.
Proof. intros ds HP HM. exists (shape_of ds). split; [apply new_shape_ok; auto; unfold INT_MAX, two64 in *; lia|]. split; [apply good_new; auto|]. split; [reflexivity|]. apply el_new. Qed.

(** ** Broadcast views *)

Lemma bproj_length : forall ds idx, (length ds <= length idx)%nat -> length (bproj ds idx) = length ds.
Proof.
  intros. unfold bproj. rewrite map_length, combine_length, skipn_length. lia.
Qed.
Lemma znth_bproj : forall ds idx i, (length ds <= length idx)%nat -> 0 <= i < Zlen ds ->
  znth 0 (bproj ds idx) i = if znth 0 ds i =? 1 then 0 else znth 0 idx (i + (Zlen idx - Zlen ds)).
Proof.
  intros ds idx i HL Hi. unfold bproj.
  rewrite (znth_map (0, 0)) by (unfold Zlen in *; rewrite combine_length, skipn_length; lia).
  unfold znth, Zlen in *. rewrite combine_nth by (rewrite skipn_length; lia). simpl.
  assert (E : forall (l : list Z) n m, nth m (skipn n l) 0 = nth (n + m) l 0).
  { clear. induction l; destruct n, m; simpl; auto. }
  rewrite E. destruct (nth (Z.to_nat i) ds 0 =? 1); auto. f_equal. lia.
Qed.

(** [a] broadcasts to [r]. *)
Definition bto (a r : list Z) : Prop := bcast a r r.

Lemma bto_spec : forall a r, Forall (fun d => 0 < d) a -> Forall (fun d => 0 < d) r -> bto a r ->
  Zlen a <= Zlen r /\ forall k, 0 <= k < Zlen r -> dimr a k = dimr r k \/ dimr a k = 1.
Proof.
  intros a r Pa Pr H. unfold bto in H. rewrite bcast_right in H. unfold rk2 in H. destruct H as [L H].
  split; [lia|]. intros k Hk. specialize (H k ltac:(lia)). unfold compatible in H.
  pose proof (dimr_pos a k Pa ltac:(lia)). lia.
Qed.

Lemma bcast_bto_l : forall a b r, Forall (fun d => 0 < d) a -> Forall (fun d => 0 < d) b ->
  bcast a b r -> bto a r.
Proof.
  intros a b r Pa Pb H. unfold bto. rewrite bcast_right in *. unfold rk2, compatible in *. destruct H as [L H].
  split; [lia|]. intros i Hi. rewrite L in Hi. destruct (H i ltac:(lia)) as [HC HM].
  pose proof (dimr_pos a i Pa ltac:(lia)). pose proof (dimr_pos b i Pb ltac:(lia)). lia.
Qed.
Lemma bcast_bto_r : forall a b r, Forall (fun d => 0 < d) a -> Forall (fun d => 0 < d) b ->
  bcast a b r -> bto b r.
Proof. intros a b r Pa Pb H. apply bcast_sym in H. eapply (bcast_bto_l b a); eauto. Qed.

Lemma bto_znth : forall a r i, Forall (fun d => 0 < d) a -> Forall (fun d => 0 < d) r -> bto a r ->
  0 <= i < Zlen a -> znth 0 a i <> 1 -> znth 0 a i = znth 0 r (i + (Zlen r - Zlen a)).
Proof.
  intros a r i Pa Pr H Hi Hne. destruct (bto_spec _ _ Pa Pr H) as [HL HK].
  specialize (HK (Zlen a - 1 - i) ltac:(lia)). unfold dimr in HK.
  destruct (Z.ltb_spec (Zlen a - 1 - i) (Zlen a)); [|lia].
  destruct (Z.ltb_spec (Zlen a - 1 - i) (Zlen r)); [|lia].
  replace (Zlen a - 1 - (Zlen a - 1 - i)) with i in HK by lia.
  replace (Zlen r - 1 - (Zlen a - 1 - i)) with (i + (Zlen r - Zlen a)) in HK by lia. lia.
Qed.

Lemma bproj_range : forall a r idx, Forall (fun d => 0 < d) a -> Forall (fun d => 0 < d) r -> bto a r ->
  in_range r idx -> in_range a (bproj a idx).
Proof.
  intros a r idx Pa Pr H HI. destruct (bto_spec _ _ Pa Pr H) as [HL HK].
  pose proof (in_range_length _ _ HI) as HLen.
  assert (HLa : (length a <= length idx)%nat) by (unfold Zlen in *; lia).
  apply Forall2_nth_Z; [apply bproj_length; auto|].
  intros i Hi. rewrite znth_bproj by auto.
  assert (0 < znth 0 a i). { rewrite Forall_forall in Pa. apply Pa. apply nth_In. unfold Zlen in *; lia. }
  destruct (Z.eqb_spec (znth 0 a i) 1); [lia|].
  rewrite (bto_znth a r i) by auto.
  assert (Zlen idx = Zlen r) as -> by (unfold Zlen; lia).
  apply in_range_nth; auto. lia.
Qed.

Lemma bproj_id : forall a idx, in_range a idx -> bproj a idx = idx.
Proof.
  intros a idx H. pose proof (in_range_length _ _ H). apply (list_ext 0).
  - unfold Zlen. rewrite bproj_length by lia. lia.
  - intros i Hi. assert (Zlen (bproj a idx) = Zlen a) by (unfold Zlen; rewrite bproj_length; lia).
    rewrite znth_bproj by lia. pose proof (in_range_nth _ _ i H ltac:(lia)).
    destruct (Z.eqb_spec (znth 0 a i) 1); [lia|].
    assert (Zlen idx = Zlen a) as E by (unfold Zlen; lia). f_equal. lia.
Qed.

Lemma broadcast_factors_ok : forall a r, Forall (fun d => 0 < d) a -> Forall (fun d => 0 < d) r -> bto a r ->
  broadcast_factors (shape_of a) (shape_of r) =
  Ok (ztab (Zlen r) (fun i => if dimr a (Zlen r - 1 - i) =? dimr r (Zlen r - 1 - i) then 1 else 0)).
Proof.
  intros a r Pa Pr H. destruct (bto_spec _ _ Pa Pr H) as [HL HK].
  unfold broadcast_factors, rank; simpl dims.
  set (body := fun k fac => _).
  set (fc := fun i => if dimr a (Zlen r - 1 - i) =? dimr r (Zlen r - 1 - i) then 1 else 0).
  pose proof (Zlen_nonneg r).
  destruct (for_inv (fun k fac => Zlen fac = Zlen r /\ forall i, Zlen r - k <= i < Zlen r -> znth 0 fac i = fc i)
              0 (Zlen r) body (zrepeat 1 (Zlen r))) as (fac & E & H1 & H2).
  - lia.
  - split; [apply Zlen_zrepeat; lia|]. intros; lia.
  - intros k fac Hk [A1 A2]. unfold body, shape_of. rewrite dim_from_right_ok by lia. simpl bind.
    rewrite (rd_ok 0) by lia. simpl bind.
    assert (ER : znth 0 r (Zlen r - 1 - k) = dimr r k).
    { unfold dimr. destruct (Z.ltb_spec k (Zlen r)); [auto|lia]. }
    rewrite ER.
    assert (HV : forall v, v = fc (Zlen r - 1 - k) -> exists s', wr fac (Zlen r - 1 - k) v = Ok s' /\
      Zlen s' = Zlen r /\ forall i, Zlen r - (k + 1) <= i < Zlen r -> znth 0 s' i = fc i).
    { intros v Hv. rewrite wr_ok by lia. eexists; split; [reflexivity|]. rewrite Zlen_upd. split; auto.
      intros i Hi. destruct (Z.eq_dec i (Zlen r - 1 - k)) as [->|].
      - rewrite znth_upd_eq by lia. auto.
      - rewrite znth_upd_neq by lia. apply A2. lia. }
    assert (HF : fc (Zlen r - 1 - k) = if dimr a k =? dimr r k then 1 else 0).
    { unfold fc. replace (Zlen r - 1 - (Zlen r - 1 - k)) with k by lia. reflexivity. }
    rewrite HF in HV. specialize (HK k Hk).
    destruct (Z.eqb_spec (dimr a k) (dimr r k)); [apply HV; auto|].
    destruct (Z.eqb_spec (dimr a k) 1); [apply HV; auto|lia].
  - rewrite E. f_equal. apply (list_ext 0).
    + rewrite Zlen_ztab; lia.
    + intros i Hi. rewrite znth_ztab by lia. apply H2. lia.
Qed.

Definition mk_bview (t : tensor T) (r : list Z) : bview T :=
  mkBV t (shape_of r)
    (ztab (Zlen r) (fun i => if dimr (tdims t) (Zlen r - 1 - i) =? dimr r (Zlen r - 1 - i) then 1 else 0)).

Lemma bview_new_ok : forall (t : tensor T) r, good t -> Forall (fun d => 0 < d) r -> bto (tdims t) r ->
  bview_new t (shape_of r) = Ok (mk_bview t r).
Proof.
  intros t r Hg Pr H. unfold bview_new. rewrite good_shape by auto. rewrite are_broadcastable_ok. simpl.
  destruct (bcast_ok_dec (tdims t) r) as [HB|HB].
  - simpl. rewrite broadcast_factors_ok; auto. apply pos_forall, good_pos; auto.
  - exfalso. apply HB. eapply bcast_is_ok; eauto.
Qed.

Lemma ravel_skipn_step : forall ds idx k, length idx = length ds -> 0 <= k < Zlen ds ->
  ravel (skipn (Z.to_nat (Zlen ds - (k + 1))) ds) (skipn (Z.to_nat (Zlen ds - (k + 1))) idx) =
  znth 0 idx (Zlen ds - 1 - k) * znth 0 (strides_of ds) (Zlen ds - 1 - k) +
  ravel (skipn (Z.to_nat (Zlen ds - k)) ds) (skipn (Z.to_nat (Zlen ds - k)) idx).
Proof.
  intros ds idx k HL Hk.
  replace (Zlen ds - (k + 1)) with (Zlen ds - 1 - k) by lia.
  rewrite (skipn_znth 0 ds), (skipn_znth 0 idx) by (unfold Zlen in *; lia). simpl.
  rewrite (znth_strides ds _ 0) by lia.
  replace (Zlen ds - 1 - k + 1) with (Zlen ds - k) by lia. lia.
Qed.

Lemma bview_map_ok : forall (t : tensor T) r idx,
  good t -> Forall (fun d => 0 < d) r -> bto (tdims t) r -> in_range r idx ->
  bview_map (mk_bview t r) idx = Ok (ravel (tdims t) (bproj (tdims t) idx)).
Proof.
  intros t r idx Hg Pr H HI. unfold bview_map. simpl bv_orig. simpl bv_shape.
  rewrite good_shape by auto. unfold rank. simpl dims. simpl sstride.
  set (a := tdims t) in *. assert (Pa : Forall (fun d => 0 < d) a) by (apply pos_forall, good_pos; auto).
  destruct (bto_spec _ _ Pa Pr H) as [HL HK].
  rewrite Z.min_r by lia.
  pose proof (bproj_range a r idx Pa Pr H HI) as HB.
  pose proof (in_range_length _ _ HI) as HLen. pose proof (in_range_length _ _ HB) as HLenB.
  assert (HRM : ravel a (bproj a idx) < INT_MAX).
  { pose proof (ravel_bound _ _ HB). pose proof (good_max t Hg). fold a in H1. lia. }
  destruct (for_inv (fun k flat => flat = ravel (skipn (Z.to_nat (Zlen a - k)) a) (skipn (Z.to_nat (Zlen a - k)) (bproj a idx)))
    0 (Zlen a) (fun k flat =>
      f <- rd (bv_fac (mk_bview t r)) (Zlen r - 1 - k) ;;
      if f =? 1 then
        x <- rd idx (Zlen r - 1 - k) ;;
        st <- rd (strides_of a) (Zlen a - 1 - k) ;;
        Ok (i32 (u64 (u64 flat + u64 (u64 x * st))))
      else Ok flat) 0) as (flat & E & HF).
  - apply Zlen_nonneg.
  - rewrite Z.sub_0_r. rewrite skipn_all_Z. reflexivity.
  - intros k flat Hk HP. unfold mk_bview; simpl bv_fac. fold a.
    rewrite (rd_ok 0) by (rewrite Zlen_ztab; lia). simpl bind.
    rewrite znth_ztab by lia. replace (Zlen r - 1 - (Zlen r - 1 - k)) with k by lia.
    rewrite ravel_skipn_step by (auto; lia). rewrite <- HP.
    assert (HN : 0 <= flat <= ravel a (bproj a idx)).
    { rewrite HP. apply ravel_suffix_bound; auto. }
    assert (HN' : 0 <= znth 0 (bproj a idx) (Zlen a - 1 - k) * znth 0 (strides_of a) (Zlen a - 1 - k) + flat <= ravel a (bproj a idx)).
    { rewrite HP. rewrite <- ravel_skipn_step by (auto; lia). apply ravel_suffix_bound; auto. }
    assert (HZ : znth 0 (bproj a idx) (Zlen a - 1 - k) =
                 if dimr a k =? 1 then 0 else znth 0 idx (Zlen r - 1 - k)).
    { rewrite znth_bproj by (unfold Zlen in *; lia). unfold dimr. destruct (Z.ltb_spec k (Zlen a)); [|lia].
      destruct (znth 0 a (Zlen a - 1 - k) =? 1); auto. f_equal. unfold Zlen in *; lia. }
    rewrite HZ in *.
    destruct (Z.eqb_spec (dimr a k) (dimr r k)) as [Eq|Ne].
    + simpl (1 =? 1). change (1 =? 1) with true. cbv iota.
      rewrite (rd_ok 0) by (unfold Zlen in *; lia). simpl bind.
      rewrite (rd_ok 0) by (unfold Zlen in *; rewrite strides_length; lia). simpl bind.
      eexists; split; [reflexivity|].
      set (st := znth 0 (strides_of a) (Zlen a - 1 - k)) in *.
      assert (HX : znth 0 idx (Zlen r - 1 - k) = if dimr a k =? 1 then 0 else znth 0 idx (Zlen r - 1 - k)).
      { destruct (Z.eqb_spec (dimr a k) 1) as [E1|]; auto.
        pose proof (in_range_nth _ _ (Zlen r - 1 - k) HI ltac:(lia)) as HR0.
        assert (znth 0 r (Zlen r - 1 - k) = 1).
        { rewrite Eq in E1. unfold dimr in E1. destruct (Z.ltb_spec k (Zlen r)); [auto|lia]. }
        lia. }
      set (x := if dimr a k =? 1 then 0 else znth 0 idx (Zlen r - 1 - k)) in *. rewrite HX.
      rewrite u64_add_l, u64_mul_l, u64_add_r. rewrite Z.add_comm.
      rewrite u64_id by (unfold INT_MAX, two64 in *; lia). apply i32_id. unfold INT_MIN, INT_MAX in *. lia.
    + change (0 =? 1) with false. cbv iota. eexists; split; [reflexivity|].
      destruct (HK k ltac:(lia)) as [K|K]; [lia|]. rewrite K. change (1 =? 1) with true. cbv iota. lia.
  - rewrite E. f_equal. rewrite HF, Z.sub_diag. reflexivity.
Qed.

(** Element of [t] seen through broadcasting to a larger index space. *)
Lemma bto_same_size : forall a r, Forall (fun d => 0 < d) a -> Forall (fun d => 0 < d) r ->
  bto a r -> prod r = prod a -> r = pad (length r) a.
Proof.
  intros a r Pa Pr H HP. destruct (bto_spec _ _ Pa Pr H) as [HL HK].
  assert (HLp : length (pad (length r) a) = length r).
  { unfold pad. rewrite app_length, repeat_length. unfold Zlen in *; lia. }
  assert (HPp : prod (pad (length r) a) = prod a).
  { unfold pad. rewrite prod_app. generalize (length r - length a)%nat as n.
    induction n; simpl; lia. }
  symmetry. apply (prod_le_eq (pad (length r) a) r); [|lia].
  assert (HG : forall x y : list Z, length x = length y ->
     (forall i, (i < length x)%nat -> 0 < nth i x 0 <= nth i y 0) -> Forall2 (fun a b => 0 < a <= b) x y).
  { clear. induction x as [|u x IH]; destruct y as [|v y]; simpl; intros HL HN; try discriminate; constructor.
    - apply (HN 0%nat). lia.
    - apply IH; [lia|]. intros i Hi. apply (HN (Datatypes.S i)). lia. }
  apply HG; auto. rewrite HLp. intros i Hi.
  rewrite nth_pad by (unfold Zlen in *; lia).
  assert (E : nth i r 0 = dimr r (Z.of_nat (length r) - 1 - Z.of_nat i)).
  { unfold dimr, Zlen. destruct (Z.ltb_spec (Z.of_nat (length r) - 1 - Z.of_nat i) (Z.of_nat (length r))); [|lia].
    unfold znth. f_equal. lia. }
  rewrite E. set (k := Z.of_nat (length r) - 1 - Z.of_nat i).
  pose proof (dimr_pos a k Pa ltac:(lia)). pose proof (dimr_pos r k Pr ltac:(lia)).
  destruct (HK k ltac:(unfold Zlen; lia)); lia.
Qed.

Lemma bto_same_size_ravel : forall a r idx, Forall (fun d => 0 < d) a -> Forall (fun d => 0 < d) r ->
  bto a r -> prod r = prod a -> in_range r idx -> ravel a (bproj a idx) = ravel r idx.
Proof.
  intros a r idx Pa Pr H HP HI.
  pose proof (bto_same_size a r Pa Pr H HP) as E.
  destruct (bto_spec _ _ Pa Pr H) as [HL _].
  unfold pad in E. revert HI. rewrite E.
  assert (HLe : (length a <= length r)%nat) by (unfold Zlen in *; lia).
  clear - Pa HLe. generalize (length r - length a)%nat as m. intros m. revert idx.
  induction m as [|m IH]; simpl; intros idx HI.
  - rewrite bproj_id; auto.
  - inversion HI as [|? i ? idx' Hi HI']; subst. assert (i = 0) by lia. subst i.
    simpl. rewrite Z.mul_0_l, Z.add_0_l. rewrite <- IH by auto.
    f_equal. unfold bproj. f_equal. f_equal.
    pose proof (in_range_length _ _ HI'). rewrite app_length, repeat_length in H.
    replace (length (0%Z :: idx') - length a)%nat with (Datatypes.S (length idx' - length a)) by (cbn [length]; lia).
    reflexivity.
Qed.

Definition bel (t : tensor T) (idx : list Z) : T := el t (bproj (tdims t) idx).

Lemma bview_index_ok : forall (t : tensor T) r idx,
  good t -> Forall (fun d => 0 < d) r -> bto (tdims t) r -> in_range r idx ->
  bview_index (mk_bview t r) (tdata t) idx = Ok (bel t idx).
Proof.
  intros. unfold bview_index. rewrite bview_map_ok by auto. simpl. apply rd_ok.
  rewrite good_len by auto. apply ravel_bound. apply (bproj_range _ r); auto. apply pos_forall, good_pos; auto.
Qed.

Lemma transform_views_ok : forall op (a b : tensor T) r,
  good a -> good b -> Forall (fun d => 0 < d) r -> bto (tdims a) r -> bto (tdims b) r ->
  forall fuel k out, 0 <= k <= prod r -> (Z.to_nat (prod r - k) <= fuel)%nat -> Zlen out = prod r ->
  exists out', transform_views fuel op (mk_bview a r) (mk_bview b r) (iter_at r k) (iter_at r k) k out = Ok out' /\
    Zlen out' = prod r /\
    forall j, 0 <= j < prod r -> znth zero out' j =
      if j <? k then znth zero out j else op (bel a (unravel r j)) (bel b (unravel r j)).
Proof.
  intros op a b r Ga Gb Pr Ha Hb. induction fuel as [|fuel IH]; intros k out Hk Hf HL.
  - assert (k = prod r) by lia. subst k. simpl. unfold iter_at. rewrite Z.ltb_irrefl. simpl.
    exists out. repeat split; auto. intros j Hj. destruct (Z.ltb_spec j (prod r)); [auto|lia].
  - destruct (Z.eq_dec k (prod r)) as [->|Hne].
    + simpl. unfold iter_at. rewrite Z.ltb_irrefl. simpl.
      exists out. repeat split; auto. intros j Hj. destruct (Z.ltb_spec j (prod r)); [auto|lia].
    + cbn [transform_views]. unfold iter_at at 1. destruct (Z.ltb_spec k (prod r)); [|lia].
      cbn [snd]. unfold bview_deref. unfold iter_at at 1 2. destruct (Z.ltb_spec k (prod r)); [|lia].
      cbn [snd fst]. simpl bv_orig.
      pose proof (unravel_range r k Pr ltac:(lia)) as HU.
      rewrite bview_index_ok by auto. cbn [bind].
      unfold iter_at at 1 2. destruct (Z.ltb_spec k (prod r)); [|lia]. cbn [snd fst].
      rewrite bview_index_ok by auto. cbn [bind].
      rewrite wr_ok by lia. cbn [bind]. simpl bv_shape. rewrite iter_next_at by (auto; lia).
      destruct (IH (k + 1) (upd out (Z.to_nat k) (op (bel a (unravel r k)) (bel b (unravel r k)))))
        as (out' & E & EL & EN); [lia|lia|rewrite Zlen_upd; auto|].
      exists out'. split; [exact E|]. split; auto. intros j Hj. rewrite EN by auto.
      destruct (Z.ltb_spec j (k + 1)), (Z.ltb_spec j k); try lia; auto.
      * rewrite znth_upd_neq by lia. reflexivity.
      * assert (j = k) by lia. subst. apply znth_upd_eq. lia.
Qed.

Theorem t_binop_ok : forall op (a b : tensor T) r,
  good a -> good b -> bcast (tdims a) (tdims b) r -> prod r <= INT_MAX ->
  t_binop op a b = Ok (tensor_of r (fun idx => op (bel a idx) (bel b idx))).
Proof.
  intros op a b r Ga Gb HB HM. unfold t_binop.
  pose proof (good_pos _ Ga) as Pa. pose proof (good_pos _ Gb) as Pb.
  pose proof (bcast_pos _ _ _ Pa Pb HB) as Pr.
  rewrite (good_shape a), (good_shape b) by auto.
  rewrite broadcast_shapes_ok with (r := r); auto; [|apply INT_MAX_two64; auto]. cbn [bind].
  assert (bto (tdims a) r) by (apply (bcast_bto_l (tdims a) (tdims b)); auto with idx).
  assert (bto (tdims b) r) by (apply (bcast_bto_r (tdims a)); auto with idx).
  rewrite !bview_new_ok by auto with idx. cbn [bind]. simpl bv_shape.
  rewrite Z.eqb_refl. cbn [negb]. rewrite iter_begin_at by auto with idx.
  pose proof (prod_pos r ltac:(auto with idx)).
  destruct (transform_views_ok op a b r Ga Gb ltac:(auto with idx) ltac:(auto) ltac:(auto)
              (Datatypes.S (Z.to_nat (ssize (shape_of r)))) 0 (tdata (t_new (shape_of r)))) as (out & E & EL & EN).
  - lia.
  - simpl. lia.
  - simpl. apply Zlen_zrepeat. lia.
  - rewrite E. cbn [bind]. unfold tensor_of. do 2 f_equal. apply (list_ext zero).
    + rewrite Zlen_ztab; lia.
    + intros i Hi. rewrite EN by lia. rewrite znth_ztab by lia. destruct (Z.ltb_spec i 0); [lia|auto].
Qed.

Theorem t_binop_throw : forall op (a b : tensor T),
  good a -> good b -> ~ (exists r, bcast (tdims a) (tdims b) r) ->
  t_binop op a b = Throw InvalidArgument.
Proof.
  intros op a b Ga Gb HN. unfold t_binop. rewrite (good_shape a), (good_shape b) by auto.
  rewrite broadcast_shapes_throw; auto; apply good_pos; auto.
Qed.

(** ** In-place *)
Lemma ip_loop_ok : forall op (a b : tensor T) r (alias : bool),
  good a -> good b -> Forall (fun d => 0 < d) r -> bto (tdims b) r ->
  (alias = true -> b = a /\ r = tdims a) ->
  forall n k buf, 0 <= k -> k + Z.of_nat n = prod r -> Zlen buf = prod r ->
  (forall j, k <= j < prod r -> znth zero buf j = znth zero (tdata a) j) ->
  exists buf', ip_loop n op (mk_bview b r) alias (iter_at r k) k buf = (buf', Ok tt) /\
    Zlen buf' = prod r /\
    forall j, 0 <= j < prod r -> znth zero buf' j =
      if j <? k then znth zero buf j else op (znth zero (tdata a) j) (bel b (unravel r j)).
Proof.
  intros op a b r alias Ga Gb Pr Hb Hal. induction n as [|n IH]; intros k buf Hk Hn HL Hsame.
  - exists buf. simpl. repeat split; auto. intros j Hj. destruct (Z.ltb_spec j k); [auto|lia].
  - cbn [ip_loop]. rewrite (rd_ok zero) by lia. cbn [bind].
    unfold bview_deref. unfold iter_at at 1 2. destruct (Z.ltb_spec k (prod r)); [|lia]. cbn [snd fst].
    pose proof (unravel_range r k Pr ltac:(lia)) as HU.
    assert (E : bview_index (mk_bview b r) (if alias then buf else tdata (bv_orig (mk_bview b r))) (unravel r k)
              = Ok (bel b (unravel r k))).
    { destruct alias; [|apply bview_index_ok; auto].
      destruct (Hal eq_refl) as [-> Hr].
      unfold bview_index. rewrite bview_map_ok by auto. cbn [bind].
      rewrite bproj_id by (rewrite <- Hr; auto). rewrite <- Hr. rewrite ravel_unravel by (auto; lia).
      rewrite (rd_ok zero) by lia. f_equal. rewrite Hsame by lia.
      unfold bel, el. rewrite bproj_id by (rewrite <- Hr; auto). rewrite <- Hr.
      rewrite ravel_unravel by (auto; lia). reflexivity. }
    rewrite E. cbn [bind]. rewrite wr_ok by lia. simpl bv_shape. rewrite iter_next_at by (auto; lia).
    rewrite Hsame by lia.
    destruct (IH (k + 1) (upd buf (Z.to_nat k) (op (znth zero (tdata a) k) (bel b (unravel r k)))))
      as (buf' & E' & EL & EN).
    + lia.
    + lia.
    + rewrite Zlen_upd; auto.
    + intros j Hj. rewrite znth_upd_neq by lia. apply Hsame. lia.
    + exists buf'. split; [exact E'|]. split; auto. intros j Hj. rewrite EN by auto.
      destruct (Z.ltb_spec j (k + 1)), (Z.ltb_spec j k); try lia; auto.
      * rewrite znth_upd_neq by lia. reflexivity.
      * assert (j = k) by lia. subst. apply znth_upd_eq. lia.
Qed.

Theorem t_binop_ip_ok : forall op (a b : tensor T) r (alias : bool),
  good a -> good b -> bcast (tdims a) (tdims b) r -> prod r = prod (tdims a) ->
  (alias = true -> b = a) ->
  t_binop_ip op alias a b =
    (mkTensor (tshape a) (tdata (tensor_of r (fun idx => op (bel a idx) (bel b idx)))), Ok tt).
Proof.
  intros op a b r alias Ga Gb HB HP Hal. unfold t_binop_ip.
  pose proof (good_pos _ Ga) as Pa. pose proof (good_pos _ Gb) as Pb.
  pose proof (bcast_pos _ _ _ Pa Pb HB) as Pr.
  assert (HM : prod r <= INT_MAX) by (rewrite HP; apply good_max; auto).
  rewrite (good_shape a), (good_shape b) by auto.
  rewrite broadcast_shapes_ok with (r := r); auto; [|apply INT_MAX_two64; auto]. cbn [bind].
  assert (Ba : bto (tdims a) r) by (apply (bcast_bto_l (tdims a) (tdims b)); auto with idx).
  assert (Bb : bto (tdims b) r) by (apply (bcast_bto_r (tdims a)); auto with idx).
  rewrite !bview_new_ok by auto with idx. cbn [bind]. simpl ssize.
  rewrite HP, Z.eqb_refl. cbn [negb]. simpl bv_shape. rewrite iter_begin_at by auto with idx.
  pose proof (prod_pos r ltac:(auto with idx)).
  destruct (ip_loop_ok op a b r alias Ga Gb ltac:(auto with idx) Bb) with
    (n := Z.to_nat (prod (tdims a))) (k := 0) (buf := tdata a) as (buf & E & EL & EN).
  - intros Ht. specialize (Hal Ht). subst b. split; auto.
    apply (bcast_fun (tdims a) (tdims a)); auto. apply bcast_refl.
  - lia.
  - lia.
  - rewrite good_len; auto.
  - auto.
  - rewrite E. f_equal. f_equal. apply (list_ext zero).
    + simpl. rewrite Zlen_ztab; lia.
    + intros i Hi. rewrite EN by lia. destruct (Z.ltb_spec i 0); [lia|].
      simpl. rewrite znth_ztab by lia. f_equal. unfold bel, el.
      (* index i of r, same flat position in a *)
      assert (HU : in_range r (unravel r i)) by (apply unravel_range; auto with idx; lia).
      assert (EQ : ravel (tdims a) (bproj (tdims a) (unravel r i)) = i); [|rewrite EQ; reflexivity].
      rewrite (bto_same_size_ravel (tdims a) r (unravel r i)) by auto with idx.
      apply ravel_unravel; auto with idx. lia.
Qed.

Theorem t_binop_ip_throw : forall op (a b : tensor T) (alias : bool),
  good a -> good b -> ~ (exists r, bcast (tdims a) (tdims b) r /\ prod r = prod (tdims a)) ->
  (forall r, bcast (tdims a) (tdims b) r -> prod r <= INT_MAX) ->
  exists e, t_binop_ip op alias a b = (a, Throw e) /\ ((exists r, bcast (tdims a) (tdims b) r) -> e = RuntimeError) /\ (~ (exists r, bcast (tdims a) (tdims b) r) -> e = InvalidArgument).
Proof.
  intros op a b alias Ga Gb HN HM. unfold t_binop_ip.
  pose proof (good_pos _ Ga) as Pa. pose proof (good_pos _ Gb) as Pb.
  rewrite (good_shape a), (good_shape b) by auto.
  destruct (bcast_ok_dec (tdims a) (tdims b)) as [HB|HB].
  - destruct (bcast_exists (tdims a) (tdims b)) as [r Hr]; auto with idx.
    pose proof (bcast_pos _ _ _ Pa Pb Hr) as Pr.
    rewrite broadcast_shapes_ok with (r := r); auto; [|apply INT_MAX_two64; auto]. cbn [bind].
    assert (Bb : bto (tdims b) r) by (apply (bcast_bto_r (tdims a)); auto with idx).
    rewrite bview_new_ok by auto with idx. cbn [bind]. simpl ssize.
    destruct (Z.eqb_spec (prod (tdims a)) (prod r)).
    + exfalso. apply HN. exists r. split; auto.
    + cbn [negb bind]. eexists. split; [reflexivity|]. split; [auto|]. intros X. exfalso. eauto.
  - assert (HB' : ~ exists r, bcast (tdims a) (tdims b) r) by (intros [r Hr]; apply HB; eapply bcast_is_ok; eauto).
    rewrite broadcast_shapes_throw; auto. cbn [bind]. eexists. split; [reflexivity|]. split; [tauto|auto].
Qed.
End S.
