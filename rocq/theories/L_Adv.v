(** * apply, mean, variance, transpose *)
From Coq Require Import Permutation Sorting.Sorted.
From Verif Require Import Base Scalar Types Spec M_Shape M_Tensor M_Adv L_Index L_Shape L_Bcast L_Tensor L_Reduce L_Tensor2 L_Glue L_Nest L_Matmul L_Axes.

Section S.
Context {T : Type} {S : Scalar T}.

(** ** apply *)
Lemma apply_pair_ok : forall f (a b : tensor T), good a -> good b -> tdims a = tdims b ->
  t_apply_pair f a b = Ok (tensor_of (tdims a) (fun idx => f (el a idx) (el b idx))).
Proof.
  intros f a b Ha Hb E. unfold t_apply_pair.
  assert (HS : shape_eqb (tshape a) (tshape b) = true).
  { unfold shape_eqb. apply list_eqb_spec. exact E. }
  rewrite HS. cbn [negb]. rewrite good_size by auto. pose proof (good_prod_pos a Ha). pose proof (good_max a Ha).
  rewrite i32_id by (unfold INT_MIN; lia).
  rewrite (for_table zero _ (fun k => f (znth zero (tdata a) k) (znth zero (tdata b) k))).
  - cbn [bind]. f_equal. unfold tensor_of. rewrite (good_shape a) at 1 by auto. f_equal.
    unfold ztab. apply map_ext_in. intros k HI. apply In_zrange in HI. unfold el. rewrite <- E.
    rewrite ravel_unravel; auto. apply good_dims; auto.
  - lia.
  - unfold t_new. cbn. rewrite good_size by auto. apply Zlen_zrepeat. lia.
  - intros k l Hk HL _. rewrite (rd_ok zero) by (rewrite good_len; auto). cbn [bind].
    rewrite (rd_ok zero) by (rewrite good_len, <- E; auto). cbn [bind]. apply wr_ok. lia.
Qed.
Lemma apply_pair_throw : forall f (a b : tensor T), tdims a <> tdims b -> t_apply_pair f a b = Throw InvalidArgument.
Proof.
  intros f a b E. unfold t_apply_pair.
  assert (HS : shape_eqb (tshape a) (tshape b) = false).
  { destruct (shape_eqb (tshape a) (tshape b)) eqn:X; auto. unfold shape_eqb in X. apply list_eqb_spec in X. contradiction. }
  rewrite HS. reflexivity.
Qed.
(** More than INT_MAX elements: the count wraps to a negative [int] and nothing is computed. *)
Lemma apply_pair_huge : forall f (a b : tensor T), tdims a = tdims b ->
  INT_MAX < ssize (tshape a) < two32 ->
  t_apply_pair f a b = Ok (t_new (tshape a)).
Proof.
  intros f a b E H. unfold t_apply_pair.
  assert (HS : shape_eqb (tshape a) (tshape b) = true).
  { unfold shape_eqb. apply list_eqb_spec. exact E. }
  rewrite HS. cbn [negb]. unfold for_. rewrite zrange_nil. reflexivity.
  unfold i32, two32, INT_MAX in *.
  replace (ssize (tshape a) + 2147483648) with (ssize (tshape a) - 2147483648 + 1 * 4294967296) by lia.
  rewrite Z.mod_add by lia. rewrite Z.mod_small by lia. lia.
Qed.
Lemma apply_ok : forall f (t : tensor T), good t -> t_apply t f = Ok (tensor_of (tdims t) (fun idx => f (el t idx))).
Proof. intros. unfold t_apply. rewrite t_map_ok by auto. f_equal. apply t_map_tensor_of; auto. Qed.

(** ** mean *)
Lemma mean_shape_ok : forall axes ds i tot, Forall (fun d => 0 < d) ds -> 0 < tot -> tot * prod ds <= INT_MAX ->
  mean_shape i axes ds tot = Ok (set_from 1 i axes ds, tot * prod (keep_from i axes ds)).
Proof.
  induction ds as [|d ds IH]; intros i tot HF Ht HM; simpl.
  - do 2 f_equal. lia.
  - inversion HF as [|? ? Hd HF']; subst. pose proof (prod_pos _ HF'). simpl in HM.
    destruct (existsb (Z.eqb i) axes).
    + rewrite chk32_ok by (unfold INT_MIN; nia). cbn [bind]. rewrite IH; auto; [|nia|nia]. cbn [bind]. do 2 f_equal. simpl. ring.
    + rewrite IH; auto. nia.
Qed.

Lemma sum_axis_fn : forall ds (f : list Z -> T) ax, pos_dims ds -> prod ds <= INT_MAX -> (1 < length ds)%nat ->
  0 <= ax < Zlen ds ->
  t_sum_axis (tensor_of ds f) ax = Ok (tensor_of (remove_at (Z.to_nat ax) ds)
    (fun ridx => sum_to (nth (Z.to_nat ax) ds 0) (fun x => f (insert_at (Z.to_nat ax) x ridx)))).
Proof.
  intros ds f ax HP HM HL Hax. rewrite t_sum_axis_ok; auto; [|apply good_tensor_of; auto].
  change (tdims (tensor_of ds f)) with ds. f_equal. apply tensor_of_ext.
  - apply pos_remove; auto with idx. unfold Zlen in Hax. lia.
  - intros ridx HR. unfold sum_to. f_equal. apply map_ext_in. intros x HI. apply In_zrange in HI.
    apply el_tensor_of. apply in_range_insert; auto. unfold Zlen in Hax. lia.
Qed.

Lemma mean_fold : forall L ds (f : list Z -> T), pos_dims ds -> prod ds <= INT_MAX -> desc L ->
  (forall a, In a L -> 0 <= a < Zlen ds) -> (length L < length ds)%nat ->
  foldM (fun ax r => if rank (tshape r) <=? ax then Throw InvalidArgument else t_sum_axis r ax) L (tensor_of ds f) =
  Ok (tensor_of (drop_axes L ds) (nested_sum L ds f)).
Proof.
  induction L as [|ax L IH]; intros ds f HP HM HS HR HL; cbn [foldM].
  - unfold drop_axes. rewrite drop_none by (intros a []). reflexivity.
  - change (rank (tshape (tensor_of ds f))) with (Zlen ds).
    assert (Hax : 0 <= ax < Zlen ds) by (apply HR; left; auto).
    destruct (Z.leb_spec (Zlen ds) ax); [lia|]. simpl in HL.
    rewrite sum_axis_fn by (auto; lia). cbn [bind].
    inversion HS as [|? ? HS' HF]; subst. rewrite Forall_forall in HF.
    assert (Hn : (Z.to_nat ax < length ds)%nat) by (unfold Zlen in Hax; lia).
    pose proof (prod_remove (Z.to_nat ax) ds Hn) as HPR.
    pose proof (pos_remove (Z.to_nat ax) ds ltac:(auto with idx) ltac:(lia) Hn) as HPp.
    pose proof (prod_pos _ (pos_forall _ HPp)). 
    assert (0 < nth (Z.to_nat ax) ds 0). { destruct HP as [_ HP]. rewrite Forall_forall in HP. apply HP. apply nth_In. auto. }
    rewrite IH; auto.
    + unfold drop_axes. rewrite drop_cons by (auto; lia). rewrite Z.sub_0_r. reflexivity.
    + nia.
    + intros a HI. unfold Zlen. rewrite remove_at_length by auto.
      specialize (HF a HI). simpl in HF. specialize (HR a (or_intror HI)). unfold Zlen in *. lia.
    + rewrite remove_at_length by auto. lia.
Qed.

Lemma tensor_of_el : forall (t : tensor T), good t -> t = tensor_of (tdims t) (el t).
Proof. intros. apply tensor_eta; auto. Qed.

Lemma drop_length : forall axes ds i, length (drop_from i axes ds) = (length ds - length (keep_from i axes ds))%nat /\
  (length (keep_from i axes ds) <= length ds)%nat.
Proof.
  induction ds as [|d ds IH]; intros i; [simpl; lia|]. cbn [drop_from keep_from]. destruct (IH (i + 1)). destruct (existsb _ _); cbn [length]; lia.
Qed.
Lemma keep_length : forall axes ds, NoDup axes -> (forall a, In a axes -> 0 <= a < Zlen ds) ->
  length (keep_from 0 axes ds) = length axes.
Proof.
  intros axes ds HN HR. rewrite keep_filter, map_length.
  apply Permutation_length. apply NoDup_Permutation; auto.
  - apply NoDup_filter, NoDup_zrange.
  - intros x. rewrite filter_In, In_zrange, has_In. split; [tauto|]. intros H; split; auto.
Qed.
Lemma drop_nonempty : forall axes ds, NoDup axes -> (forall a, In a axes -> 0 <= a < Zlen ds) ->
  (length axes < length ds)%nat -> drop_axes axes ds <> [].
Proof.
  intros axes ds HN HR HL E. unfold drop_axes in E. apply (f_equal (@length Z)) in E.
  destruct (drop_length axes ds 0) as [E2 _]. rewrite (keep_length axes ds) in E2 by auto. rewrite E in E2. simpl in E2. lia.
Qed.

(** Element of the kept-rank reshaping of a reduced tensor. *)
Lemma reshape_ones : forall axes ds (f : list Z -> T), pos_dims ds -> prod ds <= INT_MAX -> drop_axes axes ds <> [] ->
  t_reshape (tensor_of (drop_axes axes ds) f) (ones_axes axes ds) =
  Ok (tensor_of (ones_axes axes ds) (fun k => f (drop_axes axes k))).
Proof.
  intros axes ds f HP HM HD.
  assert (HPd : pos_dims (drop_axes axes ds)) by (split; [auto|apply drop_pos; auto with idx]).
  assert (HPo : pos_dims (ones_axes axes ds)).
  { split; [|apply ones_pos; auto with idx]. destruct HP as [N _]. destruct ds; [congruence|discriminate]. }
  assert (HO : prod (ones_axes axes ds) = prod (drop_axes axes ds)) by apply prod_ones.
  assert (HX : prod (drop_axes axes ds) <= INT_MAX).
  { pose proof (prod_keep_drop axes ds 0). pose proof (prod_pos _ (keep_pos axes ds 0 ltac:(auto with idx))).
    pose proof (prod_pos _ (pos_forall _ HPd)). unfold drop_axes in *. nia. }
  rewrite t_reshape_ok; auto; [|apply good_tensor_of; auto]. f_equal.
  rewrite reshaped_tensor_of; auto; [|apply good_tensor_of; auto].
  apply tensor_of_ext; [auto with idx|]. intros k HK. change (tdims (tensor_of (drop_axes axes ds) f)) with (drop_axes axes ds).
  unfold ones_axes in *. rewrite <- (ones_zero axes ds k 0) at 1 by auto.
  rewrite ravel_ones by (rewrite (in_range_length _ _ HK); apply set_from_length).
  fold (drop_axes axes ds) (drop_axes axes k).
  rewrite unravel_ravel by (apply ones_drop_range; auto). apply el_tensor_of. apply ones_drop_range; auto.
Qed.

Lemma mean_axes_ok : forall (t : tensor T) axes L, good t -> axes <> [] -> NoDup axes ->
  (forall a, In a axes -> 0 <= a < Zlen (tdims t)) -> (length axes < length (tdims t))%nat ->
  Permutation L axes -> desc L ->
  t_mean_axes t axes = Ok (tensor_of (ones_axes axes (tdims t)) (fun k =>
    s_mul (nested_sum L (tdims t) (el t) (drop_axes axes k)) (s_div one (s_z (axes_count axes (tdims t)))))).
Proof.
  intros t axes L Hg HNE HND HR HL HPm HS. unfold t_mean_axes.
  destruct (Z.eqb_spec (Zlen axes) 0) as [E|_]; [destruct axes; [congruence|rewrite Zlen_cons in E; pose proof (Zlen_nonneg axes); lia]|].
  unfold rank. fold (tdims t). destruct (Z.eqb_spec (Zlen axes) (Zlen (tdims t))) as [E|_]; [unfold Zlen in E; lia|]. cbn [orb].
  pose proof (good_pos t Hg) as HP. pose proof (good_max t Hg) as HM.
  rewrite mean_shape_ok by (auto with idx; lia). cbn [bind]. rewrite Z.mul_1_l. fold (axes_count axes (tdims t)).
  assert (EL : sort_desc axes = L).
  { apply desc_unique; auto; [apply sort_desc_sorted; auto|].
    eapply perm_trans; [apply sort_desc_perm|apply Permutation_sym; auto]. }
  rewrite EL. rewrite (tensor_of_el t) at 1 by auto.
  pose proof (mean_fold L (tdims t) (el t) HP HM HS) as MF. unfold rank in MF. rewrite MF.
  2:{ intros a HI. apply HR. apply (Permutation_in a HPm). auto. }
  2:{ rewrite (Permutation_length HPm). auto. }
  cbn [bind].
  assert (ED : drop_axes L (tdims t) = drop_axes axes (tdims t)).
  { apply drop_ext. intros i; split; intro HI; [apply (Permutation_in i HPm)|apply (Permutation_in i (Permutation_sym HPm))]; auto. }
  rewrite ED. pose proof (drop_nonempty axes (tdims t) HND HR HL) as HD.
  assert (HPd : pos_dims (drop_axes axes (tdims t))) by (split; [auto|apply drop_pos; auto with idx]).
  assert (HX : prod (drop_axes axes (tdims t)) <= INT_MAX).
  { pose proof (prod_keep_drop axes (tdims t) 0). pose proof (prod_pos _ (keep_pos axes (tdims t) 0 ltac:(auto with idx))).
    pose proof (prod_pos _ (pos_forall _ HPd)). unfold drop_axes in *. nia. }
  unfold t_mul_s. rewrite t_map_ok by (apply good_tensor_of; auto). cbn [bind].
  rewrite t_map_tensor_of by (apply good_tensor_of; auto).
  assert (HPo : pos_dims (ones_axes axes (tdims t))).
  { split; [|apply ones_pos; auto with idx]. destruct HP as [N _]. destruct (tdims t); [congruence|discriminate]. }
  fold (ones_axes axes (tdims t)).
  rewrite new_shape_ok_int by (auto; unfold ones_axes; rewrite prod_ones; auto). cbn [bind].
  change (dims (shape_of (ones_axes axes (tdims t)))) with (ones_axes axes (tdims t)).
  change (tdims (tensor_of (drop_axes axes (tdims t)) (nested_sum L (tdims t) (el t)))) with (drop_axes axes (tdims t)).
  rewrite reshape_ones by auto. f_equal. apply tensor_of_ext; [auto with idx|].
  intros k HK. rewrite el_tensor_of; [reflexivity|]. apply ones_drop_range; auto.
Qed.

Lemma mean_all_ok : forall (t : tensor T), good t ->
  t_mean_all t = Ok (tensor_of [1] (fun _ => s_mul (fsum (map (el t) (all_indices (tdims t)))) (s_div one (s_z (prod (tdims t)))))).
Proof.
  intros t Hg. unfold t_mean_all. rewrite t_sum_ok by auto. cbn [bind]. unfold t_mul_s.
  rewrite t_map_ok by (apply good_fill; auto with idx; simpl; unfold INT_MAX; lia).
  rewrite good_size by auto. rewrite (data_all_indices t) by auto. f_equal.
Qed.
Lemma mean_axes_all : forall (t : tensor T) axes, (axes = [] \/ length axes = length (tdims t)) -> t_mean_axes t axes = t_mean_all t.
Proof.
  intros t axes H. unfold t_mean_axes, rank. fold (tdims t). destruct H as [->|H].
  - reflexivity.
  - unfold Zlen. rewrite H, (Z.eqb_refl (Z.of_nat (length (tdims t)))), orb_true_r. reflexivity.
Qed.

(** ** variance *)
Lemma sq_loop_ok : forall (t m : tensor T), good t -> good m -> bto (tdims m) (tdims t) ->
  forall n k out, 0 <= k <= prod (tdims t) -> n = Z.to_nat (prod (tdims t) - k) -> Zlen out = prod (tdims t) ->
  exists out', sq_loop n (mk_bview m (tdims t)) (tdata t) (iter_at (tdims t) k) k out = Ok out' /\
    Zlen out' = prod (tdims t) /\
    forall j, 0 <= j < prod (tdims t) -> znth zero out' j =
      if j <? k then znth zero out j else sq_diff (znth zero (tdata t) j) (bel m (unravel (tdims t) j)).
Proof.
  intros t m Gt Gm HB. pose proof (good_dims t Gt) as HF.
  induction n as [|n IH]; intros k out Hk Hn HL.
  - exists out. simpl. split; auto. split; auto. intros j Hj. destruct (Z.ltb_spec j k); [auto|lia].
  - cbn [sq_loop]. rewrite (rd_ok zero) by (rewrite good_len by auto; lia). cbn [bind].
    unfold bview_deref. unfold iter_at at 1 2. destruct (Z.ltb_spec k (prod (tdims t))); [|lia]. cbn [snd fst]. simpl bv_orig.
    pose proof (unravel_range (tdims t) k HF ltac:(lia)) as HU.
    rewrite bview_index_ok by auto. cbn [bind]. rewrite wr_ok by lia. cbn [bind]. simpl bv_shape.
    rewrite iter_next_at by (auto; lia).
    destruct (IH (k + 1) (upd out (Z.to_nat k) (sq_diff (znth zero (tdata t) k) (bel m (unravel (tdims t) k))))) as (out' & E & EL & EN);
      [lia|lia|rewrite Zlen_upd; auto|].
    exists out'. split; [exact E|]. split; auto. intros j Hj. rewrite EN by auto.
    destruct (Z.ltb_spec j (k + 1)), (Z.ltb_spec j k); try lia; auto.
    + rewrite znth_upd_neq by lia. reflexivity.
    + assert (j = k) by lia. subst. apply znth_upd_eq. lia.
Qed.

Lemma count_fold : forall (ds : list Z), Forall (fun d => 0 < d) ds -> prod ds <= INT_MAX ->
  forall axes pre, NoDup (pre ++ axes) -> (forall a, In a (pre ++ axes) -> 0 <= a < Zlen ds) ->
  foldM (fun ax tot => if Zlen ds <=? ax then Throw RuntimeError else d <- rd ds ax ;; chk32 (tot * d)) axes
    (axes_count pre ds) = Ok (axes_count (pre ++ axes) ds).
Proof.
  intros ds HF HM. induction axes as [|a axes IH]; intros pre HN HR; simpl.
  - rewrite app_nil_r. reflexivity.
  - assert (Ha : 0 <= a < Zlen ds) by (apply HR, in_or_app; right; left; auto).
    destruct (Z.leb_spec (Zlen ds) a); [lia|]. rewrite (rd_ok 0) by auto. cbn [bind].
    assert (E : axes_count pre ds * znth 0 ds a = axes_count (pre ++ [a]) ds).
    { rewrite !axes_count_list.
      - rewrite map_app, prod_app. simpl. lia.
      - clear - HN. replace (pre ++ a :: axes) with ((pre ++ [a]) ++ axes) in HN by (rewrite <- app_assoc; reflexivity).
        revert HN. generalize (pre ++ [a]). induction l; simpl; intros HN; [constructor|].
        inversion HN; subst. constructor; auto. intro HI; apply H1, in_or_app; auto.
      - intros b HI. apply HR. apply in_app_or in HI. apply in_or_app. destruct HI as [?|[<-|[]]]; auto. right; left; auto.
      - clear - HN. revert HN. induction pre; simpl; intros HN; [constructor|].
        inversion HN; subst. constructor; auto. intro HI; apply H1, in_or_app; auto.
      - intros b HI. apply HR, in_or_app; auto. }
    rewrite E. pose proof (axes_count_bound (pre ++ [a]) ds HF). rewrite chk32_ok by (unfold INT_MIN; lia). cbn [bind].
    rewrite IH.
    + rewrite <- app_assoc. reflexivity.
    + rewrite <- app_assoc. exact HN.
    + intros b. rewrite <- app_assoc. apply HR.
Qed.

Lemma variance_axes_ok : forall (t m : tensor T) axes, good t -> good m -> tdims m = ones_axes axes (tdims t) ->
  NoDup axes -> (forall a, In a axes -> 0 <= a < Zlen (tdims t)) -> (length axes < length (tdims t))%nat ->
  t_variance_axes t m axes = Ok (tensor_of (ones_axes axes (tdims t)) (fun k =>
    s_div (fsum (map (fun idx => s_mul (s_sub (el t idx) (el m (zero_axes axes idx))) (s_sub (el t idx) (el m (zero_axes axes idx))))
                     (slice_indices axes (tdims t) (drop_axes axes k))))
          (s_z (axes_count axes (tdims t))))).
Proof.
  intros t m axes Hg Hm Em HND HR HL. unfold t_variance_axes, rank. fold (tdims t).
  pose proof (good_pos t Hg) as HP. pose proof (good_max t Hg) as HM. pose proof (good_dims t Hg) as HF.
  pose proof (prod_pos _ HF) as HPP.
  assert (E1 : axes_count [] (tdims t) = 1).
  { unfold axes_count. rewrite keep_filter. replace (filter (has []) (zrange 0 (0 + Zlen (tdims t)))) with (@nil Z); [reflexivity|].
    induction (zrange 0 (0 + Zlen (tdims t))); simpl; auto. }
  rewrite <- E1 at 1. rewrite (count_fold (tdims t) HF HM axes []) by auto. cbn [app bind].
  assert (HB : bto (tdims m) (tdims t)) by (rewrite Em; apply bto_ones; auto).
  rewrite (good_shape t) by auto. rewrite bview_new_ok by auto. cbn [bind]. cbn [ssize shape_of].
  simpl bv_shape. rewrite iter_begin_at by auto.
  destruct (sq_loop_ok t m Hg Hm HB (Z.to_nat (prod (tdims t))) 0 (tdata (t_new (shape_of (tdims t))))) as (sq & E & EL & EN).
  { lia. } { rewrite Z.sub_0_r. auto. } { simpl. apply Zlen_zrepeat. lia. }
  rewrite E. cbn [bind].
  set (sqt := mkTensor (shape_of (tdims t)) sq). assert (Gs : good sqt) by (apply good_mk; auto).
  pose proof (drop_nonempty axes (tdims t) HND HR HL) as HD.
  assert (Dsq : tdims sqt = tdims t) by reflexivity.
  rewrite (sum_axes_ok sqt axes Gs) by (rewrite Dsq; auto). rewrite Dsq. cbn [bind].
  assert (HO : prod (ones_axes axes (tdims t)) = prod (drop_axes axes (tdims t))) by apply prod_ones.
  assert (HPd : pos_dims (drop_axes axes (tdims t))) by (split; [auto|apply drop_pos; auto]).
  pose proof (prod_pos _ (pos_forall _ HPd)) as Hpd.
  assert (HPo : pos_dims (ones_axes axes (tdims t))).
  { split; [|apply ones_pos; auto with idx]. destruct HP as [N _]. destruct (tdims t); [congruence|discriminate]. }
  set (F := fun ridx => fsum (map (el sqt) (slice_indices axes (tdims t) ridx))).
  rewrite (good_size m) by auto. rewrite Em, HO.
  rewrite (for_table zero _ (fun k => s_div (F (unravel (drop_axes axes (tdims t)) k)) (s_z (axes_count axes (tdims t))))).
  - cbn [bind]. f_equal. rewrite (good_shape m), Em by auto. unfold tensor_of. f_equal. rewrite HO.
    unfold ztab. apply map_ext_in. intros q HI. apply In_zrange in HI.
    assert (HK : in_range (ones_axes axes (tdims t)) (unravel (ones_axes axes (tdims t)) q)) by (apply unravel_range; [auto with idx|lia]).
    assert (EQ : unravel (drop_axes axes (tdims t)) q = drop_axes axes (unravel (ones_axes axes (tdims t)) q)).
    { rewrite <- (ravel_unravel (ones_axes axes (tdims t)) q) at 1 by (auto with idx; lia).
      unfold ones_axes in *. rewrite <- (ones_zero axes (tdims t) (unravel (set_from 1 0 axes (tdims t)) q) 0) at 1 by auto.
      rewrite ravel_ones by (rewrite (in_range_length _ _ HK); apply set_from_length).
      apply unravel_ravel. apply ones_drop_range; auto. }
    rewrite EQ. f_equal. unfold F. f_equal. apply map_ext_in. intros idx HI2.
    unfold slice_indices in HI2. apply filter_In in HI2. destruct HI2 as [HI2 _].
    unfold all_indices, ztab in HI2. apply in_map_iff in HI2. destruct HI2 as (k & <- & Hk). apply In_zrange in Hk.
    unfold el at 1. rewrite Dsq. rewrite ravel_unravel by auto. unfold sqt. cbn [tdata]. rewrite EN by auto.
    destruct (Z.ltb_spec k 0); [lia|]. unfold sq_diff, bel. rewrite Em.
    unfold ones_axes. rewrite bproj_ones by (apply unravel_range; auto). fold (zero_axes axes (unravel (tdims t) k)).
    assert (EE : el t (unravel (tdims t) k) = znth zero (tdata t) k) by (unfold el; rewrite ravel_unravel; auto).
    rewrite EE. reflexivity.
  - lia.
  - unfold t_new. cbn. rewrite (good_size m), Em, HO by auto. apply Zlen_zrepeat. lia.
  - intros k l Hk HLl _. unfold tensor_of. cbn [tdata].
    rewrite (rd_ok zero) by (rewrite Zlen_ztab; lia). cbn [bind]. rewrite znth_ztab by lia. apply wr_ok. lia.
Qed.

Lemma variance_axes_all : forall (t m : tensor T) axes, good t -> good m -> bto (tdims m) (tdims t) ->
  NoDup axes -> (forall a, In a axes -> 0 <= a < Zlen (tdims t)) -> length axes = length (tdims t) ->
  t_variance_axes t m axes = Throw InvalidArgument.
Proof.
  intros t m axes Hg Hm HB HND HR HL. unfold t_variance_axes, rank. fold (tdims t).
  pose proof (good_pos t Hg) as HP. pose proof (good_max t Hg) as HM. pose proof (good_dims t Hg) as HF.
  pose proof (prod_pos _ HF) as HPP.
  assert (E1 : axes_count [] (tdims t) = 1).
  { unfold axes_count. rewrite keep_filter. replace (filter (has []) (zrange 0 (0 + Zlen (tdims t)))) with (@nil Z); [reflexivity|].
    induction (zrange 0 (0 + Zlen (tdims t))); simpl; auto. }
  rewrite <- E1 at 1. rewrite (count_fold (tdims t) HF HM axes []) by auto. cbn [app bind].
  rewrite (good_shape t) by auto. rewrite bview_new_ok by auto. cbn [bind]. cbn [ssize shape_of].
  simpl bv_shape. rewrite iter_begin_at by auto.
  destruct (sq_loop_ok t m Hg Hm HB (Z.to_nat (prod (tdims t))) 0 (tdata (t_new (shape_of (tdims t))))) as (sq & E & EL & EN).
  { lia. } { rewrite Z.sub_0_r. auto. } { simpl. apply Zlen_zrepeat. lia. }
  rewrite E. cbn [bind].
  rewrite sum_axes_all; auto; [apply good_mk; auto|].
  change (tdims (mkTensor (shape_of (tdims t)) sq)) with (tdims t).
  destruct (drop_length axes (tdims t) 0) as [E2 _]. rewrite keep_length in E2 by auto.
  unfold drop_axes. apply length_zero_iff_nil. lia.
Qed.

Lemma variance_all_ok : forall (t m : tensor T), good t -> good m -> tdims m = [1] ->
  t_variance_all t m = Ok (tensor_of [1] (fun _ =>
    s_mul (fsum (map (fun idx => s_mul (s_sub (el t idx) (el m [0])) (s_sub (el t idx) (el m [0]))) (all_indices (tdims t))))
          (s_div one (s_z (prod (tdims t)))))).
Proof.
  intros t m Hg Hm Em. unfold t_variance_all.
  pose proof (good_pos t Hg) as HP. pose proof (good_max t Hg) as HM. pose proof (good_dims t Hg) as HF.
  assert (HB : bcast (tdims t) (tdims m) (tdims t)).
  { rewrite Em. apply bcast_sym, bcast_one. auto. }
  unfold t_sub. rewrite (t_binop_ok s_sub t m (tdims t)) by auto. cbn [bind].
  set (d := tensor_of (tdims t) _). assert (Gd : good d) by (apply good_tensor_of; auto).
  assert (Dd : tdims d = tdims t) by reflexivity.
  unfold t_mul. rewrite (t_binop_ok s_mul d d (tdims t)); auto; [|rewrite Dd; apply bcast_refl; auto]. cbn [bind].
  rewrite t_sum_ok by (apply good_tensor_of; auto). cbn [bind]. unfold t_mul_s.
  rewrite t_map_ok by (apply good_fill; auto with idx; simpl; unfold INT_MAX; lia).
  rewrite good_size by auto. cbn [tdata tensor_of]. f_equal. unfold tmap, tensor_of, t_fill. cbn [tshape tdata]. f_equal.
  change (ssize (shape_of [1])) with 1. change (zrepeat ?v 1) with [v]. cbn [map].
  change (ztab (prod [1]) ?f) with [f 0]. f_equal. f_equal.
  unfold all_indices, ztab. rewrite map_map. f_equal. f_equal. apply map_ext_in. intros k HI. apply In_zrange in HI.
  pose proof (unravel_range (tdims t) k HF HI) as HU.
  assert (EB : bel d (unravel (tdims t) k) = s_sub (el t (unravel (tdims t) k)) (el m [0])).
  { unfold bel. rewrite Dd, bproj_id by auto. unfold d. rewrite el_tensor_of by auto.
    f_equal; unfold bel; [rewrite bproj_id by auto; reflexivity|].
    rewrite Em. unfold bproj. f_equal. destruct (skipn _ _) eqn:X; [|reflexivity].
    apply (f_equal (@length Z)) in X. rewrite skipn_length, unravel_length in X. cbn [length] in X.
    destruct HP as [N _]. destruct (tdims t); [congruence|cbn [length] in X; lia]. }
  rewrite EB. reflexivity.
Qed.

(** ** transpose *)
Lemma old_indices_ok : forall ds k, Forall (fun d => 0 < d) ds -> 0 <= k ->
  old_indices ds k = Ok (unravel ds (k mod prod ds), k / prod ds).
Proof.
  induction ds as [|d ds IH]; intros k HF Hk; simpl.
  - rewrite Z.div_1_r. reflexivity.
  - inversion HF as [|? ? Hd HF']; subst. rewrite IH by auto. cbn [bind]. pose proof (prod_pos _ HF').
    destruct (Z.eqb_spec d 0); [lia|]. do 2 f_equal.
    + rewrite (Z.mul_comm d), Z.rem_mul_r by lia. rewrite (Z.mul_comm (prod ds)). f_equal.
      * rewrite Z.div_add, (Z.div_small (k mod prod ds)) by (try apply Z.mod_pos_bound; lia). reflexivity.
      * rewrite Z.mod_add, Z.mod_mod by lia. reflexivity.
    + rewrite Z.div_div by lia. f_equal. lia.
Qed.

Lemma swap_length : forall n m l, length (swap_at n m l) = length l.
Proof. intros. unfold swap_at. rewrite !upd_length. reflexivity. Qed.
Lemma nth_swap : forall n m l k, (n < length l)%nat -> (m < length l)%nat ->
  nth k (swap_at n m l) 0 = if Nat.eqb k m then nth n l 0 else if Nat.eqb k n then nth m l 0 else nth k l 0.
Proof.
  intros n m l k Hn Hm. unfold swap_at. destruct (Nat.eqb_spec k m) as [->|H1].
  - apply nth_upd_eq. rewrite upd_length. auto.
  - rewrite nth_upd_neq by auto. destruct (Nat.eqb_spec k n) as [->|H2].
    + apply nth_upd_eq. auto.
    + apply nth_upd_neq. auto.
Qed.
Lemma swap_swap : forall n m l, (n < length l)%nat -> (m < length l)%nat -> swap_at n m (swap_at n m l) = l.
Proof.
  intros n m l Hn Hm. apply nth_ext with 0 0; [rewrite !swap_length; auto|]. intros k Hk.
  rewrite !nth_swap by (rewrite ?swap_length; auto).
  destruct (Nat.eqb_spec k m), (Nat.eqb_spec k n), (Nat.eqb_spec n m), (Nat.eqb_spec m n); subst; try lia; auto;
  try rewrite Nat.eqb_refl; auto.
Qed.
Lemma Forall2_nth_iff : forall (P : Z -> Z -> Prop) a b, Forall2 P a b <->
  length a = length b /\ forall k, (k < length a)%nat -> P (nth k a 0) (nth k b 0).
Proof.
  intros P. induction a as [|x a IH]; destruct b as [|y b]; split; intros H.
  - split; auto. simpl; intros; lia.
  - constructor.
  - inversion H.
  - destruct H; discriminate.
  - inversion H.
  - destruct H; discriminate.
  - inversion H; subst. apply IH in H5. destruct H5 as [HL HN]. split; [simpl; auto|].
    intros [|k] Hk; simpl; auto. apply HN. simpl in Hk. lia.
  - destruct H as [HL HN]. constructor; [apply (HN 0%nat); simpl; lia|]. apply IH. split; [simpl in HL; lia|].
    intros k Hk. apply (HN (Datatypes.S k)). simpl. lia.
Qed.
Lemma swap_range : forall n m ds idx, (n < length ds)%nat -> (m < length ds)%nat ->
  in_range ds idx -> in_range (swap_at n m ds) (swap_at n m idx).
Proof.
  intros n m ds idx Hn Hm H. pose proof (in_range_length _ _ H) as HL. unfold in_range in *. rewrite Forall2_nth_iff in *.
  destruct H as [_ H]. rewrite !swap_length. split; [auto|]. intros k Hk. rewrite !nth_swap by (auto; lia).
  destruct (Nat.eqb k m); [apply H; auto|]. destruct (Nat.eqb k n); apply H; auto.
Qed.
Lemma swap_pos : forall n m ds, (n < length ds)%nat -> (m < length ds)%nat -> Forall (fun d => 0 < d) ds ->
  Forall (fun d => 0 < d) (swap_at n m ds).
Proof.
  intros n m ds Hn Hm HF. apply Forall_forall. intros x HI. apply In_nth with (d := 0) in HI. destruct HI as (k & Hk & <-).
  rewrite swap_length in Hk. rewrite nth_swap by auto. rewrite Forall_forall in HF.
  destruct (Nat.eqb k m); [apply HF, nth_In; auto|]. destruct (Nat.eqb k n); apply HF, nth_In; auto.
Qed.
Lemma swap_map_seq : forall n m l, (n < length l)%nat -> (m < length l)%nat ->
  swap_at n m l = map (fun d => nth (Z.to_nat (nth (Z.to_nat d) (swap_at n m (zrange 0 (Zlen l))) 0)) l 0) (zrange 0 (Zlen l)).
Proof.
  intros n m l Hn Hm. assert (LZ : length (zrange 0 (Zlen l)) = length l) by (pose proof (Zlen_zrange 0 (Zlen l)); unfold Zlen in *; lia).
  apply nth_ext with 0 0; [rewrite swap_length, map_length; auto|].
  rewrite swap_length. intros k Hk.
  assert (NZ : forall j, (j < length l)%nat -> nth j (zrange 0 (Zlen l)) 0 = Z.of_nat j).
  { intros j Hj. pose proof (znth_zrange 0 0 (Zlen l) (Z.of_nat j)) as X. unfold znth in X. rewrite Nat2Z.id in X. unfold Zlen in *. rewrite X; lia. }
  set (F := fun d => nth (Z.to_nat (nth (Z.to_nat d) (swap_at n m (zrange 0 (Zlen l))) 0)) l 0).
  transitivity (nth k (map F (zrange 0 (Zlen l))) (F 0)); [|apply nth_indep; rewrite map_length; lia].
  rewrite map_nth, NZ by auto. unfold F. rewrite Nat2Z.id. rewrite !nth_swap by (auto; lia).
  destruct (Nat.eqb k m); [rewrite NZ by auto; rewrite Nat2Z.id; auto|].
  destruct (Nat.eqb k n); rewrite NZ by auto; rewrite Nat2Z.id; auto.
Qed.
Lemma prod_swap : forall n m ds, (n < length ds)%nat -> (m < length ds)%nat -> prod (swap_at n m ds) = prod ds.
Proof.
  intros n m ds Hn Hm. apply prod_perm. apply Permutation_sym.
  pose (f := fun k => if Nat.eqb k m then n else if Nat.eqb k n then m else k).
  apply (Permutation_nth ds (swap_at n m ds) 0). rewrite swap_length. split; auto. exists f. repeat split.
  - intros k Hk. unfold f. destruct (Nat.eqb k m); auto. destruct (Nat.eqb k n); auto.
  - intros x y Hx Hy. unfold f. destruct (Nat.eqb_spec x m), (Nat.eqb_spec x n), (Nat.eqb_spec y m), (Nat.eqb_spec y n); lia.
  - intros k Hk. rewrite nth_swap by auto. unfold f. destruct (Nat.eqb k m); auto. destruct (Nat.eqb k n); auto.
Qed.

Lemma transpose_ok : forall (t : tensor T) i j, good t -> 0 <= i < Zlen (tdims t) -> 0 <= j < Zlen (tdims t) ->
  t_transpose t i j = Ok (tensor_of (swap_at (Z.to_nat i) (Z.to_nat j) (tdims t))
                                    (fun idx => el t (swap_at (Z.to_nat i) (Z.to_nat j) idx))).
Proof.
  intros t i j Hg Hi Hj. unfold t_transpose, rank. fold (tdims t). set (ds := tdims t) in *.
  pose proof (good_pos t Hg) as HP. pose proof (good_max t Hg) as HM. pose proof (good_dims t Hg) as HF. fold ds in HP, HM, HF.
  destruct (Z.leb_spec (Zlen ds) i), (Z.leb_spec (Zlen ds) j); try lia. cbn [orb].
  rewrite (rd_ok 0 ds i), (rd_ok 0 ds j) by auto. cbn [bind]. rewrite wr_ok by auto. cbn [bind].
  rewrite wr_ok by (rewrite Zlen_upd; auto). cbn [bind].
  set (n := Z.to_nat i). set (m := Z.to_nat j).
  assert (Hn : (n < length ds)%nat) by (unfold n, Zlen in *; lia). assert (Hm : (m < length ds)%nat) by (unfold m, Zlen in *; lia).
  change (upd (upd ds n (znth 0 ds j)) m (znth 0 ds i)) with (swap_at n m ds).
  assert (HPs : pos_dims (swap_at n m ds)).
  { split; [|apply swap_pos; auto]. intro E. apply (f_equal (@length Z)) in E. rewrite swap_length in E. simpl in E. lia. }
  assert (HPr : prod (swap_at n m ds) = prod ds) by (apply prod_swap; auto).
  rewrite new_shape_ok_int by (auto; lia). cbn [bind].
  assert (LZ : Zlen (zrange 0 (Zlen ds)) = Zlen ds) by (rewrite Zlen_zrange; lia).
  rewrite (rd_ok 0 (zrange 0 (Zlen ds)) i), (rd_ok 0 (zrange 0 (Zlen ds)) j) by lia. cbn [bind].
  rewrite wr_ok by lia. cbn [bind]. rewrite wr_ok by (rewrite Zlen_upd; lia). cbn [bind]. fold n m.
  change (upd (upd (zrange 0 (Zlen ds)) n (znth 0 (zrange 0 (Zlen ds)) j)) m (znth 0 (zrange 0 (Zlen ds)) i)) with (swap_at n m (zrange 0 (Zlen ds))).
  rewrite (good_size t) by auto. fold ds. pose proof (prod_pos _ HF) as HPP.
  match goal with |- for_ 0 _ ?body ?s0 = _ =>
  destruct (for_inv (fun k (o : tensor T) => good o /\ tdims o = swap_at n m ds /\
     forall q, 0 <= q < k -> el o (swap_at n m (unravel ds q)) = znth zero (tdata t) q) 0 (prod ds) body s0) as (o & E & Go & Do & Ho) end.
  - lia.
  - split; [apply good_new; auto; lia|]. split; [reflexivity|]. intros; lia.
  - intros k o Hk (Go & Do & Ho). pose proof (unravel_range ds k HF Hk) as HU.
    rewrite old_indices_ok by (auto; lia). cbn [bind]. rewrite Z.mod_small by auto.
    assert (HLU : length (unravel ds k) = length ds) by apply unravel_length.
    rewrite (mapM_ok _ (fun d => nth (Z.to_nat (nth (Z.to_nat d) (swap_at n m (zrange 0 (Zlen (unravel ds k)))) 0)) (unravel ds k) 0)).
    2:{ intros d HI. apply In_zrange in HI. assert (EZ : Zlen (unravel ds k) = Zlen ds) by (unfold Zlen; lia). rewrite EZ.
        assert (LS : Zlen (swap_at n m (zrange 0 (Zlen ds))) = Zlen ds) by (unfold Zlen at 1; rewrite swap_length; exact LZ).
        rewrite (rd_ok 0) by (rewrite LS; exact HI). cbn [bind].
        rewrite (rd_ok 0); [reflexivity|]. unfold znth.
        assert (NZ : forall j, (j < length ds)%nat -> nth j (zrange 0 (Zlen ds)) 0 = Z.of_nat j).
        { intros a Ha. pose proof (znth_zrange 0 0 (Zlen ds) (Z.of_nat a)) as X. unfold znth in X. rewrite Nat2Z.id in X. rewrite X by (unfold Zlen; lia). lia. }
        assert (LN : length (zrange 0 (Zlen ds)) = length ds) by (unfold Zlen in LZ at 1 3; lia).
        rewrite nth_swap by lia. destruct (Nat.eqb (Z.to_nat d) m); [|destruct (Nat.eqb (Z.to_nat d) n)]; rewrite NZ; unfold Zlen in *; lia. }
    replace (Zlen ds) with (Zlen (unravel ds k)) by (unfold Zlen; lia).
    rewrite <- swap_map_seq by lia. cbn [bind]. rewrite t_at_ok by auto. cbn [bind].
    assert (HSW : in_range (swap_at n m ds) (swap_at n m (unravel ds k))) by (apply swap_range; auto).
    rewrite t_at_set_ok by (auto; rewrite Do; auto). eexists; split; [reflexivity|].
    split; [apply good_set_el; auto|]. split; [exact Do|]. intros q Hq.
    assert (HU2 : in_range ds (unravel ds q)) by (apply unravel_range; auto; lia).
    rewrite el_set_el; auto; try (rewrite Do; auto); try (apply swap_range; auto).
    destruct (list_eq_dec Z.eq_dec (swap_at n m (unravel ds q)) (swap_at n m (unravel ds k))) as [X|X].
    + apply (f_equal (swap_at n m)) in X. rewrite !swap_swap in X by (rewrite unravel_length; auto).
      apply (f_equal (ravel ds)) in X. rewrite !ravel_unravel in X by (auto; lia). subst q.
      unfold el. fold ds. rewrite ravel_unravel by auto. reflexivity.
    + apply Ho. assert (q <> k) by congruence. lia.
  - rewrite E. f_equal. rewrite <- Do. apply tensor_eta; auto. rewrite Do. intros idx HI.
    pose proof (swap_range n m _ _ ltac:(rewrite swap_length; exact Hn) ltac:(rewrite swap_length; exact Hm) HI) as HI2.
    rewrite swap_swap in HI2 by auto. pose proof (ravel_bound _ _ HI2) as HB.
    specialize (Ho (ravel ds (swap_at n m idx)) HB). rewrite unravel_ravel in Ho by auto.
    assert (LI : length idx = length ds) by (rewrite (in_range_length _ _ HI), swap_length; auto).
    rewrite swap_swap in Ho by lia. rewrite Ho. reflexivity.
Qed.
Lemma transpose_throw : forall (t : tensor T) i j, (Zlen (tdims t) <= i \/ Zlen (tdims t) <= j) ->
  t_transpose t i j = Throw InvalidArgument.
Proof.
  intros t i j H. unfold t_transpose, rank. fold (tdims t).
  destruct (Z.leb_spec (Zlen (tdims t)) i), (Z.leb_spec (Zlen (tdims t)) j); try lia; reflexivity.
Qed.
Lemma transpose_involutive : forall (t : tensor T) i j, good t -> 0 <= i < Zlen (tdims t) -> 0 <= j < Zlen (tdims t) ->
  exists u, t_transpose t i j = Ok u /\ good u /\ t_transpose u i j = Ok t.
Proof.
  intros t i j Hg Hi Hj. rewrite transpose_ok by auto. eexists; split; [reflexivity|].
  set (n := Z.to_nat i). set (m := Z.to_nat j).
  assert (Hn : (n < length (tdims t))%nat) by (unfold n, Zlen in *; lia). assert (Hm : (m < length (tdims t))%nat) by (unfold m, Zlen in *; lia).
  assert (Gu : good (tensor_of (swap_at n m (tdims t)) (fun idx => el t (swap_at n m idx)))).
  { apply good_tensor_of; [|rewrite prod_swap by auto; apply good_max; auto].
    split; [|apply swap_pos; auto; apply good_dims; auto]. intro E. apply (f_equal (@length Z)) in E. rewrite swap_length in E. simpl in E. lia. }
  split; [exact Gu|]. 
  rewrite transpose_ok; auto.
  - change (tdims (tensor_of (swap_at n m (tdims t)) _)) with (swap_at n m (tdims t)). fold n m. rewrite swap_swap by auto.
    f_equal. symmetry. apply tensor_eta; auto. intros idx HI.
    rewrite el_tensor_of by (apply swap_range; auto). rewrite swap_swap; auto; rewrite (in_range_length _ _ HI); auto.
  - change (tdims (tensor_of (swap_at n m (tdims t)) _)) with (swap_at n m (tdims t)). unfold Zlen. rewrite swap_length. exact Hi.
  - change (tdims (tensor_of (swap_at n m (tdims t)) _)) with (swap_at n m (tdims t)). unfold Zlen. rewrite swap_length. exact Hj.
Qed.

Lemma apply_all : forall f (t : tensor T), good t ->
  t_apply t f = Ok (tensor_of (tdims t) (fun idx => f (el t idx))) /\
  t_map_ip f t = Ok (tensor_of (tdims t) (fun idx => f (el t idx))) /\
  t_sqrt t = Ok (tensor_of (tdims t) (fun idx => s_sqrt (el t idx))).
Proof.
  intros f t Hg. unfold t_apply, t_sqrt. rewrite !t_map_ok, t_map_ip_ok by auto. rewrite !t_map_tensor_of by auto. auto.
Qed.
Lemma reciprocal_ok : forall eps (t : tensor T), good t ->
  t_reciprocal eps t = Ok (tensor_of (tdims t) (fun idx =>
     if s_lt eps (s_abs (el t idx)) then s_div one (el t idx) else s_div one eps)).
Proof. intros. unfold t_reciprocal. rewrite apply_ok by auto. reflexivity. Qed.
Lemma wf_new : forall ds, pos_dims ds -> prod ds < two64 -> wf (t_new (shape_of ds) : tensor T).
Proof.
  intros ds HP HM. pose proof (prod_pos _ (pos_forall _ HP)). split; [exact HP|]. split; [reflexivity|].
  split; [exact HM|]. unfold t_new, tdims. cbn [tdata tshape ssize shape_of dims]. apply Zlen_zrepeat. lia.
Qed.
Lemma el_new_big : forall ds idx, in_range ds idx -> el (t_new (shape_of ds) : tensor T) idx = zero.
Proof.
  intros ds idx HI. unfold el, t_new, t_fill. cbn [tdata tshape]. apply znth_zrepeat.
  apply (ravel_bound _ _ HI).
Qed.
End S.
