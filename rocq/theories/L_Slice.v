(** * Products over slice views *)
From Verif Require Import Base Scalar Types Spec M_Shape M_Tensor M_Adv M_Par M_Iter M_Slice SpecPar SpecSlice
  L_Index L_Shape L_Bcast L_Tensor L_Reduce L_Tensor2 L_Nest L_Matmul L_Glue L_Par.

Section S.
Context {T : Type} {S : Scalar T}.

Lemma view_shows : forall (t : tensor T) slices steps,
  good t -> length slices = length (tdims t) -> length steps = length (tdims t) ->
  Forall (fun s => 0 < s) steps ->
  (forall i, (i < length (tdims t))%nat -> nth i (tdims t) 0 + nth i steps 0 <= INT_MAX) ->
  exists v starts exts, sview_new t slices steps = Ok v /\ in_range (tdims t) starts /\ length exts = length (tdims t) /\
    (forall idx, in_range exts idx -> in_range (tdims t) (slice_src starts steps idx)) /\
    shows v exts (fun idx => el t (slice_src starts steps idx)).
Proof.
  intros t slices steps Hg H1 H2 HF HI.
  pose proof (sl_starts_range (tdims t) slices (pos_forall _ (good_pos t Hg)) H1) as HR.
  destruct (sl_exts_facts _ _ steps HR H2 HF) as (A & B & C & D).
  eexists. exists (sl_starts (tdims t) slices). exists (sl_exts (tdims t) (sl_starts (tdims t) slices) steps).
  split; [apply sview_new_ok; auto|]. split; [auto|]. split; [auto|]. split; [auto|].
  split; [reflexivity|]. split.
  { split; [|auto]. intros E. rewrite E in B. destruct (good_pos t Hg) as [K _]. destruct (tdims t); [congruence|discriminate]. }
  split; [pose proof (good_max t Hg); lia|]. intros idx Hi. apply (proj2 (sview_index_ok t _ steps idx Hg HR H2 HF Hi)).
Qed.

Lemma dot_slice_ok : forall (a b : sview T) ds f g, shows a ds f -> shows b ds g ->
  t_dot_slice a b = Ok (fsum (map (fun idx => s_mul (f idx) (g idx)) (all_indices ds))).
Proof.
  intros a b ds f g (Sa & HP & HM & Fa) (Sb & _ & _ & Fb). unfold t_dot_slice. rewrite Sa, Sb.
  unfold shape_eqb. rewrite (proj2 (list_eqb_spec _ _) eq_refl). cbn [negb].
  assert (HPP : 0 < prod ds) by (apply prod_pos; auto with idx).
  assert (G : forall fuel k acc, 0 <= k <= prod ds -> (Z.to_nat (prod ds - k) <= fuel)%nat ->
     dot_slice_loop fuel a b (iter_at ds k) (iter_at ds k) acc =
       Ok (fold_left s_add (map (fun j => s_mul (f (unravel ds j)) (g (unravel ds j))) (zrange k (prod ds))) acc)).
  { induction fuel; intros k acc Hk Hfu.
    - assert (k = prod ds) by lia. subst k. unfold iter_at. rewrite Z.ltb_irrefl. simpl. rewrite zrange_nil by lia. reflexivity.
    - destruct (Z.eq_dec k (prod ds)) as [->|Hne].
      + unfold iter_at. rewrite Z.ltb_irrefl. simpl. rewrite zrange_nil by lia. reflexivity.
      + cbn [dot_slice_loop]. rewrite Sa, Sb. rewrite iter_next_at by (auto with idx; lia).
        assert (HU : in_range ds (unravel ds k)) by (apply unravel_range; auto with idx; lia).
        assert (Ex : sview_deref a (iter_at ds k) = Ok (f (unravel ds k))).
        { unfold sview_deref, iter_at. destruct (Z.ltb_spec k (prod ds)); [|lia]. cbn [fst snd]. apply Fa. auto. }
        assert (Ey : sview_deref b (iter_at ds k) = Ok (g (unravel ds k))).
        { unfold sview_deref, iter_at. destruct (Z.ltb_spec k (prod ds)); [|lia]. cbn [fst snd]. apply Fb. auto. }
        rewrite Ex, Ey. cbn [bind]. rewrite IHfuel by lia. rewrite (zrange_cons k) by lia.
        unfold iter_at. destruct (Z.ltb_spec k (prod ds)); [|lia]. reflexivity. }
  rewrite iter_begin_at by auto with idx. rewrite G by (cbn [ssize shape_of]; lia).
  unfold all_indices, ztab. rewrite map_map. reflexivity.
Qed.
Lemma dot_slice_throw : forall (a b : sview T) ds ds' f g, shows a ds f -> shows b ds' g -> ds <> ds' ->
  t_dot_slice a b = Throw InvalidArgument.
Proof.
  intros a b ds ds' f g (Sa & _) (Sb & _) H. unfold t_dot_slice. rewrite Sa, Sb. unfold shape_eqb. cbn [dims shape_of].
  destruct (list_eqb ds ds') eqn:E; [apply list_eqb_spec in E; congruence|reflexivity].
Qed.

Lemma pos2_inv : forall m n, pos_dims [m; n] -> 0 < m /\ 0 < n.
Proof. intros m n [_ H]. inversion H as [|? ? H1 H2]; subst. inversion H2; subst. auto. Qed.

Lemma matmat_slice_ok : forall (a b : sview T) m k n f g, shows a [m; k] f -> shows b [k; n] g -> m * n <= INT_MAX ->
  t_matmat_slice a b = Ok (tensor_of [m; n] (fn2 (fun i j => sum_to k (fun p => s_mul (f [i; p]) (g [p; j]))))).
Proof.
  intros a b m k n f g (Sa & Pa & _ & Fa) (Sb & Pb & _ & Fb) HM. unfold t_matmat_slice. rewrite Sa, Sb.
  destruct (pos2_inv _ _ Pa) as (Hm & Hk). destruct (pos2_inv _ _ Pb) as (_ & Hn).
  unfold rank. cbn [dims shape_of]. change (Zlen [m; k] =? 2) with true. change (Zlen [k; n] =? 2) with true. cbn [negb orb].
  change (rd [m; k] 0) with (Ok m). change (rd [m; k] 1) with (Ok k). change (rd [k; n] 0) with (Ok k).
  change (rd [k; n] 1) with (Ok n). cbn [bind].
  rewrite Z.eqb_refl. cbn [negb]. rewrite new_shape_ok_int by (auto with idx; simpl; nia). cbn [bind].
  rewrite (for2_nest m n).
  rewrite (nest_write [m; n] (fn2 (fun i j => sum_to k (fun p => s_mul (f [i; p]) (g [p; j]))))).
  - reflexivity.
  - auto with idx.
  - cbn [ssize shape_of]. apply Zlen_zrepeat. simpl; nia.
  - intros idx o HI HL. destruct (in_range_2 _ _ _ HI) as (i & j & -> & Hi & Hj). cbn [nth].
    rewrite (for_fsum k (fun p => s_mul (f [i; p]) (g [p; j]))).
    + cbn [bind]. rewrite ravel2. rewrite (ix_ok i n j m) by auto. cbn [bind].
      unfold fn2; cbn [nth]. apply wr_ok. rewrite HL; simpl; nia.
    + intros p acc Hp. rewrite Fa, Fb by auto with idx. reflexivity.
Qed.
(** It is the product of the tensors with the shown elements. *)
Lemma matmat_slice_copy : forall (a b : sview T) m k n f g, shows a [m; k] f -> shows b [k; n] g -> m * n <= INT_MAX ->
  t_matmat_slice a b = t_matmat (tensor_of [m; k] f) (tensor_of [k; n] g).
Proof.
  intros a b m k n f g A B HM. rewrite (matmat_slice_ok a b m k n f g) by auto.
  destruct A as (_ & Pa & Ma & _). destruct B as (_ & Pb & Mb & _). pose proof (pos2_inv _ _ Pa). pose proof (pos2_inv _ _ Pb).
  assert (0 < m /\ 0 < k /\ 0 < n) as (? & ? & ?) by tauto.
  rewrite (matmat_ok (tensor_of [m; k] f) (tensor_of [k; n] g) m k n) by (auto using good_tensor_of).
  apply f_equal. apply tensor_of_ext; [auto with idx|].
  intros idx HI. destruct (in_range_2 _ _ _ HI) as (i & j & -> & Hi & Hj). unfold fn2. cbn [nth]. unfold mm, sum_to. f_equal.
  apply map_ext_in. intros p Hp. apply In_zrange in Hp. rewrite !el_tensor_of by auto with idx. reflexivity.
Qed.
Lemma matmat_slice_throw : forall (a b : sview T) da db f g, shows a da f -> shows b db g ->
  ~ (exists m k n, da = [m; k] /\ db = [k; n]) -> t_matmat_slice a b = Throw InvalidArgument.
Proof.
  intros a b da db f g (Sa & _) (Sb & _) H. unfold t_matmat_slice. rewrite Sa, Sb. unfold rank. cbn [dims shape_of].
  destruct (Z.eqb_spec (Zlen da) 2) as [La|]; [|reflexivity]. destruct (Z.eqb_spec (Zlen db) 2) as [Lb|]; [|reflexivity]. cbn [negb orb].
  unfold Zlen in La, Lb. destruct da as [|m [|k [|]]]; cbn in La; try lia. destruct db as [|k' [|n [|]]]; cbn in Lb; try lia.
  change (rd [m; k] 1) with (Ok k). change (rd [k'; n] 0) with (Ok k'). cbn [bind].
  destruct (Z.eqb_spec k k') as [->|]; [exfalso; eauto 6|reflexivity].
Qed.
(** ** The parallel loop *)
Lemma slice_pairs_ok : forall (a b : sview T) m k n f g i j, shows a [m; k] f -> shows b [k; n] g -> 0 <= i < m -> 0 <= j < n ->
  forall ps, (forall p, In p ps -> 0 <= p < k) -> forall (mm : mem T) acc, holds mm 0 (tdata (sv_orig a)) -> holds mm 1 (tdata (sv_orig b)) ->
  fold_left (fun s q => s_add s (s_mul (mm 0 (fst q)) (mm 1 (snd q)))) (slice_pairs a b i j ps) acc =
  fold_left s_add (map (fun p => s_mul (f [i; p]) (g [p; j])) ps) acc.
Proof.
  intros a b m k n f g i j (_ & _ & _ & Fa) (_ & _ & _ & Fb) Hi Hj.
  induction ps as [|p ps IH]; intros Hp mm acc Ha Hb; [reflexivity|]. cbn [slice_pairs map fold_left].
  assert (Hp' : 0 <= p < k) by (apply Hp; left; auto).
  pose proof (Fa [i; p] ltac:(auto with idx)) as Ea. pose proof (Fb [p; j] ltac:(auto with idx)) as Eb.
  apply bind_ok_inv in Ea as (x & Ex & Ea). apply bind_ok_inv in Eb as (y & Ey & Eb). rewrite Ex, Ey. cbn [fold_left fst snd].
  apply (rd_ok_inv zero) in Ea as [Lx Vx]. apply (rd_ok_inv zero) in Eb as [Ly Vy].
  rewrite (holds_nth mm 0 _ _ Ha), (holds_nth mm 1 _ _ Hb), <- Vx, <- Vy by auto.
  apply IH; auto. intros q Hq. apply Hp. right. auto.
Qed.
Lemma slice_owned : forall (a b : sview T) m k n, 0 <= m -> 0 < n -> owned_by (own_cells [2] (m * n)) (slice_loop a b m k n).
Proof.
  intros a b m k n Hm Hn. unfold slice_loop. rewrite grid_map by lia. apply map_owned. intros q Hq. unfold slice_iter.
  apply within_dot; [intros; split; left; reflexivity|]. intro s. cbn.
  assert (q / n * n + q mod n = q) by (rewrite (Z.div_mod q n) at 3; lia). auto 10.
Qed.
Theorem slice_par : forall (a b : sview T) (r : tensor T) m k n f g mm, shows a [m; k] f -> shows b [k; n] g -> m * n <= INT_MAX ->
  t_matmat_slice a b = Ok r -> holds mm 0 (tdata (sv_orig a)) -> holds mm 1 (tdata (sv_orig b)) ->
  schedule_independent (slice_loop a b m k n) mm /\
  forall m', final (slice_loop a b m k n) mm m' -> holds m' 2 (tdata r).
Proof.
  intros a b r m k n f g mm A B HMN E Ha Hb.
  pose proof A as (_ & Pa & _). pose proof B as (_ & Pb & _).
  destruct (pos2_inv _ _ Pa) as (Hm & Hk). destruct (pos2_inv _ _ Pb) as (_ & Hn).
  pose proof (slice_owned a b m k n ltac:(lia) Hn) as HO.
  pose proof (owned_ok _ _ mm HO) as HS. split; [exact HS|]. intros m' HF. destruct HS as (_ & _ & _ & HS).
  rewrite (matmat_slice_ok a b m k n f g) in E by auto.
  match type of E with Ok ?x = Ok r => assert (Er : r = x) by congruence end. subst r. clear E.
  apply holds_intro. cbn [tdata tensor_of]. assert (HP : prod [m; n] = m * n) by (cbn [prod]; lia). rewrite HP. rewrite Zlen_ztab by nia. intros q Hq. rewrite (HS m' HF).
  assert (Hqq : q / n * n + q mod n = q) by (rewrite (Z.div_mod q n) at 3; lia).
  pose proof (Z.mod_pos_bound q n Hn) as Hmod. assert (Hdiv : 0 <= q / n < m) by (split; [apply Z.div_pos; lia|apply Z.div_lt_upper_bound; lia]).
  rewrite (owned_value _ _ mm (Z.to_nat q) (slice_iter a b k n (q / n) (q mod n)) 2 q HO); [| |apply own_out; auto; lia].
  2:{ unfold slice_loop. rewrite grid_map by lia. apply (map_zrange_nth (fun q => slice_iter a b k n (q / n) (q mod n))). auto. }
  rewrite znth_ztab by lia. unfold slice_iter. rewrite exec_dot. cbn [exec]. rewrite Hqq, mput_eq.
  replace (unravel [m; n] q) with [q / n; q mod n].
  2:{ rewrite <- (unravel_ravel [m; n] [q / n; q mod n]) by (apply in_range2; lia). rewrite ravel2, Hqq. reflexivity. }
  unfold fn2. cbn [nth]. unfold sum_to, fsum. rewrite (slice_pairs_ok a b m k n f g) by (auto; intros p Hp; apply In_zrange in Hp; lia). reflexivity.
Qed.
End S.
