(** * Matrix multiplication *)
From Verif Require Import Base Scalar Types Spec M_Shape M_Tensor M_Adv L_Index L_Shape L_Bcast L_Tensor L_Reduce L_Tensor2 L_Nest.

Lemma in_range1 : forall d i, 0 <= i < d -> in_range [d] [i].
Proof. intros. repeat constructor; auto; lia. Qed.
Lemma in_range2 : forall d0 d1 i j, 0 <= i < d0 -> 0 <= j < d1 -> in_range [d0; d1] [i; j].
Proof. intros. repeat constructor; auto; lia. Qed.
Lemma in_range3 : forall d0 d1 d2 i j k, 0 <= i < d0 -> 0 <= j < d1 -> 0 <= k < d2 -> in_range [d0; d1; d2] [i; j; k].
Proof. intros. repeat constructor; auto; lia. Qed.
Lemma in_range4 : forall d0 d1 d2 d3 i j k l, 0 <= i < d0 -> 0 <= j < d1 -> 0 <= k < d2 -> 0 <= l < d3 ->
  in_range [d0; d1; d2; d3] [i; j; k; l].
Proof. intros. repeat constructor; auto; lia. Qed.

Lemma in_range_1 : forall d idx, in_range [d] idx -> exists i, idx = [i] /\ 0 <= i < d.
Proof. intros d idx H. inversion H as [|? ? ? ? H1 H2]; subst. inversion H2; subst. eauto. Qed.
Lemma in_range_2 : forall d0 d1 idx, in_range [d0; d1] idx -> exists i j, idx = [i; j] /\ 0 <= i < d0 /\ 0 <= j < d1.
Proof.
  intros d0 d1 idx H. inversion H as [|? ? ? ? H1 H2]; subst.
  destruct (in_range_1 _ _ H2) as (j & -> & Hj). eauto 6.
Qed.
Lemma in_range_3 : forall d0 d1 d2 idx, in_range [d0; d1; d2] idx ->
  exists i j k, idx = [i; j; k] /\ 0 <= i < d0 /\ 0 <= j < d1 /\ 0 <= k < d2.
Proof.
  intros d0 d1 d2 idx H. inversion H as [|? ? ? ? H1 H2]; subst.
  destruct (in_range_2 _ _ _ H2) as (j & k & -> & Hj & Hk). eauto 8.
Qed.
Lemma in_range_4 : forall d0 d1 d2 d3 idx, in_range [d0; d1; d2; d3] idx ->
  exists i j k l, idx = [i; j; k; l] /\ 0 <= i < d0 /\ 0 <= j < d1 /\ 0 <= k < d2 /\ 0 <= l < d3.
Proof.
  intros d0 d1 d2 d3 idx H. inversion H as [|? ? ? ? H1 H2]; subst.
  destruct (in_range_3 _ _ _ _ H2) as (j & k & l & -> & Hj & Hk & Hl). eauto 10.
Qed.

Lemma pos1 : forall d, 0 < d -> pos_dims [d].
Proof. intros; split; [discriminate|repeat constructor; auto]. Qed.
Lemma pos2 : forall a b, 0 < a -> 0 < b -> pos_dims [a; b].
Proof. intros; split; [discriminate|repeat constructor; auto]. Qed.
Lemma pos3 : forall a b c, 0 < a -> 0 < b -> 0 < c -> pos_dims [a; b; c].
Proof. intros; split; [discriminate|repeat constructor; auto]. Qed.
Lemma pos4 : forall a b c d, 0 < a -> 0 < b -> 0 < c -> 0 < d -> pos_dims [a; b; c; d].
Proof. intros; split; [discriminate|repeat constructor; auto]. Qed.
#[global] Hint Resolve pos1 pos2 pos3 pos4 in_range1 in_range2 in_range3 in_range4 : idx.
#[global] Hint Extern 1 (_ < _) => lia : idx.
#[global] Hint Extern 1 (_ <= _ < _) => lia : idx.

Lemma ravel1 : forall d i, ravel [d] [i] = i. Proof. intros; simpl; lia. Qed.
Lemma ravel2 : forall a b i j, ravel [a; b] [i; j] = i * b + j. Proof. intros; simpl; lia. Qed.

Section S.
Context {T : Type} {S : Scalar T}.

Lemma good_dims : forall (t : tensor T), good t -> Forall (fun d => 0 < d) (tdims t).
Proof. intros. apply pos_forall, good_pos; auto. Qed.

Lemma dims1_pos : forall (t : tensor T) n, good t -> tdims t = [n] -> 0 < n <= INT_MAX.
Proof.
  intros t n Hg E. pose proof (good_dims t Hg). pose proof (good_max t Hg). rewrite E in *. rewrite !Forall_cons_iff in H. simpl in *. lia.
Qed.
Lemma dims2_pos : forall (t : tensor T) m n, good t -> tdims t = [m; n] -> 0 < m /\ 0 < n /\ m * n <= INT_MAX.
Proof.
  intros t m n Hg E. pose proof (good_dims t Hg). pose proof (good_max t Hg). rewrite E in *.
  rewrite !Forall_cons_iff in H. simpl in *. lia.
Qed.
Lemma dims3_pos : forall (t : tensor T) a b c, good t -> tdims t = [a; b; c] ->
  0 < a /\ 0 < b /\ 0 < c /\ a * b * c <= INT_MAX.
Proof.
  intros t a b c Hg E. pose proof (good_dims t Hg) as H. pose proof (good_max t Hg) as H0. rewrite E in *.
  rewrite !Forall_cons_iff in H. simpl in *. repeat split; try tauto; nia.
Qed.
Lemma dims4_pos : forall (t : tensor T) a b c d, good t -> tdims t = [a; b; c; d] ->
  0 < a /\ 0 < b /\ 0 < c /\ 0 < d /\ a * (b * (c * d)) <= INT_MAX.
Proof.
  intros t a b c d Hg E. pose proof (good_dims t Hg) as H. pose proof (good_max t Hg) as H0. rewrite E in *.
  rewrite !Forall_cons_iff in H. simpl in *. repeat split; try tauto; nia.
Qed.

(** Raw buffer reads of vectors and matrices. *)
Lemma rd_el : forall (t : tensor T) idx q, good t -> in_range (tdims t) idx -> q = ravel (tdims t) idx ->
  rd (tdata t) q = Ok (el t idx).
Proof.
  intros t idx q Hg HI ->. apply rd_ok. rewrite good_len by auto. apply ravel_bound; auto.
Qed.

Lemma ix_ok : forall x w y m, 0 <= x < m -> 0 <= y < w -> m * w <= INT_MAX -> ix x w y = Ok (x * w + y).
Proof.
  intros. unfold ix. rewrite chk32_ok by (unfold INT_MIN; nia). cbn [bind]. apply chk32_ok. unfold INT_MIN; nia.
Qed.

Lemma dot_ok : forall (a b : tensor T) n, good a -> good b -> tdims a = [n] -> tdims b = [n] ->
  t_dot a b = Ok (tensor_of [1] (fn1 (fun _ => sum_to n (fun p => s_mul (el a [p]) (el b [p]))))).
Proof.
  intros a b n Ha Hb Ea Eb. unfold t_dot. rewrite Ea, Eb.
  destruct (dims1_pos a n Ha Ea).
  change (rd [n] 0) with (Ok n). cbn [bind]. rewrite Z.eqb_refl. cbn [negb].
  rewrite (for_fsum n (fun p => s_mul (el a [p]) (el b [p]))).
  - cbn [bind]. unfold new_shape. cbn. reflexivity.
  - intros p acc Hp. rewrite (rd_el a [p]), (rd_el b [p]); auto; rewrite ?Ea, ?Eb, ?ravel1; auto with idx.
Qed.
Lemma dot_throw : forall (a b : tensor T) n m, tdims a = [n] -> tdims b = [m] -> n <> m ->
  t_dot a b = Throw InvalidArgument.
Proof.
  intros a b n m Ea Eb H. unfold t_dot. rewrite Ea, Eb. change (rd [n] 0) with (Ok n). change (rd [m] 0) with (Ok m).
  cbn [bind]. destruct (Z.eqb_spec n m); [lia|reflexivity].
Qed.

Lemma matvec_ok : forall (a b : tensor T) m n, good a -> good b -> tdims a = [m; n] -> tdims b = [n] ->
  t_matvec a b = Ok (tensor_of [m] (fn1 (fun i => sum_to n (fun j => s_mul (el a [i; j]) (el b [j]))))).
Proof.
  intros a b m n Ha Hb Ea Eb. unfold t_matvec. rewrite Ea, Eb.
  destruct (dims2_pos a m n Ha Ea) as (Hm & Hn & HM).
  change (rd [m; n] 0) with (Ok m). change (rd [m; n] 1) with (Ok n). change (rd [n] 0) with (Ok n). cbn [bind].
  rewrite Z.eqb_refl. cbn [negb]. rewrite new_shape_ok_int by (auto with idx; simpl; nia). cbn [bind].
  rewrite (for1_nest m).
  rewrite (nest_write [m] (fn1 (fun i => sum_to n (fun j => s_mul (el a [i; j]) (el b [j]))))).
  - reflexivity.
  - auto with idx.
  - cbn [ssize shape_of]. apply Zlen_zrepeat. simpl; lia.
  - intros idx o HI HL. destruct (in_range_1 _ _ HI) as (i & -> & Hi). cbn [nth].
    rewrite (for_fsum n (fun j => s_mul (el a [i; j]) (el b [j]))).
    + cbn [bind]. rewrite ravel1. unfold fn1; cbn [nth]. apply wr_ok. rewrite HL; simpl; lia.
    + intros j acc Hj. rewrite (ix_ok i n j m) by auto. cbn [bind].
      rewrite (rd_el a [i; j]), (rd_el b [j]); auto; rewrite ?Ea, ?Eb, ?ravel1, ?ravel2; auto with idx.
Qed.
Lemma matvec_throw : forall (a b : tensor T) m n k, tdims a = [m; n] -> tdims b = [k] -> n <> k ->
  t_matvec a b = Throw InvalidArgument.
Proof.
  intros a b m n k Ea Eb H. unfold t_matvec. rewrite Ea, Eb. change (rd [m; n] 0) with (Ok m). change (rd [m; n] 1) with (Ok n).
  change (rd [k] 0) with (Ok k). cbn [bind]. destruct (Z.eqb_spec n k); [lia|reflexivity].
Qed.

Definition mm (k : Z) (a b : tensor T) (i j : Z) : T := sum_to k (fun p => s_mul (el a [i; p]) (el b [p; j])).

Lemma matmat_ok : forall (a b : tensor T) m k n, good a -> good b -> tdims a = [m; k] -> tdims b = [k; n] ->
  m * n <= INT_MAX -> t_matmat a b = Ok (tensor_of [m; n] (fn2 (mm k a b))).
Proof.
  intros a b m k n Ha Hb Ea Eb HM. unfold t_matmat. rewrite Ea, Eb.
  destruct (dims2_pos a m k Ha Ea) as (Hm & Hk & HMa). destruct (dims2_pos b k n Hb Eb) as (_ & Hn & HMb).
  change (rd [m; k] 0) with (Ok m). change (rd [m; k] 1) with (Ok k). change (rd [k; n] 0) with (Ok k).
  change (rd [k; n] 1) with (Ok n). cbn [bind].
  rewrite Z.eqb_refl. cbn [negb]. rewrite new_shape_ok_int by (auto with idx; simpl; nia). cbn [bind].
  rewrite (for2_nest m n).
  rewrite (nest_write [m; n] (fn2 (mm k a b))).
  - reflexivity.
  - auto with idx.
  - cbn [ssize shape_of]. apply Zlen_zrepeat. simpl; nia.
  - intros idx o HI HL. destruct (in_range_2 _ _ _ HI) as (i & j & -> & Hi & Hj). cbn [nth].
    rewrite (for_fsum k (fun p => s_mul (el a [i; p]) (el b [p; j]))).
    + cbn [bind]. rewrite ravel2. rewrite (ix_ok i n j m) by auto. cbn [bind].
      unfold fn2; cbn [nth]. apply wr_ok. rewrite HL; simpl; nia.
    + intros p acc Hp. rewrite (ix_ok i k p m), (ix_ok p n j k) by auto. cbn [bind].
      rewrite (rd_el a [i; p]), (rd_el b [p; j]); auto; rewrite ?Ea, ?Eb, ?ravel2; auto with idx.
Qed.
Lemma matmat_throw : forall (a b : tensor T) m k k' n, tdims a = [m; k] -> tdims b = [k'; n] -> k <> k' ->
  t_matmat a b = Throw InvalidArgument.
Proof.
  intros a b m k k' n Ea Eb H. unfold t_matmat. rewrite Ea, Eb. change (rd [m; k] 0) with (Ok m).
  change (rd [m; k] 1) with (Ok k). change (rd [k'; n] 0) with (Ok k'). change (rd [k'; n] 1) with (Ok n).
  cbn [bind]. destruct (Z.eqb_spec k k'); [lia|reflexivity].
Qed.

Lemma mm23_ok : forall (a b : tensor T) o k nb s, good a -> good b -> tdims a = [o; k] -> tdims b = [nb; k; s] ->
  nb * o * s <= INT_MAX ->
  t_mm23 a b = Ok (tensor_of [nb; o; s] (fn3 (fun n i j => sum_to k (fun p => s_mul (el a [i; p]) (el b [n; p; j]))))).
Proof.
  intros a b o k nb s Ha Hb Ea Eb HM. unfold t_mm23. rewrite Ea, Eb.
  destruct (dims2_pos a o k Ha Ea) as (Ho & Hk & HMa). destruct (dims3_pos b nb k s Hb Eb) as (Hnb & _ & Hs & HMb).
  change (rd [o; k] 0) with (Ok o). change (rd [o; k] 1) with (Ok k). change (rd [nb; k; s] 0) with (Ok nb).
  change (rd [nb; k; s] 1) with (Ok k). change (rd [nb; k; s] 2) with (Ok s). cbn [bind].
  rewrite Z.eqb_refl. cbn [negb]. assert (HP : pos_dims [nb; o; s]) by auto with idx.
  assert (HX : prod [nb; o; s] <= INT_MAX) by (simpl; nia).
  rewrite new_shape_ok_int by auto. cbn [bind].
  rewrite (for3_nest nb o s).
  apply nest_set.
  - apply good_fill; auto.
  - reflexivity.
  - intros idx t HI Hg HD. destruct (in_range_3 _ _ _ _ HI) as (n & i & j & -> & Hn & Hi & Hj). cbn [nth].
    rewrite (for_fsum k (fun p => s_mul (el a [i; p]) (el b [n; p; j]))).
    + cbn [bind]. unfold fn3; cbn [nth]. apply t_at_set_ok; auto. rewrite HD; auto.
    + intros p acc Hp. rewrite !t_at_ok; auto; rewrite ?Ea, ?Eb; auto with idx.
Qed.
Lemma mm23_throw : forall (a b : tensor T) o k nb k' s, tdims a = [o; k] -> tdims b = [nb; k'; s] -> k <> k' ->
  t_mm23 a b = Throw InvalidArgument.
Proof.
  intros a b o k nb k' s Ea Eb H. unfold t_mm23. rewrite Ea, Eb.
  change (rd [o; k] 0) with (Ok o). change (rd [o; k] 1) with (Ok k). change (rd [nb; k'; s] 0) with (Ok nb).
  change (rd [nb; k'; s] 1) with (Ok k'). change (rd [nb; k'; s] 2) with (Ok s). cbn [bind].
  destruct (Z.eqb_spec k k'); [lia|reflexivity].
Qed.

Lemma mm32_ok : forall (a b : tensor T) nb m k p, good a -> good b -> tdims a = [nb; m; k] -> tdims b = [k; p] ->
  nb * m * p <= INT_MAX ->
  t_mm32 a b = Ok (tensor_of [nb; m; p] (fn3 (fun n i j => sum_to k (fun q => s_mul (el a [n; i; q]) (el b [q; j]))))).
Proof.
  intros a b nb m k s Ha Hb Ea Eb HM. unfold t_mm32. rewrite Ea, Eb.
  destruct (dims3_pos a nb m k Ha Ea) as (Hnb & Hm & Hk & HMa). destruct (dims2_pos b k s Hb Eb) as (_ & Hs & HMb).
  change (rd [k; s] 0) with (Ok k). change (rd [k; s] 1) with (Ok s). change (rd [nb; m; k] 0) with (Ok nb).
  change (rd [nb; m; k] 1) with (Ok m). change (rd [nb; m; k] 2) with (Ok k). cbn [bind].
  rewrite Z.eqb_refl. cbn [negb]. assert (HP : pos_dims [nb; m; s]) by auto with idx.
  assert (HX : prod [nb; m; s] <= INT_MAX) by (simpl; nia).
  rewrite new_shape_ok_int by auto. cbn [bind].
  rewrite (for3_nest nb m s).
  apply nest_set.
  - apply good_fill; auto.
  - reflexivity.
  - intros idx t HI Hg HD. destruct (in_range_3 _ _ _ _ HI) as (n & i & j & -> & Hn & Hi & Hj). cbn [nth].
    rewrite (for_fsum k (fun p => s_mul (el a [n; i; p]) (el b [p; j]))).
    + cbn [bind]. unfold fn3; cbn [nth]. apply t_at_set_ok; auto. rewrite HD; auto.
    + intros p acc Hp. rewrite !t_at_ok; auto; rewrite ?Ea, ?Eb; auto with idx.
Qed.
Lemma mm32_throw : forall (a b : tensor T) nb m k k' p, tdims a = [nb; m; k] -> tdims b = [k'; p] -> k <> k' ->
  t_mm32 a b = Throw InvalidArgument.
Proof.
  intros a b nb m k k' s Ea Eb H. unfold t_mm32. rewrite Ea, Eb.
  change (rd [k'; s] 0) with (Ok k'). change (rd [k'; s] 1) with (Ok s). change (rd [nb; m; k] 0) with (Ok nb).
  change (rd [nb; m; k] 1) with (Ok m). change (rd [nb; m; k] 2) with (Ok k). cbn [bind].
  destruct (Z.eqb_spec k k'); [lia|reflexivity].
Qed.

(** ** Equal-rank batches *)
Definition batch_body (m n k : Z) (a b : tensor T) (bidx : list Z) : tensor T -> outcome (tensor T) :=
  for_ 0 m (fun i => for_ 0 n (fun j res =>
                sum <- for_ 0 k (fun p acc =>
                         x <- t_at a (bidx ++ [i; p]) ;; y <- t_at b (bidx ++ [p; j]) ;;
                         Ok (s_add acc (s_mul x y))) zero ;;
                t_at_set res (bidx ++ [i; j]) sum)).

Lemma batch_loop_eq : forall bds m n k a b, Forall (fun d => 0 < d) bds -> forall fuel q res,
  0 <= q < prod bds -> prod bds - q <= Z.of_nat fuel ->
  batch_loop fuel bds m n k a b (unravel bds q) res =
  foldM (fun q => batch_body m n k a b (unravel bds q)) (zrange q (prod bds)) res.
Proof.
  intros bds m n k a b HF. induction fuel as [|fuel IH]; intros q res Hq Hf; [lia|].
  simpl. rewrite (zrange_cons q) by lia. simpl. unfold batch_body at 1. apply bind_ext. intros res' _.
  destruct (Z.eq_dec (q + 1) (prod bds)) as [E|E].
  - rewrite incr_last by (auto; lia). rewrite zrange_nil by lia. reflexivity.
  - rewrite incr_unravel by (auto; lia). apply IH; lia.
Qed.

Lemma batch_loop_nest : forall bds m n k a b fuel res, Forall (fun d => 0 < d) bds -> prod bds <= Z.of_nat fuel ->
  batch_loop fuel bds m n k a b (repeat 0 (length bds)) res = nest bds (batch_body m n k a b) res.
Proof.
  intros. rewrite <- unravel_zero by auto. pose proof (prod_pos _ H). rewrite batch_loop_eq by (auto; lia).
  rewrite nest_flat by auto. reflexivity.
Qed.

Lemma Forall_app2 : forall {A} (P : A -> Prop) l1 l2, Forall P (l1 ++ l2) <-> Forall P l1 /\ Forall P l2.
Proof. intros. apply Forall_app. Qed.

Lemma split_last2 : forall (l : list Z), (2 <= length l)%nat -> exists b m n, l = b ++ [m; n].
Proof.
  intros l H. exists (firstn (length l - 2) l). pose proof (firstn_skipn (length l - 2) l) as E.
  assert (HL : length (skipn (length l - 2) l) = 2%nat) by (rewrite skipn_length; lia).
  destruct (skipn (length l - 2) l) as [|m [|n [|]]]; simpl in HL; try lia. eauto.
Qed.

Lemma rd_app_l : forall (b c : list Z) i, rd (b ++ c) (Zlen b + i) = if i <? 0 then rd (b ++ c) (Zlen b + i) else rd c i.
Proof.
  intros b c i. destruct (Z.ltb_spec i 0) as [|Hi]; auto. unfold rd.
  destruct (Z.ltb_spec (Zlen b + i) 0), (Z.ltb_spec i 0); try (pose proof (Zlen_nonneg b); lia).
  unfold Zlen. rewrite nth_error_app2 by lia. replace (Z.to_nat (Z.of_nat (length b) + i) - length b)%nat with (Z.to_nat i) by lia.
  reflexivity.
Qed.

Definition bmax (x y : list Z) : list Z := map (fun p => Z.max (fst p) (snd p)) (combine x y).

Lemma combine_app : forall {A B} (a c : list A) (b d : list B), length a = length b ->
  combine (a ++ c) (b ++ d) = combine a b ++ combine c d.
Proof. induction a; destruct b; simpl; intros; try lia; auto. f_equal. apply IHa. lia. Qed.

Lemma batched_unfold : forall (a b : tensor T) x y m k k' n, tdims a = x ++ [m; k] -> tdims b = y ++ [k'; n] ->
  length x = length y -> x <> [] ->
  t_batched a b = if k =? k' then
    (s <- new_shape (bmax x y ++ [m; n]) ;;
     batch_loop (Z.to_nat (ssize s)) (bmax x y) m n k a b (repeat 0 (length (bmax x y))) (t_fill s zero))
    else Throw InvalidArgument.
Proof.
  intros a b x y m k k' n Ea Eb HL Hx. unfold t_batched, rank. fold (tdims a) (tdims b). rewrite Ea, Eb.
  assert (Hl : (0 < length x)%nat) by (destruct x; simpl; [congruence|lia]).
  assert (R : Zlen (y ++ [k'; n]) = Zlen (x ++ [m; k])) by (rewrite !Zlen_app; unfold Zlen; simpl length; lia).
  rewrite R. assert (R2 : Zlen (x ++ [m; k]) = Zlen x + 2) by (rewrite Zlen_app; reflexivity). rewrite R2.
  assert (HZ : Zlen x = Zlen y) by (unfold Zlen; lia). assert (0 < Zlen x) by (unfold Zlen; lia).
  destruct (Z.eqb_spec (Zlen x + 2) 2) as [?|_]; [lia|]. rewrite andb_false_r. cbn [andb].
  rewrite Z.eqb_refl. cbn [negb]. destruct (Z.ltb_spec (Zlen x + 2) 3); [lia|].
  replace (Zlen x + 2 - 1) with (Zlen x + 1) by lia. replace (Zlen x + 2 - 2) with (Zlen x + 0) by lia.
  rewrite rd_app_l. change (1 <? 0) with false. cbn [rd]. change (rd [m; k] 1) with (Ok k). cbn [bind].
  rewrite HZ at 1. rewrite rd_app_l. change (0 <? 0) with false. change (rd [k'; n] 0) with (Ok k'). cbn [bind].
  destruct (Z.eqb_spec k k') as [->|Hne]; [|reflexivity]. cbn [negb].
  rewrite rd_app_l. change (0 <? 0) with false. change (rd [m; k'] 0) with (Ok m). cbn [bind].
  rewrite HZ at 1. rewrite rd_app_l. change (1 <? 0) with false. change (rd [k'; n] 1) with (Ok n). cbn [bind].
  rewrite combine_app by auto. rewrite firstn_app.
  replace (Z.to_nat (Zlen x + 0)) with (length (combine x y)) by (rewrite combine_length; unfold Zlen; lia).
  rewrite firstn_all, Nat.sub_diag. cbn [firstn]. rewrite app_nil_r. fold (bmax x y).
  apply bind_ext. intros s _. f_equal. unfold zrepeat. f_equal. unfold bmax. rewrite map_length, combine_length.
  unfold Zlen. lia.
Qed.

Lemma bmax_same : forall x, bmax x x = x.
Proof. induction x; simpl; auto. unfold bmax in *. simpl. f_equal; [lia|auto]. Qed.
Lemma bmax_length : forall x y, length x = length y -> length (bmax x y) = length x.
Proof. intros. unfold bmax. rewrite map_length, combine_length. lia. Qed.

Lemma in_range_app2 : forall a b i j, length i = length a -> in_range (a ++ b) (i ++ j) <-> in_range a i /\ in_range b j.
Proof.
  induction a; destruct i; simpl; intros j HL; try lia.
  - split; intro H; [split; [constructor|auto]|tauto].
  - rewrite !in_range_cons. rewrite IHa by lia. tauto.
Qed.

Lemma batched_ok : forall (a b : tensor T) x m k n, good a -> good b ->
  tdims a = x ++ [m; k] -> tdims b = x ++ [k; n] -> x <> [] -> prod (x ++ [m; n]) <= INT_MAX ->
  t_batched a b = Ok (tensor_of (x ++ [m; n]) (fun idx =>
     let bi := firstn (length x) idx in let i := nth (length x) idx 0 in let j := nth (length x + 1) idx 0 in
     sum_to k (fun p => s_mul (el a (bi ++ [i; p])) (el b (bi ++ [p; j]))))).
Proof.
  intros a b x m k n Ha Hb Ea Eb Hx HM.
  rewrite (batched_unfold a b x x m k k n) by auto. rewrite Z.eqb_refl, bmax_same.
  pose proof (good_dims a Ha) as Fa. pose proof (good_dims b Hb) as Fb. rewrite Ea in Fa. rewrite Eb in Fb.
  apply Forall_app in Fa, Fb. destruct Fa as [Fx Fa], Fb as [_ Fb].
  inversion Fa as [|? ? Hm Fa2]; subst. inversion Fb as [|? ? Hk Fb2]; subst. inversion Fb2 as [|? ? Hn _]; subst.
  assert (HP : pos_dims (x ++ [m; n])).
  { split; [destruct x; discriminate|]. apply Forall_app; split; auto. }
  rewrite new_shape_ok_int by auto. cbn [bind].
  assert (H0 : 0 < prod x) by (apply prod_pos; auto).
  rewrite batch_loop_nest; auto.
  2:{ cbn [ssize shape_of]. rewrite prod_app. simpl. assert (0 < m * n) by nia. rewrite Z2Nat.id by nia. nia. }
  rewrite (nest_ext x _ (fun bi => nest [m; n] (fun ij res =>
             sum <- for_ 0 k (fun p acc =>
                         x <- t_at a (bi ++ [nth 0 ij 0; p]) ;; y <- t_at b (bi ++ [p; nth 1 ij 0]) ;;
                         Ok (s_add acc (s_mul x y))) zero ;;
                t_at_set res (bi ++ [nth 0 ij 0; nth 1 ij 0]) sum))) by reflexivity.
  pose (B := fun idx res => let bi := firstn (length x) idx in let i := nth (length x) idx 0 in let j := nth (length x + 1) idx 0 in
               sum <- for_ 0 k (fun p acc =>
                         x <- t_at a (bi ++ [i; p]) ;; y <- t_at b (bi ++ [p; j]) ;;
                         Ok (s_add acc (s_mul x y))) zero ;;
                t_at_set res (bi ++ [i; j]) sum).
  rewrite (nest_ext x _ (fun bi => nest [m; n] (fun ij => B (bi ++ ij)))).
  2:{ intros bi s Hbi. apply nest_ext. intros ij s' Hij. unfold B. cbv zeta. pose proof (in_range_length _ _ Hbi) as HL.
      rewrite <- HL. rewrite firstn_app, firstn_all, Nat.sub_diag. cbn [firstn]. rewrite app_nil_r.
      rewrite !app_nth2 by lia. rewrite Nat.sub_diag. replace (length bi + 1 - length bi)%nat with 1%nat by lia. reflexivity. }
  rewrite <- (nest_app x [m; n] B). apply nest_set.
  - apply good_fill; auto.
  - reflexivity.
  - intros idx o HI Hg HD. unfold B. cbv zeta.
    pose proof (in_range_length _ _ HI) as HL. rewrite app_length in HL. simpl in HL.
    destruct (split_last2 idx) as (bi & i & j & ->); [lia|]. rewrite app_length in HL; simpl in HL.
    assert (HLb : length bi = length x) by lia.
    rewrite <- HLb. rewrite firstn_app, firstn_all, Nat.sub_diag. cbn [firstn]. rewrite app_nil_r.
    rewrite !app_nth2 by lia. rewrite Nat.sub_diag. replace (length bi + 1 - length bi)%nat with 1%nat by lia. cbn [nth].
    apply in_range_app2 in HI; auto. destruct HI as [HIb HI2].
    destruct (in_range_2 _ _ _ HI2) as (i' & j' & Eij & Hi & Hj). injection Eij as -> ->.
    rewrite (for_fsum k (fun p => s_mul (el a (bi ++ [i'; p])) (el b (bi ++ [p; j'])))).
    + cbn [bind]. apply t_at_set_ok; auto. rewrite HD. apply in_range_app2; auto.
    + intros p acc Hp. rewrite !t_at_ok; auto; rewrite ?Ea, ?Eb; apply in_range_app2; auto with idx.
Qed.


(** A loop in which every step succeeds or throws [e], and one step must throw. *)
Lemma foldM_throws : forall {A St} (f : A -> St -> outcome St) (P : St -> Prop) e l s,
  P s -> (forall a s, In a l -> P s -> (exists s', f a s = Ok s' /\ P s') \/ f a s = Throw e) ->
  (exists a, In a l /\ forall s, P s -> f a s = Throw e) -> foldM f l s = Throw e.
Proof.
  induction l as [|x l IH]; intros s HP Hs (a & HI & Ha); [destruct HI|]. simpl.
  destruct (Hs x s) as [(s' & E & HP')|E]; simpl; auto; rewrite E; [|reflexivity]. simpl.
  destruct HI as [->|HI]; [rewrite Ha in E by auto; discriminate|].
  apply IH; auto; [|eauto]. intros; apply Hs; auto. right; auto.
Qed.

Lemma batch_body_ok : forall (a b : tensor T) x y m k n bds bi o, good a -> good b -> good o ->
  tdims a = x ++ [m; k] -> tdims b = y ++ [k; n] -> tdims o = bds ++ [m; n] ->
  in_range bds bi -> in_range x bi -> in_range y bi ->
  exists o', batch_body m n k a b bi o = Ok o' /\ good o' /\ tdims o' = bds ++ [m; n].
Proof.
  intros a b x y m k n bds bi o Ha Hb Go Ea Eb Eo Hi1 Hi2 Hi3. unfold batch_body.
  pose proof (good_dims o Go) as Fo. rewrite Eo in Fo. apply Forall_app in Fo. destruct Fo as [_ Fo].
  rewrite (for2_nest m n).
  destruct (nest_inv (fun _ (o : tensor T) => good o /\ tdims o = bds ++ [m; n]) [m; n]
     (fun idx res => sum <- for_ 0 k (fun p acc =>
                         x <- t_at a (bi ++ [nth 0 idx 0; p]) ;; y <- t_at b (bi ++ [p; nth 1 idx 0]) ;;
                         Ok (s_add acc (s_mul x y))) zero ;;
                t_at_set res (bi ++ [nth 0 idx 0; nth 1 idx 0]) sum) o) as (o' & E & H); eauto.
  intros q s Hq (Gs & Es). pose proof (unravel_range [m; n] q Fo Hq) as HR.
  destruct (in_range_2 _ _ _ HR) as (i & j & -> & Hi & Hj). cbn [nth].
  rewrite (for_fsum k (fun p => s_mul (el a (bi ++ [i; p])) (el b (bi ++ [p; j])))).
  - cbn [bind]. rewrite t_at_set_ok; auto.
    + eexists; split; [reflexivity|]. split; [apply good_set_el; auto|exact Es].
    + rewrite Es. apply in_range_app2; [apply in_range_length; auto|auto with idx].
  - intros p acc Hp. rewrite !t_at_ok; auto; rewrite ?Ea, ?Eb; (apply in_range_app2; [apply in_range_length; auto|auto with idx]).
Qed.

Lemma batch_body_throw : forall (a b : tensor T) x y m k n bi o, good a -> good b ->
  tdims a = x ++ [m; k] -> tdims b = y ++ [k; n] -> length bi = length x -> length bi = length y ->
  0 < m -> 0 < n -> 0 < k -> ~ (in_range x bi /\ in_range y bi) ->
  batch_body m n k a b bi o = Throw OutOfRange.
Proof.
  intros a b x y m k n bi o Ha Hb Ea Eb Lx Ly Hm Hn Hk HN. unfold batch_body, for_.
  rewrite (zrange_cons 0 m), (zrange_cons 0 n), (zrange_cons 0 k) by lia. cbn [foldM].
  destruct (in_range_dec x bi) as [Hx|Hx].
  - rewrite (t_at_ok a); auto; [|rewrite Ea; apply in_range_app2; auto; split; auto; apply in_range2; lia]. cbn [bind].
    rewrite (t_at_fail b); auto.
    + rewrite Eb, !app_length, Ly. simpl. rewrite Nat.eqb_refl. reflexivity.
    + rewrite Eb. rewrite in_range_app2 by auto. tauto.
  - rewrite (t_at_fail a); auto.
    + rewrite Ea, !app_length, Lx. simpl. rewrite Nat.eqb_refl. reflexivity.
    + rewrite Ea. rewrite in_range_app2 by auto. tauto.
Qed.

Lemma bmax_top : forall x y, length x = length y ->
  in_range x (map (fun d => d - 1) (bmax x y)) -> in_range y (map (fun d => d - 1) (bmax x y)) -> x = y.
Proof.
  induction x as [|a x IH]; destruct y as [|b y]; simpl; intros HL HX HY; try lia; auto.
  unfold bmax in HX, HY; simpl in HX, HY. apply in_range_cons in HX, HY. f_equal; [lia|]. apply IH; [lia|tauto..].
Qed.
Lemma bmax_pos : forall x y, Forall (fun d => 0 < d) x -> Forall (fun d => 0 < d) (bmax x y).
Proof.
  intros x y H; revert y. induction H; destruct y; simpl; constructor; simpl; [lia|]. apply IHForall.
Qed.
Lemma top_range : forall l, Forall (fun d => 0 < d) l -> in_range l (map (fun d => d - 1) l).
Proof. induction 1; simpl; constructor; auto; lia. Qed.

Lemma batched_mismatch : forall (a b : tensor T) x y m k n, good a -> good b ->
  tdims a = x ++ [m; k] -> tdims b = y ++ [k; n] -> length x = length y -> x <> y ->
  prod (bmax x y ++ [m; n]) <= INT_MAX -> t_batched a b = Throw OutOfRange.
Proof.
  intros a b x y m k n Ha Hb Ea Eb HL Hne HM.
  rewrite (batched_unfold a b x y m k k n); auto; [|intro; subst; destruct y; [auto|discriminate]]. rewrite Z.eqb_refl.
  pose proof (good_dims a Ha) as Fa. pose proof (good_dims b Hb) as Fb. rewrite Ea in Fa. rewrite Eb in Fb.
  apply Forall_app in Fa, Fb. destruct Fa as [Fx Fa], Fb as [_ Fb]. rewrite !Forall_cons_iff in Fa, Fb.
  destruct Fa as (Hm & Hk & _), Fb as (_ & Hn & _). pose proof (bmax_pos x y Fx) as FM. pose proof (bmax_length x y HL) as LM.
  assert (HP : pos_dims (bmax x y ++ [m; n])).
  { split; [destruct (bmax x y); discriminate|]. apply Forall_app; split; auto. }
  rewrite new_shape_ok_int by auto. cbn [bind].
  assert (H0 : 0 < prod (bmax x y)) by (apply prod_pos; auto).
  rewrite batch_loop_nest; auto.
  2:{ cbn [ssize shape_of]. rewrite prod_app. simpl. assert (0 < m * n) by nia. rewrite Z2Nat.id by nia. nia. }
  rewrite nest_flat by auto. unfold for_.
  apply (foldM_throws _ (fun o : tensor T => good o /\ tdims o = bmax x y ++ [m; n])).
  - split; [apply good_fill; auto|reflexivity].
  - intros q o Hq (Go & Eo). apply In_zrange in Hq. pose proof (unravel_range _ _ FM Hq) as HR.
    pose proof (in_range_length _ _ HR) as LR.
    destruct (in_range_dec x (unravel (bmax x y) q)) as [Hx|Hx]; [destruct (in_range_dec y (unravel (bmax x y) q)) as [Hy|Hy]|].
    + left. eapply (batch_body_ok a b x y); eauto.
    + right. apply (batch_body_throw a b x y); auto; try lia. tauto.
    + right. apply (batch_body_throw a b x y); auto; try lia. tauto.
  - pose proof (top_range _ FM) as HT. exists (ravel (bmax x y) (map (fun d => d - 1) (bmax x y))).
    split; [apply In_zrange, ravel_bound; auto|]. intros o _. rewrite unravel_ravel by auto.
    apply (batch_body_throw a b x y); auto; rewrite ?map_length; try lia.
    intros [HX HY]. apply Hne. apply bmax_top; auto.
Qed.

(** ** The dispatcher *)
Lemma matmul_11 : forall (a b : tensor T) n, good a -> good b -> tdims a = [n] -> tdims b = [n] ->
  t_matmul a b = Ok (tensor_of [1] (fn1 (fun _ => sum_to n (fun p => s_mul (el a [p]) (el b [p]))))).
Proof.
  intros a b n Ha Hb Ea Eb. unfold t_matmul, rank. fold (tdims a) (tdims b).
  rewrite <- (dot_ok a b n) by auto. rewrite Ea, Eb. reflexivity.
Qed.
Lemma matmul_22 : forall (a b : tensor T) m k n, good a -> good b -> tdims a = [m; k] -> tdims b = [k; n] ->
  m * n <= INT_MAX ->
  t_matmul a b = Ok (tensor_of [m; n] (fn2 (fun i j => sum_to k (fun p => s_mul (el a [i; p]) (el b [p; j]))))).
Proof.
  intros a b m k n Ha Hb Ea Eb HM. unfold t_matmul, rank. fold (tdims a) (tdims b).
  change (fn2 _) with (fn2 (mm k a b)). rewrite <- (matmat_ok a b m k n) by auto. rewrite Ea, Eb. reflexivity.
Qed.
Lemma matmul_21 : forall (a b : tensor T) m n, good a -> good b -> tdims a = [m; n] -> tdims b = [n] ->
  t_matmul a b = Ok (tensor_of [m] (fn1 (fun i => sum_to n (fun p => s_mul (el a [i; p]) (el b [p]))))).
Proof.
  intros a b m n Ha Hb Ea Eb. unfold t_matmul, rank. fold (tdims a) (tdims b).
  rewrite <- (matvec_ok a b m n) by auto. rewrite Ea, Eb. reflexivity.
Qed.
Lemma matmul_12 : forall (a b : tensor T) k n, good a -> good b -> tdims a = [k] -> tdims b = [k; n] ->
  t_matmul a b = Ok (tensor_of [n] (fn1 (fun j => sum_to k (fun p => s_mul (el a [p]) (el b [p; j]))))).
Proof.
  intros a b k n Ha Hb Ea Eb. unfold t_matmul, rank. fold (tdims a) (tdims b).
  destruct (dims1_pos a k Ha Ea) as [Hk HMa]. destruct (dims2_pos b k n Hb Eb) as (_ & Hn & HMb).
  rewrite Ea, Eb. change (Zlen [k]) with 1. change (Zlen [k; n]) with 2. cbn [Z.eqb Pos.eqb andb].
  change (1 =? 1) with true. change (2 =? 1) with false. change (1 =? 2) with false. change (2 =? 2) with true. cbn [andb].
  change (rd [k] 0) with (Ok k). cbn [bind]. rewrite new_shape_ok_int by (auto with idx; simpl; lia). cbn [bind].
  change (dims (shape_of [1; k])) with [1; k].
  rewrite t_reshape_ok by (auto with idx; rewrite Ea; simpl; lia). cbn [bind].
  set (a' := mkTensor (shape_of [1; k]) (tdata a)).
  assert (Ga : good a'). { apply good_mk; auto with idx. simpl; lia. rewrite good_len, Ea by auto. simpl; lia. }
  rewrite (matmat_ok a' b 1 k n); auto; [|nia]. cbn [bind].
  change (tdims (tensor_of [1; n] (fn2 (mm k a' b)))) with [1; n]. change (rd [1; n] 1) with (Ok n). cbn [bind].
  rewrite new_shape_ok_int by (auto with idx; simpl; nia). cbn [bind]. change (dims (shape_of [n])) with [n].
  assert (Gr : good (tensor_of [1; n] (fn2 (mm k a' b)))) by (apply good_tensor_of; auto with idx; simpl; nia).
  rewrite t_reshape_ok; auto with idx; [|simpl; lia]. f_equal.
  rewrite reshaped_tensor_of; auto with idx; [|simpl; lia].
  apply tensor_of_ext; [auto with idx|]. intros idx HI. destruct (in_range_1 _ _ HI) as (j & -> & Hj).
  change (tdims (tensor_of [1; n] (fn2 (mm k a' b)))) with [1; n].
  replace (ravel [n] [j]) with (ravel [1; n] [0; j]) by (simpl; lia).
  rewrite unravel_ravel by auto with idx. rewrite el_tensor_of by auto with idx.
  unfold fn2, fn1, mm, sum_to; cbn [nth]. f_equal. apply map_ext. intros p.
  f_equal. unfold el, a', tdims. cbn [tshape tdata dims shape_of]. fold (tdims a). rewrite Ea. f_equal.
Qed.
Lemma matmul_32 : forall (a b : tensor T) nb m k p, good a -> good b -> tdims a = [nb; m; k] -> tdims b = [k; p] ->
  nb * m * p <= INT_MAX ->
  t_matmul a b = Ok (tensor_of [nb; m; p] (fn3 (fun n i j => sum_to k (fun q => s_mul (el a [n; i; q]) (el b [q; j]))))).
Proof.
  intros a b nb m k p Ha Hb Ea Eb HM. unfold t_matmul, t_batched, rank. fold (tdims a) (tdims b).
  rewrite <- (mm32_ok a b nb m k p) by auto. rewrite Ea, Eb. reflexivity.
Qed.
Lemma matmul_23 : forall (a b : tensor T) o k nb s, good a -> good b -> tdims a = [o; k] -> tdims b = [nb; k; s] ->
  nb * o * s <= INT_MAX ->
  t_matmul a b = Ok (tensor_of [nb; o; s] (fn3 (fun n i j => sum_to k (fun p => s_mul (el a [i; p]) (el b [n; p; j]))))).
Proof.
  intros a b o k nb s Ha Hb Ea Eb HM. unfold t_matmul, t_batched, rank. fold (tdims a) (tdims b).
  rewrite <- (mm23_ok a b o k nb s) by auto. rewrite Ea, Eb. reflexivity.
Qed.

Lemma matmul_to_batched : forall (a b : tensor T), (2 < length (tdims a) \/ 2 < length (tdims b))%nat ->
  t_matmul a b = t_batched a b.
Proof.
  intros a b H. unfold t_matmul, rank. fold (tdims a) (tdims b). unfold Zlen.
  destruct (Z.eqb_spec (Z.of_nat (length (tdims a))) 1), (Z.eqb_spec (Z.of_nat (length (tdims b))) 1),
    (Z.eqb_spec (Z.of_nat (length (tdims a))) 2), (Z.eqb_spec (Z.of_nat (length (tdims b))) 2); try lia; cbn [andb];
  destruct (Z.ltb_spec 2 (Z.of_nat (length (tdims a)))), (Z.ltb_spec 2 (Z.of_nat (length (tdims b)))); try lia; reflexivity.
Qed.
Lemma matmul_batched : forall (a b : tensor T) x m k n, good a -> good b ->
  tdims a = x ++ [m; k] -> tdims b = x ++ [k; n] -> x <> [] -> prod (x ++ [m; n]) <= INT_MAX ->
  t_matmul a b = Ok (tensor_of (x ++ [m; n]) (fun idx =>
     let bi := firstn (length x) idx in let i := nth (length x) idx 0 in let j := nth (length x + 1) idx 0 in
     sum_to k (fun p => s_mul (el a (bi ++ [i; p])) (el b (bi ++ [p; j]))))).
Proof.
  intros a b x m k n Ha Hb Ea Eb Hx HM. rewrite matmul_to_batched; [apply batched_ok; auto|].
  left. rewrite Ea, app_length. destruct x; [congruence|simpl; lia].
Qed.
Lemma matmul_batch_mismatch : forall (a b : tensor T) x y m k n, good a -> good b ->
  tdims a = x ++ [m; k] -> tdims b = y ++ [k; n] -> length x = length y -> x <> y ->
  prod (bmax x y ++ [m; n]) <= INT_MAX -> t_matmul a b = Throw OutOfRange.
Proof.
  intros a b x y m k n Ha Hb Ea Eb HL Hne HM. rewrite matmul_to_batched; [apply (batched_mismatch a b x y m k n); auto|].
  left. rewrite Ea, app_length. destruct x; [destruct y; [congruence|discriminate]|simpl; lia].
Qed.

Lemma matmul_rejects : forall (a b : tensor T), good a -> good b ->
  match inner_dims (tdims a) (tdims b) with Some (n, m) => n <> m | None => True end ->
  t_matmul a b = Throw InvalidArgument.
Proof.
  intros a b Ha Hb.
  pose proof (good_pos a Ha) as [Na _]. pose proof (good_pos b Hb) as [Nb _].
  assert (Z2 : (length (tdims a) <= 2 /\ length (tdims b) <= 2)%nat \/ (2 < length (tdims a) \/ 2 < length (tdims b))%nat) by lia.
  destruct Z2 as [[L1 L2]|L].
  - destruct (tdims a) as [|a0 [|a1 [|]]] eqn:Ea; try congruence; simpl in L1; try lia;
    destruct (tdims b) as [|b0 [|b1 [|]]] eqn:Eb; try congruence; simpl in L2; try lia; simpl; intros H.
    + unfold t_matmul, rank. fold (tdims a) (tdims b). rewrite <- (dot_throw a b a0 b0) by auto. rewrite Ea, Eb. reflexivity.
    + unfold t_matmul, rank. fold (tdims a) (tdims b). rewrite Ea, Eb.
      destruct (dims1_pos a a0 Ha Ea) as [Hk HMa].
      change (Zlen [a0]) with 1. change (Zlen [b0; b1]) with 2.
      change (1 =? 1) with true. change (2 =? 1) with false. change (1 =? 2) with false. change (2 =? 2) with true. cbn [andb].
      change (rd [a0] 0) with (Ok a0). cbn [bind]. rewrite new_shape_ok_int by (auto with idx; simpl; lia). cbn [bind].
      change (dims (shape_of [1; a0])) with [1; a0].
      rewrite t_reshape_ok by (auto with idx; rewrite Ea; simpl; lia). cbn [bind].
      rewrite (matmat_throw _ b 1 a0 b0 b1); auto.
    + unfold t_matmul, rank. fold (tdims a) (tdims b). rewrite <- (matvec_throw a b a0 a1 b0) by auto. rewrite Ea, Eb. reflexivity.
    + unfold t_matmul, rank. fold (tdims a) (tdims b). rewrite <- (matmat_throw a b a0 a1 b0 b1) by auto. rewrite Ea, Eb. reflexivity.
  - rewrite matmul_to_batched by auto. intros H.
    destruct (Nat.eq_dec (length (tdims a)) (length (tdims b))) as [EL|NL].
    + destruct (split_last2 (tdims a)) as (x & m & k & Ea); [lia|]. destruct (split_last2 (tdims b)) as (y & k' & n & Eb); [lia|].
      rewrite Ea, Eb, !app_length in EL; simpl in EL.
      assert (Hx : x <> []) by (rewrite Ea, Eb, !app_length in L; destruct x; simpl in *; [lia|discriminate]).
      rewrite (batched_unfold a b x y m k k' n) by (auto; lia).
      assert (HK : k <> k').
      { assert (I : inner_dims (tdims a) (tdims b) = Some (k, k')).
        { rewrite Ea, Eb. destruct x as [|x0 [|x1 x]]; [congruence| |]; destruct y as [|y0 [|y1 y]]; simpl in EL; try lia; [reflexivity|].
          unfold inner_dims. cbn [app].
          assert (G : forall (u v w z : Z) (l1 l2 : list Z), length l1 = length l2 ->
            (if Nat.eqb (length (u :: v :: l1 ++ [m; k])) (length (w :: z :: l2 ++ [k'; n]))
             then Some (nth (length (u :: v :: l1 ++ [m; k]) - 1) (u :: v :: l1 ++ [m; k]) 0,
                        nth (length (u :: v :: l1 ++ [m; k]) - 2) (w :: z :: l2 ++ [k'; n]) 0) else None) = Some (k, k')).
          { intros u v w z l1 l2 Hl. simpl length. rewrite !app_length, Hl. simpl length. rewrite Nat.eqb_refl.
            replace (Datatypes.S (Datatypes.S (length l2 + 2)) - 1)%nat with (Datatypes.S (Datatypes.S (length l2 + 1))) by lia.
            replace (Datatypes.S (Datatypes.S (length l2 + 2)) - 2)%nat with (Datatypes.S (Datatypes.S (length l2))) by lia.
            simpl nth. rewrite app_nth2 by lia. rewrite Hl. rewrite app_nth2 by lia.
            replace (length l2 + 1 - length l2)%nat with 1%nat by lia. rewrite Nat.sub_diag. reflexivity. }
          specialize (G x0 x1 y0 y1 x y ltac:(lia)).
          destruct x as [|? [|? ?]], y as [|? [|? ?]]; simpl in EL; try lia; exact G. }
        rewrite I in H. exact H. }
      destruct (Z.eqb_spec k k'); [lia|reflexivity].
    + unfold t_batched, rank. fold (tdims a) (tdims b). unfold Zlen.
      destruct (Z.eqb_spec (Z.of_nat (length (tdims a))) 3) as [E3|N3]; destruct (Z.eqb_spec (Z.of_nat (length (tdims b))) 2) as [E2|N2]; cbn [andb].
      * destruct (tdims a) as [|a0 [|a1 [|a2 [|]]]] eqn:Ea; simpl in E3; try lia.
        destruct (tdims b) as [|b0 [|b1 [|]]] eqn:Eb; simpl in E2; try lia. simpl in H. apply (mm32_throw a b a0 a1 a2 b0 b1); auto.
      * destruct (Z.eqb_spec (Z.of_nat (length (tdims a))) 2); [lia|]. cbn [andb].
        destruct (Z.eqb_spec (Z.of_nat (length (tdims a))) (Z.of_nat (length (tdims b)))); [lia|]. reflexivity.
      * destruct (Z.eqb_spec (Z.of_nat (length (tdims b))) 3); [lia|]. rewrite andb_false_r.
        destruct (Z.eqb_spec (Z.of_nat (length (tdims a))) (Z.of_nat (length (tdims b)))); [lia|]. reflexivity.
      * destruct (Z.eqb_spec (Z.of_nat (length (tdims a))) 2) as [E2a|]; destruct (Z.eqb_spec (Z.of_nat (length (tdims b))) 3) as [E3b|]; cbn [andb];
        try (destruct (Z.eqb_spec (Z.of_nat (length (tdims a))) (Z.of_nat (length (tdims b)))); [lia|]; reflexivity).
        destruct (tdims a) as [|a0 [|a1 [|]]] eqn:Ea; simpl in E2a; try lia.
        destruct (tdims b) as [|b0 [|b1 [|b2 [|]]]] eqn:Eb; simpl in E3b; try lia. simpl in H. apply (mm23_throw a b a0 a1 b0 b1 b2); auto.
Qed.

End S.
