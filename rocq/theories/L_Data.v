(** * Lemmas about the data set loaders and generators *)
From Coq Require Import Ascii String Floats.SpecFloat.
From Verif Require Import Base Scalar Types Spec SpecData M_Shape M_Tensor M_Data.
From Verif Require Import L_Index L_Shape L_Bcast L_Tensor L_Tensor2 L_Nest L_Matmul L_Conv.
Local Open Scope Z_scope.
Local Open Scope list_scope.

(** ** Bytes *)
Lemma read_int_be32 : forall z r, 0 <= z <= INT_MAX -> read_int (be32 z ++ r) = Ok (z, r).
Proof.
  intros z r H. unfold INT_MAX in H. unfold be32. cbn [app read_int]. do 2 f_equal. unfold i32, two32.
  assert (E : z / 16777216 mod 256 * 16777216 + z / 65536 mod 256 * 65536 + z / 256 mod 256 * 256 + z mod 256 = z).
  { replace (z / 16777216) with (z / 65536 / 256) by (rewrite Z.div_div by lia; reflexivity).
    replace (z / 65536) with (z / 256 / 256) by (rewrite Z.div_div by lia; reflexivity).
    Z.to_euclidean_division_equations. lia. }
  rewrite E. rewrite Z.mod_small by lia. lia.
Qed.

Lemma get_byte_skip : forall s k, 0 <= k -> get_byte (skipn (Z.to_nat k) s) = (znth 255 s k, skipn (Z.to_nat (k + 1)) s).
Proof.
  intros s k Hk. replace (Z.to_nat (k + 1)) with (Datatypes.S (Z.to_nat k)) by lia. unfold znth.
  generalize (Z.to_nat k). clear. intro m. revert s. induction m; intros [|a s]; simpl; auto.
  rewrite IHm. reflexivity.
Qed.

Lemma skipn_skipn' : forall {A} a b (l : list A), skipn a (skipn b l) = skipn (b + a) l.
Proof. intros A a b. induction b; intros [|x l]; simpl; auto. destruct a; reflexivity. Qed.

(** Reading four bytes gives a small number only when they spell it. *)
Lemma read_int_magic : forall b0 b1 b2 b3 r m z, is_byte b0 -> is_byte b1 -> is_byte b2 -> is_byte b3 -> is_byte m ->
  read_int (b0 :: b1 :: b2 :: b3 :: r) = Ok (2048 + m, z) -> [b0; b1; b2; b3] = [0; 0; 8 + m / 256; m].
Proof.
  intros b0 b1 b2 b3 r m z H0 H1 H2 H3 Hm E. unfold is_byte in *. cbn [read_int] in E. injection E as E _.
  unfold i32, two32 in E.
  assert (D : b0 * 16777216 + b1 * 65536 + b2 * 256 + b3 = 2048 + m) by (Z.to_euclidean_division_equations; lia).
  assert (b0 = 0) by lia. assert (b1 = 0) by lia. assert (b2 = 8) by lia. assert (b3 = m) by lia. subst.
  rewrite Z.div_small by lia. reflexivity.
Qed.

(** ** The batch loop *)
Lemma num_batches_spec : forall n b k, 1 <= b -> 0 <= k -> (k < num_batches n b <-> k * b < n).
Proof.
  intros n b k Hb Hk. unfold num_batches.
  pose proof (Z.div_mod (n + b - 1) b ltac:(lia)). pose proof (Z.mod_pos_bound (n + b - 1) b ltac:(lia)).
  set (q := (n + b - 1) / b) in *. split; intro; nia.
Qed.

Section Loop.
Context {St : Type}.
Variables (b n : Z) (body : Z -> St -> outcome St) (P : Z -> St -> Prop).
Hypothesis Hb : 1 <= b.

Lemma batch_loop_ok : forall fuel k s, 0 <= k -> (k = 0 \/ k <= num_batches n b) -> num_batches n b * b <= INT_MAX ->
  (Z.to_nat (n - k * b) < fuel)%nat -> P k s ->
  (forall k s, 0 <= k < num_batches n b -> P k s -> exists s', body (batch_len n b k) s = Ok s' /\ P (k + 1) s') ->
  exists s', batch_loop fuel b n (k * b) body s = Ok s' /\ P (Z.max 0 (num_batches n b)) s'.
Proof.
  induction fuel as [|fuel IH]; intros k s Hk Hk2 HM Hf HP Hstep; [lia|]. cbn [batch_loop].
  pose proof (num_batches_spec n b k Hb Hk) as Hs. destruct (Z.ltb_spec (k * b) n) as [Hlt|Hge].
  - destruct (Hstep k s ltac:(lia) HP) as (s' & E & HP'). fold (batch_len n b k). rewrite E. cbn [bind].
    assert ((k + 1) * b <= INT_MAX) by (pose proof (proj2 Hs Hlt); nia).
    rewrite chk32_ok by (unfold INT_MIN; nia). cbn [bind]. replace (k * b + b) with ((k + 1) * b) by ring.
    apply IH; auto; try lia.
  - exists s. split; auto. replace (Z.max 0 (num_batches n b)) with k; auto. lia.
Qed.

Lemma batched_ok : forall s, num_batches n b * b <= INT_MAX -> P 0 s ->
  (forall k s, 0 <= k < num_batches n b -> P k s -> exists s', body (batch_len n b k) s = Ok s' /\ P (k + 1) s') ->
  exists s', batched b n body s = Ok s' /\ P (Z.max 0 (num_batches n b)) s'.
Proof. intros. unfold batched. change 0 with (0 * b) at 1. apply batch_loop_ok; auto; lia. Qed.

(** A batch whose body does not return. *)
Lemma batch_loop_stop : forall e fuel k m s, 0 <= k <= m -> m < num_batches n b -> m * b <= INT_MAX ->
  (Z.to_nat (n - k * b) < fuel)%nat -> P k s -> is_ok e = false ->
  (forall k s, 0 <= k < m -> P k s -> exists s', body (batch_len n b k) s = Ok s' /\ P (k + 1) s') ->
  (forall s, P m s -> body (batch_len n b m) s = e) ->
  batch_loop fuel b n (k * b) body s = e.
Proof.
  intros e. induction fuel as [|fuel IH]; intros k m s Hk Hm HM Hf HP He Hstep Hstop; [lia|]. cbn [batch_loop].
  pose proof (proj1 (num_batches_spec n b k Hb ltac:(lia)) ltac:(lia)). destruct (Z.ltb_spec (k * b) n); [|lia].
  fold (batch_len n b k). destruct (Z.eq_dec k m) as [->|].
  - rewrite Hstop by auto. destruct e; try discriminate; reflexivity.
  - destruct (Hstep k s ltac:(lia) HP) as (s' & E & HP'). rewrite E. cbn [bind].
    rewrite chk32_ok by (unfold INT_MIN; nia). cbn [bind]. replace (k * b + b) with ((k + 1) * b) by ring.
    apply (IH _ m); auto; lia.
Qed.
Lemma batched_stop : forall e m s, 0 <= m < num_batches n b -> m * b <= INT_MAX -> P 0 s -> is_ok e = false ->
  (forall k s, 0 <= k < m -> P k s -> exists s', body (batch_len n b k) s = Ok s' /\ P (k + 1) s') ->
  (forall s, P m s -> body (batch_len n b m) s = e) ->
  batched b n body s = e.
Proof. intros. unfold batched. change 0 with (0 * b) at 1. apply (batch_loop_stop e _ 0 m); auto; lia. Qed.

(** The counter leaving the range of [int] after batch [m]. *)
Lemma batch_loop_over : forall fuel k m s, 0 <= k <= m -> m < num_batches n b -> m * b <= INT_MAX -> INT_MAX < (m + 1) * b ->
  (Z.to_nat (n - k * b) < fuel)%nat -> P k s ->
  (forall k s, 0 <= k <= m -> P k s -> exists s', body (batch_len n b k) s = Ok s' /\ P (k + 1) s') ->
  batch_loop fuel b n (k * b) body s = UB.
Proof.
  induction fuel as [|fuel IH]; intros k m s Hk Hm HM HO Hf HP Hstep; [lia|]. cbn [batch_loop].
  pose proof (proj1 (num_batches_spec n b k Hb ltac:(lia)) ltac:(lia)). destruct (Z.ltb_spec (k * b) n); [|lia].
  fold (batch_len n b k). destruct (Hstep k s ltac:(lia) HP) as (s' & E & HP'). rewrite E. cbn [bind].
  destruct (Z.eq_dec k m) as [->|].
  - unfold chk32. replace (m * b + b) with ((m + 1) * b) by ring.
    destruct (Z.leb_spec ((m + 1) * b) INT_MAX); [lia|]. rewrite andb_false_r. reflexivity.
  - rewrite chk32_ok by (unfold INT_MIN; nia). cbn [bind]. replace (k * b + b) with ((k + 1) * b) by ring.
    apply (IH _ m); auto; lia.
Qed.
End Loop.

Lemma batch_len_bounds : forall n b k, 1 <= b -> 0 <= k < num_batches n b -> 1 <= batch_len n b k <= b /\ k * b + batch_len n b k <= n.
Proof.
  intros n b k Hb Hk. pose proof (proj1 (num_batches_spec n b k Hb ltac:(lia)) ltac:(lia)). unfold batch_len. lia.
Qed.

Lemma batch_len_full : forall n b k, 1 <= b -> 0 <= k -> k + 1 < num_batches n b -> batch_len n b k = b.
Proof.
  intros n b k Hb Hk Hk2. pose proof (proj1 (num_batches_spec n b (k + 1) Hb ltac:(lia)) Hk2). unfold batch_len. lia.
Qed.

Lemma batch_start : forall n b k, 1 <= b -> 0 <= k < num_batches n b ->
  (k + 1) * b = k * b + batch_len n b k \/ k + 1 = num_batches n b.
Proof.
  intros n b k Hb Hk. destruct (Z.eq_dec (k + 1) (num_batches n b)); auto. left.
  rewrite batch_len_full by lia. ring.
Qed.

Lemma num_batches_nonneg : forall n b, 1 <= b -> 0 <= n -> 0 <= num_batches n b.
Proof. intros. apply Z.div_pos; lia. Qed.

Lemma total_app : forall a b, total (a ++ b) = total a + total b.
Proof. induction a; simpl; intros; auto. rewrite IHa. lia. Qed.

(** The batches cover the samples exactly. *)
Lemma batch_total_upto : forall n b k, 1 <= b -> 0 <= k -> k <= num_batches n b ->
  total (map (batch_len n b) (zrange 0 k)) = Z.min (k * b) (Z.max 0 n).
Proof.
  intros n b k Hb Hk. revert k Hk.
  refine (natlike_ind (fun k => k <= num_batches n b -> total (map (batch_len n b) (zrange 0 k)) = Z.min (k * b) (Z.max 0 n)) _ _); [intros _; change (total _) with 0; lia|].
  intros k Hk IH Hle. replace (Z.succ k) with (k + 1) by lia. rewrite zrange_snoc by lia.
  rewrite map_app, total_app, IH by lia. cbn [map total fold_right].
  pose proof (proj1 (num_batches_spec n b k Hb Hk) ltac:(lia)). unfold batch_len. nia.
Qed.
Lemma batch_total : forall n b, 1 <= b -> 0 <= n -> total (map (batch_len n b) (zrange 0 (num_batches n b))) = n.
Proof.
  intros n b Hb Hn. pose proof (num_batches_nonneg n b Hb Hn). rewrite batch_total_upto by lia.
  pose proof (num_batches_spec n b (num_batches n b) Hb ltac:(lia)). lia.
Qed.

(** Shape facts of a batched data set. *)
Lemma batches_shape : forall {T} n b (g : Z -> Z -> tensor T), 1 <= b -> 0 <= n -> (forall st len, height (g st len) = len) ->
  Zlen (batches n b g) = num_batches n b /\ Forall (fun t => 1 <= height t <= b) (batches n b g) /\ total (map height (batches n b g)) = n.
Proof.
  intros T n b g Hb Hn Hg. pose proof (num_batches_nonneg n b Hb Hn). unfold batches. split; [|split].
  - rewrite Zlen_map, Zlen_zrange by lia. lia.
  - apply Forall_forall. intros t Ht. apply in_map_iff in Ht. destruct Ht as (k & <- & Hk). apply In_zrange in Hk.
    rewrite Hg. apply batch_len_bounds; auto.
  - rewrite map_map. rewrite (map_ext _ (batch_len n b)) by (intro; apply Hg). apply batch_total; auto.
Qed.

Lemma batches_nth : forall {A} (d : A) n b g k, 1 <= b -> 0 <= k < num_batches n b ->
  znth d (batches n b g) k = g (k * b) (batch_len n b k).
Proof.
  intros A d n b g k Hb Hk. unfold batches. rewrite (znth_map 0) by (rewrite Zlen_zrange; lia).
  rewrite znth_zrange by lia. reflexivity.
Qed.

(** ** Images *)
Section Images.
Context {T : Type} {S : Scalar T}.

(** [pix s q]: byte [q] of the stream, 255 beyond its end. *)
Definition byte (s : list Z) (q : Z) : Z := znth 255 s q.

Lemma byte_ok : forall s q, Forall is_byte s -> is_byte (byte s q).
Proof.
  intros s q H. unfold byte, znth. destruct (nth_in_or_default (Z.to_nat q) s 255) as [HI|E].
  - rewrite Forall_forall in H. auto.
  - rewrite E. unfold is_byte. lia.
Qed.

Lemma tensor_of_new : forall ds, Forall (fun d => 0 < d) ds -> t_new (shape_of ds) = tensor_of ds (fun _ => zero : T).
Proof. intros. apply (tensor_of_fill ds zero); auto. Qed.

Lemma set_tensor_of : forall ds (f : list Z -> T) i v, pos_dims ds -> prod ds <= INT_MAX -> in_range ds i ->
  t_at_set (tensor_of ds f) i v = Ok (tensor_of ds (fun idx => if ravel ds idx =? ravel ds i then v else f idx)).
Proof.
  intros ds f i v HP HM HI. pose proof (good_tensor_of ds f HP HM) as G.
  assert (HD : tdims (tensor_of ds f) = ds) by reflexivity.
  rewrite t_at_set_ok by (rewrite ?HD; auto). f_equal.
  pose proof (tensor_eta (set_el (tensor_of ds f) i v) (fun idx => if ravel ds idx =? ravel ds i then v else f idx)
    (good_set_el _ _ _ G)) as E.
  change (tdims (set_el (tensor_of ds f) i v)) with ds in E. apply E.
  intros idx Hidx. rewrite el_set_el by auto. rewrite el_tensor_of by auto.
  destruct (list_eq_dec Z.eq_dec idx i) as [->|Hne]; [rewrite Z.eqb_refl; auto|].
  destruct (Z.eqb_spec (ravel ds idx) (ravel ds i)) as [E2|]; auto.
  contradiction Hne. apply (ravel_inj ds); auto.
Qed.

Hypothesis HB : bytes_scale (T := T).

Lemma image_batch_ok : forall rows cols cur imgs s,
  0 < cur -> 0 < rows -> 0 < cols -> cur * (1 * (rows * (cols * 1))) <= INT_MAX -> Forall is_byte s ->
  load_image_batch rows cols cur (imgs, s) =
    Ok (imgs ++ [tensor_of [cur; 1; rows; cols] (fun idx => scaled (byte s (ravel [cur; 1; rows; cols] idx)) : T)],
        skipn (Z.to_nat (cur * rows * cols)) s).
Proof.
  intros rows cols cur imgs s Hc Hr Hk HM Hs. unfold load_image_batch.
  set (ds := [cur; 1; rows; cols]).
  assert (HP : pos_dims ds) by (split; [discriminate|repeat constructor; lia]).
  assert (HM' : prod ds <= INT_MAX) by exact HM.
  rewrite new_shape_ok_int by auto. cbn [bind]. rewrite tensor_of_new by (apply pos_forall; auto).
  set (F k := fun idx => if ravel ds idx <? k then scaled (byte s (ravel ds idx)) : T else zero).
  assert (G : forall (st : tensor T * list Z), for_ 0 cur (fun j => for_ 0 rows (fun k => for_ 0 cols (fun l => load_pixel j k l))) st =
     nest ds (fun idx => load_pixel (nth 0 idx 0) (nth 2 idx 0) (nth 3 idx 0)) st).
  { intro st. rewrite <- (for4_nest cur 1 rows cols (fun j _ k l => load_pixel j k l)). apply for_ext. intros j x Hj.
    unfold for_ at 3. change (zrange 0 1) with [0]. cbn [foldM].
    destruct (for_ 0 rows _ x); reflexivity. }
  rewrite G. clear G.
  destruct (nest_inv (fun k (st : tensor T * list Z) => st = (tensor_of ds (F k), skipn (Z.to_nat k) s)) ds
    (fun idx => load_pixel (nth 0 idx 0) (nth 2 idx 0) (nth 3 idx 0)) (tensor_of ds (fun _ => zero), s)) as (st & E & Est).
  - apply pos_forall; auto.
  - f_equal. apply tensor_of_ext; [apply pos_forall; auto|]. intros idx HI. unfold F.
    pose proof (ravel_bound ds idx HI). destruct (Z.ltb_spec (ravel ds idx) 0); auto; lia.
  - intros k st Hk2 ->. pose proof (unravel_range ds k (pos_forall _ HP) Hk2) as HR.
    pose proof (ravel_unravel ds k (pos_forall _ HP) Hk2) as HQ.
    assert (Hidx : exists j k' l, unravel ds k = [j; 0; k'; l]).
    { pose proof (in_range_length _ _ HR) as HL. clear HQ.
      destruct (unravel ds k) as [|a0 [|a1 [|a2 [|a3 [|]]]]]; try discriminate HL.
      unfold ds in HR. rewrite !in_range_cons in HR. exists a0, a2, a3. replace a1 with 0 by lia. auto. }
    destruct Hidx as (j & k' & l & Hidx). rewrite Hidx in *. cbn [nth].
    unfold load_pixel. rewrite get_byte_skip by lia. fold (byte s k).
    change (s_div (s_z (byte s k)) (s_z 255)) with (scaled (byte s k) : T).
    rewrite set_tensor_of by auto. cbn [bind].
    assert (EF : tensor_of ds (fun idx => if ravel ds idx =? ravel ds [j; 0; k'; l] then scaled (byte s k) else F k idx) = tensor_of ds (F (k + 1))).
    { apply tensor_of_ext; [apply pos_forall; auto|]. intros idx HI. rewrite HQ. unfold F.
      destruct (Z.eqb_spec (ravel ds idx) k) as [->|].
      - destruct (Z.ltb_spec k (k + 1)); auto; lia.
      - destruct (Z.ltb_spec (ravel ds idx) k), (Z.ltb_spec (ravel ds idx) (k + 1)); auto; lia. }
    rewrite EF. rewrite t_at_ok; [|apply good_tensor_of; auto|exact HR]. cbn [bind].
    rewrite el_tensor_of by auto. unfold F at 1 2. rewrite HQ. destruct (Z.ltb_spec k (k + 1)); [|lia].
    destruct (HB (byte s k) (byte_ok s k Hs)) as (H1 & H2). rewrite H1, H2. cbn [orb].
    eexists. split; reflexivity.
  - match goal with |- bind ?m _ = _ => replace m with (Ok st) by (symmetry; exact E) end. rewrite Est. cbn [bind]. do 3 f_equal.
    + f_equal. apply tensor_of_ext; [apply pos_forall; auto|]. intros idx HI. unfold F.
      pose proof (ravel_bound ds idx HI). destruct (Z.ltb_spec (ravel ds idx) (prod ds)); auto; lia.
    + f_equal. unfold ds. cbn [prod]. ring.
Qed.

(** Image files, whatever the number of pixel bytes present. *)
Lemma images_raw : forall b lim n0 rows cols px,
  1 <= b -> 0 <= n0 <= INT_MAX -> 1 <= rows <= INT_MAX -> 1 <= cols <= INT_MAX ->
  Z.min b (samples lim n0) * rows * cols <= INT_MAX -> num_batches (samples lim n0) b * b <= INT_MAX ->
  Forall is_byte px ->
  load_images b lim (Some (image_header n0 rows cols ++ px)) =
    Ok (batches (samples lim n0) b (fun st len => tensor_of [len; 1; rows; cols]
         (fun idx => scaled (byte px (ravel [len; 1; rows; cols] idx + st * rows * cols)) : T))).
Proof.
  intros b lim n0 rows cols px Hb Hn Hr Hc HM HI HF. unfold load_images, image_header. rewrite <- !app_assoc.
  rewrite read_int_be32 by (unfold INT_MAX; lia). cbn [bind].
  rewrite read_int_be32 by lia. cbn [bind]. rewrite read_int_be32 by lia. cbn [bind].
  rewrite read_int_be32 by lia. cbn [bind]. change (negb (2051 =? 2051)) with false. cbv iota.
  fold (samples lim n0). set (n := samples lim n0) in *.
  set (g := fun st len => tensor_of [len; 1; rows; cols]
         (fun idx => scaled (byte px (ravel [len; 1; rows; cols] idx + st * rows * cols)) : T)).
  destruct (batched_ok b n (load_image_batch rows cols)
    (fun k (st : list (tensor T) * stream) => st = (map (fun k => g (k * b) (batch_len n b k)) (zrange 0 k), skipn (Z.to_nat (Z.min (k * b) n * rows * cols)) px))
    Hb ([], px) HI) as (st & E & Est).
  - replace (Z.to_nat (Z.min (0 * b) n * rows * cols)) with 0%nat; auto.
    assert (Z.min (0 * b) n * (rows * cols) <= 0) by nia. lia.
  - intros k st Hk ->. destruct (batch_len_bounds n b k Hb Hk) as (HL & HL2).
    assert (Hcut : batch_len n b k * (1 * (rows * (cols * 1))) <= INT_MAX).
    { assert (batch_len n b k * (rows * cols) <= Z.min b n * (rows * cols)); [|nia].
      apply Z.mul_le_mono_nonneg_r; [nia|]. unfold batch_len in *. nia. }
    rewrite image_batch_ok; auto; try lia.
    + eexists. split; [reflexivity|]. rewrite zrange_snoc by lia. rewrite map_app. cbn [map].
      assert (Emin : Z.min (k * b) n = k * b) by nia.
      assert (Emin2 : Z.min ((k + 1) * b) n = k * b + batch_len n b k) by (unfold batch_len; nia).
      f_equal.
      * do 2 f_equal. unfold g. apply tensor_of_ext; [repeat constructor; lia|]. intros idx HI2. f_equal. unfold byte.
        pose proof (ravel_bound _ _ HI2). rewrite znth_skipn by lia. f_equal. rewrite Emin. nia.
      * rewrite skipn_skipn'. f_equal. rewrite Emin, Emin2.
        assert (0 <= batch_len n b k * (rows * cols)) by nia. assert (0 <= k * b * (rows * cols)) by nia.
        rewrite <- Z2Nat.inj_add by lia. f_equal. ring.
    + apply Forall_forall. intros x Hx. rewrite Forall_forall in HF. apply HF.
      rewrite <- (firstn_skipn (Z.to_nat (Z.min (k * b) n * rows * cols)) px). apply in_or_app. auto.
  - match goal with |- bind ?m _ = _ => replace m with (Ok st) by (symmetry; exact E) end. rewrite Est. cbn [bind].
    unfold batches. f_equal. f_equal. destruct (Z.max_spec 0 (num_batches n b)) as [(H & ->)|(H & ->)]; auto.
    rewrite !zrange_nil by lia. reflexivity.
Qed.

End Images.

(** ** Reading a row-major file back *)
Lemma flat_map_length_const : forall {A B} (f : A -> list B) m l, (forall x, Zlen (f x) = m) -> Zlen (flat_map f l) = Zlen l * m.
Proof.
  intros A B f m l H. induction l; simpl; [reflexivity|]. rewrite Zlen_app, Zlen_cons, H, IHl. lia.
Qed.

Lemma znth_flat_map : forall {B} (d : B) (f : Z -> list B) m n i r, (forall x, Zlen (f x) = m) ->
  0 <= i < n -> 0 <= r < m -> znth d (flat_map f (zrange 0 n)) (i * m + r) = znth d (f i) r.
Proof.
  intros B d f m n i r Hm Hi Hr. rewrite (zrange_app 0 i n) by lia. rewrite (zrange_cons i n) by lia.
  rewrite flat_map_app. cbn [flat_map].
  assert (E : Zlen (flat_map f (zrange 0 i)) = i * m).
  { rewrite (flat_map_length_const f m) by auto. rewrite Zlen_zrange by lia. lia. }
  rewrite znth_app2 by (rewrite E; lia). rewrite E. replace (i * m + r - i * m) with r by lia.
  apply znth_app1. rewrite Hm. auto.
Qed.

Lemma pixels_length : forall n rows cols img, 0 <= n -> 0 <= rows -> 0 <= cols -> Zlen (pixels n rows cols img) = n * (rows * cols).
Proof.
  intros. unfold pixels. rewrite (flat_map_length_const _ (rows * cols)); [rewrite Zlen_zrange by lia; lia|].
  intro i. rewrite (flat_map_length_const _ cols); [rewrite Zlen_zrange by lia; lia|].
  intro r. rewrite Zlen_map, Zlen_zrange by lia. lia.
Qed.

Lemma pixels_at : forall n rows cols img rest i r c, 0 <= i < n -> 0 <= r < rows -> 0 <= c < cols ->
  byte (pixels n rows cols img ++ rest) (i * (rows * cols) + (r * cols + c)) = img i r c.
Proof.
  intros n rows cols img rest i r c Hi Hr Hc. unfold byte.
  assert (HR : 0 <= r * cols + c < rows * cols) by nia.
  rewrite znth_app1 by (rewrite pixels_length by lia; nia). unfold pixels.
  rewrite (znth_flat_map _ _ (rows * cols)); auto.
  - rewrite (znth_flat_map _ _ cols); auto; try lia.
    + rewrite (znth_map 0) by (rewrite Zlen_zrange; lia). rewrite znth_zrange by lia. reflexivity.
    + intro. rewrite Zlen_map, Zlen_zrange by lia. lia.
  - intro. rewrite (flat_map_length_const _ cols); [rewrite Zlen_zrange by lia; lia|].
    intro. rewrite Zlen_map, Zlen_zrange by lia. lia.
Qed.

Lemma pixels_bytes : forall n rows cols img,
  (forall i r c, 0 <= i < n -> 0 <= r < rows -> 0 <= c < cols -> is_byte (img i r c)) ->
  Forall is_byte (pixels n rows cols img).
Proof.
  intros n rows cols img H. apply Forall_forall. intros x Hx. unfold pixels in Hx.
  apply in_flat_map in Hx. destruct Hx as (i & Hi & Hx). apply in_flat_map in Hx. destruct Hx as (r & Hr & Hx).
  apply in_map_iff in Hx. destruct Hx as (c & <- & Hc). rewrite In_zrange in *. auto.
Qed.

Lemma batches_ext : forall {A} n b (f g : Z -> Z -> A), 1 <= b ->
  (forall st len, 0 <= st -> 0 < len <= b -> st + len <= n -> f st len = g st len) -> batches n b f = batches n b g.
Proof.
  intros A n b f g Hb H. unfold batches. apply map_ext_in. intros k Hk. apply In_zrange in Hk.
  destruct (batch_len_bounds n b k Hb Hk). apply H; nia.
Qed.

Section Images2.
Context {T : Type} {S : Scalar T}.
Hypothesis HB : bytes_scale (T := T).

Lemma images_round_trip : forall b lim n0 rows cols img extra,
  1 <= b -> 0 <= n0 <= INT_MAX -> 1 <= rows <= INT_MAX -> 1 <= cols <= INT_MAX ->
  samples lim n0 <= n0 ->
  Z.min b (samples lim n0) * rows * cols <= INT_MAX -> num_batches (samples lim n0) b * b <= INT_MAX ->
  (forall i r c, 0 <= i < n0 -> 0 <= r < rows -> 0 <= c < cols -> is_byte (img i r c)) -> Forall is_byte extra ->
  load_images b lim (Some (image_file n0 rows cols img ++ extra)) =
    Ok (batches (samples lim n0) b (image_batch rows cols img : Z -> Z -> tensor T)).
Proof.
  intros b lim n0 rows cols img extra Hb Hn Hr Hc Hs HM HI Hbytes Hex. unfold image_file. rewrite <- app_assoc.
  rewrite images_raw; auto; [|apply Forall_app; split; [apply pixels_bytes|]; auto].
  f_equal. apply batches_ext; auto. intros st len H1 H2 H3. unfold image_batch. apply tensor_of_ext; [repeat constructor; lia|].
  intros idx Hidx. pose proof (in_range_length _ _ Hidx) as HL.
  destruct idx as [|j [|z [|r [|c [|]]]]]; try discriminate HL. rewrite !in_range_cons in Hidx.
  unfold fn4. cbn [nth ravel prod]. f_equal. replace z with 0 by lia.
  rewrite <- (pixels_at n0 rows cols img extra (st + j) r c) by lia. f_equal. ring.
Qed.

(** What a file with missing pixels loads as. *)
Lemma images_truncated : forall b lim n0 rows cols img have,
  1 <= b -> 0 <= n0 <= INT_MAX -> 1 <= rows <= INT_MAX -> 1 <= cols <= INT_MAX ->
  Z.min b (samples lim n0) * rows * cols <= INT_MAX -> num_batches (samples lim n0) b * b <= INT_MAX ->
  (forall i r c, 0 <= i < n0 -> 0 <= r < rows -> 0 <= c < cols -> is_byte (img i r c)) ->
  0 <= have <= n0 * (rows * cols) ->
  load_images b lim (Some (image_header n0 rows cols ++ firstn (Z.to_nat have) (pixels n0 rows cols img))) =
    Ok (batches (samples lim n0) b (image_batch rows cols
          (fun i r c => if i * (rows * cols) + (r * cols + c) <? have then img i r c else 255) : Z -> Z -> tensor T)).
Proof.
  intros b lim n0 rows cols img have Hb Hn Hr Hc HM HI Hbytes Hh.
  rewrite images_raw; auto.
  - f_equal. apply batches_ext; auto. intros st len H1 H2 H3. unfold image_batch. apply tensor_of_ext; [repeat constructor; lia|].
    intros idx Hidx. pose proof (in_range_length _ _ Hidx) as HL.
    destruct idx as [|j [|z [|r [|c [|]]]]]; try discriminate HL. rewrite !in_range_cons in Hidx.
    unfold fn4. cbn [nth ravel prod]. f_equal. replace z with 0 by lia.
    replace (j * (1 * (rows * (cols * 1))) + (0 * (rows * (cols * 1)) + (r * (cols * 1) + (c * 1 + 0))) + st * rows * cols)
      with ((st + j) * (rows * cols) + (r * cols + c)) by ring.
    assert (HR : 0 <= r * cols + c < rows * cols) by nia.
    destruct (Z.ltb_spec ((st + j) * (rows * cols) + (r * cols + c)) have) as [Hlt|Hge].
    + assert (Hi : st + j < n0) by nia.
      rewrite <- (pixels_at n0 rows cols img [] (st + j) r c) by lia. rewrite app_nil_r. unfold byte.
      apply znth_firstn. nia.
    + unfold byte, znth. apply nth_overflow. rewrite firstn_length. lia.
  - pose proof (pixels_bytes n0 rows cols img Hbytes) as HF. rewrite <- (firstn_skipn (Z.to_nat have)) in HF.
    apply Forall_app in HF. tauto.
Qed.

Lemma images_bad_magic : forall b lim m0 m1 m2 m3 d0 d1 d2 d3 e0 e1 e2 e3 f0 f1 f2 f3 px,
  is_byte m0 -> is_byte m1 -> is_byte m2 -> is_byte m3 -> [m0; m1; m2; m3] <> be32 2051 ->
  load_images b lim (Some ([m0; m1; m2; m3] ++ [d0; d1; d2; d3] ++ [e0; e1; e2; e3] ++ [f0; f1; f2; f3] ++ px)) =
    (Throw RuntimeError : outcome (list (tensor T))).
Proof.
  intros b lim m0 m1 m2 m3 d0 d1 d2 d3 e0 e1 e2 e3 f0 f1 f2 f3 px H0 H1 H2 H3 HN. unfold load_images. cbn [app].
  pose proof (read_int_magic m0 m1 m2 m3 (d0 :: d1 :: d2 :: d3 :: e0 :: e1 :: e2 :: e3 :: f0 :: f1 :: f2 :: f3 :: px) 3
    (d0 :: d1 :: d2 :: d3 :: e0 :: e1 :: e2 :: e3 :: f0 :: f1 :: f2 :: f3 :: px) H0 H1 H2 H3 ltac:(unfold is_byte; lia)) as HR.
  cbn [read_int bind] in *. set (v := i32 _) in *.
  destruct (Z.eqb_spec v 2051) as [E|]; [|reflexivity]. contradiction HN.
  rewrite HR by (rewrite E; reflexivity). reflexivity.
Qed.

End Images2.

(** ** Labels *)
Lemma for_stop : forall {X} lo hi (body : Z -> X -> outcome X) s m e (P : Z -> X -> Prop), lo <= m < hi -> P lo s ->
  is_ok e = false ->
  (forall i s, lo <= i < m -> P i s -> exists s', body i s = Ok s' /\ P (i + 1) s') ->
  (forall s, P m s -> body m s = e) -> for_ lo hi body s = e.
Proof.
  intros X lo hi body s m e P Hm HP He Hstep Hstop. unfold for_. rewrite (zrange_app lo m hi) by lia. rewrite foldM_app.
  destruct (for_inv P lo m body s ltac:(lia) HP Hstep) as (s' & E & HP'). unfold for_ in E. rewrite E. cbn [bind].
  rewrite zrange_cons by lia. cbn [foldM]. rewrite Hstop by auto. destruct e; try discriminate; reflexivity.
Qed.

Lemma first_bad : forall (P : Z -> bool) n, (exists i, 0 <= i < n /\ P i = true) ->
  exists m, 0 <= m < n /\ P m = true /\ forall i, 0 <= i < m -> P i = false.
Proof.
  intros P n (i & Hi & HP). revert i Hi HP.
  assert (G : forall k, 0 <= k -> (forall i, 0 <= i < k -> P i = false) \/ exists m, 0 <= m < k /\ P m = true /\ forall i, 0 <= i < m -> P i = false).
  { apply natlike_ind; [left; intros; lia|]. intros k Hk [H|(m & Hm & H)].
    - destruct (P k) eqn:E; [right; exists k; split; [lia|auto]|left]. intros i Hi. destruct (Z.eq_dec i k) as [->|]; auto. apply H; lia.
    - right. exists m. split; [lia|auto]. }
  intros i Hi HP. destruct (G n ltac:(lia)) as [H|H]; auto. rewrite H in HP by auto. discriminate.
Qed.

Section Labels.
Context {T : Type} {S : Scalar T}.

Definition label_part (s : list Z) (cur j : Z) : tensor T :=
  tensor_of [cur; 10] (fn2 (fun r c => if (r <? j) && (c =? byte s r) then one else zero)).

Lemma label_step : forall cur s j, 0 <= j < cur -> cur * (10 * 1) <= INT_MAX -> 0 <= byte s j <= 9 ->
  load_label j (label_part s cur j, skipn (Z.to_nat j) s) = Ok (label_part s cur (j + 1), skipn (Z.to_nat (j + 1)) s).
Proof.
  intros cur s j Hj HM Hd. unfold load_label. rewrite get_byte_skip by lia. fold (byte s j). unfold label_part.
  rewrite set_tensor_of; [|apply pos2; lia|exact HM|apply in_range2; lia].
  cbn [bind]. do 2 f_equal. apply tensor_of_ext; [apply pos_forall, pos2; lia|].
  intros idx HI. pose proof (in_range_length _ _ HI) as HL. destruct idx as [|r [|c [|]]]; try discriminate HL.
  rewrite !in_range_cons in HI. unfold fn2. cbn [nth ravel prod].
  destruct (Z.eqb_spec (r * (10 * 1) + (c * 1 + 0)) (j * (10 * 1) + (byte s j * 1 + 0))) as [E|E].
  - assert (r = j) by lia. subst. assert (c = byte s j) by lia. subst c.
    destruct (Z.ltb_spec j (j + 1)); [|lia]. rewrite Z.eqb_refl. reflexivity.
  - destruct (Z.ltb_spec r j), (Z.ltb_spec r (j + 1)); auto; try lia. replace r with j by lia.
    destruct (Z.eqb_spec c (byte s j)); cbn [andb]; auto. subst c. assert (r = j) by lia. subst. lia.
Qed.

Lemma label_bad : forall cur s j, 0 <= j < cur -> cur * (10 * 1) <= INT_MAX -> 9 < byte s j ->
  load_label j (label_part s cur j, skipn (Z.to_nat j) s) = Throw OutOfRange.
Proof.
  intros cur s j Hj HM Hd. unfold load_label. rewrite get_byte_skip by lia. fold (byte s j).
  assert (HG : good (label_part s cur j)).
  { apply good_tensor_of; [apply pos2; lia|exact HM]. }
  rewrite at_set_fail; [reflexivity|apply good_wf; auto|]. change (tdims (label_part s cur j)) with [cur; 10].
  rewrite !in_range_cons. lia.
Qed.

Lemma label_batch_start : forall cur s, 0 < cur -> t_fill (shape_of [cur; 10]) (zero : T) = label_part s cur 0.
Proof.
  intros. rewrite tensor_of_fill by (apply pos_forall, pos2; lia). apply tensor_of_ext; [apply pos_forall, pos2; lia|].
  intros idx HI. pose proof (in_range_length _ _ HI) as HL. destruct idx as [|r [|c [|]]]; try discriminate HL.
  rewrite !in_range_cons in HI. unfold fn2. cbn [nth]. destruct (Z.ltb_spec r 0); auto; lia.
Qed.

Lemma label_batch_ok : forall cur labs s, 0 < cur -> cur * (10 * 1) <= INT_MAX ->
  (forall j, 0 <= j < cur -> 0 <= byte s j <= 9) ->
  load_label_batch cur (labs, s) = Ok (labs ++ [label_batch (byte s) 0 cur : tensor T], skipn (Z.to_nat cur) s).
Proof.
  intros cur labs s Hc HM Hd. unfold load_label_batch.
  rewrite new_shape_ok_int; [|apply pos2; lia|exact HM]. cbn [bind].
  rewrite (label_batch_start cur s) by auto.
  destruct (for_inv (fun j (st : tensor T * stream) => st = (label_part s cur j, skipn (Z.to_nat j) s)) 0 cur load_label
     (label_part s cur 0, s) ltac:(lia) eq_refl) as (st & E & Est).
  - intros j st Hj ->. rewrite label_step; auto. eexists; split; reflexivity.
  - match goal with |- bind ?m _ = _ => replace m with (Ok st) by (symmetry; exact E) end. rewrite Est. cbn [bind].
    do 3 f_equal. f_equal. apply tensor_of_ext; [apply pos_forall, pos2; lia|].
    intros idx HI. pose proof (in_range_length _ _ HI) as HL. destruct idx as [|r [|c [|]]]; try discriminate HL.
    rewrite !in_range_cons in HI. unfold fn2. cbn [nth]. destruct (Z.ltb_spec r cur); [|lia]. reflexivity.
Qed.

Lemma label_batch_bad : forall cur labs s m, 0 <= m < cur -> cur * (10 * 1) <= INT_MAX ->
  (forall j, 0 <= j < m -> 0 <= byte s j <= 9) -> 9 < byte s m ->
  load_label_batch cur (labs, s) = (Throw OutOfRange : outcome (list (tensor T) * stream)).
Proof.
  intros cur labs s m Hc HM Hd Hb. unfold load_label_batch.
  rewrite new_shape_ok_int; [|apply pos2; lia|exact HM]. cbn [bind].
  rewrite (label_batch_start cur s) by lia.
  rewrite (for_stop 0 cur load_label _ m (Throw OutOfRange) (fun j (st : tensor T * stream) => st = (label_part s cur j, skipn (Z.to_nat j) s)));
    auto; try lia.
  - intros j st Hj ->. rewrite label_step; auto; try lia. eexists; split; reflexivity.
  - intros st ->. apply label_bad; auto.
Qed.

Definition label_state (b n : Z) (s : list Z) (k : Z) (st : list (tensor T) * stream) : Prop :=
  st = (map (fun k => label_batch (byte s) (k * b) (batch_len n b k)) (zrange 0 k), skipn (Z.to_nat (Z.min (k * b) n)) s).

Lemma label_state_0 : forall b n s, 1 <= b -> label_state b n s 0 ([], s).
Proof. intros. unfold label_state. replace (Z.to_nat (Z.min (0 * b) n)) with 0%nat by lia. reflexivity. Qed.

Lemma byte_skip : forall s k j, 0 <= k -> 0 <= j -> byte (skipn (Z.to_nat k) s) j = byte s (k + j).
Proof. intros. unfold byte. rewrite znth_skipn by auto. f_equal. lia. Qed.

Lemma label_state_step : forall b n s k st, 1 <= b -> 0 <= k < num_batches n b -> Z.min b n * 10 <= INT_MAX ->
  (forall i, k * b <= i < k * b + batch_len n b k -> 0 <= byte s i <= 9) -> label_state b n s k st ->
  exists st', load_label_batch (batch_len n b k) st = Ok st' /\ label_state b n s (k + 1) st'.
Proof.
  intros b n s k st Hb Hk HM Hd ->. destruct (batch_len_bounds n b k Hb Hk) as (HL & HL2).
  assert (batch_len n b k <= Z.min b n) by (unfold batch_len in *; nia).
  assert (Emin : Z.min (k * b) n = k * b) by nia.
  assert (Emin2 : Z.min ((k + 1) * b) n = k * b + batch_len n b k) by (unfold batch_len; nia).
  rewrite label_batch_ok; try lia.
  - eexists. split; [reflexivity|]. unfold label_state. rewrite zrange_snoc by lia. rewrite map_app. cbn [map].
    rewrite skipn_skipn', Emin, Emin2. f_equal.
    + do 2 f_equal. unfold label_batch. apply tensor_of_ext; [apply pos_forall, pos2; lia|].
      intros idx HI. pose proof (in_range_length _ _ HI) as HL3. destruct idx as [|r [|c [|]]]; try discriminate HL3.
      rewrite !in_range_cons in HI. unfold fn2. cbn [nth]. rewrite byte_skip by nia. reflexivity.
    + f_equal. nia.
  - intros j Hj. rewrite Emin. rewrite byte_skip by nia. apply Hd. lia.
Qed.

Lemma labels_raw : forall b lim n0 lab,
  1 <= b -> 0 <= n0 <= INT_MAX -> Z.min b (samples lim n0) * 10 <= INT_MAX -> num_batches (samples lim n0) b * b <= INT_MAX ->
  (forall i, 0 <= i < samples lim n0 -> 0 <= byte lab i <= 9) ->
  load_labels b lim (Some (label_header n0 ++ lab)) =
    Ok (batches (samples lim n0) b (label_batch (byte lab) : Z -> Z -> tensor T)).
Proof.
  intros b lim n0 lab Hb Hn HM HI Hd. unfold load_labels, label_header. rewrite <- !app_assoc.
  rewrite read_int_be32 by (unfold INT_MAX; lia). cbn [bind]. rewrite read_int_be32 by lia. cbn [bind].
  change (negb (2049 =? 2049)) with false. cbv iota. fold (samples lim n0). set (n := samples lim n0) in *.
  destruct (batched_ok b n load_label_batch (label_state b n lab) Hb ([], lab) HI (label_state_0 b n lab Hb)) as (st & E & Est).
  - intros k st Hk Hst. apply label_state_step; auto. intros i Hi. destruct (batch_len_bounds n b k Hb Hk). apply Hd. nia.
  - match goal with |- bind ?m _ = _ => replace m with (Ok st) by (symmetry; exact E) end. rewrite Est. cbn [bind]. unfold batches. f_equal. f_equal.
    destruct (Z.max_spec 0 (num_batches n b)) as [(H & ->)|(H & ->)]; auto. rewrite !zrange_nil by lia. reflexivity.
Qed.

Lemma labels_bad : forall b lim n0 lab,
  1 <= b -> 0 <= n0 <= INT_MAX -> samples lim n0 <= INT_MAX -> Z.min b (samples lim n0) * 10 <= INT_MAX ->
  Forall is_byte lab -> (exists i, 0 <= i < samples lim n0 /\ 9 < byte lab i) ->
  load_labels b lim (Some (label_header n0 ++ lab)) = (Throw OutOfRange : outcome (list (tensor T))).
Proof.
  intros b lim n0 lab Hb Hn Hn2 HM HF Hbad. unfold load_labels, label_header. rewrite <- !app_assoc.
  rewrite read_int_be32 by (unfold INT_MAX; lia). cbn [bind]. rewrite read_int_be32 by lia. cbn [bind].
  change (negb (2049 =? 2049)) with false. cbv iota. fold (samples lim n0). set (n := samples lim n0) in *.
  destruct (first_bad (fun i => 9 <? byte lab i) n) as (p & Hp & HP & Hfirst).
  { destruct Hbad as (i & Hi & H). exists i. split; auto. apply Z.ltb_lt. auto. }
  apply Z.ltb_lt in HP.
  assert (Hok : forall i, 0 <= i < p -> 0 <= byte lab i <= 9).
  { intros i Hi. specialize (Hfirst i Hi). apply Z.ltb_ge in Hfirst. pose proof (byte_ok lab i HF). unfold is_byte in *. lia. }
  set (m := p / b). pose proof (Z.div_mod p b ltac:(lia)). pose proof (Z.mod_pos_bound p b ltac:(lia)). fold m in H.
  assert (Hm : 0 <= m) by (apply Z.div_pos; lia).
  assert (Hmb : 0 <= m < num_batches n b) by (split; auto; apply num_batches_spec; auto; nia).
  rewrite (batched_stop b n load_label_batch (label_state b n lab) Hb (Throw OutOfRange) m); auto; try nia.
  - apply label_state_0; auto.
  - intros k st Hk Hst. apply label_state_step; auto; [lia|]. intros i Hi.
    destruct (batch_len_bounds n b k Hb ltac:(lia)). apply Hok. nia.
  - intros st ->. assert (Emin : Z.min (m * b) n = m * b) by nia.
    assert (Hlen : p mod b < batch_len n b m) by (unfold batch_len; nia).
    apply (label_batch_bad _ _ _ (p mod b)); try lia.
    + assert (batch_len n b m <= Z.min b n) by (unfold batch_len; nia). lia.
    + intros j Hj. rewrite Emin, byte_skip by nia. apply Hok. nia.
    + rewrite Emin, byte_skip by nia. replace (m * b + p mod b) with p by nia. auto.
Qed.

Lemma labels_round_trip : forall b lim n0 lab extra,
  1 <= b -> 0 <= n0 <= INT_MAX -> samples lim n0 <= n0 ->
  Z.min b (samples lim n0) * 10 <= INT_MAX -> num_batches (samples lim n0) b * b <= INT_MAX ->
  (forall i, 0 <= i < samples lim n0 -> 0 <= lab i <= 9) ->
  load_labels b lim (Some (label_file n0 lab ++ extra)) =
    Ok (batches (samples lim n0) b (label_batch lab : Z -> Z -> tensor T)).
Proof.
  intros b lim n0 lab extra Hb Hn Hs HM HI Hd. unfold label_file. rewrite <- app_assoc.
  assert (HE : forall i, 0 <= i < n0 -> byte (map lab (zrange 0 n0) ++ extra) i = lab i).
  { intros i Hi. unfold byte. rewrite znth_app1 by (rewrite Zlen_map, Zlen_zrange; lia).
    rewrite (znth_map 0) by (rewrite Zlen_zrange; lia). rewrite znth_zrange by lia. f_equal. }
  rewrite labels_raw; auto.
  - f_equal. apply batches_ext; auto. intros st len H1 H2 H3. unfold label_batch. apply tensor_of_ext; [apply pos_forall, pos2; lia|].
    intros idx HI2. pose proof (in_range_length _ _ HI2) as HL3. destruct idx as [|r [|c [|]]]; try discriminate HL3.
    rewrite !in_range_cons in HI2. unfold fn2. cbn [nth]. rewrite HE by lia. reflexivity.
  - intros i Hi. rewrite HE by lia. auto.
Qed.

Lemma labels_bad_file : forall b lim n0 lab have,
  1 <= b -> 0 <= n0 <= INT_MAX -> samples lim n0 <= INT_MAX -> Z.min b (samples lim n0) * 10 <= INT_MAX ->
  (forall i, 0 <= i < n0 -> is_byte (lab i)) -> 0 <= have <= n0 ->
  (exists i, 0 <= i < samples lim n0 /\ (have <= i \/ 9 < lab i)) ->
  load_labels b lim (Some (label_header n0 ++ map lab (zrange 0 have))) = (Throw OutOfRange : outcome (list (tensor T))).
Proof.
  intros b lim n0 lab have Hb Hn Hs HM HF Hh (i & Hi & Hbad). apply labels_bad; auto.
  - apply Forall_forall. intros x Hx. apply in_map_iff in Hx. destruct Hx as (k & <- & Hk). apply In_zrange in Hk. apply HF. lia.
  - exists i. split; auto. unfold byte. destruct (Z.ltb_spec i have) as [Hlt|Hge].
    + rewrite (znth_map 0) by (rewrite Zlen_zrange; lia). rewrite znth_zrange by lia. rewrite Z.add_0_l. lia.
    + unfold znth. rewrite nth_overflow; [lia|]. rewrite map_length. pose proof (Zlen_zrange 0 have ltac:(lia)) as E. unfold Zlen in E. lia.
Qed.

Lemma labels_overflow : forall b lim n0 lab,
  1 <= b -> 0 <= n0 <= INT_MAX -> samples lim n0 <= INT_MAX -> Z.min b (samples lim n0) * 10 <= INT_MAX ->
  INT_MAX < num_batches (samples lim n0) b * b ->
  (forall i, 0 <= i < samples lim n0 -> 0 <= byte lab i <= 9) ->
  load_labels b lim (Some (label_header n0 ++ lab)) = (UB : outcome (list (tensor T))).
Proof.
  intros b lim n0 lab Hb Hn Hn2 HM HI Hd. unfold load_labels, label_header. rewrite <- !app_assoc.
  rewrite read_int_be32 by (unfold INT_MAX; lia). cbn [bind]. rewrite read_int_be32 by lia. cbn [bind].
  change (negb (2049 =? 2049)) with false. cbv iota. fold (samples lim n0). set (n := samples lim n0) in *.
  assert (Hnb : 0 < num_batches n b) by (unfold INT_MAX in HI; nia).
  set (m := num_batches n b - 1). pose proof (proj1 (num_batches_spec n b m Hb ltac:(lia)) ltac:(lia)).
  assert (E : batched b n load_label_batch ([], lab) = (UB : outcome (list (tensor T) * stream))).
  { unfold batched. change 0 with (0 * b) at 1.
    apply (batch_loop_over b n load_label_batch (label_state b n lab) Hb _ 0 m); try lia.
    - replace (m + 1) with (num_batches n b) by lia. auto.
    - apply label_state_0; auto.
    - intros k st Hk Hst. apply label_state_step; auto; [lia|]. intros i Hi.
      destruct (batch_len_bounds n b k Hb ltac:(lia)). apply Hd. nia. }
  match goal with |- bind ?m _ = _ => replace m with (UB : outcome (list (tensor T) * stream)) by (symmetry; exact E) end. reflexivity.
Qed.

Lemma labels_bad_magic : forall b lim m0 m1 m2 m3 d0 d1 d2 d3 px,
  is_byte m0 -> is_byte m1 -> is_byte m2 -> is_byte m3 -> [m0; m1; m2; m3] <> be32 2049 ->
  load_labels b lim (Some ([m0; m1; m2; m3] ++ [d0; d1; d2; d3] ++ px)) = (Throw RuntimeError : outcome (list (tensor T))).
Proof.
  intros b lim m0 m1 m2 m3 d0 d1 d2 d3 px H0 H1 H2 H3 HN. unfold load_labels. cbn [app].
  pose proof (read_int_magic m0 m1 m2 m3 (d0 :: d1 :: d2 :: d3 :: px) 1 (d0 :: d1 :: d2 :: d3 :: px) H0 H1 H2 H3 ltac:(unfold is_byte; lia)) as HR.
  cbn [read_int bind] in *. set (v := i32 _) in *.
  destruct (Z.eqb_spec v 2049) as [E|]; [|reflexivity]. contradiction HN.
  rewrite HR by (rewrite E; reflexivity). reflexivity.
Qed.

End Labels.

(** ** Float32 *)
Definition f32_byte_ok (b : Z) : bool :=
  let v := f32_div (f32_of_Z b) (f32_of_Z 255) in
  negb (SFltb v (f32_of_Z 0)) && negb (SFltb (f32_of_Z 1) v) && SFleb (f32_of_Z 0) v && SFleb v (f32_of_Z 1) &&
  match ascii_char v with Ok c => Ascii.eqb c (level_char (Z.min 9 (b * 10 / 255))) | _ => false end.
Lemma f32_bytes_checked : forallb f32_byte_ok (zrange 0 256) = true.
Proof. vm_compute. reflexivity. Qed.
Lemma f32_byte : forall b, is_byte b -> f32_byte_ok b = true.
Proof.
  intros b Hb. pose proof f32_bytes_checked as H. rewrite forallb_forall in H. apply H. apply In_zrange.
  unfold is_byte in Hb. lia.
Qed.

Section F32.
Variable lm : libm.
Let SF := F32Scalar lm.
Local Existing Instance SF.

Lemma f32_bytes_scale : bytes_scale (T := f32).
Proof.
  intros b Hb. apply f32_byte in Hb. unfold f32_byte_ok in Hb. rewrite !andb_true_iff, !negb_true_iff in Hb.
  change (scaled b : f32) with (f32_div (f32_of_Z b) (f32_of_Z 255)).
  change (@s_lt f32 SF) with SFltb. change (@s_z f32 SF) with f32_of_Z. tauto.
Qed.

Lemma f32_unit_interval : forall b, is_byte b -> s_le zero (scaled b : f32) = true /\ s_le (scaled b : f32) one = true.
Proof.
  intros b Hb. apply f32_byte in Hb. unfold f32_byte_ok in Hb. rewrite !andb_true_iff, !negb_true_iff in Hb.
  change (scaled b : f32) with (f32_div (f32_of_Z b) (f32_of_Z 255)).
  change (@s_le f32 SF) with SFleb. change (@s_z f32 SF) with f32_of_Z. tauto.
Qed.

Lemma f32_level : forall b, is_byte b -> ascii_char (scaled b : f32) = Ok (level_char (Z.min 9 (b * 10 / 255))).
Proof.
  intros b Hb. apply f32_byte in Hb. unfold f32_byte_ok in Hb. rewrite !andb_true_iff, !negb_true_iff in Hb.
  change (scaled b : f32) with (f32_div (f32_of_Z b) (f32_of_Z 255)).
  destruct Hb as (_ & Hb). destruct (ascii_char _); try discriminate. f_equal. apply Ascii.eqb_eq. auto.
Qed.

Definition art_line (lv : Z -> Z -> Z) (w i : Z) : list ascii := map (fun j => level_char (lv i j)) (zrange 0 w).
Definition art_rows (lv : Z -> Z -> Z) (w n : Z) : list ascii := flat_map (fun i => art_line lv w i ++ [newline]) (zrange 0 n).

Lemma in_range_zeros_app : forall lead h w i j, Forall (fun d => 0 < d) lead -> 0 <= i < h -> 0 <= j < w ->
  in_range (lead ++ [h; w]) (zrepeat 0 (Zlen lead) ++ [i; j]).
Proof.
  intros lead h w i j HF Hi Hj. unfold in_range. apply Forall2_app.
  - unfold zrepeat, Zlen. rewrite Nat2Z.id. apply in_range_zeros; auto.
  - repeat constructor; lia.
Qed.

Lemma not_in_range_app : forall lead h w i j, ~ (0 <= i < h /\ 0 <= j < w) ->
  ~ in_range (lead ++ [h; w]) (zrepeat 0 (Zlen lead) ++ [i; j]).
Proof.
  intros lead h w i j HN H. apply HN. clear HN. unfold zrepeat, Zlen in H. rewrite Nat2Z.id in H.
  induction lead as [|d lead IH]; simpl in H.
  - rewrite !in_range_cons in H. tauto.
  - rewrite in_range_cons in H. tauto.
Qed.

Lemma art_char : forall (t : tensor f32) lead h w bt i j, good t -> tdims t = lead ++ [h; w] ->
  (forall i j, 0 <= i < h -> 0 <= j < w -> is_byte (bt i j) /\ el t (zrepeat 0 (Zlen lead) ++ [i; j]) = scaled (bt i j)) ->
  0 <= i < h -> 0 <= j < w ->
  (v <- t_at t (zrepeat 0 (Zlen lead) ++ [i; j]) ;; ascii_char v) = Ok (level_char (Z.min 9 (bt i j * 10 / 255))).
Proof.
  intros t lead h w bt i j HG HD Hel Hi Hj. pose proof (good_dims t HG) as HF. rewrite HD in HF. apply Forall_app in HF.
  rewrite t_at_ok; auto; [|rewrite HD; apply in_range_zeros_app; tauto]. cbn [bind].
  destruct (Hel i j Hi Hj) as (Hb & ->). apply f32_level; auto.
Qed.

Lemma art_line_ok : forall (t : tensor f32) lead h w bt i n out, good t -> tdims t = lead ++ [h; w] ->
  (forall i j, 0 <= i < h -> 0 <= j < w -> is_byte (bt i j) /\ el t (zrepeat 0 (Zlen lead) ++ [i; j]) = scaled (bt i j)) ->
  0 <= i < h -> 0 <= n <= w ->
  for_ 0 n (fun j out => v <- t_at t (zrepeat 0 (Zlen lead) ++ [i; j]) ;; c <- ascii_char v ;; Ok (out ++ [c])) out =
    Ok (out ++ art_line (fun i j => Z.min 9 (bt i j * 10 / 255)) n i).
Proof.
  intros t lead h w bt i n out HG HD Hel Hi Hn.
  destruct (for_inv (fun j o => o = out ++ art_line (fun i j => Z.min 9 (bt i j * 10 / 255)) j i) 0 n
    (fun j out => v <- t_at t (zrepeat 0 (Zlen lead) ++ [i; j]) ;; c <- ascii_char v ;; Ok (out ++ [c])) out) as (o & E & Eo); try lia.
  - symmetry. apply app_nil_r.
  - intros j o Hj ->. rewrite <- bind_assoc. rewrite (art_char t lead h w bt) by (auto; lia). cbn [bind].
    eexists. split; [reflexivity|]. unfold art_line. rewrite zrange_snoc by lia. rewrite map_app, app_assoc. reflexivity.
  - rewrite E, Eo. reflexivity.
Qed.

Lemma art_ok : forall (t : tensor f32) lead h w bt, good t -> tdims t = lead ++ [h; w] -> 28 <= h -> 28 <= w ->
  (forall i j, 0 <= i < h -> 0 <= j < w -> is_byte (bt i j) /\ el t (zrepeat 0 (Zlen lead) ++ [i; j]) = scaled (bt i j)) ->
  to_ascii_art t = Ok (picture 28 28 (fun i j => Z.min 9 (bt i j * 10 / 255))).
Proof.
  intros t lead h w bt HG HD Hh Hw Hel. unfold to_ascii_art. rewrite HD, Zlen_app.
  change (Zlen [h; w]) with 2. pose proof (Zlen_nonneg lead). destruct (Z.ltb_spec (Zlen lead + 2) 2); [lia|].
  replace (Zlen lead + 2 - 2) with (Zlen lead) by lia.
  match goal with |- for_ 0 28 ?b [] = _ =>
    destruct (for_inv (fun i o => o = art_rows (fun i j => Z.min 9 (bt i j * 10 / 255)) 28 i) 0 28 b []) as (o & E & Eo) end; auto; try lia.
  - intros i o Hi ->. rewrite (art_line_ok t lead h w bt) by (auto; lia). cbn [bind]. eexists. split; [reflexivity|].
    unfold art_rows. rewrite zrange_snoc by lia. rewrite flat_map_app. cbn [flat_map]. rewrite app_nil_r, app_assoc. reflexivity.
  - rewrite E, Eo. reflexivity.
Qed.

Lemma art_small : forall (t : tensor f32) lead h w bt, good t -> tdims t = lead ++ [h; w] -> (h < 28 \/ w < 28) ->
  (forall i j, 0 <= i < h -> 0 <= j < w -> is_byte (bt i j) /\ el t (zrepeat 0 (Zlen lead) ++ [i; j]) = scaled (bt i j)) ->
  to_ascii_art t = Throw OutOfRange.
Proof.
  intros t lead h w bt HG HD Hs Hel. unfold to_ascii_art. rewrite HD, Zlen_app.
  change (Zlen [h; w]) with 2. pose proof (Zlen_nonneg lead). destruct (Z.ltb_spec (Zlen lead + 2) 2); [lia|].
  replace (Zlen lead + 2 - 2) with (Zlen lead) by lia.
  pose proof (good_dims t HG) as HF. rewrite HD in HF. apply Forall_app in HF. destruct HF as (HF1 & HF2).
  assert (Hhw : 0 < h /\ 0 < w) by (inversion HF2 as [|? ? H1 H2]; inversion H2; auto).
  assert (Hout : forall i j, ~ (0 <= i < h /\ 0 <= j < w) -> t_at t (zrepeat 0 (Zlen lead) ++ [i; j]) = Throw OutOfRange).
  { intros i j HN. rewrite t_at_fail; auto; [|rewrite HD; apply not_in_range_app; auto]. rewrite HD.
    assert (EL : length (zrepeat 0 (Zlen lead) ++ [i; j]) = length (lead ++ [h; w])).
    { rewrite !app_length. unfold zrepeat, Zlen. rewrite repeat_length. simpl. lia. }
    rewrite EL, Nat.eqb_refl. reflexivity. }
  destruct (Z.ltb_spec w 28) as [Hw|Hw].
  - match goal with |- for_ 0 28 ?b [] = _ => apply (for_stop 0 28 b [] 0 (Throw OutOfRange) (fun _ _ => True)) end; auto; try lia.
    intros o _. match goal with |- bind (for_ 0 28 ?b o) _ = _ =>
      rewrite (for_stop 0 28 b o w (Throw OutOfRange) (fun j o' => o' = o ++ art_line (fun i j => Z.min 9 (bt i j * 10 / 255)) j 0)) end; auto; try lia.
    + symmetry. apply app_nil_r.
    + intros j o' Hj ->. rewrite <- bind_assoc. rewrite (art_char t lead h w bt) by (auto; lia). cbn [bind].
      eexists. split; [reflexivity|]. unfold art_line. rewrite zrange_snoc by lia. rewrite map_app, app_assoc. reflexivity.
    + intros. rewrite Hout by lia. reflexivity.
  - match goal with |- for_ 0 28 ?b [] = _ =>
      apply (for_stop 0 28 b [] h (Throw OutOfRange) (fun i o => o = art_rows (fun i j => Z.min 9 (bt i j * 10 / 255)) 28 i)) end; auto; try lia.
    + intros i o Hi ->. rewrite (art_line_ok t lead h w bt) by (auto; lia). cbn [bind]. eexists. split; [reflexivity|].
      unfold art_rows. rewrite zrange_snoc by lia. rewrite flat_map_app. cbn [flat_map]. rewrite app_nil_r, app_assoc. reflexivity.
    + intros o _. unfold for_. change (zrange 0 28) with (0 :: zrange 1 28). cbn [foldM]. rewrite Hout by lia. reflexivity.
Qed.
End F32.

(** ** Generators *)
Section Gen.
Context {T D G : Type} {ST : Scalar T} {SD : Scalar D} {RG : Rng D G}.
Variables (to_d : T -> D) (to_f : D -> T) (noise : T).
Let next : G -> (T * T) * G := line_point to_d to_f (rng_uniform (s_z 0) (s_z 100)) (rng_normal (to_d noise)).

Lemma gen_pair_next : forall g, gen_pair to_d to_f noise g = next g.
Proof. reflexivity. Qed.

Lemma after_snoc : forall k (g : G), snd (next (after next k g)) = after next (Datatypes.S k) g.
Proof. induction k; intros; simpl in *; auto. Qed.

Lemma next_drawn : forall i (g : G), 0 <= i ->
  next (after next (Z.to_nat i) g) = (drawn next g i, after next (Z.to_nat (i + 1)) g).
Proof.
  intros i g Hi. replace (Z.to_nat (i + 1)) with (Datatypes.S (Z.to_nat i)) by lia. rewrite <- after_snoc.
  unfold drawn. destruct (next _). reflexivity.
Qed.

Lemma gen_linear_ok : forall n g,
  gen_linear to_d to_f n noise g =
    Ok (map (fun i => tensor_of [1] (fun _ => fst (drawn next g i))) (zrange 0 n),
        map (fun i => tensor_of [1] (fun _ => snd (drawn next g i))) (zrange 0 n)).
Proof.
  intros n g. unfold gen_linear. destruct (Z.ltb_spec n 0) as [Hn|Hn].
  { unfold for_. rewrite zrange_nil by lia. reflexivity. }
  match goal with |- bind (for_ 0 n ?b _) _ = _ =>
    destruct (for_inv (fun k st => st = (map (fun i => tensor_of [1] (fun _ => fst (drawn next g i))) (zrange 0 k),
        map (fun i => tensor_of [1] (fun _ => snd (drawn next g i))) (zrange 0 k), after next (Z.to_nat k) g)) 0 n b ([], [], g)) as (st & E & Est) end; auto.
  - intros k st Hk ->. rewrite gen_pair_next, next_drawn by lia. destruct (drawn next g k) as (x, y) eqn:Ed.
    rewrite new_shape_ok_int; [|apply pos1; lia|vm_compute; discriminate]. cbn [bind].
    eexists. split; [reflexivity|]. rewrite zrange_snoc by lia. rewrite !map_app. cbn [map]. rewrite Ed. cbn [fst snd].
    rewrite !tensor_of_fill by (apply pos_forall, pos1; lia). reflexivity.
  - rewrite E, Est. reflexivity.
Qed.

Definition col_part (sel : T * T -> T) (g : G) (o cur j : Z) : tensor T :=
  tensor_of [cur; 1] (fn2 (fun r _ => if r <? j then sel (drawn next g (o + r)) else zero)).

Lemma col_set : forall sel g o cur j, 0 <= j < cur -> cur * (1 * 1) <= INT_MAX ->
  t_at_set (col_part sel g o cur j) [j; 0] (sel (drawn next g (o + j))) = Ok (col_part sel g o cur (j + 1)).
Proof.
  intros sel g o cur j Hj HM. unfold col_part. rewrite set_tensor_of; [|apply pos2; lia|exact HM|apply in_range2; lia].
  f_equal. apply tensor_of_ext; [apply pos_forall, pos2; lia|].
  intros idx HI. pose proof (in_range_length _ _ HI) as HL. destruct idx as [|r [|c [|]]]; try discriminate HL.
  rewrite !in_range_cons in HI. unfold fn2. cbn [nth ravel prod].
  destruct (Z.eqb_spec (r * (1 * 1) + (c * 1 + 0)) (j * (1 * 1) + (0 * 1 + 0))).
  - replace r with j by lia. destruct (Z.ltb_spec j (j + 1)); auto; lia.
  - destruct (Z.ltb_spec r j), (Z.ltb_spec r (j + 1)); auto; lia.
Qed.

Lemma col_start : forall sel g o cur, 0 < cur -> t_new (shape_of [cur; 1]) = col_part sel g o cur 0.
Proof.
  intros. rewrite tensor_of_new by (apply pos_forall, pos2; lia). apply tensor_of_ext; [apply pos_forall, pos2; lia|].
  intros idx HI. pose proof (in_range_length _ _ HI) as HL. destruct idx as [|r [|c [|]]]; try discriminate HL.
  rewrite !in_range_cons in HI. unfold fn2. cbn [nth]. destruct (Z.ltb_spec r 0); auto; lia.
Qed.

Lemma col_end : forall sel g o cur, 0 < cur -> col_part sel g o cur cur = tensor_of [cur; 1] (fn2 (fun r _ => sel (drawn next g (o + r)))).
Proof.
  intros. apply tensor_of_ext; [apply pos_forall, pos2; lia|].
  intros idx HI. pose proof (in_range_length _ _ HI) as HL. destruct idx as [|r [|c [|]]]; try discriminate HL.
  rewrite !in_range_cons in HI. unfold fn2. cbn [nth]. destruct (Z.ltb_spec r cur); auto; lia.
Qed.

Lemma gen_batched_ok : forall n b g, 0 <= n -> 1 <= b -> n + b <= INT_MAX ->
  gen_batched to_d to_f n b noise g =
    Ok (batches n b (fun st len => tensor_of [len; 1] (fn2 (fun r _ => fst (drawn next g (st + r))))),
        batches n b (fun st len => tensor_of [len; 1] (fn2 (fun r _ => snd (drawn next g (st + r)))))).
Proof.
  intros n b g Hn Hb HM. unfold gen_batched.
  rewrite chk32_ok by (unfold INT_MIN; lia). cbn [bind]. rewrite chk32_ok by (unfold INT_MIN; lia). cbn [bind].
  destruct (Z.eqb_spec b 0); [lia|]. rewrite Z.quot_div_nonneg by lia. fold (num_batches n b).
  assert (Hnb : 0 <= num_batches n b <= n + b - 1).
  { unfold num_batches. split; [apply Z.div_pos; lia|]. apply Z.div_le_upper_bound; nia. }
  rewrite chk32_ok by (unfold INT_MIN; lia). cbn [bind].
  match goal with |- bind (for_ 0 _ ?bd _) _ = _ =>
    destruct (for_inv (fun k st => st = (map (fun k => tensor_of [batch_len n b k; 1] (fn2 (fun r _ => fst (drawn next g (k * b + r))))) (zrange 0 k),
        map (fun k => tensor_of [batch_len n b k; 1] (fn2 (fun r _ => snd (drawn next g (k * b + r))))) (zrange 0 k), after next (Z.to_nat (Z.min (k * b) n)) g)) 0 (num_batches n b) bd ([], [], g)) as (st & E & Est) end; auto; try lia.
  - replace (Z.to_nat (Z.min (0 * b) n)) with 0%nat by lia. reflexivity.
  - intros k st Hk ->. destruct (batch_len_bounds n b k Hb Hk) as (HL & HL2).
    assert (Hkb : 0 <= k * b < n) by nia.
    rewrite chk32_ok by (unfold INT_MIN; lia). cbn [bind]. rewrite chk32_ok by (unfold INT_MIN; lia). cbn [bind].
    fold (batch_len n b k). cbv zeta. set (cur := batch_len n b k) in *.
    rewrite new_shape_ok_int; [|apply pos2; lia|cbn [prod]; lia]. cbn [bind].
    replace (Z.min (k * b) n) with (k * b) by lia.
    match goal with |- context [for_ 0 cur ?bd ?s0] =>
      destruct (for_inv (fun j st => st = (col_part fst g (k * b) cur j, col_part snd g (k * b) cur j, after next (Z.to_nat (k * b + j)) g)) 0 cur bd s0)
        as (st & E & Est) end; try lia.
    + rewrite Z.add_0_r. rewrite <- !col_start by lia. reflexivity.
    + intros j st Hj ->. rewrite gen_pair_next, next_drawn by lia. destruct (drawn next g (k * b + j)) as (x, y) eqn:Ed.
      pose proof (col_set fst g (k * b) cur j Hj ltac:(lia)) as E1. rewrite Ed in E1. cbn [fst] in E1. rewrite E1. cbn [bind].
      pose proof (col_set snd g (k * b) cur j Hj ltac:(lia)) as E2. rewrite Ed in E2. cbn [snd] in E2. rewrite E2. cbn [bind].
      eexists. split; [reflexivity|]. rewrite Z.add_assoc. reflexivity.
    + rewrite E, Est. cbn [bind]. eexists. split; [reflexivity|]. rewrite zrange_snoc by lia. rewrite !map_app. cbn [map].
      rewrite !col_end by lia. fold cur. do 2 f_equal. f_equal. unfold cur, batch_len. lia.
  - rewrite E, Est. reflexivity.
Qed.

End Gen.

(** ** Both files together *)
Section Both.
Context {T : Type} {S : Scalar T}.
Hypothesis HB : bytes_scale (T := T).

Lemma data_ok : forall b lim ni nl rows cols img lab ex ex',
  1 <= b -> 0 <= ni <= INT_MAX -> 0 <= nl <= INT_MAX -> 1 <= rows <= INT_MAX -> 1 <= cols <= INT_MAX ->
  samples lim ni <= ni -> samples lim nl <= nl ->
  Z.min b (samples lim ni) * rows * cols <= INT_MAX -> Z.min b (samples lim nl) * 10 <= INT_MAX ->
  num_batches (samples lim ni) b * b <= INT_MAX -> num_batches (samples lim nl) b * b <= INT_MAX ->
  (forall i r c, 0 <= i < ni -> 0 <= r < rows -> 0 <= c < cols -> is_byte (img i r c)) -> Forall is_byte ex ->
  (forall i, 0 <= i < samples lim nl -> 0 <= lab i <= 9) ->
  load_data b lim (Some (image_file ni rows cols img ++ ex)) (Some (label_file nl lab ++ ex')) =
    Ok (batches (samples lim ni) b (image_batch rows cols img : Z -> Z -> tensor T),
        batches (samples lim nl) b (label_batch lab : Z -> Z -> tensor T)).
Proof.
  intros. unfold load_data. rewrite images_round_trip by auto. cbn [bind]. rewrite labels_round_trip by auto. reflexivity.
Qed.

Lemma data_aligned : forall b lim n rows cols img lab ex ex',
  1 <= b -> 0 <= n <= INT_MAX -> 1 <= rows <= INT_MAX -> 1 <= cols <= INT_MAX ->
  0 <= samples lim n <= n ->
  Z.min b (samples lim n) * rows * cols <= INT_MAX -> Z.min b (samples lim n) * 10 <= INT_MAX ->
  num_batches (samples lim n) b * b <= INT_MAX ->
  (forall i r c, 0 <= i < n -> 0 <= r < rows -> 0 <= c < cols -> is_byte (img i r c)) -> Forall is_byte ex ->
  (forall i, 0 <= i < samples lim n -> 0 <= lab i <= 9) ->
  exists (xs ys : list (tensor T)),
    load_data b lim (Some (image_file n rows cols img ++ ex)) (Some (label_file n lab ++ ex')) = Ok (xs, ys) /\
    length xs = length ys /\ map height xs = map height ys /\ total (map height xs) = samples lim n /\
    forall k j d, 0 <= k < Zlen xs -> 0 <= j < height (znth d xs k) ->
      (forall r c, 0 <= r < rows -> 0 <= c < cols -> el (znth d xs k) [j; 0; r; c] = scaled (img (k * b + j) r c)) /\
      (forall c, 0 <= c < 10 -> el (znth d ys k) [j; c] = if c =? lab (k * b + j) then one else zero).
Proof.
  intros b lim n rows cols img lab ex ex' Hb Hn Hr Hc Hs H1 H2 H3 H4 H5 H6.
  do 2 eexists. split; [apply data_ok; auto; lia|].
  assert (Hh1 : forall st len, height (image_batch rows cols img st len : tensor T) = len) by reflexivity.
  assert (Hh2 : forall st len, height (label_batch lab st len : tensor T) = len) by reflexivity.
  destruct (batches_shape (samples lim n) b _ Hb ltac:(lia) Hh1) as (L1 & F1 & T1).
  destruct (batches_shape (samples lim n) b _ Hb ltac:(lia) Hh2) as (L2 & F2 & T2).
  split; [unfold Zlen in *; lia|]. split; [unfold batches; rewrite !map_map; apply map_ext; intro; rewrite Hh1, Hh2; auto|].
  split; [auto|]. intros k j d Hk Hj. rewrite L1 in Hk. rewrite batches_nth in * by auto. rewrite Hh1 in Hj.
  rewrite batches_nth by auto. split.
  - intros r c Hr' Hc'. unfold image_batch. rewrite el_tensor_of by (apply in_range4; lia). reflexivity.
  - intros c Hc'. unfold label_batch. rewrite el_tensor_of by (apply in_range2; lia). reflexivity.
Qed.

End Both.

(** A file too short for its header. *)
Lemma header_short : forall {T} {S : Scalar T} b lim f, (Zlen f < 16 -> load_images b lim (Some f) = (UB : outcome (list (tensor T)))) /\
  (Zlen f < 8 -> load_labels b lim (Some f) = (UB : outcome (list (tensor T)))).
Proof.
  intros T S b lim f. split; intro H.
  - do 16 (destruct f as [|? f]; [reflexivity|rewrite Zlen_cons in H]). pose proof (Zlen_nonneg f). lia.
  - do 8 (destruct f as [|? f]; [reflexivity|rewrite Zlen_cons in H]). pose proof (Zlen_nonneg f). lia.
Qed.

Lemma batch_nonpos : forall {T} {S : Scalar T} b lim n0 rows cols px lab, b <= 0 -> 0 < samples lim n0 ->
  0 <= n0 <= INT_MAX -> 0 <= rows <= INT_MAX -> 0 <= cols <= INT_MAX ->
  load_images b lim (Some (image_header n0 rows cols ++ px)) = (Throw InvalidArgument : outcome (list (tensor T))) /\
  load_labels b lim (Some (label_header n0 ++ lab)) = (Throw InvalidArgument : outcome (list (tensor T))).
Proof.
  intros T S b lim n0 rows cols px lab Hb Hn Hn0 Hr Hc. split.
  - unfold load_images, image_header. rewrite <- !app_assoc. rewrite read_int_be32 by (unfold INT_MAX; lia). cbn [bind].
    rewrite read_int_be32 by lia. cbn [bind]. rewrite read_int_be32 by lia. cbn [bind].
    rewrite read_int_be32 by lia. cbn [bind]. change (negb (2051 =? 2051)) with false. cbv iota.
    fold (samples lim n0). unfold batched. cbn [batch_loop]. destruct (Z.ltb_spec 0 (samples lim n0)); [|lia].
    unfold load_image_batch. rewrite new_shape_throw; [reflexivity|]. intros (_ & HF). inversion HF; lia.
  - unfold load_labels, label_header. rewrite <- !app_assoc. rewrite read_int_be32 by (unfold INT_MAX; lia). cbn [bind].
    rewrite read_int_be32 by lia. cbn [bind]. change (negb (2049 =? 2049)) with false. cbv iota.
    fold (samples lim n0). unfold batched. cbn [batch_loop]. destruct (Z.ltb_spec 0 (samples lim n0)); [|lia].
    unfold load_label_batch. rewrite new_shape_throw; [reflexivity|]. intros (_ & HF). inversion HF; lia.
Qed.
Lemma gen_sizes : forall {T D G} {ST : Scalar T} {SD : Scalar D} {RG : Rng D G} (to_d : T -> D) (to_f : D -> T) noise n b (g : G),
  0 <= n -> 1 <= b -> n + b <= INT_MAX ->
  exists xs ys, gen_batched to_d to_f n b noise g = Ok (xs, ys) /\ length xs = length ys /\
    Zlen xs = num_batches n b /\ map height xs = map height ys /\
    Forall (fun t => 1 <= height t <= b) xs /\ total (map height xs) = n.
Proof.
  intros T D G ST SD RG to_d to_f noise n b g Hn Hb HM. do 2 eexists. split; [apply gen_batched_ok; auto|].
  match goal with |- length (batches n b ?f) = length (batches n b ?f') /\ _ =>
    destruct (batches_shape n b f Hb Hn (fun _ _ => eq_refl)) as (L1 & F1 & T1);
    destruct (batches_shape n b f' Hb Hn (fun _ _ => eq_refl)) as (L2 & F2 & T2) end.
  split; [unfold Zlen in *; lia|]. split; [auto|]. split; [|auto].
  unfold batches. rewrite !map_map. apply map_ext. reflexivity.
Qed.
