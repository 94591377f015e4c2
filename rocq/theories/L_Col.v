(** * im2col and col2im (C120) *)
From Coq Require Import Reals Lra Permutation.
From Verif Require Import Base Scalar ScalarR Types Spec M_Shape M_Tensor M_Adv M_Layers M_Col SpecR SpecNN SpecCol
  L_Index L_Shape L_Bcast L_Tensor L_Reduce L_Tensor2 L_Glue L_Nest L_Matmul L_RSum L_AdvR L_ActR L_Loss L_Conv L_ConvR.
Local Open Scope Z_scope.

Section S.
Context {T : Type} {S : Scalar T}.

Lemma for6_nest : forall {St} a b c d e f (body : Z -> Z -> Z -> Z -> Z -> Z -> St -> outcome St) s,
  for_ 0 a (fun i => for_ 0 b (fun j => for_ 0 c (fun k => for_ 0 d (fun l => for_ 0 e (fun m => for_ 0 f (body i j k l m)))))) s =
  nest [a; b; c; d; e; f] (fun idx => body (nth 0 idx 0) (nth 1 idx 0) (nth 2 idx 0) (nth 3 idx 0) (nth 4 idx 0) (nth 5 idx 0)) s.
Proof. reflexivity. Qed.
Lemma in_range_6 : forall a b c d e f idx, in_range [a; b; c; d; e; f] idx ->
  exists i j k l m n, idx = [i; j; k; l; m; n] /\ 0 <= i < a /\ 0 <= j < b /\ 0 <= k < c /\ 0 <= l < d /\ 0 <= m < e /\ 0 <= n < f.
Proof.
  intros a b c d e f idx H. inversion H as [|? i ? r H1 H2]; subst. destruct (in_range_4 c d e f) with (idx := tl r) as (k & l & m & n & E & ?).
  - inversion H2; subst. cbn. auto.
  - inversion H2 as [|? j ? r' H3 H4]; subst. cbn in E. subst r'. exists i, j, k, l, m, n. tauto.
Qed.
(** Every element written once, in any order. *)
Lemma nest_put : forall ds D (pos inv : list Z -> list Z) (f : list Z -> T) body (t : tensor T), Forall (fun d => 0 < d) ds -> good t -> tdims t = D ->
  (forall k, in_range ds k -> in_range D (pos k) /\ inv (pos k) = k) -> (forall p, in_range D p -> in_range ds (inv p) /\ pos (inv p) = p) ->
  (forall k (o : tensor T), in_range ds k -> good o -> tdims o = D -> body k o = Ok (set_el o (pos k) (f k))) ->
  nest ds body t = Ok (tensor_of D (fun p => f (inv p))).
Proof.
  intros ds D pos inv f body t HF Hg HD HP HI HB. pose proof (prod_pos _ HF) as HPP.
  destruct (nest_inv (fun k (o : tensor T) => good o /\ tdims o = D /\ forall j, 0 <= j < k -> el o (pos (unravel ds j)) = f (unravel ds j)) ds body t) as (o & E & Go & Eo & HE); [auto| | |].
  - split; [auto|]. split; [auto|]. intros; lia.
  - intros k o Hk (Go & Eo & HE). pose proof (unravel_range ds k HF Hk) as HK. rewrite HB by auto. eexists; split; [reflexivity|].
    split; [apply good_set_el; auto|]. split; [auto|]. intros j Hj. pose proof (unravel_range ds j HF ltac:(lia)) as HJ.
    rewrite el_set_el by (auto; rewrite Eo; apply HP; auto). destruct (list_eq_dec Z.eq_dec (pos (unravel ds j)) (pos (unravel ds k))) as [EP|NP].
    + assert (EU : unravel ds j = unravel ds k) by (rewrite <- (proj2 (HP _ HJ)), <- (proj2 (HP _ HK)); congruence). congruence.
    + apply HE. assert (j <> k) by congruence. lia.
  - rewrite E. f_equal. rewrite <- Eo. apply tensor_eta; auto. rewrite Eo. intros p Hp. destruct (HI p Hp) as (H1 & H2).
    specialize (HE (ravel ds (inv p)) (ravel_bound _ _ H1)). rewrite unravel_ravel in HE by auto. rewrite H2 in HE. auto.
Qed.
(** Accumulation at computed positions, some of them left out. *)
Lemma nest_gather : forall ds (on : list Z -> bool) (pos : list Z -> list Z) (v : list Z -> T) body (t : tensor T), Forall (fun d => 0 < d) ds -> good t ->
  (forall k, in_range ds k -> on k = true -> in_range (tdims t) (pos k)) ->
  (forall k (o : tensor T), in_range ds k -> good o -> tdims o = tdims t -> body k o = Ok (if on k then set_el o (pos k) (s_add (el o (pos k)) (v k)) else o)) ->
  nest ds body t = Ok (tensor_of (tdims t) (fun p => fold_left s_add (map v (filter (fun k => on k && idx_eqb (pos k) p) (all_indices ds))) (el t p))).
Proof.
  intros ds on pos v body t HF Hg HR HB. pose proof (prod_pos _ HF) as HPP.
  destruct (nest_inv (fun k o => good o /\ tdims o = tdims t /\ forall p, in_range (tdims t) p ->
     el o p = fold_left s_add (map v (filter (fun k => on k && idx_eqb (pos k) p) (map (unravel ds) (zrange 0 k)))) (el t p)) ds body t) as (o & E & Go & Eo & HE); [auto| | |].
  - split; [auto|]. split; [auto|]. intros p Hp. reflexivity.
  - intros k o Hk (Go & Eo & HE). pose proof (unravel_range ds k HF Hk) as HI. rewrite HB by auto. eexists; split; [reflexivity|].
    split; [destruct (on _); [apply good_set_el|]; auto|]. split; [destruct (on _); auto|]. intros p Hp.
    rewrite zrange_snoc by lia. rewrite map_app, filter_app, map_app, fold_left_app. cbn [map filter]. destruct (on (unravel ds k)) eqn:EO; cbn [andb].
    + rewrite el_set_el by (auto; rewrite Eo; auto). destruct (list_eq_dec Z.eq_dec p (pos (unravel ds k))) as [->|Hne].
      * rewrite idx_eqb_refl. cbn [map fold_left]. rewrite HE by auto. reflexivity.
      * rewrite idx_eqb_neq by congruence. rewrite HE by auto. reflexivity.
    + rewrite HE by auto. reflexivity.
  - rewrite E. f_equal. rewrite <- Eo. apply tensor_eta; auto. rewrite Eo. intros p Hp. rewrite HE by auto. reflexivity.
Qed.

(** ** Sizes *)
Section Fit.
Variables n ic h w kh kw stride pad dil : Z.
Hypothesis HF : patches_fit n ic h w kh kw stride pad dil.
Hypothesis Hn : 0 < n. Hypothesis Hic : 0 < ic. Hypothesis Hh : 0 < h. Hypothesis Hw : 0 < w.
Local Notation oh := (conv_extent stride pad dil h kh).
Local Notation ow := (conv_extent stride pad dil w kw).

Lemma extent_ok : forall d k, 0 < k -> 0 < d -> dil * (k - 1) < d + 2 * pad <= INT_MAX -> col_extent d pad dil k stride = Ok (conv_extent stride pad dil d k) /\ 0 < conv_extent stride pad dil d k /\
  forall o p, 0 <= o < conv_extent stride pad dil d k -> 0 <= p < k -> col_at o stride p dil pad = Ok (o * stride + p * dil - pad).
Proof.
  intros d k Hk Hd HD. destruct HF as (_ & _ & Hs & Hp & Hdl & _). unfold conv_extent. set (N := d + 2 * pad - dil * (k - 1) - 1).
  assert (HN : 0 <= N <= INT_MAX) by (unfold N; nia). assert (HQ : 0 <= N / stride <= N) by (split; [apply Z.div_pos; lia|]; apply Z.div_le_upper_bound; nia).
  assert (HK : k - 1 <= INT_MAX /\ 0 <= dil * (k - 1)) by nia.
  split; [|split; [lia|]].
  - unfold col_extent. rewrite chk32_ok by (unfold INT_MIN; nia). cbn [bind]. rewrite chk32_ok by (unfold INT_MIN; nia). cbn [bind]. rewrite chk32_ok by (unfold INT_MIN; nia). cbn [bind].
    rewrite chk32_ok by (unfold INT_MIN; nia). cbn [bind]. rewrite chk32_ok by (unfold INT_MIN; nia). cbn [bind]. rewrite chk32_ok by (unfold INT_MIN; nia). cbn [bind].
    destruct (Z.eqb_spec stride 0); [lia|]. fold N. rewrite Z.quot_div_nonneg by lia. rewrite chk32_ok by (unfold INT_MIN; nia). cbn [bind]. apply chk32_ok. unfold INT_MIN. 
    assert (N / stride < INT_MAX) by (unfold N in *; nia). lia.
  - intros o p Ho Hp'. assert (o * stride <= N). { assert (stride * (N / stride) <= N) by (apply Z.mul_div_le; lia). nia. }
    assert (0 <= p * dil <= dil * (k - 1)) by nia. assert (0 <= o * stride) by nia.
    unfold col_at. rewrite chk32_ok by (unfold INT_MIN; nia). cbn [bind]. rewrite chk32_ok by (unfold INT_MIN; nia). cbn [bind]. rewrite chk32_ok by (unfold INT_MIN, N in *; lia). cbn [bind]. apply chk32_ok. assert (2 * pad <= INT_MAX) by lia. unfold INT_MIN, INT_MAX, N in *. lia.
Qed.
Lemma sizes : 0 < oh /\ 0 < ow /\ 0 < ic * (kh * kw) /\ 0 < n * (oh * ow) /\ ic * (kh * kw) <= INT_MAX /\ n * (oh * ow) <= INT_MAX.
Proof.
  pose proof HF as (H1 & H2 & Hs & Hp & Hdl & HA & HB & HM). pose proof (proj1 (proj2 (extent_ok h kh H1 Hh HA))) as A. pose proof (proj1 (proj2 (extent_ok w kw H2 Hw HB))) as B.
  assert (0 < kh * kw) by nia. assert (0 < oh * ow) by nia. assert (X : 0 < ic * (kh * kw)) by nia. assert (Y : 0 < n * (oh * ow)) by nia. destruct (le_mul_pos _ _ _ X Y HM). tauto.
Qed.
Definition cell_of (k : list Z) : list Z := [ravel [ic; kh; kw] [nth 1 k 0; nth 2 k 0; nth 3 k 0]; ravel [n; oh; ow] [nth 0 k 0; nth 4 k 0; nth 5 k 0]].
Definition key_of (p : list Z) : list Z :=
  let a := unravel [ic; kh; kw] (nth 0 p 0) in let b := unravel [n; oh; ow] (nth 1 p 0) in [nth 0 b 0; nth 0 a 0; nth 1 a 0; nth 2 a 0; nth 1 b 0; nth 2 b 0].
Definition spot (k : list Z) : list Z := [nth 0 k 0; nth 1 k 0; nth 4 k 0 * stride + nth 2 k 0 * dil - pad; nth 5 k 0 * stride + nth 3 k 0 * dil - pad].
Definition inside (k : list Z) : bool := let y := nth 2 (spot k) 0 in let z := nth 3 (spot k) 0 in (0 <=? y) && (y <? h) && (0 <=? z) && (z <? w).
Local Notation keys := [n; ic; kh; kw; oh; ow].
Local Notation cells := [ic * (kh * kw); n * (oh * ow)].
Lemma prod3 : forall a b c, prod [a; b; c] = a * (b * c). Proof. intros. cbn [prod]. ring. Qed.
Lemma keys_pos : Forall (fun d => 0 < d) keys.
Proof. pose proof sizes as (A & B & _). destruct HF as (H1 & H2 & _). repeat constructor; auto. Qed.
Lemma pos3 : forall a b c, 0 < a -> 0 < b -> 0 < c -> Forall (fun d => 0 < d) [a; b; c]. Proof. intros. repeat constructor; auto. Qed.
Lemma in_range3 : forall a b c i j k, 0 <= i < a -> 0 <= j < b -> 0 <= k < c -> in_range [a; b; c] [i; j; k]. Proof. intros. repeat constructor; auto; lia. Qed.
Lemma unravel3 : forall a b c k, 0 < a -> 0 < b -> 0 < c -> 0 <= k < a * (b * c) -> exists i j l, unravel [a; b; c] k = [i; j; l] /\ 0 <= i < a /\ 0 <= j < b /\ 0 <= l < c.
Proof.
  intros a b c k Ha Hb Hc Hk. pose proof (unravel_range [a; b; c] k (pos3 _ _ _ Ha Hb Hc)) as H. rewrite prod3 in H. specialize (H Hk). apply in_range_3 in H. destruct H as (i & j & l & -> & ?). exists i, j, l. tauto.
Qed.
Lemma cell_key : forall k, in_range keys k -> in_range cells (cell_of k) /\ key_of (cell_of k) = k.
Proof.
  intros k HK. pose proof sizes as (A & B & _). destruct HF as (H1 & H2 & _). apply in_range_6 in HK. destruct HK as (i & c & p & q & y & z & -> & Ki & Kc & Kp & Kq & Ky & Kz).
  pose proof (in_range3 ic kh kw c p q Kc Kp Kq) as R1. pose proof (in_range3 n oh ow i y z Ki Ky Kz) as R2.
  pose proof (ravel_bound _ _ R1) as B1. pose proof (ravel_bound _ _ R2) as B2. rewrite prod3 in B1, B2. unfold cell_of, key_of. cbn [nth]. split; [apply in_range2; auto|]. rewrite !unravel_ravel by auto. reflexivity.
Qed.
Lemma key_cell : forall p, in_range cells p -> in_range keys (key_of p) /\ cell_of (key_of p) = p.
Proof.
  intros p HP. pose proof sizes as (A & B & _). pose proof HF as (H1 & H2 & _). apply in_range_2 in HP. destruct HP as (r & c & -> & Hr & Hc). unfold cell_of, key_of. cbn [nth].
  destruct (unravel3 ic kh kw r Hic H1 H2 Hr) as (i1 & i2 & i3 & E1 & ?). destruct (unravel3 n oh ow c Hn A B Hc) as (j1 & j2 & j3 & E2 & ?). rewrite E1, E2. cbn [nth].
  split; [repeat constructor; try tauto; lia|]. rewrite <- E1, <- E2, !ravel_unravel; [reflexivity|..]; rewrite ?prod3; auto using pos3.
Qed.
Lemma flat_ok : forall (x : tensor T) i c y z, good x -> tdims x = [n; ic; h; w] -> in_range (tdims x) [i; c; y; z] -> col_flat (sstride (tshape x)) i c y z = Ok (ravel (tdims x) [i; c; y; z]).
Proof.
  intros x i c y z Gx Ex HR. pose proof (ravel_bound _ _ HR) as HB. pose proof (good_max x Gx) as HM. rewrite good_shape by auto. rewrite Ex in *. unfold col_flat. cbn [shape_of sstride strides_of]. cbn [prod]. 
  match goal with |- context [rd ?l 0] => change (rd l 0) with (Ok (nth 0 l 0)); change (rd l 1) with (Ok (nth 1 l 0)); change (rd l 2) with (Ok (nth 2 l 0)); change (rd l 3) with (Ok (nth 3 l 0)) end. cbn [bind nth].
  f_equal. rewrite u64_id; [cbn [ravel prod]; ring|]. cbn [ravel prod] in HB. cbn [prod] in HM. unfold INT_MAX, two64 in *. split; lia.
Qed.
Lemma spot_in : forall k (x : tensor T), in_range keys k -> tdims x = [n; ic; h; w] -> inside k = true -> in_range (tdims x) (spot k).
Proof.
  intros k x HK Ex HI. rewrite Ex. apply in_range_6 in HK. destruct HK as (i & c & p & q & y & z & -> & Ki & Kc & Kp & Kq & Ky & Kz). unfold inside, spot in *. cbn [nth] in *.
  apply andb_prop in HI. destruct HI as (HI & H4). apply andb_prop in HI. destruct HI as (HI & H3). apply andb_prop in HI. destruct HI as (H1 & H2). apply in_range4; auto; lia.
Qed.
Definition seen_at (x : tensor T) (k : list Z) : T := if inside k then el x (spot k) else zero.
Lemma patches_keys : forall x : tensor T, patches n ic h w kh kw stride pad dil x = tensor_of cells (fun p => seen_at x (key_of p)).
Proof. intros x. reflexivity. Qed.
Theorem im2col_ok : forall x : tensor T, good x -> tdims x = [n; ic; h; w] -> im2col x kh kw stride pad dil = Ok (patches n ic h w kh kw stride pad dil x).
Proof.
  intros x Gx Ex. rewrite patches_keys. pose proof sizes as (A & B & X & Y & X1 & Y1). pose proof HF as (H1 & H2 & Hs & Hp & Hdl & HA & HB & HM).
  destruct (extent_ok h kh H1 Hh HA) as (EH & _ & PH). destruct (extent_ok w kw H2 Hw HB) as (EW & _ & PW).
  unfold im2col. rewrite Ex. change (rd [n; ic; h; w] 0) with (Ok n). change (rd [n; ic; h; w] 1) with (Ok ic). change (rd [n; ic; h; w] 2) with (Ok h). change (rd [n; ic; h; w] 3) with (Ok w). cbn [bind].
  rewrite EH, EW. cbn [bind]. assert (0 < kh * kw) by nia. assert (0 < oh * ow) by nia.
  rewrite chk32_ok by (unfold INT_MIN; nia). cbn [bind]. replace (ic * kh * kw) with (ic * (kh * kw)) by ring. rewrite chk32_ok by (unfold INT_MIN; nia). cbn [bind].
  rewrite chk32_ok by (unfold INT_MIN; nia). cbn [bind]. replace (oh * ow * n) with (n * (oh * ow)) by ring. rewrite chk32_ok by (unfold INT_MIN; nia). cbn [bind].
  assert (HP : pos_dims cells) by (apply pos2; auto). assert (HPM : prod cells <= INT_MAX) by (cbn [prod]; lia).
  rewrite new_shape_ok_int by auto. cbn [bind]. rewrite for6_nest. apply (nest_put keys cells cell_of key_of (seen_at x)); [apply keys_pos|apply good_new; auto|reflexivity|apply cell_key|apply key_cell|].
  intros k o HK Go Eo. pose proof (cell_key k HK) as (HC & _). pose proof HK as HK'. apply in_range_6 in HK'. destruct HK' as (i & c & p & q & y & z & -> & Ki & Kc & Kp & Kq & Ky & Kz). cbn [nth].
  rewrite PH, PW by auto. cbn [bind].
  replace (c * kh * kw + p * kw + q) with (ravel [ic; kh; kw] [c; p; q]) by (cbn [ravel prod]; ring). replace ((i * oh + y) * ow + z) with (ravel [n; oh; ow] [i; y; z]) by (cbn [ravel prod]; ring).
  unfold seen_at. pose proof (spot_in [i; c; p; q; y; z] x HK Ex) as HI. unfold inside, spot, cell_of in *. cbn [nth] in *.
  destruct (_ && _) eqn:EI.
  - rewrite flat_ok by (auto; rewrite Ex; rewrite Ex in HI; auto). cbn [bind]. unfold t_get. rewrite (rd_ok zero) by (rewrite good_len by auto; apply ravel_bound; auto). cbn [bind]. apply t_at_set_ok; auto. rewrite Eo. auto.
  - apply t_at_set_ok; auto. rewrite Eo. auto.
Qed.
Theorem col2im_ok : forall m : tensor T, n * (ic * (h * w)) <= INT_MAX -> good m -> tdims m = cells ->
  col2im m (shape_of [n; ic; h; w]) kh kw stride pad dil =
    Ok (tensor_of [n; ic; h; w] (fun p => fold_left s_add (map (fun k => el m (cell_of k)) (filter (fun k => inside k && idx_eqb (spot k) p) (all_indices keys))) zero)).
Proof.
  intros m HMx Gm Em. pose proof sizes as (A & B & X & Y & X1 & Y1). pose proof HF as (H1 & H2 & Hs & Hp & Hdl & HA & HB & HM).
  destruct (extent_ok h kh H1 Hh HA) as (EH & _ & PH). destruct (extent_ok w kw H2 Hw HB) as (EW & _ & PW).
  unfold col2im. cbn [dims shape_of]. change (rd [n; ic; h; w] 0) with (Ok n). change (rd [n; ic; h; w] 1) with (Ok ic). change (rd [n; ic; h; w] 2) with (Ok h). change (rd [n; ic; h; w] 3) with (Ok w). cbn [bind].
  rewrite EH, EW. cbn [bind]. fold (shape_of [n; ic; h; w]). rewrite for6_nest.
  assert (HPX : pos_dims [n; ic; h; w]) by auto with idx. assert (HPM : prod [n; ic; h; w] <= INT_MAX) by (cbn [prod]; lia).
  rewrite (nest_gather keys inside spot (fun k => el m (cell_of k))).
  - f_equal. apply tensor_of_ext; [apply pos_forall; auto|]. intros p HP. f_equal. change (t_fill (shape_of [n; ic; h; w]) zero) with (t_new (shape_of [n; ic; h; w]) : tensor T). apply el_new. auto.
  - apply keys_pos.
  - apply (good_fill [n; ic; h; w] zero); auto.
  - intros k HK HI. apply spot_in; auto.
  - intros k o HK Go Eo. change (tdims (t_fill (shape_of [n; ic; h; w]) zero : tensor T)) with [n; ic; h; w] in Eo. pose proof (cell_key k HK) as (HC & _). pose proof HK as HK'. apply in_range_6 in HK'. destruct HK' as (i & c & p & q & y & z & -> & Ki & Kc & Kp & Kq & Ky & Kz). cbn [nth].
    rewrite PH, PW by auto. cbn [bind].
    replace (c * kh * kw + p * kw + q) with (ravel [ic; kh; kw] [c; p; q]) by (cbn [ravel prod]; ring). replace ((i * oh + y) * ow + z) with (ravel [n; oh; ow] [i; y; z]) by (cbn [ravel prod]; ring).
    pose proof (spot_in [i; c; p; q; y; z] o HK Eo) as HI. unfold inside, spot, cell_of in *. cbn [nth] in *.
    destruct (_ && _) eqn:EI; [|reflexivity]. specialize (HI eq_refl). rewrite flat_ok by auto. cbn [bind]. rewrite t_at_ok by (auto; rewrite Em; auto). cbn [bind].
    pose proof (ravel_bound _ _ HI) as HB'. unfold t_get. rewrite (rd_ok zero) by (rewrite good_len by auto; auto). cbn [bind]. unfold t_set. rewrite wr_ok by (rewrite good_len by auto; auto). reflexivity.
Qed.
(** The kernels, one per row, times the matrix of patches. *)
Theorem patches_product : forall oc (x W b : tensor T), (forall a b : T, s_mul a b = s_mul b a) -> good x -> tdims x = [n; ic; h; w] -> good W -> tdims W = [oc; ic; kh; kw] -> oc * (n * (oh * ow)) <= INT_MAX ->
  exists P, (m <- im2col x kh kw stride pad dil ;; k <- t_reshape W [oc; ic * (kh * kw)] ;; t_matmul k m) = Ok P /\ tdims P = [oc; n * (oh * ow)] /\
    forall i o y z, 0 <= i < n -> 0 <= o < oc -> 0 <= y < oh -> 0 <= z < ow ->
      s_add (el P [o; (i * oh + y) * ow + z]) (el b [o; 0]) = el (conv_spec stride pad dil x W b n ic h w oc kh kw) [i; o; y; z].
Proof.
  intros oc x W b HC Gx Ex GW EW HMO. pose proof sizes as (A & B & X & Y & X1 & Y1). pose proof HF as (H1 & H2 & Hs & Hp & Hdl & HA & HB & HM). destruct (dims4_pos W _ _ _ _ GW EW) as (Hoc & _ & _ & _ & HMW).
  rewrite im2col_ok by auto. cbn [bind]. assert (HP : pos_dims [oc; ic * (kh * kw)]) by (apply pos2; auto). assert (EPW : prod [oc; ic * (kh * kw)] = prod (tdims W)) by (rewrite EW; cbn [prod]; ring).
  rewrite reshape_in_shape by auto. cbn [bind].
  assert (GK : good (in_shape [oc; ic * (kh * kw)] W)) by (apply good_tensor_of; auto; rewrite EPW; apply good_max; auto).
  assert (GM : good (patches n ic h w kh kw stride pad dil x)) by (apply good_tensor_of; [apply pos2; auto|cbn [prod]; lia]).
  rewrite (matmul_22 _ _ oc (ic * (kh * kw)) (n * (oh * ow))) by auto. eexists. split; [reflexivity|]. split; [reflexivity|]. intros i o y z Hi Ho Hy Hz.
  assert (HR2 : in_range [n; oh; ow] [i; y; z]) by (apply in_range3; auto). pose proof (ravel_bound _ _ HR2) as B2. rewrite prod3 in B2.
  replace ((i * oh + y) * ow + z) with (ravel [n; oh; ow] [i; y; z]) by (cbn [ravel prod]; ring).
  rewrite el_tensor_of by (apply in_range2; auto). unfold conv_spec. rewrite el_tensor_of by (apply in_range4; auto). unfold fn2 at 1, fn4. cbn [nth]. f_equal. unfold sum_to. f_equal.
  unfold all_indices, ztab. rewrite map_map, prod3. apply map_ext_in. intros r HI. apply In_zrange in HI. rewrite HC. destruct (unravel3 ic kh kw r Hic H1 H2 HI) as (c & p & q & E & _). rewrite E. unfold fn3. cbn [nth]. f_equal.
  - rewrite patches_keys, el_tensor_of by (apply in_range2; auto). unfold key_of. cbn [nth]. rewrite unravel_ravel by auto. rewrite E. reflexivity.
  - rewrite el_in_shape by (apply in_range2; auto). unfold el. rewrite EW. f_equal.
    change (ravel [oc; ic; kh; kw] [o; c; p; q]) with (o * prod [ic; kh; kw] + ravel [ic; kh; kw] [c; p; q]). rewrite <- E, ravel_unravel by (rewrite ?prod3; auto using pos3). rewrite prod3. cbn [ravel prod]. ring.
Qed.
End Fit.
End S.

(** ** Over the reals: col2im is the transpose of im2col *)
Section Real.
Variables n ic h w kh kw stride pad dil : Z.
Hypothesis HF : patches_fit n ic h w kh kw stride pad dil.
Hypothesis Hn : 0 < n. Hypothesis Hic : 0 < ic. Hypothesis Hh : 0 < h. Hypothesis Hw : 0 < w.
Hypothesis HMx : n * (ic * (h * w)) <= INT_MAX.
Local Notation oh := (conv_extent stride pad dil h kh).
Local Notation ow := (conv_extent stride pad dil w kw).
Local Notation keys := [n; ic; kh; kw; oh; ow].
Local Notation cells := [ic * (kh * kw); n * (oh * ow)].
Lemma NoDup_map_in : forall {A B} (f : A -> B) l, (forall a b, In a l -> In b l -> f a = f b -> a = b) -> NoDup l -> NoDup (map f l).
Proof.
  intros A B f. induction l as [|a l IH]; intros H HN; [constructor|]. inversion HN; subst. cbn [map]. constructor; [|apply IH; auto; intros; apply H; cbn; auto].
  intros HI. apply in_map_iff in HI. destruct HI as (b & E & Hb). assert (b = a) by (apply H; cbn; auto). congruence.
Qed.
Lemma cells_keys : forall f : list Z -> R, rsum (all_indices cells) f = rsum (all_indices keys) (fun k => f (cell_of n ic h w kh kw stride pad dil k)).
Proof.
  intros f. rewrite <- (rsum_map (cell_of n ic h w kh kw stride pad dil) (all_indices keys) f). apply rsum_perm. pose proof (sizes n ic h w kh kw stride pad dil HF Hn Hic Hh Hw) as (A & B & X & Y & X1 & Y1).
  pose proof (keys_pos n ic h w kh kw stride pad dil HF Hn Hic Hh Hw) as HK. assert (HC : Forall (fun d => 0 < d) cells) by (apply pos_forall, pos2; auto).
  apply NoDup_Permutation; [apply NoDup_all_indices; auto| |].
  - apply NoDup_map_in; [|apply NoDup_all_indices; auto]. intros a b Ha Hb E. apply In_all_indices in Ha; auto. apply In_all_indices in Hb; auto.
    rewrite <- (proj2 (cell_key _ _ _ _ _ _ _ _ _ HF Hn Hic Hh Hw a Ha)), <- (proj2 (cell_key _ _ _ _ _ _ _ _ _ HF Hn Hic Hh Hw b Hb)). rewrite E. reflexivity.
  - intros p. rewrite In_all_indices by auto. rewrite in_map_iff. split.
    + intros Hp. destruct (key_cell _ _ _ _ _ _ _ _ _ HF Hn Hic Hh Hw p Hp) as (K1 & K2). eexists. split; [exact K2|]. apply In_all_indices; auto.
    + intros (k & <- & Hk). apply In_all_indices in Hk; auto. apply (cell_key _ _ _ _ _ _ _ _ _ HF Hn Hic Hh Hw k Hk).
Qed.
Theorem col_adjoint : forall x m : tensor R, good x -> tdims x = [n; ic; h; w] -> good m -> tdims m = cells ->
  exists p z, im2col x kh kw stride pad dil = Ok p /\ tdims p = cells /\ col2im m (shape_of [n; ic; h; w]) kh kw stride pad dil = Ok z /\ tdims z = [n; ic; h; w] /\ dot p m = dot x z.
Proof.
  intros x m Gx Ex Gm Em. rewrite (im2col_ok n ic h w kh kw stride pad dil HF Hn Hic Hh Hw x Gx Ex), (col2im_ok n ic h w kh kw stride pad dil HF Hn Hic Hh Hw m HMx Gm Em).
  do 2 eexists. split; [reflexivity|]. split; [reflexivity|]. split; [reflexivity|]. split; [reflexivity|].
  pose proof (sizes n ic h w kh kw stride pad dil HF Hn Hic Hh Hw) as (A & B & X & Y & X1 & Y1). pose proof (keys_pos n ic h w kh kw stride pad dil HF Hn Hic Hh Hw) as HK. assert (HC : Forall (fun d => 0 < d) cells) by (apply pos_forall, pos2; auto).
  assert (HX : Forall (fun d => 0 < d) [n; ic; h; w]) by (repeat constructor; auto).
  unfold dot. rewrite Ex. change (tdims (patches n ic h w kh kw stride pad dil x)) with cells. rewrite cells_keys.
  rewrite (rsum_ext (all_indices [n; ic; h; w]) _ (fun p => (rsum (filter (fun k => idx_eqb (spot stride pad dil k) p) (filter (inside h w stride pad dil) (all_indices keys))) (fun k => el m (cell_of n ic h w kh kw stride pad dil k)) * el x p)%R)).
  2: { intros p HP. apply In_all_indices in HP; auto. rewrite el_tensor_of by auto. rewrite scatter_R. cbn [zero s_z RScalar]. rewrite Rplus_0_l, Rmult_comm. f_equal. f_equal.
       induction (all_indices keys) as [|k r IH]; [reflexivity|]. cbn [filter]. destruct (inside h w stride pad dil k); cbn [andb filter]; [destruct (idx_eqb _ _); rewrite IH; reflexivity|auto]. }
  rewrite (rsum_group (all_indices [n; ic; h; w]) _ (spot stride pad dil) _ (el x)); [|apply NoDup_all_indices; auto|].
  2: { intros k HI. apply filter_In in HI. destruct HI as (HI & HO). apply In_all_indices in HI; auto. apply In_all_indices; auto. rewrite <- Ex. eapply spot_in; eauto. }
  rewrite rsum_filter. apply rsum_ext. intros k HI. apply In_all_indices in HI; auto. rewrite patches_keys, el_tensor_of by (eapply cell_key; eauto). rewrite (proj2 (cell_key _ _ _ _ _ _ _ _ _ HF Hn Hic Hh Hw k HI)).
  unfold seen_at. destruct (inside h w stride pad dil k); [ring|]. apply Rmult_0_l.
Qed.
End Real.
