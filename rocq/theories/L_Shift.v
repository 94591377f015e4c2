(** * Lemmas: shifted images (C127) *)
From Verif Require Import Base Scalar Types Spec SpecNN SpecLayers M_Shape M_Tensor M_Adv M_Act M_Layers M_Reg M_Opt M_Net SpecNet SpecBatch SpecShift
  L_Index L_Shape L_Tensor L_Glue L_Nest L_Matmul L_AdvR L_Act L_ActR L_Layers L_Loss L_Conv L_Pool L_Pool2 L_BN L_Drop L_Batch L_Net.
Local Open Scope Z_scope.

Section S.
Context {T : Type} {S : Scalar T} {G : Type} {HR : Rng T G}.

Lemma keep_shift : forall {A} (u v : A -> T) pos pos' (is : list A) m p q p' q', (forall a, In a is -> u a = v a) ->
  fst (fst (fold_left (keep u pos) is (m, p, q))) = fst (fst (fold_left (keep v pos') is (m, p', q'))).
Proof.
  intros A u v pos pos' is. induction is as [|a is IH]; intros m p q p' q' H; [reflexivity|]. cbn [fold_left]. unfold keep at 2 4.
  rewrite (H a) by (left; auto). destruct (s_lt m (v a)); [destruct (pos a), (pos' a)|]; apply IH; intros; apply H; right; auto.
Qed.
Lemma shift_layer : forall n c h w l D (x x' : tensor T) dy dx (g g' : G), evaluates [n; c; h; w] l D -> positional l -> good x -> good x' ->
  tdims x = [n; c; h; w] -> tdims x' = [n; c; h; w] ->
  (forall i ch y z, in_range [n; c; h; w] [i; ch; y; z] -> in_range [n; c; h; w] [i; ch; y + pitch l * dy; z + pitch l * dx] ->
     el x' [i; ch; y + pitch l * dy; z + pitch l * dx] = el x [i; ch; y; z]) ->
  exists l1 l2 y y' n1 c1 h1 w1, layer_forward l x g = (l1, g, Ok y) /\ layer_forward l x' g' = (l2, g', Ok y') /\ good y /\ good y' /\
    D = [n1; c1; h1; w1] /\ tdims y = D /\ tdims y' = D /\
    forall i ch u z, in_range D [i; ch; u; z] -> in_range D [i; ch; u + dy; z + dx] -> el y' [i; ch; u + dy; z + dx] = el y [i; ch; u; z].
Proof.
  intros n c h w l D x x' dy dx g g' HE HP Gx Gx' Ex Ex' HS.
  destruct (layer_rows n [c; h; w] l D x g HE Gx Ex) as (ED & G1 & l1 & F1).
  destruct (layer_rows n [c; h; w] l D x' g' HE Gx' Ex') as (_ & G2 & l2 & F2).
  assert (X : exists c1 h1 w1, outD l [c; h; w] = [c1; h1; w1]).
  { destruct l as [l|l|l|l|l|l|l]; cbn [positional outD nth] in *; try tauto; eauto. }
  destruct X as (c1 & h1 & w1 & EO). rewrite EO in ED.
  exists l1, l2, (by_rows l n [c; h; w] x), (by_rows l n [c; h; w] x'), n, c1, h1, w1.
  split; [exact F1|]. split; [exact F2|]. split; [exact G1|]. split; [exact G2|]. split; [exact ED|].
  split; [unfold by_rows; rewrite EO; symmetry; exact ED|]. split; [unfold by_rows; rewrite EO; symmetry; exact ED|].
  intros i ch u z I1 I2. subst D. unfold by_rows. rewrite EO. rewrite !el_tensor_of by auto. cbn [hd tl].
  pose proof I1 as J1. pose proof I2 as J2. apply in_range_4 in J1. destruct J1 as (? & ? & ? & ? & E & Hi & Hc & Hu & Hz). injection E as <- <- <- <-.
  apply in_range_4 in J2. destruct J2 as (? & ? & ? & ? & E & _ & _ & Hu' & Hz'). injection E as <- <- <- <-.
  destruct l as [l|l|l|l|l|l|l]; cbn [positional] in HP; try tauto; cbn [pitch] in HS; cbn [outD nth] in EO; try (injection EO as <- <- <-); cbn [rowF nth].
  - inversion HE; subst. rewrite !Z.mul_1_l in HS. rewrite HS; auto. destruct (al_act l); congruence || reflexivity.
  - inversion HE; subst. f_equal. f_equal. apply map_ext_in. intros idx Hidx.
    match goal with W1 : good (cv_w l), W2 : tdims (cv_w l) = _ |- _ => destruct (dims4_pos _ _ _ _ _ W1 W2) as (_ & Hic & Hkh & Hkw & _) end.
    apply In_all_indices in Hidx; [|apply pos_forall, pos2; auto]. apply in_range_2 in Hidx. destruct Hidx as (p & q & -> & Hp & Hq). unfold fn2. cbn [nth]. f_equal.
    rewrite !Z.mul_1_l in HS. replace (u + dy + p) with (u + p + dy) by lia. replace (z + dx + q) with (z + q + dx) by lia.
    apply HS; apply in_range4; lia.
  - inversion HE as [| | | |n' c' h' w' l' P1 P2 P3 P4 P5 E1 E2 E3| |]; subst. apply keep_shift. intros idx Hidx.
    apply In_all_indices in Hidx; [|apply pos_forall, pos2; auto]. apply in_range_2 in Hidx. destruct Hidx as (p & q & -> & Hp & Hq). cbn [nth].
    pose proof (extent_bound l P2 h u P4 Hu). pose proof (extent_bound l P2 w z P5 Hz). pose proof (extent_bound l P2 h _ P4 Hu'). pose proof (extent_bound l P2 w _ P5 Hz').
    replace ((u + dy) * po_stride l + p) with (u * po_stride l + p + po_stride l * dy) in * by lia. replace ((z + dx) * po_stride l + q) with (z * po_stride l + q + po_stride l * dx) in * by lia.
    assert (0 <= u * po_stride l) by nia. assert (0 <= z * po_stride l) by nia. assert (0 <= (u + dy) * po_stride l) by nia. assert (0 <= (z + dx) * po_stride l) by nia.
    apply HS; apply in_range4; lia.
  - rewrite !Z.mul_1_l in HS. rewrite HS; auto.
  - rewrite !Z.mul_1_l in HS. rewrite HS; auto.
Qed.

Lemma shift_all : forall ls n c h w D (x x' : tensor T) dy dx (g g' : G), stack evaluates [n; c; h; w] ls D -> Forall positional ls -> good x -> good x' ->
  tdims x = [n; c; h; w] -> tdims x' = [n; c; h; w] ->
  (forall i ch y z, in_range [n; c; h; w] [i; ch; y; z] -> in_range [n; c; h; w] [i; ch; y + pitches ls * dy; z + pitches ls * dx] ->
     el x' [i; ch; y + pitches ls * dy; z + pitches ls * dx] = el x [i; ch; y; z]) ->
  exists ls1 ls2 y y' n1 c1 h1 w1, forward_all ls x g = (ls1, g, Ok y) /\ forward_all ls x' g' = (ls2, g', Ok y') /\ good y /\ good y' /\
    D = [n1; c1; h1; w1] /\ tdims y = D /\ tdims y' = D /\
    forall i ch u z, in_range D [i; ch; u; z] -> in_range D [i; ch; u + dy; z + dx] -> el y' [i; ch; u + dy; z + dx] = el y [i; ch; u; z].
Proof.
  induction ls as [|l ls IH]; intros n c h w D x x' dy dx g g' HS HP Gx Gx' Ex Ex' H.
  - inversion HS; subst. cbn [forward_all pitches fold_right] in *. rewrite !Z.mul_1_l in H. exists [], [], x, x', n, c, h, w. auto 10.
  - inversion HS as [|? ? D1 ? ? E1 R1]; subst. inversion HP as [|? ? P1 P2]; subst.
    assert (EP : forall d, pitches (l :: ls) * d = pitch l * (pitches ls * d)) by (intros; unfold pitches; cbn [fold_right]; ring). setoid_rewrite EP in H.
    destruct (shift_layer n c h w l D1 x x' _ _ g g' E1 P1 Gx Gx' Ex Ex' H) as (l1 & l2 & y & y' & n1 & c1 & h1 & w1 & F1 & F2 & Gy & Gy' & -> & Ey & Ey' & K).
    destruct (IH n1 c1 h1 w1 D y y' dy dx g g' R1 P2 Gy Gy' Ey Ey' K) as (ls1 & ls2 & z & z' & n2 & c2 & h2 & w2 & A & B & C).
    exists (l1 :: ls1), (l2 :: ls2), z, z', n2, c2, h2, w2. cbn [forward_all]. rewrite F1, F2, A, B. auto 10.
Qed.

Theorem shift_net : forall (nt : net T G) D D' (x x' : tensor T) dy dx, evaluates_all D (n_layers nt) D' -> Forall positional (n_layers nt) ->
  good x -> good x' -> tdims x = D -> shifted (pitches (n_layers nt) * dy) (pitches (n_layers nt) * dx) x x' ->
  exists n1 n2 y y', net_predict nt x = (n1, Ok y) /\ net_predict nt x' = (n2, Ok y') /\ tdims y = D' /\ shifted dy dx y y'.
Proof.
  intros nt D D' x x' dy dx HE HP Gx Gx' Ex (n & c & h & w & E1 & E2 & H). rewrite E1 in Ex. subst D.
  destruct (shift_all (n_layers nt) n c h w D' x x' dy dx (n_rng nt) (n_rng nt) HE HP Gx Gx' E1 E2 H) as (ls1 & ls2 & y & y' & n1 & c1 & h1 & w1 & A & B & Gy & Gy' & -> & Ey & Ey' & K).
  unfold net_predict. rewrite A, B. do 4 eexists. split; [reflexivity|]. split; [reflexivity|]. split; [exact Ey|]. exists n1, c1, h1, w1. auto.
Qed.
End S.

(** ** A convolution whose kernel covers the image (C128) *)
Section Dense.
Context {T : Type} {S : Scalar T} {G : Type} {HR : Rng T G}.

Lemma indices_map : forall {A} ds (f : list Z -> A), map f (all_indices ds) = map (fun k => f (unravel ds k)) (zrange 0 (prod ds)).
Proof. intros A ds f. unfold all_indices, ztab. rewrite map_map. reflexivity. Qed.

Lemma dense_wf : forall l : conv T, conv_wf l -> fc_wf (as_dense l) (prod [cv_ic l; cv_kh l; cv_kw l]) (cv_oc l).
Proof.
  intros l (GW & EW & GB & EB). destruct (dims4_pos _ _ _ _ _ GW EW) as (Hoc & Hic & Hkh & Hkw & HM).
  assert (0 < prod [cv_ic l; cv_kh l; cv_kw l]) by (apply prod_pos; repeat constructor; auto).
  unfold as_dense, dense_weights, dense_biases, fc_wf. cbn [M_Layers.fc_w M_Layers.fc_b].
  split; [apply good_2; auto; cbn [prod] in *; nia|]. split; [reflexivity|]. split; [|reflexivity]. apply good_2; try lia.
  destruct (dims2_pos _ _ _ GB EB) as (_ & _ & HB). lia.
Qed.
Lemma conv_dense : forall (l : conv T) f f' (x : tensor T) n (g g' : G), conv_wf l -> cv_ic l = 1 -> good x -> tdims x = [n; 1; cv_kh l; cv_kw l] -> n * cv_oc l <= INT_MAX ->
  exists y ls1 ls2, forward_all [LConv l; LFlat f] x g = (ls1, g, Ok y) /\ forward_all [LFlat f'; LFC (as_dense l)] x g' = (ls2, g', Ok y) /\ tdims y = [n; cv_oc l].
Proof.
  intros l f f' x n g g' HW H1 Gx Ex HM. pose proof HW as (GW & EW & GB & EB).
  destruct (dims4_pos _ _ _ _ _ GW EW) as (Hoc & Hic & Hkh & Hkw & HMw). destruct (dims4_pos _ _ _ _ _ Gx Ex) as (Hn & _ & _ & _ & HMx).
  cbn [forward_all layer_forward].
  rewrite (conv_forward_ok l x n (cv_kh l) (cv_kw l) HW Gx);
    [|rewrite H1; exact Ex|lia|lia|replace (cv_kh l - cv_kh l + 1) with 1 by lia; replace (cv_kw l - cv_kw l + 1) with 1 by lia; lia].
  replace (cv_kh l - cv_kh l + 1) with 1 by lia. replace (cv_kw l - cv_kw l + 1) with 1 by lia.
  unfold lift. cbn [fst snd].
  set (yc := tensor_of [n; cv_oc l; 1; 1] _). assert (Gy : good yc) by (apply good_4; auto; lia).
  rewrite (flatten_forward_ok f yc n (cv_oc l) [1; 1] Gy eq_refl) by discriminate. cbn [fst snd].
  rewrite (flatten_forward_ok f' x n 1 [cv_kh l; cv_kw l] Gx Ex) by discriminate. cbn [fst snd].
  pose proof (dense_wf l HW) as HD. rewrite H1 in HD.
  assert (Gf : good (in_shape [n; prod [1; cv_kh l; cv_kw l]] x)).
  { apply good_tensor_of; [split; [discriminate|repeat constructor; auto; apply prod_pos; repeat constructor; auto]|cbn [prod]; lia]. }
  rewrite (fc_forward_2 (as_dense l) _ _ _ n HD Gf eq_refl HM). cbn [fst snd].
  do 3 eexists. split; [reflexivity|]. split; [|cbn [prod]; unfold in_shape; rewrite !Z.mul_1_r; reflexivity].
  apply (f_equal2 pair); [reflexivity|]. f_equal. unfold in_shape at 2. replace (prod [cv_oc l; 1; 1]) with (cv_oc l) by (cbn [prod]; lia).
  apply tensor_of_ext; [apply pos_forall, pos2; auto|]. intros idx HI. apply in_range_2 in HI. destruct HI as (i & o & -> & Hi & Ho).
  unfold fn2 at 1. cbn [nth].
  assert (EL : znth zero (tdata yc) (ravel [n; cv_oc l] [i; o]) = el yc [i; o; 0; 0]).
  { unfold el. f_equal. }
  symmetry. rewrite EL. unfold yc. rewrite el_tensor_of by (apply in_range4; lia). unfold fn4. cbn [nth]. unfold conv0, affine.
  unfold as_dense. cbn [M_Layers.fc_w M_Layers.fc_b]. rewrite H1. f_equal.
  2: { unfold dense_biases. rewrite el_tensor_of by (apply in_range2; lia). reflexivity. }
  unfold sum_to. f_equal. rewrite indices_map. replace (prod [1; cv_kh l; cv_kw l]) with (prod [cv_kh l; cv_kw l]) by (cbn [prod]; lia).
  apply map_ext_in. intros k Hk. apply In_zrange in Hk.
  assert (HP : prod [1; cv_kh l; cv_kw l] = prod [cv_kh l; cv_kw l]) by (cbn [prod]; lia).
  unfold dense_weights. rewrite HP. rewrite el_tensor_of by (apply in_range2; lia). unfold fn2. cbn [nth].
  assert (EU : unravel [1; cv_kh l; cv_kw l] k = 0 :: unravel [cv_kh l; cv_kw l] k).
  { cbn [unravel]. change (prod [cv_kh l; cv_kw l]) with (cv_kh l * (cv_kw l * 1)) in *. rewrite (Z.div_small k) by lia. rewrite (Z.mod_small k) by lia. reflexivity. }
  rewrite EU. pose proof (unravel_range [cv_kh l; cv_kw l] k ltac:(repeat constructor; auto) Hk) as HU.
  pose proof (ravel_unravel [cv_kh l; cv_kw l] k ltac:(repeat constructor; auto) Hk) as HRU.
  apply in_range_2 in HU. destruct HU as (p & q & E & Hp & Hq). rewrite E in *. cbn [nth]. f_equal.
  unfold in_shape. rewrite el_tensor_of by (apply in_range2; lia). unfold el. f_equal. rewrite Ex. cbn [ravel prod] in *. nia.
Qed.

Lemma conv_dense_net : forall (nt : net T G) pre l f post f' x pre' g1 z n, n_layers nt = pre ++ LConv l :: LFlat f :: post -> conv_wf l -> cv_ic l = 1 ->
  forward_all pre x (n_rng nt) = (pre', g1, Ok z) -> good z -> tdims z = [n; 1; cv_kh l; cv_kw l] -> n * cv_oc l <= INT_MAX ->
  snd (net_predict (net_with nt (pre ++ LFlat f' :: LFC (as_dense l) :: post)) x) = snd (net_predict nt x).
Proof.
  intros nt pre l f post f' x pre' g1 z n EL HW H1 EP Gz Ez HM. destruct (conv_dense l f f' z n g1 g1 HW H1 Gz Ez HM) as (y & ls1 & ls2 & E1 & E2 & _).
  assert (A : forall u v ls, forward_all [u; v] z g1 = (ls, g1, Ok y) -> snd (forward_all (pre ++ u :: v :: post) x (n_rng nt)) = snd (forward_all post y g1)).
  { intros u v ls E. rewrite forward_app, EP. change (u :: v :: post) with ([u; v] ++ post). rewrite forward_app, E. destruct (forward_all post y g1) as [[? ?] ?]. reflexivity. }
  unfold net_predict. cbn [n_layers n_rng net_with]. rewrite EL.
  pose proof (A _ _ _ E1) as P1. pose proof (A _ _ _ E2) as P2.
  destruct (forward_all (pre ++ LConv l :: LFlat f :: post) x (n_rng nt)) as [[? ?] ?], (forward_all (pre ++ LFlat f' :: LFC (as_dense l) :: post) x (n_rng nt)) as [[? ?] ?].
  cbn [snd] in *. congruence.
Qed.
End Dense.

(** ** More than one input channel *)
Definition all_ones (ds : list Z) : tensor Z := tensor_of ds (fun _ => 1).
Definition ones_conv (ic kh kw : Z) : conv Z := mkConv (all_ones [1; ic; kh; kw]) (all_ones [1; 1]) None None None ic 1 kh kw 1 0 1.
Lemma fsum_ones : forall l, Forall (eq 1) l -> fsum l = Zlen l.
Proof.
  intros l H. unfold fsum. assert (A : forall a, fold_left s_add l a = a + Zlen l).
  { induction H as [|x l <- H IH]; intros a; cbn [fold_left]; [unfold Zlen; cbn; lia|]. rewrite IH. unfold Zlen. cbn [length s_add ZScalar]. lia. }
  rewrite A. reflexivity.
Qed.
Lemma ones_data : forall ds k, Forall (fun d => 0 < d) ds -> 0 <= k < prod ds -> znth 0 (tdata (all_ones ds)) k = 1.
Proof. intros ds k HF Hk. unfold all_ones, tensor_of. cbn [tdata]. rewrite znth_ztab by auto. reflexivity. Qed.
Lemma ones_el : forall ds idx, in_range ds idx -> el (all_ones ds) idx = 1.
Proof. intros ds idx H. unfold all_ones. rewrite el_tensor_of by auto. reflexivity. Qed.
Lemma many_channels : forall {G} {HR : Rng Z G} ic kh kw f f' (g : G), 1 < ic -> 0 < kh -> 0 < kw -> ic * (kh * kw) <= INT_MAX ->
  let l := ones_conv ic kh kw in let x := all_ones [1; ic; kh; kw] in conv_wf l /\ good x /\ exists y y',
    snd (forward_all [LConv l; LFlat f] x g) = Ok y /\ snd (forward_all [LFlat f'; LFC (as_dense l)] x g) = Ok y' /\
    tdims y = [1; 1] /\ tdims y' = [1; 1] /\ el y [0; 0] = kh * kw + 1 /\ el y' [0; 0] = ic * (kh * kw) + 1.
Proof.
  intros G HR ic kh kw f f' g Hic Hkh Hkw HM l x.
  assert (Gx : good x) by (apply good_4; lia).
  assert (HW : conv_wf l).
  { split; [apply good_4; cbn; lia|]. split; [reflexivity|]. split; [apply good_2; cbn; unfold INT_MAX; lia|reflexivity]. }
  split; [exact HW|]. split; [exact Gx|].
  cbn [forward_all layer_forward].
  rewrite (conv_forward_ok l x 1 kh kw HW Gx eq_refl) by (cbn; try lia; replace (kh - kh + 1) with 1 by lia; replace (kw - kw + 1) with 1 by lia; unfold INT_MAX; lia).
  unfold l at 1 2 3 4 5 6 7 8. cbn [cv_oc cv_kh cv_kw cv_w cv_b ones_conv].
  replace (kh - kh + 1) with 1 by lia. replace (kw - kw + 1) with 1 by lia. unfold lift. cbn [fst snd].
  set (yc := tensor_of [1; 1; 1; 1] _). assert (Gy : good yc) by (apply good_4; unfold INT_MAX; lia).
  rewrite (flatten_forward_ok f yc 1 1 [1; 1] Gy eq_refl) by discriminate. cbn [fst snd].
  rewrite (flatten_forward_ok f' x 1 ic [kh; kw] Gx eq_refl) by discriminate. cbn [fst snd].
  pose proof (dense_wf l HW) as HD. cbn [cv_ic cv_kh cv_kw cv_oc l ones_conv] in HD.
  assert (HP : prod [ic; kh; kw] = ic * (kh * kw)) by (cbn [prod]; lia).
  assert (0 < kh * kw) by nia. assert (0 < ic * (kh * kw)) by nia.
  assert (Gf : good (in_shape [1; prod [ic; kh; kw]] x)) by (apply good_tensor_of; [split; [discriminate|repeat constructor; lia]|cbn [prod] in *; lia]).
  rewrite (fc_forward_2 (as_dense l) _ _ _ 1 HD Gf eq_refl) by (unfold INT_MAX; lia). cbn [fst snd].
  do 2 eexists. split; [reflexivity|]. split; [reflexivity|]. split; [reflexivity|]. split; [reflexivity|].
  assert (OX : forall p q r, 0 <= p < ic -> 0 <= q < kh -> 0 <= r < kw -> el x [0; p; q; r] = 1) by (intros; apply ones_el, in_range4; lia).
  split.
  - change (el (in_shape [1; prod [1; 1; 1]] yc) [0; 0]) with (el yc [0; 0; 0; 0]). unfold yc. rewrite el_tensor_of by (apply in_range4; lia). unfold fn4. cbn [nth]. unfold conv0.
    rewrite (ones_el [1; 1] [0; 0]) by (apply in_range2; lia). rewrite fsum_ones.
    + rewrite indices_map. unfold Zlen. rewrite map_length. fold (Zlen (zrange 0 (prod [kh; kw]))). rewrite Zlen_zrange by (cbn [prod]; lia). cbn [prod s_add ZScalar]. lia.
    + apply Forall_forall. intros v Hv. apply in_map_iff in Hv. destruct Hv as (idx & <- & HI). apply In_all_indices in HI; [|apply pos_forall, pos2; auto].
      apply in_range_2 in HI. destruct HI as (p & q & -> & Hp & Hq). unfold fn2. cbn [nth]. rewrite OX by lia. rewrite ones_el by (apply in_range4; lia). reflexivity.
  - rewrite el_tensor_of by (apply in_range2; lia). unfold fn2 at 1. cbn [nth]. unfold affine.
    assert (EB : el (M_Layers.fc_b (as_dense l)) [0; 0] = 1).
    { unfold as_dense, dense_biases. cbn [M_Layers.fc_b]. rewrite el_tensor_of by (apply in_range2; cbn; lia). unfold fn2. cbn [nth]. apply ones_el, in_range2; lia. }
    rewrite EB.
    unfold sum_to. rewrite fsum_ones.
    + unfold Zlen. rewrite map_length. fold (Zlen (zrange 0 (prod [ic; kh; kw]))). rewrite Zlen_zrange by lia. rewrite HP. cbn [s_add ZScalar]. lia.
    + apply Forall_forall. intros v Hv. apply in_map_iff in Hv. destruct Hv as (k & <- & HI). apply In_zrange in HI.
      unfold in_shape. rewrite el_tensor_of by (apply in_range2; lia). unfold as_dense. cbn [M_Layers.fc_w]. unfold dense_weights. rewrite el_tensor_of by (apply in_range2; cbn [cv_ic cv_kh cv_kw cv_oc l ones_conv]; lia).
      unfold fn2. cbn [nth cv_ic cv_kh cv_kw cv_oc cv_w l ones_conv].
      assert (HU : in_range [ic; kh; kw] (unravel [ic; kh; kw] k)) by (apply unravel_range; [repeat constructor; lia|exact HI]).
      rewrite ones_el by (destruct (unravel [ic; kh; kw] k); [inversion HU|]; constructor; [lia|exact HU]).
      change zero with 0. unfold x. rewrite ones_data; [reflexivity|repeat constructor; lia|]. cbn [ravel prod] in *. lia.
Qed.
