(** * Back-propagation computes gradients *)
From Coq Require Import Reals Lra.
From Coquelicot Require Import Coquelicot.
From Verif Require Import Base Scalar ScalarR Types Spec SpecNN SpecR SpecLayers M_Shape M_Tensor M_Adv M_Act M_Loss M_Layers M_Reg M_Opt M_Net SpecNet SpecNetR
  L_Index L_Shape L_Tensor L_Glue L_Nest L_Matmul L_RSum L_AdvR L_Act L_ActR L_Loss L_Layers L_LayersR L_Conv L_ConvR L_Rows L_Drop L_Net.
Local Open Scope R_scope.

(** ** Flatten *)
Lemma dot_data : forall a b : tensor R, good a -> good b -> tdims b = tdims a ->
  dot a b = rsum (zrange 0 (prod (tdims a))) (fun k => znth 0 (tdata a) k * znth 0 (tdata b) k).
Proof.
  intros a b Ga Gb E. unfold dot, all_indices, ztab, rsum. rewrite map_map. f_equal. apply map_ext_in. intros k HI. apply In_zrange in HI.
  unfold el. rewrite E. rewrite ravel_unravel; [reflexivity|apply pos_forall; apply good_pos; auto|auto].
Qed.
Lemma flatten_gradient : forall b c ds l X s dX, ds <> [] -> curve (b :: c :: ds) X s dX ->
  exists Y dY, (forall u, snd (flatten_forward l (X u)) = Ok (Y u)) /\ curve [b; prod (c :: ds)] Y s dY /\
    forall g, good g -> tdims g = [b; prod (c :: ds)] -> exists gx, flatten_backward (fst (flatten_forward l (X s))) g = Ok gx /\ good gx /\ tdims gx = b :: c :: ds /\ dot g dY = dot gx dX.
Proof.
  intros b c ds l X s dX HN HC. destruct (curve_pos _ _ _ _ HC) as (HP & HM). destruct HC as (HX & GdX & EdX & HD). pose proof (pos_forall _ HP) as HF.
  assert (EQ : prod [b; prod (c :: ds)] = prod (b :: c :: ds)) by (cbn [prod]; lia).
  assert (Pc : (0 < prod (c :: ds))%Z) by (apply prod_pos; inversion HF; auto).
  assert (HP2 : pos_dims [b; prod (c :: ds)]) by (split; [discriminate|]; inversion HF; subst; constructor; [auto|constructor; [exact Pc|constructor]]).
  pose proof (pos_forall _ HP2) as HF2.
  exists (fun u => in_shape [b; prod (c :: ds)] (X u)), (in_shape [b; prod (c :: ds)] dX). split; [|split].
  - intros u. destruct (HX u) as (Gx & Ex). rewrite (flatten_forward_ok l (X u) b c ds Gx Ex HN). reflexivity.
  - split; [|split; [|split; [reflexivity|]]].
    + intros u. split; [|reflexivity]. apply good_in_shape; auto. rewrite EQ; auto.
    + apply good_in_shape; auto. rewrite EQ; auto.
    + intros idx HI. pose proof (ravel_bound _ _ HI) as HB. rewrite EQ in HB.
      assert (HR : in_range (b :: c :: ds) (unravel (b :: c :: ds) (ravel [b; prod (c :: ds)] idx))) by (apply unravel_range; auto).
      specialize (HD _ HR). unfold el in HD. rewrite EdX in HD. rewrite ravel_unravel in HD by auto. rewrite el_in_shape by auto.
      eapply is_derive_ext; [|exact HD]. intros u. cbv beta. rewrite el_in_shape by auto. destruct (HX u) as (_ & ->). rewrite ravel_unravel by auto. reflexivity.
  - intros g Gg Eg. destruct (HX s) as (Gx & Ex). rewrite (flatten_forward_ok l (X s) b c ds Gx Ex HN). cbn [fst].
    assert (EP : prod (tdims g) = prod (tdims (X s))) by (rewrite Eg, Ex; exact EQ). rewrite (flatten_backward_ok (X s) g Gx Gg EP). rewrite Ex.
    exists (in_shape (b :: c :: ds) g). split; [auto|]. assert (Gi : good (in_shape (b :: c :: ds) g)) by (apply good_in_shape; auto). split; [auto|]. split; [reflexivity|].
    rewrite (dot_data g (in_shape [b; prod (c :: ds)] dX)); [|auto|apply good_in_shape; auto; rewrite EQ; auto|symmetry; exact Eg].
    rewrite (dot_data (in_shape (b :: c :: ds) g) dX); [|auto|auto|exact EdX]. change (tdims (in_shape (b :: c :: ds) g)) with (b :: c :: ds). rewrite Eg, EQ.
    rewrite (data_in_shape dX) by (auto; rewrite EdX; auto). rewrite (data_in_shape g) by (auto; rewrite Eg; auto). reflexivity.
Qed.

(** ** One layer *)
Lemma moved_0 : forall w d, good w -> moved 0 w d = w.
Proof. intros w d Hg. unfold moved. symmetry. apply tensor_eta; auto. intros. ring. Qed.
Lemma moved_curve : forall w d, good w -> good d -> tdims d = tdims w -> curve (tdims w) (fun u => moved u w d) 0 d.
Proof.
  intros w d Hw Hd E. assert (Ed : d = tensor_of (tdims w) (el d)) by (rewrite <- E; apply tensor_eta; auto).
  pose proof (curve_of (tdims w) (fun u idx => el w idx + u * el d idx) 0 (el d) (good_pos w Hw) (good_max w Hw)) as H. rewrite <- Ed in H. apply H. intros idx HI. auto_derive; auto. ring.
Qed.
Lemma layer_moved_0 : forall ds l ds' d, fits ds l ds' -> layer_moved 0 l d = l.
Proof.
  intros ds l ds' d HF. destruct HF as [n k o l Gw Ew Gb Eb HM| | | |h w l Gw Ew Gb Eb]; destruct d as [(dw & db)|]; try reflexivity.
  - unfold layer_moved; cbn [layer_params with_params]. rewrite !moved_0 by auto. destruct l; reflexivity.
  - unfold layer_moved; cbn [layer_params with_params]. rewrite !moved_0 by auto. destruct l; reflexivity.
Qed.

Section N.
Context {G : Type} {HR : Rng R G}.

Lemma layer_gradient : forall ds l ds' d X dX, fits ds l ds' -> direction_for l d -> curve ds X 0 dX -> layer_smooth l (X 0) ->
  exists Y dY l1, (forall u (g : G), exists l', layer_forward (layer_moved u l d) (X u) g = (l', g, Ok (Y u))) /\
    (forall g : G, layer_forward l (X 0) g = (l1, g, Ok (Y 0))) /\ curve ds' Y 0 dY /\
    forall gy, good gy -> tdims gy = ds' -> exists l2 gx, layer_backward l1 gy = (l2, Ok gx) /\ good gx /\ tdims gx = ds /\
      layer_params l2 = layer_params l /\ direction_for l2 d /\ dot gy dY = dot gx dX + layer_slope l2 d /\
      (layer_params l <> None -> exists gw gb, layer_grads l2 = Some (gw, gb) /\ good gw /\ good gb /\ forall w b, layer_params l = Some (w, b) -> tdims gw = tdims w /\ tdims gb = tdims b).
Proof.
  intros ds l ds' d X dX HF HD HC HS. pose proof (layer_moved_0 ds l ds' d HF) as M0.
  destruct HF as [n k o l Gw Ew Gb Eb HM|ds l Ha|b ds l Ha HN|b c ds l HN|h w l Gw Ew Gb Eb Eo Hh Hw].
  - unfold direction_for in HD. cbn [layer_params] in HD. destruct d as [(dw & db)|]; [|destruct HD]. destruct HD as (Gdw & Edw & Gdb & Edb).
    assert (CW : curve [k; o] (fun u => moved u (fc_w l) dw) 0 dw) by (rewrite <- Ew; apply moved_curve; auto).
    assert (CB : curve [1; o]%Z (fun u => moved u (fc_b l) db) 0 db) by (rewrite <- Eb; apply moved_curve; auto).
    destruct (fc_gradient_2 n k o X _ _ 0 dX dw db (fc_in l) (fc_gw l) (fc_gb l) HC CW CB HM) as (Y & dY & HY & CY & HG).
    unfold layer_moved in *; cbn [layer_params with_params] in *. injection M0 as M0. pose proof (HY 0) as HY0. cbv beta in HG, HY0. rewrite M0 in HG, HY0. exists Y, dY, (LFC (fst (fc_forward l (X 0)))).
    split; [|split; [|split; [exact CY|]]].
    + intros u g. eexists. cbn [layer_forward]. unfold lift. rewrite HY. reflexivity.
    + intros g. cbn [layer_forward]. unfold lift. rewrite HY0. reflexivity.
    + intros gy Gy Ey. destruct (HG gy Gy Ey) as (gx & gw & gb & EB & Gx & Ex & Ggw & Egw & Ggb & Egb & ED). rewrite !moved_0 in EB by auto. cbn [layer_backward]. rewrite EB.
      do 2 eexists. split; [reflexivity|]. split; [auto|]. split; [auto|]. split; [reflexivity|]. split; [unfold direction_for; cbn; auto|]. split.
      * unfold layer_slope. cbn [layer_grads fc_gw fc_gb]. rewrite ED. ring.
      * intros _. exists gw, gb. split; [reflexivity|]. split; [auto|]. split; [auto|]. cbn [layer_params]. intros w b E. injection E as <- <-. split; congruence.
  - unfold direction_for in HD. cbn [layer_params] in HD. destruct d as [(dw & db)|]; [destruct HD|]. unfold layer_moved in *; cbn [layer_params with_params] in *. clear M0. cbn [layer_smooth] in HS.
    destruct (act_gradient (al_act l) ds Ha X 0 dX HC HS) as (Y & dY & HY & CY & HG). exists Y, dY, (LAct (mkActL (al_act l) (Some (X 0)))).
    split; [|split; [|split; [exact CY|]]].
    + intros u g. eexists. cbn [layer_forward]. unfold lift, act_forward. cbn [fst snd]. rewrite HY. reflexivity.
    + intros g. cbn [layer_forward]. unfold lift, act_forward. cbn [fst snd]. rewrite HY. reflexivity.
    + intros gy Gy Ey. destruct (HG gy Gy Ey) as (gx & EB & Gx & Ex & ED). cbn [layer_backward]. unfold act_backward. cbn [al_in al_act]. rewrite EB.
      do 2 eexists. split; [reflexivity|]. split; [auto|]. split; [auto|]. split; [reflexivity|]. split; [exact I|]. split; [rewrite ED; unfold layer_slope; cbn [layer_grads]; ring|]. intros H; destruct H; reflexivity.
  - unfold direction_for in HD. cbn [layer_params] in HD. destruct d as [(dw & db)|]; [destruct HD|]. unfold layer_moved in *; cbn [layer_params with_params] in *. clear M0.
    destruct (softmax_gradient b ds HN X 0 dX HC I) as (Y & dY & HY & CY & HG). exists Y, dY, (LAct (mkActL (al_act l) (Some (X 0)))).
    split; [|split; [|split; [exact CY|]]].
    + intros u g. eexists. cbn [layer_forward]. unfold lift, act_forward. cbn [fst snd]. rewrite Ha. cbn [act_fwd]. rewrite HY. reflexivity.
    + intros g. cbn [layer_forward]. unfold lift, act_forward. cbn [fst snd]. rewrite Ha. cbn [act_fwd]. rewrite HY. reflexivity.
    + intros gy Gy Ey. destruct (HG gy Gy Ey) as (gx & EB & Gx & Ex & ED). cbn [layer_backward]. unfold act_backward. cbn [al_in al_act]. rewrite Ha. cbn [act_bwd]. rewrite EB.
      do 2 eexists. split; [reflexivity|]. split; [auto|]. split; [auto|]. split; [reflexivity|]. split; [exact I|]. split; [rewrite ED; unfold layer_slope; cbn [layer_grads]; ring|]. intros H; destruct H; reflexivity.
  - unfold direction_for in HD. cbn [layer_params] in HD. destruct d as [(dw & db)|]; [destruct HD|]. unfold layer_moved in *; cbn [layer_params with_params] in *. clear M0.
    destruct (flatten_gradient b c ds l X 0 dX HN HC) as (Y & dY & HY & CY & HG). exists Y, dY, (LFlat (fst (flatten_forward l (X 0)))).
    split; [|split; [|split; [exact CY|]]].
    + intros u g. eexists. cbn [layer_forward]. unfold lift. rewrite HY. reflexivity.
    + intros g. cbn [layer_forward]. unfold lift. rewrite HY. reflexivity.
    + intros gy Gy Ey. destruct (HG gy Gy Ey) as (gx & EB & Gx & Ex & ED). cbn [layer_backward]. rewrite EB.
      do 2 eexists. split; [reflexivity|]. split; [auto|]. split; [auto|]. split; [reflexivity|]. split; [exact I|]. split; [rewrite ED; unfold layer_slope; cbn [layer_grads]; ring|]. intros H; destruct H; reflexivity.
  - unfold direction_for in HD. cbn [layer_params] in HD. destruct d as [(dw & db)|]; [|destruct HD]. destruct HD as (Gdw & Edw & Gdb & Edb).
    destruct (curve_pos _ _ _ _ HC) as (HP & HM). pose proof (pos_forall _ HP) as HF. pose proof (good_pos _ Gw) as HPw. rewrite Ew in HPw. pose proof (pos_forall _ HPw) as HFw. pose proof (good_max _ Gw) as HMw. rewrite Ew in HMw. cbn [prod] in HM, HMw.
    assert (Hk : (0 < cv_kh l /\ 0 < cv_kw l /\ 0 < cv_ic l)%Z) by (inversion HFw as [|? ? A1 A2]; inversion A2 as [|? ? A3 A4]; inversion A4 as [|? ? A5 A6]; inversion A6; subst; auto). destruct Hk as (Hk1 & Hk2 & Hk3).
    assert (CW : curve [1%Z; cv_ic l; cv_kh l; cv_kw l] (fun u => moved u (cv_w l) dw) 0 dw) by (rewrite <- Ew; apply moved_curve; auto).
    assert (CB : curve [1; 1]%Z (fun u => moved u (cv_b l) db) 0 db) by (rewrite <- Eb; apply moved_curve; auto).
    assert (HB : (1 * (1 * ((h - cv_kh l + 1) * (w - cv_kw l + 1))) <= INT_MAX)%Z).
    { assert ((h - cv_kh l + 1) * (w - cv_kw l + 1) <= h * w)%Z by nia. assert (0 < h * w)%Z by nia. assert (h * w <= cv_ic l * (h * w))%Z by (generalize dependent (h * w)%Z; intros; nia). lia. }
    destruct (conv_gradient_11 1 (cv_ic l) h w 1 (cv_kh l) (cv_kw l) (cv_stride l) (cv_pad l) (cv_dil l)) with (X := X) (W := fun u => moved u (cv_w l) dw) (B := fun u => moved u (cv_b l) db) (s := 0) (dX := dX) (dW := dw) (dB := db) (i0 := cv_in l) (w0 := cv_gw l) (b0 := cv_gb l)
      as (Y & dY & HY & CY & HG); auto; try lia; try (unfold INT_MAX; lia).
    unfold layer_moved in *; cbn [layer_params with_params] in *. injection M0 as M0. unfold conv_layer in HG, HY. rewrite Eo in M0. pose proof (HY 0) as HY0. cbv beta in HG, HY0.
    exists Y, dY, (LConv (fst (conv_forward l (X 0)))).
    split; [|split; [|split; [exact CY|]]].
    + intros u g. eexists. cbn [layer_forward]. unfold lift. rewrite Eo, HY. reflexivity.
    + intros g. cbn [layer_forward]. unfold lift. rewrite M0 in HY0. rewrite HY0. reflexivity.
    + intros gy Gy Ey. destruct (HG gy Gy Ey) as (gx & gw & gb & EB & Gx & Ex & Ggw & Egw & Ggb & Egb & ED). rewrite M0 in EB. rewrite !moved_0 in EB by auto. cbn [layer_backward]. rewrite EB.
      do 2 eexists. split; [reflexivity|]. split; [auto|]. split; [auto|]. split; [reflexivity|]. split; [unfold direction_for; cbn; auto|]. split.
      * unfold layer_slope. cbn [layer_grads cv_gw cv_gb]. rewrite ED. ring.
      * intros _. exists gw, gb. split; [reflexivity|]. split; [auto|]. split; [auto|]. cbn [layer_params]. intros w0 b0 E. injection E as <- <-. split; congruence.
Qed.

Lemma slope_cons : forall l ls d ds, slope (l :: ls) (d :: ds) = layer_slope l d + slope ls ds.
Proof. reflexivity. Qed.
Lemma chain_gradient : forall ls ds ds' dirs X dX (g : G), chain ds ls ds' -> Forall2 direction_for ls dirs -> curve ds X 0 dX -> smooth_run ls (X 0) g ->
  exists Y dY ls1, (forall u, exists ls', forward_all (layers_moved u ls dirs) (X u) g = (ls', g, Ok (Y u))) /\
    forward_all ls (X 0) g = (ls1, g, Ok (Y 0)) /\ curve ds' Y 0 dY /\
    forall gy, good gy -> tdims gy = ds' -> exists ls2 gx, backward_all ls1 gy = (ls2, Ok gx) /\ good gx /\ tdims gx = ds /\
      map layer_params ls2 = map layer_params ls /\ dot gy dY = dot gx dX + slope ls2 dirs /\ Forall2 has_grads ls ls2.
Proof.
  induction ls as [|l ls IH]; intros ds ds' dirs X dX g HCh HDs HC HS.
  - inversion HCh; subst. inversion HDs; subst. exists X, dX, []. split; [intros u; exists []; reflexivity|]. split; [reflexivity|]. split; [auto|].
    intros gy Gy Ey. exists [], gy. split; [reflexivity|]. split; [auto|]. split; [auto|]. split; [reflexivity|]. split; [unfold slope; cbn; ring|constructor].
  - inversion HCh as [|? ? dm ? ? HF HCh2]; subst. inversion HDs as [|? d ? dirs2 HD1 HD2]; subst. cbn [smooth_run] in HS. destruct HS as (HS1 & HS2).
    destruct (layer_gradient ds l dm d X dX HF HD1 HC HS1) as (Y & dY & l1 & HM & H0 & CY & HG). rewrite H0 in HS2.
    destruct (IH dm ds' dirs2 Y dY g HCh2 HD2 CY HS2) as (Z & dZ & ls1 & HM2 & H02 & CZ & HG2).
    exists Z, dZ, (l1 :: ls1). split; [|split; [|split; [auto|]]].
    + intros u. destruct (HM u g) as (l' & E1). destruct (HM2 u) as (ls' & E2). exists (l' :: ls'). change (layers_moved u (l :: ls) (d :: dirs2)) with (layer_moved u l d :: layers_moved u ls dirs2).
      cbn [forward_all]. rewrite E1, E2. reflexivity.
    + cbn [forward_all]. rewrite H0, H02. reflexivity.
    + intros gy Gy Ey. destruct (HG2 gy Gy Ey) as (ls2 & gm & B1 & Gm & Em & P1 & D1 & F1). destruct (HG gm Gm Em) as (l2 & gx & B2 & Gx & Ex & P2 & _ & D2 & F2).
      exists (l2 :: ls2), gx. cbn [backward_all]. rewrite B1, B2. split; [reflexivity|]. split; [auto|]. split; [auto|]. split; [cbn [map]; congruence|]. split; [rewrite slope_cons, D1, D2; ring|].
      constructor; [|auto]. unfold has_grads. destruct (layer_params l) as [(w & b)|] eqn:EP; [|exact I]. destruct (F2 ltac:(discriminate)) as (gw & gb & Q1 & Q2 & Q3 & Q4). destruct (Q4 w b eq_refl). exists gw, gb. auto 10.
Qed.
Lemma const_curve : forall x : tensor R, good x -> curve (tdims x) (fun _ => x) 0 (tensor_of (tdims x) (fun _ => 0)).
Proof.
  intros x Hg. split; [auto|]. split; [apply good_tensor_of; [apply good_pos|apply good_max]; auto|]. split; [reflexivity|]. intros idx HI. rewrite el_tensor_of by auto. apply @is_derive_const.
Qed.
Lemma dot_zero : forall a ds, tdims a = ds -> Forall (fun d => (0 < d)%Z) ds -> dot a (tensor_of ds (fun _ => 0)) = 0.
Proof. intros a ds E HF. rewrite dot_tensor_of_r by auto. apply rsum_zero. intros. ring. Qed.

(** The stored gradients give the derivative of the loss in every direction of parameter space. *)
Theorem backprop_direction : forall (n : net R G) ds ds' dirs x t, chain ds (n_layers n) ds' -> Forall2 direction_for (n_layers n) dirs -> good x -> tdims x = ds ->
  smooth_run (n_layers n) x (n_rng n) -> target_for ds' t ->
  exists n1 p d n2 L, net_predict n x = (n1, Ok p) /\ mse_gradient p t = Ok d /\ net_backward n1 d = (n2, Ok tt) /\
    map layer_params (n_layers n2) = map layer_params (n_layers n) /\ Forall2 has_grads (n_layers n) (n_layers n2) /\
    (forall u, mse_of (with_layers n (layers_moved u (n_layers n) dirs)) x t (L u)) /\ mse_of n x t (L 0) /\ is_derive L 0 (slope (n_layers n2) dirs).
Proof.
  intros n ds ds' dirs x t HCh HD Gx Ex HS (Gt & HT).
  destruct (chain_gradient (n_layers n) ds ds' dirs (fun _ => x) (tensor_of ds (fun _ => 0)) (n_rng n) HCh HD) as (Y & dY & ls1 & HM & H0 & CY & HG); [rewrite <- Ex; apply const_curve; auto|auto|].
  assert (HA : aligned (Y 0) t) by (unfold aligned; destruct CY as (HY & _); destruct (HY 0) as (_ & ->); auto).
  destruct (mse_derivative ds' t Y 0 dY CY Gt HA) as (L & d & HL & EG & Gd & Ed & DL).
  destruct (HG d Gd Ed) as (ls2 & gx & B1 & Ggx & Egx & P1 & D1 & F1).
  assert (EP : net_predict n x = (with_layers n ls1, Ok (Y 0))) by (unfold net_predict; rewrite H0; reflexivity).
  exists (with_layers n ls1), (Y 0), d, (with_layers n ls2), L. split; [exact EP|]. split; [exact EG|]. split.
  { unfold net_backward, with_layers. cbn [n_layers n_loss n_opt n_rng]. rewrite B1. reflexivity. }
  split; [exact P1|]. split; [exact F1|]. split; [|split].
  - intros u. destruct (HM u) as (ls' & E). exists (with_layers n ls'), (Y u). split; [unfold net_predict, with_layers; cbn [n_layers n_loss n_opt n_rng]; rewrite E; reflexivity|apply HL].
  - exists (with_layers n ls1), (Y 0). split; [exact EP|apply HL].
  - cbn [with_layers n_layers]. rewrite dot_zero in D1; [|auto|apply pos_forall; rewrite <- Ex; apply good_pos; auto]. replace (slope ls2 dirs) with (dot d dY) by (rewrite D1; ring). exact DL.
Qed.

(** ** Single parameters *)
Definition still (l : layer R) : direction :=
  match layer_params l with Some (w, b) => Some (tensor_of (tdims w) (fun _ => 0), tensor_of (tdims b) (fun _ => 0)) | None => None end.
Definition unit_at (w : tensor R) (idx : list Z) : tensor R := tensor_of (tdims w) (fun i => if idx_eqb i idx then 1 else 0).
Lemma fits_params : forall ds l ds' w b, fits ds l ds' -> layer_params l = Some (w, b) -> good w /\ good b.
Proof. intros ds l ds' w b HF E. destruct HF; cbn [layer_params] in E; try discriminate; injection E as <- <-; auto. Qed.
Lemma good_zeros : forall w : tensor R, good w -> good (tensor_of (tdims w) (fun _ => 0)).
Proof. intros w Hg. apply good_tensor_of; [apply good_pos|apply good_max]; auto. Qed.
Lemma good_unit : forall (w : tensor R) idx, good w -> good (unit_at w idx).
Proof. intros w idx Hg. apply good_tensor_of; [apply good_pos|apply good_max]; auto. Qed.
Lemma still_for : forall ds l ds', fits ds l ds' -> direction_for l (still l).
Proof.
  intros ds l ds' HF. unfold direction_for, still. destruct (layer_params l) as [(w & b)|] eqn:E; [|exact I]. destruct (fits_params _ _ _ _ _ HF E) as (Gw & Gb).
  split; [apply good_zeros; auto|]. split; [reflexivity|]. split; [apply good_zeros; auto|reflexivity].
Qed.
Lemma moved_zero : forall u w, good w -> moved u w (tensor_of (tdims w) (fun _ => 0)) = w.
Proof. intros u w Hg. unfold moved. symmetry. apply tensor_eta; auto. intros idx HI. rewrite el_tensor_of by auto. ring. Qed.
Lemma moved_unit : forall u w idx, good w -> moved u w (unit_at w idx) = bumped w idx u.
Proof.
  intros u w idx Hg. unfold moved, bumped, unit_at. apply tensor_of_ext; [apply pos_forall; apply good_pos; auto|]. intros i HI. rewrite el_tensor_of by auto. destruct (idx_eqb i idx); ring.
Qed.
Lemma still_moved : forall ds l ds' u, fits ds l ds' -> layer_moved u l (still l) = l.
Proof.
  intros ds l ds' u HF. destruct HF as [n k o l Gw Ew Gb Eb HM| | | |h w l Gw Ew Gb Eb]; try reflexivity.
  - unfold layer_moved, still. cbn [layer_params with_params]. rewrite !moved_zero by auto. destruct l; reflexivity.
  - unfold layer_moved, still. cbn [layer_params with_params]. rewrite !moved_zero by auto. destruct l; reflexivity.
Qed.
Lemma still_slope : forall l l2, has_grads l l2 -> layer_slope l2 (still l) = 0.
Proof.
  intros l l2 H. unfold has_grads in H. unfold still, layer_slope. destruct (layer_params l) as [(w & b)|]; [|destruct (layer_grads l2) as [(? & ?)|]; reflexivity].
  destruct H as (gw & gb & -> & Gw & Ew & Gb & Eb). rewrite !dot_zero; [ring|auto|rewrite <- Eb; apply pos_forall; apply good_pos; auto|auto|rewrite <- Ew; apply pos_forall; apply good_pos; auto].
Qed.
Lemma chain_app : forall a ds b ds', chain ds (a ++ b) ds' -> exists dm, chain ds a dm /\ chain dm b ds'.
Proof. induction a as [|l a IH]; intros ds b ds' H; [exists ds; split; [constructor|auto]|]. cbn [app] in H. inversion H as [|? ? dm ? ? HF HC]; subst. destruct (IH _ _ _ HC) as (d & H1 & H2). exists d. split; [econstructor; eauto|auto]. Qed.
Lemma chain_still : forall ls ds ds', chain ds ls ds' -> Forall2 direction_for ls (map still ls) /\ (forall u, layers_moved u ls (map still ls) = ls) /\ forall ls2, Forall2 has_grads ls ls2 -> slope ls2 (map still ls) = 0.
Proof.
  intros ls ds ds' H. induction H as [ds|ds l dm r ds' HF HC (I1 & I2 & I3)].
  - split; [constructor|]. split; [reflexivity|]. intros ls2 F. inversion F. reflexivity.
  - split; [constructor; [eapply still_for; eauto|auto]|]. split.
    + intros u. unfold layers_moved in *. cbn [map combine fst snd]. rewrite I2. rewrite (still_moved _ _ _ u HF). reflexivity.
    + intros ls2 F. inversion F as [|? l2 ? r2 F1 F2]; subst. cbn [map]. rewrite slope_cons, still_slope, I3 by auto. ring.
Qed.
Lemma dot_unit : forall (g w : tensor R) idx, tdims g = tdims w -> good w -> in_range (tdims w) idx -> dot g (unit_at w idx) = el g idx.
Proof.
  intros g w idx E Hg HI. pose proof (pos_forall _ (good_pos _ Hg)) as HF. unfold unit_at. rewrite dot_tensor_of_r by auto.
  rewrite (rsum_single _ _ idx); [rewrite idx_eqb_refl; ring|apply NoDup_all_indices; auto|apply In_all_indices; auto|].
  intros i _ Hi. rewrite idx_eqb_neq by auto. ring.
Qed.
Lemma layers_moved_app : forall u a b da db, length a = length da -> layers_moved u (a ++ b) (da ++ db) = layers_moved u a da ++ layers_moved u b db.
Proof.
  intros u a. induction a as [|l a IH]; intros b [|d da] db E; try discriminate; [reflexivity|]. injection E as E. unfold layers_moved in *. cbn [app combine map]. f_equal. apply IH. auto.
Qed.
Lemma slope_app : forall a b da db, length a = length da -> slope (a ++ b) (da ++ db) = slope a da + slope b db.
Proof.
  intros a. induction a as [|l a IH]; intros b [|d da] db E; try discriminate; [cbn [app]; change (slope [] []) with 0; ring|]. injection E as E. cbn [app]. rewrite !slope_cons, IH by auto. ring.
Qed.
Lemma F2_length : forall {A B} (P : A -> B -> Prop) a b, Forall2 P a b -> length a = length b.
Proof. intros A B P a b H. induction H; cbn; auto. Qed.
(** Every layer of a network at a position: direction [d] for it, none for the others. *)
Lemma backprop_at : forall (n : net R G) ds ds' pre l post d x t, n_layers n = pre ++ l :: post -> chain ds (n_layers n) ds' -> direction_for l d -> good x -> tdims x = ds ->
  smooth_run (n_layers n) x (n_rng n) -> target_for ds' t ->
  exists n1 p dp n2 l2 L, net_predict n x = (n1, Ok p) /\ mse_gradient p t = Ok dp /\ net_backward n1 dp = (n2, Ok tt) /\ nth_error (n_layers n2) (length pre) = Some l2 /\ has_grads l l2 /\
    (forall u, mse_of (with_layers n (pre ++ layer_moved u l d :: post)) x t (L u)) /\ is_derive L 0 (layer_slope l2 d).
Proof.
  intros n ds ds' pre l post d x t EN HCh HD Gx Ex HS HT.
  pose proof HCh as HCh'. rewrite EN in HCh'. destruct (chain_app _ _ _ _ HCh') as (dm & C1 & C2). inversion C2 as [|? ? dm2 ? ? HF C3]; subst.
  destruct (chain_still _ _ _ C1) as (S1 & S2 & S3). destruct (chain_still _ _ _ C3) as (T1 & T2 & T3).
  destruct (backprop_direction n (tdims x) ds' (map still pre ++ d :: map still post) x t) as (n1 & p & dp & n2 & L & E1 & E2 & E3 & _ & F & HL & _ & DL); auto.
  { rewrite EN. apply Forall2_app; [auto|]. constructor; auto. }
  rewrite EN in F. apply Forall2_app_inv_l in F. destruct F as (a2 & b2 & F1 & F2 & E4). inversion F2 as [|? l2 ? p2 F3 F4]; subst.
  pose proof (F2_length _ _ _ F1) as LA. exists n1, p, dp, n2, l2, L. split; [auto|]. split; [auto|]. split; [auto|]. split; [rewrite E4, LA; rewrite nth_error_app2 by lia; rewrite Nat.sub_diag; reflexivity|]. split; [auto|]. split.
  - intros u. specialize (HL u). rewrite EN in HL. rewrite layers_moved_app in HL by (rewrite map_length; auto). rewrite S2 in HL.
    change (layers_moved u (l :: post) (d :: map still post)) with (layer_moved u l d :: layers_moved u post (map still post)) in HL. rewrite T2 in HL. exact HL.
  - rewrite E4 in DL. rewrite slope_app in DL by (rewrite map_length; auto). rewrite slope_cons, S3, T3 in DL by auto. replace (layer_slope l2 d) with (0 + (layer_slope l2 d + 0)) by ring. exact DL.
Qed.
Lemma has_grads_params : forall l l2 w b, has_grads l l2 -> layer_params l = Some (w, b) -> exists gw gb, layer_grads l2 = Some (gw, gb) /\ good gw /\ tdims gw = tdims w /\ good gb /\ tdims gb = tdims b.
Proof. intros l l2 w b H E. unfold has_grads in H. rewrite E in H. exact H. Qed.
Lemma chain_params : forall pre l post ds ds' w b, chain ds (pre ++ l :: post) ds' -> layer_params l = Some (w, b) -> good w /\ good b.
Proof. intros pre l post ds ds' w b HC E. destruct (chain_app _ _ _ _ HC) as (dm & C1 & C2). inversion C2; subst. eapply fits_params; eauto. Qed.
Theorem backprop_weight : forall (n : net R G) ds ds' pre l post w b x t idx, n_layers n = pre ++ l :: post -> layer_params l = Some (w, b) -> chain ds (n_layers n) ds' -> good x -> tdims x = ds ->
  smooth_run (n_layers n) x (n_rng n) -> target_for ds' t -> in_range (tdims w) idx ->
  exists n1 p dp n2 l2 gw gb L, net_predict n x = (n1, Ok p) /\ mse_gradient p t = Ok dp /\ net_backward n1 dp = (n2, Ok tt) /\
    nth_error (n_layers n2) (length pre) = Some l2 /\ layer_grads l2 = Some (gw, gb) /\ tdims gw = tdims w /\
    (forall u, mse_of (with_layers n (pre ++ with_params l (bumped w idx u) b :: post)) x t (L u)) /\ is_derive L 0 (el gw idx).
Proof.
  intros n ds ds' pre l post w b x t idx EN EP HCh Gx Ex HS HT HI.
  assert (GG : good w /\ good b) by (rewrite EN in HCh; eapply chain_params; eauto). destruct GG as (Gw & Gb).
  destruct (backprop_at n ds ds' pre l post (Some (unit_at w idx, tensor_of (tdims b) (fun _ => 0))) x t EN HCh) as (n1 & p & dp & n2 & l2 & L & E1 & E2 & E3 & E4 & HG & HL & DL); auto.
  { unfold direction_for. rewrite EP. split; [apply good_unit; auto|]. split; [reflexivity|]. split; [apply good_zeros; auto|reflexivity]. }
  destruct (has_grads_params _ _ _ _ HG EP) as (gw & gb & EG & Ggw & Egw & Ggb & Egb). exists n1, p, dp, n2, l2, gw, gb, L. do 6 (split; [auto|]). split.
  - intros u. specialize (HL u). unfold layer_moved in HL. rewrite EP in HL. rewrite moved_unit, moved_zero in HL by auto. exact HL.
  - unfold layer_slope in DL. rewrite EG in DL. rewrite dot_unit in DL by auto. rewrite dot_zero in DL; [|auto|rewrite <- Egb; apply pos_forall; apply good_pos; auto]. replace (el gw idx) with (el gw idx + 0) by ring. exact DL.
Qed.
Theorem backprop_bias : forall (n : net R G) ds ds' pre l post w b x t idx, n_layers n = pre ++ l :: post -> layer_params l = Some (w, b) -> chain ds (n_layers n) ds' -> good x -> tdims x = ds ->
  smooth_run (n_layers n) x (n_rng n) -> target_for ds' t -> in_range (tdims b) idx ->
  exists n1 p dp n2 l2 gw gb L, net_predict n x = (n1, Ok p) /\ mse_gradient p t = Ok dp /\ net_backward n1 dp = (n2, Ok tt) /\
    nth_error (n_layers n2) (length pre) = Some l2 /\ layer_grads l2 = Some (gw, gb) /\ tdims gb = tdims b /\
    (forall u, mse_of (with_layers n (pre ++ with_params l w (bumped b idx u) :: post)) x t (L u)) /\ is_derive L 0 (el gb idx).
Proof.
  intros n ds ds' pre l post w b x t idx EN EP HCh Gx Ex HS HT HI.
  assert (GG : good w /\ good b) by (rewrite EN in HCh; eapply chain_params; eauto). destruct GG as (Gw & Gb).
  destruct (backprop_at n ds ds' pre l post (Some (tensor_of (tdims w) (fun _ => 0), unit_at b idx)) x t EN HCh) as (n1 & p & dp & n2 & l2 & L & E1 & E2 & E3 & E4 & HG & HL & DL); auto.
  { unfold direction_for. rewrite EP. split; [apply good_zeros; auto|]. split; [reflexivity|]. split; [apply good_unit; auto|reflexivity]. }
  destruct (has_grads_params _ _ _ _ HG EP) as (gw & gb & EG & Ggw & Egw & Ggb & Egb). exists n1, p, dp, n2, l2, gw, gb, L. do 6 (split; [auto|]). split.
  - intros u. specialize (HL u). unfold layer_moved in HL. rewrite EP in HL. rewrite moved_unit, moved_zero in HL by auto. exact HL.
  - unfold layer_slope in DL. rewrite EG in DL. rewrite dot_unit in DL by auto. rewrite dot_zero in DL; [|auto|rewrite <- Egw; apply pos_forall; apply good_pos; auto]. replace (el gb idx) with (0 + el gb idx) by ring. exact DL.
Qed.
End N.
