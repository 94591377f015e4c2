(** * Training on well-shaped data succeeds, whatever the arithmetic *)
From Verif Require Import Base Scalar Types Spec SpecNN SpecLayers SpecOpt M_Shape M_Tensor M_Adv M_Act M_Loss M_Layers M_Reg M_Opt M_Net SpecNet
  L_Index L_Shape L_Bcast L_Tensor L_Nest L_Glue L_Matmul L_Adv L_Act L_ActR L_Loss L_Layers L_Conv L_Rows L_Pool L_Pool2 L_Drop L_BN L_Opt L_Net L_Net2.

Section S.
Context {T : Type} {S : Scalar T} {G : Type} {HR : Rng T G}.
Local Notation layer := (layer T).

(** ** Passes *)
(** Parameters and stored gradients are good and of the same shapes. *)
Definition armed (l : layer) : Prop :=
  match layer_params l with
  | Some (w, b) => good w /\ good b /\ exists gw gb, layer_grads l = Some (gw, gb) /\ good gw /\ tdims gw = tdims w /\ good gb /\ tdims gb = tdims b
  | None => True
  end.
Lemma good_dims_of : forall ds (x : tensor T) (f : list Z -> T), good x -> tdims x = ds -> good (tensor_of ds f).
Proof. intros ds x f Hg <-. apply good_tensor_of; [apply good_pos|apply good_max]; auto. Qed.
Lemma accepts_step : forall ds l ds' (x : tensor T) (g : G), accepts ds l ds' -> good x -> tdims x = ds ->
  exists l1 g' y, layer_forward l x g = (l1, g', Ok y) /\ good y /\ tdims y = ds' /\
    forall d : tensor T, good d -> tdims d = ds' -> exists l2 gx, layer_backward l1 d = (l2, Ok gx) /\ good gx /\ tdims gx = ds /\
      accepts ds l2 ds' /\ layer_params l2 = layer_params l /\ armed l2.
Proof.
  intros ds l ds' x g HA Hg Ex. destruct HA as [n k o l W1 W2 W3 W4 HM|ds l HS|b c ds l HN|n h w l W1 W2 W3 W4 H1 H2 HM|n c h w l H1 H2 H3 H4 H5|ds l HT]; cbn [layer_forward].
  - assert (HW : fc_wf l k o) by (split; auto). rewrite (fc_forward_2 l k o x n HW Hg Ex HM). unfold lift; cbn [fst snd]. do 3 eexists. split; [reflexivity|].
    assert (HP : pos_dims [n; o]) by (pose proof (good_pos _ Hg) as P1; pose proof (good_pos _ W1) as P2; rewrite Ex in P1; rewrite W2 in P2; destruct P1 as (_ & P1), P2 as (_ & P2); inversion P1; inversion P2 as [|? ? Q1 Q2]; inversion Q2; subst; split; [discriminate|repeat constructor; auto]).
    assert (HM2 : prod [n; o] <= INT_MAX) by (cbn [prod]; lia). split; [apply good_tensor_of; auto|]. split; [reflexivity|]. intros d Hd Ed. cbn [layer_backward].
    rewrite (fc_backward_rows _ k o n x d x d); auto; [|unfold as_row, rank; fold (tdims x); rewrite Ex; reflexivity|unfold as_row, rank; fold (tdims d); rewrite Ed; reflexivity].
    do 2 eexists. split; [reflexivity|]. split; [apply (good_dims_of _ x); auto|]. split; [reflexivity|]. split; [constructor; auto|]. split; [reflexivity|].
    unfold armed. cbn [layer_params layer_grads fc_w fc_b fc_gw fc_gb]. split; [auto|]. split; [auto|]. do 2 eexists. split; [reflexivity|].
    split; [apply (good_dims_of _ (fc_w l)); auto|]. split; [symmetry; exact W2|]. split; [apply (good_dims_of _ (fc_b l)); auto|symmetry; exact W4].
  - unfold act_forward. subst ds. destruct (act_fwd_shape (al_act l) x Hg HS) as (y & Ey & Gy & Dy). rewrite Ey. unfold lift; cbn [fst snd]. do 3 eexists. split; [reflexivity|]. split; [auto|]. split; [auto|]. intros d Hd Ed.
    cbn [layer_backward]. unfold act_backward. cbn [al_in al_act fst snd]. destruct (act_bwd_shape (al_act l) x d Hg Hd) as (gx & E1 & E2 & E3); [congruence|auto|]. rewrite E1.
    do 2 eexists. split; [reflexivity|]. split; [auto|]. split; [auto|]. split; [constructor; auto|]. split; [reflexivity|exact I].
  - destruct (flatten_roundtrip l x b c ds Hg Ex HN) as (l' & y & E1 & E2 & E3 & _ & E4). rewrite E1. unfold lift; cbn [fst snd]. do 3 eexists. split; [reflexivity|]. split; [auto|]. split; [auto|]. intros d Hd Ed.
    destruct (E4 d Hd ltac:(congruence)) as (z & Z1 & Z2 & Z3 & _). cbn [layer_backward]. rewrite Z1. do 2 eexists. split; [reflexivity|]. split; [auto|]. split; [congruence|]. split; [constructor; auto|]. split; [reflexivity|exact I].
  - assert (HW : conv_wf l) by (split; auto). rewrite (conv_forward_ok l x n h w HW Hg Ex H1 H2 HM). unfold lift; cbn [fst snd]. do 3 eexists. split; [reflexivity|].
    pose proof (good_pos _ Hg) as P1. pose proof (good_pos _ W1) as P2. rewrite Ex in P1. rewrite W2 in P2. destruct P1 as (_ & P1). destruct P2 as (_ & P2).
    assert (0 < n) by (inversion P1; auto). assert (0 < cv_oc l) by (inversion P2; auto).
    split; [apply good_4; auto; lia|]. split; [reflexivity|]. intros d Hd Ed. cbn [layer_backward].
    rewrite (conv_backward_ok (conv_saw l x) x d n n h w (h - cv_kh l + 1) (w - cv_kw l + 1)); auto. cbn [conv_saw cv_w cv_b cv_in cv_ic cv_oc cv_kh cv_kw cv_stride cv_pad cv_dil].
    do 2 eexists. split; [reflexivity|]. split; [apply (good_dims_of _ x); auto|]. split; [reflexivity|]. split; [apply (acc_conv n h w (mkConv _ _ _ _ _ _ _ _ _ _ _ _)); auto|]. split; [reflexivity|].
    unfold armed. cbn [layer_params layer_grads cv_w cv_b cv_gw cv_gb]. split; [auto|]. split; [auto|]. do 2 eexists. split; [reflexivity|].
    split; [apply (good_dims_of _ (cv_w l)); auto|]. split; [symmetry; exact W2|]. split; [apply (good_dims_of _ (cv_b l)); auto|symmetry; exact W4].
  - destruct (pool_total l x n c h w Hg Ex H1 H2 H3 H4 H5) as (y & E1 & E2 & E3 & E4). rewrite E1. unfold lift; cbn [fst snd]. do 3 eexists. split; [reflexivity|]. split; [auto|]. split; [auto|]. intros d Hd Ed.
    destruct (E4 d Hd ltac:(congruence)) as (gx & B1 & B2 & B3). cbn [layer_backward]. rewrite B1. do 2 eexists. split; [reflexivity|]. split; [auto|]. split; [congruence|].
    split; [apply (acc_pool n c h w (mkPool _ _ _ _)); auto|]. split; [reflexivity|exact I].
  - subst ds. destruct (dropout_train l x g HT Hg) as (r & g' & _ & Gr & Er & EF). rewrite EF. do 3 eexists. split; [reflexivity|]. split; [apply (good_dims_of _ x); auto|]. split; [reflexivity|]. intros d Hd Ed.
    cbn [layer_backward]. unfold dropout_backward. cbn [dr_mask dr_train]. destruct (drop_mask_facts (dr_rate l) r Gr) as (Gm & Em).
    assert (EB : shape_eqb (tshape d) (tshape (drop_mask (dr_rate l) r)) = true) by (apply shape_eqb_dims; congruence). rewrite EB. cbn [negb].
    unfold t_mul. rewrite binop_same by (auto; congruence). do 2 eexists. split; [reflexivity|]. split; [apply (good_dims_of _ d); auto|]. split; [exact Ed|]. split; [constructor; reflexivity|]. split; [reflexivity|exact I].
Qed.
Lemma accepts_with : forall ds (l : layer) ds' (w b w' b' : tensor T), accepts ds l ds' -> layer_params l = Some (w, b) -> good w' -> tdims w' = tdims w -> good b' -> tdims b' = tdims b -> accepts ds (with_params l w' b') ds'.
Proof.
  intros ds l ds' w b w' b' HA E Gw Ew Gb Eb. destruct HA as [n k o l W1 W2 W3 W4 HM| | |n h v l W1 W2 W3 W4 H1 H2 HM| |]; cbn [layer_params] in E; try discriminate; injection E as <- <-; cbn [with_params].
  - apply acc_fc; cbn [fc_w fc_b]; auto; congruence.
  - match goal with |- accepts _ (LConv ?m) _ => apply (acc_conv n h v m) end; cbn [cv_w cv_b cv_oc cv_ic cv_kh cv_kw]; auto; congruence.
Qed.

(** ** Updates *)
Definition optim_ready (D : Z -> list Z) (o : optim T) : Prop :=
  match o with OSGD o => bufs_ok D (sg_buf o) | ORMS o => rms_ok D o | OAdam o => adam_ok D o end.
Lemma new_ready : forall D (o : optim T), new_optim o -> optim_ready D o.
Proof. intros D o H. destruct H; cbn; unfold rms_ok, adam_ok, bufs_ok; cbn; repeat split; discriminate. Qed.
Lemma new_room : forall (o : optim T) k, new_optim o -> k <= INT_MAX -> room o k.
Proof. intros o k H HK. destruct H; cbn; auto. lia. Qed.
Lemma pair_optimize_ok : forall D (o : optim T) i (w b gw gb : tensor T), optim_ready D o -> room o 1 ->
  good w -> tdims w = D (2 * i) -> good b -> tdims b = D (2 * i + 1) -> good gw -> tdims gw = tdims w -> good gb -> tdims gb = tdims b ->
  exists o' w' b', pair_optimize o i w b gw gb = (o', w', b', Ok tt) /\ optim_ready D o' /\ good w' /\ tdims w' = tdims w /\ good b' /\ tdims b' = tdims b /\
    (forall k, room o (k + 1) -> room o' k) /\ plain_rate o' = plain_rate o /\
    forall r, plain_rate o = Some r -> descended r w gw w' /\ descended r b gb b'.
Proof.
  intros D o i w b gw gb HO HM Gw Ew Gb Eb Ggw Egw Ggb Egb. unfold pair_optimize.
  assert (F1 : pair_store i w b (2 * i) = w) by (unfold pair_store; rewrite Z.eqb_refl; reflexivity).
  assert (F2 : forall w', put (pair_store i w b) (2 * i) w' (2 * i + 1) = b) by (intros w'; rewrite put_neq by lia; unfold pair_store; destruct (Z.eqb_spec (2 * i + 1) (2 * i)); [lia|reflexivity]).
  assert (F3 : forall w' b', put (put (pair_store i w b) (2 * i) w') (2 * i + 1) b' (2 * i) = w') by (intros w' b'; rewrite put_neq by lia; apply put_eq).
  assert (F4 : forall w' b', put (put (pair_store i w b) (2 * i) w') (2 * i + 1) b' (2 * i + 1) = b') by (intros w' b'; apply put_eq).
  destruct o as [s|s|s]; cbn [optim_optimize optim_ready] in *.
  - unfold sgd_optimize. change (Zlen [2 * i; 2 * i + 1] =? Zlen [gw; gb]) with true. cbn [negb combine opt_loop]. rewrite F1.
    destruct (sgd_update_ok D s (2 * i) w gw (sgd_rate s (s_z (-1))) HO Gw Ew Ggw ltac:(congruence)) as (m & w' & E1 & Gm & Em & Gw' & Ew' & V1). rewrite E1.
    rewrite F2. set (s1 := mkSGD _ _ _ _ _ _).
    assert (HB : bufs_ok D (sg_buf s1)) by (apply bufs_ok_put; auto).
    destruct (sgd_update_ok D s1 (2 * i + 1) b gb (sgd_rate s (s_z (-1))) HB Gb Eb Ggb ltac:(congruence)) as (m2 & b' & E2 & Gm2 & Em2 & Gb' & Eb' & V2). rewrite E2.
    do 3 eexists. split; [rewrite F3, F4; reflexivity|]. split; [apply bufs_ok_put; auto|]. split; [auto|]. split; [congruence|]. split; [auto|]. split; [congruence|]. split; [intros; exact I|]. split; [reflexivity|].
    cbn [plain_rate]. intros r HPl. destruct (s_eq (sg_mom s) zero) eqn:M0; [|discriminate]. destruct (s_eq (sg_wd s) zero) eqn:M1; [|discriminate]. cbn [andb] in HPl. injection HPl as <-. split; (split; [congruence|]); intros idx HI.
    + rewrite Ew in HI. specialize (V1 idx HI). unfold sgd_rule in V1. rewrite M0, M1 in V1. apply (f_equal fst) in V1. cbn [fst] in V1. exact V1.
    + rewrite Eb in HI. specialize (V2 idx HI). unfold sgd_rule in V2. cbn [s1 sg_mom sg_wd] in V2. rewrite M0, M1 in V2. apply (f_equal fst) in V2. cbn [fst] in V2. exact V2.
  - unfold rms_optimize. change (Zlen [2 * i; 2 * i + 1] =? Zlen [gw; gb]) with true. cbn [negb combine opt_loop]. rewrite F1.
    destruct (rms_update_ok D s (2 * i) w gw (rms_rate s (s_z (-1))) HO Gw Ew Ggw ltac:(congruence)) as (s1 & w' & E1 & HB & _ & _ & _ & _ & _ & _ & Gw' & Ew' & _). rewrite E1.
    rewrite F2.
    destruct (rms_update_ok D s1 (2 * i + 1) b gb (rms_rate s (s_z (-1))) HB Gb Eb Ggb ltac:(congruence)) as (s2 & b' & E2 & HB2 & _ & _ & _ & _ & _ & _ & Gb' & Eb' & _). rewrite E2.
    do 3 eexists. split; [rewrite F3, F4; reflexivity|]. split; [exact HB2|]. split; [auto|]. split; [congruence|]. split; [auto|]. split; [congruence|]. split; [intros; exact I|]. split; [reflexivity|]. cbn. discriminate.
  - unfold adam_optimize. change (Zlen [2 * i; 2 * i + 1] =? Zlen [gw; gb]) with true. cbn [negb combine]. cbn [room] in HM. destruct HM as (M1 & M2). unfold adam_rate. rewrite chk32_ok by (unfold INT_MIN; lia). cbn [bind].
    set (s0 := mkAdam _ _ _ _ _ _ _ _ _ _ _ _). cbn [opt_loop]. rewrite F1. assert (HO0 : adam_ok D s0) by exact HO.
    destruct (adam_update_ok D s0 (2 * i) w gw tt HO0 Gw Ew Ggw ltac:(congruence)) as (m & v & w' & E1 & HB & Gw' & Ew' & _). rewrite E1.
    rewrite F2.
    destruct (adam_update_ok D (adam_with s0 (2 * i) m v) (2 * i + 1) b gb tt HB Gb Eb Ggb ltac:(congruence)) as (m2 & v2 & b' & E2 & HB2 & Gb' & Eb' & _). rewrite E2.
    do 3 eexists. split; [rewrite F3, F4; reflexivity|]. split; [exact HB2|]. split; [auto|]. split; [congruence|]. split; [auto|]. split; [congruence|].
    split; [intros k HK; cbn [room adam_with s0 ad_it] in *; lia|]. split; [reflexivity|]. cbn. discriminate.
Qed.
Fixpoint dims_at (D : Z -> list Z) (i : Z) (ls : list layer) : Prop :=
  match ls with
  | [] => True
  | l :: r => (match layer_params l with Some (w, b) => D (2 * i) = tdims w /\ D (2 * i + 1) = tdims b | None => True end) /\ dims_at D (i + 1) r
  end.
Lemma room_le : forall (o : optim T) k k', k' <= k -> room o k -> room o k'.
Proof. intros o k k' H HK. destruct o; cbn [room] in *; auto. lia. Qed.
(** ** One sample *)
Lemma loss_total : forall l ds (p t : tensor T), counts_nonzero (T := T) -> good p -> tdims p = ds -> target_fits l ds t ->
  (exists c, loss_compute l p t = Ok c) /\ exists d, loss_gradient l p t = Ok d /\ good d /\ tdims d = ds.
Proof.
  intros l ds p t HC Gp Ep (Gt & HT). pose proof (good_prod_pos _ Gp) as HP. pose proof (good_max _ Gp) as HM. destruct l; cbn [loss_compute loss_gradient].
  - assert (HA : aligned p t) by (unfold aligned; rewrite Ep; auto). rewrite mse_compute_ok, mse_gradient_ok by (auto; apply HC; auto). split; [eauto|]. eexists. split; [reflexivity|]. split; [apply (good_dims_of _ p); auto|auto].
  - destruct HT as (b & c & -> & Et). destruct (dims2_pos p b c Gp Ep) as (Hb & Hc & HM2). rewrite (cce_compute_ok p t b c), (cce_gradient_ok p t b c) by (auto; apply HC; nia). split; [eauto|]. eexists. split; [reflexivity|]. split; [apply (good_dims_of _ p); auto|auto].
Qed.
Lemma dims_at_same : forall D ls ls' i, map params_dims ls' = map params_dims ls -> dims_at D i ls -> dims_at D i ls'.
Proof.
  intros D. induction ls as [|l ls IH]; intros [|l' ls'] i E H; try discriminate; [auto|]. cbn [map] in E. injection E as E1 E2. destruct H as (H1 & H2). split; [|apply IH; auto].
  unfold params_dims in E1. destruct (layer_params l) as [(w & b)|], (layer_params l') as [(w' & b')|]; try discriminate; auto. injection E1 as -> ->. auto.
Qed.
Lemma params_dims_of : forall a b : list layer, map layer_params a = map layer_params b -> map params_dims a = map params_dims b.
Proof.
  induction a as [|x a IH]; intros [|y b] E; try discriminate; [reflexivity|]. cbn [map] in *. injection E as E1 E2. rewrite (IH b E2). unfold params_dims. rewrite E1. reflexivity.
Qed.
Fixpoint dims_map (ls : list layer) : Z -> list Z := fun k =>
  match ls with [] => [] | l :: r => if k =? 0 then match layer_params l with Some (w, _) => tdims w | None => [] end
                                     else if k =? 1 then match layer_params l with Some (_, b) => tdims b | None => [] end else dims_map r (k - 2) end.
Lemma dims_map_at : forall ls i, dims_at (fun k => dims_map ls (k - 2 * i)) i ls.
Proof.
  intros ls i. assert (H : forall ls D i, (forall k, 2 * i <= k -> D k = dims_map ls (k - 2 * i)) -> dims_at D i ls).
  { clear. induction ls as [|l ls IH]; intros D i H; [exact I|]. cbn [dims_at]. split.
    - destruct (layer_params l) as [(w & b)|] eqn:E; [|exact I]. rewrite !H by lia. replace (2 * i - 2 * i) with 0 by lia. replace (2 * i + 1 - 2 * i) with 1 by lia. cbn [dims_map]. rewrite E. auto.
    - apply IH. intros k HK. rewrite H by lia. cbn [dims_map]. destruct (Z.eqb_spec (k - 2 * i) 0); [lia|]. destruct (Z.eqb_spec (k - 2 * i) 1); [lia|]. f_equal. lia. }
  apply H. auto.
Qed.
Lemma Forall_concat_repeat : forall {A} (P : A -> Prop) l k, Forall P l -> Forall P (concat (repeat l k)).
Proof. intros A P l k H. induction k as [|k IH]; [constructor|]. cbn. apply Forall_app. auto. Qed.
Lemma Zlen_concat_repeat : forall {A} (l : list A) k, Zlen (concat (repeat l k)) = Z.of_nat k * Zlen l.
Proof. intros A l k. induction k as [|k IH]; [reflexivity|]. cbn [repeat concat]. unfold Zlen in *. rewrite app_length. nia. Qed.
Lemma Forall_combine : forall {A B} (P : A -> Prop) (Q : B -> Prop) a b, Forall P a -> Forall Q b -> Forall (fun p => P (fst p) /\ Q (snd p)) (combine a b).
Proof.
  intros A B P Q a. induction a as [|x a IH]; intros [|y b] HA HB; try constructor. { inversion HA; inversion HB; subst. auto. } inversion HA; inversion HB; subst. auto.
Qed.

(** ** Training, for any family of layers that both passes and the update preserve.  [back ds] are the shapes the
    gradient may have where the values have shape [ds]. *)
Section Family.
Variable acc : list Z -> layer -> list Z -> Prop.
Variable back : list Z -> list Z -> Prop.
Hypothesis back_same : forall ds, back ds ds.
Hypothesis acc_step : forall ds l ds' (x : tensor T) (g : G), acc ds l ds' -> good x -> tdims x = ds ->
  exists l1 g' y, layer_forward l x g = (l1, g', Ok y) /\ good y /\ tdims y = ds' /\
    forall d : tensor T, good d -> back ds' (tdims d) -> exists l2 gx, layer_backward l1 d = (l2, Ok gx) /\ good gx /\ back ds (tdims gx) /\
      acc ds l2 ds' /\ layer_params l2 = layer_params l /\ armed l2.
Hypothesis acc_with : forall ds (l : layer) ds' (w b w' b' : tensor T), acc ds l ds' -> layer_params l = Some (w, b) -> good w' -> tdims w' = tdims w -> good b' -> tdims b' = tdims b -> acc ds (with_params l w' b') ds'.
Lemma stack_chain : forall ls ds ds' (x : tensor T) (g : G), stack acc ds ls ds' -> good x -> tdims x = ds ->
  exists ls1 g' y, forward_all ls x g = (ls1, g', Ok y) /\ good y /\ tdims y = ds' /\
    forall d : tensor T, good d -> back ds' (tdims d) -> exists ls2 gx, backward_all ls1 d = (ls2, Ok gx) /\ good gx /\ back ds (tdims gx) /\
      stack acc ds ls2 ds' /\ map layer_params ls2 = map layer_params ls /\ Forall armed ls2.
Proof.
  induction ls as [|l ls IH]; intros ds ds' x g HA Hg Ex.
  - inversion HA; subst. exists [], g, x. split; [reflexivity|]. split; [auto|]. split; [auto|]. intros d Hd Ed. exists [], d. cbn [backward_all]. split; [reflexivity|]. split; [auto|]. split; [auto|]. split; [constructor|]. split; [reflexivity|constructor].
  - inversion HA as [|? ? dm ? ? H1 H2]; subst. destruct (acc_step _ l dm x g H1 Hg eq_refl) as (l1 & g1 & y & E1 & Gy & Ey & B1).
    destruct (IH dm ds' y g1 H2 Gy Ey) as (ls1 & g2 & z & E2 & Gz & Ez & B2). exists (l1 :: ls1), g2, z. cbn [forward_all]. rewrite E1, E2. split; [reflexivity|]. split; [auto|]. split; [auto|]. intros d Hd Ed.
    destruct (B2 d Hd Ed) as (ls2 & gm & F1 & F2 & F3 & F4 & F5 & F6). destruct (B1 gm F2 F3) as (l2 & gx & K1 & K2 & K3 & K4 & K5 & K6).
    exists (l2 :: ls2), gx. cbn [backward_all]. rewrite F1, K1. split; [reflexivity|]. split; [auto|]. split; [auto|]. split; [econstructor; eauto|]. split; [cbn [map]; congruence|]. constructor; auto.
Qed.
Lemma layer_update_ok : forall D i (l : layer) (o : optim T) ds ds', acc ds l ds' -> armed l -> dims_at D i [l] -> optim_ready D o -> room o 1 ->
  exists l' o', layer_update i l o = (l', o', Ok tt) /\ optim_ready D o' /\ acc ds l' ds' /\ params_dims l' = params_dims l /\
    (forall k, 0 <= k -> room o (k + 1) -> room o' k) /\ plain_rate o' = plain_rate o /\ forall r, plain_rate o = Some r -> layer_descended r l l'.
Proof.
  intros D i l o ds ds' HA HR0 (HD & _) HO HM. unfold armed in HR0. destruct (layer_params l) as [(w & b)|] eqn:EP.
  - destruct HR0 as (Gw & Gb & gw & gb & EG & Ggw & Egw & Ggb & Egb). destruct HD as (D1 & D2).
    destruct (pair_optimize_ok D o i w b gw gb HO HM) as (o' & w' & b' & E & HO' & Gw' & Ew' & Gb' & Eb' & HK & HP & HV); auto.
    assert (EU : layer_update i l o = (with_params l w' b', o', Ok tt)).
    { destruct l as [l|l|l|l|l|l|l]; cbn [layer_params] in EP; try discriminate; injection EP as <- <-; cbn [layer_grads] in EG; cbn [layer_update with_params].
      - destruct (fc_gw l) as [gw'|] eqn:E1, (fc_gb l) as [gb'|] eqn:E2; try discriminate. injection EG as -> ->. rewrite E. reflexivity.
      - destruct (cv_gw l) as [gw'|] eqn:E1, (cv_gb l) as [gb'|] eqn:E2; try discriminate. injection EG as -> ->. rewrite E. reflexivity.
      - destruct (bn_ggamma l) as [gw'|] eqn:E1, (bn_gbeta l) as [gb'|] eqn:E2; try discriminate. injection EG as -> ->. rewrite E. reflexivity. }
    assert (EP' : layer_params (with_params l w' b') = Some (w', b')) by (destruct l; try discriminate; reflexivity).
    exists (with_params l w' b'), o'. split; [exact EU|]. split; [auto|]. split; [eapply acc_with; eauto|]. split; [unfold params_dims; rewrite EP, EP'; congruence|]. split; [auto|]. split; [auto|].
    intros r HPl. unfold layer_descended. rewrite EP, EG, EP'. auto.
  - exists l, o. split; [destruct l; cbn [layer_params] in EP; try discriminate; reflexivity|]. split; [auto|]. split; [auto|]. split; [auto|].
    split; [intros k HK HR1; destruct o; cbn [room] in *; auto; lia|]. split; [auto|]. intros r _. unfold layer_descended. rewrite EP. destruct (layer_grads l) as [(? & ?)|]; exact I.
Qed.
Lemma update_all_ok : forall D (ls : list layer) i (o : optim T) ds ds', stack acc ds ls ds' -> Forall armed ls -> dims_at D i ls -> optim_ready D o -> room o (Zlen ls) ->
  exists ls' o', update_all i ls o = (ls', o', Ok tt) /\ optim_ready D o' /\ stack acc ds ls' ds' /\ map params_dims ls' = map params_dims ls /\
    (forall k, 0 <= k -> room o (k + Zlen ls) -> room o' k) /\ plain_rate o' = plain_rate o /\ forall r, plain_rate o = Some r -> Forall2 (layer_descended r) ls ls'.
Proof.
  intros D. induction ls as [|l ls IH]; intros i o ds ds' HA HF HD HO HM.
  - exists [], o. cbn [update_all]. split; [auto|]. split; [auto|]. split; [auto|]. split; [auto|]. split; [intros k _; change (Zlen (@nil layer)) with 0; rewrite Z.add_0_r; auto|]. split; [auto|]. intros; constructor.
  - inversion HA as [|? ? dm ? ? H1 H2]; subst. inversion HF as [|? ? F1 F2]; subst. destruct HD as (D1 & D2). rewrite Zlen_cons in HM. pose proof (Zlen_nonneg ls).
    destruct (layer_update_ok D i l o ds dm H1 F1 (conj D1 I) HO) as (l' & o1 & E1 & O1 & A1 & P1 & K1 & PR1 & V1); [eapply room_le; [|exact HM]; lia|].
    destruct (IH (i + 1) o1 dm ds' H2 F2 D2 O1) as (ls' & o2 & E2 & O2 & A2 & P2 & K2 & PR2 & V2); [apply K1; [lia|]; eapply room_le; [|exact HM]; lia|].
    exists (l' :: ls'), o2. cbn [update_all]. rewrite E1, E2. split; [auto|]. split; [auto|]. split; [econstructor; eauto|]. split; [cbn [map]; congruence|].
    split; [intros k HK HR1; apply K2; [auto|]; apply K1; [lia|]; rewrite Zlen_cons in HR1; eapply room_le; [|exact HR1]; lia|]. split; [congruence|]. intros r HP. constructor; [auto|]. apply V2. congruence.
Qed.

(** A network that can be trained on inputs of shape [ds] and predictions of shape [ds']. *)
Definition trainable_by (D : Z -> list Z) (ds ds' : list Z) (n : net T G) (lo : loss) (o : optim T) : Prop :=
  stack acc ds (n_layers n) ds' /\ n_loss n = Some lo /\ n_opt n = Some o /\ dims_at D 0 (n_layers n) /\ optim_ready D o.
Theorem fit_step_by : forall D ds ds' (n : net T G) lo o (x t : tensor T), trainable_by D ds ds' n lo o -> room o (Zlen (n_layers n)) -> counts_nonzero (T := T) ->
  good x -> tdims x = ds -> target_fits lo ds' t ->
  exists n1 p d n2 n' o', net_predict n x = (n1, Ok p) /\ loss_gradient lo p t = Ok d /\ net_backward n1 d = (n2, Ok tt) /\ net_update n2 = (n', Ok tt) /\
    fit_one n x t n' /\ trainable_by D ds ds' n' lo o' /\ map params_dims (n_layers n') = map params_dims (n_layers n) /\
    (forall k, 0 <= k -> room o (k + Zlen (n_layers n)) -> room o' k) /\ plain_rate o' = plain_rate o /\
    map layer_params (n_layers n2) = map layer_params (n_layers n) /\ forall r, plain_rate o = Some r -> Forall2 (layer_descended r) (n_layers n2) (n_layers n').
Proof.
  intros D ds ds' n lo o x t (HA & HL & HOp & HD & HO) HM HC Gx Ex HT.
  destruct (stack_chain (n_layers n) ds ds' x (n_rng n) HA Gx Ex) as (ls1 & g1 & p & E1 & Gp & Ep & HB).
  destruct (loss_total lo ds' p t HC Gp Ep HT) as ((c & EC) & d & ED & Gd & Edd).
  destruct (HB d Gd (eq_ind_r (back ds') (back_same ds') Edd)) as (ls2 & gx & E2 & Ggx & Egx & A2 & P2 & R2).
  assert (LEN : Zlen ls2 = Zlen (n_layers n)) by (unfold Zlen; f_equal; rewrite <- (map_length layer_params ls2), P2, map_length; auto).
  destruct (update_all_ok D ls2 0 o ds ds' A2 R2) as (ls3 & o' & E3 & O3 & A3 & P3 & K3 & PR & V3); [eapply dims_at_same; [apply params_dims_of; exact P2|auto]|auto|rewrite LEN; auto|].
  pose (n1 := mkNet ls1 (n_loss n) (n_opt n) g1). pose (n2 := mkNet ls2 (n_loss n) (n_opt n) g1).
  assert (Q1 : net_predict n x = (n1, Ok p)) by (unfold net_predict; rewrite E1; reflexivity).
  assert (Q2 : net_backward n1 d = (n2, Ok tt)) by (unfold net_backward, n1; cbn [n_layers n_loss n_opt n_rng]; rewrite E2; reflexivity).
  assert (Q3 : exists n', net_update n2 = (n', Ok tt) /\ n_layers n' = ls3 /\ n_loss n' = Some lo /\ n_opt n' = Some o').
  { unfold net_update, n2. cbn [n_layers n_loss n_opt n_rng]. rewrite HOp. destruct ls2 as [|l2 ls2].
    - cbn [update_all] in E3. injection E3 as <- <-. eexists. split; [reflexivity|]. cbn. auto.
    - rewrite E3. eexists. split; [reflexivity|]. cbn. auto. }
  destruct Q3 as (n' & Q3 & N1 & N2 & N3).
  exists n1, p, d, n2, n', o'. split; [auto|]. split; [auto|]. split; [auto|]. split; [auto|]. split; [exists n1, n2, p, c, d, lo; auto 10|].
  assert (PD : map params_dims ls3 = map params_dims (n_layers n)) by (rewrite P3; apply params_dims_of; auto).
  split; [split; [rewrite N1; auto|split; [auto|split; [auto|split; [rewrite N1; eapply dims_at_same; eauto|auto]]]]|]. split; [rewrite N1; auto|].
  split; [rewrite <- LEN; auto|]. split; [auto|]. split; [exact P2|]. rewrite N1. exact V3.
Qed.
Theorem fit_total_by : forall D ds ds' lo samples (n : net T G) o, trainable_by D ds ds' n lo o -> counts_nonzero (T := T) -> room o (Zlen samples * Zlen (n_layers n)) ->
  Forall (fun s => good (fst s) /\ tdims (fst s) = ds /\ target_fits lo ds' (snd s)) samples ->
  exists n', fit n samples n' /\ stack acc ds (n_layers n') ds' /\ map params_dims (n_layers n') = map params_dims (n_layers n).
Proof.
  intros D ds ds' lo. induction samples as [|(x & t) r IH]; intros n o HT HC HM HF.
  - exists n. split; [constructor|]. split; [apply HT|auto].
  - inversion HF as [|? ? (Gx & Ex & Ht) HF']; subst. cbn [fst snd] in *. rewrite Zlen_cons in HM. pose proof (Zlen_nonneg r). pose proof (Zlen_nonneg (n_layers n)).
    destruct (fit_step_by D (tdims x) ds' n lo o x t HT) as (n1 & p & d & n2 & n' & o' & _ & _ & _ & _ & F & HT' & PD & HK & _); auto; [eapply room_le; [|exact HM]; nia|].
    assert (LEN : Zlen (n_layers n') = Zlen (n_layers n)) by (unfold Zlen; f_equal; rewrite <- (map_length params_dims (n_layers n')), PD, map_length; auto).
    destruct (IH n' o' HT' HC) as (m & F2 & A2 & P2); [rewrite LEN; apply HK; [nia|]; eapply room_le; [|exact HM]; nia|auto|]. exists m. split; [econstructor; eauto|]. split; [auto|congruence].
Qed.
Theorem train_total_by : forall ds ds' lo o (n : net T G) xs ts e, stack acc ds (n_layers n) ds' -> n_loss n = Some lo -> n_opt n = Some o -> new_optim o ->
  counts_nonzero (T := T) -> 0 < Zlen xs <= Zlen ts -> Zlen xs <= INT_MAX -> 0 <= e -> e * Zlen xs * Zlen (n_layers n) <= INT_MAX ->
  Forall (fun x => good x /\ tdims x = ds) xs -> Forall (target_fits lo ds') ts ->
  exists n', net_train n xs ts e = (n', Ok tt) /\ stack acc ds (n_layers n') ds' /\ map params_dims (n_layers n') = map params_dims (n_layers n).
Proof.
  intros ds ds' lo o n xs ts e HA HL HOp HN HC (HX1 & HX2) HX3 HE HM HF1 HF2.
  pose (D := fun k => dims_map (n_layers n) (k - 2 * 0)).
  assert (LC : Zlen (combine xs ts) = Zlen xs) by (unfold Zlen in *; rewrite combine_length; lia).
  destruct (fit_total_by D ds ds' lo (concat (repeat (combine xs ts) (Z.to_nat e))) n o) as (n' & F & A & P).
  - split; [auto|]. split; [auto|]. split; [auto|]. split; [apply dims_map_at|apply new_ready; auto].
  - auto.
  - apply new_room; auto. rewrite Zlen_concat_repeat, LC, Z2Nat.id by lia. auto.
  - apply Forall_concat_repeat. eapply Forall_impl; [|apply (Forall_combine _ _ _ _ HF1 HF2)]. intros (a & b) ((G1 & G2) & G3). auto.
  - exists n'. split; [|auto]. apply train_fit; auto.
Qed.

End Family.

(** ** Batches *)
Definition trainable := trainable_by accepts.
Lemma back_eq : forall ds : list Z, ds = ds. Proof. reflexivity. Qed.
Lemma accepts_step' : forall ds l ds' (x : tensor T) (g : G), accepts ds l ds' -> good x -> tdims x = ds ->
  exists l1 g' y, layer_forward l x g = (l1, g', Ok y) /\ good y /\ tdims y = ds' /\
    forall d : tensor T, good d -> ds' = tdims d -> exists l2 gx, layer_backward l1 d = (l2, Ok gx) /\ good gx /\ ds = tdims gx /\
      accepts ds l2 ds' /\ layer_params l2 = layer_params l /\ armed l2.
Proof.
  intros ds l ds' x g HA Hg Ex. destruct (accepts_step ds l ds' x g HA Hg Ex) as (l1 & g' & y & E & Gy & Ey & HB). exists l1, g', y. split; [auto|]. split; [auto|]. split; [auto|].
  intros d Gd Ed. destruct (HB d Gd (eq_sym Ed)) as (l2 & gx & H1 & H2 & H3 & H4). exists l2, gx. auto.
Qed.
Definition fit_step := fit_step_by accepts eq back_eq accepts_step' accepts_with.
Definition fit_total := fit_total_by accepts eq back_eq accepts_step' accepts_with.
Definition train_total := train_total_by accepts eq back_eq accepts_step' accepts_with.
End S.
