(** * Units that are copies of each other stay so (C124) *)
From Verif Require Import Base Scalar Types Spec SpecNN SpecLayers SpecOpt M_Shape M_Tensor M_Adv M_Act M_Loss M_Layers M_Reg M_Opt M_Net SpecNet SpecTwin
  L_Index L_Shape L_Bcast L_Tensor L_Nest L_Glue L_Matmul L_Adv L_Act L_ActR L_Loss L_Layers L_Conv L_Rows L_Pool L_Pool2 L_Drop L_BN L_Opt L_Net L_Net2 L_Train.

Section S.
Context {T : Type} {S : Scalar T} {G : Type} {HR : Rng T G}.
Local Notation layer := (layer T).

Lemma nobody_columns : forall t : tensor T, columns_alike nobody t.
Proof. intros t r i j []. Qed.
Lemma nobody_rows : forall t : tensor T, rows_alike nobody t.
Proof. intros t r i j []. Qed.

(** ** Passes *)
(** The gradients stored in a layer are alike where its parameters are. *)
Definition grads_alike (B : pairing) (l : layer) (B' : pairing) : Prop :=
  match layer_grads l with Some (gw, gb) => rows_alike B gw /\ columns_alike B' gw /\ columns_alike B' gb | None => True end.
Inductive grads_twins : list pairing -> list layer -> Prop :=
  | gt_nil : forall B, grads_twins [B] []
  | gt_cons : forall B B' Bs l ls, grads_alike B l B' -> grads_twins (B' :: Bs) ls -> grads_twins (B :: B' :: Bs) (l :: ls).

Lemma sum_to_ext : forall n (f g : Z -> T), (forall i, 0 <= i < n -> f i = g i) -> sum_to n f = sum_to n g.
Proof. intros n f g H. unfold sum_to. f_equal. apply map_ext_in. intros i Hi. apply In_zrange in Hi. apply H. lia. Qed.
Lemma in2 : forall a b i j, in_range [a; b] [i; j] -> 0 <= i < a /\ 0 <= j < b.
Proof. intros a b i j H. inversion H as [|? ? ? ? H1 H2]; subst. inversion H2; subst. lia. Qed.
Lemma in2' : forall a b i j, 0 <= i < a -> 0 <= j < b -> in_range [a; b] [i; j].
Proof. intros. repeat constructor; lia. Qed.

Lemma twin_step : forall ds l ds' B B' (x : tensor T) (g : G), accepts ds l ds' -> twinned B l B' -> good x -> tdims x = ds -> columns_alike B x ->
  exists l1 g' y, layer_forward l x g = (l1, g', Ok y) /\ good y /\ tdims y = ds' /\ columns_alike B' y /\
    forall d : tensor T, good d -> tdims d = ds' -> columns_alike B' d -> exists l2 gx, layer_backward l1 d = (l2, Ok gx) /\ good gx /\ tdims gx = ds /\ columns_alike B gx /\
      accepts ds l2 ds' /\ layer_params l2 = layer_params l /\ armed l2 /\ twinned B l2 B' /\ grads_alike B l2 B'.
Proof.
  intros ds l ds' B B' x g HA HT Gx Ex HX. destruct (accepts_step ds l ds' x g HA Gx Ex) as (l1 & g' & y & EF & Gy & Ey & HB).
  exists l1, g', y. split; [exact EF|]. split; [exact Gy|]. split; [exact Ey|]. destruct HT as [B B' l HR1 HC1 HC2|B l HN|l].
  - inversion HA as [n k o l0 W1 W2 W3 W4 HM| | | | |]; subst l0 ds ds'. clear HA. assert (HW : fc_wf l k o) by (split; auto). rename H into EX.
    cbn [layer_forward] in EF. rewrite (fc_forward_2 l k o x n HW Gx (eq_sym EX) HM) in EF. unfold lift in EF. cbn [fst snd] in EF. injection EF as <- <- <-.
    split.
    + intros r i j Hij Hi Hj. cbn [tdims tensor_of] in Hi, Hj. rewrite !el_tensor_of by assumption. apply in2 in Hi. apply in2 in Hj. unfold fn2. cbn [nth]. unfold affine.
      rewrite (HC2 0 i j Hij) by (rewrite W4; apply in2'; lia). f_equal. apply sum_to_ext. intros p Hp. rewrite (HC1 p i j Hij) by (rewrite W2; apply in2'; lia). reflexivity.
    + intros d Gd Ed HD. destruct (HB d Gd Ed) as (l2 & gx & EB & Ggx & Egx & A2 & P2 & R2). exists l2, gx. split; [exact EB|]. split; [exact Ggx|]. split; [congruence|].
      cbn [layer_backward] in EB. rewrite (fc_backward_rows _ k o n x d x d) in EB; auto; [|unfold as_row, rank; fold (tdims x); rewrite <- EX; reflexivity|unfold as_row, rank; fold (tdims d); rewrite Ed; reflexivity].
      injection EB as <- <-.
      split; [|split; [rewrite EX; exact A2|split; [exact P2|split; [exact R2|split]]]].
      * intros r i j Hij Hi Hj. change (in_range [n; k] [r; i]) in Hi. change (in_range [n; k] [r; j]) in Hj. rewrite !el_tensor_of by assumption. apply in2 in Hi. apply in2 in Hj. unfold fn2. cbn [nth]. unfold fc_dx.
        apply sum_to_ext. intros p Hp. rewrite (HR1 i j p Hij) by (rewrite W2; apply in2'; lia). reflexivity.
      * constructor; auto.
      * unfold grads_alike. cbn [layer_grads fc_gw fc_gb]. split; [|split].
        -- intros i j c Hij Hi Hj. change (in_range [k; o] [i; c]) in Hi. change (in_range [k; o] [j; c]) in Hj. rewrite !el_tensor_of by assumption. apply in2 in Hi. apply in2 in Hj. unfold fn2. cbn [nth]. unfold fc_dw.
           apply sum_to_ext. intros p Hp. rewrite (HX p i j Hij) by (rewrite <- EX; apply in2'; lia). reflexivity.
        -- intros r i j Hij Hi Hj. change (in_range [k; o] [r; i]) in Hi. change (in_range [k; o] [r; j]) in Hj. rewrite !el_tensor_of by assumption. apply in2 in Hi. apply in2 in Hj. unfold fn2. cbn [nth]. unfold fc_dw.
           apply sum_to_ext. intros p Hp. rewrite (HD p i j Hij) by (rewrite Ed; apply in2'; lia). reflexivity.
        -- intros r i j Hij Hi Hj. change (in_range [1; o] [r; i]) in Hi. change (in_range [1; o] [r; j]) in Hj. rewrite !el_tensor_of by assumption. apply in2 in Hi. apply in2 in Hj. unfold fn2. cbn [nth]. unfold fc_db.
           apply sum_to_ext. intros p Hp. rewrite (HD p i j Hij) by (rewrite Ed; apply in2'; lia). reflexivity.
  - assert (ds' = ds) by (inversion HA; congruence). subst ds'. cbn [layer_forward] in EF. unfold act_forward in EF. rewrite (act_fwd_el _ x HN Gx) in EF. unfold lift in EF. cbn [fst snd] in EF. injection EF as <- <- <-.
    split.
    + intros r i j Hij Hi Hj. change (in_range (tdims x) [r; i]) in Hi. change (in_range (tdims x) [r; j]) in Hj. rewrite !el_tensor_of by assumption. rewrite (HX r i j Hij Hi Hj). reflexivity.
    + intros d Gd Ed HD. destruct (HB d Gd Ed) as (l2 & gx & EB & Ggx & Egx & A2 & P2 & R2). exists l2, gx. split; [exact EB|]. split; [exact Ggx|]. split; [exact Egx|].
      cbn [layer_backward] in EB. unfold act_backward in EB. cbn [al_in al_act] in EB. rewrite (act_bwd_el _ x d HN Gx Gd) in EB by congruence. injection EB as <- <-.
      split; [|split; [exact A2|split; [exact P2|split; [exact R2|split; [constructor; exact HN|exact I]]]]].
      intros r i j Hij Hi Hj. change (in_range (tdims x) [r; i]) in Hi. change (in_range (tdims x) [r; j]) in Hj. rewrite !el_tensor_of by assumption. rewrite (HX r i j Hij Hi Hj). rewrite (HD r i j Hij) by (rewrite Ed; assumption). reflexivity.
  - split; [apply nobody_columns|]. intros d Gd Ed HD. destruct (HB d Gd Ed) as (l2 & gx & EB & Ggx & Egx & A2 & P2 & R2). exists l2, gx. do 3 (split; [assumption|]). split; [apply nobody_columns|]. do 3 (split; [assumption|]). split; [constructor|].
    unfold grads_alike. destruct (layer_grads l2) as [(gw & gb)|]; [|exact I]. split; [apply nobody_rows|split; apply nobody_columns].
Qed.
Lemma twin_pass : forall ls Bs ds ds' (x : tensor T) (g : G), accepts_all ds ls ds' -> twins Bs ls -> good x -> tdims x = ds -> columns_alike (hd everybody Bs) x ->
  exists ls1 g' y, forward_all ls x g = (ls1, g', Ok y) /\ good y /\ tdims y = ds' /\
    forall d : tensor T, good d -> tdims d = ds' -> columns_alike (last Bs everybody) d -> exists ls2 gx, backward_all ls1 d = (ls2, Ok gx) /\ good gx /\ tdims gx = ds /\ columns_alike (hd everybody Bs) gx /\
      accepts_all ds ls2 ds' /\ map layer_params ls2 = map layer_params ls /\ Forall armed ls2 /\ twins Bs ls2 /\ grads_twins Bs ls2.
Proof.
  induction ls as [|l ls IH]; intros Bs ds ds' x g HA HT Gx Ex HX.
  - inversion HA; subst. inversion HT; subst. exists [], g, x. split; [reflexivity|]. do 2 (split; [auto|]). intros d Gd Ed HD. exists [], d. cbn [backward_all]. split; [reflexivity|]. do 3 (split; [auto|]). split; [constructor|]. split; [reflexivity|]. do 2 (split; [constructor|]). constructor.
  - inversion HA as [|? ? dm ? ? H1 H2]; subst. inversion HT as [|B B' Bs' ? ? T1 T2]; subst. cbn [hd] in HX.
    destruct (twin_step _ l dm B B' x g H1 T1 Gx eq_refl HX) as (l1 & g1 & y & E1 & Gy & Ey & CY & B1).
    destruct (IH (B' :: Bs') dm ds' y g1 H2 T2 Gy Ey CY) as (ls1 & g2 & z & E2 & Gz & Ez & B2). exists (l1 :: ls1), g2, z. cbn [forward_all]. rewrite E1, E2. split; [reflexivity|]. do 2 (split; [auto|]).
    intros d Gd Ed HD. destruct (B2 d Gd Ed HD) as (ls2 & gm & F1 & F2 & F3 & F4 & F5 & F6 & F7 & F8 & F9).
    destruct (B1 gm F2 F3 F4) as (l2 & gx & K1 & K2 & K3 & K4 & K5 & K6 & K7 & K8 & K9).
    exists (l2 :: ls2), gx. cbn [backward_all]. rewrite F1, K1. split; [reflexivity|]. do 3 (split; [auto|]). split; [econstructor; eauto|]. split; [cbn [map]; congruence|]. split; [constructor; auto|]. split; constructor; auto.
Qed.

Lemma updated_params : forall i (l : layer) o l' o' r, layer_update i l o = (l', o', r) -> l' = l \/ exists w b, l' = with_params l w b.
Proof.
  intros i l o l' o' r E. destruct l as [l|l|l|l|l|l|l]; cbn [layer_update] in E; try (injection E as <- <- <-; auto; fail).
  - destruct (fc_gw l) eqn:Q1, (fc_gb l) eqn:Q2; try (injection E as <- <- <-; auto; fail). destruct (pair_optimize _ _ _ _ _ _) as (((o2 & w2) & b2) & r2). injection E as <- <- <-. right. exists w2, b2. cbn [with_params]. rewrite ?Q1, ?Q2. reflexivity.
  - destruct (cv_gw l) eqn:Q1, (cv_gb l) eqn:Q2; try (injection E as <- <- <-; auto; fail). destruct (pair_optimize _ _ _ _ _ _) as (((o2 & w2) & b2) & r2). injection E as <- <- <-. right. exists w2, b2. cbn [with_params]. rewrite ?Q1, ?Q2. reflexivity.
  - destruct (bn_ggamma l) eqn:Q1, (bn_gbeta l) eqn:Q2; try (injection E as <- <- <-; auto; fail). destruct (pair_optimize _ _ _ _ _ _) as (((o2 & w2) & b2) & r2). injection E as <- <- <-. right. exists w2, b2. cbn [with_params]. rewrite ?Q1, ?Q2. reflexivity.
Qed.
(** Layers stay of their kind. *)
Lemma forward_kinds : forall (ls : list layer) x (g : G), map is_dense (fst (fst (forward_all ls x g))) = map is_dense ls.
Proof.
  induction ls as [|l ls IH]; intros x g; [reflexivity|]. cbn [forward_all]. assert (K : is_dense (fst (fst (layer_forward l x g))) = is_dense l).
  { destruct l as [l|l|l|l|l|l|l]; cbn [layer_forward lift fst is_dense]; try reflexivity. destruct (dropout_forward l x g) as ((? & ?) & ?). reflexivity. }
  destruct (layer_forward l x g) as ((l1 & g1) & [y|e| | |]); cbn [fst] in *; [|cbn [fst map]; congruence..]. specialize (IH y g1). destruct (forward_all ls y g1) as ((r & g2) & o). cbn [fst map] in *. congruence.
Qed.
Lemma backward_kinds : forall (ls : list layer) d, map is_dense (fst (backward_all ls d)) = map is_dense ls.
Proof.
  induction ls as [|l ls IH]; intros d; [reflexivity|]. cbn [backward_all]. specialize (IH d). destruct (backward_all ls d) as (r & [y|e| | |]); cbn [fst map] in *; try congruence.
  assert (K : is_dense (fst (layer_backward l y)) = is_dense l).
  { destruct l as [l|l|l|l|l|l|l]; cbn [layer_backward]; try reflexivity; [destruct (fc_backward l y)|destruct (conv_backward l y)|destruct (bn_backward l y)]; reflexivity. }
  destruct (layer_backward l y) as (l1 & o). cbn [fst map] in *. congruence.
Qed.
Lemma update_kinds : forall (ls : list layer) i o, map is_dense (fst (fst (update_all i ls o))) = map is_dense ls.
Proof.
  induction ls as [|l ls IH]; intros i o; [reflexivity|]. cbn [update_all]. assert (K : is_dense (fst (fst (layer_update i l o))) = is_dense l).
  { destruct (layer_update i l o) as ((l' & o') & r) eqn:E. destruct (updated_params _ _ _ _ _ _ E) as [->|(w & b & ->)]; [reflexivity|destruct l; reflexivity]. }
  destruct (layer_update i l o) as ((l1 & o1) & [u|e| | |]); cbn [fst] in *; [|cbn [fst map]; congruence..]. specialize (IH (i + 1) o1). destruct (update_all (i + 1) ls o1) as ((r & o2) & e). cbn [fst map] in *. congruence.
Qed.
Lemma fit_kinds : forall (n : net T G) x t n', fit_one n x t n' -> map is_dense (n_layers n') = map is_dense (n_layers n).
Proof.
  intros n x t n' (n1 & n2 & p & c & d & l & E1 & _ & _ & _ & E2 & E3).
  unfold net_predict in E1. pose proof (forward_kinds (n_layers n) x (n_rng n)) as K1. destruct (forward_all _ _ _) as ((ls & g) & o). injection E1 as <- ->. cbn [fst] in K1.
  unfold net_backward in E2. cbn [n_layers] in E2. pose proof (backward_kinds ls d) as K2. destruct (backward_all ls d) as (ls2 & [y|e| | |]); cbn [step] in E2; try discriminate. injection E2 as <-. cbn [fst net_with n_layers n_loss n_opt n_rng] in *.
  unfold net_update in E3. cbn [n_layers n_opt net_with n_loss n_rng] in E3. destruct ls2 as [|l2 r2]; [injection E3 as <-; unfold net_with in *; cbn [n_layers map] in *; congruence|]. destruct (n_opt n) as [o'|]; [|discriminate].
  pose proof (update_kinds (l2 :: r2) 0 o') as K3. destruct (update_all 0 (l2 :: r2) o') as ((ls3 & o3) & r3). injection E3 as <- ->. cbn [fst n_layers] in *. congruence.
Qed.
(** ** Updates.  [Q k a b]: positions [a] and [b] of the tensor with key [k] are to stay equal. *)
Section Q.
Variable D : Z -> list Z.
Variable Q : Z -> list Z -> list Z -> Prop.
Hypothesis Q_range : forall k a b, Q k a b -> in_range (D k) a /\ in_range (D k) b.
Definition alike (k : Z) (f : list Z -> T) : Prop := forall a b, Q k a b -> f a = f b.
Definition optim_alike (o : optim T) : Prop := forall k,
  match o with
  | OSGD s => alike k (buf_el (sg_buf s) k)
  | ORMS s => forall a b, Q k a b -> rms_aux s k a = rms_aux s k b
  | OAdam s => alike k (buf_el (ad_m s) k) /\ alike k (buf_el (ad_v s) k)
  end.
Lemma new_alike : forall o : optim T, new_optim o -> optim_alike o.
Proof. intros o H k. destruct H; cbn; try split; intros a b _; reflexivity. Qed.
Lemma sgd_alike : forall (o : sgd T) k (w g : tensor T) lr o' w', bufs_ok D (sg_buf o) -> good w -> tdims w = D k -> good g -> tdims g = D k -> alike k (el w) -> alike k (el g) -> optim_alike (OSGD o) ->
  sgd_update o k w g lr = (o', Ok w') -> bufs_ok D (sg_buf o') /\ alike k (el w') /\ tdims w' = tdims w /\ optim_alike (OSGD o').
Proof.
  intros o k w g lr o' w' HB Gw Ew Gg Eg Aw Ag AO E. destruct (sgd_update_ok D o k w g lr HB Gw Ew Gg Eg) as (m & w1 & E1 & Gm & Em & Gw' & Ew' & V). rewrite E1 in E. injection E as <- <-. cbn [sg_buf].
  assert (HH : forall a b, Q k a b -> (el w1 a, el m a) = (el w1 b, el m b)).
  { intros a b Hab. destruct (Q_range k a b Hab) as (Ha & Hb). rewrite (V a Ha), (V b Hb). rewrite (Aw a b Hab), (Ag a b Hab), (AO k a b Hab). reflexivity. }
  split; [apply bufs_ok_put; auto|]. split; [intros a b Hab; specialize (HH a b Hab); congruence|]. split; [congruence|].
  intros k' a b Hab. cbn [sg_buf]. rewrite !buf_el_put. destruct (Z.eqb_spec k' k) as [->|]; [specialize (HH a b Hab); congruence|exact (AO k' a b Hab)].
Qed.
Lemma rms_alike : forall (o : rms T) k (w g : tensor T) lr o' w', rms_ok D o -> good w -> tdims w = D k -> good g -> tdims g = D k -> alike k (el w) -> alike k (el g) -> optim_alike (ORMS o) ->
  rms_update o k w g lr = (o', Ok w') -> rms_ok D o' /\ alike k (el w') /\ tdims w' = tdims w /\ optim_alike (ORMS o').
Proof.
  intros o k w g lr o' w' HB Gw Ew Gg Eg Aw Ag AO E. destruct (rms_update_ok D o k w g lr HB Gw Ew Gg Eg) as (o1 & w1 & E1 & HB1 & _ & _ & _ & _ & _ & _ & Gw' & Ew' & V & VO). rewrite E1 in E. injection E as <- <-.
  assert (HH : forall a b, Q k a b -> (el w1 a, rms_aux o1 k a) = (el w1 b, rms_aux o1 k b)).
  { intros a b Hab. destruct (Q_range k a b Hab) as (Ha & Hb). pose proof (V a Ha) as Va. pose proof (V b Hb) as Vb. rewrite (AO k a b Hab), (Aw a b Hab), (Ag a b Hab) in Va.
    destruct (rms_aux o k b) as ((s & m) & v). destruct (rms_aux o1 k a) as ((s1 & m1) & v1). destruct (rms_aux o1 k b) as ((s2 & m2) & v2). congruence. }
  split; [exact HB1|]. split; [intros a b Hab; specialize (HH a b Hab); congruence|]. split; [congruence|].
  intros k' a b Hab. destruct (Z.eq_dec k' k) as [->|NK]; [specialize (HH a b Hab); congruence|]. rewrite !VO by exact NK. exact (AO k' a b Hab).
Qed.
Lemma adam_alike : forall (o : adam T) k (w g : tensor T) u o' w', adam_ok D o -> good w -> tdims w = D k -> good g -> tdims g = D k -> alike k (el w) -> alike k (el g) -> optim_alike (OAdam o) ->
  adam_update o k w g u = (o', Ok w') -> adam_ok D o' /\ alike k (el w') /\ tdims w' = tdims w /\ optim_alike (OAdam o').
Proof.
  intros o k w g u o' w' HB Gw Ew Gg Eg Aw Ag AO E. destruct (adam_update_ok D o k w g u HB Gw Ew Gg Eg) as (m & v & w1 & E1 & HB1 & Gw' & Ew' & V). rewrite E1 in E. injection E as <- <-.
  assert (HH : forall a b, Q k a b -> (el w1 a, el m a, el v a) = (el w1 b, el m b, el v b)).
  { intros a b Hab. destruct (Q_range k a b Hab) as (Ha & Hb). destruct (AO k) as (A1 & A2). rewrite (V a Ha), (V b Hb). rewrite (Aw a b Hab), (Ag a b Hab), (A1 a b Hab), (A2 a b Hab). reflexivity. }
  split; [exact HB1|]. split; [intros a b Hab; specialize (HH a b Hab); congruence|]. split; [congruence|].
  intros k'. destruct (AO k') as (A1 & A2). cbn [adam_with ad_m ad_v]. split; intros a b Hab; rewrite !buf_el_put; (destruct (Z.eqb_spec k' k) as [->|]; [specialize (HH a b Hab); congruence|auto]).
Qed.
Lemma pair_alike : forall (o : optim T) i (w b gw gb : tensor T) o' w' b', optim_ready D o ->
  good w -> tdims w = D (2 * i) -> good b -> tdims b = D (2 * i + 1) -> good gw -> tdims gw = tdims w -> good gb -> tdims gb = tdims b ->
  alike (2 * i) (el w) -> alike (2 * i) (el gw) -> alike (2 * i + 1) (el b) -> alike (2 * i + 1) (el gb) -> optim_alike o ->
  pair_optimize o i w b gw gb = (o', w', b', Ok tt) -> optim_ready D o' /\ optim_alike o' /\ alike (2 * i) (el w') /\ alike (2 * i + 1) (el b') /\ tdims w' = tdims w /\ tdims b' = tdims b.
Proof.
  intros o i w b gw gb o' w' b' HO Gw Ew Gb Eb Ggw Egw Ggb Egb Aw Agw Ab Agb AO E. unfold pair_optimize in E.
  assert (F1 : pair_store i w b (2 * i) = w) by (unfold pair_store; rewrite Z.eqb_refl; reflexivity).
  assert (F2 : forall w', put (pair_store i w b) (2 * i) w' (2 * i + 1) = b) by (intros w1; rewrite put_neq by lia; unfold pair_store; destruct (Z.eqb_spec (2 * i + 1) (2 * i)); [lia|reflexivity]).
  assert (F3 : forall w' b', put (put (pair_store i w b) (2 * i) w') (2 * i + 1) b' (2 * i) = w') by (intros w1 b1; rewrite put_neq by lia; apply put_eq).
  assert (F4 : forall w' b', put (put (pair_store i w b) (2 * i) w') (2 * i + 1) b' (2 * i + 1) = b') by (intros w1 b1; apply put_eq).
  destruct o as [s|s|s]; cbn [optim_optimize optim_ready] in *.
  - unfold sgd_optimize in E. change (Zlen [2 * i; 2 * i + 1] =? Zlen [gw; gb]) with true in E. cbn [negb combine opt_loop] in E. rewrite F1 in E.
    destruct (sgd_update s (2 * i) w gw (sgd_rate s (s_z (-1)))) as (s1 & [w1|e| | |]) eqn:E1; try discriminate. rewrite F2 in E.
    destruct (sgd_alike _ _ _ _ _ _ _ HO Gw Ew Ggw ltac:(congruence) Aw Agw AO E1) as (H1 & H2 & H4 & H3).
    destruct (sgd_update s1 (2 * i + 1) b gb _) as (s2 & [b1|e| | |]) eqn:E2; try discriminate.
    destruct (sgd_alike _ _ _ _ _ _ _ H1 Gb Eb Ggb ltac:(congruence) Ab Agb H3 E2) as (J1 & J2 & J4 & J3). rewrite F3, F4 in E. injection E as <- <- <-. do 5 (split; [assumption|]). assumption.
  - unfold rms_optimize in E. change (Zlen [2 * i; 2 * i + 1] =? Zlen [gw; gb]) with true in E. cbn [negb combine opt_loop] in E. rewrite F1 in E.
    destruct (rms_update s (2 * i) w gw (rms_rate s (s_z (-1)))) as (s1 & [w1|e| | |]) eqn:E1; try discriminate. rewrite F2 in E.
    destruct (rms_alike _ _ _ _ _ _ _ HO Gw Ew Ggw ltac:(congruence) Aw Agw AO E1) as (H1 & H2 & H4 & H3).
    destruct (rms_update s1 (2 * i + 1) b gb _) as (s2 & [b1|e| | |]) eqn:E2; try discriminate.
    destruct (rms_alike _ _ _ _ _ _ _ H1 Gb Eb Ggb ltac:(congruence) Ab Agb H3 E2) as (J1 & J2 & J4 & J3). rewrite F3, F4 in E. injection E as <- <- <-. do 5 (split; [assumption|]). assumption.
  - unfold adam_optimize in E. change (Zlen [2 * i; 2 * i + 1] =? Zlen [gw; gb]) with true in E. cbn [negb combine] in E. unfold adam_rate in E. destruct (chk32 (ad_it s + 1)) as [it|e| | |]; cbn [bind] in E; try discriminate.
    set (s0 := mkAdam _ _ _ _ _ _ _ _ _ _ _ _) in E. cbn [opt_loop] in E. rewrite F1 in E. assert (HO0 : adam_ok D s0) by exact HO. assert (AO0 : optim_alike (OAdam s0)) by exact AO.
    destruct (adam_update s0 (2 * i) w gw tt) as (s1 & [w1|e| | |]) eqn:E1; try discriminate. rewrite F2 in E.
    destruct (adam_alike _ _ _ _ _ _ _ HO0 Gw Ew Ggw ltac:(congruence) Aw Agw AO0 E1) as (H1 & H2 & H4 & H3).
    destruct (adam_update s1 (2 * i + 1) b gb tt) as (s2 & [b1|e| | |]) eqn:E2; try discriminate.
    destruct (adam_alike _ _ _ _ _ _ _ H1 Gb Eb Ggb ltac:(congruence) Ab Agb H3 E2) as (J1 & J2 & J4 & J3). rewrite F3, F4 in E. injection E as <- <- <-. do 5 (split; [assumption|]). assumption.
Qed.
(** Parameters (and gradients) of the layers from position [i] on. *)
Definition params_ok (i : Z) (l : layer) : Prop := match layer_params l with Some (w, b) => alike (2 * i) (el w) /\ alike (2 * i + 1) (el b) | None => True end.
Definition grads_ok (i : Z) (l : layer) : Prop := match layer_grads l with Some (w, b) => alike (2 * i) (el w) /\ alike (2 * i + 1) (el b) | None => True end.
Fixpoint placed (P : Z -> layer -> Prop) (i : Z) (ls : list layer) : Prop := match ls with [] => True | l :: r => P i l /\ placed P (i + 1) r end.
Definition renewed (l l' : layer) : Prop := l' = l \/ exists w b, l' = with_params l w b.
Lemma update_alike : forall (ls : list layer) i (o : optim T) ls' o', Forall armed ls -> dims_at D i ls -> optim_ready D o -> placed params_ok i ls -> placed grads_ok i ls -> optim_alike o ->
  update_all i ls o = (ls', o', Ok tt) -> placed params_ok i ls' /\ dims_at D i ls' /\ Forall2 renewed ls ls' /\ optim_alike o'.
Proof.
  induction ls as [|l ls IH]; intros i o ls' o' HF HD HO HP HG AO E.
  - cbn in E. injection E as <- <-. split; [exact I|]. split; [exact I|]. split; [constructor|exact AO].
  - inversion HF as [|? ? F1 F2]; subst. destruct HD as (D1 & D2). destruct HP as (P1 & P2). destruct HG as (G1 & G2). cbn [update_all] in E.
    destruct (layer_update i l o) as ((l1 & o1) & [[]|e| | |]) eqn:EU; try discriminate. destruct (update_all (i + 1) ls o1) as ((ls1 & o2) & e) eqn:EA. injection E as <- <- ->.
    pose proof (updated_params _ _ _ _ _ _ EU) as EN.
    assert (L1 : params_ok i l1 /\ dims_at D i [l1] /\ optim_ready D o1 /\ optim_alike o1).
    { unfold armed in F1. unfold params_ok, grads_ok in *. cbn [dims_at]. destruct (layer_params l) as [(w & b)|] eqn:EP.
      - destruct F1 as (Gw & Gb & gw & gb & EG & Ggw & Egw & Ggb & Egb). rewrite EG in G1. destruct D1 as (D1 & D3).
        assert (EU' : exists w' b', pair_optimize o i w b gw gb = (o1, w', b', Ok tt) /\ layer_params l1 = Some (w', b')).
        { destruct l as [l|l|l|l|l|l|l]; cbn [layer_params] in EP; try discriminate; injection EP as <- <-; cbn [layer_grads] in EG; cbn [layer_update] in EU.
          - destruct (fc_gw l) as [gw'|] eqn:E1, (fc_gb l) as [gb'|] eqn:E2; try discriminate. injection EG as -> ->. destruct (pair_optimize _ _ _ _ _ _) as (((o2' & w2) & b2) & r2). injection EU as <- <- ->. exists w2, b2. split; reflexivity.
          - destruct (cv_gw l) as [gw'|] eqn:E1, (cv_gb l) as [gb'|] eqn:E2; try discriminate. injection EG as -> ->. destruct (pair_optimize _ _ _ _ _ _) as (((o2' & w2) & b2) & r2). injection EU as <- <- ->. exists w2, b2. split; reflexivity.
          - destruct (bn_ggamma l) as [gw'|] eqn:E1, (bn_gbeta l) as [gb'|] eqn:E2; try discriminate. injection EG as -> ->. destruct (pair_optimize _ _ _ _ _ _) as (((o2' & w2) & b2) & r2). injection EU as <- <- ->. exists w2, b2. split; reflexivity. }
        destruct EU' as (w' & b' & EO & EP'). rewrite EP'. destruct P1 as (P1 & P3). destruct G1 as (G1 & G3).
        destruct (pair_alike o i w b gw gb o1 w' b' HO) as (A0 & A1 & A2 & A3 & A4 & A5); auto. split; [auto|]. split; [split; [split; congruence|exact I]|]. auto.
      - assert (l1 = l /\ o1 = o) as (-> & ->) by (destruct l; cbn [layer_params] in EP; try discriminate; cbn [layer_update] in EU; injection EU as <- <-; auto). rewrite EP. auto. }
    destruct L1 as (L1 & (L2 & _) & L3 & A1). destruct (IH (i + 1) o1 ls1 o2 F2 D2 L3 P2 G2 A1 EA) as (K1 & K2 & K3 & K4). split; [split; auto|]. split; [split; auto|]. split; [constructor; auto|auto].
Qed.
End Q.

(** ** The pairs of positions given by the pairings *)
Section B.
Variable D : Z -> list Z.
Variable Bs : list pairing.
Definition B_in (i : Z) : pairing := nth (Z.to_nat i) Bs nobody.
Definition B_out (i : Z) : pairing := nth (Datatypes.S (Z.to_nat i)) Bs nobody.
Definition Qof (k : Z) (a b : list Z) : Prop := in_range (D k) a /\ in_range (D k) b /\
  ((Z.even k = true /\ exists i j c, B_in (k / 2) i j /\ a = [i; c] /\ b = [j; c]) \/ exists r i j, B_out (k / 2) i j /\ a = [r; i] /\ b = [r; j]).
Lemma Qof_range : forall k a b, Qof k a b -> in_range (D k) a /\ in_range (D k) b.
Proof. intros k a b (H1 & H2 & _). auto. Qed.
Lemma alike_w : forall i (w : tensor T), D (2 * i) = tdims w -> alike Qof (2 * i) (el w) <-> rows_alike (B_in i) w /\ columns_alike (B_out i) w.
Proof.
  intros i w HD. assert (E2 : 2 * i / 2 = i) by (rewrite Z.mul_comm; apply Z.div_mul; lia). assert (EV : Z.even (2 * i) = true) by (rewrite Z.even_mul; reflexivity). split.
  - intros H. split.
    + intros a b c Hab Ha Hb. apply H. unfold Qof. rewrite HD. split; [auto|]. split; [auto|]. left. rewrite E2. split; [exact EV|]. exists a, b, c. auto.
    + intros r a b Hab Ha Hb. apply H. unfold Qof. rewrite HD. split; [auto|]. split; [auto|]. right. rewrite E2. exists r, a, b. auto.
  - intros (H1 & H2) a b (Ha & Hb & HH). rewrite HD in Ha, Hb. rewrite E2 in HH. destruct HH as [(_ & i' & j' & c & Hij & -> & ->)|(r & i' & j' & Hij & -> & ->)]; auto.
Qed.
Lemma alike_b : forall i (b : tensor T), D (2 * i + 1) = tdims b -> alike Qof (2 * i + 1) (el b) <-> columns_alike (B_out i) b.
Proof.
  intros i w HD. assert (E2 : (2 * i + 1) / 2 = i) by (rewrite Z.add_comm, Z.mul_comm, Z.div_add by lia; reflexivity). assert (EV : Z.even (2 * i + 1) = false) by (rewrite Z.even_add, Z.even_mul; reflexivity). split.
  - intros H r a b Hab Ha Hb. apply H. unfold Qof. rewrite HD. split; [auto|]. split; [auto|]. right. rewrite E2. exists r, a, b. auto.
  - intros H a b (Ha & Hb & HH). rewrite HD in Ha, Hb. rewrite E2, EV in HH. destruct HH as [(HH & _)|(r & i' & j' & Hij & -> & ->)]; [discriminate|auto].
Qed.
Lemma twins_placed : forall ls Bs' i, 0 <= i -> (forall n, nth n Bs' nobody = nth (Z.to_nat i + n) Bs nobody) -> twins Bs' ls -> dims_at D i ls -> placed (params_ok Qof) i ls.
Proof.
  induction ls as [|l ls IH]; intros Bs' i Hi HN HT HD; [exact I|]. inversion HT as [|B B' Bs2 ? ? T1 T2]; subst. destruct HD as (D1 & D2). split.
  - assert (EB : B_in i = B) by (unfold B_in; rewrite <- (HN 0%nat) || idtac; specialize (HN 0%nat); rewrite Nat.add_0_r in HN; cbn [nth] in HN; auto).
    assert (EB' : B_out i = B') by (unfold B_out; specialize (HN 1%nat); rewrite Nat.add_1_r in HN; cbn [nth] in HN; auto).
    unfold params_ok. destruct (layer_params l) as [(w & b)|] eqn:EP; [|exact I]. destruct D1 as (D1 & D3). rewrite alike_w, alike_b, EB, EB' by auto.
    destruct T1 as [B B' l H1 H2 H3|B l H|l]; cbn [layer_params] in EP; try discriminate; [injection EP as <- <-; auto|]. split; [split; [apply nobody_rows|apply nobody_columns]|apply nobody_columns].
  - apply (IH (B' :: Bs2)); auto; [lia|]. intros n. specialize (HN (Datatypes.S n)). cbn [nth] in HN |- *. rewrite HN. f_equal. rewrite Z2Nat.inj_add by lia. change (Z.to_nat 1) with 1%nat. lia.
Qed.
Lemma grads_placed : forall ls Bs' i, 0 <= i -> (forall n, nth n Bs' nobody = nth (Z.to_nat i + n) Bs nobody) -> grads_twins Bs' ls -> Forall armed ls -> dims_at D i ls -> placed (grads_ok Qof) i ls.
Proof.
  induction ls as [|l ls IH]; intros Bs' i Hi HN HT HA HD; [exact I|]. inversion HT as [|B B' Bs2 ? ? T1 T2]; subst. inversion HA as [|? ? A1 A2]; subst. destruct HD as (D1 & D2). split.
  - assert (EB : B_in i = B) by (unfold B_in; specialize (HN 0%nat); rewrite Nat.add_0_r in HN; cbn [nth] in HN; auto).
    assert (EB' : B_out i = B') by (unfold B_out; specialize (HN 1%nat); rewrite Nat.add_1_r in HN; cbn [nth] in HN; auto).
    unfold grads_ok, grads_alike, armed in *. destruct (layer_grads l) as [(gw & gb)|] eqn:EG; [|exact I]. destruct (layer_params l) as [(w & b)|] eqn:EP; [|destruct l; cbn in EP, EG; discriminate].
    destruct A1 as (_ & _ & gw' & gb' & EG' & _ & E1 & _ & E2). injection EG' as <- <-. destruct D1 as (D1 & D3). rewrite alike_w, alike_b, EB, EB' by congruence. tauto.
  - apply (IH (B' :: Bs2)); auto; [lia|]. intros n. specialize (HN (Datatypes.S n)). cbn [nth] in HN |- *. rewrite HN. f_equal. rewrite Z2Nat.inj_add by lia. change (Z.to_nat 1) with 1%nat. lia.
Qed.
Lemma placed_twins : forall ls ls' Bs' i, 0 <= i -> (forall n, nth n Bs' nobody = nth (Z.to_nat i + n) Bs nobody) -> twins Bs' ls -> Forall2 renewed ls ls' -> placed (params_ok Qof) i ls' -> dims_at D i ls' -> twins Bs' ls'.
Proof.
  induction ls as [|l ls IH]; intros ls' Bs' i Hi HN HT HR2 HP HD; inversion HR2 as [|? l' ? r' R1 R2]; subst; [exact HT|]. inversion HT as [|B B' Bs2 ? ? T1 T2]; subst. destruct HD as (D1 & D2). destruct HP as (P1 & P2). constructor.
  - assert (EB : B_in i = B) by (unfold B_in; specialize (HN 0%nat); rewrite Nat.add_0_r in HN; cbn [nth] in HN; auto).
    assert (EB' : B_out i = B') by (unfold B_out; specialize (HN 1%nat); rewrite Nat.add_1_r in HN; cbn [nth] in HN; auto).
    destruct R1 as [->|(w & b & ->)]; [exact T1|]. unfold params_ok in P1. destruct T1 as [B B' l H1 H2 H3|B l H|l]; cbn [with_params layer_params] in *; [|constructor; auto|constructor].
    destruct D1 as (D1 & D3). rewrite alike_w, alike_b, EB, EB' in P1 by auto. constructor; cbn [fc_w fc_b]; tauto.
  - apply (IH r' (B' :: Bs2) (i + 1)); auto; [lia|]. intros n. specialize (HN (Datatypes.S n)). cbn [nth] in HN |- *. rewrite HN. f_equal. rewrite Z2Nat.inj_add by lia. change (Z.to_nat 1) with 1%nat. lia.
Qed.
Definition opt_twins (o : optim T) : Prop := optim_alike Qof o.
Lemma twin_fit_step : forall ds ds' (n : net T G) lo o (x t : tensor T), trainable D ds ds' n lo o -> room o (Zlen (n_layers n)) -> counts_nonzero (T := T) -> good x -> tdims x = ds -> target_fits lo ds' t ->
  twins Bs (n_layers n) -> hidden Bs -> opt_twins o ->
  exists n' o', fit_one n x t n' /\ trainable D ds ds' n' lo o' /\ Zlen (n_layers n') = Zlen (n_layers n) /\ (forall k, 0 <= k -> room o (k + Zlen (n_layers n)) -> room o' k) /\ twins Bs (n_layers n') /\ opt_twins o'.
Proof.
  intros ds ds' n lo o x t HT HM HC Gx Ex Ht TW (HB1 & HB2) OT. destruct (fit_step D ds ds' n lo o x t HT HM HC Gx Ex Ht) as (n1 & p & d & n2 & n' & o' & E1 & E2 & E3 & E4 & F & HT' & PD & HK & _).
  destruct HT as (HA & HL & HOp & HD & HO).
  destruct (twin_pass (n_layers n) Bs ds ds' x (n_rng n) HA TW Gx Ex) as (ls1 & g1 & y & P1 & Gy & Ey & HBk); [rewrite HB1; apply nobody_columns|].
  unfold net_predict in E1. rewrite P1 in E1. injection E1 as <- <-. destruct (loss_total lo ds' y t HC Gy Ey Ht) as (_ & d' & ED & Gd & Edd). rewrite E2 in ED. injection ED as <-.
  destruct (HBk d Gd Edd) as (ls2 & gx & Q1 & Ggx & Egx & _ & A2 & PL & AR & TW2 & GT2); [rewrite HB2; apply nobody_columns|].
  unfold net_backward in E3. cbn [n_layers] in E3. rewrite Q1 in E3. cbn [step] in E3. injection E3 as <-. unfold net_with in E4. cbn [n_loss n_opt n_rng] in E4.
  exists n', o'. split; [exact F|]. split; [exact HT'|]. split; [unfold Zlen; f_equal; rewrite <- (map_length params_dims (n_layers n')), PD, map_length; reflexivity|]. split; [exact HK|].
  destruct HT' as (_ & _ & HOp' & _). assert (HD2 : dims_at D 0 ls2) by (eapply dims_at_same; [apply params_dims_of; exact PL|exact HD]).
  unfold net_update in E4. cbn [n_layers n_opt n_loss n_rng] in E4. rewrite HOp in E4. destruct ls2 as [|l2 r2] eqn:EL.
  - injection E4 as <-. cbn [n_layers n_opt] in *. injection HOp' as <-. auto.
  - destruct (update_all 0 (l2 :: r2) o) as ((ls3 & o3) & r3) eqn:EU. injection E4 as <- ->. cbn [n_layers n_opt] in *. injection HOp' as ->.
    destruct (update_alike D Qof Qof_range (l2 :: r2) 0 o ls3 o' AR HD2 HO) as (K1 & K2 & K3 & K4); auto.
    + apply (twins_placed _ Bs); auto; lia.
    + apply (grads_placed _ Bs); auto; lia.
    + split; [|exact K4]. apply (placed_twins (l2 :: r2) ls3 Bs 0); auto; lia.
Qed.
Lemma twin_fit : forall ds ds' lo samples (n : net T G) o, trainable D ds ds' n lo o -> counts_nonzero (T := T) -> room o (Zlen samples * Zlen (n_layers n)) ->
  Forall (fun s => good (fst s) /\ tdims (fst s) = ds /\ target_fits lo ds' (snd s)) samples -> twins Bs (n_layers n) -> hidden Bs -> opt_twins o ->
  exists n', fit n samples n' /\ map is_dense (n_layers n') = map is_dense (n_layers n) /\ twins Bs (n_layers n').
Proof.
  intros ds ds' lo. induction samples as [|(x & t) r IH]; intros n o HT HC HM HF TW HB OT.
  - exists n. split; [constructor|]. split; [reflexivity|exact TW].
  - inversion HF as [|? ? (Gx & Ex & Ht) HF']; subst. cbn [fst snd] in *. rewrite Zlen_cons in HM. pose proof (Zlen_nonneg r). pose proof (Zlen_nonneg (n_layers n)).
    destruct (twin_fit_step (tdims x) ds' n lo o x t HT) as (n' & o' & F & HT' & LEN & HK & TW' & OT'); auto; [eapply room_le; [|exact HM]; nia|].
    destruct (IH n' o' HT' HC) as (m & F2 & A2 & P2); auto; [rewrite LEN; apply HK; [nia|]; eapply room_le; [|exact HM]; nia|]. exists m. split; [econstructor; eauto|]. split; [rewrite A2; eapply fit_kinds; eauto|auto].
Qed.
End B.
Theorem twin_train : forall Bs ds ds' lo o (n : net T G) xs ts e, accepts_all ds (n_layers n) ds' -> n_loss n = Some lo -> n_opt n = Some o -> new_optim o -> counts_nonzero (T := T) ->
  0 < Zlen xs <= Zlen ts -> Zlen xs <= INT_MAX -> 0 <= e -> e * Zlen xs * Zlen (n_layers n) <= INT_MAX -> Forall (fun x => good x /\ tdims x = ds) xs -> Forall (target_fits lo ds') ts ->
  twins Bs (n_layers n) -> hidden Bs -> exists n', net_train n xs ts e = (n', Ok tt) /\ map is_dense (n_layers n') = map is_dense (n_layers n) /\ twins Bs (n_layers n').
Proof.
  intros Bs ds ds' lo o n xs ts e HA HL HOp HN HC (HX1 & HX2) HX3 HE HM HF1 HF2 TW HB. pose (D := fun k => dims_map (n_layers n) (k - 2 * 0)).
  assert (LC : Zlen (combine xs ts) = Zlen xs) by (unfold Zlen in *; rewrite combine_length; lia).
  destruct (twin_fit D Bs ds ds' lo (concat (repeat (combine xs ts) (Z.to_nat e))) n o) as (n' & F & A & P); auto.
  - split; [auto|]. split; [auto|]. split; [auto|]. split; [apply dims_map_at|apply new_ready; auto].
  - apply new_room; auto. rewrite Zlen_concat_repeat, LC, Z2Nat.id by lia. auto.
  - apply Forall_concat_repeat. eapply Forall_impl; [|apply (Forall_combine _ _ _ _ HF1 HF2)]. intros (a & b) ((G1 & G2) & G3). auto.
  - apply new_alike; auto.
  - exists n'. split; [|auto]. apply train_fit; auto.
Qed.

(** ** Two units between two dense layers *)
Lemma twins_nobody : forall ls : list layer, twins (repeat nobody (Datatypes.S (length ls))) ls.
Proof. induction ls as [|l ls IH]; [constructor|]. cbn [length repeat] in *. constructor; [constructor|exact IH]. Qed.
Lemma twins_app : forall (pre ls : list layer) Bs, hd everybody Bs = nobody -> twins Bs ls -> twins (repeat nobody (length pre) ++ Bs) (pre ++ ls).
Proof.
  induction pre as [|l pre IH]; intros ls Bs HH HT; [exact HT|]. cbn [length repeat app]. pose proof (IH ls Bs HH HT) as H.
  assert (E : exists r, repeat nobody (length pre) ++ Bs = nobody :: r) by (destruct pre; cbn [length repeat app]; [destruct Bs; [inversion HT|cbn in HH; subst; eauto]|eauto]).
  destruct E as (r & E). rewrite E in H |- *. constructor; [constructor|exact H].
Qed.
Lemma twins_at : forall (ls : list layer) Bs k l, twins Bs ls -> nth_error ls k = Some l -> twinned (nth k Bs nobody) l (nth (Datatypes.S k) Bs nobody).
Proof.
  induction ls as [|l0 ls IH]; intros Bs k l HT E; [destruct k; discriminate|]. inversion HT as [|B B' Bs' ? ? T1 T2]; subst. destruct k as [|k]; cbn [nth_error nth] in *; [injection E as <-; exact T1|apply (IH (B' :: Bs')); auto].
Qed.
Lemma twins_length : forall (ls : list layer) Bs, twins Bs ls -> length Bs = Datatypes.S (length ls).
Proof. induction ls as [|l ls IH]; intros Bs HT; inversion HT as [|B B' Bs' ? ? T1 T2]; subst; [reflexivity|]. specialize (IH _ T2). cbn [length] in *. lia. Qed.
Lemma in_twinned : forall (l : layer) B' i j, twinned nobody l B' -> B' i j -> exists f, l = LFC f /\ columns_alike B' (fc_w f) /\ columns_alike B' (fc_b f).
Proof. intros l B' i j HT HB. inversion HT; subst; [exists l0; auto|destruct HB|destruct HB]. Qed.
Lemma out_twinned : forall (l : layer) B i j, twinned B l nobody -> B i j -> exists f, l = LFC f /\ rows_alike B (fc_w f).
Proof. intros l B i j HT HB. inversion HT; subst; [exists l0; auto|destruct HB|destruct HB]. Qed.
Theorem pair_train : forall (pre post : list layer) f1 a f2 i j ds ds' lo o (n : net T G) xs ts e, n_layers n = pre ++ [LFC f1; LAct a; LFC f2] ++ post ->
  accepts_all ds (n_layers n) ds' -> n_loss n = Some lo -> n_opt n = Some o -> new_optim o -> counts_nonzero (T := T) ->
  0 < Zlen xs <= Zlen ts -> Zlen xs <= INT_MAX -> 0 <= e -> e * Zlen xs * Zlen (n_layers n) <= INT_MAX -> Forall (fun x => good x /\ tdims x = ds) xs -> Forall (target_fits lo ds') ts ->
  al_act a <> Softmax -> columns_alike (just i j) (fc_w f1) -> columns_alike (just i j) (fc_b f1) -> rows_alike (just i j) (fc_w f2) ->
  exists n' f1' f2', net_train n xs ts e = (n', Ok tt) /\ nth_error (n_layers n') (length pre) = Some (LFC f1') /\ nth_error (n_layers n') (length pre + 2) = Some (LFC f2') /\
    columns_alike (just i j) (fc_w f1') /\ columns_alike (just i j) (fc_b f1') /\ rows_alike (just i j) (fc_w f2').
Proof.
  intros pre post f1 a f2 i j ds ds' lo o n xs ts e EL HA HL HOp HN HC HX HX3 HE HM HF1 HF2 Ha C1 C2 C3.
  pose (Bs := repeat nobody (length pre) ++ nobody :: just i j :: just i j :: repeat nobody (Datatypes.S (length post))).
  assert (HT : twins Bs (n_layers n)).
  { rewrite EL. apply twins_app; [reflexivity|]. cbn [app]. constructor; [constructor; auto; apply nobody_rows|]. constructor; [constructor; exact Ha|]. cbn [repeat]. constructor; [constructor; auto; apply nobody_columns|]. apply (twins_nobody post). }
  assert (HB : hidden Bs).
  { split; [unfold Bs; destruct pre; reflexivity|]. assert (EN : forall X k, last (X ++ repeat nobody (Datatypes.S k)) everybody = nobody).
    { intros X k. rewrite <- (Nat.add_1_r k), repeat_app. cbn [repeat]. rewrite app_assoc. apply last_last. }
    unfold Bs. change (nobody :: just i j :: just i j :: repeat nobody (Datatypes.S (length post))) with ([nobody; just i j; just i j] ++ repeat nobody (Datatypes.S (length post))). rewrite app_assoc. apply EN. }
  destruct (twin_train Bs ds ds' lo o n xs ts e HA HL HOp HN HC HX HX3 HE HM HF1 HF2 HT HB) as (n' & E & _ & HT'). pose proof (twins_length _ _ HT') as LEN.
  assert (LB : length Bs = (length pre + (4 + length post))%nat) by (unfold Bs; rewrite app_length, repeat_length; cbn [length]; rewrite repeat_length; lia).
  assert (N0 : forall m, nth (length pre + m) Bs nobody = nth m (nobody :: just i j :: just i j :: repeat nobody (Datatypes.S (length post))) nobody).
  { intros m. unfold Bs. rewrite app_nth2 by (rewrite repeat_length; lia). rewrite repeat_length. f_equal. lia. }
  destruct (nth_error (n_layers n') (length pre)) as [l1|] eqn:E1; [|apply nth_error_None in E1; lia]. destruct (nth_error (n_layers n') (length pre + 2)) as [l2|] eqn:E2; [|apply nth_error_None in E2; lia].
  pose proof (twins_at _ _ _ _ HT' E1) as T1. pose proof (twins_at _ _ _ _ HT' E2) as T2.
  rewrite <- (Nat.add_0_r (length pre)), N0 in T1 at 1. replace (Datatypes.S (length pre)) with (length pre + 1)%nat in T1 by lia. rewrite N0 in T1. rewrite N0 in T2. replace (Datatypes.S (length pre + 2)) with (length pre + 3)%nat in T2 by lia. rewrite N0 in T2. cbn [nth repeat] in T1, T2.
  destruct (in_twinned _ _ i j T1 (conj eq_refl eq_refl)) as (g1 & -> & K1 & K2). destruct (out_twinned _ _ i j T2 (conj eq_refl eq_refl)) as (g2 & -> & K3). exists n', g1, g2. auto 10.
Qed.

(** ** Networks whose weights are all equal within each layer *)
Definition between (seen : bool) (ls : list layer) : pairing := if seen && existsb is_dense ls then everybody else nobody.
Fixpoint betweens (seen : bool) (ls : list layer) : list pairing := between seen ls :: match ls with [] => [] | l :: r => betweens (seen || is_dense l) r end.
Lemma betweens_ne : forall seen (ls : list layer), exists r, betweens seen ls = between seen ls :: r.
Proof. intros seen [|l ls]; cbn [betweens]; eauto. Qed.
Lemma betweens_twins : forall (ls post : list layer) seen, Forall uniform ls -> existsb is_dense post = false -> twins (betweens seen (ls ++ post)) (ls ++ post).
Proof.
  induction ls as [|l ls IH]; intros post seen HU HP.
  - cbn [app]. revert seen HP. induction post as [|l post IHp]; intros seen HP; [constructor|]. pose proof HP as HP2. cbn [existsb] in HP2. apply Bool.orb_false_iff in HP2. destruct HP2 as (Q1 & Q2).
    cbn [betweens]. destruct (betweens_ne (seen || is_dense l) post) as (r & E). specialize (IHp (seen || is_dense l)%bool Q2). rewrite E in IHp |- *. constructor; [|exact IHp].
    unfold between. rewrite HP, Q2, !Bool.andb_false_r. constructor.
  - inversion HU as [|? ? U1 U2]; subst. cbn [app betweens]. destruct (betweens_ne (seen || is_dense l) (ls ++ post)) as (r & E). specialize (IH post (seen || is_dense l)%bool U2 HP). rewrite E in IH |- *. constructor; [|exact IH].
    destruct l as [l|l|l|l|l|l|l]; try contradiction.
    + destruct U1 as (W1 & W2). constructor; intros p q s _ H1 H2; auto.
    + unfold between. cbn [existsb is_dense orb]. rewrite Bool.orb_false_r. constructor. exact U1.
Qed.
Lemma betweens_hidden : forall ls : list layer, hidden (betweens false ls).
Proof.
  intros ls. split; [destruct ls; reflexivity|]. generalize false as seen. induction ls as [|l ls IH]; intros seen; [cbn; unfold between; cbn [existsb]; rewrite Bool.andb_false_r; reflexivity|].
  cbn [betweens]. destruct (betweens_ne (seen || is_dense l) ls) as (r & E). specialize (IH (seen || is_dense l)%bool). rewrite E in IH |- *. exact IH.
Qed.
Lemma betweens_at : forall (ls : list layer) seen k, (k <= length ls)%nat -> nth k (betweens seen ls) nobody = between (seen || existsb is_dense (firstn k ls)) (skipn k ls).
Proof.
  induction ls as [|l ls IH]; intros seen [|k] HK; cbn [betweens nth firstn skipn existsb length] in *; rewrite ?Bool.orb_false_r; auto; [lia|]. rewrite IH by lia. rewrite Bool.orb_assoc. reflexivity.
Qed.
Theorem uniform_train : forall (ls post : list layer) ds ds' lo o (n : net T G) xs ts e, n_layers n = ls ++ post -> Forall uniform ls -> existsb is_dense post = false ->
  accepts_all ds (n_layers n) ds' -> n_loss n = Some lo -> n_opt n = Some o -> new_optim o -> counts_nonzero (T := T) ->
  0 < Zlen xs <= Zlen ts -> Zlen xs <= INT_MAX -> 0 <= e -> e * Zlen xs * Zlen (n_layers n) <= INT_MAX -> Forall (fun x => good x /\ tdims x = ds) xs -> Forall (target_fits lo ds') ts ->
  exists n', net_train n xs ts e = (n', Ok tt) /\ forall k f, nth_error (n_layers n') k = Some (LFC f) ->
    (existsb is_dense (firstn k (n_layers n)) = true -> rows_alike everybody (fc_w f)) /\
    (existsb is_dense (skipn (Datatypes.S k) (n_layers n)) = true -> columns_alike everybody (fc_w f) /\ columns_alike everybody (fc_b f)).
Proof.
  intros ls post ds ds' lo o n xs ts e EL HU HP HA HL HOp HN HC HX HX3 HE HM HF1 HF2.
  assert (HT : twins (betweens false (n_layers n)) (n_layers n)) by (rewrite EL; apply betweens_twins; auto).
  destruct (twin_train _ ds ds' lo o n xs ts e HA HL HOp HN HC HX HX3 HE HM HF1 HF2 HT (betweens_hidden _)) as (n' & E & EK & HT'). exists n'. split; [exact E|]. intros k f Ek.
  pose proof (twins_at _ _ _ _ HT' Ek) as TK. pose proof (twins_length _ _ HT) as L1. pose proof (twins_length _ _ HT') as L2. assert (HK : (k < length (n_layers n'))%nat) by (apply nth_error_Some; congruence).
  rewrite !betweens_at in TK by lia. cbn [orb] in TK. unfold between in TK.
  assert (ED : exists m, nth_error (n_layers n) k = Some m /\ is_dense m = true).
  { apply (map_nth_error is_dense) in Ek. rewrite EK in Ek. destruct (nth_error (n_layers n) k) as [m|] eqn:Em; [|apply nth_error_None in Em; lia]. exists m. split; [reflexivity|]. apply (map_nth_error is_dense) in Em. rewrite Em in Ek. injection Ek as ->. reflexivity. }
  destruct ED as (m & Em & Dm).
  destruct (nth_error_split _ _ Em) as (a1 & a2 & EL2 & LK).
  assert (S1 : existsb is_dense (skipn k (n_layers n)) = true) by (rewrite EL2, skipn_app, <- LK, Nat.sub_diag, existsb_app; cbn [skipn existsb]; rewrite Dm; apply Bool.orb_true_r).
  assert (S2 : existsb is_dense (firstn (Datatypes.S k) (n_layers n)) = true).
  { rewrite EL2, firstn_app, existsb_app. replace (Datatypes.S k - length a1)%nat with 1%nat by lia. cbn [firstn existsb]. rewrite Dm. apply Bool.orb_true_r. }
  rewrite S1, S2, Bool.andb_true_r in TK. cbn [andb] in TK. split; intros Q1; rewrite Q1 in TK; inversion TK; subst; auto; try apply nobody_rows; try (split; apply nobody_columns).
Qed.
End S.
