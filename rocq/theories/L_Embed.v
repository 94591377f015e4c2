(** * Two networks of which one holds the parameters of the other (used for C130 and C131) *)
From Coq Require Import String Reals Lra.
From Verif Require Import Base Scalar ScalarR Types Spec SpecR SpecNN SpecLayers SpecOpt M_Shape M_Tensor M_Adv M_Act M_Loss M_Layers M_Reg M_Opt M_Net M_Text M_Log SpecNet SpecLog SpecRetry SpecFit
  L_Index L_Shape L_Bcast L_Tensor L_Nest L_Glue L_Matmul L_Adv L_Act L_ActR L_Loss L_Layers L_Conv L_Rows L_Pool L_Pool2 L_Drop L_BN L_Opt L_Net L_Net2 L_Train L_Log L_Retry L_Perm L_Fit.
Local Open Scope Z_scope.
Local Open Scope list_scope.

Section S.
Variable M : R.
Local Hint Extern 0 (Scalar R) => exact (L_Fit.RI M) : typeclass_instances.
Context {G : Type} {HR : Rng R G}.
Local Notation layer := (layer R).

(** ** Optimizers *)
Lemma update_none : forall i (l : layer) (o : optim R), layer_params l = None -> layer_update i l o = (l, o, Ok tt).
Proof. intros i [l|l|l|l|l|l|l] o H; try discriminate; reflexivity. Qed.
Lemma update_some : forall i (l : layer) (o : optim R) w b gw gb, layer_params l = Some (w, b) -> layer_grads l = Some (gw, gb) ->
  layer_update i l o = let '(o', w', b', r) := pair_optimize o i w b gw gb in (with_params l w' b', o', r).
Proof.
  intros i [l|l|l|l|l|l|l] o w b gw gb HP HG; try discriminate; cbn [layer_params] in HP; injection HP as <- <-; cbn [layer_grads] in HG; cbn [layer_update].
  - destruct (fc_gw l) eqn:Q1, (fc_gb l) eqn:Q2; try discriminate. injection HG as -> ->. cbn [with_params]. rewrite Q1, Q2. reflexivity.
  - destruct (cv_gw l) eqn:Q1, (cv_gb l) eqn:Q2; try discriminate. injection HG as -> ->. cbn [with_params]. rewrite Q1, Q2. reflexivity.
  - destruct (bn_ggamma l) eqn:Q1, (bn_gbeta l) eqn:Q2; try discriminate. injection HG as -> ->. cbn [with_params]. rewrite Q1, Q2. reflexivity.
Qed.
Section Pos.
(** The shapes of the parameters of the two networks, the place of a number of the first network in the second, and the places of the
    second network whose gradients are zero. *)
Variable D D' : Z -> list Z.
Variable pos : Z -> list Z -> list Z.
Variable K : Z -> list Z -> Prop.
Definition held (k : Z) (f f' : list Z -> R) : Prop := forall idx, in_range (D k) idx -> in_range (D' k) (pos k idx) -> f' (pos k idx) = f idx.
Definition optim_held (o o' : optim R) : Prop :=
  match o, o' with
  | OSGD a, OSGD a' => exists b, a' = mkSGD (sg_lr a) (sg_mom a) (sg_damp a) (sg_wd a) (sg_nest a) b /\ forall k, held k (buf_el (sg_buf a) k) (buf_el b k)
  | ORMS a, ORMS a' => rp_lr a' = rp_lr a /\ rp_alpha a' = rp_alpha a /\ rp_eps a' = rp_eps a /\ rp_mom a' = rp_mom a /\ rp_cent a' = rp_cent a /\ rp_wd a' = rp_wd a /\
      forall k idx, in_range (D k) idx -> in_range (D' k) (pos k idx) -> rms_aux a' k (pos k idx) = rms_aux a k idx
  | OAdam a, OAdam a' => exists m v, a' = mkAdam (ad_init a) (ad_lr a) (ad_b1 a) (ad_b2 a) (ad_eps a) (ad_l1 a) (ad_l2 a) (ad_decay a) (ad_it a) (ad_batch a) m v /\
      forall k, held k (buf_el (ad_m a) k) (buf_el m k) /\ held k (buf_el (ad_v a) k) (buf_el v k)
  | _, _ => False
  end.
Lemma new_held : forall o : optim R, new_optim o -> optim_held o o.
Proof.
  intros o H. destruct H; cbn [optim_held sgd_new rms_new adam_new].
  - eexists. split; [reflexivity|]. intros k idx _ _. reflexivity.
  - do 6 (split; [reflexivity|]). intros k idx _ _. reflexivity.
  - do 2 eexists. split; [reflexivity|]. intros k. split; intros idx _ _; reflexivity.
Qed.
(** No penalty and no memory at the places of [K]. *)
Definition still (o : optim R) : Prop :=
  forall k idx, K k idx -> in_range (D' k) idx ->
  match o with
  | OSGD s => sg_wd s = 0%R /\ buf_el (sg_buf s) k idx = 0%R
  | ORMS s => rp_wd s = 0%R /\ rms_aux s k idx = (0, 0, 0)%R
  | OAdam s => ad_l1 s = 0%R /\ ad_l2 s = 0%R /\ buf_el (ad_m s) k idx = 0%R /\ buf_el (ad_v s) k idx = 0%R
  end.
Lemma new_still : forall o : optim R, ((exists k idx, K k idx) -> no_penalty o) -> still o.
Proof. intros o H k idx HK _. destruct H; [eauto|cbn; auto..]. Qed.
Definition emb (k : Z) (w w' : tensor R) : Prop :=
  good w /\ good w' /\ tdims w = D k /\ tdims w' = D' k /\ forall idx, in_range (D k) idx -> in_range (D' k) (pos k idx) /\ el w' (pos k idx) = el w idx.
Definition blank (k : Z) (g' : tensor R) : Prop := forall idx, K k idx -> in_range (D' k) idx -> el g' idx = 0%R.
Definition kept (k : Z) (w w1 : tensor R) : Prop := forall idx, K k idx -> in_range (D' k) idx -> el w1 idx = el w idx.
Lemma emb_held : forall k w w', emb k w w' -> held k (el w) (el w').
Proof. intros k w w' (_ & _ & _ & _ & V) idx HI _. apply V. auto. Qed.
Lemma emb_intro : forall k w w' w1 w1', emb k w w' -> good w1 -> good w1' -> tdims w1 = D k -> tdims w1' = D' k -> (forall idx, in_range (D k) idx -> in_range (D' k) (pos k idx) -> el w1' (pos k idx) = el w1 idx) -> emb k w1 w1'.
Proof. intros k w w' w1 w1' (_ & _ & _ & _ & HW) G1 G1' E1 E1' V. do 4 (split; [auto|]). intros idx HI. destruct (HW idx HI). auto. Qed.

Lemma sgd_emb : forall (o o' : sgd R) k (w w' g g' : tensor R) lr, bufs_ok D (sg_buf o) -> bufs_ok D' (sg_buf o') -> emb k w w' -> emb k g g' -> blank k g' -> still (OSGD o') -> optim_held (OSGD o) (OSGD o') ->
  exists o1 o1' w1 w1', sgd_update o k w g lr = (o1, Ok w1) /\ sgd_update o' k w' g' lr = (o1', Ok w1') /\ bufs_ok D (sg_buf o1) /\ bufs_ok D' (sg_buf o1') /\ emb k w1 w1' /\ kept k w' w1' /\ still (OSGD o1') /\ optim_held (OSGD o1) (OSGD o1').
Proof.
  intros o o' k w w' g g' lr HB HB' HW HG HZ HQ (b & -> & HM). cbn [sg_buf] in HB'. pose proof HW as (Gw & Gw' & Ew & Ew' & _). pose proof HG as (Gg & Gg' & Eg & Eg' & _).
  destruct (sgd_update_ok D o k w g lr HB Gw Ew Gg Eg) as (m & w1 & E1 & Gm & Em & G1 & D1 & V).
  destruct (sgd_update_ok D' (mkSGD (sg_lr o) (sg_mom o) (sg_damp o) (sg_wd o) (sg_nest o) b) k w' g' lr HB' Gw' Ew' Gg' Eg') as (m' & w1' & E1' & Gm' & Em' & G1' & D1' & V').
  cbn [sg_lr sg_mom sg_damp sg_wd sg_nest sg_buf] in *.
  assert (HH : forall idx, in_range (D k) idx -> in_range (D' k) (pos k idx) -> (el w1' (pos k idx), el m' (pos k idx)) = (el w1 idx, el m idx)).
  { intros idx H1 H2. rewrite (V' _ H2), (V _ H1), (emb_held k w w' HW idx H1 H2), (emb_held k g g' HG idx H1 H2), (HM k idx H1 H2). reflexivity. }
  assert (HF : forall idx, K k idx -> in_range (D' k) idx -> el w1' idx = el w' idx /\ el m' idx = 0%R).
  { intros idx HK HI. specialize (V' idx HI). destruct (HQ k idx HK HI) as (Q1 & Q2). cbn [sg_wd sg_buf] in Q1, Q2. rewrite (HZ idx HK HI), Q1, Q2, (sgd_zero M) in V'. injection V' as V1 V2. auto. }
  do 4 eexists. split; [exact E1|]. split; [exact E1'|]. cbn [sg_buf sg_lr]. split; [apply bufs_ok_put; auto|]. split; [apply bufs_ok_put; auto|]. split; [apply (emb_intro k w w'); auto; intros idx H1 H2; specialize (HH idx H1 H2); congruence|].
  split; [intros idx HK HI; apply HF; auto|]. split.
  - intros k' idx HK HI. destruct (HQ k' idx HK HI) as (Q1 & Q2). cbn [sg_wd sg_buf] in *. split; [auto|]. rewrite buf_el_put. destruct (Z.eqb_spec k' k) as [EK|NK]; [subst k'; apply HF; auto|auto].
  - cbn [optim_held]. eexists. split; [reflexivity|]. intros k' idx H1 H2. cbn [sg_buf]. rewrite !buf_el_put. destruct (Z.eqb_spec k' k) as [EK|NK]; [subst k'; specialize (HH idx H1 H2); congruence|exact (HM k' idx H1 H2)].
Qed.
Lemma rms_emb : forall (o o' : rms R) k (w w' g g' : tensor R) lr, rms_ok D o -> rms_ok D' o' -> emb k w w' -> emb k g g' -> blank k g' -> still (ORMS o') -> optim_held (ORMS o) (ORMS o') ->
  exists o1 o1' w1 w1', rms_update o k w g lr = (o1, Ok w1) /\ rms_update o' k w' g' lr = (o1', Ok w1') /\ rms_ok D o1 /\ rms_ok D' o1' /\ emb k w1 w1' /\ kept k w' w1' /\ still (ORMS o1') /\ optim_held (ORMS o1) (ORMS o1').
Proof.
  intros o o' k w w' g g' lr HB HB' HW HG HZ HQ (A1 & A2 & A3 & A4 & A5 & A6 & HM). pose proof HW as (Gw & Gw' & Ew & Ew' & _). pose proof HG as (Gg & Gg' & Eg & Eg' & _).
  destruct (rms_update_ok D o k w g lr HB Gw Ew Gg Eg) as (o1 & w1 & E1 & HB1 & B1 & B2 & B3 & B4 & B5 & B6 & G1 & D1 & V & VO).
  destruct (rms_update_ok D' o' k w' g' lr HB' Gw' Ew' Gg' Eg') as (o1' & w1' & E1' & HB1' & C1 & C2 & C3 & C4 & C5 & C6 & G1' & D1' & V' & VO').
  assert (HF : forall idx, K k idx -> in_range (D' k) idx -> el w1' idx = el w' idx /\ rms_aux o1' k idx = (0, 0, 0)%R).
  { intros idx HK HI. specialize (V' idx HI). destruct (HQ k idx HK HI) as (Q1 & Q2). rewrite Q2 in V'. destruct (rms_aux o1' k idx) as ((sa & ma) & va). rewrite (HZ idx HK HI), Q1, (rms_zero M) in V'. injection V' as -> -> -> ->. auto. }
  assert (HH : forall idx, in_range (D k) idx -> in_range (D' k) (pos k idx) -> (el w1' (pos k idx), rms_aux o1' k (pos k idx)) = (el w1 idx, rms_aux o1 k idx)).
  { intros idx H1 H2. pose proof (V' _ H2) as Va. pose proof (V _ H1) as Vb. rewrite (emb_held k w w' HW idx H1 H2), (emb_held k g g' HG idx H1 H2), (HM k idx H1 H2), A2, A3, A4, A5, A6 in Va.
    destruct (rms_aux o k idx) as ((s & m) & v). destruct (rms_aux o1 k idx) as ((s1 & m1) & v1). destruct (rms_aux o1' k (pos k idx)) as ((s2 & m2) & v2). congruence. }
  exists o1, o1', w1, w1'. do 4 (split; [auto|]). split; [apply (emb_intro k w w'); auto; intros idx H1 H2; specialize (HH idx H1 H2); congruence|]. split; [intros idx HK HI; apply HF; auto|]. split.
  - intros k' idx HK HI. destruct (HQ k' idx HK HI) as (Q1 & Q2). split; [congruence|]. destruct (Z.eq_dec k' k) as [EK|NK]; [subst k'; apply HF; auto|]. rewrite VO' by exact NK. auto.
  - cbn [optim_held]. do 6 (split; [congruence|]). intros k' idx H1 H2. destruct (Z.eq_dec k' k) as [EK|NK]; [subst k'; specialize (HH idx H1 H2); congruence|]. rewrite VO, VO' by exact NK. auto.
Qed.
Lemma adam_emb : forall (o o' : adam R) k (w w' g g' : tensor R) u, adam_ok D o -> adam_ok D' o' -> emb k w w' -> emb k g g' -> blank k g' -> still (OAdam o') -> optim_held (OAdam o) (OAdam o') ->
  exists o1 o1' w1 w1', adam_update o k w g u = (o1, Ok w1) /\ adam_update o' k w' g' u = (o1', Ok w1') /\ adam_ok D o1 /\ adam_ok D' o1' /\ emb k w1 w1' /\ kept k w' w1' /\ still (OAdam o1') /\ optim_held (OAdam o1) (OAdam o1').
Proof.
  intros o o' k w w' g g' u HB HB' HW HG HZ HQ (bm & bv & -> & HM). pose proof HW as (Gw & Gw' & Ew & Ew' & _). pose proof HG as (Gg & Gg' & Eg & Eg' & _).
  destruct (adam_update_ok D o k w g u HB Gw Ew Gg Eg) as (m & v & w1 & E1 & HB1 & G1 & D1 & V).
  set (o0 := mkAdam _ _ _ _ _ _ _ _ _ _ bm bv) in *.
  destruct (adam_update_ok D' o0 k w' g' u HB' Gw' Ew' Gg' Eg') as (m' & v' & w1' & E1' & HB1' & G1' & D1' & V').
  assert (HF : forall idx, K k idx -> in_range (D' k) idx -> el w1' idx = el w' idx /\ el m' idx = 0%R /\ el v' idx = 0%R).
  { intros idx HK HI. specialize (V' idx HI). destruct (HQ k idx HK HI) as (Q1 & Q2 & Q3 & Q4). rewrite (HZ idx HK HI), Q3, Q4, (adam_zero M) in V' by auto. injection V' as -> -> ->. auto. }
  assert (HH : forall idx, in_range (D k) idx -> in_range (D' k) (pos k idx) -> (el w1' (pos k idx), el m' (pos k idx), el v' (pos k idx)) = (el w1 idx, el m idx, el v idx)).
  { intros idx H1 H2. destruct (HM k) as (M1 & M2). rewrite (V' _ H2), (V _ H1), (emb_held k w w' HW idx H1 H2), (emb_held k g g' HG idx H1 H2). cbn [o0 ad_m ad_v]. rewrite (M1 idx H1 H2), (M2 idx H1 H2). reflexivity. }
  do 4 eexists. split; [exact E1|]. split; [exact E1'|]. split; [exact HB1|]. split; [exact HB1'|]. split; [apply (emb_intro k w w'); auto; intros idx H1 H2; specialize (HH idx H1 H2); congruence|]. split; [intros idx HK HI; apply HF; auto|]. split.
  - intros k' idx HK HI. destruct (HQ k' idx HK HI) as (Q1 & Q2 & Q3 & Q4). cbn [adam_with ad_l1 ad_l2 ad_m ad_v]. split; [auto|]. split; [auto|]. rewrite !buf_el_put. destruct (Z.eqb_spec k' k) as [EK|NK]; [subst k'; apply HF; auto|auto].
  - cbn [optim_held adam_with o0 ad_init ad_lr ad_b1 ad_b2 ad_eps ad_l1 ad_l2 ad_decay ad_it ad_batch ad_m ad_v]. do 2 eexists. split; [reflexivity|]. intros k'. destruct (HM k') as (M1 & M2).
    split; intros idx H1 H2; rewrite !buf_el_put; (destruct (Z.eqb_spec k' k) as [EK|NK]; [subst k'; specialize (HH idx H1 H2); congruence|auto]).
Qed.
Lemma pair_emb : forall (o o2 : optim R) i (w b gw gb w2 b2 gw2 gb2 : tensor R) o' w' b', optim_ready D o -> optim_ready D' o2 ->
  emb (2 * i) w w2 -> emb (2 * i) gw gw2 -> emb (2 * i + 1) b b2 -> emb (2 * i + 1) gb gb2 -> blank (2 * i) gw2 -> blank (2 * i + 1) gb2 -> still o2 -> optim_held o o2 -> pair_optimize o i w b gw gb = (o', w', b', Ok tt) ->
  exists o2' w2' b2', pair_optimize o2 i w2 b2 gw2 gb2 = (o2', w2', b2', Ok tt) /\ optim_ready D o' /\ optim_ready D' o2' /\ optim_held o' o2' /\ still o2' /\ emb (2 * i) w' w2' /\ emb (2 * i + 1) b' b2' /\ kept (2 * i) w2 w2' /\ kept (2 * i + 1) b2 b2'.
Proof.
  intros o o2 i w b gw gb w2 b2 gw2 gb2 o' w' b' HO HO2 HW HGW HB HGB ZW ZB HQ HM E. unfold pair_optimize in *.
  assert (F1 : forall w b : tensor R, pair_store i w b (2 * i) = w) by (intros; unfold pair_store; rewrite Z.eqb_refl; reflexivity).
  assert (F2 : forall w b w' : tensor R, put (pair_store i w b) (2 * i) w' (2 * i + 1) = b) by (intros; rewrite put_neq by lia; unfold pair_store; destruct (Z.eqb_spec (2 * i + 1) (2 * i)); [lia|reflexivity]).
  assert (F3 : forall w b w' b' : tensor R, put (put (pair_store i w b) (2 * i) w') (2 * i + 1) b' (2 * i) = w') by (intros; rewrite put_neq by lia; apply put_eq).
  assert (F4 : forall w b w' b' : tensor R, put (put (pair_store i w b) (2 * i) w') (2 * i + 1) b' (2 * i + 1) = b') by (intros; apply put_eq).
  destruct o as [s|s|s], o2 as [s2|s2|s2]; try (destruct HM; fail); cbn [optim_optimize optim_ready] in *.
  - unfold sgd_optimize in *. change (Zlen [2 * i; 2 * i + 1] =? Zlen [gw; gb]) with true in E. change (Zlen [2 * i; 2 * i + 1] =? Zlen [gw2; gb2]) with true. cbn [negb combine opt_loop] in *. rewrite F1 in *.
    assert (EL : sgd_rate s2 (s_z (-1)) = sgd_rate s (s_z (-1))) by (destruct HM as (bb & -> & _); reflexivity).
    destruct (sgd_emb s s2 (2 * i) w w2 gw gw2 (sgd_rate s (s_z (-1))) HO HO2 HW HGW ZW HQ HM) as (s3 & s4 & w3 & w4 & E3 & E4 & R3 & R4 & HW3 & KW & Q3 & HM3). rewrite E3 in E. rewrite EL, E4. rewrite F2 in *.
    destruct (sgd_emb s3 s4 (2 * i + 1) b b2 gb gb2 (sgd_rate s (s_z (-1))) R3 R4 HB HGB ZB Q3 HM3) as (s5 & s6 & b5 & b6 & E5 & E6 & R5 & R6 & HB5 & KB & Q5 & HM5). rewrite E5 in E. rewrite E6. rewrite F3, F4 in E. rewrite F3, F4. injection E as <- <- <-.
    do 3 eexists. split; [reflexivity|]. auto 12.
  - unfold rms_optimize in *. change (Zlen [2 * i; 2 * i + 1] =? Zlen [gw; gb]) with true in E. change (Zlen [2 * i; 2 * i + 1] =? Zlen [gw2; gb2]) with true. cbn [negb combine opt_loop] in *. rewrite F1 in *.
    assert (EL : rms_rate s2 (s_z (-1)) = rms_rate s (s_z (-1))) by (destruct HM as (EL & _); unfold rms_rate; rewrite EL; reflexivity).
    destruct (rms_emb s s2 (2 * i) w w2 gw gw2 (rms_rate s (s_z (-1))) HO HO2 HW HGW ZW HQ HM) as (s3 & s4 & w3 & w4 & E3 & E4 & R3 & R4 & HW3 & KW & Q3 & HM3). rewrite E3 in E. rewrite EL, E4. rewrite F2 in *.
    destruct (rms_emb s3 s4 (2 * i + 1) b b2 gb gb2 (rms_rate s (s_z (-1))) R3 R4 HB HGB ZB Q3 HM3) as (s5 & s6 & b5 & b6 & E5 & E6 & R5 & R6 & HB5 & KB & Q5 & HM5). rewrite E5 in E. rewrite E6. rewrite F3, F4 in E. rewrite F3, F4. injection E as <- <- <-.
    do 3 eexists. split; [reflexivity|]. auto 12.
  - unfold adam_optimize in *. change (Zlen [2 * i; 2 * i + 1] =? Zlen [gw; gb]) with true in E. change (Zlen [2 * i; 2 * i + 1] =? Zlen [gw2; gb2]) with true. cbn [negb combine] in *. unfold adam_rate in *.
    destruct HM as (bm & bv & -> & HM). cbn [ad_init ad_lr ad_b1 ad_b2 ad_eps ad_l1 ad_l2 ad_decay ad_it ad_batch ad_m ad_v] in *. destruct (chk32 (ad_it s + 1)) as [it|e| | |]; cbn [bind] in *; try discriminate.
    set (s0 := mkAdam _ _ _ _ _ _ _ _ _ _ (ad_m s) (ad_v s)) in E. set (s0' := mkAdam _ _ _ _ _ _ _ _ _ _ bm bv) in |- *. cbn [opt_loop] in *. rewrite F1 in *. assert (HO0 : adam_ok D s0) by exact HO. assert (HO0' : adam_ok D' s0') by exact HO2.
    assert (HM0 : optim_held (OAdam s0) (OAdam s0')) by (exists bm, bv; split; [reflexivity|exact HM]). assert (HQ0 : still (OAdam s0')) by exact HQ.
    destruct (adam_emb s0 s0' (2 * i) w w2 gw gw2 tt HO0 HO0' HW HGW ZW HQ0 HM0) as (s3 & s4 & w3 & w4 & E3 & E4 & R3 & R4 & HW3 & KW & Q3 & HM3). rewrite E3 in E. rewrite E4. rewrite F2 in *.
    destruct (adam_emb s3 s4 (2 * i + 1) b b2 gb gb2 tt R3 R4 HB HGB ZB Q3 HM3) as (s5 & s6 & b5 & b6 & E5 & E6 & R5 & R6 & HB5 & KB & Q5 & HM5). rewrite E5 in E. rewrite E6. rewrite F3, F4 in E. rewrite F3, F4. injection E as <- <- <-.
    do 3 eexists. split; [reflexivity|]. auto 12.
Qed.

(** ** Layers after a backward pass, and after the update *)
Inductive ready : Z -> list layer -> list layer -> Prop :=
  | rd_nil : forall i, ready i [] []
  | rd_none : forall i l l' r r', layer_params l = None -> layer_params l' = None -> ready (i + 1) r r' -> ready i (l :: r) (l' :: r')
  | rd_some : forall i l l' r r' w b gw gb w' b' gw' gb', layer_params l = Some (w, b) -> layer_params l' = Some (w', b') -> layer_grads l = Some (gw, gb) -> layer_grads l' = Some (gw', gb') ->
      emb (2 * i) w w' -> emb (2 * i + 1) b b' -> emb (2 * i) gw gw' -> emb (2 * i + 1) gb gb' -> blank (2 * i) gw' -> blank (2 * i + 1) gb' -> ready (i + 1) r r' -> ready i (l :: r) (l' :: r').
Inductive updated : Z -> list layer -> list layer -> list layer -> list layer -> Prop :=
  | up_nil : forall i, updated i [] [] [] []
  | up_none : forall i l l' r r' q q', layer_params l = None -> layer_params l' = None -> updated (i + 1) r r' q q' -> updated i (l :: r) (l' :: r') (l :: q) (l' :: q')
  | up_some : forall i l l' r r' q q' w' b' w1 b1 w1' b1', layer_params l <> None -> layer_params l' = Some (w', b') -> emb (2 * i) w1 w1' -> emb (2 * i + 1) b1 b1' -> kept (2 * i) w' w1' -> kept (2 * i + 1) b' b1' ->
      updated (i + 1) r r' q q' -> updated i (l :: r) (l' :: r') (with_params l w1 b1 :: q) (with_params l' w1' b1' :: q').
Lemma ready_app : forall a a' b b' i, ready i a a' -> ready (i + Zlen a) b b' -> ready i (a ++ b) (a' ++ b').
Proof.
  induction a as [|l a IH]; intros a' b b' i H HB; inversion H; subst; cbn [app].
  - change (Zlen (@nil layer)) with 0 in HB. rewrite Z.add_0_r in HB. exact HB.
  - rewrite Zlen_cons in HB. apply rd_none; auto. apply IH; auto. replace (i + 1 + Zlen a) with (i + (1 + Zlen a)) by lia. replace (i + (1 + Zlen a)) with (i + (Zlen a + 1)) by lia. auto.
  - rewrite Zlen_cons in HB. eapply rd_some; eauto. apply IH; auto. replace (i + 1 + Zlen a) with (i + (Zlen a + 1)) by lia. replace (i + (Zlen a + 1)) with (i + (1 + Zlen a)) by lia. replace (i + (1 + Zlen a)) with (i + (Zlen a + 1)) by lia. auto.
Qed.
Lemma updated_app : forall a a' b b' i q q', List.length a = List.length a' -> updated i (a ++ b) (a' ++ b') q q' -> exists q1 q1' q2 q2', q = q1 ++ q2 /\ q' = q1' ++ q2' /\ updated i a a' q1 q1' /\ updated (i + Zlen a) b b' q2 q2'.
Proof.
  induction a as [|l a IH]; intros [|l' a'] b b' i q q' HL H; try discriminate; cbn [app] in H.
  - exists [], [], q, q'. do 2 (split; [reflexivity|]). split; [constructor|]. change (Zlen (@nil layer)) with 0. rewrite Z.add_0_r. auto.
  - injection HL as HL. rewrite Zlen_cons. inversion H; subst.
    + destruct (IH a' b b' (i + 1) q0 q'0 HL) as (q1 & q1' & q2 & q2' & -> & -> & H1 & H2); auto. exists (l :: q1), (l' :: q1'), q2, q2'. do 2 (split; [reflexivity|]). split; [apply up_none; auto|]. replace (i + (Zlen a + 1)) with (i + 1 + Zlen a) by lia. replace (i + (1 + Zlen a)) with (i + 1 + Zlen a) by lia. auto.
    + destruct (IH a' b b' (i + 1) q0 q'0 HL) as (q1 & q1' & q2 & q2' & -> & -> & H1 & H2); auto. do 4 eexists. split; [rewrite app_comm_cons; reflexivity|]. split; [rewrite app_comm_cons; reflexivity|]. split; [eapply up_some; eauto|]. replace (i + (Zlen a + 1)) with (i + 1 + Zlen a) by lia. replace (i + (1 + Zlen a)) with (i + 1 + Zlen a) by lia. auto.
Qed.

Lemma update_ready : forall ls ls2 i (o o2 : optim R) ls' o', ready i ls ls2 -> optim_ready D o -> optim_ready D' o2 -> still o2 -> optim_held o o2 -> update_all i ls o = (ls', o', Ok tt) ->
  exists ls2' o2', update_all i ls2 o2 = (ls2', o2', Ok tt) /\ updated i ls ls2 ls' ls2' /\ optim_ready D' o2' /\ still o2' /\ optim_held o' o2'.
Proof.
  induction ls as [|l ls IH]; intros ls2 i o o2 ls' o' H HO HO2 HQ HM E; inversion H as [|? ? l' ? r' P1 P2 H1|? ? l' ? r' w b gw gb w' b' gw' gb' P1 P2 G1 G2 W1 W2 W3 W4 Z1 Z2 H1]; subst.
  - cbn in E. injection E as <- <-. exists [], o2. split; [reflexivity|]. split; [constructor|auto].
  - cbn [update_all] in *. rewrite update_none in E by auto. rewrite update_none by auto. destruct (update_all (i + 1) ls o) as ((ls1 & o1) & r1) eqn:EU. injection E as <- <- ->.
    destruct (IH r' (i + 1) o o2 ls1 o1 H1 HO HO2 HQ HM EU) as (ls3 & o3 & E3 & U & K3). rewrite E3. do 2 eexists. split; [reflexivity|]. split; [apply up_none; auto|auto].
  - cbn [update_all] in *. rewrite (update_some i l o w b gw gb P1 G1) in E. rewrite (update_some i l' o2 w' b' gw' gb' P2 G2). destruct (pair_optimize o i w b gw gb) as (((o1 & w1) & b1) & r1) eqn:EO. destruct r1 as [[]| | | |]; try discriminate.
    destruct (update_all (i + 1) ls o1) as ((ls1 & o3) & r3) eqn:EU. injection E as <- <- ->.
    destruct (pair_emb o o2 i w b gw gb w' b' gw' gb' o1 w1 b1 HO HO2 W1 W3 W2 W4 Z1 Z2 HQ HM EO) as (o4 & w4 & b4 & EO2 & R1 & R4 & M4 & Q4 & X1 & X2 & X3 & X4). rewrite EO2.
    destruct (IH r' (i + 1) o1 o4 ls1 o3 H1 R1 R4 Q4 M4 EU) as (ls5 & o5 & E5 & U & K5). rewrite E5. do 2 eexists. split; [reflexivity|]. split; [|auto]. eapply up_some; eauto. congruence.
Qed.
(** Layers that the two networks share. *)
Lemma shared_emb : forall k (w : tensor R), D' k = D k -> (forall idx, pos k idx = idx) -> good w -> tdims w = D k -> emb k w w.
Proof. intros k w ED HP Gw Ew. do 2 (split; [auto|]). split; [auto|]. split; [congruence|]. intros idx HI. rewrite HP, ED. auto. Qed.
Lemma shared_eq : forall k (w w' : tensor R), D' k = D k -> (forall idx, pos k idx = idx) -> emb k w w' -> w' = w.
Proof.
  intros k w w' ED HP (Gw & Gw' & Ew & Ew' & V). apply tensor_ext; auto; [congruence|]. rewrite Ew', ED. intros idx HI. destruct (V idx HI) as (_ & E). rewrite HP in E. auto.
Qed.
Definition shared_from (m : Z) : Prop := forall k, 2 * m <= k -> D' k = D k /\ (forall idx, pos k idx = idx) /\ forall idx, ~ K k idx.
Lemma shared_ready : forall ls m i, shared_from m -> m <= i -> Forall armed ls -> dims_at D i ls -> ready i ls ls.
Proof.
  induction ls as [|l ls IH]; intros m i HS Hi HA HD; [constructor|]. inversion HA as [|? ? A1 A2]; subst. destruct HD as (D1 & D2). unfold armed in A1. destruct (layer_params l) as [(w & b)|] eqn:Q1.
  - destruct A1 as (Gw & Gb & gw & gb & EG & Ggw & Egw & Ggb & Egb). destruct D1 as (D1 & D3). destruct (HS (2 * i) ltac:(lia)) as (S1 & S2 & S3). destruct (HS (2 * i + 1) ltac:(lia)) as (T1 & T2 & T3).
    eapply rd_some; eauto; try (apply shared_emb; auto; congruence); try (intros idx HK; destruct (S3 idx HK)); try (intros idx HK; destruct (T3 idx HK)). apply (IH m); auto; lia.
  - apply rd_none; auto. apply (IH m); auto; lia.
Qed.
Lemma shared_updated : forall ls m i q q', shared_from m -> m <= i -> updated i ls ls q q' -> q' = q.
Proof.
  induction ls as [|l ls IH]; intros m i q q' HS Hi H; inversion H; subst; [reflexivity| |].
  - f_equal. apply (IH m (i + 1)); auto; lia.
  - destruct (HS (2 * i) ltac:(lia)) as (S1 & S2 & S3). destruct (HS (2 * i + 1) ltac:(lia)) as (T1 & T2 & T3). f_equal; [f_equal; [apply (shared_eq (2 * i))|apply (shared_eq (2 * i + 1))]; auto|apply (IH m (i + 1)); auto; lia].
Qed.
Lemma backward_app : forall (a b a' b' : list layer) (d gm gx : tensor R), backward_all b d = (b', Ok gm) -> backward_all a gm = (a', Ok gx) -> backward_all (a ++ b) d = (a' ++ b', Ok gx).
Proof.
  induction a as [|l a IH]; intros b a' b' d gm gx HB HA; cbn [app backward_all] in *; [injection HA as <- <-; exact HB|].
  destruct (backward_all a gm) as (a1 & [g1| | | |]) eqn:E1; try discriminate. destruct (layer_backward l g1) as (l1 & o1) eqn:E2. injection HA as <- ->. rewrite (IH b a1 b' d gm g1 HB E1), E2. reflexivity.
Qed.
Lemma stack_app_inv : forall (a b : list layer) ds ds', accepts_all ds (a ++ b) ds' -> exists dm, accepts_all ds a dm /\ accepts_all dm b ds'.
Proof.
  induction a as [|l a IH]; intros b ds ds' H; cbn [app] in H; [exists ds; split; [constructor|auto]|]. inversion H as [|? ? d1 ? ? H1 H2]; subst. destruct (IH b d1 ds' H2) as (dm & A & B). exists dm. split; [econstructor; eauto|auto].
Qed.
Lemma dims_at_app : forall (a b : list layer) i, dims_at D i (a ++ b) -> dims_at D (i + Zlen a) b.
Proof.
  induction a as [|l a IH]; intros b i H; cbn [app] in H; [change (Zlen (@nil layer)) with 0; rewrite Z.add_0_r; auto|]. destruct H as (_ & H). apply IH in H. rewrite Zlen_cons. replace (i + (1 + Zlen a)) with (i + 1 + Zlen a) by lia. replace (i + (Zlen a + 1)) with (i + 1 + Zlen a) by lia. exact H.
Qed.

(** ** Training the two networks *)
Section Prefix.
(** The networks share all layers but the first few, which give the same output for corresponding inputs. *)
Variable m : Z.
Variable PR : list layer -> list layer -> Prop.
Variable XR : tensor R -> tensor R -> Prop.
Hypothesis HS : shared_from m.
Hypothesis HP : forall pre pre' (x x' : tensor R) (g : G) ds dm, accepts_all ds pre dm -> good x -> tdims x = ds -> PR pre pre' -> XR x x' ->
  Zlen pre = m /\ exists p1 p1' g1 y, forward_all pre x g = (p1, g1, Ok y) /\ forward_all pre' x' g = (p1', g1, Ok y) /\
    forall d, good d -> tdims d = dm -> exists p2 p2' gx gx', backward_all p1 d = (p2, Ok gx) /\ backward_all p1' d = (p2', Ok gx') /\ Zlen p2 = m /\ List.length p2' = List.length p2 /\
      (map params_dims p2 = map params_dims pre) /\ (dims_at D 0 pre -> ready 0 p2 p2') /\ forall q q', updated 0 p2 p2' q q' -> PR q q'.
Definition coupled (n n2 : net R G) : Prop := exists pre pre' rest, n_layers n = pre ++ rest /\ n_layers n2 = pre' ++ rest /\ PR pre pre' /\ n_loss n2 = n_loss n /\ n_rng n2 = n_rng n.
Lemma embed_fit_step : forall ds ds' (n n2 : net R G) lo o o2 (x x2 t : tensor R), trainable D ds ds' n lo o -> room o (Zlen (n_layers n)) -> good x -> tdims x = ds -> target_fits lo ds' t ->
  coupled n n2 -> n_opt n2 = Some o2 -> optim_ready D' o2 -> still o2 -> optim_held o o2 -> XR x x2 ->
  exists v n' n2' o' o2', fit_one_loss n x t v n' /\ fit_one_loss n2 x2 t v n2' /\ trainable D ds ds' n' lo o' /\ Zlen (n_layers n') = Zlen (n_layers n) /\ (forall k, 0 <= k -> room o (k + Zlen (n_layers n)) -> room o' k) /\
    coupled n' n2' /\ n_opt n2' = Some o2' /\ optim_ready D' o2' /\ still o2' /\ optim_held o' o2'.
Proof.
  intros ds ds' n n2 lo o o2 x x2 t HT HM Gx Ex Ht (pre & pre' & rest & N1 & N2 & HPR & NL & NR) NO RO2 SO2 OM RX.
  destruct (fit_step D ds ds' n lo o x t HT HM (counts_I M) Gx Ex Ht) as (k1 & p & d & k2 & n' & o' & E1 & E2 & E3 & E4 & F & HT' & PD & HK & _).
  destruct HT as (HA & HL & HOp & HD & HO). pose proof HA as HA0. rewrite N1 in HA0. destruct (stack_app_inv pre rest ds ds' HA0) as (dm & A1 & A2).
  destruct (HP pre pre' x x2 (n_rng n) ds dm A1 Gx Ex HPR RX) as (LP & p1 & p1' & g1 & y & P1 & P1' & HBk).
  destruct (stack_chain accepts eq accepts_step' pre ds dm x (n_rng n) A1 Gx Ex) as (u1 & u2 & u3 & U1 & Gy & Ey & _). rewrite P1 in U1. injection U1 as <- <- <-.
  destruct (stack_chain accepts eq accepts_step' rest dm ds' y g1 A2 Gy Ey) as (r1 & g2 & z & R1 & Gz & Ez & RB).
  unfold net_predict in E1. rewrite N1, forward_app in E1. rewrite P1, R1 in E1. injection E1 as <- <-.
  destruct (loss_total lo ds' z t (counts_I M) Gz Ez Ht) as ((c2 & EC2) & d0 & ED & Gd & Edd). rewrite E2 in ED. injection ED as <-.
  destruct (RB d Gd (eq_sym Edd)) as (r2 & gm & B1 & Ggm & Egm & _ & PL & AR). destruct (HBk gm Ggm (eq_sym Egm)) as (p2 & p2' & gx & gx' & Q1 & Q1' & L2 & LL & PD2 & HRD & HUP).
  pose proof (backward_app _ _ _ _ _ _ _ B1 Q1) as BB. pose proof (backward_app _ _ _ _ _ _ _ B1 Q1') as BB'.
  unfold net_backward in E3. cbn [n_layers] in E3. rewrite BB in E3. cbn [step] in E3. injection E3 as <-. unfold net_with in E4. cbn [n_loss n_opt n_rng] in E4.
  assert (RDY : ready 0 (p2 ++ r2) (p2' ++ r2)).
  { apply ready_app; [apply HRD; rewrite N1 in HD; clear - HD; revert HD; generalize 0; induction pre as [|l pre IH]; intros i HD; [exact I|]; cbn [app] in HD; destruct HD as (H1 & H2); split; [auto|apply IH; auto]|].
    rewrite L2. apply (shared_ready r2 m); auto; [lia|]. rewrite N1 in HD. apply dims_at_app in HD. rewrite LP in HD. eapply dims_at_same; [apply params_dims_of; exact PL|exact HD]. }
  assert (U : exists n2' o2', net_update (mkNet (p2' ++ r2) (n_loss n2) (n_opt n2) g2) = (n2', Ok tt) /\ coupled n' n2' /\ n_opt n2' = Some o2' /\ optim_ready D' o2' /\ still o2' /\ optim_held o' o2').
  { unfold net_update in *. cbn [n_layers n_opt n_loss n_rng] in *. rewrite HOp in E4. rewrite NO. destruct HT' as (_ & _ & HOp' & _ & HO').
    assert (CP : forall q q', updated 0 (p2 ++ r2) (p2' ++ r2) q q' -> exists q1 q1' qr, q = q1 ++ qr /\ q' = q1' ++ qr /\ PR q1 q1').
    { intros q q' HU. destruct (updated_app p2 p2' r2 r2 0 q q' ltac:(auto) HU) as (q1 & q1' & q2 & q2' & -> & -> & H1 & H2). rewrite L2 in H2. apply (shared_updated r2 m) in H2; [|auto|lia]. subst q2'. exists q1, q1', q2. auto. }
    destruct (p2 ++ r2) as [|l2 rr2] eqn:EL.
    - assert (RN2 : p2' ++ r2 = []) by (inversion RDY; congruence). injection E4 as <-. cbn [n_layers n_opt n_rng] in *. injection HOp' as <-. rewrite RN2. eexists. exists o2. split; [reflexivity|]. split; [|cbn [n_opt]; auto].
      destruct (CP [] []) as (q1 & q1' & qr & X1 & X2 & X3); [rewrite RN2; constructor|]. exists q1, q1', qr. cbn [n_layers n_loss n_rng]. auto.
    - destruct (update_all 0 (l2 :: rr2) o) as ((ls3 & o3) & r3) eqn:EU. injection E4 as <- ->. cbn [n_layers n_opt n_rng] in *. injection HOp' as ->.
      destruct (update_ready (l2 :: rr2) (p2' ++ r2) 0 o o2 ls3 o') as (ls4 & o4 & EU2 & K1 & K2 & K3 & K4); auto.
      destruct (p2' ++ r2) as [|l2' rr2'] eqn:EL'; [inversion RDY|]. rewrite EU2. do 2 eexists. split; [reflexivity|]. cbn [n_layers n_loss n_opt n_rng]. split; [|auto].
      destruct (CP ls3 ls4 K1) as (q1 & q1' & qr & X1 & X2 & X3). exists q1, q1', qr. cbn [n_layers n_loss n_rng]. auto. }
  destruct U as (n2' & o2' & EU & K1 & K2 & K3 & K4 & K5). exists (el c2 [0]), n', n2', o', o2'. split; [|split].
  { exists (mkNet (p1 ++ r1) (n_loss n) (n_opt n) g2), (mkNet (p2 ++ r2) (n_loss n) (n_opt n) g2), z, c2, d, lo. unfold net_predict. rewrite N1, forward_app, P1, R1. split; [reflexivity|]. do 4 (split; [auto|]). split; [|exact E4].
    unfold net_backward. cbn [n_layers]. rewrite BB. reflexivity. }
  { exists (mkNet (p1' ++ r1) (n_loss n2) (n_opt n2) g2), (mkNet (p2' ++ r2) (n_loss n2) (n_opt n2) g2), z, c2, d, lo. unfold net_predict. rewrite N2, NR, forward_app, P1', R1. split; [reflexivity|]. split; [congruence|]. do 3 (split; [auto|]). split; [|exact EU].
    unfold net_backward. cbn [n_layers]. rewrite BB'. reflexivity. }
  split; [exact HT'|]. split; [unfold Zlen; f_equal; rewrite <- (map_length params_dims (n_layers n')), PD, map_length; reflexivity|]. split; [exact HK|]. auto 10.
Qed.
Definition sample_pair (ds ds' : list Z) (lo : loss) (s s2 : tensor R * tensor R) : Prop :=
  good (fst s) /\ tdims (fst s) = ds /\ target_fits lo ds' (snd s) /\ XR (fst s) (fst s2) /\ snd s2 = snd s.
Lemma embed_losses : forall ds ds' lo samples samples2 (n n2 : net R G) o o2, Forall2 (sample_pair ds ds' lo) samples samples2 -> trainable D ds ds' n lo o -> room o (Zlen samples * Zlen (n_layers n)) ->
  coupled n n2 -> n_opt n2 = Some o2 -> optim_ready D' o2 -> still o2 -> optim_held o o2 ->
  exists vs n' n2' o' o2', fit_losses n samples vs n' /\ fit_losses n2 samples2 vs n2' /\ trainable D ds ds' n' lo o' /\ Zlen (n_layers n') = Zlen (n_layers n) /\ (forall k, 0 <= k -> room o (k + Zlen samples * Zlen (n_layers n)) -> room o' k) /\
    coupled n' n2' /\ n_opt n2' = Some o2' /\ optim_ready D' o2' /\ still o2' /\ optim_held o' o2'.
Proof.
  intros ds ds' lo samples samples2 n n2 o o2 HF. revert n n2 o o2. induction HF as [|(x & t) (x2 & t2) r r2 (Gx & Ex & Ht & RX & RT) HF IH]; intros n n2 o o2 HT HM RN NO RO SO OM.
  - exists [], n, n2, o, o2. split; [constructor|]. split; [constructor|]. split; [exact HT|]. split; [reflexivity|]. split; [intros k Hk H; eapply room_le; [|exact H]; change (Zlen (@nil (tensor R * tensor R))) with 0; lia|]. auto 10.
  - cbn [fst snd] in *. subst t2. rewrite Zlen_cons in *. pose proof (Zlen_nonneg r). pose proof (Zlen_nonneg (n_layers n)).
    destruct (embed_fit_step ds ds' n n2 lo o o2 x x2 t HT) as (v & n' & n2' & o' & o2' & F & F2 & HT' & LEN & HK & RN' & NO' & RO' & SO' & OM'); auto; [eapply room_le; [|exact HM]; nia|].
    destruct (IH n' n2' o' o2' HT') as (vs & k & k2 & o3 & o4 & K1 & K2 & K3 & K4 & K5 & K6); auto; [rewrite LEN; apply HK; [nia|]; eapply room_le; [|exact HM]; nia|]. exists (v :: vs), k, k2, o3, o4.
    split; [econstructor; eauto|]. split; [econstructor; eauto|]. split; [exact K3|]. split; [congruence|]. split; [|exact K6]. intros j Hj HJ. apply K5; auto. rewrite LEN. apply HK; [nia|]. eapply room_le; [|exact HJ]. nia.
Qed.
Lemma embed_epochs : forall ds ds' lo samples samples2, Forall2 (sample_pair ds ds' lo) samples samples2 -> forall e (n n2 : net R G) o o2, trainable D ds ds' n lo o -> room o (Z.of_nat e * Zlen samples * Zlen (n_layers n)) ->
  coupled n n2 -> n_opt n2 = Some o2 -> optim_ready D' o2 -> still o2 -> optim_held o o2 ->
  exists lss n' n2', fit_epochs samples n lss n' /\ fit_epochs samples2 n2 lss n2' /\ List.length lss = e /\ accepts_all ds (n_layers n') ds' /\ coupled n' n2'.
Proof.
  intros ds ds' lo samples samples2 HF. induction e as [|e IH]; intros n n2 o o2 HT HM RN NO RO SO OM.
  - exists [], n, n2. split; [constructor|]. split; [constructor|]. split; [reflexivity|]. split; [apply HT|auto].
  - pose proof (Zlen_nonneg samples). pose proof (Zlen_nonneg (n_layers n)). destruct (embed_losses ds ds' lo samples samples2 n n2 o o2 HF HT) as (vs & n' & n2' & o' & o2' & F & F2 & HT' & LEN & HK & RN' & NO' & RO' & SO' & OM'); auto; [eapply room_le; [|exact HM]; nia|].
    destruct (IH n' n2' o' o2' HT') as (lss & k & k2 & K1 & K2 & K3 & K4); auto; [rewrite LEN; apply HK; [nia|]; eapply room_le; [|exact HM]; nia|]. exists (vs :: lss), k, k2. split; [econstructor; eauto|]. split; [econstructor; eauto|]. split; [cbn [List.length]; congruence|exact K4].
Qed.
Theorem embed_train : forall (show : R -> string) ds ds' lo o (n n2 : net R G) xs xs2 ts e, accepts_all ds (n_layers n) ds' -> dims_at D 0 (n_layers n) -> n_loss n = Some lo -> n_opt n = Some o -> new_optim o ->
  ((exists k idx, K k idx) -> no_penalty o) ->
  0 < Zlen xs <= Zlen ts -> Zlen xs <= INT_MAX -> 0 <= e -> e * Zlen xs * Zlen (n_layers n) <= INT_MAX -> Forall (fun x => good x /\ tdims x = ds) xs -> Forall (target_fits lo ds') ts ->
  coupled n n2 -> n_opt n2 = n_opt n -> Forall2 XR xs xs2 ->
  exists n' n2' out, net_train_report show n xs ts e = ((n', out), Ok tt) /\ net_train_report show n2 xs2 ts e = ((n2', out), Ok tt) /\ accepts_all ds (n_layers n') ds' /\ coupled n' n2'.
Proof.
  intros show ds ds' lo o n n2 xs xs2 ts e HA HD HL HOp HN HNP (HX1 & HX2) HX3 HE HM HF1 HF2 RN NO RX.
  assert (LC : Zlen (combine xs ts) = Zlen xs) by (unfold Zlen in *; rewrite combine_length; lia).
  assert (LX : Zlen xs2 = Zlen xs) by (clear - RX; induction RX; rewrite ?Zlen_cons; congruence).
  assert (NL : n_loss n2 = n_loss n) by (destruct RN as (? & ? & ? & ? & ? & ? & ? & ?); auto).
  destruct (embed_epochs ds ds' lo (combine xs ts) (combine xs2 ts)) with (e := Z.to_nat e) (n := n) (n2 := n2) (o := o) (o2 := o) as (lss & n' & n2' & F & F2 & LE & A & P); auto; try congruence.
  - clear - HF1 HF2 RX. unfold sample_pair. revert ts HF2. induction RX as [|x x2 xs xs2 H RX IH]; intros ts HF2; [constructor|]. inversion HF1 as [|? ? (H1 & H2) HF1']; subst. destruct ts as [|t ts]; cbn [combine]; constructor; inversion HF2; subst; auto. cbn [fst snd]. auto.
  - split; [auto|]. split; [auto|]. split; [auto|]. split; [auto|apply new_ready; auto].
  - apply new_room; auto. rewrite LC, Z2Nat.id by lia. auto.
  - apply new_ready; auto.
  - apply new_still; auto.
  - apply new_held; auto.
  - exists n', n2', (report_from show 0 (map average lss)). split; [|split]; [| |auto]; apply train_report; try lia; try (apply counts_I; lia); exists lss; auto.
Qed.
Theorem embed_predict : forall ds ds' (n n2 : net R G) (x x2 : tensor R), accepts_all ds (n_layers n) ds' -> coupled n n2 -> good x -> tdims x = ds -> XR x x2 ->
  exists y, snd (net_predict n x) = Ok y /\ snd (net_predict n2 x2) = Ok y /\ tdims y = ds'.
Proof.
  intros ds ds' n n2 x x2 HA (pre & pre' & rest & N1 & N2 & HPR & NL & NR) Gx Ex RX. rewrite N1 in HA. destruct (stack_app_inv pre rest ds ds' HA) as (dm & A1 & A2).
  destruct (HP pre pre' x x2 (n_rng n) ds dm A1 Gx Ex HPR RX) as (LP & p1 & p1' & g1 & y & P1 & P1' & _).
  destruct (stack_chain accepts eq accepts_step' pre ds dm x (n_rng n) A1 Gx Ex) as (u1 & u2 & u3 & U1 & Gy & Ey & _). rewrite P1 in U1. injection U1 as <- <- <-.
  destruct (stack_chain accepts eq accepts_step' rest dm ds' y g1 A2 Gy Ey) as (r1 & g2 & z & R1 & Gz & Ez & _). exists z.
  unfold net_predict. rewrite N1, N2, NR, !forward_app, P1, P1', R1. auto.
Qed.
End Prefix.
End Pos.
End S.
