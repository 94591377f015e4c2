(** * Training a network that already fits its data (C118) *)
From Coq Require Import Reals Lra String.
From Verif Require Import Base Scalar ScalarR Types Spec SpecR SpecNN SpecLayers SpecOpt M_Shape M_Tensor M_Adv M_Act M_Loss M_Layers M_Reg M_Opt M_Net M_Text M_Log SpecNet SpecLog SpecRetry SpecFit
  L_Index L_Shape L_Bcast L_Tensor L_Nest L_Glue L_Matmul L_Adv L_Act L_ActR L_Loss L_Layers L_Conv L_Rows L_Pool L_Pool2 L_Drop L_BN L_Opt L_Net L_Net2 L_Train L_Log L_Retry L_Perm.
Local Open Scope Z_scope.

Section S.
Variable M : R.
Local Instance RI : Scalar R := RInf M.
Context {G : Type} {HR : Rng R G}.
Local Notation layer := (layer R).

(** ** Zero tensors *)
Definition zeros (d : tensor R) : Prop := forall k, znth 0%R (tdata d) k = 0%R.
Lemma zeros_el : forall d idx, zeros d -> el d idx = 0%R.
Proof. intros d idx H. apply H. Qed.
Lemma zeros_of : forall ds f, (forall idx, in_range ds idx -> f idx = 0%R) -> Forall (fun d => 0 < d) ds -> zeros (tensor_of ds f).
Proof.
  intros ds f H HF k. cbn [tensor_of tdata]. unfold ztab, znth.
  destruct (nth_in_or_default (Z.to_nat k) (map (fun x => f (unravel ds x)) (zrange 0 (prod ds))) 0%R) as [HI|HI]; [|exact HI].
  apply in_map_iff in HI. destruct HI as (j & <- & HJ). apply In_zrange in HJ. apply H. apply unravel_range; auto; lia.
Qed.
Lemma fold_zero : forall {A} (l : list A) (f : A -> R) s, s = 0%R -> (forall a, In a l -> f a = 0%R) -> fold_left s_add (map f l) s = 0%R.
Proof.
  intros A. induction l as [|a l IH]; intros f s Hs H; cbn [map fold_left]; [auto|]. apply IH; [|intros; apply H; right; auto]. rewrite Hs, H by (left; auto). change (0 + 0 = 0)%R. lra.
Qed.
Lemma sum_zero : forall {A} (l : list A) (f : A -> R), (forall a, In a l -> f a = 0%R) -> fsum (map f l) = 0%R.
Proof. intros A l f H. apply fold_zero; auto. Qed.
Lemma mul_zero_r : forall a : R, s_mul a 0%R = 0%R. Proof. intros a. change (a * 0 = 0)%R. lra. Qed.
Lemma mul_zero_l : forall a : R, s_mul 0%R a = 0%R. Proof. intros a. change (0 * a = 0)%R. lra. Qed.
Definition zero_grads (l : layer) : Prop := match layer_grads l with Some (gw, gb) => zeros gw /\ zeros gb | None => True end.

(** ** The backward pass of a zero gradient *)
Lemma act_zero : forall a (x d gx : tensor R), good x -> good d -> tdims d = tdims x -> (a = Softmax -> (2 <= length (tdims x))%nat) -> zeros d -> act_bwd a x d = Ok gx -> zeros gx.
Proof.
  intros a x d gx Gx Gd E HS HZ H. assert (D : a = Softmax \/ a <> Softmax) by (destruct a; auto; right; discriminate). destruct D as [->|D].
  - specialize (HS eq_refl). destruct (tdims x) as [|b ds] eqn:Ex; [cbn in HS; lia|]. assert (ds <> []) by (destruct ds; [cbn in HS; lia|discriminate]).
    destruct (softmax_bwd_flat x d b ds) as (y & E1 & E2); auto; [rewrite E; auto|rewrite E, Ex; lia|]. cbn [act_bwd] in H. rewrite E2 in H. injection H as <-. intros k. cbn [tdata]. unfold ztab, znth.
    match goal with |- nth _ (map ?f ?l) _ = _ => destruct (nth_in_or_default (Z.to_nat k) (map f l) 0%R) as [HI|HI]; [|exact HI]; apply in_map_iff in HI; destruct HI as (j & <- & _) end.
    cbv zeta. unfold sm_back. generalize (zrange 0 (prod ds)). intros l. assert (G0 : forall s, s = 0%R -> fold_left (fun acc j0 => if j - j / prod ds * prod ds =? j0 then s_add acc (s_mul (s_mul (znth zero (tdata y) (j / prod ds * prod ds + (j - j / prod ds * prod ds))) (s_sub one (znth zero (tdata y) (j / prod ds * prod ds + j0)))) (znth zero (tdata d) (j / prod ds * prod ds + j0))) else s_sub acc (s_mul (s_mul (znth zero (tdata y) (j / prod ds * prod ds + (j - j / prod ds * prod ds))) (znth zero (tdata y) (j / prod ds * prod ds + j0))) (znth zero (tdata d) (j / prod ds * prod ds + j0)))) l s = 0%R).
    { induction l as [|i l IH]; intros s Hs; cbn [fold_left]; [auto|]. apply IH. change (@zero R RI) with 0%R. rewrite HZ, !mul_zero_r, Hs. destruct (_ =? _); [change (0 + 0 = 0)%R|change (0 - 0 = 0)%R]; lra. }
    apply G0. reflexivity.
  - rewrite act_bwd_el in H by auto. injection H as <-. apply zeros_of; [|apply pos_forall, good_pos; auto]. intros idx _. rewrite (zeros_el d idx HZ). destruct a; cbn [act_del]; try congruence; try apply mul_zero_r; try apply mul_zero_l.
    destruct (s_le zero (el x idx)); [reflexivity|apply mul_zero_r].
Qed.
Lemma zero_step : forall ds (l l1 l2 : layer) ds' (x y d gx : tensor R) (g g' : G), accepts ds l ds' -> layer_mode l = None -> good x -> tdims x = ds -> layer_forward l x g = (l1, g', Ok y) ->
  good d -> tdims d = ds' -> zeros d -> layer_backward l1 d = (l2, Ok gx) -> zeros gx /\ zero_grads l2.
Proof.
  intros ds l l1 l2 ds' x y d gx g g' HA HMo Hg Ex EF Hd Ed HZ EB. destruct HA as [n k o l W1 W2 W3 W4 HM|ds l HS|b c ds l HN|n h w l W1 W2 W3 W4 H1 H2 HM|n c h w l H1 H2 H3 H4 H5|ds l HT]; cbn [layer_forward] in EF.
  - assert (HW : fc_wf l k o) by (split; auto). rewrite (fc_forward_2 l k o x n HW Hg Ex HM) in EF. unfold lift in EF; cbn [fst snd] in EF. injection EF as <- <- _. cbn [layer_backward] in EB.
    rewrite (fc_backward_rows _ k o n x d x d) in EB; auto; [|unfold as_row, rank; fold (tdims x); rewrite Ex; reflexivity|unfold as_row, rank; fold (tdims d); rewrite Ed; reflexivity].
    unfold lift in EB; cbn [fst snd] in EB. injection EB as <- <-. destruct (dims2_pos x n k Hg Ex) as (Hn & Hk & _). destruct (dims2_pos _ k o W1 W2) as (_ & Ho & _).
    unfold zero_grads. cbn [layer_grads fc_gw fc_gb]. split; [|split]; apply zeros_of; try (repeat constructor; lia); intros idx _; unfold fn2, fc_dx, fc_dw, fc_db, sum_to; apply sum_zero; intros a _; rewrite (zeros_el d) by auto; auto using mul_zero_l, mul_zero_r.
  - unfold act_forward in EF. subst ds. unfold lift in EF. cbn [fst snd] in EF. injection EF as <- <- _. cbn [layer_backward] in EB. unfold act_backward in EB. cbn [al_in al_act] in EB.
    destruct (act_bwd (al_act l) x d) as [z| | | |] eqn:E1; cbn in EB; try discriminate EB. injection EB as <- <-. split; [eapply act_zero; [exact Hg|exact Hd|exact Ed|exact HS|exact HZ|exact E1]|exact I].
  - destruct (flatten_roundtrip l x b c ds Hg Ex HN) as (l' & y' & E1 & E2 & E3 & _ & E4). rewrite E1 in EF. unfold lift in EF; cbn [fst snd] in EF. injection EF as <- <- <-.
    destruct (E4 d Hd ltac:(congruence)) as (z & Z1 & Z2 & Z3 & Z4). cbn [layer_backward] in EB. rewrite Z1 in EB. cbn in EB. injection EB as <- <-. split; [|exact I]. intros k. rewrite Z4. apply HZ.
  - assert (HW : conv_wf l) by (split; auto). rewrite (conv_forward_ok l x n h w HW Hg Ex H1 H2 HM) in EF. unfold lift in EF; cbn [fst snd] in EF. injection EF as <- <- _. cbn [layer_backward] in EB.
    rewrite (conv_backward_ok (conv_saw l x) x d n n h w (h - cv_kh l + 1) (w - cv_kw l + 1)) in EB; auto. unfold lift in EB. cbn [fst snd conv_saw cv_w cv_b cv_in cv_ic cv_oc cv_kh cv_kw cv_stride cv_pad cv_dil] in EB. injection EB as <- <-.
    assert (FX : Forall (fun d => 0 < d) [n; cv_ic l; h; w]) by (rewrite <- Ex; apply pos_forall, good_pos; auto). assert (FW : Forall (fun d => 0 < d) [cv_oc l; cv_ic l; cv_kh l; cv_kw l]) by (rewrite <- W2; apply pos_forall, good_pos; auto).
    assert (FB : Forall (fun d => 0 < d) [cv_oc l; 1]) by (rewrite <- W4; apply pos_forall, good_pos; auto).
    unfold zero_grads. cbn [layer_grads cv_gw cv_gb]. split; [|split]; apply zeros_of; auto; intros idx _.
    + unfold cgx. apply fold_zero; [reflexivity|]. intros a _. unfold fn4. rewrite (zeros_el d) by auto. apply mul_zero_r.
    + unfold cgw. repeat match goal with |- match ?i with _ => _ end = _ => destruct i; try reflexivity end. apply sum_zero. intros a _. unfold fn2. rewrite (zeros_el d) by auto. apply mul_zero_r.
    + unfold cgb. destruct (idx_eqb idx [0; 0]); [|reflexivity]. apply sum_zero. intros a _. unfold fn2. apply zeros_el; auto.
  - pose proof (pool_forward_any l x n c h w Hg Ex H1 H2 H3 H4 H5) as E1. rewrite E1 in EF. unfold lift in EF; cbn [fst snd] in EF. injection EF as <- <- _. cbn [layer_backward] in EB.
    rewrite (pool_backward_any l x n c h w Hg Ex H1 H2 H3 H4 H5) in EB; auto. cbn in EB. injection EB as <- <-. split; [|exact I]. apply zeros_of; [|apply pos_forall, good_pos; auto]. intros p _. apply fold_zero; [reflexivity|]. intros a _. apply zeros_el; auto.
  - discriminate HMo.
Qed.
Lemma zero_back : forall (ls : list layer) ds ds' (x y d gx : tensor R) (g g' : G) ls1 ls2, accepts_all ds ls ds' -> Forall (fun l => layer_mode l = None) ls -> good x -> tdims x = ds ->
  forward_all ls x g = (ls1, g', Ok y) -> good d -> tdims d = ds' -> zeros d -> backward_all ls1 d = (ls2, Ok gx) -> zeros gx /\ Forall zero_grads ls2.
Proof.
  induction ls as [|l ls IH]; intros ds ds' x y d gx g g' ls1 ls2 HA HF Hg Ex EF Hd Ed HZ EB.
  - cbn in EF. injection EF as <- <- <-. cbn in EB. injection EB as <- <-. split; [auto|constructor].
  - inversion HA as [|? ? dm ? ? H1 H2]; subst. inversion HF as [|? ? F1 F2]; subst. cbn [forward_all] in EF. destruct (accepts_step _ l dm x g H1 Hg eq_refl) as (l1 & g1 & z & E1 & Gz & Ez & B1). rewrite E1 in EF.
    destruct (stack_chain accepts eq accepts_step' ls dm (tdims d) z g1 H2 Gz Ez) as (ks1 & g2 & q & E2 & _ & _ & B2). rewrite E2 in EF. injection EF as <- <- <-. cbn [backward_all] in EB.
    destruct (B2 d Hd eq_refl) as (ks2 & gm & E3 & Gm & Em & _). rewrite E3 in EB. destruct (IH dm (tdims d) z q d gm g1 g2 ks1 ks2 H2 F2 Gz Ez E2 Hd eq_refl HZ E3) as (Zm & HK).
    destruct (B1 gm Gm (eq_sym Em)) as (l2 & gx' & E4 & _). rewrite E4 in EB. injection EB as <- <-. destruct (zero_step _ l l1 l2 dm x z gm gx' g g1 H1 F1 Hg eq_refl E1 Gm (eq_sym Em) Zm E4) as (Zx & HL). auto.
Qed.

(** ** Updates with zero gradients *)
Definition quiet (D : Z -> list Z) (o : optim R) : Prop :=
  match o with
  | OSGD s => sg_wd s = 0%R /\ forall k idx, in_range (D k) idx -> buf_el (sg_buf s) k idx = 0%R
  | ORMS s => rp_wd s = 0%R /\ forall k idx, in_range (D k) idx -> rms_aux s k idx = (0, 0, 0)%R
  | OAdam s => ad_l1 s = 0%R /\ ad_l2 s = 0%R /\ forall k idx, in_range (D k) idx -> buf_el (ad_m s) k idx = 0%R /\ buf_el (ad_v s) k idx = 0%R
  end.
Lemma new_quiet : forall D o, no_penalty o -> quiet D o.
Proof. intros D o H. destruct H; cbn; auto. Qed.
Lemma Reqb_refl : forall a, Reqb a a = true.
Proof. intros a. unfold Reqb. destruct (Req_EM_T a a); congruence. Qed.
Lemma Rltb_irrefl : forall a, Rltb a a = false.
Proof. intros a. unfold Rltb. destruct (Rlt_dec a a); [lra|reflexivity]. Qed.
Lemma sgd_zero : forall mom damp nest lr w, sgd_rule mom damp 0%R nest lr 0%R (w, 0%R) = (w, 0%R).
Proof.
  intros. unfold sgd_rule. change (@s_eq R RI) with Reqb. change (@zero R RI) with 0%R. rewrite Reqb_refl. change (@s_sub R RI) with Rminus. change (@s_add R RI) with Rplus. change (@s_mul R RI) with Rmult.
  destruct (Reqb mom zero); [f_equal; ring|]. destruct nest; f_equal; ring.
Qed.
Lemma rms_zero : forall al eps mom cent lr w, rms_rule al eps mom cent 0%R lr 0%R (w, 0%R, 0%R, 0%R) = (w, 0%R, 0%R, 0%R).
Proof.
  intros. unfold rms_rule. change (@s_eq R RI) with Reqb. change (@zero R RI) with 0%R. rewrite Reqb_refl. change (@s_sub R RI) with Rminus. change (@s_add R RI) with Rplus. change (@s_mul R RI) with Rmult. change (@s_div R RI) with Rdiv. unfold Rdiv.
  destruct cent, (s_lt zero mom); repeat match goal with |- (_, _) = (_, _) => apply (f_equal2 pair) end; ring.
Qed.
Lemma adam_zero : forall (o : adam R) al w, ad_l1 o = 0%R -> ad_l2 o = 0%R -> adam_param o al w 0%R 0%R 0%R = (w, 0%R, 0%R).
Proof.
  intros o al w E1 E2. unfold adam_param. rewrite E1, E2. change (@s_lt R RI) with Rltb. change (@zero R RI) with 0%R. rewrite Rltb_irrefl. change (@s_sub R RI) with Rminus. change (@s_add R RI) with Rplus. change (@s_mul R RI) with Rmult. change (@s_div R RI) with Rdiv.
  change (@s_corr R RI) with (fun x b n => (x / (1 - powerRZ b n))%R). cbv beta. unfold Rdiv. repeat match goal with |- (_, _) = (_, _) => apply (f_equal2 pair) end; ring.
Qed.
Lemma same_tensor : forall (a b : tensor R), good a -> good b -> tdims a = tdims b -> (forall idx, in_range (tdims a) idx -> el a idx = el b idx) -> a = b.
Proof. intros. apply tensor_ext; auto. Qed.
Lemma pair_zero : forall D (o : optim R) i (w b gw gb : tensor R), optim_ready D o -> quiet D o -> room o 1 ->
  good w -> tdims w = D (2 * i) -> good b -> tdims b = D (2 * i + 1) -> good gw -> tdims gw = tdims w -> good gb -> tdims gb = tdims b -> zeros gw -> zeros gb ->
  exists o', pair_optimize o i w b gw gb = (o', w, b, Ok tt) /\ quiet D o'.
Proof.
  intros D o i w b gw gb HO HQ HM Gw Ew Gb Eb Ggw Egw Ggb Egb Zw Zb. unfold pair_optimize.
  assert (F1 : pair_store i w b (2 * i) = w) by (unfold pair_store; rewrite Z.eqb_refl; reflexivity).
  assert (F2 : forall w', put (pair_store i w b) (2 * i) w' (2 * i + 1) = b) by (intros w'; rewrite put_neq by lia; unfold pair_store; destruct (Z.eqb_spec (2 * i + 1) (2 * i)); [lia|reflexivity]).
  assert (F3 : forall w' b', put (put (pair_store i w b) (2 * i) w') (2 * i + 1) b' (2 * i) = w') by (intros w' b'; rewrite put_neq by lia; apply put_eq).
  assert (F4 : forall w' b', put (put (pair_store i w b) (2 * i) w') (2 * i + 1) b' (2 * i + 1) = b') by (intros w' b'; apply put_eq).
  destruct o as [s|s|s]; cbn [optim_optimize optim_ready quiet] in *.
  - destruct HQ as (Q1 & Q2). unfold sgd_optimize. change (Zlen [2 * i; 2 * i + 1] =? Zlen [gw; gb]) with true. cbn [negb combine opt_loop]. rewrite F1.
    destruct (sgd_update_ok D s (2 * i) w gw (sgd_rate s (s_z (-1))) HO Gw Ew Ggw ltac:(congruence)) as (m & w' & E1 & Gm & Em & Gw' & Ew' & V1). rewrite E1.
    assert (V1' : forall idx, in_range (D (2 * i)) idx -> el w' idx = el w idx /\ el m idx = 0%R) by (intros idx HI; specialize (V1 idx HI); rewrite (zeros_el gw), Q1, Q2, sgd_zero in V1 by auto; injection V1 as V1 V1'; auto).
    assert (W : w' = w) by (apply same_tensor; auto; [congruence|]; rewrite Ew'; intros idx HI; apply V1'; auto). subst w'.
    rewrite F2. set (s1 := mkSGD _ _ _ _ _ _).
    assert (HB : bufs_ok D (sg_buf s1)) by (apply bufs_ok_put; auto).
    assert (Q2' : forall k idx, in_range (D k) idx -> buf_el (sg_buf s1) k idx = 0%R) by (intros k idx HI; cbn [s1 sg_buf]; rewrite buf_el_put; destruct (Z.eqb_spec k (2 * i)) as [->|]; [apply V1'; auto|auto]).
    destruct (sgd_update_ok D s1 (2 * i + 1) b gb (sgd_rate s (s_z (-1))) HB Gb Eb Ggb ltac:(congruence)) as (m2 & b' & E2 & Gm2 & Em2 & Gb' & Eb' & V2). rewrite E2.
    assert (V2' : forall idx, in_range (D (2 * i + 1)) idx -> el b' idx = el b idx /\ el m2 idx = 0%R) by (intros idx HI; specialize (V2 idx HI); rewrite (zeros_el gb), Q2' in V2 by auto; cbn [s1 sg_wd] in V2; rewrite Q1, sgd_zero in V2; injection V2 as V2 V2'; auto).
    assert (B : b' = b) by (apply same_tensor; auto; [congruence|]; rewrite Eb'; intros idx HI; apply V2'; auto). subst b'.
    eexists. split; [rewrite F3, F4; reflexivity|]. cbn [quiet s1 sg_wd sg_buf]. split; [auto|]. intros k idx HI. rewrite buf_el_put. destruct (Z.eqb_spec k (2 * i + 1)) as [->|]; [apply V2'; auto|apply Q2'; auto].
  - destruct HQ as (Q1 & Q2). unfold rms_optimize. change (Zlen [2 * i; 2 * i + 1] =? Zlen [gw; gb]) with true. cbn [negb combine opt_loop]. rewrite F1.
    destruct (rms_update_ok D s (2 * i) w gw (rms_rate s (s_z (-1))) HO Gw Ew Ggw ltac:(congruence)) as (s1 & w' & E1 & HB & P1 & P2 & P3 & P4 & P5 & P6 & Gw' & Ew' & V1 & K1). rewrite E1.
    assert (V1' : forall idx, in_range (D (2 * i)) idx -> el w' idx = el w idx /\ rms_aux s1 (2 * i) idx = (0, 0, 0)%R).
    { intros idx HI. specialize (V1 idx HI). rewrite (Q2 _ _ HI) in V1. destruct (rms_aux s1 (2 * i) idx) as ((sa & ma) & va). rewrite (zeros_el gw), Q1, rms_zero in V1 by auto. injection V1 as -> -> -> ->. auto. }
    assert (W : w' = w) by (apply same_tensor; auto; [congruence|]; rewrite Ew'; intros idx HI; apply V1'; auto). subst w'.
    assert (Q2' : forall k idx, in_range (D k) idx -> rms_aux s1 k idx = (0, 0, 0)%R) by (intros k idx HI; destruct (Z.eq_dec k (2 * i)) as [->|N]; [apply V1'; auto|rewrite K1 by auto; auto]).
    rewrite F2.
    destruct (rms_update_ok D s1 (2 * i + 1) b gb (rms_rate s (s_z (-1))) HB Gb Eb Ggb ltac:(congruence)) as (s2 & b' & E2 & HB2 & R1 & R2 & R3 & R4 & R5 & R6 & Gb' & Eb' & V2 & K2). rewrite E2.
    assert (V2' : forall idx, in_range (D (2 * i + 1)) idx -> el b' idx = el b idx /\ rms_aux s2 (2 * i + 1) idx = (0, 0, 0)%R).
    { intros idx HI. specialize (V2 idx HI). rewrite (Q2' _ _ HI) in V2. destruct (rms_aux s2 (2 * i + 1) idx) as ((sa & ma) & va). rewrite (zeros_el gb), P6, Q1, rms_zero in V2 by auto. injection V2 as -> -> -> ->. auto. }
    assert (B : b' = b) by (apply same_tensor; auto; [congruence|]; rewrite Eb'; intros idx HI; apply V2'; auto). subst b'.
    eexists. split; [rewrite F3, F4; reflexivity|]. cbn [quiet]. split; [congruence|]. intros k idx HI. destruct (Z.eq_dec k (2 * i + 1)) as [->|N]; [apply V2'; auto|rewrite K2 by auto; auto].
  - destruct HQ as (Q1 & Q2 & Q3). unfold adam_optimize. change (Zlen [2 * i; 2 * i + 1] =? Zlen [gw; gb]) with true. cbn [negb combine]. cbn [room] in HM. destruct HM as (M1 & M2). unfold adam_rate. rewrite chk32_ok by (unfold INT_MIN; lia). cbn [bind].
    set (s0 := mkAdam _ _ _ _ _ _ _ _ _ _ _ _). cbn [opt_loop]. rewrite F1. assert (HO0 : adam_ok D s0) by exact HO.
    destruct (adam_update_ok D s0 (2 * i) w gw tt HO0 Gw Ew Ggw ltac:(congruence)) as (m & v & w' & E1 & HB & Gw' & Ew' & V1). rewrite E1.
    assert (V1' : forall idx, in_range (D (2 * i)) idx -> el w' idx = el w idx /\ el m idx = 0%R /\ el v idx = 0%R).
    { intros idx HI. specialize (V1 idx HI). destruct (Q3 _ _ HI) as (A1 & A2). change (ad_m s0) with (ad_m s) in V1. change (ad_v s0) with (ad_v s) in V1. rewrite (zeros_el gw), A1, A2, adam_zero in V1 by auto. injection V1 as -> -> ->. auto. }
    assert (W : w' = w) by (apply same_tensor; auto; [congruence|]; rewrite Ew'; intros idx HI; apply V1'; auto). subst w'.
    rewrite F2. set (s1 := adam_with s0 (2 * i) m v) in *.
    assert (Q3' : forall k idx, in_range (D k) idx -> buf_el (ad_m s1) k idx = 0%R /\ buf_el (ad_v s1) k idx = 0%R).
    { intros k idx HI. cbn [s1 s0 adam_with ad_m ad_v]. rewrite !buf_el_put. destruct (Z.eqb_spec k (2 * i)) as [->|]; [apply V1'; auto|auto]. }
    destruct (adam_update_ok D s1 (2 * i + 1) b gb tt HB Gb Eb Ggb ltac:(congruence)) as (m2 & v2 & b' & E2 & HB2 & Gb' & Eb' & V2). rewrite E2.
    assert (V2' : forall idx, in_range (D (2 * i + 1)) idx -> el b' idx = el b idx /\ el m2 idx = 0%R /\ el v2 idx = 0%R).
    { intros idx HI. specialize (V2 idx HI). destruct (Q3' _ _ HI) as (A1 & A2). rewrite (zeros_el gb), A1, A2, adam_zero in V2 by auto. injection V2 as -> -> ->. auto. }
    assert (B : b' = b) by (apply same_tensor; auto; [congruence|]; rewrite Eb'; intros idx HI; apply V2'; auto). subst b'.
    eexists. split; [rewrite F3, F4; reflexivity|]. cbn [quiet]. split; [auto|]. split; [auto|]. intros k idx HI. cbn [adam_with ad_m ad_v]. rewrite !buf_el_put. destruct (Z.eqb_spec k (2 * i + 1)) as [->|]; [apply V2'; auto|apply Q3'; auto].
Qed.
Lemma layer_zero : forall D i (l : layer) (o : optim R), armed l -> zero_grads l -> dims_at D i [l] -> optim_ready D o -> quiet D o -> room o 1 ->
  exists o', layer_update i l o = (l, o', Ok tt) /\ quiet D o'.
Proof.
  intros D i l o HR0 HZ (HD & _) HO HQ HM. unfold armed in HR0. unfold zero_grads in HZ. destruct (layer_params l) as [(w & b)|] eqn:EP.
  - destruct HR0 as (Gw & Gb & gw & gb & EG & Ggw & Egw & Ggb & Egb). destruct HD as (D1 & D2). rewrite EG in HZ. destruct HZ as (Z1 & Z2).
    destruct (pair_zero D o i w b gw gb HO HQ HM) as (o' & E & HQ'); auto. exists o'. split; [|auto].
    destruct l as [l|l|l|l|l|l|l]; cbn [layer_params] in EP; try discriminate; injection EP as <- <-; cbn [layer_grads] in EG; cbn [layer_update].
    + destruct (fc_gw l) as [gw'|] eqn:E1, (fc_gb l) as [gb'|] eqn:E2; try discriminate. injection EG as -> ->. rewrite E. rewrite <- E1, <- E2. destruct l; reflexivity.
    + destruct (cv_gw l) as [gw'|] eqn:E1, (cv_gb l) as [gb'|] eqn:E2; try discriminate. injection EG as -> ->. rewrite E. rewrite <- E1, <- E2. destruct l; reflexivity.
    + destruct (bn_ggamma l) as [gw'|] eqn:E1, (bn_gbeta l) as [gb'|] eqn:E2; try discriminate. injection EG as -> ->. rewrite E. rewrite <- E1, <- E2. destruct l; reflexivity.
  - exists o. split; [destruct l; cbn [layer_params] in EP; try discriminate; reflexivity|auto].
Qed.
Lemma update_zero : forall D ds' (ls : list layer) i (o : optim R) ds, accepts_all ds ls ds' -> Forall armed ls -> Forall zero_grads ls -> dims_at D i ls -> optim_ready D o -> quiet D o -> room o (Zlen ls) ->
  exists o', update_all i ls o = (ls, o', Ok tt) /\ quiet D o'.
Proof.
  intros D ds'. induction ls as [|l ls IH]; intros i o ds HA HF HZ HD HO HQ HM; [exists o; auto|].
  inversion HA as [|? ? dm ? ? H1 H2]; subst. inversion HF as [|? ? F1 F2]; subst. inversion HZ as [|? ? Z1 Z2]; subst. destruct HD as (D1 & D2). rewrite Zlen_cons in HM. pose proof (Zlen_nonneg ls).
  assert (HM1 : room o 1) by (eapply room_le; [|exact HM]; lia).
  destruct (layer_zero D i l o F1 Z1 (conj D1 I) HO HQ HM1) as (o1 & E1 & Q1).
  destruct (layer_update_ok accepts accepts_with D i l o ds dm H1 F1 (conj D1 I) HO HM1) as (l' & o1' & E1' & O1 & _ & _ & K1 & _). rewrite E1 in E1'. injection E1' as <- <-.
  destruct (IH (i + 1) o1 dm H2 F2 Z2 D2 O1 Q1) as (o2 & E2 & Q2); [apply K1; [lia|]; eapply room_le; [|exact HM]; lia|].
  exists o2. cbn [update_all]. rewrite E1, E2. auto.
Qed.

(** ** The loss at its target *)
Lemma in_shape_id : forall (t : tensor R) idx, good t -> el (in_shape (tdims t) t) idx = el t idx.
Proof. intros t idx G0. rewrite in_shape_same by auto. reflexivity. Qed.
Lemma counts_I : counts_nonzero (T := R).
Proof. intros n Hn. apply IZR_pos_neq. lia. Qed.
Lemma rest_target : forall lo t, good t -> at_rest lo t -> target_fits lo (tdims t) t.
Proof.
  intros lo t Gt H. split; [auto|]. destruct lo; [left; reflexivity|]. destruct H as (H & _). destruct (tdims t) as [|b [|c [|? ?]]] eqn:E; try discriminate H. exists b, c. auto.
Qed.
Lemma rest_gradient : forall lo t d, good t -> at_rest lo t -> loss_gradient lo t t = Ok d -> zeros d.
Proof.
  intros lo t d Gt HR0 E. pose proof (pos_forall _ (good_pos t Gt)) as HF. pose proof (good_prod_pos t Gt) as HP. pose proof (good_max t Gt) as HX. destruct lo; cbn [loss_gradient] in E.
  - rewrite mse_gradient_ok in E; [|auto|auto|left; reflexivity|apply counts_I; lia]. injection E as <-. apply zeros_of; [|auto]. intros idx HI. rewrite in_shape_id by auto. change ((el t idx - el t idx) * 2 / IZR (prod (tdims t)) = 0)%R. unfold Rdiv. ring.
  - destruct HR0 as (HL & HV). destruct (tdims t) as [|b [|c [|? ?]]] eqn:ET; try discriminate HL. destruct (dims2_pos t b c Gt ET) as (Hb & Hc & HM).
    rewrite (cce_gradient_ok t t b c) in E; [|auto|auto|auto|auto|apply IZR_pos_neq; auto]. injection E as <-. apply zeros_of; [|auto]. intros idx HI.
    pose proof (cce_clamp_R (el t idx)) as C. rewrite clampR_id in C by (unfold epsR; apply HV; auto). change ((@cce_clamp R RScalar (el t idx) - el t idx) / IZR b = 0)%R. rewrite C. unfold Rdiv. ring.
Qed.
Lemma rest_mse : forall (t : tensor R) c, good t -> mse_compute t t = Ok c -> el c [0] = 0%R.
Proof.
  intros t c Gt E. rewrite mse_compute_ok in E; [|auto|auto|left; reflexivity|apply IZR_pos_neq, good_prod_pos; auto]. injection E as <-. rewrite el_tensor_of by (repeat constructor; lia).
  rewrite sum_zero; [|intros idx _; unfold sqdiff; rewrite in_shape_id by auto; change ((el t idx - el t idx) * (el t idx - el t idx) = 0)%R; ring]. change (0 / IZR (prod (tdims t)) = 0)%R. unfold Rdiv. ring.
Qed.

(** ** Predictions depend on what training at rest keeps *)
Lemma bare_forward : forall (l k : layer) x (g : G), bare l = bare k -> layer_mode l = None -> snd (layer_forward l x g) = snd (layer_forward k x g) /\ snd (fst (layer_forward l x g)) = snd (fst (layer_forward k x g)).
Proof.
  intros l1 l2 x g E HM. destruct l1 as [l|l|l|l|l|l|l], l2 as [m|m|m|m|m|m|m]; try discriminate E; try discriminate HM; unfold bare in E; cbn [without_grads without_input] in E.
  - injection E as E1 E2. cbn in E1, E2. cbn [layer_forward lift snd fst fc_forward]. rewrite E1, E2. auto.
  - apply layer_forward_same. exact E.
  - apply layer_forward_same. exact E.
  - destruct l, m. cbn in E. injection E as E1 E2 E3 E4 E5 E6 E7 E8 E9. subst. cbn [layer_forward lift snd fst]. split; [|reflexivity]. unfold conv_forward. cbn. destruct (negb _); [reflexivity|].
    unfold step. destruct (rd _ _); try reflexivity. destruct (negb _); reflexivity.
  - apply layer_forward_same. exact E.
Qed.
Lemma bare_all : forall (a b : list layer) x (g : G), map bare a = map bare b -> Forall (fun l => layer_mode l = None) a -> snd (forward_all a x g) = snd (forward_all b x g).
Proof.
  induction a as [|l a IH]; intros [|k b] x g E HF; try discriminate; [reflexivity|]. cbn [map] in E. assert (E1 : bare l = bare k) by congruence. assert (E2 : map bare a = map bare b) by congruence. inversion HF as [|? ? F1 F2]; subst. cbn [forward_all].
  destruct (bare_forward l k x g E1 F1) as (H1 & H2). destruct (layer_forward l x g) as ((a' & g1) & o1), (layer_forward k x g) as ((b' & g2) & o2). cbn [fst snd] in *. subst.
  destruct o2 as [y| | | |]; try reflexivity. specialize (IH b y g2 E2 F2). destruct (forward_all a y g2) as ((? & ?) & ?), (forward_all b y g2) as ((? & ?) & ?). cbn in *. auto.
Qed.
Lemma bare_mode : forall (a b : list layer), map bare a = map bare b -> Forall (fun l => layer_mode l = None) b -> Forall (fun l => layer_mode l = None) a.
Proof.
  induction a as [|l a IH]; intros [|k b] E HF; try discriminate; [constructor|]. cbn [map] in E. assert (E1 : bare l = bare k) by congruence. assert (E2 : map bare a = map bare b) by congruence. inversion HF as [|? ? F1 F2]; subst. constructor; [|eauto].
  destruct l, k; try discriminate E1; try discriminate F1; reflexivity.
Qed.
Lemma bare_params : forall a b : list layer, map bare a = map bare b -> map layer_params a = map layer_params b.
Proof.
  induction a as [|l a IH]; intros [|k b] E; try discriminate; [reflexivity|]. cbn [map] in *. assert (E1 : bare l = bare k) by congruence. assert (E2 : map bare a = map bare b) by congruence. f_equal; [|auto].
  destruct l, k; try discriminate E1; unfold bare in E1; cbn in E1 |- *; congruence.
Qed.

(** ** Training *)
Section H.
Variables (D : Z -> list Z) (ds ds' : list Z) (lo : loss) (n0 : net R G).
Hypothesis HMo : Forall (fun l => layer_mode l = None) (n_layers n0).
Definition resting (n : net R G) (o : optim R) : Prop :=
  trainable D ds ds' n lo o /\ quiet D o /\ map bare (n_layers n) = map bare (n_layers n0) /\ n_rng n = n_rng n0.
Definition settled (s : tensor R * tensor R) : Prop := good (fst s) /\ tdims (fst s) = ds /\ snd (net_predict n0 (fst s)) = Ok (snd s) /\ at_rest lo (snd s).
Lemma resting_predict : forall n o x, resting n o -> snd (net_predict n x) = snd (net_predict n0 x).
Proof.
  intros n o x (_ & _ & HB & HG). unfold net_predict. rewrite HG. pose proof (bare_all _ _ x (n_rng n0) HB (bare_mode _ _ HB HMo)) as H.
  destruct (forward_all (n_layers n) x (n_rng n0)) as ((? & ?) & ?), (forward_all (n_layers n0) x (n_rng n0)) as ((? & ?) & ?). exact H.
Qed.
Lemma resting_step : forall n o x t, resting n o -> n_loss n0 = Some lo -> settled (x, t) -> room o (Zlen (n_layers n)) ->
  exists v n' o', fit_one_loss n x t v n' /\ loss_of n0 x t v /\ (lo = MSE -> v = 0%R) /\ resting n' o' /\ Zlen (n_layers n') = Zlen (n_layers n) /\
    forall k, 0 <= k -> room o (k + Zlen (n_layers n)) -> room o' k.
Proof.
  intros n o x t HRest HL0 (Gx & Ex & EP0 & HT) HM. cbn [fst snd] in *. pose proof (resting_predict n o x HRest) as EP. rewrite EP0 in EP. pose proof HRest as (HTr & HQ & HB & HG). pose proof HTr as (HA & HL & HOp & HD & HO).
  pose proof (bare_mode _ _ HB HMo) as HMn.
  destruct (stack_chain accepts eq accepts_step' (n_layers n) ds ds' x (n_rng n) HA Gx Ex) as (ls1 & g1 & p & E1 & Gp & Ep & HBk).
  assert (p = t) as -> by (unfold net_predict in EP; rewrite E1 in EP; cbn in EP; congruence).
  pose proof (rest_target lo t Gp HT) as TF. rewrite Ep in TF.
  destruct (loss_total lo ds' t t counts_I Gp Ep TF) as ((c & EC) & d & ED & Gd & Edd). pose proof (rest_gradient lo t d Gp HT ED) as HZ.
  destruct (HBk d Gd (eq_sym Edd)) as (ls2 & gx & E2 & Ggx & Egx & A2 & P2 & R2).
  destruct (zero_back (n_layers n) ds ds' x t d gx (n_rng n) g1 ls1 ls2 HA HMn Gx Ex E1 Gd Edd HZ E2) as (_ & HZ2).
  assert (LEN : Zlen ls2 = Zlen (n_layers n)) by (unfold Zlen; f_equal; rewrite <- (map_length layer_params ls2), P2, map_length; auto).
  assert (HD2 : dims_at D 0 ls2) by (eapply dims_at_same; [apply params_dims_of; exact P2|auto]).
  destruct (update_zero D ds' ls2 0 o ds A2 R2 HZ2 HD2 HO HQ) as (o' & E3 & Q3); [rewrite LEN; auto|].
  destruct (update_all_ok accepts accepts_with D ls2 0 o ds ds' A2 R2 HD2 HO) as (ls3 & o3 & E3' & O3 & _ & _ & K3 & _); [rewrite LEN; auto|]. rewrite E3 in E3'. injection E3' as <- <-.
  pose (n1 := mkNet ls1 (n_loss n) (n_opt n) g1). pose (n2 := mkNet ls2 (n_loss n) (n_opt n) g1).
  assert (Q1 : net_predict n x = (n1, Ok t)) by (unfold net_predict; rewrite E1; reflexivity).
  assert (Q2 : net_backward n1 d = (n2, Ok tt)) by (unfold net_backward, n1; cbn [n_layers n_loss n_opt n_rng]; rewrite E2; reflexivity).
  destruct (gradients_bare n x t n2 HMn) as (B1 & B2 & B3 & B4); [exists n1, t, lo, d; auto|].
  assert (Q4 : exists n', net_update n2 = (n', Ok tt) /\ n_layers n' = ls2 /\ n_loss n' = Some lo /\ n_opt n' = Some o' /\ n_rng n' = g1).
  { unfold net_update, n2. cbn [n_layers n_loss n_opt n_rng]. rewrite HOp. destruct ls2 as [|l2 ls2].
    - cbn [update_all] in E3. injection E3 as <-. eexists. split; [reflexivity|]. cbn. auto.
    - rewrite E3. eexists. split; [reflexivity|]. cbn. auto. }
  destruct Q4 as (n' & Q4 & N1 & N2 & N3 & N4).
  exists (el c [0]), n', o'. split; [exists n1, n2, t, c, d, lo; auto 10|]. split; [|split; [|split; [|split]]].
  - destruct (net_predict n0 x) as (m & oo) eqn:E0. cbn in EP0. subst oo. exists m, t, lo, c. auto.
  - intros ->. exact (rest_mse t c Gp EC).
  - split; [split; [rewrite N1; auto|split; [auto|split; [auto|split; [rewrite N1; auto|auto]]]]|]. split; [auto|]. cbn [n2 n_layers n_rng] in B1, B4. split; [rewrite N1; congruence|congruence].
  - rewrite N1. exact LEN.
  - rewrite <- LEN. exact K3.
Qed.
Lemma resting_losses : n_loss n0 = Some lo -> forall samples vs, Forall settled samples -> Forall2 (fun s v => loss_of n0 (fst s) (snd s) v) samples vs -> forall n o, resting n o -> room o (Zlen samples * Zlen (n_layers n)) ->
  exists n' o', fit_losses n samples vs n' /\ resting n' o' /\ Zlen (n_layers n') = Zlen (n_layers n) /\
    forall k, 0 <= k -> room o (k + Zlen samples * Zlen (n_layers n)) -> room o' k.
Proof.
  intros HL0 samples vs HS HV. induction HV as [|(x & t) v r vs Hv HV IH]; intros n o HRest HM.
  - exists n, o. split; [constructor|]. split; [auto|]. split; [auto|]. intros k _. change (Zlen (@nil (tensor R * tensor R))) with 0. rewrite Z.mul_0_l, Z.add_0_r. auto.
  - inversion HS as [|? ? S1 S2]; subst. cbn [fst snd] in Hv. rewrite Zlen_cons in HM. pose proof (Zlen_nonneg r). pose proof (Zlen_nonneg (n_layers n)).
    destruct (resting_step n o x t HRest HL0 S1) as (v' & n1 & o1 & F1 & L1 & _ & R1 & LEN & K1); [eapply room_le; [|exact HM]; nia|].
    assert (v' = v) as -> by (destruct L1 as (a1 & a2 & a3 & a4 & A1 & A2 & A3 & A4), Hv as (b1 & b2 & b3 & b4 & B1 & B2 & B3 & B4); congruence).
    destruct (IH S2 n1 o1 R1) as (n2 & o2 & F2 & R2 & L2 & K2); [rewrite LEN; apply K1; [nia|]; eapply room_le; [|exact HM]; nia|].
    exists n2, o2. split; [econstructor; eauto|]. split; [auto|]. split; [congruence|]. intros k HK HRm. apply K2; [auto|]. rewrite LEN. apply K1; [nia|]. rewrite Zlen_cons in HRm. eapply room_le; [|exact HRm]. nia.
Qed.
Lemma resting_epochs : n_loss n0 = Some lo -> forall samples vs, Forall settled samples -> Forall2 (fun s v => loss_of n0 (fst s) (snd s) v) samples vs -> forall e n o, resting n o -> room o (Z.of_nat e * Zlen samples * Zlen (n_layers n)) ->
  exists n' o', fit_epochs samples n (repeat vs e) n' /\ resting n' o'.
Proof.
  intros HL0 samples vs HS HV. induction e as [|e IH]; intros n o HRest HM.
  - exists n, o. split; [constructor|auto].
  - pose proof (Zlen_nonneg samples). pose proof (Zlen_nonneg (n_layers n)). assert (0 <= Zlen samples * Zlen (n_layers n)) by nia.
    destruct (resting_losses HL0 samples vs HS HV n o HRest) as (n1 & o1 & F1 & R1 & L1 & K1); [eapply room_le; [|exact HM]; nia|].
    destruct (IH n1 o1 R1) as (n2 & o2 & F2 & R2); [rewrite L1; apply K1; [nia|]; eapply room_le; [|exact HM]; nia|].
    exists n2, o2. split; [cbn [repeat]; econstructor; eauto|auto].
Qed.
Lemma settled_losses : accepts_all ds (n_layers n0) ds' -> n_loss n0 = Some lo -> forall samples, Forall settled samples -> exists vs, Forall2 (fun s v => loss_of n0 (fst s) (snd s) v) samples vs /\ (lo = MSE -> Forall (fun v => v = 0%R) vs).
Proof.
  intros HA HL0 samples HS. induction HS as [|(x & t) r S1 S2 (vs & IH & IZ)]; [exists []; split; constructor|].
  destruct S1 as (Gx & Ex & EP & HT). cbn [fst snd] in *.
  destruct (stack_chain accepts eq accepts_step' (n_layers n0) ds ds' x (n_rng n0) HA Gx Ex) as (ls1 & g1 & p & E1 & Gp & Ep & _).
  assert (p = t) as -> by (unfold net_predict in EP; rewrite E1 in EP; cbn in EP; congruence).
  pose proof (rest_target lo t Gp HT) as TF. rewrite Ep in TF. destruct (loss_total lo ds' t t counts_I Gp Ep TF) as ((c & EC) & _).
  exists (el c [0] :: vs). split; [constructor; [|auto]|].
  - unfold net_predict in EP. destruct (net_predict n0 x) as (m & oo) eqn:E0. exists m, t, lo, c. cbn [fst snd]. unfold net_predict in E0. rewrite E1 in E0. split; [unfold net_predict; rewrite E1; congruence|auto].
  - intros ->. constructor; [exact (rest_mse t c Gp EC)|auto].
Qed.
End H.
Lemma no_penalty_new : forall o, no_penalty o -> new_optim o.
Proof. intros o H. destruct H; constructor. Qed.
Theorem settled_training : forall (show : R -> string) (n : net R G) ds ds' lo o samples e, accepts_all ds (n_layers n) ds' -> Forall (fun l => layer_mode l = None) (n_layers n) ->
  n_loss n = Some lo -> n_opt n = Some o -> no_penalty o -> samples <> [] ->
  Forall (fun s => good (fst s) /\ tdims (fst s) = ds /\ snd (net_predict n (fst s)) = Ok (snd s) /\ at_rest lo (snd s)) samples -> 0 <= e -> e * Zlen samples * Zlen (n_layers n) <= INT_MAX ->
  exists n' out vs, net_train_report show n (map fst samples) (map snd samples) e = ((n', out), Ok tt) /\
    map layer_params (n_layers n') = map layer_params (n_layers n) /\ (forall x, snd (net_predict n' x) = snd (net_predict n x)) /\
    Forall2 (fun s v => loss_of n (fst s) (snd s) v) samples vs /\ out = report_from show 0 (repeat (average vs) (Z.to_nat e)) /\ (lo = MSE -> average vs = 0%R).
Proof.
  intros show n ds ds' lo o samples e HA HMo HL HO HN HNE HS He HM.
  pose (D := fun k => dims_map (n_layers n) (k - 2 * 0)).
  destruct (settled_losses ds ds' lo n HA HL samples HS) as (vs & HV & HZ).
  assert (HR0 : resting D ds ds' lo n n o).
  { split; [|split; [apply new_quiet; auto|auto]]. split; [auto|]. split; [auto|]. split; [auto|]. split; [apply dims_map_at|apply new_ready, no_penalty_new; auto]. }
  destruct (resting_epochs D ds ds' lo n HMo HL samples vs HS HV (Z.to_nat e) n o HR0) as (n' & o' & F & HR1).
  { apply new_room; [apply no_penalty_new; auto|]. rewrite Z2Nat.id by lia. auto. }
  exists n', (report_from show 0 (repeat (average vs) (Z.to_nat e))), vs. split; [|split; [|split; [|split; [|split]]]]; auto.
  - assert (POS : 0 < Zlen samples) by (destruct samples; [congruence|]; rewrite Zlen_cons; pose proof (Zlen_nonneg samples); lia). apply train_report.
    + unfold Zlen. rewrite !map_length. lia.
    + apply IZR_pos_neq. unfold Zlen in *. rewrite map_length. lia.
    + exists (repeat vs (Z.to_nat e)). rewrite combine_pairs, repeat_length. split; [auto|]. split; [auto|]. f_equal. clear. induction (Z.to_nat e) as [|k IH]; [reflexivity|]. cbn. rewrite <- IH. reflexivity.
  - apply bare_params, HR1.
  - intros x. eapply resting_predict; eauto.
  - intros HE. specialize (HZ HE). unfold average. assert (E : fsum vs = 0%R).
    { rewrite <- (map_id vs). apply sum_zero. intros a HI. rewrite Forall_forall in HZ. auto. }
    rewrite E. change (0 / IZR (Zlen vs) = 0)%R. unfold Rdiv. ring.
Qed.
End S.

(** ** The cross-entropy does not rest at certainty *)
(** One fully connected layer with weights (1, 0) and no bias; input 1, target (1, 0). *)
Section C.
Context {G : Type} {HR : Rng R G}.
Definition sure_fc : fc R := mkFC (tensor_of [1; 2] (fn2 (fun _ j => if j =? 0 then 1%R else 0%R))) (tensor_of [1; 2] (fun _ => 0%R)) None None None.
Definition sure_x : tensor R := tensor_of [1; 1] (fun _ => 1%R).
Definition sure_t : tensor R := tensor_of [1; 2] (fn2 (fun _ j => if j =? 0 then 1%R else 0%R)).
Definition sure_net (lr : R) (g : G) : net R G := mkNet [LFC sure_fc] (Some CCE) (Some (OSGD (sgd_new lr 0 0 0 false)%R)) g.
Lemma good12 : forall (f : list Z -> R) c, 0 < c <= 2 -> good (tensor_of [1; c] f).
Proof. intros f c Hc. apply good_tensor_of; [apply pos2; lia|cbn [prod]; unfold INT_MAX; lia]. Qed.
Lemma sure_wf : fc_wf sure_fc 1 2.
Proof. split; [apply good12; lia|]. split; [reflexivity|]. split; [apply good12; lia|reflexivity]. Qed.
Lemma one_sum : forall f : Z -> R, sum_to 1 f = f 0.
Proof. intros f. change (0 + f 0%Z = f 0%Z)%R. ring. Qed.
Lemma el12 : forall (f : list Z -> R) c j, 0 <= j < c -> el (tensor_of [1; c] f) [0; j] = f [0; j].
Proof. intros f c j H. apply el_tensor_of. apply in_range2; lia. Qed.
Lemma sure_predict_any : forall lo o (g : G), net_predict (mkNet [LFC sure_fc] lo o g) sure_x = (mkNet [LFC (mkFC (fc_w sure_fc) (fc_b sure_fc) (Some sure_x) None None)] lo o g, Ok sure_t).
Proof.
  intros lo o g. unfold net_predict. cbn [n_layers n_rng forward_all layer_forward n_loss n_opt].
  rewrite (fc_forward_2 sure_fc 1 2 sure_x 1 sure_wf); [|apply good12; lia|reflexivity|unfold INT_MAX; lia]. unfold lift; cbn [fst snd]. f_equal. f_equal.
  apply tensor_of_ext; [repeat constructor; lia|]. intros idx HI. destruct (in_range_2 _ _ _ HI) as (i & j & -> & Hi & Hj). assert (i = 0) as -> by lia. unfold fn2 at 1 2. cbn [nth].
  unfold affine. rewrite one_sum. cbn [sure_fc fc_w fc_b]. unfold sure_x. rewrite !el12 by lia. unfold fn2. cbn [nth]. change (1 * (if (j =? 0)%Z then 1 else 0) + 0 = (if (j =? 0)%Z then 1 else 0))%R. ring.
Qed.
Lemma sure_predict : forall lr g, net_predict (sure_net lr g) sure_x = (mkNet [LFC (mkFC (fc_w sure_fc) (fc_b sure_fc) (Some sure_x) None None)] (Some CCE) (Some (OSGD (sgd_new lr 0 0 0 false)%R)) g, Ok sure_t).
Proof. intros. apply sure_predict_any. Qed.
Theorem sure_moves : forall lr g, exists n' w b w' b', good sure_x /\ good sure_t /\ snd (net_predict (sure_net lr g) sure_x) = Ok sure_t /\
  net_train (sure_net lr g) [sure_x] [sure_t] 1 = (n', Ok tt) /\ map layer_params (n_layers (sure_net lr g)) = [Some (w, b)] /\ map layer_params (n_layers n') = [Some (w', b')] /\
  el w [0; 0] = 1%R /\ el w' [0; 0] = (1 + lr / 10000000)%R /\ el w [0; 1] = 0%R /\ el w' [0; 1] = (- (lr / 10000000))%R.
Proof.
  intros lr g. pose (o := OSGD (sgd_new lr 0 0 0 false)%R).
  assert (GX : good sure_x) by (apply good12; lia). assert (GT : good sure_t) by (apply good12; lia).
  assert (HT : trainable (fun k => dims_map (n_layers (sure_net lr g)) (k - 2 * 0)) [1; 1] [1; 2] (sure_net lr g) CCE o).
  { split; [|split; [reflexivity|split; [reflexivity|split; [apply dims_map_at|apply new_ready; constructor]]]]. econstructor; [|constructor]. apply acc_fc; try (apply sure_wf). }
  destruct (fit_step _ [1; 1] [1; 2] (sure_net lr g) CCE o sure_x sure_t HT I (counts_I 0%R) GX eq_refl) as (n1 & p & d & n2 & n' & o' & E1 & E2 & E3 & E4 & F & _ & _ & _ & _ & PP & V).
  { split; [auto|]. exists 1, 2. auto. }
  rewrite sure_predict in E1. injection E1 as <- <-. cbn [loss_gradient] in E2. rewrite (cce_gradient_ok sure_t sure_t 1 2) in E2; [|auto|auto|reflexivity|reflexivity|apply IZR_pos_neq; lia]. injection E2 as <-.
  unfold net_backward in E3. cbn [n_layers backward_all layer_backward] in E3.
  match type of E3 with context [fc_backward ?l ?d] => rewrite (fc_backward_rows l 1 2 1 sure_x d sure_x d) in E3 end; [|apply sure_wf|reflexivity|reflexivity|reflexivity|auto|reflexivity|apply good12; lia|reflexivity].
  unfold lift in E3; cbn [fst snd step net_with] in E3. injection E3 as <-.
  assert (HP : plain_rate o = Some lr) by (cbn; change (@zero R RScalar) with 0%R; change (@s_eq R RScalar) with Reqb; rewrite !Reqb_refl; change (s_lt (s_z 0) (s_z (-1))) with (Rltb 0 (-1)); unfold Rltb; destruct (Rlt_dec 0 (-1)); [lra|reflexivity]).
  specialize (V lr HP). cbn [n_layers net_with] in V. inversion V as [|? l' ? r' V1 V2 E5 E6]. subst. inversion V2. subst. clear V V2.
  unfold layer_descended in V1. cbn [layer_params layer_grads fc_w fc_b fc_gw fc_gb] in V1. destruct (layer_params l') as [(w' & b')|] eqn:EP; [|destruct V1]. destruct V1 as ((D1 & V1) & _).
  exists n', (M_Layers.fc_w sure_fc), (M_Layers.fc_b sure_fc), w', b'. split; [auto|]. split; [auto|]. split; [rewrite sure_predict; reflexivity|].
  split. { apply (train_fit [sure_x] [sure_t] 1); [reflexivity|apply IZR_pos_neq; reflexivity|]. change (concat (repeat (combine [sure_x] [sure_t]) (Z.to_nat 1))) with [(sure_x, sure_t)]. econstructor; [exact F|constructor]. }
  split; [reflexivity|]. split; [rewrite <- E6; cbn [map]; rewrite EP; reflexivity|].
  assert (CL : forall v : R, cce_clamp v = clampR v) by (intros; apply cce_clamp_R).
  assert (C1 : clampR 1 = (1 - 1 / 10000000)%R) by (unfold clampR, epsR; rewrite Rmax_left by lra; rewrite Rmin_right by lra; reflexivity).
  assert (C0 : clampR 0 = (1 / 10000000)%R) by (unfold clampR, epsR; rewrite Rmax_right by lra; rewrite Rmin_left by lra; reflexivity).
  assert (VW : forall j, 0 <= j < 2 -> el w' [0; j] = (el (M_Layers.fc_w sure_fc) [0; j]%Z - lr * (1 * ((clampR (if (j =? 0)%Z then 1 else 0) - (if (j =? 0)%Z then 1 else 0)) / 1)))%R).
  { intros j Hj. rewrite V1 by (apply in_range2; lia).
    apply (f_equal (fun z => (el (M_Layers.fc_w sure_fc) [0; j]%Z - lr * z)%R)). rewrite el12 by lia. unfold fn2. cbn [nth]. unfold fc_dw. rewrite one_sum, el12 by lia. unfold sure_x. rewrite el12 by lia. unfold sure_t. rewrite el12 by lia. rewrite CL. reflexivity. }
  cbn [sure_fc M_Layers.fc_w] in *. rewrite !VW by lia. rewrite !el12 by lia. unfold fn2. cbn [nth]. change (0 =? 0) with true. change (1 =? 0) with false. cbv iota. rewrite C1, C0.
  split; [reflexivity|]. split; [field|]. split; [reflexivity|]. field.
Qed.
Theorem certain_moves : forall (lr : R) (g : G), (0 < lr)%R ->
  exists (n n' : net R G) x t w b w' b', n_loss n = Some CCE /\ n_opt n = Some (OSGD (sgd_new lr 0 0 0 false)%R) /\ good x /\ good t /\ snd (net_predict n x) = Ok t /\
    net_train n [x] [t] 1 = (n', Ok tt) /\ map layer_params (n_layers n) = [Some (w, b)] /\ map layer_params (n_layers n') = [Some (w', b')] /\
    (el w [0; 0]%Z < el w' [0; 0]%Z)%R /\ (el w' [0; 1]%Z < el w [0; 1]%Z)%R.
Proof.
  intros lr g Hlr. destruct (sure_moves lr g) as (n' & w & b & w' & b' & H1 & H2 & H3 & H4 & H5 & H6 & H7 & H8 & H9 & H10). exists (sure_net lr g), n', sure_x, sure_t, w, b, w', b'.
  split; [reflexivity|]. split; [reflexivity|]. do 6 (split; [auto|]). rewrite H7, H8, H9, H10. assert (0 < lr / 10000000)%R by lra. split; lra.
Qed.
Lemma sure_accepts : forall (sc : Scalar R), accepts_all [1; 1] [LFC sure_fc] [1; 2].
Proof. intros sc. econstructor; [|constructor]. apply acc_fc; try (apply sure_wf). Qed.
End C.
