(** * Adam: the layers share the count of updates *)
From Coq Require Import Reals Lra.
From Verif Require Import Base Scalar ScalarR Types Spec M_Shape M_Tensor M_Adv M_Act M_Loss M_Layers M_Reg M_Opt M_Net SpecNN SpecR SpecOpt SpecNet SpecNetR SpecAddr SpecSep
  L_Index L_Shape L_Tensor L_Nest L_Matmul L_RSum L_Loss L_Layers L_Opt L_Opt2 L_OptR L_TrainR L_Net.
Local Open Scope Z_scope.

Section Pair.
Context {T : Type} {S : Scalar T}.
Definition adam_settings (o o' : adam T) : Prop :=
  ad_init o' = ad_init o /\ ad_b1 o' = ad_b1 o /\ ad_b2 o' = ad_b2 o /\ ad_eps o' = ad_eps o /\ ad_l1 o' = ad_l1 o /\ ad_l2 o' = ad_l2 o /\ ad_decay o' = ad_decay o /\ ad_batch o' = ad_batch o.
(** One layer update with Adam. *)
Lemma adam_pair : forall (ds : list Z) (o : adam T) i (w b gw gb : tensor T), adam_ok (fun _ => ds) o -> 0 <= ad_it o < INT_MAX ->
  good w -> tdims w = ds -> good b -> tdims b = ds -> good gw -> tdims gw = ds -> good gb -> tdims gb = ds ->
  exists o' w' b', pair_optimize (OAdam o) i w b gw gb = (OAdam o', w', b', Ok tt) /\ adam_ok (fun _ => ds) o' /\ ad_it o' = ad_it o + 1 /\
    adam_settings o o' /\
    (forall idx, in_range ds idx -> el w' idx = fst (fst (adam_rule (ad_b1 o) (ad_b2 o) (ad_eps o) (ad_l1 o) (ad_l2 o) (adam_scaled (ad_b1 o) (ad_b2 o))
       (ad_it o + 1) (adam_lr (ad_init o) (ad_decay o) (ad_it o + 1) (s_z (-1))) (s_div (el gw idx) (s_z (ad_batch o))) (el w idx, buf_el (ad_m o) (2 * i) idx, buf_el (ad_v o) (2 * i) idx)))) /\
    forall k idx, in_range ds idx -> k <> 2 * i -> k <> 2 * i + 1 -> buf_el (ad_m o') k idx = buf_el (ad_m o) k idx /\ buf_el (ad_v o') k idx = buf_el (ad_v o) k idx.
Proof.
  intros ds o i w b gw gb HO HI Gw Ew Gb Eb Ggw Egw Ggb Egb.
  set (cs := [(s_z (-1), [(2 * i, gw); (2 * i + 1, gb)])] : list (call T)).
  assert (HS : store_ok (fun _ => ds) (pair_store i w b)) by (intros k; unfold pair_store; destruct (k =? 2 * i); auto).
  assert (HM : ad_it o + Zlen cs <= INT_MAX) by (change (Zlen cs) with 1; lia).
  assert (HC : calls_ok (fun _ => ds) cs).
  { apply Forall_cons; [|apply Forall_nil]. cbn [snd]. apply Forall_cons; [auto|]. apply Forall_cons; auto. }
  destruct (adam_history (fun _ => ds) cs o (pair_store i w b) HO HS (proj1 HI) HM HC) as (o' & st' & E & HO' & HS' & EI & SA & _).
  destruct (adam_history_spec (fun _ => ds) cs o (pair_store i w b) HO HS (proj1 HI) HM HC) as (o2 & st2 & E2 & _ & _ & _ & V).
  rewrite E in E2. injection E2 as <- <-.
  unfold cs in E. cbn [opt_run map fst snd] in E. destruct (adam_optimize o (pair_store i w b) [2 * i; 2 * i + 1] [gw; gb] (s_z (-1))) as [[o1 st1] r1] eqn:E1.
  destruct r1 as [[]|e| | |]; try discriminate E. injection E as <- <-. exists o1, (st1 (2 * i)), (st1 (2 * i + 1)).
  unfold pair_optimize. cbn [optim_optimize]. rewrite E1. split; [reflexivity|]. split; [auto|]. split; [auto|]. split.
  { destruct (SA 0 (s_z (-1))) as (A0 & A1 & A2 & A3 & A4 & A5 & A6 & A7 & A8 & A9). unfold adam_settings. cbn [adam_at ad_init ad_b1 ad_b2 ad_eps ad_l1 ad_l2 ad_decay ad_batch] in *. auto 12. }
  split.
  + intros idx HX. specialize (V (2 * i) idx HX). unfold cs in V. cbn [numbered fst snd] in V. unfold grads in V. cbn [filter fst] in V. rewrite Z.eqb_refl in V.
    destruct (Z.eqb_spec (2 * i + 1) (2 * i)) as [X|_]; [lia|]. cbn [map snd app fold_left fst] in V. apply (f_equal (fun p => fst (fst p))) in V. cbn [fst] in V. rewrite V.
    unfold pair_store. rewrite Z.eqb_refl. reflexivity.
  + intros k idx HX H1 H2. specialize (V k idx HX). unfold cs in V. cbn [numbered fst snd] in V. unfold grads in V. cbn [filter fst] in V.
    destruct (Z.eqb_spec (2 * i) k) as [X|_]; [lia|]. destruct (Z.eqb_spec (2 * i + 1) k) as [X|_]; [lia|]. cbn [map snd app fold_left fst] in V. split; congruence.
Qed.
End Pair.

Section Witness.
Local Existing Instance RScalar.
Context {HR : Rng R unit}.
Definition cst (v : R) : tensor R := tensor_of [1; 1] (fun _ => v).
Lemma g11 : forall f : list Z -> R, good (tensor_of [1; 1] f).
Proof. intros. apply good_tensor_of; [split; [discriminate|repeat constructor; lia]|vm_compute; discriminate]. Qed.
Lemma in11 : in_range [1; 1] [0; 0]. Proof. apply in_range2; lia. Qed.
Lemma el_cst : forall v, el (cst v) [0; 0] = v. Proof. intros v. unfold cst. rewrite el_tensor_of by exact in11. reflexivity. Qed.
Definition layer1 (v : R) : layer R := LFC (mkFC (cst v) (cst 0) None None None).
(** Weights 1 and 0, no biases; input 1, target -1/2. *)
Definition two_layers : net R unit := mkNet [layer1 1; layer1 0] (Some MSE) (Some (OAdam adamR)) tt.
Lemma wf1 : forall v i0 w0 b0, fc_wf (mkFC (cst v) (cst 0) i0 w0 b0) 1 1.
Proof. intros. split; [apply g11|split; [reflexivity|split; [apply g11|reflexivity]]]. Qed.
Lemma t11 : forall (t : tensor R), good t -> tdims t = [1; 1] -> t = cst (el t [0; 0]).
Proof.
  intros t Gt Et. apply tensor_ext; [auto|apply g11|auto|]. intros idx HI. rewrite Et in HI. pose proof (in_range_length _ _ HI) as HL. destruct idx as [|r [|c [|]]]; try discriminate HL.
  rewrite !in_range_cons in HI. destruct HI as (H1 & H2 & _). replace r with 0 by lia. replace c with 0 by lia. rewrite el_cst. reflexivity.
Qed.
Lemma f11 : forall v i0 w0 b0 (x : R), fc_forward (mkFC (cst v) (cst 0) i0 w0 b0) (cst x) = (mkFC (cst v) (cst 0) (Some (cst x)) w0 b0, Ok (cst (x * v))).
Proof.
  intros. rewrite (fc_forward_2 _ 1 1 (cst x) 1 (wf1 v i0 w0 b0)) by (try apply g11; try reflexivity; vm_compute; discriminate). cbn [fc_in fc_w fc_b fc_gw fc_gb]. f_equal. f_equal.
  match goal with |- ?t = _ => rewrite (t11 t) by (try apply g11; reflexivity) end. f_equal. rewrite el_tensor_of by exact in11. unfold fn2. cbn [nth]. unfold affine. rewrite sum_to_R. change (zrange 0 1) with [0].
  rewrite rsum_cons, rsum_nil, !el_cst. cbn. ring.
Qed.
Lemma b11 : forall v (x d : R) w0 b0, fc_backward (mkFC (cst v) (cst 0) (Some (cst x)) w0 b0) (cst d) = (mkFC (cst v) (cst 0) (Some (cst x)) (Some (cst (x * d))) (Some (cst d)), Ok (cst (d * v))).
Proof.
  intros. rewrite (fc_backward_rows _ 1 1 1 (cst x) (cst d) (cst x) (cst d)); [|apply wf1|reflexivity|reflexivity|reflexivity|apply g11|reflexivity|apply g11|reflexivity].
  f_equal; [f_equal; f_equal|f_equal]; match goal with |- ?t = _ => rewrite (t11 t) by (try apply g11; reflexivity) end; f_equal; rewrite el_tensor_of by exact in11; unfold fn2; cbn [nth];
    unfold fc_dw, fc_db, fc_dx; rewrite sum_to_R; change (zrange 0 1) with [0]; rewrite rsum_cons, rsum_nil; cbv beta; cbn [fc_w]; rewrite ?el_cst; cbn [s_mul RScalar]; ring.
Qed.
Lemma d11 : forall p t : R, mse_gradient (cst p) (cst t) = Ok (cst ((p - t) * 2)).
Proof.
  intros. assert (HZ : s_eq (s_z (prod (tdims (cst p))) : R) zero = false) by (apply (counts_R (prod (tdims (cst p)))); vm_compute; split; [reflexivity|discriminate]).
  rewrite (mse_gradient_ok (cst p) (cst t) (g11 _) (g11 _) (or_introl eq_refl) HZ). f_equal.
  match goal with |- ?t = _ => rewrite (t11 t) by (try apply g11; reflexivity) end. f_equal. rewrite el_tensor_of by exact in11. rewrite el_cst.
  change (el (in_shape (tdims (cst p)) (cst t)) [0; 0]) with (el (cst t) [0; 0]). rewrite el_cst. change (prod (tdims (cst p))) with 1. cbn [s_sub s_mul s_div s_z RScalar]. lra.
Qed.
Lemma c11 : forall p t : R, exists c, mse_compute (cst p) (cst t) = Ok c.
Proof.
  intros. assert (HZ : s_eq (s_z (prod (tdims (cst p))) : R) zero = false) by (apply (counts_R (prod (tdims (cst p)))); vm_compute; split; [reflexivity|discriminate]).
  rewrite (mse_compute_ok (cst p) (cst t) (g11 _) (g11 _) (or_introl eq_refl) HZ). eauto.
Qed.
(** The weight of the second layer after one update, when the update is the n-th of the optimizer. *)
Definition adam_like (o : adam R) (k : Z) : Prop :=
  adam_ok (fun _ => [1; 1]) o /\ ad_it o = k /\ adam_settings adamR o.
Lemma pair11 : forall (o : adam R) k i w b gw gb, adam_like o k -> 0 <= k < INT_MAX ->
  exists o' w' b', pair_optimize (OAdam o) i (cst w) (cst b) (cst gw) (cst gb) = (OAdam o', w', b', Ok tt) /\ adam_like o' (k + 1) /\
    (forall j idx, in_range [1; 1] idx -> j <> 2 * i -> j <> 2 * i + 1 -> buf_el (ad_m o') j idx = buf_el (ad_m o) j idx /\ buf_el (ad_v o') j idx = buf_el (ad_v o) j idx) /\
    (buf_el (ad_m o) (2 * i) [0; 0] = 0%R -> buf_el (ad_v o) (2 * i) [0; 0] = 0%R -> w = 0%R -> gw = 1%R ->
      el w' [0; 0] = fst (fst (adam_rule (1/2) (15/16) 0 0 0 (adam_scaled (1/2) (15/16)) (k + 1) 1 1 (0, 0, 0)))%R).
Proof.
  intros o k i w b gw gb (HO & EI & SE) HK.
  destruct (adam_pair [1; 1] o i (cst w) (cst b) (cst gw) (cst gb) HO) as (o' & w' & b' & E & HO' & EI' & SE' & V & K); try apply g11; try reflexivity; [lia|].
  exists o', w', b'. destruct SE as (A0 & A2 & A3 & A4 & A5 & A6 & A7 & A8). destruct SE' as (B0 & B2 & B3 & B4 & B5 & B6 & B7 & B8).
  split; [exact E|]. split; [split; [auto|split; [lia|unfold adam_settings; intuition congruence]]|]. split; [exact K|].
  intros M0 V0 -> ->. rewrite (V [0; 0] in11), M0, V0, !el_cst, EI, A0, A2, A3, A4, A5, A6, A7, A8.
  cbn [adamR adam_new ad_init ad_lr ad_b1 ad_b2 ad_eps ad_l1 ad_l2 ad_decay ad_it ad_batch s_div s_z RScalar]. rewrite rate_R. replace (1 / 1)%R with 1%R by lra. reflexivity.
Qed.
Lemma step_1 : (fst (fst (adam_rule (1/2) (15/16) 0 0 0 (adam_scaled (1/2) (15/16)) 1 1 1 (0, 0, 0))) = - (1 / 2))%R.
Proof.
  rewrite adam_step_R. cbn [fst].
  rewrite scaled_R by (rewrite pow_1; lra). rewrite !pow_1. replace (1 - 15 / 16)%R with (1 / 16)%R by lra. replace (1 / 16 / (1 / 16))%R with 1%R by lra. rewrite sqrt_16, sqrt_1. lra.
Qed.
Lemma step_2 : (fst (fst (adam_rule (1/2) (15/16) 0 0 0 (adam_scaled (1/2) (15/16)) 2 1 1 (0, 0, 0))) = - (31 / 72))%R.
Proof.
  rewrite adam_step_R. cbn [fst].
  rewrite scaled_R by (rewrite pow_2; lra). rewrite !pow_2. set (q := (1 - 15 / 16 * (15 / 16))%R). assert (Q : q = (31 / 256)%R) by (unfold q; lra).
  assert (P : (0 < sqrt q)%R) by (apply sqrt_lt_R0; lra). assert (PQ : (sqrt q * sqrt q = 31 / 256)%R) by (rewrite sqrt_sqrt; lra).
  rewrite sqrt_div_alt by lra. rewrite sqrt_16.
  replace (0 - sqrt q / (1 - 1 / 2 * (1 / 2)) * (1 / 2 / (1 - 1 / 2 * (1 / 2))) / (1 / 4 / sqrt q))%R with (- (sqrt q * sqrt q * (32 / 9)))%R by (field; lra). rewrite PQ. lra.
Qed.
Definition weight_of (l : layer R) : R := match l with LFC l => el (fc_w l) [0; 0] | _ => 0%R end.
Lemma adam_shares : exists n' m os', fit two_layers [(cst 1, cst (-1/2))] n' /\
  fit_own two_layers [OAdam adamR; OAdam adamR] [(cst 1, cst (-1/2))] m os' /\
  map weight_of (tl (n_layers n')) = [(-(31/72))%R] /\ map weight_of (tl (n_layers m)) = [(-(1/2))%R].
Proof.
  destruct (c11 (1 * 1 * 0) (-1/2)) as (c & EC).
  set (p := (1 * 1 * 0)%R) in *. set (d := ((p - -1/2) * 2)%R). assert (Ed : d = 1%R) by (unfold d, p; lra).
  set (n1 := mkNet [LFC (mkFC (cst 1) (cst 0) (Some (cst 1)) None None); LFC (mkFC (cst 0) (cst 0) (Some (cst (1 * 1))) None None)] (Some MSE) (Some (OAdam adamR)) tt : net R unit).
  set (n2 := mkNet [LFC (mkFC (cst 1) (cst 0) (Some (cst 1)) (Some (cst (1 * (d * 0)))) (Some (cst (d * 0)))); LFC (mkFC (cst 0) (cst 0) (Some (cst (1 * 1))) (Some (cst (1 * 1 * d))) (Some (cst d)))] (Some MSE) (Some (OAdam adamR)) tt : net R unit).
  assert (EP : net_predict two_layers (cst 1) = (n1, Ok (cst p))).
  { unfold net_predict, two_layers, layer1. cbn [n_layers n_rng n_loss n_opt forward_all layer_forward]. unfold lift at 1. rewrite f11. cbn [fst snd forward_all layer_forward]. unfold lift at 1. rewrite f11. reflexivity. }
  assert (EB : net_backward n1 (cst d) = (n2, Ok tt)).
  { unfold net_backward, n1. cbn [n_layers backward_all layer_backward]. unfold lift. cbn [fst snd layer_backward]. rewrite b11. cbn [fst snd layer_backward]. rewrite b11. reflexivity. }
  assert (ED : mse_gradient (cst p) (cst (-1/2)) = Ok (cst d)) by apply d11.
  assert (L0 : adam_like adamR 0) by (split; [split; intros ? ?; discriminate|split; [reflexivity|unfold adam_settings; auto 12]]).
  destruct (pair11 adamR 0 0 1 0 (1 * (d * 0)) (d * 0) L0 ltac:(vm_compute; split; [discriminate|reflexivity])) as (o1 & w1 & b1 & U1 & L1 & K1 & _).
  destruct (pair11 o1 1 1 0 0 (1 * 1 * d) d L1 ltac:(vm_compute; split; [discriminate|reflexivity])) as (o2 & w2 & b2 & U2 & L2 & _ & V2).
  destruct (pair11 adamR 0 0 0 0 (1 * 1 * d) d L0 ltac:(vm_compute; split; [discriminate|reflexivity])) as (o3 & w3 & b3 & U3 & L3 & _ & V3).
  assert (E2 : el w2 [0; 0] = (-(31/72))%R).
  { rewrite <- step_2. destruct (K1 2 [0; 0] in11) as (KM & KV); [lia|lia|]. change (2 * 1) with 2 in V2. apply V2; [rewrite KM; reflexivity|rewrite KV; reflexivity|reflexivity|rewrite Ed; lra]. }
  assert (E3 : el w3 [0; 0] = (-(1/2))%R) by (rewrite <- step_1; apply V3; [reflexivity|reflexivity|reflexivity|rewrite Ed; lra]).
  exists (mkNet [LFC (mkFC w1 b1 (Some (cst 1)) (Some (cst (1 * (d * 0)))) (Some (cst (d * 0)))); LFC (mkFC w2 b2 (Some (cst (1 * 1))) (Some (cst (1 * 1 * d))) (Some (cst d)))] (Some MSE) (Some (OAdam o2)) tt).
  exists (mkNet [LFC (mkFC w1 b1 (Some (cst 1)) (Some (cst (1 * (d * 0)))) (Some (cst (d * 0)))); LFC (mkFC w3 b3 (Some (cst (1 * 1))) (Some (cst (1 * 1 * d))) (Some (cst d)))] (Some MSE) None tt).
  exists [OAdam o1; OAdam o3]. split; [|split; [|split]].
  - eapply fit_cons; [|apply fit_nil]. exists n1, n2, (cst p), c, (cst d), MSE. split; [exact EP|]. split; [reflexivity|]. split; [exact EC|]. split; [exact ED|]. split; [exact EB|].
    unfold net_update, n2. cbn [n_layers n_opt update_all layer_update fc_gw fc_gb fc_w fc_b fc_in]. rewrite U1. cbn [update_all layer_update fc_gw fc_gb fc_w fc_b fc_in]. change (0 + 1) with 1. rewrite U2. reflexivity.
  - eapply fit_own_cons; [|apply fit_own_nil]. exists n1, n2, (cst p), c, (cst d), MSE. split; [exact EP|]. split; [reflexivity|]. split; [exact EC|]. split; [exact ED|]. split; [exact EB|].
    split; [|split; reflexivity]. unfold n2. cbn [n_layers]. apply own_cons; [|apply own_cons; [|apply own_nil]]; cbn [layer_update fc_gw fc_gb fc_w fc_b fc_in]; [rewrite U1|rewrite U3]; reflexivity.
  - cbn [n_layers tl map weight_of fc_w]. rewrite E2. reflexivity.
  - cbn [n_layers tl map weight_of fc_w]. rewrite E3. reflexivity.
Qed.
Lemma sep_adam : exists (n : net R unit) o xs ts e n' m os', n_opt n = Some o /\ unused o /\ net_train n xs ts e = (n', Ok tt) /\
  fit_own n (map (fun _ => o) (n_layers n)) (concat (repeat (combine xs ts) (Z.to_nat e))) m os' /\ ~ same_model n' m.
Proof.
  destruct adam_shares as (n' & m & os' & F & F' & W1 & W2). exists two_layers, (OAdam adamR), [cst 1], [cst (-1/2)], 1, n', m, os'.
  split; [reflexivity|]. split; [intros k; split; reflexivity|]. split.
  { apply train_fit; [apply Z.le_refl|apply (counts_R 1); vm_compute; split; [reflexivity|discriminate]|exact F]. }
  split; [exact F'|]. intros [E _]. rewrite E in W1. rewrite W2 in W1. injection W1 as W. lra.
Qed.
End Witness.
