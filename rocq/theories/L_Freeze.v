(** * A learning rate of zero (C141) *)
From Coq Require Import Reals Lra.
From Verif Require Import Base Scalar ScalarR Types Spec SpecNN M_Shape M_Tensor M_Adv M_Act M_Loss M_Layers M_Reg M_Opt M_Net SpecNet SpecRetry SpecStop SpecFreeze L_Index L_Tensor L_Net L_Log L_Retry L_Stop.
Local Open Scope Z_scope.

Lemma upd_same : forall {A} (l : list A) i v, nth_error l i = Some v -> upd l i v = l.
Proof. induction l as [|a l IH]; intros [|i] v H; cbn in *; try discriminate; [congruence|]. f_equal. auto. Qed.
Lemma wr_same : forall {A} (l l' : list A) j v, rd l j = Ok v -> wr l j v = Ok l' -> l' = l.
Proof.
  intros A l l' j v HR HW. unfold rd in HR. unfold wr in HW. destruct (j <? 0); [discriminate|]. destruct (nth_error l (Z.to_nat j)) eqn:E; [|discriminate]. injection HR as ->.
  destruct (_ && _); [|discriminate]. injection HW as <-. apply upd_same. auto.
Qed.
Lemma foldM_kept : forall {A B} (P : B -> Prop) (body : A -> B -> outcome B) l s s', (forall a s s', P s -> body a s = Ok s' -> P s') -> P s -> foldM body l s = Ok s' -> P s'.
Proof.
  intros A B P body l. induction l as [|a l IH]; intros s s' HB HP E; cbn in E; [injection E as <-; auto|]. destruct (body a s) as [s1| | | |] eqn:E1; try discriminate. cbn in E. eapply IH; [exact HB| |exact E]. eapply HB; eauto.
Qed.

Section F.
Variable K : R.
Local Instance SI : Scalar R := RInf K.

Ltac bnd H := match type of H with bind ?m _ = _ => let E := fresh "E" in destruct m eqn:E; try discriminate H; cbn [bind] in H end.
Lemma minus_none : forall w g : R, s_sub w (s_mul 0%R g) = w.
Proof. intros w g. change ((w - 0 * g)%R = w). ring. Qed.
Lemma sgd_body_still : forall (o : sgd R) gd j w m w' m', sgd_body o gd 0%R j (w, m) = Ok (w', m') -> w' = w.
Proof.
  intros o gd j w m w' m' E. unfold sgd_body in E. bnd E. bnd E. bnd E. destruct a1 as (g & m1). bnd E. bnd E. injection E as <- _. rewrite minus_none in E4. eapply wr_same; eauto.
Qed.
Lemma sgd_still : forall (o : sgd R) k w g w', snd (sgd_update o k w g 0%R) = Ok w' -> w' = w.
Proof.
  intros o k w g w' E. unfold sgd_update in E. cbv zeta in E. match type of E with context [step _ ?m _] => destruct m as [p| | | |] eqn:EF end; cbn [step snd] in E; try discriminate E. injection E as <-.
  assert (fst p = tdata w) as ->; [|destruct w; reflexivity]. unfold for_ in EF. apply (foldM_kept (fun p : list R * list R => fst p = tdata w)) in EF; [exact EF| |reflexivity].
  intros j (a & b) (a' & b') H E. cbn [fst] in *. subst. eapply sgd_body_still; eauto.
Qed.
Lemma rms_body_still : forall (o : rms R) gd j w sq mean vel w' sq' mean' vel', rms_body o gd 0%R j (w, sq, mean, vel) = Ok (w', sq', mean', vel') -> w' = w.
Proof.
  intros o gd j w sq mean vel w' sq' mean' vel' E. unfold rms_body in E. bnd E. bnd E. bnd E. cbv zeta in E. bnd E. bnd E. destruct a3 as (den & mean1). destruct (s_lt zero (rp_mom o)).
  - bnd E. bnd E. bnd E. bnd E. injection E as <- _ _ _. rewrite minus_none in E8. eapply wr_same; eauto.
  - bnd E. bnd E. injection E as <- _ _ _. rewrite minus_none in E6. eapply wr_same; eauto.
Qed.
Lemma rms_still : forall (o : rms R) k w g w', snd (rms_update o k w g 0%R) = Ok w' -> w' = w.
Proof.
  intros o k w g w' E. unfold rms_update in E. cbv zeta in E. match type of E with context [step _ ?m _] => destruct m as [(((wd & sd) & md) & vd)| | | |] eqn:EF end; cbn [step snd] in E; try discriminate E. injection E as <-.
  assert (wd = tdata w) as ->; [|destruct w; reflexivity]. unfold for_ in EF. apply (foldM_kept (fun p : list R * list R * list R * list R => fst (fst (fst p)) = tdata w)) in EF; [exact EF| |reflexivity].
  intros j (((a & b) & c) & d) (((a' & b') & c') & d') H E. cbn [fst] in *. subst. eapply rms_body_still; eauto.
Qed.
Lemma adam_param_still : forall (o : adam R) alpha w g m v, ad_lr o = 0%R -> alpha = 0%R -> fst (fst (adam_param o alpha w g m v)) = w.
Proof.
  intros o alpha w g m v HL ->. unfold adam_param. cbv zeta. rewrite HL. cbn [fst].
  set (c := s_add (s_sqrt _) (ad_eps o)). set (mh := s_corr _ _ _).
  assert (H1 : s_div (s_mul 0%R mh) c = 0%R). { change ((0 * mh / c)%R = 0%R). unfold Rdiv. ring. }
  rewrite H1. clearbody c mh.
  assert (H2 : forall b (a s : R), (if b : bool then s_add 0%R (s_mul (s_mul 0%R a) s) else 0%R) = 0%R). { intros [|] a s; [|reflexivity]. change ((0 + 0 * a * s)%R = 0%R). ring. }
  rewrite !H2. change ((w - 0)%R = w). ring.
Qed.
Lemma adam_alpha_still : forall o : adam R, ad_lr o = 0%R -> adam_alpha o = 0%R.
Proof. intros o HL. unfold adam_alpha. cbv zeta. rewrite HL. match goal with |- s_div (s_mul _ ?a) ?b = _ => change ((0 * a / b)%R = 0%R) end. unfold Rdiv. ring. Qed.
Lemma adam_still : forall (o : adam R) k w g w', ad_lr o = 0%R -> snd (adam_update o k w g tt) = Ok w' -> w' = w.
Proof.
  intros o k w g w' HL E. unfold adam_update in E. cbv zeta in E. match type of E with context [step _ ?m _] => destruct m as [((wd & md) & vd)| | | |] eqn:EF end; cbn [step snd] in E; try discriminate E. injection E as <-.
  assert (wd = tdata w) as ->; [|destruct w; reflexivity]. unfold for_ in EF. apply (foldM_kept (fun p : list R * list R * list R => fst (fst p) = tdata w)) in EF; [exact EF| |reflexivity].
  intros j ((a & b) & c) ((a' & b') & c') H E. cbn [fst] in *. subst. unfold adam_body in E. bnd E. bnd E. bnd E. bnd E.
  pose proof (adam_param_still o (adam_alpha o) a a0 a1 a2 HL (adam_alpha_still o HL)) as HP. destruct (adam_param o (adam_alpha o) a a0 a1 a2) as ((wv & mv) & vv). cbn [fst] in HP. subst wv. bnd E. bnd E. bnd E. injection E as <- _ _. eapply wr_same; eauto.
Qed.

Lemma loop_still : forall {O C} (P : O -> Prop) (update : O -> Z -> tensor R -> tensor R -> C -> O * outcome (tensor R)) c,
  (forall o k w g, P o -> P (fst (update o k w g c))) -> (forall o k w g w', P o -> snd (update o k w g c) = Ok w' -> w' = w) ->
  forall l o st o' st' r, P o -> opt_loop update c l o st = (o', st', r) -> P o' /\ forall k, st' k = st k.
Proof.
  intros O C P update c H1 H2. induction l as [|(k & g) l IH]; intros o st o' st' r HP E; cbn [opt_loop] in E; [injection E as <- <- _; auto|].
  pose proof (H1 o k (st k) g HP) as A. pose proof (fun w' => H2 o k (st k) g w' HP) as B. destruct (update o k (st k) g c) as (o1 & u). cbn [fst snd] in *. destruct u as [w'| | | |]; try (injection E as <- <- _; auto; fail).
  destruct (IH _ _ _ _ _ A E) as (Q1 & Q2). split; [auto|]. intros k'. rewrite Q2. unfold put. destruct (Z.eqb_spec k' k) as [->|]; [rewrite (B w' eq_refl)|]; reflexivity.
Qed.
Lemma low_rate : forall lro : R, (lro <= 0)%R -> s_lt zero lro = false /\ s_le lro zero = true.
Proof. intros lro H. change (Rltb 0 lro = false /\ Rleb lro 0 = true). unfold Rltb, Rleb. split; [destruct (Rlt_dec 0 lro)|destruct (Rle_dec lro 0)]; auto; lra. Qed.

Theorem optimize_still : forall (o : optim R) st ks gs lro o' st' r, rate_zero o -> (lro <= 0)%R ->
  optim_optimize o st ks gs lro = (o', st', r) -> rate_zero o' /\ forall k, st' k = st k.
Proof.
  intros o st ks gs lro o' st' r HZ HL E. destruct (low_rate lro HL) as (H1 & H2). destruct o as [o|o|o]; cbn [optim_optimize rate_zero] in *.
  - destruct (sgd_optimize o st ks gs lro) as ((o1 & st1) & r1) eqn:E1. injection E as <- <- _. unfold sgd_optimize, sgd_rate in E1. rewrite H1, HZ in E1. destruct (negb _); [injection E1 as <- <- _; auto|].
    refine (loop_still (fun o => sg_lr o = 0%R) _ _ _ _ _ _ _ _ _ _ HZ E1); [|intros; eapply sgd_still; eauto].
    intros q k w g HQ. unfold sgd_update. cbv zeta. match goal with |- context [step _ ?m _] => destruct m end; exact HQ.
  - destruct (rms_optimize o st ks gs lro) as ((o1 & st1) & r1) eqn:E1. injection E as <- <- _. unfold rms_optimize, rms_rate in E1. rewrite H1, HZ in E1. destruct (negb _); [injection E1 as <- <- _; auto|].
    refine (loop_still (fun o => rp_lr o = 0%R) _ _ _ _ _ _ _ _ _ _ HZ E1); [|intros; eapply rms_still; eauto].
    intros q k w g HQ. unfold rms_update. cbv zeta. match goal with |- context [step _ ?m _] => destruct m as [(((? & ?) & ?) & ?)| | | |] end; exact HQ.
  - destruct (adam_optimize o st ks gs lro) as ((o1 & st1) & r1) eqn:E1. injection E as <- <- _. unfold adam_optimize in E1. destruct (negb _); [injection E1 as <- <- _; auto|].
    destruct (adam_rate o lro) as [o2| | | |] eqn:ER; try (injection E1 as <- <- _; auto; fail).
    assert (HP : ad_init o2 = 0%R /\ ad_lr o2 = 0%R).
    { unfold adam_rate in ER. bnd ER. rewrite H2 in ER. injection ER as <-. cbn [ad_init ad_lr]. split; [exact HZ|]. rewrite HZ. apply Rmult_0_l. }
    assert (A : (ad_init o1 = 0%R /\ ad_lr o1 = 0%R) /\ forall k, st1 k = st k); [|tauto].
    refine (loop_still (fun o => ad_init o = 0%R /\ ad_lr o = 0%R) adam_update tt _ _ _ _ _ _ _ _ HP E1).
    + intros q k w g HQ. unfold adam_update. cbv zeta. match goal with |- context [step _ ?m _] => destruct m as [((? & ?) & ?)| | | |] end; exact HQ.
    + intros q k w g w' (_ & HQ). apply adam_still. exact HQ.
Qed.
(** A history of calls. *)
Theorem history_still : forall cs (o : optim R) st o' st' r, rate_zero o -> Forall (fun c => (fst c <= 0)%R) cs ->
  opt_run optim_optimize cs o st = (o', st', r) -> forall k, st' k = st k.
Proof.
  induction cs as [|(lro & l) cs IH]; intros o st o' st' r HZ HF E k; cbn [opt_run] in E; [injection E as _ <- _; reflexivity|]. inversion HF as [|? ? F1 F2]; subst. cbn [fst] in F1.
  destruct (optim_optimize o st (map fst l) (map snd l) lro) as ((o1 & st1) & r1) eqn:E1. destruct (optimize_still _ _ _ _ _ _ _ _ HZ F1 E1) as (A & B).
  destruct r1 as [u| | | |]; try (injection E as _ <- _; apply B). rewrite (IH _ _ _ _ _ A F2 E k). apply B.
Qed.
(** An override that is not positive counts as none. *)
Theorem override_ignored : forall (o : optim R) st ks gs lro, (lro <= 0)%R -> optim_optimize o st ks gs lro = optim_optimize o st ks gs (s_z (-1)).
Proof.
  intros o st ks gs lro HL. destruct (low_rate lro HL) as (H1 & H2). destruct (low_rate (IZR (-1)) ltac:(lra)) as (H3 & H4).
  destruct o as [o|o|o]; cbn [optim_optimize]; [unfold sgd_optimize, sgd_rate|unfold rms_optimize, rms_rate|unfold adam_optimize, adam_rate]; change (s_z (-1)) with (IZR (-1)); rewrite ?H1, ?H2, ?H3, ?H4; reflexivity.
Qed.

(** A single weight. *)
Definition t1 (v : R) : tensor R := t_fill (shape_of [1]) v.
Lemma zero_step : forall lr w g : R, exists o' st', optim_optimize (OSGD (sgd_new lr 0 0 0 false)%R) (fun _ => t1 w) [0] [t1 g] 0%R = (o', st', Ok tt) /\ st' 0 = t1 (w - lr * g)%R.
Proof.
  intros lr w g. assert (HE : @s_eq R SI 0%R zero = true). { change (Reqb 0 0 = true). unfold Reqb. destruct (Req_EM_T 0 0); congruence. }
  cbn [optim_optimize]. unfold sgd_optimize, sgd_rate. rewrite (proj1 (low_rate 0%R (Rle_refl _))). cbn [Zlen length negb Z.of_nat Z.eqb combine opt_loop sgd_new sg_lr].
  change (Zlen [0] =? Zlen [t1 g]) with true. cbn [negb]. unfold sgd_update, for_. change (zrange 0 (ssize (tshape (t1 w)))) with [0]. cbv zeta. cbn [foldM]. unfold sgd_body. cbn [sgd_new sg_wd sg_mom]. rewrite HE. cbn [negb].
  change (rd (tdata (t1 g)) 0) with (Ok g). change (rd (tdata (t1 w)) 0) with (Ok w). cbn [bind].
  change (wr (tdata (t1 w)) 0 (s_sub w (s_mul lr g))) with (Ok [(w - lr * g)%R]). cbn [bind step]. eexists. eexists. split; reflexivity.
Qed.
Theorem zero_override_moves : forall lr g : R, lr <> 0%R -> g <> 0%R -> exists o' st', optim_optimize (OSGD (sgd_new lr 0 0 0 false)%R) (fun _ => t1 0) [0] [t1 g] 0%R = (o', st', Ok tt) /\ st' 0 <> t1 0.
Proof.
  intros lr g HL HG. destruct (zero_step lr 0 g) as (o' & st' & E & H). exists o', st'. split; [exact E|]. rewrite H. intros Q. apply (f_equal tdata) in Q. unfold t1, t_fill in Q. cbn in Q. injection Q as Q. apply (Rmult_integral_contrapositive_currified lr g HL HG). lra.
Qed.

Section N.
Context {G : Type} {HR : Rng R G}.
Lemma pair_still : forall o i w b gw gb o' w' b' r, rate_zero o -> pair_optimize o i w b gw gb = (o', w', b', r) -> rate_zero o' /\ w' = w /\ b' = b.
Proof.
  intros o i w b gw gb o' w' b' r HZ E. unfold pair_optimize in E. destruct (optim_optimize o (pair_store i w b) [2 * i; 2 * i + 1] [gw; gb] (s_z (-1))) as ((o1 & st) & r1) eqn:E1. injection E as <- <- <- _.
  assert (HN : (IZR (-1) <= 0)%R) by lra. destruct (optimize_still _ _ _ _ _ _ _ _ HZ HN E1) as (A & B). rewrite !B. unfold pair_store. rewrite Z.eqb_refl. destruct (Z.eqb_spec (2 * i + 1) (2 * i)); [lia|auto].
Qed.
Lemma update_still : forall ls i o ls' o' r, rate_zero o -> update_all i ls o = (ls', o', r) -> rate_zero o' /\ map without_grads ls' = map without_grads ls.
Proof.
  assert (HL : forall i l o l' o' r, rate_zero o -> layer_update i l o = (l', o', r) -> rate_zero o' /\ l' = l).
  { intros i l o l' o' r HZ E. destruct l as [l|l|l|l|l|l|l]; cbn [layer_update] in E; try (injection E as <- <- _; auto; fail).
    - destruct (fc_gw l) as [gw|] eqn:A; [|injection E as <- <- _; auto]. destruct (fc_gb l) as [gb|] eqn:B; [|injection E as <- <- _; auto]. destruct (pair_optimize o i (fc_w l) (fc_b l) gw gb) as (((o1 & w) & b) & r1) eqn:E1.
      destruct (pair_still _ _ _ _ _ _ _ _ _ _ HZ E1) as (Q1 & -> & ->). injection E as <- <- _. split; [auto|]. rewrite <- A, <- B. destruct l; reflexivity.
    - destruct (cv_gw l) as [gw|] eqn:A; [|injection E as <- <- _; auto]. destruct (cv_gb l) as [gb|] eqn:B; [|injection E as <- <- _; auto]. destruct (pair_optimize o i (cv_w l) (cv_b l) gw gb) as (((o1 & w) & b) & r1) eqn:E1.
      destruct (pair_still _ _ _ _ _ _ _ _ _ _ HZ E1) as (Q1 & -> & ->). injection E as <- <- _. split; [auto|]. rewrite <- A, <- B. destruct l; reflexivity.
    - destruct (bn_ggamma l) as [gw|] eqn:A; [|injection E as <- <- _; auto]. destruct (bn_gbeta l) as [gb|] eqn:B; [|injection E as <- <- _; auto]. destruct (pair_optimize o i (bn_gamma l) (bn_beta l) gw gb) as (((o1 & w) & b) & r1) eqn:E1.
      destruct (pair_still _ _ _ _ _ _ _ _ _ _ HZ E1) as (Q1 & -> & ->). injection E as <- <- _. split; [auto|]. rewrite <- A, <- B. destruct l; reflexivity. }
  induction ls as [|l ls IH]; intros i o ls' o' r HZ E; cbn [update_all] in E; [injection E as <- <- _; auto|].
  destruct (layer_update i l o) as ((l1 & o1) & r1) eqn:E1. destruct (HL _ _ _ _ _ _ HZ E1) as (A & ->). destruct r1 as [u| | | |]; try (injection E as <- <- _; auto; fail).
  destruct (update_all (i + 1) ls o1) as ((ls2 & o2) & r2) eqn:E2. destruct (IH _ _ _ _ _ A E2) as (B & C). injection E as <- <- _. cbn [map]. rewrite C. auto.
Qed.
(** What no operation of training changes. *)
Definition kept_from (n n' : net R G) : Prop := (exists o, n_opt n' = Some o /\ rate_zero o) /\ map layer_params (n_layers n') = map layer_params (n_layers n).
Lemma kept_trans : forall a b c, kept_from a b -> kept_from b c -> kept_from a c.
Proof. intros a b c (_ & H1) (H2 & H3). split; [auto|congruence]. Qed.
Lemma sample_still : forall n x t tot n' r o, n_opt n = Some o -> rate_zero o -> train_sample n x t tot = (n', r) -> kept_from n n'.
Proof.
  intros n x t tot n' r o HO HZ E. unfold train_sample in E. destruct (net_predict n x) as (n1 & p) eqn:EP. destruct (predict_params _ _ _ _ EP) as (A & B & C).
  assert (H1 : kept_from n n1) by (split; [exists o; rewrite C; auto|auto]).
  destruct p as [p| | | |]; cbn [step] in E; try (injection E as <- _; exact H1). destruct (n_loss n) as [lo|]; [|injection E as <- _; exact H1].
  match type of E with step _ ?m _ = _ => destruct m as [(tot1 & d)| | | |] end; cbn [step] in E; try (injection E as <- _; exact H1).
  destruct (net_backward n1 d) as (n2 & r2) eqn:EB. destruct (net_backward_keeps _ _ _ _ EB) as (D & _ & F & _).
  assert (H2 : kept_from n n2) by (split; [exists o; rewrite F, C; auto|rewrite (params_grads _ _ D); auto]).
  destruct r2 as [u| | | |]; cbn [step] in E; try (injection E as <- _; exact H2).
  destruct (net_update n2) as (n3 & r3) eqn:EU.
  assert (H3 : kept_from n n3).
  { destruct H2 as ((o2 & HO2 & HZ2) & H2). unfold net_update in EU. destruct (n_layers n2) as [|l ls] eqn:EL; [injection EU as <- _; split; [exists o2; auto|rewrite EL; auto]|]. rewrite HO2 in EU.
    destruct (update_all 0 (l :: ls) o2) as ((ls' & o') & r') eqn:EA. destruct (update_still _ _ _ _ _ _ HZ2 EA) as (Q1 & Q2). injection EU as <- _. split; [exists o'; auto|]. cbn [n_layers]. rewrite (params_grads _ _ Q2). auto. }
  destruct r3 as [u3| | | |]; cbn [step] in E; injection E as <- _; exact H3.
Qed.
Lemma samples_still : forall xs n ts i tot n' r o, n_opt n = Some o -> rate_zero o -> train_samples n xs ts i tot = (n', r) -> kept_from n n'.
Proof.
  induction xs as [|x xs IH]; intros n ts i tot n' r o HO HZ E; cbn [train_samples] in E; [injection E as <- _; split; eauto|].
  destruct (train_sample n x (rd ts i) tot) as (n1 & r1) eqn:E1. pose proof (sample_still _ _ _ _ _ _ _ HO HZ E1) as H1. destruct r1 as [tot1| | | |]; cbn [step] in E; try (injection E as <- _; exact H1).
  destruct H1 as ((o1 & A & B) & C). eapply kept_trans; [|eapply IH; eauto]. split; eauto.
Qed.
Lemma epoch_still : forall n xs ts n' r o, n_opt n = Some o -> rate_zero o -> train_epoch n xs ts = (n', r) -> kept_from n n'.
Proof.
  intros n xs ts n' r o HO HZ E. unfold train_epoch in E. match type of E with step _ ?m _ = _ => destruct m as [tot| | | |] end; cbn [step] in E; try (injection E as <- _; split; eauto; fail).
  destruct (train_samples n xs ts 0 tot) as (n1 & r1) eqn:E1. pose proof (samples_still _ _ _ _ _ _ _ _ HO HZ E1) as H1. destruct r1 as [tot1| | | |]; cbn [step] in E; try (injection E as <- _; exact H1).
  match type of E with step _ ?m _ = _ => destruct m end; cbn [step] in E; injection E as <- _; exact H1.
Qed.
Theorem training_still : forall (n n' : net R G) o xs ts e r, n_opt n = Some o -> rate_zero o -> net_train n xs ts e = (n', r) -> map layer_params (n_layers n') = map layer_params (n_layers n).
Proof.
  intros n n' o xs ts e r HO HZ E. unfold net_train in E. cut (kept_from n n'); [intros H; apply H|]. revert n o HO HZ E. generalize (Z.to_nat e) as k. induction k as [|k IH]; intros n o HO HZ E; cbn [train_epochs] in E; [injection E as <- _; split; eauto|].
  destruct (train_epoch n xs ts) as (n1 & r1) eqn:E1. pose proof (epoch_still _ _ _ _ _ _ HO HZ E1) as H1. destruct r1 as [u| | | |]; cbn [step] in E; try (injection E as <- _; exact H1).
  destruct H1 as ((o1 & A & B) & C). eapply kept_trans; [|eapply IH; eauto]. split; eauto.
Qed.
End N.
End F.
