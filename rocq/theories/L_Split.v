(** * Training in several calls (C121) *)
From Coq Require Import ZArith Ascii String.
From Verif Require Import Base Scalar Types TextBase Spec SpecNN M_Shape M_Tensor M_Adv M_Act M_Loss M_Layers M_Reg M_Opt M_Net M_Log SpecNet SpecLog SpecSplit L_Index L_Tensor L_Net L_Log.
Local Open Scope list_scope.

Section S.
Context {T : Type} {S : Scalar T} {G : Type} {HR : Rng T G}.
Local Notation net := (net T G).
Local Notation layer := (layer T).

(** ** Epochs *)
Lemma epochs_plus : forall xs ts a b (n : net), train_epochs n xs ts (a + b) = (let '(m, o) := train_epochs n xs ts a in step m o (fun _ => train_epochs m xs ts b)).
Proof.
  induction a as [|a IH]; intros b n; [reflexivity|]. cbn [Nat.add train_epochs]. destruct (train_epoch n xs ts) as (m & o). destruct o as [[]| | | |]; cbn [step]; [apply IH|reflexivity..].
Qed.
Theorem train_plus : forall xs ts a b (n : net), 0 <= a -> 0 <= b ->
  net_train n xs ts (a + b) = (let '(m, o) := net_train n xs ts a in match o with Ok _ => net_train m xs ts b | _ => (m, o) end).
Proof.
  intros xs ts a b n HA HB. unfold net_train. rewrite Z2Nat.inj_add by lia. rewrite epochs_plus. destruct (train_epochs n xs ts (Z.to_nat a)) as (m & o). destruct o as [[]| | | |]; reflexivity.
Qed.

(** ** Samples *)
Theorem train_append : forall xs ts ys us (n n' : net), Zlen xs = Zlen ts -> Zlen ys <= Zlen us ->
  s_eq (s_z (Zlen xs)) zero = false -> s_eq (s_z (Zlen ys)) zero = false -> s_eq (s_z (Zlen (xs ++ ys))) zero = false ->
  net_train n (xs ++ ys) (ts ++ us) 1 = (n', Ok tt) <-> exists m, net_train n xs ts 1 = (m, Ok tt) /\ net_train m ys us 1 = (n', Ok tt).
Proof.
  intros xs ts ys us n n' HL HL2 H1 H2 H3. assert (HC : combine (xs ++ ys) (ts ++ us) = combine xs ts ++ combine ys us).
  { assert (HN : length xs = length ts) by (unfold Zlen in HL; lia). clear - HN. revert ts HN. induction xs as [|x xs IH]; intros [|t ts] HN; try discriminate; [reflexivity|]. cbn [app combine]. rewrite IH by (cbn in HN; lia). reflexivity. }
  rewrite train_fit; [|rewrite !Zlen_app; lia|exact H3]. change (Z.to_nat 1) with 1%nat. cbn [repeat concat]. rewrite app_nil_r, HC, fit_app.
  split; intros (m & F1 & F2); exists m; (split; [apply train_fit in F1 || apply train_fit|apply train_fit in F2 || apply train_fit]; auto; try lia);
    change (Z.to_nat 1) with 1%nat in *; cbn [repeat concat] in *; rewrite ?app_nil_r in *; auto.
Qed.
(** A failure in the first part is the failure of the whole. *)
Lemma samples_app : forall xs ts us ys (n : net) tot pre, Zlen xs = Zlen ts ->
  train_samples n (xs ++ ys) (pre ++ ts ++ us) (Zlen pre) tot =
  (let '(m, o) := train_samples n xs (pre ++ ts) (Zlen pre) tot in step m o (fun tot => train_samples m ys (pre ++ ts ++ us) (Zlen pre + Zlen xs) tot)).
Proof.
  induction xs as [|x xs IH]; intros ts us ys n tot pre HL.
  - cbn [app train_samples step]. change (Zlen (@nil (tensor T))) with 0. rewrite Z.add_0_r. reflexivity.
  - destruct ts as [|t ts]; [unfold Zlen in HL; cbn in HL; lia|]. cbn [app train_samples].
    rewrite !rd_app. destruct (train_sample n x (Ok t) tot) as (m & o). destruct o as [tot1| | | |]; cbn [step]; [|reflexivity..].
    assert (EZ : Zlen pre + 1 = Zlen (pre ++ [t])) by (unfold Zlen; rewrite app_length; cbn; lia). rewrite EZ.
    assert (EP : forall r, pre ++ t :: r = (pre ++ [t]) ++ r) by (intros r; rewrite <- app_assoc; reflexivity). rewrite (EP (ts ++ us)), (EP ts).
    rewrite (IH ts us ys m tot1 (pre ++ [t])) by (unfold Zlen in *; cbn [length] in HL; lia).
    replace (Zlen (pre ++ [t]) + Zlen xs) with (Zlen pre + Zlen (x :: xs)); [reflexivity|]. unfold Zlen. rewrite app_length. cbn [length]. lia.
Qed.
Theorem train_append_fails : forall xs ts ys us (n m : net) o, Zlen xs = Zlen ts -> s_eq (s_z (Zlen xs)) zero = false ->
  net_train n xs ts 1 = (m, o) -> o <> Ok tt -> net_train n (xs ++ ys) (ts ++ us) 1 = (m, o).
Proof.
  intros xs ts ys us n m o HL HZ E HO. unfold net_train in *. change (Z.to_nat 1) with 1%nat in *. cbn [train_epochs] in *. unfold train_epoch in *.
  assert (H1 : new_shape [1] = Ok (shape_of [1])) by (vm_compute; reflexivity). rewrite H1 in *. cbn [bind step] in *.
  pose proof (samples_app xs ts us ys n (t_fill (shape_of [1]) zero) [] HL) as ES. cbn [app] in ES. change (Zlen (@nil (tensor T))) with 0 in ES.
  pose proof (train_samples_fit xs ts [] n (t_fill (shape_of [1]) zero)) as HF.
  destruct (train_samples n xs ts 0 (t_fill (shape_of [1]) zero)) as (k & r) eqn:ET. rewrite ES. destruct r as [tot| | | |]; cbn [step] in *.
  - exfalso. assert (HU : unit_total tot). { destruct (HF k (good_one zero) ltac:(lia)) as (A & _). cbn [app] in A. change (Zlen (@nil (tensor T))) with 0 in A. destruct (A tot ET). auto. }
    unfold t_div_s in E. rewrite HZ, t_map_ok in E by apply HU. cbn [step] in E. congruence.
  - injection E as <- <-. reflexivity.
  - injection E as <- <-. reflexivity.
  - injection E as <- <-. reflexivity.
  - injection E as <- <-. reflexivity.
Qed.
(** ** One call per sample *)
Lemma train_one : forall (n n' : net) x t, s_eq (s_z 1) zero = false -> net_train n [x] [t] 1 = (n', Ok tt) <-> fit_one n x t n'.
Proof.
  intros n n' x t H1. rewrite train_fit by (unfold Zlen; cbn; auto; lia). cbn. split; [intros F; inversion F as [|? ? ? m ? ? F1 F2]; subst; inversion F2; subst; auto|intros F; econstructor; [exact F|constructor]].
Qed.
Lemma fit_single : s_eq (s_z 1) zero = false -> forall l (n n' : net), fit n l n' <-> one_by_one n l n'.
Proof.
  intros H1. induction l as [|(x & t) l IH]; intros n n'; split; intros F; inversion F as [|? ? ? m ? ? F1 F2]; subst; try constructor.
  - apply obo_cons with m; [apply train_one; auto|apply IH; auto].
  - apply train_one in F1; auto. econstructor; [exact F1|apply IH; auto].
Qed.
Theorem train_online : forall xs ts e (n n' : net), s_eq (s_z 1) zero = false -> Zlen xs <= Zlen ts -> s_eq (s_z (Zlen xs)) zero = false ->
  net_train n xs ts e = (n', Ok tt) <-> one_by_one n (concat (repeat (combine xs ts) (Z.to_nat e))) n'.
Proof. intros xs ts e n n' H1 HL HZ. rewrite train_fit by auto. apply fit_single. auto. Qed.

(** ** Compiling again *)
(** SGD without momentum does not use its buffers. *)
Definition plain (o : optim T) : Prop := match o with OSGD s => s_eq (sg_mom s) zero = true | _ => False end.
Definition settings (o : optim T) : option (T * T * T * T * bool) := match o with OSGD s => Some (sg_lr s, sg_mom s, sg_damp s, sg_wd s, sg_nest s) | _ => None end.
Definition alike (o p : optim T) : Prop := plain o /\ plain p /\ settings o = settings p.
Definition like (n m : net) : Prop := same_but_optimizer n m /\ exists o p, n_opt n = Some o /\ n_opt m = Some p /\ alike o p.

Definition data_of (r : outcome (list T * list T)) : outcome (list T) := p <- r ;; Ok (fst p).
Lemma body_plain : forall (s s' : sgd T) gd lr j w m m', s_eq (sg_mom s) zero = true -> s_eq (sg_mom s') zero = true -> sg_wd s = sg_wd s' ->
  data_of (sgd_body s gd lr j (w, m)) = data_of (sgd_body s' gd lr j (w, m')) /\ forall q, sgd_body s gd lr j (w, m) = Ok q -> snd q = m.
Proof.
  intros s s' gd lr j w m m' H1 H2 HW. unfold sgd_body. rewrite H1, H2, <- HW. cbn [negb bind].
  destruct (rd gd j) as [g| | | |]; cbn [bind]; try (split; [reflexivity|discriminate]).
  destruct (negb (s_eq (sg_wd s) zero)).
  - destruct (rd w j) as [v| | | |]; cbn [bind]; try (split; [reflexivity|discriminate]). destruct (wr w j _) as [w'| | | |]; cbn [bind data_of]; (split; [reflexivity|]); intros q E; try discriminate. injection E as <-. reflexivity.
  - cbn [bind]. destruct (rd w j) as [v| | | |]; cbn [bind]; try (split; [reflexivity|discriminate]). destruct (wr w j _) as [w'| | | |]; cbn [bind data_of]; (split; [reflexivity|]); intros q E; try discriminate. injection E as <-. reflexivity.
Qed.
Lemma loop_plain : forall (s s' : sgd T) gd lr, s_eq (sg_mom s) zero = true -> s_eq (sg_mom s') zero = true -> sg_wd s = sg_wd s' -> forall l w m m',
  data_of (foldM (sgd_body s gd lr) l (w, m)) = data_of (foldM (sgd_body s' gd lr) l (w, m')).
Proof.
  intros s s' gd lr H1 H2 HW. induction l as [|j l IH]; intros w m m'; [reflexivity|]. cbn [foldM].
  destruct (body_plain s s' gd lr j w m m' H1 H2 HW) as (E & E1). destruct (body_plain s' s gd lr j w m' m H2 H1 (eq_sym HW)) as (_ & E2).
  destruct (sgd_body s gd lr j (w, m)) as [(w1 & m1)| | | |]; destruct (sgd_body s' gd lr j (w, m')) as [(w2 & m2)| | | |]; cbn [data_of bind fst] in *; try discriminate; try reflexivity; try congruence.
  injection E as <-. specialize (E1 _ eq_refl). specialize (E2 _ eq_refl). cbn [snd] in *. subst. apply IH.
Qed.
Lemma sgd_update_alike : forall (s s' : sgd T) k w g lr, alike (OSGD s) (OSGD s') ->
  snd (sgd_update s k w g lr) = snd (sgd_update s' k w g lr) /\ alike (OSGD (fst (sgd_update s k w g lr))) (OSGD (fst (sgd_update s' k w g lr))) /\ alike (OSGD s) (OSGD (fst (sgd_update s k w g lr))).
Proof.
  intros s s' k w g lr (H1 & H2 & HS). cbn [plain settings] in *. injection HS as A1 A2 A3 A4 A5. unfold sgd_update.
  pose proof (loop_plain s s' (tdata g) lr H1 H2 A4 (zrange 0 (ssize (tshape w))) (tdata w) (tdata (buf_get (sg_buf s) k (tshape w))) (tdata (buf_get (sg_buf s') k (tshape w)))) as E.
  unfold for_ in *. unfold alike, plain, settings.
  destruct (foldM (sgd_body s (tdata g) lr) _ _) as [q| | | |]; destruct (foldM (sgd_body s' (tdata g) lr) _ _) as [q'| | | |]; cbn [data_of bind] in E; try discriminate; cbn [step fst snd sg_mom sg_lr sg_damp sg_wd sg_nest];
    (split; [|split; (split; [auto|split; [auto|congruence]])]); congruence.
Qed.
Ltac four a b := (split; [reflexivity|split; [reflexivity|split; [exact a|exact b]]]).
Lemma loop_alike : forall c l (s s' : sgd T) st, alike (OSGD s) (OSGD s') ->
  match opt_loop sgd_update c l s st, opt_loop sgd_update c l s' st with (o1, st1, r1), (o2, st2, r2) => st1 = st2 /\ r1 = r2 /\ alike (OSGD o1) (OSGD o2) /\ alike (OSGD s) (OSGD o1) end.
Proof.
  intros c. induction l as [|(k & g) l IH]; intros s s' st HA; cbn [opt_loop].
  - split; [auto|]. split; [auto|]. split; [auto|]. destruct HA as (H1 & _ & _). unfold alike. auto.
  - destruct (sgd_update_alike s s' k (st k) g c HA) as (E & HA1 & HA2). destruct (sgd_update s k (st k) g c) as (o1 & r1). destruct (sgd_update s' k (st k) g c) as (o2 & r2). cbn [fst snd] in *. subst r2.
    destruct r1 as [w1| | | |]; try four HA1 HA2.
    specialize (IH o1 o2 (put st k w1) HA1). destruct (opt_loop sgd_update c l o1 (put st k w1)) as ((? & ?) & ?). destruct (opt_loop sgd_update c l o2 (put st k w1)) as ((? & ?) & ?).
    destruct IH as (I1 & I2 & I3 & I4). split; [auto|]. split; [auto|]. split; [auto|]. destruct HA2 as (B1 & _ & B3). destruct I4 as (_ & C2 & C3). unfold alike. split; [auto|]. split; [auto|congruence].
Qed.
Lemma optimize_alike : forall (o p : optim T) st ks gs lro, alike o p ->
  match optim_optimize o st ks gs lro, optim_optimize p st ks gs lro with (o1, st1, r1), (o2, st2, r2) => st1 = st2 /\ r1 = r2 /\ alike o1 o2 /\ alike o o1 end.
Proof.
  intros [s| |] [s'| |] st ks gs lro HA; try (destruct HA as ([] & _ & _); fail); try (destruct HA as (_ & [] & _); fail). cbn [optim_optimize]. unfold sgd_optimize.
  assert (HI : alike (OSGD s) (OSGD s)) by (destruct HA as (H1 & _ & _); unfold alike; auto).
  destruct (negb (Zlen ks =? Zlen gs)); [split; [auto|]; split; [auto|]; split; [exact HA|exact HI]|].
  assert (ER : sgd_rate s lro = sgd_rate s' lro). { unfold sgd_rate. destruct HA as (_ & _ & HS). cbn in HS. injection HS as A1 _ _ _ _. rewrite A1. reflexivity. }
  rewrite <- ER. pose proof (loop_alike (sgd_rate s lro) (combine ks gs) s s' st HA) as H.
  destruct (opt_loop sgd_update (sgd_rate s lro) (combine ks gs) s st) as ((? & ?) & ?). destruct (opt_loop sgd_update (sgd_rate s lro) (combine ks gs) s' st) as ((? & ?) & ?). exact H.
Qed.
Lemma alike_refl : forall o p : optim T, alike o p -> alike o o. Proof. intros o p (H & _). unfold alike. auto. Qed.
Lemma alike_trans : forall o p q : optim T, alike o p -> alike p q -> alike o q. Proof. intros o p q (H1 & H2 & H3) (K1 & K2 & K3). unfold alike. split; [auto|]. split; [auto|congruence]. Qed.
Lemma pair_alike : forall (o p : optim T) i w b gw gb, alike o p ->
  match pair_optimize o i w b gw gb, pair_optimize p i w b gw gb with (o1, w1, b1, r1), (o2, w2, b2, r2) => w1 = w2 /\ b1 = b2 /\ r1 = r2 /\ alike o1 o2 /\ alike o o1 end.
Proof.
  intros o p i w b gw gb HA. unfold pair_optimize. pose proof (optimize_alike o p (pair_store i w b) [2 * i; 2 * i + 1] [gw; gb] (s_z (-1)) HA) as H.
  destruct (optim_optimize o _ _ _ _) as ((? & ?) & ?). destruct (optim_optimize p _ _ _ _) as ((? & ?) & ?). destruct H as (-> & -> & H). tauto.
Qed.
Lemma update_alike : forall i (l : layer) (o p : optim T), alike o p ->
  match layer_update i l o, layer_update i l p with (l1, o1, r1), (l2, o2, r2) => l1 = l2 /\ r1 = r2 /\ alike o1 o2 /\ alike o o1 end.
Proof.
  intros i l o p HA. pose proof (alike_refl o p HA) as HI. destruct l; cbn [layer_update]; try four HA HI.
  - destruct (fc_gw l) as [gw|]; [|four HA HI]. destruct (fc_gb l) as [gb|]; [|four HA HI]. pose proof (pair_alike o p i (fc_w l) (fc_b l) gw gb HA) as H.
    destruct (pair_optimize o i _ _ _ _) as (((? & ?) & ?) & ?). destruct (pair_optimize p i _ _ _ _) as (((? & ?) & ?) & ?). destruct H as (-> & -> & -> & H). tauto.
  - destruct (cv_gw l) as [gw|]; [|four HA HI]. destruct (cv_gb l) as [gb|]; [|four HA HI]. pose proof (pair_alike o p i (cv_w l) (cv_b l) gw gb HA) as H.
    destruct (pair_optimize o i _ _ _ _) as (((? & ?) & ?) & ?). destruct (pair_optimize p i _ _ _ _) as (((? & ?) & ?) & ?). destruct H as (-> & -> & -> & H). tauto.
  - destruct (bn_ggamma l) as [gw|]; [|four HA HI]. destruct (bn_gbeta l) as [gb|]; [|four HA HI]. pose proof (pair_alike o p i (bn_gamma l) (bn_beta l) gw gb HA) as H.
    destruct (pair_optimize o i _ _ _ _) as (((? & ?) & ?) & ?). destruct (pair_optimize p i _ _ _ _) as (((? & ?) & ?) & ?). destruct H as (-> & -> & -> & H). tauto.
Qed.
Lemma all_alike : forall (ls : list layer) i (o p : optim T), alike o p ->
  match update_all i ls o, update_all i ls p with (l1, o1, r1), (l2, o2, r2) => l1 = l2 /\ r1 = r2 /\ alike o1 o2 /\ alike o o1 end.
Proof.
  induction ls as [|l ls IH]; intros i o p HA; cbn [update_all]; [pose proof (alike_refl o p HA); auto|].
  pose proof (update_alike i l o p HA) as H. destruct (layer_update i l o) as ((l1 & o1) & r1). destruct (layer_update i l p) as ((l2 & o2) & r2). destruct H as (-> & -> & H1 & H2).
  destruct r2 as [[]| | | |]; try four H1 H2. specialize (IH (i + 1) o1 o2 H1).
  destruct (update_all (i + 1) ls o1) as ((? & ?) & ?). destruct (update_all (i + 1) ls o2) as ((? & ?) & ?). destruct IH as (-> & -> & I3 & I4). split; [auto|]. split; [auto|]. split; [auto|]. eapply alike_trans; eauto.
Qed.
(** The state of the first network keeps its settings: [kept o n] *)
Definition kept (n n' : net) : Prop := exists o o', n_opt n = Some o /\ n_opt n' = Some o' /\ alike o o' /\ n_loss n' = n_loss n.
Lemma kept_refl : forall n m : net, like n m -> kept n n. Proof. intros n m (_ & o & p & E & _ & HA). exists o, o. split; [auto|]. split; [auto|]. split; [eapply alike_refl; eauto|auto]. Qed.
Lemma kept_trans : forall a b c : net, kept a b -> kept b c -> kept a c.
Proof. intros a b c (o & p & E1 & E2 & HA & L1) (p' & q & E3 & E4 & HB & L2). rewrite E2 in E3. injection E3 as <-. exists o, q. split; [auto|]. split; [auto|]. split; [eapply alike_trans; eauto|congruence]. Qed.

Lemma predict_like : forall (n m : net) x, like n m -> match net_predict n x, net_predict m x with (n1, o1), (m1, o2) => o1 = o2 /\ like n1 m1 /\ kept n n1 end.
Proof.
  intros n m x ((A1 & A2 & A3) & o & p & E1 & E2 & HA). unfold net_predict. rewrite A1, A3. destruct (forward_all (n_layers n) x (n_rng n)) as ((ls & g) & r). split; [auto|]. split.
  - split; [unfold same_but_optimizer; cbn; auto|]. exists o, p. cbn. auto.
  - exists o, o. cbn. split; [auto|]. split; [auto|]. split; [eapply alike_refl; eauto|auto].
Qed.
Lemma backward_like : forall (n m : net) d, like n m -> match net_backward n d, net_backward m d with (n1, o1), (m1, o2) => o1 = o2 /\ like n1 m1 /\ kept n n1 end.
Proof.
  intros n m d ((A1 & A2 & A3) & o & p & E1 & E2 & HA). unfold net_backward. rewrite A1. destruct (backward_all (n_layers n) d) as (ls & r).
  assert (H1 : like (net_with n ls) (net_with m ls)) by (split; [unfold same_but_optimizer; cbn; auto|]; exists o, p; cbn; auto).
  assert (H2 : kept n (net_with n ls)) by (exists o, o; cbn; split; [auto|]; split; [auto|]; split; [eapply alike_refl; eauto|auto]).
  destruct r; cbn [step]; auto.
Qed.
Lemma net_update_like : forall (n m : net), like n m -> match net_update n, net_update m with (n1, o1), (m1, o2) => o1 = o2 /\ like n1 m1 /\ kept n n1 end.
Proof.
  intros n m HL. pose proof (kept_refl n m HL) as HK. destruct HL as ((A1 & A2 & A3) & o & p & E1 & E2 & HA). unfold net_update. rewrite A1, E1, E2.
  destruct (n_layers n) as [|l ls] eqn:EL; [split; [auto|]; split; [|auto]; split; [unfold same_but_optimizer; rewrite A1, EL; auto|eauto]|].
  pose proof (all_alike (l :: ls) 0 o p HA) as H. destruct (update_all 0 (l :: ls) o) as ((ls1 & o1) & r1). destruct (update_all 0 (l :: ls) p) as ((ls2 & o2) & r2). destruct H as (-> & -> & H1 & H2).
  split; [auto|]. split; [split; [unfold same_but_optimizer; cbn; auto|]; exists o1, o2; cbn; auto|]. exists o, o1. cbn. auto.
Qed.
Lemma sample_like : forall (n m : net) x t tot, like n m -> match train_sample n x t tot, train_sample m x t tot with (n1, o1), (m1, o2) => o1 = o2 /\ like n1 m1 /\ kept n n1 end.
Proof.
  intros n m x t tot HL. unfold train_sample. pose proof (predict_like n m x HL) as H. destruct (net_predict n x) as (n1 & r1). destruct (net_predict m x) as (m1 & r2). destruct H as (<- & L1 & K1).
  destruct r1 as [y| | | |]; cbn [step]; auto. destruct HL as ((A1 & A2 & A3) & _). rewrite A2. destruct (n_loss n) as [l|]; auto.
  match goal with |- match step n1 ?e _ with _ => _ end => destruct e as [(tot' & d)| | | |] end; cbn [step]; auto.
  pose proof (backward_like n1 m1 d L1) as H. destruct (net_backward n1 d) as (n2 & r1). destruct (net_backward m1 d) as (m2 & r2). destruct H as (<- & L2 & K2). pose proof (kept_trans _ _ _ K1 K2) as K12.
  destruct r1 as [[]| | | |]; cbn [step]; auto. pose proof (net_update_like n2 m2 L2) as H. destruct (net_update n2) as (n3 & r1). destruct (net_update m2) as (m3 & r2). destruct H as (<- & L3 & K3). pose proof (kept_trans _ _ _ K12 K3).
  destruct r1 as [[]| | | |]; cbn [step]; auto.
Qed.
Lemma samples_like : forall xs ts i (n m : net) tot, like n m -> match train_samples n xs ts i tot, train_samples m xs ts i tot with (n1, o1), (m1, o2) => o1 = o2 /\ like n1 m1 /\ kept n n1 end.
Proof.
  induction xs as [|x xs IH]; intros ts i n m tot HL; cbn [train_samples]; [split; [auto|]; split; [auto|eapply kept_refl; eauto]|].
  pose proof (sample_like n m x (rd ts i) tot HL) as H. destruct (train_sample n x (rd ts i) tot) as (n1 & r1). destruct (train_sample m x (rd ts i) tot) as (m1 & r2). destruct H as (<- & L1 & K1).
  destruct r1 as [tot1| | | |]; cbn [step]; auto. specialize (IH ts (i + 1) n1 m1 tot1 L1). destruct (train_samples n1 xs ts (i + 1) tot1) as (n2 & r1). destruct (train_samples m1 xs ts (i + 1) tot1) as (m2 & r2).
  destruct IH as (-> & L2 & K2). split; [auto|]. split; [auto|]. eapply kept_trans; eauto.
Qed.
Lemma epoch_like : forall xs ts (n m : net), like n m -> match train_epoch n xs ts, train_epoch m xs ts with (n1, o1), (m1, o2) => o1 = o2 /\ like n1 m1 /\ kept n n1 end.
Proof.
  intros xs ts n m HL. unfold train_epoch. assert (H1 : new_shape [1] = Ok (shape_of [1])) by (vm_compute; reflexivity). rewrite H1. cbn [bind step].
  pose proof (samples_like xs ts 0 n m (t_fill (shape_of [1]) zero) HL) as H. destruct (train_samples n xs ts 0 _) as (n1 & r1). destruct (train_samples m xs ts 0 _) as (m1 & r2). destruct H as (<- & L1 & K1).
  destruct r1 as [tot1| | | |]; cbn [step]; auto. destruct (t_div_s tot1 _); cbn [step]; auto.
Qed.
Lemma epochs_like : forall xs ts k (n m : net), like n m -> match train_epochs n xs ts k, train_epochs m xs ts k with (n1, o1), (m1, o2) => o1 = o2 /\ like n1 m1 /\ kept n n1 end.
Proof.
  intros xs ts. induction k as [|k IH]; intros n m HL; cbn [train_epochs]; [split; [auto|]; split; [auto|eapply kept_refl; eauto]|].
  pose proof (epoch_like xs ts n m HL) as H. destruct (train_epoch n xs ts) as (n1 & r1). destruct (train_epoch m xs ts) as (m1 & r2). destruct H as (<- & L1 & K1).
  destruct r1 as [[]| | | |]; cbn [step]; auto. specialize (IH n1 m1 L1). destruct (train_epochs n1 xs ts k) as (n2 & r1). destruct (train_epochs m1 xs ts k) as (m2 & r2).
  destruct IH as (-> & L2 & K2). split; [auto|]. split; [auto|]. eapply kept_trans; eauto.
Qed.
Theorem recompiled : forall (n m : net) l lr mom damp wd nest xs ts a ys us b, s_eq mom zero = true -> n_loss n = Some l -> n_opt n = Some (OSGD (sgd_new lr mom damp wd nest)) ->
  net_train n xs ts a = (m, Ok tt) ->
  let m' := net_compile m l (OSGD (sgd_new lr mom damp wd nest)) in
  snd (net_train m' ys us b) = snd (net_train m ys us b) /\ same_but_optimizer (fst (net_train m ys us b)) (fst (net_train m' ys us b)).
Proof.
  intros n m l lr mom damp wd nest xs ts a ys us b HM EL EO E m'.
  assert (HN : like n n). { split; [unfold same_but_optimizer; auto|]. do 2 eexists. split; [exact EO|]. split; [exact EO|]. unfold alike. cbn. auto. }
  unfold net_train in E. pose proof (epochs_like xs ts (Z.to_nat a) n n HN) as H. rewrite E in H. destruct H as (_ & _ & o & o' & E1 & E2 & HA & HL).
  rewrite EO in E1. injection E1 as <-.
  assert (HM' : like m m'). { split; [unfold same_but_optimizer, m'; cbn; split; [auto|]; split; [congruence|auto]|]. exists o', (OSGD (sgd_new lr mom damp wd nest)). split; [auto|]. split; [reflexivity|]. destruct HA as (B1 & B2 & B3). unfold alike. auto. }
  unfold net_train. pose proof (epochs_like ys us (Z.to_nat b) m m' HM') as H. destruct (train_epochs m ys us (Z.to_nat b)) as (m1 & r1). destruct (train_epochs m' ys us (Z.to_nat b)) as (m2 & r2). cbn [fst snd].
  destruct H as (-> & (HS & _) & _). auto.
Qed.
End S.

(** ** The report *)
Section R.
Context {T : Type} {S : Scalar T} {G : Type} {HR : Rng T G}.
Lemma epochs_joined : forall s (n m k : net T G) a b, fit_epochs s n a m -> fit_epochs s m b k -> fit_epochs s n (a ++ b) k.
Proof. intros s n m k a b F. induction F as [|n vs n1 r n2 F1 F2 IH]; intros H; cbn [app]; auto. econstructor; eauto. Qed.
Theorem report_plus : forall (show : T -> string) xs ts a b (n m n' : net T G) t1 t2, (Zlen xs <= Zlen ts)%Z -> s_eq (s_z (Zlen xs)) zero = false -> (0 <= a)%Z -> (0 <= b)%Z ->
  net_train_report show n xs ts a = ((m, t1), Ok tt) -> net_train_report show m xs ts b = ((n', t2), Ok tt) ->
  exists v1 v2, t1 = report_from show 0 v1 /\ t2 = report_from show 0 v2 /\ net_train_report show n xs ts (a + b) = ((n', report_from show 0 (v1 ++ v2)%list), Ok tt).
Proof.
  intros show xs ts a b n m n' t1 t2 HL HZ HA HB E1 E2. apply train_report in E1; auto. apply train_report in E2; auto. destruct E1 as (l1 & F1 & K1 & ->). destruct E2 as (l2 & F2 & K2 & ->).
  exists (map average l1), (map average l2). split; [auto|]. split; [auto|]. apply train_report; auto. exists (l1 ++ l2)%list. split; [eapply epochs_joined; eauto|]. split; [rewrite app_length, Z2Nat.inj_add by lia; lia|].
  rewrite map_app. reflexivity.
Qed.
End R.
