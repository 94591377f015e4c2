(** * Backward passes that fail, and the next one (C113) *)
From Verif Require Import Base Scalar Types Spec SpecNN M_Shape M_Tensor M_Adv M_Act M_Loss M_Layers M_Reg M_Opt M_Net SpecNet SpecRetry L_Index L_Tensor L_Net.

Section S.
Context {T : Type} {S : Scalar T}.
Lemma conv_same : forall (l l' : conv T) d, without_grads (LConv l) = without_grads (LConv l') ->
  snd (conv_backward l d) = snd (conv_backward l' d) /\ without_grads (LConv (fst (conv_backward l d))) = without_grads (LConv l) /\
  (forall y, snd (conv_backward l d) = Ok y -> fst (conv_backward l d) = fst (conv_backward l' d)).
Proof.
  intros l l' d E. destruct l, l'. cbn in E. injection E as -> -> -> -> -> -> -> -> -> ->. unfold conv_backward. cbn [cv_in cv_w cv_b cv_kh cv_kw conv_with]. cbv zeta.
  destruct cv_in0 as [x|]; [|cbn; split; [auto|split; [auto|discriminate]]].
  match goal with |- context [step _ ?m _] => destruct m as [(gh & gwd)| | | |] end; cbn [step]; try (cbn; split; [auto|split; [auto|discriminate]]).
  match goal with |- context [keep_loop ?b ?l ?s] => destruct (keep_loop b l s) as [gb [u1| | | |]] end; cbn [step]; try (cbn; split; [auto|split; [auto|discriminate]]).
  match goal with |- context [keep_loop ?b ?l ?s] => destruct (keep_loop b l s) as [gw [u2| | | |]] end; cbn [step]; try (cbn; split; [auto|split; [auto|discriminate]]).
  cbn [fst snd]. auto.
Qed.
Lemma fc_same : forall (l l' : fc T) d, without_grads (LFC l) = without_grads (LFC l') ->
  snd (fc_backward l d) = snd (fc_backward l' d) /\ without_grads (LFC (fst (fc_backward l d))) = without_grads (LFC l) /\
  (forall y, snd (fc_backward l d) = Ok y -> fst (fc_backward l d) = fst (fc_backward l' d)).
Proof.
  intros l l' d E. destruct l, l'. cbn in E. injection E as -> -> ->. unfold fc_backward. cbn [fc_in fc_w fc_b M_Layers.fc_gw M_Layers.fc_gb].
  destruct fc_in0 as [x|]; [|cbn; split; [auto|split; [auto|discriminate]]].
  match goal with |- context [step _ ?m _] => destruct m as [(g2 & gw)| | | |] end; cbn [step]; try (cbn; split; [auto|split; [auto|discriminate]]).
  match goal with |- context [step _ ?m _] => destruct m as [gb| | | |] end; cbn [step]; try (cbn; split; [auto|split; [auto|discriminate]]).
  cbn [fst snd]. auto.
Qed.
Lemma bn_same : forall (l l' : bn T) d, without_grads (LBN l) = without_grads (LBN l') ->
  snd (bn_backward l d) = snd (bn_backward l' d) /\ without_grads (LBN (fst (bn_backward l d))) = without_grads (LBN l) /\
  (forall y, snd (bn_backward l d) = Ok y -> fst (bn_backward l d) = fst (bn_backward l' d)).
Proof.
  intros l l' d E. destruct l, l'. cbn in E. injection E as -> -> -> -> -> -> -> -> -> -> ->. unfold bn_backward. cbn [bn_mean bn_var bn_norm bn_gamma bn_eps].
  destruct bn_mean0; [|cbn; split; [auto|split; [auto|discriminate]]]. destruct bn_var0; [|cbn; split; [auto|split; [auto|discriminate]]]. destruct bn_norm0; [|cbn; split; [auto|split; [auto|discriminate]]]. cbv zeta.
  match goal with |- context [step _ ?m _] => destruct m as [((dg & db) & dx)| | | |] end; cbn [step]; try (cbn; split; [auto|split; [auto|discriminate]]).
  cbn [fst snd bn_with_grads]. auto.
Qed.
Lemma layer_same : forall (l l' : layer T) d, without_grads l = without_grads l' ->
  snd (layer_backward l d) = snd (layer_backward l' d) /\ without_grads (fst (layer_backward l d)) = without_grads l /\
  (forall y, snd (layer_backward l d) = Ok y -> fst (layer_backward l d) = fst (layer_backward l' d)).
Proof.
  intros l l' d E. destruct l as [l|l|l|l|l|l|l], l' as [l'|l'|l'|l'|l'|l'|l']; try discriminate E; cbn [layer_backward]; try (cbn in E; injection E as ->; cbn; auto; fail).
  - pose proof (fc_same l l' d E) as (A & B & C). destruct (fc_backward l d), (fc_backward l' d). cbn [fst snd] in *. split; [auto|split; [auto|]]. intros y Ey. f_equal. eauto.
  - pose proof (conv_same l l' d E) as (A & B & C). destruct (conv_backward l d), (conv_backward l' d). cbn [fst snd] in *. split; [auto|split; [auto|]]. intros y Ey. f_equal. eauto.
  - pose proof (bn_same l l' d E) as (A & B & C). destruct (bn_backward l d), (bn_backward l' d). cbn [fst snd] in *. split; [auto|split; [auto|]]. intros y Ey. f_equal. eauto.
Qed.
Lemma all_same : forall (ls ls' : list (layer T)) d, map without_grads ls = map without_grads ls' ->
  snd (backward_all ls d) = snd (backward_all ls' d) /\ map without_grads (fst (backward_all ls d)) = map without_grads ls /\
  (forall y, snd (backward_all ls d) = Ok y -> fst (backward_all ls d) = fst (backward_all ls' d)).
Proof.
  induction ls as [|l ls IH]; intros [|l' ls'] d E; try discriminate E; [cbn; auto|]. cbn [map] in E. assert (E1 : without_grads l = without_grads l') by congruence. assert (E2 : map without_grads ls = map without_grads ls') by congruence.
  specialize (IH ls' d E2). destruct IH as (A & B & C). cbn [backward_all]. destruct (backward_all ls d) as [r o], (backward_all ls' d) as [r' o']. cbn [fst snd] in *. subst o'.
  destruct o as [d'|e| | |]; cbn [fst snd map]; try (split; [auto|split; [congruence|discriminate]]).
  rewrite (C d' eq_refl). destruct (layer_same l l' d' E1) as (A1 & B1 & C1). destruct (layer_backward l d') as [l1 o1], (layer_backward l' d') as [l1' o1']. cbn [fst snd map] in *.
  split; [auto|]. split; [rewrite B1, <- (C d' eq_refl), B; reflexivity|]. intros y Ey. f_equal. eauto.
Qed.
Lemma backward_keeps : forall (ls : list (layer T)) d, map without_grads (fst (backward_all ls d)) = map without_grads ls.
Proof. intros ls d. apply (all_same ls ls d eq_refl). Qed.
Lemma backward_again : forall (ls : list (layer T)) d d' y, snd (backward_all ls d') = Ok y -> backward_all (fst (backward_all ls d)) d' = backward_all ls d'.
Proof.
  intros ls d d' y E. destruct (all_same ls (fst (backward_all ls d)) d' (eq_sym (backward_keeps ls d))) as (A & _ & C). specialize (C y E).
  destruct (backward_all (fst (backward_all ls d)) d'), (backward_all ls d'). cbn [fst snd] in *. congruence.
Qed.

(** ** Predictions before training (C114) *)
Context {G : Type} {HR : Rng T G}.
(** Equal, or a Flatten layer without a remembered shape against one. *)
Definition agrees (l l' : layer T) : Prop := l = l' \/ exists f', l = LFlat (mkFlatten None) /\ l' = LFlat f'.
Lemma forward_agrees : forall (l l' l1 : layer T) x (g g1 : G) y, without_input l = l -> without_input l' = l -> layer_forward l x g = (l1, g1, Ok y) ->
  exists l1', layer_forward l' x g = (l1', g1, Ok y) /\ agrees l1 l1'.
Proof.
  intros l l' l1 x g g1 y W W' E. assert (WW : without_input l' = without_input l) by congruence. destruct (layer_forward_same l' l x g WW) as (H1 & H2). rewrite E in H1, H2. cbn [fst snd] in H1, H2.
  destruct (layer_forward l' x g) as ((l1' & g1') & o) eqn:E'. cbn [fst snd] in H1, H2. subst g1' o. exists l1'. split; [reflexivity|].
  destruct l as [l|l|l|l|l|l|l], l' as [m|m|m|m|m|m|m]; try discriminate WW; cbn [layer_forward] in E, E'; unfold lift in E, E'.
  - left. destruct l, m. cbn in WW. injection WW as -> -> -> ->. unfold fc_forward in E, E'. cbn [fst snd M_Layers.fc_w M_Layers.fc_b M_Layers.fc_gw M_Layers.fc_gb] in E, E'. congruence.
  - left. destruct l, m. cbn in WW. injection WW as ->. cbn [act_forward fst snd] in E, E'. cbn in E, E'. congruence.
  - destruct l as [[sh|]]; [discriminate W|]. unfold flatten_forward in E, E'. destruct (rank (tshape x) <? 2); [cbn in E; congruence|]. destruct (rank (tshape x) =? 2).
    + right. exists m. cbn in E, E'. split; congruence.
    + left. cbn [fst snd] in E, E'. congruence.
  - left. destruct l, m. cbn in WW. injection WW as -> -> -> -> -> -> -> -> -> -> ->. unfold conv_forward in E, E'. destruct (negb _); [cbn in E; congruence|].
    destruct (rd (tdims x) 1) as [c| | | |]; cbn [step] in E, E'; try (cbn in E; congruence). cbn [M_Layers.cv_ic] in E, E'. destruct (negb _); [cbn in E; congruence|]. cbv zeta in E, E'. cbn in E, E'. congruence.
  - left. destruct l, m. cbn in WW. injection WW as -> -> ->. unfold pool_forward in E, E'. destruct (negb _); [cbn in E; congruence|]. cbn [fst snd M_Reg.po_size M_Reg.po_stride M_Reg.po_pad] in E, E'. congruence.
  - left. cbn in WW. injection WW as ->. congruence.
  - left. cbn in WW. injection WW as ->. congruence.
Qed.
Lemma all_agrees : forall (ls ls' : list (layer T)) x (g g1 : G) ls1 y, map without_input ls = ls -> map without_input ls' = ls -> forward_all ls x g = (ls1, g1, Ok y) ->
  exists ls1', forward_all ls' x g = (ls1', g1, Ok y) /\ Forall2 agrees ls1 ls1'.
Proof.
  induction ls as [|l ls IH]; intros [|l' ls'] x g g1 ls1 y W W' E; try discriminate; [cbn in *; injection E as <- <- <-; eexists; split; [reflexivity|constructor]|].
  cbn [map] in W, W'. assert (W1 : without_input l = l) by congruence. assert (W2 : map without_input ls = ls) by congruence. assert (W1' : without_input l' = l) by congruence. assert (W2' : map without_input ls' = ls) by congruence.
  cbn [forward_all] in E. destruct (layer_forward l x g) as ((l1 & g2) & o) eqn:E1. destruct o as [z| | | |]; try discriminate E. destruct (forward_agrees l l' l1 x g g2 z W1 W1' E1) as (l1' & E1' & A).
  destruct (forward_all ls z g2) as ((r1 & g3) & o3) eqn:E2. injection E as <- <- ->. destruct (IH ls' z g2 g3 r1 y W2 W2' E2) as (r1' & E2' & AA).
  cbn [forward_all]. rewrite E1', E2'. eexists. split; [reflexivity|]. constructor; auto.
Qed.
Lemma backward_agrees : forall (ls ls' : list (layer T)) d ls1 y, Forall2 agrees ls ls' -> backward_all ls d = (ls1, Ok y) -> ls' = ls.
Proof.
  induction ls as [|l ls IH]; intros ls' d ls1 y H E; inversion H as [|? l' ? r' A AA]; subst; [reflexivity|]. cbn [backward_all] in E. destruct (backward_all ls d) as (r & o) eqn:E1. destruct o as [z| | | |]; try discriminate E.
  rewrite (IH r' d r z AA E1). f_equal. destruct A as [A|(f & -> & ->)]; [auto|]. cbn [layer_backward flatten_backward fl_shape] in E. discriminate E.
Qed.
Lemma predict_unseen : forall (n n' m1 m2 : net T G) x p d, same_but_inputs n n' -> net_predict (unseen n) x = (m1, Ok p) -> net_backward m1 d = (m2, Ok tt) -> net_predict n' x = (m1, Ok p).
Proof.
  intros n n' m1 m2 x p d (EW & EL & EO & EG) E1 E5. unfold net_predict in E1. cbn [unseen net_with n_layers n_loss n_opt n_rng] in E1.
  destruct (forward_all (map without_input (n_layers n)) x (n_rng n)) as ((ls & g) & o) eqn:EF. assert (o = Ok p) by congruence. subst o. assert (m1 = mkNet ls (n_loss n) (n_opt n) g) by congruence. subst m1.
  assert (WI : forall l : layer T, without_input (without_input l) = without_input l) by (intros []; reflexivity).
  destruct (all_agrees (map without_input (n_layers n)) (n_layers n') x (n_rng n) g ls p) as (ls' & EF' & AA); [rewrite map_map; apply map_ext; auto|auto|auto|].
  unfold net_backward in E5. cbn [n_layers] in E5. destruct (backward_all ls d) as (ls2 & o2) eqn:EB. destruct o2 as [z| | | |]; cbn [step] in E5; try discriminate E5.
  rewrite (backward_agrees ls ls' d ls2 z AA EB) in EF'. unfold net_predict. rewrite EG, EF', EL, EO. reflexivity.
Qed.
Lemma sample_unseen : forall (n n' m : net T G) x t tot v, same_but_inputs n n' -> train_sample (unseen n) x t tot = (m, Ok v) -> train_sample n' x t tot = (m, Ok v).
Proof.
  intros n n' m x t tot v H E. unfold train_sample in E |- *. destruct (net_predict (unseen n) x) as (a & o) eqn:E1. destruct o as [p| | | |]; cbn [step] in E; try discriminate E. cbn [unseen net_with n_loss] in E.
  assert (EL : n_loss n' = n_loss n) by apply H. destruct (n_loss n) as [l|]; [|discriminate E].
  match type of E with context [step a ?mm _] => destruct mm as [(tot' & d)| | | |] eqn:EM end; cbn [step] in E; try discriminate E.
  destruct (net_backward a d) as (b & o) eqn:EB. destruct o as [[]| | | |]; cbn [step] in E; try discriminate E.
  rewrite (predict_unseen n n' a b x p d H E1 EB). cbn [step]. rewrite EL, EM. cbn [step]. rewrite EB. exact E.
Qed.
Lemma train_unseen : forall (n n' n1 : net T G) xs ts e, same_but_inputs n n' -> xs <> [] -> 0 < e -> net_train (unseen n) xs ts e = (n1, Ok tt) -> net_train n' xs ts e = (n1, Ok tt).
Proof.
  intros n n' n1 xs ts e H HX HE. unfold net_train. destruct (Z.to_nat e) as [|k] eqn:EK; [lia|]. clear EK HE e. destruct xs as [|x r]; [congruence|]. cbn [train_epochs]. unfold train_epoch.
  destruct (s <- new_shape [1] ;; Ok (t_fill s zero)) as [tot| | | |]; cbn [step]; try discriminate. cbn [train_samples].
  destruct (train_sample (unseen n) x (rd ts 0) tot) as (a & o) eqn:E. destruct o as [v| | | |]; cbn [step]; try discriminate. rewrite (sample_unseen _ _ _ _ _ _ _ H E). auto.
Qed.
Lemma mode_layer_without : forall m (l l' : layer T), without_input l = without_input l' -> without_input (layer_set_mode m l) = without_input (layer_set_mode m l').
Proof. intros m l l' E. destruct l as [l|l|l|l|l|l|l], l' as [k|k|k|k|k|k|k]; try discriminate E; auto; cbn in E |- *; congruence. Qed.
Lemma same_set_mode : forall m (n n' : net T G), same_but_inputs n n' -> same_but_inputs (net_set_mode n m) (net_set_mode n' m).
Proof.
  intros m n n' (A & B & C & D). split; [|split; [auto|split; auto]]. unfold net_set_mode, net_with. cbn [n_layers]. clear - A. revert A. generalize (n_layers n) as a, (n_layers n') as b. intros a b. revert a.
  induction b as [|y b IH]; intros [|x a] E; try discriminate; [auto|]. cbn [map] in E |- *. f_equal; [apply mode_layer_without; congruence|apply IH; congruence].
Qed.
Lemma set_mode_twice : forall m m' (n : net T G), net_set_mode (net_set_mode n m) m' = net_set_mode n m'.
Proof. intros m m' n. unfold net_set_mode, net_with. cbn [n_layers n_loss n_opt n_rng]. f_equal. rewrite map_map. apply map_ext. intros [l|l|l|l|l|l|l]; reflexivity. Qed.
Lemma evaluated_same : forall xs (n : net T G), same_but_inputs (net_set_mode n false) (evaluated n xs).
Proof.
  intros xs n. unfold evaluated. assert (H : forall m, net_in_mode false m -> same_but_inputs m (fold_left (fun m x => fst (net_predict m x)) xs m)).
  { induction xs as [|x xs IH]; intros m HM; [apply same_refl|]. cbn [fold_left]. destruct (predict_eval m x HM) as (m' & o & E & HS). rewrite E. cbn [fst]. apply same_trans with m'; [auto|]. apply IH. apply (same_mode false m); auto. }
  apply H. apply net_mode_in.
Qed.
(** evalMode(), any predictions, trainingMode(), training. *)
Lemma train_evaluated : forall (n n1 : net T G) zs m xs ts e, xs <> [] -> 0 < e -> net_train (unseen (net_set_mode n m)) xs ts e = (n1, Ok tt) ->
  net_train (net_set_mode (evaluated n zs) m) xs ts e = (n1, Ok tt) /\ net_train (net_set_mode n m) xs ts e = (n1, Ok tt).
Proof.
  intros n n1 zs m xs ts e HX HE E. split; (eapply train_unseen; [|exact HX|exact HE|exact E]); [|apply same_refl].
  rewrite <- (set_mode_twice false m n). apply same_set_mode. apply evaluated_same.
Qed.
(** Without Flatten layers remembered inputs play no role. *)
Lemma plain_layer : forall (l l1 : layer T) x (g g1 : G) y, match l with LFlat _ => False | _ => True end -> layer_forward l x g = (l1, g1, Ok y) -> layer_forward (without_input l) x g = (l1, g1, Ok y).
Proof.
  intros l l1 x g g1 y HP E. assert (WI : without_input (without_input l) = without_input l) by (destruct l; reflexivity). destruct (layer_forward_same (without_input l) l x g WI) as (H1 & H2). rewrite E in H1, H2. cbn [fst snd] in H1, H2.
  destruct (layer_forward (without_input l) x g) as ((l2 & g2) & o) eqn:E2. cbn [fst snd] in H1, H2. subst g2 o.
  destruct (forward_agrees (without_input l) l l2 x g g1 y WI eq_refl E2) as (l3 & E3 & A). assert (l3 = l1) by congruence. subst l3. destruct A as [->|(f & -> & ->)]; [reflexivity|].
  exfalso. destruct l; try contradiction; cbn [layer_forward] in E; unfold lift in E; try discriminate E. destruct (dropout_forward l x g) as ((? & ?) & ?). discriminate E.
Qed.
Lemma plain_forward : forall (ls ls1 : list (layer T)) x (g g1 : G) y, Forall (fun l => match l with LFlat _ => False | _ => True end) ls -> forward_all ls x g = (ls1, g1, Ok y) -> forward_all (map without_input ls) x g = (ls1, g1, Ok y).
Proof.
  induction ls as [|l ls IH]; intros ls1 x g g1 y HF E; [auto|]. inversion HF as [|? ? H1 H2]; subst. cbn [forward_all map] in E |- *. destruct (layer_forward l x g) as ((l1 & g2) & o) eqn:E1. destruct o as [z| | | |]; try discriminate E.
  rewrite (plain_layer _ _ _ _ _ _ H1 E1). destruct (forward_all ls z g2) as ((r & g3) & o3) eqn:E2. assert (o3 = Ok y) by congruence. subst o3. rewrite (IH _ _ _ _ _ H2 E2). auto.
Qed.
Lemma plain_train : forall (n n1 : net T G) xs ts e, no_flatten n -> net_train n xs ts e = (n1, Ok tt) -> xs <> [] -> 0 < e -> net_train (unseen n) xs ts e = (n1, Ok tt).
Proof.
  intros n n1 xs ts e HF E HX HE. revert E. unfold net_train. destruct (Z.to_nat e) as [|k] eqn:EK; [lia|]. clear EK HE e. destruct xs as [|x r]; [congruence|]. cbn [train_epochs]. unfold train_epoch.
  destruct (s <- new_shape [1] ;; Ok (t_fill s zero)) as [tot| | | |]; cbn [step]; try discriminate. cbn [train_samples].
  assert (HS : forall a v, train_sample n x (rd ts 0) tot = (a, Ok v) -> train_sample (unseen n) x (rd ts 0) tot = (a, Ok v)).
  { intros a v E. unfold train_sample in E |- *. destruct (net_predict n x) as (b & o) eqn:E1. destruct o as [p| | | |]; cbn [step] in E; try discriminate E.
    assert (E2 : net_predict (unseen n) x = (b, Ok p)).
    { unfold net_predict in E1 |- *. cbn [unseen net_with n_layers n_rng n_loss n_opt]. destruct (forward_all (n_layers n) x (n_rng n)) as ((ls & g) & o) eqn:EF. assert (o = Ok p) by congruence. subst o. rewrite (plain_forward _ _ _ _ _ _ HF EF). auto. }
    rewrite E2. exact E. }
  destruct (train_sample n x (rd ts 0) tot) as (a & o) eqn:E. destruct o as [v| | | |]; cbn [step]; try discriminate. rewrite (HS a v eq_refl). auto.
Qed.
Lemma mode_unseen : forall m (n : net T G), no_flatten n -> no_flatten (net_set_mode n m).
Proof. intros m n H. unfold no_flatten, net_set_mode, net_with in *. cbn [n_layers]. induction H as [|l r A B IH]; [constructor|]. cbn [map]. constructor; [destruct l; auto|auto]. Qed.
Lemma train_plain : forall (n n1 : net T G) zs m xs ts e, no_flatten n -> xs <> [] -> 0 < e -> net_train (net_set_mode n m) xs ts e = (n1, Ok tt) -> net_train (net_set_mode (evaluated n zs) m) xs ts e = (n1, Ok tt).
Proof. intros n n1 zs m xs ts e HF HX HE E. apply (train_evaluated n n1 zs m xs ts e HX HE). apply plain_train; auto. apply mode_unseen; auto. Qed.
End S.
