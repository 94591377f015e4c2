(** * Training that fails at a sample (C119) *)
From Verif Require Import Base Scalar Types Spec SpecNN M_Shape M_Tensor M_Adv M_Act M_Loss M_Layers M_Reg M_Opt M_Net SpecNet SpecRetry SpecStop L_Index L_Tensor L_Net L_Log L_Retry.

Section S.
Context {T : Type} {S : Scalar T} {G : Type} {HR : Rng T G}.
Local Notation net := (net T G).
Local Notation layer := (layer T).

(** ** Which samples were done *)
Lemma sample_stopped : forall (n n' : net) x t tot r, unit_total tot -> train_sample n x (Ok t) tot = (n', r) -> (forall v, r <> Ok v) -> stopped n x t (_ <- r ;; Ok tt) n'.
Proof.
  intros n n' x t tot r HU E HN. unfold train_sample in E. destruct (net_predict n x) as (n1 & o) eqn:EP.
  destruct o as [p|e| | |]; cbn [step] in E.
  - destruct (n_loss n) as [l|] eqn:EL; [|injection E as <- <-; eapply stop_compile; eauto]. cbn [bind] in E.
    destruct (loss_compute l p t) as [c|e| | |] eqn:EC; cbn [bind step] in E.
    + destruct (total_add tot c HU (loss_unit _ _ _ _ EC)) as (a' & EA & HA). rewrite EA in E. cbn [bind] in E.
      destruct (loss_gradient l p t) as [d|e| | |] eqn:EG; cbn [bind step] in E.
      * destruct (net_backward n1 d) as (n2 & o2) eqn:EB. destruct o2 as [[]|e| | |]; cbn [step] in E.
        -- destruct (net_update n2) as (n3 & o3) eqn:EU. destruct o3 as [[]|e| | |]; cbn [step] in E; injection E as <- <-; [destruct (HN _ eq_refl)|..]; eapply stop_update; eauto; discriminate.
        -- injection E as <- <-. eapply stop_backward; eauto; discriminate.
        -- injection E as <- <-. eapply stop_backward; eauto; discriminate.
        -- injection E as <- <-. eapply stop_backward; eauto; discriminate.
        -- injection E as <- <-. eapply stop_backward; eauto; discriminate.
      * injection E as <- <-. apply (stop_loss n x t n1 p l (Throw e) EP EL); [rewrite EC; cbn; auto|discriminate].
      * injection E as <- <-. apply (stop_loss n x t n1 p l Abort EP EL); [rewrite EC; cbn; auto|discriminate].
      * injection E as <- <-. apply (stop_loss n x t n1 p l UB EP EL); [rewrite EC; cbn; auto|discriminate].
      * injection E as <- <-. apply (stop_loss n x t n1 p l Hang EP EL); [rewrite EC; cbn; auto|discriminate].
    + injection E as <- <-. apply (stop_loss n x t n1 p l (Throw e) EP EL); [rewrite EC; cbn; auto|discriminate].
    + injection E as <- <-. apply (stop_loss n x t n1 p l Abort EP EL); [rewrite EC; cbn; auto|discriminate].
    + injection E as <- <-. apply (stop_loss n x t n1 p l UB EP EL); [rewrite EC; cbn; auto|discriminate].
    + injection E as <- <-. apply (stop_loss n x t n1 p l Hang EP EL); [rewrite EC; cbn; auto|discriminate].
  - injection E as <- <-. apply (stop_predict n x t n1 (Throw e)); [auto|discriminate].
  - injection E as <- <-. apply (stop_predict n x t n1 Abort); [auto|discriminate].
  - injection E as <- <-. apply (stop_predict n x t n1 UB); [auto|discriminate].
  - injection E as <- <-. apply (stop_predict n x t n1 Hang); [auto|discriminate].
Qed.
Lemma samples_stopped : forall xs ts pre (n n' : net) tot r, unit_total tot -> Zlen xs <= Zlen ts -> train_samples n xs (pre ++ ts) (Zlen pre) tot = (n', r) -> (forall v, r <> Ok v) ->
  exists done x t rest m, combine xs ts = done ++ (x, t) :: rest /\ fit n done m /\ stopped m x t (_ <- r ;; Ok tt) n'.
Proof.
  induction xs as [|x xs IH]; intros ts pre n n' tot r HU HL E HN; [cbn in E; injection E as <- <-; destruct (HN _ eq_refl)|].
  destruct ts as [|t ts]; [unfold Zlen in HL; cbn in HL; lia|]. cbn [train_samples] in E. rewrite rd_app in E.
  assert (HL' : Zlen xs <= Zlen ts) by (unfold Zlen in *; cbn [length] in HL; lia).
  assert (EP : pre ++ t :: ts = (pre ++ [t]) ++ ts) by (rewrite <- app_assoc; reflexivity).
  assert (EZ : Zlen pre + 1 = Zlen (pre ++ [t])) by (unfold Zlen; rewrite app_length; cbn; lia).
  rewrite EP, EZ in E. destruct (train_sample n x (Ok t) tot) as (n1 & o) eqn:E1. cbn [combine]. destruct o as [tot1|e| | |]; cbn [step] in E.
  2-5: injection E as <- <-; exists [], x, t, (combine xs ts), n; split; [reflexivity|]; split; [constructor|]; eapply (sample_stopped _ _ _ _ _ _ HU E1); discriminate.
  destruct (proj1 (train_sample_fit n x t tot n1 HU) tot1 E1) as (HU1 & F1). destruct (IH ts (pre ++ [t]) n1 n' tot1 r HU1 HL' E HN) as (done & x' & t' & rest & m & EC & F & HS).
  exists ((x, t) :: done), x', t', rest, m. split; [rewrite EC; reflexivity|]. split; [econstructor; eauto|auto].
Qed.
Lemma epoch_stopped : forall xs ts (n n' : net) o, Zlen xs <= Zlen ts -> s_eq (s_z (Zlen xs)) zero = false -> train_epoch n xs ts = (n', o) -> o <> Ok tt ->
  exists done x t rest m, combine xs ts = done ++ (x, t) :: rest /\ fit n done m /\ stopped m x t o n'.
Proof.
  intros xs ts n n' o HL HZ E HO. unfold train_epoch in E. assert (H1 : new_shape [1] = Ok (shape_of [1])) by (vm_compute; reflexivity). rewrite H1 in E. cbn [bind step] in E.
  destruct (train_samples n xs ts 0 (t_fill (shape_of [1]) zero)) as (n1 & r) eqn:ES.
  pose proof (samples_stopped xs ts [] n n1 _ r (good_one zero) HL ES) as HS.
  destruct r as [v|e| | |]; cbn [step] in E; [|injection E as <- <-; apply HS; discriminate..].
  assert (HU : unit_total v) by (exact (samples_total xs ts 0 n n1 _ v (good_one zero) ES)). unfold t_div_s in E. rewrite HZ in E. rewrite t_map_ok in E by apply HU. cbn [step] in E. congruence.
Qed.
Theorem train_stopped : forall xs ts e (n n' : net) o, Zlen xs <= Zlen ts -> s_eq (s_z (Zlen xs)) zero = false -> net_train n xs ts e = (n', o) -> o <> Ok tt ->
  exists done x t rest m, concat (repeat (combine xs ts) (Z.to_nat e)) = done ++ (x, t) :: rest /\ fit n done m /\ stopped m x t o n'.
Proof.
  intros xs ts e n n' o HL HZ. unfold net_train. generalize (Z.to_nat e). intros k. revert n. induction k as [|k IH]; intros n E HO; [cbn in E; congruence|].
  cbn [train_epochs repeat concat] in *. destruct (train_epoch n xs ts) as (n1 & r) eqn:E1. destruct r as [[]|e'| | |]; cbn [step] in E.
  2-5: injection E as <- <-; destruct (epoch_stopped xs ts n n1 _ HL HZ E1 HO) as (done & x & t & rest & m & EC & F & HS); exists done, x, t, (rest ++ concat (repeat (combine xs ts) k)), m; split; [rewrite EC, <- app_assoc; reflexivity|auto].
  apply train_epoch_fit in E1; auto. destruct (IH n1 E HO) as (done & x & t & rest & m & EC & F & HS). exists (combine xs ts ++ done), x, t, rest, m. split; [rewrite EC, app_assoc; reflexivity|]. split; [apply fit_app; eauto|auto].
Qed.
(** The converse: a sample that fails ends the training. *)
Lemma stopped_ends : forall (n n' : net) x t o, stopped n x t o n' -> o <> Ok tt.
Proof. intros n n' x t o H. destruct H as [? r ? H| | ? ? ? r ? ? ? H| |]; auto; try discriminate; destruct r; cbn; try discriminate; destruct (H _ eq_refl). Qed.

(** ** Updates do not throw *)
Definition quiet_out {A} (o : outcome A) : Prop := forall e, o <> Throw e.
Lemma quiet_bind : forall {A B} (m : outcome A) (k : A -> outcome B), quiet_out m -> (forall a, quiet_out (k a)) -> quiet_out (bind m k).
Proof. intros A B m k H1 H2 e. destruct m; cbn; try discriminate; [apply H2|]. intros E. injection E as <-. destruct (H1 e0 eq_refl). Qed.
Lemma quiet_ok : forall {A} (a : A), quiet_out (Ok a). Proof. intros A a e. discriminate. Qed.
Lemma quiet_rd : forall {A} (l : list A) i, quiet_out (rd l i). Proof. intros A l i e. unfold rd. destruct (i <? 0); [discriminate|]. destruct (nth_error l (Z.to_nat i)); discriminate. Qed.
Lemma quiet_wr : forall {A} (l : list A) i v, quiet_out (wr l i v). Proof. intros A l i v e. unfold wr. destruct (_ && _); discriminate. Qed.
Lemma quiet_for : forall {A} (body : Z -> A -> outcome A), (forall i a, quiet_out (body i a)) -> forall lo hi a, quiet_out (for_ lo hi body a).
Proof. intros A body H lo hi. unfold for_. generalize (zrange lo hi). induction l as [|i l IH]; intros a; cbn [foldM]; [apply quiet_ok|]. apply quiet_bind; auto. Qed.
Ltac quiet := repeat (first [apply quiet_rd | apply quiet_wr | apply quiet_ok | apply quiet_bind; [|intros] | match goal with |- quiet_out (if ?b then _ else _) => destruct b | |- quiet_out (let '(_, _) := ?p in _) => destruct p end]).
Lemma opt_loop_quiet : forall {O C} (update : O -> Z -> tensor T -> tensor T -> C -> O * outcome (tensor T)) c, (forall o k w g, quiet_out (snd (update o k w g c))) -> forall l o st, quiet_out (snd (opt_loop update c l o st)).
Proof.
  intros O C update c H. induction l as [|(k & g) l IH]; intros o st; cbn [opt_loop]; [apply quiet_ok|]. specialize (H o k (st k) g). destruct (update o k (st k) g c) as (o' & r). cbn [snd] in H. destruct r as [w'|e| | |]; cbn [snd]; [apply IH|destruct (H e eq_refl)|discriminate..].
Qed.
Lemma step_quiet : forall {St A B} (s : St) (m : outcome A) (k : A -> St * outcome B), quiet_out m -> (forall a, quiet_out (snd (k a))) -> quiet_out (snd (step s m k)).
Proof. intros St A B s m k H1 H2. destruct m as [a|e| | |]; cbn [step snd]; [apply H2|destruct (H1 e eq_refl)|discriminate..]. Qed.
Lemma optim_quiet : forall (o : optim T) st k1 k2 g1 g2 lro, quiet_out (snd (optim_optimize o st [k1; k2] [g1; g2] lro)).
Proof.
  intros o st k1 k2 g1 g2 lro. destruct o as [o|o|o]; cbn [optim_optimize].
  - unfold sgd_optimize. change (negb (Zlen [k1; k2] =? Zlen [g1; g2])) with false. cbv iota. match goal with |- context [opt_loop ?u ?c ?l ?a ?b] => pose proof (opt_loop_quiet u c) as H; specialize (H ltac:(intros; unfold sgd_update; apply step_quiet; [apply quiet_for; intros i (wd & md); unfold sgd_body; quiet|intros; apply quiet_ok]) l a b); destruct (opt_loop u c l a b) as ((? & ?) & ?) end. exact H.
  - unfold rms_optimize. change (negb (Zlen [k1; k2] =? Zlen [g1; g2])) with false. cbv iota. match goal with |- context [opt_loop ?u ?c ?l ?a ?b] => pose proof (opt_loop_quiet u c) as H; specialize (H ltac:(intros; unfold rms_update; apply step_quiet; [apply quiet_for; intros i (((wd & sd) & md) & vd); unfold rms_body; quiet|intros (((? & ?) & ?) & ?); apply quiet_ok]) l a b); destruct (opt_loop u c l a b) as ((? & ?) & ?) end. exact H.
  - unfold adam_optimize. change (negb (Zlen [k1; k2] =? Zlen [g1; g2])) with false. cbv iota. unfold adam_rate. destruct (chk32 (ad_it o + 1)) eqn:EC; cbn [bind]; try discriminate; [|unfold chk32 in EC; destruct (_ && _); discriminate].
    match goal with |- context [opt_loop ?u ?c ?l ?a ?b] => pose proof (opt_loop_quiet u c) as H; specialize (H ltac:(intros; unfold adam_update; apply step_quiet; [apply quiet_for; intros i ((wd & md) & vd); unfold adam_body; quiet|intros ((? & ?) & ?); apply quiet_ok]) l a b); destruct (opt_loop u c l a b) as ((? & ?) & ?) end. exact H.
Qed.
Definition armed_grads (l : layer) : Prop := layer_params l <> None -> layer_grads l <> None.
Lemma layer_update_quiet : forall i (l : layer) o, armed_grads l -> quiet_out (snd (layer_update i l o)).
Proof.
  intros i l o HA. assert (HP : forall w b gw gb, quiet_out (snd (pair_optimize o i w b gw gb))).
  { intros. unfold pair_optimize. pose proof (optim_quiet o (pair_store i w b) (2 * i) (2 * i + 1) gw gb (s_z (-1))) as H. destruct (optim_optimize o _ _ _ _) as ((? & ?) & ?). exact H. }
  destruct l as [l|l|l|l|l|l|l]; cbn [layer_update]; try apply quiet_ok; unfold armed_grads in HA; cbn [layer_params layer_grads] in HA; specialize (HA ltac:(discriminate)).
  - destruct (fc_gw l) as [gw|], (fc_gb l) as [gb|]; try congruence. specialize (HP (fc_w l) (fc_b l) gw gb). destruct (pair_optimize _ _ _ _ _ _) as (((? & ?) & ?) & ?). exact HP.
  - destruct (cv_gw l) as [gw|], (cv_gb l) as [gb|]; try congruence. specialize (HP (cv_w l) (cv_b l) gw gb). destruct (pair_optimize _ _ _ _ _ _) as (((? & ?) & ?) & ?). exact HP.
  - destruct (bn_ggamma l) as [gw|], (bn_gbeta l) as [gb|]; try congruence. specialize (HP (bn_gamma l) (bn_beta l) gw gb). destruct (pair_optimize _ _ _ _ _ _) as (((? & ?) & ?) & ?). exact HP.
Qed.
Lemma update_quiet : forall (ls : list layer) i o, Forall armed_grads ls -> quiet_out (snd (update_all i ls o)).
Proof.
  induction ls as [|l ls IH]; intros i o HF; [apply quiet_ok|]. inversion HF as [|? ? H1 H2]; subst. cbn [update_all]. pose proof (layer_update_quiet i l o H1) as H. destruct (layer_update i l o) as ((l' & o') & r). cbn [snd] in H.
  destruct r as [u|e| | |]; cbn [snd]; [|destruct (H e eq_refl)|discriminate..]. specialize (IH (i + 1) o' H2). destruct (update_all (i + 1) ls o') as ((? & ?) & ?). exact IH.
Qed.
Lemma layer_arms : forall (l l' : layer) d y, layer_backward l d = (l', Ok y) -> armed_grads l'.
Proof.
  intros l l' d y E. destruct l as [l|l|l|l|l|l|l]; cbn [layer_backward] in E; try (injection E as <- _; intros H; destruct (H eq_refl)).
  - destruct (fc_backward l d) as (k & r) eqn:EB. injection E as <- ->. intros _. unfold fc_backward in EB. destruct (fc_in l) as [x|]; [|discriminate EB].
    match type of EB with step _ ?m _ = _ => destruct m as [(g2 & gw)| | | |] end; cbn [step] in EB; try discriminate EB.
    match type of EB with step _ ?m _ = _ => destruct m as [gb| | | |] end; cbn [step] in EB; try discriminate EB. injection EB as <- _. discriminate.
  - destruct (conv_backward l d) as (k & r) eqn:EB. injection E as <- ->. intros _. unfold conv_backward in EB. destruct (cv_in l) as [x|]; [|discriminate EB]. cbv zeta in EB.
    match type of EB with step _ ?m _ = _ => destruct m as [(gh & gwd)| | | |] end; cbn [step] in EB; try discriminate EB.
    match type of EB with context [keep_loop ?b ?l ?s] => destruct (keep_loop b l s) as [gb [u1| | | |]] end; cbn [step] in EB; try discriminate EB.
    match type of EB with context [keep_loop ?b ?l ?s] => destruct (keep_loop b l s) as [gw [u2| | | |]] end; cbn [step] in EB; try discriminate EB. injection EB as <- _. discriminate.
  - destruct (bn_backward l d) as (k & r) eqn:EB. injection E as <- ->. intros _. unfold bn_backward in EB. destruct (bn_mean l), (bn_var l), (bn_norm l); try discriminate EB. cbv zeta in EB.
    match type of EB with step _ ?m _ = _ => destruct m as [((dg & db) & dx)| | | |] end; cbn [step] in EB; try discriminate EB. injection EB as <- _. discriminate.
Qed.
Lemma all_arms : forall (ls ls' : list layer) d y, backward_all ls d = (ls', Ok y) -> Forall armed_grads ls'.
Proof.
  induction ls as [|l ls IH]; intros ls' d y E; cbn [backward_all] in E; [injection E as <- _; constructor|].
  destruct (backward_all ls d) as (r & o) eqn:ER. destruct o as [d'| | | |]; try discriminate E. destruct (layer_backward l d') as (l1 & o1) eqn:EL. injection E as <- ->. constructor; [eapply layer_arms; eauto|eapply IH; eauto].
Qed.
Theorem update_never_throws : forall (n n1 n' : net) d e, net_backward n d = (n1, Ok tt) -> net_update n1 <> (n', Throw e).
Proof.
  intros n n1 n' d e E H. unfold net_backward in E. destruct (backward_all (n_layers n) d) as (ls & o) eqn:EB. destruct o as [y| | | |]; cbn [step] in E; try discriminate E. injection E as <-.
  unfold net_update in H. cbn [net_with n_layers n_opt] in H. destruct ls as [|l0 ls]; [discriminate H|]. destruct (n_opt n) as [o|]; [|discriminate H]. pose proof (update_quiet (l0 :: ls) 0 o (all_arms _ _ _ _ EB)) as HQ. destruct (update_all 0 (l0 :: ls) o) as ((? & ?) & r). cbn [snd] in HQ. injection H as _ ->. destruct (HQ e eq_refl).
Qed.

(** ** What is kept *)
Lemma forward_params : forall (l : layer) x (g : G), layer_params (fst (fst (layer_forward l x g))) = layer_params l.
Proof.
  intros l x g. destruct l as [l|l|l|l|l|l|l]; cbn [layer_forward]; unfold lift; try reflexivity.
  - unfold conv_forward. destruct (negb _); [reflexivity|]. destruct (rd (tdims x) 1) as [c| | | |]; cbn [step]; try reflexivity. destruct (negb _); reflexivity.
  - unfold dropout_forward. destruct (dr_train l); repeat match goal with |- context [let '(_, _) := ?e in _] => destruct e end; reflexivity.
  - unfold bn_forward. destruct (_ && _); [reflexivity|]. destruct (bn_train l); [|reflexivity].
    repeat match goal with |- context [step _ ?m _] => destruct m as [z| | | |]; cbn [step]; try reflexivity; try (destruct z as ((? & ?) & ?)); try (destruct z as (? & ?)) end; reflexivity.
Qed.
Lemma all_params : forall (ls : list layer) x (g : G), map layer_params (fst (fst (forward_all ls x g))) = map layer_params ls.
Proof.
  induction ls as [|l ls IH]; intros x g; [reflexivity|]. cbn [forward_all]. pose proof (forward_params l x g) as H. destruct (layer_forward l x g) as ((l' & g') & o). cbn [fst] in H. destruct o as [y| | | |]; cbn [fst map]; rewrite ?H; auto.
  specialize (IH y g'). destruct (forward_all ls y g') as ((r & g2) & o2). cbn [fst map] in *. congruence.
Qed.
Lemma predict_params : forall (n n' : net) x o, net_predict n x = (n', o) -> map layer_params (n_layers n') = map layer_params (n_layers n) /\ n_loss n' = n_loss n /\ n_opt n' = n_opt n.
Proof.
  intros n n' x o E. unfold net_predict in E. pose proof (all_params (n_layers n) x (n_rng n)) as H. destruct (forward_all (n_layers n) x (n_rng n)) as ((ls & g) & r). cbn [fst] in H. injection E as <- _. auto.
Qed.
Lemma params_grads : forall a b : list layer, map without_grads a = map without_grads b -> map layer_params a = map layer_params b.
Proof.
  induction a as [|l a IH]; intros [|k b] E; try discriminate; [reflexivity|]. cbn [map] in *. assert (E1 : without_grads l = without_grads k) by congruence. assert (E2 : map without_grads a = map without_grads b) by congruence. f_equal; [|auto].
  destruct l, k; try discriminate E1; cbn in E1 |- *; congruence.
Qed.
Lemma net_backward_keeps : forall (n n' : net) d o, net_backward n d = (n', o) -> map without_grads (n_layers n') = map without_grads (n_layers n) /\ n_loss n' = n_loss n /\ n_opt n' = n_opt n /\ n_rng n' = n_rng n.
Proof.
  intros n n' d o E. unfold net_backward in E. pose proof (backward_keeps (n_layers n) d) as H. destruct (backward_all (n_layers n) d) as (ls & r). cbn [fst] in H. destruct r; cbn [step] in E; injection E as <- _; auto.
Qed.
(** An exception does not come from the update, so parameters, optimizer and loss are as before the sample. *)
Theorem stopped_params : forall (n n' : net) x t e, stopped n x t (Throw e) n' -> map layer_params (n_layers n') = map layer_params (n_layers n) /\ n_loss n' = n_loss n /\ n_opt n' = n_opt n.
Proof.
  intros n n' x t e H. inversion H; subst.
  - eapply predict_params; eauto.
  - eapply predict_params; eauto.
  - destruct (predict_params _ _ _ _ H0) as (A & B & C). destruct (net_backward_keeps _ _ _ _ H4) as (D & E & F & _). rewrite (params_grads _ _ D). split; [auto|]. split; congruence.
  - destruct (update_never_throws n1 n2 n' d e H4). auto.
Qed.

(** ** Skipping the sample *)
Definition mixed (n n' a : net) : Prop := same_but_inputs n a /\ map without_grads (n_layers a) = map without_grads (n_layers n') /\ n_loss a = n_loss n' /\ n_opt a = n_opt n' /\ n_rng a = n_rng n'.
Lemma mixed_stopped : forall (n n' : net) x t e, net_in_mode false n -> stopped n x t (Throw e) n' -> exists a, mixed n n' a.
Proof.
  intros n n' x t e HM H. assert (HP : forall n1 o, net_predict n x = (n1, o) -> same_but_inputs n n1).
  { intros n1 o E. destruct (predict_eval n x HM) as (n1' & o' & E' & HS). rewrite E in E'. injection E' as <- _. auto. }
  inversion H; subst.
  - exists n'. split; [eapply HP; eauto|]. auto.
  - exists n'. split; [eapply HP; eauto|]. auto.
  - exists n1. split; [eapply HP; eauto|]. destruct (net_backward_keeps _ _ _ _ H4) as (D & E & F & Q). auto.
  - destruct (update_never_throws n1 n2 n' d e H4). auto.
Qed.
Lemma forward_grads : forall (l k : layer) x (g : G), without_grads l = without_grads k ->
  snd (layer_forward l x g) = snd (layer_forward k x g) /\ snd (fst (layer_forward l x g)) = snd (fst (layer_forward k x g)) /\ without_grads (fst (fst (layer_forward l x g))) = without_grads (fst (fst (layer_forward k x g))).
Proof.
  intros l1 l2 x g E. destruct l1 as [l|l|l|l|l|l|l], l2 as [m|m|m|m|m|m|m]; try discriminate E; cbn [without_grads] in E; try (injection E as ->; auto).
  - destruct l, m. cbn in E. injection E as -> -> ->. cbn [layer_forward]. unfold lift, fc_forward. cbn. auto.
  - destruct l, m. cbn in E. injection E as -> -> -> -> -> -> -> -> -> ->. cbn [layer_forward]. unfold lift, conv_forward. cbn [M_Layers.cv_ic]. destruct (negb _); [cbn; auto|]. destruct (rd (tdims x) 1) as [c| | | |]; cbn [step fst snd]; try (cbn; auto; fail). destruct (negb _); cbn; auto.
  - destruct l, m. cbn in E. injection E as -> -> -> -> -> -> -> -> -> -> ->. cbn [layer_forward]. unfold lift, bn_forward. cbn [M_Reg.bn_train M_Reg.bn_gamma M_Reg.bn_beta M_Reg.bn_eps M_Reg.bn_mom M_Reg.bn_rmean M_Reg.bn_rvar M_Reg.bn_var M_Reg.bn_norm bn_with_batch bn_with_stats].
    destruct (_ && _); [cbn; auto|]. destruct bn_train0; [|cbn; auto].
    repeat match goal with |- context [step _ ?m _] => destruct m as [z| | | |]; cbn [step]; try (cbn; auto; fail); try (destruct z as ((? & ?) & ?)); try (destruct z as (? & ?)) end; cbn; auto.
Qed.
Lemma all_grads : forall (ls ks : list layer) x (g : G), map without_grads ls = map without_grads ks ->
  snd (forward_all ls x g) = snd (forward_all ks x g) /\ snd (fst (forward_all ls x g)) = snd (fst (forward_all ks x g)) /\ map without_grads (fst (fst (forward_all ls x g))) = map without_grads (fst (fst (forward_all ks x g))).
Proof.
  induction ls as [|l ls IH]; intros [|k ks] x g E; try discriminate E; [cbn; auto|]. cbn [map] in E. assert (E1 : without_grads l = without_grads k) by congruence. assert (E2 : map without_grads ls = map without_grads ks) by congruence.
  destruct (forward_grads l k x g E1) as (A & B & C). cbn [forward_all]. destruct (layer_forward l x g) as ((l' & g1) & o1), (layer_forward k x g) as ((k' & g2) & o2). cbn [fst snd] in A, B, C. subst g2 o2.
  destruct o1 as [y| | | |]; cbn [fst snd map]; try (rewrite C, E2; auto; fail). destruct (IH ks y g1 E2) as (A2 & B2 & C2). destruct (forward_all ls y g1) as ((? & ?) & ?), (forward_all ks y g1) as ((? & ?) & ?). cbn [fst snd map] in *. rewrite C, C2. auto.
Qed.
Lemma sample_grads : forall (a n' m : net) x t tot v, map without_grads (n_layers a) = map without_grads (n_layers n') -> n_loss a = n_loss n' -> n_opt a = n_opt n' -> n_rng a = n_rng n' ->
  train_sample a x t tot = (m, Ok v) -> train_sample n' x t tot = (m, Ok v).
Proof.
  intros a n' m x t tot v EW EL EO EG. unfold train_sample, net_predict. rewrite <- EL, <- EO, <- EG. destruct (all_grads (n_layers a) (n_layers n') x (n_rng a) EW) as (A & B & C).
  destruct (forward_all (n_layers a) x (n_rng a)) as ((ls & g) & o), (forward_all (n_layers n') x (n_rng a)) as ((ks & g') & o'). cbn [fst snd] in A, B, C. subst o' g'.
  destruct o as [p| | | |]; cbn [step]; try discriminate. destruct (n_loss a) as [l|]; [|discriminate].
  match goal with |- context [step _ ?mm _] => destruct mm as [(tot' & d)| | | |] end; cbn [step]; try discriminate.
  unfold net_backward, net_with. cbn [n_layers n_loss n_opt n_rng]. destruct (all_same ls ks d C) as (A2 & _ & C2). destruct (backward_all ls d) as (ls' & o), (backward_all ks d) as (ks' & o'). cbn [fst snd] in A2, C2. subst o'.
  destruct o as [y| | | |]; cbn [step]; try discriminate. rewrite (C2 y eq_refl). auto.
Qed.
Theorem skip_train : forall (n n' k : net) x t ex xs ts e, net_in_mode false n -> stopped n x t (Throw ex) n' -> xs <> [] -> 0 < e -> net_train (unseen n) xs ts e = (k, Ok tt) -> net_train n' xs ts e = (k, Ok tt).
Proof.
  intros n n' k x t ex xs ts e HM HS HX HE E. destruct (mixed_stopped _ _ _ _ _ HM HS) as (a & H & EW & EL & EO & EG). pose proof (train_unseen n a k xs ts e H HX HE E) as E1. clear E. revert E1.
  unfold net_train. destruct (Z.to_nat e) as [|j] eqn:EK; [lia|]. destruct xs as [|x0 r]; [congruence|]. cbn [train_epochs]. unfold train_epoch.
  destruct (s <- new_shape [1] ;; Ok (t_fill s zero)) as [tot| | | |]; cbn [step]; try discriminate. cbn [train_samples].
  destruct (train_sample a x0 (rd ts 0) tot) as (b & o) eqn:E. destruct o as [v| | | |]; cbn [step]; try discriminate. rewrite (sample_grads a n' b x0 (rd ts 0) tot v EW EL EO EG E). auto.
Qed.
Theorem skip_plain : forall (n n' k : net) x t ex xs ts e, net_in_mode false n -> no_flatten n -> stopped n x t (Throw ex) n' -> xs <> [] -> 0 < e -> net_train n xs ts e = (k, Ok tt) -> net_train n' xs ts e = (k, Ok tt).
Proof. intros. eapply skip_train; eauto. apply plain_train; auto. Qed.
(** Predictions after the failed sample are those before it. *)
Theorem skip_predict : forall (n n' : net) x t ex z, net_in_mode false n -> stopped n x t (Throw ex) n' -> snd (net_predict n' z) = snd (net_predict n z).
Proof.
  intros n n' x t ex z HM HS. destruct (mixed_stopped _ _ _ _ _ HM HS) as (a & H & EW & EL & EO & EG). rewrite <- (predict_same n a z H).
  unfold net_predict. rewrite <- EG. destruct (all_grads (n_layers a) (n_layers n') z (n_rng a) EW) as (A & B & C).
  destruct (forward_all (n_layers a) z (n_rng a)) as ((ls & g) & o), (forward_all (n_layers n') z (n_rng a)) as ((ks & g') & o'). cbn [fst snd] in *. auto.
Qed.
End S.
