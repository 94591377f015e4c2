(** * Lemmas about the training report *)
From Coq Require Import ZArith Ascii String.
From Verif Require Import Base Scalar Types TextBase Spec SpecNN M_Shape M_Tensor M_Adv M_Act M_Loss M_Layers M_Reg M_Opt M_Net M_Text M_Log SpecText SpecNet SpecLog
  L_Index L_Shape L_Bcast L_Tensor L_Nest L_Glue L_Adv L_Text L_Net.
Local Open Scope string_scope.


Section L.
Context {T : Type} {S : Scalar T} {G : Type} {HR : Rng T G}.
Notation net := (net T G).
Variable show : T -> string.

Definition holds_one (t : tensor T) (v : T) : Prop := unit_total t /\ tdata t = [v].
Lemma one_el : forall t v, holds_one t v -> el t [0%Z] = v.
Proof. intros t v ((Gt & Et) & Ed). unfold el. rewrite Et, Ed. reflexivity. Qed.
Lemma one_of : forall t, unit_total t -> holds_one t (el t [0%Z]).
Proof.
  intros t (Gt & Et). split; [split; auto|]. pose proof (good_len _ Gt) as HL. rewrite Et in HL. change (prod [1%Z]) with 1%Z in HL.
  destruct (tdata t) as [|v [|]] eqn:ED; try discriminate HL. 2: unfold Zlen in HL; cbn [length] in HL; lia. unfold el. rewrite Et, ED. reflexivity.
Qed.
Lemma one_add : forall a u c v, holds_one a u -> holds_one c v -> exists a', t_binop_ip s_add false a c = (a', Ok tt) /\ holds_one a' (s_add u v).
Proof.
  intros a u c v (Ha & Da) (Hc & Dc). destruct (total_add a c Ha Hc) as (a' & E & HU). exists a'. split; [auto|]. split; [auto|].
  destruct Ha as (Ga & Ea). destruct Hc as (Gc & Ec). rewrite (t_binop_ip_ok s_add a c [1%Z] false Ga Gc) in E; [|rewrite Ea, Ec; apply bcast_refl|rewrite Ea; reflexivity|discriminate].
  injection E as <-. cbn [tdata]. change (ztab (1 * 1) (fun k : Z => s_add (bel a [k / 1]) (bel c [k / 1]))) with [s_add (bel a [0%Z]) (bel c [0%Z])].
  unfold bel. rewrite ?Ea, ?Ec. unfold el. rewrite ?Ea, ?Ec, ?Da, ?Dc. reflexivity.
Qed.
Lemma loss_one : forall l (p t c : tensor T), loss_compute l p t = Ok c -> holds_one c (el c [0%Z]).
Proof. intros l p t c E. apply one_of. exact (loss_unit l p t c E). Qed.

Lemma sample_loss : forall (n : net) x t tot u n', holds_one tot u ->
  (forall tot', train_sample n x (Ok t) tot = (n', Ok tot') -> exists v, holds_one tot' (s_add u v) /\ fit_one_loss n x t v n') /\
  (forall v, fit_one_loss n x t v n' -> exists tot', train_sample n x (Ok t) tot = (n', Ok tot') /\ holds_one tot' (s_add u v)).
Proof.
  intros n x t tot u n' HU. unfold train_sample. split.
  - intros tot' E. destruct (net_predict n x) as (n1 & o) eqn:EP. destruct o as [p| | | |]; cbn [step] in E; try discriminate.
    destruct (n_loss n) as [l|] eqn:EL; [|discriminate]. cbn [bind] in E. destruct (loss_compute l p t) as [c| | | |] eqn:EC; cbn [bind step] in E; try discriminate.
    destruct (one_add tot u c _ HU (loss_one _ _ _ _ EC)) as (a' & EA & HA). rewrite EA in E. cbn [bind] in E. destruct (loss_gradient l p t) as [d| | | |] eqn:EG; cbn [bind step] in E; try discriminate.
    destruct (net_backward n1 d) as (n2 & r) eqn:EB. destruct r as [[]| | | |]; cbn [step] in E; try discriminate. destruct (net_update n2) as (n3 & r) eqn:EU. destruct r as [[]| | | |]; cbn [step] in E; try discriminate.
    injection E as <- <-. eexists. split; [exact HA|]. exists n1, n2, p, c, d, l. auto 10.
  - intros v (n1 & n2 & p & c & d & l & E1 & E2 & E3 & EV & E4 & E5 & E6). rewrite E1. cbn [step]. rewrite E2. cbn [bind]. rewrite E3. cbn [bind].
    destruct (one_add tot u c _ HU (loss_one _ _ _ _ E3)) as (a' & EA & HA). rewrite EA. cbn [bind]. rewrite E4. cbn [bind step]. rewrite E5. cbn [step]. rewrite E6. cbn [step]. rewrite EV in HA. eauto.
Qed.
Lemma samples_loss : forall xs ts pre (n : net) tot u n', holds_one tot u -> (Zlen xs <= Zlen ts)%Z ->
  (forall tot', train_samples n xs (pre ++ ts)%list (Zlen pre) tot = (n', Ok tot') -> exists vs, holds_one tot' (fold_left s_add vs u) /\ fit_losses n (combine xs ts) vs n') /\
  (forall vs, fit_losses n (combine xs ts) vs n' -> exists tot', train_samples n xs (pre ++ ts)%list (Zlen pre) tot = (n', Ok tot') /\ holds_one tot' (fold_left s_add vs u)).
Proof.
  induction xs as [|x xs IH]; intros ts pre n tot u n' HU HL.
  - cbn [train_samples combine]. split.
    + intros tot' E. injection E as <- <-. exists []. split; [auto|constructor].
    + intros vs F. inversion F; subst. eauto.
  - destruct ts as [|t ts]; [unfold Zlen in HL; cbn in HL; lia|]. cbn [train_samples combine]. rewrite rd_app.
    assert (HL' : (Zlen xs <= Zlen ts)%Z) by (unfold Zlen in *; cbn [List.length] in HL; lia).
    assert (EP : (pre ++ t :: ts = (pre ++ [t]) ++ ts)%list) by (rewrite <- app_assoc; reflexivity).
    assert (EZ : (Zlen pre + 1 = Zlen (pre ++ [t])%list)%Z) by (unfold Zlen; rewrite app_length; cbn; lia).
    rewrite EP, EZ. split.
    + intros tot' E. destruct (train_sample n x (Ok t) tot) as (n1 & o) eqn:E1. destruct o as [tot1| | | |]; cbn [step] in E; try discriminate.
      destruct (proj1 (sample_loss n x t tot u n1 HU) tot1 E1) as (v & HU1 & F1). destruct (proj1 (IH ts (pre ++ [t])%list n1 tot1 _ n' HU1 HL') tot' E) as (vs & HU2 & F2).
      exists (v :: vs). split; [exact HU2|]. econstructor; eauto.
    + intros vs F. inversion F as [|? ? ? v n1 ? vs' ? F1 F2]; subst. destruct (proj2 (sample_loss n x t tot u n1 HU) v F1) as (tot1 & E1 & HU1). rewrite E1. cbn [step].
      exact (proj2 (IH ts (pre ++ [t])%list n1 tot1 _ n' HU1 HL') vs' F2).
Qed.
Lemma losses_len : forall (n : net) s vs n', fit_losses n s vs n' -> Zlen vs = Zlen s.
Proof. intros n s vs n' F. induction F; [reflexivity|]. unfold Zlen in *. cbn [List.length]. lia. Qed.
Lemma combine_len : forall (xs ts : list (tensor T)), (Zlen xs <= Zlen ts)%Z -> Zlen (combine xs ts) = Zlen xs.
Proof. intros xs ts H. unfold Zlen in *. rewrite combine_length. lia. Qed.

(** ** One epoch *)
Lemma head_one : new_shape [1%Z] = Ok (shape_of [1%Z]).
Proof. vm_compute. reflexivity. Qed.
Lemma fill_one : holds_one (t_fill (shape_of [1%Z]) zero) zero.
Proof. split; [apply good_one|reflexivity]. Qed.
Lemma mean_text : forall tot u z, holds_one tot u -> s_eq z zero = false -> (m <- t_div_s tot z ;; data_text show m) = Ok ("[" ++ show (s_div u z) ++ "]").
Proof.
  intros tot u z ((Gt & Et) & Ed) HZ. unfold t_div_s. rewrite HZ. rewrite t_map_ok by auto. cbn [bind]. rewrite data_text_ok by (apply good_tmap; auto).
  unfold tmap. cbn [tdata]. rewrite Ed. reflexivity.
Qed.
Lemma epoch_report : forall xs ts (n : net) e os, (Zlen xs <= Zlen ts)%Z -> s_eq (s_z (Zlen xs)) zero = false ->
  (exists n' vs, fit_losses n (combine xs ts) vs n' /\ report_epoch show n xs ts e os = ((n', os ++ epoch_line show e (average vs)), Ok tt)) \/
  (exists n' o, snd (train_epoch n xs ts) = o /\ o <> Ok tt /\ report_epoch show n xs ts e os = ((n', os), o)).
Proof.
  intros xs ts n e os HL HZ. unfold report_epoch, train_epoch. rewrite head_one. cbn [bind step].
  destruct (train_samples n xs ts 0 (t_fill (shape_of [1%Z]) zero)) as (n1 & o) eqn:ES.
  destruct o as [tot| | | |]; cbn [step]; [|right; do 2 eexists; split; [reflexivity|]; split; [discriminate|reflexivity]..].
  left. destruct (proj1 (samples_loss xs ts [] n _ zero n1 fill_one HL) tot ES) as (vs & HU & F). exists n1, vs. split; [auto|].
  rewrite (mean_text _ _ _ HU HZ). cbn [step]. unfold epoch_line, average, fsum. rewrite (losses_len _ _ _ _ F), (combine_len _ _ HL). rewrite !sapp_assoc. reflexivity.
Qed.
Lemma epoch_report_conv : forall xs ts (n n' : net) e os vs, (Zlen xs <= Zlen ts)%Z -> s_eq (s_z (Zlen xs)) zero = false -> fit_losses n (combine xs ts) vs n' ->
  report_epoch show n xs ts e os = ((n', os ++ epoch_line show e (average vs)), Ok tt).
Proof.
  intros xs ts n n' e os vs HL HZ F. unfold report_epoch. rewrite head_one. cbn [bind step].
  destruct (proj2 (samples_loss xs ts [] n _ zero n' fill_one HL) vs F) as (tot & ES & HU). cbn [app] in ES. change (Zlen (@nil (tensor T))) with 0%Z in ES. rewrite ES. cbn [step].
  rewrite (mean_text _ _ _ HU HZ). cbn [step]. unfold epoch_line, average, fsum. rewrite (losses_len _ _ _ _ F), (combine_len _ _ HL). rewrite !sapp_assoc. reflexivity.
Qed.

(** ** The whole training *)
Lemma report_conv : forall xs ts lss (n n' : net) e os, (Zlen xs <= Zlen ts)%Z -> s_eq (s_z (Zlen xs)) zero = false -> fit_epochs (combine xs ts) n lss n' ->
  report_epochs show n xs ts e (List.length lss) os = ((n', os ++ report_from show e (map average lss)), Ok tt).
Proof.
  intros xs ts lss n n' e os HL HZ F. revert e os. induction F as [|n vs n1 r n2 F1 F2 IH]; intros e os; cbn [List.length report_epochs map report_from]; [rewrite sapp_nil; reflexivity|].
  rewrite (epoch_report_conv xs ts n n1 e os vs HL HZ F1). cbn [step fst snd]. rewrite IH, sapp_assoc. reflexivity.
Qed.
Lemma report_any : forall xs ts k (n : net) e os, (Zlen xs <= Zlen ts)%Z -> s_eq (s_z (Zlen xs)) zero = false ->
  exists n' lss n1 o, report_epochs show n xs ts e k os = ((n', os ++ report_from show e (map average lss)), o) /\ fit_epochs (combine xs ts) n lss n1 /\
    ((List.length lss = k /\ n1 = n' /\ o = Ok tt) \/ (List.length lss < k)%nat /\ o <> Ok tt /\ snd (train_epoch n1 xs ts) = o).
Proof.
  intros xs ts k. induction k as [|k IH]; intros n e os HL HZ; cbn [report_epochs].
  - exists n, [], n, (Ok tt). cbn [map report_from]. rewrite sapp_nil. split; [reflexivity|]. split; [constructor|]. left. auto.
  - destruct (epoch_report xs ts n e os HL HZ) as [(n1 & vs & F & E)|(n1 & o & EO & HO & E)]; rewrite E.
    + cbn [step fst snd]. destruct (IH n1 (e + 1)%Z (os ++ epoch_line show e (average vs)) HL HZ) as (n' & lss & n2 & o & E2 & F2 & H). exists n', (vs :: lss), n2, o.
      rewrite E2. cbn [map report_from]. rewrite sapp_assoc. split; [reflexivity|]. split; [econstructor; eauto|]. cbn [List.length]. destruct H as [(HK & HN & HO)|(HK & HO & HS)]; [left; auto|right; split; [lia|auto]].
    + exists n1, [], n, o. cbn [map report_from]. rewrite sapp_nil. split; [|split; [constructor|right; cbn [List.length]; split; [lia|auto]]].
      destruct o as [[]| | | |]; [congruence|reflexivity..].
Qed.
Theorem train_report : forall xs ts e (n n' : net) out, (Zlen xs <= Zlen ts)%Z -> s_eq (s_z (Zlen xs)) zero = false ->
  net_train_report show n xs ts e = ((n', out), Ok tt) <->
  exists lss, fit_epochs (combine xs ts) n lss n' /\ List.length lss = Z.to_nat e /\ out = report_from show 0 (map average lss).
Proof.
  intros xs ts e n n' out HL HZ. unfold net_train_report. split.
  - intros E. destruct (report_any xs ts (Z.to_nat e) n 0 "" HL HZ) as (m & lss & n1 & o & E2 & F & H). rewrite E2 in E. cbn [String.append] in E. injection E as -> EO ->.
    destruct H as [(HK & -> & _)|(_ & HO & _)]; [|congruence]. exists lss. auto.
  - intros (lss & F & HK & ->). rewrite <- HK. apply (report_conv xs ts lss n n' 0 "" HL HZ F).
Qed.
Theorem train_report_failed : forall xs ts e (n n' : net) out o, (Zlen xs <= Zlen ts)%Z -> s_eq (s_z (Zlen xs)) zero = false ->
  net_train_report show n xs ts e = ((n', out), o) -> o <> Ok tt ->
  exists lss n1, fit_epochs (combine xs ts) n lss n1 /\ (List.length lss < Z.to_nat e)%nat /\ out = report_from show 0 (map average lss) /\ snd (train_epoch n1 xs ts) = o.
Proof.
  intros xs ts e n n' out o HL HZ E HO. unfold net_train_report in E. destruct (report_any xs ts (Z.to_nat e) n 0 "" HL HZ) as (m & lss & n1 & o' & E2 & F & H). rewrite E2 in E. cbn [String.append] in E. injection E as -> EO ->.
  destruct H as [(_ & _ & H)|(HK & H & HS)]; [congruence|]. exists lss, n1. auto.
Qed.
Theorem train_report_empty : forall ts e (n : net), (0 < e)%Z -> s_eq (s_z 0) zero = true ->
  net_train_report show n [] ts e = ((n, "Epoch 0 - Loss: "), Throw InvalidArgument).
Proof.
  intros ts e n HE HZ. unfold net_train_report. destruct (Z.to_nat e) eqn:EK; [lia|]. cbn [report_epochs]. unfold report_epoch. rewrite head_one. cbn [bind step train_samples].
  unfold t_div_s. change (Zlen (@nil (tensor T))) with 0%Z. rewrite HZ. reflexivity.
Qed.

(** ** The report does not change the training *)
Lemma samples_total : forall xs ts i (n n' : net) tot tot', unit_total tot -> train_samples n xs ts i tot = (n', Ok tot') -> unit_total tot'.
Proof.
  induction xs as [|x xs IH]; intros ts i n n' tot tot' HU E; cbn [train_samples] in E; [injection E as <- <-; auto|].
  destruct (train_sample n x (rd ts i) tot) as (n1 & o) eqn:E1. destruct o as [tot1| | | |]; cbn [step] in E; try discriminate.
  apply (IH ts (i + 1)%Z n1 n' tot1); auto. destruct (rd ts i) as [t| | | |] eqn:ER; [apply (proj1 (train_sample_fit n x t tot n1 HU) tot1 E1)|..];
    unfold train_sample in E1; destruct (net_predict n x) as (? & [p| | | |]); cbn [step] in E1; try discriminate; destruct (n_loss n); discriminate.
Qed.
Lemma report_epoch_same : forall (n : net) xs ts e os, exists os', report_epoch show n xs ts e os = ((fst (train_epoch n xs ts), os'), snd (train_epoch n xs ts)).
Proof.
  intros n xs ts e os. unfold report_epoch, train_epoch. rewrite head_one. cbn [bind step].
  destruct (train_samples n xs ts 0 (t_fill (shape_of [1%Z]) zero)) as (n1 & o) eqn:ES. destruct o as [tot| | | |]; cbn [step fst snd]; eauto.
  pose proof (samples_total _ _ _ _ _ _ _ (good_one zero) ES) as HU. unfold t_div_s. destruct (s_eq _ _); cbn [bind step fst snd]; eauto.
  rewrite t_map_ok by apply HU. cbn [bind]. rewrite data_text_ok by (apply good_tmap, HU). cbn [step fst snd]. eauto.
Qed.
Theorem train_report_same : forall xs ts e (n : net), exists out, net_train_report show n xs ts e = ((fst (net_train n xs ts e), out), snd (net_train n xs ts e)).
Proof.
  intros xs ts e n. unfold net_train_report, net_train. generalize (Z.to_nat e) 0%Z "". intros k. revert n. induction k as [|k IH]; intros n z os; cbn [report_epochs train_epochs]; [cbn; eauto|].
  destruct (report_epoch_same n xs ts z os) as (os' & E). rewrite E. destruct (train_epoch n xs ts) as (n1 & o). cbn [fst snd]. destruct o as [[]| | | |]; cbn [step fst snd]; eauto.
Qed.

(** ** The loss function of the network stays *)
Lemma fit_one_keeps : forall (n n' : net) x t, fit_one n x t n' -> n_loss n' = n_loss n.
Proof.
  intros n n' x t (n1 & n2 & p & c & d & l & E1 & E2 & E3 & E4 & E5 & E6). unfold net_predict in E1. destruct (forward_all (n_layers n) x (n_rng n)) as ((ls & g) & o). injection E1 as <- ->.
  unfold net_backward in E5. destruct (backward_all _ d) as (ls' & o). destruct o; cbn [step] in E5; try discriminate. injection E5 as <-.
  unfold net_update, net_with in E6. cbn [n_layers n_opt n_loss n_rng] in E6. destruct ls' as [|l0 ls']; [injection E6 as <-; reflexivity|].
  destruct (n_opt n); [|discriminate]. destruct (update_all 0 (l0 :: ls') o) as ((? & ?) & ?). injection E6 as <- _. reflexivity.
Qed.
Lemma fit_keeps : forall (n n' : net) s, fit n s n' -> n_loss n' = n_loss n.
Proof. intros n n' s F. induction F as [|n x t n1 r n2 F1 F2 IH]; [auto|]. rewrite IH. exact (fit_one_keeps _ _ _ _ F1). Qed.

(** ** Reports tell the losses apart *)
Lemma report_inj : unbroken show -> forall vs ws e, report_from show e vs = report_from show e ws -> map show vs = map show ws.
Proof.
  intros U. assert (PL : forall v, Forall (fun s => plain "]" (list_ascii_of_string s)) [show v]).
  { intros v. destruct (U v) as (N & A & B). constructor; [|constructor]. split; [|split; auto]. intros E. apply N. destruct (show v); [auto|discriminate E]. }
  induction vs as [|v vs IH]; intros [|w ws] e E; [auto|exfalso; unfold report_from, epoch_line in E; discriminate E|exfalso; unfold report_from, epoch_line in E; discriminate E|].
  cbn [report_from] in E. unfold epoch_line in E. rewrite !sapp_assoc in E. apply sapp_cancel_l in E. apply sapp_cancel_l in E. apply sapp_cancel_l in E.
  destruct (join_inj "]" ltac:(discriminate) [show v] [show w] (nl ++ report_from show (e + 1) vs) (nl ++ report_from show (e + 1) ws) (PL v) (PL w)) as (E1 & E2); [exact E|].
  apply sapp_cancel_l in E2. cbn [map]. injection E1 as ->. f_equal. apply (IH ws (e + 1)%Z E2).
Qed.
End L.
