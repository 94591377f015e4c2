(** * The training report over the reals *)
From Coq Require Import ZArith Ascii String Reals Lra.
From Verif Require Import Base Scalar ScalarR Types TextBase Spec SpecNN SpecR SpecLayers SpecOpt M_Shape M_Tensor M_Adv M_Act M_Loss M_Layers M_Reg M_Opt M_Net M_Text M_Log SpecNet SpecNetR SpecLog
  L_Index L_Shape L_Bcast L_Tensor L_Nest L_Glue L_Adv L_Text L_Net L_OptR L_Log L_Linear.
Local Open Scope R_scope.

Section L.
Context {G : Type} {HR : Rng R G}.
Notation net := (net R G).
Variable show : R -> string.

Lemma average_one : forall v : R, average [v] = v.
Proof. intros v. unfold average, fsum. change (Zlen [v]) with 1%Z. cbn [fold_left]. change ((0 + v) / 1 = v). field. Qed.
Lemma len_nonzero : forall (x : tensor R), s_eq (s_z (Zlen [x])) zero = false.
Proof. intros x. cbn. apply Reqb_false. change (Zlen [x]) with 1%Z. lra. Qed.
Lemma loss_of_fun : forall (n : net) x t v w, loss_of n x t v -> loss_of n x t w -> v = w.
Proof. intros n x t v w (n1 & p & l & c & E1 & E2 & E3 & E4) (m1 & q & l' & c' & F1 & F2 & F3 & F4). rewrite E1 in F1. injection F1 as <- <-. rewrite E2 in F2. injection F2 as <-. congruence. Qed.
Lemma mse_loss_of : forall (n : net) x t v, n_loss n = Some MSE -> mse_of n x t v -> loss_of n x t v.
Proof.
  intros n x t v HL (n' & p & E1 & E2). exists n', p, MSE, (tensor_of [1%Z] (fun _ => v)). split; [auto|]. split; [auto|]. split; [auto|]. rewrite el_tensor_of by auto with idx. reflexivity.
Qed.
Lemma train_loss : forall (n n' : net) x t e, net_train n [x] [t] e = (n', Ok tt) -> n_loss n' = n_loss n.
Proof. intros n n' x t e E. apply (train_fit [x] [t]) in E; [|reflexivity|apply len_nonzero]. exact (fit_keeps _ _ _ E). Qed.
Lemma epochs_nth : forall s lss (n n' : net) i, fit_epochs s n lss n' -> (i < List.length lss)%nat ->
  exists m m', fit_epochs s n (firstn i lss) m /\ fit_losses m s (nth i lss []) m'.
Proof.
  intros s lss n n' i F. revert i. induction F as [|n vs n1 r n2 F1 F2 IH]; intros i Hi; [cbn in Hi; lia|]. destruct i as [|i]; cbn [firstn nth].
  - exists n, n1. split; [constructor|auto].
  - cbn [List.length] in Hi. destruct (IH i ltac:(lia)) as (m & m' & FA & FB). exists m, m'. split; [econstructor; eauto|auto].
Qed.
(** Training on one sample: the value of epoch [i] is the loss of the network after [i] epochs. *)
Lemma single_report : forall (n : net) x t e n' out, net_train_report show n [x] [t] e = ((n', out), Ok tt) ->
  exists vs, out = report_from show 0 vs /\ List.length vs = Z.to_nat e /\
    forall i, (i < List.length vs)%nat -> exists m, net_train n [x] [t] (Z.of_nat i) = (m, Ok tt) /\ loss_of m x t (nth i vs 0).
Proof.
  intros n x t e n' out E. apply (train_report show [x] [t] e n n' out) in E; [|reflexivity|apply len_nonzero]. destruct E as (lss & F & HK & ->). exists (map average lss). split; [auto|]. rewrite map_length. split; [auto|].
  intros i Hi. destruct (epochs_nth _ _ _ _ i F Hi) as (m & m' & FA & FB). exists m. split.
  - assert (ER : net_train_report show n [x] [t] (Z.of_nat i) = ((m, report_from show 0 (map average (firstn i lss))), Ok tt)).
    { apply (train_report show [x] [t] (Z.of_nat i) n m); [reflexivity|apply len_nonzero|]. exists (firstn i lss). split; [exact FA|]. split; [|auto]. rewrite firstn_length. rewrite Nat2Z.id. lia. }
    destruct (train_report_same show [x] [t] (Z.of_nat i) n) as (o & ES). rewrite ER in ES. injection ES as E1 _ E2. destruct (net_train n [x] [t] (Z.of_nat i)). cbn [fst snd] in *. congruence.
  - rewrite (nth_indep _ 0 (average [])) by (rewrite map_length; lia). rewrite map_nth. cbn [combine] in FB. inversion FB as [|? ? ? v n1 ? vs ? F1 F2 EA EB]; subst. inversion F2; subst. rewrite average_one.
    destruct F1 as (n3 & n4 & p & c & d & l & E1 & E2 & E3 & E4 & _). exists n3, p, l, c. auto.
Qed.
(** A linear model at a small enough rate: the reported losses never increase. *)
Lemma linear_report : forall N k o lr (n : net) l x t e, linear_net N k o lr n l -> good x -> tdims x = [N; k] -> good t -> tdims t = [N; o] ->
  0 <= lr -> lr * (dot x x + IZR N) <= IZR (N * o) -> (0 <= e)%Z ->
  exists n' vs, net_train_report show n [x] [t] e = ((n', report_from show 0 vs), Ok tt) /\ List.length vs = Z.to_nat e /\
    forall i, (Datatypes.S i < List.length vs)%nat -> nth (Datatypes.S i) vs 0 <= nth i vs 0.
Proof.
  intros N k o lr n l x t e HLn Gx Ex Gt Et H0 H1 He.
  assert (NW : forall e, (0 <= e)%Z -> exists n1 v1 n2 v2, net_train n [x] [t] e = (n1, Ok tt) /\ mse_of n1 x t v1 /\ net_train n [x] [t] (e + 1) = (n2, Ok tt) /\ mse_of n2 x t v2 /\ v2 <= v1)
    by (intros e0 He0; apply (linear_never_worse N k o lr n l x t e0); auto).
  destruct (NW e He) as (n1 & _ & _ & _ & E1 & _). destruct (train_report_same show [x] [t] e n) as (out & ES). rewrite E1 in ES. cbn [fst snd] in ES.
  destruct (single_report _ _ _ _ _ _ ES) as (vs & EO & HK & HV). exists n1, vs. rewrite <- EO. split; [auto|]. split; [auto|].
  intros i Hi. destruct (HV i ltac:(lia)) as (m & EM & LM). destruct (HV (Datatypes.S i) Hi) as (m' & EM' & LM'). destruct (NW (Z.of_nat i) ltac:(lia)) as (a1 & v1 & a2 & v2 & A1 & A2 & A3 & A4 & A5).
  rewrite EM in A1. injection A1 as <-. replace (Z.of_nat i + 1)%Z with (Z.of_nat (Datatypes.S i)) in A3 by lia. rewrite EM' in A3. injection A3 as <-.
  pose proof HLn as (_ & _ & HLo & _). assert (LL : n_loss m = Some MSE /\ n_loss m' = Some MSE) by (split; [rewrite (train_loss _ _ _ _ _ EM)|rewrite (train_loss _ _ _ _ _ EM')]; auto).
  rewrite (loss_of_fun _ _ _ _ _ LM (mse_loss_of _ _ _ _ (proj1 LL) A2)), (loss_of_fun _ _ _ _ _ LM' (mse_loss_of _ _ _ _ (proj2 LL) A4)). exact A5.
Qed.
End L.
