(** * Training in several calls (C121) *)
From Coq Require Import ZArith Ascii String.
Local Open Scope list_scope.
From Verif Require Import Base Scalar Types TextBase Spec SpecNN M_Shape M_Tensor M_Adv M_Act M_Loss M_Layers M_Reg M_Opt M_Net M_Log SpecNet SpecLog SpecSplit L_Index L_Tensor L_Net L_Split P_Tensor P_Layers P_Net.
Local Existing Instance counter_rng.
Local Open Scope Z_scope.

(** ** C121 "Training may be split into several calls" *)
(** Epochs, whether training succeeds or fails. *)
Theorem C121_epochs : forall {T} {S : Scalar T} {G} {HR : Rng T G} xs ts a b (n : net T G), 0 <= a -> 0 <= b ->
  net_train n xs ts (a + b) = (let '(m, o) := net_train n xs ts a in match o with Ok _ => net_train m xs ts b | _ => (m, o) end).
Proof. exact @train_plus. Qed.
(** Samples: the dataset may be passed in pieces ... *)
Theorem C121_samples : forall {T} {S : Scalar T} {G} {HR : Rng T G} xs ts ys us (n n' : net T G), Zlen xs = Zlen ts -> Zlen ys <= Zlen us ->
  s_eq (s_z (Zlen xs)) zero = false -> s_eq (s_z (Zlen ys)) zero = false -> s_eq (s_z (Zlen (xs ++ ys))) zero = false ->
  net_train n (xs ++ ys) (ts ++ us) 1 = (n', Ok tt) <-> exists m, net_train n xs ts 1 = (m, Ok tt) /\ net_train m ys us 1 = (n', Ok tt).
Proof. exact @train_append. Qed.
Theorem C121_samples_failure : forall {T} {S : Scalar T} {G} {HR : Rng T G} xs ts ys us (n m : net T G) o, Zlen xs = Zlen ts -> s_eq (s_z (Zlen xs)) zero = false ->
  net_train n xs ts 1 = (m, o) -> o <> Ok tt -> net_train n (xs ++ ys) (ts ++ us) 1 = (m, o).
Proof. exact @train_append_fails. Qed.
(** ... down to one call per sample. *)
Theorem C121_one_by_one : forall {T} {S : Scalar T} {G} {HR : Rng T G} xs ts e (n n' : net T G), s_eq (s_z 1) zero = false -> Zlen xs <= Zlen ts -> s_eq (s_z (Zlen xs)) zero = false ->
  net_train n xs ts e = (n', Ok tt) <-> one_by_one n (concat (repeat (combine xs ts) (Z.to_nat e))) n'.
Proof. exact @train_online. Qed.
(** The second call prints the same losses, but counts its epochs from 0 again. *)
Theorem C121_report : forall {T} {S : Scalar T} {G} {HR : Rng T G} (show : T -> string) xs ts a b (n m n' : net T G) t1 t2, Zlen xs <= Zlen ts -> s_eq (s_z (Zlen xs)) zero = false -> 0 <= a -> 0 <= b ->
  net_train_report show n xs ts a = ((m, t1), Ok tt) -> net_train_report show m xs ts b = ((n', t2), Ok tt) ->
  exists v1 v2, t1 = report_from show 0 v1 /\ t2 = report_from show 0 v2 /\ net_train_report show n xs ts (a + b) = ((n', report_from show 0 (v1 ++ v2)%list), Ok tt).
Proof. exact @report_plus. Qed.
(** Compiling the network again before the second call, with an optimizer of the same settings, makes no difference with SGD
    without momentum ... *)
Theorem C121_recompiled : forall {T} {S : Scalar T} {G} {HR : Rng T G} (n m : net T G) l lr mom damp wd nest xs ts a ys us b,
  s_eq mom zero = true -> n_loss n = Some l -> n_opt n = Some (OSGD (sgd_new lr mom damp wd nest)) -> net_train n xs ts a = (m, Ok tt) ->
  let m' := net_compile m l (OSGD (sgd_new lr mom damp wd nest)) in
  snd (net_train m' ys us b) = snd (net_train m ys us b) /\ same_but_optimizer (fst (net_train m ys us b)) (fst (net_train m' ys us b)).
Proof. exact @recompiled. Qed.
(** ... but with momentum it does: what the optimizer had gathered is lost. *)
Definition netM : net Z Z := net_compile (net_add (net_new 0) (LFC (fcZ 1 1))) MSE (OSGD (sgd_new 1 1 0 0 false)).
Lemma forgets : exists (n m : net Z Z) l o x t, n_loss n = Some l /\ n_opt n = Some o /\ good x /\ good t /\ net_train n [x] [t] 1 = (m, Ok tt) /\
  snd (net_train m [x] [t] 1) = Ok tt /\ snd (net_train (net_compile m l o) [x] [t] 1) = Ok tt /\
  map layer_params (n_layers (fst (net_train m [x] [t] 1))) <> map layer_params (n_layers (fst (net_train (net_compile m l o) [x] [t] 1))).
Proof.
  exists netM, (fst (net_train netM [oneZ 1] [oneZ 3] 1)), MSE, (OSGD (sgd_new 1 1 0 0 false)), (oneZ 1), (oneZ 3).
  split; [reflexivity|]. split; [reflexivity|]. split; [vm_compute; repeat constructor; discriminate|]. split; [vm_compute; repeat constructor; discriminate|].
  assert (E : snd (net_train netM [oneZ 1] [oneZ 3] 1) = Ok tt) by (vm_compute; reflexivity).
  split; [destruct (net_train netM [oneZ 1] [oneZ 3] 1) as (m & o); cbn [fst snd] in *; rewrite E; reflexivity|].
  split; [vm_compute; reflexivity|]. split; [vm_compute; reflexivity|]. vm_compute. discriminate.
Qed.
Theorem C121_recompile_refuted : exists (n m : net Z Z) l o x t, n_loss n = Some l /\ n_opt n = Some o /\ good x /\ good t /\ net_train n [x] [t] 1 = (m, Ok tt) /\
  snd (net_train m [x] [t] 1) = Ok tt /\ snd (net_train (net_compile m l o) [x] [t] 1) = Ok tt /\
  map layer_params (n_layers (fst (net_train m [x] [t] 1))) <> map layer_params (n_layers (fst (net_train (net_compile m l o) [x] [t] 1))).
Proof. exact forgets. Qed.
Definition weightsZ (n : net Z Z) := map (fun l => match layer_params l with Some (w, b) => (tdata w, tdata b) | None => ([], []) end) (n_layers n).
Example C121_case : s_eq (s_z 1 : Z) zero = false /\ s_eq (s_z (Zlen [oneZ 1; oneZ 2]) : Z) zero = false /\
  weightsZ (fst (net_train netT [oneZ 1; oneZ 2] [oneZ 3; oneZ 0] 2)) <> weightsZ netT /\
  (let m := fst (net_train netT [oneZ 1; oneZ 2] [oneZ 3; oneZ 0] 1) in snd (net_train m [oneZ 1] [oneZ 3] 1) = Ok tt /\
   weightsZ (fst (net_train (fst (net_train m [oneZ 1] [oneZ 3] 1)) [oneZ 2] [oneZ 0] 1)) = weightsZ (fst (net_train netT [oneZ 1; oneZ 2] [oneZ 3; oneZ 0] 2))) /\
  n_opt netT = Some (OSGD (sgd_new 1 0 0 0 false)).
Proof. vm_compute. repeat split. discriminate. Qed.
Print Assumptions C121_epochs.
Print Assumptions C121_samples.
Print Assumptions C121_samples_failure.
Print Assumptions C121_one_by_one.
Print Assumptions C121_report.
Print Assumptions C121_recompiled.
Print Assumptions C121_recompile_refuted.
