(** * C103: one optimizer for all layers *)
From Coq Require Import Reals.
From Verif Require Import Base Scalar ScalarR Types Spec SpecNN SpecOpt M_Shape M_Tensor M_Adv M_Act M_Loss M_Layers M_Reg M_Opt M_Net SpecNet SpecAddr SpecSep
  L_Tensor L_OptR L_Net L_Sep L_SepR P_Tensor P_Net P_Addr.
Local Open Scope Z_scope.
Local Existing Instance counter_rng.

(** ** C103.  [fit_own n os samples m os']: training [n] on the samples in order, where layer i is updated by the i-th optimizer of [os]
    and by no other, leads to [m] and the optimizers [os'].  [same_model]: the same layers (weights, gradients, everything) and random state. *)

(** SGD and RMSProp, any network: compiling one new optimizer into the network gives what a new optimizer for each layer would give,
    and training succeeds with one exactly when it succeeds with the other. *)
Theorem C103_partial : forall {T} {S : Scalar T} {G} {HR : Rng T G} (n : net T G) o xs ts e, n_opt n = Some o -> unused o -> sgd_or_rms o ->
  Zlen xs <= Zlen ts -> s_eq (s_z (Zlen xs) : T) zero = false ->
  (forall n', net_train n xs ts e = (n', Ok tt) -> exists m os', fit_own n (map (fun _ => o) (n_layers n)) (concat (repeat (combine xs ts) (Z.to_nat e))) m os' /\ same_model n' m) /\
  (forall m os', fit_own n (map (fun _ => o) (n_layers n)) (concat (repeat (combine xs ts) (Z.to_nat e))) m os' -> exists n', net_train n xs ts e = (n', Ok tt) /\ same_model n' m).
Proof. exact @sep_steady. Qed.
(** Any optimizer, Adam included, when at most one layer has parameters. *)
Theorem C103_one_layer : forall {T} {S : Scalar T} {G} {HR : Rng T G} (n : net T G) o xs ts e, n_opt n = Some o -> unused o -> at_most_one (n_layers n) ->
  Zlen xs <= Zlen ts -> s_eq (s_z (Zlen xs) : T) zero = false ->
  (forall n', net_train n xs ts e = (n', Ok tt) -> exists m os', fit_own n (map (fun _ => o) (n_layers n)) (concat (repeat (combine xs ts) (Z.to_nat e))) m os' /\ same_model n' m) /\
  (forall m os', fit_own n (map (fun _ => o) (n_layers n)) (concat (repeat (combine xs ts) (Z.to_nat e))) m os' -> exists n', net_train n xs ts e = (n', Ok tt) /\ same_model n' m).
Proof. exact @sep_single. Qed.
(** Training with an optimizer per layer has one result. *)
Theorem C103_one_result : forall {T} {S : Scalar T} {G} {HR : Rng T G} (n : net T G) os s m1 os1 m2 os2, fit_own n os s m1 os1 -> fit_own n os s m2 os2 -> same_model m1 m2 /\ os1 = os2.
Proof. exact @own_det_same. Qed.
(** Adam with two layers: the second layer's first update already counts as the second one. *)
Theorem C103_refuted : exists (n : net R unit) o xs ts e n' m os', n_opt n = Some o /\ unused o /\ net_train (HR := rngR) n xs ts e = (n', Ok tt) /\
  fit_own (HR := rngR) n (map (fun _ => o) (n_layers n)) (concat (repeat (combine xs ts) (Z.to_nat e))) m os' /\ ~ same_model n' m.
Proof. exact sep_adam. Qed.
(** Its weight becomes -31/72 with the shared optimizer and -1/2 with one of its own. *)
Theorem C103_adam_shares : exists n' m os', fit (HR := rngR) two_layers [(cst 1, cst (-1/2))] n' /\
  fit_own (HR := rngR) two_layers [OAdam adamR; OAdam adamR] [(cst 1, cst (-1/2))] m os' /\
  map weight_of (tl (n_layers n')) = [(- (31 / 72))%R] /\ map weight_of (tl (n_layers m)) = [(-(1/2))%R].
Proof. exact adam_shares. Qed.

(** Two layers, momentum, two epochs of one sample. *)
Example C103_case : (exists o, n_opt netA = Some o /\ unused o /\ sgd_or_rms o) /\ Zlen [oneZ 1] <= Zlen [oneZ 2] /\ s_eq (s_z (Zlen [oneZ 1]) : Z) zero = false /\
  snd (net_train netA [oneZ 1] [oneZ 2] 2) = Ok tt.
Proof. split; [eexists; split; [reflexivity|split; [intros k; reflexivity|exact I]]|]. split; [apply Z.le_refl|]. split; [reflexivity|]. vm_compute. reflexivity. Qed.
(** One layer with parameters followed by an activation, Adam. *)
Definition netD : net Z Z := net_compile (net_add (net_add (net_new 0) (LFC oneFC)) (LAct (act_new ReLU))) MSE (OAdam (adam_new 1 1 1 1 0 0 0 1)).
Example C103_one_layer_case : (exists o, n_opt netD = Some o /\ unused o) /\ at_most_one (n_layers netD) /\ snd (net_train netD [oneZ 1] [oneZ 2] 2) = Ok tt.
Proof. split; [eexists; split; [reflexivity|intros k; split; reflexivity]|]. split; [apply le_n|]. vm_compute. reflexivity. Qed.
Print Assumptions C103_partial.
Print Assumptions C103_one_layer.
Print Assumptions C103_one_result.
Print Assumptions C103_refuted.
Print Assumptions C103_adam_shares.
