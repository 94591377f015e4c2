(** * Property C96: a program's results do not depend on where tensors are stored *)
From Verif Require Import Base Scalar Types Spec M_Shape M_Tensor M_Act M_Loss M_Layers M_Reg M_Opt M_Net M_Addr SpecAddr L_Tensor L_Addr P_Tensor P_Net.
Local Existing Instance counter_rng.

(** A program makes any calls of train, predict and the mode switch on a network whose optimizer is new.  Whatever different addresses its
    parameters have, it sees the same outputs and failures, and ends with the same layers (weights included) and random state. *)
Theorem C96_any_program : forall {T} {S : Scalar T} {G} {HR : Rng T G} (a b : Z -> Z) (n : net T G) (cs : list (call T)),
  distinct_addresses (2 * Zlen (n_layers n)) a -> distinct_addresses (2 * Zlen (n_layers n)) b -> (forall o, n_opt n = Some o -> unused o) ->
  snd (run_calls (net_train_at a) n cs) = snd (run_calls (net_train_at b) n cs) /\ same_net a b (fst (run_calls (net_train_at a) n cs)) (fst (run_calls (net_train_at b) n cs)).
Proof. exact @addr_independent. Qed.
(** Also from the middle of a program, when the optimizers already hold the same state under different addresses. *)
Theorem C96_continued : forall {T} {S : Scalar T} {G} {HR : Rng T G} (a b : Z -> Z) (n m : net T G) (cs : list (call T)),
  distinct_addresses (2 * Zlen (n_layers n)) a -> distinct_addresses (2 * Zlen (n_layers n)) b -> same_net a b n m ->
  snd (run_calls (net_train_at a) n cs) = snd (run_calls (net_train_at b) m cs) /\ same_net a b (fst (run_calls (net_train_at a) n cs)) (fst (run_calls (net_train_at b) m cs)).
Proof. exact @addr_step. Qed.
(** So the other theorems on training, which fix the addresses, hold for all. *)
Theorem C96_fixed_addresses_suffice : forall {T} {S : Scalar T} {G} {HR : Rng T G} (a : Z -> Z) (n : net T G) (cs : list (call T)),
  distinct_addresses (2 * Zlen (n_layers n)) a -> (forall o, n_opt n = Some o -> unused o) ->
  snd (run_calls (net_train_at a) n cs) = snd (run_calls net_train n cs) /\ n_layers (fst (run_calls (net_train_at a) n cs)) = n_layers (fst (run_calls net_train n cs)).
Proof. exact @addr_wlog. Qed.
(** Momentum makes the stored state matter: two layers of which each keeps its own. *)
Definition oneFC : fc Z := mkFC (oneZ 1) (oneZ 0) None None None.
Definition netA : net Z Z := net_compile (net_add (net_add (net_new 0) (LFC oneFC)) (LFC oneFC)) MSE (OSGD (sgd_new 1 1 0 0 false)).
Definition far (k : Z) : Z := 4096 - 16 * k.
Example C96_case : distinct_addresses (2 * Zlen (n_layers netA)) far /\ distinct_addresses (2 * Zlen (n_layers netA)) (fun k => k) /\ (forall o, n_opt netA = Some o -> unused o) /\
  snd (run_calls (net_train_at far) netA [CTrain [oneZ 1] [oneZ 2] 2; CMode false; CPredict (oneZ 1)]) = [SDone (Ok tt); SDone (Ok tt); SValue (Ok (oneZ 24769))].
Proof.
  split; [intros i j _ _; unfold far; lia|]. split; [intros i j _ _ E; exact E|]. split; [intros o E; replace o with (OSGD (sgd_new 1 1 0 0 false) : optim Z) by (injection E; auto); intros k; reflexivity|]. vm_compute. reflexivity.
Qed.
Print Assumptions C96_any_program.
Print Assumptions C96_continued.
Print Assumptions C96_fixed_addresses_suffice.
