(** * Specification: networks used by several threads (C126) *)
From Verif Require Import Base Scalar Types M_Shape M_Tensor M_Layers M_Reg M_Opt M_Net M_Addr M_Par M_Threads SpecPar.
Local Open Scope Z_scope.

Section S.
Context {T G : Type}.

(** The memory holds the network number [i]. *)
Definition in_memory (m : mem (tcell T G)) (i : Z) (n : net T G) : Prop :=
  (forall j l, nth_error (n_layers n) j = Some l -> m (2 * i) (Z.of_nat j) = CLayer l) /\ m (2 * i) (-1) = COpt (n_opt n).
(** It holds what the thread using the network number [i] was returned by its calls. *)
Definition returned (m : mem (tcell T G)) (i : Z) (ss : list (seen T)) : Prop :=
  forall j s, nth_error ss j = Some s -> m (2 * i + 1) (Z.of_nat j) = CSeen s.
(** None of the calls draws random numbers: Dropout layers are in evaluation mode and stay there. *)
Definition no_draws (n : net T G) (cs : list (call T)) : Prop :=
  forall d, In (LDrop d) (n_layers n) -> dr_train d = false /\ ~ In (CMode true) cs.
(** A thread is a network and the calls made on it; thread [i] has the network number [i]. *)
Definition threads {S : Scalar T} {HR : Rng T G} (users : list (net T G * list (call T))) : list (prog (tcell T G)) :=
  map (fun p => thread_prog (Z.of_nat (fst p)) (fst (snd p)) (snd (snd p))) (combine (seq 0 (List.length users)) users).
(** Predicting [x] gets to a Dropout layer in training mode. *)
Definition draws {S : Scalar T} {HR : Rng T G} (n : net T G) (x : tensor T) : Prop := exists pre d post ls g y,
  n_layers n = pre ++ LDrop d :: post /\ dr_train d = true /\ Forall (fun l => forall d, l = LDrop d -> dr_train d = false) pre /\ forward_all pre x (n_rng n) = (ls, g, Ok y).
(** Predicting [x] makes this layer, when it is the first, keep [x]. *)
Definition keeps (l : layer T) (x : tensor T) : Prop := match l with
  | LFC _ | LAct _ => True
  | LFlat _ => 2 < Zlen (tdims x)
  | LPool _ => Zlen (tdims x) = 4
  | LConv l => exists b h w, tdims x = [b; cv_ic l; h; w]
  | LDrop _ | LBN _ => False
  end.
(** All layers only read in forward: Dropout and batch normalisation in evaluation mode. *)
Definition reads_only (n : net T G) : Prop := Forall (fun l => match l with LDrop d => dr_train d = false | LBN b => bn_train b = false | _ => False end) (n_layers n).
(** Thread [i] predicts [xs] one after the other, all threads with the network number 0. *)
Definition sharing {S : Scalar T} {HR : Rng T G} (n : net T G) (uses : list (list (tensor T))) : list (prog (tcell T G)) :=
  map (fun p => calls_prog 0 (n_loss n) (List.length (n_layers n)) (2 * Z.of_nat (fst p) + 1) (map (@CPredict T) (snd p)) 0) (combine (seq 0 (List.length uses)) uses).
(** Two threads are about to write the same cell. *)
Definition both_write {V} (ps : list (prog V)) : Prop := exists q q' a i x x' k k', q <> q' /\ nth_error ps q = Some (Wr a i x k) /\ nth_error ps q' = Some (Wr a i x' k').
End S.
