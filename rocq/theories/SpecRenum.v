(** * Vocabulary for C129: the same network with its units listed in another order *)
From Verif Require Import Base Scalar Types Spec SpecNN M_Tensor M_Act M_Loss M_Layers M_Reg M_Opt M_Net SpecNet.
Local Open Scope Z_scope.

(** [f] permutes the numbers 0, ..., k - 1: unit [i] gets number [f i]. *)
Definition permutes (k : Z) (f : Z -> Z) : Prop :=
  (forall i, 0 <= i < k -> 0 <= f i < k) /\ forall i j, 0 <= i < k -> 0 <= j < k -> f i = f j -> i = j.
(** A new order of the columns of a batch, or none. *)
Definition order := option (Z -> Z).
Definition new_place (p : order) (i : Z) : Z := match p with Some f => f i | None => i end.
Definition orders (p : order) (k : Z) : Prop := match p with Some f => permutes k f | None => True end.

Section S.
Context {T : Type} {S : Scalar T}.
(** [x'] is the batch [x] with its columns in the new order. *)
Definition reordered (p : order) (x x' : tensor T) : Prop :=
  match p with
  | None => x' = x
  | Some f => exists n k, good x' /\ tdims x = [n; k] /\ tdims x' = [n; k] /\ permutes k f /\
      forall r i, 0 <= r < n -> 0 <= i < k -> el x' [r; f i] = el x [r; i]
  end.
(** [l'] is the layer [l] for inputs in order [p] and outputs in order [q]: a dense layer with rows, columns and biases moved; an
    activation; any other layer as it is. *)
Inductive renumbered : order -> layer T -> layer T -> order -> Prop :=
  | rn_fc : forall p q k o l l', good (fc_w l') -> good (fc_b l') -> tdims (fc_w l) = [k; o] -> tdims (fc_w l') = [k; o] -> tdims (fc_b l) = [1; o] -> tdims (fc_b l') = [1; o] ->
      orders p k -> orders q o ->
      (forall i j, 0 <= i < k -> 0 <= j < o -> el (fc_w l') [new_place p i; new_place q j] = el (fc_w l) [i; j]) ->
      (forall j, 0 <= j < o -> el (fc_b l') [0; new_place q j] = el (fc_b l) [0; j]) ->
      renumbered p (LFC l) (LFC l') q
  | rn_act : forall p l l', al_act l' = al_act l -> renumbered p (LAct l) (LAct l') p
  | rn_other : forall l, renumbered None l l None.
(** A whole network: an order for the inputs of each layer and for the outputs. *)
Inductive renumbering : list order -> list (layer T) -> list (layer T) -> Prop :=
  | rns_nil : forall p, renumbering [p] [] []
  | rns_cons : forall p q ps l ls l' ls', renumbered p l l' q -> renumbering (q :: ps) ls ls' -> renumbering (p :: q :: ps) (l :: ls) (l' :: ls').
Definition inputs (ps : list order) : order := hd None ps.
Definition outputs (ps : list order) : order := last ps None.
End S.
