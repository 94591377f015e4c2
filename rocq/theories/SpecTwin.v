(** * Vocabulary for C124: units of a network that are copies of each other *)
From Verif Require Import Base Scalar Types Spec SpecNN M_Tensor M_Act M_Loss M_Layers M_Reg M_Opt M_Net SpecNet.

(** [B i j]: units [i] and [j] of a layer of units are to be copies of each other. *)
Definition pairing := Z -> Z -> Prop.
Definition nobody : pairing := fun _ _ => False.
Definition everybody : pairing := fun _ _ => True.
Definition just (a b : Z) : pairing := fun i j => i = a /\ j = b.

Section S.
Context {T : Type} {S : Scalar T}.
(** Columns (rows) of a matrix are equal for all pairs. *)
Definition columns_alike (B : pairing) (t : tensor T) : Prop :=
  forall r i j, B i j -> in_range (tdims t) [r; i] -> in_range (tdims t) [r; j] -> el t [r; i] = el t [r; j].
Definition rows_alike (B : pairing) (t : tensor T) : Prop :=
  forall i j c, B i j -> in_range (tdims t) [i; c] -> in_range (tdims t) [j; c] -> el t [i; c] = el t [j; c].
(** Paired outputs of a dense layer have the same incoming weights and the same bias; paired inputs have the same outgoing
    weights.  Activations applied element by element keep the pairs.  Any other layer neither takes nor gives pairs. *)
Inductive twinned : pairing -> layer T -> pairing -> Prop :=
  | tw_fc : forall B B' l, rows_alike B (fc_w l) -> columns_alike B' (fc_w l) -> columns_alike B' (fc_b l) -> twinned B (LFC l) B'
  | tw_act : forall B l, al_act l <> Softmax -> twinned B (LAct l) B
  | tw_other : forall l, twinned nobody l nobody.
(** A whole network: a pairing for the inputs of each layer and for the outputs. *)
Inductive twins : list pairing -> list (layer T) -> Prop :=
  | tws_nil : forall B, twins [B] []
  | tws_cons : forall B B' Bs l ls, twinned B l B' -> twins (B' :: Bs) ls -> twins (B :: B' :: Bs) (l :: ls).
(** Only hidden units are paired. *)
Definition hidden (Bs : list pairing) : Prop := hd everybody Bs = nobody /\ last Bs everybody = nobody.
End S.

Section U.
Context {T : Type} {S : Scalar T}.
Definition is_dense (l : layer T) : bool := match l with LFC _ => true | _ => false end.
(** All elements of a tensor are equal. *)
Definition constant (t : tensor T) : Prop := forall a b, in_range (tdims t) a -> in_range (tdims t) b -> el t a = el t b.
(** A dense layer whose weights are all equal and whose biases are all equal, or an activation applied element by element. *)
Definition uniform (l : layer T) : Prop :=
  match l with LFC l => constant (fc_w l) /\ constant (fc_b l) | LAct l => al_act l <> Softmax | _ => False end.
End U.
