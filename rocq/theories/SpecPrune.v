(** * Vocabulary for C130 and C131: leaving out features and hidden units *)
From Verif Require Import Base Scalar Types Spec SpecNN M_Tensor M_Act M_Loss M_Layers M_Reg M_Opt M_Net SpecNet.
Local Open Scope Z_scope.

(** [f] numbers [k] things within a list of [k'] things: thing [i] of the short list is thing [f i] of the long one. *)
Definition picks (k k' : Z) (f : Z -> Z) : Prop :=
  (forall i, 0 <= i < k -> 0 <= f i < k') /\ forall i j, 0 <= i < k -> 0 <= j < k -> f i = f j -> i = j.
(** [j] is not among the things picked. *)
Definition left_out (k : Z) (f : Z -> Z) (j : Z) : Prop := forall i, 0 <= i < k -> f i <> j.

Section S.
Context {T : Type} {S : Scalar T}.
(** [x'] is the batch [x] with further columns, all of them zero. *)
Definition with_blanks (k k' : Z) (f : Z -> Z) (x x' : tensor T) : Prop :=
  exists n, good x /\ good x' /\ tdims x = [n; k] /\ tdims x' = [n; k'] /\
    (forall r i, 0 <= r < n -> 0 <= i < k -> el x' [r; f i] = el x [r; i]) /\
    (forall r j, 0 <= r < n -> 0 <= j < k' -> left_out k f j -> el x' [r; j] = zero).
(** [l] is the dense layer [l'] without the inputs that are not picked: the same biases, and the rows of the picked inputs. *)
Definition fewer_inputs (k k' : Z) (f : Z -> Z) (l l' : fc T) : Prop :=
  exists o, good (fc_w l) /\ good (fc_w l') /\ tdims (fc_w l) = [k; o] /\ tdims (fc_w l') = [k'; o] /\ fc_b l' = fc_b l /\ good (fc_b l) /\ tdims (fc_b l) = [1; o] /\
    forall i j, 0 <= i < k -> 0 <= j < o -> el (fc_w l') [f i; j] = el (fc_w l) [i; j].
(** [l] is the dense layer [l'] without the outputs that are not picked. *)
Definition fewer_outputs (o o' : Z) (f : Z -> Z) (l l' : fc T) : Prop :=
  exists k, good (fc_w l) /\ good (fc_w l') /\ tdims (fc_w l) = [k; o] /\ tdims (fc_w l') = [k; o'] /\ good (fc_b l) /\ good (fc_b l') /\ tdims (fc_b l) = [1; o] /\ tdims (fc_b l') = [1; o'] /\
    (forall i j, 0 <= i < k -> 0 <= j < o -> el (fc_w l') [i; f j] = el (fc_w l) [i; j]) /\
    (forall j, 0 <= j < o -> el (fc_b l') [0; f j] = el (fc_b l) [0; j]).
(** The outputs of the dense layer [l'] that are not picked are not positive for the batch [x]. *)
Definition silent (o : Z) (f : Z -> Z) (l' : fc T) (x : tensor T) : Prop :=
  exists y n o', snd (fc_forward l' x) = Ok y /\ tdims y = [n; o'] /\ forall r j, 0 <= r < n -> 0 <= j < o' -> left_out o f j -> s_le (el y [r; j]) zero = true.
End S.
