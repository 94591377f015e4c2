(** * Vocabulary for C146: convolutions that differ in their first kernel alone *)
From Coq Require Import ZArith List.
From Verif Require Import Base Scalar Types Spec SpecLayers M_Tensor M_Act M_Loss M_Layers M_Reg M_Opt M_Net.
Import ListNotations.
Local Open Scope Z_scope.

Section S.
Context {T : Type} {S : Scalar T}.
(** Two convolutions of the same sizes, with the same weights in the first channel of the first kernel and the same first bias; nothing is said of the other weights and
    biases. *)
Definition first_kernel (l l' : conv T) : Prop :=
  cv_ic l' = cv_ic l /\ cv_oc l' = cv_oc l /\ cv_kh l' = cv_kh l /\ cv_kw l' = cv_kw l /\
  good (cv_w l') /\ tdims (cv_w l') = tdims (cv_w l) /\ good (cv_b l') /\ tdims (cv_b l') = tdims (cv_b l) /\
  (forall p q, in_range (tdims (cv_w l)) [0; 0; p; q] -> el (cv_w l') [0; 0; p; q] = el (cv_w l) [0; 0; p; q]) /\
  el (cv_b l') [0; 0] = el (cv_b l) [0; 0].
(** Layers that treat every channel by itself: max-pooling, dropout, and every activation but Softmax. *)
Definition by_channel (l : layer T) : Prop := match l with LAct a => al_act a <> Softmax | LPool _ | LDrop _ => True | _ => False end.
End S.
