(** * SpecSlice: what a slice view shows *)
From Verif Require Import Base Scalar Types Spec M_Shape M_Tensor.

Section S.
Context {T : Type} {S : Scalar T}.

(** The view has dimensions [ds] and reading it at [idx] gives [f idx]. *)
Definition shows (v : sview T) (ds : list Z) (f : list Z -> T) : Prop :=
  sv_shape v = shape_of ds /\ pos_dims ds /\ prod ds <= INT_MAX /\
  forall idx, in_range ds idx -> sview_index v idx = Ok (f idx).
End S.
