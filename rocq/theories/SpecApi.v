(** * Specification vocabulary for C85 and C86 *)
From Verif Require Import Base Scalar Types Spec.

(** A shape whose size and strides are those of its dimensions, in size_t arithmetic. *)
Definition consistent_shape (s : shape) : Prop :=
  pos_dims (dims s) /\ ssize s = prod (dims s) mod 2 ^ 64 /\ sstride s = map (fun k => k mod 2 ^ 64) (strides_of (dims s)).
(** A tensor over such a shape whose buffer holds exactly size() elements. *)
Definition consistent {T} (t : tensor T) : Prop := consistent_shape (tshape t) /\ Zlen (tdata t) = ssize (tshape t).
