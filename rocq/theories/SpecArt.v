(** * Grey levels of arbitrary floats (C81) *)
From Coq Require Import Reals.
From Verif Require Import Base Scalar Types SpecF32.
Local Open Scope Z_scope.

(** [x], ten times a pixel, is on level [k]: [k] is [x] without its fractional part. *)
Definition level_of (x : f32) (k : Z) : Prop :=
  f32_finite x /\ k <= INT_MAX /\ ((0 <= k /\ (IZR k <= f32_value x < IZR k + 1)%R) \/ (k = 0 /\ (-1 < f32_value x < 0)%R)).
(** [x] is infinite or not a number, at most -1, or too large for an [int]. *)
Definition off_scale (x : f32) : Prop := ~ f32_finite x \/ (f32_value x <= -1)%R \/ (2147483648 <= f32_value x)%R.
