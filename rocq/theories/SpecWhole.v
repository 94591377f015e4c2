(** * Vocabulary for whole numbers in float32 (C110, C111) *)
From Coq Require Import Reals SpecFloat.
From Verif Require Import Base Scalar Types Spec SpecR SpecF32.
Local Open Scope Z_scope.
(** The float [x] is the whole number [z]. *)
Definition whole (x : f32) (z : Z) : Prop := f32_valid x /\ f32_finite x /\ f32_value x = IZR z.
(** The element of [t] at each index is the whole number given by [f]. *)
Definition wholes (lm : libm) (t : tensor f32) (f : list Z -> Z) : Prop := forall idx, in_range (tdims t) idx -> whole (@el _ (F32Scalar lm) t idx) (f idx).
Definition zsum {A} (l : list A) (f : A -> Z) : Z := fold_right Z.add 0 (map f l).
(** Up to 2^24 every whole number is a float. *)
Definition exact_limit : Z := 2 ^ 24.
