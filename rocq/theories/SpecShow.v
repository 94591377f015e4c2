(** * What the MNIST program should show for one batch *)
From Coq Require Import ZArith Ascii String Floats.SpecFloat.
From Verif Require Import Base Scalar Types Spec TextBase SpecText M_Shape M_Tensor M_Net M_Data.
Local Open Scope string_scope.

(** The picture, the prediction and the label, each on its own line. *)
Definition block (show : f32 -> string) (pic : list ascii) (p t : tensor f32) : string :=
  "Input: " ++ string_of_list_ascii pic ++ nl ++
  "Prediction: " ++ values_text show (tdata p) ++ nl ++
  "Actual value: " ++ values_text show (tdata t) ++ nl.

(** What one batch needs: a prediction of the network in its present state, and a picture; [b] is what is shown for it. *)
Definition showable (lm : libm) {G} {HR : Rng f32 G} (show : f32 -> string) (n : net f32 G) (x t : tensor f32) (b : string) : Prop :=
  exists pic p, snd (net_predict (S := F32Scalar lm) n x) = Ok p /\ good p /\ to_ascii_art x = Ok pic /\ good t /\ b = block show pic p t.
