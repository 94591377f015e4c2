(** * A float32 prediction is close to the exact one (C122) *)
From Coq Require Import Reals Lra SpecFloat.
From Verif Require Import Base Scalar ScalarR Types Spec SpecNN SpecR SpecF32 M_Shape M_Tensor M_Adv M_Act M_Layers M_Reg M_Net L_Layers L_Conv L_FloatLib SpecNear L_Near L_Near2 L_Near3.
Local Open Scope R_scope.
Local Notation F32 := F32Scalar.

(** The network and its twin in exact arithmetic, on inputs within [E] of each other: both predict, the float32 outputs are finite, and they
    are within [E'] of the exact ones, where [E'] is computed from the weights layer by layer ([drifts] in SpecNear.v).  The layers may be of every
    kind: dense, convolution, flatten, max pooling, and, in evaluation mode, batch normalisation and dropout, with any of the seven activations.
    Max pooling starts its search at minus infinity, which the exact arithmetic does not have: any large enough number [K] will do. *)
Theorem C122_prediction : forall lm {G G'} {HR : Rng f32 G} {HR' : Rng R G'} ds M E (n : net f32 G) ds' M' E', drifts lm ds M E (n_layers n) ds' M' E' ->
  exists K0, forall K (n' : net R G') x y, K0 <= K -> Forall2 twin (n_layers n) (n_layers n') -> close lm ds M E x y ->
  exists u v, snd (net_predict (S := F32 lm) n x) = Ok u /\ snd (net_predict (S := RInf K) n' y) = Ok v /\ close lm ds' M' E' u v.
Proof. exact @predict_close. Qed.
Print Assumptions C122_prediction.
(** The exact network on the very numbers that the floats stand for: no error to begin with. *)
Theorem C122_same_input : forall lm ds M x, good x -> tdims x = ds -> all_finite x -> (forall idx, in_range ds idx -> Rabs (f32_value (@el _ (F32 lm) x idx)) <= M) -> close lm ds M 0 x (exact x).
Proof. exact close_self. Qed.
Print Assumptions C122_same_input.
(** One output that is ahead of another by more than twice the error in exact arithmetic is ahead of it in float32: the class chosen by a
    classifier is the same. *)
Theorem C122_choice : forall lm n o M E x y i j k, close lm [n; o] M E x y -> (0 <= i < n)%Z -> (0 <= j < o)%Z -> (0 <= k < o)%Z ->
  el y [i; k] + 2 * E < el y [i; j] -> @s_lt _ (F32 lm) (@el _ (F32 lm) x [i; k]) (@el _ (F32 lm) x [i; j]) = true.
Proof. exact close_choice. Qed.
Print Assumptions C122_choice.
(** Two dense layers with Sigmoid and Softmax, on inputs of at most 1, with the correctly rounded exponential: the error stays below 0.01. *)
Example C122_case : Forall2 twin ex_layers ex_exact /\ exists E, drifts cr_libm [3; 2]%Z 1 0 ex_layers [3; 2]%Z 1 E /\ E <= / 100.
Proof. split; [exact ex_twins|exact ex_drifts]. Qed.
(** Batch normalisation, Tanh, max pooling, flatten and Mish on 4 by 4 images: the error stays below 0.001. *)
Example C122_case_images : exists E, drifts cr_libm [3; 1; 4; 4]%Z 1 0 ex_image [3; 4]%Z 1 E /\ E <= / 1000.
Proof. exact ex_image_drifts. Qed.
(** ** C137 in float32
    Two float32 inputs that differ by at most [e] in each element: the float32 predictions differ by at most [E1 + E2], where [E1] is the rounding
    bound for the first input and [E2] the one for inputs that start with an error of [e]. *)
Theorem C137_float : forall lm {G} {HR : Rng f32 G} (n : net f32 G) ds M e ds' M1 E1 M2 E2 x x', drifts lm ds M 0 (n_layers n) ds' M1 E1 -> drifts lm ds M e (n_layers n) ds' M2 E2 ->
  good x -> tdims x = ds -> all_finite x -> (forall idx, in_range ds idx -> Rabs (f32_value (@el _ (F32 lm) x idx)) <= M) ->
  good x' -> tdims x' = ds -> all_finite x' -> (forall idx, in_range ds idx -> Rabs (f32_value (@el _ (F32 lm) x' idx) - f32_value (@el _ (F32 lm) x idx)) <= e) ->
  exists u u', snd (net_predict (S := F32 lm) n x) = Ok u /\ snd (net_predict (S := F32 lm) n x') = Ok u' /\ tdims u = ds' /\ tdims u' = ds' /\ all_finite u /\ all_finite u' /\
    forall idx, in_range ds' idx -> Rabs (f32_value (@el _ (F32 lm) u' idx) - f32_value (@el _ (F32 lm) u idx)) <= E1 + E2.
Proof. exact @float_near. Qed.
Print Assumptions C137_float.
(** One dense layer with three inputs rows, changed by at most 1/8. *)
Example C137_float_case : drifts cr_libm [3; 2]%Z 1 0 [LFC ex_fc] [3; 2]%Z (4 * 1 + 1) (next_error 2 4 1 1 0) /\ drifts cr_libm [3; 2]%Z 1 (1 / 8) [LFC ex_fc] [3; 2]%Z (4 * 1 + 1) (next_error 2 4 1 1 (1 / 8)).
Proof. split; (eapply drifts_cons; [apply ex_dense; lra|apply drifts_nil]). Qed.
