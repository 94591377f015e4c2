(** * What dropout keeps (C123) *)
From Coq Require Import Reals Lra.
From Verif Require Import Base Scalar ScalarR Types Spec SpecR SpecInit SpecChance M_Shape M_Tensor M_Adv M_Act M_Layers M_Reg L_Chance.
Local Open Scope R_scope.

(** [states]: the states in which the random engine may be when forward() is called, all equally likely; [y g] is what forward() returns in state [g].
    The full claim: [mean states (fun g => el (y g) idx) = el x idx].  It holds exactly if the share of the states whose draw exceeds the rate is
    1 - rate ... *)
Theorem C123_exact_partial : forall {G} {HR : Rng R G} (l : dropout R) x (states : list G) (y : G -> tensor R), dr_train l = true -> good x ->
  (forall g, In g states -> snd (dropout_forward l x g) = Ok (y g)) -> forall idx, 0 <= dr_rate l < 1 -> in_range (tdims x) idx ->
  share states (fun g => Rltb (dr_rate l) (normal_draw (prod (tdims x)) (ravel (tdims x) idx) g)) = 1 - dr_rate l -> mean states (fun g => el (y g) idx) = el x idx.
Proof. exact @drop_exact. Qed.
(** ... but the draws come from a normal distribution with mean 0.  If they are as often above any number as below its opposite, at most half of
    the elements are kept, whatever the rate ... *)
Theorem C123_at_most_half : forall {G} {HR : Rng R G} (l : dropout R) x (states : list G) (y : G -> tensor R), dr_train l = true -> good x -> states <> [] ->
  (forall g, In g states -> snd (dropout_forward l x g) = Ok (y g)) -> forall idx, 0 <= dr_rate l < 1 -> in_range (tdims x) idx ->
  even_handed states (normal_draw (prod (tdims x)) (ravel (tdims x) idx)) ->
  share states (fun g => if Req_EM_T (el (y g) idx) 0 then false else true) <= / 2 /\ Rabs (mean states (fun g => el (y g) idx)) <= Rabs (el x idx) / (2 * (1 - dr_rate l)).
Proof. exact @drop_half. Qed.
(** ... and if their mean square is the one asked for, 2 / number of elements, then on average at most 2 / rate^2 elements are kept, however many
    there are: 32 for the rate 0.25 of the MNIST example. *)
Theorem C123_few : forall {G} {HR : Rng R G} (l : dropout R) x (states : list G) (y : G -> tensor R), dr_train l = true -> good x -> states <> [] ->
  (forall g, In g states -> snd (dropout_forward l x g) = Ok (y g)) -> 0 < dr_rate l < 1 ->
  (forall idx, in_range (tdims x) idx -> mean states (fun g => normal_draw (prod (tdims x)) (ravel (tdims x) idx) g * normal_draw (prod (tdims x)) (ravel (tdims x) idx) g) = 2 / IZR (prod (tdims x))) ->
  mean states (fun g => nonzeros (y g)) <= 2 / (dr_rate l * dr_rate l).
Proof. exact @drop_few. Qed.
(** An even-handed engine with the right mean square, rate 0.25, nine ones: the mean output is 2/3. *)
Theorem C123_refuted : exists (HR : Rng R bool) (l : dropout R) (x : tensor R) (states : list bool) (y : bool -> tensor R), dr_train l = true /\ 0 <= dr_rate l < 1 /\ good x /\ states <> [] /\
  (forall k, even_handed states (normal_draw (prod (tdims x)) k) /\ mean states (fun g => normal_draw (prod (tdims x)) k g * normal_draw (prod (tdims x)) k g) = 2 / IZR (prod (tdims x))) /\
  (forall g, snd (dropout_forward l x g) = Ok (y g)) /\ forall idx, in_range (tdims x) idx -> mean states (fun g => el (y g) idx) <> el x idx.
Proof. exact coin_refutes. Qed.
Print Assumptions C123_exact_partial.
Print Assumptions C123_at_most_half.
Print Assumptions C123_few.
Print Assumptions C123_refuted.
(** The hypotheses of the two bounds are met by an engine that draws plus or minus the deviation. *)
Example C123_case : exists y : bool -> tensor R, dr_train quarter = true /\ good ones9 /\ (forall g, In g [true; false] -> snd (dropout_forward (H := coin_rng) quarter ones9 g) = Ok (y g)) /\ 0 < dr_rate quarter < 1 /\
  forall k, even_handed [true; false] (normal_draw (HR := coin_rng) 9 k) /\ mean [true; false] (fun g => normal_draw (HR := coin_rng) 9 k g * normal_draw (HR := coin_rng) 9 k g) = 2 / IZR 9.
Proof.
  destruct coin_dropout as (y & E & _). exists y. split; [reflexivity|]. split; [exact ones9_good|]. split; [auto|]. split; [cbn; lra|]. intros k. apply coin_fair. lia.
Qed.
