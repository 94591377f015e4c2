(** * Vocabulary for C123: averages over the states in which a random engine may be *)
From Coq Require Import Reals.
From Verif Require Import Base Scalar ScalarR Types Spec SpecR M_Tensor SpecInit.
Local Open Scope R_scope.

(** The mean of [X] over equally likely states, and the share of the states in which [P] holds. *)
Definition mean {A} (states : list A) (X : A -> R) : R := rsum states X / IZR (Zlen states).
Definition share {A} (states : list A) (P : A -> bool) : R := mean states (fun a => if P a then 1 else 0).
(** [X] is as often above [t] as it is below [-t]. *)
Definition even_handed {A} (states : list A) (X : A -> R) : Prop := forall t, share states (fun a => Rltb t (X a)) = share states (fun a => Rltb (X a) (- t)).
(** The engine's [k]-th draw from the normal distribution with mean 0 that is used for a tensor of [n] elements. *)
Definition normal_draw {G} {HR : Rng R G} (n k : Z) (g : G) : R := draw (sqrt (2 / IZR n)) (Z.to_nat k) g.
(** How many elements are not zero. *)
Definition nonzeros (t : tensor R) : R := rsum (all_indices (tdims t)) (fun idx => if Req_EM_T (el t idx) 0 then 0 else 1).
