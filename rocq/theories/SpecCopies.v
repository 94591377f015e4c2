(** * Vocabulary for batches with several copies of each sample (C138) *)
From Coq Require Import Reals Permutation.
From Verif Require Import Base Scalar ScalarR Types Spec SpecR SpecBatch SpecBatchR.
Local Open Scope Z_scope.
(** [sel] lists each of the numbers 0, ..., [N] - 1 exactly [m] times, in any order. *)
Definition copies (m : nat) (N : Z) (sel : list Z) : Prop := Permutation sel (concat (repeat (zrange 0 N) m)).
(** [s'] is the batch [s] of [N] samples and targets with [m] copies of each sample, and of its target alike. *)
Definition copied (m : nat) (N : Z) (s s' : tensor R * tensor R) : Prop := exists sel, copies m N sel /\ fst s' = gather sel (fst s) /\ snd s' = gather sel (snd s).
