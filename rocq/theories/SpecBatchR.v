(** * Vocabulary for averages over the rows of a batch (C109) *)
From Coq Require Import Reals Permutation.
From Verif Require Import Base Scalar ScalarR Types Spec SpecR M_Loss M_Layers M_Reg M_Opt M_Net SpecNetR SpecBatch.
Local Open Scope Z_scope.
(** [t] is the average of the tensors [f 0], ..., [f (n - 1)], all of shape [ds]. *)
Definition average_of (n : Z) (ds : list Z) (f : Z -> tensor R) (t : tensor R) : Prop :=
  tdims t = ds /\ (forall i, 0 <= i < n -> tdims (f i) = ds) /\
  forall idx, in_range ds idx -> el t idx = (rsum (zrange 0 n) (fun i => el (f i) idx) / IZR n)%R.
(** A network without convolutions with the loss [lo], whose layers fit batches of [N] rows of shape [ds] and predict
    rows of shape [D]; the cross-entropy loss wants matrices. *)
Definition row_net {G} (n : net R G) (lo : loss) (N : Z) (ds D : list Z) : Prop :=
  chain (N :: ds) (n_layers n) (N :: D) /\ Forall (fun l => is_conv l = false) (n_layers n) /\ n_loss n = Some lo /\ (lo = CCE -> length D = 1%nat).
(** A batch of [N] samples of shape [ds] with targets of shape [D]. *)
Definition batch_for (N : Z) (ds D : list Z) (x t : tensor R) : Prop := good x /\ tdims x = N :: ds /\ good t /\ tdims t = N :: D.

(** ** The samples of a batch in another order (C116) *)
(** [sel] lists the numbers 0, ..., [N] - 1 in some order. *)
Definition reordering (N : Z) (sel : list Z) : Prop := Permutation sel (zrange 0 N).
(** [s'] is the batch [s] of [N] samples and targets with its samples, and the targets alike, in another order. *)
Definition shuffled (N : Z) (s s' : tensor R * tensor R) : Prop := exists sel, reordering N sel /\ fst s' = gather sel (fst s) /\ snd s' = gather sel (snd s).
