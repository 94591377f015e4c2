(** * Vocabulary for C132 to C136: layers that can be merged, exchanged or left out without changing predictions *)
From Coq Require Import Reals.
From Verif Require Import Base Scalar ScalarR Types Spec SpecNN SpecLayers SpecR M_Tensor M_Act M_Loss M_Layers M_Reg M_Opt M_Net SpecNet.

Section S.
Context {T : Type} {S : Scalar T} {G : Type} {HR : Rng T G}.
Local Open Scope Z_scope.
(** The layer takes inputs of shape [ds] to predictions of shape [ds']: Dropout and batch normalisation may be in evaluation mode. *)
Inductive predicts : list Z -> layer T -> list Z -> Prop :=
  | pr_layer : forall ds l ds', accepts ds l ds' -> predicts ds l ds'
  | pr_bn : forall f ds l, bn_rows f l -> bn_train l = false -> featured f ds -> predicts ds (LBN l) ds
  | pr_drop : forall ds l, dr_train l = false -> predicts ds (LDrop l) ds.
(** [n'] is the network [n] with the layers [b] in the place of the layers [a]. *)
Definition replaced (pre a b post : list (layer T)) (n n' : net T G) : Prop :=
  n_layers n = pre ++ a ++ post /\ n_layers n' = pre ++ b ++ post /\ n_rng n' = n_rng n.
(** Wherever the layers [a] get inputs of shape [ds], they can be replaced by [b] without any effect on predictions. *)
Definition interchangeable (ds : list Z) (a b : list (layer T)) : Prop :=
  forall n n' pre post ds0 x, replaced pre a b post n n' -> stack predicts ds0 pre ds -> good x -> tdims x = ds0 ->
    snd (net_predict n' x) = snd (net_predict n x).
(** The same where the layers before them have turned the input into [z]. *)
Definition interchangeable_at (a b : list (layer T)) (z : tensor T) : Prop :=
  forall n n' pre post x, replaced pre a b post n n' -> snd (net_predict (mkNet pre (n_loss n) (n_opt n) (n_rng n)) x) = Ok z ->
    snd (net_predict n' x) = snd (net_predict n x).
(** A max-pooling layer that fits images of [h] by [w] pixels. *)
Definition pools (h w : Z) (l : pool T) : Prop := po_pad l = 0 /\ 0 < po_stride l /\ 0 < po_size l <= h /\ po_size l <= w.
(** The elements of [x] and zero are ordered by operator< and above minus infinity. *)
Definition comparable_with_zero (x : tensor T) : Prop :=
  ordered (fun v => elements x v \/ v = zero) /\ forall v, elements x v \/ v = zero -> s_lt (s_neg s_inf) v = true.
(** A fully connected layer from [k] to [o] features. *)
Definition dense_of (k o : Z) (l : fc T) : Prop := good (fc_w l) /\ tdims (fc_w l) = [k; o] /\ good (fc_b l) /\ tdims (fc_b l) = [1; o].
(** A convolution whose parameters have the shapes its constructor gives them. *)
Definition kernels_of (l : conv T) : Prop := good (cv_w l) /\ tdims (cv_w l) = [cv_oc l; cv_ic l; cv_kh l; cv_kw l] /\ good (cv_b l) /\ tdims (cv_b l) = [cv_oc l; 1].
End S.

Section R.
Local Open Scope R_scope.
(** [c] is [a] followed by [b]: the product of the weight matrices, and the biases of [a] carried through [b]. *)
Definition merged (k m o : Z) (a b c : fc R) : Prop :=
  dense_of k m a /\ dense_of m o b /\ dense_of k o c /\
  (forall i j, (0 <= i < k)%Z -> (0 <= j < o)%Z -> el (fc_w c) [i; j] = rsum (zrange 0 m) (fun p => el (fc_w a) [i; p] * el (fc_w b) [p; j])) /\
  (forall j, (0 <= j < o)%Z -> el (fc_b c) [0%Z; j] = rsum (zrange 0 m) (fun p => el (fc_b a) [0%Z; p] * el (fc_w b) [p; j]) + el (fc_b b) [0%Z; j]).
(** Batch normalisation in evaluation mode maps feature [j] by v |-> v * slope + ... *)
Definition bn_slope (b : bn R) (j : Z) : R := el (bn_gamma b) [0%Z; j] / sqrt (el (bn_rvar b) [0%Z; j] + bn_eps b).
(** [c] is the dense layer [a] followed by batch normalisation [b] with its running mean and variance. *)
Definition folded (k o : Z) (a : fc R) (b : bn R) (c : fc R) : Prop :=
  dense_of k o a /\ bn_rows o b /\ dense_of k o c /\
  (forall i j, (0 <= i < k)%Z -> (0 <= j < o)%Z -> el (fc_w c) [i; j] = el (fc_w a) [i; j] * bn_slope b j) /\
  (forall j, (0 <= j < o)%Z -> el (fc_b c) [0%Z; j] = (el (fc_b a) [0%Z; j] - el (bn_rmean b) [0%Z; j]) * bn_slope b j + el (bn_beta b) [0%Z; j]).
(** The same for a convolution. *)
Definition folded_conv (a : conv R) (b : bn R) (c : conv R) : Prop :=
  kernels_of a /\ bn_rows (cv_oc a) b /\ kernels_of c /\ cv_ic c = cv_ic a /\ cv_oc c = cv_oc a /\ cv_kh c = cv_kh a /\ cv_kw c = cv_kw a /\
  (forall o i p q, in_range (tdims (cv_w a)) [o; i; p; q] -> el (cv_w c) [o; i; p; q] = el (cv_w a) [o; i; p; q] * bn_slope b o) /\
  (forall o, (0 <= o < cv_oc a)%Z -> el (cv_b c) [o; 0%Z] = (el (cv_b a) [o; 0%Z] - el (bn_rmean b) [0%Z; o]) * bn_slope b o + el (bn_beta b) [0%Z; o]).
(** [a'], [b'] are [a], [b] with hidden unit [j] between them scaled by the positive factor [s j]. *)
Definition rescaled (k m o : Z) (s : Z -> R) (a b a' b' : fc R) : Prop :=
  dense_of k m a /\ dense_of m o b /\ dense_of k m a' /\ dense_of m o b' /\ (forall j, (0 <= j < m)%Z -> 0 < s j) /\
  (forall i j, (0 <= i < k)%Z -> (0 <= j < m)%Z -> el (fc_w a') [i; j] = el (fc_w a) [i; j] * s j) /\
  (forall j, (0 <= j < m)%Z -> el (fc_b a') [0%Z; j] = el (fc_b a) [0%Z; j] * s j) /\
  (forall j q, (0 <= j < m)%Z -> (0 <= q < o)%Z -> el (fc_w b') [j; q] = el (fc_w b) [j; q] / s j) /\ fc_b b' = fc_b b.
(** Activations that never decrease, and stay above minus infinity. *)
Definition rising (f : act R) : Prop := f = ReLU \/ f = Sigmoid \/ f = Tanh \/ exists al, f = LeakyReLU al /\ 0 <= al <= 1.
(** Activations under which a positive factor can be taken out. *)
Definition keeps_scale (f : act R) : Prop := f = ReLU \/ exists al, f = LeakyReLU al.
(** [x'] is [c] times [x]. *)
Definition times (c : R) (x x' : tensor R) : Prop := good x' /\ tdims x' = tdims x /\ forall idx, in_range (tdims x) idx -> el x' idx = c * el x idx.
(** Layers without an offset: zero biases, and activations that keep the scale. *)
Definition no_offset (l : layer R) : Prop :=
  match l with
  | LFC l => forall idx, in_range (tdims (fc_b l)) idx -> el (fc_b l) idx = 0
  | LConv l => forall idx, in_range (tdims (cv_b l)) idx -> el (cv_b l) idx = 0
  | LAct l => al_act l = ReLU \/ exists al, al_act l = LeakyReLU al
  | LFlat _ | LDrop _ => True
  | LPool _ | LBN _ => False
  end.
End R.
