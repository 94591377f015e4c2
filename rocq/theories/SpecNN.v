(** * Specification vocabulary for activations, losses and layers *)
From Verif Require Import Base Scalar Types Spec.

Section S.
Context {T : Type} {S : Scalar T}.

(** Entry [r] along the first dimension, as the list of its elements in row-major order. *)
Definition row (ds : list Z) (t : tensor T) (r : Z) : list T := map (fun i => el t (r :: i)) (all_indices ds).
(** Greatest element by repeated std::max, the first element as start. *)
Definition list_max (l : list T) : T := match l with [] => zero | x :: l' => fold_left s_max l' x end.
(** exp(v - max) / sum of exp(w - max). *)
Definition softmax_of (l : list T) (v : T) : T :=
  s_div (s_exp (s_sub v (list_max l))) (fsum (map (fun w => s_exp (s_sub w (list_max l))) l)).

(** ** Losses *)
(** The tensor of shape [ds] with the same elements in row-major order. *)
Definition in_shape (ds : list Z) (t : tensor T) : tensor T := tensor_of ds (fun idx => znth zero (tdata t) (ravel ds idx)).
(** Targets MSELoss accepts for a prediction: the same shape, or (n) for (n,1,...,1). *)
Definition aligned (p t : tensor T) : Prop :=
  tdims t = tdims p \/ exists n r, tdims t = [n] /\ tdims p = n :: r /\ prod r = 1.

(** ** Convolution *)
(** Number of kernel positions along an axis of length [d]. *)
Definition conv_extent (stride pad dil d k : Z) : Z := (d + 2 * pad - dil * (k - 1) - 1) / stride + 1.
(** Element of an image batch; positions outside the image count as zero. *)
Definition padded (x : tensor T) (h w i c y z : Z) : T :=
  if (0 <=? y) && (y <? h) && (0 <=? z) && (z <? w) then el x [i; c; y; z] else zero.
(** Cross-correlation of a (n,ic,h,w) batch with (oc,ic,kh,kw) kernels plus one bias per output channel. *)
Definition conv_spec (stride pad dil : Z) (x W b : tensor T) (n ic h w oc kh kw : Z) : tensor T :=
  tensor_of [n; oc; conv_extent stride pad dil h kh; conv_extent stride pad dil w kw] (fn4 (fun i o y z =>
    s_add (fsum (map (fn3 (fun c p q =>
                   s_mul (padded x h w i c (y * stride + p * dil - pad) (z * stride + q * dil - pad)) (el W [o; c; p; q])))
                 (all_indices [ic; kh; kw])))
          (el b [o; 0]))).

(** ** Max pooling *)
(** Number of windows along an axis of length [d]. *)
Definition pool_extent (size stride d : Z) : Z := (d - size) / stride + 1.
(** Input position of offset [k] = (p,q) in the window of output position [o] = (b,c,i,j), and all of them in row-major order. *)
Definition window_pos (stride : Z) (o k : list Z) : list Z :=
  [nth 0 o 0; nth 1 o 0; nth 2 o 0 * stride + nth 0 k 0; nth 3 o 0 * stride + nth 1 k 0].
Definition window (size stride : Z) (o : list Z) : list (list Z) := map (window_pos stride o) (all_indices [size; size]).
(** [a] is the first entry of [l] with the largest value. *)
Definition first_max {A} (val : A -> T) (l : list A) (a : A) : Prop :=
  exists l1 l2, l = l1 ++ a :: l2 /\ (forall x, In x l1 -> s_lt (val x) (val a) = true) /\ (forall x, In x l -> s_lt (val a) (val x) = false).
(** operator< orders the values in [P] (a strict weak order: floats without NaN, integers, reals). *)
Definition ordered (P : T -> Prop) : Prop :=
  (forall x, P x -> s_lt x x = false) /\
  (forall x y z, P x -> P y -> P z -> s_lt x y = true -> s_lt y z = true -> s_lt x z = true) /\
  (forall x y z, P x -> P y -> P z -> s_lt x y = false -> s_lt y z = false -> s_lt x z = false).
(** The elements of a tensor; all of them are above minus infinity and ordered. *)
Definition elements (x : tensor T) (v : T) : Prop := exists idx, in_range (tdims x) idx /\ v = el x idx.
Definition comparable (x : tensor T) : Prop := ordered (elements x) /\ forall v, elements x v -> s_lt (s_neg s_inf) v = true.
End S.

(** ** Batch normalisation *)
Section BN.
Context {T : Type} {S : Scalar T}.
(** Inputs with [f] features: (batch, f) or images (batch, f, height, width). *)
Definition featured (f : Z) (ds : list Z) : Prop := (exists n, ds = [n; f]) \/ exists n h w, ds = [n; f; h; w].
(** All positions of feature [j], in row-major order. *)
Definition feature_positions (ds : list Z) (j : Z) : list (list Z) := filter (fun idx => nth 1 idx 0 =? j) (all_indices ds).
(** Number of positions of one feature. *)
Definition feature_count (ds : list Z) : Z := match ds with n :: _ :: r => n * prod r | _ => 0 end.
(** Mean of feature [j]: sum (innermost axis first) times the reciprocal of the count. *)
Definition feature_sum (x : tensor T) (j : Z) : T :=
  match tdims x with
  | [n; _; h; w] => sum_to n (fun i => sum_to h (fun y => sum_to w (fun z => el x [i; j; y; z])))
  | n :: _ => sum_to n (fun i => el x [i; j])
  | [] => zero
  end.
Definition feature_mean (x : tensor T) (j : Z) : T := s_mul (feature_sum x j) (s_div one (s_z (feature_count (tdims x)))).
(** Variance of feature [j]: sum of the squared deviations divided by the count. *)
Definition feature_var (x : tensor T) (j : Z) : T :=
  s_div (fsum (map (fun idx => s_mul (s_sub (el x idx) (feature_mean x j)) (s_sub (el x idx) (feature_mean x j))) (feature_positions (tdims x) j)))
        (s_z (feature_count (tdims x))).
(** (v - mean) / sqrt(var + eps) * gamma + beta *)
Definition normalised (eps mean var gamma beta v : T) : T :=
  s_add (s_mul (s_div (s_sub v mean) (s_sqrt (s_add var eps))) gamma) beta.
(** One step of an exponential moving average. *)
Definition ema (mom running batch : T) : T := s_add (s_mul running mom) (s_mul batch (s_sub one mom)).
(** The inputs seen in training mode. *)
Definition training (es : list (bool * tensor T)) : list (tensor T) := map snd (filter fst es).
End BN.
