(** * Spec: mathematical vocabulary, independent of the model.

    Multi-dimensional arrays as functions from multi-indices to elements, in
    row-major order, and right-aligned ("NumPy") broadcasting.  Nothing here
    mentions a function of the model; only the data types of [Types.v]. *)
From Verif Require Import Base Scalar Types.

(** Product of a list of dimensions. *)
Fixpoint prod (ds : list Z) : Z :=
  match ds with [] => 1 | d :: r => d * prod r end.

(** A legal list of dimensions: non-empty, all positive. *)
Definition pos_dims (ds : list Z) : Prop := ds <> [] /\ Forall (fun d => 0 < d) ds.

(** [idx] is a multi-index of an array with dimensions [ds]. *)
Definition in_range (ds idx : list Z) : Prop := Forall2 (fun d i => 0 <= i < d) ds idx.

(** Row-major position of a multi-index. *)
Fixpoint ravel (ds idx : list Z) : Z :=
  match ds, idx with
  | _ :: ds', i :: idx' => i * prod ds' + ravel ds' idx'
  | _, _ => 0
  end.

(** The multi-index at a row-major position. *)
Fixpoint unravel (ds : list Z) (k : Z) : list Z :=
  match ds with
  | [] => []
  | _ :: ds' => k / prod ds' :: unravel ds' (k mod prod ds')
  end.

(** Row-major strides: the product of the dimensions to the right. *)
Fixpoint strides_of (ds : list Z) : list Z :=
  match ds with [] => [] | _ :: r => prod r :: strides_of r end.

(** The shape with given dimensions, size and strides being mathematical products. *)
Definition shape_of (ds : list Z) : shape := mkShape ds (prod ds) (strides_of ds).

(** A consistent tensor of any representable size: what the constructors produce. *)
Definition wf {T} (t : tensor T) : Prop :=
  pos_dims (tdims t) /\ tshape t = shape_of (tdims t) /\
  prod (tdims t) < two64 /\ Zlen (tdata t) = prod (tdims t).

(** The values of a C++ [int]. *)
Definition is_int (z : Z) : Prop := INT_MIN <= z <= INT_MAX.

(** A well-formed tensor: legal dimensions, consistent shape, a buffer of exactly
    the right length, and at most INT_MAX elements (the library keeps flat
    positions in [int]s). *)
Definition good {T} (t : tensor T) : Prop :=
  pos_dims (tdims t) /\ tshape t = shape_of (tdims t) /\
  prod (tdims t) <= INT_MAX /\ Zlen (tdata t) = prod (tdims t).

(** Element at a multi-index (meaningful when the index is in range). *)
Definition el {T} `{Scalar T} (t : tensor T) (idx : list Z) : T :=
  znth zero (tdata t) (ravel (tdims t) idx).

(** The tensor with dimensions [ds] and elements [f idx]. *)
Definition tensor_of {T} (ds : list Z) (f : list Z -> T) : tensor T :=
  mkTensor (shape_of ds) (ztab (prod ds) (fun k => f (unravel ds k))).

(** All multi-indices of [ds] in row-major order. *)
Definition all_indices (ds : list Z) : list (list Z) := ztab (prod ds) (unravel ds).

(** Left-to-right sum starting from [zero]; no associativity is assumed. *)
Definition fsum {T} `{Scalar T} (l : list T) : T := fold_left s_add l zero.

(** ** Broadcasting *)

(** Pad with ones on the left to rank [n]. *)
Definition pad (n : nat) (ds : list Z) : list Z := repeat 1 (n - length ds) ++ ds.

(** [bcast a b r]: right-aligned, missing dimensions counted as 1, in every
    position the dimensions are equal or one of them is 1, and the result has
    the larger one. *)
Definition compatible (x y : Z) : Prop := x = y \/ x = 1 \/ y = 1.
Definition bcast (a b r : list Z) : Prop :=
  let n := Nat.max (length a) (length b) in
  length r = n /\
  forall i, (i < n)%nat ->
    compatible (nth i (pad n a) 0) (nth i (pad n b) 0) /\
    nth i r 0 = Z.max (nth i (pad n a) 0) (nth i (pad n b) 0).

(** Multi-index into an array of dimensions [ds] that a multi-index of the
    broadcast array refers to: drop the extra leading positions, and use 0 on
    axes of length 1. *)
Definition bproj (ds idx : list Z) : list Z :=
  map (fun p => if fst p =? 1 then 0 else snd p)
      (combine ds (skipn (length idx - length ds) idx)).

(** Insert/remove a position in a multi-index; swap two positions. *)
Definition insert_at (n : nat) (x : Z) (l : list Z) : list Z := firstn n l ++ x :: skipn n l.
Definition remove_at (n : nat) (l : list Z) : list Z := firstn n l ++ skipn (S n) l.
Definition swap_at (n m : nat) (l : list Z) : list Z :=
  upd (upd l n (nth m l 0)) m (nth n l 0).

(** The position meant by a slice start [s] on an axis of length [d]: a negative start counts from the end, and a start
    outside the axis means the nearest position inside it. *)
Inductive start_pos (d s : Z) : Z -> Prop :=
| start_inside : 0 <= s < d -> start_pos d s s
| start_from_end : - d <= s < 0 -> start_pos d s (d + s)
| start_too_low : s < - d -> start_pos d s 0
| start_too_high : d <= s -> start_pos d s (d - 1).

(** Position in the source that a strided slice refers to. *)
Definition slice_src (starts steps idx : list Z) : list Z :=
  map (fun p => fst p + snd (snd p) * fst (snd p)) (combine starts (combine steps idx)).

(** Lexicographic order of multi-indices. *)
Fixpoint lex_lt (i j : list Z) : Prop :=
  match i, j with
  | x :: i', y :: j' => x < y \/ (x = y /\ lex_lt i' j')
  | _, _ => False
  end.

(** Functions of one to four coordinates as functions of a multi-index. *)
Definition fn1 {T} (f : Z -> T) (idx : list Z) : T := f (nth 0 idx 0).
Definition fn2 {T} (f : Z -> Z -> T) (idx : list Z) : T := f (nth 0 idx 0) (nth 1 idx 0).
Definition fn3 {T} (f : Z -> Z -> Z -> T) (idx : list Z) : T := f (nth 0 idx 0) (nth 1 idx 0) (nth 2 idx 0).
Definition fn4 {T} (f : Z -> Z -> Z -> Z -> T) (idx : list Z) : T :=
  f (nth 0 idx 0) (nth 1 idx 0) (nth 2 idx 0) (nth 3 idx 0).

(** Inner product: sum over p = 0, 1, ..., n-1 in this order. *)
Definition sum_to {T} `{Scalar T} (n : Z) (f : Z -> T) : T := fsum (map f (zrange 0 n)).

(** Drop, or set to 1, the positions listed in [axes] ([i] is the position of the head). *)
Fixpoint drop_from (i : Z) (axes l : list Z) : list Z :=
  match l with
  | [] => []
  | x :: r => if existsb (Z.eqb i) axes then drop_from (i + 1) axes r else x :: drop_from (i + 1) axes r
  end.
Fixpoint set_from (v i : Z) (axes l : list Z) : list Z :=
  match l with
  | [] => []
  | x :: r => (if existsb (Z.eqb i) axes then v else x) :: set_from v (i + 1) axes r
  end.
(** Remaining positions; dimensions with 1 on the axes; index with 0 on the axes. *)
Definition drop_axes (axes l : list Z) : list Z := drop_from 0 axes l.
Definition ones_axes (axes l : list Z) : list Z := set_from 1 0 axes l.
Definition zero_axes (axes l : list Z) : list Z := set_from 0 0 axes l.
(** The positions listed in [axes]; the number of elements along them. *)
Fixpoint keep_from (i : Z) (axes l : list Z) : list Z :=
  match l with
  | [] => []
  | x :: r => if existsb (Z.eqb i) axes then x :: keep_from (i + 1) axes r else keep_from (i + 1) axes r
  end.
Definition axes_count (axes ds : list Z) : Z := prod (keep_from 0 axes ds).

(** The multi-indices of [ds] that agree with [ridx] on the axes not listed, in row-major order. *)
Definition idx_eqb (a b : list Z) : bool := if list_eq_dec Z.eq_dec a b then true else false.
Definition slice_indices (axes ds ridx : list Z) : list (list Z) :=
  filter (fun idx => idx_eqb (drop_axes axes idx) ridx) (all_indices ds).

(** Sums over the axes of [axes] (decreasing), one axis at a time, the first listed innermost. *)
Fixpoint nested_sum {T} `{Scalar T} (axes ds : list Z) (f : list Z -> T) : list Z -> T :=
  match axes with
  | [] => f
  | a :: r => nested_sum r (remove_at (Z.to_nat a) ds)
                (fun ridx => sum_to (nth (Z.to_nat a) ds 0) (fun x => f (insert_at (Z.to_nat a) x ridx)))
  end.

(** The two contracted dimensions of a matrix product; [None] when the ranks are not supported. *)
Definition inner_dims (da db : list Z) : option (Z * Z) :=
  match da, db with
  | [n], [m] => Some (n, m)
  | [n], [m; _] => Some (n, m)
  | [_; n], [m] => Some (n, m)
  | [_; n], [m; _] => Some (n, m)
  | [_; _; n], [m; _] => Some (n, m)
  | [_; n], [_; m; _] => Some (n, m)
  | _, _ => if Nat.eqb (length da) (length db) then Some (nth (length da - 1) da 0, nth (length da - 2) db 0) else None
  end.
