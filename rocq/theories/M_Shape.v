(** * Model of Shape/Shape.hpp and Shape/ShapeOperations.hpp *)
From Verif Require Import Base Types.

(** Shape.hpp:127-136 validateDimensions. *)
Definition validate_dims (ds : list Z) : outcome unit :=
  match ds with
  | [] => Throw InvalidArgument
  | _ => foldM (fun d (_ : unit) => if d <=? 0 then Throw InvalidArgument else Ok tt) ds tt
  end.

(** Shape.hpp:110-112 calculateSize: std::accumulate with size_t products
    (each int converted to size_t; wraps modulo 2^64). *)
Definition calc_size (ds : list Z) : Z :=
  fold_left (fun acc d => u64 (acc * u64 d)) ds 1.

(** Shape.hpp:114-120 calculateStride.  The loop from rank-2 down to 0 reads
    stride[i+1] and dims[i+1]; here as recursion over the list from the right. *)
Fixpoint calc_stride (ds : list Z) : list Z :=
  match ds with
  | [] => []
  | _ :: rest =>
      match calc_stride rest, rest with
      | s :: ss, d' :: _ => u64 (s * u64 d') :: s :: ss
      | _, _ => [1]
      end
  end.

(** Shape.hpp:18-28, both constructors. *)
Definition new_shape (ds : list Z) : outcome shape :=
  validate_dims ds ;;; Ok (mkShape ds (calc_size ds) (calc_stride ds)).

(** Shape.hpp:75-81: size of the new shape with the overflow check. *)
Definition reshape_size (ds : list Z) : outcome Z :=
  foldM (fun d acc => if (two64 - 1) / u64 d <? acc then Throw OverflowError
                      else Ok (u64 (acc * u64 d))) ds 1.

(** Shape.hpp:73-91 reshape.  On the mismatch path the message constructs
    Shape(dims), which cannot throw for validated dims. *)
Definition shape_reshape (s : shape) (ds : list Z) : outcome shape :=
  validate_dims ds ;;;
  n <- reshape_size ds ;;
  if ssize s =? n then Ok (mkShape ds (ssize s) (calc_stride ds))
  else Throw RuntimeError.

(** Shape.hpp:30 rank. *)
Definition rank (s : shape) : Z := Zlen (dims s).

(** Shape.hpp:99 operator==: compares dimensions only. *)
Fixpoint list_eqb (a b : list Z) : bool :=
  match a, b with
  | [], [] => true
  | x :: a', y :: b' => (x =? y) && list_eqb a' b'
  | _, _ => false
  end.
Definition shape_eqb (a b : shape) : bool := list_eqb (dims a) (dims b).

(** Shape.hpp:97 [int& operator[]], used to assign a dimension: size and strides are left alone. *)
Definition shape_set (s : shape) (i v : Z) : outcome shape :=
  ds <- wr (dims s) i v ;; Ok (mkShape ds (ssize s) (sstride s)).

(** Shape.hpp:15-16 and 60-67: a shape that has been moved from keeps its size;
    the two vectors are empty. *)
Definition moved_shape (s : shape) : shape := mkShape [] (ssize s) [].

(** ShapeOperations.hpp:19-20: the i-th dimension from the right, 1 when absent. *)
Definition dim_from_right (s : shape) (i : Z) : outcome Z :=
  if i <? rank s then rd (dims s) (rank s - 1 - i) else Ok 1.

(** ShapeOperations.hpp:12-35 broadcastShapes. *)
Definition broadcast_shapes (a b : shape) : outcome shape :=
  res <- for_ 0 (Z.max (rank a) (rank b)) (fun i res =>
           d1 <- dim_from_right a i ;;
           d2 <- dim_from_right b i ;;
           if d1 =? d2 then Ok (res ++ [d1])
           else if d1 =? 1 then Ok (res ++ [d2])
           else if d2 =? 1 then Ok (res ++ [d1])
           else Throw InvalidArgument) [] ;;
  new_shape (rev res).

(** ShapeOperations.hpp:37-52 areBroadcastable.  The early [return false] is
    the boolean state. *)
Definition are_broadcastable (a b : shape) : outcome bool :=
  for_ 0 (Z.max (rank a) (rank b)) (fun i (ok : bool) =>
    if ok then
      d1 <- dim_from_right a i ;;
      d2 <- dim_from_right b i ;;
      Ok (negb (negb (d1 =? d2) && negb (d1 =? 1) && negb (d2 =? 1)))
    else Ok false) true.

(** ShapeOperations.hpp:54-58 concat. *)
Definition shape_concat (a b : shape) : outcome shape := new_shape (dims a ++ dims b).

(** ShapeOperations.hpp:61-77 computeFlatIndex. *)
Definition compute_flat_index (s : shape) (idx : list Z) : outcome Z :=
  if negb (Zlen idx =? rank s) then Throw InvalidArgument
  else for_ 0 (Zlen idx) (fun i flat =>
         x <- rd idx i ;;
         d <- rd (dims s) i ;;
         if (x <? 0) || (d <=? x) then Throw OutOfRange
         else st <- rd (sstride s) i ;;
              Ok (u64 (flat + u64 (u64 x * st)))) 0.
