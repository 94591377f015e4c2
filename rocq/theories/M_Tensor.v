(** * Model of TensorData, Tensor, BroadcastView, SliceView, TensorOperations,
      TensorFactory and RandomEngine *)
From Verif Require Import Base Scalar Types M_Shape.

(** RandomEngine.hpp:6-42.  The engine is an arbitrary state machine:
    [rng_seed] is setSeed, [rng_normal sd] draws from a normal distribution with
    mean 0 and standard deviation [sd], [rng_uniform lo hi] from a uniform one. *)
Class Rng (T G : Type) := {
  rng_seed    : Z -> G;
  rng_normal  : T -> G -> T * G;
  rng_uniform : T -> T -> G -> T * G
}.

Section Model.
Context {T : Type} {S : Scalar T}.

(** ** TensorDataCPU.impl.hpp: constructors *)

(** Lines 11-14: zero-initialised (T{}). *)
Definition t_new (s : shape) : tensor T := mkTensor s (zrepeat zero (ssize s)).
(** Lines 17-20: filled with a value. *)
Definition t_fill (s : shape) (v : T) : tensor T := mkTensor s (zrepeat v (ssize s)).
(** Lines 23-26: copies [size] elements from a pointer; [src] is the memory
    readable from it. *)
Definition t_from_ptr (s : shape) (src : list T) : outcome (tensor T) :=
  if ssize s <=? Zlen src then Ok (mkTensor s (firstn (Z.to_nat (ssize s)) src)) else UB.
(** Lines 39-42: copies ALL the values into a zeroed buffer of [size] elements. *)
Definition t_from_list (s : shape) (vals : list T) : outcome (tensor T) :=
  if Zlen vals <=? ssize s
  then Ok (mkTensor s (vals ++ zrepeat zero (ssize s - Zlen vals))) else UB.
(** Lines 33-36 (and 59-66 for the value): copy reads [size] elements. *)
Definition t_copy (t : tensor T) : outcome (tensor T) := t_from_ptr (tshape t) (tdata t).

(** Lines 69-71: operator==.  std::equal over [size] elements of both buffers. *)
Definition t_eqb (a b : tensor T) : outcome bool :=
  if shape_eqb (tshape a) (tshape b) then
    for_ 0 (ssize (tshape a)) (fun i (ok : bool) =>
      if ok then x <- rd (tdata a) i ;; y <- rd (tdata b) i ;; Ok (s_eq x y) else Ok false) true
  else Ok false.

(** Lines 78-86: operator[], unchecked. *)
Definition t_get (t : tensor T) (i : Z) : outcome T := rd (tdata t) i.
Definition t_set (t : tensor T) (i : Z) (v : T) : outcome (tensor T) :=
  d <- wr (tdata t) i v ;; Ok (mkTensor (tshape t) d).

(** Lines 88-96: at, bounds-checked through computeFlatIndex. *)
Definition t_at (t : tensor T) (idx : list Z) : outcome T :=
  k <- compute_flat_index (tshape t) idx ;; rd (tdata t) k.
Definition t_at_set (t : tensor T) (idx : list Z) (v : T) : outcome (tensor T) :=
  k <- compute_flat_index (tshape t) idx ;; t_set t k v.

(** TensorData.hpp:53-54, Tensor.impl.hpp:272-285: reshape in place. *)
Definition t_reshape (t : tensor T) (ds : list Z) : outcome (tensor T) :=
  s <- shape_reshape (tshape t) ds ;; Ok (mkTensor s (tdata t)).

(** A member function whose only write is its last action: the object after
    the call, and the outcome. *)
Definition last_write (t : tensor T) (m : outcome (tensor T)) : tensor T * outcome unit :=
  match m with
  | Ok t' => (t', Ok tt) | Throw e => (t, Throw e)
  | Abort => (t, Abort) | UB => (t, UB) | Hang => (t, Hang)
  end.
(** reshape as a state change: Shape.hpp:88-89 assigns after every check. *)
Definition t_reshape_st (t : tensor T) (ds : list Z) : tensor T * outcome unit :=
  last_write t (t_reshape t ds).

(** Tensor.impl.hpp:288-300 slice.  [dim]/[index] are used unchecked;
    [offset] is an int. *)
Definition t_slice (t : tensor T) (dim index : Z) : outcome (tensor T) :=
  st <- rd (sstride (tshape t)) dim ;;
  let offset := i32 (u64 (u64 index * st)) in
  if (0 <=? dim) && (dim <? rank (tshape t)) then
    let ds := firstn (Z.to_nat dim) (tdims t) ++ skipn (Datatypes.S (Z.to_nat dim)) (tdims t) in
    s <- new_shape ds ;;
    if (0 <=? offset) && (offset <=? Zlen (tdata t))
    then t_from_ptr s (skipn (Z.to_nat offset) (tdata t)) else UB
  else UB.

(** ** Odometers *)

(** Increment a multi-index, last position fastest: BroadcastView.hpp:109-118,
    SliceView.hpp:120-129, TensorOperations.hpp:268-273 and
    AdvancedTensorOperations.hpp:597-616.  The loop runs from the last position
    to the first; the recursion returns whether the carry leaves position 0
    (the loop fell through). *)
Fixpoint incr_idx (ds idx : list Z) : list Z * bool :=
  match ds, idx with
  | d :: ds', i :: idx' =>
      let '(r, carry) := incr_idx ds' idx' in
      if carry then (if i + 1 <? d then (i + 1 :: r, false) else (0 :: r, true))
      else (i :: r, false)
  | _, _ => ([], true)
  end.

(** ** BroadcastView.hpp *)
Record bview := mkBV { bv_orig : tensor T; bv_shape : shape; bv_fac : list Z }.

(** Lines 20-42 calculateBroadcastFactors: walks both shapes from the right. *)
Definition broadcast_factors (o b : shape) : outcome (list Z) :=
  for_ 0 (rank b) (fun k fac =>
    os <- dim_from_right o k ;;
    bs <- rd (dims b) (rank b - 1 - k) ;;
    if os =? bs then wr fac (rank b - 1 - k) 1
    else if os =? 1 then wr fac (rank b - 1 - k) 0
    else Throw RuntimeError) (zrepeat 1 (rank b)).

(** Lines 60-66 constructor. *)
Definition bview_new (t : tensor T) (target : shape) : outcome bview :=
  ok <- are_broadcastable (tshape t) target ;;
  if negb ok then Throw RuntimeError else
  fac <- broadcast_factors (tshape t) target ;;
  Ok (mkBV t target fac).

(** Lines 44-57 mapIndex; the flat index is an int. *)
Definition bview_map (v : bview) (idx : list Z) : outcome Z :=
  let o := tshape (bv_orig v) in
  let r := rank (bv_shape v) in
  for_ 0 (Z.min r (rank o)) (fun k flat =>
    f <- rd (bv_fac v) (r - 1 - k) ;;
    if f =? 1 then
      x <- rd idx (r - 1 - k) ;;
      st <- rd (sstride o) (rank o - 1 - k) ;;
      Ok (i32 (u64 (u64 flat + u64 (u64 x * st))))
    else Ok flat) 0.

(** Lines 70-76 operator[]; [buf] is the current content of the original's buffer. *)
Definition bview_index (v : bview) (buf : list T) (idx : list Z) : outcome T :=
  k <- bview_map v idx ;; rd buf k.

(** Lines 78-128 Iterator: (current_indices_, is_end_). *)
Definition iter : Type := list Z * bool.
Definition iter_begin (s : shape) : iter := (zrepeat 0 (rank s), false).
Definition iter_next (s : shape) (it : iter) : iter :=
  if snd it then it else incr_idx (dims s) (fst it).
Definition bview_deref (v : bview) (buf : list T) (it : iter) : outcome T :=
  if snd it then Throw OutOfRange else bview_index v buf (fst it).

(** std::transform over two BroadcastViews (TensorOperations.hpp:338-367).
    The loop ends when the left iterator compares equal to end(). *)
Fixpoint transform_views (fuel : nat) (op : T -> T -> T) (l r : bview)
    (lit rit : iter) (k : Z) (out : list T) : outcome (list T) :=
  if snd lit then Ok out
  else match fuel with
  | O => Hang
  | Datatypes.S fuel' =>
      a <- bview_deref l (tdata (bv_orig l)) lit ;;
      b <- bview_deref r (tdata (bv_orig r)) rit ;;
      out' <- wr out k (op a b) ;;
      transform_views fuel' op l r (iter_next (bv_shape l) lit) (iter_next (bv_shape r) rit) (k + 1) out'
  end.

(** Full traversal of a view: the sequence of dereferenced values. *)
Fixpoint bview_traverse (fuel : nat) (v : bview) (it : iter) : outcome (list T) :=
  if snd it then Ok []
  else match fuel with
  | O => Hang
  | Datatypes.S fuel' =>
      a <- bview_deref v (tdata (bv_orig v)) it ;;
      l <- bview_traverse fuel' v (iter_next (bv_shape v) it) ;;
      Ok (a :: l)
  end.
Definition bview_elements (v : bview) : outcome (list T) :=
  bview_traverse (Datatypes.S (Z.to_nat (ssize (bv_shape v)))) v (iter_begin (bv_shape v)).

(** TensorOperations.hpp:80-122: add, subtract, multiply, divide, for the four
    functors std::plus, minus, multiplies, divides. *)
Definition t_binop (op : T -> T -> T) (a b : tensor T) : outcome (tensor T) :=
  rs <- broadcast_shapes (tshape a) (tshape b) ;;
  let result := t_new rs in
  l <- bview_new a rs ;;
  r <- bview_new b rs ;;
  (* lines 340, 348, 356, 364 *)
  if negb (ssize (bv_shape l) =? ssize (bv_shape r)) then Throw RuntimeError else
  out <- transform_views (Datatypes.S (Z.to_nat (ssize rs))) op l r
           (iter_begin rs) (iter_begin rs) 0 (tdata result) ;;
  Ok (mkTensor rs out).
Definition t_add := t_binop s_add.
Definition t_sub := t_binop s_sub.
Definition t_mul := t_binop s_mul.
Definition t_div := t_binop s_div.

(** TensorOperations.hpp:124-170 in-place operators; [alias] says that rhs is
    the very same tensor as lhs.  The loop (std::transform over lhs's [size]
    elements) returns the buffer reached together with the outcome. *)
Fixpoint ip_loop (n : nat) (op : T -> T -> T) (r : bview) (alias : bool)
    (rit : iter) (k : Z) (buf : list T) : list T * outcome unit :=
  match n with
  | O => (buf, Ok tt)
  | Datatypes.S n' =>
      match (a <- rd buf k ;;
             b <- bview_deref r (if alias then buf else tdata (bv_orig r)) rit ;;
             wr buf k (op a b)) with
      | Ok buf' => ip_loop n' op r alias (iter_next (bv_shape r) rit) (k + 1) buf'
      | Throw e => (buf, Throw e)
      | Abort => (buf, Abort) | UB => (buf, UB) | Hang => (buf, Hang)
      end
  end.
Definition t_binop_ip (op : T -> T -> T) (alias : bool) (a b : tensor T) : tensor T * outcome unit :=
  match (rs <- broadcast_shapes (tshape a) (tshape b) ;;
         r <- bview_new b rs ;;
         if negb (ssize (tshape a) =? ssize rs) then Throw RuntimeError else Ok r) with
  | Ok r => let '(buf, o) := ip_loop (Z.to_nat (ssize (tshape a))) op r alias (iter_begin (bv_shape r)) 0 (tdata a) in
            (mkTensor (tshape a) buf, o)
  | Throw e => (a, Throw e)
  | Abort => (a, Abort) | UB => (a, UB) | Hang => (a, Hang)
  end.

(** TensorOperations.hpp:333-335, 389-391: std::transform over the whole
    buffer into a result of the same shape (or into itself). *)
Definition t_map (f : T -> T) (t : tensor T) : outcome (tensor T) :=
  out <- for_ 0 (ssize (tshape t)) (fun k out => x <- rd (tdata t) k ;; wr out k (f x))
           (zrepeat zero (ssize (tshape t))) ;;
  Ok (mkTensor (tshape t) out).
(** In-place variant (lines 228-231 applyInPlace, 289-296 sqrtInPlace). *)
Definition t_map_ip (f : T -> T) (t : tensor T) : outcome (tensor T) :=
  out <- for_ 0 (ssize (tshape t)) (fun k out => x <- rd out k ;; wr out k (f x)) (tdata t) ;;
  Ok (mkTensor (tshape t) out).

(** TensorOperations.hpp:172-194, Tensor.impl.hpp:116-134. *)
Definition t_add_s (t : tensor T) (s : T) : outcome (tensor T) := t_map (fun x => s_add x s) t.
Definition t_sub_s (t : tensor T) (s : T) : outcome (tensor T) := t_map (fun x => s_sub x s) t.
Definition t_mul_s (t : tensor T) (s : T) : outcome (tensor T) := t_map (fun x => s_mul x s) t.
(** Lines 382-387: the zero check. *)
Definition t_div_s (t : tensor T) (s : T) : outcome (tensor T) :=
  if s_eq s zero then Throw InvalidArgument else t_map (fun x => s_div x s) t.
(** Lines 202-220, Tensor.impl.hpp:72-94 (operator-= and operator*= with a
    scalar name a function that does not exist and do not compile; the
    TensorOperations functions they were meant to call are modelled). *)
Definition t_add_s_ip (t : tensor T) (s : T) : outcome (tensor T) := t_map_ip (fun x => s_add x s) t.
Definition t_sub_s_ip (t : tensor T) (s : T) : outcome (tensor T) := t_map_ip (fun x => s_sub x s) t.
Definition t_mul_s_ip (t : tensor T) (s : T) : outcome (tensor T) := t_map_ip (fun x => s_mul x s) t.
Definition t_div_s_ip (t : tensor T) (s : T) : outcome (tensor T) :=
  if s_eq s zero then Throw InvalidArgument else t_map_ip (fun x => s_div x s) t.
(** operator/= as a state change: the zero check precedes every write. *)
Definition t_div_s_ip_st (t : tensor T) (s : T) : tensor T * outcome unit := last_write t (t_div_s_ip t s).
(** Tensor.impl.hpp:157-159 unary minus: multiplication by -1. *)
Definition t_neg (t : tensor T) : outcome (tensor T) := t_mul_s t (s_z (-1)).
(** Tensor.impl.hpp:193-210 scalar op tensor. *)
Definition s_add_t (s : T) (t : tensor T) : outcome (tensor T) := t_add_s t s.
Definition s_sub_t (s : T) (t : tensor T) : outcome (tensor T) := n <- t_neg t ;; t_add_s n s.
Definition s_mul_t (s : T) (t : tensor T) : outcome (tensor T) := t_mul_s t s.
(** TensorOperations.hpp:196-200 inverseDivideScalar: divideImpl over two TensorData. *)
Definition s_div_t (s : T) (t : tensor T) : outcome (tensor T) :=
  let result := t_fill (tshape t) s in
  if negb (ssize (tshape result) =? ssize (tshape t)) then Throw RuntimeError else
  out <- for_ 0 (ssize (tshape result)) (fun k out =>
           x <- rd out k ;; y <- rd (tdata t) k ;; wr out k (s_div x y)) (tdata result) ;;
  Ok (mkTensor (tshape result) out).

(** TensorOperations.hpp:222-226 apply; 279-287 sqrt. *)
Definition t_apply (t : tensor T) (f : T -> T) : outcome (tensor T) := t_map f t.
Definition t_sqrt (t : tensor T) : outcome (tensor T) := t_map s_sqrt t.

(** TensorOperations.hpp:233-239 sum of all elements. *)
Definition t_sum (t : tensor T) : outcome (tensor T) :=
  r <- for_ 0 (ssize (tshape t)) (fun k acc => x <- rd (tdata t) k ;; Ok (s_add acc x)) zero ;;
  s <- new_shape [1] ;;
  Ok (t_fill s r).

(** TensorOperations.hpp:241-277 sum along one axis. *)
Definition t_sum_axis (t : tensor T) (axis : Z) : outcome (tensor T) :=
  if (axis <? 0) || (rank (tshape t) <=? axis) then Throw RuntimeError
  else if rank (tshape t) =? 1 then t_sum t
  else
    let ax := Z.to_nat axis in
    s <- new_shape (firstn ax (tdims t) ++ skipn (Datatypes.S ax) (tdims t)) ;;
    st <- for_ 0 (ssize (tshape t)) (fun i '(res, idx) =>
            let ridx := firstn ax idx ++ skipn (Datatypes.S ax) idx in
            k <- compute_flat_index s ridx ;;
            x <- rd (tdata t) i ;;
            v <- rd res k ;;
            res' <- wr res k (s_add v x) ;;
            Ok (res', fst (incr_idx (tdims t) idx)))
          (zrepeat zero (ssize s), zrepeat 0 (rank (tshape t))) ;;
    Ok (mkTensor s (fst st)).

(** TensorOperations.hpp:298-300, TensorFactory.hpp:14-33. *)
Definition f_fill (ds : list Z) (v : T) : outcome (tensor T) := s <- new_shape ds ;; Ok (t_fill s v).
Definition f_ones (ds : list Z) : outcome (tensor T) := f_fill ds one.
Definition f_zeros (ds : list Z) : outcome (tensor T) := f_fill ds zero.
(** TensorOperations.hpp:313-324 createIdentity. *)
Definition f_identity (n : Z) : outcome (tensor T) :=
  s <- new_shape [n; n] ;;
  st <- for_ 0 n (fun i st => for_ 0 n (fun j '(k, out) =>
           out' <- wr out k (if i =? j then one else zero) ;; Ok (k + 1, out')) st)
         (0, tdata (t_new s)) ;;
  Ok (mkTensor s (snd st)).

(** RandomEngine.hpp:37-42 getHeRandRange. *)
Definition he_rand_range {G} `{Rng T G} (n_in mn mx : T) (g : G) : T * G :=
  let '(v, g') := rng_normal (s_sqrt (s_div (s_z 2) n_in)) g in
  (s_min (s_max v mn) mx, g').
(** TensorOperations.hpp:302-311 createRandom. *)
Definition f_random {G} `{Rng T G} (ds : list Z) (mn mx : T) (g : G) : outcome (tensor T * G) :=
  s <- new_shape ds ;;
  st <- for_ 0 (ssize s) (fun i '(out, g) =>
          let '(v, g') := he_rand_range (s_z (ssize s)) mn mx g in
          out' <- wr out i v ;; Ok (out', g')) (tdata (t_new s), g) ;;
  Ok (mkTensor s (fst st), snd st).
(** TensorFactory.hpp:36-55 rand, randn. *)
Definition f_rand {G} `{Rng T G} (ds : list Z) (g : G) : outcome (tensor T * G) := f_random ds zero one g.

(** ** SliceView.hpp *)
Record sview := mkSV { sv_orig : tensor T; sv_shape : shape; sv_start : list Z; sv_step : list Z }.

(** Lines 51-63: normalised start; [end] is computed and then unused. *)
Definition sv_start_of (d start : Z) : Z :=
  let start := if start <? 0 then start + d else start in
  Z.max 0 (Z.min start (d - 1)).
(** Line 24: int arithmetic; C++ division truncates. *)
Definition sv_extent (d start step : Z) : outcome Z :=
  n <- chk32 (d - start + step - 1) ;;
  if step =? 0 then UB else Ok (Z.quot n step).

(** Lines 40-66 constructor, 21-28 calculateSlicedShape. *)
Definition sview_new (t : tensor T) (slices : list (Z * Z)) (steps : list Z) : outcome sview :=
  if negb ((Zlen slices =? rank (tshape t)) && (Zlen steps =? rank (tshape t))) then Throw RuntimeError else
  let starts := map (fun p => sv_start_of (fst p) (fst (snd p))) (combine (tdims t) slices) in
  ext <- mapM (fun p => sv_extent (fst p) (fst (snd p)) (snd (snd p)))
              (combine (tdims t) (combine starts steps)) ;;
  s <- new_shape ext ;;
  Ok (mkSV t s starts steps).

(** Lines 30-37 mapIndex. *)
Definition sview_map (v : sview) (idx : list Z) : outcome Z :=
  for_ 0 (Zlen idx) (fun i flat =>
    st <- rd (sv_start v) i ;; x <- rd idx i ;; sp <- rd (sv_step v) i ;;
    str <- rd (sstride (tshape (sv_orig v))) i ;;
    p <- chk32 (x * sp) ;; q <- chk32 (st + p) ;;
    Ok (i32 (u64 (u64 flat + u64 (u64 q * str))))) 0.
(** Lines 70-84 operator[] and set. *)
Definition sview_index (v : sview) (idx : list Z) : outcome T :=
  k <- sview_map v idx ;; rd (tdata (sv_orig v)) k.
Definition sview_set (v : sview) (idx : list Z) (x : T) : outcome (tensor T) :=
  k <- sview_map v idx ;; t_set (sv_orig v) k x.
(** Lines 86-139 Iterator; traversal from begin() to end(). *)
Fixpoint sview_traverse (fuel : nat) (v : sview) (it : iter) : outcome (list T) :=
  if snd it then Ok []
  else match fuel with
  | O => Hang
  | Datatypes.S fuel' =>
      a <- sview_index v (fst it) ;;
      l <- sview_traverse fuel' v (iter_next (sv_shape v) it) ;;
      Ok (a :: l)
  end.
Definition sview_elements (v : sview) : outcome (list T) :=
  sview_traverse (Datatypes.S (Z.to_nat (ssize (sv_shape v)))) v (iter_begin (sv_shape v)).

End Model.
Arguments bview T : clear implicits.
Arguments sview T : clear implicits.
