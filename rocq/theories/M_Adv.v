(** * Model of Tensor/AdvancedTensorOperations.hpp *)
From Verif Require Import Base Scalar Types M_Shape M_Tensor.

Section Model.
Context {T : Type} {S : Scalar T}.

(** Lines 29-46 applyPair.  The element count is stored in an [int]. *)
Definition t_apply_pair (f : T -> T -> T) (a b : tensor T) : outcome (tensor T) :=
  if negb (shape_eqb (tshape a) (tshape b)) then Throw InvalidArgument else
  let size := i32 (ssize (tshape a)) in
  out <- for_ 0 size (fun i out => x <- rd (tdata a) i ;; y <- rd (tdata b) i ;; wr out i (f x y))
           (tdata (t_new (tshape a))) ;;
  Ok (mkTensor (tshape a) out).

(** Lines 98-100 reciprocal; the default epsilon is 1e-12. *)
Definition t_reciprocal (eps : T) (t : tensor T) : outcome (tensor T) :=
  t_apply t (fun x => if s_lt eps (s_abs x) then s_div one x else s_div one eps).

(** Lines 597-616 incrementIndices with axesToSum and resultIndices.  Positions
    are visited from the last to the first; the recursion returns the carry out
    of position 0, which is the negation of the function's result. *)
Fixpoint incr_masked (ds : list Z) (mask : list bool) (idx ridx : list Z) : list Z * list Z * bool :=
  match ds, mask, idx, ridx with
  | d :: ds', m :: mask', i :: idx', r :: ridx' =>
      let '(is, rs, carry) := incr_masked ds' mask' idx' ridx' in
      if carry then
        if i + 1 <? d then (i + 1 :: is, (if m then r else r + 1) :: rs, false)
        else (0 :: is, (if m then r else 0) :: rs, true)
      else (i :: is, r :: rs, false)
  | _, _, _, _ => ([], [], true)
  end.

(** Lines 74-80: the do/while loop of sum(axes). *)
Fixpoint sum_axes_loop (fuel : nat) (t : tensor T) (rs : shape) (mask : list bool)
    (idx ridx : list Z) (res : list T) : outcome (list T) :=
  match fuel with
  | O => Hang
  | Datatypes.S fuel' =>
      i <- compute_flat_index (tshape t) idx ;;
      r <- compute_flat_index rs ridx ;;
      v <- rd res (i32 r) ;;
      x <- rd (tdata t) (i32 i) ;;
      res' <- wr res (i32 r) (s_add v x) ;;
      let '(idx', ridx', carry) := incr_masked (tdims t) mask idx ridx in
      if carry then Ok res' else sum_axes_loop fuel' t rs mask idx' ridx' res'
  end.

(** Lines 61-67: the axis flags and the dimensions with 1 on the summed axes.
    Axes are size_t, so the [axis < 0] test is vacuous. *)
Definition mark_axes (r : Z) (axes : list Z) (st : list bool * list Z) : outcome (list bool * list Z) :=
  foldM (fun ax '(mask, ds) =>
    if r <=? ax then Throw RuntimeError else
    mask' <- wr mask ax true ;; ds' <- wr ds ax 1 ;; Ok (mask', ds')) axes st.

(** Lines 83-88: drop the summed dimensions. *)
Fixpoint final_dims (mask : list bool) (ds : list Z) : list Z :=
  match mask, ds with
  | m :: mask', d :: ds' => if negb (d =? 1) || negb m then d :: final_dims mask' ds' else final_dims mask' ds'
  | _, _ => []
  end.

(** Lines 56-94 sum over several axes. *)
Definition t_sum_axes (t : tensor T) (axes : list Z) : outcome (tensor T) :=
  ' (mask, nds) <- mark_axes (rank (tshape t)) axes (zrepeat false (rank (tshape t)), tdims t) ;;
  rs <- new_shape nds ;;
  res <- sum_axes_loop (Z.to_nat (ssize (tshape t))) t rs mask
           (zrepeat 0 (rank (tshape t))) (zrepeat 0 (rank (tshape t))) (zrepeat zero (ssize rs)) ;;
  fs <- new_shape (final_dims mask nds) ;;
  t_reshape (mkTensor rs res) (dims fs).

(** Lines 140-142 mean of all elements. *)
Definition t_mean_all (t : tensor T) : outcome (tensor T) :=
  s <- t_sum t ;; t_mul_s s (s_div one (s_z (ssize (tshape t)))).

(** Lines 111-119: the kept dimensions and the number of reduced elements
    ([int] product). *)
Fixpoint mean_shape (i : Z) (axes : list Z) (ds : list Z) (tot : Z) : outcome (list Z * Z) :=
  match ds with
  | [] => Ok ([], tot)
  | d :: ds' =>
      if existsb (Z.eqb i) axes then
        tot' <- chk32 (tot * d) ;;
        ' (r, n) <- mean_shape (i + 1) axes ds' tot' ;; Ok (1 :: r, n)
      else ' (r, n) <- mean_shape (i + 1) axes ds' tot ;; Ok (d :: r, n)
  end.

(** Lines 122-123 std::sort with std::greater: insertion into a descending list. *)
Fixpoint insert_desc (x : Z) (l : list Z) : list Z :=
  match l with
  | [] => [x]
  | y :: l' => if y <=? x then x :: l else y :: insert_desc x l'
  end.
Definition sort_desc (l : list Z) : list Z := fold_right insert_desc [] l.

(** Lines 102-136 mean over axes. *)
Definition t_mean_axes (t : tensor T) (axes : list Z) : outcome (tensor T) :=
  if (Zlen axes =? 0) || (Zlen axes =? rank (tshape t)) then t_mean_all t else
  ' (nds, tot) <- mean_shape 0 axes (tdims t) 1 ;;
  r <- foldM (fun ax r => if rank (tshape r) <=? ax then Throw InvalidArgument else t_sum_axis r ax)
         (sort_desc axes) t ;;
  r' <- t_mul_s r (s_div one (s_z tot)) ;;
  s <- new_shape nds ;;
  t_reshape r' (dims s).

(** Lines 163-172: squared difference to the broadcast mean, over raw iterators. *)
Definition sq_diff (x m : T) : T := s_mul (s_sub x m) (s_sub x m).
Fixpoint sq_loop (n : nat) (v : bview T) (data : list T) (it : iter) (k : Z) (out : list T) : outcome (list T) :=
  match n with
  | O => Ok out
  | Datatypes.S n' =>
      x <- rd data k ;;
      m <- bview_deref v (tdata (bv_orig v)) it ;;
      out' <- wr out k (sq_diff x m) ;;
      sq_loop n' v data (iter_next (bv_shape v) it) (k + 1) out'
  end.

(** Lines 145-181 variance over axes. *)
Definition t_variance_axes (t mean : tensor T) (axes : list Z) : outcome (tensor T) :=
  tot <- foldM (fun ax tot =>
           if rank (tshape t) <=? ax then Throw RuntimeError else
           d <- rd (tdims t) ax ;; chk32 (tot * d)) axes 1 ;;
  v <- bview_new mean (tshape t) ;;
  sq <- sq_loop (Z.to_nat (ssize (tshape t))) v (tdata t) (iter_begin (bv_shape v)) 0 (tdata (t_new (tshape t))) ;;
  s <- t_sum_axes (mkTensor (tshape t) sq) axes ;;
  out <- for_ 0 (ssize (tshape mean)) (fun i out => x <- rd (tdata s) i ;; wr out i (s_div x (s_z tot)))
           (tdata (t_new (tshape mean))) ;;
  Ok (mkTensor (tshape mean) out).

(** Lines 185-188 variance over all elements. *)
Definition t_variance_all (t mean : tensor T) : outcome (tensor T) :=
  diff <- t_sub t mean ;;
  sq <- t_mul diff diff ;;
  s <- t_sum sq ;;
  t_mul_s s (s_div one (s_z (ssize (tshape t)))).

(** Lines 222-231: digits of [temp], last dimension first. *)
Fixpoint old_indices (ds : list Z) (temp : Z) : outcome (list Z * Z) :=
  match ds with
  | [] => Ok ([], temp)
  | d :: ds' =>
      ' (r, temp') <- old_indices ds' temp ;;
      if d =? 0 then Throw RuntimeError else Ok (temp' mod d :: r, temp' / d)
  end.

(** Lines 196-244 transpose. *)
Definition t_transpose (t : tensor T) (dim0 dim1 : Z) : outcome (tensor T) :=
  let r := rank (tshape t) in
  if (r <=? dim0) || (r <=? dim1) then Throw InvalidArgument else
  d0 <- rd (tdims t) dim0 ;; d1 <- rd (tdims t) dim1 ;;
  nd1 <- wr (tdims t) dim0 d1 ;; nd <- wr nd1 dim1 d0 ;;
  s <- new_shape nd ;;
  let ident := zrange 0 r in
  p0 <- rd ident dim0 ;; p1 <- rd ident dim1 ;;
  o1 <- wr ident dim0 p1 ;; old_to_new <- wr o1 dim1 p0 ;;
  for_ 0 (ssize (tshape t)) (fun i res =>
    ' (old, _) <- old_indices (tdims t) i ;;
    new <- mapM (fun d => o <- rd old_to_new d ;; rd old o) (zrange 0 r) ;;
    x <- t_at t old ;;
    t_at_set res new x) (t_new s).

(** ** Matrix multiplication *)

(** Index arithmetic in [int]: x*w + y. *)
Definition ix (x w y : Z) : outcome Z := p <- chk32 (x * w) ;; chk32 (p + y).

(** Lines 280-297 dotProduct. *)
Definition t_dot (a b : tensor T) : outcome (tensor T) :=
  n <- rd (tdims a) 0 ;; m <- rd (tdims b) 0 ;;
  if negb (n =? m) then Throw InvalidArgument else
  r <- for_ 0 n (fun i acc => x <- rd (tdata a) i ;; y <- rd (tdata b) i ;; Ok (s_add acc (s_mul x y))) zero ;;
  s <- new_shape [1] ;;
  t_from_list s [r].

(** Lines 341-365 matrixVectorMul. *)
Definition t_matvec (a b : tensor T) : outcome (tensor T) :=
  m <- rd (tdims a) 0 ;; n <- rd (tdims a) 1 ;; k <- rd (tdims b) 0 ;;
  if negb (n =? k) then Throw InvalidArgument else
  s <- new_shape [m] ;;
  out <- for_ 0 m (fun i out =>
           sum <- for_ 0 n (fun j acc =>
                    q <- ix i n j ;; x <- rd (tdata a) q ;; y <- rd (tdata b) j ;;
                    Ok (s_add acc (s_mul x y))) zero ;;
           wr out i sum) (zrepeat zero (ssize s)) ;;
  Ok (mkTensor s out).

(** Lines 379-407 matrixMatrixMul. *)
Definition t_matmat (a b : tensor T) : outcome (tensor T) :=
  m <- rd (tdims a) 0 ;; k <- rd (tdims a) 1 ;; kb <- rd (tdims b) 0 ;; n <- rd (tdims b) 1 ;;
  if negb (k =? kb) then Throw InvalidArgument else
  s <- new_shape [m; n] ;;
  out <- for_ 0 m (fun i => for_ 0 n (fun j out =>
           sum <- for_ 0 k (fun p acc =>
                    q <- ix i k p ;; q' <- ix p n j ;;
                    x <- rd (tdata a) q ;; y <- rd (tdata b) q' ;;
                    Ok (s_add acc (s_mul x y))) zero ;;
           q <- ix i n j ;; wr out q sum)) (zrepeat zero (ssize s)) ;;
  Ok (mkTensor s out).

(** Lines 533-562 matmul2D3D. *)
Definition t_mm23 (a b : tensor T) : outcome (tensor T) :=
  outf <- rd (tdims a) 0 ;; inf <- rd (tdims a) 1 ;;
  nb <- rd (tdims b) 0 ;; bk <- rd (tdims b) 1 ;; sl <- rd (tdims b) 2 ;;
  if negb (inf =? bk) then Throw InvalidArgument else
  s <- new_shape [nb; outf; sl] ;;
  for_ 0 nb (fun n => for_ 0 outf (fun i => for_ 0 sl (fun j res =>
    sum <- for_ 0 inf (fun k acc =>
             x <- t_at a [i; k] ;; y <- t_at b [n; k; j] ;; Ok (s_add acc (s_mul x y))) zero ;;
    t_at_set res [n; i; j] sum))) (t_fill s zero).

(** Lines 564-595 matmul3D2D. *)
Definition t_mm32 (a b : tensor T) : outcome (tensor T) :=
  nb <- rd (tdims a) 0 ;; m <- rd (tdims a) 1 ;; n <- rd (tdims a) 2 ;;
  bk <- rd (tdims b) 0 ;; p <- rd (tdims b) 1 ;;
  if negb (n =? bk) then Throw InvalidArgument else
  s <- new_shape [nb; m; p] ;;
  for_ 0 nb (fun bt => for_ 0 m (fun i => for_ 0 p (fun j res =>
    sum <- for_ 0 n (fun k acc =>
             x <- t_at a [bt; i; k] ;; y <- t_at b [k; j] ;; Ok (s_add acc (s_mul x y))) zero ;;
    t_at_set res [bt; i; j] sum))) (t_fill s zero).

(** Lines 502-526: the do/while loop over batch indices. *)
Fixpoint batch_loop (fuel : nat) (bds : list Z) (m n k : Z) (a b : tensor T)
    (bidx : list Z) (res : tensor T) : outcome (tensor T) :=
  match fuel with
  | O => Hang
  | Datatypes.S fuel' =>
      res' <- for_ 0 m (fun i => for_ 0 n (fun j res =>
                sum <- for_ 0 k (fun p acc =>
                         x <- t_at a (bidx ++ [i; p]) ;; y <- t_at b (bidx ++ [p; j]) ;;
                         Ok (s_add acc (s_mul x y))) zero ;;
                t_at_set res (bidx ++ [i; j]) sum)) res ;;
      let '(bidx', carry) := incr_idx bds bidx in
      if carry then Ok res' else batch_loop fuel' bds m n k a b bidx' res'
  end.

(** Lines 464-530 batchedMatmul. *)
Definition t_batched (a b : tensor T) : outcome (tensor T) :=
  let ra := rank (tshape a) in let rb := rank (tshape b) in
  if (ra =? 3) && (rb =? 2) then t_mm32 a b else
  if (ra =? 2) && (rb =? 3) then t_mm23 a b else
  if negb (ra =? rb) then Throw InvalidArgument else
  if ra <? 3 then Throw InvalidArgument else
  k <- rd (tdims a) (ra - 1) ;; kb <- rd (tdims b) (ra - 2) ;;
  if negb (k =? kb) then Throw InvalidArgument else
  m <- rd (tdims a) (ra - 2) ;; n <- rd (tdims b) (ra - 1) ;;
  let bds := map (fun p => Z.max (fst p) (snd p))
               (firstn (Z.to_nat (ra - 2)) (combine (tdims a) (tdims b))) in
  s <- new_shape (bds ++ [m; n]) ;;
  batch_loop (Z.to_nat (ssize s)) bds m n k a b (zrepeat 0 (ra - 2)) (t_fill s zero).

(** Lines 246-265 matmul. *)
Definition t_matmul (a b : tensor T) : outcome (tensor T) :=
  let ra := rank (tshape a) in let rb := rank (tshape b) in
  if (ra =? 1) && (rb =? 1) then t_dot a b
  else if (ra =? 2) && (rb =? 2) then t_matmat a b
  else if (ra =? 1) && (rb =? 2) then
    d0 <- rd (tdims a) 0 ;;
    s1 <- new_shape [1; d0] ;;
    a' <- t_reshape a (dims s1) ;;
    r <- t_matmat a' b ;;
    d1 <- rd (tdims r) 1 ;;
    s2 <- new_shape [d1] ;;
    t_reshape r (dims s2)
  else if (ra =? 2) && (rb =? 1) then t_matvec a b
  else if (2 <? ra) || (2 <? rb) then t_batched a b
  else Throw InvalidArgument.

End Model.
