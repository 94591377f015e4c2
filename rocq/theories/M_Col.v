(** * Conv2DLayer.hpp: im2col and col2im
    Two private functions that no other code calls: the matrix of all patches of a batch of images, and the sum of such
    patches back into images.  The OpenMP pragmas are not active in the project's build; the loops of [im2col] and [col2im]
    are sequential, and [im2col_loop] and [col2im_loop] are the same loops with OpenMP. *)
From Verif Require Import Base Scalar Types M_Shape M_Tensor M_Par.

Section S.
Context {T : Type} {S : Scalar T}.
(** Lines 202-203 and 244-245: (size + 2 * padding - dilation * (kernel - 1) - 1) / stride + 1 in [int]; the division
    truncates and is undefined for stride 0. *)
Definition col_extent (d pad dil k stride : Z) : outcome Z :=
  a <- chk32 (2 * pad) ;; b <- chk32 (d + a) ;; c <- chk32 (k - 1) ;; e <- chk32 (dil * c) ;; f <- chk32 (b - e) ;; g <- chk32 (f - 1) ;;
  if stride =? 0 then UB else q <- chk32 (Z.quot g stride) ;; chk32 (q + 1).
(** Lines 217-218 and 260-261: oh * stride + kh * dilation - padding *)
Definition col_at (o stride k dil pad : Z) : outcome Z :=
  a <- chk32 (o * stride) ;; b <- chk32 (k * dil) ;; s <- chk32 (a + b) ;; chk32 (s - pad).
(** Lines 222-223 and 265-266: the position in the data, in [size_t].  The strides are read without a check. *)
Definition col_flat (st : list Z) (n c ih iw : Z) : outcome Z :=
  s0 <- rd st 0 ;; s1 <- rd st 1 ;; s2 <- rd st 2 ;; s3 <- rd st 3 ;; Ok (u64 (n * s0 + c * s1 + ih * s2 + iw * s3)).
(** Lines 196-236.  w_row and w_col stay below the dimensions of the matrix, so they do not overflow. *)
Definition im2col (x : tensor T) (kh kw stride pad dil : Z) : outcome (tensor T) :=
  n <- rd (tdims x) 0 ;; ic <- rd (tdims x) 1 ;; h <- rd (tdims x) 2 ;; w <- rd (tdims x) 3 ;;
  oh <- col_extent h pad dil kh stride ;; ow <- col_extent w pad dil kw stride ;;
  a <- chk32 (ic * kh) ;; rows <- chk32 (a * kw) ;; b <- chk32 (oh * ow) ;; cols <- chk32 (b * n) ;;
  s <- new_shape [rows; cols] ;;
  for_ 0 n (fun i => for_ 0 ic (fun c => for_ 0 kh (fun p => for_ 0 kw (fun q => for_ 0 oh (fun y => for_ 0 ow (fun z out =>
    ih <- col_at y stride p dil pad ;; iw <- col_at z stride q dil pad ;;
    let row := c * kh * kw + p * kw + q in let col := (i * oh + y) * ow + z in
    if (0 <=? ih) && (ih <? h) && (0 <=? iw) && (iw <? w)
    then k <- col_flat (sstride (tshape x)) i c ih iw ;; v <- t_get x k ;; t_at_set out [row; col] v
    else t_at_set out [row; col] zero)))))) (t_new s).
(** Lines 238-277 *)
Definition col2im (m : tensor T) (s : shape) (kh kw stride pad dil : Z) : outcome (tensor T) :=
  n <- rd (dims s) 0 ;; ic <- rd (dims s) 1 ;; h <- rd (dims s) 2 ;; w <- rd (dims s) 3 ;;
  oh <- col_extent h pad dil kh stride ;; ow <- col_extent w pad dil kw stride ;;
  for_ 0 n (fun i => for_ 0 ic (fun c => for_ 0 kh (fun p => for_ 0 kw (fun q => for_ 0 oh (fun y => for_ 0 ow (fun z out =>
    ih <- col_at y stride p dil pad ;; iw <- col_at z stride q dil pad ;;
    let row := c * kh * kw + p * kw + q in let col := (i * oh + y) * ow + z in
    if (0 <=? ih) && (ih <? h) && (0 <=? iw) && (iw <? w)
    then k <- col_flat (sstride (tshape out)) i c ih iw ;; v <- t_at m [row; col] ;; o <- t_get out k ;; t_set out k (s_add o v)
    else Ok out)))))) (t_fill s zero).

(** A loop inside one iteration: [f 0], ..., [f (n - 1)], then the rest [k]. *)
Definition each (n : Z) (f : Z -> prog T -> prog T) (k : prog T) : prog T := fold_right f k (zrange 0 n).
(** Lines 209-233 in an OpenMP build; collapse(2) makes every (image, channel) one iteration.  [s] and [s'] are the shapes of
    input and colMatrix, (h, w) and (oh, ow) the input and output sizes.  Arrays: 0 the input, 1 colMatrix.  An overflow or an
    index out of range ends the iteration. *)
Definition im2col_iter (s s' : shape) (kh kw stride pad dil h w oh ow i c : Z) : prog T :=
  each kh (fun p => each kw (fun q => each oh (fun y => each ow (fun z k =>
    match col_at y stride p dil pad, col_at z stride q dil pad, compute_flat_index s' [c * kh * kw + p * kw + q; (i * oh + y) * ow + z] with
    | Ok ih, Ok iw, Ok to =>
        if (0 <=? ih) && (ih <? h) && (0 <=? iw) && (iw <? w)
        then match col_flat (sstride s) i c ih iw with Ok from => Rd 0 from (fun v => Wr 1 to v k) | _ => Done end
        else Wr 1 to zero k
    | _, _, _ => Done
    end)))) Done.
Definition im2col_loop (s s' : shape) (kh kw stride pad dil n ic h w oh ow : Z) : list (prog T) :=
  flat_map (fun i => map (fun c => im2col_iter s s' kh kw stride pad dil h w oh ow i c) (zrange 0 ic)) (zrange 0 n).
(** Lines 252-274.  [s] and [s'] are the shapes of colMatrix and output.  Arrays: 0 colMatrix, 1 output. *)
Definition col2im_iter (s s' : shape) (kh kw stride pad dil h w oh ow i c : Z) : prog T :=
  each kh (fun p => each kw (fun q => each oh (fun y => each ow (fun z k =>
    match col_at y stride p dil pad, col_at z stride q dil pad with
    | Ok ih, Ok iw =>
        if (0 <=? ih) && (ih <? h) && (0 <=? iw) && (iw <? w)
        then match col_flat (sstride s') i c ih iw, compute_flat_index s [c * kh * kw + p * kw + q; (i * oh + y) * ow + z] with
             | Ok to, Ok from => Rd 0 from (fun v => Rd 1 to (fun o => Wr 1 to (s_add o v) k))
             | _, _ => Done
             end
        else k
    | _, _ => Done
    end)))) Done.
Definition col2im_loop (s s' : shape) (kh kw stride pad dil n ic h w oh ow : Z) : list (prog T) :=
  flat_map (fun i => map (fun c => col2im_iter s s' kh kw stride pad dil h w oh ow i c) (zrange 0 ic)) (zrange 0 n).
End S.
