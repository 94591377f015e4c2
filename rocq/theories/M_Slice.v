(** * Model of the products over slice views (AdvancedTensorOperations.hpp) *)
From Verif Require Import Base Scalar Types M_Shape M_Tensor M_Adv M_Par M_Iter.

Section Model.
Context {T : Type} {S : Scalar T}.

(** AdvancedTensorOperations.hpp:321-325: the loop ends when the left iterator equals end(). *)
Fixpoint dot_slice_loop (fuel : nat) (a b : sview T) (ia ib : iter) (result : T) : outcome T :=
  if snd ia then Ok result
  else match fuel with
  | O => Hang
  | Datatypes.S fuel' =>
      x <- sview_deref a ia ;; y <- sview_deref b ib ;;
      dot_slice_loop fuel' a b (iter_next (sv_shape a) ia) (iter_next (sv_shape b) ib) (s_add result (s_mul x y))
  end.
(** Lines 311-328 dotProductSlice. *)
Definition t_dot_slice (a b : sview T) : outcome T :=
  if negb (shape_eqb (sv_shape a) (sv_shape b)) then Throw InvalidArgument else
  dot_slice_loop (Datatypes.S (Z.to_nat (ssize (sv_shape a)))) a b (iter_begin (sv_shape a)) (iter_begin (sv_shape b)) zero.

(** Lines 420-448 matrixMatrixMulSlice. *)
Definition t_matmat_slice (a b : sview T) : outcome (tensor T) :=
  if negb (rank (sv_shape a) =? 2) || negb (rank (sv_shape b) =? 2) then Throw InvalidArgument else
  k <- rd (dims (sv_shape a)) 1 ;; kb <- rd (dims (sv_shape b)) 0 ;;
  if negb (k =? kb) then Throw InvalidArgument else
  m <- rd (dims (sv_shape a)) 0 ;; n <- rd (dims (sv_shape b)) 1 ;;
  s <- new_shape [m; n] ;;
  out <- for_ 0 m (fun i => for_ 0 n (fun j out =>
           sum <- for_ 0 k (fun p acc =>
                    x <- sview_index a [i; p] ;; y <- sview_index b [p; j] ;;
                    Ok (s_add acc (s_mul x y))) zero ;;
           q <- ix i n j ;; wr out q sum)) (zrepeat zero (ssize s)) ;;
  Ok (mkTensor s out).

(** Lines 436-446 in an OpenMP build; collapse(2).  Arrays: 0 the tensor under [a], 1 the tensor under [b], 2 resultData.
    An index outside the tensor ends the iteration (undefined behaviour in the source). *)
Fixpoint slice_pairs (a b : sview T) (i j : Z) (ps : list Z) : list (Z * Z) :=
  match ps with
  | [] => []
  | p :: r => match sview_map a [i; p], sview_map b [p; j] with
              | Ok x, Ok y => (x, y) :: slice_pairs a b i j r
              | _, _ => []
              end
  end.
Definition slice_iter (a b : sview T) (k n i j : Z) : prog T :=
  dot_prog (slice_pairs a b i j (zrange 0 k)) zero (fun sum => Wr 2 (i * n + j) sum Done).
Definition slice_loop (a b : sview T) (m k n : Z) : list (prog T) :=
  flat_map (fun i => map (fun j => slice_iter a b k n i j) (zrange 0 n)) (zrange 0 m).
End Model.
