(** * Properties C87, C88: products over slice views

    [shows v ds f] (SpecSlice.v): view [v] has dimensions [ds] and reading it at [idx] gives [f idx]. *)
From Verif Require Import Base Scalar Types Spec M_Shape M_Tensor M_Adv M_Par M_Slice SpecPar SpecSlice L_Slice.

Definition m34 : tensor Z := tensor_of [3; 4] (fun idx => 10 * nth 0 idx 0 + nth 1 idx 0).
Example m34_good : good m34. Proof. repeat split; try discriminate; repeat constructor; lia. Qed.

(** Every view the constructor accepts under the conditions of C15 shows elements of its tensor. *)
Theorem C87_views : forall {T} {S : Scalar T} (t : tensor T) slices steps,
  good t -> length slices = length (tdims t) -> length steps = length (tdims t) ->
  Forall (fun s => 0 < s) steps ->
  (forall i, (i < length (tdims t))%nat -> nth i (tdims t) 0 + nth i steps 0 <= INT_MAX) ->
  exists v starts exts, sview_new t slices steps = Ok v /\ in_range (tdims t) starts /\ length exts = length (tdims t) /\
    (forall idx, in_range exts idx -> in_range (tdims t) (slice_src starts steps idx)) /\
    shows v exts (fun idx => el t (slice_src starts steps idx)).
Proof. exact @view_shows. Qed.

(** ** C87: the dot product of two views *)
Theorem C87_dot : forall {T} {S : Scalar T} (a b : sview T) ds f g, shows a ds f -> shows b ds g ->
  t_dot_slice a b = Ok (fsum (map (fun idx => s_mul (f idx) (g idx)) (all_indices ds))).
Proof. exact @dot_slice_ok. Qed.
Theorem C87_dot_rejects : forall {T} {S : Scalar T} (a b : sview T) ds ds' f g, shows a ds f -> shows b ds' g -> ds <> ds' ->
  t_dot_slice a b = Throw InvalidArgument.
Proof. exact @dot_slice_throw. Qed.
Example C87_case : (a <- sview_new m34 [(1, 3); (-3, 4)] [1; 2] ;; b <- sview_new m34 [(0, 3); (0, 4)] [2; 3] ;; t_dot_slice a b)
  = Ok (11 * 0 + 13 * 3 + 21 * 20 + 23 * 23).
Proof. vm_compute. reflexivity. Qed.
Example C87_case_rejects : (a <- sview_new m34 [(1, 3); (-3, 4)] [1; 2] ;; b <- sview_new m34 [(0, 3); (0, 4)] [2; 1] ;; t_dot_slice a b)
  = Throw InvalidArgument.
Proof. vm_compute. reflexivity. Qed.
Print Assumptions C87_views.
Print Assumptions C87_dot.
Print Assumptions C87_dot_rejects.

(** ** C88: the matrix product of two views *)
Theorem C88_matmul : forall {T} {S : Scalar T} (a b : sview T) m k n f g, shows a [m; k] f -> shows b [k; n] g -> m * n <= INT_MAX ->
  t_matmat_slice a b = Ok (tensor_of [m; n] (fn2 (fun i j => sum_to k (fun p => s_mul (f [i; p]) (g [p; j]))))).
Proof. exact @matmat_slice_ok. Qed.
(** The same tensor as multiplying copies of the two slices. *)
Theorem C88_as_copies : forall {T} {S : Scalar T} (a b : sview T) m k n f g, shows a [m; k] f -> shows b [k; n] g -> m * n <= INT_MAX ->
  t_matmat_slice a b = t_matmat (tensor_of [m; k] f) (tensor_of [k; n] g).
Proof. exact @matmat_slice_copy. Qed.
Theorem C88_rejects : forall {T} {S : Scalar T} (a b : sview T) da db f g, shows a da f -> shows b db g ->
  ~ (exists m k n, da = [m; k] /\ db = [k; n]) -> t_matmat_slice a b = Throw InvalidArgument.
Proof. exact @matmat_slice_throw. Qed.
(** In an OpenMP build the result does not depend on the schedule.  Arrays: 0 and 1 the tensors under the views, 2 the result. *)
Theorem C88_schedules : forall {T} {S : Scalar T} (a b : sview T) (r : tensor T) m k n f g mm,
  shows a [m; k] f -> shows b [k; n] g -> m * n <= INT_MAX ->
  t_matmat_slice a b = Ok r -> holds mm 0 (tdata (sv_orig a)) -> holds mm 1 (tdata (sv_orig b)) ->
  schedule_independent (slice_loop a b m k n) mm /\
  forall m', final (slice_loop a b m k n) mm m' -> holds m' 2 (tdata r).
Proof. exact @slice_par. Qed.
Example C88_case : (a <- sview_new m34 [(1, 3); (-3, 4)] [1; 2] ;; b <- sview_new m34 [(0, 3); (0, 4)] [2; 3] ;; t_matmat_slice a b)
  = Ok (mkTensor (shape_of [2; 2]) [11 * 0 + 13 * 20; 11 * 3 + 13 * 23; 21 * 0 + 23 * 20; 21 * 3 + 23 * 23]).
Proof. vm_compute. reflexivity. Qed.
Example C88_case_rejects : (a <- sview_new m34 [(0, 3); (0, 4)] [1; 1] ;; t_matmat_slice a a) = Throw InvalidArgument.
Proof. vm_compute. reflexivity. Qed.
Print Assumptions C88_matmul.
Print Assumptions C88_as_copies.
Print Assumptions C88_rejects.
Print Assumptions C88_schedules.
