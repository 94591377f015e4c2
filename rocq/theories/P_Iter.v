(** * Iterators of views (C117) *)
From Verif Require Import Base Scalar Types Spec SpecSlice M_Shape M_Tensor M_Iter L_Tensor L_Iter P_Tensor.
Local Open Scope Z_scope.

(** A slice view: after [k] increments from begin() the iterator dereferences to the element at the [k]-th index in row-major
    order; from the number of elements on, dereferencing throws, however often it is incremented. *)
Theorem C117_slice : forall {T} (v : sview T) ds f k, shows v ds f ->
  sview_deref v (advance (sv_shape v) k (iter_begin (sv_shape v))) = if Z.of_nat k <? prod ds then Ok (f (unravel ds (Z.of_nat k))) else Throw OutOfRange.
Proof. exact @slice_positions. Qed.
(** Every slice view the constructor makes (positive steps, any starts) shows the strided elements. *)
Theorem C117_slice_constructed : forall {T} {S : Scalar T} (t : tensor T) slices steps,
  good t -> length slices = length (tdims t) -> length steps = length (tdims t) -> Forall (fun s => 0 < s) steps ->
  (forall i, (i < length (tdims t))%nat -> nth i (tdims t) 0 + nth i steps 0 <= INT_MAX) ->
  exists v starts, sview_new t slices steps = Ok v /\ in_range (tdims t) starts /\
    shows v (dims (sv_shape v)) (fun idx => el t (slice_src starts steps idx)).
Proof. exact @slice_positions_new. Qed.
(** A broadcast view: the same, with the broadcast elements. *)
Theorem C117_broadcast : forall {T} {S : Scalar T} (t : tensor T) r, good t -> pos_dims r -> bcast (tdims t) r r ->
  exists v, bview_new t (shape_of r) = Ok v /\ bv_shape v = shape_of r /\
    forall k, bview_deref v (tdata t) (advance (bv_shape v) k (iter_begin (bv_shape v))) =
      if Z.of_nat k <? prod r then Ok (el t (bproj (tdims t) (unravel r (Z.of_nat k)))) else Throw OutOfRange.
Proof. exact @broadcast_positions. Qed.
(** Either kind equals end() exactly when it has been incremented at least as often as the view has elements. *)
Theorem C117_end : forall ds k, pos_dims ds ->
  iter_eq (advance (shape_of ds) k (iter_begin (shape_of ds))) iter_end = (prod ds <=? Z.of_nat k).
Proof. exact @positions_end. Qed.
(** Two iterators of a view are equal exactly when they are at the same position or both at the end. *)
Theorem C117_equal : forall ds j k, pos_dims ds ->
  (iter_eq (advance (shape_of ds) j (iter_begin (shape_of ds))) (advance (shape_of ds) k (iter_begin (shape_of ds))) = true <->
   j = k \/ (prod ds <= Z.of_nat j /\ prod ds <= Z.of_nat k)).
Proof. exact @positions_equal. Qed.
(** A loop over a slice view runs its body once for every element, in row-major order, and ends. *)
Theorem C117_loop : forall {T A} (v : sview T) ds g (f : A -> T -> A) s, shows v ds g ->
  range_for (Z.to_nat (prod ds)) (sv_shape v) (sview_deref v) f (iter_begin (sv_shape v)) s = Ok (fold_left f (map g (all_indices ds)) s).
Proof. intros T A. exact (@slice_range_for T A). Qed.

(** Every second column of a 2x3 tensor: four elements, then the end. *)
Example C117_case : exists v, sview_new t23 [(0, 2); (0, 3)] [1; 2] = Ok v /\ prod (dims (sv_shape v)) = 4 /\
  map (fun k => sview_deref v (advance (sv_shape v) k (iter_begin (sv_shape v)))) [0; 1; 2; 3; 4; 9]%nat = [Ok 0; Ok 2; Ok 3; Ok 5; Throw OutOfRange; Throw OutOfRange] /\
  range_for 4 (sv_shape v) (sview_deref v) Z.add (iter_begin (sv_shape v)) 0 = Ok 10.
Proof. eexists. split; [reflexivity|]. repeat split; vm_compute; reflexivity. Qed.
Example C117_broadcast_case : good t3 /\ pos_dims [2; 3] /\ bcast (tdims t3) [2; 3] [2; 3].
Proof. split; [exact t3_good|]. split; [split; [discriminate|repeat constructor]|]. split; [reflexivity|]. intros [|[|i]] Hi; [split; [right; left; reflexivity|reflexivity]|split; [left; reflexivity|reflexivity]|cbn in Hi; lia].
Qed.

Print Assumptions C117_slice.
Print Assumptions C117_slice_constructed.
Print Assumptions C117_broadcast.
Print Assumptions C117_end.
Print Assumptions C117_equal.
Print Assumptions C117_loop.
