(** * Properties C09-C18, C29-C31: tensors, views, slices, sums, construction, equality. *)
From Verif Require Import Base Scalar Types Spec M_Shape M_Tensor L_Index L_Shape L_Bcast L_Tensor L_Reduce L_Tensor2 L_Glue.

Definition t23 : tensor Z := tensor_of [2; 3] (ravel [2; 3]).
Definition t3 : tensor Z := tensor_of [3] (fun idx => 10 + ravel [3] idx).
Example t23_good : good t23. Proof. repeat split; try discriminate; repeat constructor; lia. Qed.
Example t3_good : good t3. Proof. repeat split; try discriminate; repeat constructor; lia. Qed.
Example bcast_23_3 : bcast (tdims t23) (tdims t3) [2; 3].
Proof.
  split; [reflexivity|]. intros i Hi. unfold compatible.
  destruct i as [|[|i]]; [split; [auto|reflexivity]..|simpl in Hi; lia].
Qed.

(** ** C09.  [op] is any of the four element functions; [bproj] reads index 0 on broadcast axes. *)
Theorem C09_binop : forall {T} {S : Scalar T} op (a b : tensor T) r,
  good a -> good b -> bcast (tdims a) (tdims b) r -> prod r <= INT_MAX ->
  t_binop op a b = Ok (tensor_of r (fun idx => op (el a (bproj (tdims a) idx)) (el b (bproj (tdims b) idx)))).
Proof. exact @t_binop_ok. Qed.
Theorem C09_binop_rejects : forall {T} {S : Scalar T} op (a b : tensor T),
  good a -> good b -> ~ (exists r, bcast (tdims a) (tdims b) r) -> t_binop op a b = Throw InvalidArgument.
Proof. exact @t_binop_throw. Qed.
(** The four C++ operators use the matching element function. *)
Theorem C09_four_operators : forall {T} {S : Scalar T} (a b : tensor T) r,
  good a -> good b -> bcast (tdims a) (tdims b) r -> prod r <= INT_MAX ->
  t_add a b = Ok (tensor_of r (fun i => s_add (el a (bproj (tdims a) i)) (el b (bproj (tdims b) i)))) /\
  t_sub a b = Ok (tensor_of r (fun i => s_sub (el a (bproj (tdims a) i)) (el b (bproj (tdims b) i)))) /\
  t_mul a b = Ok (tensor_of r (fun i => s_mul (el a (bproj (tdims a) i)) (el b (bproj (tdims b) i)))) /\
  t_div a b = Ok (tensor_of r (fun i => s_div (el a (bproj (tdims a) i)) (el b (bproj (tdims b) i)))).
Proof. exact @four_ops. Qed.
Example C09_case : t_add t23 t3 = Ok (mkTensor (shape_of [2; 3]) [10; 12; 14; 13; 15; 17]).
Proof. vm_compute. reflexivity. Qed.
Print Assumptions C09_binop.
Print Assumptions C09_binop_rejects.
Print Assumptions C09_four_operators.

(** ** C10.  [alias = true]: the operand is the very same object. *)
Theorem C10_inplace : forall {T} {S : Scalar T} op (a b : tensor T) r (alias : bool),
  good a -> good b -> (alias = true -> b = a) ->
  bcast (tdims a) (tdims b) r -> prod r = prod (tdims a) ->
  exists c a', t_binop op a b = Ok c /\ t_binop_ip op alias a b = (a', Ok tt) /\
    tshape a' = tshape a /\ tdata a' = tdata c.
Proof. exact @inplace_ok. Qed.
Theorem C10_inplace_rejects : forall {T} op (a b : tensor T) (alias : bool),
  good a -> good b -> ~ (exists r, bcast (tdims a) (tdims b) r /\ prod r = prod (tdims a)) ->
  (forall r, bcast (tdims a) (tdims b) r -> prod r <= INT_MAX) ->
  exists e, t_binop_ip op alias a b = (a, Throw e) /\ ((exists r, bcast (tdims a) (tdims b) r) -> e = RuntimeError) /\ (~ (exists r, bcast (tdims a) (tdims b) r) -> e = InvalidArgument).
Proof. exact @t_binop_ip_throw. Qed.
Example C10_case : t_binop_ip s_add true t3 t3 = (mkTensor (shape_of [3]) [20; 22; 24], Ok tt) /\
  snd (t_binop_ip s_add false t3 t23) = Throw RuntimeError.
Proof. vm_compute. auto. Qed.
Print Assumptions C10_inplace.
Print Assumptions C10_inplace_rejects.

(** ** C11 *)
Theorem C11_scalar_ops : forall {T} {S : Scalar T} (t : tensor T) (s : T), good t ->
  t_add_s t s = Ok (tensor_of (tdims t) (fun i => s_add (el t i) s)) /\
  t_sub_s t s = Ok (tensor_of (tdims t) (fun i => s_sub (el t i) s)) /\
  t_mul_s t s = Ok (tensor_of (tdims t) (fun i => s_mul (el t i) s)) /\
  (s_eq s zero = false -> t_div_s t s = Ok (tensor_of (tdims t) (fun i => s_div (el t i) s))) /\
  s_add_t s t = Ok (tensor_of (tdims t) (fun i => s_add (el t i) s)) /\
  s_sub_t s t = Ok (tensor_of (tdims t) (fun i => s_add (s_mul (el t i) (s_z (-1))) s)) /\
  s_mul_t s t = Ok (tensor_of (tdims t) (fun i => s_mul (el t i) s)) /\
  s_div_t s t = Ok (tensor_of (tdims t) (fun i => s_div s (el t i))).
Proof. exact @scalar_ops. Qed.
Theorem C11_scalar_inplace : forall {T} {S : Scalar T} (t : tensor T) (s : T), good t ->
  t_add_s_ip t s = t_add_s t s /\ t_sub_s_ip t s = t_sub_s t s /\ t_mul_s_ip t s = t_mul_s t s /\
  t_div_s_ip t s = t_div_s t s.
Proof. exact @scalar_ops_ip. Qed.
Theorem C11_division_by_zero : forall {T} {S : Scalar T} (t : tensor T) (s : T), s_eq s zero = true ->
  t_div_s t s = Throw InvalidArgument /\ t_div_s_ip_st t s = (t, Throw InvalidArgument).
Proof. exact @scalar_div_zero. Qed.
Example C11_case : s_sub_t 5 t3 = Ok (mkTensor (shape_of [3]) [-5; -6; -7]) /\ t_div_s t3 0 = Throw InvalidArgument.
Proof. vm_compute. auto. Qed.
Print Assumptions C11_scalar_ops.
Print Assumptions C11_scalar_inplace.
Print Assumptions C11_division_by_zero.

(** ** C12 *)
Theorem C12_broadcast_view_iteration : forall {T} {S : Scalar T} (t : tensor T) r,
  good t -> pos_dims r -> bcast (tdims t) r r ->
  exists v, bview_new t (shape_of r) = Ok v /\
    bview_elements v = Ok (map (fun idx => el t (bproj (tdims t) idx)) (all_indices r)) /\
    (forall idx, in_range r idx -> exists k, bview_map v idx = Ok k /\ 0 <= k < Zlen (tdata t)) /\
    Zlen (all_indices r) = prod r.
Proof. exact @bview_iterate. Qed.
Example C12_case : bind (bview_new t3 (shape_of [2; 3])) bview_elements = Ok [10; 11; 12; 10; 11; 12].
Proof. vm_compute. reflexivity. Qed.
Print Assumptions C12_broadcast_view_iteration.

(** ** C13.  Full statement: for every good [t] and legal [r],
    [~ bcast (tdims t) r r -> throws (bview_new t (shape_of r))].
    False when the target has a smaller rank than the source. *)
Theorem C13_view_construction_refuted : exists (t : tensor Z) r v,
  good t /\ pos_dims r /\ ~ bcast (tdims t) r r /\ bview_new t (shape_of r) = Ok v.
Proof.
  exists t23, [3]. eexists. split; [exact t23_good|]. split; [split; [discriminate|repeat constructor; lia]|].
  split; [intros [H _]; discriminate H|]. vm_compute. reflexivity.
Qed.
(** What holds: the check is exact when the target's rank is at least the source's. *)
Theorem C13_view_construction_partial : forall {T} (t : tensor T) r, good t -> pos_dims r ->
  (length (tdims t) <= length r)%nat -> ~ bcast (tdims t) r r -> bview_new t (shape_of r) = Throw RuntimeError.
Proof. exact @bview_new_throw. Qed.
Example C13_case : (length (tdims t3) <= length [2; 2])%nat /\ bview_new t3 (shape_of [2; 2]) = Throw RuntimeError.
Proof. split; [simpl; lia|vm_compute; reflexivity]. Qed.
Print Assumptions C13_view_construction_refuted.
Print Assumptions C13_view_construction_partial.

(** ** C14.  Full statement: the extent on axis i is ceil((end_i - start_i) / step_i).
    False: the end of the slice is ignored. *)
Theorem C14_slice_view_refuted : exists (t : tensor Z) s e v,
  good t /\ 0 <= s < e /\ e <= nth 0 (tdims t) 0 /\ sview_new t [(s, e)] [1] = Ok v /\
  nth 0 (dims (sv_shape v)) 0 <> e - s.
Proof.
  exists t3, 0, 1. eexists. split; [exact t3_good|]. split; [lia|]. split; [vm_compute; discriminate|].
  split; [vm_compute; reflexivity|]. vm_compute. discriminate.
Qed.
(** What holds: the view runs from start to the end of the axis. *)
Theorem C14_slice_view_partial : forall {T} {S : Scalar T} (t : tensor T) slices steps,
  good t -> length slices = length (tdims t) -> length steps = length (tdims t) ->
  Forall (fun s => 0 < s) steps ->
  (forall i, (i < length (tdims t))%nat -> nth i (tdims t) 0 + nth i steps 0 <= INT_MAX) ->
  (forall i, (i < length (tdims t))%nat -> 0 <= fst (nth i slices (0, 0)) < nth i (tdims t) 0) ->
  exists v, sview_new t slices steps = Ok v /\
    (forall i, (i < length (tdims t))%nat ->
       nth i (dims (sv_shape v)) 0 = (nth i (tdims t) 0 - fst (nth i slices (0, 0)) + nth i steps 0 - 1) / nth i steps 0) /\
    (forall idx, in_range (dims (sv_shape v)) idx ->
       sview_index v idx = Ok (el t (slice_src (map fst slices) steps idx))).
Proof. exact @slice_view_full. Qed.
(** The start of a slice may be any integer; see [start_pos] for the position it selects. *)
Theorem C14_any_start : forall {T} {S : Scalar T} (t : tensor T) slices steps,
  good t -> length slices = length (tdims t) -> length steps = length (tdims t) ->
  Forall (fun s => 0 < s) steps ->
  (forall i, (i < length (tdims t))%nat -> nth i (tdims t) 0 + nth i steps 0 <= INT_MAX) ->
  exists v starts, sview_new t slices steps = Ok v /\ length starts = length (tdims t) /\
    (forall i, (i < length (tdims t))%nat -> start_pos (nth i (tdims t) 0) (fst (nth i slices (0, 0))) (nth i starts 0)) /\
    (forall i, (i < length (tdims t))%nat ->
       nth i (dims (sv_shape v)) 0 = (nth i (tdims t) 0 - nth i starts 0 + nth i steps 0 - 1) / nth i steps 0) /\
    (forall idx, in_range (dims (sv_shape v)) idx -> sview_index v idx = Ok (el t (slice_src starts steps idx))).
Proof. exact @slice_view_any_start. Qed.
(** One slice and one step per dimension are asked for. *)
Theorem C14_rejects : forall {T} (t : tensor T) slices steps, length slices <> length (tdims t) \/ length steps <> length (tdims t) -> sview_new t slices steps = Throw RuntimeError.
Proof. exact @slice_view_rejects. Qed.
Example C14_any_start_case : bind (sview_new t23 [(-1, 2); (-9, 3)] [1; 2]) sview_elements = Ok [3; 5].
Proof. vm_compute. reflexivity. Qed.
Example C14_case : bind (sview_new t23 [(0, 2); (1, 3)] [1; 2]) sview_elements = Ok [1; 4].
Proof. vm_compute. reflexivity. Qed.
Print Assumptions C14_slice_view_refuted.
Print Assumptions C14_slice_view_partial.
Print Assumptions C14_any_start.
Print Assumptions C14_rejects.

(** ** C15: any start and end values, positive steps. *)
Theorem C15_slice_view_safe : forall {T} {S : Scalar T} (t : tensor T) slices steps,
  good t -> length slices = length (tdims t) -> length steps = length (tdims t) ->
  Forall (fun s => 0 < s) steps ->
  (forall i, (i < length (tdims t))%nat -> nth i (tdims t) 0 + nth i steps 0 <= INT_MAX) ->
  exists v starts exts,
    sview_new t slices steps = Ok v /\ in_range (tdims t) starts /\ sv_shape v = shape_of exts /\
    length exts = length (tdims t) /\
    sview_elements v = Ok (map (fun idx => el t (slice_src starts steps idx)) (all_indices exts)) /\
    Zlen (all_indices exts) = ssize (sv_shape v) /\
    (forall idx, in_range exts idx -> in_range (tdims t) (slice_src starts steps idx)) /\
    (forall idx x, in_range exts idx -> sview_set v idx x = Ok (set_el t (slice_src starts steps idx) x)).
Proof. exact @slice_view_ok. Qed.
Theorem C15_set_changes_one : forall {T} {S : Scalar T} (t : tensor T) i j x,
  good t -> in_range (tdims t) i -> in_range (tdims t) j ->
  el (set_el t i x) j = if list_eq_dec Z.eq_dec j i then x else el t j.
Proof. exact @el_set_el. Qed.
(** The side condition on huge steps is needed: the extent overflows an int. *)
Theorem C15_step_bound_needed : sview_new t3 [(0, 3)] [INT_MAX] = UB.
Proof. vm_compute. reflexivity. Qed.
Example C15_case : bind (sview_new t23 [(-1, 99); (-7, -9)] [5; 2]) sview_elements = Ok [3; 5].
Proof. vm_compute. reflexivity. Qed.
Print Assumptions C15_slice_view_safe.
Print Assumptions C15_set_changes_one.
Print Assumptions C15_step_bound_needed.

(** ** C16.  Full statement: for every dim, [t_slice t dim index] is the tensor
    of dimensions [remove_at dim] with elements [el t (insert_at dim index idx)].
    False for an inner dimension. *)
Theorem C16_slice_refuted : exists (t : tensor Z) dim index r idx,
  good t /\ (2 <= length (tdims t))%nat /\ (dim < length (tdims t))%nat /\ 0 <= index < nth dim (tdims t) 0 /\
  t_slice t (Z.of_nat dim) index = Ok r /\ in_range (remove_at dim (tdims t)) idx /\
  el r idx <> el t (insert_at dim index idx).
Proof.
  exists t23, 1%nat, 0. eexists. exists [1]. split; [exact t23_good|].
  split; [simpl; lia|]. split; [simpl; lia|]. split; [simpl; lia|].
  split; [vm_compute; reflexivity|]. split; [repeat constructor; lia|]. vm_compute. discriminate.
Qed.
(** What holds: every dimension whose preceding dimensions are all 1, in
    particular dimension 0. *)
Theorem C16_slice_partial : forall {T} {S : Scalar T} (t : tensor T) dim index,
  good t -> (2 <= length (tdims t))%nat -> (dim < length (tdims t))%nat ->
  0 <= index < nth dim (tdims t) 0 -> prod (firstn dim (tdims t)) = 1 ->
  t_slice t (Z.of_nat dim) index =
    Ok (tensor_of (remove_at dim (tdims t)) (fun idx => el t (insert_at dim index idx))).
Proof. exact @slice_leading. Qed.
Example C16_case : t_slice t23 0 1 = Ok (mkTensor (shape_of [3]) [3; 4; 5]).
Proof. vm_compute. reflexivity. Qed.
Print Assumptions C16_slice_refuted.
Print Assumptions C16_slice_partial.

(** ** C17: the block copied by slice lies inside the buffer (and what it is). *)
Theorem C17_slice_in_bounds : forall {T} {S : Scalar T} (t : tensor T) dim index,
  good t -> (2 <= length (tdims t))%nat -> (dim < length (tdims t))%nat ->
  0 <= index < nth dim (tdims t) 0 ->
  let off := index * prod (skipn (Datatypes.S dim) (tdims t)) in
  let rds := remove_at dim (tdims t) in
  0 <= off /\ off + prod rds <= Zlen (tdata t) /\ pos_dims rds /\ prod rds <= INT_MAX /\
  t_slice t (Z.of_nat dim) index =
    Ok (tensor_of rds (fun idx => znth zero (tdata t) (off + ravel rds idx))).
Proof. exact @slice_block. Qed.
(** A rank-1 tensor cannot be sliced: the call throws. *)
Theorem C17_slice_rank1 : forall {T} (t : tensor T) index,
  good t -> length (tdims t) = 1%nat -> t_slice t 0 index = Throw InvalidArgument.
Proof. exact @slice_rank1. Qed.
Example C17_case : 0 <= 2 < nth 1 (tdims t23) 0 /\ is_ok (t_slice t23 1 2) = true.
Proof. split; [simpl; lia|vm_compute; reflexivity]. Qed.
Print Assumptions C17_slice_in_bounds.
Print Assumptions C17_slice_rank1.

(** ** C18 *)
Theorem C18_sum_all : forall {T} {S : Scalar T} (t : tensor T), good t ->
  t_sum t = Ok (tensor_of [1] (fun _ => fsum (map (el t) (all_indices (tdims t))))).
Proof. exact @sum_all. Qed.
Theorem C18_sum_axis : forall {T} {S : Scalar T} (t : tensor T) axis,
  good t -> (1 < length (tdims t))%nat -> 0 <= axis < Zlen (tdims t) ->
  t_sum_axis t axis = Ok (tensor_of (remove_at (Z.to_nat axis) (tdims t))
    (fun ridx => fsum (map (fun a => el t (insert_at (Z.to_nat axis) a ridx))
                           (zrange 0 (nth (Z.to_nat axis) (tdims t) 0))))).
Proof. exact @t_sum_axis_ok. Qed.
Theorem C18_sum_axis_rank1 : forall {T} {S : Scalar T} (t : tensor T), good t -> length (tdims t) = 1%nat ->
  t_sum_axis t 0 = t_sum t.
Proof. exact @t_sum_axis_rank1. Qed.
Theorem C18_sum_axis_rejects : forall {T} {S : Scalar T} (t : tensor T) axis, ~ (0 <= axis < Zlen (tdims t)) ->
  t_sum_axis t axis = Throw RuntimeError.
Proof. exact @t_sum_axis_throw. Qed.
Example C18_case : t_sum_axis t23 0 = Ok (mkTensor (shape_of [3]) [3; 5; 7]) /\
  t_sum_axis t23 1 = Ok (mkTensor (shape_of [2]) [3; 12]).
Proof. vm_compute. auto. Qed.
Print Assumptions C18_sum_all.
Print Assumptions C18_sum_axis.
Print Assumptions C18_sum_axis_rank1.
Print Assumptions C18_sum_axis_rejects.

(** ** C29.  Full statement: for every value list the construction is memory safe.
    False when there are more values than elements. *)
Theorem C29_value_list_refuted : exists ds (vals : list Z), pos_dims ds /\ t_from_list (shape_of ds) vals = UB.
Proof. exists [2], [1; 2; 3]. split; [split; [discriminate|repeat constructor; lia]|]. vm_compute. reflexivity. Qed.
Theorem C29_value_list_partial : forall {T} {S : Scalar T} ds (vals : list T),
  pos_dims ds -> prod ds <= INT_MAX -> Zlen vals <= prod ds ->
  t_from_list (shape_of ds) vals =
  Ok (tensor_of ds (fun idx => if ravel ds idx <? Zlen vals then znth zero vals (ravel ds idx) else zero)).
Proof. exact @from_list_ok. Qed.
Example C29_case : t_from_list (shape_of [2; 2]) [7; 8; 9] = Ok (mkTensor (shape_of [2; 2]) [7; 8; 9; 0]).
Proof. vm_compute. reflexivity. Qed.
Print Assumptions C29_value_list_refuted.
Print Assumptions C29_value_list_partial.

(** ** C30 *)
Theorem C30_fill : forall {T} {S : Scalar T} ds (v : T), pos_dims ds -> prod ds <= INT_MAX ->
  f_fill ds v = Ok (tensor_of ds (fun _ => v)) /\
  f_ones ds = Ok (tensor_of ds (fun _ => one)) /\ f_zeros ds = Ok (tensor_of ds (fun _ => zero)).
Proof. exact @fills. Qed.
(** A tensor constructed from a shape alone is zero everywhere. *)
Theorem C30_new : forall {T} {S : Scalar T} ds, pos_dims ds -> prod ds <= INT_MAX ->
  exists s, new_shape ds = Ok s /\ good (t_new s : tensor T) /\ tdims (t_new s : tensor T) = ds /\ forall idx, in_range ds idx -> el (t_new s : tensor T) idx = zero.
Proof. exact @new_zero. Qed.
Theorem C30_identity : forall {T} {S : Scalar T} n, 0 < n -> n * n <= INT_MAX ->
  f_identity n = Ok (tensor_of [n; n] (fun idx => if nth 0 idx 0 =? nth 1 idx 0 then one else zero)).
Proof. exact @identity_ok. Qed.
Theorem C30_identity_rejects : forall {T} {S : Scalar T} n, n <= 0 -> f_identity n = Throw InvalidArgument.
Proof. exact @identity_throw. Qed.
(** Every random stream; "in range" is "not below min and not above max". *)
Theorem C30_random_range : forall {T} {S : Scalar T} {G} {HR : Rng T G} ds mn mx g,
  pos_dims ds -> prod ds <= INT_MAX ->
  s_lt mn mn = false -> s_lt mx mx = false -> s_lt mx mn = false ->
  exists t g', f_random ds mn mx g = Ok (t, g') /\ good t /\ tdims t = ds /\
    forall idx, in_range ds idx -> s_lt (el t idx) mn = false /\ s_lt mx (el t idx) = false.
Proof. exact @random_ok. Qed.
(** [rand]: the range is [0, 1]. *)
Theorem C30_rand_range : forall {T} {S : Scalar T} {G} {HR : Rng T G} ds g, pos_dims ds -> prod ds <= INT_MAX ->
  s_lt zero zero = false -> s_lt one one = false -> s_lt one zero = false ->
  exists t g', f_rand ds g = Ok (t, g') /\ good t /\ tdims t = ds /\
    forall idx, in_range ds idx -> s_lt (el t idx) zero = false /\ s_lt one (el t idx) = false.
Proof. exact @rand_ok. Qed.
(** A counter as random engine. *)
Definition counter_rng : Rng Z Z := {| rng_seed := fun s => s; rng_normal := fun _ g => (g, g + 1); rng_uniform := fun _ _ g => (g, g + 1) |}.
Example C30_case : f_random (H := counter_rng) [2; 3] 0 3 (-2) = Ok (mkTensor (shape_of [2; 3]) [0; 0; 0; 1; 2; 3], 4)
  /\ f_rand (H := counter_rng) [2; 2] (-2) = Ok (mkTensor (shape_of [2; 2]) [0; 0; 0; 1], 2)
  /\ f_identity 2 = Ok (mkTensor (shape_of [2; 2]) [1; 0; 0; 1]).
Proof. vm_compute. auto. Qed.
Print Assumptions C30_fill.
Print Assumptions C30_new.
Print Assumptions C30_identity.
Print Assumptions C30_identity_rejects.
Print Assumptions C30_random_range.
Print Assumptions C30_rand_range.

(** ** C31 *)
Theorem C31_equality : forall {T} {S : Scalar T} (a b : tensor T), wf a -> wf b ->
  exists r, t_eqb a b = Ok r /\
    (r = true <-> tdims a = tdims b /\
       forall idx, in_range (tdims a) idx -> s_eq (el a idx) (el b idx) = true).
Proof. exact @eqb_spec. Qed.
Theorem C31_equivalence : forall {T} {S : Scalar T},
  (forall x : T, s_eq x x = true) -> (forall x y : T, s_eq x y = true -> s_eq y x = true) ->
  (forall x y z : T, s_eq x y = true -> s_eq y z = true -> s_eq x z = true) ->
  (forall a : tensor T, wf a -> t_eqb a a = Ok true) /\
  (forall a b : tensor T, wf a -> wf b -> t_eqb a b = t_eqb b a) /\
  (forall a b c : tensor T, wf a -> wf b -> wf c -> t_eqb a b = Ok true -> t_eqb b c = Ok true -> t_eqb a c = Ok true).
Proof. exact @eqb_equiv. Qed.
Example C31_case : t_eqb t23 t23 = Ok true /\ t_eqb t23 t3 = Ok false /\
  t_eqb t23 (tensor_of [2; 3] (fun _ => 0)) = Ok false.
Proof. vm_compute. auto. Qed.
Print Assumptions C31_equality.
Print Assumptions C31_equivalence.
