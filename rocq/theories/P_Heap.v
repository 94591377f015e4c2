(** * Properties of the tensor life cycle: C26, C27, C28 *)
From Verif Require Import Base Scalar Types Spec M_Shape M_Tensor M_Heap SpecHeap L_Heap.

(** ** C26: single ownership of every buffer *)

(** After every history of constructions, copies, moves, assignments, writes,
    reshapes and destructions, with allocations failing at will: no two live
    tensors own the same block, every owned block is allocated and every allocated
    block is owned (nothing leaks), and nothing was ever freed twice. *)
Theorem C26_single_ownership : forall {T} {S : Scalar T} (fails : Z -> bool) (os : list (op T)),
  survives (snd (run fails os heap0)) ->
  let h := fst (run fails os heap0) in
  (forall v w a, owns h v a -> owns h w a -> v = w) /\
  (forall v a, owns h v a -> h_mem h a <> None) /\
  (forall a, h_mem h a <> None -> exists v, owns h v a) /\
  h_bad h = false.
Proof.
  exact (fun T S fails os H => let O := run_owned fails os H in
    conj (proj1 (proj2 O)) (conj (proj1 O) (conj (proj1 (proj2 (proj2 O))) (proj1 (proj2 (proj2 (proj2 O))))))).
Qed.
Print Assumptions C26_single_ownership.

(** Once every variable is gone no block is left. *)
Theorem C26_nothing_leaks : forall {T} {S : Scalar T} (fails : Z -> bool) (os : list (op T)),
  survives (snd (run fails os heap0)) ->
  (forall v, h_vars (fst (run fails os heap0)) v = None) ->
  forall a, h_mem (fst (run fails os heap0)) a = None.
Proof. exact (fun T S fails os H => all_freed _ (run_owned fails os H)). Qed.
Print Assumptions C26_nothing_leaks.

(** After any history, one more operation changes only the variables it names as
    targets: writing one tensor never changes another. *)
Theorem C26_isolation : forall {T} {S : Scalar T} (fails : Z -> bool) (os : list (op T)) (o : op T) v,
  let h := fst (run fails os heap0) in
  survives (snd (run fails os heap0)) -> survives (snd (step fails o h)) -> ~ touches o v ->
  value (fst (step fails o h)) v = value h v.
Proof. exact (fun T S fails os o v H => step_isolated fails _ o v (run_owned fails os H)). Qed.
Print Assumptions C26_isolation.

(** A history on the heap has exactly the outcome and the variable contents of the
    same history when tensors are plain values, as everywhere else in this
    development. *)
Theorem C26_value_semantics : forall {T} {S : Scalar T} (fails : Z -> bool) (os : list (op T)),
  exists oks, length oks = length os /\ ((forall a, fails a = false) -> Forall (eq true) oks) /\
    snd (run fails os heap0) = snd (vrun oks os no_vars) /\
    (survives (snd (run fails os heap0)) ->
     forall v, value (fst (run fails os heap0)) v = fst (vrun oks os no_vars) v).
Proof. exact @run_values. Qed.
Print Assumptions C26_value_semantics.

(** Correct use (see [sane]) runs to completion: no undefined behaviour, and every
    live tensor is consistent, or empty because it was moved from. *)
Theorem C26_correct_use_is_defined : forall {T} {S : Scalar T} (fails : Z -> bool) (os : list (op T)),
  (forall a, fails a = false) -> sane_history os no_vars ->
  snd (run fails os heap0) = Ok tt /\
  forall v t, value (fst (run fails os heap0)) v = Some t -> wf t \/ hollow t.
Proof. exact @sane_run0. Qed.
Print Assumptions C26_correct_use_is_defined.

Definition never : Z -> bool := fun _ => false.
(** b = copy of a; write a; c moved from b; a = c; d created and destroyed. *)
Definition history : list (op Z) :=
  [New 0 [2;2] 5; CopyNew 1 0; WriteAt 0 [1;0] 9; MoveNew 2 1; WriteAt 0 [7;7] 9; New 3 [3] 1; MoveAssign 3 0;
   CopyAssign 0 2; Reshape 0 [4]; Write 0 1 8; Destroy 3].
Example C26_history_runs : snd (run never history heap0) = Ok tt /\
  value (fst (run never history heap0)) 0 = Some (mkTensor (shape_of [4]) [5;8;5;5]) /\
  value (fst (run never history heap0)) 1 = Some (mkTensor (shape_of [1]) [0]) /\
  value (fst (run never history heap0)) 2 = Some (mkTensor (shape_of [2;2]) [5;5;5;5]) /\
  value (fst (run never history heap0)) 3 = None.
Proof. vm_compute. auto. Qed.
Example C26_history_cleaned : forall v,
  h_vars (fst (run never (history ++ [Destroy 0; Destroy 1; Destroy 2]) heap0)) v = None.
Proof.
  intro v. destruct v as [|[[p|p|]|[p|p|]|]|p]; vm_compute; reflexivity.
Qed.
Ltac wf_lit := intros; match goal with E : _ = Some ?t |- _ => vm_compute in E; injection E as <- end;
  split; [split; [discriminate|repeat constructor]|split; [reflexivity|split; reflexivity]].
Example C26_history_sane : sane_history history no_vars.
Proof.
  unfold history.
  split; [intros _; vm_compute; reflexivity|]. split; [unfold sane, usable; wf_lit|]. split; [unfold sane, usable; wf_lit|].
  split; [exact I|]. split; [unfold sane, usable; wf_lit|]. split; [intros _; vm_compute; reflexivity|].
  split; [exact I|]. split; [unfold sane, usable; wf_lit|].
  split; [split; [unfold usable; wf_lit|repeat constructor; vm_compute; discriminate]|].
  split; [|split; exact I].
  unfold sane. intros t E. vm_compute in E. injection E as <-. split; [|vm_compute; split; [discriminate|reflexivity]].
  split; [split; [discriminate|repeat constructor]|split; [reflexivity|split; reflexivity]].
Qed.

(** ** C27: moved-from tensors stay usable *)

(** Move construction leaves the source a valid tensor of one zero, and the
    target with the source's value. *)
Theorem C27_move_construction_partial : forall {T} {S : Scalar T} (fails : Z -> bool) (os : list (op T)) v w t,
  let h := fst (run fails os heap0) in
  let h' := fst (step fails (MoveNew v w) h) in
  survives (snd (run fails os heap0)) -> value h v = None -> value h w = Some t -> fails (h_next h) = false ->
  snd (step fails (MoveNew v w) h) = Ok tt /\ value h' v = Some t /\
  value h' w = Some (t_fill (shape_of [1]) zero) /\ wf (t_fill (shape_of [1]) zero : tensor T).
Proof. exact (fun T S fails os v w t H => move_new_ok fails _ v w t (run_owned fails os H)). Qed.
Print Assumptions C27_move_construction_partial.

(** Move assignment does not: a history without any error ends with a live tensor
    whose size() is 4, whose buffer is empty, and whose copy is undefined. *)
Definition moved_history : list (op Z) := [New 0 [2;2] 5; New 1 [3] 1; MoveAssign 1 0].
Theorem C27_move_assignment_refuted : exists (os : list (op Z)) v t,
  snd (run never os heap0) = Ok tt /\ value (fst (run never os heap0)) v = Some t /\
  ssize (tshape t) = 4 /\ Zlen (tdata t) = 0 /\
  snd (step never (CopyNew 7 v) (fst (run never os heap0))) = UB.
Proof.
  exact (ex_intro _ moved_history (ex_intro _ 0 (ex_intro _ (mkTensor (mkShape [] 4 []) [])
    (conj eq_refl (conj eq_refl (conj eq_refl (conj eq_refl eq_refl))))))).
Qed.
Print Assumptions C27_move_assignment_refuted.

(** The exact state after every move assignment: the target has the source's
    value; the source has no dimensions, no buffer and its old size. *)
Theorem C27_move_assignment_state : forall {T} {S : Scalar T} (fails : Z -> bool) (os : list (op T)) v w s t,
  let h := fst (run fails os heap0) in
  let h' := fst (step fails (MoveAssign v w) h) in
  survives (snd (run fails os heap0)) -> v <> w -> value h v = Some s -> value h w = Some t ->
  snd (step fails (MoveAssign v w) h) = Ok tt /\ value h' v = Some t /\
  exists t', value h' w = Some t' /\ dims (tshape t') = [] /\ ssize (tshape t') = ssize (tshape t) /\ tdata t' = [].
Proof. exact (fun T S fails os v w s t H => move_assign_hollow fails _ v w s t (run_owned fails os H)). Qed.
Print Assumptions C27_move_assignment_state.

(** Copying it, if it was not of size zero, and writing to any element are undefined. *)
Theorem C27_hollow_unusable : forall {T} {S : Scalar T} (fails : Z -> bool) (os : list (op T)) w t,
  let h := fst (run fails os heap0) in
  survives (snd (run fails os heap0)) -> value h w = Some t -> tdata t = [] -> 0 < ssize (tshape t) ->
  (forall i x, snd (step fails (Write w i x) h) = UB) /\
  (forall u, value h u = None -> fails (h_next h) = false -> snd (step fails (CopyNew u w) h) = UB).
Proof. exact @hollow_unusable. Qed.
Print Assumptions C27_hollow_unusable.

Example C27_cases : let h := fst (run never [New 0 [2;2] 5; New 1 [3] 1] heap0) in
  survives (snd (run never [New 0 [2;2] 5; New 1 [3] 1] heap0)) /\ value h 2 = None /\
  value h 0 = Some (mkTensor (shape_of [2;2]) [5;5;5;5]) /\ value h 1 = Some (mkTensor (shape_of [3]) [1;1;1]).
Proof. split; [left; reflexivity|]. vm_compute. auto. Qed.
Example C27_hollow_case : value (fst (run never moved_history heap0)) 0 = Some (mkTensor (mkShape [] 4 []) []).
Proof. reflexivity. Qed.

(** ** C28: copy assignment when memory runs out *)

(** It is not all-or-nothing: a {1} = b {3} with the third allocation failing
    leaves a with three elements' worth of shape over its old one-element buffer;
    copying it is then undefined. *)
Definition third_fails : Z -> bool := fun a => a =? 2.
Theorem C28_all_or_nothing_refuted : exists (os : list (op Z)) v w a t,
  let h := fst (run third_fails os heap0) in
  let h' := fst (step third_fails (CopyAssign v w) h) in
  snd (run third_fails os heap0) = Ok tt /\ value h v = Some a /\ wf a /\
  snd (step third_fails (CopyAssign v w) h) = Throw BadAlloc /\
  value h' v = Some t /\ t <> a /\ ssize (tshape t) = 3 /\ Zlen (tdata t) = 1 /\
  snd (step third_fails (CopyNew 7 v) h') = UB.
Proof. exact assign_not_atomic. Qed.
Print Assumptions C28_all_or_nothing_refuted.

(** What every failed copy assignment a = b leaves: a with b's shape and a's old
    elements; everything else as it was, nothing leaked. *)
Theorem C28_failed_assignment : forall {T} {S : Scalar T} (fails : Z -> bool) (os : list (op T)) v w a b,
  let h := fst (run fails os heap0) in
  let h' := fst (step fails (CopyAssign v w) h) in
  survives (snd (run fails os heap0)) -> v <> w -> value h v = Some a -> value h w = Some b -> fails (h_next h) = true ->
  snd (step fails (CopyAssign v w) h) = Throw BadAlloc /\ owned h' /\
  value h' v = Some (mkTensor (tshape b) (tdata a)) /\ forall u, u <> v -> value h' u = value h u.
Proof. exact (fun T S fails os v w a b H => failed_assign fails _ v w a b (run_owned fails os H)). Qed.
Print Assumptions C28_failed_assignment.

(** It is all-or-nothing when both tensors have the same shape. *)
Theorem C28_same_shape_partial : forall {T} {S : Scalar T} (fails : Z -> bool) (os : list (op T)) v w a b,
  let h := fst (run fails os heap0) in
  let h' := fst (step fails (CopyAssign v w) h) in
  survives (snd (run fails os heap0)) -> v <> w -> value h v = Some a -> value h w = Some b -> fails (h_next h) = true ->
  tshape a = tshape b ->
  snd (step fails (CopyAssign v w) h) = Throw BadAlloc /\ forall u, value h' u = value h u.
Proof. exact @failed_assign_same. Qed.
Print Assumptions C28_same_shape_partial.

(** A failed copy construction changes nothing. *)
Theorem C28_failed_copy_construction : forall {T} {S : Scalar T} (fails : Z -> bool) (os : list (op T)) v w b,
  let h := fst (run fails os heap0) in
  let h' := fst (step fails (CopyNew v w) h) in
  survives (snd (run fails os heap0)) -> value h v = None -> value h w = Some b -> fails (h_next h) = true ->
  snd (step fails (CopyNew v w) h) = Throw BadAlloc /\ owned h' /\ forall u, value h' u = value h u.
Proof. exact (fun T S fails os v w b H => failed_copy fails _ v w b (run_owned fails os H)). Qed.
Print Assumptions C28_failed_copy_construction.

Example C28_cases : let r := run third_fails [New 0 [1] 5; New 1 [1] 1] heap0 in
  survives (snd r) /\ value (fst r) 0 = Some (mkTensor (shape_of [1]) [5]) /\
  value (fst r) 1 = Some (mkTensor (shape_of [1]) [1]) /\ value (fst r) 2 = None /\ third_fails (h_next (fst r)) = true.
Proof. split; [left; reflexivity|]. vm_compute. auto. Qed.
