(** * SpecHeap: ownership, and the value semantics of tensor variables *)
From Verif Require Import Base Scalar Types Spec M_Shape M_Tensor M_Heap.

Section S.
Context {T : Type} {S : Scalar T}.

(** [v] is a live variable owning block [a]. *)
Definition owns (h : heap T) (v a : Z) : Prop := exists o, h_vars h v = Some o /\ o_ptr o = Some a.

(** Every owned block is allocated, no block has two owners, every allocated
    block has an owner (nothing is leaked), nothing has been freed that was not
    allocated, and new addresses are new. *)
Definition owned (h : heap T) : Prop :=
  (forall v a, owns h v a -> h_mem h a <> None) /\
  (forall v w a, owns h v a -> owns h w a -> v = w) /\
  (forall a, h_mem h a <> None -> exists v, owns h v a) /\
  h_bad h = false /\
  (forall a, h_mem h a <> None -> a < h_next h).

(** The value of a variable: its shape and the contents of its block, a null
    pointer being an empty buffer. *)
Definition value (h : heap T) (v : Z) : option (tensor T) :=
  match h_vars h v with
  | None => None
  | Some o => Some (mkTensor (o_shape o) (load (o_ptr o) h))
  end.

(** ** Value semantics: variables hold tensors, there is no heap. *)
Definition vars := Z -> option (tensor T).
Definition vset (V : vars) (v : Z) (x : option (tensor T)) : vars := fun v' => if v' =? v then x else V v'.

(** [v] becomes the tensor computed by [m]; when that fails nothing changes. *)
Definition vput (V : vars) (v : Z) (m : outcome (tensor T)) : vars * outcome unit :=
  match m with
  | Ok t => (vset V v (Some t), Ok tt)
  | Throw e => (V, Throw e)
  | Abort => (V, Abort) | UB => (V, UB) | Hang => (V, Hang)
  end.
Definition when {A} (ok : bool) (e m : outcome A) : outcome A := if ok then m else e.

(** [ok]: memory is available if the operation needs some. *)
Definition vstep (ok : bool) (o : op T) (V : vars) : vars * outcome unit :=
  match o with
  | New v ds x =>
      match V v with Some _ => (V, Ok tt) | None => vput V v (s <- new_shape ds ;; when ok Abort (Ok (t_fill s x))) end
  | From v ds src =>
      match V v with Some _ => (V, Ok tt) | None => vput V v (s <- new_shape ds ;; when ok (Throw BadAlloc) (t_from_ptr s src)) end
  | CopyNew v w =>
      match V v, V w with None, Some t => vput V v (when ok (Throw BadAlloc) (t_copy t)) | _, _ => (V, Ok tt) end
  | MoveNew v w =>
      match V v, V w with
      | None, Some t => if ok then (vset (vset V v (Some t)) w (Some (t_fill (shape_of [1]) zero)), Ok tt)
                        else (vset (vset V v (Some t)) w (Some (mkTensor (moved_shape (tshape t)) [])), Abort)
      | _, _ => (V, Ok tt)
      end
  | CopyAssign v w =>
      match V v, V w with
      | Some a, Some b =>
          if v =? w then (V, Ok tt)
          else if ok then vput V v (t_copy b)
          else (vset V v (Some (mkTensor (tshape b) (tdata a))), Throw BadAlloc)
      | _, _ => (V, Ok tt)
      end
  | MoveAssign v w =>
      match V v, V w with
      | Some _, Some b =>
          if v =? w then (V, Ok tt)
          else (vset (vset V w (Some (mkTensor (moved_shape (tshape b)) []))) v (Some b), Ok tt)
      | _, _ => (V, Ok tt)
      end
  | WriteAt v idx x => match V v with Some t => vput V v (t_at_set t idx x) | None => (V, Ok tt) end
  | Write v i x => match V v with Some t => vput V v (t_set t i x) | None => (V, Ok tt) end
  | Reshape v ds => match V v with Some t => vput V v (t_reshape t ds) | None => (V, Ok tt) end
  | Destroy v => (vset V v None, Ok tt)
  end.

(** The variables an operation may change. *)
Definition touches (o : op T) (v : Z) : Prop :=
  match o with
  | New u _ _ | From u _ _ | CopyNew u _ | CopyAssign u _ | WriteAt u _ _ | Write u _ _ | Reshape u _ | Destroy u => v = u
  | MoveNew u w | MoveAssign u w => v = u \/ v = w
  end.

(** The program goes on after this outcome. *)
Definition survives (r : outcome unit) : Prop := r = Ok tt \/ exists e, r = Throw e.

(** A tensor that has been moved from by assignment: stale size, no dimensions, no buffer. *)
Definition hollow (t : tensor T) : Prop := dims (tshape t) = [] /\ tdata t = [].

(** A history under value semantics; the booleans say for each operation whether
    memory is available to it. *)
Fixpoint vrun (oks : list bool) (os : list (op T)) (V : vars) : vars * outcome unit :=
  match os, oks with
  | o :: os', ok :: oks' =>
      let (V', r) := vstep ok o V in
      match r with
      | Ok _ | Throw _ => vrun oks' os' V'
      | _ => (V', r)
      end
  | _, _ => (V, Ok tt)
  end.
Definition no_vars : vars := fun _ => None.

(** ** Correct use
    Sizes fit in size_t, pointers passed in point to enough elements, unchecked
    indexing stays in bounds, and a variable that was the source of a move
    assignment is only destroyed, assigned to or moved again. *)
Definition usable (V : vars) (v : Z) : Prop := forall t, V v = Some t -> wf t.
Definition sane (o : op T) (V : vars) : Prop :=
  match o with
  | New _ ds _ => pos_dims ds -> prod ds < two64
  | From _ ds src => pos_dims ds -> prod ds < two64 /\ prod ds <= Zlen src
  | CopyNew _ w => usable V w
  | CopyAssign _ w => usable V w
  | WriteAt v _ _ => usable V v
  | Reshape v ds => usable V v /\ Forall is_int ds
  | Write v i _ => forall t, V v = Some t -> wf t /\ 0 <= i < Zlen (tdata t)
  | MoveNew _ _ | MoveAssign _ _ | Destroy _ => True
  end.
Fixpoint sane_history (os : list (op T)) (V : vars) : Prop :=
  match os with
  | [] => True
  | o :: os' => sane o V /\ sane_history os' (fst (vstep true o V))
  end.
(** Every variable is a consistent tensor or has been moved from. *)
Definition valid (V : vars) : Prop := forall v t, V v = Some t -> wf t \/ hollow t.

End S.
