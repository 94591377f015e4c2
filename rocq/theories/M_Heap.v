(** * Heap-level model of the life cycle of Tensor / TensorData

    Everywhere else a tensor is a value.  Here its buffer is a heap block: a
    tensor object holds a shape and a [std::unique_ptr<T[]>], which is an address
    or null.  Variables are named by integers.

    Simplifications: only buffer allocations can fail, not those of the small
    vectors inside Shape; a moved-from std::vector is empty; memory from
    [new T[n]] (TensorDataCPU.impl.hpp:62) is zeroed, which is not observable
    because copy_n overwrites all of it. *)
From Verif Require Import Base Scalar Types M_Shape M_Tensor.

(** TensorData.hpp:63-65. *)
Record obj := mkObj { o_shape : shape; o_ptr : option Z }.

(** [h_mem]: the allocated blocks.  [h_next]: the number of allocations attempted
    so far, and the address of the next block.  [h_vars]: the live tensor
    variables.  [h_bad]: a block that was not allocated has been freed. *)
Record heap (T : Type) := mkHeap {
  h_mem  : Z -> option (list T);
  h_next : Z;
  h_vars : Z -> option obj;
  h_bad  : bool
}.
Arguments mkHeap {T}. Arguments h_mem {T}. Arguments h_next {T}. Arguments h_vars {T}. Arguments h_bad {T}.

(** The operations of a history.  [v], [w] are variables. *)
Inductive op (T : Type) :=
| New (v : Z) (ds : list Z) (x : T)           (* Tensor v(Shape(ds), x); also Tensor v(Shape(ds)) with x = T{} *)
| From (v : Z) (ds : list Z) (src : list T)   (* Tensor v(Shape(ds), const T* src) *)
| CopyNew (v w : Z)                           (* Tensor v(w) *)
| MoveNew (v w : Z)                           (* Tensor v(std::move(w)) *)
| CopyAssign (v w : Z)                        (* v = w *)
| MoveAssign (v w : Z)                        (* v = std::move(w) *)
| WriteAt (v : Z) (idx : list Z) (x : T)      (* v.at(idx) = x *)
| Write (v : Z) (i : Z) (x : T)               (* v[i] = x *)
| Reshape (v : Z) (ds : list Z)               (* v.reshape(ds) *)
| Destroy (v : Z).                            (* end of v's scope *)
Arguments New {T}. Arguments From {T}. Arguments CopyNew {T}. Arguments MoveNew {T}. Arguments CopyAssign {T}.
Arguments MoveAssign {T}. Arguments WriteAt {T}. Arguments Write {T}. Arguments Reshape {T}. Arguments Destroy {T}.

Section Heap.
Context {T : Type} {S : Scalar T}.
(** Which allocation attempts fail. *)
Variable fails : Z -> bool.

Definition mset {A} (f : Z -> option A) (k : Z) (x : option A) : Z -> option A :=
  fun k' => if k' =? k then x else f k'.

Definition set_mem (h : heap T) m : heap T := mkHeap m (h_next h) (h_vars h) (h_bad h).
Definition set_var (h : heap T) v o : heap T := mkHeap (h_mem h) (h_next h) (mset (h_vars h) v o) (h_bad h).

(** std::make_unique<T[]>(n) / new T[n]: [None] is std::bad_alloc. *)
Definition alloc (n : Z) (h : heap T) : heap T * option Z :=
  let a := h_next h in
  if fails a then (mkHeap (h_mem h) (a + 1) (h_vars h) (h_bad h), None)
  else (mkHeap (mset (h_mem h) a (Some (zrepeat zero n))) (a + 1) (h_vars h) (h_bad h), Some a).

(** delete[] through a unique_ptr; null is ignored. *)
Definition free (p : option Z) (h : heap T) : heap T :=
  match p with
  | None => h
  | Some a =>
      match h_mem h a with
      | Some _ => set_mem h (mset (h_mem h) a None)
      | None => mkHeap (h_mem h) (h_next h) (h_vars h) true
      end
  end.

(** Memory readable through a pointer; nothing through null. *)
Definition load (p : option Z) (h : heap T) : list T :=
  match p with Some a => match h_mem h a with Some l => l | None => [] end | None => [] end.

(** std::copy_n(src, n, p). *)
Definition copy_n (src : list T) (n : Z) (p : Z) (h : heap T) : heap T * outcome unit :=
  match h_mem h p with
  | Some dst =>
      if (n <=? Zlen src) && (n <=? Zlen dst)
      then (set_mem h (mset (h_mem h) p (Some (firstn (Z.to_nat n) src ++ skipn (Z.to_nat n) dst))), Ok tt)
      else (h, UB)
  | None => (h, UB)
  end.

(** One element through a pointer. *)
Definition store_at (p : option Z) (i : Z) (x : T) (h : heap T) : heap T * outcome unit :=
  match p with
  | Some a =>
      match h_mem h a with
      | Some l => match wr l i x with
                  | Ok l' => (set_mem h (mset (h_mem h) a (Some l')), Ok tt)
                  | _ => (h, UB)
                  end
      | None => (h, UB)
      end
  | None => (h, UB)
  end.

(** Allocate [size] elements, fill them from [src], then construct [v]
    (TensorDataCPU.impl.hpp:17-26,33-36).  [noex]: the constructor is noexcept,
    so a failed allocation ends in std::terminate. *)
Definition construct (noex : bool) (v : Z) (s : shape) (src : list T) (h : heap T) : heap T * outcome unit :=
  let (h1, p) := alloc (ssize s) h in
  match p with
  | None => (h1, if noex then Abort else Throw BadAlloc)
  | Some a =>
      let (h2, r) := copy_n src (ssize s) a h1 in
      match r with
      | Ok _ => (set_var h2 v (Some (mkObj s (Some a))), Ok tt)
      | _ => (h2, r)
      end
  end.

Definition skip (h : heap T) : heap T * outcome unit := (h, Ok tt).

(** One operation.  An operation on a variable that is not live, or constructing
    one that is, is not a C++ program and is skipped. *)
Definition step (o : op T) (h : heap T) : heap T * outcome unit :=
  match o with
  (** Tensor.impl.hpp:8-12, TensorDataCPU.impl.hpp:10-20; std::fill_n(p, n, x) is
      a copy of n elements x. *)
  | New v ds x =>
      match h_vars h v with
      | Some _ => skip h
      | None => match new_shape ds with
                | Ok s => construct true v s (zrepeat x (ssize s)) h
                | Throw e => (h, Throw e)
                | Abort => (h, Abort) | UB => (h, UB) | Hang => (h, Hang)
                end
      end
  (** Tensor.impl.hpp:14-15, TensorDataCPU.impl.hpp:22-26. *)
  | From v ds src =>
      match h_vars h v with
      | Some _ => skip h
      | None => match new_shape ds with
                | Ok s => construct false v s src h
                | Throw e => (h, Throw e)
                | Abort => (h, Abort) | UB => (h, UB) | Hang => (h, Hang)
                end
      end
  (** Tensor.impl.hpp:23-24, TensorDataCPU.impl.hpp:32-36. *)
  | CopyNew v w =>
      match h_vars h v, h_vars h w with
      | None, Some ow => construct false v (o_shape ow) (load (o_ptr ow) h) h
      | _, _ => skip h
      end
  (** Tensor.impl.hpp:26-29 (TensorData.hpp:30, Shape.hpp:15-16): take the shape and
      the pointer, then [other.data_ = TensorData(Shape({1}))]. *)
  | MoveNew v w =>
      match h_vars h v, h_vars h w with
      | None, Some ow =>
          let h1 := set_var (set_var h v (Some ow)) w (Some (mkObj (moved_shape (o_shape ow)) None)) in
          let (h2, p) := alloc 1 h1 in
          match p, new_shape [1] with
          | Some a, Ok s1 => (set_var h2 w (Some (mkObj s1 (Some a))), Ok tt)
          | _, _ => (h2, Abort)
          end
      | _, _ => skip h
      end
  (** Tensor.impl.hpp:40-46, TensorDataCPU.impl.hpp:58-66: the shape first, then
      [data_.reset(new T[size])] (the old block is freed), then the copy. *)
  | CopyAssign v w =>
      match h_vars h v, h_vars h w with
      | Some ov, Some ow =>
          if v =? w then skip h
          else
            let s := o_shape ow in
            let h1 := set_var h v (Some (mkObj s (o_ptr ov))) in
            let (h2, p) := alloc (ssize s) h1 in
            match p with
            | None => (h2, Throw BadAlloc)
            | Some a =>
                let h3 := free (o_ptr ov) (set_var h2 v (Some (mkObj s (Some a)))) in
                copy_n (load (o_ptr ow) h3) (ssize s) a h3
            end
      | _, _ => skip h
      end
  (** Tensor.hpp:31 (defaulted), TensorData.hpp:32 (defaulted), Shape.hpp:60-67,
      unique_ptr move assignment: the old block is freed.  Self-move is harmless. *)
  | MoveAssign v w =>
      match h_vars h v, h_vars h w with
      | Some ov, Some ow =>
          if v =? w then skip h
          else
            let h1 := set_var (set_var h w (Some (mkObj (moved_shape (o_shape ow)) None))) v (Some ow) in
            (free (o_ptr ov) h1, Ok tt)
      | _, _ => skip h
      end
  (** TensorDataCPU.impl.hpp:88-96. *)
  | WriteAt v idx x =>
      match h_vars h v with
      | None => skip h
      | Some ov => match compute_flat_index (o_shape ov) idx with
                   | Ok k => store_at (o_ptr ov) k x h
                   | Throw e => (h, Throw e)
                   | Abort => (h, Abort) | UB => (h, UB) | Hang => (h, Hang)
                   end
      end
  (** TensorDataCPU.impl.hpp:78-81. *)
  | Write v i x =>
      match h_vars h v with
      | None => skip h
      | Some ov => store_at (o_ptr ov) i x h
      end
  (** TensorData.hpp:53-54, Shape.hpp:73-91. *)
  | Reshape v ds =>
      match h_vars h v with
      | None => skip h
      | Some ov => match shape_reshape (o_shape ov) ds with
                   | Ok s => (set_var h v (Some (mkObj s (o_ptr ov))), Ok tt)
                   | Throw e => (h, Throw e)
                   | Abort => (h, Abort) | UB => (h, UB) | Hang => (h, Hang)
                   end
      end
  (** Tensor.hpp:27, TensorData.hpp:36: unique_ptr's destructor. *)
  | Destroy v =>
      match h_vars h v with
      | None => skip h
      | Some ov => (free (o_ptr ov) (set_var h v None), Ok tt)
      end
  end.

(** A history: exceptions are caught by the caller, who goes on; anything worse
    ends the program. *)
Fixpoint run (os : list (op T)) (h : heap T) : heap T * outcome unit :=
  match os with
  | [] => (h, Ok tt)
  | o :: os' =>
      let (h', r) := step o h in
      match r with
      | Ok _ | Throw _ => run os' h'
      | _ => (h', r)
      end
  end.

(** Before anything happens. *)
Definition heap0 : heap T := mkHeap (fun _ => None) 0 (fun _ => None) false.

End Heap.
