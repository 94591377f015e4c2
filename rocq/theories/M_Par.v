(** * Model of the parallel loops (#pragma omp parallel for)

    The shared memory is a family of arrays.  One loop iteration is a program
    that reads and writes single cells; everything else it does is local.  An
    execution interleaves the iterations' accesses in any order.  Giving every
    iteration its own thread allows at least the interleavings of any assignment
    of iterations to threads. *)
From Verif Require Import Base Scalar Types M_Shape M_Tensor M_Adv M_Opt.

Inductive prog (V : Type) :=
| Done
| Rd (a i : Z) (k : V -> prog V)      (* read cell i of array a *)
| Wr (a i : Z) (x : V) (k : prog V).  (* write it *)
Arguments Done {V}. Arguments Rd {V}. Arguments Wr {V}.

Section Par.
Context {V : Type}.
Definition mem := Z -> Z -> V.
Definition mput (m : mem) (a i : Z) (x : V) : mem := fun a' i' => if (a' =? a) && (i' =? i) then x else m a' i'.

(** One iteration on its own, and the sequential loop. *)
Fixpoint exec (p : prog V) (m : mem) : mem :=
  match p with
  | Done => m
  | Rd a i k => exec (k (m a i)) m
  | Wr a i x k => exec k (mput m a i x)
  end.
Fixpoint exec_all (ps : list (prog V)) (m : mem) : mem :=
  match ps with [] => m | p :: ps' => exec_all ps' (exec p m) end.

(** One access by iteration [q]. *)
Inductive pstep : mem * list (prog V) -> mem * list (prog V) -> Prop :=
| step_rd : forall m ps q a i k, nth_error ps q = Some (Rd a i k) -> pstep (m, ps) (m, upd ps q (k (m a i)))
| step_wr : forall m ps q a i x k, nth_error ps q = Some (Wr a i x k) -> pstep (m, ps) (mput m a i x, upd ps q k).
Inductive psteps : mem * list (prog V) -> mem * list (prog V) -> Prop :=
| ps_refl : forall c, psteps c c
| ps_step : forall c c' c'', psteps c c' -> pstep c' c'' -> psteps c c''.
End Par.
Arguments mem : clear implicits.

(** ** The loops.  Arrays are numbered per loop. *)
Section Loops.
Context {T : Type} {S : Scalar T}.

(** AdvancedTensorOperations.hpp:40-43.  0: aData, 1: bData, 2: resultData. *)
Definition pair_iter (f : T -> T -> T) (i : Z) : prog T :=
  Rd 0 i (fun x => Rd 1 i (fun y => Wr 2 i (f x y) Done)).
Definition pair_loop (f : T -> T -> T) (size : Z) : list (prog T) := map (pair_iter f) (zrange 0 size).

(** sum += aData[x] * bData[y] over a list of index pairs. *)
Fixpoint dot_prog (l : list (Z * Z)) (sum : T) (fin : T -> prog T) : prog T :=
  match l with
  | [] => fin sum
  | (x, y) :: l' => Rd 0 x (fun u => Rd 1 y (fun v => dot_prog l' (s_add sum (s_mul u v)) fin))
  end.
(** Lines 354-362, same arrays.  The simd reduction is taken in order. *)
Definition vec_iter (n i : Z) : prog T :=
  dot_prog (map (fun j => (i * n + j, j)) (zrange 0 n)) zero (fun sum => Wr 2 i sum Done).
Definition vec_loop (m n : Z) : list (prog T) := map (vec_iter n) (zrange 0 m).
(** Lines 395-404; collapse(2) makes every pair (i, j) one iteration. *)
Definition mat_iter (k n i j : Z) : prog T :=
  dot_prog (map (fun p => (i * k + p, p * n + j)) (zrange 0 k)) zero (fun sum => Wr 2 (i * n + j) sum Done).
Definition mat_loop (m k n : Z) : list (prog T) :=
  flat_map (fun i => map (fun j => mat_iter k n i j) (zrange 0 n)) (zrange 0 m).

(** AdamOptimizer.hpp:89-92,102-128.  0: weightData, 1: gradientData, 2: mData, 3: vData. *)
Definition adam_iter (o : adam T) (alpha : T) (j : Z) : prog T :=
  Rd 1 j (fun g =>
  let avg := s_div g (s_z (ad_batch o)) in
  Rd 2 j (fun m => Wr 2 j (s_add (s_mul (ad_b1 o) m) (s_mul (s_sub one (ad_b1 o)) avg))
  (Rd 3 j (fun v => Wr 3 j (s_add (s_mul (ad_b2 o) v) (s_mul (s_mul (s_sub one (ad_b2 o)) avg) avg))
  (Rd 2 j (fun m => Rd 3 j (fun v => Rd 0 j (fun w =>
  let mh := s_corr m (ad_b1 o) (ad_it o) in
  let vh := s_corr v (ad_b2 o) (ad_it o) in
  let u := s_div (s_mul alpha mh) (s_add (s_sqrt vh) (ad_eps o)) in
  let u := if s_lt zero (ad_l1 o) then
             s_add u (s_mul (s_mul (ad_lr o) (ad_l1 o)) (if s_lt zero w then one else if s_lt w zero then s_z (-1) else zero))
           else u in
  let u := if s_lt zero (ad_l2 o) then s_add u (s_mul (s_mul (ad_lr o) (ad_l2 o)) w) else u in
  Wr 0 j (s_sub w u) Done)))))))).
Definition adam_par (o : adam T) (alpha : T) (size : Z) : list (prog T) := map (adam_iter o alpha) (zrange 0 size).
End Loops.

(** AdvancedTensorOperations.hpp:222-241.  oldIndices and newIndices are declared
    outside the loop and therefore shared by all threads.  0: tensor, 1: result,
    2: oldIndices, 3: newIndices.  Cells hold elements or indices.  Simplification:
    an index out of range ends the iteration (in the source at() throws and the
    program is terminated). *)
Inductive cell (T : Type) := Elem (x : T) | Index (i : Z).
Arguments Elem {T}. Arguments Index {T}.
Section Transpose.
Context {T : Type}.
(** Lines 226-232, from the last dimension to the first. *)
Fixpoint put_old (rds : list Z) (temp : Z) (k : prog (cell T)) : prog (cell T) :=
  match rds with
  | [] => k
  | d :: r => Wr 2 (Zlen r) (Index (temp mod d)) (put_old r (temp / d) k)
  end.
(** Lines 235-237 *)
Fixpoint put_new (perm : list Z) (d : Z) (k : prog (cell T)) : prog (cell T) :=
  match perm with
  | [] => k
  | o :: r => Rd 2 o (fun x => Wr 3 d x (put_new r (d + 1) k))
  end.
(** The indices stored in array [a]. *)
Fixpoint get_idx (a : Z) (ds : list Z) (acc : list Z) (k : list Z -> prog (cell T)) : prog (cell T) :=
  match ds with
  | [] => k acc
  | d :: r => Rd a d (fun x => match x with Index i => get_idx a r (acc ++ [i]) k | Elem _ => Done end)
  end.
(** Line 240: the right operand first (C++17). *)
Definition transpose_iter (s s' : shape) (perm : list Z) (i : Z) : prog (cell T) :=
  put_old (rev (dims s)) i (put_new perm 0
    (get_idx 2 (zrange 0 (rank s)) [] (fun old =>
       match compute_flat_index s old with
       | Ok from => Rd 0 from (fun x => get_idx 3 (zrange 0 (rank s)) [] (fun new =>
                      match compute_flat_index s' new with
                      | Ok to => Wr 1 to x Done
                      | _ => Done
                      end))
       | _ => Done
       end))).
Definition transpose_loop (s s' : shape) (perm : list Z) : list (prog (cell T)) :=
  map (transpose_iter s s' perm) (zrange 0 (ssize s)).
End Transpose.

(** TensorOperations.hpp:305-308, RandomEngine.hpp:37-42: the engine is one static
    object.  0: the engine, 1: the result. *)
Inductive rcell (T G : Type) := Engine (g : G) | Value (x : T).
Arguments Engine {T G}. Arguments Value {T G}.
Section Random.
Context {T G : Type}.
Definition rand_iter (draw : G -> T * G) (i : Z) : prog (rcell T G) :=
  Rd 0 0 (fun c => match c with
                   | Engine g => Wr 0 0 (Engine (snd (draw g))) (Wr 1 i (Value (fst (draw g))) Done)
                   | Value _ => Done
                   end).
Definition rand_loop (draw : G -> T * G) (size : Z) : list (prog (rcell T G)) := map (rand_iter draw) (zrange 0 size).
End Random.
