(** * SpecPar: complete executions, data races, arrays *)
From Verif Require Import Base Scalar Types M_Par.

Section S.
Context {V : Type}.

Definition finished (ps : list (prog V)) : Prop := Forall (eq Done) ps.
(** [m'] is the memory at the end of some execution of all iterations. *)
Definition final (ps : list (prog V)) (m m' : mem V) : Prop := exists ps', psteps (m, ps) (m', ps') /\ finished ps'.

(** The cell a program accesses next, and whether it writes it. *)
Definition next (p : prog V) : option (Z * Z * bool) :=
  match p with Done => None | Rd a i _ => Some (a, i, false) | Wr a i _ _ => Some (a, i, true) end.
(** Two iterations are about to access the same cell, at least one writing it. *)
Definition race (ps : list (prog V)) : Prop :=
  exists q q' p p' a i w w', q <> q' /\ nth_error ps q = Some p /\ nth_error ps q' = Some p' /\
    next p = Some (a, i, w) /\ next p' = Some (a, i, w') /\ (w || w' = true).
Definition race_free (ps : list (prog V)) (m : mem V) : Prop := forall c, psteps (m, ps) c -> ~ race (snd c).

(** Array [a] holds the list [l]. *)
Definition holds (m : mem V) (a : Z) (l : list V) : Prop := forall d i, 0 <= i < Zlen l -> m a i = znth d l i.

(** Every schedule finishes, without data races, in the memory of the sequential loop. *)
Definition schedule_independent (ps : list (prog V)) (m : mem V) : Prop :=
  race_free ps m /\
  well_founded (fun c c' : mem V * list (prog V) => pstep c' c) /\
  (exists m', final ps m m') /\
  forall m', final ps m m' -> forall a i, m' a i = exec_all ps m a i.
End S.

(** A schedule: which iteration moves next. *)
Fixpoint run_sched {V} (sched : list nat) (c : mem V * list (prog V)) : mem V * list (prog V) :=
  match sched with
  | [] => c
  | q :: r => run_sched r
      match nth_error (snd c) q with
      | Some (Rd a i k) => (fst c, upd (snd c) q (k (fst c a i)))
      | Some (Wr a i x k) => (mput (fst c) a i x, upd (snd c) q k)
      | _ => c
      end
  end.

(** The axes 0 .. r-1 with [i] and [j] exchanged. *)
Definition axes_swapped (r i j : Z) : list Z := map (fun d => if d =? i then j else if d =? j then i else d) (zrange 0 r).
