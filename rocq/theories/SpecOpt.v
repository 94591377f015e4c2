(** * Specification of the optimizers: the update rule of one parameter, and what a history of calls does to it *)
From Verif Require Import Base Scalar Types Spec M_Opt.

Section S.
Context {T : Type} {S : Scalar T}.

(** [D k] are the dimensions of the tensor at address [k]. *)
Definition store_ok (D : Z -> list Z) (st : store T) : Prop := forall k, good (st k) /\ tdims (st k) = D k.
Definition bufs_ok (D : Z -> list Z) (b : bufs T) : Prop := forall k m, b k = Some m -> good m /\ tdims m = D k.
(** Value of a state buffer at one position; a missing buffer counts as zero. *)
Definition buf_el (b : bufs T) (k : Z) (idx : list Z) : T := match b k with Some m => el m idx | None => zero end.

(** A call is (learning-rate override, [(address, gradient); ...]). *)
Definition call : Type := T * list (Z * tensor T).
(** Every gradient has the dimensions of its weight. *)
Definition calls_ok (D : Z -> list Z) (cs : list call) : Prop :=
  Forall (fun c => Forall (fun p => good (snd p) /\ tdims (snd p) = D (fst p)) (snd c)) cs.
(** The gradients given to address [k] by one call, and the (override, gradient) pairs of a history. *)
Definition grads (k : Z) (l : list (Z * tensor T)) : list (tensor T) := map snd (filter (fun p => fst p =? k) l).
Definition updates (k : Z) (cs : list call) : list (T * tensor T) := flat_map (fun c => map (pair (fst c)) (grads k (snd c))) cs.
(** The same with the number of the call, counting from [n]. *)
Fixpoint numbered (n k : Z) (cs : list call) : list (Z * T * tensor T) :=
  match cs with [] => [] | c :: r => map (pair (n, fst c)) (grads k (snd c)) ++ numbered (n + 1) k r end.

(** A positive override replaces the learning rate for that call. *)
Definition rate (lr lro : T) : T := if s_lt zero lro then lro else lr.

(** SGD on (weight, velocity). *)
Definition sgd_rule (mom damp wd : T) (nest : bool) (lr g : T) (p : T * T) : T * T :=
  let (w, v) := p in
  let g1 := if s_eq wd zero then g else s_add g (s_mul wd w) in
  if s_eq mom zero then (s_sub w (s_mul lr g1), v)
  else let v1 := s_add (s_mul mom v) (s_mul (s_sub one damp) g1) in
       (s_sub w (s_mul lr (if nest then s_add g1 (s_mul mom v1) else v1)), v1).

(** RMSProp on (weight, square average, mean, velocity). *)
Definition rms_rule (alpha eps mom : T) (cent : bool) (wd lr g : T) (p : T * T * T * T) : T * T * T * T :=
  let '(w, s, m, v) := p in
  let g1 := if s_eq wd zero then g else s_add g (s_mul wd w) in
  let s1 := s_add (s_mul alpha s) (s_mul (s_mul (s_sub one alpha) g1) g1) in
  let m1 := if cent then s_add (s_mul alpha m) (s_mul (s_sub one alpha) g1) else m in
  let d := s_sqrt (s_add (if cent then s_sub s1 (s_mul m1 m1) else s1) eps) in
  let v1 := if s_lt zero mom then s_add (s_mul mom v) (s_div g1 d) else v in
  (s_sub w (s_mul lr (if s_lt zero mom then v1 else s_div g1 d)), s1, m1, v1).

(** Adam's moments, its learning rate at call [n], and its step. *)
Definition adam_m (b1 : T) (m a : T) : T := s_add (s_mul b1 m) (s_mul (s_sub one b1) a).
Definition adam_v (b2 : T) (v a : T) : T := s_add (s_mul b2 v) (s_mul (s_mul (s_sub one b2) a) a).
Definition adam_lr (lr decay : T) (n : Z) (lro : T) : T :=
  if s_le lro zero then s_mul lr (if s_lt zero decay then s_div one (s_add one (s_mul decay (s_z n))) else one) else lro.
End S.
Arguments call : clear implicits.

(** One Adam update of (weight, m, v) by gradient [g], at learning rate [lr], corrected as after [n] updates and with
    the step multiplied by [scale n]; the textbook step has [scale n = 1] and [n] the number of updates received.
    [s_corr x b n] is x / (1 - b^n). *)
Section A.
Context {T : Type} {S : Scalar T}.
Definition adam_rule (b1 b2 eps l1 l2 : T) (scale : Z -> T -> T) (n : Z) (lr a : T) (p : T * T * T) : T * T * T :=
  let '(w, m, v) := p in
  let m1 := adam_m b1 m a in
  let v1 := adam_v b2 v a in
  let mh := s_corr m1 b1 n in
  let vh := s_corr v1 b2 n in
  let u := s_div (s_mul (scale n lr) mh) (s_add (s_sqrt vh) eps) in
  let u := if s_lt zero l1 then s_add u (s_mul (s_mul lr l1) (if s_lt zero w then one else if s_lt w zero then s_z (-1) else zero)) else u in
  let u := if s_lt zero l2 then s_add u (s_mul (s_mul lr l2) w) else u in
  (s_sub w u, m1, v1).
(** The scaled rate the library uses: lr * sqrt(1 - b2^n) / (1 - b1^n), powers kept above the smallest float. *)
Definition adam_scaled (b1 b2 : T) (n : Z) (lr : T) : T :=
  s_div (s_mul lr (s_sqrt (s_sub one (s_max (s_powi b2 n) tiny)))) (s_sub one (s_max (s_powi b1 n) tiny)).
(** A list with its elements numbered from 1. *)
Definition counted {A} (l : list A) : list (Z * A) := combine (map Z.of_nat (seq 1 (length l))) l.
(** Textbook Adam on (weight, m, v) of one parameter over the history [cs] of a new optimizer: corrected by the number
    of updates the parameter has received, at the learning rate of the call. *)
Definition adam_textbook (lr b1 b2 eps l1 l2 decay : T) (batch : Z) (k : Z) (cs : list (call T)) (idx : list Z) (w : T) : T * T * T :=
  fold_left (fun p e => let '(j, (n, lro, g)) := e in adam_rule b1 b2 eps l1 l2 (fun _ r => r) j (adam_lr lr decay n lro) (s_div (el g idx) (s_z batch)) p)
    (counted (numbered 1 k cs)) (w, zero, zero).
End A.
