(** * M_Iter: the iterators of BroadcastView and SliceView as a client uses them *)
From Verif Require Import Base Scalar Types M_Shape M_Tensor.
Local Open Scope Z_scope.

Section Model.
Context {T : Type} {S : Scalar T}.

(** BroadcastView.hpp:143 and SliceView.hpp:151 end(): the constructor (92-97, 101-106) leaves the indices empty. *)
Definition iter_end : iter := ([], true).
(** BroadcastView.hpp:121-127 and SliceView.hpp:134-140 operator!= and operator==. *)
Definition iter_ne (a b : iter) : bool :=
  negb (Bool.eqb (snd a) (snd b)) || (negb (snd a) && negb (if list_eq_dec Z.eq_dec (fst a) (fst b) then true else false)).
Definition iter_eq (a b : iter) : bool := negb (iter_ne a b).
(** SliceView.hpp:112-117 operator*; that of BroadcastView is [bview_deref] (M_Tensor.v). *)
Definition sview_deref (v : sview T) (it : iter) : outcome T :=
  if snd it then Throw OutOfRange else sview_index v (fst it).
(** [k] times operator++ (BroadcastView.hpp:106-119, SliceView.hpp:119-132). *)
Fixpoint advance (s : shape) (k : nat) (it : iter) : iter :=
  match k with O => it | Datatypes.S k' => advance s k' (iter_next s it) end.
(** A client's loop `for (auto x : view) s = f(s, x)`: compare with end(), dereference, run the body, increment. *)
Fixpoint range_for {A} (fuel : nat) (sh : shape) (deref : iter -> outcome T) (f : A -> T -> A) (it : iter) (s : A) : outcome A :=
  if iter_ne it iter_end then
    match fuel with
    | O => Hang
    | Datatypes.S fuel' => x <- deref it ;; range_for fuel' sh deref f (iter_next sh it) (f s x)
    end
  else Ok s.
End Model.
