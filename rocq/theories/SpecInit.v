(** * Vocabulary for C104 and C105: successive draws of the random engine *)
From Verif Require Import Base Scalar Types Spec M_Shape M_Tensor M_Act M_Layers M_Reg M_Net.

Section S.
Context {T : Type} {S : Scalar T} {G : Type} {HR : Rng T G}.

(** The engine after k draws from a normal distribution with deviation [sd], and the number drawn next. *)
Fixpoint engine_after (sd : T) (k : nat) (g : G) : G := match k with O => g | Datatypes.S k => snd (rng_normal sd (engine_after sd k g)) end.
Definition draw (sd : T) (k : nat) (g : G) : T := fst (rng_normal sd (engine_after sd k g)).
(** The deviation used for a tensor of n elements. *)
Definition deviation (n : Z) : T := s_sqrt (s_div (s_z 2) (s_z n)).
(** v if it lies between lo and hi, otherwise the nearer of the two. *)
Definition clamp (lo hi v : T) : T := let w := if s_lt v lo then lo else v in if s_lt hi w then hi else w.
(** The tensor whose elements, in row-major order, are the next draws. *)
Definition drawn (ds : list Z) (lo hi : T) (g : G) : tensor T :=
  tensor_of ds (fun idx => clamp lo hi (draw (deviation (prod ds)) (Z.to_nat (ravel ds idx)) g)).
Definition after_drawn (ds : list Z) (g : G) : G := engine_after (deviation (prod ds)) (Z.to_nat (prod ds)) g.

(** The network cut after some of its layers. *)
Definition cut (n : net T G) (ls : list (layer T)) : net T G := mkNet ls (n_loss n) (n_opt n) (n_rng n).
(** Layers that draw in the forward pass. *)
Definition draws (l : layer T) : bool := match l with LDrop l => dr_train l | _ => false end.
(** Any number of forward passes. *)
Definition forwards (xs : list (tensor T * G)) (l : layer T) : layer T := fold_left (fun l p => fst (fst (layer_forward l (fst p) (snd p)))) xs l.
End S.

Section Fresh.
Context {T : Type} {S : Scalar T} {G : Type} {HR : Rng T G}.
(** Fully connected layers as constructed, each fed by the one before, with ReLU layers anywhere between; [n] is the batch size. *)
Inductive fresh_relu (n : Z) : Z -> list (layer T) -> Prop :=
  | fresh_nil : forall k, fresh_relu n k []
  | fresh_fc : forall k o (g : G) l g' ls, 0 < k -> 0 < o -> k * o <= INT_MAX -> n * o <= INT_MAX -> fc_new k o g = Ok (l, g') -> fresh_relu n o ls -> fresh_relu n k (LFC l :: ls)
  | fresh_act : forall k ls, fresh_relu n k ls -> fresh_relu n k (LAct (act_new ReLU) :: ls).
Definition is_relu (l : layer T) : bool := match l with LAct a => match al_act a with ReLU => true | _ => false end | _ => false end.
End Fresh.
