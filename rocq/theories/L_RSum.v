(** * Finite sums of reals *)
From Coq Require Import Reals Lra Permutation.
From Verif Require Import Base Scalar ScalarR Types Spec SpecR.
Local Open Scope R_scope.


Lemma fold_Rsum : forall l a, fold_left Rplus l a = a + Rsum l.
Proof. induction l as [|x l IH]; intros a; simpl; [ring|]. rewrite IH. ring. Qed.
Lemma fsum_R : forall l : list R, fsum l = Rsum l.
Proof. intros. unfold fsum. simpl. rewrite fold_Rsum. lra. Qed.
Lemma sum_to_R : forall n (f : Z -> R), sum_to n f = rsum (zrange 0 n) f.
Proof. intros. apply fsum_R. Qed.

Section A.
Context {A : Type}.
Implicit Types (l : list A) (f g : A -> R).
Lemma rsum_nil : forall f, rsum [] f = 0. Proof. reflexivity. Qed.
Lemma rsum_cons : forall x l f, rsum (x :: l) f = f x + rsum l f. Proof. reflexivity. Qed.
Lemma rsum_ext : forall l f g, (forall x, In x l -> f x = g x) -> rsum l f = rsum l g.
Proof. intros. unfold rsum. f_equal. apply map_ext_in. auto. Qed.
Lemma rsum_app : forall l l' f, rsum (l ++ l') f = rsum l f + rsum l' f.
Proof. induction l as [|x l IH]; intros; [simpl; rewrite rsum_nil; ring|]. simpl. rewrite !rsum_cons, IH. ring. Qed.
Lemma rsum_perm : forall l l' f, Permutation l l' -> rsum l f = rsum l' f.
Proof. intros l l' f H. induction H; rewrite ?rsum_cons; try lra. Qed.
Lemma rsum_plus : forall l f g, rsum l (fun x => f x + g x) = rsum l f + rsum l g.
Proof. induction l as [|x l IH]; intros; rewrite ?rsum_nil, ?rsum_cons, ?IH; ring. Qed.
Lemma rsum_minus : forall l f g, rsum l (fun x => f x - g x) = rsum l f - rsum l g.
Proof. induction l as [|x l IH]; intros; rewrite ?rsum_nil, ?rsum_cons, ?IH; ring. Qed.
Lemma rsum_scal_l : forall l c f, rsum l (fun x => c * f x) = c * rsum l f.
Proof. induction l as [|x l IH]; intros; rewrite ?rsum_nil, ?rsum_cons, ?IH; ring. Qed.
Lemma rsum_scal_r : forall l c f, rsum l (fun x => f x * c) = rsum l f * c.
Proof. induction l as [|x l IH]; intros; rewrite ?rsum_nil, ?rsum_cons, ?IH; ring. Qed.
Lemma rsum_opp : forall l f, rsum l (fun x => - f x) = - rsum l f.
Proof. induction l as [|x l IH]; intros; rewrite ?rsum_nil, ?rsum_cons, ?IH; ring. Qed.
Lemma rsum_const : forall l c, rsum l (fun _ => c) = IZR (Zlen l) * c.
Proof.
  induction l as [|x l IH]; intros; [rewrite rsum_nil; unfold Zlen; simpl; ring|].
  rewrite rsum_cons, IH, Zlen_cons, plus_IZR. ring.
Qed.
Lemma rsum_zero : forall l f, (forall x, In x l -> f x = 0) -> rsum l f = 0.
Proof.
  induction l as [|x l IH]; intros f H; [reflexivity|]. rewrite rsum_cons, IH, (H x); [ring|left; auto|intros; apply H; right; auto].
Qed.
Lemma rsum_nonneg : forall l f, (forall x, In x l -> 0 <= f x) -> 0 <= rsum l f.
Proof.
  induction l as [|x l IH]; intros f H; [rewrite rsum_nil; lra|]. rewrite rsum_cons.
  pose proof (H x (or_introl eq_refl)). assert (0 <= rsum l f) by (apply IH; intros; apply H; right; auto). lra.
Qed.
Lemma rsum_zero_inv : forall l f, (forall x, In x l -> 0 <= f x) -> rsum l f = 0 -> forall x, In x l -> f x = 0.
Proof.
  induction l as [|y l IH]; intros f H E x HI; [destruct HI|]. rewrite rsum_cons in E.
  pose proof (H y (or_introl eq_refl)). assert (0 <= rsum l f) by (apply rsum_nonneg; intros; apply H; right; auto).
  destruct HI as [->|HI]; [lra|]. apply IH; auto; [intros; apply H; right; auto|lra].
Qed.
Lemma rsum_le : forall l f g, (forall x, In x l -> f x <= g x) -> rsum l f <= rsum l g.
Proof.
  induction l as [|x l IH]; intros f g H; [rewrite !rsum_nil; lra|]. rewrite !rsum_cons.
  pose proof (H x (or_introl eq_refl)). assert (rsum l f <= rsum l g) by (apply IH; intros; apply H; right; auto). lra.
Qed.
Lemma rsum_pos : forall l f, l <> [] -> (forall x, In x l -> 0 < f x) -> 0 < rsum l f.
Proof.
  intros [|x l] f HN H; [congruence|]. rewrite rsum_cons. pose proof (H x (or_introl eq_refl)).
  assert (0 <= rsum l f) by (apply rsum_nonneg; intros; left; apply H; right; auto). lra.
Qed.
Lemma rsum_single : forall l f a, NoDup l -> In a l -> (forall x, In x l -> x <> a -> f x = 0) -> rsum l f = f a.
Proof.
  induction l as [|x l IH]; intros f a HN HI HZ; [destruct HI|]. inversion HN as [|? ? HX HN']; subst. rewrite rsum_cons.
  destruct HI as [->|HI].
  - rewrite rsum_zero; [ring|]. intros y HY. apply HZ; [right; auto|]. intros ->; contradiction.
  - rewrite (IH f a); auto.
    + rewrite (HZ x); [ring|left; auto|]. intros ->; contradiction.
    + intros; apply HZ; auto. right; auto.
Qed.
End A.
Lemma rsum_map : forall {A B} (g : A -> B) (l : list A) (f : B -> R), rsum (map g l) f = rsum l (fun x => f (g x)).
Proof. intros. unfold rsum. rewrite map_map. reflexivity. Qed.
Lemma rsum_swap : forall {A B} (l : list A) (l' : list B) (f : A -> B -> R),
  rsum l (fun x => rsum l' (f x)) = rsum l' (fun y => rsum l (fun x => f x y)).
Proof.
  intros A B l l' f. induction l as [|x l IH].
  - rewrite rsum_nil. symmetry. apply rsum_zero. intros. apply rsum_nil.
  - rewrite rsum_cons, IH. rewrite <- rsum_plus. apply rsum_ext. intros. rewrite rsum_cons. reflexivity.
Qed.
Lemma rsum_flat_map : forall {A B} (l : list A) (g : A -> list B) (f : B -> R),
  rsum (flat_map g l) f = rsum l (fun x => rsum (g x) f).
Proof. intros A B l g f. induction l as [|x l IH]; simpl; [reflexivity|]. rewrite rsum_app, rsum_cons, IH. reflexivity. Qed.
Lemma rsum_filter : forall {A} (l : list A) (p : A -> bool) (f : A -> R),
  rsum (filter p l) f = rsum l (fun x => if p x then f x else 0).
Proof. intros A l p f. induction l as [|x l IH]; simpl; [reflexivity|]. rewrite rsum_cons. destruct (p x); rewrite ?rsum_cons, IH; ring. Qed.
