(** * Base: outcomes, checked memory, loops, fixed-width integers.

    Shared vocabulary of the model.  Nothing here is specific to SmartDNN. *)
From Coq Require FinFun.
From Coq Require Export ZArith List Bool Lia ZifyBool.
Export ListNotations.
#[global] Open Scope Z_scope.
#[global] Open Scope list_scope.
#[global] Arguments Z.mul : simpl never.
#[global] Arguments Z.add : simpl never.
#[global] Arguments Z.sub : simpl never.
#[global] Arguments Z.opp : simpl never.
#[global] Arguments Z.div : simpl never.
#[global] Arguments Z.modulo : simpl never.
#[global] Arguments Z.max : simpl never.
#[global] Arguments Z.min : simpl never.
#[global] Arguments Z.ltb : simpl never.
#[global] Arguments Z.leb : simpl never.
#[global] Arguments Z.eqb : simpl never.
#[global] Arguments Z.of_nat : simpl never.
#[global] Arguments Z.to_nat : simpl never.

(** ** Outcomes *)

(** Exception classes of the C++ standard library used by /repo. *)
Inductive exn :=
| InvalidArgument   (* std::invalid_argument *)
| RuntimeError      (* std::runtime_error *)
| OutOfRange        (* std::out_of_range *)
| OverflowError     (* std::overflow_error *)
| BadAlloc          (* std::bad_alloc *)
| LengthError.      (* std::length_error *)

(** Result of executing a piece of C++.
    [Abort]: a failed [assert].  [UB]: undefined behaviour.
    [Hang]: a loop ran out of its (generous) fuel. *)
Inductive outcome (A : Type) :=
| Ok (a : A)
| Throw (e : exn)
| Abort
| UB
| Hang.
Arguments Ok {A} a.
Arguments Throw {A} e.
Arguments Abort {A}.
Arguments UB {A}.
Arguments Hang {A}.

Definition bind {A B} (m : outcome A) (k : A -> outcome B) : outcome B :=
  match m with
  | Ok a => k a
  | Throw e => Throw e
  | Abort => Abort
  | UB => UB
  | Hang => Hang
  end.

Declare Scope out_scope.
Delimit Scope out_scope with out.
Notation "x <- m ;; k" := (bind m (fun x => k))
  (at level 61, m at next level, right associativity) : out_scope.
Notation "' p <- m ;; k" := (bind m (fun p => k))
  (at level 61, p pattern, m at next level, right associativity) : out_scope.
Notation "m ;;; k" := (bind m (fun _ => k))
  (at level 61, right associativity) : out_scope.
#[global] Open Scope out_scope.

Definition omap {A B} (f : A -> B) (m : outcome A) : outcome B :=
  bind m (fun a => Ok (f a)).

(** Retype a failed outcome. *)
Definition is_ok {A} (m : outcome A) : bool :=
  match m with Ok _ => true | _ => false end.

Definition throws {A} (m : outcome A) : Prop := exists e, m = Throw e.

(** ** Fixed-width integers *)
Definition two32 : Z := 4294967296.
Definition two64 : Z := 18446744073709551616.
Definition INT_MAX : Z := 2147483647.
Definition INT_MIN : Z := -2147483648.
(** [static_cast<size_t>] and unsigned arithmetic: reduction modulo 2^64. *)
Definition u64 (z : Z) : Z := z mod two64.
(** Conversion to [int]: two's complement reduction modulo 2^32. *)
Definition i32 (z : Z) : Z := (z + 2147483648) mod two32 - 2147483648.
(** Signed [int] arithmetic: overflow is undefined behaviour. *)
Definition chk32 (z : Z) : outcome Z :=
  if (INT_MIN <=? z) && (z <=? INT_MAX) then Ok z else UB.

(** ** Lists as buffers *)
Definition Zlen {A} (l : list A) : Z := Z.of_nat (length l).

(** Unchecked C++ subscript: reading outside the buffer is [UB]. *)
Definition rd {A} (l : list A) (i : Z) : outcome A :=
  if i <? 0 then UB
  else match nth_error l (Z.to_nat i) with Some a => Ok a | None => UB end.

Fixpoint upd {A} (l : list A) (i : nat) (v : A) : list A :=
  match l, i with
  | [], _ => []
  | _ :: l', O => v :: l'
  | x :: l', S i' => x :: upd l' i' v
  end.

(** Unchecked C++ subscript assignment. *)
Definition wr {A} (l : list A) (i : Z) (v : A) : outcome (list A) :=
  if (0 <=? i) && (i <? Zlen l) then Ok (upd l (Z.to_nat i) v) else UB.

(** Buffer of [n] copies (fill constructors). *)
Definition zrepeat {A} (v : A) (n : Z) : list A := repeat v (Z.to_nat n).

(** [zrange lo hi] = lo, lo+1, ..., hi-1. *)
Definition zrange (lo hi : Z) : list Z :=
  map (fun k => lo + Z.of_nat k) (seq 0 (Z.to_nat (hi - lo))).

(** Table of a function on 0..n-1. *)
Definition ztab {A} (n : Z) (f : Z -> A) : list A := map f (zrange 0 n).

(** ** Loops *)
Fixpoint foldM {A S} (f : A -> S -> outcome S) (l : list A) (s : S) : outcome S :=
  match l with
  | [] => Ok s
  | a :: l' => s' <- f a s ;; foldM f l' s'
  end.

(** [for (k = lo; k < hi; ++k) body]. *)
Definition for_ {S} (lo hi : Z) (body : Z -> S -> outcome S) (s : S) : outcome S :=
  foldM body (zrange lo hi) s.

Fixpoint mapM {A B} (f : A -> outcome B) (l : list A) : outcome (list B) :=
  match l with
  | [] => Ok []
  | a :: l' => b <- f a ;; bs <- mapM f l' ;; Ok (b :: bs)
  end.

(** ** Characterising lemmas *)

Lemma bind_ok : forall {A B} (a : A) (k : A -> outcome B), bind (Ok a) k = k a.
Proof. reflexivity. Qed.

Lemma bind_ok_inv : forall {A B} (m : outcome A) (k : A -> outcome B) b,
  bind m k = Ok b -> exists a, m = Ok a /\ k a = Ok b.
Proof. intros A B [a|e| | |] k b H; simpl in H; try discriminate; eauto. Qed.

Lemma bind_assoc : forall {A B C} (m : outcome A) (f : A -> outcome B) (g : B -> outcome C),
  bind (bind m f) g = bind m (fun a => bind (f a) g).
Proof. intros A B C [a|e| | |] f g; reflexivity. Qed.

Lemma bind_ext : forall {A B} (m : outcome A) (f g : A -> outcome B),
  (forall a, m = Ok a -> f a = g a) -> bind m f = bind m g.
Proof. intros A B [a|e| | |] f g H; simpl; auto. Qed.

Lemma Zlen_nonneg : forall {A} (l : list A), 0 <= Zlen l.
Proof. intros; unfold Zlen; lia. Qed.

Lemma Zlen_nil : forall {A}, Zlen (@nil A) = 0. Proof. reflexivity. Qed.
Lemma Zlen_cons : forall {A} (a : A) l, Zlen (a :: l) = Zlen l + 1.
Proof. intros; unfold Zlen; simpl length; lia. Qed.
Lemma Zlen_app : forall {A} (l1 l2 : list A), Zlen (l1 ++ l2) = Zlen l1 + Zlen l2.
Proof. intros; unfold Zlen; rewrite app_length; lia. Qed.
Lemma Zlen_map : forall {A B} (f : A -> B) l, Zlen (map f l) = Zlen l.
Proof. intros; unfold Zlen; rewrite map_length; reflexivity. Qed.
Lemma Zlen_rev : forall {A} (l : list A), Zlen (rev l) = Zlen l.
Proof. intros; unfold Zlen; rewrite rev_length; reflexivity. Qed.
Lemma Zlen_zrepeat : forall {A} (v : A) n, 0 <= n -> Zlen (zrepeat v n) = n.
Proof. intros; unfold Zlen, zrepeat; rewrite repeat_length; lia. Qed.
Lemma Zlen_zrange : forall lo hi, lo <= hi -> Zlen (zrange lo hi) = hi - lo.
Proof. intros; unfold zrange; rewrite Zlen_map; unfold Zlen; rewrite seq_length; lia. Qed.
Lemma Zlen_ztab : forall {A} n (f : Z -> A), 0 <= n -> Zlen (ztab n f) = n.
Proof. intros; unfold ztab; rewrite Zlen_map, Zlen_zrange; lia. Qed.

Lemma upd_length : forall {A} (l : list A) i v, length (upd l i v) = length l.
Proof. induction l; destruct i; simpl; intros; auto. Qed.
Lemma Zlen_upd : forall {A} (l : list A) i v, Zlen (upd l i v) = Zlen l.
Proof. intros; unfold Zlen; rewrite upd_length; auto. Qed.

Lemma nth_upd_eq : forall {A} (l : list A) i v d,
  (i < length l)%nat -> nth i (upd l i v) d = v.
Proof. induction l; destruct i; simpl; intros; auto; try lia. apply IHl; lia. Qed.
Lemma nth_upd_neq : forall {A} (l : list A) i j v d,
  i <> j -> nth j (upd l i v) d = nth j l d.
Proof. induction l; destruct i, j; simpl; intros; auto; try lia. Qed.

(** Total read used in specifications. *)
Definition znth {A} (d : A) (l : list A) (i : Z) : A := nth (Z.to_nat i) l d.

Lemma rd_ok : forall {A} (d : A) (l : list A) i,
  0 <= i < Zlen l -> rd l i = Ok (znth d l i).
Proof.
  intros A d l i H. unfold rd, znth, Zlen in *.
  destruct (Z.ltb_spec i 0); [lia|].
  rewrite (nth_error_nth' l d) by lia. reflexivity.
Qed.
Lemma rd_ok_inv : forall {A} (d : A) (l : list A) i v,
  rd l i = Ok v -> 0 <= i < Zlen l /\ v = znth d l i.
Proof.
  intros A d l i v H. unfold rd in H.
  destruct (Z.ltb_spec i 0); [discriminate|].
  destruct (nth_error l (Z.to_nat i)) eqn:E; [|discriminate].
  injection H as <-.
  assert (Z.to_nat i < length l)%nat by (apply nth_error_Some; congruence).
  unfold Zlen, znth. split; [lia|]. symmetry. apply nth_error_nth; auto.
Qed.
Lemma rd_ub : forall {A} (l : list A) i, ~ (0 <= i < Zlen l) -> rd l i = UB.
Proof.
  intros A l i H. unfold rd, Zlen in *.
  destruct (Z.ltb_spec i 0); auto.
  destruct (nth_error l (Z.to_nat i)) eqn:E; auto.
  assert (Z.to_nat i < length l)%nat by (apply nth_error_Some; congruence). lia.
Qed.
Lemma wr_ok : forall {A} (l : list A) i v,
  0 <= i < Zlen l -> wr l i v = Ok (upd l (Z.to_nat i) v).
Proof.
  intros. unfold wr. destruct (Z.leb_spec 0 i), (Z.ltb_spec i (Zlen l)); simpl; auto; lia.
Qed.
Lemma wr_ub : forall {A} (l : list A) i v, ~ (0 <= i < Zlen l) -> wr l i v = UB.
Proof.
  intros. unfold wr. destruct (Z.leb_spec 0 i), (Z.ltb_spec i (Zlen l)); simpl; auto; lia.
Qed.
Lemma wr_ok_inv : forall {A} (l : list A) i v l',
  wr l i v = Ok l' -> 0 <= i < Zlen l /\ l' = upd l (Z.to_nat i) v.
Proof.
  intros A l i v l' H. unfold wr in H.
  destruct (Z.leb_spec 0 i), (Z.ltb_spec i (Zlen l)); simpl in H; try discriminate.
  injection H as <-; auto.
Qed.
Lemma znth_upd_eq : forall {A} (d : A) l i v,
  0 <= i < Zlen l -> znth d (upd l (Z.to_nat i) v) i = v.
Proof. intros; unfold znth, Zlen in *; apply nth_upd_eq; lia. Qed.
Lemma znth_upd_neq : forall {A} (d : A) l i j v,
  0 <= i -> 0 <= j -> i <> j -> znth d (upd l (Z.to_nat i) v) j = znth d l j.
Proof. intros; unfold znth; apply nth_upd_neq; lia. Qed.

Lemma nth_map_seq : forall {A} (f : nat -> A) n i d,
  (i < n)%nat -> nth i (map f (seq 0 n)) d = f i.
Proof.
  intros. rewrite nth_indep with (d' := f 0%nat) by (rewrite map_length, seq_length; auto).
  rewrite map_nth, seq_nth; auto.
Qed.
Lemma znth_zrange : forall d lo hi i, 0 <= i < hi - lo -> znth d (zrange lo hi) i = lo + i.
Proof.
  intros. unfold znth, zrange. rewrite nth_map_seq by lia. lia.
Qed.
Lemma znth_map : forall {A B} (da : A) (db : B) (f : A -> B) l i,
  0 <= i < Zlen l -> znth db (map f l) i = f (znth da l i).
Proof.
  intros. unfold znth, Zlen in *. rewrite nth_indep with (d' := f da)
    by (rewrite map_length; lia). apply map_nth.
Qed.
Lemma znth_ztab : forall {A} (d : A) n f i, 0 <= i < n -> znth d (ztab n f) i = f i.
Proof.
  intros. unfold ztab. rewrite (znth_map 0) by (rewrite Zlen_zrange; lia).
  rewrite znth_zrange by lia. f_equal; lia.
Qed.
Lemma znth_zrepeat : forall {A} (d v : A) n i, 0 <= i < n -> znth d (zrepeat v n) i = v.
Proof.
  intros. unfold znth, zrepeat.
  rewrite nth_indep with (d' := v) by (rewrite repeat_length; lia).
  apply nth_repeat.
Qed.

Lemma list_ext : forall {A} (d : A) (l1 l2 : list A),
  Zlen l1 = Zlen l2 -> (forall i, 0 <= i < Zlen l1 -> znth d l1 i = znth d l2 i) -> l1 = l2.
Proof.
  intros A d l1 l2 HL H. apply nth_ext with d d; unfold Zlen in *; [lia|].
  intros n Hn. specialize (H (Z.of_nat n) ltac:(lia)). unfold znth in H.
  rewrite Nat2Z.id in H. exact H.
Qed.

Lemma In_zrange : forall lo hi k, In k (zrange lo hi) <-> lo <= k < hi.
Proof.
  intros. unfold zrange. rewrite in_map_iff. split.
  - intros (x & <- & H). apply in_seq in H. lia.
  - intros H. exists (Z.to_nat (k - lo)). split; [lia|]. apply in_seq. lia.
Qed.
Lemma zrange_nil : forall lo hi, hi <= lo -> zrange lo hi = [].
Proof. intros. unfold zrange. replace (Z.to_nat (hi - lo)) with 0%nat by lia. reflexivity. Qed.
Lemma zrange_cons : forall lo hi, lo < hi -> zrange lo hi = lo :: zrange (lo + 1) hi.
Proof.
  intros. unfold zrange. replace (Z.to_nat (hi - lo)) with (S (Z.to_nat (hi - (lo + 1)))) by lia.
  simpl. f_equal; [lia|]. rewrite <- seq_shift, map_map. apply map_ext. intros; lia.
Qed.
Lemma zrange_snoc : forall lo hi, lo <= hi -> zrange lo (hi + 1) = zrange lo hi ++ [hi].
Proof.
  intros. unfold zrange. replace (Z.to_nat (hi + 1 - lo)) with (S (Z.to_nat (hi - lo))) by lia.
  rewrite seq_S, map_app. simpl. do 2 f_equal. lia.
Qed.
Lemma zrange_app : forall lo mid hi, lo <= mid <= hi -> zrange lo hi = zrange lo mid ++ zrange mid hi.
Proof.
  intros lo mid hi H. remember (Z.to_nat (mid - lo)) as n eqn:Hn. revert lo H Hn.
  induction n; intros.
  - assert (mid = lo) by lia. subst. rewrite (zrange_nil lo lo) by lia. reflexivity.
  - rewrite (zrange_cons lo hi), (zrange_cons lo mid) by lia. simpl. f_equal.
    apply IHn; lia.
Qed.
Lemma zrange_shift : forall lo hi c, zrange (lo + c) (hi + c) = map (fun k => k + c) (zrange lo hi).
Proof.
  intros. unfold zrange. rewrite map_map. replace (hi + c - (lo + c)) with (hi - lo) by lia.
  apply map_ext. intros; lia.
Qed.
Lemma NoDup_zrange : forall lo hi, NoDup (zrange lo hi).
Proof.
  intros. unfold zrange. apply FinFun.Injective_map_NoDup; [|apply seq_NoDup].
  intros x y H; lia.
Qed.

Lemma foldM_app : forall {A S} (f : A -> S -> outcome S) l1 l2 s,
  foldM f (l1 ++ l2) s = bind (foldM f l1 s) (foldM f l2).
Proof.
  induction l1; simpl; intros; auto. rewrite bind_assoc. apply bind_ext. intros; apply IHl1.
Qed.
Lemma foldM_ext : forall {A S} (f g : A -> S -> outcome S) l s,
  (forall a s, In a l -> f a s = g a s) -> foldM f l s = foldM g l s.
Proof.
  induction l; simpl; intros; auto. rewrite H by auto. apply bind_ext. intros; apply IHl; auto.
Qed.

(** Loop invariant rule: the loop succeeds and establishes the invariant. *)
Lemma for_inv : forall {S} (P : Z -> S -> Prop) lo hi body s,
  lo <= hi -> P lo s ->
  (forall i s, lo <= i < hi -> P i s -> exists s', body i s = Ok s' /\ P (i + 1) s') ->
  exists s', for_ lo hi body s = Ok s' /\ P hi s'.
Proof.
  intros S P lo hi body s Hle HP Hstep. unfold for_.
  remember (Z.to_nat (hi - lo)) as n eqn:Hn.
  revert lo s Hle HP Hstep Hn. induction n; intros.
  - assert (hi = lo) by lia. subst. rewrite zrange_nil by lia. exists s; auto.
  - rewrite zrange_cons by lia. simpl.
    destruct (Hstep lo s) as (s' & E & HP'); [lia|auto|]. rewrite E. simpl.
    apply IHn; auto; try lia. intros; apply Hstep; auto; lia.
Qed.

Lemma foldM_ok_fold : forall {A S} (f : A -> S -> outcome S) (g : A -> S -> S) (Q : S -> Prop) l s,
  Q s -> (forall a s, In a l -> Q s -> f a s = Ok (g a s) /\ Q (g a s)) ->
  foldM f l s = Ok (fold_left (fun s a => g a s) l s).
Proof.
  induction l; simpl; intros; auto.
  destruct (H0 a s) as [E HQ]; auto. rewrite E. simpl. apply IHl; auto.
Qed.

Lemma mapM_ok : forall {A B} (f : A -> outcome B) (g : A -> B) l,
  (forall a, In a l -> f a = Ok (g a)) -> mapM f l = Ok (map g l).
Proof.
  induction l; simpl; intros; auto. rewrite H by auto. simpl. rewrite IHl by auto. reflexivity.
Qed.

(** Accumulation loops: [out[g k] = h k out[g k]] for k in [ks]. *)
Lemma foldM_update : forall {A} (d : A) (g : Z -> Z) (h : Z -> A -> A) ks l,
  (forall k, In k ks -> 0 <= g k < Zlen l) ->
  exists l', foldM (fun k l => v <- rd l (g k) ;; wr l (g k) (h k v)) ks l = Ok l'
    /\ Zlen l' = Zlen l
    /\ forall j, 0 <= j < Zlen l ->
         znth d l' j = fold_left (fun acc k => h k acc) (filter (fun k => g k =? j) ks) (znth d l j).
Proof.
  induction ks as [|k ks IH]; simpl; intros l H.
  - exists l; auto.
  - rewrite (rd_ok d) by (apply H; auto). simpl. rewrite wr_ok by (apply H; auto). simpl.
    destruct (IH (upd l (Z.to_nat (g k)) (h k (znth d l (g k))))) as (l' & E & HL & HN).
    { intros; rewrite Zlen_upd; auto. }
    exists l'. split; [exact E|]. rewrite Zlen_upd in *. split; [auto|].
    intros j Hj. rewrite HN by auto.
    assert (0 <= g k < Zlen l) by (apply H; auto).
    destruct (Z.eqb_spec (g k) j) as [->|Hne]; simpl.
    + rewrite znth_upd_eq by auto. reflexivity.
    + rewrite znth_upd_neq by lia. reflexivity.
Qed.

Lemma i32_id : forall z, INT_MIN <= z <= INT_MAX -> i32 z = z.
Proof.
  unfold INT_MIN, INT_MAX, i32, two32. intros. rewrite Z.mod_small by lia. lia.
Qed.
Lemma u64_id : forall z, 0 <= z < two64 -> u64 z = z.
Proof. unfold u64. intros. apply Z.mod_small; auto. Qed.
Lemma u64_range : forall z, 0 <= u64 z < two64.
Proof. intros. unfold u64. apply Z.mod_pos_bound. reflexivity. Qed.
Lemma u64_mul_l : forall a b, u64 (u64 a * b) = u64 (a * b).
Proof. intros. unfold u64. apply Z.mul_mod_idemp_l. discriminate. Qed.
Lemma u64_mul_r : forall a b, u64 (a * u64 b) = u64 (a * b).
Proof. intros. unfold u64. apply Z.mul_mod_idemp_r. discriminate. Qed.
Lemma u64_add_l : forall a b, u64 (u64 a + b) = u64 (a + b).
Proof. intros. unfold u64. apply Z.add_mod_idemp_l. discriminate. Qed.
Lemma u64_add_r : forall a b, u64 (a + u64 b) = u64 (a + b).
Proof. intros. unfold u64. apply Z.add_mod_idemp_r. discriminate. Qed.
Lemma chk32_ok : forall z, INT_MIN <= z <= INT_MAX -> chk32 z = Ok z.
Proof. intros. unfold chk32. destruct (Z.leb_spec INT_MIN z), (Z.leb_spec z INT_MAX); simpl; auto; lia. Qed.
