(** * Threads whose accesses are disjoint along the way they actually take *)
From Coq Require Import Reals.
From Verif Require Import Base Scalar Types M_Par SpecPar L_Par.
Local Open Scope Z_scope.

Section Gen.
Context {V : Type}.
Implicit Types m : mem V.

(** Run from [m], the program accesses only cells of [A] and writes only cells of [W]. *)
Fixpoint follows (A W : Z -> Z -> Prop) (p : prog V) (m : mem V) : Prop :=
  match p with
  | Done => True
  | Rd a i k => A a i /\ follows A W (k (m a i)) m
  | Wr a i x k => A a i /\ W a i /\ follows A W k (mput m a i x)
  end.
Lemma path_agree : forall A W p m m', follows A W p m -> (forall a i, A a i -> m a i = m' a i) ->
  follows A W p m' /\ forall a i, A a i -> exec p m a i = exec p m' a i.
Proof.
  intros A W. induction p as [|a i k IH|a i x k IH]; intros m m' Hf Hm; cbn [exec follows] in *; auto.
  - destruct Hf as (Ha & Hk). rewrite <- (Hm a i Ha). destruct (IH (m a i) m m' Hk Hm). auto.
  - destruct Hf as (Ha & HW & Hk). destruct (IH (mput m a i x) (mput m' a i x) Hk); auto.
    intros a' i' HA. unfold mput. destruct (_ && _); auto.
Qed.
Lemma path_outside : forall A W p m a i, follows A W p m -> ~ W a i -> exec p m a i = m a i.
Proof.
  intros A W. induction p as [|a i k IH|a i x k IH]; intros m a' i' Hf HN; cbn [exec follows] in *; auto.
  - destruct Hf as (_ & Hk). apply IH; auto.
  - destruct Hf as (_ & HW & Hk). rewrite IH by auto. apply mput_neq. intros (-> & ->). auto.
Qed.

Section Sep.
Variables (ps0 : list (prog V)) (A W : nat -> Z -> Z -> Prop) (m0 : mem V).
Hypothesis HF : forall q p, nth_error ps0 q = Some p -> follows (A q) (W q) p m0.
Hypothesis HS : forall q q' a i, q <> q' -> (q < length ps0)%nat -> (q' < length ps0)%nat -> W q a i -> ~ A q' a i.

Definition path_inv (c : mem V * list (prog V)) : Prop :=
  length (snd c) = length ps0 /\
  forall q p p0, nth_error (snd c) q = Some p -> nth_error ps0 q = Some p0 ->
     follows (A q) (W q) p (fst c) /\ forall a i, A q a i -> exec p (fst c) a i = exec p0 m0 a i.
Lemma path_inv0 : path_inv (m0, ps0).
Proof. split; [reflexivity|]. intros q p p0 E E0. cbn [fst snd] in *. assert (p = p0) by congruence. subst. auto. Qed.
Lemma path_inv_step : forall c c', path_inv c -> pstep c c' -> path_inv c'.
Proof.
  intros c c' (HL & HP) Hs. destruct Hs as [m ps q a i k E|m ps q a i x k E]; cbn [fst snd] in *.
  - destruct (nth_some ps ps0 q _ HL E) as (p0 & E0). destruct (HP q _ p0 E E0) as ((Ha & Hk) & Hx).
    split; [cbn [snd]; rewrite upd_length; auto|]. cbn [fst snd]. intros q' p p0' E' E0'.
    apply nth_error_upd in E'. destruct E' as [(<- & ->)|(Hn & E')].
    + assert (p0' = p0) by congruence. subst. split; [exact Hk|]. intros a' i' HA. rewrite <- Hx by auto. reflexivity.
    + apply (HP q'); auto.
  - destruct (nth_some ps ps0 q _ HL E) as (p0 & E0). destruct (HP q _ p0 E E0) as ((Ha & HW & Hk) & Hx).
    assert (Lq : (q < length ps0)%nat) by (apply nth_error_Some; congruence).
    split; [cbn [snd]; rewrite upd_length; auto|]. cbn [fst snd].
    intros q' p p0' E' E0'. apply nth_error_upd in E'. destruct E' as [(<- & ->)|(Hn & E')].
    + assert (p0' = p0) by congruence. subst. split; [exact Hk|]. intros a' i' HA. rewrite <- Hx by auto. reflexivity.
    + destruct (HP q' p p0' E' E0') as (Hw & Hx').
      destruct (path_agree (A q') (W q') p m (mput m a i x) Hw) as (F & X).
      { intros b j Hb. symmetry. apply mput_neq. intros (-> & ->). apply (HS q q' a i); auto. apply nth_error_Some; congruence. }
      split; [exact F|]. intros a' i' HA. rewrite <- Hx' by auto. symmetry. auto.
Qed.
Lemma path_inv_steps : forall c, psteps (m0, ps0) c -> path_inv c.
Proof.
  intros c H. remember (m0, ps0) as c0. induction H as [c|c c' c'' H IH Hs]; subst; [apply path_inv0|].
  apply (path_inv_step c'); auto.
Qed.
Lemma path_final : forall m', final ps0 m0 m' -> forall q p a i, nth_error ps0 q = Some p -> A q a i -> m' a i = exec p m0 a i.
Proof.
  intros m' (ps' & H & HD) q p a i E HA. destruct (path_inv_steps _ H) as (HL & HP). cbn [fst snd] in *.
  destruct (nth_some ps0 ps' q p ltac:(auto) E) as (p' & E'). destruct (HP q p' p E' E) as (_ & Hx).
  rewrite <- Hx by auto. apply nth_error_In in E'. unfold finished in HD. rewrite Forall_forall in HD. rewrite <- (HD p' E'). reflexivity.
Qed.
Lemma path_no_race : race_free ps0 m0.
Proof.
  intros c H. destruct (path_inv_steps c H) as (HL & HP). intros (q & q' & p & p' & a & i & w & w' & Hn & E & E' & N & N' & Hw).
  destruct (nth_some _ ps0 q _ HL E) as (p0 & E0). destruct (nth_some _ ps0 q' _ HL E') as (p0' & E0').
  destruct (HP q p p0 E E0) as (W1 & _). destruct (HP q' p' p0' E' E0') as (W2 & _).
  assert (L1 : (q < length ps0)%nat) by (apply nth_error_Some; congruence).
  assert (L2 : (q' < length ps0)%nat) by (apply nth_error_Some; congruence).
  assert (A1 : A q a i) by (destruct p; cbn in N; try discriminate; injection N as -> -> _; apply W1).
  assert (A2 : A q' a i) by (destruct p'; cbn in N'; try discriminate; injection N' as -> -> _; apply W2).
  apply orb_true_iff in Hw. destruct Hw as [-> | ->].
  - apply (HS q q' a i); auto. destruct p; cbn in N; try discriminate. injection N as -> ->. apply W1.
  - apply (HS q' q a i); auto. destruct p'; cbn in N'; try discriminate. injection N' as -> ->. apply W2.
Qed.
End Sep.
End Gen.
