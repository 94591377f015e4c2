(** * Lemmas about parallel loops *)
From Coq Require Import Reals Lra Permutation SpecFloat.
From Verif Require Import Base Scalar ScalarR Types Spec M_Shape M_Tensor M_Adv M_Layers M_Opt M_Par SpecR SpecPar
  L_Index L_Shape L_Tensor L_Matmul L_Adv L_Opt L_RSum.
Local Open Scope Z_scope.

Section Gen.
Context {V : Type}.
Implicit Types m : mem V.

Lemma mput_eq : forall m a i x, mput m a i x a i = x.
Proof. intros. unfold mput. rewrite !Z.eqb_refl. reflexivity. Qed.
Lemma mput_neq : forall m a i x a' i', ~ (a' = a /\ i' = i) -> mput m a i x a' i' = m a' i'.
Proof. intros. unfold mput. destruct (Z.eqb_spec a' a), (Z.eqb_spec i' i); auto; tauto. Qed.

(** [p] accesses only cells of [A] and writes only cells of [W]. *)
Fixpoint within (A W : Z -> Z -> Prop) (p : prog V) : Prop :=
  match p with
  | Done => True
  | Rd a i k => A a i /\ forall x, within A W (k x)
  | Wr a i _ k => A a i /\ W a i /\ within A W k
  end.

Lemma exec_agree : forall A W p m m', within A W p -> (forall a i, A a i -> m a i = m' a i) ->
  forall a i, A a i -> exec p m a i = exec p m' a i.
Proof.
  induction p as [|a i k IH|a i x k IH]; intros m m' Hw Hm; cbn [exec]; auto.
  - destruct Hw as (Ha & Hk). rewrite (Hm a i Ha). apply IH; auto.
  - destruct Hw as (Ha & _ & Hk). apply IH; auto. intros a' i' HA. unfold mput. destruct (_ && _); auto.
Qed.
Lemma exec_outside : forall A W p m a i, within A W p -> ~ W a i -> exec p m a i = m a i.
Proof.
  induction p as [|a i k IH|a i x k IH]; intros m a' i' Hw HN; cbn [exec]; auto.
  - destruct Hw as (_ & Hk). apply IH; auto.
  - destruct Hw as (_ & HW & Hk). rewrite IH by auto. apply mput_neq. intros (-> & ->). auto.
Qed.

Lemma nth_error_upd_eq : forall {X} (l : list X) q x y, nth_error l q = Some y -> nth_error (upd l q x) q = Some x.
Proof. induction l; destruct q; cbn; intros; try discriminate; eauto. Qed.
Lemma nth_error_upd_neq : forall {X} (l : list X) q q' x, q <> q' -> nth_error (upd l q x) q' = nth_error l q'.
Proof. induction l; destruct q, q'; cbn; intros; auto; try congruence. Qed.
Lemma nth_error_upd : forall {X} (l : list X) q q' x y, nth_error (upd l q x) q' = Some y ->
  (q = q' /\ y = x) \/ (q <> q' /\ nth_error l q' = Some y).
Proof.
  intros X l q q' x y H. destruct (Nat.eq_dec q q') as [<-|Hn].
  - left. split; auto. destruct (nth_error l q) eqn:E.
    + rewrite (nth_error_upd_eq _ _ _ _ E) in H. congruence.
    + apply nth_error_None in E. assert (nth_error (upd l q x) q <> None) by congruence. apply nth_error_Some in H0.
      rewrite upd_length in H0. lia.
  - right. rewrite nth_error_upd_neq in H by auto. auto.
Qed.

(** Iteration [q] accesses [A q] and writes [W q]; nobody else accesses what it writes. *)
Definition separated (ps : list (prog V)) (A W : nat -> Z -> Z -> Prop) : Prop :=
  (forall q p, nth_error ps q = Some p -> within (A q) (W q) p) /\
  (forall q q' a i, q <> q' -> (q < length ps)%nat -> (q' < length ps)%nat -> W q a i -> ~ A q' a i).

Section Sep.
Variables (ps0 : list (prog V)) (A W : nat -> Z -> Z -> Prop) (m0 : mem V).
Hypothesis Hsep : separated ps0 A W.

Definition inv (c : mem V * list (prog V)) : Prop :=
  length (snd c) = length ps0 /\
  (forall q p p0, nth_error (snd c) q = Some p -> nth_error ps0 q = Some p0 ->
     within (A q) (W q) p /\ forall a i, A q a i -> exec p (fst c) a i = exec p0 m0 a i) /\
  (forall a i, (forall q, (q < length ps0)%nat -> ~ W q a i) -> fst c a i = m0 a i).

Lemma inv0 : inv (m0, ps0).
Proof.
  split; [reflexivity|]. split; [|reflexivity]. intros q p p0 E E0. cbn [fst snd] in *. assert (p = p0) by congruence. subst.
  split; [apply (proj1 Hsep q); auto|reflexivity].
Qed.

Lemma nth_some : forall {X Y} (l : list X) (l' : list Y) q x, length l = length l' -> nth_error l q = Some x -> exists y, nth_error l' q = Some y.
Proof.
  intros X Y l l' q x HL E. destruct (nth_error l' q) eqn:E'; eauto. apply nth_error_None in E'.
  assert (nth_error l q <> None) by congruence. apply nth_error_Some in H. lia.
Qed.

Lemma inv_step : forall c c', inv c -> pstep c c' -> inv c'.
Proof.
  intros c c' (HL & HP & HU) Hs. destruct Hs as [m ps q a i k E|m ps q a i x k E]; cbn [fst snd] in *.
  - destruct (nth_some ps ps0 q _ HL E) as (p0 & E0). destruct (HP q _ p0 E E0) as ((Ha & Hk) & Hx).
    split; [cbn [snd]; rewrite upd_length; auto|]. split; [|exact HU]. cbn [fst snd]. intros q' p p0' E' E0'.
    apply nth_error_upd in E'. destruct E' as [(<- & ->)|(Hn & E')].
    + assert (p0' = p0) by congruence. subst. split; [apply Hk|]. intros a' i' HA. rewrite <- Hx by auto. reflexivity.
    + apply (HP q'); auto.
  - destruct (nth_some ps ps0 q _ HL E) as (p0 & E0). destruct (HP q _ p0 E E0) as ((Ha & HW & Hk) & Hx).
    assert (Lq : (q < length ps0)%nat) by (apply nth_error_Some; congruence).
    split; [cbn [snd]; rewrite upd_length; auto|]. split; cbn [fst snd].
    + intros q' p p0' E' E0'. apply nth_error_upd in E'. destruct E' as [(<- & ->)|(Hn & E')].
      * assert (p0' = p0) by congruence. subst. split; [apply Hk|]. intros a' i' HA. rewrite <- Hx by auto. reflexivity.
      * destruct (HP q' p p0' E' E0') as (Hw & Hx'). split; [exact Hw|]. intros a' i' HA. rewrite <- Hx' by auto.
        apply (exec_agree (A q') (W q')); auto. intros b j Hb. apply mput_neq. intros (-> & ->).
        apply (proj2 Hsep q q' a i); auto. apply nth_error_Some; congruence.
    + intros b j Hb. rewrite mput_neq; auto. intros (-> & ->). apply (Hb q); auto.
Qed.

Lemma inv_steps : forall c, psteps (m0, ps0) c -> inv c.
Proof.
  intros c H. remember (m0, ps0) as c0. induction H as [c|c c' c'' H IH Hs]; subst; [apply inv0|].
  apply (inv_step c'); auto.
Qed.

Lemma final_value : forall m', final ps0 m0 m' ->
  (forall q p a i, nth_error ps0 q = Some p -> A q a i -> m' a i = exec p m0 a i) /\
  (forall a i, (forall q, (q < length ps0)%nat -> ~ W q a i) -> m' a i = m0 a i).
Proof.
  intros m' (ps' & H & HF). destruct (inv_steps _ H) as (HL & HP & HU). cbn [fst snd] in *. split; [|exact HU].
  intros q p a i E HA. destruct (nth_some ps0 ps' q p ltac:(auto) E) as (p' & E'). destruct (HP q p' p E' E) as (_ & Hx).
  rewrite <- Hx by auto. apply nth_error_In in E'. unfold finished in HF. rewrite Forall_forall in HF. rewrite <- (HF p' E'). reflexivity.
Qed.

Lemma no_race : race_free ps0 m0.
Proof.
  intros c H. destruct (inv_steps c H) as (HL & HP & _). intros (q & q' & p & p' & a & i & w & w' & Hn & E & E' & N & N' & Hw).
  destruct (nth_some _ ps0 q _ HL E) as (p0 & E0). destruct (nth_some _ ps0 q' _ HL E') as (p0' & E0').
  destruct (HP q p p0 E E0) as (W1 & _). destruct (HP q' p' p0' E' E0') as (W2 & _).
  assert (L1 : (q < length ps0)%nat) by (apply nth_error_Some; congruence).
  assert (L2 : (q' < length ps0)%nat) by (apply nth_error_Some; congruence).
  assert (A1 : A q a i) by (destruct p; cbn in N; try discriminate; injection N as -> -> _; apply W1).
  assert (A2 : A q' a i) by (destruct p'; cbn in N'; try discriminate; injection N' as -> -> _; apply W2).
  apply orb_true_iff in Hw. destruct Hw as [-> | ->].
  - apply (proj2 Hsep q q' a i); auto. destruct p; cbn in N; try discriminate. injection N as -> ->. apply W1.
  - apply (proj2 Hsep q' q a i); auto. destruct p'; cbn in N'; try discriminate. injection N' as -> ->. apply W2.
Qed.
End Sep.

(** The sequential loop is one of the executions. *)
Lemma psteps_trans : forall c c' c'' : mem V * list (prog V), psteps c c' -> psteps c' c'' -> psteps c c''.
Proof. intros c c' c'' H1 H2. revert H1. induction H2; intro H1; auto. eapply ps_step; [apply IHpsteps; auto|eauto]. Qed.

Lemma upd_app : forall {X} (l : list X) y r x, upd (l ++ y :: r) (length l) x = l ++ x :: r.
Proof. induction l; cbn; intros; congruence. Qed.
Lemma nth_error_mid : forall {X} (l : list X) y r, nth_error (l ++ y :: r) (length l) = Some y.
Proof. induction l; cbn; auto. Qed.

Lemma exec_steps : forall p m l r, psteps (m, l ++ p :: r) (exec p m, l ++ Done :: r).
Proof.
  induction p as [|a i k IH|a i x k IH]; intros m l r; cbn [exec].
  - constructor.
  - apply (psteps_trans _ (m, l ++ k (m a i) :: r)); [|apply IH].
    pose proof (step_rd m (l ++ Rd a i k :: r) (length l) a i k (nth_error_mid _ _ _)) as H. rewrite upd_app in H.
    apply (ps_step _ _ _ (ps_refl _) H).
  - apply (psteps_trans _ (mput m a i x, l ++ k :: r)); [|apply IH].
    pose proof (step_wr m (l ++ Wr a i x k :: r) (length l) a i x k (nth_error_mid _ _ _)) as H. rewrite upd_app in H.
    apply (ps_step _ _ _ (ps_refl _) H).
Qed.

Lemma exec_all_after : forall ps l m, finished l -> exists ps', psteps (m, l ++ ps) (exec_all ps m, ps') /\ finished ps'.
Proof.
  induction ps as [|p ps IH]; intros l m Hl; cbn [exec_all].
  - exists (l ++ []). split; [constructor|]. rewrite app_nil_r. auto.
  - destruct (IH (l ++ [Done]) (exec p m)) as (ps' & H & HF).
    { apply Forall_app. split; auto. }
    exists ps'. split; auto. rewrite <- app_assoc in H. cbn in H. apply (psteps_trans _ _ _ (exec_steps p m l ps) H).
Qed.
Lemma exec_all_final : forall ps m, final ps m (exec_all ps m).
Proof. intros ps m. exact (exec_all_after ps [] m (Forall_nil _)). Qed.

(** Executions are finite: every program is. *)
Inductive shorter : prog V -> prog V -> Prop :=
| sh_rd : forall a i k x, shorter (k x) (Rd a i k)
| sh_wr : forall a i x k, shorter k (Wr a i x k).
Lemma shorter_wf : well_founded shorter.
Proof.
  intro p. induction p as [|a i k IH|a i x k IH]; constructor; intros y Hy; inversion Hy; subst; auto.
Qed.
Inductive pool_step : list (prog V) -> list (prog V) -> Prop :=
| pool_hd : forall p p' r, shorter p' p -> pool_step (p' :: r) (p :: r)
| pool_tl : forall p r r', pool_step r' r -> pool_step (p :: r') (p :: r).
Lemma pool_wf : well_founded pool_step.
Proof.
  intro ps. induction ps as [|p ps IH].
  - constructor. intros y Hy. inversion Hy.
  - revert p. induction IH as [ps _ IHps]. intro p. induction (shorter_wf p) as [p Hp IHp].
    constructor. intros y Hy. inversion Hy; subst; auto.
Qed.
Lemma pool_upd : forall ps q p p', nth_error ps q = Some p -> shorter p' p -> pool_step (upd ps q p') ps.
Proof.
  induction ps as [|p0 ps IH]; intros q p p' E Hs; destruct q; cbn in *; try discriminate.
  - injection E as ->. constructor. auto.
  - constructor. eapply IH; eauto.
Qed.
Lemma pstep_wf : well_founded (fun c c' : mem V * list (prog V) => pstep c' c).
Proof.
  intros [m ps]. revert m. induction (pool_wf ps) as [ps _ IH]. intro m. constructor. intros [m' ps'] H.
  inversion H; subst; apply IH; eapply pool_upd; eauto; constructor.
Qed.

(** Every cell has at most one owner; iterations write only their own cells and
    read only their own and unowned ones. *)
Definition owned_by (own : Z -> Z -> option nat) (ps : list (prog V)) : Prop :=
  forall q p, nth_error ps q = Some p ->
    within (fun a i => own a i = None \/ own a i = Some q) (fun a i => own a i = Some q) p.

Lemma owned_separated : forall own ps, owned_by own ps ->
  separated ps (fun q a i => own a i = None \/ own a i = Some q) (fun q a i => own a i = Some q).
Proof. intros own ps H. split; [exact H|]. intros q q' a i Hn _ _ E [E'|E']; congruence. Qed.

Theorem owned_ok : forall own ps m, owned_by own ps -> schedule_independent ps m.
Proof.
  intros own ps m Ho. pose proof (owned_separated own ps Ho) as Hs. split; [apply (no_race ps _ _ m Hs)|]. split; [apply pstep_wf|].
  split; [exists (exec_all ps m); apply exec_all_final|].
  intros m' HF a i. destruct (final_value ps _ _ m Hs m' HF) as (H1 & H2).
  destruct (final_value ps _ _ m Hs _ (exec_all_final ps m)) as (H1' & H2').
  destruct (own a i) as [q|] eqn:E.
  - destruct (nth_error ps q) as [p|] eqn:Ep.
    + rewrite (H1 q p a i), (H1' q p a i); auto.
    + rewrite H2, H2'; auto; intros q' Hq' E'; assert (q' = q) by congruence; subst; apply nth_error_None in Ep; lia.
  - rewrite H2, H2'; auto; intros q' _ E'; congruence.
Qed.

(** The final value of an owned cell. *)
Lemma owned_value : forall own ps m q p a i, owned_by own ps -> nth_error ps q = Some p -> own a i = Some q ->
  exec_all ps m a i = exec p m a i.
Proof.
  intros own ps m q p a i Ho E HE. pose proof (owned_separated own ps Ho) as Hs.
  apply (proj1 (final_value ps _ _ m Hs _ (exec_all_final ps m)) q p); auto.
Qed.
Lemma unowned_value : forall own ps m a i, owned_by own ps -> own a i = None -> exec_all ps m a i = m a i.
Proof.
  intros own ps m a i Ho HE. pose proof (owned_separated own ps Ho) as Hs.
  apply (proj2 (final_value ps _ _ m Hs _ (exec_all_final ps m))). intros q _ E. congruence.
Qed.

(** Schedules are executions. *)
Lemma sched_steps : forall sched (c : mem V * list (prog V)), psteps c (run_sched sched c).
Proof.
  induction sched as [|q r IH]; intros [m ps]; cbn [run_sched fst snd]; [constructor|].
  destruct (nth_error ps q) as [[|a i k|a i x k]|] eqn:E; try apply IH.
  - eapply psteps_trans; [|apply IH]. eapply ps_step; [constructor|]. constructor; auto.
  - eapply psteps_trans; [|apply IH]. eapply ps_step; [constructor|]. constructor; auto.
Qed.
Lemma sched_final : forall sched ps (m : mem V), finished (snd (run_sched sched (m, ps))) -> final ps m (fst (run_sched sched (m, ps))).
Proof.
  intros. exists (snd (run_sched sched (m, ps))). split; auto. rewrite <- surjective_pairing. apply sched_steps.
Qed.
End Gen.

(** ** The loops *)
Lemma nth_error_map_zrange : forall {X} (f : Z -> X) n q x, nth_error (map f (zrange 0 n)) q = Some x ->
  x = f (Z.of_nat q) /\ 0 <= Z.of_nat q < n.
Proof.
  intros X f n q x H. assert (L : (q < length (map f (zrange 0 n)))%nat) by (apply nth_error_Some; congruence).
  rewrite map_length in L. unfold zrange in L. rewrite map_length, seq_length in L. split; [|lia].
  rewrite nth_error_map in H. destruct (nth_error (zrange 0 n) q) as [z|] eqn:E; [|discriminate]. cbn in H. injection H as <-.
  f_equal. apply (nth_error_nth _ _ 0) in E. rewrite <- E. pose proof (znth_zrange 0 0 n (Z.of_nat q) ltac:(lia)) as Z0.
  unfold znth in Z0. rewrite Nat2Z.id in Z0. lia.
Qed.
Lemma map_zrange_nth : forall {X} (f : Z -> X) n i, 0 <= i < n -> nth_error (map f (zrange 0 n)) (Z.to_nat i) = Some (f i).
Proof.
  intros X f n i H. destruct (nth_error (map f (zrange 0 n)) (Z.to_nat i)) as [x|] eqn:E.
  - apply nth_error_map_zrange in E. destruct E as (-> & _). do 2 f_equal. lia.
  - apply nth_error_None in E. rewrite map_length in E. unfold zrange in E. rewrite map_length, seq_length in E. lia.
Qed.

(** Iteration i owns cell i of the arrays in [outs]. *)
Definition own_cells (outs : list Z) (n a i : Z) : option nat :=
  if existsb (Z.eqb a) outs && (0 <=? i) && (i <? n) then Some (Z.to_nat i) else None.
Lemma own_out : forall outs n a i, existsb (Z.eqb a) outs = true -> 0 <= i < n -> own_cells outs n a i = Some (Z.to_nat i).
Proof.
  intros outs n a i H Hi. unfold own_cells. rewrite H. destruct (Z.leb_spec 0 i), (Z.ltb_spec i n); try lia. reflexivity.
Qed.
Lemma own_in : forall outs n a i, existsb (Z.eqb a) outs = false -> own_cells outs n a i = None.
Proof. intros outs n a i H. unfold own_cells. rewrite H. reflexivity. Qed.

(** A loop over i whose iterations read other arrays and cell i of [outs], and write the latter. *)
Lemma map_owned : forall {V} (f : Z -> prog V) n outs,
  (forall i, 0 <= i < n -> within (fun a j => existsb (Z.eqb a) outs = false \/ existsb (Z.eqb a) outs = true /\ j = i)
                            (fun a j => existsb (Z.eqb a) outs = true /\ j = i) (f i)) ->
  owned_by (own_cells outs n) (map f (zrange 0 n)).
Proof.
  intros V f n outs H q p E. apply nth_error_map_zrange in E. destruct E as (-> & Hq). specialize (H _ Hq).
  assert (HM : forall (A A' W W' : Z -> Z -> Prop) (p : prog V), (forall a j, A a j -> A' a j) -> (forall a j, W a j -> W' a j) -> within A W p -> within A' W' p).
  { clear. intros A A' W W' p HA HW. induction p as [|a i k IH|a i x k IH]; cbn [within]; [auto| |].
    - intros (H1 & H2). split; auto.
    - intros (H1 & H2 & H3). auto. }
  revert H. apply HM.
  - intros a j [H|(H & ->)]; [left; apply own_in; auto|right]. rewrite own_out by auto. f_equal. lia.
  - intros a j (H & ->). rewrite own_out by auto. f_equal. lia.
Qed.

Section Loops.
Context {T : Type} {S : Scalar T}.

Lemma pair_owned : forall (f : T -> T -> T) n, owned_by (own_cells [2] n) (pair_loop f n).
Proof.
  intros f n. apply map_owned. intros i Hi. unfold pair_iter. cbn. auto 10.
Qed.

Lemma holds_nth : forall (m : mem T) a l i, holds m a l -> 0 <= i < Zlen l -> m a i = znth zero l i.
Proof. intros m a l i H Hi. apply H. auto. Qed.
Lemma holds_intro : forall (m : mem T) a l, (forall i, 0 <= i < Zlen l -> m a i = znth zero l i) -> holds m a l.
Proof.
  intros m a l H d i Hi. rewrite H by auto. unfold znth. apply nth_indep. unfold Zlen in Hi. lia.
Qed.

Theorem pair_par : forall f (a b r : tensor T) m, good a -> good b -> t_apply_pair f a b = Ok r ->
  holds m 0 (tdata a) -> holds m 1 (tdata b) ->
  schedule_independent (pair_loop f (ssize (tshape a))) m /\
  forall m', final (pair_loop f (ssize (tshape a))) m m' -> holds m' 2 (tdata r).
Proof.
  intros f a b r m Ga Gb E Ha Hb. pose proof (pair_owned f (ssize (tshape a))) as HO.
  pose proof (owned_ok _ _ m HO) as HS. split; [exact HS|]. intros m' HF. destruct HS as (_ & _ & _ & HS).
  destruct (list_eq_dec Z.eq_dec (tdims a) (tdims b)) as [ED|ED]; [|rewrite apply_pair_throw in E by auto; discriminate].
  rewrite apply_pair_ok in E by auto. assert (Er : r = tensor_of (tdims a) (fun idx => f (el a idx) (el b idx))) by congruence. subst r.
  rewrite good_size in * by auto. pose proof (good_prod_pos a Ga) as HP.
  apply holds_intro. cbn [tdata tensor_of]. rewrite Zlen_ztab by lia. intros i Hi. rewrite (HS m' HF).
  rewrite (owned_value _ _ m (Z.to_nat i) (pair_iter f i) 2 i HO); [|apply map_zrange_nth; auto|apply own_out; auto].
  unfold pair_iter. cbn [exec]. rewrite mput_eq. rewrite znth_ztab by auto. unfold el. rewrite <- ED, ravel_unravel by (auto with idx; apply good_dims; auto).
  rewrite (holds_nth m 0 _ i Ha), (holds_nth m 1 _ i Hb); auto; rewrite good_len by auto; congruence || lia.
Qed.

(** *** Matrix products *)
Lemma fold_left_map' : forall {A B C} (f : A -> B -> A) (g : C -> B) l a, fold_left f (map g l) a = fold_left (fun a c => f a (g c)) l a.
Proof. induction l; intros; cbn; auto. Qed.

Lemma within_dot : forall A W l (s : T) fin, (forall x y, In (x, y) l -> A 0 x /\ A 1 y) -> (forall s, within A W (fin s)) -> within A W (dot_prog l s fin).
Proof.
  intros A W l. induction l as [|(x, y) l IH]; intros s fin Hl Hf; cbn [dot_prog]; auto.
  cbn [within]. split; [apply (Hl x y); left; auto|]. intro u. split; [apply (Hl x y); left; auto|]. intro v.
  apply IH; auto. intros x' y' H. apply Hl. right; auto.
Qed.
Lemma exec_dot : forall l (s : T) fin m, exec (dot_prog l s fin) m =
  exec (fin (fold_left (fun s p => s_add s (s_mul (m 0 (fst p)) (m 1 (snd p)))) l s)) m.
Proof. induction l as [|(x, y) l IH]; intros s fin m; cbn [dot_prog exec fold_left fst snd]; auto. Qed.

Lemma fold_sum : forall (f : Z -> T) (g : T -> Z -> T) l s, (forall s j, In j l -> g s j = s_add s (f j)) ->
  fold_left g l s = fold_left s_add (map f l) s.
Proof.
  intros f g l. induction l as [|j l IH]; intros s H; cbn [fold_left map]; auto. rewrite H by (left; auto). apply IH. intros; apply H; right; auto.
Qed.

Lemma vec_owned : forall m n, owned_by (own_cells [2] m) (vec_loop m n : list (prog T)).
Proof.
  intros m n. apply map_owned. intros i Hi. unfold vec_iter. apply within_dot; [intros; split; left; reflexivity|].
  intro s. cbn. auto 10.
Qed.

Theorem vec_par : forall (a b r : tensor T) m n mm, good a -> good b -> tdims a = [m; n] -> tdims b = [n] -> t_matvec a b = Ok r ->
  holds mm 0 (tdata a) -> holds mm 1 (tdata b) ->
  schedule_independent (vec_loop m n) mm /\
  forall m', final (vec_loop m n) mm m' -> holds m' 2 (tdata r).
Proof.
  intros a b r m n mm Ga Gb Ea Eb E Ha Hb. pose proof (vec_owned m n) as HO.
  pose proof (owned_ok _ _ mm HO) as HS. split; [exact HS|]. intros m' HF. destruct HS as (_ & _ & _ & HS).
  rewrite (matvec_ok a b m n) in E by auto.
  match type of E with Ok ?x = Ok r => assert (Er : r = x) by congruence end. subst r. clear E.
  destruct (dims2_pos a m n Ga Ea) as (Hm & Hn & HM). pose proof (good_len a Ga) as La. pose proof (good_len b Gb) as Lb.
  rewrite Ea in La. rewrite Eb in Lb. cbn [prod] in La, Lb.
  apply holds_intro. cbn [tdata tensor_of]. rewrite Zlen_ztab by (cbn [prod]; lia). intros i Hi. cbn [prod] in Hi. rewrite (HS m' HF).
  rewrite (owned_value _ _ mm (Z.to_nat i) (vec_iter n i) 2 i HO); [|apply map_zrange_nth; lia|apply own_out; auto; lia].
  rewrite znth_ztab by (cbn [prod]; lia). replace (unravel [m] i) with [i] by (rewrite <- (unravel_ravel [m] [i]), ravel1 by (apply in_range1; lia); reflexivity). unfold vec_iter. rewrite exec_dot. cbn [exec]. rewrite mput_eq.
  unfold fn1. cbn [nth]. unfold sum_to, fsum. rewrite fold_left_map'. apply fold_sum. intros s j Hj. apply In_zrange in Hj. cbn [fst snd].
  f_equal. unfold el. rewrite Ea, Eb, ravel1, ravel2.
  rewrite (holds_nth mm 0 _ _ Ha), (holds_nth mm 1 _ _ Hb) by nia. reflexivity.
Qed.

Lemma grid_map : forall {X} (f : Z -> Z -> X) n, 0 < n -> forall m, 0 <= m ->
  flat_map (fun i => map (fun j => f i j) (zrange 0 n)) (zrange 0 m) = map (fun q => f (q / n) (q mod n)) (zrange 0 (m * n)).
Proof.
  intros X f n Hn. refine (natlike_ind (fun m => flat_map (fun i => map (fun j => f i j) (zrange 0 n)) (zrange 0 m) = map (fun q => f (q / n) (q mod n)) (zrange 0 (m * n))) _ _).
  - reflexivity.
  - intros m Hm IH. unfold Z.succ. rewrite zrange_snoc by lia. rewrite flat_map_app, IH. cbn [flat_map]. rewrite app_nil_r.
    rewrite (zrange_app 0 (m * n) ((m + 1) * n)) by nia. rewrite map_app. f_equal.
    replace (zrange (m * n) ((m + 1) * n)) with (zrange (0 + m * n) (n + m * n)) by (f_equal; lia).
    rewrite zrange_shift, map_map. apply map_ext_in. intros j Hj. apply In_zrange in Hj.
    rewrite Z.div_add, Z.mod_add by lia. rewrite Z.div_small, Z.mod_small by lia. f_equal. 
Qed.

Lemma mat_owned : forall m k n, 0 <= m -> 0 < n -> owned_by (own_cells [2] (m * n)) (mat_loop m k n : list (prog T)).
Proof.
  intros m k n Hm Hn. unfold mat_loop. rewrite grid_map by lia. apply map_owned. intros q Hq. unfold mat_iter.
  apply within_dot; [intros; split; left; reflexivity|]. intro s. cbn.
  assert (q / n * n + q mod n = q) by (rewrite (Z.div_mod q n) at 3; lia). auto 10.
Qed.

Theorem mat_par : forall (a b r : tensor T) m k n mm, good a -> good b -> tdims a = [m; k] -> tdims b = [k; n] -> m * n <= INT_MAX -> t_matmat a b = Ok r ->
  holds mm 0 (tdata a) -> holds mm 1 (tdata b) ->
  schedule_independent (mat_loop m k n) mm /\
  forall m', final (mat_loop m k n) mm m' -> holds m' 2 (tdata r).
Proof.
  intros a b r m k n mm Ga Gb Ea Eb HMN E Ha Hb.
  destruct (dims2_pos a m k Ga Ea) as (Hm & Hk & HM). destruct (dims2_pos b k n Gb Eb) as (_ & Hn & HM').
  pose proof (mat_owned m k n ltac:(lia) Hn) as HO.
  pose proof (owned_ok _ _ mm HO) as HS. split; [exact HS|]. intros m' HF. destruct HS as (_ & _ & _ & HS).
  rewrite (matmat_ok a b m k n) in E by auto.
  match type of E with Ok ?x = Ok r => assert (Er : r = x) by congruence end. subst r. clear E.
  pose proof (good_len a Ga) as La. pose proof (good_len b Gb) as Lb.
  rewrite Ea in La. rewrite Eb in Lb. cbn [prod] in La, Lb.
  apply holds_intro. cbn [tdata tensor_of]. assert (HP : prod [m; n] = m * n) by (cbn [prod]; lia). rewrite HP. rewrite Zlen_ztab by nia. intros q Hq. rewrite (HS m' HF).
  assert (Hqq : q / n * n + q mod n = q) by (rewrite (Z.div_mod q n) at 3; lia).
  pose proof (Z.mod_pos_bound q n Hn) as Hmod. assert (Hdiv : 0 <= q / n < m) by (split; [apply Z.div_pos; lia|apply Z.div_lt_upper_bound; lia]).
  rewrite (owned_value _ _ mm (Z.to_nat q) (mat_iter k n (q / n) (q mod n)) 2 q HO); [| |apply own_out; auto; lia].
  2:{ unfold mat_loop. rewrite grid_map by lia. apply (map_zrange_nth (fun q => mat_iter k n (q / n) (q mod n))). auto. }
  rewrite znth_ztab by lia. unfold mat_iter. rewrite exec_dot. cbn [exec]. rewrite Hqq, mput_eq.
  replace (unravel [m; n] q) with [q / n; q mod n].
  2:{ rewrite <- (unravel_ravel [m; n] [q / n; q mod n]) by (apply in_range2; lia). rewrite ravel2, Hqq. reflexivity. }
  unfold fn2. cbn [nth]. unfold L_Matmul.mm, sum_to, fsum. rewrite fold_left_map'. apply fold_sum. intros s j Hj. apply In_zrange in Hj. cbn [fst snd].
  f_equal. unfold el. rewrite Ea, Eb, !ravel2.
  rewrite (holds_nth mm 0 _ _ Ha), (holds_nth mm 1 _ _ Hb) by nia. reflexivity.
Qed.

(** *** Adam *)
Lemma adam_owned : forall (o : adam T) al n, owned_by (own_cells [0; 2; 3] n) (adam_par o al n).
Proof.
  intros o al n. apply map_owned. intros i Hi. unfold adam_iter. cbn. auto 40.
Qed.

Lemma adam_iter_exec : forall (o : adam T) al j m,
  (exec (adam_iter o al j) m 0 j, exec (adam_iter o al j) m 2 j, exec (adam_iter o al j) m 3 j) =
  adam_param o al (m 0 j) (m 1 j) (m 2 j) (m 3 j).
Proof.
  intros o al j m. unfold adam_iter, adam_param. cbn [exec].
  repeat (rewrite mput_eq || rewrite mput_neq by (intros (H & _); discriminate H)). reflexivity.
Qed.

Lemma adam_loop_par : forall (o : adam T) al wd gd md vd wd' md' vd' m, Zlen gd = Zlen wd -> Zlen md = Zlen wd -> Zlen vd = Zlen wd ->
  for_ 0 (Zlen wd) (adam_body o gd al) (wd, md, vd) = Ok (wd', md', vd') ->
  holds m 0 wd -> holds m 1 gd -> holds m 2 md -> holds m 3 vd ->
  schedule_independent (adam_par o al (Zlen wd)) m /\
  forall m', final (adam_par o al (Zlen wd)) m m' -> holds m' 0 wd' /\ holds m' 2 md' /\ holds m' 3 vd'.
Proof.
  intros o al wd gd md vd wd' md' vd' m Lg Lm Lv E H0 H1 H2 H3. pose proof (adam_owned o al (Zlen wd)) as HO.
  pose proof (owned_ok _ _ m HO) as HS. split; [exact HS|]. intros m' HF. destruct HS as (_ & _ & _ & HS).
  destruct (for_elem (fun p i => let '(a, b, d) := p in (znth zero a i, znth zero b i, znth zero d i))
    (fun p => let '(a, b, d) := p in Zlen a = Zlen wd /\ Zlen b = Zlen wd /\ Zlen d = Zlen wd) (Zlen wd)
    (fun j p => let '(a, b, d) := p in adam_param o al a (znth zero gd j) b d) (adam_body o gd al) (wd, md, vd))
    as (((w' & m'') & v') & EF & (L1 & L2 & L3) & HVal).
  - apply Zlen_nonneg.
  - auto.
  - intros j ((a & b) & d) Hj (A1 & A2 & A3).
    destruct (adam_body_ok o gd al j a b d) as (p & EP & IP & VP); [lia..|]. exists p. split; [exact EP|]. rewrite A1 in VP, IP. split; [exact IP|exact VP].
  - assert (Ep : (w', m'', v') = (wd', md', vd')) by congruence. injection Ep as -> -> ->.
    assert (HC : forall i, 0 <= i < Zlen wd -> m' 0 i = znth zero wd' i /\ m' 2 i = znth zero md' i /\ m' 3 i = znth zero vd' i).
    { intros i Hi. specialize (HVal i Hi). pose proof (adam_iter_exec o al i m) as HX.
      rewrite (holds_nth m 0 wd i H0), (holds_nth m 1 gd i H1), (holds_nth m 2 md i H2), (holds_nth m 3 vd i H3) in HX by lia.
      rewrite <- HX in HVal. injection HVal as V0 V2 V3.
      rewrite !(HS m' HF).
      assert (HV : forall a, existsb (Z.eqb a) [0; 2; 3] = true -> exec_all (adam_par o al (Zlen wd)) m a i = exec (adam_iter o al i) m a i).
      { intros a Ha. apply (owned_value _ _ m (Z.to_nat i) (adam_iter o al i) a i HO); [apply map_zrange_nth; lia|apply own_out; auto]. }
      rewrite !HV by reflexivity. auto. }
    split; [|split]; apply holds_intro; intros i Hi; apply HC; lia.
Qed.

Theorem adam_update_par : forall (o o' : adam T) k (w g w' : tensor T) m,
  let mt := buf_get (ad_m o) k (tshape w) in let vt := buf_get (ad_v o) k (tshape w) in
  good w -> good g -> tdims g = tdims w -> good mt -> tdims mt = tdims w -> good vt -> tdims vt = tdims w ->
  adam_update o k w g tt = (o', Ok w') ->
  holds m 0 (tdata w) -> holds m 1 (tdata g) -> holds m 2 (tdata mt) -> holds m 3 (tdata vt) ->
  schedule_independent (adam_par o (adam_alpha o) (ssize (tshape w))) m /\
  forall m', final (adam_par o (adam_alpha o) (ssize (tshape w))) m m' ->
    holds m' 0 (tdata w') /\ exists mt' vt', ad_m o' k = Some mt' /\ ad_v o' k = Some vt' /\ holds m' 2 (tdata mt') /\ holds m' 3 (tdata vt').
Proof.
  intros o o' k w g w' m mt vt Gw Gg Eg Gm Em Gv Ev E H0 H1 H2 H3.
  assert (Lw : ssize (tshape w) = Zlen (tdata w)) by (rewrite good_size, good_len by auto; reflexivity).
  unfold adam_update in E. fold mt vt in E. rewrite Lw in *.
  destruct (for_ 0 (Zlen (tdata w)) (adam_body o (tdata g) (adam_alpha o)) (tdata w, tdata mt, tdata vt)) as [((wd & md) & vd)|e| | |] eqn:EF; cbn [step] in E; try discriminate E.
  assert (Eo : o' = adam_with o k (mkTensor (tshape mt) md) (mkTensor (tshape vt) vd)) by congruence.
  assert (Ew : w' = mkTensor (tshape w) wd) by congruence. subst o' w'.
  destruct (adam_loop_par o (adam_alpha o) (tdata w) (tdata g) (tdata mt) (tdata vt) wd md vd m) as (HS & HV); auto;
    [rewrite !good_len by auto; congruence..|].
  split; [exact HS|]. intros m' HF. destruct (HV m' HF) as (V0 & V2 & V3). split; [exact V0|].
  exists (mkTensor (tshape mt) md), (mkTensor (tshape vt) vd). cbn [adam_with ad_m ad_v tdata]. rewrite !put_eq. auto.
Qed.
End Loops.

(** *** Loops that share more than the result *)
Theorem transpose_race : forall {T} (s s' : shape) perm (m : mem (cell T)), pos_dims (dims s) -> 2 <= ssize s ->
  ~ race_free (transpose_loop s s' perm) m.
Proof.
  intros T s s' perm m (HN & _) HS HR. apply (HR (m, transpose_loop s s' perm) (ps_refl _)). cbn [snd].
  destruct (rev (dims s)) as [|d r] eqn:ER.
  { exfalso. apply HN. rewrite <- (rev_involutive (dims s)), ER. reflexivity. }
  exists 0%nat, 1%nat, (transpose_iter s s' perm 0), (transpose_iter s s' perm 1), 2, (Zlen r), true, true.
  split; [lia|]. split; [apply (map_zrange_nth _ _ 0); lia|]. split; [apply (map_zrange_nth _ _ 1); lia|].
  unfold transpose_iter. rewrite ER. cbn [put_old next]. auto.
Qed.

Theorem rand_race : forall {T G} (draw : G -> T * G) size (m : mem (rcell T G)) g, 2 <= size -> m 0 0 = Engine g ->
  ~ race_free (rand_loop draw size) m.
Proof.
  intros T G draw size m g HS Hm HR.
  assert (E0 : nth_error (rand_loop draw size) 0 = Some (rand_iter draw 0)) by (apply (map_zrange_nth _ _ 0); lia).
  assert (E1 : nth_error (rand_loop draw size) 1 = Some (rand_iter draw 1)) by (apply (map_zrange_nth _ _ 1); lia).
  pose proof (step_rd m (rand_loop draw size) 0 0 0 _ E0) as Hs. rewrite Hm in Hs.
  apply (HR _ (ps_step _ _ _ (ps_refl _) Hs)). cbn [snd].
  eexists 0%nat, 1%nat, _, (rand_iter draw 1), 0, 0, true, false. split; [lia|].
  split; [eapply nth_error_upd_eq; exact E0|]. split; [rewrite nth_error_upd_neq by lia; exact E1|]. auto.
Qed.

(** *** Concrete executions *)
(** A 1 x 2 tensor [10 20], transposed.  Both iterations write oldIndices, then the first continues, then the second. *)
Definition tr_mem : mem (cell Z) := fun a i => if a =? 0 then Elem (10 * (i + 1)) else if a =? 1 then Elem 0 else Index 0.
Definition tr_loop : list (prog (cell Z)) := transpose_loop (shape_of [1; 2]) (shape_of [2; 1]) [1; 0].
Definition tr_sched : list nat := ([0; 0; 1; 1] ++ repeat 0 12 ++ repeat 1 12)%nat.
Lemma tr_wrong : exists m', final tr_loop tr_mem m' /\ m' 1 0 = Elem 0 /\ m' 1 1 = Elem 20.
Proof.
  exists (fst (run_sched tr_sched (tr_mem, tr_loop))). split; [|vm_compute; auto].
  apply sched_final. vm_compute. repeat constructor.
Qed.

(** Two iterations read the engine before either writes it back. *)
Lemma rand_rest : forall {T G} (draw : G -> T * G) js (m : mem (rcell T G)) i, ~ In i js ->
  exec_all (map (rand_iter draw) js) m 1 i = m 1 i.
Proof.
  intros T G draw. induction js as [|j js IH]; intros m i HN; cbn [map exec_all]; auto.
  rewrite IH by (intro; apply HN; right; auto). unfold rand_iter. cbn [exec]. destruct (m 0 0) as [g|x]; cbn [exec]; auto.
  rewrite !mput_neq; auto; intros (H1 & H2); try discriminate. apply HN. left. auto.
Qed.
Lemma rand_twice : forall {T G} (draw : G -> T * G) size (m : mem (rcell T G)) g, 2 <= size -> m 0 0 = Engine g ->
  exists m', final (rand_loop draw size) m m' /\ m' 1 0 = Value (fst (draw g)) /\ m' 1 1 = Value (fst (draw g)).
Proof.
  intros T G draw size m g HS Hm. unfold rand_loop.
  rewrite (zrange_cons 0 size), (zrange_cons (0 + 1) size) by lia. cbn [map]. change (0 + 1 + 1) with 2. change (0 + 1) with 1.
  set (js := zrange 2 size).
  pose proof (sched_steps [0; 1; 0; 0; 1; 1]%nat (m, rand_iter draw 0 :: rand_iter draw 1 :: map (rand_iter draw) js)) as H1.
  cbn [run_sched nth_error fst snd upd rand_iter] in H1. rewrite !Hm in H1. cbn [run_sched nth_error fst snd upd] in H1.
  match type of H1 with psteps _ (?mm, _) => set (m1 := mm) in H1 end.
  destruct (exec_all_after (map (rand_iter draw) js) [Done; Done] m1) as (ps & HP & HD); [repeat constructor|].
  exists (exec_all (map (rand_iter draw) js) m1). split; [exists ps; split; [exact (psteps_trans _ _ _ H1 HP)|exact HD]|].
  rewrite !rand_rest by (unfold js; rewrite In_zrange; lia). split; reflexivity.
Qed.

(** The sequential loop draws the second element from the engine the first one left. *)
Lemma rand_seq2 : forall {T G} (draw : G -> T * G) size (m : mem (rcell T G)) g, 2 <= size -> m 0 0 = Engine g ->
  exec_all (rand_loop draw size) m 1 0 = Value (fst (draw g)) /\ exec_all (rand_loop draw size) m 1 1 = Value (fst (draw (snd (draw g)))).
Proof.
  intros T G draw size m g HS Hm. unfold rand_loop.
  rewrite (zrange_cons 0 size), (zrange_cons (0 + 1) size) by lia. cbn [map exec_all]. change (0 + 1 + 1) with 2. change (0 + 1) with 1.
  rewrite !rand_rest by (rewrite In_zrange; lia). unfold rand_iter. cbn [exec]. rewrite Hm. cbn [exec].
  repeat first [rewrite mput_neq by (intros (? & ?); discriminate)|rewrite mput_eq|progress cbn [exec]]. split; reflexivity.
Qed.

Lemma tr_refuted : exists (t r : tensor Z) m m', good t /\ t_transpose t 0 1 = Ok r /\
  holds m 0 (map Elem (tdata t)) /\
  holds (exec_all (transpose_loop (tshape t) (tshape r) [1; 0]) m) 1 (map Elem (tdata r)) /\
  final (transpose_loop (tshape t) (tshape r) [1; 0]) m m' /\ ~ holds m' 1 (map Elem (tdata r)).
Proof.
  destruct tr_wrong as (m' & HF & H0 & _).
  exists (tensor_of [1; 2] (fn2 (fun _ j => 10 * (j + 1)))), (tensor_of [2; 1] (fn2 (fun i _ => 10 * (i + 1)))), tr_mem, m'.
  assert (Hc : forall i, 0 <= i < 2 -> i = 0 \/ i = 1) by lia.
  split; [apply good_tensor_of; [split; [discriminate|repeat constructor]|vm_compute; discriminate]|].
  split; [vm_compute; reflexivity|].
  split; [intros d i Hi; destruct (Hc i Hi) as [-> | ->]; reflexivity|].
  split; [intros d i Hi; destruct (Hc i Hi) as [-> | ->]; vm_compute; reflexivity|].
  split; [exact HF|]. intros HH. specialize (HH (Elem 0) 0 ltac:(vm_compute; split; congruence)). rewrite H0 in HH. vm_compute in HH. discriminate HH.
Qed.

(** *** Reductions *)
Lemma Rsum_perm : forall l l', Permutation l l' -> Rsum l = Rsum l'.
Proof. induction 1; cbn [Rsum]; lra. Qed.
Lemma Rsum_app : forall l l', Rsum (l ++ l') = (Rsum l + Rsum l')%R.
Proof. induction l as [|x l IH]; intros; cbn [app Rsum]; [|rewrite IH]; lra. Qed.
Lemma Rsum_concat : forall ls, Rsum (map Rsum ls) = Rsum (concat ls).
Proof. induction ls as [|l ls IH]; cbn [map Rsum concat]; auto. rewrite Rsum_app, IH. reflexivity. Qed.
Lemma lanes_sum : forall (terms : list R) (lanes : list (list R)), Permutation (concat lanes) terms -> fsum (map fsum lanes) = fsum terms.
Proof.
  intros terms lanes HP. rewrite !fsum_R, (map_ext _ _ fsum_R), Rsum_concat. apply Rsum_perm. exact HP.
Qed.
(** 2^24 + 1 - 2^24 *)
Lemma lanes_float : forall lm, let S := F32Scalar lm in
  exists (terms : list f32) lanes, Permutation (concat lanes) terms /\ fsum (map fsum lanes) <> fsum terms.
Proof.
  intros lm S. exists [f32_of_Z (2 ^ 24); f32_of_Z 1; f32_of_Z (- 2 ^ 24)], [[f32_of_Z (2 ^ 24); f32_of_Z (- 2 ^ 24)]; [f32_of_Z 1]].
  split; [apply perm_skip, perm_swap|]. vm_compute. discriminate.
Qed.

(** ** The racing loops, run by one thread *)
Lemma exec_sim : forall {V St I} (Q : mem V -> St -> Prop) (iter : I -> prog V) (body : I -> St -> outcome St) l m s s',
  (forall i m s s', In i l -> Q m s -> body i s = Ok s' -> Q (exec (iter i) m) s') -> Q m s -> foldM body l s = Ok s' -> Q (exec_all (map iter l) m) s'.
Proof.
  intros V St I Q iter body l. induction l as [|i l IH]; intros m s s' H HQ E; cbn [map exec_all foldM] in *.
  - injection E as <-. exact HQ.
  - apply bind_ok_inv in E. destruct E as (s1 & E1 & E). apply (IH _ s1); auto; [intros; eapply H; eauto; right; auto|]. apply (H i m s); auto. left; auto.
Qed.
Lemma holds_upd : forall {V W} (f : W -> V) (m : mem V) a l i x, 0 <= i < Zlen l -> holds m a (map f l) -> holds (mput m a i (f x)) a (map f (upd l (Z.to_nat i) x)).
Proof.
  intros V W f m a l i x Hi H d j Hj. rewrite Zlen_map, Zlen_upd in Hj. rewrite (znth_map x d) by (rewrite Zlen_upd; lia). destruct (Z.eq_dec j i) as [->|NE].
  - rewrite mput_eq, znth_upd_eq by lia. reflexivity.
  - rewrite mput_neq by tauto. rewrite znth_upd_neq by lia. rewrite (H d) by (rewrite Zlen_map; lia). apply znth_map. lia.
Qed.
Lemma holds_same : forall {V} (m m' : mem V) a l, (forall i, m' a i = m a i) -> holds m a l -> holds m' a l.
Proof. intros V m m' a l E H d i Hi. rewrite E. apply H. exact Hi. Qed.

Lemma random_seq : forall {T G} {S : Scalar T} {HR : Rng T G} ds (mn mx : T) (g : G) r g' (m : mem (rcell T G)),
  f_random ds mn mx g = Ok (r, g') -> m 0 0 = Engine g -> holds m 1 (map Value (tdata (t_new (tshape r)))) ->
  let m' := exec_all (rand_loop (he_rand_range (s_z (ssize (tshape r))) mn mx) (ssize (tshape r))) m in
  holds m' 1 (map Value (tdata r)) /\ m' 0 0 = Engine g'.
Proof.
  intros T G S HR ds mn mx g r g' m E Hg H1. cbv zeta. unfold f_random in E. apply bind_ok_inv in E. destruct E as (s & _ & E). apply bind_ok_inv in E. destruct E as ((out & g1) & EF & E). cbn [fst snd] in E. injection E as <- <-. cbn [tshape tdata] in *.
  unfold rand_loop. pose (Q := fun (m : mem (rcell T G)) (st : list T * G) => holds m 1 (map Value (fst st)) /\ m 0 0 = Engine (snd st)).
  apply (exec_sim Q (rand_iter (he_rand_range (s_z (ssize s)) mn mx)) _ _ m _ (out, g1)) in EF; [exact EF| |split; [exact H1|exact Hg]].
  intros i m0 (o & g0) (o' & g0') _ (A & B) EB. cbn [fst snd] in *. destruct (he_rand_range (s_z (ssize s)) mn mx g0) as (v & g2) eqn:ED. apply bind_ok_inv in EB. destruct EB as (o2 & EW & EB). injection EB as <- <-. apply wr_ok_inv in EW. destruct EW as (Hi & ->).
  unfold Q, rand_iter. cbn [exec fst snd]. rewrite B. cbn [exec]. rewrite ED. cbn [fst snd]. split.
  - apply (holds_upd Value); [exact Hi|]. apply (holds_same m0); [|exact A]. intros j. apply mput_neq. intros (? & _). discriminate.
  - rewrite mput_neq by (intros (? & _); discriminate). apply mput_eq.
Qed.

Section TransposeSeq.
Context {T : Type} {S : Scalar T}.
Implicit Types m : mem (cell T).
Lemma put_old_exec : forall ds tl temp k m old temp', old_indices ds temp = Ok (old, temp') ->
  exists m1, exec (put_old (rev ds ++ tl) temp k) m = exec (put_old tl temp' k) m1 /\ Zlen old = Zlen ds /\
    (forall a i, a <> 2 -> m1 a i = m a i) /\ forall j, 0 <= j < Zlen old -> m1 2 (Zlen tl + j) = Index (znth 0 old j).
Proof.
  induction ds as [|d ds IH]; intros tl temp k m old temp' E; cbn [old_indices rev app] in *.
  - injection E as <- <-. exists m. split; [reflexivity|]. split; [reflexivity|]. split; [auto|]. intros j Hj. change (Zlen (@nil Z)) with 0 in Hj. lia.
  - apply bind_ok_inv in E. destruct E as ((old' & t') & E' & E). destruct (d =? 0); [discriminate|]. injection E as <- <-.
    destruct (IH (d :: tl) temp k m old' t' E') as (m1 & E1 & L1 & O1 & C1). rewrite <- app_assoc. cbn [app]. rewrite E1. cbn [put_old exec].
    exists (mput m1 2 (Zlen tl) (Index (t' mod d))). split; [reflexivity|]. split; [rewrite !Zlen_cons; lia|]. split.
    + intros a i Ha. rewrite mput_neq by tauto. auto.
    + intros j Hj. rewrite Zlen_cons in Hj. destruct (Z.eq_dec j 0) as [->|NE].
      * rewrite Z.add_0_r, mput_eq. reflexivity.
      * rewrite mput_neq by lia. rewrite Zlen_cons in C1. replace (Zlen tl + j) with (Zlen tl + 1 + (j - 1)) by lia. rewrite C1 by lia. f_equal. unfold znth. replace (Z.to_nat j) with (Datatypes.S (Z.to_nat (j - 1))) by lia. reflexivity.
Qed.
Lemma put_new_exec : forall perm d k m, 
  exists m1, exec (put_new perm d k) m = exec k m1 /\ (forall a i, a <> 3 -> m1 a i = m a i) /\ (forall i, i < d -> m1 3 i = m 3 i) /\
    forall j, 0 <= j < Zlen perm -> m1 3 (d + j) = m 2 (znth 0 perm j).
Proof.
  induction perm as [|o perm IH]; intros d k m; cbn [put_new exec].
  - exists m. split; [reflexivity|]. split; [auto|]. split; [auto|]. intros j Hj. change (Zlen (@nil Z)) with 0 in Hj. lia.
  - destruct (IH (d + 1) k (mput m 3 d (m 2 o))) as (m1 & E & A & B & C). exists m1. split; [exact E|]. split; [|split].
    + intros a i Ha. rewrite A by auto. apply mput_neq. tauto.
    + intros i Hi. rewrite B by lia. apply mput_neq. lia.
    + intros j Hj. rewrite Zlen_cons in Hj. destruct (Z.eq_dec j 0) as [->|NE].
      * rewrite Z.add_0_r, B by lia. apply mput_eq.
      * replace (d + j) with (d + 1 + (j - 1)) by lia. rewrite C by lia. rewrite mput_neq by lia. f_equal. unfold znth. replace (Z.to_nat j) with (Datatypes.S (Z.to_nat (j - 1))) by lia. reflexivity.
Qed.
Lemma get_idx_exec : forall a ds acc k m (f : Z -> Z), (forall d, In d ds -> m a d = Index (f d)) -> exec (get_idx a ds acc k) m = exec (k (acc ++ map f ds)) m.
Proof.
  intros a. induction ds as [|d ds IH]; intros acc k m f H; cbn [get_idx exec map].
  - rewrite app_nil_r. reflexivity.
  - rewrite (H d) by (left; auto). rewrite (IH _ _ _ f) by (intros; apply H; right; auto). rewrite <- app_assoc. reflexivity.
Qed.
Lemma znth_all : forall (l : list Z) r, Zlen l = r -> map (fun d => znth 0 l d) (zrange 0 r) = l.
Proof. intros l r <-. apply (list_ext 0); [rewrite Zlen_map, Zlen_zrange; pose proof (Zlen_nonneg l); lia|]. intros i Hi. rewrite Zlen_map, Zlen_zrange in Hi by (pose proof (Zlen_nonneg l); lia). rewrite (znth_map 0) by (rewrite Zlen_zrange; lia). rewrite znth_zrange by lia. reflexivity. Qed.
Lemma mapM_inv : forall {A B} (f : A -> outcome B) (d : A) (e : B) l r, mapM f l = Ok r -> Zlen r = Zlen l /\ forall i, 0 <= i < Zlen l -> f (znth d l i) = Ok (znth e r i).
Proof.
  intros A B f d e. induction l as [|a l IH]; intros r E; cbn [mapM] in E.
  - injection E as <-. split; [reflexivity|]. intros i Hi. change (Zlen (@nil A)) with 0 in Hi. lia.
  - apply bind_ok_inv in E. destruct E as (b & Eb & E). apply bind_ok_inv in E. destruct E as (bs & Ebs & E). injection E as <-. destruct (IH bs Ebs) as (L & H). rewrite !Zlen_cons. split; [lia|]. intros i Hi.
    destruct (Z.eq_dec i 0) as [->|NE]; [exact Eb|]. unfold znth. replace (Z.to_nat i) with (Datatypes.S (Z.to_nat (i - 1))) by lia. apply H. lia.
Qed.
Lemma transpose_seq : forall (t r : tensor T) i j m, t_transpose t i j = Ok r -> holds m 0 (map Elem (tdata t)) -> holds m 1 (map Elem (tdata (t_new (tshape r)))) ->
  holds (exec_all (transpose_loop (tshape t) (tshape r) (axes_swapped (rank (tshape t)) i j)) m) 1 (map Elem (tdata r)).
Proof.
  intros t r i j m E H0 H1. unfold t_transpose in E. set (R := rank (tshape t)) in *. destruct ((R <=? i) || (R <=? j)); [discriminate|].
  repeat (apply bind_ok_inv in E; let v := fresh "v" in let Ev := fresh "Ev" in destruct E as (v & Ev & E)).
  assert (PM : v7 = axes_swapped R i j).
  { assert (HR : 0 <= R) by apply Zlen_nonneg. apply (rd_ok_inv 0) in Ev4, Ev5. rewrite Zlen_zrange in Ev4, Ev5 by lia. destruct Ev4 as (Hi & ->). destruct Ev5 as (Hj & ->). apply wr_ok_inv in Ev6. destruct Ev6 as (_ & ->). apply wr_ok_inv in Ev7. destruct Ev7 as (_ & ->). rewrite !znth_zrange by lia.
    unfold axes_swapped. apply (list_ext 0); [rewrite !Zlen_upd, Zlen_map; reflexivity|]. intros k Hk. rewrite !Zlen_upd, Zlen_zrange in Hk by lia. rewrite (znth_map 0) by (rewrite Zlen_zrange; lia). rewrite (znth_zrange 0 0 R k) by lia. rewrite !Z.add_0_l.
    destruct (Z.eqb_spec k i) as [EI|NI]; destruct (Z.eqb_spec k j) as [EJ|NJ]; try (subst i); try (subst j).
    - rewrite znth_upd_eq by (rewrite Zlen_upd, Zlen_zrange; lia). lia.
    - rewrite znth_upd_neq by lia. rewrite znth_upd_eq by (rewrite Zlen_zrange; lia). lia.
    - rewrite znth_upd_eq by (rewrite Zlen_upd, Zlen_zrange; lia). lia.
    - rewrite !znth_upd_neq by lia. rewrite znth_zrange by lia. lia. }
  subst v7. unfold transpose_loop. fold R.
  pose (Q := fun m (res : tensor T) => holds m 0 (map Elem (tdata t)) /\ holds m 1 (map Elem (tdata res)) /\ tshape res = v3).
  assert (TS : tshape r = v3).
  { apply (exec_sim (fun (_ : mem (cell T)) (res : tensor T) => tshape res = v3) (fun _ => Done) _ _ m (t_new v3) r) in E; [exact E| |reflexivity]. intros q m0 s s' _ Es EB.
    apply bind_ok_inv in EB. destruct EB as ((old & t') & _ & EB). apply bind_ok_inv in EB. destruct EB as (new & _ & EB). apply bind_ok_inv in EB. destruct EB as (x & _ & EB). unfold t_at_set in EB. apply bind_ok_inv in EB. destruct EB as (to & _ & EB). unfold t_set in EB. apply bind_ok_inv in EB. destruct EB as (dd & _ & EB). injection EB as <-. exact Es. }
  rewrite TS in *. apply (exec_sim Q (transpose_iter (tshape t) v3 (axes_swapped R i j)) _ _ m (t_new v3) r) in E; [destruct E as (_ & E & _); exact E| |split; [exact H0|split; [exact H1|reflexivity]]].
  intros q m0 s s' _ (A0 & A1 & As) EB. apply bind_ok_inv in EB. destruct EB as ((old & t') & EO & EB). apply bind_ok_inv in EB. destruct EB as (new & EN & EB). apply bind_ok_inv in EB. destruct EB as (x & EX & EB).
  unfold t_at in EX. apply bind_ok_inv in EX. destruct EX as (from & EF & EX). unfold t_at_set in EB. apply bind_ok_inv in EB. destruct EB as (to & ET & EB). unfold t_set in EB. apply bind_ok_inv in EB. destruct EB as (dd & EW & EB). injection EB as <-. apply wr_ok_inv in EW. destruct EW as (Hto & ->). rewrite As in ET.
  apply (rd_ok_inv x) in EX. destruct EX as (Hfrom & EX). unfold transpose_iter. fold R.
  destruct (put_old_exec (dims (tshape t)) [] q (put_new (axes_swapped R i j) 0 (get_idx 2 (zrange 0 R) [] (fun old0 => match compute_flat_index (tshape t) old0 with Ok from0 => Rd 0 from0 (fun x0 => get_idx 3 (zrange 0 R) [] (fun new0 => match compute_flat_index v3 new0 with Ok to0 => Wr 1 to0 x0 Done | _ => Done end)) | _ => Done end))) m0 old t' EO) as (m1 & E1 & L1 & O1 & C1).
  rewrite app_nil_r in E1. rewrite E1. cbn [put_old]. destruct (put_new_exec (axes_swapped R i j) 0 (get_idx 2 (zrange 0 R) [] (fun old0 => match compute_flat_index (tshape t) old0 with Ok from0 => Rd 0 from0 (fun x0 => get_idx 3 (zrange 0 R) [] (fun new0 => match compute_flat_index v3 new0 with Ok to0 => Wr 1 to0 x0 Done | _ => Done end)) | _ => Done end)) m1) as (m2 & E2 & O2 & _ & C2). rewrite E2.
  change (Zlen (dims (tshape t))) with R in L1. change (Zlen (@nil Z)) with 0 in C1.
  assert (ZR : Zlen (zrange 0 R) = R) by (rewrite Zlen_zrange; pose proof (Zlen_nonneg (dims (tshape t))); change (Zlen (dims (tshape t))) with R in *; lia).
  rewrite (get_idx_exec 2 (zrange 0 R) [] _ m2 (fun d => znth 0 old d)) by (intros d Hd; apply In_zrange in Hd; rewrite O2 by lia; apply (C1 d); lia).
  cbn [app]. rewrite (znth_all old R L1), EF. cbn [exec]. rewrite (get_idx_exec 3 (zrange 0 R) [] _ m2 (fun d => znth 0 new d)).
  2:{ intros d Hd. apply In_zrange in Hd. destruct (mapM_inv _ 0 0 _ _ EN) as (LN & HN). specialize (HN d ltac:(lia)). rewrite znth_zrange in HN by lia. rewrite Z.add_0_l in HN. apply bind_ok_inv in HN. destruct HN as (o & Eo & HN).
      apply (rd_ok_inv 0) in Eo. destruct Eo as (Ho & ->). apply (rd_ok_inv 0) in HN. destruct HN as (HN1 & ->). rewrite <- (Z.add_0_l d) at 1. rewrite (C2 d) by lia. apply (C1 (znth 0 (axes_swapped R i j) d)). exact HN1. }
  cbn [app]. destruct (mapM_inv _ 0 0 _ _ EN) as (LN & _). rewrite (znth_all new R ltac:(lia)), ET. cbn [exec].
  assert (EX2 : m2 0 from = Elem x) by (rewrite O2, O1 by lia; rewrite (A0 (Elem x)) by (rewrite Zlen_map; lia); rewrite (znth_map x) by lia; f_equal; auto). rewrite EX2.
  split; [|split; [|exact As]].
  - apply (holds_same m0); [|exact A0]. intros k. rewrite mput_neq by (intros (? & _); discriminate). rewrite O2, O1 by lia. reflexivity.
  - cbn [tdata]. apply (holds_upd Elem); [exact Hto|]. apply (holds_same m0); [|exact A1]. intros k. rewrite O2, O1 by lia. reflexivity.
Qed.
End TransposeSeq.
