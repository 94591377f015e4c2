(** * Lemmas about the tensor life cycle *)
From Verif Require Import Base Scalar Types Spec M_Shape M_Tensor M_Heap SpecHeap L_Index L_Shape L_Tensor L_Tensor2.

Section L.
Context {T : Type} {S : Scalar T}.
Variable fails : Z -> bool.

Lemma mset_eq : forall {A} (f : Z -> option A) k x, mset f k x k = x.
Proof. intros. unfold mset. rewrite Z.eqb_refl. auto. Qed.
Lemma mset_neq : forall {A} (f : Z -> option A) k x k', k' <> k -> mset f k x k' = f k'.
Proof. intros. unfold mset. destruct (Z.eqb_spec k' k); congruence. Qed.

Ltac splitk := repeat (unfold mset in *; match goal with
  | H : context [?a =? ?b] |- _ => destruct (Z.eqb_spec a b)
  | |- context [?a =? ?b] => destruct (Z.eqb_spec a b) end).

Lemma owns_var : forall (h : heap T) v o, h_vars h v = Some o -> forall a, owns h v a <-> o_ptr o = Some a.
Proof.
  intros h v o H a. unfold owns. split; [intros (o' & E & P); congruence|intro P; exists o; auto].
Qed.

(** ** Allocation of a block that becomes the block of [v] *)

(** [h'] is [h] with block [a] set to [l] and [v] turned into an object owning it;
    [p] is the block [v] owned before, which is freed. *)
Definition rebound (h h' : heap T) (v : Z) (s : shape) (a : Z) (l : list T) (p : option Z) : Prop :=
  (forall b, h_mem h' b = if b =? a then Some l else if match p with Some q => b =? q | None => false end then None else h_mem h b) /\
  (forall u, h_vars h' u = if u =? v then Some (mkObj s (Some a)) else h_vars h u) /\
  h_next h' = h_next h + 1 /\ h_bad h' = h_bad h.

Lemma rebound_owned : forall h h' v s l p, owned h -> (forall q, p = Some q <-> owns h v q) -> rebound h h' v s (h_next h) l p ->
  owned h' /\ (forall u, value h' u = if u =? v then Some (mkTensor s l) else value h u).
Proof.
  intros h h' v s l p (O1 & O2 & O3 & O4 & O5) Hp (M & V & N & B).
  assert (Hfresh : h_mem h (h_next h) = None).
  { destruct (h_mem h (h_next h)) eqn:E; auto. exfalso. assert (h_next h < h_next h) by (apply O5; congruence). lia. }
  assert (Hv' : forall u b, u <> v -> owns h' u b <-> owns h u b).
  { intros u b Hu. unfold owns. rewrite V. destruct (Z.eqb_spec u v); [contradiction|]. tauto. }
  assert (Hvv : forall b, owns h' v b <-> b = h_next h).
  { intro b. unfold owns. rewrite V, Z.eqb_refl. split; [intros (o & E & P); injection E as <-; cbn in P; congruence|].
    intros ->. eexists; split; reflexivity. }
  assert (Hmem : forall u b, u <> v -> owns h u b -> h_mem h' b = h_mem h b).
  { intros u b Hu Ho. rewrite M. destruct (Z.eqb_spec b (h_next h)) as [->|].
    - exfalso. apply (O1 u _ Ho). auto.
    - destruct p as [q|]; auto. destruct (Z.eqb_spec b q) as [->|]; auto. exfalso. apply Hu. apply (O2 u v q); auto. apply Hp; auto. }
  split.
  - split; [|split; [|split; [|split]]].
    + intros u b Ho. destruct (Z.eq_dec u v) as [->|Hu].
      * apply Hvv in Ho. subst. rewrite M, Z.eqb_refl. discriminate.
      * apply Hv' in Ho; auto. rewrite (Hmem u b) by auto. apply (O1 u); auto.
    + intros u w b Hu Hw. destruct (Z.eq_dec u v) as [->|Nu], (Z.eq_dec w v) as [->|Nw]; auto.
      * apply Hvv in Hu. apply Hv' in Hw; auto. subst. exfalso. apply (O1 w _ Hw). auto.
      * apply Hvv in Hw. apply Hv' in Hu; auto. subst. exfalso. apply (O1 u _ Hu). auto.
      * apply Hv' in Hu; auto. apply Hv' in Hw; auto. eapply O2; eauto.
    + intros b Hb. rewrite M in Hb. revert Hb. destruct (Z.eqb_spec b (h_next h)) as [->|Hne]; intro Hb; [exists v; apply Hvv; auto|].
      assert (Hq : h_mem h b <> None /\ p <> Some b).
      { revert Hb. destruct p as [q|]; [|split; [auto|discriminate]]. destruct (Z.eqb_spec b q); intro Hb; [congruence|split; congruence]. }
      destruct Hq as (Hq1 & Hq2). destruct (O3 b Hq1) as (u & Hu). exists u. apply Hv'; auto.
      intros ->. apply Hq2. apply Hp. auto.
    + congruence.
    + intros b Hb. rewrite M in Hb. rewrite N. revert Hb. destruct (Z.eqb_spec b (h_next h)) as [->|Hne]; intro Hb; [lia|].
      assert (h_mem h b <> None).
      { revert Hb. destruct p as [q|]; auto. destruct (Z.eqb_spec b q); congruence. }
      specialize (O5 b H). lia.
  - intro u. unfold value. rewrite V. destruct (Z.eqb_spec u v) as [->|Hu].
    + cbn [o_shape o_ptr load]. rewrite M, Z.eqb_refl. reflexivity.
    + destruct (h_vars h u) as [o|] eqn:E; auto. do 2 f_equal. unfold load. destruct (o_ptr o) as [b|] eqn:P; auto.
      rewrite (Hmem u b); auto. exists o; auto.
Qed.

Lemma copy_dst : forall n (src : list T), n <= Zlen src ->
  firstn (Z.to_nat n) src ++ skipn (Z.to_nat n) (zrepeat (zero : T) n) = firstn (Z.to_nat n) src.
Proof.
  intros n src H. replace (skipn (Z.to_nat n) (zrepeat (zero : T) n)) with (@nil T); [apply app_nil_r|].
  symmetry. apply skipn_all2. unfold zrepeat. rewrite repeat_length. lia.
Qed.

Lemma Zlen_zrepeat_le : forall (x : T) n, n <= Zlen (zrepeat x n).
Proof. intros. unfold Zlen, zrepeat. rewrite repeat_length. lia. Qed.

(** A failed allocation changes nothing that can be observed. *)
Definition bumped_next (h : heap T) : heap T := mkHeap (h_mem h) (h_next h + 1) (h_vars h) (h_bad h).
Lemma owned_bumped : forall h, owned h -> owned (bumped_next h) /\ forall u, value (bumped_next h) u = value h u.
Proof.
  intros h (O1 & O2 & O3 & O4 & O5). split; [|reflexivity]. split; [exact O1|split; [exact O2|split; [exact O3|split; [exact O4|]]]].
  intros a Ha. cbn in *. specialize (O5 a Ha). lia.
Qed.

(** The spec step agrees with the heap step in outcome and, if the program goes on, in every variable. *)
Definition agrees (p : heap T * outcome unit) (q : vars * outcome unit) : Prop :=
  snd p = snd q /\ (survives (snd p) -> owned (fst p) /\ forall u, value (fst p) u = fst q u).

Lemma not_survives : forall r : outcome unit, (r = UB \/ r = Abort \/ r = Hang) -> ~ survives r.
Proof. intros r [->|[->| ->]] [H|(e & H)]; discriminate. Qed.

Lemma agrees_stop : forall h V r, (r = UB \/ r = Abort \/ r = Hang) -> agrees (h, r) (V, r).
Proof. intros h V r Hr. split; auto. intro Hs. exfalso. exact (not_survives r Hr Hs). Qed.

Lemma agrees_same : forall h (V : @vars T) r, owned h -> (forall u, value h u = V u) -> agrees (h, r) (V, r).
Proof. intros. split; auto. Qed.

Lemma construct_agrees : forall noex h (V : @vars T) v s src, owned h -> (forall u, value h u = V u) -> h_vars h v = None ->
  agrees (construct fails noex v s src h)
    (vput V v (when (negb (fails (h_next h))) (if noex then Abort else Throw BadAlloc) (t_from_ptr s src))).
Proof.
  intros noex h V v s src HO HV Hv. unfold construct, alloc, when. destruct (fails (h_next h)); cbn [negb].
  - fold (bumped_next h). destruct (owned_bumped h HO) as (HO' & HV').
    destruct noex; cbn [vput]; [apply agrees_stop; auto|]. apply agrees_same; auto.
  - unfold copy_n. cbn [h_mem]. rewrite mset_eq. unfold t_from_ptr.
    pose proof (Zlen_zrepeat_le zero (ssize s)) as HL. destruct (Z.leb_spec (ssize s) (Zlen (zrepeat (zero : T) (ssize s)))); [|lia].
    destruct (Z.leb_spec (ssize s) (Zlen src)); cbn [andb vput]; [|apply agrees_stop; auto].
    rewrite copy_dst by auto. split; [reflexivity|]. intros _. cbn [fst].
    match goal with |- owned ?h' /\ _ => destruct (rebound_owned h h' v s (firstn (Z.to_nat (ssize s)) src) None HO) as (HO' & HV') end.
    + intro q. split; [discriminate|]. intros (o & E & _). congruence.
    + split; [|split; [|split]]; auto.
      * intro b. cbn [h_mem set_var set_mem]. unfold mset. destruct (Z.eqb_spec b (h_next h)); auto.
    + split; [exact HO'|]. intro u. rewrite HV'. unfold vset. rewrite HV. reflexivity.
Qed.

(** ** Operations that neither allocate nor free *)

(** Same blocks, same owners. *)
Lemma owned_same : forall (h h' : heap T), owned h ->
  (forall a, h_mem h' a = None <-> h_mem h a = None) -> (forall v a, owns h' v a <-> owns h v a) ->
  h_next h' = h_next h -> h_bad h' = h_bad h -> owned h'.
Proof.
  intros h h' (O1 & O2 & O3 & O4 & O5) HM HO HN HB. split; [|split; [|split; [|split]]].
  - intros v a H. rewrite HM. apply (O1 v). apply HO. auto.
  - intros v w a H1 H2. apply (O2 v w a); apply HO; auto.
  - intros a H. rewrite HM in H. destruct (O3 a H) as (v & Hv). exists v. apply HO. auto.
  - congruence.
  - intros a H. rewrite HM in H. rewrite HN. auto.
Qed.

Lemma store_agrees : forall h (V : @vars T) v o i x, owned h -> (forall u, value h u = V u) -> h_vars h v = Some o ->
  agrees (store_at (o_ptr o) i x h) (vput V v (t_set (mkTensor (o_shape o) (load (o_ptr o) h)) i x)).
Proof.
  intros h V v o i x HO HV Hv. pose proof HO as (O1 & O2 & O3 & O4 & O5). unfold store_at, t_set. cbn [tdata tshape].
  destruct (o_ptr o) as [a|] eqn:P; cbn [load].
  - assert (Ho : owns h v a) by (exists o; auto). destruct (h_mem h a) as [l|] eqn:E; [|exfalso; apply (O1 v a Ho); auto].
    destruct (wr l i x) as [l'|e| | |] eqn:W; cbn [bind vput].
    + split; [reflexivity|]. intros _. cbn [fst]. split.
      * apply (owned_same h); auto.
        { intro b. cbn [h_mem set_mem]. unfold mset. destruct (Z.eqb_spec b a) as [->|]; [rewrite E; split; discriminate|tauto]. }
        { intros; tauto. }
      * intro u. unfold vset. unfold value at 1. cbn [h_vars set_mem]. destruct (Z.eqb_spec u v) as [->|Hu].
        { rewrite Hv, P. cbn [load]. cbn [h_mem set_mem]. rewrite mset_eq. reflexivity. }
        { rewrite <- HV. unfold value. destruct (h_vars h u) as [o'|] eqn:E'; auto. do 2 f_equal. unfold load. cbn [h_mem set_mem].
          destruct (o_ptr o') as [b|] eqn:P'; auto. rewrite mset_neq; auto. intros ->. apply Hu. apply (O2 u v a); auto. exists o'; auto. }
    + unfold wr in W. destruct (_ && _); discriminate.
    + unfold wr in W. destruct (_ && _); discriminate.
    + apply agrees_stop; auto.
    + unfold wr in W. destruct (_ && _); discriminate.
  - rewrite wr_ub by (change (Zlen (@nil T)) with 0; lia). cbn [bind vput]. apply agrees_stop; auto.
Qed.

(** Destroying or replacing an object frees its block. *)
Lemma free_live : forall (h : heap T) p, (forall a, p = Some a -> h_mem h a <> None) ->
  (forall b, h_mem (free p h) b = if match p with Some q => b =? q | None => false end then None else h_mem h b) /\
  h_vars (free p h) = h_vars h /\ h_next (free p h) = h_next h /\ h_bad (free p h) = h_bad h.
Proof.
  intros h p Hp. unfold free. destruct p as [a|]; [|auto].
  destruct (h_mem h a) eqn:E; [|exfalso; apply (Hp a); auto]. cbn [h_mem set_mem h_vars h_next h_bad]. auto.
Qed.

Theorem step_agrees : forall o h (V : @vars T), owned h -> (forall u, value h u = V u) ->
  agrees (step fails o h) (vstep (negb (fails (h_next h))) o V).
Proof.
  intros o h V HO HV. pose proof HO as (O1 & O2 & O3 & O4 & O5).
  assert (Vn : forall v, h_vars h v = None -> V v = None) by (intros v E; rewrite <- HV; unfold value; rewrite E; auto).
  assert (Vs : forall v x, h_vars h v = Some x -> V v = Some (mkTensor (o_shape x) (load (o_ptr x) h))).
  { intros v x E. rewrite <- HV. unfold value. rewrite E. auto. }
  assert (Hskip : agrees (skip h) (V, Ok tt)) by (apply agrees_same; auto).
  destruct o as [v ds x|v ds src|v w|v w|v w|v w|v idx x|v i x|v ds|v]; cbn [step vstep].
  - destruct (h_vars h v) as [ov|] eqn:Ev; [rewrite (Vs v ov Ev); exact Hskip|rewrite (Vn v Ev)].
    destruct (new_shape ds) as [s|e| | |]; cbn [bind vput]; try (apply agrees_stop; auto; fail); [|apply agrees_same; auto].
    pose proof (construct_agrees true h V v s (zrepeat x (ssize s)) HO HV Ev) as H.
    replace (t_from_ptr s (zrepeat x (ssize s))) with (Ok (t_fill s x)) in H; [exact H|].
    unfold t_from_ptr. pose proof (Zlen_zrepeat_le x (ssize s)). destruct (Z.leb_spec (ssize s) (Zlen (zrepeat x (ssize s)))); [|lia].
    unfold t_fill. do 2 f_equal. symmetry. apply firstn_all2. unfold zrepeat. rewrite repeat_length. lia.
  - destruct (h_vars h v) as [ov|] eqn:Ev; [rewrite (Vs v ov Ev); exact Hskip|rewrite (Vn v Ev)].
    destruct (new_shape ds) as [s|e| | |]; cbn [bind vput]; try (apply agrees_stop; auto; fail); [|apply agrees_same; auto].
    exact (construct_agrees false h V v s src HO HV Ev).
  - destruct (h_vars h v) as [ov|] eqn:Ev; [rewrite (Vs v ov Ev); exact Hskip|rewrite (Vn v Ev)].
    destruct (h_vars h w) as [ow|] eqn:Ew; [rewrite (Vs w ow Ew)|rewrite (Vn w Ew); exact Hskip].
    exact (construct_agrees false h V v (o_shape ow) (load (o_ptr ow) h) HO HV Ev).
  - destruct (h_vars h v) as [ov|] eqn:Ev; [rewrite (Vs v ov Ev); exact Hskip|rewrite (Vn v Ev)].
    destruct (h_vars h w) as [ow|] eqn:Ew; [rewrite (Vs w ow Ew)|rewrite (Vn w Ew); exact Hskip].
    assert (Hvw : v <> w) by congruence. unfold alloc. cbn [h_next set_var].
    destruct (fails (h_next h)); cbn [negb]; [apply agrees_stop; auto|].
    rewrite new_shape_ok_int; [|split; [discriminate|repeat constructor]|vm_compute; discriminate].
    split; [reflexivity|]. intros _. cbn [fst].
    set (hm := set_var (set_var h v (Some ow)) w (Some (mkObj (moved_shape (o_shape ow)) None))).
    assert (Hw : forall a, ~ owns hm w a).
    { intros a (o & E & P). unfold hm in E. cbn [h_vars set_var] in E. rewrite mset_eq in E. injection E as <-. discriminate. }
    assert (Om : owned hm /\ forall u, value hm u = if u =? w then Some (mkTensor (moved_shape (o_shape ow)) []) else if u =? v then Some (mkTensor (o_shape ow) (load (o_ptr ow) h)) else value h u).
    {       assert (Hv : forall a, owns hm v a <-> owns h w a).
      { intro a. unfold owns, hm. cbn [h_vars set_var]. rewrite mset_neq, mset_eq, Ew by auto. tauto. }
      assert (Hu : forall u a, u <> v -> u <> w -> owns hm u a <-> owns h u a).
      { intros u a N1 N2. unfold owns, hm. cbn [h_vars set_var]. rewrite !mset_neq by auto. tauto. }
      assert (Hnv : forall a, ~ owns h v a) by (intros a (o & E & _); congruence).
      split; [split; [|split; [|split; [|split]]]|].
      - intros u a Ho. change (h_mem hm) with (h_mem h). destruct (Z.eq_dec u w) as [->|]; [elim (Hw a Ho)|].
        destruct (Z.eq_dec u v) as [->|]; [apply (O1 w); apply Hv; auto|apply (O1 u); apply Hu; auto].
      - intros u u' a H1 H2. destruct (Z.eq_dec u w) as [->|]; [elim (Hw a H1)|]. destruct (Z.eq_dec u' w) as [->|]; [elim (Hw a H2)|].
        destruct (Z.eq_dec u v) as [->|], (Z.eq_dec u' v) as [->|]; auto.
        + apply Hv in H1. apply Hu in H2; auto. elim n0. apply (O2 u' w a); auto.
        + apply Hv in H2. apply Hu in H1; auto. elim n. apply (O2 u w a); auto.
        + apply Hu in H1; auto. apply Hu in H2; auto. apply (O2 u u' a); auto.
      - intros a Ha. change (h_mem hm a) with (h_mem h a) in Ha. destruct (O3 a Ha) as (u & Ho).
        destruct (Z.eq_dec u w) as [->|]; [exists v; apply Hv; auto|]. destruct (Z.eq_dec u v) as [->|]; [elim (Hnv a Ho)|].
        exists u. apply Hu; auto.
      - exact O4.
      - exact O5.
      - intro u. unfold value, hm. cbn [h_vars set_var]. unfold mset. destruct (Z.eqb_spec u w); auto. destruct (Z.eqb_spec u v); auto. }
    destruct Om as (Om & Vm). assert (Nm : h_next hm = h_next h) by reflexivity. clearbody hm. rewrite <- Nm.
    match goal with |- owned ?h' /\ _ => destruct (rebound_owned hm h' w (shape_of [1]) (zrepeat zero 1) None Om) as (HO' & HV') end.
    + intro q. split; [discriminate|]. intro Ho. elim (Hw q Ho).
    + split; [|split; [|split]]; auto.
    + split; [exact HO'|]. intro u. rewrite HV'. rewrite Vm. unfold vset. destruct (Z.eqb_spec u w); auto.
      destruct (Z.eqb_spec u v); auto.
  - destruct (h_vars h v) as [ov|] eqn:Ev; [rewrite (Vs v ov Ev)|rewrite (Vn v Ev); exact Hskip].
    destruct (h_vars h w) as [ow|] eqn:Ew; [rewrite (Vs w ow Ew)|rewrite (Vn w Ew); exact Hskip].
    destruct (Z.eqb_spec v w) as [|Hvw]; [exact Hskip|]. unfold alloc. cbn [h_next set_var].
    destruct (fails (h_next h)); cbn [negb tshape tdata].
    + split; [reflexivity|]. intros _. cbn [fst]. destruct (owned_bumped h HO) as (HO' & HV').
      assert (Hown : forall u a, owns (set_var (bumped_next h) v (Some (mkObj (o_shape ow) (o_ptr ov)))) u a <-> owns h u a).
      { intros u a. unfold owns. cbn [h_vars set_var bumped_next]. unfold mset. destruct (Z.eqb_spec u v) as [->|]; [|tauto].
        rewrite Ev. split; intros (o & E & P); injection E as <-; cbn in *; eexists; split; [reflexivity|auto|reflexivity|auto]. }
      split.
      * apply (owned_same (bumped_next h)); auto. intros; cbn; tauto.
      * intro u. unfold value at 1. cbn [h_vars set_var]. unfold vset, mset. destruct (Z.eqb_spec u v) as [->|]; [reflexivity|].
        rewrite <- HV. reflexivity.
    + set (hs := set_var _ v _).
      assert (Hlive : forall a, o_ptr ov = Some a -> h_mem hs a <> None).
      { intros a Pa. unfold hs. cbn [h_mem set_var]. unfold mset. destruct (Z.eqb_spec a (h_next h)); [discriminate|].
        apply (O1 v). exists ov; auto. }
      destruct (free_live hs (o_ptr ov) Hlive) as (FM & FV & FN & FB). set (h3 := free (o_ptr ov) hs) in *.
      assert (Hfresh : h_mem h (h_next h) = None).
      { destruct (h_mem h (h_next h)) eqn:E; auto. exfalso. assert (h_next h < h_next h) by (apply O5; congruence). lia. }
      assert (Hov : o_ptr ov <> Some (h_next h)).
      { intro E. apply (O1 v (h_next h)); auto. exists ov; auto. }
      assert (Hld : load (o_ptr ow) h3 = load (o_ptr ow) h).
      { unfold load. destruct (o_ptr ow) as [b|] eqn:Pw; auto. assert (Hb : owns h w b) by (exists ow; auto).
        rewrite FM. unfold hs. cbn [h_mem set_var]. rewrite mset_neq by (intros ->; apply (O1 w _ Hb); auto).
        destruct (o_ptr ov) as [q|] eqn:Pv; auto. destruct (Z.eqb_spec b q) as [->|]; auto.
        exfalso. apply Hvw. apply (O2 v w q); auto. exists ov; auto. }
      assert (Hnew : h_mem h3 (h_next h) = Some (zrepeat zero (ssize (o_shape ow)))).
      { rewrite FM. unfold hs. cbn [h_mem set_var]. rewrite mset_eq. destruct (o_ptr ov) as [q|]; auto.
        destruct (Z.eqb_spec (h_next h) q); auto. congruence. }
      unfold copy_n. rewrite Hnew, Hld. unfold t_copy, t_from_ptr. cbn [tshape tdata].
      pose proof (Zlen_zrepeat_le zero (ssize (o_shape ow))) as HL.
      destruct (Z.leb_spec (ssize (o_shape ow)) (Zlen (zrepeat (zero : T) (ssize (o_shape ow))))); [|lia].
      destruct (Z.leb_spec (ssize (o_shape ow)) (Zlen (load (o_ptr ow) h))); cbn [andb vput]; [|apply agrees_stop; auto].
      rewrite copy_dst by auto. split; [reflexivity|]. intros _. cbn [fst].
      match goal with |- owned ?h' /\ _ => destruct (rebound_owned h h' v (o_shape ow) (firstn (Z.to_nat (ssize (o_shape ow))) (load (o_ptr ow) h)) (o_ptr ov) HO) as (HO' & HV') end.
      * intro q. rewrite (owns_var h v ov Ev q). tauto.
      * split; [|split; [|split]].
        { intro b. cbn [h_mem set_mem]. unfold mset at 1. destruct (Z.eqb_spec b (h_next h)) as [->|Hb]; auto.
          rewrite FM. unfold hs. cbn [h_mem set_var]. rewrite mset_neq by auto. reflexivity. }
        { intro u. cbn [h_vars set_mem]. rewrite FV. unfold hs. cbn [h_vars set_var]. unfold mset. destruct (Z.eqb_spec u v); auto. }
        { cbn [h_next set_mem]. rewrite FN. reflexivity. }
        { cbn [h_bad set_mem]. rewrite FB. reflexivity. }
      * split; [exact HO'|]. intro u. rewrite HV'. unfold vset. rewrite HV. reflexivity.
  - destruct (h_vars h v) as [ov|] eqn:Ev; [rewrite (Vs v ov Ev)|rewrite (Vn v Ev); exact Hskip].
    destruct (h_vars h w) as [ow|] eqn:Ew; [rewrite (Vs w ow Ew)|rewrite (Vn w Ew); exact Hskip].
    destruct (Z.eqb_spec v w) as [|Hvw]; [exact Hskip|]. cbn [tshape].
    set (hs := set_var (set_var h w _) v _).
    destruct (free_live hs (o_ptr ov)) as (FM & FV & FN & FB).
    { intros a Pa. apply (O1 v). exists ov; auto. }
    change (h_mem hs) with (h_mem h) in FM. change (h_next hs) with (h_next h) in FN. change (h_bad hs) with (h_bad h) in FB.
    set (h' := free (o_ptr ov) hs) in *. clearbody h'.
    assert (VV : forall u, h_vars h' u = if u =? v then Some ow else if u =? w then Some (mkObj (moved_shape (o_shape ow)) None) else h_vars h u).
    { intro u. rewrite FV. reflexivity. }
    split; [reflexivity|]. intros _. cbn [fst].
    assert (Hw : forall a, ~ owns h' w a).
    { intros a (o & E & P). rewrite VV in E. destruct (Z.eqb_spec w v); [congruence|]. rewrite Z.eqb_refl in E. injection E as <-. discriminate. }
    assert (Hv : forall a, owns h' v a <-> owns h w a).
    { intro a. unfold owns. rewrite VV, Z.eqb_refl, Ew. tauto. }
    assert (Hu : forall u a, u <> v -> u <> w -> owns h' u a <-> owns h u a).
    { intros u a N1 N2. unfold owns. rewrite VV. destruct (Z.eqb_spec u v); [congruence|]. destruct (Z.eqb_spec u w); [congruence|]. tauto. }
    assert (Hm : forall u a, u <> v -> owns h u a -> h_mem h' a = h_mem h a).
    { intros u a Nu Ho. rewrite FM. destruct (o_ptr ov) as [q|] eqn:Pv; auto. destruct (Z.eqb_spec a q) as [->|]; auto.
      exfalso. apply Nu. apply (O2 u v q); auto. exists ov; auto. }
    split; [split; [|split; [|split; [|split]]]|].
    + intros u a Ho. destruct (Z.eq_dec u w) as [->|]; [elim (Hw a Ho)|].
      destruct (Z.eq_dec u v) as [->|].
      * apply Hv in Ho. rewrite (Hm w) by auto. apply (O1 w); auto.
      * apply Hu in Ho; auto. rewrite (Hm u) by auto. apply (O1 u); auto.
    + intros u u' a H1 H2. destruct (Z.eq_dec u w) as [->|]; [elim (Hw a H1)|]. destruct (Z.eq_dec u' w) as [->|]; [elim (Hw a H2)|].
      destruct (Z.eq_dec u v) as [->|], (Z.eq_dec u' v) as [->|]; auto.
      * apply Hv in H1. apply Hu in H2; auto. elim n0. apply (O2 u' w a); auto.
      * apply Hv in H2. apply Hu in H1; auto. elim n. apply (O2 u w a); auto.
      * apply Hu in H1; auto. apply Hu in H2; auto. apply (O2 u u' a); auto.
    + intros a Ha. rewrite FM in Ha.
      assert (Hq : h_mem h a <> None /\ o_ptr ov <> Some a).
      { revert Ha. destruct (o_ptr ov) as [q|]; [|split; [auto|discriminate]]. destruct (Z.eqb_spec a q); intro Ha; [congruence|split; congruence]. }
      destruct Hq as (Hq1 & Hq2). destruct (O3 a Hq1) as (u & Ho).
      destruct (Z.eq_dec u w) as [->|]; [exists v; apply Hv; auto|].
      destruct (Z.eq_dec u v) as [->|]; [elim Hq2; apply (owns_var h v ov Ev); auto|]. exists u. apply Hu; auto.
    + congruence.
    + intros a Ha. rewrite FN. apply O5. intro E. apply Ha. rewrite FM, E. destruct (o_ptr ov); auto. destruct (a =? z); auto.
    + intro u. unfold value at 1. rewrite VV. unfold vset. destruct (Z.eqb_spec u v) as [->|Nu].
      * do 2 f_equal. unfold load. destruct (o_ptr ow) as [b|] eqn:Pw; auto. rewrite (Hm w b); auto. exists ow; auto.
      * destruct (Z.eqb_spec u w); [reflexivity|]. rewrite <- HV. unfold value. destruct (h_vars h u) as [o|] eqn:E; auto.
        do 2 f_equal. unfold load. destruct (o_ptr o) as [b|] eqn:P; auto. rewrite (Hm u b); auto. exists o; auto.
  - destruct (h_vars h v) as [ov|] eqn:Ev; [rewrite (Vs v ov Ev)|rewrite (Vn v Ev); exact Hskip].
    unfold t_at_set. cbn [tshape].
    destruct (compute_flat_index (o_shape ov) idx) as [k|e| | |]; cbn [bind vput];
      [apply store_agrees; auto|apply agrees_same; auto|apply agrees_stop; auto|apply agrees_stop; auto|apply agrees_stop; auto].
  - destruct (h_vars h v) as [ov|] eqn:Ev; [rewrite (Vs v ov Ev)|rewrite (Vn v Ev); exact Hskip].
    apply store_agrees; auto.
  - destruct (h_vars h v) as [ov|] eqn:Ev; [rewrite (Vs v ov Ev)|rewrite (Vn v Ev); exact Hskip].
    unfold t_reshape. cbn [tshape tdata].
    destruct (shape_reshape (o_shape ov) ds) as [s|e| | |]; cbn [bind vput];
      [|apply agrees_same; auto|apply agrees_stop; auto|apply agrees_stop; auto|apply agrees_stop; auto].
    split; [reflexivity|]. intros _. cbn [fst]. split.
    + apply (owned_same h); auto; [intros; cbn; tauto|]. intros u a. unfold owns. cbn [h_vars set_var]. unfold mset.
      destruct (Z.eqb_spec u v) as [->|]; [|tauto]. rewrite Ev. split; intros (o & E & P); injection E as <-; cbn in *; eexists; split; [reflexivity|auto|reflexivity|auto].
    + intro u. unfold value at 1. cbn [h_vars set_var]. unfold vset, mset. destruct (Z.eqb_spec u v) as [->|]; [reflexivity|].
      rewrite <- HV. reflexivity.
  - destruct (h_vars h v) as [ov|] eqn:Ev.
    2:{ split; [reflexivity|]. intros _. cbn [fst]. split; [exact HO|]. intro u. unfold vset. destruct (Z.eqb_spec u v) as [->|]; auto.
        unfold skip; cbn [fst]; unfold value. rewrite Ev. reflexivity. }
    set (hs := set_var h v None).
    destruct (free_live hs (o_ptr ov)) as (FM & FV & FN & FB).
    { intros a Pa. apply (O1 v). exists ov; auto. }
    change (h_mem hs) with (h_mem h) in FM. change (h_next hs) with (h_next h) in FN. change (h_bad hs) with (h_bad h) in FB.
    set (h' := free (o_ptr ov) hs) in *. clearbody h'.
    assert (VV : forall u, h_vars h' u = if u =? v then None else h_vars h u).
    { intro u. rewrite FV. reflexivity. }
    split; [reflexivity|]. intros _. cbn [fst].
    assert (Hv : forall a, ~ owns h' v a).
    { intros a (o & E & P). rewrite VV, Z.eqb_refl in E. discriminate. }
    assert (Hu : forall u a, u <> v -> owns h' u a <-> owns h u a).
    { intros u a N1. unfold owns. rewrite VV. destruct (Z.eqb_spec u v); [congruence|]. tauto. }
    assert (Hm : forall u a, u <> v -> owns h u a -> h_mem h' a = h_mem h a).
    { intros u a Nu Ho. rewrite FM. destruct (o_ptr ov) as [q|] eqn:Pv; auto. destruct (Z.eqb_spec a q) as [->|]; auto.
      exfalso. apply Nu. apply (O2 u v q); auto. exists ov; auto. }
    split; [split; [|split; [|split; [|split]]]|].
    + intros u a Ho. destruct (Z.eq_dec u v) as [->|]; [elim (Hv a Ho)|].
      apply Hu in Ho; auto. rewrite (Hm u) by auto. apply (O1 u); auto.
    + intros u u' a H1 H2. destruct (Z.eq_dec u v) as [->|]; [elim (Hv a H1)|]. destruct (Z.eq_dec u' v) as [->|]; [elim (Hv a H2)|].
      apply Hu in H1; auto. apply Hu in H2; auto. apply (O2 u u' a); auto.
    + intros a Ha. rewrite FM in Ha.
      assert (Hq : h_mem h a <> None /\ o_ptr ov <> Some a).
      { revert Ha. destruct (o_ptr ov) as [q|]; [|split; [auto|discriminate]]. destruct (Z.eqb_spec a q); intro Ha; [congruence|split; congruence]. }
      destruct Hq as (Hq1 & Hq2). destruct (O3 a Hq1) as (u & Ho).
      destruct (Z.eq_dec u v) as [->|]; [elim Hq2; apply (owns_var h v ov Ev); auto|]. exists u. apply Hu; auto.
    + congruence.
    + intros a Ha. rewrite FN. apply O5. intro E. apply Ha. rewrite FM, E. destruct (o_ptr ov); auto. destruct (a =? z); auto.
    + intro u. unfold value at 1. rewrite VV. unfold vset. destruct (Z.eqb_spec u v) as [->|Nu]; [reflexivity|].
      rewrite <- HV. unfold value. destruct (h_vars h u) as [o|] eqn:E; auto.
      do 2 f_equal. unfold load. destruct (o_ptr o) as [b|] eqn:P; auto. rewrite (Hm u b); auto. exists o; auto.
Qed.

(** ** Histories *)
Lemma owned0 : owned (heap0 : heap T).
Proof.
  split; [|split; [|split; [|split]]].
  - intros v a (o & E & _). discriminate.
  - intros v w a (o & E & _). discriminate.
  - intros a H. elim H. reflexivity.
  - reflexivity.
  - intros a H. elim H. reflexivity.
Qed.

Lemma run_agrees : forall os h (V : @vars T), owned h -> (forall u, value h u = V u) ->
  exists oks, length oks = length os /\ ((forall a, fails a = false) -> Forall (eq true) oks) /\
    agrees (run fails os h) (vrun oks os V).
Proof.
  induction os as [|o os IH]; intros h V HO HV.
  - exists []. split; [reflexivity|]. split; [constructor|]. apply agrees_same; auto.
  - pose proof (step_agrees o h V HO HV) as (HR & HS). cbn [run].
    destruct (step fails o h) as [h' r] eqn:E. destruct (vstep (negb (fails (h_next h))) o V) as [V' r'] eqn:E'.
    cbn [fst snd] in *. subst r'.
    assert (Hgo : survives r -> exists oks, length oks = length (o :: os) /\ ((forall a, fails a = false) -> Forall (eq true) oks) /\
      agrees (run fails os h') (vrun (tl oks) os V') /\ hd true oks = negb (fails (h_next h))).
    { intro Hs. destruct (HS Hs) as (HO' & HV'). destruct (IH h' V' HO' HV') as (oks & L & F & A).
      exists (negb (fails (h_next h)) :: oks). split; [cbn; lia|]. split; [|split; [exact A|reflexivity]].
      intro Hf. constructor; auto. rewrite Hf. reflexivity. }
    assert (Hst : forall q : outcome unit, r = q -> (q = UB \/ q = Abort \/ q = Hang) -> exists oks, length oks = length (o :: os) /\ ((forall a, fails a = false) -> Forall (eq true) oks) /\
      agrees (h', q) (vrun oks (o :: os) V)).
    { intros q Eq Hq. exists (negb (fails (h_next h)) :: repeat true (length os)). split; [cbn; rewrite repeat_length; reflexivity|]. split.
      - intro Hf. constructor; [rewrite Hf; reflexivity|]. apply Forall_forall. intros b Hb. apply repeat_spec in Hb. auto.
      - cbn [vrun]. rewrite E', Eq. destruct Hq as [->|[->| ->]]; apply agrees_stop; auto. }
    destruct r as [[]|e| | |]; [| |exact (Hst Abort eq_refl (or_intror (or_introl eq_refl)))
                             |exact (Hst UB eq_refl (or_introl eq_refl))|exact (Hst Hang eq_refl (or_intror (or_intror eq_refl)))].
    + destruct Hgo as (oks & L & F & A & Hh); [left; reflexivity|]. exists oks. split; auto. split; auto.
      destruct oks as [|b oks]; [discriminate|]. cbn [hd tl] in *. subst b. cbn [vrun]. rewrite E'. exact A.
    + destruct Hgo as (oks & L & F & A & Hh); [right; eauto|]. exists oks. split; auto. split; auto.
      destruct oks as [|b oks]; [discriminate|]. cbn [hd tl] in *. subst b. cbn [vrun]. rewrite E'. exact A.
Qed.

Theorem run_owned : forall os, survives (snd (run fails os heap0)) -> owned (fst (run fails os heap0)).
Proof.
  intros os H. destruct (run_agrees os heap0 no_vars owned0 (fun _ => eq_refl)) as (oks & _ & _ & _ & A). apply A; auto.
Qed.

Theorem run_values : forall os, exists oks, length oks = length os /\ ((forall a, fails a = false) -> Forall (eq true) oks) /\
  snd (run fails os heap0) = snd (vrun oks os no_vars) /\
  (survives (snd (run fails os heap0)) -> forall v, value (fst (run fails os heap0)) v = fst (vrun oks os no_vars) v).
Proof.
  intro os. destruct (run_agrees os heap0 no_vars owned0 (fun _ => eq_refl)) as (oks & L & F & R & A).
  exists oks. split; auto. split; auto. split; auto. intros H v. apply A; auto.
Qed.

(** An operation changes no variable it does not touch. *)
Lemma vput_other : forall (V : @vars T) v m u, u <> v -> fst (vput V v m) u = V u.
Proof. intros V v m u H. destruct m; cbn; auto. unfold vset. destruct (Z.eqb_spec u v); [contradiction|auto]. Qed.

Lemma vset_other : forall (V : @vars T) v x u, u <> v -> vset V v x u = V u.
Proof. intros. unfold vset. destruct (Z.eqb_spec u v); [contradiction|auto]. Qed.

Lemma vstep_other : forall ok o (V : @vars T) v, ~ touches o v -> fst (vstep ok o V) v = V v.
Proof.
  intros ok o V v H. destruct o; cbn [touches] in H; cbn [vstep];
    repeat match goal with |- context [match V ?z with _ => _ end] => destruct (V z) end;
    try rewrite vput_other by auto; auto.
  - destruct ok; cbn [fst]; rewrite !vset_other by tauto; auto.
  - destruct (_ =? _); auto. destruct ok; [rewrite vput_other by auto; auto|]. cbn [fst]. rewrite vset_other by auto. auto.
  - destruct (_ =? _); auto. cbn [fst]. rewrite !vset_other by tauto. auto.
  - cbn [fst]. rewrite vset_other by auto. auto.
Qed.

Theorem step_isolated : forall h o v, owned h -> survives (snd (step fails o h)) -> ~ touches o v ->
  value (fst (step fails o h)) v = value h v.
Proof.
  intros h o v HO Hs Ht. destruct (step_agrees o h (value h) HO (fun _ => eq_refl)) as (_ & A). destruct (A Hs) as (_ & E).
  rewrite E. apply vstep_other. auto.
Qed.

Theorem all_freed : forall h : heap T, owned h -> (forall v, h_vars h v = None) -> forall a, h_mem h a = None.
Proof.
  intros h (_ & _ & O3 & _) Hn a. destruct (h_mem h a) eqn:E; auto. destruct (O3 a) as (v & o & Ev & _); [congruence|].
  rewrite Hn in Ev. discriminate.
Qed.

(** ** Correct use never ends in undefined behaviour *)
Lemma wf_fill : forall ds (x : T), pos_dims ds -> prod ds < two64 -> wf (t_fill (shape_of ds) x).
Proof.
  intros ds x HP HM. unfold wf, t_fill, tdims. cbn [tshape tdata dims shape_of ssize]. split; [auto|]. split; [reflexivity|]. split; auto.
  apply Zlen_zrepeat. pose proof (prod_pos ds ltac:(auto with idx)). lia.
Qed.

Lemma copy_wf : forall t : tensor T, wf t -> t_copy t = Ok t.
Proof.
  intros [s l] (HP & HS & HM & HL). unfold tdims in *. cbn [tshape tdata] in *. unfold t_copy, t_from_ptr. cbn [tshape tdata].
  assert (E : ssize s = Zlen l) by (rewrite HS; cbn [shape_of ssize]; lia). rewrite E.
  destruct (Z.leb_spec (Zlen l) (Zlen l)); [|lia]. do 2 f_equal. apply firstn_all2. unfold Zlen. lia.
Qed.

Lemma valid_vset : forall (V : @vars T) v t, valid V -> wf t \/ hollow t -> valid (vset V v (Some t)).
Proof.
  intros V v t HV Ht u x. unfold vset. destruct (u =? v); [intro E; injection E as <-; auto|apply HV].
Qed.

Lemma valid_vput : forall (V : @vars T) v m, valid V -> (forall t, m = Ok t -> wf t) -> m <> UB -> m <> Abort -> m <> Hang ->
  valid (fst (vput V v m)) /\ survives (snd (vput V v m)).
Proof.
  intros V v m HV Hm H1 H2 H3. destruct m as [t|e| | |]; try congruence; cbn [vput fst snd].
  - split; [apply valid_vset; auto|left; auto].
  - split; [auto|right; eauto].
Qed.

Lemma vstep_sane : forall o (V : @vars T), valid V -> sane o V -> valid (fst (vstep true o V)) /\ survives (snd (vstep true o V)).
Proof.
  intros o V HV Hs. assert (Hk : valid V /\ survives (Ok tt)) by (split; [auto|left; auto]).
  destruct o as [v ds x|v ds src|v w|v w|v w|v w|v idx x|v i x|v ds|v]; cbn [sane] in Hs; cbn [vstep when].
  - destruct (V v); [exact Hk|]. destruct (pos_dims_dec ds) as [HP|HP].
    + rewrite new_shape_ok by auto. cbn [bind]. apply valid_vput; auto; try discriminate.
      intros t E. injection E as <-. apply wf_fill; auto.
    + rewrite new_shape_throw by auto. cbn [bind]. apply valid_vput; auto; discriminate.
  - destruct (V v); [exact Hk|]. destruct (pos_dims_dec ds) as [HP|HP].
    + destruct (Hs HP) as (HM & HL). rewrite new_shape_ok by auto. cbn [bind]. unfold t_from_ptr. cbn [ssize shape_of].
      destruct (Z.leb_spec (prod ds) (Zlen src)); [|lia]. apply valid_vput; auto; try discriminate.
      intros t E. injection E as <-. unfold wf, tdims. cbn [tshape tdata dims shape_of]. split; [auto|]. split; [reflexivity|]. split; auto.
      pose proof (prod_pos ds ltac:(auto with idx)). unfold Zlen in *. rewrite firstn_length. lia.
    + rewrite new_shape_throw by auto. cbn [bind]. apply valid_vput; auto; discriminate.
  - destruct (V v); [exact Hk|]. destruct (V w) as [t|] eqn:Ew; [|exact Hk]. rewrite copy_wf by auto. apply valid_vput; auto; try discriminate.
    intros t' E. injection E as <-. auto.
  - destruct (V v); [exact Hk|]. destruct (V w) as [t|] eqn:Ew; [|exact Hk]. cbn [fst snd]. split; [|left; auto].
    apply valid_vset; [apply valid_vset; auto; apply (HV w); auto|]. left. apply wf_fill; [split; [discriminate|repeat constructor]|vm_compute; reflexivity].
  - destruct (V v) as [tv|]; [|exact Hk]. destruct (V w) as [t|] eqn:Ew; [|exact Hk]. destruct (v =? w); [exact Hk|].
    rewrite copy_wf by auto. apply valid_vput; auto; try discriminate. intros t' E. injection E as <-. auto.
  - destruct (V v) as [tv|]; [|exact Hk]. destruct (V w) as [t|] eqn:Ew; [|exact Hk]. destruct (v =? w); [exact Hk|].
    cbn [fst snd]. split; [|left; auto]. apply valid_vset; [apply valid_vset; auto; right; split; reflexivity|apply (HV w); auto].
  - destruct (V v) as [t|] eqn:Ev; [|exact Hk]. pose proof (Hs t Ev) as W. pose proof W as (HP & HS & HM & HL).
    unfold t_at_set. rewrite HS. destruct (Nat.eq_dec (length idx) (length (tdims t))) as [E|E].
    + rewrite flat_index_spec; auto; [|apply pos_forall; auto]. destruct (in_range_dec (tdims t) idx) as [HI|HI]; cbn [bind].
      * pose proof (ravel_bound _ _ HI). unfold t_set. rewrite wr_ok by lia. cbn [bind]. apply valid_vput; auto; try discriminate.
        intros t' E'. injection E' as <-. unfold wf, tdims in *. cbn [tshape tdata]. rewrite Zlen_upd. auto.
      * apply valid_vput; auto; discriminate.
    + rewrite flat_index_rank; [cbn [bind]; apply valid_vput; auto; discriminate|]. unfold rank, Zlen. cbn [dims shape_of]. lia.
  - destruct (V v) as [t|] eqn:Ev; [|exact Hk]. destruct (Hs t eq_refl) as (W & Hi). pose proof W as (HP & HS & HM & HL).
    unfold t_set. rewrite wr_ok by lia. cbn [bind]. apply valid_vput; auto; try discriminate.
    intros t' E'. injection E' as <-. unfold wf, tdims in *. cbn [tshape tdata]. rewrite Zlen_upd. auto.
  - destruct (V v) as [t|] eqn:Ev; [|exact Hk]. destruct Hs as (Hu & HI). pose proof (Hu t Ev) as W. pose proof W as (HP & HS & HM & HL).
    destruct (pos_dims_dec ds) as [HD|HD]; [destruct (Z.eq_dec (prod ds) (prod (tdims t))) as [E|E]|].
    + pose proof (reshape_ok t ds W HI HD E) as R. unfold t_reshape_st, last_write in R. destruct (t_reshape t ds) as [t'|e| | |]; try discriminate R.
      assert (Et : t' = mkTensor (shape_of ds) (tdata t)) by congruence. subst t'.
      apply valid_vput; auto; try discriminate. intros t' E'. injection E' as <-. unfold wf, tdims in *. cbn [tshape tdata shape_of dims].
      split; [auto|]. split; [auto|]. rewrite E. auto.
    + destruct (reshape_fail t ds W HI) as (e & R & _); [tauto|]. unfold t_reshape_st, last_write in R.
      destruct (t_reshape t ds) as [t'|e'| | |]; try discriminate R. apply valid_vput; auto; discriminate.
    + destruct (reshape_fail t ds W HI) as (e & R & _); [tauto|]. unfold t_reshape_st, last_write in R.
      destruct (t_reshape t ds) as [t'|e'| | |]; try discriminate R. apply valid_vput; auto; discriminate.
  - cbn [fst snd]. split; [|left; auto]. intros u t. unfold vset. destruct (u =? v); [discriminate|apply HV].
Qed.

Theorem sane_run : forall os h, (forall a, fails a = false) -> owned h -> valid (value h) -> sane_history os (value h) ->
  snd (run fails os h) = Ok tt /\ owned (fst (run fails os h)) /\ valid (value (fst (run fails os h))).
Proof.
  intros os h Hf HO HV HS. assert (HE : forall u, value h u = value h u) by auto. revert HV HS HE. generalize (value h) at 1 2 4 as V.
  revert h HO. induction os as [|o os IH]; intros h HO V HV HS HE.
  - cbn [run fst snd]. split; auto. split; auto. intros u t. rewrite HE. apply HV.
  - destruct HS as (Hs & HSs). cbn [run]. pose proof (step_agrees o h V HO HE) as (HR & HA). rewrite Hf in HR, HA. cbn [negb] in HR, HA.
    destruct (vstep_sane o V HV Hs) as (HV' & Hsv). rewrite <- HR in Hsv. destruct (HA Hsv) as (HO' & HE').
    destruct (step fails o h) as [h' r]. cbn [fst snd] in *. destruct Hsv as [->|(e & ->)]; apply (IH h' HO' (fst (vstep true o V))); auto.
Qed.

Theorem sane_run0 : forall os : list (op T), (forall a, fails a = false) -> sane_history os no_vars ->
  snd (run fails os heap0) = Ok tt /\
  forall v t, value (fst (run fails os heap0)) v = Some t -> wf t \/ hollow t.
Proof.
  intros os Hf Hs. destruct (sane_run os heap0 Hf owned0) as (R & _ & V); [intros v t E; discriminate|exact Hs|]. auto.
Qed.

(** ** Moves *)
Lemma live_of : forall (h : heap T) v t, value h v = Some t -> exists o, h_vars h v = Some o.
Proof. intros h v t. unfold value. destruct (h_vars h v); [eauto|discriminate]. Qed.

Theorem move_new_ok : forall h v w t, owned h -> value h v = None -> value h w = Some t -> fails (h_next h) = false ->
  let h' := fst (step fails (MoveNew v w) h) in
  snd (step fails (MoveNew v w) h) = Ok tt /\ value h' v = Some t /\
  value h' w = Some (t_fill (shape_of [1]) zero) /\ wf (t_fill (shape_of [1]) zero : tensor T).
Proof.
  intros h v w t HO Hv Hw Hf h'. destruct (step_agrees (MoveNew v w) h (value h) HO (fun _ => eq_refl)) as (R & A).
  assert (Hvw : v <> w) by congruence.
  rewrite Hf in R, A. cbn [vstep negb] in R, A. rewrite Hv, Hw in R, A. cbn [fst snd] in R, A.
  destruct A as (_ & A); [rewrite R; left; auto|]. split; auto. fold h' in A. rewrite !A. unfold vset.
  rewrite !Z.eqb_refl. destruct (Z.eqb_spec v w); [contradiction|]. split; auto. split; auto.
  apply wf_fill; [split; [discriminate|repeat constructor]|vm_compute; reflexivity].
Qed.

Theorem move_assign_hollow : forall h v w s t, owned h -> v <> w -> value h v = Some s -> value h w = Some t ->
  let h' := fst (step fails (MoveAssign v w) h) in
  snd (step fails (MoveAssign v w) h) = Ok tt /\ value h' v = Some t /\
  exists t', value h' w = Some t' /\ dims (tshape t') = [] /\ ssize (tshape t') = ssize (tshape t) /\ tdata t' = [].
Proof.
  intros h v w s t HO Hvw Hv Hw h'. destruct (step_agrees (MoveAssign v w) h (value h) HO (fun _ => eq_refl)) as (R & A).
  cbn [vstep] in R, A. rewrite Hv, Hw in R, A. destruct (Z.eqb_spec v w); [contradiction|]. cbn [fst snd] in R, A.
  destruct A as (_ & A); [rewrite R; left; auto|]. split; auto. fold h' in A. rewrite !A. unfold vset.
  rewrite !Z.eqb_refl. destruct (Z.eqb_spec w v); [congruence|]. split; auto. eexists. split; [reflexivity|]. split; [reflexivity|]. split; reflexivity.
Qed.

(** Copying a tensor whose buffer is shorter than its size is undefined. *)
Theorem copy_short_ub : forall h u w t, owned h -> value h u = None -> value h w = Some t -> Zlen (tdata t) < ssize (tshape t) ->
  fails (h_next h) = false -> snd (step fails (CopyNew u w) h) = UB.
Proof.
  intros h u w t HO Hu Hw HL Hf. destruct (step_agrees (CopyNew u w) h (value h) HO (fun _ => eq_refl)) as (R & _).
  rewrite R, Hf. cbn [vstep negb when]. rewrite Hu, Hw. unfold t_copy, t_from_ptr.
  destruct (Z.leb_spec (ssize (tshape t)) (Zlen (tdata t))); [lia|]. reflexivity.
Qed.

Theorem write_empty_ub : forall h v i x t, owned h -> value h v = Some t -> tdata t = [] -> snd (step fails (Write v i x) h) = UB.
Proof.
  intros h v i x t HO Hv HD. destruct (step_agrees (Write v i x) h (value h) HO (fun _ => eq_refl)) as (R & _).
  rewrite R. cbn [vstep]. rewrite Hv. unfold t_set. rewrite HD, wr_ub by (change (Zlen (@nil T)) with 0; lia). reflexivity.
Qed.

(** ** Allocation failures *)
Theorem failed_assign : forall h v w a b, owned h -> v <> w -> value h v = Some a -> value h w = Some b -> fails (h_next h) = true ->
  let h' := fst (step fails (CopyAssign v w) h) in
  snd (step fails (CopyAssign v w) h) = Throw BadAlloc /\ owned h' /\ value h' v = Some (mkTensor (tshape b) (tdata a)) /\
  forall u, u <> v -> value h' u = value h u.
Proof.
  intros h v w a b HO Hvw Hv Hw Hf h'. destruct (step_agrees (CopyAssign v w) h (value h) HO (fun _ => eq_refl)) as (R & A).
  rewrite Hf in R, A. cbn [vstep negb] in R, A. rewrite Hv, Hw in R, A. destruct (Z.eqb_spec v w); [contradiction|]. cbn [fst snd] in R, A.
  destruct A as (HO' & A); [rewrite R; right; eauto|]. split; auto. split; auto. fold h' in A. split.
  - rewrite A. unfold vset. rewrite Z.eqb_refl. reflexivity.
  - intros u Hu. rewrite A. apply vset_other. auto.
Qed.

Theorem failed_copy : forall h v w b, owned h -> value h v = None -> value h w = Some b -> fails (h_next h) = true ->
  let h' := fst (step fails (CopyNew v w) h) in
  snd (step fails (CopyNew v w) h) = Throw BadAlloc /\ owned h' /\ forall u, value h' u = value h u.
Proof.
  intros h v w b HO Hv Hw Hf h'. destruct (step_agrees (CopyNew v w) h (value h) HO (fun _ => eq_refl)) as (R & A).
  rewrite Hf in R, A. cbn [vstep negb when] in R, A. rewrite Hv, Hw in R, A. cbn [vput fst snd] in R, A.
  destruct A as (HO' & A); [rewrite R; right; eauto|]. auto.
Qed.

Theorem failed_assign_same : forall os v w a b,
  let h := fst (run fails os heap0) in
  let h' := fst (step fails (CopyAssign v w) h) in
  survives (snd (run fails os heap0)) -> v <> w -> value h v = Some a -> value h w = Some b -> fails (h_next h) = true ->
  tshape a = tshape b ->
  snd (step fails (CopyAssign v w) h) = Throw BadAlloc /\ forall u, value h' u = value h u.
Proof.
  intros os v w a b h h' Hs Hvw Hv Hw Hf HE. pose proof (failed_assign h v w a b (run_owned os Hs) Hvw Hv Hw Hf) as (R & _ & V & O).
  split; auto. intro u. destruct (Z.eq_dec u v) as [->|]; [|apply O; auto]. fold h' in V. rewrite V, Hv, <- HE. destruct a; reflexivity.
Qed.

Theorem hollow_unusable : forall os w t,
  let h := fst (run fails os heap0) in
  survives (snd (run fails os heap0)) -> value h w = Some t -> tdata t = [] -> 0 < ssize (tshape t) ->
  (forall i x, snd (step fails (Write w i x) h) = UB) /\
  (forall u, value h u = None -> fails (h_next h) = false -> snd (step fails (CopyNew u w) h) = UB).
Proof.
  intros os w t h Hs Hw HD HP. pose proof (run_owned os Hs) as HO. fold h in HO. split.
  - intros. apply (write_empty_ub h w i x t); auto.
  - intros u Hu Hf. apply (copy_short_ub h u w t); auto. rewrite HD. change (Zlen (@nil T)) with 0. lia.
Qed.
End L.

Theorem assign_not_atomic : exists (os : list (op Z)) v w a t,
  let fails := fun a => a =? 2 in
  let h := fst (run fails os heap0) in
  let h' := fst (step fails (CopyAssign v w) h) in
  snd (run fails os heap0) = Ok tt /\ value h v = Some a /\ wf a /\
  snd (step fails (CopyAssign v w) h) = Throw BadAlloc /\
  value h' v = Some t /\ t <> a /\ ssize (tshape t) = 3 /\ Zlen (tdata t) = 1 /\
  snd (step fails (CopyNew 7 v) h') = UB.
Proof.
  exists [New 0 [1] 5; New 1 [3] 1], 0, 1, (mkTensor (shape_of [1]) [5]), (mkTensor (shape_of [3]) [5]). cbv zeta.
  split; [reflexivity|]. split; [reflexivity|].
  split; [split; [split; [discriminate|repeat constructor]|split; [reflexivity|split; reflexivity]]|].
  split; [reflexivity|]. split; [reflexivity|]. split; [discriminate|]. split; [reflexivity|]. split; reflexivity.
Qed.
