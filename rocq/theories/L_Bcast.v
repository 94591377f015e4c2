(** * Broadcasting of shapes: model against [Spec.bcast]. *)
From Verif Require Import Base Scalar Types Spec M_Shape L_Index L_Shape.

(** Dimension at distance [i] from the right, 1 when absent. *)
Definition dimr (ds : list Z) (i : Z) : Z :=
  if i <? Zlen ds then znth 0 ds (Zlen ds - 1 - i) else 1.

Lemma dim_from_right_ok : forall ds i sz st, 0 <= i ->
  dim_from_right (mkShape ds sz st) i = Ok (dimr ds i).
Proof.
  intros. unfold dim_from_right, dimr, rank; simpl.
  destruct (Z.ltb_spec i (Zlen ds)); auto. apply rd_ok. lia.
Qed.

Lemma dimr_pos : forall ds i, Forall (fun d => 0 < d) ds -> 0 <= i -> 0 < dimr ds i.
Proof.
  intros ds i HF Hi. unfold dimr. destruct (Z.ltb_spec i (Zlen ds)); [|lia].
  rewrite Forall_forall in HF. apply HF. apply nth_In. unfold Zlen in *. lia.
Qed.

Lemma nth_pad : forall n ds i, (length ds <= n)%nat -> (i < n)%nat ->
  nth i (pad n ds) 0 = dimr ds (Z.of_nat n - 1 - Z.of_nat i).
Proof.
  intros n ds i HL Hi. unfold pad, dimr.
  destruct (Z.ltb_spec (Z.of_nat n - 1 - Z.of_nat i) (Zlen ds)); unfold Zlen in *.
  - rewrite app_nth2 by (rewrite repeat_length; lia). rewrite repeat_length.
    unfold znth. f_equal. lia.
  - rewrite app_nth1 by (rewrite repeat_length; lia).
    rewrite nth_indep with (d' := 1) by (rewrite repeat_length; lia). apply nth_repeat.
Qed.

Definition rk2 (a b : list Z) : Z := Z.max (Zlen a) (Zlen b).

(** [Spec.bcast] read from the right. *)
Lemma bcast_right : forall a b r,
  bcast a b r <->
  Zlen r = rk2 a b /\
  forall i, 0 <= i < rk2 a b ->
    compatible (dimr a i) (dimr b i) /\ dimr r i = Z.max (dimr a i) (dimr b i).
Proof.
  intros a b r. unfold bcast, rk2. set (n := Nat.max (length a) (length b)).
  assert (Hn : Z.max (Zlen a) (Zlen b) = Z.of_nat n) by (unfold Zlen, n; lia).
  rewrite Hn. split.
  - intros [HL H]. split; [unfold Zlen; lia|]. intros i Hi.
    specialize (H (n - 1 - Z.to_nat i)%nat ltac:(lia)).
    rewrite !nth_pad in H by (unfold n; lia).
    replace (Z.of_nat n - 1 - Z.of_nat (n - 1 - Z.to_nat i)) with i in H by lia.
    destruct H as [HC HM]. split; auto. rewrite <- HM. unfold dimr, znth, Zlen.
    destruct (Z.ltb_spec i (Z.of_nat (length r))); [|lia]. f_equal. lia.
  - intros [HL H]. unfold Zlen in HL. split; [lia|]. intros i Hi.
    specialize (H (Z.of_nat n - 1 - Z.of_nat i) ltac:(lia)).
    rewrite !nth_pad by (unfold n; lia). destruct H as [HC HM]. split; auto. rewrite <- HM.
    unfold dimr, znth, Zlen. destruct (Z.ltb_spec (Z.of_nat n - 1 - Z.of_nat i) (Z.of_nat (length r))); [|lia].
    f_equal. lia.
Qed.

Lemma dimr_ext : forall a b, Zlen a = Zlen b ->
  (forall i, 0 <= i < Zlen a -> dimr a i = dimr b i) -> a = b.
Proof.
  intros a b HL H. apply (list_ext 0); auto. intros i Hi.
  specialize (H (Zlen a - 1 - i) ltac:(lia)). unfold dimr in H. rewrite <- HL in H.
  destruct (Z.ltb_spec (Zlen a - 1 - i) (Zlen a)); [|lia].
  replace (Zlen a - 1 - (Zlen a - 1 - i)) with i in H by lia. exact H.
Qed.

Lemma dimr_ge : forall a i, Zlen a <= i -> dimr a i = 1.
Proof. intros. unfold dimr. destruct (Z.ltb_spec i (Zlen a)); lia. Qed.

Lemma bcast_fun : forall a b r r', bcast a b r -> bcast a b r' -> r = r'.
Proof.
  intros a b r r' H H'. rewrite bcast_right in *. destruct H as [L H], H' as [L' H'].
  apply dimr_ext; [lia|]. intros i Hi. rewrite L in Hi.
  destruct (H i Hi), (H' i Hi). congruence.
Qed.

Lemma bcast_pos : forall a b r, pos_dims a -> pos_dims b -> bcast a b r -> pos_dims r.
Proof.
  intros a b r [Na Pa] [Nb Pb] H. rewrite bcast_right in H. destruct H as [L H].
  assert (0 < rk2 a b).
  { unfold rk2. destruct a; [congruence|]. rewrite Zlen_cons. pose proof (Zlen_nonneg a). lia. }
  split; [intro; subst; rewrite Zlen_nil in L; lia|].
  apply Forall_forall. intros x Hx. apply (In_nth _ _ 0) in Hx. destruct Hx as (k & Hk & <-).
  assert (0 <= Zlen r - 1 - Z.of_nat k < rk2 a b) as Hi by (unfold Zlen in *; lia).
  destruct (H _ Hi) as [_ HM].
  assert (dimr r (Zlen r - 1 - Z.of_nat k) = nth k r 0).
  { unfold dimr. destruct (Z.ltb_spec (Zlen r - 1 - Z.of_nat k) (Zlen r)); [|lia].
    unfold znth. f_equal. lia. }
  rewrite <- H1, HM. pose proof (dimr_pos a (Zlen r - 1 - Z.of_nat k) Pa ltac:(lia)). lia.
Qed.

Definition bcast_ok (a b : list Z) : Prop :=
  forall i, 0 <= i < rk2 a b -> compatible (dimr a i) (dimr b i).

Lemma znth_rev : forall (l : list Z) i, 0 <= i < Zlen l -> znth 0 (rev l) i = znth 0 l (Zlen l - 1 - i).
Proof.
  intros. unfold znth, Zlen in *. rewrite rev_nth by lia. f_equal. lia.
Qed.

Lemma znth_app1 : forall {A} (d : A) l1 l2 i, 0 <= i < Zlen l1 -> znth d (l1 ++ l2) i = znth d l1 i.
Proof. intros. unfold znth, Zlen in *. apply app_nth1. lia. Qed.
Lemma znth_app2 : forall {A} (d : A) l1 l2 i, Zlen l1 <= i -> znth d (l1 ++ l2) i = znth d l2 (i - Zlen l1).
Proof. intros. unfold znth, Zlen in *. rewrite app_nth2 by lia. f_equal. lia. Qed.

Lemma compatible_dec : forall x y, {compatible x y} + {~ compatible x y}.
Proof.
  intros. unfold compatible. destruct (Z.eq_dec x y); [left; auto|].
  destruct (Z.eq_dec x 1); [left; auto|]. destruct (Z.eq_dec y 1); [left; auto|right; lia].
Qed.

(** The loop of broadcastShapes. *)
Lemma broadcast_loop : forall a b sa ta sb tb,
  Forall (fun d => 0 < d) a -> Forall (fun d => 0 < d) b ->
  (exists r, bcast a b r /\ broadcast_shapes (mkShape a sa ta) (mkShape b sb tb) = new_shape r) \/
  (~ bcast_ok a b /\ broadcast_shapes (mkShape a sa ta) (mkShape b sb tb) = Throw InvalidArgument).
Proof.
  intros a b sa ta sb tb Pa Pb. unfold broadcast_shapes, rank. simpl dims. fold (rk2 a b).
  set (body := fun i res => _).
  destruct (for_inv_or
    (fun i res => Zlen res = i /\ forall j, 0 <= j < i ->
        compatible (dimr a j) (dimr b j) /\ znth 0 res j = Z.max (dimr a j) (dimr b j))
    (~ bcast_ok a b) (Throw InvalidArgument) 0 (rk2 a b) body [])
    as [(res & E & HL & H)|(E & HN)]; auto.
  - unfold rk2. pose proof (Zlen_nonneg a). lia.
  - split; [reflexivity|]. intros; lia.
  - intros i res Hi [HL H]. unfold body.
    rewrite !dim_from_right_ok by lia. simpl.
    pose proof (dimr_pos a i Pa ltac:(lia)). pose proof (dimr_pos b i Pb ltac:(lia)).
    assert (HOK : forall v, compatible (dimr a i) (dimr b i) -> v = Z.max (dimr a i) (dimr b i) ->
      exists s', Ok (res ++ [v]) = Ok s' /\ (Zlen s' = i + 1 /\ forall j, 0 <= j < i + 1 ->
        compatible (dimr a j) (dimr b j) /\ znth 0 s' j = Z.max (dimr a j) (dimr b j))).
    { intros v HC Hv. eexists; split; [reflexivity|]. rewrite Zlen_app. split; [rewrite HL; reflexivity|].
      intros j Hj. destruct (Z.eq_dec j i) as [->|Hne].
      - split; auto. rewrite znth_app2 by lia. rewrite HL, Z.sub_diag. exact Hv.
      - rewrite znth_app1 by lia. apply H. lia. }
    unfold compatible in HOK.
    destruct (Z.eqb_spec (dimr a i) (dimr b i)); [left; apply HOK; lia|].
    destruct (Z.eqb_spec (dimr a i) 1); [left; apply HOK; lia|].
    destruct (Z.eqb_spec (dimr b i) 1); [left; apply HOK; lia|].
    right. split; auto. intro K. specialize (K i Hi). unfold compatible in K. lia.
  - left. exists (rev res). rewrite E. simpl. split; auto.
    apply bcast_right. rewrite Zlen_rev. split; auto.
    intros i Hi. destruct (H i Hi) as [HC HM]. split; auto. rewrite <- HM.
    unfold dimr. rewrite Zlen_rev. destruct (Z.ltb_spec i (Zlen res)); [|lia].
    rewrite znth_rev by lia. f_equal. lia.
  - right. rewrite E. auto.
Qed.

Lemma bcast_is_ok : forall a b r, bcast a b r -> bcast_ok a b.
Proof. intros a b r H. rewrite bcast_right in H. intros i Hi. apply H; auto. Qed.

Lemma bcast_exists : forall a b,
  Forall (fun d => 0 < d) a -> Forall (fun d => 0 < d) b -> bcast_ok a b -> exists r, bcast a b r.
Proof.
  intros a b Pa Pb H. destruct (broadcast_loop a b 0 [] 0 [] Pa Pb) as [(r & Hr & _)|[HN _]]; [eauto|tauto].
Qed.

Lemma broadcast_shapes_ok : forall a b r,
  pos_dims a -> pos_dims b -> bcast a b r -> prod r < two64 ->
  broadcast_shapes (shape_of a) (shape_of b) = Ok (shape_of r).
Proof.
  intros a b r Ha Hb Hr HP.
  destruct (broadcast_loop a b (prod a) (strides_of a) (prod b) (strides_of b)) as [(r' & Hr' & E)|[HN _]]; auto with idx.
  - assert (r' = r) by (eapply bcast_fun; eauto). subst. unfold shape_of at 1 2. rewrite E.
    apply new_shape_ok; auto. apply (bcast_pos a b); auto.
  - exfalso. apply HN. eapply bcast_is_ok; eauto.
Qed.

Lemma broadcast_shapes_throw : forall a b,
  pos_dims a -> pos_dims b -> ~ (exists r, bcast a b r) ->
  broadcast_shapes (shape_of a) (shape_of b) = Throw InvalidArgument.
Proof.
  intros a b Ha Hb HN.
  destruct (broadcast_loop a b (prod a) (strides_of a) (prod b) (strides_of b)) as [(r' & Hr' & E)|[_ E]]; auto with idx.
  exfalso; eauto.
Qed.

Lemma bcast_ok_dec : forall a b, {bcast_ok a b} + {~ bcast_ok a b}.
Proof.
  intros a b. destruct (forallb (fun i => if compatible_dec (dimr a i) (dimr b i) then true else false) (zrange 0 (rk2 a b))) eqn:E.
  - left. rewrite forallb_forall in E. intros i Hi. specialize (E i).
    rewrite In_zrange in E. specialize (E Hi). destruct (compatible_dec (dimr a i) (dimr b i)); [auto|discriminate].
  - right. intro K. apply not_true_iff_false in E. apply E. apply forallb_forall. intros i Hi.
    rewrite In_zrange in Hi. specialize (K i Hi). destruct (compatible_dec (dimr a i) (dimr b i)); auto.
Qed.

Lemma are_broadcastable_ok : forall a b,
  are_broadcastable (shape_of a) (shape_of b) = Ok (if bcast_ok_dec a b then true else false).
Proof.
  intros a b. unfold are_broadcastable, rank. simpl dims. fold (rk2 a b).
  set (body := fun i (ok : bool) => _).
  destruct (for_inv
    (fun i (ok : bool) => ok = true <-> forall j, 0 <= j < i -> compatible (dimr a j) (dimr b j))
    0 (rk2 a b) body true) as (ok & E & H).
  - unfold rk2. pose proof (Zlen_nonneg a). lia.
  - split; auto. intros; lia.
  - intros i ok Hi H. unfold body. destruct ok.
    + unfold shape_of. rewrite !dim_from_right_ok by lia. simpl. eexists; split; [reflexivity|].
      assert (HA : forall j, 0 <= j < i -> compatible (dimr a j) (dimr b j)) by (apply H; auto).
      unfold compatible in *.
      destruct (Z.eqb_spec (dimr a i) (dimr b i)), (Z.eqb_spec (dimr a i) 1), (Z.eqb_spec (dimr b i) 1); simpl;
        (split; intro K; [intros j Hj; destruct (Z.eq_dec j i) as [->|]; [lia|apply HA; lia]|]); auto;
        try discriminate.
      specialize (K i ltac:(lia)). lia.
    + exists false. split; auto. split; [discriminate|]. intro K.
      assert (false = true) by (apply H; intros; apply K; lia). discriminate.
  - rewrite E. f_equal. destruct (bcast_ok_dec a b) as [HB|HB]; unfold bcast_ok in HB.
    + apply H; auto.
    + apply not_true_iff_false. rewrite H. exact HB.
Qed.

(** Lattice laws on the relation. *)
Lemma bcast_sym : forall a b r, bcast a b r -> bcast b a r.
Proof.
  intros a b r H. rewrite bcast_right in *. unfold rk2 in *. destruct H as [L H].
  split; [lia|]. intros i Hi. destruct (H i ltac:(lia)) as [HC HM]. unfold compatible in *. split; lia.
Qed.

Lemma bcast_refl : forall a, bcast a a a.
Proof.
  intros. rewrite bcast_right. unfold rk2, compatible. split; [lia|]. intros. split; [auto|lia].
Qed.

Lemma bcast_one : forall a, pos_dims a -> bcast [1] a a.
Proof.
  intros a [Ha Pa]. rewrite bcast_right. unfold rk2, compatible.
  assert (Zlen [1] = 1) as E1 by reflexivity.
  assert (1 <= Zlen a) by (destruct a; [congruence|]; rewrite Zlen_cons; pose proof (Zlen_nonneg a); lia).
  split; [lia|]. intros i Hi.
  assert (dimr [1] i = 1) as ->.
  { unfold dimr. rewrite E1. destruct (Z.ltb_spec i 1); auto. replace (1 - 1 - i) with 0 by lia. reflexivity. }
  pose proof (dimr_pos a i Pa ltac:(lia)). split; [auto|lia].
Qed.

Lemma bcast_assoc : forall a b c m r,
  Forall (fun d => 0 < d) a -> Forall (fun d => 0 < d) b -> Forall (fun d => 0 < d) c ->
  bcast a b m -> bcast m c r -> exists m', bcast b c m' /\ bcast a m' r.
Proof.
  intros a b c m r Pa Pb Pc H1 H2. rewrite bcast_right in H1, H2.
  destruct H1 as [L1 H1], H2 as [L2 H2]. unfold rk2 in *.
  assert (HAll : forall i, 0 <= i -> compatible (dimr a i) (dimr b i) /\ compatible (dimr b i) (dimr c i) /\
     compatible (dimr a i) (Z.max (dimr b i) (dimr c i)) /\
     (i < Zlen r -> dimr r i = Z.max (dimr a i) (Z.max (dimr b i) (dimr c i)))).
  { intros i Hi. unfold compatible in *.
    pose proof (dimr_pos a i Pa Hi). pose proof (dimr_pos b i Pb Hi). pose proof (dimr_pos c i Pc Hi).
    assert (E1 : (dimr a i = dimr b i \/ dimr a i = 1 \/ dimr b i = 1) /\ dimr m i = Z.max (dimr a i) (dimr b i)).
    { destruct (Z_lt_dec i (Z.max (Zlen a) (Zlen b))); [apply H1; lia|].
      rewrite (dimr_ge a), (dimr_ge b), (dimr_ge m) by lia. lia. }
    destruct (Z_lt_dec i (Z.max (Zlen m) (Zlen c))).
    - specialize (H2 i ltac:(lia)). lia.
    - rewrite (dimr_ge a), (dimr_ge b), (dimr_ge c) by lia. lia. }
  destruct (bcast_exists b c Pb Pc) as [m' Hm'].
  { intros i Hi. apply HAll. lia. }
  exists m'. split; auto. rewrite bcast_right in *. unfold rk2 in *. destruct Hm' as [L3 H3].
  split; [lia|]. intros i Hi.
  assert (E3 : dimr m' i = Z.max (dimr b i) (dimr c i)).
  { destruct (Z_lt_dec i (Z.max (Zlen b) (Zlen c))); [apply H3; lia|].
    rewrite (dimr_ge b), (dimr_ge c), (dimr_ge m') by lia. lia. }
  destruct (HAll i ltac:(lia)) as (A & B & C & D). rewrite E3. split; auto. apply D. lia.
Qed.
