(** * Lemmas: every object obtained through the interface is consistent (C85) *)
From Verif Require Import Base Scalar Types Spec SpecApi SpecNet L_Index L_Shape L_Tensor L_Glue M_Shape M_Tensor M_Adv M_Act M_Loss M_Layers M_Reg M_Opt M_Net M_Data M_Slice M_Access M_Api.

(** ** Breaking up successful computations *)
Lemma foldM_keep : forall {A X} (P : X -> Prop) (f : A -> X -> outcome X) l s s', P s ->
  (forall a s s', In a l -> P s -> f a s = Ok s' -> P s') -> foldM f l s = Ok s' -> P s'.
Proof.
  induction l as [|a l IH]; simpl; intros s s' HP H E; [injection E as <-; auto|].
  apply bind_ok_inv in E. destruct E as (s1 & E1 & E). apply (IH s1); [|intros b u u' Hb; apply H; auto|exact E]. apply (H a s); auto.
Qed.
Lemma for_keep : forall {X} (P : X -> Prop) lo hi (body : Z -> X -> outcome X) s s', P s ->
  (forall i s s', P s -> body i s = Ok s' -> P s') -> for_ lo hi body s = Ok s' -> P s'.
Proof. intros X P lo hi body s s' HP H E. eapply foldM_keep; [exact HP| |exact E]. intros; eauto. Qed.

Lemma wr_len : forall {A} (l : list A) i v l', wr l i v = Ok l' -> Zlen l' = Zlen l.
Proof. intros A l i v l' H. apply wr_ok_inv in H. destruct H as [_ ->]. apply Zlen_upd. Qed.

Ltac ob1 :=
  match goal with
  | H : bind _ _ = Ok _ |- _ => apply bind_ok_inv in H; destruct H as (? & ? & H)
  | H : (let (_, _) := ?x in _) = Ok _ |- _ => destruct x
  | H : (if ?b then _ else _) = Ok _ |- _ => destruct b eqn:?; try discriminate H
  | H : Throw _ = Ok _ |- _ => discriminate H
  | H : UB = Ok _ |- _ => discriminate H
  | H : Abort = Ok _ |- _ => discriminate H
  end.
Ltac ob := repeat ob1.

(** ** Shapes *)
Definition csh (s : shape) : Prop := new_shape (dims s) = Ok s.
Lemma new_shape_inv : forall ds s, new_shape ds = Ok s -> pos_dims ds /\ s = mkShape ds (calc_size ds) (calc_stride ds).
Proof.
  intros ds s H. unfold new_shape in H. apply bind_ok_inv in H. destruct H as (u & H & E). injection E as <-. split; [|reflexivity].
  destruct (pos_dims_dec ds) as [P|P]; [exact P|].
  rewrite validate_throw in H by exact P. discriminate.
Qed.

Lemma csh_new : forall ds s, new_shape ds = Ok s -> csh s.
Proof. intros ds s H. pose proof (new_shape_inv _ _ H) as [_ E]. unfold csh. rewrite E in H |- *. exact H. Qed.
Lemma csh_iff : forall s, csh s <-> consistent_shape s.
Proof.
  intros s. unfold csh, consistent_shape. split.
  - intros H. apply new_shape_inv in H. destruct H as [P E]. split; [exact P|]. rewrite E. cbn [dims ssize sstride].
    rewrite calc_size_u64, calc_stride_u64. split; reflexivity.
  - intros (P & E1 & E2). unfold new_shape. rewrite validate_ok by exact P. cbn [bind].
    rewrite calc_size_u64, calc_stride_u64. destruct s as [ds n st]. cbn [dims ssize sstride] in *. subst. reflexivity.
Qed.
Lemma csh_size : forall s, csh s -> 0 <= ssize s.
Proof. intros s H. apply csh_iff in H. destruct H as (_ & -> & _). apply Z.mod_pos_bound. reflexivity. Qed.
Lemma reshape_size_calc : forall ds n, reshape_size ds = Ok n -> calc_size ds = n.
Proof.
  intros ds n. unfold reshape_size, calc_size.
  match goal with |- foldM ?f _ _ = _ -> _ =>
    enough (K : forall ds a, foldM f ds a = Ok n -> fold_left (fun acc d : Z => u64 (acc * u64 d)) ds a = n) by exact (K ds 1) end.
  clear ds. induction ds as [|d ds IH]; simpl; intros a H; [congruence|].
  ob. injection H0 as <-. exact (IH _ H).
Qed.
Lemma csh_reshape : forall s ds s', csh s -> shape_reshape s ds = Ok s' -> csh s' /\ ssize s' = ssize s.
Proof.
  intros s ds s' H E. unfold shape_reshape in E. ob. injection E as <-. cbn [ssize]. split; [|reflexivity].
  unfold csh. cbn [dims]. unfold new_shape. rewrite H0. cbn [bind]. do 2 f_equal.
  apply Z.eqb_eq in Heqb. rewrite Heqb. exact (reshape_size_calc _ _ H1).
Qed.
Lemma csh_eq : forall a b, csh a -> csh b -> dims a = dims b -> a = b.
Proof. unfold csh. intros a b Ha Hb E. congruence. Qed.

Section Api.
Context {T : Type} {S : Scalar T}.
Notation C := (@consistent T).

Lemma cons_intro : forall s (d : list T), csh s -> Zlen d = ssize s -> C (mkTensor s d).
Proof. intros. split; [apply csh_iff; auto|auto]. Qed.
Lemma cons_sh : forall t : tensor T, C t -> csh (tshape t).
Proof. intros t [H _]. apply csh_iff. exact H. Qed.
Lemma cons_len : forall t : tensor T, C t -> Zlen (tdata t) = ssize (tshape t).
Proof. intros t [_ H]. exact H. Qed.
Hint Resolve cons_sh cons_len csh_new csh_size : api.

Lemma c_fill : forall s v, csh s -> C (t_fill s v).
Proof. intros. apply cons_intro; auto. apply Zlen_zrepeat. auto with api. Qed.
Lemma c_new : forall s, csh s -> C (t_new s).
Proof. intros. apply cons_intro; auto. apply Zlen_zrepeat. auto with api. Qed.
Hint Resolve c_fill c_new : api.

Lemma c_from_ptr : forall s src t, csh s -> t_from_ptr s src = Ok t -> C t.
Proof.
  intros s src t H E. unfold t_from_ptr in E. ob. injection E as <-. apply cons_intro; auto.
  apply Z.leb_le in Heqb. pose proof (csh_size _ H). unfold Zlen in *. rewrite firstn_length. lia.
Qed.
Lemma c_from_list : forall s vals t, csh s -> t_from_list s vals = Ok t -> C t.
Proof.
  intros s vals t H E. unfold t_from_list in E. ob. injection E as <-. apply cons_intro; auto.
  apply Z.leb_le in Heqb. rewrite Zlen_app, Zlen_zrepeat; lia.
Qed.
Lemma c_copy : forall t t', C t -> t_copy t = Ok t' -> C t'.
Proof. intros t t' H E. eapply c_from_ptr; [|exact E]. auto with api. Qed.
Lemma c_set : forall t i v t', C t -> t_set t i v = Ok t' -> C t'.
Proof.
  intros t i v t' H E. unfold t_set in E. ob. injection E as <-. apply wr_len in H0.
  apply cons_intro; auto with api. rewrite H0. auto with api.
Qed.
Lemma c_at_set : forall t idx v t', C t -> t_at_set t idx v = Ok t' -> C t'.
Proof. intros t idx v t' H E. unfold t_at_set in E. ob. eapply c_set; eauto. Qed.
Lemma c_reshape : forall t ds t', C t -> t_reshape t ds = Ok t' -> C t'.
Proof.
  intros t ds t' H E. unfold t_reshape in E. ob. injection E as <-. apply csh_reshape in H0; auto with api. destruct H0.
  apply cons_intro; auto. rewrite (cons_len t H). congruence.
Qed.
Lemma c_slice : forall t d i t', C t -> t_slice t d i = Ok t' -> C t'.
Proof. intros t d i t' H E. unfold t_slice in E. ob. eapply c_from_ptr; [|exact E]. eauto with api. Qed.

(** A buffer written cell by cell keeps its length. *)
Lemma c_transform : forall n op (l r : bview T) li ri k out out', transform_views n op l r li ri k out = Ok out' -> Zlen out' = Zlen out.
Proof.
  induction n; simpl; intros op l r li ri k out out' H; [ob; injection H as <-; reflexivity|].
  ob; [injection H as <-; reflexivity|]. apply wr_len in H2. apply IHn in H. congruence.
Qed.
Lemma csh_broadcast : forall a b s, broadcast_shapes a b = Ok s -> csh s.
Proof. intros a b s H. unfold broadcast_shapes in H. ob. eauto with api. Qed.
Lemma c_binop : forall op a b t, t_binop op a b = Ok t -> C t.
Proof.
  intros op a b t E. unfold t_binop in E. apply bind_ok_inv in E. destruct E as (rs & H & E). cbv zeta in E. ob. injection E as <-.
  apply csh_broadcast in H. apply cons_intro; auto.
  match goal with HH : transform_views _ _ _ _ _ _ _ _ = Ok _ |- _ => apply c_transform in HH; rewrite HH end. apply Zlen_zrepeat. auto with api.
Qed.
Lemma ip_len : forall n op (r : bview T) al it k buf, Zlen (fst (ip_loop n op r al it k buf)) = Zlen buf.
Proof.
  induction n; intros; [reflexivity|]. cbn [ip_loop].
  match goal with |- context [match ?m with _ => _ end] => destruct m eqn:E end; try reflexivity.
  rewrite IHn. ob. apply wr_len in E. exact E.
Qed.
Lemma c_binop_ip : forall op al a b, C a -> C (fst (t_binop_ip op al a b)).
Proof.
  intros op al a b H. unfold t_binop_ip. destruct (bind _ _) as [r|e| | |]; cbn [fst]; auto.
  pose proof (ip_len (Z.to_nat (ssize (tshape a))) op r al (iter_begin (bv_shape r)) 0 (tdata a)) as L.
  destruct (ip_loop _ _ _ _ _ _ _) as [buf o]. cbn [fst] in *. apply cons_intro; auto with api. rewrite L. auto with api.
Qed.
Lemma c_map : forall f a t, C a -> t_map f a = Ok t -> C t.
Proof.
  intros f a t H E. unfold t_map in E. ob. injection E as <-. apply cons_intro; auto with api.
  eapply (for_keep (fun l => Zlen l = ssize (tshape a))); [| |exact H0].
  - apply Zlen_zrepeat. auto with api.
  - cbv beta. intros i s s' HS E. ob. apply wr_len in E. congruence.
Qed.
Lemma c_map_ip : forall f a t, C a -> t_map_ip f a = Ok t -> C t.
Proof.
  intros f a t H E. unfold t_map_ip in E. ob. injection E as <-. apply cons_intro; auto with api.
  eapply (for_keep (fun l => Zlen l = ssize (tshape a))); [| |exact H0]; [auto with api|].
  cbv beta. intros i s s' HS E. ob. apply wr_len in E. congruence.
Qed.
Lemma c_div_s : forall a s t, C a -> t_div_s a s = Ok t -> C t.
Proof. intros a s t H E. unfold t_div_s in E. ob. eapply c_map; eauto. Qed.
Lemma c_last_write : forall t m, C t -> (forall t', m = Ok t' -> C t') -> C (fst (last_write t m)).
Proof. intros t [t'|e| | |] H K; simpl; auto. Qed.
Lemma c_div_s_ip : forall a s t, C a -> t_div_s_ip a s = Ok t -> C t.
Proof. intros a s t H E. unfold t_div_s_ip in E. ob. eapply c_map_ip; eauto. Qed.
Lemma c_s_sub : forall s a t, C a -> s_sub_t s a = Ok t -> C t.
Proof. intros s a t H E. unfold s_sub_t in E. ob. eapply c_map; [|exact E]. eapply c_map; eauto. Qed.
Lemma c_s_div : forall s a t, C a -> s_div_t s a = Ok t -> C t.
Proof.
  intros s a t H E. unfold s_div_t in E. cbv zeta in E. ob. injection E as <-. apply cons_intro; auto with api.
  cbn [t_fill tshape tdata] in *.
  eapply (for_keep (fun l => Zlen l = ssize (tshape a))); [| |exact H0].
  - apply Zlen_zrepeat. auto with api.
  - cbv beta. intros i l l' HS E. ob. apply wr_len in E. congruence.
Qed.
Lemma c_sum : forall a t, t_sum a = Ok t -> C t.
Proof. intros a t E. unfold t_sum in E. ob. injection E as <-. eauto with api. Qed.
Lemma c_sum_axis : forall a ax t, t_sum_axis a ax = Ok t -> C t.
Proof.
  intros a ax t E. unfold t_sum_axis in E. cbv zeta in E. ob; [eapply c_sum; eauto|]. injection E as <-.
  apply cons_intro; [eauto with api|].
  match goal with HH : for_ _ _ _ _ = Ok _ |- _ => eapply (for_keep (fun st => Zlen (fst st) = ssize _)) in HH; [exact HH| |] end.
  - cbn [fst]. apply Zlen_zrepeat. eauto with api.
  - intros i [l idx] [l' idx'] HS E. ob. injection E as <- <-. cbn [fst] in *.
    match goal with HH : wr _ _ _ = Ok _ |- _ => apply wr_len in HH; congruence end.
Qed.
Lemma sum_axes_len : forall n (t : tensor T) rs mask idx ridx res res', sum_axes_loop n t rs mask idx ridx res = Ok res' -> Zlen res' = Zlen res.
Proof.
  induction n; simpl; intros t rs mask idx ridx res res' H; [discriminate|]. ob.
  all: match goal with HH : wr _ _ _ = Ok _ |- _ => apply wr_len in HH end.
  - injection H as <-. auto.
  - apply IHn in H. congruence.
Qed.
Lemma c_sum_axes : forall a axes t, t_sum_axes a axes = Ok t -> C t.
Proof.
  intros a axes t E. unfold t_sum_axes in E. ob. eapply c_reshape; [|exact E]. apply cons_intro; [eauto with api|].
  match goal with HH : sum_axes_loop _ _ _ _ _ _ _ = Ok _ |- _ => apply sum_axes_len in HH; rewrite HH end. apply Zlen_zrepeat. eauto with api.
Qed.
Lemma c_mean : forall a axes t, C a -> t_mean_axes a axes = Ok t -> C t.
Proof.
  intros a axes t H E. unfold t_mean_axes in E. destruct (_ || _).
  - unfold t_mean_all in E. ob. eapply c_map; [|exact E]. eapply c_sum; eauto.
  - ob. eapply c_reshape; [|exact E]. eapply c_map; [|eassumption].
    match goal with HH : foldM _ _ _ = Ok _ |- _ => eapply (foldM_keep C) in HH; [exact HH|exact H|] end.
    cbv beta. intros ax r r' _ Hr E'. ob. eapply c_sum_axis; eauto.
Qed.
Lemma sq_len : forall n (v : bview T) data it k out out', sq_loop n v data it k out = Ok out' -> Zlen out' = Zlen out.
Proof.
  induction n; simpl; intros v data it k out out' H; [injection H as <-; auto|]. ob.
  match goal with HH : wr _ _ _ = Ok _ |- _ => apply wr_len in HH end. apply IHn in H. congruence.
Qed.
Lemma c_variance : forall a m axes t, C m -> t_variance_axes a m axes = Ok t -> C t.
Proof.
  intros a m axes t H E. unfold t_variance_axes in E. ob. injection E as <-. apply cons_intro; [auto with api|].
  match goal with HH : for_ _ _ _ _ = Ok _ |- _ => eapply (for_keep (fun l => Zlen l = ssize (tshape m))) in HH; [exact HH| |] end.
  - apply Zlen_zrepeat. auto with api.
  - cbv beta. intros i l l' HS E. ob. apply wr_len in E. congruence.
Qed.
Lemma c_variance_all : forall a m t, t_variance_all a m = Ok t -> C t.
Proof. intros a m t E. unfold t_variance_all in E. ob. eapply c_map; [|exact E]. eapply c_sum; eauto. Qed.
Lemma c_pair : forall f a b t, C a -> t_apply_pair f a b = Ok t -> C t.
Proof.
  intros f a b t H E. unfold t_apply_pair in E. cbv zeta in E. ob. injection E as <-. apply cons_intro; [auto with api|].
  match goal with HH : for_ _ _ _ _ = Ok _ |- _ => eapply (for_keep (fun l => Zlen l = ssize (tshape a))) in HH; [exact HH| |] end.
  - apply Zlen_zrepeat. auto with api.
  - cbv beta. intros i l l' HS E. ob. apply wr_len in E. congruence.
Qed.
Lemma c_transpose : forall a i j t, t_transpose a i j = Ok t -> C t.
Proof.
  intros a i j t E. unfold t_transpose in E. cbv zeta in E. ob.
  eapply (for_keep C) in E; [exact E|eauto with api|].
  cbv beta. intros k r r' Hr E'. ob. eapply c_at_set; eauto.
Qed.
Lemma c_identity : forall n t, f_identity n = Ok t -> C t.
Proof.
  intros n t E. unfold f_identity in E. ob. injection E as <-. apply cons_intro; [eauto with api|].
  match goal with HH : for_ _ _ _ _ = Ok _ |- _ => eapply (for_keep (fun st => Zlen (snd st) = ssize _)) in HH; [exact HH| |] end.
  - cbn [snd]. apply Zlen_zrepeat. eauto with api.
  - cbv beta. intros i st st' HS E. eapply (for_keep (fun st => Zlen (snd st) = ssize _)) in E; [exact E|exact HS|].
    cbv beta. intros j [k out] [k' out'] HO E'. ob. injection E' as <- <-. cbn [snd] in *.
    match goal with HH : wr _ _ _ = Ok _ |- _ => apply wr_len in HH; congruence end.
Qed.
Lemma c_random : forall {G} `{Rng T G} ds mn mx g t g', f_random ds mn mx g = Ok (t, g') -> C t.
Proof.
  intros G R ds mn mx g t g' E. unfold f_random in E. ob. injection E as <- <-. apply cons_intro; [eauto with api|].
  match goal with HH : for_ _ _ _ _ = Ok _ |- _ => eapply (for_keep (fun st => Zlen (fst st) = ssize _)) in HH; [exact HH| |] end.
  - cbn [fst]. apply Zlen_zrepeat. eauto with api.
  - cbv beta. intros i [l g1] [l' g2] HS E. ob. injection E as <- <-. cbn [fst] in *.
    match goal with HH : wr _ _ _ = Ok _ |- _ => apply wr_len in HH; congruence end.
Qed.

(** ** Products *)
Lemma c_loop : forall lo hi (body : Z -> tensor T -> outcome (tensor T)) t t', C t ->
  (forall i t t', C t -> body i t = Ok t' -> C t') -> for_ lo hi body t = Ok t' -> C t'.
Proof. intros. eapply (for_keep C); eauto. Qed.
Lemma c_dot : forall a b t, t_dot a b = Ok t -> C t.
Proof. intros a b t E. unfold t_dot in E. ob. eapply c_from_list; [|exact E]. eauto with api. Qed.
Lemma c_matvec : forall a b t, t_matvec a b = Ok t -> C t.
Proof.
  intros a b t E. unfold t_matvec in E. ob. injection E as <-. apply cons_intro; [eauto with api|].
  match goal with HH : for_ _ _ _ _ = Ok _ |- _ => eapply (for_keep (fun l => Zlen l = ssize _)) in HH; [exact HH| |] end.
  - apply Zlen_zrepeat. eauto with api.
  - cbv beta. intros i l l' HS E. ob. apply wr_len in E. congruence.
Qed.
Lemma c_matmat : forall a b t, t_matmat a b = Ok t -> C t.
Proof.
  intros a b t E. unfold t_matmat in E. ob. injection E as <-. apply cons_intro; [eauto with api|].
  match goal with HH : for_ _ _ _ _ = Ok _ |- _ => eapply (for_keep (fun l => Zlen l = ssize _)) in HH; [exact HH| |] end.
  - apply Zlen_zrepeat. eauto with api.
  - cbv beta. intros i l l' HS E. eapply (for_keep (fun l => Zlen l = ssize _)) in E; [exact E|exact HS|].
    cbv beta. intros j m m' HM E'. ob. apply wr_len in E'. congruence.
Qed.
Lemma c_mm23 : forall a b t, t_mm23 a b = Ok t -> C t.
Proof.
  intros a b t E. unfold t_mm23 in E. ob. eapply c_loop; [| |exact E]; [eauto with api|].
  cbv beta. intros ? ? ? ? E1. eapply c_loop; [| |exact E1]; [auto|].
  cbv beta. intros ? ? ? ? E2. eapply c_loop; [| |exact E2]; [auto|].
  cbv beta. intros ? ? ? ? E3. ob. eapply c_at_set; eauto.
Qed.
Lemma c_mm32 : forall a b t, t_mm32 a b = Ok t -> C t.
Proof.
  intros a b t E. unfold t_mm32 in E. ob. eapply c_loop; [| |exact E]; [eauto with api|].
  cbv beta. intros ? ? ? ? E1. eapply c_loop; [| |exact E1]; [auto|].
  cbv beta. intros ? ? ? ? E2. eapply c_loop; [| |exact E2]; [auto|].
  cbv beta. intros ? ? ? ? E3. ob. eapply c_at_set; eauto.
Qed.
Lemma c_batch_loop : forall n bds m k p a b bidx res t, C res -> M_Adv.batch_loop n bds m k p a b bidx res = Ok t -> C t.
Proof.
  induction n; simpl; intros bds m k p a b bidx res t H E; [discriminate|].
  apply bind_ok_inv in E. destruct E as (r & E1 & E).
  assert (HR : C r).
  { clear E. eapply c_loop; [| |exact E1]; [auto|]. cbv beta. intros ? ? ? ? E2. eapply c_loop; [| |exact E2]; [auto|].
    cbv beta. intros ? ? ? ? E3. ob. eapply c_at_set; eauto. }
  destruct (incr_idx bds bidx) as [bi cr]. destruct cr; [injection E as <-; auto|]. eapply IHn; eauto.
Qed.
Lemma c_batched : forall a b t, t_batched a b = Ok t -> C t.
Proof.
  intros a b t E. unfold t_batched in E. cbv zeta in E. ob; [eapply c_mm32; eauto|eapply c_mm23; eauto|].
  eapply c_batch_loop; [|exact E]. eauto with api.
Qed.
Lemma c_matmul : forall a b t, t_matmul a b = Ok t -> C t.
Proof.
  intros a b t E. unfold t_matmul in E. cbv zeta in E. ob; [eapply c_dot|eapply c_matmat| |eapply c_matvec|eapply c_batched]; eauto.
  eapply c_reshape; [|exact E]. eapply c_matmat; eauto.
Qed.
Lemma c_matmat_slice : forall (a b : sview T) t, t_matmat_slice a b = Ok t -> C t.
Proof.
  intros a b t E. unfold t_matmat_slice in E. ob. injection E as <-. apply cons_intro; [eauto with api|].
  match goal with HH : for_ _ _ _ _ = Ok _ |- _ => eapply (for_keep (fun l => Zlen l = ssize _)) in HH; [exact HH| |] end.
  - apply Zlen_zrepeat. eauto with api.
  - cbv beta. intros i l l' HS E. eapply (for_keep (fun l => Zlen l = ssize _)) in E; [exact E|exact HS|].
    cbv beta. intros j m m' HM E'. ob. apply wr_len in E'. congruence.
Qed.

(** ** Activations and losses *)
Lemma c_softmax : forall x t, C x -> softmax_fwd x = Ok t -> C t.
Proof.
  intros x t H E. unfold softmax_fwd in E. ob. injection E as <-. apply cons_intro; [auto with api|].
  match goal with HH : for_ _ _ _ _ = Ok _ |- _ => eapply (for_keep (fun l => Zlen l = ssize (tshape x))) in HH; [exact HH| |] end.
  - apply Zlen_zrepeat. auto with api.
  - cbv beta. intros b l l' HS E. ob.
    match goal with HH : for_ _ _ _ (l, zero) = Ok _ |- _ => eapply (for_keep (fun st => Zlen (fst st) = ssize (tshape x))) in HH; [|exact HS|] end.
    + eapply (for_keep (fun l => Zlen l = ssize (tshape x))) in E; [exact E|assumption|].
      cbv beta. intros i m m' HM E'. ob. apply wr_len in E'. congruence.
    + cbv beta. intros i [m s1] [m' s2] HM E'. ob. injection E' as <- <-. cbn [fst] in *.
      match goal with HH : wr _ _ _ = Ok _ |- _ => apply wr_len in HH; congruence end.
Qed.
Lemma c_softmax_bwd : forall x g t, C x -> softmax_bwd x g = Ok t -> C t.
Proof.
  intros x g t H E. unfold softmax_bwd in E. ob. injection E as <-. apply cons_intro; [auto with api|].
  match goal with HH : for_ _ _ _ _ = Ok _ |- _ => eapply (for_keep (fun l => Zlen l = ssize (tshape x))) in HH; [exact HH| |] end.
  - apply Zlen_zrepeat. auto with api.
  - cbv beta. intros b l l' HS E. ob. eapply (for_keep (fun l => Zlen l = ssize (tshape x))) in E; [exact E|assumption|].
    cbv beta. intros i m m' HM E'. ob. apply wr_len in E'. congruence.
Qed.
Lemma c_act_fwd : forall a x t, C x -> act_fwd a x = Ok t -> C t.
Proof. intros [|al| | | | |] x t H E; cbn [act_fwd] in E; try (eapply c_map; eauto; fail). eapply c_softmax; eauto. Qed.
Lemma c_act_bwd : forall a x g t, C x -> act_bwd a x g = Ok t -> C t.
Proof.
  intros [|al| | | | |] x g t H E; cbn [act_bwd] in E.
  - unfold relu_bwd in E. ob. eapply c_binop; eauto.
  - eapply c_pair; eauto.
  - unfold sigmoid_bwd in E. ob. eapply c_binop; eauto.
  - unfold tanh_bwd in E. ob. eapply c_binop; eauto.
  - eapply c_pair; eauto.
  - eapply c_pair; eauto.
  - eapply c_softmax_bwd; eauto.
Qed.
Lemma c_loss : forall l p y t, loss_compute l p y = Ok t -> C t.
Proof.
  intros [|] p y t E; cbn [loss_compute] in E.
  - unfold mse_compute in E. ob. eapply c_div_s; [|exact E]. eapply c_sum; eauto.
  - unfold cce_compute in E. ob. injection E as <-. eauto with api.
Qed.
Lemma c_loss_grad : forall l p y t, C p -> loss_gradient l p y = Ok t -> C t.
Proof.
  intros [|] p y t H E; cbn [loss_gradient] in E.
  - unfold mse_gradient in E. ob. eapply c_div_s; [|exact E]. eapply c_map; [|eassumption]. eapply c_binop; eauto.
  - unfold cce_gradient in E. ob. eapply c_div_s; [|exact E].
    match goal with HH : for_ _ _ _ _ = Ok _ |- _ => eapply c_loop in HH; [exact HH|auto with api|] end.
    cbv beta. intros ? ? ? ? E1. eapply c_loop in E1; [exact E1|auto|]. cbv beta. intros ? ? ? ? E2. ob. eapply c_at_set; eauto.
Qed.

(** ** Layers *)
Lemma c_reshape_to : forall t ds t', C t -> reshape_to t ds = Ok t' -> C t'.
Proof. intros t ds t' H E. unfold reshape_to in E. ob. eapply c_reshape; eauto. Qed.
Lemma c_as_row : forall t t', C t -> as_row t = Ok t' -> C t'.
Proof. intros t t' H E. unfold as_row in E. ob; [eapply c_reshape_to; eauto|injection E as <-; auto]. Qed.
Lemma c_at_add : forall t idx v t', C t -> t_at_add t idx v = Ok t' -> C t'.
Proof. intros t idx v t' H E. unfold t_at_add in E. ob. eapply c_at_set; eauto. Qed.
Lemma c_bn_reshape : forall t ds t', C t -> bn_reshape t ds = Ok t' -> C t'.
Proof. intros t ds t' H E. unfold bn_reshape in E. ob. eapply c_reshape_to; eauto. Qed.
Lemma c_normalise : forall x m v eps t, bn_normalise x m v eps = Ok t -> C t.
Proof. intros x m v eps t E. unfold bn_normalise in E. ob. eapply c_binop; exact E. Qed.
Lemma c_ema : forall mom r b t, bn_ema mom r b = Ok t -> C t.
Proof. intros mom r b t E. unfold bn_ema in E. ob. eapply c_binop; exact E. Qed.

(** A call that leaves the state satisfying [P] and, when it returns, the result satisfying [Q]. *)
Definition res {St B} (P : St -> Prop) (Q : B -> Prop) (r : St * outcome B) : Prop := P (fst r) /\ forall b, snd r = Ok b -> Q b.
Lemma res_ret : forall {St B} (P : St -> Prop) (Q : B -> Prop) s m, P s -> (forall b, m = Ok b -> Q b) -> res P Q (s, m).
Proof. split; auto. Qed.
Lemma res_step : forall {St A B} (P : St -> Prop) (Q : B -> Prop) s (m : outcome A) k, P s -> (forall a, m = Ok a -> res P Q (k a)) -> res P Q (step s m k).
Proof. intros St A B P Q s [a|e| | |] k H K; cbn [step]; auto; (split; [exact H|discriminate]). Qed.

Definition lcons (l : layer T) : Prop := Forall C (layer_tensors l).
Definition ocons (o : option (tensor T)) : Prop := forall t, o = Some t -> C t.
Lemma ocons_list : forall o, Forall C (opt_list o) <-> ocons o.
Proof.
  intros [t|]; unfold ocons; simpl; split; intros H.
  - intros t' E. injection E as <-. inversion H; auto.
  - constructor; auto.
  - discriminate.
  - constructor.
Qed.
Lemma ocons_some : forall t, C t -> ocons (Some t).
Proof. intros t H t' E. injection E as <-. exact H. Qed.
Lemma ocons_none : ocons None.
Proof. discriminate. Qed.
Hint Resolve ocons_some ocons_none : api.
Definition fc_ok (l : fc T) : Prop := C (fc_w l) /\ C (fc_b l) /\ ocons (fc_in l) /\ ocons (fc_gw l) /\ ocons (fc_gb l).
Definition cv_ok (l : conv T) : Prop := C (cv_w l) /\ C (cv_b l) /\ ocons (cv_in l) /\ ocons (cv_gw l) /\ ocons (cv_gb l).
Definition bn_ok (l : bn T) : Prop := (C (bn_gamma l) /\ C (bn_beta l) /\ C (bn_rmean l) /\ C (bn_rvar l)) /\
  (ocons (bn_mean l) /\ ocons (bn_var l) /\ ocons (bn_norm l)) /\ ocons (bn_ggamma l) /\ ocons (bn_gbeta l).
Lemma lcons_fc : forall l, lcons (LFC l) <-> fc_ok l.
Proof. intros l. unfold lcons, fc_ok. cbn [layer_tensors app]. rewrite !Forall_cons_iff, !Forall_app, !ocons_list. tauto. Qed.
Lemma lcons_conv : forall l, lcons (LConv l) <-> cv_ok l.
Proof. intros l. unfold lcons, cv_ok. cbn [layer_tensors app]. rewrite !Forall_cons_iff, !Forall_app, !ocons_list. tauto. Qed.
Lemma lcons_bn : forall l, lcons (LBN l) <-> bn_ok l.
Proof. intros l. unfold lcons, bn_ok. cbn [layer_tensors app]. rewrite !Forall_cons_iff, !Forall_app, !ocons_list. tauto. Qed.
Lemma lcons_act : forall l, lcons (LAct l) <-> ocons (al_in l).
Proof. intros l. apply ocons_list. Qed.
Lemma lcons_pool : forall l, lcons (LPool l) <-> ocons (po_in l).
Proof. intros l. apply ocons_list. Qed.
Lemma lcons_drop : forall l, lcons (LDrop l) <-> ocons (dr_mask l).
Proof. intros l. apply ocons_list. Qed.

Lemma c_fc_forward : forall l x, fc_ok l -> C x -> res fc_ok C (fc_forward l x).
Proof.
  intros l x (H1 & H2 & H3 & H4 & H5) HX. apply res_ret; [unfold fc_ok; cbn; auto 6 with api|].
  intros y E. ob; [eapply c_reshape_to; [|exact E]|injection E as <-]; eapply c_binop; eassumption.
Qed.
Lemma c_fc_backward : forall l g, fc_ok l -> C g -> res fc_ok C (fc_backward l g).
Proof.
  intros l g H HG. pose proof H as (H1 & H2 & H3 & H4 & H5). unfold fc_backward. destruct (fc_in l) as [x|] eqn:EX; [|apply res_ret; [auto|discriminate]].
  assert (HX : C x) by (apply H3; reflexivity).
  apply res_step; [auto|]. intros [g2 gw] E. ob. injection E as <- <-.
  assert (HW : C x3) by (eapply c_matmul; eassumption).
  apply res_step; [unfold fc_ok; cbn; rewrite <- EX in *; auto 6 with api|]. intros gb E. ob.
  assert (HB : C gb) by (eapply c_reshape_to; [|exact E]; eapply c_sum_axis; eassumption).
  apply res_ret; [unfold fc_ok; cbn; rewrite <- EX in *; auto 6 with api|]. intros b E'. ob. eapply c_matmul; eassumption.
Qed.
Lemma c_conv_forward : forall l x, cv_ok l -> C x -> res cv_ok C (conv_forward l x).
Proof.
  intros l x H HX. pose proof H as (H1 & H2 & H3 & H4 & H5). unfold conv_forward.
  destruct (negb _); [apply res_ret; [auto|discriminate]|]. apply res_step; [auto|]. intros c _.
  destruct (negb _); [apply res_ret; [auto|discriminate]|]. apply res_ret; [unfold cv_ok; cbn; auto 6 with api|].
  intros y E. ob. eapply c_loop; [| |exact E]; [eauto with api|]. cbv beta. intros ? ? ? ? E1.
  eapply c_loop; [| |exact E1]; [auto|]. cbv beta. intros ? ? ? ? E2.
  eapply c_loop; [| |exact E2]; [auto|]. cbv beta. intros ? ? ? ? E3.
  eapply c_loop; [| |exact E3]; [auto|]. cbv beta. intros ? ? ? ? E4. ob. eapply c_at_set; eauto.
Qed.
Lemma keep_loop_inv : forall {A St} (I : St -> Prop) (b : A -> St -> St * outcome unit) l s, (forall a s, I s -> I (fst (b a s))) -> I s -> I (fst (keep_loop b l s)).
Proof.
  intros A St I b l. induction l as [|a l IH]; intros s H HI; cbn [keep_loop]; [exact HI|]. pose proof (H a s HI) as H1. destruct (b a s) as [s1 [u|e| | |]]; cbn [step fst] in *; auto.
Qed.
Lemma kept_inv : forall {St} (I : St -> Prop) s (m : outcome St), I s -> (forall s', m = Ok s' -> I s') -> I (fst (kept s m)).
Proof. intros St I s [s'|e| | |] H K; cbn; auto. Qed.
Lemma c_conv_backward : forall l g, cv_ok l -> C g -> res cv_ok C (conv_backward l g).
Proof.
  intros l g H HG. pose proof H as (H1 & H2 & H3 & H4 & H5). unfold conv_backward. destruct (cv_in l) as [x|] eqn:EX; [|apply res_ret; [auto|discriminate]].
  assert (HX : C x) by (apply H3; reflexivity). cbv zeta.
  assert (HC : forall gw gb, C gw -> C gb -> cv_ok (conv_with l gw gb)) by (intros gw gb A B; unfold cv_ok, conv_with; cbn; rewrite EX; rewrite <- EX in *; auto 6 with api).
  assert (N1 : C (t_new (tshape (cv_w l)))) by auto with api. assert (N2 : C (t_new (tshape (cv_b l)))) by auto with api.
  apply res_step; [auto|]. intros [gh gwd] _.
  match goal with |- res _ _ (let (_, _) := ?m in _) => assert (HB : C (fst m)); [|destruct m as [gb o1]; cbn [fst] in HB] end.
  { apply keep_loop_inv; [|auto]. intros i s HS. apply keep_loop_inv; [|auto]. intros j s1 HS1. apply kept_inv; [auto|]. intros s2 E2. ob. eapply c_set; eauto. }
  apply res_step; [auto|]. intros _ _.
  match goal with |- res _ _ (let (_, _) := ?m in _) => assert (HW : C (fst m)); [|destruct m as [gw o2]; cbn [fst] in HW] end.
  { apply keep_loop_inv; [|auto]. intros i s HS. apply keep_loop_inv; [|auto]. intros j s1 HS1. apply kept_inv; [auto|]. intros s2 E2. ob. eapply c_at_set; eauto. }
  apply res_step; [auto|]. intros _ _.
  apply res_ret; [auto|].
  intros y E. eapply c_loop; [| |exact E]; [auto with api|]. cbv beta. intros ? ? ? ? E1.
  eapply c_loop; [| |exact E1]; [auto|]. cbv beta. intros ? ? ? ? E2.
  eapply c_loop; [| |exact E2]; [auto|]. cbv beta. intros ? ? ? ? E3.
  eapply c_loop; [| |exact E3]; [auto|]. cbv beta. intros ? ? ? ? E4. ob. eapply c_at_add; eauto.
Qed.
Lemma c_pool_forward : forall l x, ocons (po_in l) -> C x -> res (fun l => ocons (po_in l)) C (pool_forward l x).
Proof.
  intros l x H HX. unfold pool_forward. destruct (negb _); [apply res_ret; [auto|discriminate]|]. apply res_ret; [cbn; auto with api|].
  intros y E. ob. eapply c_loop; [| |exact E]; [eauto with api|]. cbv beta. intros ? ? ? ? E1.
  eapply c_loop; [| |exact E1]; [auto|]. cbv beta. intros ? ? ? ? E2.
  eapply c_loop; [| |exact E2]; [auto|]. cbv beta. intros ? ? ? ? E3.
  eapply c_loop; [| |exact E3]; [auto|]. cbv beta. intros ? ? ? ? E4. ob. eapply c_at_set; eauto.
Qed.
Lemma c_pool_backward : forall l g t, ocons (po_in l) -> pool_backward l g = Ok t -> C t.
Proof.
  intros l g t H E. unfold pool_backward in E. destruct (po_in l) as [x|]; [|discriminate].
  assert (HX : C x) by (apply H; reflexivity).
  ob. eapply c_loop; [| |exact E]; [auto with api|]. cbv beta. intros ? ? ? ? E1.
  eapply c_loop; [| |exact E1]; [auto|]. cbv beta. intros ? ? ? ? E2.
  eapply c_loop; [| |exact E2]; [auto|]. cbv beta. intros ? ? ? ? E3.
  eapply c_loop; [| |exact E3]; [auto|]. cbv beta. intros ? ? ? ? E4. apply bind_ok_inv in E4. destruct E4 as ([[mx mh] mw] & _ & E4). ob. eapply c_at_add; eauto.
Qed.
Lemma c_drop_forward : forall {G} `{Rng T G} l x (g : G), ocons (dr_mask l) -> C x ->
  ocons (dr_mask (fst (fst (dropout_forward l x g)))) /\ forall y, snd (dropout_forward l x g) = Ok y -> C y.
Proof.
  intros G R l x g H HX. unfold dropout_forward. destruct (dr_train l).
  2: { cbn. split; [auto|]. intros y E. injection E as <-. auto. }
  destruct (f_rand (tdims x) g) as [[r g']|e| | |] eqn:ER; cbn; try (split; [auto|discriminate]).
  unfold f_rand in ER. apply c_random in ER.
  match goal with |- context [step ?s ?m ?k] =>
    assert (K : res (fun l => ocons (dr_mask l)) C (step s m k)); [|destruct (step s m k); exact K] end.
  apply res_step; [cbn; auto with api|]. intros m E. assert (HM : C m) by (eapply c_map; eassumption).
  apply res_ret; [cbn; auto with api|]. intros y E'. ob. eapply c_map; [|exact E']. eapply c_binop; eassumption.
Qed.
Lemma c_drop_backward : forall l g t, ocons (dr_mask l) -> C g -> dropout_backward l g = Ok t -> C t.
Proof.
  intros l g t H HG E. unfold dropout_backward in E. destruct (dr_mask l) as [m|]; [|discriminate].
  ob; [eapply c_binop; eassumption|injection E as <-; auto].
Qed.
Lemma c_bn_forward : forall l x, bn_ok l -> C x -> res bn_ok C (bn_forward l x).
Proof.
  intros l x H HX. pose proof H as ((H1 & H2 & H3 & H4) & (H5 & H6 & H7) & H8 & H9). unfold bn_forward. cbv zeta.
  destruct (_ && _); [apply res_ret; [auto|discriminate]|]. destruct (bn_train l).
  - apply res_step; [auto|]. intros m Em. assert (Cm : C m) by (eapply c_mean; [|exact Em]; auto).
    apply res_step; [unfold bn_ok; cbn; auto 8 with api|]. intros v Ev. assert (Cv : C v) by (eapply c_variance; [|exact Ev]; auto).
    apply res_step; [unfold bn_ok; cbn; auto 8 with api|]. intros [[rg rb] nx] E. ob. injection E as <- <- <-.
    assert (Cn : C x4) by (eapply c_normalise; eassumption).
    apply res_step; [unfold bn_ok; cbn; auto 8 with api|]. intros [y rm] E. ob. injection E as <- <-.
    assert (Cy : C x6) by (eapply c_binop; eassumption). assert (Cr : C x7) by (eapply c_ema; eassumption).
    apply res_step; [unfold bn_ok; cbn; auto 8 with api|]. intros rv E. apply c_ema in E.
    apply res_ret; [unfold bn_ok; cbn; auto 8 with api|]. intros b Eb. injection Eb as <-. auto.
  - apply res_ret; [auto|]. intros y E. ob. eapply c_binop; exact E.
Qed.
Lemma c_bn_backward : forall l g, bn_ok l -> C g -> res bn_ok C (bn_backward l g).
Proof.
  intros l g H HG. pose proof H as ((H1 & H2 & H3 & H4) & (H5 & H6 & H7) & H8 & H9). unfold bn_backward. cbv zeta.
  destruct (bn_mean l) as [m|] eqn:Em, (bn_var l) as [v|] eqn:Ev, (bn_norm l) as [nx|] eqn:En; try (apply res_ret; [exact H|discriminate]).
  apply res_step; [auto|]. intros [[dg db] dx] E.
  assert (K : C dg /\ C db /\ C dx).
  { ob. injection E as <- <- <-. repeat match goal with |- _ /\ _ => split end;
      match goal with HH : t_sum_axes _ _ = Ok ?t |- consistent ?t => exact (c_sum_axes _ _ _ HH) | HH : t_add _ _ = Ok ?t |- consistent ?t => exact (c_binop _ _ _ _ HH) end. }
  destruct K as (K1 & K2 & K3).
  apply res_ret; [unfold bn_ok; cbn; rewrite ?Em, ?Ev, ?En; auto 8 with api|]. intros b Eb. injection Eb as <-. auto.
Qed.

Definition res3 {St X B} (P : St -> Prop) (Q : B -> Prop) (r : St * X * outcome B) : Prop := P (fst (fst r)) /\ forall b, snd r = Ok b -> Q b.
Lemma c_layer_forward : forall {G} `{Rng T G} l x (g : G), lcons l -> C x -> res3 lcons C (layer_forward l x g).
Proof.
  intros G R l x g H HX. destruct l; cbn [layer_forward]; unfold lift, res3; cbn [fst snd].
  - apply lcons_fc in H. destruct (c_fc_forward l x H HX). split; [apply lcons_fc|]; auto.
  - split; [apply lcons_act; cbn; auto with api|]. intros b E. eapply c_act_fwd; [|exact E]; auto.
  - split; [constructor|]. intros b E. unfold flatten_forward in E. destruct (_ <? 2); [discriminate|]. destruct (_ =? 2); cbn [snd] in E.
    + injection E as <-. auto.
    + ob. eapply c_reshape_to; eauto.
  - apply lcons_conv in H. destruct (c_conv_forward l x H HX). split; [apply lcons_conv|]; auto.
  - apply lcons_pool in H. destruct (c_pool_forward l x H HX). split; [apply lcons_pool|]; auto.
  - apply lcons_drop in H. destruct (c_drop_forward l x g H HX). destruct (dropout_forward l x g) as [[l' g'] o]. cbn [fst snd] in *. split; [apply lcons_drop|]; auto.
  - apply lcons_bn in H. destruct (c_bn_forward l x H HX). split; [apply lcons_bn|]; auto.
Qed.
Lemma c_layer_backward : forall l d, lcons l -> C d -> res lcons C (layer_backward l d).
Proof.
  intros l x H HX. destruct l; cbn [layer_backward].
  - apply lcons_fc in H. destruct (c_fc_backward l x H HX). destruct (fc_backward l x). apply res_ret; [apply lcons_fc|]; auto.
  - apply res_ret; [auto|]. apply lcons_act in H. intros b E. unfold act_backward in E. destruct (al_in l) as [y|]; [|discriminate]. eapply c_act_bwd; [|exact E]. apply H. reflexivity.
  - apply res_ret; [auto|]. intros b E. unfold flatten_backward in E. destruct (fl_shape l); [|discriminate]. eapply c_reshape; eauto.
  - apply lcons_conv in H. destruct (c_conv_backward l x H HX). destruct (conv_backward l x). apply res_ret; [apply lcons_conv|]; auto.
  - apply res_ret; [auto|]. apply lcons_pool in H. intros b E. eapply c_pool_backward; eauto.
  - apply res_ret; [auto|]. apply lcons_drop in H. intros b E. eapply c_drop_backward; eauto.
  - apply lcons_bn in H. destruct (c_bn_backward l x H HX). destruct (bn_backward l x). apply res_ret; [apply lcons_bn|]; auto.
Qed.
Lemma c_set_mode : forall m l, lcons l -> lcons (layer_set_mode m l).
Proof. intros m [l|l|l|l|l|l|l] H; exact H. Qed.
Lemma c_constructed : forall {G} `{Rng T G} l, constructed (G := G) l -> lcons l.
Proof.
  intros G R l H. inversion H; subst; try (constructor; fail).
  - match goal with HH : fc_new _ _ _ = Ok _ |- _ => rename HH into E end. unfold fc_new, f_zeros, f_fill in E. ob. injection E as <- <-. unfold f_rand in *.
    apply lcons_fc. unfold fc_ok. cbn. match goal with HH : f_random _ _ _ _ = Ok _ |- _ => apply c_random in HH end. injection H1 as <-. eauto 8 with api.
  - match goal with HH : conv_new _ _ _ _ _ _ _ _ = Ok _ |- _ => rename HH into E end. unfold conv_new, f_zeros, f_fill in E. ob. injection E as <- <-. unfold f_rand in *.
    apply lcons_conv. unfold cv_ok. cbn. match goal with HH : f_random _ _ _ _ = Ok _ |- _ => apply c_random in HH end. injection H1 as <-. eauto 8 with api.
  - match goal with HH : bn_new _ _ _ = Ok _ |- _ => rename HH into E end. unfold bn_new, f_fill in E. ob.
    repeat match goal with HH : Ok _ = Ok _ |- _ => injection HH as <- end. apply lcons_bn. unfold bn_ok. cbn. repeat match goal with |- _ /\ _ => split end; eauto with api.
Qed.

(** ** Optimizers *)
Definition bcons (b : bufs T) : Prop := forall k, ocons (b k).
Lemma bcons_put : forall b k t, bcons b -> C t -> bcons (put b k (Some t)).
Proof. intros b k t H HT k'. unfold put. destruct (k' =? k); auto with api. Qed.
Lemma bcons_get : forall b k s, bcons b -> csh s -> C (buf_get b k s).
Proof. intros b k s H HS. unfold buf_get. destruct (b k) eqn:E; [exact (H k _ E)|auto with api]. Qed.
Lemma bcons_none : bcons (fun _ => None).
Proof. intros k. apply ocons_none. Qed.
Hint Resolve bcons_put bcons_get bcons_none : api.
Definition opcons (o : optim T) : Prop :=
  match o with
  | OSGD o => bcons (sg_buf o)
  | ORMS o => bcons (rp_sq o) /\ bcons (rp_mean o) /\ bcons (rp_vel o)
  | OAdam o => bcons (ad_m o) /\ bcons (ad_v o)
  end.
Lemma c_with : forall (t : tensor T) d, C t -> Zlen d = Zlen (tdata t) -> C (mkTensor (tshape t) d).
Proof. intros t d H E. apply cons_intro; [auto with api|]. rewrite E. auto with api. Qed.

Lemma sgd_body_len : forall o gd lr j w m w' m', sgd_body o gd lr j (w, m) = Ok (w', m') -> Zlen w' = Zlen w /\ Zlen m' = Zlen m.
Proof.
  intros o gd lr j w m w' m' E. unfold sgd_body in E. apply bind_ok_inv in E. destruct E as (g & _ & E).
  apply bind_ok_inv in E. destruct E as (g1 & _ & E). apply bind_ok_inv in E. destruct E as ([g2 m2] & E1 & E).
  assert (HM : Zlen m2 = Zlen m).
  { clear E. destruct (negb _); ob; injection E1 as <- <-; [|reflexivity]. match goal with HH : wr m _ _ = Ok _ |- _ => apply wr_len in HH; exact HH end. }
  clear E1. ob. injection E as <- <-. match goal with HH : wr _ _ _ = Ok _ |- _ => apply wr_len in HH end. auto.
Qed.
Lemma c_sgd_update : forall o k w g lr, opcons (OSGD o) -> C w -> res (fun o => opcons (OSGD o)) C (sgd_update o k w g lr).
Proof.
  intros o k w g lr H HW. unfold sgd_update. cbv zeta. cbn [opcons] in *.
  assert (HM : C (buf_get (sg_buf o) k (tshape w))) by auto with api.
  apply res_step; [cbn; auto with api|]. intros [wd md] E.
  assert (K : Zlen wd = Zlen (tdata w) /\ Zlen md = Zlen (tdata (buf_get (sg_buf o) k (tshape w)))).
  { eapply (for_keep (fun p => Zlen (fst p) = Zlen (tdata w) /\ Zlen (snd p) = Zlen (tdata (buf_get (sg_buf o) k (tshape w))))) in E; [exact E|auto|].
    cbv beta. intros i [a b] [a' b'] [Ha Hb] E'. apply sgd_body_len in E'. cbn [fst snd] in *. destruct E'. split; congruence. }
  destruct K as [K1 K2]. cbn [fst snd]. apply res_ret; [cbn; auto using c_with with api|]. intros b Eb. injection Eb as <-. auto using c_with.
Qed.
Lemma rms_body_len : forall o gd lr j w s m v w' s' m' v', rms_body o gd lr j (w, s, m, v) = Ok (w', s', m', v') ->
  Zlen w' = Zlen w /\ Zlen s' = Zlen s /\ Zlen m' = Zlen m /\ Zlen v' = Zlen v.
Proof.
  intros o gd lr j w s m v w' s' m' v' E. unfold rms_body in E. apply bind_ok_inv in E. destruct E as (g & _ & E).
  apply bind_ok_inv in E. destruct E as (g1 & _ & E). apply bind_ok_inv in E. destruct E as (sv & _ & E). cbv zeta in E.
  apply bind_ok_inv in E. destruct E as (s1 & E1 & E). apply wr_len in E1.
  apply bind_ok_inv in E. destruct E as ([den m1] & E2 & E).
  assert (HM : Zlen m1 = Zlen m).
  { clear E. destruct (rp_cent o); ob; injection E2 as <- <-; [|reflexivity]. match goal with HH : wr m _ _ = Ok _ |- _ => apply wr_len in HH; exact HH end. }
  clear E2. ob; injection E as <- <- <- <-; repeat match goal with HH : wr _ _ _ = Ok _ |- _ => apply wr_len in HH end; auto.
Qed.
Lemma c_rms_update : forall o k w g lr, opcons (ORMS o) -> C w -> res (fun o => opcons (ORMS o)) C (rms_update o k w g lr).
Proof.
  intros o k w g lr (H1 & H2 & H3) HW. unfold rms_update. cbv zeta. cbn [opcons] in *.
  set (ts := buf_get (rp_sq o) k (tshape w)). set (tm := buf_get (rp_mean o) k (tshape w)). set (tv := buf_get (rp_vel o) k (tshape w)).
  assert (Cs : C ts) by (apply bcons_get; auto with api). assert (Cm : C tm) by (apply bcons_get; auto with api). assert (Cv : C tv) by (apply bcons_get; auto with api).
  apply res_step.
  { cbn. split; [auto with api|]. split; [destruct (rp_cent o)|destruct (s_lt _ _)]; auto with api. }
  intros [[[wd sd] md] vd] E.
  assert (K : Zlen wd = Zlen (tdata w) /\ Zlen sd = Zlen (tdata ts) /\ (rp_cent o = true -> Zlen md = Zlen (tdata tm)) /\ (s_lt zero (rp_mom o) = true -> Zlen vd = Zlen (tdata tv))).
  { eapply (for_keep (fun p => Zlen (fst (fst (fst p))) = Zlen (tdata w) /\ Zlen (snd (fst (fst p))) = Zlen (tdata ts) /\
      (rp_cent o = true -> Zlen (snd (fst p)) = Zlen (tdata tm)) /\ (s_lt zero (rp_mom o) = true -> Zlen (snd p) = Zlen (tdata tv)))) in E; [exact E| |].
    - cbn [fst snd]. split; [auto|]. split; [auto|]. split; intros ->; reflexivity.
    - cbv beta. intros i [[[a b] c] d] [[[a' b'] c'] d'] (Ha & Hb & Hc & Hd) E'. apply rms_body_len in E'. cbn [fst snd] in *. destruct E' as (-> & -> & -> & ->). auto. }
  destruct K as (K1 & K2 & K3 & K4). apply res_ret.
  - cbn. split; [auto using c_with with api|]. split; [destruct (rp_cent o)|destruct (s_lt _ _)]; auto using c_with with api.
  - intros b Eb. injection Eb as <-. auto using c_with.
Qed.
Lemma adam_body_len : forall o gd al j w m v w' m' v', adam_body o gd al j (w, m, v) = Ok (w', m', v') ->
  Zlen w' = Zlen w /\ Zlen m' = Zlen m /\ Zlen v' = Zlen v.
Proof.
  intros o gd al j w m v w' m' v' E. unfold adam_body in E. do 4 (apply bind_ok_inv in E; destruct E as (? & _ & E)).
  destruct (adam_param _ _ _ _ _ _) as [[a b] c]. ob. injection E as <- <- <-.
  repeat match goal with HH : wr _ _ _ = Ok _ |- _ => apply wr_len in HH end. auto.
Qed.
Lemma c_adam_update : forall o k w g u, opcons (OAdam o) -> C w -> res (fun o => opcons (OAdam o)) C (adam_update o k w g u).
Proof.
  intros o k w g u (H1 & H2) HW. unfold adam_update. cbv zeta. cbn [opcons] in *.
  set (tm := buf_get (ad_m o) k (tshape w)). set (tv := buf_get (ad_v o) k (tshape w)).
  assert (Cm : C tm) by (apply bcons_get; auto with api). assert (Cv : C tv) by (apply bcons_get; auto with api).
  apply res_step; [cbn; auto with api|]. intros [[wd md] vd] E.
  assert (K : Zlen wd = Zlen (tdata w) /\ Zlen md = Zlen (tdata tm) /\ Zlen vd = Zlen (tdata tv)).
  { eapply (for_keep (fun p => Zlen (fst (fst p)) = Zlen (tdata w) /\ Zlen (snd (fst p)) = Zlen (tdata tm) /\ Zlen (snd p) = Zlen (tdata tv))) in E; [exact E|auto|].
    cbv beta. intros i [[a b] c] [[a' b'] c'] (Ha & Hb & Hc) E'. apply adam_body_len in E'. cbn [fst snd] in *. destruct E' as (-> & -> & ->). auto. }
  destruct K as (K1 & K2 & K3). apply res_ret; [cbn; auto using c_with with api|]. intros b Eb. injection Eb as <-. auto using c_with.
Qed.
Lemma c_opt_loop : forall {O K} (P : O -> Prop) (update : O -> Z -> tensor T -> tensor T -> K -> O * outcome (tensor T)) c,
  (forall o k w g, P o -> C w -> res P C (update o k w g c)) ->
  forall l o st, P o -> (forall k, C (st k)) -> P (fst (fst (opt_loop update c l o st))) /\ forall k, C (snd (fst (opt_loop update c l o st)) k).
Proof.
  intros O K P update c HU. induction l as [|[k g] l IH]; intros o st HP HS; cbn [opt_loop]; [split; auto|].
  destruct (HU o k (st k) g HP (HS k)) as [U1 U2]. destruct (update o k (st k) g c) as [o' [w|e| | |]]; cbn [fst snd] in *; auto.
  apply IH; [auto|]. intros k'. unfold put. destruct (k' =? k); auto.
Qed.
Lemma c_optimize : forall o st ks gs lro, opcons o -> (forall k, C (st k)) ->
  opcons (fst (fst (optim_optimize o st ks gs lro))) /\ forall k, C (snd (fst (optim_optimize o st ks gs lro)) k).
Proof.
  intros [o|o|o] st ks gs lro H HS; cbn [optim_optimize].
  - unfold sgd_optimize. destruct (negb _); [cbn; auto|].
    pose proof (c_opt_loop (fun o => opcons (OSGD o)) sgd_update (sgd_rate o lro) (fun o k w g => c_sgd_update o k w g _) (combine ks gs) o st H HS) as K.
    destruct (opt_loop _ _ _ _ _) as [[? ?] ?]. exact K.
  - unfold rms_optimize. destruct (negb _); [cbn; auto|].
    pose proof (c_opt_loop (fun o => opcons (ORMS o)) rms_update (rms_rate o lro) (fun o k w g => c_rms_update o k w g _) (combine ks gs) o st H HS) as K.
    destruct (opt_loop _ _ _ _ _) as [[? ?] ?]. exact K.
  - unfold adam_optimize. destruct (negb _); [cbn; auto|]. destruct (adam_rate o lro) as [o1|e| | |] eqn:E; try (cbn; auto; fail).
    assert (H1 : opcons (OAdam o1)) by (unfold adam_rate in E; ob; injection E as <-; exact H).
    pose proof (c_opt_loop (fun o => opcons (OAdam o)) adam_update tt (fun o k w g => c_adam_update o k w g tt) (combine ks gs) o1 st H1 HS) as K.
    destruct (opt_loop _ _ _ _ _) as [[? ?] ?]. exact K.
Qed.
Lemma c_pair_optimize : forall o i w b gw gb, opcons o -> C w -> C b ->
  opcons (fst (fst (fst (pair_optimize o i w b gw gb)))) /\ C (snd (fst (fst (pair_optimize o i w b gw gb)))) /\ C (snd (fst (pair_optimize o i w b gw gb))).
Proof.
  intros o i w b gw gb H HW HB. unfold pair_optimize.
  destruct (c_optimize o (pair_store i w b) [2 * i; 2 * i + 1] [gw; gb] (s_z (-1)) H) as [K1 K2].
  { intros k. unfold pair_store. destruct (_ =? _); auto. }
  destruct (optim_optimize _ _ _ _ _) as [[? ?] ?]. cbn [fst snd] in *. auto.
Qed.
Lemma c_layer_update : forall i l o, lcons l -> opcons o -> lcons (fst (fst (layer_update i l o))) /\ opcons (snd (fst (layer_update i l o))).
Proof.
  intros i l o H HO. destruct l; cbn [layer_update]; try (cbn [fst snd]; auto; fail).
  - destruct (fc_gw l) as [gw|] eqn:E1, (fc_gb l) as [gb|] eqn:E2; try (cbn [fst snd]; auto; fail).
    apply lcons_fc in H. pose proof H as (H1 & H2 & H3 & H4 & H5). destruct (c_pair_optimize o i (fc_w l) (fc_b l) gw gb) as (K1 & K2 & K3); auto.
    destruct (pair_optimize _ _ _ _ _ _) as [[[? ?] ?] ?]. cbn [fst snd] in *. split; [|auto]. apply lcons_fc. unfold fc_ok. cbn. rewrite <- ?E1, <- ?E2. auto 6.
  - destruct (cv_gw l) as [gw|] eqn:E1, (cv_gb l) as [gb|] eqn:E2; try (cbn [fst snd]; auto; fail).
    apply lcons_conv in H. pose proof H as (H1 & H2 & H3 & H4 & H5). destruct (c_pair_optimize o i (cv_w l) (cv_b l) gw gb) as (K1 & K2 & K3); auto.
    destruct (pair_optimize _ _ _ _ _ _) as [[[? ?] ?] ?]. cbn [fst snd] in *. split; [|auto]. apply lcons_conv. unfold cv_ok. cbn. rewrite <- ?E1, <- ?E2. auto 6.
  - destruct (bn_ggamma l) as [gw|] eqn:E1, (bn_gbeta l) as [gb|] eqn:E2; try (cbn [fst snd]; auto; fail).
    apply lcons_bn in H. pose proof H as ((H1 & H2 & H3 & H4) & H5 & H8 & H9). destruct (c_pair_optimize o i (bn_gamma l) (bn_beta l) gw gb) as (K1 & K2 & K3); auto.
    destruct (pair_optimize _ _ _ _ _ _) as [[[? ?] ?] ?]. cbn [fst snd] in *. split; [|auto]. apply lcons_bn. unfold bn_ok. cbn. rewrite <- ?E1, <- ?E2. auto 8.
Qed.

(** ** Networks *)
Section NetApi.
Context {G : Type} {HR : Rng T G}.
Definition ncons (n : net T G) : Prop := Forall lcons (n_layers n) /\ forall o, n_opt n = Some o -> opcons o.
Lemma c_forward_all : forall ls x (g : G), Forall lcons ls -> C x -> res3 (Forall lcons) C (forward_all ls x g).
Proof.
  induction ls as [|l ls IH]; intros x g H HX; cbn [forward_all]; [split; cbn; auto; intros b E; injection E as <-; auto|].
  inversion H; subst. destruct (c_layer_forward l x g) as [K1 K2]; auto. destruct (layer_forward l x g) as [[l' g'] [y|e| | |]]; cbn [fst snd] in *;
    try (split; cbn; [constructor; auto|discriminate]).
  destruct (IH y g') as [L1 L2]; auto. destruct (forward_all ls y g') as [[ls' g''] o]. cbn [fst snd] in *. split; cbn [fst snd]; auto.
Qed.
Lemma c_backward_all : forall ls d, Forall lcons ls -> C d -> res (Forall lcons) C (backward_all ls d).
Proof.
  induction ls as [|l ls IH]; intros d H HD; cbn [backward_all]; [split; cbn; auto; intros b E; injection E as <-; auto|].
  inversion H; subst. destruct (IH d) as [K1 K2]; auto. destruct (backward_all ls d) as [ls' [y|e| | |]]; cbn [fst snd] in *;
    try (split; cbn; [constructor; auto|discriminate]).
  destruct (c_layer_backward l y) as [L1 L2]; auto. destruct (layer_backward l y) as [l' o]. cbn [fst snd] in *. split; cbn [fst snd]; auto.
Qed.
Lemma c_update_all : forall ls i o, Forall lcons ls -> opcons o -> Forall lcons (fst (fst (update_all i ls o))) /\ opcons (snd (fst (update_all i ls o))).
Proof.
  induction ls as [|l ls IH]; intros i o H HO; cbn [update_all]; [cbn; auto|].
  inversion H; subst. destruct (c_layer_update i l o) as [K1 K2]; auto. destruct (layer_update i l o) as [[l' o'] [u|e| | |]]; cbn [fst snd] in *; auto.
  destruct (IH (i + 1) o') as [L1 L2]; auto. destruct (update_all (i + 1) ls o') as [[ls' o''] r]. cbn [fst snd] in *. auto.
Qed.
Lemma c_predict : forall n x, ncons n -> C x -> res ncons C (net_predict n x).
Proof.
  intros n x [H1 H2] HX. unfold net_predict. destruct (c_forward_all (n_layers n) x (n_rng n)) as [K1 K2]; auto.
  destruct (forward_all _ _ _) as [[ls g] o]. cbn [fst snd] in *. split; [split|]; cbn; auto.
Qed.
Lemma c_predict_all : forall xs n, ncons n -> Forall C xs -> res ncons (Forall C) (net_predict_all n xs).
Proof.
  induction xs as [|x xs IH]; intros n H HX; cbn [net_predict_all]; [apply res_ret; auto; intros b E; injection E as <-; auto|].
  inversion HX; subst. destruct (c_predict n x) as [K1 K2]; auto. destruct (net_predict n x) as [n1 o]. cbn [fst snd] in *.
  apply res_step; [auto|]. intros y ->. destruct (IH n1) as [L1 L2]; auto. destruct (net_predict_all n1 xs) as [n2 o2]. cbn [fst snd] in *.
  apply res_step; [auto|]. intros ys ->. apply res_ret; [auto|]. intros b E. injection E as <-. auto.
Qed.
Lemma c_net_with : forall n ls, ncons n -> Forall lcons ls -> ncons (net_with n ls).
Proof. intros n ls [H1 H2] H. split; auto. Qed.
Lemma c_net_backward : forall n d, ncons n -> C d -> res ncons (fun _ => True) (net_backward n d).
Proof.
  intros n d H HD. unfold net_backward. destruct (c_backward_all (n_layers n) d) as [K1 K2]; [apply H|auto|]. destruct (backward_all _ _) as [ls o]. cbn [fst snd] in *.
  apply res_step; [apply c_net_with; auto|]. intros y _. apply res_ret; [apply c_net_with; auto|auto].
Qed.
Lemma c_net_update : forall n, ncons n -> res ncons (fun _ => True) (net_update n).
Proof.
  intros n H. pose proof H as [H1 H2]. unfold net_update. destruct (n_layers n) as [|l ls]; [apply res_ret; auto|].
  destruct (n_opt n) as [o|]; [|apply res_ret; auto]. destruct (c_update_all (l :: ls) 0 o) as [K1 K2]; auto.
  destruct (update_all 0 (l :: ls) o) as [[ls' o'] r]. cbn [fst snd] in *. apply res_ret; [|auto]. split; cbn; [auto|]. intros o1 E. injection E as <-. auto.
Qed.
Lemma c_train_sample : forall n x t total, ncons n -> C x -> (forall t', t = Ok t' -> C t') -> C total -> res ncons C (train_sample n x t total).
Proof.
  intros n x t total H HX HT HO. unfold train_sample. destruct (c_predict n x) as [K1 K2]; auto. destruct (net_predict n x) as [n1 o]. cbn [fst snd] in *.
  apply res_step; [auto|]. intros p ->. assert (HP : C p) by auto. destruct (n_loss n) as [l|]; [|apply res_ret; [auto|discriminate]].
  apply res_step; [auto|]. intros [tot d] E. apply bind_ok_inv in E. destruct E as (y & -> & E). apply bind_ok_inv in E. destruct E as (c & _ & E).
  apply bind_ok_inv in E. destruct E as (tot' & E1 & E). apply bind_ok_inv in E. destruct E as (d' & E2 & E). injection E as <- <-.
  assert (CT : C tot').
  { pose proof (c_binop_ip s_add false total c HO) as CI. destruct (t_binop_ip _ _ _ _) as [tt' r]. cbn [fst] in CI. clear E2. ob. injection E1 as <-. auto. }
  assert (CD : C d') by (eapply c_loss_grad; [|exact E2]; auto).
  destruct (c_net_backward n1 d') as [L1 L2]; auto. destruct (net_backward n1 d') as [n2 r]. cbn [fst snd] in *.
  apply res_step; [auto|]. intros _ _. destruct (c_net_update n2) as [M1 M2]; auto. destruct (net_update n2) as [n3 r']. cbn [fst snd] in *.
  apply res_step; [auto|]. intros _ _. apply res_ret; [auto|]. intros b E. injection E as <-. auto.
Qed.
Lemma c_train_samples : forall xs ts n i total, ncons n -> Forall C xs -> Forall C ts -> C total -> res ncons C (train_samples n xs ts i total).
Proof.
  induction xs as [|x xs IH]; intros ts n i total H HX HT HO; cbn [train_samples]; [apply res_ret; auto; intros b E; injection E as <-; auto|].
  inversion HX; subst. destruct (c_train_sample n x (rd ts i) total) as [K1 K2]; auto.
  { intros t' E. apply (rd_ok_inv t') in E. destruct E as [E1 E2]. rewrite Forall_forall in HT. apply HT. rewrite E2. unfold znth, Zlen in *. apply nth_In. lia. }
  destruct (train_sample _ _ _ _) as [n1 o]. cbn [fst snd] in *. apply res_step; auto.
Qed.
Lemma c_train_epochs : forall k n xs ts, ncons n -> Forall C xs -> Forall C ts -> res ncons (fun _ => True) (train_epochs n xs ts k).
Proof.
  induction k; intros n xs ts H HX HT; cbn [train_epochs]; [apply res_ret; auto|].
  assert (K : res ncons (fun _ => True) (train_epoch n xs ts)).
  { unfold train_epoch. apply res_step; [auto|]. intros total E. ob. injection E as <-.
    destruct (c_train_samples xs ts n 0 (t_fill x zero)) as [K1 K2]; eauto with api. destruct (train_samples _ _ _ _ _) as [n1 o]. cbn [fst snd] in *.
    apply res_step; [auto|]. intros tt' _. apply res_step; [auto|]. intros. apply res_ret; auto. }
  destruct K as [K1 K2]. destruct (train_epoch n xs ts) as [n1 o]. cbn [fst snd] in *. apply res_step; auto.
Qed.
Lemma c_net_mode : forall n m, ncons n -> ncons (net_set_mode n m).
Proof. intros n m H. apply c_net_with; [auto|]. destruct H as [H _]. rewrite Forall_map. eapply Forall_impl; [|exact H]. intros l. apply c_set_mode. Qed.
End NetApi.

(** ** Loaders and generators *)
Lemma c_batched_loop : forall {St} (P : St -> Prop) fuel b n i (body : Z -> St -> outcome St) s s', P s ->
  (forall c s s', P s -> body c s = Ok s' -> P s') -> M_Data.batch_loop fuel b n i body s = Ok s' -> P s'.
Proof.
  intros St P. induction fuel; intros b n i body s s' HP HB E; cbn [M_Data.batch_loop] in E; [discriminate|]. ob; [|injection E as <-; auto].
  eapply IHfuel; [|exact HB|exact E]. eauto.
Qed.
Lemma c_images : forall b n file ts, load_images b n file = Ok ts -> Forall C ts.
Proof.
  intros b n file ts E. unfold load_images in E. destruct file as [s0|]; [|discriminate].
  do 4 (apply bind_ok_inv in E; let u := fresh "u" in let v := fresh "v" in destruct E as ([u v] & _ & E)). cbv zeta in E. destruct (negb _); [discriminate|].
  apply bind_ok_inv in E. destruct E as ([im s'] & E1 & E). injection E as <-. unfold batched in E1.
  eapply (c_batched_loop (fun st => Forall C (fst st))) in E1; [exact E1|constructor|].
  intros c [l s2'] [l' s''] HL E. unfold load_image_batch in E. apply bind_ok_inv in E. destruct E as (sh & ES & E). apply bind_ok_inv in E. destruct E as ([im' s3] & E2 & E).
  injection E as <- <-. cbn [fst] in *. apply Forall_app. split; [auto|]. constructor; [|constructor].
  apply (for_keep (fun st => C (fst st))) in E2; [exact E2|cbn; eauto with api|]. cbv beta. intros j st st' Hs E3.
  apply (for_keep (fun st => C (fst st))) in E3; [exact E3|auto|]. cbv beta. intros j2 st2 st2' Hs2 E4.
  apply (for_keep (fun st => C (fst st))) in E4; [exact E4|auto|]. cbv beta. intros j3 [t4 s4] [t5 s5] Hs4 E5. cbn [fst] in *.
  unfold load_pixel in E5. destruct (get_byte s4). ob. injection E5 as <- <-. eapply c_at_set; eauto.
Qed.
Lemma c_labels : forall b n file ts, load_labels b n file = Ok ts -> Forall C ts.
Proof.
  intros b n file ts E. unfold load_labels in E. destruct file as [s0|]; [|discriminate].
  do 2 (apply bind_ok_inv in E; let u := fresh "u" in let v := fresh "v" in destruct E as ([u v] & _ & E)). cbv zeta in E. destruct (negb _); [discriminate|].
  apply bind_ok_inv in E. destruct E as ([im s'] & E1 & E). injection E as <-. unfold batched in E1.
  eapply (c_batched_loop (fun st => Forall C (fst st))) in E1; [exact E1|constructor|].
  intros c [l s2'] [l' s''] HL E. unfold load_label_batch in E. apply bind_ok_inv in E. destruct E as (sh & ES & E). apply bind_ok_inv in E. destruct E as ([im' s3] & E2 & E).
  injection E as <- <-. cbn [fst] in *. apply Forall_app. split; [auto|]. constructor; [|constructor].
  apply (for_keep (fun st => C (fst st))) in E2; [exact E2|cbn; eauto with api|]. cbv beta. intros j [t4 s4] [t5 s5] Hs4 E5. cbn [fst] in *.
  unfold load_label in E5. destruct (get_byte s4). ob. injection E5 as <- <-. eapply c_at_set; eauto.
Qed.
Lemma c_linear : forall {D G} {SD : Scalar D} {RG : Rng D G} (to_d : T -> D) (to_f : D -> T) n noise (g : G) xs ys,
  gen_linear to_d to_f n noise g = Ok (xs, ys) -> Forall C xs /\ Forall C ys.
Proof.
  intros D G SD RG to_d to_f n noise g xs ys E. unfold gen_linear in E. apply bind_ok_inv in E. destruct E as ([[a b] g'] & E1 & E). injection E as <- <-.
  apply (for_keep (fun st => Forall C (fst (fst st)) /\ Forall C (snd (fst st)))) in E1; [exact E1|cbn; auto|].
  intros i [[l r] g1] [[l' r'] g2] [Hl Hr] E. destruct (gen_pair _ _ _ _) as [[x y] g3]. ob. injection E as <- <- <-. cbn [fst snd] in *.
  split; apply Forall_app; (split; [auto|constructor; [eauto with api|constructor]]).
Qed.
Lemma c_gen_batched : forall {D G} {SD : Scalar D} {RG : Rng D G} (to_d : T -> D) (to_f : D -> T) n b noise (g : G) xs ys,
  gen_batched to_d to_f n b noise g = Ok (xs, ys) -> Forall C xs /\ Forall C ys.
Proof.
  intros D G SD RG to_d to_f n b noise g xs ys E. unfold gen_batched in E.
  apply bind_ok_inv in E; destruct E as (? & _ & E). apply bind_ok_inv in E; destruct E as (? & _ & E). destruct (b =? 0); [discriminate|].
  apply bind_ok_inv in E; destruct E as (? & _ & E). apply bind_ok_inv in E. destruct E as ([[a c] g'] & E1 & E). injection E as <- <-.
  apply (for_keep (fun st => Forall C (fst (fst st)) /\ Forall C (snd (fst st)))) in E1; [exact E1|cbn; auto|].
  intros i [[l r] g1] [[l' r'] g2] [Hl Hr] E. cbn [fst snd] in *.
  do 2 (apply bind_ok_inv in E; destruct E as (? & _ & E)). apply bind_ok_inv in E. destruct E as (s1 & ES1 & E). apply bind_ok_inv in E. destruct E as (s2 & ES2 & E).
  apply bind_ok_inv in E. destruct E as ([[ib tb] g3] & E2 & E). injection E as <- <- <-.
  apply (for_keep (fun st => C (fst (fst st)) /\ C (snd (fst st)))) in E2; [|cbn; split; eauto with api|].
  - destruct E2. cbn [fst snd] in *. split; apply Forall_app; (split; [auto|constructor; [auto|constructor]]).
  - intros j [[p q] g4] [[p' q'] g5] [Hp Hq] E'. destruct (gen_pair _ _ _ _) as [[vx vy] g6]. ob. injection E' as <- <- <-. cbn [fst snd] in *.
    split; eapply c_at_set; [|eassumption| |eassumption]; auto.
Qed.

(** ** The theorem *)
Section Main.
Context {D G GD : Type} {SD : Scalar D} {HR : Rng T G} {HD : Rng D GD}.
Definition obj_ok (x : object T G) : Prop := match x with OTensor t => C t | OLayer l => lcons l | OOptim o => opcons o | ONet n => ncons n end.
Lemma made_ok : forall (to_d : T -> D) (to_f : D -> T) x, made (G := G) (HD := HD) to_d to_f x -> obj_ok x.
Proof.
  intros to_d to_f x H. induction H; cbn [obj_ok] in *; auto.
  all: try (match goal with E : ?m = Ok ?t |- consistent ?t =>
      match m with
      | t_from_ptr _ _ => eapply c_from_ptr | t_from_list _ _ => eapply c_from_list | t_copy _ => eapply c_copy | f_identity _ => eapply c_identity
      | t_set _ _ _ => eapply c_set | t_at_set _ _ _ => eapply c_at_set | t_slice _ _ _ => eapply c_slice | t_binop _ _ _ => eapply c_binop
      | t_map _ _ => eapply c_map | t_map_ip _ _ => eapply c_map_ip | t_div_s _ _ => eapply c_div_s | s_sub_t _ _ => eapply c_s_sub | s_div_t _ _ => eapply c_s_div
      | t_sum _ => eapply c_sum | t_sum_axis _ _ => eapply c_sum_axis | t_sum_axes _ _ => eapply c_sum_axes | t_mean_axes _ _ => eapply c_mean
      | t_variance_axes _ _ _ => eapply c_variance | t_variance_all _ _ => eapply c_variance_all | t_apply_pair _ _ _ => eapply c_pair
      | t_reciprocal _ _ => eapply c_map | t_transpose _ _ _ => eapply c_transpose | t_matmul _ _ => eapply c_matmul | t_matmat_slice _ _ => eapply c_matmat_slice
      | act_fwd _ _ => eapply c_act_fwd | act_bwd _ _ _ => eapply c_act_bwd | loss_compute _ _ _ => eapply c_loss | loss_gradient _ _ _ => eapply c_loss_grad
      end; [..|exact E]; eauto with api end; fail).
  - apply c_new. eauto with api.
  - apply c_fill. eauto with api.
  - match goal with E : f_random _ _ _ _ = Ok _ |- _ => exact (c_random _ _ _ _ _ _ E) end.
  - match goal with E : sview_set _ _ _ = Ok _ |- _ => unfold sview_set in E; rename E into E1 end.
    match goal with E : sview_new _ _ _ = Ok _ |- _ => unfold sview_new in E; rename E into E2 end.
    assert (K : sv_orig v = t) by (clear E1; ob; injection E2 as <-; reflexivity). clear E2. ob. rewrite K in *. eapply c_set; eauto.
  - apply c_last_write; [auto|]. intros t' E. eapply c_reshape; eauto.
  - apply c_binop_ip; auto.
  - apply c_last_write; [auto|]. intros t' E. eapply c_div_s_ip; eauto.
  - match goal with E : load_images _ _ _ = Ok _ |- _ => apply c_images in E; rewrite Forall_forall in E; auto end.
  - match goal with E : load_labels _ _ _ = Ok _ |- _ => apply c_labels in E; rewrite Forall_forall in E; auto end.
  - match goal with E : gen_linear _ _ _ _ _ = Ok _ |- _ => apply c_linear in E; apply Forall_app in E; rewrite Forall_forall in E; auto end.
  - match goal with E : gen_batched _ _ _ _ _ _ = Ok _ |- _ => apply c_gen_batched in E; apply Forall_app in E; rewrite Forall_forall in E; auto end.
  - eapply c_constructed; eauto.
  - apply lcons_fc in IHmade1. destruct IHmade1 as (K1 & K2 & K3). apply lcons_fc. unfold fc_ok. cbn. auto.
  - apply lcons_fc in IHmade1. pose proof IHmade1 as (K1 & K2 & K3). apply lcons_fc.
    assert (K : res fc_ok (fun _ => True) (fc_set_biases l b)); [|apply K].
    unfold fc_set_biases. apply res_step; [auto|]. intros [|] _; apply res_ret; auto. unfold fc_ok. cbn. auto.
  - apply lcons_fc in IHmade1. destruct IHmade1 as (K1 & K2 & K3 & K4 & K5). apply lcons_fc. unfold fc_ok. cbn. eauto 8 with api.
  - apply lcons_fc in IHmade1. destruct IHmade1 as (K1 & K2 & K3 & K4 & K5). apply lcons_fc. unfold fc_ok. cbn. eauto 8 with api.
  - apply lcons_conv in IHmade1. destruct IHmade1 as (K1 & K2 & K3). apply lcons_conv. unfold cv_ok. cbn. auto.
  - apply lcons_conv in IHmade1. destruct IHmade1 as (K1 & K2 & K3). apply lcons_conv. unfold cv_ok. cbn. auto.
  - match goal with E : layer_forward _ _ _ = _ |- _ => pose proof (c_layer_forward l x g IHmade1 IHmade2) as K; rewrite E in K; apply K end.
  - match goal with E : layer_forward _ _ _ = _ |- _ => pose proof (c_layer_forward l x g IHmade1 IHmade2) as K; rewrite E in K; apply K; reflexivity end.
  - match goal with E : layer_backward _ _ = _ |- _ => pose proof (c_layer_backward l d IHmade1 IHmade2) as K; rewrite E in K; apply K end.
  - match goal with E : layer_backward _ _ = _ |- _ => pose proof (c_layer_backward l d IHmade1 IHmade2) as K; rewrite E in K; apply K; reflexivity end.
  - match goal with E : layer_update _ _ _ = _ |- _ => pose proof (c_layer_update i l o IHmade1 IHmade2) as K; rewrite E in K; apply K end.
  - match goal with E : layer_update _ _ _ = _ |- _ => pose proof (c_layer_update i l o IHmade1 IHmade2) as K; rewrite E in K; apply K end.
  - apply c_set_mode; auto.
  - unfold lcons in IHmade. rewrite Forall_forall in IHmade. auto.
  - cbn. apply bcons_none.
  - cbn. auto using bcons_none.
  - cbn. auto using bcons_none.
  - match goal with E : optim_optimize _ _ _ _ _ = _ |- _ => pose proof (c_optimize o st ks gs lro) as K; rewrite E in K; apply K; auto end.
  - match goal with E : optim_optimize _ _ _ _ _ = _ |- _ => pose proof (c_optimize o st ks gs lro) as K; rewrite E in K; apply K; auto end.
  - split; [constructor|discriminate].
  - destruct IHmade1 as [K1 K2]. split; [|auto]. apply Forall_app. auto.
  - destruct IHmade1 as [K1 K2]. split; [auto|]. intros o' E. injection E as <-. auto.
  - match goal with E : net_predict _ _ = _ |- _ => pose proof (c_predict n x IHmade1 IHmade2) as K; rewrite E in K; apply K end.
  - match goal with E : net_predict _ _ = _ |- _ => pose proof (c_predict n x IHmade1 IHmade2) as K; rewrite E in K; apply K; reflexivity end.
  - match goal with E : net_predict_all _ _ = _ |- _ => pose proof (c_predict_all xs n IHmade) as K; rewrite E in K; apply K; apply Forall_forall; auto end.
  - match goal with E : net_predict_all _ _ = _ |- _ => pose proof (c_predict_all xs n IHmade) as K; rewrite E in K end.
    destruct K as [_ K]; [apply Forall_forall; auto|]. specialize (K _ eq_refl). rewrite Forall_forall in K. auto.
  - match goal with E : net_train _ _ _ _ = _ |- _ => unfold net_train in E; pose proof (c_train_epochs (Z.to_nat e) n xs ts IHmade) as K; rewrite E in K end.
    apply K; apply Forall_forall; auto.
  - apply c_net_mode; auto.
  - match goal with E : net_backward _ _ = _ |- _ => pose proof (c_net_backward n d IHmade1 IHmade2) as K; rewrite E in K; apply K end.
  - match goal with E : net_update _ = _ |- _ => pose proof (c_net_update n IHmade) as K; rewrite E in K; apply K end.
  - destruct IHmade as [K _]. match goal with E : net_get _ _ = Ok _ |- _ => apply (rd_ok_inv l) in E; destruct E as [E1 E2] end.
    rewrite Forall_forall in K. apply K. rewrite E2. unfold znth, Zlen in *. apply nth_In. lia.
  - apply c_net_with; [auto|]. destruct IHmade1 as [K _]. match goal with E : wr _ _ _ = Ok _ |- _ => apply wr_ok_inv in E; destruct E as [E1 ->] end.
    apply Forall_nth. intros j d Hj. rewrite upd_length in Hj. destruct (Nat.eq_dec j (Z.to_nat i)) as [->|Hn];
      [rewrite nth_upd_eq by auto; auto|rewrite nth_upd_neq by auto; exact (proj1 (Forall_nth _ _) K j d Hj)].
Qed.
End Main.
End Api.

(** ** Consequences for C85 *)
Lemma strides_small : forall ds, Forall (fun d => 0 < d) ds -> prod ds < two64 -> map (fun k => k mod 2 ^ 64) (strides_of ds) = strides_of ds.
Proof.
  intros ds HF HP. rewrite <- (map_id (strides_of ds)) at 2. apply map_ext_in. intros k Hk.
  pose proof (strides_bound ds HF) as HB. rewrite Forall_forall in HB. apply HB in Hk. change two64 with (2 ^ 64) in HP. apply Z.mod_small. lia.
Qed.
Lemma consistent_wf : forall {T} (t : tensor T), consistent t -> prod (tdims t) < two64 -> wf t.
Proof.
  intros T t ((HP & HS & HR) & HL) HB. unfold wf, tdims in *. pose proof (prod_pos _ (proj2 HP)).
  assert (ES : ssize (tshape t) = prod (dims (tshape t))).
  { rewrite HS. change two64 with (2 ^ 64) in HB. apply Z.mod_small. lia. }
  rewrite strides_small in HR by (auto; apply HP). split; [exact HP|]. split; [|split; [exact HB|lia]].
  destruct (tshape t) as [ds n st]. cbn [dims ssize sstride] in *. rewrite ES, HR. reflexivity.
Qed.
Lemma consistent_good : forall {T} (t : tensor T), consistent t -> prod (tdims t) <= INT_MAX -> good t.
Proof.
  intros T t H HB. assert (HW : wf t). { apply consistent_wf; [exact H|]. unfold two64, INT_MAX in *. lia. }
  destruct HW as (H1 & H2 & H3 & H4). split; [exact H1|]. split; [exact H2|]. split; [exact HB|exact H4].
Qed.

(** ** C86 *)
Lemma flat_stale : forall ds ds' n idx, length ds' = length ds -> in_range ds' idx ->
  compute_flat_index (mkShape ds' n (strides_of ds)) idx = Ok (u64 (ravel ds idx)).
Proof.
  intros ds ds' n idx HL HI. assert (HLI : length idx = length ds') by (apply in_range_length; exact HI).
  unfold compute_flat_index, rank. cbn [dims sstride].
  assert (HLZ : Zlen idx = Zlen ds) by (unfold Zlen; lia). assert (HLD : Zlen ds' = Zlen ds) by (unfold Zlen; lia).
  rewrite HLZ, HLD, Z.eqb_refl. cbn [negb].
  match goal with |- for_ _ _ ?b _ = _ => set (body := b) end.
  destruct (for_inv (fun i flat => 0 <= flat < two64 /\ u64 (flat + ravel (skipn (Z.to_nat i) ds) (skipn (Z.to_nat i) idx)) = u64 (ravel ds idx))
    0 (Zlen ds) body 0) as (r & E & HP & HR).
  - apply Zlen_nonneg.
  - split; [unfold two64; lia|]. cbn [Z.to_nat skipn]. f_equal; lia.
  - intros i flat Hi (HP & HR). unfold body.
    rewrite (rd_ok 0 idx) by lia. cbn [bind]. rewrite (rd_ok 0 ds') by lia. cbn [bind].
    pose proof (in_range_nth _ _ i HI). destruct (Z.ltb_spec (znth 0 idx i) 0), (Z.leb_spec (znth 0 ds' i) (znth 0 idx i)); try lia. cbn [orb].
    rewrite (rd_ok 0) by (unfold Zlen in *; rewrite strides_length; lia). cbn [bind].
    eexists; split; [reflexivity|]. split; [apply u64_range|].
    rewrite (skipn_znth 0 ds), (skipn_znth 0 idx) in HR by lia. cbn [ravel] in HR.
    rewrite <- (znth_strides ds i 0) in HR by lia.
    rewrite <- HR. rewrite u64_add_l. rewrite u64_mul_l.
    rewrite <- Z.add_assoc, (Z.add_comm (u64 _)), Z.add_assoc, u64_add_r. f_equal. lia.
  - rewrite E. rewrite skipn_all_Z in HR. cbn [ravel] in HR. rewrite Z.add_0_r in HR. rewrite u64_id in HR by auto. congruence.
Qed.
Lemma ravel_max : forall ds i v, (i < length ds)%nat ->
  ravel ds (map Z.pred (upd ds i v)) = prod ds - 1 + (v - nth i ds 0) * prod (skipn (Datatypes.S i) ds).
Proof.
  assert (B : forall ds, ravel ds (map Z.pred ds) = prod ds - 1).
  { induction ds as [|d ds IH]; [reflexivity|]. cbn [map ravel]. rewrite IH. change (prod (d :: ds)) with (d * prod ds). unfold Z.pred. lia. }
  induction ds as [|d ds IH]; intros i v H; [simpl in H; lia|].
  destruct i; cbn [upd map ravel nth]; change (prod (d :: ds)) with (d * prod ds); cbn [skipn].
  - rewrite B. unfold Z.pred. lia.
  - rewrite IH by (simpl in H; lia). unfold Z.pred. change (skipn (Datatypes.S (Datatypes.S i)) (d :: ds)) with (skipn (Datatypes.S i) ds). cbn [skipn]. lia.
Qed.
Lemma set_larger : forall {T} {S : Scalar T} ds i v, pos_dims ds -> (i < length ds)%nat -> nth i ds 0 < v ->
  prod ds + (v - nth i ds 0) * prod (skipn (Datatypes.S i) ds) < two64 ->
  exists s s' idx, new_shape ds = Ok s /\ shape_set s (Z.of_nat i) v = Ok s' /\ dims s' = upd ds i v /\ in_range (dims s') idx /\ t_at (t_new s' : tensor T) idx = UB.
Proof.
  intros T S ds i v HP HI HV HB.
  assert (HQ : 0 < prod (skipn (Datatypes.S i) ds)).
  { apply prod_pos. destruct HP as [_ HF]. rewrite <- (firstn_skipn (Datatypes.S i) ds) in HF. apply Forall_app in HF. apply HF. }
  pose proof (prod_pos ds (proj2 HP)) as HPP.
  exists (shape_of ds), (mkShape (upd ds i v) (prod ds) (strides_of ds)), (map Z.pred (upd ds i v)).
  assert (HPU : Forall (fun d => 0 < d) (upd ds i v)).
  { apply Forall_nth. intros j d Hj. rewrite upd_length in Hj. destruct HP as [_ HF].
    pose proof (proj1 (Forall_nth _ _) HF i 0 HI) as Hd. destruct (Nat.eq_dec j i) as [->|Hn].
    - rewrite nth_upd_eq by auto. cbv beta in Hd. lia.
    - rewrite nth_upd_neq by auto. exact (proj1 (Forall_nth _ _) HF j d Hj). }
  assert (HR : in_range (upd ds i v) (map Z.pred (upd ds i v))).
  { clear - HPU. induction HPU; constructor; auto. unfold Z.pred. lia. }
  split; [apply new_shape_ok; [exact HP|nia]|]. split.
  { unfold shape_set. cbn [dims shape_of]. rewrite wr_ok by (unfold Zlen; lia). rewrite Nat2Z.id. reflexivity. }
  split; [reflexivity|]. split; [exact HR|].
  unfold t_at. cbn [tshape t_new]. rewrite flat_stale by (auto; apply upd_length). cbn [bind tdata t_new].
  rewrite ravel_max by exact HI. rewrite u64_id by nia. apply rd_ub. cbn [ssize]. rewrite Zlen_zrepeat by lia. nia.
Qed.
Lemma set_smaller : forall {T} {S : Scalar T} ds i v, pos_dims ds -> prod ds < two64 -> (i < length ds)%nat -> 0 < v <= nth i ds 0 ->
  exists s s', new_shape ds = Ok s /\ shape_set s (Z.of_nat i) v = Ok s' /\ dims s' = upd ds i v /\ ssize s' = prod ds /\
    forall (x : T) idx, in_range (dims s') idx -> t_at (t_fill s' x) idx = Ok x.
Proof.
  intros T S ds i v HP HB HI HV. exists (shape_of ds), (mkShape (upd ds i v) (prod ds) (strides_of ds)).
  pose proof (prod_pos ds (proj2 HP)) as HPP.
  split; [apply new_shape_ok; auto|]. split.
  { unfold shape_set. cbn [dims shape_of]. rewrite wr_ok by (unfold Zlen; lia). rewrite Nat2Z.id. reflexivity. }
  split; [reflexivity|]. split; [reflexivity|]. intros x idx HR. cbn [dims] in HR.
  assert (HR2 : in_range ds idx).
  { apply Forall2_nth_Z; [apply in_range_length in HR; rewrite upd_length in HR; exact HR|]. intros j Hj.
    pose proof (in_range_nth _ _ j HR) as K. rewrite Zlen_upd in K. specialize (K Hj). unfold znth in *.
    destruct (Nat.eq_dec (Z.to_nat j) i) as [E|Hn]; [rewrite E in *; rewrite nth_upd_eq in K by auto; lia|rewrite nth_upd_neq in K by auto; exact K]. }
  unfold t_at. cbn [tshape t_fill]. rewrite flat_stale by (auto; apply upd_length). cbn [bind tdata t_fill].
  pose proof (ravel_bound _ _ HR2). rewrite u64_id by lia. cbn [ssize]. rewrite (rd_ok x) by (rewrite Zlen_zrepeat; lia). rewrite znth_zrepeat by lia. reflexivity.
Qed.

Section Final.
Context {T D G GD : Type} {S : Scalar T} {SD : Scalar D} {HR : Rng T G} {HD : Rng D GD} (to_d : T -> D) (to_f : D -> T).
Lemma made_tensor : forall t, made (G := G) (HD := HD) to_d to_f (OTensor t) -> consistent t.
Proof. intros t H. exact (made_ok to_d to_f _ H). Qed.
Lemma made_wf : forall t, made (G := G) (HD := HD) to_d to_f (OTensor t) -> (prod (tdims t) < two64 -> wf t) /\ (prod (tdims t) <= INT_MAX -> good t).
Proof. intros t H. apply made_tensor in H. split; intros; [apply consistent_wf|apply consistent_good]; auto. Qed.
Lemma made_layer : forall l t, made (G := G) (HD := HD) to_d to_f (OLayer l) -> In t (layer_tensors l) -> consistent t.
Proof. intros l t H HI. apply made_tensor. eapply api_layer_tensor; eauto. Qed.
Lemma made_net : forall (n : net T G) l t, made (HD := HD) to_d to_f (ONet n) -> In l (n_layers n) -> In t (layer_tensors l) -> consistent t.
Proof.
  intros n l t H HL HT. apply (made_ok to_d to_f) in H. destruct H as [H _]. rewrite Forall_forall in H. specialize (H l HL).
  unfold lcons in H. rewrite Forall_forall in H. auto.
Qed.
Lemma made_at : forall t idx, made (G := G) (HD := HD) to_d to_f (OTensor t) -> prod (tdims t) < two64 -> returns (t_at t idx).
Proof.
  intros t idx H HB. apply made_wf in H. destruct H as [H _]. specialize (H HB).
  destruct (at_total t idx H) as (A1 & A2 & A3). destruct (Nat.eq_dec (length idx) (length (tdims t))) as [E|E]; [|rewrite A2 by exact E; exact I].
  destruct (in_range_dec (tdims t) idx) as [R|R]; [destruct (A1 R) as (k & _ & _ & ->); exact I|rewrite A3 by auto; exact I].
Qed.
End Final.
