(** * A training batch that batch normalisation rejects leaves the running statistics alone (C50) *)
From Verif Require Import Base Scalar Types Spec SpecApi M_Shape M_Tensor M_Adv M_Layers M_Reg L_Index L_Tensor L_Api.
Local Open Scope Z_scope.

Section Fail.
Context {T : Type} {S : Scalar T}.

(** Two tensors of one shape with buffers of one length. *)
Definition alike (a b : tensor T) : Prop := tshape a = tshape b /\ Zlen (tdata a) = Zlen (tdata b).
Lemma rd_alike : forall (l l' : list T) i x, Zlen l = Zlen l' -> rd l i = Ok x -> exists x', rd l' i = Ok x'.
Proof.
  intros l l' i x HL H. destruct (Z_lt_ge_dec i 0) as [B|B]; [rewrite rd_ub in H by lia; discriminate|]. destruct (Z_lt_ge_dec i (Zlen l)) as [B'|B']; [|rewrite rd_ub in H by lia; discriminate].
  exists (znth x l' i). apply rd_ok. lia.
Qed.
Lemma wr_alike : forall (l l' : list T) i x x' o, Zlen l = Zlen l' -> wr l i x = Ok o -> exists o', wr l' i x' = Ok o' /\ Zlen o = Zlen o'.
Proof.
  intros l l' i x x' o HL H. unfold wr in *. rewrite <- HL. destruct (_ && _); [|discriminate]. injection H as <-. eexists. split; [reflexivity|]. rewrite !Zlen_upd. auto.
Qed.
Lemma deref_alike : forall (v v' : bview T) b b' it x, tshape (bv_orig v) = tshape (bv_orig v') -> bv_shape v = bv_shape v' -> bv_fac v = bv_fac v' -> Zlen b = Zlen b' ->
  bview_deref v b it = Ok x -> exists x', bview_deref v' b' it = Ok x'.
Proof.
  intros [o s f] [o' s' f'] b b' it x E1 E2 E3 HL H. cbn in E1, E2, E3. subst s' f'. unfold bview_deref, bview_index in *. destruct (snd it); [discriminate|]. apply bind_ok_inv in H. destruct H as (k & Hk & H).
  destruct (rd_alike _ _ _ _ HL H) as (x' & Hx). exists x'. unfold bview_map in *. cbn [bv_orig bv_shape bv_fac] in *. rewrite <- E1, Hk. exact Hx.
Qed.
Lemma transform_alike : forall n op (l l' r r' : bview T) li ri k out out' res,
  tshape (bv_orig l) = tshape (bv_orig l') -> bv_shape l = bv_shape l' -> bv_fac l = bv_fac l' -> Zlen (tdata (bv_orig l)) = Zlen (tdata (bv_orig l')) ->
  tshape (bv_orig r) = tshape (bv_orig r') -> bv_shape r = bv_shape r' -> bv_fac r = bv_fac r' -> Zlen (tdata (bv_orig r)) = Zlen (tdata (bv_orig r')) ->
  Zlen out = Zlen out' -> transform_views n op l r li ri k out = Ok res -> exists res', transform_views n op l' r' li ri k out' = Ok res'.
Proof.
  induction n as [|n IH]; intros op l l' r r' li ri k out out' res L1 L2 L3 L4 R1 R2 R3 R4 HO H; cbn [transform_views] in *; (destruct (snd li); [eauto|]); [discriminate|].
  apply bind_ok_inv in H. destruct H as (a & Ha & H). apply bind_ok_inv in H. destruct H as (b & Hb & H). apply bind_ok_inv in H. destruct H as (o & Hw & H).
  destruct (deref_alike _ _ _ _ _ _ L1 L2 L3 L4 Ha) as (a' & ->). destruct (deref_alike _ _ _ _ _ _ R1 R2 R3 R4 Hb) as (b' & ->). cbn [bind].
  destruct (wr_alike _ _ _ _ (op a' b') _ HO Hw) as (o' & -> & HL). cbn [bind]. rewrite <- L2, <- R2. eapply (IH _ l l' r r'); eauto.
Qed.
Lemma view_alike : forall (a a' : tensor T) s v, tshape a = tshape a' -> bview_new a s = Ok v -> bview_new a' s = Ok (mkBV a' s (bv_fac v)) /\ v = mkBV a s (bv_fac v).
Proof.
  intros a a' s v E H. unfold bview_new in *. rewrite <- E. apply bind_ok_inv in H. destruct H as (k & Hk & H). rewrite Hk. cbn [bind]. destruct (negb k); [discriminate|].
  apply bind_ok_inv in H. destruct H as (f & Hf & H). rewrite Hf. injection H as <-. split; reflexivity.
Qed.
Lemma binop_alike : forall op (a a' b b' t : tensor T), alike a a' -> alike b b' -> t_binop op a b = Ok t -> exists t', t_binop op a' b' = Ok t' /\ tshape t' = tshape t.
Proof.
  intros op a a' b b' t (A1 & A2) (B1 & B2) H. unfold t_binop in *. rewrite <- A1, <- B1. apply bind_ok_inv in H. destruct H as (rs & HR & H). rewrite HR. cbn [bind]. cbv zeta in *.
  apply bind_ok_inv in H. destruct H as (l & Hl & H). apply bind_ok_inv in H. destruct H as (r & Hr & H).
  destruct (view_alike _ _ _ _ A1 Hl) as (Hl' & El). destruct (view_alike _ _ _ _ B1 Hr) as (Hr' & Er). rewrite Hl', Hr'. cbn [bind]. rewrite El, Er in H. cbn [bv_shape] in *. destruct (negb _); [discriminate|].
  apply bind_ok_inv in H. destruct H as (out & HT & H). injection H as <-.
  eapply transform_alike in HT; [destruct HT as (out' & ->); cbn [bind]; eauto| | | | | | | | |]; cbn; auto.
Qed.
Lemma map_alike : forall f (a a' t : tensor T), alike a a' -> t_map f a = Ok t -> exists t', t_map f a' = Ok t' /\ alike t t'.
Proof.
  intros f a a' t (E & HL) H. unfold t_map in *. rewrite <- E. apply bind_ok_inv in H. destruct H as (out & H & HT). injection HT as <-. 
  assert (K : forall l o o' res, Zlen o = Zlen o' -> foldM (fun k out => x <- rd (tdata a) k ;; wr out k (f x)) l o = Ok res -> exists res', foldM (fun k out => x <- rd (tdata a') k ;; wr out k (f x)) l o' = Ok res' /\ Zlen res = Zlen res').
  { induction l as [|k l IH]; intros o o' res HO HF; cbn [foldM] in *; [injection HF as <-; eauto|]. apply bind_ok_inv in HF. destruct HF as (o1 & H1 & HF). apply bind_ok_inv in H1. destruct H1 as (x & Hx & H1).
    destruct (rd_alike _ _ _ _ HL Hx) as (x' & ->). cbn [bind]. destruct (wr_alike _ _ _ _ (f x') _ HO H1) as (o1' & -> & HO1). cbn [bind]. eauto. }
  destruct (K _ _ _ _ eq_refl H) as (out' & H' & HO). unfold for_. rewrite H'. cbn [bind]. eexists. split; [reflexivity|]. split; auto.
Qed.
Lemma ema_alike : forall mom (r r' b b' t : tensor T), alike r r' -> alike b b' -> bn_ema mom r b = Ok t -> exists t', bn_ema mom r' b' = Ok t' /\ tshape t' = tshape t.
Proof.
  intros mom r r' b b' t HR HB H. unfold bn_ema, s_mul_t, t_mul_s in *. apply bind_ok_inv in H. destruct H as (x & Hx & H). apply bind_ok_inv in H. destruct H as (y & Hy & H).
  destruct (map_alike _ _ _ _ HR Hx) as (x' & -> & HX). destruct (map_alike _ _ _ _ HB Hy) as (y' & -> & HY). cbn [bind]. eapply binop_alike; eauto.
Qed.
Lemma variance_shape : forall (x m v : tensor T) axes, t_variance_axes x m axes = Ok v -> tshape v = tshape m.
Proof. intros x m v axes H. unfold t_variance_axes in H. ob. injection H as <-. reflexivity. Qed.

(** Running statistics that belong together. *)
Definition paired (l : bn T) : Prop := consistent (bn_rmean l) /\ consistent (bn_rvar l) /\ tshape (bn_rmean l) = tshape (bn_rvar l).
Definition same_statistics (l l' : bn T) : Prop := bn_rmean l' = bn_rmean l /\ bn_rvar l' = bn_rvar l /\ bn_gamma l' = bn_gamma l /\ bn_beta l' = bn_beta l /\ bn_eps l' = bn_eps l /\ bn_mom l' = bn_mom l.
Lemma alike_of : forall a b : tensor T, consistent a -> consistent b -> tshape a = tshape b -> alike a b.
Proof. intros a b [_ A] [_ B] E. split; [auto|]. rewrite A, B, E. reflexivity. Qed.
Lemma forward_cases : forall (l l' : bn T) x o, paired l -> consistent x -> bn_forward l x = (l', o) -> paired l' /\ ((forall y, o <> Ok y) -> same_statistics l l').
Proof.
  intros l l' x o (P1 & P2 & P3) HX H.
  assert (Q : paired l) by (repeat split; auto; apply P1 || apply P2). assert (R : same_statistics l l) by (repeat split; auto).
  unfold bn_forward in H. cbv zeta in H. destruct (_ && _); [injection H as <- <-; auto|]. destruct (bn_train l); [|injection H as <- <-; auto].
  unfold step in H. destruct (t_mean_axes x (bn_axes (tdims x))) as [m|e| | |] eqn:Em; try (injection H as <- <-; auto).
  assert (Cm : consistent m) by (eapply c_mean; eauto).
  destruct (t_variance_axes x m (bn_axes (tdims x))) as [v|e| | |] eqn:Ev; try (injection H as <- <-; auto).
  assert (Cv : consistent v) by (eapply c_variance; [|exact Ev]; auto). apply variance_shape in Ev.
  match type of H with context [match ?c with _ => _ end] => destruct c as [[[rg rb] nx]|e| | |] eqn:E1 end; try (injection H as <- <-; auto).
  match type of H with context [match ?c with _ => _ end] => destruct c as [[y rm]|e| | |] eqn:E2 end; try (injection H as <- <-; auto).
  ob. injection E2 as <- <-. match goal with HE : bn_ema _ _ _ = Ok _ |- _ => rename HE into HE0 end.
  destruct (ema_alike _ _ (bn_rvar l) _ v _ (alike_of _ _ P1 P2 P3) (alike_of _ _ Cm Cv (eq_sym Ev)) HE0) as (rv & EV & ES). rewrite EV in H. injection H as <- <-.
  split; [|intros N; destruct (N _ eq_refl)]. split; [eapply c_ema; exact HE0|]. split; [eapply c_ema; exact EV|]. cbn. auto.
Qed.
Lemma set_mode_paired : forall (l : bn T) b, paired l -> paired (bn_set_mode l b). Proof. intros l b H. exact H. Qed.
Lemma new_paired : forall n eps mom (l : bn T), bn_new n eps mom = Ok l -> paired l.
Proof.
  intros n eps mom l H. unfold bn_new, f_fill in H. ob. injection H as <-. unfold paired. cbn [bn_rmean bn_rvar]. repeat match goal with HS : new_shape [1; n] = Ok _ |- _ => revert HS end. intros.
  repeat match goal with HS : t_fill _ _ = _ |- _ => subst | HS : Ok _ = Ok _ |- _ => injection HS as <- end.
  assert (csh_of : forall ds s, new_shape ds = Ok s -> csh s) by (intros ds s HS; eapply csh_new; exact HS).
  split; [|split]; try (apply c_fill; eapply csh_of; eassumption); cbn; congruence.
Qed.
Lemma run_paired : forall es (l : bn T), paired l -> Forall (fun e => consistent (snd e)) es -> paired (bn_run l es).
Proof.
  induction es as [|e es IH]; intros l HP HF; [exact HP|]. apply Forall_cons_iff in HF. destruct HF as (H1 & H2). unfold bn_run in *. cbn [fold_left]. apply IH; [|exact H2].
  unfold bn_call. destruct (bn_forward (bn_set_mode l (fst e)) (snd e)) as [l' o] eqn:E. exact (proj1 (forward_cases _ _ _ _ (set_mode_paired l (fst e) HP) H1 E)).
Qed.
(** After any history of calls, a training batch that fails changes nothing that evaluation uses. *)
Lemma failed_batch : forall n eps mom (l0 l' : bn T) es x o, bn_new n eps mom = Ok l0 -> Forall (fun e => consistent (snd e)) es -> consistent x ->
  bn_forward (bn_set_mode (bn_run l0 es) true) x = (l', o) -> (forall y, o <> Ok y) ->
  (bn_rmean l' = bn_rmean (bn_run l0 es) /\ bn_rvar l' = bn_rvar (bn_run l0 es) /\ bn_gamma l' = bn_gamma (bn_run l0 es) /\ bn_beta l' = bn_beta (bn_run l0 es)) /\
  forall z, snd (bn_forward (bn_set_mode l' false) z) = snd (bn_forward (bn_set_mode (bn_run l0 es) false) z).
Proof.
  intros n eps mom l0 l' es x o H0 HE HX H N. destruct (forward_cases _ _ _ _ (set_mode_paired _ true (run_paired es _ (new_paired _ _ _ _ H0) HE)) HX H) as (_ & K). destruct (K N) as (K1 & K2 & K3 & K4 & K5 & K6).
  cbn [bn_set_mode bn_rmean bn_rvar bn_gamma bn_beta bn_eps bn_mom] in *. split; [auto|]. intros z. unfold bn_forward. cbv zeta. destruct (_ && _); [reflexivity|]. cbn [bn_set_mode bn_train bn_rmean bn_rvar bn_gamma bn_beta bn_eps snd]. rewrite K1, K2, K3, K4, K5. reflexivity.
Qed.
End Fail.
