(** * One optimizer for all layers is as good as one per layer (SGD, RMSProp) *)
From Verif Require Import Base Scalar Types M_Shape M_Tensor M_Adv M_Act M_Loss M_Layers M_Reg M_Opt M_Net M_Addr SpecAddr SpecNet SpecSep L_Net L_Addr.
Local Open Scope Z_scope.

Section Sep.
Context {T : Type} {S : Scalar T} {G : Type} {HR : Rng T G}.

Definition sh (i : Z) : Z -> Z := fun k => 2 * i + k.
Definition idz : Z -> Z := fun k => k.
Lemma sh_inj : forall i, distinct_addresses 2 (sh i). Proof. unfold distinct_addresses, sh. lia. Qed.
Lemma id_inj : distinct_addresses 2 idz. Proof. unfold distinct_addresses, idz. lia. Qed.

Lemma pair_at : forall i (o : optim T) w b gw gb, pair_optimize_at (sh i) o 0 w b gw gb = pair_optimize o i w b gw gb.
Proof.
  intros. unfold pair_optimize_at, pair_optimize, pair_store, sh. replace (2 * i + 2 * 0) with (2 * i) by ring. replace (2 * i + (2 * 0 + 1)) with (2 * i + 1) by ring. reflexivity.
Qed.
Lemma layer_at : forall i (l : layer T) o, layer_update_at (sh i) 0 l o = layer_update i l o.
Proof.
  intros i l o. destruct l as [l|l|l|l|l|l|l]; cbn [layer_update_at layer_update]; auto;
    [destruct (fc_gw l), (fc_gb l)|destruct (cv_gw l), (cv_gb l)|destruct (bn_ggamma l), (bn_gbeta l)]; auto; rewrite pair_at; reflexivity.
Qed.
Lemma layer_at0 : forall (l : layer T) o, layer_update_at idz 0 l o = layer_update 0 l o.
Proof. intros l o. destruct l; reflexivity. Qed.
(** The shared optimizer and the layer's own one do the same. *)
Lemma layer_own : forall i (l : layer T) o p, same_optim 2 (sh i) idz o p ->
  let '(l', o', r) := layer_update i l o in let '(m', p', r') := layer_update 0 l p in l' = m' /\ r = r' /\ same_optim 2 (sh i) idz o' p'.
Proof.
  intros i l o p H. pose proof (layer_same 2 (sh i) idz (sh_inj i) id_inj 0 l o p ltac:(lia) ltac:(lia) H) as K. rewrite layer_at, layer_at0 in K. exact K.
Qed.

(** Elsewhere nothing changes. *)
Definition untouched (i : Z) (o o' : optim T) : Prop := forall N (a : Z -> Z), (forall k, 0 <= k < N -> a k <> 2 * i /\ a k <> 2 * i + 1) -> same_optim N a a o o'.
Lemma same_refl : forall N (a : Z -> Z) (o : optim T), same_optim N a a o o.
Proof. intros N a [o|o|o]; cbn; unfold same_bufs; repeat (split; auto). Qed.
Lemma same_trans : forall N (a b c : Z -> Z) (o p q : optim T), same_optim N a b o p -> same_optim N b c p q -> same_optim N a c o q.
Proof.
  intros N a b c [o|o|o] [p|p|p] [q|q|q]; cbn; try tauto; unfold same_bufs; intros H K;
    repeat match goal with H : _ /\ _ |- _ => destruct H end; repeat split; try congruence; intros k HK;
    repeat match goal with H : forall k, 0 <= k < N -> _ |- _ => specialize (H k HK) end; congruence.
Qed.
Lemma same_sym : forall N (a b : Z -> Z) (o p : optim T), same_optim N a b o p -> same_optim N b a p o.
Proof.
  intros N a b [o|o|o] [p|p|p]; cbn; try tauto; unfold same_bufs; intros H;
    repeat match goal with H : _ /\ _ |- _ => destruct H end; repeat split; try congruence; intros k HK;
    repeat match goal with H : forall k, 0 <= k < N -> _ |- _ => specialize (H k HK) end; congruence.
Qed.
Lemma sgd_elsewhere : forall (o : sgd T) k w g c N a, (forall j, 0 <= j < N -> a j <> k) -> same_optim N a a (OSGD o) (OSGD (fst (sgd_update o k w g c))).
Proof.
  intros o k w g c N a H. unfold sgd_update. destruct (for_ _ _ _ _) as [q|e| | |]; cbn; do 5 (split; [reflexivity|]); intros j HJ; unfold put;
    destruct (Z.eqb_spec (a j) k) as [E|]; auto; destruct (H j HJ E).
Qed.
Lemma rms_elsewhere : forall (o : rms T) k w g c N a, (forall j, 0 <= j < N -> a j <> k) -> same_optim N a a (ORMS o) (ORMS (fst (rms_update o k w g c))).
Proof.
  intros o k w g c N a H. assert (K : forall (p : bufs T) v j, 0 <= j < N -> p (a j) = put p k v (a j)).
  { intros p v j HJ. unfold put. destruct (Z.eqb_spec (a j) k) as [E|]; auto; destruct (H j HJ E). }
  unfold rms_update. destruct (for_ _ _ _ _) as [q|e| | |]; [destruct q as (((wq & sq) & mq) & vq)|..]; cbn; do 6 (split; [reflexivity|]);
    (split; [intros j HJ; apply K; auto|]); split; intros j HJ; [destruct (rp_cent o)|destruct (s_lt zero (rp_mom o))|destruct (rp_cent o)|destruct (s_lt zero (rp_mom o))|destruct (rp_cent o)|destruct (s_lt zero (rp_mom o))|destruct (rp_cent o)|destruct (s_lt zero (rp_mom o))|destruct (rp_cent o)|destruct (s_lt zero (rp_mom o))]; auto.
Qed.
Lemma loop_elsewhere : forall {O C} (wrap : O -> optim T) (update : O -> Z -> tensor T -> tensor T -> C -> O * outcome (tensor T)) (c : C) N a,
  (forall o k w g, (forall j, 0 <= j < N -> a j <> k) -> same_optim N a a (wrap o) (wrap (fst (update o k w g c)))) ->
  forall l o st, (forall k g, In (k, g) l -> forall j, 0 <= j < N -> a j <> k) -> same_optim N a a (wrap o) (wrap (fst (fst (opt_loop update c l o st)))).
Proof.
  intros O C wrap update c N a HU. induction l as [|[k g] l IH]; intros o st HL; cbn [opt_loop]; [apply same_refl|].
  pose proof (HU o k (st k) g (HL k g (or_introl eq_refl))) as K. destruct (update o k (st k) g c) as [o' r]. cbn [fst] in K.
  destruct r as [w|e| | |]; auto. eapply same_trans; [exact K|]. apply IH. intros k' g' HI. apply (HL k' g'). right; auto.
Qed.
Lemma pair_elsewhere : forall i (o : optim T) w b gw gb, sgd_or_rms o -> untouched i o (fst (fst (fst (pair_optimize o i w b gw gb)))).
Proof.
  intros i o w b gw gb HS N a HA. unfold pair_optimize. destruct o as [o|o|o]; [| |contradiction]; cbn [optim_optimize]; unfold sgd_optimize, rms_optimize; cbn [combine];
    change (negb (Zlen [2 * i; 2 * i + 1] =? Zlen [gw; gb])) with false; cbv iota.
  - pose proof (loop_elsewhere OSGD sgd_update (sgd_rate o (s_z (-1))) N a (fun o k w g => sgd_elsewhere o k w g _ N a) [(2 * i, gw); (2 * i + 1, gb)] o (pair_store i w b)) as K.
    destruct (opt_loop _ _ _ _ _) as [[o' st] r]. cbn [fst] in *. apply K. intros k g [E|[E|[]]] j HJ; inversion E; subst; apply HA; auto.
  - pose proof (loop_elsewhere ORMS rms_update (rms_rate o (s_z (-1))) N a (fun o k w g => rms_elsewhere o k w g _ N a) [(2 * i, gw); (2 * i + 1, gb)] o (pair_store i w b)) as K.
    destruct (opt_loop _ _ _ _ _) as [[o' st] r]. cbn [fst] in *. apply K. intros k g [E|[E|[]]] j HJ; inversion E; subst; apply HA; auto.
Qed.
Lemma layer_elsewhere : forall i (l : layer T) o, sgd_or_rms o -> untouched i o (snd (fst (layer_update i l o))).
Proof.
  intros i l o HS. assert (R : untouched i o o) by (intros N a _; apply same_refl).
  destruct l as [l|l|l|l|l|l|l]; cbn [layer_update]; auto.
  - destruct (fc_gw l) as [gw|], (fc_gb l) as [gb|]; auto. pose proof (pair_elsewhere i o (fc_w l) (fc_b l) gw gb HS) as K. destruct (pair_optimize _ _ _ _ _ _) as [[[o' x] y] r]. exact K.
  - destruct (cv_gw l) as [gw|], (cv_gb l) as [gb|]; auto. pose proof (pair_elsewhere i o (cv_w l) (cv_b l) gw gb HS) as K. destruct (pair_optimize _ _ _ _ _ _) as [[[o' x] y] r]. exact K.
  - destruct (bn_ggamma l) as [gw|], (bn_gbeta l) as [gb|]; auto. pose proof (pair_elsewhere i o (bn_gamma l) (bn_beta l) gw gb HS) as K. destruct (pair_optimize _ _ _ _ _ _) as [[[o' x] y] r]. exact K.
Qed.
Lemma plain_update : forall i (l : layer T) o, parametric l = false -> layer_update i l o = (l, o, Ok tt).
Proof. intros i l o H. destruct l; try discriminate H; reflexivity. Qed.
Lemma update_kind : forall i (l : layer T) o, parametric (fst (fst (layer_update i l o))) = parametric l.
Proof.
  intros i l o. destruct l as [l|l|l|l|l|l|l]; cbn [layer_update]; auto.
  - destruct (fc_gw l), (fc_gb l); auto. destruct (pair_optimize _ _ _ _ _ _) as [[[o' x] y] r]. reflexivity.
  - destruct (cv_gw l), (cv_gb l); auto. destruct (pair_optimize _ _ _ _ _ _) as [[[o' x] y] r]. reflexivity.
  - destruct (bn_ggamma l), (bn_gbeta l); auto. destruct (pair_optimize _ _ _ _ _ _) as [[[o' x] y] r]. reflexivity.
Qed.
Lemma update_steady : forall i (l : layer T) o, sgd_or_rms o -> sgd_or_rms (snd (fst (layer_update i l o))).
Proof.
  intros i l o HS. pose proof (layer_elsewhere i l o HS 0 idz ltac:(lia)) as K. destruct o as [o|o|o], (snd (fst (layer_update i l _))) as [p|p|p]; cbn in *; tauto.
Qed.

(** The shared optimizer serves each parametric layer as its own would. *)
Fixpoint served (i : Z) (ls : list (layer T)) (o : optim T) (os : list (optim T)) : Prop :=
  match ls, os with
  | [], [] => True
  | l :: r, p :: q => (parametric l = true -> same_optim 2 (sh i) idz o p) /\ served (i + 1) r o q
  | _, _ => False
  end.
Lemma served_move : forall (ls : list (layer T)) os i j o o', served i ls o os -> j < i -> untouched j o o' -> served i ls o' os.
Proof.
  induction ls as [|l ls IH]; intros [|p os] i j o o' H HJ HU; cbn [served] in *; auto. destruct H as [H1 H2]. split.
  - intros HP. eapply same_trans; [|exact (H1 HP)]. apply same_sym. apply HU. unfold sh. lia.
  - apply IH with (j := j) (o := o); auto. lia.
Qed.
Lemma served_plain : forall (ls : list (layer T)) os i o o', served i ls o os -> filter parametric ls = [] -> served i ls o' os.
Proof.
  induction ls as [|l ls IH]; intros [|p os] i o o' H HF; cbn [served filter] in *; auto. destruct H as [H1 H2]. destruct (parametric l) eqn:E; [discriminate|]. split; [discriminate|]. apply IH with (o := o); auto.
Qed.
Lemma all_plain : forall (ls : list (layer T)) i o, filter parametric ls = [] -> update_all i ls o = (ls, o, Ok tt).
Proof.
  induction ls as [|l ls IH]; intros i o HF; cbn [update_all filter] in *; auto. destruct (parametric l) eqn:E; [discriminate|]. rewrite plain_update by auto. rewrite IH; auto.
Qed.
Lemma own_plain : forall (ls : list (layer T)) os i o, served i ls o os -> filter parametric ls = [] -> own_updates ls os ls os.
Proof.
  induction ls as [|l ls IH]; intros [|p os] i o HV HF; cbn [served filter] in *; try contradiction; [constructor|]. destruct (parametric l) eqn:E; [discriminate|].
  constructor; [apply plain_update; auto|]. eapply IH; [apply HV|auto].
Qed.
Lemma own_plain_inv : forall (ls : list (layer T)) os ls' os', own_updates ls os ls' os' -> filter parametric ls = [] -> ls' = ls /\ os' = os.
Proof.
  induction 1 as [|l o l' o' ls os ls' os' E _ IH]; intros HF; [auto|]. cbn [filter] in HF. destruct (parametric l) eqn:EP; [discriminate|]. rewrite plain_update in E by auto.
  injection E as <- <-. destruct (IH HF); subst; auto.
Qed.
(** The positions below are not touched either. *)
Lemma all_elsewhere : forall (ls : list (layer T)) i o N (a : Z -> Z), sgd_or_rms o -> (forall k, 0 <= k < N -> a k < 2 * i) -> same_optim N a a o (snd (fst (update_all i ls o))).
Proof.
  induction ls as [|l ls IH]; intros i o N a HS HA; cbn [update_all]; [apply same_refl|].
  pose proof (layer_elsewhere i l o HS N a ltac:(intros k HK; specialize (HA k HK); lia)) as K. pose proof (update_steady i l o HS) as HS'. destruct (layer_update i l o) as [[l' o'] r]. cbn [fst snd] in K, HS'.
  destruct r as [u|e| | |]; auto. specialize (IH (i + 1) o' N a HS' ltac:(intros k HK; specialize (HA k HK); lia)). destruct (update_all (i + 1) ls o') as [[ls' o''] e]. cbn [fst snd] in *. eapply same_trans; eauto.
Qed.

Definition separable (ls : list (layer T)) (o : optim T) : Prop := sgd_or_rms o \/ at_most_one ls.
Lemma update_own : forall (ls : list (layer T)) os i o ls' o', separable ls o -> served i ls o os -> update_all i ls o = (ls', o', Ok tt) ->
  exists os', own_updates ls os ls' os' /\ served i ls' o' os' /\ (sgd_or_rms o -> sgd_or_rms o') /\ map parametric ls' = map parametric ls.
Proof.
  induction ls as [|l ls IH]; intros [|p os] i o ls' o' HX HV E; cbn [served] in HV; try contradiction; cbn [update_all] in E.
  - injection E as <- <-. exists []. split; [constructor|]. cbn. auto.
  - destruct HV as [H1 H2]. destruct (parametric l) eqn:EP.
    + pose proof (layer_own i l o p (H1 eq_refl)) as K. pose proof (update_kind i l o) as UK. pose proof (layer_elsewhere i l o) as FR. pose proof (update_steady i l o) as US.
      destruct (layer_update i l o) as [[l1 o1] r]. destruct (layer_update 0 l p) as [[m1 p1] r'] eqn:E0. destruct K as (<- & <- & K). cbn [fst snd] in *.
      destruct r as [[]|e| | |]; try discriminate E. destruct (update_all (i + 1) ls o1) as [[ls1 o2] e] eqn:E2. injection E as <- <- ->.
      destruct HX as [HS|HA].
      * destruct (IH os (i + 1) o1 ls1 o2 (or_introl (US HS))) as (os1 & U & V & W & M); [eapply served_move; [exact H2| |exact (FR HS)]; lia|exact E2|].
        exists (p1 :: os1). split; [econstructor; eauto|]. split; [|split; [auto|cbn [map]; congruence]]. cbn [served]. split; auto. intros _.
        eapply same_trans; [|exact K]. apply same_sym. pose proof (all_elsewhere ls (i + 1) o1 2 (sh i) (US HS) ltac:(unfold sh; lia)) as F. rewrite E2 in F. exact F.
      * unfold at_most_one in HA. cbn [filter] in HA. rewrite EP in HA. cbn [length] in HA. assert (HF : filter parametric ls = []) by (destruct (filter parametric ls); [auto|cbn in HA; lia]).
        rewrite all_plain in E2 by auto. injection E2 as <- <-. exists (p1 :: os). split; [econstructor; [eauto|eapply own_plain; eauto]|].
        split; [|split; [auto|cbn [map]; congruence]]. cbn [served]. split; [auto|]. eapply served_plain; eauto.
    + rewrite plain_update in E by auto. destruct (update_all (i + 1) ls o) as [[ls1 o2] e] eqn:E2. injection E as <- <- ->.
      destruct (IH os (i + 1) o ls1 o2) as (os1 & U & V & W & M); auto. { destruct HX as [HS|HA]; [left; auto|right]. unfold at_most_one in *. cbn [filter] in HA. rewrite EP in HA. auto. }
      exists (p :: os1). split; [constructor; [apply plain_update; auto|auto]|]. split; [|split; [auto|cbn [map]; congruence]]. cbn [served]. rewrite EP. split; [discriminate|auto].
Qed.
Lemma own_update : forall (ls : list (layer T)) os ls' os' i o, separable ls o -> served i ls o os -> own_updates ls os ls' os' ->
  exists o', update_all i ls o = (ls', o', Ok tt).
Proof.
  induction ls as [|l ls IH]; intros [|p os] ls' os' i o HX HV U; cbn [served] in HV; try contradiction; inversion U as [|a b l1 p1 c d ls1 os1 E0 U1]; subst; cbn [update_all].
  - exists o. reflexivity.
  - destruct HV as [H1 H2]. destruct (parametric l) eqn:EP.
    + pose proof (layer_own i l o p (H1 eq_refl)) as K. pose proof (layer_elsewhere i l o) as FR. pose proof (update_steady i l o) as US. rewrite E0 in K.
      destruct (layer_update i l o) as [[l2 o1] r]. destruct K as (-> & -> & K). cbn [fst snd] in *.
      destruct HX as [HS|HA].
      * destruct (IH os ls1 os1 (i + 1) o1 (or_introl (US HS))) as (o2 & E2); [eapply served_move; [exact H2| |exact (FR HS)]; lia|exact U1|]. rewrite E2. exists o2. reflexivity.
      * unfold at_most_one in HA. cbn [filter] in HA. rewrite EP in HA. cbn [length] in HA. assert (HF : filter parametric ls = []) by (destruct (filter parametric ls); [auto|cbn in HA; lia]).
        rewrite all_plain by auto. destruct (own_plain_inv _ _ _ _ U1 HF) as [-> _]. eexists; reflexivity.
    + rewrite plain_update in E0 |- * by auto. injection E0 as <- <-.
      destruct (IH os ls1 os1 (i + 1) o) as (o2 & E2); auto. { destruct HX as [HS|HA]; [left; auto|right]. unfold at_most_one in *. cbn [filter] in HA. rewrite EP in HA. auto. }
      rewrite E2. exists o2. reflexivity.
Qed.

(** ** Whole training *)
Lemma forward_kinds : forall (ls : list (layer T)) x (g : G), map parametric (fst (fst (forward_all ls x g))) = map parametric ls.
Proof.
  induction ls as [|l ls IH]; intros x g; cbn [forward_all]; auto.
  assert (K : parametric (fst (fst (layer_forward l x g))) = parametric l).
  { destruct l as [l|l|l|l|l|l|l]; cbn [layer_forward]; auto. destruct (dropout_forward l x g) as [[l' g'] o]. reflexivity. }
  destruct (layer_forward l x g) as [[l' g'] o]. cbn [fst] in K. destruct o as [y|e| | |]; cbn [fst map]; try congruence.
  specialize (IH y g'). destruct (forward_all ls y g') as [[r' g''] o]. cbn [fst map] in *. congruence.
Qed.
Lemma backward_kinds : forall (ls : list (layer T)) d, map parametric (fst (backward_all ls d)) = map parametric ls.
Proof.
  induction ls as [|l ls IH]; intros d; cbn [backward_all]; auto. specialize (IH d). destruct (backward_all ls d) as [r' o]. cbn [fst] in IH.
  destruct o as [d'|e| | |]; cbn [fst map]; try congruence.
  assert (K : parametric (fst (layer_backward l d')) = parametric l).
  { destruct l as [l|l|l|l|l|l|l]; cbn [layer_backward]; auto; [destruct (fc_backward l d')|destruct (conv_backward l d')|destruct (bn_backward l d')]; reflexivity. }
  destruct (layer_backward l d') as [l' o']. cbn [fst map] in *. congruence.
Qed.
Lemma served_kinds : forall (ls ls' : list (layer T)) os i o, map parametric ls' = map parametric ls -> served i ls o os -> served i ls' o os.
Proof.
  induction ls as [|l ls IH]; intros [|l' ls'] [|p os] i o M H; cbn [served map] in *; auto; try discriminate; try contradiction. injection M as M1 M2. destruct H as [H1 H2]. split; [rewrite M1; auto|]. auto.
Qed.
Lemma one_kinds : forall (ls ls' : list (layer T)), map parametric ls' = map parametric ls -> at_most_one ls -> at_most_one ls'.
Proof.
  assert (E : forall ls : list (layer T), length (filter parametric ls) = count_occ Bool.bool_dec (map parametric ls) true).
  { induction ls as [|l ls IH]; cbn [filter map count_occ]; auto. destruct (parametric l); cbn [length]; destruct (Bool.bool_dec _ _); auto; congruence. }
  intros ls ls' M H. unfold at_most_one in *. rewrite E in *. rewrite M. auto.
Qed.
Definition twin (n m : net T G) (os : list (optim T)) : Prop :=
  n_layers n = n_layers m /\ n_loss n = n_loss m /\ n_rng n = n_rng m /\ exists o, n_opt n = Some o /\ separable (n_layers n) o /\ served 0 (n_layers n) o os.
Lemma twin_before : forall (n m : net T G) os x n1 p d n2, twin n m os -> net_predict n x = (n1, Ok p) -> net_backward n1 d = (n2, Ok tt) ->
  exists m1 m2, net_predict m x = (m1, Ok p) /\ net_backward m1 d = (m2, Ok tt) /\ twin n2 m2 os.
Proof.
  intros n m os x n1 p d n2 (EL & EO & ER & o & Eo & HX & HV) EP EB. unfold net_predict in *. rewrite <- EL, <- ER. pose proof (forward_kinds (n_layers n) x (n_rng n)) as M1. destruct (forward_all (n_layers n) x (n_rng n)) as [[ls g] r]. injection EP as <- ->.
  eexists. unfold net_backward in EB. cbn [n_layers net_with n_loss n_opt n_rng fst] in EB, M1. pose proof (backward_kinds ls d) as M2. destruct (backward_all ls d) as [ls2 r2] eqn:E2. cbn [fst] in M2.
  destruct r2 as [y|e| | |]; cbn [step] in EB; try discriminate EB. injection EB as <-.
  eexists. split; [reflexivity|]. unfold net_backward. cbn [n_layers]. rewrite E2. cbn [step]. split; [reflexivity|].
  unfold twin, net_with. cbn [n_layers n_loss n_opt n_rng]. do 3 (split; [auto|]). exists o. split; [auto|].
  assert (M : map parametric ls2 = map parametric (n_layers n)) by congruence. split; [|eapply served_kinds; eauto].
  destruct HX as [HS|HA]; [left; auto|right; eapply one_kinds; eauto].
Qed.
Lemma twin_sym_before : forall (n m : net T G) os x m1 p d m2, twin n m os -> net_predict m x = (m1, Ok p) -> net_backward m1 d = (m2, Ok tt) ->
  exists n1 n2, net_predict n x = (n1, Ok p) /\ net_backward n1 d = (n2, Ok tt) /\ twin n2 m2 os.
Proof.
  intros n m os x m1 p d m2 H EP EB. pose proof H as (EL & EO & ER & o & Eo & HX & HV). unfold net_predict in EP. rewrite <- EL, <- ER in EP.
  destruct (forward_all (n_layers n) x (n_rng n)) as [[ls g] r] eqn:EF. injection EP as <- ->.
  unfold net_backward in EB. cbn [n_layers net_with] in EB. destruct (backward_all ls d) as [ls2 r2] eqn:E2. destruct r2 as [y|e| | |]; cbn [step] in EB; try discriminate EB. injection EB as <-.
  assert (EN : net_predict n x = (mkNet ls (n_loss n) (n_opt n) g, Ok p)) by (unfold net_predict; rewrite EF; reflexivity).
  assert (EB : net_backward (mkNet ls (n_loss n) (n_opt n) g) d = (net_with (mkNet ls (n_loss n) (n_opt n) g) ls2, Ok tt)) by (unfold net_backward; cbn [n_layers]; rewrite E2; reflexivity).
  destruct (twin_before n m os x _ p d _ H EN EB) as (m1 & m2 & F1 & F2 & F3).
  do 2 eexists. split; [exact EN|]. split; [exact EB|]. destruct F3 as (A1 & A2 & A3 & A4). unfold net_with in *. cbn [n_layers n_loss n_opt n_rng] in *. unfold twin. cbn [n_layers n_loss n_opt n_rng]. auto.
Qed.
Lemma one_own : forall (n m n' : net T G) os x t, twin n m os -> fit_one n x t n' -> exists m' os', fit_one_own m os x t m' os' /\ twin n' m' os'.
Proof.
  intros n m n' os x t H (n1 & n2 & p & c & d & l & E1 & E2 & E3 & E4 & E5 & E6).
  destruct (twin_before n m os x n1 p d n2 H E1 E5) as (m1 & m2 & F1 & F5 & (EL & EO & ER & o & Eo & HX & HV)).
  assert (EU : exists o', update_all 0 (n_layers n2) o = (n_layers n', o', Ok tt) /\ n' = mkNet (n_layers n') (n_loss n2) (Some o') (n_rng n2)).
  { unfold net_update in E6. rewrite Eo in E6. destruct (n_layers n2) as [|a r] eqn:EN.
    - injection E6 as <-. exists o. rewrite EN. split; [reflexivity|]. rewrite <- Eo. destruct n2; cbn in *; subst; reflexivity.
    - destruct (update_all 0 (a :: r) o) as [[ls' o'] rr]. injection E6 as <- ->. exists o'. split; reflexivity. }
  destruct EU as (o' & EU & EN'). destruct (update_own (n_layers n2) os 0 o (n_layers n') o' HX HV EU) as (os' & U & V & W & M).
  exists (mkNet (n_layers n') (n_loss m2) (n_opt m2) (n_rng m2)), os'. split.
  - exists m1, m2, p, c, d, l. split; [auto|]. split; [destruct H as (_ & <- & _); auto|]. do 3 (split; [auto|]). cbn [n_layers n_loss n_rng]. rewrite <- EL. auto.
  - rewrite EN'. unfold twin. cbn [n_layers n_loss n_opt n_rng]. do 3 (split; [auto|]). exists o'. split; [auto|]. split; [|auto]. destruct HX as [HS|HA]; [left; auto|right; eapply one_kinds; eauto].
Qed.
Lemma own_one : forall (n m m' : net T G) os os' x t, twin n m os -> fit_one_own m os x t m' os' -> exists n', fit_one n x t n' /\ n_layers n' = n_layers m' /\ n_rng n' = n_rng m' /\ n_loss n' = n_loss m'.
Proof.
  intros n m m' os os' x t H (m1 & m2 & p & c & d & l & E1 & E2 & E3 & E4 & E5 & E6 & E7 & E8).
  destruct (twin_sym_before n m os x m1 p d m2 H E1 E5) as (n1 & n2 & F1 & F5 & (EL & EO & ER & o & Eo & HX & HV)). rewrite <- EL in E6.
  destruct (own_update (n_layers n2) os (n_layers m') os' 0 o HX HV E6) as (o' & EU).
  exists (mkNet (n_layers m') (n_loss n2) (Some o') (n_rng n2)). split; [|cbn [n_layers n_loss n_rng]; split; [auto|split; congruence]].
  exists n1, n2, p, c, d, l. split; [auto|]. split; [destruct H as (_ & -> & _); auto|]. do 3 (split; [auto|]). unfold net_update. rewrite Eo. destruct (n_layers n2) as [|a r] eqn:EN.
  - cbn in EU. injection EU as E <-. rewrite <- E. f_equal. destruct n2; cbn in *; subst; reflexivity.
  - rewrite EU. reflexivity.
Qed.
Lemma own_det : forall (ls : list (layer T)) os ls1 os1, own_updates ls os ls1 os1 -> forall ls2 os2, own_updates ls os ls2 os2 -> ls1 = ls2 /\ os1 = os2.
Proof.
  induction 1 as [|l o l' o' ls os ls' os' E _ IH]; intros ls2 os2 U; inversion U as [|a b l2 p2 c d ls3 os3 E2 U2]; subst; auto.
  rewrite E in E2. injection E2 as <- <-. destruct (IH _ _ U2) as [-> ->]. auto.
Qed.
Lemma one_own_det : forall (n m1 m2 : net T G) os os1 os2 x t, fit_one_own n os x t m1 os1 -> fit_one_own n os x t m2 os2 ->
  n_layers m1 = n_layers m2 /\ n_loss m1 = n_loss m2 /\ n_rng m1 = n_rng m2 /\ os1 = os2.
Proof.
  intros n m1 m2 os os1 os2 x t (a1 & b1 & p & c & d & l & E1 & E2 & E3 & E4 & E5 & E6 & E7 & E8) (a2 & b2 & p' & c' & d' & l' & F1 & F2 & F3 & F4 & F5 & F6 & F7 & F8).
  rewrite E1 in F1. injection F1 as <- <-. rewrite E2 in F2. injection F2 as <-. rewrite E4 in F4. injection F4 as <-. rewrite E5 in F5. injection F5 as <-.
  destruct (own_det _ _ _ _ E6 _ _ F6). repeat split; congruence.
Qed.
Lemma own_one_twin : forall (n m m' : net T G) os os' x t, twin n m os -> fit_one_own m os x t m' os' -> exists n', fit_one n x t n' /\ twin n' m' os'.
Proof.
  intros n m m' os os' x t H F. destruct (own_one n m m' os os' x t H F) as (n' & F' & _). exists n'. split; [auto|].
  destruct (one_own n m n' os x t H F') as (m2 & os2 & F2 & (A1 & A2 & A3 & o & A4 & A5 & A6)). destruct (one_own_det _ _ _ _ _ _ _ _ F F2) as (B1 & B2 & B3 & ->).
  unfold twin. rewrite B1, B2, B3. do 3 (split; [auto|]). exists o. auto.
Qed.
Lemma all_own : forall (n n' : net T G) s, fit n s n' -> forall m os, twin n m os -> exists m' os', fit_own m os s m' os' /\ twin n' m' os'.
Proof.
  induction 1 as [n|n x t n1 r n2 F _ IH]; intros m os H.
  - exists m, os. split; [constructor|auto].
  - destruct (one_own n m n1 os x t H F) as (m1 & os1 & F1 & H1). destruct (IH m1 os1 H1) as (m2 & os2 & F2 & H2). exists m2, os2. split; [econstructor; eauto|auto].
Qed.
Lemma own_all : forall (m m' : net T G) os s os', fit_own m os s m' os' -> forall n, twin n m os -> exists n', fit n s n' /\ twin n' m' os'.
Proof.
  induction 1 as [m os|m os x t m1 os1 r m2 os2 F _ IH]; intros n H.
  - exists n. split; [constructor|auto].
  - destruct (own_one_twin n m m1 os os1 x t H F) as (n1 & F1 & H1). destruct (IH n1 H1) as (n2 & F2 & H2). exists n2. split; [econstructor; eauto|auto].
Qed.
Lemma twin_start : forall (n : net T G) o, n_opt n = Some o -> unused o -> separable (n_layers n) o -> twin n n (map (fun _ => o) (n_layers n)).
Proof.
  intros n o Eo HU HX. unfold twin. do 3 (split; [auto|]). exists o. split; [auto|]. split; [auto|]. generalize 0. generalize (n_layers n) as ls.
  assert (SU : forall i, same_optim 2 (sh i) idz o o). { intros i. destruct o as [o|o|o]; cbn in HU |- *; unfold same_bufs; repeat (split; auto); intros k HK; rewrite !(proj1 (HU _)) || rewrite !HU || idtac; auto;
     try (destruct (HU (sh i k)) as (? & ? & ?), (HU (idz k)) as (? & ? & ?); congruence); try (destruct (HU (sh i k)) as (? & ?), (HU (idz k)) as (? & ?); congruence). }
  induction ls as [|l ls IH]; intros i; cbn [map served]; auto.
Qed.
Lemma fit_separately : forall (n : net T G) o s, n_opt n = Some o -> unused o -> sgd_or_rms o \/ at_most_one (n_layers n) ->
  (forall n', fit n s n' -> exists m os', fit_own n (map (fun _ => o) (n_layers n)) s m os' /\ same_model n' m) /\
  (forall m os', fit_own n (map (fun _ => o) (n_layers n)) s m os' -> exists n', fit n s n' /\ same_model n' m).
Proof.
  intros n o s Eo HU HX. pose proof (twin_start n o Eo HU HX) as HT. split.
  - intros n' F. destruct (all_own n n' s F n _ HT) as (m & os & F' & A1 & _ & A3 & _). exists m, os. split; [auto|split; auto].
  - intros m os' F. destruct (own_all n m _ s os' F n HT) as (n' & F' & A1 & _ & A3 & _). exists n'. split; [auto|split; auto].
Qed.
Lemma train_separately : forall (n : net T G) o xs ts e, n_opt n = Some o -> unused o -> sgd_or_rms o \/ at_most_one (n_layers n) ->
  Zlen xs <= Zlen ts -> s_eq (s_z (Zlen xs) : T) zero = false ->
  (forall n', net_train n xs ts e = (n', Ok tt) -> exists m os', fit_own n (map (fun _ => o) (n_layers n)) (concat (repeat (combine xs ts) (Z.to_nat e))) m os' /\ same_model n' m) /\
  (forall m os', fit_own n (map (fun _ => o) (n_layers n)) (concat (repeat (combine xs ts) (Z.to_nat e))) m os' -> exists n', net_train n xs ts e = (n', Ok tt) /\ same_model n' m).
Proof.
  intros n o xs ts e Eo HU HX HL HZ. destruct (fit_separately n o (concat (repeat (combine xs ts) (Z.to_nat e))) Eo HU HX) as [A B]. split.
  - intros n' E. apply A. apply train_fit; auto.
  - intros m os' F. destruct (B m os' F) as (n' & F' & SM). exists n'. split; [apply train_fit; auto|auto].
Qed.
Lemma sep_steady : forall (n : net T G) o xs ts e, n_opt n = Some o -> unused o -> sgd_or_rms o -> Zlen xs <= Zlen ts -> s_eq (s_z (Zlen xs) : T) zero = false ->
  (forall n', net_train n xs ts e = (n', Ok tt) -> exists m os', fit_own n (map (fun _ => o) (n_layers n)) (concat (repeat (combine xs ts) (Z.to_nat e))) m os' /\ same_model n' m) /\
  (forall m os', fit_own n (map (fun _ => o) (n_layers n)) (concat (repeat (combine xs ts) (Z.to_nat e))) m os' -> exists n', net_train n xs ts e = (n', Ok tt) /\ same_model n' m).
Proof. intros. apply train_separately; auto. Qed.
Lemma sep_single : forall (n : net T G) o xs ts e, n_opt n = Some o -> unused o -> at_most_one (n_layers n) -> Zlen xs <= Zlen ts -> s_eq (s_z (Zlen xs) : T) zero = false ->
  (forall n', net_train n xs ts e = (n', Ok tt) -> exists m os', fit_own n (map (fun _ => o) (n_layers n)) (concat (repeat (combine xs ts) (Z.to_nat e))) m os' /\ same_model n' m) /\
  (forall m os', fit_own n (map (fun _ => o) (n_layers n)) (concat (repeat (combine xs ts) (Z.to_nat e))) m os' -> exists n', net_train n xs ts e = (n', Ok tt) /\ same_model n' m).
Proof. intros. apply train_separately; auto. Qed.
Lemma fit_own_det : forall (n m1 : net T G) os s os1, fit_own n os s m1 os1 -> forall n' m2 os2, n_layers n = n_layers n' -> n_loss n = n_loss n' -> n_rng n = n_rng n' ->
  fit_own n' os s m2 os2 -> same_model m1 m2 /\ os1 = os2.
Proof.
  induction 1 as [m os|m os x t m1 os1 r m2 os2 F _ IH]; intros n' m3 os3 E1 E2 E3 H; inversion H as [|? ? ? ? n1 os4 ? ? ? F1 F2]; subst; [split; [split; auto|auto]|].
  destruct F1 as (a1 & b1 & p & c & d & l & A1 & A2 & A3 & A4 & A5 & A6 & A7 & A8). destruct F as (a2 & b2 & p' & c' & d' & l' & B1 & B2 & B3 & B4 & B5 & B6 & B7 & B8).
  unfold net_predict in A1, B1. rewrite <- E1, <- E3 in A1. destruct (forward_all (n_layers m) x (n_rng m)) as [[ls g] o]. injection A1 as <- ->. injection B1 as <- ->.
  rewrite <- E2, B2 in A2. injection A2 as <-. rewrite B4 in A4. injection A4 as <-.
  unfold net_backward, net_with in A5, B5. cbn [n_layers n_loss n_opt n_rng] in A5, B5. destruct (backward_all ls d') as [ls2 r2]. destruct r2 as [y|ex| | |]; cbn [step] in A5, B5; try discriminate. injection A5 as <-. injection B5 as <-.
  cbn [n_layers n_loss n_rng] in *. destruct (own_det _ _ _ _ B6 _ _ A6) as [C1 <-]. apply (IH n1 m3 os3); congruence.
Qed.
Lemma own_det_same : forall (n : net T G) os s m1 os1 m2 os2, fit_own n os s m1 os1 -> fit_own n os s m2 os2 -> same_model m1 m2 /\ os1 = os2.
Proof. intros n os s m1 os1 m2 os2 F1 F2. exact (fit_own_det n m1 os s os1 F1 n m2 os2 eq_refl eq_refl eq_refl F2). Qed.
End Sep.
