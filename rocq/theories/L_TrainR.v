(** * Training with plain SGD is gradient descent *)
From Coq Require Import Reals Lra.
From Coquelicot Require Import Coquelicot.
From Verif Require Import Base Scalar ScalarR Types Spec SpecNN SpecR SpecLayers SpecOpt M_Shape M_Tensor M_Adv M_Act M_Loss M_Layers M_Reg M_Opt M_Net SpecNet SpecNetR
  L_Index L_Shape L_Tensor L_Glue L_Nest L_Matmul L_RSum L_AdvR L_ActR L_Loss L_Layers L_Conv L_Opt L_Net L_Net2 L_NetR L_Train.
Local Open Scope R_scope.

Section S.
Context {G : Type} {HR : Rng R G}.
Local Notation layer := (layer R).
Local Notation net := (net R G).

(** ** What prediction depends on *)
Definition stripped (l : layer) : layer :=
  match l with
  | LFC l => LFC (mkFC (fc_w l) (fc_b l) None None None)
  | LAct l => LAct (mkActL (al_act l) None)
  | LFlat _ => LFlat (mkFlatten None)
  | LConv l => LConv (mkConv (cv_w l) (cv_b l) None None None (cv_ic l) (cv_oc l) (cv_kh l) (cv_kw l) (cv_stride l) (cv_pad l) (cv_dil l))
  | l => l
  end.
Definition core (l : layer) : Prop := match l with LFC _ | LAct _ | LFlat _ | LConv _ => True | _ => False end.
Lemma fits_core : forall ds l ds', fits ds l ds' -> core l. Proof. intros ds l ds' H. destruct H; exact I. Qed.
Lemma chain_core : forall ds ls ds', chain ds ls ds' -> Forall core ls.
Proof. intros ds ls ds' H. induction H; constructor; auto. eapply fits_core; eauto. Qed.
Lemma forward_strip : forall (l : layer) x (g : G), core l -> exists l1 o, layer_forward l x g = (l1, g, o) /\ stripped l1 = stripped l.
Proof.
  intros l x g HC. destruct l as [l|l|l|l|l|l|l]; try destruct HC; cbn [layer_forward]; unfold lift; do 2 eexists; (split; [reflexivity|]); try reflexivity.
  - unfold conv_forward. destruct (negb _); [reflexivity|]. destruct (rd (tdims x) 1) as [c| | | |]; cbn [step fst]; try reflexivity. destruct (negb _); reflexivity.
Qed.
Lemma backward_strip : forall (l : layer) d, core l -> stripped (fst (layer_backward l d)) = stripped l.
Proof.
  intros l d HC. destruct l as [l|l|l|l|l|l|l]; try destruct HC; cbn [layer_backward]; try reflexivity.
  - unfold fc_backward. destruct (fc_in l); [|reflexivity]. match goal with |- context [step l ?m _] => destruct m as [(g2 & gw)| | | |] end; cbn [step]; try reflexivity.
    match goal with |- context [step _ ?m _] => destruct m end; reflexivity.
  - unfold conv_backward. destruct (cv_in l); [|reflexivity]. cbv zeta. match goal with |- context [step _ ?m _] => destruct m as [(gh & gwd)| | | |] end; cbn [step]; try reflexivity.
    match goal with |- context [keep_loop ?b ?l ?s] => destruct (keep_loop b l s) as [gb [u1| | | |]] end; cbn [step]; try reflexivity.
    match goal with |- context [keep_loop ?b ?l ?s] => destruct (keep_loop b l s) as [gw [u2| | | |]] end; reflexivity.
Qed.
Lemma stripped_core : forall l l' : layer, stripped l = stripped l' -> core l -> core l'.
Proof. intros l l' E H. destruct l, l'; try discriminate E; auto. Qed.
Lemma stripped_params : forall l l' : layer, stripped l = stripped l' -> layer_params l = layer_params l'.
Proof. intros l l' E. destruct l, l'; try discriminate E; try reflexivity; cbn in E; try (injection E as E1 E2; cbn; congruence); injection E; intros; cbn; congruence. Qed.
Lemma stripped_with : forall (l l' : layer) w b, stripped l = stripped l' -> stripped (with_params l w b) = stripped (with_params l' w b).
Proof. intros l l' w b E. destruct l, l'; try discriminate E; cbn in *; try reflexivity; try congruence; try (injection E; intros; congruence). Qed.
Lemma core_with : forall (l : layer) w b, core l -> core (with_params l w b).
Proof. intros l w b H. destruct l; auto. Qed.
Lemma forward_all_strip : forall (ls : list layer) x (g : G), Forall core ls -> exists ls1 o, forward_all ls x g = (ls1, g, o) /\ map stripped ls1 = map stripped ls.
Proof.
  induction ls as [|l ls IH]; intros x g HF; [exists [], (Ok x); auto|]. inversion HF as [|? ? H1 H2]; subst. destruct (forward_strip l x g H1) as (l1 & o & E & S1). cbn [forward_all]. rewrite E.
  destruct o as [y|e| | |]; [|do 2 eexists; split; [reflexivity|]; cbn [map]; congruence..]. destruct (IH y g H2) as (ls1 & o' & E2 & S2). rewrite E2. do 2 eexists. split; [reflexivity|]. cbn [map]. congruence.
Qed.
Lemma backward_all_strip : forall (ls : list layer) d, Forall core ls -> map stripped (fst (backward_all ls d)) = map stripped ls.
Proof.
  induction ls as [|l ls IH]; intros d HF; [reflexivity|]. inversion HF as [|? ? H1 H2]; subst. cbn [backward_all]. specialize (IH d H2). destruct (backward_all ls d) as (ls' & o). cbn [fst] in IH.
  destruct o as [y|e| | |]; cbn [fst map]; try congruence. pose proof (backward_strip l y H1) as HB. destruct (layer_backward l y) as (l' & o'). cbn [fst map] in *. congruence.
Qed.
Lemma forward_stripped : forall (l l' : layer) x (g g' : G), core l -> stripped l = stripped l' -> snd (layer_forward l x g) = snd (layer_forward l' x g').
Proof.
  intros l l' x g g' HC E. destruct l as [l|l|l|l|l|l|l], l' as [m|m|m|m|m|m|m]; try discriminate E; try destruct HC; cbn [stripped] in E; cbn [layer_forward]; unfold lift; cbn [snd].
  - injection E as E1 E2. unfold fc_forward. cbn [snd]. rewrite E1, E2. reflexivity.
  - injection E as E1. unfold act_forward. cbn [snd]. rewrite E1. reflexivity.
  - unfold flatten_forward. destruct (_ <? _)%Z; [reflexivity|]. destruct (_ =? _)%Z; reflexivity.
  - injection E as E1 E2 E3 E4 E5 E6 E7 E8 E9. unfold conv_forward. rewrite E1, E2, E3, E4, E5, E6. destruct (negb _); [reflexivity|]. destruct (rd (tdims x) 1) as [c| | | |]; cbn [step snd]; try reflexivity. destruct (negb _); reflexivity.
Qed.
Lemma forward_all_stripped : forall (ls ls' : list layer) x (g g' : G), Forall core ls -> map stripped ls = map stripped ls' -> snd (forward_all ls x g) = snd (forward_all ls' x g').
Proof.
  induction ls as [|l ls IH]; intros [|l' ls'] x g g' HF E; try discriminate; [reflexivity|]. cbn [map] in E. injection E as E1 E2. inversion HF as [|? ? H1 H2]; subst. cbn [forward_all].
  pose proof (forward_stripped l l' x g g' H1 E1) as HS. destruct (layer_forward l x g) as ((l1 & g1) & o1), (layer_forward l' x g') as ((l2 & g2) & o2). cbn [snd] in HS. subst o2.
  destruct o1 as [y|e| | |]; try reflexivity. pose proof (IH ls' y g1 g2 H2 E2) as HI. destruct (forward_all ls y g1) as ((? & ?) & ?), (forward_all ls' y g2) as ((? & ?) & ?). exact HI.
Qed.
Lemma mse_of_stripped : forall (n n' : net) x t v, Forall core (n_layers n) -> map stripped (n_layers n) = map stripped (n_layers n') -> mse_of n x t v -> mse_of n' x t v.
Proof.
  intros n n' x t v HF E (m & p & EP & EM). pose proof (forward_all_stripped _ _ x (n_rng n) (n_rng n') HF E) as H. unfold mse_of, net_predict in *.
  destruct (forward_all (n_layers n) x (n_rng n)) as ((? & ?) & o1), (forward_all (n_layers n') x (n_rng n')) as ((? & ?) & o2). cbn [snd] in H. subst o2. injection EP as _ ->. do 2 eexists. split; [reflexivity|auto].
Qed.
(** Updates change parameters only. *)
Definition reparam (l l' : layer) : Prop := match layer_params l' with Some (w, b) => stripped l' = stripped (with_params l w b) | None => l' = l end.
Lemma update_reparam : forall i (l : layer) o l' o' r, layer_update i l o = (l', o', r) -> reparam l l'.
Proof.
  intros i l o l' o' r E. assert (SELF : forall m : layer, reparam m m) by (intros m; unfold reparam; destruct m as [m|m|m|m|m|m|m]; try reflexivity; destruct m; reflexivity).
  destruct l as [l|l|l|l|l|l|l]; cbn [layer_update] in E; try (injection E as <- <- <-; apply SELF).
  - destruct (fc_gw l), (fc_gb l); try (injection E as <- <- <-; apply SELF). destruct (pair_optimize _ _ _ _ _ _) as (((o1 & w) & b) & r1). injection E as <- <- <-. reflexivity.
  - destruct (cv_gw l), (cv_gb l); try (injection E as <- <- <-; apply SELF). destruct (pair_optimize _ _ _ _ _ _) as (((o1 & w) & b) & r1). injection E as <- <- <-. reflexivity.
  - destruct (bn_ggamma l) eqn:E1, (bn_gbeta l) eqn:E2; try (injection E as <- <- <-; apply SELF). destruct (pair_optimize _ _ _ _ _ _) as (((o1 & w) & b) & r1). injection E as <- <- <-. unfold reparam. cbn. rewrite E1, E2. reflexivity.
Qed.
Lemma update_all_reparam : forall (ls : list layer) i o ls' o', update_all i ls o = (ls', o', Ok tt) -> Forall2 reparam ls ls'.
Proof.
  induction ls as [|l ls IH]; intros i o ls' o' E; cbn [update_all] in E; [injection E as <- <-; constructor|].
  destruct (layer_update i l o) as ((l1 & o1) & r1) eqn:E1. destruct r1 as [u|e| | |]; try discriminate E. destruct (update_all (i + 1) ls o1) as ((r' & o2) & e2) eqn:E2. injection E as <- <- ->.
  constructor; [eapply update_reparam; eauto|destruct u; eapply IH; eauto].
Qed.
Lemma net_update_reparam : forall n n' : net, net_update n = (n', Ok tt) -> Forall2 reparam (n_layers n) (n_layers n').
Proof.
  intros n n' E. unfold net_update in E. destruct (n_layers n) as [|l ls] eqn:EL; [injection E as <-; rewrite EL; constructor|]. destruct (n_opt n) as [o|]; [|discriminate].
  destruct (update_all 0 (l :: ls) o) as ((ls' & o') & r) eqn:EU. injection E as <- ->. cbn [n_layers]. eapply update_all_reparam; eauto.
Qed.

(** ** Chains are trainable and stay chains *)
Lemma fits_accepts : forall ds l ds', fits ds l ds' -> pos_dims ds -> (prod ds <= INT_MAX)%Z -> accepts ds l ds' /\ pos_dims ds' /\ (prod ds' <= INT_MAX)%Z.
Proof.
  intros ds l ds' HF (HN & HP) HM. destruct HF as [n k o l W1 W2 W3 W4 HQ|ds l HS|b ds l HS HN2|b c ds l HN2|h w l W1 W2 W3 W4 HO H1 H2].
  - split; [constructor; auto|]. destruct (dims2_pos _ _ _ W1 W2) as (_ & Ho & _). inversion HP; subst. split; [split; [discriminate|repeat constructor; auto]|]. cbn [prod]. lia.
  - split; [constructor; intros E; destruct (HS E)|]. split; [split; auto|auto].
  - split; [constructor; intros _; destruct ds; [destruct HN2; auto|cbn; lia]|]. split; [split; auto|auto].
  - split; [constructor; auto|]. inversion HP as [|? ? Hb HP']; subst. split; [split; [discriminate|repeat constructor; auto; apply prod_pos; auto]|]. cbn [prod] in *. lia.
  - pose proof (good_pos _ W1) as (_ & P2). rewrite W2 in P2. inversion P2 as [|? ? _ P3]; subst. inversion P3 as [|? ? Hc P4]; subst. inversion P4 as [|? ? Hkh P5]; subst. inversion P5 as [|? ? Hkw _]; subst.
    assert (HB : ((h - cv_kh l + 1) * (w - cv_kw l + 1) <= INT_MAX)%Z).
    { cbn [prod] in HM. assert (Q1 : ((h - cv_kh l + 1) * (w - cv_kw l + 1) <= h * w)%Z) by (apply Z.mul_le_mono_nonneg; lia).
      assert (Q2 : (0 < h * w)%Z) by (apply Z.mul_pos_pos; lia). rewrite !Z.mul_1_r, Z.mul_1_l in HM. revert HM Q1 Q2. generalize (h * w)%Z. intros z HM Q1 Q2. nia. }
    split; [|split; [split; [discriminate|repeat constructor; lia]|cbn [prod]; lia]].
    pose proof (acc_conv 1 h w l) as HA. rewrite HO in HA. apply HA; auto. lia.
Qed.
Lemma chain_accepts : forall ds ls ds', chain ds ls ds' -> pos_dims ds -> (prod ds <= INT_MAX)%Z -> accepts_all ds ls ds'.
Proof. intros ds ls ds' H. induction H as [ds|ds l dm r ds' HF HC IH]; intros HP HM; [constructor|]. destruct (fits_accepts _ _ _ HF HP HM) as (HA & HP' & HM'). apply (acc_cons _ _ _ dm); [exact HA|apply IH; auto]. Qed.
Lemma accepts_params : forall ds (l : layer) ds' w b, accepts ds l ds' -> layer_params l = Some (w, b) -> good w /\ good b.
Proof. intros ds l ds' w b HA E. destruct HA; cbn [layer_params] in E; try discriminate; injection E as <- <-; auto. Qed.
Lemma accepts_all_params : forall ds (ls : list layer) ds', accepts_all ds ls ds' -> Forall (fun l => forall w b, layer_params l = Some (w, b) -> good w /\ good b) ls.
Proof. intros ds ls ds' H. induction H; constructor; auto. intros; eapply accepts_params; eauto. Qed.
Lemma fits_reparam : forall ds l ds' l2 l', fits ds l ds' -> stripped l2 = stripped l -> reparam l2 l' -> params_dims l' = params_dims l -> (forall w b, layer_params l' = Some (w, b) -> good w /\ good b) -> fits ds l' ds'.
Proof.
  intros ds l ds' l2 l' HF ES HP HD HG. unfold reparam in HP. unfold params_dims in HD. destruct HF as [n k o l W1 W2 W3 W4 HQ|ds l HS|b ds l HS HN2|b c ds l HN2|h w l W1 W2 W3 W4 HO H1 H2]; cbn [layer_params] in HD.
  - destruct (layer_params l') as [(w' & b')|] eqn:E; [|discriminate]. destruct (HG w' b' eq_refl) as (Gw & Gb). injection HD as D1 D2.
    destruct l2; try discriminate ES. destruct l' as [l'| | | | | |]; try discriminate HP. cbn [layer_params] in E. injection E as <- <-. constructor; auto; congruence.
  - destruct l2; try discriminate ES. destruct (layer_params l') as [(? & ?)|]; [discriminate|]. subst l'. constructor. cbn [stripped] in ES. injection ES as ->. auto.
  - destruct l2; try discriminate ES. destruct (layer_params l') as [(? & ?)|]; [discriminate|]. subst l'. apply fits_softmax; auto. cbn [stripped] in ES. injection ES as ->. auto.
  - destruct l2; try discriminate ES. destruct (layer_params l') as [(? & ?)|]; [discriminate|]. subst l'. constructor; auto.
  - destruct (layer_params l') as [(w' & b')|] eqn:E; [|discriminate]. destruct (HG w' b' eq_refl) as (Gw & Gb). injection HD as D1 D2.
    destruct l2 as [| | |m| | |]; try discriminate ES. destruct l' as [| | |l'| | |]; try discriminate HP. cbn [layer_params] in E. injection E as <- <-. cbn [stripped with_params cv_w cv_b cv_ic cv_oc cv_kh cv_kw cv_stride cv_pad cv_dil] in HP, ES.
    injection HP as P3 P4 P5 P6 P7 P8 P9. injection ES as _ _ E3 E4 E5 E6 E7 E8 E9.
    rewrite <- E3, <- E5, <- E6, <- P3, <- P5, <- P6. apply fits_conv; auto; congruence.
Qed.
Lemma chain_reparam : forall ds ls ds', chain ds ls ds' -> forall ls2 ls', map stripped ls2 = map stripped ls -> Forall2 reparam ls2 ls' -> map params_dims ls' = map params_dims ls ->
  Forall (fun l => forall w b, layer_params l = Some (w, b) -> good w /\ good b) ls' -> chain ds ls' ds'.
Proof.
  intros ds ls ds' H. induction H as [ds|ds l dm r ds' HF HC IH]; intros ls2 ls' ES HP HD HG.
  - destruct ls2; [|discriminate]. inversion HP; subst. constructor.
  - destruct ls2 as [|l2 ls2]; [discriminate|]. inversion HP as [|? l' ? r' P1 P2]; subst. cbn [map] in ES, HD. injection ES as S1 S2. injection HD as D1 D2. inversion HG as [|? ? G1 G2]; subst.
    econstructor; [eapply fits_reparam; eauto|eapply IH; eauto].
Qed.

(** ** One step *)
Lemma counts_R : counts_nonzero (T := R).
Proof. intros n HN. cbn. unfold Reqb. destruct (Req_EM_T (IZR n) 0) as [E|E]; [|reflexivity]. apply eq_IZR in E. lia. Qed.
Lemma plain_rate_R : forall lr o, plain_sgd lr o -> plain_rate o = Some lr.
Proof.
  intros lr o (damp & nest & ->). cbn. unfold Reqb, Rltb. destruct (Req_EM_T 0 0) as [_|N]; [|destruct (N eq_refl)]. cbn [andb]. destruct (Rlt_dec 0 (-1)) as [L|_]; [lra|reflexivity].
Qed.
Lemma target_fits_R : forall ds t, target_for ds t -> target_fits MSE ds t. Proof. intros ds t H. exact H. Qed.
Definition ready (ds ds' : list Z) (lr : R) (n : net) : Prop :=
  exists D o, trainable D ds ds' n MSE o /\ plain_rate o = Some lr /\ chain ds (n_layers n) ds'.
Lemma ready_new : forall ds ds' lr (n : net) o, chain ds (n_layers n) ds' -> pos_dims ds -> (prod ds <= INT_MAX)%Z -> n_loss n = Some MSE -> n_opt n = Some o -> plain_sgd lr o -> ready ds ds' lr n.
Proof.
  intros ds ds' lr n o HC HP HM HL HO HS. exists (fun k => dims_map (n_layers n) (k - 2 * 0)), o. split; [|split; [apply plain_rate_R; auto|auto]].
  split; [apply chain_accepts; auto|]. split; [auto|]. split; [auto|]. split; [apply dims_map_at|]. apply new_ready. destruct HS as (damp & nest & ->). constructor.
Qed.
Lemma plain_room : forall (o : optim R) lr k, plain_rate o = Some lr -> room o k.
Proof. intros o lr k E. destruct o; try discriminate E. exact I. Qed.
Lemma ready_step : forall ds ds' lr (n : net) x t, ready ds ds' lr n -> good x -> tdims x = ds -> target_for ds' t ->
  exists n1 p d n2 n', net_predict n x = (n1, Ok p) /\ mse_gradient p t = Ok d /\ net_backward n1 d = (n2, Ok tt) /\ fit_one n x t n' /\ ready ds ds' lr n' /\
    map stripped (n_layers n2) = map stripped (n_layers n) /\ Forall2 reparam (n_layers n2) (n_layers n') /\ Forall2 (layer_descended lr) (n_layers n2) (n_layers n') /\
    Forall (fun l => forall w b, layer_params l = Some (w, b) -> good w /\ good b) (n_layers n').
Proof.
  intros ds ds' lr n x t (D & o & HT & HPl & HC) Gx Ex Ht.
  destruct (fit_step D ds ds' n MSE o x t HT (plain_room _ _ _ HPl) counts_R Gx Ex Ht) as (n1 & p & d & n2 & n' & o' & E1 & E2 & E3 & E4 & F & HT' & PD & _ & PR & PP & V).
  pose proof (chain_core _ _ _ HC) as HCo.
  assert (S1 : map stripped (n_layers n1) = map stripped (n_layers n)).
  { destruct (forward_all_strip (n_layers n) x (n_rng n) HCo) as (ls1 & o1 & EF & ES). unfold net_predict in E1. rewrite EF in E1. injection E1 as <- _. exact ES. }
  assert (C1 : Forall core (n_layers n1)).
  { clear -S1 HCo. revert S1 HCo. generalize (n_layers n) as b, (n_layers n1) as a. intros b a. revert b. induction a as [|y a IH]; intros [|z b] E HF; try discriminate; [constructor|]. cbn [map] in E. injection E as E1 E2. inversion HF; subst. constructor; [eapply stripped_core; [symmetry; exact E1|auto]|eapply IH; eauto]. }
  assert (S2 : map stripped (n_layers n2) = map stripped (n_layers n)).
  { rewrite <- S1. rewrite <- (backward_all_strip _ d C1). unfold net_backward in E3. destruct (backward_all (n_layers n1) d) as (ls & ob). destruct ob; cbn [step] in E3; try discriminate. injection E3 as <-. reflexivity. }
  pose proof (net_update_reparam _ _ E4) as RP. assert (HG : Forall (fun l => forall w b, layer_params l = Some (w, b) -> good w /\ good b) (n_layers n')) by (eapply accepts_all_params; apply HT').
  exists n1, p, d, n2, n'. split; [auto|]. split; [exact E2|]. split; [auto|]. split; [auto|]. split; [|auto].
  exists D, o'. split; [auto|]. split; [congruence|]. eapply chain_reparam; eauto.
Qed.
Lemma ready_fit : forall ds ds' lr samples (n m : net), fit n samples m -> Forall (sample_for ds ds') samples -> ready ds ds' lr n -> ready ds ds' lr m.
Proof.
  intros ds ds' lr samples n m F. induction F as [|n x t n1 r m F1 F2 IH]; intros HF HRy; [auto|]. inversion HF as [|? ? (Gx & Ex & Ht) HF']; subst. cbn [fst snd] in *. apply IH; auto.
  destruct (ready_step _ _ _ _ _ _ HRy Gx eq_refl Ht) as (a & p & d & b & n' & _ & _ & _ & F & R' & _). rewrite (fit_one_fun _ _ _ _ _ F1 F). exact R'.
Qed.
Lemma F2_nth : forall {A B} (P : A -> B -> Prop) a b k x, Forall2 P a b -> nth_error a k = Some x -> exists y, nth_error b k = Some y /\ P x y.
Proof. intros A B P a b k x H. revert k. induction H as [|u v a b H1 H2 IH]; intros [|k] E; try discriminate; [injection E as ->; exists v; auto|apply IH; exact E]. Qed.
Theorem sgd_step : forall ds ds' lr (n0 n : net) o samples pre l post w b x t, chain ds (n_layers n0) ds' -> n_loss n0 = Some MSE -> n_opt n0 = Some o -> plain_sgd lr o ->
  fit n0 samples n -> Forall (sample_for ds ds') samples -> sample_for ds ds' (x, t) -> smooth_run (n_layers n) x (n_rng n) -> n_layers n = pre ++ l :: post -> layer_params l = Some (w, b) ->
  exists n' l' w' b', fit_one n x t n' /\ nth_error (n_layers n') (length pre) = Some l' /\ layer_params l' = Some (w', b') /\ tdims w' = tdims w /\ tdims b' = tdims b /\
    (forall idx, in_range (tdims w) idx -> exists L D, (forall u, mse_of (with_layers n (pre ++ with_params l (bumped w idx u) b :: post)) x t (L u)) /\ is_derive L 0 D /\ el w' idx = el w idx - lr * D) /\
    (forall idx, in_range (tdims b) idx -> exists L D, (forall u, mse_of (with_layers n (pre ++ with_params l w (bumped b idx u) :: post)) x t (L u)) /\ is_derive L 0 D /\ el b' idx = el b idx - lr * D).
Proof.
  intros ds ds' lr n0 n o samples pre l post w b x t HC HL HO HS F HSs (Gx & Ex & Ht) HSm EN EP. cbn [fst snd] in *.
  assert (R0 : ready ds ds' lr n0) by (eapply ready_new; eauto; rewrite <- Ex; [apply good_pos|apply good_max]; auto).
  pose proof (ready_fit _ _ _ _ _ _ F HSs R0) as Rn. destruct (ready_step _ _ _ _ _ _ Rn Gx Ex Ht) as (n1 & p & d & n2 & n' & E1 & E2 & E3 & F1 & _ & ST & _ & V & _).
  assert (HCn : chain ds (n_layers n) ds') by (destruct Rn as (? & ? & _ & _ & H); exact H).
  assert (N2 : exists l2, nth_error (n_layers n2) (length pre) = Some l2 /\ stripped l2 = stripped l).
  { pose proof (f_equal (fun z => nth_error z (length pre)) ST) as H. cbn beta in H. rewrite !nth_error_map in H. rewrite EN in H. rewrite (nth_error_app2 pre) in H by lia. rewrite Nat.sub_diag in H. cbn in H.
    destruct (nth_error (n_layers n2) (length pre)) as [l2|]; [|discriminate]. cbn in H. injection H as H. eauto. }
  destruct N2 as (l2 & N2 & SL). destruct (F2_nth _ _ _ _ _ V N2) as (l' & N' & HV). unfold layer_descended in HV. rewrite (stripped_params _ _ SL), EP in HV.
  destruct (layer_grads l2) as [(gw & gb)|] eqn:EG; [|destruct HV]. destruct (layer_params l') as [(w' & b')|] eqn:EP'; [|destruct HV]. destruct HV as ((Dw & Vw) & (Db & Vb)).
  exists n', l', w', b'. split; [auto|]. split; [auto|]. split; [auto|]. split; [auto|]. split; [auto|]. split; intros idx HI.
  - destruct (backprop_weight n ds ds' pre l post w b x t idx EN EP HCn Gx Ex HSm Ht HI) as (m1 & q & dq & m2 & k2 & hw & hb & L & A1 & A2 & A3 & A4 & A5 & _ & A7 & A8).
    rewrite E1 in A1. injection A1 as <- <-. rewrite E2 in A2. injection A2 as <-. rewrite E3 in A3. injection A3 as <-. rewrite N2 in A4. injection A4 as <-. rewrite EG in A5. injection A5 as <- <-.
    exists L, (el gw idx). split; [auto|]. split; [auto|]. apply Vw; auto.
  - destruct (backprop_bias n ds ds' pre l post w b x t idx EN EP HCn Gx Ex HSm Ht HI) as (m1 & q & dq & m2 & k2 & hw & hb & L & A1 & A2 & A3 & A4 & A5 & _ & A7 & A8).
    rewrite E1 in A1. injection A1 as <- <-. rewrite E2 in A2. injection A2 as <-. rewrite E3 in A3. injection A3 as <-. rewrite N2 in A4. injection A4 as <-. rewrite EG in A5. injection A5 as <- <-.
    exists L, (el gb idx). split; [auto|]. split; [auto|]. apply Vb; auto.
Qed.

(** ** Small steps reduce the loss *)
Definition negated (g : tensor R) : tensor R := tensor_of (tdims g) (fun idx => - el g idx).
Definition downhill (l : layer) : direction := match layer_params l, layer_grads l with Some _, Some (gw, gb) => Some (negated gw, negated gb) | _, _ => None end.
Lemma negated_good : forall g, good g -> good (negated g) /\ tdims (negated g) = tdims g.
Proof. intros g Hg. split; [apply good_tensor_of; [apply good_pos|apply good_max]; auto|reflexivity]. Qed.
Lemma dot_negated : forall g, good g -> dot g (negated g) = - rsum (all_indices (tdims g)) (fun idx => el g idx * el g idx).
Proof.
  intros g Hg. unfold negated. rewrite dot_tensor_of_r by (try apply pos_forall; try apply good_pos; auto). replace (- rsum (all_indices (tdims g)) (fun idx => el g idx * el g idx)) with ((-1) * rsum (all_indices (tdims g)) (fun idx => el g idx * el g idx)) by ring.
  rewrite <- rsum_scal_l. apply rsum_ext. intros; ring.
Qed.
Lemma rsum_squares : forall {A} (l : list A) (f : A -> R), 0 <= rsum l (fun a => f a * f a) /\ ((exists a, In a l /\ f a <> 0) -> 0 < rsum l (fun a => f a * f a)).
Proof.
  intros A l f. induction l as [|a l (I1 & I2)]; [rewrite rsum_nil; split; [lra|intros (a & [] & _)]|]. rewrite rsum_cons. pose proof (Rle_0_sqr (f a)) as HQ. unfold Rsqr in HQ. split; [lra|].
  intros (b & [->|HI] & HN); [assert (0 < f b * f b) by (apply Rsqr_pos_lt in HN; exact HN); lra|]. assert (0 < rsum l (fun a => f a * f a)) by (apply I2; eauto). lra.
Qed.
Lemma dot_negated_sign : forall g, good g -> dot g (negated g) <= 0 /\ ((exists idx, in_range (tdims g) idx /\ el g idx <> 0) -> dot g (negated g) < 0).
Proof.
  intros g Hg. rewrite dot_negated by auto. destruct (rsum_squares (all_indices (tdims g)) (el g)) as (H1 & H2). split; [lra|]. intros (idx & HI & HN).
  assert (0 < rsum (all_indices (tdims g)) (fun a => el g a * el g a)); [|lra]. apply H2. exists idx. split; [|auto]. apply In_all_indices; auto. apply pos_forall. apply good_pos. auto.
Qed.
Lemma layer_grads_params : forall (l : layer) g, layer_grads l = Some g -> exists p, layer_params l = Some p.
Proof. intros l g E. destruct l; cbn in *; try discriminate; eauto. Qed.
Lemma slope_downhill : forall ls ls2 : list layer, Forall2 has_grads ls ls2 -> map layer_params ls2 = map layer_params ls ->
  slope ls2 (map downhill ls2) <= 0 /\ (nonzero_gradient ls2 -> slope ls2 (map downhill ls2) < 0).
Proof.
  intros ls ls2 H. induction H as [|l l2 ls ls2 H1 H2 IH]; intros EP.
  - cbn [map]. change (slope [] []) with 0. split; [lra|]. intros (l & gw & gb & [] & _).
  - cbn [map] in EP. injection EP as P1 P2. destruct (IH P2) as (I1 & I2). cbn [map]. rewrite slope_cons.
    assert (HS : layer_slope l2 (downhill l2) <= 0 /\ (forall gw gb, layer_grads l2 = Some (gw, gb) -> ((exists idx, in_range (tdims gw) idx /\ el gw idx <> 0) \/ exists idx, in_range (tdims gb) idx /\ el gb idx <> 0) -> layer_slope l2 (downhill l2) < 0)).
    { unfold has_grads in H1. unfold layer_slope, downhill. rewrite P1. destruct (layer_params l) as [(w & b)|] eqn:EL.
      - destruct H1 as (gw & gb & -> & Gw & _ & Gb & _). destruct (dot_negated_sign gw Gw) as (A1 & A2). destruct (dot_negated_sign gb Gb) as (B1 & B2). split; [lra|]. intros gw' gb' E [C|C]; injection E as <- <-; [specialize (A2 C)|specialize (B2 C)]; lra.
      - destruct (layer_grads l2) as [(gw & gb)|] eqn:EG; [destruct (layer_grads_params _ _ EG) as (q & E); rewrite P1 in E; discriminate E|]. split; [lra|]. intros gw gb E. discriminate. }
    destruct HS as (S1 & S2). split; [lra|]. intros (m & gw & gb & [<-|HI] & EG & HN); [specialize (S2 gw gb EG HN); lra|].
    assert (slope ls2 (map downhill ls2) < 0) by (apply I2; exists m, gw, gb; auto). lra.
Qed.
Lemma downhill_for : forall ls ls2 : list layer, Forall2 has_grads ls ls2 -> map layer_params ls2 = map layer_params ls -> Forall2 direction_for ls (map downhill ls2).
Proof.
  intros ls ls2 H. induction H as [|l l2 ls ls2 H1 H2 IH]; intros EP; [constructor|]. cbn [map] in EP. injection EP as P1 P2. constructor; [|auto].
  unfold has_grads in H1. unfold direction_for, downhill. rewrite P1. destruct (layer_params l) as [(w & b)|]; [|exact I]. destruct H1 as (gw & gb & -> & Gw & Ew & Gb & Eb).
  destruct (negated_good gw Gw), (negated_good gb Gb). split; [auto|]. split; [congruence|]. split; [auto|congruence].
Qed.
Lemma descended_moved : forall lr w g w', good w -> good w' -> good g -> tdims g = tdims w -> descended lr w g w' -> w' = moved lr w (negated g).
Proof.
  intros lr w g w' Gw Gw' Gg Eg (Ed & V). unfold moved. rewrite <- Ed. apply tensor_eta; auto. rewrite Ed. intros idx HI. rewrite V by auto. unfold negated. rewrite Eg, el_tensor_of by auto. cbn. ring.
Qed.
Lemma step_stripped : forall lr (ls ls2 ls' : list layer), Forall2 has_grads ls ls2 -> map stripped ls2 = map stripped ls -> Forall2 reparam ls2 ls' -> Forall2 (layer_descended lr) ls2 ls' ->
  Forall (fun l => forall w b, layer_params l = Some (w, b) -> good w /\ good b) ls -> Forall (fun l => forall w b, layer_params l = Some (w, b) -> good w /\ good b) ls' ->
  map stripped (layers_moved lr ls (map downhill ls2)) = map stripped ls'.
Proof.
  intros lr ls ls2 ls' H. revert ls'. induction H as [|l l2 ls ls2 H1 H2 IH]; intros ls' ES HP HV HG HG'; [inversion HP; reflexivity|].
  inversion HP as [|? l' ? r' P1 P2]; subst. inversion HV as [|? ? ? ? V1 V2]; subst. inversion HG as [|? ? G1 G2]; subst. inversion HG' as [|? ? K1 K2]; subst. cbn [map] in ES. injection ES as S1 S2.
  unfold layers_moved in *. cbn [map combine fst snd]. rewrite (IH r') by auto. f_equal.
  pose proof (stripped_params _ _ S1) as EP. unfold has_grads in H1. unfold layer_descended in V1. unfold reparam in P1. unfold layer_moved, downhill. rewrite EP in *. destruct (layer_params l) as [(w & b)|] eqn:EL.
  - destruct H1 as (gw & gb & EG & Gw & Ew & Gb & Eb). rewrite EG in *. destruct (layer_params l') as [(w' & b')|]; [|destruct V1]. destruct V1 as (Vw & Vb). destruct (G1 w b eq_refl). destruct (K1 w' b' eq_refl).
    rewrite <- (descended_moved lr w gw w'), <- (descended_moved lr b gb b') by auto. rewrite P1. apply stripped_with. auto.
  - destruct (layer_params l') as [(w' & b')|]; [destruct (layer_grads l2) as [(? & ?)|]; destruct V1|]. subst l'. auto.
Qed.
Lemma decreases : forall (L : R -> R) D, is_derive L 0 D -> D < 0 -> exists e, 0 < e /\ forall u, 0 < u < e -> L u < L 0.
Proof.
  intros L D HD Hn. apply is_derive_Reals in HD. destruct (HD (- D / 2)) as (del & Hdel); [lra|]. exists del. split; [apply cond_pos|]. intros u (H1 & H2).
  assert (HU : u <> 0) by lra. specialize (Hdel u HU). rewrite Rabs_pos_eq in Hdel by lra. specialize (Hdel H2). rewrite Rplus_0_l in Hdel. apply Rabs_def2 in Hdel. destruct Hdel as (Hd & _).
  assert (HQ : (L u - L 0) / u < 0) by lra. assert (HM : (L u - L 0) / u * u < 0 * u) by (apply Rmult_lt_compat_r; auto). unfold Rdiv in HM. rewrite Rmult_assoc, Rinv_l in HM by auto. lra.
Qed.
Theorem sgd_improves : forall ds ds' damp nest (n : net) x t n1 p d n2, chain ds (n_layers n) ds' -> sample_for ds ds' (x, t) -> smooth_run (n_layers n) x (n_rng n) ->
  net_predict n x = (n1, Ok p) -> mse_gradient p t = Ok d -> net_backward n1 d = (n2, Ok tt) -> nonzero_gradient (n_layers n2) ->
  exists e, 0 < e /\ forall lr, 0 < lr < e -> exists n' v v', fit_one (net_compile n MSE (OSGD (sgd_new lr 0 damp 0 nest))) x t n' /\ mse_of n x t v /\ mse_of n' x t v' /\ v' < v.
Proof.
  intros ds ds' damp nest n x t n1 p d n2 HC (Gx & Ex & Ht) HSm E1 E2 E3 HN. cbn [fst snd] in *.
  assert (HP : pos_dims ds) by (rewrite <- Ex; apply good_pos; auto). assert (HM : (prod ds <= INT_MAX)%Z) by (rewrite <- Ex; apply good_max; auto).
  assert (HFG : map layer_params (n_layers n2) = map layer_params (n_layers n) /\ Forall2 has_grads (n_layers n) (n_layers n2)).
  { destruct (chain_still _ _ _ HC) as (S1 & _). destruct (backprop_direction n ds ds' _ x t HC S1 Gx Ex HSm Ht) as (m1 & q & dq & m2 & L & A1 & A2 & A3 & A4 & A5 & _).
    rewrite E1 in A1. injection A1 as <- <-. rewrite E2 in A2. injection A2 as <-. rewrite E3 in A3. injection A3 as <-. auto. }
  destruct HFG as (EPa & HG). pose proof (downhill_for _ _ HG EPa) as HD.
  destruct (backprop_direction n ds ds' _ x t HC HD Gx Ex HSm Ht) as (m1 & q & dq & m2 & L & A1 & A2 & A3 & _ & _ & A6 & A7 & A8).
  rewrite E1 in A1. injection A1 as <- <-. rewrite E2 in A2. injection A2 as <-. rewrite E3 in A3. injection A3 as <-.
  destruct (slope_downhill _ _ HG EPa) as (_ & HS). specialize (HS HN). destruct (decreases _ _ A8 HS) as (e & He & HL). exists e. split; [auto|]. intros lr Hlr.
  set (nc := net_compile n MSE (OSGD (sgd_new lr 0 damp 0 nest))).
  assert (RC : ready ds ds' lr nc) by (apply (ready_new ds ds' lr nc (OSGD (sgd_new lr 0 damp 0 nest))); auto; exists damp, nest; auto).
  destruct (ready_step _ _ _ _ _ _ RC Gx Ex Ht) as (k1 & pk & dk & k2 & n' & B1 & B2 & B3 & B4 & _ & B6 & B7 & B8 & B9).
  assert (EL : n_layers k2 = n_layers n2).
  { unfold net_predict in B1, E1. cbn [nc net_compile n_layers n_rng] in B1. destruct (forward_all (n_layers n) x (n_rng n)) as ((lsf & gf) & of). injection B1 as <- EB. injection E1 as <- EE. rewrite EB in EE. injection EE as <-.
    rewrite E2 in B2. injection B2 as <-. unfold net_backward in B3, E3. cbn [n_layers] in B3, E3. destruct (backward_all lsf d) as (lb & ob). destruct ob; cbn [step] in B3, E3; try discriminate. injection B3 as <-. injection E3 as <-. reflexivity. }
  rewrite EL in B6, B7, B8. change (n_layers nc) with (n_layers n) in B6. pose proof (accepts_all_params _ _ _ (chain_accepts _ _ _ HC HP HM)) as HGn.
  pose proof (step_stripped lr _ _ _ HG B6 B7 B8 HGn B9) as HST. exists n', (L 0), (L lr). split; [exact B4|]. split; [auto|]. split; [|apply HL; auto].
  apply (mse_of_stripped (with_layers n (layers_moved lr (n_layers n) (map downhill (n_layers n2))))); [|exact HST|apply A6]. cbn [with_layers n_layers].
  clear -HC HD. pose proof (chain_core _ _ _ HC) as HCo. unfold layers_moved. clear HC. induction HD as [|l dr ls drs H1 H2 IH]; [constructor|]. cbn [combine map fst snd]. inversion HCo; subst. constructor; [|auto].
  unfold layer_moved. destruct (layer_params l) as [(w & b)|]; [|auto]. destruct dr as [(dw & db)|]; [|auto]. apply core_with. auto.
Qed.
End S.
