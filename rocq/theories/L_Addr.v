(** * Training does not depend on addresses *)
From Verif Require Import Base Scalar Types M_Shape M_Tensor M_Adv M_Act M_Loss M_Layers M_Reg M_Opt M_Net M_Addr SpecAddr.

Section Sim.
Context {T : Type} {S : Scalar T} {G : Type} {HR : Rng T G}.
Variables (N : Z) (a b : Z -> Z).
Hypothesis IA : distinct_addresses N a.
Hypothesis IB : distinct_addresses N b.

Lemma same_put : forall (p q : bufs T) k v, 0 <= k < N -> same_bufs N a b p q -> same_bufs N a b (put p (a k) v) (put q (b k) v).
Proof.
  intros p q k v HK H j HJ. unfold put. destruct (Z.eqb_spec (a j) (a k)) as [E|E], (Z.eqb_spec (b j) (b k)) as [E'|E']; auto.
  - apply IA in E; auto. subst. congruence.
  - apply IB in E'; auto. subst. congruence.
Qed.
Lemma same_get : forall (p q : bufs T) k s, 0 <= k < N -> same_bufs N a b p q -> buf_get p (a k) s = buf_get q (b k) s.
Proof. intros p q k s HK H. unfold buf_get. rewrite (H k HK). reflexivity. Qed.

(** One update, for each optimizer. *)
Lemma sgd_same : forall (o p : sgd T) k w g c, 0 <= k < N -> same_optim N a b (OSGD o) (OSGD p) ->
  snd (sgd_update o (a k) w g c) = snd (sgd_update p (b k) w g c) /\
  same_optim N a b (OSGD (fst (sgd_update o (a k) w g c))) (OSGD (fst (sgd_update p (b k) w g c))).
Proof.
  intros [l m d wd n bo] [l' m' d' wd' n' bp] k w g c HK H. cbn in H. destruct H as (<- & <- & <- & <- & <- & H). unfold sgd_update. cbn [sg_lr sg_mom sg_damp sg_wd sg_nest sg_buf].
  rewrite (same_get bo bp k _ HK H).
  change (sgd_body (mkSGD l m d wd n bp)) with (sgd_body (mkSGD l m d wd n bo)).
  destruct (for_ _ _ _ _) as [q|e| | |]; cbn [step fst snd same_optim sg_lr sg_mom sg_damp sg_wd sg_nest sg_buf]; (split; [reflexivity|]); do 5 (split; [reflexivity|]); apply same_put; auto.
Qed.
Lemma rms_same : forall (o p : rms T) k w g c, 0 <= k < N -> same_optim N a b (ORMS o) (ORMS p) ->
  snd (rms_update o (a k) w g c) = snd (rms_update p (b k) w g c) /\
  same_optim N a b (ORMS (fst (rms_update o (a k) w g c))) (ORMS (fst (rms_update p (b k) w g c))).
Proof.
  intros [l al ep mo ce wd s1 m1 v1] [l' al' ep' mo' ce' wd' s2 m2 v2] k w g c HK H. cbn in H. destruct H as (<- & <- & <- & <- & <- & <- & H1 & H2 & H3).
  unfold rms_update. cbn [rp_lr rp_alpha rp_eps rp_mom rp_cent rp_wd rp_sq rp_mean rp_vel].
  rewrite (same_get s1 s2 k _ HK H1), (same_get m1 m2 k _ HK H2), (same_get v1 v2 k _ HK H3).
  change (rms_body (mkRMS l al ep mo ce wd s2 m2 v2)) with (rms_body (mkRMS l al ep mo ce wd s1 m1 v1)).
  destruct (for_ _ _ _ _) as [q|e| | |]; [destruct q as (((wq & sq) & mq) & vq)|..]; cbn [step fst snd same_optim rp_lr rp_alpha rp_eps rp_mom rp_cent rp_wd rp_sq rp_mean rp_vel];
    (split; [reflexivity|]); do 6 (split; [reflexivity|]); (split; [apply same_put; auto|]); split; [destruct ce|destruct (s_lt zero mo)|destruct ce|destruct (s_lt zero mo)|destruct ce|destruct (s_lt zero mo)|destruct ce|destruct (s_lt zero mo)|destruct ce|destruct (s_lt zero mo)]; auto; apply same_put; auto.
Qed.
Lemma adam_same : forall (o p : adam T) k w g c, 0 <= k < N -> same_optim N a b (OAdam o) (OAdam p) ->
  snd (adam_update o (a k) w g c) = snd (adam_update p (b k) w g c) /\
  same_optim N a b (OAdam (fst (adam_update o (a k) w g c))) (OAdam (fst (adam_update p (b k) w g c))).
Proof.
  intros [i l b1 b2 ep l1 l2 de it ba m1 v1] [i' l' b1' b2' ep' l1' l2' de' it' ba' m2 v2] k w g c HK H. cbn in H. destruct H as (<- & <- & <- & <- & <- & <- & <- & <- & <- & <- & H1 & H2).
  unfold adam_update, adam_with. cbn [ad_init ad_lr ad_b1 ad_b2 ad_eps ad_l1 ad_l2 ad_decay ad_it ad_batch ad_m ad_v].
  rewrite (same_get m1 m2 k _ HK H1), (same_get v1 v2 k _ HK H2).
  change (adam_body (mkAdam i l b1 b2 ep l1 l2 de it ba m2 v2)) with (adam_body (mkAdam i l b1 b2 ep l1 l2 de it ba m1 v1)).
  change (adam_alpha (mkAdam i l b1 b2 ep l1 l2 de it ba m2 v2)) with (adam_alpha (mkAdam i l b1 b2 ep l1 l2 de it ba m1 v1)).
  destruct (for_ _ _ _ _) as [q|e| | |]; [destruct q as ((wq & mq) & vq)|..]; cbn [step fst snd same_optim ad_init ad_lr ad_b1 ad_b2 ad_eps ad_l1 ad_l2 ad_decay ad_it ad_batch ad_m ad_v];
    (split; [reflexivity|]); do 10 (split; [reflexivity|]); split; apply same_put; auto.
Qed.

(** The loop over the two parameters of a layer. *)
Lemma loop_same : forall {O C} (wrap : O -> optim T) (update : O -> Z -> tensor T -> tensor T -> C -> O * outcome (tensor T)) (c : C),
  (forall o p k w g, 0 <= k < N -> same_optim N a b (wrap o) (wrap p) ->
     snd (update o (a k) w g c) = snd (update p (b k) w g c) /\ same_optim N a b (wrap (fst (update o (a k) w g c))) (wrap (fst (update p (b k) w g c)))) ->
  forall i j w v gw gb o p, 0 <= i < N -> 0 <= j < N -> i <> j -> same_optim N a b (wrap o) (wrap p) ->
  let '(o', st, r) := opt_loop update c [(a i, gw); (a j, gb)] o (fun k => if k =? a i then w else v) in
  let '(p', st', r') := opt_loop update c [(b i, gw); (b j, gb)] p (fun k => if k =? b i then w else v) in
  r = r' /\ st (a i) = st' (b i) /\ st (a j) = st' (b j) /\ same_optim N a b (wrap o') (wrap p').
Proof.
  intros O C wrap update c HU i j w v gw gb o p HI HJ NE H.
  assert (NA : a j =? a i = false) by (apply Z.eqb_neq; intros E; apply NE; symmetry; apply IA; auto).
  assert (NB : b j =? b i = false) by (apply Z.eqb_neq; intros E; apply NE; symmetry; apply IB; auto).
  assert (NA' : a i =? a j = false) by (rewrite Z.eqb_sym; auto). assert (NB' : b i =? b j = false) by (rewrite Z.eqb_sym; auto).
  cbn [opt_loop]. rewrite !Z.eqb_refl. destruct (HU o p i w gw HI H) as [E1 H1]. destruct (update o (a i) w gw c) as [o1 r1], (update p (b i) w gw c) as [p1 r1']. cbn [fst snd] in E1, H1. subst r1'.
  destruct r1 as [w1|e| | |]; try (rewrite !Z.eqb_refl, NA, NB; auto).
  replace (put (fun k => if k =? a i then w else v) (a i) w1 (a j)) with v by (unfold put; rewrite !NA; reflexivity).
  replace (put (fun k => if k =? b i then w else v) (b i) w1 (b j)) with v by (unfold put; rewrite !NB; reflexivity).
  destruct (HU o1 p1 j v gb HJ H1) as [E2 H2]. destruct (update o1 (a j) v gb c) as [o2 r2], (update p1 (b j) v gb c) as [p2 r2']. cbn [fst snd] in E2, H2. subst r2'.
  destruct r2 as [v1|e| | |]; unfold put; rewrite ?Z.eqb_refl, ?NA, ?NB, ?NA', ?NB', ?Z.eqb_refl; auto.
Qed.
End Sim.

Section Net.
Context {T : Type} {S : Scalar T} {G : Type} {HR : Rng T G}.
Variables (N : Z) (a b : Z -> Z).
Hypothesis IA : distinct_addresses N a.
Hypothesis IB : distinct_addresses N b.

Lemma pair_same : forall (o p : optim T) i w v gw gb, 0 <= i -> 2 * i + 1 < N -> same_optim N a b o p ->
  let '(o', x, y, r) := pair_optimize_at a o i w v gw gb in
  let '(p', x', y', r') := pair_optimize_at b p i w v gw gb in
  r = r' /\ x = x' /\ y = y' /\ same_optim N a b o' p'.
Proof.
  intros o p i w v gw gb HI HN H. unfold pair_optimize_at.
  destruct o as [o|o|o], p as [p|p|p]; try contradiction; cbn [optim_optimize]; unfold sgd_optimize, rms_optimize, adam_optimize; cbn [combine];
    change (negb (Zlen [a (2 * i); a (2 * i + 1)] =? Zlen [gw; gb])) with false; change (negb (Zlen [b (2 * i); b (2 * i + 1)] =? Zlen [gw; gb])) with false; cbv iota.
  - assert (ER : sgd_rate o (s_z (-1)) = sgd_rate p (s_z (-1))) by (cbn in H; unfold sgd_rate; destruct H as (-> & _); reflexivity). rewrite ER.
    pose proof (loop_same N a b IA IB OSGD sgd_update (sgd_rate p (s_z (-1))) (fun o p k w g => sgd_same N a b IA IB o p k w g _) (2 * i) (2 * i + 1) w v gw gb o p ltac:(lia) ltac:(lia) ltac:(lia) H) as K.
    destruct (opt_loop _ _ _ o _) as [[o' st] r], (opt_loop _ _ _ p _) as [[p' st'] r']. exact K.
  - assert (ER : rms_rate o (s_z (-1)) = rms_rate p (s_z (-1))) by (cbn in H; unfold rms_rate; destruct H as (-> & _); reflexivity). rewrite ER.
    pose proof (loop_same N a b IA IB ORMS rms_update (rms_rate p (s_z (-1))) (fun o p k w g => rms_same N a b IA IB o p k w g _) (2 * i) (2 * i + 1) w v gw gb o p ltac:(lia) ltac:(lia) ltac:(lia) H) as K.
    destruct (opt_loop _ _ _ o _) as [[o' st] r], (opt_loop _ _ _ p _) as [[p' st'] r']. exact K.
  - assert (EI : ad_it o = ad_it p) by apply H. unfold adam_rate. rewrite EI.
    assert (NE : (a (2 * i + 1) =? a (2 * i)) = false) by (apply Z.eqb_neq; intros E; apply IA in E; lia).
    assert (NE' : (b (2 * i + 1) =? b (2 * i)) = false) by (apply Z.eqb_neq; intros E; apply IB in E; lia).
    destruct (chk32 (ad_it p + 1)) as [it|e| | |]; cbn [bind]; try (rewrite !Z.eqb_refl, NE, NE'; auto).
    match goal with |- context [opt_loop adam_update tt [(a _, gw); _] ?o1 _] => match goal with |- context [opt_loop adam_update tt [(b _, gw); _] ?p1 _] =>
      assert (H1 : same_optim N a b (OAdam o1) (OAdam p1)) end end.
    { cbn in H |- *. destruct H as (E0 & E1 & E2 & E3 & E4 & E5 & E6 & E7 & E8 & E9 & H1 & H2). rewrite E0, E7. do 10 (split; [auto|]). auto. }
    pose proof (loop_same N a b IA IB OAdam adam_update tt (fun o p k w g => adam_same N a b IA IB o p k w g _) (2 * i) (2 * i + 1) w v gw gb _ _ ltac:(lia) ltac:(lia) ltac:(lia) H1) as K.
    destruct (opt_loop adam_update tt [(a (2 * i), gw); (a (2 * i + 1), gb)] _ _) as [[o' st] r], (opt_loop adam_update tt [(b (2 * i), gw); (b (2 * i + 1), gb)] _ _) as [[p' st'] r']. exact K.
Qed.
Lemma layer_same : forall i (l : layer T) (o p : optim T), 0 <= i -> 2 * i + 1 < N -> same_optim N a b o p ->
  let '(l', o', r) := layer_update_at a i l o in let '(m', p', r') := layer_update_at b i l p in l' = m' /\ r = r' /\ same_optim N a b o' p'.
Proof.
  intros i l o p HI HN H. destruct l as [l|l|l|l|l|l|l]; cbn [layer_update_at]; auto.
  - destruct (fc_gw l) as [gw|], (fc_gb l) as [gb|]; auto. pose proof (pair_same o p i (fc_w l) (fc_b l) gw gb HI HN H) as K.
    destruct (pair_optimize_at a _ _ _ _ _ _) as [[[o' x] y] r], (pair_optimize_at b _ _ _ _ _ _) as [[[p' x'] y'] r']. destruct K as (<- & <- & <- & K). auto.
  - destruct (cv_gw l) as [gw|], (cv_gb l) as [gb|]; auto. pose proof (pair_same o p i (cv_w l) (cv_b l) gw gb HI HN H) as K.
    destruct (pair_optimize_at a _ _ _ _ _ _) as [[[o' x] y] r], (pair_optimize_at b _ _ _ _ _ _) as [[[p' x'] y'] r']. destruct K as (<- & <- & <- & K). auto.
  - destruct (bn_ggamma l) as [gw|], (bn_gbeta l) as [gb|]; auto. pose proof (pair_same o p i (bn_gamma l) (bn_beta l) gw gb HI HN H) as K.
    destruct (pair_optimize_at a _ _ _ _ _ _) as [[[o' x] y] r], (pair_optimize_at b _ _ _ _ _ _) as [[[p' x'] y'] r']. destruct K as (<- & <- & <- & K). auto.
Qed.
Lemma update_same : forall (ls : list (layer T)) i (o p : optim T), 0 <= i -> 2 * (i + Zlen ls) <= N -> same_optim N a b o p ->
  let '(ls', o', r) := update_all_at a i ls o in let '(ms', p', r') := update_all_at b i ls p in ls' = ms' /\ r = r' /\ same_optim N a b o' p' /\ Zlen ls' = Zlen ls.
Proof.
  induction ls as [|l ls IH]; intros i o p HI HN H; cbn [update_all_at]; auto.
  assert (EL : Zlen (l :: ls) = 1 + Zlen ls) by (unfold Zlen; cbn [length]; lia). rewrite EL in HN |- *.
  pose proof (layer_same i l o p HI ltac:(unfold Zlen in *; lia) H) as K. destruct (layer_update_at a i l o) as [[l' o'] r], (layer_update_at b i l p) as [[m' p'] r']. destruct K as (<- & <- & K).
  destruct r as [u|e| | |]; auto.
  specialize (IH (i + 1) o' p' ltac:(lia) ltac:(lia) K). destruct (update_all_at a (i + 1) ls o') as [[ls' o''] e], (update_all_at b (i + 1) ls p') as [[ms' p''] e']. destruct IH as (<- & <- & IH & L).
  repeat split; auto. unfold Zlen in *; cbn [length]; lia.
Qed.
End Net.

Section Train.
Context {T : Type} {S : Scalar T} {G : Type} {HR : Rng T G}.
Variables (N : Z) (a b : Z -> Z).
Hypothesis IA : distinct_addresses N a.
Hypothesis IB : distinct_addresses N b.

(** The number of layers is kept by everything below, so the bound on the addresses is too. *)
Definition alike (n m : net T G) : Prop := same_net a b n m /\ 2 * Zlen (n_layers n) = N.
Definition both {A} (x y : net T G * outcome A) : Prop := alike (fst x) (fst y) /\ snd x = snd y.

Lemma both_step : forall {A B} (n m : net T G) (o : outcome A) (k k' : A -> net T G * outcome B), alike n m -> (forall v, both (k v) (k' v)) -> both (step n o k) (step m o k').
Proof. intros A B n m o k k' H HK. destruct o; cbn [step]; auto; split; auto. Qed.
Lemma forward_len : forall (ls : list (layer T)) x (g : G), Zlen (fst (fst (forward_all ls x g))) = Zlen ls.
Proof.
  induction ls as [|l ls IH]; intros x g; cbn [forward_all]; auto. destruct (layer_forward l x g) as [[l' g'] [y|e| | |]]; auto.
  specialize (IH y g'). destruct (forward_all ls y g') as [[r' g''] o]. cbn [fst] in *. unfold Zlen in *. cbn [length]. lia.
Qed.
Lemma backward_len : forall (ls : list (layer T)) d, Zlen (fst (backward_all ls d)) = Zlen ls.
Proof.
  induction ls as [|l ls IH]; intros d; cbn [backward_all]; auto. specialize (IH d). destruct (backward_all ls d) as [r' [d'|e| | |]]; cbn [fst] in *; [destruct (layer_backward l d') as [l' o]|..]; cbn [fst]; unfold Zlen in *; cbn [length]; lia.
Qed.
Lemma alike_with : forall n m ls (g : G), alike n m -> Zlen ls = Zlen (n_layers n) -> alike (mkNet ls (n_loss n) (n_opt n) g) (mkNet ls (n_loss m) (n_opt m) g).
Proof.
  intros n m ls g ((E1 & E2 & E3 & H) & EN) EL. unfold alike, same_net. cbn [n_layers n_loss n_opt n_rng]. rewrite EL. split; [|exact EN]. split; [reflexivity|]. split; [exact E2|]. split; [reflexivity|]. exact H.
Qed.
Lemma predict_both : forall n m x, alike n m -> both (net_predict n x) (net_predict m x).
Proof.
  intros n m x H. pose proof H as ((E1 & E2 & E3 & HO) & EN). unfold net_predict. rewrite <- E1, <- E3. pose proof (forward_len (n_layers n) x (n_rng n)) as L.
  destruct (forward_all (n_layers n) x (n_rng n)) as [[ls g] o]. cbn [fst] in L. split; [|reflexivity]. apply alike_with; auto.
Qed.
Lemma back_both : forall n m d, alike n m -> both (net_backward n d) (net_backward m d).
Proof.
  intros n m d H. pose proof H as ((E1 & E2 & E3 & HO) & EN). unfold net_backward. rewrite <- E1. pose proof (backward_len (n_layers n) d) as L.
  destruct (backward_all (n_layers n) d) as [ls o]. cbn [fst] in L. assert (K : alike (net_with n ls) (net_with m ls)) by (unfold net_with; rewrite <- E3; apply alike_with; auto).
  apply both_step; auto. intros v. split; auto.
Qed.
Lemma update_both : forall n m, alike n m -> both (net_update_at a n) (net_update_at b m).
Proof.
  intros n m H. pose proof H as ((E1 & E2 & E3 & HO) & EN). unfold net_update_at. rewrite <- E1. destruct (n_layers n) as [|l ls] eqn:EL; [split; auto|].
  destruct (n_opt n) as [o|] eqn:EO, (n_opt m) as [p|] eqn:EP; try contradiction; [|split; auto].
  rewrite EN in HO. pose proof (update_same N a b IA IB (l :: ls) 0 o p ltac:(lia) ltac:(lia) HO) as K.
  destruct (update_all_at a 0 (l :: ls) o) as [[ls' o'] r], (update_all_at b 0 (l :: ls) p) as [[ms' p'] r']. destruct K as (<- & <- & K & L).
  split; [|reflexivity]. unfold alike, same_net. cbn [fst n_layers n_loss n_opt n_rng]. rewrite L, EN. auto.
Qed.
Lemma sample_both : forall n m x t (total : tensor T), alike n m -> both (train_sample_at a n x t total) (train_sample_at b m x t total).
Proof.
  intros n m x t total H. pose proof H as ((E1 & E2 & E3 & HO) & EN). unfold train_sample_at. destruct (predict_both n m x H) as [K1 K2].
  destruct (net_predict n x) as [n1 o], (net_predict m x) as [m1 o']. cbn [fst snd] in K1, K2. subst o'. rewrite <- E2.
  apply both_step; auto. intros p. destruct (n_loss n) as [l|]; [|split; auto]. apply both_step; auto. intros [tot d].
  destruct (back_both n1 m1 d K1) as [K3 K4]. destruct (net_backward n1 d) as [n2 r], (net_backward m1 d) as [m2 r']. cbn [fst snd] in K3, K4. subst r'.
  apply both_step; auto. intros _. destruct (update_both n2 m2 K3) as [K5 K6]. destruct (net_update_at a n2) as [n3 r3], (net_update_at b m2) as [m3 r3']. cbn [fst snd] in K5, K6. subst r3'.
  apply both_step; auto. intros _. split; auto.
Qed.
Lemma samples_both : forall (xs ts : list (tensor T)) i total n m, alike n m -> both (train_samples_at a n xs ts i total) (train_samples_at b m xs ts i total).
Proof.
  induction xs as [|x xs IH]; intros ts i total n m H; cbn [train_samples_at]; [split; auto|].
  destruct (sample_both n m x (rd ts i) total H) as [K1 K2]. destruct (train_sample_at a n x _ _) as [n1 o], (train_sample_at b m x _ _) as [m1 o']. cbn [fst snd] in K1, K2. subst o'.
  apply both_step; auto.
Qed.
Lemma epoch_both : forall n m (xs ts : list (tensor T)), alike n m -> both (train_epoch_at a n xs ts) (train_epoch_at b m xs ts).
Proof.
  intros n m xs ts H. unfold train_epoch_at. apply both_step; auto. intros total.
  destruct (samples_both xs ts 0 total n m H) as [K1 K2]. destruct (train_samples_at a n xs ts 0 total) as [n1 o], (train_samples_at b m xs ts 0 total) as [m1 o']. cbn [fst snd] in K1, K2. subst o'.
  apply both_step; auto. intros v. apply both_step; auto. intros u. split; auto.
Qed.
Lemma train_both : forall n m (xs ts : list (tensor T)) e, alike n m -> both (net_train_at a n xs ts e) (net_train_at b m xs ts e).
Proof.
  intros n m xs ts e. unfold net_train_at. revert n m. induction (Z.to_nat e) as [|k IH]; intros n m H; cbn [train_epochs_at]; [split; auto|].
  destruct (epoch_both n m xs ts H) as [K1 K2]. destruct (train_epoch_at a n xs ts) as [n1 o], (train_epoch_at b m xs ts) as [m1 o']. cbn [fst snd] in K1, K2. subst o'.
  apply both_step; auto.
Qed.
Lemma run_both : forall cs n m, alike n m -> alike (fst (run_calls (net_train_at a) n cs)) (fst (run_calls (net_train_at b) m cs)) /\
  snd (run_calls (net_train_at a) n cs) = snd (run_calls (net_train_at b) m cs).
Proof.
  induction cs as [|c cs IH]; intros n m H; cbn [run_calls]; [auto|].
  assert (K : alike (fst (do_call (net_train_at a) n c)) (fst (do_call (net_train_at b) m c)) /\ snd (do_call (net_train_at a) n c) = snd (do_call (net_train_at b) m c)).
  { destruct c as [xs ts e|x|md]; cbn [do_call].
    - destruct (train_both n m xs ts e H) as [K1 K2]. destruct (net_train_at a n xs ts e), (net_train_at b m xs ts e). cbn [fst snd] in *. subst. auto.
    - destruct (predict_both n m x H) as [K1 K2]. destruct (net_predict n x), (net_predict m x). cbn [fst snd] in *. subst. auto.
    - split; [|reflexivity]. cbn [fst]. pose proof H as ((E1 & E2 & E3 & HO) & EN). unfold net_set_mode, net_with. rewrite <- E1, <- E3. apply alike_with; auto. unfold Zlen. rewrite map_length. reflexivity. }
  destruct (do_call _ n c) as [n1 s], (do_call _ m c) as [m1 s']. cbn [fst snd] in K. destruct K as [K <-]. specialize (IH n1 m1 K).
  destruct (run_calls _ n1 cs) as [n2 ss], (run_calls _ m1 cs) as [m2 ss']. cbn [fst snd] in *. destruct IH as [IH <-]. auto.
Qed.
End Train.

(** M_Net.v is the case where parameter [k] has the address [k]. *)
Section Plain.
Context {T : Type} {S : Scalar T} {G : Type} {HR : Rng T G}.
Lemma train_id : forall (n : net T G) xs ts e, net_train_at (fun k => k) n xs ts e = net_train n xs ts e.
Proof. reflexivity. Qed.
End Plain.

Section Main.
Context {T : Type} {S : Scalar T} {G : Type} {HR : Rng T G}.
Lemma unused_same : forall N a b (o : optim T), unused o -> same_optim N a b o o.
Proof.
  intros N a b [o|o|o] H; cbn in *.
  - do 5 (split; [reflexivity|]). intros k _. rewrite !H. reflexivity.
  - do 6 (split; [reflexivity|]). split; [|split]; intros k _; [destruct (H (a k)) as (-> & _), (H (b k)) as (-> & _)|destruct (H (a k)) as (_ & -> & _), (H (b k)) as (_ & -> & _)|destruct (H (a k)) as (_ & _ & ->), (H (b k)) as (_ & _ & ->)]; reflexivity.
  - do 10 (split; [reflexivity|]). split; intros k _; [destruct (H (a k)) as (-> & _), (H (b k)) as (-> & _)|destruct (H (a k)) as (_ & ->), (H (b k)) as (_ & ->)]; reflexivity.
Qed.
Lemma addr_independent : forall (a b : Z -> Z) (n : net T G) cs, distinct_addresses (2 * Zlen (n_layers n)) a -> distinct_addresses (2 * Zlen (n_layers n)) b ->
  (forall o, n_opt n = Some o -> unused o) ->
  snd (run_calls (net_train_at a) n cs) = snd (run_calls (net_train_at b) n cs) /\ same_net a b (fst (run_calls (net_train_at a) n cs)) (fst (run_calls (net_train_at b) n cs)).
Proof.
  intros a b n cs IA IB HU. destruct (run_both _ a b IA IB cs n n) as [[H1 _] H2]; auto.
  split; [|reflexivity]. split; [reflexivity|]. split; [reflexivity|]. split; [reflexivity|]. destruct (n_opt n) as [o|]; auto. apply unused_same. auto.
Qed.
Lemma addr_step : forall (a b : Z -> Z) (n m : net T G) cs, distinct_addresses (2 * Zlen (n_layers n)) a -> distinct_addresses (2 * Zlen (n_layers n)) b -> same_net a b n m ->
  snd (run_calls (net_train_at a) n cs) = snd (run_calls (net_train_at b) m cs) /\ same_net a b (fst (run_calls (net_train_at a) n cs)) (fst (run_calls (net_train_at b) m cs)).
Proof. intros a b n m cs IA IB HU. destruct (run_both _ a b IA IB cs n m) as [[H1 _] H2]; auto. split; auto. Qed.
Lemma run_id : forall cs (n : net T G), run_calls (net_train_at (fun k => k)) n cs = run_calls net_train n cs.
Proof. reflexivity. Qed.
(** The model of M_Net.v loses nothing by fixing the addresses. *)
Lemma addr_wlog : forall (a : Z -> Z) (n : net T G) cs, distinct_addresses (2 * Zlen (n_layers n)) a -> (forall o, n_opt n = Some o -> unused o) ->
  snd (run_calls (net_train_at a) n cs) = snd (run_calls net_train n cs) /\ n_layers (fst (run_calls (net_train_at a) n cs)) = n_layers (fst (run_calls net_train n cs)).
Proof.
  intros a n cs IA HU. assert (IB : distinct_addresses (2 * Zlen (n_layers n)) (fun k => k)) by (intros i j _ _ E; exact E).
  destruct (addr_independent a (fun k => k) n cs IA IB HU) as [H1 (H2 & _)]. split; [exact H1|exact H2].
Qed.
End Main.
