(** * Networks: prediction, modes and the training loop *)
From Verif Require Import Base Scalar Types Spec SpecNN M_Shape M_Tensor M_Adv M_Act M_Loss M_Layers M_Reg M_Opt M_Net SpecNet
  L_Index L_Shape L_Bcast L_Tensor L_Nest L_Glue L_Adv.

Section S.
Context {T : Type} {S : Scalar T} {G : Type} {HR : Rng T G}.
Local Notation layer := (layer T).
Local Notation net := (net T G).

Lemma mapM_ext : forall {A B} (f g : A -> outcome B) l, (forall x, f x = g x) -> mapM f l = mapM g l.
Proof. intros A B f g l E. induction l as [|a l IH]; [reflexivity|]. cbn [mapM]. rewrite E, IH. reflexivity. Qed.

(** ** predict *)
Lemma forward_app : forall (a b : list layer) x (g : G), forward_all (a ++ b) x g =
  match forward_all a x g with
  | (a', g', Ok y) => let '(b', g'', o) := forward_all b y g' in (a' ++ b', g'', o)
  | (a', g', o) => (a' ++ b, g', o)
  end.
Proof.
  induction a as [|l a IH]; intros b x g; cbn [forward_all app].
  - destruct (forward_all b x g) as ((b' & g') & o). reflexivity.
  - destruct (layer_forward l x g) as ((l' & g') & []); try reflexivity. rewrite IH. destruct (forward_all a a0 g') as ((a' & g2) & []); try reflexivity.
    destruct (forward_all b a1 g2) as ((b' & g3) & o). reflexivity.
Qed.
Lemma predict_new : forall (g : G) (x : tensor T), net_predict (net_new g) x = (net_new g, Ok x).
Proof. reflexivity. Qed.
Lemma predict_add : forall (n : net) l x, net_predict (net_add n l) x =
  let '(n1, o) := net_predict n x in
  match o with
  | Ok y => let '(l', g, o') := layer_forward l y (n_rng n1) in (mkNet (n_layers n1 ++ [l']) (n_loss n) (n_opt n) g, o')
  | o => (net_add n1 l, o)
  end.
Proof.
  intros n l x. unfold net_predict, net_add. cbn [n_layers n_loss n_opt n_rng]. rewrite forward_app.
  destruct (forward_all (n_layers n) x (n_rng n)) as ((ls & g) & []); try reflexivity. cbn [forward_all n_rng n_layers].
  destruct (layer_forward l a g) as ((l' & g') & []); reflexivity.
Qed.

(** Eval mode *)
Lemma layer_forward_eval : forall (l : layer) x (g : G), in_mode false l -> exists l' o, layer_forward l x g = (l', g, o) /\ without_input l' = without_input l.
Proof.
  intros l x g HM. destruct l as [l|l|l|l|l|l|l]; cbn [layer_forward lift].
  - do 2 eexists. split; reflexivity.
  - do 2 eexists. split; reflexivity.
  - do 2 eexists. split; [reflexivity|]. reflexivity.
  - do 2 eexists. split; [reflexivity|]. unfold conv_forward. destruct (negb _); [reflexivity|]. unfold step. destruct (rd _ _); try reflexivity. destruct (negb _); reflexivity.
  - do 2 eexists. split; [reflexivity|]. unfold pool_forward. destruct (negb _); reflexivity.
  - destruct HM as [HM|HM]; [discriminate|]. cbn in HM. injection HM as HM. unfold dropout_forward. rewrite HM. do 2 eexists. split; reflexivity.
  - destruct HM as [HM|HM]; [discriminate|]. cbn in HM. injection HM as HM. do 2 eexists. split; [reflexivity|]. unfold bn_forward. rewrite HM. destruct (_ && _); reflexivity.
Qed.
(** The result does not depend on remembered inputs, in any mode. *)
Lemma layer_forward_same : forall (l1 l2 : layer) x (g : G), without_input l1 = without_input l2 ->
  snd (layer_forward l1 x g) = snd (layer_forward l2 x g) /\ snd (fst (layer_forward l1 x g)) = snd (fst (layer_forward l2 x g)).
Proof.
  intros l1 l2 x g E. destruct l1 as [l|l|l|l|l|l|l], l2 as [m|m|m|m|m|m|m]; try discriminate E; cbn [without_input] in E.
  - injection E as E1 E2 _ _. cbn [layer_forward lift snd fst fc_forward]. rewrite E1, E2. auto.
  - injection E as E1. cbn [layer_forward lift snd fst act_forward]. rewrite E1. auto.
  - cbn [layer_forward lift snd fst]. unfold flatten_forward. destruct (_ <? _); [auto|]. destruct (_ =? _); auto.
  - injection E as E1 E2 E3 E4 E5 E6 E7 E8 E9 E10 E11. cbn [layer_forward lift snd fst]. split; [|reflexivity]. unfold conv_forward. destruct (negb _); [reflexivity|].
    unfold step. destruct (rd _ _); try reflexivity. rewrite E5. destruct (negb _); [reflexivity|]. cbn [snd]. rewrite E1, E2, E6, E7, E8. reflexivity.
  - injection E as E1 E2 E3. cbn [layer_forward lift snd fst]. split; [|reflexivity]. destruct l as [ls lt lp li], m as [ms mt mp mi]. cbn in E1, E2, E3. subst.
    unfold pool_forward. destruct (negb _); reflexivity.
  - injection E as ->. auto.
  - injection E as ->. auto.
Qed.
Lemma without_input_mode : forall (l1 l2 : layer), without_input l1 = without_input l2 -> layer_mode l1 = layer_mode l2.
Proof. intros l1 l2 E. destruct l1, l2; try discriminate E; try reflexivity; cbn in E; injection E as ->; reflexivity. Qed.
Lemma forward_eval : forall (ls : list layer) x (g : G), Forall (in_mode false) ls ->
  exists ls' o, forward_all ls x g = (ls', g, o) /\ map without_input ls' = map without_input ls.
Proof.
  induction ls as [|l ls IH]; intros x g HF; [exists [], (Ok x); auto|]. inversion HF as [|? ? H1 H2]; subst. destruct (layer_forward_eval l x g H1) as (l' & o & E & W).
  cbn [forward_all]. rewrite E. destruct o as [y|e| | |].
  - destruct (IH y g H2) as (ls' & o & E2 & W2). rewrite E2. exists (l' :: ls'), o. split; [auto|]. cbn [map]. congruence.
  - exists (l' :: ls), (Throw e). split; [auto|]. cbn [map]. congruence.
  - exists (l' :: ls), Abort. split; [auto|]. cbn [map]. congruence.
  - exists (l' :: ls), UB. split; [auto|]. cbn [map]. congruence.
  - exists (l' :: ls), Hang. split; [auto|]. cbn [map]. congruence.
Qed.
Lemma forward_same : forall (l1 l2 : list layer) x (g : G), map without_input l1 = map without_input l2 -> snd (forward_all l1 x g) = snd (forward_all l2 x g).
Proof.
  induction l1 as [|a l1 IH]; intros [|b l2] x g E; try discriminate; [reflexivity|]. cbn [map] in E. injection E as E1 E2. cbn [forward_all].
  destruct (layer_forward_same a b x g E1) as (H1 & H2). destruct (layer_forward a x g) as ((a' & g1) & o1), (layer_forward b x g) as ((b' & g2) & o2). cbn [fst snd] in *. subst.
  destruct o2 as [y| | | |]; try reflexivity. specialize (IH l2 y g2 E2). destruct (forward_all l1 y g2) as ((? & ?) & ?), (forward_all l2 y g2) as ((? & ?) & ?). cbn in *. auto.
Qed.
Lemma same_mode : forall m (n n' : net), same_but_inputs n n' -> net_in_mode m n -> net_in_mode m n'.
Proof.
  intros m n n' (E & _). unfold net_in_mode. revert E. generalize (n_layers n) as a, (n_layers n') as b. intros a b. revert a. induction b as [|y b IH]; intros [|x a] E HF; try discriminate; [auto|].
  cbn [map] in E. injection E as E1 E2. inversion HF; subst. constructor; [|eapply IH; eauto]. unfold in_mode. rewrite (without_input_mode _ _ E1). auto.
Qed.
Lemma predict_eval : forall (n : net) x, net_in_mode false n -> exists n' o, net_predict n x = (n', o) /\ same_but_inputs n n'.
Proof.
  intros n x HM. destruct (forward_eval (n_layers n) x (n_rng n) HM) as (ls & o & E & W). unfold net_predict. rewrite E. do 2 eexists. split; [reflexivity|]. repeat split; auto.
Qed.
Lemma predict_same : forall (n n' : net) x, same_but_inputs n n' -> snd (net_predict n' x) = snd (net_predict n x).
Proof.
  intros n n' x (E & _ & _ & ER). unfold net_predict. rewrite ER. pose proof (forward_same _ _ x (n_rng n) E) as H.
  destruct (forward_all (n_layers n') x (n_rng n)) as ((? & ?) & ?), (forward_all (n_layers n) x (n_rng n)) as ((? & ?) & ?). exact H.
Qed.
Lemma same_refl : forall n : net, same_but_inputs n n. Proof. repeat split. Qed.
Lemma same_trans : forall a b c : net, same_but_inputs a b -> same_but_inputs b c -> same_but_inputs a c.
Proof. intros a b c (A1 & A2 & A3 & A4) (B1 & B2 & B3 & B4). repeat split; congruence. Qed.
Lemma forward_fold : forall (ls : list layer) x (g : G), Forall (in_mode false) ls ->
  snd (forward_all ls x g) = fold_left (fun o l => y <- o ;; snd (layer_forward l y g)) ls (Ok x).
Proof.
  assert (HF : forall (ls : list layer) (g : G) (o : outcome (tensor T)), (forall y, o <> Ok y) -> fold_left (fun o l => y <- o ;; snd (layer_forward l y g)) ls o = o).
  { induction ls as [|l ls IH]; intros g o HO; [reflexivity|]. cbn [fold_left]. destruct o as [y| | | |]; [destruct (HO y eq_refl)|..]; cbn [bind]; apply IH; auto. }
  induction ls as [|l ls IH]; intros x g HM; [reflexivity|]. inversion HM as [|? ? H1 H2]; subst. destruct (layer_forward_eval l x g H1) as (l' & o & E & _).
  cbn [forward_all fold_left bind]. rewrite E. cbn [snd]. destruct o as [y|e| | |]; cbn [snd]; try (rewrite HF by discriminate; reflexivity).
  rewrite <- IH by auto. destruct (forward_all ls y g) as ((? & ?) & ?). reflexivity.
Qed.
Lemma predict_fold : forall (n : net) x, net_in_mode false n -> snd (net_predict n x) = fold_left (fun o l => y <- o ;; snd (layer_forward l y (n_rng n))) (n_layers n) (Ok x).
Proof. intros n x HM. rewrite <- forward_fold by auto. unfold net_predict. destruct (forward_all (n_layers n) x (n_rng n)) as ((? & ?) & ?). reflexivity. Qed.
Lemma predict_again : forall (n : net) x y, net_in_mode false n -> exists n' o, net_predict n x = (n', o) /\ same_but_inputs n n' /\ snd (net_predict n' y) = snd (net_predict n y).
Proof. intros n x y HM. destruct (predict_eval n x HM) as (n' & o & E & HS). exists n', o. split; [auto|]. split; [auto|]. apply predict_same; auto. Qed.
(** Any number of predictions in between change nothing. *)
Lemma predict_all_eval : forall xs (n : net), net_in_mode false n ->
  exists n' o, net_predict_all n xs = (n', o) /\ same_but_inputs n n' /\ o = mapM (fun x => snd (net_predict n x)) xs.
Proof.
  induction xs as [|x xs IH]; intros n HM; [exists n, (Ok []); split; [auto|split; [apply same_refl|auto]]|].
  cbn [net_predict_all mapM]. destruct (predict_eval n x HM) as (n1 & o & E & HS). rewrite E. cbn [snd]. destruct o as [y| | | |]; cbn [step bind]; try (do 2 eexists; split; [reflexivity|split; auto]).
  destruct (IH n1 (same_mode false _ _ HS HM)) as (n2 & o2 & E2 & HS2 & EO). rewrite E2.
  assert (EQ : mapM (fun x => snd (net_predict n1 x)) xs = mapM (fun x => snd (net_predict n x)) xs) by (apply mapM_ext; intros; apply predict_same; auto).
  rewrite EQ in EO. pose proof (same_trans _ _ _ HS HS2) as HT.
  destruct o2 as [ys| | | |]; cbn [step]; (do 2 eexists; split; [reflexivity|]; split; [exact HT|]; rewrite <- EO; reflexivity).
Qed.

(** ** Modes *)
Lemma set_mode_in : forall m (l : layer), in_mode m (layer_set_mode m l).
Proof. intros m l. destruct l; cbn; unfold in_mode; cbn; auto. Qed.
Lemma set_mode_twice : forall m m' (l : layer), layer_set_mode m (layer_set_mode m' l) = layer_set_mode m l.
Proof. intros m m' l. destruct l; reflexivity. Qed.
Lemma net_mode_last : forall (ms : list bool) m (n : net), fold_left net_set_mode (ms ++ [m]) n = net_set_mode n m.
Proof.
  intros ms m. induction ms as [|m' ms IH]; intros n; [reflexivity|]. cbn [app fold_left]. rewrite IH. unfold net_set_mode, net_with. cbn [n_layers n_loss n_opt n_rng].
  rewrite map_map. f_equal. apply map_ext. intros. apply set_mode_twice.
Qed.
Lemma net_mode_in : forall m (n : net), net_in_mode m (net_set_mode n m).
Proof. intros m n. unfold net_in_mode, net_set_mode, net_with. cbn [n_layers]. apply Forall_forall. intros l HI. apply in_map_iff in HI. destruct HI as (l0 & <- & _). apply set_mode_in. Qed.
Lemma set_mode_params : forall m (l : layer), layer_params (layer_set_mode m l) = layer_params l /\ layer_grads (layer_set_mode m l) = layer_grads l.
Proof. intros m l. destruct l; cbn; auto. Qed.
Lemma net_mode_params : forall m (n : net), map layer_params (n_layers (net_set_mode n m)) = map layer_params (n_layers n) /\
  map layer_grads (n_layers (net_set_mode n m)) = map layer_grads (n_layers n) /\ n_loss (net_set_mode n m) = n_loss n /\ n_opt (net_set_mode n m) = n_opt n /\ n_rng (net_set_mode n m) = n_rng n.
Proof. intros m n. unfold net_set_mode, net_with. cbn [n_layers n_loss n_opt n_rng]. rewrite !map_map. split; [apply map_ext; intros l; apply set_mode_params|]. split; [apply map_ext; intros l; apply set_mode_params|auto]. Qed.

(** ** Training *)
Lemma good_one : forall v : T, good (t_fill (shape_of [1]) v) /\ tdims (t_fill (shape_of [1]) v) = [1].
Proof. intros v. split; [|reflexivity]. apply good_fill; [split; [discriminate|repeat constructor; lia]|vm_compute; discriminate]. Qed.
Definition unit_total (t : tensor T) : Prop := good t /\ tdims t = [1].
Lemma loss_unit : forall l (p t c : tensor T), loss_compute l p t = Ok c -> unit_total c.
Proof.
  assert (H1 : new_shape [1] = Ok (shape_of [1])) by (vm_compute; reflexivity).
  intros [|] p t c E; cbn [loss_compute] in E.
  - unfold mse_compute in E. destruct (mse_align p t); [|discriminate..]. cbn [bind] in E. destruct (t_sub p a); [|discriminate..]. cbn [bind] in E. destruct (t_mul a0 a0); [|discriminate..]. cbn [bind] in E.
    unfold t_sum in E. match type of E with context [for_ 0 ?n ?b ?s] => destruct (for_ 0 n b s) as [r| | | |] end; [|discriminate..]. cbn [bind] in E. rewrite H1 in E. cbn [bind] in E.
    unfold t_div_s in E. destruct (s_eq _ _); [discriminate|]. rewrite t_map_ok in E by apply good_one. injection E as <-. split; [|reflexivity]. apply good_tmap. apply good_one.
  - unfold cce_compute in E. destruct (negb _); [discriminate|]. destruct (rd (tdims p) 0); [|discriminate..]. cbn [bind] in E. destruct (rd (tdims p) 1); [|discriminate..]. cbn [bind] in E.
    match type of E with context [for_ 0 ?n ?b ?s] => destruct (for_ 0 n b s) as [r| | | |] end; [|discriminate..]. cbn [bind] in E. rewrite H1 in E. cbn [bind] in E. injection E as <-. apply good_one.
Qed.
Lemma total_add : forall a c : tensor T, unit_total a -> unit_total c -> exists a', t_binop_ip s_add false a c = (a', Ok tt) /\ unit_total a'.
Proof.
  intros a c (Ga & Ea) (Gc & Ec). rewrite (t_binop_ip_ok s_add a c [1] false Ga Gc); [|rewrite Ea, Ec; apply bcast_refl|rewrite Ea; reflexivity|discriminate].
  eexists. split; [reflexivity|]. split; [|exact Ea]. apply good_with; auto. rewrite (good_len _ Ga), Ea. reflexivity.
Qed.

Lemma train_sample_fit : forall (n : net) x t tot n', unit_total tot ->
  (forall tot', train_sample n x (Ok t) tot = (n', Ok tot') -> unit_total tot' /\ fit_one n x t n') /\
  (fit_one n x t n' -> exists tot', train_sample n x (Ok t) tot = (n', Ok tot') /\ unit_total tot').
Proof.
  intros n x t tot n' HU. unfold train_sample. split.
  - intros tot' E. destruct (net_predict n x) as (n1 & o) eqn:EP. destruct o as [p| | | |]; cbn [step] in E; try discriminate.
    destruct (n_loss n) as [l|] eqn:EL; [|discriminate]. cbn [bind] in E. destruct (loss_compute l p t) as [c| | | |] eqn:EC; cbn [bind step] in E; try discriminate.
    destruct (total_add tot c HU (loss_unit _ _ _ _ EC)) as (a' & EA & HA). rewrite EA in E. cbn [bind] in E. destruct (loss_gradient l p t) as [d| | | |] eqn:EG; cbn [bind step] in E; try discriminate.
    destruct (net_backward n1 d) as (n2 & r) eqn:EB. destruct r as [[]| | | |]; cbn [step] in E; try discriminate. destruct (net_update n2) as (n3 & r) eqn:EU. destruct r as [[]| | | |]; cbn [step] in E; try discriminate.
    injection E as <- <-. split; [auto|]. exists n1, n2, p, c, d, l. auto 10.
  - intros (n1 & n2 & p & c & d & l & E1 & E2 & E3 & E4 & E5 & E6). rewrite E1. cbn [step]. rewrite E2. cbn [bind]. rewrite E3. cbn [bind].
    destruct (total_add tot c HU (loss_unit _ _ _ _ E3)) as (a' & EA & HA). rewrite EA. cbn [bind]. rewrite E4. cbn [bind step]. rewrite E5. cbn [step]. rewrite E6. cbn [step]. eauto.
Qed.
Lemma rd_app : forall {A} (pre : list A) t ts, rd (pre ++ t :: ts) (Zlen pre) = Ok t.
Proof.
  intros A pre t ts. unfold rd. pose proof (Zlen_nonneg pre). replace (Zlen pre <? 0) with false by (symmetry; apply Z.ltb_ge; lia).
  replace (Z.to_nat (Zlen pre)) with (length pre) by (unfold Zlen; lia). rewrite nth_error_app2 by lia. rewrite Nat.sub_diag. reflexivity.
Qed.
Lemma train_samples_fit : forall xs ts pre (n : net) tot n', unit_total tot -> Zlen xs <= Zlen ts ->
  (forall tot', train_samples n xs (pre ++ ts) (Zlen pre) tot = (n', Ok tot') -> unit_total tot' /\ fit n (combine xs ts) n') /\
  (fit n (combine xs ts) n' -> exists tot', train_samples n xs (pre ++ ts) (Zlen pre) tot = (n', Ok tot') /\ unit_total tot').
Proof.
  induction xs as [|x xs IH]; intros ts pre n tot n' HU HL.
  - cbn [train_samples combine]. split.
    + intros tot' E. injection E as <- <-. split; [auto|constructor].
    + intros F. inversion F; subst. eauto.
  - destruct ts as [|t ts]; [unfold Zlen in HL; cbn in HL; lia|]. cbn [train_samples combine]. rewrite rd_app.
    assert (HL' : Zlen xs <= Zlen ts) by (unfold Zlen in *; cbn [length] in HL; lia).
    assert (EP : pre ++ t :: ts = (pre ++ [t]) ++ ts) by (rewrite <- app_assoc; reflexivity).
    assert (EZ : Zlen pre + 1 = Zlen (pre ++ [t])) by (unfold Zlen; rewrite app_length; cbn; lia).
    rewrite EP, EZ. split.
    + intros tot' E. destruct (train_sample n x (Ok t) tot) as (n1 & o) eqn:E1. destruct o as [tot1| | | |]; cbn [step] in E; try discriminate.
      destruct (proj1 (train_sample_fit n x t tot n1 HU) tot1 E1) as (HU1 & F1). destruct (proj1 (IH ts (pre ++ [t]) n1 tot1 n' HU1 HL') tot' E) as (HU2 & F2). split; [auto|]. econstructor; eauto.
    + intros F. inversion F as [|? ? ? n1 ? ? F1 F2]; subst. destruct (proj2 (train_sample_fit n x t tot n1 HU) F1) as (tot1 & E1 & HU1). rewrite E1. cbn [step].
      exact (proj2 (IH ts (pre ++ [t]) n1 tot1 n' HU1 HL') F2).
Qed.
Lemma train_epoch_fit : forall xs ts (n n' : net), Zlen xs <= Zlen ts -> s_eq (s_z (Zlen xs)) zero = false ->
  train_epoch n xs ts = (n', Ok tt) <-> fit n (combine xs ts) n'.
Proof.
  intros xs ts n n' HL HZ. unfold train_epoch. assert (H1 : new_shape [1] = Ok (shape_of [1])) by (vm_compute; reflexivity). rewrite H1. cbn [bind step].
  pose proof (train_samples_fit xs ts [] n _ n' (good_one zero) HL) as (A & B). cbn [app] in A, B. change (Zlen (@nil (tensor T))) with 0 in A, B. split.
  - intros E. destruct (train_samples n xs ts 0 (t_fill (shape_of [1]) zero)) as (n1 & o) eqn:ES. destruct o as [tot| | | |]; cbn [step] in E; try discriminate.
    unfold t_div_s in E. rewrite HZ in E. destruct (t_map _ tot); cbn [step] in E; try discriminate. injection E as <-. apply (A tot). auto.
  - intros F. destruct (B F) as (tot & ES & HU). rewrite ES. cbn [step]. unfold t_div_s. rewrite HZ. rewrite t_map_ok by apply HU. reflexivity.
Qed.
Lemma fit_app : forall a b (n n' : net), fit n (a ++ b) n' <-> exists m, fit n a m /\ fit m b n'.
Proof.
  induction a as [|(x & t) a IH]; intros b n n'; cbn [app].
  - split; [intros F; exists n; split; [constructor|auto]|intros (m & F1 & F2); inversion F1; subst; auto].
  - split.
    + intros F. inversion F as [|? ? ? n1 ? ? F1 F2]; subst. apply IH in F2. destruct F2 as (m & F2 & F3). exists m. split; [econstructor; eauto|auto].
    + intros (m & F & F3). inversion F as [|? ? ? n1 ? ? F1 F2]; subst. econstructor; [eauto|]. apply IH. eauto.
Qed.
Theorem train_fit : forall xs ts e (n n' : net), Zlen xs <= Zlen ts -> s_eq (s_z (Zlen xs)) zero = false ->
  net_train n xs ts e = (n', Ok tt) <-> fit n (concat (repeat (combine xs ts) (Z.to_nat e))) n'.
Proof.
  intros xs ts e n n' HL HZ. unfold net_train. generalize (Z.to_nat e). intros k. revert n. induction k as [|k IH]; intros n.
  - cbn. split; [intros E; injection E as <-; constructor|intros F; inversion F; reflexivity].
  - cbn [train_epochs repeat concat]. rewrite fit_app. split.
    + intros E. destruct (train_epoch n xs ts) as (n1 & o) eqn:E1. destruct o as [[]| | | |]; cbn [step] in E; try discriminate. apply train_epoch_fit in E1; auto. apply IH in E. eauto.
    + intros (m & F1 & F2). apply train_epoch_fit in F1; auto. rewrite F1. cbn [step]. apply IH. auto.
Qed.
(** The final network is determined by the samples. *)
Lemma fit_one_fun : forall (n : net) x t a b, fit_one n x t a -> fit_one n x t b -> a = b.
Proof.
  intros n x t a b (n1 & n2 & p & c & d & l & E1 & E2 & E3 & E4 & E5 & E6) (m1 & m2 & q & c' & d' & l' & F1 & F2 & F3 & F4 & F5 & F6).
  rewrite E1 in F1. injection F1 as <- <-. rewrite E2 in F2. injection F2 as <-. rewrite E4 in F4. injection F4 as <-. rewrite E5 in F5. injection F5 as <-. rewrite E6 in F6. injection F6 as <-. auto.
Qed.
Lemma fit_fun : forall (n : net) s a b, fit n s a -> fit n s b -> a = b.
Proof. intros n s a b F. revert b. induction F as [|n x t n1 r n2 F1 F2 IH]; intros b F; inversion F as [|? ? ? n3 ? ? G1 G2]; subst; [auto|]. apply IH. rewrite (fit_one_fun _ _ _ _ _ F1 G1). auto. Qed.
(** No epochs, no effect. *)
Lemma train_none : forall (n : net) xs ts e, e <= 0 -> net_train n xs ts e = (n, Ok tt).
Proof. intros n xs ts e HE. unfold net_train. replace (Z.to_nat e) with 0%nat by lia. reflexivity. Qed.
(** No samples: an exception from the average. *)
Lemma train_empty : forall (n : net) ts e, 0 < e -> s_eq (s_z 0) zero = true -> net_train n [] ts e = (n, Throw InvalidArgument).
Proof.
  intros n ts e HE HZ. unfold net_train. destruct (Z.to_nat e) eqn:EK; [lia|]. cbn [train_epochs]. unfold train_epoch. assert (H1 : new_shape [1] = Ok (shape_of [1])) by (vm_compute; reflexivity). rewrite H1. cbn [bind step train_samples].
  unfold t_div_s. change (Zlen (@nil (tensor T))) with 0. rewrite HZ. reflexivity.
Qed.
(** Too few targets: undefined behaviour once they run out (if training got that far). *)
Lemma train_samples_short : forall xs ts pre (n : net) tot x r m m', unit_total tot -> Zlen xs = Zlen ts -> fit n (combine xs ts) m -> n_loss m <> None ->
  (exists p, net_predict m x = (m', Ok p)) -> train_samples n (xs ++ x :: r) (pre ++ ts) (Zlen pre) tot = (m', UB).
Proof.
  induction xs as [|y xs IH]; intros ts pre n tot x r m m' HU HL F HLo (p & EP).
  - destruct ts; [|unfold Zlen in HL; cbn in HL; lia]. cbn [combine] in F. inversion F; subst. cbn [app train_samples]. rewrite app_nil_r.
    assert (ER : rd pre (Zlen pre) = UB) by (apply rd_ub; lia). rewrite ER.
    unfold train_sample. rewrite EP. cbn [step]. destruct (n_loss m); [|congruence]. reflexivity.
  - destruct ts as [|t ts]; [unfold Zlen in HL; cbn in HL; lia|]. cbn [app train_samples combine] in *. rewrite rd_app. inversion F as [|? ? ? n1 ? ? F1 F2]; subst.
    destruct (proj2 (train_sample_fit n y t tot n1 HU) F1) as (tot1 & E1 & HU1). rewrite E1. cbn [step].
    assert (EPr : pre ++ t :: ts = (pre ++ [t]) ++ ts) by (rewrite <- app_assoc; reflexivity).
    assert (EZ : Zlen pre + 1 = Zlen (pre ++ [t])) by (unfold Zlen; rewrite app_length; cbn; lia).
    rewrite EPr, EZ. apply (IH ts (pre ++ [t]) n1 tot1 x r m m'); auto; [unfold Zlen in *; cbn [length] in HL; lia|eauto].
Qed.
Theorem train_short : forall xs ts x r e (n m m' : net), 0 < e -> Zlen xs = Zlen ts -> fit n (combine xs ts) m -> n_loss m <> None ->
  (exists p, net_predict m x = (m', Ok p)) -> net_train n (xs ++ x :: r) ts e = (m', UB).
Proof.
  intros xs ts x r e n m m' HE HL F HLo HP. unfold net_train. destruct (Z.to_nat e) eqn:EK; [lia|]. cbn [train_epochs]. unfold train_epoch. assert (H1 : new_shape [1] = Ok (shape_of [1])) by (vm_compute; reflexivity). rewrite H1. cbn [bind step].
  pose proof (train_samples_short xs ts [] n (t_fill (shape_of [1]) zero) x r m m' (good_one zero) HL F HLo HP) as E. cbn [app] in E. change (Zlen (@nil (tensor T))) with 0 in E. rewrite E. reflexivity.
Qed.
(** Not compiled: a null loss function is called. *)
Theorem train_uncompiled : forall x xs ts e (n n1 : net) p, 0 < e -> n_loss n = None -> net_predict n x = (n1, Ok p) -> net_train n (x :: xs) ts e = (n1, UB).
Proof.
  intros x xs ts e n n1 p HE HL HP. unfold net_train. destruct (Z.to_nat e) eqn:EK; [lia|]. cbn [train_epochs]. unfold train_epoch. assert (H1 : new_shape [1] = Ok (shape_of [1])) by (vm_compute; reflexivity). rewrite H1. cbn [bind step train_samples].
  unfold train_sample. rewrite HP. cbn [step]. rewrite HL. reflexivity.
Qed.
(** A network made with addLayer only has no loss. *)
Lemma added_loss : forall (ls : list layer) (g : G), n_loss (fold_left net_add ls (net_new g)) = None.
Proof. intros ls g. assert (H : forall (n : net), n_loss n = None -> n_loss (fold_left net_add ls n) = None) by (induction ls as [|l ls IH]; intros n E; [exact E|]; cbn [fold_left]; apply IH; exact E). apply H. reflexivity. Qed.
Lemma train_never_compiled : forall (ls : list layer) (g : G) x xs ts e n1 p, 0 < e -> net_predict (fold_left net_add ls (net_new g)) x = (n1, Ok p) -> net_train (fold_left net_add ls (net_new g)) (x :: xs) ts e = (n1, UB).
Proof. intros ls g x xs ts e n1 p He E. eapply train_uncompiled; eauto. apply added_loss. Qed.
End S.
