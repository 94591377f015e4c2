(** * Only the first channel is seen (C144) *)
From Verif Require Import Base Scalar Types Spec SpecChan M_Shape M_Tensor M_Adv M_Act M_Loss M_Layers M_Reg M_Opt M_Net L_Index L_Shape L_Tensor L_Nest L_Matmul L_Conv.
Local Open Scope Z_scope.

Lemma keep_loop_ext : forall {A St} (f g : A -> St -> St * outcome unit) l s, (forall a s, f a s = g a s) -> keep_loop f l s = keep_loop g l s.
Proof. intros A St f g l. induction l as [|a l IH]; intros s H; [reflexivity|]. cbn [keep_loop]. rewrite H. destruct (g a s) as (s1 & o). unfold step. destruct o; auto. Qed.
Section S.
Context {T : Type} {S : Scalar T} {G : Type} {HR : Rng T G}.
Lemma chan_at : forall x x' : tensor T, first_channel x x' -> forall b i j, t_at x' [b; 0; i; j] = t_at x [b; 0; i; j].
Proof.
  intros x x' (Gx & Gx' & E & H) b i j. destruct (in_range_dec (tdims x) [b; 0; i; j]) as [D|D].
  - rewrite !t_at_ok by (auto; rewrite E; auto). rewrite H by auto. reflexivity.
  - rewrite !t_at_fail by (auto; rewrite E; auto). rewrite E. reflexivity.
Qed.
Lemma chan_shape : forall x x' : tensor T, first_channel x x' -> tshape x' = tshape x.
Proof. intros x x' (Gx & Gx' & E & H). apply good_shape_eq; auto. Qed.
Lemma chan_forward : forall (l l' : conv T) x x', given l l' -> first_channel x x' -> snd (conv_forward l' x') = snd (conv_forward l x) /\ given (fst (conv_forward l x)) (fst (conv_forward l' x')).
Proof.
  intros l l' x x' (EL & HI) HX. pose proof (chan_at x x' HX) as HA. pose proof (chan_shape x x' HX) as HS. assert (HD : tdims x' = tdims x) by (unfold tdims; rewrite HS; reflexivity).
  unfold conv_forward. rewrite HS, HD. destruct (negb (rank (tshape x) =? 4)); [split; [reflexivity|split; auto]|].
  assert (EC : cv_ic l' = cv_ic l) by (rewrite EL; reflexivity). rewrite EC. unfold step. destruct (rd (tdims x) 1) as [c| | | |]; try (split; [reflexivity|split; auto]; fail).
  destruct (negb (c =? cv_ic l)); [split; [reflexivity|split; auto]|]. cbn [fst snd].
  assert (E1 : cv_w l' = cv_w l) by (rewrite EL; reflexivity). assert (E2 : cv_b l' = cv_b l) by (rewrite EL; reflexivity). assert (E3 : cv_oc l' = cv_oc l) by (rewrite EL; reflexivity).
  assert (E4 : cv_kh l' = cv_kh l) by (rewrite EL; reflexivity). assert (E5 : cv_kw l' = cv_kw l) by (rewrite EL; reflexivity).
  rewrite E1, E2, E3, E4, E5. split; [|split; [cbn; rewrite EL; reflexivity|exact HX]].
  destruct (rd (tdims x) 0) as [n| | | |]; try reflexivity. cbn [bind]. destruct (rd (tdims x) 2) as [h| | | |]; try reflexivity. cbn [bind]. destruct (rd (tdims x) 3) as [w| | | |]; try reflexivity. cbn [bind].
  destruct (chk32 (h - cv_kh l)) as [d| | | |]; try reflexivity. cbn [bind]. destruct (chk32 (d + 1)) as [oh| | | |]; try reflexivity. cbn [bind]. destruct (chk32 (w - cv_kw l)) as [d2| | | |]; try reflexivity. cbn [bind]. destruct (chk32 (d2 + 1)) as [ow| | | |]; try reflexivity. cbn [bind].
  destruct (new_shape [n; cv_oc l; oh; ow]) as [s| | | |]; try reflexivity. cbn [bind].
  apply for_ext. intros b o1 _. apply for_ext. intros o o2 _. apply for_ext. intros i o3 _. apply for_ext. intros j out _.
  match goal with |- bind ?a _ = bind ?b _ => replace a with b; [reflexivity|] end. apply for_ext. intros kh s1 _. apply for_ext. intros kw s2 _. rewrite HA. reflexivity.
Qed.
Lemma chan_backward : forall (l l' : conv T) d, given l l' -> snd (conv_backward l' d) = snd (conv_backward l d) /\ given (fst (conv_backward l d)) (fst (conv_backward l' d)).
Proof.
  intros l l' d (EL & HI). unfold conv_backward. destruct (cv_in l) as [x|] eqn:EI, (cv_in l') as [x'|] eqn:EI'; try contradiction.
  2:{ split; [reflexivity|]. split; cbn [fst]; [rewrite EI'; exact EL|rewrite EI, EI'; exact I]. }
  pose proof (chan_at x x' HI) as HA. pose proof (chan_shape x x' HI) as HS.
  assert (E1 : cv_w l' = cv_w l) by (rewrite EL; reflexivity). assert (E2 : cv_b l' = cv_b l) by (rewrite EL; reflexivity).
  assert (E4 : cv_kh l' = cv_kh l) by (rewrite EL; reflexivity). assert (E5 : cv_kw l' = cv_kw l) by (rewrite EL; reflexivity).
  assert (HG : forall gw gb, given (conv_with l gw gb) (conv_with l' gw gb)) by (intros gw gb; unfold conv_with; split; cbn; [rewrite EL; reflexivity|rewrite EI, EI'; exact HI]).
  rewrite E1, E2, E4, E5, HS. destruct (rd (tdims d) 2) as [gh| | | |]; cbn [bind step fst snd]; try (split; [reflexivity|apply HG]; fail). destruct (rd (tdims d) 3) as [gw| | | |]; cbn [bind step fst snd]; try (split; [reflexivity|apply HG]; fail).
  match goal with |- context [let (_, _) := ?k in _] => destruct k as (gb & o) end. destruct o as [u| | | |]; cbn [step fst snd]; try (split; [reflexivity|apply HG]; fail).
  match goal with |- context [keep_loop ?f (zrange 0 (cv_kh l)) (t_new (tshape (cv_w l)))] =>
    match f with context [t_at x' _] => match goal with |- context [keep_loop ?f2 (zrange 0 (cv_kh l)) (t_new (tshape (cv_w l)))] => match f2 with context [t_at x _] =>
      rewrite (keep_loop_ext f f2) by (intros kh s1; apply keep_loop_ext; intros kw s2; f_equal; match goal with |- bind ?a _ = bind ?b _ => replace a with b; [reflexivity|] end; apply for_ext; intros i s3 _; apply for_ext; intros j s4 _; rewrite HA; reflexivity) end end end end.
  match goal with |- context [let (_, _) := ?k in _] => destruct k as (gw2 & o2) end. destruct o2 as [u2| | | |]; cbn [step fst snd]; split; try reflexivity; apply HG.
Qed.
Lemma chan_predict : forall (n n' : net T G) x x', same_network n n' -> first_channel x x' -> snd (net_predict n' x') = snd (net_predict n x) /\ same_network (fst (net_predict n x)) (fst (net_predict n' x')).
Proof.
  intros n n' x x' (l & l' & r & E1 & E2 & HG & E3 & E4 & E5) HX. unfold net_predict. rewrite E1, E2, E5. cbn [forward_all layer_forward]. unfold lift.
  destruct (chan_forward l l' x x' HG HX) as (F1 & F2). destruct (conv_forward l x) as (k & o). destruct (conv_forward l' x') as (k' & o'). cbn [fst snd] in *. subst o'.
  destruct o as [y| | | |]; try (split; [reflexivity|]; exists k, k', r; cbn; auto 10; fail). destruct (forward_all r y (n_rng n)) as ((r' & g') & o). split; [reflexivity|]. exists k, k', r'. cbn. auto 10.
Qed.
Lemma chan_net_backward : forall (n n' : net T G) d, same_network n n' -> snd (net_backward n' d) = snd (net_backward n d) /\ same_network (fst (net_backward n d)) (fst (net_backward n' d)).
Proof.
  intros n n' d (l & l' & r & E1 & E2 & HG & E3 & E4 & E5). unfold net_backward. rewrite E1, E2. cbn [backward_all]. destruct (backward_all r d) as (r' & o).
  assert (Z : forall k k', given k k' -> forall o2 : outcome (tensor T),
    snd (step (net_with n' (LConv k' :: r')) o2 (fun _ => (net_with n' (LConv k' :: r'), Ok tt))) = snd (step (net_with n (LConv k :: r')) o2 (fun _ => (net_with n (LConv k :: r'), Ok tt))) /\
    same_network (fst (step (net_with n (LConv k :: r')) o2 (fun _ => (net_with n (LConv k :: r'), Ok tt)))) (fst (step (net_with n' (LConv k' :: r')) o2 (fun _ => (net_with n' (LConv k' :: r'), Ok tt))))).
  { intros k k' HK o2. destruct o2; cbn [step fst snd]; (split; [reflexivity|]); exists k, k', r'; cbn; auto 10. }
  destruct o as [d'| | | |]; try (apply Z; exact HG). cbn [layer_backward]. unfold lift.
  destruct (chan_backward l l' d' HG) as (F1 & F2). destruct (conv_backward l d') as (k & o). destruct (conv_backward l' d') as (k' & o'). cbn [fst snd] in *. subst o'. apply Z; auto.
Qed.
Lemma chan_update : forall (n n' : net T G), same_network n n' -> snd (net_update n') = snd (net_update n) /\ same_network (fst (net_update n)) (fst (net_update n')).
Proof.
  intros n n' (l & l' & r & E1 & E2 & HG & E3 & E4 & E5). unfold net_update. rewrite E1, E2, E4. destruct (n_opt n) as [o|] eqn:EO; [|split; [reflexivity|]; exists l, l', r; cbn [fst]; rewrite EO; auto 10].
  cbn [update_all layer_update]. pose proof HG as (EL & HI).
  assert (Z1 : cv_w l' = cv_w l) by (rewrite EL; reflexivity). assert (Z2 : cv_b l' = cv_b l) by (rewrite EL; reflexivity). assert (Z3 : cv_gw l' = cv_gw l) by (rewrite EL; reflexivity). assert (Z4 : cv_gb l' = cv_gb l) by (rewrite EL; reflexivity).
  rewrite Z1, Z2, Z3, Z4.
  assert (D : forall k k' o2, given k k' -> same_network (mkNet (LConv k :: r) (n_loss n) (Some o2) (n_rng n)) (mkNet (LConv k' :: r) (n_loss n') (Some o2) (n_rng n'))) by (intros k k' o2 HK; exists k, k', r; cbn; auto 10).
  destruct (cv_gw l) as [gw|] eqn:EW; [|split; [reflexivity|apply D; exact HG]]. destruct (cv_gb l) as [gb|] eqn:EB; [|split; [reflexivity|apply D; exact HG]].
  destruct (pair_optimize o 0 (cv_w l) (cv_b l) gw gb) as (((o' & w) & b) & e).
  set (k := mkConv w b (cv_in l) (Some gw) (Some gb) (cv_ic l) (cv_oc l) (cv_kh l) (cv_kw l) (cv_stride l) (cv_pad l) (cv_dil l)).
  set (k' := mkConv w b (cv_in l') (Some gw) (Some gb) (cv_ic l') (cv_oc l') (cv_kh l') (cv_kw l') (cv_stride l') (cv_pad l') (cv_dil l')).
  assert (HK : given k k') by (unfold k, k'; split; cbn; [rewrite EL; reflexivity|exact HI]). clearbody k k'.
  destruct e as [u| | | |]; try (split; [reflexivity|apply D; exact HK]; fail). destruct (update_all (0 + 1) r o') as ((r' & o2) & e). split; [reflexivity|]. exists k, k', r'. cbn. auto 10.
Qed.
Lemma chan_sample : forall (n n' : net T G) x x' t total, same_network n n' -> first_channel x x' -> snd (train_sample n' x' t total) = snd (train_sample n x t total) /\ same_network (fst (train_sample n x t total)) (fst (train_sample n' x' t total)).
Proof.
  intros n n' x x' t total HN HX. pose proof HN as (l & l' & r & E1 & E2 & HG & E3 & E4 & E5). unfold train_sample. rewrite E3. destruct (chan_predict n n' x x' HN HX) as (F1 & F2).
  destruct (net_predict n x) as (n1 & o). destruct (net_predict n' x') as (n1' & o'). cbn [fst snd] in F1, F2. subst o'. destruct o as [p| | | |]; cbn [step fst snd]; try (split; [reflexivity|exact F2]; fail).
  destruct (n_loss n) as [ls|]; [|split; [reflexivity|exact F2]]. match goal with |- context [step n1 ?m _] => destruct m as [(tot & d)| | | |] end; cbn [step fst snd]; try (split; [reflexivity|exact F2]; fail).
  destruct (chan_net_backward n1 n1' d F2) as (B1 & B2). destruct (net_backward n1 d) as (n2 & o). destruct (net_backward n1' d) as (n2' & o'). cbn [fst snd] in B1, B2. subst o'. destruct o as [u| | | |]; cbn [step fst snd]; try (split; [reflexivity|exact B2]; fail).
  destruct (chan_update n2 n2' B2) as (U1 & U2). destruct (net_update n2) as (n3 & o). destruct (net_update n2') as (n3' & o'). cbn [fst snd] in U1, U2. subst o'. destruct o; cbn [step fst snd]; split; try reflexivity; exact U2.
Qed.
Lemma chan_samples : forall xs xs' ts, Forall2 first_channel xs xs' -> forall (n n' : net T G) i total, same_network n n' ->
  snd (train_samples n' xs' ts i total) = snd (train_samples n xs ts i total) /\ same_network (fst (train_samples n xs ts i total)) (fst (train_samples n' xs' ts i total)).
Proof.
  intros xs xs' ts HF. induction HF as [|x x' xs xs' HX HF IH]; intros n n' i total HN; cbn [train_samples]; [split; [reflexivity|exact HN]|].
  destruct (chan_sample n n' x x' (rd ts i) total HN HX) as (F1 & F2). destruct (train_sample n x (rd ts i) total) as (n1 & o). destruct (train_sample n' x' (rd ts i) total) as (n1' & o'). cbn [fst snd] in F1, F2. subst o'.
  destruct o as [tot| | | |]; cbn [step fst snd]; try (split; [reflexivity|exact F2]; fail). apply IH; exact F2.
Qed.
Lemma chan_epoch : forall xs xs' ts, Forall2 first_channel xs xs' -> forall (n n' : net T G), same_network n n' -> snd (train_epoch n' xs' ts) = snd (train_epoch n xs ts) /\ same_network (fst (train_epoch n xs ts)) (fst (train_epoch n' xs' ts)).
Proof.
  intros xs xs' ts HF n n' HN. unfold train_epoch. match goal with |- context [step n ?m _] => destruct m as [tot| | | |] end; cbn [step fst snd]; try (split; [reflexivity|exact HN]; fail).
  destruct (chan_samples xs xs' ts HF n n' 0 tot HN) as (F1 & F2). destruct (train_samples n xs ts 0 tot) as (n1 & o). destruct (train_samples n' xs' ts 0 tot) as (n1' & o'). cbn [fst snd] in F1, F2. subst o'.
  assert (EZ : Zlen xs' = Zlen xs) by (clear - HF; induction HF; [reflexivity|rewrite !Zlen_cons; lia]). rewrite EZ.
  destruct o as [tot2| | | |]; cbn [step fst snd]; try (split; [reflexivity|exact F2]; fail). destruct (t_div_s tot2 (s_z (Zlen xs))); cbn [step fst snd]; split; try reflexivity; exact F2.
Qed.
Theorem chan_train : forall (n n' : net T G) xs xs' ts k, same_network n n' -> Forall2 first_channel xs xs' -> snd (net_train n' xs' ts k) = snd (net_train n xs ts k) /\ same_network (fst (net_train n xs ts k)) (fst (net_train n' xs' ts k)).
Proof.
  intros n n' xs xs' ts k HN HF. unfold net_train. revert n n' HN. generalize (Z.to_nat k) as m. induction m as [|m IH]; intros n n' HN; cbn [train_epochs]; [split; [reflexivity|exact HN]|].
  destruct (chan_epoch xs xs' ts HF n n' HN) as (F1 & F2). destruct (train_epoch n xs ts) as (n1 & o). destruct (train_epoch n' xs' ts) as (n1' & o'). cbn [fst snd] in F1, F2. subst o'. destruct o as [u| | | |]; cbn [step fst snd]; try (split; [reflexivity|exact F2]; fail). apply IH; exact F2.
Qed.
(** A network that has not been used yet. *)
Lemma same_new : forall (n : net T G) l r, n_layers n = LConv l :: r -> cv_in l = None -> same_network n n.
Proof. intros n l r E HI. exists l, l, r. repeat split; auto; [destruct l; reflexivity|rewrite HI; exact I]. Qed.
Theorem chan_history : forall (n : net T G) l r xs xs' ts k x x', n_layers n = LConv l :: r -> cv_in l = None -> Forall2 first_channel xs xs' -> first_channel x x' ->
  snd (net_train n xs' ts k) = snd (net_train n xs ts k) /\ snd (net_predict (fst (net_train n xs' ts k)) x') = snd (net_predict (fst (net_train n xs ts k)) x).
Proof.
  intros n l r xs xs' ts k x x' E HI HF HX. destruct (chan_train n n xs xs' ts k (same_new n l r E HI) HF) as (F1 & F2). split; [exact F1|]. apply chan_predict; auto.
Qed.
(** The gradient of all kernels but the first channel of the first kernel is 0. *)
Theorem chan_gradient : forall (l : conv T) x d n m h w o c p q, conv_wf l -> cv_in l = Some x -> good x -> good d -> tdims x = [n; cv_ic l; h; w] -> tdims d = [m; cv_oc l; h - cv_kh l + 1; w - cv_kw l + 1] ->
  0 <= o < cv_oc l -> 0 <= c < cv_ic l -> 0 <= p < cv_kh l -> 0 <= q < cv_kw l -> (o <> 0 \/ c <> 0) ->
  exists gw, cv_gw (fst (conv_backward l d)) = Some gw /\ el gw [o; c; p; q] = zero.
Proof.
  intros l x d n m h w o c p q HW EI Gx Gd Ex Ed Ho Hc Hp Hq HN. rewrite (conv_backward_ok l x d n m h w _ _ HW EI Gx Gd Ex Ed eq_refl eq_refl). cbn [fst cv_gw]. eexists. split; [reflexivity|].
  rewrite el_tensor_of by (apply in_range4; auto). unfold cgw. destruct o, c; try lia; reflexivity.
Qed.
End S.
