(** * The settings of a convolution are never looked at (C147) *)
From Verif Require Import Base Scalar Types Spec SpecSettings M_Shape M_Tensor M_Adv M_Act M_Loss M_Layers M_Reg M_Opt M_Net.
Local Open Scope Z_scope.

Section S.
Context {T : Type} {S : Scalar T} {G : Type} {HR : Rng T G}.
Lemma sett_forward : forall (l l' : conv T) x, other_settings l l' -> snd (conv_forward l' x) = snd (conv_forward l x) /\ other_settings (fst (conv_forward l x)) (fst (conv_forward l' x)).
Proof.
  intros l l' x H. pose proof H as (s & p & d & ->). unfold conv_forward. cbn [cv_w cv_b cv_in cv_gw cv_gb cv_ic cv_oc cv_kh cv_kw cv_stride cv_pad cv_dil].
  destruct (negb (rank (tshape x) =? 4)); [split; [reflexivity|exact H]|]. destruct (rd (tdims x) 1) as [c| | | |]; cbn [step fst snd]; try (split; [reflexivity|exact H]; fail).
  destruct (negb (c =? cv_ic l)); [split; [reflexivity|exact H]|]. split; [reflexivity|]. exists s, p, d. reflexivity.
Qed.
Lemma sett_backward : forall (l l' : conv T) g, other_settings l l' -> snd (conv_backward l' g) = snd (conv_backward l g) /\ other_settings (fst (conv_backward l g)) (fst (conv_backward l' g)).
Proof.
  intros l l' g H. pose proof H as (s & p & d & ->). unfold conv_backward. cbn [cv_w cv_b cv_in cv_gw cv_gb cv_ic cv_oc cv_kh cv_kw cv_stride cv_pad cv_dil].
  destruct (cv_in l) as [x|] eqn:EI; [|split; [reflexivity|cbn [fst]; exists s, p, d; rewrite EI; reflexivity]].
  assert (HG : forall gw gb, other_settings (conv_with l gw gb) (conv_with (mkConv (cv_w l) (cv_b l) (Some x) (cv_gw l) (cv_gb l) (cv_ic l) (cv_oc l) (cv_kh l) (cv_kw l) s p d) gw gb)) by (intros gw gb; exists s, p, d; unfold conv_with; cbn; rewrite EI; reflexivity).
  match goal with |- context [step (conv_with l _ _) ?m _] => destruct m as [(gh & gwd)| | | |] end; cbn [step fst snd]; try (split; [reflexivity|apply HG]; fail).
  match goal with |- context [let (_, _) := ?k in _] => destruct k as (gb & o) end. destruct o as [u| | | |]; cbn [step fst snd]; try (split; [reflexivity|apply HG]; fail).
  match goal with |- context [let (_, _) := ?k in _] => destruct k as (gw & o2) end. destruct o2 as [u2| | | |]; cbn [step fst snd]; split; try reflexivity; apply HG.
Qed.
Lemma sett_layer : forall (l l' : layer T) x (g : G), same_layer l l' ->
  snd (layer_forward l' x g) = snd (layer_forward l x g) /\ snd (fst (layer_forward l' x g)) = snd (fst (layer_forward l x g)) /\ same_layer (fst (fst (layer_forward l x g))) (fst (fst (layer_forward l' x g))).
Proof.
  intros l l' x g [->|(c & c' & -> & -> & H)]; [split; [reflexivity|split; [reflexivity|left; reflexivity]]|]. cbn [layer_forward]. unfold lift. destruct (sett_forward c c' x H) as (F1 & F2).
  destruct (conv_forward c x) as (k & o). destruct (conv_forward c' x) as (k' & o'). cbn [fst snd] in *. split; [exact F1|]. split; [reflexivity|]. right. eauto.
Qed.
Lemma sett_layer_back : forall (l l' : layer T) d, same_layer l l' -> snd (layer_backward l' d) = snd (layer_backward l d) /\ same_layer (fst (layer_backward l d)) (fst (layer_backward l' d)).
Proof.
  intros l l' d [->|(c & c' & -> & -> & H)]; [split; [reflexivity|left; reflexivity]|]. cbn [layer_backward]. unfold lift. destruct (sett_backward c c' d H) as (F1 & F2).
  destruct (conv_backward c d) as (k & o). destruct (conv_backward c' d) as (k' & o'). cbn [fst snd] in *. split; [exact F1|]. right. eauto.
Qed.
Lemma sett_layer_update : forall i (l l' : layer T) o, same_layer l l' ->
  snd (layer_update i l' o) = snd (layer_update i l o) /\ snd (fst (layer_update i l' o)) = snd (fst (layer_update i l o)) /\ same_layer (fst (fst (layer_update i l o))) (fst (fst (layer_update i l' o))).
Proof.
  intros i l l' o [->|(c & c' & -> & -> & H)]; [split; [reflexivity|split; [reflexivity|left; reflexivity]]|]. pose proof H as (s & p & d & ->). cbn [layer_update cv_w cv_b cv_in cv_gw cv_gb cv_ic cv_oc cv_kh cv_kw cv_stride cv_pad cv_dil].
  assert (HS : forall A B : conv T, other_settings A B -> same_layer (LConv A) (LConv B)) by (intros A B HAB; right; exists A, B; auto).
  destruct (cv_gw c) as [gw|] eqn:E1; [|split; [reflexivity|split; [reflexivity|apply HS; exact H || (exists s, p, d; rewrite E1; reflexivity)]]].
  destruct (cv_gb c) as [gb|] eqn:E2; [|split; [reflexivity|split; [reflexivity|apply HS; exact H || (exists s, p, d; rewrite E1, E2; reflexivity)]]].
  destruct (pair_optimize o i (cv_w c) (cv_b c) gw gb) as (((o' & w) & b) & e). cbn [fst snd]. split; [reflexivity|]. split; [reflexivity|]. apply HS. exists s, p, d. reflexivity.
Qed.
Lemma sett_forward_all : forall (ls ls' : list (layer T)), Forall2 same_layer ls ls' -> forall x (g : G), snd (forward_all ls' x g) = snd (forward_all ls x g) /\
  snd (fst (forward_all ls' x g)) = snd (fst (forward_all ls x g)) /\ Forall2 same_layer (fst (fst (forward_all ls x g))) (fst (fst (forward_all ls' x g))).
Proof.
  intros ls ls' H. induction H as [|l l' r r' HL HF IH]; intros x g; cbn [forward_all]; [split; [reflexivity|split; [reflexivity|constructor]]|]. destruct (sett_layer l l' x g HL) as (F1 & F2 & F3).
  destruct (layer_forward l x g) as ((k & g1) & o). destruct (layer_forward l' x g) as ((k' & g1') & o'). cbn [fst snd] in F1, F2, F3. subst o' g1'.
  destruct o as [y| | | |]; try (cbn [fst snd]; auto; fail). specialize (IH y g1). destruct (forward_all r y g1) as ((r1 & g2) & o). destruct (forward_all r' y g1) as ((r1' & g2') & o'). cbn [fst snd] in *. destruct IH as (-> & -> & IH). auto.
Qed.
Lemma sett_backward_all : forall (ls ls' : list (layer T)), Forall2 same_layer ls ls' -> forall d, snd (backward_all ls' d) = snd (backward_all ls d) /\ Forall2 same_layer (fst (backward_all ls d)) (fst (backward_all ls' d)).
Proof.
  intros ls ls' H. induction H as [|l l' r r' HL HF IH]; intros d; cbn [backward_all]; [split; [reflexivity|constructor]|]. specialize (IH d). destruct (backward_all r d) as (r1 & o). destruct (backward_all r' d) as (r1' & o'). cbn [fst snd] in IH. destruct IH as (-> & IH).
  destruct o as [g1| | | |]; try (cbn [fst snd]; auto; fail). destruct (sett_layer_back l l' g1 HL) as (F1 & F2). destruct (layer_backward l g1) as (k & o). destruct (layer_backward l' g1) as (k' & o'). cbn [fst snd] in *. auto.
Qed.
Lemma sett_update_all : forall (ls ls' : list (layer T)), Forall2 same_layer ls ls' -> forall i o, snd (update_all i ls' o) = snd (update_all i ls o) /\
  snd (fst (update_all i ls' o)) = snd (fst (update_all i ls o)) /\ Forall2 same_layer (fst (fst (update_all i ls o))) (fst (fst (update_all i ls' o))).
Proof.
  intros ls ls' H. induction H as [|l l' r r' HL HF IH]; intros i o; cbn [update_all]; [split; [reflexivity|split; [reflexivity|constructor]]|]. destruct (sett_layer_update i l l' o HL) as (F1 & F2 & F3).
  destruct (layer_update i l o) as ((k & o1) & e). destruct (layer_update i l' o) as ((k' & o1') & e'). cbn [fst snd] in F1, F2, F3. subst e' o1'.
  destruct e as [u| | | |]; try (cbn [fst snd]; auto; fail). specialize (IH (i + 1) o1). destruct (update_all (i + 1) r o1) as ((r1 & o2) & e). destruct (update_all (i + 1) r' o1) as ((r1' & o2') & e'). cbn [fst snd] in *. destruct IH as (-> & -> & IH). auto.
Qed.
Lemma sett_predict : forall (n n' : net T G) x, same_but_settings n n' -> snd (net_predict n' x) = snd (net_predict n x) /\ same_but_settings (fst (net_predict n x)) (fst (net_predict n' x)).
Proof.
  intros n n' x (HF & E1 & E2 & E3). unfold net_predict. rewrite E3. destruct (sett_forward_all _ _ HF x (n_rng n)) as (F1 & F2 & F3). destruct (forward_all (n_layers n) x (n_rng n)) as ((k & g1) & o). destruct (forward_all (n_layers n') x (n_rng n)) as ((k' & g1') & o').
  cbn [fst snd] in *. split; [exact F1|]. unfold same_but_settings. cbn. auto.
Qed.
Lemma sett_net_backward : forall (n n' : net T G) d, same_but_settings n n' -> snd (net_backward n' d) = snd (net_backward n d) /\ same_but_settings (fst (net_backward n d)) (fst (net_backward n' d)).
Proof.
  intros n n' d (HF & E1 & E2 & E3). unfold net_backward. destruct (sett_backward_all _ _ HF d) as (F1 & F2). destruct (backward_all (n_layers n) d) as (k & o). destruct (backward_all (n_layers n') d) as (k' & o'). cbn [fst snd] in *. subst o'.
  destruct o; cbn [step fst snd]; (split; [reflexivity|]); unfold same_but_settings, net_with; cbn; auto.
Qed.
Lemma sett_update : forall (n n' : net T G), same_but_settings n n' -> snd (net_update n') = snd (net_update n) /\ same_but_settings (fst (net_update n)) (fst (net_update n')).
Proof.
  intros n n' HN. pose proof HN as (HF & E1 & E2 & E3). unfold net_update. rewrite E2. destruct (n_opt n) as [o|].
  - destruct (sett_update_all _ _ HF 0 o) as (F1 & F2 & F3).
    destruct (n_layers n) as [|l r], (n_layers n') as [|l' r']; try (inversion HF; fail); [split; [reflexivity|exact HN]|].
    destruct (update_all 0 (l :: r) o) as ((k & o1) & e). destruct (update_all 0 (l' :: r') o) as ((k' & o1') & e'). cbn [fst snd] in *. subst. split; [reflexivity|]. unfold same_but_settings. cbn. auto.
  - destruct (n_layers n) as [|l r], (n_layers n') as [|l' r']; try (inversion HF; fail); split; try reflexivity; exact HN.
Qed.
Lemma sett_sample : forall (n n' : net T G) x t total, same_but_settings n n' -> snd (train_sample n' x t total) = snd (train_sample n x t total) /\ same_but_settings (fst (train_sample n x t total)) (fst (train_sample n' x t total)).
Proof.
  intros n n' x t total HN. pose proof HN as (_ & E3 & _). unfold train_sample. rewrite E3. destruct (sett_predict n n' x HN) as (F1 & F2).
  destruct (net_predict n x) as (n1 & o). destruct (net_predict n' x) as (n1' & o'). cbn [fst snd] in F1, F2. subst o'. destruct o as [p| | | |]; cbn [step fst snd]; try (split; [reflexivity|exact F2]; fail).
  destruct (n_loss n) as [ls|]; [|split; [reflexivity|exact F2]]. match goal with |- context [step n1 ?m _] => destruct m as [(tot & d)| | | |] end; cbn [step fst snd]; try (split; [reflexivity|exact F2]; fail).
  destruct (sett_net_backward n1 n1' d F2) as (B1 & B2). destruct (net_backward n1 d) as (n2 & o). destruct (net_backward n1' d) as (n2' & o'). cbn [fst snd] in B1, B2. subst o'. destruct o as [u| | | |]; cbn [step fst snd]; try (split; [reflexivity|exact B2]; fail).
  destruct (sett_update n2 n2' B2) as (U1 & U2). destruct (net_update n2) as (n3 & o). destruct (net_update n2') as (n3' & o'). cbn [fst snd] in U1, U2. subst o'. destruct o; cbn [step fst snd]; split; try reflexivity; exact U2.
Qed.
Lemma sett_samples : forall xs ts (n n' : net T G) i total, same_but_settings n n' ->
  snd (train_samples n' xs ts i total) = snd (train_samples n xs ts i total) /\ same_but_settings (fst (train_samples n xs ts i total)) (fst (train_samples n' xs ts i total)).
Proof.
  intros xs ts. induction xs as [|x xs IH]; intros n n' i total HN; cbn [train_samples]; [split; [reflexivity|exact HN]|].
  destruct (sett_sample n n' x (rd ts i) total HN) as (F1 & F2). destruct (train_sample n x (rd ts i) total) as (n1 & o). destruct (train_sample n' x (rd ts i) total) as (n1' & o'). cbn [fst snd] in F1, F2. subst o'.
  destruct o as [tot| | | |]; cbn [step fst snd]; try (split; [reflexivity|exact F2]; fail). apply IH; exact F2.
Qed.
Lemma sett_epoch : forall xs ts (n n' : net T G), same_but_settings n n' -> snd (train_epoch n' xs ts) = snd (train_epoch n xs ts) /\ same_but_settings (fst (train_epoch n xs ts)) (fst (train_epoch n' xs ts)).
Proof.
  intros xs ts n n' HN. unfold train_epoch. match goal with |- context [step n ?m _] => destruct m as [tot| | | |] end; cbn [step fst snd]; try (split; [reflexivity|exact HN]; fail).
  destruct (sett_samples xs ts n n' 0 tot HN) as (F1 & F2). destruct (train_samples n xs ts 0 tot) as (n1 & o). destruct (train_samples n' xs ts 0 tot) as (n1' & o'). cbn [fst snd] in F1, F2. subst o'.
  destruct o as [tot2| | | |]; cbn [step fst snd]; try (split; [reflexivity|exact F2]; fail). destruct (t_div_s tot2 (s_z (Zlen xs))); cbn [step fst snd]; split; try reflexivity; exact F2.
Qed.
Theorem sett_train : forall (n n' : net T G) xs ts k, same_but_settings n n' -> snd (net_train n' xs ts k) = snd (net_train n xs ts k) /\ same_but_settings (fst (net_train n xs ts k)) (fst (net_train n' xs ts k)).
Proof.
  intros n n' xs ts k HN. unfold net_train. revert n n' HN. generalize (Z.to_nat k) as m. induction m as [|m IH]; intros n n' HN; cbn [train_epochs]; [split; [reflexivity|exact HN]|].
  destruct (sett_epoch xs ts n n' HN) as (F1 & F2). destruct (train_epoch n xs ts) as (n1 & o). destruct (train_epoch n' xs ts) as (n1' & o'). cbn [fst snd] in F1, F2. subst o'. destruct o as [u| | | |]; cbn [step fst snd]; try (split; [reflexivity|exact F2]; fail). apply IH; exact F2.
Qed.
Theorem sett_predict_all : forall xs (n n' : net T G), same_but_settings n n' -> snd (net_predict_all n' xs) = snd (net_predict_all n xs) /\ same_but_settings (fst (net_predict_all n xs)) (fst (net_predict_all n' xs)).
Proof.
  induction xs as [|x xs IH]; intros n n' HN; cbn [net_predict_all]; [split; [reflexivity|exact HN]|]. destruct (sett_predict n n' x HN) as (F1 & F2). destruct (net_predict n x) as (n1 & o). destruct (net_predict n' x) as (n1' & o'). cbn [fst snd] in F1, F2. subst o'.
  destruct o as [y| | | |]; cbn [step fst snd]; try (split; [reflexivity|exact F2]; fail). destruct (IH n1 n1' F2) as (A & B). destruct (net_predict_all n1 xs) as (n2 & o). destruct (net_predict_all n1' xs) as (n2' & o'). cbn [fst snd] in A, B. subst o'.
  destruct o; cbn [step fst snd]; split; try reflexivity; exact B.
Qed.
End S.
