(** * Shapes and misuse of the layers *)
From Verif Require Import Base Scalar Types Spec SpecNN SpecLayers M_Shape M_Tensor M_Adv M_Act M_Loss M_Layers M_Reg M_Opt M_Net SpecNet
  L_Index L_Shape L_Bcast L_Tensor L_Nest L_Glue L_Matmul L_Adv L_Act L_ActR L_Loss L_Layers L_Conv L_Rows L_Pool L_Pool2 L_Drop L_BN.

Section S.
Context {T : Type} {S : Scalar T} {G : Type} {HR : Rng T G}.

Lemma drop_mask_facts : forall rate (r : tensor T), good r -> good (drop_mask rate r) /\ tdims (drop_mask rate r) = tdims r.
Proof. intros rate r Hg. unfold drop_mask. split; [apply good_tensor_of; [apply good_pos|apply good_max]; auto|reflexivity]. Qed.
Lemma act_fwd_shape : forall a (x : tensor T), good x -> (a = Softmax -> (2 <= length (tdims x))%nat) -> exists y, act_fwd a x = Ok y /\ good y /\ tdims y = tdims x.
Proof.
  intros a x Hg HS. assert (D : a = Softmax \/ a <> Softmax) by (destruct a; auto; right; discriminate). destruct D as [->|D].
  - specialize (HS eq_refl). destruct (tdims x) as [|b ds] eqn:E; [cbn in HS; lia|]. assert (ds <> []) by (destruct ds; [cbn in HS; lia|discriminate]).
    cbn [act_fwd]. rewrite (softmax_fwd_ok x b ds) by auto. eexists. split; [reflexivity|]. rewrite E. split; [|reflexivity]. apply good_tensor_of; rewrite <- E; [apply good_pos|apply good_max]; auto.
  - rewrite act_fwd_el by auto. eexists. split; [reflexivity|]. split; [apply good_tensor_of; [apply good_pos|apply good_max]; auto|reflexivity].
Qed.
Lemma act_bwd_shape : forall a (x d : tensor T), good x -> good d -> tdims d = tdims x -> (a = Softmax -> (2 <= length (tdims x))%nat) -> exists gx, act_bwd a x d = Ok gx /\ good gx /\ tdims gx = tdims x.
Proof.
  intros a x d Hg Hd E HS. assert (D : a = Softmax \/ a <> Softmax) by (destruct a; auto; right; discriminate). destruct D as [->|D].
  - specialize (HS eq_refl). destruct (tdims x) as [|b ds] eqn:Ex; [cbn in HS; lia|]. assert (ds <> []) by (destruct ds; [cbn in HS; lia|discriminate]).
    destruct (softmax_bwd_flat x d b ds) as (y & E1 & E2); auto; [rewrite E; auto|rewrite E, Ex; lia|]. cbn [act_bwd]. rewrite E2. eexists. split; [reflexivity|]. split; [|exact Ex].
    apply good_with; auto. pose proof (good_len _ Hg) as HL. rewrite Ex in HL. cbn [prod] in HL. rewrite HL. apply Zlen_ztab.
    pose proof (good_prod_pos _ Hg) as HP. rewrite Ex in HP. cbn [prod] in HP. lia.
  - rewrite act_bwd_el by auto. eexists. split; [reflexivity|]. split; [apply good_tensor_of; [apply good_pos|apply good_max]; auto|reflexivity].
Qed.

Theorem layer_shape : forall (l : layer T) (x : tensor T), handles l x -> shape_preserving (G := G) l x.
Proof.
  intros l x (Hg & HC) g. destruct l as [l|l|l|l|l|l|l]; cbn [layer_forward].
  - destruct HC as (k & o & n & W1 & W2 & W3 & W4 & Ex & HM). assert (HW : fc_wf l k o) by (split; auto).
    rewrite (fc_forward_2 l k o x n HW Hg Ex HM). unfold lift; cbn [fst snd]. do 3 eexists. split; [reflexivity|].
    assert (HP : pos_dims [n; o]) by (pose proof (good_pos _ Hg) as P1; pose proof (good_pos _ W1) as P2; rewrite Ex in P1; rewrite W2 in P2; destruct P1 as (_ & P1), P2 as (_ & P2); inversion P1; inversion P2 as [|? ? Q1 Q2]; inversion Q2; subst; split; [discriminate|repeat constructor; auto]).
    assert (HM2 : prod [n; o] <= INT_MAX) by (cbn [prod]; lia). split; [apply good_tensor_of; auto|]. intros d Hd Ed. change (tdims d = [n; o]) in Ed. cbn [layer_backward].
    rewrite (fc_backward_rows _ k o n x d x d); auto; [|unfold as_row, rank; fold (tdims x); rewrite Ex; reflexivity|unfold as_row, rank; fold (tdims d); rewrite Ed; reflexivity].
    do 2 eexists. split; [reflexivity|]. split; [|symmetry; exact Ex]. apply good_tensor_of; rewrite <- Ex; [apply good_pos|apply good_max]; auto.
  - unfold act_forward. destruct (act_fwd_shape (al_act l) x Hg HC) as (y & Ey & Gy & Dy). rewrite Ey. unfold lift; cbn [fst snd]. do 3 eexists. split; [reflexivity|]. split; [auto|]. intros d Hd Ed.
    cbn [layer_backward]. unfold act_backward. cbn [al_in al_act fst snd]. destruct (act_bwd_shape (al_act l) x d Hg Hd) as (gx & E1 & E2 & E3); [congruence|auto|]. rewrite E1. eauto.
  - destruct (tdims x) as [|b [|c ds]] eqn:Ex; [cbn in HC; lia..|]. assert (HN : ds <> []) by (destruct ds; [cbn in HC; lia|discriminate]).
    destruct (flatten_roundtrip l x b c ds Hg Ex HN) as (l' & y & E1 & E2 & E3 & _ & E4). rewrite E1. unfold lift; cbn [fst snd]. do 3 eexists. split; [reflexivity|]. split; [auto|]. intros d Hd Ed.
    destruct (E4 d Hd Ed) as (z & Z1 & Z2 & Z3 & _). cbn [layer_backward]. rewrite Z1. do 2 eexists. split; [reflexivity|]. split; [auto|]. rewrite <- Ex. auto.
  - destruct HC as (W1 & W2 & W3 & W4 & n & h & w & Ex & H1 & H2 & HM). assert (HW : conv_wf l) by (split; auto).
    rewrite (conv_forward_ok l x n h w HW Hg Ex H1 H2 HM). unfold lift; cbn [fst snd]. do 3 eexists. split; [reflexivity|].
    pose proof (good_pos _ Hg) as P1. pose proof (good_pos _ W1) as P2. rewrite Ex in P1. rewrite W2 in P2. destruct P1 as (_ & P1). destruct P2 as (_ & P2).
    assert (0 < n) by (inversion P1; auto). assert (0 < cv_oc l) by (inversion P2; auto).
    split; [apply good_4; auto; lia|]. intros d Hd Ed. cbn [layer_backward].
    rewrite (conv_backward_ok (conv_saw l x) x d n n h w (h - cv_kh l + 1) (w - cv_kw l + 1)); auto.
    do 2 eexists. split; [reflexivity|]. split; [|symmetry; exact Ex]. cbn [conv_saw cv_ic]. apply good_tensor_of; rewrite <- Ex; [apply good_pos|apply good_max]; auto.
  - destruct HC as (H1 & H2 & H3 & n & c & h & w & Ex & H4 & H5).
    destruct (pool_total l x n c h w Hg Ex H1 H2 H3 H4 H5) as (y & E1 & E2 & E3 & E4). rewrite E1. unfold lift; cbn [fst snd]. do 3 eexists. split; [reflexivity|]. split; [auto|]. intros d Hd Ed. 
    destruct (E4 d Hd ltac:(congruence)) as (gx & B1 & B2 & B3). cbn [layer_backward]. rewrite B1. eauto.
  - destruct (dropout_train l x g HC Hg) as (r & g' & _ & Gr & Er & EF). rewrite EF. do 3 eexists. split; [reflexivity|]. split; [apply good_tensor_of; [apply good_pos|apply good_max]; auto|]. intros d Hd Ed.
    change (tdims d = tdims x) in Ed. cbn [layer_backward]. unfold dropout_backward. cbn [dr_mask dr_train]. destruct (drop_mask_facts (dr_rate l) r Gr) as (Gm & Em).
    assert (EQ : tshape d = tshape (drop_mask (dr_rate l) r)) by (apply good_shape_eq; auto; congruence). rewrite EQ.
    assert (EB : shape_eqb (tshape (drop_mask (dr_rate l) r)) (tshape (drop_mask (dr_rate l) r)) = true) by (apply shape_eqb_dims; reflexivity). rewrite EB. cbn [negb].
    unfold t_mul. rewrite binop_same by (auto; congruence). do 2 eexists. split; [reflexivity|]. split; [apply good_tensor_of; [apply good_pos|apply good_max]; auto|exact Ed].
  - destruct HC.
Qed.

(** ** backward before forward *)
Theorem fresh_backward : forall (l : layer T) d, constructed (G := G) l -> layer_backward l d = (l, if checks_forward l then Throw RuntimeError else UB).
Proof.
  intros l d HC. destruct HC as [i o g g' l E|a| |ic oc kh kw s p d0 g g' l E|k s p|r|f eps mom l E]; cbn [layer_backward checks_forward].
  - unfold fc_new in E. destruct (f_rand _ _) as [(w & g1)| | | |]; try discriminate. cbn [bind] in E. destruct (f_zeros _); try discriminate. cbn [bind] in E. injection E as <- <-. reflexivity.
  - reflexivity.
  - reflexivity.
  - unfold conv_new in E. destruct (f_rand _ _) as [(w & g1)| | | |]; try discriminate. cbn [bind] in E. destruct (f_zeros _); try discriminate. cbn [bind] in E. injection E as <- <-. reflexivity.
  - reflexivity.
  - reflexivity.
  - rewrite (bn_backward_fresh f eps mom l d E). reflexivity.
Qed.
(** ** Exceptions to shape preservation *)
Lemma fc_vector : forall (l : fc T) k o (x : tensor T) (g : G), fc_wf l k o -> good x -> tdims x = [k] ->
  exists l1 y, layer_forward (LFC l) x g = (l1, g, Ok y) /\ tdims y = [o] /\
    forall d : tensor T, good d -> tdims d = tdims y -> exists l2 gx, layer_backward l1 d = (l2, Ok gx) /\ tdims gx = [1; k].
Proof.
  intros l k o x g HW Hg Ex. cbn [layer_forward]. rewrite (fc_forward_1 l k o x HW Hg Ex). unfold lift; cbn [fst snd]. do 2 eexists. split; [reflexivity|]. split; [reflexivity|]. intros d Gd Ed. change (tdims d = [o]) in Ed.
  destruct (fc_backward_vec (mkFC (fc_w l) (fc_b l) (Some x) (fc_gw l) (fc_gb l)) k o x d) as (gw & gb & gx & E & _ & _ & _ & _ & _ & E2); auto. cbn [layer_backward]. rewrite E. eauto.
Qed.
Lemma flat_rank2_ub : forall (x d : tensor T) b f (g : G), tdims x = [b; f] -> exists l1, layer_forward (LFlat flatten_new) x g = (l1, g, Ok x) /\ snd (layer_backward l1 d) = UB.
Proof. intros x d b f g E. destruct (flatten_rank2 x d b f E) as (E1 & E2). cbn [layer_forward]. rewrite E1. unfold lift; cbn [fst snd]. eexists. split; [reflexivity|]. cbn [layer_backward snd]. exact E2. Qed.
Lemma drop_eval_ub : forall rate (x d : tensor T) (g : G), exists l1, layer_forward (LDrop (dropout_set_mode (dropout_new rate) false)) x g = (l1, g, Ok x) /\ snd (layer_backward l1 d) = UB.
Proof. intros. eexists. split; reflexivity. Qed.
Lemma bn_train_ub : forall f (l : bn T) (x d : tensor T) (g : G), bn_rows f l -> bn_train l = true -> good x -> featured f (tdims x) -> f * f <= INT_MAX -> good d -> tdims d = tdims x ->
  exists l1 o, layer_forward (LBN l) x g = (l1, g, o) /\ snd (layer_backward l1 d) = UB.
Proof.
  intros f l x d g H1 H2 H3 H4 H5 H6 H7. cbn [layer_forward]. unfold lift. do 2 eexists. split; [reflexivity|]. cbn [layer_backward]. pose proof (bn_backward_after f l x d H1 H2 H3 H4 H5 H6 H7) as H.
  destruct (bn_backward (fst (bn_forward l x)) d). exact H.
Qed.
End S.
