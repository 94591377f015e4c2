(** * Kernels behind another convolution (C146) *)
From Verif Require Import Base Scalar Types Spec SpecNN SpecLayers SpecChan SpecDeep M_Shape M_Tensor M_Adv M_Act M_Loss M_Layers M_Reg M_Opt M_Net SpecNet
  L_Index L_Shape L_Tensor L_Nest L_Matmul L_AdvR L_Conv L_ActR L_Pool L_Pool2 L_Drop L_Net L_Net2 L_Train L_Chan L_KernF.
Local Open Scope Z_scope.
Local Open Scope list_scope.

Section S.
Context {T : Type} {S : Scalar T} {G : Type} {HR : Rng T G}.
Local Notation layer := (layer T).
Lemma deep_conv : forall ds l l' ds' (x : tensor T), accepts ds (LConv l) ds' -> first_kernel l l' -> good x -> tdims x = ds ->
  exists y y', snd (conv_forward l x) = Ok y /\ snd (conv_forward l' x) = Ok y' /\ tdims y = ds' /\ first_channel y y'.
Proof.
  intros ds l l' ds' x HA (E1 & E2 & E3 & E4 & GW' & EW' & GB' & EB' & HW & HB) Gx Ex.
  assert (HC : exists n h w, tdims x = [n; cv_ic l; h; w] /\ ds' = [n; cv_oc l; h - cv_kh l + 1; w - cv_kw l + 1] /\ conv_wf l /\ cv_kh l <= h /\ cv_kw l <= w /\ n * (cv_oc l * ((h - cv_kh l + 1) * (w - cv_kw l + 1))) <= INT_MAX).
  { inversion HA as [| | |n h w c0 GW EW GB EB Hh Hw HM| |]; subst. exists n, h, w. unfold conv_wf. auto 12. }
  destruct HC as (n & h & w & EX & -> & (GW & EW & GB & EB) & Hh & Hw & HM).
  rewrite (conv_forward_ok l x n h w) by (unfold conv_wf; auto). 
  assert (WF' : conv_wf l') by (unfold conv_wf; rewrite E1, E2, E3, E4, EW', EB'; auto).
  rewrite (conv_forward_ok l' x n h w) by (rewrite ?E1, ?E2, ?E3, ?E4; auto). cbn [snd]. rewrite E2, E3, E4.
  destruct (dims4_pos x _ _ _ _ Gx EX) as (Hn & Hic & Hh0 & Hw0 & HMx). destruct (dims4_pos _ _ _ _ _ GW EW) as (Hoc & _ & Hkh & Hkw & HMw).
  do 2 eexists. split; [reflexivity|]. split; [reflexivity|]. split; [reflexivity|].
  split; [apply good_4; lia|]. split; [apply good_4; lia|]. split; [reflexivity|].
  intros b i j HI. change (in_range [n; cv_oc l; h - cv_kh l + 1; w - cv_kw l + 1] [b; 0; i; j]) in HI. rewrite !el_tensor_of by exact HI. unfold fn4. cbn [nth]. unfold conv0. rewrite HB. f_equal. f_equal.
  apply map_ext_in. intros k HK. apply In_all_indices in HK; [|apply pos_forall; auto with idx]. apply in_range_2 in HK. destruct HK as (p & q & -> & Hp & Hq). unfold fn2. cbn [nth]. f_equal.
  apply HW. rewrite EW. apply in_range4; lia.
Qed.
Lemma find_max_chan : forall l (x x' : tensor T) b i j, first_channel x x' -> find_max l x' b 0 i j = find_max l x b 0 i j.
Proof.
  intros l x x' b i j HX. pose proof (chan_at x x' HX) as HA. destruct HX as (_ & _ & E & _). unfold find_max. rewrite E.
  destruct (chk32 (i * po_stride l)) as [p| | | |]; try reflexivity. cbn [bind]. destruct (chk32 (p - po_pad l)) as [i0| | | |]; try reflexivity. cbn [bind].
  destruct (chk32 (j * po_stride l)) as [q| | | |]; try reflexivity. cbn [bind]. destruct (chk32 (q - po_pad l)) as [j0| | | |]; try reflexivity. cbn [bind].
  destruct (rd (tdims x) 2) as [h| | | |]; try reflexivity. cbn [bind]. apply for_ext. intros a s _. destruct (rd (tdims x) 3) as [w| | | |]; try reflexivity. cbn [bind].
  apply for_ext. intros c ((mx & mh) & mw) _. rewrite HA. reflexivity.
Qed.
Lemma deep_mid : forall ds l ds' (x x' : tensor T) (g : G), accepts ds l ds' -> by_channel l -> first_channel x x' -> tdims x = ds ->
  exists k k' g' y y', layer_forward l x g = (k, g', Ok y) /\ layer_forward l x' g = (k', g', Ok y') /\ tdims y = ds' /\ first_channel y y'.
Proof.
  intros ds l ds' x x' g HA HB HX Ex. pose proof HX as (Gx & Gx' & ED & HC). destruct HA as [| ds a HS | | | n c h w l Hpad Hst Hsz Hh Hw | ds d HT]; try contradiction; cbn [by_channel] in HB.
  - cbn [layer_forward]. unfold act_forward. rewrite !act_fwd_el by auto. do 5 eexists. split; [reflexivity|]. split; [reflexivity|]. split; [exact Ex|]. rewrite ED.
    assert (GG : forall f : list Z -> T, good (tensor_of (tdims x) f)) by (intros f; apply good_tensor_of; [apply good_pos; auto|apply good_max; auto]).
    split; [apply GG|]. split; [apply GG|]. split; [reflexivity|]. intros b i j HI. change (in_range (tdims x) [b; 0; i; j]) in HI. rewrite !el_tensor_of by exact HI. rewrite HC by exact HI. reflexivity.
  - cbn [layer_forward]. rewrite (pool_forward_any l x n c h w) by auto. rewrite (pool_forward_any l x' n c h w) by (auto; congruence). do 5 eexists. split; [reflexivity|]. split; [reflexivity|]. split; [reflexivity|].
    destruct (pool_sizes l x n c h w Gx Ex Hst Hsz Hh Hw) as (P1 & P2 & P3 & P4 & P5 & _).
    split; [apply good_4; auto|]. split; [apply good_4; auto|]. split; [reflexivity|]. intros b i j HI.
    change (in_range [n; c; pool_extent (po_size l) (po_stride l) h; pool_extent (po_size l) (po_stride l) w] [b; 0; i; j]) in HI. rewrite !el_tensor_of by exact HI. unfold value. cbn [nth]. rewrite (find_max_chan l x x') by exact HX. reflexivity.
  - cbn [layer_forward]. destruct (dropout_train d x g HT Gx) as (r & g' & ER & Gr & Er & EF). destruct (dropout_train d x' g HT Gx') as (r' & g2 & ER' & _ & _ & EF'). rewrite ED, ER in ER'. injection ER' as <- <-.
    rewrite EF, EF'. do 5 eexists. split; [reflexivity|]. split; [reflexivity|]. split; [exact Ex|]. rewrite ED.
    assert (GG : forall f : list Z -> T, good (tensor_of (tdims x) f)) by (intros f; apply good_tensor_of; [apply good_pos; auto|apply good_max; auto]).
    split; [apply GG|]. split; [apply GG|]. split; [reflexivity|]. intros b i j HI. change (in_range (tdims x) [b; 0; i; j]) in HI. rewrite !el_tensor_of by exact HI. rewrite HC by exact HI. reflexivity.
Qed.
Lemma deep_mids : forall mid ds ds' (x x' : tensor T) (g : G), accepts_all ds mid ds' -> Forall by_channel mid -> first_channel x x' -> tdims x = ds ->
  exists k k' g' y y', forward_all mid x g = (k, g', Ok y) /\ forward_all mid x' g = (k', g', Ok y') /\ tdims y = ds' /\ first_channel y y'.
Proof.
  induction mid as [|l mid IH]; intros ds ds' x x' g HA HB HX Ex; inversion HA as [|? ? d1 ? ? H1 H2]; subst; cbn [forward_all]; [do 5 eexists; auto|].
  inversion HB as [|? ? B1 B2]; subst. destruct (deep_mid _ l d1 x x' g H1 B1 HX eq_refl) as (k & k' & g1 & y & y' & F & F' & Ey & HY).
  destruct (IH d1 ds' y y' g1 H2 B2 HY Ey) as (m & m' & g2 & z & z' & M1 & M2 & Ez & HZ). rewrite F, F', M1, M2. do 5 eexists. auto.
Qed.
Theorem deep_predict : forall (n n' : net T G) pre l l' mid l2 rest ds ds' (x : tensor T), n_layers n = pre ++ LConv l :: mid ++ LConv l2 :: rest -> n_layers n' = pre ++ LConv l' :: mid ++ LConv l2 :: rest ->
  first_kernel l l' -> Forall by_channel mid -> n_rng n' = n_rng n -> accepts_all ds (n_layers n) ds' -> good x -> tdims x = ds ->
  exists y, snd (net_predict n x) = Ok y /\ tdims y = ds' /\ snd (net_predict n' x) = Ok y.
Proof.
  intros n n' pre l l' mid l2 rest ds ds' x EN EN' HK HM ER HA Gx Ex. unfold net_predict. rewrite EN, EN', ER. rewrite EN in HA.
  apply kf_split in HA. destruct HA as (d1 & A1 & A2). inversion A2 as [|? ? d2 ? ? A3 A4]; subst. apply kf_split in A4. destruct A4 as (d3 & A4 & A5). inversion A5 as [|? ? d4 ? ? A6 A7]; subst.
  destruct (stack_chain accepts eq accepts_step' pre _ d1 x (n_rng n) A1 Gx eq_refl) as (p1 & g1 & y1 & F1 & G1 & E1 & _).
  destruct (deep_conv d1 l l' d2 y1 A3 HK G1 E1) as (y2 & y2' & F2 & F2' & E2 & C2).
  destruct (deep_mids mid d2 d3 y2 y2' g1 A4 HM C2 E2) as (k & k' & g3 & y3 & y3' & F3 & F3' & E3 & C3).
  destruct (accepts_step' _ _ _ y3 g3 A6 (proj1 C3) E3) as (c4 & g4 & y4 & F4 & G4 & E4 & _).
  destruct (stack_chain accepts eq accepts_step' rest d4 ds' y4 g4 A7 G4 E4) as (r1 & g5 & y5 & F5 & G5 & E5 & _).
  assert (F4' : exists c4', layer_forward (LConv l2) y3' g3 = (c4', g4, Ok y4)).
  { cbn [layer_forward] in *. unfold lift in *. assert (HQ : snd (conv_forward l2 y3') = snd (conv_forward l2 y3)).
    { inversion A6 as [| | |n0 h w c0 GW EW GB EB Hh Hw HMx| |]; subst. destruct C3 as (H3 & H3' & ED & HC).
      assert (EQ : tdims y3 = [n0; cv_ic l2; h; w]) by congruence. rewrite (conv_forward_ok l2 y3 n0 h w), (conv_forward_ok l2 y3' n0 h w) by (unfold conv_wf; auto; congruence). cbn [snd]. f_equal.
      destruct (dims4_pos y3 _ _ _ _ H3 EQ) as (Q1 & Q2 & Q3 & Q4 & Q5). destruct (dims4_pos _ _ _ _ _ GW EW) as (P1 & _ & P3 & P4 & _).
      apply tensor_of_ext; [apply pos_forall; auto with idx|]. intros idx HI. apply in_range_4 in HI. destruct HI as (b & o & i & j & -> & Hb & Ho & Hi & Hj). unfold fn4. cbn [nth]. unfold conv0. f_equal. f_equal.
      apply map_ext_in. intros u HU. apply In_all_indices in HU; [|apply pos_forall; auto with idx]. apply in_range_2 in HU. destruct HU as (p & q & -> & Hp & Hq). unfold fn2. cbn [nth]. f_equal.
      apply HC. rewrite EQ. apply in_range4; lia. }
    destruct (conv_forward l2 y3) as (a & o). destruct (conv_forward l2 y3') as (a' & o'). cbn [fst snd] in HQ, F4. rewrite HQ. injection F4 as _ <- ->. eexists. reflexivity. }
  destruct F4' as (c4' & F4'). cbn [layer_forward] in F2, F2'.
  assert (K2 : layer_forward (LConv l) y1 g1 = (LConv (fst (conv_forward l y1)), g1, Ok y2)) by (cbn [layer_forward]; unfold lift; rewrite <- F2; destruct (conv_forward l y1); reflexivity).
  assert (K2' : layer_forward (LConv l') y1 g1 = (LConv (fst (conv_forward l' y1)), g1, Ok y2')) by (cbn [layer_forward]; unfold lift; rewrite <- F2'; destruct (conv_forward l' y1); reflexivity).
  exists y5. rewrite !forward_app, F1. cbn [forward_all]. rewrite K2, K2', !forward_app, F3, F3'. cbn [forward_all]. rewrite F4, F4', F5. auto.
Qed.
End S.
