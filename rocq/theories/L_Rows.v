(** * Training on a single non-batched sample *)
From Verif Require Import Base Scalar Types Spec M_Shape M_Tensor M_Adv M_Act M_Layers SpecNN
  L_Index L_Shape L_Bcast L_Tensor L_Reduce L_Tensor2 L_Glue L_Nest L_Matmul L_Axes L_Adv L_Act L_ActR L_Layers L_Conv.

Section S.
Context {T : Type} {S : Scalar T}.

Lemma bcast_vec_row : forall m, bcast [m] [1; m] [1; m].
Proof.
  intros m. split; [reflexivity|]. intros i Hi. cbn in Hi. destruct i as [|[|i]]; [| |lia]; cbn; unfold compatible; lia.
Qed.
Lemma binop_vec_row : forall f (d g : tensor T) m, good d -> good g -> tdims d = [m] -> tdims g = [1; m] ->
  t_binop f d g = Ok (tensor_of [1; m] (fn2 (fun _ j => f (el d [j]) (el g [0; j])))).
Proof.
  intros f d g m Hd Hg Ed Eg. destruct (dims1_pos d m Hd Ed) as (Hm & HM). rewrite (t_binop_ok f d g [1; m]); auto.
  - f_equal. apply tensor_of_ext; [apply pos_forall; auto with idx|]. intros idx HI. apply in_range_2 in HI. destruct HI as (i & j & -> & Hi & Hj).
    replace i with 0 by lia. unfold bel, fn2. cbn [nth]. rewrite Ed, Eg. rewrite (bproj_id [1; m]) by auto with idx. f_equal.
    f_equal. cbv [bproj length Nat.sub skipn combine map fst snd]. destruct (Z.eqb_spec m 1); [|reflexivity]. f_equal. lia.
  - rewrite Ed, Eg. apply bcast_vec_row.
  - simpl. lia.
Qed.

Definition spreads (a : act T) : bool := match a with ReLU | Sigmoid | Tanh => true | _ => false end.
Lemma act_bwd_vec_row : forall a (x g : tensor T) m, spreads a = true -> good x -> good g -> tdims x = [m] -> tdims g = [1; m] ->
  act_bwd a x g = Ok (tensor_of [1; m] (fn2 (fun _ j => act_del a (el x [j]) (el g [0; j])))).
Proof.
  intros a x g m Ha Gx Gg Ex Eg. destruct (dims1_pos x m Gx Ex) as (Hm & HM).
  assert (HT : forall f : list Z -> T, good (tensor_of [m] f)) by (intros; apply good_tensor_of; [auto with idx|simpl; lia]).
  assert (HEX : forall f f' : Z -> T, (forall j, 0 <= j < m -> f j = f' j) -> @Ok (tensor T) (tensor_of [1; m] (fn2 (fun _ j => f j))) = Ok (tensor_of [1; m] (fn2 (fun _ j => f' j)))).
  { intros f f' H. f_equal. apply tensor_of_ext; [apply pos_forall; auto with idx|]. intros idx HI. apply in_range_2 in HI. destruct HI as (i & j & -> & Hi & Hj). unfold fn2. cbn [nth]. auto. }
  destruct a; try discriminate; cbn [act_bwd].
  - unfold relu_bwd. rewrite apply_ok by auto. rewrite Ex. cbn [bind]. unfold t_mul. rewrite (binop_vec_row _ _ g m) by auto. apply HEX.
    intros j Hj. rewrite el_tensor_of by auto with idx. reflexivity.
  - unfold sigmoid_bwd, sigmoid_fwd. rewrite apply_ok by auto. rewrite Ex. cbn [bind]. destruct (scalar_ops _ one (HT (fun i => sigm (el x i)))) as (_ & _ & _ & _ & _ & E & _).
    rewrite E. cbn [bind]. change (tdims (tensor_of [m] ?f)) with [m]. unfold t_mul. rewrite binop_same; auto. cbn [bind]. change (tdims (tensor_of [m] ?f)) with [m]. rewrite (binop_vec_row _ _ g m) by auto. apply HEX.
    intros j Hj. rewrite !el_tensor_of by auto with idx. reflexivity.
  - unfold tanh_bwd. rewrite apply_ok by auto. rewrite Ex. cbn [bind]. unfold t_mul. rewrite (binop_vec_row _ _ g m) by auto. apply HEX.
    intros j Hj. rewrite el_tensor_of by auto with idx. reflexivity.
Qed.

(** Forward through fully connected, activation, fully connected. *)
Lemma chain_forward : forall a l1 l3 k m o (x : tensor T), a <> Softmax -> fc_wf l1 k m -> fc_wf l3 m o -> good x -> tdims x = [k] ->
  exists y1 y2 y3, fc_forward l1 x = (mkFC (fc_w l1) (fc_b l1) (Some x) (fc_gw l1) (fc_gb l1), Ok y1) /\ good y1 /\ tdims y1 = [m] /\
    act_fwd a y1 = Ok y2 /\ good y2 /\ tdims y2 = [m] /\
    fc_forward l3 y2 = (mkFC (fc_w l3) (fc_b l3) (Some y2) (fc_gw l3) (fc_gb l3), Ok y3) /\ good y3 /\ tdims y3 = [o].
Proof.
  intros a l1 l3 k m o x Ha W1 W3 Gx Ex. pose proof W1 as (G1 & E1 & _). pose proof W3 as (G3 & E3 & _).
  destruct (dims2_pos _ _ _ G1 E1) as (Hk & Hm & M1). destruct (dims2_pos _ _ _ G3 E3) as (_ & Ho & M3).
  assert (HG : forall d (f : list Z -> T), 0 < d <= INT_MAX -> good (tensor_of [d] f)) by (intros; apply good_tensor_of; [auto with idx|simpl; lia]).
  eexists; eexists; eexists. split; [apply (fc_forward_1 l1 k m); auto|]. split; [apply HG; nia|]. split; [reflexivity|].
  split; [apply act_fwd_el; [auto|apply HG; nia]|]. split; [apply HG; nia|]. split; [reflexivity|].
  split; [apply (fc_forward_1 l3 m o); auto; apply HG; nia|]. split; [apply HG; nia|reflexivity].
Qed.
Lemma fc_backward_vec : forall l k o (x g : tensor T), fc_wf l k o -> fc_in l = Some x -> good x -> tdims x = [k] -> good g -> tdims g = [o] \/ tdims g = [1; o] ->
  exists gw gb gx, fc_backward l g = (mkFC (fc_w l) (fc_b l) (fc_in l) (Some gw) (Some gb), Ok gx) /\ good gw /\ tdims gw = [k; o] /\ good gb /\ tdims gb = [1; o] /\ good gx /\ tdims gx = [1; k].
Proof.
  intros l k o x g W EI Gx Ex Gg Eg. pose proof W as (G1 & E1 & _). destruct (dims2_pos _ _ _ G1 E1) as (Hk & Ho & M1).
  assert (HR : exists g2, as_row g = Ok g2 /\ good g2 /\ tdims g2 = [1; o]).
  { destruct Eg as [Eg|Eg]; [exists (tensor_of [1; o] (fn2 (fun _ j => el g [j])))|exists g].
    - split; [apply as_row_1; auto|]. split; [apply good_2; lia || nia|reflexivity].
    - split; [apply (as_row_2 g 1 o Eg)|auto]. }
  destruct HR as (g2 & ER & G2 & E2).
  rewrite (fc_backward_rows l k o 1 x g _ g2 W EI (as_row_1 x k Gx Ex) ER); auto; [|apply good_2; lia || nia].
  eexists; eexists; eexists. split; [reflexivity|]. repeat (split; [apply good_2; lia || nia|split; [reflexivity|]]). split; [apply good_2; lia || nia|reflexivity].
Qed.
Lemma chain_backward : forall a l1 l3 k m o (x y1 y2 g : tensor T), a <> Softmax -> fc_wf l1 k m -> fc_wf l3 m o ->
  fc_in l1 = Some x -> good x -> tdims x = [k] -> good y1 -> tdims y1 = [m] -> fc_in l3 = Some y2 -> good y2 -> tdims y2 = [m] -> good g -> tdims g = [o] ->
  exists gw3 gb3 g2, fc_backward l3 g = (mkFC (fc_w l3) (fc_b l3) (Some y2) (Some gw3) (Some gb3), Ok g2) /\ tdims g2 = [1; m] /\
    if spreads a then exists g1 gw1 gb1 g0, act_bwd a y1 g2 = Ok g1 /\ tdims g1 = [1; m] /\
                      fc_backward l1 g1 = (mkFC (fc_w l1) (fc_b l1) (Some x) (Some gw1) (Some gb1), Ok g0)
    else act_bwd a y1 g2 = Throw InvalidArgument.
Proof.
  intros a l1 l3 k m o x y1 y2 g Ha W1 W3 I1 Gx Ex G1 E1 I3 G2 E2 Gg Eg.
  destruct (fc_backward_vec l3 m o y2 g W3 I3 G2 E2 Gg (or_introl Eg)) as (gw3 & gb3 & g2 & E3 & _ & _ & _ & _ & Gg2 & Eg2).
  exists gw3, gb3, g2. rewrite E3, I3. split; [auto|]. split; [auto|]. destruct (dims1_pos y1 m G1 E1) as (Hm & HM). destruct (spreads a) eqn:Es.
  - rewrite (act_bwd_vec_row a y1 g2 m) by auto.
    destruct (fc_backward_vec l1 k m x (tensor_of [1; m] (fn2 (fun _ j => act_del a (el y1 [j]) (el g2 [0; j])))) W1 I1 Gx Ex) as (gw1 & gb1 & g0 & E & _); [apply good_2; lia|right; reflexivity|].
    eexists; eexists; eexists; eexists. split; [reflexivity|]. split; [reflexivity|]. rewrite E, I1. reflexivity.
  - destruct (act_bwd_mismatch zero y1 g2) as (_ & X2 & X3); [rewrite E1, Eg2; discriminate|].
    destruct a as [|al| | | | |]; try discriminate; auto; [|congruence].
    destruct (act_bwd_mismatch al y1 g2) as (X1 & _); [rewrite E1, Eg2; discriminate|auto].
Qed.
End S.

Section S2.
Context {T : Type} {S : Scalar T}.
Lemma fc_rows_independent : forall (l : fc T) k o (x x' y y' : tensor T) n n' i i', fc_wf l k o ->
  good x -> tdims x = [n; k] -> n * o <= INT_MAX -> good x' -> tdims x' = [n'; k] -> n' * o <= INT_MAX -> 0 <= i < n -> 0 <= i' < n' ->
  (forall p, 0 <= p < k -> el x [i; p] = el x' [i'; p]) -> snd (fc_forward l x) = Ok y -> snd (fc_forward l x') = Ok y' ->
  forall j, 0 <= j < o -> el y [i; j] = el y' [i'; j].
Proof.
  intros l k o x x' y y' n n' i i' W Gx Ex Mx Gx' Ex' Mx' Hi Hi' HE Hy Hy' j Hj.
  rewrite (fc_forward_2 l k o x n) in Hy by auto. rewrite (fc_forward_2 l k o x' n') in Hy' by auto. cbn [snd] in Hy, Hy'. injection Hy as <-. injection Hy' as <-.
  rewrite !el_tensor_of by auto with idx. unfold fn2. cbn [nth]. unfold affine, sum_to. f_equal. f_equal. apply map_ext_in. intros p HI. apply In_zrange in HI. rewrite HE by auto. reflexivity.
Qed.
Lemma flatten_roundtrip : forall l (x : tensor T) b c ds, good x -> tdims x = b :: c :: ds -> ds <> [] ->
  exists l' y, flatten_forward l x = (l', Ok y) /\ good y /\ tdims y = [b; prod (c :: ds)] /\ tdata y = tdata x /\
    forall g : tensor T, good g -> tdims g = tdims y -> exists z, flatten_backward l' g = Ok z /\ good z /\ tdims z = tdims x /\ tdata z = tdata g.
Proof.
  intros l x b c ds Gx Ex HN. pose proof (good_dims x Gx) as HF. pose proof (good_max x Gx) as HM. rewrite Ex in HF, HM. inversion HF as [|? ? Hb HF']; subst. pose proof (prod_pos _ HF') as HP.
  assert (EP : prod [b; prod (c :: ds)] = prod (tdims x)).
  { rewrite Ex. change (prod (b :: c :: ds)) with (b * prod (c :: ds)). change (prod [b; prod (c :: ds)]) with (b * (prod (c :: ds) * 1)). lia. }
  assert (HQ : pos_dims [b; prod (c :: ds)]) by auto with idx.
  assert (HM2 : prod [b; prod (c :: ds)] <= INT_MAX) by (rewrite EP, Ex; auto).
  eexists; eexists. split; [apply flatten_forward_ok; eauto|]. split; [apply good_tensor_of; auto|]. split; [reflexivity|].
  split; [apply data_in_shape; auto|]. intros g Gg Eg. change (tdims g = [b; prod (c :: ds)]) in Eg.
  assert (EG : prod (tdims x) = prod (tdims g)) by (rewrite Eg; auto).
  eexists. split; [apply flatten_backward_ok; auto|]. split; [apply good_tensor_of; [apply good_pos; auto|apply good_max; auto]|]. split; [reflexivity|].
  apply data_in_shape; auto. apply good_pos; auto.
Qed.
Lemma flatten_rank1 : forall l (x : tensor T) n, tdims x = [n] -> flatten_forward l x = (l, Throw InvalidArgument).
Proof. intros l x n E. unfold flatten_forward, rank. fold (tdims x). rewrite E. reflexivity. Qed.
Lemma flatten_rank2 : forall (x g : tensor T) b f, tdims x = [b; f] -> flatten_forward flatten_new x = (flatten_new, Ok x) /\ flatten_backward flatten_new g = UB.
Proof. intros x g b f E. unfold flatten_forward, rank. fold (tdims x). rewrite E. auto. Qed.
Lemma conv_forward_out : forall (l : conv T) (x : tensor T) n h w, conv_wf l -> good x -> tdims x = [n; cv_ic l; h; w] ->
  cv_kh l <= h -> cv_kw l <= w -> n * (cv_oc l * ((h - cv_kh l + 1) * (w - cv_kw l + 1))) <= INT_MAX ->
  snd (conv_forward l x) = Ok (tensor_of [n; cv_oc l; h - cv_kh l + 1; w - cv_kw l + 1] (fn4 (conv0 x (cv_w l) (cv_b l) (cv_kh l) (cv_kw l)))).
Proof. intros. rewrite (conv_forward_ok l x n h w) by auto. reflexivity. Qed.
Lemma conv_options_ignored : forall (W b x : tensor T) i0 w0 b0 ic oc kh kw s p d s' p' d',
  snd (conv_forward (mkConv W b i0 w0 b0 ic oc kh kw s p d) x) = snd (conv_forward (mkConv W b i0 w0 b0 ic oc kh kw s' p' d') x).
Proof.
  intros. unfold conv_forward. cbn [cv_w cv_b cv_in cv_gw cv_gb cv_ic cv_oc cv_kh cv_kw cv_stride cv_pad cv_dil]. destruct (negb _); [reflexivity|].
  destruct (rd (tdims x) 1); try reflexivity. cbn [step]. destruct (negb _); reflexivity.
Qed.
Lemma conv_new_ok : forall {G} {HR : Rng T G} ic oc kh kw s p d (g : G), 0 < ic -> 0 < oc -> 0 < kh -> 0 < kw -> oc * (ic * (kh * kw)) <= INT_MAX ->
  exists l g', conv_new ic oc kh kw s p d g = Ok (l, g') /\ conv_wf l /\ cv_in l = None /\ cv_stride l = s /\ cv_pad l = p /\ cv_dil l = d /\ cv_kh l = kh /\ cv_kw l = kw /\ cv_ic l = ic /\ cv_oc l = oc.
Proof.
  intros G HR ic oc kh kw s p d g H1 H2 H3 H4 HM. destruct (rand_good [oc; ic; kh; kw] g) as (w & g' & E & Gw & Ew); [auto with idx|simpl; lia|].
  destruct (le_prod4 _ _ _ _ _ H2 H1 H3 H4 HM) as (HMo & _).
  unfold conv_new. rewrite E. cbn [bind]. destruct (fills [oc; 1] (zero : T)) as (_ & _ & E0); [auto with idx|simpl; lia|]. rewrite E0. cbn [bind].
  eexists; eexists; split; [reflexivity|]. split; [|repeat split]. split; [auto|]. split; [auto|]. split; [apply good_2; lia|reflexivity].
Qed.
End S2.
