(** * Replacing layers (C132 to C136) *)
From Coq Require Import Reals Lra.
From Verif Require Import Base Scalar ScalarR Types Spec SpecNN SpecLayers SpecR M_Shape M_Tensor M_Adv M_Act M_Loss M_Layers M_Reg M_Opt M_Net SpecNet SpecFuse
  L_Index L_Shape L_Tensor L_Nest L_Matmul L_Adv L_RSum L_ActR L_Layers L_LayersR L_Conv L_Rows L_BN L_Net L_Train L_Drop L_AdvR L_Loss L_Batch L_Pool.
Local Open Scope Z_scope.

Section G.
Context {T : Type} {S : Scalar T} {G : Type} {HR : Rng T G}.
Lemma predicts_step : forall ds l ds' (x : tensor T) (g : G), predicts ds l ds' -> good x -> tdims x = ds ->
  exists l1 g1 y, layer_forward l x g = (l1, g1, Ok y) /\ good y /\ tdims y = ds'.
Proof.
  intros ds l ds' x g H Gx Ex. inversion H as [ds0 l0 ds1 HL|f ds0 l0 B1 B2 B3|ds0 l0 B1]; subst.
  - destruct (accepts_step _ l ds' x g HL Gx eq_refl) as (l1 & g1 & y & E1 & Gy & Ey & _). exists l1, g1, y. auto.
  - destruct (bn_rows_ready f l0 B1) as (R1 & R2 & R3). cbn [layer_forward]. rewrite (bn_forward_eval f l0 x R1 R2 R3 B2 Gx B3). unfold lift; cbn [fst snd]. do 3 eexists. split; [reflexivity|]. split; [apply bn_out_good; auto|reflexivity].
  - cbn [layer_forward]. rewrite dropout_eval by auto. do 3 eexists. split; [reflexivity|]. auto.
Qed.
Lemma predicts_chain : forall ls ds ds' (x : tensor T) (g : G), stack predicts ds ls ds' -> good x -> tdims x = ds ->
  exists ls1 g' y, forward_all ls x g = (ls1, g', Ok y) /\ good y /\ tdims y = ds'.
Proof.
  induction ls as [|l ls IH]; intros ds ds' x g HA Gx Ex; [inversion HA; subst; exists [], g, x; auto|]. inversion HA as [|? ? dm ? ? H1 H2]; subst.
  destruct (predicts_step _ l dm x g H1 Gx eq_refl) as (l1 & g1 & y & E1 & Gy & Ey).
  destruct (IH dm ds' y g1 H2 Gy Ey) as (ls1 & g2 & z & E2 & Gz & Ez). exists (l1 :: ls1), g2, z. cbn [forward_all]. rewrite E1, E2. auto.
Qed.
(** It is enough that the two groups of layers have the same output. *)
Lemma agree_interchangeable : forall ds (a b : list (layer T)),
  (forall x (g : G), good x -> tdims x = ds -> exists la lb g' y, forward_all a x g = (la, g', Ok y) /\ forward_all b x g = (lb, g', Ok y)) ->
  interchangeable (HR := HR) ds a b.
Proof.
  intros ds a b H n n' pre post ds0 x (E1 & E2 & E3) HP Gx Ex. unfold net_predict. rewrite E1, E2, E3.
  destruct (predicts_chain pre ds0 ds x (n_rng n) HP Gx Ex) as (ls1 & g1 & y & F & Gy & Ey). rewrite !forward_app, F, !forward_app.
  destruct (H y g1 Gy Ey) as (la & lb & g2 & z & Fa & Fb). rewrite Fa, Fb. destruct (forward_all post z g2) as [[? ?] ?]. reflexivity.
Qed.
Lemma dense_wf : forall k o (l : fc T), dense_of k o l -> fc_wf l k o. Proof. auto. Qed.
End G.

Section R.
Context {G : Type} {HR : Rng R G}.
Local Open Scope R_scope.
Local Open Scope list_scope.
Lemma affine_R : forall k (W b : tensor R) r j, affine k W b r j = rsum (zrange 0 k) (fun p => r p * el W [p; j]) + el b [0%Z; j].
Proof. intros. unfold affine. rewrite sum_to_R. reflexivity. Qed.

(** ** Two dense layers *)
Lemma two_affine : forall k m o (a b c : fc R) r j, merged k m o a b c -> (0 <= j < o)%Z ->
  affine m (fc_w b) (fc_b b) (fun p => affine k (fc_w a) (fc_b a) r p) j = affine k (fc_w c) (fc_b c) r j.
Proof.
  intros k m o a b c r j (_ & _ & _ & HW & HB) Hj. rewrite !affine_R, HB by auto. rewrite <- Rplus_assoc. f_equal.
  rewrite (rsum_ext _ (fun p => affine k (fc_w a) (fc_b a) r p * el (fc_w b) [p; j]) (fun p => rsum (zrange 0 k) (fun i => r i * el (fc_w a) [i; p] * el (fc_w b) [p; j]) + el (fc_b a) [0%Z; p] * el (fc_w b) [p; j])).
  2:{ intros p _. rewrite affine_R, Rmult_plus_distr_r, rsum_scal_r. reflexivity. }
  rewrite rsum_plus. f_equal. rewrite rsum_swap. apply rsum_ext. intros i Hi. apply In_zrange in Hi. rewrite HW by auto. rewrite <- rsum_scal_l. apply rsum_ext. intros p _. ring.
Qed.
Theorem merge_dense : forall n k m o (a b c : fc R), merged k m o a b c -> (n * m <= INT_MAX)%Z -> (n * o <= INT_MAX)%Z ->
  interchangeable (HR := HR) [n; k] [LFC a; LFC b] [LFC c].
Proof.
  intros n k m o a b c HM M1 M2. apply agree_interchangeable. intros x g Gx Ex. pose proof HM as (HA & HB & HC & _).
  destruct (dims2_pos x n k Gx Ex) as (Hn & Hk & _). destruct HB as (GB & EB & HB'). destruct (dims2_pos _ m o GB EB) as (Hm & Ho & _).
  do 4 eexists. cbn [forward_all layer_forward]. rewrite (fc_forward_2 a k m x n (dense_wf _ _ _ HA) Gx Ex M1). unfold lift; cbn [fst snd].
  rewrite (fc_forward_2 b m o _ n); [|exact (conj GB (conj EB HB'))|apply good_2; auto|reflexivity|auto]. cbn [fst snd]. split; [reflexivity|].
  rewrite (fc_forward_2 c k o x n (dense_wf _ _ _ HC) Gx Ex M2). cbn [fst snd]. f_equal. f_equal. apply tensor_of_ext; [repeat constructor; auto|].
  intros idx HI. apply in_range_2 in HI. destruct HI as (i & j & -> & Hi & Hj). unfold fn2. cbn [nth]. rewrite <- (two_affine k m o a b c) by auto.
  symmetry. rewrite affine_R. rewrite (affine_R m). f_equal. apply rsum_ext. intros p Hp. apply In_zrange in Hp. rewrite el_tensor_of by (apply in_range2; auto). reflexivity.
Qed.
Theorem merge_exists : forall k m o (a b : fc R), dense_of k m a -> dense_of m o b -> (k * o <= INT_MAX)%Z -> exists c, merged k m o a b c.
Proof.
  intros k m o a b HA HB HM. pose proof HA as (GA & EA & _). pose proof HB as (GB & EB & _). destruct (dims2_pos _ k m GA EA) as (Hk & Hm & _). destruct (dims2_pos _ m o GB EB) as (_ & Ho & HMo).
  exists (mkFC (tensor_of [k; o] (fn2 (fun i j => rsum (zrange 0 m) (fun p => el (fc_w a) [i; p] * el (fc_w b) [p; j]))))
     (tensor_of [1%Z; o] (fn2 (fun _ j => rsum (zrange 0 m) (fun p => el (fc_b a) [0%Z; p] * el (fc_w b) [p; j]) + el (fc_b b) [0%Z; j]))) None None None).
  split; [auto|]. split; [auto|]. cbn [fc_w fc_b]. split; [split; [apply good_2; auto; lia|split; [reflexivity|split; [apply good_2; auto; nia|reflexivity]]]|].
  split; [intros i j Hi Hj|intros j Hj]; rewrite el_tensor_of by (apply in_range2; auto; lia); reflexivity.
Qed.

(** ** A dense layer and batch normalisation *)
Lemma norm_slope : forall (b : bn R) j v, normalised (bn_eps b) (el (bn_rmean b) [0%Z; j]) (el (bn_rvar b) [0%Z; j]) (el (bn_gamma b) [0%Z; j]) (el (bn_beta b) [0%Z; j]) v =
  (v - el (bn_rmean b) [0%Z; j]) * bn_slope b j + el (bn_beta b) [0%Z; j].
Proof. intros b j v. unfold normalised, bn_slope. cbn [s_add s_mul s_div s_sub s_sqrt RScalar]. unfold Rdiv. ring. Qed.
Theorem fold_dense : forall n k o (a : fc R) b c, folded k o a b c -> bn_train b = false -> (n * o <= INT_MAX)%Z -> interchangeable (HR := HR) [n; k] [LFC a; LBN b] [LFC c].
Proof.
  intros n k o a b c (HA & HB & HC & HW & HBB) HT HM. apply agree_interchangeable. intros x g Gx Ex.
  destruct (dims2_pos x n k Gx Ex) as (Hn & Hk & _). pose proof HA as (GA & EA & _). destruct (dims2_pos _ k o GA EA) as (_ & Ho & _).
  do 4 eexists. cbn [forward_all layer_forward]. rewrite (fc_forward_2 a k o x n (dense_wf _ _ _ HA) Gx Ex HM). unfold lift; cbn [fst snd].
  rewrite (bn_eval_rows o b _ n HB HT); [|apply good_2; auto|reflexivity]. cbn [fst snd]. split; [reflexivity|].
  rewrite (fc_forward_2 c k o x n (dense_wf _ _ _ HC) Gx Ex HM). cbn [fst snd]. f_equal. f_equal. apply tensor_of_ext; [repeat constructor; auto|].
  intros idx HI. apply in_range_2 in HI. destruct HI as (i & j & -> & Hi & Hj). unfold fn2. cbn [nth]. rewrite norm_slope, el_tensor_of by (apply in_range2; auto). cbn [nth]. rewrite !affine_R, HBB by auto.
  rewrite (rsum_ext _ (fun p => el x [i; p] * el (fc_w c) [p; j]) (fun p => el x [i; p] * el (fc_w a) [p; j] * bn_slope b j)).
  - rewrite rsum_scal_r. ring.
  - intros p Hp. apply In_zrange in Hp. rewrite HW by auto. ring.
Qed.
Theorem fold_exists : forall k o (a : fc R) b, dense_of k o a -> bn_rows o b -> exists c, folded k o a b c.
Proof.
  intros k o a b HA HB. pose proof HA as (GA & EA & GBB & EBB). destruct (dims2_pos _ k o GA EA) as (Hk & Ho & HM).
  exists (mkFC (tensor_of [k; o] (fn2 (fun i j => el (fc_w a) [i; j] * bn_slope b j)))
     (tensor_of [1%Z; o] (fn2 (fun _ j => (el (fc_b a) [0%Z; j] - el (bn_rmean b) [0%Z; j]) * bn_slope b j + el (bn_beta b) [0%Z; j]))) None None None).
  split; [auto|]. split; [auto|]. cbn [fc_w fc_b]. split; [split; [apply good_2; auto|split; [reflexivity|split; [apply good_2; auto; nia|reflexivity]]]|].
  split; [intros i j Hi Hj|intros j Hj]; rewrite el_tensor_of by (apply in_range2; auto; lia); reflexivity.
Qed.

(** ** A convolution and batch normalisation *)
Theorem fold_conv : forall n h w (a : conv R) b c, folded_conv a b c -> bn_train b = false -> (cv_kh a <= h)%Z -> (cv_kw a <= w)%Z ->
  (n * (cv_oc a * ((h - cv_kh a + 1) * (w - cv_kw a + 1))) <= INT_MAX)%Z -> interchangeable (HR := HR) [n; cv_ic a; h; w] [LConv a; LBN b] [LConv c].
Proof.
  intros n h w a b c (HA & HB & HC & E1 & E2 & E3 & E4 & HW & HBB) HT H1 H2 HM. apply agree_interchangeable. intros x g Gx Ex.
  destruct (dims4_pos x _ _ _ _ Gx Ex) as (Hn & Hic & Hh & Hw & _). pose proof HA as (GA & EA & _). destruct (dims4_pos _ _ _ _ _ GA EA) as (Hoc & _ & Hkh & Hkw & _).
  do 4 eexists. cbn [forward_all layer_forward]. rewrite (conv_forward_ok a x n h w HA Gx Ex H1 H2 HM). unfold lift; cbn [fst snd].
  destruct (bn_rows_ready _ b HB) as (R1 & R2 & R3).
  match goal with |- context [bn_forward b ?y] => set (y0 := y) end.
  assert (Gy : good y0) by (apply good_4; auto; lia).
  rewrite (bn_forward_eval (cv_oc a) b y0 R1 R2 R3 HT Gy (images_featured _ _ _ _)). cbn [fst snd]. split; [reflexivity|].
  rewrite (conv_forward_ok c x n h w HC Gx); [|congruence|lia|lia|rewrite E2, E3, E4; auto]. cbn [fst snd]. rewrite E2, E3, E4. f_equal. f_equal. unfold bn_out. change (tdims y0) with [n; cv_oc a; (h - cv_kh a + 1)%Z; (w - cv_kw a + 1)%Z].
  apply tensor_of_ext; [repeat constructor; auto; lia|]. intros idx HI. pose proof HI as HI'. apply in_range_4 in HI. destruct HI as (i & j & y & z & -> & Hi & Hj & Hy & Hz).
  destruct HB as ((B1 & B2) & (B3 & B4) & (B5 & B6) & (B7 & B8)). unfold fn4. cbn [nth]. rewrite !(feat_row (cv_oc a)) by auto. rewrite norm_slope. unfold y0. rewrite el_tensor_of by exact HI'. unfold fn4. cbn [nth].
  unfold conv0. rewrite HBB by auto. rewrite !fsum_R. change (@s_add R _) with Rplus. change (@s_mul R _) with Rmult. fold (rsum (all_indices [cv_kh a; cv_kw a]) (fn2 (fun p q => el x [i; 0%Z; (y + p)%Z; (z + q)%Z] * el (cv_w a) [j; 0%Z; p; q]))).
  fold (rsum (all_indices [cv_kh a; cv_kw a]) (fn2 (fun p q => el x [i; 0%Z; (y + p)%Z; (z + q)%Z] * el (cv_w c) [j; 0%Z; p; q]))).
  rewrite (rsum_ext (all_indices [cv_kh a; cv_kw a]) (fn2 (fun p q => el x [i; 0%Z; (y + p)%Z; (z + q)%Z] * el (cv_w c) [j; 0%Z; p; q])) (fun k => fn2 (fun p q => el x [i; 0%Z; (y + p)%Z; (z + q)%Z] * el (cv_w a) [j; 0%Z; p; q]) k * bn_slope b j)).
  - rewrite rsum_scal_r. ring.
  - intros k HK. apply In_all_indices in HK; [|repeat constructor; auto]. apply in_range_2 in HK. destruct HK as (p & q & -> & Hp & Hq). unfold fn2. cbn [nth]. rewrite HW; [ring|]. rewrite EA. apply in_range4; auto; lia.
Qed.

Theorem fold_conv_exists : forall (a : conv R) b, kernels_of a -> bn_rows (cv_oc a) b -> exists c, folded_conv a b c.
Proof.
  intros a b HA HB. pose proof HA as (GA & EA & GBB & EBB). destruct (dims4_pos _ _ _ _ _ GA EA) as (Hoc & Hic & Hkh & Hkw & HM). destruct (dims2_pos _ _ _ GBB EBB) as (_ & _ & HM1).
  exists (mkConv (tensor_of (tdims (cv_w a)) (fun idx => el (cv_w a) idx * bn_slope b (nth 0 idx 0%Z)))
     (tensor_of [cv_oc a; 1%Z] (fun idx => (el (cv_b a) [nth 0 idx 0%Z; 0%Z] - el (bn_rmean b) [0%Z; nth 0 idx 0%Z]) * bn_slope b (nth 0 idx 0%Z) + el (bn_beta b) [0%Z; nth 0 idx 0%Z]))
     None None None (cv_ic a) (cv_oc a) (cv_kh a) (cv_kw a) (cv_stride a) (cv_pad a) (cv_dil a)).
  split; [auto|]. split; [auto|]. split.
  { split; [apply good_tensor_of; [apply good_pos; auto|apply good_max; auto]|]. split; [exact EA|]. split; [apply good_2; auto; lia|reflexivity]. }
  cbn [cv_w cv_b cv_ic cv_oc cv_kh cv_kw]. do 4 (split; [reflexivity|]). split; [intros o i p q HI|intros o Ho]; rewrite el_tensor_of by (auto; apply in_range2; auto; lia); reflexivity.
Qed.

(** ** Rescaled hidden units *)
Lemma act_scale : forall f c v, keeps_scale f -> 0 <= c -> act_el f (c * v) = c * act_el f v.
Proof.
  intros f c v [->|(al & ->)] Hc; cbn [act_el]; unfold s_max; change (@s_lt R _) with Rltb; change (@s_mul R _) with Rmult; change zero with 0; unfold Rltb;
  destruct (Rlt_dec 0 (c * v)), (Rlt_dec 0 v); try ring; try nra; destruct (Req_dec c 0) as [->|]; try ring; exfalso; nra.
Qed.
Theorem rescale_hidden : forall n k m o s (a b a' b' : fc R) (f f' : actl R), rescaled k m o s a b a' b' -> keeps_scale (al_act f) -> al_act f' = al_act f ->
  (n * m <= INT_MAX)%Z -> (n * o <= INT_MAX)%Z -> interchangeable (HR := HR) [n; k] [LFC a; LAct f; LFC b] [LFC a'; LAct f'; LFC b'].
Proof.
  intros n k m o s a b a' b' f f' (HA & HB & HA' & HB' & HS & W1 & B1 & W2 & B2) HF EF M1 M2. apply agree_interchangeable. intros x g Gx Ex.
  destruct (dims2_pos x n k Gx Ex) as (Hn & Hk & _). destruct HB as (GB & EB & HBr). destruct (dims2_pos _ m o GB EB) as (Hm & Ho & _).
  assert (NS : al_act f <> Softmax) by (destruct HF as [->|(? & ->)]; discriminate).
  do 4 eexists. cbn [forward_all layer_forward]. rewrite (fc_forward_2 a k m x n (dense_wf _ _ _ HA) Gx Ex M1). unfold lift; cbn [fst snd].
  unfold act_forward. rewrite act_fwd_el by (auto; apply good_2; auto). cbn [fst snd].
  rewrite (fc_forward_2 b m o _ n); [|exact (conj GB (conj EB HBr))|apply good_2; auto|reflexivity|auto]. cbn [fst snd]. split; [reflexivity|].
  rewrite (fc_forward_2 a' k m x n (dense_wf _ _ _ HA') Gx Ex M1). cbn [fst snd]. rewrite EF, act_fwd_el by (auto; apply good_2; auto). cbn [fst snd].
  rewrite (fc_forward_2 b' m o _ n (dense_wf _ _ _ HB')); [|apply good_2; auto|reflexivity|auto]. cbn [fst snd]. f_equal. f_equal. apply tensor_of_ext; [repeat constructor; auto|].
  intros idx HI. apply in_range_2 in HI. destruct HI as (i & j & -> & Hi & Hj). unfold fn2. cbn [nth]. rewrite !(affine_R m), B2. f_equal. apply rsum_ext. intros p Hp. apply In_zrange in Hp.
  change (tdims (tensor_of [n; m] ?q)) with [n; m]. rewrite !el_tensor_of by (apply in_range2; auto). cbn [nth].
  replace (affine k (fc_w a') (fc_b a') (fun p0 => el x [i; p0]) p) with (s p * affine k (fc_w a) (fc_b a) (fun p0 => el x [i; p0]) p).
  - rewrite act_scale by (auto; apply Rlt_le; auto). rewrite W2 by auto. field. apply Rgt_not_eq, HS. auto.
  - rewrite !affine_R, B1 by auto. rewrite (rsum_ext _ (fun p0 => el x [i; p0] * el (fc_w a') [p0; p]) (fun p0 => el x [i; p0] * el (fc_w a) [p0; p] * s p)); [rewrite rsum_scal_r; ring|].
    intros q Hq. apply In_zrange in Hq. rewrite W1 by auto. ring.
Qed.

(** ** Scaled inputs *)
Lemma times_data : forall c (x x' : tensor R) k, good x -> times c x x' -> (0 <= k < prod (tdims x))%Z -> znth zero (tdata x') k = c * znth zero (tdata x) k.
Proof.
  intros c x x' k Gx (Gx' & E & H) Hk. pose proof (good_dims x Gx) as HF. specialize (H (unravel (tdims x) k) (unravel_range _ _ HF Hk)).
  unfold el in H. rewrite E, ravel_unravel in H by auto. exact H.
Qed.
Lemma times_of : forall c ds (f f' : list Z -> R), pos_dims ds -> (prod ds <= INT_MAX)%Z -> (forall idx, in_range ds idx -> f' idx = c * f idx) -> times c (tensor_of ds f) (tensor_of ds f').
Proof. intros c ds f f' HP HM H. split; [apply good_tensor_of; auto|]. split; [reflexivity|]. intros idx HI. change (in_range ds idx) in HI. rewrite !el_tensor_of by auto. auto. Qed.
Lemma scale_step : forall c ds l ds' (x x' : tensor R) (g : G), 0 <= c -> predicts ds l ds' -> no_offset l -> good x -> tdims x = ds -> times c x x' ->
  exists l1 l1' g' y y', layer_forward l x g = (l1, g', Ok y) /\ layer_forward l x' g = (l1', g', Ok y') /\ good y /\ tdims y = ds' /\ times c y y'.
Proof.
  intros c ds l ds' x x' g Hc HP HN Gx Ex HT. pose proof HT as (Gx' & Ex' & HX). rewrite Ex in Ex'.
  destruct HP as [ds l ds' HL|f ds l B1 B2 B3|ds l B1].
  2:{ contradiction. }
  2:{ cbn [layer_forward]. rewrite !dropout_eval by auto. do 5 eexists. split; [reflexivity|]. split; [reflexivity|]. auto. }
  destruct HL as [n k o l W1 W2 W3 W4 HM|ds l HS|b d ds l HD|n h w l W1 W2 W3 W4 H1 H2 HM|n d h w l H1 H2 H3 H4 H5|ds l HTr]; cbn [layer_forward no_offset] in *.
  - assert (HW : fc_wf l k o) by (split; auto). rewrite (fc_forward_2 l k o x n HW Gx Ex HM), (fc_forward_2 l k o x' n HW Gx' Ex' HM). unfold lift; cbn [fst snd].
    destruct (dims2_pos x n k Gx Ex) as (Hn & Hk & _). destruct (dims2_pos _ k o W1 W2) as (_ & Ho & _).
    do 5 eexists. split; [reflexivity|]. split; [reflexivity|]. split; [apply good_2; auto|]. split; [reflexivity|].
    apply times_of; [auto with idx|simpl; lia|]. intros idx HI. apply in_range_2 in HI. destruct HI as (i & j & -> & Hi & Hj). unfold fn2. cbn [nth]. rewrite !affine_R.
    rewrite HN by (rewrite W4; apply in_range2; auto; lia). rewrite !Rplus_0_r, <- rsum_scal_l. apply rsum_ext. intros p Hp. apply In_zrange in Hp. rewrite HX by (rewrite Ex; apply in_range2; auto). ring.
  - assert (NS : al_act l <> Softmax) by (destruct HN as [->|(? & ->)]; discriminate). unfold act_forward. rewrite !act_fwd_el by auto. unfold lift; cbn [fst snd].
    do 5 eexists. split; [reflexivity|]. split; [reflexivity|]. split; [apply good_tensor_of; [apply good_pos; auto|apply good_max; auto]|]. split; [exact Ex|]. rewrite Ex, Ex'.
    apply times_of; [rewrite <- Ex; apply good_pos; auto|rewrite <- Ex; apply good_max; auto|]. intros idx HI. rewrite HX by (rewrite Ex; auto). apply act_scale; auto.
  - destruct (flat_any l x b d ds Gx Ex) as (l1 & E1). destruct (flat_any l x' b d ds Gx' Ex') as (l1' & E1'). rewrite E1, E1'. unfold lift; cbn [fst snd].
    pose proof (good_pos x Gx) as PX. pose proof (good_max x Gx) as MX. rewrite Ex in PX, MX. destruct PX as (_ & PF). inversion PF as [|? ? P1 P2]; subst.
    pose proof (prod_pos _ P2) as PP. cbn [prod] in MX, PP.
    assert (PD : pos_dims [b; prod (d :: ds)]) by (split; [discriminate|]; repeat constructor; auto). assert (MD : (prod [b; prod (d :: ds)] <= INT_MAX)%Z) by (cbn [prod]; lia).
    do 5 eexists. split; [reflexivity|]. split; [reflexivity|]. split; [apply good_in_shape; auto|]. split; [reflexivity|].
    split; [apply good_in_shape; auto|]. split; [reflexivity|]. intros idx HI. change (in_range [b; prod (d :: ds)] idx) in HI. rewrite !el_in_shape by auto. apply times_data; auto. rewrite Ex.
    pose proof (ravel_bound _ _ HI) as RB. cbn [prod] in RB |- *. lia.
  - assert (HW : conv_wf l) by (split; auto). rewrite (conv_forward_ok l x n h w HW Gx Ex H1 H2 HM), (conv_forward_ok l x' n h w HW Gx' Ex' H1 H2 HM). unfold lift; cbn [fst snd].
    destruct (dims4_pos x _ _ _ _ Gx Ex) as (Hn & Hic & Hh & Hw & _). destruct (dims4_pos _ _ _ _ _ W1 W2) as (Hoc & _ & Hkh & Hkw & _).
    do 5 eexists. split; [reflexivity|]. split; [reflexivity|]. split; [apply good_4; auto; lia|]. split; [reflexivity|].
    apply times_of; [split; [discriminate|]; repeat constructor; auto; lia|simpl; lia|]. intros idx HI. apply in_range_4 in HI. destruct HI as (i & j & y & z & -> & Hi & Hj & Hy & Hz).
    unfold fn4, conv0. cbn [nth]. rewrite HN by (rewrite W4; apply in_range2; auto; lia). change (@s_add R _) with Rplus. rewrite !Rplus_0_r, !fsum_R. change (@s_mul R _) with Rmult.
    fold (rsum (all_indices [cv_kh l; cv_kw l]) (fn2 (fun p q => el x' [i; 0%Z; (y + p)%Z; (z + q)%Z] * el (cv_w l) [j; 0%Z; p; q]))).
    fold (rsum (all_indices [cv_kh l; cv_kw l]) (fn2 (fun p q => el x [i; 0%Z; (y + p)%Z; (z + q)%Z] * el (cv_w l) [j; 0%Z; p; q]))).
    rewrite <- rsum_scal_l. apply rsum_ext. intros k HK. apply In_all_indices in HK; [|repeat constructor; auto]. apply in_range_2 in HK. destruct HK as (p & q & -> & Hp & Hq). unfold fn2. cbn [nth].
    rewrite HX; [ring|]. rewrite Ex. apply in_range4; lia.
  - contradiction.
  - destruct (dropout_train l x g HTr Gx) as (r & g1 & F1 & Gr & Er & E1). destruct (dropout_train l x' g HTr Gx') as (r' & g1' & F1' & Gr' & Er' & E1'). rewrite Ex in F1. rewrite Ex', F1 in F1'. injection F1' as <- <-. rewrite E1, E1'.
    do 5 eexists. split; [reflexivity|]. split; [reflexivity|]. split; [apply good_tensor_of; [apply good_pos; auto|apply good_max; auto]|]. split; [exact Ex|]. rewrite Ex, Ex'.
    apply times_of; [rewrite <- Ex; apply good_pos; auto|rewrite <- Ex; apply good_max; auto|]. intros idx HI. rewrite HX by (rewrite Ex; auto). change (@s_mul R _) with Rmult. ring.
Qed.
Lemma scale_chain : forall c ls ds ds' (x x' : tensor R) (g : G), 0 <= c -> stack predicts ds ls ds' -> Forall no_offset ls -> good x -> tdims x = ds -> times c x x' ->
  exists l1 l1' g' y y', forward_all ls x g = (l1, g', Ok y) /\ forward_all ls x' g = (l1', g', Ok y') /\ good y /\ tdims y = ds' /\ times c y y'.
Proof.
  induction ls as [|l ls IH]; intros ds ds' x x' g Hc HA HN Gx Ex HT; [inversion HA; subst; exists [], [], g, x, x'; auto|]. inversion HA as [|? ? dm ? ? H1 H2]; subst. inversion HN as [|? ? N1 N2]; subst.
  destruct (scale_step c _ l dm x x' g Hc H1 N1 Gx eq_refl HT) as (l1 & l1' & g1 & y & y' & E1 & E1' & Gy & Ey & HY).
  destruct (IH dm ds' y y' g1 Hc H2 N2 Gy Ey HY) as (ls1 & ls1' & g2 & z & z' & E2 & E2' & Gz & Ez & HZ). exists (l1 :: ls1), (l1' :: ls1'), g2, z, z'. cbn [forward_all]. rewrite E1, E1', E2, E2'. auto.
Qed.
Theorem scaled_inputs : forall c (n : net R G) ds ds' x x', 0 <= c -> stack predicts ds (n_layers n) ds' -> Forall no_offset (n_layers n) -> good x -> tdims x = ds -> times c x x' ->
  exists y y', snd (net_predict n x) = Ok y /\ snd (net_predict n x') = Ok y' /\ tdims y = ds' /\ times c y y'.
Proof.
  intros c n ds ds' x x' Hc HA HN Gx Ex HT. destruct (scale_chain c (n_layers n) ds ds' x x' (n_rng n) Hc HA HN Gx Ex HT) as (l1 & l1' & g' & y & y' & E & E' & Gy & Ey & HY).
  exists y, y'. unfold net_predict. rewrite E, E'. auto.
Qed.
End R.
