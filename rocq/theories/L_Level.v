(** * Networks without offsets (C142) *)
From Coq Require Import Reals Lra.
From Verif Require Import Base Scalar ScalarR Types Spec SpecNN SpecLayers SpecR M_Shape M_Tensor M_Adv M_Act M_Loss M_Layers M_Reg M_Opt M_Net SpecNet SpecFuse SpecInit SpecLevel
  L_Index L_Shape L_Tensor L_Nest L_Matmul L_Adv L_RSum L_Act L_ActR L_Layers L_LayersR L_Conv L_Rows L_BN L_BNR L_Net L_Train L_Drop L_AdvR L_Loss L_Batch L_Pool L_Pool2 L_Near L_Fuse L_Robust L_Init L_InitR.
Local Open Scope R_scope.

Lemma sum_scale : forall {A} (l : list A) (x x' w : A -> R) c, (forall a, In a l -> x' a = c * x a) -> rsum l (fun a => x' a * w a) + 0 = c * (rsum l (fun a => x a * w a) + 0).
Proof.
  intros A l x x' w c H. rewrite !Rplus_0_r, <- rsum_scal_l. apply rsum_ext. intros a Ha. rewrite H by auto. ring.
Qed.

Section R.
Variable K : R.
Let SI : Scalar R := RInf K.
#[local] Existing Instance SI.
Context {G : Type} {HR : Rng R G}.
Definition positive_if (pos : bool) (x : tensor R) : Prop := pos = true -> forall idx, in_range (tdims x) idx -> 0 <= el x idx.

Lemma scaled_of : forall c ds (f f' : list Z -> R), pos_dims ds -> (prod ds <= INT_MAX)%Z -> (forall idx, in_range ds idx -> f' idx = c * f idx) -> scaled c (tensor_of ds f) (tensor_of ds f').
Proof. intros c ds f f' HP HM H. split; [apply good_tensor_of; auto|]. split; [reflexivity|]. intros idx HI. change (in_range ds idx) in HI. rewrite !el_tensor_of by auto. auto. Qed.
Lemma positive_of : forall pos ds (f : list Z -> R), (pos = true -> forall idx, in_range ds idx -> 0 <= f idx) -> positive_if pos (tensor_of ds f).
Proof. intros pos ds f H HP idx HI. change (in_range ds idx) in HI. rewrite el_tensor_of by auto. auto. Qed.
Lemma keep_scale : forall {A} c (f f' : A -> R) pos, 0 <= c -> forall (l : list A), (forall a, In a l -> 0 <= f a /\ f' a = c * f a) -> forall s s' : R * Z * Z, 0 <= fst (fst s) -> fst (fst s') = c * fst (fst s) ->
  0 <= fst (fst (fold_left (keep f pos) l s)) /\ fst (fst (fold_left (keep f' pos) l s')) = c * fst (fst (fold_left (keep f pos) l s)).
Proof.
  intros A c f f' pos Hc l. induction l as [|a l IH]; intros H s s' H0 Hs; [auto|]. cbn [fold_left]. apply IH; [intros; apply H; right; auto| |].
  - destruct s as [[m p] q]. cbn [fst] in *. unfold keep. change (@s_lt R SI) with Rltb. unfold Rltb. destruct (H a (or_introl eq_refl)). destruct (Rlt_dec m (f a)); cbn [fst]; auto.
  - destruct s as [[m p] q], s' as [[m' p'] q']. cbn [fst] in *. unfold keep. change (@s_lt R SI) with Rltb. unfold Rltb. destruct (H a (or_introl eq_refl)) as (Ha & Ha'). subst m'. rewrite Ha'.
    destruct (Rlt_dec m (f a)), (Rlt_dec (c * m) (c * f a)); cbn [fst]; auto; destruct (Req_dec c 0) as [->|]; nra.
Qed.
Lemma keep_start : forall {A} c (f f' : A -> R) pos, 0 <= c -> 0 < K -> forall (l : list A), l <> [] -> (forall a, In a l -> 0 <= f a /\ f' a = c * f a) ->
  0 <= fst (fst (fold_left (keep f pos) l (- K, 0%Z, 0%Z))) /\ fst (fst (fold_left (keep f' pos) l (- K, 0%Z, 0%Z))) = c * fst (fst (fold_left (keep f pos) l (- K, 0%Z, 0%Z))).
Proof.
  intros A c f f' pos Hc HK [|a l] HN H; [congruence|]. cbn [fold_left]. destruct (H a (or_introl eq_refl)) as (Ha & Ha').
  assert (E : forall g : A -> R, 0 <= g a -> fst (fst (keep g pos (- K, 0%Z, 0%Z) a)) = g a).
  { intros g Hg. unfold keep. change (@s_lt R SI) with Rltb. unfold Rltb. destruct (Rlt_dec (- K) (g a)); [reflexivity|lra]. }
  assert (0 <= c * f a) by nra. apply keep_scale; [auto|intros; apply H; right; auto|rewrite E by auto; auto|rewrite !E by (auto; lra); auto].
Qed.
Lemma relu_scale : forall (f : act R) c u, 0 <= c -> (f = ReLU \/ exists al, f = LeakyReLU al) -> act_el f (c * u) = c * act_el f u.
Proof.
  intros f c u Hc HF. change (@act_el R RScalar f (c * u) = c * @act_el R RScalar f u). rewrite !act_el_R. destruct HF as [->|(al & ->)]; cbn [act_fun].
  - unfold Rmax. destruct (Rle_dec 0 u), (Rle_dec 0 (c * u)); try lra; destruct (Req_dec c 0) as [->|]; try lra; nra.
  - destruct (Rlt_dec 0 u), (Rlt_dec 0 (c * u)); try (ring_simplify; lra || ring); destruct (Req_dec c 0) as [->|]; try lra; nra.
Qed.
Lemma relu_pos : forall u, 0 <= act_el ReLU u.
Proof. intros u. change (0 <= @act_el R RScalar ReLU u). rewrite act_el_R. cbn [act_fun]. apply Rmax_l. Qed.

(** What follows a layer: the kind of its output and the rest of the stack. *)
Definition next (pos : bool) (l : layer R) : bool := match l with LAct a => match al_act a with ReLU => true | _ => false end | LFC _ | LConv _ | LBN _ => false | LFlat _ | LDrop _ | LPool _ => pos end.
Lemma level_step : forall c pos ds l ls ds' (x x' : tensor R) (g : G), 0 < K -> 0 <= c -> predicts ds l ds' -> level pos (l :: ls) -> good x -> tdims x = ds -> positive_if pos x -> scaled c x x' ->
  exists pos' l1 l1' g' y y', layer_forward l x g = (l1, g', Ok y) /\ layer_forward l x' g = (l1', g', Ok y') /\ good y /\ tdims y = ds' /\ positive_if pos' y /\ level pos' ls /\ scaled c y y'.
Proof.
  intros c pos ds l ls ds' x x' g HK Hc HP HL Gx Ex HPos HN. pose proof HN as (Gx' & Ex' & HX). rewrite Ex in Ex'.
  destruct HP as [ds l ds' HA|f ds l B1 B2 B3|ds l B1].
  2:{ inversion HL. }
  2:{ inversion HL as [| | | | | |? ? ? HR1 HL1|]; subst. cbn [layer_forward]. rewrite !dropout_eval by auto. exists pos. do 5 eexists. split; [reflexivity|]. split; [reflexivity|]. auto 10. }
  destruct HA as [n k o l W1 W2 W3 W4 HM|ds l HS|b d ds l HD|n h w l W1 W2 W3 W4 H1 H2 HM|n d h w l H1 H2 H3 H4 H5|ds l HTr]; cbn [layer_forward] in *.
  - inversion HL as [|? ? ? HB HL1| | | | | |]; subst. assert (HW : fc_wf l k o) by (split; auto). rewrite (fc_forward_2 l k o x n HW Gx Ex HM), (fc_forward_2 l k o x' n HW Gx' Ex' HM). unfold lift; cbn [fst snd].
    destruct (dims2_pos x n k Gx Ex) as (Hn & Hk & _). destruct (dims2_pos _ k o W1 W2) as (_ & Ho & _).
    exists false. do 5 eexists. split; [reflexivity|]. split; [reflexivity|]. split; [apply good_2; auto|]. split; [reflexivity|]. split; [discriminate|]. split; [exact HL1|].
    apply scaled_of; [auto with idx|simpl; lia|]. intros idx HI. apply in_range_2 in HI. destruct HI as (i & j & -> & Hi & Hj). unfold fn2. cbn [nth].
    change (@affine R RScalar k (M_Layers.fc_w l) (M_Layers.fc_b l) (fun p => el x' [i; p]) j = c * @affine R RScalar k (M_Layers.fc_w l) (M_Layers.fc_b l) (fun p => el x [i; p]) j). rewrite !affine_R.
    change (@el R RScalar (M_Layers.fc_b l) [0%Z; j]) with (@el R SI (M_Layers.fc_b l) [0%Z; j]). rewrite (HB [0%Z; j]) by (rewrite W4; apply in_range2; lia).
    apply sum_scale. intros p Hp; apply In_zrange in Hp. apply HX; rewrite Ex; apply in_range2; auto.
  - unfold act_forward. assert (HF : (al_act l = ReLU /\ level true ls) \/ ((exists al, al_act l = LeakyReLU al) /\ level false ls)) by (inversion HL; subst; eauto).
    assert (NS : al_act l <> Softmax) by (destruct HF as [(E & _)|((al & E) & _)]; rewrite E; discriminate).
    rewrite !act_fwd_el by auto. unfold lift; cbn [fst snd].
    destruct HF as [(E & HL1)|(E & HL1)]; [exists true|exists false];
      do 5 eexists; (split; [reflexivity|]); (split; [reflexivity|]); (split; [apply good_tensor_of; [apply good_pos; auto|apply good_max; auto]|]); (split; [exact Ex|]); rewrite Ex, Ex';
      (split; [first [discriminate|apply positive_of; intros _ idx _; rewrite E; apply relu_pos]|]); (split; [exact HL1|]);
      (apply scaled_of; [rewrite <- Ex; apply good_pos; auto|rewrite <- Ex; apply good_max; auto|]); intros idx HI; rewrite HX by (rewrite Ex; auto); apply relu_scale; auto.
  - inversion HL as [| | | | |? ? ? HL1| |]; subst. destruct (flat_any l x b d ds Gx Ex) as (l1 & E1). destruct (flat_any l x' b d ds Gx' Ex') as (l1' & E1'). rewrite E1, E1'. unfold lift; cbn [fst snd].
    pose proof (good_pos x Gx) as PX. pose proof (good_max x Gx) as MX. rewrite Ex in PX, MX. destruct PX as (_ & PF). inversion PF as [|? ? P1 P2]; subst.
    pose proof (prod_pos _ P2) as PP. cbn [prod] in MX, PP.
    assert (PD : pos_dims [b; prod (d :: ds)]) by (split; [discriminate|]; repeat constructor; auto). assert (MD : (prod [b; prod (d :: ds)] <= INT_MAX)%Z) by (cbn [prod]; lia).
    assert (KV : forall idx, in_range [b; prod (d :: ds)] idx -> exists j, in_range (tdims x) j /\ el (in_shape [b; prod (d :: ds)] x) idx = el x j /\ el (in_shape [b; prod (d :: ds)] x') idx = el x' j).
    { intros idx HI. rewrite !el_in_shape by auto. pose proof (ravel_bound _ _ HI) as RB. assert (RB' : (0 <= ravel [b; prod (d :: ds)] idx < prod (tdims x))%Z) by (rewrite Ex; cbn [prod] in RB |- *; lia).
      exists (unravel (tdims x) (ravel [b; prod (d :: ds)] idx)). split; [apply unravel_range; [apply good_dims; auto|auto]|]. unfold el. rewrite Ex', <- Ex. rewrite !ravel_unravel by (auto; apply good_dims; auto). auto. }
    exists pos. do 5 eexists. split; [reflexivity|]. split; [reflexivity|]. split; [apply good_in_shape; auto|]. split; [reflexivity|].
    split; [intros HT idx HI; destruct (KV idx HI) as (j & J1 & J2 & _); rewrite J2; apply HPos; auto|]. split; [exact HL1|].
    split; [apply good_in_shape; auto|]. split; [reflexivity|]. intros idx HI. destruct (KV idx HI) as (j & J1 & J2 & J3). rewrite J2, J3. apply HX. exact J1.
  - inversion HL as [| |? ? ? HB HL1| | | | |]; subst. assert (HW : conv_wf l) by (split; auto). rewrite (conv_forward_ok l x n h w HW Gx Ex H1 H2 HM), (conv_forward_ok l x' n h w HW Gx' Ex' H1 H2 HM). unfold lift; cbn [fst snd].
    destruct (dims4_pos x _ _ _ _ Gx Ex) as (Hn & Hic & Hh & Hw & _). destruct (dims4_pos _ _ _ _ _ W1 W2) as (Hoc & _ & Hkh & Hkw & _).
    exists false. do 5 eexists. split; [reflexivity|]. split; [reflexivity|]. split; [apply good_4; auto; lia|]. split; [reflexivity|]. split; [discriminate|]. split; [exact HL1|].
    apply scaled_of; [split; [discriminate|]; repeat constructor; auto; lia|simpl; lia|]. intros idx HI. apply in_range_4 in HI. destruct HI as (i & j & y & z & -> & Hi & Hj & Hy & Hz).
    unfold fn4, conv0. cbn [nth]. change (@s_add R SI) with Rplus.
    change (@fsum R SI) with (@fsum R RScalar). rewrite !fsum_R. change (@s_mul R SI) with Rmult. rewrite HB by (rewrite W4; apply in_range2; lia).
    apply (sum_scale (all_indices [cv_kh l; cv_kw l]) (fn2 (fun p q => el x [i; 0%Z; (y + p)%Z; (z + q)%Z])) (fn2 (fun p q => el x' [i; 0%Z; (y + p)%Z; (z + q)%Z])) (fn2 (fun p q => el (cv_w l) [j; 0%Z; p; q]))).
    intros k HK1. apply In_all_indices in HK1; [|repeat constructor; auto]. apply in_range_2 in HK1. destruct HK1 as (p & q & -> & Hp & Hq). unfold fn2. cbn [nth]. apply HX. rewrite Ex. apply in_range4; lia.
  - inversion HL as [| | | | | | |? ? HL1]; subst. rewrite (pool_forward_any l x n d h w), (pool_forward_any l x' n d h w) by auto. unfold lift; cbn [fst snd]. destruct (pool_sizes l x n d h w Gx Ex H2 H3 H4 H5) as (Pn & Pc & Poh & Pow & HM & _).
    assert (KV : forall o, in_range [n; d; pool_extent (po_size l) (po_stride l) h; pool_extent (po_size l) (po_stride l) w] o -> 0 <= value l x o /\ value l x' o = c * value l x o).
    { intros o HO. change (0 <= @value R (RInf K) l x o /\ @value R (RInf K) l x' o = c * @value R (RInf K) l x o). rewrite (pool_value K l x n d h w o), (pool_value K l x' n d h w o) by auto. apply keep_start; auto.
      - intros EN. assert (In [0%Z; 0%Z] (all_indices [po_size l; po_size l])) as HI0 by (apply In_all_indices; [repeat constructor; auto|apply in_range2; lia]). rewrite EN in HI0. destruct HI0.
      - intros k HK1. apply In_all_indices in HK1; [|repeat constructor; auto]. split; [apply HPos; [reflexivity|]|apply HX]; apply (window_in l x n d h w); auto. }
    exists true. do 5 eexists. split; [reflexivity|]. split; [reflexivity|]. split; [apply good_4; auto|]. split; [reflexivity|]. split; [apply positive_of; intros _ o HO; apply KV; exact HO|]. split; [exact HL1|].
    apply scaled_of; [split; [discriminate|]; repeat constructor; auto|simpl; lia|]. intros o HO. apply KV; exact HO.
  - inversion HL as [| | | | | |? ? ? HR1 HL1|]; subst. destruct (dropout_train l x g HTr Gx) as (r & g1 & F1 & Gr & Er & E1). destruct (dropout_train l x' g HTr Gx') as (r' & g1' & F1' & Gr' & Er' & E1'). rewrite Ex' in F1'. rewrite F1 in F1'. injection F1' as <- <-. rewrite E1, E1'.
    exists pos. do 5 eexists. split; [reflexivity|]. split; [reflexivity|]. split; [apply good_tensor_of; [apply good_pos; auto|apply good_max; auto]|]. split; [reflexivity|]. rewrite Ex'.
    split; [|split; [exact HL1|]].
    + apply positive_of. intros HT idx HI. pose proof (HPos HT idx HI). change (@s_mul R SI) with Rmult. change (@s_div R SI) with Rdiv. change (@s_sub R SI) with Rminus. change (@s_z R SI 1) with 1. change (@s_z R SI 0) with 0.
      match goal with |- context [if ?b then _ else _] => destruct b end; [|rewrite !Rmult_0_r, !Rmult_0_l; lra]. rewrite !Rmult_1_r. apply Rmult_le_pos; [auto|]. left. apply Rdiv_lt_0_compat; lra.
    + apply scaled_of; [apply good_pos; auto|apply good_max; auto|]. intros idx HI. change (@s_mul R SI) with Rmult. rewrite HX by auto. ring.
Qed.
Lemma level_chain : forall c ls pos ds ds' (x x' : tensor R) (g : G), 0 < K -> 0 <= c -> stack predicts ds ls ds' -> level pos ls -> good x -> tdims x = ds -> positive_if pos x -> scaled c x x' ->
  exists l1 l1' g' y y', forward_all ls x g = (l1, g', Ok y) /\ forward_all ls x' g = (l1', g', Ok y') /\ good y /\ tdims y = ds' /\ scaled c y y'.
Proof.
  intros c. induction ls as [|l ls IH]; intros pos ds ds' x x' g HK Hc HA HU Gx Ex HPos HN.
  - inversion HA; subst. exists [], [], g, x, x'. auto.
  - inversion HA as [|? ? dm ? ? H1 H2]; subst.
    destruct (level_step c pos _ l ls dm x x' g HK Hc H1 HU Gx eq_refl HPos HN) as (pos' & l1 & l1' & g1 & y & y' & E1 & E1' & Gy & Ey & PY & LY & HY).
    destruct (IH pos' dm ds' y y' g1 HK Hc H2 LY Gy Ey PY HY) as (ls1 & ls1' & g2 & z & z' & E2 & E2' & Gz & Ez & HZ).
    exists (l1 :: ls1), (l1' :: ls1'), g2, z, z'. cbn [forward_all]. rewrite E1, E1', E2, E2'. auto.
Qed.
Theorem level_predict : forall (n : net R G) c ds ds' x x', 0 < K -> 0 <= c -> stack predicts ds (n_layers n) ds' -> level false (n_layers n) -> good x -> tdims x = ds -> scaled c x x' ->
  exists y y', snd (net_predict n x) = Ok y /\ snd (net_predict n x') = Ok y' /\ tdims y = ds' /\ scaled c y y'.
Proof.
  intros n c ds ds' x x' HK Hc HA HU Gx Ex HN. destruct (level_chain c (n_layers n) false ds ds' x x' (n_rng n) HK Hc HA HU Gx Ex ltac:(discriminate) HN) as (l1 & l1' & g' & y & y' & E & E' & Gy & Ey & HY).
  exists y, y'. unfold net_predict. rewrite E, E'. cbn [snd]. auto.
Qed.
(** ** New layers *)
Lemma new_is_level : forall pos ls, new_level (G := G) pos ls -> level pos ls.
Proof.
  intros pos ls H. induction H as [|pos k o g l g' ls H1 H2 H3 E HN IH|pos ic oc kh kw s p d g l g' ls H1 H2 H3 H4 H5 E HN IH|pos ls HN IH|pos al ls HN IH|pos ls HN IH|pos rate ls Hr HN IH|size stride pad ls HN IH].
  - constructor.
  - constructor; [|exact IH]. rewrite fc_new_drawn in E by auto. injection E as <- _. intros idx HI. cbn [M_Layers.fc_b] in *. change (in_range [1%Z; o] idx) in HI. rewrite el_tensor_of by auto. reflexivity.
  - constructor; [|exact IH]. rewrite conv_new_drawn in E by auto. injection E as <- _. intros idx HI. cbn [M_Layers.cv_b] in *. change (in_range [oc; 1%Z] idx) in HI. rewrite el_tensor_of by auto. reflexivity.
  - apply lv_relu; auto.
  - eapply lv_leaky; [reflexivity|auto].
  - constructor; auto.
  - constructor; auto.
  - constructor; auto.
Qed.
Theorem level_new : forall (n : net R G) c ds ds' x x', 0 < K -> 0 <= c -> stack predicts ds (n_layers n) ds' -> new_level (G := G) false (n_layers n) -> good x -> tdims x = ds -> scaled c x x' ->
  exists y y', snd (net_predict n x) = Ok y /\ snd (net_predict n x') = Ok y' /\ tdims y = ds' /\ scaled c y y'.
Proof. intros n c ds ds' x x' HK Hc HA HF. apply level_predict; auto. apply new_is_level; auto. Qed.
(** ** Softmax at the end: the ranking of the classes *)
Lemma softmax_order : forall (l : actl R) n k x (g : G), al_act l = Softmax -> good x -> tdims x = [n; k] -> exists l1 y, layer_forward (LAct l) x g = (l1, g, Ok y) /\ good y /\ tdims y = [n; k] /\
  forall i j j', (0 <= i < n)%Z -> (0 <= j < k)%Z -> (0 <= j' < k)%Z -> (el y [i; j] <= el y [i; j'] <-> el x [i; j] <= el x [i; j']).
Proof.
  intros l n k x g HA Gx Ex. cbn [layer_forward]. unfold act_forward. rewrite HA. cbn [act_fwd]. rewrite (softmax_fwd_ok x n [k] Gx Ex) by discriminate. unfold lift; cbn [fst snd].
  do 2 eexists. split; [reflexivity|]. split; [apply good_tensor_of; [apply good_pos; auto|apply good_max; auto]|]. split; [exact Ex|]. intros i j j' Hi Hj Hj'. rewrite Ex. rewrite !el_tensor_of by (apply in_range2; auto). cbn [nth].
  assert (PC : Forall (fun d => (0 < d)%Z) [k]) by (repeat constructor; lia).
  change (@softmax_of R RScalar (@row R RScalar [k] x i) (@el R RScalar x [i; j]) <= @softmax_of R RScalar (@row R RScalar [k] x i) (@el R RScalar x [i; j']) <-> @el R RScalar x [i; j] <= @el R RScalar x [i; j']).
  rewrite !softmax_of_R by auto. set (s := rowsum _ _ _). assert (HS : 0 < s).
  { unfold s, rowsum. apply rsum_pos; [|intros; apply exp_pos]. intros EN. assert (In [j] (all_indices [k])) as HI by (apply In_all_indices; [auto|repeat constructor; lia]). rewrite EN in HI. destruct HI. }
  clearbody s. set (u := @el R RScalar x [i; j]). set (v := @el R RScalar x [i; j']). pose proof (Rinv_0_lt_compat s HS) as HV. unfold Rdiv. split; intros H.
  - destruct (Rle_dec u v) as [L|L]; [auto|]. exfalso. assert (exp v < exp u) by (apply exp_increasing; lra). nra.
  - apply Rmult_le_compat_r; [lra|]. destruct H as [H|H]; [left; apply exp_increasing; auto|rewrite H; lra].
Qed.
Lemma forward_app : forall (a b : list (layer R)) x (g : G) a' g1 y b' g2 z, forward_all a x g = (a', g1, Ok y) -> forward_all b y g1 = (b', g2, z) -> forward_all (a ++ b) x g = (a' ++ b', g2, z).
Proof.
  induction a as [|l a IH]; intros b x g a' g1 y b' g2 z E1 E2; cbn [forward_all app] in *; [injection E1 as <- <- <-; exact E2|].
  destruct (layer_forward l x g) as ((l1 & g0) & r). destruct r as [w| | | |]; try discriminate E1. destruct (forward_all a w g0) as ((a1 & g3) & r3) eqn:E3. injection E1 as <- <- ->. rewrite (IH b w g0 a1 g3 y b' g2 z E3 E2). reflexivity.
Qed.
Theorem level_ranking : forall (n : net R G) ls l c ds b k x x', 0 < K -> 0 < c -> n_layers n = ls ++ [LAct l] -> al_act l = Softmax -> stack predicts ds ls [b; k] -> level false ls -> good x -> tdims x = ds -> scaled c x x' ->
  exists y y', snd (net_predict n x) = Ok y /\ snd (net_predict n x') = Ok y' /\ forall i j j', (0 <= i < b)%Z -> (0 <= j < k)%Z -> (0 <= j' < k)%Z -> (el y [i; j] <= el y [i; j'] <-> el y' [i; j] <= el y' [i; j']).
Proof.
  intros n ls l c ds b k x x' HK Hc EL HS HA HU Gx Ex HN. destruct (level_chain c ls false ds [b; k] x x' (n_rng n) HK (Rlt_le _ _ Hc) HA HU Gx Ex ltac:(discriminate) HN) as (l1 & l1' & g' & y & y' & E & E' & Gy & Ey & HY).
  destruct HY as (Gy' & Ey' & HV). rewrite Ey in Ey'. destruct (softmax_order l b k y g' HS Gy Ey) as (m & z & F & Gz & Ez & HZ). destruct (softmax_order l b k y' g' HS Gy' Ey') as (m' & z' & F' & Gz' & Ez' & HZ').
  exists z, z'. unfold net_predict. rewrite EL.
  assert (Q : forward_all [LAct l] y g' = ([m], g', Ok z)) by (cbn [forward_all]; rewrite F; reflexivity). assert (Q' : forward_all [LAct l] y' g' = ([m'], g', Ok z')) by (cbn [forward_all]; rewrite F'; reflexivity).
  rewrite (forward_app _ _ _ _ _ _ _ _ _ _ E Q), (forward_app _ _ _ _ _ _ _ _ _ _ E' Q'). cbn [snd]. split; [reflexivity|]. split; [reflexivity|].
  intros i j j' Hi Hj Hj'. rewrite HZ, HZ' by auto. rewrite !HV by (rewrite Ey; apply in_range2; auto). split; intros H; [apply Rmult_le_compat_l; lra|apply Rmult_le_reg_l with c; auto].
Qed.
(** ** A bias is not scaled *)
Lemma bias_shows : forall (l : fc R) n k o c x x' i j (g : G), good (fc_w l) -> tdims (fc_w l) = [k; o] -> good (fc_b l) -> tdims (fc_b l) = [1%Z; o] -> (n * o <= INT_MAX)%Z -> good x -> tdims x = [n; k] -> scaled c x x' -> c <> 1 ->
  (0 <= i < n)%Z -> (0 <= j < o)%Z -> el (fc_b l) [0%Z; j] <> 0 ->
  exists y y', snd (layer_forward (LFC l) x g) = Ok y /\ snd (layer_forward (LFC l) x' g) = Ok y' /\ el y' [i; j] <> c * el y [i; j].
Proof.
  intros l n k o c x x' i j g W1 W2 W3 W4 HM Gx Ex (Gx' & Ex' & HX) Hc Hi Hj HB. rewrite Ex in Ex'. cbn [layer_forward]. assert (Hw : fc_wf l k o) by (split; auto).
  rewrite (fc_forward_2 l k o x n Hw Gx Ex HM), (fc_forward_2 l k o x' n Hw Gx' Ex' HM). unfold lift; cbn [fst snd]. do 2 eexists. split; [reflexivity|]. split; [reflexivity|].
  rewrite !el_tensor_of by (apply in_range2; auto). unfold fn2. cbn [nth].
  change (@affine R RScalar k (M_Layers.fc_w l) (M_Layers.fc_b l) (fun p => el x' [i; p]) j <> c * @affine R RScalar k (M_Layers.fc_w l) (M_Layers.fc_b l) (fun p => el x [i; p]) j). rewrite !affine_R.
  change (@el R RScalar (M_Layers.fc_b l) [0%Z; j]) with (@el R SI (M_Layers.fc_b l) [0%Z; j]). set (bj := el (M_Layers.fc_b l) [0%Z; j]) in *.
  pose proof (sum_scale (zrange 0 k) (fun p => el x [i; p]) (fun p => el x' [i; p]) (fun p => @el R RScalar (M_Layers.fc_w l) [p; j]) c) as H. intros Q. cbv beta in H.
  assert (HP : forall a, In a (zrange 0 k) -> el x' [i; a] = c * el x [i; a]) by (intros a Ha; apply In_zrange in Ha; apply HX; rewrite Ex; apply in_range2; auto). specialize (H HP). rewrite !Rplus_0_r in H.
  rewrite H in Q. rewrite Rmult_plus_distr_l in Q. apply Rplus_eq_reg_l in Q. assert ((1 - c) * bj = 0) by lra. apply Rmult_integral in H0. destruct H0; [lra|auto].
Qed.
End R.
