(** * Networks in which ReLU does nothing (C143) *)
From Coq Require Import Reals Lra.
From Verif Require Import Base Scalar ScalarR Types Spec SpecNN SpecLayers SpecR M_Shape M_Tensor M_Adv M_Act M_Loss M_Layers M_Reg M_Opt M_Net SpecNet SpecFuse SpecInit SpecLevel SpecIdle
  L_Index L_Shape L_Tensor L_Nest L_Matmul L_Adv L_RSum L_Act L_ActR L_Layers L_LayersR L_Conv L_Rows L_BN L_BNR L_Net L_Train L_Drop L_AdvR L_Loss L_Batch L_Pool L_Pool2 L_Near L_Fuse L_Robust L_Init L_InitR L_Mono L_Level.
Local Open Scope R_scope.

Lemma sum_pos : forall {A} (l : list A) (x w : A -> R) b, (forall a, In a l -> 0 <= x a) -> (forall a, In a l -> 0 <= w a) -> 0 <= b -> 0 <= rsum l (fun a => x a * w a) + b.
Proof.
  intros A l x w b H HW Hb. assert (0 <= rsum l (fun a => x a * w a)); [|lra]. induction l as [|c l IH]; [unfold rsum; simpl; lra|]. rewrite rsum_cons.
  pose proof (Rmult_le_pos _ _ (H c (or_introl eq_refl)) (HW c (or_introl eq_refl))). assert (0 <= rsum l (fun a => x a * w a)) by (apply IH; intros; [apply H|apply HW]; right; auto). lra.
Qed.
Lemma sum_mix : forall {A} (l : list A) (x x' z w : A -> R) a b, (forall i, In i l -> z i = a * x i + b * x' i) ->
  rsum l (fun i => z i * w i) + 0 = a * (rsum l (fun i => x i * w i) + 0) + b * (rsum l (fun i => x' i * w i) + 0).
Proof.
  intros A l x x' z w a b H. rewrite !Rplus_0_r. induction l as [|c l IH]; [unfold rsum; simpl; ring|]. rewrite !rsum_cons, IH by (intros; apply H; right; auto). rewrite (H c) by (left; auto). ring.
Qed.
Lemma tanh_0 : tanh 0 = 0.
Proof. unfold tanh, sinh. rewrite Ropp_0. unfold Rdiv. ring. Qed.
Lemma act_fun_pos : forall (f : act R) u, 0 <= u -> 0 <= act_fun f u.
Proof.
  intros f u H. destruct f; cbn [act_fun].
  - apply Rmax_l.
  - destruct (Rlt_dec 0 u); [lra|]. assert (u = 0) as -> by lra. lra.
  - unfold sigmoidR. left. pose proof (exp_pos (- u)). apply Rdiv_lt_0_compat; lra.
  - rewrite <- tanh_0. apply tanh_mono; auto.
  - unfold sigmoidR. apply Rmult_le_pos; [auto|]. left. pose proof (exp_pos (- u)). apply Rdiv_lt_0_compat; lra.
  - apply Rmult_le_pos; [auto|]. rewrite <- tanh_0. apply tanh_mono. rewrite <- ln_1. pose proof (exp_pos u). left. apply ln_increasing; lra.
  - auto.
Qed.
Lemma act_fun_rect : forall (f : act R) u, match f with ReLU | LeakyReLU _ => true | _ => false end = true -> 0 <= u -> act_fun f u = u.
Proof.
  intros f u HF H. destruct f; try discriminate; cbn [act_fun].
  - apply Rmax_right; auto.
  - destruct (Rlt_dec 0 u); [auto|]. assert (u = 0) as -> by lra. ring.
Qed.

Section R.
Variable K : R.
Let SI : Scalar R := RInf K.
#[local] Existing Instance SI.
Context {G : Type} {HR : Rng R G}.

Lemma no_minus_of : forall ds (f : list Z -> R), (forall idx, in_range ds idx -> 0 <= f idx) -> no_minus (tensor_of ds f).
Proof. intros ds f H idx HI. change (in_range ds idx) in HI. rewrite el_tensor_of by auto. auto. Qed.
Lemma unsigned_step : forall ds l ds' (x : tensor R) (g : G), 0 < K -> predicts ds l ds' -> unsigned l -> good x -> tdims x = ds -> no_minus x ->
  exists l1 g' y, layer_forward l x g = (l1, g', Ok y) /\ good y /\ tdims y = ds' /\ no_minus y.
Proof.
  intros ds l ds' x g HK HP HL Gx Ex HX.
  destruct HP as [ds l ds' HA|f ds l B1 B2 B3|ds l B1].
  2:{ destruct HL. }
  2:{ cbn [layer_forward]. rewrite !dropout_eval by auto. do 3 eexists. split; [reflexivity|]. auto. }
  destruct HA as [n k o l W1 W2 W3 W4 HM|ds l HS|b d ds l HD|n h w l W1 W2 W3 W4 H1 H2 HM|n d h w l H1 H2 H3 H4 H5|ds l HTr]; cbn [layer_forward unsigned] in *.
  - destruct HL as (LW & LB). assert (HW : fc_wf l k o) by (split; auto). rewrite (fc_forward_2 l k o x n HW Gx Ex HM). unfold lift; cbn [fst snd].
    destruct (dims2_pos x n k Gx Ex) as (Hn & Hk & _). destruct (dims2_pos _ k o W1 W2) as (_ & Ho & _).
    do 3 eexists. split; [reflexivity|]. split; [apply good_2; auto|]. split; [reflexivity|].
    apply no_minus_of. intros idx HI. apply in_range_2 in HI. destruct HI as (i & j & -> & Hi & Hj). unfold fn2. cbn [nth].
    change (0 <= @affine R RScalar k (M_Layers.fc_w l) (M_Layers.fc_b l) (fun p => el x [i; p]) j). rewrite affine_R.
    apply sum_pos; [intros p Hp; apply In_zrange in Hp; apply HX; rewrite Ex; apply in_range2; auto|intros p Hp; apply In_zrange in Hp; apply LW; rewrite W2; apply in_range2; auto|apply LB; rewrite W4; apply in_range2; lia].
  - unfold act_forward. assert (DS : al_act l = Softmax \/ al_act l <> Softmax) by (destruct (al_act l); auto; right; discriminate). destruct DS as [E|NS].
    + rewrite E. cbn [act_fwd]. pose proof (good_dims x Gx) as PX. destruct ds as [|b ds1]; [rewrite Ex in *; destruct (good_pos x Gx) as (C & _); rewrite Ex in C; congruence|].
      assert (HN : ds1 <> []) by (intros ->; pose proof (HS E) as Q; unfold Zlen in Q; cbn in Q; lia). rewrite (softmax_fwd_ok x b ds1) by auto. unfold lift; cbn [fst snd].
      do 3 eexists. split; [reflexivity|]. split; [apply good_tensor_of; [apply good_pos; auto|apply good_max; auto]|]. split; [exact Ex|]. apply no_minus_of. intros idx HI. rewrite Ex in PX. inversion PX; subst.
      change (0 <= @softmax_of R RScalar (@row R RScalar ds1 x (nth 0 idx 0%Z)) (@el R RScalar x idx)). rewrite softmax_of_R by auto. left. apply Rdiv_lt_0_compat; [apply exp_pos|apply rowsum_pos; auto].
    + rewrite !act_fwd_el by auto. unfold lift; cbn [fst snd].
      do 3 eexists. split; [reflexivity|]. split; [apply good_tensor_of; [apply good_pos; auto|apply good_max; auto]|]. split; [exact Ex|]. apply no_minus_of. intros idx HI.
      change (0 <= @act_el R RScalar (al_act l) (el x idx)). rewrite act_el_R. apply act_fun_pos. apply HX. exact HI.
  - destruct (flat_any l x b d ds Gx Ex) as (l1 & E1). rewrite E1. unfold lift; cbn [fst snd].
    pose proof (good_pos x Gx) as PX. pose proof (good_max x Gx) as MX. rewrite Ex in PX, MX. destruct PX as (_ & PF). inversion PF as [|? ? P1 P2]; subst.
    pose proof (prod_pos _ P2) as PP. cbn [prod] in MX, PP.
    assert (PD : pos_dims [b; prod (d :: ds)]) by (split; [discriminate|]; repeat constructor; auto). assert (MD : (prod [b; prod (d :: ds)] <= INT_MAX)%Z) by (cbn [prod]; lia).
    do 3 eexists. split; [reflexivity|]. split; [apply good_in_shape; auto|]. split; [reflexivity|].
    intros idx HI. change (in_range [b; prod (d :: ds)] idx) in HI. rewrite !el_in_shape by auto.
    pose proof (ravel_bound _ _ HI) as RB. assert (RB' : (0 <= ravel [b; prod (d :: ds)] idx < prod (tdims x))%Z) by (rewrite Ex; cbn [prod] in RB |- *; lia).
    assert (UR : in_range (tdims x) (unravel (tdims x) (ravel [b; prod (d :: ds)] idx))) by (apply unravel_range; [apply good_dims; auto|auto]). pose proof (HX _ UR) as K0. unfold el in K0.
    rewrite !ravel_unravel in K0 by (auto; apply good_dims; auto). exact K0.
  - destruct HL as (LW & LB). assert (HW : conv_wf l) by (split; auto). rewrite (conv_forward_ok l x n h w HW Gx Ex H1 H2 HM). unfold lift; cbn [fst snd].
    destruct (dims4_pos x _ _ _ _ Gx Ex) as (Hn & Hic & Hh & Hw & _). destruct (dims4_pos _ _ _ _ _ W1 W2) as (Hoc & _ & Hkh & Hkw & _).
    do 3 eexists. split; [reflexivity|]. split; [apply good_4; auto; lia|]. split; [reflexivity|].
    apply no_minus_of. intros idx HI. apply in_range_4 in HI. destruct HI as (i & j & y & z & -> & Hi & Hj & Hy & Hz).
    unfold fn4, conv0. cbn [nth]. change (@s_add R SI) with Rplus.
    change (@fsum R SI) with (@fsum R RScalar). rewrite !fsum_R. change (@s_mul R SI) with Rmult.
    apply (sum_pos (all_indices [cv_kh l; cv_kw l]) (fn2 (fun p q => el x [i; 0%Z; (y + p)%Z; (z + q)%Z])) (fn2 (fun p q => el (cv_w l) [j; 0%Z; p; q]))).
    + intros k HK1. apply In_all_indices in HK1; [|repeat constructor; auto]. apply in_range_2 in HK1. destruct HK1 as (p & q & -> & Hp & Hq). unfold fn2. cbn [nth]. apply HX. rewrite Ex. apply in_range4; lia.
    + intros k HK1. apply In_all_indices in HK1; [|repeat constructor; auto]. apply in_range_2 in HK1. destruct HK1 as (p & q & -> & Hp & Hq). unfold fn2. cbn [nth]. apply LW. rewrite W2. apply in_range4; lia.
    + apply LB. rewrite W4. apply in_range2; lia.
  - rewrite (pool_forward_any l x n d h w) by auto. unfold lift; cbn [fst snd]. destruct (pool_sizes l x n d h w Gx Ex H2 H3 H4 H5) as (Pn & Pc & Poh & Pow & HM & _).
    do 3 eexists. split; [reflexivity|]. split; [apply good_4; auto|]. split; [reflexivity|]. apply no_minus_of. intros o HO.
    change (0 <= @value R (RInf K) l x o). rewrite (pool_value K l x n d h w o) by auto.
    match goal with |- 0 <= fst (fst (fold_left (keep ?f ?pos) ?L _)) => refine (proj1 (keep_start K 1 f f pos ltac:(lra) HK L _ _)) end.
    + intros EN. assert (In [0%Z; 0%Z] (all_indices [po_size l; po_size l])) as HI0 by (apply In_all_indices; [repeat constructor; auto|apply in_range2; lia]). rewrite EN in HI0. destruct HI0.
    + intros k HK1. apply In_all_indices in HK1; [|repeat constructor; auto]. split; [|ring]. apply HX. apply (window_in l x n d h w); auto.
  - destruct (dropout_train l x g HTr Gx) as (r & g1 & F1 & Gr & Er & E1). rewrite E1.
    do 3 eexists. split; [reflexivity|]. split; [apply good_tensor_of; [apply good_pos; auto|apply good_max; auto]|]. split; [exact Ex|].
    apply no_minus_of. intros idx HI. pose proof (HX idx HI). change (@s_mul R SI) with Rmult. change (@s_div R SI) with Rdiv. change (@s_sub R SI) with Rminus. change (@s_z R SI 1) with 1. change (@s_z R SI 0) with 0.
    match goal with |- context [if ?b then _ else _] => destruct b end; [|rewrite !Rmult_0_r, !Rmult_0_l; lra]. rewrite !Rmult_1_r. apply Rmult_le_pos; [auto|]. left. apply Rdiv_lt_0_compat; lra.
Qed.
Lemma rectifier_step : forall ds l ds' (x : tensor R) (g : G), rectifier l = true -> predicts ds l ds' -> good x -> tdims x = ds -> no_minus x -> ds' = ds /\ exists l1, layer_forward l x g = (l1, g, Ok x).
Proof.
  intros ds l ds' x g HR1 HP Gx Ex HX. destruct l as [|l| | | | |]; try discriminate HR1. cbn [rectifier] in HR1.
  split; [inversion HP as [? ? ? HA| |]; subst; inversion HA; subst; reflexivity|]. cbn [layer_forward]. unfold act_forward.
  rewrite act_fwd_el by (auto; intros E; rewrite E in HR1; discriminate). unfold lift; cbn [fst snd]. eexists. f_equal. f_equal. symmetry. transitivity (tensor_of (tdims x) (el x)); [apply tensor_of_el; auto|].
  apply tensor_of_ext; [apply good_dims; auto|]. intros idx HI. change (el x idx = @act_el R RScalar (al_act l) (el x idx)). rewrite act_el_R. symmetry. apply act_fun_rect; [exact HR1|apply HX; exact HI].
Qed.
Lemma idle_chain : forall ls ds ds' (x : tensor R) (g : G), 0 < K -> stack predicts ds ls ds' -> Forall unsigned ls -> good x -> tdims x = ds -> no_minus x ->
  exists l1 l1' g' y, forward_all ls x g = (l1, g', Ok y) /\ forward_all (unrectified ls) x g = (l1', g', Ok y) /\ good y /\ tdims y = ds' /\ no_minus y.
Proof.
  induction ls as [|l ls IH]; intros ds ds' x g HK HA HU Gx Ex HX.
  - inversion HA; subst. exists [], [], g, x. auto.
  - inversion HA as [|? ? dm ? ? H1 H2]; subst. inversion HU as [|? ? G1 G2]; subst. unfold unrectified. cbn [filter]. destruct (rectifier l) eqn:ER; cbn [negb].
    + destruct (rectifier_step _ l dm x g ER H1 Gx eq_refl HX) as (-> & l1 & E1). destruct (IH _ ds' x g HK H2 G2 Gx eq_refl HX) as (ls1 & ls1' & g2 & z & E2 & E2' & Z).
      exists (l1 :: ls1), ls1', g2, z. cbn [forward_all]. rewrite E1, E2. auto.
    + destruct (unsigned_step _ l dm x g HK H1 G1 Gx eq_refl HX) as (l1 & g1 & y & E1 & Gy & Ey & HY).
      destruct (IH dm ds' y g1 HK H2 G2 Gy Ey HY) as (ls1 & ls1' & g2 & z & E2 & E2' & Z). unfold unrectified in E2'.
      exists (l1 :: ls1), (l1 :: ls1'), g2, z. cbn [forward_all]. rewrite E1, E2, E2'. auto.
Qed.
Theorem idle_predict : forall (n n' : net R G) ds ds' x, 0 < K -> stack predicts ds (n_layers n) ds' -> Forall unsigned (n_layers n) -> n_layers n' = unrectified (n_layers n) -> n_rng n' = n_rng n ->
  good x -> tdims x = ds -> no_minus x -> exists y, snd (net_predict n x) = Ok y /\ snd (net_predict n' x) = Ok y /\ tdims y = ds' /\ no_minus y.
Proof.
  intros n n' ds ds' x HK HA HU EL EG Gx Ex HX. destruct (idle_chain (n_layers n) ds ds' x (n_rng n) HK HA HU Gx Ex HX) as (l1 & l1' & g' & y & E & E' & Gy & Ey & HY).
  exists y. unfold net_predict. rewrite EL, EG, E, E'. cbn [snd]. auto.
Qed.
(** ** Linear networks *)
Lemma mixture_of : forall a b ds (f f' h : list Z -> R), pos_dims ds -> (prod ds <= INT_MAX)%Z -> (forall idx, in_range ds idx -> h idx = a * f idx + b * f' idx) -> mixture a b (tensor_of ds f) (tensor_of ds f') (tensor_of ds h).
Proof. intros a b ds f f' h HP HM H. split; [apply good_tensor_of; auto|]. split; [reflexivity|]. split; [reflexivity|]. intros idx HI. change (in_range ds idx) in HI. rewrite !el_tensor_of by auto. auto. Qed.
Lemma linear_step : forall a b ds l ds' (x x' z : tensor R) (g : G), predicts ds l ds' -> linear l -> good x -> good x' -> tdims x = ds -> mixture a b x x' z ->
  exists l1 l1' l1'' g' y y' v, layer_forward l x g = (l1, g', Ok y) /\ layer_forward l x' g = (l1', g', Ok y') /\ layer_forward l z g = (l1'', g', Ok v) /\ good y /\ good y' /\ tdims y = ds' /\ mixture a b y y' v.
Proof.
  intros a b ds l ds' x x' z g HP HL Gx Gx' Ex HN. pose proof HN as (Gz & Ex' & Ez & HX). rewrite Ex in Ex', Ez.
  destruct HP as [ds l ds' HA|f ds l B1 B2 B3|ds l B1].
  2:{ destruct HL. }
  2:{ cbn [layer_forward]. rewrite !dropout_eval by auto. do 7 eexists. do 3 (split; [reflexivity|]). auto. }
  destruct HA as [n k o l W1 W2 W3 W4 HM|ds l HS|c d ds l HD|n h w l W1 W2 W3 W4 H1 H2 HM|n d h w l H1 H2 H3 H4 H5|ds l HTr]; cbn [layer_forward linear] in *; try tauto.
  - assert (HW : fc_wf l k o) by (split; auto). rewrite (fc_forward_2 l k o x n HW Gx Ex HM), (fc_forward_2 l k o x' n HW Gx' Ex' HM), (fc_forward_2 l k o z n HW Gz Ez HM). unfold lift; cbn [fst snd].
    destruct (dims2_pos x n k Gx Ex) as (Hn & Hk & _). destruct (dims2_pos _ k o W1 W2) as (_ & Ho & _).
    do 7 eexists. do 3 (split; [reflexivity|]). do 2 (split; [apply good_2; auto|]). split; [reflexivity|].
    apply mixture_of; [auto with idx|simpl; lia|]. intros idx HI. apply in_range_2 in HI. destruct HI as (i & j & -> & Hi & Hj). unfold fn2. cbn [nth].
    change (@affine R RScalar k (M_Layers.fc_w l) (M_Layers.fc_b l) (fun p => el z [i; p]) j = a * @affine R RScalar k (M_Layers.fc_w l) (M_Layers.fc_b l) (fun p => el x [i; p]) j + b * @affine R RScalar k (M_Layers.fc_w l) (M_Layers.fc_b l) (fun p => el x' [i; p]) j). rewrite !affine_R.
    change (@el R RScalar (M_Layers.fc_b l) [0%Z; j]) with (@el R SI (M_Layers.fc_b l) [0%Z; j]). rewrite (HL [0%Z; j]) by (rewrite W4; apply in_range2; lia).
    apply sum_mix. intros p Hp; apply In_zrange in Hp. apply HX; rewrite Ex; apply in_range2; auto.
  - destruct (flat_any l x c d ds Gx Ex) as (l1 & E1). destruct (flat_any l x' c d ds Gx' Ex') as (l1' & E1'). destruct (flat_any l z c d ds Gz Ez) as (l1'' & E1''). rewrite E1, E1', E1''. unfold lift; cbn [fst snd].
    pose proof (good_pos x Gx) as PX. pose proof (good_max x Gx) as MX. rewrite Ex in PX, MX. destruct PX as (_ & PF). inversion PF as [|? ? P1 P2]; subst.
    pose proof (prod_pos _ P2) as PP. cbn [prod] in MX, PP.
    assert (PD : pos_dims [c; prod (d :: ds)]) by (split; [discriminate|]; repeat constructor; auto). assert (MD : (prod [c; prod (d :: ds)] <= INT_MAX)%Z) by (cbn [prod]; lia).
    do 7 eexists. do 3 (split; [reflexivity|]). do 2 (split; [apply good_in_shape; auto|]). split; [reflexivity|].
    split; [apply good_in_shape; auto|]. split; [reflexivity|]. split; [reflexivity|]. intros idx HI. change (in_range [c; prod (d :: ds)] idx) in HI. rewrite !el_in_shape by auto.
    pose proof (ravel_bound _ _ HI) as RB. assert (RB' : (0 <= ravel [c; prod (d :: ds)] idx < prod (tdims x))%Z) by (rewrite Ex; cbn [prod] in RB |- *; lia).
    assert (UR : in_range (tdims x) (unravel (tdims x) (ravel [c; prod (d :: ds)] idx))) by (apply unravel_range; [apply good_dims; auto|auto]). pose proof (HX _ UR) as K0. unfold el in K0. rewrite Ex', Ez, <- Ex in K0.
    rewrite !ravel_unravel in K0 by (auto; apply good_dims; auto). exact K0.
  - assert (HW : conv_wf l) by (split; auto). rewrite (conv_forward_ok l x n h w HW Gx Ex H1 H2 HM), (conv_forward_ok l x' n h w HW Gx' Ex' H1 H2 HM), (conv_forward_ok l z n h w HW Gz Ez H1 H2 HM). unfold lift; cbn [fst snd].
    destruct (dims4_pos x _ _ _ _ Gx Ex) as (Hn & Hic & Hh & Hw & _). destruct (dims4_pos _ _ _ _ _ W1 W2) as (Hoc & _ & Hkh & Hkw & _).
    do 7 eexists. do 3 (split; [reflexivity|]). do 2 (split; [apply good_4; auto; lia|]). split; [reflexivity|].
    apply mixture_of; [split; [discriminate|]; repeat constructor; auto; lia|simpl; lia|]. intros idx HI. apply in_range_4 in HI. destruct HI as (i & j & y & v & -> & Hi & Hj & Hy & Hz).
    unfold fn4, conv0. cbn [nth]. change (@s_add R SI) with Rplus.
    change (@fsum R SI) with (@fsum R RScalar). rewrite !fsum_R. change (@s_mul R SI) with Rmult. rewrite HL by (rewrite W4; apply in_range2; lia).
    apply (sum_mix (all_indices [cv_kh l; cv_kw l]) (fn2 (fun p q => el x [i; 0%Z; (y + p)%Z; (v + q)%Z])) (fn2 (fun p q => el x' [i; 0%Z; (y + p)%Z; (v + q)%Z])) (fn2 (fun p q => el z [i; 0%Z; (y + p)%Z; (v + q)%Z])) (fn2 (fun p q => el (cv_w l) [j; 0%Z; p; q]))).
    intros k HK1. apply In_all_indices in HK1; [|repeat constructor; auto]. apply in_range_2 in HK1. destruct HK1 as (p & q & -> & Hp & Hq). unfold fn2. cbn [nth]. apply HX. rewrite Ex. apply in_range4; lia.
  - destruct (dropout_train l x g HTr Gx) as (r & g1 & F1 & Gr & Er & E1). destruct (dropout_train l x' g HTr Gx') as (r' & g1' & F1' & Gr' & Er' & E1'). destruct (dropout_train l z g HTr Gz) as (r2 & g2 & F2 & Gr2 & Er2 & E2).
    rewrite Ex in F1. rewrite Ex', F1 in F1'. injection F1' as <- <-. rewrite Ez, F1 in F2. injection F2 as <- <-. rewrite E1, E1', E2.
    do 7 eexists. do 3 (split; [reflexivity|]). do 2 (split; [apply good_tensor_of; [apply good_pos; auto|apply good_max; auto]|]). split; [exact Ex|]. rewrite Ex, Ex', Ez.
    apply mixture_of; [rewrite <- Ex; apply good_pos; auto|rewrite <- Ex; apply good_max; auto|]. intros idx HI. change (@s_mul R SI) with Rmult. rewrite HX by (rewrite Ex; auto). ring.
Qed.
Lemma linear_chain : forall a b ls ds ds' (x x' z : tensor R) (g : G), stack predicts ds ls ds' -> Forall linear ls -> good x -> good x' -> tdims x = ds -> mixture a b x x' z ->
  exists l1 l1' l1'' g' y y' v, forward_all ls x g = (l1, g', Ok y) /\ forward_all ls x' g = (l1', g', Ok y') /\ forward_all ls z g = (l1'', g', Ok v) /\ good y /\ good y' /\ tdims y = ds' /\ mixture a b y y' v.
Proof.
  intros a b. induction ls as [|l ls IH]; intros ds ds' x x' z g HA HU Gx Gx' Ex HN.
  - inversion HA; subst. exists [], [], [], g, x, x', z. auto 10.
  - inversion HA as [|? ? dm ? ? H1 H2]; subst. inversion HU as [|? ? G1 G2]; subst.
    destruct (linear_step a b _ l dm x x' z g H1 G1 Gx Gx' eq_refl HN) as (l1 & l1' & l1'' & g1 & y & y' & v & E1 & E1' & E1'' & Gy & Gy' & Ey & HY).
    destruct (IH dm ds' y y' v g1 H2 G2 Gy Gy' Ey HY) as (l2 & l2' & l2'' & g2 & u & u' & t & E2 & E2' & E2'' & Z).
    exists (l1 :: l2), (l1' :: l2'), (l1'' :: l2''), g2, u, u', t. cbn [forward_all]. rewrite E1, E1', E1'', E2, E2', E2''. tauto.
Qed.
Theorem linear_predict : forall (n : net R G) a b ds ds' x x' z, stack predicts ds (n_layers n) ds' -> Forall linear (n_layers n) -> good x -> good x' -> tdims x = ds -> mixture a b x x' z ->
  exists y y' v, snd (net_predict n x) = Ok y /\ snd (net_predict n x') = Ok y' /\ snd (net_predict n z) = Ok v /\ tdims y = ds' /\ mixture a b y y' v.
Proof.
  intros n a b ds ds' x x' z HA HU Gx Gx' Ex HN. destruct (linear_chain a b (n_layers n) ds ds' x x' z (n_rng n) HA HU Gx Gx' Ex HN) as (l1 & l1' & l1'' & g' & y & y' & v & E & E' & E'' & Gy & Gy' & Ey & HY).
  exists y, y', v. unfold net_predict. rewrite E, E', E''. cbn [snd]. auto.
Qed.
(** ** New layers *)
Lemma new_unsigned : forall pool l, new_layer (G := G) pool l -> unsigned l.
Proof.
  intros pool l H. destruct H as [k o g l g' H1 H2 H3 E|ic oc kh kw s p d g l g' H1 H2 H3 H4 H5 E| | | | |rate Hr|]; cbn [unsigned]; auto.
  - rewrite fc_new_drawn in E by auto. injection E as <- _. cbn [M_Layers.fc_w M_Layers.fc_b]. unfold drawn. split; apply no_minus_of; intros; [apply clamp_pos|right; reflexivity].
  - rewrite conv_new_drawn in E by auto. injection E as <- _. cbn [cv_w cv_b]. unfold drawn. split; apply no_minus_of; intros; [apply clamp_pos|right; reflexivity].
Qed.
Lemma new_linear : forall l, new_layer (G := G) false l -> rectifier l = false -> linear l.
Proof.
  intros l H HR1. destruct H as [k o g l g' H1 H2 H3 E|ic oc kh kw s p d g l g' H1 H2 H3 H4 H5 E| | | | | |]; cbn [linear]; auto; try discriminate.
  - rewrite fc_new_drawn in E by auto. injection E as <- _. intros idx HI. cbn [M_Layers.fc_b] in *. change (in_range [1%Z; o] idx) in HI. rewrite el_tensor_of by auto. reflexivity.
  - rewrite conv_new_drawn in E by auto. injection E as <- _. intros idx HI. cbn [cv_b] in *. change (in_range [oc; 1%Z] idx) in HI. rewrite el_tensor_of by auto. reflexivity.
Qed.
Lemma unrectified_stack : forall ls ds ds', stack predicts ds ls ds' -> stack predicts ds (unrectified ls) ds'.
Proof.
  induction ls as [|l ls IH]; intros ds ds' H; [exact H|]. inversion H as [|? ? dm ? ? H1 H2]; subst. unfold unrectified. cbn [filter]. destruct (rectifier l) eqn:ER; cbn [negb].
  - destruct l as [|l| | | | |]; try discriminate ER. assert (dm = ds) as -> by (inversion H1 as [? ? ? HA| |]; subst; inversion HA; subst; reflexivity). apply IH; auto.
  - eapply acc_cons; [exact H1|]. apply IH; auto.
Qed.
Theorem idle_new : forall (n n' : net R G) ds ds' x, 0 < K -> stack predicts ds (n_layers n) ds' -> Forall (new_layer (G := G) true) (n_layers n) -> n_layers n' = unrectified (n_layers n) -> n_rng n' = n_rng n ->
  good x -> tdims x = ds -> no_minus x -> exists y, snd (net_predict n x) = Ok y /\ snd (net_predict n' x) = Ok y /\ tdims y = ds' /\ no_minus y.
Proof. intros n n' ds ds' x HK HA HF. apply idle_predict; auto. eapply Forall_impl; [|exact HF]. intros l. apply new_unsigned. Qed.
Theorem new_is_linear : forall (n : net R G) a b ds ds' x x' z, 0 < K -> 0 <= a -> 0 <= b -> stack predicts ds (n_layers n) ds' -> Forall (new_layer (G := G) false) (n_layers n) -> good x -> good x' -> tdims x = ds -> no_minus x -> no_minus x' -> mixture a b x x' z ->
  exists y y' v, snd (net_predict n x) = Ok y /\ snd (net_predict n x') = Ok y' /\ snd (net_predict n z) = Ok v /\ tdims y = ds' /\ mixture a b y y' v.
Proof.
  intros n a b ds ds' x x' z HK Ha Hb HA HF Gx Gx' Ex PX PX' HN. pose proof HN as (Gz & Ex' & Ez & HX).
  assert (PZ : no_minus z). { intros idx HI. rewrite Ez in HI. rewrite HX by auto. pose proof (PX idx HI). assert (0 <= el x' idx) by (apply PX'; rewrite Ex'; auto). pose proof (Rmult_le_pos a _ Ha H). pose proof (Rmult_le_pos b _ Hb H0). lra. }
  assert (HU : Forall unsigned (n_layers n)) by (eapply Forall_impl; [|exact HF]; intros l; apply new_unsigned).
  set (n' := net_with n (unrectified (n_layers n))).
  destruct (idle_predict n n' ds ds' x HK HA HU eq_refl eq_refl Gx Ex PX) as (y & E1 & E1' & _).
  destruct (idle_predict n n' ds ds' x' HK HA HU eq_refl eq_refl Gx' (eq_trans Ex' Ex) PX') as (y' & E2 & E2' & _).
  destruct (idle_predict n n' ds ds' z HK HA HU eq_refl eq_refl Gz (eq_trans Ez Ex) PZ) as (v & E3 & E3' & _).
  assert (HL : Forall linear (n_layers n')). { apply Forall_forall. intros l HI. apply filter_In in HI. destruct HI as (HI & HR1). rewrite Forall_forall in HF. apply new_linear; [apply HF; auto|]. destruct (rectifier l); [discriminate|auto]. }
  destruct (linear_predict n' a b ds ds' x x' z (unrectified_stack _ _ _ HA) HL Gx Gx' Ex HN) as (u & u' & t & F1 & F2 & F3 & F4 & F5).
  rewrite E1' in F1. injection F1 as <-. rewrite E2' in F2. injection F2 as <-. rewrite E3' in F3. injection F3 as <-. exists y, y', v. auto 10.
Qed.
(** ** Inputs below 0 *)
Theorem rectifier_shows : forall (l : actl R) x idx (g : G), (al_act l = ReLU \/ exists al, al_act l = LeakyReLU al /\ al <> 1) -> good x -> in_range (tdims x) idx -> el x idx < 0 ->
  exists y, snd (layer_forward (LAct l) x g) = Ok y /\ el y idx <> el x idx.
Proof.
  intros l x idx g HF Gx HI HX. cbn [layer_forward]. unfold act_forward. rewrite act_fwd_el by (auto; intros E; destruct HF as [F|(al & F & _)]; rewrite F in E; discriminate). unfold lift; cbn [fst snd].
  eexists. split; [reflexivity|]. rewrite el_tensor_of by auto. change (@act_el R RScalar (al_act l) (el x idx) <> el x idx). rewrite act_el_R. destruct HF as [->|(al & -> & N)]; cbn [act_fun].
  - rewrite Rmax_left by lra. lra.
  - destruct (Rlt_dec 0 (el x idx)); [lra|]. intros E. apply N. apply (Rmult_eq_reg_r (el x idx)); lra.
Qed.
End R.
