(** * Networks that only add (C140) *)
From Coq Require Import Reals Lra.
From Coquelicot Require Import Coquelicot.
From Verif Require Import Base Scalar ScalarR Types Spec SpecNN SpecLayers SpecR M_Shape M_Tensor M_Adv M_Act M_Loss M_Layers M_Reg M_Opt M_Net SpecNet SpecFuse SpecMono SpecInit
  L_Index L_Shape L_Tensor L_Nest L_Matmul L_Adv L_RSum L_Act L_ActR L_Layers L_LayersR L_Conv L_Rows L_BN L_BNR L_Net L_Train L_Drop L_AdvR L_Loss L_Batch L_Pool L_Pool2 L_Near L_Fuse L_Robust L_Init L_InitR.
Local Open Scope R_scope.

Lemma sigmoid_mono : forall u v, u <= v -> sigmoidR u <= sigmoidR v.
Proof.
  intros u v H. unfold sigmoidR. assert (exp (- v) <= exp (- u)) by (destruct (Req_dec u v) as [->|]; [lra|left; apply exp_increasing; lra]). pose proof (exp_pos (- v)). pose proof (exp_pos (- u)).
  unfold Rdiv. rewrite !Rmult_1_l. apply Rinv_le_contravar; lra.
Qed.
Lemma tanh_mono : forall u v, u <= v -> tanh u <= tanh v.
Proof.
  intros u v H. rewrite <- !exp2_tanh. set (a := exp (u * 2)). set (b := exp (v * 2)). assert (0 < a) by apply exp_pos. assert (0 < b) by apply exp_pos. assert (a <= b) by (unfold a, b; destruct (Req_dec u v) as [->|]; [lra|left; apply exp_increasing; lra]).
  apply Rmult_le_reg_r with ((a + 1) * (b + 1)); [nra|]. replace ((a - 1) / (a + 1) * ((a + 1) * (b + 1))) with ((a - 1) * (b + 1)) by (field; lra). replace ((b - 1) / (b + 1) * ((a + 1) * (b + 1))) with ((b - 1) * (a + 1)) by (field; lra). nra.
Qed.
Lemma sum_mono : forall {A} (l : list A) (x x' w : A -> R) b, (forall a, In a l -> x a <= x' a) -> (forall a, In a l -> 0 <= w a) -> rsum l (fun a => x a * w a) + b <= rsum l (fun a => x' a * w a) + b.
Proof. intros A l x x' w b H HW. apply Rplus_le_compat_r. apply rsum_le. intros a Ha. apply Rmult_le_compat_r; auto. Qed.

Lemma rsum_less : forall {A} (l : list A) (f f' : A -> R) a, In a l -> (forall b, In b l -> f b <= f' b) -> f a < f' a -> rsum l f < rsum l f'.
Proof.
  intros A l. induction l as [|c l IH]; intros f f' a HI H HA; [destruct HI|]. rewrite !rsum_cons. pose proof (H c (or_introl eq_refl)).
  assert (rsum l f <= rsum l f') by (apply rsum_le; intros; apply H; right; auto). destruct HI as [->|HI]; [lra|]. assert (rsum l f < rsum l f') by (apply (IH f f' a HI); auto; intros; apply H; right; auto). lra.
Qed.
Lemma Rmult_lt_gt_compat_neg_l' : forall u v w, w < 0 -> u < v -> v * w < u * w.
Proof. intros. nra. Qed.
Lemma exp_m1 : / 3 <= exp (-1) <= / 2.
Proof. replace (-1) with (- (1)) by ring. rewrite exp_Ropp. pose proof exp_le_3. pose proof (exp_ineq1 1 ltac:(lra)). split; apply Rinv_le_contravar; lra. Qed.
Lemma exp_m4 : exp (-4) = exp (-1) * exp (-1) * (exp (-1) * exp (-1)).
Proof. rewrite <- !exp_plus. f_equal. ring. Qed.
Lemma mish_closed : forall u, tanh (ln (1 + exp u)) = exp u * (exp u + 2) / (exp u * (exp u + 2) + 2).
Proof.
  intros u. pose proof (exp_pos u). rewrite <- exp2_tanh. replace (ln (1 + exp u) * 2) with (ln (1 + exp u) + ln (1 + exp u)) by ring. rewrite exp_plus, exp_ln by lra. field; repeat split; nra.
Qed.
Lemma swish_dips : -1 * sigmoidR (-1) < -4 * sigmoidR (-4).
Proof.
  unfold sigmoidR. replace (- -1) with 1 by ring. replace (- -4) with (1 + 1 + (1 + 1)) by ring. rewrite !exp_plus. pose proof (exp_ineq1 1 ltac:(lra)). set (e := exp 1) in *. assert (4 <= e * e) by nra. assert (8 * e <= e * e * (e * e)) by nra.
  apply Rmult_lt_reg_r with ((1 + e) * (1 + e * e * (e * e))); [nra|]. replace (-1 * (1 / (1 + e)) * ((1 + e) * (1 + e * e * (e * e)))) with (- (1 + e * e * (e * e))) by (field; lra).
  replace (-4 * (1 / (1 + e * e * (e * e))) * ((1 + e) * (1 + e * e * (e * e)))) with (-4 * (1 + e)) by (field; nra). lra.
Qed.
Lemma mish_dips : -1 * tanh (ln (1 + exp (-1))) < -4 * tanh (ln (1 + exp (-4))).
Proof.
  rewrite !mish_closed. rewrite exp_m4. pose proof exp_m1 as (A & B). set (t := exp (-1)) in *. assert (C : 0 < t * t <= / 4) by nra. set (u := t * t) in *. assert (D : 0 < u * u <= / 16) by nra. set (v := u * u) in *.
  assert (P : 7 / 9 <= t * (t + 2)) by nra. assert (Q : 0 < v * (v + 2) <= 33 / 256) by nra. set (p := t * (t + 2)) in *. set (q := v * (v + 2)) in *. clearbody p q.
  apply Rmult_lt_reg_r with ((p + 2) * (q + 2)); [nra|]. replace (-1 * (p / (p + 2)) * ((p + 2) * (q + 2))) with (- (p * (q + 2))) by (field; lra). replace (-4 * (q / (q + 2)) * ((p + 2) * (q + 2))) with (-4 * (q * (p + 2))) by (field; lra). nra.
Qed.
Section R.
Variable K : R.
Let SI : Scalar R := RInf K.
#[local] Existing Instance SI.
Context {G : Type} {HR : Rng R G}.
Lemma act_mono : forall (f : act R) u v, match f with ReLU | Sigmoid | Tanh => True | LeakyReLU al => 0 <= al | Swish | Mish | Softmax => False end -> u <= v -> act_el f u <= act_el f v.
Proof.
  intros f u v HF H. change (@act_el R RScalar f u <= @act_el R RScalar f v). rewrite !act_el_R. destruct f; try tauto; cbn [act_fun].
  - unfold Rmax. destruct (Rle_dec 0 u), (Rle_dec 0 v); lra.
  - destruct (Rlt_dec 0 u), (Rlt_dec 0 v); nra.
  - apply sigmoid_mono; auto.
  - apply tanh_mono; auto.
Qed.
Lemma keep_mono : forall {A} (f f' : A -> R) pos (l : list A), (forall a, In a l -> f a <= f' a) -> forall s s' : R * Z * Z, fst (fst s) <= fst (fst s') ->
  fst (fst (fold_left (keep f pos) l s)) <= fst (fst (fold_left (keep f' pos) l s')).
Proof.
  intros A f f' pos l. induction l as [|a l IH]; intros H s s' Hs; [exact Hs|]. cbn [fold_left]. apply IH; [intros; apply H; right; auto|].
  destruct s as [[m p] q], s' as [[m' p'] q']. cbn [fst] in Hs. unfold keep. change (@s_lt R SI) with Rltb. unfold Rltb. pose proof (H a (or_introl eq_refl)) as Ha.
  destruct (Rlt_dec m (f a)), (Rlt_dec m' (f' a)); cbn [fst]; lra.
Qed.
Lemma raised_of : forall ds (f f' : list Z -> R), pos_dims ds -> (prod ds <= INT_MAX)%Z -> (forall idx, in_range ds idx -> f idx <= f' idx) -> raised (tensor_of ds f) (tensor_of ds f').
Proof. intros ds f f' HP HM H. split; [apply good_tensor_of; auto|]. split; [reflexivity|]. intros idx HI. change (in_range ds idx) in HI. rewrite !el_tensor_of by auto. auto. Qed.
Lemma mono_step : forall ds l ds' (x x' : tensor R) (g : G), predicts ds l ds' -> upward l -> good x -> tdims x = ds -> raised x x' ->
  exists l1 l1' g' y y', layer_forward l x g = (l1, g', Ok y) /\ layer_forward l x' g = (l1', g', Ok y') /\ good y /\ tdims y = ds' /\ raised y y'.
Proof.
  intros ds l ds' x x' g HP HL Gx Ex HN. pose proof HN as (Gx' & Ex' & HX). rewrite Ex in Ex'.
  destruct HP as [ds l ds' HA|f ds l B1 B2 B3|ds l B1].
  2:{ destruct (bn_rows_ready f l B1) as (R1 & R2 & R3). cbn [layer_forward]. assert (HF : featured f (tdims x)) by (rewrite Ex; auto). assert (HF' : featured f (tdims x')) by (rewrite Ex'; auto).
      rewrite (bn_forward_eval f l x R1 R2 R3 B2 Gx HF), (bn_forward_eval f l x' R1 R2 R3 B2 Gx' HF'). unfold lift; cbn [fst snd]. do 5 eexists. split; [reflexivity|]. split; [reflexivity|].
      split; [apply bn_out_good; auto|]. split; [exact Ex|]. unfold bn_out. rewrite Ex, Ex'. apply raised_of; [rewrite <- Ex; apply good_pos; auto|rewrite <- Ex; apply good_max; auto|].
      intros idx HI. assert (HJ : (0 <= nth 1 idx 0 < f)%Z).
      { destruct B3 as [(n & ->)|(n & h & w & ->)]; [apply in_range_2 in HI; destruct HI as (i & j & -> & _ & Hj); exact Hj|apply in_range_4 in HI; destruct HI as (i & j & y & z & -> & _ & Hj & _); exact Hj]. }
      pose proof (HL f (nth 1 idx 0%Z) B1 HJ) as K0. destruct B1 as ((A1 & A2) & (C1 & C2) & (D1 & D2) & (E1 & E2)). rewrite !(feat_row f) by auto. set (j := nth 1 idx 0%Z) in *.
      change (normalised (bn_eps l) (el (bn_rmean l) [0%Z; j]) (el (bn_rvar l) [0%Z; j]) (el (bn_gamma l) [0%Z; j]) (el (bn_beta l) [0%Z; j]) (el x' idx)) with
        ((el x' idx - el (bn_rmean l) [0%Z; j]) / sqrt (el (bn_rvar l) [0%Z; j] + bn_eps l) * el (bn_gamma l) [0%Z; j] + el (bn_beta l) [0%Z; j]).
      change (normalised (bn_eps l) (el (bn_rmean l) [0%Z; j]) (el (bn_rvar l) [0%Z; j]) (el (bn_gamma l) [0%Z; j]) (el (bn_beta l) [0%Z; j]) (el x idx)) with
        ((el x idx - el (bn_rmean l) [0%Z; j]) / sqrt (el (bn_rvar l) [0%Z; j] + bn_eps l) * el (bn_gamma l) [0%Z; j] + el (bn_beta l) [0%Z; j]).
      destruct K0 as (KG & KV). assert (KS : 0 < sqrt (el (bn_rvar l) [0%Z; j] + bn_eps l)) by (apply sqrt_lt_R0; auto). apply Rplus_le_compat_r. apply Rmult_le_compat_r; [auto|]. unfold Rdiv. apply Rmult_le_compat_r; [left; apply Rinv_0_lt_compat; auto|].
      apply Rplus_le_compat_r. apply HX. rewrite Ex. exact HI. }
  2:{ cbn [layer_forward]. rewrite !dropout_eval by auto. do 5 eexists. split; [reflexivity|]. split; [reflexivity|]. split; [auto|]. split; [auto|]. split; [auto|]. split; [congruence|].
      intros idx HI. apply HX; exact HI. }
  destruct HA as [n k o l W1 W2 W3 W4 HM|ds l HS|b d ds l HD|n h w l W1 W2 W3 W4 H1 H2 HM|n d h w l H1 H2 H3 H4 H5|ds l HTr]; cbn [layer_forward] in *.
  - assert (HW : fc_wf l k o) by (split; auto). rewrite (fc_forward_2 l k o x n HW Gx Ex HM), (fc_forward_2 l k o x' n HW Gx' Ex' HM). unfold lift; cbn [fst snd].
    destruct (dims2_pos x n k Gx Ex) as (Hn & Hk & _). destruct (dims2_pos _ k o W1 W2) as (_ & Ho & _).
    do 5 eexists. split; [reflexivity|]. split; [reflexivity|]. split; [apply good_2; auto|]. split; [reflexivity|].
    apply raised_of; [auto with idx|simpl; lia|]. intros idx HI. apply in_range_2 in HI. destruct HI as (i & j & -> & Hi & Hj). unfold fn2. cbn [nth].
    change (@affine R RScalar k (M_Layers.fc_w l) (M_Layers.fc_b l) (fun p => el x [i; p]) j <= @affine R RScalar k (M_Layers.fc_w l) (M_Layers.fc_b l) (fun p => el x' [i; p]) j). rewrite !affine_R.
    apply sum_mono; intros p Hp; apply In_zrange in Hp; [apply HX; rewrite Ex; apply in_range2; auto|]. apply HL. rewrite W2. apply in_range2; auto.
  - unfold act_forward. cbn [upward] in HL. assert (NS : al_act l <> Softmax) by (intros E; rewrite E in HL; exact HL).
    rewrite !act_fwd_el by auto. unfold lift; cbn [fst snd].
      do 5 eexists. split; [reflexivity|]. split; [reflexivity|]. split; [apply good_tensor_of; [apply good_pos; auto|apply good_max; auto]|]. split; [exact Ex|]. rewrite Ex, Ex'.
      apply raised_of; [rewrite <- Ex; apply good_pos; auto|rewrite <- Ex; apply good_max; auto|]. intros idx HI. apply act_mono; auto. apply HX. rewrite Ex. auto.
  - destruct (flat_any l x b d ds Gx Ex) as (l1 & E1). destruct (flat_any l x' b d ds Gx' Ex') as (l1' & E1'). rewrite E1, E1'. unfold lift; cbn [fst snd].
    pose proof (good_pos x Gx) as PX. pose proof (good_max x Gx) as MX. rewrite Ex in PX, MX. destruct PX as (_ & PF). inversion PF as [|? ? P1 P2]; subst.
    pose proof (prod_pos _ P2) as PP. cbn [prod] in MX, PP.
    assert (PD : pos_dims [b; prod (d :: ds)]) by (split; [discriminate|]; repeat constructor; auto). assert (MD : (prod [b; prod (d :: ds)] <= INT_MAX)%Z) by (cbn [prod]; lia).
    do 5 eexists. split; [reflexivity|]. split; [reflexivity|]. split; [apply good_in_shape; auto|]. split; [reflexivity|].
    split; [apply good_in_shape; auto|]. split; [reflexivity|]. intros idx HI. change (in_range [b; prod (d :: ds)] idx) in HI. rewrite !el_in_shape by auto.
    pose proof (ravel_bound _ _ HI) as RB. assert (RB' : (0 <= ravel [b; prod (d :: ds)] idx < prod (tdims x))%Z) by (rewrite Ex; cbn [prod] in RB |- *; lia).
    assert (UR : in_range (tdims x) (unravel (tdims x) (ravel [b; prod (d :: ds)] idx))) by (apply unravel_range; [apply good_dims; auto|auto]). pose proof (HX _ UR) as K0. unfold el in K0. rewrite Ex', <- Ex in K0.
    rewrite !ravel_unravel in K0 by (auto; apply good_dims; auto). exact K0.
  - assert (HW : conv_wf l) by (split; auto). rewrite (conv_forward_ok l x n h w HW Gx Ex H1 H2 HM), (conv_forward_ok l x' n h w HW Gx' Ex' H1 H2 HM). unfold lift; cbn [fst snd].
    destruct (dims4_pos x _ _ _ _ Gx Ex) as (Hn & Hic & Hh & Hw & _). destruct (dims4_pos _ _ _ _ _ W1 W2) as (Hoc & _ & Hkh & Hkw & _).
    do 5 eexists. split; [reflexivity|]. split; [reflexivity|]. split; [apply good_4; auto; lia|]. split; [reflexivity|].
    apply raised_of; [split; [discriminate|]; repeat constructor; auto; lia|simpl; lia|]. intros idx HI. apply in_range_4 in HI. destruct HI as (i & j & y & z & -> & Hi & Hj & Hy & Hz).
    unfold fn4, conv0. cbn [nth]. change (@s_add R SI) with Rplus.
    change (@fsum R SI) with (@fsum R RScalar). rewrite !fsum_R. change (@s_mul R SI) with Rmult.
    apply (sum_mono (all_indices [cv_kh l; cv_kw l]) (fn2 (fun p q => el x [i; 0%Z; (y + p)%Z; (z + q)%Z])) (fn2 (fun p q => el x' [i; 0%Z; (y + p)%Z; (z + q)%Z])) (fn2 (fun p q => el (cv_w l) [j; 0%Z; p; q]))).
    + intros k HK. apply In_all_indices in HK; [|repeat constructor; auto]. apply in_range_2 in HK. destruct HK as (p & q & -> & Hp & Hq). unfold fn2. cbn [nth]. apply HX. rewrite Ex. apply in_range4; lia.
    + intros k HK. apply In_all_indices in HK; [|repeat constructor; auto]. apply in_range_2 in HK. destruct HK as (p & q & -> & Hp & Hq). unfold fn2. cbn [nth]. apply HL. rewrite W2. apply in_range4; lia.
  - rewrite (pool_forward_any l x n d h w), (pool_forward_any l x' n d h w) by auto. unfold lift; cbn [fst snd]. destruct (pool_sizes l x n d h w Gx Ex H2 H3 H4 H5) as (Pn & Pc & Poh & Pow & HM & _).
    do 5 eexists. split; [reflexivity|]. split; [reflexivity|]. split; [apply good_4; auto|]. split; [reflexivity|].
    apply raised_of; [split; [discriminate|]; repeat constructor; auto|simpl; lia|]. intros o HO. change (@value R (RInf K) l x o <= @value R (RInf K) l x' o). rewrite (pool_value K l x n d h w o), (pool_value K l x' n d h w o) by auto.
    apply keep_mono; [|cbn [fst]; lra]. intros k HK. apply In_all_indices in HK; [|repeat constructor; auto]. apply HX. apply (window_in l x n d h w); auto.
  - cbn [upward] in HL. destruct (dropout_train l x g HTr Gx) as (r & g1 & F1 & Gr & Er & E1). destruct (dropout_train l x' g HTr Gx') as (r' & g1' & F1' & Gr' & Er' & E1'). rewrite Ex in F1. rewrite Ex', F1 in F1'. injection F1' as <- <-. rewrite E1, E1'.
    do 5 eexists. split; [reflexivity|]. split; [reflexivity|]. split; [apply good_tensor_of; [apply good_pos; auto|apply good_max; auto]|]. split; [exact Ex|]. rewrite Ex, Ex'.
    apply raised_of; [rewrite <- Ex; apply good_pos; auto|rewrite <- Ex; apply good_max; auto|]. intros idx HI. change (@s_mul R SI) with Rmult. change (@s_div R SI) with Rdiv. change (@s_sub R SI) with Rminus. change (@s_z R SI 1) with 1. change (@s_z R SI 0) with 0.
    assert (Q : el x idx <= el x' idx) by (apply HX; rewrite Ex; auto). match goal with |- context [if ?b then _ else _] => destruct b end; [|rewrite !Rmult_0_r, !Rmult_0_l; lra].
    rewrite !Rmult_1_r. apply Rmult_le_compat_r; [|auto]. left. apply Rdiv_lt_0_compat; lra.
Qed.
Lemma mono_chain : forall ls ds ds' (x x' : tensor R) (g : G), stack predicts ds ls ds' -> Forall upward ls -> good x -> tdims x = ds -> raised x x' ->
  exists l1 l1' g' y y', forward_all ls x g = (l1, g', Ok y) /\ forward_all ls x' g = (l1', g', Ok y') /\ good y /\ tdims y = ds' /\ raised y y'.
Proof.
  induction ls as [|l ls IH]; intros ds ds' x x' g HA HU Gx Ex HN.
  - inversion HA; subst. exists [], [], g, x, x'. auto.
  - inversion HA as [|? ? dm ? ? H1 H2]; subst. inversion HU as [|? ? G1 G2]; subst.
    destruct (mono_step _ l dm x x' g H1 G1 Gx eq_refl HN) as (l1 & l1' & g1 & y & y' & E1 & E1' & Gy & Ey & HY).
    destruct (IH dm ds' y y' g1 H2 G2 Gy Ey HY) as (ls1 & ls1' & g2 & z & z' & E2 & E2' & Gz & Ez & HZ).
    exists (l1 :: ls1), (l1' :: ls1'), g2, z, z'. cbn [forward_all]. rewrite E1, E1', E2, E2'. auto.
Qed.
Theorem mono_predict : forall (n : net R G) ds ds' x x', stack predicts ds (n_layers n) ds' -> Forall upward (n_layers n) -> good x -> tdims x = ds -> raised x x' ->
  exists y y', snd (net_predict n x) = Ok y /\ snd (net_predict n x') = Ok y' /\ tdims y = ds' /\ raised y y'.
Proof.
  intros n ds ds' x x' HA HU Gx Ex HN. destruct (mono_chain (n_layers n) ds ds' x x' (n_rng n) HA HU Gx Ex HN) as (l1 & l1' & g' & y & y' & E & E' & Gy & Ey & HY).
  exists y, y'. unfold net_predict. rewrite E, E'. cbn [snd]. auto.
Qed.
(** ** New layers *)
Lemma clamp_pos : forall v, 0 <= clamp zero one v.
Proof. intros v. change (0 <= @clamp R RScalar 0 1 v). apply clamp_R. Qed.
Lemma fresh_upward : forall l, fresh (G := G) l -> upward l.
Proof.
  intros l H. destruct H as [k o g l g' H1 H2 H3 E|ic oc kh kw s p d g l g' H1 H2 H3 H4 H5 E|f HF| | |rate Hr]; cbn [upward]; auto.
  - rewrite fc_new_drawn in E by auto. injection E as <- _. cbn [M_Layers.fc_w]. unfold drawn. intros idx HI. change (in_range [k; o] idx) in HI. rewrite el_tensor_of by auto. apply clamp_pos.
  - rewrite conv_new_drawn in E by auto. injection E as <- _. cbn [cv_w]. unfold drawn. intros idx HI. change (in_range [oc; ic; kh; kw] idx) in HI. rewrite el_tensor_of by auto. apply clamp_pos.
  - destruct HF as [->|[->|[->|(al & -> & Ha)]]]; cbn; auto.
Qed.
Theorem mono_new : forall (n : net R G) ds ds' x x', stack predicts ds (n_layers n) ds' -> Forall (fresh (G := G)) (n_layers n) -> good x -> tdims x = ds -> raised x x' ->
  exists y y', snd (net_predict n x) = Ok y /\ snd (net_predict n x') = Ok y' /\ tdims y = ds' /\ raised y y'.
Proof. intros n ds ds' x x' HA HF. apply mono_predict; auto. apply (Forall_impl _ fresh_upward HF). Qed.
(** ** The conditions are needed *)
Lemma dense_falls : forall (l : fc R) n k o x x' i p j (g : G), good (fc_w l) -> tdims (fc_w l) = [k; o] -> good (fc_b l) -> tdims (fc_b l) = [1%Z; o] -> (n * o <= INT_MAX)%Z -> good x -> tdims x = [n; k] -> good x' -> tdims x' = [n; k] ->
  (0 <= i < n)%Z -> (0 <= p < k)%Z -> (0 <= j < o)%Z -> el (fc_w l) [p; j] < 0 -> el x [i; p] < el x' [i; p] -> (forall q, (0 <= q < k)%Z -> q <> p -> el x' [i; q] = el x [i; q]) ->
  exists y y', snd (layer_forward (LFC l) x g) = Ok y /\ snd (layer_forward (LFC l) x' g) = Ok y' /\ el y' [i; j] < el y [i; j].
Proof.
  intros l n k o x x' i p j g W1 W2 W3 W4 HM Gx Ex Gx' Ex' Hi Hp Hj HW HP HQ. cbn [layer_forward]. assert (Hw : fc_wf l k o) by (split; auto).
  rewrite (fc_forward_2 l k o x n Hw Gx Ex HM), (fc_forward_2 l k o x' n Hw Gx' Ex' HM). unfold lift; cbn [fst snd]. do 2 eexists. split; [reflexivity|]. split; [reflexivity|].
  rewrite !el_tensor_of by (apply in_range2; auto). unfold fn2. cbn [nth].
  change (@affine R RScalar k (M_Layers.fc_w l) (M_Layers.fc_b l) (fun p => el x' [i; p]) j < @affine R RScalar k (M_Layers.fc_w l) (M_Layers.fc_b l) (fun p => el x [i; p]) j). rewrite !affine_R.
  apply Rplus_lt_compat_r. apply (rsum_less _ _ _ p); [apply In_zrange; auto| |apply Rmult_lt_gt_compat_neg_l'; auto].
  intros q Hq. apply In_zrange in Hq. destruct (Z.eq_dec q p) as [->|N]; [left; apply Rmult_lt_gt_compat_neg_l'; auto|]. rewrite HQ by auto. lra.
Qed.
Lemma softmax_falls : forall (l : actl R) n c x x' i j k (g : G), al_act l = Softmax -> good x -> tdims x = [n; c] -> good x' -> tdims x' = [n; c] ->
  (0 <= i < n)%Z -> (0 <= j < c)%Z -> (0 <= k < c)%Z -> k <> j -> el x [i; j] < el x' [i; j] -> (forall q, (0 <= q < c)%Z -> q <> j -> el x' [i; q] = el x [i; q]) ->
  exists y y', snd (layer_forward (LAct l) x g) = Ok y /\ snd (layer_forward (LAct l) x' g) = Ok y' /\ el y' [i; k] < el y [i; k] /\ el y [i; j] < el y' [i; j].
Proof.
  intros l n c x x' i j k g HA Gx Ex Gx' Ex' Hi Hj Hk N HJ HQ. cbn [layer_forward]. unfold act_forward. rewrite HA. cbn [act_fwd].
  rewrite (softmax_fwd_ok x n [c] Gx Ex), (softmax_fwd_ok x' n [c] Gx' Ex') by discriminate. unfold lift; cbn [fst snd]. do 2 eexists. split; [reflexivity|]. split; [reflexivity|].
  rewrite Ex, Ex'. rewrite !el_tensor_of by (apply in_range2; auto). cbn [nth].
  assert (PC : Forall (fun d => (0 < d)%Z) [c]) by (repeat constructor; lia).
  change (@softmax_of R RScalar (@row R RScalar [c] x' i) (@el R RScalar x' [i; k]) < @softmax_of R RScalar (@row R RScalar [c] x i) (@el R RScalar x [i; k]) /\ @softmax_of R RScalar (@row R RScalar [c] x i) (@el R RScalar x [i; j]) < @softmax_of R RScalar (@row R RScalar [c] x' i) (@el R RScalar x' [i; j])).
  rewrite !softmax_of_R by auto. change (@el R RScalar) with (@el R SI). rewrite HQ by auto.
  unfold rowsum. change (@el R RScalar) with (@el R SI). set (f := fun q : list Z => exp (el x (i :: q))). set (f' := fun q : list Z => exp (el x' (i :: q))). set (s := rsum (all_indices [c]) f). set (s' := rsum (all_indices [c]) f').
  assert (IJ : In [j] (all_indices [c])) by (apply In_all_indices; auto; repeat constructor; lia). assert (IK : In [k] (all_indices [c])) by (apply In_all_indices; auto; repeat constructor; lia).
  assert (EJ : exp (el x [i; j]) < exp (el x' [i; j])) by (apply exp_increasing; auto).
  assert (HF : forall q, In q (all_indices [c]) -> q <> [j] -> f' q = f q).
  { intros q Hq Nq. apply In_all_indices in Hq; auto. inversion Hq as [|? a ? b Ha Hb]; subst. inversion Hb; subst. unfold f, f'. rewrite HQ; auto. intros ->. apply Nq. reflexivity. }
  assert (D : s' - s = exp (el x' [i; j]) - exp (el x [i; j])).
  { unfold s, s'. rewrite <- rsum_minus. rewrite (rsum_single _ _ [j]); [reflexivity|apply NoDup_all_indices; auto|exact IJ|]. intros q Hq Nq. rewrite HF by auto. ring. }
  assert (L : exp (el x [i; j]) < s).
  { assert (SJ : rsum (all_indices [c]) (fun q => if list_eq_dec Z.eq_dec q [j] then f q else 0) = exp (el x [i; j])).
    { rewrite (rsum_single _ _ [j]); [destruct (list_eq_dec Z.eq_dec [j] [j]); [reflexivity|congruence]|apply NoDup_all_indices; auto|exact IJ|]. intros q Hq Nq. destruct (list_eq_dec Z.eq_dec q [j]); [congruence|reflexivity]. }
    rewrite <- SJ.
    - apply (rsum_less _ _ _ [k]); [exact IK| |].
      + intros q Hq. destruct (list_eq_dec Z.eq_dec q [j]); [lra|]. left. apply exp_pos.
      + destruct (list_eq_dec Z.eq_dec [k] [j]) as [E|E]; [congruence|apply exp_pos]. }
  pose proof (exp_pos (el x [i; j])). pose proof (exp_pos (el x [i; k])). split.
  - unfold Rdiv. apply Rmult_lt_compat_l; [auto|]. apply Rinv_lt_contravar; [apply Rmult_lt_0_compat; lra|lra].
  - apply Rmult_lt_reg_r with (s * s'); [apply Rmult_lt_0_compat; lra|]. replace (exp (el x [i; j]) / s * (s * s')) with (exp (el x [i; j]) * s') by (field; lra). replace (exp (el x' [i; j]) / s' * (s * s')) with (exp (el x' [i; j]) * s) by (field; lra).
    replace s' with (s + (exp (el x' [i; j]) - exp (el x [i; j]))) by lra. nra.
Qed.
Lemma dips_fall : forall (l : actl R) x x' idx (g : G), al_act l = Swish \/ al_act l = Mish -> good x -> good x' -> tdims x' = tdims x -> in_range (tdims x) idx -> el x idx = -4 -> el x' idx = -1 ->
  exists y y', snd (layer_forward (LAct l) x g) = Ok y /\ snd (layer_forward (LAct l) x' g) = Ok y' /\ el y' idx < el y idx.
Proof.
  intros l x x' idx g HA Gx Gx' E HI E1 E2. cbn [layer_forward]. unfold act_forward. assert (NS : al_act l <> Softmax) by (destruct HA as [-> | ->]; discriminate). rewrite !act_fwd_el by auto. unfold lift; cbn [fst snd].
  do 2 eexists. split; [reflexivity|]. split; [reflexivity|]. rewrite E. rewrite !el_tensor_of by auto. change (@act_el R RScalar (al_act l) (el x' idx) < @act_el R RScalar (al_act l) (el x idx)). rewrite !act_el_R, E1, E2.
  destruct HA as [-> | ->]; cbn [act_fun]; [apply swish_dips|apply mish_dips].
Qed.
End R.
