(** * How far a change of the input can carry (C137) *)
From Coq Require Import Reals Lra.
From Coquelicot Require Import Coquelicot.
From Verif Require Import Base Scalar ScalarR Types Spec SpecNN SpecLayers SpecR M_Shape M_Tensor M_Adv M_Act M_Loss M_Layers M_Reg M_Opt M_Net SpecNet SpecFuse SpecRobust
  L_Index L_Shape L_Tensor L_Nest L_Matmul L_Adv L_RSum L_Act L_ActR L_Layers L_LayersR L_Conv L_Rows L_BN L_BNR L_Net L_Train L_Drop L_AdvR L_Loss L_Batch L_Pool L_Pool2 L_Near L_Fuse.
Local Open Scope R_scope.

(** ** Activations *)
Lemma lip : forall (f df : R -> R) K, (forall v, is_derive f v (df v)) -> (forall v, Rabs (df v) <= K) -> forall u v, Rabs (f v - f u) <= K * Rabs (v - u).
Proof.
  intros f df K HD HB u v. destruct (MVT_gen f u v df) as (c & _ & E); [auto| |].
  - intros x _. apply continuity_pt_filterlim. apply (ex_derive_continuous f). exists (df x). apply HD.
  - rewrite E, Rabs_mult. apply Rmult_le_compat_r; [apply Rabs_pos|auto].
Qed.
Lemma abs_exp : forall v, 1 + Rabs v <= exp v + exp (- v).
Proof. intros v. pose proof (exp_ineq1_le v). pose proof (exp_ineq1_le (- v)). pose proof (exp_pos v). pose proof (exp_pos (- v)). unfold Rabs. destruct (Rcase_abs v); lra. Qed.
Lemma swish_part : forall v, Rabs (v * (sigmoidR v * (1 - sigmoidR v))) <= 1.
Proof.
  intros v. pose proof (abs_exp v) as A. pose proof (exp_pos v) as P. pose proof (exp_pos (- v)) as Q. pose proof (Rabs_pos v) as R0.
  assert (EP : exp v * exp (- v) = 1) by (rewrite <- exp_plus, Rplus_opp_r, exp_0; auto).
  assert (E : sigmoidR v * (1 - sigmoidR v) = / (2 + (exp v + exp (- v)))).
  { unfold sigmoidR. set (a := exp (- v)) in *. set (b := exp v) in *. replace (2 + (b + a)) with ((1 + a) * (1 + b)) by nra. assert (HB : b = / a) by (apply (Rmult_eq_reg_r a); [rewrite Rinv_l by lra; lra|lra]). rewrite HB. field. split; lra. }
  rewrite E, Rabs_mult. set (D := 2 + (exp v + exp (- v))) in *. assert (HD : 0 < D) by (unfold D; lra). rewrite (Rabs_right (/ D)) by (left; apply Rinv_0_lt_compat; auto).
  apply (Rmult_le_reg_r D); auto. rewrite Rmult_assoc, Rinv_l by lra. unfold D. lra.
Qed.
Lemma swish_bound : forall v, Rabs (act_der Swish v) <= 2.
Proof.
  intros v. cbn [act_der]. replace (sigmoidR v * (1 + v * (1 - sigmoidR v))) with (sigmoidR v + v * (sigmoidR v * (1 - sigmoidR v))) by ring. eapply Rle_trans; [apply Rabs_triang|].
  pose proof (swish_part v). pose proof (sigmoid_range v). rewrite (Rabs_right (sigmoidR v)) by lra. lra.
Qed.
Lemma mish_part : forall v, let t := tanh (ln (1 + exp v)) in Rabs (v * (1 - t * t) * sigmoidR v) <= 1.
Proof.
  intros v t. pose proof (tanh_range (ln (1 + exp v))) as HT. fold t in HT. pose proof (sigmoid_range v) as HS. assert (H1 : 0 <= 1 - t * t <= 1) by nra. pose proof (exp_pos v) as P.
  rewrite !Rabs_mult, (Rabs_right (1 - t * t)), (Rabs_right (sigmoidR v)) by lra. destruct (Rle_dec 0 v) as [HV|HV].
  - rewrite Rabs_right by lra. pose proof (exp_ineq1_le v) as X. set (u := 1 + exp v) in *.
    assert (ET : t = (u * u - 1) / (u * u + 1)).
    { unfold t. rewrite <- exp2_tanh. replace (ln u * 2) with (ln u + ln u) by ring. rewrite exp_plus, exp_ln by (unfold u; lra). reflexivity. }
    assert (HU : 2 + v <= u) by (unfold u; lra). assert (E1 : 1 - t * t = 4 * (u * u) / ((u * u + 1) * (u * u + 1))) by (rewrite ET; field; nra).
    assert (E2 : v * (1 - t * t) <= 1).
    { rewrite E1. apply (Rmult_le_reg_r ((u * u + 1) * (u * u + 1))); [nra|]. replace (v * (4 * (u * u) / ((u * u + 1) * (u * u + 1))) * ((u * u + 1) * (u * u + 1))) with (4 * v * (u * u)) by (field; nra).
      assert (4 * v <= u * u) by nra. assert (0 < u * u) by nra. nra. }
    assert (0 <= v * (1 - t * t)) by (apply Rmult_le_pos; lra). nra.
  - assert (HN : v < 0) by lra. rewrite (Rabs_left v) by lra. assert (E2 : - v * sigmoidR v <= 1).
    { unfold sigmoidR. pose proof (exp_ineq1_le (- v)) as X. unfold Rdiv. rewrite Rmult_1_l. apply (Rmult_le_reg_r (1 + exp (- v))); [lra|]. rewrite Rmult_assoc, Rinv_l by lra. lra. }
    assert (0 <= - v * sigmoidR v) by (apply Rmult_le_pos; lra). nra.
Qed.
Lemma mish_bound : forall v, Rabs (act_der Mish v) <= 2.
Proof.
  intros v. cbn [act_der]. eapply Rle_trans; [apply Rabs_triang|]. pose proof (mish_part v) as H. cbv zeta in H. pose proof (tanh_range (ln (1 + exp v))).
  assert (Rabs (tanh (ln (1 + exp v))) <= 1) by (apply Rabs_le; lra). lra.
Qed.
Lemma sigmoid_bound : forall v, Rabs (act_der Sigmoid v) <= 1.
Proof. intros v. cbn [act_der]. pose proof (sigmoid_range v). apply Rabs_le. nra. Qed.
Lemma tanh_bound : forall v, Rabs (act_der Tanh v) <= 1.
Proof. intros v. cbn [act_der]. pose proof (tanh_range v). apply Rabs_le. nra. Qed.
Lemma relu_lip : forall al u v L, 1 <= L -> Rabs al <= L -> Rabs ((if Rltb 0 v then v else al * v) - (if Rltb 0 u then u else al * u)) <= L * Rabs (v - u).
Proof.
  intros al u v L H1 H2. apply Rabs_le_between in H2. unfold Rltb. destruct (Rlt_dec 0 v), (Rlt_dec 0 u).
  - pose proof (Rabs_pos (v - u)). nra.
  - rewrite (Rabs_right (v - u)) by lra. apply Rabs_le. nra.
  - rewrite (Rabs_left (v - u)) by lra. apply Rabs_le. nra.
  - replace (al * v - al * u) with (al * (v - u)) by ring. rewrite Rabs_mult. apply Rmult_le_compat_r; [apply Rabs_pos|apply Rabs_le; lra].
Qed.

Lemma rsum_abs : forall {A} (l : list A) (f : A -> R), Rabs (rsum l f) <= rsum l (fun a => Rabs (f a)).
Proof. intros A l f. induction l as [|a l IH]; [rewrite !rsum_nil, Rabs_R0; lra|]. rewrite !rsum_cons. eapply Rle_trans; [apply Rabs_triang|]. lra. Qed.
(** A weighted sum of elements that each change by at most [e]. *)
Lemma sum_near : forall {A} (l : list A) (x x' w : A -> R) e L, (forall a, In a l -> Rabs (x' a - x a) <= e) -> rsum l (fun a => Rabs (w a)) <= L -> 0 <= e ->
  Rabs (rsum l (fun a => x' a * w a) - rsum l (fun a => x a * w a)) <= L * e.
Proof.
  intros A l x x' w e L H HL He. rewrite <- rsum_minus. eapply Rle_trans; [apply rsum_abs|]. eapply Rle_trans; [apply (rsum_le _ _ (fun a => Rabs (w a) * e))|rewrite rsum_scal_r; apply Rmult_le_compat_r; auto].
  intros a Ha. replace (x' a * w a - x a * w a) with (w a * (x' a - x a)) by ring. rewrite Rabs_mult. apply Rmult_le_compat_l; [apply Rabs_pos|auto].
Qed.

Section R.
Variable M : R.
Let SI : Scalar R := RInf M.
#[local] Existing Instance SI.
Context {G : Type} {HR : Rng R G}.
Lemma act_near : forall (f : act R) e L u v, f <> Softmax -> match f with ReLU | Sigmoid | Tanh => 1 <= L | LeakyReLU al => 1 <= L /\ Rabs al <= L | Swish | Mish | Softmax => 2 <= L end ->
  0 <= e -> Rabs (v - u) <= e -> Rabs (act_el f v - act_el f u) <= L * e.
Proof.
  intros f e L u v NS HL He H. assert (HL1 : 1 <= L) by (destruct f; lra).
  assert (X : Rabs (act_el f v - act_el f u) <= L * Rabs (v - u)).
  { change (Rabs (@act_el R RScalar f v - @act_el R RScalar f u) <= L * Rabs (v - u)). rewrite !act_el_R. destruct f; try congruence.
    - cbn [act_fun]. pose proof (relu_lip 0 u v L HL1 ltac:(rewrite Rabs_R0; lra)) as K. rewrite !Rmult_0_l in K. eapply Rle_trans; [|exact K]. right. f_equal. unfold Rltb, Rmax. destruct (Rle_dec 0 v), (Rlt_dec 0 v), (Rle_dec 0 u), (Rlt_dec 0 u); lra.
    - cbn [act_fun]. pose proof (relu_lip alpha u v L HL1 (proj2 HL)) as K. eapply Rle_trans; [|exact K]. right. f_equal. unfold Rltb. destruct (Rlt_dec 0 v), (Rlt_dec 0 u); lra.
    - eapply Rle_trans; [apply (lip (act_fun Sigmoid) (act_der Sigmoid) 1); [intros; apply act_derive; [discriminate|exact I]|apply sigmoid_bound]|]. apply Rmult_le_compat_r; [apply Rabs_pos|lra].
    - eapply Rle_trans; [apply (lip (act_fun Tanh) (act_der Tanh) 1); [intros; apply act_derive; [discriminate|exact I]|apply tanh_bound]|]. apply Rmult_le_compat_r; [apply Rabs_pos|lra].
    - eapply Rle_trans; [apply (lip (act_fun Swish) (act_der Swish) 2); [intros; apply act_derive; [discriminate|exact I]|apply swish_bound]|]. apply Rmult_le_compat_r; [apply Rabs_pos|lra].
    - eapply Rle_trans; [apply (lip (act_fun Mish) (act_der Mish) 2); [intros; apply act_derive; [discriminate|exact I]|apply mish_bound]|]. apply Rmult_le_compat_r; [apply Rabs_pos|lra]. }
  eapply Rle_trans; [exact X|]. apply Rmult_le_compat_l; lra.
Qed.
(** ** Pooling *)
Lemma keep_near : forall {A} (f f' : A -> R) pos e (l : list A), (forall a, In a l -> Rabs (f' a - f a) <= e) -> forall s s' : R * Z * Z, Rabs (fst (fst s') - fst (fst s)) <= e ->
  Rabs (fst (fst (fold_left (keep f' pos) l s')) - fst (fst (fold_left (keep f pos) l s))) <= e.
Proof.
  intros A f f' pos e l. induction l as [|a l IH]; intros H s s' Hs; [exact Hs|]. cbn [fold_left]. apply IH; [intros; apply H; right; auto|].
  destruct s as [[m p] q], s' as [[m' p'] q']. cbn [fst] in Hs. unfold keep. change (@s_lt R SI) with Rltb. unfold Rltb. pose proof (H a (or_introl eq_refl)) as Ha. apply Rabs_le_between in Ha. apply Rabs_le_between in Hs.
  destruct (Rlt_dec m (f a)), (Rlt_dec m' (f' a)); cbn [fst]; apply Rabs_le; lra.
Qed.
Lemma pool_value : forall (l : pool R) (x : tensor R) n c h w o, good x -> tdims x = [n; c; h; w] -> po_pad l = 0%Z -> (0 < po_stride l)%Z -> (0 < po_size l)%Z -> (po_size l <= h)%Z -> (po_size l <= w)%Z ->
  in_range [n; c; pool_extent (po_size l) (po_stride l) h; pool_extent (po_size l) (po_stride l) w] o ->
  value l x o = fst (fst (fold_left (keep (fun k => el x (window_pos (po_stride l) o k)) (fun k => ((nth 2 o 0 * po_stride l + nth 0 k 0)%Z, (nth 3 o 0 * po_stride l + nth 1 k 0)%Z))) (all_indices [po_size l; po_size l]) (s_neg s_inf, 0%Z, 0%Z))).
Proof.
  intros l x n c h w o Gx Ex H1 H2 H3 H4 H5 HO. pose proof HO as HO'. apply in_range_4 in HO'. destruct HO' as (b & ch & i & j & -> & _). unfold value. cbn [nth].
  rewrite (find_max_fold l x n c h w) by auto. destruct (fold_left _ _ _) as [[v p] q]. reflexivity.
Qed.

(** ** One layer, and all of them *)
Lemma near_of : forall e ds (f f' : list Z -> R), pos_dims ds -> (prod ds <= INT_MAX)%Z -> (forall idx, in_range ds idx -> Rabs (f' idx - f idx) <= e) -> near e (tensor_of ds f) (tensor_of ds f').
Proof. intros e ds f f' HP HM H. split; [apply good_tensor_of; auto|]. split; [reflexivity|]. intros idx HI. change (in_range ds idx) in HI. rewrite !el_tensor_of by auto. auto. Qed.
Lemma near_step : forall e L ds l ds' (x x' : tensor R) (g : G), 0 <= e -> predicts ds l ds' -> gain l L -> good x -> tdims x = ds -> near e x x' ->
  exists l1 l1' g' y y', layer_forward l x g = (l1, g', Ok y) /\ layer_forward l x' g = (l1', g', Ok y') /\ good y /\ tdims y = ds' /\ near (L * e) y y'.
Proof.
  intros e L ds l ds' x x' g He HP HL Gx Ex HN. pose proof HN as (Gx' & Ex' & HX). rewrite Ex in Ex'. destruct HL as (L0 & HL).
  destruct HP as [ds l ds' HA|f ds l B1 B2 B3|ds l B1].
  2:{ destruct (bn_rows_ready f l B1) as (R1 & R2 & R3). cbn [layer_forward]. assert (HF : featured f (tdims x)) by (rewrite Ex; auto). assert (HF' : featured f (tdims x')) by (rewrite Ex'; auto).
      rewrite (bn_forward_eval f l x R1 R2 R3 B2 Gx HF), (bn_forward_eval f l x' R1 R2 R3 B2 Gx' HF'). unfold lift; cbn [fst snd]. do 5 eexists. split; [reflexivity|]. split; [reflexivity|].
      split; [apply bn_out_good; auto|]. split; [exact Ex|]. unfold bn_out. rewrite Ex, Ex'. apply near_of; [rewrite <- Ex; apply good_pos; auto|rewrite <- Ex; apply good_max; auto|].
      intros idx HI. assert (HJ : (0 <= nth 1 idx 0 < f)%Z).
      { destruct B3 as [(n & ->)|(n & h & w & ->)]; [apply in_range_2 in HI; destruct HI as (i & j & -> & _ & Hj); exact Hj|apply in_range_4 in HI; destruct HI as (i & j & y & z & -> & _ & Hj & _); exact Hj]. }
      pose proof (HL f (nth 1 idx 0%Z) B1 HJ) as K. destruct B1 as ((A1 & A2) & (C1 & C2) & (D1 & D2) & (E1 & E2)). rewrite !(feat_row f) by auto. set (j := nth 1 idx 0%Z) in *.
      change (normalised (bn_eps l) (el (bn_rmean l) [0%Z; j]) (el (bn_rvar l) [0%Z; j]) (el (bn_gamma l) [0%Z; j]) (el (bn_beta l) [0%Z; j]) (el x' idx)) with
        ((el x' idx - el (bn_rmean l) [0%Z; j]) / sqrt (el (bn_rvar l) [0%Z; j] + bn_eps l) * el (bn_gamma l) [0%Z; j] + el (bn_beta l) [0%Z; j]).
      change (normalised (bn_eps l) (el (bn_rmean l) [0%Z; j]) (el (bn_rvar l) [0%Z; j]) (el (bn_gamma l) [0%Z; j]) (el (bn_beta l) [0%Z; j]) (el x idx)) with
        ((el x idx - el (bn_rmean l) [0%Z; j]) / sqrt (el (bn_rvar l) [0%Z; j] + bn_eps l) * el (bn_gamma l) [0%Z; j] + el (bn_beta l) [0%Z; j]).
      replace ((el x' idx - el (bn_rmean l) [0%Z; j]) / sqrt (el (bn_rvar l) [0%Z; j] + bn_eps l) * el (bn_gamma l) [0%Z; j] + el (bn_beta l) [0%Z; j] - ((el x idx - el (bn_rmean l) [0%Z; j]) / sqrt (el (bn_rvar l) [0%Z; j] + bn_eps l) * el (bn_gamma l) [0%Z; j] + el (bn_beta l) [0%Z; j]))
        with ((el (bn_gamma l) [0%Z; j] / sqrt (el (bn_rvar l) [0%Z; j] + bn_eps l)) * (el x' idx - el x idx)) by (unfold Rdiv; ring).
      rewrite Rabs_mult. apply Rmult_le_compat; [apply Rabs_pos|apply Rabs_pos|exact K|]. apply HX. rewrite Ex. exact HI. }
  2:{ cbn [layer_forward]. rewrite !dropout_eval by auto. rewrite B1 in HL. do 5 eexists. split; [reflexivity|]. split; [reflexivity|]. split; [auto|]. split; [auto|]. split; [auto|]. split; [congruence|].
      intros idx HI. eapply Rle_trans; [apply HX; exact HI|]. nra. }
  destruct HA as [n k o l W1 W2 W3 W4 HM|ds l HS|b d ds l HD|n h w l W1 W2 W3 W4 H1 H2 HM|n d h w l H1 H2 H3 H4 H5|ds l HTr]; cbn [layer_forward] in *.
  - assert (HW : fc_wf l k o) by (split; auto). rewrite (fc_forward_2 l k o x n HW Gx Ex HM), (fc_forward_2 l k o x' n HW Gx' Ex' HM). unfold lift; cbn [fst snd].
    destruct (dims2_pos x n k Gx Ex) as (Hn & Hk & _). destruct (dims2_pos _ k o W1 W2) as (_ & Ho & _).
    do 5 eexists. split; [reflexivity|]. split; [reflexivity|]. split; [apply good_2; auto|]. split; [reflexivity|].
    apply near_of; [auto with idx|simpl; lia|]. intros idx HI. apply in_range_2 in HI. destruct HI as (i & j & -> & Hi & Hj). unfold fn2. cbn [nth].
    change (Rabs (@affine R RScalar k (M_Layers.fc_w l) (M_Layers.fc_b l) (fun p => el x' [i; p]) j - @affine R RScalar k (M_Layers.fc_w l) (M_Layers.fc_b l) (fun p => el x [i; p]) j) <= L * e). rewrite !affine_R.
    match goal with |- Rabs (?a + ?b - (?c + ?b)) <= _ => replace (a + b - (c + b)) with (a - c) by ring end.
    apply sum_near; [|apply (HL k o j W2 Hj)|auto]. intros p Hp. apply In_zrange in Hp. apply HX. rewrite Ex. apply in_range2; auto.
  - unfold act_forward. assert (NS : al_act l = Softmax \/ al_act l <> Softmax) by (destruct (al_act l); auto; right; discriminate). destruct NS as [ES|NS].
    + rewrite ES in *. specialize (HS eq_refl). destruct ds as [|b ds]; [cbn in HS; lia|]. assert (HN' : ds <> []) by (intros ->; cbn in HS; lia). cbn [act_fwd].
      rewrite (softmax_fwd_ok x b ds Gx Ex HN'), (softmax_fwd_ok x' b ds Gx' Ex' HN'). unfold lift; cbn [fst snd].
      do 5 eexists. split; [reflexivity|]. split; [reflexivity|]. split; [apply good_tensor_of; [apply good_pos; auto|apply good_max; auto]|]. split; [exact Ex|]. rewrite Ex, Ex'.
      apply near_of; [rewrite <- Ex; apply good_pos; auto|rewrite <- Ex; apply good_max; auto|]. intros idx HI. pose proof (good_dims x Gx) as HF. rewrite Ex in HF. inversion HF as [|? ? F1 F2]; subst.
      inversion HI as [|? i ? ii Hi Hii]; subst. cbn [nth].
      change (Rabs (@softmax_of R RScalar (@row R RScalar ds x' i) (@el R RScalar x' (i :: ii)) - @softmax_of R RScalar (@row R RScalar ds x i) (@el R RScalar x (i :: ii))) <= L * e). rewrite !softmax_of_R by auto. unfold rowsum.
      eapply Rle_trans; [apply (soft_near (all_indices ds) (fun j => el x' (i :: j)) (fun j => el x (i :: j)) e)|nra].
      * intros j Hj. apply In_all_indices in Hj; auto. apply HX. rewrite Ex. constructor; auto.
      * apply In_all_indices; auto.
    + rewrite !act_fwd_el by auto. unfold lift; cbn [fst snd].
      do 5 eexists. split; [reflexivity|]. split; [reflexivity|]. split; [apply good_tensor_of; [apply good_pos; auto|apply good_max; auto]|]. split; [exact Ex|]. rewrite Ex, Ex'.
      apply near_of; [rewrite <- Ex; apply good_pos; auto|rewrite <- Ex; apply good_max; auto|]. intros idx HI. apply act_near; auto. apply HX. rewrite Ex. auto.
  - destruct (flat_any l x b d ds Gx Ex) as (l1 & E1). destruct (flat_any l x' b d ds Gx' Ex') as (l1' & E1'). rewrite E1, E1'. unfold lift; cbn [fst snd].
    pose proof (good_pos x Gx) as PX. pose proof (good_max x Gx) as MX. rewrite Ex in PX, MX. destruct PX as (_ & PF). inversion PF as [|? ? P1 P2]; subst.
    pose proof (prod_pos _ P2) as PP. cbn [prod] in MX, PP.
    assert (PD : pos_dims [b; prod (d :: ds)]) by (split; [discriminate|]; repeat constructor; auto). assert (MD : (prod [b; prod (d :: ds)] <= INT_MAX)%Z) by (cbn [prod]; lia).
    do 5 eexists. split; [reflexivity|]. split; [reflexivity|]. split; [apply good_in_shape; auto|]. split; [reflexivity|].
    split; [apply good_in_shape; auto|]. split; [reflexivity|]. intros idx HI. change (in_range [b; prod (d :: ds)] idx) in HI. rewrite !el_in_shape by auto.
    pose proof (ravel_bound _ _ HI) as RB. assert (RB' : (0 <= ravel [b; prod (d :: ds)] idx < prod (tdims x))%Z) by (rewrite Ex; cbn [prod] in RB |- *; lia).
    assert (UR : in_range (tdims x) (unravel (tdims x) (ravel [b; prod (d :: ds)] idx))) by (apply unravel_range; [apply good_dims; auto|auto]). pose proof (HX _ UR) as K. unfold el in K. rewrite Ex', <- Ex in K.
    rewrite !ravel_unravel in K by (auto; apply good_dims; auto). eapply Rle_trans; [exact K|]. nra.
  - assert (HW : conv_wf l) by (split; auto). rewrite (conv_forward_ok l x n h w HW Gx Ex H1 H2 HM), (conv_forward_ok l x' n h w HW Gx' Ex' H1 H2 HM). unfold lift; cbn [fst snd].
    destruct (dims4_pos x _ _ _ _ Gx Ex) as (Hn & Hic & Hh & Hw & _). destruct (dims4_pos _ _ _ _ _ W1 W2) as (Hoc & _ & Hkh & Hkw & _).
    do 5 eexists. split; [reflexivity|]. split; [reflexivity|]. split; [apply good_4; auto; lia|]. split; [reflexivity|].
    apply near_of; [split; [discriminate|]; repeat constructor; auto; lia|simpl; lia|]. intros idx HI. apply in_range_4 in HI. destruct HI as (i & j & y & z & -> & Hi & Hj & Hy & Hz).
    unfold fn4, conv0. cbn [nth]. change (@s_add R SI) with Rplus.
    match goal with |- Rabs (?a + ?b - (?c + ?b)) <= _ => replace (a + b - (c + b)) with (a - c) by ring end.
    change (@fsum R SI) with (@fsum R RScalar). rewrite !fsum_R. change (@s_mul R SI) with Rmult.
    pose proof (sum_near (all_indices [cv_kh l; cv_kw l]) (fn2 (fun p q => el x [i; 0%Z; (y + p)%Z; (z + q)%Z])) (fn2 (fun p q => el x' [i; 0%Z; (y + p)%Z; (z + q)%Z])) (fn2 (fun p q => el (cv_w l) [j; 0%Z; p; q])) e L) as K.
    eapply Rle_trans; [|apply K]; [right; reflexivity| | |auto].
    + intros k HK. apply In_all_indices in HK; [|repeat constructor; auto]. apply in_range_2 in HK. destruct HK as (p & q & -> & Hp & Hq). unfold fn2. cbn [nth]. apply HX. rewrite Ex. apply in_range4; lia.
    + eapply Rle_trans; [|apply (HL j Hj)]. right. apply rsum_ext. intros k HK. apply In_all_indices in HK; [|repeat constructor; auto]. apply in_range_2 in HK. destruct HK as (p & q & -> & Hp & Hq). reflexivity.
  - rewrite (pool_forward_any l x n d h w), (pool_forward_any l x' n d h w) by auto. unfold lift; cbn [fst snd]. destruct (pool_sizes l x n d h w Gx Ex H2 H3 H4 H5) as (Pn & Pc & Poh & Pow & HM & _).
    do 5 eexists. split; [reflexivity|]. split; [reflexivity|]. split; [apply good_4; auto|]. split; [reflexivity|].
    apply near_of; [split; [discriminate|]; repeat constructor; auto|simpl; lia|]. intros o HO. rewrite (pool_value l x n d h w o), (pool_value l x' n d h w o) by auto.
    eapply Rle_trans; [apply (keep_near _ _ _ e)|nra].
    + intros k HK. apply In_all_indices in HK; [|repeat constructor; auto]. apply HX. apply (window_in l x n d h w); auto.
    + cbn [fst]. rewrite Rminus_diag_eq, Rabs_R0 by auto. auto.
  - rewrite HTr in HL. destruct (dropout_train l x g HTr Gx) as (r & g1 & F1 & Gr & Er & E1). destruct (dropout_train l x' g HTr Gx') as (r' & g1' & F1' & Gr' & Er' & E1'). rewrite Ex in F1. rewrite Ex', F1 in F1'. injection F1' as <- <-. rewrite E1, E1'.
    do 5 eexists. split; [reflexivity|]. split; [reflexivity|]. split; [apply good_tensor_of; [apply good_pos; auto|apply good_max; auto]|]. split; [exact Ex|]. rewrite Ex, Ex'.
    apply near_of; [rewrite <- Ex; apply good_pos; auto|rewrite <- Ex; apply good_max; auto|]. intros idx HI. change (@s_mul R SI) with Rmult. change (@s_div R SI) with Rdiv. change (@s_sub R SI) with Rminus. change (@s_z R SI 1) with 1. change (@s_z R SI 0) with 0.
    assert (K : Rabs (el x' idx - el x idx) <= e) by (apply HX; rewrite Ex; auto). destruct (s_lt (dr_rate l) (el r idx)).
    + replace (el x' idx * 1 * (1 / (1 - dr_rate l)) - el x idx * 1 * (1 / (1 - dr_rate l))) with (1 / (1 - dr_rate l) * (el x' idx - el x idx)) by ring. rewrite Rabs_mult. apply Rmult_le_compat; auto; apply Rabs_pos.
    + rewrite !Rmult_0_r, !Rmult_0_l, Rminus_0_r, Rabs_R0. nra.
Qed.
Lemma near_chain : forall ls K ds ds' e (x x' : tensor R) (g : G), 0 <= e -> stack predicts ds ls ds' -> gains ls K -> good x -> tdims x = ds -> near e x x' ->
  exists l1 l1' g' y y', forward_all ls x g = (l1, g', Ok y) /\ forward_all ls x' g = (l1', g', Ok y') /\ good y /\ tdims y = ds' /\ near (K * e) y y'.
Proof.
  induction ls as [|l ls IH]; intros K ds ds' e x x' g He HA HK Gx Ex HN.
  - inversion HA; subst. inversion HK; subst. rewrite Rmult_1_l. exists [], [], g, x, x'. auto.
  - inversion HA as [|? ? dm ? ? H1 H2]; subst. inversion HK as [|? ? L K' G1 G2]; subst. pose proof (proj1 G1) as L0.
    destruct (near_step e L _ l dm x x' g He H1 G1 Gx eq_refl HN) as (l1 & l1' & g1 & y & y' & E1 & E1' & Gy & Ey & HY).
    destruct (IH K' dm ds' (L * e) y y' g1 ltac:(apply Rmult_le_pos; auto) H2 G2 Gy Ey HY) as (ls1 & ls1' & g2 & z & z' & E2 & E2' & Gz & Ez & HZ).
    exists (l1 :: ls1), (l1' :: ls1'), g2, z, z'. cbn [forward_all]. rewrite E1, E1', E2, E2'. replace (L * K' * e) with (K' * (L * e)) by ring. auto.
Qed.
Theorem near_predict : forall (n : net R G) K ds ds' e x x', 0 <= e -> stack predicts ds (n_layers n) ds' -> gains (n_layers n) K -> good x -> tdims x = ds -> near e x x' ->
  exists y y', snd (net_predict n x) = Ok y /\ snd (net_predict n x') = Ok y' /\ tdims y = ds' /\ near (K * e) y y'.
Proof.
  intros n K ds ds' e x x' He HA HK Gx Ex HN. destruct (near_chain (n_layers n) K ds ds' e x x' (n_rng n) He HA HK Gx Ex HN) as (l1 & l1' & g' & y & y' & E & E' & Gy & Ey & HY).
  exists y, y'. unfold net_predict. rewrite E, E'. cbn [snd]. auto.
Qed.
(** An output that leads by more than twice the bound keeps its lead. *)
Theorem near_choice : forall (n : net R G) K ds b c e x x', 0 <= e -> stack predicts ds (n_layers n) [b; c] -> gains (n_layers n) K -> good x -> tdims x = ds -> near e x x' ->
  exists y y', snd (net_predict n x) = Ok y /\ snd (net_predict n x') = Ok y' /\
    forall i j k, (0 <= i < b)%Z -> (0 <= j < c)%Z -> (0 <= k < c)%Z -> 2 * (K * e) < el y [i; j] - el y [i; k] -> el y' [i; k] < el y' [i; j].
Proof.
  intros n K ds b c e x x' He HA HK Gx Ex HN. destruct (near_predict n K ds [b; c] e x x' He HA HK Gx Ex HN) as (y & y' & E & E' & Ey & _ & _ & HY).
  exists y, y'. split; [auto|]. split; [auto|]. intros i j k Hi Hj Hk H. rewrite Ey in HY. pose proof (HY [i; j] ltac:(apply in_range2; auto)) as A. pose proof (HY [i; k] ltac:(apply in_range2; auto)) as B.
  apply Rabs_le_between in A. apply Rabs_le_between in B. lra.
Qed.
(** ** Every network has such a factor *)
Lemma bound_all : forall {A} (l : list A) (f : A -> R), exists L, 0 <= L /\ forall a, In a l -> f a <= L.
Proof.
  intros A l f. induction l as [|a l (L & H0 & H)]; [exists 0; split; [lra|intros a []]|]. exists (Rmax L (f a)). split; [eapply Rle_trans; [exact H0|apply Rmax_l]|].
  intros c [<-|Hc]; [apply Rmax_r|eapply Rle_trans; [apply H; auto|apply Rmax_l]].
Qed.
Lemma gain_exists : forall l : layer R, exists L, gain l L.
Proof.
  intros [l|l|l|l|l|l|l].
  - destruct (tdims (M_Layers.fc_w l)) as [|k [|o [|]]] eqn:E; try (exists 0; split; [lra|]; intros k' o' j EQ; rewrite E in EQ; discriminate).
    destruct (bound_all (zrange 0 o) (fun j => rsum (zrange 0 k) (fun i => Rabs (el (M_Layers.fc_w l) [i; j])))) as (L & H0 & H). exists L. split; [auto|]. intros k' o' j EQ Hj. rewrite E in EQ. injection EQ as <- <-. apply H. apply In_zrange; auto.
  - destruct (al_act l) as [|al| | | | |] eqn:E; try (exists 2; split; [lra|]; rewrite E; lra). exists (1 + Rabs al). pose proof (Rabs_pos al). split; [lra|]. rewrite E. lra.
  - exists 1. split; lra.
  - destruct (bound_all (zrange 0 (cv_oc l)) (fun o => rsum (all_indices [cv_kh l; cv_kw l]) (fun k => Rabs (el (cv_w l) (o :: 0%Z :: k))))) as (L & H0 & H). exists L. split; [auto|]. intros o Ho. apply H. apply In_zrange; auto.
  - exists 1. split; lra.
  - exists (1 + Rabs (1 / (1 - dr_rate l))). pose proof (Rabs_pos (1 / (1 - dr_rate l))). split; [lra|]. destruct (dr_train l); lra.
  - destruct (bound_all (zrange 0 (nth 1 (match bn_gamma l with g => tdims g end) 0%Z)) (fun j => Rabs (el (bn_gamma l) [0%Z; j] / sqrt (el (bn_rvar l) [0%Z; j] + bn_eps l)))) as (L & H0 & H).
    exists L. split; [auto|]. intros f j ((A1 & A2) & _) Hj. rewrite A2 in H. cbn [nth] in H. apply H. apply In_zrange; auto.
Qed.
Theorem gains_exist : forall ls : list (layer R), exists K, gains ls K.
Proof. induction ls as [|l ls (K & HK)]; [exists 1; constructor|]. destruct (gain_exists l) as (L & HL). exists (L * K). constructor; auto. Qed.
(** ** For a dense layer the factor is attained *)
Lemma abs_sign : forall w, (if Rlt_dec w 0 then -1 else 1) * w = Rabs w.
Proof. intros w. unfold Rabs. destruct (Rlt_dec w 0), (Rcase_abs w); lra. Qed.
Theorem dense_attained : forall (l : fc R) n k o j e x (g : G), good (M_Layers.fc_w l) -> tdims (M_Layers.fc_w l) = [k; o] -> good (M_Layers.fc_b l) -> tdims (M_Layers.fc_b l) = [1%Z; o] -> (n * o <= INT_MAX)%Z -> (0 <= j < o)%Z -> 0 <= e -> good x -> tdims x = [n; k] ->
  exists x' y y', near e x x' /\ snd (layer_forward (LFC l) x g) = Ok y /\ snd (layer_forward (LFC l) x' g) = Ok y' /\
    forall i, (0 <= i < n)%Z -> el y' [i; j] - el y [i; j] = rsum (zrange 0 k) (fun p => Rabs (el (M_Layers.fc_w l) [p; j])) * e.
Proof.
  intros l n k o j e x g W1 W2 W3 W4 HM Hj He Gx Ex. pose proof (good_pos x Gx) as PX. pose proof (good_max x Gx) as MX. rewrite Ex in PX, MX.
  set (x' := tensor_of [n; k] (fn2 (fun i p => el x [i; p] + (if Rlt_dec (el (M_Layers.fc_w l) [p; j]) 0 then -1 else 1) * e))).
  assert (Gx' : good x') by (apply good_tensor_of; auto). assert (Ex' : tdims x' = [n; k]) by reflexivity. assert (HW : fc_wf l k o) by (split; auto).
  assert (EL : forall i p, (0 <= i < n)%Z -> (0 <= p < k)%Z -> el x' [i; p] = el x [i; p] + (if Rlt_dec (el (M_Layers.fc_w l) [p; j]) 0 then -1 else 1) * e).
  { intros i p Hi Hp. unfold x'. rewrite el_tensor_of by (apply in_range2; auto). reflexivity. }
  destruct (dims2_pos x n k Gx Ex) as (Hn & Hk & _).
  exists x'. cbn [layer_forward]. rewrite (fc_forward_2 l k o x n HW Gx Ex HM), (fc_forward_2 l k o x' n HW Gx' Ex' HM). unfold lift; cbn [fst snd]. do 2 eexists. split; [|split; [reflexivity|split; [reflexivity|]]].
  - split; [auto|]. split; [congruence|]. intros idx HI. rewrite Ex in HI. apply in_range_2 in HI. destruct HI as (i & p & -> & Hi & Hp). rewrite EL by auto.
    match goal with |- Rabs (?a + ?b - ?a) <= _ => replace (a + b - a) with b by ring end. destruct (Rlt_dec _ 0); [replace (-1 * e) with (- e) by ring; rewrite Rabs_Ropp|rewrite Rmult_1_l]; rewrite Rabs_right; lra.
  - intros i Hi. rewrite !el_tensor_of by (apply in_range2; auto). unfold fn2. cbn [nth].
    change (@affine R RScalar k (M_Layers.fc_w l) (M_Layers.fc_b l) (fun p => el x' [i; p]) j - @affine R RScalar k (M_Layers.fc_w l) (M_Layers.fc_b l) (fun p => el x [i; p]) j = rsum (zrange 0 k) (fun p => Rabs (el (M_Layers.fc_w l) [p; j])) * e). rewrite !affine_R.
    match goal with |- ?a + ?b - (?c + ?b) = _ => replace (a + b - (c + b)) with (a - c) by ring end. rewrite <- rsum_minus, <- rsum_scal_r. apply rsum_ext. intros p Hp. apply In_zrange in Hp. rewrite EL by auto. rewrite <- (abs_sign (el (M_Layers.fc_w l) [p; j])).
    change (@el R RScalar) with (@el R SI). ring.
Qed.
End R.
