(** * How far a change of the weights can carry (C139) *)
From Coq Require Import Reals Lra.
From Coquelicot Require Import Coquelicot.
From Verif Require Import Base Scalar ScalarR Types Spec SpecNN SpecLayers SpecR M_Shape M_Tensor M_Adv M_Act M_Loss M_Layers M_Reg M_Opt M_Net SpecNet SpecFuse SpecRobust SpecSway
  L_Index L_Shape L_Tensor L_Nest L_Matmul L_Adv L_RSum L_Act L_ActR L_Layers L_LayersR L_Conv L_Rows L_BN L_BNR L_Net L_Train L_Drop L_AdvR L_Loss L_Batch L_Pool L_Pool2 L_Near L_Fuse L_Robust.
Local Open Scope R_scope.

Lemma rabs_bound : forall m v, - m <= v -> v <= m -> Rabs v <= m. Proof. intros. apply Rabs_le. lra. Qed.
Lemma sum_size : forall {A} (l : list A) (x w : A -> R) b m M', (forall a, In a l -> Rabs (x a) <= m) -> rsum l (fun a => Rabs (w a)) * m + Rabs b <= M' -> Rabs (rsum l (fun a => x a * w a) + b) <= M'.
Proof.
  intros A l x w b m M' H HL. eapply Rle_trans; [apply Rabs_triang|]. eapply Rle_trans; [|exact HL]. apply Rplus_le_compat_r. eapply Rle_trans; [apply rsum_abs|]. rewrite <- rsum_scal_r. apply rsum_le. intros a Ha.
  rewrite Rabs_mult, Rmult_comm. apply Rmult_le_compat_l; [apply Rabs_pos|auto].
Qed.
(** The same inputs, weights that differ by at most [d]. *)
Lemma sum_sway : forall {A} (l : list A) (x w w' : A -> R) b b' d s, (forall a, In a l -> Rabs (x a) <= s) -> (forall a, In a l -> Rabs (w' a - w a) <= d) -> Rabs (b' - b) <= d ->
  Rabs (rsum l (fun a => x a * w' a) + b' - (rsum l (fun a => x a * w a) + b)) <= d * (IZR (Zlen l) * s + 1).
Proof.
  intros A l x w w' b b' d s Hx Hw Hb. replace (rsum l (fun a => x a * w' a) + b' - (rsum l (fun a => x a * w a) + b)) with (rsum l (fun a => x a * (w' a - w a)) + (b' - b)).
  2:{ rewrite (rsum_ext l (fun a => x a * (w' a - w a)) (fun a => x a * w' a - x a * w a)) by (intros; ring). rewrite rsum_minus. ring. }
  eapply Rle_trans; [apply Rabs_triang|]. replace (d * (IZR (Zlen l) * s + 1)) with (IZR (Zlen l) * (s * d) + d) by ring. apply Rplus_le_compat; [|exact Hb]. rewrite <- rsum_const. eapply Rle_trans; [apply rsum_abs|]. apply rsum_le.
  intros a Ha. rewrite Rabs_mult. apply Rmult_le_compat; auto using Rabs_pos.
Qed.

Lemma rsum_part : forall {A} (l : list A) (f : A -> R) a, (forall x, In x l -> 0 <= f x) -> In a l -> f a <= rsum l f.
Proof.
  intros A l f a H. induction l as [|b l IH]; intros HI; [destruct HI|]. rewrite rsum_cons. assert (0 <= rsum l f) by (apply rsum_nonneg; intros; apply H; right; auto). pose proof (H b (or_introl eq_refl)).
  destruct HI as [<-|HI]; [lra|]. assert (f a <= rsum l f) by (apply IH; [intros; apply H; right; auto|auto]). lra.
Qed.
Lemma soft_size : forall {A} (l : list A) (h : A -> R) i M', In i l -> 1 <= M' -> Rabs (exp (h i) / rsum l (fun j => exp (h j))) <= M'.
Proof.
  intros A l h i M' HI HM. pose proof (rsum_part l (fun j => exp (h j)) i (fun j _ => Rlt_le _ _ (exp_pos _)) HI) as H. cbn beta in H. pose proof (exp_pos (h i)) as P. eapply Rle_trans; [|exact HM]. rewrite Rabs_pos_eq.
  - apply Rmult_le_reg_r with (rsum l (fun j => exp (h j))); [lra|]. unfold Rdiv. rewrite Rmult_assoc, Rinv_l by lra. lra.
  - apply Rlt_le, Rdiv_lt_0_compat; lra.
Qed.

Section R.
Variable K : R.
Hypothesis HK : 0 <= K.
Let SI : Scalar R := RInf K.
#[local] Existing Instance SI.
Context {G : Type} {HR : Rng R G}.
Lemma act_size : forall (f : act R) M M' v, f <> Softmax -> match f with ReLU | Swish | Mish => M <= M' | LeakyReLU al => M <= M' /\ Rabs al * M <= M' | Sigmoid | Tanh | Softmax => 1 <= M' end -> Rabs v <= M -> Rabs (act_el f v) <= M'.
Proof.
  intros f M M' v NS HM H. change (Rabs (@act_el R RScalar f v) <= M'). rewrite act_el_R. pose proof (Rabs_pos v) as P. destruct f; try congruence; cbn [act_fun].
  - apply Rabs_le_between in H. unfold Rmax. destruct (Rle_dec 0 v); apply rabs_bound; lra.
  - destruct (Rlt_dec 0 v); [lra|]. rewrite Rabs_mult. pose proof (Rabs_pos alpha). nra.
  - pose proof (sigmoid_range v). apply rabs_bound; lra.
  - pose proof (tanh_range v). apply rabs_bound; lra.
  - rewrite Rabs_mult. pose proof (sigmoid_range v). assert (Rabs (sigmoidR v) <= 1) by (apply rabs_bound; lra). pose proof (Rabs_pos (sigmoidR v)). nra.
  - rewrite Rabs_mult. pose proof (tanh_range (ln (1 + exp v))). assert (Rabs (tanh (ln (1 + exp v))) <= 1) by (apply rabs_bound; lra). pose proof (Rabs_pos (tanh (ln (1 + exp v)))). nra.
Qed.
(** The largest of some numbers and -K. *)
Lemma keep_from : forall {A} (f : A -> R) pos (l : list A) (s : R * Z * Z), fst (fst s) <= fst (fst (fold_left (keep f pos) l s)) /\ (forall a, In a l -> f a <= fst (fst (fold_left (keep f pos) l s))) /\
  (fst (fst (fold_left (keep f pos) l s)) = fst (fst s) \/ exists a, In a l /\ fst (fst (fold_left (keep f pos) l s)) = f a).
Proof.
  intros A f pos l. induction l as [|a l IH]; intros s; [cbn; split; [lra|]; split; [tauto|auto]|]. cbn [fold_left]. destruct (IH (keep f pos s a)) as (H1 & H2 & H3).
  assert (X : fst (fst s) <= fst (fst (keep f pos s a)) /\ f a <= fst (fst (keep f pos s a)) /\ (fst (fst (keep f pos s a)) = fst (fst s) \/ fst (fst (keep f pos s a)) = f a)).
  { destruct s as [[m p] q]. unfold keep. change (@s_lt R SI) with Rltb. unfold Rltb. destruct (Rlt_dec m (f a)); cbn [fst]; split; try lra; split; try lra; auto. }
  destruct X as (X1 & X2 & X3). split; [lra|]. split.
  - intros b [<-|Hb]; [lra|auto].
  - destruct H3 as [H3|(b & Hb & H3)]; [|right; exists b; split; [right; auto|auto]]. destruct X3 as [X3|X3]; [left; congruence|right; exists a; split; [left; auto|congruence]].
Qed.
Lemma keep_size : forall {A} (f : A -> R) pos (l : list A) m p q, l <> [] -> (forall a, In a l -> Rabs (f a) <= m) -> Rabs (fst (fst (fold_left (keep f pos) l (- K, p, q)))) <= m.
Proof.
  intros A f pos l m p q HN H. destruct (keep_from f pos l (- K, p, q)) as (H1 & H2 & H3). destruct H3 as [H3|(a & Ha & H3)]; [|rewrite H3; auto]. destruct l as [|a l]; [congruence|]. pose proof (H2 a (or_introl eq_refl)) as X. pose proof (H a (or_introl eq_refl)) as Y.
  rewrite H3 in *. cbn [fst] in *. apply Rabs_le_between in Y. apply rabs_bound; lra.
Qed.
Lemma within_of : forall m ds (f : list Z -> R), (forall idx, in_range ds idx -> Rabs (f idx) <= m) -> within m (tensor_of ds f).
Proof. intros m ds f H idx HI. change (in_range ds idx) in HI. rewrite el_tensor_of by auto. auto. Qed.
Lemma size_step : forall M M' ds l ds' (x : tensor R) (g : G), predicts ds l ds' -> sized l M M' -> good x -> tdims x = ds -> within M x ->
  forall l1 g' y, layer_forward l x g = (l1, g', Ok y) -> within M' y.
Proof.
  intros M M' ds l ds' x g HP HL Gx Ex HX l1 g' y0 HY. unfold within in HX. rewrite Ex in HX.
  destruct HP as [ds l ds' HA|f ds l B1 B2 B3|ds l B1].
  2:{ destruct (bn_rows_ready f l B1) as (R1 & R2 & R3). cbn [layer_forward] in HY. assert (HF : featured f (tdims x)) by (rewrite Ex; auto).
      rewrite (bn_forward_eval f l x R1 R2 R3 B2 Gx HF) in HY. unfold lift in HY; cbn [fst snd] in HY. injection HY as _ _ <-.
      unfold bn_out. rewrite Ex. apply within_of. intros idx HI. assert (HJ : (0 <= nth 1 idx 0 < f)%Z).
      { destruct B3 as [(n & ->)|(n & h & w & ->)]; [apply in_range_2 in HI; destruct HI as (i & j & -> & _ & Hj); exact Hj|apply in_range_4 in HI; destruct HI as (i & j & y & z & -> & _ & Hj & _); exact Hj]. }
      pose proof (HL f (nth 1 idx 0%Z) B1 HJ) as Q. destruct B1 as ((A1 & A2) & (C1 & C2) & (D1 & D2) & (E1 & E2)). rewrite !(feat_row f) by auto. set (j := nth 1 idx 0%Z) in *.
      change (normalised (bn_eps l) (el (bn_rmean l) [0%Z; j]) (el (bn_rvar l) [0%Z; j]) (el (bn_gamma l) [0%Z; j]) (el (bn_beta l) [0%Z; j]) (el x idx)) with
        ((el x idx - el (bn_rmean l) [0%Z; j]) / sqrt (el (bn_rvar l) [0%Z; j] + bn_eps l) * el (bn_gamma l) [0%Z; j] + el (bn_beta l) [0%Z; j]).
      replace ((el x idx - el (bn_rmean l) [0%Z; j]) / sqrt (el (bn_rvar l) [0%Z; j] + bn_eps l) * el (bn_gamma l) [0%Z; j])
        with ((el (bn_gamma l) [0%Z; j] / sqrt (el (bn_rvar l) [0%Z; j] + bn_eps l)) * (el x idx - el (bn_rmean l) [0%Z; j])) by (unfold Rdiv; ring).
      eapply Rle_trans; [apply Rabs_triang|]. eapply Rle_trans; [|exact Q]. apply Rplus_le_compat_r. rewrite Rabs_mult. apply Rmult_le_compat_l; [apply Rabs_pos|]. unfold Rminus. eapply Rle_trans; [apply Rabs_triang|]. rewrite Rabs_Ropp. apply Rplus_le_compat_r. apply HX. exact HI. }
  2:{ cbn [layer_forward] in HY. rewrite !dropout_eval in HY by auto. cbn [sized] in HL. rewrite B1 in HL. injection HY as _ _ <-. intros idx HI. rewrite Ex in HI. eapply Rle_trans; [apply HX; exact HI|]. lra. }
  destruct HA as [n k o l W1 W2 W3 W4 HM|ds l HS|b d ds l HD|n h w l W1 W2 W3 W4 H1 H2 HM|n d h w l H1 H2 H3 H4 H5|ds l HTr]; cbn [layer_forward] in *.
  - assert (HW : fc_wf l k o) by (split; auto). rewrite (fc_forward_2 l k o x n HW Gx Ex HM) in HY. unfold lift in HY; cbn [fst snd] in HY. injection HY as _ _ <-.
    apply within_of. intros idx HI. apply in_range_2 in HI. destruct HI as (i & j & -> & Hi & Hj). unfold fn2. cbn [nth].
    change (Rabs (@affine R RScalar k (M_Layers.fc_w l) (M_Layers.fc_b l) (fun p => el x [i; p]) j) <= M'). rewrite affine_R.
    apply (sum_size _ _ _ _ M); [|apply (HL k o j W2 Hj)]. intros p Hp. apply In_zrange in Hp. apply HX. apply in_range2; auto.
  - unfold act_forward in HY. assert (NS : al_act l = Softmax \/ al_act l <> Softmax) by (destruct (al_act l); auto; right; discriminate). cbn [sized] in HL. destruct NS as [ES|NS].
    + rewrite ES in *. specialize (HS eq_refl). destruct ds as [|b ds]; [cbn in HS; lia|]. assert (HN' : ds <> []) by (intros ->; cbn in HS; lia). cbn [act_fwd] in HY.
      rewrite (softmax_fwd_ok x b ds Gx Ex HN') in HY. unfold lift in HY; cbn [fst snd] in HY. injection HY as _ _ <-. rewrite Ex.
      apply within_of. intros idx HI. pose proof (good_dims x Gx) as HF. rewrite Ex in HF. inversion HF as [|? ? F1 F2]; subst.
      inversion HI as [|? i ? ii Hi Hii]; subst. cbn [nth].
      change (Rabs (@softmax_of R RScalar (@row R RScalar ds x i) (@el R RScalar x (i :: ii))) <= M'). rewrite !softmax_of_R by auto. unfold rowsum. apply (soft_size _ (fun j => el x (i :: j)) ii M'); [apply In_all_indices; auto|exact HL].
    + rewrite !act_fwd_el in HY by auto. unfold lift in HY; cbn [fst snd] in HY. injection HY as _ _ <-. rewrite Ex.
      apply within_of. intros idx HI. apply (act_size _ M); auto.
  - destruct (flat_any l x b d ds Gx Ex) as (l2 & E1). rewrite E1 in HY. unfold lift in HY; cbn [fst snd] in HY. injection HY as _ _ <-. 
    pose proof (good_pos x Gx) as PX. pose proof (good_max x Gx) as MX. rewrite Ex in PX, MX. destruct PX as (_ & PF). inversion PF as [|? ? P1 P2]; subst.
    pose proof (prod_pos _ P2) as PP. cbn [prod] in MX, PP.
    assert (PD : pos_dims [b; prod (d :: ds)]) by (split; [discriminate|]; repeat constructor; auto). assert (MD : (prod [b; prod (d :: ds)] <= INT_MAX)%Z) by (cbn [prod]; lia).
    intros idx HI. change (in_range [b; prod (d :: ds)] idx) in HI. rewrite !el_in_shape by auto.
    pose proof (ravel_bound _ _ HI) as RB. assert (RB' : (0 <= ravel [b; prod (d :: ds)] idx < prod (tdims x))%Z) by (rewrite Ex; cbn [prod] in RB |- *; lia).
    assert (UR : in_range (tdims x) (unravel (tdims x) (ravel [b; prod (d :: ds)] idx))) by (apply unravel_range; [apply good_dims; auto|auto]). pose proof UR as UR'. rewrite Ex in UR' at 1. pose proof (HX _ UR') as Q. unfold el in Q.
    rewrite !ravel_unravel in Q by (auto; apply good_dims; auto). eapply Rle_trans; [exact Q|]. exact HL.
  - assert (HW : conv_wf l) by (split; auto). rewrite (conv_forward_ok l x n h w HW Gx Ex H1 H2 HM) in HY. unfold lift in HY; cbn [fst snd] in HY. injection HY as _ _ <-.
    destruct (dims4_pos x _ _ _ _ Gx Ex) as (Hn & Hic & Hh & Hw & _). destruct (dims4_pos _ _ _ _ _ W1 W2) as (Hoc & _ & Hkh & Hkw & _).
    apply within_of. intros idx HI. apply in_range_4 in HI. destruct HI as (i & j & y & z & -> & Hi & Hj & Hy & Hz).
    unfold fn4, conv0. cbn [nth]. change (@s_add R SI) with Rplus. change (@fsum R SI) with (@fsum R RScalar). rewrite !fsum_R. change (@s_mul R SI) with Rmult.
    pose proof (sum_size (all_indices [cv_kh l; cv_kw l]) (fn2 (fun p q => el x [i; 0%Z; (y + p)%Z; (z + q)%Z])) (fn2 (fun p q => el (cv_w l) [j; 0%Z; p; q])) (el (cv_b l) [j; 0%Z]) M M') as Q.
    eapply Rle_trans; [|apply Q]; [right; reflexivity| |].
    + intros k Hk. apply In_all_indices in Hk; [|repeat constructor; auto]. apply in_range_2 in Hk. destruct Hk as (p & q & -> & Hp & Hq). unfold fn2. cbn [nth]. apply HX. apply in_range4; lia.
    + eapply Rle_trans; [|apply (HL j Hj)]. right. f_equal. f_equal. apply rsum_ext. intros k Hk. apply In_all_indices in Hk; [|repeat constructor; auto]. apply in_range_2 in Hk. destruct Hk as (p & q & -> & Hp & Hq). reflexivity.
  - rewrite (pool_forward_any l x n d h w) in HY by auto. unfold lift in HY; cbn [fst snd] in HY. injection HY as _ _ <-. 
    apply within_of. intros o HO. change (Rabs (@value R (RInf K) l x o) <= M'). rewrite (pool_value K l x n d h w o) by auto. change (@s_neg R (RInf K) (@s_inf R (RInf K))) with (- K).
    eapply Rle_trans; [apply (keep_size _ _ _ M)|exact HL].
    + intros E. assert (In [0%Z; 0%Z] (all_indices [po_size l; po_size l])) by (apply In_all_indices; [repeat constructor; auto|apply in_range2; lia]). rewrite E in *. auto.
    + intros k Hk. apply In_all_indices in Hk; [|repeat constructor; auto]. apply HX. rewrite <- Ex. apply (window_in l x n d h w); auto.
  - cbn [sized] in HL. rewrite HTr in HL. destruct (dropout_train l x g HTr Gx) as (r & g1 & F1 & Gr & Er & E1). rewrite E1 in HY. injection HY as _ _ <-. rewrite Ex.
    apply within_of. intros idx HI. change (@s_mul R SI) with Rmult. change (@s_div R SI) with Rdiv. change (@s_sub R SI) with Rminus. change (@s_z R SI 1) with 1. change (@s_z R SI 0) with 0.
    pose proof (HX idx HI) as Q. match goal with |- context [if ?b then _ else _] => destruct b end.
    + rewrite Rmult_1_r, Rabs_mult, Rmult_comm. eapply Rle_trans; [apply Rmult_le_compat_l; [apply Rabs_pos|exact Q]|tauto].
    + rewrite !Rmult_0_r, !Rmult_0_l, Rabs_R0. tauto.
Qed.

(** ** One layer, and all of them *)
Lemma near_trans : forall a b (x y z : tensor R), near a x y -> near b y z -> near (a + b) x z.
Proof.
  intros a b x y z (G1 & E1 & H1) (G2 & E2 & H2). split; [auto|]. split; [congruence|]. intros idx HI. replace (el z idx - el x idx) with ((el y idx - el x idx) + (el z idx - el y idx)) by ring. eapply Rle_trans; [apply Rabs_triang|].
  apply Rplus_le_compat; [auto|]. apply H2. rewrite E1. auto.
Qed.
Lemma near_within : forall M E (x x' : tensor R), within M x -> near E x x' -> within (M + E) x'.
Proof.
  intros M E x x' HX (G1 & E1 & H1) idx HI. rewrite E1 in HI. replace (el x' idx) with (el x idx + (el x' idx - el x idx)) by ring. eapply Rle_trans; [apply Rabs_triang|]. apply Rplus_le_compat; auto.
Qed.
Lemma near_refl : forall (x : tensor R), good x -> near 0 x x.
Proof. intros x Gx. split; [auto|]. split; [auto|]. intros idx HI. rewrite Rminus_eq_0, Rabs_R0. lra. Qed.
Lemma sway_step : forall d s ds l l' ds' (x : tensor R) (g : G), predicts ds l ds' -> altered d l l' -> good x -> tdims x = ds -> within s x -> forall l1 g' y, layer_forward l x g = (l1, g', Ok y) ->
  exists l1' y', layer_forward l' x g = (l1', g', Ok y') /\ near (sway d s l) y y'.
Proof.
  intros d s ds l l' ds' x g HP HA Gx Ex HX l1 g' y HY. unfold within in HX. rewrite Ex in HX.
  assert (SAME : l' = l -> sway d s l = 0 -> good y -> exists l1' y', layer_forward l' x g = (l1', g', Ok y') /\ near (sway d s l) y y').
  { intros -> E0 Gy. exists l1, y. split; [auto|]. rewrite E0. apply near_refl; auto. }
  assert (Gy : good y). { destruct (gain_exists K l) as (L & HL). destruct (near_step K 0 L ds l ds' x x g) as (? & ? & ? & z & ? & E & _ & Gz & _); auto; [lra|apply near_refl; auto|]. change (layer_forward l x g = (x0, x2, Ok z)) in E. rewrite HY in E. injection E as _ _ ->. exact Gz. }
  destruct HP as [ds l ds' HC|f ds l B1 B2 B3|ds l B1]; [|destruct l'; cbn [altered] in HA; auto|destruct l'; cbn [altered] in HA; auto].
  destruct HC as [n k o l W1 W2 W3 W4 HM|ds l HS|b c ds l HD|n h w l W1 W2 W3 W4 H1 H2 HM|n c h w l H1 H2 H3 H4 H5|ds l HTr]; destruct l' as [l'|l'|l'|l'|l'|l'|l']; cbn [altered] in HA; try (apply SAME; auto; fail); try discriminate.
  - destruct HA as ((G1 & E1 & N1) & (G2 & E2 & N2)). rewrite W2 in E1, N1. rewrite W4 in E2, N2. cbn [layer_forward] in *. assert (HW : fc_wf l k o) by (split; auto). assert (HW' : fc_wf l' k o) by (split; auto).
    rewrite (fc_forward_2 l k o x n HW Gx Ex HM) in HY. rewrite (fc_forward_2 l' k o x n HW' Gx Ex HM). unfold lift in *; cbn [fst snd] in *. injection HY as _ <- <-.
    destruct (dims2_pos x n k Gx Ex) as (Hn & Hk & _). destruct (dims2_pos _ k o W1 W2) as (_ & Ho & _).
    do 2 eexists. split; [reflexivity|]. unfold sway. rewrite W2. apply near_of; [auto with idx|simpl; lia|]. intros idx HI. apply in_range_2 in HI. destruct HI as (i & j & -> & Hi & Hj). unfold fn2. cbn [nth].
    change (Rabs (@affine R RScalar k (M_Layers.fc_w l') (M_Layers.fc_b l') (fun p => el x [i; p]) j - @affine R RScalar k (M_Layers.fc_w l) (M_Layers.fc_b l) (fun p => el x [i; p]) j) <= d * (IZR k * s + 1)). rewrite !affine_R.
    replace (IZR k) with (IZR (Zlen (zrange 0 k))) by (rewrite Zlen_zrange; f_equal; lia). apply sum_sway.
    + intros p Hp. apply In_zrange in Hp. apply HX. apply in_range2; auto.
    + intros p Hp. apply In_zrange in Hp. apply N1. apply in_range2; auto.
    + apply N2. apply in_range2; auto. lia.
  - destruct HA as ((G1 & E1 & N1) & (G2 & E2 & N2) & Q1 & Q2 & Q3 & Q4). rewrite W2 in E1, N1. rewrite W4 in E2, N2. cbn [layer_forward] in *. assert (HW : conv_wf l) by (split; auto).
    assert (HW' : conv_wf l') by (split; [auto|]; rewrite Q1, Q2, Q3, Q4 in *; auto).
    rewrite (conv_forward_ok l x n h w HW Gx Ex H1 H2 HM) in HY. rewrite (conv_forward_ok l' x n h w) by (rewrite ?Q1, ?Q2, ?Q3, ?Q4; auto). unfold lift in *; cbn [fst snd] in *. injection HY as _ <- <-.
    destruct (dims4_pos x _ _ _ _ Gx Ex) as (Hn & Hic & Hh & Hw & _). destruct (dims4_pos _ _ _ _ _ W1 W2) as (Hoc & _ & Hkh & Hkw & _).
    do 2 eexists. split; [reflexivity|]. unfold sway. rewrite Q2, Q3, Q4. apply near_of; [split; [discriminate|]; repeat constructor; auto; lia|simpl; lia|]. intros idx HI. apply in_range_4 in HI. destruct HI as (i & j & y & z & -> & Hi & Hj & Hy & Hz).
    unfold fn4, conv0. cbn [nth]. rewrite ?Q3, ?Q4. change (@s_add R SI) with Rplus. change (@fsum R SI) with (@fsum R RScalar). rewrite !fsum_R. change (@s_mul R SI) with Rmult.
    pose proof (sum_sway (all_indices [cv_kh l; cv_kw l]) (fn2 (fun p q => el x [i; 0%Z; (y + p)%Z; (z + q)%Z])) (fn2 (fun p q => el (cv_w l) [j; 0%Z; p; q])) (fn2 (fun p q => el (cv_w l') [j; 0%Z; p; q])) (el (cv_b l) [j; 0%Z]) (el (cv_b l') [j; 0%Z]) d s) as Q.
    replace (Zlen (all_indices [cv_kh l; cv_kw l])) with (cv_kh l * cv_kw l)%Z in Q by (unfold all_indices; rewrite Zlen_ztab by (cbn [prod]; lia); cbn [prod]; lia).
    eapply Rle_trans; [|apply Q]; [right; reflexivity| | |].
    + intros k Hk. apply In_all_indices in Hk; [|repeat constructor; auto]. apply in_range_2 in Hk. destruct Hk as (p & q & -> & Hp & Hq). unfold fn2. cbn [nth]. apply HX. apply in_range4; lia.
    + intros k Hk. apply In_all_indices in Hk; [|repeat constructor; auto]. apply in_range_2 in Hk. destruct Hk as (p & q & -> & Hp & Hq). unfold fn2. cbn [nth]. apply N1. apply in_range4; lia.
    + apply N2. apply in_range2; auto. lia.
Qed.
Lemma sway_chain : forall d M E ls M' E', sways d M E ls M' E' -> 0 <= d -> 0 <= E -> forall ls' ds ds' (x x' : tensor R) (g : G), stack predicts ds ls ds' -> Forall2 (altered d) ls ls' -> good x -> tdims x = ds -> within M x -> near E x x' ->
  exists l1 l1' g' y y', forward_all ls x g = (l1, g', Ok y) /\ forward_all ls' x' g = (l1', g', Ok y') /\ good y /\ tdims y = ds' /\ within M' y /\ near E' y y'.
Proof.
  intros d M E ls M' E' H Hd. induction H as [M E|M E l ls L M1 M2 E2 HG HS H IH]; intros HE ls' ds ds' x x' g HA HT Gx Ex HX HN.
  - inversion HA; subst. inversion HT; subst. exists [], [], g, x, x'. auto 10.
  - inversion HA as [|? ? dm ? ? H1 H2]; subst. inversion HT as [|? l' ? r' T1 T2]; subst.
    destruct (near_step K E L _ l dm x x' g HE H1 HG Gx eq_refl HN) as (l1 & l1' & g1 & y & y' & E1 & E1' & Gy & Ey & HY).
    pose proof (size_step M M1 _ l dm x g H1 HS Gx eq_refl HX l1 g1 y E1) as WY. pose proof (near_within _ _ _ _ HX HN) as WX. pose proof HN as (Gx' & Ex' & _).
    destruct (sway_step d (M + E) (tdims x) l l' dm x' g H1 T1 Gx' Ex' WX l1' g1 y' E1') as (l2 & y2 & E3 & HY2). pose proof (near_trans _ _ _ _ _ HY HY2) as HZ.
    assert (P : 0 <= L * E + sway d (M + E) l).
    { destruct HZ as (_ & _ & HZ). pose proof (good_pos y Gy) as (_ & PF). specialize (HZ (map (fun _ => 0%Z) (tdims y))). eapply Rle_trans; [apply Rabs_pos|]. apply HZ. clear - PF. unfold in_range. induction PF; constructor; auto. lia. }
    destruct (IH P r' dm ds' y y2 g1 H2 T2 Gy Ey WY HZ) as (ls1 & ls1' & g2 & z & z' & F1 & F2 & Gz & Ez & WZ & NZ).
    exists (l1 :: ls1), (l2 :: ls1'), g2, z, z'. cbn [forward_all]. rewrite E3. change (layer_forward l x g = (l1, g1, Ok y)) in E1. rewrite E1, F1, F2. auto 10.
Qed.
Theorem sway_predict : forall (n n' : net R G) d M E M' E' ds ds' x x', 0 <= d -> 0 <= E -> stack predicts ds (n_layers n) ds' -> Forall2 (altered d) (n_layers n) (n_layers n') -> n_rng n' = n_rng n -> sways d M E (n_layers n) M' E' ->
  good x -> tdims x = ds -> within M x -> near E x x' ->
  exists y y', snd (net_predict n x) = Ok y /\ snd (net_predict n' x') = Ok y' /\ tdims y = ds' /\ within M' y /\ near E' y y'.
Proof.
  intros n n' d M E M' E' ds ds' x x' Hd HE HA HT EG HS Gx Ex HX HN. destruct (sway_chain _ _ _ _ _ _ HS Hd HE (n_layers n') ds ds' x x' (n_rng n) HA HT Gx Ex HX HN) as (l1 & l1' & g' & y & y' & E1 & E2 & Gy & Ey & WY & NY).
  exists y, y'. unfold net_predict. rewrite EG, E1, E2. cbn [snd]. auto.
Qed.
Theorem sway_choice : forall (n n' : net R G) d M E M' E' ds b c x x', 0 <= d -> 0 <= E -> stack predicts ds (n_layers n) [b; c] -> Forall2 (altered d) (n_layers n) (n_layers n') -> n_rng n' = n_rng n -> sways d M E (n_layers n) M' E' ->
  good x -> tdims x = ds -> within M x -> near E x x' ->
  exists y y', snd (net_predict n x) = Ok y /\ snd (net_predict n' x') = Ok y' /\
    forall i j k, (0 <= i < b)%Z -> (0 <= j < c)%Z -> (0 <= k < c)%Z -> 2 * E' < el y [i; j] - el y [i; k] -> el y' [i; k] < el y' [i; j].
Proof.
  intros n n' d M E M' E' ds b c x x' Hd HE HA HT EG HS Gx Ex HX HN. destruct (sway_predict n n' d M E M' E' ds [b; c] x x' Hd HE HA HT EG HS Gx Ex HX HN) as (y & y' & E1 & E2 & Ey & _ & _ & _ & HY).
  exists y, y'. split; [auto|]. split; [auto|]. intros i j k Hi Hj Hk H. rewrite Ey in HY. pose proof (HY [i; j] ltac:(apply in_range2; auto)) as A. pose proof (HY [i; k] ltac:(apply in_range2; auto)) as B.
  apply Rabs_le_between in A. apply Rabs_le_between in B. lra.
Qed.
(** ** The prediction depends continuously on the weights *)
Lemma sized_exists : forall (l : layer R) M, exists M', sized l M M'.
Proof.
  intros l M. destruct l as [l|l|l|l|l|l|l]; cbn [sized].
  - destruct (tdims (M_Layers.fc_w l)) as [|k [|o [|? ?]]] eqn:EW; try (exists 0; intros; discriminate).
    destruct (bound_all (zrange 0 o) (fun j => rsum (zrange 0 k) (fun i => Rabs (el (M_Layers.fc_w l) [i; j])) * M + Rabs (el (M_Layers.fc_b l) [0%Z; j]))) as (B & _ & HB). exists B. intros k' o' j E Hj. injection E as <- <-. apply HB. apply In_zrange. auto.
  - destruct (al_act l); try (exists M; lra); try (exists 1; lra). exists (Rmax M (Rabs alpha * M)). split; [apply Rmax_l|apply Rmax_r].
  - exists M. lra.
  - destruct (bound_all (zrange 0 (cv_oc l)) (fun o => rsum (all_indices [cv_kh l; cv_kw l]) (fun k => Rabs (el (cv_w l) (o :: 0%Z :: k))) * M + Rabs (el (cv_b l) [o; 0%Z]))) as (B & _ & HB). exists B. intros o Ho. apply HB. apply In_zrange. auto.
  - exists M. lra.
  - destruct (dr_train l); [exists (Rmax 0 (Rabs (1 / (1 - dr_rate l)) * M))|exists (Rmax 0 M)]; (split; [apply Rmax_l|apply Rmax_r]).
  - destruct (bound_all (zrange 0 (nth 1 (tdims (bn_gamma l)) 0%Z)) (fun j => Rabs (el (bn_gamma l) [0%Z; j] / sqrt (el (bn_rvar l) [0%Z; j] + bn_eps l)) * (M + Rabs (el (bn_rmean l) [0%Z; j])) + Rabs (el (bn_beta l) [0%Z; j]))) as (B & _ & HB).
    exists B. intros f j ((A1 & A2) & _) Hj. rewrite A2 in HB. cbn [nth] in HB. apply HB. apply In_zrange. auto.
Qed.
Lemma sway_small : forall (l : layer R) M, exists C, 0 <= C /\ forall d E, 0 <= d -> Rabs E <= 1 -> Rabs (sway d (M + E) l) <= C * d.
Proof.
  intros l M. assert (X : forall k, exists C, 0 <= C /\ forall d E, 0 <= d -> Rabs E <= 1 -> Rabs (d * (IZR k * (M + E) + 1)) <= C * d).
  { intros k. exists (Rabs (IZR k) * (Rabs M + 1) + 1). pose proof (Rabs_pos (IZR k)) as P1. pose proof (Rabs_pos M) as P2. split; [nra|]. intros d E Hd HE. rewrite Rabs_mult, (Rabs_pos_eq d), Rmult_comm by auto. apply Rmult_le_compat_r; [auto|].
    eapply Rle_trans; [apply Rabs_triang|]. rewrite Rabs_R1. apply Rplus_le_compat_r. rewrite Rabs_mult. apply Rmult_le_compat_l; [auto|]. eapply Rle_trans; [apply Rabs_triang|]. lra. }
  assert (Z0 : exists C, 0 <= C /\ forall d E : R, 0 <= d -> Rabs E <= 1 -> Rabs 0 <= C * d) by (exists 0; split; [lra|]; intros; rewrite Rabs_R0; lra).
  destruct l as [l|l|l|l|l|l|l]; cbn [sway]; auto. destruct (tdims (M_Layers.fc_w l)); auto.
Qed.
Lemma sways_small : forall (ls : list (layer R)) M eps, 0 < eps -> exists M' d0, 0 < d0 /\ forall d E, 0 <= d <= d0 -> Rabs E <= d0 -> exists E', sways d M E ls M' E' /\ Rabs E' <= eps.
Proof.
  induction ls as [|l ls IH]; intros M eps He.
  - exists M, eps. split; [auto|]. intros d E Hd HE. exists E. split; [constructor|auto].
  - destruct (gain_exists K l) as (L & HL). destruct (sized_exists l M) as (M1 & HM). destruct (sway_small l M) as (C & HC & HS). destruct (IH M1 eps He) as (M' & d1 & Hd1 & H1). pose proof (proj1 HL) as L0.
    exists M', (Rmin 1 (d1 / (L + C + 1))). assert (D0 : 0 < d1 / (L + C + 1)) by (apply Rdiv_lt_0_compat; lra). assert (D1 : d1 / (L + C + 1) <= d1).
    { apply Rmult_le_reg_r with (L + C + 1); [lra|]. unfold Rdiv. rewrite Rmult_assoc, Rinv_l by lra. nra. }
    assert (D2 : (L + C) * (d1 / (L + C + 1)) <= d1). { apply Rmult_le_reg_r with (L + C + 1); [lra|]. unfold Rdiv. rewrite !Rmult_assoc, Rinv_l by lra. nra. }
    split; [apply Rmin_glb_lt; lra|]. intros d E Hd HE. pose proof (Rmin_l 1 (d1 / (L + C + 1))) as A1. pose proof (Rmin_r 1 (d1 / (L + C + 1))) as A2.
    destruct (H1 d (L * E + sway d (M + E) l)) as (E' & HE1 & HE2); [lra| |exists E'; split; [econstructor; eassumption|auto]].
    eapply Rle_trans; [apply Rabs_triang|]. rewrite Rabs_mult, (Rabs_pos_eq L) by auto. pose proof (HS d E ltac:(lra) ltac:(lra)) as B. set (q := d1 / (L + C + 1)) in *. assert (L * Rabs E <= L * q) by (apply Rmult_le_compat_l; lra). assert (C * d <= C * q) by (apply Rmult_le_compat_l; lra). lra.
Qed.
Lemma near_more : forall a b (x y : tensor R), a <= b -> near a x y -> near b x y.
Proof. intros a b x y H (G1 & E1 & H1). split; [auto|]. split; [auto|]. intros idx HI. eapply Rle_trans; [apply H1; auto|auto]. Qed.
Theorem sway_continuous : forall (n : net R G) ds ds' M eps, 0 < eps -> stack predicts ds (n_layers n) ds' ->
  exists d, 0 < d /\ forall (n' : net R G) x x', Forall2 (altered d) (n_layers n) (n_layers n') -> n_rng n' = n_rng n -> good x -> tdims x = ds -> within M x -> near d x x' ->
    exists y y', snd (net_predict n x) = Ok y /\ snd (net_predict n' x') = Ok y' /\ near eps y y'.
Proof.
  intros n ds ds' M eps He HA. destruct (sways_small (n_layers n) M eps He) as (M' & d & Hd & H). exists d. split; [auto|]. intros n' x x' HT EG Gx Ex HX HN. destruct (H d d) as (E' & HS & HE'); [lra|rewrite Rabs_pos_eq; lra|].
  destruct (sway_predict n n' d M d M' E' ds ds' x x') as (y & y' & E1 & E2 & _ & _ & NY); auto; try lra. exists y, y'. split; [auto|]. split; [auto|]. apply (near_more E'); [|auto]. apply Rabs_le_between in HE'. lra.
Qed.
(** ** For a dense layer the bound is attained *)
Theorem sway_attained : forall (l : fc R) n k o d s x (g : G), good (M_Layers.fc_w l) -> tdims (M_Layers.fc_w l) = [k; o] -> good (M_Layers.fc_b l) -> tdims (M_Layers.fc_b l) = [1%Z; o] -> (n * o <= INT_MAX)%Z -> 0 <= d ->
  good x -> tdims x = [n; k] -> (forall idx, in_range [n; k] idx -> el x idx = s) ->
  exists l' y y', altered d (LFC l) (LFC l') /\ snd (layer_forward (LFC l) x g) = Ok y /\ snd (layer_forward (LFC l') x g) = Ok y' /\ forall i j, (0 <= i < n)%Z -> (0 <= j < o)%Z -> el y' [i; j] - el y [i; j] = sway d s (LFC l).
Proof.
  intros l n k o d s x g W1 W2 W3 W4 HM Hd Gx Ex HX. set (w' := tensor_of [k; o] (fun idx => el (M_Layers.fc_w l) idx + d)). set (b' := tensor_of [1%Z; o] (fun idx => el (M_Layers.fc_b l) idx + d)).
  pose proof (good_pos _ W1) as P1. pose proof (good_max _ W1) as P2. pose proof (good_pos _ W3) as P3. pose proof (good_max _ W3) as P4. rewrite W2 in P1, P2. rewrite W4 in P3, P4.
  exists (mkFC w' b' None None None). assert (HW : fc_wf l k o) by (split; auto). assert (HW' : fc_wf (mkFC w' b' None None None) k o) by (split; [apply good_tensor_of; auto|]; split; [reflexivity|]; split; [apply good_tensor_of; auto|reflexivity]).
  cbn [layer_forward]. rewrite (fc_forward_2 l k o x n HW Gx Ex HM), (fc_forward_2 (mkFC w' b' None None None) k o x n HW' Gx Ex HM). unfold lift; cbn [fst snd M_Layers.fc_w M_Layers.fc_b]. do 2 eexists. split; [|split; [reflexivity|split; [reflexivity|]]].
  - cbn [altered M_Layers.fc_w M_Layers.fc_b]. split; (split; [apply good_tensor_of; auto|]; split; [cbn; congruence|]); intros idx HI; [rewrite W2 in HI|rewrite W4 in HI]; unfold w', b'; rewrite el_tensor_of by auto;
      match goal with |- Rabs (?a + d - ?a) <= d => replace (a + d - a) with d by ring end; rewrite Rabs_pos_eq; lra.
  - intros i j Hi Hj. rewrite !el_tensor_of by (apply in_range2; auto). unfold fn2. cbn [nth sway]. rewrite W2.
    change (@affine R RScalar k w' b' (fun p => el x [i; p]) j - @affine R RScalar k (M_Layers.fc_w l) (M_Layers.fc_b l) (fun p => el x [i; p]) j = d * (IZR k * s + 1)). rewrite !affine_R.
    replace (rsum (zrange 0 k) (fun p => el x [i; p] * el w' [p; j])) with (rsum (zrange 0 k) (fun p => el x [i; p] * el (M_Layers.fc_w l) [p; j]) + rsum (zrange 0 k) (fun _ => s * d)).
    2:{ rewrite <- rsum_plus. apply rsum_ext. intros p Hp. apply In_zrange in Hp. unfold w'. rewrite el_tensor_of by (apply in_range2; auto). rewrite (HX [i; p]) by (apply in_range2; auto). ring. }
    destruct (dims2_pos x n k Gx Ex) as (_ & Hk & _). rewrite rsum_const, Zlen_zrange, Z.sub_0_r by lia. unfold b'. rewrite el_tensor_of by (apply in_range2; auto; lia).
    change (@el R RScalar (M_Layers.fc_b l) [0%Z; j]) with (@el R SI (M_Layers.fc_b l) [0%Z; j]).
    match goal with |- ?A + _ + _ - (?B + _) = _ => change B with A end. ring.
Qed.
End R.
