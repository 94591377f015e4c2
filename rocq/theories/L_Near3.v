(** * Whole networks for C122, and the float32 reading of C137 *)
From Coq Require Import Reals Lra SpecFloat.
From Flocq Require Import Core BinarySingleNaN.
From Verif Require Import Base Scalar ScalarR Types Spec SpecNN SpecLayers SpecR SpecF32 M_Shape M_Tensor M_Adv M_Act M_Layers M_Reg M_Net L_Index L_Shape L_Tensor L_Nest L_Matmul L_RSum L_Adv L_AdvR L_Act L_ActR L_Layers L_Conv L_Float L_FloatAct L_FloatLib L_FloatT L_Drop L_Batch L_Slice L_BN L_BNR L_Pool SpecFuse L_Swap SpecNear L_Near L_Near2.
Local Open Scope R_scope.
Local Notation V := (SF2R radix2).

Section N.
Variable lm : libm.
Let SF : Scalar f32 := F32Scalar lm.
#[local] Existing Instance SF.
Context {G G' : Type} {HR : Rng f32 G} {HR' : Rng R G'}.

Lemma close_by : forall ds M E x y, good x -> tdims x = ds -> good y -> tdims y = ds ->
  (forall idx, in_range ds idx -> good_f (el x idx) /\ Rabs (el y idx) <= M /\ Rabs (V (el x idx) - el y idx) <= E) -> close lm ds M E x y.
Proof.
  intros ds M E x y Gx Ex Gy Ey H. rewrite (tensor_of_el x Gx), (tensor_of_el y Gy), Ex, Ey. apply close_of; auto; [rewrite <- Ex; apply good_pos; auto|rewrite <- Ex; apply good_max; auto].
Qed.
(** ** Pooling *)
Lemma pool_step : forall K (l : pool f32) (l' : pool R) n c h w M E x y, po_size l' = po_size l -> po_stride l' = po_stride l -> po_pad l' = po_pad l ->
  po_pad l = 0%Z -> (0 < po_stride l)%Z -> (0 < po_size l)%Z -> (po_size l <= h)%Z -> (po_size l <= w)%Z -> M < K -> close lm [n; c; h; w] M E x y ->
  exists l1 l1' u v, pool_forward l x = (l1, Ok u) /\ @pool_forward R (RInf K) l' y = (l1', Ok v) /\
    close lm [n; c; pool_extent (po_size l) (po_stride l) h; pool_extent (po_size l) (po_stride l) w] M E u v.
Proof.
  intros K l l' n c h w M E x y E1 E2 E3 H1 H2 H3 H4 H5 HK HC. pose proof HC as (Gx & Ex & Fx & Gy & Ey & _). destruct (close_pos lm _ _ _ _ _ HC) as (HP & HM & _).
  assert (CX : comparable x).
  { destruct (finite_comparable lm x Gx Fx) as ((O1 & O2 & O3) & O4). split; [split; [|split]|].
    - intros a Ha. apply O1. auto.
    - intros a b d Ha Hb Hd. apply O2; auto.
    - intros a b d Ha Hb Hd. apply O3; auto.
    - intros a Ha. apply O4. auto. }
  assert (CY : @comparable R (RInf K) y). { apply comparable_R. intros idx HI. rewrite Ey in HI. destruct (close_at lm _ _ _ _ _ _ HC HI) as (_ & B & _). apply Rabs_le_inv in B. change (@el R (RInf K) y idx) with (@el R RScalar y idx). lra. }
  destruct (pool_forward_max l x n c h w Gx Ex CX H1 H2 H3 H4 H5) as (u & U1 & Gu & Eu & HU).
  destruct (@pool_forward_max R (RInf K) l' y n c h w Gy Ey CY) as (v & V1 & Gv & Ev & HV); try (rewrite ?E1, ?E2, ?E3; assumption).
  rewrite E1, E2 in Ev, HV. eexists. eexists. exists u, v. split; [exact U1|]. split; [exact V1|].
  assert (GF : forall p, in_range [n; c; h; w] p -> good_f (el x p) /\ Rabs (el y p) <= M /\ Rabs (V (el x p) - el y p) <= E) by (intros p; apply (close_at lm _ _ _ _ _ _ HC)).
  assert (HE : forall o, in_range [n; c; pool_extent (po_size l) (po_stride l) h; pool_extent (po_size l) (po_stride l) w] o -> good_f (el u o) /\ Rabs (el v o) <= M /\ Rabs (V (el u o) - el v o) <= E).
  { intros o HO. destruct (HU o ltac:(rewrite Eu; exact HO)) as (W1 & p & FP & EP). destruct (HV o ltac:(rewrite Ev; exact HO)) as (W2 & p' & FP' & EP'). rewrite Ex in W1. rewrite Ey in W2. rewrite Forall_forall in W1, W2.
    pose proof (first_max_in _ _ _ FP) as IP. pose proof (@first_max_in R (RInf K) _ _ _ _ FP') as IP'. destruct (GF p (W1 _ IP)) as (A1 & A2 & A3). destruct (GF p' (W2 _ IP')) as (B1 & B2 & B3).
    change (@el R RScalar v o) with (@el R (RInf K) v o). rewrite EP, EP'. change (@el R (RInf K) y p') with (@el R RScalar y p'). split; [auto|]. split; [auto|].
    destruct FP as (l1 & l2 & _ & _ & F3). destruct FP' as (m1 & m2 & _ & _ & F3'). specialize (F3 p' IP'). specialize (F3' p IP).
    change (s_lt (el x p) (el x p')) with (SFltb (el x p) (el x p')) in F3. destruct A1 as (A1 & A1'). destruct B1 as (B1 & B1'). rewrite ltb_V in F3 by auto. change (@s_lt R (RInf K) (el y p') (el y p)) with (Rltb (@el R RScalar y p') (@el R RScalar y p)) in F3'.
    unfold Rltb in F3'. destruct (Rlt_dec (@el R RScalar y p') (@el R RScalar y p)) as [|F4]; [discriminate|]. destruct (Rlt_bool_spec (V (el x p)) (V (el x p'))) as [|F5]; [discriminate|].
    apply Rabs_le_inv in A3. apply Rabs_le_inv in B3. apply Rabs_le. lra. }
  apply close_by; auto.
Qed.
(** ** Batch normalisation *)
Lemma norm_step : forall K f ds (l : bn f32) (l' : bn R) M E mu A B C x y, bn_gamma l' = exact (bn_gamma l) -> bn_beta l' = exact (bn_beta l) -> bn_rmean l' = exact (bn_rmean l) -> bn_rvar l' = exact (bn_rvar l) -> bn_eps l' = f32_value (bn_eps l) -> bn_train l' = bn_train l ->
  bn_rows f l -> bn_train l = false -> featured f ds -> all_finite (bn_gamma l) -> all_finite (bn_beta l) -> all_finite (bn_rmean l) -> all_finite (bn_rvar l) -> f32_in (/ 2 ^ 40) 1 (bn_eps l) ->
  (forall j, (0 <= j < f)%Z -> 0 <= f32_value (el (bn_rvar l) [0%Z; j]) <= 2 ^ 100 /\ Rabs (f32_value (el (bn_rmean l) [0%Z; j])) <= mu /\
     Rabs (f32_value (el (bn_gamma l) [0%Z; j])) <= A * sqrt (f32_value (el (bn_rvar l) [0%Z; j]) + f32_value (bn_eps l)) /\ Rabs (f32_value (el (bn_gamma l) [0%Z; j])) <= C /\ Rabs (f32_value (el (bn_beta l) [0%Z; j])) <= B) ->
  C <= 2 ^ 100 -> M + E + mu <= 2 ^ 90 -> A * (M + E + mu) + B <= 2 ^ 119 -> close lm ds M E x y ->
  exists u v, bn_forward l x = (l, Ok u) /\ @bn_forward R (RInf K) l' y = (l', Ok v) /\ close lm ds (A * (M + mu) + B) (norm_error mu A B C M E) u v.
Proof.
  intros K f ds l l' M E mu A B C x y E1 E2 E3 E4 E5 E6 HL Ht HF F1 F2 F3 F4 HE HJ H1 H2 H3 HC. pose proof HC as (Gx & Ex & Fx & Gy & Ey & _). destruct (close_pos lm _ _ _ _ _ HC) as (HP & HM & _).
  destruct (bn_rows_ready f l HL) as (R1 & R2 & R3). destruct HL as ((A1 & A2) & (B1 & B2) & (C1 & C2) & (D1 & D2)).
  assert (HL' : bn_rows f l'). { destruct (good_exact _ A1) as (A1' & A2'). destruct (good_exact _ B1) as (B1' & B2'). destruct (good_exact _ C1) as (C1' & C2'). destruct (good_exact _ D1) as (D1' & D2'). unfold bn_rows. rewrite E1, E2, E3, E4, A2', B2', C2', D2'. auto 10. }
  destruct (bn_rows_ready f l' HL') as (R1' & R2' & R3'). destruct HL' as ((A1' & A2') & (B1' & B2') & (C1' & C2') & (D1' & D2')).
  rewrite (bn_forward_eval f l x R1 R2 R3 Ht Gx) by (rewrite Ex; auto). rewrite (@bn_forward_eval R (RInf K) f l' y R1' R2' R3') by (auto; try congruence; rewrite Ey; auto).
  eexists. eexists. split; [reflexivity|]. split; [reflexivity|]. unfold bn_out. rewrite Ex, Ey. apply (close_of lm); auto. intros idx HI.
  assert (HJx : (0 <= nth 1 idx 0 < f)%Z). { destruct HF as [(n & ->)|(n & h & w & ->)]; [apply in_range_2 in HI; destruct HI as (? & ? & -> & ? & ?)|apply in_range_4 in HI; destruct HI as (? & ? & ? & ? & -> & ? & ? & ? & ?)]; cbn [nth]; auto. }
  set (j := nth 1 idx 0%Z) in *. assert (IJ : in_range [1; f]%Z [0%Z; j]) by (apply in_range2; lia).
  rewrite !(feat_row f) by auto. rewrite E1, E2, E3, E4, E5.
  change (@el R (RInf K)) with (@el R RScalar). rewrite !(el_exact lm) by (auto; rewrite ?A2, ?B2, ?C2, ?D2; auto). destruct (HJ j HJx) as (J1 & J2 & J3 & J4 & J5). rewrite !value_V in *.
  apply within_in in HE. destruct HE as (V1 & V2 & V3). destruct (close_at lm _ _ _ _ _ _ HC HI) as (X1 & X2 & X3).
  apply (bn_close lm); auto; try (apply (el_good lm); auto; rewrite ?A2, ?B2, ?C2, ?D2; auto). split; auto.
Qed.
Lemma layer_step : forall ds M E l ds' M' E', drift lm ds M E l ds' M' E' -> forall K l', M < K -> twin l l' -> forall x y g g', close lm ds M E x y ->
  exists l1 l1' u v, layer_forward l x g = (l1, g, Ok u) /\ @layer_forward R (RInf K) G' HR' l' y g' = (l1', g', Ok v) /\ close lm ds' M' E' u v.
Proof.
  intros ds M E l ds' M' E' HD. destruct HD; intros K l' HK HT x y g g' HC; inversion HT; subst; cbn [layer_forward]; unfold lift, SF in *.
  - change (@fc_forward R (RInf K)) with (@fc_forward R RScalar). match goal with A : M_Layers.fc_w ?l' = exact _, B : M_Layers.fc_b ?l' = exact _ |- _ => edestruct (dense_step lm l l') as (u & v & U1 & U2 & U3); [exact A|exact B|eassumption..|exact HC|] end. rewrite U1, U2. eexists. eexists. exists u, v. auto.
  - change (@conv_forward R (RInf K)) with (@conv_forward R RScalar). match goal with A : cv_w ?l' = exact _ |- _ => edestruct (conv_step lm l l') as (u & v & U1 & U2 & U3); [exact A|eassumption..|exact HC|] end. rewrite U1, U2. eexists. eexists. exists u, v. auto.
  - change (@act_forward R (RInf K)) with (@act_forward R RScalar). unfold act_forward. cbn [al_act fst snd]. destruct (act_step lm ReLU ReLU ds M E M E x y) as (u & v & U1 & U2 & U3); auto; [discriminate..|intros; apply (relu_close lm); auto|]. rewrite U1, U2. eexists. eexists. exists u, v. auto.
  - change (@act_forward R (RInf K)) with (@act_forward R RScalar). unfold act_forward. cbn [al_act fst snd]. edestruct (act_step lm (LeakyReLU al) (LeakyReLU (f32_value al)) ds M E) as (u & v & U1 & U2 & U3); [discriminate..|intros; apply (leaky_close lm); eassumption|exact HC|]. rewrite U1, U2. eexists. eexists. exists u, v. auto.
  - change (@act_forward R (RInf K)) with (@act_forward R RScalar). unfold act_forward. cbn [al_act fst snd]. edestruct (act_step lm Sigmoid Sigmoid ds M E 1 (E + d + / 2 ^ 21)) as (u & v & U1 & U2 & U3); [discriminate..|intros; apply (sigm_close lm); eassumption|exact HC|]. rewrite U1, U2. eexists. eexists. exists u, v. auto.
  - change (@act_forward R (RInf K)) with (@act_forward R RScalar). unfold act_forward. cbn [al_act fst snd]. edestruct (act_step lm Tanh Tanh ds M E) as (u & v & U1 & U2 & U3); [discriminate..|intros; eapply (tanh_close lm); eassumption|exact HC|]. rewrite U1, U2. eexists. eexists. exists u, v. auto.
  - change (@act_forward R (RInf K)) with (@act_forward R RScalar). unfold act_forward. cbn [al_act fst snd]. edestruct (act_step lm Swish Swish ds M E) as (u & v & U1 & U2 & U3); [discriminate..|intros; eapply (swish_close lm); eassumption|exact HC|]. rewrite U1, U2. eexists. eexists. exists u, v. auto.
  - change (@act_forward R (RInf K)) with (@act_forward R RScalar). unfold act_forward. cbn [al_act fst snd]. edestruct (act_step lm Mish Mish ds M E) as (u & v & U1 & U2 & U3); [discriminate..|intros; eapply (mish_close lm); eassumption|exact HC|]. rewrite U1, U2. eexists. eexists. exists u, v. auto.
  - change (@act_forward R (RInf K)) with (@act_forward R RScalar). unfold act_forward. cbn [al_act fst snd act_fwd]. pose proof HC as (Gx & Ex & Fx & Gy & Ey & _). destruct (close_pos lm _ _ _ _ _ HC) as (HP & HM & _). pose proof (pos_forall _ HP) as HF. inversion HF as [|? ? Hn HF']; subst.
    rewrite (softmax_fwd_ok x n r), (softmax_R y n r), Ex by auto. eexists. eexists. eexists. eexists. split; [reflexivity|]. split; [reflexivity|]. apply (close_of lm); auto. intros idx HI. inversion HI as [|? q ? j Hq Hj]; subst. cbn [nth hd tl]. unfold smR, rowsum, row.
    edestruct (softmax_close lm ltac:(eassumption) d ltac:(eassumption) ltac:(eassumption) (all_indices r) (fun i => el x (q :: i)) (fun i => el y (q :: i)) (prod r) M E j) as (A & B & C); auto.
    + unfold all_indices. rewrite Zlen_ztab; auto. pose proof (prod_pos _ HF'). lia.
    + intros k Hk. apply In_all_indices in Hk; auto. apply (close_at lm _ _ _ _ _ _ HC). constructor; auto.
    + apply In_all_indices; auto.
    + split; [exact A|]. split; [rewrite Rabs_pos_eq; lra|exact C].
  - pose proof HC as (Gx & Ex & _ & Gy & Ey & _). destruct (flat_any l x n k [] Gx Ex) as (l1 & F1). destruct (flat_any l'0 y n k [] Gy Ey) as (l2 & F2). rewrite F1, F2. cbn [fst snd]. eexists. eexists. eexists. eexists. split; [reflexivity|]. split; [reflexivity|].
    replace k with (prod [k]) at 1 by (cbn [prod]; lia). apply (flat_step lm). exact HC.
  - pose proof HC as (Gx & Ex & _ & Gy & Ey & _). destruct (flat_any l x n c r Gx Ex) as (l1 & F1). destruct (flat_any l'0 y n c r Gy Ey) as (l2 & F2). rewrite F1, F2. cbn [fst snd]. eexists. eexists. eexists. eexists. split; [reflexivity|]. split; [reflexivity|]. apply (flat_step lm). exact HC.
  - match goal with A : po_size _ = po_size _, B : po_stride _ = po_stride _, D : po_pad ?q = po_pad _ |- _ => edestruct (pool_step K l q n c h w M E x y) as (l1 & l1' & u & v & U1 & U2 & U3); [exact A|exact B|exact D|eassumption..|exact HK|exact HC|] end. unfold SF in U1; rewrite U1, U2. eexists. eexists. exists u, v. auto.
  - match goal with A0 : bn_gamma ?q = exact _ |- _ => edestruct (norm_step K f ds l q M E mu A B C x y) as (u & v & U1 & U2 & U3); [exact A0|eassumption..|exact HC|] end. unfold SF in U1; rewrite U1, U2. eexists. eexists. exists u, v. auto.
  - rewrite dropout_eval, (@dropout_eval R (RInf K)) by reflexivity. eexists. eexists. exists x, y. auto.
Qed.

Lemma layers_step : forall ds M E ls ds' M' E', drifts lm ds M E ls ds' M' E' -> exists K0, forall K ls', K0 <= K -> Forall2 twin ls ls' -> forall x y g g', close lm ds M E x y ->
  exists r r' u v, forward_all ls x g = (r, g, Ok u) /\ @forward_all R (RInf K) G' HR' ls' y g' = (r', g', Ok v) /\ close lm ds' M' E' u v.
Proof.
  intros ds M E ls ds' M' E' HD. induction HD as [|ds M E l ds1 M1 E1 r ds2 M2 E2 H1 H2 (K0 & IH)].
  - exists 0. intros K ls' _ HT x y g g' HC. inversion HT; subst. exists [], [], x, y. auto.
  - exists (Rmax K0 (M + 1)). intros K ls' HK HT x y g g' HC. inversion HT; subst. pose proof (Rmax_l K0 (M + 1)). pose proof (Rmax_r K0 (M + 1)).
    cbn [forward_all]. edestruct (layer_step _ _ _ _ _ _ _ H1 K) as (l1 & l1' & u & v & U1 & U2 & U3); [lra|eassumption|exact HC|]. rewrite U1, U2. edestruct (IH K) as (q & q' & u2 & v2 & W1 & W2 & W3); [lra|eassumption|exact U3|]. rewrite W1, W2. eexists. eexists. exists u2, v2. split; [reflexivity|]. split; [reflexivity|auto].
Qed.
(** ** Networks *)
Lemma predict_close : forall ds M E (n : net f32 G) ds' M' E', drifts lm ds M E (n_layers n) ds' M' E' -> exists K0, forall K (n' : net R G') x y, K0 <= K -> Forall2 twin (n_layers n) (n_layers n') -> close lm ds M E x y ->
  exists u v, snd (net_predict n x) = Ok u /\ snd (@net_predict R (RInf K) G' HR' n' y) = Ok v /\ close lm ds' M' E' u v.
Proof.
  intros ds M E n ds' M' E' HD. destruct (layers_step _ _ _ _ _ _ _ HD) as (K0 & H). exists K0. intros K n' x y HK HT HC. destruct (H K _ HK HT x y (n_rng n) (n_rng n') HC) as (r & r' & u & v & U1 & U2 & U3). unfold net_predict. rewrite U1, U2. exists u, v. auto.
Qed.
(** Every layer has a twin. *)
Lemma twin_exists : forall ds M E l ds' M' E', drift lm ds M E l ds' M' E' -> exists l', twin l l'.
Proof.
  intros ds M E l ds' M' E' H. destruct H.
  - exists (LFC (mkFC (exact (M_Layers.fc_w l)) (exact (M_Layers.fc_b l)) None None None)). constructor; reflexivity.
  - exists (LConv (mkConv (exact (cv_w l)) (exact (cv_b l)) None None None (cv_ic l) (cv_oc l) (cv_kh l) (cv_kw l) (cv_stride l) (cv_pad l) (cv_dil l))). constructor; reflexivity.
  - exists (LAct (mkActL ReLU None)). constructor.
  - exists (LAct (mkActL (LeakyReLU (f32_value al)) None)). constructor.
  - exists (LAct (mkActL Sigmoid None)). constructor.
  - exists (LAct (mkActL Tanh None)). constructor.
  - exists (LAct (mkActL Swish None)). constructor.
  - exists (LAct (mkActL Mish None)). constructor.
  - exists (LAct (mkActL Softmax None)). constructor.
  - exists (LFlat flatten_new). constructor.
  - exists (LFlat flatten_new). constructor.
  - exists (LPool (mkPool (po_size l) (po_stride l) (po_pad l) None)). constructor; reflexivity.
  - exists (LBN (mkBN (bn_n l) (f32_value (bn_eps l)) 0 (exact (bn_gamma l)) (exact (bn_beta l)) (exact (bn_rmean l)) (exact (bn_rvar l)) None None None None None (bn_train l))). constructor; reflexivity.
  - exists (LDrop (mkDrop 0 None false)). constructor.
Qed.
End N.

(** ** An example network *)
Definition ex_w : tensor f32 := tensor_of [2; 2]%Z (fun idx => f32_of_Z (nth (Z.to_nat (2 * nth 0 idx 0 + nth 1 idx 0)) [1; -2; 3; 1] 0)%Z).
Definition ex_b : tensor f32 := tensor_of [1; 2]%Z (fun idx => f32_of_Z (if (nth 1 idx 0 =? 0)%Z then 1 else -1)).
Definition ex_fc : fc f32 := mkFC ex_w ex_b None None None.
Definition ex_layers : list (layer f32) := [LFC ex_fc; LAct (mkActL Sigmoid None); LFC ex_fc; LAct (mkActL Softmax None)].
Definition ex_exact : list (layer R) := [LFC (mkFC (exact ex_w) (exact ex_b) None None None); LAct (mkActL Sigmoid None); LFC (mkFC (exact ex_w) (exact ex_b) None None None); LAct (mkActL Softmax None)].
Lemma ex_twins : Forall2 twin ex_layers ex_exact.
Proof. repeat constructor. Qed.
Lemma ex_dense : forall M E, 0 <= M -> 0 <= E -> M + E <= 100 -> drift cr_libm [3; 2]%Z M E (LFC ex_fc) [3; 2]%Z (4 * M + 1) (next_error 2 4 1 M E).
Proof.
  intros M E HM HE HS. apply drift_dense.
  - split; [apply good_tensor_of; [auto with idx|vm_compute; discriminate]|]. split; [reflexivity|]. split; [apply good_tensor_of; [auto with idx|vm_compute; discriminate]|reflexivity].
  - unfold all_finite. vm_compute. repeat constructor.
  - unfold all_finite. vm_compute. repeat constructor.
  - vm_compute. discriminate.
  - reflexivity.
  - intros j Hj. assert (j = 0%Z \/ j = 1%Z) as [->| ->] by lia; unfold f32_value, rsum; simpl; rewrite ?Rabs_left, ?Rabs_right by lra; lra.
  - intros j Hj. assert (j = 0%Z \/ j = 1%Z) as [->| ->] by lia; unfold f32_value; simpl; rewrite ?Rabs_left, ?Rabs_right by lra; lra.
  - pose proof p120. set (X := 2 ^ 120) in *. lra.
Qed.
Lemma ex_error : forall M E, 0 <= M <= 10 -> 0 <= E <= 1 -> 0 <= next_error 2 4 1 M E <= 4 * E + 150 / 2 ^ 23.
Proof.
  intros M E HM HE. unfold next_error. change (IZR (2 + 1)) with 3. assert (H0 : 0 < / 2 ^ 23) by (apply Rinv_0_lt_compat, pow_lt; lra). assert (H1 : 0 < / 2 ^ 148) by (apply Rinv_0_lt_compat, pow_lt; lra).
  assert (H2 : / 2 ^ 148 <= / 2 ^ 23) by (apply Rinv_le_contravar; [apply pow_lt; lra|apply Rle_pow; [lra|lia]]). unfold Rdiv. set (t := / 2 ^ 23) in *. set (z := / 2 ^ 148) in *. clearbody t z. nra.
Qed.
Lemma ex_drifts : exists E, drifts cr_libm [3; 2]%Z 1 0 ex_layers [3; 2]%Z 1 E /\ E <= / 100.
Proof.
  assert (HT : / 2 ^ 23 <= / 1000000) by (apply Rinv_le_contravar; [lra|simpl; lra]). assert (HT0 : 0 < / 2 ^ 23) by (apply Rinv_0_lt_compat, pow_lt; lra). assert (T24 : / 2 ^ 24 = / 2 ^ 23 / 2) by (rewrite p24, Rinv_mult; field).
  assert (T21 : / 2 ^ 21 = 4 * / 2 ^ 23). { replace (2 ^ 23) with (4 * 2 ^ 21) by (cbn; ring). rewrite Rinv_mult. field. } assert (T22 : / 2 ^ 22 = 2 * / 2 ^ 23). { replace (2 ^ 23) with (2 * 2 ^ 22) by (cbn; ring). rewrite Rinv_mult. field. }
  pose proof (ex_error 1 0 ltac:(lra) ltac:(lra)) as B1. set (E1 := next_error 2 4 1 1 0) in *. set (E2 := E1 + / 2 ^ 24 + / 2 ^ 21). assert (B2 : 0 <= E2 <= / 1000) by (unfold E2; rewrite T24, T21; unfold Rdiv in *; lra).
  pose proof (ex_error 1 E2 ltac:(lra) ltac:(lra)) as B3. set (E3 := next_error 2 4 1 1 E2) in *.
  exists (2 * E3 + (4 * 1 + 1 + E3) / 2 ^ 22 + 4 * / 2 ^ 24 + 5 * IZR (prod [2%Z]) / 2 ^ 23). split.
  - eapply drifts_cons; [apply ex_dense; lra|]. eapply drifts_cons; [apply (drift_sigmoid cr_libm _ _ _ None (/ 2 ^ 24)); [apply cr_exp_like|apply cr_exp_within|left; apply Rinv_0_lt_compat, pow_lt; lra]|]. fold E1. fold E2.
    eapply drifts_cons; [apply ex_dense; lra|]. fold E3. eapply drifts_cons; [|apply drifts_nil]. apply drift_softmax; [discriminate|apply cr_exp_like|apply cr_exp_within|rewrite T24; unfold Rdiv; lra|vm_compute; discriminate|].
    pose proof p120. set (X := 2 ^ 120) in *. unfold Rdiv in *. lra.
  - unfold Rdiv in *. rewrite T22, T24. change (prod [2%Z]) with 2%Z. change (IZR 2) with 2. unfold Rdiv. nra.
Qed.

(** ** Changing the input of a float32 network *)
Lemma twins_exist : forall lm ds M E ls ds' M' E', drifts lm ds M E ls ds' M' E' -> exists ls', Forall2 twin ls ls'.
Proof.
  intros lm ds M E ls ds' M' E' H. induction H as [|ds M E l ds1 M1 E1 r ds2 M2 E2 H1 H2 (r' & IH)]; [exists []; constructor|]. destruct (twin_exists lm _ _ _ _ _ _ _ H1) as (l' & HT). exists (l' :: r'). constructor; auto.
Qed.
Lemma float_near : forall lm {G} {HR : Rng f32 G} (n : net f32 G) ds M e ds' M1 E1 M2 E2 x x', drifts lm ds M 0 (n_layers n) ds' M1 E1 -> drifts lm ds M e (n_layers n) ds' M2 E2 ->
  good x -> tdims x = ds -> all_finite x -> (forall idx, in_range ds idx -> Rabs (f32_value (@el _ (F32Scalar lm) x idx)) <= M) ->
  good x' -> tdims x' = ds -> all_finite x' -> (forall idx, in_range ds idx -> Rabs (f32_value (@el _ (F32Scalar lm) x' idx) - f32_value (@el _ (F32Scalar lm) x idx)) <= e) ->
  exists u u', snd (net_predict (S := F32Scalar lm) n x) = Ok u /\ snd (net_predict (S := F32Scalar lm) n x') = Ok u' /\ tdims u = ds' /\ tdims u' = ds' /\ all_finite u /\ all_finite u' /\
    forall idx, in_range ds' idx -> Rabs (f32_value (@el _ (F32Scalar lm) u' idx) - f32_value (@el _ (F32Scalar lm) u idx)) <= E1 + E2.
Proof.
  intros lm G HR n ds M e ds' M1 E1 M2 E2 x x' D1 D2 Gx Ex Fx Bx Gx' Ex' Fx' HD.
  set (HR' := {| rng_seed := fun _ => tt; rng_normal := fun r g => (r, g); rng_uniform := fun a _ g => (a, g) |} : Rng R unit).
  destruct (twins_exist _ _ _ _ _ _ _ _ D1) as (ls' & HT). set (n' := mkNet ls' None None tt : net R unit).
  destruct (@predict_close lm G unit HR HR' _ _ _ n _ _ _ D1) as (K1 & P1). destruct (@predict_close lm G unit HR HR' _ _ _ n _ _ _ D2) as (K2 & P2).
  pose proof (close_self lm ds M x Gx Ex Fx Bx) as C1. assert (C2 : close lm ds M e x' (exact x)).
  { destruct C1 as (_ & _ & _ & C4 & C5 & C6). split; [auto|]. split; [auto|]. split; [auto|]. split; [auto|]. split; [auto|]. intros idx HI. destruct (C6 idx HI) as (A & B). split; [auto|]. rewrite (el_exact lm) by (auto; rewrite Ex; auto). rewrite <- value_V. auto. }
  destruct (P1 (Rmax K1 K2) n' x (exact x) (Rmax_l _ _) HT C1) as (u & v & U1 & U2 & U3). destruct (P2 (Rmax K1 K2) n' x' (exact x) (Rmax_r _ _) HT C2) as (u' & v' & W1 & W2 & W3).
  assert (EV : v' = v) by (rewrite U2 in W2; congruence). subst v'. exists u, u'. destruct U3 as (_ & A1 & A2 & _ & _ & A3). destruct W3 as (_ & B1 & B2 & _ & _ & B3).
  split; [auto|]. split; [auto|]. split; [auto|]. split; [auto|]. split; [auto|]. split; [auto|]. intros idx HI. destruct (A3 idx HI) as (_ & A4). destruct (B3 idx HI) as (_ & B4). rewrite Rabs_minus_sym in A4. rewrite Rplus_comm. eapply tri; eassumption.
Qed.

(** ** The nearest float to the logarithm and to the hyperbolic tangent *)
Lemma near32_err : forall r, Rabs r <= 100 * 2 ^ 120 -> Rabs (f32_value (near32 r) - r) <= / 2 ^ 24 * Rabs r + tiny_half.
Proof. intros r H. destruct (near32_in r (rnd_small r H)) as (_ & B). rewrite value_V, B. rewrite <- ulp_is. apply rnd_err. Qed.
Lemma cr_log_within : log_within (/ 2 ^ 24) cr_log.
Proof.
  intros x Hx Fx H1. destruct x as [s|s| |s m e]; cbn in Fx; try tauto; [cbn in H1; lra|]. destruct s.
  - exfalso. rewrite value_V in H1. cbn [SF2R] in H1. assert (F2R (beta := radix2) {| Fnum := cond_Zopp true (Z.pos m); Fexp := e |} < 0) by (apply F2R_lt_0; reflexivity). lra.
  - cbn [cr_log]. apply near32_err. set (v := f32_value (S754_finite false m e)) in *. assert (L0 : 0 <= ln v) by (rewrite <- ln_1; apply Rcomplements.ln_le; lra). rewrite Rabs_pos_eq by auto.
    pose proof (V_big _ Hx) as HB. rewrite <- value_V in HB. fold v in HB. rewrite Rabs_pos_eq, big_is, p128 in HB by lra. pose proof (exp_ineq1_le (ln v)) as HE. rewrite exp_ln in HE by lra.
    assert (HS : ln v <= ln (2 ^ 128)) by (apply Rcomplements.ln_le; [lra|rewrite p128; lra]). rewrite Rcomplements.ln_pow in HS by lra. pose proof (exp_ineq1_le (ln 2)) as H2. rewrite exp_ln in H2 by lra.
    assert (INR 128 = 128) by (rewrite INR_IZR_INZ; reflexivity). pose proof p120. nra.
Qed.
Lemma cr_tanh_within : tanh_within (/ 2 ^ 24) cr_tanh.
Proof.
  intros x Hx Fx. destruct x as [s|s| |s m e]; cbn in Fx; try tauto.
  - cbn [cr_tanh]. rewrite value_V. cbn [SF2R]. assert (T0 : tanh 0 = 0) by (unfold tanh, sinh; rewrite Ropp_0; unfold Rdiv; ring). rewrite T0, Rminus_eq_0, Rabs_R0. pose proof tiny_half_pos. lra.
  - cbn [cr_tanh]. apply near32_err. pose proof (tanh_range (f32_value (S754_finite s m e))). pose proof p120. apply Rle_trans with 1; [apply Rabs_le; lra|lra].
Qed.
(** ** An example with normalisation and pooling *)
Definition ex_eps : f32 := S754_finite false 8388608 (-33).
Definition ex_bn : bn f32 := mkBN 1 ex_eps (f32_of_Z 0) (tensor_of [1; 1]%Z (fun _ => f32_of_Z 2)) (tensor_of [1; 1]%Z (fun _ => f32_of_Z 1)) (tensor_of [1; 1]%Z (fun _ => f32_of_Z (-1))) (tensor_of [1; 1]%Z (fun _ => f32_of_Z 3)) None None None None None false.
Definition ex_image : list (layer f32) := [LBN ex_bn; LAct (mkActL Tanh None); LPool (mkPool 2 2 0 None); LFlat flatten_new; LAct (mkActL Mish None)].
Lemma ex_norm : drift cr_libm [3; 1; 4; 4]%Z 1 0 (LBN ex_bn) [3; 1; 4; 4]%Z (2 * (1 + 1) + 1) (norm_error 1 2 1 2 1 0).
Proof.
  assert (P1 : 1 <= 2 ^ 80) by (apply pow_R1_Rle; lra). assert (P90 : 2 ^ 90 = 2 ^ 80 * 1024) by (replace 90%nat with (80 + 10)%nat by reflexivity; rewrite pow_add; simpl; ring).
  assert (P100 : 2 ^ 80 <= 2 ^ 100) by (apply Rle_pow; [lra|lia]). assert (P119 : 2 ^ 90 <= 2 ^ 119) by (apply Rle_pow; [lra|lia]). assert (P1024 : 1024 <= 2 ^ 100). { apply Rle_trans with (2 ^ 10); [simpl; lra|apply Rle_pow; [lra|lia]]. }
  assert (VE : f32_value ex_eps = / 1024) by (unfold f32_value; simpl; lra).
  apply (drift_bn cr_libm 1).
  - repeat split; try reflexivity; try (apply good_tensor_of; [auto with idx|vm_compute; discriminate]); vm_compute; try reflexivity; try discriminate.
  - reflexivity.
  - right. exists 3%Z, 4%Z, 4%Z. reflexivity.
  - unfold all_finite. vm_compute. repeat constructor.
  - unfold all_finite. vm_compute. repeat constructor.
  - unfold all_finite. vm_compute. repeat constructor.
  - unfold all_finite. vm_compute. repeat constructor.
  - split; [vm_compute; reflexivity|]. split; [exact I|]. change (bn_eps ex_bn) with ex_eps. rewrite VE. split; [|lra]. replace 1024 with (2 ^ 10) by (simpl; lra). apply Rinv_le_contravar; [apply pow_lt; lra|apply Rle_pow; [lra|lia]].
  - intros j Hj. assert (j = 0%Z) as -> by lia. change (bn_eps ex_bn) with ex_eps. rewrite VE.
    assert (V3 : f32_value (@el _ (F32Scalar cr_libm) (bn_rvar ex_bn) [0; 0]%Z) = 3) by (unfold f32_value; simpl; lra). assert (V2 : f32_value (@el _ (F32Scalar cr_libm) (bn_gamma ex_bn) [0; 0]%Z) = 2) by (unfold f32_value; simpl; lra).
    assert (V1 : f32_value (@el _ (F32Scalar cr_libm) (bn_beta ex_bn) [0; 0]%Z) = 1) by (unfold f32_value; simpl; lra). assert (V0 : f32_value (@el _ (F32Scalar cr_libm) (bn_rmean ex_bn) [0; 0]%Z) = -1) by (unfold f32_value; simpl; lra).
    rewrite V3, V2, V1, V0. rewrite (Rabs_left (-1)), (Rabs_right 2), (Rabs_right 1) by lra. assert (1 <= sqrt (3 + / 1024)) by (rewrite <- sqrt_1; apply sqrt_le_1_alt; lra).
    split; [set (X := 2 ^ 100) in *; lra|]. split; [lra|]. split; [lra|]. split; lra.
  - set (X := 2 ^ 100) in *. lra.
  - set (X := 2 ^ 80) in *. lra.
  - set (Y := 2 ^ 119) in *. set (X := 2 ^ 80) in *. lra.
Qed.
Lemma ex_image_drifts : exists E, drifts cr_libm [3; 1; 4; 4]%Z 1 0 ex_image [3; 4]%Z 1 E /\ E <= / 1000.
Proof.
  assert (T0 : 0 < / 2 ^ 24) by (apply Rinv_0_lt_compat, pow_lt; lra). assert (HT : / 2 ^ 24 <= / 10000000) by (apply Rinv_le_contravar; [lra|simpl; lra]). assert (T20 : / 2 ^ 20 <= / 1000000) by (apply Rinv_le_contravar; [lra|simpl; lra]). assert (T20' : 0 < / 2 ^ 20) by (apply Rinv_0_lt_compat, pow_lt; lra).
  assert (H1 : 0 < / 2 ^ 148) by (apply Rinv_0_lt_compat, pow_lt; lra). assert (H2 : / 2 ^ 148 <= / 2 ^ 24) by (apply Rinv_le_contravar; [apply pow_lt; lra|apply Rle_pow; [lra|lia]]).
  assert (H3 : 0 < / 2 ^ 150) by (apply Rinv_0_lt_compat, pow_lt; lra). assert (H4 : / 2 ^ 150 <= / 2 ^ 24) by (apply Rinv_le_contravar; [apply pow_lt; lra|apply Rle_pow; [lra|lia]]).
  set (E1 := norm_error 1 2 1 2 1 0). assert (B1 : 0 <= E1 <= / 100000) by (unfold E1, norm_error, Rdiv; lra).
  set (E2 := E1 + 2 * / 2 ^ 24 + / 2 ^ 20). assert (B2 : 0 <= E2 <= / 50000) by (unfold E2; lra).
  exists (2 * E2 + (1 + E2) * (/ 2 ^ 24 * (1 + E2 + 6) + / 2 ^ 20) + / 2 ^ 150). split.
  - eapply drifts_cons; [apply ex_norm|]. fold E1. eapply drifts_cons; [apply (drift_tanh cr_libm _ _ _ None (/ 2 ^ 24)); [apply cr_exp_like|apply cr_exp_within|lra|lra]|]. fold E2.
    eapply drifts_cons; [apply drift_pool; cbn; lia|]. eapply drifts_cons; [apply drift_flatten; discriminate|]. eapply drifts_cons; [|apply drifts_nil].
    apply drift_mish; [apply cr_libm_like|apply cr_exp_within|apply cr_log_within|apply cr_tanh_within|lra].
  - set (d := / 2 ^ 24) in *. set (t := / 2 ^ 20) in *. assert (d * (1 + E2 + 6) <= d * 8) by (apply Rmult_le_compat_l; lra). assert (0 <= d * (1 + E2 + 6)) by (apply Rmult_le_pos; lra). nra.
Qed.
