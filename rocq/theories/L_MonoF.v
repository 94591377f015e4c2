(** * Networks that only add, in float32 (C140) *)
From Coq Require Import Reals Lra SpecFloat.
From Flocq Require Import Core BinarySingleNaN.
From Verif Require Import Base Scalar ScalarR Types Spec SpecNN SpecLayers SpecR SpecF32 M_Shape M_Tensor M_Adv M_Act M_Loss M_Layers M_Reg M_Opt M_Net SpecNet L_Index L_Shape L_Tensor L_Nest L_Matmul L_RSum L_Adv L_AdvR L_Act L_ActR L_Layers L_Conv L_Float L_FloatAct L_FloatLib L_FloatT L_FloatB L_Drop L_Batch L_Slice L_BN L_BNR L_Pool SpecFuse L_Swap SpecNear L_Near L_Near2 L_Near3 L_Loss SpecMono.
Local Open Scope R_scope.
Local Notation V := (SF2R radix2).
Local Notation fadd := (SFadd f32_prec f32_emax).
Local Notation fsub := (SFsub f32_prec f32_emax).
Local Notation fsqrt := (SFsqrt f32_prec f32_emax).

Lemma div_fin : forall x y, vok x -> vok y -> fin y -> fin (f32_div x y) -> fin x /\ V y <> 0 /\ V (f32_div x y) = rnd (V x / V y).
Proof.
  intros x y Hx Hy Fy F. assert (Fx : fin x) by (destruct x as [s|s| |s m e]; try reflexivity; destruct y as [s'|s'| |s' m' e']; try discriminate Fy; discriminate F). assert (N : V y <> 0).
  { intros E. destruct y as [s|s| |s m e]; try discriminate Fy.
    - destruct x as [s'|s'| |s' m e]; try discriminate Fx; discriminate F.
    - cbn [SF2R] in E. apply eq_0_F2R in E. destruct s; discriminate E. }
  split; [exact Fx|]. split; [exact N|]. destruct (Rlt_or_le (Rabs (rnd (V x / V y))) big) as [L|L]; [apply div_in; auto|]. exfalso.
  destruct (of_valid x Hx) as (bx & <-). destruct (of_valid y Hy) as (b & <-). rewrite div_equiv in F. rewrite VB in N. rewrite !VB in L.
  pose proof (Bdiv_correct _ _ Hp32 Hm32 mode_NE bx b N) as C. change (round radix2 (SpecFloat.fexp f32_prec f32_emax) (round_mode mode_NE) (B2R bx / B2R b)) with (rnd (B2R bx / B2R b)) in C.
  rewrite Rlt_bool_false in C by exact L. rewrite C in F. rewrite overflow_inf in F. discriminate F.
Qed.

Section N.
Variable lm : libm.
Let SF : Scalar f32 := F32Scalar lm.
#[local] Existing Instance SF.
Local Notation dotl := (L_Float.dotl lm).
Context {G : Type} {HR : Rng f32 G}.
Lemma dot_mono : forall {A} (l : list A) f f' g, (forall a, In a l -> vok (f a)) -> (forall a, In a l -> vok (f' a)) -> (forall a, In a l -> vok (g a)) -> (forall a, In a l -> V (f a) <= V (f' a)) -> (forall a, In a l -> 0 <= V (g a)) ->
  fin (dotl l f g) -> fin (dotl l f' g) -> V (dotl l f g) <= V (dotl l f' g).
Proof.
  intros A l f f' g. induction l as [|a l IH] using rev_ind; intros H1 H2 H3 H4 H5 F F'; [unfold L_Float.dotl; cbn; lra|].
  rewrite dotl_snoc in F, F' |- *. rewrite dotl_snoc.
  assert (I : forall b, In b l -> In b (l ++ [a])) by (intros; apply in_or_app; auto). assert (Ia : In a (l ++ [a])) by (apply in_or_app; right; left; auto).
  assert (D1 : vok (dotl l f g)) by (apply fsum_vok; apply dot_vok; auto). assert (D2 : vok (dotl l f' g)) by (apply fsum_vok; apply dot_vok; auto).
  destruct (add_fin _ _ D1 (mul_vok _ _ (H1 a Ia) (H3 a Ia)) F) as (F1 & F2 & E). destruct (add_fin _ _ D2 (mul_vok _ _ (H2 a Ia) (H3 a Ia)) F') as (F1' & F2' & E'). rewrite E, E'. apply rnd_le.
  destruct (mul_fin _ _ (H1 a Ia) (H3 a Ia) F2) as (_ & _ & M). destruct (mul_fin _ _ (H2 a Ia) (H3 a Ia) F2') as (_ & _ & M'). rewrite M, M'.
  apply Rplus_le_compat; [apply IH; auto|]. apply rnd_le. apply Rmult_le_compat_r; auto.
Qed.
Lemma affine_mono : forall {A} (l : list A) f f' g b, (forall a, In a l -> vok (f a)) -> (forall a, In a l -> vok (f' a)) -> (forall a, In a l -> vok (g a)) -> vok b -> (forall a, In a l -> V (f a) <= V (f' a)) -> (forall a, In a l -> 0 <= V (g a)) ->
  fin (fadd (dotl l f g) b) -> fin (fadd (dotl l f' g) b) -> V (fadd (dotl l f g) b) <= V (fadd (dotl l f' g) b).
Proof.
  intros A l f f' g b H1 H2 H3 HB H4 H5 F F'. assert (D1 : vok (dotl l f g)) by (apply fsum_vok; apply dot_vok; auto). assert (D2 : vok (dotl l f' g)) by (apply fsum_vok; apply dot_vok; auto).
  destruct (add_fin _ _ D1 HB F) as (F1 & _ & E). destruct (add_fin _ _ D2 HB F') as (F1' & _ & E'). rewrite E, E'. apply rnd_le. apply Rplus_le_compat_r. apply dot_mono; auto.
Qed.
Lemma relu_mono : forall u v, good_f u -> good_f v -> V u <= V v -> V (act_el ReLU u) <= V (act_el ReLU v).
Proof.
  intros u v (Hu & Fu) (Hv & Fv) H. cbn [act_el]. unfold s_max. change (s_lt zero u) with (SFltb (f32_of_Z 0) u). change (s_lt zero v) with (SFltb (f32_of_Z 0) v). rewrite !ltb_V by (auto; reflexivity). change (V (f32_of_Z 0)) with 0.
  destruct (Rlt_bool_spec 0 (V u)), (Rlt_bool_spec 0 (V v)); change (V zero) with 0; lra.
Qed.
Lemma leaky_mono : forall al u v, good_f al -> Rabs (V al) <= 1 -> 0 <= V al -> good_f u -> good_f v -> V u <= V v -> V (act_el (LeakyReLU al) u) <= V (act_el (LeakyReLU al) v).
Proof.
  intros al u v (Ha & Fa) Ba Pa (Hu & Fu) (Hv & Fv) H. cbn [act_el]. change (s_lt zero u) with (SFltb (f32_of_Z 0) u). change (s_lt zero v) with (SFltb (f32_of_Z 0) v).
  destruct (leaky_in lm al u Ha Fa Ba Hu Fu) as (L1 & L2 & _). destruct (leaky_in lm al v Ha Fa Ba Hv Fv) as (L1' & L2' & _). revert L1 L2 L1' L2'. cbn [act_el].
  change (s_lt zero u) with (SFltb (f32_of_Z 0) u). change (s_lt zero v) with (SFltb (f32_of_Z 0) v). rewrite !ltb_V by (auto; reflexivity). change (V (f32_of_Z 0)) with 0. change (@s_mul f32 SF) with (SFmul f32_prec f32_emax).
  destruct (Rlt_bool_spec 0 (V u)), (Rlt_bool_spec 0 (V v)); intros L1 L2 L1' L2'; try lra.
  - destruct (mul_fin _ _ Ha Hu L2) as (_ & _ & ->). apply Rle_trans with 0; [|lra]. rewrite <- rnd_0. apply rnd_le. nra.
  - destruct (mul_fin _ _ Ha Hu L2) as (_ & _ & ->). destruct (mul_fin _ _ Ha Hv L2') as (_ & _ & ->). apply rnd_le. apply Rmult_le_compat_l; auto.
Qed.
Lemma sigm_mono : exp_like (m_exp lm) -> exp_rises (m_exp lm) -> forall u v, good_f u -> good_f v -> V u <= V v -> V (act_el Sigmoid u) <= V (act_el Sigmoid v).
Proof.
  intros HL HR' u v (Hu & Fu) (Hv & Fv) H. cbn [act_el]. destruct (sigm_in lm HL v Hv Fv) as (S1 & S2 & S3). destruct (sigm_in lm HL u Hu Fu) as (T1 & T2 & T3).
  change (sigm u) with (f32_div (f32_of_Z 1) (fadd (f32_of_Z 1) (m_exp lm (SFopp u)))) in *. change (sigm v) with (f32_div (f32_of_Z 1) (fadd (f32_of_Z 1) (m_exp lm (SFopp v)))) in *.
  assert (Ou : vok (SFopp u)) by (apply opp_vok; auto). assert (Ov : vok (SFopp v)) by (apply opp_vok; auto). assert (Gu : fin (SFopp u)) by (apply opp_fin; auto). assert (Gv : fin (SFopp v)) by (apply opp_fin; auto).
  destruct (ex_any lm HL _ Ou Gu) as [E|(F1 & P1)]; [rewrite E; change (f32_div (f32_of_Z 1) (fadd (f32_of_Z 1) (S754_infinity false))) with (S754_zero false : f32); change (V (S754_zero false)) with 0; lra|].
  destruct (HR' (SFopp v) (SFopp u)) as (F2 & L); auto; [apply finite_fin; auto..|rewrite !value_V, !opp_V by auto; lra|apply finite_fin; auto|]. apply finite_fin in F2. rewrite !value_V in L.
  assert (P2 : 0 <= V (m_exp lm (SFopp v))) by (destruct (ex_any lm HL _ Ov Gv) as [E|(_ & P)]; [rewrite E in F2; discriminate F2|exact P]).
  pose proof (ex_vok lm HL _ Ou) as VU. pose proof (ex_vok lm HL _ Ov) as VV. destruct (add_one _ VU F1 P1) as (A1 & _ & A3 & _ & A5 & _). destruct (add_one _ VV F2 P2) as (B1 & _ & B3 & _ & B5 & _).
  pose proof (of_Z_vok 1) as W2.
  destruct (div_fin _ _ W2 (add_vok _ _ W2 VU) A1 T2) as (_ & _ & ->). destruct (div_fin _ _ W2 (add_vok _ _ W2 VV) B1 S2) as (_ & _ & ->). apply rnd_le. rewrite A3, B3, V_one. unfold Rdiv. rewrite !Rmult_1_l. apply Rinv_le_contravar; [lra|]. apply rnd_le. lra.
Qed.
Lemma norm_mono : forall eps m va ga be u v, good_f eps -> good_f m -> good_f va -> good_f ga -> good_f be -> good_f u -> good_f v -> 0 <= V eps -> 0 <= V va -> 0 <= V ga -> fin (fadd va eps) ->
  fin (normalised eps m va ga be u) -> fin (normalised eps m va ga be v) -> V u <= V v -> V (normalised eps m va ga be u) <= V (normalised eps m va ga be v).
Proof.
  intros eps m va ga be u v (E1 & E2) (M1 & M2) (A1 & A2) (G1 & G2) (B1 & B2) (U1 & U2) (V1 & V2) HE HA HG FS. unfold normalised. change (@s_add f32 SF) with (SFadd f32_prec f32_emax). change (@s_mul f32 SF) with (SFmul f32_prec f32_emax). change (@s_sub f32 SF) with (SFsub f32_prec f32_emax). change (@s_div f32 SF) with f32_div. change (@s_sqrt f32 SF) with fsqrt.
  intros FU FV H. assert (VS : vok (fadd va eps)) by (apply add_vok; auto). destruct (add_fin _ _ A1 E1 FS) as (_ & _ & ES). assert (PS : 0 <= V (fadd va eps)) by (rewrite ES, <- rnd_0; apply rnd_le; lra).
  destruct (sqrt_in _ (conj VS FS) PS) as ((VQ & FQ) & EQ). assert (PQ : 0 <= V (fsqrt (fadd va eps))) by (rewrite EQ, <- rnd_0; apply rnd_le; apply sqrt_pos). set (q := fsqrt (fadd va eps)) in *.
  assert (SU : vok (fsub u m)) by (apply sub_vok; auto). assert (SV : vok (fsub v m)) by (apply sub_vok; auto). assert (DU : vok (f32_div (fsub u m) q)) by (apply div_vok; auto). assert (DV : vok (f32_div (fsub v m) q)) by (apply div_vok; auto).
  destruct (add_fin _ _ (mul_vok _ _ DU G1) B1 FU) as (FU1 & _ & ->). destruct (add_fin _ _ (mul_vok _ _ DV G1) B1 FV) as (FV1 & _ & ->). apply rnd_le. apply Rplus_le_compat_r.
  destruct (mul_fin _ _ DU G1 FU1) as (FU2 & _ & ->). destruct (mul_fin _ _ DV G1 FV1) as (FV2 & _ & ->). apply rnd_le. apply Rmult_le_compat_r; [auto|].
  destruct (div_fin _ _ SU VQ FQ FU2) as (FU3 & N & ->). destruct (div_fin _ _ SV VQ FQ FV2) as (FV3 & _ & ->). apply rnd_le. unfold Rdiv. apply Rmult_le_compat_r; [left; apply Rinv_0_lt_compat; lra|].
  destruct (sub_fin _ _ U1 M1 FU3) as (_ & _ & ->). destruct (sub_fin _ _ V1 M1 FV3) as (_ & _ & ->). apply rnd_le. lra.
Qed.
(** ** Layers *)
Let HR' : Rng R unit := {| rng_seed := fun _ => tt; rng_normal := fun r g => (r, g); rng_uniform := fun a _ g => (a, g) |}.
Lemma raised_at : forall ds M E x y x' y' idx, close lm ds M E x y -> close lm ds M E x' y' -> raised32 lm x x' -> in_range ds idx -> good_f (el x idx) /\ good_f (el x' idx) /\ V (el x idx) <= V (el x' idx).
Proof.
  intros ds M E x y x' y' idx HC HC' (_ & HX) HI. pose proof HC as (_ & Ex & _). split; [apply (close_at lm _ _ _ _ _ _ HC HI)|]. split; [apply (close_at lm _ _ _ _ _ _ HC' HI)|]. rewrite <- !value_V. apply HX. rewrite Ex. exact HI.
Qed.
Lemma raised_by : forall ds M E u v u' v', close lm ds M E u v -> close lm ds M E u' v' -> (forall idx, in_range ds idx -> good_f (el u idx) -> good_f (el u' idx) -> V (el u idx) <= V (el u' idx)) -> raised32 lm u u'.
Proof.
  intros ds M E u v u' v' HC HC' H. pose proof HC as (_ & Eu & _). pose proof HC' as (_ & Eu' & _). split; [congruence|]. intros idx HI. rewrite Eu in HI. rewrite !value_V. apply H; [exact HI|apply (close_at lm _ _ _ _ _ _ HC HI)|apply (close_at lm _ _ _ _ _ _ HC' HI)].
Qed.
Lemma act_rise : forall (a : act f32) ds M E M1 E1 x y x' y' u v u' v', a <> Softmax -> close lm ds M E x y -> close lm ds M E x' y' -> raised32 lm x x' -> close lm ds M1 E1 u v -> close lm ds M1 E1 u' v' ->
  act_fwd a x = Ok u -> act_fwd a x' = Ok u' -> (forall p q, good_f p -> good_f q -> V p <= V q -> V (act_el a p) <= V (act_el a q)) -> raised32 lm u u'.
Proof.
  intros a ds M E M1 E1 x y x' y' u v u' v' N HC HC' HX HU HU' E2 E3 H. pose proof HC as (Gx & Ex & _). pose proof HC' as (Gx' & Ex' & _). rewrite act_fwd_el in E2 by auto. rewrite act_fwd_el in E3 by auto. injection E2 as <-. injection E3 as <-.
  apply (raised_by _ _ _ _ _ _ _ HU HU'). intros idx HI _ _. rewrite Ex, Ex'. rewrite !el_tensor_of by auto. destruct (raised_at _ _ _ _ _ _ _ _ HC HC' HX HI) as (A & B & C). auto.
Qed.
Lemma flat_rise : forall n k c r M E (l : flatten) x y x' y' u v u' v', k = prod (c :: r) -> close lm (n :: c :: r) M E x y -> close lm (n :: c :: r) M E x' y' -> raised32 lm x x' -> close lm [n; k] M E u v -> close lm [n; k] M E u' v' ->
  snd (flatten_forward l x) = Ok u -> snd (flatten_forward l x') = Ok u' -> raised32 lm u u'.
Proof.
  intros n k c r M E l x y x' y' u v u' v' -> HC HC' HX HU HU' E2 E3. pose proof HC as (Gx & Ex & _). pose proof HC' as (Gx' & Ex' & _). destruct (flat_any l x n c r Gx Ex) as (l1 & F1). destruct (flat_any l x' n c r Gx' Ex') as (l2 & F2). rewrite F1 in E2. rewrite F2 in E3. injection E2 as <-. injection E3 as <-.
  destruct (close_pos lm _ _ _ _ _ HC) as (HP & HM & _). pose proof (pos_forall _ HP) as HF. inversion HF as [|? ? Hn HF']; subst. pose proof (prod_pos _ HF') as HP'.
  assert (EP : prod [n; prod (c :: r)] = prod (n :: c :: r)) by (change (prod (n :: c :: r)) with (n * prod (c :: r))%Z; cbn [prod]; lia).
  apply (raised_by _ _ _ _ _ _ _ HU HU'). intros idx HI _ _. pose proof (ravel_bound _ _ HI) as HB. rewrite EP in HB.
  destruct (raised_at _ _ _ _ _ _ _ (unravel (n :: c :: r) (ravel [n; prod (c :: r)] idx)) HC HC' HX) as (_ & _ & C); [apply unravel_range; auto|]. unfold el in C. rewrite Ex, Ex' in C. rewrite ravel_unravel in C by auto. rewrite !el_in_shape by (auto; rewrite ?EP; auto with idx). exact C.
Qed.
Lemma cmp : forall x : tensor f32, good x -> all_finite x -> comparable x.
Proof.
  intros x Gx Fx. destruct (finite_comparable lm x Gx Fx) as ((O1 & O2 & O3) & O4). split; [split; [|split]|].
  - intros a Ha. apply O1. auto.
  - intros a b d Ha Hb Hd. apply O2; auto.
  - intros a b d Ha Hb Hd. apply O3; auto.
  - intros a Ha. apply O4. auto.
Qed.
Lemma pool_rise : forall (l : pool f32) n c h w M E x y x' y' u v u' v', po_pad l = 0%Z -> (0 < po_stride l)%Z -> (0 < po_size l)%Z -> (po_size l <= h)%Z -> (po_size l <= w)%Z ->
  let ds := [n; c; pool_extent (po_size l) (po_stride l) h; pool_extent (po_size l) (po_stride l) w] in
  close lm [n; c; h; w] M E x y -> close lm [n; c; h; w] M E x' y' -> raised32 lm x x' -> close lm ds M E u v -> close lm ds M E u' v' -> snd (pool_forward l x) = Ok u -> snd (pool_forward l x') = Ok u' -> raised32 lm u u'.
Proof.
  intros l n c h w M E x y x' y' u v u' v' H1 H2 H3 H4 H5 ds HC HC' HX HU HU' E2 E3. pose proof HC as (Gx & Ex & Fx & _). pose proof HC' as (Gx' & Ex' & Fx' & _).
  destruct (pool_forward_max l x n c h w Gx Ex (cmp x Gx Fx) H1 H2 H3 H4 H5) as (z & U1 & Gz & Ez & HZ). destruct (pool_forward_max l x' n c h w Gx' Ex' (cmp x' Gx' Fx') H1 H2 H3 H4 H5) as (z' & U1' & Gz' & Ez' & HZ').
  rewrite U1 in E2. rewrite U1' in E3. injection E2 as <-. injection E3 as <-. apply (raised_by _ _ _ _ _ _ _ HU HU'). intros o HO _ _.
  destruct (HZ o ltac:(rewrite Ez; exact HO)) as (W1 & p & FP & EP). destruct (HZ' o ltac:(rewrite Ez'; exact HO)) as (W2 & p' & FP' & EP'). rewrite Ex in W1. rewrite Forall_forall in W1. rewrite EP, EP'.
  pose proof (first_max_in _ _ _ FP) as IP. pose proof (first_max_in _ _ _ FP') as IP'. destruct FP' as (m1 & m2 & _ & _ & F3). specialize (F3 p IP). change (s_lt (el x' p') (el x' p)) with (SFltb (el x' p') (el x' p)) in F3.
  destruct (raised_at _ _ _ _ _ _ _ _ HC HC' HX (W1 _ IP)) as (_ & (A1 & A2) & A3). destruct (raised_at _ _ _ _ _ _ _ _ HC HC' HX (W1 _ IP')) as (_ & (B1 & B2) & _). rewrite ltb_V in F3 by auto. destruct (Rlt_bool_spec (V (el x' p')) (V (el x' p))) as [|F5]; [discriminate|]. lra.
Qed.
Lemma layer_rise : forall ds M E l ds' M' E' x x' y y' (g : G), drift lm ds M E l ds' M' E' -> upward32 lm l -> close lm ds M E x y -> close lm ds M E x' y' -> raised32 lm x x' ->
  exists l1 l1' u u' v v', layer_forward l x g = (l1, g, Ok u) /\ layer_forward l x' g = (l1', g, Ok u') /\ close lm ds' M' E' u v /\ close lm ds' M' E' u' v' /\ raised32 lm u u'.
Proof.
  intros ds M E l ds' M' E' x x' y y' g HD HU HC HC' HX. destruct (twin_exists lm _ _ _ _ _ _ _ HD) as (lt & HT).
  destruct (@layer_step lm G unit HR HR' _ _ _ _ _ _ _ HD (M + 1) lt ltac:(lra) HT x y g tt HC) as (l1 & lq & u & v & U1 & _ & CU).
  destruct (@layer_step lm G unit HR HR' _ _ _ _ _ _ _ HD (M + 1) lt ltac:(lra) HT x' y' g tt HC') as (l1' & lq' & u' & v' & U1' & _ & CU').
  exists l1, l1', u, u', v, v'. split; [exact U1|]. split; [exact U1'|]. split; [exact CU|]. split; [exact CU'|]. clear HT lt lq lq'.
  assert (Q : snd (layer_forward l x g) = Ok u) by (unfold SF; rewrite U1; reflexivity). assert (Q' : snd (layer_forward l x' g) = Ok u') by (unfold SF; rewrite U1'; reflexivity). clear U1 U1'.
  pose proof HC as (Gx & Ex & _). pose proof HC' as (Gx' & Ex' & _).
  destruct HD; cbn [layer_forward upward32 al_act] in Q, Q', HU; try contradiction; unfold lift in Q, Q'; cbn [fst snd] in Q, Q'.
  - rename H into HW. pose proof HW as (Gw & Dw & Gb & Db). rewrite (fc_forward_2 l k o x n) in Q by auto. rewrite (fc_forward_2 l k o x' n) in Q' by auto. injection Q as <-. injection Q' as <-.
    apply (raised_by _ _ _ _ _ _ _ CU CU'). intros idx HI (_ & F1) (_ & F2). revert F1 F2. rewrite !el_tensor_of by auto. apply in_range_2 in HI. destruct HI as (i & j & -> & Hi & Hj). unfold affine, fn2. cbn [nth]. intros F1 F2.
    apply (affine_mono (zrange 0 k) (fun p => el x [i; p]) (fun p => el x' [i; p]) (fun p => el (M_Layers.fc_w l) [p; j]) (el (M_Layers.fc_b l) [0%Z; j])); auto.
    + intros p Hp. apply In_zrange in Hp. apply (raised_at _ _ _ _ _ _ _ [i; p] HC HC' HX). apply in_range2; auto.
    + intros p Hp. apply In_zrange in Hp. apply (raised_at _ _ _ _ _ _ _ [i; p] HC HC' HX). apply in_range2; auto.
    + intros p Hp. apply In_zrange in Hp. apply (el_good lm); auto. rewrite Dw. apply in_range2; auto.
    + apply (el_good lm); auto. rewrite Db. apply in_range2; lia.
    + intros p Hp. apply In_zrange in Hp. apply (raised_at _ _ _ _ _ _ _ [i; p] HC HC' HX). apply in_range2; auto.
    + intros p Hp. apply In_zrange in Hp. rewrite <- value_V. apply HU. rewrite Dw. apply in_range2; auto.
  - rename H into HW. pose proof HW as (Gw & Dw & Gb & Db). destruct (dims4_pos _ _ _ _ _ Gw Dw) as (Hoc & _ & Hkh & Hkw & _). rewrite (conv_forward_ok l x n h w) in Q by (auto; rewrite H2; auto). rewrite (conv_forward_ok l x' n h w) in Q' by (auto; rewrite H2; auto). injection Q as <-. injection Q' as <-.
    apply (raised_by _ _ _ _ _ _ _ CU CU'). intros idx HI (_ & F1) (_ & F2). revert F1 F2. rewrite !el_tensor_of by auto. apply in_range_4 in HI. destruct HI as (i & o & r & c & -> & Hi & Ho & Hr & Hc).
    set (L := all_indices [cv_kh l; cv_kw l]). set (f := fun z => fun pq => el z [i; 0; r + nth 0 pq 0; c + nth 1 pq 0]%Z). set (q := fun pq => el (cv_w l) [o; 0; nth 0 pq 0; nth 1 pq 0]%Z). set (b := el (cv_b l) [o; 0]%Z).
    assert (HIN : forall pq, In pq L -> exists p q, pq = [p; q] /\ (0 <= p < cv_kh l)%Z /\ (0 <= q < cv_kw l)%Z).
    { intros pq Hpq. apply In_all_indices in Hpq; [|auto with idx]. apply in_range_2 in Hpq. destruct Hpq as (p & s & -> & Hp & Hs). eauto. }
    assert (EQ : forall z, fn4 (conv0 z (cv_w l) (cv_b l) (cv_kh l) (cv_kw l)) [i; o; r; c] = fadd (dotl L (f z) q) b).
    { intros z. unfold fn4. cbn [nth]. unfold conv0, L_Float.dotl. erewrite map_ext_in; [reflexivity|]. intros pq Hpq. destruct (HIN pq Hpq) as (p & s & -> & _). reflexivity. }
    rewrite !EQ. intros F1 F2. apply affine_mono; auto.
    + intros pq Hpq. destruct (HIN pq Hpq) as (p & s & -> & Hp & Hs). apply (raised_at _ _ _ _ _ _ _ [i; 0; r + p; c + s]%Z HC HC' HX). apply in_range4; lia.
    + intros pq Hpq. destruct (HIN pq Hpq) as (p & s & -> & Hp & Hs). apply (raised_at _ _ _ _ _ _ _ [i; 0; r + p; c + s]%Z HC HC' HX). apply in_range4; lia.
    + intros pq Hpq. destruct (HIN pq Hpq) as (p & s & -> & Hp & Hs). apply (el_good lm); auto. rewrite Dw. cbn [nth]. apply in_range4; lia.
    + apply (el_good lm); auto. rewrite Db. apply in_range2; lia.
    + intros pq Hpq. destruct (HIN pq Hpq) as (p & s & -> & Hp & Hs). apply (raised_at _ _ _ _ _ _ _ [i; 0; r + p; c + s]%Z HC HC' HX). apply in_range4; lia.
    + intros pq Hpq. destruct (HIN pq Hpq) as (p & s & -> & Hp & Hs). rewrite <- value_V. apply HU. rewrite Dw. cbn [nth]. apply in_range4; lia.
  - apply (act_rise ReLU _ _ _ _ _ _ _ _ _ _ _ _ _ ltac:(discriminate) HC HC' HX CU CU' Q Q'). apply relu_mono.
  - apply within_in in H. destruct H as (A1 & A2 & A3). apply (act_rise (LeakyReLU al) _ _ _ _ _ _ _ _ _ _ _ _ _ ltac:(discriminate) HC HC' HX CU CU' Q Q'). intros p q. rewrite value_V in HU. apply leaky_mono; [split; auto|apply Rabs_le; lra|auto].
  - apply (act_rise Sigmoid _ _ _ _ _ _ _ _ _ _ _ _ _ ltac:(discriminate) HC HC' HX CU CU' Q Q'). apply sigm_mono; auto.
  - eapply (flat_rise n k k [] M E l x y x' y'); eauto. cbn [prod]. lia.
  - eapply (flat_rise n (prod (c :: r)) c r M E l x y x' y'); eauto.
  - eapply (pool_rise l n c h w M E x y x' y'); eauto.
  - rename H into HL, H0 into Ht, H1 into HF, H6 into HE, H7 into HJ. destruct (bn_rows_ready f l HL) as (R1 & R2 & R3). pose proof HL as ((A1 & A2) & (B1 & B2) & (C1 & C2) & (D1 & D2)).
    rewrite (bn_forward_eval f l x R1 R2 R3 Ht Gx) in Q by (rewrite Ex; auto). rewrite (bn_forward_eval f l x' R1 R2 R3 Ht Gx') in Q' by (rewrite Ex'; auto). injection Q as <-. injection Q' as <-.
    apply (raised_by _ _ _ _ _ _ _ CU CU'). unfold bn_out. rewrite Ex, Ex'. intros idx HI (_ & F1) (_ & F2). revert F1 F2. rewrite !el_tensor_of by auto.
    assert (HJx : (0 <= nth 1 idx 0 < f)%Z). { destruct HF as [(n & ->)|(n & h & w & ->)]; [apply in_range_2 in HI; destruct HI as (? & ? & -> & ? & ?)|apply in_range_4 in HI; destruct HI as (? & ? & ? & ? & -> & ? & ? & ? & ?)]; cbn [nth]; auto. }
    destruct (raised_at _ _ _ _ _ _ _ idx HC HC' HX HI) as (X1 & X2 & X3). pose proof (HU f _ HL HJx) as HG. rewrite !(feat_row f) by auto. set (j := nth 1 idx 0%Z) in *. assert (IJ : in_range [1; f]%Z [0%Z; j]) by (apply in_range2; lia).
    destruct (HJ j HJx) as (J1 & _). rewrite !value_V in *. apply within_in in HE. destruct HE as (V1 & V2 & V3). pose proof (el_good lm _ _ A1 H2 ltac:(rewrite A2; exact IJ)) as Z1.
    assert (P40 : 0 < / 2 ^ 40) by (apply Rinv_0_lt_compat, pow_lt; lra).
    assert (ZV : good_f (el (bn_rvar l) [0%Z; j])) by (apply (el_good lm); auto; rewrite D2; exact IJ).
    intros F1 F2. apply norm_mono; auto; try (apply (el_good lm); auto; rewrite ?A2, ?B2, ?C2, ?D2; exact IJ); try (split; assumption); try lra; try (exact (proj1 J1)).
    apply add_in; try (destruct ZV; assumption); auto. apply rnd_small. change (@el f32 (F32Scalar lm)) with (@el f32 SF) in J1. rewrite Rabs_pos_eq by lra. assert (2 ^ 100 <= 2 ^ 120) by (apply Rle_pow; [lra|lia]). pose proof p120. lra.
  - rewrite dropout_eval in Q by reflexivity. rewrite dropout_eval in Q' by reflexivity. cbn [snd] in Q, Q'. injection Q as <-. injection Q' as <-. exact HX.
Qed.
Lemma layers_rise : forall ds M E ls ds' M' E', drifts lm ds M E ls ds' M' E' -> Forall (upward32 lm) ls -> forall x x' y y' (g : G), close lm ds M E x y -> close lm ds M E x' y' -> raised32 lm x x' ->
  exists l1 l1' u u' v v', forward_all ls x g = (l1, g, Ok u) /\ forward_all ls x' g = (l1', g, Ok u') /\ close lm ds' M' E' u v /\ close lm ds' M' E' u' v' /\ raised32 lm u u'.
Proof.
  intros ds M E ls ds' M' E' HD. induction HD as [|ds M E l ds1 M1 E1 r ds2 M2 E2 H1 H2 IH]; intros HU x x' y y' g HC HC' HX.
  - exists [], [], x, x', y, y'. auto.
  - inversion HU as [|? ? U1 U2]; subst. destruct (layer_rise _ _ _ _ _ _ _ x x' y y' g H1 U1 HC HC' HX) as (l1 & l1' & u & u' & v & v' & E3 & E4 & CU & CU' & RU).
    destruct (IH U2 u u' v v' g CU CU' RU) as (q & q' & z & z' & w & w' & E5 & E6 & CZ & CZ' & RZ). exists (l1 :: q), (l1' :: q'), z, z', w, w'. cbn [forward_all]. unfold SF in *. rewrite E3, E4, E5, E6. auto.
Qed.
Theorem predict_rise : forall (n : net f32 G) ds M ds' M' E' x x', drifts lm ds M 0 (n_layers n) ds' M' E' -> Forall (upward32 lm) (n_layers n) ->
  good x -> tdims x = ds -> all_finite x -> (forall idx, in_range ds idx -> Rabs (f32_value (el x idx)) <= M) ->
  good x' -> tdims x' = ds -> all_finite x' -> (forall idx, in_range ds idx -> Rabs (f32_value (el x' idx)) <= M) -> raised32 lm x x' ->
  exists u u', snd (net_predict n x) = Ok u /\ snd (net_predict n x') = Ok u' /\ tdims u = ds' /\ all_finite u /\ all_finite u' /\ raised32 lm u u'.
Proof.
  intros n ds M ds' M' E' x x' HD HU Gx Ex Fx Bx Gx' Ex' Fx' Bx' HX.
  destruct (layers_rise _ _ _ _ _ _ _ HD HU x x' _ _ (n_rng n) (close_self lm ds M x Gx Ex Fx Bx) (close_self lm ds M x' Gx' Ex' Fx' Bx') HX) as (l1 & l1' & u & u' & v & v' & E3 & E4 & CU & CU' & RU).
  exists u, u'. unfold net_predict. unfold SF in *. rewrite E3, E4. cbn [snd]. destruct CU as (_ & A & B & _). destruct CU' as (_ & _ & C & _). auto 10.
Qed.
End N.

(** ** The correctly rounded exp rises; an example network *)
Lemma cr_exp_is : forall x, f32_valid x -> f32_finite x -> (fin (cr_exp x) /\ V (cr_exp x) = rnd (exp (V x))) \/ (~ fin (cr_exp x) /\ big <= rnd (exp (V x))).
Proof.
  intros x Hx Fx. destruct x as [s|s| |s m e]; cbn in Fx; try tauto.
  - left. split; [reflexivity|]. change (V (S754_zero s)) with 0. rewrite exp_0. change (cr_exp (S754_zero s)) with (f32_of_Z 1). rewrite <- (rnd_V _ (of_Z_vok 1)), V_one. reflexivity.
  - set (x := S754_finite s m e : f32) in *. change (cr_exp x) with (near32 (exp (f32_value x))). rewrite value_V. set (r := exp (V x)). pose proof (exp_pos (V x)) as P. fold r in P. assert (P' : 0 <= rnd r) by (rewrite <- rnd_0; apply rnd_le; lra).
    destruct (Rlt_dec (Rabs (rnd r)) big) as [L|L]; [left; apply near32_in; exact L|]. right. rewrite Rabs_pos_eq in L by exact P'. apply Rnot_lt_le in L. split; [|exact L]. rewrite near32_over by exact L. discriminate.
Qed.
Lemma cr_exp_rises : exp_rises cr_exp.
Proof.
  intros x y Hx Fx Hy Fy H F. apply finite_fin in F. rewrite !value_V in *. assert (L : rnd (exp (V x)) <= rnd (exp (V y))) by (apply rnd_le; destruct (Req_dec (V x) (V y)) as [->|]; [lra|left; apply exp_increasing; lra]).
  destruct (cr_exp_is y Hy Fy) as [(Y1 & Y2)|(Y1 & _)]; [|contradiction]. pose proof (V_big (cr_exp y)) as B. destruct (cr_exp_is x Hx Fx) as [(X1 & X2)|(_ & X2)].
  - split; [apply finite_fin; auto|]. rewrite X2, Y2. exact L.
  - exfalso. assert (VY : vok (cr_exp y)) by (apply (exp_valid _ cr_exp_like); auto). specialize (B VY). apply Rabs_def2 in B. lra.
Qed.
Definition up_w : tensor f32 := tensor_of [2; 2]%Z (fun idx => f32_of_Z (nth (Z.to_nat (2 * nth 0 idx 0 + nth 1 idx 0)) [1; 2; 3; 0] 0)%Z).
Definition up_fc : fc f32 := mkFC up_w ex_b None None None.
Definition up_layers : list (layer f32) := [LFC up_fc; LAct (mkActL Sigmoid None); LFC up_fc; LAct (mkActL ReLU None)].
Lemma up_dense : forall M E, 0 <= M -> 0 <= E -> M + E <= 100 -> drift cr_libm [3; 2]%Z M E (LFC up_fc) [3; 2]%Z (4 * M + 1) (next_error 2 4 1 M E).
Proof.
  intros M E HM HE HS. apply drift_dense.
  - split; [apply good_tensor_of; [auto with idx|vm_compute; discriminate]|]. split; [reflexivity|]. split; [apply good_tensor_of; [auto with idx|vm_compute; discriminate]|reflexivity].
  - unfold all_finite. vm_compute. repeat constructor.
  - unfold all_finite. vm_compute. repeat constructor.
  - vm_compute. discriminate.
  - reflexivity.
  - intros j Hj. assert (j = 0%Z \/ j = 1%Z) as [->| ->] by lia; unfold f32_value, rsum; simpl; rewrite ?Rabs_R0, ?Rabs_right by lra; lra.
  - intros j Hj. assert (j = 0%Z \/ j = 1%Z) as [->| ->] by lia; unfold f32_value; simpl; rewrite ?Rabs_left, ?Rabs_right by lra; lra.
  - pose proof p120. set (X := 2 ^ 120) in *. lra.
Qed.
Lemma up_drifts : exists M' E', drifts cr_libm [3; 2]%Z 1 0 up_layers [3; 2]%Z M' E'.
Proof.
  assert (HT : / 2 ^ 23 <= / 1000000) by (apply Rinv_le_contravar; [lra|simpl; lra]). assert (HT0 : 0 < / 2 ^ 23) by (apply Rinv_0_lt_compat, pow_lt; lra). assert (T24 : / 2 ^ 24 = / 2 ^ 23 / 2) by (rewrite p24, Rinv_mult; field).
  assert (T21 : / 2 ^ 21 = 4 * / 2 ^ 23). { replace (2 ^ 23) with (4 * 2 ^ 21) by (cbn; ring). rewrite Rinv_mult. field. }
  pose proof (ex_error 1 0 ltac:(lra) ltac:(lra)) as B1. set (E1 := next_error 2 4 1 1 0) in *. set (E2 := E1 + / 2 ^ 24 + / 2 ^ 21). assert (B2 : 0 <= E2 <= / 1000) by (unfold E2; rewrite T24, T21; unfold Rdiv in *; lra).
  eexists. eexists. eapply drifts_cons; [apply up_dense; lra|]. eapply drifts_cons; [apply (drift_sigmoid cr_libm _ _ _ None (/ 2 ^ 24)); [apply cr_exp_like|apply cr_exp_within|left; apply Rinv_0_lt_compat, pow_lt; lra]|]. fold E1. fold E2.
  eapply drifts_cons; [apply up_dense; lra|]. eapply drifts_cons; [apply drift_relu|apply drifts_nil].
Qed.
Lemma up_upward : Forall (upward32 cr_libm) up_layers.
Proof.
  assert (D : upward32 cr_libm (LFC up_fc)).
  { intros idx HI. change (in_range [2; 2]%Z idx) in HI. apply in_range_2 in HI. destruct HI as (i & j & -> & Hi & Hj). assert (i = 0%Z \/ i = 1%Z) as [->| ->] by lia; assert (j = 0%Z \/ j = 1%Z) as [->| ->] by lia; unfold f32_value; simpl; lra. }
  apply Forall_cons; [exact D|]. apply Forall_cons; [exact cr_exp_rises|]. apply Forall_cons; [exact D|]. apply Forall_cons; [exact I|apply Forall_nil].
Qed.
