(** * Layers that do nothing, and layers that can be exchanged (C135, C136) *)
From Coq Require Import Reals Lra SpecFloat.
From Flocq Require Import Core BinarySingleNaN.
From Verif Require Import Base Scalar ScalarR Types Spec SpecNN SpecLayers SpecR SpecF32 M_Shape M_Tensor M_Adv M_Act M_Loss M_Layers M_Reg M_Opt M_Net SpecNet SpecFuse
  L_Index L_Shape L_Tensor L_Nest L_Matmul L_Adv L_RSum L_ActR L_Layers L_LayersR L_Conv L_Rows L_BN L_BNR L_Net L_Train L_Drop L_AdvR L_Loss L_Batch L_Pool L_Fuse L_Float L_FloatAct L_FloatT.
Local Open Scope Z_scope.

Section G.
Context {T : Type} {S : Scalar T} {G : Type} {HR : Rng T G}.
Lemma agree_at : forall (a b : list (layer T)) z,
  (forall g : G, exists la lb g' y, forward_all a z g = (la, g', Ok y) /\ forward_all b z g = (lb, g', Ok y)) -> interchangeable_at (HR := HR) a b z.
Proof.
  intros a b z H n n' pre post x (E1 & E2 & E3) E. unfold net_predict in *. cbn [n_layers n_rng] in E. rewrite E1, E2, E3, !forward_app.
  destruct (forward_all pre x (n_rng n)) as [[ls g1] o]. cbn [snd] in E. subst o. rewrite !forward_app. destruct (H g1) as (la & lb & g2 & y & Fa & Fb). rewrite Fa, Fb.
  destruct (forward_all post y g2) as [[? ?] ?]. reflexivity.
Qed.

(** ** Layers that do nothing *)
Theorem drop_dropout : forall ds (l : dropout T), dr_train l = false -> interchangeable (HR := HR) ds [LDrop l] [].
Proof. intros ds l HT. apply agree_interchangeable. intros x g Gx Ex. cbn [forward_all layer_forward]. rewrite dropout_eval by auto. do 4 eexists. split; reflexivity. Qed.
Theorem drop_flatten : forall b c (l : flatten), interchangeable (HR := HR) [b; c] [LFlat l] [].
Proof.
  intros b c l. apply agree_interchangeable. intros x g Gx Ex. cbn [forward_all layer_forward]. unfold flatten_forward, rank. fold (tdims x). rewrite Ex.
  change (Zlen [b; c] <? 2) with false. change (Zlen [b; c] =? 2) with true. cbv iota. unfold lift; cbn [fst snd]. do 4 eexists. split; reflexivity.
Qed.
Theorem drop_second_flatten : forall b c ds (l l' : flatten), interchangeable (HR := HR) (b :: c :: ds) [LFlat l; LFlat l'] [LFlat l].
Proof.
  intros b c ds l l'. apply agree_interchangeable. intros x g Gx Ex. cbn [forward_all layer_forward]. destruct (flat_any l x b c ds Gx Ex) as (l1 & E). rewrite E. unfold lift; cbn [fst snd].
  unfold flatten_forward, rank. fold (tdims (in_shape [b; prod (c :: ds)] x)). change (tdims (in_shape [b; prod (c :: ds)] x)) with [b; prod (c :: ds)].
  change (Zlen [b; prod (c :: ds)] <? 2) with false. change (Zlen [b; prod (c :: ds)] =? 2) with true. cbv iota. cbn [fst snd]. do 4 eexists. split; reflexivity.
Qed.
Lemma relu_again : forall v : T, s_max zero (s_max zero v) = s_max zero v.
Proof. intros v. unfold s_max. destruct (s_lt zero v) eqn:E; [rewrite E; reflexivity|]. destruct (s_lt zero zero); reflexivity. Qed.
Theorem drop_second_relu : forall ds (a a' : actl T), al_act a = ReLU -> al_act a' = ReLU -> interchangeable (HR := HR) ds [LAct a; LAct a'] [LAct a].
Proof.
  intros ds a a' EA EA'. apply agree_interchangeable. intros x g Gx Ex. cbn [forward_all layer_forward]. unfold act_forward. rewrite EA, EA', act_fwd_el by (auto; discriminate). unfold lift; cbn [fst snd].
  rewrite act_fwd_el by first [discriminate | apply good_tensor_of; [apply good_pos; auto|apply good_max; auto]]. cbn [fst snd].
  set (y := tensor_of (tdims x) (fun idx => act_el ReLU (el x idx))).
  assert (E : tensor_of (tdims y) (fun idx => act_el ReLU (el y idx)) = y).
  { change (tdims y) with (tdims x). unfold y at 2. apply tensor_of_ext; [apply good_dims; auto|]. intros idx HI. unfold y. rewrite el_tensor_of by auto. cbn [act_el]. apply relu_again. }
  rewrite E. do 4 eexists. split; reflexivity.
Qed.
Theorem flatten_act : forall b c ds (l l' : flatten) (a a' : actl T), al_act a <> Softmax -> al_act a' = al_act a ->
  interchangeable (HR := HR) (b :: c :: ds) [LAct a; LFlat l] [LFlat l'; LAct a'].
Proof.
  intros b c ds l l' a a' NS EA. apply agree_interchangeable. intros x g Gx Ex. cbn [forward_all layer_forward]. unfold act_forward. rewrite EA, act_fwd_el by auto. unfold lift; cbn [fst snd].
  assert (GT : good (tensor_of (tdims x) (fun idx => act_el (al_act a) (el x idx)))) by (apply good_tensor_of; [apply good_pos; auto|apply good_max; auto]).
  destruct (flat_any l (tensor_of (tdims x) (fun idx => act_el (al_act a) (el x idx))) b c ds GT Ex) as (l1 & E1). rewrite E1. cbn [fst snd].
  destruct (flat_any l' x b c ds Gx Ex) as (l2 & E2). rewrite E2. cbn [fst snd].
  pose proof (good_pos x Gx) as PX. pose proof (good_max x Gx) as MX. pose proof (good_dims x Gx) as DX. rewrite Ex in PX, MX. destruct PX as (_ & PF). inversion PF as [|? ? P1 P2]; subst. pose proof (prod_pos _ P2) as PP. cbn [prod] in MX, PP.
  assert (PD : pos_dims [b; prod (c :: ds)]) by (split; [discriminate|]; repeat constructor; auto). assert (MD : prod [b; prod (c :: ds)] <= INT_MAX) by (cbn [prod]; lia).
  rewrite act_fwd_el by (auto; apply good_in_shape; auto). cbn [fst snd].
  set (y := tensor_of (tdims x) (fun idx => act_el (al_act a) (el x idx))) in *. set (z := in_shape [b; prod (c :: ds)] x) in *.
  assert (E : tensor_of (tdims z) (fun idx => act_el (al_act a) (el z idx)) = in_shape [b; prod (c :: ds)] y).
  { rewrite in_shape_def. change (tdims z) with [b; prod (c :: ds)]. apply tensor_of_ext; [apply PD|]. intros idx HI. unfold z. rewrite el_in_shape by auto. pose proof (ravel_bound _ _ HI) as RB.
    assert (RB' : 0 <= ravel [b; prod (c :: ds)] idx < prod (tdims x)) by (rewrite Ex; cbn [prod] in RB |- *; lia).
    unfold y, tensor_of. cbn [tdata]. rewrite znth_ztab by auto. unfold el. rewrite ravel_unravel by auto. reflexivity. }
  rewrite E. do 4 eexists. split; reflexivity.
Qed.

(** ** Activation and pooling *)
Lemma first_max_swap : forall {A} (u v : A -> T) l a b, first_max u l a -> first_max v l b ->
  (forall x y, In x l -> In y l -> s_lt (u x) (u y) = false -> s_lt (v x) (v y) = false) ->
  (forall x y, In x l -> In y l -> s_lt (u x) (u y) = true -> s_lt (v x) (v y) = true \/ v x = v y) -> v b = v a.
Proof.
  intros A u v l a b (p1 & p2 & E & L1 & M1) (q1 & q2 & E' & L2 & M2) H0 H1.
  assert (Ia : In a l) by (rewrite E; apply in_or_app; right; left; auto). assert (Ib : In b l) by (rewrite E'; apply in_or_app; right; left; auto).
  assert (C : p1 ++ a :: p2 = q1 ++ b :: q2) by congruence. clear E E'. apply app_eq_app in C. destruct C as (w & [[-> W]|[-> W]]).
  - destruct w as [|c w]; [injection W as <- _; auto|]. injection W as <- _. destruct (H1 b a Ib Ia) as [X|X]; auto.
    + apply L1. apply in_or_app. right. left. auto.
    + rewrite M2 in X by auto. discriminate.
  - destruct w as [|c w]; [injection W as <- _; auto|]. injection W as <- _. exfalso.
    assert (X : s_lt (v a) (v b) = true) by (apply L2; apply in_or_app; right; left; auto). rewrite (H0 a b Ia Ib) in X by auto. discriminate.
Qed.
(** An activation that keeps the order of the elements of [x]. *)
Definition monotone_on (f : T -> T) (x : tensor T) : Prop :=
  (forall u v, elements x u -> elements x v -> s_lt u v = false -> s_lt (f u) (f v) = false) /\
  (forall u v, elements x u -> elements x v -> s_lt u v = true -> s_lt (f u) (f v) = true \/ f u = f v).
Lemma pool_act : forall (a a' : actl T) (p p' : pool T) (x : tensor T) n c h w, good x -> tdims x = [n; c; h; w] -> al_act a <> Softmax -> al_act a' = al_act a ->
  pools h w p -> po_size p' = po_size p -> po_stride p' = po_stride p -> po_pad p' = po_pad p -> comparable x -> comparable (tensor_of (tdims x) (fun idx => act_el (al_act a) (el x idx))) -> monotone_on (act_el (al_act a)) x ->
  interchangeable_at (HR := HR) [LAct a; LPool p] [LPool p'; LAct a'] x.
Proof.
  intros a a' p p' x n c h w Gx Ex NS EA (P1 & P2 & (P3 & P4) & P5) Q1 Q2 Q3 CX CY (M0 & M1). apply agree_at. intros g. cbn [forward_all layer_forward]. unfold act_forward. rewrite EA, act_fwd_el by auto. unfold lift; cbn [fst snd].
  set (y := tensor_of (tdims x) (fun idx => act_el (al_act a) (el x idx))) in *.
  assert (Gy : good y) by (apply good_tensor_of; [apply good_pos; auto|apply good_max; auto]).
  destruct (pool_forward_max p y n c h w Gy Ex CY P1 P2 P3 P4 P5) as (q & E1 & Gq & Eq & HQ). rewrite E1. cbn [fst snd].
  destruct (pool_forward_max p' x n c h w Gx Ex CX) as (r & E2 & Gr & Er & HRr); try congruence; try lia. rewrite E2. cbn [fst snd]. rewrite act_fwd_el by auto. cbn [fst snd].
  rewrite Q1, Q2 in Er, HRr. enough (E : tensor_of (tdims r) (fun idx => act_el (al_act a) (el r idx)) = q) by (rewrite E; do 4 eexists; split; reflexivity).
  symmetry. apply tensor_ext; auto; [apply good_tensor_of; [apply good_pos; auto|apply good_max; auto]|change (tdims (tensor_of (tdims r) ?f)) with (tdims r); congruence|].
  intros o HO. assert (HO' : in_range (tdims r) o) by (rewrite Er, <- Eq; auto). rewrite el_tensor_of by auto.
  destruct (HQ o HO) as (W1 & i & F1 & ->). destruct (HRr o HO') as (_ & j & F2 & ->). rewrite Forall_forall in W1.
  assert (EY : forall k, In k (window (po_size p) (po_stride p) o) -> el y k = act_el (al_act a) (el x k)) by (intros k HK; unfold y; rewrite el_tensor_of by (apply W1; auto); reflexivity).
  rewrite EY by (eapply first_max_in; eauto). assert (IX : forall k, In k (window (po_size p) (po_stride p) o) -> elements x (el x k)) by (intros k HK; exists k; split; [apply W1; auto|reflexivity]).
  apply (first_max_swap (el x) (fun k => act_el (al_act a) (el x k)) (window (po_size p) (po_stride p) o) j i F2).
  - destruct F1 as (l1 & l2 & E & A1 & A2). exists l1, l2. split; [exact E|].
    assert (I1 : forall k, In k l1 -> In k (window (po_size p) (po_stride p) o)) by (intros k HK; rewrite E; apply in_or_app; auto).
    assert (I2 : In i (window (po_size p) (po_stride p) o)) by (rewrite E; apply in_or_app; right; left; auto).
    split; intros k HK; [rewrite <- !EY by auto; auto|rewrite <- !EY by auto; auto].
  - intros u v Hu Hv. apply M0; auto.
  - intros u v Hu Hv. apply M1; auto.
Qed.
(** ReLU, in any arithmetic in which the elements and zero are ordered. *)
Theorem pool_relu : forall (a a' : actl T) (p p' : pool T) (x : tensor T) n c h w, good x -> tdims x = [n; c; h; w] -> al_act a = ReLU -> al_act a' = ReLU ->
  pools h w p -> po_size p' = po_size p -> po_stride p' = po_stride p -> po_pad p' = po_pad p -> comparable_with_zero x -> interchangeable_at (HR := HR) [LAct a; LPool p] [LPool p'; LAct a'] x.
Proof.
  intros a a' p p' x n c h w Gx Ex EA EA' HP Q1 Q2 Q3 ((O1 & O2 & O3) & HI).
  assert (EL : forall v, elements (tensor_of (tdims x) (fun idx => act_el (al_act a) (el x idx))) v -> elements x v \/ v = zero).
  { intros v (idx & Hi & ->). change (in_range (tdims x) idx) in Hi. rewrite el_tensor_of by auto. rewrite EA. cbn [act_el]. unfold s_max. destruct (s_lt zero (el x idx)); [left; exists idx; auto|auto]. }
  apply (pool_act a a' p p' x n c h w); auto; try congruence.
  - split; [|auto]. split; [auto|]. split; eauto 7.
  - split; [|auto]. split; [auto|]. split; eauto 7.
  - rewrite EA. split; intros u v Hu Hv E; cbn [act_el]; unfold s_max; destruct (s_lt zero u) eqn:Eu, (s_lt zero v) eqn:Ev; auto.
    + destruct (s_lt u zero) eqn:X; auto. rewrite <- (O1 zero) by auto. symmetry. apply (O2 zero u zero); auto.
    + apply (O3 zero u v); auto.
    + exfalso. assert (X : s_lt zero v = true) by (apply (O2 zero u v); auto). congruence.
Qed.
End G.

(** Over the reals: an increasing activation with values above minus infinity. *)
Section R.
Variable M : R.
Local Open Scope R_scope.
Let SI : Scalar R := RInf M.
#[local] Existing Instance SI.
Context {G : Type} {HR : Rng R G}.
Lemma leaky_mono : forall al u v, 0 <= al -> u <= v -> (if Rltb 0 u then u else al * u) <= (if Rltb 0 v then v else al * v).
Proof. intros al u v Ha Huv. unfold Rltb. destruct (Rlt_dec 0 u), (Rlt_dec 0 v); try lra; [|apply Rmult_le_compat_l; lra]. assert (0 <= al * - u) by (apply Rmult_le_pos; lra). lra. Qed.
Lemma tanh_mono : forall u v, u <= v -> (exp (u * 2) - 1) / (exp (u * 2) + 1) <= (exp (v * 2) - 1) / (exp (v * 2) + 1).
Proof.
  intros u v H. assert (E : exp (u * 2) <= exp (v * 2)) by (destruct (Req_dec u v) as [->|]; [lra|left; apply exp_increasing; lra]). pose proof (exp_pos (u * 2)). pose proof (exp_pos (v * 2)).
  assert (K : forall t, 0 < t -> (t - 1) / (t + 1) = 1 - 2 * / (t + 1)) by (intros; field; lra). rewrite !K by auto. assert (/ (exp (v * 2) + 1) <= / (exp (u * 2) + 1)) by (apply Rinv_le_contravar; lra). lra.
Qed.
Lemma rising_mono : forall f, rising f -> forall u v, u <= v -> act_el f u <= act_el f v.
Proof.
  intros f HF u v H. destruct HF as [->|[->|[->|(al & -> & Ha)]]]; cbn [act_el].
  - unfold s_max. change (@s_lt R SI) with Rltb. change (@s_z R SI 0) with 0. unfold Rltb. destruct (Rlt_dec 0 u), (Rlt_dec 0 v); lra.
  - unfold sigm. change (@s_div R SI) with Rdiv. change (@s_add R SI) with Rplus. change (@s_neg R SI) with Ropp. change (@s_exp R SI) with exp. change (@s_z R SI 1) with 1.
    unfold Rdiv. rewrite !Rmult_1_l. assert (exp (- v) <= exp (- u)) by (destruct (Req_dec u v) as [->|]; [lra|left; apply exp_increasing; lra]). pose proof (exp_pos (- v)). apply Rinv_le_contravar; lra.
  - apply tanh_mono. auto.
  - apply leaky_mono; lra.
Qed.
Lemma rising_above : forall f, 1 < M -> rising f -> forall u, - M < u -> - M < act_el f u.
Proof.
  intros f HM HF u H. destruct HF as [->|[->|[->|(al & -> & Ha)]]]; cbn [act_el].
  - unfold s_max. change (@s_lt R SI) with Rltb. change (@s_z R SI 0) with 0. unfold Rltb. destruct (Rlt_dec 0 u); lra.
  - unfold sigm. change (@s_div R SI) with Rdiv. change (@s_add R SI) with Rplus. change (@s_neg R SI) with Ropp. change (@s_exp R SI) with exp. change (@s_z R SI 1) with 1.
    pose proof (exp_pos (- u)). unfold Rdiv. rewrite Rmult_1_l. assert (0 < / (1 + exp (- u))) by (apply Rinv_0_lt_compat; lra). lra.
  - change (- M < (exp (u * 2) - 1) / (exp (u * 2) + 1)). rewrite exp2_tanh. pose proof (tanh_range u). lra.
  - change (- M < if Rltb 0 u then u else al * u). unfold Rltb. destruct (Rlt_dec 0 u); [lra|]. assert (0 <= (1 - al) * - u) by (apply Rmult_le_pos; lra). lra.
Qed.
Theorem pool_rising : forall (a a' : actl R) (p p' : pool R) (x : tensor R) n c h w, 1 < M -> good x -> tdims x = [n; c; h; w] -> (forall idx, in_range (tdims x) idx -> - M < el x idx) ->
  rising (al_act a) -> al_act a' = al_act a -> pools h w p -> po_size p' = po_size p -> po_stride p' = po_stride p -> po_pad p' = po_pad p ->
  interchangeable_at (HR := HR) [LAct a; LPool p] [LPool p'; LAct a'] x.
Proof.
  intros a a' p p' x n c h w HM Gx Ex HB HF EA HP Q1 Q2 Q3. apply (pool_act a a' p p' x n c h w); auto.
  - intros E. rewrite E in HF. destruct HF as [X|[X|[X|(al & X & _)]]]; discriminate X.
  - apply comparable_R. auto.
  - apply comparable_R. intros idx HI. change (in_range (tdims x) idx) in HI. rewrite el_tensor_of by auto. apply rising_above; auto.
  - split; intros u v Hu Hv; change (@s_lt R SI) with Rltb; unfold Rltb.
    + destruct (Rlt_dec u v); [discriminate|]. intros _. destruct (Rlt_dec (act_el (al_act a) u) (act_el (al_act a) v)); auto. pose proof (rising_mono (al_act a) HF v u ltac:(lra)). lra.
    + destruct (Rlt_dec u v); [|discriminate]. intros _. destruct (Rlt_dec (act_el (al_act a) u) (act_el (al_act a) v)); auto. right. pose proof (rising_mono (al_act a) HF u v ltac:(lra)). lra.
Qed.
End R.

(** ** In float32, every tensor of finite numbers *)
Lemma finite_comparable : forall lm (x : tensor f32), good x -> all_finite x -> comparable_with_zero (S := F32Scalar lm) x.
Proof.
  intros lm x Gx HF.
  assert (GE : forall v, @elements f32 (F32Scalar lm) x v \/ v = @s_z f32 (F32Scalar lm) 0 -> good_f v).
  { intros v [(i & Hi & ->)| ->]; [apply (el_good lm); auto|split; reflexivity]. }
  assert (LT : forall u v, good_f u -> good_f v -> @s_lt f32 (F32Scalar lm) u v = Rlt_bool (SF2R radix2 u) (SF2R radix2 v)) by (intros u v (A1 & A2) (B1 & B2); apply ltb_V; auto).
  split; [split; [|split]|].
  - intros u Hu. rewrite LT by auto. apply Rlt_bool_false. lra.
  - intros u v w Hu Hv Hw. rewrite !LT by auto. destruct (Rlt_bool_spec (SF2R radix2 u) (SF2R radix2 v)); [|discriminate]. destruct (Rlt_bool_spec (SF2R radix2 v) (SF2R radix2 w)); [|discriminate]. intros _ _. apply Rlt_bool_true. lra.
  - intros u v w Hu Hv Hw. rewrite !LT by auto. destruct (Rlt_bool_spec (SF2R radix2 u) (SF2R radix2 v)); [discriminate|]. destruct (Rlt_bool_spec (SF2R radix2 v) (SF2R radix2 w)); [discriminate|]. intros _ _. apply Rlt_bool_false. lra.
  - intros v Hv. destruct (GE v Hv) as (_ & A2). destruct v; try discriminate A2; reflexivity.
Qed.
Theorem pool_relu_f32 : forall lm G (HR : Rng f32 G) (a a' : actl f32) (p p' : pool f32) (x : tensor f32) n c h w, good x -> tdims x = [n; c; h; w] -> all_finite x -> al_act a = ReLU -> al_act a' = ReLU ->
  pools h w p -> po_size p' = po_size p -> po_stride p' = po_stride p -> po_pad p' = po_pad p -> interchangeable_at (S := F32Scalar lm) (HR := HR) [LAct a; LPool p] [LPool p'; LAct a'] x.
Proof. intros lm G HR a a' p p' x n c h w Gx Ex HF EA EA' HP Q1 Q2 Q3. apply (pool_relu (S := F32Scalar lm) a a' p p' x n c h w); auto. apply finite_comparable; auto. Qed.
