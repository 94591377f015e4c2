(** * Float32 results of whole tensor operations *)
From Coq Require Import Reals Lra SpecFloat.
From Flocq Require Import Core BinarySingleNaN.
From Verif Require Import Base Scalar Types Spec SpecNN SpecR SpecF32 M_Shape M_Tensor M_Adv M_Act M_Layers L_Index L_Shape L_Tensor L_Reduce L_Glue L_Nest L_Matmul L_RSum L_AdvR L_Act L_ActR L_Layers L_Conv L_Slice L_Float L_FloatAct L_FloatLib.
Local Open Scope R_scope.
Local Notation V := (SF2R radix2).
Local Notation fadd := (SFadd f32_prec f32_emax).
Local Notation fmul := (SFmul f32_prec f32_emax).

Lemma growth_nonneg : forall n, 0 <= growth n.
Proof. intros n. unfold growth. pose proof (pow_ge1 (Z.to_nat n)). lra. Qed.
Lemma growth_bound : forall n, (0 <= n)%Z -> IZR n * ulp_half <= / 2 -> growth n <= 2 * IZR n * ulp_half.
Proof.
  intros n Hn H. unfold growth. rewrite <- (Z2Nat.id n) in H |- * by auto. rewrite Nat2Z.id. set (k := Z.to_nat n) in *. clearbody k. rewrite <- INR_IZR_INZ in *. pose proof ulp_pos as Hu.
  assert (A : (1 - INR k * ulp_half) * (1 + ulp_half) ^ k <= 1).
  { clear H. induction k as [|k IH]; [cbn; lra|]. rewrite S_INR. cbn [pow]. set (p := (1 + ulp_half) ^ k) in *. assert (1 <= p) by apply pow_ge1. pose proof (pos_INR k).
    assert ((1 - (INR k + 1) * ulp_half) * (1 + ulp_half) <= 1 - INR k * ulp_half) by nra. nra. }
  pose proof (pow_ge1 k). pose proof (pos_INR k). set (p := (1 + ulp_half) ^ k) in *. set (e := INR k * ulp_half) in *. assert (0 <= e) by (apply Rmult_le_pos; lra). replace (2 * INR k * ulp_half) with (2 * e) by (unfold e; ring).
  assert (p * (1 - e) <= 1) by lra. assert (p <= 2) by nra. nra.
Qed.
Lemma el_all : forall (lm : libm) (P : f32 -> Prop) (t : tensor f32) idx, good t -> Forall P (tdata t) -> in_range (tdims t) idx -> P (@el f32 (F32Scalar lm) t idx).
Proof.
  intros lm P t idx Hg HF HI. unfold el. pose proof (ravel_bound _ _ HI) as B. destruct Hg as (_ & _ & _ & HL). rewrite Forall_forall in HF. apply HF. unfold znth. apply nth_In. unfold Zlen in HL. lia.
Qed.

Section T.
Variable lm : libm.
Let SF : Scalar f32 := F32Scalar lm.
#[local] Existing Instance SF.
Lemma el_vok : forall (t : tensor f32) idx, good t -> all_valid t -> in_range (tdims t) idx -> vok (el t idx).
Proof. intros t idx. apply (el_all lm f32_valid). Qed.
Lemma el_good : forall (t : tensor f32) idx, good t -> all_finite t -> in_range (tdims t) idx -> good_f (el t idx).
Proof. intros t idx Hg HF HI. destruct (el_all lm _ t idx Hg HF HI) as [A B]. split; [exact A|apply finite_fin; exact B]. Qed.

(** ** Sums *)
Lemma near_of_sum : forall {A} (l : list A) (f : A -> f32) n, (forall a, In a l -> vok (f a)) -> fin (fsum (map f l)) -> (Z.of_nat (length l - 1) <= n)%Z -> near_sum n 0 (fsum (map f l)) l (fun a => f32_value (f a)).
Proof.
  intros A l f n Hf HF Hn. assert (HV : Forall vok (map f l)) by (apply Forall_map, Forall_forall; auto). pose proof (fsum_err lm _ HV HF) as E. rewrite map_length, !rsum_map in E.
  unfold near_sum. rewrite Rmult_0_r, Rmult_0_l, Rplus_0_r, value_V. rewrite (rsum_ext l (fun a => f32_value (f a)) (fun a => V (f a))) by (intros; apply value_V).
  rewrite (rsum_ext l (fun a => Rabs (f32_value (f a))) (fun a => Rabs (V (f a)))) by (intros; f_equal; apply value_V). eapply Rle_trans; [exact E|]. apply Rmult_le_compat_r; [apply rsum_nonneg; intros; apply Rabs_pos|].
  unfold growth. apply Rplus_le_compat_r. apply Rle_pow; [pose proof ulp_pos; lra|lia].
Qed.
Lemma near_of_dot : forall {A} (l : list A) (f g : A -> f32) n, (forall a, In a l -> vok (f a)) -> (forall a, In a l -> vok (g a)) -> fin (dotl lm l f g) -> Zlen l = n ->
  near_sum n n (dotl lm l f g) l (fun a => f32_value (f a) * f32_value (g a)).
Proof.
  intros A l f g n Hf Hg HF Hn. pose proof (dot_err lm l f g Hf Hg HF) as E. unfold near_sum, growth. subst n. unfold Zlen. rewrite Nat2Z.id, <- INR_IZR_INZ, value_V.
  rewrite (rsum_ext l (fun a => f32_value (f a) * f32_value (g a)) (fun a => V (f a) * V (g a))) by (intros; rewrite !value_V; auto).
  rewrite (rsum_ext l (fun a => Rabs (f32_value (f a) * f32_value (g a))) (fun a => Rabs (V (f a) * V (g a)))) by (intros; rewrite !value_V; auto). eapply Rle_trans; [exact E|]. lra.
Qed.
(** An inner product plus a bias: the terms are the products and the bias. *)
Lemma near_of_affine : forall {A} (l : list A) (f g : A -> f32) b n, (forall a, In a l -> vok (f a)) -> (forall a, In a l -> vok (g a)) -> vok b -> fin (fadd (dotl lm l f g) b) -> Zlen l = n ->
  near_sum (n + 1) n (fadd (dotl lm l f g) b) (None :: map Some l) (fun o => match o with Some a => f32_value (f a) * f32_value (g a) | None => f32_value b end).
Proof.
  intros A l f g b n Hf Hg Hb HF Hn. pose proof (affine_err lm l f g b Hf Hg Hb HF) as E. unfold near_sum, growth. subst n. unfold Zlen. replace (Z.to_nat (Z.of_nat (length l) + 1)) with (Datatypes.S (length l)) by lia.
  rewrite <- INR_IZR_INZ. rewrite !rsum_cons, !rsum_map, !value_V.
  rewrite (rsum_ext l (fun a => f32_value (f a) * f32_value (g a)) (fun a => V (f a) * V (g a))) by (intros; rewrite !value_V; auto).
  rewrite (rsum_ext l (fun a => Rabs (f32_value (f a) * f32_value (g a))) (fun a => Rabs (V (f a) * V (g a)))) by (intros; rewrite !value_V; auto).
  rewrite (Rplus_comm (V b)), (Rplus_comm (Rabs (V b))). eapply Rle_trans; [exact E|]. lra.
Qed.
Lemma f32_sum : forall (t y : tensor f32), good t -> all_valid t -> t_sum t = Ok y -> f32_finite (el y [0%Z]) ->
  near_sum (prod (tdims t) - 1) 0 (el y [0%Z]) (all_indices (tdims t)) (fun idx => f32_value (el t idx)).
Proof.
  intros t y Hg HV E HF. rewrite sum_all in E by auto. assert (Ey : y = tensor_of [1%Z] (fun _ => fsum (map (el t) (all_indices (tdims t))))) by congruence. subst y. rewrite el_tensor_of in * by auto with idx.
  pose proof (good_dims t Hg) as HD. apply finite_fin in HF. apply near_of_sum; auto.
  - intros idx HI. apply el_vok; auto. apply In_all_indices in HI; auto.
  - pose proof (prod_pos _ HD). assert (Zlen (all_indices (tdims t)) = prod (tdims t)) by (apply Zlen_ztab; lia). unfold Zlen in *. lia.
Qed.
Lemma f32_sum_axis : forall (t y : tensor f32) axis ridx, good t -> all_valid t -> (1 < length (tdims t))%nat -> (0 <= axis < Zlen (tdims t))%Z -> t_sum_axis t axis = Ok y ->
  in_range (remove_at (Z.to_nat axis) (tdims t)) ridx -> f32_finite (el y ridx) ->
  near_sum (nth (Z.to_nat axis) (tdims t) 0%Z - 1) 0 (el y ridx) (zrange 0 (nth (Z.to_nat axis) (tdims t) 0%Z)) (fun a => f32_value (el t (insert_at (Z.to_nat axis) a ridx))).
Proof.
  intros t y axis ridx Hg HV HL HA E HI HF. rewrite t_sum_axis_ok in E by auto. match type of E with Ok ?a = Ok ?b => assert (Ey : b = a) by congruence end. subst y. rewrite el_tensor_of in * by auto. apply finite_fin in HF.
  pose proof (good_dims t Hg) as HD. assert (HN : (0 < nth (Z.to_nat axis) (tdims t) 0)%Z) by (rewrite Forall_forall in HD; apply HD, nth_In; unfold Zlen in HA; lia).
  apply (near_of_sum (zrange 0 (nth (Z.to_nat axis) (tdims t) 0%Z)) (fun a => el t (insert_at (Z.to_nat axis) a ridx))).
  - intros a Ha. apply In_zrange in Ha. apply el_vok; auto. apply in_range_insert; auto. unfold Zlen in HA. lia.
  - exact HF.
  - assert (HZ : Zlen (zrange 0 (nth (Z.to_nat axis) (tdims t) 0%Z)) = (nth (Z.to_nat axis) (tdims t) 0 - 0)%Z) by (apply Zlen_zrange; lia). unfold Zlen in *. lia.
Qed.
Lemma f32_matmul : forall (a b y : tensor f32) m k n, good a -> good b -> all_valid a -> all_valid b -> tdims a = [m; k] -> tdims b = [k; n] -> (m * n <= INT_MAX)%Z -> t_matmul a b = Ok y ->
  forall i j, (0 <= i < m)%Z -> (0 <= j < n)%Z -> f32_finite (el y [i; j]) -> near_sum k k (el y [i; j]) (zrange 0 k) (fun p => f32_value (el a [i; p]) * f32_value (el b [p; j])).
Proof.
  intros a b y m k n Ga Gb Va Vb Ea Eb HM E i j Hi Hj HF. destruct (pos2_inv m k) as [Hm Hk]; [rewrite <- Ea; apply good_pos; auto|].
  rewrite (matmul_22 a b m k n) in E by auto. match type of E with Ok ?u = Ok ?v => assert (Ey : v = u) by congruence end. subst y. rewrite el_tensor_of in * by auto with idx. cbn [fn2] in *. apply finite_fin in HF.
  apply (near_of_dot (zrange 0 k) (fun p => el a [i; p]) (fun p => el b [p; j]) k).
  - intros p Hp. apply In_zrange in Hp. apply el_vok; auto. rewrite Ea. auto with idx.
  - intros p Hp. apply In_zrange in Hp. apply el_vok; auto. rewrite Eb. auto with idx.
  - exact HF.
  - rewrite Zlen_zrange; lia.
Qed.
Lemma f32_fc : forall (l : fc f32) k o (x y : tensor f32) n, fc_wf l k o -> all_valid (fc_w l) -> all_valid (fc_b l) -> good x -> all_valid x -> tdims x = [n; k] -> (n * o <= INT_MAX)%Z ->
  snd (fc_forward l x) = Ok y -> forall i j, (0 <= i < n)%Z -> (0 <= j < o)%Z -> f32_finite (el y [i; j]) ->
  near_sum (k + 1) k (el y [i; j]) (None :: map Some (zrange 0 k))
    (fun t => match t with Some p => f32_value (el x [i; p]) * f32_value (el (fc_w l) [p; j]) | None => f32_value (el (fc_b l) [0%Z; j]) end).
Proof.
  intros l k o x y n HW Vw Vb Gx Vx Ex HM E i j Hi Hj HF. destruct (pos2_inv n k) as [Hn Hk]; [rewrite <- Ex; apply good_pos; auto|].
  rewrite (fc_forward_2 l k o x n) in E by auto. cbn [snd] in E. match type of E with Ok ?u = Ok ?v => assert (Ey : v = u) by congruence end. subst y. rewrite el_tensor_of in * by auto with idx. cbn [fn2] in *. apply finite_fin in HF.
  destruct HW as (Gw & Ew & Gb & Eb). apply (near_of_affine (zrange 0 k) (fun p => el x [i; p]) (fun p => el (fc_w l) [p; j]) (el (fc_b l) [0%Z; j]) k).
  - intros p Hp. apply In_zrange in Hp. apply el_vok; auto. rewrite Ex. auto with idx.
  - intros p Hp. apply In_zrange in Hp. apply el_vok; auto. rewrite Ew. auto with idx.
  - apply el_vok; auto. rewrite Eb. auto with idx.
  - exact HF.
  - rewrite Zlen_zrange; lia.
Qed.
Lemma f32_conv : forall (l : conv f32) (x y : tensor f32) n h w, conv_wf l -> all_valid (cv_w l) -> all_valid (cv_b l) -> good x -> all_valid x -> tdims x = [n; 1; h; w]%Z ->
  cv_ic l = 1%Z -> (cv_kh l <= h)%Z -> (cv_kw l <= w)%Z -> (n * (cv_oc l * ((h - cv_kh l + 1) * (w - cv_kw l + 1))) <= INT_MAX)%Z ->
  snd (conv_forward l x) = Ok y -> forall i o r c, (0 <= i < n)%Z -> (0 <= o < cv_oc l)%Z -> (0 <= r <= h - cv_kh l)%Z -> (0 <= c <= w - cv_kw l)%Z -> f32_finite (el y [i; o; r; c]) ->
  near_sum (cv_kh l * cv_kw l + 1) (cv_kh l * cv_kw l) (el y [i; o; r; c]) (None :: map Some (all_indices [cv_kh l; cv_kw l]))
    (fun t => match t with Some pq => f32_value (el x [i; 0; r + nth 0 pq 0; c + nth 1 pq 0]%Z) * f32_value (el (cv_w l) [o; 0; nth 0 pq 0; nth 1 pq 0]%Z) | None => f32_value (el (cv_b l) [o; 0]%Z) end).
Proof.
  intros l x y n h w HW Vw Vb Gx Vx Ex Hic Hh Hw HM E i o r c Hi Ho Hr Hc HF. rewrite (conv_forward_ok l x n h w) in E by (auto; rewrite Hic; auto). cbn [snd] in E.
  match type of E with Ok ?u = Ok ?v => assert (Ey : v = u) by congruence end. subst y. assert (HI : in_range [n; cv_oc l; h - cv_kh l + 1; w - cv_kw l + 1]%Z [i; o; r; c]) by (apply in_range4; lia).
  rewrite el_tensor_of in * by auto. cbn [fn4] in *. apply finite_fin in HF. destruct HW as (Gw & Ew & Gb & Eb). rewrite Hic in Ew. destruct (dims4_pos _ _ _ _ _ Gw Ew) as (_ & _ & Hkh & Hkw & _).
  assert (EQ : conv0 x (cv_w l) (cv_b l) (cv_kh l) (cv_kw l) i o r c =
     fadd (dotl lm (all_indices [cv_kh l; cv_kw l]) (fun pq => el x [i; 0; r + nth 0 pq 0; c + nth 1 pq 0]%Z) (fun pq => el (cv_w l) [o; 0; nth 0 pq 0; nth 1 pq 0]%Z)) (el (cv_b l) [o; 0]%Z)).
  { unfold conv0, dotl. erewrite map_ext_in; [reflexivity|]. intros pq Hpq. apply In_all_indices in Hpq; [|auto with idx].
    pose proof (in_range_length _ _ Hpq) as HL. destruct pq as [|p [|q [|]]]; try discriminate HL. reflexivity. }
  change (fn4 (conv0 x (cv_w l) (cv_b l) (cv_kh l) (cv_kw l)) [i; o; r; c]) with (conv0 x (cv_w l) (cv_b l) (cv_kh l) (cv_kw l) i o r c) in HF |- *. rewrite EQ in HF |- *. apply near_of_affine.
  - intros pq Hpq. apply In_all_indices in Hpq; [|auto with idx]. pose proof (in_range_length _ _ Hpq) as HL. destruct pq as [|p [|q [|]]]; try discriminate HL. rewrite !in_range_cons in Hpq. apply el_vok; auto. rewrite Ex. cbn [nth]. apply in_range4; lia.
  - intros pq Hpq. apply In_all_indices in Hpq; [|auto with idx]. pose proof (in_range_length _ _ Hpq) as HL. destruct pq as [|p [|q [|]]]; try discriminate HL. rewrite !in_range_cons in Hpq. apply el_vok; auto. rewrite Ew. cbn [nth]. apply in_range4; lia.
  - apply el_vok; auto. rewrite Eb. apply in_range2; lia.
  - exact HF.
  - unfold all_indices. rewrite Zlen_ztab; simpl; lia.
Qed.

(** ** Activations *)
Lemma like_in : forall lo hi x, within lo hi x -> f32_in lo hi x.
Proof. intros. apply within_in. auto. Qed.
Lemma act_f32 : forall (P : act f32 -> f32 -> f32 -> Prop) (a : act f32) (x : tensor f32), a <> Softmax -> good x -> all_finite x -> (forall v, good_f v -> P a v (act_el a v)) ->
  exists y, act_fwd a x = Ok y /\ good y /\ tdims y = tdims x /\ forall idx, in_range (tdims x) idx -> P a (el x idx) (el y idx).
Proof.
  intros P a x Ha Gx Fx HP. rewrite act_fwd_el by auto. eexists. split; [reflexivity|]. split; [apply good_tensor_of; [apply good_pos; auto|apply good_max; auto]|]. split; [reflexivity|].
  intros idx HI. rewrite el_tensor_of by auto. apply HP. apply el_good; auto.
Qed.
Lemma act_back_f32 : forall (P : act f32 -> f32 -> f32 -> f32 -> Prop) (a : act f32) (x g : tensor f32), a <> Softmax -> good x -> good g -> tdims g = tdims x -> all_finite x -> all_finite g ->
  (forall v w, good_f v -> good_f w -> P a v w (act_del a v w)) ->
  exists y, act_bwd a x g = Ok y /\ good y /\ tdims y = tdims x /\ forall idx, in_range (tdims x) idx -> P a (el x idx) (el g idx) (el y idx).
Proof.
  intros P a x g Ha Gx Gg Eg Fx Fg HP. rewrite act_bwd_el by auto. eexists. split; [reflexivity|]. split; [apply good_tensor_of; [apply good_pos; auto|apply good_max; auto]|]. split; [reflexivity|].
  intros idx HI. rewrite el_tensor_of by auto. apply HP; apply el_good; auto. rewrite Eg. auto.
Qed.
Hypothesis HL : libm_like lm.
Let HE := like_exp _ HL.
Lemma f32_sigmoid : forall (x : tensor f32), good x -> all_finite x ->
  exists y, act_fwd Sigmoid x = Ok y /\ good y /\ tdims y = tdims x /\ forall idx, in_range (tdims x) idx -> f32_in 0 1 (el y idx).
Proof. intros x Gx Fx. apply (act_f32 (fun _ _ r => f32_in 0 1 r) Sigmoid); auto; [discriminate|]. intros v [Hv Fv]. apply like_in. exact (sigm_in lm HE v Hv Fv). Qed.
Definition tame (a : act f32) : Prop := match a with LeakyReLU al => f32_in (-1) 1 al | Tanh | Softmax => False | _ => True end.
Lemma f32_no_larger : forall (a : act f32) (x : tensor f32), tame a -> a <> Sigmoid -> good x -> all_finite x ->
  exists y, act_fwd a x = Ok y /\ good y /\ tdims y = tdims x /\ forall idx, in_range (tdims x) idx -> f32_in (- Rabs (f32_value (el x idx))) (Rabs (f32_value (el x idx))) (el y idx).
Proof.
  intros a x Ha HS Gx Fx. apply (act_f32 (fun _ v r => f32_in (- Rabs (f32_value v)) (Rabs (f32_value v)) r) a); auto; [intros ->; destruct Ha|].
  intros v [Hv Fv]. rewrite value_V. apply like_in. destruct a as [|al| | | | |]; try congruence; try destruct Ha; cbn [act_el].
  - destruct (relu_in lm v Hv Fv) as (A & B & C). split; [exact A|]. split; [exact B|]. pose proof (Rabs_pos (V v)). split; [|apply C]. apply Rle_trans with 0; [lra|apply C].
  - rewrite finite_fin, value_V in *. apply (leaky_in lm al v); auto; try tauto. apply Rabs_le. tauto.
  - exact (swish_in lm HE v Hv Fv).
  - exact (mish_in lm HE (like_log _ HL) (like_tanh _ HL) v Hv Fv).
Qed.
(** Backward: the bounded activations give at most the size of the gradient; Swish and Mish never give NaN. *)
Lemma f32_back : forall (a : act f32) (x g : tensor f32), (tame a \/ a = Tanh) -> a <> Swish -> a <> Mish -> good x -> good g -> tdims g = tdims x -> all_finite x -> all_finite g ->
  exists y, act_bwd a x g = Ok y /\ good y /\ tdims y = tdims x /\ forall idx, in_range (tdims x) idx -> f32_in (- Rabs (f32_value (el g idx))) (Rabs (f32_value (el g idx))) (el y idx).
Proof.
  intros a x g Ha H1 H2 Gx Gg Eg Fx Fg. apply (act_back_f32 (fun _ _ w r => f32_in (- Rabs (f32_value w)) (Rabs (f32_value w)) r) a); auto; [intros ->; destruct Ha as [Ha|Ha]; [destruct Ha|discriminate]|].
  intros v w Gv Gw. rewrite value_V. apply like_in. destruct a as [|al| | | | |]; try congruence; cbn [act_del].
  - exact (relu_back lm v w Gw).
  - destruct Ha as [(A & B & C)|Ha]; [|discriminate]. rewrite finite_fin, value_V in *. apply (leaky_back lm al v w); auto; [split; auto|apply Rabs_le; auto].
  - exact (sig_back lm HL v w Gv Gw).
  - exact (tanh_back lm HL v w Gv Gw).
  - destruct Ha as [Ha|Ha]; [destruct Ha|discriminate].
Qed.
Lemma f32_back_number : forall (a : act f32) (x g : tensor f32), (a = Swish \/ a = Mish) -> good x -> good g -> tdims g = tdims x -> all_finite x -> all_finite g ->
  exists y, act_bwd a x g = Ok y /\ good y /\ tdims y = tdims x /\ forall idx, in_range (tdims x) idx -> f32_valid (el y idx) /\ ~ f32_nan (el y idx).
Proof.
  intros a x g Ha Gx Gg Eg Fx Fg. apply (act_back_f32 (fun _ _ _ r => f32_valid r /\ ~ f32_nan r) a); auto; [intros ->; destruct Ha; discriminate|].
  intros v w Gv Gw. destruct Ha as [-> | ->]; cbn [act_del]; [exact (swish_back lm HL v w Gv Gw)|exact (mish_back lm HL v w Gv Gw)].
Qed.
Lemma f32_tanh : forall (x : tensor f32), good x -> all_finite x -> exists y, act_fwd Tanh x = Ok y /\ good y /\ tdims y = tdims x /\
  forall idx, in_range (tdims x) idx ->
    (f32_nan (el y idx) /\ m_exp lm (SFmul f32_prec f32_emax (el x idx) (f32_of_Z 2)) = S754_infinity false) \/
    (f32_in (-1) 1 (el y idx) /\ m_exp lm (SFmul f32_prec f32_emax (el x idx) (f32_of_Z 2)) <> S754_infinity false).
Proof.
  intros x Gx Fx. apply (act_f32 (fun _ v r => (f32_nan r /\ m_exp lm (fmul v (f32_of_Z 2)) = S754_infinity false) \/ (f32_in (-1) 1 r /\ m_exp lm (fmul v (f32_of_Z 2)) <> S754_infinity false)) Tanh); auto; [discriminate|].
  intros v [Hv Fv]. cbn [act_el]. change (s_div _ _) with (tanh_formula lm v). destruct (tanh_cases lm HE v Hv Fv) as [[A B]|A]; [left; auto|right]. split; [apply like_in; auto|].
  intros E. destruct A as (_ & F & _). unfold tanh_formula in F. rewrite E in F. discriminate F.
Qed.
Lemma f32_tanh_nan : forall (x : tensor f32), good x -> all_finite x -> exists y, act_fwd Tanh x = Ok y /\ tdims y = tdims x /\
  forall idx, in_range (tdims x) idx -> 64 <= f32_value (el x idx) -> f32_nan (el y idx).
Proof.
  intros x Gx Fx. destruct (act_f32 (fun _ v r => 64 <= f32_value v -> f32_nan r) Tanh x) as (y & A & _ & B & C); auto; [discriminate| |exists y; auto].
  intros v [Hv Fv] H. rewrite value_V in H. exact (tanh_nan lm HE v Hv Fv H).
Qed.

(** ** Softmax *)
Lemma row_good : forall (x : tensor f32) b ds r, good x -> all_finite x -> tdims x = b :: ds -> (0 <= r < b)%Z -> Forall good_f (row ds x r).
Proof.
  intros x b ds r Gx Fx E Hr. pose proof (good_dims x Gx) as HD. rewrite E in HD. inversion HD; subst. unfold row. apply Forall_map, Forall_forall. intros i Hi. apply In_all_indices in Hi; auto. apply el_good; auto. rewrite E. constructor; auto.
Qed.
Lemma f32_softmax : forall (x : tensor f32) b ds, good x -> all_finite x -> tdims x = b :: ds -> ds <> [] ->
  exists y, softmax_fwd x = Ok y /\ good y /\ tdims y = tdims x /\ (forall idx, in_range (tdims x) idx -> f32_in 0 1 (el y idx)) /\
    (forall r, (0 <= r < b)%Z -> growth (prod ds) <= / 2 -> Rabs (rsum (all_indices ds) (fun i => f32_value (el y (r :: i))) - 1) <= 4 * growth (prod ds)).
Proof.
  intros x b ds Gx Fx E N. rewrite (softmax_fwd_ok x b ds) by auto. eexists. split; [reflexivity|]. split; [apply good_tensor_of; [apply good_pos; auto|apply good_max; auto]|]. split; [reflexivity|].
  pose proof (good_dims x Gx) as HD. rewrite E in HD. inversion HD as [|? ? Hb HD']; subst.
  assert (SI : forall r i, (0 <= r < b)%Z -> in_range ds i -> In (el x (r :: i)) (row ds x r)). { intros r i Hr Hi. unfold row. apply in_map_iff. exists i. split; auto. apply In_all_indices; auto. }
  split.
  - intros idx HI. rewrite el_tensor_of by auto. rewrite E in HI. inversion HI as [|? i ? is Hi Hr']; subst. cbn [nth]. apply like_in. apply (softmax_in lm HE); [apply (row_good x b ds); auto|apply SI; auto].
  - intros r Hr HG. assert (RN : row ds x r <> []). { unfold row. pose proof (prod_pos ds HD'). assert (Zlen (all_indices ds) = prod ds) by (apply Zlen_ztab; lia). intros C. apply map_eq_nil in C. rewrite C in *. unfold Zlen in *. cbn in *. lia. }
    pose proof (softmax_total lm HE (row ds x r) RN (row_good x b ds r Gx Fx E Hr)) as HT. cbv zeta in HT. 
    assert (HLn : length (row ds x r) = Z.to_nat (prod ds)). { unfold row. rewrite map_length. pose proof (prod_pos ds HD'). assert (Zlen (all_indices ds) = prod ds) by (apply Zlen_ztab; lia). unfold Zlen in *. lia. }
    rewrite HLn in HT. pose proof (prod_pos ds HD') as HP. pose proof ulp_pos as Hu. set (k := (Z.to_nat (prod ds) - 1)%nat) in *. assert (EK : Z.to_nat (prod ds) = Datatypes.S k) by (unfold k; lia).
    unfold growth in *. rewrite EK in *. cbn [pow] in HG |- *. set (q := (1 + ulp_half) ^ k) in *. assert (Hq : 1 <= q) by apply pow_ge1. assert (q * ulp_half >= ulp_half) by nra.
    assert (EQ : rsum (all_indices ds) (fun i => f32_value (el (tensor_of (tdims x) (fun idx => softmax_of (row ds x (nth 0 idx 0%Z)) (el x idx))) (r :: i))) = rsum (row ds x r) (fun v => V (softmax_of (row ds x r) v))).
    { transitivity (rsum (map (fun i => el x (r :: i)) (all_indices ds)) (fun v => V (softmax_of (row ds x r) v))); [|reflexivity]. rewrite rsum_map. apply rsum_ext. intros i Hi. apply In_all_indices in Hi; auto. rewrite el_tensor_of by (rewrite E; constructor; auto). cbn [nth]. apply value_V. }
    rewrite EQ. eapply Rle_trans; [apply HT; nra|]. clear HT EQ.
    assert (T1 : (q - 1 + ulp_half) / (2 - q) <= 2 * (q - 1 + ulp_half)). { unfold Rdiv. rewrite Rmult_comm. apply Rmult_le_compat_r; [lra|]. apply Rmult_le_reg_r with (2 - q); [nra|]. rewrite Rinv_l by nra. nra. }
    assert (T2 : INR (Datatypes.S k) * tiny_half <= (1 + ulp_half) * q - 1).
    { assert (B : 1 + INR (Datatypes.S k) * ulp_half <= (1 + ulp_half) * q) by exact (poly (Datatypes.S k) ulp_half (proj1 Hu)). assert (tiny_half <= ulp_half).
      { unfold tiny_half, ulp_half. apply Rinv_le_contravar; [apply pow_lt; lra|]. apply Rle_pow; [lra|lia]. }
      pose proof (pos_INR (Datatypes.S k)). nra. }
    nra.
Qed.
Lemma f32_softmax_order : exp_monotone (m_exp lm) -> forall (x y : tensor f32) b ds, good x -> all_finite x -> tdims x = b :: ds -> ds <> [] -> softmax_fwd x = Ok y ->
  forall r i j, (0 <= r < b)%Z -> in_range ds i -> in_range ds j -> f32_value (el x (r :: i)) <= f32_value (el x (r :: j)) -> f32_value (el y (r :: i)) <= f32_value (el y (r :: j)).
Proof.
  intros HM x y b ds Gx Fx E N EY r i j Hr Hi Hj L. rewrite (softmax_fwd_ok x b ds) in EY by auto. match type of EY with Ok ?u = Ok ?v => assert (Ey : v = u) by congruence end. subst y.
  pose proof (good_dims x Gx) as HD. rewrite E in HD. inversion HD as [|? ? Hb HD']; subst.
  assert (SI : forall i, in_range ds i -> In (el x (r :: i)) (row ds x r)). { intros i' Hi'. unfold row. apply in_map_iff. exists i'. split; auto. apply In_all_indices; auto. }
  rewrite !el_tensor_of by (rewrite E; constructor; auto). cbn [nth]. rewrite !value_V in *. apply (softmax_order lm HL HM); auto. apply (row_good x b ds); auto.
Qed.
Lemma f32_piecewise : forall (a : act f32) (x : tensor f32), (a = ReLU \/ a = Swish \/ a = Mish \/ exists al, a = LeakyReLU al /\ f32_in (-1) 1 al) -> good x -> all_finite x ->
  exists y, act_fwd a x = Ok y /\ good y /\ tdims y = tdims x /\ forall idx, in_range (tdims x) idx -> f32_in (- Rabs (f32_value (el x idx))) (Rabs (f32_value (el x idx))) (el y idx).
Proof. intros a x Ha Gx Fx. apply f32_no_larger; auto; destruct Ha as [->|[->|[->|(al & -> & H)]]]; cbn; auto; discriminate. Qed.
Lemma f32_backward : forall (a : act f32) (x g : tensor f32), (a = ReLU \/ a = Sigmoid \/ a = Tanh \/ exists al, a = LeakyReLU al /\ f32_in (-1) 1 al) ->
  good x -> good g -> tdims g = tdims x -> all_finite x -> all_finite g ->
  exists y, act_bwd a x g = Ok y /\ good y /\ tdims y = tdims x /\ forall idx, in_range (tdims x) idx -> f32_in (- Rabs (f32_value (el g idx))) (Rabs (f32_value (el g idx))) (el y idx).
Proof. intros a x g Ha Gx Gg Eg Fx Fg. apply f32_back; auto; destruct Ha as [->|[->|[->|(al & -> & H)]]]; cbn; auto; discriminate. Qed.
End T.
