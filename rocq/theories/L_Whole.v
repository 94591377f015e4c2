(** * Whole numbers in float32: sums, products and means (C110, C111) *)
From Coq Require Import Reals Lra SpecFloat.
From Flocq Require Import Core BinarySingleNaN Relative.
From Verif Require Import Base Scalar Types Spec SpecNN SpecR SpecF32 SpecWhole M_Shape M_Tensor M_Adv M_Act M_Layers L_Index L_Shape L_Tensor L_Reduce L_Glue L_Nest L_Matmul L_Adv L_RSum L_AdvR L_Act L_ActR L_Layers L_Conv L_Slice L_Float L_FloatAct L_FloatLib L_FloatB L_FloatT.
Local Open Scope R_scope.
Local Notation V := (SF2R radix2).
Local Notation fadd := (SFadd f32_prec f32_emax).
Local Notation fsub := (SFsub f32_prec f32_emax).
Local Notation fmul := (SFmul f32_prec f32_emax).
Local Notation P e := (bpow radix2 e).
Local Notation u := ulp_half.
#[local] Instance Hp32 : FLX.Prec_gt_0 f32_prec := eq_refl _.

Lemma whole_good : forall x z, whole x z <-> good_f x /\ V x = IZR z.
Proof. intros x z. unfold whole, good_f. rewrite value_V, finite_fin. unfold vok. tauto. Qed.
Lemma rnd_whole : forall z, (Z.abs z <= exact_limit)%Z -> rnd (IZR z) = IZR z.
Proof.
  intros z Hz. apply round_generic; [apply valid_rnd_N|]. destruct (Z.eq_dec (Z.abs z) exact_limit) as [E|E].
  - assert (G : generic_format radix2 (SpecFloat.fexp f32_prec f32_emax) (P 24)) by (apply P_format; lia).
    destruct (Z.abs_spec z) as [[_ A]|[_ A]]; rewrite A in E; [subst z; exact G|]. replace z with (- exact_limit)%Z by lia. rewrite opp_IZR. apply generic_format_opp. exact G.
  - apply (generic_format_FLT radix2 (3 - f32_emax - f32_prec) f32_prec). exists (Float radix2 z 0).
    + unfold F2R. cbn [Fnum Fexp]. change (P 0) with 1. ring.
    + cbn [Fnum]. change (radix2 ^ f32_prec)%Z with exact_limit. lia.
    + cbn [Fexp]. unfold f32_emax, f32_prec. lia.
Qed.
Lemma whole_le : forall z, (Z.abs z <= exact_limit)%Z -> Rabs (IZR z) <= P 24.
Proof. intros z Hz. rewrite <- abs_IZR. change (P 24) with (IZR exact_limit). apply IZR_le. auto. Qed.
Lemma whole_of_Z : forall z, (Z.abs z <= exact_limit)%Z -> whole (f32_of_Z z) z.
Proof.
  intros z Hz. apply whole_good. assert (HB : Rabs (rnd (IZR z)) < big) by (apply (fin_by _ 24); [lia|apply whole_le; auto]). destruct (of_Z_in z HB) as [A B]. rewrite rnd_whole in B by auto.
  split; [split; [apply of_Z_vok|auto]|auto].
Qed.
Lemma whole_add : forall x y a b, whole x a -> whole y b -> (Z.abs (a + b) <= exact_limit)%Z -> whole (fadd x y) (a + b).
Proof.
  intros x y a b Hx Hy HL. apply whole_good in Hx, Hy. destruct Hx as [Gx Ex], Hy as [Gy Ey]. apply whole_good.
  destruct (add_to x y 24 ltac:(lia) Gx Gy) as [A B]; [rewrite Ex, Ey, <- plus_IZR; apply whole_le; auto|]. split; [auto|]. rewrite B, Ex, Ey, <- plus_IZR. apply rnd_whole. auto.
Qed.
Lemma whole_sub : forall x y a b, whole x a -> whole y b -> (Z.abs (a - b) <= exact_limit)%Z -> whole (fsub x y) (a - b).
Proof.
  intros x y a b Hx Hy HL. apply whole_good in Hx, Hy. destruct Hx as [Gx Ex], Hy as [Gy Ey]. apply whole_good.
  destruct (sub_to x y 24 ltac:(lia) Gx Gy) as [A B]; [rewrite Ex, Ey, <- minus_IZR; apply whole_le; auto|]. split; [auto|]. rewrite B, Ex, Ey, <- minus_IZR. apply rnd_whole. auto.
Qed.
Lemma whole_mul : forall x y a b, whole x a -> whole y b -> (Z.abs (a * b) <= exact_limit)%Z -> whole (fmul x y) (a * b).
Proof.
  intros x y a b Hx Hy HL. apply whole_good in Hx, Hy. destruct Hx as [Gx Ex], Hy as [Gy Ey]. apply whole_good.
  destruct (mul_to x y 24 ltac:(lia) Gx Gy) as [A B]; [rewrite Ex, Ey, <- mult_IZR; apply whole_le; auto|]. split; [auto|]. rewrite B, Ex, Ey, <- mult_IZR. apply rnd_whole. auto.
Qed.
Lemma zsum_cons : forall {A} (a : A) l f, zsum (a :: l) f = (f a + zsum l f)%Z. Proof. reflexivity. Qed.
Lemma zsum_abs : forall {A} (l : list A) f, (Z.abs (zsum l f) <= zsum l (fun a => Z.abs (f a)))%Z.
Proof. intros A l f. induction l as [|a l IH]; [cbn; lia|]. rewrite !zsum_cons. lia. Qed.
Lemma zsum_nonneg : forall {A} (l : list A) f, (forall a, 0 <= f a)%Z -> (0 <= zsum l f)%Z.
Proof. intros A l f H. induction l as [|a l IH]; [cbn; lia|]. rewrite zsum_cons. specialize (H a). lia. Qed.
Lemma zsum_const : forall {A} (l : list A) c, zsum l (fun _ => c) = (Zlen l * c)%Z.
Proof. intros A l c. induction l as [|a l IH]; [reflexivity|]. rewrite zsum_cons, IH, Zlen_cons. lia. Qed.

Section W.
Variable lm : libm.
Let SF : Scalar f32 := F32Scalar lm.
#[local] Existing Instance SF.
Lemma whole_fold : forall {A} (l : list A) (f : A -> f32) (z : A -> Z) acc a, (forall b, In b l -> whole (f b) (z b)) -> whole acc a -> (Z.abs a + zsum l (fun b => Z.abs (z b)) <= exact_limit)%Z ->
  whole (fold_left s_add (map f l) acc) (a + zsum l z).
Proof.
  intros A l f z. induction l as [|b l IH]; intros acc a Hf Ha HL.
  - cbn. rewrite Z.add_0_r. auto.
  - rewrite zsum_cons in *. cbn [map fold_left]. rewrite Z.add_assoc. pose proof (zsum_nonneg l (fun b => Z.abs (z b)) (fun b => Z.abs_nonneg _)). apply IH.
    + intros c Hc. apply Hf. right. auto.
    + apply whole_add; [auto|apply Hf; left; auto|lia].
    + lia.
Qed.
Lemma whole_fsum : forall {A} (l : list A) (f : A -> f32) (z : A -> Z), (forall b, In b l -> whole (f b) (z b)) -> (zsum l (fun b => Z.abs (z b)) <= exact_limit)%Z -> whole (fsum (map f l)) (zsum l z).
Proof. intros A l f z Hf HL. unfold fsum. change (zsum l z) with (0 + zsum l z)%Z. apply whole_fold; auto. apply whole_of_Z. cbn. discriminate. Qed.
Lemma whole_dot : forall {A} (l : list A) (f g : A -> f32) (z w : A -> Z), (forall b, In b l -> whole (f b) (z b)) -> (forall b, In b l -> whole (g b) (w b)) ->
  (zsum l (fun b => Z.abs (z b * w b)) <= exact_limit)%Z -> whole (fsum (map (fun b => s_mul (f b) (g b)) l)) (zsum l (fun b => z b * w b)%Z).
Proof.
  intros A l f g z w Hf Hg HL. apply whole_fsum; [|auto]. intros b Hb. apply whole_mul; auto. clear Hf Hg. revert HL Hb. induction l as [|c l IH]; intros HL Hb; [contradiction|].
  rewrite zsum_cons in HL. pose proof (zsum_nonneg l (fun b => Z.abs (z b * w b)) (fun b => Z.abs_nonneg _)). destruct Hb as [->|Hb]; [lia|]. apply IH; auto. lia.
Qed.
(** ** Tensors *)
Lemma sum_whole : forall (t : tensor f32) (f : list Z -> Z), good t -> wholes lm t f -> (zsum (all_indices (tdims t)) (fun idx => Z.abs (f idx)) <= exact_limit)%Z ->
  exists y, t_sum t = Ok y /\ tdims y = [1%Z] /\ whole (el y [0%Z]) (zsum (all_indices (tdims t)) f).
Proof.
  intros t f Gt Ht HL. rewrite sum_all by auto. eexists. split; [reflexivity|]. split; [reflexivity|]. rewrite el_tensor_of by auto with idx. apply whole_fsum; auto.
  intros idx HI. apply Ht. apply In_all_indices in HI; auto. apply good_dims; auto.
Qed.
Lemma matmul_whole : forall (a b : tensor f32) (f g : list Z -> Z) m k n, good a -> good b -> tdims a = [m; k] -> tdims b = [k; n] -> (m * n <= INT_MAX)%Z -> wholes lm a f -> wholes lm b g ->
  (forall i j, (0 <= i < m)%Z -> (0 <= j < n)%Z -> (zsum (zrange 0 k) (fun p => Z.abs (f [i; p] * g [p; j])) <= exact_limit)%Z) ->
  exists y, t_matmul a b = Ok y /\ good y /\ tdims y = [m; n] /\ wholes lm y (fun idx => zsum (zrange 0 k) (fun p => f [nth 0 idx 0%Z; p] * g [p; nth 1 idx 0%Z])%Z).
Proof.
  intros a b f g m k n Ga Gb Ea Eb HM Ha Hb HL. destruct (pos2_inv m k) as [Hm Hk]; [rewrite <- Ea; apply good_pos; auto|]. destruct (pos2_inv k n) as [_ Hn]; [rewrite <- Eb; apply good_pos; auto|].
  rewrite (matmul_22 a b m k n) by auto. eexists. split; [reflexivity|]. split; [apply good_tensor_of; [auto with idx|cbn [prod]; lia]|]. split; [reflexivity|].
  intros idx HI. change (in_range [m; n] idx) in HI. destruct (in_range_2 _ _ _ HI) as (i & j & -> & Hi & Hj). rewrite el_tensor_of by auto. cbn [fn2 nth].
  apply (whole_dot (zrange 0 k) (fun p => el a [i; p]) (fun p => el b [p; j]) (fun p => f [i; p]) (fun p => g [p; j])); auto; intros p Hp; apply In_zrange in Hp; [apply Ha; rewrite Ea|apply Hb; rewrite Eb]; auto with idx.
Qed.
Lemma fc_whole : forall (l : fc f32) k o (x : tensor f32) (f g h : list Z -> Z) n, fc_wf l k o -> good x -> tdims x = [n; k] -> (n * o <= INT_MAX)%Z -> wholes lm x f -> wholes lm (fc_w l) g -> wholes lm (fc_b l) h ->
  (forall i j, (0 <= i < n)%Z -> (0 <= j < o)%Z -> (zsum (zrange 0 k) (fun p => Z.abs (f [i; p] * g [p; j])) + Z.abs (h [0; j]%Z) <= exact_limit)%Z) ->
  exists y, snd (fc_forward l x) = Ok y /\ good y /\ tdims y = [n; o] /\ wholes lm y (fun idx => zsum (zrange 0 k) (fun p => f [nth 0 idx 0%Z; p] * g [p; nth 1 idx 0%Z]) + h [0; nth 1 idx 0])%Z.
Proof.
  intros l k o x f g h n HW Gx Ex HM Hx Hg Hh HL. pose proof HW as (W1 & W2 & W3 & W4). destruct (dims2_pos x n k Gx Ex) as (Hn & Hk & _). destruct (dims2_pos _ _ _ W1 W2) as (_ & Ho & _).
  rewrite (fc_forward_2 l k o x n) by auto. cbn [snd]. eexists. split; [reflexivity|]. split; [apply good_tensor_of; [auto with idx|cbn [prod]; lia]|]. split; [reflexivity|].
  intros idx HI. change (in_range [n; o] idx) in HI. destruct (in_range_2 _ _ _ HI) as (i & j & -> & Hi & Hj). rewrite el_tensor_of by auto. cbn [fn2 nth]. unfold affine.
  specialize (HL i j Hi Hj). pose proof (Z.abs_nonneg (h [0; j]%Z)). pose proof (zsum_abs (zrange 0 k) (fun p => f [i; p] * g [p; j])%Z) as HZ. cbv beta in HZ.
  apply whole_add.
  - apply (whole_dot (zrange 0 k) (fun p => el x [i; p]) (fun p => el (fc_w l) [p; j]) (fun p => f [i; p]) (fun p => g [p; j])); try lia; intros p Hp; apply In_zrange in Hp; [apply Hx; rewrite Ex|apply Hg; rewrite W2]; auto with idx.
  - apply Hh. rewrite W4. auto with idx.
  - lia.
Qed.
(** ** Counting past 2^24: the sum stops growing *)
Lemma rnd_past : rnd (IZR (exact_limit + 1)) = IZR exact_limit.
Proof.
  assert (H1 : whole (f32_of_Z exact_limit) exact_limit) by (apply whole_of_Z; unfold exact_limit; cbn; discriminate). assert (H2 : whole (f32_of_Z 1) 1) by (apply whole_of_Z; cbn; discriminate).
  apply whole_good in H1, H2. destruct H1 as [G1 E1], H2 as [G2 E2].
  destruct (add_to (f32_of_Z exact_limit) (f32_of_Z 1) 25 ltac:(lia) G1 G2) as [_ B].
  { rewrite E1, E2, <- plus_IZR, <- abs_IZR. change (P 25) with (IZR (2 ^ 25)). apply IZR_le. vm_compute. discriminate. }
  rewrite E1, E2, <- plus_IZR in B. rewrite <- B. rewrite <- E1. f_equal.
Qed.
Lemma count_step : forall x y n, (0 <= n)%Z -> whole x (Z.min n exact_limit) -> whole y 1 -> whole (fadd x y) (Z.min (n + 1) exact_limit).
Proof.
  intros x y n Hn Hx Hy. destruct (Z.lt_ge_cases n exact_limit) as [L|L].
  - rewrite Z.min_l in Hx by lia. rewrite Z.min_l by lia. apply whole_add; auto. lia.
  - rewrite Z.min_r in Hx by lia. rewrite Z.min_r by lia. apply whole_good in Hx, Hy. destruct Hx as [Gx Ex], Hy as [Gy Ey]. apply whole_good.
    destruct (add_to x y 25 ltac:(lia) Gx Gy) as [A B].
    { rewrite Ex, Ey, <- plus_IZR, <- abs_IZR. change (P 25) with (IZR (2 ^ 25)). apply IZR_le. vm_compute. discriminate. }
    split; [auto|]. rewrite B, Ex, Ey, <- plus_IZR. apply rnd_past.
Qed.
Lemma count_fold : forall {A} (l : list A) (f : A -> f32) acc n, (0 <= n)%Z -> (forall b, In b l -> whole (f b) 1) -> whole acc (Z.min n exact_limit) -> whole (fold_left s_add (map f l) acc) (Z.min (n + Zlen l) exact_limit).
Proof.
  intros A l f. induction l as [|b l IH]; intros acc n Hn Hf Ha.
  - change (Zlen (@nil A)) with 0%Z. rewrite Z.add_0_r. auto.
  - rewrite Zlen_cons. cbn [map fold_left]. replace (n + (Zlen l + 1))%Z with ((n + 1) + Zlen l)%Z by lia. apply IH; [lia|intros c Hc; apply Hf; right; auto|]. apply count_step; auto. apply Hf. left. auto.
Qed.
Lemma count_fsum : forall {A} (l : list A) (f : A -> f32), (forall b, In b l -> whole (f b) 1) -> whole (fsum (map f l)) (Z.min (Zlen l) exact_limit).
Proof. intros A l f Hf. unfold fsum. apply (count_fold l f _ 0); [lia|auto|]. apply whole_of_Z. cbn. discriminate. Qed.
Lemma Zlen_indices : forall ds, Forall (fun d => (0 < d)%Z) ds -> Zlen (all_indices ds) = prod ds.
Proof. intros ds HF. pose proof (prod_pos _ HF). apply Zlen_ztab. lia. Qed.
Lemma sum_ones : forall (t : tensor f32), good t -> wholes lm t (fun _ => 1%Z) ->
  exists y, t_sum t = Ok y /\ tdims y = [1%Z] /\ whole (el y [0%Z]) (Z.min (prod (tdims t)) exact_limit).
Proof.
  intros t Gt Ht. rewrite sum_all by auto. eexists. split; [reflexivity|]. split; [reflexivity|]. rewrite el_tensor_of by auto with idx. rewrite <- Zlen_indices by (apply good_dims; auto). apply count_fsum.
  intros idx HI. apply Ht. apply In_all_indices in HI; auto. apply good_dims; auto.
Qed.
(** ** Means *)
Lemma rnd_rel : forall r, P (-126) <= Rabs r -> Rabs (rnd r - r) <= u * Rabs r.
Proof.
  intros r Hr. pose proof (relative_error_N_FLT radix2 (3 - f32_emax - f32_prec) f32_prec eq_refl (fun n => negb (Z.even n)) r) as E. rewrite <- half_ulp. apply E. exact Hr.
Qed.
Lemma recip_err : forall n, (1 <= n <= INT_MAX)%Z -> good_f (f32_div (f32_of_Z 1) (f32_of_Z n)) /\ 0 <= V (f32_div (f32_of_Z 1) (f32_of_Z n)) /\
  Rabs (V (f32_div (f32_of_Z 1) (f32_of_Z n)) - / IZR n) <= growth 3 * / IZR n.
Proof.
  intros n Hn. assert (H1 : whole (f32_of_Z 1) 1) by (apply whole_of_Z; cbn; discriminate). apply whole_good in H1. destruct H1 as [G1 E1].
  assert (HN : 1 <= IZR n) by (apply IZR_le; lia). assert (HM : IZR n <= P 31) by (change (P 31) with (IZR (2 ^ 31)); apply IZR_le; unfold INT_MAX in Hn; lia).
  assert (HB : Rabs (rnd (IZR n)) < big) by (apply (fin_by _ 31); [lia|rewrite Rabs_pos_eq by lra; auto]).
  destruct (of_Z_ge1 n Hn) as [Gn Ln]. destruct (of_Z_in n HB) as [_ En].
  pose proof (rnd_rel (IZR n)) as R1. rewrite Rabs_pos_eq in R1 by lra. assert (P (-126) <= 1) by (change 1 with (P 0); apply P_le; lia). specialize (R1 ltac:(lra)). set (m := rnd (IZR n)) in *.
  pose proof ulp_pos as Hu. assert (Hu4 : u <= / 4) by (unfold ulp_half; simpl pow; lra). apply Rabs_le_inv in R1. rewrite En in Ln.
  assert (Mu : m <= P 31) by (unfold m; apply rnd_P_le; [lia|auto]).
  assert (I1 : / m <= 1) by (rewrite <- Rinv_1; apply Rinv_le_contravar; lra). assert (I0 : P (-31) <= / m) by (change (-31)%Z with (- (31))%Z; rewrite bpow_opp; apply Rinv_le_contravar; lra).
  assert (Ip : 0 < / m) by (apply Rinv_0_lt_compat; lra).
  destruct (div_to (f32_of_Z 1) (f32_of_Z n) 0 ltac:(lia) G1 Gn) as [A B]; [rewrite En; lra|rewrite E1, En; unfold Rdiv; rewrite Rmult_1_l, Rabs_pos_eq by lra; change (P 0) with 1; lra|].
  rewrite E1, En in B. unfold Rdiv in B. rewrite Rmult_1_l in B. split; [auto|]. rewrite B.
  pose proof (rnd_rel (/ m)) as R2. rewrite Rabs_pos_eq in R2 by lra. assert (P (-126) <= P (-31)) by (apply P_le; lia). specialize (R2 ltac:(lra)). apply Rabs_le_inv in R2. split; [nra|].
  assert (Iq : 0 < / IZR n) by (apply Rinv_0_lt_compat; lra).
  assert (L1 : / m <= (1 + u) ^ 2 * / IZR n).
  { apply Rmult_le_reg_r with m; [lra|]. rewrite Rinv_l by lra. apply Rle_trans with ((1 + u) ^ 2 * / IZR n * ((1 - u) * IZR n)).
    - replace ((1 + u) ^ 2 * / IZR n * ((1 - u) * IZR n)) with (1 + u * (1 - u - u * u)) by (field; lra). assert (0 <= 1 - u - u * u) by nra. nra.
    - apply Rmult_le_compat_l; [|lra]. apply Rmult_le_pos; [nra|lra]. }
  assert (L2 : (1 - u) * / IZR n <= / m).
  { apply Rmult_le_reg_r with m; [lra|]. rewrite Rinv_l by lra. apply Rle_trans with ((1 - u) * / IZR n * ((1 + u) * IZR n)).
    - apply Rmult_le_compat_l; [|lra]. apply Rmult_le_pos; lra.
    - replace ((1 - u) * / IZR n * ((1 + u) * IZR n)) with ((1 - u) * (1 + u)) by (field; lra). nra. }
  set (q := / IZR n) in *. change (growth 3) with ((1 + u) ^ 3 - 1). apply Rabs_le. split.
  - assert ((1 - u) * ((1 - u) * q) <= rnd (/ m)). { apply Rle_trans with ((1 - u) * / m); [apply Rmult_le_compat_l; lra|lra]. } nra.
  - assert (rnd (/ m) <= (1 + u) * ((1 + u) ^ 2 * q)). { apply Rle_trans with ((1 + u) * / m); [lra|apply Rmult_le_compat_l; lra]. } replace ((1 + u) ^ 3) with ((1 + u) * (1 + u) ^ 2) by ring. lra.
Qed.
Lemma growth_add : forall a b, (0 <= a)%Z -> (0 <= b)%Z -> 1 + growth (a + b) = (1 + growth a) * (1 + growth b).
Proof. intros a b Ha Hb. unfold growth. rewrite Z2Nat.inj_add, pow_add by auto. ring. Qed.
Lemma mean_err : forall (t y : tensor f32), good t -> all_valid t -> t_mean_all t = Ok y -> f32_finite (el y [0%Z]) ->
  Rabs (f32_value (el y [0%Z]) - rsum (all_indices (tdims t)) (fun idx => f32_value (el t idx)) / IZR (prod (tdims t))) <=
    growth (prod (tdims t) + 3) * (rsum (all_indices (tdims t)) (fun idx => Rabs (f32_value (el t idx))) / IZR (prod (tdims t))) + tiny_half.
Proof.
  intros t y Hg HV E HF. rewrite mean_all_ok in E by auto. match type of E with Ok ?a = Ok ?b => assert (Ey : b = a) by congruence end. subst y. rewrite el_tensor_of in * by auto with idx.
  pose proof (good_dims t Hg) as HD. pose proof (prod_pos _ HD) as HP. pose proof (good_max t Hg) as HM. set (l := all_indices (tdims t)) in *. set (n := prod (tdims t)) in *.
  set (s := fsum (map (el t) l)) in *. assert (EN : (1 <= n <= INT_MAX)%Z) by lia.
  change (s_div one (s_z n)) with (f32_div (f32_of_Z 1) (f32_of_Z n)) in *. change (s_mul s (f32_div (f32_of_Z 1) (f32_of_Z n))) with (fmul s (f32_div (f32_of_Z 1) (f32_of_Z n))) in *.
  destruct (recip_err n EN) as ((Rv & Rf) & R0 & RE). set (r := f32_div (f32_of_Z 1) (f32_of_Z n)) in *.
  assert (Hl : forall idx, In idx l -> vok (el t idx)) by (intros idx HI; apply (el_vok lm); auto; apply In_all_indices in HI; auto).
  assert (Vs : vok s). { unfold s. apply (fsum_vok lm). apply Forall_map, Forall_forall. auto. }
  apply finite_fin in HF. destruct (mul_fin s r Vs Rv HF) as (Fs & _ & EM).
  pose proof (near_of_sum lm l (el t) (n - 1) Hl Fs) as NS. fold s in NS. assert (HL : Zlen l = n) by (apply Zlen_ztab; lia). unfold Zlen in HL. specialize (NS ltac:(lia)). unfold near_sum in NS.
  rewrite Rmult_0_r, Rmult_0_l, Rplus_0_r in NS. rewrite !value_V. rewrite value_V in NS. rewrite EM.
  set (X := rsum l (fun idx => f32_value (el t idx))) in *. set (A := rsum l (fun idx => Rabs (f32_value (el t idx)))) in *.
  assert (HX : Rabs X <= A) by (apply rsum_abs). assert (HA : 0 <= A) by (apply Rle_trans with (Rabs X); [apply Rabs_pos|auto]).
  assert (HN : 1 <= IZR n) by (apply IZR_le; lia). assert (HQ : 0 < / IZR n) by (apply Rinv_0_lt_compat; lra). set (q := / IZR n) in *. unfold Rdiv. fold q.
  pose proof (growth_nonneg 3) as G3. pose proof (growth_nonneg (n - 1)) as G1. set (g3 := growth 3) in *. set (g1 := growth (n - 1)) in *.
  assert (RU : V r <= (1 + g3) * q) by (apply Rabs_le_inv in RE; lra).
  assert (D1 : Rabs (V s * V r - X * q) <= ((1 + g1) * (1 + g3) - 1) * (A * q)).
  { replace (V s * V r - X * q) with ((V s - X) * V r + X * (V r - q)) by ring. eapply Rle_trans; [apply Rabs_triang|]. rewrite !Rabs_mult, (Rabs_pos_eq (V r)) by auto.
    apply Rle_trans with (g1 * A * ((1 + g3) * q) + A * (g3 * q)).
    - apply Rplus_le_compat; apply Rmult_le_compat; auto using Rabs_pos.
    - apply Req_le. ring. }
  assert (D2 : Rabs (V s * V r) <= (1 + g1) * (1 + g3) * (A * q)).
  { replace (V s * V r) with ((V s * V r - X * q) + X * q) by ring. eapply Rle_trans; [apply Rabs_triang|]. rewrite (Rabs_mult X), (Rabs_pos_eq q) by lra.
    assert (Rabs X * q <= A * q) by (apply Rmult_le_compat_r; lra). lra. }
  replace (growth (n + 3)) with ((1 + g1) * (1 + g3) * (1 + u) - 1).
  2: { unfold g1, g3. rewrite <- growth_add by lia. replace (n + 3)%Z with ((n - 1 + 3) + 1)%Z by lia. pose proof (growth_add (n - 1 + 3) 1 ltac:(lia) ltac:(lia)) as EG. change (growth 1) with ((1 + u) ^ 1 - 1) in EG. rewrite pow_1 in EG.
       replace (1 + (1 + u - 1)) with (1 + u) in EG by ring. lra. }
  replace (rnd (V s * V r) - X * q) with ((rnd (V s * V r) - V s * V r) + (V s * V r - X * q)) by ring. eapply Rle_trans; [apply Rabs_triang|].
  pose proof (rnd_err (V s * V r)) as RR. pose proof ulp_pos as Hu. assert (D3 : u * Rabs (V s * V r) <= u * ((1 + g1) * (1 + g3) * (A * q))) by (apply Rmult_le_compat_l; lra).
  apply Rle_trans with (u * ((1 + g1) * (1 + g3) * (A * q)) + tiny_half + ((1 + g1) * (1 + g3) - 1) * (A * q)); [lra|]. apply Req_le. ring.
Qed.
Lemma pow_IZR : forall k, (0 <= k)%Z -> IZR (2 ^ k) = P k.
Proof. intros k Hk. apply (IZR_Zpower radix2). auto. Qed.
Lemma recip_pow : forall k, (0 <= k <= 30)%Z -> good_f (f32_div (f32_of_Z 1) (f32_of_Z (2 ^ k))) /\ V (f32_div (f32_of_Z 1) (f32_of_Z (2 ^ k))) = P (- k).
Proof.
  intros k Hk. assert (H1 : whole (f32_of_Z 1) 1) by (apply whole_of_Z; cbn; discriminate). apply whole_good in H1. destruct H1 as [G1 E1].
  assert (RP : rnd (P k) = P k) by (apply round_generic; [apply valid_rnd_N|apply P_format; lia]). pose proof (P_pos k) as Hp.
  assert (HB : Rabs (rnd (IZR (2 ^ k))) < big) by (apply (fin_by _ 31); [lia|rewrite pow_IZR, Rabs_pos_eq by (lia || lra); apply P_le; lia]).
  destruct (of_Z_in (2 ^ k) HB) as [Fn En]. rewrite pow_IZR, RP in En by lia. assert (Gn : good_f (f32_of_Z (2 ^ k))) by (split; [apply of_Z_vok|auto]).
  assert (EQ : V (f32_of_Z 1) / V (f32_of_Z (2 ^ k)) = P (- k)) by (rewrite E1, En, bpow_opp; unfold Rdiv; ring).
  destruct (div_to (f32_of_Z 1) (f32_of_Z (2 ^ k)) 0 ltac:(lia) G1 Gn) as [A B]; [rewrite En; lra|rewrite EQ, Rabs_pos_eq by apply bpow_ge_0; apply P_le; lia|].
  split; [auto|]. rewrite B, EQ. apply round_generic; [apply valid_rnd_N|apply P_format; lia].
Qed.
Lemma mean_pow : forall (t : tensor f32) z k, good t -> wholes lm t (fun _ => z) -> (0 <= k)%Z -> prod (tdims t) = (2 ^ k)%Z -> (Z.abs z * 2 ^ k <= exact_limit)%Z ->
  exists y, t_mean_all t = Ok y /\ tdims y = [1%Z] /\ whole (el y [0%Z]) z.
Proof.
  intros t z k Gt Ht Hk HP HL. rewrite mean_all_ok by auto. eexists. split; [reflexivity|]. split; [reflexivity|]. rewrite el_tensor_of by auto with idx.
  pose proof (Zlen_indices _ (good_dims t Gt)) as HZ. assert (H2 : (0 < 2 ^ k)%Z) by (apply Z.pow_pos_nonneg; lia).
  assert (K30 : (k <= 30)%Z). { destruct (Z.le_gt_cases k 30); auto. assert (2 ^ 31 <= 2 ^ k)%Z by (apply Z.pow_le_mono_r; lia). pose proof (good_max t Gt) as HM. unfold INT_MAX in HM. lia. }
  assert (HS : whole (fsum (map (el t) (all_indices (tdims t)))) (2 ^ k * z)).
  { rewrite <- HP, <- HZ. rewrite <- zsum_const. apply whole_fsum.
    - intros idx HI. apply Ht. apply In_all_indices in HI; auto. apply good_dims; auto.
    - rewrite zsum_const, HZ, HP. lia. }
  apply whole_good in HS. destruct HS as [Gs Es]. rewrite HP. change (s_div one (s_z (2 ^ k)%Z)) with (f32_div (f32_of_Z 1) (f32_of_Z (2 ^ k))). destruct (recip_pow k ltac:(lia)) as [Gr Er].
  set (s := fsum _) in *. set (r := f32_div _ _) in *. change (s_mul s r) with (fmul s r).
  assert (EQ : V s * V r = IZR z). { rewrite Es, Er, mult_IZR, pow_IZR, bpow_opp by lia. pose proof (P_pos k). field. lra. }
  assert (HZL : (Z.abs z <= exact_limit)%Z) by nia.
  apply whole_good. destruct (mul_to s r 24 ltac:(lia) Gs Gr) as [A B]; [rewrite EQ; apply whole_le; auto|]. split; [auto|]. rewrite B, EQ. apply rnd_whole. auto.
Qed.
Lemma mean_many : forall (t : tensor f32) k, good t -> wholes lm t (fun _ => 1%Z) -> (24 <= k <= 30)%Z -> prod (tdims t) = (2 ^ k)%Z ->
  exists y, t_mean_all t = Ok y /\ tdims y = [1%Z] /\ f32_finite (el y [0%Z]) /\ f32_value (el y [0%Z]) = / 2 ^ Z.to_nat (k - 24).
Proof.
  intros t k Gt Ht Hk HP. rewrite mean_all_ok by auto. eexists. split; [reflexivity|]. split; [reflexivity|]. rewrite el_tensor_of by auto with idx.
  pose proof (Zlen_indices _ (good_dims t Gt)) as HZ.
  assert (HS : whole (fsum (map (el t) (all_indices (tdims t)))) exact_limit).
  { replace exact_limit with (Z.min (Zlen (all_indices (tdims t))) exact_limit) by (apply Z.min_r; rewrite HZ, HP; apply Z.pow_le_mono_r; lia). apply count_fsum.
    intros idx HI. apply Ht. apply In_all_indices in HI; auto. apply good_dims; auto. }
  apply whole_good in HS. destruct HS as [Gs Es]. rewrite HP. change (s_div one (s_z (2 ^ k)%Z)) with (f32_div (f32_of_Z 1) (f32_of_Z (2 ^ k))). destruct (recip_pow k ltac:(lia)) as [Gr Er].
  set (s := fsum _) in *. set (r := f32_div _ _) in *. change (s_mul s r) with (fmul s r).
  assert (EQ : V s * V r = P (24 - k)). { rewrite Es, Er. unfold exact_limit. rewrite pow_IZR by lia. rewrite <- bpow_plus. reflexivity. }
  destruct (mul_to s r 0 ltac:(lia) Gs Gr) as [A B]; [rewrite EQ, Rabs_pos_eq by apply bpow_ge_0; apply P_le; lia|]. rewrite EQ in B.
  split; [apply finite_fin, A|]. rewrite value_V, B. unfold rnd. rewrite round_generic by (apply valid_rnd_N || (apply P_format; lia)).
  replace (24 - k)%Z with (- (k - 24))%Z by lia. rewrite bpow_opp. f_equal. rewrite <- (Z2Nat.id (k - 24)) at 1 by lia. rewrite bpow_powerRZ, <- pow_powerRZ. reflexivity.
Qed.
Lemma binop_whole : forall (op : f32 -> f32 -> f32) (zop : Z -> Z -> Z), (forall x y a b, whole x a -> whole y b -> (Z.abs (zop a b) <= exact_limit)%Z -> whole (op x y) (zop a b)) ->
  forall (a b : tensor f32) (f g : list Z -> Z), good a -> good b -> tdims a = tdims b -> wholes lm a f -> wholes lm b g -> (forall idx, in_range (tdims a) idx -> (Z.abs (zop (f idx) (g idx)) <= exact_limit)%Z) ->
  exists y, t_binop op a b = Ok y /\ good y /\ tdims y = tdims a /\ wholes lm y (fun idx => zop (f idx) (g idx)).
Proof.
  intros op zop Hop a b f g Ga Gb E Ha Hb HL. rewrite binop_same by auto. eexists. split; [reflexivity|]. split; [apply good_tensor_of; [apply good_pos; auto|apply good_max; auto]|]. split; [reflexivity|].
  intros idx HI. change (in_range (tdims a) idx) in HI. rewrite el_tensor_of by auto. apply Hop; [apply Ha; auto|apply Hb; rewrite <- E; auto|apply HL; auto].
Qed.
Lemma elementwise_whole : forall (a b : tensor f32) (f g : list Z -> Z), good a -> good b -> tdims a = tdims b -> wholes lm a f -> wholes lm b g ->
  ((forall idx, in_range (tdims a) idx -> (Z.abs (f idx + g idx) <= exact_limit)%Z) -> exists y, t_add a b = Ok y /\ good y /\ tdims y = tdims a /\ wholes lm y (fun idx => f idx + g idx)%Z) /\
  ((forall idx, in_range (tdims a) idx -> (Z.abs (f idx - g idx) <= exact_limit)%Z) -> exists y, t_sub a b = Ok y /\ good y /\ tdims y = tdims a /\ wholes lm y (fun idx => f idx - g idx)%Z) /\
  ((forall idx, in_range (tdims a) idx -> (Z.abs (f idx * g idx) <= exact_limit)%Z) -> exists y, t_mul a b = Ok y /\ good y /\ tdims y = tdims a /\ wholes lm y (fun idx => f idx * g idx)%Z).
Proof.
  intros a b f g Ga Gb E Ha Hb. split; [|split]; intros HL.
  - apply (binop_whole _ Z.add whole_add a b f g); auto.
  - apply (binop_whole _ Z.sub whole_sub a b f g); auto.
  - apply (binop_whole _ Z.mul whole_mul a b f g); auto.
Qed.
Lemma sum_axis_whole : forall (t : tensor f32) axis (f : list Z -> Z), good t -> (1 < length (tdims t))%nat -> (0 <= axis < Zlen (tdims t))%Z -> wholes lm t f ->
  (forall ridx, in_range (remove_at (Z.to_nat axis) (tdims t)) ridx -> (zsum (zrange 0 (nth (Z.to_nat axis) (tdims t) 0%Z)) (fun a => Z.abs (f (insert_at (Z.to_nat axis) a ridx))) <= exact_limit)%Z) ->
  exists y, t_sum_axis t axis = Ok y /\ tdims y = remove_at (Z.to_nat axis) (tdims t) /\ wholes lm y (fun ridx => zsum (zrange 0 (nth (Z.to_nat axis) (tdims t) 0%Z)) (fun a => f (insert_at (Z.to_nat axis) a ridx))).
Proof.
  intros t axis f Hg HL HA Ht HS. rewrite t_sum_axis_ok by auto. eexists. split; [reflexivity|]. split; [reflexivity|]. intros ridx HI. cbn [tdims tshape tensor_of] in HI. rewrite el_tensor_of by auto.
  apply (whole_fsum (zrange 0 (nth (Z.to_nat axis) (tdims t) 0%Z)) (fun a => el t (insert_at (Z.to_nat axis) a ridx)) (fun a => f (insert_at (Z.to_nat axis) a ridx))); [|auto].
  intros a Ha. apply In_zrange in Ha. apply Ht. apply in_range_insert; auto. unfold Zlen in HA. lia.
Qed.
(** ** 41 ones *)
Definition ones41 : tensor f32 := tensor_of [41%Z] (fun _ => f32_of_Z 1).
Lemma ones41_good : good ones41. Proof. apply good_tensor_of; [auto with idx|vm_compute; discriminate]. Qed.
Lemma ones41_ones : wholes lm ones41 (fun _ => 1%Z).
Proof. intros idx HI. change (in_range [41%Z] idx) in HI. unfold ones41. rewrite el_tensor_of by auto. apply whole_of_Z. cbn. discriminate. Qed.
Lemma ones41_mean : exists y v, t_mean_all ones41 = Ok y /\ f32_finite (el y [0%Z]) /\ f32_value (el y [0%Z]) < 1 /\
  t_variance_all ones41 y = Ok v /\ f32_finite (el v [0%Z]) /\ 0 < f32_value (el v [0%Z]).
Proof.
  exists (tensor_of [1%Z] (fun _ => S754_finite false 16777215 (-24))), (tensor_of [1%Z] (fun _ => S754_finite false 16777215 (-72))).
  split; [vm_compute; reflexivity|]. split; [exact I|]. split; [|split; [vm_compute; reflexivity|]].
  - rewrite el_tensor_of by auto with idx. unfold f32_value. rewrite Rmult_1_l. change (powerRZ 2 (-24)) with (/ 2 ^ 24). simpl pow. lra.
  - split; [exact I|]. rewrite el_tensor_of by auto with idx. unfold f32_value. rewrite Rmult_1_l. apply Rmult_lt_0_compat; [apply IZR_lt; lia|apply powerRZ_lt; lra].
Qed.
End W.
Lemma ones_refuted : forall lm, exists t y v : tensor f32, good t /\ wholes lm t (fun _ => 1%Z) /\ t_mean_all (S := F32Scalar lm) t = Ok y /\
  f32_finite (@el _ (F32Scalar lm) y [0%Z]) /\ f32_value (@el _ (F32Scalar lm) y [0%Z]) < 1 /\
  t_variance_all (S := F32Scalar lm) t y = Ok v /\ f32_finite (@el _ (F32Scalar lm) v [0%Z]) /\ 0 < f32_value (@el _ (F32Scalar lm) v [0%Z]).
Proof. intros lm. destruct (ones41_mean lm) as (y & v & H). exists ones41, y, v. split; [apply ones41_good|]. split; [apply ones41_ones|exact H]. Qed.
Lemma limit_tight : forall x, ~ whole x (exact_limit + 1).
Proof.
  intros x H. apply whole_good in H. destruct H as [[A _] E]. pose proof (V_format x A) as F. rewrite E in F.
  assert (R : rnd (IZR (exact_limit + 1)) = IZR (exact_limit + 1)) by (apply round_generic; [apply valid_rnd_N|exact F]). rewrite rnd_past in R. apply eq_IZR in R. lia.
Qed.
