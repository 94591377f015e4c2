(** * Properties C92 to C95: float32 accuracy and range *)
From Coq Require Import Reals Lra SpecFloat.
From Verif Require Import Base Scalar Types Spec SpecNN SpecR SpecF32 M_Shape M_Tensor M_Adv M_Act M_Layers L_Index L_Tensor L_Layers L_Conv L_FloatLib L_FloatT L_FloatFma.
Local Open Scope R_scope.
Local Notation F32 lm := (F32Scalar lm).

(** ** C92.  [near_sum n k v terms f]: the computed [v] is within [growth n] times the sum of |f| of the exact sum of [f], plus the
    rounding of [k] products that may be too small for full precision; [growth n] = (1 + 2^-24)^n - 1 is about n * 2^-24. *)
Theorem C92_growth : forall n, (0 <= n)%Z -> IZR n * ulp_half <= / 2 -> growth n <= 2 * IZR n * ulp_half.
Proof. exact growth_bound. Qed.
Theorem C92_sum : forall lm (t y : tensor f32), good t -> all_valid t -> t_sum (S := F32 lm) t = Ok y -> f32_finite (@el _ (F32 lm) y [0%Z]) ->
  near_sum (prod (tdims t) - 1) 0 (@el _ (F32 lm) y [0%Z]) (all_indices (tdims t)) (fun idx => f32_value (@el _ (F32 lm) t idx)).
Proof. exact f32_sum. Qed.
Theorem C92_sum_axis : forall lm (t y : tensor f32) axis ridx, good t -> all_valid t -> (1 < length (tdims t))%nat -> (0 <= axis < Zlen (tdims t))%Z ->
  t_sum_axis (S := F32 lm) t axis = Ok y -> in_range (remove_at (Z.to_nat axis) (tdims t)) ridx -> f32_finite (@el _ (F32 lm) y ridx) ->
  near_sum (nth (Z.to_nat axis) (tdims t) 0%Z - 1) 0 (@el _ (F32 lm) y ridx) (zrange 0 (nth (Z.to_nat axis) (tdims t) 0%Z))
    (fun a => f32_value (@el _ (F32 lm) t (insert_at (Z.to_nat axis) a ridx))).
Proof. exact f32_sum_axis. Qed.
Theorem C92_matmul : forall lm (a b y : tensor f32) m k n, good a -> good b -> all_valid a -> all_valid b -> tdims a = [m; k] -> tdims b = [k; n] -> (m * n <= INT_MAX)%Z ->
  t_matmul (S := F32 lm) a b = Ok y -> forall i j, (0 <= i < m)%Z -> (0 <= j < n)%Z -> f32_finite (@el _ (F32 lm) y [i; j]) ->
  near_sum k k (@el _ (F32 lm) y [i; j]) (zrange 0 k) (fun p => f32_value (@el _ (F32 lm) a [i; p]) * f32_value (@el _ (F32 lm) b [p; j])).
Proof. exact f32_matmul. Qed.
(** The terms are the products and the bias ([None]). *)
Theorem C92_fully_connected : forall lm (l : fc f32) k o (x y : tensor f32) n, fc_wf l k o -> all_valid (fc_w l) -> all_valid (fc_b l) -> good x -> all_valid x -> tdims x = [n; k] ->
  (n * o <= INT_MAX)%Z -> snd (fc_forward (S := F32 lm) l x) = Ok y -> forall i j, (0 <= i < n)%Z -> (0 <= j < o)%Z -> f32_finite (@el _ (F32 lm) y [i; j]) ->
  near_sum (k + 1) k (@el _ (F32 lm) y [i; j]) (None :: map Some (zrange 0 k))
    (fun t => match t with Some p => f32_value (@el _ (F32 lm) x [i; p]) * f32_value (@el _ (F32 lm) (fc_w l) [p; j]) | None => f32_value (@el _ (F32 lm) (fc_b l) [0%Z; j]) end).
Proof. exact f32_fc. Qed.
Theorem C92_convolution : forall lm (l : conv f32) (x y : tensor f32) n h w, conv_wf l -> all_valid (cv_w l) -> all_valid (cv_b l) -> good x -> all_valid x -> tdims x = [n; 1; h; w]%Z ->
  cv_ic l = 1%Z -> (cv_kh l <= h)%Z -> (cv_kw l <= w)%Z -> (n * (cv_oc l * ((h - cv_kh l + 1) * (w - cv_kw l + 1))) <= INT_MAX)%Z ->
  snd (conv_forward (S := F32 lm) l x) = Ok y -> forall i o r c, (0 <= i < n)%Z -> (0 <= o < cv_oc l)%Z -> (0 <= r <= h - cv_kh l)%Z -> (0 <= c <= w - cv_kw l)%Z ->
  f32_finite (@el _ (F32 lm) y [i; o; r; c]) ->
  near_sum (cv_kh l * cv_kw l + 1) (cv_kh l * cv_kw l) (@el _ (F32 lm) y [i; o; r; c]) (None :: map Some (all_indices [cv_kh l; cv_kw l]))
    (fun t => match t with Some pq => f32_value (@el _ (F32 lm) x [i; 0; r + nth 0 pq 0; c + nth 1 pq 0]%Z) * f32_value (@el _ (F32 lm) (cv_w l) [o; 0; nth 0 pq 0; nth 1 pq 0]%Z)
              | None => f32_value (@el _ (F32 lm) (cv_b l) [o; 0]%Z) end).
Proof. exact f32_conv. Qed.
(** The same bound holds if the compiler fuses multiplications with additions in any of the steps; the model's own order (no fusing) is one case. *)
Theorem C92_fused : forall l r, accumulate l r -> Forall (fun p => f32_valid (fst p) /\ f32_valid (snd p)) l -> f32_finite r ->
  near_sum (Zlen l) (Zlen l) r l (fun p => f32_value (fst p) * f32_value (snd p)).
Proof. exact f32_fused. Qed.
Theorem C92_unfused_is_a_case : forall lm (l : list (f32 * f32)), accumulate l (@fsum f32 (F32 lm) (map (fun p => SFmul f32_prec f32_emax (fst p) (snd p)) l)).
Proof. exact separate_sum. Qed.
Example C92_case_fused : exists r, accumulate [(f32_of_Z 3, f32_of_Z 5)] r /\ f32_finite r.
Proof.
  destruct (fused_exists (f32_of_Z 0) (f32_of_Z 3) (f32_of_Z 5)) as (r & H & F); try reflexivity; try exact I.
  - change (f32_of_Z 3) with (S754_finite false 12582912 (-22)). change (f32_of_Z 5) with (S754_finite false 10485760 (-21)). change (f32_of_Z 0) with (S754_zero false). unfold f32_value. 
    replace (0 + _) with 15 by (simpl; lra). rewrite Rabs_pos_eq by lra. simpl. lra.
  - exists r. split; [|exact F]. apply (acc_fused [] (f32_of_Z 0)); [apply acc_start|exact H].
Qed.
Definition fz (ds : list Z) : tensor f32 := tensor_of ds (fun idx => f32_of_Z (ravel ds idx + 1)).
Lemma fz_good : forall ds, pos_dims ds -> (prod ds <= INT_MAX)%Z -> good (fz ds).
Proof. intros. apply good_tensor_of; auto. Qed.
Definition plain_lm : libm := Build_libm (fun x => x) (fun x => x) (fun x => x) pow64.
Example C92_case : good (fz [2; 3]%Z) /\ all_valid (fz [2; 3]%Z) /\ all_valid (fz [3; 2]%Z) /\ f32_finite (f32_of_Z 21) /\
  t_sum (S := F32 plain_lm) (fz [2; 3]%Z) = Ok (mkTensor (shape_of [1%Z]) [f32_of_Z 21]) /\
  t_sum_axis (S := F32 plain_lm) (fz [2; 3]%Z) 0 = Ok (mkTensor (shape_of [3%Z]) (map f32_of_Z [5; 7; 9]%Z)) /\
  t_matmul (S := F32 plain_lm) (fz [2; 3]%Z) (fz [3; 2]%Z) = Ok (mkTensor (shape_of [2; 2]%Z) (map f32_of_Z [22; 28; 49; 64]%Z)) /\
  IZR 1024 * ulp_half <= / 2.
Proof.
  split; [apply fz_good; [auto with idx|vm_compute; discriminate]|]. split; [unfold all_valid; vm_compute; repeat constructor|]. split; [unfold all_valid; vm_compute; repeat constructor|]. split; [exact I|].
  split; [vm_compute; reflexivity|]. split; [vm_compute; reflexivity|]. split; [vm_compute; reflexivity|]. unfold ulp_half. simpl. lra.
Qed.
Example C92_case_fc : fc_wf (mkFC (fz [3; 2]%Z) (fz [1; 2]%Z) None None None) 3 2 /\
  snd (fc_forward (S := F32 plain_lm) (mkFC (fz [3; 2]%Z) (fz [1; 2]%Z) None None None) (fz [2; 3]%Z)) = Ok (mkTensor (shape_of [2; 2]%Z) (map f32_of_Z [23; 30; 50; 66]%Z)).
Proof. split; [|vm_compute; reflexivity]. split; [apply fz_good; [auto with idx|vm_compute; discriminate]|]. split; [reflexivity|]. split; [apply fz_good; [auto with idx|vm_compute; discriminate]|reflexivity]. Qed.
Print Assumptions C92_growth.
Print Assumptions C92_sum.
Print Assumptions C92_sum_axis.
Print Assumptions C92_matmul.
Print Assumptions C92_fully_connected.
Print Assumptions C92_convolution.
Print Assumptions C92_fused.
Print Assumptions C92_unfused_is_a_case.

(** ** C93.  For every math library that meets [libm_like] (SpecF32.v); [cr_libm], whose functions are exp, log and tanh rounded to nearest, does. *)
Theorem C93_sigmoid : forall lm, libm_like lm -> forall x : tensor f32, good x -> all_finite x ->
  exists y, act_fwd (S := F32 lm) Sigmoid x = Ok y /\ good y /\ tdims y = tdims x /\ forall idx, in_range (tdims x) idx -> f32_in 0 1 (@el _ (F32 lm) y idx).
Proof. exact f32_sigmoid. Qed.
Theorem C93_no_larger_than_input : forall lm, libm_like lm -> forall (a : act f32) (x : tensor f32),
  (a = ReLU \/ a = Swish \/ a = Mish \/ exists alpha, a = LeakyReLU alpha /\ f32_in (-1) 1 alpha) -> good x -> all_finite x ->
  exists y, act_fwd (S := F32 lm) a x = Ok y /\ good y /\ tdims y = tdims x /\
    forall idx, in_range (tdims x) idx -> f32_in (- Rabs (f32_value (@el _ (F32 lm) x idx))) (Rabs (f32_value (@el _ (F32 lm) x idx))) (@el _ (F32 lm) y idx).
Proof. exact f32_piecewise. Qed.
Theorem C93_backward : forall lm, libm_like lm -> forall (a : act f32) (x g : tensor f32),
  (a = ReLU \/ a = Sigmoid \/ a = Tanh \/ exists alpha, a = LeakyReLU alpha /\ f32_in (-1) 1 alpha) -> good x -> good g -> tdims g = tdims x -> all_finite x -> all_finite g ->
  exists y, act_bwd (S := F32 lm) a x g = Ok y /\ good y /\ tdims y = tdims x /\
    forall idx, in_range (tdims x) idx -> f32_in (- Rabs (f32_value (@el _ (F32 lm) g idx))) (Rabs (f32_value (@el _ (F32 lm) g idx))) (@el _ (F32 lm) y idx).
Proof. exact f32_backward. Qed.
Theorem C93_backward_never_nan : forall lm, libm_like lm -> forall (a : act f32) (x g : tensor f32), (a = Swish \/ a = Mish) ->
  good x -> good g -> tdims g = tdims x -> all_finite x -> all_finite g ->
  exists y, act_bwd (S := F32 lm) a x g = Ok y /\ good y /\ tdims y = tdims x /\
    forall idx, in_range (tdims x) idx -> f32_valid (@el _ (F32 lm) y idx) /\ ~ f32_nan (@el _ (F32 lm) y idx).
Proof. exact f32_back_number. Qed.
Example C93_case : libm_like cr_libm /\ good (fz [2; 3]%Z) /\ all_finite (fz [2; 3]%Z) /\ f32_in (-1) 1 (f32_div (f32_of_Z 1) (f32_of_Z 4)).
Proof.
  split; [exact cr_libm_like|]. split; [apply fz_good; [auto with idx|vm_compute; discriminate]|]. split; [unfold all_finite; vm_compute; repeat constructor|].
  split; [reflexivity|]. split; [exact I|]. change (f32_div (f32_of_Z 1) (f32_of_Z 4)) with (S754_finite false 8388608 (-25)). unfold f32_value. simpl. lra.
Qed.
Print Assumptions C93_sigmoid.
Print Assumptions C93_no_larger_than_input.
Print Assumptions C93_backward.
Print Assumptions C93_backward_never_nan.

(** ** C94.  [ds] is the shape of one batch entry; its [prod ds] outputs add up to 1 up to 4 * growth, growth being about prod ds * 2^-24. *)
Theorem C94_distribution : forall lm, libm_like lm -> forall (x : tensor f32) b ds, good x -> all_finite x -> tdims x = b :: ds -> ds <> [] ->
  exists y, softmax_fwd (S := F32 lm) x = Ok y /\ good y /\ tdims y = tdims x /\ (forall idx, in_range (tdims x) idx -> f32_in 0 1 (@el _ (F32 lm) y idx)) /\
    (forall r, (0 <= r < b)%Z -> growth (prod ds) <= / 2 -> Rabs (rsum (all_indices ds) (fun i => f32_value (@el _ (F32 lm) y (r :: i))) - 1) <= 4 * growth (prod ds)).
Proof. exact f32_softmax. Qed.
Theorem C94_order : forall lm, libm_like lm -> exp_monotone (m_exp lm) -> forall (x y : tensor f32) b ds, good x -> all_finite x -> tdims x = b :: ds -> ds <> [] ->
  softmax_fwd (S := F32 lm) x = Ok y -> forall r i j, (0 <= r < b)%Z -> in_range ds i -> in_range ds j ->
  f32_value (@el _ (F32 lm) x (r :: i)) <= f32_value (@el _ (F32 lm) x (r :: j)) -> f32_value (@el _ (F32 lm) y (r :: i)) <= f32_value (@el _ (F32 lm) y (r :: j)).
Proof. exact f32_softmax_order. Qed.
Example C94_case : libm_like cr_libm /\ exp_monotone (m_exp cr_libm) /\ good (fz [2; 3]%Z) /\ all_finite (fz [2; 3]%Z) /\ tdims (fz [2; 3]%Z) = [2; 3]%Z /\ growth (prod [3%Z]) <= / 2.
Proof.
  split; [exact cr_libm_like|]. split; [exact cr_exp_monotone|]. split; [apply fz_good; [auto with idx|vm_compute; discriminate]|]. split; [unfold all_finite; vm_compute; repeat constructor|]. split; [reflexivity|].
  apply Rle_trans with (2 * IZR 3 * ulp_half); [apply growth_bound; [vm_compute; discriminate|]|]; unfold ulp_half; simpl; lra.
Qed.
Print Assumptions C94_distribution.
Print Assumptions C94_order.

(** ** C95.  The full claim (Tanh of finite numbers is a number in [-1, 1]) fails: exp(2x) overflows first and inf/inf is NaN. *)
Theorem C95_tanh_refuted : exists x : tensor f32, good x /\ all_finite x /\
  forall lm, libm_like lm -> exists y, act_fwd (S := F32 lm) Tanh x = Ok y /\ f32_nan (@el _ (F32 lm) y [0%Z]).
Proof.
  set (x := tensor_of [1%Z] (fun _ => f32_of_Z 64)). exists x. assert (G : good x) by (apply good_tensor_of; [auto with idx|vm_compute; discriminate]).
  assert (F : all_finite x) by (unfold all_finite; vm_compute; repeat constructor). split; [exact G|]. split; [exact F|]. intros lm HL.
  destruct (f32_tanh_nan lm HL _ G F) as (y & E & _ & H). exists y. split; [exact E|]. apply H; [constructor; [lia|constructor]|].
  change (@el f32 (F32Scalar lm) x [0%Z]) with (S754_finite false 8388608 (-17)). unfold f32_value. simpl. lra.
Qed.
(** Every finite element from 64 on becomes NaN. *)
Theorem C95_large_inputs_become_nan : forall lm, libm_like lm -> forall x : tensor f32, good x -> all_finite x -> exists y, act_fwd (S := F32 lm) Tanh x = Ok y /\ tdims y = tdims x /\
  forall idx, in_range (tdims x) idx -> 64 <= f32_value (@el _ (F32 lm) x idx) -> f32_nan (@el _ (F32 lm) y idx).
Proof. exact f32_tanh_nan. Qed.
(** It is a number in [-1, 1] exactly when exp(2x) is not infinite. *)
Theorem C95_tanh_partial : forall lm, libm_like lm -> forall x : tensor f32, good x -> all_finite x -> exists y, act_fwd (S := F32 lm) Tanh x = Ok y /\ good y /\ tdims y = tdims x /\
  forall idx, in_range (tdims x) idx ->
    (f32_nan (@el _ (F32 lm) y idx) /\ m_exp lm (SFmul f32_prec f32_emax (@el _ (F32 lm) x idx) (f32_of_Z 2)) = S754_infinity false) \/
    (f32_in (-1) 1 (@el _ (F32 lm) y idx) /\ m_exp lm (SFmul f32_prec f32_emax (@el _ (F32 lm) x idx) (f32_of_Z 2)) <> S754_infinity false).
Proof. exact f32_tanh. Qed.
Print Assumptions C95_tanh_refuted.
Print Assumptions C95_large_inputs_become_nan.
Print Assumptions C95_tanh_partial.
