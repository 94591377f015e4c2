(** * Means of equal numbers (C110) and whole numbers (C111) in float32 *)
From Coq Require Import Reals SpecFloat.
From Verif Require Import Base Scalar Types Spec SpecNN SpecR SpecF32 SpecWhole M_Shape M_Tensor M_Adv M_Act M_Layers L_Index L_Nest L_Matmul L_Layers L_Whole P_Float.
Local Open Scope R_scope.
Local Notation F32 := F32Scalar.

(** ** C110: the mean of equal numbers should be that number and their variance 0 *)
(** 41 ones: the mean is below one, and the variance about it is not zero. *)
Theorem C110_refuted : forall lm, exists t y v : tensor f32, good t /\ wholes lm t (fun _ => 1%Z) /\ t_mean_all (S := F32 lm) t = Ok y /\
  f32_finite (@el _ (F32 lm) y [0%Z]) /\ f32_value (@el _ (F32 lm) y [0%Z]) < 1 /\
  t_variance_all (S := F32 lm) t y = Ok v /\ f32_finite (@el _ (F32 lm) v [0%Z]) /\ 0 < f32_value (@el _ (F32 lm) v [0%Z]).
Proof. exact ones_refuted. Qed.
(** It holds for whole numbers when their count is a power of two and the sum stays within 2^24. *)
Theorem C110_powers_of_two_partial : forall lm (t : tensor f32) z k, good t -> wholes lm t (fun _ => z) -> (0 <= k)%Z -> prod (tdims t) = (2 ^ k)%Z -> (Z.abs z * 2 ^ k <= exact_limit)%Z ->
  exists y, t_mean_all (S := F32 lm) t = Ok y /\ tdims y = [1%Z] /\ whole (@el _ (F32 lm) y [0%Z]) z.
Proof. exact mean_pow. Qed.
(** Any tensor: the distance from the exact mean, as far as the result is finite. *)
Theorem C110_close : forall lm (t y : tensor f32), good t -> all_valid t -> t_mean_all (S := F32 lm) t = Ok y -> f32_finite (@el _ (F32 lm) y [0%Z]) ->
  Rabs (f32_value (@el _ (F32 lm) y [0%Z]) - rsum (all_indices (tdims t)) (fun idx => f32_value (@el _ (F32 lm) t idx)) / IZR (prod (tdims t))) <=
    growth (prod (tdims t) + 3) * (rsum (all_indices (tdims t)) (fun idx => Rabs (f32_value (@el _ (F32 lm) t idx))) / IZR (prod (tdims t))) + tiny_half.
Proof. exact mean_err. Qed.
(** Adding ones stops at 2^24, for every number of elements ... *)
Theorem C110_counting : forall lm (t : tensor f32), good t -> wholes lm t (fun _ => 1%Z) ->
  exists y, t_sum (S := F32 lm) t = Ok y /\ tdims y = [1%Z] /\ whole (@el _ (F32 lm) y [0%Z]) (Z.min (prod (tdims t)) exact_limit).
Proof. exact sum_ones. Qed.
(** ... so that the mean of 2^25 ones is 1/2, of 2^26 ones 1/4, up to 1/64 for 2^30 ones. *)
Theorem C110_many_ones : forall lm (t : tensor f32) k, good t -> wholes lm t (fun _ => 1%Z) -> (24 <= k <= 30)%Z -> prod (tdims t) = (2 ^ k)%Z ->
  exists y, t_mean_all (S := F32 lm) t = Ok y /\ tdims y = [1%Z] /\ f32_finite (@el _ (F32 lm) y [0%Z]) /\ f32_value (@el _ (F32 lm) y [0%Z]) = / 2 ^ Z.to_nat (k - 24).
Proof. exact mean_many. Qed.
Definition sevens : tensor f32 := tensor_of [4; 2]%Z (fun _ => f32_of_Z 7).
Example C110_case : good sevens /\ (forall lm, wholes lm sevens (fun _ => 7%Z)) /\ prod (tdims sevens) = (2 ^ 3)%Z /\ (Z.abs 7 * 2 ^ 3 <= exact_limit)%Z /\
  let big := tensor_of [2 ^ 15; 2 ^ 10]%Z (fun _ => f32_of_Z 1) in good big /\ (forall lm, wholes lm big (fun _ => 1%Z)) /\ prod (tdims big) = (2 ^ 25)%Z.
Proof.
  split; [apply good_tensor_of; [auto with idx|vm_compute; discriminate]|].
  split; [intros lm idx HI; change (in_range [4; 2]%Z idx) in HI; unfold sevens; rewrite el_tensor_of by auto; apply whole_of_Z; vm_compute; discriminate|].
  split; [reflexivity|]. split; [vm_compute; discriminate|]. cbv zeta.
  split; [apply good_tensor_of; [apply pos2; reflexivity|vm_compute; discriminate]|]. split; [|reflexivity].
  intros lm idx HI. change (in_range [2 ^ 15; 2 ^ 10]%Z idx) in HI. rewrite el_tensor_of by auto. apply whole_of_Z. vm_compute. discriminate.
Qed.
Print Assumptions C110_refuted.
Print Assumptions C110_powers_of_two_partial.
Print Assumptions C110_close.
Print Assumptions C110_counting.
Print Assumptions C110_many_ones.

(** ** C111: whole numbers are added and multiplied exactly while nothing exceeds 2^24 *)
Theorem C111_elementwise : forall lm (a b : tensor f32) (f g : list Z -> Z), good a -> good b -> tdims a = tdims b -> wholes lm a f -> wholes lm b g ->
  ((forall idx, in_range (tdims a) idx -> (Z.abs (f idx + g idx) <= exact_limit)%Z) -> exists y, t_add (S := F32 lm) a b = Ok y /\ good y /\ tdims y = tdims a /\ wholes lm y (fun idx => f idx + g idx)%Z) /\
  ((forall idx, in_range (tdims a) idx -> (Z.abs (f idx - g idx) <= exact_limit)%Z) -> exists y, t_sub (S := F32 lm) a b = Ok y /\ good y /\ tdims y = tdims a /\ wholes lm y (fun idx => f idx - g idx)%Z) /\
  ((forall idx, in_range (tdims a) idx -> (Z.abs (f idx * g idx) <= exact_limit)%Z) -> exists y, t_mul (S := F32 lm) a b = Ok y /\ good y /\ tdims y = tdims a /\ wholes lm y (fun idx => f idx * g idx)%Z).
Proof. exact elementwise_whole. Qed.
Theorem C111_sum : forall lm (t : tensor f32) (f : list Z -> Z), good t -> wholes lm t f -> (zsum (all_indices (tdims t)) (fun idx => Z.abs (f idx)) <= exact_limit)%Z ->
  exists y, t_sum (S := F32 lm) t = Ok y /\ tdims y = [1%Z] /\ whole (@el _ (F32 lm) y [0%Z]) (zsum (all_indices (tdims t)) f).
Proof. exact sum_whole. Qed.
Theorem C111_sum_axis : forall lm (t : tensor f32) axis (f : list Z -> Z), good t -> (1 < length (tdims t))%nat -> (0 <= axis < Zlen (tdims t))%Z -> wholes lm t f ->
  (forall ridx, in_range (remove_at (Z.to_nat axis) (tdims t)) ridx -> (zsum (zrange 0 (nth (Z.to_nat axis) (tdims t) 0%Z)) (fun a => Z.abs (f (insert_at (Z.to_nat axis) a ridx))) <= exact_limit)%Z) ->
  exists y, t_sum_axis (S := F32 lm) t axis = Ok y /\ tdims y = remove_at (Z.to_nat axis) (tdims t) /\ wholes lm y (fun ridx => zsum (zrange 0 (nth (Z.to_nat axis) (tdims t) 0%Z)) (fun a => f (insert_at (Z.to_nat axis) a ridx))).
Proof. exact sum_axis_whole. Qed.
Theorem C111_matmul : forall lm (a b : tensor f32) (f g : list Z -> Z) m k n, good a -> good b -> tdims a = [m; k] -> tdims b = [k; n] -> (m * n <= INT_MAX)%Z -> wholes lm a f -> wholes lm b g ->
  (forall i j, (0 <= i < m)%Z -> (0 <= j < n)%Z -> (zsum (zrange 0 k) (fun p => Z.abs (f [i; p] * g [p; j])) <= exact_limit)%Z) ->
  exists y, t_matmul (S := F32 lm) a b = Ok y /\ good y /\ tdims y = [m; n] /\ wholes lm y (fun idx => zsum (zrange 0 k) (fun p => f [nth 0 idx 0%Z; p] * g [p; nth 1 idx 0%Z])%Z).
Proof. exact matmul_whole. Qed.
Theorem C111_fully_connected : forall lm (l : fc f32) k o (x : tensor f32) (f g h : list Z -> Z) n, fc_wf l k o -> good x -> tdims x = [n; k] -> (n * o <= INT_MAX)%Z -> wholes lm x f -> wholes lm (fc_w l) g -> wholes lm (fc_b l) h ->
  (forall i j, (0 <= i < n)%Z -> (0 <= j < o)%Z -> (zsum (zrange 0 k) (fun p => Z.abs (f [i; p] * g [p; j])) + Z.abs (h [0; j]%Z) <= exact_limit)%Z) ->
  exists y, snd (fc_forward (S := F32 lm) l x) = Ok y /\ good y /\ tdims y = [n; o] /\ wholes lm y (fun idx => zsum (zrange 0 k) (fun p => f [nth 0 idx 0%Z; p] * g [p; nth 1 idx 0%Z]) + h [0; nth 1 idx 0])%Z.
Proof. exact fc_whole. Qed.
(** Up to 2^24 every whole number is a float; the limit cannot be raised: 2^24 + 1 is not one. *)
Theorem C111_range : forall z, (Z.abs z <= exact_limit)%Z -> whole (f32_of_Z z) z.
Proof. exact whole_of_Z. Qed.
Theorem C111_limit : forall x, ~ whole x (exact_limit + 1).
Proof. exact limit_tight. Qed.
Definition ramp32 (ds : list Z) : tensor f32 := tensor_of ds (fun idx => f32_of_Z (ravel ds idx - 3)).
Example C111_case : good (ramp32 [2; 3]%Z) /\ good (ramp32 [3; 2]%Z) /\ (forall lm, wholes lm (ramp32 [2; 3]%Z) (fun idx => ravel [2; 3] idx - 3)%Z) /\ (forall lm, wholes lm (ramp32 [3; 2]%Z) (fun idx => ravel [3; 2] idx - 3)%Z) /\
  forall i j, (0 <= i < 2)%Z -> (0 <= j < 2)%Z -> (zsum (zrange 0 3) (fun p => Z.abs ((ravel [2; 3] [i; p] - 3) * (ravel [3; 2] [p; j] - 3))) <= exact_limit)%Z.
Proof.
  assert (HW : forall lm m n, (0 < m <= 3)%Z -> (0 < n <= 3)%Z -> wholes lm (ramp32 [m; n]) (fun idx => ravel [m; n] idx - 3)%Z).
  { intros lm m n Hm Hn idx HI. change (in_range [m; n]%Z idx) in HI. unfold ramp32. rewrite el_tensor_of by auto. apply whole_of_Z. pose proof (ravel_bound _ _ HI) as HB. cbn [prod] in HB. unfold exact_limit.
    assert (m * (n * 1) <= 9)%Z by nia. change (2 ^ 24)%Z with 16777216%Z. lia. }
  split; [apply good_tensor_of; [auto with idx|vm_compute; discriminate]|]. split; [apply good_tensor_of; [auto with idx|vm_compute; discriminate]|].
  split; [intros; apply HW; lia|]. split; [intros; apply HW; lia|]. intros i j Hi Hj. assert (i = 0 \/ i = 1)%Z as [->| ->] by lia; assert (j = 0 \/ j = 1)%Z as [->| ->] by lia; vm_compute; discriminate.
Qed.
Print Assumptions C111_elementwise.
Print Assumptions C111_sum.
Print Assumptions C111_sum_axis.
Print Assumptions C111_matmul.
Print Assumptions C111_fully_connected.
Print Assumptions C111_range.
Print Assumptions C111_limit.
