(** * Properties C32-C36: activation functions *)
From Coq Require Import Reals Lra.
From Coquelicot Require Import Coquelicot.
From Verif Require Import Base Scalar ScalarR Types Spec M_Shape M_Tensor M_Adv M_Act SpecR SpecNN L_Index L_Tensor L_Glue L_Matmul L_Act L_ActR.
Open Scope R_scope.

Definition a23 : tensor R := tensor_of [2; 3]%Z (fun idx => IZR (ravel [2; 3]%Z idx) - 5 / 2).
Lemma good_a23 : good a23.
Proof. apply good_tensor_of; [split; [discriminate|repeat constructor]|vm_compute; discriminate]. Qed.
Lemma el_a23 : forall i j, (0 <= i < 2)%Z -> (0 <= j < 3)%Z -> el a23 [i; j] = IZR (i * 3 + j) - 5 / 2.
Proof.
  intros. unfold a23. rewrite el_tensor_of by auto with idx. f_equal. f_equal. cbn [ravel prod]. lia.
Qed.
Definition z22 : tensor Z := mkTensor (shape_of [2; 2]%Z) [1; 2; 3; 4]%Z.
Definition z23 : tensor Z := mkTensor (shape_of [2; 3]%Z) [-1; 2; 0; -4; 5; 6]%Z.
Lemma good_z22 : good z22.
Proof. split; [split; [discriminate|repeat constructor]|]. split; [reflexivity|]. split; [vm_compute; discriminate|reflexivity]. Qed.
Lemma good_z23 : good z23.
Proof. split; [split; [discriminate|repeat constructor]|]. split; [reflexivity|]. split; [vm_compute; discriminate|reflexivity]. Qed.

(** ** C32 *)
Theorem C32_relu_forward : forall {T} {S : Scalar T} (x : tensor T), good x ->
  act_fwd ReLU x = Ok (tensor_of (tdims x) (fun idx => s_max zero (el x idx))).
Proof. exact (fun T S x => @act_fwd_el T S ReLU x ltac:(discriminate)). Qed.
Theorem C32_leaky_forward : forall {T} {S : Scalar T} (alpha : T) (x : tensor T), good x ->
  act_fwd (LeakyReLU alpha) x = Ok (tensor_of (tdims x) (fun idx => if s_lt zero (el x idx) then el x idx else s_mul alpha (el x idx))).
Proof. exact (fun T S al x => @act_fwd_el T S (LeakyReLU al) x ltac:(discriminate)). Qed.
Theorem C32_relu_backward : forall {T} {S : Scalar T} (x g : tensor T), good x -> good g -> tdims g = tdims x ->
  act_bwd ReLU x g = Ok (tensor_of (tdims x) (fun idx => s_mul (if s_lt zero (el x idx) then one else zero) (el g idx))).
Proof. exact (fun T S x g => @act_bwd_el T S ReLU x g ltac:(discriminate)). Qed.
Theorem C32_leaky_backward : forall {T} {S : Scalar T} (alpha : T) (x g : tensor T), good x -> good g -> tdims g = tdims x ->
  act_bwd (LeakyReLU alpha) x g = Ok (tensor_of (tdims x) (fun idx => if s_le zero (el x idx) then el g idx else s_mul alpha (el g idx))).
Proof. exact (fun T S al x g => @act_bwd_el T S (LeakyReLU al) x g ltac:(discriminate)). Qed.
(** Over the reals: forward is the function, backward its derivative times the gradient. *)
Theorem C32_exact : forall (a : act R) (x g : tensor R), (a = ReLU \/ exists alpha, a = LeakyReLU alpha) ->
  good x -> good g -> tdims g = tdims x ->
  act_fwd a x = Ok (tensor_of (tdims x) (fun idx => act_fun a (el x idx))) /\
  exists gx, act_bwd a x g = Ok gx /\ good gx /\ tdims gx = tdims x /\
    forall idx, in_range (tdims x) idx -> el x idx <> 0 ->
      ex_derive (act_fun a) (el x idx) /\ el gx idx = el g idx * Derive (act_fun a) (el x idx).
Proof. exact relu_exact. Qed.
(** The same statement for whole tensors. *)
Theorem C32_gradient : forall (a : act R) ds, (a = ReLU \/ exists alpha, a = LeakyReLU alpha) ->
  is_gradient_on (fun x => forall idx, in_range (tdims x) idx -> el x idx <> 0) ds ds (act_fwd a) (act_bwd a).
Proof. exact relu_gradient. Qed.
Theorem C32_mismatch : forall {T} {S : Scalar T} alpha (x g : tensor T), tdims x <> tdims g ->
  act_bwd (LeakyReLU alpha) x g = Throw InvalidArgument /\ act_bwd Swish x g = Throw InvalidArgument /\ act_bwd Mish x g = Throw InvalidArgument.
Proof. exact @act_bwd_mismatch. Qed.
Example C32_case :
  act_fwd ReLU z23 = Ok (mkTensor (shape_of [2; 3]%Z) [0; 2; 0; 0; 5; 6]%Z) /\
  act_fwd (LeakyReLU 10%Z) z23 = Ok (mkTensor (shape_of [2; 3]%Z) [-10; 2; 0; -40; 5; 6]%Z) /\
  act_bwd ReLU z23 z23 = Ok (mkTensor (shape_of [2; 3]%Z) [0; 2; 0; 0; 5; 6]%Z) /\
  act_bwd (LeakyReLU 10%Z) z23 z22 = Throw InvalidArgument.
Proof. vm_compute. auto. Qed.
Example C32_case_nonzero : forall idx, in_range (tdims a23) idx -> el a23 idx <> 0.
Proof.
  intros idx HI. apply in_range_2 in HI. destruct HI as (i & j & -> & Hi & Hj). rewrite el_a23 by auto.
  intros H. assert (E : IZR (2 * (i * 3 + j)) = IZR 5) by (rewrite mult_IZR; lra). apply eq_IZR in E. lia.
Qed.
Print Assumptions C32_relu_forward.
Print Assumptions C32_leaky_forward.
Print Assumptions C32_relu_backward.
Print Assumptions C32_leaky_backward.
Print Assumptions C32_exact.
Print Assumptions C32_gradient.
Print Assumptions C32_mismatch.

(** ** C33 *)
Theorem C33_forward : forall (a : act R) (x : tensor R), In a [Sigmoid; Tanh; Swish; Mish] -> good x ->
  act_fwd a x = Ok (tensor_of (tdims x) (fun idx => act_fun a (el x idx))).
Proof. exact smooth_forward. Qed.
Theorem C33_backward : forall (a : act R) (x g : tensor R), In a [Sigmoid; Tanh; Swish; Mish] -> good x -> good g -> tdims g = tdims x ->
  act_bwd a x g = Ok (tensor_of (tdims x) (fun idx => el g idx * Derive (act_fun a) (el x idx))) /\
  forall v, ex_derive (act_fun a) v.
Proof. exact smooth_backward. Qed.
Theorem C33_gradient : forall (a : act R) ds, In a [Sigmoid; Tanh; Swish; Mish] -> is_gradient ds ds (act_fwd a) (act_bwd a).
Proof. exact smooth_gradient. Qed.
Theorem C33_ranges : forall v : R, 0 < act_fun Sigmoid v < 1 /\ -1 < act_fun Tanh v < 1.
Proof. exact (fun v => conj (sigmoid_range v) (tanh_range v)). Qed.
Example C33_case : good a23 /\ exists y, act_fwd Sigmoid a23 = Ok y /\ tdims y = [2; 3]%Z.
Proof. split; [exact good_a23|]. rewrite C33_forward by (simpl; auto using good_a23). eexists. split; reflexivity. Qed.
Print Assumptions C33_forward.
Print Assumptions C33_backward.
Print Assumptions C33_gradient.
Print Assumptions C33_ranges.

(** ** C34.  [ds] is the shape of one batch entry. *)
Theorem C34_distribution : forall (x : tensor R) b ds, good x -> tdims x = b :: ds -> ds <> [] ->
  exists y, softmax_fwd x = Ok y /\ good y /\ tdims y = tdims x /\
    (forall idx, in_range (tdims x) idx -> 0 < el y idx) /\
    (forall r, (0 <= r < b)%Z -> rsum (all_indices ds) (fun i => el y (r :: i)) = 1) /\
    (forall r i j, (0 <= r < b)%Z -> in_range ds i -> in_range ds j -> (el x (r :: i) < el x (r :: j) <-> el y (r :: i) < el y (r :: j))).
Proof. exact softmax_distribution. Qed.
Theorem C34_shift_invariant : forall (x x' : tensor R) b ds c, good x -> good x' -> tdims x = b :: ds -> tdims x' = b :: ds -> ds <> [] ->
  (forall r i, (0 <= r < b)%Z -> in_range ds i -> el x' (r :: i) = el x (r :: i) + c r) -> softmax_fwd x' = softmax_fwd x.
Proof. exact softmax_shift. Qed.
Theorem C34_rank_throws : forall {T} {S : Scalar T} (x : tensor T), (length (tdims x) < 2)%nat -> softmax_fwd x = Throw InvalidArgument.
Proof. exact @softmax_fwd_throw. Qed.
(** In any arithmetic the element is exp(v - max) / sum of exp(w - max), max and sum over the row. *)
Theorem C34_elements : forall {T} {S : Scalar T} (x : tensor T) b ds, good x -> tdims x = b :: ds -> ds <> [] ->
  softmax_fwd x = Ok (tensor_of (tdims x) (fun idx => softmax_of (row ds x (nth 0 idx 0%Z)) (el x idx))).
Proof. exact @softmax_fwd_ok. Qed.
Example C34_case : exists b ds, good a23 /\ tdims a23 = b :: ds /\ ds <> [] /\ el a23 [0; 1]%Z < el a23 [0; 2]%Z.
Proof. exists 2%Z, [3%Z]. repeat split; try discriminate; try apply good_a23. rewrite !el_a23 by lia. rewrite !plus_IZR, !mult_IZR. lra. Qed.
Print Assumptions C34_distribution.
Print Assumptions C34_shift_invariant.
Print Assumptions C34_rank_throws.
Print Assumptions C34_elements.

(** ** C35 *)
Theorem C35_gradient : forall b ds, ds <> [] -> is_gradient (b :: ds) (b :: ds) softmax_fwd softmax_bwd.
Proof. exact softmax_gradient. Qed.
(** The Jacobian written out: gx_i = sum_j y_j (delta_ij - y_i) g_j with y the softmax of the row. *)
Theorem C35_jacobian : forall (x g y : tensor R) b ds, good x -> good g -> tdims x = b :: ds -> tdims g = b :: ds -> ds <> [] ->
  softmax_fwd x = Ok y ->
  exists gx, softmax_bwd x g = Ok gx /\ tdims gx = b :: ds /\ good gx /\
    forall r i, (0 <= r < b)%Z -> in_range ds i ->
      el gx (r :: i) = rsum (all_indices ds) (fun j => el y (r :: j) * ((if list_eq_dec Z.eq_dec i j then 1 else 0) - el y (r :: i)) * el g (r :: j)).
Proof. exact softmax_jacobian. Qed.
Example C35_case : exists y, good a23 /\ tdims a23 = [2; 3]%Z /\ softmax_fwd a23 = Ok y.
Proof. rewrite (softmax_fwd_ok a23 2%Z [3%Z]) by (try discriminate; auto using good_a23). eexists. repeat split; try apply good_a23. Qed.
(** A path satisfying [curve] exists through every tensor and in every direction. *)
Example C35_case_curve : forall (x d : tensor R), good x -> good d -> tdims d = tdims x ->
  exists X, X 0 = x /\ curve (tdims x) X 0 d.
Proof. exact line_curve. Qed.
Print Assumptions C35_gradient.
Print Assumptions C35_jacobian.

(** ** C36.  Full statement: it throws.  It reads past the gradient's buffer instead. *)
Theorem C36_short_gradient_refuted : exists x g : tensor Z, good x /\ good g /\ (2 <= length (tdims x))%nat /\ (2 <= length (tdims g))%nat /\
  (prod (tdims g) < prod (tdims x))%Z /\ softmax_bwd x g = UB.
Proof.
  exists z23, z22. split; [exact good_z23|]. split; [exact good_z22|]. split; [simpl; lia|]. split; [simpl; lia|]. split; [vm_compute; reflexivity|].
  apply (softmax_bwd_short z23 z22 2%Z [3%Z]); try discriminate; auto using good_z22, good_z23; vm_compute; reflexivity.
Qed.
(** It does so for every such call. *)
Theorem C36_short_gradient_reads_outside : forall {T} {S : Scalar T} (x g : tensor T) b ds, good x -> good g -> tdims x = b :: ds -> ds <> [] ->
  (2 <= length (tdims g))%nat -> (prod (tdims g) < prod (tdims x))%Z -> softmax_bwd x g = UB.
Proof. exact @softmax_bwd_short. Qed.
(** What does throw: a gradient or an input of rank below two. *)
Theorem C36_low_rank_partial : forall {T} {S : Scalar T} (x g : tensor T), (length (tdims x) < 2)%nat \/ (length (tdims g) < 2)%nat ->
  softmax_bwd x g = Throw InvalidArgument.
Proof. exact @softmax_bwd_throw. Qed.
Example C36_case : softmax_bwd z23 (mkTensor (shape_of [6%Z]) [1; 2; 3; 4; 5; 6]%Z) = Throw InvalidArgument.
Proof. vm_compute. reflexivity. Qed.
Print Assumptions C36_short_gradient_refuted.
Print Assumptions C36_short_gradient_reads_outside.
Print Assumptions C36_low_rank_partial.
