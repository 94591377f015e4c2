(** * Properties C19-C25, C70, C71: reductions, transpose, matrix products, apply *)
From Coq Require Import Reals Lra Permutation Sorting.Sorted.
From Verif Require Import Base Scalar ScalarR Types Spec SpecR M_Shape M_Tensor M_Adv L_Index L_Tensor L_Glue L_Matmul L_Axes L_Adv L_RSum L_AdvR.

Definition t234 : tensor Z := tensor_of [2; 3; 4] (ravel [2; 3; 4]).
Lemma good_t234 : good t234.
Proof. apply good_tensor_of; [split; [discriminate|repeat constructor]|vm_compute; discriminate]. Qed.
Definition m23 : tensor Z := tensor_of [2; 3] (ravel [2; 3]).
Lemma good_m23 : good m23.
Proof. apply good_tensor_of; [split; [discriminate|repeat constructor]|vm_compute; discriminate]. Qed.
Definition r234 : tensor R := tensor_of [2; 3; 4] (fun idx => IZR (ravel [2; 3; 4] idx)).
Lemma good_r234 : good r234.
Proof. apply good_tensor_of; [split; [discriminate|repeat constructor]|vm_compute; discriminate]. Qed.

(** ** C19.  Full statement: for every set of valid axes the result is the tensor of
    sums; false when every axis is listed (it throws). *)
Theorem C19_sum_all_axes_refuted : exists (t : tensor Z) axes, good t /\
  (forall a, In a axes -> 0 <= a < Zlen (tdims t)) /\ t_sum_axes t axes = Throw InvalidArgument.
Proof.
  exists m23, [0; 1]. split; [exact good_m23|]. split; [|vm_compute; reflexivity].
  intros a [<-|[<-|[]]]; vm_compute; split; congruence.
Qed.
(** Missing: the call that lists every axis, which always throws. *)
Theorem C19_sum_axes_partial : forall {T} {S : Scalar T} (t : tensor T) axes, good t ->
  (forall a, In a axes -> 0 <= a < Zlen (tdims t)) -> drop_axes axes (tdims t) <> [] ->
  t_sum_axes t axes = Ok (tensor_of (drop_axes axes (tdims t))
    (fun ridx => fsum (map (el t) (slice_indices axes (tdims t) ridx)))).
Proof. exact @sum_axes_ok. Qed.
Theorem C19_sum_all_axes_throws : forall {T} {S : Scalar T} (t : tensor T) axes, good t ->
  (forall a, In a axes -> 0 <= a < Zlen (tdims t)) -> drop_axes axes (tdims t) = [] ->
  t_sum_axes t axes = Throw InvalidArgument.
Proof. exact @sum_axes_all. Qed.
Theorem C19_sum_axes_rejects : forall {T} {S : Scalar T} (t : tensor T) axes, good t ->
  (forall a, In a axes -> 0 <= a) -> (exists a, In a axes /\ Zlen (tdims t) <= a) ->
  t_sum_axes t axes = Throw RuntimeError.
Proof. exact @sum_axes_bad. Qed.
(** The slice of a result position is exactly the set of positions that agree with it. *)
Theorem C19_slice : forall axes ds ridx idx, Forall (fun d => 0 < d) ds ->
  In idx (slice_indices axes ds ridx) <-> in_range ds idx /\ drop_axes axes idx = ridx.
Proof. exact In_slice. Qed.
Example C19_case : drop_axes [2; 0] (tdims t234) = [3] /\
  t_sum_axes t234 [2; 0] = Ok (mkTensor (shape_of [3]) [60; 92; 124]) /\
  slice_indices [0; 2] [2; 3; 2] [1] = [[0; 1; 0]; [0; 1; 1]; [1; 1; 0]; [1; 1; 1]] /\
  t_sum_axes t234 [0; 3] = Throw RuntimeError.
Proof. vm_compute. auto. Qed.
Print Assumptions C19_sum_all_axes_refuted.
Print Assumptions C19_sum_axes_partial.
Print Assumptions C19_sum_all_axes_throws.
Print Assumptions C19_sum_axes_rejects.
Print Assumptions C19_slice.

(** ** C20.  [L] is the axes in decreasing order. *)
Theorem C20_mean_axes : forall {T} {S : Scalar T} (t : tensor T) axes L, good t -> axes <> [] -> NoDup axes ->
  (forall a, In a axes -> 0 <= a < Zlen (tdims t)) -> (length axes < length (tdims t))%nat ->
  Permutation L axes -> StronglySorted (fun a b => b < a) L ->
  t_mean_axes t axes = Ok (tensor_of (ones_axes axes (tdims t)) (fun k =>
    s_mul (nested_sum L (tdims t) (el t) (drop_axes axes k)) (s_div one (s_z (axes_count axes (tdims t)))))).
Proof. exact @mean_axes_ok. Qed.
Theorem C20_mean_axes_exact : forall (t : tensor R) axes, good t -> axes <> [] -> NoDup axes ->
  (forall a, In a axes -> 0 <= a < Zlen (tdims t)) -> (length axes < length (tdims t))%nat ->
  t_mean_axes t axes = Ok (tensor_of (ones_axes axes (tdims t)) (fun k =>
    ravg (slice_indices axes (tdims t) (drop_axes axes k)) (el t))).
Proof. exact mean_axes_R. Qed.
Theorem C20_grand_mean : forall {T} {S : Scalar T} (t : tensor T), good t ->
  t_mean_all t = Ok (tensor_of [1] (fun _ =>
    s_mul (fsum (map (el t) (all_indices (tdims t)))) (s_div one (s_z (prod (tdims t)))))).
Proof. exact @mean_all_ok. Qed.
Theorem C20_grand_mean_exact : forall (t : tensor R), good t ->
  t_mean_all t = Ok (tensor_of [1] (fun _ => ravg (all_indices (tdims t)) (el t))).
Proof. exact mean_all_R. Qed.
(** No axes, or as many axes as the rank: the grand mean. *)
Theorem C20_mean_every_axis : forall {T} {S : Scalar T} (t : tensor T) axes,
  (axes = [] \/ length axes = length (tdims t)) -> t_mean_axes t axes = t_mean_all t.
Proof. exact @mean_axes_all. Qed.
Example C20_case : Permutation [2; 0] [0; 2] /\ StronglySorted (fun a b => b < a) [2; 0] /\
  ones_axes [0; 2] (tdims t234) = [1; 3; 1] /\ axes_count [0; 2] (tdims t234) = 8 /\
  is_ok (t_mean_axes t234 [0; 2]) = true.
Proof. repeat split; try reflexivity; [apply perm_swap|repeat constructor; lia]. Qed.
Example C20_case_exact : good r234 /\ is_ok (t_mean_axes r234 [0; 2]) = true.
Proof.
  split; [exact good_r234|].
  assert (HR : forall a, In a [0; 2] -> 0 <= a < Zlen (tdims r234)) by (intros a [<-|[<-|[]]]; vm_compute; split; congruence).
  assert (HN : NoDup [0; 2]) by (constructor; [simpl; lia|constructor; [simpl; tauto|constructor]]).
  rewrite (mean_axes_R r234 [0; 2] good_r234 ltac:(discriminate) HN HR ltac:(simpl; lia)). reflexivity.
Qed.
Print Assumptions C20_mean_axes.
Print Assumptions C20_mean_axes_exact.
Print Assumptions C20_grand_mean.
Print Assumptions C20_grand_mean_exact.
Print Assumptions C20_mean_every_axis.

(** ** C21 *)
Theorem C21_variance_axes : forall {T} {S : Scalar T} (t m : tensor T) axes,
  good t -> good m -> tdims m = ones_axes axes (tdims t) ->
  NoDup axes -> (forall a, In a axes -> 0 <= a < Zlen (tdims t)) -> (length axes < length (tdims t))%nat ->
  t_variance_axes t m axes = Ok (tensor_of (ones_axes axes (tdims t)) (fun k =>
    s_div (fsum (map (fun idx => s_mul (s_sub (el t idx) (el m (zero_axes axes idx))) (s_sub (el t idx) (el m (zero_axes axes idx))))
                     (slice_indices axes (tdims t) (drop_axes axes k))))
          (s_z (axes_count axes (tdims t))))).
Proof. exact @variance_axes_ok. Qed.
Theorem C21_variance_exact : forall (t : tensor R) axes, good t -> axes <> [] -> NoDup axes ->
  (forall a, In a axes -> 0 <= a < Zlen (tdims t)) -> (length axes < length (tdims t))%nat ->
  forall m, t_mean_axes t axes = Ok m ->
  exists v, t_variance_axes t m axes = Ok v /\ tdims v = ones_axes axes (tdims t) /\
  forall k, in_range (ones_axes axes (tdims t)) k ->
    let slice := slice_indices axes (tdims t) (drop_axes axes k) in
    el v k = ravg slice (fun idx => ((el t idx - ravg slice (el t)) * (el t idx - ravg slice (el t)))%R) /\
    (0 <= el v k)%R /\
    (el v k = 0%R <-> forall i j, In i slice -> In j slice -> el t i = el t j).
Proof. exact variance_axes_R. Qed.
(** All elements, with a mean of shape {1}. *)
Theorem C21_variance_all : forall {T} {S : Scalar T} (t m : tensor T), good t -> good m -> tdims m = [1] ->
  t_variance_all t m = Ok (tensor_of [1] (fun _ =>
    s_mul (fsum (map (fun idx => s_mul (s_sub (el t idx) (el m [0])) (s_sub (el t idx) (el m [0]))) (all_indices (tdims t))))
          (s_div one (s_z (prod (tdims t)))))).
Proof. exact @variance_all_ok. Qed.
Example C21_case : exists m v, t_mean_axes r234 [0; 2] = Ok m /\ t_variance_axes r234 m [0; 2] = Ok v.
Proof.
  destruct (C20_case_exact) as [G _].
  assert (HR : forall a, In a [0; 2] -> 0 <= a < Zlen (tdims r234)) by (intros a [<-|[<-|[]]]; vm_compute; split; congruence).
  assert (HN : NoDup [0; 2]) by (constructor; [simpl; lia|constructor; [simpl; tauto|constructor]]).
  assert (HL : (length [0; 2] < length (tdims r234))%nat) by (simpl; lia).
  destruct (variance_axes_R r234 [0; 2] G ltac:(discriminate) HN HR HL _ (mean_axes_R r234 [0; 2] G ltac:(discriminate) HN HR HL)) as (v & E & _).
  rewrite mean_axes_R by (auto; discriminate). eauto.
Qed.
Example C21_case_int : t_variance_axes m23 (mkTensor (shape_of [2; 1]) [1; 4]) [1] = Ok (mkTensor (shape_of [2; 1]) [0; 0]) /\
  t_variance_axes m23 (mkTensor (shape_of [1; 3]) [0; 0; 0]) [0] = Ok (mkTensor (shape_of [1; 3]) [4; 8; 14]).
Proof. vm_compute. auto. Qed.
Print Assumptions C21_variance_axes.
Print Assumptions C21_variance_exact.
Print Assumptions C21_variance_all.

(** ** C22 *)
Theorem C22_transpose : forall {T} {S : Scalar T} (t : tensor T) i j,
  good t -> 0 <= i < Zlen (tdims t) -> 0 <= j < Zlen (tdims t) ->
  t_transpose t i j = Ok (tensor_of (swap_at (Z.to_nat i) (Z.to_nat j) (tdims t))
                                    (fun idx => el t (swap_at (Z.to_nat i) (Z.to_nat j) idx))).
Proof. exact @transpose_ok. Qed.
Theorem C22_involution : forall {T} {S : Scalar T} (t : tensor T) i j,
  good t -> 0 <= i < Zlen (tdims t) -> 0 <= j < Zlen (tdims t) ->
  exists u, t_transpose t i j = Ok u /\ good u /\ t_transpose u i j = Ok t.
Proof. exact @transpose_involutive. Qed.
Theorem C22_rejects : forall {T} {S : Scalar T} (t : tensor T) i j,
  (Zlen (tdims t) <= i \/ Zlen (tdims t) <= j) -> t_transpose t i j = Throw InvalidArgument.
Proof. exact @transpose_throw. Qed.
Example C22_case : t_transpose m23 0 1 = Ok (mkTensor (shape_of [3; 2]) [0; 3; 1; 4; 2; 5]).
Proof. vm_compute. reflexivity. Qed.
Print Assumptions C22_transpose.
Print Assumptions C22_involution.
Print Assumptions C22_rejects.

(** ** C23 *)
Theorem C23_vec_vec : forall {T} {S : Scalar T} (a b : tensor T) n, good a -> good b -> tdims a = [n] -> tdims b = [n] ->
  t_matmul a b = Ok (tensor_of [1] (fn1 (fun _ => sum_to n (fun p => s_mul (el a [p]) (el b [p]))))).
Proof. exact @matmul_11. Qed.
Theorem C23_mat_mat : forall {T} {S : Scalar T} (a b : tensor T) m k n, good a -> good b ->
  tdims a = [m; k] -> tdims b = [k; n] -> m * n <= INT_MAX ->
  t_matmul a b = Ok (tensor_of [m; n] (fn2 (fun i j => sum_to k (fun p => s_mul (el a [i; p]) (el b [p; j]))))).
Proof. exact @matmul_22. Qed.
Theorem C23_mat_vec : forall {T} {S : Scalar T} (a b : tensor T) m n, good a -> good b -> tdims a = [m; n] -> tdims b = [n] ->
  t_matmul a b = Ok (tensor_of [m] (fn1 (fun i => sum_to n (fun p => s_mul (el a [i; p]) (el b [p]))))).
Proof. exact @matmul_21. Qed.
Theorem C23_vec_mat : forall {T} {S : Scalar T} (a b : tensor T) k n, good a -> good b -> tdims a = [k] -> tdims b = [k; n] ->
  t_matmul a b = Ok (tensor_of [n] (fn1 (fun j => sum_to k (fun p => s_mul (el a [p]) (el b [p; j]))))).
Proof. exact @matmul_12. Qed.
Theorem C23_batch_mat : forall {T} {S : Scalar T} (a b : tensor T) nb m k p, good a -> good b ->
  tdims a = [nb; m; k] -> tdims b = [k; p] -> nb * m * p <= INT_MAX ->
  t_matmul a b = Ok (tensor_of [nb; m; p] (fn3 (fun n i j => sum_to k (fun q => s_mul (el a [n; i; q]) (el b [q; j]))))).
Proof. exact @matmul_32. Qed.
Theorem C23_mat_batch : forall {T} {S : Scalar T} (a b : tensor T) o k nb s, good a -> good b ->
  tdims a = [o; k] -> tdims b = [nb; k; s] -> nb * o * s <= INT_MAX ->
  t_matmul a b = Ok (tensor_of [nb; o; s] (fn3 (fun n i j => sum_to k (fun p => s_mul (el a [i; p]) (el b [n; p; j]))))).
Proof. exact @matmul_23. Qed.
Theorem C23_batched : forall {T} {S : Scalar T} (a b : tensor T) x m k n, good a -> good b ->
  tdims a = x ++ [m; k] -> tdims b = x ++ [k; n] -> x <> [] -> prod (x ++ [m; n]) <= INT_MAX ->
  t_matmul a b = Ok (tensor_of (x ++ [m; n]) (fun idx =>
     let bi := firstn (length x) idx in let i := nth (length x) idx 0 in let j := nth (length x + 1) idx 0 in
     sum_to k (fun p => s_mul (el a (bi ++ [i; p])) (el b (bi ++ [p; j]))))).
Proof. exact @matmul_batched. Qed.
Theorem C23_rejects : forall {T} {S : Scalar T} (a b : tensor T), good a -> good b ->
  match inner_dims (tdims a) (tdims b) with Some (n, m) => n <> m | None => True end ->
  t_matmul a b = Throw InvalidArgument.
Proof. exact @matmul_rejects. Qed.
Example C23_case : let v3 := tensor_of [3] (fn1 (fun i => i + 1)) in let v2 := tensor_of [2] (fn1 (fun i => i + 1)) in
  let b := tensor_of [2; 3; 2] (ravel [2; 3; 2]) in
  t_matmul v3 v3 = Ok (mkTensor (shape_of [1]) [14]) /\
  t_matmul m23 (tensor_of [3; 2] (ravel [3; 2])) = Ok (mkTensor (shape_of [2; 2]) [10; 13; 28; 40]) /\
  t_matmul m23 v3 = Ok (mkTensor (shape_of [2]) [8; 26]) /\
  t_matmul v2 m23 = Ok (mkTensor (shape_of [3]) [6; 9; 12]) /\
  t_matmul m23 b = Ok (mkTensor (shape_of [2; 2; 2]) [10; 13; 28; 40; 28; 31; 100; 112]) /\
  t_matmul b m23 = Ok (mkTensor (shape_of [2; 3; 3]) [3; 4; 5; 9; 14; 19; 15; 24; 33; 21; 34; 47; 27; 44; 61; 33; 54; 75]) /\
  t_matmul (tensor_of [2; 2; 3] (ravel [2; 2; 3])) b = Ok (mkTensor (shape_of [2; 2; 2]) [10; 13; 28; 40; 172; 193; 244; 274]) /\
  t_matmul m23 m23 = Throw InvalidArgument.
Proof. vm_compute. repeat split. Qed.
Print Assumptions C23_vec_vec.
Print Assumptions C23_mat_mat.
Print Assumptions C23_mat_vec.
Print Assumptions C23_vec_mat.
Print Assumptions C23_batch_mat.
Print Assumptions C23_mat_batch.
Print Assumptions C23_batched.
Print Assumptions C23_rejects.

(** ** C24.  Full statement: batch dimensions that are equal or 1 are broadcast.  False:
    a batch of size 1 against a larger one reads past the smaller operand and throws. *)
Theorem C24_batch_broadcast_refuted : exists (a b : tensor Z), good a /\ good b /\
  tdims a = [2; 2; 3] /\ tdims b = [1; 3; 2] /\ t_matmul a b = Throw OutOfRange.
Proof.
  exists (tensor_of [2; 2; 3] (ravel [2; 2; 3])), (tensor_of [1; 3; 2] (ravel [1; 3; 2])).
  split; [|split; [|vm_compute; auto]]; (apply good_tensor_of; [split; [discriminate|repeat constructor]|vm_compute; discriminate]).
Qed.
(** It never works: every pair of different batch dimensions throws out_of_range. *)
Theorem C24_batch_mismatch_throws : forall {T} {S : Scalar T} (a b : tensor T) x y m k n, good a -> good b ->
  tdims a = x ++ [m; k] -> tdims b = y ++ [k; n] -> length x = length y -> x <> y ->
  prod (map (fun p => Z.max (fst p) (snd p)) (combine x y) ++ [m; n]) <= INT_MAX -> t_matmul a b = Throw OutOfRange.
Proof. exact @matmul_batch_mismatch. Qed.
(** Missing: batch dimensions that differ. *)
Theorem C24_equal_batch_partial : forall {T} {S : Scalar T} (a b : tensor T) x m k n, good a -> good b ->
  tdims a = x ++ [m; k] -> tdims b = x ++ [k; n] -> x <> [] -> prod (x ++ [m; n]) <= INT_MAX ->
  t_matmul a b = Ok (tensor_of (x ++ [m; n]) (fun idx =>
     let bi := firstn (length x) idx in let i := nth (length x) idx 0 in let j := nth (length x + 1) idx 0 in
     sum_to k (fun p => s_mul (el a (bi ++ [i; p])) (el b (bi ++ [p; j]))))).
Proof. exact @matmul_batched. Qed.
Print Assumptions C24_batch_broadcast_refuted.
Print Assumptions C24_batch_mismatch_throws.
Print Assumptions C24_equal_batch_partial.

(** ** C25 *)
Theorem C25_identity_left : forall (A : tensor R) n m, good A -> tdims A = [n; m] -> n * n <= INT_MAX ->
  exists I, f_identity n = Ok I /\ t_matmul I A = Ok A.
Proof. exact identity_left. Qed.
Theorem C25_identity_right : forall (A : tensor R) n m, good A -> tdims A = [n; m] -> m * m <= INT_MAX ->
  exists I, f_identity m = Ok I /\ t_matmul A I = Ok A.
Proof. exact identity_right. Qed.
Theorem C25_transpose_product : forall (A B : tensor R) m k n, good A -> good B ->
  tdims A = [m; k] -> tdims B = [k; n] -> m * n <= INT_MAX ->
  exists AB At Bt r, t_matmul A B = Ok AB /\ t_transpose A 0 1 = Ok At /\ t_transpose B 0 1 = Ok Bt /\
    t_transpose AB 0 1 = Ok r /\ t_matmul Bt At = Ok r.
Proof. exact transpose_product. Qed.
Theorem C25_associative : forall (A B C : tensor R) m k n p, good A -> good B -> good C ->
  tdims A = [m; k] -> tdims B = [k; n] -> tdims C = [n; p] ->
  m * n <= INT_MAX -> k * p <= INT_MAX -> m * p <= INT_MAX ->
  exists AB BC r, t_matmul A B = Ok AB /\ t_matmul B C = Ok BC /\ t_matmul AB C = Ok r /\ t_matmul A BC = Ok r.
Proof. exact matmul_assoc. Qed.
Theorem C25_distributive_left : forall (A B C : tensor R) m k n, good A -> good B -> good C ->
  tdims A = [m; k] -> tdims B = [k; n] -> tdims C = [k; n] -> m * n <= INT_MAX ->
  exists BC AB AC r, t_add B C = Ok BC /\ t_matmul A B = Ok AB /\ t_matmul A C = Ok AC /\
    t_matmul A BC = Ok r /\ t_add AB AC = Ok r.
Proof. exact matmul_distr. Qed.
Theorem C25_distributive_right : forall (A B C : tensor R) m k n, good A -> good B -> good C ->
  tdims A = [m; k] -> tdims B = [m; k] -> tdims C = [k; n] -> m * n <= INT_MAX ->
  exists AB AC BC r, t_add A B = Ok AB /\ t_matmul A C = Ok AC /\ t_matmul B C = Ok BC /\
    t_matmul AB C = Ok r /\ t_add AC BC = Ok r.
Proof. exact matmul_distr_r. Qed.
Example C25_case : exists A B C : tensor R, good A /\ good B /\ good C /\
  tdims A = [2; 3] /\ tdims B = [3; 4] /\ tdims C = [4; 5] /\ 2 * 4 <= INT_MAX /\ 3 * 5 <= INT_MAX /\ 2 * 5 <= INT_MAX.
Proof.
  exists (mat 2 3 (fun i j => IZR (i + j))), (mat 3 4 (fun i j => IZR (i - j))), (mat 4 5 (fun i j => IZR (i * j))).
  repeat split; try reflexivity; try (apply good_mat; vm_compute; congruence); vm_compute; congruence.
Qed.
Print Assumptions C25_identity_left.
Print Assumptions C25_identity_right.
Print Assumptions C25_transpose_product.
Print Assumptions C25_associative.
Print Assumptions C25_distributive_left.
Print Assumptions C25_distributive_right.

(** ** C70.  Full statement: for every size the function is applied to every element.  False:
    with 2^31 elements the element count wraps to a negative [int] and nothing is computed. *)
Theorem C70_huge_refuted : exists (a b : tensor Z) r, wf a /\ wf b /\ tdims a = tdims b /\
  t_apply_pair (fun _ _ => 1) a b = Ok r /\ forall idx, in_range (tdims a) idx -> el r idx = 0.
Proof.
  assert (W : wf (t_new (shape_of [65536; 32768]) : tensor Z)).
  { apply wf_new; [split; [discriminate|repeat constructor]|vm_compute; reflexivity]. }
  exists (t_new (shape_of [65536; 32768])), (t_new (shape_of [65536; 32768])), (t_new (shape_of [65536; 32768])).
  split; [exact W|]. split; [exact W|]. split; [reflexivity|]. split.
  - apply apply_pair_huge; [reflexivity|]. split; reflexivity.
  - intros idx HI. rewrite el_new_big by exact HI. reflexivity.
Qed.
(** Missing: more than INT_MAX elements. *)
Theorem C70_apply_pair_partial : forall {T} {S : Scalar T} f (a b : tensor T), good a -> good b -> tdims a = tdims b ->
  t_apply_pair f a b = Ok (tensor_of (tdims a) (fun idx => f (el a idx) (el b idx))).
Proof. exact @apply_pair_ok. Qed.
Theorem C70_huge_does_nothing : forall {T} {S : Scalar T} f (a b : tensor T), tdims a = tdims b ->
  INT_MAX < ssize (tshape a) < two32 -> t_apply_pair f a b = Ok (t_new (tshape a)).
Proof. exact @apply_pair_huge. Qed.
Example C70_case : good m23 /\ t_apply_pair Z.sub m23 m23 = Ok (mkTensor (shape_of [2; 3]) [0; 0; 0; 0; 0; 0]).
Proof. split; [exact good_m23|vm_compute; reflexivity]. Qed.
Print Assumptions C70_huge_refuted.
Print Assumptions C70_apply_pair_partial.
Print Assumptions C70_huge_does_nothing.

(** ** C71 *)
Theorem C71_apply : forall {T} {S : Scalar T} f (t : tensor T), good t ->
  t_apply t f = Ok (tensor_of (tdims t) (fun idx => f (el t idx))) /\
  t_map_ip f t = Ok (tensor_of (tdims t) (fun idx => f (el t idx))) /\
  t_sqrt t = Ok (tensor_of (tdims t) (fun idx => s_sqrt (el t idx))).
Proof. exact @apply_all. Qed.
Theorem C71_reciprocal : forall {T} {S : Scalar T} eps (t : tensor T), good t ->
  t_reciprocal eps t = Ok (tensor_of (tdims t) (fun idx =>
     if s_lt eps (s_abs (el t idx)) then s_div one (el t idx) else s_div one eps)).
Proof. exact @reciprocal_ok. Qed.
Theorem C71_apply_pair_rejects : forall {T} {S : Scalar T} f (a b : tensor T), tdims a <> tdims b ->
  t_apply_pair f a b = Throw InvalidArgument.
Proof. exact @apply_pair_throw. Qed.
Example C71_case : t_apply m23 (fun x => x * x) = Ok (mkTensor (shape_of [2; 3]) [0; 1; 4; 9; 16; 25]) /\
  t_apply_pair Z.add m23 t234 = Throw InvalidArgument.
Proof. vm_compute. auto. Qed.
Print Assumptions C71_apply.
Print Assumptions C71_reciprocal.
Print Assumptions C71_apply_pair_rejects.
