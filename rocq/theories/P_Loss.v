(** * Properties C37-C39 and C73: losses *)
From Coq Require Import Reals Lra.
From Coquelicot Require Import Coquelicot.
From Verif Require Import Base Scalar ScalarR Types Spec M_Shape M_Tensor M_Adv M_Act M_Loss SpecR SpecNN L_Index L_Tensor L_Glue L_Matmul L_RSum L_AdvR L_Act L_ActR L_Loss.
Open Scope R_scope.

Definition p22 : tensor R := mat 2 2 (fun i j => if Z.eqb i j then 3 / 4 else 1 / 4).
Definition h22 : tensor R := mat 2 2 (fun i j => if Z.eqb i 0 then (if Z.eqb j 0 then 1 else 0) else (if Z.eqb j 0 then 0 else 1)).
Lemma good_p22 : good p22. Proof. apply good_mat; vm_compute; congruence. Qed.
Lemma good_h22 : good h22. Proof. apply good_mat; vm_compute; congruence. Qed.
Definition p31 : tensor Z := tensor_of [3; 1]%Z (fun idx => nth 0 idx 0%Z).
Definition v3 : tensor Z := tensor_of [3]%Z (fun idx => (nth 0 idx 0 * 3)%Z).

(** ** C37.  [in_shape ds t] has the elements of [t] in shape [ds]; it is [t] when [ds] is t's shape. *)
Theorem C37_compute : forall (p t : tensor R), good p -> good t -> aligned p t ->
  mse_compute p t = Ok (tensor_of [1%Z] (fun _ =>
    rsum (all_indices (tdims p)) (fun idx => (el p idx - el (in_shape (tdims p) t) idx) * (el p idx - el (in_shape (tdims p) t) idx)) / IZR (prod (tdims p)))).
Proof. exact mse_compute_R. Qed.
Theorem C37_nonneg_zero : forall (p t : tensor R), good p -> good t -> aligned p t ->
  exists v, mse_compute p t = Ok (tensor_of [1%Z] (fun _ => v)) /\ 0 <= v /\ (v = 0 <-> in_shape (tdims p) t = p).
Proof. exact (fun p t Hp Ht HA => ex_intro _ (mseR p t) (conj (mse_compute_R p t Hp Ht HA) (conj (mseR_nonneg p t Hp) (mseR_zero p t Hp Ht HA)))). Qed.
Theorem C37_same_shape : forall {T} {S : Scalar T} (t : tensor T), good t -> in_shape (tdims t) t = t.
Proof. exact @in_shape_same. Qed.
Theorem C37_gradient : forall ds (t : tensor R) P s dP, curve ds P s dP -> good t -> aligned (P s) t ->
  exists L g, (forall u, mse_compute (P u) t = Ok (tensor_of [1%Z] (fun _ => L u))) /\
    mse_gradient (P s) t = Ok g /\ good g /\ tdims g = ds /\ is_derive L s (dot g dP).
Proof. exact mse_derivative. Qed.
(** Any arithmetic: element formula of the gradient, exact order of operations of the loss. *)
Theorem C37_compute_ops : forall {T} {S : Scalar T} (p t : tensor T), good p -> good t -> aligned p t -> s_eq (s_z (prod (tdims p))) zero = false ->
  mse_compute p t = Ok (tensor_of [1%Z] (fun _ => s_div (fsum (map (fun idx =>
    let d := s_sub (el p idx) (el (in_shape (tdims p) t) idx) in s_mul d d) (all_indices (tdims p)))) (s_z (prod (tdims p))))).
Proof. exact @mse_compute_ok. Qed.
Theorem C37_gradient_ops : forall {T} {S : Scalar T} (p t : tensor T), good p -> good t -> aligned p t -> s_eq (s_z (prod (tdims p))) zero = false ->
  mse_gradient p t = Ok (tensor_of (tdims p) (fun idx =>
    s_div (s_mul (s_sub (el p idx) (el (in_shape (tdims p) t) idx)) (s_z 2)) (s_z (prod (tdims p))))).
Proof. exact @mse_gradient_ok. Qed.
Theorem C37_mismatch_throws : forall {T} {S : Scalar T} (p t : tensor T), good p -> good t -> ~ aligned p t ->
  exists e, mse_compute p t = Throw e /\ mse_gradient p t = Throw e /\
    ((exists n r, tdims t = [n] /\ tdims p = n :: r) -> e = RuntimeError) /\ (~ (exists n r, tdims t = [n] /\ tdims p = n :: r) -> e = InvalidArgument).
Proof. exact @mse_throw. Qed.
Example C37_case : aligned p31 v3 /\ mse_compute p31 v3 = Ok (mkTensor (shape_of [1%Z]) [6]%Z) /\
  mse_gradient p31 v3 = Ok (mkTensor (shape_of [3; 1]%Z) [0; -1; -2]%Z) /\ mse_compute v3 p31 = Throw InvalidArgument /\
  mse_compute (tensor_of [3; 2]%Z (fun _ => 0%Z)) v3 = Throw RuntimeError.
Proof. split; [right; exists 3%Z, [1%Z]; auto|]. vm_compute. auto. Qed.
Example C37_case_R : good p22 /\ good h22 /\ aligned p22 h22.
Proof. split; [exact good_p22|]. split; [exact good_h22|]. left. reflexivity. Qed.
Print Assumptions C37_compute.
Print Assumptions C37_nonneg_zero.
Print Assumptions C37_same_shape.
Print Assumptions C37_gradient.
Print Assumptions C37_compute_ops.
Print Assumptions C37_gradient_ops.
Print Assumptions C37_mismatch_throws.

(** ** C38 *)
Theorem C38_value : forall (p t : tensor R) b c, good p -> good t -> tdims p = [b; c] -> tdims t = [b; c] ->
  cce_compute p t = Ok (tensor_of [1%Z] (fun _ =>
    - rsum (all_indices [b; c]) (fun idx => el t idx * ln (Rmin (Rmax (el p idx) (1 / 10000000)) (1 - 1 / 10000000))) / IZR b)).
Proof. exact cce_compute_R. Qed.
(** A bound that does not depend on the prediction. *)
Theorem C38_finite : forall (t : tensor R) b c, good t -> tdims t = [b; c] -> exists M, forall p, good p -> tdims p = [b; c] ->
  exists v, cce_compute p t = Ok (tensor_of [1%Z] (fun _ => v)) /\ Rabs v <= M.
Proof. exact cce_finite. Qed.
Theorem C38_nonneg : forall (p t : tensor R) b c, good p -> good t -> tdims p = [b; c] -> tdims t = [b; c] ->
  (forall idx, in_range [b; c] idx -> 0 <= el t idx) -> exists v, cce_compute p t = Ok (tensor_of [1%Z] (fun _ => v)) /\ 0 <= v.
Proof. exact cce_nonneg. Qed.
Theorem C38_value_ops : forall {T} {S : Scalar T} (p t : tensor T) b c, good p -> good t -> tdims p = [b; c] -> tdims t = [b; c] ->
  cce_compute p t = Ok (tensor_of [1%Z] (fun _ =>
    s_div (fold_left (fun acc idx => s_sub acc (s_mul (el t idx) (s_log (cce_clamp (el p idx))))) (all_indices [b; c]) zero) (s_z b))).
Proof. exact @cce_compute_ok. Qed.
Example C38_case : good p22 /\ good h22 /\ tdims p22 = [2; 2]%Z /\ tdims h22 = [2; 2]%Z /\ (forall idx, in_range [2; 2]%Z idx -> 0 <= el h22 idx).
Proof.
  split; [exact good_p22|]. split; [exact good_h22|]. repeat split. intros idx HI. apply in_range_2 in HI. destruct HI as (i & j & -> & Hi & Hj).
  unfold h22. rewrite el_mat by auto. destruct (Z.eqb i 0), (Z.eqb j 0); lra.
Qed.
Print Assumptions C38_value.
Print Assumptions C38_finite.
Print Assumptions C38_nonneg.
Print Assumptions C38_value_ops.

(** ** C39.  Full statement: gradient is the derivative of compute with respect to the
    prediction.  It is not. *)
Theorem C39_gradient_refuted : exists (t : tensor R) P s dP g L, curve [2; 2]%Z P s dP /\ good t /\ tdims t = [2; 2]%Z /\
  (forall idx, in_range [2; 2]%Z idx -> 1 / 10000000 < el (P s) idx < 1 - 1 / 10000000) /\
  (forall u, cce_compute (P u) t = Ok (tensor_of [1%Z] (fun _ => L u))) /\ cce_gradient (P s) t = Ok g /\
  ~ is_derive L s (dot g dP).
Proof. exact cce_gradient_wrong. Qed.
(** The true derivative inside the clamp range is -t/(p b). *)
Theorem C39_true_derivative : forall b c (t : tensor R) P s dP, curve [b; c] P s dP -> good t -> tdims t = [b; c] ->
  (forall idx, in_range [b; c] idx -> 1 / 10000000 < el (P s) idx < 1 - 1 / 10000000) ->
  exists L, (forall u, cce_compute (P u) t = Ok (tensor_of [1%Z] (fun _ => L u))) /\
    is_derive L s (rsum (all_indices [b; c]) (fun idx => - el t idx / (el (P s) idx * IZR b) * el dP idx)).
Proof. exact cce_derivative. Qed.
(** What the returned gradient is: the derivative with respect to the inputs of a softmax that
    produced the prediction, for targets whose rows sum to one. *)
Theorem C39_logits_partial : forall b c (t : tensor R) Z s dZ P, curve [b; c] Z s dZ -> good t -> tdims t = [b; c] ->
  (forall u, softmax_fwd (Z u) = Ok (P u)) ->
  (forall idx, in_range [b; c] idx -> 1 / 10000000 < el (P s) idx < 1 - 1 / 10000000) ->
  (forall i, (0 <= i < b)%Z -> rsum (zrange 0 c) (fun j => el t [i; j]) = 1) ->
  exists L g, (forall u, cce_compute (P u) t = Ok (tensor_of [1%Z] (fun _ => L u))) /\
    cce_gradient (P s) t = Ok g /\ is_derive L s (dot g dZ).
Proof. exact cce_logits. Qed.
Theorem C39_gradient_ops : forall {T} {S : Scalar T} (p t : tensor T) b c, good p -> good t -> tdims p = [b; c] -> tdims t = [b; c] -> s_eq (s_z b) zero = false ->
  cce_gradient p t = Ok (tensor_of [b; c] (fun idx => s_div (s_sub (cce_clamp (el p idx)) (el t idx)) (s_z b))).
Proof. exact @cce_gradient_ok. Qed.
(** Zero logits give probabilities 1/2, inside the clamp range; the rows of h22 sum to one. *)
Example C39_case : exists P, softmax_fwd (mat 2 2 (fun _ _ => 0)) = Ok P /\
  (forall idx, in_range [2; 2]%Z idx -> 1 / 10000000 < el P idx < 1 - 1 / 10000000) /\
  (forall i, (0 <= i < 2)%Z -> rsum (zrange 0 2) (fun j => el h22 [i; j]) = 1).
Proof. exact cce_logits_case. Qed.
Print Assumptions C39_gradient_refuted.
Print Assumptions C39_true_derivative.
Print Assumptions C39_logits_partial.
Print Assumptions C39_gradient_ops.

(** ** C73.  Full statement: throws.  Rank 1 reads outside the shape. *)
Theorem C73_rank1_refuted : exists p t : tensor Z, good p /\ good t /\ cce_compute p t = UB /\ cce_gradient p t = UB.
Proof. exact cce_rank1_case. Qed.
Theorem C73_rank1_always : forall {T} {S : Scalar T} (p t : tensor T) n, tdims p = [n] -> tdims t = [n] -> cce_compute p t = UB /\ cce_gradient p t = UB.
Proof. exact @cce_rank1. Qed.
(** Missing: rank 1, where it is false. *)
Theorem C73_throws_partial : forall {T} {S : Scalar T} (p t : tensor T), good p -> good t -> tdims p <> tdims t \/ (3 <= length (tdims p))%nat ->
  cce_compute p t = Throw InvalidArgument /\ cce_gradient p t = Throw InvalidArgument.
Proof. exact @cce_bad_shape. Qed.
Example C73_case : good p31 /\ good v3 /\ tdims p31 <> tdims v3 /\
  cce_compute (tensor_of [1; 2; 1]%Z (fun _ => 1%Z)) (tensor_of [1; 2; 1]%Z (fun _ => 1%Z)) = Throw InvalidArgument.
Proof.
  split; [apply good_tensor_of; [auto with idx|vm_compute; discriminate]|]. split; [apply good_tensor_of; [auto with idx|vm_compute; discriminate]|].
  split; [discriminate|vm_compute; reflexivity].
Qed.
Print Assumptions C73_rank1_refuted.
Print Assumptions C73_rank1_always.
Print Assumptions C73_throws_partial.
