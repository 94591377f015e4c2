(** * Properties C97 and C98: losses and training in float32 *)
From Coq Require Import Reals Lra SpecFloat.
From Verif Require Import Base Scalar Types Spec SpecNN SpecR SpecF32 SpecOpt M_Shape M_Tensor M_Adv M_Act M_Loss M_Opt L_Index L_Tensor L_FloatLib L_FloatT L_Double L_FloatLoss L_FloatOpt L_FloatTrain.
Local Open Scope R_scope.
Local Notation F32 lm := (F32Scalar lm).

(** ** C97.  [f32_nonneg]: a number at least zero, possibly infinite, never NaN. *)
Theorem C97_mse_never_nan : forall lm (p t : tensor f32), good p -> good t -> aligned p t -> all_finite p -> all_finite t ->
  exists y, mse_compute (S := F32 lm) p t = Ok y /\ good y /\ tdims y = [1%Z] /\ f32_nonneg (@el _ (F32 lm) y [0%Z]).
Proof. exact mse_value_dir. Qed.
Theorem C97_mse_finite : forall lm (p t : tensor f32), good p -> good t -> aligned p t ->
  Forall (f32_in (- 2 ^ 50) (2 ^ 50)) (tdata p) -> Forall (f32_in (- 2 ^ 50) (2 ^ 50)) (tdata t) ->
  exists y, mse_compute (S := F32 lm) p t = Ok y /\ f32_in 0 (2 ^ 127) (@el _ (F32 lm) y [0%Z]).
Proof. exact mse_finite32. Qed.
Theorem C97_mse_of_itself : forall lm (p : tensor f32), good p -> all_finite p ->
  exists y, mse_compute (S := F32 lm) p p = Ok y /\ f32_finite (@el _ (F32 lm) y [0%Z]) /\ f32_value (@el _ (F32 lm) y [0%Z]) = 0.
Proof. exact mse_value_same. Qed.
(** A zero loss does not mean equal predictions (C37 over exact numbers): the square of a tiny difference is rounded to zero. *)
Theorem C97_zero_means_equal_refuted : forall lm, exists p t y : tensor f32, good p /\ good t /\ aligned p t /\ all_finite p /\ all_finite t /\ mse_compute (S := F32 lm) p t = Ok y /\
  f32_value (@el _ (F32 lm) p [0%Z]) <> f32_value (@el _ (F32 lm) t [0%Z]) /\ f32_finite (@el _ (F32 lm) y [0%Z]) /\ f32_value (@el _ (F32 lm) y [0%Z]) = 0.
Proof. exact mse_tiny. Qed.
(** It does mean that every prediction is within 2^-59 of its target. *)
Theorem C97_zero_means_close : forall lm (p t y : tensor f32), good p -> good t -> aligned p t -> all_finite p -> all_finite t -> mse_compute (S := F32 lm) p t = Ok y ->
  f32_finite (@el _ (F32 lm) y [0%Z]) -> f32_value (@el _ (F32 lm) y [0%Z]) = 0 ->
  forall idx, in_range (tdims p) idx -> Rabs (f32_value (@el _ (F32 lm) p idx) - f32_value (@el _ (F32 lm) (@in_shape _ (F32 lm) (tdims p) t) idx)) < / 2 ^ 59.
Proof. exact mse_zero32. Qed.
(** The gradient points from the target to the prediction. *)
Theorem C97_mse_gradient : forall lm (p t : tensor f32), good p -> good t -> aligned p t -> all_finite p -> all_finite t ->
  exists y, mse_gradient (S := F32 lm) p t = Ok y /\ good y /\ tdims y = tdims p /\ forall idx, in_range (tdims p) idx ->
    (f32_value (@el _ (F32 lm) (@in_shape _ (F32 lm) (tdims p) t) idx) <= f32_value (@el _ (F32 lm) p idx) -> f32_nonneg (@el _ (F32 lm) y idx)) /\
    (f32_value (@el _ (F32 lm) p idx) <= f32_value (@el _ (F32 lm) (@in_shape _ (F32 lm) (tdims p) t) idx) -> f32_nonpos (@el _ (F32 lm) y idx)).
Proof. exact mse_grad_dir. Qed.
(** Predictions may be infinite or out of [0, 1]: they are clamped.  Targets are in [0, 1]. *)
Theorem C97_cross_entropy : forall lm, log_below_one (m_log lm) -> forall (p t : tensor f32) b c, good p -> good t -> tdims p = [b; c] -> tdims t = [b; c] ->
  Forall (fun x => f32_valid x /\ ~ f32_nan x) (tdata p) -> Forall (f32_in 0 1) (tdata t) ->
  exists y, cce_compute (S := F32 lm) p t = Ok y /\ good y /\ tdims y = [1%Z] /\ f32_in 0 (2 ^ 32) (@el _ (F32 lm) y [0%Z]).
Proof. exact cce_value32. Qed.
Theorem C97_cross_entropy_gradient : forall lm (p t : tensor f32) b c, good p -> good t -> tdims p = [b; c] -> tdims t = [b; c] ->
  Forall (fun x => f32_valid x /\ ~ f32_nan x) (tdata p) -> Forall (f32_in 0 1) (tdata t) ->
  exists y, cce_gradient (S := F32 lm) p t = Ok y /\ good y /\ tdims y = [b; c] /\ forall idx, in_range [b; c] idx -> f32_in (-1) 1 (@el _ (F32 lm) y idx).
Proof. exact cce_grad. Qed.
Theorem C97_softmax_cross_entropy : forall lm, libm_like lm -> log_below_one (m_log lm) -> forall (x t : tensor f32) b c, good x -> good t -> tdims x = [b; c] -> tdims t = [b; c] ->
  all_finite x -> Forall (f32_in 0 1) (tdata t) ->
  exists p y g, softmax_fwd (S := F32 lm) x = Ok p /\ cce_compute (S := F32 lm) p t = Ok y /\ f32_in 0 (2 ^ 32) (@el _ (F32 lm) y [0%Z]) /\
    cce_gradient (S := F32 lm) p t = Ok g /\ tdims g = [b; c] /\ forall idx, in_range [b; c] idx -> f32_in (-1) 1 (@el _ (F32 lm) g idx).
Proof. exact softmax_cce32. Qed.

Definition t23 (a b : f32) : tensor f32 := tensor_of [2; 3]%Z (fun idx => if (nth 1 idx 0 =? 0)%Z then a else b).
Lemma t23_good : forall a b, good (t23 a b) /\ tdims (t23 a b) = [2; 3]%Z.
Proof. intros a b. split; [apply good_tensor_of; [auto with idx|vm_compute; discriminate]|reflexivity]. Qed.
Lemma small_in : forall z lo hi, (-1 <= z <= 1)%Z -> lo <= IZR z <= hi -> f32_in lo hi (f32_of_Z z).
Proof.
  intros z lo hi Hz H. assert (C : z = (-1)%Z \/ z = 0%Z \/ z = 1%Z) by lia.
  destruct C as [->|[->| ->]]; (split; [reflexivity|]); (split; [exact I|]); unfold f32_value; simpl; lra.
Qed.
Lemma t23_tame : forall a b M, (-1 <= a <= 1)%Z -> (-1 <= b <= 1)%Z -> 1 <= M -> Forall (f32_in (- M) M) (tdata (t23 (f32_of_Z a) (f32_of_Z b))).
Proof.
  intros a b M Ha Hb HM. change (tdata (t23 (f32_of_Z a) (f32_of_Z b))) with [f32_of_Z a; f32_of_Z b; f32_of_Z b; f32_of_Z a; f32_of_Z b; f32_of_Z b].
  assert (K : forall z, (-1 <= z <= 1)%Z -> f32_in (- M) M (f32_of_Z z)) by (intros z Hz; apply small_in; [exact Hz|]; assert (-1 <= IZR z <= 1) by (split; apply IZR_le; lia); lra).
  repeat (apply Forall_cons; [apply K; assumption|]). apply Forall_nil.
Qed.
Example C97_case : libm_like cr_libm /\ log_below_one (m_log cr_libm) /\ good (t23 (f32_of_Z 1) (f32_of_Z (-1))) /\ all_finite (t23 (f32_of_Z 1) (f32_of_Z (-1))) /\
  Forall (f32_in 0 1) (tdata (t23 (f32_of_Z 1) (f32_of_Z 0))) /\ Forall (f32_in (- 2 ^ 50) (2 ^ 50)) (tdata (t23 (f32_of_Z 1) (f32_of_Z (-1)))) /\
  aligned (t23 (f32_of_Z 1) (f32_of_Z (-1))) (t23 (f32_of_Z 1) (f32_of_Z 0)) /\
  Forall (fun x => f32_valid x /\ ~ f32_nan x) (tdata (t23 (S754_infinity false) (f32_of_Z (-1)))).
Proof.
  assert (P50 : 1 <= 2 ^ 50) by (apply pow_R1_Rle; lra).
  split; [exact cr_libm_like|]. split; [exact cr_log_below|]. split; [apply t23_good|]. split; [unfold all_finite; vm_compute; repeat constructor|].
  split; [change (tdata (t23 (f32_of_Z 1) (f32_of_Z 0))) with [f32_of_Z 1; f32_of_Z 0; f32_of_Z 0; f32_of_Z 1; f32_of_Z 0; f32_of_Z 0]; repeat (constructor; [apply small_in; [lia|lra]|]); constructor|].
  split; [change (tdata (t23 (f32_of_Z 1) (f32_of_Z (-1)))) with [f32_of_Z 1; f32_of_Z (-1); f32_of_Z (-1); f32_of_Z 1; f32_of_Z (-1); f32_of_Z (-1)]; repeat (constructor; [apply small_in; [lia|lra]|]); constructor|].
  split; [left; reflexivity|].
  change (tdata (t23 (S754_infinity false) (f32_of_Z (-1)))) with [S754_infinity false; f32_of_Z (-1); f32_of_Z (-1); S754_infinity false; f32_of_Z (-1); f32_of_Z (-1)].
  repeat (constructor; [split; [reflexivity|intros E; discriminate E]|]). constructor.
Qed.
Print Assumptions C97_mse_never_nan.
Print Assumptions C97_mse_finite.
Print Assumptions C97_mse_of_itself.
Print Assumptions C97_zero_means_equal_refuted.
Print Assumptions C97_zero_means_close.
Print Assumptions C97_mse_gradient.
Print Assumptions C97_cross_entropy.
Print Assumptions C97_cross_entropy_gradient.
Print Assumptions C97_softmax_cross_entropy.

(** ** C98.  Weights stay finite (at most 2^127) through any history of calls with gradients up to 2^30 in absolute value. *)
Theorem C98_sgd : forall lm D cs lr mom damp nest st, f32_in 0 1 lr -> f32_decay mom -> f32_in 0 1 damp -> store_ok D st -> calls_ok D cs -> tame_calls (2 ^ 30) cs -> tame_weights (2 ^ 127) st ->
  exists o' st', opt_run (sgd_optimize (S := F32 lm)) cs (sgd_new lr mom damp (f32_of_Z 0) nest) st = (o', st', Ok tt) /\ store_ok D st' /\ tame_weights (2 ^ 127) st'.
Proof. exact sgd_finite32. Qed.
Theorem C98_rmsprop : forall lm D cs lr alpha eps mom st, f32_in 0 1 lr -> f32_decay alpha -> f32_in (/ 2 ^ 40) 1 eps -> f32_decay mom ->
  store_ok D st -> calls_ok D cs -> tame_calls (2 ^ 30) cs -> tame_weights (2 ^ 127) st ->
  exists o' st', opt_run (rms_optimize (S := F32 lm)) cs (rms_new lr alpha eps mom false (f32_of_Z 0)) st = (o', st', Ok tt) /\ store_ok D st' /\ tame_weights (2 ^ 127) st'.
Proof. exact rms_finite32. Qed.
Theorem C98_adam : forall lm, pow_like (m_pow lm) -> forall D cs lr b1 b2 eps decay batch st, f32_in 0 1 lr -> f32_decay b1 -> f32_decay b2 -> f32_in (/ 2 ^ 40) 1 eps -> f32_in 0 1 decay ->
  (1 <= batch <= INT_MAX)%Z -> (Zlen cs <= INT_MAX)%Z -> store_ok D st -> calls_ok D cs -> tame_calls (2 ^ 30) cs -> tame_weights (2 ^ 127) st ->
  exists o' st', opt_run (adam_optimize (S := F32 lm)) cs (adam_new lr b1 b2 eps (f32_of_Z 0) (f32_of_Z 0) decay batch) st = (o', st', Ok tt) /\ store_ok D st' /\ tame_weights (2 ^ 127) st'.
Proof. exact adam_finite32. Qed.
(** Centered RMSProp takes the square root of a difference that rounding can make negative: with the default settings (learning rate
    0.01, decay 0.99, epsilon 1e-8) and the constant gradient 19 the weight is NaN after 1150 steps. *)
Theorem C98_centered_rmsprop_refuted : forall lm, exists cs st o' st', calls_ok (fun _ => [1%Z]) cs /\ store_ok (fun _ => [1%Z]) st /\ tame_calls (2 ^ 30) cs /\ tame_weights (2 ^ 127) st /\
  opt_run (rms_optimize (S := F32 lm)) cs (rms_new (f32_div (f32_of_Z 1) (f32_of_Z 100)) (f32_div (f32_of_Z 99) (f32_of_Z 100)) (f32_div (f32_of_Z 1) (f32_of_Z 100000000)) (f32_of_Z 0) true (f32_of_Z 0)) st = (o', st', Ok tt) /\
  f32_nan (@el _ (F32 lm) (st' 0%Z) [0%Z]).
Proof. exact cent_refuted. Qed.
(** One very large gradient makes Adam's second moment infinite; the weight then keeps its value whatever follows. *)
Theorem C98_adam_freezes : forall lm, pow_like (m_pow lm) -> forall D (cs0 : list (call f32)) lro k g (cs1 : list (call f32)) lr b1 b2 eps decay batch st o1 st1 o2 st2 idx,
  f32_in 0 1 lr -> f32_decay b1 -> f32_decay b2 -> 0 < f32_value b2 -> f32_in (/ 2 ^ 40) 1 eps -> f32_in 0 1 decay -> (1 <= batch <= INT_MAX)%Z -> (Zlen cs0 + 1 + Zlen cs1 <= INT_MAX)%Z ->
  store_ok D st -> calls_ok D (cs0 ++ (lro, [(k, g)]) :: cs1) -> tame_weights (2 ^ 127) st -> tame_calls (2 ^ 30) cs0 -> f32_in (-1) 1 lro -> tame_calls (2 ^ 80) cs1 -> in_range (D k) idx ->
  2 ^ 70 <= Rabs (f32_value (f32_div (@el _ (F32 lm) g idx) (f32_of_Z batch))) -> f32_in (- 2 ^ 80) (2 ^ 80) (@el _ (F32 lm) g idx) ->
  opt_run (adam_optimize (S := F32 lm)) cs0 (adam_new lr b1 b2 eps (f32_of_Z 0) (f32_of_Z 0) decay batch) st = (o1, st1, Ok tt) ->
  opt_run (adam_optimize (S := F32 lm)) (cs0 ++ (lro, [(k, g)]) :: cs1) (adam_new lr b1 b2 eps (f32_of_Z 0) (f32_of_Z 0) decay batch) st = (o2, st2, Ok tt) ->
  f32_finite (@el _ (F32 lm) (st2 k) idx) /\ f32_value (@el _ (F32 lm) (st2 k) idx) = f32_value (@el _ (F32 lm) (st1 k) idx).
Proof. exact adam_freezes. Qed.
(** The default settings of the three optimizers, and a history of two calls; powers by repeated multiplication meet [pow_like]. *)
Ltac lit v := match goal with |- f32_in _ _ ?x => change x with v | |- f32_decay ?x => unfold f32_decay; change x with v end; split; [reflexivity|]; split; [exact I|]; unfold f32_value.
Example C98_case : f32_in 0 1 (f32_div (f32_of_Z 1) (f32_of_Z 100)) /\ f32_decay (f32_div (f32_of_Z 9) (f32_of_Z 10)) /\ f32_decay (f32_div (f32_of_Z 999) (f32_of_Z 1000)) /\
  f32_decay (f32_div (f32_of_Z 99) (f32_of_Z 100)) /\ f32_in (/ 2 ^ 40) 1 (f32_div (f32_of_Z 1) (f32_of_Z 100000000)) /\ f32_decay (f32_of_Z 0) /\
  calls_ok (fun _ => [2; 3]%Z) [(f32_of_Z 0, [(0%Z, t23 (f32_of_Z 1) (f32_of_Z (-1)))]); (f32_of_Z 1, [(0%Z, t23 (f32_of_Z 0) (f32_of_Z 1)); (1%Z, t23 (f32_of_Z 1) (f32_of_Z 0))])] /\
  tame_calls (2 ^ 30) [(f32_of_Z 0, [(0%Z, t23 (f32_of_Z 1) (f32_of_Z (-1)))]); (f32_of_Z 1, [(0%Z, t23 (f32_of_Z 0) (f32_of_Z 1)); (1%Z, t23 (f32_of_Z 1) (f32_of_Z 0))])] /\
  store_ok (fun _ => [2; 3]%Z) (fun _ => t23 (f32_of_Z 1) (f32_of_Z (-1))) /\ tame_weights (2 ^ 127) (fun _ => t23 (f32_of_Z 1) (f32_of_Z (-1))) /\ pow_like (m_pow cr_libm).
Proof.
  assert (P30 : 1 <= 2 ^ 30) by (apply pow_R1_Rle; lra). assert (P127 : 1 <= 2 ^ 127) by (apply pow_R1_Rle; lra).
  assert (E : / 2 ^ 40 <= / 2 ^ 30) by (apply Rinv_le_contravar; [apply pow_lt; lra|apply Rle_pow; [lra|lia]]). assert (E30 : 2 ^ 30 = 1073741824) by (simpl; lra).
  split; [lit (S754_finite false 10737418 (-30)); simpl; lra|]. split; [lit (S754_finite false 15099494 (-24)); simpl; lra|]. split; [lit (S754_finite false 16760439 (-24)); simpl; lra|].
  split; [lit (S754_finite false 16609444 (-24)); simpl; lra|]. split; [lit (S754_finite false 11258999 (-50)); rewrite E30 in E; simpl; simpl in E; lra|]. split; [apply small_in; [lia|lra]|].
  split; [repeat constructor; apply t23_good|]. split.
  { assert (OV : forall z, (-1 <= z <= 1)%Z -> f32_in (-1) 1 (f32_of_Z z)) by (intros z Hz; apply small_in; [exact Hz|split; apply IZR_le; lia]).
    apply Forall_cons; [|apply Forall_cons; [|apply Forall_nil]]; (split; [apply OV; lia|]); cbn [snd]; repeat first [apply Forall_nil | apply Forall_cons; [apply t23_tame; (lia || lra)|]]. }
  split; [intros k; apply t23_good|]. split; [intros k; apply t23_tame; (lia || lra)|exact pow64_like].
Qed.
Example C98_freeze_case : 2 ^ 70 <= Rabs (f32_value (f32_div (S754_finite false 8388608 47) (f32_of_Z 1))) /\ f32_in (- 2 ^ 80) (2 ^ 80) (S754_finite false 8388608 47) /\ 0 < f32_value (f32_div (f32_of_Z 999) (f32_of_Z 1000)).
Proof.
  change (f32_div (S754_finite false 8388608 47) (f32_of_Z 1)) with (S754_finite false 8388608 47). change (f32_div (f32_of_Z 999) (f32_of_Z 1000)) with (S754_finite false 16760439 (-24)).
  unfold f32_in, f32_value. simpl. split; [rewrite Rabs_pos_eq; lra|]. split; [|lra]. split; [reflexivity|]. split; [exact I|lra].
Qed.
Print Assumptions C98_sgd.
Print Assumptions C98_rmsprop.
Print Assumptions C98_adam.
Print Assumptions C98_centered_rmsprop_refuted.
Print Assumptions C98_adam_freezes.
