(** * Property C112: when float32 loses a step of gradient descent, and when it does not *)
From Coq Require Import Reals Lra SpecFloat.
From Verif Require Import Base Scalar Types Spec SpecNN SpecR SpecF32 SpecOpt SpecWhole M_Shape M_Tensor M_Opt L_Index L_Tensor L_Matmul L_Float L_Whole L_Stall.
Local Open Scope R_scope.
Local Notation F32 lm := (F32Scalar lm).

(** ** C112.  Full statement: a step with a positive rate along a non-zero gradient changes the weight.  False: with weight 1, gradient 1
    and rate 2^-27 it stays where it is. *)
Theorem C112_refuted : forall lm, exists lr (o' : sgd f32) (st st' : store f32) (g : tensor f32), f32_in (/ 2 ^ 27) (/ 2 ^ 27) lr /\ good g /\ tdims g = [1%Z] /\ store_ok (fun _ => [1%Z]) st /\
  f32_value (@el _ (F32 lm) g [0%Z]) = 1 /\ f32_value (@el _ (F32 lm) (st 0%Z) [0%Z]) = 1 /\
  opt_run (sgd_optimize (S := F32 lm)) [(f32_of_Z 0, [(0%Z, g)])] (sgd_new lr (f32_of_Z 0) (f32_of_Z 0) (f32_of_Z 0) false) st = (o', st', Ok tt) /\
  st' 0%Z = st 0%Z.
Proof. exact sgd_lost. Qed.
(** However many steps are made, a weight keeps its value when each step is at most 2^-27 times the weight, whatever the gradients add up to. *)
Theorem C112_never_moves : forall lm D cs lr damp nest st (o' : sgd f32) st' k idx, store_ok D st -> calls_ok D cs -> in_range (D k) idx ->
  f32_valid (@el _ (F32 lm) (st k) idx) /\ f32_finite (@el _ (F32 lm) (st k) idx) -> / 2 ^ 100 <= Rabs (f32_value (@el _ (F32 lm) (st k) idx)) <= 2 ^ 127 ->
  (forall e, In e (updates k cs) -> (f32_valid (@rate _ (F32 lm) lr (fst e)) /\ f32_finite (@rate _ (F32 lm) lr (fst e))) /\ (f32_valid (@el _ (F32 lm) (snd e) idx) /\ f32_finite (@el _ (F32 lm) (snd e) idx)) /\
     Rabs (f32_value (@rate _ (F32 lm) lr (fst e)) * f32_value (@el _ (F32 lm) (snd e) idx)) <= Rabs (f32_value (@el _ (F32 lm) (st k) idx)) / 2 ^ 27) ->
  opt_run (sgd_optimize (S := F32 lm)) cs (sgd_new lr (f32_of_Z 0) damp (f32_of_Z 0) nest) st = (o', st', Ok tt) ->
  f32_finite (@el _ (F32 lm) (st' k) idx) /\ f32_value (@el _ (F32 lm) (st' k) idx) = f32_value (@el _ (F32 lm) (st k) idx).
Proof. exact sgd_stuck. Qed.
(** A step of at least 2^-22 times the weight moves it, and in the right direction. *)
Theorem C112_moves_partial : forall lm D lr lro damp nest st (o' : sgd f32) st' k g idx, store_ok D st -> good g -> tdims g = D k -> in_range (D k) idx ->
  f32_valid (@el _ (F32 lm) (st k) idx) /\ f32_finite (@el _ (F32 lm) (st k) idx) -> f32_valid (@rate _ (F32 lm) lr lro) /\ f32_finite (@rate _ (F32 lm) lr lro) -> f32_valid (@el _ (F32 lm) g idx) /\ f32_finite (@el _ (F32 lm) g idx) ->
  Rabs (f32_value (@el _ (F32 lm) (st k) idx)) <= 2 ^ 126 -> / 2 ^ 120 <= Rabs (f32_value (@rate _ (F32 lm) lr lro) * f32_value (@el _ (F32 lm) g idx)) <= 2 ^ 125 ->
  Rabs (f32_value (@el _ (F32 lm) (st k) idx)) / 2 ^ 22 <= Rabs (f32_value (@rate _ (F32 lm) lr lro) * f32_value (@el _ (F32 lm) g idx)) ->
  opt_run (sgd_optimize (S := F32 lm)) [(lro, [(k, g)])] (sgd_new lr (f32_of_Z 0) damp (f32_of_Z 0) nest) st = (o', st', Ok tt) ->
  f32_finite (@el _ (F32 lm) (st' k) idx) /\ (0 < f32_value (@rate _ (F32 lm) lr lro) * f32_value (@el _ (F32 lm) g idx) -> f32_value (@el _ (F32 lm) (st' k) idx) < f32_value (@el _ (F32 lm) (st k) idx)) /\
    (f32_value (@rate _ (F32 lm) lr lro) * f32_value (@el _ (F32 lm) g idx) < 0 -> f32_value (@el _ (F32 lm) (st k) idx) < f32_value (@el _ (F32 lm) (st' k) idx)).
Proof. exact sgd_moves. Qed.
(** A weight 3 under a history of [n] steps of rate 2^-30 along a gradient 1, and one step of rate 2^-10. *)
Definition c3 (z : Z) : tensor f32 := tensor_of [2%Z] (fun _ => f32_of_Z z).
Definition tiny_rate (n : Z) : f32 := f32_div (f32_of_Z 1) (f32_of_Z n).
Example C112_case : forall lm n, let cs := repeat (f32_of_Z 0, [(0%Z, c3 1)]) n in
  store_ok (fun _ => [2%Z]) (fun _ => c3 3) /\ calls_ok (fun _ => [2%Z]) cs /\
  (forall e, In e (updates 0 cs) -> Rabs (f32_value (@rate _ (F32 lm) (tiny_rate 1073741824) (fst e)) * f32_value (@el _ (F32 lm) (snd e) [1%Z])) <= Rabs (f32_value (@el _ (F32 lm) (c3 3) [1%Z])) / 2 ^ 27) /\
  Rabs (f32_value (@el _ (F32 lm) (c3 3) [1%Z])) / 2 ^ 22 <= Rabs (f32_value (@rate _ (F32 lm) (tiny_rate 1024) (f32_of_Z 0)) * f32_value (@el _ (F32 lm) (c3 1) [1%Z])).
Proof.
  intros lm n cs. assert (G : forall z, good (c3 z)) by (intros z; apply good_tensor_of; [split; [discriminate|apply Forall_cons; [lia|apply Forall_nil]]|vm_compute; discriminate]).
  assert (V3 : f32_value (@el _ (F32 lm) (c3 3) [1%Z]) = 3) by (match goal with |- f32_value ?x = _ => let v := eval vm_compute in x in change x with v end; unfold f32_value; simpl; lra).
  assert (V1 : f32_value (@el _ (F32 lm) (c3 1) [1%Z]) = 1) by (match goal with |- f32_value ?x = _ => let v := eval vm_compute in x in change x with v end; unfold f32_value; simpl; lra).
  assert (R1 : f32_value (@rate _ (F32 lm) (tiny_rate 1073741824) (f32_of_Z 0)) = / 2 ^ 30) by (match goal with |- f32_value ?x = _ => let v := eval vm_compute in x in change x with v end; unfold f32_value; simpl; lra).
  assert (R2 : f32_value (@rate _ (F32 lm) (tiny_rate 1024) (f32_of_Z 0)) = / 2 ^ 10) by (match goal with |- f32_value ?x = _ => let v := eval vm_compute in x in change x with v end; unfold f32_value; simpl; lra).
  split; [intros k; split; [apply G|reflexivity]|]. split.
  { apply Forall_forall. intros c Hc. apply repeat_spec in Hc. subst c. apply Forall_cons; [split; [apply G|reflexivity]|apply Forall_nil]. }
  split.
  - intros e He. unfold updates in He. apply in_flat_map in He. destruct He as (c & Hc & He). apply repeat_spec in Hc. subst c. change (In e [(f32_of_Z 0, c3 1)]) in He. destruct He as [<-|[]]. cbn [fst snd]. rewrite R1, V1, V3. rewrite Rabs_pos_eq, Rabs_pos_eq by (simpl; lra). simpl. lra.
  - rewrite R2, V1, V3. rewrite Rabs_pos_eq, Rabs_pos_eq by (simpl; lra). simpl. lra.
Qed.
Print Assumptions C112_refuted.
Print Assumptions C112_never_moves.
Print Assumptions C112_moves_partial.
