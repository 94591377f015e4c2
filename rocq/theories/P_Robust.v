(** * How far a change of the input can carry (C137) *)
From Coq Require Import Reals Lra.
From Verif Require Import Base Scalar ScalarR Types Spec SpecNN SpecLayers SpecR M_Shape M_Tensor M_Adv M_Act M_Loss M_Layers M_Reg M_Opt M_Net SpecNet SpecFuse SpecRobust
  L_Index L_Tensor L_Nest L_Matmul L_RSum L_Fuse L_Robust P_Tensor P_Layers P_Net P_Prune P_Fuse.
Local Open Scope Z_scope.

(** ** C137
    Exact arithmetic with a largest number [M] (the start value of max pooling is -M).  If no element of the input changes by more than [e],
    no element of the prediction changes by more than [K * e], where [K] is the product of the layers' factors; an output that leads another
    one by more than twice that still leads.  There is such a [K] for all layers whatever, and for a dense layer the factor is attained. *)
Theorem C137_prediction : forall (M : R) G (HR : Rng R G), let sc : Scalar R := RInf M in forall (n : net R G) K ds ds' e x x', (0 <= e)%R -> stack predicts ds (n_layers n) ds' -> gains (n_layers n) K ->
  good x -> tdims x = ds -> near e x x' -> exists y y', snd (net_predict n x) = Ok y /\ snd (net_predict n x') = Ok y' /\ tdims y = ds' /\ near (K * e) y y'.
Proof. exact @near_predict. Qed.
Theorem C137_choice : forall (M : R) G (HR : Rng R G), let sc : Scalar R := RInf M in forall (n : net R G) K ds b c e x x', (0 <= e)%R -> stack predicts ds (n_layers n) [b; c] -> gains (n_layers n) K ->
  good x -> tdims x = ds -> near e x x' -> exists y y', snd (net_predict n x) = Ok y /\ snd (net_predict n x') = Ok y' /\
    forall i j k, 0 <= i < b -> 0 <= j < c -> 0 <= k < c -> (2 * (K * e) < el y [i; j] - el y [i; k])%R -> (el y' [i; k] < el y' [i; j])%R.
Proof. exact @near_choice. Qed.
Theorem C137_exists : forall (M : R), let sc : Scalar R := RInf M in forall ls : list (layer R), exists K, gains ls K.
Proof. exact gains_exist. Qed.
Theorem C137_attained : forall (M : R) G (HR : Rng R G), let sc : Scalar R := RInf M in forall (l : fc R) n k o j e x (g : G), good (fc_w l) -> tdims (fc_w l) = [k; o] -> good (fc_b l) -> tdims (fc_b l) = [1; o] ->
  n * o <= INT_MAX -> 0 <= j < o -> (0 <= e)%R -> good x -> tdims x = [n; k] ->
  exists x' y y', near e x x' /\ snd (layer_forward (LFC l) x g) = Ok y /\ snd (layer_forward (LFC l) x' g) = Ok y' /\
    forall i, 0 <= i < n -> (el y' [i; j] - el y [i; j] = rsum (zrange 0 k) (fun p => Rabs (el (fc_w l) [p; j])) * e)%R.
Proof. exact @dense_attained. Qed.
Print Assumptions C137_prediction.
Print Assumptions C137_choice.
Print Assumptions C137_exists.
Print Assumptions C137_attained.

(** Two dense layers with ReLU between them, the columns' sums at most 3 in each: nothing changes by more than 9 times the change of the input. *)
Definition threeR : list (layer R) := [LFC firstD; LAct (act_new ReLU); LFC secondD].
Local Ltac goodc := apply good_tensor_of; [split; [discriminate|repeat constructor; lia]|cbn [prod]; unfold INT_MAX; lia].
Local Ltac nums := repeat match goal with |- context [IZR (Z.abs ?z)] => let v := eval vm_compute in (Z.abs z) in change (IZR (Z.abs z)) with (IZR v) end.
Example C137_case : forall M : R, let sc : Scalar R := RInf M in
  stack predicts [4; 2] threeR [4; 2] /\ gains threeR (3 * (1 * (3 * 1))) /\ near (1 / 10) (constR [4; 2] 5) (constR [4; 2] (51 / 10)) /\ ~ gain (LFC firstD) 2.
Proof.
  intros M sc. split; [|split; [|split]].
  - apply (acc_cons _ _ _ [4; 3]); [apply pr_layer; apply acc_fc; [goodc|reflexivity|goodc|reflexivity|unfold INT_MAX; lia]|]. apply (acc_cons _ _ _ [4; 3]); [apply pr_layer; apply acc_act; intros; discriminate|].
    apply (acc_cons _ _ _ [4; 2]); [apply pr_layer; apply acc_fc; [goodc|reflexivity|goodc|reflexivity|unfold INT_MAX; lia]|apply acc_nil].
  - apply ga_cons; [|apply ga_cons; [split; cbn; lra|apply ga_cons; [|apply ga_nil]]].
    + split; [lra|]. intros k o j E Hj. injection E as <- <-. change (zrange 0 2) with [0; 1]. rewrite !rsum_cons, rsum_nil. unfold firstD, denseP. cbn [fc_w]. rewrite !el_tensor_of by (repeat constructor; lia). unfold fn2. cbn [nth].
      assert (j = 0 \/ j = 1 \/ j = 2) as [-> | [-> | ->]] by lia; rewrite <- !abs_IZR; nums; lra.
    + split; [lra|]. intros k o j E Hj. injection E as <- <-. change (zrange 0 3) with [0; 1; 2]. rewrite !rsum_cons, rsum_nil. unfold secondD, denseP. cbn [fc_w]. rewrite !el_tensor_of by (repeat constructor; lia). unfold fn2. cbn [nth].
      assert (j = 0 \/ j = 1) as [-> | ->] by lia; rewrite <- !abs_IZR; nums; lra.
  - split; [goodc|]. split; [reflexivity|]. intros idx HI. unfold constR in *. change (in_range [4; 2] idx) in HI. rewrite !el_tensor_of by exact HI. replace (51 / 10 - 5)%R with (1 / 10)%R by lra. rewrite Rabs_right; lra.
  - intros (_ & H). specialize (H 2 3 2 eq_refl ltac:(lia)). change (zrange 0 2) with [0; 1] in H. rewrite !rsum_cons, rsum_nil in H. unfold firstD, denseP in H. cbn [fc_w] in H. rewrite !el_tensor_of in H by (repeat constructor; lia). unfold fn2 in H. cbn [nth] in H.
    rewrite <- !abs_IZR in H. revert H. nums. lra.
Qed.
