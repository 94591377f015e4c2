(** * How far a change of the weights can carry (C139) *)
From Coq Require Import Reals Lra.
From Verif Require Import Base Scalar ScalarR Types Spec SpecNN SpecLayers SpecR M_Shape M_Tensor M_Adv M_Act M_Loss M_Layers M_Reg M_Opt M_Net SpecNet SpecFuse SpecRobust SpecSway
  L_Index L_Tensor L_Nest L_Matmul L_RSum L_Fuse L_Robust L_Sway P_Tensor P_Layers P_Net P_Prune P_Fuse P_Robust.
Local Open Scope Z_scope.

(** ** C139
    Exact arithmetic with a largest number [K] (the start value of max pooling is -K).  If no weight and no bias changes by more than [d] and no
    element of the input by more than [E], no element of the prediction changes by more than the bound [E'] that is computed layer by layer ([sways]). *)
Theorem C139_prediction : forall (K : R), (0 <= K)%R -> forall G (HR : Rng R G), let sc : Scalar R := RInf K in forall (n n' : net R G) d M E M' E' ds ds' x x', (0 <= d)%R -> (0 <= E)%R ->
  stack predicts ds (n_layers n) ds' -> Forall2 (altered d) (n_layers n) (n_layers n') -> n_rng n' = n_rng n -> sways d M E (n_layers n) M' E' ->
  good x -> tdims x = ds -> within M x -> near E x x' ->
  exists y y', snd (net_predict n x) = Ok y /\ snd (net_predict n' x') = Ok y' /\ tdims y = ds' /\ within M' y /\ near E' y y'.
Proof. exact @sway_predict. Qed.
(** A class that leads another one by more than twice the bound still leads it. *)
Theorem C139_choice : forall (K : R), (0 <= K)%R -> forall G (HR : Rng R G), let sc : Scalar R := RInf K in forall (n n' : net R G) d M E M' E' ds b c x x', (0 <= d)%R -> (0 <= E)%R ->
  stack predicts ds (n_layers n) [b; c] -> Forall2 (altered d) (n_layers n) (n_layers n') -> n_rng n' = n_rng n -> sways d M E (n_layers n) M' E' ->
  good x -> tdims x = ds -> within M x -> near E x x' ->
  exists y y', snd (net_predict n x) = Ok y /\ snd (net_predict n' x') = Ok y' /\
    forall i j k, 0 <= i < b -> 0 <= j < c -> 0 <= k < c -> (2 * E' < el y [i; j] - el y [i; k])%R -> (el y' [i; k] < el y' [i; j])%R.
Proof. exact @sway_choice. Qed.
(** The prediction depends continuously on weights, biases and input: to keep all changes of the output below [eps], for all inputs of at most
    [M], it is enough to keep all changes of weights and inputs below some [d]. *)
Theorem C139_continuous : forall (K : R), (0 <= K)%R -> forall G (HR : Rng R G), let sc : Scalar R := RInf K in forall (n : net R G) ds ds' M eps, (0 < eps)%R -> stack predicts ds (n_layers n) ds' ->
  exists d, (0 < d)%R /\ forall (n' : net R G) x x', Forall2 (altered d) (n_layers n) (n_layers n') -> n_rng n' = n_rng n -> good x -> tdims x = ds -> within M x -> near d x x' ->
    exists y y', snd (net_predict n x) = Ok y /\ snd (net_predict n' x') = Ok y' /\ near eps y y'.
Proof. exact @sway_continuous. Qed.
(** For a dense layer the bound cannot be improved. *)
Theorem C139_attained : forall (K : R) G (HR : Rng R G), let sc : Scalar R := RInf K in forall (l : fc R) n k o d s x (g : G), good (fc_w l) -> tdims (fc_w l) = [k; o] -> good (fc_b l) -> tdims (fc_b l) = [1; o] -> n * o <= INT_MAX -> (0 <= d)%R ->
  good x -> tdims x = [n; k] -> (forall idx, in_range [n; k] idx -> el x idx = s) ->
  exists l' y y', altered d (LFC l) (LFC l') /\ snd (layer_forward (LFC l) x g) = Ok y /\ snd (layer_forward (LFC l') x g) = Ok y' /\
    forall i j, 0 <= i < n -> 0 <= j < o -> (el y' [i; j] - el y [i; j] = sway d s (LFC l))%R.
Proof. exact @sway_attained. Qed.
Print Assumptions C139_prediction.
Print Assumptions C139_choice.
Print Assumptions C139_continuous.
Print Assumptions C139_attained.

(** The three layers of C137's case: with all weights and biases changed by at most 1/100, predictions for inputs of at most 5 change by less than 1. *)
Definition shiftD (l : fc R) : fc R :=
  mkFC (tensor_of (tdims (fc_w l)) (fun idx => (@el _ RScalar (fc_w l) idx + 1 / 100)%R)) (tensor_of (tdims (fc_b l)) (fun idx => (@el _ RScalar (fc_b l) idx - 1 / 200)%R)) None None None.
Definition threeS : list (layer R) := [LFC (shiftD firstD); LAct (act_new ReLU); LFC (shiftD secondD)].
Local Ltac goodc := apply good_tensor_of; [split; [discriminate|repeat constructor; lia]|cbn [prod]; unfold INT_MAX; lia].
Local Ltac nums := repeat match goal with |- context [IZR (Z.abs ?z)] => let v := eval vm_compute in (Z.abs z) in change (IZR (Z.abs z)) with (IZR v) end.
Lemma shiftD_altered : forall (K : R) k o f b, let sc : Scalar R := RInf K in 0 < k -> 0 < o -> k * o <= INT_MAX -> altered (1 / 100) (LFC (denseP k o f b)) (LFC (shiftD (denseP k o f b))).
Proof.
  intros K k o f b sc Hk Ho HM. assert (P1 : pos_dims [k; o]) by (split; [discriminate|repeat constructor; lia]). assert (P2 : pos_dims [1; o]) by (split; [discriminate|repeat constructor; lia]).
  assert (Q1 : prod [k; o] <= INT_MAX) by (cbn [prod]; lia). assert (Q2 : prod [1; o] <= INT_MAX) by (cbn [prod]; nia).
  split; (split; [apply good_tensor_of; assumption|]; split; [reflexivity|]); intros idx HI.
  - change (in_range [k; o] idx) in HI. cbn [shiftD fc_w]. rewrite el_tensor_of by exact HI. change (@el R RScalar (fc_w (denseP k o f b)) idx) with (@el R sc (fc_w (denseP k o f b)) idx).
    match goal with |- (Rabs (?a + ?c - ?a) <= _)%R => replace (a + c - a)%R with c by ring end. rewrite Rabs_pos_eq; lra.
  - change (in_range [1; o] idx) in HI. cbn [shiftD fc_b]. rewrite el_tensor_of by exact HI. change (@el R RScalar (fc_b (denseP k o f b)) idx) with (@el R sc (fc_b (denseP k o f b)) idx).
    match goal with |- (Rabs (?a - ?c - ?a) <= _)%R => replace (a - c - a)%R with (- c)%R by ring end. rewrite Rabs_Ropp, Rabs_pos_eq; lra.
Qed.
Lemma firstD_gain : forall K : R, @gain (RInf K) (LFC firstD) 3.
Proof.
  intros K. split; [lra|]. intros k o j E Hj. injection E as <- <-. change (zrange 0 2) with [0; 1]. rewrite !rsum_cons, rsum_nil. unfold firstD, denseP. cbn [fc_w]. rewrite !el_tensor_of by (repeat constructor; lia). unfold fn2. cbn [nth].
  assert (j = 0 \/ j = 1 \/ j = 2) as [-> | [-> | ->]] by lia; rewrite <- !abs_IZR; nums; lra.
Qed.
Lemma secondD_gain : forall K : R, @gain (RInf K) (LFC secondD) 3.
Proof.
  intros K. split; [lra|]. intros k o j E Hj. injection E as <- <-. change (zrange 0 3) with [0; 1; 2]. rewrite !rsum_cons, rsum_nil. unfold secondD, denseP. cbn [fc_w]. rewrite !el_tensor_of by (repeat constructor; lia). unfold fn2. cbn [nth].
  assert (j = 0 \/ j = 1) as [-> | ->] by lia; rewrite <- !abs_IZR; nums; lra.
Qed.
Example C139_case : forall K : R, (0 <= K)%R -> let sc : Scalar R := RInf K in
  stack predicts [4; 2] threeR [4; 2] /\ Forall2 (altered (1 / 100)) threeR threeS /\ within 5 (constR [4; 2] 5) /\ exists E, sways (1 / 100) 5 0 threeR 52 E /\ (E < 1)%R.
Proof.
  intros K HK sc. split; [apply (C137_case K)|]. split; [|split].
  - constructor; [apply shiftD_altered; unfold INT_MAX; lia|]. constructor; [reflexivity|]. constructor; [apply shiftD_altered; unfold INT_MAX; lia|constructor].
  - intros idx HI. unfold constR in *. change (in_range [4; 2] idx) in HI. rewrite el_tensor_of by exact HI. rewrite Rabs_pos_eq; lra.
  - eexists. split.
    + eapply (sw_cons _ _ _ _ _ 3 17); [apply firstD_gain| |].
      { intros k o j E Hj. injection E as <- <-. change (zrange 0 2) with [0; 1]. rewrite !rsum_cons, rsum_nil. unfold firstD, denseP. cbn [fc_w fc_b]. rewrite !el_tensor_of by (repeat constructor; lia). unfold fn2. cbn [nth].
        assert (j = 0 \/ j = 1 \/ j = 2) as [-> | [-> | ->]] by lia; rewrite <- !abs_IZR; nums; lra. }
      eapply (sw_cons _ _ _ _ _ 1 17); [split; cbn; lra|cbn; lra|]. eapply (sw_cons _ _ _ _ _ 3 52); [apply secondD_gain| |apply sw_nil].
      intros k o j E Hj. injection E as <- <-. change (zrange 0 3) with [0; 1; 2]. rewrite !rsum_cons, rsum_nil. unfold secondD, denseP. cbn [fc_w fc_b]. rewrite !el_tensor_of by (repeat constructor; lia). unfold fn2. cbn [nth].
      assert (j = 0 \/ j = 1) as [-> | ->] by lia; rewrite <- !abs_IZR; nums; lra.
    + cbn [sway tdims firstD secondD]. unfold tdims, firstD, secondD, denseP. cbn. lra.
Qed.
