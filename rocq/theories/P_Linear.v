(** * Property C89: training a linear model *)
From Coq Require Import Reals Lra.
From Coquelicot Require Import Coquelicot.
From Verif Require Import Base Scalar ScalarR Types Spec SpecNN SpecR SpecLayers SpecOpt M_Shape M_Tensor M_Adv M_Act M_Loss M_Layers M_Reg M_Opt M_Net SpecNet SpecNetR
  L_Index L_Shape L_Tensor L_Matmul L_RSum L_LayersR L_Loss L_Layers L_Net L_TrainR L_Linear P_Net.
Local Open Scope R_scope.

(** ** C89.  [linear_net N k o lr n l]: one fully connected layer from [k] to [o] features compiled with MSELoss and SGD of rate
    [lr] without momentum and weight decay.  The dataset is one batch [x] of [N] samples with target [t]; [dot x x] is the sum of the
    squares of all inputs; [mse_of n x t v]: the loss of the prediction for [x] against [t] is [v]. *)
(** At a small enough rate no epoch ever makes the loss larger. *)
Theorem C89_never_worse : forall {G} {HR : Rng R G} N k o lr (n : net R G) l x t e, linear_net N k o lr n l -> good x -> tdims x = [N; k] -> good t -> tdims t = [N; o] ->
  0 <= lr -> lr * (dot x x + IZR N) <= IZR (N * o) -> (0 <= e)%Z ->
  exists n1 v1 n2 v2, net_train n [x] [t] e = (n1, Ok tt) /\ mse_of n1 x t v1 /\ net_train n [x] [t] (e + 1) = (n2, Ok tt) /\ mse_of n2 x t v2 /\ v2 <= v1.
Proof. exact @linear_never_worse. Qed.
(** Training reaches the smallest loss any weights and biases [w], [b] have: the excess after [e] epochs is at most their squared
    distance from the initial parameters over [2 lr e]. *)
Theorem C89_best : forall {G} {HR : Rng R G} N k o lr (n : net R G) l x t w b e, linear_net N k o lr n l -> good x -> tdims x = [N; k] -> good t -> tdims t = [N; o] ->
  good w -> tdims w = [k; o] -> good b -> tdims b = [1%Z; o] -> 0 < lr -> 2 * lr * (dot x x + IZR N) <= IZR (N * o) -> (0 < e)%Z ->
  exists n' v v', net_train n [x] [t] e = (n', Ok tt) /\ mse_of n' x t v /\ mse_of (with_layers n [with_params (LFC l) w b]) x t v' /\
    v <= v' + (sqdist (fc_w l) w + sqdist (fc_b l) b) / (2 * lr * IZR e).
Proof. exact @linear_best. Qed.
(** One sample: the loss is multiplied by the same factor in every epoch, whatever the learning rate. *)
Theorem C89_single : forall {G} {HR : Rng R G} k o lr (n : net R G) l x t, linear_net 1 k o lr n l -> good x -> tdims x = [1%Z; k] -> good t -> tdims t = [1%Z; o] ->
  exists v, mse_of n x t v /\ forall e, exists n', net_train n [x] [t] (Z.of_nat e) = (n', Ok tt) /\ mse_of n' x t (((1 - 2 * lr * (dot x x + 1) / IZR o) ^ 2) ^ e * v).
Proof. exact @linear_single. Qed.
(** So it tends to zero below the rate [o / (dot x x + 1)] and grows without bound above it. *)
Theorem C89_converges : forall {G} {HR : Rng R G} k o lr (n : net R G) l x t, linear_net 1 k o lr n l -> good x -> tdims x = [1%Z; k] -> good t -> tdims t = [1%Z; o] ->
  0 < lr -> lr * (dot x x + 1) < IZR o ->
  exists L, (forall e, exists n', net_train n [x] [t] (Z.of_nat e) = (n', Ok tt) /\ mse_of n' x t (L e)) /\ is_lim_seq L 0.
Proof. exact @linear_converges. Qed.
Theorem C89_diverges : forall {G} {HR : Rng R G} k o lr (n : net R G) l x t v, linear_net 1 k o lr n l -> good x -> tdims x = [1%Z; k] -> good t -> tdims t = [1%Z; o] ->
  IZR o < lr * (dot x x + 1) -> mse_of n x t v -> v <> 0 ->
  exists L, (forall e, exists n', net_train n [x] [t] (Z.of_nat e) = (n', Ok tt) /\ mse_of n' x t (L e)) /\ is_lim_seq L p_infty.
Proof. exact @linear_diverges. Qed.

(** A layer 3 -> 2 with weights 1 and biases 0 on four samples of ones: [dot x x] is 12, so rates up to 1/4 qualify for [C89_best]. *)
Definition lin32 : fc R := mkFC (constR [3; 2]%Z 1) (constR [1; 2]%Z 0) None None None.
Definition lin_net (lr : R) : net R unit := mkNet [LFC lin32] (Some MSE) (Some (OSGD (sgd_new lr 0 0 0 false))) tt.
Lemma lin_net_linear : forall N lr, (0 < N)%Z -> (N * 2 <= INT_MAX)%Z -> linear_net N 3 2 lr (lin_net lr) lin32.
Proof.
  intros N lr HN HM. split; [reflexivity|]. split; [apply fits_fc; [constRs|reflexivity|constRs|reflexivity|exact HM]|]. split; [reflexivity|].
  exists (OSGD (sgd_new lr 0 0 0 false)). split; [reflexivity|]. exists 0, false. reflexivity.
Qed.
Lemma dot_const : forall m n v, (0 < m)%Z -> (0 < n)%Z -> dot (constR [m; n] v) (constR [m; n] v) = IZR (m * n) * (v * v).
Proof.
  intros m n v Hm Hn. unfold dot. change (tdims (constR [m; n] v)) with [m; n]. rewrite rsum2 by auto.
  transitivity (rsum (zrange 0 m) (fun _ => IZR n * (v * v))).
  - apply rsum_ext. intros i Hi. apply In_zrange in Hi. transitivity (rsum (zrange 0 n) (fun _ => v * v)).
    + apply rsum_ext. intros j Hj. apply In_zrange in Hj. unfold constR. rewrite el_tensor_of by auto with idx. ring.
    + rewrite rsum_const, Zlen_zrange, Z.sub_0_r by lia. reflexivity.
  - rewrite rsum_const, Zlen_zrange, Z.sub_0_r, mult_IZR by lia. ring.
Qed.
Example C89_case : linear_net 4 3 2 (1 / 4) (lin_net (1 / 4)) lin32 /\ good (constR [4; 3]%Z 1) /\ good (constR [4; 2]%Z 5) /\
  2 * (1 / 4) * (dot (constR [4; 3]%Z 1) (constR [4; 3]%Z 1) + 4) <= IZR (4 * 2) /\ good (constR [3; 2]%Z 2) /\ good (constR [1; 2]%Z (-1)) /\
  sqdist (fc_w lin32) (constR [3; 2]%Z 2) + sqdist (fc_b lin32) (constR [1; 2]%Z (-1)) = 8.
Proof.
  split; [apply lin_net_linear; [lia|vm_compute; discriminate]|]. split; [constRs|]. split; [constRs|]. split; [rewrite dot_const by lia; change (4 * 3)%Z with 12%Z; change (1 * 3)%Z with 3%Z; change (4 * 2)%Z with 8%Z; lra|]. split; [constRs|]. split; [constRs|].
  unfold sqdist. change (tdims (fc_w lin32)) with [3; 2]%Z. change (tdims (fc_b lin32)) with [1; 2]%Z. cbn [lin32 fc_w fc_b]. rewrite !rsum2 by lia.
  change (zrange 0 3) with [0; 1; 2]%Z. change (zrange 0 2) with [0; 1]%Z. change (zrange 0 1) with [0]%Z. rewrite !rsum_cons, !rsum_nil. unfold constR. rewrite !el_tensor_of by auto with idx. ring.
Qed.
(** One sample of ones: [dot x x + 1] is 4, so 1/4 is below the threshold 1/2 and 1 is above it; the initial loss against 5 is 4. *)
Example C89_single_case : linear_net 1 3 2 (1 / 4) (lin_net (1 / 4)) lin32 /\ good (constR [1; 3]%Z 1) /\ good (constR [1; 2]%Z 5) /\
  dot (constR [1; 3]%Z 1) (constR [1; 3]%Z 1) + 1 = 4 /\ linear_net 1 3 2 1 (lin_net 1) lin32 /\ mse_of (HR := rngR) (lin_net 1) (constR [1; 3]%Z 1) (constR [1; 2]%Z 5) 4.
Proof.
  assert (G1 : good (constR [1; 3]%Z 1)) by constRs. assert (G2 : good (constR [1; 2]%Z 5)) by constRs. assert (LN : forall lr, linear_net 1 3 2 lr (lin_net lr) lin32) by (intros lr; apply lin_net_linear; [lia|vm_compute; discriminate]).
  split; [auto|]. split; [auto|]. split; [auto|]. split; [rewrite dot_const by lia; change (4 * 3)%Z with 12%Z; change (1 * 3)%Z with 3%Z; change (4 * 2)%Z with 8%Z; lra|]. split; [auto|].
  destruct (linear_ready 1 3 2 1 _ _ _ (LN 1) G1 eq_refl) as (_ & EN & W).
  replace 4 with (lin_loss 1 3 2 (constR [1; 3]%Z 1) (constR [1; 2]%Z 5) lin32); [apply (loss_lin (HR := rngR) 1 3 2 _ _ G1 eq_refl G2 eq_refl _ _ EN W)|].
  unfold lin_loss, resid. change (zrange 0 3) with [0; 1; 2]%Z. change (zrange 0 2) with [0; 1]%Z. change (zrange 0 1) with [0]%Z. rewrite !rsum_cons, !rsum_nil. cbn [lin32 fc_w fc_b].
  unfold constR. rewrite !el_tensor_of by auto with idx. change (1 * 2)%Z with 2%Z. field.
Qed.
Print Assumptions C89_never_worse.
Print Assumptions C89_best.
Print Assumptions C89_single.
Print Assumptions C89_converges.
Print Assumptions C89_diverges.
