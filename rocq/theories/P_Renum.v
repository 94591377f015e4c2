(** * The order of the features, of the hidden units and of the classes does not matter (C129) *)
From Coq Require Import String Reals Lra.
From Verif Require Import Base Scalar ScalarR Types Spec SpecNN M_Shape M_Tensor M_Adv M_Act M_Loss M_Layers M_Reg M_Opt M_Net M_Text M_Log SpecNet SpecLog SpecRenum
  L_Index L_Tensor L_Nest L_Matmul L_Layers L_Renum P_Tensor P_Layers P_Net.
Local Open Scope Z_scope.
Local Open Scope list_scope.

(** Exact arithmetic.  The same network with features, units or outputs listed in another order, on inputs in that order, predicts the same
    values in the new order of the outputs. *)
Theorem C129_prediction : forall {G} {HR : Rng R G} ps ds ds' (n n2 : net R G) (x x2 : tensor R), accepts_all ds (n_layers n) ds' -> renumbering ps (n_layers n) (n_layers n2) -> n_rng n2 = n_rng n -> good x -> tdims x = ds -> reordered (inputs ps) x x2 ->
  exists n' n2' y y2, net_predict n x = (n', Ok y) /\ net_predict n2 x2 = (n2', Ok y2) /\ good y /\ tdims y = ds' /\ reordered (outputs ps) y y2.
Proof. exact @renum_predict. Qed.
(** The loss is the same, and its gradient is in the new order. *)
Theorem C129_loss : forall lo q ds (y y' t t' : tensor R), good y -> tdims y = ds -> reordered q y y' -> target_fits lo ds t -> reordered q t t' ->
  target_fits lo ds t' /\ loss_compute lo y' t' = loss_compute lo y t /\
  exists d d', loss_gradient lo y t = Ok d /\ loss_gradient lo y' t' = Ok d' /\ good d /\ tdims d = ds /\ reordered q d d'.
Proof. exact @loss_reordered. Qed.
(** Training both, with any loss and any new optimizer, on samples and targets in the two orders prints the same text and ends with the same
    network in the two orders. *)
Theorem C129_training : forall {G} {HR : Rng R G} (show : R -> string) ps ds ds' lo o (n n2 : net R G) xs xs2 ts ts2 e, accepts_all ds (n_layers n) ds' -> n_loss n = Some lo -> n_opt n = Some o -> new_optim o ->
  0 < Zlen xs <= Zlen ts -> Zlen xs <= INT_MAX -> 0 <= e -> e * Zlen xs * Zlen (n_layers n) <= INT_MAX -> Forall (fun x => good x /\ tdims x = ds) xs -> Forall (target_fits lo ds') ts ->
  renumbering ps (n_layers n) (n_layers n2) -> n_loss n2 = n_loss n -> n_opt n2 = n_opt n -> n_rng n2 = n_rng n -> Forall2 (reordered (inputs ps)) xs xs2 -> Forall2 (reordered (outputs ps)) ts ts2 ->
  exists n' n2' out, net_train_report show n xs ts e = ((n', out), Ok tt) /\ net_train_report show n2 xs2 ts2 e = ((n2', out), Ok tt) /\ renumbering ps (n_layers n') (n_layers n2') /\
    forall x x2, good x -> tdims x = ds -> reordered (inputs ps) x x2 -> exists m m2 y y2, net_predict n' x = (m, Ok y) /\ net_predict n2' x2 = (m2, Ok y2) /\ tdims y = ds' /\ reordered (outputs ps) y y2.
Proof. exact @renum_trained. Qed.
(** When only hidden units are renumbered, the two networks, trained on the same samples, predict the same values. *)
Theorem C129_hidden_units : forall {G} {HR : Rng R G} (show : R -> string) ps ds ds' lo o (n n2 : net R G) xs ts e, accepts_all ds (n_layers n) ds' -> n_loss n = Some lo -> n_opt n = Some o -> new_optim o ->
  0 < Zlen xs <= Zlen ts -> Zlen xs <= INT_MAX -> 0 <= e -> e * Zlen xs * Zlen (n_layers n) <= INT_MAX -> Forall (fun x => good x /\ tdims x = ds) xs -> Forall (target_fits lo ds') ts ->
  renumbering ps (n_layers n) (n_layers n2) -> inputs ps = None -> outputs ps = None -> n_loss n2 = n_loss n -> n_opt n2 = n_opt n -> n_rng n2 = n_rng n ->
  exists n' n2' out, net_train_report show n xs ts e = ((n', out), Ok tt) /\ net_train_report show n2 xs ts e = ((n2', out), Ok tt) /\
    forall x, good x -> tdims x = ds -> exists y, snd (net_predict n' x) = Ok y /\ snd (net_predict n2' x) = Ok y.
Proof. exact @renum_hidden. Qed.
(** In float32 it does not hold: a dense layer that adds up three features, 2^24, 1 and -2^24, gives 0; with the last two exchanged, 1. *)
Theorem C129_float_refuted : forall lm {G} {HR : Rng f32 G} (g : G), exists (n n2 : net f32 G) (x x2 y y2 : tensor f32), renumbering (S := F32Scalar lm) [Some swap12; None] (n_layers n) (n_layers n2) /\ good x /\ tdims x = [1; 3] /\ reordered (S := F32Scalar lm) (Some swap12) x x2 /\
  snd (net_predict (S := F32Scalar lm) n x) = Ok y /\ snd (net_predict (S := F32Scalar lm) n2 x2) = Ok y2 /\ @el _ (F32Scalar lm) y [0; 0] = f32_of_Z 0 /\ @el _ (F32Scalar lm) y2 [0; 0] = f32_of_Z 1.
Proof. exact @float_features. Qed.
Print Assumptions C129_prediction.
Print Assumptions C129_loss.
Print Assumptions C129_training.
Print Assumptions C129_hidden_units.
Print Assumptions C129_float_refuted.
(** Two features, three hidden units, two classes, with Sigmoid and Softmax; the features and the classes exchanged, the hidden units rotated. *)
Definition flip (i : Z) : Z := 1 - i.
Definition rotate (j : Z) : Z := (j + 1) mod 3.
Definition unrotate (j : Z) : Z := (j + 2) mod 3.
Definition denseT (k o : Z) (f : Z -> Z -> Z) (b : Z -> Z) : layer R := LFC (mkFC (tensor_of [k; o] (fn2 (fun i j => IZR (f i j)))) (tensor_of [1; o] (fn2 (fun _ j => IZR (b j)))) None None None).
Definition renA : list (layer R) := [denseT 2 3 (fun i j => 10 * i + j) (fun j => j); LAct (act_new Sigmoid); denseT 3 2 (fun i j => 5 * i - j) (fun j => 1 + j); LAct (act_new Softmax)].
Definition renB : list (layer R) := [denseT 2 3 (fun i j => 10 * flip i + unrotate j) unrotate; LAct (act_new Sigmoid); denseT 3 2 (fun i j => 5 * unrotate i - flip j) (fun j => 1 + flip j); LAct (act_new Softmax)].
Definition renOrders : list order := [Some flip; Some rotate; Some rotate; Some flip; Some flip].
Local Ltac three i H := assert (i = 0 \/ i = 1 \/ i = 2) as [-> | [-> | ->]] by (clear - H; lia).
Local Ltac two i H := assert (i = 0 \/ i = 1) as [-> | ->] by (clear - H; lia).
Lemma flip_permutes : permutes 2 flip. Proof. split; unfold flip; intros; lia. Qed.
Lemma rotate_permutes : permutes 3 rotate.
Proof. split; [intros i Hi; three i Hi; vm_compute; split; congruence|]. intros i j Hi Hj E. three i Hi; three j Hj; vm_compute in E; congruence. Qed.
Local Ltac denses := apply good_tensor_of; [split; [discriminate|repeat constructor]|vm_compute; discriminate].
Example C129_case : renumbering renOrders renA renB /\ accepts_all [4; 2] renA [4; 2] /\ reordered (Some flip) (tensor_of [4; 2] (fn2 (fun i j => IZR (7 * i + j)))) (tensor_of [4; 2] (fn2 (fun i j => IZR (7 * i + flip j)))).
Proof.
  split; [|split].
  - apply rns_cons; [|apply rns_cons; [constructor; reflexivity|apply rns_cons; [|apply rns_cons; [constructor; reflexivity|apply rns_nil]]]].
    + apply (rn_fc (Some flip) (Some rotate) 2 3); cbn [fc_w fc_b orders new_place]; try reflexivity; try denses; try exact flip_permutes; try exact rotate_permutes.
      * intros i j Hi Hj. pose proof (proj1 flip_permutes i Hi). pose proof (proj1 rotate_permutes j Hj). rewrite !el_tensor_of by (apply in_range2; auto). unfold fn2. cbn [nth]. two i Hi; three j Hj; reflexivity.
      * intros j Hj. pose proof (proj1 rotate_permutes j Hj). rewrite !el_tensor_of by (apply in_range2; auto; lia). unfold fn2. cbn [nth]. three j Hj; reflexivity.
    + apply (rn_fc (Some rotate) (Some flip) 3 2); cbn [fc_w fc_b orders new_place]; try reflexivity; try denses; try exact flip_permutes; try exact rotate_permutes.
      * intros i j Hi Hj. pose proof (proj1 rotate_permutes i Hi). pose proof (proj1 flip_permutes j Hj). rewrite !el_tensor_of by (apply in_range2; auto). unfold fn2. cbn [nth]. three i Hi; two j Hj; reflexivity.
      * intros j Hj. pose proof (proj1 flip_permutes j Hj). rewrite !el_tensor_of by (apply in_range2; auto; lia). unfold fn2. cbn [nth]. two j Hj; reflexivity.
  - apply (acc_cons _ _ _ [4; 3]); [apply acc_fc; [denses|reflexivity|denses|reflexivity|vm_compute; discriminate]|]. apply (acc_cons _ _ _ [4; 3]); [apply acc_act; intros; discriminate|].
    apply (acc_cons _ _ _ [4; 2]); [apply acc_fc; [denses|reflexivity|denses|reflexivity|vm_compute; discriminate]|]. apply (acc_cons _ _ _ [4; 2]); [apply acc_act; intros; cbn; lia|]. constructor.
  - exists 4, 2. split; [denses|]. split; [reflexivity|]. split; [reflexivity|]. split; [exact flip_permutes|]. intros r i Hr Hi. pose proof (proj1 flip_permutes i Hi). rewrite !el_tensor_of by (apply in_range2; auto). unfold fn2. cbn [nth]. two i Hi; reflexivity.
Qed.
