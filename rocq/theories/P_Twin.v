(** * Hidden units that start equal stay equal (C124) *)
From Verif Require Import Base Scalar Types Spec SpecNN M_Shape M_Tensor M_Adv M_Act M_Loss M_Layers M_Reg M_Opt M_Net SpecNet SpecTwin
  L_Index L_Tensor L_Nest L_Twin P_Tensor P_Layers P_Net.
Local Open Scope Z_scope.
Local Existing Instance counter_rng.

(** Any arithmetic, any loss, any new optimizer.  Units [i] and [j] between two dense layers, with an activation applied element by element:
    if they have the same incoming weights, bias and outgoing weights, they still have after training. *)
Theorem C124_pair : forall {T} {S : Scalar T} {G} {HR : Rng T G} (pre post : list (layer T)) f1 a f2 i j ds ds' lo o (n : net T G) xs ts e, n_layers n = pre ++ [LFC f1; LAct a; LFC f2] ++ post ->
  accepts_all ds (n_layers n) ds' -> n_loss n = Some lo -> n_opt n = Some o -> new_optim o -> counts_nonzero (T := T) ->
  0 < Zlen xs <= Zlen ts -> Zlen xs <= INT_MAX -> 0 <= e -> e * Zlen xs * Zlen (n_layers n) <= INT_MAX -> Forall (fun x => good x /\ tdims x = ds) xs -> Forall (target_fits lo ds') ts ->
  al_act a <> Softmax -> columns_alike (just i j) (fc_w f1) -> columns_alike (just i j) (fc_b f1) -> rows_alike (just i j) (fc_w f2) ->
  exists n' f1' f2', net_train n xs ts e = (n', Ok tt) /\ nth_error (n_layers n') (length pre) = Some (LFC f1') /\ nth_error (n_layers n') (length pre + 2) = Some (LFC f2') /\
    columns_alike (just i j) (fc_w f1') /\ columns_alike (just i j) (fc_b f1') /\ rows_alike (just i j) (fc_w f2').
Proof. exact @pair_train. Qed.
(** If within each dense layer all weights are equal and all biases are equal, then after any training all units of each layer between
    two dense layers are still equal: training cannot tell them apart. *)
Theorem C124_uniform : forall {T} {S : Scalar T} {G} {HR : Rng T G} (ls post : list (layer T)) ds ds' lo o (n : net T G) xs ts e, n_layers n = ls ++ post -> Forall uniform ls -> existsb is_dense post = false ->
  accepts_all ds (n_layers n) ds' -> n_loss n = Some lo -> n_opt n = Some o -> new_optim o -> counts_nonzero (T := T) ->
  0 < Zlen xs <= Zlen ts -> Zlen xs <= INT_MAX -> 0 <= e -> e * Zlen xs * Zlen (n_layers n) <= INT_MAX -> Forall (fun x => good x /\ tdims x = ds) xs -> Forall (target_fits lo ds') ts ->
  exists n', net_train n xs ts e = (n', Ok tt) /\ forall k f, nth_error (n_layers n') k = Some (LFC f) ->
    (existsb is_dense (firstn k (n_layers n)) = true -> rows_alike everybody (fc_w f)) /\
    (existsb is_dense (skipn (Datatypes.S k) (n_layers n)) = true -> columns_alike everybody (fc_w f) /\ columns_alike everybody (fc_b f)).
Proof. exact @uniform_train. Qed.
(** In general: a pairing of the units at the input of each layer and at the output, of hidden units only, that the network respects, is
    respected after training. *)
Theorem C124_pairings : forall {T} {S : Scalar T} {G} {HR : Rng T G} Bs ds ds' lo o (n : net T G) xs ts e, accepts_all ds (n_layers n) ds' -> n_loss n = Some lo -> n_opt n = Some o -> new_optim o -> counts_nonzero (T := T) ->
  0 < Zlen xs <= Zlen ts -> Zlen xs <= INT_MAX -> 0 <= e -> e * Zlen xs * Zlen (n_layers n) <= INT_MAX -> Forall (fun x => good x /\ tdims x = ds) xs -> Forall (target_fits lo ds') ts ->
  twins Bs (n_layers n) -> hidden Bs -> exists n', net_train n xs ts e = (n', Ok tt) /\ map is_dense (n_layers n') = map is_dense (n_layers n) /\ twins Bs (n_layers n').
Proof. exact @twin_train. Qed.
(** With a dropout layer after the activation it fails: of two equal units one is dropped, and after one step their weights differ. *)
Definition flat (ds : list Z) (v : Z) : tensor Z := tensor_of ds (fun _ => v).
Definition dense (k o v : Z) : layer Z := LFC (mkFC (flat [k; o] v) (flat [1; o] 0) None None None).
Definition dropNet : net Z Z := mkNet [dense 3 2 1; LAct (act_new ReLU); LDrop (dropout_new 0); dense 2 1 1] (Some MSE) (Some (OSGD (sgd_new 1 0 0 0 false))) 0.
Definition dropTrained : net Z Z := fst (net_train dropNet [flat [1; 3] 1] [flat [1; 1] 0] 1).
Definition dropFirst : fc Z := match n_layers dropTrained with LFC f :: _ => f | _ => mkFC (flat [1] 0) (flat [1] 0) None None None end.
Lemma drop_breaks : exists (n : net Z Z) x t n' f, n_layers n = [dense 3 2 1; LAct (act_new ReLU); LDrop (dropout_new 0); dense 2 1 1] /\ new_optim (OSGD (sgd_new 1 0 0 0 false)) /\ n_opt n = Some (OSGD (sgd_new 1 0 0 0 false)) /\
  net_train n [x] [t] 1 = (n', Ok tt) /\ nth_error (n_layers n') 0 = Some (LFC f) /\ el (fc_w f) [0; 0] = 1 /\ el (fc_w f) [0; 1] = -5.
Proof.
  exists dropNet, (flat [1; 3] 1), (flat [1; 1] 0), dropTrained, dropFirst. split; [reflexivity|]. split; [constructor|]. split; [reflexivity|]. split; [|split; [vm_compute; reflexivity|split; vm_compute; reflexivity]].
  unfold dropTrained. rewrite (surjective_pairing (net_train dropNet [flat [1; 3] 1] [flat [1; 1] 0] 1)) at 1. f_equal; vm_compute; reflexivity.
Qed.
Theorem C124_dropout_differs : exists (n : net Z Z) x t n' f, n_layers n = [dense 3 2 1; LAct (act_new ReLU); LDrop (dropout_new 0); dense 2 1 1] /\ new_optim (OSGD (sgd_new 1 0 0 0 false)) /\ n_opt n = Some (OSGD (sgd_new 1 0 0 0 false)) /\
  net_train n [x] [t] 1 = (n', Ok tt) /\ nth_error (n_layers n') 0 = Some (LFC f) /\ el (fc_w f) [0; 0] = 1 /\ el (fc_w f) [0; 1] = -5.
Proof. exact drop_breaks. Qed.
Print Assumptions C124_pair.
Print Assumptions C124_uniform.
Print Assumptions C124_pairings.
Print Assumptions C124_dropout_differs.
(** Three dense layers with ReLU between them and Softmax at the end, with constant weights. *)
Definition uniLayers : list (layer Z) := [dense 3 2 1; LAct (act_new ReLU); dense 2 2 3; LAct (act_new ReLU); dense 2 2 1].
Definition uniNet : net Z Z := mkNet (uniLayers ++ [LAct (act_new Softmax)]) (Some MSE) (Some (OSGD (sgd_new 1 0 0 0 false))) 0.
Local Ltac flats := apply good_tensor_of; [split; [discriminate|repeat constructor; try discriminate]|vm_compute; discriminate].
Example C124_case : n_layers uniNet = uniLayers ++ [LAct (act_new Softmax)] /\ Forall uniform uniLayers /\ accepts_all [4; 3] (n_layers uniNet) [4; 2] /\ counts_nonzero (T := Z) /\
  good (flat [4; 3] 1) /\ target_fits MSE [4; 2] (flat [4; 2] 1) /\ columns_alike (just 0 1) (flat [3; 2] 1).
Proof.
  assert (HC : forall ds v, constant (flat ds v)) by (intros ds v a b Ha Hb; unfold flat in *; rewrite !el_tensor_of by assumption; reflexivity).
  split; [reflexivity|]. split; [repeat (constructor; [first [split; apply HC|discriminate]|]); constructor|]. split.
  - apply (acc_cons _ _ _ [4; 2]); [apply acc_fc; [flats|reflexivity|flats|reflexivity|vm_compute; discriminate]|]. apply (acc_cons _ _ _ [4; 2]); [apply acc_act; intros; discriminate|].
    apply (acc_cons _ _ _ [4; 2]); [apply acc_fc; [flats|reflexivity|flats|reflexivity|vm_compute; discriminate]|]. apply (acc_cons _ _ _ [4; 2]); [apply acc_act; intros; discriminate|].
    apply (acc_cons _ _ _ [4; 2]); [apply acc_fc; [flats|reflexivity|flats|reflexivity|vm_compute; discriminate]|]. apply (acc_cons _ _ _ [4; 2]); [apply acc_act; intros; cbn; lia|]. constructor.
  - split; [intros k Hk; cbn; apply Z.eqb_neq; lia|]. split; [flats|]. split; [split; [flats|left; reflexivity]|]. intros r i j _ Ha Hb. apply HC; assumption.
Qed.
