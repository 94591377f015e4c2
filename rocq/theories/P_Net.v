(** * Properties C42, C44, C61-C64 and C77-C79: layers in general and the network *)
From Coq Require Import Reals Lra.
From Coquelicot Require Import Coquelicot.
From Verif Require Import Base Scalar ScalarR Types Spec SpecNN SpecR SpecLayers SpecOpt M_Shape M_Tensor M_Adv M_Act M_Loss M_Layers M_Reg M_Opt M_Net SpecNet SpecNetR
  L_Index L_Shape L_Tensor L_Glue L_Matmul L_RSum L_ActR L_Loss L_Layers L_Net L_Net2 L_NetR L_Train L_TrainR P_Tensor P_Layers P_Reg.
Local Open Scope Z_scope.
Local Existing Instance counter_rng.

Definition fcZ (k o : Z) : fc Z := mkFC (ramp [k; o]) (ramp [1; o]) None None None.
Lemma fcZ_wf : fc_wf (fcZ 3 2) 3 2. Proof. split; [ramps|split; [reflexivity|split; [ramps|reflexivity]]]. Qed.

(** ** C42.  [handles l x]: the inputs for which it holds; missing are the cases refuted below. *)
Theorem C42_partial : forall {T} {S : Scalar T} {G} {HR : Rng T G} (l : layer T) (x : tensor T), handles l x -> shape_preserving (G := G) l x.
Proof. exact @layer_shape. Qed.
(** Fully connected: a single sample [k] always gets a gradient of shape [1; k]. *)
Theorem C42_single_sample : forall {T} {S : Scalar T} {G} {HR : Rng T G} (l : fc T) k o (x : tensor T) (g : G), fc_wf l k o -> good x -> tdims x = [k] ->
  exists l1 y, layer_forward (LFC l) x g = (l1, g, Ok y) /\ tdims y = [o] /\
    forall d : tensor T, good d -> tdims d = tdims y -> exists l2 gx, layer_backward l1 d = (l2, Ok gx) /\ tdims gx = [1; k].
Proof. exact @fc_vector. Qed.
Lemma vector_case : exists (l l1 l2 : layer Z) (x y gx : tensor Z) (g : Z), good x /\ layer_forward l x g = (l1, g, Ok y) /\ layer_backward l1 y = (l2, Ok gx) /\ tdims x = [3] /\ tdims gx = [1; 3].
Proof. exists (LFC (fcZ 3 2)). do 2 eexists. exists (ramp [3]). do 2 eexists. exists 0. split; [ramps|]. split; [vm_compute; reflexivity|]. split; [vm_compute; reflexivity|]. split; reflexivity. Qed.
Theorem C42_single_sample_refuted : exists (l l1 l2 : layer Z) (x y gx : tensor Z) (g : Z), good x /\ layer_forward l x g = (l1, g, Ok y) /\ layer_backward l1 y = (l2, Ok gx) /\ tdims x = [3] /\ tdims gx = [1; 3].
Proof. exact vector_case. Qed.
(** Flatten on (batch, features), Dropout in eval mode (both as constructed) and batch normalisation after a training
    forward: forward works, backward is undefined. *)
Theorem C42_flatten_undefined : forall {T} {S : Scalar T} {G} {HR : Rng T G} (x d : tensor T) b f (g : G), tdims x = [b; f] ->
  exists l1, layer_forward (LFlat flatten_new) x g = (l1, g, Ok x) /\ snd (layer_backward l1 d) = UB.
Proof. exact @flat_rank2_ub. Qed.
Theorem C42_dropout_undefined : forall {T} {S : Scalar T} {G} {HR : Rng T G} rate (x d : tensor T) (g : G),
  exists l1, layer_forward (LDrop (dropout_set_mode (dropout_new rate) false)) x g = (l1, g, Ok x) /\ snd (layer_backward l1 d) = UB.
Proof. exact @drop_eval_ub. Qed.
Theorem C42_batchnorm_undefined : forall {T} {S : Scalar T} {G} {HR : Rng T G} f (l : bn T) (x d : tensor T) (g : G),
  bn_rows f l -> bn_train l = true -> good x -> featured f (tdims x) -> f * f <= INT_MAX -> good d -> tdims d = tdims x ->
  exists l1 o, layer_forward (LBN l) x g = (l1, g, o) /\ snd (layer_backward l1 d) = UB.
Proof. exact @bn_train_ub. Qed.
Example C42_case : handles (LFC (fcZ 3 2)) (ramp [2; 3]) /\ handles (LPool (pool_new 2 2 0) : layer Z) (ramp [1; 1; 4; 4]) /\ handles (LFlat flatten_new) (ramp [2; 3; 4]) /\
  handles (LConv (mkConv (ramp [2; 1; 2; 2]) (ramp [2; 1]) None None None 1 2 2 2 1 0 1)) (ramp [1; 1; 3; 3]) /\ handles (LDrop (dropout_new 0)) (ramp [5]) /\ handles (LAct (act_new Softmax)) (ramp [2; 3]).
Proof.
  split; [split; [ramps|exists 3, 2, 2; split; [ramps|split; [reflexivity|split; [ramps|split; [reflexivity|split; [reflexivity|vm_compute; discriminate]]]]]]|].
  split; [split; [ramps|split; [reflexivity|split; [reflexivity|split; [reflexivity|exists 1, 1, 4, 4; split; [reflexivity|split; vm_compute; discriminate]]]]]|].
  split; [split; [ramps|cbn; lia]|].
  split; [split; [ramps|split; [ramps|split; [reflexivity|split; [ramps|split; [reflexivity|exists 1, 3, 3; split; [reflexivity|split; [vm_compute; discriminate|split; vm_compute; discriminate]]]]]]]|].
  split; [split; [ramps|reflexivity]|]. split; [ramps|cbn; lia].
Qed.
Example C42_bn_case : bn_rows 2 bn2 /\ bn_train bn2 = true /\ good (ramp [1; 2]) /\ featured 2 (tdims (ramp [1; 2])).
Proof. split; [exact bn2_rows|]. split; [reflexivity|]. split; [ramps|]. left. exists 1. reflexivity. Qed.
Print Assumptions C42_partial.
Print Assumptions C42_single_sample.
Print Assumptions C42_single_sample_refuted.
Print Assumptions C42_flatten_undefined.
Print Assumptions C42_dropout_undefined.
Print Assumptions C42_batchnorm_undefined.

(** ** C44.  [checks_forward]: fully connected, convolution, pooling and batch normalisation throw; the others are undefined. *)
Theorem C44_partial : forall {T} {S : Scalar T} {G} {HR : Rng T G} (l : layer T) d, constructed (G := G) l -> checks_forward l = true -> layer_backward l d = (l, Throw RuntimeError).
Proof. exact (fun T S G HR l d HC HL => eq_trans (fresh_backward l d HC) (f_equal (fun b : bool => (l, if b then Throw RuntimeError else UB)) HL)). Qed.
Theorem C44_every_kind : forall {T} {S : Scalar T} {G} {HR : Rng T G} (l : layer T) d, constructed (G := G) l ->
  layer_backward l d = (l, if checks_forward l then Throw RuntimeError else UB).
Proof. exact @fresh_backward. Qed.
Theorem C44_refuted : exists (l1 l2 l3 : layer Z) (d : tensor Z), constructed (G := Z) l1 /\ constructed (G := Z) l2 /\ constructed (G := Z) l3 /\ good d /\
  layer_backward l1 d = (l1, UB) /\ layer_backward l2 d = (l2, UB) /\ layer_backward l3 d = (l3, UB).
Proof.
  exact (ex_intro _ (LAct (act_new ReLU)) (ex_intro _ (LFlat flatten_new) (ex_intro _ (LDrop (dropout_new 0)) (ex_intro _ (ramp [2])
    (conj (made_act ReLU) (conj made_flat (conj (made_drop 0) (conj (ltac:(ramps) : good (ramp [2])) (conj eq_refl (conj eq_refl eq_refl)))))))))).
Qed.
Example C44_case : exists l : fc Z, constructed (G := Z) (LFC l) /\ checks_forward (LFC l) = true /\ layer_backward (LFC l) (ramp [2]) = (LFC l, Throw RuntimeError).
Proof. eexists. split; [apply (made_fc 3 2 0 6); vm_compute; reflexivity|split; reflexivity]. Qed.
Print Assumptions C44_partial.
Print Assumptions C44_every_kind.
Print Assumptions C44_refuted.

(** ** C61 *)
Theorem C61_no_layers : forall {T} {S : Scalar T} {G} {HR : Rng T G} (g : G) (x : tensor T), net_predict (net_new g) x = (net_new g, Ok x).
Proof. exact @predict_new. Qed.
(** In any mode, adding a layer applies its forward to the earlier prediction. *)
Theorem C61_added_layer : forall {T} {S : Scalar T} {G} {HR : Rng T G} (n : net T G) l x, net_predict (net_add n l) x =
  let '(n1, o) := net_predict n x in
  match o with
  | Ok y => let '(l', g, o') := layer_forward l y (n_rng n1) in (mkNet (n_layers n1 ++ [l']) (n_loss n) (n_opt n) g, o')
  | o => (net_add n1 l, o)
  end.
Proof. exact @predict_add. Qed.
Theorem C61_composition : forall {T} {S : Scalar T} {G} {HR : Rng T G} (n : net T G) x, net_in_mode false n ->
  snd (net_predict n x) = fold_left (fun o l => y <- o ;; snd (layer_forward l y (n_rng n))) (n_layers n) (Ok x).
Proof. exact @predict_fold. Qed.
(** In eval mode a prediction changes nothing but remembered inputs, and no later prediction. *)
Theorem C61_repeatable : forall {T} {S : Scalar T} {G} {HR : Rng T G} (n : net T G) x y, net_in_mode false n ->
  exists n' o, net_predict n x = (n', o) /\ same_but_inputs n n' /\ snd (net_predict n' y) = snd (net_predict n y).
Proof. exact @predict_again. Qed.
Theorem C61_vector : forall {T} {S : Scalar T} {G} {HR : Rng T G} xs (n : net T G), net_in_mode false n ->
  exists n' o, net_predict_all n xs = (n', o) /\ same_but_inputs n n' /\ o = mapM (fun x => snd (net_predict n x)) xs.
Proof. exact @predict_all_eval. Qed.
Definition netZ : net Z Z := net_set_mode (net_add (net_add (net_add (net_new 0) (LFC (fcZ 3 2))) (LAct (act_new ReLU))) (LDrop (dropout_new 0))) false.
Example C61_case : net_in_mode false netZ /\ snd (net_predict netZ (ramp [2; 3])) = Ok (mkTensor (shape_of [2; 2]) [10; 14; 28; 41]).
Proof. split; [apply net_mode_in|vm_compute; reflexivity]. Qed.
Print Assumptions C61_no_layers.
Print Assumptions C61_added_layer.
Print Assumptions C61_composition.
Print Assumptions C61_repeatable.
Print Assumptions C61_vector.

(** ** C62.  [chain ds ls ds']: fully connected, activation, Flatten and single-image, single-output-channel Conv2D layers of
    matching shapes, any number of them; [smooth_run]: no ReLU or LeakyReLU input is 0.  [bumped w idx u] is [w] with the entry at
    [idx] increased by [u]; [mse_of n x t v]: the loss of the prediction for [x] against [t] is [v]. *)
Theorem C62_weights : forall {G} {HR : Rng R G} (n : net R G) ds ds' pre l post w b x t idx, n_layers n = pre ++ l :: post -> layer_params l = Some (w, b) ->
  chain ds (n_layers n) ds' -> good x -> tdims x = ds -> smooth_run (n_layers n) x (n_rng n) -> target_for ds' t -> in_range (tdims w) idx ->
  exists n1 p dp n2 l2 gw gb L, net_predict n x = (n1, Ok p) /\ mse_gradient p t = Ok dp /\ net_backward n1 dp = (n2, Ok tt) /\
    nth_error (n_layers n2) (length pre) = Some l2 /\ layer_grads l2 = Some (gw, gb) /\ tdims gw = tdims w /\
    (forall u, mse_of (with_layers n (pre ++ with_params l (bumped w idx u) b :: post)) x t (L u)) /\ is_derive L 0%R (el gw idx).
Proof. exact @backprop_weight. Qed.
Theorem C62_biases : forall {G} {HR : Rng R G} (n : net R G) ds ds' pre l post w b x t idx, n_layers n = pre ++ l :: post -> layer_params l = Some (w, b) ->
  chain ds (n_layers n) ds' -> good x -> tdims x = ds -> smooth_run (n_layers n) x (n_rng n) -> target_for ds' t -> in_range (tdims b) idx ->
  exists n1 p dp n2 l2 gw gb L, net_predict n x = (n1, Ok p) /\ mse_gradient p t = Ok dp /\ net_backward n1 dp = (n2, Ok tt) /\
    nth_error (n_layers n2) (length pre) = Some l2 /\ layer_grads l2 = Some (gw, gb) /\ tdims gb = tdims b /\
    (forall u, mse_of (with_layers n (pre ++ with_params l w (bumped b idx u) :: post)) x t (L u)) /\ is_derive L 0%R (el gb idx).
Proof. exact @backprop_bias. Qed.
(** All parameters moved together along any direction. *)
Theorem C62_direction : forall {G} {HR : Rng R G} (n : net R G) ds ds' dirs x t, chain ds (n_layers n) ds' -> Forall2 direction_for (n_layers n) dirs ->
  good x -> tdims x = ds -> smooth_run (n_layers n) x (n_rng n) -> target_for ds' t ->
  exists n1 p d n2 L, net_predict n x = (n1, Ok p) /\ mse_gradient p t = Ok d /\ net_backward n1 d = (n2, Ok tt) /\
    map layer_params (n_layers n2) = map layer_params (n_layers n) /\ Forall2 has_grads (n_layers n) (n_layers n2) /\
    (forall u, mse_of (with_layers n (layers_moved u (n_layers n) dirs)) x t (L u)) /\ mse_of n x t (L 0%R) /\ is_derive L 0%R (slope (n_layers n2) dirs).
Proof. exact @backprop_direction. Qed.
(** A network 3 -> 2 -> 2 -> 1 with weights 1 and biases 0. *)
Definition constR (ds : list Z) (v : R) : tensor R := tensor_of ds (fun _ => v).
Definition fcR (k o : Z) : layer R := LFC (mkFC (constR [k; o] 1%R) (constR [1; o] 0%R) None None None).
Definition rngR : Rng R unit := {| rng_seed := fun _ => tt; rng_normal := fun _ g => (0%R, g); rng_uniform := fun _ _ g => (0%R, g) |}.
Definition netR : net R unit := mkNet [fcR 3 2; LAct (act_new Sigmoid); fcR 2 2; LAct (act_new Tanh); fcR 2 1] (Some MSE) None tt.
Lemma constR_good : forall ds v, pos_dims ds -> prod ds <= INT_MAX -> good (constR ds v). Proof. intros. apply good_tensor_of; auto. Qed.
Ltac constRs := apply constR_good; [split; [discriminate|repeat constructor; lia]|vm_compute; discriminate].
Lemma netR_chain : chain [4; 3] (n_layers netR) [4; 1].
Proof.
  unfold netR, fcR; cbn [n_layers].
  apply chain_cons with (ds' := [4; 2]); [apply fits_fc; [constRs|reflexivity|constRs|reflexivity|vm_compute; discriminate]|].
  apply chain_cons with (ds' := [4; 2]); [apply fits_act; discriminate|].
  apply chain_cons with (ds' := [4; 2]); [apply fits_fc; [constRs|reflexivity|constRs|reflexivity|vm_compute; discriminate]|].
  apply chain_cons with (ds' := [4; 2]); [apply fits_act; discriminate|].
  apply chain_cons with (ds' := [4; 1]); [apply fits_fc; [constRs|reflexivity|constRs|reflexivity|vm_compute; discriminate]|]. apply chain_nil.
Qed.
Lemma smooth_always : forall {G} {HR : Rng R G} (ls : list (layer R)) x (g : G), (forall l y, In l ls -> layer_smooth l y) -> smooth_run ls x g.
Proof.
  intros G HR ls. induction ls as [|l ls IH]; intros x g H; [exact I|]. cbn [smooth_run]. split; [apply H; left; auto|]. destruct (layer_forward l x g) as ((? & g') & [y| | | |]); auto. apply IH. intros m z HI. apply H. right. auto.
Qed.
Example C62_case : chain [4; 3] (n_layers netR) [4; 1] /\ smooth_run (HR := rngR) (n_layers netR) (constR [4; 3] 1%R) tt /\ good (constR [4; 3] 1%R) /\ target_for [4; 1] (constR [4; 1] 0%R) /\
  nth_error (n_layers netR) 2 = Some (fcR 2 2) /\ layer_params (fcR 2 2) = Some (constR [2; 2] 1%R, constR [1; 2] 0%R) /\ in_range [2; 2] [1; 1].
Proof.
  split; [exact netR_chain|]. split; [apply smooth_always; intros l y HI; cbn in HI; repeat (destruct HI as [<-|HI]; [exact I|]); destruct HI|].
  split; [constRs|]. split; [split; [constRs|left; reflexivity]|]. split; [reflexivity|]. split; [reflexivity|]. apply in_range2; lia.
Qed.
Print Assumptions C62_weights.
Print Assumptions C62_biases.
Print Assumptions C62_direction.

(** ** C63.  [fit n samples n']: predict, loss gradient, backward and update for each sample in order, all succeeding. *)
Theorem C63_partial : forall {T} {S : Scalar T} {G} {HR : Rng T G} xs ts e (n n' : net T G), Zlen xs <= Zlen ts -> s_eq (s_z (Zlen xs)) zero = false ->
  net_train n xs ts e = (n', Ok tt) <-> fit n (concat (repeat (combine xs ts) (Z.to_nat e))) n'.
Proof. exact @train_fit. Qed.
Theorem C63_no_epochs : forall {T} {S : Scalar T} {G} {HR : Rng T G} (n : net T G) xs ts e, e <= 0 -> net_train n xs ts e = (n, Ok tt).
Proof. exact @train_none. Qed.
(** An empty dataset is an exception, not a no-op. *)
Theorem C63_empty : forall {T} {S : Scalar T} {G} {HR : Rng T G} (n : net T G) ts e, 0 < e -> s_eq (s_z 0) zero = true -> net_train n [] ts e = (n, Throw InvalidArgument).
Proof. exact @train_empty. Qed.
Lemma empty_case : exists (n : net Z Z) e, 0 < e /\ net_train n [] [] e <> (n, Ok tt).
Proof. exists (net_new 0), 1. split; [reflexivity|]. rewrite train_empty by reflexivity. discriminate. Qed.
Theorem C63_empty_refuted : exists (n : net Z Z) e, 0 < e /\ net_train n [] [] e <> (n, Ok tt).
Proof. exact empty_case. Qed.
(** Fewer targets than inputs: the targets are read past their end, after training on the pairs there are. *)
Theorem C63_short_targets : forall {T} {S : Scalar T} {G} {HR : Rng T G} xs ts x r e (n m m' : net T G), 0 < e -> Zlen xs = Zlen ts -> fit n (combine xs ts) m -> n_loss m <> None ->
  (exists p, net_predict m x = (m', Ok p)) -> net_train n (xs ++ x :: r) ts e = (m', UB).
Proof. exact @train_short. Qed.
(** More targets than inputs: by C63_partial the extra ones are silently ignored. *)
Lemma mismatch_case : exists (n n' : net Z Z) (x t : tensor Z), good x /\ good t /\ net_train n [x] [] 1 = (n, UB) /\ net_train n [x] [t; t] 1 = (n', Ok tt).
Proof. pose (n := net_compile (net_new 0) MSE (OSGD (sgd_new 1 0 0 0 false)) : net Z Z). exists n, n, (ramp [2]), (ramp [2]). split; [ramps|]. split; [ramps|]. split; vm_compute; reflexivity. Qed.
Theorem C63_mismatch_refuted : exists (n n' : net Z Z) (x t : tensor Z), good x /\ good t /\ net_train n [x] [] 1 = (n, UB) /\ net_train n [x] [t; t] 1 = (n', Ok tt).
Proof. exact mismatch_case. Qed.
(** Training before compile is undefined. *)
Theorem C63_uncompiled : forall {T} {S : Scalar T} {G} {HR : Rng T G} x xs ts e (n n1 : net T G) p, 0 < e -> n_loss n = None -> net_predict n x = (n1, Ok p) -> net_train n (x :: xs) ts e = (n1, UB).
Proof. exact @train_uncompiled. Qed.
Theorem C63_never_compiled : forall {T} {S : Scalar T} {G} {HR : Rng T G} (ls : list (layer T)) (g : G) x xs ts e n1 p, 0 < e ->
  net_predict (fold_left net_add ls (net_new g)) x = (n1, Ok p) -> net_train (fold_left net_add ls (net_new g)) (x :: xs) ts e = (n1, UB).
Proof. exact @train_never_compiled. Qed.
Definition netT : net Z Z := net_compile (net_add (net_new 0) (LFC (fcZ 1 1))) MSE (OSGD (sgd_new 1 0 0 0 false)).
Definition oneZ (v : Z) : tensor Z := tensor_of [1; 1] (fun _ => v).
(** x = 1, t = 3: w and b go from 0 to 6, then from 6 to -12. *)
Example C63_case : s_eq (s_z (Zlen [oneZ 1]) : Z) zero = false /\ snd (net_train netT [oneZ 1] [oneZ 3] 2) = Ok tt /\
  map (fun l => match layer_params l with Some (w, b) => (tdata w, tdata b) | None => ([], []) end) (n_layers (fst (net_train netT [oneZ 1] [oneZ 3] 1))) = [([6], [6])] /\
  map (fun l => match layer_params l with Some (w, b) => (tdata w, tdata b) | None => ([], []) end) (n_layers (fst (net_train netT [oneZ 1] [oneZ 3] 2))) = [([-12], [-12])].
Proof. vm_compute. repeat split. Qed.
Print Assumptions C63_partial.
Print Assumptions C63_no_epochs.
Print Assumptions C63_empty.
Print Assumptions C63_empty_refuted.
Print Assumptions C63_short_targets.
Print Assumptions C63_mismatch_refuted.
Print Assumptions C63_uncompiled.
Print Assumptions C63_never_compiled.

(** ** C64 *)
Theorem C64_last_switch_counts : forall {T G} (ms : list bool) m (n : net T G), fold_left net_set_mode (ms ++ [m]) n = net_set_mode n m.
Proof. exact @net_mode_last. Qed.
Theorem C64_every_layer : forall {T G} m (n : net T G), net_in_mode m (net_set_mode n m).
Proof. exact @net_mode_in. Qed.
Theorem C64_parameters : forall {T G} m (n : net T G), map layer_params (n_layers (net_set_mode n m)) = map layer_params (n_layers n) /\
  map layer_grads (n_layers (net_set_mode n m)) = map layer_grads (n_layers n) /\ n_loss (net_set_mode n m) = n_loss n /\ n_opt (net_set_mode n m) = n_opt n /\ n_rng (net_set_mode n m) = n_rng n.
Proof. exact @net_mode_params. Qed.
Example C64_case : ~ net_in_mode false (net_set_mode netZ true) /\ net_in_mode false (fold_left net_set_mode [true; true; false] netZ).
Proof.
  split; [|apply (net_mode_in false (fold_left net_set_mode [true; true] netZ))]. intros H. unfold net_in_mode in H. rewrite Forall_forall in H. destruct (H (LDrop (dropout_new 0))) as [E|E]; [right; right; left; reflexivity|discriminate E..].
Qed.
Print Assumptions C64_last_switch_counts.
Print Assumptions C64_every_layer.
Print Assumptions C64_parameters.

(** ** C78.  [accepts_all ds ls ds']: every layer but batch normalisation, with matching shapes.  The last bound keeps Adam's
    call counter from overflowing. *)
Theorem C78_training_succeeds : forall {T} {S : Scalar T} {G} {HR : Rng T G} ds ds' lo o (n : net T G) xs ts e,
  accepts_all ds (n_layers n) ds' -> n_loss n = Some lo -> n_opt n = Some o -> new_optim o -> counts_nonzero (T := T) ->
  0 < Zlen xs <= Zlen ts -> Zlen xs <= INT_MAX -> 0 <= e -> e * Zlen xs * Zlen (n_layers n) <= INT_MAX ->
  Forall (fun x => good x /\ tdims x = ds) xs -> Forall (target_fits lo ds') ts ->
  exists n', net_train n xs ts e = (n', Ok tt) /\ accepts_all ds (n_layers n') ds' /\ map params_dims (n_layers n') = map params_dims (n_layers n).
Proof. exact @train_total. Qed.
Example C78_case : exists ds', accepts_all [2; 1; 3; 3] [LConv (mkConv (ramp [2; 1; 2; 2]) (ramp [2; 1]) None None None 1 2 2 2 1 0 1); LPool (pool_new 2 1 0); LFlat flatten_new;
    LDrop (dropout_new 0); LFC (fcZ 2 3); LAct (act_new Softmax)] ds' /\ ds' = [2; 3] /\ target_fits CCE ds' (ramp [2; 3]) /\ counts_nonzero (T := Z) /\ new_optim (OSGD (sgd_new 1 0 0 0 false)).
Proof.
  exists [2; 3]. split.
  { eapply acc_cons; [apply (acc_conv 2 3 3 (mkConv (ramp [2; 1; 2; 2]) (ramp [2; 1]) None None None 1 2 2 2 1 0 1)); [ramps|reflexivity|ramps|reflexivity|vm_compute; discriminate..]|]. cbn [cv_oc cv_kh cv_kw].
    eapply acc_cons; [apply (acc_pool 2 2 (3 - 2 + 1) (3 - 2 + 1) (pool_new 2 1 0)); [reflexivity|reflexivity|reflexivity|vm_compute; discriminate..]|].
    change (pool_extent (po_size (pool_new 2 1 0)) (po_stride (pool_new 2 1 0)) (3 - 2 + 1)) with 1.
    eapply acc_cons; [apply acc_flat; discriminate|]. change (prod [2; 1; 1]) with 2. eapply acc_cons; [apply acc_drop; reflexivity|].
    eapply acc_cons; [apply (acc_fc 2 2 3); [ramps|reflexivity|ramps|reflexivity|vm_compute; discriminate]|]. eapply acc_cons; [apply acc_act; intros _; cbn; lia|]. apply acc_nil. }
  split; [reflexivity|]. split; [split; [ramps|exists 2, 3; auto]|]. split; [intros n HN; change ((n =? 0) = false); apply Z.eqb_neq; lia|constructor].
Qed.
Print Assumptions C78_training_succeeds.

(** ** C77.  [plain_sgd lr o]: a new SGD optimizer without momentum and weight decay; [sample_for]: input and target of the
    right shapes; networks and smoothness as in C62. *)
Theorem C77_gradient_descent : forall {G} {HR : Rng R G} ds ds' lr (n0 n : net R G) o samples pre l post w b x t,
  chain ds (n_layers n0) ds' -> n_loss n0 = Some MSE -> n_opt n0 = Some o -> plain_sgd lr o ->
  fit n0 samples n -> Forall (sample_for ds ds') samples -> sample_for ds ds' (x, t) -> smooth_run (n_layers n) x (n_rng n) -> n_layers n = pre ++ l :: post -> layer_params l = Some (w, b) ->
  exists n' l' w' b', fit_one n x t n' /\ nth_error (n_layers n') (length pre) = Some l' /\ layer_params l' = Some (w', b') /\ tdims w' = tdims w /\ tdims b' = tdims b /\
    (forall idx, in_range (tdims w) idx -> exists L D, (forall u, mse_of (with_layers n (pre ++ with_params l (bumped w idx u) b :: post)) x t (L u)) /\ is_derive L 0%R D /\ el w' idx = (el w idx - lr * D)%R) /\
    (forall idx, in_range (tdims b) idx -> exists L D, (forall u, mse_of (with_layers n (pre ++ with_params l w (bumped b idx u) :: post)) x t (L u)) /\ is_derive L 0%R D /\ el b' idx = (el b idx - lr * D)%R).
Proof. exact @sgd_step. Qed.
Example C77_case : chain [4; 3] (n_layers netR) [4; 1] /\ plain_sgd (1 / 10)%R (OSGD (sgd_new (1 / 10)%R 0%R 0%R 0%R false)) /\ sample_for [4; 3] [4; 1] (constR [4; 3] 1%R, constR [4; 1] 0%R) /\
  fit (HR := rngR) netR [] netR.
Proof.
  split; [exact netR_chain|]. split; [exists 0%R, false; reflexivity|]. split; [split; [constRs|split; [reflexivity|split; [constRs|left; reflexivity]]]|]. constructor.
Qed.
Print Assumptions C77_gradient_descent.

(** ** C79 *)
Theorem C79_small_steps_improve : forall {G} {HR : Rng R G} ds ds' damp nest (n : net R G) x t n1 p d n2, chain ds (n_layers n) ds' -> sample_for ds ds' (x, t) -> smooth_run (n_layers n) x (n_rng n) ->
  net_predict n x = (n1, Ok p) -> mse_gradient p t = Ok d -> net_backward n1 d = (n2, Ok tt) -> nonzero_gradient (n_layers n2) ->
  exists e, (0 < e)%R /\ forall lr, (0 < lr < e)%R -> exists n' v v', fit_one (net_compile n MSE (OSGD (sgd_new lr 0%R damp 0%R nest))) x t n' /\ mse_of n x t v /\ mse_of n' x t v' /\ (v' < v)%R.
Proof. exact @sgd_improves. Qed.
(** y = w x + b with w = 1, b = 0, x = 1, t = 0: both gradients are 2. *)
Definition netR1 : net R unit := mkNet [fcR 1 1] None None tt.
Example C79_case : chain [1; 1] (n_layers netR1) [1; 1] /\ sample_for [1; 1] [1; 1] (constR [1; 1] 1%R, constR [1; 1] 0%R) /\
  exists n1 p d n2, net_predict (HR := rngR) netR1 (constR [1; 1] 1%R) = (n1, Ok p) /\ mse_gradient p (constR [1; 1] 0%R) = Ok d /\ net_backward n1 d = (n2, Ok tt) /\ nonzero_gradient (n_layers n2).
Proof.
  assert (HW : fc_wf (mkFC (constR [1; 1] 1%R) (constR [1; 1] 0%R) None None None) 1 1) by (split; [constRs|split; [reflexivity|split; [constRs|reflexivity]]]).
  split; [apply chain_cons with (ds' := [1; 1]); [apply fits_fc; [constRs|reflexivity|constRs|reflexivity|vm_compute; discriminate]|apply chain_nil]|].
  split; [split; [constRs|split; [reflexivity|split; [constRs|left; reflexivity]]]|].
  set (y := tensor_of [1; 1] (fn2 (fun i j => affine 1 (constR [1; 1] 1%R) (constR [1; 1] 0%R) (fun p => el (constR [1; 1] 1%R) [i; p]) j))).
  assert (Gy : good y) by (apply good_tensor_of; [split; [discriminate|repeat constructor; lia]|vm_compute; discriminate]).
  assert (IR : in_range [1; 1] [0; 0]) by (apply in_range2; lia).
  assert (EC : forall v, el (constR [1; 1] v) [0; 0] = v) by (intros v; unfold constR; rewrite el_tensor_of by auto; reflexivity).
  assert (Ey : el y [0; 0] = 1%R).
  { unfold y. rewrite el_tensor_of by auto. unfold fn2. cbn [nth]. unfold affine. rewrite sum_to_R. change (zrange 0 1) with [0]. rewrite rsum_cons, rsum_nil, !EC. cbn. ring. }
  assert (HZ : s_eq (s_z (prod (tdims y)) : R) zero = false) by (apply (counts_R (prod (tdims y))); vm_compute; split; [reflexivity|discriminate]).
  assert (ED := mse_gradient_ok y (constR [1; 1] 0%R) Gy (ltac:(constRs)) (or_introl eq_refl) HZ).
  match type of ED with _ = Ok ?z => set (d := z) in ED end.
  assert (Gd : good d) by (apply good_tensor_of; [split; [discriminate|repeat constructor; lia]|vm_compute; discriminate]).
  assert (Ed : el d [0; 0] = 2%R).
  { unfold d. rewrite el_tensor_of by auto. rewrite Ey. change (el (in_shape (tdims y) (constR [1; 1] 0%R)) [0; 0]) with (el (constR [1; 1] 0%R) [0; 0]). rewrite EC. change (prod (tdims y)) with 1. cbn [s_sub s_mul s_div s_z RScalar]. lra. }
  do 2 eexists. exists d. eexists. split.
  { unfold net_predict, netR1, fcR. cbn [n_layers n_rng n_loss n_opt forward_all layer_forward]. rewrite (fc_forward_2 _ 1 1 (constR [1; 1] 1%R) 1 HW) by (try constRs; try reflexivity; vm_compute; discriminate). reflexivity. }
  split; [exact ED|]. split.
  { unfold net_backward. cbn [n_layers backward_all layer_backward]. unfold lift. cbn [fst snd layer_backward]. rewrite (fc_backward_rows _ 1 1 1 (constR [1; 1] 1%R) d (constR [1; 1] 1%R) d); [reflexivity|exact HW|reflexivity|reflexivity|reflexivity|constRs|reflexivity|auto|reflexivity]. }
  cbn [net_with n_layers]. do 3 eexists. split; [left; reflexivity|]. split; [reflexivity|]. right. exists [0; 0]. split; [exact IR|]. cbn [fc_b fc_w]. rewrite el_tensor_of by exact IR. unfold fn2. cbn [nth]. unfold fc_db. rewrite sum_to_R. change (zrange 0 1) with [0]. rewrite rsum_cons, rsum_nil, Ed. lra.
Qed.
Print Assumptions C79_small_steps_improve.
