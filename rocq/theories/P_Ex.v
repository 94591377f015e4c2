(** * Properties C82 to C84: networks with batch normalisation, networks fed single samples, the example programs *)
From Verif Require Import Base Scalar Types Spec SpecNN SpecLayers M_Shape M_Tensor M_Adv M_Act M_Loss M_Layers M_Reg M_Opt M_Net SpecNet SpecEx M_Data SpecData M_Ex
  L_Index L_Shape L_Tensor L_Glue L_BN L_Net L_Train L_Data L_F32 L_Ex.

Definition flatZ (ds : list Z) (v : Z) : tensor Z := tensor_of ds (fun _ => v).
Lemma flatZ_good : forall ds v, pos_dims ds -> prod ds <= INT_MAX -> good (flatZ ds v).
Proof. intros. apply good_tensor_of; auto. Qed.
Ltac flats := apply flatZ_good; [split; [discriminate|repeat constructor]|vm_compute; discriminate].
(** A generator of constant numbers. *)
Definition still_rng : Rng Z Z := {| rng_seed := fun z => z; rng_normal := fun _ g => (1, g); rng_uniform := fun _ _ g => (1, g) |}.

(** ** C82.  Refuted.  [stack forwards ds ls ds']: the layers take inputs of shape [ds] to outputs of shape [ds'], and batch
    normalisation layers are in training mode.  If there is such a layer, training is undefined on the first sample. *)
Theorem C82_always_undefined : forall {T} {S : Scalar T} {G} {HR : Rng T G} ds ds' (n : net T G) lo x t xs ts e,
  stack forwards ds (n_layers n) ds' -> Exists is_bn (n_layers n) -> n_loss n = Some lo -> counts_nonzero (T := T) ->
  good x -> tdims x = ds -> target_fits lo ds' t -> 0 < e -> snd (net_train n (x :: xs) (t :: ts) e) = UB.
Proof. exact @bn_train_undefined. Qed.
Definition bnZ : bn Z := mkBN 2 1 1 (flatZ [1; 2] 1) (flatZ [1; 2] 0) (flatZ [1; 2] 0) (flatZ [1; 2] 1) None None None None None true.
Definition fcZ : fc Z := mkFC (flatZ [3; 2] 1) (flatZ [1; 2] 0) None None None.
Definition bnnetZ : net Z Z := mkNet [LFC fcZ; LBN bnZ; LAct (act_new ReLU)] (Some MSE) (Some (OSGD (sgd_new 1 0 0 0 false))) 0.
Example C82_case : stack forwards [4; 3] (n_layers bnnetZ) [4; 2] /\ Exists is_bn (n_layers bnnetZ) /\ counts_nonzero (T := Z) /\ good (flatZ [4; 3] 1) /\ target_fits MSE [4; 2] (flatZ [4; 2] 1).
Proof.
  split.
  { apply (acc_cons _ _ _ [4; 2]); [apply fwd_layer, acc_fc; [flats|reflexivity|flats|reflexivity|vm_compute; discriminate]|].
    apply (acc_cons _ _ _ [4; 2]); [|apply (acc_cons _ _ _ [4; 2]); [apply fwd_layer, acc_act; discriminate|constructor]].
    apply (fwd_bn 2); [|reflexivity|left; exists 4; reflexivity|vm_compute; discriminate]. split; [|split; [|split]]; (split; [flats|reflexivity]). }
  split; [apply Exists_cons_tl, Exists_cons_hd; exact I|]. split; [intros n HN; change ((n =? 0) = false); apply Z.eqb_neq; lia|]. split; [flats|]. split; [flats|left; reflexivity].
Qed.
Lemma bnnet_fails : snd (net_train (HR := still_rng) bnnetZ [flatZ [4; 3] 1] [flatZ [4; 2] 1] 1) = UB.
Proof. vm_compute. reflexivity. Qed.
Lemma bn_refutes : exists (n : net Z Z) x t, stack forwards [4; 3] (n_layers n) [4; 2] /\ good x /\ tdims x = [4; 3] /\ target_fits MSE [4; 2] t /\
  snd (net_train (HR := still_rng) n [x] [t] 1) = UB.
Proof.
  destruct C82_case as (H1 & _ & _ & H2 & H3). exists bnnetZ, (flatZ [4; 3] 1), (flatZ [4; 2] 1).
  split; [exact H1|]. split; [exact H2|]. split; [reflexivity|]. split; [exact H3|exact bnnet_fails].
Qed.
Theorem C82_refuted : exists (n : net Z Z) x t, stack forwards [4; 3] (n_layers n) [4; 2] /\ good x /\ tdims x = [4; 3] /\ target_fits MSE [4; 2] t /\
  snd (net_train (HR := still_rng) n [x] [t] 1) = UB.
Proof. exact bn_refutes. Qed.
Print Assumptions C82_always_undefined.
Print Assumptions C82_refuted.

(** ** C83.  [accepts1_all ds ls ds']: fully connected layers and ReLU, Sigmoid, Tanh, with matching widths, on samples of
    rank one.  Targets have the shape of the predictions. *)
Theorem C83_training_succeeds : forall {T} {S : Scalar T} {G} {HR : Rng T G} ds ds' lo o (n : net T G) xs ts e,
  accepts1_all ds (n_layers n) ds' -> n_loss n = Some lo -> n_opt n = Some o -> new_optim o -> counts_nonzero (T := T) ->
  0 < Zlen xs <= Zlen ts -> Zlen xs <= INT_MAX -> 0 <= e -> e * Zlen xs * Zlen (n_layers n) <= INT_MAX ->
  Forall (fun x => good x /\ tdims x = ds) xs -> Forall (target_fits lo ds') ts ->
  exists n', net_train n xs ts e = (n', Ok tt) /\ accepts1_all ds (n_layers n') ds' /\ map params_dims (n_layers n') = map params_dims (n_layers n).
Proof. exact @train1_total. Qed.
(** The linear-regression program predicts one value, whatever numbers the two generators produce. *)
Theorem C83_linear_example : forall {T D G GD} {S : Scalar T} {SD : Scalar D} {HR : Rng T G} {HD : Rng D GD} (to_d : T -> D) (to_f : D -> T),
  counts_nonzero (T := T) -> forall (gd : GD) (g : G), exists y, linear_example to_d to_f gd g = Ok y /\ good y /\ tdims y = [1].
Proof. exact @linear_example_ok. Qed.
(** Float32 elements satisfy the premise. *)
Theorem C83_float32 : forall lm, counts_nonzero (T := f32) (S := F32Scalar lm).
Proof. exact f32_counts. Qed.
Definition netZ1 : net Z Z := mkNet [LFC fcZ; LAct (act_new ReLU)] (Some MSE) (Some (OSGD (sgd_new 1 0 0 0 false))) 0.
Example C83_case : accepts1_all [3] (n_layers netZ1) [2] /\ good (flatZ [3] 1) /\ target_fits MSE [2] (flatZ [2] 1) /\ snd (net_train (HR := still_rng) netZ1 [flatZ [3] 1] [flatZ [2] 1] 2) = Ok tt.
Proof.
  split; [|split; [flats|split; [split; [flats|left; reflexivity]|vm_compute; reflexivity]]].
  apply (acc_cons _ _ _ [2]); [constructor; [flats|reflexivity|flats|reflexivity]|]. apply (acc_cons _ _ _ [2]); [constructor; exact I|constructor].
Qed.
Print Assumptions C83_training_succeeds.
Print Assumptions C83_linear_example.
Print Assumptions C83_float32.

(** ** C84.  Refuted.  For every pair of data files with at least 1000 images of 28 by 28 pixels and labels from 0 to 9, and every
    sequence of random numbers, the program's training is undefined. *)
Theorem C84_always_undefined : forall {T} {S : Scalar T} {G} {HR : Rng T G}, counts_nonzero (T := T) -> bytes_scale (T := T) ->
  forall n img lab ex ex' (g : G), 1000 <= n <= INT_MAX ->
  (forall i r c, 0 <= i < n -> 0 <= r < 28 -> 0 <= c < 28 -> is_byte (img i r c)) -> Forall is_byte ex -> (forall i, 0 <= i < 1000 -> 0 <= lab i <= 9) ->
  mnist_example (Some (image_file n 28 28 img ++ ex)) (Some (label_file n lab ++ ex')) g = UB.
Proof. exact (fun T S G HR => @mnist_example_undefined T G S HR). Qed.
Lemma mnist_case : forall lm G (HR : Rng f32 G) (g : G), mnist_example (S := F32Scalar lm) (HR := HR) (Some (image_file 1000 28 28 (fun _ _ _ => 0))) (Some (label_file 1000 (fun _ => 7))) g = UB.
Proof.
  intros lm G HR g. rewrite <- (app_nil_r (image_file _ _ _ _)), <- (app_nil_r (label_file _ _)).
  apply (C84_always_undefined (S := F32Scalar lm)); [apply f32_counts|apply f32_bytes_scale|unfold INT_MAX; lia|intros; unfold is_byte; lia|constructor|intros; lia].
Qed.
Theorem C84_refuted : forall lm G (HR : Rng f32 G) (g : G), exists images labels, mnist_example (S := F32Scalar lm) (HR := HR) (Some images) (Some labels) g = UB.
Proof. exact (fun lm G HR g => ex_intro _ _ (ex_intro _ _ (mnist_case lm G HR g))). Qed.
(** Float32 meets the premises. *)
Example C84_case : forall lm, counts_nonzero (T := f32) (S := F32Scalar lm) /\ bytes_scale (T := f32) (S := F32Scalar lm).
Proof. intros lm. split; [apply f32_counts|apply f32_bytes_scale]. Qed.
Print Assumptions C84_always_undefined.
Print Assumptions C84_refuted.
