(** * Training in float32 stays finite (C125) *)
From Coq Require Import Reals Lra SpecFloat.
From Verif Require Import Base Scalar Types Spec SpecNN SpecR SpecF32 SpecOpt M_Shape M_Tensor M_Adv M_Act M_Loss M_Layers M_Reg M_Opt M_Net M_Data SpecData M_Ex SpecNet L_Layers L_Conv L_Index L_Tensor L_Double L_FloatLib SpecCalm L_Calm.
Local Open Scope R_scope.
Local Notation F32 lm := (F32Scalar lm).

(** ** The optimizer.  Adam with decay rates 0.9 and 0.999 and a learning rate of at most 2^(q-35): whatever gradients of at most 2^112 it is
    given, in any number of calls, weights of at most 2^q stay so. *)
Theorem C125_adam : forall lm, pow_like (m_pow lm) -> forall D cs q lr eps decay batch st, (15 <= q <= 35)%nat -> f32_in 0 (/ 2 ^ (35 - q)) lr -> f32_in (/ 2 ^ 40) 1 eps -> f32_in 0 1 decay ->
  (1 <= batch <= INT_MAX)%Z -> (Zlen cs <= INT_MAX)%Z -> store_ok D st -> calls_ok D cs -> tame_calls (2 ^ 112) cs -> Forall (fun c => f32_in (-1) (/ 2 ^ (35 - q)) (fst c)) cs -> tame_weights (2 ^ q) st ->
  exists o' st', opt_run (adam_optimize (S := F32 lm)) cs (adam_new lr (s_lit (Scalar := F32 lm) 9 10) (s_lit (Scalar := F32 lm) 999 1000) eps (f32_of_Z 0) (f32_of_Z 0) decay batch) st = (o', st', Ok tt) /\
    store_ok D st' /\ tame_weights (2 ^ q) st'.
Proof. exact adam_small. Qed.
(** ** Training.  [calms q ds x d ls ds' x' d'] (SpecCalm.v) bounds, layer by layer, outputs and gradients by powers of two, given that the
    parameters are at most 2^q.  Training succeeds for any number of epochs, leaves the parameters within 2^q, and then every input of at most
    2^x is given a prediction of at most 2^x'. *)
Theorem C125_training : forall lm, libm_like lm -> forall {G} {HR : Rng f32 G}, pow_like (m_pow lm) -> forall q ds x d ds' x' d' (n : net f32 G) lo o xs ts e,
  calms q ds x d (n_layers n) ds' x' d' -> n_loss n = Some lo -> n_opt n = Some (OAdam o) -> calm_adam lm q o -> calm_loss lo x' d' ->
  (0 < Zlen xs <= Zlen ts)%Z -> (Zlen xs <= INT_MAX)%Z -> (0 <= e)%Z -> (e * Zlen xs * Zlen (n_layers n) <= INT_MAX)%Z ->
  Forall (fun X => good X /\ tdims X = ds /\ sized x X) xs -> Forall (fun t => target_fits lo ds' t /\ calm_target lo x' t) ts ->
  exists n', net_train (S := F32 lm) n xs ts e = (n', Ok tt) /\ calms q ds x d (n_layers n') ds' x' d' /\
    forall X, good X -> tdims X = ds -> sized x X -> exists n1 p, net_predict (S := F32 lm) n' X = (n1, Ok p) /\ good p /\ tdims p = ds' /\ sized x' p.
Proof. exact @calm_training. Qed.
Theorem C125_parameters : forall q ls ds x d ds' x' d', calms q ds x d ls ds' x' d' -> Forall (sized_params q) ls.
Proof. exact calms_sized. Qed.
(** ** The quick start of the README, with the default options of Adam, from any state of the random engine: batches of at most 2^cn rows, inputs
    of at most 2^x with x + cn <= 43, targets of at most 1. *)
Theorem C125_readme : forall lm, libm_like lm -> forall {G} {HR : Rng f32 G}, pow_like (m_pow lm) -> draws_numbers HR -> forall (g : G) rows x cn xs ts e,
  (0 < rows <= 2 ^ Z.of_nat cn)%Z -> (cn <= 24)%nat -> (x + cn <= 43)%nat -> (0 < Zlen xs <= Zlen ts)%Z -> (Zlen xs <= INT_MAX)%Z -> (0 <= e)%Z -> (e * Zlen xs * 6 <= INT_MAX)%Z ->
  Forall (fun X => good X /\ tdims X = [rows; 10]%Z /\ sized x X) xs -> Forall (fun t => good t /\ tdims t = [rows; 10]%Z /\ sized 0 t) ts ->
  exists n n', readme_net (S := F32 lm) g = Ok n /\ net_train (S := F32 lm) n xs ts e = (n', Ok tt) /\ Forall (sized_params 26) (n_layers n') /\
    forall X, good X -> tdims X = [rows; 10]%Z -> sized x X -> exists n1 p, net_predict (S := F32 lm) n' X = (n1, Ok p) /\ good p /\ tdims p = [rows; 10]%Z /\ sized 0 p.
Proof. exact @readme_training. Qed.
(** ** The linear regression example.  From any state of the random engine, on any data with inputs of at most 128 and targets of at most 2^70. *)
Theorem C125_linear : forall lm, libm_like lm -> forall {G} {HR : Rng f32 G}, pow_like (m_pow lm) -> draws_numbers HR -> forall (g : G) xs ts e,
  (0 < Zlen xs <= Zlen ts)%Z -> (Zlen xs <= INT_MAX)%Z -> (0 <= e)%Z -> (e * Zlen xs * 3 <= INT_MAX)%Z ->
  Forall (fun X => good X /\ tdims X = [1]%Z /\ sized 7 X) xs -> Forall (fun t => good t /\ tdims t = [1]%Z /\ sized 70 t) ts ->
  exists n n', M_Ex.linear_net (S := F32 lm) g = Ok n /\ net_train (S := F32 lm) n xs ts e = (n', Ok tt) /\ Forall (sized_params 29) (n_layers n') /\
    forall X, good X -> tdims X = [1]%Z -> sized 7 X -> exists n1 p, net_predict (S := F32 lm) n' X = (n1, Ok p) /\ good p /\ tdims p = [1]%Z /\ sized 70 p.
Proof. exact @linear_trained. Qed.
(** The whole program: the prediction it prints is a finite number, whatever the two random engines draw, provided that the points of the data set
    lie in the range of [points_within]. *)
Theorem C125_linear_example : forall lm, libm_like lm -> pow_like (m_pow lm) -> forall {G D GD} {SD : Scalar D} {HR : Rng f32 G} {HD : Rng D GD} (to_d : f32 -> D) (to_f : D -> f32),
  draws_numbers HR -> points_within lm to_d to_f -> forall (gd : GD) (g : G), exists p, linear_example (S := F32 lm) to_d to_f gd g = Ok p /\ good p /\ tdims p = [1]%Z /\ sized 70 p.
Proof. exact @linear_finite. Qed.
(** After training, predictions in evaluation mode are in range too. *)
Theorem C125_evaluation : forall lm, libm_like lm -> forall {G} {HR : Rng f32 G} q ds x d ds' x' d' (n : net f32 G), calms q ds x d (n_layers n) ds' x' d' ->
  forall X, good X -> tdims X = ds -> sized x X -> exists n1 p, net_predict (S := F32 lm) (net_set_mode n false) X = (n1, Ok p) /\ good p /\ tdims p = ds' /\ sized x' p.
Proof. exact @calm_evaluation. Qed.
(** ** The MNIST example with its two batch normalisation layers left out (with them the first training step is undefined, C84), on any two files of
    at least 1000 images and labels, for any number of epochs: training succeeds, the parameters stay within 2^26, and every batch of 8 images with
    pixels between -1 and 1 is given ten finite numbers of at most 1 per image. *)
Theorem C125_mnist : forall lm, libm_like lm -> forall {G} {HR : Rng f32 G}, pow_like (m_pow lm) -> draws_numbers HR -> forall n img lab ex ex' (g : G) e, (1000 <= n <= INT_MAX)%Z ->
  (forall i r c, (0 <= i < n)%Z -> (0 <= r < 28)%Z -> (0 <= c < 28)%Z -> is_byte (img i r c)) -> Forall is_byte ex -> (forall i, (0 <= i < 1000)%Z -> (0 <= lab i <= 9)%Z) ->
  (0 <= e)%Z -> (e * 1250 <= INT_MAX)%Z ->
  exists m xs ts m', mnist_net (S := F32 lm) g = Ok m /\ load_data (S := F32 lm) 8 1000 (Some (image_file n 28 28 img ++ ex)) (Some (label_file n lab ++ ex')) = Ok (xs, ts) /\
    net_train (S := F32 lm) (without_bn m) xs ts e = (m', Ok tt) /\ Forall (sized_params 26) (n_layers m') /\
    forall X, good X -> tdims X = [8; 1; 28; 28]%Z -> sized 0 X -> exists m1 p, net_predict (S := F32 lm) (net_set_mode m' false) X = (m1, Ok p) /\ good p /\ tdims p = [8; 10]%Z /\ sized 0 p.
Proof. exact @mnist_training. Qed.
Print Assumptions C125_evaluation.
Print Assumptions C125_mnist.
Print Assumptions C125_linear.
Print Assumptions C125_linear_example.
Print Assumptions C125_adam.
Print Assumptions C125_training.
Print Assumptions C125_parameters.
Print Assumptions C125_readme.

(** An engine that always draws 1/4, a batch of 64 rows of ones, 50 samples, a million epochs. *)
Definition quarter_rng : Rng f32 unit := {| rng_seed := fun _ => tt; rng_normal := fun _ g => (f32_div (f32_of_Z 1) (f32_of_Z 4), g); rng_uniform := fun _ _ g => (f32_div (f32_of_Z 1) (f32_of_Z 4), g) |}.
Definition ones (r : Z) : tensor f32 := tensor_of [r; 10]%Z (fun _ => f32_of_Z 1).
Lemma ones_sized : forall r n, (0 < r <= 64)%Z -> good (ones r) /\ tdims (ones r) = [r; 10]%Z /\ sized n (ones r).
Proof.
  intros r n Hr. split; [apply good_tensor_of; [auto with idx|cbn [prod]; unfold INT_MAX; lia]|]. split; [reflexivity|]. apply Forall_forall. intros v Hv. unfold ones, tensor_of in Hv. cbn [tdata] in Hv.
  apply in_map_iff in Hv. destruct Hv as (i & <- & _). split; [reflexivity|]. split; [exact I|]. pose proof (pow_R1_Rle 2 n ltac:(lra)). unfold f32_value. simpl (powerRZ _ _). simpl. lra.
Qed.
Example C125_case : libm_like cr_libm /\ pow_like (m_pow cr_libm) /\ draws_numbers quarter_rng /\
  (let xs := repeat (ones 64) 50 in (0 < 64 <= 2 ^ Z.of_nat 6)%Z /\ (6 <= 24 /\ 37 + 6 <= 43)%nat /\ (0 < Zlen xs <= Zlen xs)%Z /\ (Zlen xs <= INT_MAX)%Z /\ (0 <= 1000000)%Z /\ (1000000 * Zlen xs * 6 <= INT_MAX)%Z /\
   Forall (fun X => good X /\ tdims X = [64; 10]%Z /\ sized 37 X) xs /\ Forall (fun t => good t /\ tdims t = [64; 10]%Z /\ sized 0 t) xs).
Proof.
  split; [exact cr_libm_like|]. split; [exact pow64_like|]. split; [intros sd g _ _; split; [reflexivity|intros H; discriminate H]|]. cbv zeta.
  split; [vm_compute; split; [reflexivity|discriminate]|]. split; [lia|]. split; [vm_compute; split; [reflexivity|discriminate]|]. split; [vm_compute; discriminate|]. split; [lia|]. split; [vm_compute; discriminate|].
  split; apply Forall_forall; intros X HX; apply repeat_spec in HX; subst X; apply ones_sized; lia.
Qed.
(** The same engine for the data set: the points are (1/4, 15/4). *)
Example C125_linear_case : draws_numbers quarter_rng /\ points_within cr_libm (SD := F32 cr_libm) (HD := quarter_rng) (fun x => x) (fun x => x).
Proof.
  split; [intros sd g _ _; split; [reflexivity|intros H; discriminate H]|]. intros gd. cbv zeta.
  assert (E : fst (line_point (ST := F32 cr_libm) (SD := F32 cr_libm) (fun x => x) (fun x => x) (rng_uniform (Rng := quarter_rng) (f32_of_Z 0) (f32_of_Z 100)) (rng_normal (Rng := quarter_rng) (f32_of_Z 1)) gd) = (S754_finite false 8388608 (-25), S754_finite false 15728640 (-22))) by (vm_compute; reflexivity).
  change (s_z (Scalar := F32 cr_libm) 0) with (f32_of_Z 0). change (s_z (Scalar := F32 cr_libm) 100) with (f32_of_Z 100). change (s_z (Scalar := F32 cr_libm) 1) with (f32_of_Z 1). rewrite E. cbn [fst snd].
  assert (B : 4 <= 2 ^ 70) by (replace 4 with (2 ^ 2) by lra; apply Rle_pow; [lra|lia]).
  split; (split; [reflexivity|]; split; [exact I|]); unfold f32_value.
  - change (powerRZ 2 (-25)) with (/ 2 ^ 25). replace (2 ^ 25) with 33554432 by (simpl; lra). lra.
  - change (powerRZ 2 (-22)) with (/ 2 ^ 22). replace (2 ^ 22) with 4194304 by (simpl; lra). lra.
Qed.
(** 1000 images whose pixel at row r and column c of image i is (i + 3r + 5c) mod 256, labels 0 to 9 in turn, a hundred epochs. *)
Example C125_mnist_case : (1000 <= 1000 <= INT_MAX)%Z /\ (forall i r c, (0 <= i < 1000)%Z -> (0 <= r < 28)%Z -> (0 <= c < 28)%Z -> is_byte ((i + 3 * r + 5 * c) mod 256)) /\ (forall i, (0 <= i < 1000)%Z -> (0 <= i mod 10 <= 9)%Z) /\ (100 * 1250 <= INT_MAX)%Z.
Proof.
  split; [unfold INT_MAX; lia|]. split; [intros i r c _ _ _; unfold is_byte; pose proof (Z.mod_pos_bound (i + 3 * r + 5 * c) 256 eq_refl); lia|]. split; [intros i _; pose proof (Z.mod_pos_bound i 10 eq_refl); lia|unfold INT_MAX; lia].
Qed.
