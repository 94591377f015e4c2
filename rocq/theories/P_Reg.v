(** * Properties C47-C54, C74 and C75: pooling, batch normalisation and dropout *)
From Coq Require Import Reals Lra.
From Verif Require Import Base Scalar ScalarR Types Spec M_Shape M_Tensor M_Adv M_Act M_Layers M_Reg SpecR SpecNN SpecLayers
  L_Index L_Shape L_Tensor L_Glue L_Nest L_Matmul L_RSum L_AdvR L_Act L_ActR L_Layers L_LayersR L_Conv L_ConvR L_Rows L_Pool L_Drop L_BN L_BNR SpecApi L_NormFail P_Layers.
Local Open Scope Z_scope.

(** ** C47.  [window size stride o] lists the positions of the window of output position [o]; [first_max] is an entry
    with the largest value.  [comparable x]: elements are ordered by < and above minus infinity (no NaN, no minus infinity). *)
Theorem C47_max_partial : forall {T} {S : Scalar T} (l : pool T) (x : tensor T) n c h w, good x -> tdims x = [n; c; h; w] -> comparable x ->
  po_pad l = 0 -> 0 < po_stride l -> 0 < po_size l -> po_size l <= h -> po_size l <= w ->
  exists y, pool_forward l x = (mkPool (po_size l) (po_stride l) (po_pad l) (Some x), Ok y) /\ good y /\
    tdims y = [n; c; pool_extent (po_size l) (po_stride l) h; pool_extent (po_size l) (po_stride l) w] /\
    forall o, in_range (tdims y) o ->
      Forall (in_range (tdims x)) (window (po_size l) (po_stride l) o) /\
      exists p, first_max (el x) (window (po_size l) (po_stride l) o) p /\ el y o = el x p.
Proof. exact @pool_forward_max. Qed.
(** Any positive padding makes every forward fail. *)
Theorem C47_padding_throws : forall {T} {S : Scalar T} (l : pool T) (x : tensor T) n c h w, good x -> tdims x = [n; c; h; w] ->
  0 < po_pad l <= INT_MAX -> 0 < po_stride l -> 0 < po_size l -> po_size l <= h -> po_size l <= w ->
  snd (pool_forward l x) = Throw OutOfRange.
Proof. exact @pool_padding_throws. Qed.
Lemma ramp_1144 : good (ramp [1; 1; 4; 4]). Proof. ramps. Qed.
Theorem C47_padding_refuted : exists (l : pool Z) (x : tensor Z), l = pool_new 2 2 1 /\ good x /\ tdims x = [1; 1; 4; 4] /\ snd (pool_forward l x) = Throw OutOfRange.
Proof. exact (ex_intro _ _ (ex_intro _ _ (conj eq_refl (conj ramp_1144 (conj eq_refl eq_refl))))). Qed.
Lemma ordered_Z : forall P : Z -> Prop, ordered P.
Proof. intros P. split; [|split]; cbn [s_lt ZScalar]; intros; lia. Qed.
Lemma comparable_Z : forall x : tensor Z, (forall v, elements x v -> -2147483647 < v) -> comparable x.
Proof. intros x H. split; [apply ordered_Z|]. intros v Hv. cbn [s_lt s_neg s_inf ZScalar]. specialize (H v Hv). lia. Qed.
Example C47_case : comparable (ramp [1; 1; 3; 4]) /\ snd (pool_forward (pool_new 2 1 0) (ramp [1; 1; 3; 4])) = Ok (mkTensor (shape_of [1; 1; 2; 3]) [5; 6; 7; 9; 10; 11]).
Proof.
  split; [|vm_compute; auto]. apply comparable_Z. intros v (idx & HI & ->). unfold ramp in *. change (in_range [1; 1; 3; 4] idx) in HI. rewrite el_tensor_of by auto.
  pose proof (ravel_bound [1; 1; 3; 4] idx HI). lia.
Qed.
Print Assumptions C47_max_partial.
Print Assumptions C47_padding_throws.
Print Assumptions C47_padding_refuted.

(** ** C48.  Each input position receives the sum, from zero and in row-major order, of the output gradients whose
    window's first maximum it is. *)
Theorem C48_routes : forall {T} {S : Scalar T} (l : pool T) (x g : tensor T) n c h w, good x -> tdims x = [n; c; h; w] -> comparable x ->
  po_pad l = 0 -> 0 < po_stride l -> 0 < po_size l -> po_size l <= h -> po_size l <= w ->
  good g -> tdims g = [n; c; pool_extent (po_size l) (po_stride l) h; pool_extent (po_size l) (po_stride l) w] ->
  exists gx win, pool_backward (fst (pool_forward l x)) g = Ok gx /\ good gx /\ tdims gx = tdims x /\
    (forall o, in_range (tdims g) o -> first_max (el x) (window (po_size l) (po_stride l) o) (win o) /\ in_range (tdims x) (win o)) /\
    forall p, in_range (tdims x) p -> el gx p = fold_left s_add (map (el g) (filter (fun o => idx_eqb (win o) p) (all_indices (tdims g)))) zero.
Proof. exact @pool_backward_routes. Qed.
(** Conservation over the reals, where [M] stands for the value used as infinity. *)
Theorem C48_conserved : forall (M : R) (l : pool R) (x g gx : tensor R) n c h w, good x -> tdims x = [n; c; h; w] -> (forall idx, in_range (tdims x) idx -> (- M < el x idx)%R) ->
  po_pad l = 0 -> 0 < po_stride l -> 0 < po_size l -> po_size l <= h -> po_size l <= w ->
  good g -> tdims g = [n; c; pool_extent (po_size l) (po_stride l) h; pool_extent (po_size l) (po_stride l) w] ->
  pool_backward (S := RInf M) (fst (pool_forward (S := RInf M) l x)) g = Ok gx -> rsum (all_indices (tdims x)) (el gx) = rsum (all_indices (tdims g)) (el g).
Proof. exact pool_conserves. Qed.
Theorem C48_needs_forward : forall {T} {S : Scalar T} (g : tensor T) size stride pad, pool_backward (pool_new size stride pad) g = Throw RuntimeError.
Proof. exact (fun T S g size stride pad => eq_refl). Qed.
Example C48_case : snd (pool_forward (pool_new 2 1 0) (ramp [1; 1; 3; 3])) = Ok (mkTensor (shape_of [1; 1; 2; 2]) [4; 5; 7; 8]) /\
  pool_backward (fst (pool_forward (pool_new 2 1 0) (ramp [1; 1; 3; 3]))) (ramp [1; 1; 2; 2]) = Ok (mkTensor (shape_of [1; 1; 3; 3]) [0; 0; 0; 0; 0; 1; 0; 2; 3]).
Proof. vm_compute. auto. Qed.
Print Assumptions C48_routes.
Print Assumptions C48_conserved.
Print Assumptions C48_needs_forward.

(** ** C49.  [feature_mean x j] and [feature_var x j] are the batch statistics of feature j, [normalised] the formula. *)
Theorem C49_training_output : forall {T} {S : Scalar T} f (l : bn T) (x : tensor T) n, bn_rows f l -> bn_train l = true -> good x -> tdims x = [n; f] ->
  snd (bn_forward l x) = Ok (tensor_of [n; f] (fn2 (fun i j =>
    normalised (bn_eps l) (feature_mean x j) (feature_var x j) (el (bn_gamma l) [0; j]) (el (bn_beta l) [0; j]) (el x [i; j])))).
Proof. exact (fun T S f l x n H1 H2 H3 H4 => f_equal snd (bn_train_rows f l x n H1 H2 H3 H4)). Qed.
Theorem C49_standardised : forall f (l : bn R) (x : tensor R) n, bn_rows f l -> bn_train l = true -> good x -> tdims x = [n; f] -> (0 < bn_eps l)%R ->
  (forall j, 0 <= j < f -> el (bn_gamma l) [0; j] = 1%R /\ el (bn_beta l) [0; j] = 0%R) ->
  exists l' y, bn_forward l x = (l', Ok y) /\ good y /\ tdims y = [n; f] /\
    forall j, 0 <= j < f ->
      ravg (feature_positions [n; f] j) (el y) = 0%R /\
      ravg (feature_positions [n; f] j) (fun idx => (el y idx - 0) * (el y idx - 0))%R = (feature_var x j / (feature_var x j + bn_eps l))%R /\
      (0 <= feature_var x j / (feature_var x j + bn_eps l) < 1)%R.
Proof. exact bn_train_standard. Qed.
(** The batch statistics are the mean and the mean squared deviation. *)
Theorem C49_statistics : forall f (x : tensor R) j, good x -> featured f (tdims x) -> 0 <= j < f ->
  feature_mean x j = ravg (feature_positions (tdims x) j) (el x) /\
  feature_var x j = ravg (feature_positions (tdims x) j) (fun idx => (el x idx - feature_mean x j) * (el x idx - feature_mean x j))%R.
Proof. exact (fun f x j H1 H2 H3 => conj (feature_mean_R f x j H1 H2 H3) (proj1 (feature_var_R f x j H1 H2 H3))). Qed.
(** A constructed layer meets the hypotheses. *)
Theorem C49_constructed : forall {T} {S : Scalar T} f (eps mom : T), 0 < f <= INT_MAX ->
  exists l, bn_new f eps mom = Ok l /\ bn_rows f l /\ bn_train l = true /\ bn_eps l = eps /\ bn_mom l = mom /\
    forall j, 0 <= j < f -> el (bn_gamma l) [0; j] = one /\ el (bn_beta l) [0; j] = zero /\ el (bn_rmean l) [0; j] = zero /\ el (bn_rvar l) [0; j] = one.
Proof. exact @bn_new_ok. Qed.
(** Inputs of any rank other than 2 and 4 are rejected and leave the layer as it was. *)
Theorem C49_other_ranks : forall {T} {S : Scalar T} (l : bn T) (x : tensor T), Zlen (tdims x) <> 2 -> Zlen (tdims x) <> 4 -> bn_forward l x = (l, Throw RuntimeError).
Proof. exact @bn_other_ranks. Qed.
Definition bn2 : bn Z := mkBN 2 0 0 (tensor_of [1; 2] (fun _ => 1)) (tensor_of [1; 2] (fun _ => 0)) (tensor_of [1; 2] (fun _ => 0)) (tensor_of [1; 2] (fun _ => 1)) None None None None None true.
Lemma bn2_rows : bn_rows 2 bn2.
Proof. split; [|split; [|split]]; (split; [apply good_tensor_of; [auto with idx|vm_compute; discriminate]|reflexivity]). Qed.
Example C49_case : bn_rows 2 bn2 /\ bn_train bn2 = true /\ good (ramp [1; 2]) /\ snd (bn_forward bn2 (ramp [1; 2])) = Ok (mkTensor (shape_of [1; 2]) [0; 0]).
Proof. split; [exact bn2_rows|]. split; [reflexivity|]. split; [ramps|]. vm_compute. auto. Qed.
Print Assumptions C49_training_output.
Print Assumptions C49_standardised.
Print Assumptions C49_statistics.
Print Assumptions C49_constructed.
Print Assumptions C49_other_ranks.

(** ** C50.  [es] is any sequence of (mode, input) calls; [training es] are the inputs seen in training mode. *)
Theorem C50_moving_averages : forall {T} {S : Scalar T} f (es : list (bool * tensor T)) (l : bn T), bn_rows f l ->
  Forall (fun e => good (snd e) /\ exists n, tdims (snd e) = [n; f]) es ->
  bn_rows f (bn_run l es) /\ bn_gamma (bn_run l es) = bn_gamma l /\ bn_beta (bn_run l es) = bn_beta l /\
  bn_eps (bn_run l es) = bn_eps l /\ bn_mom (bn_run l es) = bn_mom l /\
  forall j, 0 <= j < f ->
    el (bn_rmean (bn_run l es)) [0; j] = fold_left (fun r x => ema (bn_mom l) r (feature_mean x j)) (training es) (el (bn_rmean l) [0; j]) /\
    el (bn_rvar (bn_run l es)) [0; j] = fold_left (fun r x => ema (bn_mom l) r (feature_var x j)) (training es) (el (bn_rvar l) [0; j]).
Proof. exact @bn_history. Qed.
Theorem C50_eval_changes_nothing : forall {T} {S : Scalar T} (l : bn T) (x : tensor T), bn_train l = false -> fst (bn_forward l x) = l.
Proof. exact @bn_eval_keeps. Qed.
Theorem C50_eval_output : forall {T} {S : Scalar T} f (l : bn T) (x : tensor T) n, bn_rows f l -> bn_train l = false -> good x -> tdims x = [n; f] ->
  bn_forward l x = (l, Ok (tensor_of [n; f] (fn2 (fun i j =>
    normalised (bn_eps l) (el (bn_rmean l) [0; j]) (el (bn_rvar l) [0; j]) (el (bn_gamma l) [0; j]) (el (bn_beta l) [0; j]) (el x [i; j]))))).
Proof. exact @bn_eval_rows. Qed.
(** After any history of calls on a new layer, a training batch that is rejected changes nothing that evaluation uses. *)
Theorem C50_rejected_batch : forall {T} {S : Scalar T} n eps mom (l0 l' : bn T) es x o, bn_new n eps mom = Ok l0 -> Forall (fun e => consistent (snd e)) es -> consistent x ->
  bn_forward (bn_set_mode (bn_run l0 es) true) x = (l', o) -> (forall y, o <> Ok y) ->
  (bn_rmean l' = bn_rmean (bn_run l0 es) /\ bn_rvar l' = bn_rvar (bn_run l0 es) /\ bn_gamma l' = bn_gamma (bn_run l0 es) /\ bn_beta l' = bn_beta (bn_run l0 es)) /\
  forall z, snd (bn_forward (bn_set_mode l' false) z) = snd (bn_forward (bn_set_mode (bn_run l0 es) false) z).
Proof. exact @failed_batch. Qed.
Print Assumptions C50_rejected_batch.
(** A batch of three features given to a layer for two, after a batch that fits. *)
Example C50_rejected_case : exists l0 : bn Z, bn_new 2 1 0 = Ok l0 /\ bn_rmean (bn_run l0 [(true, ramp [1; 2])]) <> bn_rmean l0 /\
  snd (bn_forward (bn_set_mode (bn_run l0 [(true, ramp [1; 2])]) true) (ramp [4; 3])) = Throw InvalidArgument.
Proof. eexists. split; [reflexivity|]. vm_compute. split; [discriminate|reflexivity]. Qed.
(** In exact arithmetic: the weights are (1 - mom) * mom^k, and the running variance stays non-negative. *)
Theorem C50_closed_form : forall mom (l : list R) r, (fold_left (fun r x => ema mom r x) l r = mom ^ length l * r + (1 - mom) * weighted mom l)%R.
Proof. exact ema_closed. Qed.
Theorem C50_nonnegative : forall mom (l : list R) r, (0 <= mom <= 1)%R -> (0 <= r)%R -> (forall x, In x l -> (0 <= x)%R) -> (0 <= fold_left (fun r x => ema mom r x) l r)%R.
Proof. exact ema_nonneg. Qed.
Example C50_case : Forall (fun e => good (snd e) /\ exists n, tdims (snd e) = [n; 2]) [(true, ramp [1; 2]); (false, ramp [1; 2]); (true, ramp [3; 2])] /\
  training [(true, ramp [1; 2]); (false, ramp [1; 2]); (true, ramp [3; 2])] = [ramp [1; 2]; ramp [3; 2]].
Proof. split; [|reflexivity]. repeat constructor; try (cbn [snd]; ramps); eexists; reflexivity. Qed.
Print Assumptions C50_moving_averages.
Print Assumptions C50_eval_changes_nothing.
Print Assumptions C50_eval_output.
Print Assumptions C50_closed_form.
Print Assumptions C50_nonnegative.

(** ** C51.  [images f x]: x is (batch, f, height, width).  The statement holds for one channel only. *)
Theorem C51_one_channel_partial : forall {T} {S : Scalar T} (l : bn T) (xs : list (tensor T)) (x : tensor T), bn_rows 1 l -> Forall (images 1) xs -> images 1 x ->
  snd (bn_forward (bn_set_mode (bn_run l (map (pair true) xs)) false) x) = Ok (tensor_of (tdims x) (fun idx =>
    normalised (bn_eps l) (fold_left (fun r x => ema (bn_mom l) r (feature_mean x 0)) xs (el (bn_rmean l) [0; 0]))
      (fold_left (fun r x => ema (bn_mom l) r (feature_var x 0)) xs (el (bn_rvar l) [0; 0])) (el (bn_gamma l) [0; 0]) (el (bn_beta l) [0; 0]) (el x idx))).
Proof. exact @bn_one_channel_eval. Qed.
(** With more channels, eval mode fails after any number of training forwards. *)
Theorem C51_more_channels_throw : forall {T} {S : Scalar T} f (l : bn T) (xs : list (tensor T)) (x : tensor T) n h w, bn_rows f l -> 1 < f -> f * f <= INT_MAX ->
  Forall (images f) xs -> xs <> [] -> tdims x = [n; f; h; w] ->
  snd (bn_forward (bn_set_mode (bn_run l (map (pair true) xs)) false) x) = Throw RuntimeError.
Proof. exact @bn_images_eval_fails. Qed.
Lemma ramp_1211 : images 2 (ramp [1; 2; 1; 1]). Proof. split; [ramps|do 3 eexists; reflexivity]. Qed.
Lemma bn2_images : snd (bn_forward (bn_set_mode (bn_run bn2 (map (pair true) [ramp [1; 2; 1; 1]])) false) (ramp [1; 2; 1; 1])) = Throw RuntimeError.
Proof. vm_compute. auto. Qed.
Theorem C51_refuted : exists (l : bn Z) (x : tensor Z), bn_rows 2 l /\ images 2 x /\
  snd (bn_forward (bn_set_mode (bn_run l (map (pair true) [x])) false) x) = Throw RuntimeError.
Proof. exact (ex_intro _ bn2 (ex_intro _ (ramp [1; 2; 1; 1]) (conj bn2_rows (conj ramp_1211 bn2_images)))). Qed.
Example C51_case : images 1 (ramp [2; 1; 2; 2]). Proof. split; [ramps|do 3 eexists; reflexivity]. Qed.
Print Assumptions C51_one_channel_partial.
Print Assumptions C51_more_channels_throw.
Print Assumptions C51_refuted.

(** ** C52.  Backward reads outside a one-element dimension list after every training forward, for rank 2 and rank 4. *)
Theorem C52_always_undefined : forall {T} {S : Scalar T} f (l : bn T) (x g : tensor T), bn_rows f l -> bn_train l = true -> good x -> featured f (tdims x) -> f * f <= INT_MAX ->
  good g -> tdims g = tdims x -> snd (bn_backward (fst (bn_forward l x)) g) = UB.
Proof. exact @bn_backward_after. Qed.
Lemma bn2_backward : snd (bn_backward (fst (bn_forward bn2 (ramp [1; 2]))) (ramp [1; 2])) = UB.
Proof. vm_compute. auto. Qed.
Lemma ramp_12 : good (ramp [1; 2]). Proof. ramps. Qed.
Theorem C52_refuted : exists (l : bn Z) (x g : tensor Z), bn_rows 2 l /\ bn_train l = true /\ good x /\ tdims x = [1; 2] /\ good g /\ tdims g = [1; 2] /\
  snd (bn_backward (fst (bn_forward l x)) g) = UB.
Proof. exact (ex_intro _ bn2 (ex_intro _ _ (ex_intro _ _ (conj bn2_rows (conj eq_refl (conj ramp_12 (conj eq_refl (conj ramp_12 (conj eq_refl bn2_backward))))))))). Qed.
Theorem C52_needs_forward : forall {T} {S : Scalar T} f (eps mom : T) (l : bn T) (g : tensor T), bn_new f eps mom = Ok l -> bn_backward l g = (l, Throw RuntimeError).
Proof. exact @bn_backward_fresh. Qed.
Print Assumptions C52_always_undefined.
Print Assumptions C52_refuted.
Print Assumptions C52_needs_forward.

(** ** C53 *)
Theorem C53_eval_identity : forall {T} {S : Scalar T} {G} {HR : Rng T G} (l : dropout T) (x : tensor T) (g : G), dr_train l = false -> dropout_forward l x g = (l, g, Ok x).
Proof. exact @dropout_eval. Qed.
Theorem C53_training : forall {G} {HR : Rng R G} (l : dropout R) (x : tensor R) (g : G), dr_train l = true -> good x -> dr_rate l <> 1%R ->
  exists l' g' y, dropout_forward l x g = (l', g', Ok y) /\ good y /\ tdims y = tdims x /\
    forall idx, in_range (tdims x) idx -> el y idx = 0%R \/ el y idx = (el x idx * (1 / (1 - dr_rate l)))%R.
Proof. exact @dropout_train_R. Qed.
(** In any arithmetic: the input times 0 or 1, then times 1/(1-rate); the mask is kept for backward. *)
Theorem C53_training_any_arithmetic : forall {T} {S : Scalar T} {G} {HR : Rng T G} (l : dropout T) (x : tensor T) (g : G), dr_train l = true -> good x ->
  exists r g', f_rand (tdims x) g = Ok (r, g') /\ good r /\ tdims r = tdims x /\
    dropout_forward l x g = (mkDrop (dr_rate l) (Some (tensor_of (tdims r) (fun idx => if s_lt (dr_rate l) (el r idx) then one else zero))) true, g',
      Ok (tensor_of (tdims x) (fun idx => s_mul (s_mul (el x idx) (if s_lt (dr_rate l) (el r idx) then one else zero)) (s_div one (s_sub one (dr_rate l)))))).
Proof. exact @dropout_train. Qed.
Example C53_case : dr_train (dropout_new (1 / 2)%R) = true /\ dr_rate (dropout_new (1 / 2)%R) <> 1%R.
Proof. split; [reflexivity|]. cbn [dropout_new dr_rate]. lra. Qed.
Print Assumptions C53_eval_identity.
Print Assumptions C53_training.
Print Assumptions C53_training_any_arithmetic.

(** ** C54.  Backward multiplies by the mask but not by 1/(1-rate): it is the gradient up to that factor, and exactly
    the gradient only for rate 0. *)
Theorem C54_partial : forall {G} {HR : Rng R G} (l : dropout R) (e : G) ds X s dX, dr_train l = true -> dr_rate l <> 1%R -> curve ds X s dX ->
  exists Y dY, (forall u, snd (dropout_forward l (X u) e) = Ok (Y u)) /\ curve ds Y s dY /\
    forall g, good g -> tdims g = ds -> exists gx,
      dropout_backward (fst (fst (dropout_forward l (X s) e))) g = Ok gx /\ good gx /\ tdims gx = ds /\ dot g dY = (1 / (1 - dr_rate l) * dot gx dX)%R.
Proof. exact @dropout_gradient. Qed.
Theorem C54_rate_zero_partial : forall {G} {HR : Rng R G} (l : dropout R) (e : G) ds, dr_train l = true -> dr_rate l = 0%R -> dropout_backward_is_gradient l e ds.
Proof. exact @dropout_gradient_rate0. Qed.
(** Whenever one element is kept, only rate 0 gives the gradient. *)
Theorem C54_only_rate_zero : forall {G} {HR : Rng R G} (l : dropout R) (e : G) ds r e' idx, dr_train l = true -> dr_rate l <> 1%R -> pos_dims ds -> prod ds <= INT_MAX ->
  f_rand ds e = Ok (r, e') -> in_range ds idx -> (dr_rate l < el r idx)%R -> dropout_backward_is_gradient l e ds -> dr_rate l = 0%R.
Proof. exact @dropout_gradient_only. Qed.
Theorem C54_refuted : exists (HR : Rng R unit) (l : dropout R) ds, dr_train l = true /\ dr_rate l = (1 / 2)%R /\ ~ dropout_backward_is_gradient l tt ds.
Proof. exact (ex_intro _ one_rng (ex_intro _ (mkDrop (1 / 2)%R None true) (ex_intro _ [1] (conj eq_refl (conj eq_refl dropout_half_wrong))))). Qed.
Theorem C54_wrong_shape_throws : forall {T} {S : Scalar T} (l : dropout T) (m g : tensor T), dr_mask l = Some m -> tdims g <> tdims m -> dropout_backward l g = Throw InvalidArgument.
Proof. exact @dropout_backward_shape. Qed.
Print Assumptions C54_partial.
Print Assumptions C54_rate_zero_partial.
Print Assumptions C54_only_rate_zero.
Print Assumptions C54_refuted.
Print Assumptions C54_wrong_shape_throws.

(** ** C74 *)
Theorem C74_partial : forall {G} {HR : Rng R G} (l : dropout R) (x r : tensor R) (e e' : G), dr_train l = true -> dr_rate l = 0%R -> good x ->
  f_rand (tdims x) e = Ok (r, e') -> (forall idx, in_range (tdims x) idx -> (0 < el r idx)%R) -> snd (dropout_forward l x e) = Ok x.
Proof. exact @dropout_zero_keeps. Qed.
(** A normal draw that is not positive is clamped to 0, which is not above the rate. *)
Theorem C74_refuted : exists (HR : Rng R unit) (x y : tensor R) l', good x /\ dropout_forward (mkDrop 0%R None true) x tt = (l', tt, Ok y) /\ y <> x.
Proof. exact (ex_intro _ zero_rng dropout_zero_drops). Qed.
Example C74_case : exists r e, f_rand (H := one_rng) [1] tt = Ok (r, e) /\ el r [0] = 1%R.
Proof. exact one_rng_draw. Qed.
Print Assumptions C74_partial.
Print Assumptions C74_refuted.

(** ** C75 *)
Theorem C75_images : forall {T} {S : Scalar T} f (l : bn T) (x : tensor T) n h w, bn_rows f l -> bn_train l = true -> good x -> tdims x = [n; f; h; w] -> f * f <= INT_MAX ->
  snd (bn_forward l x) = Ok (tensor_of [n; f; h; w] (fn4 (fun i j y z =>
    normalised (bn_eps l) (feature_mean x j) (feature_var x j) (el (bn_gamma l) [0; j]) (el (bn_beta l) [0; j]) (el x [i; j; y; z])))).
Proof. exact @bn_train_images_out. Qed.
Example C75_case : good (ramp [2; 2; 1; 1]) /\ snd (bn_forward bn2 (ramp [2; 2; 1; 1])) = Ok (mkTensor (shape_of [2; 2; 1; 1]) [0; 0; 2; 1]).
Proof. split; [ramps|]. vm_compute. auto. Qed.
Print Assumptions C75_images.
