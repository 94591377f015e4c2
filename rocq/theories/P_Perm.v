(** * The order of the samples in a batch (C116) *)
From Coq Require Import String Reals Permutation.
From Verif Require Import Base Scalar ScalarR Types Spec SpecR SpecNN SpecLayers M_Shape M_Tensor M_Adv M_Act M_Loss M_Layers M_Reg M_Opt M_Net M_Text M_Log SpecNet SpecNetR SpecLog SpecBatch SpecBatchR
  L_Index L_Tensor L_Nest L_Matmul L_Layers L_Batch L_Avg L_Perm P_Tensor P_Layers P_Net.
Local Open Scope Z_scope.

(** Exact arithmetic, networks without convolutions, any loss and any optimizer: putting the samples (and the targets
    alike) of every batch in another order changes neither the text training prints nor the network it ends with, apart
    from the inputs the layers remember. *)
Theorem C116_training_partial : forall {G} {HR : Rng R G} (show : R -> string) (n : net R G) lo o N ds D samples samples' e, row_net n lo N ds D -> n_opt n = Some o -> new_optim o ->
  samples <> [] -> Forall (fun s => batch_for N ds D (fst s) (snd s)) samples -> Forall2 (shuffled N) samples samples' -> 0 <= e -> e * Zlen samples * Zlen (n_layers n) <= INT_MAX ->
  exists n' n'' out, net_train_report show n (map fst samples) (map snd samples) e = ((n', out), Ok tt) /\
    net_train_report show n (map fst samples') (map snd samples') e = ((n'', out), Ok tt) /\ same_but_inputs n' n''.
Proof. exact @reordered_training. Qed.
(** One step, from any state of the optimizer: the same loss, and the same network afterwards. *)
Theorem C116_step_partial : forall {G} {HR : Rng R G} (n : net R G) lo N ds D sel (x t : tensor R) v n', row_net n lo N ds D -> batch_for N ds D x t -> reordering N sel ->
  fit_one_loss n x t v n' -> exists n'', fit_one_loss n (gather sel x) (gather sel t) v n'' /\ same_but_inputs n' n''.
Proof. exact @reordered_step. Qed.
(** The gradients left in the layers are the same. *)
Theorem C116_gradients_partial : forall {G} {HR : Rng R G} (n : net R G) lo N ds D sel (x t : tensor R), row_net n lo N ds D -> batch_for N ds D x t -> reordering N sel ->
  exists a b, gradients n x t a /\ gradients n (gather sel x) (gather sel t) b /\ same_but_inputs a b.
Proof. exact @reordered_gradients. Qed.
(** The loss of a batch does not depend on the order, for all predictions and targets. *)
Theorem C116_loss : forall lo N D sel (p t : tensor R), good p -> tdims p = N :: D -> good t -> tdims t = N :: D -> (lo = CCE -> List.length D = 1%nat) -> reordering N sel ->
  loss_compute lo (gather sel p) (gather sel t) = loss_compute lo p t.
Proof. exact @reordered_loss. Qed.
(** With a convolution the order matters, because only the first image is used (C109): two images of one pixel. *)
Theorem C116_refuted : forall {G} {HR : Rng R G} (g : G), exists (n : net R G) (x t : tensor R) sel a b gw gb gw' gb',
  n_loss n = Some MSE /\ (exists l, n_layers n = [LConv l]) /\ good x /\ tdims x = [2; 1; 1; 1] /\ good t /\ tdims t = [2; 1; 1; 1] /\ reordering 2 sel /\
  gradients n x t a /\ gradients n (gather sel x) (gather sel t) b /\ grads_at a 0 = Some (gw, gb) /\ grads_at b 0 = Some (gw', gb') /\ tdims gw = tdims gw' /\ gw <> gw'.
Proof. exact @conv_order. Qed.
(** In float32 the order matters for a fully connected layer too: four samples whose bias gradient is the sum of 2^24, 1, 1
    and 0 with a minus sign, in this order -2^24, with the small ones first -(2^24 + 2). *)
Theorem C116_float_refuted : forall lm {G} {HR : Rng f32 G} (g : G), exists (n : net f32 G) (x t : tensor f32) sel a b gw gb gw' gb',
  n_loss n = Some MSE /\ (exists l, n_layers n = [LFC l]) /\ good x /\ tdims x = [4; 1] /\ good t /\ tdims t = [4; 1] /\ reordering 4 sel /\
  gradients (S := F32Scalar lm) n x t a /\ gradients (S := F32Scalar lm) n (@gather _ (F32Scalar lm) sel x) (@gather _ (F32Scalar lm) sel t) b /\ grads_at a 0 = Some (gw, gb) /\ grads_at b 0 = Some (gw', gb') /\
  @el _ (F32Scalar lm) gb [0; 0] = f32_of_Z (- 2 ^ 24) /\ @el _ (F32Scalar lm) gb' [0; 0] = f32_of_Z (- (2 ^ 24 + 2)).
Proof. exact @float_order. Qed.
(** The network of C109 with Adam and two batches of four samples, one of them reversed. *)
Definition rampR (ds : list Z) : tensor R := tensor_of ds (fun idx => IZR (ravel ds idx)).
Definition netP : net R unit := net_compile netR MSE (OAdam (adam_new 1%R 0%R 0%R 1%R 0%R 0%R 0%R 1)).
Definition batchesP : list (tensor R * tensor R) := [(rampR [4; 3], rampR [4; 1]); (constR [4; 3] 1, rampR [4; 1])].
Definition shuffledP : list (tensor R * tensor R) := [(gather [3; 2; 1; 0] (rampR [4; 3]), gather [3; 2; 1; 0] (rampR [4; 1])); (constR [4; 3] 1, rampR [4; 1])].
Lemma gather_all4 : forall ds (x : tensor R), good x -> tdims x = 4 :: ds -> gather [0; 1; 2; 3] x = x.
Proof.
  intros ds x Gx Ex. destruct (good_tail x 4 ds Gx Ex) as (_ & HF & HM). apply tensor_ext; [unfold gather; rewrite Ex; apply good_tensor_of; [change (pos_dims (4 :: ds)); rewrite <- Ex; apply good_pos; auto|exact HM]|auto|unfold gather; rewrite Ex; reflexivity|].
  intros idx HI. unfold gather in HI |- *. rewrite Ex in HI |- *. change (in_range (4 :: ds) idx) in HI. cbn [tl]. change (Zlen [0; 1; 2; 3]) with 4. rewrite el_tensor_of by auto. inversion HI as [|? i ? r Hi Hr]; subst. cbn [hd tl].
  assert (HC : i = 0 \/ i = 1 \/ i = 2 \/ i = 3) by lia. destruct HC as [-> | [-> | [-> | ->]]]; reflexivity.
Qed.
Local Ltac rampRs := apply good_tensor_of; [repeat constructor; try discriminate|vm_compute; discriminate].
Example C116_case : row_net netP MSE 4 [3] [1] /\ Forall (fun s => batch_for 4 [3] [1] (fst s) (snd s)) batchesP /\ Forall2 (shuffled 4) batchesP shuffledP /\
  (exists o, n_opt netP = Some o /\ new_optim o) /\ fst (nth 0 shuffledP (rampR [1], rampR [1])) <> rampR [4; 3].
Proof.
  split; [split; [exact netR_chain|split; [repeat constructor|split; [reflexivity|discriminate]]]|].
  split; [repeat (apply Forall_cons; [split; [cbn [fst]; first [constRs|rampRs]|split; [reflexivity|split; [cbn [snd]; rampRs|reflexivity]]]|]); apply Forall_nil|].
  split.
  - apply Forall2_cons; [exists [3; 2; 1; 0]; split; [apply (Permutation_sym (Permutation_rev [0; 1; 2; 3]))|split; reflexivity]|].
    apply Forall2_cons; [|apply Forall2_nil]. exists [0; 1; 2; 3]. split; [apply Permutation_refl|]. cbn [fst snd]. split; symmetry; (eapply gather_all4; [first [constRs|rampRs]|reflexivity]).
  - split; [eexists; split; [reflexivity|constructor]|]. cbn [nth shuffledP fst]. intros E. apply (f_equal (fun t => el t [0; 0])) in E. cbv beta in E.
    unfold gather in E. change (tdims (rampR [4; 3])) with [4; 3] in E. cbn [tl] in E. change (Zlen [3; 2; 1; 0]) with 4 in E. rewrite el_tensor_of in E by (apply in_range2; lia). cbn [hd tl] in E. change (znth 0 [3; 2; 1; 0] 0) with 3 in E.
    unfold rampR in E. rewrite !el_tensor_of in E by (apply in_range2; lia). change (ravel [4; 3] [3; 0]) with 9 in E. change (ravel [4; 3] [0; 0]) with 0 in E. apply eq_IZR in E. discriminate E.
Qed.
Print Assumptions C116_training_partial.
Print Assumptions C116_step_partial.
Print Assumptions C116_gradients_partial.
Print Assumptions C116_loss.
Print Assumptions C116_refuted.
Print Assumptions C116_float_refuted.
