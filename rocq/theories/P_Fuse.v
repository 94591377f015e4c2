(** * Layers that can be merged, rescaled, left out or exchanged without changing predictions (C132 to C136) *)
From Coq Require Import Reals Lra SpecFloat.
From Verif Require Import Base Scalar ScalarR Types Spec SpecNN SpecLayers SpecR SpecF32 M_Shape M_Tensor M_Adv M_Act M_Loss M_Layers M_Reg M_Opt M_Net SpecNet SpecFuse
  L_Index L_Tensor L_Nest L_Matmul L_RSum L_Fuse L_Swap P_Tensor P_Layers P_Net P_Prune.
Local Open Scope Z_scope.

(** ** C132: two dense layers in a row
    Exact arithmetic.  A network in which two dense layers follow each other predicts the same as with the one dense layer that has the product
    of the weight matrices, wherever the two stand and on every input; and there is such a layer for any two. *)
Theorem C132_merge : forall G (HR : Rng R G) n k m o (a b c : fc R), merged k m o a b c -> n * m <= INT_MAX -> n * o <= INT_MAX ->
  interchangeable (HR := HR) [n; k] [LFC a; LFC b] [LFC c].
Proof. exact @merge_dense. Qed.
Theorem C132_exists : forall k m o (a b : fc R), dense_of k m a -> dense_of m o b -> k * o <= INT_MAX -> exists c, merged k m o a b c.
Proof. exact merge_exists. Qed.
Print Assumptions C132_merge.
Print Assumptions C132_exists.

(** ** C133: batch normalisation in evaluation mode after a dense layer or a convolution *)
Theorem C133_dense : forall G (HR : Rng R G) n k o (a : fc R) b c, folded k o a b c -> bn_train b = false -> n * o <= INT_MAX -> interchangeable (HR := HR) [n; k] [LFC a; LBN b] [LFC c].
Proof. exact @fold_dense. Qed.
Theorem C133_dense_exists : forall k o (a : fc R) b, dense_of k o a -> bn_rows o b -> exists c, folded k o a b c.
Proof. exact fold_exists. Qed.
Theorem C133_conv : forall G (HR : Rng R G) n h w (a : conv R) b c, folded_conv a b c -> bn_train b = false -> cv_kh a <= h -> cv_kw a <= w ->
  n * (cv_oc a * ((h - cv_kh a + 1) * (w - cv_kw a + 1))) <= INT_MAX -> interchangeable (HR := HR) [n; cv_ic a; h; w] [LConv a; LBN b] [LConv c].
Proof. exact @fold_conv. Qed.
Theorem C133_conv_exists : forall (a : conv R) b, kernels_of a -> bn_rows (cv_oc a) b -> exists c, folded_conv a b c.
Proof. exact fold_conv_exists. Qed.
Print Assumptions C133_dense.
Print Assumptions C133_dense_exists.
Print Assumptions C133_conv.
Print Assumptions C133_conv_exists.

(** ** C134: scaling hidden units, and scaling the input
    Exact arithmetic.  Hidden unit [j] between two dense layers with ReLU or LeakyReLU: its incoming weights and bias times a positive number,
    its outgoing weights divided by it. *)
Theorem C134_hidden : forall G (HR : Rng R G) n k m o s (a b a' b' : fc R) (f f' : actl R), rescaled k m o s a b a' b' -> keeps_scale (al_act f) -> al_act f' = al_act f ->
  n * m <= INT_MAX -> n * o <= INT_MAX -> interchangeable (HR := HR) [n; k] [LFC a; LAct f; LFC b] [LFC a'; LAct f'; LFC b'].
Proof. exact @rescale_hidden. Qed.
(** Without biases: [c] times the input gives [c] times the output. *)
Theorem C134_input : forall G (HR : Rng R G) c (n : net R G) ds ds' x x', (0 <= c)%R -> stack predicts ds (n_layers n) ds' -> Forall no_offset (n_layers n) -> good x -> tdims x = ds -> times c x x' ->
  exists y y', snd (net_predict n x) = Ok y /\ snd (net_predict n x') = Ok y' /\ tdims y = ds' /\ times c y y'.
Proof. exact @scaled_inputs. Qed.
Print Assumptions C134_hidden.
Print Assumptions C134_input.

(** ** C135: layers that do nothing to a prediction, in any arithmetic *)
Theorem C135_dropout : forall {T} {S : Scalar T} {G} {HR : Rng T G} ds (l : dropout T), dr_train l = false -> interchangeable (HR := HR) ds [LDrop l] [].
Proof. exact @drop_dropout. Qed.
Theorem C135_flatten : forall {T} {S : Scalar T} {G} {HR : Rng T G} b c (l : flatten), interchangeable (HR := HR) [b; c] [LFlat l] [].
Proof. exact @drop_flatten. Qed.
Theorem C135_flatten_twice : forall {T} {S : Scalar T} {G} {HR : Rng T G} b c ds (l l' : flatten), interchangeable (HR := HR) (b :: c :: ds) [LFlat l; LFlat l'] [LFlat l].
Proof. exact @drop_second_flatten. Qed.
Theorem C135_relu_twice : forall {T} {S : Scalar T} {G} {HR : Rng T G} ds (a a' : actl T), al_act a = ReLU -> al_act a' = ReLU -> interchangeable (HR := HR) ds [LAct a; LAct a'] [LAct a].
Proof. exact @drop_second_relu. Qed.
Print Assumptions C135_dropout.
Print Assumptions C135_flatten.
Print Assumptions C135_flatten_twice.
Print Assumptions C135_relu_twice.

(** ** C136: layers that can be exchanged
    Flattening and an activation that works element by element, in any arithmetic. *)
Theorem C136_flatten : forall {T} {S : Scalar T} {G} {HR : Rng T G} b c ds (l l' : flatten) (a a' : actl T), al_act a <> Softmax -> al_act a' = al_act a ->
  interchangeable (HR := HR) (b :: c :: ds) [LAct a; LFlat l] [LFlat l'; LAct a'].
Proof. exact @flatten_act. Qed.
(** ReLU and max pooling, in any arithmetic in which the values to be pooled and zero are ordered. *)
Theorem C136_relu : forall {T} {S : Scalar T} {G} {HR : Rng T G} (a a' : actl T) (p p' : pool T) (x : tensor T) n c h w, good x -> tdims x = [n; c; h; w] -> al_act a = ReLU -> al_act a' = ReLU ->
  pools h w p -> po_size p' = po_size p -> po_stride p' = po_stride p -> po_pad p' = po_pad p -> comparable_with_zero x -> interchangeable_at (HR := HR) [LAct a; LPool p] [LPool p'; LAct a'] x.
Proof. exact @pool_relu. Qed.
(** In float32 that is every tensor of finite numbers: the predictions agree bit by bit. *)
Theorem C136_relu_float : forall lm G (HR : Rng f32 G) (a a' : actl f32) (p p' : pool f32) (x : tensor f32) n c h w, good x -> tdims x = [n; c; h; w] -> all_finite x -> al_act a = ReLU -> al_act a' = ReLU ->
  pools h w p -> po_size p' = po_size p -> po_stride p' = po_stride p -> po_pad p' = po_pad p -> interchangeable_at (S := F32Scalar lm) (HR := HR) [LAct a; LPool p] [LPool p'; LAct a'] x.
Proof. exact pool_relu_f32. Qed.
(** In exact arithmetic, with [M] for the value of infinity: ReLU, Sigmoid, Tanh and LeakyReLU with a slope between 0 and 1. *)
Theorem C136_rising : forall (M : R), let sc : Scalar R := RInf M in forall G (HR : Rng R G) (a a' : actl R) (p p' : pool R) (x : tensor R) n c h w, (1 < M)%R -> good x -> tdims x = [n; c; h; w] ->
  (forall idx, in_range (tdims x) idx -> (- M < el x idx)%R) -> rising (al_act a) -> al_act a' = al_act a -> pools h w p -> po_size p' = po_size p -> po_stride p' = po_stride p -> po_pad p' = po_pad p ->
  interchangeable_at (HR := HR) [LAct a; LPool p] [LPool p'; LAct a'] x.
Proof. exact @pool_rising. Qed.
(** Not with every activation: LeakyReLU with a negative slope. *)
Local Existing Instance counter_rng.
Definition four : tensor Z := tensor_of [1; 1; 2; 2] (fun idx => 1 - 2 * nth 3 idx 0 - nth 2 idx 0).
Definition falling : layer Z := LAct (act_new (LeakyReLU (-3))).
Definition duo : pool Z := mkPool 2 2 0 None.
Definition single (v : Z) : tensor Z := tensor_of [1; 1; 1; 1] (fun _ => v).
Local Ltac goods := apply good_tensor_of; [split; [discriminate|repeat constructor; try discriminate]|vm_compute; discriminate].
Lemma four_comparable : comparable_with_zero four.
Proof.
  assert (B : forall v, elements four v \/ v = 0 -> -2147483647 < v).
  { intros v [(idx & HI & ->)| ->]; [|lia]. apply in_range_4 in HI. destruct HI as (i & j & k & l & -> & Hi & Hj & Hk & Hl). unfold four. rewrite el_tensor_of by (repeat constructor; lia). cbn [nth]. lia. }
  split; [split; [|split]|].
  - intros u _. apply Z.ltb_irrefl.
  - intros u v w _ _ _. cbn [s_lt ZScalar]. rewrite !Z.ltb_lt. lia.
  - intros u v w _ _ _. cbn [s_lt ZScalar]. rewrite !Z.ltb_ge. lia.
  - intros v Hv. apply Z.ltb_lt. exact (B v Hv).
Qed.
Lemma not_falling : exists (n n' : net Z Z), replaced [] [falling; LPool duo] [LPool duo; falling] [] n n' /\ good four /\ tdims four = [1; 1; 2; 2] /\ pools 2 2 duo /\ comparable_with_zero four /\
  snd (net_predict n four) = Ok (single 6) /\ snd (net_predict n' four) = Ok (single 1).
Proof.
  exists (mkNet [falling; LPool duo] None None 0), (mkNet [LPool duo; falling] None None 0). split; [split; [reflexivity|split; reflexivity]|]. split; [goods|]. split; [reflexivity|].
  split; [unfold pools; cbn; lia|]. split; [apply four_comparable|]. split; vm_compute; reflexivity.
Qed.
Theorem C136_not_falling : exists (n n' : net Z Z), replaced [] [falling; LPool duo] [LPool duo; falling] [] n n' /\ good four /\ tdims four = [1; 1; 2; 2] /\ pools 2 2 duo /\ comparable_with_zero four /\
  snd (net_predict n four) = Ok (single 6) /\ snd (net_predict n' four) = Ok (single 1).
Proof. exact not_falling. Qed.
Print Assumptions C136_flatten.
Print Assumptions C136_relu.
Print Assumptions C136_relu_float.
Print Assumptions C136_rising.
Print Assumptions C136_not_falling.

(** ** Concrete cases *)
Lemma denseP_of : forall k o f b, 0 < k -> 0 < o -> k * o <= INT_MAX -> dense_of k o (denseP k o f b).
Proof.
  intros k o f b Hk Ho HM. split; [apply good_tensor_of; [split; [discriminate|repeat constructor; auto]|cbn [prod]; lia]|]. split; [reflexivity|]. split; [|reflexivity].
  apply good_tensor_of; [split; [discriminate|repeat constructor; auto]|cbn [prod]; nia].
Qed.
(** Two dense layers between an activation and Softmax. *)
Definition firstD : fc R := denseP 2 3 (fun i j => i + j - 1) (fun j => j).
Definition secondD : fc R := denseP 3 2 (fun i j => i - 2 * j) (fun j => 1 - j).
Example C132_case : dense_of 2 3 firstD /\ dense_of 3 2 secondD /\ 2 * 2 <= INT_MAX /\ 4 * 3 <= INT_MAX /\ stack predicts [4; 2] [LAct (act_new (T := R) Tanh)] [4; 2] /\
  exists c, merged 2 3 2 firstD secondD c.
Proof.
  assert (H1 : dense_of 2 3 firstD) by (apply denseP_of; unfold INT_MAX; lia). assert (H2 : dense_of 3 2 secondD) by (apply denseP_of; unfold INT_MAX; lia). split; [exact H1|]. split; [exact H2|]. split; [unfold INT_MAX; lia|]. split; [unfold INT_MAX; lia|]. split.
  - apply (acc_cons _ _ _ [4; 2]); [|apply acc_nil]. apply pr_layer. apply acc_act. intros; discriminate.
  - apply C132_exists; auto. unfold INT_MAX; lia.
Qed.
(** Batch normalisation with running statistics, after a dense layer and after a convolution of two kernels. *)
Definition normD (o : Z) : bn R := mkBN o (1 / 100)%R (1 / 10)%R (constR [1; o] 2) (constR [1; o] 1) (constR [1; o] 5) (constR [1; o] 4) None None None None None false.
Definition convD : conv R := mkConv (constR [2; 1; 3; 3] 1) (constR [2; 1] 7) None None None 1 2 3 3 1 0 1.
Local Ltac goodc := apply good_tensor_of; [split; [discriminate|repeat constructor; lia]|cbn [prod]; unfold INT_MAX; lia].
Lemma normD_rows : forall o, 0 < o <= 1000 -> bn_rows o (normD o).
Proof. intros o Ho. split; [split; [goodc|reflexivity]|]. split; [split; [goodc|reflexivity]|]. split; (split; [goodc|reflexivity]). Qed.
Example C133_case : (exists c, folded 2 3 firstD (normD 3) c) /\ bn_train (normD 3) = false /\ (exists c, folded_conv convD (normD 2) c) /\ cv_kh convD <= 8 /\ 5 * (2 * (6 * 6)) <= INT_MAX.
Proof.
  split; [apply C133_dense_exists; [apply denseP_of; unfold INT_MAX; lia|apply normD_rows; lia]|]. split; [reflexivity|]. split; [|split; [cbn; lia|unfold INT_MAX; lia]].
  apply C133_conv_exists; [|apply normD_rows; cbn; lia]. split; [goodc|]. split; [reflexivity|]. split; [goodc|reflexivity].
Qed.
(** Hidden unit [j] of three doubled; and a network without biases on the input 1,2,.. and three times that. *)
Definition firstS : fc R := denseP 2 3 (fun i j => 2 * (i + j - 1)) (fun j => 2 * j).
Definition secondE : fc R := denseP 3 2 (fun i j => 2 * i - 4 * j) (fun j => 1 - j).
Definition noBias : list (layer R) := [LFC (denseP 2 3 (fun i j => i + j - 1) (fun _ => 0)); LAct (act_new ReLU); LFC (denseP 3 2 (fun i j => i - 2 * j) (fun _ => 0))].
Example C134_case : rescaled 2 3 2 (fun _ => 2%R) firstD secondE firstS secondD /\ keeps_scale (al_act (act_new (T := R) ReLU)) /\
  stack predicts [4; 2] noBias [4; 2] /\ Forall no_offset noBias /\ times 3 (constR [4; 2] 5) (constR [4; 2] 15).
Proof.
  split; [|split; [left; reflexivity|split; [|split]]].
  - split; [apply denseP_of; unfold INT_MAX; lia|]. split; [apply denseP_of; unfold INT_MAX; lia|]. split; [apply denseP_of; unfold INT_MAX; lia|]. split; [apply denseP_of; unfold INT_MAX; lia|]. split; [intros; lra|].
    split; [|split; [|split; [|reflexivity]]].
    + intros i j Hi Hj. unfold firstD, firstS, denseP. cbn [M_Layers.fc_w]. rewrite !el_tensor_of by (repeat constructor; lia). unfold fn2. cbn [nth]. rewrite mult_IZR. lra.
    + intros j Hj. unfold firstD, firstS, denseP. cbn [M_Layers.fc_b]. rewrite !el_tensor_of by (repeat constructor; lia). unfold fn2. cbn [nth]. rewrite mult_IZR. lra.
    + intros j q Hj Hq. unfold secondD, secondE, denseP. cbn [M_Layers.fc_w]. rewrite !el_tensor_of by (repeat constructor; lia). unfold fn2. cbn [nth]. rewrite !minus_IZR, !mult_IZR. lra.
  - apply (acc_cons _ _ _ [4; 3]); [apply pr_layer; apply acc_fc; [goodc|reflexivity|goodc|reflexivity|unfold INT_MAX; lia]|]. apply (acc_cons _ _ _ [4; 3]); [apply pr_layer; apply acc_act; intros; discriminate|].
    apply (acc_cons _ _ _ [4; 2]); [apply pr_layer; apply acc_fc; [goodc|reflexivity|goodc|reflexivity|unfold INT_MAX; lia]|apply acc_nil].
  - constructor; [|constructor; [|constructor; [|constructor]]].
    + intros idx HI. unfold denseP in *. cbn [M_Layers.fc_b] in *. rewrite el_tensor_of by exact HI. reflexivity.
    + left. reflexivity.
    + intros idx HI. unfold denseP in *. cbn [M_Layers.fc_b] in *. rewrite el_tensor_of by exact HI. reflexivity.
  - split; [goodc|]. split; [reflexivity|]. intros idx HI. unfold constR in *. change (in_range [4; 2] idx) in HI. rewrite !el_tensor_of by exact HI. lra.
Qed.
(** A prediction with and without such layers, and with ReLU and pooling exchanged. *)
Definition fullZ : net Z Z := mkNet [LDrop (mkDrop 1 None false); LFlat flatten_new; LFlat flatten_new; LAct (act_new ReLU); LAct (act_new ReLU)] None None 0.
Definition leanZ : net Z Z := mkNet [LFlat flatten_new; LAct (act_new ReLU)] None None 0.
Example C135_case : snd (net_predict fullZ four) = Ok (tensor_of [1; 4] (fun idx => if nth 1 idx 0 =? 0 then 1 else 0)) /\ snd (net_predict leanZ four) = snd (net_predict fullZ four).
Proof. split; vm_compute; reflexivity. Qed.
Example C136_case : comparable_with_zero four /\ pools 2 2 duo /\ snd (net_predict (mkNet [] None None 0 : net Z Z) four) = Ok four /\
  snd (net_predict (mkNet [LAct (act_new ReLU); LPool duo] None None 0) four) = Ok (single 1) /\ snd (net_predict (mkNet [LPool duo; LAct (act_new ReLU)] None None 0) four) = Ok (single 1).
Proof. split; [apply four_comparable|]. split; [unfold pools; cbn; lia|]. split; [reflexivity|]. split; vm_compute; reflexivity. Qed.
