(** * Features that are always zero and hidden units that are never active can be left out (C130, C131) *)
From Coq Require Import String Reals Lra.
From Verif Require Import Base Scalar ScalarR Types Spec SpecNN M_Shape M_Tensor M_Adv M_Act M_Loss M_Layers M_Reg M_Opt M_Net M_Text M_Log SpecNet SpecLog SpecFit SpecPrune
  L_Index L_Tensor L_Nest L_Matmul L_Layers L_Embed L_Prune P_Tensor P_Layers P_Net.
Local Open Scope Z_scope.
Local Open Scope list_scope.

(** ** C130: features that are zero in every sample
    Exact arithmetic, with [M] for the value of infinity.  Two networks with the same layers, except that the first, a dense layer, has further
    inputs in the second one.  Training the first on the samples without the further columns and the second on the samples with zeros there, with
    any loss and any new optimizer, prints the same text; afterwards the layers again differ in those inputs only; without decay and penalties
    their weights are what they were; and the predictions agree. *)
Theorem C130_training : forall (M : R), let sc : Scalar R := RInf M in forall G (HR : Rng R G) (show : R -> string) k k' f l l' rest ds ds' lo o (n n2 : net R G) xs xs2 ts e,
  picks k k' f -> fewer_inputs k k' f l l' -> n_layers n = LFC l :: rest -> n_layers n2 = LFC l' :: rest ->
  n_loss n2 = n_loss n -> n_opt n2 = n_opt n -> n_rng n2 = n_rng n -> accepts_all ds (n_layers n) ds' -> n_loss n = Some lo -> n_opt n = Some o -> new_optim o ->
  0 < Zlen xs <= Zlen ts -> Zlen xs <= INT_MAX -> 0 <= e -> e * Zlen xs * Zlen (n_layers n) <= INT_MAX -> Forall (fun x => good x /\ tdims x = ds) xs -> Forall (target_fits lo ds') ts -> Forall2 (with_blanks k k' f) xs xs2 ->
  exists n' n2' out l1 l1' rest1, net_train_report show n xs ts e = ((n', out), Ok tt) /\ net_train_report show n2 xs2 ts e = ((n2', out), Ok tt) /\
    n_layers n' = LFC l1 :: rest1 /\ n_layers n2' = LFC l1' :: rest1 /\ fewer_inputs k k' f l1 l1' /\
    (no_penalty o -> forall i j, in_range (tdims (fc_w l')) [i; j] -> left_out k f i -> el (fc_w l1') [i; j] = el (fc_w l') [i; j]) /\
    forall x x2, good x -> tdims x = ds -> with_blanks k k' f x x2 -> exists y, snd (net_predict n' x) = Ok y /\ snd (net_predict n2' x2) = Ok y /\ tdims y = ds'.
Proof. exact @blank_features. Qed.
Print Assumptions C130_training.

(** ** C131: hidden units that are not active for any sample
    Exact arithmetic.  Two networks that begin with a dense layer, ReLU and a dense layer, and are the same except that the second has further
    units between the two dense layers.  If the inputs of ReLU at these units are not positive for any sample, then training both with a new
    optimizer without decay or penalties prints the same text; the weights and biases of these units are what they were; they are still not
    active for the inputs for which they were not; and for these inputs the predictions agree. *)
Theorem C131_training : forall (M : R), let sc : Scalar R := RInf M in forall G (HR : Rng R G) (show : R -> string) u u' f l1 a l2 l1' a' l2' rest ds ds' lo o (n n2 : net R G) xs ts e,
  picks u u' f -> fewer_outputs u u' f l1 l1' -> fewer_inputs u u' f l2 l2' -> al_act a = ReLU -> al_act a' = ReLU ->
  n_layers n = LFC l1 :: LAct a :: LFC l2 :: rest -> n_layers n2 = LFC l1' :: LAct a' :: LFC l2' :: rest ->
  n_loss n2 = n_loss n -> n_opt n2 = n_opt n -> n_rng n2 = n_rng n -> accepts_all ds (n_layers n) ds' -> accepts_all ds (n_layers n2) ds' -> n_loss n = Some lo -> n_opt n = Some o -> no_penalty o ->
  0 < Zlen xs <= Zlen ts -> Zlen xs <= INT_MAX -> 0 <= e -> e * Zlen xs * Zlen (n_layers n) <= INT_MAX -> Forall (fun x => good x /\ tdims x = ds) xs -> Forall (target_fits lo ds') ts -> Forall (silent u f l1') xs ->
  exists n' n2' out k1 b k2 k1' b' k2' rest1, net_train_report show n xs ts e = ((n', out), Ok tt) /\ net_train_report show n2 xs ts e = ((n2', out), Ok tt) /\
    n_layers n' = LFC k1 :: LAct b :: LFC k2 :: rest1 /\ n_layers n2' = LFC k1' :: LAct b' :: LFC k2' :: rest1 /\ fewer_outputs u u' f k1 k1' /\ fewer_inputs u u' f k2 k2' /\
    (forall i j, in_range (tdims (fc_w l1')) [i; j] -> left_out u f j -> el (fc_w k1') [i; j] = el (fc_w l1') [i; j] /\ el (fc_b k1') [0; j] = el (fc_b l1') [0; j]) /\
    (forall i j, in_range (tdims (fc_w l2')) [i; j] -> left_out u f i -> el (fc_w k2') [i; j] = el (fc_w l2') [i; j]) /\
    forall x, good x -> tdims x = ds -> silent u f l1' x -> silent u f k1' x /\ exists y, snd (net_predict n' x) = Ok y /\ snd (net_predict n2' x) = Ok y /\ tdims y = ds'.
Proof. exact @idle_units. Qed.
Print Assumptions C131_training.

(** Features 0 and 2 of three, with feature 1 always zero; and three hidden units of which the one in the middle is never active. *)
Definition ends (i : Z) : Z := 2 * i.
Definition denseP (k o : Z) (f : Z -> Z -> Z) (b : Z -> Z) : fc R := mkFC (tensor_of [k; o] (fn2 (fun i j => IZR (f i j)))) (tensor_of [1; o] (fn2 (fun _ j => IZR (b j)))) None None None.
Local Ltac three i H := assert (i = 0 \/ i = 1 \/ i = 2) as [-> | [-> | ->]] by (clear - H; lia).
Local Ltac two i H := assert (i = 0 \/ i = 1) as [-> | ->] by (clear - H; lia).
Local Ltac denses := apply good_tensor_of; [split; [discriminate|repeat constructor]|vm_compute; discriminate].
Lemma ends_picks : picks 2 3 ends. Proof. split; unfold ends; intros; lia. Qed.
Lemma ends_left : forall j, 0 <= j < 3 -> left_out 2 ends j -> j = 1.
Proof. intros j Hj H. three j Hj; [exfalso; apply (H 0); [lia|reflexivity]|reflexivity|exfalso; apply (H 1); [lia|reflexivity]]. Qed.
Definition blankX (v : Z -> Z -> Z) : tensor R := tensor_of [2; 2] (fn2 (fun i j => IZR (v i j))).
Definition blankX' (v : Z -> Z -> Z) : tensor R := tensor_of [2; 3] (fn2 (fun i j => if j =? 1 then 0%R else IZR (v i (j / 2)))).
Example C130_case : left_out 2 ends 1 /\ fewer_inputs 2 3 ends (denseP 2 2 (fun i j => 10 * i + j) (fun j => j)) (denseP 3 2 (fun i j => if i =? 1 then 77 else 5 * i + j) (fun j => j)) /\
  (forall v, with_blanks 2 3 ends (blankX v) (blankX' v)) /\ accepts_all [2; 2] [LFC (denseP 2 2 (fun i j => 10 * i + j) (fun j => j)); LAct (act_new Sigmoid)] [2; 2].
Proof.
  split; [intros i Hi; unfold ends; lia|]. split; [|split].
  - exists 2. cbn [fc_w fc_b denseP]. split; [denses|]. split; [denses|]. split; [reflexivity|]. split; [reflexivity|]. split; [reflexivity|]. split; [denses|]. split; [reflexivity|]. intros i j Hi Hj. pose proof (proj1 ends_picks i Hi). rewrite !el_tensor_of by (apply in_range2; auto). unfold fn2. cbn [nth]. two i Hi; two j Hj; reflexivity.
  - intros v. exists 2. split; [denses|]. split; [denses|]. split; [reflexivity|]. split; [reflexivity|]. split.
    + intros r i Hr Hi. pose proof (proj1 ends_picks i Hi). unfold blankX, blankX'. rewrite !el_tensor_of by (apply in_range2; auto). unfold fn2. cbn [nth]. two i Hi; reflexivity.
    + intros r j Hr Hj HL. rewrite (ends_left j Hj HL). unfold blankX'. rewrite el_tensor_of by (apply in_range2; auto; lia). reflexivity.
  - apply (acc_cons _ _ _ [2; 2]); [apply acc_fc; [denses|reflexivity|denses|reflexivity|vm_compute; discriminate]|]. apply (acc_cons _ _ _ [2; 2]); [apply acc_act; intros; discriminate|]. constructor.
Qed.
Definition idleA : fc R := denseP 1 2 (fun _ j => 1 + j) (fun j => j).
Definition idleA' : fc R := denseP 1 3 (fun _ j => if j =? 1 then -5 else 1 + j / 2) (fun j => if j =? 1 then -1 else j / 2).
Definition idleX (v : Z) : tensor R := tensor_of [1; 1] (fn2 (fun _ _ => IZR v)).
Example C131_case : fewer_outputs 2 3 ends idleA idleA' /\ fewer_inputs 2 3 ends (denseP 2 1 (fun i _ => 10 * i + 1) (fun j => j)) (denseP 3 1 (fun i _ => if i =? 1 then 77 else 5 * i + 1) (fun j => j)) /\
  (forall v, 0 <= v -> silent 2 ends idleA' (idleX v)) /\ no_penalty (OAdam (adam_new 1 0 0 1 0 0 0 1)%R).
Proof.
  split; [|split; [|split]].
  - exists 1. cbn [fc_w fc_b idleA idleA' denseP]. split; [denses|]. split; [denses|]. split; [reflexivity|]. split; [reflexivity|]. split; [denses|]. split; [denses|]. split; [reflexivity|]. split; [reflexivity|].
    split; [intros i j Hi Hj|intros j Hj]; pose proof (proj1 ends_picks j Hj); rewrite !el_tensor_of by (apply in_range2; auto; lia); unfold fn2; cbn [nth]; two j Hj; reflexivity.
  - exists 1. cbn [fc_w fc_b denseP]. split; [denses|]. split; [denses|]. split; [reflexivity|]. split; [reflexivity|]. split; [reflexivity|]. split; [denses|]. split; [reflexivity|]. intros i j Hi Hj. pose proof (proj1 ends_picks i Hi). rewrite !el_tensor_of by (apply in_range2; auto). unfold fn2. cbn [nth]. two i Hi; reflexivity.
  - intros v Hv. assert (HW : fc_wf idleA' 1 3) by (split; [denses|]; split; [reflexivity|]; split; [denses|reflexivity]). assert (Gx : good (idleX v)) by denses.
    assert (B : 1 * 3 <= INT_MAX) by (vm_compute; discriminate). eexists. exists 1, 3. rewrite (fc_forward_2 idleA' 1 3 (idleX v) 1 HW Gx eq_refl B). cbn [snd]. split; [reflexivity|]. split; [reflexivity|]. intros r j Hr Hj HL. rewrite (ends_left j Hj HL). rewrite el_tensor_of by (apply in_range2; auto; lia).
    unfold fn2, affine. cbn [nth]. assert (r = 0) by lia. subst r. change (sum_to 1 ?h) with (fold_left Rplus (map h (zrange 0 1)) 0%R). change (zrange 0 1) with [0]. cbn [map fold_left]. unfold idleA', denseP, idleX. cbn [fc_w fc_b]. rewrite !el_tensor_of by (apply in_range2; lia). unfold fn2. cbn [nth].
    change (Rleb (0 + IZR v * IZR (-5) + IZR (-1)) 0 = true). unfold Rleb. destruct (Rle_dec _ _) as [|N]; [reflexivity|]. exfalso. apply N. apply IZR_le in Hv. lra.
  - constructor; lra || lia.
Qed.
