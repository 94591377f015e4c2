(** * C115: what the MNIST program shows at its end *)
From Coq Require Import ZArith Ascii String Floats.SpecFloat Lia.
From Verif Require Import Base Scalar Types TextBase Spec SpecText SpecNN SpecLayers SpecShow M_Shape M_Tensor M_Adv M_Act M_Loss M_Layers M_Reg M_Opt M_Net M_Data M_Text M_Log M_Ex M_Show SpecNet SpecData SpecEx
  L_Index L_Shape L_Tensor L_Text L_Net L_Net2 L_Data L_F32 L_Train L_Ex L_Show.
Local Open Scope Z_scope.
Local Open Scope string_scope.
Local Open Scope list_scope.

(** ** C115.  [block show pic p t]: the lines "Input: ", "Prediction: " and "Actual value: " for a picture, a prediction and a label.
    [net_show lm show n xs ts os]: the loop at the end of the program on the batches [xs] with labels [ts], after the text [os].

    With at least five batches the last four are shown, latest first; the network is in evaluation mode and is left as it was, so
    every prediction is the one the network gives on its own. *)
Theorem C115_last_four_partial : forall lm {G} {HR : Rng f32 G} (show : f32 -> string) (n : net f32 G) xs ts os d (bs : Z -> string),
  net_in_mode false n -> 5 <= Zlen xs <= INT_MAX + 1 -> Zlen xs <= Zlen ts ->
  (forall j, Zlen xs - 4 <= j < Zlen xs -> showable lm show n (znth d xs j) (znth d ts j) (bs j)) ->
  exists n', net_show lm show n xs ts os = ((n', (os ++ bs (Zlen xs - 1) ++ bs (Zlen xs - 2) ++ bs (Zlen xs - 3) ++ bs (Zlen xs - 4))%string), Ok tt) /\
    same_but_inputs n n'.
Proof. exact @show_last_four. Qed.
(** From the files: the last four batches of [N] images, each with the picture of its first image. *)
Theorem C115_files_partial : forall lm {G} {HR : Rng f32 G} (show : f32 -> string) (n : net f32 G) N img lab ex ex' os, let S := F32Scalar lm in
  (forall m x, 1 <= m <= 8 -> good x -> tdims x = [m; 1; 28; 28] -> exists p, snd (net_predict n x) = Ok p /\ good p) ->
  net_in_mode false n -> 33 <= N <= INT_MAX - 7 ->
  (forall i r c, 0 <= i < N -> 0 <= r < 28 -> 0 <= c < 28 -> is_byte (img i r c)) -> Forall is_byte ex -> (forall i, 0 <= i < N -> 0 <= lab i <= 9) ->
  let K := num_batches N 8 in
  exists tx ty n' (ps : Z -> tensor f32) (bs : Z -> string), load_data 8 (-1) (Some (image_file N 28 28 img ++ ex)) (Some (label_file N lab ++ ex')) = Ok (tx, ty) /\
    (forall k, K - 4 <= k < K -> snd (net_predict n (image_batch 28 28 img (k * 8) (batch_len N 8 k))) = Ok (ps k) /\
       bs k = block show (picture 28 28 (fun i j => Z.min 9 (img (k * 8) i j * 10 / 255))) (ps k) (label_batch lab (k * 8) (batch_len N 8 k))) /\
    net_show lm show n tx ty os = ((n', (os ++ bs (K - 1) ++ bs (K - 2) ++ bs (K - 3) ++ bs (K - 4))%string), Ok tt) /\ same_but_inputs n n'.
Proof. exact @files_shown. Qed.
(** With one to four batches nothing is shown, because the bound of the loop, the number of batches minus five, wraps around; with none
    the loop reads before the beginning of the data. *)
Theorem C115_few : forall lm {G} {HR : Rng f32 G} (show : f32 -> string) (n : net f32 G) xs ts os, 1 <= Zlen xs <= 4 -> net_show lm show n xs ts os = ((n, os), Ok tt).
Proof. exact @show_few. Qed.
Theorem C115_none : forall lm {G} {HR : Rng f32 G} (show : f32 -> string) (n : net f32 G) ts os, net_show lm show n [] ts os = ((n, os), UB).
Proof. exact @show_none. Qed.
(** The program's network shows predictions as long as it has not been trained ... *)
Theorem C115_untrained : forall {T G} {S : Scalar T} {HR : Rng T G} (g : G) n, mnist_net g = Ok n -> forall m x, 1 <= m <= 8 -> good x -> tdims x = [m; 1; 28; 28] ->
  exists p, snd (net_predict (net_set_mode n false) x) = Ok p /\ good p /\ tdims p = [m; 10].
Proof. exact @untrained_predicts. Qed.
(** ... but once it has seen images in training mode, every prediction in evaluation mode is an exception, so that the program would end
    there even if training (C84) succeeded. *)
Theorem C115_trained_throws : forall {T G} {S : Scalar T} {HR : Rng T G} (g : G) n x xs y, mnist_net g = Ok n ->
  Forall (fun x => exists m, 1 <= m <= 8 /\ good x /\ tdims x = [m; 1; 28; 28]) (x :: xs) -> (exists m, 1 <= m <= 8 /\ good y /\ tdims y = [m; 1; 28; 28]) ->
  snd (net_predict (net_set_mode (fst (net_predict_all n (x :: xs))) false) y) = Throw RuntimeError.
Proof. exact @trained_throws. Qed.

(** A generator of constant numbers, and a network whose prediction is a constant. *)
Definition still32 : Rng f32 unit := {| rng_seed := fun _ => tt; rng_normal := fun _ g => (S754_zero false, g); rng_uniform := fun _ _ g => (S754_zero false, g) |}.
Definition zeros (ds : list Z) : tensor f32 := tensor_of ds (fun _ => S754_zero false).
Lemma zeros_good : forall ds, pos_dims ds -> prod ds <= INT_MAX -> good (zeros ds).
Proof. intros. apply good_tensor_of; auto. Qed.
Definition show_net : net f32 unit := mkNet [LFlat flatten_new; LFC (mkFC (zeros [784; 10]) (zeros [1; 10]) None None None); LDrop (mkDrop (S754_zero false) None false)] None None tt.
Lemma show_net_predicts : forall lm, let S := F32Scalar lm in forall m x, 1 <= m <= 8 -> good x -> tdims x = [m; 1; 28; 28] -> exists p, snd (net_predict (HR := still32) show_net x) = Ok p /\ good p.
Proof.
  intros lm S m x Hm Gx Ex. destruct (evals_chain (HR := still32) (n_layers show_net) [m; 1; 28; 28] [m; 10] x tt) as (ls & g' & y & F & Gy & Ey); auto.
  - assert (P1 : good (zeros [784; 10])) by (apply zeros_good; [split; [discriminate|repeat constructor]|vm_compute; discriminate]).
    assert (P2 : good (zeros [1; 10])) by (apply zeros_good; [split; [discriminate|repeat constructor]|vm_compute; discriminate]).
    apply (acc_cons _ _ _ [m; 784]); [apply ev_layer; apply (acc_flat m 1 [28; 28]); discriminate|].
    apply (acc_cons _ _ _ [m; 10]); [apply ev_layer; apply acc_fc; auto; unfold INT_MAX; lia|]. apply (acc_cons _ _ _ [m; 10]); [apply ev_drop; reflexivity|constructor].
  - unfold net_predict. cbn [show_net n_rng]. rewrite F. exists y. auto.
Qed.
(** Forty images: the batches 4, 3, 2 and 1 are shown. *)
Example C115_files_case : forall lm (show : f32 -> string), let S := F32Scalar lm in exists tx ty n' b4 b3 b2 b1,
  load_data 8 (-1) (Some (image_file 40 28 28 (fun i r c => (i + r + c) mod 256))) (Some (label_file 40 (fun i => i mod 10))) = Ok (tx, ty) /\
  net_show (HR := still32) lm show show_net tx ty "" = ((n', (b4 ++ b3 ++ b2 ++ b1)%string), Ok tt).
Proof.
  intros lm show S. destruct (C115_files_partial lm (HR := still32) show show_net 40 (fun i r c => (i + r + c) mod 256) (fun i => i mod 10) [] [] "" (show_net_predicts lm)) as (tx & ty & n' & ps & bs & E1 & _ & E2 & _).
  - repeat (apply Forall_cons; [first [left; reflexivity | right; reflexivity]|]). apply Forall_nil.
  - unfold INT_MAX. lia.
  - intros i r c _ _ _. unfold is_byte. pose proof (Z.mod_pos_bound (i + r + c) 256). lia.
  - apply Forall_nil.
  - intros i _. pose proof (Z.mod_pos_bound i 10). lia.
  - rewrite !app_nil_r in E1. do 7 eexists. split; [exact E1|exact E2].
Qed.
(** Four batches: the network predicts each of them, but nothing is shown. *)
Lemma few_refutes : forall lm (show : f32 -> string), let S := F32Scalar lm in exists (n : net f32 unit) xs ts, net_in_mode false n /\ Zlen xs = 4 /\ Zlen ts = 4 /\
  (forall x, In x xs -> exists p, snd (net_predict (HR := still32) n x) = Ok p /\ good p) /\ net_show (HR := still32) lm show n xs ts "" = ((n, ""), Ok tt).
Proof.
  intros lm show S. exists show_net, (repeat (zeros [8; 1; 28; 28]) 4), (repeat (zeros [8; 10]) 4).
  split; [repeat (apply Forall_cons; [first [left; reflexivity | right; reflexivity]|]); apply Forall_nil|]. split; [reflexivity|]. split; [reflexivity|]. split.
  - intros x HI. apply (show_net_predicts lm 8 x); [lia| |]; apply repeat_spec in HI; subst x; [|reflexivity].
    apply zeros_good; [split; [discriminate|repeat constructor]|vm_compute; discriminate].
  - apply C115_few. vm_compute. split; discriminate.
Qed.
Theorem C115_few_refuted : forall lm (show : f32 -> string), let S := F32Scalar lm in exists (n : net f32 unit) xs ts, net_in_mode false n /\ Zlen xs = 4 /\ Zlen ts = 4 /\
  (forall x, In x xs -> exists p, snd (net_predict (HR := still32) n x) = Ok p /\ good p) /\ net_show (HR := still32) lm show n xs ts "" = ((n, ""), Ok tt).
Proof. exact few_refutes. Qed.
Lemma trained_refutes : forall lm, let S := F32Scalar lm in exists (n : net f32 unit) x, mnist_net (HR := still32) tt = Ok n /\ good x /\ tdims x = [8; 1; 28; 28] /\
  snd (net_predict (HR := still32) (net_set_mode (fst (net_predict_all (HR := still32) n [x])) false) x) = Throw RuntimeError.
Proof.
  intros lm S. destruct (mnist_net_ok (HR := still32) tt) as (n & _ & _ & _ & _ & _ & E & _). exists n, (zeros [8; 1; 28; 28]).
  assert (GZ : good (zeros [8; 1; 28; 28])) by (apply zeros_good; [split; [discriminate|repeat constructor]|vm_compute; discriminate]).
  split; [exact E|]. split; [exact GZ|]. split; [reflexivity|].
  apply (C115_trained_throws (HR := still32) tt n _ [] _ E); [apply Forall_cons; [|apply Forall_nil]|]; (exists 8; split; [lia|]; split; [exact GZ|reflexivity]).
Qed.
Theorem C115_trained_refuted : forall lm, let S := F32Scalar lm in exists (n : net f32 unit) x, mnist_net (HR := still32) tt = Ok n /\ good x /\ tdims x = [8; 1; 28; 28] /\
  snd (net_predict (HR := still32) (net_set_mode (fst (net_predict_all (HR := still32) n [x])) false) x) = Throw RuntimeError.
Proof. exact trained_refutes. Qed.
Print Assumptions C115_last_four_partial.
Print Assumptions C115_files_partial.
Print Assumptions C115_few.
Print Assumptions C115_none.
Print Assumptions C115_untrained.
Print Assumptions C115_trained_throws.
Print Assumptions C115_few_refuted.
Print Assumptions C115_trained_refuted.

(** ** C84 for the whole program, with what it prints: undefined for every pair of files. *)
Theorem C84_whole_program : forall lm {G} {HR : Rng f32 G} (show : f32 -> string) n img lab ex ex' (g : G), 1000 <= n <= INT_MAX ->
  (forall i r c, 0 <= i < n -> 0 <= r < 28 -> 0 <= c < 28 -> is_byte (img i r c)) -> Forall is_byte ex -> (forall i, 0 <= i < 1000 -> 0 <= lab i <= 9) ->
  snd (mnist_main lm show (Some (image_file n 28 28 img ++ ex)) (Some (label_file n lab ++ ex')) g) = UB.
Proof. exact @main_undefined. Qed.
Print Assumptions C84_whole_program.

(** ** C83, C84: the networks of the two example programs and of the README's quick start are always built, with the layers, the loss
    and the optimizer settings their text asks for. *)
Theorem C84_network : forall {T G} {S : Scalar T} {HR : Rng T G} (g : G), exists n c b1 f1 b2 f2 o, mnist_net g = Ok n /\
  n_layers n = [LConv c; LBN b1; LAct (act_new ReLU); LPool (pool_new 2 2 0); LDrop (dropout_new (s_lit 1 4)); LFlat flatten_new; LFC f1; LBN b2; LAct (act_new ReLU); LDrop (dropout_new (s_lit 1 4)); LFC f2; LAct (act_new Softmax)] /\
  (cv_ic c = 1 /\ cv_oc c = 32 /\ cv_kh c = 3 /\ cv_kw c = 3 /\ cv_stride c = 1 /\ cv_pad c = 0 /\ cv_dil c = 1) /\
  (bn_train b1 = true /\ bn_eps b1 = s_lit 1 100000 /\ bn_mom b1 = s_lit 9 10 /\ tdims (bn_gamma b1) = [1; 32] /\ bn_train b2 = true /\ bn_eps b2 = s_lit 1 100000 /\ bn_mom b2 = s_lit 9 10 /\ tdims (bn_gamma b2) = [1; 128]) /\
  (tdims (M_Layers.fc_w f1) = [5408; 128] /\ tdims (M_Layers.fc_w f2) = [128; 10]) /\
  n_loss n = Some CCE /\ n_opt n = Some (OAdam o) /\ usual_adam (s_lit 1 1000) o.
Proof. exact @mnist_settings. Qed.
Theorem C83_network : forall {T G} {S : Scalar T} {HR : Rng T G} (g : G), exists n f1 f2 o, M_Ex.linear_net g = Ok n /\ n_layers n = [LFC f1; LAct (act_new ReLU); LFC f2] /\
  (tdims (M_Layers.fc_w f1) = [1; 10] /\ tdims (M_Layers.fc_w f2) = [10; 1]) /\ n_loss n = Some MSE /\ n_opt n = Some (OAdam o) /\ usual_adam (s_lit 1 100) o.
Proof. exact @linear_settings. Qed.
Theorem C125_readme_network : forall {T G} {S : Scalar T} {HR : Rng T G} (g : G), exists n f1 f2 f3 o, readme_net g = Ok n /\ n_layers n = [LFC f1; LAct (act_new ReLU); LFC f2; LAct (act_new Sigmoid); LFC f3; LAct (act_new Softmax)] /\
  (tdims (M_Layers.fc_w f1) = [10; 100] /\ tdims (M_Layers.fc_w f2) = [100; 100] /\ tdims (M_Layers.fc_w f3) = [100; 10]) /\ n_loss n = Some MSE /\ n_opt n = Some (OAdam o) /\ usual_adam (s_lit 1 1000) o.
Proof. exact @readme_settings. Qed.
Print Assumptions C84_network.
Print Assumptions C83_network.
Print Assumptions C125_readme_network.
