(** * The end of the MNIST program *)
From Coq Require Import ZArith Ascii String Floats.SpecFloat Lia.
From Verif Require Import Base Scalar Types TextBase Spec SpecText SpecNN SpecLayers SpecShow M_Shape M_Tensor M_Adv M_Act M_Loss M_Layers M_Reg M_Opt M_Net M_Data M_Text M_Log M_Ex M_Show SpecNet SpecData SpecEx
  L_Index L_Shape L_Tensor L_Text L_Net L_Matmul L_Layers L_Conv L_Rows L_Drop L_BN L_Train L_Data L_F32 L_Log L_Ex.
Local Open Scope Z_scope.

Section Show.
Variable lm : libm.
Local Instance fs : Scalar f32 := F32Scalar lm.
Context {G : Type} {HR : Rng f32 G}.
Variable show : f32 -> string.

Lemma append_assoc : forall a b c : string, (a ++ b ++ c = (a ++ b) ++ c)%string.
Proof. induction a as [|x a IH]; intros b c; cbn [append]; [reflexivity|]. rewrite IH. reflexivity. Qed.
Lemma show_one_ok : forall n x t b os, net_in_mode false n -> showable lm show n x t b ->
  exists n', show_one lm show n x t os = ((n', (os ++ b)%string), Ok tt) /\ same_but_inputs n n'.
Proof.
  intros n x t b os HM (pic & p & EP & Gp & EA & Gt & ->). unfold show_one. destruct (predict_eval n x HM) as (n' & o & E & HS).
  change (F32Scalar lm) with fs in EP. change (show_scalar lm) with fs. rewrite E in EP |- *. cbn [snd] in EP. subst o. cbn [step]. rewrite EA. cbn [step]. rewrite data_text_ok by auto. cbn [step]. rewrite data_text_ok by auto. cbn [step].
  exists n'. split; [|exact HS]. unfold block. rewrite !append_assoc. reflexivity.
Qed.
Lemma showable_same : forall n n' x t b, same_but_inputs n n' -> showable lm show n x t b -> showable lm show n' x t b.
Proof. intros n n' x t b HS (pic & p & EP & R). exists pic, p. change (F32Scalar lm) with fs in *. rewrite (predict_same n n' x HS). auto. Qed.

Lemma u64_small : forall z, 0 <= z < two64 -> u64 z = z.
Proof. intros. unfold u64. apply Z.mod_small. auto. Qed.
Lemma show_steps : forall k fuel n xs ts i os d (bs : Z -> string), (k <= fuel)%nat -> net_in_mode false n -> 5 <= Zlen xs <= INT_MAX + 1 -> Zlen xs <= Zlen ts -> i = Zlen xs - 5 + Z.of_nat k -> (k <= 4)%nat ->
  (forall j, Zlen xs - 5 < j <= i -> showable lm show n (znth d xs j) (znth d ts j) (bs j)) ->
  exists n', show_from lm show fuel n xs ts i os = ((n', (os ++ fold_right append "" (map bs (rev (zrange (Zlen xs - 4) (i + 1)))))%string), Ok tt) /\ same_but_inputs n n'.
Proof.
  induction k as [|k IH]; intros fuel n xs ts i os d bs HF HM HX HT EI HK HB.
  - exists n. replace (i + 1) with (Zlen xs - 4) by lia. assert (E0 : zrange (Zlen xs - 4) (Zlen xs - 4) = []) by (apply zrange_nil; lia). rewrite E0. cbn [rev map fold_right].
    assert (EO : (os ++ "")%string = os) by (clear; induction os as [|c os IH]; cbn [append]; congruence). rewrite EO.
    split; [|apply same_refl]. assert (EL : (u64 (Zlen xs - 5) <? u64 i) = false) by (rewrite !u64_small by (unfold INT_MAX, two64 in *; lia); apply Z.ltb_ge; lia).
    destruct fuel; cbn [show_from]; rewrite EL; reflexivity.
  - destruct fuel as [|fuel]; [lia|]. cbn [show_from]. assert (EL : (u64 (Zlen xs - 5) <? u64 i) = true) by (rewrite !u64_small by (unfold INT_MAX, two64 in *; lia); apply Z.ltb_lt; lia). rewrite EL.
    assert (GX : 0 <= i < Zlen xs) by lia. assert (GT : 0 <= i < Zlen ts) by lia.
    rewrite (rd_ok d xs i GX), (rd_ok d ts i GT). cbn [bind step].
    destruct (show_one_ok n _ _ (bs i) os HM (HB i ltac:(lia))) as (n1 & E1 & S1). rewrite E1. cbn [step fst snd].
    rewrite chk32_ok by (unfold INT_MIN, INT_MAX in *; lia). cbn [step].
    destruct (IH fuel n1 xs ts (i - 1) (os ++ bs i)%string d bs) as (n2 & E2 & S2); try lia; auto.
    + exact (same_mode false _ _ S1 HM).
    + intros j Hj. apply (showable_same n n1); auto. apply HB; auto. lia.
    + exists n2. rewrite E2. split; [|exact (same_trans _ _ _ S1 S2)].
      replace (i - 1 + 1) with i in * by lia. rewrite (zrange_snoc (Zlen xs - 4) i) by lia. rewrite rev_app_distr. cbn [rev app map fold_right]. rewrite append_assoc. reflexivity.
Qed.
Theorem show_last_four : forall n xs ts os d (bs : Z -> string), net_in_mode false n -> 5 <= Zlen xs <= INT_MAX + 1 -> Zlen xs <= Zlen ts ->
  (forall j, Zlen xs - 4 <= j < Zlen xs -> showable lm show n (znth d xs j) (znth d ts j) (bs j)) ->
  exists n', net_show lm show n xs ts os = ((n', (os ++ bs (Zlen xs - 1) ++ bs (Zlen xs - 2) ++ bs (Zlen xs - 3) ++ bs (Zlen xs - 4))%string), Ok tt) /\ same_but_inputs n n'.
Proof.
  intros n xs ts os d bs HM HX HT HB. unfold net_show. rewrite i32_id by (unfold INT_MIN, INT_MAX in *; lia).
  destruct (show_steps 4 (Datatypes.S (List.length xs)) n xs ts (Zlen xs - 1) os d bs) as (n' & E & HS); try lia; auto.
  - unfold Zlen in HX. lia.
  - intros j Hj. apply HB. lia.
  - exists n'. rewrite E. split; [|exact HS]. replace (Zlen xs - 1 + 1) with (Zlen xs) by lia.
    rewrite (zrange_cons (Zlen xs - 4)), (zrange_cons (Zlen xs - 4 + 1)), (zrange_cons (Zlen xs - 4 + 1 + 1)), (zrange_cons (Zlen xs - 4 + 1 + 1 + 1)), zrange_nil by lia.
    cbn [rev app map fold_right]. replace (Zlen xs - 4 + 1 + 1 + 1) with (Zlen xs - 1) by lia. replace (Zlen xs - 4 + 1 + 1) with (Zlen xs - 2) by lia. replace (Zlen xs - 4 + 1) with (Zlen xs - 3) by lia.
    assert (EO : forall s, (s ++ "")%string = s) by (clear; induction s as [|c s IH]; cbn [append]; congruence). rewrite EO. reflexivity.
Qed.
(** Fewer than five batches: nothing is shown; none: the index -1 is used. *)
Theorem show_few : forall n xs ts os, 1 <= Zlen xs <= 4 -> net_show lm show n xs ts os = ((n, os), Ok tt).
Proof.
  intros n xs ts os HX. unfold net_show. rewrite i32_id by (unfold INT_MIN, INT_MAX in *; lia). cbn [show_from].
  assert (EL : (u64 (Zlen xs - 5) <? u64 (Zlen xs - 1)) = false); [|rewrite EL; reflexivity].
  assert (E1 : u64 (Zlen xs - 5) = Zlen xs - 5 + two64) by (unfold u64; symmetry; apply Z.mod_unique with (-1); unfold two64 in *; lia).
  rewrite E1, (u64_small (Zlen xs - 1)) by (unfold two64 in *; lia). apply Z.ltb_ge. unfold two64. lia.
Qed.
Theorem show_none : forall n ts os, net_show lm show n [] ts os = ((n, os), UB).
Proof. reflexivity. Qed.
End Show.

(** ** With the data files *)
Section Files.
Variable lm : libm.
Local Instance ff : Scalar f32 := F32Scalar lm.
Context {G : Type} {HR : Rng f32 G}.
Variable show : f32 -> string.
(** The network predicts something for every batch of at most eight images. *)
Definition predicts (n : net f32 G) : Prop := forall m x, 1 <= m <= 8 -> good x -> tdims x = [m; 1; 28; 28] -> exists p, snd (net_predict n x) = Ok p /\ good p.

Lemma batches_znth : forall {A} n b (g : Z -> Z -> A) d k, 0 <= k < num_batches n b -> znth d (batches n b g) k = g (k * b) (batch_len n b k).
Proof. intros A n b g d k Hk. unfold batches. rewrite (znth_map 0) by (rewrite Zlen_zrange; lia). rewrite znth_zrange by lia. rewrite Z.add_0_l. reflexivity. Qed.
Lemma Zlen_batches : forall {A} n b (g : Z -> Z -> A), 1 <= b -> 0 <= n -> Zlen (batches n b g) = num_batches n b.
Proof. intros A n b g Hb Hn. unfold batches. pose proof (num_batches_nonneg n b Hb Hn). rewrite Zlen_map, Zlen_zrange; lia. Qed.
Theorem files_shown : forall (n : net f32 G) N img lab ex ex' os, predicts n -> net_in_mode false n -> 33 <= N <= INT_MAX - 7 ->
  (forall i r c, 0 <= i < N -> 0 <= r < 28 -> 0 <= c < 28 -> is_byte (img i r c)) -> Forall is_byte ex -> (forall i, 0 <= i < N -> 0 <= lab i <= 9) ->
  let K := num_batches N 8 in
  exists tx ty n' (ps : Z -> tensor f32) (bs : Z -> string), load_data 8 (-1) (Some (image_file N 28 28 img ++ ex)) (Some (label_file N lab ++ ex')) = Ok (tx, ty) /\
    (forall k, K - 4 <= k < K -> snd (net_predict n (image_batch 28 28 img (k * 8) (batch_len N 8 k))) = Ok (ps k) /\
       bs k = block show (picture 28 28 (fun i j => Z.min 9 (img (k * 8) i j * 10 / 255))) (ps k) (label_batch lab (k * 8) (batch_len N 8 k))) /\
    net_show lm show n tx ty os = ((n', (os ++ bs (K - 1) ++ bs (K - 2) ++ bs (K - 3) ++ bs (K - 4))%string), Ok tt) /\ same_but_inputs n n'.
Proof.
  intros n N img lab ex ex' os HP HM HN HI HX HL K.
  assert (HK : 5 <= K /\ K * 8 <= INT_MAX) by (unfold K, num_batches; split; [apply Z.div_le_lower_bound; lia|pose proof (Z.mul_div_le (N + 8 - 1) 8 ltac:(lia)); lia]). destruct HK as (HK & HKM).
  assert (ES : samples (-1) N = N) by reflexivity.
  assert (EM : Z.min 8 N = 8) by lia.
  pose proof (data_ok (T := f32) (f32_bytes_scale lm) 8 (-1) N N 28 28 img lab ex ex') as EL. rewrite ES, EM in EL. fold K in EL.
  specialize (EL ltac:(lia) ltac:(unfold INT_MAX in *; lia) ltac:(unfold INT_MAX in *; lia) ltac:(unfold INT_MAX in *; lia) ltac:(unfold INT_MAX in *; lia) ltac:(lia) ltac:(lia) ltac:(vm_compute; discriminate) ltac:(vm_compute; discriminate) HKM HKM HI HX HL).
  set (ps := fun k => match snd (net_predict n (image_batch 28 28 img (k * 8) (batch_len N 8 k))) with Ok p => p | _ => tensor_of [1] (fun _ => zero) end).
  set (bs := fun k => block show (picture 28 28 (fun i j => Z.min 9 (img (k * 8) i j * 10 / 255))) (ps k) (label_batch lab (k * 8) (batch_len N 8 k))).
  assert (HB : forall k, 0 <= k < K -> snd (net_predict n (image_batch 28 28 img (k * 8) (batch_len N 8 k))) = Ok (ps k) /\ good (ps k) /\
    to_ascii_art (image_batch 28 28 img (k * 8) (batch_len N 8 k)) = Ok (picture 28 28 (fun i j => Z.min 9 (img (k * 8) i j * 10 / 255))) /\ good (label_batch lab (k * 8) (batch_len N 8 k) : tensor f32)).
  { intros k Hk. destruct (batch_len_bounds N 8 k ltac:(lia) Hk) as (B1 & B2).
    assert (GI : good (image_batch 28 28 img (k * 8) (batch_len N 8 k) : tensor f32)) by (apply good_tensor_of; [split; [discriminate|]; repeat (apply Forall_cons; [lia|]); apply Forall_nil|cbn [prod]; unfold INT_MAX; lia]).
    destruct (HP (batch_len N 8 k) _ B1 GI eq_refl) as (p & E & Gp). unfold ps. rewrite E. split; [reflexivity|]. split; [exact Gp|]. split.
    - apply (art_ok lm _ [batch_len N 8 k; 1] 28 28 (fun i j => img (k * 8) i j) GI eq_refl); [lia|lia|]. intros i j Hi Hj. split; [apply HI; lia|].
      change (zrepeat 0 (Zlen [batch_len N 8 k; 1]) ++ [i; j]) with [0; 0; i; j]. unfold image_batch. rewrite el_tensor_of by (repeat constructor; lia). unfold fn4; cbn [nth]. rewrite Z.add_0_r. reflexivity.
    - apply good_tensor_of; [split; [discriminate|]; repeat (apply Forall_cons; [lia|]); apply Forall_nil|cbn [prod]; unfold INT_MAX; lia]. }
  do 2 eexists. destruct (show_last_four lm show n (batches N 8 (image_batch 28 28 img : Z -> Z -> tensor f32)) (batches N 8 (label_batch lab : Z -> Z -> tensor f32)) os (tensor_of [1] (fun _ => zero)) bs HM) as (n' & E & HS).
  - rewrite Zlen_batches by lia. fold K. unfold INT_MAX in *. lia.
  - rewrite !Zlen_batches by lia. lia.
  - intros j. rewrite Zlen_batches by lia. fold K. intros Hj. rewrite !batches_znth by (fold K; lia). destruct (HB j ltac:(lia)) as (A1 & A2 & A3 & A4). exists (picture 28 28 (fun i k => Z.min 9 (img (j * 8) i k * 10 / 255))), (ps j). auto.
  - exists n', ps, bs. split; [exact EL|]. split; [intros k Hk; split; [apply HB; lia|reflexivity]|]. rewrite Zlen_batches in E by lia. split; [exact E|exact HS].
Qed.
End Files.

(** ** The program's network in evaluation mode *)
Section Eval.
Context {T G : Type} {S : Scalar T} {HR : Rng T G}.
Local Notation layer := (layer T).
Inductive evals : list Z -> layer -> list Z -> Prop :=
  | ev_layer : forall ds l ds', accepts ds l ds' -> evals ds l ds'
  | ev_bn : forall f ds l, bn_rows f l -> bn_train l = false -> featured f ds -> evals ds (LBN l) ds
  | ev_drop : forall ds l, dr_train l = false -> evals ds (LDrop l) ds.
Lemma evals_chain : forall ls ds ds' (x : tensor T) (g : G), stack evals ds ls ds' -> good x -> tdims x = ds ->
  exists ls1 g' y, forward_all ls x g = (ls1, g', Ok y) /\ good y /\ tdims y = ds'.
Proof.
  induction ls as [|l ls IH]; intros ds ds' x g HA Gx Ex; [inversion HA; subst; exists [], g, x; auto|]. inversion HA as [|? ? dm ? ? H1 H2]; subst.
  assert (H : exists l1 g1 y, layer_forward l x g = (l1, g1, Ok y) /\ good y /\ tdims y = dm).
  { inversion H1 as [ds0 l0 ds1 HL|f ds0 l0 B1 B2 B3|ds0 l0 B1]; subst.
    - destruct (accepts_step _ l dm x g HL Gx eq_refl) as (l1 & g1 & y & E1 & Gy & Ey & _). exists l1, g1, y. auto.
    - destruct (bn_rows_ready f l0 B1) as (R1 & R2 & R3). cbn [layer_forward]. rewrite (bn_forward_eval f l0 x R1 R2 R3 B2 Gx B3). unfold lift; cbn [fst snd]. do 3 eexists. split; [reflexivity|]. split; [apply bn_out_good; auto|reflexivity].
    - cbn [layer_forward]. rewrite dropout_eval by auto. do 3 eexists. split; [reflexivity|]. auto. }
  destruct H as (l1 & g1 & y & E1 & Gy & Ey). destruct (IH dm ds' y g1 H2 Gy Ey) as (ls1 & g2 & z & E2 & Gz & Ez). exists (l1 :: ls1), g2, z. cbn [forward_all]. rewrite E1, E2. auto.
Qed.
(** The network of the program. *)
Lemma mnist_net_ok : forall g : G, exists n c b1 f1 b2 f2, mnist_net g = Ok n /\
  n_layers n = [LConv c; LBN b1; LAct (act_new ReLU); LPool (pool_new 2 2 0); LDrop (dropout_new (s_lit 1 4)); LFlat flatten_new; LFC f1; LBN b2; LAct (act_new ReLU); LDrop (dropout_new (s_lit 1 4)); LFC f2; LAct (act_new Softmax)] /\
  conv_wf c /\ cv_ic c = 1 /\ cv_oc c = 32 /\ cv_kh c = 3 /\ cv_kw c = 3 /\ bn_rows 32 b1 /\ bn_train b1 = true /\ fc_wf f1 5408 128 /\ bn_rows 128 b2 /\ bn_train b2 = true /\ fc_wf f2 128 10.
Proof.
  intros g. unfold mnist_net.
  destruct (conv_new_ok 1 32 3 3 1 0 1 g) as (c & g1 & Ec & HC & _ & K1 & K2 & K3 & K4 & K5 & K6 & K7); [lia..|vm_compute; discriminate|]. rewrite Ec. cbn [bind].
  destruct (bn_new_ok 32 (s_lit 1 100000) (s_lit 9 10)) as (b1 & Eb1 & R1 & T1 & _); [vm_compute; split; discriminate || reflexivity|]. rewrite Eb1. cbn [bind].
  destruct (fc_new_ok 5408 128 g1) as (f1 & g2 & Ef1 & HF1 & _); [lia..|vm_compute; discriminate|]. rewrite Ef1. cbn [bind].
  destruct (bn_new_ok 128 (s_lit 1 100000) (s_lit 9 10)) as (b2 & Eb2 & R2 & T2 & _); [vm_compute; split; discriminate || reflexivity|]. rewrite Eb2. cbn [bind].
  destruct (fc_new_ok 128 10 g2) as (f2 & g3 & Ef2 & HF2 & _); [lia..|vm_compute; discriminate|]. rewrite Ef2. cbn [bind].
  eexists. exists c, b1, f1, b2, f2. split; [reflexivity|]. split; [reflexivity|]. auto 20.
Qed.
(** What the program asks for: loss, optimizer and its settings; and the number of units of each layer. *)
Theorem mnist_settings : forall g : G, exists n c b1 f1 b2 f2 o, mnist_net g = Ok n /\
  n_layers n = [LConv c; LBN b1; LAct (act_new ReLU); LPool (pool_new 2 2 0); LDrop (dropout_new (s_lit 1 4)); LFlat flatten_new; LFC f1; LBN b2; LAct (act_new ReLU); LDrop (dropout_new (s_lit 1 4)); LFC f2; LAct (act_new Softmax)] /\
  (cv_ic c = 1 /\ cv_oc c = 32 /\ cv_kh c = 3 /\ cv_kw c = 3 /\ cv_stride c = 1 /\ cv_pad c = 0 /\ cv_dil c = 1) /\
  (bn_train b1 = true /\ bn_eps b1 = s_lit 1 100000 /\ bn_mom b1 = s_lit 9 10 /\ tdims (bn_gamma b1) = [1; 32] /\ bn_train b2 = true /\ bn_eps b2 = s_lit 1 100000 /\ bn_mom b2 = s_lit 9 10 /\ tdims (bn_gamma b2) = [1; 128]) /\
  (tdims (M_Layers.fc_w f1) = [5408; 128] /\ tdims (M_Layers.fc_w f2) = [128; 10]) /\
  n_loss n = Some CCE /\ n_opt n = Some (OAdam o) /\
  usual_adam (s_lit 1 1000) o.
Proof.
  intros g. unfold mnist_net.
  destruct (conv_new_ok 1 32 3 3 1 0 1 g) as (c & g1 & Ec & HC & _ & K1 & K2 & K3 & K4 & K5 & K6 & K7); [lia..|vm_compute; discriminate|]. rewrite Ec. cbn [bind].
  destruct (bn_new_ok 32 (s_lit 1 100000) (s_lit 9 10)) as (b1 & Eb1 & R1 & T1 & _); [vm_compute; split; discriminate || reflexivity|]. pose proof Eb1 as Db1. rewrite Eb1. cbn [bind].
  destruct (fc_new_ok 5408 128 g1) as (f1 & g2 & Ef1 & HF1 & _); [lia..|vm_compute; discriminate|]. rewrite Ef1. cbn [bind].
  destruct (bn_new_ok 128 (s_lit 1 100000) (s_lit 9 10)) as (b2 & Eb2 & R2 & T2 & _); [vm_compute; split; discriminate || reflexivity|]. pose proof Eb2 as Db2. rewrite Eb2. cbn [bind].
  destruct (fc_new_ok 128 10 g2) as (f2 & g3 & Ef2 & HF2 & _); [lia..|vm_compute; discriminate|]. rewrite Ef2. cbn [bind].
  assert (HB : forall n e m b, bn_new n e m = Ok b -> bn_eps b = e /\ bn_mom b = m).
  { intros n0 e m b E. unfold bn_new in E. repeat (apply bind_ok_inv in E as (? & _ & E)). injection E as <-. auto. }
  destruct (HB _ _ _ _ Db1) as (E1 & M1), (HB _ _ _ _ Db2) as (E2 & M2). destruct R1 as ((_ & G1) & _), R2 as ((_ & G2) & _). destruct HF1 as (_ & W1 & _), HF2 as (_ & W2 & _).
  eexists. exists c, b1, f1, b2, f2. eexists. split; [reflexivity|]. split; [reflexivity|]. split; [auto 10|]. split; [auto 10|]. split; [auto|]. split; [reflexivity|]. split; [reflexivity|]. unfold usual_adam. cbn. auto 12.
Qed.
Theorem linear_settings : forall g : G, exists n f1 f2 o, M_Ex.linear_net g = Ok n /\ n_layers n = [LFC f1; LAct (act_new ReLU); LFC f2] /\
  (tdims (M_Layers.fc_w f1) = [1; 10] /\ tdims (M_Layers.fc_w f2) = [10; 1]) /\ n_loss n = Some MSE /\ n_opt n = Some (OAdam o) /\ usual_adam (s_lit 1 100) o.
Proof.
  intros g. unfold M_Ex.linear_net.
  destruct (fc_new_ok 1 10 g) as (f1 & g1 & Ef1 & HF1 & _); [lia..|vm_compute; discriminate|]. rewrite Ef1. cbn [bind].
  destruct (fc_new_ok 10 1 g1) as (f2 & g2 & Ef2 & HF2 & _); [lia..|vm_compute; discriminate|]. rewrite Ef2. cbn [bind].
  destruct HF1 as (_ & W1 & _), HF2 as (_ & W2 & _). eexists. exists f1, f2. eexists. split; [reflexivity|]. split; [reflexivity|]. split; [auto|]. split; [reflexivity|]. split; [reflexivity|]. unfold usual_adam. cbn. auto 12.
Qed.
Theorem readme_settings : forall g : G, exists n f1 f2 f3 o, readme_net g = Ok n /\ n_layers n = [LFC f1; LAct (act_new ReLU); LFC f2; LAct (act_new Sigmoid); LFC f3; LAct (act_new Softmax)] /\
  (tdims (M_Layers.fc_w f1) = [10; 100] /\ tdims (M_Layers.fc_w f2) = [100; 100] /\ tdims (M_Layers.fc_w f3) = [100; 10]) /\ n_loss n = Some MSE /\ n_opt n = Some (OAdam o) /\ usual_adam (s_lit 1 1000) o.
Proof.
  intros g. unfold readme_net.
  destruct (fc_new_ok 10 100 g) as (f1 & g1 & Ef1 & HF1 & _); [lia..|vm_compute; discriminate|]. rewrite Ef1. cbn [bind].
  destruct (fc_new_ok 100 100 g1) as (f2 & g2 & Ef2 & HF2 & _); [lia..|vm_compute; discriminate|]. rewrite Ef2. cbn [bind].
  destruct (fc_new_ok 100 10 g2) as (f3 & g3 & Ef3 & HF3 & _); [lia..|vm_compute; discriminate|]. rewrite Ef3. cbn [bind].
  destruct HF1 as (_ & W1 & _), HF2 as (_ & W2 & _), HF3 as (_ & W3 & _). eexists. exists f1, f2, f3. eexists. split; [reflexivity|]. split; [reflexivity|]. split; [auto|]. split; [reflexivity|]. split; [reflexivity|]. unfold usual_adam. cbn. auto 12.
Qed.
Theorem untrained_predicts : forall (g : G) n, mnist_net g = Ok n -> forall m x, 1 <= m <= 8 -> good x -> tdims x = [m; 1; 28; 28] ->
  exists p, snd (net_predict (net_set_mode n false) x) = Ok p /\ good p /\ tdims p = [m; 10].
Proof.
  intros g n EN m x Hm Gx Ex. destruct (mnist_net_ok g) as (n' & c & b1 & f1 & b2 & f2 & E & EL & (C1 & C2 & C3 & C4) & K1 & K2 & K3 & K4 & R1 & _ & (A1 & A2 & A3 & A4) & R2 & _ & (B1 & B2 & B3 & B4)).
  assert (n' = n) by congruence. subst n'.
  destruct (evals_chain (map (layer_set_mode false) (n_layers n)) [m; 1; 28; 28] [m; 10] x (n_rng n)) as (ls & g' & y & F & Gy & Ey); auto.
  - rewrite EL. cbn [map layer_set_mode].
    apply (acc_cons _ _ _ [m; 32; 26; 26]).
    { apply ev_layer. replace [m; 1; 28; 28] with [m; cv_ic c; 28; 28] by congruence. replace [m; 32; 26; 26] with [m; cv_oc c; 28 - cv_kh c + 1; 28 - cv_kw c + 1] by (rewrite K2, K3, K4; reflexivity).
      apply acc_conv; auto; rewrite ?K2, ?K3, ?K4; try lia. unfold INT_MAX. lia. }
    apply (acc_cons _ _ _ [m; 32; 26; 26]). { apply (ev_bn 32); [apply bn_rows_mode; auto|reflexivity|right; exists m, 26, 26; reflexivity]. }
    apply (acc_cons _ _ _ [m; 32; 26; 26]). { apply ev_layer, acc_act. discriminate. }
    apply (acc_cons _ _ _ [m; 32; 13; 13]). { apply ev_layer. apply (acc_pool m 32 26 26 (pool_new 2 2 0)); [reflexivity|reflexivity|reflexivity|vm_compute; discriminate|vm_compute; discriminate]. }
    apply (acc_cons _ _ _ [m; 32; 13; 13]). { apply ev_drop. reflexivity. }
    apply (acc_cons _ _ _ [m; 5408]). { apply ev_layer. apply (acc_flat m 32 [13; 13]). discriminate. }
    apply (acc_cons _ _ _ [m; 128]). { apply ev_layer. apply acc_fc; auto. unfold INT_MAX. lia. }
    apply (acc_cons _ _ _ [m; 128]). { apply (ev_bn 128); [apply bn_rows_mode; auto|reflexivity|left; exists m; reflexivity]. }
    apply (acc_cons _ _ _ [m; 128]). { apply ev_layer, acc_act. discriminate. }
    apply (acc_cons _ _ _ [m; 128]). { apply ev_drop. reflexivity. }
    apply (acc_cons _ _ _ [m; 10]). { apply ev_layer. apply acc_fc; auto. unfold INT_MAX. lia. }
    apply (acc_cons _ _ _ [m; 10]). { apply ev_layer, acc_act. intros _. cbn. lia. }
    constructor.
  - unfold net_predict, net_set_mode, net_with. cbn [n_layers n_rng]. rewrite F. exists y. auto.
Qed.

(** After it has seen a batch of images in training mode it fails in evaluation mode. *)
Definition digits (x : tensor T) : Prop := exists m, 1 <= m <= 8 /\ good x /\ tdims x = [m; 1; 28; 28].
Definition conv32 (c : conv T) : Prop := conv_wf c /\ cv_ic c = 1 /\ cv_oc c = 32 /\ cv_kh c = 3 /\ cv_kw c = 3.
Definition stats (P : list Z -> Prop) (b : bn T) : Prop := bn_ready 32 b /\ (good (bn_rmean b) /\ P (tdims (bn_rmean b))) /\ (good (bn_rvar b) /\ P (tdims (bn_rvar b))).
Definition starts (P : list Z -> Prop) (n : net T G) : Prop := exists c b r, n_layers n = LConv c :: LBN b :: r /\ conv32 c /\ stats P b /\ bn_train b = true.
Lemma conv32_forward : forall c x, conv32 c -> digits x -> exists c' y, conv_forward c x = (c', Ok y) /\ conv32 c' /\ images 32 y.
Proof.
  intros c x (W & K1 & K2 & K3 & K4) (m & Hm & Gx & Ex). eexists. eexists. rewrite (conv_forward_ok c x m 28 28) by (auto; try congruence; rewrite ?K2, ?K3, ?K4; unfold INT_MAX; lia).
  split; [reflexivity|]. split; [split; [exact W|]; repeat split; auto|]. rewrite K2, K3, K4. change (28 - 3 + 1) with 26. split; [apply good_tensor_of; [split; [discriminate|]; repeat (apply Forall_cons; [lia|]); apply Forall_nil|cbn [prod]; unfold INT_MAX; lia]|].
  exists m, 26, 26. reflexivity.
Qed.
Lemma bn_forward_mode : forall (b : bn T) y, bn_train (fst (bn_forward b y)) = bn_train b.
Proof.
  intros b y. unfold bn_forward. destruct (negb _ && negb _); [reflexivity|]. destruct (bn_train b) eqn:E; [|exact E].
  destruct (t_mean_axes _ _) as [m| | | |]; cbn [step]; try exact E. destruct (t_variance_axes _ _ _) as [v| | | |]; cbn [step]; try exact E.
  match goal with |- context [step _ ?m _] => destruct m as [((rg & rb) & nx)| | | |] end; cbn [step]; try exact E.
  match goal with |- context [step _ ?m _] => destruct m as [(z & rm)| | | |] end; cbn [step]; try exact E.
  match goal with |- context [step _ ?m _] => destruct m as [rv| | | |] end; exact E.
Qed.
Lemma stats_step : forall b y, stats (fun ds => ds = [1; 32] \/ ds = [1; 32; 1; 32]) b -> bn_train b = true -> images 32 y ->
  stats (fun ds => ds = [1; 32; 1; 32]) (fst (bn_forward b y)) /\ bn_train (fst (bn_forward b y)) = true.
Proof.
  intros b y (H1 & H2 & H3) Ht Hy. assert (ET : bn_set_mode b true = b) by (destruct b; cbn in Ht |- *; rewrite Ht; reflexivity).
  destruct (bn_images_stats 32 [y] b H1) as (A & B & C); auto; [vm_compute; discriminate|discriminate|].
  cbn [map] in A, B, C. change (bn_run b [(true, y)]) with (bn_call b (true, y)) in A, B, C. unfold bn_call in A, B, C. cbn [fst snd] in A, B, C. rewrite ET in A, B, C.
  split; [split; [exact A|]; split; [exact B|exact C]|]. rewrite bn_forward_mode. exact Ht.
Qed.
Lemma starts_step : forall n x, starts (fun ds => ds = [1; 32] \/ ds = [1; 32; 1; 32]) n -> digits x -> starts (fun ds => ds = [1; 32; 1; 32]) (fst (net_predict n x)).
Proof.
  intros n x (c & b & r & E & HC & HS & Ht) Hx. destruct (conv32_forward c x HC Hx) as (c' & y & E1 & HC' & Hy). destruct (stats_step b y HS Ht Hy) as (HS' & Ht').
  unfold net_predict. rewrite E. cbn [forward_all layer_forward]. rewrite E1. unfold lift; cbn [fst snd]. destruct (bn_forward b y) as (b' & o). cbn [fst snd] in *.
  destruct o as [z| | | |]; cbn [fst]; [destruct (forward_all r z (n_rng n)) as ((r' & g') & o); exists c', b', r'|exists c', b', r..]; cbn [n_layers fst]; auto.
Qed.
Lemma starts_weak : forall n, starts (fun ds => ds = [1; 32; 1; 32]) n -> starts (fun ds => ds = [1; 32] \/ ds = [1; 32; 1; 32]) n.
Proof. intros n (c & b & r & E & HC & (A & (B1 & B2) & (C1 & C2)) & Ht). exists c, b, r. split; [auto|]. split; [auto|]. split; [|auto]. split; [auto|]. split; split; auto. Qed.
Lemma starts_all : forall xs n, starts (fun ds => ds = [1; 32; 1; 32]) n -> Forall digits xs -> starts (fun ds => ds = [1; 32; 1; 32]) (fst (net_predict_all n xs)).
Proof.
  induction xs as [|x xs IH]; intros n HS HX; [exact HS|]. inversion HX as [|? ? H1 H2]; subst. cbn [net_predict_all]. pose proof (starts_step n x (starts_weak n HS) H1) as H. destruct (net_predict n x) as (n1 & o). cbn [fst] in H.
  destruct o as [y| | | |]; cbn [step fst]; auto. specialize (IH n1 H H2). destruct (net_predict_all n1 xs) as (n2 & o2). cbn [fst] in IH. destruct o2; exact IH.
Qed.
Theorem trained_throws : forall (g : G) n x xs y, mnist_net g = Ok n -> Forall digits (x :: xs) -> digits y ->
  snd (net_predict (net_set_mode (fst (net_predict_all n (x :: xs))) false) y) = Throw RuntimeError.
Proof.
  intros g n x xs y EN HX Hy. destruct (mnist_net_ok g) as (n' & c & b1 & f1 & b2 & f2 & E & EL & C & K1 & K2 & K3 & K4 & R1 & T1 & _). assert (n' = n) by congruence. subst n'.
  assert (H0 : starts (fun ds => ds = [1; 32] \/ ds = [1; 32; 1; 32]) n).
  { do 3 eexists. split; [exact EL|]. split; [repeat split; auto; apply C|]. split; [|exact T1]. destruct (bn_rows_ready 32 b1 R1) as (R & _). destruct R1 as (_ & _ & (A1 & A2) & (B1 & B2)). split; [exact R|]. split; split; auto. }
  inversion HX as [|? ? H1 H2]; subst. pose proof (starts_step n x H0 H1) as HS. cbn [net_predict_all].
  assert (HF : forall m, starts (fun ds => ds = [1; 32; 1; 32]) m -> snd (net_predict (net_set_mode m false) y) = Throw RuntimeError).
  { intros m (c' & b' & r & EM & HC' & (_ & HM & _) & _). unfold net_predict, net_set_mode, net_with. cbn [n_layers n_rng]. rewrite EM. cbn [map layer_set_mode forward_all layer_forward].
    destruct (conv32_forward c' y HC' Hy) as (c2 & z & E1 & _ & (Gz & k & h & w & Ez)). rewrite E1. unfold lift; cbn [fst snd].
    pose proof (bn_eval_stat_throws 32 (bn_set_mode b' false) z k h w HM ltac:(lia) ltac:(vm_compute; discriminate) eq_refl Ez) as U. destruct (bn_forward (bn_set_mode b' false) z) as (b3 & o). cbn [snd fst] in U |- *. subst o. reflexivity. }
  destruct (net_predict n x) as (n1 & o). cbn [fst] in HS. destruct o as [p| | | |]; cbn [step fst]; auto.
  pose proof (starts_all xs n1 HS H2) as HA. destruct (net_predict_all n1 xs) as (n2 & o2). cbn [fst] in HA. destruct o2; cbn [step fst]; auto.
Qed.
End Eval.

(** The whole program. *)
Section Main.
Variable lm : libm.
Local Instance fm : Scalar f32 := F32Scalar lm.
Context {G : Type} {HR : Rng f32 G}.
Theorem main_undefined : forall (show : f32 -> string) n img lab ex ex' (g : G), 1000 <= n <= INT_MAX ->
  (forall i r c, 0 <= i < n -> 0 <= r < 28 -> 0 <= c < 28 -> is_byte (img i r c)) -> Forall is_byte ex -> (forall i, 0 <= i < 1000 -> 0 <= lab i <= 9) ->
  snd (mnist_main lm show (Some (image_file n 28 28 img ++ ex)) (Some (label_file n lab ++ ex')) g) = UB.
Proof.
  intros show n img lab ex ex' g Hn Hi Hx Hl. pose proof (mnist_example_undefined (f32_counts lm) (f32_bytes_scale lm) n img lab ex ex' g Hn Hi Hx Hl) as U.
  unfold mnist_main, mnist_example in *. change (show_scalar lm) with fm. change (F32Scalar lm) with fm in U. destruct (mnist_net g) as [N| | | |]; cbn [bind] in U |- *; try discriminate U; cbn [step snd]; try reflexivity.
  destruct (load_data 8 1000 _ _) as [(xs & ts)| | | |]; cbn [bind] in U |- *; try discriminate U; cbn [step snd]; try reflexivity.
  destruct (train_report_same show xs ts 10 N) as (out & E). rewrite E. destruct (net_train N xs ts 10) as (n1 & r). cbn [bind] in U. cbn [fst snd]. destruct r; try discriminate U. reflexivity.
Qed.
End Main.
