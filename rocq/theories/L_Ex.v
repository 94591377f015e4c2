(** * Single samples, batch normalisation in training, and the example programs *)
From Coq Require Import Lia.
From Verif Require Import Base Scalar Types Spec SpecNN SpecLayers SpecOpt M_Shape M_Tensor M_Adv M_Act M_Loss M_Layers M_Reg M_Opt M_Net SpecNet M_Data SpecData M_Ex SpecEx
  L_Index L_Shape L_Bcast L_Tensor L_Nest L_Glue L_Matmul L_Adv L_Act L_ActR L_Loss L_Layers L_Conv L_Rows L_Pool L_Pool2 L_Drop L_BN L_Opt L_Net L_Net2 L_Train L_Data.

Section S.
Context {T : Type} {S : Scalar T} {G : Type} {HR : Rng T G}.
Local Notation layer := (layer T).

(** ** Samples without a batch dimension *)
Definition back1 (ds e : list Z) : Prop := e = ds \/ e = 1 :: ds.
Lemma accepts1_step : forall ds l ds' (x : tensor T) (g : G), accepts1 ds l ds' -> good x -> tdims x = ds ->
  exists l1 g' y, layer_forward l x g = (l1, g', Ok y) /\ good y /\ tdims y = ds' /\
    forall d : tensor T, good d -> back1 ds' (tdims d) -> exists l2 gx, layer_backward l1 d = (l2, Ok gx) /\ good gx /\ back1 ds (tdims gx) /\
      accepts1 ds l2 ds' /\ layer_params l2 = layer_params l /\ armed l2.
Proof.
  intros ds l ds' x g HA Hg Ex. destruct HA as [k o l W1 W2 W3 W4|k l HS]; cbn [layer_forward].
  - assert (HW : fc_wf l k o) by (split; auto). destruct (dims2_pos _ _ _ W1 W2) as (Hk & Ho & HM).
    rewrite (fc_forward_1 l k o x HW Hg Ex). unfold lift; cbn [fst snd]. do 3 eexists. split; [reflexivity|]. split; [apply good_tensor_of; [auto with idx|cbn [prod]; nia]|]. split; [reflexivity|]. intros d Hd Ed.
    cbn [layer_backward]. destruct (fc_backward_vec (mkFC (fc_w l) (fc_b l) (Some x) (fc_gw l) (fc_gb l)) k o x d HW eq_refl Hg Ex Hd Ed) as (gw & gb & gx & E & Ggw & Egw & Ggb & Egb & Ggx & Egx).
    rewrite E. do 2 eexists. split; [reflexivity|]. split; [auto|]. split; [right; auto|]. cbn [fc_w fc_b fc_in]. split; [constructor; auto|]. split; [reflexivity|].
    unfold armed. cbn [layer_params layer_grads fc_w fc_b fc_gw fc_gb]. split; [auto|]. split; [auto|]. exists gw, gb. split; [reflexivity|]. split; [auto|]. split; [congruence|]. split; [auto|congruence].
  - unfold act_forward. destruct (act_fwd_shape (al_act l) x Hg) as (y & Ey & Gy & Dy); [intros ES; rewrite ES in HS; destruct HS|]. rewrite Ey. unfold lift; cbn [fst snd]. do 3 eexists. split; [reflexivity|]. split; [auto|]. split; [congruence|]. intros d Hd Ed.
    cbn [layer_backward]. unfold act_backward. cbn [al_in al_act fst snd].
    assert (HB : exists gx, act_bwd (al_act l) x d = Ok gx /\ good gx /\ back1 [k] (tdims gx)).
    { destruct Ed as [Ed|Ed].
      - destruct (act_bwd_shape (al_act l) x d Hg Hd) as (gx & E1 & E2 & E3); [congruence|intros ES; rewrite ES in HS; destruct HS|]. exists gx. split; [auto|]. split; [auto|]. left. congruence.
      - destruct (dims1_pos x k Hg Ex) as (Hk & HM). rewrite (act_bwd_vec_row (al_act l) x d k) by (auto; destruct (al_act l); auto; destruct HS). eexists. split; [reflexivity|]. split; [apply good_2; lia|right; reflexivity]. }
    destruct HB as (gx & E1 & E2 & E3). rewrite E1. do 2 eexists. split; [reflexivity|]. split; [auto|]. split; [auto|]. split; [constructor; auto|]. split; [reflexivity|exact I].
Qed.
Lemma accepts1_with : forall ds (l : layer) ds' (w b w' b' : tensor T), accepts1 ds l ds' -> layer_params l = Some (w, b) -> good w' -> tdims w' = tdims w -> good b' -> tdims b' = tdims b -> accepts1 ds (with_params l w' b') ds'.
Proof.
  intros ds l ds' w b w' b' HA E Gw Ew Gb Eb. destruct HA as [k o l W1 W2 W3 W4|k l HS]; cbn [layer_params] in E; try discriminate; injection E as <- <-; cbn [with_params].
  apply acc1_fc; cbn [fc_w fc_b]; auto; congruence.
Qed.
Lemma back1_same : forall ds, back1 ds ds. Proof. left. reflexivity. Qed.
Definition train1_total := train_total_by accepts1 back1 back1_same accepts1_step accepts1_with.
Lemma predict1_total : forall ds ls ds' (x : tensor T) (n : net T G), n_layers n = ls -> stack accepts1 ds ls ds' -> good x -> tdims x = ds ->
  exists n' y, net_predict n x = (n', Ok y) /\ good y /\ tdims y = ds'.
Proof.
  intros ds ls ds' x n E HA Gx Ex. destruct (stack_chain accepts1 back1 accepts1_step ls ds ds' x (n_rng n) HA Gx Ex) as (ls1 & g1 & y & E1 & Gy & Ey & _).
  unfold net_predict. rewrite E, E1. eauto.
Qed.

(** ** Batch normalisation in training mode *)
Lemma bn_forward_total : forall f (l : bn T) (x : tensor T), bn_rows f l -> bn_train l = true -> good x -> featured f (tdims x) -> f * f <= INT_MAX ->
  exists l1 y, bn_forward l x = (l1, Ok y) /\ good y /\ tdims y = tdims x.
Proof.
  intros f l x HL Ht Gx HF HFF. destruct (bn_rows_ready f l HL) as (HR0 & PM & PV).
  pose proof (good_pos x Gx) as HP. pose proof (good_max x Gx) as HM.
  assert (Hf : 0 < f) by (destruct (sdims_pos f _ HF HP) as (_ & _ & X); lia).
  destruct HL as ((A1 & A2) & (B1 & B2) & (C1 & C2) & (D1 & D2)).
  assert (HB : exists r, bcast [1; f] (sdims (tdims x)) r /\ prod r <= INT_MAX).
  { destruct HF as [(n & EX)|(n & h & w & EX)]; rewrite EX.
    - exists [1; f]. split; [apply bcast_refl|cbn [prod]; nia].
    - exists [1; f; 1; f]. split; [|cbn [prod]; lia]. split; [reflexivity|]. intros i Hi. cbn [length Nat.max sdims] in *. unfold compatible. destruct i as [|[|[|[|i]]]]; cbn; try lia; split; auto; lia. }
  destruct HB as (r & HB & HPr).
  destruct (bn_ema_dims f (bn_mom l) (bn_rmean l) (tdims x) (feature_mean x) r HF HP HM C1 ltac:(rewrite C2; auto) HPr) as (rm & E1 & _).
  destruct (bn_ema_dims f (bn_mom l) (bn_rvar l) (tdims x) (feature_var x) r HF HP HM D1 ltac:(rewrite D2; auto) HPr) as (rv & E2 & _).
  rewrite (bn_forward_train f l x _ _ HR0 Ht Gx HF E1 E2). do 2 eexists. split; [reflexivity|]. split; [|reflexivity]. apply good_tensor_of; auto.
Qed.
Lemma forwards_chain : forall ls ds ds' (x : tensor T) (g : G), stack forwards ds ls ds' -> good x -> tdims x = ds ->
  exists ls1 g' y, forward_all ls x g = (ls1, g', Ok y) /\ good y /\ tdims y = ds' /\
    forall d : tensor T, good d -> tdims d = ds' ->
      (Exists is_bn ls /\ snd (backward_all ls1 d) = UB) \/ (~ Exists is_bn ls /\ exists ls2 gx, backward_all ls1 d = (ls2, Ok gx) /\ good gx /\ tdims gx = ds).
Proof.
  induction ls as [|l ls IH]; intros ds ds' x g HA Hg Ex.
  - inversion HA; subst. exists [], g, x. split; [reflexivity|]. split; [auto|]. split; [auto|]. intros d Hd Ed. right. split; [intros H; inversion H|]. exists [], d. auto.
  - inversion HA as [|? ? dm ? ? H1 H2]; subst.
    assert (H : exists l1 g1 y, layer_forward l x g = (l1, g1, Ok y) /\ good y /\ tdims y = dm /\ forall d : tensor T, good d -> tdims d = dm ->
      (is_bn l /\ snd (layer_backward l1 d) = UB) \/ (~ is_bn l /\ exists l2 gx, layer_backward l1 d = (l2, Ok gx) /\ good gx /\ tdims gx = tdims x)).
    { inversion H1 as [ds0 l0 ds1 HL|f ds0 l0 B1 B2 B3 B4]; subst.
      - destruct (accepts_step _ l dm x g HL Hg eq_refl) as (l1 & g1 & y & E1 & Gy & Ey & B1). exists l1, g1, y. split; [auto|]. split; [auto|]. split; [auto|]. intros d Hd Ed. right.
        destruct (B1 d Hd Ed) as (l2 & gx & Q1 & Q2 & Q3 & _). split; [destruct HL; cbn; auto|]. eauto.
      - destruct (bn_forward_total f l0 x B1 B2 Hg B3 B4) as (l1 & y & E & Gy & Ey). exists (LBN l1), g, y. cbn [layer_forward]. rewrite E. unfold lift; cbn [fst snd]. split; [auto|]. split; [auto|]. split; [auto|].
        intros d Hd Ed. left. split; [exact I|]. pose proof (bn_backward_after f l0 x d B1 B2 Hg B3 B4 Hd Ed) as U. rewrite E in U. cbn [fst] in U. cbn [layer_backward]. destruct (bn_backward l1 d). exact U. }
    destruct H as (l1 & g1 & y & E1 & Gy & Ey & B1). destruct (IH dm ds' y g1 H2 Gy Ey) as (ls1 & g2 & z & E2 & Gz & Ez & B2).
    exists (l1 :: ls1), g2, z. cbn [forward_all]. rewrite E1, E2. split; [auto|]. split; [auto|]. split; [auto|]. intros d Hd Ed. cbn [backward_all].
    destruct (B2 d Hd Ed) as [(X & U)|(X & ls2 & gm & F1 & F2 & F3)].
    + left. split; [apply Exists_cons_tl; auto|]. destruct (backward_all ls1 d) as (q & r). cbn [snd] in U. subst r. reflexivity.
    + rewrite F1. destruct (B1 gm F2 F3) as [(Y & U)|(Y & l2 & gx & K1 & K2 & K3)].
      * left. split; [apply Exists_cons_hd; auto|]. destruct (layer_backward l1 gm). exact U.
      * right. split; [intros H; inversion H; auto|]. rewrite K1. exists (l2 :: ls2), gx. auto.
Qed.
Theorem bn_train_undefined : forall ds ds' (n : net T G) lo x t xs ts e, stack forwards ds (n_layers n) ds' -> Exists is_bn (n_layers n) -> n_loss n = Some lo -> counts_nonzero (T := T) ->
  good x -> tdims x = ds -> target_fits lo ds' t -> 0 < e -> snd (net_train n (x :: xs) (t :: ts) e) = UB.
Proof.
  intros ds ds' n lo x t xs ts e HA HB HL HC Gx Ex HT HE.
  destruct (forwards_chain (n_layers n) ds ds' x (n_rng n) HA Gx Ex) as (ls1 & g1 & p & E1 & Gp & Ep & HD).
  destruct (loss_total lo ds' p t HC Gp Ep HT) as ((c & EC) & d & ED & Gd & Edd).
  destruct (HD d Gd Edd) as [(_ & U)|(X & _)]; [|contradiction].
  unfold net_train. destruct (Z.to_nat e) as [|k] eqn:EK; [lia|]. cbn [train_epochs]. unfold train_epoch. assert (H1 : new_shape [1] = Ok (shape_of [1])) by (vm_compute; reflexivity). rewrite H1. cbn [bind step train_samples].
  change (rd (t :: ts) 0) with (Ok t). unfold train_sample, net_predict. rewrite E1. cbn [step]. rewrite HL. cbn [bind]. rewrite EC. cbn [bind].
  destruct (total_add _ c (good_one zero) (loss_unit _ _ _ _ EC)) as (a' & EA & _). rewrite EA. cbn [bind]. rewrite ED. cbn [bind step].
  unfold net_backward. cbn [n_layers]. destruct (backward_all ls1 d) as (q & r). cbn [snd] in U. subst r. reflexivity.
Qed.
End S.

(** ** The example programs *)
Section Linear.
Context {T D G GD : Type} {S : Scalar T} {SD : Scalar D} {HR : Rng T G} {HD : Rng D GD}.
Variables (to_d : T -> D) (to_f : D -> T).
Lemma modes1 : forall ds (ls : list (layer T)) ds' m, stack accepts1 ds ls ds' -> map (layer_set_mode m) ls = ls.
Proof. intros ds ls ds' m H. induction H as [|ds l dm r ds' H1 H2 IH]; [reflexivity|]. cbn [map]. rewrite IH. destruct H1; reflexivity. Qed.
Theorem linear_example_ok : counts_nonzero (T := T) -> forall (gd : GD) (g : G), exists y, linear_example to_d to_f gd g = Ok y /\ good y /\ tdims y = [1].
Proof.
  intros HC gd g. unfold linear_example. rewrite gen_linear_ok. cbn [bind].
  set (next := line_point to_d to_f _ _). set (xs := map _ (zrange 0 100)). set (ts := map _ (zrange 0 100)).
  destruct (fc_new_ok 1 10 g) as (l1 & g1 & E1 & W1 & _); [lia..|vm_compute; discriminate|]. destruct (fc_new_ok 10 1 g1) as (l3 & g3 & E3 & W3 & _); [lia..|vm_compute; discriminate|].
  unfold linear_net. rewrite E1. cbn [bind]. rewrite E3. cbn [bind]. cbn [net_add net_new n_layers n_loss n_opt n_rng app net_compile].
  set (o := OAdam _). match goal with |- context [net_train ?m _ _ _] => set (n := m) end.
  assert (HA : stack accepts1 [1] (n_layers n) [1]).
  { destruct W1 as (A1 & A2 & A3 & A4). destruct W3 as (B1 & B2 & B3 & B4). apply (acc_cons _ _ _ [10]); [constructor; auto|]. apply (acc_cons _ _ _ [10]); [constructor; exact I|]. apply (acc_cons _ _ _ [1]); [constructor; auto|constructor]. }
  assert (LX : Zlen xs = 100) by (unfold xs; rewrite Zlen_map, Zlen_zrange; lia). assert (LT : Zlen ts = 100) by (unfold ts; rewrite Zlen_map, Zlen_zrange; lia).
  assert (G1 : forall f : list Z -> T, good (tensor_of [1] f)) by (intros f; apply good_tensor_of; [split; [discriminate|repeat constructor]|vm_compute; discriminate]).
  destruct (train1_total [1] [1] MSE o n xs ts 100) as (n' & EN & HA' & _); auto; try (rewrite LX; unfold INT_MAX; lia); try lia.
  - constructor.
  - rewrite LX. vm_compute. discriminate.
  - unfold xs. apply Forall_forall. intros x HI. apply in_map_iff in HI. destruct HI as (i & <- & _). split; [apply G1|reflexivity].
  - unfold ts. apply Forall_forall. intros x HI. apply in_map_iff in HI. destruct HI as (i & <- & _). split; [apply G1|left; reflexivity].
  - rewrite EN. cbn [bind]. change (new_shape [1]) with (Ok (shape_of [1])). cbn [bind].
    destruct (predict1_total [1] (map (layer_set_mode false) (n_layers n')) [1] (t_fill (shape_of [1]) (s_z 10)) (net_set_mode n' false) eq_refl) as (n2 & y & EP & Gy & Ey);
      [rewrite (modes1 _ _ _ _ HA'); exact HA'|apply (good_one (s_z 10))|reflexivity|].
    rewrite EP. exists y. auto.
Qed.
End Linear.

Section Mnist.
Context {T G : Type} {S : Scalar T} {HR : Rng T G}.
Theorem mnist_example_undefined : counts_nonzero (T := T) -> bytes_scale (T := T) -> forall n img lab ex ex' (g : G), 1000 <= n <= INT_MAX ->
  (forall i r c, 0 <= i < n -> 0 <= r < 28 -> 0 <= c < 28 -> is_byte (img i r c)) -> Forall is_byte ex -> (forall i, 0 <= i < 1000 -> 0 <= lab i <= 9) ->
  mnist_example (Some (image_file n 28 28 img ++ ex)) (Some (label_file n lab ++ ex')) g = UB.
Proof.
  intros HC HB n img lab ex ex' g Hn Hi Hx Hl. unfold mnist_example, mnist_net.
  destruct (conv_new_ok 1 32 3 3 1 0 1 g) as (c & g1 & Ec & (C1 & C2 & C3 & C4) & _ & K1 & K2 & K3 & K4 & K5 & K6 & K7); [lia..|vm_compute; discriminate|]. rewrite Ec. cbn [bind].
  destruct (bn_new_ok 32 (s_lit 1 100000) (s_lit 9 10)) as (b1 & Eb1 & R1 & T1 & _); [vm_compute; split; discriminate || reflexivity|]. rewrite Eb1. cbn [bind].
  destruct (fc_new_ok 5408 128 g1) as (f1 & g2 & Ef1 & (A1 & A2 & A3 & A4) & _); [lia..|vm_compute; discriminate|]. rewrite Ef1. cbn [bind].
  destruct (bn_new_ok 128 (s_lit 1 100000) (s_lit 9 10)) as (b2 & Eb2 & R2 & T2 & _); [vm_compute; split; discriminate || reflexivity|]. rewrite Eb2. cbn [bind].
  destruct (fc_new_ok 128 10 g2) as (f2 & g3 & Ef2 & (B1 & B2 & B3 & B4) & _); [lia..|vm_compute; discriminate|]. rewrite Ef2. cbn [bind].
  assert (EI : load_images 8 1000 (Some (image_file n 28 28 img ++ ex)) = Ok (batches 1000 8 (image_batch 28 28 img : Z -> Z -> tensor T))).
  { apply (images_round_trip HB 8 1000 n 28 28 img ex); auto; try lia; try (unfold INT_MAX; lia); unfold samples; change (1000 =? -1) with false; cbn iota; unfold INT_MAX, num_batches in *; try lia. vm_compute. discriminate. }
  assert (EL : load_labels 8 1000 (Some (label_file n lab ++ ex')) = Ok (batches 1000 8 (label_batch lab : Z -> Z -> tensor T))).
  { apply (labels_round_trip 8 1000 n lab ex'); auto; try lia; try (unfold INT_MAX; lia); unfold samples; change (1000 =? -1) with false; cbn iota; unfold INT_MAX, num_batches in *; try lia. vm_compute. discriminate. }
  unfold load_data. rewrite EI. cbn [bind]. rewrite EL. cbn [bind].
  assert (EX : exists xs, batches 1000 8 (image_batch 28 28 img : Z -> Z -> tensor T) = image_batch 28 28 img 0 8 :: xs).
  { unfold batches. change (num_batches 1000 8) with 125. rewrite (zrange_cons 0 125) by lia. cbn [map]. change (0 * 8) with 0. change (batch_len 1000 8 0) with 8. eexists. reflexivity. }
  assert (ET : exists ts, batches 1000 8 (label_batch lab : Z -> Z -> tensor T) = label_batch lab 0 8 :: ts).
  { unfold batches. change (num_batches 1000 8) with 125. rewrite (zrange_cons 0 125) by lia. cbn [map]. change (0 * 8) with 0. change (batch_len 1000 8 0) with 8. eexists. reflexivity. }
  destruct EX as (xs & ->). destruct ET as (ts & ->).
  match goal with |- context [net_train ?m _ _ _] => set (N := m) end.
  assert (HG : forall ds (f : list Z -> T), pos_dims ds -> prod ds <= INT_MAX -> good (tensor_of ds f)) by (intros; apply good_tensor_of; auto).
  assert (U : snd (net_train N (image_batch 28 28 img 0 8 :: xs) (label_batch lab 0 8 :: ts) 10) = UB).
  { apply (bn_train_undefined [8; 1; 28; 28] [8; 10] N CCE).
    - unfold N. cbn [fold_left net_add net_new n_layers n_loss n_opt n_rng app net_compile].
      apply (acc_cons _ _ _ [8; 32; 26; 26]).
      { apply fwd_layer. replace [8; 1; 28; 28] with [8; cv_ic c; 28; 28] by congruence. replace [8; 32; 26; 26] with [8; cv_oc c; 28 - cv_kh c + 1; 28 - cv_kw c + 1] by (rewrite K4, K5, K7; reflexivity).
        apply acc_conv; auto; try (rewrite ?K4, ?K5, ?K7; vm_compute; discriminate). }
      apply (acc_cons _ _ _ [8; 32; 26; 26]). { apply (fwd_bn 32); auto; [right; exists 8, 26, 26; reflexivity|vm_compute; discriminate]. }
      apply (acc_cons _ _ _ [8; 32; 26; 26]). { apply fwd_layer, acc_act. discriminate. }
      apply (acc_cons _ _ _ [8; 32; 13; 13]). { apply fwd_layer. apply (acc_pool 8 32 26 26 (pool_new 2 2 0)); [reflexivity|reflexivity|reflexivity|vm_compute; discriminate|vm_compute; discriminate]. }
      apply (acc_cons _ _ _ [8; 32; 13; 13]). { apply fwd_layer, acc_drop. reflexivity. }
      apply (acc_cons _ _ _ [8; 5408]). { apply fwd_layer. apply (acc_flat 8 32 [13; 13]). discriminate. }
      apply (acc_cons _ _ _ [8; 128]). { apply fwd_layer. apply acc_fc; auto. vm_compute. discriminate. }
      apply (acc_cons _ _ _ [8; 128]). { apply (fwd_bn 128); auto; [left; exists 8; reflexivity|vm_compute; discriminate]. }
      apply (acc_cons _ _ _ [8; 128]). { apply fwd_layer, acc_act. discriminate. }
      apply (acc_cons _ _ _ [8; 128]). { apply fwd_layer, acc_drop. reflexivity. }
      apply (acc_cons _ _ _ [8; 10]). { apply fwd_layer. apply acc_fc; auto. vm_compute. discriminate. }
      apply (acc_cons _ _ _ [8; 10]). { apply fwd_layer, acc_act. intros _. cbn. lia. }
      constructor.
    - unfold N. cbn [fold_left net_add net_new n_layers n_loss n_opt n_rng app net_compile]. apply Exists_cons_tl, Exists_cons_hd. exact I.
    - reflexivity.
    - exact HC.
    - apply HG; [split; [discriminate|repeat constructor]|vm_compute; discriminate].
    - reflexivity.
    - split; [apply HG; [split; [discriminate|repeat constructor]|vm_compute; discriminate]|]. exists 8, 10. auto.
    - lia. }
  destruct (net_train N _ _ 10) as (n1 & r). cbn [snd] in U. subst r. reflexivity.
Qed.
End Mnist.
