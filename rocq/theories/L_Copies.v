(** * Several copies of each sample in a batch do not matter to training (C138) *)
From Coq Require Import String Reals Lra Permutation.
From Verif Require Import Base Scalar ScalarR Types Spec SpecR SpecNN SpecLayers M_Shape M_Tensor M_Adv M_Act M_Loss M_Layers M_Reg M_Opt M_Net M_Text M_Log SpecNet SpecNetR SpecLog SpecBatch SpecBatchR SpecRetry SpecCopies
  L_Index L_Shape L_Bcast L_Tensor L_Reduce L_Tensor2 L_Glue L_Nest L_Matmul L_Axes L_Adv L_RSum L_AdvR L_Act L_ActR L_Layers L_LayersR L_Conv L_Loss L_Net L_Opt L_Train L_NetR L_TrainR L_Batch L_BatchR L_Avg L_Log L_Retry L_Perm.
Local Open Scope Z_scope.

Lemma copies_len : forall m N sel, 0 < N -> copies m N sel -> Zlen sel = Z.of_nat m * N.
Proof.
  intros m N sel HN HP. unfold Zlen. rewrite (Permutation_length HP). clear HP. induction m as [|m IH]; [reflexivity|]. cbn [repeat concat]. rewrite app_length, Nat2Z.inj_add, IH.
  change (Zlen (zrange 0 N) + Z.of_nat m * N = Z.of_nat (Datatypes.S m) * N). rewrite Zlen_zrange; lia.
Qed.
Lemma copies_rows : forall m N sel, 0 < N -> (0 < m)%nat -> copies m N sel -> rows_of N sel.
Proof.
  intros m N sel HN Hm HP. pose proof (copies_len m N sel HN HP) as HL. split.
  - intros ->. change (Zlen (@nil Z)) with 0 in HL. nia.
  - apply Forall_forall. intros i HI. apply (Permutation_in i HP) in HI. apply in_concat in HI. destruct HI as (l & H1 & H2). apply repeat_spec in H1. subst l. apply In_zrange in H2. lia.
Qed.
Lemma copies_sum : forall m N sel (f : Z -> R), 0 < N -> copies m N sel -> rsum (zrange 0 (Zlen sel)) (fun i => f (znth 0 sel i)) = (IZR (Z.of_nat m) * rsum (zrange 0 N) f)%R.
Proof.
  intros m N sel f HN HP. rewrite <- (rsum_map (fun i => znth 0 sel i) (zrange 0 (Zlen sel)) f). rewrite (sel_values (Zlen sel) sel eq_refl). rewrite (rsum_perm _ _ _ HP). clear HP sel.
  induction m as [|m IH]; [cbn [repeat concat]; rewrite rsum_nil; simpl; ring|]. cbn [repeat concat]. rewrite rsum_app, IH, Nat2Z.inj_succ, succ_IZR. ring.
Qed.
Lemma copies_all : forall m N sel D (f : list Z -> R), 0 < N -> (0 < m)%nat -> Forall (fun d => 0 < d) D -> copies m N sel ->
  rsum (all_indices (Zlen sel :: D)) (fun idx => f (znth 0 sel (hd 0 idx) :: tl idx)) = (IZR (Z.of_nat m) * rsum (all_indices (N :: D)) f)%R.
Proof.
  intros m N sel D f HN Hm HF HP. rewrite !rsum_all_cons by (auto; rewrite (copies_len m N sel) by auto; nia). cbn [hd tl]. exact (copies_sum m N sel (fun i => rsum (all_indices D) (fun j => f (i :: j))) HN HP).
Qed.

Section P.
Context {G : Type} {HR : Rng R G}.
Lemma gather_one : forall N sel ds (x : tensor R) i, rows_of N sel -> good x -> tdims x = N :: ds -> 0 <= i < Zlen sel -> gather [i] (gather sel x) = gather [znth 0 sel i] x.
Proof.
  intros N sel ds x i HS Gx Ex Hi. destruct (good_tail x N ds Gx Ex) as (Hn & HF & HM).
  unfold gather at 1 3. rewrite (gather_dims sel N x ds Ex), Ex. cbn [tl]. change (Zlen [i]) with 1. change (Zlen [znth 0 sel i]) with 1.
  apply tensor_of_ext; [constructor; [lia|auto]|]. intros idx HI. inversion HI as [|? j ? r Hj Hr]; subst. cbn [hd tl]. assert (j = 0) by lia. subst j. change (znth 0 [i] 0) with i. change (znth 0 [znth 0 sel i] 0) with (znth 0 sel i).
  rewrite (el_gather sel N x ds i r Ex) by auto. reflexivity.
Qed.
Section C.
Variables (m : nat) (N Q : Z) (ds D : list Z) (lo : loss).
Hypotheses (Hm : (0 < m)%nat) (HQ : Q = Z.of_nat m * N) (HX : Q * prod ds <= INT_MAX) (HY : Q * prod D <= INT_MAX).
Lemma copied_batch : forall sel (x t : tensor R), copies m N sel -> batch_for N ds D x t -> batch_for Q ds D (gather sel x) (gather sel t).
Proof.
  intros sel x t HP (Gx & Ex & Gt & Et). destruct (good_tail x N ds Gx Ex) as (HN & _). pose proof (copies_len m N sel HN HP) as HL. rewrite <- HQ in HL. pose proof (copies_rows m N sel HN Hm HP) as HS.
  split; [apply (gather_good sel N HS x ds); auto; rewrite HL; auto|].
  split; [rewrite (gather_dims sel N x ds Ex), HL; auto|]. split; [apply (gather_good sel N HS t D); auto; rewrite HL; auto|]. rewrite (gather_dims sel N t D Et), HL; auto.
Qed.
Lemma average_copies : forall sel es (f g : Z -> tensor R) a b, 0 < N -> copies m N sel -> good a -> good b -> average_of N es f a -> average_of Q es g b ->
  (forall i, 0 <= i < Q -> g i = f (znth 0 sel i)) -> a = b.
Proof.
  intros sel es f g a b HN HP Ga Gb (A1 & _ & A3) (B1 & _ & B3) HG. apply tensor_ext; auto; [congruence|]. intros idx HI. rewrite A1 in HI. rewrite (A3 idx HI), (B3 idx HI).
  pose proof (copies_len m N sel HN HP) as HL. rewrite <- HQ in HL. pose proof (copies_sum m N sel (fun i => el (f i) idx) HN HP) as E. rewrite HL in E.
  rewrite (rsum_ext (zrange 0 Q) (fun i => el (g i) idx) (fun i => el (f (znth 0 sel i)) idx)) by (intros i Hi; apply In_zrange in Hi; rewrite HG by lia; reflexivity).
  rewrite E, HQ, mult_IZR. field. split; apply not_0_IZR; lia.
Qed.
Theorem copied_gradients : forall (n : net R G) sel (x t : tensor R), row_net n lo N ds D -> row_net n lo Q ds D -> batch_for N ds D x t -> copies m N sel ->
  exists a b, gradients n x t a /\ gradients n (gather sel x) (gather sel t) b /\ same_but_inputs a b.
Proof.
  intros n sel x t HN HN' HB HP. pose proof HB as (Gx & Ex & Gt & Et). pose proof HN as (HC & _ & HL & HD). pose proof HN' as (HC' & _). destruct (good_tail x N ds Gx Ex) as (Hn & _).
  pose proof (copied_batch sel x t HP HB) as HB'. pose proof HB' as (Gx' & Ex' & Gt' & Et'). pose proof (copies_rows m N sel Hn Hm HP) as HS. pose proof (copies_len m N sel Hn HP) as HZ. rewrite <- HQ in HZ.
  destruct (batch_gradients n lo N ds D x t HN HB) as (a & u & A1 & A2 & A3). destruct (batch_gradients n lo Q ds D _ _ HN' HB') as (b & u' & B1 & B2 & B3).
  exists a, b. split; [auto|]. split; [auto|].
  destruct (gradients_bare n x t a (simple_mode _ _ _ HC) A1) as (WA & LA & OA & RA). destruct (gradients_bare n _ _ b (simple_mode _ _ _ HC) B1) as (WB & LB & OB & RB).
  destruct (gradients_armed n lo _ _ x t a HC HL Gx Ex (target_batch lo N D t Gt Et HD) A1) as (MA & PA). destruct (gradients_armed n lo _ _ _ _ b HC' HL Gx' Ex' (target_batch lo Q D _ Gt' Et' HD) B1) as (MB & PB).
  split; [|split; [congruence|split; congruence]].
  assert (LEN : List.length (n_layers b) = List.length (n_layers a)) by (rewrite <- (map_length layer_params (n_layers b)), PB, <- PA, map_length; reflexivity).
  apply nth_error_same; [rewrite !map_length; auto|]. intros k p v HU HV. rewrite nth_error_map in HU, HV. destruct (nth_error (n_layers b) k) as [lb|] eqn:NB; [|discriminate HU]. destruct (nth_error (n_layers a) k) as [la|] eqn:NA; [|discriminate HV].
  cbn [option_map] in HU, HV. injection HU as <-. injection HV as <-. apply bare_eq.
  - assert (E : option_map bare (nth_error (n_layers b) k) = option_map bare (nth_error (n_layers a) k)) by (rewrite <- !nth_error_map, WA, WB; reflexivity). rewrite NB, NA in E. cbn in E. congruence.
  - intros HNone. destruct (nth_params _ _ k lb PB NB) as (l0 & N0 & E0). destruct (layer_params lb) as [(w & bi)|] eqn:EPB; [|congruence].
    assert (EP : params_at n k = Some (w, bi)) by (unfold params_at; rewrite N0; auto).
    destruct (A3 k w bi EP) as (gw & gb & gwi & gbi & G1 & G2 & G3 & G4). destruct (B3 k w bi EP) as (gw' & gb' & gwi' & gbi' & K1 & K2 & K3 & K4).
    assert (SAME : forall i, 0 <= i < Q -> gwi' i = gwi (znth 0 sel i) /\ gbi' i = gbi (znth 0 sel i)).
    { intros i Hi. specialize (B2 i Hi). specialize (K2 i Hi). rewrite (gather_one N sel ds x i), (gather_one N sel D t i) in B2 by (auto; lia).
      pose proof (rows_nth N sel i HS) as HI. rewrite HZ in HI. specialize (HI Hi).
      rewrite (gradients_fun _ _ _ _ _ B2 (A2 _ HI)) in K2. rewrite (G2 _ HI) in K2. injection K2 as E1 E2. auto. }
    destruct (armed_grads a n k w bi gw gb MA PA EP G1) as (GG1 & GG2). destruct (armed_grads b n k w bi gw' gb' MB PB EP K1) as (GG3 & GG4).
    assert (E1 : gw = gw') by (eapply (average_copies sel); [| | | |exact G3|exact K3|]; auto; intros i Hi; apply SAME; auto).
    assert (E2 : gb = gb') by (eapply (average_copies sel); [| | | |exact G4|exact K4|]; auto; intros i Hi; apply SAME; auto).
    unfold grads_at in G1, K1. rewrite NA in G1. rewrite NB in K1. exists (gw', gb'). split; [auto|]. congruence.
Qed.
(** ** The loss *)
Theorem copied_loss : forall sel (p t : tensor R), good p -> tdims p = N :: D -> good t -> tdims t = N :: D -> (lo = CCE -> List.length D = 1%nat) -> copies m N sel ->
  loss_compute lo (gather sel p) (gather sel t) = loss_compute lo p t.
Proof.
  intros sel p t Gp Ep Gt Et HL HP. destruct (good_tail p N D Gp Ep) as (Hn & HF & HM). pose proof (copies_rows m N sel Hn Hm HP) as HS. pose proof (copies_len m N sel Hn HP) as HZ. rewrite <- HQ in HZ.
  assert (Gp' : good (gather sel p)) by (apply (gather_good sel N HS p D); auto; rewrite HZ; auto). assert (Ep' : tdims (gather sel p) = Q :: D) by (rewrite (gather_dims sel N p D Ep), HZ; auto).
  assert (Gt' : good (gather sel t)) by (apply (gather_good sel N HS t D); auto; rewrite HZ; auto). assert (Et' : tdims (gather sel t) = Q :: D) by (rewrite (gather_dims sel N t D Et), HZ; auto).
  assert (EL : forall (u : tensor R) idx, tdims u = N :: D -> in_range (Q :: D) idx -> el (gather sel u) idx = el u (znth 0 sel (hd 0 idx) :: tl idx)).
  { intros u idx Eu HI. unfold in_range in HI. assert (X : exists i r, idx = i :: r /\ 0 <= i < Q /\ in_range D r) by (inversion HI as [|? i ? r Hi Hr]; eauto).
    destruct X as (i & r & -> & Hi & Hr). cbn [hd tl]. apply (el_gather sel N u D); auto. rewrite HZ. auto. }
  assert (HQ0 : 0 < Q) by nia. assert (HM0 : IZR (Z.of_nat m) <> 0%R) by (apply not_0_IZR; lia). assert (HN0 : IZR N <> 0%R) by (apply not_0_IZR; lia).
  pose proof (prod_pos D HF) as PD. assert (HP0 : IZR (prod D) <> 0%R) by (apply not_0_IZR; lia).
  destruct lo; cbn [loss_compute].
  - rewrite !mse_compute_R by (auto; left; congruence). f_equal. apply tensor_of_ext; [repeat constructor|]. intros _ _. unfold mseR. rewrite Ep, Ep'.
    pose proof (copies_all m N sel D (fun idx => ((el p idx - el (in_shape (N :: D) t) idx) * (el p idx - el (in_shape (N :: D) t) idx))%R) Hn Hm HF HP) as E. rewrite HZ in E.
    transitivity (IZR (Z.of_nat m) * rsum (all_indices (N :: D)) (fun idx => ((el p idx - el (in_shape (N :: D) t) idx) * (el p idx - el (in_shape (N :: D) t) idx))%R) / IZR (prod (Q :: D)))%R.
    + f_equal. rewrite <- E. apply rsum_ext. intros idx HI. apply In_all_indices in HI; [|constructor; auto]. rewrite <- Et' at 1 2. rewrite <- Et. rewrite !in_shape_same by auto. rewrite !EL by auto. reflexivity.
    + change (prod (Q :: D)) with (Q * prod D). change (prod (N :: D)) with (N * prod D). rewrite HQ, !mult_IZR. field. auto.
  - specialize (HL eq_refl). destruct D as [|c [|? ?]]; try discriminate HL. rewrite (cce_compute_R p t N c), (cce_compute_R (gather sel p) (gather sel t) Q c) by auto. f_equal. apply tensor_of_ext; [repeat constructor|]. intros _ _. unfold cceR.
    pose proof (copies_all m N sel [c] (fun idx => (el t idx * ln (clampR (el p idx)))%R) Hn Hm HF HP) as E. rewrite HZ in E.
    rewrite (rsum_ext (all_indices [Q; c]) (fun idx => (el (gather sel t) idx * ln (clampR (el (gather sel p) idx)))%R) (fun idx => (el t (znth 0%Z sel (hd 0%Z idx) :: tl idx) * ln (clampR (el p (znth 0%Z sel (hd 0%Z idx) :: tl idx))))%R)).
    2:{ intros idx HI. apply In_all_indices in HI; [|constructor; auto]. rewrite !EL by auto. reflexivity. }
    rewrite E, HQ, mult_IZR. field. auto.
Qed.
(** ** One step, with any optimizer *)
Theorem copied_step : forall (n : net R G) sel (x t : tensor R) v n', row_net n lo N ds D -> row_net n lo Q ds D -> batch_for N ds D x t -> copies m N sel ->
  fit_one_loss n x t v n' -> exists n'', fit_one_loss n (gather sel x) (gather sel t) v n'' /\ same_but_inputs n' n''.
Proof.
  intros n sel x t v n' HN HN' HB HP (n1 & n2 & p & c & d & l & E1 & E2 & E3 & EV & E4 & E5 & E6). pose proof HB as (Gx & Ex & Gt & Et). pose proof HN as (HC & HNc & HL & HD). pose proof HN' as (HC' & _). destruct (good_tail x N ds Gx Ex) as (Hn & _).
  destruct (copied_gradients n sel x t HN HN' HB HP) as (a & b & A & B & S1).
  assert (EA : n2 = a) by (apply (gradients_fun n x t); [exists n1, p, l, d; auto|exact A]). subst a.
  destruct (net_update_same n2 b n' (Ok tt) S1 E6) as (n'' & EU & S2). exists n''. split; [|auto].
  destruct B as (m1 & q & l' & e & B1 & B2 & B3 & B4). rewrite HL in E2, B2. injection E2 as <-. injection B2 as <-.
  pose proof (copies_rows m N sel Hn Hm HP) as HS. pose proof (copies_len m N sel Hn HP) as HZ. rewrite <- HQ in HZ.
  destruct (predict_gather n N ds (N :: D) (Q :: D) sel x) as (k1 & k2 & y & P1 & Gy & Ey & P2 & _ & _); auto; [apply (chain_evaluates _ _ _ HC HNc)|rewrite HZ; apply (chain_evaluates _ _ _ HC' HNc)|rewrite HZ; auto|].
  rewrite E1 in P1. injection P1 as _ <-. rewrite B1 in P2. injection P2 as _ ->.
  exists m1, b, (gather sel p), c, e, lo. split; [auto|]. split; [auto|]. split; [rewrite (copied_loss sel p t) by auto; auto|]. auto.
Qed.
(** ** Whole training *)
Lemma acc_rows_same : forall es l es' k, acc_rows es l es' -> without_input l = without_input k -> acc_rows es k es'.
Proof.
  intros es l es' k (A & S0) E. split; [|destruct l, k; try discriminate E; exact S0].
  inversion A as [i j o l' W1 W2 W3 W4 HO|ds0 l' H0|i c ds0 l' H0|i h w l' W1 W2 W3 W4 H1 H2 HO|i c h w l' H1 H2 H3 H4 H5|ds0 l' HT]; subst; try (destruct S0; fail); destruct k; try discriminate E; cbn [without_input] in E.
  - destruct l' as [w b xx gw gb], l as [w1 b1 x1 gw1 gb1]. cbn in *. injection E as <- <- _ _. apply acc_fc; auto.
  - destruct l' as [f xx], l as [f1 x1]. cbn in *. injection E as <-. apply acc_act; auto.
  - apply acc_flat; auto.
Qed.
Lemma stack_same : forall es ls es', stack acc_rows es ls es' -> forall ks, map without_input ls = map without_input ks -> stack acc_rows es ks es'.
Proof.
  intros es ls es' H. induction H as [|es l em r es' A _ IH]; intros [|k ks] E; try discriminate E; [constructor|]. cbn [map] in E. injection E as E1 E2. econstructor; [eapply acc_rows_same; eauto|auto].
Qed.
Section T.
Variable DM : Z -> list Z.
Hypothesis HD : lo = CCE -> List.length D = 1%nat.
Notation able := (trainable_by acc_rows DM (N :: ds) (N :: D)).
Notation wide := (trainable_by acc_rows DM (Q :: ds) (Q :: D)).
Lemma copied_losses : forall samples samples', Forall2 (copied m N) samples samples' -> Forall (fun s => batch_for N ds D (fst s) (snd s)) samples -> forall (n k : net R G) o,
  able n lo o -> wide n lo o -> room o (Zlen samples * Zlen (n_layers n)) -> same_but_inputs n k ->
  exists vs n' k' o', fit_losses n samples vs n' /\ fit_losses k samples' vs k' /\ same_but_inputs n' k' /\ able n' lo o' /\ wide n' lo o' /\ Zlen (n_layers n') = Zlen (n_layers n) /\
    forall c, 0 <= c -> room o (c + Zlen samples * Zlen (n_layers n)) -> room o' c.
Proof.
  intros samples samples' HF. induction HF as [|s s' r r' HS HF IH]; intros HB n k o HA HW HM HI.
  - exists [], n, k, o. split; [constructor|]. split; [constructor|]. split; [auto|]. split; [auto|]. split; [auto|]. split; [auto|]. intros c _. change (Zlen (@nil (tensor R * tensor R))) with 0. rewrite Z.mul_0_l, Z.add_0_r. auto.
  - pose proof (Forall_inv HB) as B1. pose proof (Forall_inv_tail HB) as B2. destruct s as (x & t), s' as (x' & t'). cbn [fst snd] in B1. destruct HS as (sel & HP & E1 & E2). cbn [fst snd] in E1, E2. subst x' t'. pose proof B1 as (Gx & Ex & Gt & Et).
    destruct (good_tail x N ds Gx Ex) as (Hn & _). rewrite Zlen_cons in HM. pose proof (Zlen_nonneg r). pose proof (Zlen_nonneg (n_layers n)).
    assert (HM1 : room o (Zlen (n_layers n))) by (eapply room_le; [|exact HM]; nia). pose proof (copied_batch sel x t HP B1) as B1'.
    destruct (step_rows DM (N :: ds) (N :: D) n lo o x t HA HM1 counts_R Gx Ex (target_batch lo N D t Gt Et HD)) as (n1 & p & d & n2 & n' & o' & _ & _ & _ & _ & F & HA' & PD & HK & _).
    destruct (fit_one_valued _ _ _ _ F) as (v & FV). destruct (copied_step n sel x t v n' (able_row DM N ds D lo HD n o HA) (able_row DM _ ds D lo HD n o HW) B1 HP FV) as (k' & FM & SM).
    pose proof (one_same_inputs DM _ ds D lo HD n k k' o _ _ v HW HM1 B1' HI FM) as FM'. pose proof (layers_len n n' PD) as LEN.
    assert (HW' : wide n' lo o').
    { pose proof B1' as (Gx' & Ex' & Gt' & Et'). destruct (step_rows DM _ _ n lo o _ _ HW HM1 counts_R Gx' Ex' (target_batch lo _ D _ Gt' Et' HD)) as (a1 & q & e & a2 & a' & oa & P1 & P2 & P3 & P4 & FA & (WA & _) & _).
      destruct (fit_one_valued _ _ _ _ FA) as (va & FVA). assert (EQ : a' = k').
      { destruct FM as (b1 & b2 & bp & bc & bd & bl & F1 & F2 & F3 & F4 & F5 & F6 & F7). rewrite P1 in F1. injection F1 as <- <-. assert (HLo : n_loss n = Some lo) by apply HA. rewrite HLo in F2. injection F2 as <-. rewrite P2 in F5. injection F5 as <-. rewrite P3 in F6. injection F6 as <-. rewrite P4 in F7. congruence. }
      subst a'. destruct HA' as (_ & L1 & L2 & L3 & L4). split; [|auto]. destruct SM as (SL & _). eapply stack_same; [exact WA|]. congruence. }
    destruct (IH B2 n' k' o' HA' HW') as (vs & nn & mm & oo & H1 & H2 & H3 & H4 & H5 & H6 & H7); [rewrite LEN; apply HK; [nia|]; eapply room_le; [|exact HM]; nia|auto|].
    exists (v :: vs), nn, mm, oo. split; [econstructor; eauto|]. split; [econstructor; eauto|]. split; [auto|]. split; [auto|]. split; [auto|]. split; [congruence|].
    intros c HK0 HRm. apply H7; [auto|]. rewrite LEN. apply HK; [nia|]. rewrite Zlen_cons in HRm. eapply room_le; [|exact HRm]. nia.
Qed.
Lemma copied_epochs : forall samples samples', Forall2 (copied m N) samples samples' -> Forall (fun s => batch_for N ds D (fst s) (snd s)) samples -> forall e (n k : net R G) o,
  able n lo o -> wide n lo o -> room o (Z.of_nat e * Zlen samples * Zlen (n_layers n)) -> same_but_inputs n k ->
  exists lss n' k', fit_epochs samples n lss n' /\ fit_epochs samples' k lss k' /\ List.length lss = e /\ same_but_inputs n' k'.
Proof.
  intros samples samples' HF HB. induction e as [|e IH]; intros n k o HA HW HM HI.
  - exists [], n, k. split; [constructor|]. split; [constructor|]. auto.
  - pose proof (Zlen_nonneg samples). pose proof (Zlen_nonneg (n_layers n)). assert (0 <= Zlen samples * Zlen (n_layers n)) by nia.
    destruct (copied_losses samples samples' HF HB n k o HA HW) as (vs & n1 & m1 & o1 & J1 & J2 & J3 & J4 & J5 & J6 & J7); [eapply room_le; [|exact HM]; nia|auto|].
    destruct (IH n1 m1 o1 J4 J5) as (lss & nn & mm & K1 & K2 & K3 & K4); [rewrite J6; apply J7; [nia|]; eapply room_le; [|exact HM]; nia|auto|].
    exists (vs :: lss), nn, mm. split; [econstructor; eauto|]. split; [econstructor; eauto|]. split; [cbn; congruence|auto].
Qed.
End T.
End C.
Theorem copied_training : forall (show : R -> string) (n : net R G) lo o m N ds D samples samples' e, (0 < m)%nat -> row_net n lo N ds D -> row_net n lo (Z.of_nat m * N) ds D ->
  Z.of_nat m * N * prod ds <= INT_MAX -> Z.of_nat m * N * prod D <= INT_MAX -> n_opt n = Some o -> new_optim o ->
  samples <> [] -> Forall (fun s => batch_for N ds D (fst s) (snd s)) samples -> Forall2 (copied m N) samples samples' -> 0 <= e -> e * Zlen samples * Zlen (n_layers n) <= INT_MAX ->
  exists n' n'' out, net_train_report show n (map fst samples) (map snd samples) e = ((n', out), Ok tt) /\
    net_train_report show n (map fst samples') (map snd samples') e = ((n'', out), Ok tt) /\ same_but_inputs n' n''.
Proof.
  intros show n lo o m N ds D samples samples' e Hm HR1 HR2 HX HY HO HNew HNE HB HS He HM. pose proof HR1 as (HC & HN & HL & HD). pose proof HR2 as (HC2 & _).
  destruct samples as [|(x & t) r] eqn:ES; [congruence|]. rewrite <- ES in *. assert (B1 : batch_for N ds D x t) by (rewrite ES in HB; inversion HB; auto).
  assert (B2 : exists x' t', batch_for (Z.of_nat m * N) ds D x' t').
  { rewrite ES in HS. inversion HS as [|? s' ? r' HQ _]; subst. destruct HQ as (sel & HP & _). exists (gather sel x), (gather sel t). apply (copied_batch m N _ ds D Hm eq_refl HX HY); auto. }
  destruct B1 as (Gx & Ex & _). destruct B2 as (x2 & t2 & Gx2 & Ex2 & _).
  assert (HA : trainable_by acc_rows (fun k => dims_map (n_layers n) (k - 2 * 0)) (N :: ds) (N :: D) n lo o).
  { split; [apply rows_stack; auto; apply chain_accepts; auto; rewrite <- Ex; [apply good_pos|apply good_max]; auto|]. split; [auto|]. split; [auto|]. split; [apply dims_map_at|apply new_ready; auto]. }
  assert (HW : trainable_by acc_rows (fun k => dims_map (n_layers n) (k - 2 * 0)) (Z.of_nat m * N :: ds) (Z.of_nat m * N :: D) n lo o).
  { split; [apply rows_stack; [apply chain_accepts; [exact HC2|rewrite <- Ex2; apply good_pos; auto|rewrite <- Ex2; apply good_max; auto]|exact HC2|exact HN]|]. split; [auto|]. split; [auto|]. split; [apply dims_map_at|apply new_ready; auto]. }
  destruct (copied_epochs m N _ ds D lo Hm eq_refl HX HY _ HD samples samples' HS HB (Z.to_nat e) n n o HA HW) as (lss & n' & n'' & F1 & F2 & F3 & F4); [apply new_room; auto; rewrite Z2Nat.id by lia; auto|apply same_refl|].
  assert (LS : Zlen samples' = Zlen samples) by (clear - HS; induction HS as [|a b l l' _ _ IH]; [reflexivity|]; rewrite !Zlen_cons, IH; reflexivity).
  assert (POS : 0 < Zlen samples) by (rewrite ES, Zlen_cons; pose proof (Zlen_nonneg r); lia).
  exists n', n'', (report_from show 0 (map average lss)). split; [|split; [|auto]]; apply train_report.
  - unfold Zlen. rewrite !map_length. lia.
  - apply IZR_pos_neq. unfold Zlen in *. rewrite map_length. lia.
  - exists lss. rewrite combine_pairs. auto.
  - unfold Zlen. rewrite !map_length. lia.
  - apply IZR_pos_neq. unfold Zlen in *. rewrite map_length. lia.
  - exists lss. rewrite combine_pairs. auto.
Qed.
End P.

(** ** Where copies do matter: a convolution, one image of one pixel, 1, target 0, once and twice. *)
Theorem conv_copies : forall {G} {HR : Rng R G} (g : G), exists (n : net R G) (x t : tensor R) sel a b gw gb gw' gb',
  n_loss n = Some MSE /\ (exists l, n_layers n = [LConv l]) /\ good x /\ tdims x = [1; 1; 1; 1] /\ good t /\ tdims t = [1; 1; 1; 1] /\ copies 2 1 sel /\
  gradients n x t a /\ gradients n (gather sel x) (gather sel t) b /\ grads_at a 0 = Some (gw, gb) /\ grads_at b 0 = Some (gw', gb') /\ tdims gw = tdims gw' /\ gw <> gw'.
Proof.
  intros G HR g. destruct (conv1_gradient g 1 (fun _ => 1%R) ltac:(lia)) as (a & gw & gb & A1 & A2 & A3 & A4). destruct (conv1_gradient g 2 (fun _ => 1%R) ltac:(lia)) as (b & gw' & gb' & B1 & B2 & B3 & B4).
  assert (HS : copies 2 1 [0; 0]) by (unfold copies; apply Permutation_refl).
  assert (HG : forall c, gather [0; 0] (one4 1 (fun _ => c)) = one4 2 (fun _ => c)).
  { intros c. unfold one4. rewrite (gather_of [0; 0] 1) by (try (apply (copies_rows 2 1 [0; 0]); [lia|lia|exact HS]); repeat (apply Forall_cons; [lia|]); apply Forall_nil). reflexivity. }
  exists (convnet g), (one4 1 (fun _ => 1%R)), (one4 1 (fun _ => 0%R)), [0; 0], a, b, gw, gb, gw', gb'. split; [reflexivity|]. split; [eexists; reflexivity|]. split; [apply one4_good; lia|]. split; [reflexivity|].
  split; [apply one4_good; lia|]. split; [reflexivity|]. split; [exact HS|]. split; [exact A1|]. split; [rewrite !HG; exact B1|].
  split; [exact A2|]. split; [exact B2|]. split; [congruence|]. intros ->. rewrite A4 in B4. lra.
Qed.
