(** * The order of the samples in a batch does not matter to training (C116) *)
From Coq Require Import String Reals Lra Permutation.
From Verif Require Import Base Scalar ScalarR Types Spec SpecR SpecNN SpecLayers M_Shape M_Tensor M_Adv M_Act M_Loss M_Layers M_Reg M_Opt M_Net M_Text M_Log SpecNet SpecNetR SpecLog SpecBatch SpecBatchR SpecRetry
  L_Index L_Shape L_Bcast L_Tensor L_Reduce L_Tensor2 L_Glue L_Nest L_Matmul L_Axes L_Adv L_RSum L_AdvR L_Act L_ActR L_Layers L_LayersR L_Conv L_Loss L_Net L_Opt L_Train L_NetR L_TrainR L_Batch L_BatchR L_Avg L_Log L_Retry.
Local Open Scope Z_scope.

(** ** Updating layers that differ in their remembered inputs *)
Section U.
Context {T : Type} {S : Scalar T} {G : Type} {HR : Rng T G}.
Lemma layer_update_same : forall i (l k : layer T) o l' o' r, without_input l = without_input k -> layer_update i l o = (l', o', r) ->
  exists k', layer_update i k o = (k', o', r) /\ without_input l' = without_input k'.
Proof.
  intros i l k o l' o' r E H. destruct l as [l|l|l|l|l|l|l], k as [k|k|k|k|k|k|k]; try discriminate E; cbn [layer_update] in H |- *; try (injection H as <- <- <-; eexists; split; [reflexivity|]; exact E).
  - destruct l as [w b x gw gb], k as [kw kb kx kgw kgb]. cbn in E, H |- *. injection E as -> -> -> ->. destruct kgw as [gw|], kgb as [gb|]; try (injection H as <- <- <-; eexists; split; reflexivity).
    destruct (pair_optimize o i kw kb gw gb) as (((o1 & w1) & b1) & r1). injection H as <- <- <-. eexists. split; reflexivity.
  - destruct l as [w b x gw gb ic oc kh kw st pd dl], k as [w' b' x' gw' gb' ic' oc' kh' kw' st' pd' dl']. cbn in E, H |- *. injection E as -> -> -> -> -> -> -> -> -> -> ->.
    destruct gw' as [gw|], gb' as [gb|]; try (injection H as <- <- <-; eexists; split; reflexivity).
    destruct (pair_optimize o i w' b' gw gb) as (((o1 & w1) & b1) & r1). injection H as <- <- <-. eexists. split; reflexivity.
  - injection E as ->. rewrite H. eexists. split; reflexivity.
Qed.
Lemma update_all_same : forall (ls ks : list (layer T)) i o ls' o' r, map without_input ls = map without_input ks -> update_all i ls o = (ls', o', r) ->
  exists ks', update_all i ks o = (ks', o', r) /\ map without_input ls' = map without_input ks'.
Proof.
  induction ls as [|l ls IH]; intros [|k ks] i o ls' o' r E H; try discriminate E; cbn [update_all] in H |- *; [injection H as <- <- <-; exists []; auto|].
  cbn [map] in E. injection E as E1 E2. destruct (layer_update i l o) as ((l1 & o1) & r1) eqn:EL. destruct (layer_update_same i l k o l1 o1 r1 E1 EL) as (k1 & EK & W). rewrite EK.
  destruct r1 as [u| | | |]; try (injection H as <- <- <-; eexists; split; [reflexivity|cbn [map]; congruence]).
  destruct (update_all (i + 1) ls o1) as ((ls1 & o2) & r2) eqn:EU. injection H as <- <- <-. destruct (IH ks (i + 1) o1 ls1 o2 r2 E2 EU) as (ks1 & EK2 & W2). rewrite EK2.
  eexists. split; [reflexivity|]. cbn [map]. congruence.
Qed.
Lemma net_update_same : forall (a b a' : net T G) r, same_but_inputs a b -> net_update a = (a', r) -> exists b', net_update b = (b', r) /\ same_but_inputs a' b'.
Proof.
  intros a b a' r (E1 & E2 & E3 & E4) H. unfold net_update in *. destruct (n_layers a) as [|l ls] eqn:EA, (n_layers b) as [|k ks] eqn:EB; try discriminate E1.
  - injection H as <- <-. exists b. split; [auto|]. split; [rewrite EA, EB; auto|auto].
  - rewrite E3. destruct (n_opt a) as [o|] eqn:EO; [|injection H as <- <-; exists b; split; [auto|]; split; [rewrite EA, EB; auto|split; [auto|split; [congruence|auto]]]].
    destruct (update_all 0 (l :: ls) o) as ((ls' & o') & r') eqn:EU. injection H as <- <-. destruct (update_all_same _ (k :: ks) 0 o ls' o' r' (eq_sym E1) EU) as (ks' & EK & W). rewrite EK.
    eexists. split; [reflexivity|]. split; [cbn [n_layers]; auto|]. cbn [n_loss n_opt n_rng]. auto.
Qed.
Lemma same_sym : forall a b : net T G, same_but_inputs a b -> same_but_inputs b a.
Proof. intros a b (A & B & C & D). split; [auto|]. split; [auto|]. split; auto. Qed.
(** Everything but inputs and gradients. *)
Definition bare (l : layer T) : layer T := without_input (without_grads l).
Lemma bare_input : forall ls ks : list (layer T), map without_input ls = map without_input ks -> map bare ls = map bare ks.
Proof.
  induction ls as [|l ls IH]; intros [|k ks] E; try discriminate E; [reflexivity|]. cbn [map] in *. injection E as E1 E2. f_equal; [|auto].
  destruct l, k; try discriminate E1; unfold bare; cbn in E1 |- *; congruence.
Qed.
Lemma bare_grads : forall ls ks : list (layer T), map without_grads ls = map without_grads ks -> map bare ls = map bare ks.
Proof. intros ls ks E. unfold bare. rewrite <- !(map_map without_grads without_input), E. reflexivity. Qed.
Lemma bare_eq : forall l k : layer T, bare l = bare k -> (layer_params l <> None -> exists g, layer_grads l = Some g /\ layer_grads k = Some g) -> without_input l = without_input k.
Proof.
  intros l k E H. destruct l as [l|l|l|l|l|l|l], k as [k|k|k|k|k|k|k]; try discriminate E; try exact E; destruct (H ltac:(discriminate)) as (g & H1 & H2); cbn in H1, H2; unfold bare in E; cbn in E |- *.
  - destruct (fc_gw l), (fc_gb l); try discriminate H1. destruct (fc_gw k), (fc_gb k); try discriminate H2. congruence.
  - destruct (cv_gw l), (cv_gb l); try discriminate H1. destruct (cv_gw k), (cv_gb k); try discriminate H2. congruence.
  - destruct l as [a1 a2 a3 a4 a5 a6 a7 a8 a9 a10 a11 a12 a13], k as [b1 b2 b3 b4 b5 b6 b7 b8 b9 b10 b11 b12 b13]. cbn in *.
    destruct a11, a12; try discriminate H1. destruct b11, b12; try discriminate H2. congruence.
Qed.
Lemma gradients_bare : forall (n : net T G) x t a, Forall (fun l => layer_mode l = None) (n_layers n) -> gradients n x t a ->
  map bare (n_layers a) = map bare (n_layers n) /\ n_loss a = n_loss n /\ n_opt a = n_opt n /\ n_rng a = n_rng n.
Proof.
  intros n x t a HF (n1 & p & l & d & E1 & _ & _ & E4).
  destruct (predict_eval n x) as (n1' & o & E & (W1 & W2 & W3 & W4)); [eapply Forall_impl; [|exact HF]; intros k HK; left; exact HK|]. rewrite E1 in E. injection E as <- _.
  unfold net_backward in E4. pose proof (backward_keeps (n_layers n1) d) as HK. destruct (backward_all (n_layers n1) d) as (ls & o'). cbn [fst] in HK. destruct o' as [y| | | |]; try discriminate E4. cbn [step] in E4. injection E4 as <-.
  cbn [net_with n_layers n_loss n_opt n_rng]. split; [|auto]. rewrite (bare_grads _ _ HK). apply bare_input. auto.
Qed.
Lemma nth_error_same : forall {A} (a b : list A), List.length a = List.length b -> (forall k x y, nth_error a k = Some x -> nth_error b k = Some y -> x = y) -> a = b.
Proof.
  intros A. induction a as [|x a IH]; intros [|y b] HL H; try discriminate HL; [reflexivity|]. f_equal; [apply (H 0%nat); reflexivity|]. apply IH; [cbn in HL; lia|]. intros k u v H1 H2. apply (H (Datatypes.S k) u v); auto.
Qed.
End U.

(** ** Reorderings *)
Lemma reordering_rows : forall N sel, 0 < N -> reordering N sel -> rows_of N sel /\ Zlen sel = N.
Proof.
  intros N sel HN HP. unfold reordering in HP. assert (HL : Zlen sel = N) by (unfold Zlen; rewrite (Permutation_length HP); change (Zlen (zrange 0 N) = N); rewrite Zlen_zrange; lia).
  split; [split|auto].
  - intros ->. change (Zlen (@nil Z)) with 0 in HL. lia.
  - apply Forall_forall. intros i HI. apply (Permutation_in i HP) in HI. apply In_zrange in HI. lia.
Qed.
Lemma sel_values : forall N sel, Zlen sel = N -> map (fun i => znth 0 sel i) (zrange 0 N) = sel.
Proof. intros N sel <-. pose proof (ztab_map 0 (fun x => x) sel) as H. unfold ztab in H. rewrite H. apply map_id. Qed.
Lemma reordering_sum : forall N sel (f : Z -> R), 0 < N -> reordering N sel -> rsum (zrange 0 N) (fun i => f (znth 0 sel i)) = rsum (zrange 0 N) f.
Proof.
  intros N sel f HN HP. destruct (reordering_rows N sel HN HP) as (_ & HL). rewrite <- (rsum_map (fun i => znth 0 sel i) (zrange 0 N) f). rewrite (sel_values N sel HL). apply rsum_perm. exact HP.
Qed.
Lemma reordering_all : forall N sel D (f : list Z -> R), 0 < N -> Forall (fun d => 0 < d) D -> reordering N sel ->
  rsum (all_indices (N :: D)) (fun idx => f (znth 0 sel (hd 0 idx) :: tl idx)) = rsum (all_indices (N :: D)) f.
Proof.
  intros N sel D f HN HF HP. rewrite !rsum_all_cons by auto. cbn [hd tl]. exact (reordering_sum N sel (fun i => rsum (all_indices D) (fun j => f (i :: j))) HN HP).
Qed.

Section P.
Context {G : Type} {HR : Rng R G}.
Lemma gather_gather : forall N sel ds (x : tensor R) i, reordering N sel -> good x -> tdims x = N :: ds -> 0 <= i < N -> gather [i] (gather sel x) = gather [znth 0 sel i] x.
Proof.
  intros N sel ds x i HP Gx Ex Hi. destruct (good_tail x N ds Gx Ex) as (Hn & HF & HM). destruct (reordering_rows N sel Hn HP) as (HS & HL).
  unfold gather at 1 3. rewrite (gather_dims sel N x ds Ex), Ex. cbn [tl]. change (Zlen [i]) with 1. change (Zlen [znth 0 sel i]) with 1.
  apply tensor_of_ext; [constructor; [lia|auto]|]. intros idx HI. inversion HI as [|? j ? r Hj Hr]; subst. cbn [hd tl]. assert (j = 0) by lia. subst j. change (znth 0 [i] 0) with i. change (znth 0 [znth 0 sel i] 0) with (znth 0 sel i).
  rewrite (el_gather sel (Zlen sel) x ds i r Ex) by (auto; lia). reflexivity.
Qed.
Lemma reordered_batch : forall N sel ds D (x t : tensor R), 0 < N -> reordering N sel -> batch_for N ds D x t -> batch_for N ds D (gather sel x) (gather sel t).
Proof.
  intros N sel ds D x t HN HP (Gx & Ex & Gt & Et). destruct (reordering_rows N sel HN HP) as (HS & HL). split; [apply (gather_good sel N HS x ds); auto; rewrite HL, <- Ex; apply good_max; auto|].
  split; [rewrite (gather_dims sel N x ds Ex), HL; auto|]. split; [apply (gather_good sel N HS t D); auto; rewrite HL, <- Et; apply good_max; auto|]. rewrite (gather_dims sel N t D Et), HL; auto.
Qed.
Lemma average_same : forall N sel ds (f g : Z -> tensor R) a b, 0 < N -> reordering N sel -> good a -> good b -> average_of N ds f a -> average_of N ds g b ->
  (forall i, 0 <= i < N -> g i = f (znth 0 sel i)) -> a = b.
Proof.
  intros N sel ds f g a b HN HP Ga Gb (A1 & _ & A3) (B1 & _ & B3) HG. apply tensor_ext; auto; [congruence|]. intros idx HI. rewrite A1 in HI. rewrite (A3 idx HI), (B3 idx HI). f_equal.
  rewrite <- (reordering_sum N sel (fun i => el (f i) idx) HN HP). apply rsum_ext. intros i Hi. apply In_zrange in Hi. rewrite HG by lia. reflexivity.
Qed.
Lemma simple_mode : forall ds ls D, chain ds ls D -> Forall (fun l => layer_mode l = None) ls.
Proof. intros ds ls D H. induction H as [|ds l ds' r ds'' F _ IH]; constructor; auto. destruct F; reflexivity. Qed.
Lemma gradients_armed : forall (n : net R G) lo ds D (x t : tensor R) a, chain ds (n_layers n) D -> n_loss n = Some lo -> good x -> tdims x = ds -> target_fits lo D t -> gradients n x t a ->
  Forall armed (n_layers a) /\ map layer_params (n_layers a) = map layer_params (n_layers n).
Proof.
  intros n lo ds D x t a HC HL Gx Ex HT (n1 & p & l & d & E1 & E2 & E3 & E4). rewrite HL in E2. injection E2 as <-.
  assert (HA : accepts_all ds (n_layers n) D) by (apply chain_accepts; auto; rewrite <- Ex; [apply good_pos|apply good_max]; auto).
  destruct (stack_chain accepts eq accepts_step' (n_layers n) ds D x (n_rng n) HA Gx Ex) as (ls1 & g' & y & F1 & Gy & Ey & HB).
  unfold net_predict in E1. rewrite F1 in E1. injection E1 as <- <-. destruct (loss_total lo D y t counts_R Gy Ey HT) as (_ & d' & L1 & Gd & Ed). rewrite L1 in E3. injection E3 as <-.
  destruct (HB d' Gd (eq_sym Ed)) as (ls2 & gx & B1 & _ & _ & _ & B2 & B3). unfold net_backward in E4. cbn [n_layers] in E4. rewrite B1 in E4. cbn [step] in E4. injection E4 as <-. cbn [net_with n_layers]. auto.
Qed.
Lemma nth_params : forall (a n : list (layer R)) k l, map layer_params a = map layer_params n -> nth_error a k = Some l -> exists l0, nth_error n k = Some l0 /\ layer_params l0 = layer_params l.
Proof.
  intros a n k l E H. assert (E5 : option_map layer_params (nth_error a k) = option_map layer_params (nth_error n k)) by (rewrite <- !nth_error_map, E; reflexivity).
  rewrite H in E5. cbn in E5. destruct (nth_error n k) as [l0|]; [|discriminate E5]. exists l0. split; [auto|]. cbn in E5. congruence.
Qed.
Lemma armed_grads : forall (a n : net R G) k w b gw gb, Forall armed (n_layers a) -> map layer_params (n_layers a) = map layer_params (n_layers n) -> params_at n k = Some (w, b) -> grads_at a k = Some (gw, gb) -> good gw /\ good gb.
Proof.
  intros a n k w b gw gb HA HP EP EG. unfold grads_at in EG. destruct (nth_error (n_layers a) k) as [l|] eqn:EN; [|discriminate EG]. destruct (nth_params _ _ k l HP EN) as (l0 & E0 & E1).
  unfold params_at in EP. rewrite E0, E1 in EP. rewrite Forall_forall in HA. specialize (HA l (nth_error_In _ _ EN)). unfold armed in HA. rewrite EP in HA. destruct HA as (_ & _ & gw' & gb' & H1 & H2 & _ & H3 & _). split; congruence.
Qed.
Theorem reordered_gradients : forall (n : net R G) lo N ds D sel (x t : tensor R), row_net n lo N ds D -> batch_for N ds D x t -> reordering N sel ->
  exists a b, gradients n x t a /\ gradients n (gather sel x) (gather sel t) b /\ same_but_inputs a b.
Proof.
  intros n lo N ds D sel x t HN HB HP. pose proof HB as (Gx & Ex & Gt & Et). pose proof HN as (HC & _ & HL & HD). destruct (good_tail x N ds Gx Ex) as (Hn & _).
  pose proof (reordered_batch N sel ds D x t Hn HP HB) as HB'. pose proof HB' as (Gx' & Ex' & Gt' & Et').
  destruct (batch_gradients n lo N ds D x t HN HB) as (a & m & A1 & A2 & A3). destruct (batch_gradients n lo N ds D _ _ HN HB') as (b & m' & B1 & B2 & B3).
  exists a, b. split; [auto|]. split; [auto|].
  destruct (gradients_bare n x t a (simple_mode _ _ _ HC) A1) as (WA & LA & OA & RA). destruct (gradients_bare n _ _ b (simple_mode _ _ _ HC) B1) as (WB & LB & OB & RB).
  destruct (gradients_armed n lo _ _ x t a HC HL Gx Ex (target_batch lo N D t Gt Et HD) A1) as (MA & PA). destruct (gradients_armed n lo _ _ _ _ b HC HL Gx' Ex' (target_batch lo N D _ Gt' Et' HD) B1) as (MB & PB).
  split; [|split; [congruence|split; congruence]].
  assert (LEN : List.length (n_layers b) = List.length (n_layers a)) by (rewrite <- (map_length layer_params (n_layers b)), PB, <- PA, map_length; reflexivity).
  apply nth_error_same; [rewrite !map_length; auto|]. intros k u v HU HV. rewrite nth_error_map in HU, HV. destruct (nth_error (n_layers b) k) as [lb|] eqn:NB; [|discriminate HU]. destruct (nth_error (n_layers a) k) as [la|] eqn:NA; [|discriminate HV].
  cbn [option_map] in HU, HV. injection HU as <-. injection HV as <-. apply bare_eq.
  - assert (E : option_map bare (nth_error (n_layers b) k) = option_map bare (nth_error (n_layers a) k)) by (rewrite <- !nth_error_map, WA, WB; reflexivity). rewrite NB, NA in E. cbn in E. congruence.
  - intros HNone. destruct (nth_params _ _ k lb PB NB) as (l0 & N0 & E0). destruct (layer_params lb) as [(w & bi)|] eqn:EPB; [|congruence].
    assert (EP : params_at n k = Some (w, bi)) by (unfold params_at; rewrite N0; auto).
    destruct (A3 k w bi EP) as (gw & gb & gwi & gbi & G1 & G2 & G3 & G4). destruct (B3 k w bi EP) as (gw' & gb' & gwi' & gbi' & K1 & K2 & K3 & K4).
    assert (SAME : forall i, 0 <= i < N -> gwi' i = gwi (znth 0 sel i) /\ gbi' i = gbi (znth 0 sel i)).
    { intros i Hi. specialize (B2 i Hi). specialize (K2 i Hi). rewrite (gather_gather N sel ds x i), (gather_gather N sel D t i) in B2 by auto.
      pose proof (rows_nth N sel i (proj1 (reordering_rows N sel Hn HP))) as HI. rewrite (proj2 (reordering_rows N sel Hn HP)) in HI. specialize (HI Hi).
      rewrite (gradients_fun _ _ _ _ _ B2 (A2 _ HI)) in K2. rewrite (G2 _ HI) in K2. injection K2 as E1 E2. auto. }
    destruct (armed_grads a n k w bi gw gb MA PA EP G1) as (GG1 & GG2). destruct (armed_grads b n k w bi gw' gb' MB PB EP K1) as (GG3 & GG4).
    assert (E1 : gw = gw') by (eapply (average_same N sel); [| | | |exact G3|exact K3|]; auto; intros i Hi; apply SAME; auto).
    assert (E2 : gb = gb') by (eapply (average_same N sel); [| | | |exact G4|exact K4|]; auto; intros i Hi; apply SAME; auto).
    unfold grads_at in G1, K1. rewrite NA in G1. rewrite NB in K1. exists (gw', gb'). split; [auto|]. congruence.
Qed.
(** ** The loss *)
Theorem reordered_loss : forall lo N D sel (p t : tensor R), good p -> tdims p = N :: D -> good t -> tdims t = N :: D -> (lo = CCE -> List.length D = 1%nat) -> reordering N sel ->
  loss_compute lo (gather sel p) (gather sel t) = loss_compute lo p t.
Proof.
  intros lo N D sel p t Gp Ep Gt Et HL HP. destruct (good_tail p N D Gp Ep) as (Hn & HF & HM). destruct (reordering_rows N sel Hn HP) as (HS & HZ).
  destruct (reordered_batch N sel D D p t Hn HP (conj Gp (conj Ep (conj Gt Et)))) as (Gp' & Ep' & Gt' & Et').
  assert (EL : forall (u : tensor R) idx, tdims u = N :: D -> in_range (N :: D) idx -> el (gather sel u) idx = el u (znth 0 sel (hd 0 idx) :: tl idx)).
  { intros u idx Eu HI. inversion HI as [|? i ? r Hi Hr]; subst. cbn [hd tl]. apply (el_gather sel (Zlen sel) u D); auto. }
  destruct lo; cbn [loss_compute].
  - rewrite !mse_compute_R by (auto; left; congruence). f_equal. apply tensor_of_ext; [repeat constructor|]. intros _ _. unfold mseR. rewrite Ep, Ep'. f_equal.
    rewrite <- (reordering_all N sel D (fun idx => ((el p idx - el (in_shape (N :: D) t) idx) * (el p idx - el (in_shape (N :: D) t) idx))%R) Hn HF HP).
    apply rsum_ext. intros idx HI. apply In_all_indices in HI; [|constructor; auto]. rewrite <- Et' at 1 2. rewrite <- Et. rewrite !in_shape_same by auto. rewrite !EL by auto. reflexivity.
  - specialize (HL eq_refl). destruct D as [|c [|? ?]]; try discriminate HL. rewrite !(cce_compute_R _ _ N c) by auto. f_equal. apply tensor_of_ext; [repeat constructor|]. intros _ _. unfold cceR. f_equal. f_equal.
    rewrite <- (reordering_all N sel [c] (fun idx => (el t idx * ln (clampR (el p idx)))%R) Hn HF HP).
    apply rsum_ext. intros idx HI. apply In_all_indices in HI; [|constructor; auto]. rewrite !EL by auto. reflexivity.
Qed.
(** ** One step, with any optimizer *)
Lemma chain_evaluates : forall ds ls D, chain ds ls D -> Forall (fun l => is_conv l = false) ls -> evaluates_all ds ls D.
Proof.
  intros ds ls D H. induction H as [|ds l ds' r ds'' F _ IH]; intros HF; [constructor|]. inversion HF; subst. econstructor; [apply fits_evaluates; eauto|]. apply IH. auto.
Qed.
Theorem reordered_step : forall (n : net R G) lo N ds D sel (x t : tensor R) v n', row_net n lo N ds D -> batch_for N ds D x t -> reordering N sel ->
  fit_one_loss n x t v n' -> exists n'', fit_one_loss n (gather sel x) (gather sel t) v n'' /\ same_but_inputs n' n''.
Proof.
  intros n lo N ds D sel x t v n' HN HB HP (n1 & n2 & p & c & d & l & E1 & E2 & E3 & EV & E4 & E5 & E6). pose proof HB as (Gx & Ex & Gt & Et). pose proof HN as (HC & HNc & HL & HD). destruct (good_tail x N ds Gx Ex) as (Hn & _).
  destruct (reordered_gradients n lo N ds D sel x t HN HB HP) as (a & b & A & B & S1).
  assert (EA : n2 = a) by (apply (gradients_fun n x t); [exists n1, p, l, d; auto|exact A]). subst a.
  destruct (net_update_same n2 b n' (Ok tt) S1 E6) as (n'' & EU & S2). exists n''. split; [|auto].
  destruct B as (m1 & q & l' & e & B1 & B2 & B3 & B4). rewrite HL in E2, B2. injection E2 as <-. injection B2 as <-.
  destruct (reordering_rows N sel Hn HP) as (HS & HZ).
  destruct (predict_rows n N ds (N :: D) sel x (chain_evaluates _ _ _ HC HNc) Gx Ex HS) as (k1 & k2 & y & P1 & Gy & Ey & P2); [lia|]. rewrite E1 in P1. injection P1 as _ <-. rewrite B1 in P2. injection P2 as _ ->.
  exists m1, b, (gather sel p), c, e, lo. split; [auto|]. split; [auto|]. split; [rewrite (reordered_loss lo N D sel p t) by auto; auto|]. auto.
Qed.
(** ** Any number of epochs *)
Definition simple (l : layer R) : Prop := match l with LFC _ | LAct _ | LFlat _ => True | _ => False end.
Definition acc_rows (ds : list Z) (l : layer R) (ds' : list Z) : Prop := accepts ds l ds' /\ simple l.
Lemma simple_fits : forall ds l ds', acc_rows ds l ds' -> fits ds l ds' /\ is_conv l = false.
Proof.
  intros ds l ds' (HA & HS). inversion HA as [n k o l' W1 W2 W3 W4 HO|ds0 l' HX|b c ds0 l' HX|n h w l' W1 W2 W3 W4 H1 H2 HO|n c h w l' H1 H2 H3 H4 H5|ds0 l' HT]; subst; try (destruct HS; fail); (split; [|reflexivity]).
  - apply fits_fc; auto.
  - assert (NS : al_act l' = Softmax \/ al_act l' <> Softmax) by (destruct (al_act l'); auto; right; discriminate). destruct NS as [EA|NS]; [|apply fits_act; auto].
    specialize (HX EA). destruct ds' as [|b [|d r]]; cbn in HX; try lia. apply fits_softmax; [auto|discriminate].
  - apply fits_flat; auto.
Qed.
Lemma stack_rows : forall ds ls ds', stack acc_rows ds ls ds' -> chain ds ls ds' /\ Forall (fun l => is_conv l = false) ls.
Proof.
  intros ds ls ds' H. induction H as [|ds l dm r ds' F _ (IH1 & IH2)]; [split; constructor|]. destruct (simple_fits _ _ _ F) as (F1 & F2). split; [econstructor; eauto|constructor; auto].
Qed.
Lemma rows_stack : forall ds ls ds', accepts_all ds ls ds' -> chain ds ls ds' -> Forall (fun l => is_conv l = false) ls -> stack acc_rows ds ls ds'.
Proof.
  intros ds ls ds' HA HC HF. assert (HS : Forall simple ls).
  { clear HA. revert HF. induction HC as [|ds l dm r ds' F _ IH]; intros HF; [constructor|]. inversion HF; subst. constructor; [|auto]. destruct F; try exact I. discriminate. }
  clear HC HF. induction HA as [|ds l dm r ds' A _ IH]; [constructor|]. inversion HS; subst. econstructor; [split; eauto|]. auto.
Qed.
Lemma acc_rows_step : forall ds l ds' (x : tensor R) (g : G), acc_rows ds l ds' -> good x -> tdims x = ds ->
  exists l1 g' y, layer_forward l x g = (l1, g', Ok y) /\ good y /\ tdims y = ds' /\
    forall d : tensor R, good d -> ds' = tdims d -> exists l2 gx, layer_backward l1 d = (l2, Ok gx) /\ good gx /\ ds = tdims gx /\
      acc_rows ds l2 ds' /\ layer_params l2 = layer_params l /\ armed l2.
Proof.
  intros ds l ds' x g (HA & HS) Gx Ex. destruct (accepts_step' ds l ds' x g HA Gx Ex) as (l1 & g' & y & E1 & Gy & Ey & HB). exists l1, g', y. split; [auto|]. split; [auto|]. split; [auto|].
  intros d Gd Ed. destruct (HB d Gd Ed) as (l2 & gx & E2 & H1 & H2 & H3 & H4 & H5). exists l2, gx. split; [auto|]. split; [auto|]. split; [auto|]. split; [|auto]. split; [auto|].
  clear - HS E1 E2. assert (S1 : simple l1).
  { destruct l; try (destruct HS; fail); cbn [layer_forward] in E1; unfold lift in E1; injection E1 as <- _ _; exact I. }
  destruct l1; try (destruct S1; fail); cbn [layer_backward] in E2.
  - destruct (fc_backward l0 d) as (l' & o). injection E2 as <- _. exact I.
  - injection E2 as <- _. exact I.
  - injection E2 as <- _. exact I.
Qed.
Lemma acc_rows_with : forall ds (l : layer R) ds' (w b w' b' : tensor R), acc_rows ds l ds' -> layer_params l = Some (w, b) -> good w' -> tdims w' = tdims w -> good b' -> tdims b' = tdims b -> acc_rows ds (with_params l w' b') ds'.
Proof. intros ds l ds' w b w' b' (HA & HS) EP G1 E1 G2 E2. split; [eapply accepts_with; eauto|]. destruct l; try (destruct HS; fail); exact I. Qed.
Definition step_rows := fit_step_by acc_rows eq back_eq acc_rows_step acc_rows_with.
Lemma acc_rows_unseen : forall ds ls ds', stack acc_rows ds ls ds' -> stack acc_rows ds (map without_input ls) ds'.
Proof.
  intros ds ls ds' H. induction H as [|ds l dm r ds' (A & S0) _ IH]; [constructor|]. cbn [map]. econstructor; [|exact IH]. split; [|destruct l; exact S0].
  inversion A as [n k o l' W1 W2 W3 W4 HO|ds0 l' HX|b c ds0 l' HX|n h w l' W1 W2 W3 W4 H1 H2 HO|n c h w l' H1 H2 H3 H4 H5|ds0 l' HT]; subst; try (destruct S0; fail); cbn [without_input]; constructor; auto.
Qed.
Section H.
Variables (DM : Z -> list Z) (N : Z) (ds D : list Z) (lo : loss).
Hypothesis HD : lo = CCE -> List.length D = 1%nat.
Notation able := (trainable_by acc_rows DM (N :: ds) (N :: D)).
Lemma able_unseen : forall (n : net R G) o, able n lo o -> able (unseen n) lo o.
Proof.
  intros n o (A & B & C & E & F). split; [apply acc_rows_unseen; auto|]. split; [auto|]. split; [auto|]. split; [|auto]. cbn [unseen net_with n_layers]. eapply dims_at_same; [|exact E].
  rewrite map_map. apply map_ext. intros []; reflexivity.
Qed.
Lemma able_row : forall (n : net R G) o, able n lo o -> row_net n lo N ds D.
Proof. intros n o (A & B & _). destruct (stack_rows _ _ _ A) as (C1 & C2). split; [auto|]. split; [auto|]. split; auto. Qed.
Lemma one_same_inputs : forall (n m n' : net R G) o (x t : tensor R) v, able n lo o -> room o (Zlen (n_layers n)) -> batch_for N ds D x t -> same_but_inputs n m -> fit_one_loss n x t v n' -> fit_one_loss m x t v n'.
Proof.
  intros n m n' o x t v HA HM (Gx & Ex & Gt & Et) HS (n1 & n2 & p & c & d & l & E1 & E2 & E3 & EV & E4 & E5 & E6).
  assert (HL : n_loss n = Some lo) by apply HA. rewrite HL in E2. injection E2 as <-.
  destruct (step_rows DM (N :: ds) (N :: D) (unseen n) lo o x t (able_unseen n o HA)) as (m1 & q & e & m2 & m' & o' & F1 & F2 & F3 & F4 & _); auto.
  { cbn [unseen net_with n_layers]. unfold Zlen. rewrite map_length. exact HM. } { exact counts_R. } { apply target_batch; auto. }
  pose proof (predict_unseen n n m1 m2 x q e (same_refl n) F1 F3) as Q1. rewrite E1 in Q1. injection Q1 as -> ->.
  pose proof (predict_unseen n m m1 m2 x q e HS F1 F3) as Q2. exists m1, n2, q, c, d, lo. split; [auto|]. split; [destruct HS as (_ & EL & _); congruence|]. auto.
Qed.
Lemma fit_one_valued : forall (n n' : net R G) x t, fit_one n x t n' -> exists v, fit_one_loss n x t v n'.
Proof. intros n n' x t (n1 & n2 & p & c & d & l & E1 & E2 & E3 & E4 & E5 & E6). exists (el c [0]), n1, n2, p, c, d, l. auto 10. Qed.
Lemma layers_len : forall n n' : net R G, map params_dims (n_layers n') = map params_dims (n_layers n) -> Zlen (n_layers n') = Zlen (n_layers n).
Proof. intros n n' PD. unfold Zlen. f_equal. rewrite <- (map_length params_dims (n_layers n')), PD, map_length. reflexivity. Qed.
Lemma reordered_losses : forall samples samples', Forall2 (shuffled N) samples samples' -> Forall (fun s => batch_for N ds D (fst s) (snd s)) samples -> forall (n m : net R G) o,
  able n lo o -> room o (Zlen samples * Zlen (n_layers n)) -> same_but_inputs n m ->
  exists vs n' m' o', fit_losses n samples vs n' /\ fit_losses m samples' vs m' /\ same_but_inputs n' m' /\ able n' lo o' /\ Zlen (n_layers n') = Zlen (n_layers n) /\
    forall k, 0 <= k -> room o (k + Zlen samples * Zlen (n_layers n)) -> room o' k.
Proof.
  intros samples samples' HF. induction HF as [|s s' r r' HS HF IH]; intros HB n m o HA HM HI.
  - exists [], n, m, o. split; [constructor|]. split; [constructor|]. split; [auto|]. split; [auto|]. split; [auto|]. intros k _. change (Zlen (@nil (tensor R * tensor R))) with 0. rewrite Z.mul_0_l, Z.add_0_r. auto.
  - inversion HB as [|? ? B1 B2]; subst. destruct s as (x & t), s' as (x' & t'). cbn [fst snd] in B1. destruct HS as (sel & HP & E1 & E2). cbn [fst snd] in E1, E2. subst x' t'. pose proof B1 as (Gx & Ex & Gt & Et).
    destruct (good_tail x N ds Gx Ex) as (Hn & _). rewrite Zlen_cons in HM. pose proof (Zlen_nonneg r). pose proof (Zlen_nonneg (n_layers n)).
    assert (HM1 : room o (Zlen (n_layers n))) by (eapply room_le; [|exact HM]; nia).
    destruct (step_rows DM (N :: ds) (N :: D) n lo o x t HA HM1 counts_R Gx Ex (target_batch lo N D t Gt Et HD)) as (n1 & p & d & n2 & n' & o' & _ & _ & _ & _ & F & HA' & PD & HK & _).
    destruct (fit_one_valued _ _ _ _ F) as (v & FV). destruct (reordered_step n lo N ds D sel x t v n' (able_row n o HA) B1 HP FV) as (m' & FM & SM).
    pose proof (one_same_inputs n m m' o _ _ v HA HM1 (reordered_batch N sel ds D x t Hn HP B1) HI FM) as FM'. pose proof (layers_len n n' PD) as LEN.
    destruct (IH B2 n' m' o' HA') as (vs & nn & mm & oo & H1 & H2 & H3 & H4 & H5 & H6); [rewrite LEN; apply HK; [nia|]; eapply room_le; [|exact HM]; nia|auto|].
    exists (v :: vs), nn, mm, oo. split; [econstructor; eauto|]. split; [econstructor; eauto|]. split; [auto|]. split; [auto|]. split; [congruence|].
    intros k HK0 HRm. apply H6; [auto|]. rewrite LEN. apply HK; [nia|]. rewrite Zlen_cons in HRm. eapply room_le; [|exact HRm]. nia.
Qed.
Lemma reordered_epochs : forall samples samples', Forall2 (shuffled N) samples samples' -> Forall (fun s => batch_for N ds D (fst s) (snd s)) samples -> forall e (n m : net R G) o,
  able n lo o -> room o (Z.of_nat e * Zlen samples * Zlen (n_layers n)) -> same_but_inputs n m ->
  exists lss n' m', fit_epochs samples n lss n' /\ fit_epochs samples' m lss m' /\ List.length lss = e /\ same_but_inputs n' m'.
Proof.
  intros samples samples' HF HB. induction e as [|e IH]; intros n m o HA HM HI.
  - exists [], n, m. split; [constructor|]. split; [constructor|]. auto.
  - pose proof (Zlen_nonneg samples). pose proof (Zlen_nonneg (n_layers n)). assert (0 <= Zlen samples * Zlen (n_layers n)) by nia.
    destruct (reordered_losses samples samples' HF HB n m o HA) as (vs & n1 & m1 & o1 & J1 & J2 & J3 & J4 & J5 & J6); [eapply room_le; [|exact HM]; nia|auto|].
    destruct (IH n1 m1 o1 J4) as (lss & nn & mm & K1 & K2 & K3 & K4); [rewrite J5; apply J6; [nia|]; eapply room_le; [|exact HM]; nia|auto|].
    exists (vs :: lss), nn, mm. split; [econstructor; eauto|]. split; [econstructor; eauto|]. split; [cbn; congruence|auto].
Qed.
End H.
Lemma combine_pairs : forall {A B} (l : list (A * B)), combine (map fst l) (map snd l) = l.
Proof. intros A B l. induction l as [|(a & b) l IH]; [reflexivity|]. cbn. rewrite IH. reflexivity. Qed.
Theorem reordered_training : forall (show : R -> string) (n : net R G) lo o N ds D samples samples' e, row_net n lo N ds D -> n_opt n = Some o -> new_optim o ->
  samples <> [] -> Forall (fun s => batch_for N ds D (fst s) (snd s)) samples -> Forall2 (shuffled N) samples samples' -> 0 <= e -> e * Zlen samples * Zlen (n_layers n) <= INT_MAX ->
  exists n' n'' out, net_train_report show n (map fst samples) (map snd samples) e = ((n', out), Ok tt) /\
    net_train_report show n (map fst samples') (map snd samples') e = ((n'', out), Ok tt) /\ same_but_inputs n' n''.
Proof.
  intros show n lo o N ds D samples samples' e (HC & HN & HL & HD) HO HNew HNE HB HS He HM.
  destruct samples as [|(x & t) r] eqn:ES; [congruence|]. rewrite <- ES in *. assert (B1 : batch_for N ds D x t) by (rewrite ES in HB; inversion HB; auto). destruct B1 as (Gx & Ex & _).
  assert (HA : trainable_by acc_rows (fun k => dims_map (n_layers n) (k - 2 * 0)) (N :: ds) (N :: D) n lo o).
  { split; [apply rows_stack; auto; apply chain_accepts; auto; rewrite <- Ex; [apply good_pos|apply good_max]; auto|]. split; [auto|]. split; [auto|]. split; [apply dims_map_at|apply new_ready; auto]. }
  destruct (reordered_epochs _ N ds D lo HD samples samples' HS HB (Z.to_nat e) n n o HA) as (lss & n' & n'' & F1 & F2 & F3 & F4); [apply new_room; auto; rewrite Z2Nat.id by lia; auto|apply same_refl|].
  assert (LS : Zlen samples' = Zlen samples) by (clear - HS; induction HS as [|a b l l' _ _ IH]; [reflexivity|]; rewrite !Zlen_cons, IH; reflexivity).
  assert (POS : 0 < Zlen samples) by (rewrite ES, Zlen_cons; pose proof (Zlen_nonneg r); lia).
  exists n', n'', (report_from show 0 (map average lss)). split; [|split; [|auto]]; apply train_report.
  - unfold Zlen. rewrite !map_length. lia.
  - apply IZR_pos_neq. unfold Zlen in *. rewrite map_length. lia.
  - exists lss. rewrite combine_pairs. auto.
  - unfold Zlen. rewrite !map_length. lia.
  - apply IZR_pos_neq. unfold Zlen in *. rewrite map_length. lia.
  - exists lss. rewrite combine_pairs. auto.
Qed.
End P.

(** ** Where the order does matter *)
(** A convolution: two images of one pixel, 0 and 1, targets 0. *)
Theorem conv_order : forall {G} {HR : Rng R G} (g : G), exists (n : net R G) (x t : tensor R) sel a b gw gb gw' gb',
  n_loss n = Some MSE /\ (exists l, n_layers n = [LConv l]) /\ good x /\ tdims x = [2; 1; 1; 1] /\ good t /\ tdims t = [2; 1; 1; 1] /\ reordering 2 sel /\
  gradients n x t a /\ gradients n (gather sel x) (gather sel t) b /\ grads_at a 0 = Some (gw, gb) /\ grads_at b 0 = Some (gw', gb') /\ tdims gw = tdims gw' /\ gw <> gw'.
Proof.
  intros G HR g. destruct (conv1_gradient g 2 IZR ltac:(lia)) as (a & gw & gb & A1 & A2 & A3 & A4). destruct (conv1_gradient g 2 (fun i => IZR (1 - i)) ltac:(lia)) as (b & gw' & gb' & B1 & B2 & B3 & B4).
  assert (HS : reordering 2 [1; 0]) by (unfold reordering; change (zrange 0 2) with [0; 1]; apply perm_swap).
  assert (HG : forall f h, h 0 = f 1 -> h 1 = f 0 -> gather [1; 0] (one4 2 f) = one4 2 h).
  { intros f h E0 E1. unfold one4. rewrite (gather_of [1; 0] 2) by (try (apply (reordering_rows 2 [1; 0] ltac:(lia) HS)); repeat (apply Forall_cons; [lia|]); apply Forall_nil). change (Zlen [1; 0]) with 2.
    apply tensor_of_ext; [auto with idx|]. intros idx Hx. destruct (in_range_4 _ _ _ _ _ Hx) as (i & j & c0 & d & -> & Ha & _). cbn [hd].
    assert (HI : i = 0 \/ i = 1) by lia. destruct HI as [-> | ->]; [change (znth 0 [1; 0] 0) with 1|change (znth 0 [1; 0] 1) with 0]; congruence. }
  exists (convnet g), (one4 2 IZR), (one4 2 (fun _ => 0%R)), [1; 0], a, b, gw, gb, gw', gb'. split; [reflexivity|]. split; [eexists; reflexivity|]. split; [apply one4_good; lia|]. split; [reflexivity|].
  split; [apply one4_good; lia|]. split; [reflexivity|]. split; [exact HS|]. split; [exact A1|]. split; [rewrite (HG IZR (fun i => IZR (1 - i))), (HG (fun _ => 0%R) (fun _ => 0%R)) by reflexivity; exact B1|].
  split; [exact A2|]. split; [exact B2|]. split; [congruence|]. intros ->. rewrite A4 in B4. change (1 - 0) with 1 in B4. lra.
Qed.
(** In float32: a fully connected layer with zero parameters, four samples, MSE. *)
Section F.
Variable lm : libm.
Local Instance fsP : Scalar f32 := F32Scalar lm.
Context {G : Type} {HR : Rng f32 G}.
Variable g0 : G.
Definition zero_fc : fc f32 := mkFC (tensor_of [1; 1] (fun _ => f32_of_Z 0)) (tensor_of [1; 1] (fun _ => f32_of_Z 0)) None None None.
Definition order_x : tensor f32 := tensor_of [4; 1] (fun _ => f32_of_Z 1).
Definition order_t : tensor f32 := tensor_of [4; 1] (fun idx => f32_of_Z (znth 0 [2 ^ 25; 2; 2; 0] (hd 0 idx))).
Definition order_net : net f32 G := mkNet [LFC zero_fc] (Some MSE) None g0.
Definition order_after (x t : tensor f32) : net f32 G :=
  match net_predict order_net x with (n1, Ok p) => match mse_gradient p t with Ok d => fst (net_backward n1 d) | _ => n1 end | (n1, _) => n1 end.
Definition order_runs (x t : tensor f32) : bool :=
  match net_predict order_net x with (n1, Ok p) => match mse_gradient p t with Ok d => match snd (net_backward n1 d) with Ok _ => true | _ => false end | _ => false end | _ => false end.
Lemma order_gradients : forall x t, order_runs x t = true -> gradients order_net x t (order_after x t).
Proof.
  intros x t. unfold order_runs, order_after, gradients. destruct (net_predict order_net x) as (n1 & [p| | | |]); try discriminate. destruct (mse_gradient p t) as [d| | | |] eqn:E2; try discriminate.
  destruct (net_backward n1 d) as (n2 & [[]| | | |]) eqn:EB; try discriminate. intros _. exists n1, p, MSE, d. auto.
Qed.
Definition bias_gradient (n : net f32 G) : option f32 := match grads_at n 0 with Some (_, gb) => Some (el gb [0; 0]) | None => None end.
Lemma order_one : bias_gradient (order_after order_x order_t) = Some (f32_of_Z (- 2 ^ 24)).
Proof. vm_compute. reflexivity. Qed.
Lemma order_two : bias_gradient (order_after (gather [1; 2; 0; 3] order_x) (gather [1; 2; 0; 3] order_t)) = Some (f32_of_Z (- (2 ^ 24 + 2))).
Proof. vm_compute. reflexivity. Qed.
Theorem float_order : exists (n : net f32 G) (x t : tensor f32) sel a b gw gb gw' gb', n_loss n = Some MSE /\ (exists l, n_layers n = [LFC l]) /\ good x /\ tdims x = [4; 1] /\ good t /\ tdims t = [4; 1] /\ reordering 4 sel /\
  gradients n x t a /\ gradients n (gather sel x) (gather sel t) b /\ grads_at a 0 = Some (gw, gb) /\ grads_at b 0 = Some (gw', gb') /\
  el gb [0; 0] = f32_of_Z (- 2 ^ 24) /\ el gb' [0; 0] = f32_of_Z (- (2 ^ 24 + 2)).
Proof.
  pose proof order_one as E1. pose proof order_two as E2. unfold bias_gradient in E1, E2.
  destruct (grads_at (order_after order_x order_t) 0) as [(gw & gb)|] eqn:G1; [|discriminate E1]. destruct (grads_at (order_after (gather [1; 2; 0; 3] order_x) (gather [1; 2; 0; 3] order_t)) 0) as [(gw' & gb')|] eqn:G2; [|discriminate E2].
  exists order_net, order_x, order_t, [1; 2; 0; 3], (order_after order_x order_t), (order_after (gather [1; 2; 0; 3] order_x) (gather [1; 2; 0; 3] order_t)), gw, gb, gw', gb'.
  split; [reflexivity|]. split; [eexists; reflexivity|]. split; [apply good_tensor_of; [auto with idx|vm_compute; discriminate]|]. split; [reflexivity|]. split; [apply good_tensor_of; [auto with idx|vm_compute; discriminate]|]. split; [reflexivity|].
  split; [unfold reordering; change (zrange 0 4) with ([] ++ 0 :: [1; 2; 3]); apply (Permutation_trans (l' := 0 :: [1; 2; 3])); [apply (Permutation_sym (Permutation_middle [1; 2] [3] 0))|apply Permutation_refl]|].
  split; [apply order_gradients; vm_compute; reflexivity|]. split; [apply order_gradients; vm_compute; reflexivity|]. split; [exact G1|]. split; [exact G2|]. split; congruence.
Qed.
End F.
