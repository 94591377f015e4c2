(** * The gradients of a batch are the averages of the gradients of its rows (C109) *)
From Coq Require Import Reals Lra.
From Verif Require Import Base Scalar ScalarR Types Spec SpecR SpecNN SpecLayers M_Shape M_Tensor M_Adv M_Act M_Loss M_Layers M_Reg M_Opt M_Net SpecNet SpecNetR SpecBatch SpecBatchR
  L_Index L_Shape L_Bcast L_Tensor L_Reduce L_Tensor2 L_Glue L_Nest L_Matmul L_Axes L_Adv L_RSum L_AdvR L_Act L_ActR L_Layers L_LayersR L_Conv L_Loss L_Net L_Opt L_Train L_NetR L_TrainR L_Batch L_BatchR.
Local Open Scope Z_scope.

(** Row [i] of [d], times [c]. *)
Definition drel (c : R) (D : list Z) (d : tensor R) (i : Z) (di : tensor R) : Prop :=
  good di /\ tdims di = 1 :: D /\ forall r, in_range D r -> el di (0 :: r) = (c * el d (i :: r))%R.
Definition adds_up (c : R) (N : Z) (l l2 : layer R) (li : Z -> layer R) : Prop :=
  match layer_params l with
  | None => True
  | Some (w, b) => exists gw gb gwi gbi, layer_grads l2 = Some (gw, gb) /\ tdims gw = tdims w /\ tdims gb = tdims b /\
      (forall i, 0 <= i < N -> layer_grads (li i) = Some (gwi i, gbi i) /\ tdims (gwi i) = tdims w /\ tdims (gbi i) = tdims b) /\
      (forall idx, in_range (tdims w) idx -> (c * el gw idx)%R = rsum (zrange 0 N) (fun i => el (gwi i) idx)) /\
      (forall idx, in_range (tdims b) idx -> (c * el gb idx)%R = rsum (zrange 0 N) (fun i => el (gbi i) idx))
  end.
Definition seen (l : layer R) (x : tensor R) : layer R :=
  match l with
  | LFC l => LFC (mkFC (fc_w l) (fc_b l) (Some x) (fc_gw l) (fc_gb l))
  | LAct l => LAct (mkActL (al_act l) (Some x))
  | LFlat _ => LFlat (mkFlatten (Some (tshape x)))
  | _ => l
  end.

Section A.
Context {G : Type} {HR : Rng R G}.
Lemma fits_evaluates : forall ds l D, fits ds l D -> is_conv l = false -> evaluates ds l D.
Proof.
  intros ds l D H HC. inversion H as [n k o l' W1 W2 W3 W4 HO|ds0 l' HN|b ds0 l' EA HN|b c ds0 l' HN|h w l' W1 W2 W3 W4 HO H1 H2]; subst; try discriminate.
  - apply ev_fc; auto.
  - apply ev_act. congruence.
  - apply ev_act. intros _. destruct ds0; [congruence|cbn; lia].
  - apply ev_flat.
Qed.
Lemma seen_forward : forall N ds l D (x : tensor R) (g : G), fits (N :: ds) l D -> is_conv l = false -> good x -> tdims x = N :: ds ->
  D = N :: outD l ds /\ good (by_rows l N ds x) /\ layer_forward l x g = (seen l x, g, Ok (by_rows l N ds x)).
Proof.
  intros N ds l D x g HF HC Gx Ex. destruct (layer_rows N ds l D x g (fits_evaluates _ _ _ HF HC) Gx Ex) as (E1 & G1 & l1 & E2).
  split; [auto|]. split; [auto|]. rewrite E2. f_equal. f_equal.
  assert (E3 : l1 = fst (fst (layer_forward l x g))) by (rewrite E2; reflexivity). rewrite E3. clear E2 E3.
  destruct l as [l|l|l|l|l|l|l]; try discriminate; try (inversion HF; fail); cbn [layer_forward seen]; unfold lift; cbn [fst].
  - reflexivity.
  - reflexivity.
  - inversion HF as [| | |b c ds0 l' HN|]; subst. unfold flatten_forward, rank. fold (tdims x). rewrite Ex.
    destruct ds0 as [|d0 ds0]; [congruence|]. pose proof (Zlen_nonneg ds0). rewrite !Zlen_cons.
    destruct (Z.ltb_spec (Zlen ds0 + 1 + 1 + 1) 2); [lia|]. destruct (Z.eqb_spec (Zlen ds0 + 1 + 1 + 1) 2); [lia|]. reflexivity.
Qed.
Lemma single_rows : forall N i, 0 <= i < N -> rows_of N [i].
Proof. intros N i Hi. split; [discriminate|]. apply Forall_cons; [auto|apply Forall_nil]. Qed.
Lemma row_good : forall N ds (x : tensor R) i, good x -> tdims x = N :: ds -> 0 <= i < N -> good (gather [i] x) /\ tdims (gather [i] x) = 1 :: ds /\
  forall r, in_range ds r -> el (gather [i] x) (0 :: r) = el x (i :: r).
Proof.
  intros N ds x i Gx Ex Hi. destruct (good_tail x N ds Gx Ex) as (Hn & HF & HM). pose proof (prod_pos _ HF) as HP.
  split; [apply (gather_good [i] N (single_rows N i Hi) x ds); auto; change (Zlen [i]) with 1; cbn [prod]; nia|].
  split; [apply (gather_dims [i] N x ds Ex)|]. intros r Hr. rewrite (el_gather [i] N x ds 0 r Ex) by (auto; change (Zlen [i]) with 1; lia). reflexivity.
Qed.
Lemma fits_row : forall N ds l D i, 0 <= i < N -> Forall (fun d => 0 < d) ds -> fits (N :: ds) l D -> is_conv l = false -> fits (1 :: ds) l (1 :: outD l ds).
Proof.
  intros N ds l D i Hi HD H HC. inversion H as [n k o l' W1 W2 W3 W4 HO|ds0 l' HN|b ds0 l' EA HN|b c ds0 l' HN|h w l' W1 W2 W3 W4 HO H1 H2]; subst; try discriminate; cbn [outD].
  - rewrite W2. cbn [tl]. apply fits_fc; auto. destruct (dims2_pos _ _ _ W1 W2) as (_ & Ho & _). nia.
  - apply fits_act; auto.
  - apply fits_softmax; auto.
  - apply fits_flat; auto.
Qed.
Lemma act_del_linear : forall a (v c g : R), (act_del a v (c * g) = c * act_del a v g)%R.
Proof. intros a v c g. destruct a; cbn [act_del s_mul s_add s_sub s_z RScalar]; try ring. destruct (s_le _ _); ring. Qed.

(** ** One layer *)
Lemma back_rows : forall c N ds l D (x d : tensor R) (di : Z -> tensor R), fits (N :: ds) l (N :: D) -> is_conv l = false -> good x -> tdims x = N :: ds ->
  good d -> tdims d = N :: D -> (forall i, 0 <= i < N -> drel c D d i (di i)) ->
  exists l2 e li ei, layer_backward (seen l x) d = (l2, Ok e) /\ good e /\ tdims e = N :: ds /\
    (forall i, 0 <= i < N -> layer_backward (seen l (gather [i] x)) (di i) = (li i, Ok (ei i)) /\ drel c ds e i (ei i)) /\ adds_up c N l l2 li.
Proof.
  intros c N ds l D x d di HF HC Gx Ex Gd Ed HD. destruct (good_tail x N ds Gx Ex) as (Hn & HFd & HM).
  inversion HF as [n k o l' W1 W2 W3 W4 HO|ds0 l' HN|b ds0 l' EA HN|b c0 ds0 l' HN|h w l' W1 W2 W3 W4 HO H1 H2]; subst; try discriminate; cbn [seen layer_backward].
  - destruct (dims2_pos x N k Gx Ex) as (_ & Hk & HM1). destruct (dims2_pos _ k o W1 W2) as (_ & Ho & HM2).
    pose proof (fc_backward_rows (mkFC (fc_w l') (fc_b l') (Some x) (fc_gw l') (fc_gb l')) k o N x d x d (conj W1 (conj W2 (conj W3 W4))) eq_refl (as_row_2 x N k Ex) (as_row_2 d N o Ed) Gx Ex Gd Ed) as EB.
    rewrite EB. clear EB.
    set (xi := fun i => gather [i] x).
    exists (LFC (mkFC (fc_w l') (fc_b l') (Some x) (Some (tensor_of [k; o] (fn2 (fc_dw N (fun i p => el x [i; p]) (fun i j => el d [i; j]))))) (Some (tensor_of [1; o] (fn2 (fun _ => fc_db N (fun i j => el d [i; j]))))))).
    exists (tensor_of [N; k] (fn2 (fc_dx o (fc_w l') (fun i j => el d [i; j])))).
    exists (fun i => LFC (mkFC (fc_w l') (fc_b l') (Some (xi i)) (Some (tensor_of [k; o] (fn2 (fc_dw 1 (fun a p => el (xi i) [a; p]) (fun a j => el (di i) [a; j]))))) (Some (tensor_of [1; o] (fn2 (fun _ => fc_db 1 (fun a j => el (di i) [a; j]))))))).
    exists (fun i => tensor_of [1; k] (fn2 (fc_dx o (fc_w l') (fun a j => el (di i) [a; j])))).
    split; [reflexivity|]. split; [apply good_tensor_of; [auto with idx|cbn [prod] in *; lia]|]. split; [reflexivity|]. split.
    + intros i Hi. destruct (row_good N [k] x i Gx Ex Hi) as (G1 & E1 & R1). destruct (HD i Hi) as (G2 & E2 & R2).
      pose proof (fc_backward_rows (mkFC (fc_w l') (fc_b l') (Some (xi i)) (fc_gw l') (fc_gb l')) k o 1 (xi i) (di i) (xi i) (di i) (conj W1 (conj W2 (conj W3 W4))) eq_refl (as_row_2 _ 1 k E1) (as_row_2 _ 1 o E2) G1 E1 G2 E2) as EB.
      fold (xi i). rewrite EB. cbn [fc_w fc_b fc_in]. split; [reflexivity|].
      split; [apply good_tensor_of; [auto with idx|cbn [prod] in *; nia]|]. split; [reflexivity|]. intros r Hr. inversion Hr as [|? p ? r0 Hp Hr0]; subst. inversion Hr0; subst.
      rewrite !el_tensor_of by (apply in_range2; lia). unfold fn2. cbn [nth]. unfold fc_dx. rewrite !sum_to_R, rsum_mul_l. apply rsum_ext. intros j Hj. apply In_zrange in Hj.
      rewrite R2 by (apply in_range1; lia). cbn [s_mul RScalar]. ring.
    + unfold adds_up. cbn [layer_params]. do 2 eexists. exists (fun i => tensor_of [k; o] (fn2 (fc_dw 1 (fun a p => el (xi i) [a; p]) (fun a j => el (di i) [a; j])))), (fun i => tensor_of [1; o] (fn2 (fun _ => fc_db 1 (fun a j => el (di i) [a; j])))).
      cbn [layer_grads fc_gw fc_gb]. split; [reflexivity|]. rewrite W2, W4. split; [reflexivity|]. split; [reflexivity|]. split; [intros; split; [reflexivity|split; reflexivity]|].
      split; intros idx HI; rewrite el_tensor_of by auto; apply in_range_2 in HI; destruct HI as (p & j & -> & Hp & Hj); unfold fn2 at 1; cbn [nth].
      * unfold fc_dw. rewrite sum_to_R, rsum_mul_l. apply rsum_ext. intros i Hi. apply In_zrange in Hi. destruct (row_good N [k] x i Gx Ex Hi) as (G1 & E1 & R1). destruct (HD i Hi) as (G2 & E2 & R2).
        rewrite el_tensor_of by (apply in_range2; lia). unfold fn2. cbn [nth]. rewrite sum_to_R, rsum_one. unfold xi. rewrite R1, R2 by (apply in_range1; lia). cbn [s_mul RScalar]. ring.
      * unfold fc_db. rewrite sum_to_R, rsum_mul_l. apply rsum_ext. intros i Hi. apply In_zrange in Hi. destruct (HD i Hi) as (G2 & E2 & R2).
        rewrite el_tensor_of by (apply in_range2; lia). unfold fn2. cbn [nth]. rewrite sum_to_R, rsum_one. rewrite R2 by (apply in_range1; lia). ring.
  - (* activation other than softmax *)
    unfold act_backward. cbn [al_in al_act]. rewrite act_bwd_el by congruence. rewrite Ex.
    exists (LAct (mkActL (al_act l') (Some x))). eexists. exists (fun i => LAct (mkActL (al_act l') (Some (gather [i] x)))), (fun i => tensor_of (1 :: D) (fun idx => act_del (al_act l') (el (gather [i] x) idx) (el (di i) idx))).
    split; [reflexivity|]. split; [apply good_tensor_of; [rewrite <- Ex; apply good_pos; auto|rewrite <- Ex; apply good_max; auto]|]. split; [reflexivity|]. split; [|exact I].
    intros i Hi. destruct (row_good N D x i Gx Ex Hi) as (G1 & E1 & R1). destruct (HD i Hi) as (G2 & E2 & R2). rewrite act_bwd_el by congruence. rewrite E1.
    split; [reflexivity|]. split; [apply good_tensor_of; [rewrite <- E1; apply good_pos; auto|rewrite <- E1; apply good_max; auto]|]. split; [reflexivity|].
    intros r Hr. rewrite !el_tensor_of by (constructor; auto; lia). rewrite R1, R2 by auto. apply act_del_linear.
  - (* softmax *)
    unfold act_backward. cbn [al_in al_act]. rewrite EA. cbn [act_bwd]. rewrite (softmax_bwd_R x d N D) by auto.
    exists (LAct (mkActL Softmax (Some x))). eexists. exists (fun i => LAct (mkActL Softmax (Some (gather [i] x)))).
    exists (fun i => tensor_of (1 :: D) (fun idx => let r := hd 0 idx in let j := tl idx in
       (smR D (gather [i] x) r j * (el (di i) (r :: j) - rsum (all_indices D) (fun j => smR D (gather [i] x) r j * el (di i) (r :: j))))%R)).
    split; [reflexivity|]. split; [apply good_tensor_of; [rewrite <- Ex; apply good_pos; auto|rewrite <- Ex; apply good_max; auto]|]. split; [reflexivity|]. split; [|exact I].
    intros i Hi. destruct (row_good N D x i Gx Ex Hi) as (G1 & E1 & R1). destruct (HD i Hi) as (G2 & E2 & R2). rewrite (softmax_bwd_R _ (di i) 1 D) by auto.
    split; [reflexivity|]. split; [apply good_tensor_of; [rewrite <- E1; apply good_pos; auto|rewrite <- E1; apply good_max; auto]|]. split; [reflexivity|].
    intros r Hr. rewrite !el_tensor_of by (constructor; auto; lia). cbn [hd tl].
    assert (ES : forall j, in_range D j -> smR D (gather [i] x) 0 j = smR D x i j).
    { intros j Hj. unfold smR, rowsum. rewrite R1 by auto. f_equal. apply rsum_ext. intros q Hq. apply In_all_indices in Hq; auto. rewrite R1 by auto. reflexivity. }
    rewrite ES, R2 by auto. rewrite (rsum_ext _ _ (fun j => c * (smR D x i j * el d (i :: j)))%R).
    + rewrite rsum_scal_l. ring.
    + intros j Hj. apply In_all_indices in Hj; auto. rewrite ES, R2 by auto. ring.
  - (* flatten *)
    set (ds := c0 :: ds0) in *. pose proof (prod_pos _ HFd) as HP. pose proof (good_prod_pos _ Gd) as HPd.
    rewrite (flatten_backward_ok x d) by (auto; rewrite Ed, Ex; unfold ds; cbn [prod]; lia). rewrite Ex.
    exists (LFlat (mkFlatten (Some (tshape x)))). eexists. exists (fun i => LFlat (mkFlatten (Some (tshape (gather [i] x))))), (fun i => in_shape (1 :: ds) (di i)).
    split; [reflexivity|]. split; [apply good_in_shape; rewrite <- Ex; [apply good_pos|apply good_max]; auto|]. split; [reflexivity|]. split; [|exact I].
    intros i Hi. destruct (row_good N ds x i Gx Ex Hi) as (G1 & E1 & R1). destruct (HD i Hi) as (G2 & E2 & R2).
    rewrite (flatten_backward_ok (gather [i] x) (di i)) by (auto; rewrite E1, E2; unfold ds; cbn [prod]; lia). rewrite E1.
    split; [reflexivity|]. split; [apply good_in_shape; rewrite <- E1; [apply good_pos|apply good_max]; auto|]. split; [reflexivity|].
    intros r Hr. unfold in_shape. rewrite !el_tensor_of by (constructor; auto; lia). pose proof (ravel_bound ds r Hr) as Hk.
    assert (E3 : el (di i) [0; ravel ds r] = (c * el d [i; ravel ds r])%R) by (apply R2; apply in_range1; auto).
    unfold el in E3. rewrite E2, Ed, !ravel2 in E3. exact E3.
Qed.

(** ** All layers *)
Definition run (ls : list (layer R)) (x d : tensor R) (g : G) : list (layer R) * outcome (tensor R) := backward_all (fst (fst (forward_all ls x g))) d.
Lemma run_cons : forall l ls x d (g : G) l1 y, layer_forward l x g = (l1, g, Ok y) ->
  run (l :: ls) x d g = match run ls y d g with (r, Ok e) => let '(l2, o) := layer_backward l1 e in (l2 :: r, o) | (r, o) => (l1 :: r, o) end.
Proof. intros l ls x d g l1 y E. unfold run. cbn [forward_all]. rewrite E. destruct (forward_all ls y g) as [[r g'] o]. reflexivity. Qed.
Lemma run_rows : forall c ls N ds D0 (x : tensor R) (g : G), chain (N :: ds) ls D0 -> Forall (fun l => is_conv l = false) ls -> good x -> tdims x = N :: ds ->
  exists D y, D0 = N :: D /\ good y /\ tdims y = D0 /\ snd (forward_all ls x g) = Ok y /\ (forall i, 0 <= i < N -> snd (forward_all ls (gather [i] x) g) = Ok (gather [i] y)) /\
  forall d di, good d -> tdims d = N :: D -> (forall i, 0 <= i < N -> drel c D d i (di i)) ->
  exists ls2 e lsi ei, run ls x d g = (ls2, Ok e) /\ good e /\ tdims e = N :: ds /\
    (forall i, 0 <= i < N -> run ls (gather [i] x) (di i) g = (lsi i, Ok (ei i)) /\ drel c ds e i (ei i)) /\
    forall k l, nth_error ls k = Some l -> exists l2 li, nth_error ls2 k = Some l2 /\ (forall i, 0 <= i < N -> nth_error (lsi i) k = Some (li i)) /\ adds_up c N l l2 li.
Proof.
  intros c. induction ls as [|l ls IH]; intros N ds D0 x g HC HN Gx Ex; inversion HC as [|? ? D1 ? ? F1 C1]; subst.
  - exists ds, x. split; [auto|]. split; [auto|]. split; [auto|]. split; [reflexivity|]. split; [reflexivity|]. intros d di Gd Ed HD.
    exists [], d, (fun _ => []), di. unfold run. cbn [forward_all fst backward_all]. split; [auto|]. split; [auto|]. split; [auto|]. split; [intros; split; auto|].
    intros [|k] l E; discriminate.
  - inversion HN as [|? ? N1 N2]; subst. destruct (good_tail x N ds Gx Ex) as (Hn & HF & HM).
    destruct (seen_forward N ds l D1 x g F1 N1 Gx Ex) as (-> & G1 & E1).
    assert (HO : Forall (fun d => 0 < d) (outD l ds)) by (apply (good_tail _ N (outD l ds) G1 eq_refl)).
    assert (EG : forall i, 0 <= i < N -> layer_forward l (gather [i] x) g = (seen l (gather [i] x), g, Ok (gather [i] (by_rows l N ds x)))).
    { intros i Hi. destruct (row_good N ds x i Gx Ex Hi) as (A1 & A2 & _).
      destruct (seen_forward 1 ds l _ (gather [i] x) g (fits_row N ds l _ i Hi HF F1 N1) N1 A1 A2) as (_ & _ & E). rewrite E. f_equal. f_equal.
      apply (layer_gather N ds l _ [i] x (single_rows N i Hi) (fits_evaluates _ _ _ F1 N1) Gx Ex HO). }
    destruct (IH N (outD l ds) D0 (by_rows l N ds x) g C1 N2 G1 eq_refl) as (D & y & -> & Gy & Ey & S1 & S2 & HB).
    exists D, y. split; [auto|]. split; [auto|]. split; [auto|]. split; [|split].
    + cbn [forward_all]. rewrite E1. destruct (forward_all ls _ g) as [[? ?] ?]. exact S1.
    + intros i Hi. cbn [forward_all]. rewrite (EG i Hi). specialize (S2 i Hi). destruct (forward_all ls (gather [i] (by_rows l N ds x)) g) as [[? ?] ?]. exact S2.
    + intros d di Gd Ed HD. destruct (HB d di Gd Ed HD) as (ls2 & e & lsi & ei & R1 & Ge & Ee & R2 & HK).
      destruct (back_rows c N ds l (outD l ds) x e ei F1 N1 Gx Ex Ge Ee (fun i Hi => proj2 (R2 i Hi))) as (l2 & e' & li & ei' & B1 & Ge' & Ee' & B2 & HA).
      exists (l2 :: ls2), e', (fun i => li i :: lsi i), ei'. split; [rewrite (run_cons _ _ _ _ _ _ _ E1), R1, B1; reflexivity|]. split; [auto|]. split; [auto|]. split.
      * intros i Hi. destruct (B2 i Hi) as (B3 & B4). rewrite (run_cons _ _ _ _ _ _ _ (EG i Hi)), (proj1 (R2 i Hi)), B3. auto.
      * intros [|k] l0 E0; cbn [nth_error] in *; [injection E0 as <-; exists l2, li; auto|]. exact (HK k l0 E0).
Qed.

(** ** The loss *)
Lemma loss_rows : forall lo N D (p t : tensor R), good p -> tdims p = N :: D -> good t -> tdims t = N :: D -> (lo = CCE -> length D = 1%nat) ->
  exists d di, loss_gradient lo p t = Ok d /\ good d /\ tdims d = N :: D /\
    forall i, 0 <= i < N -> loss_gradient lo (gather [i] p) (gather [i] t) = Ok (di i) /\ drel (IZR N) D d i (di i).
Proof.
  intros lo N D p t Gp Ep Gt Et HL. destruct (good_tail p N D Gp Ep) as (Hn & HF & HM). pose proof (prod_pos _ HF) as HP.
  assert (GT : forall f, good (tensor_of (N :: D) f : tensor R)) by (intros; apply good_tensor_of; rewrite <- Ep; [apply good_pos|apply good_max]; auto).
  assert (HNR : (0 < IZR N)%R) by (apply IZR_lt; auto). assert (HPR : (0 < IZR (prod D))%R) by (apply IZR_lt; auto).
  destruct lo; cbn [loss_gradient].
  - rewrite mse_gradient_ok; auto; [|left; congruence|apply IZR_pos_neq; apply good_prod_pos; auto]. rewrite Ep.
    eexists. exists (fun i => tensor_of (1 :: D) (fun idx => s_div (s_mul (s_sub (el (gather [i] p) idx) (el (gather [i] t) idx)) (s_z 2)) (s_z (prod (1 :: D))))).
    split; [reflexivity|]. split; [apply GT|]. split; [reflexivity|]. intros i Hi.
    destruct (row_good N D p i Gp Ep Hi) as (G1 & E1 & R1). destruct (row_good N D t i Gt Et Hi) as (G2 & E2 & R2).
    rewrite mse_gradient_ok; auto; [|left; congruence|apply IZR_pos_neq; apply good_prod_pos; auto]. rewrite E1.
    split; [f_equal; rewrite <- E2; rewrite in_shape_same by auto; reflexivity|].
    split; [apply good_tensor_of; rewrite <- E1; [apply good_pos|apply good_max]; auto|]. split; [reflexivity|]. intros r Hr. rewrite !el_tensor_of by (constructor; auto; lia).
    rewrite R1, R2 by auto. rewrite <- Et, in_shape_same by auto. rewrite Et. cbn [s_div s_mul s_sub s_z RScalar prod]. rewrite !mult_IZR. field. split; lra.
  - specialize (HL eq_refl). destruct D as [|cl [|? ?]]; try discriminate.
    rewrite (cce_gradient_ok p t N cl) by (auto; apply IZR_pos_neq; auto).
    eexists. exists (fun i => tensor_of [1; cl] (fun idx => s_div (s_sub (cce_clamp (el (gather [i] p) idx)) (el (gather [i] t) idx)) (s_z 1))).
    split; [reflexivity|]. split; [apply GT|]. split; [reflexivity|]. intros i Hi.
    destruct (row_good N _ p i Gp Ep Hi) as (G1 & E1 & R1). destruct (row_good N _ t i Gt Et Hi) as (G2 & E2 & R2).
    rewrite (cce_gradient_ok _ _ 1 cl) by (auto; apply IZR_pos_neq; lia). split; [reflexivity|].
    split; [apply good_tensor_of; rewrite <- E1; [apply good_pos|apply good_max]; auto|]. split; [reflexivity|]. intros r Hr. rewrite !el_tensor_of by (constructor; auto; lia).
    rewrite R1, R2 by auto. cbn [s_div s_sub s_z RScalar]. field. lra.
Qed.

(** ** Networks *)
Lemma gradients_run : forall (n : net R G) lo (x t p d : tensor R) ls e, n_loss n = Some lo -> snd (forward_all (n_layers n) x (n_rng n)) = Ok p -> loss_gradient lo p t = Ok d ->
  run (n_layers n) x d (n_rng n) = (ls, Ok e) -> exists n', gradients n x t n' /\ n_layers n' = ls.
Proof.
  intros n lo x t p d ls e HL EF EL ER. unfold run in ER. unfold gradients, net_predict, net_backward.
  destruct (forward_all (n_layers n) x (n_rng n)) as [[ls1 g] o]. cbn [fst snd] in *. subst o.
  exists (net_with (mkNet ls1 (n_loss n) (n_opt n) g) ls). split; [|reflexivity]. exists (mkNet ls1 (n_loss n) (n_opt n) g), p, lo, d.
  split; [auto|]. split; [auto|]. split; [auto|]. cbn [n_layers]. rewrite ER. reflexivity.
Qed.
Lemma gradients_fun : forall (n : net R G) (x t : tensor R) a b, gradients n x t a -> gradients n x t b -> a = b.
Proof.
  intros n x t a b (n1 & p & l & d & A1 & A2 & A3 & A4) (m1 & q & k & e & B1 & B2 & B3 & B4). rewrite A1 in B1. injection B1 as <- <-. rewrite A2 in B2. injection B2 as <-.
  rewrite A3 in B3. injection B3 as <-. rewrite A4 in B4. injection B4 as <-. reflexivity.
Qed.
Lemma batch_gradients : forall (n : net R G) lo N ds D (x t : tensor R), row_net n lo N ds D -> batch_for N ds D x t ->
  exists n' (m : Z -> net R G), gradients n x t n' /\ (forall i, 0 <= i < N -> gradients n (gather [i] x) (gather [i] t) (m i)) /\
    forall k w b, params_at n k = Some (w, b) -> exists gw gb gwi gbi, grads_at n' k = Some (gw, gb) /\ (forall i, 0 <= i < N -> grads_at (m i) k = Some (gwi i, gbi i)) /\
      average_of N (tdims w) gwi gw /\ average_of N (tdims b) gbi gb.
Proof.
  intros n lo N ds D x t (HC & HN & HL & HD) (Gx & Ex & Gt & Et). destruct (good_tail x N ds Gx Ex) as (Hn & _).
  destruct (run_rows (IZR N) (n_layers n) N ds _ x (n_rng n) HC HN Gx Ex) as (D0 & p & ED & Gp & Ep & F1 & F2 & HB). injection ED as <-.
  destruct (loss_rows lo N D p t Gp Ep Gt Et HD) as (d & di & L1 & Gd & Ed & L2).
  destruct (HB d di Gd Ed (fun i Hi => proj2 (L2 i Hi))) as (ls2 & e & lsi & ei & R1 & _ & _ & R2 & HK).
  destruct (gradients_run n lo x t p d ls2 e HL F1 L1 R1) as (n' & H1 & E1). 
  set (mk := fun i => let n1 := fst (net_predict n (gather [i] x)) in net_with n1 (lsi i)).
  assert (HM : forall i, 0 <= i < N -> gradients n (gather [i] x) (gather [i] t) (mk i) /\ n_layers (mk i) = lsi i).
  { intros i Hi. specialize (F2 i Hi). destruct (L2 i Hi) as (L3 & _). destruct (R2 i Hi) as (R3 & _). split; [|reflexivity].
    unfold mk, gradients, net_predict, net_backward. unfold run in R3. destruct (forward_all (n_layers n) (gather [i] x) (n_rng n)) as [[ls1 g] o]. cbn [fst snd] in *. subst o.
    exists (mkNet ls1 (n_loss n) (n_opt n) g), (gather [i] p), lo, (di i). split; [auto|]. split; [auto|]. split; [auto|]. cbn [n_layers]. rewrite R3. reflexivity. }
  exists n', mk. split; [auto|]. split; [intros i Hi; apply HM; auto|].
  intros k w b EP. unfold params_at in EP. destruct (nth_error (n_layers n) k) as [l|] eqn:EK; [|discriminate]. destruct (HK k l EK) as (l2 & li & K1 & K2 & HA).
  unfold adds_up in HA. rewrite EP in HA. destruct HA as (gw & gb & gwi & gbi & A1 & A2 & A3 & A4 & A5 & A6). exists gw, gb, gwi, gbi.
  assert (HNR : (0 < IZR N)%R) by (apply IZR_lt; auto).
  split; [unfold grads_at; rewrite E1, K1; exact A1|]. split; [intros i Hi; unfold grads_at; rewrite (proj2 (HM i Hi)), (K2 i Hi); apply A4; auto|].
  split; (split; [auto|]); (split; [intros i Hi; apply A4; auto|]); intros idx HI.
  - rewrite <- (A5 idx HI). field. lra.
  - rewrite <- (A6 idx HI). field. lra.
Qed.
Theorem batch_average : forall (n : net R G) lo N ds D (x t : tensor R) n' (m : Z -> net R G), row_net n lo N ds D -> batch_for N ds D x t ->
  gradients n x t n' -> (forall i, 0 <= i < N -> gradients n (gather [i] x) (gather [i] t) (m i)) ->
  forall k w b, params_at n k = Some (w, b) -> exists gw gb gwi gbi, grads_at n' k = Some (gw, gb) /\ (forall i, 0 <= i < N -> grads_at (m i) k = Some (gwi i, gbi i)) /\
      average_of N (tdims w) gwi gw /\ average_of N (tdims b) gbi gb.
Proof.
  intros n lo N ds D x t n' m HN HB H1 H2 k w b EP. destruct (batch_gradients n lo N ds D x t HN HB) as (n0 & m0 & A1 & A2 & HK).
  destruct (HK k w b EP) as (gw & gb & gwi & gbi & K1 & K2 & K3 & K4). exists gw, gb, gwi, gbi. rewrite (gradients_fun _ _ _ _ _ H1 A1). split; [auto|]. split; [|auto].
  intros i Hi. rewrite (gradients_fun _ _ _ _ _ (H2 i Hi) (A2 i Hi)). apply K2. auto.
Qed.
Theorem batch_exists : forall (n : net R G) lo N ds D (x t : tensor R), row_net n lo N ds D -> batch_for N ds D x t ->
  (exists n', gradients n x t n') /\ forall i, 0 <= i < N -> exists ni, gradients n (gather [i] x) (gather [i] t) ni.
Proof. intros n lo N ds D x t HN HB. destruct (batch_gradients n lo N ds D x t HN HB) as (n0 & m0 & A1 & A2 & _). split; [eauto|]. intros i Hi. exists (m0 i). auto. Qed.

(** ** One step of plain SGD *)
Lemma fits_out : forall N ds l D, 0 < N -> Forall (fun d => 0 < d) ds -> fits (N :: ds) l D -> is_conv l = false -> D = N :: outD l ds /\ Forall (fun d => 0 < d) (outD l ds).
Proof.
  intros N ds l D Hn HF H HC. inversion H as [n k o l' W1 W2 W3 W4 HO|ds0 l' HN|b ds0 l' EA HN|b c ds0 l' HN|h w l' W1 W2 W3 W4 HO H1 H2]; subst; try discriminate; cbn [outD]; try (split; [reflexivity|auto]; fail).
  - rewrite W2. split; [reflexivity|]. destruct (dims2_pos _ _ _ W1 W2) as (_ & Ho & _). cbn [tl]. apply Forall_cons; [auto|apply Forall_nil].
  - split; [reflexivity|]. pose proof (prod_pos _ HF). apply Forall_cons; [auto|apply Forall_nil].
Qed.
Lemma chain_row : forall ls N ds D0, 0 < N -> Forall (fun d => 0 < d) ds -> chain (N :: ds) ls D0 -> Forall (fun l => is_conv l = false) ls -> exists D, D0 = N :: D /\ chain (1 :: ds) ls (1 :: D).
Proof.
  induction ls as [|l ls IH]; intros N ds D0 Hn HF HC HN; inversion HC as [|? ? D1 ? ? F1 C1]; subst; [exists ds; split; [auto|constructor]|].
  inversion HN as [|? ? N1 N2]; subst. destruct (fits_out N ds l D1 Hn HF F1 N1) as (-> & HO).
  destruct (IH N (outD l ds) D0 Hn HO C1 N2) as (D & -> & C2). exists D. split; [auto|]. apply chain_cons with (1 :: outD l ds); [|auto]. apply (fits_row N ds l (N :: outD l ds) 0); auto. lia.
Qed.
Lemma plain_step : forall (n : net R G) lo o lr ds D (x t : tensor R), chain ds (n_layers n) D -> n_loss n = Some lo -> n_opt n = Some o -> plain_sgd lr o ->
  good x -> tdims x = ds -> target_fits lo D t ->
  exists n2 n', gradients n x t n2 /\ fit_one n x t n' /\
    forall k w b, params_at n k = Some (w, b) -> exists gw gb w' b', grads_at n2 k = Some (gw, gb) /\ params_at n' k = Some (w', b') /\ descended lr w gw w' /\ descended lr b gb b'.
Proof.
  intros n lo o lr ds D x t HC HL HO HS Gx Ex HT.
  assert (HR0 : trainable (fun k => dims_map (n_layers n) (k - 2 * 0)) ds D n lo o).
  { split; [apply chain_accepts; auto; rewrite <- Ex; [apply good_pos|apply good_max]; auto|]. split; [auto|]. split; [auto|]. split; [apply dims_map_at|]. apply new_ready. destruct HS as (damp & nest & ->). constructor. }
  pose proof (plain_rate_R lr o HS) as HP.
  destruct (fit_step _ ds D n lo o x t HR0 (plain_room _ _ _ HP) counts_R Gx Ex HT) as (n1 & p & d & n2 & n' & o' & E1 & E2 & E3 & E4 & F & _ & _ & _ & _ & PP & V).
  exists n2, n'. split; [exists n1, p, lo, d; auto|]. split; [auto|]. intros k w b EP. specialize (V lr HP).
  assert (E5 : option_map layer_params (nth_error (n_layers n2) k) = option_map layer_params (nth_error (n_layers n) k)) by (rewrite <- !nth_error_map, PP; reflexivity).
  unfold params_at in EP. destruct (nth_error (n_layers n) k) as [l|]; [|discriminate]. cbn [option_map] in E5. destruct (nth_error (n_layers n2) k) as [l2|] eqn:N2; [|discriminate]. cbn [option_map] in E5.
  assert (E6 : layer_params l2 = Some (w, b)) by congruence. destruct (F2_nth _ _ _ _ _ V N2) as (l' & N' & HV). unfold layer_descended in HV. rewrite E6 in HV.
  unfold grads_at, params_at. rewrite N2, N'. destruct (layer_grads l2) as [(gw & gb)|]; [|destruct HV]. destruct (layer_params l') as [(w' & b')|]; [|destruct HV]. destruct HV as (V1 & V2).
  exists gw, gb, w', b'. auto.
Qed.
Lemma target_batch : forall lo N D (t : tensor R), good t -> tdims t = N :: D -> (lo = CCE -> length D = 1%nat) -> target_fits lo (N :: D) t.
Proof. intros lo N D t Gt Et HD. split; [auto|]. destruct lo; [left; auto|]. specialize (HD eq_refl). destruct D as [|c [|? ?]]; try discriminate. exists N, c. auto. Qed.
Lemma params_good : forall (n : net R G) ds D k w b, chain ds (n_layers n) D -> params_at n k = Some (w, b) -> good w /\ good b.
Proof.
  intros n ds D k w b HC EP. unfold params_at in EP. destruct (nth_error (n_layers n) k) as [l|] eqn:EK; [|discriminate].
  apply nth_error_split in EK. destruct EK as (pre & post & EN & _). rewrite EN in HC. exact (chain_params pre l post ds D w b HC EP).
Qed.
Theorem batch_step : forall (n : net R G) lo o lr N ds D (x t : tensor R) n' (m : Z -> net R G), row_net n lo N ds D -> n_opt n = Some o -> plain_sgd lr o -> batch_for N ds D x t ->
  fit_one n x t n' -> (forall i, 0 <= i < N -> fit_one n (gather [i] x) (gather [i] t) (m i)) ->
  forall k w b, params_at n k = Some (w, b) -> exists w' b' wi bi, params_at n' k = Some (w', b') /\ (forall i, 0 <= i < N -> params_at (m i) k = Some (wi i, bi i)) /\
    average_of N (tdims w) wi w' /\ average_of N (tdims b) bi b'.
Proof.
  intros n lo o lr N ds D x t n' m HN HO HS HB H1 H2 k w b EP. pose proof HN as (HC & HNc & HL & HD). pose proof HB as (Gx & Ex & Gt & Et).
  destruct (good_tail x N ds Gx Ex) as (Hn & HF & _). assert (HNR : (0 < IZR N)%R) by (apply IZR_lt; auto).
  destruct (batch_gradients n lo N ds D x t HN HB) as (n2 & m2 & A1 & A2 & HK). destruct (HK k w b EP) as (gw & gb & gwi & gbi & K1 & K2 & (K3 & K4 & K5) & (K6 & K7 & K8)).
  destruct (plain_step n lo o lr _ _ x t HC HL HO HS Gx Ex (target_batch lo N D t Gt Et HD)) as (c2 & c' & S1 & S2 & S3).
  rewrite (gradients_fun _ _ _ _ _ S1 A1) in S3. rewrite (fit_one_fun _ _ _ _ _ S2 H1) in S3. destruct (S3 k w b EP) as (gw0 & gb0 & w' & b' & T1 & T2 & (T3 & T4) & (T5 & T6)).
  rewrite K1 in T1. injection T1 as <- <-.
  assert (HR0 : forall i, 0 <= i < N -> exists wi bi, params_at (m i) k = Some (wi, bi) /\ descended lr w (gwi i) wi /\ descended lr b (gbi i) bi).
  { intros i Hi. destruct (chain_row _ N ds _ Hn HF HC HNc) as (D0 & ED & C1). injection ED as <-. destruct (row_good N ds x i Gx Ex Hi) as (G1 & E1 & _). destruct (row_good N D t i Gt Et Hi) as (G2 & E2 & _).
    destruct (plain_step n lo o lr _ _ (gather [i] x) (gather [i] t) C1 HL HO HS G1 E1 (target_batch lo 1 D _ G2 E2 HD)) as (d2 & d' & U1 & U2 & U3).
    rewrite (gradients_fun _ _ _ _ _ U1 (A2 i Hi)) in U3. rewrite (fit_one_fun _ _ _ _ _ U2 (H2 i Hi)) in U3. destruct (U3 k w b EP) as (gw1 & gb1 & wi & bi & V1 & V2 & V3 & V4).
    rewrite (K2 i Hi) in V1. injection V1 as <- <-. exists wi, bi. auto. }
  exists w', b', (fun i => match params_at (m i) k with Some (u, _) => u | None => w end), (fun i => match params_at (m i) k with Some (_, v) => v | None => b end).
  split; [auto|]. split; [intros i Hi; destruct (HR0 i Hi) as (wi & bi & -> & _); reflexivity|].
  assert (HZ : Zlen (zrange 0 N) = N) by (rewrite Zlen_zrange; lia).
  split; (split; [auto|]); (split; [intros i Hi; destruct (HR0 i Hi) as (wi & bi & -> & (Q1 & _) & (Q2 & _)); auto|]); intros idx HI.
  - rewrite T4 by auto. rewrite (rsum_ext _ _ (fun i => el w idx - lr * el (gwi i) idx)%R).
    + rewrite rsum_minus, rsum_const, rsum_scal_l, HZ, K5 by auto. cbn [s_sub s_mul RScalar]. field. lra.
    + intros i Hi. apply In_zrange in Hi. destruct (HR0 i Hi) as (wi & bi & -> & (_ & Q1) & _). apply Q1. auto.
  - rewrite T6 by auto. rewrite (rsum_ext _ _ (fun i => el b idx - lr * el (gbi i) idx)%R).
    + rewrite rsum_minus, rsum_const, rsum_scal_l, HZ, K8 by auto. cbn [s_sub s_mul RScalar]. field. lra.
    + intros i Hi. apply In_zrange in Hi. destruct (HR0 i Hi) as (wi & bi & -> & _ & (_ & Q1)). apply Q1. auto.
Qed.
Theorem batch_step_exists : forall (n : net R G) lo o lr N ds D (x t : tensor R), row_net n lo N ds D -> n_opt n = Some o -> plain_sgd lr o -> batch_for N ds D x t ->
  (exists n', fit_one n x t n') /\ forall i, 0 <= i < N -> exists ni, fit_one n (gather [i] x) (gather [i] t) ni.
Proof.
  intros n lo o lr N ds D x t HN HO HS HB. pose proof HN as (HC & HNc & HL & HD). pose proof HB as (Gx & Ex & Gt & Et).
  destruct (good_tail x N ds Gx Ex) as (Hn & HF & _). split.
  - destruct (plain_step n lo o lr _ _ x t HC HL HO HS Gx Ex (target_batch lo N D t Gt Et HD)) as (c2 & c' & _ & S2 & _). eauto.
  - intros i Hi. destruct (chain_row _ N ds _ Hn HF HC HNc) as (D0 & ED & C1). injection ED as <-. destruct (row_good N ds x i Gx Ex Hi) as (G1 & E1 & _). destruct (row_good N D t i Gt Et Hi) as (G2 & E2 & _).
    destruct (plain_step n lo o lr _ _ (gather [i] x) (gather [i] t) C1 HL HO HS G1 E1 (target_batch lo 1 D _ G2 E2 HD)) as (d2 & d' & _ & U2 & _). eauto.
Qed.
End A.

(** ** Convolution uses the first image only *)
Definition one4 (n : Z) (f : Z -> R) : tensor R := tensor_of [n; 1; 1; 1] (fun idx => f (hd 0 idx)).
Definition conv1 : conv R := mkConv (tensor_of [1; 1; 1; 1] (fun _ => 1%R)) (tensor_of [1; 1] (fun _ => 0%R)) None None None 1 1 1 1 1 0 1.
Lemma one4_good : forall n f, 0 < n <= 2 -> good (one4 n f).
Proof. intros n f H. apply good_4; try lia. unfold INT_MAX. lia. Qed.
Section C.
Context {G : Type} {HR : Rng R G}.
Definition convnet (g : G) : net R G := mkNet [LConv conv1] (Some MSE) None g.
Lemma conv1_wf : conv_wf conv1.
Proof.
  split; [apply good_4; try lia; unfold INT_MAX; lia|]. split; [reflexivity|]. split; [|reflexivity]. apply good_tensor_of; [auto with idx|]. unfold INT_MAX. cbn [prod]. lia.
Qed.
Lemma one4_in : forall n i, 0 <= i < n -> in_range [n; 1; 1; 1] [i; 0; 0; 0]. Proof. intros. apply in_range4; lia. Qed.
Lemma conv1_gradient : forall (g : G) n f, 0 < n <= 2 -> exists n' gw gb, gradients (convnet g) (one4 n f) (one4 n (fun _ => 0%R)) n' /\ grads_at n' 0 = Some (gw, gb) /\
  tdims gw = [1; 1; 1; 1] /\ el gw [0; 0; 0; 0] = (f 0%Z * (2 * f 0%Z / IZR n))%R.
Proof.
  intros g n f Hn. pose proof (one4_good n f Hn) as Gx. pose proof (one4_good n (fun _ => 0%R) Hn) as Gt. assert (HNR : (0 < IZR n)%R) by (apply IZR_lt; lia).
  assert (HM : n * (1 * ((1 - 1 + 1) * (1 - 1 + 1))) <= INT_MAX) by (unfold INT_MAX; lia).
  pose proof (conv_forward_ok conv1 (one4 n f) n 1 1 conv1_wf Gx eq_refl (Z.le_refl 1) (Z.le_refl 1) HM) as EF. cbn [cv_oc cv_kh cv_kw cv_w cv_b conv1] in EF. change (1 - 1 + 1) with 1 in EF.
  set (p := tensor_of [n; 1; 1; 1] _) in EF. assert (Gp : good p) by (apply good_4; unfold INT_MAX in *; lia).
  pose proof (mse_gradient_ok p (one4 n (fun _ => 0%R)) Gp Gt (or_introl eq_refl)) as EM. change (tdims p) with [n; 1; 1; 1] in EM.
  assert (HZ : s_eq (s_z (prod [n; 1; 1; 1])) zero = false) by (apply IZR_pos_neq; cbn [prod]; lia). specialize (EM HZ).
  set (d := tensor_of [n; 1; 1; 1] _) in EM. assert (Gd : good d) by (apply good_4; unfold INT_MAX in *; lia).
  pose proof (conv_backward_ok (conv_saw conv1 (one4 n f)) (one4 n f) d n n 1 1 1 1 conv1_wf eq_refl Gx Gd eq_refl eq_refl eq_refl eq_refl) as EB.
  unfold gradients, net_predict, net_backward, grads_at. cbn [n_layers convnet forward_all layer_forward]. unfold lift. rewrite EF. cbn [fst snd].
  do 3 eexists. split; [do 4 eexists; split; [reflexivity|]; split; [reflexivity|]; split; [exact EM|]; cbn [n_layers backward_all layer_backward]; rewrite EB; reflexivity|].
  cbn [n_layers net_with nth_error layer_grads cv_gw cv_gb]. split; [reflexivity|]. split; [reflexivity|].
  cbn [cv_oc cv_ic cv_kh cv_kw conv_saw conv1]. rewrite el_tensor_of by (apply in_range4; lia). unfold cgw. change (all_indices [1; 1]) with [[0; 0]]. cbn [map]. unfold fn2. cbn [nth]. unfold fsum. cbn [fold_left].
  change (0 + 0) with 0. unfold one4 at 1. rewrite el_tensor_of by (apply one4_in; lia). unfold d. rewrite el_tensor_of by (apply one4_in; lia). cbn [hd].
  unfold in_shape, one4. rewrite el_tensor_of by (apply one4_in; lia).
  assert (EP : el p [0; 0; 0; 0] = f 0).
  { unfold p. rewrite el_tensor_of by (apply one4_in; lia). unfold fn4. cbn [nth]. unfold conv0. change (all_indices [1; 1]) with [[0; 0]]. cbn [map]. unfold fn2. cbn [nth]. unfold fsum. cbn [fold_left].
    change (0 + 0) with 0. unfold one4. rewrite el_tensor_of by (apply one4_in; lia). rewrite el_tensor_of by (apply one4_in; lia). rewrite el_tensor_of by (apply in_range2; lia). cbn [hd s_add s_mul RScalar zero]. ring. }
  rewrite EP. change (znth zero (tdata (tensor_of [n; 1; 1; 1] (fun _ : list Z => 0%R))) (ravel [n; 1; 1; 1] [0; 0; 0; 0])) with (el (tensor_of [n; 1; 1; 1] (fun _ : list Z => 0%R)) [0; 0; 0; 0]).
  rewrite el_tensor_of by (apply one4_in; lia).
  cbn [s_add s_mul s_div s_sub s_z RScalar zero prod]. rewrite !mult_IZR. field. lra.
Qed.
End C.

Section D.
Context {G : Type} {HR : Rng R G}.
(** One convolution layer trained with the mean squared error: the gradients in closed form. *)
Definition conv_delta (l : conv R) (x t : tensor R) (N oh ow i j : Z) : R :=
  s_div (s_mul (s_sub (conv0 x (cv_w l) (cv_b l) (cv_kh l) (cv_kw l) 0 0 i j) (el t [0; 0; i; j])) (s_z 2)) (s_z (prod [N; cv_oc l; oh; ow])).
Lemma conv_gradients : forall (l : conv R) N h w oh ow (x t : tensor R) o (g : G), conv_wf l -> oh = h - cv_kh l + 1 -> ow = w - cv_kw l + 1 -> cv_kh l <= h -> cv_kw l <= w ->
  good x -> tdims x = [N; cv_ic l; h; w] -> good t -> tdims t = [N; cv_oc l; oh; ow] -> exists n' gw gb, gradients (mkNet [LConv l] (Some MSE) o g) x t n' /\ grads_at n' 0 = Some (gw, gb) /\
    tdims gw = [cv_oc l; cv_ic l; cv_kh l; cv_kw l] /\ tdims gb = [cv_oc l; 1] /\
    (forall a b c d, in_range [cv_oc l; cv_ic l; cv_kh l; cv_kw l] [a; b; c; d] -> el gw [a; b; c; d] = if (a =? 0) && (b =? 0) then rsum (all_indices [oh; ow]) (fn2 (fun i j => el x [0; 0; i + c; j + d]%Z * conv_delta l x t N oh ow i j)%R) else 0%R) /\
    (forall a, 0 <= a < cv_oc l -> el gb [a; 0] = if a =? 0 then rsum (all_indices [oh; ow]) (fn2 (fun i j => conv_delta l x t N oh ow i j)) else 0%R).
Proof.
  intros l N h w oh ow x t o g HW Eoh Eow Hkh Hkw Gx Ex Gt Et. destruct (dims4_pos _ _ _ _ _ Gt Et) as (Hn & Hoc & Hoh & How & HM).
  assert (HB : N * (cv_oc l * ((h - cv_kh l + 1) * (w - cv_kw l + 1))) <= INT_MAX) by (rewrite <- Eoh, <- Eow; auto).
  pose proof (conv_forward_ok l x N h w HW Gx Ex Hkh Hkw HB) as EF. rewrite <- Eoh, <- Eow in EF.
  set (p := tensor_of [N; cv_oc l; oh; ow] _) in EF. assert (Gp : good p) by (apply good_4; auto).
  pose proof (mse_gradient_ok p t Gp Gt (or_introl Et)) as EM. change (tdims p) with [N; cv_oc l; oh; ow] in EM.
  assert (HZ : s_eq (s_z (prod [N; cv_oc l; oh; ow])) zero = false) by (apply IZR_pos_neq; apply prod_pos; auto with idx). specialize (EM HZ).
  set (d := tensor_of [N; cv_oc l; oh; ow] _) in EM. assert (Gd : good d) by (apply good_4; auto).
  pose proof (conv_backward_ok (conv_saw l x) x d N N h w oh ow HW eq_refl Gx Gd Ex eq_refl Eoh Eow) as EB.
  unfold gradients, net_predict, net_backward, grads_at. cbn [n_layers forward_all layer_forward]. unfold lift. rewrite EF. cbn [fst snd].
  do 3 eexists. split; [do 4 eexists; split; [reflexivity|]; split; [reflexivity|]; split; [exact EM|]; cbn [n_layers backward_all layer_backward]; rewrite EB; reflexivity|].
  cbn [n_layers net_with nth_error layer_grads cv_gw cv_gb]. split; [reflexivity|]. split; [reflexivity|]. split; [reflexivity|].
  assert (ED : forall i j, 0 <= i < oh -> 0 <= j < ow -> el d [0; 0; i; j] = conv_delta l x t N oh ow i j).
  { intros i j Hi Hj. unfold d. rewrite el_tensor_of by (apply in_range4; lia). unfold p. rewrite el_tensor_of by (apply in_range4; lia). unfold in_shape. rewrite el_tensor_of by (apply in_range4; lia).
    unfold conv_delta, fn4. cbn [nth]. unfold el. rewrite Et. reflexivity. }
  split.
  - intros a b c e HI. cbn [cv_oc cv_ic cv_kh cv_kw conv_saw]. rewrite el_tensor_of by auto. unfold cgw. destruct (Z.eqb_spec a 0) as [->|Ha].
    + destruct (Z.eqb_spec b 0) as [->|Hb].
      * cbn [andb]. rewrite fsum_R. unfold rsum. f_equal. apply map_ext_in. intros idx Hx. apply In_all_indices in Hx. 2: auto with idx. destruct (in_range_2 _ _ _ Hx) as (i & j & -> & Hi & Hj). unfold fn2. cbn [nth].
        rewrite ED by auto. reflexivity.
      * destruct b; try reflexivity. lia.
    + destruct a; try reflexivity. lia.
  - intros a Ha. cbn [cv_oc cv_ic cv_kh cv_kw conv_saw]. rewrite el_tensor_of by (apply in_range2; lia). unfold cgb. destruct (Z.eqb_spec a 0) as [->|Ha'].
    + change (idx_eqb [0; 0] [0; 0]) with true. cbv iota. rewrite fsum_R. unfold rsum. f_equal. apply map_ext_in. intros idx Hx. apply In_all_indices in Hx. 2: auto with idx. destruct (in_range_2 _ _ _ Hx) as (i & j & -> & Hi & Hj). unfold fn2. cbn [nth]. apply ED; auto.
    + destruct a; try reflexivity. lia.
Qed.
Lemma conv_first : forall (l : conv R) N h w oh ow (x t : tensor R) o (g : G) n' m, conv_wf l -> oh = h - cv_kh l + 1 -> ow = w - cv_kw l + 1 -> cv_kh l <= h -> cv_kw l <= w ->
  good x -> tdims x = [N; cv_ic l; h; w] -> good t -> tdims t = [N; cv_oc l; oh; ow] ->
  gradients (mkNet [LConv l] (Some MSE) o g) x t n' -> gradients (mkNet [LConv l] (Some MSE) o g) (gather [0] x) (gather [0] t) m ->
  exists gw gb gw0 gb0, grads_at n' 0 = Some (gw, gb) /\ grads_at m 0 = Some (gw0, gb0) /\ tdims gw = tdims (cv_w l) /\ tdims gb = tdims (cv_b l) /\
    (forall idx, in_range (tdims (cv_w l)) idx -> el gw idx = (el gw0 idx / IZR N)%R) /\ (forall idx, in_range (tdims (cv_b l)) idx -> el gb idx = (el gb0 idx / IZR N)%R).
Proof.
  intros l N h w oh ow x t o g n' m HW Eoh Eow Hkh Hkw Gx Ex Gt Et H1 H2. destruct (dims4_pos _ _ _ _ _ Gt Et) as (Hn & Hoc & Hoh & How & HM).
  destruct (row_good N _ x 0 Gx Ex ltac:(lia)) as (G1 & E1 & X1). destruct (row_good N _ t 0 Gt Et ltac:(lia)) as (G2 & E2 & X2).
  destruct (conv_gradients l N h w oh ow x t o g HW Eoh Eow Hkh Hkw Gx Ex Gt Et) as (n0 & gw & gb & A1 & A2 & A3 & A4 & A5 & A6).
  destruct (conv_gradients l 1 h w oh ow _ _ o g HW Eoh Eow Hkh Hkw G1 E1 G2 E2) as (m0 & gw0 & gb0 & B1 & B2 & B3 & B4 & B5 & B6).
  rewrite (gradients_fun _ _ _ _ _ H1 A1), (gradients_fun _ _ _ _ _ H2 B1). exists gw, gb, gw0, gb0. pose proof HW as (GW & EW & GB & EB). rewrite EW, EB.
  destruct (dims4_pos _ _ _ _ _ GW EW) as (_ & Hic & Hkh0 & Hkw0 & _). destruct (dims4_pos _ _ _ _ _ Gx Ex) as (_ & _ & Hh & Hw & _).
  assert (HNR : (0 < IZR N)%R) by (apply IZR_lt; lia). assert (HP : (0 < IZR (cv_oc l * (oh * ow)))%R) by (apply IZR_lt; nia).
  assert (ED : forall i j, 0 <= i < oh -> 0 <= j < ow -> conv_delta l x t N oh ow i j = (conv_delta l (gather [0%Z] x) (gather [0%Z] t) 1 oh ow i j / IZR N)%R).
  { intros i j Hi Hj. unfold conv_delta. rewrite X2 by (apply in_range3; lia).
    assert (EC : conv0 (gather [0] x) (cv_w l) (cv_b l) (cv_kh l) (cv_kw l) 0 0 i j = conv0 x (cv_w l) (cv_b l) (cv_kh l) (cv_kw l) 0 0 i j).
    { unfold conv0. f_equal. f_equal. apply map_ext_in. intros idx Hx. apply In_all_indices in Hx; [|auto with idx]. destruct (in_range_2 _ _ _ Hx) as (a & b & -> & Ha & Hb). unfold fn2. cbn [nth]. f_equal. apply X1. apply in_range3; lia. }
    rewrite EC. cbn [s_sub s_mul s_div s_z RScalar]. change (prod [N; cv_oc l; oh; ow]) with (N * prod [cv_oc l; oh; ow]). change (prod [1; cv_oc l; oh; ow]) with (1 * prod [cv_oc l; oh; ow]).
    assert (0 < IZR (prod [cv_oc l; oh; ow]))%R by (apply IZR_lt; apply prod_pos; auto with idx). rewrite !mult_IZR. field. split; lra. }
  split; [auto|]. split; [auto|]. split; [auto|]. split; [auto|]. split.
  - intros idx HI. destruct (in_range_4 _ _ _ _ _ HI) as (a & b & c & d & -> & Ha & Hb & Hc & Hd). rewrite A5, B5 by auto. destruct ((a =? 0) && (b =? 0)); [|lra].
    rewrite (rsum_ext _ _ (fun r => fn2 (fun i j => el (gather [0%Z] x) [0; 0; i + c; j + d]%Z * conv_delta l (gather [0%Z] x) (gather [0%Z] t) 1 oh ow i j)%R r * / IZR N)%R).
    + rewrite <- rsum_mul_r. reflexivity.
    + intros r Hr. apply In_all_indices in Hr; [|auto with idx]. destruct (in_range_2 _ _ _ Hr) as (i & j & -> & Hi & Hj). unfold fn2. cbn [nth]. rewrite ED, X1 by (auto; apply in_range3; lia). field. lra.
  - intros idx HI. destruct (in_range_2 _ _ _ HI) as (a & b & -> & Ha & Hb). assert (b = 0) by lia. subst b. rewrite A6, B6 by auto. destruct (a =? 0); [|lra].
    rewrite (rsum_ext _ _ (fun r => fn2 (fun i j => conv_delta l (gather [0%Z] x) (gather [0%Z] t) 1 oh ow i j) r * / IZR N)%R).
    + rewrite <- rsum_mul_r. reflexivity.
    + intros r Hr. apply In_all_indices in Hr; [|auto with idx]. destruct (in_range_2 _ _ _ Hr) as (i & j & -> & Hi & Hj). unfold fn2. cbn [nth]. rewrite ED by auto. field. lra.
Qed.
Lemma conv_gradients_exist : forall (l : conv R) N h w oh ow (x t : tensor R) o (g : G), conv_wf l -> oh = h - cv_kh l + 1 -> ow = w - cv_kw l + 1 -> cv_kh l <= h -> cv_kw l <= w ->
  good x -> tdims x = [N; cv_ic l; h; w] -> good t -> tdims t = [N; cv_oc l; oh; ow] -> exists n', gradients (mkNet [LConv l] (Some MSE) o g) x t n'.
Proof. intros l N h w oh ow x t o g HW Eoh Eow Hkh Hkw Gx Ex Gt Et. destruct (conv_gradients l N h w oh ow x t o g HW Eoh Eow Hkh Hkw Gx Ex Gt Et) as (n' & _ & _ & A & _). eauto. Qed.
Theorem conv_not_average : forall (g : G), exists (n : net R G) (x t : tensor R) n' (m : Z -> net R G) w b gw gb gwi gbi,
  n_loss n = Some MSE /\ n_layers n = [LConv (mkConv w b None None None 1 1 1 1 1 0 1)] /\ good x /\ tdims x = [2; 1; 1; 1] /\ good t /\ tdims t = [2; 1; 1; 1] /\
  gradients n x t n' /\ (forall i, 0 <= i < 2 -> gradients n (gather [i] x) (gather [i] t) (m i)) /\
  params_at n 0 = Some (w, b) /\ grads_at n' 0 = Some (gw, gb) /\ (forall i, 0 <= i < 2 -> grads_at (m i) 0 = Some (gwi i, gbi i)) /\ ~ average_of 2 (tdims w) gwi gw.
Proof.
  intros g. destruct (conv1_gradient g 2 IZR ltac:(lia)) as (n' & gw & gb & A1 & A2 & A3 & A4).
  destruct (conv1_gradient g 1 (fun _ => 0%R) ltac:(lia)) as (m0 & gw0 & gb0 & B1 & B2 & B3 & B4).
  destruct (conv1_gradient g 1 (fun _ => 1%R) ltac:(lia)) as (m1 & gw1 & gb1 & C1 & C2 & C3 & C4).
  exists (convnet g), (one4 2 IZR), (one4 2 (fun _ => 0%R)), n', (fun i => if i =? 0 then m0 else m1), (cv_w conv1), (cv_b conv1), gw, gb, (fun i => if i =? 0 then gw0 else gw1), (fun i => if i =? 0 then gb0 else gb1).
  assert (HI : forall i, 0 <= i < 2 -> i = 0 \/ i = 1) by lia.
  assert (HG : forall f i c, 0 <= i < 2 -> f i = c -> gather [i] (one4 2 f) = one4 1 (fun _ => c)).
  { intros f i c Hi E. unfold one4. rewrite (gather_of [i] 2) by (try (apply single_rows; lia); repeat (apply Forall_cons; [lia|]); apply Forall_nil). change (Zlen [i]) with 1. apply tensor_of_ext; [auto with idx|]. intros idx Hx. destruct (in_range_4 _ _ _ _ _ Hx) as (a & b & c0 & d & -> & Ha & _).
    cbn [hd]. assert (a = 0) by lia. subst a. exact E. }
  split; [reflexivity|]. split; [reflexivity|]. split; [apply one4_good; lia|]. split; [reflexivity|]. split; [apply one4_good; lia|]. split; [reflexivity|]. split; [exact A1|]. split.
  { intros i Hi. rewrite (HG (fun _ => 0%R) i 0%R Hi eq_refl). destruct (HI i Hi) as [->| ->]; rewrite (HG IZR _ _ Hi eq_refl); [exact B1|exact C1]. }
  split; [reflexivity|]. split; [exact A2|]. split; [intros i Hi; destruct (HI i Hi) as [->| ->]; [exact B2|exact C2]|].
  intros (_ & _ & H). specialize (H [0; 0; 0; 0] ltac:(apply in_range4; lia)). rewrite A4 in H. change (zrange 0 2) with [0; 1] in H. rewrite !rsum_cons, rsum_nil in H. cbv beta in H.
  change (0 =? 0) with true in H. change (1 =? 0) with false in H. cbv iota in H. rewrite B4, C4 in H. lra.
Qed.
End D.
