(** * Leaving out features that are always zero and hidden units that are never active (C130, C131) *)
From Coq Require Import String Reals Lra Permutation.
From Verif Require Import Base Scalar ScalarR Types Spec SpecR SpecNN SpecLayers SpecOpt M_Shape M_Tensor M_Adv M_Act M_Loss M_Layers M_Reg M_Opt M_Net M_Text M_Log SpecNet SpecLog SpecRetry SpecFit SpecPrune
  L_Index L_Shape L_Bcast L_Tensor L_Nest L_Glue L_Matmul L_Adv L_RSum L_Act L_AdvR L_ActR L_Loss L_Layers L_Conv L_Rows L_Pool L_Pool2 L_Drop L_BN L_Opt L_Net L_Net2 L_Train L_Log L_Retry L_Perm L_Fit L_Embed.
Local Open Scope Z_scope.
Local Open Scope list_scope.

Lemma rsum_pick : forall k k' (f : Z -> Z) (a b : Z -> R), picks k k' f -> (forall i, 0 <= i < k -> b (f i) = a i) -> (forall j, 0 <= j < k' -> left_out k f j -> b j = 0%R) ->
  rsum (zrange 0 k') b = rsum (zrange 0 k) a.
Proof.
  intros k k' f a b (H1 & H2) HA HB. pose (im := map f (zrange 0 k)). pose (isin := fun j => if in_dec Z.eq_dec j im then true else false).
  assert (E1 : rsum (zrange 0 k') b = rsum (filter isin (zrange 0 k')) b).
  { assert (HI : forall j, In j (zrange 0 k') -> isin j = false -> b j = 0%R).
    { intros j Hj HN. apply In_zrange in Hj. apply HB; [lia|]. intros i Hi E. unfold isin in HN. destruct (in_dec Z.eq_dec j im) as [|N]; [discriminate|]. apply N. unfold im. apply in_map_iff. exists i. split; [auto|apply In_zrange; lia]. }
    induction (zrange 0 k') as [|j l IH]; [reflexivity|]. cbn [filter]. rewrite rsum_cons, IH by (intros; apply HI; [right; auto|auto]). destruct (isin j) eqn:EJ; [rewrite rsum_cons; reflexivity|]. rewrite (HI j); [lra|left; auto|auto]. }
  rewrite E1. transitivity (rsum im b).
  - apply rsum_perm. apply NoDup_Permutation; [apply NoDup_filter, NoDup_zrange| |].
    + unfold im. clear - H2. assert (HI : forall i, In i (zrange 0 k) -> 0 <= i < k) by (intros i Hi; apply In_zrange in Hi; lia). pose proof (NoDup_zrange 0 k) as HN.
      induction (zrange 0 k) as [|c l IH]; cbn [map]; [constructor|]. inversion HN; subst. constructor.
      * intros HX. apply in_map_iff in HX. destruct HX as (d & E & Hd). assert (d = c) by (apply H2; auto; apply HI; cbn; auto). congruence.
      * apply IH; auto. intros; apply HI; right; auto.
    + intros j. rewrite filter_In. unfold isin. split.
      * intros (_ & E). destruct (in_dec Z.eq_dec j im); [auto|discriminate].
      * intros HJ. split; [|destruct (in_dec Z.eq_dec j im); [auto|contradiction]]. unfold im in HJ. apply in_map_iff in HJ. destruct HJ as (i & <- & Hi). apply In_zrange in Hi. apply In_zrange. specialize (H1 i). lia.
  - unfold im. rewrite rsum_map. apply rsum_ext. intros i Hi. apply In_zrange in Hi. apply HA. lia.
Qed.
Lemma picked_or_not : forall k (f : Z -> Z) j, (exists i, 0 <= i < k /\ f i = j) \/ left_out k f j.
Proof.
  intros k f j. destruct (in_dec Z.eq_dec j (map f (zrange 0 k))) as [H|H].
  - left. apply in_map_iff in H. destruct H as (i & E & Hi). apply In_zrange in Hi. exists i. split; [lia|auto].
  - right. intros i Hi E. apply H. apply in_map_iff. exists i. split; [auto|apply In_zrange; lia].
Qed.

Section S.
Variable M : R.
Local Hint Extern 0 (Scalar R) => exact (L_Fit.RI M) : typeclass_instances.
Context {G : Type} {HR : Rng R G}.
Local Notation layer := (layer R).

Lemma sum_pick : forall k k' (f : Z -> Z) (a b : Z -> R), picks k k' f -> (forall i, 0 <= i < k -> b (f i) = a i) -> (forall j, 0 <= j < k' -> left_out k f j -> b j = 0%R) -> sum_to k' b = sum_to k a.
Proof. intros k k' f a b HP HA HB. transitivity (rsum (zrange 0 k') b); [exact (sum_to_R k' b)|]. transitivity (rsum (zrange 0 k) a); [apply (rsum_pick k k' f); auto|symmetry; exact (sum_to_R k a)]. Qed.
Lemma sum_null : forall k (a : Z -> R), (forall i, 0 <= i < k -> a i = 0%R) -> sum_to k a = 0%R.
Proof. intros k a H. unfold sum_to. apply (sum_zero M). intros i Hi. apply In_zrange in Hi. apply H. lia. Qed.
Lemma sum_same : forall k (a b : Z -> R), (forall i, 0 <= i < k -> a i = b i) -> sum_to k a = sum_to k b.
Proof. intros k a b H. unfold sum_to. f_equal. apply map_ext_in. intros i Hi. apply In_zrange in Hi. apply H. lia. Qed.

(** ** Features *)
Section Inputs.
Variable k k' o : Z.
Variable f : Z -> Z.
Hypothesis HF : picks k k' f.
Variable D : Z -> list Z.
Hypothesis D0 : D 0 = [k; o].
Hypothesis D1 : D 1 = [1; o].
Variable FZ : Prop.
Variable W0 : tensor R.
Definition in_D (a : Z) : list Z := if a =? 0 then [k'; o] else D a.
Definition in_pos (a : Z) (idx : list Z) : list Z := if a =? 0 then match idx with [i; j] => [f i; j] | _ => idx end else idx.
Definition in_K (a : Z) (idx : list Z) : Prop := FZ /\ a = 0 /\ exists i j, idx = [i; j] /\ left_out k f i.
Definition in_kept (l' : fc R) : Prop := FZ -> forall i j, 0 <= i < k' -> 0 <= j < o -> left_out k f i -> el (fc_w l') [i; j] = el W0 [i; j].
Definition in_PR (q q' : list layer) : Prop := exists l l', q = [LFC l] /\ q' = [LFC l'] /\ tdims (fc_w l) = [k; o] /\ fewer_inputs k k' f l l' /\ in_kept l'.
Lemma in_shared : shared_from D in_D in_pos in_K 1.
Proof. intros a Ha. unfold in_D, in_pos, in_K. destruct (Z.eqb_spec a 0); [lia|]. split; [auto|]. split; [auto|]. intros idx (_ & H & _). contradiction. Qed.
Lemma in_emb : forall w w' : tensor R, emb M D in_D in_pos 0 w w' <-> good w /\ good w' /\ tdims w = [k; o] /\ tdims w' = [k'; o] /\ forall i j, 0 <= i < k -> 0 <= j < o -> el w' [f i; j] = el w [i; j].
Proof.
  intros w w'. unfold emb, in_D, in_pos. rewrite Z.eqb_refl, D0. split; intros (H1 & H2 & H3 & H4 & H5); do 4 (split; [auto|]).
  - intros i j Hi Hj. apply (H5 [i; j]). apply in_range2; auto.
  - intros idx HI. apply in_range_2 in HI. destruct HI as (i & j & -> & Hi & Hj). split; [apply in_range2; [apply HF|]; auto|auto].
Qed.
Lemma in_pass : forall pre pre' (x x' : tensor R) (g : G) ds dm, accepts_all ds pre dm -> good x -> tdims x = ds -> in_PR pre pre' -> with_blanks k k' f x x' ->
  Zlen pre = 1 /\ exists p1 p1' g1 y, forward_all pre x g = (p1, g1, Ok y) /\ forward_all pre' x' g = (p1', g1, Ok y) /\
    forall d, good d -> tdims d = dm -> exists p2 p2' gx gx', backward_all p1 d = (p2, Ok gx) /\ backward_all p1' d = (p2', Ok gx') /\ Zlen p2 = 1 /\ List.length p2' = List.length p2 /\
      (map params_dims p2 = map params_dims pre) /\ (dims_at D 0 pre -> ready M D in_D in_pos in_K 0 p2 p2') /\ forall q q', updated M D in_D in_pos in_K 0 p2 p2' q q' -> in_PR q q'.
Proof.
  intros pre pre' x x' g ds dm HA Gx Ex (l & l' & -> & -> & EW & HL & HK) (n & _ & Gx' & Ex2 & Ex' & VX & ZX). split; [reflexivity|].
  destruct HL as (o0 & GW & GW' & EW0 & EW' & EB & GB & EBd & VW). rewrite EW in EW0. injection EW0 as <-.
  inversion HA as [|? ? ? ? ? H1 H2]; subst. inversion H2; subst. inversion H1 as [n0 k0 o0 l0 W1 W2 W3 W4 HM| | | | |]; subst. rewrite EW in W2. injection W2 as <- <-. match goal with H : [n0; k] = tdims x |- _ => rewrite Ex2 in H; injection H as -> end.
  assert (HW : fc_wf l k o) by (split; auto). assert (HW' : fc_wf l' k' o) by (split; [auto|]; split; [auto|]; rewrite EB; auto).
  cbn [forward_all layer_forward]. rewrite (fc_forward_2 l k o x n HW Gx Ex2 HM), (fc_forward_2 l' k' o x' n HW' Gx' Ex' HM). unfold lift; cbn [fst snd].
  assert (EY : forall i j, 0 <= i < n -> 0 <= j < o -> affine k' (fc_w l') (fc_b l') (fun p => el x' [i; p]) j = affine k (fc_w l) (fc_b l) (fun p => el x [i; p]) j).
  { intros i j Hi Hj. unfold affine. rewrite EB. f_equal. apply (sum_pick k k' f); auto; [intros p Hp; rewrite VX, VW by auto; reflexivity|]. intros p Hp HL. rewrite ZX by auto. apply (mul_zero_l M). }
  destruct (dims2_pos x n k Gx Ex2) as (Hn & Hk & _). destruct (dims2_pos _ k o GW EW) as (_ & Ho & HMk). destruct (dims2_pos _ k' o GW' EW') as (Hk' & _ & HMk').
  assert (EYT : tensor_of [n; o] (fn2 (fun i j => affine k' (fc_w l') (fc_b l') (fun p => el x' [i; p]) j)) = tensor_of [n; o] (fn2 (fun i j => affine k (fc_w l) (fc_b l) (fun p => el x [i; p]) j))).
  { apply tensor_of_ext; [repeat (constructor; [lia|]); constructor|]. intros idx HI. apply in_range_2 in HI. destruct HI as (i & j & -> & Hi & Hj). unfold fn2. cbn [nth]. apply EY; auto. }
  rewrite EYT. do 4 eexists. split; [reflexivity|]. split; [reflexivity|].
  intros d Gd Ed. cbn [backward_all layer_backward].
  assert (AR : forall (y : tensor R) a b, tdims y = [a; b] -> as_row y = Ok y) by (intros y a b E; unfold as_row, rank; fold (tdims y); rewrite E; reflexivity).
  rewrite (fc_backward_rows _ k o n x d x d); eauto. rewrite (fc_backward_rows _ k' o n x' d x' d); eauto. cbn [fst snd M_Layers.fc_w M_Layers.fc_b].
  do 4 eexists. split; [reflexivity|]. split; [reflexivity|]. split; [reflexivity|]. split; [reflexivity|]. split; [reflexivity|].
  assert (E0 : emb M D in_D in_pos 0 (fc_w l) (fc_w l')) by (apply in_emb; auto 10).
  assert (E1 : forall b : tensor R, good b -> tdims b = [1; o] -> emb M D in_D in_pos 1 b b).
  { intros b Gb Eb. assert (S1 : in_D 1 = D 1) by reflexivity. assert (S2 : forall idx, in_pos 1 idx = idx) by reflexivity. apply shared_emb; auto. congruence. }
  split.
  - intros _. eapply rd_some; [reflexivity..| | | | | | |constructor]; change (2 * 0) with 0; change (0 + 1) with 1; cbn [M_Layers.fc_w M_Layers.fc_b].
    + exact E0.
    + rewrite EB. apply E1; auto.
    + apply in_emb. split; [apply good_2; auto|]. split; [apply good_2; auto|]. split; [reflexivity|]. split; [reflexivity|]. intros i j Hi Hj. rewrite !el_tensor_of by (apply in_range2; auto; apply HF; auto). unfold fn2, fc_dw. cbn [nth].
      apply sum_same. intros r Hr. rewrite VX by auto. reflexivity.
    + apply E1; [apply good_2; auto; nia|reflexivity].
    + intros idx (_ & _ & i & j & -> & HL) HI. unfold in_D in HI. rewrite Z.eqb_refl in HI. apply in_range_2 in HI. destruct HI as (i' & j' & EQ & Hi & Hj). injection EQ as <- <-. rewrite el_tensor_of by (apply in_range2; auto). unfold fn2, fc_dw. cbn [nth].
      apply sum_null. intros r Hr. rewrite ZX by auto. apply (mul_zero_l M).
    + intros idx (_ & H & _). discriminate H.
  - intros q q' HU. inversion HU as [|? ? ? ? ? ? ? NP|? ? ? ? ? q0 q0' w' b' w1 b1 w1' b1' NP PP U1 U2 U3 U4 U5]; subst; [discriminate NP|]. inversion U5; subst. cbn [layer_params M_Layers.fc_w M_Layers.fc_b] in PP. injection PP as <- <-. change (2 * 0) with 0 in *. change (0 + 1) with 1 in *.
    apply in_emb in U1. destruct U1 as (X1 & X2 & X3 & X4 & X5). assert (S1 : in_D 1 = D 1) by reflexivity. assert (S2 : forall idx, in_pos 1 idx = idx) by reflexivity. apply shared_eq in U2 as EB1; auto. destruct U2 as (Y1 & _ & Y2 & _). rewrite D1 in Y2.
    cbn [with_params]. do 2 eexists. split; [reflexivity|]. split; [reflexivity|]. cbn [M_Layers.fc_w M_Layers.fc_b]. split; [auto|]. split.
    + exists o. cbn [M_Layers.fc_w M_Layers.fc_b]. auto 10.
    + intros Z i j Hi Hj HL. cbn [M_Layers.fc_w]. rewrite (U3 [i; j]); [apply HK; auto|split; [auto|split; [reflexivity|exists i, j; auto]]|]. unfold in_D. rewrite Z.eqb_refl. apply in_range2; auto.
Qed.
End Inputs.

Theorem blank_features : forall (show : R -> string) k k' f l l' rest ds ds' lo o (n n2 : net R G) xs xs2 ts e, picks k k' f -> fewer_inputs k k' f l l' -> n_layers n = LFC l :: rest -> n_layers n2 = LFC l' :: rest ->
  n_loss n2 = n_loss n -> n_opt n2 = n_opt n -> n_rng n2 = n_rng n -> accepts_all ds (n_layers n) ds' -> n_loss n = Some lo -> n_opt n = Some o -> new_optim o ->
  0 < Zlen xs <= Zlen ts -> Zlen xs <= INT_MAX -> 0 <= e -> e * Zlen xs * Zlen (n_layers n) <= INT_MAX -> Forall (fun x => good x /\ tdims x = ds) xs -> Forall (target_fits lo ds') ts -> Forall2 (with_blanks k k' f) xs xs2 ->
  exists n' n2' out l1 l1' rest1, net_train_report show n xs ts e = ((n', out), Ok tt) /\ net_train_report show n2 xs2 ts e = ((n2', out), Ok tt) /\
    n_layers n' = LFC l1 :: rest1 /\ n_layers n2' = LFC l1' :: rest1 /\ fewer_inputs k k' f l1 l1' /\
    (no_penalty o -> forall i j, in_range (tdims (fc_w l')) [i; j] -> left_out k f i -> el (fc_w l1') [i; j] = el (fc_w l') [i; j]) /\
    forall x x2, good x -> tdims x = ds -> with_blanks k k' f x x2 -> exists y, snd (net_predict n' x) = Ok y /\ snd (net_predict n2' x2) = Ok y /\ tdims y = ds'.
Proof.
  intros show k k' f l l' rest ds ds' lo o n n2 xs xs2 ts e HF HL N1 N2 NL NO NR HA HLo HOp HN HX HX3 HE HM HF1 HF2 RX.
  pose (D := fun a => dims_map (n_layers n) (a - 2 * 0)). assert (HD : dims_at D 0 (n_layers n)) by apply dims_map_at. pose proof HL as (c & GW & GW' & EW & EW' & EB & GB & EBd & VW).
  assert (HD' : D 0 = [k; c] /\ D 1 = [1; c]). { rewrite N1 in HD. destruct HD as (H & _). cbn [layer_params] in H. change (2 * 0) with 0 in H. change (0 + 1) with 1 in H. destruct H. split; congruence. }
  destruct HD' as (D0 & D1).
  pose proof (in_shared k k' c f D (no_penalty o)) as HS. pose proof (in_pass k k' c f HF D D0 D1 (no_penalty o) (fc_w l')) as HP.
  assert (CP : coupled (in_PR k k' c f (no_penalty o) (fc_w l')) n n2).
  { exists [LFC l], [LFC l'], rest. split; [auto|]. split; [auto|]. split; [|auto]. exists l, l'. split; [auto|]. split; [auto|]. split; [auto|]. split; [auto|]. intros _ i j _ _ _. reflexivity. }
  destruct (embed_train M D (in_D k' c D) (in_pos f) (in_K k f (no_penalty o)) 1 _ _ HS HP show ds ds' lo o n n2 xs xs2 ts e) as (n' & n2' & out & E1 & E2 & A' & CP'); auto.
  { intros (a & idx & H & _). exact H. }
  destruct CP' as (pre & pre' & rest1 & L1 & L2 & PR & C1 & C2). pose proof PR as (l1 & l1' & -> & -> & W1 & F1 & K1). exists n', n2', out, l1, l1', rest1. do 5 (split; [auto|]). split.
  - intros HNP i j HI HLo'. rewrite EW' in HI. apply in_range_2 in HI. destruct HI as (i' & j' & EQ & Hi & Hj). injection EQ as <- <-. apply K1; auto.
  - intros x x2 Gx Ex RB. apply (embed_predict M D (in_D k' c D) (in_pos f) (in_K k f (no_penalty o)) 1 _ _ HP ds ds' n' n2' x x2); auto. exists [LFC l1], [LFC l1'], rest1. auto.
Qed.

(** ** Hidden units *)
Lemma relu_off : forall v : R, (v <= 0)%R -> act_el ReLU v = 0%R /\ forall d, act_del ReLU v d = 0%R.
Proof.
  intros v H. assert (E : s_lt zero v = false) by (change (Rltb 0 v = false); unfold Rltb; destruct (Rlt_dec 0 v); [lra|reflexivity]). cbn [act_el act_del]. unfold s_max. rewrite E. split; [reflexivity|]. intros d. apply (mul_zero_l M).
Qed.
Section Units.
Variable k o o' c : Z.
Variable f : Z -> Z.
Hypothesis HF : picks o o' f.
Variable D : Z -> list Z.
Hypothesis D0 : D 0 = [k; o].
Hypothesis D1 : D 1 = [1; o].
Hypothesis D4 : D 4 = [o; c].
Hypothesis D5 : D 5 = [1; c].
Variable W0 B0 V0 : tensor R.
Definition un_D (a : Z) : list Z := if a =? 0 then [k; o'] else if a =? 1 then [1; o'] else if a =? 4 then [o'; c] else D a.
Definition un_pos (a : Z) (idx : list Z) : list Z :=
  if (a =? 0) || (a =? 1) then match idx with [i; j] => [i; f j] | _ => idx end else if a =? 4 then match idx with [i; j] => [f i; j] | _ => idx end else idx.
Definition un_K (a : Z) (idx : list Z) : Prop := exists i j, idx = [i; j] /\ ((a = 0 \/ a = 1) /\ left_out o f j \/ a = 4 /\ left_out o f i).
Definition frozen (l1' l2' : fc R) : Prop :=
  (forall i j, 0 <= i < k -> 0 <= j < o' -> left_out o f j -> el (fc_w l1') [i; j] = el W0 [i; j]) /\ (forall j, 0 <= j < o' -> left_out o f j -> el (fc_b l1') [0; j] = el B0 [0; j]) /\
  (forall i j, 0 <= i < o' -> 0 <= j < c -> left_out o f i -> el (fc_w l2') [i; j] = el V0 [i; j]).
Definition un_PR (q q' : list layer) : Prop := exists l1 a l2 l1' a' l2', q = [LFC l1; LAct a; LFC l2] /\ q' = [LFC l1'; LAct a'; LFC l2'] /\ al_act a = ReLU /\ al_act a' = ReLU /\
  tdims (fc_w l1) = [k; o] /\ tdims (fc_w l2) = [o; c] /\ fewer_outputs o o' f l1 l1' /\ fewer_inputs o o' f l2 l2' /\ frozen l1' l2'.
Definition off (x : tensor R) : Prop := forall n r j, tdims x = [n; k] -> 0 <= r < n -> 0 <= j < o' -> left_out o f j -> (affine k W0 B0 (fun p => el x [r; p]) j <= 0)%R.
Definition un_XR (x x' : tensor R) : Prop := x' = x /\ off x /\ forall n, tdims x = [n; k] -> n * o' <= INT_MAX.
Lemma un_shared : shared_from D un_D un_pos un_K 3.
Proof.
  intros a Ha. unfold un_D, un_pos, un_K. destruct (Z.eqb_spec a 0), (Z.eqb_spec a 1), (Z.eqb_spec a 4); try lia. cbn [orb]. split; [auto|]. split; [auto|]. intros idx (i & j & _ & [([H | H] & _)|(H & _)]); lia.
Qed.
Lemma un_emb0 : forall w w' : tensor R, emb M D un_D un_pos 0 w w' <-> good w /\ good w' /\ tdims w = [k; o] /\ tdims w' = [k; o'] /\ forall i j, 0 <= i < k -> 0 <= j < o -> el w' [i; f j] = el w [i; j].
Proof.
  intros w w'. unfold emb. change (un_D 0) with [k; o']. rewrite D0. split; intros (H1 & H2 & H3 & H4 & H5); do 4 (split; [auto|]).
  - intros i j Hi Hj. apply (H5 [i; j]). apply in_range2; auto.
  - intros idx HI. apply in_range_2 in HI. destruct HI as (i & j & -> & Hi & Hj). split; [apply in_range2; [|apply HF]; auto|apply H5; auto].
Qed.
Lemma un_emb1 : forall w w' : tensor R, emb M D un_D un_pos 1 w w' <-> good w /\ good w' /\ tdims w = [1; o] /\ tdims w' = [1; o'] /\ forall j, 0 <= j < o -> el w' [0; f j] = el w [0; j].
Proof.
  intros w w'. unfold emb. change (un_D 1) with [1; o']. rewrite D1. split; intros (H1 & H2 & H3 & H4 & H5); do 4 (split; [auto|]).
  - intros j Hj. apply (H5 [0; j]). apply in_range2; auto; lia.
  - intros idx HI. apply in_range_2 in HI. destruct HI as (i & j & -> & Hi & Hj). assert (i = 0) by lia. subst i. split; [apply in_range2; [|apply HF]; auto|apply H5; auto].
Qed.
Lemma un_emb4 : forall w w' : tensor R, emb M D un_D un_pos 4 w w' <-> good w /\ good w' /\ tdims w = [o; c] /\ tdims w' = [o'; c] /\ forall i j, 0 <= i < o -> 0 <= j < c -> el w' [f i; j] = el w [i; j].
Proof.
  intros w w'. unfold emb. change (un_D 4) with [o'; c]. rewrite D4. split; intros (H1 & H2 & H3 & H4 & H5); do 4 (split; [auto|]).
  - intros i j Hi Hj. apply (H5 [i; j]). apply in_range2; auto.
  - intros idx HI. apply in_range_2 in HI. destruct HI as (i & j & -> & Hi & Hj). split; [apply in_range2; [apply HF|]; auto|apply H5; auto].
Qed.
Lemma un_pass : forall pre pre' (x x' : tensor R) (g : G) ds dm, accepts_all ds pre dm -> good x -> tdims x = ds -> un_PR pre pre' -> un_XR x x' ->
  Zlen pre = 3 /\ exists p1 p1' g1 y, forward_all pre x g = (p1, g1, Ok y) /\ forward_all pre' x' g = (p1', g1, Ok y) /\
    forall d, good d -> tdims d = dm -> exists p2 p2' gx gx', backward_all p1 d = (p2, Ok gx) /\ backward_all p1' d = (p2', Ok gx') /\ Zlen p2 = 3 /\ List.length p2' = List.length p2 /\
      (map params_dims p2 = map params_dims pre) /\ (dims_at D 0 pre -> ready M D un_D un_pos un_K 0 p2 p2') /\ forall q q', updated M D un_D un_pos un_K 0 p2 p2' q q' -> un_PR q q'.
Proof.
  intros pre pre' x x' g ds dm HA Gx Ex (l1 & a & l2 & l1' & a' & l2' & -> & -> & EA & EA' & EW1 & EW2 & HL1 & HL2 & HK) (-> & HX & HM'). split; [reflexivity|].
  destruct HL1 as (k0 & GW1 & GW1' & EW0 & EW1' & GB1 & GB1' & EB1 & EB1' & VW1 & VB1). rewrite EW1 in EW0. injection EW0 as <-.
  destruct HL2 as (o0 & GW2 & GW2' & EW0 & EW2' & EB & GB2 & EB2 & VW2). rewrite EW2 in EW0. injection EW0 as <-. destruct HK as (K1 & K2 & K3).
  inversion HA as [|? ? dh ? ? A1 A2]; subst. inversion A1 as [n k0 o0 l0 W1 W2 W3 W4 HM1| | | | |]; subst. rewrite EW1 in W2. injection W2 as <- <-. match goal with H : [n; k] = tdims x |- _ => rename H into Ex; symmetry in Ex end.
  inversion A2 as [|? ? dh ? ? A3 A4]; subst. inversion A3; subst. inversion A4 as [|? ? dh ? ? A5 A6]; subst. inversion A6; subst. inversion A5 as [n0 k0 o0 l0 W1' W2 W3' W4' HM2| | | | |]; subst. rewrite EW2 in W2. injection W2 as <-. subst.
  destruct (dims2_pos x n k Gx Ex) as (Hn & Hk & _). destruct (dims2_pos _ k o GW1 EW1) as (_ & Ho & HMo). destruct (dims2_pos _ k o' GW1' EW1') as (_ & Ho' & HMo'). destruct (dims2_pos _ o c GW2 EW2) as (_ & Hc & HMc). destruct (dims2_pos _ o' c GW2' EW2') as (_ & _ & HMc').
  assert (HF1 : fc_wf l1 k o) by (split; auto). assert (HF1' : fc_wf l1' k o') by (split; auto). assert (HF2 : fc_wf l2 o c) by (split; auto). assert (HF2' : fc_wf l2' o' c) by (split; [auto|]; split; [auto|]; rewrite EB; auto). specialize (HM' n Ex).
  cbn [forward_all layer_forward]. rewrite (fc_forward_2 l1 k o x n HF1 Gx Ex HM1), (fc_forward_2 l1' k o' x n HF1' Gx Ex HM'). unfold lift; cbn [fst snd].
  set (h := tensor_of [n; o] (fn2 (fun i j => affine k (fc_w l1) (fc_b l1) (fun p => el x [i; p]) j))). set (h' := tensor_of [n; o'] (fn2 (fun i j => affine k (fc_w l1') (fc_b l1') (fun p => el x [i; p]) j))).
  assert (Gh : good h) by (apply good_2; auto). assert (Gh' : good h') by (apply good_2; auto). assert (Eh : tdims h = [n; o]) by reflexivity. assert (Eh' : tdims h' = [n; o']) by reflexivity.
  assert (Vh : forall r j, 0 <= r < n -> 0 <= j < o -> el h' [r; f j] = el h [r; j]).
  { intros r j Hr Hj. unfold h, h'. rewrite !el_tensor_of by (apply in_range2; auto; apply HF; auto). unfold fn2, affine. cbn [nth]. rewrite VB1 by auto. f_equal. apply sum_same. intros p Hp. rewrite VW1 by auto. reflexivity. }
  assert (Zh : forall r j, 0 <= r < n -> 0 <= j < o' -> left_out o f j -> (el h' [r; j] <= 0)%R).
  { intros r j Hr Hj HL. specialize (HX n r j Ex Hr Hj HL). unfold h'. rewrite el_tensor_of by (apply in_range2; auto). unfold fn2, affine in *. cbn [nth]. rewrite K2 by auto. rewrite (sum_same k _ (fun p => s_mul (el x [r; p]) (el W0 [p; j]))) by (intros p Hp; rewrite K1 by auto; reflexivity). exact HX. }
  unfold act_forward; cbn [fst snd]. rewrite EA, EA'. rewrite (act_fwd_el ReLU h), (act_fwd_el ReLU h') by (auto; discriminate). rewrite Eh, Eh'. unfold lift; cbn [fst snd].
  set (a1 := tensor_of [n; o] (fun idx => act_el ReLU (el h idx))). set (a1' := tensor_of [n; o'] (fun idx => act_el ReLU (el h' idx))).
  assert (Ga : good a1) by (apply good_2; auto). assert (Ga' : good a1') by (apply good_2; auto). assert (Ea : tdims a1 = [n; o]) by reflexivity. assert (Ea' : tdims a1' = [n; o']) by reflexivity.
  assert (Va : forall r j, 0 <= r < n -> 0 <= j < o -> el a1' [r; f j] = el a1 [r; j]).
  { intros r j Hr Hj. unfold a1, a1'. rewrite !el_tensor_of by (apply in_range2; auto; apply HF; auto). rewrite Vh by auto. reflexivity. }
  assert (Za : forall r j, 0 <= r < n -> 0 <= j < o' -> left_out o f j -> el a1' [r; j] = 0%R).
  { intros r j Hr Hj HL. unfold a1'. rewrite el_tensor_of by (apply in_range2; auto). apply relu_off. auto. }
  rewrite (fc_forward_2 l2 o c a1 n HF2 Ga Ea HM2), (fc_forward_2 l2' o' c a1' n HF2' Ga' Ea' HM2). unfold lift; cbn [fst snd].
  assert (EYT : tensor_of [n; c] (fn2 (fun i j => affine o' (fc_w l2') (fc_b l2') (fun p => el a1' [i; p]) j)) = tensor_of [n; c] (fn2 (fun i j => affine o (fc_w l2) (fc_b l2) (fun p => el a1 [i; p]) j))).
  { apply tensor_of_ext; [repeat (constructor; [lia|]); constructor|]. intros idx HI. apply in_range_2 in HI. destruct HI as (i & j & -> & Hi & Hj). unfold fn2, affine. cbn [nth]. rewrite EB. f_equal.
    apply (sum_pick o o' f); auto; [intros p Hp; rewrite Va, VW2 by auto; reflexivity|]. intros p Hp HL. rewrite Za by auto. apply (mul_zero_l M). }
  rewrite EYT. do 4 eexists. split; [reflexivity|]. split; [reflexivity|]. intros d Gd Ed. cbn [backward_all layer_backward].
  assert (AR : forall (y : tensor R) a b, tdims y = [a; b] -> as_row y = Ok y) by (intros y u b E; unfold as_row, rank; fold (tdims y); rewrite E; reflexivity).
  rewrite (fc_backward_rows _ o c n a1 d a1 d); eauto. rewrite (fc_backward_rows _ o' c n a1' d a1' d); eauto. unfold lift. cbn [fst snd M_Layers.fc_w M_Layers.fc_b].
  set (e := tensor_of [n; o] (fn2 (fc_dx c (fc_w l2) (fun i j => el d [i; j])))). set (e' := tensor_of [n; o'] (fn2 (fc_dx c (fc_w l2') (fun i j => el d [i; j])))).
  assert (Ge : good e) by (apply good_2; auto). assert (Ge' : good e') by (apply good_2; auto).
  assert (Ve : forall r j, 0 <= r < n -> 0 <= j < o -> el e' [r; f j] = el e [r; j]).
  { intros r j Hr Hj. unfold e, e'. rewrite !el_tensor_of by (apply in_range2; auto; apply HF; auto). unfold fn2, fc_dx. cbn [nth]. apply sum_same. intros p Hp. rewrite VW2 by auto. reflexivity. }
  unfold act_backward. cbn [al_in al_act]. rewrite (act_bwd_el ReLU h e), (act_bwd_el ReLU h' e') by (auto; discriminate). rewrite Eh, Eh'. unfold lift. cbn [fst snd].
  set (q := tensor_of [n; o] (fun idx => act_del ReLU (el h idx) (el e idx))). set (q' := tensor_of [n; o'] (fun idx => act_del ReLU (el h' idx) (el e' idx))).
  assert (Gq : good q) by (apply good_2; auto). assert (Gq' : good q') by (apply good_2; auto). assert (Eq : tdims q = [n; o]) by reflexivity. assert (Eq' : tdims q' = [n; o']) by reflexivity.
  assert (Vq : forall r j, 0 <= r < n -> 0 <= j < o -> el q' [r; f j] = el q [r; j]).
  { intros r j Hr Hj. unfold q, q'. rewrite !el_tensor_of by (apply in_range2; auto; apply HF; auto). rewrite Vh, Ve by auto. reflexivity. }
  assert (Zq : forall r j, 0 <= r < n -> 0 <= j < o' -> left_out o f j -> el q' [r; j] = 0%R).
  { intros r j Hr Hj HL. unfold q'. rewrite el_tensor_of by (apply in_range2; auto). apply relu_off. auto. }
  rewrite (fc_backward_rows _ k o n x q x q); eauto. rewrite (fc_backward_rows _ k o' n x q' x q'); eauto. unfold lift. cbn [fst snd M_Layers.fc_w M_Layers.fc_b].
  do 4 eexists. split; [reflexivity|]. split; [reflexivity|]. split; [reflexivity|]. split; [reflexivity|]. split; [reflexivity|].
  assert (S5 : un_D 5 = D 5) by reflexivity. assert (P5 : forall idx, un_pos 5 idx = idx) by reflexivity.
  split.
  - intros _. eapply rd_some; [reflexivity..| | | | | | |]; [change (2 * 0) with 0; change (0 + 1) with 1; cbn [M_Layers.fc_w M_Layers.fc_b]..|].
    + apply un_emb0. auto 10.
    + apply un_emb1. auto 10.
    + apply un_emb0. split; [apply good_2; auto|]. split; [apply good_2; auto|]. split; [reflexivity|]. split; [reflexivity|]. intros i j Hi Hj. rewrite !el_tensor_of by (apply in_range2; auto; apply HF; auto). unfold fn2, fc_dw. cbn [nth]. apply sum_same. intros r Hr. rewrite Vq by auto. reflexivity.
    + apply un_emb1. split; [apply good_2; auto; nia|]. split; [apply good_2; auto; nia|]. split; [reflexivity|]. split; [reflexivity|]. intros j Hj. rewrite !el_tensor_of by (apply in_range2; auto; try lia; apply HF; auto). unfold fn2, fc_db. cbn [nth]. apply sum_same. intros r Hr. rewrite Vq by auto. reflexivity.
    + intros idx (i & j & -> & [(_ & HL)|(H & _)]) HI; [|discriminate H]. apply in_range_2 in HI. destruct HI as (i' & j' & EQ & Hi & Hj). injection EQ as <- <-. rewrite el_tensor_of by (apply in_range2; auto). unfold fn2, fc_dw. cbn [nth]. apply sum_null. intros r Hr. rewrite Zq by auto. apply (mul_zero_r M).
    + intros idx (i & j & -> & [(_ & HL)|(H & _)]) HI; [|discriminate H]. apply in_range_2 in HI. destruct HI as (i' & j' & EQ & Hi & Hj). injection EQ as <- <-. rewrite el_tensor_of by (apply in_range2; auto). unfold fn2, fc_db. cbn [nth]. apply sum_null. intros r Hr. apply Zq; auto.
    + apply rd_none; [reflexivity|reflexivity|]. eapply rd_some; [reflexivity..| | | | | | |constructor]; change (2 * (0 + 1 + 1)) with 4; change (4 + 1) with 5; cbn [M_Layers.fc_w M_Layers.fc_b].
      * apply un_emb4. auto 10.
      * rewrite EB. apply shared_emb; auto. congruence.
      * apply un_emb4. split; [apply good_2; auto|]. split; [apply good_2; auto|]. split; [reflexivity|]. split; [reflexivity|]. intros i j Hi Hj. rewrite !el_tensor_of by (apply in_range2; auto; apply HF; auto). unfold fn2, fc_dw. cbn [nth]. apply sum_same. intros r Hr. rewrite Va by auto. reflexivity.
      * apply shared_emb; [auto|auto|apply good_2; auto; nia|rewrite D5; reflexivity].
      * intros idx (i & j & -> & [([H | H] & _)|(_ & HL)]) HI; [discriminate H|discriminate H|]. apply in_range_2 in HI. destruct HI as (i' & j' & EQ & Hi & Hj). injection EQ as <- <-. rewrite el_tensor_of by (apply in_range2; auto). unfold fn2, fc_dw. cbn [nth]. apply sum_null. intros r Hr. rewrite Za by auto. apply (mul_zero_l M).
      * intros idx (i & j & -> & [([H | H] & _)|(H & _)]) HI; discriminate H.
  - intros r r' HU. inversion HU as [|? ? ? ? ? ? ? NP|? ? ? ? ? q0 q0' w' b' w1 b1 w1' b1' NP PP U1 U2 U3 U4 U5]; subst; [discriminate NP|]. cbn [layer_params M_Layers.fc_w M_Layers.fc_b] in PP. injection PP as <- <-. change (2 * 0) with 0 in *. change (0 + 1) with 1 in *.
    inversion U5 as [|? ? ? ? ? q1 q1' NP1 NP2 U6|? ? ? ? ? ? ? ? ? ? ? ? ? NP1]; subst; [|exfalso; apply NP1; reflexivity].
    inversion U6 as [|? ? ? ? ? ? ? NP3|? ? ? ? ? q2 q2' w' b' w2 b2 w2' b2' NP3 PP X1 X2 X3 X4 X5]; subst; [discriminate NP3|]. cbn [layer_params M_Layers.fc_w M_Layers.fc_b] in PP. injection PP as <- <-. inversion X5; subst. change (2 * (1 + 1)) with 4 in *. change (4 + 1) with 5 in *.
    apply un_emb0 in U1. destruct U1 as (Y1 & Y2 & Y3 & Y4 & Y5). apply un_emb1 in U2. destruct U2 as (Z1 & Z2 & Z3 & Z4 & Z5). apply un_emb4 in X1. destruct X1 as (T1 & T2 & T3 & T4 & T5). apply shared_eq in X2 as EBB; auto. destruct X2 as (R1 & _ & R2 & _). rewrite D5 in R2.
    cbn [with_params]. do 6 eexists. split; [reflexivity|]. split; [reflexivity|]. cbn [M_Layers.fc_w M_Layers.fc_b al_act]. split; [auto|]. split; [auto|]. split; [auto|]. split; [auto|]. split; [|split].
    + exists k. cbn [M_Layers.fc_w M_Layers.fc_b]. auto 12.
    + exists c. cbn [M_Layers.fc_w M_Layers.fc_b]. auto 12.
    + split; [|split]; cbn [M_Layers.fc_w M_Layers.fc_b].
      * intros i j Hi Hj HL. rewrite (U3 [i; j]); [apply K1; auto|exists i, j; auto|apply in_range2; auto].
      * intros j Hj HL. rewrite (U4 [0; j]); [apply K2; auto|exists 0, j; auto|apply in_range2; auto; lia].
      * intros i j Hi Hj HL. rewrite (X3 [i; j]); [apply K3; auto|exists i, j; auto|apply in_range2; auto].
Qed.
End Units.

Theorem idle_units : forall (show : R -> string) u u' f l1 a l2 l1' a' l2' rest ds ds' lo o (n n2 : net R G) xs ts e, picks u u' f -> fewer_outputs u u' f l1 l1' -> fewer_inputs u u' f l2 l2' -> al_act a = ReLU -> al_act a' = ReLU ->
  n_layers n = LFC l1 :: LAct a :: LFC l2 :: rest -> n_layers n2 = LFC l1' :: LAct a' :: LFC l2' :: rest ->
  n_loss n2 = n_loss n -> n_opt n2 = n_opt n -> n_rng n2 = n_rng n -> accepts_all ds (n_layers n) ds' -> accepts_all ds (n_layers n2) ds' -> n_loss n = Some lo -> n_opt n = Some o -> no_penalty o ->
  0 < Zlen xs <= Zlen ts -> Zlen xs <= INT_MAX -> 0 <= e -> e * Zlen xs * Zlen (n_layers n) <= INT_MAX -> Forall (fun x => good x /\ tdims x = ds) xs -> Forall (target_fits lo ds') ts -> Forall (silent u f l1') xs ->
  exists n' n2' out k1 b k2 k1' b' k2' rest1, net_train_report show n xs ts e = ((n', out), Ok tt) /\ net_train_report show n2 xs ts e = ((n2', out), Ok tt) /\
    n_layers n' = LFC k1 :: LAct b :: LFC k2 :: rest1 /\ n_layers n2' = LFC k1' :: LAct b' :: LFC k2' :: rest1 /\ fewer_outputs u u' f k1 k1' /\ fewer_inputs u u' f k2 k2' /\
    (forall i j, in_range (tdims (fc_w l1')) [i; j] -> left_out u f j -> el (fc_w k1') [i; j] = el (fc_w l1') [i; j] /\ el (fc_b k1') [0; j] = el (fc_b l1') [0; j]) /\
    (forall i j, in_range (tdims (fc_w l2')) [i; j] -> left_out u f i -> el (fc_w k2') [i; j] = el (fc_w l2') [i; j]) /\
    forall x, good x -> tdims x = ds -> silent u f l1' x -> silent u f k1' x /\ exists y, snd (net_predict n' x) = Ok y /\ snd (net_predict n2' x) = Ok y /\ tdims y = ds'.
Proof.
  intros show u u' f l1 a l2 l1' a' l2' rest ds ds' lo o n n2 xs ts e HF HL1 HL2 EA EA' N1 N2 NL NO NR HA HA2 HLo HOp HN HX HX3 HE HM HF1 HF2 HS0.
  pose (D := fun a => dims_map (n_layers n) (a - 2 * 0)). assert (HD : dims_at D 0 (n_layers n)) by apply dims_map_at.
  pose proof HL1 as (k & GW1 & GW1' & EW1 & EW1' & GB1 & GB1' & EB1 & EB1' & VW1 & VB1). pose proof HL2 as (c & GW2 & GW2' & EW2 & EW2' & EB & GB2 & EB2 & VW2).
  assert (HD' : D 0 = [k; u] /\ D 1 = [1; u] /\ D 4 = [u; c] /\ D 5 = [1; c]).
  { rewrite N1 in HD. destruct HD as (H & _ & H' & _). cbn [layer_params] in H, H'. change (2 * 0) with 0 in H. change (0 + 1) with 1 in *. change (2 * (1 + 1)) with 4 in H'. change (4 + 1) with 5 in H'. destruct H, H'. repeat split; congruence. }
  destruct HD' as (D0 & D1 & D4 & D5).
  assert (HDS : exists nb, ds = [nb; k] /\ nb * u' <= INT_MAX).
  { clear - N2 HA2 EW1'. rewrite N2 in HA2. inversion HA2 as [|? ? ? ? ? A1 A2]; subst. inversion A1 as [nb k0 o0 l0 W1 W2 W3 W4 HM1| | | | |]; subst. rewrite EW1' in W2. injection W2 as <- <-. eauto. }
  destruct HDS as (nb & Eds & HMu).
  assert (HFW : fc_wf l1' k u') by (split; auto).
  assert (OFF : forall x, good x -> tdims x = ds -> silent u f l1' x -> off k u u' f (fc_w l1') (fc_b l1') x).
  { intros x Gx Ex (y & m & u2 & E & Ey & V) m' r j Em Hr Hj HL. rewrite Ex, Eds in Em. injection Em as <-. rewrite (fc_forward_2 l1' k u' x nb HFW Gx ltac:(congruence) HMu) in E. cbn [snd] in E. injection E as <-. cbn [tdims tshape tensor_of] in Ey. injection Ey as <- <-.
    specialize (V r j Hr Hj HL). rewrite el_tensor_of in V by (apply in_range2; auto). unfold fn2 in V. cbn [nth] in V. change (Rleb (affine k (fc_w l1') (fc_b l1') (fun p => el x [r; p]) j) 0 = true) in V. unfold Rleb in V. destruct (Rle_dec _ _) as [H|H]; [exact H|discriminate V]. }
  pose proof (un_shared k u u' c f D) as HS. pose proof (un_pass k u u' c f HF D D0 D1 D4 D5 (fc_w l1') (fc_b l1') (fc_w l2')) as HP.
  assert (XR : forall x, good x -> tdims x = ds -> silent u f l1' x -> un_XR k u u' f (fc_w l1') (fc_b l1') x x).
  { intros x Gx Ex Hx. split; [reflexivity|]. split; [apply OFF; auto|]. intros m Em. rewrite Ex, Eds in Em. injection Em as <-. exact HMu. }
  assert (CP : coupled (un_PR k u u' c f (fc_w l1') (fc_b l1') (fc_w l2')) n n2).
  { exists [LFC l1; LAct a; LFC l2], [LFC l1'; LAct a'; LFC l2'], rest. split; [auto|]. split; [auto|]. split; [|auto]. exists l1, a, l2, l1', a', l2'. do 8 (split; [auto|]). repeat split; auto. }
  destruct (embed_train M D (un_D k u' c D) (un_pos f) (un_K u f) 3 _ _ HS HP show ds ds' lo o n n2 xs xs ts e) as (n' & n2' & out & E1 & E2 & A' & CP'); auto.
  { destruct HN; constructor. }
  { clear - XR HF1 HS0. induction xs as [|x xs IH]; [constructor|]. inversion HF1 as [|? ? (H1 & H2) H3]; subst. inversion HS0; subst. constructor; auto. }
  destruct CP' as (pre & pre' & rest1 & L1 & L2 & PR & C1 & C2). pose proof PR as (k1 & b & k2 & k1' & b' & k2' & -> & -> & F1 & F2 & F3 & F4 & F5 & F6 & F7 & F8 & F9). exists n', n2', out, k1, b, k2, k1', b', k2', rest1. do 6 (split; [auto|]). split; [|split].
  - intros i j HI HL. rewrite EW1' in HI. apply in_range_2 in HI. destruct HI as (i' & j' & EQ & Hi & Hj). injection EQ as <- <-. split; auto.
  - intros i j HI HL. rewrite EW2' in HI. apply in_range_2 in HI. destruct HI as (i' & j' & EQ & Hi & Hj). injection EQ as <- <-. auto.
  - intros x Gx Ex HSi. pose proof (OFF x Gx Ex HSi) as HO. split.
    + destruct F5 as (kk & X1 & X2 & X3 & X4 & X5 & X6 & X7 & X8 & _). rewrite F3 in X3. injection X3 as <-. assert (HFW' : fc_wf k1' k u') by (split; auto). assert (Ex2 : tdims x = [nb; k]) by congruence.
      eexists. exists nb, u'. rewrite (fc_forward_2 k1' k u' x nb HFW' Gx Ex2 HMu). cbn [snd]. split; [reflexivity|]. split; [reflexivity|]. intros r j Hr Hj HL. rewrite el_tensor_of by (apply in_range2; auto). unfold fn2, affine. cbn [nth]. rewrite F8 by auto.
      rewrite (sum_same k _ (fun p => s_mul (el x [r; p]) (el (fc_w l1') [p; j]))) by (intros p Hp; rewrite F7 by auto; reflexivity). specialize (HO nb r j Ex2 Hr Hj HL). unfold affine in HO. match goal with |- s_le ?v zero = true => change (Rleb v 0 = true); unfold Rleb; destruct (Rle_dec v 0) as [|H]; [reflexivity|contradiction H] end.
    + apply (embed_predict M D (un_D k u' c D) (un_pos f) (un_K u f) 3 _ _ HP ds ds' n' n2' x x); auto. exists [LFC k1; LAct b; LFC k2], [LFC k1'; LAct b'; LFC k2'], rest1. auto.
Qed.
End S.
