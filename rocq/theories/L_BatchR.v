(** * Batch normalisation of a single row in training mode, over the reals *)
From Coq Require Import Reals Lra.
From Verif Require Import Base Scalar ScalarR Types Spec M_Shape M_Tensor M_Adv M_Act M_Layers M_Reg M_Opt M_Net SpecR SpecNN SpecLayers SpecNet SpecBatch
  L_Index L_Shape L_Tensor L_Nest L_Matmul L_RSum L_Reduce L_Axes L_Adv L_AdvR L_BN L_BNR L_Batch.
Local Open Scope Z_scope.

Lemma single_positions : forall f (x : tensor R) j, good x -> tdims x = [1; f] -> 0 <= j < f -> feature_positions [1; f] j = [[0; j]].
Proof.
  intros f x j Gx Ex Hj. assert (HF : featured f (tdims x)) by (rewrite Ex; left; eauto).
  destruct (feature_length f x j Gx HF Hj) as [EL _]. rewrite Ex in EL. cbn [feature_count prod fold_right] in EL.
  assert (HI : In [0; j] (feature_positions [1; f] j)).
  { apply filter_In. split; [|cbn [nth]; apply Z.eqb_refl]. apply In_all_indices; [apply pos_forall, pos2; lia|apply in_range2; lia]. }
  destruct (feature_positions [1; f] j) as [|p [|q r]]; [destruct HI|destruct HI as [->|[]]; reflexivity|].
  exfalso. revert EL. rewrite !Zlen_cons. pose proof (Zlen_nonneg r). change (prod []) with 1. lia.
Qed.
Lemma single_stats : forall f (x : tensor R) j, good x -> tdims x = [1; f] -> 0 <= j < f -> feature_mean x j = el x [0; j] /\ feature_var x j = 0%R.
Proof.
  intros f x j Gx Ex Hj. assert (HF : featured f (tdims x)) by (rewrite Ex; left; eauto).
  pose proof (feature_mean_R f x j Gx HF Hj) as EM. destruct (feature_var_R f x j Gx HF Hj) as [EV _].
  rewrite Ex in EM, EV. rewrite (single_positions f x j) in EM, EV by auto.
  assert (E1 : feature_mean x j = el x [0; j]).
  { rewrite EM. unfold ravg. rewrite rsum_cons, rsum_nil. change (IZR (Zlen [[0; j]])) with 1%R. field. }
  split; [auto|]. rewrite EV, E1. unfold ravg. rewrite rsum_cons, rsum_nil. change (IZR (Zlen [[0; j]])) with 1%R. field.
Qed.
Lemma bn_single : forall f (l : bn R) (x : tensor R), bn_rows f l -> bn_train l = true -> good x -> tdims x = [1; f] ->
  snd (bn_forward l x) = Ok (bn_beta l).
Proof.
  intros f l x HR HT Gx Ex. rewrite (bn_train_rows f l x 1) by auto. cbn [snd]. f_equal.
  destruct HR as (_ & (GB & EB) & _). symmetry. rewrite <- EB. apply tensor_eta; [auto|]. rewrite EB.
  intros idx HI. apply in_range_2 in HI. destruct HI as (a & b & -> & Ha & Hb). unfold fn2. cbn [nth].
  assert (a = 0) by lia. subst a. destruct (single_stats f x b Gx Ex Hb) as (-> & ->).
  unfold normalised. cbn [s_add s_mul s_div s_sub s_sqrt RScalar]. unfold Rdiv. ring.
Qed.

Section N.
Context {G : Type} {HR : Rng R G}.
Lemma forward_app : forall (a b : list (layer R)) (x : tensor R) (g : G) ls g' y, forward_all a x g = (ls, g', Ok y) ->
  snd (forward_all (a ++ b) x g) = snd (forward_all b y g').
Proof.
  induction a as [|l a IH]; intros b x g ls g' y E; cbn [app forward_all] in *.
  - injection E as _ <- <-. reflexivity.
  - destruct (layer_forward l x g) as [[l1 g1] [v| | | |]]; try discriminate.
    destruct (forward_all a v g1) as [[r1 g2] o] eqn:E1. injection E as _ <- ->.
    specialize (IH b v g1 r1 g2 y E1). destruct (forward_all (a ++ b) v g1) as [[r3 g3] o3]. exact IH.
Qed.
Lemma predict_erased : forall (n : net R G) before f l after (x1 x2 y1 y2 : tensor R) ls1 ls2 g,
  n_layers n = before ++ LBN l :: after -> bn_rows f l -> bn_train l = true ->
  forward_all before x1 (n_rng n) = (ls1, g, Ok y1) -> good y1 -> tdims y1 = [1; f] ->
  forward_all before x2 (n_rng n) = (ls2, g, Ok y2) -> good y2 -> tdims y2 = [1; f] ->
  snd (net_predict n x1) = snd (net_predict n x2).
Proof.
  intros n before f l after x1 x2 y1 y2 ls1 ls2 g EN HB HT E1 G1 D1 E2 G2 D2. unfold net_predict. rewrite EN.
  assert (HS : forall x, snd (let '(ls, g0, o) := forward_all (before ++ LBN l :: after) x (n_rng n) in (mkNet ls (n_loss n) (n_opt n) g0, o)) = snd (forward_all (before ++ LBN l :: after) x (n_rng n))).
  { intros x. destruct (forward_all _ x _) as [[? ?] ?]. reflexivity. }
  rewrite !HS. rewrite (forward_app _ (LBN l :: after) _ _ _ _ _ E1), (forward_app _ (LBN l :: after) _ _ _ _ _ E2).
  cbn [forward_all layer_forward].
  pose proof (bn_single f l y1 HB HT G1 D1) as B1. pose proof (bn_single f l y2 HB HT G2 D2) as B2.
  unfold lift. destruct (bn_forward l y1) as [l1 o1], (bn_forward l y2) as [l2 o2]. cbn [snd] in B1, B2. rewrite B1, B2.
  cbn [fst snd]. destruct (forward_all after (bn_beta l) g) as [[? ?] ?]. reflexivity.
Qed.
Lemma forward_plain : forall (ls : list (layer R)) n ds D (x : tensor R) (g : G), stack evaluates (n :: ds) ls D -> good x -> tdims x = n :: ds ->
  exists ls' y, forward_all ls x g = (ls', g, Ok y) /\ good y /\ tdims y = D.
Proof.
  induction ls as [|l ls IH]; intros n ds D x g H Gx Ex; inversion H as [|? ? D1 ? ? E1 R1]; subst.
  - exists [], x. cbn [forward_all]. auto.
  - destruct (layer_rows n ds l D1 x g E1 Gx Ex) as (-> & G1 & l1 & F1).
    destruct (IH n (outD l ds) D (by_rows l n ds x) g R1 G1 eq_refl) as (r & y & F2 & G2 & D2).
    exists (l1 :: r), y. cbn [forward_all]. rewrite F1, F2. auto.
Qed.
Lemma predict_same : forall (n : net R G) ds before f l after (x1 x2 : tensor R),
  n_layers n = before ++ LBN l :: after -> evaluates_all (1 :: ds) before [1; f] -> bn_rows f l -> bn_train l = true ->
  good x1 -> tdims x1 = 1 :: ds -> good x2 -> tdims x2 = 1 :: ds -> snd (net_predict n x1) = snd (net_predict n x2).
Proof.
  intros n ds before f l after x1 x2 EN HE HB HT G1 D1 G2 D2.
  destruct (forward_plain before 1 ds _ x1 (n_rng n) HE G1 D1) as (r1 & y1 & F1 & A1 & B1).
  destruct (forward_plain before 1 ds _ x2 (n_rng n) HE G2 D2) as (r2 & y2 & F2 & A2 & B2).
  exact (predict_erased n before f l after x1 x2 y1 y2 r1 r2 _ EN HB HT F1 A1 B1 F2 A2 B2).
Qed.
End N.
