(** * Batch normalisation *)
From Coq Require Import Permutation.
From Verif Require Import Base Scalar Types Spec M_Shape M_Tensor M_Adv M_Act M_Layers M_Reg SpecNN SpecLayers
  L_Index L_Shape L_Bcast L_Tensor L_Reduce L_Tensor2 L_Glue L_Nest L_Matmul L_Axes L_Adv L_AdvR L_Act L_ActR L_Layers L_Conv.

(** Dimensions and position of per-feature values broadcast against [ds]. *)
Definition sdims (ds : list Z) : list Z := match ds with [_; f; _; _] => [1; f; 1; 1] | _ => [1; nth 1 ds 0] end.

Lemma featured_rank : forall f ds, featured f ds -> (negb (Zlen ds =? 2) && negb (Zlen ds =? 4)) = false.
Proof. intros f ds [(n & ->)|(n & h & w & ->)]; reflexivity. Qed.
Lemma featured_axes : forall f ds, featured f ds -> ones_axes (bn_axes ds) ds = sdims ds /\ drop_axes (bn_axes ds) ds = [f] /\ axes_count (bn_axes ds) ds = feature_count ds.
Proof.
  intros f ds [(n & ->)|(n & h & w & ->)]; cbv [axes_count ones_axes drop_axes keep_from drop_from set_from bn_axes sdims feature_count Zlen length Z.of_nat Z.eqb Pos.eqb Pos.of_succ_nat Pos.succ existsb orb Z.add Pos.add nth prod]; repeat split; ring.
Qed.
Lemma featured_perm : forall f ds, featured f ds -> bn_axes ds <> [] /\ (forall a, In a (bn_axes ds) -> 0 <= a < Zlen ds) /\ NoDup (bn_axes ds) /\
  (length (bn_axes ds) < length ds)%nat /\ desc (rev (bn_axes ds)).
Proof.
  intros f ds [(n & ->)|(n & h & w & ->)].
  - change (bn_axes [n; f]) with [0]. change (Zlen [n; f]) with 2. split; [discriminate|]. split; [intros a [<-|[]]; lia|]. split; [repeat constructor; cbn; intuition lia|].
    split; [cbn; lia|]. cbn. repeat constructor; cbn; intuition lia.
  - change (bn_axes [n; f; h; w]) with [0; 2; 3]. change (Zlen [n; f; h; w]) with 4. split; [discriminate|]. split; [intros a [<-|[<-|[<-|[]]]]; lia|]. split; [repeat constructor; cbn; intuition lia|].
    split; [cbn; lia|]. cbn. repeat constructor; cbn; intuition lia.
Qed.
Lemma sdims_pos : forall f ds, featured f ds -> pos_dims ds -> pos_dims (sdims ds) /\ prod (sdims ds) = f /\ 0 < f <= prod ds.
Proof.
  intros f ds [(n & ->)|(n & h & w & ->)] [_ HF]; inversion HF as [|? ? Hn HF1]; subst; inversion HF1 as [|? ? Hf HF2]; subst.
  - cbn [sdims nth prod]. split; [auto with idx|]. split; [ring|nia].
  - inversion HF2 as [|? ? Hh HF3]; subst; inversion HF3 as [|? ? Hw HF4]; subst. cbn [sdims nth prod]. split; [auto with idx|]. split; [ring|].
    assert (0 < h * w) by nia. assert (f <= f * (h * (w * 1))) by nia. nia.
Qed.
Lemma sdims_range : forall f ds idx, featured f ds -> in_range (sdims ds) idx -> ravel (sdims ds) idx = nth 1 idx 0 /\ 0 <= nth 1 idx 0 < f.
Proof.
  intros f ds idx [(n & ->)|(n & h & w & ->)] HI; cbn [sdims nth] in *.
  - apply in_range_2 in HI. destruct HI as (i & j & -> & Hi & Hj). cbn [ravel prod nth]. nia.
  - apply in_range_4 in HI. destruct HI as (i & j & k & q & -> & Hi & Hj & Hk & Hq). cbn [ravel prod nth]. nia.
Qed.
Lemma sdims_bcast : forall f ds, featured f ds -> pos_dims ds -> bcast ds (sdims ds) ds.
Proof.
  intros f ds [(n & ->)|(n & h & w & ->)] [_ HF].
  - inversion HF; subst. apply bcast_row; auto.
  - inversion HF as [|? ? Hn HF1]; subst; inversion HF1 as [|? ? Hf HF2]; subst. inversion HF2 as [|? ? Hh HF3]; subst; inversion HF3 as [|? ? Hw HF4]; subst.
    split; [reflexivity|]. intros i Hi. cbn [length Nat.max] in Hi. cbn [sdims nth]. unfold compatible.
    destruct i as [|[|[|[|i]]]]; cbn; [| | | |lia]; split; auto; lia.
Qed.
Lemma sdims_bproj : forall f ds idx, featured f ds -> in_range ds idx -> in_range (sdims ds) (bproj (sdims ds) idx) /\ nth 1 (bproj (sdims ds) idx) 0 = nth 1 idx 0.
Proof.
  intros f ds idx [(n & ->)|(n & h & w & ->)] HI; cbn [sdims nth] in *.
  - apply in_range_2 in HI. destruct HI as (i & j & -> & Hi & Hj). cbv [bproj length Nat.sub skipn combine map fst snd]. change (1 =? 1) with true. cbn [nth].
    destruct (Z.eqb_spec f 1); split; try apply in_range2; lia.
  - apply in_range_4 in HI. destruct HI as (i & j & k & q & -> & Hi & Hj & Hk & Hq). cbv [bproj length Nat.sub skipn combine map fst snd]. change (1 =? 1) with true. cbn [nth].
    destruct (Z.eqb_spec f 1); split; try apply in_range4; lia.
Qed.
Lemma featured_nth : forall f ds idx, featured f ds -> in_range ds idx -> 0 <= nth 1 idx 0 < f.
Proof.
  intros f ds idx [(n & ->)|(n & h & w & ->)] HI.
  - apply in_range_2 in HI. destruct HI as (i & j & -> & Hi & Hj). auto.
  - apply in_range_4 in HI. destruct HI as (i & j & k & q & -> & Hi & Hj & Hk & Hq). auto.
Qed.

Section S.
Context {T : Type} {S : Scalar T}.

(** A tensor of per-feature values: [f] stored values and second dimension [f]. *)
Definition per_feature (f : Z) (t : tensor T) : Prop := good t /\ prod (tdims t) = f /\ rd (tdims t) 1 = Ok f.
Definition feat (t : tensor T) (j : Z) : T := znth zero (tdata t) j.
Definition spread (ds : list Z) (v : Z -> T) : tensor T := tensor_of (sdims ds) (fun idx => v (nth 1 idx 0)).

Lemma spread_good : forall f ds v, featured f ds -> pos_dims ds -> prod ds <= INT_MAX -> good (spread ds v).
Proof. intros f ds v HF HP HM. destruct (sdims_pos f ds HF HP) as (P1 & P2 & P3). apply good_tensor_of; auto. lia. Qed.
Lemma feat_spread : forall f ds v j, featured f ds -> pos_dims ds -> 0 <= j < f -> feat (spread ds v) j = v j.
Proof.
  intros f ds v j HF HP Hj. destruct (sdims_pos f ds HF HP) as (P1 & P2 & P3). unfold feat, spread, tensor_of. cbn [tdata].
  rewrite znth_ztab by lia. f_equal.
  destruct HF as [(n & ->)|(n & h & w & ->)]; cbn [sdims nth unravel prod].
  - rewrite Z.div_1_r. rewrite Z.mod_small by lia. reflexivity.
  - rewrite !Z.mul_1_r. rewrite !Z.div_1_r. rewrite Z.mod_small by lia. reflexivity.
Qed.
Lemma spread_per_feature : forall f ds v, featured f ds -> pos_dims ds -> prod ds <= INT_MAX -> per_feature f (spread ds v).
Proof.
  intros f ds v HF HP HM. destruct (sdims_pos f ds HF HP) as (P1 & P2 & P3). split; [eapply spread_good; eauto|]. split; [exact P2|].
  destruct HF as [(n & ->)|(n & h & w & ->)]; reflexivity.
Qed.
Lemma bn_reshape_ok : forall f ds t, featured f ds -> pos_dims ds -> per_feature f t -> bn_reshape t ds = Ok (spread ds (feat t)).
Proof.
  intros f ds t HF HP (G & E1 & E2). destruct (sdims_pos f ds HF HP) as (P1 & P2 & P3). unfold bn_reshape. rewrite E2. cbn [bind].
  assert (EW : wr (zrepeat 1 (Zlen ds)) 1 f = Ok (sdims ds)) by (destruct HF as [(n & ->)|(n & h & w & ->)]; reflexivity).
  rewrite EW. cbn [bind]. rewrite reshape_to_in_shape by (auto; lia). unfold in_shape, spread. f_equal. apply tensor_of_ext; [apply pos_forall; auto|].
  intros idx HI. destruct (sdims_range f ds idx HF HI) as [-> _]. reflexivity.
Qed.
Lemma op_spread : forall op f ds (a : tensor T) v, featured f ds -> good a -> tdims a = ds ->
  t_binop op a (spread ds v) = Ok (tensor_of ds (fun idx => op (el a idx) (v (nth 1 idx 0)))).
Proof.
  intros op f ds a v HF Ga Ea. pose proof (good_pos a Ga) as HP. rewrite Ea in HP. pose proof (good_max a Ga) as HM. rewrite Ea in HM.
  rewrite (t_binop_ok op a (spread ds v) ds); auto.
  - f_equal. apply tensor_of_ext; [apply pos_forall; auto|]. intros idx HI. unfold bel. rewrite Ea. rewrite bproj_id by auto.
    change (tdims (spread ds v)) with (sdims ds). destruct (sdims_bproj f ds idx HF HI) as [HR HN]. unfold spread. rewrite el_tensor_of by auto. rewrite HN. reflexivity.
  - eapply spread_good; eauto.
  - rewrite Ea. apply (sdims_bcast f); auto.
Qed.
Lemma spread_map : forall (h : T -> T) f ds v, featured f ds -> pos_dims ds -> prod ds <= INT_MAX ->
  tensor_of (tdims (spread ds v)) (fun idx => h (el (spread ds v) idx)) = spread ds (fun j => h (v j)).
Proof.
  intros h f ds v HF HP HM. destruct (sdims_pos f ds HF HP) as (P1 & P2 & P3). change (tdims (spread ds v)) with (sdims ds). unfold spread. apply tensor_of_ext; [apply pos_forall; auto|].
  intros idx HI. rewrite el_tensor_of by auto. reflexivity.
Qed.
Lemma bn_normalise_ok : forall f ds (x : tensor T) m v eps, featured f ds -> good x -> tdims x = ds ->
  bn_normalise x (spread ds m) (spread ds v) eps =
  Ok (tensor_of ds (fun idx => s_div (s_sub (el x idx) (m (nth 1 idx 0))) (s_sqrt (s_add (v (nth 1 idx 0)) eps)))).
Proof.
  intros f ds x m v eps HF Gx Ex. pose proof (good_pos x Gx) as HP. rewrite Ex in HP. pose proof (good_max x Gx) as HM. rewrite Ex in HM.
  unfold bn_normalise, t_sub, t_div. rewrite (op_spread _ f ds) by auto. cbn [bind].
  destruct (scalar_ops (spread ds v) eps (spread_good f ds v HF HP HM)) as [E _]. rewrite E. cbn [bind].
  rewrite (spread_map (fun a => s_add a eps) f) by auto.
  destruct (apply_all s_sqrt _ (spread_good f ds (fun j => s_add (v j) eps) HF HP HM)) as (_ & _ & E2). rewrite E2. cbn [bind].
  rewrite (spread_map s_sqrt f) by auto.
  rewrite (op_spread _ f ds); [|auto|apply good_tensor_of; auto|reflexivity]. f_equal. apply tensor_of_ext; [apply pos_forall; auto|].
  intros idx HI. rewrite el_tensor_of by auto. reflexivity.
Qed.

(** ** Batch statistics *)
Lemma bn_mean_ok : forall f ds (x : tensor T), featured f ds -> good x -> tdims x = ds -> t_mean_axes x (bn_axes ds) = Ok (spread ds (feature_mean x)).
Proof.
  intros f ds x HF Gx Ex. destruct (featured_axes f ds HF) as (A1 & A2 & A3). pose proof (good_pos x Gx) as HP. rewrite Ex in HP. destruct (sdims_pos f ds HF HP) as (P1 & P2 & P3).
  destruct (featured_perm f ds HF) as (HNil & HR & HN & HL & HD).
  rewrite (mean_axes_ok x (bn_axes ds) (rev (bn_axes ds))); auto.
  - rewrite Ex, A1, A3. unfold spread. f_equal. apply tensor_of_ext; [apply pos_forall; auto|]. intros idx HI. unfold feature_mean. rewrite Ex. f_equal.
    unfold feature_sum. rewrite Ex. destruct HF as [(n & ->)|(n & h & w & ->)]; cbn [sdims nth] in HI.
    + apply in_range_2 in HI. destruct HI as (i & j & -> & Hi & Hj). reflexivity.
    + apply in_range_4 in HI. destruct HI as (i & j & k & q & -> & Hi & Hj & Hk & Hq). reflexivity.
  - rewrite Ex; auto.
  - rewrite Ex; auto.
  - apply Permutation_sym, Permutation_rev.
Qed.
Lemma bn_slice : forall f ds j, featured f ds -> slice_indices (bn_axes ds) ds [j] = feature_positions ds j.
Proof.
  intros f ds j HF. unfold slice_indices, feature_positions. apply filter_ext_in. intros idx HI. unfold all_indices, ztab in HI. apply in_map_iff in HI. destruct HI as (k & <- & _).
  destruct HF as [(n & ->)|(n & h & w & ->)].
  - cbn [unravel prod nth]. set (u := _ mod _ / _). change (drop_axes (bn_axes [n; f]) [k / (f * 1); u]) with [u].
    unfold idx_eqb. destruct (list_eq_dec Z.eq_dec [u] [j]) as [E|E], (Z.eqb_spec u j); congruence.
  - cbn [unravel prod nth]. set (u := _ / (h * (w * 1))). match goal with |- idx_eqb ?a _ = _ => change a with [u] end.
    unfold idx_eqb. destruct (list_eq_dec Z.eq_dec [u] [j]) as [E|E], (Z.eqb_spec u j); congruence.
Qed.
Lemma bn_var_ok : forall f ds (x : tensor T), featured f ds -> good x -> tdims x = ds -> t_variance_axes x (spread ds (feature_mean x)) (bn_axes ds) = Ok (spread ds (feature_var x)).
Proof.
  intros f ds x HF Gx Ex. destruct (featured_axes f ds HF) as (A1 & A2 & A3). pose proof (good_pos x Gx) as HP. rewrite Ex in HP. pose proof (good_max x Gx) as HM. rewrite Ex in HM.
  destruct (sdims_pos f ds HF HP) as (P1 & P2 & P3).
  destruct (featured_perm f ds HF) as (HNil & HR & HN & HL & HD).
  rewrite variance_axes_ok; auto; [|eapply spread_good; eauto|rewrite Ex, A1; reflexivity|rewrite Ex; auto|].
  - rewrite Ex, A1, A3. symmetry. unfold spread at 1. symmetry. f_equal. apply tensor_of_ext; [apply pos_forall; auto|]. intros idx HI. unfold feature_var. rewrite Ex. f_equal.
    assert (ED : drop_axes (bn_axes ds) idx = [nth 1 idx 0]).
    { destruct HF as [(n & ->)|(n & h & w & ->)]; cbn [sdims nth] in HI.
      - apply in_range_2 in HI. destruct HI as (i & j & -> & Hi & Hj). reflexivity.
      - apply in_range_4 in HI. destruct HI as (i & j & k & q & -> & Hi & Hj & Hk & Hq). reflexivity. }
    rewrite ED, (bn_slice f) by auto. f_equal. apply map_ext_in. intros a Ha. unfold feature_positions in Ha. apply filter_In in Ha. destruct Ha as [Ha Hj].
    apply In_all_indices in Ha; [|apply pos_forall; auto]. apply Z.eqb_eq in Hj.
    assert (EV : el (spread ds (feature_mean x)) (zero_axes (bn_axes ds) a) = feature_mean x (nth 1 idx 0)); [|rewrite EV; reflexivity].
    unfold spread. rewrite el_tensor_of.
    + rewrite <- Hj. destruct HF as [(n & ->)|(n & h & w & ->)].
      * apply in_range_2 in Ha. destruct Ha as (i & j & -> & Hi & Hj'). reflexivity.
      * apply in_range_4 in Ha. destruct Ha as (i & j & k & q & -> & Hi & Hj' & Hk & Hq). reflexivity.
    + destruct HF as [(n & ->)|(n & h & w & ->)].
      * apply in_range_2 in Ha. destruct Ha as (i & j & -> & Hi & Hj'). change (in_range [1; f] [0; j]). apply in_range2; lia.
      * apply in_range_4 in Ha. destruct Ha as (i & j & k & q & -> & Hi & Hj' & Hk & Hq). change (in_range [1; f; 1; 1] [0; j; 0; 0]). apply in_range4; lia.
  - rewrite Ex; auto.
Qed.

(** ** Forward *)
Definition bn_out (l : bn T) (x : tensor T) (m v : Z -> T) : tensor T :=
  tensor_of (tdims x) (fun idx => normalised (bn_eps l) (m (nth 1 idx 0)) (v (nth 1 idx 0)) (feat (bn_gamma l) (nth 1 idx 0)) (feat (bn_beta l) (nth 1 idx 0)) (el x idx)).
Lemma bn_out_good : forall l x m v, good x -> good (bn_out l x m v).
Proof. intros l x m v Gx. apply good_tensor_of; [apply good_pos; auto|apply good_max; auto]. Qed.
Lemma bn_affine : forall f l x m v, featured f (tdims x) -> good x ->
  (y <- t_mul (tensor_of (tdims x) (fun idx => s_div (s_sub (el x idx) (m (nth 1 idx 0))) (s_sqrt (s_add (v (nth 1 idx 0)) (bn_eps l))))) (spread (tdims x) (feat (bn_gamma l))) ;;
   t_add y (spread (tdims x) (feat (bn_beta l)))) = Ok (bn_out l x m v).
Proof.
  intros f l x m v HF Gx. pose proof (good_pos x Gx) as HP. pose proof (good_max x Gx) as HM. unfold t_mul, t_add.
  rewrite (op_spread _ f (tdims x)); [|auto|apply good_tensor_of; auto|reflexivity]. cbn [bind].
  rewrite (op_spread _ f (tdims x)); [|auto|apply good_tensor_of; auto|reflexivity]. f_equal. apply tensor_of_ext; [apply pos_forall; auto|].
  intros idx HI. rewrite !el_tensor_of by auto. reflexivity.
Qed.
Definition bn_ready (f : Z) (l : bn T) : Prop := per_feature f (bn_gamma l) /\ per_feature f (bn_beta l).
Definition bn_trained (l : bn T) (x nx rm rv : tensor T) : bn T :=
  mkBN (bn_n l) (bn_eps l) (bn_mom l) (bn_gamma l) (bn_beta l) rm rv (Some (spread (tdims x) (feature_mean x))) (Some (spread (tdims x) (feature_var x))) (Some nx) (bn_ggamma l) (bn_gbeta l) (bn_train l).
Definition bn_nx (l : bn T) (x : tensor T) : tensor T :=
  tensor_of (tdims x) (fun idx => s_div (s_sub (el x idx) (feature_mean x (nth 1 idx 0))) (s_sqrt (s_add (feature_var x (nth 1 idx 0)) (bn_eps l)))).
Lemma bn_forward_train : forall f l x rm rv, bn_ready f l -> bn_train l = true -> good x -> featured f (tdims x) ->
  bn_ema (bn_mom l) (bn_rmean l) (spread (tdims x) (feature_mean x)) = Ok rm ->
  bn_ema (bn_mom l) (bn_rvar l) (spread (tdims x) (feature_var x)) = Ok rv ->
  bn_forward l x = (bn_trained l x (bn_nx l x) rm rv, Ok (bn_out l x (feature_mean x) (feature_var x))).
Proof.
  intros f l x rm rv (Hg & Hb) Ht Gx HF EM EV. pose proof (good_pos x Gx) as HP. pose proof (good_max x Gx) as HM.
  unfold bn_forward, rank. fold (tdims x). rewrite (featured_rank f) by auto. rewrite Ht.
  rewrite (bn_mean_ok f (tdims x)) by auto. cbn [step]. rewrite (bn_var_ok f (tdims x)) by auto. cbn [step].
  rewrite !(bn_reshape_ok f) by (auto using spread_per_feature). cbn [bind].
  assert (ES : forall v, spread (tdims x) (feat (spread (tdims x) v)) = spread (tdims x) v).
  { intros v. destruct (sdims_pos f _ HF HP) as (P1 & _). apply tensor_of_ext; [apply pos_forall; auto|]. intros idx HI. apply (feat_spread f); auto. apply (sdims_range f _ idx HF HI). }
  rewrite !ES. rewrite (bn_normalise_ok f (tdims x)) by auto. cbn [bind step].
  assert (EA := bn_affine f l x (feature_mean x) (feature_var x) HF Gx).
  destruct (t_mul _ (spread (tdims x) (feat (bn_gamma l)))) as [y1| | | |]; try discriminate EA. cbn [bind] in EA |- *. rewrite EA. cbn [bind]. rewrite EM. cbn [bind step].
  rewrite EV. cbn [step]. reflexivity.
Qed.
Lemma bn_forward_eval : forall f l x, bn_ready f l -> per_feature f (bn_rmean l) -> per_feature f (bn_rvar l) -> bn_train l = false -> good x -> featured f (tdims x) ->
  bn_forward l x = (l, Ok (bn_out l x (feat (bn_rmean l)) (feat (bn_rvar l)))).
Proof.
  intros f l x (Hg & Hb) Hm Hv Ht Gx HF. pose proof (good_pos x Gx) as HP. pose proof (good_max x Gx) as HM.
  unfold bn_forward, rank. fold (tdims x). rewrite (featured_rank f) by auto. rewrite Ht. f_equal.
  rewrite !(bn_reshape_ok f) by auto. cbn [bind]. rewrite (bn_normalise_ok f (tdims x)) by auto. cbn [bind].
  apply (bn_affine f); auto.
Qed.
(** ** Moving averages *)
Lemma bn_ema_same : forall f mom (r : tensor T) ds v, featured f ds -> pos_dims ds -> prod ds <= INT_MAX -> per_feature f r -> tdims r = sdims ds ->
  bn_ema mom r (spread ds v) = Ok (spread ds (fun j => ema mom (feat r j) (v j))).
Proof.
  intros f mom r ds v HF HP HM (Gr & E1 & E2) Er. pose proof (spread_good f ds v HF HP HM) as Gs. destruct (sdims_pos f ds HF HP) as (P1 & P2 & P3).
  unfold bn_ema. destruct (scalar_ops r mom Gr) as (_ & _ & _ & _ & _ & _ & E & _). rewrite E. cbn [bind].
  destruct (scalar_ops (spread ds v) (s_sub one mom) Gs) as (_ & _ & _ & _ & _ & _ & E' & _). rewrite E'. cbn [bind].
  unfold t_add. rewrite binop_same; [|apply good_tensor_of; [apply good_pos|apply good_max]; auto|apply good_tensor_of; [apply good_pos|apply good_max]; auto|exact Er].
  change (tdims (tensor_of (tdims r) (fun i => s_mul (el r i) mom))) with (tdims r). rewrite Er. unfold spread at 3. f_equal. apply tensor_of_ext; [apply pos_forall; auto|].
  intros idx HI. rewrite el_tensor_of by auto. change (tdims (spread ds v)) with (sdims ds). rewrite el_tensor_of by auto. unfold spread at 1. rewrite el_tensor_of by auto.
  unfold ema. f_equal. f_equal. unfold el, feat. rewrite Er. f_equal. apply (sdims_range f ds idx HF HI).
Qed.

(** Result of a broadcast moving-average step with dimensions [r]. *)
Lemma bn_ema_dims : forall f mom (a : tensor T) ds v r, featured f ds -> pos_dims ds -> prod ds <= INT_MAX -> good a -> bcast (tdims a) (sdims ds) r -> prod r <= INT_MAX ->
  exists o, bn_ema mom a (spread ds v) = Ok o /\ good o /\ tdims o = r.
Proof.
  intros f mom a ds v r HF HP HM Ga HB HR. pose proof (spread_good f ds v HF HP HM) as Gs. destruct (sdims_pos f ds HF HP) as (P1 & P2 & P3).
  unfold bn_ema. destruct (scalar_ops a mom Ga) as (_ & _ & _ & _ & _ & _ & E & _). rewrite E. cbn [bind].
  destruct (scalar_ops (spread ds v) (s_sub one mom) Gs) as (_ & _ & _ & _ & _ & _ & E' & _). rewrite E'. cbn [bind].
  destruct (four_ops (tensor_of (tdims a) (fun i => s_mul (el a i) mom)) (tensor_of (tdims (spread ds v)) (fun i => s_mul (el (spread ds v) i) (s_sub one mom))) r) as (EE & _); auto.
  - apply good_tensor_of; [apply good_pos|apply good_max]; auto.
  - apply good_tensor_of; [apply good_pos|apply good_max]; auto.
  - rewrite EE. eexists; split; [reflexivity|]. split; [|reflexivity]. apply good_tensor_of; auto. apply (bcast_pos (tdims a) (sdims ds)); auto. apply good_pos; auto.
Qed.
(** One channel: the value is the moving average whatever the rank. *)
Lemma bn_ema_one : forall mom (a : tensor T) ds v, featured 1 ds -> pos_dims ds -> prod ds <= INT_MAX -> good a -> tdims a = [1; 1] \/ tdims a = [1; 1; 1; 1] ->
  exists o, bn_ema mom a (spread ds v) = Ok o /\ good o /\ (tdims o = [1; 1] \/ tdims o = [1; 1; 1; 1]) /\ feat o 0 = ema mom (feat a 0) (v 0).
Proof.
  intros mom a ds v HF HP HM Ga Ea. pose proof (spread_good 1 ds v HF HP HM) as Gs. destruct (sdims_pos 1 ds HF HP) as (P1 & P2 & P3).
  assert (Es : sdims ds = [1; 1] \/ sdims ds = [1; 1; 1; 1]) by (destruct HF as [(n & ->)|(n & h & w & ->)]; cbn; auto).
  assert (HB : exists r, bcast (tdims a) (sdims ds) r /\ prod r = 1 /\ (r = [1; 1] \/ r = [1; 1; 1; 1])).
  { destruct Ea as [-> | ->], Es as [-> | ->]; [exists [1; 1]|exists [1; 1; 1; 1]|exists [1; 1; 1; 1]|exists [1; 1; 1; 1]]; (split; [|split; [reflexivity|auto]]);
    (split; [reflexivity|]); intros i Hi; cbn [length Nat.max] in Hi; unfold compatible; destruct i as [|[|[|[|i]]]]; cbn; try lia; auto. }
  destruct HB as (r & HB & Hr & Dr). destruct (HB) as [HLr _].
  unfold bn_ema. destruct (scalar_ops a mom Ga) as (_ & _ & _ & _ & _ & _ & E & _). rewrite E. cbn [bind].
  destruct (scalar_ops (spread ds v) (s_sub one mom) Gs) as (_ & _ & _ & _ & _ & _ & E' & _). rewrite E'. cbn [bind].
  destruct (four_ops (tensor_of (tdims a) (fun i => s_mul (el a i) mom)) (tensor_of (tdims (spread ds v)) (fun i => s_mul (el (spread ds v) i) (s_sub one mom))) r) as (EE & _); auto.
  - apply good_tensor_of; [apply good_pos|apply good_max]; auto.
  - apply good_tensor_of; [apply good_pos|apply good_max]; auto.
  - unfold INT_MAX; lia.
  - rewrite EE. eexists; split; [reflexivity|]. split; [apply good_tensor_of; [apply (bcast_pos (tdims a) (sdims ds)); auto; apply good_pos; auto|unfold INT_MAX; lia]|]. split; [exact Dr|].
    unfold feat at 1. unfold tensor_of at 1. cbn [tdata]. rewrite znth_ztab by lia.
    change (tdims (tensor_of (tdims a) (fun i => s_mul (el a i) mom))) with (tdims a).
    change (tdims (tensor_of (tdims (spread ds v)) (fun i => s_mul (el (spread ds v) i) (s_sub one mom)))) with (sdims ds). change (tdims (spread ds v)) with (sdims ds).
    rewrite el_tensor_of, el_tensor_of.
    + unfold ema. f_equal; f_equal.
      * unfold el, feat. f_equal. destruct Ea as [Ea | Ea]; rewrite Ea in *; destruct Dr as [-> | ->]; try (exfalso; cbn [length] in HLr; lia); reflexivity.
      * unfold spread. rewrite el_tensor_of.
        -- destruct Es as [Es | Es]; rewrite Es in *; destruct Dr as [-> | ->]; try (exfalso; cbn [length] in HLr; lia); reflexivity.
        -- destruct Es as [Es | Es]; rewrite Es in *; destruct Dr as [-> | ->]; try (exfalso; cbn [length] in HLr; lia); (match goal with |- in_range ?d ?i => let i' := eval vm_compute in i in change (in_range d i') end); first [apply in_range2; lia | apply in_range4; lia].
    + destruct Es as [Es | Es]; rewrite Es in *; destruct Dr as [-> | ->]; try (exfalso; cbn [length] in HLr; lia); (match goal with |- in_range ?d ?i => let i' := eval vm_compute in i in change (in_range d i') end); first [apply in_range2; lia | apply in_range4; lia].
    + destruct Ea as [Ea | Ea]; rewrite Ea in *; destruct Dr as [-> | ->]; try (exfalso; cbn [length] in HLr; lia); (match goal with |- in_range ?d ?i => let i' := eval vm_compute in i in change (in_range d i') end); first [apply in_range2; lia | apply in_range4; lia].
Qed.

(** ** Sequences of calls *)
Lemma row_per_feature : forall f (t : tensor T), good t -> tdims t = [1; f] -> per_feature f t.
Proof. intros f t G E. split; [auto|]. rewrite E. split; [cbn [prod]; ring|reflexivity]. Qed.
Lemma feat_row : forall f (t : tensor T) j, tdims t = [1; f] -> feat t j = el t [0; j].
Proof. intros f t j E. unfold feat, el. rewrite E. f_equal. cbn [ravel prod]. ring. Qed.
Lemma bn_rows_ready : forall f (l : bn T), bn_rows f l -> bn_ready f l /\ per_feature f (bn_rmean l) /\ per_feature f (bn_rvar l).
Proof. intros f l ((A1 & A2) & (B1 & B2) & (C1 & C2) & (D1 & D2)). split; [split|split]; apply row_per_feature; auto. Qed.
Lemma rows_featured : forall n f, featured f [n; f]. Proof. left; eauto. Qed.
Lemma images_featured : forall n f h w, featured f [n; f; h; w]. Proof. right; eauto. Qed.

Lemma bn_train_rows : forall f (l : bn T) (x : tensor T) n, bn_rows f l -> bn_train l = true -> good x -> tdims x = [n; f] ->
  bn_forward l x = (bn_trained l x (bn_nx l x) (spread [n; f] (fun j => ema (bn_mom l) (feat (bn_rmean l) j) (feature_mean x j))) (spread [n; f] (fun j => ema (bn_mom l) (feat (bn_rvar l) j) (feature_var x j))),
    Ok (tensor_of [n; f] (fn2 (fun i j => normalised (bn_eps l) (feature_mean x j) (feature_var x j) (el (bn_gamma l) [0; j]) (el (bn_beta l) [0; j]) (el x [i; j]))))).
Proof.
  intros f l x n HL Ht Gx Ex. destruct (bn_rows_ready f l HL) as (HR & PM & PV). destruct HL as ((A1 & A2) & (B1 & B2) & (C1 & C2) & (D1 & D2)).
  assert (HF : featured f (tdims x)) by (rewrite Ex; apply rows_featured). pose proof (good_pos x Gx) as HP. pose proof (good_max x Gx) as HM.
  rewrite (bn_forward_train f l x _ _ HR Ht Gx HF (bn_ema_same f (bn_mom l) (bn_rmean l) (tdims x) (feature_mean x) HF HP HM PM ltac:(rewrite Ex; exact C2))
     (bn_ema_same f (bn_mom l) (bn_rvar l) (tdims x) (feature_var x) HF HP HM PV ltac:(rewrite Ex; exact D2))).
  unfold bn_out. rewrite Ex. f_equal. f_equal. apply tensor_of_ext; [rewrite <- Ex; apply good_dims; auto|]. intros idx HI. apply in_range_2 in HI. destruct HI as (i & j & -> & Hi & Hj).
  unfold fn2. cbn [nth]. rewrite !(feat_row f) by auto. reflexivity.
Qed.
Lemma bn_eval_rows : forall f (l : bn T) (x : tensor T) n, bn_rows f l -> bn_train l = false -> good x -> tdims x = [n; f] ->
  bn_forward l x = (l, Ok (tensor_of [n; f] (fn2 (fun i j => normalised (bn_eps l) (el (bn_rmean l) [0; j]) (el (bn_rvar l) [0; j]) (el (bn_gamma l) [0; j]) (el (bn_beta l) [0; j]) (el x [i; j]))))).
Proof.
  intros f l x n HL Ht Gx Ex. destruct (bn_rows_ready f l HL) as (HR & PM & PV). destruct HL as ((A1 & A2) & (B1 & B2) & (C1 & C2) & (D1 & D2)).
  rewrite (bn_forward_eval f) by (auto; rewrite Ex; apply rows_featured).
  unfold bn_out. rewrite Ex. f_equal. f_equal. apply tensor_of_ext; [rewrite <- Ex; apply good_dims; auto|]. intros idx HI. apply in_range_2 in HI. destruct HI as (i & j & -> & Hi & Hj).
  unfold fn2. cbn [nth]. rewrite !(feat_row f) by auto. reflexivity.
Qed.
Lemma bn_other_ranks : forall (l : bn T) (x : tensor T), Zlen (tdims x) <> 2 -> Zlen (tdims x) <> 4 -> bn_forward l x = (l, Throw RuntimeError).
Proof. intros l x H2 H4. unfold bn_forward, rank. fold (tdims x). rewrite (proj2 (Z.eqb_neq _ _) H2), (proj2 (Z.eqb_neq _ _) H4). reflexivity. Qed.
Lemma bn_eval_keeps : forall (l : bn T) x, bn_train l = false -> fst (bn_forward l x) = l.
Proof. intros l x Ht. unfold bn_forward. rewrite Ht. destruct (negb _ && negb _); reflexivity. Qed.
Lemma bn_rows_mode : forall f (l : bn T) m, bn_rows f l -> bn_rows f (bn_set_mode l m).
Proof. auto. Qed.
Lemma bn_history : forall f es (l : bn T), bn_rows f l -> Forall (fun e => good (snd e) /\ exists n, tdims (snd e) = [n; f]) es ->
  bn_rows f (bn_run l es) /\ bn_gamma (bn_run l es) = bn_gamma l /\ bn_beta (bn_run l es) = bn_beta l /\
  bn_eps (bn_run l es) = bn_eps l /\ bn_mom (bn_run l es) = bn_mom l /\
  forall j, 0 <= j < f ->
    el (bn_rmean (bn_run l es)) [0; j] = fold_left (fun r x => ema (bn_mom l) r (feature_mean x j)) (training es) (el (bn_rmean l) [0; j]) /\
    el (bn_rvar (bn_run l es)) [0; j] = fold_left (fun r x => ema (bn_mom l) r (feature_var x j)) (training es) (el (bn_rvar l) [0; j]).
Proof.
  intros f. induction es as [|[m x] es IH]; intros l HL HE; [cbn; auto 10|]. inversion HE as [|? ? (Gx & n & Ex) HE']; subst. cbn [snd] in *.
  change (bn_run l ((m, x) :: es)) with (bn_run (bn_call l (m, x)) es).
  destruct m.
  - eassert (EC : bn_call l (true, x) = _) by (unfold bn_call; cbn [fst snd]; rewrite (bn_train_rows f (bn_set_mode l true) x n HL eq_refl Gx Ex); reflexivity). cbn [fst] in EC. rewrite EC. clear EC.
    set (l1 := bn_trained _ _ _ _ _). assert (HF : featured f [n; f]) by apply rows_featured.
    pose proof (good_pos x Gx) as HP. pose proof (good_max x Gx) as HM. rewrite Ex in HP, HM.
    assert (HL1 : bn_rows f l1).
    { destruct HL as (A & B & C & D). split; [exact A|]. split; [exact B|]. split; (split; [eapply spread_good; eauto|reflexivity]). }
    destruct (IH l1 HL1 HE') as (H1 & H2 & H3 & H4 & H5 & H6).
    change (training ((true, x) :: es)) with (x :: training es). cbn [fold_left].
    split; [auto|]. split; [exact H2|]. split; [exact H3|]. split; [exact H4|]. split; [exact H5|].
    intros j Hj. destruct (H6 j Hj) as [E1 E2]. change (bn_mom l1) with (bn_mom l) in E1, E2.
    rewrite <- (feat_row f (bn_rmean l1)) in E1 by (apply HL1). rewrite <- (feat_row f (bn_rvar l1)) in E2 by (apply HL1).
    unfold l1, bn_trained in E1, E2. cbn [bn_rmean bn_rvar] in E1, E2.
    rewrite (feat_spread f) in E1 by auto. rewrite (feat_spread f) in E2 by auto. cbn [bn_mom bn_set_mode bn_rmean bn_rvar] in E1, E2.
    rewrite (feat_row f) in E1 by apply HL. rewrite (feat_row f) in E2 by apply HL. auto.
  - eassert (EC : bn_call l (false, x) = _) by (unfold bn_call; cbn [fst snd]; rewrite (bn_eval_rows f (bn_set_mode l false) x n HL eq_refl Gx Ex); reflexivity). cbn [fst] in EC. rewrite EC. clear EC.
    change (training ((false, x) :: es)) with (training es). exact (IH (bn_set_mode l false) HL HE').
Qed.
(** ** Images *)
Lemma bn_train_images : forall f (l : bn T) (x : tensor T) n h w, bn_rows f l -> bn_train l = true -> good x -> tdims x = [n; f; h; w] -> f * f <= INT_MAX ->
  exists l', bn_forward l x = (l', Ok (tensor_of [n; f; h; w] (fn4 (fun i j y z =>
    normalised (bn_eps l) (feature_mean x j) (feature_var x j) (el (bn_gamma l) [0; j]) (el (bn_beta l) [0; j]) (el x [i; j; y; z]))))).
Proof.
  intros f l x n h w HL Ht Gx Ex HFF. destruct (bn_rows_ready f l HL) as (HR & PM & PV). destruct HL as ((A1 & A2) & (B1 & B2) & (C1 & C2) & (D1 & D2)).
  assert (HF : featured f (tdims x)) by (rewrite Ex; apply images_featured). pose proof (good_pos x Gx) as HP. pose proof (good_max x Gx) as HM.
  assert (Hf : 0 < f) by (destruct (sdims_pos f _ HF HP) as (_ & _ & X); lia).
  assert (HB : bcast [1; f] (sdims (tdims x)) [1; f; 1; f]).
  { rewrite Ex. split; [reflexivity|]. intros i Hi. cbn [length Nat.max sdims] in *. unfold compatible. destruct i as [|[|[|[|i]]]]; cbn; try lia; split; auto; lia. }
  assert (HPr : prod [1; f; 1; f] <= INT_MAX) by (cbn [prod]; lia).
  destruct (bn_ema_dims f (bn_mom l) (bn_rmean l) (tdims x) (feature_mean x) [1; f; 1; f] HF HP HM C1 ltac:(rewrite C2; auto) HPr) as (rm & E1 & _).
  destruct (bn_ema_dims f (bn_mom l) (bn_rvar l) (tdims x) (feature_var x) [1; f; 1; f] HF HP HM D1 ltac:(rewrite D2; auto) HPr) as (rv & E2 & _).
  rewrite (bn_forward_train f l x _ _ HR Ht Gx HF E1 E2). eexists. f_equal. f_equal.
  unfold bn_out. rewrite Ex. apply tensor_of_ext; [rewrite <- Ex; apply good_dims; auto|]. intros idx HI. apply in_range_4 in HI. destruct HI as (i & j & y & z & -> & Hi & Hj & Hy & Hz).
  unfold fn4. cbn [nth]. rewrite !(feat_row f) by auto. reflexivity.
Qed.
Definition stat_dims (f : Z) (t : tensor T) : Prop := good t /\ tdims t = [1; f; 1; f].
Lemma bn_images_stats : forall f xs (l : bn T), bn_ready f l -> f * f <= INT_MAX -> Forall (images f) xs -> xs <> [] ->
  (good (bn_rmean l) /\ (tdims (bn_rmean l) = [1; f] \/ tdims (bn_rmean l) = [1; f; 1; f])) ->
  (good (bn_rvar l) /\ (tdims (bn_rvar l) = [1; f] \/ tdims (bn_rvar l) = [1; f; 1; f])) ->
  let l' := bn_run l (map (pair true) xs) in bn_ready f l' /\ stat_dims f (bn_rmean l') /\ stat_dims f (bn_rvar l').
Proof.
  intros f. induction xs as [|x xs IH]; intros l HR HFF HX HN HM HV; [congruence|]. inversion HX as [|? ? (Gx & n & h & w & Ex) HX']; subst.
  assert (HF : featured f (tdims x)) by (rewrite Ex; apply images_featured). pose proof (good_pos x Gx) as HP. pose proof (good_max x Gx) as HMx.
  assert (Hf : 0 < f) by (destruct (sdims_pos f _ HF HP) as (_ & _ & X); lia).
  assert (HB : forall d, d = [1; f] \/ d = [1; f; 1; f] -> bcast d (sdims (tdims x)) [1; f; 1; f]).
  { intros d Hd. rewrite Ex. destruct Hd as [-> | ->]; (split; [reflexivity|]); intros i Hi; cbn [length Nat.max sdims] in *; unfold compatible; destruct i as [|[|[|[|i]]]]; cbn; try lia; split; auto; lia. }
  assert (HPr : prod [1; f; 1; f] <= INT_MAX) by (cbn [prod]; lia). destruct HM as [GM DM]. destruct HV as [GV DV].
  destruct (bn_ema_dims f (bn_mom l) (bn_rmean l) (tdims x) (feature_mean x) [1; f; 1; f] HF HP HMx GM (HB _ DM) HPr) as (rm & E1 & G1 & D1).
  destruct (bn_ema_dims f (bn_mom l) (bn_rvar l) (tdims x) (feature_var x) [1; f; 1; f] HF HP HMx GV (HB _ DV) HPr) as (rv & E2 & G2 & D2).
  change (bn_run l (map (pair true) (x :: xs))) with (bn_run (bn_call l (true, x)) (map (pair true) xs)).
  eassert (EC : bn_call l (true, x) = _) by (unfold bn_call; cbn [fst snd]; rewrite (bn_forward_train f (bn_set_mode l true) x _ _ HR eq_refl Gx HF E1 E2); reflexivity). cbn [fst] in EC. rewrite EC. clear EC.
  set (l1 := bn_trained _ _ _ _ _). destruct xs as [|x2 xs]; [split; [exact HR|split; split; [exact G1|exact D1|exact G2|exact D2]]|].
  apply (IH l1 HR HFF HX'); [discriminate|split; auto|split; auto].
Qed.
Lemma bn_eval_stat_throws : forall f l x n h w, stat_dims f (bn_rmean l) -> 1 < f -> f * f <= INT_MAX -> bn_train l = false -> tdims x = [n; f; h; w] ->
  snd (bn_forward l x) = Throw RuntimeError.
Proof.
  intros f l x n h w (Gm & Em) Hf HFF Ht Ex. unfold bn_forward, rank. fold (tdims x). rewrite Ex. change (negb (Zlen [n; f; h; w] =? 2) && negb (Zlen [n; f; h; w] =? 4)) with false. rewrite Ht. cbn [snd].
  unfold bn_reshape at 1. rewrite Em. change (rd [1; f; 1; f] 1) with (Ok f). cbn [bind].
  change (wr (zrepeat 1 (Zlen [n; f; h; w])) 1 f) with (Ok [1; f; 1; 1]). cbn [bind]. unfold reshape_to. rewrite new_shape_ok_int by (auto with idx; cbn [prod]; nia). cbn [bind].
  unfold t_reshape. rewrite shape_reshape_throw.
  - destruct (pos_dims_dec _) as [P|P].
    + destruct (Z.ltb_spec (prod (dims (shape_of [1; f; 1; 1]))) two64) as [L|L]; [reflexivity|]. cbn [shape_of dims prod] in L. unfold two64, INT_MAX in *. nia.
    + exfalso. apply P. cbn [shape_of dims]. auto with idx.
  - cbn [shape_of dims]. unfold INT_MIN. repeat constructor; nia.
  - intros (_ & X). revert X. cbn [shape_of dims prod]. destruct Gm as (_ & ES & _). rewrite ES. cbn [shape_of ssize]. rewrite Em. cbn [prod]. nia.
Qed.
Lemma bn_images_eval_fails : forall f (l : bn T) xs x n h w, bn_rows f l -> 1 < f -> f * f <= INT_MAX -> Forall (images f) xs -> xs <> [] -> tdims x = [n; f; h; w] ->
  snd (bn_forward (bn_set_mode (bn_run l (map (pair true) xs)) false) x) = Throw RuntimeError.
Proof.
  intros f l xs x n h w HL Hf HFF HX HN Ex. destruct (bn_rows_ready f l HL) as (HR & _). destruct HL as (A & B & (C1 & C2) & (D1 & D2)).
  destruct (bn_images_stats f xs l HR HFF HX HN) as (_ & HM & _); auto.
  apply (bn_eval_stat_throws f _ x n h w); auto.
Qed.
(** One channel. *)
Definition unit_dims (t : tensor T) : Prop := good t /\ (tdims t = [1; 1] \/ tdims t = [1; 1; 1; 1]).
Lemma unit_per_feature : forall t, unit_dims t -> per_feature 1 t.
Proof. intros t (G & [E|E]); (split; [auto|]); rewrite E; split; reflexivity. Qed.
Lemma bn_one_channel : forall xs l, bn_ready 1 l -> unit_dims (bn_rmean l) -> unit_dims (bn_rvar l) -> Forall (images 1) xs ->
  let l' := bn_run l (map (pair true) xs) in
  bn_ready 1 l' /\ unit_dims (bn_rmean l') /\ unit_dims (bn_rvar l') /\ bn_gamma l' = bn_gamma l /\ bn_beta l' = bn_beta l /\ bn_eps l' = bn_eps l /\
  feat (bn_rmean l') 0 = fold_left (fun r x => ema (bn_mom l) r (feature_mean x 0)) xs (feat (bn_rmean l) 0) /\
  feat (bn_rvar l') 0 = fold_left (fun r x => ema (bn_mom l) r (feature_var x 0)) xs (feat (bn_rvar l) 0).
Proof.
  induction xs as [|x xs IH]; intros l HR HM HV HX; [cbn; auto 10|]. inversion HX as [|? ? (Gx & n & h & w & Ex) HX']; subst.
  assert (HF : featured 1 (tdims x)) by (rewrite Ex; apply images_featured). pose proof (good_pos x Gx) as HP. pose proof (good_max x Gx) as HMx.
  destruct HM as (GM & DM). destruct HV as (GV & DV).
  destruct (bn_ema_one (bn_mom l) (bn_rmean l) (tdims x) (feature_mean x) HF HP HMx GM DM) as (rm & E1 & G1 & D1 & F1).
  destruct (bn_ema_one (bn_mom l) (bn_rvar l) (tdims x) (feature_var x) HF HP HMx GV DV) as (rv & E2 & G2 & D2 & F2).
  change (bn_run l (map (pair true) (x :: xs))) with (bn_run (bn_call l (true, x)) (map (pair true) xs)).
  eassert (EC : bn_call l (true, x) = _) by (unfold bn_call; cbn [fst snd]; rewrite (bn_forward_train 1 (bn_set_mode l true) x _ _ HR eq_refl Gx HF E1 E2); reflexivity). cbn [fst] in EC. rewrite EC. clear EC. cbn [fold_left]. rewrite <- F1, <- F2.
  set (l1 := bn_trained _ _ _ _ _). destruct (IH l1) as (H1 & H2 & H3 & H4 & H5 & H6 & H7 & H8); [exact HR|split; auto|split; auto|auto|].
  cbv zeta. auto 10.
Qed.
(** ** Backward *)
Lemma bn_one_channel_eval : forall (l : bn T) xs x, bn_rows 1 l -> Forall (images 1) xs -> images 1 x ->
  snd (bn_forward (bn_set_mode (bn_run l (map (pair true) xs)) false) x) = Ok (tensor_of (tdims x) (fun idx =>
    normalised (bn_eps l) (fold_left (fun r x => ema (bn_mom l) r (feature_mean x 0)) xs (el (bn_rmean l) [0; 0]))
      (fold_left (fun r x => ema (bn_mom l) r (feature_var x 0)) xs (el (bn_rvar l) [0; 0])) (el (bn_gamma l) [0; 0]) (el (bn_beta l) [0; 0]) (el x idx))).
Proof.
  intros l xs x HR HX (Gx & n & h & w & Ex). pose proof HR as ((Gg & Dg) & (Gb & Db) & (Gm & Dm) & (Gv & Dv)).
  destruct (bn_one_channel xs l) as (R & UM & UV & Eg & Eb & Ee & Fm & Fv); [apply bn_rows_ready in HR; apply HR|split; auto|split; auto|auto|].
  set (l' := bn_run _ _) in *. assert (HF : featured 1 (tdims x)) by (rewrite Ex; apply images_featured).
  rewrite (bn_forward_eval 1); auto using unit_per_feature. cbn [snd]. f_equal. unfold bn_out. apply tensor_of_ext; [apply good_dims; auto|]. intros idx HI.
  assert (E0 : nth 1 idx 0 = 0) by (pose proof (featured_nth 1 _ _ HF HI); lia). rewrite E0.
  cbn [bn_set_mode bn_eps bn_rmean bn_rvar bn_gamma bn_beta]. rewrite Fm, Fv, Ee, Eg, Eb. rewrite !(feat_row 1) by auto. reflexivity.
Qed.
Lemma sum_rank1 : forall f ds (t : tensor T), featured f ds -> good t -> tdims t = ds -> exists s, t_sum_axes t (bn_axes ds) = Ok s /\ good s /\ tdims s = [f].
Proof.
  intros f ds t HF G E. destruct (featured_axes f ds HF) as (A1 & A2 & A3). destruct (featured_perm f ds HF) as (HNil & HRg & _). pose proof (good_pos t G) as HP. pose proof (good_max t G) as HM. rewrite E in *.
  destruct (sdims_pos f ds HF HP) as (P1 & P2 & P3).
  rewrite sum_axes_ok; [|auto|rewrite E; auto|rewrite E, A2; discriminate]. eexists. split; [reflexivity|]. rewrite E, A2. split; [|reflexivity]. apply good_tensor_of; [auto with idx|cbn [prod]; lia].
Qed.
Lemma bn_backward_undefined : forall f l x g, bn_ready f l -> bn_train l = true -> good x -> featured f (tdims x) ->
  bn_mean l = Some (spread (tdims x) (feature_mean x)) -> bn_var l = Some (spread (tdims x) (feature_var x)) -> bn_norm l = Some (bn_nx l x) ->
  good g -> tdims g = tdims x -> bn_backward l g = (l, UB).
Proof.
  intros f l x g (Hg & Hb) Ht Gx HF EM EV EN Gg Eg. pose proof (good_pos x Gx) as HP. pose proof (good_max x Gx) as HM.
  assert (GN : good (bn_nx l x)) by (apply good_tensor_of; auto).
  unfold bn_backward. rewrite EM, EV, EN, Eg.
  assert (R0 : exists b, rd (tdims x) 0 = Ok b) by (destruct HF as [(n & ->)|(n & h & w & ->)]; eexists; reflexivity). destruct R0 as (b & R0). rewrite R0. cbn [bind].
  rewrite (bn_reshape_ok f) by auto. cbn [bind].
  unfold t_mul at 1. rewrite binop_same by auto. cbn [bind].
  destruct (sum_rank1 f (tdims x) (tensor_of (tdims g) (fun idx => s_mul (el g idx) (el (bn_nx l x) idx)))) as (s1 & -> & _); [auto|rewrite Eg; apply good_tensor_of; auto|exact Eg|]. cbn [bind].
  destruct (sum_rank1 f (tdims x) g) as (s2 & -> & _); [auto|auto|auto|]. cbn [bind].
  unfold t_mul at 1. rewrite (op_spread _ f (tdims x)) by auto. cbn [bind]. set (dn := tensor_of (tdims x) _).
  assert (Gdn : good dn) by (apply good_tensor_of; auto).
  destruct (scalar_ops (spread (tdims x) (feature_var x)) (bn_eps l) (spread_good f _ _ HF HP HM)) as [E _]. rewrite E. cbn [bind]. rewrite (spread_map (fun a => s_add a (bn_eps l)) f) by auto.
  rewrite (bn_reshape_ok f) by (auto using spread_per_feature). cbn [bind]. set (sp := spread (tdims x) _). assert (Gsp : good sp) by (eapply spread_good; eauto).
  destruct (apply_all s_sqrt sp Gsp) as (_ & _ & E2). rewrite E2. cbn [bind].
  assert (Gsq : good (tensor_of (tdims sp) (fun idx => s_sqrt (el sp idx)))) by (apply good_tensor_of; [apply good_pos|apply good_max]; auto).
  rewrite reciprocal_ok by auto. cbn [bind].
  unfold t_mul at 1. rewrite binop_same by auto. cbn [bind].
  destruct (sum_rank1 f (tdims x) (tensor_of (tdims dn) (fun idx => s_mul (el dn idx) (el (bn_nx l x) idx)))) as (s3 & -> & G3 & D3); [auto|apply good_tensor_of; auto|reflexivity|]. cbn [bind].
  unfold bn_reshape at 1. rewrite D3. reflexivity.
Qed.
Lemma bn_backward_after : forall f (l : bn T) (x : tensor T) g, bn_rows f l -> bn_train l = true -> good x -> featured f (tdims x) -> f * f <= INT_MAX -> good g -> tdims g = tdims x ->
  snd (bn_backward (fst (bn_forward l x)) g) = UB.
Proof.
  intros f l x g HL Ht Gx HF HFF Gg Eg. destruct (bn_rows_ready f l HL) as (HR & PM & PV).
  pose proof (good_pos x Gx) as HP. pose proof (good_max x Gx) as HM.
  assert (Hf : 0 < f) by (destruct (sdims_pos f _ HF HP) as (_ & _ & X); lia).
  assert (HE : exists rm rv, bn_ema (bn_mom l) (bn_rmean l) (spread (tdims x) (feature_mean x)) = Ok rm /\ bn_ema (bn_mom l) (bn_rvar l) (spread (tdims x) (feature_var x)) = Ok rv).
  { destruct HL as ((A1 & A2) & (B1 & B2) & (C1 & C2) & (D1 & D2)).
    assert (HB : exists r, bcast [1; f] (sdims (tdims x)) r /\ prod r <= INT_MAX).
    { destruct HF as [(n & EX)|(n & h & w & EX)]; rewrite EX.
      - exists [1; f]. split; [apply bcast_refl|cbn [prod]; nia].
      - exists [1; f; 1; f]. split; [|cbn [prod]; lia]. split; [reflexivity|]. intros i Hi. cbn [length Nat.max sdims] in *. unfold compatible. destruct i as [|[|[|[|i]]]]; cbn; try lia; split; auto; lia. }
    destruct HB as (r & HB & HPr).
    destruct (bn_ema_dims f (bn_mom l) (bn_rmean l) (tdims x) (feature_mean x) r HF HP HM C1 ltac:(rewrite C2; auto) HPr) as (rm & E1 & _).
    destruct (bn_ema_dims f (bn_mom l) (bn_rvar l) (tdims x) (feature_var x) r HF HP HM D1 ltac:(rewrite D2; auto) HPr) as (rv & E2 & _). eauto. }
  destruct HE as (rm & rv & E1 & E2). rewrite (bn_forward_train f l x _ _ HR Ht Gx HF E1 E2). cbn [fst].
  rewrite (bn_backward_undefined f (bn_trained l x (bn_nx l x) rm rv) x g); auto.
Qed.
Lemma bn_new_ok : forall f (eps mom : T), 0 < f <= INT_MAX ->
  exists l, bn_new f eps mom = Ok l /\ bn_rows f l /\ bn_train l = true /\ bn_eps l = eps /\ bn_mom l = mom /\
    forall j, 0 <= j < f -> el (bn_gamma l) [0; j] = one /\ el (bn_beta l) [0; j] = zero /\ el (bn_rmean l) [0; j] = zero /\ el (bn_rvar l) [0; j] = one.
Proof.
  intros f eps mom Hf. assert (HP : pos_dims [1; f]) by (split; [discriminate|repeat constructor; lia]). assert (HM : prod [1; f] <= INT_MAX) by (cbn [prod]; lia).
  unfold bn_new. rewrite !f_fill_ok by auto. rewrite !tensor_of_fill by (repeat constructor; lia). cbn [bind]. eexists. split; [reflexivity|].
  assert (HG : forall v : T, good (tensor_of [1; f] (fun _ => v)) /\ tdims (tensor_of [1; f] (fun _ => v)) = [1; f]) by (intros; split; [apply good_tensor_of; auto|reflexivity]).
  split; [split; [apply HG|split; [apply HG|split; apply HG]]|]. do 3 (split; [reflexivity|]).
  intros j Hj. cbn [bn_gamma bn_beta bn_rmean bn_rvar]. rewrite !el_tensor_of by (apply in_range2; lia). auto.
Qed.
Lemma bn_backward_fresh : forall f (eps mom : T) (l : bn T) (g : tensor T), bn_new f eps mom = Ok l -> bn_backward l g = (l, Throw RuntimeError).
Proof.
  intros f eps mom l g E. unfold bn_new in E. destruct (f_fill [1; f] one); [|discriminate..]. cbn [bind] in E. destruct (f_fill [1; f] zero); [|discriminate..]. cbn [bind] in E.
  injection E as <-. reflexivity.
Qed.
Lemma bn_train_images_out : forall f (l : bn T) (x : tensor T) n h w, bn_rows f l -> bn_train l = true -> good x -> tdims x = [n; f; h; w] -> f * f <= INT_MAX ->
  snd (bn_forward l x) = Ok (tensor_of [n; f; h; w] (fn4 (fun i j y z =>
    normalised (bn_eps l) (feature_mean x j) (feature_var x j) (el (bn_gamma l) [0; j]) (el (bn_beta l) [0; j]) (el x [i; j; y; z])))).
Proof. intros. edestruct bn_train_images as (l' & E); eauto. rewrite E. reflexivity. Qed.
End S.
