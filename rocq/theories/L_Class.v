(** * Training a classifier: lemmas for C106 *)
From Coq Require Import Reals Lra.
From Coquelicot Require Import Coquelicot.
From Verif Require Import Base Scalar ScalarR Types Spec SpecNN SpecR SpecLayers SpecOpt M_Shape M_Tensor M_Adv M_Act M_Loss M_Layers M_Reg M_Opt M_Net SpecNet SpecNetR SpecClass
  L_Index L_Shape L_Tensor L_Glue L_Nest L_Matmul L_RSum L_AdvR L_ActR L_Loss L_Layers L_LayersR L_Net L_Net2 L_NetR L_Train L_TrainR.
Local Open Scope R_scope.

(** ** One row: the signal below the softmax is a weighted deviation from the mean *)
Section Row.
Variables (J : list Z) (p g : Z -> R).
Definition mean_ : R := rsum J (fun j => p j * g j).
Lemma row_var : rsum J p = 1 -> rsum J (fun j => g j * (p j * (g j - mean_))) = rsum J (fun j => p j * (g j - mean_) ^ 2).
Proof.
  intros HS. transitivity (rsum J (fun j => p j * (g j - mean_) ^ 2) + mean_ * (rsum J (fun j => p j * g j) - mean_ * rsum J p)).
  - rewrite <- (rsum_scal_l J mean_ p), <- rsum_minus, <- rsum_scal_l, <- rsum_plus. apply rsum_ext. intros j _. ring.
  - rewrite HS. fold mean_. ring.
Qed.
Lemma row_var_nonneg : rsum J p = 1 -> (forall j, In j J -> 0 < p j) -> 0 <= rsum J (fun j => g j * (p j * (g j - mean_))).
Proof. intros HS HP. rewrite row_var by auto. apply rsum_nonneg. intros j Hj. apply Rmult_le_pos; [left; auto|apply pow2_ge_0]. Qed.
Lemma row_var_zero : rsum J p = 1 -> (forall j, In j J -> 0 < p j) -> rsum J g = 0 -> J <> [] ->
  rsum J (fun j => g j * (p j * (g j - mean_))) = 0 -> forall j, In j J -> g j = 0.
Proof.
  intros HS HP HG HN H j Hj. rewrite row_var in H by auto.
  assert (K : forall i, In i J -> g i = mean_).
  { intros i Hi. assert (E : p i * (g i - mean_) ^ 2 = 0) by (apply (rsum_zero_inv J (fun i => p i * (g i - mean_) ^ 2)); auto; intros q Hq; apply Rmult_le_pos; [left; auto|apply pow2_ge_0]).
    apply Rmult_integral in E. specialize (HP i Hi). destruct E as [E|E]; [lra|]. assert (g i - mean_ = 0) by (apply Rsqr_0_uniq; unfold Rsqr; rewrite <- E; ring). lra. }
  assert (M : IZR (Zlen J) * mean_ = 0) by (rewrite <- rsum_const, <- HG; apply rsum_ext; intros; symmetry; auto).
  apply Rmult_integral in M. destruct M as [M|M]; [|rewrite K; auto].
  exfalso. destruct J as [|a r]; [auto|]. rewrite Zlen_cons in M. pose proof (Zlen_nonneg r). apply (eq_IZR _ 0) in M. lia.
Qed.
End Row.

Section Class.
Context {G : Type} {HR : Rng R G}.
Variables (N k c : Z).

Definition prob (Z : tensor R) : tensor R := tensor_of [N; c] (fun idx => smR [c] Z (hd 0%Z idx) (tl idx)).
Lemma prob_ok : forall Z, good Z -> tdims Z = [N; c] -> softmax_fwd Z = Ok (prob Z).
Proof. intros Z HG E. apply softmax_R; auto. discriminate. Qed.

(** The signal that the softmax passes down. *)
Lemma signal_el : forall (Z g p : tensor R), good Z -> tdims Z = [N; c] -> good g -> tdims g = [N; c] -> softmax_fwd Z = Ok p ->
  exists d, softmax_bwd Z g = Ok d /\ good d /\ tdims d = [N; c] /\
    forall i j, (0 <= i < N)%Z -> (0 <= j < c)%Z -> el d [i; j] = el p [i; j] * (el g [i; j] - mean_ (zrange 0 c) (fun j => el p [i; j]) (fun j => el g [i; j])).
Proof.
  intros Z g p HZ EZ Hg Eg Ep. destruct (softmax_jacobian Z g p N [c] HZ Hg EZ Eg ltac:(discriminate) Ep) as (d & Ed & Dd & Gd & V).
  exists d. split; [auto|]. split; [auto|]. split; [auto|]. intros i j Hi Hj. rewrite (V i [j] Hi) by auto with idx.
  destruct (dims2_pos Z N c HZ EZ) as (_ & Hc & _). rewrite rsum1 by auto.
  rewrite (rsum_ext _ _ (fun j' => (if Z.eq_dec j' j then el p [i; j] * el g [i; j] else 0) + - el p [i; j] * (el p [i; j'] * el g [i; j']))).
  - rewrite rsum_plus, rsum_scal_l. unfold mean_. rewrite (rsum_single (zrange 0 c) _ j); [|apply NoDup_zrange|apply In_zrange; lia|].
    + destruct (Z.eq_dec j j) as [_|]; [ring|congruence].
    + intros q _ NE. destruct (Z.eq_dec q j); [congruence|reflexivity].
  - intros q _. destruct (list_eq_dec Z.eq_dec [j] [q]) as [E|NE]; destruct (Z.eq_dec q j) as [E'|NE']; try congruence; subst; ring.
Qed.
Lemma cce_signal : forall (p t : tensor R), good p -> tdims p = [N; c] -> unclamped p -> distributions N c t ->
  exists g, cce_gradient p t = Ok g /\ good g /\ tdims g = [N; c] /\
    forall i j, (0 <= i < N)%Z -> (0 <= j < c)%Z -> el g [i; j] = (el p [i; j] - el t [i; j]) / IZR N.
Proof.
  intros p t Gp Ep HU (Gt & Et & HT). destruct (dims2_pos p N c Gp Ep) as (HN & Hc & HM).
  eexists. split; [apply (cce_gradient_ok p t N c Gp Gt Ep Et); apply IZR_pos_neq; auto|].
  split; [apply good_tensor_of; [split; [discriminate|auto with idx]|cbn [prod]; lia]|]. split; [reflexivity|].
  intros i j Hi Hj. rewrite el_tensor_of by auto with idx. cbn [s_div s_sub s_z RScalar]. rewrite cce_clamp_R, clampR_id; [reflexivity|].
  assert (HI : in_range (tdims p) [i; j]) by (rewrite Ep; auto with idx). specialize (HU _ HI). unfold epsR. lra.
Qed.
Lemma prob_row : forall Z p i, good Z -> tdims Z = [N; c] -> softmax_fwd Z = Ok p -> (0 <= i < N)%Z ->
  rsum (zrange 0 c) (fun j => el p [i; j]) = 1.
Proof.
  intros Z p i HG E Ep Hi. destruct (dims2_pos Z N c HG E) as (_ & Hc & _).
  destruct (softmax_distribution Z N [c] HG E ltac:(discriminate)) as (y & Ey & _ & _ & _ & S & _). rewrite Ep in Ey. injection Ey as <-.
  rewrite <- (S i Hi), rsum1 by auto. reflexivity.
Qed.
Theorem signal_descends : forall (Z p t : tensor R), good Z -> tdims Z = [N; c] -> softmax_fwd Z = Ok p -> unclamped p -> distributions N c t ->
  exists g d, cce_gradient p t = Ok g /\ softmax_bwd Z g = Ok d /\ tdims d = [N; c] /\ 0 <= dot g d /\
    (dot g d = 0 <-> forall idx, in_range [N; c] idx -> el p idx = el t idx).
Proof.
  intros Z p t HZ EZ Ep HU HD. destruct (dims2_pos Z N c HZ EZ) as (HN & Hc & HM).
  destruct (softmax_distribution Z N [c] HZ EZ ltac:(discriminate)) as (y & Ey & Gp & Dp & Pp & _ & _). rewrite Ep in Ey. injection Ey as <-. rewrite EZ in Dp.
  destruct (cce_signal p t Gp Dp HU HD) as (g & Eg & Gg & Dg & Vg).
  destruct (signal_el Z g p HZ EZ Gg Dg Ep) as (d & Ed & Gd & Dd & Vd). exists g, d. split; [auto|]. split; [auto|]. split; [auto|].
  assert (EDot : dot g d = rsum (zrange 0 N) (fun i => rsum (zrange 0 c) (fun j => el g [i; j] * (el p [i; j] * (el g [i; j] - mean_ (zrange 0 c) (fun j => el p [i; j]) (fun j => el g [i; j])))))).
  { unfold dot. rewrite Dg, rsum2 by auto. apply rsum_ext. intros i Hi. apply rsum_ext. intros j Hj. apply In_zrange in Hi. apply In_zrange in Hj. rewrite Vd by lia. reflexivity. }
  assert (PP : forall i j, (0 <= i < N)%Z -> In j (zrange 0 c) -> 0 < el p [i; j]) by (intros i j Hi Hj; apply In_zrange in Hj; apply Pp; rewrite EZ; auto with idx).
  assert (NN : forall i, In i (zrange 0 N) -> 0 <= rsum (zrange 0 c) (fun j => el g [i; j] * (el p [i; j] * (el g [i; j] - mean_ (zrange 0 c) (fun j => el p [i; j]) (fun j => el g [i; j]))))).
  { intros i Hi. apply In_zrange in Hi. apply (row_var_nonneg (zrange 0 c) (fun j => el p [i; j]) (fun j => el g [i; j])); [apply (prob_row Z); auto; lia|intros; apply PP; auto; lia]. }
  assert (HNR : 0 < IZR N) by (apply IZR_lt; auto).
  split; [rewrite EDot; apply rsum_nonneg; exact NN|]. split.
  - intros H idx HI. rewrite EDot in H. destruct (in_range_2 _ _ _ HI) as (i & j & -> & Hi & Hj).
    assert (K : el g [i; j] = 0).
    { apply (row_var_zero (zrange 0 c) (fun j => el p [i; j]) (fun j => el g [i; j])); try (apply In_zrange; lia); [apply (prob_row Z); auto|intros; apply PP; auto| | |].
      - rewrite (rsum_ext _ _ (fun j => / IZR N * (el p [i; j] - el t [i; j]))) by (intros q Hq; apply In_zrange in Hq; rewrite Vg by lia; field; lra).
        rewrite rsum_scal_l, rsum_minus. destruct HD as (_ & _ & HT). rewrite (prob_row Z p i), HT by auto. ring.
      - intros E. rewrite (zrange_cons 0 c) in E by lia. discriminate.
      - apply (rsum_zero_inv (zrange 0 N) _ NN H). apply In_zrange. lia. }
    rewrite Vg in K by auto. apply Rmult_integral in K. destruct K as [K|K]; [lra|]. pose proof (Rinv_0_lt_compat _ HNR). lra.
  - intros H. rewrite EDot. apply rsum_zero. intros i Hi. apply rsum_zero. intros j Hj. apply In_zrange in Hi. apply In_zrange in Hj.
    rewrite Vg by lia. rewrite H by auto with idx. unfold Rdiv. ring.
Qed.

(** ** One step of the whole network *)
Variables (x t : tensor R).
Hypotheses (Gx : good x) (Ex : tdims x = [N; k]) (Ht : distributions N c t) (HM : (N * c <= INT_MAX)%Z).

Definition logits (l : fc R) : tensor R := tensor_of [N; c] (fn2 (fun i j => affine k (fc_w l) (fc_b l) (fun p => el x [i; p]) j)).
Definition fed (l : fc R) : fc R := mkFC (fc_w l) (fc_b l) (Some x) (fc_gw l) (fc_gb l).
Lemma posC : forall l : fc R, fc_wf l k c -> (0 < N)%Z /\ (0 < k)%Z /\ (0 < c)%Z.
Proof. intros l (GW & EW & _). destruct (dims2_pos x N k Gx Ex) as (A & B & _). destruct (dims2_pos _ k c GW EW) as (_ & C & _). auto. Qed.
Lemma logits_good : forall l : fc R, fc_wf l k c -> good (logits l) /\ tdims (logits l) = [N; c].
Proof. intros l W. destruct (posC l W) as (A & B & C). split; [|reflexivity]. apply good_tensor_of; [split; [discriminate|auto with idx]|cbn [prod]; lia]. Qed.
Lemma predict_class : forall l ll lo op (g : G), fc_wf l k c ->
  net_predict (mkNet [LFC l; LAct (mkActL Softmax ll)] lo op g) x = (mkNet [LFC (fed l); LAct (mkActL Softmax (Some (logits l)))] lo op g, Ok (prob (logits l))).
Proof.
  intros l ll lo op g W. destruct (logits_good l W) as (GL & EL). unfold net_predict. cbn [n_layers n_loss n_opt n_rng forward_all layer_forward].
  rewrite (fc_forward_2 l k c x N) by auto. unfold lift. cbn [fst snd]. fold (logits l). unfold act_forward. cbn [al_act act_fwd fst snd].
  rewrite prob_ok by auto. reflexivity.
Qed.

Theorem class_step : forall l damp nest (g0 : G), fc_wf l k c -> unclamped (prob (logits l)) ->
  exists d, (exists g, cce_gradient (prob (logits l)) t = Ok g /\ softmax_bwd (logits l) g = Ok d) /\ good d /\ tdims d = [N; c] /\
  forall lr, exists n' l', fit_one (classifier l lr damp nest g0) x t n' /\ fc_wf l' k c /\ (exists ll, n_layers n' = [LFC l'; LAct (mkActL Softmax ll)]) /\
    logits l' = tensor_of [N; c] (fun idx => el (logits l) idx - lr * el (shift N k c x d) idx).
Proof.
  intros l damp nest g0 W HU. destruct (posC l W) as (HN & Hk & Hc). destruct (logits_good l W) as (GL & EL).
  assert (Gp : good (prob (logits l))) by (apply good_tensor_of; [split; [discriminate|auto with idx]|cbn [prod]; lia]).
  destruct (cce_signal (prob (logits l)) t Gp eq_refl HU Ht) as (g & Eg & Gg & Dg & Vg).
  destruct (signal_el (logits l) g _ GL EL Gg Dg (prob_ok _ GL EL)) as (d & Ed & Gd & Dd & Vd).
  exists d. split; [exists g; auto|]. split; [auto|]. split; [auto|]. intros lr.
  set (gw := tensor_of [k; c] (fn2 (fc_dw N (fun i p => el x [i; p]) (fun i j => el d [i; j])))).
  set (gb := tensor_of [1%Z; c] (fn2 (fun _ => fc_db N (fun i j => el d [i; j])))).
  destruct Ht as (Gt & Et & HT). pose proof W as (GW & EW & GB & EB). pose proof (dims2_pos _ k c GW EW) as (_ & _ & HM2).
  set (o := OSGD (sgd_new lr 0 damp 0 nest)). assert (HO : plain_sgd lr o) by (exists damp, nest; reflexivity).
  destruct (pair_optimize_ok (fun q => if Z.eqb q 0 then [k; c] else [1%Z; c]) o 0 (fc_w l) (fc_b l) gw gb) as (o' & w' & b' & EP & _ & Gw' & Dw' & Gb' & Db' & _ & _ & HV); auto.
  { apply new_ready. constructor. } { exact I. }
  { apply good_tensor_of; [split; [discriminate|auto with idx]|cbn [prod]; lia]. }
  { apply good_tensor_of; [split; [discriminate|apply pos_forall; auto with idx]|cbn [prod]; nia]. }
  destruct (HV lr (plain_rate_R _ _ HO)) as ((_ & Vw) & (_ & Vb)).
  set (l' := mkFC w' b' (Some x) (Some gw) (Some gb)).
  exists (mkNet [LFC l'; LAct (mkActL Softmax (Some (logits l)))] (Some CCE) (Some o') g0), l'.
  split; [|split; [|split; [eexists; reflexivity|]]].
  - unfold fit_one, classifier. eexists. eexists. eexists. eexists. eexists. exists CCE. split; [apply (predict_class l None _ _ g0 W)|]. split; [reflexivity|].
    split; [apply (cce_compute_R _ t N c Gp Gt eq_refl Et)|]. split; [exact Eg|]. split.
    + unfold net_backward. cbn [n_layers backward_all layer_backward act_backward al_in al_act act_bwd]. rewrite Ed. cbn [layer_backward].
      rewrite (fc_backward_rows (fed l) k c N x d x d W eq_refl (as_row_2 x N k Ex) (as_row_2 d N c Dd) Gx Ex Gd Dd). cbn [step]. reflexivity.
    + unfold net_update, net_with. cbn [n_layers n_opt n_loss n_rng update_all layer_update fc_gw fc_gb fc_w fc_b fed]. fold gw gb. fold o. rewrite EP. reflexivity.
  - split; [exact Gw'|]. split; [exact (eq_trans Dw' EW)|]. split; [exact Gb'|exact (eq_trans Db' EB)].
  - unfold logits at 1. apply tensor_of_ext; [auto with idx|]. intros idx HI. destruct (in_range_2 _ _ _ HI) as (i & j & -> & Hi & Hj).
    unfold fn2. cbn [nth]. rewrite affine_R. unfold l'. cbn [fc_w fc_b]. unfold logits, shift. rewrite !el_tensor_of by auto with idx. unfold fn2. cbn [nth]. rewrite affine_R.
    rewrite Vb by (rewrite EB; auto with idx). unfold gb. rewrite el_tensor_of by auto with idx. unfold fn2, fc_db. cbn [nth s_sub s_mul RScalar]. rewrite sum_to_R.
    rewrite (rsum_ext (zrange 0 k) (fun p => el x [i; p] * el w' [p; j]) (fun p => el x [i; p] * el (fc_w l) [p; j] - lr * rsum (zrange 0 N) (fun m => el x [i; p] * el x [m; p] * el d [m; j]))).
    + rewrite rsum_minus, rsum_scal_l, rsum_swap.
      rewrite (rsum_ext (zrange 0 N) (fun m => _ * el d [m; j]) (fun m => rsum (zrange 0 k) (fun q => el x [i; q] * el x [m; q] * el d [m; j]) + el d [m; j])) by (intros m _; rewrite Rmult_plus_distr_r, <- rsum_scal_r; ring).
      rewrite rsum_plus. ring.
    + intros p Hp. apply In_zrange in Hp. rewrite Vw by (rewrite EW; apply in_range2; lia). unfold gw. rewrite el_tensor_of by (apply in_range2; lia). unfold fn2, fc_dw. cbn [nth s_sub s_mul RScalar]. rewrite sum_to_R.
      rewrite Rmult_minus_distr_l. f_equal. rewrite <- !rsum_scal_l. apply rsum_ext. intros m _. ring.
Qed.

(** The loss as a function of the learning rate of one step. *)
Theorem class_slope : forall l damp nest (g0 : G), fc_wf l k c -> unclamped (prob (logits l)) ->
  exists g d L, cce_gradient (prob (logits l)) t = Ok g /\ softmax_bwd (logits l) g = Ok d /\
    (forall lr, cce_of (classifier l lr damp nest g0) x t (L 0)) /\
    (forall lr, exists n', fit_one (classifier l lr damp nest g0) x t n' /\ cce_of n' x t (L lr)) /\
    is_derive L 0 (- dot g (shift N k c x d)).
Proof.
  intros l damp nest g0 W HU. destruct (posC l W) as (HN & Hk & Hc). destruct (logits_good l W) as (GL & EL).
  destruct (class_step l damp nest g0 W HU) as (d & (g & Eg & Ed) & Gd & Dd & HS).
  set (ZZ := fun u => tensor_of [N; c] (fun idx => el (logits l) idx - u * el (shift N k c x d) idx)).
  assert (Z0 : ZZ 0 = logits l).
  { transitivity (tensor_of [N; c] (fun idx => el (logits l) idx)).
    - apply tensor_of_ext; [auto with idx|]. intros. ring.
    - apply tensor_of_ext; [auto with idx|]. intros idx HI. unfold logits. rewrite el_tensor_of by auto. reflexivity. }
  assert (HP : pos_dims [N; c]) by (split; [discriminate|auto with idx]). assert (HMp : (prod [N; c] <= INT_MAX)%Z) by (cbn [prod]; lia).
  assert (CZ : curve [N; c] ZZ 0 (tensor_of [N; c] (fun idx => - el (shift N k c x d) idx))).
  { apply curve_of; auto. intros idx HI. auto_derive; [auto|ring]. }
  assert (GZ : forall u, good (ZZ u) /\ tdims (ZZ u) = [N; c]) by (intros u; apply CZ).
  destruct Ht as (Gt & Et & HT).
  destruct (cce_logits N c t ZZ 0 _ (fun u => prob (ZZ u)) CZ Gt Et) as (L & g' & HL & Eg' & DL); auto.
  { intros u. apply prob_ok; apply GZ. } { intros idx HI. rewrite Z0. apply HU. exact HI. }
  rewrite Z0, Eg in Eg'. injection Eg' as <-.
  exists g, d, L. split; [auto|]. split; [auto|]. split; [|split].
  - intros lr. exists (mkNet [LFC (fed l); LAct (mkActL Softmax (Some (logits l)))] (Some CCE) (Some (OSGD (sgd_new lr 0 damp 0 nest))) g0), (prob (logits l)).
    split; [apply predict_class; auto|]. rewrite <- Z0. apply HL.
  - intros lr. destruct (HS lr) as (n' & l' & F & W' & (ll & EN) & EZ). exists n'. split; [auto|].
    destruct n' as [ls lo op gg]. cbn [n_layers] in EN. subst ls. eexists. exists (prob (logits l')). split; [apply predict_class; auto|]. rewrite EZ. apply HL.
  - refine (eq_ind _ (fun v => is_derive L 0 v) DL _ _). destruct (cce_signal (prob (logits l)) t) as (g2 & E2 & _ & D2 & _); auto.
    { apply good_tensor_of; auto. } rewrite Eg in E2. injection E2 as <-.
    rewrite dot_tensor_of_r; [|apply pos_forall; auto|auto]. unfold dot. rewrite D2, <- rsum_opp. apply rsum_ext. intros. ring.
Qed.
End Class.

Section Results.
Context {G : Type} {HR : Rng R G}.

(** ** Any batch: the slope of the loss along the step *)
Lemma fed_logits : forall N k c (l : fc R) x l1 Z, fc_wf l k c -> good x -> tdims x = [N; k] -> (N * c <= INT_MAX)%Z -> fc_forward l x = (l1, Ok Z) -> Z = logits N k c x l.
Proof. intros N k c l x l1 Z W Gx Ex HM E. rewrite (fc_forward_2 l k c x N) in E by auto. injection E as _ <-. reflexivity. Qed.
Theorem classifier_slope : forall N k c (l : fc R) x t damp nest (g0 : G) l1 Z p, fc_wf l k c -> good x -> tdims x = [N; k] -> (N * c <= INT_MAX)%Z -> distributions N c t ->
  fc_forward l x = (l1, Ok Z) -> softmax_fwd Z = Ok p -> unclamped p ->
  exists g d L, cce_gradient p t = Ok g /\ softmax_bwd Z g = Ok d /\
    (forall lr, cce_of (classifier l lr damp nest g0) x t (L 0)) /\
    (forall lr, exists n', fit_one (classifier l lr damp nest g0) x t n' /\ cce_of n' x t (L lr)) /\
    is_derive L 0 (- dot g (shift N k c x d)).
Proof.
  intros N k c l x t damp nest g0 l1 Z p W Gx Ex HM HD EF ES HU. pose proof (fed_logits N k c l x l1 Z W Gx Ex HM EF) as EZ. subst Z.
  destruct (logits_good N k c x Gx Ex HM l W) as (GL & EL). rewrite (prob_ok N c) in ES by auto. injection ES as <-. apply class_slope; auto.
Qed.

(** ** One row: small steps improve the prediction *)
Lemma shift_one : forall k c x g d, (0 < c)%Z -> tdims g = [1; c]%Z -> tdims d = [1; c]%Z ->
  dot g (shift 1 k c x d) = (rsum (zrange 0 k) (fun q => el x [0; q]%Z * el x [0; q]%Z) + 1) * dot g d.
Proof.
  intros k c x g d Hc Eg Ed. unfold dot. rewrite Eg, !rsum2 by (auto; lia). rewrite !rsum_one, rsum_mul_l. apply rsum_ext. intros j Hj. apply In_zrange in Hj.
  unfold shift. rewrite el_tensor_of by (apply in_range2; lia). rewrite rsum_one. cbn [nth]. ring.
Qed.
Theorem classifier_improves : forall k c (l : fc R) x t damp nest (g0 : G) l1 Z p, fc_wf l k c -> good x -> tdims x = [1; k]%Z -> distributions 1 c t ->
  fc_forward l x = (l1, Ok Z) -> softmax_fwd Z = Ok p -> unclamped p -> (exists idx, in_range [1; c]%Z idx /\ el p idx <> el t idx) ->
  exists e, 0 < e /\ forall lr, 0 < lr < e -> exists n' v v', fit_one (classifier l lr damp nest g0) x t n' /\
    cce_of (classifier l lr damp nest g0) x t v /\ cce_of n' x t v' /\ v' < v.
Proof.
  intros k c l x t damp nest g0 l1 Z p W Gx Ex HD EF ES HU (idx & HI & NE).
  assert (HM : (1 * c <= INT_MAX)%Z) by (destruct HD as (Gt & Et & _); pose proof (dims2_pos t 1 c Gt Et); lia).
  assert (Hc : (0 < c)%Z) by (destruct HD as (Gt & Et & _); pose proof (dims2_pos t 1 c Gt Et); lia).
  destruct (classifier_slope 1 k c l x t damp nest g0 l1 Z p W Gx Ex HM HD EF ES HU) as (g & d & L & Eg & Ed & H0 & HL & DL).
  pose proof (fed_logits 1 k c l x l1 Z W Gx Ex HM EF) as EZ. destruct (logits_good 1 k c x Gx Ex HM l W) as (GL & EL). rewrite <- EZ in GL, EL.
  destruct (signal_descends 1 c Z p t GL EL ES HU HD) as (g' & d' & Eg' & Ed' & Dd & HP & HQ). rewrite Eg in Eg'. injection Eg' as <-. rewrite Ed in Ed'. injection Ed' as <-.
  assert (Dg : tdims g = [1; c]%Z).
  { rewrite (prob_ok 1 c) in ES by auto. injection ES as <-.
    destruct (cce_signal 1 c (prob 1 c Z) t) as (g2 & E2 & _ & D2 & _); auto; [|rewrite Eg in E2; injection E2 as <-; auto].
    apply good_tensor_of; [split; [discriminate|auto with idx]|cbn [prod]; lia]. }
  assert (PD : 0 < dot g d) by (destruct HP as [|E]; [auto|]; exfalso; apply NE; apply HQ; auto).
  rewrite (shift_one k c x g d Hc Dg Dd) in DL.
  assert (XX : 0 <= rsum (zrange 0 k) (fun q => el x [0; q]%Z * el x [0; q]%Z)) by (apply rsum_nonneg; intros; apply Rle_0_sqr).
  destruct (decreases L _ DL) as (e & He & HE); [nra|]. exists e. split; [auto|]. intros lr Hlr. destruct (HL lr) as (n' & F & V). exists n', (L 0), (L lr). auto.
Qed.

(** ** Two rows: every small step can make the loss worse *)
Definition badW : fc R := mkFC (tensor_of [1; 2]%Z (fn2 (fun _ j => if Z.eqb j 0 then ln 9 else 0))) (tensor_of [1; 2]%Z (fn2 (fun _ j => if Z.eqb j 0 then -9 * ln 9 else 0))) None None None.
Definition badX : tensor R := tensor_of [2; 1]%Z (fn2 (fun i _ => if Z.eqb i 0 then 10 else 9)).
Definition badT : tensor R := tensor_of [2; 2]%Z (fn2 (fun i j => if Z.eqb i j then 0 else 1)).
Definition badP : tensor R := tensor_of [2; 2]%Z (fn2 (fun i j => if Z.eqb i 0 then (if Z.eqb j 0 then 9 / 10 else 1 / 10) else 1 / 2)).
Lemma exp_ln9 : exp (ln 9) = 9. Proof. apply exp_ln. lra. Qed.
Lemma rsum_two : forall f, rsum (zrange 0 2) f = f 0%Z + f 1%Z.
Proof. intros f. rewrite (zrange_cons 0 2), (zrange_cons (0 + 1) 2), (zrange_nil (0 + 1 + 1) 2) by lia. rewrite !rsum_cons, rsum_nil. change (0 + 1)%Z with 1%Z. ring. Qed.
Ltac pos2 := split; [discriminate|apply Forall_cons; [lia|apply Forall_cons; [lia|apply Forall_nil]]].
Lemma in22 : forall (P : list Z -> Prop), P [0; 0]%Z -> P [0; 1]%Z -> P [1; 0]%Z -> P [1; 1]%Z -> forall idx, in_range [2; 2]%Z idx -> P idx.
Proof.
  intros P A B C D idx HI. destruct (in_range_2 _ _ _ HI) as (i & j & -> & Hi & Hj).
  assert (i = 0 \/ i = 1)%Z as [-> | ->] by lia; assert (j = 0 \/ j = 1)%Z as [-> | ->] by lia; auto.
Qed.
Lemma bad_wf : fc_wf badW 1 2.
Proof. split; [apply good_tensor_of; [pos2|vm_compute; discriminate]|]. split; [reflexivity|]. split; [apply good_tensor_of; [pos2|vm_compute; discriminate]|reflexivity]. Qed.
Lemma bad_goodX : good badX. Proof. apply good_tensor_of; [pos2|vm_compute; discriminate]. Qed.
Lemma bad_target : distributions 2 2 badT.
Proof.
  split; [apply good_tensor_of; [pos2|vm_compute; discriminate]|]. split; [reflexivity|]. intros i Hi. rewrite rsum_two. unfold badT. rewrite !el_tensor_of by (apply in_range2; lia). unfold fn2. cbn [nth].
  assert (i = 0 \/ i = 1)%Z as [-> | ->] by lia; cbn [Z.eqb Pos.eqb]; change (1 =? 0)%Z with false; change (0 =? 1)%Z with false; change (0 =? 0)%Z with true; change (1 =? 1)%Z with true; cbv iota; ring.
Qed.
Definition badZ : tensor R := tensor_of [2; 2]%Z (fn2 (fun i j => if Z.eqb i 0 then (if Z.eqb j 0 then ln 9 else 0) else 0)).
Ltac zeqb := change (0 =? 0)%Z with true; change (1 =? 0)%Z with false; change (0 =? 1)%Z with false; change (1 =? 1)%Z with true; cbv iota.
Ltac cells := rewrite ?el_tensor_of by (apply in_range2; lia); unfold fn2; cbn [nth]; zeqb.
Lemma badZ_good : good badZ. Proof. apply good_tensor_of; [pos2|vm_compute; discriminate]. Qed.
Lemma bad_logits : logits 2 1 2 badX badW = badZ.
Proof.
  apply tensor_of_ext; [apply Forall_cons; [lia|apply Forall_cons; [lia|apply Forall_nil]]|]. apply in22; unfold fn2; cbn [nth]; rewrite affine_R, rsum_one; unfold badX, badW; cbn [fc_w fc_b]; cells; ring.
Qed.
Lemma bad_prob : prob 2 2 badZ = badP.
Proof.
  apply tensor_of_ext; [apply Forall_cons; [lia|apply Forall_cons; [lia|apply Forall_nil]]|]. apply in22; cbn [hd tl]; unfold smR, rowsum; rewrite rsum1, rsum_two by lia; unfold badZ; cells; rewrite ?exp_0, ?exp_ln9; lra.
Qed.
Lemma bad_unclamped : unclamped badP.
Proof. intros idx HI. change (tdims badP) with [2; 2]%Z in HI. revert idx HI. apply in22; unfold badP; cells; lra. Qed.
Theorem classifier_worse : forall (g0 : G) damp nest, exists e, 0 < e /\ forall lr, 0 < lr < e -> exists n' v v', fit_one (classifier badW lr damp nest g0) badX badT n' /\
    cce_of (classifier badW lr damp nest g0) badX badT v /\ cce_of n' badX badT v' /\ v < v'.
Proof.
  intros g0 damp nest. pose proof bad_wf as W. pose proof bad_goodX as GX. assert (HM : (2 * 2 <= INT_MAX)%Z) by (vm_compute; discriminate).
  assert (HU : unclamped (prob 2 2 (logits 2 1 2 badX badW))) by (rewrite bad_logits, bad_prob; apply bad_unclamped).
  destruct (class_slope 2 1 2 badX badT GX eq_refl bad_target HM badW damp nest g0 W HU) as (g & d & L & Eg & Ed & H0 & HL & DL).
  rewrite bad_logits, bad_prob in Eg. rewrite bad_logits in Ed.
  assert (GP : good badP) by (apply good_tensor_of; [pos2|vm_compute; discriminate]).
  destruct (cce_signal 2 2 badP badT GP eq_refl bad_unclamped bad_target) as (g' & Eg' & Gg & Dg & Vg). rewrite Eg in Eg'. injection Eg' as <-.
  assert (EP : softmax_fwd badZ = Ok badP) by (rewrite (prob_ok 2 2), bad_prob; auto using badZ_good).
  destruct (signal_el 2 2 badZ g badP badZ_good eq_refl Gg Dg EP) as (d' & Ed' & Gd & Dd & Vd). rewrite Ed in Ed'. injection Ed' as <-.
  assert (ES : - dot g (shift 2 1 2 badX d) = 14351 / 10000).
  { unfold dot. rewrite Dg, rsum2, rsum_two, !rsum_two by lia. unfold shift. rewrite !el_tensor_of by (apply in_range2; lia). cbn [nth]. rewrite !rsum_two, !rsum_one, !Vd by lia. unfold mean_. rewrite !rsum_two, !Vg by lia.
    unfold badX, badP, badT. cells. lra. }
  rewrite ES in DL.
  assert (DM : is_derive (fun u => - L u) 0 (- (14351 / 10000))) by (apply (is_derive_opp L); exact DL).
  destruct (decreases _ _ DM) as (e & He & HE); [lra|]. exists e. split; [auto|]. intros lr Hlr. destruct (HL lr) as (n' & F & V).
  exists n', (L 0), (L lr). split; [auto|]. split; [auto|]. split; [auto|]. specialize (HE lr Hlr). lra.
Qed.
End Results.
