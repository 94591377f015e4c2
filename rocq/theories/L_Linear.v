(** * Training a linear model: lemmas for C89 *)
From Coq Require Import Reals Lra.
From Coquelicot Require Import Coquelicot.
From Verif Require Import Base Scalar ScalarR Types Spec SpecNN SpecR SpecLayers SpecOpt M_Shape M_Tensor M_Adv M_Act M_Loss M_Layers M_Reg M_Opt M_Net SpecNet SpecNetR
  L_Index L_Shape L_Tensor L_Glue L_Nest L_Matmul L_RSum L_AdvR L_ActR L_Loss L_Layers L_LayersR L_Net L_Net2 L_NetR L_Train L_TrainR.
Local Open Scope R_scope.

(** ** Cauchy-Schwarz and the descent inequality for least squares *)
Lemma cauchy : forall {A} (l : list A) (a h : A -> R), (rsum l (fun q => a q * h q)) ^ 2 <= rsum l (fun q => a q ^ 2) * rsum l (fun q => h q ^ 2).
Proof.
  intros A l a h. induction l as [|q l IH]; [cbn; lra|]. rewrite !rsum_cons.
  set (s := rsum l (fun q => a q * h q)) in *. set (u := rsum l (fun q => a q ^ 2)) in *. set (v := rsum l (fun q => h q ^ 2)) in *.
  assert (Hu : 0 <= u) by (apply rsum_nonneg; intros; apply pow2_ge_0). assert (Hv : 0 <= v) by (apply rsum_nonneg; intros; apply pow2_ge_0).
  set (x := a q). set (y := h q).
  (* 2 x y s <= x^2 v + y^2 u *)
  assert (K : 2 * (x * y) * s <= x ^ 2 * v + y ^ 2 * u).
  { destruct (Req_dec u 0) as [E|E].
    - assert (s = 0) by (rewrite E in IH; pose proof (pow2_ge_0 s); apply Rsqr_0_uniq; unfold Rsqr; nra). subst s. rewrite H. pose proof (pow2_ge_0 x). nra.
    - assert (0 < u) by lra. apply Rmult_le_reg_l with u; [auto|].
      pose proof (pow2_ge_0 (y * u - x * s)). pose proof (pow2_ge_0 x). nra. }
  nra.
Qed.

Section Column.
Context {A B : Type}.
Variables (I : list A) (Q : list B) (a : A -> B -> R) (t : A -> R).
Definition res_ (th : B -> R) (i : A) : R := rsum Q (fun q => a i q * th q) - t i.
Definition cost_ (th : B -> R) : R := rsum I (fun i => res_ th i ^ 2).
Definition slope_ (th : B -> R) (q : B) : R := rsum I (fun i => a i q * res_ th i).
Definition next_ (c : R) (th : B -> R) (q : B) : R := th q - c * slope_ th q.
Definition dist_ (u v : B -> R) : R := rsum Q (fun q => (u q - v q) ^ 2).
Definition A_ : R := rsum I (fun i => rsum Q (fun q => a i q ^ 2)).

Lemma res_next : forall c th i, res_ (next_ c th) i = res_ th i - c * rsum Q (fun q => a i q * slope_ th q).
Proof.
  intros c th i. unfold res_. transitivity (rsum Q (fun q => a i q * th q) - c * rsum Q (fun q => a i q * slope_ th q) - t i).
  - f_equal. rewrite <- rsum_scal_l, <- rsum_minus. apply rsum_ext. intros q _. unfold next_. ring.
  - ring.
Qed.
Lemma slope_pair : forall th u, rsum I (fun i => res_ th i * rsum Q (fun q => a i q * u q)) = rsum Q (fun q => slope_ th q * u q).
Proof.
  intros th u. erewrite rsum_ext; [|intros i _; rewrite <- rsum_scal_l; reflexivity]. rewrite rsum_swap. apply rsum_ext. intros q _.
  unfold slope_. rewrite <- rsum_scal_r. apply rsum_ext. intros; ring.
Qed.
Lemma cost_next : forall c th, cost_ (next_ c th) <= cost_ th - c * (2 - c * A_) * rsum Q (fun q => slope_ th q ^ 2).
Proof.
  intros c th. set (H := rsum Q (fun q => slope_ th q ^ 2)).
  assert (E1 : rsum I (fun i => res_ th i * rsum Q (fun q => a i q * slope_ th q)) = H) by (rewrite slope_pair; apply rsum_ext; intros; ring).
  assert (E2 : rsum I (fun i => rsum Q (fun q => a i q * slope_ th q) ^ 2) <= A_ * H) by (unfold A_; rewrite <- rsum_scal_r; apply rsum_le; intros i _; apply cauchy).
  apply Rle_trans with (cost_ th - 2 * c * H + c ^ 2 * rsum I (fun i => rsum Q (fun q => a i q * slope_ th q) ^ 2)).
  - right. unfold cost_. rewrite <- E1, <- !rsum_scal_l, <- rsum_minus, <- rsum_plus. apply rsum_ext. intros i _. rewrite res_next. ring.
  - pose proof (pow2_ge_0 c). nra.
Qed.
Lemma cost_descends : forall c th, 0 <= c -> c * A_ <= 2 -> cost_ (next_ c th) <= cost_ th.
Proof.
  intros c th Hc HA. eapply Rle_trans; [apply cost_next|]. assert (0 <= rsum Q (fun q => slope_ th q ^ 2)) by (apply rsum_nonneg; intros; apply pow2_ge_0).
  assert (0 <= c * (2 - c * A_)) by (apply Rmult_le_pos; lra). nra.
Qed.
Lemma dist_next : forall c th u, 0 <= c -> c * A_ <= 1 -> dist_ (next_ c th) u <= dist_ th u - c * (cost_ (next_ c th) - cost_ u).
Proof.
  intros c th u Hc HA. pose proof (cost_next c th) as HN. set (H := rsum Q (fun q => slope_ th q ^ 2)) in *.
  assert (HH : 0 <= H) by (apply rsum_nonneg; intros; apply pow2_ge_0).
  assert (E : dist_ (next_ c th) u = dist_ th u - 2 * c * rsum Q (fun q => slope_ th q * (th q - u q)) + c ^ 2 * H).
  { unfold dist_, H. rewrite <- !rsum_scal_l, <- rsum_minus, <- rsum_plus. apply rsum_ext. intros q _. unfold next_. ring. }
  assert (E3 : 2 * rsum Q (fun q => slope_ th q * (th q - u q)) >= cost_ th - cost_ u).
  { rewrite <- slope_pair. unfold cost_. rewrite <- rsum_scal_l, <- rsum_minus. apply Rle_ge, rsum_le. intros i _.
    assert (EQ : rsum Q (fun q => a i q * (th q - u q)) = res_ th i - res_ u i).
    { unfold res_. transitivity (rsum Q (fun q => a i q * th q) - rsum Q (fun q => a i q * u q)); [|ring]. rewrite <- rsum_minus. apply rsum_ext. intros; ring. }
    rewrite EQ. pose proof (pow2_ge_0 (res_ th i - res_ u i)). nra. }
  assert (c * (cost_ (next_ c th)) <= c * (cost_ th - c * H)).
  { apply Rmult_le_compat_l; [auto|]. eapply Rle_trans; [exact HN|]. assert (c * H <= c * (2 - c * A_) * H); [|lra]. rewrite Rmult_assoc. apply Rmult_le_compat_l; [auto|]. nra. }
  rewrite E. nra.
Qed.
End Column.

(** ** One training step *)
Section S.
Context {G : Type} {HR : Rng R G}.
Variables N k o : Z.
Variables x t : tensor R.
Hypothesis Gx : good x.
Hypothesis Ex : tdims x = [N; k].
Hypothesis Gt : good t.
Hypothesis Et : tdims t = [N; o].
Local Notation net := (net R G).

(** Prediction minus target. *)
Definition resid (l : fc R) (i j : Z) : R := rsum (zrange 0 k) (fun p => el x [i; p] * el (fc_w l) [p; j]) + el (fc_b l) [0; j]%Z - el t [i; j].
Definition lin_loss (l : fc R) : R := rsum (zrange 0 N) (fun i => rsum (zrange 0 o) (fun j => resid l i j ^ 2)) / IZR (N * o).

Lemma posN : (0 < N)%Z /\ (0 < k)%Z /\ (0 < o)%Z /\ (N * k <= INT_MAX)%Z /\ (N * o <= INT_MAX)%Z.
Proof. destruct (dims2_pos x N k Gx Ex) as (A & B & C). destruct (dims2_pos t N o Gt Et) as (_ & D & E). auto. Qed.
Lemma posNo : 0 < IZR (N * o).
Proof. apply IZR_lt. destruct posN as (A & _ & B & _). nia. Qed.

Definition outs (l : fc R) : tensor R := tensor_of [N; o] (fn2 (fun i j => affine k (fc_w l) (fc_b l) (fun p => el x [i; p]) j)).
Lemma outs_good : forall l, good (outs l) /\ tdims (outs l) = [N; o].
Proof. intros l. destruct posN as (A & B & C & D & E). split; [apply good_2; auto|reflexivity]. Qed.
Lemma el_outs : forall l i j, (0 <= i < N)%Z -> (0 <= j < o)%Z -> el (outs l) [i; j] - el t [i; j] = resid l i j.
Proof. intros l i j Hi Hj. unfold outs, resid. rewrite el_tensor_of by auto with idx. unfold fn2. cbn [nth]. rewrite affine_R. reflexivity. Qed.

Lemma predict_lin : forall (n : net) l, n_layers n = [LFC l] -> fc_wf l k o ->
  net_predict n x = (mkNet [LFC (mkFC (fc_w l) (fc_b l) (Some x) (fc_gw l) (fc_gb l))] (n_loss n) (n_opt n) (n_rng n), Ok (outs l)).
Proof.
  intros n l EN W. destruct posN as (A & B & C & D & E). unfold net_predict. rewrite EN. cbn [forward_all layer_forward].
  rewrite (fc_forward_2 l k o x N) by auto. unfold lift. cbn [fst snd]. reflexivity.
Qed.
Lemma aligned_outs : forall l, aligned (outs l) t. Proof. intros l. left. rewrite Et. reflexivity. Qed.
Lemma in_shape_t : forall l, in_shape (tdims (outs l)) t = t.
Proof. intros l. destruct (outs_good l) as (_ & ->). rewrite <- Et. apply in_shape_same; auto. Qed.
Lemma loss_lin : forall (n : net) l, n_layers n = [LFC l] -> fc_wf l k o -> mse_of n x t (lin_loss l).
Proof.
  intros n l EN W. unfold mse_of. rewrite (predict_lin n l EN W). eexists; eexists. split; [reflexivity|].
  destruct (outs_good l) as (G1 & E1). rewrite mse_compute_R by (auto; apply aligned_outs). f_equal. apply tensor_of_ext; [repeat constructor|]. intros _ _.
  unfold mseR. rewrite in_shape_t. rewrite E1. destruct posN as (A & _ & C & _). unfold lin_loss. cbn [prod]. rewrite Z.mul_1_r. f_equal.
  rewrite rsum2 by auto. apply rsum_ext. intros i Hi. apply rsum_ext. intros j Hj. apply In_zrange in Hi. apply In_zrange in Hj.
  rewrite el_outs by lia. ring.
Qed.

Definition gain (lr : R) : R := 2 * lr / IZR (N * o).
Lemma step_lin : forall lr (n : net) l, ready [N; k] [N; o] lr n -> n_layers n = [LFC l] -> fc_wf l k o ->
  exists n' l', fit_one n x t n' /\ ready [N; k] [N; o] lr n' /\ n_layers n' = [LFC l'] /\ fc_wf l' k o /\
    (forall p j, (0 <= p < k)%Z -> (0 <= j < o)%Z -> el (fc_w l') [p; j] = el (fc_w l) [p; j] - gain lr * rsum (zrange 0 N) (fun i => el x [i; p] * resid l i j)) /\
    forall j, (0 <= j < o)%Z -> el (fc_b l') [0; j]%Z = el (fc_b l) [0; j]%Z - gain lr * rsum (zrange 0 N) (fun i => resid l i j).
Proof.
  intros lr n l HRd EN W. destruct posN as (HN & Hk & Ho & HM1 & HM2). pose proof W as (GW & EW & GB & EB).
  destruct (ready_step _ _ _ n x t HRd Gx Ex (conj Gt (or_introl Et))) as (n1 & p & d & n2 & n' & E1 & E2 & E3 & F & R' & ST & RP & DS & GD).
  rewrite (predict_lin n l EN W) in E1. injection E1 as <- <-. destruct (outs_good l) as (Go & Eo).
  rewrite mse_gradient_ok in E2; [|auto|auto|apply aligned_outs|rewrite Eo; apply counts_R; cbn [prod]; nia].
  injection E2 as <-. rewrite in_shape_t, Eo in *.
  match type of E3 with net_backward _ ?z = _ => set (d := z) in E3 end.
  assert (Gd : good d) by (apply good_tensor_of; [split; [discriminate|auto with idx]|cbn [prod]; lia]).
  assert (Ed : tdims d = [N; o]) by reflexivity.
  assert (Vd : forall i j, (0 <= i < N)%Z -> (0 <= j < o)%Z -> el d [i; j] = 2 / IZR (N * o) * resid l i j).
  { intros i j Hi Hj. unfold d. rewrite el_tensor_of by auto with idx. cbn [s_div s_mul s_sub s_z RScalar prod]. rewrite el_outs, Z.mul_1_r by auto.
    pose proof posNo. field. lra. }
  unfold net_backward in E3. cbn [n_layers backward_all layer_backward] in E3.
  rewrite (fc_backward_rows (mkFC (fc_w l) (fc_b l) (Some x) (fc_gw l) (fc_gb l)) k o N x d x d W eq_refl (as_row_2 x N k Ex) (as_row_2 d N o Ed) Gx Ex Gd Ed) in E3.
  cbn [step] in E3. injection E3 as <-. unfold net_with in *. cbn [n_layers fc_w fc_b fc_in] in *.
  remember (n_layers n') as ls' eqn:EL. inversion DS as [|? l' ? rest HD HT E5 E6]; subst ls'. inversion HT; subst rest. rewrite <- E6 in *. inversion RP as [|? ? ? ? HRp _ E7 E8]; subst. clear HT.
  unfold layer_descended in HD. cbn [layer_params layer_grads fc_w fc_b fc_gw fc_gb] in HD.
  destruct (layer_params l') as [(w' & b')|] eqn:EP; [|destruct HD]. destruct HD as ((Dw & Vw) & (Db & Vb)).
  unfold reparam in HRp. rewrite EP in HRp. cbn [with_params] in HRp.
  destruct l' as [l'| | | | | |]; try discriminate. cbn [layer_params] in EP. injection EP as <- <-.
  assert (W' : fc_wf l' k o).
  { inversion GD as [|? ? HG _]; subst. destruct (HG _ _ eq_refl) as (A & B). split; [auto|]. split; [congruence|]. split; [auto|congruence]. }
  exists n', l'. split; [auto|]. split; [auto|]. split; [auto|]. split; [auto|].
  pose proof posNo. split.
  - intros p j Hp Hj. rewrite Vw by (rewrite EW; auto with idx). rewrite el_tensor_of by auto with idx. unfold fn2. cbn [nth]. unfold fc_dw. rewrite sum_to_R. cbn [s_sub s_mul RScalar].
    f_equal. unfold gain. rewrite <- !rsum_scal_l. apply rsum_ext. intros i' Hi'. apply In_zrange in Hi'. rewrite Vd by lia. field. lra.
  - intros j Hj. rewrite Vb by (rewrite EB; auto with idx). rewrite el_tensor_of by auto with idx. unfold fn2. cbn [nth]. unfold fc_db. rewrite sum_to_R. cbn [s_sub s_mul RScalar].
    f_equal. unfold gain. rewrite <- !rsum_scal_l. apply rsum_ext. intros i' Hi'. apply In_zrange in Hi'. rewrite Vd by lia. field. lra.
Qed.

(** ** Weights and biases of one output as one vector *)
Definition Q : list (option Z) := None :: map Some (zrange 0 k).
Definition feat (i : Z) (q : option Z) : R := match q with None => 1 | Some p => el x [i; p] end.
Definition par (l : fc R) (j : Z) (q : option Z) : R := match q with None => el (fc_b l) [0; j]%Z | Some p => el (fc_w l) [p; j] end.
Lemma rsum_Q : forall f, rsum Q f = f None + rsum (zrange 0 k) (fun p => f (Some p)).
Proof. intros f. unfold Q. rewrite rsum_cons. f_equal. apply rsum_map. Qed.
Lemma resid_Q : forall l i j, resid l i j = rsum Q (fun q => feat i q * par l j q) - el t [i; j].
Proof. intros l i j. rewrite rsum_Q. unfold resid. cbn [feat par]. ring. Qed.
Definition size2 : R := rsum (zrange 0 N) (fun i => rsum Q (fun q => feat i q ^ 2)).
Lemma size2_dot : size2 = dot x x + IZR N.
Proof.
  destruct posN as (A & B & C & D & E). unfold size2, dot. rewrite Ex, rsum2 by auto.
  erewrite rsum_ext; [|intros i _; rewrite rsum_Q; reflexivity]. cbn [feat]. rewrite rsum_plus.
  rewrite (rsum_const _ (1 ^ 2)), Zlen_zrange, Z.sub_0_r by lia. rewrite Rplus_comm. f_equal; [|ring]. apply rsum_ext. intros i _. apply rsum_ext. intros p _. ring.
Qed.
Definition target (j i : Z) : R := el t [i; j].
Lemma resid_col : forall l i j, resid l i j = res_ Q feat (target j) (par l j) i.
Proof. intros. apply resid_Q. Qed.
Lemma loss_col : forall l, lin_loss l = rsum (zrange 0 o) (fun j => cost_ (zrange 0 N) Q feat (target j) (par l j)) / IZR (N * o).
Proof. intros l. unfold lin_loss, cost_. f_equal. rewrite rsum_swap. apply rsum_ext. intros j _. apply rsum_ext. intros i _. rewrite resid_col. reflexivity. Qed.

(** [l'] is [l] after one step with rate [lr]. *)
Definition stepped (lr : R) (l l' : fc R) : Prop :=
  forall j q, (0 <= j < o)%Z -> In q Q -> par l' j q = next_ (zrange 0 N) Q feat (target j) (gain lr) (par l j) q.
Lemma step_col : forall lr (n : net) l, ready [N; k] [N; o] lr n -> n_layers n = [LFC l] -> fc_wf l k o ->
  exists n' l', fit_one n x t n' /\ ready [N; k] [N; o] lr n' /\ n_layers n' = [LFC l'] /\ fc_wf l' k o /\ stepped lr l l'.
Proof.
  intros lr n l HRd EN W. destruct (step_lin lr n l HRd EN W) as (n' & l' & F & R' & E' & W' & Vw & Vb).
  exists n', l'. split; [auto|]. split; [auto|]. split; [auto|]. split; [auto|]. intros j q Hj Hq. unfold next_, slope_.
  unfold Q in Hq. destruct Hq as [<-|Hq].
  - cbn [par]. rewrite Vb by auto. f_equal. f_equal. apply rsum_ext. intros i _. cbn [feat]. rewrite resid_col. ring.
  - apply in_map_iff in Hq. destruct Hq as (p & <- & Hp). apply In_zrange in Hp. cbn [par]. rewrite Vw by (auto; lia). f_equal. f_equal. apply rsum_ext. intros i _. cbn [feat]. rewrite resid_col. reflexivity.
Qed.
Lemma cost_ext : forall tt u v, (forall q, In q Q -> u q = v q) -> cost_ (zrange 0 N) Q feat tt u = cost_ (zrange 0 N) Q feat tt v.
Proof. intros tt u v E. unfold cost_. apply rsum_ext. intros i _. f_equal. unfold res_. f_equal. apply rsum_ext. intros q Hq. rewrite E by auto. reflexivity. Qed.
Lemma A_size : A_ (zrange 0 N) Q feat = dot x x + IZR N.
Proof. rewrite <- size2_dot. reflexivity. Qed.

Lemma gain_pos : forall lr, 0 <= lr -> 0 <= gain lr.
Proof. intros lr H. unfold gain. pose proof posNo. apply Rmult_le_pos; [lra|]. left. apply Rinv_0_lt_compat. auto. Qed.
Lemma gain_bound : forall lr b, 2 * lr * (dot x x + IZR N) <= b * IZR (N * o) -> gain lr * A_ (zrange 0 N) Q feat <= b.
Proof.
  intros lr b H. rewrite A_size. unfold gain. pose proof posNo. apply Rmult_le_reg_r with (IZR (N * o)); [auto|].
  replace (2 * lr / IZR (N * o) * (dot x x + IZR N) * IZR (N * o)) with (2 * lr * (dot x x + IZR N)) by (field; lra). auto.
Qed.
Lemma loss_descends : forall lr l l', stepped lr l l' -> 0 <= lr -> lr * (dot x x + IZR N) <= IZR (N * o) -> lin_loss l' <= lin_loss l.
Proof.
  intros lr l l' HS H0 HB. rewrite !loss_col. pose proof posNo. apply Rmult_le_compat_r; [left; apply Rinv_0_lt_compat; auto|].
  apply rsum_le. intros j Hj. apply In_zrange in Hj. rewrite (cost_ext _ _ _ (fun q => HS j q ltac:(lia))). apply cost_descends; [apply gain_pos; auto|]. apply gain_bound. lra.
Qed.

Definition par_dist (l m : fc R) : R := rsum (zrange 0 o) (fun j => dist_ Q (par l j) (par m j)).
Lemma par_dist_sq : forall l m, fc_wf l k o -> par_dist l m = sqdist (fc_w l) (fc_w m) + sqdist (fc_b l) (fc_b m).
Proof.
  intros l m (GW & EW & GB & EB). destruct posN as (A & B & C & D & E). unfold par_dist, dist_, sqdist. rewrite EW, EB, !rsum2 by (auto; lia).
  change (zrange 0 1) with [0]%Z. rewrite rsum_cons, rsum_nil, Rplus_0_r, (rsum_swap (zrange 0 k)), <- rsum_plus. apply rsum_ext. intros j _. rewrite rsum_Q. cbn [par]. ring.
Qed.
Lemma par_dist_nonneg : forall l m, 0 <= par_dist l m.
Proof. intros. apply rsum_nonneg. intros j _. apply rsum_nonneg. intros. apply pow2_ge_0. Qed.
Lemma dist_descends : forall lr l l' m, stepped lr l l' -> 0 <= lr -> 2 * lr * (dot x x + IZR N) <= IZR (N * o) ->
  par_dist l' m <= par_dist l m - 2 * lr * (lin_loss l' - lin_loss m).
Proof.
  intros lr l l' m HS H0 HB. rewrite !loss_col. pose proof posNo as HP. unfold par_dist.
  replace (2 * lr * (rsum (zrange 0 o) (fun j => cost_ (zrange 0 N) Q feat (target j) (par l' j)) / IZR (N * o) - rsum (zrange 0 o) (fun j => cost_ (zrange 0 N) Q feat (target j) (par m j)) / IZR (N * o)))
    with (gain lr * (rsum (zrange 0 o) (fun j => cost_ (zrange 0 N) Q feat (target j) (par l' j)) - rsum (zrange 0 o) (fun j => cost_ (zrange 0 N) Q feat (target j) (par m j)))) by (unfold gain; field; lra).
  rewrite <- rsum_minus, <- rsum_scal_l, <- rsum_minus. apply rsum_le. intros j Hj. apply In_zrange in Hj.
  rewrite (cost_ext _ _ _ (fun q => HS j q ltac:(lia))).
  replace (dist_ Q (par l' j) (par m j)) with (dist_ Q (next_ (zrange 0 N) Q feat (target j) (gain lr) (par l j)) (par m j)).
  2: { unfold dist_. apply rsum_ext. intros q Hq. rewrite <- HS by (auto; lia). reflexivity. }
  apply dist_next; [apply gain_pos; auto|]. apply gain_bound. lra.
Qed.

(** ** Epochs *)
Inductive steps (lr : R) : nat -> fc R -> fc R -> Prop :=
  | steps_0 : forall l, steps lr 0 l l
  | steps_S : forall e l l1 l2, steps lr e l l1 -> stepped lr l1 l2 -> steps lr (S e) l l2.
Lemma trains : forall lr (n : net) l, ready [N; k] [N; o] lr n -> n_layers n = [LFC l] -> fc_wf l k o ->
  forall e, exists ne le ns ls, net_train n [x] [t] (Z.of_nat e) = (ne, Ok tt) /\ net_train n [x] [t] (Z.of_nat e + 1) = (ns, Ok tt) /\
    n_layers ne = [LFC le] /\ fc_wf le k o /\ n_layers ns = [LFC ls] /\ fc_wf ls k o /\ ready [N; k] [N; o] lr ns /\ steps lr e l le /\ stepped lr le ls.
Proof.
  intros lr n l HRd EN W.
  assert (TF : forall e n', net_train n [x] [t] e = (n', Ok tt) <-> fit n (concat (repeat [(x, t)] (Z.to_nat e))) n').
  { intros e n'. apply (train_fit [x] [t] e n n'); [reflexivity|]. apply (counts_R 1%Z). vm_compute. split; [reflexivity|discriminate]. }
  assert (SN : forall m n1 n2, fit n (concat (repeat [(x, t)] m)) n1 -> fit_one n1 x t n2 -> fit n (concat (repeat [(x, t)] (S m))) n2).
  { intros m n1 n2 F1 F2. change (repeat [(x, t)] (S m)) with ([(x, t)] :: repeat [(x, t)] m). rewrite repeat_cons, concat_app. apply fit_app. exists n1. split; [auto|]. cbn [concat app]. econstructor; [exact F2|constructor]. }
  induction e as [|e IH].
  - destruct (step_col lr n l HRd EN W) as (n' & l' & F & R' & E' & W' & ST). exists n, l, n', l'.
    split; [apply TF; constructor|]. split; [apply TF; apply (SN 0%nat n n'); [constructor|auto]|]. split; [auto|]. split; [auto|]. split; [auto|]. split; [auto|]. split; [auto|]. split; [constructor|auto].
  - destruct IH as (ne & le & ns & ls & T1 & T2 & E1 & W1 & E2 & W2 & R2 & S1 & S2). replace (Z.of_nat e + 1)%Z with (Z.of_nat (S e)) in T2 by lia.
    destruct (step_col lr ns ls R2 E2 W2) as (n' & l' & F & R' & E' & W' & ST). exists ns, ls, n', l'.
    split; [auto|]. split; [apply TF; replace (Z.to_nat (Z.of_nat (S e) + 1)) with (S (S e)) by lia; apply (SN (S e) ns n'); [apply TF in T2; rewrite Nat2Z.id in T2; auto|auto]|].
    split; [auto|]. split; [auto|]. split; [auto|]. split; [auto|]. split; [auto|]. split; [econstructor; eauto|auto].
Qed.
Lemma steps_best : forall lr e l le m, steps lr e l le -> 0 <= lr -> 2 * lr * (dot x x + IZR N) <= IZR (N * o) ->
  2 * lr * INR e * (lin_loss le - lin_loss m) <= par_dist l m - par_dist le m.
Proof.
  intros lr e l le m HS H0 HB. induction HS as [l|e l l1 l2 S1 IH S2]; [cbn [INR]; lra|]. rewrite S_INR.
  pose proof (dist_descends lr l1 l2 m S2 H0 HB) as D.
  assert (DD : lin_loss l2 <= lin_loss l1).
  { apply (loss_descends lr l1 l2 S2 H0). pose proof posNo. destruct posN as (A & _). assert (0 <= dot x x) by (unfold dot; apply rsum_nonneg; intros; nra). assert (0 < IZR N) by (apply IZR_lt; auto). nra. }
  pose proof (pos_INR e). assert (0 <= 2 * lr * INR e) by (apply Rmult_le_pos; lra). nra.
Qed.

(** ** One sample *)
Lemma one_step : forall lr l l', N = 1%Z -> stepped lr l l' -> lin_loss l' = (1 - 2 * lr * (dot x x + 1) / IZR o) ^ 2 * lin_loss l.
Proof.
  intros lr l l' EN HS. pose proof A_size as HA. rewrite !loss_col. pose proof posNo as HP. rewrite EN, Z.mul_1_l in *. change (zrange 0 1) with [0]%Z in *.
  unfold Rdiv at 1. rewrite (Rmult_comm (rsum _ _)). unfold Rdiv at 2. rewrite (Rmult_comm (rsum _ _)), <- Rmult_assoc, (Rmult_comm (_ ^ 2)), Rmult_assoc. f_equal.
  rewrite <- rsum_scal_l. apply rsum_ext. intros j Hj. apply In_zrange in Hj.
  assert (CE := cost_ext (target j) _ _ (fun q => HS j q ltac:(lia))). rewrite EN in CE. change (zrange 0 1) with [0]%Z in CE. rewrite CE.
  unfold cost_. rewrite !rsum_cons, !rsum_nil, res_next. unfold A_ in HA. rewrite rsum_cons, rsum_nil, Rplus_0_r in HA.
  replace (rsum Q (fun q => feat 0 q * slope_ [0%Z] Q feat (target j) (par l j) q)) with ((dot x x + 1) * res_ Q feat (target j) (par l j) 0%Z).
  - unfold gain. rewrite EN, Z.mul_1_l. field. lra.
  - rewrite <- HA, <- rsum_scal_r. apply rsum_ext. intros q _. unfold slope_. rewrite rsum_cons, rsum_nil. ring.
Qed.
Lemma one_steps : forall lr e l le, N = 1%Z -> steps lr e l le -> lin_loss le = ((1 - 2 * lr * (dot x x + 1) / IZR o) ^ 2) ^ e * lin_loss l.
Proof. intros lr e l le EN HS. induction HS as [l|e l l1 l2 S1 IH S2]; [cbn; ring|]. rewrite (one_step lr l1 l2 EN S2), IH. cbn [pow]. ring. Qed.
End S.

(** ** Statements for C89 *)
Section P.
Context {G : Type} {HR : Rng R G}.
Local Notation net := (net R G).
Lemma linear_ready : forall N k o lr (n : net) l (x : tensor R), linear_net N k o lr n l -> good x -> tdims x = [N; k] -> ready [N; k] [N; o] lr n /\ n_layers n = [LFC l] /\ fc_wf l k o.
Proof.
  intros N k o lr n l x (EN & HF & HL & op & HO & HP) Gx Ex. split.
  - apply (ready_new _ _ lr n op); auto; [rewrite EN; econstructor; [exact HF|constructor]|rewrite <- Ex; apply good_pos; auto|rewrite <- Ex; apply good_max; auto].
  - split; [auto|]. inversion HF; subst. split; auto.
Qed.
Lemma linear_never_worse : forall N k o lr (n : net) l x t e, linear_net N k o lr n l -> good x -> tdims x = [N; k] -> good t -> tdims t = [N; o] ->
  0 <= lr -> lr * (dot x x + IZR N) <= IZR (N * o) -> (0 <= e)%Z ->
  exists n1 v1 n2 v2, net_train n [x] [t] e = (n1, Ok tt) /\ mse_of n1 x t v1 /\ net_train n [x] [t] (e + 1) = (n2, Ok tt) /\ mse_of n2 x t v2 /\ v2 <= v1.
Proof.
  intros N k o lr n l x t e HLn Gx Ex Gt Et H0 HB He. destruct (linear_ready _ _ _ _ _ _ x HLn Gx Ex) as (HRd & EN & W).
  destruct (trains N k o x t Gx Ex Gt Et lr n l HRd EN W (Z.to_nat e)) as (ne & le & ns & ls & T1 & T2 & E1 & W1 & E2 & W2 & _ & _ & ST).
  rewrite Z2Nat.id in * by auto. exists ne, (lin_loss N k o x t le), ns, (lin_loss N k o x t ls).
  split; [auto|]. split; [eapply loss_lin; eauto|]. split; [auto|]. split; [eapply loss_lin; eauto|]. eapply loss_descends; eauto.
Qed.
Lemma linear_best : forall N k o lr (n : net) l x t w b e, linear_net N k o lr n l -> good x -> tdims x = [N; k] -> good t -> tdims t = [N; o] ->
  good w -> tdims w = [k; o] -> good b -> tdims b = [1%Z; o] -> 0 < lr -> 2 * lr * (dot x x + IZR N) <= IZR (N * o) -> (0 < e)%Z ->
  exists n' v v', net_train n [x] [t] e = (n', Ok tt) /\ mse_of n' x t v /\ mse_of (with_layers n [with_params (LFC l) w b]) x t v' /\
    v <= v' + (sqdist (fc_w l) w + sqdist (fc_b l) b) / (2 * lr * IZR e).
Proof.
  intros N k o lr n l x t w b e HLn Gx Ex Gt Et Gw Ew Gb Eb H0 HB He. destruct (linear_ready _ _ _ _ _ _ x HLn Gx Ex) as (HRd & EN & W).
  destruct (trains N k o x t Gx Ex Gt Et lr n l HRd EN W (Z.to_nat e)) as (ne & le & ns & ls & T1 & _ & E1 & W1 & _ & _ & _ & ST & _).
  rewrite Z2Nat.id in * by lia. set (m := mkFC w b (fc_in l) (fc_gw l) (fc_gb l)).
  assert (Wm : fc_wf m k o) by (split; [exact Gw|split; [exact Ew|split; [exact Gb|exact Eb]]]).
  exists ne, (lin_loss N k o x t le), (lin_loss N k o x t m). split; [auto|]. split; [eapply loss_lin; eauto|]. split; [eapply loss_lin; eauto; reflexivity|].
  pose proof (steps_best N k o x t Gx Ex Gt Et lr _ l le m ST (Rlt_le _ _ H0) HB) as HS. rewrite INR_IZR_INZ, Z2Nat.id in HS by lia.
  rewrite (par_dist_sq N k o x t Gx Ex Gt Et l m W) in HS. pose proof (par_dist_nonneg k o le m) as HP. change (fc_w m) with w in HS. change (fc_b m) with b in HS.
  assert (0 < IZR e) by (apply IZR_lt; auto). assert (HQ : 0 < 2 * lr * IZR e) by (apply Rmult_lt_0_compat; lra).
  apply Rmult_le_reg_l with (2 * lr * IZR e); [auto|].
  replace (2 * lr * IZR e * (lin_loss N k o x t m + (sqdist (fc_w l) w + sqdist (fc_b l) b) / (2 * lr * IZR e))) with (2 * lr * IZR e * lin_loss N k o x t m + (sqdist (fc_w l) w + sqdist (fc_b l) b)) by (field; lra).
  lra.
Qed.
Lemma linear_single : forall k o lr (n : net) l x t, linear_net 1 k o lr n l -> good x -> tdims x = [1%Z; k] -> good t -> tdims t = [1%Z; o] ->
  exists v, mse_of n x t v /\ forall e, exists n', net_train n [x] [t] (Z.of_nat e) = (n', Ok tt) /\ mse_of n' x t (((1 - 2 * lr * (dot x x + 1) / IZR o) ^ 2) ^ e * v).
Proof.
  intros k o lr n l x t HLn Gx Ex Gt Et. destruct (linear_ready _ _ _ _ _ _ x HLn Gx Ex) as (HRd & EN & W).
  exists (lin_loss 1 k o x t l). split; [eapply loss_lin; eauto|]. intros e.
  destruct (trains 1 k o x t Gx Ex Gt Et lr n l HRd EN W e) as (ne & le & ns & ls & T1 & _ & E1 & W1 & _ & _ & _ & ST & _). exists ne. split; [auto|].
  rewrite <- (one_steps 1 k o x t Gx Ex Gt Et lr e l le eq_refl ST). eapply loss_lin; eauto.
Qed.
Lemma dot_nonneg : forall x : tensor R, 0 <= dot x x. Proof. intros x. unfold dot. apply rsum_nonneg. intros; nra. Qed.
Lemma linear_converges : forall k o lr (n : net) l x t, linear_net 1 k o lr n l -> good x -> tdims x = [1%Z; k] -> good t -> tdims t = [1%Z; o] ->
  0 < lr -> lr * (dot x x + 1) < IZR o ->
  exists L, (forall e, exists n', net_train n [x] [t] (Z.of_nat e) = (n', Ok tt) /\ mse_of n' x t (L e)) /\ is_lim_seq L 0.
Proof.
  intros k o lr n l x t HLn Gx Ex Gt Et H0 HB. destruct (linear_single k o lr n l x t HLn Gx Ex Gt Et) as (v & _ & HT). set (q := 1 - 2 * lr * (dot x x + 1) / IZR o) in *.
  exists (fun e => (q ^ 2) ^ e * v). split; [exact HT|].
  pose proof (dot_nonneg x). assert (Ho : 0 < IZR o) by nra. assert (HU : 0 < lr * (dot x x + 1) / IZR o < 1).
  { split; [apply Rmult_lt_0_compat; [nra|apply Rinv_0_lt_compat; auto]|]. apply Rmult_lt_reg_r with (IZR o); [auto|]. unfold Rdiv. rewrite Rmult_assoc, Rinv_l; lra. }
  assert (Eq : q = 1 - 2 * (lr * (dot x x + 1) / IZR o)) by (unfold q; field; lra).
  replace (Finite 0) with (Rbar_mult 0 v) by (cbn; f_equal; ring). apply is_lim_seq_scal_r. apply is_lim_seq_geom.
  rewrite Rabs_pos_eq by (apply pow2_ge_0). rewrite Eq. nra.
Qed.
Lemma linear_diverges : forall k o lr (n : net) l x t v, linear_net 1 k o lr n l -> good x -> tdims x = [1%Z; k] -> good t -> tdims t = [1%Z; o] ->
  IZR o < lr * (dot x x + 1) -> mse_of n x t v -> v <> 0 ->
  exists L, (forall e, exists n', net_train n [x] [t] (Z.of_nat e) = (n', Ok tt) /\ mse_of n' x t (L e)) /\ is_lim_seq L p_infty.
Proof.
  intros k o lr n l x t v HLn Gx Ex Gt Et HB HM HV. destruct (linear_single k o lr n l x t HLn Gx Ex Gt Et) as (v' & HM' & HT). set (q := 1 - 2 * lr * (dot x x + 1) / IZR o) in *.
  destruct (linear_ready _ _ _ _ _ _ x HLn Gx Ex) as (HRd & EN & W).
  assert (UNI : forall u u', mse_of n x t u -> mse_of n x t u' -> u = u').
  { intros u u' (? & p & P1 & M1) (? & p' & P2 & M2). rewrite P1 in P2. injection P2 as <- <-. rewrite M1 in M2. injection M2. auto. }
  assert (EV : v' = v) by (eapply UNI; eauto). subst v'.
  assert (HP : 0 < v).
  { pose proof (loss_lin 1 k o x t Gx Ex Gt Et n l EN W) as HL. rewrite (UNI _ _ HM HL) in *. pose proof (posNo 1 k o x t Gx Ex Gt Et).
    assert (0 <= lin_loss 1 k o x t l); [|lra]. unfold lin_loss. apply Rmult_le_pos; [|left; apply Rinv_0_lt_compat; auto]. apply rsum_nonneg. intros. apply rsum_nonneg. intros. apply pow2_ge_0. }
  exists (fun e => (q ^ 2) ^ e * v). split; [exact HT|].
  assert (Ho : 0 < IZR o) by (pose proof (posNo 1 k o x t Gx Ex Gt Et) as H; rewrite Z.mul_1_l in H; auto).
  assert (HU : 1 < lr * (dot x x + 1) / IZR o).
  { apply Rmult_lt_reg_r with (IZR o); [auto|]. unfold Rdiv. rewrite Rmult_assoc, Rinv_l; lra. }
  assert (Eq : q = 1 - 2 * (lr * (dot x x + 1) / IZR o)) by (unfold q; field; lra).
  assert (LP : Rbar_mult p_infty v = p_infty) by (apply is_Rbar_mult_unique; apply is_Rbar_mult_p_infty_pos; exact HP).
  rewrite <- LP. apply is_lim_seq_scal_r. apply is_lim_seq_geom_p. rewrite Eq. nra.
Qed.
End P.
