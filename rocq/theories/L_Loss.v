(** * Proofs about losses *)
From Coq Require Import Reals Lra.
From Coquelicot Require Import Coquelicot.
From Verif Require Import Base Scalar ScalarR Types Spec M_Shape M_Tensor M_Adv M_Act M_Loss SpecR SpecNN L_Index L_Shape L_Bcast L_Tensor L_Reduce L_Tensor2 L_Glue L_Nest L_Matmul L_Axes L_Adv L_RSum L_AdvR L_Act L_ActR.
Local Open Scope Z_scope.

Section G.
Context {T : Type} {S : Scalar T}.

Lemma shape_eqb_dims : forall (a b : tensor T), shape_eqb (tshape a) (tshape b) = true <-> tdims a = tdims b.
Proof. intros. unfold shape_eqb. apply list_eqb_spec. Qed.
Lemma in_shape_same : forall (t : tensor T), good t -> in_shape (tdims t) t = t.
Proof. intros t Hg. symmetry. unfold in_shape. apply tensor_eta; auto. Qed.
Lemma good_in_shape : forall ds (t : tensor T), pos_dims ds -> prod ds <= INT_MAX -> good (in_shape ds t).
Proof. intros. apply good_tensor_of; auto. Qed.
Lemma el_in_shape : forall ds (t : tensor T) idx, in_range ds idx -> el (in_shape ds t) idx = znth zero (tdata t) (ravel ds idx).
Proof. intros. unfold in_shape. rewrite el_tensor_of by auto. reflexivity. Qed.

Lemma mse_align_ok : forall (p t : tensor T), good p -> good t -> aligned p t -> mse_align p t = Ok (in_shape (tdims p) t).
Proof.
  intros p t Hp Ht HA. unfold mse_align. destruct (shape_eqb (tshape p) (tshape t)) eqn:E.
  - apply shape_eqb_dims in E. rewrite E, in_shape_same by auto. reflexivity.
  - assert (NE : tdims p <> tdims t) by (intros X; apply shape_eqb_dims in X; congruence).
    destruct HA as [HA|(n & r & Et & Ep & Hr)]; [congruence|]. unfold rank. fold (tdims t). rewrite Et, Ep. change (Zlen [n]) with 1. change (1 =? 1) with true.
    cbv iota. change (rd [n] 0) with (Ok n). change (rd (n :: r) 0) with (Ok n). cbn [bind]. rewrite Z.eqb_refl. rewrite <- Ep.
    pose proof (good_pos p Hp) as PP. assert (EP : prod (tdims p) = prod (tdims t)) by (rewrite Ep, Et; cbn [prod]; lia).
    rewrite t_reshape_ok by auto. rewrite reshaped_tensor_of by auto. f_equal. unfold in_shape.
    apply tensor_of_ext; [apply good_dims; auto|]. intros idx HI. unfold el. rewrite ravel_unravel; auto; [apply good_dims; auto|].
    rewrite <- EP. apply ravel_bound; auto.
Qed.
Lemma mse_align_throw : forall (p t : tensor T), good p -> good t -> ~ aligned p t -> exists e, mse_align p t = Throw e /\
  ((exists n r, tdims t = [n] /\ tdims p = n :: r) -> e = RuntimeError) /\ (~ (exists n r, tdims t = [n] /\ tdims p = n :: r) -> e = InvalidArgument).
Proof.
  intros p t Hp Ht HN. unfold mse_align. destruct (shape_eqb (tshape p) (tshape t)) eqn:E.
  { apply shape_eqb_dims in E. exfalso. apply HN. left. auto. }
  unfold rank. fold (tdims t). destruct (Z.eqb_spec (Zlen (tdims t)) 1) as [HR|HR];
    [|exists InvalidArgument; split; [reflexivity|]; split; [intros (? & ? & X & _); rewrite X in HR; unfold Zlen in HR; simpl in HR; lia|auto]].
  destruct (tdims t) as [|n [|n' l]] eqn:Et; try (unfold Zlen in HR; simpl in HR; lia).
  pose proof (good_pos p Hp) as [PN PF]. destruct (tdims p) as [|m r] eqn:Ep; [congruence|].
  change (rd [n] 0) with (Ok n). change (rd (m :: r) 0) with (Ok m). cbn [bind].
  destruct (Z.eqb_spec n m) as [->|NM]; [|exists InvalidArgument; split; [reflexivity|]; split; [intros (? & ? & X & Y); congruence|auto]].
  exists RuntimeError. split; [|split; [auto|intros X; exfalso; apply X; eauto]].
  unfold t_reshape. rewrite shape_reshape_throw; [|rewrite <- Ep; eapply Forall_impl; [|apply good_ints; [apply good_dims; auto|apply good_max; auto]]; unfold is_int; simpl; intros; lia|].
  - rewrite <- Ep. destruct (pos_dims_dec (tdims p)) as [_|X]; [|exfalso; apply X, good_pos; auto].
    pose proof (good_max p Hp). destruct (Z.ltb_spec (prod (tdims p)) two64); [reflexivity|unfold INT_MAX, two64 in *; lia].
  - intros (_ & X & _). rewrite good_size in X by auto. apply HN. right. exists m, r. split; auto. split; auto. rewrite Et in X. cbn [prod] in X.
    pose proof (good_dims t Ht) as HF. rewrite Et in HF. inversion HF; subst. nia.
Qed.

Lemma div_s_ok : forall (t : tensor T) c, good t -> s_eq c zero = false ->
  t_div_s t c = Ok (tensor_of (tdims t) (fun idx => s_div (el t idx) c)).
Proof. intros t c Hg E. unfold t_div_s. rewrite E. rewrite t_map_ok, t_map_tensor_of by auto. reflexivity. Qed.

Definition sqdiff (p t : tensor T) (idx : list Z) : T :=
  let d := s_sub (el p idx) (el (in_shape (tdims p) t) idx) in s_mul d d.
Lemma mse_compute_ok : forall (p t : tensor T), good p -> good t -> aligned p t -> s_eq (s_z (prod (tdims p))) zero = false ->
  mse_compute p t = Ok (tensor_of [1] (fun _ => s_div (fsum (map (sqdiff p t) (all_indices (tdims p)))) (s_z (prod (tdims p))))).
Proof.
  intros p t Hp Ht HA HZ. unfold mse_compute. rewrite mse_align_ok by auto. cbn [bind].
  pose proof (good_in_shape (tdims p) t (good_pos p Hp) (good_max p Hp)) as GI. set (rt := in_shape (tdims p) t) in *.
  unfold t_sub. rewrite binop_same by auto. cbn [bind]. set (d := tensor_of (tdims p) (fun idx => s_sub (el p idx) (el rt idx))).
  assert (Gd : good d) by (apply good_tensor_of; [apply good_pos|apply good_max]; auto).
  unfold t_mul. rewrite binop_same by auto. cbn [bind]. set (sq := tensor_of (tdims d) _).
  assert (Gq : good sq) by (apply good_tensor_of; [apply good_pos; auto|apply good_max; auto]).
  rewrite t_sum_ok by auto. cbn [bind]. rewrite tensor_of_fill by (repeat constructor).
  change (ssize (tshape d)) with (prod (tdims p)). rewrite div_s_ok; [|apply good_tensor_of; [auto with idx|vm_compute; discriminate]|auto].
  f_equal. apply tensor_of_ext; [repeat constructor|]. intros idx HI. rewrite el_tensor_of by auto. f_equal.
  rewrite data_all_indices by auto. change (tdims sq) with (tdims p). f_equal. apply map_ext_in. intros i Hi.
  apply In_all_indices in Hi; [|apply good_dims; auto]. unfold sq. rewrite el_tensor_of by auto. unfold d. rewrite el_tensor_of by auto. reflexivity.
Qed.
Lemma mse_gradient_ok : forall (p t : tensor T), good p -> good t -> aligned p t -> s_eq (s_z (prod (tdims p))) zero = false ->
  mse_gradient p t = Ok (tensor_of (tdims p) (fun idx =>
    s_div (s_mul (s_sub (el p idx) (el (in_shape (tdims p) t) idx)) (s_z 2)) (s_z (prod (tdims p))))).
Proof.
  intros p t Hp Ht HA HZ. unfold mse_gradient. rewrite mse_align_ok by auto. cbn [bind].
  pose proof (good_in_shape (tdims p) t (good_pos p Hp) (good_max p Hp)) as GI. set (rt := in_shape (tdims p) t) in *.
  unfold t_sub. rewrite binop_same by auto. cbn [bind]. set (d := tensor_of (tdims p) (fun idx => s_sub (el p idx) (el rt idx))).
  assert (Gd : good d) by (apply good_tensor_of; [apply good_pos|apply good_max]; auto).
  unfold s_mul_t, t_mul_s. rewrite t_map_ok, t_map_tensor_of by auto. cbn [bind]. change (tdims d) with (tdims p).
  rewrite good_size by auto. rewrite div_s_ok; [|apply good_tensor_of; [apply good_pos|apply good_max]; auto|auto].
  f_equal. change (tdims (tensor_of (tdims p) (fun idx : list Z => s_mul (el d idx) (s_z 2)))) with (tdims p).
  apply tensor_of_ext; [apply good_dims; auto|]. intros idx HI. rewrite el_tensor_of by auto. unfold d. rewrite el_tensor_of by auto. reflexivity.
Qed.
Lemma mse_throw : forall (p t : tensor T), good p -> good t -> ~ aligned p t ->
  exists e, mse_compute p t = Throw e /\ mse_gradient p t = Throw e /\
    ((exists n r, tdims t = [n] /\ tdims p = n :: r) -> e = RuntimeError) /\ (~ (exists n r, tdims t = [n] /\ tdims p = n :: r) -> e = InvalidArgument).
Proof.
  intros p t Hp Ht HN. destruct (mse_align_throw p t Hp Ht HN) as (e & E & E'). exists e. unfold mse_compute, mse_gradient. rewrite E. auto.
Qed.

(** ** Cross-entropy *)
Lemma nest_fold : forall {X} ds (f : X -> list Z -> X) body (z : X), Forall (fun d => 0 < d) ds ->
  (forall idx acc, in_range ds idx -> body idx acc = Ok (f acc idx)) ->
  nest ds body z = Ok (fold_left f (all_indices ds) z).
Proof.
  intros X ds f body z HF H. rewrite nest_flat by auto.
  rewrite (for_pure 0 (prod ds) _ (fun s k => f s (unravel ds k))).
  - unfold all_indices, ztab. f_equal. clear. revert z. induction (zrange 0 (prod ds)); intros z; simpl; auto.
  - intros p acc Hp. apply H. apply unravel_range; auto.
Qed.
Lemma cce_compute_ok : forall (p t : tensor T) b c, good p -> good t -> tdims p = [b; c] -> tdims t = [b; c] ->
  cce_compute p t = Ok (tensor_of [1] (fun _ =>
    s_div (fold_left (fun acc idx => s_sub acc (s_mul (el t idx) (s_log (cce_clamp (el p idx))))) (all_indices [b; c]) zero) (s_z b))).
Proof.
  intros p t b c Hp Ht Ep Et. unfold cce_compute. assert (E : shape_eqb (tshape p) (tshape t) = true) by (apply shape_eqb_dims; congruence).
  rewrite E. cbn [negb]. rewrite Ep. change (rd [b; c] 0) with (Ok b). change (rd [b; c] 1) with (Ok c). cbn [bind].
  destruct (dims2_pos p b c Hp Ep) as (Hb & Hc & HM).
  rewrite (for2_nest b c). rewrite (nest_fold [b; c] (fun acc idx => s_sub acc (s_mul (el t idx) (s_log (cce_clamp (el p idx)))))).
  - cbn [bind]. unfold new_shape. cbn. rewrite <- (tensor_of_fill [1]) by (repeat constructor). reflexivity.
  - repeat constructor; auto.
  - intros idx acc HI. destruct (in_range_2 _ _ _ HI) as (i & j & -> & Hi & Hj). cbn [nth].
    rewrite !t_at_ok by (auto; rewrite ?Ep, ?Et; auto with idx). reflexivity.
Qed.
Lemma cce_gradient_ok : forall (p t : tensor T) b c, good p -> good t -> tdims p = [b; c] -> tdims t = [b; c] -> s_eq (s_z b) zero = false ->
  cce_gradient p t = Ok (tensor_of [b; c] (fun idx => s_div (s_sub (cce_clamp (el p idx)) (el t idx)) (s_z b))).
Proof.
  intros p t b c Hp Ht Ep Et HZ. unfold cce_gradient. assert (E : shape_eqb (tshape p) (tshape t) = true) by (apply shape_eqb_dims; congruence).
  rewrite E. cbn [negb]. rewrite Ep. change (rd [b; c] 0) with (Ok b). change (rd [b; c] 1) with (Ok c). cbn [bind].
  destruct (dims2_pos p b c Hp Ep) as (Hb & Hc & HM). rewrite (good_shape p), Ep by auto.
  assert (GN : good (t_new (shape_of [b; c]) : tensor T)) by (apply good_new; [auto with idx|simpl; nia]).
  rewrite (for2_nest b c). rewrite (nest_set [b; c] (fun idx => s_sub (cce_clamp (el p idx)) (el t idx))).
  - cbn [bind]. rewrite div_s_ok; auto; [|apply good_tensor_of; [auto with idx|simpl; nia]].
    f_equal. apply tensor_of_ext; [repeat constructor; auto|]. intros idx HI. rewrite el_tensor_of by auto. reflexivity.
  - auto.
  - reflexivity.
  - intros idx o HI Go Do. destruct (in_range_2 _ _ _ HI) as (i & j & -> & Hi & Hj). cbn [nth].
    rewrite !t_at_ok by (auto; rewrite ?Ep, ?Et; auto with idx). cbn [bind]. apply t_at_set_ok; auto. rewrite Do. auto.
Qed.
Lemma cce_throw : forall (p t : tensor T), tdims p <> tdims t ->
  cce_compute p t = Throw InvalidArgument /\ cce_gradient p t = Throw InvalidArgument.
Proof.
  intros p t HN. unfold cce_compute, cce_gradient. destruct (shape_eqb (tshape p) (tshape t)) eqn:E; auto.
  apply shape_eqb_dims in E. contradiction.
Qed.
Lemma cce_rank1 : forall (p t : tensor T) n, tdims p = [n] -> tdims t = [n] -> cce_compute p t = UB /\ cce_gradient p t = UB.
Proof.
  intros p t n Ep Et. unfold cce_compute, cce_gradient. assert (E : shape_eqb (tshape p) (tshape t) = true) by (apply shape_eqb_dims; congruence).
  rewrite E. cbn [negb]. rewrite Ep. change (rd [n] 0) with (Ok n). change (rd [n] 1) with (@UB Z). auto.
Qed.
End G.

(** ** Over the reals *)
Local Open Scope R_scope.
Lemma IZR_pos_neq : forall n, (0 < n)%Z -> s_eq (s_z n : R) zero = false.
Proof. intros n H. simpl. unfold Reqb. destruct (Req_EM_T (IZR n) 0) as [E|]; auto. apply eq_IZR in E. lia. Qed.

Definition mseR (p t : tensor R) : R :=
  rsum (all_indices (tdims p)) (fun idx => (el p idx - el (in_shape (tdims p) t) idx) * (el p idx - el (in_shape (tdims p) t) idx)) / IZR (prod (tdims p)).
Lemma mse_compute_R : forall (p t : tensor R), good p -> good t -> aligned p t -> mse_compute p t = Ok (tensor_of [1%Z] (fun _ => mseR p t)).
Proof.
  intros p t Hp Ht HA. rewrite mse_compute_ok by (auto; apply IZR_pos_neq, good_prod_pos; auto). f_equal.
  apply tensor_of_ext; [repeat constructor|]. intros. rewrite fsum_R. reflexivity.
Qed.
Lemma mseR_nonneg : forall (p t : tensor R), good p -> 0 <= mseR p t.
Proof.
  intros p t Hp. unfold mseR. apply Rmult_le_pos; [apply rsum_nonneg; intros; apply Rle_0_sqr|].
  apply Rlt_le, Rinv_0_lt_compat, IZR_lt, good_prod_pos; auto.
Qed.
Lemma mseR_zero : forall (p t : tensor R), good p -> good t -> aligned p t -> (mseR p t = 0 <-> in_shape (tdims p) t = p).
Proof.
  intros p t Hp Ht HA. pose proof (good_prod_pos p Hp) as HP. apply IZR_lt in HP. pose proof (good_dims p Hp) as HF. split.
  - intros E. symmetry. apply tensor_eta; auto. intros idx HI.
    assert (Z : rsum (all_indices (tdims p)) (fun idx => (el p idx - el (in_shape (tdims p) t) idx) * (el p idx - el (in_shape (tdims p) t) idx)) = 0).
    { unfold mseR in E. apply Rmult_integral in E. destruct E as [E|E]; auto. exfalso. revert E. apply Rinv_neq_0_compat. lra. }
    assert (NN : forall i, In i (all_indices (tdims p)) -> 0 <= (el p i - el (in_shape (tdims p) t) i) * (el p i - el (in_shape (tdims p) t) i)) by (intros; apply Rle_0_sqr).
    pose proof (rsum_zero_inv _ _ NN Z idx ltac:(apply In_all_indices; auto)) as Q. simpl in Q.
    rewrite el_in_shape in Q by auto. apply Rmult_integral in Q. lra.
  - intros E. unfold mseR. rewrite E. rewrite rsum_zero by (intros; ring). unfold Rdiv. ring.
Qed.
Lemma mse_derivative : forall ds (t : tensor R) P s dP, curve ds P s dP -> good t -> aligned (P s) t ->
  exists L g, (forall u, mse_compute (P u) t = Ok (tensor_of [1%Z] (fun _ => L u))) /\
    mse_gradient (P s) t = Ok g /\ good g /\ tdims g = ds /\ is_derive L s (dot g dP).
Proof.
  intros ds t P s dP HC Gt HA. pose proof HC as (HX & GdP & EdP & HD). destruct (curve_pos _ _ _ _ HC) as [HP HM]. pose proof (pos_forall _ HP) as HF.
  assert (HN : (0 < prod ds)%Z) by (apply prod_pos; auto). assert (HNR : 0 < IZR (prod ds)) by (apply IZR_lt; auto).
  assert (HA' : forall u, aligned (P u) t) by (intros u; unfold aligned in *; destruct (HX u) as [_ E]; destruct (HX s) as [_ E']; rewrite E; rewrite E' in HA; auto).
  destruct (HX s) as [Gs Es].
  exists (fun u => mseR (P u) t). eexists. split; [intros u; destruct (HX u); apply mse_compute_R; auto|].
  split; [apply mse_gradient_ok; auto; apply IZR_pos_neq; rewrite Es; auto|]. rewrite Es.
  split; [apply good_tensor_of; auto|]. split; [reflexivity|].
  apply (is_derive_ext (fun u => rsum (all_indices ds) (fun idx => (el (P u) idx - el (in_shape ds t) idx) * (el (P u) idx - el (in_shape ds t) idx)) * / IZR (prod ds))).
  { intros u. unfold mseR. destruct (HX u) as [_ E]. rewrite E. reflexivity. }
  rewrite dot_tensor_of by auto.
  apply (der_eq _ _ (rsum (all_indices ds) (fun idx => el dP idx * (el (P s) idx - el (in_shape ds t) idx) + (el (P s) idx - el (in_shape ds t) idx) * el dP idx) * / IZR (prod ds))).
  - apply (is_derive_scal_l (fun u => rsum (all_indices ds) _) s _ (/ IZR (prod ds))).
    apply (is_derive_rsum (all_indices ds) (fun idx u => (el (P u) idx - el (in_shape ds t) idx) * (el (P u) idx - el (in_shape ds t) idx))).
    intros idx HI. apply In_all_indices in HI; auto.
    assert (D : is_derive (fun u => el (P u) idx - el (in_shape ds t) idx) s (el dP idx)).
    { apply (der_eq _ _ _ _ (is_derive_minus (fun u => el (P u) idx) (fun _ => el (in_shape ds t) idx) s _ _ (HD idx HI) (is_derive_const _ s))). exact (Rminus_0_r _). }
    apply (is_derive_multR (fun u => el (P u) idx - el (in_shape ds t) idx) (fun u => el (P u) idx - el (in_shape ds t) idx)); auto.
  - rewrite <- rsum_scal_r. apply rsum_ext. intros idx _. simpl. field. lra.
Qed.

(** ** Cross-entropy over the reals *)
Ltac eqR := match goal with |- @eq _ ?a ?b => change (@eq R a b) end.
Definition epsR : R := 1 / 10000000.
Definition clampR (v : R) : R := Rmin (Rmax v epsR) (1 - epsR).
Lemma cce_clamp_R : forall v : R, cce_clamp v = clampR v.
Proof.
  intros v. unfold cce_clamp, clampR, s_min, s_max, cce_eps. simpl. fold epsR. unfold Rltb, Rmin, Rmax, Rdiv.
  destruct (Rlt_dec v epsR), (Rle_dec v epsR); try lra;
  match goal with |- context [Rlt_dec ?a ?b] => destruct (Rlt_dec a b) | _ => idtac end;
  match goal with |- context [Rle_dec ?a ?b] => destruct (Rle_dec a b) | _ => idtac end; try lra; auto.
Qed.
Lemma clampR_range : forall v, epsR <= clampR v <= 1 - epsR.
Proof.
  intros v. unfold clampR. assert (epsR <= 1 - epsR) by (unfold epsR; lra). split.
  - apply Rmin_glb; [apply Rmax_r|auto].
  - apply Rmin_r.
Qed.
Lemma clampR_id : forall v, epsR <= v <= 1 - epsR -> clampR v = v.
Proof. intros v H. unfold clampR. rewrite Rmax_left by lra. rewrite Rmin_left by lra. reflexivity. Qed.
Definition cceR (ds : list Z) (b : Z) (p t : tensor R) : R :=
  - rsum (all_indices ds) (fun idx => el t idx * ln (clampR (el p idx))) / IZR b.
Lemma fold_sub : forall {X} (f : X -> R) l acc, fold_left (fun acc i => acc - f i) l acc = acc - rsum l f.
Proof. induction l as [|x l IH]; intros acc; simpl; [rewrite rsum_nil; ring|]. rewrite IH, rsum_cons. ring. Qed.
Lemma fold_sub_s : forall {X} (f : X -> R) l acc, fold_left (fun acc i => s_sub acc (f i)) l acc = acc - rsum l f.
Proof. intros. exact (fold_sub f l acc). Qed.
Lemma cce_compute_R : forall (p t : tensor R) b c, good p -> good t -> tdims p = [b; c] -> tdims t = [b; c] ->
  cce_compute p t = Ok (tensor_of [1%Z] (fun _ => cceR [b; c] b p t)).
Proof.
  intros p t b c Hp Ht Ep Et. rewrite (cce_compute_ok p t b c) by auto. f_equal. apply tensor_of_ext; [repeat constructor|]. intros idx _.
  rewrite (fold_sub_s (fun idx => s_mul (el t idx) (s_log (cce_clamp (el p idx))))).
  unfold cceR. cbn -[rsum all_indices cce_clamp]. unfold Rdiv. f_equal. rewrite Rminus_0_l. f_equal. apply rsum_ext. intros i _. rewrite cce_clamp_R. reflexivity.
Qed.
Lemma ln_clamp : forall v, ln epsR <= ln (clampR v) < 0.
Proof.
  intros v. destruct (clampR_range v) as [A B]. assert (0 < epsR) by (unfold epsR; lra). split.
  - destruct A as [A|A]; [left; apply ln_increasing; auto|right; rewrite <- A; auto].
  - rewrite <- ln_1. apply ln_increasing; lra.
Qed.
Lemma cceR_bound : forall (p t : tensor R) b c, (0 < b)%Z ->
  Rabs (cceR [b; c] b p t) <= (- ln epsR) * rsum (all_indices [b; c]) (fun idx => Rabs (el t idx)) / IZR b.
Proof.
  intros p t b c Hb. assert (HB : 0 < IZR b) by (apply IZR_lt; auto). unfold cceR, Rdiv. rewrite Rabs_mult. rewrite (Rabs_pos_eq (/ IZR b)) by (left; apply Rinv_0_lt_compat; auto).
  apply Rmult_le_compat_r; [left; apply Rinv_0_lt_compat; auto|]. rewrite Rabs_Ropp.
  rewrite <- rsum_scal_l. induction (all_indices [b; c]) as [|i l IH].
  - rewrite !rsum_nil. rewrite Rabs_R0. lra.
  - rewrite !rsum_cons. eapply Rle_trans; [apply Rabs_triang|]. apply Rplus_le_compat; auto.
    rewrite Rabs_mult, Rmult_comm. apply Rmult_le_compat_r; [apply Rabs_pos|]. destruct (ln_clamp (el p i)) as [A B].
    rewrite Rabs_left by auto. lra.
Qed.
Lemma cceR_nonneg : forall (p t : tensor R) b c, (0 < b)%Z -> (0 < c)%Z -> (forall idx, in_range [b; c] idx -> 0 <= el t idx) -> 0 <= cceR [b; c] b p t.
Proof.
  intros p t b c Hb Hc HT. assert (HB : 0 < IZR b) by (apply IZR_lt; auto). unfold cceR. rewrite <- rsum_opp.
  apply Rmult_le_pos; [|left; apply Rinv_0_lt_compat; auto]. apply rsum_nonneg. intros i HI. apply In_all_indices in HI; [|repeat constructor; auto].
  specialize (HT i HI). destruct (ln_clamp (el p i)). nra.
Qed.

(** The true derivative of the loss: -t / (p b). *)
Lemma cce_true_derivative : forall b c (t : tensor R) P s dP, curve [b; c] P s dP -> good t -> tdims t = [b; c] ->
  (forall idx, in_range [b; c] idx -> epsR < el (P s) idx < 1 - epsR) ->
  is_derive (fun u => cceR [b; c] b (P u) t) s
    (rsum (all_indices [b; c]) (fun idx => - el t idx / (el (P s) idx * IZR b) * el dP idx)).
Proof.
  intros b c t P s dP HC Gt Et HI. destruct (curve_pos _ _ _ _ HC) as [HP HM]. pose proof (pos_forall _ HP) as HF. destruct HC as (HX & GdP & EdP & HD).
  assert (Hb : 0 < IZR b) by (apply IZR_lt; inversion HF; auto). assert (E0 : 0 < epsR) by (unfold epsR; lra).
  unfold cceR. set (ds := [b; c]) in *.
  apply (is_derive_ext (fun u => rsum (all_indices ds) (fun idx => el t idx * ln (clampR (el (P u) idx))) * (- / IZR b))); [intros u; eqR; field; lra|].
  apply (der_eq _ _ (rsum (all_indices ds) (fun idx => el t idx * (el dP idx / el (P s) idx)) * (- / IZR b))).
  - apply (is_derive_scal_l (fun u => rsum (all_indices ds) _) s _ (- / IZR b)).
    apply (is_derive_rsum (all_indices ds) (fun idx u => el t idx * ln (clampR (el (P u) idx)))). intros idx HJ. apply In_all_indices in HJ; auto.
    apply is_derive_scal. specialize (HI idx HJ).
    assert (DC : is_derive (fun v => ln (clampR v)) (el (P s) idx) (/ el (P s) idx)).
    { apply (is_derive_ext_loc ln).
      - assert (O : locally (el (P s) idx) (fun v => epsR < v < 1 - epsR)).
        { apply (open_and (fun v => epsR < v) (fun v => v < 1 - epsR)); [apply open_gt|apply open_lt|auto]. }
        apply (filter_imp (fun v => epsR < v < 1 - epsR)); [|exact O]. intros v Hv. rewrite clampR_id by lra. reflexivity.
      - apply is_derive_ln. lra. }
    apply (der_eq _ _ _ _ (is_derive_comp (fun v => ln (clampR v)) (fun u => el (P u) idx) s _ _ DC (HD idx HJ))). unfold scal; simpl; unfold mult; simpl. reflexivity.
  - rewrite <- rsum_scal_r. apply rsum_ext. intros idx HJ. apply In_all_indices in HJ; auto. specialize (HI idx HJ). field. lra.
Qed.

(** The code's gradient is the derivative with respect to the inputs of a preceding softmax. *)
Lemma cce_logits : forall b c (t : tensor R) Z s dZ P, curve [b; c] Z s dZ -> good t -> tdims t = [b; c] ->
  (forall u, softmax_fwd (Z u) = Ok (P u)) ->
  (forall idx, in_range [b; c] idx -> epsR < el (P s) idx < 1 - epsR) ->
  (forall i, (0 <= i < b)%Z -> rsum (zrange 0 c) (fun j => el t [i; j]) = 1) ->
  exists L g, (forall u, cce_compute (P u) t = Ok (tensor_of [1%Z] (fun _ => L u))) /\
    cce_gradient (P s) t = Ok g /\ is_derive L s (dot g dZ).
Proof.
  intros b c t Z s dZ P HC Gt Et HS HI HT.
  destruct (curve_pos _ _ _ _ HC) as [HP HM]. pose proof (pos_forall _ HP) as HF. pose proof HC as (HX & GdZ & EdZ & HDZ).
  destruct (softmax_gradient b [c] ltac:(discriminate) Z s dZ HC I) as (Y & dY & HY & CY & HB).
  assert (EY : forall u, Y u = P u) by (intros u; specialize (HY u); rewrite HS in HY; congruence).
  assert (CP : curve [b; c] P s dY).
  { destruct CY as (A & B & C & D). split; [intros u; rewrite <- EY; auto|]. split; auto. split; auto.
    intros idx HJ. apply (is_derive_ext (fun u => el (Y u) idx)); [intros; rewrite EY; reflexivity|auto]. }
  pose proof (cce_true_derivative b c t P s dY CP Gt Et HI) as DL.
  assert (Hb : 0 < IZR b) by (apply IZR_lt; inversion HF; auto).
  destruct CP as (HPu & GdY & EdY & HD'). destruct (HPu s) as [Gs Es].
  exists (fun u => cceR [b; c] b (P u) t). eexists. split; [intros u; destruct (HPu u); apply cce_compute_R; auto|].
  split; [apply (cce_gradient_ok (P s) t b c Gs Gt Es Et); apply IZR_pos_neq; inversion HF; auto|].
  refine (eq_ind _ (fun v => is_derive _ s v) DL _ _).
  (* true derivative, transported through the softmax Jacobian *)
  set (h := tensor_of [b; c] (fun idx => - el t idx / (el (P s) idx * IZR b))).
  assert (Gh : good h) by (apply good_tensor_of; auto).
  transitivity (dot h dY); [unfold h; rewrite dot_tensor_of by auto; reflexivity|].
  destruct (HB h Gh eq_refl) as (gx & Eg & Gg & Dg & EE). rewrite EE. clear EE.
  destruct (softmax_jacobian (Z s) h (P s) b [c]) as (gx' & Eg' & _ & _ & J); auto; try discriminate; try apply HX.
  rewrite Eg in Eg'. injection Eg' as <-.
  unfold dot. rewrite Dg. change (tdims (tensor_of [b; c] _)) with [b; c]. apply rsum_ext. intros idx HJ. apply In_all_indices in HJ; auto.
  f_equal. rewrite el_tensor_of by auto. destruct (in_range_2 _ _ _ HJ) as (i & j & -> & Hi & Hj).
  rewrite (J i [j]) by auto with idx. cbn [s_div s_sub s_z RScalar]. rewrite cce_clamp_R, clampR_id by (specialize (HI _ HJ); lra).
  rewrite (rsum_ext _ _ (fun k => (if list_eq_dec Z.eq_dec [j] k then - el t [i; j] / IZR b else 0) + el (P s) [i; j] / IZR b * el t (i :: k))).
  - rewrite rsum_plus, rsum_scal_l.
    rewrite (rsum_single (all_indices [c]) _ [j]); [|apply NoDup_all_indices; inversion HF; auto|apply In_all_indices; [inversion HF; auto|auto with idx]|].
    + destruct (list_eq_dec Z.eq_dec [j] [j]) as [_|]; [|congruence]. rewrite rsum_all_cons by (repeat constructor; inversion HF as [|? ? ? HQ]; inversion HQ; auto).
      rewrite (rsum_ext (zrange 0 c) _ (fun k => el t [i; k])) by (intros; rewrite rsum_all_nil; reflexivity).
      rewrite HT by auto. field. lra.
    + intros k _ NE. destruct (list_eq_dec Z.eq_dec [j] k); [congruence|reflexivity].
  - intros k HK. apply In_all_indices in HK; [|inversion HF; auto]. destruct (in_range_1 _ _ HK) as (k' & -> & Hk).
    unfold h. rewrite el_tensor_of by auto with idx. pose proof (HI [i; k'] ltac:(auto with idx)) as HQ. assert (0 < epsR) by (unfold epsR; lra).
    destruct (list_eq_dec Z.eq_dec [j] [k']) as [E|NE]; [injection E as <-|]; field; lra.
Qed.

(** ** Statements used by P_Loss *)
Lemma cce_finite : forall (t : tensor R) b c, good t -> tdims t = [b; c] -> exists M, forall p, good p -> tdims p = [b; c] ->
  exists v, cce_compute p t = Ok (tensor_of [1%Z] (fun _ => v)) /\ Rabs v <= M.
Proof.
  intros t b c Gt Et. eexists. intros p Gp Ep. destruct (dims2_pos p b c Gp Ep) as (Hb & _). eexists. split; [apply (cce_compute_R p t b c); auto|].
  apply (cceR_bound p t b c Hb).
Qed.
Lemma cce_nonneg : forall (p t : tensor R) b c, good p -> good t -> tdims p = [b; c] -> tdims t = [b; c] ->
  (forall idx, in_range [b; c] idx -> 0 <= el t idx) -> exists v, cce_compute p t = Ok (tensor_of [1%Z] (fun _ => v)) /\ 0 <= v.
Proof.
  intros p t b c Gp Gt Ep Et HT. destruct (dims2_pos p b c Gp Ep) as (Hb & Hc & _). eexists. split; [apply (cce_compute_R p t b c); auto|].
  apply (cceR_nonneg p t b c); auto.
Qed.
Lemma cce_derivative : forall b c (t : tensor R) P s dP, curve [b; c] P s dP -> good t -> tdims t = [b; c] ->
  (forall idx, in_range [b; c] idx -> 1 / 10000000 < el (P s) idx < 1 - 1 / 10000000) ->
  exists L, (forall u, cce_compute (P u) t = Ok (tensor_of [1%Z] (fun _ => L u))) /\
    is_derive L s (rsum (all_indices [b; c]) (fun idx => - el t idx / (el (P s) idx * IZR b) * el dP idx)).
Proof.
  intros b c t P s dP HC Gt Et HI. eexists. split; [|apply (cce_true_derivative b c t P s dP); auto].
  intros u. destruct HC as (HX & _). destruct (HX u). apply cce_compute_R; auto.
Qed.
Lemma zrange2 : zrange 0 2 = [0; 1]%Z. Proof. reflexivity. Qed.
Lemma cce_gradient_wrong : exists (t : tensor R) P s dP g L, curve [2; 2]%Z P s dP /\ good t /\ tdims t = [2; 2]%Z /\
  (forall idx, in_range [2; 2]%Z idx -> 1 / 10000000 < el (P s) idx < 1 - 1 / 10000000) /\
  (forall u, cce_compute (P u) t = Ok (tensor_of [1%Z] (fun _ => L u))) /\ cce_gradient (P s) t = Ok g /\
  ~ is_derive L s (dot g dP).
Proof.
  set (ds := [2; 2]%Z). set (h := tensor_of ds (fun _ => 1 / 2)). set (o := tensor_of ds (fun _ => 1)).
  assert (HP : pos_dims ds) by (apply pos2; lia). assert (HM : (prod ds <= INT_MAX)%Z) by (vm_compute; discriminate).
  assert (Gh : good h) by (apply good_tensor_of; auto). assert (Go : good o) by (apply good_tensor_of; auto).
  destruct (line_curve h o Gh Go eq_refl) as (P & P0 & HC). change (tdims h) with ds in HC.
  assert (IN : forall idx, in_range ds idx -> epsR < el (P 0) idx < 1 - epsR).
  { intros idx HI. rewrite P0. unfold h. rewrite el_tensor_of by auto. unfold epsR. lra. }
  pose proof (cce_true_derivative 2 2 o P 0 o HC Go eq_refl IN) as D.
  exists o, P, 0, o. eexists. exists (fun u => cceR ds 2 (P u) o). split; [exact HC|]. split; [exact Go|]. split; [reflexivity|]. split; [exact IN|].
  split. { intros u. destruct HC as (HX & _). destruct (HX u). apply cce_compute_R; auto. }
  split. { apply (cce_gradient_ok (P 0) o 2 2); rewrite ?P0; auto. apply IZR_pos_neq. lia. }
  intros D'. pose proof (is_derive_unique _ _ _ D) as E1. pose proof (is_derive_unique _ _ _ D') as E2. pose proof (eq_trans (eq_sym E1) E2) as E3. clear - E3 P0 HP. rename E3 into E2.
  rewrite dot_tensor_of in E2 by (repeat constructor; lia). change ([2; 2]%Z) with ds in E2.
  rewrite (rsum_ext (all_indices ds) _ (fun _ => - 1)) in E2.
  - rewrite (rsum_ext (all_indices ds) (fun idx => _ * el o idx) (fun _ => - / 4)) in E2.
    + rewrite !rsum_const in E2. assert (L : Zlen (all_indices ds) = 4%Z) by (vm_compute; reflexivity). rewrite L in E2. lra.
    + intros idx HI. apply In_all_indices in HI; [|apply pos_forall; auto]. rewrite P0. unfold h, o. rewrite !el_tensor_of by auto.
      rewrite cce_clamp_R, clampR_id by (unfold epsR; lra). simpl. field.
  - intros idx HI. apply In_all_indices in HI; [|apply pos_forall; auto]. rewrite P0. unfold h, o. rewrite !el_tensor_of by auto. field.
Qed.
Lemma cce_logits_case : exists P, softmax_fwd (mat 2 2 (fun _ _ => 0)) = Ok P /\
  (forall idx, in_range [2; 2]%Z idx -> 1 / 10000000 < el P idx < 1 - 1 / 10000000) /\
  (forall i, (0 <= i < 2)%Z -> rsum (zrange 0 2) (fun j => el (mat 2 2 (fun i j => if Z.eqb i 0 then (if Z.eqb j 0 then 1 else 0) else (if Z.eqb j 0 then 0 else 1))) [i; j]) = 1).
Proof.
  assert (G : good (mat 2 2 (fun _ _ => 0))) by (apply good_mat; vm_compute; congruence).
  rewrite (softmax_R _ 2 [2%Z]) by (auto; discriminate). eexists. split; [reflexivity|]. split.
  - intros idx HI. rewrite el_tensor_of by auto. destruct (in_range_2 _ _ _ HI) as (i & j & -> & Hi & Hj). cbn [hd tl]. unfold smR, rowsum.
    rewrite (rsum_ext _ _ (fun _ => 1)).
    + rewrite rsum_const. rewrite el_mat by auto. rewrite exp_0. assert (L : Zlen (all_indices [2]%Z) = 2%Z) by (vm_compute; reflexivity). rewrite L. lra.
    + intros k HK. apply In_all_indices in HK; [|repeat constructor]. destruct (in_range_1 _ _ HK) as (k' & -> & Hk). rewrite el_mat by auto. apply exp_0.
  - intros i Hi. rewrite zrange2, !rsum_cons, rsum_nil. rewrite !el_mat by lia. simpl. destruct (Z.eqb i 0); lra.
Qed.
Lemma cce_rank1_case : exists p t : tensor Z, good p /\ good t /\ cce_compute p t = UB /\ cce_gradient p t = UB.
Proof.
  exists (tensor_of [2%Z] (fun _ => 1%Z)), (tensor_of [2%Z] (fun _ => 1%Z)).
  assert (G : good (tensor_of [2%Z] (fun _ => 1%Z) : tensor Z)) by (apply good_tensor_of; [auto with idx|vm_compute; discriminate]).
  split; [auto|]. split; [auto|]. apply (cce_rank1 _ _ 2%Z); reflexivity.
Qed.
Lemma cce_bad_shape : forall {T} {S : Scalar T} (p t : tensor T), good p -> good t -> tdims p <> tdims t \/ (3 <= length (tdims p))%nat ->
  cce_compute p t = Throw InvalidArgument /\ cce_gradient p t = Throw InvalidArgument.
Proof.
  intros T S p t Hp Ht H. destruct (list_eq_dec Z.eq_dec (tdims p) (tdims t)) as [E|NE].
  - destruct H as [H|H]; [contradiction|]. assert (EB : shape_eqb (tshape p) (tshape t) = true) by (apply shape_eqb_dims; auto).
    unfold cce_compute, cce_gradient. rewrite EB. cbn [negb]. pose proof (good_dims p Hp) as HF.
    destruct (tdims p) as [|b [|c r]] eqn:Ep; try (simpl in H; lia). change (rd (b :: c :: r) 0) with (Ok b). change (rd (b :: c :: r) 1) with (Ok c). cbn [bind].
    inversion HF as [|? ? Hb HF']; subst. inversion HF' as [|? ? Hc HF'']; subst.
    assert (EA : t_at p [0; 0]%Z = Throw InvalidArgument).
    { rewrite t_at_fail; auto; rewrite Ep.
      - destruct (Nat.eqb_spec (length [0; 0]%Z) (length (b :: c :: r))); [simpl in *; lia|reflexivity].
      - intros X. apply in_range_length in X. simpl in *. lia. }
    unfold for_. rewrite !(zrange_cons 0 b), !(zrange_cons 0 c) by lia. cbn [foldM]. rewrite EA. cbn [bind]. auto.
  - apply cce_throw; auto.
Qed.
