(** * Activations over the reals *)
From Coq Require Import Reals Lra Permutation.
From Coquelicot Require Import Coquelicot.
From Verif Require Import Base Scalar ScalarR Types Spec SpecNN SpecR M_Shape M_Tensor M_Adv M_Act L_Index L_Shape L_Bcast L_Tensor L_Reduce L_Tensor2 L_Glue L_Nest L_Matmul L_Adv L_RSum L_AdvR L_Act.

(** ** Element-wise activations *)
Lemma bel_same : forall {T} {S : Scalar T} (t : tensor T) idx, good t -> in_range (tdims t) idx -> bel t idx = el t idx.
Proof. intros. unfold bel. rewrite bproj_id; auto. Qed.
Lemma binop_same : forall {T} {S : Scalar T} f (a b : tensor T), good a -> good b -> tdims a = tdims b ->
  t_binop f a b = Ok (tensor_of (tdims a) (fun idx => f (el a idx) (el b idx))).
Proof.
  intros T S f a b Ha Hb E. rewrite (t_binop_ok f a b (tdims a)); auto; [|rewrite E; apply bcast_refl|apply good_max; auto].
  f_equal. apply tensor_of_ext; [apply good_dims; auto|]. intros idx HI. rewrite !bel_same by (auto; rewrite <- E; auto). reflexivity.
Qed.

Section G.
Context {T : Type} {S : Scalar T}.
(** What forward and backward compute per element, for any arithmetic. *)
Definition act_el (a : act T) (v : T) : T :=
  match a with
  | ReLU => s_max zero v
  | LeakyReLU al => if s_lt zero v then v else s_mul al v
  | Sigmoid => sigm v
  | Tanh => s_div (s_sub (s_exp (s_mul v (s_z 2))) one) (s_add (s_exp (s_mul v (s_z 2))) one)
  | Swish => s_mul v (sigm v)
  | Mish => s_mul v (s_tanh (softplus v))
  | Softmax => v
  end.
Definition act_del (a : act T) (v g : T) : T :=
  match a with
  | ReLU => s_mul (if s_lt zero v then one else zero) g
  | LeakyReLU al => if s_le zero v then g else s_mul al g
  | Sigmoid => s_mul (s_mul (sigm v) (s_add (s_mul (sigm v) (s_z (-1))) one)) g
  | Tanh => s_mul (s_sub one (s_mul (s_tanh v) (s_tanh v))) g
  | Swish => s_mul g (s_mul (sigm v) (s_add one (s_mul v (s_sub one (sigm v)))))
  | Mish => s_mul g (s_add (s_tanh (softplus v)) (s_mul (s_mul v (s_sub one (s_mul (s_tanh (softplus v)) (s_tanh (softplus v))))) (sigm v)))
  | Softmax => g
  end.
Lemma act_fwd_el : forall a (x : tensor T), a <> Softmax -> good x ->
  act_fwd a x = Ok (tensor_of (tdims x) (fun idx => act_el a (el x idx))).
Proof.
  intros a x Ha Hg. destruct a; try congruence; cbn [act_fwd act_el];
  unfold relu_fwd, leaky_fwd, sigmoid_fwd, tanh_fwd, swish_fwd, mish_fwd; rewrite apply_ok by auto; reflexivity.
Qed.
Lemma act_bwd_el : forall a (x g : tensor T), a <> Softmax -> good x -> good g -> tdims g = tdims x ->
  act_bwd a x g = Ok (tensor_of (tdims x) (fun idx => act_del a (el x idx) (el g idx))).
Proof.
  intros a x g Ha Hx Hg E. pose proof (good_pos x Hx) as HP. pose proof (good_max x Hx) as HM. pose proof (good_dims x Hx) as HF.
  assert (HT : forall f, good (tensor_of (tdims x) f : tensor T)) by (intros; apply good_tensor_of; auto).
  destruct a; try congruence; cbn [act_bwd act_del].
  - unfold relu_bwd. rewrite apply_ok by auto. cbn [bind]. unfold t_mul. rewrite binop_same; auto.
    f_equal. apply tensor_of_ext; auto. intros idx HI. rewrite el_tensor_of by auto. reflexivity.
  - unfold leaky_bwd. rewrite apply_pair_ok by auto. reflexivity.
  - unfold sigmoid_bwd, sigmoid_fwd. rewrite apply_ok by auto. cbn [bind].
    rewrite s_sub_t_ok by auto. cbn [bind]. rewrite t_map_tensor_of by auto.
    change (tdims (tensor_of (tdims x) ?f)) with (tdims x).
    unfold t_mul. rewrite binop_same; auto. cbn [bind]. rewrite binop_same; auto.
    change (tdims (tensor_of (tdims x) ?f)) with (tdims x).
    f_equal. apply tensor_of_ext; auto. intros idx HI. rewrite !el_tensor_of by auto. reflexivity.
  - unfold tanh_bwd. rewrite apply_ok by auto. cbn [bind]. unfold t_mul. rewrite binop_same; auto.
    f_equal. apply tensor_of_ext; auto. intros idx HI. rewrite el_tensor_of by auto. reflexivity.
  - unfold swish_bwd. rewrite apply_pair_ok by auto. reflexivity.
  - unfold mish_bwd. rewrite apply_pair_ok by auto. reflexivity.
Qed.
Lemma act_bwd_mismatch : forall al (x g : tensor T), tdims x <> tdims g ->
  act_bwd (LeakyReLU al) x g = Throw InvalidArgument /\ act_bwd Swish x g = Throw InvalidArgument /\ act_bwd Mish x g = Throw InvalidArgument.
Proof. intros. cbn [act_bwd]. unfold leaky_bwd, swish_bwd, mish_bwd. rewrite !apply_pair_throw by auto. auto. Qed.
End G.

(** ** The element functions over R *)
Local Open Scope R_scope.
Lemma Rltb_spec : forall a b, Rltb a b = true <-> a < b.
Proof. intros. unfold Rltb. destruct (Rlt_dec a b); split; auto; try discriminate; contradiction. Qed.
Lemma exp2_tanh : forall x, (exp (x * 2) - 1) / (exp (x * 2) + 1) = tanh x.
Proof.
  intros x. unfold tanh, sinh, cosh. pose proof (exp_pos x). pose proof (exp_pos (- x)). pose proof (exp_pos (x * 2)).
  assert (E : exp (x * 2) = exp x * exp x) by (rewrite <- exp_plus; f_equal; ring).
  assert (E1 : exp x * exp (- x) = 1) by (rewrite <- exp_plus, Rplus_opp_r; apply exp_0).
  rewrite E in *. apply (Rmult_eq_reg_r ((exp x * exp x + 1) * (exp x + exp (- x)))); [|apply Rmult_integral_contrapositive; split; lra].
  field_simplify; [|lra|lra]. nra.
Qed.
Lemma act_el_R : forall (a : act R) v, act_el a v = act_fun a v.
Proof.
  intros a v. destruct a; simpl; auto.
  - unfold s_max, Rmax. simpl. unfold Rltb. destruct (Rlt_dec 0 v), (Rle_dec 0 v); auto; lra.
  - unfold Rltb. destruct (Rlt_dec 0 v); reflexivity.
  - apply exp2_tanh.
Qed.
Lemma cosh_pos : forall x, 0 < cosh x.
Proof. intros. unfold cosh. pose proof (exp_pos x). pose proof (exp_pos (- x)). lra. Qed.
Lemma cosh2_sinh2 : forall x, cosh x * cosh x - sinh x * sinh x = 1.
Proof.
  intros. unfold cosh, sinh. assert (E1 : exp x * exp (- x) = 1) by (rewrite <- exp_plus, Rplus_opp_r; apply exp_0).
  field_simplify. nra.
Qed.
Lemma is_derive_tanh : forall x, is_derive tanh x (1 - tanh x * tanh x).
Proof.
  intros x. unfold tanh. pose proof (cosh_pos x).
  replace (1 - sinh x / cosh x * (sinh x / cosh x)) with ((cosh x * cosh x - sinh x * sinh x) / cosh x ^ 2) by (field; lra).
  apply (is_derive_div sinh cosh x (cosh x) (sinh x)); [| |lra].
  - apply is_derive_Reals. apply derivable_pt_lim_sinh.
  - apply is_derive_Reals. apply derivable_pt_lim_cosh.
Qed.
Lemma tanh_range : forall x, -1 < tanh x < 1.
Proof.
  intros x. unfold tanh. pose proof (cosh_pos x) as HC. pose proof (exp_pos x). pose proof (exp_pos (- x)).
  split; apply (Rmult_lt_reg_r (cosh x)); auto; unfold Rdiv; rewrite ?Rmult_assoc, Rinv_l, Rmult_1_r by lra; unfold sinh, cosh; lra.
Qed.
Lemma sigmoid_range : forall x, 0 < sigmoidR x < 1.
Proof.
  intros x. unfold sigmoidR. pose proof (exp_pos (- x)). split.
  - apply Rdiv_lt_0_compat; lra.
  - apply (Rmult_lt_reg_r (1 + exp (- x))); [lra|]. unfold Rdiv. rewrite Rmult_assoc, Rinv_l by lra. lra.
Qed.
Lemma is_derive_sigmoid : forall x, is_derive sigmoidR x (sigmoidR x * (1 - sigmoidR x)).
Proof.
  intros x. unfold sigmoidR. pose proof (exp_pos (- x)). auto_derive; [lra|]. field. lra.
Qed.

(** The derivative factor used by backward. *)
Definition act_der (a : act R) (v : R) : R :=
  match a with
  | ReLU => if Rlt_dec 0 v then 1 else 0
  | LeakyReLU al => if Rle_dec 0 v then 1 else al
  | Sigmoid => sigmoidR v * (1 - sigmoidR v)
  | Tanh => 1 - tanh v * tanh v
  | Swish => sigmoidR v * (1 + v * (1 - sigmoidR v))
  | Mish => tanh (ln (1 + exp v)) + v * (1 - tanh (ln (1 + exp v)) * tanh (ln (1 + exp v))) * sigmoidR v
  | Softmax => 1
  end.
Lemma act_del_R : forall (a : act R) v g, act_del a v g = g * act_der a v.
Proof.
  intros a v g. destruct a; simpl; unfold Rltb, Rleb, sigm, softplus; simpl; fold (sigmoidR v).
  - destruct (Rlt_dec 0 v); ring.
  - destruct (Rle_dec 0 v); ring.
  - change (1 / (1 + exp (- v))) with (sigmoidR v). ring.
  - ring.
  - change (1 / (1 + exp (- v))) with (sigmoidR v). ring.
  - change (1 / (1 + exp (- v))) with (sigmoidR v). ring.
  - ring.
Qed.
Lemma is_derive_softplus : forall v, is_derive (fun x => ln (1 + exp x)) v (sigmoidR v).
Proof.
  intros v. pose proof (exp_pos v). pose proof (exp_pos (- v)).
  unfold sigmoidR. auto_derive; [lra|]. assert (E1 : exp v * exp (- v) = 1) by (rewrite <- exp_plus, Rplus_opp_r; apply exp_0).
  apply (Rmult_eq_reg_r ((1 + exp v) * (1 + exp (- v)))); [|apply Rmult_integral_contrapositive; split; lra].
  field_simplify; [|lra|lra]. nra.
Qed.
Lemma is_derive_idR : forall v, is_derive (fun x : R => x) v 1.
Proof. intros. auto_derive; auto. Qed.
Lemma act_derive : forall (a : act R) v, a <> Softmax ->
  (match a with ReLU | LeakyReLU _ => v <> 0 | _ => True end) -> is_derive (act_fun a) v (act_der a v).
Proof.
  intros a v Ha Hv. destruct a; try congruence.
  - cbn [act_der]. destruct (Rlt_dec 0 v) as [H|H].
    + apply (is_derive_ext_loc (fun x => x)); [|apply is_derive_idR].
      exists (mkposreal v H). intros y Hy. unfold ball in Hy. simpl in Hy. unfold AbsRing_ball, abs, minus, plus, opp in Hy. simpl in Hy.
      apply Rabs_def2 in Hy. simpl. rewrite Rmax_right; lra.
    + assert (H' : 0 < - v) by lra. apply (is_derive_ext_loc (fun x => 0)); [|auto_derive; auto].
      exists (mkposreal (- v) H'). intros y Hy. unfold ball in Hy. simpl in Hy. unfold AbsRing_ball, abs, minus, plus, opp in Hy. simpl in Hy.
      apply Rabs_def2 in Hy. simpl. rewrite Rmax_left; lra.
  - cbn [act_der]. destruct (Rle_dec 0 v) as [H|H].
    + assert (H' : 0 < v) by lra. apply (is_derive_ext_loc (fun x => x)); [|apply is_derive_idR].
      exists (mkposreal v H'). intros y Hy. unfold ball in Hy. simpl in Hy. unfold AbsRing_ball, abs, minus, plus, opp in Hy. simpl in Hy.
      apply Rabs_def2 in Hy. simpl. destruct (Rlt_dec 0 y); lra.
    + assert (H' : 0 < - v) by lra. apply (is_derive_ext_loc (fun x => alpha * x)); [|auto_derive; auto; ring].
      exists (mkposreal (- v) H'). intros y Hy. unfold ball in Hy. simpl in Hy. unfold AbsRing_ball, abs, minus, plus, opp in Hy. simpl in Hy.
      apply Rabs_def2 in Hy. simpl. destruct (Rlt_dec 0 y); lra.
  - apply is_derive_sigmoid.
  - apply is_derive_tanh.
  - cbn [act_der act_fun].
    replace (sigmoidR v * (1 + v * (1 - sigmoidR v))) with (1 * sigmoidR v + v * (sigmoidR v * (1 - sigmoidR v))) by ring.
    apply (is_derive_mult (fun x => x) sigmoidR v 1 _ (is_derive_idR v) (is_derive_sigmoid v) Rmult_comm).
  - cbn [act_der act_fun]. set (sp := ln (1 + exp v)).
    replace (tanh sp + v * (1 - tanh sp * tanh sp) * sigmoidR v) with (1 * tanh sp + v * (sigmoidR v * (1 - tanh sp * tanh sp))) by ring.
    apply (is_derive_mult (fun x => x) (fun x => tanh (ln (1 + exp x))) v 1 _ (is_derive_idR v)); [|exact Rmult_comm].
    apply (is_derive_comp tanh (fun x => ln (1 + exp x)) v _ _ (is_derive_tanh sp) (is_derive_softplus v)).
Qed.

(** ** Sums over all positions *)
Lemma all_indices_cons : forall b ds, (0 < b)%Z -> Forall (fun d => (0 < d)%Z) ds ->
  Permutation (all_indices (b :: ds)) (flat_map (fun r => map (cons r) (all_indices ds)) (zrange 0 b)).
Proof.
  intros b ds Hb HF. assert (HF' : Forall (fun d => (0 < d)%Z) (b :: ds)) by (constructor; auto).
  apply NoDup_Permutation; [apply NoDup_all_indices; auto| |].
  - apply NoDup_flat_map.
    + apply NoDup_zrange.
    + intros r _. apply FinFun.Injective_map_NoDup; [|apply NoDup_all_indices; auto]. intros x y E. congruence.
    + intros x y z _ _ Hx Hy. apply in_map_iff in Hx. apply in_map_iff in Hy. destruct Hx as (i & <- & _). destruct Hy as (j & E & _). congruence.
  - intros idx. rewrite In_all_indices, in_flat_map by auto. split.
    + intros H. inversion H as [|? i ? is Hi Hr]; subst. exists i. rewrite In_zrange. split; [auto|]. apply in_map. apply In_all_indices; auto.
    + intros (r & HR & HI). apply In_zrange in HR. apply in_map_iff in HI. destruct HI as (i & <- & HI). apply In_all_indices in HI; auto.
      constructor; auto.
Qed.
Lemma rsum_all_cons : forall b ds f, (0 < b)%Z -> Forall (fun d => (0 < d)%Z) ds ->
  rsum (all_indices (b :: ds)) f = rsum (zrange 0 b) (fun r => rsum (all_indices ds) (fun i => f (r :: i))).
Proof.
  intros. rewrite (rsum_perm _ _ f (all_indices_cons b ds H H0)). rewrite rsum_flat_map. apply rsum_ext. intros. rewrite rsum_map. reflexivity.
Qed.
Lemma rsum_all_nil : forall f, rsum (all_indices []) f = f [].
Proof. intros. unfold all_indices, ztab. simpl. rewrite rsum_cons, rsum_nil. ring. Qed.

(** ** Differentiating sums *)
Lemma is_derive_rsum : forall {A} (l : list A) (f : A -> R -> R) (d : A -> R) s,
  (forall a, In a l -> is_derive (f a) s (d a)) -> is_derive (fun u => rsum l (fun a => f a u)) s (rsum l d).
Proof.
  intros A l f d s. induction l as [|a l IH]; intros H.
  - apply (is_derive_ext (fun _ => 0)); [intros; reflexivity|]. rewrite rsum_nil. auto_derive; auto.
  - apply (is_derive_ext (fun u => f a u + rsum l (fun a => f a u))); [intros; rewrite rsum_cons; reflexivity|]. rewrite rsum_cons.
    apply (is_derive_plus (f a) (fun u => rsum l (fun a => f a u))); [apply H; left; auto|]. apply IH. intros; apply H; right; auto.
Qed.
Lemma der_eq : forall (f : R -> R) (x a b : R), is_derive f x a -> a = b -> is_derive f x b.
Proof. intros. subst. auto. Qed.
Lemma is_derive_multR : forall (f g : R -> R) x df dg, is_derive f x df -> is_derive g x dg ->
  is_derive (fun u => f u * g u) x (df * g x + f x * dg).
Proof. intros f g x df dg Hf Hg. apply (is_derive_mult f g x df dg Hf Hg Rmult_comm). Qed.
Lemma is_derive_expR : forall (f : R -> R) x df, is_derive f x df -> is_derive (fun u => exp (f u)) x (exp (f x) * df).
Proof.
  intros f x df Hf. pose proof (is_derive_comp exp f x _ _ (is_derive_exp (f x)) Hf) as H.
  apply (der_eq _ _ _ _ H). unfold scal; simpl; unfold mult; simpl. ring.
Qed.

(** ** Paths of tensors *)
Lemma curve_good : forall ds X s dX u, curve ds X s dX -> good (X u) /\ tdims (X u) = ds.
Proof. intros ds X s dX u (H & _). apply H. Qed.
Lemma curve_pos : forall ds X s dX, curve ds X s dX -> pos_dims ds /\ (prod ds <= INT_MAX)%Z.
Proof. intros ds X s dX (H & _). destruct (H 0) as [G E]. rewrite <- E. split; [apply good_pos|apply good_max]; auto. Qed.
Lemma curve_of : forall ds (f : R -> list Z -> R) (s : R) (df : list Z -> R), pos_dims ds -> (prod ds <= INT_MAX)%Z ->
  (forall idx, in_range ds idx -> is_derive (fun u => f u idx) s (df idx)) ->
  curve ds (fun u => tensor_of ds (f u)) s (tensor_of ds df).
Proof.
  intros ds f s df HP HM HD. assert (HG : forall h : list Z -> R, good (tensor_of ds h)) by (intros; apply good_tensor_of; auto).
  split; [intros; split; auto|]. split; [auto|]. split; [reflexivity|]. intros idx HI.
  rewrite el_tensor_of by auto. apply (is_derive_ext (fun u => f u idx)); auto. intros. rewrite el_tensor_of by auto. reflexivity.
Qed.
Lemma dot_tensor_of : forall ds f (b : tensor R), Forall (fun d => (0 < d)%Z) ds -> dot (tensor_of ds f) b = rsum (all_indices ds) (fun idx => f idx * el b idx).
Proof.
  intros. unfold dot. change (tdims (tensor_of ds f)) with ds. apply rsum_ext. intros idx HI. apply In_all_indices in HI; auto.
  rewrite el_tensor_of by auto. reflexivity.
Qed.
Lemma dot_tensor_of_r : forall ds f (a : tensor R), Forall (fun d => (0 < d)%Z) ds -> tdims a = ds -> dot a (tensor_of ds f) = rsum (all_indices ds) (fun idx => el a idx * f idx).
Proof.
  intros ds f a HF E. unfold dot. rewrite E. apply rsum_ext. intros idx HI. apply In_all_indices in HI; auto.
  rewrite el_tensor_of by auto. reflexivity.
Qed.

Lemma act_gradient : forall (a : act R) ds, a <> Softmax -> is_gradient_on (act_smooth_at a) ds ds (act_fwd a) (act_bwd a).
Proof.
  intros a ds Hs X s dX HC Hok.
  destruct (curve_pos _ _ _ _ HC) as [HP HM]. pose proof (pos_forall _ HP) as HF. destruct HC as (HX & GdX & EdX & HD).
  exists (fun u => tensor_of ds (fun idx => act_fun a (el (X u) idx))), (tensor_of ds (fun idx => el dX idx * act_der a (el (X s) idx))).
  split; [|split].
  - intros u. destruct (HX u) as [G E]. rewrite act_fwd_el by auto. rewrite E. f_equal. apply tensor_of_ext; auto. intros. apply act_el_R.
  - apply curve_of; auto. intros idx HI.
    apply (is_derive_comp (act_fun a) (fun u => el (X u) idx)); auto. apply act_derive; auto. destruct (HX s) as [_ Es]. unfold act_smooth_at in Hok. rewrite Es in Hok. destruct a; auto.
  - intros g Gg Eg. destruct (HX s) as [G E]. rewrite act_bwd_el by (auto; congruence). eexists. split; [reflexivity|]. rewrite E.
    split; [apply good_tensor_of; auto|]. split; [reflexivity|].
    rewrite dot_tensor_of, dot_tensor_of_r by auto. apply rsum_ext. intros. rewrite act_del_R. ring.
Qed.

(** ** Softmax *)
Definition rowsum (ds : list Z) (x : tensor R) (r : Z) : R := rsum (all_indices ds) (fun j => exp (el x (r :: j))).
Definition smR (ds : list Z) (x : tensor R) (r : Z) (i : list Z) : R := exp (el x (r :: i)) / rowsum ds x r.
Lemma all_indices_nonempty : forall ds, Forall (fun d => (0 < d)%Z) ds -> all_indices ds <> [].
Proof.
  intros ds HF E. apply (f_equal Zlen) in E. unfold all_indices in E. pose proof (prod_pos _ HF). rewrite Zlen_ztab in E by lia. unfold Zlen in E. simpl in E. lia.
Qed.
Lemma rowsum_pos : forall ds x r, Forall (fun d => (0 < d)%Z) ds -> 0 < rowsum ds x r.
Proof. intros. apply rsum_pos; [apply all_indices_nonempty; auto|]. intros. apply exp_pos. Qed.
Lemma softmax_of_R : forall ds (x : tensor R) r v, Forall (fun d => (0 < d)%Z) ds ->
  softmax_of (row ds x r) v = exp v / rowsum ds x r.
Proof.
  intros ds x r v HF. unfold softmax_of. rewrite fsum_R. simpl. set (M := list_max (row ds x r)).
  pose proof (rowsum_pos ds x r HF) as HP. pose proof (exp_pos M).
  assert (E : Rsum (map (fun w => exp (w - M)) (row ds x r)) = rowsum ds x r * exp (- M)).
  { unfold row. rewrite map_map. fold (rsum (all_indices ds) (fun i => exp (el x (r :: i) - M))). unfold rowsum.
    rewrite <- rsum_scal_r. apply rsum_ext. intros. unfold Rminus. apply exp_plus. }
  rewrite E. unfold Rminus. rewrite exp_plus. pose proof (exp_pos (- M)). field. split; lra.
Qed.
Lemma softmax_R : forall (x : tensor R) b ds, good x -> tdims x = b :: ds -> ds <> [] ->
  softmax_fwd x = Ok (tensor_of (b :: ds) (fun idx => smR ds x (hd 0%Z idx) (tl idx))).
Proof.
  intros x b ds Hg E HN. rewrite (softmax_fwd_ok x b ds) by auto. rewrite E. f_equal.
  pose proof (good_dims x Hg) as HF. rewrite E in HF. apply tensor_of_ext; auto. inversion HF; subst.
  intros idx HI. inversion HI as [|? r ? i Hr Hi]; subst. cbn [hd tl nth]. rewrite softmax_of_R by auto. reflexivity.
Qed.
Lemma softmax_distribution : forall (x : tensor R) b ds, good x -> tdims x = b :: ds -> ds <> [] ->
  exists y, softmax_fwd x = Ok y /\ good y /\ tdims y = tdims x /\
    (forall idx, in_range (tdims x) idx -> 0 < el y idx) /\
    (forall r, (0 <= r < b)%Z -> rsum (all_indices ds) (fun i => el y (r :: i)) = 1) /\
    (forall r i j, (0 <= r < b)%Z -> in_range ds i -> in_range ds j -> (el x (r :: i) < el x (r :: j) <-> el y (r :: i) < el y (r :: j))).
Proof.
  intros x b ds Hg E HN. rewrite (softmax_R x b ds) by auto. eexists. split; [reflexivity|].
  pose proof (good_dims x Hg) as HF. rewrite E in HF. assert (HF' : Forall (fun d => (0 < d)%Z) ds) by (inversion HF; auto).
  split; [apply good_tensor_of; [rewrite <- E; apply good_pos; auto|rewrite <- E; apply good_max; auto]|].
  split; [symmetry; exact E|]. rewrite E. 
  assert (EL : forall r i, (0 <= r < b)%Z -> in_range ds i -> el (tensor_of (b :: ds) (fun idx => smR ds x (hd 0%Z idx) (tl idx))) (r :: i) = smR ds x r i).
  { intros r i Hr Hi. rewrite el_tensor_of by (constructor; auto). reflexivity. }
  split; [|split].
  - intros idx HI. inversion HI as [|? r ? i Hr Hi]; subst. rewrite EL by auto. unfold smR.
    apply Rdiv_lt_0_compat; [apply exp_pos|apply rowsum_pos; auto].
  - intros r Hr. rewrite (rsum_ext _ _ (fun i => exp (el x (r :: i)) * / rowsum ds x r)).
    + rewrite rsum_scal_r. fold (rowsum ds x r). apply Rinv_r. pose proof (rowsum_pos ds x r HF'). lra.
    + intros i HI. apply In_all_indices in HI; auto. rewrite EL by auto. reflexivity.
  - intros r i j Hr Hi Hj. rewrite !EL by auto. unfold smR. pose proof (rowsum_pos ds x r HF') as HP.
    assert (HI : 0 < / rowsum ds x r) by (apply Rinv_0_lt_compat; auto). split; intros H.
    + apply Rmult_lt_compat_r; auto. apply exp_increasing; auto.
    + apply Rmult_lt_reg_r in H; auto. apply exp_lt_inv; auto.
Qed.
Lemma softmax_shift : forall (x x' : tensor R) b ds c, good x -> good x' -> tdims x = b :: ds -> tdims x' = b :: ds -> ds <> [] ->
  (forall r i, (0 <= r < b)%Z -> in_range ds i -> el x' (r :: i) = el x (r :: i) + c r) -> softmax_fwd x' = softmax_fwd x.
Proof.
  intros x x' b ds c Hg Hg' E E' HN HC. rewrite (softmax_R x b ds), (softmax_R x' b ds) by auto. f_equal.
  pose proof (good_dims x Hg) as HF. rewrite E in HF. apply tensor_of_ext; auto. intros idx HI. inversion HI as [|? r ? i Hr Hi]; subst. cbn [hd tl].
  assert (HF' : Forall (fun d => (0 < d)%Z) ds) by (inversion HF; auto).
  assert (ES : rowsum ds x' r = rowsum ds x r * exp (c r)).
  { unfold rowsum. rewrite <- rsum_scal_r. apply rsum_ext. intros j HJ. apply In_all_indices in HJ; auto. rewrite HC by auto. apply exp_plus. }
  unfold smR. rewrite ES, HC by auto. rewrite exp_plus. pose proof (rowsum_pos ds x r HF'). pose proof (exp_pos (c r)). field. split; lra.
Qed.

(** Backward over R: y_i (g_i - sum_j y_j g_j). *)
Lemma sm_back_R : forall (y g : Z -> R) n i, (0 <= i < n)%Z -> sm_back y g n i = y i * (g i - rsum (zrange 0 n) (fun j => y j * g j)).
Proof.
  intros y g n i Hi. unfold sm_back.
  assert (X : forall l acc, NoDup l -> fold_left (fun acc j => if (i =? j)%Z then s_add acc (s_mul (s_mul (y i) (s_sub one (y j))) (g j))
                          else s_sub acc (s_mul (s_mul (y i) (y j)) (g j))) l acc = acc + (if in_dec Z.eq_dec i l then y i * g i else 0) - y i * rsum l (fun j => y j * g j)).
  { induction l as [|j l IH]; intros acc HN; [simpl; rewrite rsum_nil; ring|]. cbn [fold_left]. inversion HN; subst. rewrite IH by auto. rewrite rsum_cons.
    destruct (Z.eqb_spec i j) as [->|NE].
    - destruct (in_dec Z.eq_dec j l); [contradiction|]. destruct (in_dec Z.eq_dec j (j :: l)) as [_|N]; [simpl; ring|exfalso; apply N; left; auto].
    - destruct (in_dec Z.eq_dec i l), (in_dec Z.eq_dec i (j :: l)) as [H|H]; simpl; try ring.
      + exfalso; apply H; right; auto.
      + exfalso. destruct H; [congruence|contradiction]. }
  rewrite X by apply NoDup_zrange. destruct (in_dec Z.eq_dec i (zrange 0 n)) as [_|N]; [simpl; ring|]. exfalso; apply N, In_zrange; auto.
Qed.
Lemma softmax_bwd_R : forall (x g : tensor R) b ds, good x -> good g -> tdims x = b :: ds -> tdims g = b :: ds -> ds <> [] ->
  softmax_bwd x g = Ok (tensor_of (b :: ds) (fun idx => let r := hd 0%Z idx in let i := tl idx in
     smR ds x r i * (el g (r :: i) - rsum (all_indices ds) (fun j => smR ds x r j * el g (r :: j))))).
Proof.
  intros x g b ds Hx Hg Ex Eg HN.
  destruct (softmax_bwd_flat x g b ds Hx Hg Ex HN) as (y & Ey & EB).
  { rewrite Eg. destruct ds; [congruence|simpl; lia]. } { rewrite Ex, Eg. lia. }
  rewrite EB. f_equal. unfold tensor_of. rewrite (good_shape x), Ex by auto. f_equal. cbn [prod].
  rewrite (softmax_R x b ds) in Ey by auto. injection Ey as <-.
  pose proof (good_dims x Hx) as HF. rewrite Ex in HF. assert (HF' : Forall (fun d => (0 < d)%Z) ds) by (inversion HF; auto).
  assert (Hb : (0 < b)%Z) by (inversion HF; auto). pose proof (prod_pos _ HF') as HP.
  unfold ztab. apply map_ext_in. intros k HI. apply In_zrange in HI. cbv zeta. set (F := prod ds) in *.
  pose proof (Z.div_mod k F ltac:(lia)) as DM. pose proof (Z.mod_pos_bound k F HP) as MB.
  assert (HR : (0 <= k / F < b)%Z) by (split; [apply Z.div_pos; lia|apply Z.div_lt_upper_bound; nia]).
  set (r := (k / F)%Z) in *. replace (k - r * F)%Z with (k mod F)%Z by lia.
  rewrite sm_back_R by auto. cbn [unravel hd tl]. fold F r.
  assert (EY : forall j, (0 <= j < F)%Z -> znth zero (tdata (tensor_of (b :: ds) (fun idx => smR ds x (hd 0%Z idx) (tl idx)))) (r * F + j) = smR ds x r (unravel ds j)).
  { intros j Hj. unfold tensor_of. cbn [tdata prod]. rewrite znth_ztab by (fold F; nia). cbn [unravel hd tl]. fold F.
    rewrite (div_row F r) by lia. f_equal. f_equal. rewrite Z.add_comm, Z.mod_add by lia. apply Z.mod_small; auto. }
  assert (EG : forall j, (0 <= j < F)%Z -> znth zero (tdata g) (r * F + j) = el g (r :: unravel ds j)).
  { intros j Hj. unfold el. rewrite Eg. cbn [ravel]. fold F. rewrite ravel_unravel by auto. reflexivity. }
  rewrite EY, EG by auto. f_equal. f_equal. unfold all_indices, ztab. rewrite rsum_map. apply rsum_ext.
  intros j HJ. apply In_zrange in HJ. rewrite EY, EG by auto. reflexivity.
Qed.
Lemma softmax_gradient : forall b ds, ds <> [] -> is_gradient (b :: ds) (b :: ds) softmax_fwd softmax_bwd.
Proof.
  intros b ds HN X s dX HC _. destruct (curve_pos _ _ _ _ HC) as [HP HM]. pose proof (pos_forall _ HP) as HF. destruct HC as (HX & GdX & EdX & HD).
  assert (HF' : Forall (fun d => (0 < d)%Z) ds) by (inversion HF; auto). assert (Hb : (0 < b)%Z) by (inversion HF; auto).
  pose (dy := fun r i => smR ds (X s) r i * (el dX (r :: i) - rsum (all_indices ds) (fun j => smR ds (X s) r j * el dX (r :: j)))).
  exists (fun u => tensor_of (b :: ds) (fun idx => smR ds (X u) (hd 0%Z idx) (tl idx))), (tensor_of (b :: ds) (fun idx => dy (hd 0%Z idx) (tl idx))).
  split; [|split].
  - intros u. destruct (HX u) as [G E]. apply softmax_R; auto.
  - apply curve_of; auto. intros idx HI. inversion HI as [|? r ? i Hr Hi]; subst. cbn [hd tl].
    assert (DE : forall j, in_range ds j -> is_derive (fun u => exp (el (X u) (r :: j))) s (exp (el (X s) (r :: j)) * el dX (r :: j))).
    { intros j Hj. apply (is_derive_expR (fun u => el (X u) (r :: j))). apply HD. constructor; auto. }
    assert (DS : is_derive (fun u => rowsum ds (X u) r) s (rsum (all_indices ds) (fun j => exp (el (X s) (r :: j)) * el dX (r :: j)))).
    { unfold rowsum. apply (is_derive_rsum (all_indices ds) (fun j u => exp (el (X u) (r :: j)))). intros j HJ. apply DE. apply In_all_indices; auto. }
    pose proof (rowsum_pos ds (X s) r HF') as RP.
    pose proof (is_derive_div (fun u => exp (el (X u) (r :: i))) (fun u => rowsum ds (X u) r) s _ _ (DE i Hi) DS ltac:(lra)) as DD.
    apply (der_eq _ _ _ _ DD). unfold dy, smR.
    rewrite (rsum_ext _ (fun j => exp (el (X s) (r :: j)) / rowsum ds (X s) r * el dX (r :: j)) (fun j => / rowsum ds (X s) r * (exp (el (X s) (r :: j)) * el dX (r :: j)))) by (intros; field; lra).
    rewrite rsum_scal_l. field. lra.
  - intros g Gg Eg. destruct (HX s) as [G E]. rewrite (softmax_bwd_R (X s) g b ds) by auto. eexists. split; [reflexivity|].
    split; [apply good_tensor_of; auto|]. split; [reflexivity|].
    rewrite dot_tensor_of, dot_tensor_of_r by auto. rewrite !rsum_all_cons by auto. apply rsum_ext. intros r _. cbn [hd tl]. unfold dy.
    set (Sd := rsum (all_indices ds) (fun j => smR ds (X s) r j * el dX (r :: j))).
    set (Sg := rsum (all_indices ds) (fun j => smR ds (X s) r j * el g (r :: j))).
    transitivity (rsum (all_indices ds) (fun i => smR ds (X s) r i * el g (r :: i) * el dX (r :: i)) - Sg * Sd).
    + unfold Sg at 1. rewrite <- rsum_scal_r, <- rsum_minus. apply rsum_ext. intros. ring.
    + unfold Sd at 1. rewrite (Rmult_comm Sg), <- rsum_scal_r, <- rsum_minus. apply rsum_ext. intros. ring.
Qed.

(** ** Statements used by P_Act *)
Lemma relu_exact : forall (a : act R) (x g : tensor R), (a = ReLU \/ exists alpha, a = LeakyReLU alpha) ->
  good x -> good g -> tdims g = tdims x ->
  act_fwd a x = Ok (tensor_of (tdims x) (fun idx => act_fun a (el x idx))) /\
  exists gx, act_bwd a x g = Ok gx /\ good gx /\ tdims gx = tdims x /\
    forall idx, in_range (tdims x) idx -> el x idx <> 0 ->
      ex_derive (act_fun a) (el x idx) /\ el gx idx = el g idx * Derive (act_fun a) (el x idx).
Proof.
  intros a x g Ha Hx Hg E. assert (Hs : a <> Softmax) by (destruct Ha as [->|[al ->]]; discriminate).
  pose proof (good_dims x Hx) as HF. split.
  - rewrite act_fwd_el by auto. f_equal. apply tensor_of_ext; auto. intros. apply act_el_R.
  - rewrite act_bwd_el by auto. eexists. split; [reflexivity|]. split; [apply good_tensor_of; [apply good_pos|apply good_max]; auto|]. split; [reflexivity|].
    intros idx HI HN. assert (D : is_derive (act_fun a) (el x idx) (act_der a (el x idx))) by (apply act_derive; auto; destruct a; auto).
    split; [eexists; exact D|]. rewrite el_tensor_of by auto. rewrite act_del_R. rewrite (is_derive_unique _ _ _ D). reflexivity.
Qed.
Lemma relu_gradient : forall (a : act R) ds, (a = ReLU \/ exists alpha, a = LeakyReLU alpha) ->
  is_gradient_on (fun x => forall idx, in_range (tdims x) idx -> el x idx <> 0) ds ds (act_fwd a) (act_bwd a).
Proof. intros a ds [->|[al ->]]; [apply (act_gradient ReLU)|apply (act_gradient (LeakyReLU al))]; discriminate. Qed.
Lemma smooth_cases : forall a : act R, In a [Sigmoid; Tanh; Swish; Mish] -> a <> Softmax /\ forall x, act_smooth_at a x.
Proof. intros a H. simpl in H. destruct H as [<-|[<-|[<-|[<-|[]]]]]; split; try discriminate; simpl; auto. Qed.
Lemma smooth_forward : forall (a : act R) (x : tensor R), In a [Sigmoid; Tanh; Swish; Mish] -> good x ->
  act_fwd a x = Ok (tensor_of (tdims x) (fun idx => act_fun a (el x idx))).
Proof.
  intros a x Ha Hx. apply smooth_cases in Ha. destruct Ha as [Hs _]. rewrite act_fwd_el by auto. f_equal. apply tensor_of_ext; [apply good_dims; auto|]. intros. apply act_el_R.
Qed.
Lemma smooth_backward : forall (a : act R) (x g : tensor R), In a [Sigmoid; Tanh; Swish; Mish] -> good x -> good g -> tdims g = tdims x ->
  act_bwd a x g = Ok (tensor_of (tdims x) (fun idx => el g idx * Derive (act_fun a) (el x idx))) /\
  forall v, ex_derive (act_fun a) v.
Proof.
  intros a x g Ha Hx Hg E. pose proof (smooth_cases a Ha) as [Hs _].
  assert (D : forall v, is_derive (act_fun a) v (act_der a v)).
  { intros v. apply act_derive; auto. simpl in Ha. destruct Ha as [<-|[<-|[<-|[<-|[]]]]]; auto. }
  split; [|intros v; eexists; apply D]. rewrite act_bwd_el by auto. f_equal. apply tensor_of_ext; [apply good_dims; auto|].
  intros. rewrite act_del_R. rewrite (is_derive_unique _ _ _ (D _)). reflexivity.
Qed.
Lemma smooth_gradient : forall (a : act R) ds, In a [Sigmoid; Tanh; Swish; Mish] -> is_gradient ds ds (act_fwd a) (act_bwd a).
Proof.
  intros a ds Ha X s dX HC _. pose proof (smooth_cases a Ha) as [Hs HA]. apply (act_gradient a ds Hs X s dX HC). apply HA.
Qed.
Lemma softmax_jacobian : forall (x g y : tensor R) b ds, good x -> good g -> tdims x = b :: ds -> tdims g = b :: ds -> ds <> [] ->
  softmax_fwd x = Ok y ->
  exists gx, softmax_bwd x g = Ok gx /\ tdims gx = b :: ds /\ good gx /\
    forall r i, (0 <= r < b)%Z -> in_range ds i ->
      el gx (r :: i) = rsum (all_indices ds) (fun j => el y (r :: j) * ((if list_eq_dec Z.eq_dec i j then 1 else 0) - el y (r :: i)) * el g (r :: j)).
Proof.
  intros x g y b ds Hx Hg Ex Eg HN Ey. rewrite (softmax_R x b ds) in Ey by auto. injection Ey as <-.
  pose proof (good_dims x Hx) as HF. rewrite Ex in HF. assert (HF' : Forall (fun d => (0 < d)%Z) ds) by (inversion HF; auto).
  pose proof (good_pos x Hx) as HP. pose proof (good_max x Hx) as HM. rewrite Ex in HP, HM.
  rewrite (softmax_bwd_R x g b ds) by auto. eexists. split; [reflexivity|]. split; [reflexivity|].
  split; [apply good_tensor_of; auto|]. intros r i Hr Hi. rewrite el_tensor_of by (constructor; auto). cbn [hd tl]. cbv zeta.
  symmetry. etransitivity.
  - apply (rsum_ext (all_indices ds) _ (fun j => (if list_eq_dec Z.eq_dec i j then smR ds x r i * el g (r :: i) else 0) - smR ds x r i * (smR ds x r j * el g (r :: j)))).
    intros j HJ. apply In_all_indices in HJ; auto. rewrite !el_tensor_of by (constructor; auto). cbn [hd tl].
    destruct (list_eq_dec Z.eq_dec i j) as [->|NE]; ring.
  - rewrite rsum_minus, rsum_scal_l.
    rewrite (rsum_single (all_indices ds) _ i); [|apply NoDup_all_indices; auto|apply In_all_indices; auto|].
    + destruct (list_eq_dec Z.eq_dec i i); [ring|congruence].
    + intros j _ NE. destruct (list_eq_dec Z.eq_dec i j); [congruence|reflexivity].
Qed.
Lemma line_curve : forall (x d : tensor R), good x -> good d -> tdims d = tdims x -> exists X, X 0 = x /\ curve (tdims x) X 0 d.
Proof.
  intros x d Hx Hd E. exists (fun u => tensor_of (tdims x) (fun idx => el x idx + u * el d idx)). split.
  - symmetry. apply tensor_eta; auto. intros. ring.
  - assert (Ed : d = tensor_of (tdims x) (el d)) by (rewrite <- E; apply tensor_eta; auto).
    pose proof (curve_of (tdims x) (fun u idx => el x idx + u * el d idx) 0 (el d) (good_pos x Hx) (good_max x Hx)) as H. rewrite <- Ed in H. apply H.
    intros idx HI. auto_derive; auto. ring.
Qed.
