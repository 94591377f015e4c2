(** * Float32 losses *)
From Coq Require Import Reals Lra SpecFloat.
From Flocq Require Import Core BinarySingleNaN.
From Verif Require Import Base Scalar Types Spec SpecNN SpecR SpecF32 M_Shape M_Tensor M_Adv M_Act M_Loss L_Index L_Tensor L_AdvR L_Matmul L_Reduce L_RSum L_Loss L_Float L_FloatAct L_FloatLib L_FloatT L_FloatB.
Local Open Scope R_scope.
#[local] Existing Instance Hp32.
#[local] Existing Instance Hm32.
Local Notation B32 := (binary_float f32_prec f32_emax).
Local Notation V := (SF2R radix2).
Local Notation fadd := (SFadd f32_prec f32_emax).
Local Notation fsub := (SFsub f32_prec f32_emax).
Local Notation fmul := (SFmul f32_prec f32_emax).
Local Notation P e := (bpow radix2 e).

(** ** Numbers with a sign: [dir false] not below zero, [dir true] not above zero, infinities included *)
Definition sg (s : bool) : R := if s then -1 else 1.
Definition dir (s : bool) (x : f32) : Prop := vok x /\ (x = S754_infinity s \/ (fin x /\ 0 <= sg s * V x)).
Lemma dir_nonneg : forall x, dir false x -> f32_nonneg x.
Proof. intros x (H & [->|(F & L)]); (split; [exact H|]); [left; reflexivity|right]. split; [apply finite_fin; auto|]. rewrite value_V. unfold sg in L. lra. Qed.
Lemma dir_nonpos : forall x, dir true x -> f32_nonpos x.
Proof. intros x (H & [->|(F & L)]); (split; [exact H|]); [left; reflexivity|right]. split; [apply finite_fin; auto|]. rewrite value_V. unfold sg in L. lra. Qed.
Lemma sg_rnd : forall s r, 0 <= sg s * r -> 0 <= sg s * rnd r.
Proof. intros [|] r H; unfold sg in *. - assert (0 <= rnd (- r)) by (apply rnd_nonneg; lra). rewrite rnd_opp in *. lra. - assert (0 <= rnd r) by (apply rnd_nonneg; lra). lra. Qed.
(** The sign bit against the direction means the value is zero. *)
Lemma sign_dir : forall s (b : B32), 0 <= sg s * B2R b -> Bsign b = s \/ B2R b = 0.
Proof.
  intros s b H. destruct (Bool.bool_dec (Bsign b) s) as [E|E]; [left; auto|right]. destruct s; unfold sg in H.
  - assert (E' : Bsign b = false) by (destruct (Bsign b); congruence). apply sign_pos in E'. lra.
  - assert (E' : Bsign b = true) by (destruct (Bsign b); congruence). apply sign_neg in E'. lra.
Qed.
Lemma no_over : forall (b : B32) r, r = B2R b -> Rlt_bool (Rabs (round radix2 (SpecFloat.fexp f32_prec f32_emax) (round_mode mode_NE) r)) (bpow radix2 f32_emax) = true.
Proof. intros b r ->. apply Rlt_bool_true. change (Rabs (rnd (B2R b)) < big). rewrite <- VB. rewrite rnd_V by apply vokB. apply V_big, vokB. Qed.
Lemma no_over0 : Rlt_bool (Rabs (round radix2 (SpecFloat.fexp f32_prec f32_emax) (round_mode mode_NE) 0)) (bpow radix2 f32_emax) = true.
Proof. apply Rlt_bool_true. change (Rabs (rnd 0) < big). rewrite rnd_0, Rabs_R0. apply bpow_gt_0. Qed.
Lemma sub_dir : forall s x y, good_f x -> good_f y -> 0 <= sg s * (V x - V y) -> dir s (fsub x y).
Proof.
  intros s x y [Hx Fx] [Hy Fy] L. split; [apply sub_vok; auto|]. unB. rewrite sub_equiv. rewrite !finB in *. rewrite !VB in *. pose proof (Bminus_correct _ _ _ _ mode_NE b0 b Fx Fy) as C. destruct (Rlt_bool _ _) eqn:EO.
  - right. destruct C as (C1 & C2 & _). rewrite C1. split; [auto|]. apply (sg_rnd s _ L).
  - left. destruct C as (C1 & C2). rewrite C1, overflow_inf. f_equal.
    destruct (Bool.bool_dec (Bsign b0) s) as [E|E]; [auto|exfalso].
    assert (Z0 : B2R b0 - B2R b = 0).
    { destruct s; unfold sg in L.
      - assert (E0 : Bsign b0 = false) by (destruct (Bsign b0); congruence). assert (E1 : Bsign b = true) by (rewrite E0 in C2; destruct (Bsign b); auto). apply sign_pos in E0. apply sign_neg in E1. lra.
      - assert (E0 : Bsign b0 = true) by (destruct (Bsign b0); congruence). assert (E1 : Bsign b = false) by (rewrite E0 in C2; destruct (Bsign b); auto). apply sign_neg in E0. apply sign_pos in E1. lra. }
    rewrite Z0, no_over0 in EO. discriminate.
Qed.
Lemma add_dir : forall s x y, dir s x -> dir s y -> dir s (fadd x y).
Proof.
  intros s x y (Hx & Cx) (Hy & Cy). split; [apply add_vok; auto|]. destruct Cx as [->|(Fx & Lx)], Cy as [->|(Fy & Ly)].
  - left. destruct s; reflexivity.
  - left. destruct y as [sy|sy| |sy my ey]; try discriminate Fy; destruct s; reflexivity.
  - left. destruct x as [sx|sx| |sx mx ex]; try discriminate Fx; destruct s; reflexivity.
  - unB. rewrite add_equiv. rewrite !finB in *. rewrite !VB in *. pose proof (Bplus_correct _ _ _ _ mode_NE b0 b Fx Fy) as C. destruct (Rlt_bool _ _) eqn:EO.
    + right. destruct C as (C1 & C2 & _). rewrite C1. split; [auto|]. apply (sg_rnd s). rewrite Rmult_plus_distr_l. lra.
    + left. destruct C as (C1 & C2). rewrite C1, overflow_inf. f_equal. destruct (sign_dir s b0 Lx) as [E|E]; [auto|]. rewrite E, (no_over b) in EO by lra. discriminate.
Qed.
Lemma mul_dir : forall s x y, dir s x -> good_f y -> 0 < V y -> dir s (fmul x y).
Proof.
  intros s x y (Hx & Cx) [Hy Fy] Py. split; [apply mul_vok; auto|]. destruct Cx as [->|(Fx & Lx)].
  - left. destruct y as [sy|sy| |sy my ey]; try discriminate Fy; [cbn in Py; lra|]. destruct sy; [|destruct s; reflexivity].
    exfalso. assert (V (S754_finite true my ey) < 0) by (unfold SF2R; apply F2R_lt_0; reflexivity). lra.
  - unB. rewrite mul_equiv. rewrite !finB in *. rewrite !VB in *. pose proof (Bmult_correct _ _ _ _ mode_NE b0 b) as C. destruct (Rlt_bool _ _) eqn:EO.
    + right. destruct C as (C1 & C2 & _). rewrite C1, C2, Fx, Fy. split; [auto|]. apply (sg_rnd s). rewrite <- Rmult_assoc. apply Rmult_le_pos; lra.
    + left. rewrite C, overflow_inf. f_equal. assert (E : Bsign b = false). { destruct (Bsign b) eqn:EB; [|auto]. apply sign_neg in EB. lra. } rewrite E, Bool.xorb_false_r.
      destruct (sign_dir s b0 Lx) as [E0|E0]; [auto|]. rewrite E0, Rmult_0_l, no_over0 in EO. discriminate.
Qed.
Lemma div_dir : forall s x y, dir s x -> good_f y -> 1 <= V y -> dir s (f32_div x y).
Proof.
  intros s x y (Hx & Cx) [Hy Fy] Py. split; [apply div_vok; auto|]. destruct Cx as [->|(Fx & Lx)].
  - left. destruct y as [sy|sy| |sy my ey]; try discriminate Fy; [cbn in Py; lra|]. destruct sy; [|destruct s; reflexivity].
    exfalso. assert (V (S754_finite true my ey) < 0) by (unfold SF2R; apply F2R_lt_0; reflexivity). lra.
  - right. assert (IV : 0 < / V y <= 1). { split; [apply Rinv_0_lt_compat; lra|]. rewrite <- Rinv_1. apply Rinv_le; lra. }
    destruct (div_in x y Hx Hy Fx ltac:(lra)) as (F & E).
    { apply (in_big _ x Hx). unfold Rdiv. rewrite Rabs_mult, (Rabs_pos_eq (/ V y)) by lra. pose proof (Rabs_pos (V x)). nra. }
    split; [auto|]. rewrite E. apply (sg_rnd s). unfold Rdiv. rewrite <- Rmult_assoc. apply Rmult_le_pos; lra.
Qed.
Lemma sq_dir : forall s x, dir s x -> dir false (fmul x x).
Proof.
  intros s x (Hx & Cx). split; [apply mul_vok; auto|]. destruct Cx as [->|(Fx & Lx)]; [left; destruct s; reflexivity|].
  unB. rewrite mul_equiv. rewrite !finB in *. rewrite !VB in *. pose proof (Bmult_correct _ _ _ _ mode_NE b b) as C. destruct (Rlt_bool _ _) eqn:EO.
  - right. destruct C as (C1 & C2 & _). rewrite C1, C2, Fx. split; [auto|]. apply (sg_rnd false). unfold sg. pose proof (Rle_0_sqr (B2R b)). unfold Rsqr in *. lra.
  - left. rewrite C, overflow_inf. f_equal. apply Bool.xorb_nilpotent.
Qed.
Lemma dir_zero : forall s, dir s (f32_of_Z 0).
Proof. intros s. split; [apply of_Z_vok|]. right. split; [reflexivity|]. change (V (f32_of_Z 0)) with 0. lra. Qed.
Lemma either : forall x y, good_f x -> good_f y -> exists s, dir s (fsub x y).
Proof. intros x y Gx Gy. destruct (Rle_dec (V y) (V x)); [exists false|exists true]; apply sub_dir; auto; unfold sg; lra. Qed.

(** ** Adding something small to a large number *)
Lemma sat_add : forall x d e, (-120 <= e)%Z -> (e + 25 < 128)%Z -> bnd (e + 25) x -> bnd e d -> bnd (e + 25) (fadd x d).
Proof.
  intros x d e He1 He2 [Gx Lx] [Gd Ld]. set (r := V x + V d). apply Rabs_le_inv in Lx. apply Rabs_le_inv in Ld.
  assert (U : rnd r <= P (e + 25)) by (eapply Rle_trans; [|apply sat_up; auto]; apply rnd_le; unfold r; lra).
  assert (L : - P (e + 25) <= rnd r). { pose proof (sat_up e He1) as S. apply Ropp_le_contravar in S. eapply Rle_trans; [exact S|]. rewrite <- rnd_opp. apply rnd_le. unfold r. lra. }
  assert (A : Rabs (rnd r) <= P (e + 25)) by (apply Rabs_le; lra). destruct Gx as [Hx Fx], Gd as [Hd Fd].
  assert (F : fin (fadd x d)) by (apply add_in; auto; eapply Rle_lt_trans; [exact A|apply P_big; auto]). destruct (add_fin x d Hx Hd F) as (_ & _ & E).
  split; [split; [apply add_vok; auto|auto]|]. rewrite E. exact A.
Qed.
Lemma sub_bnd : forall x y e, (-149 <= e < 127)%Z -> bnd e x -> bnd e y -> bnd (e + 1) (fsub x y).
Proof.
  intros x y e He [Gx Lx] [Gy Ly]. assert (L : Rabs (V x - V y) <= P (e + 1)) by (rewrite P_succ; apply Rabs_le; apply Rabs_le_inv in Lx; apply Rabs_le_inv in Ly; lra).
  destruct (sub_to x y (e + 1) ltac:(lia) Gx Gy L) as [G E]. split; [auto|]. rewrite E. apply rnd_P; [lia|auto].
Qed.

Section L.
Context (lm : libm).
Let SF : Scalar f32 := F32Scalar lm.
Local Existing Instance SF.

Lemma eq_zero : forall n, (1 <= n <= INT_MAX)%Z -> s_eq (s_z n : f32) zero = false.
Proof.
  intros n Hn. destruct (of_Z_ge1 n Hn) as ([HV HF] & L). change (SFeqb (f32_of_Z n) (f32_of_Z 0) = false). destruct (f32_of_Z n) as [s|s| |s m e]; try discriminate HF; [cbn in L; lra|]. destruct s; reflexivity.
Qed.
Lemma fsnoc : forall (l : list f32) x, fsum (l ++ [x]) = fadd (fsum l) x.
Proof. exact (fsum_snoc lm). Qed.
Lemma fsum_dir : forall l : list f32, Forall (dir false) l -> dir false (fsum l).
Proof. induction l as [|x l IH] using rev_ind; intros HF; [apply dir_zero|]. apply Forall_app in HF. destruct HF as (HF & Hx). inversion Hx; subst. rewrite fsnoc. apply add_dir; auto. Qed.
Lemma fsum_bnd : forall (l : list f32) e, (-120 <= e)%Z -> (e + 25 < 128)%Z -> Forall (bnd e) l -> bnd (e + 25) (fsum l).
Proof. intros l e H1 H2. induction l as [|x l IH] using rev_ind; intros HF; [apply bnd_zero|]. apply Forall_app in HF. destruct HF as (HF & Hx). inversion Hx; subst. rewrite fsnoc. apply sat_add; auto. Qed.
(** A sum of non-negative numbers is at least each of them. *)
Lemma add_ge : forall x y, dir false x -> dir false y -> fin (fadd x y) -> fin x /\ fin y /\ V x <= V (fadd x y) /\ V y <= V (fadd x y).
Proof.
  intros x y (Hx & Cx) (Hy & Cy) F. destruct (add_fin x y Hx Hy F) as (Fx & Fy & E). split; [auto|]. split; [auto|].
  destruct Cx as [->|(_ & Lx)]; [discriminate Fx|]. destruct Cy as [->|(_ & Ly)]; [discriminate Fy|]. unfold sg in *. rewrite E. split; apply rnd_down; auto; lra.
Qed.
Lemma fsum_ge : forall l : list f32, Forall (dir false) l -> fin (fsum l) -> Forall (fun x => fin x /\ V x <= V (fsum l)) l.
Proof.
  induction l as [|x l IH] using rev_ind; intros HF F; [constructor|]. apply Forall_app in HF. destruct HF as (HF & Hx). inversion Hx as [|? ? Dx _]; subst. rewrite fsnoc in F |- *.
  destruct (add_ge (fsum l) x (fsum_dir l HF) Dx F) as (F1 & F2 & L1 & L2). apply Forall_app. split.
  - eapply Forall_impl; [|apply IH; auto]. cbv beta. intros a (A & B). split; [auto|]. eapply Rle_trans; [exact B|exact L1].
  - constructor; [auto|constructor].
Qed.
Lemma fsum_zero : forall l : list f32, Forall (fun x => good_f x /\ V x = 0) l -> good_f (fsum l) /\ V (fsum l) = 0.
Proof.
  induction l as [|x l IH] using rev_ind; intros HF; [split; [split; reflexivity|reflexivity]|]. apply Forall_app in HF. destruct HF as (HF & Hx). inversion Hx as [|? ? (Gx & Vx) _]; subst. rewrite fsnoc.
  destruct (IH HF) as (Gl & Vl). destruct (add_to (fsum l) x 0 ltac:(lia) Gl Gx) as (G & E); [rewrite Vl, Vx, Rplus_0_l, Rabs_R0; apply Rlt_le, P_pos|]. split; [exact G|]. etransitivity; [exact E|]. change (rnd (V (fsum l) + V x) = 0). rewrite Vl, Vx, Rplus_0_l. apply rnd_0.
Qed.

(** ** Mean squared error *)
Definition dif (p t : tensor f32) (idx : list Z) : f32 := fsub (el p idx) (el (in_shape (tdims p) t) idx).
Lemma prod_range : forall p : tensor f32, good p -> (1 <= prod (tdims p) <= INT_MAX)%Z.
Proof. intros p G. pose proof (good_prod_pos p G). pose proof (good_max p G). lia. Qed.
Lemma aligned_len : forall p t : tensor f32, good p -> good t -> aligned p t -> Zlen (tdata t) = prod (tdims p).
Proof.
  intros p t Gp Gt [E|(n & r & E1 & E2 & E3)]; rewrite (good_len t Gt); [rewrite E; reflexivity|]. rewrite E1, E2. cbn [prod]. rewrite E3. reflexivity.
Qed.
Lemma el_shaped : forall (Q : f32 -> Prop) (p t : tensor f32) idx, good p -> good t -> aligned p t -> Forall Q (tdata t) -> in_range (tdims p) idx -> Q (el (in_shape (tdims p) t) idx).
Proof.
  intros Q p t idx Gp Gt HA HQ HI. rewrite el_in_shape by auto. pose proof (ravel_bound (tdims p) idx HI) as HR. rewrite <- (aligned_len p t) in HR by auto. unfold znth. rewrite Forall_forall in HQ. apply HQ. apply nth_In. unfold Zlen in HR. lia.
Qed.
Lemma el_p : forall (Q : f32 -> Prop) (p : tensor f32) idx, good p -> Forall Q (tdata p) -> in_range (tdims p) idx -> Q (el p idx).
Proof. intros. apply (el_all lm Q); auto. Qed.
Lemma fin_good : forall x, f32_valid x /\ f32_finite x -> good_f x.
Proof. intros x (A & B). split; [exact A|apply finite_fin; exact B]. Qed.
Lemma dif_parts : forall p t idx, good p -> good t -> aligned p t -> all_finite p -> all_finite t -> in_range (tdims p) idx -> good_f (el p idx) /\ good_f (el (in_shape (tdims p) t) idx).
Proof. intros p t idx Gp Gt HA Fp Ft HI. split; apply fin_good; [apply (el_p _ p idx Gp Fp HI)|apply (el_shaped _ p t idx Gp Gt HA Ft HI)]. Qed.
Lemma squares : forall p t, good p -> good t -> aligned p t -> all_finite p -> all_finite t -> Forall (dir false) (map (sqdiff p t) (all_indices (tdims p))).
Proof.
  intros p t Gp Gt HA Fp Ft. apply Forall_forall. intros x HX. apply in_map_iff in HX. destruct HX as (idx & <- & HI). apply In_all_indices in HI; [|apply good_dims; auto].
  destruct (dif_parts p t idx Gp Gt HA Fp Ft HI) as (G1 & G2). destruct (either _ _ G1 G2) as (s & D). apply (sq_dir s). exact D.
Qed.
Lemma mse_value_dir : forall p t, good p -> good t -> aligned p t -> all_finite p -> all_finite t ->
  exists y, mse_compute p t = Ok y /\ good y /\ tdims y = [1%Z] /\ f32_nonneg (el y [0%Z]).
Proof.
  intros p t Gp Gt HA Fp Ft. rewrite mse_compute_ok; [|auto..|apply eq_zero, prod_range; auto]. eexists. split; [reflexivity|]. split; [apply good_tensor_of; [auto with idx|vm_compute; discriminate]|]. split; [reflexivity|].
  rewrite el_tensor_of by (constructor; [lia|constructor]). apply dir_nonneg. destruct (of_Z_ge1 _ (prod_range p Gp)) as (G & L). apply (div_dir false); auto. apply fsum_dir, squares; auto.
Qed.
Lemma mse_value_fin : forall p t, good p -> good t -> aligned p t -> Forall (bnd 50) (tdata p) -> Forall (bnd 50) (tdata t) ->
  exists y, mse_compute p t = Ok y /\ f32_in 0 (P 127) (el y [0%Z]).
Proof.
  intros p t Gp Gt HA Fp Ft. rewrite mse_compute_ok; [|auto..|apply eq_zero, prod_range; auto]. eexists. split; [reflexivity|]. rewrite el_tensor_of by (constructor; [lia|constructor]).
  destruct (of_Z_ge1 _ (prod_range p Gp)) as (G & L). set (l := map (sqdiff p t) (all_indices (tdims p))).
  assert (B : Forall (bnd 102) l /\ Forall (dir false) l).
  { split; apply Forall_forall; intros x HX; apply in_map_iff in HX; destruct HX as (idx & <- & HI); (apply In_all_indices in HI; [|apply good_dims; auto]);
      pose proof (el_p _ p idx Gp Fp HI) as B1; pose proof (el_shaped _ p t idx Gp Gt HA Ft HI) as B2.
    - pose proof (sub_bnd _ _ 50 ltac:(lia) B1 B2) as B3. apply (mul_bnd _ _ 51 51); [lia|exact B3|exact B3].
    - destruct (either _ _ (proj1 B1) (proj1 B2)) as (s & D). apply (sq_dir s). exact D. }
  destruct B as (B1 & B2). pose proof (fsum_bnd l 102 ltac:(lia) ltac:(lia) B1) as B3. pose proof (fsum_dir l B2) as B4.
  pose proof (div_bnd (fsum l) _ (102 + 25) 0 ltac:(lia) B3 G ltac:(rewrite P_0; exact L)) as B5. pose proof (div_dir false _ _ B4 G L) as (_ & [B6|(_ & B6)]); [exfalso; destruct B5 as [[_ F] _]; rewrite B6 in F; discriminate F|].
  apply within_in. destruct B5 as [[H5 F5] L5]. split; [exact H5|]. split; [exact F5|]. unfold sg in B6. apply Rabs_le_inv in L5. change (102 + 25 - 0)%Z with 127%Z in L5. cbn [s_div s_z SF F32Scalar]. lra.
Qed.
Lemma mse_value_same : forall p, good p -> all_finite p -> exists y, mse_compute p p = Ok y /\ f32_finite (el y [0%Z]) /\ f32_value (el y [0%Z]) = 0.
Proof.
  intros p Gp Fp. assert (HA : aligned p p) by (left; reflexivity). rewrite mse_compute_ok; [|auto..|apply eq_zero, prod_range; auto]. eexists. split; [reflexivity|]. rewrite el_tensor_of by (constructor; [lia|constructor]).
  destruct (of_Z_ge1 _ (prod_range p Gp)) as (G & L). rewrite finite_fin, value_V. set (l := map (sqdiff p p) (all_indices (tdims p))).
  assert (B : Forall (fun x => good_f x /\ V x = 0) l).
  { apply Forall_forall. intros x HX. apply in_map_iff in HX. destruct HX as (idx & <- & HI). apply In_all_indices in HI; [|apply good_dims; auto].
    pose proof (fin_good _ (el_p _ p idx Gp Fp HI)) as G1. unfold sqdiff. rewrite in_shape_same by auto. set (a := el p idx) in *.
    destruct (sub_to a a 0 ltac:(lia) G1 G1) as (G2 & E2); [rewrite Rminus_diag_eq by reflexivity; rewrite Rabs_R0; apply Rlt_le, P_pos|]. rewrite Rminus_diag_eq, rnd_0 in E2 by reflexivity.
    destruct (mul_to _ _ 0 ltac:(lia) G2 G2) as (G3 & E3); [rewrite E2, Rmult_0_l, Rabs_R0; apply Rlt_le, P_pos|]. rewrite E2, Rmult_0_l, rnd_0 in E3. split; [exact G3|exact E3]. }
  destruct (fsum_zero l B) as (GS & ES). destruct (div_to (fsum l) (f32_of_Z (prod (tdims p))) 0 ltac:(lia) GS G ltac:(lra)) as (GD & ED); [rewrite ES; unfold Rdiv; rewrite Rmult_0_l, Rabs_R0; apply Rlt_le, P_pos|].
  split; [exact (proj2 GD)|]. etransitivity; [exact ED|]. rewrite ES. unfold Rdiv. rewrite Rmult_0_l. apply rnd_0.
Qed.
(** A zero loss bounds every difference. *)
Lemma mse_value_zero : forall p t y, good p -> good t -> aligned p t -> all_finite p -> all_finite t -> mse_compute p t = Ok y -> f32_finite (el y [0%Z]) -> f32_value (el y [0%Z]) = 0 ->
  forall idx, in_range (tdims p) idx -> Rabs (f32_value (el p idx) - f32_value (el (in_shape (tdims p) t) idx)) < P (-59).
Proof.
  intros p t y Gp Gt HA Fp Ft E HF HV idx HI. rewrite mse_compute_ok in E; [|auto..|apply eq_zero, prod_range; auto]. injection E as <-. rewrite el_tensor_of in HF, HV by (constructor; [lia|constructor]).
  pose proof (prod_range p Gp) as PR. destruct (of_Z_ge1 _ PR) as (G & L). pose proof (squares p t Gp Gt HA Fp Ft) as SQ. set (l := map (sqdiff p t) (all_indices (tdims p))) in *. pose proof (fsum_dir l SQ) as DS.
  rewrite finite_fin in HF. rewrite value_V in HV.
  assert (FS : fin (fsum l)). { destruct DS as (_ & [E|(F & _)]); [exfalso|exact F]. change (fin (f32_div (fsum l) (f32_of_Z (prod (tdims p))))) in HF. rewrite E in HF. destruct G as [GV GF]. destruct (f32_of_Z (prod (tdims p))) as [s|s| |s m e]; try discriminate GF; discriminate HF. }
  destruct DS as (HS & [ES|(_ & LS)]); [rewrite ES in FS; discriminate FS|]. unfold sg in LS.
  assert (BN : V (f32_of_Z (prod (tdims p))) <= P 31).
  { assert (LN : Rabs (IZR (prod (tdims p))) <= P 31). { rewrite Rabs_pos_eq by (apply IZR_le; lia). change (P 31) with (IZR 2147483648). apply IZR_le. unfold INT_MAX in *. lia. }
    destruct (of_Z_in (prod (tdims p))) as (F & E); [eapply fin_by; [|exact LN]; lia|]. rewrite E. apply rnd_P_le; [lia|]. apply Rabs_le_inv in LN. lra. }
  assert (SM : V (fsum l) < P (-118)).
  { destruct (Rlt_dec (V (fsum l)) (P (-118))) as [Q|Q]; [exact Q|exfalso]. apply Rnot_lt_le in Q. set (n := f32_of_Z (prod (tdims p))) in *. destruct G as [HN FN].
    assert (IV : 0 < / V n <= 1). { split; [apply Rinv_0_lt_compat; lra|]. rewrite <- Rinv_1. apply Rinv_le; lra. }
    destruct (div_in (fsum l) n HS HN FS ltac:(lra)) as (F & E).
    { apply (in_big _ (fsum l) HS). unfold Rdiv. rewrite Rabs_mult, (Rabs_pos_eq (/ V n)) by lra. pose proof (Rabs_pos (V (fsum l))). nra. }
    assert (K : P (-149) <= V (fsum l) / V n).
    { change (-149)%Z with (-118 + -31)%Z. rewrite bpow_plus. replace (P (-31)) with (/ P 31) by (symmetry; apply (bpow_opp radix2 31)). apply Rmult_le_compat; [apply Rlt_le, P_pos|apply Rlt_le, Rinv_0_lt_compat, P_pos|exact Q|]. apply Rinv_le; [lra|exact BN]. }
    apply (rnd_P_ge _ (-149)) in K; [|lia]. rewrite <- E in K. pose proof (P_pos (-149)). change (V (f32_div (fsum l) n) = 0) in HV. lra. }
  pose proof (fsum_ge l SQ FS) as GE. rewrite Forall_forall in GE. destruct (GE (sqdiff p t idx)) as (FX & LX); [apply in_map, In_all_indices; [apply good_dims; auto|auto]|].
  rewrite !value_V. destruct (dif_parts p t idx Gp Gt HA Fp Ft HI) as ([H1 F1] & [H2 F2]). set (a := el p idx) in *. set (b := el (in_shape (tdims p) t) idx) in *. change (sqdiff p t idx) with (fmul (fsub a b) (fsub a b)) in *.
  destruct (mul_fin _ _ (sub_vok a b H1 H2) (sub_vok a b H1 H2) FX) as (FD & _ & EM). destruct (sub_fin a b H1 H2 FD) as (_ & _ & ED).
  destruct (Rlt_dec (Rabs (V a - V b)) (P (-59))) as [Q|Q]; [exact Q|exfalso]. apply Rnot_lt_le in Q.
  assert (K : P (-59) <= Rabs (V (fsub a b))) by (rewrite ED; unfold rnd; apply abs_round_ge_generic; [typeclasses eauto..|apply P_format; lia|exact Q]).
  assert (K2 : P (-118) <= V (fsub a b) * V (fsub a b)). { change (-118)%Z with (-59 + -59)%Z. rewrite bpow_plus. rewrite <- (Rabs_pos_eq (V (fsub a b) * V (fsub a b))) by apply Rle_0_sqr. rewrite Rabs_mult. apply Rmult_le_compat; auto; apply Rlt_le, P_pos. }
  apply (rnd_P_ge _ (-118)) in K2; [|lia]. rewrite <- EM in K2. lra.
Qed.
Lemma mse_grad_dir : forall p t, good p -> good t -> aligned p t -> all_finite p -> all_finite t ->
  exists y, mse_gradient p t = Ok y /\ good y /\ tdims y = tdims p /\ forall idx, in_range (tdims p) idx ->
    (f32_value (el (in_shape (tdims p) t) idx) <= f32_value (el p idx) -> f32_nonneg (el y idx)) /\ (f32_value (el p idx) <= f32_value (el (in_shape (tdims p) t) idx) -> f32_nonpos (el y idx)).
Proof.
  intros p t Gp Gt HA Fp Ft. rewrite mse_gradient_ok; [|auto..|apply eq_zero, prod_range; auto]. eexists. split; [reflexivity|]. split; [apply good_tensor_of; [apply good_pos; auto|apply good_max; auto]|]. split; [reflexivity|].
  intros idx HI. rewrite el_tensor_of by auto. rewrite !value_V. destruct (of_Z_ge1 _ (prod_range p Gp)) as (G & L). destruct (dif_parts p t idx Gp Gt HA Fp Ft HI) as (G1 & G2).
  assert (K : forall s, 0 <= sg s * (V (el p idx) - V (el (in_shape (tdims p) t) idx)) -> dir s (f32_div (fmul (fsub (el p idx) (el (in_shape (tdims p) t) idx)) (f32_of_Z 2)) (f32_of_Z (prod (tdims p))))).
  { intros s Q. apply div_dir; auto. apply mul_dir; [apply sub_dir; auto|split; [apply of_Z_vok|reflexivity]|rewrite V_two; lra]. }
  split; intros Q; [apply dir_nonneg, K|apply dir_nonpos, K]; unfold sg; lra.
Qed.

(** ** Cross-entropy *)
Definition epsF : f32 := S754_finite false 14073749 (-47).
Definition topF : f32 := S754_finite false 16777214 (-24).
Lemma eps_is : (cce_eps : f32) = epsF. Proof. vm_compute. reflexivity. Qed.
Lemma top_is : s_sub one (cce_eps : f32) = topF. Proof. vm_compute. reflexivity. Qed.
Lemma V_eps : 0 < V epsF <= 1.
Proof. change (V epsF) with (14073749 * P (-47)). pose proof (P_pos (-47)). change (P (-47)) with (/ 140737488355328) in *. lra. Qed.
Lemma V_top : V epsF <= V topF <= 1.
Proof. change (V epsF) with (14073749 * P (-47)). change (V topF) with (16777214 * P (-24)). change (P (-47)) with (/ 140737488355328). change (P (-24)) with (/ 16777216). lra. Qed.
Lemma clamp_in : forall v : f32, f32_valid v -> ~ f32_nan v -> within (V epsF) (V topF) (cce_clamp v).
Proof.
  intros v HV HN. unfold cce_clamp. rewrite top_is, eps_is. pose proof V_top as T. pose proof V_eps as E. assert (GE : good_f epsF) by (split; reflexivity). assert (GT : good_f topF) by (split; reflexivity).
  unfold s_min, s_max. cbn [s_lt SF F32Scalar].
  assert (W : forall w : f32, vok w -> (w = S754_infinity false \/ (fin w /\ V epsF <= V w)) -> within (V epsF) (V topF) (if SFltb topF w then topF else w)).
  { intros w Hw [->|(Fw & Lw)]; [split; [reflexivity|split; [reflexivity|]]; change (SFltb topF (S754_infinity false)) with true; cbv iota; lra|].
    rewrite ltb_V by (auto; reflexivity). destruct (Rlt_bool_spec (V topF) (V w)); [split; [reflexivity|split; [reflexivity|lra]]|split; [auto|split; [auto|lra]]]. }
  assert (Z : exists w, (if SFltb v epsF then epsF else v) = w /\ vok w /\ (w = S754_infinity false \/ (fin w /\ V epsF <= V w))).
  { destruct (fin_dec v) as [F|F].
    - rewrite ltb_V by (auto; reflexivity). destruct (Rlt_bool_spec (V v) (V epsF)); [exists epsF; split; [auto|split; [reflexivity|right; split; [reflexivity|lra]]]|exists v; auto].
    - destruct (nonfin v F) as [->|(s & ->)]; [exfalso; apply HN; reflexivity|]. destruct s; [exists epsF; split; [reflexivity|split; [reflexivity|right; split; [reflexivity|lra]]]|exists (S754_infinity false); split; [reflexivity|split; [reflexivity|left; reflexivity]]]. }
  destruct Z as (w & EW & Hw & Cw). 
  rewrite EW. apply W; auto.
Qed.
Lemma term_bnd : log_below_one (m_log lm) -> forall p t : f32, f32_valid p -> ~ f32_nan p -> f32_in 0 1 t -> bnd 7 (fmul t (m_log lm (cce_clamp p))) /\ V (fmul t (m_log lm (cce_clamp p))) <= 0.
Proof.
  intros HL p t Hp Np Ht. destruct (clamp_in p Hp Np) as (H1 & F1 & L1). pose proof V_eps as E. pose proof V_top as T. apply within_in in Ht.
  destruct (HL (cce_clamp p)) as (A & B & C); [exact H1|apply finite_fin; exact F1|rewrite value_V; lra|]. rewrite finite_fin in B. rewrite value_V in C. set (g := m_log lm (cce_clamp p)) in *.
  assert (BG : bnd 7 g) by (split; [split; auto|]; apply Rabs_le; change (P 7) with 128; lra).
  pose proof (mul_bnd t g 0 7 ltac:(lia) (bnd_unit _ Ht) BG) as BM. split; [exact BM|]. destruct Ht as (Ht1 & Ht2 & Ht3). destruct BM as [[_ FM] _]. destruct (mul_fin t g Ht1 A FM) as (_ & _ & EM). rewrite EM.
  assert (K : 0 <= sg true * rnd (V t * V g)) by (apply sg_rnd; unfold sg; assert (0 <= V t * - V g) by (apply Rmult_le_pos; lra); lra). unfold sg in K. lra.
Qed.
Lemma cce_fold : log_below_one (m_log lm) -> forall (p t : tensor f32) l a, (forall idx, In idx l -> f32_valid (el p idx) /\ ~ f32_nan (el p idx) /\ f32_in 0 1 (el t idx)) -> bnd 32 a /\ 0 <= V a ->
  let r := fold_left (fun acc idx => s_sub acc (s_mul (el t idx) (s_log (cce_clamp (el p idx))))) l a in bnd 32 r /\ 0 <= V r.
Proof.
  intros HL p t. induction l as [|i l IH]; intros a H (BA & PA); [cbn; auto|]. cbn [fold_left]. apply IH; [intros; apply H; right; auto|]. destruct (H i (or_introl eq_refl)) as (A & B & C).
  destruct (term_bnd HL _ _ A B C) as (BM & PM). set (m := fmul (el t i) (m_log lm (cce_clamp (el p i)))) in *. change (s_sub a (s_mul (el t i) (s_log (cce_clamp (el p i))))) with (fsub a m).
  pose proof (sat_sub a m 7 ltac:(lia) ltac:(lia) BA BM) as BS. split; [exact BS|]. destruct BA as [[Ha Fa] La], BM as [[Hm Fm] Lm], BS as [[Hs Fs] Ls]. destruct (sub_fin a m Ha Hm Fs) as (_ & _ & ES). rewrite ES. apply rnd_nonneg. lra.
Qed.
Lemma cce_value : log_below_one (m_log lm) -> forall (p t : tensor f32) b c, good p -> good t -> tdims p = [b; c] -> tdims t = [b; c] ->
  Forall (fun x => f32_valid x /\ ~ f32_nan x) (tdata p) -> Forall (f32_in 0 1) (tdata t) -> exists y, cce_compute p t = Ok y /\ good y /\ tdims y = [1%Z] /\ f32_in 0 (P 32) (el y [0%Z]).
Proof.
  intros HL p t b c Gp Gt Ep Et Fp Ft. rewrite (cce_compute_ok p t b c) by auto. eexists. split; [reflexivity|]. split; [apply good_tensor_of; [auto with idx|vm_compute; discriminate]|]. split; [reflexivity|]. rewrite el_tensor_of by (constructor; [lia|constructor]).
  assert (HB : (0 < b)%Z /\ (0 < c)%Z /\ (b * c <= INT_MAX)%Z). { pose proof (good_dims p Gp) as Q. pose proof (good_max p Gp) as M. rewrite Ep in Q, M. inversion Q as [|? ? Q1 Q2]; subst. inversion Q2; subst. cbn in M. split; [auto|]. split; [auto|]. lia. }
  destruct (of_Z_ge1 b ltac:(nia)) as (G & L).
  destruct (cce_fold HL p t (all_indices [b; c]) (f32_of_Z 0)) as (B1 & B2).
  { intros idx HI. apply In_all_indices in HI; [|repeat constructor; lia]. destruct (el_p _ p idx Gp Fp) as (A & B); [rewrite Ep; auto|]. split; [auto|]. split; [auto|]. apply (el_p _ t idx Gt Ft). rewrite Et. auto. }
  { split; [apply bnd_zero|]. change (0 <= 0). lra. }
  cbv zeta in B1, B2. pose proof (div_bnd _ (f32_of_Z b) 32 0 ltac:(lia) B1 G ltac:(rewrite P_0; exact L)) as B3. pose proof (div_pos _ (f32_of_Z b) 32 0 ltac:(lia) B1 G ltac:(rewrite P_0; exact L) B2) as B4.
  apply within_in. destruct B3 as [[H3 F3] L3]. split; [exact H3|]. split; [exact F3|]. split; [exact B4|]. rewrite Rabs_pos_eq in L3 by exact B4. exact L3.
Qed.
Lemma cce_grad : forall (p t : tensor f32) b c, good p -> good t -> tdims p = [b; c] -> tdims t = [b; c] ->
  Forall (fun x => f32_valid x /\ ~ f32_nan x) (tdata p) -> Forall (f32_in 0 1) (tdata t) -> exists y, cce_gradient p t = Ok y /\ good y /\ tdims y = [b; c] /\ forall idx, in_range [b; c] idx -> f32_in (-1) 1 (el y idx).
Proof.
  intros p t b c Gp Gt Ep Et Fp Ft.
  assert (HB : (0 < b)%Z /\ (0 < c)%Z /\ (b * c <= INT_MAX)%Z). { pose proof (good_dims p Gp) as Q. pose proof (good_max p Gp) as M. rewrite Ep in Q, M. inversion Q as [|? ? Q1 Q2]; subst. inversion Q2; subst. cbn in M. split; [auto|]. split; [auto|]. lia. }
  rewrite (cce_gradient_ok p t b c); [|auto..|apply eq_zero; nia]. eexists. split; [reflexivity|]. split; [apply good_tensor_of; [rewrite <- Ep; apply good_pos; auto|rewrite <- Ep; apply good_max; auto]|]. split; [reflexivity|].
  intros idx HI. rewrite el_tensor_of by auto. destruct (of_Z_ge1 b ltac:(nia)) as (G & L). destruct (el_p _ p idx Gp Fp) as (A & B); [rewrite Ep; auto|]. pose proof (el_p _ t idx Gt Ft) as C. rewrite Et in C. specialize (C HI). apply within_in in C.
  destruct (clamp_in _ A B) as (H1 & F1 & L1). pose proof V_eps as E. pose proof V_top as T. destruct C as (H2 & F2 & L2). destruct (sub_to _ _ 0 ltac:(lia) (conj H1 F1) (conj H2 F2)) as (GS & ES); [rewrite P_0; apply Rabs_le; lra|].
  assert (BS : bnd 0 (fsub (cce_clamp (el p idx)) (el t idx))) by (split; [exact GS|rewrite ES; apply rnd_P; [lia|rewrite P_0; apply Rabs_le; lra]]).
  pose proof (div_bnd _ (f32_of_Z b) 0 0 ltac:(lia) BS G ltac:(rewrite P_0; exact L)) as [[H3 F3] L3]. apply within_in. split; [exact H3|]. split; [exact F3|]. apply Rabs_le_inv in L3. exact L3.
Qed.
Lemma in_number : forall lo hi x, f32_in lo hi x -> f32_valid x /\ ~ f32_nan x.
Proof. intros lo hi x (A & B & _). split; [auto|]. intros ->. exact B. Qed.
Lemma data_all : forall (Q : f32 -> Prop) (t : tensor f32), good t -> (forall idx, in_range (tdims t) idx -> Q (el t idx)) -> Forall Q (tdata t).
Proof.
  intros Q t G H. rewrite data_all_indices by auto. apply Forall_forall. intros x HX. apply in_map_iff in HX. destruct HX as (idx & <- & HI). apply H. apply In_all_indices in HI; [auto|apply good_dims; auto].
Qed.
Lemma softmax_cce : libm_like lm -> log_below_one (m_log lm) -> forall (x t : tensor f32) b c, good x -> good t -> tdims x = [b; c] -> tdims t = [b; c] -> all_finite x -> Forall (f32_in 0 1) (tdata t) ->
  exists p y g, softmax_fwd x = Ok p /\ cce_compute p t = Ok y /\ f32_in 0 (P 32) (el y [0%Z]) /\ cce_gradient p t = Ok g /\ tdims g = [b; c] /\ forall idx, in_range [b; c] idx -> f32_in (-1) 1 (el g idx).
Proof.
  intros HM HL x t b c Gx Gt Ex Et Fx Ft. destruct (f32_softmax lm HM x b [c] Gx Fx Ex ltac:(discriminate)) as (p & E & Gp & Ep & R & _). rewrite Ex in Ep, R.
  assert (FP : Forall (fun x => f32_valid x /\ ~ f32_nan x) (tdata p)) by (apply data_all; [auto|]; rewrite Ep; intros idx HI; eapply in_number; apply R; auto).
  destruct (cce_value HL p t b c Gp Gt Ep Et FP Ft) as (y & E1 & _ & _ & V1). destruct (cce_grad p t b c Gp Gt Ep Et FP Ft) as (g & E2 & _ & D2 & V2). exists p, y, g. auto 10.
Qed.
End L.

(** The correctly rounded logarithm. *)
Lemma ln_mono : forall x y, 0 < x -> x <= y -> ln x <= ln y.
Proof. intros x y Hx [H|<-]; [left; apply ln_increasing; auto|right; reflexivity]. Qed.
Lemma cr_log_below : log_below_one cr_log.
Proof.
  intros x Hv Hf Hx. apply within_in. unfold cr_log. rewrite value_V in Hx. destruct x as [s|s| |s m e]; try (destruct Hf; fail); [cbn in Hx; lra|]. destruct s.
  - exfalso. assert (V (S754_finite true m e) < 0) by (unfold SF2R; apply F2R_lt_0; reflexivity). lra.
  - rewrite value_V. set (v := V (S754_finite false m e)) in *.
    assert (LO : -104 <= ln v).
    { assert (P (-149) <= v).
      { unfold v. change (V (S754_finite false m e)) with (IZR (Zpos m) * P e).
        assert (E : (-149 <= e)%Z). { unfold f32_valid in Hv. cbn in Hv. unfold bounded, canonical_mantissa in Hv. apply andb_prop in Hv. destruct Hv as (Hv & _). apply Zeq_bool_eq in Hv. unfold SpecFloat.fexp, SpecFloat.emin, f32_prec, f32_emax in Hv. lia. }
        apply Rle_trans with (1 * P e); [rewrite Rmult_1_l; apply P_le; auto|]. apply Rmult_le_compat_r; [apply Rlt_le, P_pos|]. apply IZR_le. lia. }
      apply Rle_trans with (ln (P (-149))); [|apply ln_mono; [apply P_pos|auto]]. change (P (-149)) with (/ IZR (Z.pow_pos 2 149)). rewrite ln_Rinv by (apply IZR_lt; reflexivity).
      assert (ln (IZR (Z.pow_pos 2 149)) = 149 * ln 2). { replace (IZR (Z.pow_pos 2 149)) with (2 ^ 149) by (rewrite (pow_IZR 2 149); reflexivity). rewrite ln_pow by lra. f_equal. simpl. lra. }
      assert (ln 2 <= 104 / 149); [|lra].
      { rewrite <- (ln_exp (104 / 149)). apply ln_mono; [lra|].
        assert (SQ : forall x a, 0 <= a -> a <= exp (x / 2) -> a * a <= exp x). { intros z a Ha Hz. replace z with (z / 2 + z / 2) by lra. rewrite exp_plus. apply Rmult_le_compat; auto. }
        assert (K0 : 1.010906 <= exp (104 / 149 / 2 / 2 / 2 / 2 / 2 / 2)) by (eapply Rle_trans; [|apply exp_ineq1_le]; lra).
        apply SQ in K0; [|lra]. assert (K1 : 1.02193 <= exp (104 / 149 / 2 / 2 / 2 / 2 / 2)) by lra. apply SQ in K1; [|lra]. assert (K2 : 1.04434 <= exp (104 / 149 / 2 / 2 / 2 / 2)) by lra.
        apply SQ in K2; [|lra]. assert (K3 : 1.09064 <= exp (104 / 149 / 2 / 2 / 2)) by lra. apply SQ in K3; [|lra]. assert (K4 : 1.18949 <= exp (104 / 149 / 2 / 2)) by lra.
        apply SQ in K4; [|lra]. assert (K5 : 1.41488 <= exp (104 / 149 / 2)) by lra. apply SQ in K5; [|lra]. lra. } }
    assert (HI : ln v <= 0) by (rewrite <- ln_1; apply ln_mono; lra).
    destruct (near32_in (ln v)) as (F & E). { eapply (fin_by _ 7); [lia|]. apply Rabs_le. change (P 7) with 128. lra. }
    split; [apply near32_vok|]. split; [exact F|]. rewrite E. split.
    + assert (E4 : V (f32_of_Z (-104)) = -104) by (vm_compute; lra). rewrite <- E4. apply rnd_down; [apply of_Z_vok|lra].
    + rewrite <- rnd_0. apply rnd_le. exact HI.
Qed.
