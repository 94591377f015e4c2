(** * Optimizers over the reals *)
From Coq Require Import Reals Lra Psatz.
From Verif Require Import Base Scalar ScalarR Types Spec M_Shape M_Tensor M_Layers M_Opt SpecR SpecOpt L_Index L_Shape L_Tensor L_Nest L_Glue L_Matmul L_RSum L_Opt L_Opt2.
Local Open Scope R_scope.

Lemma Reqb_true : forall a b, Reqb a b = true <-> a = b.
Proof. intros a b. unfold Reqb. destruct (Req_EM_T a b); split; congruence. Qed.
Lemma Reqb_false : forall a b, Reqb a b = false <-> a <> b.
Proof. intros a b. unfold Reqb. destruct (Req_EM_T a b); split; congruence. Qed.
Lemma Rltb_true : forall a b, Rltb a b = true <-> a < b.
Proof. intros a b. unfold Rltb. destruct (Rlt_dec a b); split; intros; auto; try discriminate; contradiction. Qed.
Lemma Rltb_false : forall a b, Rltb a b = false <-> b <= a.
Proof. intros a b. unfold Rltb. destruct (Rlt_dec a b); split; intros; auto; try discriminate; lra. Qed.

(** ** SGD *)
Lemma sgd_fold_velocity : forall mom damp nest (lr : R) (f : R * tensor R -> R) l w v, mom <> 0 ->
  snd (fold_left (fun p e => sgd_rule mom damp 0 nest (rate lr (fst e)) (f e) p) l (w, v)) = mom ^ length l * v + (1 - damp) * weighted mom (map f l).
Proof.
  intros mom damp nest lr f l. induction l as [|e l IH]; intros w v HM; cbn [fold_left length pow map weighted snd]; [ring|].
  unfold sgd_rule at 2. cbn [s_eq s_add s_mul s_sub s_z RScalar]. rewrite (proj2 (Reqb_true 0 0)) by auto. rewrite (proj2 (Reqb_false mom 0)) by auto.
  rewrite IH by auto. rewrite map_length. ring.
Qed.
Lemma sgd_fold_plain : forall damp nest (lr : R) (f : R * tensor R -> R) l w v,
  fst (fold_left (fun p e => sgd_rule 0 damp 0 nest (rate lr (fst e)) (f e) p) l (w, v)) = w - rsum l (fun e => rate lr (fst e) * f e).
Proof.
  intros damp nest lr f l. induction l as [|e l IH]; intros w v; [unfold rsum; cbn; ring|]. cbn [fold_left].
  unfold sgd_rule at 2. cbn [s_eq s_add s_mul s_sub s_z RScalar]. rewrite (proj2 (Reqb_true 0 0)) by auto.
  rewrite IH. unfold rsum. cbn. ring.
Qed.
Lemma sgd_velocity : forall D cs lr mom damp nest (o' : sgd R) st st' k idx, mom <> 0 -> store_ok D st -> calls_ok D cs -> in_range (D k) idx ->
  opt_run sgd_optimize cs (sgd_new lr mom damp 0 nest) st = (o', st', Ok tt) ->
  buf_el (sg_buf o') k idx = (1 - damp) * weighted mom (map (fun e => el (snd e) idx) (updates k cs)).
Proof.
  intros D cs lr mom damp nest o' st st' k idx HM HS HC HI E.
  destruct (sgd_history D cs (sgd_new lr mom damp 0 nest) st ltac:(intros ? ?; discriminate) HS HC) as (p & q & F & _ & _ & _ & V). rewrite E in F. injection F as <- <-.
  specialize (V k idx HI). apply (f_equal snd) in V. cbn [snd sgd_new sg_mom sg_damp sg_wd sg_nest sg_lr sg_buf] in V.
  rewrite V. rewrite (sgd_fold_velocity mom damp nest lr (fun e => el (snd e) idx)) by auto. unfold buf_el. cbn. ring.
Qed.
Lemma sgd_plain : forall D cs lr damp nest (o' : sgd R) st st' k idx, store_ok D st -> calls_ok D cs -> in_range (D k) idx ->
  opt_run sgd_optimize cs (sgd_new lr 0 damp 0 nest) st = (o', st', Ok tt) ->
  el (st' k) idx = el (st k) idx - rsum (updates k cs) (fun e => rate lr (fst e) * el (snd e) idx).
Proof.
  intros D cs lr damp nest o' st st' k idx HS HC HI E.
  destruct (sgd_history D cs (sgd_new lr 0 damp 0 nest) st ltac:(intros ? ?; discriminate) HS HC) as (p & q & F & _ & _ & _ & V). rewrite E in F. injection F as <- <-.
  specialize (V k idx HI). apply (f_equal fst) in V. cbn [fst sgd_new sg_mom sg_damp sg_wd sg_nest sg_lr sg_buf] in V.
  rewrite V. exact (sgd_fold_plain damp nest lr (fun e => el (snd e) idx) _ _ _).
Qed.

(** ** RMSProp *)
Definition rms_safe (cent : bool) (p : R * R * R * R) : Prop := let '(_, s, m, _) := p in 0 <= s /\ (cent = true -> m * m <= s).
Lemma rms_rule_safe : forall alpha eps mom cent wd lr g p, 0 <= alpha <= 1 -> rms_safe cent p -> rms_safe cent (rms_rule alpha eps mom cent wd lr g p).
Proof.
  intros alpha eps mom cent wd lr g (((w & s) & m) & v) HA (H1 & H2). unfold rms_rule. cbn [s_eq s_lt s_add s_mul s_sub s_z RScalar].
  set (g1 := if Reqb wd 0 then g else g + wd * w). split.
  - apply Rplus_le_le_0_compat; [apply Rmult_le_pos; lra|]. rewrite Rmult_assoc. apply Rmult_le_pos; [lra|apply Rle_0_sqr].
  - intros ->. specialize (H2 eq_refl). cbv iota.
    assert (E : alpha * s + (1 - alpha) * g1 * g1 - (alpha * m + (1 - alpha) * g1) * (alpha * m + (1 - alpha) * g1) = alpha * (s - m * m) + (alpha * (1 - alpha)) * ((m - g1) * (m - g1))) by ring.
    assert (0 <= alpha * (s - m * m)) by (apply Rmult_le_pos; lra).
    assert (0 <= (alpha * (1 - alpha)) * ((m - g1) * (m - g1))) by (apply Rmult_le_pos; [apply Rmult_le_pos; lra|apply Rle_0_sqr]). lra.
Qed.
Lemma rms_fold_safe : forall alpha eps mom cent wd lr (f : R * tensor R -> R) l p, 0 <= alpha <= 1 -> rms_safe cent p ->
  rms_safe cent (fold_left (fun p e => rms_rule alpha eps mom cent wd (rate lr (fst e)) (f e) p) l p).
Proof. intros alpha eps mom cent wd lr f l. induction l as [|e l IH]; intros p HA HP; [auto|]. cbn [fold_left]. apply IH; auto. apply rms_rule_safe; auto. Qed.
Lemma rms_defined : forall D cs lr alpha eps mom cent wd (o' : rms R) st st' k idx, 0 <= alpha <= 1 -> 0 < eps -> store_ok D st -> calls_ok D cs -> in_range (D k) idx ->
  opt_run rms_optimize cs (rms_new lr alpha eps mom cent wd) st = (o', st', Ok tt) ->
  0 <= buf_el (rp_sq o') k idx /\ 0 < sqrt (buf_el (rp_sq o') k idx + eps) /\
  (cent = true -> 0 <= buf_el (rp_sq o') k idx - buf_el (rp_mean o') k idx * buf_el (rp_mean o') k idx /\
                  0 < sqrt (buf_el (rp_sq o') k idx - buf_el (rp_mean o') k idx * buf_el (rp_mean o') k idx + eps)).
Proof.
  intros D cs lr alpha eps mom cent wd o' st st' k idx HA HE HS HC HI E.
  destruct (rms_history_spec D cs (rms_new lr alpha eps mom cent wd) st ltac:(split; [|split]; intros ? ?; discriminate) HS HC) as (p & q & F & _ & _ & _ & V). rewrite E in F. injection F as <- <-.
  specialize (V k idx HI). cbn [rms_new rp_lr rp_alpha rp_eps rp_mom rp_cent rp_wd rp_sq rp_mean rp_vel] in V.
  assert (H : rms_safe cent (el (st' k) idx, buf_el (rp_sq o') k idx, buf_el (rp_mean o') k idx, buf_el (rp_vel o') k idx)).
  { rewrite V. apply (rms_fold_safe alpha eps mom cent wd lr (fun e => el (snd e) idx)); auto. unfold buf_el, rms_safe. cbn. split; [lra|intros; lra]. }
  destruct H as (H1 & H2). split; [auto|]. split; [apply sqrt_lt_R0; lra|]. intros HC'. specialize (H2 HC'). split; [lra|apply sqrt_lt_R0; lra].
Qed.

(** ** Adam *)
Lemma adam_fold_m : forall b1 b2 eps l1 l2 scale (lr : Z * R * tensor R -> R) (f : Z * R * tensor R -> R) l (w m v : R),
  snd (fst (fold_left (fun p e => adam_rule b1 b2 eps l1 l2 scale (fst (fst e)) (lr e) (f e) p) l (w, m, v))) = fold_left (adam_m b1) (map f l) m /\
  snd (fold_left (fun p e => adam_rule b1 b2 eps l1 l2 scale (fst (fst e)) (lr e) (f e) p) l (w, m, v)) = fold_left (adam_v b2) (map f l) v.
Proof. intros b1 b2 eps l1 l2 scale lr f l. induction l as [|e l IH]; intros w m v; [auto|]. cbn [fold_left map]. unfold adam_rule at 2 4. apply IH. Qed.
Lemma adam_m_closed : forall b1 l m, fold_left (adam_m b1) l m = b1 ^ length l * m + (1 - b1) * weighted b1 l.
Proof. intros b1 l. induction l as [|x l IH]; intros m; cbn [fold_left weighted length pow]; [ring|]. rewrite IH. unfold adam_m. cbn [s_add s_mul s_sub s_z RScalar]. ring. Qed.
Lemma adam_v_closed : forall b2 l v, fold_left (adam_v b2) l v = b2 ^ length l * v + (1 - b2) * weighted b2 (map (fun a => a * a) l).
Proof. intros b2 l. induction l as [|x l IH]; intros v; cbn [fold_left weighted length pow map]; [ring|]. rewrite IH, map_length. unfold adam_v. cbn [s_add s_mul s_sub s_z RScalar]. ring. Qed.
Lemma weighted_nonneg : forall b l, 0 <= b -> (forall x, In x l -> 0 <= x) -> 0 <= weighted b l.
Proof.
  intros b l Hb. induction l as [|x l IH]; intros H; cbn [weighted]; [lra|]. apply Rplus_le_le_0_compat; [apply Rmult_le_pos; [apply pow_le; auto|apply H; left; auto]|].
  apply IH. intros y Hy. apply H. right. auto.
Qed.
Lemma adam_moments : forall D cs lr b1 b2 eps l1 l2 decay batch (o' : adam R) st st' k idx, store_ok D st -> (Zlen cs <= INT_MAX)%Z -> calls_ok D cs -> in_range (D k) idx ->
  opt_run adam_optimize cs (adam_new lr b1 b2 eps l1 l2 decay batch) st = (o', st', Ok tt) ->
  let a := map (fun e => el (snd e) idx / IZR batch) (updates k cs) in
  buf_el (ad_m o') k idx = (1 - b1) * weighted b1 a /\
  buf_el (ad_v o') k idx = (1 - b2) * weighted b2 (map (fun x => x * x) a) /\
  (0 <= b2 <= 1 -> 0 <= buf_el (ad_v o') k idx).
Proof.
  intros D cs lr b1 b2 eps l1 l2 decay batch o' st st' k idx HS HL HC HI E a.
  destruct (adam_history_spec D cs (adam_new lr b1 b2 eps l1 l2 decay batch) st ltac:(split; intros ? ?; discriminate) HS (Z.le_refl _) ltac:(cbn [adam_new ad_it]; lia) HC) as (p & q & F & _ & _ & _ & V). rewrite E in F. injection F as <- <-.
  specialize (V k idx HI). cbn [adam_new ad_init ad_lr ad_b1 ad_b2 ad_eps ad_l1 ad_l2 ad_decay ad_it ad_batch ad_m ad_v] in V.
  match type of V with _ = fold_left _ ?l (?w, ?m, ?v) =>
    pose proof (adam_fold_m b1 b2 eps l1 l2 (adam_scaled b1 b2) (fun e => adam_lr lr decay (fst (fst e)) (snd (fst e))) (fun e => el (snd e) idx / IZR batch) l w m v) as (H1 & H2) end.
  cbn [s_div s_z RScalar] in V. rewrite <- V in H1, H2. cbn [fst snd] in H1, H2. unfold buf_el in H1 at 2. unfold buf_el in H2 at 2.
  assert (EA : forall n, map (fun e => el (snd e) idx / IZR batch) (numbered n k cs) = a).
  { unfold a. clear. intros n. revert n. induction cs as [|c cs IH]; intros n; [reflexivity|]. cbn [numbered]. unfold updates. cbn [flat_map]. fold (updates k cs).
    rewrite !map_app, IH, !map_map. reflexivity. }
  rewrite EA in H1, H2. rewrite adam_m_closed in H1. rewrite adam_v_closed in H2. cbn [s_z RScalar] in H1, H2.
  split; [rewrite H1; ring|]. split; [rewrite H2; ring|]. intros HB. rewrite H2. rewrite Rmult_0_r, Rplus_0_l. apply Rmult_le_pos; [lra|]. apply weighted_nonneg; [lra|].
  intros x Hx. apply in_map_iff in Hx. destruct Hx as (y & <- & _). apply Rle_0_sqr.
Qed.
(** Without penalties the step is the textbook one times sqrt(1 - b2^n) / (1 - b1^n). *)
Lemma adam_ratio : forall b1 b2 eps (n : Z) lr a (w m v : R), tiny <= powerRZ b1 n -> tiny <= powerRZ b2 n ->
  fst (fst (adam_rule b1 b2 eps 0 0 (adam_scaled b1 b2) n lr a (w, m, v))) =
  w - sqrt (1 - powerRZ b2 n) / (1 - powerRZ b1 n) * (w - fst (fst (adam_rule b1 b2 eps 0 0 (fun _ r => r) n lr a (w, m, v)))).
Proof.
  intros b1 b2 eps n lr a w m v H1 H2. unfold adam_rule, adam_scaled, s_max. cbn [s_add s_sub s_mul s_div s_z s_lt s_sqrt s_powi s_corr RScalar fst snd].
  rewrite (proj2 (Rltb_false 0 0)) by lra. rewrite (proj2 (Rltb_false (powerRZ b1 n) tiny)), (proj2 (Rltb_false (powerRZ b2 n) tiny)) by auto. unfold Rdiv. ring.
Qed.
Lemma tiny_small : tiny < 1 / 100.
Proof. unfold tiny. cbn [s_lit RScalar]. lra. Qed.

(** ** Adam on one parameter: b1 = 1/2, b2 = 15/16, no epsilon, learning rate 1, gradient 1 *)
Definition cR (v : R) : tensor R := tensor_of [1%Z] (fun _ => v).
Lemma cR_good : forall v, good (cR v) /\ tdims (cR v) = [1%Z].
Proof. intros. split; [|reflexivity]. apply good_tensor_of; [split; [discriminate|repeat constructor; lia]|]. vm_compute. discriminate. Qed.
Definition D1 (_ : Z) : list Z := [1%Z].
Definition stR (_ : Z) : tensor R := cR 0.
Definition adamR : adam R := adam_new 1 (1/2) (15/16) 0 0 0 0 1.
Definition alone : list (call R) := [(-1, [(1%Z, cR 1)])].
Definition shared : list (call R) := [(-1, [(0%Z, cR 1)]); (-1, [(1%Z, cR 1)])].
Lemma stR_ok : store_ok D1 stR. Proof. intros k. apply cR_good. Qed.
Lemma alone_ok : calls_ok D1 alone. Proof. repeat constructor; apply cR_good. Qed.
Lemma shared_ok : calls_ok D1 shared. Proof. repeat constructor; apply cR_good. Qed.
Lemma adamR_ok : adam_ok D1 adamR. Proof. split; intros ? ?; discriminate. Qed.
Lemma el_cR : forall v, el (cR v) [0%Z] = v. Proof. reflexivity. Qed.
Lemma rate_R : forall n, adam_lr 1 0 n (-1) = 1.
Proof. intros. unfold adam_lr. cbn [s_le s_lt s_mul s_z RScalar]. unfold Rleb. destruct (Rle_dec (-1) 0); [|lra]. rewrite (proj2 (Rltb_false 0 0)) by lra. ring. Qed.
Lemma sqrt_16 : sqrt (1 / 16) = 1 / 4. Proof. apply sqrt_lem_1; lra. Qed.
Lemma adam_step_R : forall n scale, adam_rule (1/2) (15/16) 0 0 0 scale n 1 1 (0, 0, 0) =
  (0 - scale n 1 * (1 / 2 / (1 - powerRZ (1/2) n)) / sqrt (1 / 16 / (1 - powerRZ (15/16) n)), 1 / 2, 1 / 16).
Proof.
  intros. unfold adam_rule, adam_m, adam_v. cbn [s_add s_sub s_mul s_div s_z s_lt s_sqrt s_powi s_corr RScalar]. rewrite (proj2 (Rltb_false 0 0)) by lra.
  replace (1 / 2 * 0 + (1 - 1 / 2) * 1) with (1 / 2) by lra. replace (15 / 16 * 0 + (1 - 15 / 16) * 1 * 1) with (1 / 16) by lra. rewrite Rplus_0_r. reflexivity.
Qed.
Lemma pow_1 : forall b, powerRZ b 1 = b. Proof. intros. unfold powerRZ. change (Pos.to_nat 1) with 1%nat. ring. Qed.
Lemma pow_2 : forall b, powerRZ b 2 = b * b. Proof. intros. unfold powerRZ. change (Pos.to_nat 2) with 2%nat. ring. Qed.
Lemma scaled_R : forall n, 1 / 100 <= powerRZ (1/2) n -> 1 / 100 <= powerRZ (15/16) n ->
  adam_scaled (1/2) (15/16) n 1 = sqrt (1 - powerRZ (15/16) n) / (1 - powerRZ (1/2) n).
Proof.
  intros n H1 H2. pose proof tiny_small. unfold adam_scaled, s_max. cbn [s_sub s_mul s_div s_z s_lt s_sqrt s_powi s_corr RScalar].
  rewrite (proj2 (Rltb_false (powerRZ (1/2) n) tiny)), (proj2 (Rltb_false (powerRZ (15/16) n) tiny)) by lra. rewrite Rmult_1_l. reflexivity.
Qed.
Lemma alone_run : exists o' st', opt_run adam_optimize alone adamR stR = (o', st', Ok tt) /\ el (st' 1%Z) [0%Z] = - (1 / 2).
Proof.
  destruct (adam_history_spec D1 alone adamR stR adamR_ok stR_ok (Z.le_refl _) ltac:(vm_compute; discriminate) alone_ok) as (o' & st' & E & _ & _ & _ & V).
  exists o', st'. split; [exact E|]. specialize (V 1%Z [0%Z] ltac:(apply in_range1; lia)). apply (f_equal (fun p => fst (fst p))) in V. cbn [fst] in V. rewrite V.
  change (numbered (ad_it adamR + 1) 1 alone) with [(1%Z, -1, cR 1)]. cbn [fold_left fst snd adamR adam_new ad_init ad_lr ad_b1 ad_b2 ad_eps ad_l1 ad_l2 ad_decay ad_it ad_batch ad_m ad_v stR].
  rewrite rate_R, !el_cR. unfold buf_el. cbn [s_div s_z RScalar]. replace (1 / 1) with 1 by lra. rewrite adam_step_R. cbn [fst].
  rewrite scaled_R by (rewrite pow_1; lra). rewrite !pow_1. replace (1 - 15 / 16) with (1 / 16) by lra. replace (1 / 16 / (1 / 16)) with 1 by lra. rewrite sqrt_16, sqrt_1. lra.
Qed.
Lemma shared_run : exists o' st', opt_run adam_optimize shared adamR stR = (o', st', Ok tt) /\ el (st' 1%Z) [0%Z] = - (31 / 72).
Proof.
  destruct (adam_history_spec D1 shared adamR stR adamR_ok stR_ok (Z.le_refl _) ltac:(vm_compute; discriminate) shared_ok) as (o' & st' & E & _ & _ & _ & V).
  exists o', st'. split; [exact E|]. specialize (V 1%Z [0%Z] ltac:(apply in_range1; lia)). apply (f_equal (fun p => fst (fst p))) in V. cbn [fst] in V. rewrite V.
  change (numbered (ad_it adamR + 1) 1 shared) with [(2%Z, -1, cR 1)]. cbn [fold_left fst snd adamR adam_new ad_init ad_lr ad_b1 ad_b2 ad_eps ad_l1 ad_l2 ad_decay ad_it ad_batch ad_m ad_v stR].
  rewrite rate_R, !el_cR. unfold buf_el. cbn [s_div s_z RScalar]. replace (1 / 1) with 1 by lra. rewrite adam_step_R. cbn [fst].
  rewrite scaled_R by (rewrite pow_2; lra). rewrite !pow_2. set (q := 1 - 15 / 16 * (15 / 16)). assert (Q : q = 31 / 256) by (unfold q; lra).
  assert (P : 0 < sqrt q) by (apply sqrt_lt_R0; lra). assert (PQ : sqrt q * sqrt q = 31 / 256) by (rewrite sqrt_sqrt; lra).
  rewrite sqrt_div_alt by lra. rewrite sqrt_16.
  replace (0 - sqrt q / (1 - 1 / 2 * (1 / 2)) * (1 / 2 / (1 - 1 / 2 * (1 / 2))) / (1 / 4 / sqrt q)) with (- (sqrt q * sqrt q * (32 / 9))) by (field; lra). rewrite PQ. lra.
Qed.
Lemma textbook_alone : fst (fst (adam_textbook 1 (1/2) (15/16) 0 0 0 0 1 1 alone [0%Z] 0)) = - (1).
Proof.
  unfold adam_textbook. change (counted (numbered 1 1 alone)) with [(1%Z, (1%Z, -1, cR 1))]. cbn [fold_left]. rewrite rate_R, el_cR. cbn [s_div s_z RScalar]. replace (1 / 1) with 1 by lra.
  rewrite adam_step_R. cbn [fst]. rewrite !pow_1. replace (1 / 16 / (1 - 15 / 16)) with 1 by lra. rewrite sqrt_1. lra.
Qed.
Lemma textbook_shared : fst (fst (adam_textbook 1 (1/2) (15/16) 0 0 0 0 1 1 shared [0%Z] 0)) = - (1).
Proof.
  unfold adam_textbook. change (counted (numbered 1 1 shared)) with [(1%Z, (2%Z, -1, cR 1))]. cbn [fold_left]. rewrite rate_R, el_cR. cbn [s_div s_z RScalar]. replace (1 / 1) with 1 by lra.
  rewrite adam_step_R. cbn [fst]. rewrite !pow_1. replace (1 / 16 / (1 - 15 / 16)) with 1 by lra. rewrite sqrt_1. lra.
Qed.
