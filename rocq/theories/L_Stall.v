(** * Steps of gradient descent that float32 loses, and steps it does not (C112) *)
From Coq Require Import Reals Lra SpecFloat.
From Flocq Require Import Core BinarySingleNaN.
From Verif Require Import Base Scalar Types Spec SpecNN SpecR SpecF32 SpecOpt M_Shape M_Tensor M_Adv M_Act M_Opt L_Index L_Tensor L_RSum L_Float L_FloatAct L_FloatLib L_FloatT L_FloatB L_Opt L_Opt2 L_OptB L_FloatOpt.
Local Open Scope R_scope.
#[local] Existing Instance Hp32.
#[local] Existing Instance Hm32.
Local Notation V := (SF2R radix2).
Local Notation fsub := (SFsub f32_prec f32_emax).
Local Notation fmul := (SFmul f32_prec f32_emax).
Local Notation P e := (bpow radix2 e).
Local Notation fx := (SpecFloat.fexp f32_prec f32_emax).
Local Notation F := (generic_format radix2 fx).
Local Notation u := ulp_half.
Lemma P24 : P (-24) = u.
Proof. unfold ulp_half. rewrite bpow_powerRZ. change (IZR radix2) with 2. cbn [powerRZ]. f_equal. Qed.
Lemma P150 : P (-150) = tiny_half.
Proof. rewrite <- half_tiny. change (3 - f32_emax - f32_prec)%Z with (1 + -150)%Z. rewrite bpow_plus. change (P 1) with 2. lra. Qed.
Lemma ulp_gt : forall x, Rabs x * u < ulp radix2 fx x.
Proof. intros x. pose proof (ulp_FLT_gt radix2 (3 - f32_emax - f32_prec) f32_prec x) as H. change (- f32_prec)%Z with (-24)%Z in H. rewrite P24 in H. exact H. Qed.
Lemma keep_pos : forall w d, F w -> 0 < w -> Rabs d <= w * (u / 4) -> rnd (w - d) = w.
Proof.
  intros w d HF HW HD. apply Rabs_le_inv in HD. pose proof ulp_pos as HU. assert (HM : 0 < w * u) by (apply Rmult_lt_0_compat; lra). apply Rle_antisym.
  - apply round_N_le_midp; [typeclasses eauto|auto|]. rewrite succ_eq_pos by lra. pose proof (ulp_gt w) as G. rewrite Rabs_pos_eq in G by lra. lra.
  - apply round_N_ge_midp; [typeclasses eauto|auto|]. pose proof (pred_plus_ulp radix2 fx w HW HF) as E. pose proof (ulp_gt (pred radix2 fx w)) as G.
    rewrite Rabs_pos_eq in G by (apply pred_ge_0; auto; typeclasses eauto). set (p := pred radix2 fx w) in *. set (q := ulp radix2 fx p) in *. assert (p = w - q) by lra. assert (w * u < q * (1 + u)) by nra.
    assert (w * u < 2 * q); [|lra]. assert (0 < q) by nra. nra.
Qed.
Lemma keep : forall w d, F w -> Rabs d <= Rabs w * (u / 4) -> rnd (w - d) = w.
Proof.
  intros w d HF HD. destruct (Rtotal_order w 0) as [L|[->|L]].
  - rewrite (Rabs_left w) in HD by auto. assert (K : rnd (- w - - d) = - w) by (apply keep_pos; [apply generic_format_opp; auto|lra|rewrite Rabs_Ropp; auto]).
    replace (- w - - d) with (- (w - d)) in K by ring. rewrite rnd_opp in K. lra.
  - rewrite Rabs_R0, Rmult_0_l in HD. assert (d = 0) by (apply Rabs_le_inv in HD; lra). subst d. rewrite Rminus_0_r. apply round_0. typeclasses eauto.
  - rewrite (Rabs_pos_eq w) in HD by lra. apply keep_pos; auto.
Qed.
Lemma move_down : forall w d, F w -> Rabs w * (2 * u) <= d -> P (-121) <= d -> rnd (w - d) < w.
Proof.
  intros w d HF HD HT. pose proof (P_pos (-126)) as Hp. destruct (Rle_or_lt (P (-126)) (Rabs w)) as [L|L].
  - assert (Hw : w <> 0) by (intros ->; rewrite Rabs_R0 in L; lra). apply Rle_lt_trans with (pred radix2 fx w); [|apply pred_lt_id; auto].
    pose proof (ulp_FLT_le radix2 (3 - f32_emax - f32_prec) f32_prec w L) as UL. change (P (1 - f32_prec)) with (P (-23)) in UL. replace (P (-23)) with (2 * u) in UL by (rewrite <- P24, <- P_succ; reflexivity).
    change (ulp radix2 (FLT_exp (3 - f32_emax - f32_prec) f32_prec) w) with (ulp radix2 fx w) in UL.
    apply round_le_generic; [typeclasses eauto|typeclasses eauto|apply generic_format_pred; auto; typeclasses eauto|].
    destruct (Rtotal_order w 0) as [N|[N|N]]; [|congruence|].
    + unfold pred. rewrite succ_eq_pos by lra. rewrite ulp_opp. lra.
    + pose proof (pred_plus_ulp radix2 fx w N HF) as E. assert (ulp radix2 fx (pred radix2 fx w) <= ulp radix2 fx w).
      { apply ulp_le_pos; [typeclasses eauto|typeclasses eauto|apply pred_ge_0; auto; typeclasses eauto|apply Rlt_le, pred_lt_id; auto]. } lra.
  - apply Rabs_def2 in L. assert (P (-121) = 32 * P (-126)). { change (-121)%Z with (5 + -126)%Z. rewrite bpow_plus. change (P 5) with 32. reflexivity. }
    assert (E2 : P (-126) * 2 = P (-125)) by (change (-125)%Z with (1 + -126)%Z; rewrite bpow_plus; change (P 1) with 2; ring).
    assert (- P (-125) <= - rnd (w - d) -> False \/ True) by auto. assert (K : P (-125) <= rnd (- (w - d))) by (apply rnd_P_ge; [lia|lra]). rewrite rnd_opp in K. lra.
Qed.

Section O.
Context (lm : libm).
Let SF : Scalar f32 := F32Scalar lm.
Local Existing Instance SF.
(** One entry. *)
Lemma step_lost : forall w lr g, good_f w -> good_f lr -> good_f g -> Rabs (V w) <= P 127 -> P (-100) <= Rabs (V w) -> Rabs (V lr * V g) <= Rabs (V w) * (u / 8) ->
  good_f (fsub w (fmul lr g)) /\ V (fsub w (fmul lr g)) = V w.
Proof.
  intros w lr g Gw Gl Gg W1 W2 HX. pose proof ulp_pos as HU. assert (PU : P 127 * (u / 8) = P 100). { rewrite <- P24. replace (P (-24) / 8) with (P (-27)) by (change (P (-27)) with (P (-24 + -3)); rewrite bpow_plus; change (P (-3)) with (/ 8); lra). rewrite <- bpow_plus. reflexivity. }
  destruct (mul_to lr g 100 ltac:(lia) Gl Gg) as [Gm Em]; [rewrite <- PU; eapply Rle_trans; [exact HX|]; apply Rmult_le_compat_r; lra|].
  assert (HT : tiny_half <= P (-100) * (u / 16)). { rewrite <- P150. change (-150)%Z with (-100 + (-22 + -28))%Z. rewrite bpow_plus. apply Rmult_le_compat_l; [apply Rlt_le, P_pos|].
    rewrite bpow_plus. replace (P (-28)) with (u / 16) by (rewrite <- P24; change (-28)%Z with (-24 + -4)%Z; rewrite bpow_plus; change (P (-4)) with (/ 16); lra). assert (P (-22) <= 1) by (change 1 with (P 0); apply P_le; lia). assert (0 <= u / 16) by lra. nra. }
  assert (HD : Rabs (V (fmul lr g)) <= Rabs (V w) * (u / 4)).
  { rewrite Em. pose proof (rnd_err (V lr * V g)) as RE. set (x := V lr * V g) in *. replace (rnd x) with ((rnd x - x) + x) by ring. eapply Rle_trans; [apply Rabs_triang|].
    assert (u * Rabs x <= / 4 * Rabs x). { apply Rmult_le_compat_r; [apply Rabs_pos|]. unfold ulp_half. simpl pow. lra. } assert (P (-100) * (u / 16) <= Rabs (V w) * (u / 16)) by (apply Rmult_le_compat_r; lra).
    assert (0 <= Rabs (V w) * u) by (apply Rmult_le_pos; [apply Rabs_pos|lra]). lra. }
  assert (EK : rnd (V w - V (fmul lr g)) = V w) by (apply keep; [apply V_format, Gw|exact HD]).
  destruct Gw as [Hw Fw], Gm as [Hm Fm]. destruct (sub_in w (fmul lr g) Hw Hm Fw Fm) as [Fs Es]; [rewrite EK; eapply Rle_lt_trans; [exact W1|apply P_big; lia]|].
  split; [split; [apply sub_vok; auto|auto]|]. rewrite Es. exact EK.
Qed.
Lemma step_taken : forall w lr g, good_f w -> good_f lr -> good_f g -> Rabs (V w) <= P 126 -> P (-120) <= Rabs (V lr * V g) <= P 125 -> Rabs (V w) * (4 * u) <= Rabs (V lr * V g) ->
  good_f (fsub w (fmul lr g)) /\ (0 < V lr * V g -> V (fsub w (fmul lr g)) < V w) /\ (V lr * V g < 0 -> V w < V (fsub w (fmul lr g))).
Proof.
  intros w lr g Gw Gl Gg W1 [X1 X2] HX. pose proof ulp_pos as HU.
  destruct (mul_to lr g 125 ltac:(lia) Gl Gg X2) as [Gm Em]. assert (B : Rabs (rnd (V lr * V g)) <= P 125) by (apply rnd_P; [lia|auto]).
  assert (P126 : P 126 = 2 * P 125) by (apply (P_succ 125)). assert (P127 : P 127 = 2 * P 126) by (apply (P_succ 126)).
  destruct (sub_to w (fmul lr g) 127 ltac:(lia) Gw Gm) as [Gs Es].
  { rewrite Em. eapply Rle_trans; [apply Rabs_triang|]. rewrite Rabs_Ropp. pose proof (P_pos 125). lra. }
  split; [auto|]. rewrite Es, Em. pose proof (V_format w (proj1 Gw)) as FW. set (x := V lr * V g) in *.
  assert (HP : P (-120) = 2 * P (-121)) by (apply (P_succ (-121))). pose proof (P_pos (-121)) as Hp.
  assert (HT : tiny_half <= P (-120) / 4). { rewrite <- P150. replace (P (-120) / 4) with (P (-122)) by (change (-120)%Z with (-122 + 2)%Z; rewrite bpow_plus; change (P 2) with 4; field). apply P_le. lia. }
  pose proof (rnd_err x) as RE. apply Rabs_le_inv in RE. assert (U4 : u <= / 4) by (unfold ulp_half; simpl pow; lra). assert (UX : u * Rabs x <= / 4 * Rabs x) by (apply Rmult_le_compat_r; [apply Rabs_pos|auto]).
  split; intros S.
  - rewrite (Rabs_pos_eq x) in * by lra. apply move_down; auto; lra.
  - rewrite (Rabs_left x) in * by auto. assert (K : rnd (- V w - - rnd x) < - V w) by (apply move_down; [apply generic_format_opp; auto|rewrite Rabs_Ropp; lra|lra]).
    replace (- V w - - rnd x) with (- (V w - rnd x)) in K by ring. rewrite rnd_opp in K. lra.
Qed.
Lemma pow_P : forall n, 2 ^ n = P (Z.of_nat n).
Proof. intros n. rewrite bpow_powerRZ, <- pow_powerRZ. reflexivity. Qed.
Lemma inv_P : forall n, / 2 ^ n = P (- Z.of_nat n).
Proof. intros n. rewrite pow_P, <- bpow_opp. reflexivity. Qed.
Lemma good_val : forall x, f32_valid x /\ f32_finite x -> good_f x.
Proof. intros x (A & B). split; [exact A|apply finite_fin; exact B]. Qed.
Lemma val_good : forall x, good_f x -> f32_valid x /\ f32_finite x.
Proof. intros x (A & B). split; [exact A|apply finite_fin; exact B]. Qed.
Lemma plain_rule : forall damp nest lr g p, sgd_rule (S := SF) (f32_of_Z 0) damp (f32_of_Z 0) nest lr g p = (fsub (fst p) (fmul lr g), snd p).
Proof. intros damp nest lr g (w, v). reflexivity. Qed.
Lemma sgd_stuck : forall D cs lr damp nest st o' st' k idx, store_ok D st -> calls_ok D cs -> in_range (D k) idx ->
  f32_valid (el (st k) idx) /\ f32_finite (el (st k) idx) -> / 2 ^ 100 <= Rabs (f32_value (el (st k) idx)) <= 2 ^ 127 ->
  (forall e, In e (updates k cs) -> (f32_valid (rate lr (fst e)) /\ f32_finite (rate lr (fst e))) /\ (f32_valid (el (snd e) idx) /\ f32_finite (el (snd e) idx)) /\
     Rabs (f32_value (rate lr (fst e)) * f32_value (el (snd e) idx)) <= Rabs (f32_value (el (st k) idx)) / 2 ^ 27) ->
  opt_run sgd_optimize cs (sgd_new lr (f32_of_Z 0) damp (f32_of_Z 0) nest) st = (o', st', Ok tt) ->
  f32_finite (el (st' k) idx) /\ f32_value (el (st' k) idx) = f32_value (el (st k) idx).
Proof.
  intros D cs lr damp nest st o' st' k idx HS HC HI HW [W1 W2] HU E.
  destruct (sgd_history D cs (sgd_new lr (f32_of_Z 0) damp (f32_of_Z 0) nest) st ltac:(intros ? ?; discriminate) HS HC) as (o1 & st1 & E1 & _ & _ & _ & VV).
  rewrite E in E1. assert (st1 = st') by congruence. subst st1. specialize (VV k idx HI). cbn [sgd_new sg_lr sg_mom sg_damp sg_wd sg_nest sg_buf] in VV.
  rewrite !value_V in *. rewrite inv_P in W1. rewrite pow_P in W2. change (Z.of_nat 127) with 127%Z in W2. change (- Z.of_nat 100)%Z with (-100)%Z in W1.
  match type of VV with _ = fold_left ?f ?l ?a => assert (K : good_f (fst (fold_left f l a)) /\ V (fst (fold_left f l a)) = V (el (st k) idx)) end.
  - apply (fold_keeps _ (fun p => good_f (fst p) /\ V (fst p) = V (el (st k) idx)) (fun e => In e (updates k cs))); [|cbn [fst]; split; [apply good_val; exact HW|reflexivity]|auto].
    intros p e (GP & EP) He. rewrite plain_rule. cbn [fst]. destruct (HU e He) as (A & B & C). rewrite !value_V in C.
    destruct (step_lost (fst p) (rate lr (fst e)) (el (snd e) idx)) as [G1 E2]; auto using good_val; rewrite ?EP; auto; [|split; [auto|congruence]].
    eapply Rle_trans; [exact C|]. apply Req_le. unfold Rdiv. rewrite inv_P, <- P24. change (P (- Z.of_nat 27)) with (P (-24 + -3)). rewrite bpow_plus. change (P (-3)) with (/ 8). reflexivity.
  - rewrite <- VV in K. cbn [fst] in K. split; [apply finite_fin, K|apply K].
Qed.
Lemma sgd_moves : forall D lr lro damp nest st o' st' k g idx, store_ok D st -> good g -> tdims g = D k -> in_range (D k) idx ->
  f32_valid (el (st k) idx) /\ f32_finite (el (st k) idx) -> f32_valid (rate lr lro) /\ f32_finite (rate lr lro) -> f32_valid (el g idx) /\ f32_finite (el g idx) ->
  Rabs (f32_value (el (st k) idx)) <= 2 ^ 126 -> / 2 ^ 120 <= Rabs (f32_value (rate lr lro) * f32_value (el g idx)) <= 2 ^ 125 ->
  Rabs (f32_value (el (st k) idx)) / 2 ^ 22 <= Rabs (f32_value (rate lr lro) * f32_value (el g idx)) ->
  opt_run sgd_optimize [(lro, [(k, g)])] (sgd_new lr (f32_of_Z 0) damp (f32_of_Z 0) nest) st = (o', st', Ok tt) ->
  f32_finite (el (st' k) idx) /\ (0 < f32_value (rate lr lro) * f32_value (el g idx) -> f32_value (el (st' k) idx) < f32_value (el (st k) idx)) /\
    (f32_value (rate lr lro) * f32_value (el g idx) < 0 -> f32_value (el (st k) idx) < f32_value (el (st' k) idx)).
Proof.
  intros D lr lro damp nest st o' st' k g idx HS GG DG HI HW HR HG W1 [X1 X2] HX E.
  assert (HC : calls_ok D [(lro, [(k, g)])]) by (apply Forall_cons; [apply Forall_cons; [split; auto|apply Forall_nil]|apply Forall_nil]).
  destruct (sgd_history D [(lro, [(k, g)])] (sgd_new lr (f32_of_Z 0) damp (f32_of_Z 0) nest) st ltac:(intros ? ?; discriminate) HS HC) as (o1 & st1 & E1 & _ & _ & _ & VV).
  rewrite E in E1. assert (st1 = st') by congruence. subst st1. specialize (VV k idx HI). cbn [sgd_new sg_lr sg_mom sg_damp sg_wd sg_nest sg_buf] in VV.
  assert (EU : updates k [(lro, [(k, g)])] = [(lro, g)]) by (unfold updates, grads; cbn [flat_map fst snd filter]; rewrite Z.eqb_refl; reflexivity).
  rewrite EU in VV. cbn [fold_left] in VV. rewrite plain_rule in VV. cbn [fst snd] in VV. apply (f_equal fst) in VV. cbn [fst] in VV. rewrite VV.
  rewrite !value_V in *. rewrite inv_P in X1. rewrite pow_P in W1, X2. change (Z.of_nat 126) with 126%Z in W1. change (Z.of_nat 125) with 125%Z in X2. change (- Z.of_nat 120)%Z with (-120)%Z in X1.
  destruct (step_taken (el (st k) idx) (rate lr lro) (el g idx)) as (A & B & C); auto using good_val.
  { eapply Rle_trans; [|exact HX]. apply Req_le. unfold Rdiv. rewrite inv_P, <- P24. change (P (- Z.of_nat 22)) with (P (2 + -24)). rewrite bpow_plus. change (P 2) with 4. reflexivity. }
  split; [apply finite_fin, A|auto].
Qed.
End O.
Lemma sgd_lost : forall lm, exists lr (o' : sgd f32) (st st' : store f32) (g : tensor f32), f32_in (/ 2 ^ 27) (/ 2 ^ 27) lr /\ good g /\ tdims g = [1%Z] /\ store_ok (fun _ => [1%Z]) st /\
  f32_value (@el _ (F32Scalar lm) g [0%Z]) = 1 /\ f32_value (@el _ (F32Scalar lm) (st 0%Z) [0%Z]) = 1 /\
  opt_run (sgd_optimize (S := F32Scalar lm)) [(f32_of_Z 0, [(0%Z, g)])] (sgd_new lr (f32_of_Z 0) (f32_of_Z 0) (f32_of_Z 0) false) st = (o', st', Ok tt) /\
  st' 0%Z = st 0%Z.
Proof.
  intros lm. exists (f32_div (f32_of_Z 1) (f32_of_Z 134217728)). eexists. exists (fun _ => tensor_of [1%Z] (fun _ => f32_of_Z 1)). eexists. exists (tensor_of [1%Z] (fun _ => f32_of_Z 1)).
  assert (G : good (tensor_of [1%Z] (fun _ => f32_of_Z 1))) by (apply good_tensor_of; [split; [discriminate|apply Forall_cons; [lia|apply Forall_nil]]|vm_compute; discriminate]).
  assert (E1 : f32_value (f32_of_Z 1) = 1) by (rewrite value_V; match goal with |- V ?x = _ => let v := eval vm_compute in x in change x with v end; unfold SF2R, F2R; simpl; lra).
  split; [|split; [exact G|split; [reflexivity|split; [intros k; split; [exact G|reflexivity]|split; [exact E1|split; [exact E1|split; [vm_compute; reflexivity|vm_compute; reflexivity]]]]]]].
  split; [vm_compute; reflexivity|]. match goal with |- f32_finite ?x /\ _ => let v := eval vm_compute in x in change x with v end. split; [exact I|]. unfold f32_value. simpl. lra.
Qed.
