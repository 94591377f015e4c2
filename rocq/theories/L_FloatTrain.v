(** * Float32 training: weights frozen by Adam, NaN from centered RMSProp, and the statements with plain powers of two *)
From Coq Require Import Reals Lra SpecFloat.
From Flocq Require Import Core BinarySingleNaN.
From Verif Require Import Base Scalar Types Spec SpecNN SpecR SpecF32 SpecOpt M_Shape M_Tensor M_Adv M_Act M_Loss M_Opt L_Index L_Tensor L_RSum L_Float L_FloatAct L_FloatLib L_FloatT L_FloatB L_Double L_FloatLoss L_FloatOpt L_Opt L_Opt2 L_OptB.
Local Open Scope R_scope.
#[local] Existing Instance Hp32.
#[local] Existing Instance Hm32.
Local Notation B32 := (binary_float f32_prec f32_emax).
Local Notation V := (SF2R radix2).
Local Notation fadd := (SFadd f32_prec f32_emax).
Local Notation fsub := (SFsub f32_prec f32_emax).
Local Notation fmul := (SFmul f32_prec f32_emax).
Local Notation fsqrt := (SFsqrt f32_prec f32_emax).
Local Notation P e := (bpow radix2 e).
Local Notation inf := (S754_infinity false).

Lemma pw : forall n, P (Z.of_nat n) = 2 ^ n.
Proof. induction n as [|n IH]; [reflexivity|]. rewrite Nat2Z.inj_succ. unfold Z.succ. rewrite P_succ, IH. reflexivity. Qed.
Lemma pw_inv : forall n, P (- Z.of_nat n) = / 2 ^ n.
Proof. intros n. rewrite bpow_opp, pw. reflexivity. Qed.

Lemma mul_signed : forall s x y, good_f x -> good_f y -> 0 <= sg s * (V x * V y) -> dir s (fmul x y).
Proof.
  intros s x y [Hx Fx] [Hy Fy] L. split; [apply mul_vok; auto|]. unB. rewrite mul_equiv. rewrite !finB in *. rewrite !VB in *. pose proof (Bmult_correct _ _ _ _ mode_NE b0 b) as C. destruct (Rlt_bool _ _) eqn:EO.
  - right. destruct C as (C1 & C2 & _). rewrite C1, C2, Fx, Fy. split; [auto|]. apply (sg_rnd s _ L).
  - left. rewrite C, overflow_inf. f_equal. destruct (Bool.bool_dec (xorb (Bsign b0) (Bsign b)) s) as [E|E]; [auto|exfalso].
    assert (Z0 : B2R b0 * B2R b = 0).
    { assert (Q : sg s * (B2R b0 * B2R b) <= 0).
      { destruct (Bsign b0) eqn:E0, (Bsign b) eqn:E1, s; cbn in E; try (exfalso; apply E; reflexivity); unfold sg;
          repeat match goal with H : Bsign _ = true |- _ => apply sign_neg in H | H : Bsign _ = false |- _ => apply sign_pos in H end; nra. }
      destruct s; unfold sg in *; lra. }
    rewrite Z0, no_over0 in EO. discriminate.
Qed.
Lemma inf_add : forall y, dir false y -> fadd inf y = inf.
Proof. intros y (_ & [->|(F & _)]); [reflexivity|]. destruct y as [s|s| |s m e]; try discriminate F; reflexivity. Qed.
Lemma add_inf : forall y, dir false y -> fadd y inf = inf.
Proof. intros y (_ & [->|(F & _)]); [reflexivity|]. destruct y as [s|s| |s m e]; try discriminate F; reflexivity. Qed.
Lemma pos_form : forall y, good_f y -> 0 < V y -> exists m e, y = S754_finite false m e.
Proof.
  intros y [H F] L. destruct y as [s|s| |s m e]; try discriminate F; [cbn in L; lra|]. destruct s; [|eauto]. exfalso. assert (V (S754_finite true m e) < 0) by (unfold SF2R; apply F2R_lt_0; reflexivity). lra.
Qed.
Lemma mul_inf : forall y, good_f y -> 0 < V y -> fmul y inf = inf.
Proof. intros y G L. destruct (pos_form y G L) as (m & e & ->). reflexivity. Qed.
Lemma inf_div : forall y, good_f y -> 0 < V y -> f32_div inf y = inf.
Proof. intros y G L. destruct (pos_form y G L) as (m & e & ->). reflexivity. Qed.
Lemma div_inf : forall x, good_f x -> exists s, f32_div x inf = S754_zero s.
Proof. intros x [_ F]. destruct x as [s|s| |s m e]; try discriminate F; exists (xorb s false); reflexivity. Qed.
Lemma sub_zero : forall w s, good_f w -> good_f (fsub w (S754_zero s)) /\ V (fsub w (S754_zero s)) = V w.
Proof.
  intros w s [Hw Fw]. assert (Hz : vok (S754_zero s)) by reflexivity. destruct (sub_in w (S754_zero s) Hw Hz Fw ltac:(reflexivity)) as (F & E).
  - change (V (S754_zero s)) with 0. rewrite Rminus_0_r, rnd_V by auto. apply V_big; auto.
  - split; [split; [apply sub_vok; auto|auto]|]. rewrite E. change (V (S754_zero s)) with 0. rewrite Rminus_0_r, rnd_V; auto.
Qed.
Lemma over_inf : forall x, dir false x -> ~ fin x -> x = inf.
Proof. intros x (_ & [E|(F & _)]) N; [auto|tauto]. Qed.

Section O.
Context (lm : libm).
Let SF : Scalar f32 := F32Scalar lm.
Local Existing Instance SF.

(** ** Adam: an overflowing second moment freezes the weight *)
Section Ad.
Hypothesis HP : pow_like (m_pow lm).
Lemma adam_frozen_step : forall b1 b2 eps n lr a w m v, decay_ok b1 -> decay_ok b2 -> 0 < V b2 -> eps_ok eps -> (1 <= n)%Z -> within 0 1 lr -> bnd 80 a -> good_f w -> bnd 92 m ->
  v = inf \/ (bnd 72 v /\ 0 <= V v /\ P 70 <= Rabs (V a)) ->
  let '(w', m', v') := adam_rule b1 b2 eps (f32_of_Z 0) (f32_of_Z 0) (adam_scaled b1 b2) n lr a (w, m, v) in good_f w' /\ V w' = V w /\ bnd 92 m' /\ v' = inf.
Proof.
  intros b1 b2 eps n lr a w m v D1 D2 P2 HE Hn UL BA GW BM CV. unfold adam_rule. change (s_lt zero (f32_of_Z 0)) with false. cbv iota. unfold adam_m, adam_v.
  destruct (one_minus b1 D1) as (U1 & _). destruct (one_minus b2 D2) as (U2 & L2).
  assert (C1 : bnd 80 (fmul (fsub (f32_of_Z 1) b1) a)) by (change 80%Z with (0 + 80)%Z; apply mul_bnd; [lia|apply bnd_unit; auto|auto]).
  pose proof (decay_step b1 m _ 80 ltac:(lia) ltac:(lia) D1 BM C1) as BM1. change (80 + 12)%Z with 92%Z in BM1. set (m1 := fadd (fmul b1 m) (fmul (fsub (f32_of_Z 1) b1) a)) in *.
  set (oa := fsub (f32_of_Z 1) b2) in *. pose proof (P_pos (-10)) as P10.
  pose proof (mul_bnd oa a 0 80 ltac:(lia) (bnd_unit _ U2) BA) as BQ. destruct U2 as (HO & FO & LO). destruct BA as [[HA FA] LA]. destruct BQ as [[HQ FQ] LQ]. destruct (mul_fin oa a HO HA FQ) as (_ & _ & EQ).
  assert (SQ : 0 <= V (fmul oa a) * V a).
  { rewrite EQ. destruct (Rle_dec 0 (V a)) as [Q|Q].
    - apply Rmult_le_pos; [|auto]. apply rnd_nonneg. apply Rmult_le_pos; lra.
    - replace (rnd (V oa * V a) * V a) with ((- rnd (V oa * V a)) * (- V a)) by ring. apply Rmult_le_pos; [|lra]. rewrite <- rnd_opp. apply rnd_nonneg. replace (- (V oa * V a)) with (V oa * - V a) by ring. apply Rmult_le_pos; lra. }
  pose proof (mul_signed false (fmul oa a) a (conj HQ FQ) (conj HA FA) ltac:(unfold sg; lra)) as DS. set (sq := fmul (fmul oa a) a) in *.
  assert (EV : fadd (fmul b2 v) sq = inf).
  { destruct CV as [->|(BV & PV & BIG)].
    - rewrite mul_inf; [apply inf_add; auto|split; apply D2|auto].
    - replace sq with inf. { apply add_inf. split; [apply mul_vok; [apply D2|apply BV]|right]. pose proof (mul_bnd b2 v 0 72 ltac:(lia) (bnd_unit _ (decay_unit _ D2)) BV) as [[_ F] _]. split; [auto|]. unfold sg. rewrite Rmult_1_l. apply (mul_pos b2 v 0 72); auto; [lia|apply bnd_unit, decay_unit; auto|lra]. }
      symmetry. apply over_inf; [exact DS|]. intros F. destruct (mul_fin _ _ HQ HA F) as (_ & _ & ES).
      assert (K1 : P 60 <= Rabs (V (fmul oa a))). { rewrite EQ. unfold rnd. apply abs_round_ge_generic; [typeclasses eauto..|apply P_format; lia|]. rewrite Rabs_mult. change 60%Z with (-10 + 70)%Z. rewrite bpow_plus. apply Rmult_le_compat; auto; [lra|apply Rlt_le, P_pos|]. rewrite Rabs_pos_eq; lra. }
      assert (K2 : P 130 <= V (fmul oa a) * V a). { rewrite <- (Rabs_pos_eq (V (fmul oa a) * V a)) by auto. rewrite Rabs_mult. change 130%Z with (60 + 70)%Z. rewrite bpow_plus. apply Rmult_le_compat; auto; apply Rlt_le, P_pos. }
      apply (rnd_P_ge _ 130) in K2; [|lia]. rewrite <- ES in K2. pose proof (V_big sq (mul_vok _ _ HQ HA)) as VB'. pose proof (Rle_abs (V sq)). pose proof (P_le 128 130 ltac:(lia)). unfold big, f32_emax in VB'. fold sq in K2. lra. }
  destruct (corr_in lm HP m1 b1 n 92 ltac:(lia) BM1 D1 Hn) as (BMH & _). change (92 + 10)%Z with 102%Z in BMH.
  pose proof (mul_bnd _ _ 10 102 ltac:(lia) (scaled_bnd lm HP b1 b2 n lr D1 D2 Hn UL) BMH) as [GU _].
  destruct (pow_decay (m_pow lm) b2 n HP D2 Hn) as (GP & LP & _). pose proof (corr_inf _ GP LP) as EH. destruct (div_inf _ GU) as (s & EZ). destruct (sub_zero w s GW) as (GZ & VZ).
  assert (ED : forall d, d = inf -> fadd (fsqrt (s_corr d b2 n)) eps = inf).
  { intros d ->. replace (s_corr inf b2 n) with inf by (symmetry; exact EH). change (fsqrt inf) with inf. apply inf_add. destruct HE as ([H1 H2] & H3). split; [auto|right]. split; [auto|]. pose proof (P_pos (-40)). unfold sg. lra. }
  assert (EW : s_sub w (s_div (s_mul (adam_scaled b1 b2 n lr) (s_corr (s_add (s_mul b1 m) (s_mul (s_sub one b1) a)) b1 n)) (s_add (s_sqrt (s_corr (s_add (s_mul b2 v) (s_mul (s_mul (s_sub one b2) a) a)) b2 n)) eps)) = fsub w (S754_zero s)).
  { change (fsub w (f32_div (fmul (adam_scaled b1 b2 n lr) (s_corr m1 b1 n)) (fadd (fsqrt (s_corr (fadd (fmul b2 v) sq) b2 n)) eps)) = fsub w (S754_zero s)). rewrite (ED _ EV). f_equal. exact EZ. }
  rewrite EW. split; [exact GZ|]. split; [exact VZ|]. split; [exact BM1|exact EV].
Qed.
Lemma adam_freezes : forall D (cs0 : list (call f32)) lro k g (cs1 : list (call f32)) lr b1 b2 eps decay batch st o1 st1 o2 st2 idx,
  f32_in 0 1 lr -> f32_decay b1 -> f32_decay b2 -> 0 < f32_value b2 -> f32_in (/ 2 ^ 40) 1 eps -> f32_in 0 1 decay -> (1 <= batch <= INT_MAX)%Z -> (Zlen cs0 + 1 + Zlen cs1 <= INT_MAX)%Z ->
  store_ok D st -> calls_ok D (cs0 ++ (lro, [(k, g)]) :: cs1) -> tame_weights (2 ^ 127) st -> tame_calls (2 ^ 30) cs0 -> f32_in (-1) 1 lro -> tame_calls (2 ^ 80) cs1 -> in_range (D k) idx ->
  2 ^ 70 <= Rabs (f32_value (f32_div (el g idx) (f32_of_Z batch))) -> f32_in (- 2 ^ 80) (2 ^ 80) (el g idx) ->
  opt_run adam_optimize cs0 (adam_new lr b1 b2 eps zero zero decay batch) st = (o1, st1, Ok tt) ->
  opt_run adam_optimize (cs0 ++ (lro, [(k, g)]) :: cs1) (adam_new lr b1 b2 eps zero zero decay batch) st = (o2, st2, Ok tt) ->
  f32_finite (el (st2 k) idx) /\ f32_value (el (st2 k) idx) = f32_value (el (st1 k) idx).
Proof.
  intros D cs0 lro k g cs1 lr b1 b2 eps decay batch st o1 st1 o2 st2 idx HL H1 H2 PB2 HE HD HB HN HS HC HW HT0 HR HT1 HI BIG BG E1 E2.
  rewrite <- (pw_inv 40) in HE. rewrite <- (pw 30) in HT0. rewrite <- (pw 80) in HT1, BG. rewrite <- (pw 70) in BIG. rewrite <- (pw 127) in HW. rewrite value_V in PB2, BIG. apply bnd_in in BG.
  apply within_in in HL. apply within_in in HE. apply within_in in HD. apply within_in in HR. apply decay_in in H1. apply decay_in in H2.
  assert (HE' : eps_ok eps) by (destruct HE as (A & B & C); split; [split; auto|auto]). pose proof (Zlen_nonneg cs0) as Z0. pose proof (Zlen_nonneg cs1) as Z1.
  assert (HC0 : calls_ok D cs0) by (apply Forall_app in HC; apply HC). assert (HC1 : calls_ok D cs1) by (apply Forall_app in HC; destruct HC as (_ & HC); inversion HC; auto).
  destruct (adam_history_spec D cs0 (adam_new lr b1 b2 eps zero zero decay batch) st ltac:(split; intros ? ?; discriminate) HS (Z.le_refl _) ltac:(cbn [adam_new ad_it]; lia) HC0) as (p & q & F & _ & _ & _ & V1). rewrite E1 in F. injection F as <- <-.
  destruct (adam_history_spec D (cs0 ++ (lro, [(k, g)]) :: cs1) (adam_new lr b1 b2 eps zero zero decay batch) st ltac:(split; intros ? ?; discriminate) HS (Z.le_refl _) ltac:(cbn [adam_new ad_it]; rewrite Zlen_app, Zlen_cons; lia) HC) as (p & q & F & _ & _ & _ & V2). rewrite E2 in F. injection F as <- <-.
  specialize (V1 k idx HI). specialize (V2 k idx HI). cbn [adam_new ad_init ad_lr ad_b1 ad_b2 ad_eps ad_l1 ad_l2 ad_decay ad_it ad_batch ad_m ad_v] in V1, V2.
  rewrite numbered_app, fold_left_app in V2. rewrite <- V1 in V2. cbn [numbered] in V2. rewrite fold_left_app in V2.
  assert (EG : grads k (snd (lro, [(k, g)])) = [g]) by (unfold grads; cbn; rewrite Z.eqb_refl; reflexivity). rewrite EG in V2. clear EG. cbn [map fold_left fst snd] in V2.
  destruct (of_Z_ge1 batch HB) as (GB & LB).
  set (I := fun p : f32 * f32 * f32 => let '(w, m, v) := p in bnd 127 w /\ bnd 42 m /\ (bnd 72 v /\ 0 <= V v)).
  match type of V1 with _ = fold_left ?f ?l ?a => assert (K : I (fold_left f l a)) end.
  { apply (fold_keeps _ I (fun e => (1 <= fst (fst e) <= INT_MAX)%Z /\ tame_up lm 30 D k (snd (fst e), snd e))).
    + intros ((w, m), v) e (BW & BM & BV) (HN' & TR & TG). cbn [fst snd] in TR, TG. apply (adam_step_fin lm); auto; [lia|apply (adam_lr_unit lm); auto|]. apply (div_bnd _ _ 30 0); [lia|apply TG; auto|auto|rewrite P_0; auto].
    + cbn [I]. split; [apply el_bnd; [apply HS|apply HW|rewrite (proj2 (HS k)); exact HI]|]. split; [apply bnd_zero|split; [apply bnd_zero|change (0 <= 0); lra]].
    + intros e He. destruct (num_tame lm 30 D cs0 _ k e HC0 HT0 He) as (A & B). split; [lia|auto]. }
  rewrite <- V1 in K. clear V1. set (w0 := el (st1 k) idx) in *. destruct K as (BW & BM & BV & PV).
  set (J := fun p : f32 * f32 * f32 => let '(w, m, v) := p in good_f w /\ V w = V w0 /\ bnd 92 m /\ v = inf).
  match type of V2 with _ = fold_left ?f ?l ?a => assert (K : J (fold_left f l a)) end.
  { apply (fold_keeps _ J (fun e => (1 <= fst (fst e) <= INT_MAX)%Z /\ tame_up lm 80 D k (snd (fst e), snd e))).
    + intros ((w, m), v) e (GW & EW & BM' & ->) (HN' & TR & TG). cbn [fst snd] in TR, TG.
      pose proof (adam_frozen_step b1 b2 eps (fst (fst e)) (adam_lr lr decay (fst (fst e)) (snd (fst e))) (s_div (el (snd e) idx) (s_z batch)) w m inf H1 H2 PB2 HE' ltac:(lia) ltac:(apply (adam_lr_unit lm); auto)) as FS.
      assert (BA : bnd 80 (s_div (el (snd e) idx) (s_z batch))) by (apply (div_bnd _ _ 80 0); [lia|apply TG; auto|auto|rewrite P_0; auto]). specialize (FS BA GW BM' (or_introl eq_refl)).
      assert (GEN : forall r : f32 * f32 * f32, (let '(w', m', v') := r in good_f w' /\ V w' = V w /\ bnd 92 m' /\ v' = inf) -> J r).
      { intros ((w', m'), v') (A & B & C & E'). split; [auto|]. split; [congruence|auto]. }
      apply GEN. exact FS.
    + set (N := (0 + 1 + Zlen cs0)%Z). pose proof (adam_frozen_step b1 b2 eps N (adam_lr lr decay N lro) (s_div (el g idx) (s_z batch)) w0 (buf_el (ad_m o1) k idx) (buf_el (ad_v o1) k idx) H1 H2 PB2 HE' ltac:(lia) ltac:(apply (adam_lr_unit lm); auto; lia)) as FS.
      assert (BA : bnd 80 (s_div (el g idx) (s_z batch))) by (apply (div_bnd _ _ 80 0); [lia|exact BG|auto|rewrite P_0; auto]). specialize (FS BA (proj1 BW) (bnd_le 42 92 _ ltac:(lia) BM) (or_intror (conj BV (conj PV BIG)))).
      unfold J. exact FS.
    + intros e He. destruct (num_tame lm 80 D cs1 _ k e HC1 HT1 He) as (A & B). split; [lia|auto]. }
  rewrite <- V2 in K. destruct K as (A & B & _). rewrite finite_fin, !value_V. split; [apply A|exact B].
Qed.
End Ad.

(** ** Centered RMSProp with the default settings: 1150 gradients equal to 19 give NaN *)
Definition one_f (x : f32) : tensor f32 := tensor_of [1%Z] (fun _ => x).
Definition cent_calls : list (call f32) := repeat (f32_of_Z 0, [(0%Z, one_f (f32_of_Z 19))]) (Z.to_nat 1150).
Definition cent_store : store f32 := fun _ => one_f (f32_of_Z 1).
Lemma one_good : forall x, good (one_f x) /\ tdims (one_f x) = [1%Z].
Proof. intros x. split; [apply good_tensor_of; [auto with idx|vm_compute; discriminate]|reflexivity]. Qed.
Lemma cent_calls_ok : calls_ok (fun _ => [1%Z]) cent_calls.
Proof. apply Forall_forall. intros c HC. apply repeat_spec in HC. subst c. cbn [snd]. constructor; [apply one_good|constructor]. Qed.
Lemma cent_nan : exists o' st', opt_run rms_optimize cent_calls (rms_new (s_lit 1 100) (s_lit 99 100) (s_lit 1 100000000) zero true zero) cent_store = (o', st', Ok tt) /\ f32_nan (el (st' 0%Z) [0%Z]).
Proof.
  destruct (rms_history_spec (fun _ => [1%Z]) cent_calls (rms_new (s_lit 1 100) (s_lit 99 100) (s_lit 1 100000000) zero true zero) cent_store ltac:(split; [|split]; intros ? ?; discriminate) ltac:(intros k; apply one_good) cent_calls_ok) as (o' & st' & E & _ & _ & _ & VV).
  exists o', st'. split; [exact E|]. specialize (VV 0%Z [0%Z] ltac:(constructor; [lia|constructor])). apply (f_equal (fun p => fst (fst (fst p)))) in VV. cbn [fst] in VV. unfold f32_nan. etransitivity; [exact VV|]. vm_compute. reflexivity.
Qed.
Lemma cent_refuted : exists cs st o' st', calls_ok (fun _ => [1%Z]) cs /\ store_ok (fun _ => [1%Z]) st /\ tame_calls (2 ^ 30) cs /\ tame_weights (2 ^ 127) st /\
  opt_run rms_optimize cs (rms_new (s_lit 1 100) (s_lit 99 100) (s_lit 1 100000000) zero true zero) st = (o', st', Ok tt) /\ f32_nan (el (st' 0%Z) [0%Z]).
Proof.
  destruct cent_nan as (o' & st' & E & HN). exists cent_calls, cent_store, o', st'. split; [exact cent_calls_ok|]. split; [intros k; apply one_good|]. split; [|split; [|auto]].
  - apply Forall_forall. intros c HC. apply repeat_spec in HC. subst c. cbn [fst snd]. split; [split; [reflexivity|split; [exact I|change (f32_value (f32_of_Z 0)) with 0; lra]]|]. constructor; [|constructor]. cbn [snd].
    change (tdata (one_f (f32_of_Z 19))) with [f32_of_Z 19]. constructor; [|constructor]. rewrite <- (pw 30). apply bnd_in. split; [split; reflexivity|]. assert (E19 : V (f32_of_Z 19) = 19) by (vm_compute; lra).
    rewrite E19, Rabs_pos_eq by lra. change (P (Z.of_nat 30)) with 1073741824. lra.
  - intros k. change (tdata (cent_store k)) with [f32_of_Z 1]. constructor; [|constructor]. rewrite <- (pw 127). apply bnd_in. split; [split; reflexivity|]. rewrite V_one, Rabs_R1. rewrite <- P_0. apply P_le. lia.
Qed.
End O.

(** ** Statements with powers of two *)
Section W.
Context (lm : libm).
Let SF : Scalar f32 := F32Scalar lm.
Local Existing Instance SF.
Lemma sgd_finite32 : forall D cs lr mom damp nest st, f32_in 0 1 lr -> f32_decay mom -> f32_in 0 1 damp -> store_ok D st -> calls_ok D cs -> tame_calls (2 ^ 30) cs -> tame_weights (2 ^ 127) st ->
  exists o' st', opt_run sgd_optimize cs (sgd_new lr mom damp zero nest) st = (o', st', Ok tt) /\ store_ok D st' /\ tame_weights (2 ^ 127) st'.
Proof. rewrite <- (pw 30), <- (pw 127). exact (sgd_stays lm). Qed.
Lemma rms_finite32 : forall D cs lr alpha eps mom st, f32_in 0 1 lr -> f32_decay alpha -> f32_in (/ 2 ^ 40) 1 eps -> f32_decay mom -> store_ok D st -> calls_ok D cs -> tame_calls (2 ^ 30) cs -> tame_weights (2 ^ 127) st ->
  exists o' st', opt_run rms_optimize cs (rms_new lr alpha eps mom false zero) st = (o', st', Ok tt) /\ store_ok D st' /\ tame_weights (2 ^ 127) st'.
Proof. rewrite <- (pw 30), <- (pw 127), <- (pw_inv 40). exact (rms_stays lm). Qed.
Lemma adam_finite32 : pow_like (m_pow lm) -> forall D cs lr b1 b2 eps decay batch st, f32_in 0 1 lr -> f32_decay b1 -> f32_decay b2 -> f32_in (/ 2 ^ 40) 1 eps -> f32_in 0 1 decay -> (1 <= batch <= INT_MAX)%Z -> (Zlen cs <= INT_MAX)%Z ->
  store_ok D st -> calls_ok D cs -> tame_calls (2 ^ 30) cs -> tame_weights (2 ^ 127) st ->
  exists o' st', opt_run adam_optimize cs (adam_new lr b1 b2 eps zero zero decay batch) st = (o', st', Ok tt) /\ store_ok D st' /\ tame_weights (2 ^ 127) st'.
Proof. rewrite <- (pw 30), <- (pw 127), <- (pw_inv 40). exact (adam_stays lm). Qed.
Lemma all_bnd : forall n (t : tensor f32), Forall (f32_in (- 2 ^ n) (2 ^ n)) (tdata t) -> Forall (bnd (Z.of_nat n)) (tdata t).
Proof. intros n t H. eapply Forall_impl; [|exact H]. intros x Hx. apply bnd_in. rewrite pw. exact Hx. Qed.
Lemma mse_finite32 : forall p t : tensor f32, good p -> good t -> aligned p t -> Forall (f32_in (- 2 ^ 50) (2 ^ 50)) (tdata p) -> Forall (f32_in (- 2 ^ 50) (2 ^ 50)) (tdata t) ->
  exists y, mse_compute p t = Ok y /\ f32_in 0 (2 ^ 127) (el y [0%Z]).
Proof. intros p t Gp Gt HA Fp Ft. rewrite <- (pw 127). apply mse_value_fin; auto; apply (all_bnd 50); auto. Qed.
Lemma mse_zero32 : forall (p t y : tensor f32), good p -> good t -> aligned p t -> all_finite p -> all_finite t -> mse_compute p t = Ok y -> f32_finite (el y [0%Z]) -> f32_value (el y [0%Z]) = 0 ->
  forall idx, in_range (tdims p) idx -> Rabs (f32_value (el p idx) - f32_value (el (in_shape (tdims p) t) idx)) < / 2 ^ 59.
Proof. rewrite <- (pw_inv 59). exact (mse_value_zero lm). Qed.
Lemma cce_value32 : log_below_one (m_log lm) -> forall (p t : tensor f32) b c, good p -> good t -> tdims p = [b; c] -> tdims t = [b; c] ->
  Forall (fun x => f32_valid x /\ ~ f32_nan x) (tdata p) -> Forall (f32_in 0 1) (tdata t) -> exists y, cce_compute p t = Ok y /\ good y /\ tdims y = [1%Z] /\ f32_in 0 (2 ^ 32) (el y [0%Z]).
Proof. rewrite <- (pw 32). exact (cce_value lm). Qed.
Lemma softmax_cce32 : libm_like lm -> log_below_one (m_log lm) -> forall (x t : tensor f32) b c, good x -> good t -> tdims x = [b; c] -> tdims t = [b; c] -> all_finite x -> Forall (f32_in 0 1) (tdata t) ->
  exists p y g, softmax_fwd x = Ok p /\ cce_compute p t = Ok y /\ f32_in 0 (2 ^ 32) (el y [0%Z]) /\ cce_gradient p t = Ok g /\ tdims g = [b; c] /\ forall idx, in_range [b; c] idx -> f32_in (-1) 1 (el g idx).
Proof. rewrite <- (pw 32). exact (softmax_cce lm). Qed.
(** Two different predictions a tiny distance apart have loss zero. *)
Lemma mse_tiny : exists p t y : tensor f32, good p /\ good t /\ aligned p t /\ all_finite p /\ all_finite t /\ mse_compute p t = Ok y /\ f32_value (el p [0%Z]) <> f32_value (el t [0%Z]) /\ f32_finite (el y [0%Z]) /\ f32_value (el y [0%Z]) = 0.
Proof.
  exists (one_f (S754_finite false 8388608 (-103))), (one_f (S754_zero false)), (one_f (S754_zero false)). split; [apply one_good|]. split; [apply one_good|]. split; [left; reflexivity|].
  split; [unfold all_finite; vm_compute; repeat constructor|]. split; [unfold all_finite; vm_compute; repeat constructor|]. split; [vm_compute; reflexivity|]. split; [|split; vm_compute; auto].
  change (f32_value (S754_finite false 8388608 (-103)) <> 0). rewrite value_V. change (8388608 * P (-103) <> 0). pose proof (P_pos (-103)). lra.
Qed.
End W.
