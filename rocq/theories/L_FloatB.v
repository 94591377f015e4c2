(** * Bounds for float32 arithmetic *)
From Coq Require Import Reals Lra SpecFloat.
From Flocq Require Import Core BinarySingleNaN.
From Verif Require Import Base Scalar Types Spec SpecNN SpecR SpecF32 M_Shape M_Tensor M_Adv M_Act L_RSum L_Float L_FloatAct L_FloatLib.
Local Open Scope R_scope.
#[local] Existing Instance Hp32.
#[local] Existing Instance Hm32.
Local Notation B32 := (binary_float f32_prec f32_emax).
Local Notation V := (SF2R radix2).
Local Notation fx := (SpecFloat.fexp f32_prec f32_emax).
Local Notation fadd := (SFadd f32_prec f32_emax).
Local Notation fsub := (SFsub f32_prec f32_emax).
Local Notation fmul := (SFmul f32_prec f32_emax).
Local Notation fsqrt := (SFsqrt f32_prec f32_emax).
Local Notation P e := (bpow radix2 e).
Ltac unB := repeat match goal with H : vok ?x |- _ => let b := fresh "b" in destruct (of_valid x H) as [b <-]; clear H end.

(** ** Powers of two are floats *)
Lemma P_format : forall e, (-149 <= e)%Z -> generic_format radix2 fx (P e).
Proof. intros e H. apply generic_format_bpow. unfold SpecFloat.fexp, SpecFloat.emin, f32_prec, f32_emax. lia. Qed.
Lemma rnd_P : forall r e, (-149 <= e)%Z -> Rabs r <= P e -> Rabs (rnd r) <= P e.
Proof. intros r e H L. apply abs_round_le_generic; [typeclasses eauto..|apply P_format; auto|auto]. Qed.
Lemma rnd_P_le : forall r e, (-149 <= e)%Z -> r <= P e -> rnd r <= P e.
Proof. intros r e H L. apply round_le_generic; [typeclasses eauto..|apply P_format; auto|auto]. Qed.
Lemma rnd_P_ge : forall r e, (-149 <= e)%Z -> P e <= r -> P e <= rnd r.
Proof. intros r e H L. apply round_ge_generic; [typeclasses eauto..|apply P_format; auto|auto]. Qed.
Lemma rnd_nonneg : forall r, 0 <= r -> 0 <= rnd r.
Proof. intros r H. rewrite <- rnd_0. apply rnd_le. auto. Qed.
Lemma P_big : forall e, (e < 128)%Z -> P e < big.
Proof. intros e H. apply bpow_lt. exact H. Qed.
Lemma P_0 : P 0 = 1. Proof. reflexivity. Qed.
Lemma P_le : forall a b, (a <= b)%Z -> P a <= P b. Proof. intros. apply bpow_le. auto. Qed.
Lemma P_pos : forall e, 0 < P e. Proof. intros. apply bpow_gt_0. Qed.
Lemma P_succ : forall e, P (e + 1) = 2 * P e. Proof. intros. rewrite bpow_plus. change (P 1) with 2. ring. Qed.

(** [bnd e x]: a finite float of absolute value at most 2^e. *)
Definition bnd (e : Z) (x : f32) : Prop := good_f x /\ Rabs (V x) <= P e.
Lemma bnd_le : forall a b x, (a <= b)%Z -> bnd a x -> bnd b x.
Proof. intros a b x H [G L]. split; [auto|]. eapply Rle_trans; [exact L|apply P_le; auto]. Qed.
Lemma bnd_unit : forall x, within 0 1 x -> bnd 0 x.
Proof. intros x (H & F & L). split; [split; auto|]. rewrite Rabs_pos_eq, P_0; lra. Qed.
Lemma bnd_zero : forall s e, bnd e (S754_zero s).
Proof. intros s e. split; [split; reflexivity|]. change (V (S754_zero s)) with 0. rewrite Rabs_R0. apply Rlt_le, P_pos. Qed.
Lemma fin_by : forall r e, (-149 <= e < 128)%Z -> Rabs r <= P e -> Rabs (rnd r) < big.
Proof. intros r e H L. eapply Rle_lt_trans; [apply (rnd_P r e); [lia|auto]|apply P_big; lia]. Qed.
Lemma add_to : forall x y e, (-149 <= e < 128)%Z -> good_f x -> good_f y -> Rabs (V x + V y) <= P e -> good_f (fadd x y) /\ V (fadd x y) = rnd (V x + V y).
Proof.
  intros x y e He [Hx Fx] [Hy Fy] L. assert (F : fin (fadd x y)) by (apply add_in; auto; eapply fin_by; eauto). destruct (add_fin x y Hx Hy F) as (_ & _ & E). split; [split; [apply add_vok; auto|auto]|auto].
Qed.
Lemma sub_to : forall x y e, (-149 <= e < 128)%Z -> good_f x -> good_f y -> Rabs (V x - V y) <= P e -> good_f (fsub x y) /\ V (fsub x y) = rnd (V x - V y).
Proof.
  intros x y e He [Hx Fx] [Hy Fy] L. destruct (sub_in x y Hx Hy Fx Fy) as (F & E); [eapply fin_by; eauto|]. split; [split; [apply sub_vok; auto|auto]|auto].
Qed.
Lemma mul_to : forall x y e, (-149 <= e < 128)%Z -> good_f x -> good_f y -> Rabs (V x * V y) <= P e -> good_f (fmul x y) /\ V (fmul x y) = rnd (V x * V y).
Proof.
  intros x y e He [Hx Fx] [Hy Fy] L. assert (F : fin (fmul x y)) by (apply mul_in; auto; eapply fin_by; eauto). destruct (mul_fin x y Hx Hy F) as (_ & _ & E). split; [split; [apply mul_vok; auto|auto]|auto].
Qed.
Lemma div_to : forall x y e, (-149 <= e < 128)%Z -> good_f x -> good_f y -> V y <> 0 -> Rabs (V x / V y) <= P e -> good_f (f32_div x y) /\ V (f32_div x y) = rnd (V x / V y).
Proof.
  intros x y e He [Hx Fx] [Hy Fy] N L. destruct (div_in x y Hx Hy Fx N) as (F & E); [eapply fin_by; eauto|]. split; [split; [apply div_vok; auto|auto]|auto].
Qed.
Lemma add_bnd : forall x y e, (-149 <= e < 127)%Z -> bnd e x -> bnd e y -> bnd (e + 1) (fadd x y).
Proof.
  intros x y e He [Gx Lx] [Gy Ly]. assert (L : Rabs (V x + V y) <= P (e + 1)) by (rewrite P_succ; eapply Rle_trans; [apply Rabs_triang|lra]).
  destruct (add_to x y (e + 1) ltac:(lia) Gx Gy L) as [G E]. split; [auto|]. rewrite E. apply rnd_P; [lia|auto].
Qed.
Lemma mul_bnd : forall x y a b, (-149 <= a + b < 128)%Z -> bnd a x -> bnd b y -> bnd (a + b) (fmul x y).
Proof.
  intros x y a b He [Gx Lx] [Gy Ly]. assert (L : Rabs (V x * V y) <= P (a + b)) by (rewrite bpow_plus, Rabs_mult; apply Rmult_le_compat; auto using Rabs_pos).
  destruct (mul_to x y (a + b) He Gx Gy L) as [G E]. split; [auto|]. rewrite E. apply rnd_P; [lia|auto].
Qed.
Lemma div_bnd : forall x y a b, (-149 <= a - b < 128)%Z -> bnd a x -> good_f y -> P b <= V y -> bnd (a - b) (f32_div x y).
Proof.
  intros x y a b He [Gx Lx] Gy Ly. pose proof (P_pos b) as Pb. assert (L : Rabs (V x / V y) <= P (a - b)).
  { unfold Zminus. rewrite bpow_plus, bpow_opp. unfold Rdiv. rewrite Rabs_mult. apply Rmult_le_compat; auto using Rabs_pos. rewrite Rabs_inv, Rabs_pos_eq by lra. apply Rinv_le; auto. }
  destruct (div_to x y (a - b) He Gx Gy ltac:(lra) L) as [G E]. split; [auto|]. rewrite E. apply rnd_P; [lia|auto].
Qed.
Lemma mul_pos : forall x y a b, (-149 <= a + b < 128)%Z -> bnd a x -> bnd b y -> 0 <= V x -> 0 <= V y -> 0 <= V (fmul x y).
Proof.
  intros x y a b He [Gx Lx] [Gy Ly] Px Py. assert (L : Rabs (V x * V y) <= P (a + b)) by (rewrite bpow_plus, Rabs_mult; apply Rmult_le_compat; auto using Rabs_pos).
  destruct (mul_to x y (a + b) He Gx Gy L) as [G E]. rewrite E. apply rnd_nonneg, Rmult_le_pos; auto.
Qed.
Lemma div_pos : forall x y a b, (-149 <= a - b < 128)%Z -> bnd a x -> good_f y -> P b <= V y -> 0 <= V x -> 0 <= V (f32_div x y).
Proof.
  intros x y a b He [Gx Lx] Gy Ly Px. pose proof (P_pos b) as Pb. assert (L : Rabs (V x / V y) <= P (a - b)).
  { unfold Zminus. rewrite bpow_plus, bpow_opp. unfold Rdiv. rewrite Rabs_mult. apply Rmult_le_compat; auto using Rabs_pos. rewrite Rabs_inv, Rabs_pos_eq by lra. apply Rinv_le; auto. }
  destruct (div_to x y (a - b) He Gx Gy ltac:(lra) L) as [G E]. rewrite E. apply rnd_nonneg. apply Rmult_le_pos; [auto|]. apply Rlt_le, Rinv_0_lt_compat. lra.
Qed.

(** ** Adding something small to a large number: the result stays below the power of two *)
Lemma sat_up : forall e, (-120 <= e)%Z -> rnd (P (e + 25) + P e) <= P (e + 25).
Proof.
  intros e He. apply round_N_le_midp; [typeclasses eauto|apply P_format; lia|]. rewrite succ_eq_pos by (apply Rlt_le, P_pos). rewrite ulp_bpow.
  replace (fx (e + 25 + 1)) with (e + 1 + 1)%Z by (unfold SpecFloat.fexp, SpecFloat.emin, f32_prec, f32_emax; lia). rewrite !P_succ. pose proof (P_pos e). lra.
Qed.
Lemma rnd_opp : forall r, rnd (- r) = - rnd r.
Proof. intros r. apply round_NE_opp. Qed.
Lemma sat_sub : forall x d e, (-120 <= e)%Z -> (e + 25 < 128)%Z -> bnd (e + 25) x -> bnd e d -> bnd (e + 25) (fsub x d).
Proof.
  intros x d e He1 He2 [Gx Lx] [Gd Ld]. set (r := V x - V d). apply Rabs_le_inv in Lx. apply Rabs_le_inv in Ld.
  assert (U : rnd r <= P (e + 25)) by (eapply Rle_trans; [|apply sat_up; auto]; apply rnd_le; unfold r; lra).
  assert (L : - P (e + 25) <= rnd r). { pose proof (sat_up e He1) as S. apply Ropp_le_contravar in S. eapply Rle_trans; [exact S|]. rewrite <- rnd_opp. apply rnd_le. unfold r. lra. }
  assert (A : Rabs (rnd r) <= P (e + 25)) by (apply Rabs_le; lra). destruct Gx as [Hx Fx], Gd as [Hd Fd].
  destruct (sub_in x d Hx Hd Fx Fd) as (F & E); [eapply Rle_lt_trans; [exact A|apply P_big; auto]|]. split; [split; [apply sub_vok; auto|auto]|]. rewrite E. exact A.
Qed.

(** ** The square root *)
Lemma sqrt_equiv : forall x : B32, fsqrt (B2SF x) = B2SF (Bsqrt mode_NE x).
Proof.
  intros x. case x as [sx|sx| |sx mx ex Bx]; [reflexivity|destruct sx; reflexivity|reflexivity|]. destruct sx; [reflexivity|]. simpl. rewrite B2SF_SF2B. set (melz := SFsqrt_core_binary _ _ _ _). case melz as [[mz ez] lz]. apply aux_equiv.
Qed.
Lemma sqrt_vok : forall x, vok x -> vok (fsqrt x).
Proof. intros x H. unB. rewrite sqrt_equiv. apply vokB. Qed.
Lemma sqrt_in : forall x, good_f x -> 0 <= V x -> good_f (fsqrt x) /\ V (fsqrt x) = rnd (sqrt (V x)).
Proof.
  intros x [H F] L. split; [split; [apply sqrt_vok; auto|]|]; unB; rewrite sqrt_equiv; rewrite VB in L; rewrite finB in F; destruct (Bsqrt_correct _ _ _ _ mode_NE b) as (C1 & C2 & _).
  - rewrite finB. rewrite C2. destruct b as [s|s| |s m e B]; try discriminate F; auto. destruct s; auto. exfalso. assert (B2R (B754_finite true m e B) < 0) by (unfold B2R; apply F2R_lt_0; reflexivity). lra.
  - rewrite !VB. exact C1.
Qed.
Lemma sqrt_P : forall e, (0 <= e)%Z -> sqrt (P (2 * e)) = P e.
Proof. intros e H. replace (2 * e)%Z with (e + e)%Z by lia. rewrite bpow_plus. apply sqrt_square. apply Rlt_le, P_pos. Qed.
Lemma sqrt_Pn : forall e, sqrt (P (2 * e)) = P e.
Proof. intros e. replace (2 * e)%Z with (e + e)%Z by lia. rewrite bpow_plus. apply sqrt_square. apply Rlt_le, P_pos. Qed.
Lemma sqrt_bnd : forall x e, (-149 <= e)%Z -> bnd (2 * e) x -> 0 <= V x -> bnd e (fsqrt x) /\ 0 <= V (fsqrt x).
Proof.
  intros x e He [G L] Px. destruct (sqrt_in x G Px) as [G' E]. rewrite Rabs_pos_eq in L by auto. assert (sqrt (V x) <= P e) by (rewrite <- sqrt_Pn; apply sqrt_le_1_alt; auto).
  pose proof (sqrt_pos (V x)). split; [split; [auto|]|]; rewrite E; [apply rnd_P; [auto|rewrite Rabs_pos_eq; auto]|apply rnd_nonneg; auto].
Qed.
Lemma sqrt_low : forall x e, (-149 <= e)%Z -> good_f x -> P (2 * e) <= V x -> P e <= V (fsqrt x).
Proof.
  intros x e He G L. pose proof (P_pos (2 * e)). destruct (sqrt_in x G ltac:(lra)) as [G' E]. rewrite E. apply rnd_P_ge; [auto|]. rewrite <- sqrt_Pn. apply sqrt_le_1_alt; auto.
Qed.

(** ** A decaying average: b*m + c with b <= 1 - 2^-10 keeps a bound 2^12 times that of c *)
Definition decay_ok (b : f32) : Prop := vok b /\ fin b /\ 0 <= V b <= 1 - P (-10).
Lemma decay_unit : forall b, decay_ok b -> within 0 1 b.
Proof. intros b (H & F & L). pose proof (P_pos (-10)). split; [auto|]. split; [auto|]. lra. Qed.
Lemma tiny_P : tiny_half <= P (-100).
Proof.
  rewrite <- half_tiny. unfold f32_prec, f32_emax. change (3 - 128 - 24)%Z with (-149)%Z. pose proof (P_le (-149) (-100) ltac:(lia)). pose proof (P_pos (-149)). lra.
Qed.
Lemma decay_step : forall b m c e, (-60 <= e)%Z -> (e + 12 < 128)%Z -> decay_ok b -> bnd (e + 12) m -> bnd e c -> bnd (e + 12) (fadd (fmul b m) c).
Proof.
  intros b m c e He1 He2 DB [Gm Lm] [Gc Lc]. pose proof (decay_unit b DB) as UB. destruct DB as (Hb & Fb & LB).
  assert (Q : Rabs (V b * V m) <= (1 - P (-10)) * P (e + 12)) by (rewrite Rabs_mult; apply Rmult_le_compat; auto using Rabs_pos; rewrite Rabs_pos_eq; lra).
  pose proof (P_pos (e + 12)) as P1. pose proof (P_pos (-10)) as P2. assert (Q1 : Rabs (V b * V m) <= P (e + 12)) by nra.
  destruct (mul_to b m (e + 12) ltac:(lia) (conj Hb Fb) Gm Q1) as [GM EM]. pose proof (rnd_err (V b * V m)) as RE.
  assert (E12 : P (e + 12) = 4096 * P e) by (rewrite bpow_plus, Rmult_comm; reflexivity).
  assert (E10 : P (-10) * 4096 = 4) by (change (P (-10)) with (/ 1024); lra). assert (U : ulp_half * 4096 <= 1) by (unfold ulp_half; rewrite p_24; lra).
  assert (T : tiny_half <= P e) by (eapply Rle_trans; [apply tiny_P|apply P_le; lia]). pose proof ulp_pos as UP. pose proof (P_pos e) as P3.
  assert (K : Rabs (V (fmul b m)) <= 4094 * P e).
  { rewrite EM. replace (rnd (V b * V m)) with ((rnd (V b * V m) - V b * V m) + V b * V m) by ring. eapply Rle_trans; [apply Rabs_triang|].
    assert (ulp_half * Rabs (V b * V m) <= P e) by (apply Rle_trans with (ulp_half * (4096 * P e)); [apply Rmult_le_compat_l; lra|nra]).
    assert ((1 - P (-10)) * P (e + 12) = 4092 * P e) by (rewrite E12; nra). lra. }
  assert (L : Rabs (V (fmul b m) + V c) <= P (e + 12)) by (rewrite E12; eapply Rle_trans; [apply Rabs_triang|lra]).
  destruct (add_to _ c (e + 12) ltac:(lia) GM Gc L) as [GA EA]. split; [auto|]. rewrite EA. apply rnd_P; [lia|auto].
Qed.
Lemma decay_pos : forall b m c e, (-60 <= e)%Z -> (e + 12 < 127)%Z -> decay_ok b -> bnd (e + 12) m -> bnd e c -> 0 <= V m -> 0 <= V c -> 0 <= V (fadd (fmul b m) c).
Proof.
  intros b m c e He1 He2 DB Bm Bc Pm Pc. pose proof (decay_unit b DB) as UB. pose proof (mul_bnd b m 0 (e + 12) ltac:(lia) (bnd_unit b UB) Bm) as BM.
  assert (PM : 0 <= V (fmul b m)) by (eapply (mul_pos b m 0 (e + 12)); auto; [lia|apply bnd_unit; auto|apply UB]). pose proof (bnd_le e (0 + (e + 12)) c ltac:(lia) Bc) as Bc'.
  assert (L : Rabs (V (fmul b m) + V c) <= P (e + 13)). { destruct BM as [_ L1], Bc' as [_ L2]. replace (e + 13)%Z with (0 + (e + 12) + 1)%Z by lia. rewrite P_succ. eapply Rle_trans; [apply Rabs_triang|lra]. }
  destruct (add_to _ c (e + 13) ltac:(lia) (proj1 BM) (proj1 Bc) L) as [_ E]. rewrite E. apply rnd_nonneg. lra.
Qed.

(** ** 1 - b *)
Lemma one_minus : forall b, decay_ok b -> within 0 1 (fsub (f32_of_Z 1) b) /\ P (-10) <= V (fsub (f32_of_Z 1) b).
Proof.
  intros b DB. pose proof (decay_unit b DB) as UB. split; [apply sub_within; auto|]. destruct UB as (Hb & Fb & Lb), DB as (_ & _ & DB).
  destruct (sub_to (f32_of_Z 1) b 0 ltac:(lia)) as [_ E]; [split; [apply of_Z_vok|reflexivity]|split; auto|rewrite V_one, P_0, Rabs_pos_eq; lra|]. rewrite E, V_one. apply rnd_P_ge; [lia|lra].
Qed.
Lemma max_cases : forall a b : f32, (if SFltb a b then b else a) = a \/ (if SFltb a b then b else a) = b.
Proof. intros. destruct (SFltb a b); auto. Qed.
Lemma of_Z_ge1 : forall n, (1 <= n <= INT_MAX)%Z -> good_f (f32_of_Z n) /\ 1 <= V (f32_of_Z n).
Proof.
  intros n Hn. assert (L : Rabs (IZR n) <= P 31). { rewrite Rabs_pos_eq by (apply IZR_le; lia). change (P 31) with (IZR 2147483648). apply IZR_le. unfold INT_MAX in *. lia. }
  destruct (of_Z_in n) as (F & E); [eapply fin_by; [|exact L]; lia|]. split; [split; [apply of_Z_vok|auto]|]. rewrite E. rewrite <- P_0. apply rnd_P_ge; [lia|]. rewrite P_0. apply IZR_le. lia.
Qed.
