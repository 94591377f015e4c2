(** * Inner products with fused multiply-add *)
From Coq Require Import Reals Lra SpecFloat.
From Flocq Require Import Core BinarySingleNaN.
From Verif Require Import Base Scalar Types Spec SpecR SpecF32 L_RSum L_Float L_FloatAct L_FloatLib.
Local Open Scope R_scope.
Local Notation V := (SF2R radix2).
Local Notation fadd := (SFadd f32_prec f32_emax).
Local Notation fmul := (SFmul f32_prec f32_emax).
Local Notation u := ulp_half.

Lemma V_max : exists m, vok m /\ fin m /\ V m = big - bpow radix2 104.
Proof.
  exists (S754_finite false 16777215 104). split; [reflexivity|]. split; [reflexivity|]. rewrite <- value_V. unfold f32_value. rewrite big_128, bpow_powerRZ. change (IZR radix2) with 2. change (powerRZ 2 104) with (2 ^ 104).
  replace (2 ^ 128) with (2 ^ 24 * 2 ^ 104) by (rewrite <- pow_add; reflexivity). rewrite p_24. ring.
Qed.
Lemma rnd_in_range : forall r, Rabs r < 2 ^ 128 - 2 ^ 103 -> Rabs (rnd r) < big.
Proof.
  intros r H. destruct V_max as (m & Hm & _ & Em). assert (P : 0 < 2 ^ 103) by (apply pow_lt; lra). assert (E4 : bpow radix2 104 = 2 * 2 ^ 103) by (rewrite bpow_powerRZ; change (IZR radix2) with 2; reflexivity).
  rewrite <- big_128 in H. rewrite E4 in Em. assert (B0 : 2 * 2 ^ 103 < big). { rewrite big_128. change (2 * 2 ^ 103) with (2 ^ 104). apply Rlt_pow; [lra|lia]. }
  destruct (Rle_dec (Rabs r) (V m)) as [L|L].
  - apply (in_big r m); auto. rewrite (Rabs_pos_eq (V m)); [auto|]. pose proof (Rabs_pos r). lra.
  - pose proof (rnd_err r) as _. assert (N : Rabs (rnd r - r) <= Rabs r - V m).
    { destruct (Rle_dec 0 r) as [R0|R0].
      - pose proof (near r m Hm) as N. assert (AR : Rabs r = r) by (apply Rabs_pos_eq; auto). rewrite (Rabs_left (V m - r)) in N by lra. lra.
      - pose proof (near r (SFopp m) (opp_vok m Hm)) as N. rewrite opp_V in N by auto. assert (AR : Rabs r = - r) by (apply Rabs_left; lra). rewrite (Rabs_pos_eq (- V m - r)) in N by lra. lra. }
    replace (rnd r) with ((rnd r - r) + r) by ring. eapply Rle_lt_trans; [apply Rabs_triang|]. lra.
Qed.
Lemma nearest_err : forall r x, nearest32 r x -> fin x -> Rabs (V x - r) <= u * Rabs r + tiny_half.
Proof.
  intros r x [Hx HN] F. apply finite_fin in F. destruct (HN F) as [HR HZ]. destruct (near32_in r (rnd_in_range r HR)) as [A B]. rewrite value_V in HZ. apply Rle_trans with (Rabs (rnd r - r)).
  - rewrite <- B, <- value_V with (x := near32 r). apply HZ; [apply near32_vok|apply finite_fin; auto].
  - apply rnd_err.
Qed.
Definition pr (p : f32 * f32) : R := f32_value (fst p) * f32_value (snd p).
Lemma acc_err : forall l r, accumulate l r -> Forall (fun p => f32_valid (fst p) /\ f32_valid (snd p)) l ->
  vok r /\ (fin r -> Rabs (V r - rsum l pr) <= ((1 + u) ^ length l - 1) * rsum l (fun p => Rabs (pr p)) + (1 + u) ^ length l * INR (length l) * tiny_half).
Proof.
  pose proof ulp_pos as Hu. pose proof tiny_half_pos as Ht.
  induction 1 as [|l s a b HA IH|l s a b r HA IH HF]; intros HV.
  - split; [apply of_Z_vok|]. intros _. unfold rsum. cbn. change (V (f32_of_Z 0)) with 0. rewrite Rminus_0_r, Rabs_R0. lra.
  - apply Forall_app in HV. destruct HV as [HV1 HV2]. inversion HV2 as [|? ? [Va Vb] _]; subst. cbn [fst snd] in Va, Vb. destruct (IH HV1) as [Vs IHs]. assert (Vm : vok (fmul a b)) by (apply mul_vok; auto).
    split; [apply add_vok; auto|]. intros F. destruct (add_fin _ _ Vs Vm F) as (Fs & Fm & E). destruct (mul_fin a b Va Vb Fm) as (Fa & Fb & Em). specialize (IHs Fs).
    rewrite !rsum_app, !rsum_cons, !rsum_nil. rewrite app_length. cbn [length]. replace (length l + 1)%nat with (Datatypes.S (length l)) by lia. rewrite S_INR. cbn [pow].
    assert (Ep : pr (a, b) = V a * V b) by (unfold pr; cbn [fst snd]; rewrite !value_V; reflexivity). rewrite Ep, E. set (p := V a * V b) in *. assert (HP : Rabs (V (fmul a b) - p) <= u * Rabs p + tiny_half) by (rewrite Em; apply rnd_err).
    pose proof (rnd_add_err s (fmul a b) Vs Vm) as HR. set (m := V (fmul a b)) in *. set (v := V s) in *. set (D := rsum l (fun p => Rabs (pr p))) in *. set (R0 := rsum l pr) in *. set (q := (1 + u) ^ length l) in *. set (N := INR (length l)) in *.
    assert (HD : Rabs R0 <= D) by apply rsum_abs. pose proof (Rabs_pos p) as Pp. pose proof (pos_INR (length l)) as PN. fold N in PN. assert (Hq : 1 <= q) by apply pow_ge1. assert (PD : 0 <= D) by (pose proof (Rabs_pos R0); lra).
    destruct l as [|p0 l'].
    + assert (Hz : v = 0) by (inversion HA as [Eq|? ? ? ? ? Eq|? ? ? ? ? ? ? Eq]; subst; [reflexivity|destruct l; discriminate Eq|destruct l; discriminate Eq]).
      unfold R0, D, q, N, rsum in *. cbn in *. rewrite Hz in *. rewrite Rplus_0_l in *. rewrite !Rplus_0_l, !Rplus_0_r, !Rmult_1_r in *. assert (RM : rnd m = m) by (apply rnd_V; auto). rewrite RM. eapply Rle_trans; [exact HP|]. nra.
    + assert (Hq2 : 1 + u <= q) by (unfold q; cbn [length pow]; pose proof (pow_ge1 (length l')); nra).
      set (e := (q - 1) * D + q * N * tiny_half) in *.
      assert (B1 : Rabs (v + m) <= e + D + ((1 + u) * Rabs p + tiny_half)).
      { replace (v + m) with ((v - R0) + (R0 + (p + (m - p)))) by ring. eapply Rle_trans; [apply Rabs_triang|]. pose proof (Rabs_triang R0 (p + (m - p))). pose proof (Rabs_triang p (m - p)). lra. }
      replace (rnd (v + m) - (R0 + (p + 0))) with ((rnd (v + m) - (v + m)) + ((v - R0) + (m - p))) by ring. eapply Rle_trans; [apply Rabs_triang|]. pose proof (Rabs_triang (v - R0) (m - p)).
      assert (B2 : u * Rabs (v + m) <= u * (e + D + ((1 + u) * Rabs p + tiny_half))) by (apply Rmult_le_compat_l; lra). rewrite Rplus_0_r.
      apply Rle_trans with (u * (e + D + ((1 + u) * Rabs p + tiny_half)) + (e + (u * Rabs p + tiny_half))); [lra|]. unfold e.
      assert (C1 : (u * (1 + u) + u) * Rabs p <= ((1 + u) * q - 1) * Rabs p) by (apply Rmult_le_compat_r; [auto|nra]).
      assert (C2 : (1 + u) * tiny_half <= (1 + u) * q * tiny_half) by (apply Rmult_le_compat_r; nra). nra.
  - apply Forall_app in HV. destruct HV as [HV1 HV2]. inversion HV2 as [|? ? [Va Vb] _]; subst. cbn [fst snd] in Va, Vb. destruct (IH HV1) as [Vs IHs]. destruct HF as [HN HF]. split; [apply HN|]. intros F.
    assert (F' : f32_finite r) by (apply finite_fin; auto). destruct (HF F') as (Fs & _ & _). apply finite_fin in Fs. specialize (IHs Fs). pose proof (nearest_err _ _ HN F) as HR.
    rewrite !rsum_app, !rsum_cons, !rsum_nil. rewrite app_length. cbn [length]. replace (length l + 1)%nat with (Datatypes.S (length l)) by lia. rewrite S_INR. cbn [pow].
    change (pr (a, b)) with (f32_value a * f32_value b). set (p := f32_value a * f32_value b) in *. rewrite (value_V s) in HR. set (v := V s) in *. set (w := V r) in *. set (D := rsum l (fun p => Rabs (pr p))) in *. set (R0 := rsum l pr) in *. set (q := (1 + u) ^ length l) in *. set (N := INR (length l)) in *.
    assert (HD : Rabs R0 <= D) by apply rsum_abs. pose proof (Rabs_pos p) as Pp. pose proof (pos_INR (length l)) as PN. fold N in PN. assert (Hq : 1 <= q) by apply pow_ge1.
    set (e := (q - 1) * D + q * N * tiny_half) in *. assert (PD : 0 <= D) by (pose proof (Rabs_pos R0); lra).
    assert (B1 : Rabs (v + p) <= e + D + Rabs p). { replace (v + p) with ((v - R0) + (R0 + p)) by ring. eapply Rle_trans; [apply Rabs_triang|]. pose proof (Rabs_triang R0 p). lra. }
    replace (w - (R0 + (p + 0))) with ((w - (v + p)) + (v - R0)) by ring. eapply Rle_trans; [apply Rabs_triang|]. rewrite Rplus_0_r.
    assert (B2 : u * Rabs (v + p) <= u * (e + D + Rabs p)) by (apply Rmult_le_compat_l; lra).
    apply Rle_trans with (u * (e + D + Rabs p) + tiny_half + e); [lra|]. unfold e.
    assert (C1 : u * Rabs p <= ((1 + u) * q - 1) * Rabs p) by (apply Rmult_le_compat_r; [auto|nra]).
    assert (C2 : 1 * tiny_half <= (1 + u) * q * tiny_half) by (apply Rmult_le_compat_r; nra). nra.
Qed.
Lemma f32_fused : forall l r, accumulate l r -> Forall (fun p => f32_valid (fst p) /\ f32_valid (snd p)) l -> f32_finite r ->
  near_sum (Zlen l) (Zlen l) r l (fun p => f32_value (fst p) * f32_value (snd p)).
Proof.
  intros l r HA HV HF. destruct (acc_err l r HA HV) as [_ E]. apply finite_fin in HF. specialize (E HF). unfold near_sum, growth, Zlen. rewrite Nat2Z.id, <- INR_IZR_INZ, value_V. eapply Rle_trans; [exact E|]. unfold pr. lra.
Qed.
(** Every step separate: what the model computes. *)
Lemma separate_sum : forall lm (l : list (f32 * f32)), accumulate l (@fsum f32 (F32Scalar lm) (map (fun p => fmul (fst p) (snd p)) l)).
Proof.
  intros lm l. induction l as [|[a b] l IH] using rev_ind; [apply acc_start|]. rewrite map_app. cbn [map]. rewrite fsum_snoc. apply acc_separate. exact IH.
Qed.
(** A fused result always exists. *)
Lemma fused_exists : forall s a b, f32_valid s -> f32_valid a -> f32_valid b -> f32_finite s -> f32_finite a -> f32_finite b -> Rabs (f32_value s + f32_value a * f32_value b) < 2 ^ 128 - 2 ^ 103 ->
  exists r, fused s a b r /\ f32_finite r.
Proof.
  intros s a b Hs Ha Hb Fs Fa Fb HR. set (x := f32_value s + f32_value a * f32_value b) in *. destruct (near32_in x (rnd_in_range x HR)) as [A B]. exists (near32 x). split; [|apply finite_fin; auto].
  split; [|auto]. split; [apply near32_vok|]. intros _. split; [exact HR|]. intros z Hz _. rewrite (value_V (near32 x)), (value_V z), B. apply near. exact Hz.
Qed.
