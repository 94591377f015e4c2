(** * Converting positive integers to float32 never gives zero *)
From Coq Require Import SpecFloat.
From Verif Require Import Base Scalar Types Spec M_Shape M_Tensor M_Adv M_Act M_Loss M_Layers M_Reg M_Opt M_Net SpecNet.

Lemma shr_1_m : forall r, 0 <= shr_m r -> shr_m (shr_1 r) = shr_m r / 2.
Proof.
  intros [m r s] H. cbn [shr_m] in H. unfold shr_1. cbn [shr_m]. destruct m as [|p|p]; [reflexivity| |lia].
  destruct p as [p|p|]; cbn [shr_m]; [|change (Z.pos p~0) with (2 * Z.pos p)|reflexivity].
  - change (Z.pos p~1) with (2 * Z.pos p + 1). apply Z.div_unique with 1; lia.
  - rewrite Z.mul_comm, Z.div_mul; lia.
Qed.
Lemma shr_iter_m : forall p r, 0 <= shr_m r -> shr_m (SpecFloat.iter_pos shr_1 p r) = shr_m r / 2 ^ Z.pos p /\ 0 <= shr_m (SpecFloat.iter_pos shr_1 p r).
Proof.
  induction p as [p IH|p IH|]; intros r H; cbn [SpecFloat.iter_pos].
  - assert (H1 : 0 <= shr_m (shr_1 r)) by (rewrite shr_1_m by auto; apply Z.div_pos; lia).
    destruct (IH _ H1) as (E1 & P1). destruct (IH _ P1) as (E2 & P2). split; [|auto]. rewrite E2, E1, shr_1_m by auto.
    replace (Z.pos p~1) with (1 + (Z.pos p + Z.pos p)) by lia. rewrite !Z.pow_add_r by lia. assert (0 < 2 ^ Z.pos p) by (apply Z.pow_pos_nonneg; lia). rewrite !Z.div_div by nia. f_equal; ring.
  - destruct (IH _ H) as (E1 & P1). destruct (IH _ P1) as (E2 & P2). split; [|auto]. rewrite E2, E1.
    replace (Z.pos p~0) with (Z.pos p + Z.pos p) by lia. rewrite !Z.pow_add_r by lia. assert (0 < 2 ^ Z.pos p) by (apply Z.pow_pos_nonneg; lia). rewrite !Z.div_div by nia. reflexivity.
  - split; [|rewrite shr_1_m by auto; apply Z.div_pos; lia]. rewrite shr_1_m by auto. reflexivity.
Qed.
Lemma digits_low : forall p, 2 ^ (Z.pos (digits2_pos p) - 1) <= Z.pos p.
Proof.
  induction p as [p IH|p IH|]; cbn [digits2_pos]; [| |vm_compute; discriminate]; rewrite Pos2Z.inj_succ; replace (Z.succ (Z.pos (digits2_pos p)) - 1) with (Z.succ (Z.pos (digits2_pos p) - 1)) by lia;
    rewrite Z.pow_succ_r by lia; lia.
Qed.
(** Rounding to the format keeps a positive mantissa positive, for exponents that are not far below zero. *)
Lemma shr_keeps : forall m e l, 0 < m -> -100 <= e -> exists r e', shr_fexp f32_prec f32_emax m e l = (r, e') /\ 0 < shr_m r /\ -100 <= e'.
Proof.
  intros m e l Hm He. unfold shr_fexp, shr. destruct m as [|p|p]; try lia.
  assert (HR : shr_m (shr_record_of_loc (Z.pos p) l) = Z.pos p) by (destruct l as [|[]]; reflexivity).
  set (n := fexp f32_prec f32_emax (Zdigits2 (Z.pos p) + e) - e). destruct n as [|q|q] eqn:En.
  - do 2 eexists. split; [reflexivity|]. rewrite HR. lia.
  - do 2 eexists. split; [reflexivity|]. split; [|lia]. destruct (shr_iter_m q (shr_record_of_loc (Z.pos p) l)) as (E & _); [lia|]. rewrite E, HR.
    assert (HQ : Z.pos q <= Z.pos (digits2_pos p) - 24).
    { unfold n, fexp, emin, f32_prec, f32_emax in En. cbn [Zdigits2] in En. lia. }
    pose proof (digits_low p) as HD. assert (2 ^ Z.pos q <= 2 ^ (Z.pos (digits2_pos p) - 1)) by (apply Z.pow_le_mono_r; lia).
    assert (0 < 2 ^ Z.pos q) by (apply Z.pow_pos_nonneg; lia). assert (1 <= Z.pos p / 2 ^ Z.pos q) by (apply Z.div_le_lower_bound; lia). lia.
  - do 2 eexists. split; [reflexivity|]. rewrite HR. lia.
Qed.
Lemma f32_positive : forall p, SFeqb (f32_of_Z (Z.pos p)) (f32_of_Z 0) = false.
Proof.
  intros p. unfold f32_of_Z. cbn [binary_normalize]. unfold binary_round.
  assert (H : exists m e, shl_align p 0 (fexp f32_prec f32_emax (Z.pos (digits2_pos p) + 0)) = (m, e) /\ -100 <= e).
  { unfold shl_align. set (t := fexp f32_prec f32_emax (Z.pos (digits2_pos p) + 0)).
    destruct (t - 0) eqn:E; do 2 eexists; (split; [reflexivity|]); try lia. unfold t, fexp, emin, f32_prec, f32_emax in *. lia. }
  destruct H as (m & e & E & He). rewrite E. unfold binary_round_aux.
  destruct (shr_keeps (Z.pos m) e loc_Exact eq_refl He) as (r1 & e1 & E1 & P1 & H1). rewrite E1.
  assert (P2 : 0 < round_nearest_even (shr_m r1) (loc_of_shr_record r1)).
  { unfold round_nearest_even. destruct (loc_of_shr_record r1) as [|[]]; try lia. destruct (Z.even _); lia. }
  destruct (shr_keeps _ e1 loc_Exact P2 H1) as (r2 & e2 & E2 & P3 & H2). rewrite E2. destruct (shr_m r2) as [|q|q]; try lia.
  destruct (e2 <=? f32_emax - f32_prec); reflexivity.
Qed.
Lemma f32_counts : forall lm, counts_nonzero (T := f32) (S := F32Scalar lm).
Proof. intros lm n Hn. destruct n as [|p|p]; try lia. exact (f32_positive p). Qed.
