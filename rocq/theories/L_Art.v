(** * The picture of any image of floats (C81) *)
From Coq Require Import Reals Lra Ascii String.
From Flocq Require Import Core.
From Coq Require Import SpecFloat.
From Verif Require Import Base Scalar Types Spec SpecNN SpecF32 SpecArt M_Shape M_Tensor M_Data SpecData L_Index L_Tensor L_Matmul L_Data.
Local Open Scope Z_scope.
Local Open Scope list_scope.

(** Conversion to an integer is truncation. *)
Lemma pow_R : forall e, 0 <= e -> IZR (2 ^ e) = powerRZ 2 e.
Proof. intros e He. change (2 ^ e) with (radix2 ^ e). rewrite IZR_Zpower by auto. rewrite bpow_powerRZ. reflexivity. Qed.
Lemma to_int_trunc : forall x, f32_finite x -> f32_to_int x = chk32 (Ztrunc (f32_value x)).
Proof.
  intros [s|s| |s m e] H; try destruct H; cbn [f32_to_int f32_value].
  - change 0%R with (IZR 0). rewrite Ztrunc_IZR. reflexivity.
  - f_equal. assert (A : Ztrunc (IZR (Z.pos m) * powerRZ 2 e) = if 0 <=? e then Z.pos m * 2 ^ e else Z.pos m / 2 ^ (- e)).
    { destruct (Z.leb_spec 0 e) as [He|He].
      - rewrite <- pow_R, <- mult_IZR by auto. apply Ztrunc_IZR.
      - assert (HP : 0 < 2 ^ (- e)) by (apply Z.pow_pos_nonneg; lia). replace (IZR (Z.pos m) * powerRZ 2 e)%R with (IZR (Z.pos m) / IZR (2 ^ (- e)))%R.
        { rewrite Ztrunc_floor; [apply Zfloor_div; lia|]. apply Rmult_le_pos; [apply IZR_le; lia|]. left. apply Rinv_0_lt_compat. apply IZR_lt. auto. }
        unfold Rdiv. f_equal. change (2 ^ (- e)) with (radix2 ^ (- e)). rewrite IZR_Zpower by lia. change 2%R with (IZR radix2). rewrite <- (bpow_powerRZ radix2), bpow_opp. rewrite Rinv_inv. reflexivity. }
    destruct s.
    + replace (-1 * IZR (Z.pos m) * powerRZ 2 e)%R with (- (IZR (Z.pos m) * powerRZ 2 e))%R by ring. rewrite Ztrunc_opp, A. reflexivity.
    + replace (1 * IZR (Z.pos m) * powerRZ 2 e)%R with (IZR (Z.pos m) * powerRZ 2 e)%R by ring. rewrite A. reflexivity.
Qed.

Notation tenfold v := (SFmul f32_prec f32_emax v (f32_of_Z 10)).
Lemma trunc_level : forall x k, level_of x k -> f32_to_int x = Ok k /\ 0 <= k.
Proof.
  intros x k (F & HM & H). rewrite to_int_trunc by auto.
  assert (E : Ztrunc (f32_value x) = k /\ 0 <= k).
  { destruct H as [(H0 & H)|(-> & H)].
    - split; [|auto]. apply IZR_le in H0. rewrite Ztrunc_floor by lra. apply Zfloor_imp. rewrite plus_IZR. auto.
    - split; [|lia]. rewrite Ztrunc_ceil by lra. apply Zceil_imp. change (0 - 1) with (-1). lra. }
  destruct E as (-> & H0). split; [|auto]. apply chk32_ok. unfold INT_MIN. lia.
Qed.
Lemma ascii_level : forall v k, level_of (tenfold v) k -> ascii_char v = Ok (level_char (Z.min 9 k)).
Proof.
  intros v k H. destruct (trunc_level _ _ H) as (E & H0). unfold ascii_char. rewrite E. cbn [bind]. rewrite (Z.min_comm k 9).
  assert (K : 0 <= Z.min 9 k <= 9) by lia. generalize dependent (Z.min 9 k). intros z Hz. assert (z = 0 \/ z = 1 \/ z = 2 \/ z = 3 \/ z = 4 \/ z = 5 \/ z = 6 \/ z = 7 \/ z = 8 \/ z = 9) as D by lia.
  repeat (destruct D as [-> | D]; [reflexivity|]). subst z. reflexivity.
Qed.
Lemma ascii_off : forall v, off_scale (tenfold v) -> ascii_char v = UB.
Proof.
  intros v H. unfold ascii_char. generalize dependent (tenfold v). intros x H.
  assert (N : ~ f32_finite x \/ f32_finite x) by (destruct x; cbn; tauto). destruct N as [N|F]; [destruct x; cbn in *; tauto|].
  rewrite to_int_trunc by auto. unfold chk32. destruct (_ && _) eqn:E; [|reflexivity]. apply andb_prop in E. destruct E as (E1 & E2). apply Z.leb_le in E1, E2. cbn [bind]. apply rd_ub.
  destruct H as [H|[H|H]]; [tauto| |].
  - rewrite Ztrunc_ceil by lra. assert (Zceil (f32_value x) <= -1) by (apply Zceil_glb; exact H). lia.
  - rewrite Ztrunc_floor in E2 by lra. assert (2147483648 <= Zfloor (f32_value x)) by (apply Zfloor_lub; exact H). unfold INT_MAX in E2. lia.
Qed.
(** Every value is one or the other. *)
Lemma level_or_off : forall x, off_scale x \/ exists k, level_of x k.
Proof.
  intros x. assert (N : ~ f32_finite x \/ f32_finite x) by (destruct x; cbn; tauto). destruct N as [N|F]; [left; left; auto|].
  destruct (Rle_dec (f32_value x) (-1)); [left; right; left; auto|]. destruct (Rle_dec 2147483648 (f32_value x)); [left; right; right; auto|]. right.
  destruct (Rlt_dec (f32_value x) 0) as [H|H].
  - exists 0. split; [auto|]. split; [vm_compute; discriminate|]. right. split; [auto|lra].
  - exists (Zfloor (f32_value x)). pose proof (Zfloor_lb (f32_value x)) as B1. pose proof (Zfloor_ub (f32_value x)) as B2. split; [auto|]. split.
    + apply Z.lt_succ_r. apply lt_IZR. change (Z.succ INT_MAX) with 2147483648. lra.
    + left. split; [apply Zfloor_lub; cbn; lra|lra].
Qed.

Section Image.
Variable lm : libm.
Let SF : Scalar f32 := F32Scalar lm.
#[local] Existing Instance SF.

Definition pixel (t : tensor f32) (lead : list Z) (i j : Z) : f32 := el t (zrepeat 0 (Zlen lead) ++ [i; j]).
Lemma pixel_at : forall (t : tensor f32) lead h w i j, good t -> tdims t = lead ++ [h; w] -> 0 <= i < h -> 0 <= j < w -> t_at t (zrepeat 0 (Zlen lead) ++ [i; j]) = Ok (pixel t lead i j).
Proof.
  intros t lead h w i j HG HD Hi Hj. pose proof (good_dims t HG) as HF. rewrite HD in HF. apply Forall_app in HF. apply t_at_ok; auto. rewrite HD. apply in_range_zeros_app; tauto.
Qed.
Lemma picture_any : forall (t : tensor f32) lead h w lv, good t -> tdims t = lead ++ [h; w] -> 28 <= h -> 28 <= w ->
  (forall i j, 0 <= i < 28 -> 0 <= j < 28 -> level_of (tenfold (pixel t lead i j)) (lv i j)) ->
  to_ascii_art t = Ok (picture 28 28 (fun i j => Z.min 9 (lv i j))).
Proof.
  intros t lead h w lv HG HD Hh Hw HL. unfold to_ascii_art. rewrite HD, Zlen_app. change (Zlen [h; w]) with 2. pose proof (Zlen_nonneg lead). destruct (Z.ltb_spec (Zlen lead + 2) 2); [lia|].
  replace (Zlen lead + 2 - 2) with (Zlen lead) by lia.
  match goal with |- for_ 0 28 ?b [] = _ => destruct (for_inv (fun i o => o = art_rows (fun i j => Z.min 9 (lv i j)) 28 i) 0 28 b []) as (o & E & Eo) end; auto; try lia; [|rewrite E, Eo; reflexivity].
  intros i o Hi ->. match goal with |- exists s', bind (for_ 0 28 ?b ?s) _ = _ /\ _ => destruct (for_inv (fun j o' => o' = s ++ art_line (fun i j => Z.min 9 (lv i j)) j i) 0 28 b s) as (o' & E' & Eo') end; try lia.
  - symmetry. apply app_nil_r.
  - intros j o' Hj ->. rewrite (pixel_at t lead h w) by (auto; lia). cbn [bind]. rewrite (ascii_level _ _ (HL i j Hi Hj)). cbn [bind]. eexists. split; [reflexivity|]. unfold art_line. rewrite zrange_snoc by lia. rewrite map_app, app_assoc. reflexivity.
  - rewrite E'. cbn [bind]. eexists. split; [reflexivity|]. rewrite Eo'. unfold art_rows. rewrite zrange_snoc by lia. rewrite flat_map_app. cbn [flat_map]. rewrite app_nil_r, app_assoc. reflexivity.
Qed.
(** A loop one of whose rounds is undefined, the others being undefined or not, is undefined. *)
Lemma foldM_ub : forall {A X} (body : A -> X -> outcome X) l a, In a l -> (forall s, body a s = UB) -> (forall b s, In b l -> body b s = UB \/ exists s', body b s = Ok s') -> forall s, foldM body l s = UB.
Proof.
  induction l as [|b l IH]; intros a HI HU HA s; [destruct HI|]. cbn [foldM]. destruct (HA b s (or_introl eq_refl)) as [-> |(s' & E)]; [reflexivity|]. rewrite E. cbn [bind].
  destruct HI as [-> |HI]; [rewrite HU in E; discriminate|]. apply (IH a); auto. intros; apply HA; right; auto.
Qed.
Lemma foldM_either : forall {A X} (body : A -> X -> outcome X) l, (forall b s, In b l -> body b s = UB \/ exists s', body b s = Ok s') -> forall s, foldM body l s = UB \/ exists s', foldM body l s = Ok s'.
Proof.
  induction l as [|b l IH]; intros HA s; [right; exists s; reflexivity|]. cbn [foldM]. destruct (HA b s (or_introl eq_refl)) as [-> |(s' & ->)]; [left; reflexivity|]. cbn [bind]. apply IH. intros; apply HA; right; auto.
Qed.
Lemma picture_off : forall (t : tensor f32) lead h w i j, good t -> tdims t = lead ++ [h; w] -> 28 <= h -> 28 <= w -> 0 <= i < 28 -> 0 <= j < 28 -> off_scale (tenfold (pixel t lead i j)) -> to_ascii_art t = UB.
Proof.
  intros t lead h w i j HG HD Hh Hw Hi Hj HO. unfold to_ascii_art. rewrite HD, Zlen_app. change (Zlen [h; w]) with 2. pose proof (Zlen_nonneg lead). destruct (Z.ltb_spec (Zlen lead + 2) 2); [lia|].
  replace (Zlen lead + 2 - 2) with (Zlen lead) by lia.
  assert (B : forall i' j' (s : list ascii), 0 <= i' < 28 -> In j' (zrange 0 28) -> (v <- t_at t (zrepeat 0 (Zlen lead) ++ [i'; j']) ;; c <- ascii_char v ;; Ok (s ++ [c])) = UB \/ exists s', (v <- t_at t (zrepeat 0 (Zlen lead) ++ [i'; j']) ;; c <- ascii_char v ;; Ok (s ++ [c])) = Ok s').
  { intros i' j' s Hi' Hj'. apply In_zrange in Hj'. rewrite (pixel_at t lead h w) by (auto; lia). cbn [bind]. destruct (level_or_off (tenfold (pixel t lead i' j'))) as [HU|(k & HK)]; [rewrite (ascii_off _ HU)|rewrite (ascii_level _ _ HK)]; cbn [bind]; eauto. }
  unfold for_ at 1. apply (foldM_ub _ _ i); [apply In_zrange; lia| |].
  - intros s. unfold for_. rewrite (foldM_ub _ _ j); [reflexivity|apply In_zrange; lia| |].
    + intros s'. rewrite (pixel_at t lead h w) by (auto; lia). cbn [bind]. rewrite (ascii_off _ HO). reflexivity.
    + intros b s' Hb. apply B; auto.
  - intros i0 s Hb. apply In_zrange in Hb. unfold for_.
    destruct (foldM_either (fun j' (o : list ascii) => v <- t_at t (zrepeat 0 (Zlen lead) ++ [i0; j']) ;; c <- ascii_char v ;; Ok (o ++ [c])) (zrange 0 28) (fun j' s' Hj' => B i0 j' s' Hb Hj') s) as [E|(s' & E)]; rewrite E; cbn [bind]; eauto.
Qed.
End Image.

(** A file that cannot be opened. *)
Lemma file_missing : forall {T} {S : Scalar T} b limit (labels : option (list Z)), load_images b limit None = (Throw RuntimeError : outcome (list (tensor T))) /\ load_labels b limit None = (Throw RuntimeError : outcome (list (tensor T))) /\
  load_data b limit None labels = (Throw RuntimeError : outcome (list (tensor T) * list (tensor T))) /\
  forall images (ts : list (tensor T)), load_images b limit images = Ok ts -> load_data b limit images None = (Throw RuntimeError : outcome (list (tensor T) * list (tensor T))).
Proof. intros T S b limit labels. repeat split. intros images ts H. unfold load_data. rewrite H. reflexivity. Qed.
