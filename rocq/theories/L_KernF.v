(** * Convolution weights that plain SGD never changes, in any arithmetic (C145) *)
From Coq Require Import Reals SpecFloat.
From Verif Require Import Base Scalar Types Spec SpecR SpecF32 SpecNN SpecLayers SpecOpt M_Shape M_Tensor M_Adv M_Act M_Loss M_Layers M_Reg M_Opt M_Net SpecNet
  L_Index L_Shape L_Tensor L_Nest L_Conv L_Opt L_Net L_Net2 L_Train L_F32 L_Float L_FreezeF.
Local Open Scope Z_scope.
Local Open Scope list_scope.

Section S.
Context {T : Type} {S : Scalar T} {G : Type} {HR : Rng T G}.
Local Notation layer := (layer T).
(** Two numbers that count as the same; subtracting the rate times zero makes no difference. *)
Variable Q : T -> T -> Prop.
Variable r0 : T.
Hypothesis HQ : forall v w, Q v w -> Q v (s_sub w (s_mul r0 zero)).
Variable W0 B0 : tensor T.
Definition kf_kept (c : conv T) : Prop := tdims (cv_w c) = tdims W0 /\ tdims (cv_b c) = tdims B0 /\
  (forall o k p q, in_range (tdims W0) [o; k; p; q] -> o <> 0 \/ k <> 0 -> Q (el W0 [o; k; p; q]) (el (cv_w c) [o; k; p; q])) /\
  (forall o, in_range (tdims B0) [o; 0] -> o <> 0 -> Q (el B0 [o; 0]) (el (cv_b c) [o; 0])).
Definition kf_inv (i : Z) (ls : list layer) : Prop := exists a c r, ls = a ++ LConv c :: r /\ Zlen a = i /\ kf_kept c.
Definition kf_zero (c : conv T) : Prop := exists gw gb, cv_gw c = Some gw /\ cv_gb c = Some gb /\
  (forall o k p q, in_range (tdims (cv_w c)) [o; k; p; q] -> o <> 0 \/ k <> 0 -> el gw [o; k; p; q] = zero) /\ (forall o, in_range (tdims (cv_b c)) [o; 0] -> o <> 0 -> el gb [o; 0] = zero).

Lemma kf_split : forall (a b : list layer) ds ds', accepts_all ds (a ++ b) ds' -> exists dm, accepts_all ds a dm /\ accepts_all dm b ds'.
Proof.
  induction a as [|l a IH]; intros b ds ds' H; cbn [app] in H; [exists ds; split; [constructor|auto]|]. inversion H as [|? ? d1 ? ? H1 H2]; subst. destruct (IH b d1 ds' H2) as (dm & A & B). exists dm. split; [econstructor; eauto|auto].
Qed.
Lemma kf_back_app : forall (a b a' b' : list layer) (d gm gx : tensor T), backward_all b d = (b', Ok gm) -> backward_all a gm = (a', Ok gx) -> backward_all (a ++ b) d = (a' ++ b', Ok gx).
Proof.
  induction a as [|l a IH]; intros b a' b' d gm gx HB HA; cbn [app backward_all] in *; [injection HA as <- <-; exact HB|].
  destruct (backward_all a gm) as (a1 & [g1| | | |]) eqn:E1; try discriminate. destruct (layer_backward l g1) as (l1 & o1) eqn:E2. injection HA as <- ->. rewrite (IH b a1 b' d gm g1 HB E1), E2. reflexivity.
Qed.
Lemma kf_passes : forall a c r ds ds' (x : tensor T) (g : G), accepts_all ds (a ++ LConv c :: r) ds' -> good x -> tdims x = ds ->
  exists ls1 g' y, forward_all (a ++ LConv c :: r) x g = (ls1, g', Ok y) /\ good y /\ tdims y = ds' /\
    forall d, good d -> tdims d = ds' -> exists a2 cc r2 gx, backward_all ls1 d = (a2 ++ LConv cc :: r2, Ok gx) /\ Zlen a2 = Zlen a /\ cv_w cc = cv_w c /\ cv_b cc = cv_b c /\ kf_zero cc.
Proof.
  intros a c r ds ds' x g HA Gx Ex. apply kf_split in HA. destruct HA as (dc & A1 & A2). inversion A2 as [|? ? dm ? ? A3 A4]; subst.
  destruct (stack_chain accepts eq accepts_step' a _ dc x g A1 Gx eq_refl) as (a1 & g1 & y & F1 & Gy & Ey & B1).
  assert (HC : exists n h w, dc = [n; cv_ic c; h; w] /\ dm = [n; cv_oc c; h - cv_kh c + 1; w - cv_kw c + 1] /\ conv_wf c /\ cv_kh c <= h /\ cv_kw c <= w /\ n * (cv_oc c * ((h - cv_kh c + 1) * (w - cv_kw c + 1))) <= INT_MAX).
  { inversion A3 as [| | |n h w c0 GW EW' GB EB Hh Hw HMx| |]; subst. exists n, h, w. unfold conv_wf. auto 12. }
  destruct HC as (n & h & w & EC & ED & HW & Hh & Hw & HMx).
  destruct (accepts_step' _ _ _ y g1 A3 Gy Ey) as (c1 & g2 & z & F2 & Gz & Ez & B2).
  destruct (stack_chain accepts eq accepts_step' r dm ds' z g2 A4 Gz Ez) as (r1 & g3 & u & F3 & Gu & Eu & B3).
  exists (a1 ++ c1 :: r1), g3, u. rewrite forward_app, F1. cbn [forward_all]. rewrite F2, F3. split; [reflexivity|]. split; [auto|]. split; [auto|].
  intros d Gd Ed. destruct (B3 d Gd (eq_sym Ed)) as (r2 & gz & K3 & Ggz & Egz & _). destruct (B2 gz Ggz Egz) as (c2 & gy & K1 & Ggy & Egy & _ & PC & _). destruct (B1 gy Ggy Egy) as (a2 & gx & K2 & _ & _ & _ & PA & _).
  assert (HG : exists cc, c2 = LConv cc /\ cv_w cc = cv_w c /\ cv_b cc = cv_b c /\ kf_zero cc).
  { rewrite EC in Ey. cbn [layer_forward] in F2. rewrite (conv_forward_ok c y n h w HW Gy Ey Hh Hw HMx) in F2. unfold lift in F2; cbn [fst snd] in F2. injection F2 as <- <- <-. rewrite ED in Egz. cbn [layer_backward] in K1.
    rewrite (conv_backward_ok (conv_saw c y) y gz n n h w _ _ HW eq_refl Gy Ggz Ey (eq_sym Egz) eq_refl eq_refl) in K1. unfold lift in K1; cbn [fst snd conv_saw cv_oc cv_ic cv_kh cv_kw cv_w cv_b] in K1. injection K1 as <- _.
    destruct HW as (GW & EW' & GB & EB'). eexists. split; [reflexivity|]. split; [reflexivity|]. split; [reflexivity|]. unfold kf_zero. cbn [cv_gw cv_gb cv_w cv_b]. do 2 eexists. split; [reflexivity|]. split; [reflexivity|]. split.
    - intros o k p q HI HN. rewrite EW' in HI. rewrite el_tensor_of by exact HI. unfold cgw. destruct o, k; try lia; reflexivity.
    - intros o HI HN. rewrite EB' in HI. rewrite el_tensor_of by exact HI. unfold cgb, idx_eqb. destruct (list_eq_dec Z.eq_dec [o; 0] [0; 0]) as [E|]; [injection E; lia|reflexivity]. }
  destruct HG as (cc & -> & PW & PB & HZ). exists a2, cc, r2, gx. split; [eapply kf_back_app; [|exact K2]; cbn [backward_all]; rewrite K3, K1; reflexivity|]. split; [unfold Zlen; rewrite <- (map_length layer_params a2), PA, map_length; reflexivity|]. auto.
Qed.
Lemma F2_app : forall {A B} (P : A -> B -> Prop) a x r m, Forall2 P (a ++ x :: r) m -> exists a' x' r', m = a' ++ x' :: r' /\ Zlen a' = Zlen a /\ P x x'.
Proof.
  induction a as [|y a IH]; intros x r m H; cbn [app] in H; inversion H as [|? y' ? m' H1 H2]; subst; [exists [], y', m'; auto|]. destruct (IH _ _ _ H2) as (a' & x' & r' & -> & L & HP). exists (y' :: a'), x', r'. rewrite !Zlen_cons, L. auto.
Qed.
Definition conv_stays (l l' : layer) : Prop := match l with LConv _ => exists c, l' = LConv c | _ => True end.
Lemma kf_kind : forall ls i o, Forall2 conv_stays ls (fst (fst (update_all i ls o))).
Proof.
  assert (HS : forall l, conv_stays l l) by (intros [l|l|l|l|l|l|l]; cbn; eauto).
  induction ls as [|l ls IH]; intros i o; cbn [update_all]; [constructor|].
  assert (H : conv_stays l (fst (fst (layer_update i l o)))).
  { destruct l as [l|l|l|l|l|l|l]; try exact I. cbn [layer_update]. destruct (cv_gw l); [|cbn; eauto]. destruct (cv_gb l); [|cbn; eauto]. destruct (pair_optimize _ _ _ _ _ _) as (((? & ?) & ?) & ?). cbn. eauto. }
  destruct (layer_update i l o) as ((l' & o') & [u| | | |]); cbn [fst] in *; try (constructor; [exact H|]; clear - HS; induction ls; constructor; auto; fail).
  specialize (IH (i + 1) o'). destruct (update_all (i + 1) ls o') as ((r' & o2) & u2). cbn [fst] in *. constructor; auto.
Qed.
Lemma kf_kinds : forall n2 n' : net T G, net_update n2 = (n', Ok tt) -> Forall2 conv_stays (n_layers n2) (n_layers n').
Proof.
  assert (HS : forall ls : list layer, Forall2 conv_stays ls ls) by (induction ls as [|[l|l|l|l|l|l|l] ls IH]; constructor; cbn; eauto).
  intros n2 n' E. unfold net_update in E. destruct (n_layers n2) as [|l ls] eqn:EL; [injection E as <-; rewrite EL; constructor|]. destruct (n_opt n2) as [o|]; [|discriminate].
  pose proof (kf_kind (l :: ls) 0 o) as H. destruct (update_all 0 (l :: ls) o) as ((ls' & o') & r). injection E as <- _. exact H.
Qed.
Lemma kf_step : forall D ds ds' (n : net T G) lo o (x t : tensor T) i, trainable D ds ds' n lo o -> counts_nonzero (T := T) -> plain_rate o = Some r0 -> good x -> tdims x = ds -> target_fits lo ds' t -> kf_inv i (n_layers n) ->
  room o (Zlen (n_layers n)) -> exists n' o', fit_one n x t n' /\ trainable D ds ds' n' lo o' /\ plain_rate o' = Some r0 /\ Zlen (n_layers n') = Zlen (n_layers n) /\ (forall k, 0 <= k -> room o (k + Zlen (n_layers n)) -> room o' k) /\ kf_inv i (n_layers n').
Proof.
  intros D ds ds' n lo o x t i HT HC HP Gx Ex Ht (a & c & r & EL & LA & K1 & K2 & K3 & K4) HM.
  destruct (fit_step D ds ds' n lo o x t HT HM HC Gx Ex Ht) as (n1 & p & d & n2 & n' & o' & E1 & E2 & E3 & E4 & F & HT' & PD & HK & PR & PL & DE). specialize (DE r0 HP).
  exists n', o'. split; [exact F|]. split; [exact HT'|]. split; [congruence|]. split; [unfold Zlen; rewrite <- (map_length params_dims (n_layers n')), PD, map_length; reflexivity|]. split; [exact HK|].
  destruct HT as (HA & HL & _). rewrite EL in HA. destruct (kf_passes a c r ds ds' x (n_rng n) HA Gx Ex) as (ls1 & g' & y & F1 & Gy & Ey & HB).
  unfold net_predict in E1. rewrite EL, F1 in E1. injection E1 as <- <-.
  destruct (loss_total lo ds' y t HC Gy Ey Ht) as (_ & d0 & ED & Gd & Edd). rewrite E2 in ED. injection ED as <-.
  destruct (HB d Gd Edd) as (a2 & cc & r2 & gx & BB & LA2 & PW & PB & gw & gb & Egw & Egb & ZW & ZB). unfold net_backward in E3. cbn [n_layers] in E3. rewrite BB in E3. cbn [step] in E3. injection E3 as <-.
  pose proof (kf_kinds _ _ E4) as KK. cbn [net_with n_layers] in DE, KK.
  assert (BOTH : Forall2 (fun l l' => layer_descended r0 l l' /\ conv_stays l l') (a2 ++ LConv cc :: r2) (n_layers n')).
  { clear - DE KK. induction DE as [|l l' m m' H DE IH]; [constructor|]. inversion KK; subst. constructor; auto. }
  apply F2_app in BOTH. destruct BOTH as (a' & l' & r' & EL' & LA' & DD & c' & ->). exists a', c', r'. split; [exact EL'|]. split; [congruence|].
  unfold layer_descended in DD. cbn [layer_params layer_grads] in DD. rewrite Egw, Egb in DD. destruct DD as ((D1 & D2) & D3 & D4). rewrite PW in *. rewrite PB in *.
  split; [congruence|]. split; [congruence|]. split.
  - intros u k p q HI HN. rewrite D2, ZW by (rewrite ?K1; auto). apply HQ. apply K3; auto.
  - intros u HI HN. rewrite D4, ZB by (rewrite ?K2; auto). apply HQ. apply K4; auto.
Qed.
Lemma kf_fit : forall D ds ds' lo i samples (n : net T G) o, trainable D ds ds' n lo o -> counts_nonzero (T := T) -> plain_rate o = Some r0 -> room o (Zlen samples * Zlen (n_layers n)) ->
  Forall (fun s => good (fst s) /\ tdims (fst s) = ds /\ target_fits lo ds' (snd s)) samples -> kf_inv i (n_layers n) -> exists n', fit n samples n' /\ kf_inv i (n_layers n').
Proof.
  intros D ds ds' lo i. induction samples as [|(x & t) r IH]; intros n o HT HC HP HM HF HI.
  - exists n. split; [constructor|auto].
  - inversion HF as [|? ? (Gx & Ex & Ht) HF']; subst. cbn [fst snd] in *. rewrite Zlen_cons in HM. pose proof (Zlen_nonneg r). pose proof (Zlen_nonneg (n_layers n)).
    destruct (kf_step D (tdims x) ds' n lo o x t i HT HC HP Gx eq_refl Ht HI) as (n' & o' & F & HT' & HP' & LEN & HK & HI'); [eapply room_le; [|exact HM]; nia|].
    destruct (IH n' o' HT' HC HP') as (m & F2 & A2); [rewrite LEN; apply HK; [nia|]; eapply room_le; [|exact HM]; nia|auto|auto|]. exists m. split; [econstructor; eauto|auto].
Qed.
End S.
Theorem kernels_plain : forall {T} {S : Scalar T} {G} {HR : Rng T G} (Q : T -> T -> Prop) (r0 : T) (n : net T G) pre l rest ds ds' lo o xs ts e, (forall v w, Q v w -> Q v (s_sub w (s_mul r0 zero))) -> (forall v, Q v v) ->
  n_layers n = pre ++ LConv l :: rest -> accepts_all ds (n_layers n) ds' -> n_loss n = Some lo -> n_opt n = Some o -> new_optim o -> plain_rate o = Some r0 -> counts_nonzero (T := T) ->
  0 < Zlen xs <= Zlen ts -> Zlen xs <= INT_MAX -> 0 <= e -> e * Zlen xs * Zlen (n_layers n) <= INT_MAX -> Forall (fun x => good x /\ tdims x = ds) xs -> Forall (target_fits lo ds') ts ->
  exists n' pre' l' rest', net_train n xs ts e = (n', Ok tt) /\ n_layers n' = pre' ++ LConv l' :: rest' /\ Zlen pre' = Zlen pre /\ tdims (cv_w l') = tdims (cv_w l) /\ tdims (cv_b l') = tdims (cv_b l) /\
    (forall o c p q, in_range (tdims (cv_w l)) [o; c; p; q] -> o <> 0 \/ c <> 0 -> Q (el (cv_w l) [o; c; p; q]) (el (cv_w l') [o; c; p; q])) /\
    (forall o, in_range (tdims (cv_b l)) [o; 0] -> o <> 0 -> Q (el (cv_b l) [o; 0]) (el (cv_b l') [o; 0])).
Proof.
  intros T S G HR Q r0 n pre l rest ds ds' lo o xs ts e HQ HQ0 N1 HA HL HOp HN HP HC (HX1 & HX2) HX3 HE HM HF1 HF2.
  pose (D := fun k => dims_map (n_layers n) (k - 2 * 0)).
  assert (LC : Zlen (combine xs ts) = Zlen xs) by (unfold Zlen in *; rewrite combine_length; lia).
  destruct (kf_fit Q r0 HQ (cv_w l) (cv_b l) D ds ds' lo (Zlen pre) (concat (repeat (combine xs ts) (Z.to_nat e))) n o) as (n' & F & a & c & r & EL & LA & K1 & K2 & K3 & K4); auto.
  - split; [auto|]. split; [auto|]. split; [auto|]. split; [apply dims_map_at|apply new_ready; auto].
  - apply new_room; auto. rewrite Zlen_concat_repeat, LC, Z2Nat.id by lia. auto.
  - apply Forall_concat_repeat. eapply Forall_impl; [|apply (Forall_combine _ _ _ _ HF1 HF2)]. intros (a & b) ((G1 & G2) & G3). auto.
  - exists pre, l, rest. split; [auto|]. split; [auto|]. split; [auto|]. split; [auto|]. split; auto.
  - exists n', a, c, r. split; [|auto 10]. apply train_fit; auto.
Qed.

Section F.
Variable lm : libm.
Local Instance SFk : Scalar f32 := F32Scalar lm.
Lemma times_zero : forall r v w : f32, f32_finite r -> (f32_finite v -> same32 v w) -> f32_finite v -> same32 v (s_sub w (s_mul r zero)).
Proof.
  intros r v w HF HW HV. destruct (HW HV) as (A & B). clear HW. change (same32 v (SFsub f32_prec f32_emax w (SFmul f32_prec f32_emax r (S754_zero false)))). unfold same32 in *. rewrite <- B. clear B HV.
  destruct r as [sg|sg| |sg mg eg], w as [sw|sw| |sw mw ew]; try destruct A; try destruct HF; try destruct sg; try destruct sw; split; cbn; auto.
Qed.
Theorem kernels32 : forall G (HR : Rng f32 G) lr damp nest (n : net f32 G) pre l rest ds ds' lo xs ts e, f32_finite lr ->
  n_layers n = pre ++ LConv l :: rest -> accepts_all ds (n_layers n) ds' -> n_loss n = Some lo -> n_opt n = Some (OSGD (sgd_new lr zero damp zero nest)) ->
  0 < Zlen xs <= Zlen ts -> Zlen xs <= INT_MAX -> 0 <= e -> e * Zlen xs * Zlen (n_layers n) <= INT_MAX -> Forall (fun x => good x /\ tdims x = ds) xs -> Forall (target_fits lo ds') ts ->
  exists n' pre' l' rest', net_train n xs ts e = (n', Ok tt) /\ n_layers n' = pre' ++ LConv l' :: rest' /\ Zlen pre' = Zlen pre /\ tdims (cv_w l') = tdims (cv_w l) /\ tdims (cv_b l') = tdims (cv_b l) /\
    (forall o c p q, in_range (tdims (cv_w l)) [o; c; p; q] -> o <> 0 \/ c <> 0 -> f32_finite (el (cv_w l) [o; c; p; q]) -> f32_finite (el (cv_w l') [o; c; p; q]) /\ f32_value (el (cv_w l') [o; c; p; q]) = f32_value (el (cv_w l) [o; c; p; q])) /\
    (forall o, in_range (tdims (cv_b l)) [o; 0] -> o <> 0 -> f32_finite (el (cv_b l) [o; 0]) -> f32_finite (el (cv_b l') [o; 0]) /\ f32_value (el (cv_b l') [o; 0]) = f32_value (el (cv_b l) [o; 0])).
Proof.
  intros G HR lr damp nest n pre l rest ds ds' lo xs ts e HF N1 HA HL HO HX HX3 HE HM HF1 HF2.
  apply (kernels_plain (fun v w => f32_finite v -> same32 v w) lr n pre l rest ds ds' lo _ xs ts e) with (1 := fun v w H => times_zero lr v w HF H) (6 := HO); auto.
  - intros v HV. split; auto.
  - constructor.
  - exact (f32_counts lm).
Qed.
End F.
