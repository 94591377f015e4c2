(** * Convolution weights that training never changes (C144) *)
From Coq Require Import String Reals Lra.
From Verif Require Import Base Scalar ScalarR Types Spec SpecR SpecNN SpecLayers SpecOpt M_Shape M_Tensor M_Adv M_Act M_Loss M_Layers M_Reg M_Opt M_Net M_Text M_Log SpecNet SpecLog SpecRetry SpecFit
  L_Index L_Shape L_Tensor L_Nest L_Conv L_Opt L_Net L_Net2 L_Train L_Log L_Retry L_Perm L_Fit L_Embed L_Chan.
Local Open Scope Z_scope.
Local Open Scope list_scope.

Section S.
Variable M : R.
Local Hint Extern 0 (Scalar R) => exact (L_Fit.RI M) : typeclass_instances.
Context {G : Type} {HR : Rng R G}.
Local Notation layer := (layer R).
Variable D : Z -> list Z.
Variable i : Z.
Variable W0 B0 : tensor R.
Definition kn_pos (a : Z) (idx : list Z) : list Z := idx.
(** Everything but the first channel of the first kernel. *)
Definition kn_idx (idx : list Z) : Prop := exists o c p q, idx = [o; c; p; q] /\ (o <> 0 \/ c <> 0).
Definition kb_idx (idx : list Z) : Prop := exists o, idx = [o; 0] /\ o <> 0.
Definition kn_K (a : Z) (idx : list Z) : Prop := (a = 2 * i /\ kn_idx idx) \/ (a = 2 * i + 1 /\ kb_idx idx).
Definition kn_PR (q q' : list layer) : Prop := q' = q /\ exists a c, q = a ++ [LConv c] /\ Zlen a = i /\ tdims (cv_w c) = D (2 * i) /\
  (forall idx, kn_idx idx -> in_range (D (2 * i)) idx -> el (cv_w c) idx = el W0 idx) /\ tdims (cv_b c) = D (2 * i + 1) /\
  (forall idx, kb_idx idx -> in_range (D (2 * i + 1)) idx -> el (cv_b c) idx = el B0 idx).
Lemma kn_shared : shared_from D D kn_pos kn_K (i + 1).
Proof. intros a Ha. split; [auto|]. split; [reflexivity|]. intros idx [(H & _)|(H & _)]; lia. Qed.
Lemma kn_emb : forall k w, good w -> tdims w = D k -> emb M D D kn_pos k w w.
Proof. intros k w Gw Ew. apply shared_emb; auto. Qed.
Lemma kn_ready : forall ls j, j + Zlen ls <= i -> Forall armed ls -> dims_at D j ls -> ready M D D kn_pos kn_K j ls ls.
Proof.
  induction ls as [|l ls IH]; intros j Hj HA HD; [constructor|]. rewrite Zlen_cons in Hj. pose proof (Zlen_nonneg ls). inversion HA as [|? ? A1 A2]; subst. destruct HD as (D1 & D2). unfold armed in A1. destruct (layer_params l) as [(w & b)|] eqn:Q1.
  - destruct A1 as (Gw & Gb & gw & gb & EG & Ggw & Egw & Ggb & Egb). destruct D1 as (D1 & D3).
    eapply rd_some; eauto; try (apply kn_emb; auto; congruence); try (intros idx [(HK & _)|(HK & _)]; lia). apply IH; auto; lia.
  - apply rd_none; auto. apply IH; auto; lia.
Qed.
Lemma kn_updated : forall ls j q q', updated M D D kn_pos kn_K j ls ls q q' -> q' = q /\ Zlen q = Zlen ls.
Proof.
  induction ls as [|l ls IH]; intros j q q' H; inversion H as [|? ? ? ? ? ? ? ? ? U|? ? ? ? ? ? ? w' b' w1 b1 w1' b1' ? ? W1 W2 ? ? U]; subst; [auto| |]; destruct (IH _ _ _ U) as (-> & L); rewrite !Zlen_cons, L; (split; [|reflexivity]); auto.
  apply shared_eq in W1; auto. apply shared_eq in W2; auto. subst. reflexivity.
Qed.
Lemma dims_at_pre : forall (a b : list layer) j, dims_at D j (a ++ b) -> dims_at D j a.
Proof. induction a as [|l a IH]; intros b j H; [exact I|]. destruct H as (H1 & H2). split; [auto|apply (IH b); auto]. Qed.
Lemma kn_pass : forall pre pre' (x x' : tensor R) (g : G) ds dm, accepts_all ds pre dm -> good x -> tdims x = ds -> kn_PR pre pre' -> x' = x ->
  Zlen pre = i + 1 /\ exists p1 p1' g1 y, forward_all pre x g = (p1, g1, Ok y) /\ forward_all pre' x' g = (p1', g1, Ok y) /\
    forall d, good d -> tdims d = dm -> exists p2 p2' gx gx', backward_all p1 d = (p2, Ok gx) /\ backward_all p1' d = (p2', Ok gx') /\ Zlen p2 = i + 1 /\ List.length p2' = List.length p2 /\
      (map params_dims p2 = map params_dims pre) /\ (dims_at D 0 pre -> ready M D D kn_pos kn_K 0 p2 p2') /\ forall q q', updated M D D kn_pos kn_K 0 p2 p2' q q' -> kn_PR q q'.
Proof.
  intros pre pre' x x' g ds dm HA Gx Ex (-> & a & c & -> & LA & EW & HK & EBD & HKB) ->. split; [rewrite Zlen_app, LA; reflexivity|].
  apply stack_app_inv in HA. destruct HA as (dc & A1 & A2). inversion A2 as [|? ? dm' ? ? A3 A4]; subst. inversion A4; subst.
  destruct (stack_chain accepts eq accepts_step' a _ dc x g A1 Gx eq_refl) as (a1 & g1 & y & F1 & Gy & Ey & B1).
  assert (HC : exists n h w, dc = [n; cv_ic c; h; w] /\ dm = [n; cv_oc c; h - cv_kh c + 1; w - cv_kw c + 1] /\ conv_wf c /\ cv_kh c <= h /\ cv_kw c <= w /\ n * (cv_oc c * ((h - cv_kh c + 1) * (w - cv_kw c + 1))) <= INT_MAX).
  { inversion A3 as [| | |n h w c0 GW EW' GB EB Hh Hw HMx| |]; subst. exists n, h, w. unfold conv_wf. auto 12. }
  destruct HC as (n & h & w & EC & ED & HW & Hh & Hw & HMx).
  destruct (accepts_step' _ _ _ y g1 A3 Gy Ey) as (c1 & g2 & z & F2 & Gz & Ez & B2).
  rewrite forward_app, F1. cbn [forward_all]. rewrite F2. do 4 eexists. split; [reflexivity|]. split; [reflexivity|].
  intros d Gd Ed. destruct (B2 d Gd (eq_sym Ed)) as (c2 & gy & K1 & Ggy & Egy & AC & PC & AR).
  assert (HG : exists cc, c2 = LConv cc /\ (exists gw, cv_gw cc = Some gw /\ forall idx, kn_idx idx -> in_range (D (2 * i)) idx -> el gw idx = 0%R) /\
    (exists gb, cv_gb cc = Some gb /\ forall idx, kb_idx idx -> in_range (D (2 * i + 1)) idx -> el gb idx = 0%R)).
  { rewrite EC in Ey. cbn [layer_forward] in F2. rewrite (conv_forward_ok c y n h w HW Gy Ey Hh Hw HMx) in F2. unfold lift in F2; cbn [fst snd] in F2. injection F2 as <- <- <-. rewrite ED in Ed. cbn [layer_backward] in K1.
    rewrite (conv_backward_ok (conv_saw c y) y d n n h w _ _ HW eq_refl Gy Gd Ey Ed eq_refl eq_refl) in K1. unfold lift in K1; cbn [fst snd conv_saw cv_oc cv_ic cv_kh cv_kw] in K1. injection K1 as <- _.
    destruct HW as (GW & EW' & GB & EB'). eexists. split; [reflexivity|]. split; cbn [cv_gw cv_gb]; (eexists; split; [reflexivity|]).
    - intros idx (o & k & p & q & -> & HN) HI. rewrite <- EW, EW' in HI. rewrite el_tensor_of by exact HI. unfold cgw. destruct o, k; try lia; reflexivity.
    - intros idx (o & -> & HN) HI. rewrite <- EBD, EB' in HI. rewrite el_tensor_of by exact HI. unfold cgb, idx_eqb. destruct (list_eq_dec Z.eq_dec [o; 0] [0; 0]) as [E|]; [injection E; lia|reflexivity]. }
  destruct HG as (cc & -> & (gw & EG & VG) & gb & EGB & VGB).
  destruct (B1 gy Ggy Egy) as (a2 & gx & K2 & Ggx & _ & _ & PA & ARA).
  assert (BB : backward_all (a1 ++ [c1]) d = (a2 ++ [LConv cc], Ok gx)) by (eapply backward_app; [|exact K2]; auto; cbn [backward_all]; rewrite K1; reflexivity).
  assert (LA2 : Zlen a2 = Zlen a) by (unfold Zlen; rewrite <- (map_length layer_params a2), PA, map_length; reflexivity).
  do 4 eexists. split; [exact BB|]. split; [exact BB|]. split; [rewrite Zlen_app, LA2, LA; reflexivity|]. split; [reflexivity|].
  assert (PD : map params_dims (a2 ++ [LConv cc]) = map params_dims (a ++ [LConv c])) by (apply params_dims_of; rewrite !map_app, PA; cbn [map]; rewrite PC; reflexivity).
  split; [exact PD|]. cbn [layer_params] in PC. injection PC as PC1 PC2. split.
  - intros HD. assert (HD2 : dims_at D 0 (a2 ++ [LConv cc])) by (eapply dims_at_same; [exact PD|exact HD]).
    apply ready_app; [apply kn_ready; [lia|auto|eapply dims_at_pre; exact HD2]|]. apply dims_at_app in HD2. rewrite LA2, LA in *. rewrite Z.add_0_l in *. destruct HD2 as (HDc & _). cbn [layer_params] in HDc. destruct HDc as (HD1 & HD3).
    unfold armed in AR. cbn [layer_params layer_grads] in AR. destruct AR as (Gw & Gb & gw' & gb' & EG' & Ggw & Egw & Ggb & Egb). rewrite EG, EGB in EG'. injection EG' as <- <-.
    eapply rd_some; [reflexivity|reflexivity|cbn [layer_grads]; rewrite EG, EGB; reflexivity|cbn [layer_grads]; rewrite EG, EGB; reflexivity| | | | | | |constructor]; try (apply kn_emb; auto; congruence).
    + intros idx [(_ & HI)|(HI & _)] HIR; [apply VG; auto|lia].
    + intros idx [(HI & _)|(_ & HI)] HIR; [lia|apply VGB; auto].
  - intros q q' HU. split; [eapply kn_updated; exact HU|]. apply updated_app in HU; [|auto]. destruct HU as (q1 & q1' & q2 & q2' & -> & -> & U1 & U2). destruct (kn_updated _ _ _ _ U1) as (-> & LQ).
    rewrite LA2, LA in *. inversion U2 as [|? ? ? ? ? ? ? NP|? ? ? ? ? q0 q0' w' b' w1 b1 w1' b1' NP PP W1 W2 W3 W4 W5]; subst; [discriminate NP|]. inversion W5; subst. cbn [layer_params] in PP. injection PP as <- <-. rewrite Z.add_0_l in *.
    pose proof W1 as (_ & _ & EE & _). apply shared_eq in W1; auto. subst w1'. pose proof W2 as (_ & _ & EE2 & _). apply shared_eq in W2; auto. subst b1'. exists q1. eexists. split; [cbn [with_params]; reflexivity|]. split; [auto|]. cbn [cv_w cv_b]. split; [exact EE|]. split; [|split; [exact EE2|]].
    + intros idx HI HR'. rewrite (W3 idx); [|left; auto|exact HR']. rewrite PC1. apply HK; auto.
    + intros idx HI HR'. rewrite (W4 idx); [|right; auto|exact HR']. rewrite PC2. apply HKB; auto.
Qed.
End S.

Section T.
Variable M : R.
Local Hint Extern 0 (Scalar R) => exact (L_Fit.RI M) : typeclass_instances.
Context {G : Type} {HR : Rng R G}.
Theorem kernels_still : forall (show : R -> string) (n : net R G) pre l rest ds ds' lo o xs ts e, n_layers n = pre ++ LConv l :: rest -> accepts_all ds (n_layers n) ds' -> n_loss n = Some lo -> n_opt n = Some o -> no_penalty o ->
  0 < Zlen xs <= Zlen ts -> Zlen xs <= INT_MAX -> 0 <= e -> e * Zlen xs * Zlen (n_layers n) <= INT_MAX -> Forall (fun x => good x /\ tdims x = ds) xs -> Forall (target_fits lo ds') ts ->
  exists n' out pre' l' rest', net_train_report show n xs ts e = ((n', out), Ok tt) /\ n_layers n' = pre' ++ LConv l' :: rest' /\ Zlen pre' = Zlen pre /\ tdims (cv_w l') = tdims (cv_w l) /\ tdims (cv_b l') = tdims (cv_b l) /\
    (forall o c p q, in_range (tdims (cv_w l)) [o; c; p; q] -> o <> 0 \/ c <> 0 -> el (cv_w l') [o; c; p; q] = el (cv_w l) [o; c; p; q]) /\
    (forall o, in_range (tdims (cv_b l)) [o; 0] -> o <> 0 -> el (cv_b l') [o; 0] = el (cv_b l) [o; 0]).
Proof.
  intros show n pre l rest ds ds' lo o xs ts e N1 HA HLo HOp HN HX HX3 HE HM HF1 HF2.
  pose (D := fun a => dims_map (n_layers n) (a - 2 * 0)). assert (HD : dims_at D 0 (n_layers n)) by apply dims_map_at. pose (i := Zlen pre).
  assert (HDl : tdims (cv_w l) = D (2 * i) /\ tdims (cv_b l) = D (2 * i + 1)).
  { pose proof HD as HD2. rewrite N1 in HD2. apply dims_at_app in HD2. rewrite Z.add_0_l in HD2. destruct HD2 as (H & _). cbn [layer_params] in H. destruct H as (H & H1). split; [first [exact H|exact (eq_sym H)]|first [exact H1|exact (eq_sym H1)]]. }
  destruct HDl as (D0 & D1). pose proof (kn_shared D i) as HS. pose proof (kn_pass M D i (cv_w l) (cv_b l)) as HP.
  assert (N2 : n_layers n = (pre ++ [LConv l]) ++ rest) by (rewrite <- app_assoc; exact N1).
  assert (CP : coupled (kn_PR M D i (cv_w l) (cv_b l)) n n).
  { exists (pre ++ [LConv l]), (pre ++ [LConv l]), rest. split; [auto|]. split; [auto|]. split; [|auto]. split; [auto|]. exists pre, l. auto 10. }
  destruct (embed_train M D D kn_pos (kn_K i) (i + 1) _ (fun a b => b = a) HS HP show ds ds' lo o n n xs xs ts e) as (n' & n2' & out & E1 & E2 & A' & CP'); auto.
  { apply no_penalty_new; auto. }
  { clear. induction xs; constructor; auto. }
  destruct CP' as (p1 & p2 & rest1 & L1 & _ & (_ & a & c & -> & LA & EW & HK & EB & HB) & _). exists n', out, a, c, rest1. split; [auto|]. split; [rewrite L1, <- app_assoc; reflexivity|]. split; [auto|]. split; [congruence|]. split; [congruence|].
  split; [intros u v p q HI HN'; apply HK; [exists u, v, p, q; auto|rewrite <- D0; auto]|intros u HI HN'; apply HB; [exists u; auto|rewrite <- D1; auto]].
Qed.
End T.
