(** * Networks in which ReLU does nothing, in float32 (C143) *)
From Coq Require Import Reals Lra SpecFloat.
From Flocq Require Import Core BinarySingleNaN.
From Verif Require Import Base Scalar ScalarR Types Spec SpecNN SpecLayers SpecR SpecF32 M_Shape M_Tensor M_Adv M_Act M_Loss M_Layers M_Reg M_Opt M_Net SpecNet L_Index L_Shape L_Tensor L_Nest L_Matmul L_RSum L_Adv L_AdvR L_Act L_ActR L_Layers L_Conv L_Float L_FloatAct L_FloatLib L_FloatT L_FloatB L_Drop L_Batch L_Slice L_BN L_BNR L_Pool SpecFuse L_Swap SpecNear L_Near L_Near2 L_Near3 L_Loss SpecMono L_MonoF SpecIdle.
Local Open Scope R_scope.
Local Notation V := (SF2R radix2).
Local Notation fadd := (SFadd f32_prec f32_emax).

Section N.
Variable lm : libm.
Let SF : Scalar f32 := F32Scalar lm.
#[local] Existing Instance SF.
Local Notation dotl := (L_Float.dotl lm).
Context {G : Type} {HR : Rng f32 G}.
Lemma dot_pos : forall {A} (l : list A) f g, (forall a, In a l -> vok (f a)) -> (forall a, In a l -> vok (g a)) -> (forall a, In a l -> 0 <= V (f a)) -> (forall a, In a l -> 0 <= V (g a)) -> fin (dotl l f g) -> 0 <= V (dotl l f g).
Proof.
  intros A l f g. induction l as [|a l IH] using rev_ind; intros H1 H3 H4 H5 F; [unfold L_Float.dotl; cbn; lra|].
  rewrite dotl_snoc in F |- *.
  assert (I : forall b, In b l -> In b (l ++ [a])) by (intros; apply in_or_app; auto). assert (Ia : In a (l ++ [a])) by (apply in_or_app; right; left; auto).
  assert (D1 : vok (dotl l f g)) by (apply fsum_vok; apply dot_vok; auto).
  destruct (add_fin _ _ D1 (mul_vok _ _ (H1 a Ia) (H3 a Ia)) F) as (F1 & F2 & E). rewrite E. rewrite <- rnd_0. apply rnd_le.
  destruct (mul_fin _ _ (H1 a Ia) (H3 a Ia) F2) as (_ & _ & M). rewrite M. assert (0 <= V (dotl l f g)) by (apply IH; auto).
  assert (0 <= rnd (V (f a) * V (g a))) by (rewrite <- rnd_0 at 1; apply rnd_le; apply Rmult_le_pos; auto). lra.
Qed.
Lemma affine_pos : forall {A} (l : list A) f g b, (forall a, In a l -> vok (f a)) -> (forall a, In a l -> vok (g a)) -> vok b -> (forall a, In a l -> 0 <= V (f a)) -> (forall a, In a l -> 0 <= V (g a)) -> 0 <= V b ->
  fin (fadd (dotl l f g) b) -> 0 <= V (fadd (dotl l f g) b).
Proof.
  intros A l f g b H1 H3 HB H4 H5 H6 F. assert (D1 : vok (dotl l f g)) by (apply fsum_vok; apply dot_vok; auto).
  destruct (add_fin _ _ D1 HB F) as (F1 & _ & E). rewrite E. rewrite <- rnd_0. apply rnd_le. pose proof (dot_pos l f g H1 H3 H4 H5 F1). lra.
Qed.
Lemma rect_id : forall (a : act f32) v, match a with ReLU => True | LeakyReLU al => good_f al /\ Rabs (V al) <= 1 | _ => False end -> good_f v -> 0 <= V v -> V (act_el a v) = V v.
Proof.
  intros a v HA (Hv & Fv) P. destruct a as [|al| | | | |]; try contradiction; cbn [act_el].
  - unfold s_max. change (s_lt zero v) with (SFltb (f32_of_Z 0) v). rewrite ltb_V by (auto; reflexivity). change (V (f32_of_Z 0)) with 0. destruct (Rlt_bool_spec 0 (V v)); [auto|]. change (V zero) with 0. lra.
  - destruct HA as ((Ha & Fa) & Ba). destruct (leaky_in lm al v Ha Fa Ba Hv Fv) as (L1 & L2 & L3). revert L1 L2 L3. change (s_lt zero v) with (SFltb (f32_of_Z 0) v). rewrite !ltb_V by (auto; reflexivity). change (V (f32_of_Z 0)) with 0.
    destruct (Rlt_bool_spec 0 (V v)); intros L1 L2 L3; [auto|]. assert (E : V v = 0) by lra. rewrite E, Rabs_R0, Ropp_0 in L3. rewrite E. destruct L3 as (A & B). apply Rle_antisym; [exact B|exact A].
Qed.
Let HR' : Rng R unit := {| rng_seed := fun _ => tt; rng_normal := fun r g => (r, g); rng_uniform := fun a _ g => (a, g) |}.
Lemma pos_at : forall ds M E x y idx, close lm ds M E x y -> no_minus32 lm x -> in_range ds idx -> good_f (el x idx) /\ 0 <= V (el x idx).
Proof. intros ds M E x y idx HC HX HI. pose proof HC as (_ & Ex & _). split; [apply (close_at lm _ _ _ _ _ _ HC HI)|]. rewrite <- value_V. apply HX. rewrite Ex. exact HI. Qed.
Lemma pos_by : forall ds M E u v, close lm ds M E u v -> (forall idx, in_range ds idx -> good_f (el u idx) -> 0 <= V (el u idx)) -> no_minus32 lm u.
Proof. intros ds M E u v HC H idx HI. pose proof HC as (_ & Eu & _). rewrite Eu in HI. rewrite value_V. apply H; [exact HI|apply (close_at lm _ _ _ _ _ _ HC HI)]. Qed.
Lemma flat_pos : forall n k c r M E (l : flatten) x y u v, k = prod (c :: r) -> close lm (n :: c :: r) M E x y -> no_minus32 lm x -> close lm [n; k] M E u v -> snd (flatten_forward l x) = Ok u -> no_minus32 lm u.
Proof.
  intros n k c r M E l x y u v -> HC HX HU E2. pose proof HC as (Gx & Ex & _). destruct (flat_any l x n c r Gx Ex) as (l1 & F1). rewrite F1 in E2. injection E2 as <-.
  destruct (close_pos lm _ _ _ _ _ HC) as (HP & HM & _). pose proof (pos_forall _ HP) as HF. inversion HF as [|? ? Hn HF']; subst. pose proof (prod_pos _ HF') as HP'.
  assert (EP : prod [n; prod (c :: r)] = prod (n :: c :: r)) by (change (prod (n :: c :: r)) with (n * prod (c :: r))%Z; cbn [prod]; lia).
  apply (pos_by _ _ _ _ _ HU). intros idx HI _. pose proof (ravel_bound _ _ HI) as HB. rewrite EP in HB.
  destruct (pos_at _ _ _ _ _ (unravel (n :: c :: r) (ravel [n; prod (c :: r)] idx)) HC HX) as (_ & C); [apply unravel_range; auto|]. unfold el in C. rewrite Ex in C. rewrite ravel_unravel in C by auto. rewrite !el_in_shape by (auto; rewrite ?EP; auto with idx). exact C.
Qed.
Lemma pool_pos : forall (l : pool f32) n c h w M E x y u v, po_pad l = 0%Z -> (0 < po_stride l)%Z -> (0 < po_size l)%Z -> (po_size l <= h)%Z -> (po_size l <= w)%Z ->
  let ds := [n; c; pool_extent (po_size l) (po_stride l) h; pool_extent (po_size l) (po_stride l) w] in
  close lm [n; c; h; w] M E x y -> no_minus32 lm x -> close lm ds M E u v -> snd (pool_forward l x) = Ok u -> no_minus32 lm u.
Proof.
  intros l n c h w M E x y u v H1 H2 H3 H4 H5 ds HC HX HU E2. pose proof HC as (Gx & Ex & Fx & _).
  assert (CX : comparable x) by (exact (cmp lm x Gx Fx)).
  destruct (pool_forward_max l x n c h w Gx Ex CX H1 H2 H3 H4 H5) as (z & U1 & Gz & Ez & HZ).
  rewrite U1 in E2. injection E2 as <-. apply (pos_by _ _ _ _ _ HU). intros o HO _.
  destruct (HZ o ltac:(rewrite Ez; exact HO)) as (W1 & p & FP & EP). rewrite Ex in W1. rewrite Forall_forall in W1. rewrite EP. apply (pos_at _ _ _ _ _ _ HC HX). apply W1. apply (first_max_in _ _ _ FP).
Qed.
Lemma layer_pos : forall ds M E l ds' M' E' x y u v l1 (g : G), drift lm ds M E l ds' M' E' -> unsigned32 lm l -> close lm ds M E x y -> no_minus32 lm x -> layer_forward l x g = (l1, g, Ok u) -> close lm ds' M' E' u v -> no_minus32 lm u.
Proof.
  intros ds M E l ds' M' E' x y u v l1 g HD HU HC HX U1 CU.
  assert (Q : snd (layer_forward l x g) = Ok u) by (rewrite U1; reflexivity). clear U1.
  pose proof HC as (Gx & Ex & Fx & _).
  destruct HD; cbn [layer_forward unsigned32 al_act] in Q, HU; try contradiction; unfold lift in Q; cbn [fst snd] in Q.
  - rename H into HW. pose proof HW as (Gw & Dw & Gb & Db). destruct HU as (HU & HB). rewrite (fc_forward_2 l k o x n) in Q by auto. injection Q as <-.
    apply (pos_by _ _ _ _ _ CU). intros idx HI (_ & F1). revert F1. rewrite !el_tensor_of by auto. apply in_range_2 in HI. destruct HI as (i & j & -> & Hi & Hj). unfold affine, fn2. cbn [nth]. intros F1.
    apply (affine_pos (zrange 0 k) (fun p => el x [i; p]) (fun p => el (M_Layers.fc_w l) [p; j]) (el (M_Layers.fc_b l) [0%Z; j])); auto.
    + intros p Hp. apply In_zrange in Hp. apply (pos_at _ _ _ _ _ [i; p] HC HX). apply in_range2; auto.
    + intros p Hp. apply In_zrange in Hp. apply (el_good lm); auto. rewrite Dw. apply in_range2; auto.
    + apply (el_good lm); auto. rewrite Db. apply in_range2; lia.
    + intros p Hp. apply In_zrange in Hp. apply (pos_at _ _ _ _ _ [i; p] HC HX). apply in_range2; auto.
    + intros p Hp. apply In_zrange in Hp. rewrite <- value_V. apply HU. rewrite Dw. apply in_range2; auto.
    + rewrite <- value_V. apply HB. rewrite Db. apply in_range2; lia.
  - rename H into HW. pose proof HW as (Gw & Dw & Gb & Db). destruct HU as (HU & HB). destruct (dims4_pos _ _ _ _ _ Gw Dw) as (Hoc & _ & Hkh & Hkw & _). rewrite (conv_forward_ok l x n h w) in Q by (auto; rewrite H2; auto). injection Q as <-.
    apply (pos_by _ _ _ _ _ CU). intros idx HI (_ & F1). revert F1. rewrite !el_tensor_of by auto. apply in_range_4 in HI. destruct HI as (i & o & r & c & -> & Hi & Ho & Hr & Hc).
    set (L := all_indices [cv_kh l; cv_kw l]). set (f := fun z => fun pq => el z [i; 0; r + nth 0 pq 0; c + nth 1 pq 0]%Z). set (q := fun pq => el (cv_w l) [o; 0; nth 0 pq 0; nth 1 pq 0]%Z). set (b := el (cv_b l) [o; 0]%Z).
    assert (HIN : forall pq, In pq L -> exists p q, pq = [p; q] /\ (0 <= p < cv_kh l)%Z /\ (0 <= q < cv_kw l)%Z).
    { intros pq Hpq. apply In_all_indices in Hpq; [|auto with idx]. apply in_range_2 in Hpq. destruct Hpq as (p & s & -> & Hp & Hs). eauto. }
    assert (EQ : forall z, fn4 (conv0 z (cv_w l) (cv_b l) (cv_kh l) (cv_kw l)) [i; o; r; c] = fadd (dotl L (f z) q) b).
    { intros z. unfold fn4. cbn [nth]. unfold conv0, L_Float.dotl. erewrite map_ext_in; [reflexivity|]. intros pq Hpq. destruct (HIN pq Hpq) as (p & s & -> & _). reflexivity. }
    rewrite !EQ. intros F1. apply affine_pos; auto.
    + intros pq Hpq. destruct (HIN pq Hpq) as (p & s & -> & Hp & Hs). apply (pos_at _ _ _ _ _ [i; 0; r + p; c + s]%Z HC HX). apply in_range4; lia.
    + intros pq Hpq. destruct (HIN pq Hpq) as (p & s & -> & Hp & Hs). apply (el_good lm); auto. rewrite Dw. cbn [nth]. apply in_range4; lia.
    + apply (el_good lm); auto. rewrite Db. apply in_range2; lia.
    + intros pq Hpq. destruct (HIN pq Hpq) as (p & s & -> & Hp & Hs). apply (pos_at _ _ _ _ _ [i; 0; r + p; c + s]%Z HC HX). apply in_range4; lia.
    + intros pq Hpq. destruct (HIN pq Hpq) as (p & s & -> & Hp & Hs). rewrite <- value_V. apply HU. rewrite Dw. cbn [nth]. apply in_range4; lia.
    + unfold b. rewrite <- value_V. apply HB. rewrite Db. apply in_range2; lia.
  - unfold act_forward in Q. cbn [al_act snd] in Q. rewrite act_fwd_el in Q by (auto; discriminate). injection Q as <-. apply (pos_by _ _ _ _ _ CU). intros idx HI _. rewrite Ex, el_tensor_of by auto. destruct (pos_at _ _ _ _ _ _ HC HX HI) as (A & B). pose proof (rect_id ReLU (el x idx) I A B) as W. change (0 <= V (act_el ReLU (el x idx))). rewrite W. exact B.
  - apply within_in in H. destruct H as (A1 & A2 & A3). unfold act_forward in Q. cbn [al_act snd] in Q. rewrite act_fwd_el in Q by (auto; discriminate). injection Q as <-. apply (pos_by _ _ _ _ _ CU). intros idx HI _. rewrite Ex, el_tensor_of by auto. destruct (pos_at _ _ _ _ _ _ HC HX HI) as (A & B).
    assert (W : V (act_el (LeakyReLU al) (el x idx)) = V (el x idx)) by (apply rect_id; auto; split; [split; auto|apply Rabs_le; lra]). change (0 <= V (act_el (LeakyReLU al) (el x idx))). rewrite W. exact B.
  - unfold act_forward in Q. cbn [al_act snd] in Q. rewrite act_fwd_el in Q by (auto; discriminate). injection Q as <-. apply (pos_by _ _ _ _ _ CU). intros idx HI _. rewrite Ex, el_tensor_of by auto. destruct (pos_at _ _ _ _ _ _ HC HX HI) as ((A1 & A2) & B).
    pose proof (sigm_in lm H _ A1 A2) as (_ & _ & S3). exact (proj1 S3).
  - eapply (flat_pos n k k [] M E l x y); eauto. cbn [prod]. lia.
  - eapply (flat_pos n (prod (c :: r)) c r M E l x y); eauto.
  - eapply (pool_pos l n c h w M E x y); eauto.
  - rewrite dropout_eval in Q by reflexivity. cbn [snd] in Q. injection Q as <-. exact HX.
Qed.
Lemma unsigned_upward : forall l, unsigned32 lm l -> rectifier32 l = false -> upward32 lm l.
Proof.
  intros l HU HN. destruct l as [l|l|l|l|l|l|l]; cbn [unsigned32 upward32 rectifier32] in *; try tauto; try (exact (proj1 HU)). destruct (al_act l); try tauto; discriminate.
Qed.
Lemma same_raised : forall x x', same32 lm x x' <-> raised32 lm x x' /\ raised32 lm x' x.
Proof.
  intros x x'. split.
  - intros (E & H). split; split; auto; intros idx HI; [rewrite H by auto; right; auto|]. rewrite E in HI. rewrite H by auto. right; auto.
  - intros ((E & H) & (_ & H')). split; [exact E|]. intros idx HI. apply Rle_antisym; [apply H'; rewrite E; auto|apply H; auto].
Qed.
Lemma rectifier_step32 : forall ds M E l ds' M' E' x y u v l1 (g : G), drift lm ds M E l ds' M' E' -> rectifier32 l = true -> close lm ds M E x y -> no_minus32 lm x -> layer_forward l x g = (l1, g, Ok u) -> close lm ds' M' E' u v -> ds' = ds /\ same32 lm x u.
Proof.
  intros ds M E l ds' M' E' x y u v l1 g HD HN HC HX U1 CU. assert (Q : snd (layer_forward l x g) = Ok u) by (rewrite U1; reflexivity). clear U1. pose proof HC as (Gx & Ex & Fx & _).
  destruct HD; cbn [rectifier32 al_act] in HN; try discriminate HN; cbn [layer_forward] in Q; unfold lift, act_forward in Q; cbn [al_act fst snd] in Q; rewrite act_fwd_el in Q by (auto; discriminate); injection Q as <-;
    (split; [reflexivity|]); (split; [reflexivity|]); intros idx HI; rewrite el_tensor_of by auto; rewrite !value_V; rewrite Ex in HI; destruct (pos_at _ _ _ _ _ _ HC HX HI) as (A & B).
  - exact (rect_id ReLU (el x idx) I A B).
  - apply within_in in H. destruct H as (A1 & A2 & A3). exact (rect_id (LeakyReLU al) (el x idx) (conj (conj A1 A2) (Rabs_le _ _ A3)) A B).
Qed.
Lemma close_same : forall ds M E u v x, close lm ds M E u v -> good x -> all_finite x -> same32 lm u x -> close lm ds M E x v.
Proof.
  intros ds M E u v x (G1 & E1 & F1 & G2 & E2 & H) Gx Fx (Ex & HX). split; [auto|]. split; [congruence|]. split; [auto|]. split; [auto|]. split; [auto|]. intros idx HI. destruct (H idx HI) as (A & B). split; [auto|]. rewrite HX by (rewrite E1; auto). exact B.
Qed.
Lemma same_trans : forall a b c, same32 lm a b -> same32 lm b c -> same32 lm a c.
Proof. intros a b c (E & H) (E' & H'). split; [congruence|]. intros idx HI. rewrite H' by (rewrite E; auto). apply H; auto. Qed.
Lemma same_sym : forall a b, same32 lm a b -> same32 lm b a.
Proof. intros a b (E & H). split; [auto|]. intros idx HI. rewrite E in HI. symmetry. apply H; auto. Qed.
Lemma layers_idle : forall ds M E ls ds' M' E', drifts lm ds M E ls ds' M' E' -> Forall (unsigned32 lm) ls -> forall x x' y y' (g : G), close lm ds M E x y -> close lm ds M E x' y' -> same32 lm x x' -> no_minus32 lm x ->
  exists l1 l1' u u' v v', forward_all ls x g = (l1, g, Ok u) /\ forward_all (unrectified32 ls) x' g = (l1', g, Ok u') /\ close lm ds' M' E' u v /\ close lm ds' M' E' u' v' /\ same32 lm u u' /\ no_minus32 lm u.
Proof.
  intros ds M E ls ds' M' E' HD. induction HD as [|ds M E l ds1 M1 E1 r ds2 M2 E2 H1 H2 IH]; intros HU x x' y y' g HC HC' HX HP.
  - exists [], [], x, x', y, y'. auto 10.
  - inversion HU as [|? ? U1 U2]; subst. unfold unrectified32. cbn [filter]. destruct (rectifier32 l) eqn:ER; cbn [negb].
    + destruct (twin_exists lm _ _ _ _ _ _ _ H1) as (lt & HT). destruct (@layer_step lm G unit HR HR' _ _ _ _ _ _ _ H1 (M + 1) lt ltac:(lra) HT x y g tt HC) as (l1 & lq & u & v & E3 & _ & CU).
      destruct (rectifier_step32 _ _ _ _ _ _ _ _ _ _ _ _ _ H1 ER HC HP E3 CU) as (-> & SU). pose proof (layer_pos _ _ _ _ _ _ _ _ _ _ _ _ _ H1 U1 HC HP E3 CU) as PU. pose proof (same_trans _ _ _ (same_sym _ _ SU) HX) as SX.
      pose proof HC' as (Gx' & _ & Fx' & _).
      destruct (IH U2 u x' v v g CU (close_same _ _ _ _ _ _ CU Gx' Fx' SX) SX PU) as (q & q' & z & z' & w & w' & E5 & E6 & Z). exists (l1 :: q), q', z, z', w, w'. cbn [forward_all]. unfold SF in *. rewrite E3, E5. auto.
    + apply same_raised in HX. destruct HX as (R1 & R2). pose proof (unsigned_upward l U1 ER) as UP.
      destruct (layer_rise lm _ _ _ _ _ _ _ x x' y y' g H1 UP HC HC' R1) as (l1 & l1' & u & u' & v & v' & E3 & E4 & CU & CU' & RU).
      destruct (layer_rise lm _ _ _ _ _ _ _ x' x y' y g H1 UP HC' HC R2) as (k1 & k1' & t & t' & s & s' & E3' & E4' & _ & _ & RU').
      unfold SF in *. rewrite E4 in E3'. injection E3' as <- <-. rewrite E3 in E4'. injection E4' as <- <-.
      pose proof (layer_pos _ _ _ _ _ _ _ _ _ _ _ _ _ H1 U1 HC HP E3 CU) as PU. assert (SU : same32 lm u u') by (apply same_raised; auto).
      destruct (IH U2 u u' v v' g CU CU' SU PU) as (q & q' & z & z' & w & w' & E5 & E6 & Z). unfold unrectified32 in E6. exists (l1 :: q), (l1' :: q'), z, z', w, w'. cbn [forward_all]. rewrite E3, E4, E5, E6. auto.
Qed.
Theorem predict_idle : forall (n n' : net f32 G) ds M ds' M' E' x, drifts lm ds M 0 (n_layers n) ds' M' E' -> Forall (unsigned32 lm) (n_layers n) -> n_layers n' = unrectified32 (n_layers n) -> n_rng n' = n_rng n ->
  good x -> tdims x = ds -> all_finite x -> (forall idx, in_range ds idx -> 0 <= f32_value (el x idx) <= M) ->
  exists u u', snd (net_predict n x) = Ok u /\ snd (net_predict n' x) = Ok u' /\ tdims u = ds' /\ all_finite u /\ all_finite u' /\ same32 lm u u' /\ no_minus32 lm u.
Proof.
  intros n n' ds M ds' M' E' x HD HU EL EG Gx Ex Fx Bx. assert (Bx' : forall idx, in_range ds idx -> Rabs (f32_value (el x idx)) <= M) by (intros idx HI; destruct (Bx idx HI); rewrite Rabs_pos_eq; auto).
  pose proof (close_self lm ds M x Gx Ex Fx Bx') as C. assert (P : no_minus32 lm x) by (intros idx HI; rewrite Ex in HI; apply Bx; auto).
  destruct (layers_idle _ _ _ _ _ _ _ HD HU x x _ _ (n_rng n) C C) as (l1 & l1' & u & u' & v & v' & E3 & E4 & CU & CU' & SU & PU); [split; auto|exact P|].
  exists u, u'. unfold net_predict. unfold SF in *. rewrite EL, EG, E3, E4. cbn [snd]. destruct CU as (_ & A & B & _). destruct CU' as (_ & _ & D & _). auto 10.
Qed.
End N.
(** ** A case *)
Definition idle_fc : fc f32 := mkFC up_w (tensor_of [1; 2]%Z (fun idx => f32_of_Z (nth 1 idx 0%Z))) None None None.
Definition idle_layers : list (layer f32) := [LFC idle_fc; LAct (mkActL ReLU None); LFC idle_fc; LAct (mkActL ReLU None)].
Lemma idle_dense : forall M E, 0 <= M -> 0 <= E -> M + E <= 100 -> drift cr_libm [3; 2]%Z M E (LFC idle_fc) [3; 2]%Z (4 * M + 1) (next_error 2 4 1 M E).
Proof.
  intros M E HM HE HS. apply drift_dense.
  - split; [apply good_tensor_of; [auto with idx|vm_compute; discriminate]|]. split; [reflexivity|]. split; [apply good_tensor_of; [auto with idx|vm_compute; discriminate]|reflexivity].
  - unfold all_finite. vm_compute. repeat constructor.
  - unfold all_finite. vm_compute. repeat constructor.
  - vm_compute. discriminate.
  - reflexivity.
  - intros j Hj. assert (j = 0%Z \/ j = 1%Z) as [->| ->] by lia; unfold f32_value, rsum; simpl; rewrite ?Rabs_R0, ?Rabs_right by lra; lra.
  - intros j Hj. assert (j = 0%Z \/ j = 1%Z) as [->| ->] by lia; unfold f32_value; simpl; rewrite ?Rabs_R0, ?Rabs_right by lra; lra.
  - pose proof p120. set (X := 2 ^ 120) in *. lra.
Qed.
Lemma idle_drifts : exists M' E', drifts cr_libm [3; 2]%Z 1 0 idle_layers [3; 2]%Z M' E'.
Proof.
  assert (HT : / 2 ^ 23 <= / 1000000) by (apply Rinv_le_contravar; [lra|simpl; lra]). assert (HT0 : 0 < / 2 ^ 23) by (apply Rinv_0_lt_compat, pow_lt; lra).
  pose proof (ex_error 1 0 ltac:(lra) ltac:(lra)) as B1. set (E1 := next_error 2 4 1 1 0) in *.
  eexists. eexists. eapply drifts_cons; [apply idle_dense; lra|]. eapply drifts_cons; [apply drift_relu|]. fold E1.
  eapply drifts_cons; [apply idle_dense; unfold Rdiv in *; lra|]. eapply drifts_cons; [apply drift_relu|apply drifts_nil].
Qed.
Lemma idle_unsigned : Forall (unsigned32 cr_libm) idle_layers.
Proof.
  assert (D : unsigned32 cr_libm (LFC idle_fc)).
  { split; intros idx HI; [change (in_range [2; 2]%Z idx) in HI; apply in_range_2 in HI|change (in_range [1; 2]%Z idx) in HI; apply in_range_2 in HI]; destruct HI as (i & j & -> & Hi & Hj).
    - assert (i = 0%Z \/ i = 1%Z) as [->| ->] by lia; assert (j = 0%Z \/ j = 1%Z) as [->| ->] by lia; unfold f32_value; simpl; lra.
    - assert (i = 0%Z) as -> by lia; assert (j = 0%Z \/ j = 1%Z) as [->| ->] by lia; unfold f32_value; simpl; lra. }
  apply Forall_cons; [exact D|]. apply Forall_cons; [exact I|]. apply Forall_cons; [exact D|]. apply Forall_cons; [exact I|apply Forall_nil].
Qed.
