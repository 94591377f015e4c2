(** * Training a float32 network with Adam keeps every number in range (C125) *)
From Coq Require Import Reals Lra SpecFloat.
From Flocq Require Import Core BinarySingleNaN.
From Verif Require Import Base Scalar Types Spec SpecNN SpecR SpecF32 SpecLayers SpecOpt M_Shape M_Tensor M_Adv M_Act M_Loss M_Layers M_Reg M_Opt M_Net M_Data SpecData M_Ex SpecNet SpecEx SpecInit SpecCalm
  L_Index L_Shape L_Bcast L_Tensor L_Nest L_Glue L_Matmul L_Adv L_RSum L_AdvR L_Act L_ActR L_Loss L_Layers L_Conv L_Rows L_Pool L_BN L_Drop L_Init L_Opt L_Opt2 L_Net L_Net2 L_Train
  L_Float L_FloatAct L_FloatLib L_FloatT L_FloatB L_Double L_FloatLoss L_FloatOpt L_FloatTrain L_FloatAdam L_F32 L_Data L_Ex.
Local Open Scope R_scope.
#[local] Existing Instance Hp32.
#[local] Existing Instance Hm32.
Local Notation V := (SF2R radix2).
Local Notation fadd := (SFadd f32_prec f32_emax).
Local Notation fsub := (SFsub f32_prec f32_emax).
Local Notation fmul := (SFmul f32_prec f32_emax).
Local Notation P e := (bpow radix2 e).
Local Notation N := Z.of_nat.

Section C.
Variable lm : libm.
Let SF : Scalar f32 := F32Scalar lm.
#[local] Existing Instance SF.

(** ** Sums of a bounded number of terms *)
Lemma mult_format : forall (k : nat) e, (Z.of_nat k <= 2 ^ 24)%Z -> (-149 <= e)%Z -> generic_format radix2 (SpecFloat.fexp f32_prec f32_emax) (INR k * P e).
Proof.
  intros k e Hk He. destruct (Z.eq_dec (Z.of_nat k) (2 ^ 24)) as [E|E].
  - rewrite INR_IZR_INZ, E. change (IZR (2 ^ 24)) with (P 24). rewrite <- bpow_plus. apply P_format. lia.
  - apply generic_format_FLT. exists (Float radix2 (Z.of_nat k) e); [unfold F2R; cbn [Fnum Fexp]; rewrite INR_IZR_INZ; reflexivity| |]; cbn [Fnum Fexp].
    + rewrite Z.abs_eq by lia. change (radix2 ^ f32_prec)%Z with (2 ^ 24)%Z. lia.
    + change (emin f32_prec f32_emax) with (-149)%Z. lia.
Qed.
Lemma fsum_few : forall (l : list f32) e c, (-120 <= e)%Z -> (0 <= c <= 24)%Z -> (e + c < 128)%Z -> Forall (bnd e) l -> (Zlen l <= 2 ^ c)%Z -> good_f (fsum l) /\ Rabs (V (fsum l)) <= INR (length l) * P e.
Proof.
  intros l e c He Hc Hec. induction l as [|x l IH] using rev_ind; intros HF HN.
  - cbn [length INR]. split; [split; reflexivity|]. change (V (fsum [])) with 0. rewrite Rabs_R0. lra.
  - apply Forall_app in HF. destruct HF as (HF & Hx). inversion Hx as [|? ? (Gx & Lx) _]; subst. unfold Zlen in HN. rewrite app_length in *. cbn [length] in *. destruct (IH HF ltac:(unfold Zlen; lia)) as (Gl & Ll). rewrite (fsnoc lm). fold SF.
    assert (LS : Rabs (V (fsum l) + V x) <= INR (length l + 1) * P e) by (rewrite plus_INR; cbn [INR]; eapply Rle_trans; [apply Rabs_triang|]; lra).
    assert (LC : INR (length l + 1) * P e <= P (e + c)).
    { rewrite Z.add_comm, bpow_plus. apply Rmult_le_compat_r; [apply Rlt_le, P_pos|]. rewrite INR_IZR_INZ. replace (P c) with (IZR (2 ^ c)); [apply IZR_le; exact HN|]. change (2 ^ c)%Z with (radix2 ^ c)%Z. apply IZR_Zpower. lia. }
    destruct (add_to (fsum l) x (e + c) ltac:(lia) Gl Gx) as (G & E); [eapply Rle_trans; [exact LS|exact LC]|]. split; [exact G|]. rewrite E. unfold rnd. apply abs_round_le_generic; [typeclasses eauto..| |exact LS].
    apply mult_format; [|lia]. assert (2 ^ c <= 2 ^ 24)%Z by (apply Z.pow_le_mono_r; lia). lia.
Qed.
Lemma fsum_cnt : forall (l : list f32) e c, (-120 <= e)%Z -> (0 <= c <= 24)%Z -> (e + c < 128)%Z -> Forall (bnd e) l -> (Zlen l <= 2 ^ c)%Z -> bnd (e + c) (fsum l).
Proof.
  intros l e c He Hc Hec HF HN. destruct (fsum_few l e c He Hc Hec HF HN) as (G & L). split; [exact G|]. eapply Rle_trans; [exact L|].
  rewrite Z.add_comm, bpow_plus. apply Rmult_le_compat_r; [apply Rlt_le, P_pos|]. rewrite INR_IZR_INZ. replace (P c) with (IZR (2 ^ c)); [apply IZR_le; exact HN|]. change (2 ^ c)%Z with (radix2 ^ c)%Z. apply IZR_Zpower. lia.
Qed.
Lemma sum_to_cnt : forall n (f : Z -> f32) e c, (-120 <= e)%Z -> (0 <= c <= 24)%Z -> (e + c < 128)%Z -> (0 <= n <= 2 ^ c)%Z -> (forall i, (0 <= i < n)%Z -> bnd e (f i)) -> bnd (e + c) (sum_to n f).
Proof.
  intros n f e c He Hc Hec Hn H. unfold sum_to. apply fsum_cnt; auto.
  - apply Forall_map, Forall_forall. intros i Hi. apply In_zrange in Hi. apply H. lia.
  - unfold Zlen. rewrite map_length. fold (Zlen (zrange 0 n)). rewrite Zlen_zrange; lia.
Qed.

(** ** Tensors *)
Definition val (ds : list Z) (e : Z) (t : tensor f32) : Prop := good t /\ tdims t = ds /\ forall idx, in_range ds idx -> bnd e (el t idx).
Lemma sized_val : forall n (t : tensor f32) ds, good t -> tdims t = ds -> sized n t -> val ds (N n) t.
Proof. intros n t ds G <- H. split; [auto|]. split; [auto|]. intros idx HI. apply (el_bnd lm); auto. unfold sized in H. rewrite pw. exact H. Qed.
Lemma val_sized : forall n (t : tensor f32) ds, val ds (N n) t -> sized n t.
Proof. intros n t ds (G & <- & H). unfold sized. rewrite <- pw. apply (data_all lm); auto. intros idx HI. apply bnd_in. apply H. exact HI. Qed.
Lemma val_le : forall ds a b t, (a <= b)%Z -> val ds a t -> val ds b t.
Proof. intros ds a b t H (G & E & B). split; [auto|]. split; [auto|]. intros idx HI. apply (bnd_le a); auto. Qed.
Lemma val_finite : forall ds e t, val ds e t -> all_finite t.
Proof. intros ds e t (G & <- & B). apply (data_all lm); auto. intros idx HI. destruct (B idx HI) as ((A & F) & _). split; [exact A|apply finite_fin; exact F]. Qed.
Lemma val_of : forall ds e (f : list Z -> f32), good (tensor_of ds f) -> (forall idx, in_range ds idx -> bnd e (f idx)) -> val ds e (tensor_of ds f).
Proof. intros ds e f G H. split; [auto|]. split; [reflexivity|]. intros idx HI. rewrite el_tensor_of by auto. auto. Qed.
(** Both parameters and both gradients *)
Definition primed (l : layer f32) : Prop :=
  match layer_params l with
  | Some (w, b) => good w /\ good b /\ exists gw gb, layer_grads l = Some (gw, gb) /\ val (tdims w) 112 gw /\ val (tdims b) 112 gb
  | None => True
  end.

(** ** Activations *)
Hypothesis HL : libm_like lm.
Lemma abs_bnd : forall e (x y : f32), bnd e x -> f32_in (- Rabs (f32_value x)) (Rabs (f32_value x)) y -> bnd e y.
Proof. intros e x y (Gx & Lx) H. apply within_in in H. destruct H as (A & B & C). rewrite value_V in C. split; [split; auto|]. apply Rabs_le in C. lra. Qed.
Lemma unit_bnd : forall y : f32, f32_in 0 1 y -> bnd 0 y.
Proof. intros y H. apply bnd_unit, within_in. exact H. Qed.
Definition easy (a : act f32) : Prop := a = ReLU \/ (exists al, a = LeakyReLU al /\ f32_in (-1) 1 al).
Lemma easy_forward : forall a ds e x, easy a -> val ds e x -> exists y, act_fwd a x = Ok y /\ val ds e y.
Proof.
  intros a ds e x Ha Vx. pose proof (val_finite _ _ _ Vx) as Fx. destruct Vx as (Gx & Ex & Bx). destruct (f32_no_larger lm HL a x) as (y & E & Gy & Ey & H); auto.
  - destruct Ha as [->|(al & -> & H)]; cbn; auto.
  - destruct Ha as [->|(al & -> & H)]; discriminate.
  - exists y. split; [exact E|]. split; [auto|]. split; [congruence|]. intros idx HI. apply (abs_bnd _ (el x idx)); [auto|]. apply H. rewrite Ex. exact HI.
Qed.
Lemma back_small : forall a ds e d x g, easy a \/ a = Sigmoid -> val ds e x -> val ds d g -> exists y, act_bwd a x g = Ok y /\ val ds d y.
Proof.
  intros a ds e d x g Ha Vx Vg. pose proof (val_finite _ _ _ Vx) as Fx. pose proof (val_finite _ _ _ Vg) as Fg. destruct Vx as (Gx & Ex & Bx). destruct Vg as (Gg & Eg & Bg). destruct (f32_backward lm HL a x g) as (y & E & Gy & Ey & H); auto.
  - destruct Ha as [[->|(al & -> & H)]| ->]; eauto 6.
  - congruence.
  - exists y. split; [exact E|]. split; [auto|]. split; [congruence|]. intros idx HI. apply (abs_bnd _ (el g idx)); [auto|]. apply H. rewrite Ex. exact HI.
Qed.
(** One entry of the gradient of Softmax *)
Lemma sm_back_bnd : forall (y g : Z -> f32) fs i d c, (0 <= d)%Z -> (0 <= c <= 24)%Z -> (d + c < 128)%Z -> (0 <= i < fs)%Z -> (0 <= fs <= 2 ^ c)%Z -> (forall j, (0 <= j < fs)%Z -> within 0 1 (y j)) -> (forall j, (0 <= j < fs)%Z -> bnd d (g j)) -> bnd (d + c) (sm_back y g fs i).
Proof.
  intros y g fs i d c Hd Hc Hdc Hi Hf Hy Hg. unfold sm_back.
  assert (SUB : forall a x : f32, fsub a x = fadd a (SFopp x)).
  { intros a x. destruct a as [sa|sa| |sa ma ea], x as [sx|sx| |sx mx ex]; cbn [SFopp SFsub SFadd]; try reflexivity; try (destruct sa, sx; reflexivity). }
  set (f := fun j => if (i =? j)%Z then fmul (fmul (y i) (fsub (f32_of_Z 1) (y j))) (g j) else SFopp (fmul (fmul (y i) (y j)) (g j))).
  assert (EQ : forall l a, fold_left (fun acc j => if (i =? j)%Z then s_add acc (s_mul (s_mul (y i) (s_sub one (y j))) (g j)) else s_sub acc (s_mul (s_mul (y i) (y j)) (g j))) l a = fold_left fadd (map f l) a).
  { induction l as [|j l IH]; intros a; [reflexivity|]. cbn [fold_left map]. rewrite IH. f_equal. unfold f. destruct (i =? j)%Z; [reflexivity|]. apply SUB. }
  rewrite EQ. change (fold_left fadd (map f (zrange 0 fs)) (f32_of_Z 0)) with (sum_to fs f). apply sum_to_cnt; auto; [lia|]. intros j Hj. unfold f.
  destruct (Hy i Hi) as (A1 & A2 & A3). destruct (i =? j)%Z.
  - replace d with (0 + d)%Z by lia. apply mul_bnd; [lia| |auto]. apply (mul_bnd _ _ 0 0); [lia|apply bnd_unit; auto|]. apply bnd_unit. apply sub_within. auto.
  - assert (B : bnd d (fmul (fmul (y i) (y j)) (g j))). { replace d with (0 + d)%Z by lia. apply mul_bnd; [lia| |auto]. apply (mul_bnd _ _ 0 0); [lia|apply bnd_unit; auto|apply bnd_unit; auto]. }
    set (z := fmul (fmul (y i) (y j)) (g j)) in *. clearbody z. destruct B as ((Hz & Fz) & Lz). destruct z as [s|s| |s m e]; try discriminate Fz; (split; [split; [exact Hz|exact Fz]|]).
    + exact Lz.
    + change (SFopp (S754_finite s m e)) with (S754_finite (negb s) m e). replace (V (S754_finite (negb s) m e)) with (- V (S754_finite s m e)); [rewrite Rabs_Ropp; exact Lz|]. unfold SF2R. rewrite <- F2R_Zopp. f_equal. destruct s; reflexivity.
Qed.
Lemma softmax_back : forall b ds e d c x g, ds <> [] -> (0 <= d)%Z -> (0 <= c <= 24)%Z -> (d + c < 128)%Z -> (prod ds <= 2 ^ c)%Z -> val (b :: ds) e x -> val (b :: ds) d g -> exists y, softmax_bwd x g = Ok y /\ val (b :: ds) (d + c) y.
Proof.
  intros b ds e d c x g HN Hd Hc Hdc Hp Vx Vg. pose proof (val_finite _ _ _ Vx) as Fx. destruct Vx as (Gx & Ex & Bx). destruct Vg as (Gg & Eg & Bg).
  destruct (softmax_bwd_flat x g b ds Gx Gg Ex HN) as (y & Ey & EB); [rewrite Eg; destruct ds; [congruence|cbn; lia]|rewrite Ex, Eg; lia|].
  destruct (f32_softmax lm HL x b ds Gx Fx Ex HN) as (y' & Ey' & Gy & Edy & HU & _). pose proof (eq_trans (eq_sym Ey) Ey') as EE. injection EE as <-. rewrite EB. eexists. split; [reflexivity|].
  pose proof (good_dims x Gx) as HF. rewrite Ex in HF. inversion HF as [|? ? Hb HF']; subst. pose proof (prod_pos _ HF') as HP0. pose proof (good_len x Gx) as HLx. rewrite Ex in HLx. cbn [prod] in HLx.
  match goal with |- val _ _ ?t => set (r := t) end.
  assert (Gr : good r). { destruct Gx as (A1 & A2 & A3 & A4). split; [exact A1|]. split; [exact A2|]. split; [exact A3|]. unfold r. cbn [tshape tdata]. rewrite Zlen_ztab by nia. transitivity (Zlen (tdata x)); [symmetry; exact HLx|exact A4]. }
  split; [exact Gr|]. split; [exact Ex|]. intros idx HI. pose proof (ravel_bound _ _ HI) as HR. cbn [prod] in HR. unfold el. change (tdims r) with (tdims x). rewrite Ex. unfold r. cbn [tdata]. rewrite znth_ztab by (cbn [prod] in HR; exact HR). cbv zeta.
  set (k := ravel (b :: ds) idx) in *. assert (HQ : (0 <= k / prod ds < b)%Z) by (split; [apply Z.div_pos; lia|apply Z.div_lt_upper_bound; nia]). pose proof (Z.div_mod k (prod ds) ltac:(lia)) as DM. pose proof (Z.mod_pos_bound k (prod ds) ltac:(lia)) as MB.
  assert (AT : forall (Q : f32 -> Prop) (z : tensor f32), good z -> tdims z = b :: ds -> (forall i, in_range (b :: ds) i -> Q (el z i)) -> forall j, (0 <= j < prod ds)%Z -> Q (znth zero (tdata z) (k / prod ds * prod ds + j))).
  { intros Q z Gz Ez HQz j Hj. assert (HB : (0 <= k / prod ds * prod ds + j < prod (b :: ds))%Z) by (cbn [prod]; nia). specialize (HQz (unravel (b :: ds) (k / prod ds * prod ds + j)) (unravel_range _ _ HF HB)). unfold el in HQz. rewrite Ez, ravel_unravel in HQz by auto. exact HQz. }
  apply sm_back_bnd; auto; [nia|lia| |].
  - apply (AT (within 0 1) y); auto; [congruence|]. intros i Hi. apply within_in. apply HU. rewrite Ex. exact Hi.
  - apply (AT (bnd d) g); auto.
Qed.

(** A gradient.  A bound above 127 says nothing.  The gradient of a vector of [k] elements may also come as one row. *)
Definition gval (ds : list Z) (e : Z) (t : tensor f32) : Prop := good t /\ tdims t = ds /\ ((e <= 127)%Z -> forall idx, in_range ds idx -> bnd e (el t idx)).
Definition grad (ds : list Z) (e : Z) (t : tensor f32) : Prop := gval ds e t \/ exists k, ds = [k] /\ gval [1; k]%Z e t.
Lemma val_gval : forall ds e t, val ds e t -> gval ds e t.
Proof. intros ds e t (A & B & C). split; [auto|]. split; auto. Qed.
Lemma gval_val : forall ds e t, (e <= 127)%Z -> gval ds e t -> val ds e t.
Proof. intros ds e t H (A & B & C). split; [auto|]. split; auto. Qed.
Lemma gval_of : forall ds e (f : list Z -> f32), good (tensor_of ds f) -> ((e <= 127)%Z -> forall idx, in_range ds idx -> bnd e (f idx)) -> gval ds e (tensor_of ds f).
Proof. intros ds e f G H. split; [auto|]. split; [reflexivity|]. intros HE idx HI. rewrite el_tensor_of by auto. auto. Qed.
Lemma grad_val : forall ds e t, (e <= 127)%Z -> length ds <> 1%nat -> grad ds e t -> val ds e t.
Proof. intros ds e t HE H [V|(k & -> & _)]; [apply gval_val; auto|]. cbn in H. congruence. Qed.
Lemma back_row : forall a k e d x g, a = ReLU \/ a = Sigmoid -> val [k] e x -> val [1; k]%Z d g -> exists y, act_bwd a x g = Ok y /\ val [1; k]%Z d y.
Proof.
  intros a k e d x g Ha Vx (Gg & Eg & Bg). pose proof Vx as (Gx & Ex & Bx). destruct (dims1_pos x k Gx Ex) as (Hk & HM).
  assert (Vr : val [k] d (tensor_of [k] (fn1 (fun j => el g [0; j]%Z)))) by (apply val_of; [apply good_tensor_of; [auto with idx|cbn [prod]; lia]|]; intros idx HI; apply in_range_1 in HI; destruct HI as (j & -> & Hj); unfold fn1; cbn [nth]; apply Bg; auto with idx).
  destruct (back_small a [k] e d x _ ltac:(destruct Ha as [->| ->]; [left; left; auto|right; auto]) Vx Vr) as (y & E & Vy).
  rewrite act_bwd_el in E; [|destruct Ha as [->| ->]; discriminate|auto|apply Vr|rewrite Ex; reflexivity]. injection E as <-. destruct Vy as (_ & _ & By).
  rewrite (act_bwd_vec_row a x g k); auto; [|destruct Ha as [->| ->]; reflexivity]. eexists. split; [reflexivity|]. apply val_of; [apply good_2; lia|]. intros idx HI. apply in_range_2 in HI. destruct HI as (i & j & -> & Hi & Hj). unfold fn2. cbn [nth].
  specialize (By [j] ltac:(auto with idx)). rewrite el_tensor_of in By by (rewrite Ex; auto with idx). rewrite el_tensor_of in By by auto with idx. exact By.
Qed.
Lemma back_grad : forall a ds e d x g, (d <= 127)%Z -> a = ReLU \/ a = Sigmoid -> val ds e x -> grad ds d g -> exists y, act_bwd a x g = Ok y /\ grad ds d y.
Proof.
  intros a ds e d x g Hd Ha Vx [Vg|(k & -> & Vg)]; apply gval_val in Vg; auto.
  - destruct (back_small a ds e d x g ltac:(destruct Ha as [->| ->]; [left; left; auto|right; auto]) Vx Vg) as (y & E & Vy). exists y. split; [exact E|left; apply val_gval; exact Vy].
  - destruct (back_row a k e d x g Ha Vx Vg) as (y & E & Vy). exists y. split; [exact E|right; exists k; split; [auto|apply val_gval; exact Vy]].
Qed.

(** ** Pooling *)
Lemma in_order : forall ds e x, val ds e x -> comparable x.
Proof.
  intros ds e x (Gx & <- & Bx).
  assert (LT : forall u v, elements x u -> elements x v -> s_lt u v = Rlt_bool (V u) (V v)).
  { intros u v (i & Hi & ->) (j & Hj & ->). destruct (Bx i Hi) as ((A1 & A2) & _). destruct (Bx j Hj) as ((B1 & B2) & _). apply ltb_V; auto. }
  split; [split; [|split]|].
  - intros u Hu. rewrite LT by auto. apply Rlt_bool_false. lra.
  - intros u v w Hu Hv Hw. rewrite !LT by auto. destruct (Rlt_bool_spec (V u) (V v)); [|discriminate]. destruct (Rlt_bool_spec (V v) (V w)); [|discriminate]. intros _ _. apply Rlt_bool_true. lra.
  - intros u v w Hu Hv Hw. rewrite !LT by auto. destruct (Rlt_bool_spec (V u) (V v)); [discriminate|]. destruct (Rlt_bool_spec (V v) (V w)); [discriminate|]. intros _ _. apply Rlt_bool_false. lra.
  - intros v (i & Hi & ->). destruct (Bx i Hi) as ((A1 & A2) & _). destruct (el x i); try discriminate A2; reflexivity.
Qed.
Lemma winners_few : forall (f : list Z -> list Z) n c a b p, (0 < n)%Z -> (0 < c)%Z -> (0 < a)%Z -> (0 < b)%Z ->
  (forall o, in_range [n; c; a; b] o -> exists u v, f o = [nth 0 o 0; nth 1 o 0; u; v]%Z) -> (Zlen (filter (fun o => idx_eqb (f o) p) (all_indices [n; c; a; b])) <= a * b)%Z.
Proof.
  intros f n c a b p Hn Hc Ha Hb HF. set (l := filter _ _).
  assert (P4 : Forall (fun d => (0 < d)%Z) [n; c; a; b]) by (repeat (constructor; auto)). assert (P2 : Forall (fun d => (0 < d)%Z) [a; b]) by (repeat (constructor; auto)).
  assert (ND : NoDup l) by (apply NoDup_filter, NoDup_all_indices; auto).
  assert (INC : incl l (map (fun k => nth 0 p 0 :: nth 1 p 0 :: k)%Z (all_indices [a; b]))).
  { intros o HI. apply filter_In in HI. destruct HI as (HI & E). apply In_all_indices in HI; auto. apply idx_eqb_spec in E. destruct (HF o HI) as (u & v & EF). rewrite EF in E. subst p. cbn [nth].
    apply in_range_4 in HI. destruct HI as (i & j & y & z & -> & Hi & Hj & Hy & Hz). cbn [nth]. apply in_map_iff. exists [y; z]. split; [reflexivity|]. apply In_all_indices; auto. auto with idx. }
  pose proof (NoDup_incl_length ND INC) as L. rewrite map_length in L. assert (EL : Zlen (all_indices [a; b]) = (a * b)%Z) by (unfold all_indices; rewrite Zlen_ztab; cbn [prod]; nia). unfold Zlen in *. lia.
Qed.

(** ** One layer *)
Context {G : Type} {HR : Rng f32 G}.
Ltac nz := repeat rewrite Nat2Z.inj_add in *; lia.
Lemma calm_step : forall q ds x d l ds' x' d' (X : tensor f32) (g : G), calm q ds x d l ds' x' d' -> val ds (N x) X ->
  exists l1 g' y, layer_forward l X g = (l1, g', Ok y) /\ val ds' (N x') y /\
    forall D : tensor f32, grad ds' (N d') D -> exists l2 gx, layer_backward l1 D = (l2, Ok gx) /\ grad ds (N d) gx /\
      calm q ds x d l2 ds' x' d' /\ layer_params l2 = layer_params l /\ primed l2.
Proof.
  intros q ds x d l ds' x' d' X g HC VX.
  destruct HC as [n k o x d l c co cn HW Sw Sb HM Hk Ho Hn (C1 & C2 & C3) Q1 Q3|k o x d l c co HW Sw Sb Hk Ho (C1 & C2) Q1 Q3|ds x d i QD|ds x d al i HNE HA QD|ds x d i QD|n r x d i c HN Hp Hc Q|n c r x d l HN QD|ds x d l HNE HT HRt Q Q2|n h w x d l HW Sw Sb H1 H2 HM Q1 Q3|n c h w x d l m K1 K2 K3 K4 K5 Hm Q1 Q2]; cbn [layer_forward].
  - pose proof VX as (GX & EX & BX). pose proof HW as (GW & EW & GB & EB). rewrite (fc_forward_2 l k o X n HW GX EX HM). unfold lift; cbn [fst snd].
    destruct (dims2_pos X n k GX EX) as (Pn & Pk & _). destruct (dims2_pos _ k o GW EW) as (_ & Po & _).
    pose proof (sized_val q (M_Layers.fc_w l) [k; o] GW EW Sw) as (_ & _ & BW). pose proof (sized_val q (M_Layers.fc_b l) [1; o]%Z GB EB Sb) as (_ & _ & BB).
    do 3 eexists. split; [reflexivity|]. split.
    { apply val_of; [apply good_2; lia|]. intros idx HI. apply in_range_2 in HI. destruct HI as (i & j & -> & Hi & Hj). unfold fn2. cbn [nth]. unfold affine, sum_to.
      match goal with |- bnd _ (s_add (fsum ?l0) ?b0) => replace (s_add (fsum l0) b0) with (fsum (l0 ++ [b0])) by apply (fsnoc lm) end.
      replace (N (q + x + c)) with (N x + N q + N c)%Z by nz. apply fsum_cnt; [lia|lia|lia| |].
      - apply Forall_app. split.
        + apply Forall_map, Forall_forall. intros p Hp. apply In_zrange in Hp. apply mul_bnd; [lia|apply BX; auto with idx|apply BW; auto with idx].
        + constructor; [|constructor]. apply (bnd_le (N q)); [lia|]. apply BB. auto with idx.
      - unfold Zlen. rewrite app_length, map_length. cbn [length]. assert (Zlen (zrange 0 k) = k) by (rewrite Zlen_zrange; lia). unfold Zlen in *. lia. }
    intros D VD. apply grad_val in VD; [|lia|solve [cbn [length]; lia|auto|match goal with H : ?r <> [] |- _ => destruct r; [congruence|cbn [length]; lia] end]]. pose proof VD as (GD & ED & BD). cbn [layer_backward].
    rewrite (fc_backward_rows _ k o n X D X D); auto; [|unfold as_row, rank; fold (tdims X); rewrite EX; reflexivity|unfold as_row, rank; fold (tdims D); rewrite ED; reflexivity].
    do 2 eexists. split; [reflexivity|]. split.
    { left. apply gval_of; [rewrite <- EX; apply (good_dims_of _ X); auto|]. intros Q2 idx HI. apply in_range_2 in HI. destruct HI as (i & p & -> & Hi & Hp). unfold fn2. cbn [nth]. unfold fc_dx.
      replace (N (d + q + co)) with (N d + N q + N co)%Z by nz. apply sum_to_cnt; [lia|lia|lia|lia|]. intros j Hj. apply mul_bnd; [lia|apply BD; auto with idx|apply BW; auto with idx]. }
    split; [eapply calm_dense; cbn; eauto|]. split; [reflexivity|].
    unfold primed. cbn [layer_params layer_grads M_Layers.fc_w M_Layers.fc_b M_Layers.fc_gw M_Layers.fc_gb]. split; [auto|]. split; [auto|]. do 2 eexists. split; [reflexivity|]. rewrite EW, EB. split.
    + apply val_of; [rewrite <- EW; apply (good_dims_of _ (M_Layers.fc_w l)); auto|]. intros idx HI. apply in_range_2 in HI. destruct HI as (p & j & -> & Hp & Hj). unfold fn2. cbn [nth]. unfold fc_dw.
      apply (bnd_le (N x + N d + N cn)); [lia|]. apply sum_to_cnt; [lia|lia|lia|lia|]. intros i Hi. apply mul_bnd; [lia|apply BX; auto with idx|apply BD; auto with idx].
    + apply val_of; [rewrite <- EB; apply (good_dims_of _ (M_Layers.fc_b l)); auto|]. intros idx HI. apply in_range_2 in HI. destruct HI as (p & j & -> & Hp & Hj). unfold fn2. cbn [nth]. unfold fc_db.
      apply (bnd_le (N d + N cn)); [lia|]. apply sum_to_cnt; [lia|lia|lia|lia|]. intros i Hi. apply BD; auto with idx.
  - pose proof VX as (GX & EX & BX). pose proof HW as (GW & EW & GB & EB). rewrite (fc_forward_1 l k o X HW GX EX). unfold lift; cbn [fst snd].
    destruct (dims1_pos X k GX EX) as (Pk & _). destruct (dims2_pos _ k o GW EW) as (_ & Po & HMW).
    pose proof (sized_val q (M_Layers.fc_w l) [k; o] GW EW Sw) as (_ & _ & BW). pose proof (sized_val q (M_Layers.fc_b l) [1; o]%Z GB EB Sb) as (_ & _ & BB).
    do 3 eexists. split; [reflexivity|]. split.
    { apply val_of; [apply good_tensor_of; [auto with idx|cbn [prod]; nia]|]. intros idx HI. apply in_range_1 in HI. destruct HI as (j & -> & Hj). unfold fn1. cbn [nth]. unfold affine, sum_to.
      match goal with |- bnd _ (s_add (fsum ?l0) ?b0) => replace (s_add (fsum l0) b0) with (fsum (l0 ++ [b0])) by apply (fsnoc lm) end.
      replace (N (q + x + c)) with (N x + N q + N c)%Z by nz. apply fsum_cnt; [lia|lia|lia| |].
      - apply Forall_app. split.
        + apply Forall_map, Forall_forall. intros p Hp. apply In_zrange in Hp. apply mul_bnd; [lia|apply BX; auto with idx|apply BW; auto with idx].
        + constructor; [|constructor]. apply (bnd_le (N q)); [lia|]. apply BB. auto with idx.
      - unfold Zlen. rewrite app_length, map_length. cbn [length]. assert (Zlen (zrange 0 k) = k) by (rewrite Zlen_zrange; lia). unfold Zlen in *. lia. }
    intros D VD. cbn [layer_backward].
    assert (RD : exists D', as_row D = Ok D' /\ val [1; o]%Z (N d) D').
    { destruct VD as [VD|(k' & EK & VD)]; apply gval_val in VD; try lia; destruct VD as (GD & ED & BD).
      - rewrite (as_row_1 D o GD ED). eexists. split; [reflexivity|]. apply val_of; [apply good_2; lia || nia|]. intros idx HI. apply in_range_2 in HI. destruct HI as (i & j & -> & Hi & Hj). unfold fn2. cbn [nth]. apply BD. auto with idx.
      - injection EK as <-. exists D. split; [unfold as_row, rank; fold (tdims D); rewrite ED; reflexivity|]. split; auto. }
    destruct RD as (D' & ER & GD & ED & BD).
    assert (GX' : good (tensor_of [1; k]%Z (fn2 (fun _ j => el X [j])))) by (apply good_2; lia || nia).
    assert (BX' : forall i p, (0 <= i < 1)%Z -> (0 <= p < k)%Z -> bnd (N x) (el (tensor_of [1; k]%Z (fn2 (fun _ j => el X [j]))) [i; p])) by (intros i p Hi Hp; rewrite el_tensor_of by auto with idx; unfold fn2; cbn [nth]; apply BX; auto with idx).
    rewrite (fc_backward_rows (mkFC (M_Layers.fc_w l) (M_Layers.fc_b l) (Some X) (M_Layers.fc_gw l) (M_Layers.fc_gb l)) k o 1 X D _ D' HW eq_refl (as_row_1 X k GX EX) ER); auto.
    do 2 eexists. split; [reflexivity|]. split.
    { right. exists k. split; [reflexivity|]. apply gval_of; [auto; apply good_2; lia || nia|]. intros Q2 idx HI. apply in_range_2 in HI. destruct HI as (i & p & -> & Hi & Hp). unfold fn2. cbn [nth]. unfold fc_dx.
      replace (N (d + q + co)) with (N d + N q + N co)%Z by nz. apply sum_to_cnt; [lia|lia|lia|lia|]. intros j Hj. apply mul_bnd; [lia|apply BD; auto with idx|apply BW; auto with idx]. }
    split; [eapply calm_vector; cbn; eauto|]. split; [reflexivity|].
    unfold primed. cbn [layer_params layer_grads M_Layers.fc_w M_Layers.fc_b M_Layers.fc_gw M_Layers.fc_gb]. split; [auto|]. split; [auto|]. do 2 eexists. split; [reflexivity|]. rewrite EW, EB. split.
    + apply val_of; [rewrite <- EW; apply (good_dims_of _ (M_Layers.fc_w l)); auto|]. intros idx HI. apply in_range_2 in HI. destruct HI as (p & j & -> & Hp & Hj). unfold fn2 at 1. cbn [nth]. unfold fc_dw.
      apply (bnd_le (N x + N d + 0)); [lia|]. apply sum_to_cnt; [lia|lia|lia|lia|]. intros i Hi. apply mul_bnd; [lia|apply BX'; auto|apply BD; auto with idx].
    + apply val_of; [rewrite <- EB; apply (good_dims_of _ (M_Layers.fc_b l)); auto|]. intros idx HI. apply in_range_2 in HI. destruct HI as (p & j & -> & Hp & Hj). unfold fn2. cbn [nth]. unfold fc_db.
      apply (bnd_le (N d + 0)); [lia|]. apply sum_to_cnt; [lia|lia|lia|lia|]. intros i Hi. apply BD; auto with idx.
  - destruct (easy_forward ReLU ds _ X ltac:(left; auto) VX) as (y & E & Vy). unfold act_forward. cbn [al_act]. rewrite E. unfold lift; cbn [fst snd]. do 3 eexists. split; [reflexivity|]. split; [exact Vy|]. intros D VD.
    cbn [layer_backward]. unfold act_backward. cbn [al_in al_act]. destruct (back_grad ReLU ds _ (N d) X D ltac:(lia) ltac:(auto) VX VD) as (z & Ez & Vz). rewrite Ez. do 2 eexists. split; [reflexivity|]. split; [exact Vz|]. split; [constructor; auto|]. split; [reflexivity|exact I].
  - destruct (easy_forward (LeakyReLU al) ds _ X ltac:(right; eauto) VX) as (y & E & Vy). unfold act_forward. cbn [al_act]. rewrite E. unfold lift; cbn [fst snd]. do 3 eexists. split; [reflexivity|]. split; [exact Vy|]. intros D VD.
    cbn [layer_backward]. unfold act_backward. cbn [al_in al_act]. apply grad_val in VD; [|lia|exact HNE]. destruct (back_small (LeakyReLU al) ds _ _ X D ltac:(left; right; eauto) VX VD) as (z & Ez & Vz). rewrite Ez. do 2 eexists. split; [reflexivity|]. split; [left; apply val_gval; exact Vz|]. split; [constructor; auto|]. split; [reflexivity|exact I].
  - pose proof (val_finite _ _ _ VX) as FX. pose proof VX as (GX & EX & BX). destruct (f32_sigmoid lm HL X GX FX) as (y & E & Gy & Ey & Hy). unfold act_forward. cbn [al_act]. change (act_fwd (S := SF)) with (act_fwd (S := F32Scalar lm)). rewrite E. unfold lift; cbn [fst snd]. do 3 eexists. split; [reflexivity|].
    split; [split; [auto|split; [congruence|]]; intros idx HI; apply unit_bnd, Hy; rewrite EX; exact HI|]. intros D VD.
    cbn [layer_backward]. unfold act_backward. cbn [al_in al_act]. destruct (back_grad Sigmoid ds _ (N d) X D ltac:(lia) ltac:(auto) VX VD) as (z & Ez & Vz). rewrite Ez. do 2 eexists. split; [reflexivity|]. split; [exact Vz|]. split; [constructor; auto|]. split; [reflexivity|exact I].
  - pose proof (val_finite _ _ _ VX) as FX. pose proof VX as (GX & EX & BX). destruct (f32_softmax lm HL X n r GX FX EX HN) as (y & E & Gy & Ey & Hy & _). unfold act_forward. cbn [al_act act_fwd]. change (softmax_fwd (S := SF)) with (softmax_fwd (S := F32Scalar lm)). rewrite E. unfold lift; cbn [fst snd]. do 3 eexists. split; [reflexivity|].
    split; [split; [auto|split; [congruence|]]; intros idx HI; apply unit_bnd, Hy; rewrite EX; exact HI|]. intros D VD.
    cbn [layer_backward]. unfold act_backward. cbn [al_in al_act act_bwd]. apply grad_val in VD; [|lia|solve [cbn [length]; lia|auto|match goal with H : ?r <> [] |- _ => destruct r; [congruence|cbn [length]; lia] end]]. destruct (softmax_back n r _ (N d) (N c) X D HN ltac:(lia) ltac:(lia) ltac:(lia) Hp VX VD) as (z & Ez & Vz). rewrite Ez. do 2 eexists. split; [reflexivity|]. split; [left; apply val_gval; replace (N (d + c)) with (N d + N c)%Z by nz; exact Vz|]. split; [constructor; auto|]. split; [reflexivity|exact I].
  - pose proof VX as (GX & EX & BX). destruct (flatten_roundtrip l X n c r GX EX HN) as (l' & y & E & Gy & Ey & Dy & HB). rewrite E. unfold lift; cbn [fst snd]. do 3 eexists. split; [reflexivity|]. split.
    { apply sized_val; [auto|auto|]. unfold sized. rewrite Dy. exact (val_sized _ _ _ VX). }
    intros D VD. apply grad_val in VD; [|lia|solve [cbn [length]; lia|auto|match goal with H : ?r <> [] |- _ => destruct r; [congruence|cbn [length]; lia] end]]. pose proof VD as (GD & ED & BD). destruct (HB D GD ltac:(congruence)) as (z & Ez & Gz & Edz & Dz). cbn [layer_backward]. rewrite Ez. do 2 eexists. split; [reflexivity|].
    split; [left; apply val_gval; apply sized_val; [auto|congruence|]; unfold sized; rewrite Dz; exact (val_sized _ _ _ VD)|]. split; [constructor; auto|]. split; [reflexivity|exact I].
  - pose proof VX as (GX & EX & BX). destruct (dropout_train l X g HT GX) as (r & g' & _ & Gr & Er & E). rewrite E. cbn [fst snd]. do 3 eexists. split; [reflexivity|].
    assert (M01 : forall i : list Z, bnd 0 (if s_lt (dr_rate l) (el r i) then one else zero)) by (intros i; destruct (s_lt (dr_rate l) (el r i)); [apply bnd_unit; split; [reflexivity|]; split; [reflexivity|]; change one with (f32_of_Z 1); rewrite V_one; lra|apply bnd_zero]).
    split.
    { rewrite <- EX. apply val_of; [apply good_tensor_of; [apply good_pos; auto|apply good_max; auto]|]. intros idx HI. rewrite EX in HI. replace (N (x + 1)) with ((N x + 0) + (0 - -1))%Z by nz. apply mul_bnd; [lia|apply mul_bnd; [lia|apply BX; auto|apply M01]|].
      apply within_in in HRt. destruct HRt as (R1 & R2 & R3). assert (O1 : good_f (f32_of_Z 1)) by (split; reflexivity).
      destruct (sub_to (f32_of_Z 1) (dr_rate l) 0 ltac:(lia) O1 ltac:(split; auto)) as (GS & ES); [rewrite V_one; change (P 0) with 1; apply Rabs_le; lra|].
      apply div_bnd; [lia|apply bnd_unit; split; [reflexivity|]; split; [reflexivity|]; change one with (f32_of_Z 1); rewrite V_one; lra|exact GS|].
      change (s_sub one (dr_rate l)) with (fsub (f32_of_Z 1) (dr_rate l)). rewrite ES. apply rnd_P_ge; [lia|]. rewrite V_one. change (P (-1)) with (/ 2). lra. }
    intros D VD. apply grad_val in VD; [|lia|solve [cbn [length]; lia|auto|match goal with H : ?r <> [] |- _ => destruct r; [congruence|cbn [length]; lia] end]]. pose proof VD as (GD & ED & BD). cbn [layer_backward].
    assert (GM : good (drop_mask (dr_rate l) r)) by (apply good_tensor_of; [apply good_pos; auto|apply good_max; auto]).
    rewrite (dropout_backward_ok _ (drop_mask (dr_rate l) r) D); auto; [|change (tdims D = tdims r); congruence]. cbn [dr_train]. do 2 eexists. split; [reflexivity|].
    split. { left. apply val_gval. rewrite <- ED. apply val_of; [apply good_tensor_of; [apply good_pos; auto|apply good_max; auto]|]. intros idx HI. replace (N d) with (N d + 0)%Z by lia. apply mul_bnd; [|apply BD; rewrite <- ED; exact HI|].
      - lia.
      - unfold drop_mask. rewrite el_tensor_of by (rewrite Er, EX, <- ED; exact HI). apply M01. }
    split; [constructor; auto|]. split; [reflexivity|exact I].
  - pose proof VX as (GX & EX & BX). pose proof HW as (GW & EW & GB & EB). rewrite (conv_forward_ok l X n h w HW GX EX H1 H2 HM). unfold lift; cbn [fst snd].
    destruct (dims4_pos X _ _ _ _ GX EX) as (Hn & Hic & Hh & Hw & HMx). destruct (dims4_pos _ _ _ _ _ GW EW) as (Hoc & _ & Hkh & Hkw & HMw).
    pose proof (sized_val q _ _ GW EW Sw) as (_ & _ & BW). pose proof (sized_val q _ _ GB EB Sb) as (_ & _ & BB).
    do 3 eexists. split; [reflexivity|]. split.
    { apply val_of; [apply good_4; lia|]. intros idx HI. apply in_range_4 in HI. destruct HI as (i & o & y & z & -> & Hi & Ho & Hy & Hz). unfold fn4. cbn [nth]. unfold conv0.
      replace (N (q + x + 26)) with ((N x + N q + 25) + 1)%Z by nz. apply add_bnd; [lia| |].
      - apply fsum_bnd; [lia|lia|]. apply Forall_map, Forall_forall. intros id HId. apply In_all_indices in HId; [|apply pos_forall; auto with idx]. apply in_range_2 in HId. destruct HId as (p & u & -> & Hp & Hu). unfold fn2. cbn [nth]. apply mul_bnd; [lia| |].
        + apply BX. repeat (constructor; [lia|]). constructor.
        + apply BW. repeat (constructor; [lia|]). constructor.
      - apply (bnd_le (N q)); [lia|]. apply BB. auto with idx. }
    intros D VD. apply grad_val in VD; [|lia|solve [cbn [length]; lia|auto|match goal with H : ?r <> [] |- _ => destruct r; [congruence|cbn [length]; lia] end]]. pose proof VD as (GD & ED & BD). cbn [layer_backward].
    rewrite (conv_backward_ok (conv_saw l X) X D n n h w (h - cv_kh l + 1) (w - cv_kw l + 1)); auto.
    do 2 eexists. split; [reflexivity|]. cbn [conv_saw cv_w cv_b cv_in cv_ic cv_oc cv_kh cv_kw cv_stride cv_pad cv_dil]. split.
    { left. apply gval_of; [apply good_4; auto; lia|]. intros Q2 idx HI. unfold cgx. replace (N (d + q + 25)) with (N q + N d + 25)%Z by nz. apply fsum_bnd; [lia|lia|]. apply Forall_map, Forall_forall. intros id HId.
      apply filter_In in HId. destruct HId as (HId & _). apply In_all_indices in HId; [|apply pos_forall; auto with idx]. apply in_range_4 in HId. destruct HId as (i & j & a & b & -> & Hi & Hj & Ha & Hb). unfold fn4. cbn [nth]. apply mul_bnd; [lia| |].
      - apply BW. repeat (constructor; [lia|]). constructor.
      - apply BD. repeat (constructor; [lia|]). constructor. }
    split; [apply (calm_conv q n h w x d (mkConv (cv_w l) (cv_b l) (Some X) _ _ (cv_ic l) (cv_oc l) (cv_kh l) (cv_kw l) (cv_stride l) (cv_pad l) (cv_dil l))); cbn; auto|]. split; [reflexivity|].
    unfold primed. cbn [layer_params layer_grads cv_w cv_b cv_gw cv_gb]. split; [auto|]. split; [auto|]. do 2 eexists. split; [reflexivity|]. rewrite EW, EB. split.
    + apply val_of; [apply good_4; lia|]. intros idx HI. apply in_range_4 in HI. destruct HI as (o & c & p & u & -> & Ho & Hc & Hp & Hu). unfold cgw.
      destruct o; try apply bnd_zero. destruct c; try apply bnd_zero. apply (bnd_le (N x + N d + 25)); [lia|]. apply fsum_bnd; [lia|lia|]. apply Forall_map, Forall_forall. intros id HId. apply In_all_indices in HId; [|apply pos_forall; auto with idx]. apply in_range_2 in HId. destruct HId as (i & j & -> & Hi & Hj). unfold fn2. cbn [nth]. apply mul_bnd; [lia| |].
      * apply BX. repeat (constructor; [lia|]). constructor.
      * apply BD. repeat (constructor; [lia|]). constructor.
    + apply val_of; [rewrite <- EB; apply (good_dims_of _ (cv_b l)); auto|]. intros idx HI. unfold cgb. destruct (idx_eqb idx [0; 0]%Z); [|apply bnd_zero]. apply (bnd_le (N d + 25)); [lia|]. apply fsum_bnd; [lia|lia|]. apply Forall_map, Forall_forall. intros id HId. apply In_all_indices in HId; [|apply pos_forall; auto with idx]. apply in_range_2 in HId. destruct HId as (i & j & -> & Hi & Hj). unfold fn2. cbn [nth].
      apply BD. repeat (constructor; [lia|]). constructor.
  - pose proof VX as (GX & EX & BX). pose proof (in_order _ _ _ VX) as CX. destruct (pool_sizes l X n c h w GX EX K2 K3 K4 K5) as (Pn & Pc & Poh & Pow & HM & _).
    rewrite (pool_forward_ok l X n c h w) by auto. unfold lift; cbn [fst snd]. do 3 eexists. split; [reflexivity|]. split.
    { apply val_of; [apply good_4; auto|]. intros o HO. apply BX. destruct (winner_ok l X n c h w GX EX K1 K2 K3 K4 K5 CX o HO) as (_ & _ & HI & _). rewrite EX in HI. exact HI. }
    intros D VD. apply grad_val in VD; [|lia|cbn [length]; lia]. pose proof VD as (GD & ED & BD). cbn [layer_backward]. rewrite (pool_backward_ok l X n c h w) by auto. do 2 eexists. split; [reflexivity|].
    split. { left. rewrite EX. apply gval_of; [rewrite <- EX; apply (good_dims_of _ X); auto|]. intros _ idx HI. replace (N (d + m)) with (N d + N m)%Z by nz. rewrite ED.
      match goal with |- bnd _ (fold_left s_add ?l0 _) => change (bnd (N d + N m) (fsum l0)) end. apply fsum_cnt; [lia|lia|lia| |].
      - apply Forall_map, Forall_forall. intros o HO. apply filter_In in HO. destruct HO as (HO & _). apply BD. apply In_all_indices in HO; [exact HO|]. repeat (constructor; auto).
      - unfold Zlen. rewrite map_length. fold (Zlen (filter (fun o => idx_eqb (winner l X o) idx) (all_indices [n; c; pool_extent (po_size l) (po_stride l) h; pool_extent (po_size l) (po_stride l) w]))).
        eapply Z.le_trans; [apply winners_few; auto|exact Hm]. intros o HO. destruct (winner_ok l X n c h w GX EX K1 K2 K3 K4 K5 CX o HO) as (_ & _ & _ & EW). eauto. }
    split; [apply (calm_pool q n c h w x d (mkPool (po_size l) (po_stride l) (po_pad l) (Some X)) m); auto|]. split; [reflexivity|exact I].
Qed.

(** ** Adam *)
Hypothesis HP : pow_like (m_pow lm).
Lemma decayed : forall s lr decay n, (-20 <= s <= 0)%Z -> within 0 (P s) lr -> within 0 1 decay -> (1 <= n <= INT_MAX)%Z -> within 0 (P s) (adam_lr lr decay n (s_z (-1))).
Proof.
  intros s lr decay n Hs (L1 & L2 & L3) UD Hn. unfold adam_lr. change (s_le (s_z (-1)) zero) with true. cbv iota.
  assert (BL : bnd s lr) by (split; [split; auto|rewrite Rabs_pos_eq by lra; lra]).
  assert (U : within 0 1 (if s_lt zero decay then s_div one (s_add one (s_mul decay (s_z n))) else one)).
  { assert (U1 : within 0 1 (f32_of_Z 1)) by (split; [apply of_Z_vok|split; [reflexivity|rewrite V_one; lra]]).
    destruct (s_lt zero decay); [|exact U1]. destruct (of_Z_ge1 n Hn) as (GN & LN).
    assert (BN : bnd 31 (f32_of_Z n)).
    { split; [auto|]. assert (L : Rabs (IZR n) <= P 31). { rewrite Rabs_pos_eq by (apply IZR_le; lia). change (P 31) with (IZR 2147483648). apply IZR_le. unfold INT_MAX in *. lia. }
      destruct (of_Z_in n) as (F & E); [eapply fin_by; [|exact L]; lia|]. rewrite E. apply rnd_P; [lia|auto]. }
    pose proof (mul_bnd decay _ 0 31 ltac:(lia) (bnd_unit _ UD) BN) as BP. pose proof (mul_pos decay _ 0 31 ltac:(lia) (bnd_unit _ UD) BN ltac:(apply UD) ltac:(lra)) as PP. change (0 + 31)%Z with 31%Z in BP.
    change (s_mul decay (s_z n)) with (fmul decay (f32_of_Z n)). set (p := fmul decay (f32_of_Z n)) in *. destruct (add_to (f32_of_Z 1) p 32 ltac:(lia)) as [GS ES]; [eapply within_good; exact U1|apply BP| |].
    { rewrite V_one. destruct BP as [_ LP]. rewrite Rabs_pos_eq in LP by auto. rewrite Rabs_pos_eq by lra. change (P 31) with 2147483648 in LP. change (P 32) with 4294967296. lra. }
    assert (LS : 1 <= V (fadd (f32_of_Z 1) p)) by (rewrite ES, V_one, <- P_0; apply rnd_P_ge; [lia|rewrite P_0; lra]).
    pose proof (div_bnd (f32_of_Z 1) (fadd (f32_of_Z 1) p) 0 0 ltac:(lia) (bnd_unit _ U1) GS ltac:(rewrite P_0; exact LS)) as [GD LD].
    pose proof (div_pos (f32_of_Z 1) (fadd (f32_of_Z 1) p) 0 0 ltac:(lia) (bnd_unit _ U1) GS ltac:(rewrite P_0; exact LS) ltac:(rewrite V_one; lra)) as PD.
    destruct GD as [HD FD]. split; [exact HD|]. split; [exact FD|]. split; [exact PD|]. rewrite Rabs_pos_eq in LD by exact PD. exact LD. }
  match type of U with within 0 1 ?f0 => set (f := f0) in * end. pose proof (mul_bnd lr f s 0 ltac:(lia) BL (bnd_unit _ U)) as (GM & LM). pose proof (mul_pos lr f s 0 ltac:(lia) BL (bnd_unit _ U) ltac:(lra) ltac:(apply U)) as PM.
  replace (s + 0)%Z with s in LM by lia. destruct GM as (G1 & G2). split; [exact G1|]. split; [exact G2|]. split; [exact PM|]. rewrite Rabs_pos_eq in LM by exact PM. exact LM.
Qed.
(** The state of an optimizer in use *)
Definition steady (D : Z -> list Z) (s : Z) (o : adam f32) : Prop :=
  adam_ok D o /\ ad_b1 o = b1F /\ ad_b2 o = b2F /\ ad_l1 o = zero /\ ad_l2 o = zero /\ eps_ok (ad_eps o) /\ within 0 (P s) (ad_init o) /\ within 0 1 (ad_decay o) /\
  (1 <= ad_batch o <= INT_MAX)%Z /\ (0 <= ad_it o)%Z /\ forall k idx, in_range (D k) idx -> moments (buf_el (ad_m o) k idx) (buf_el (ad_v o) k idx).
Lemma steady_update : forall D s (o : adam f32) k (w g : tensor f32) u, (-20 <= s <= 0)%Z -> steady D s o -> (1 <= ad_it o)%Z -> within 0 (P s) (ad_lr o) ->
  val (D k) (s + 35) w -> val (D k) 112 g -> exists o' w', adam_update o k w g u = (o', Ok w') /\ steady D s o' /\ ad_it o' = ad_it o /\ ad_lr o' = ad_lr o /\ val (D k) (s + 35) w'.
Proof.
  intros D s o k w g u Hs (HO & E1 & E2 & E3 & E4 & HE & HI & HD & HB & H0 & HM) Hit HLr (Gw & Ew & Bw) (Gg & Eg & Bg).
  destruct (adam_update_ok D o k w g u HO Gw Ew Gg Eg) as (m & v & w' & E & HO' & Gw' & Ew' & VV). exists (adam_with o k m v), w'. split; [exact E|].
  assert (ST : forall idx, in_range (D k) idx -> bnd (s + 35) (el w' idx) /\ moments (el m idx) (el v idx)).
  { intros idx Hidx. specialize (VV idx Hidx). destruct (of_Z_ge1 _ HB) as (GB & LB).
    assert (BA : bnd 112 (s_div (el g idx) (s_z (ad_batch o)))) by (apply (div_bnd _ _ 112 0); [lia|apply Bg; auto|exact GB|rewrite P_0; exact LB]).
    pose proof (adam_step_small lm HP s (ad_eps o) (ad_it o) (ad_lr o) _ (el w idx) _ _ Hs HE Hit HLr BA (Bw idx Hidx) (HM k idx Hidx)) as ST.
    assert (EQ : adam_param o (adam_alpha o) (el w idx) (el g idx) (buf_el (ad_m o) k idx) (buf_el (ad_v o) k idx) =
      adam_rule (S := F32Scalar lm) b1F b2F (ad_eps o) (f32_of_Z 0) (f32_of_Z 0) (adam_scaled (S := F32Scalar lm) b1F b2F) (ad_it o) (ad_lr o) (s_div (el g idx) (s_z (ad_batch o))) (el w idx, buf_el (ad_m o) k idx, buf_el (ad_v o) k idx)).
    { unfold adam_param, adam_rule, adam_alpha, adam_scaled, adam_m, adam_v. rewrite E1, E2, E3, E4. reflexivity. }
    rewrite EQ in VV. rewrite <- VV in ST. exact ST. }
  split; [|split; [reflexivity|]; split; [reflexivity|]; split; [exact Gw'|]; split; [exact Ew'|]; intros idx Hidx; apply ST; exact Hidx].
  split; [exact HO'|]. cbn [adam_with ad_b1 ad_b2 ad_l1 ad_l2 ad_eps ad_init ad_decay ad_batch ad_it ad_m ad_v]. do 9 (split; [assumption|]).
  intros k' idx Hidx. rewrite !buf_el_put. destruct (Z.eqb_spec k' k) as [->|]; [apply ST; exact Hidx|apply HM; exact Hidx].
Qed.
Lemma steady_pair : forall D s (o : adam f32) i (w b gw gb : tensor f32), (-20 <= s <= 0)%Z -> steady D s o -> (ad_it o < INT_MAX)%Z ->
  val (D (2 * i)%Z) (s + 35) w -> val (D (2 * i + 1)%Z) (s + 35) b -> val (D (2 * i)%Z) 112 gw -> val (D (2 * i + 1)%Z) 112 gb ->
  exists o' w' b', pair_optimize (OAdam o) i w b gw gb = (OAdam o', w', b', Ok tt) /\ steady D s o' /\ ad_it o' = (ad_it o + 1)%Z /\ val (D (2 * i)%Z) (s + 35) w' /\ val (D (2 * i + 1)%Z) (s + 35) b'.
Proof.
  intros D s o i w b gw gb Hs HO HM Vw Vb Vgw Vgb. unfold pair_optimize.
  assert (F1 : pair_store i w b (2 * i)%Z = w) by (unfold pair_store; rewrite Z.eqb_refl; reflexivity).
  assert (F2 : forall w', put (pair_store i w b) (2 * i)%Z w' (2 * i + 1)%Z = b) by (intros w'; rewrite put_neq by lia; unfold pair_store; destruct (Z.eqb_spec (2 * i + 1) (2 * i)); [lia|reflexivity]).
  assert (F3 : forall w' b', put (put (pair_store i w b) (2 * i)%Z w') (2 * i + 1)%Z b' (2 * i)%Z = w') by (intros w' b'; rewrite put_neq by lia; apply put_eq).
  assert (F4 : forall w' b', put (put (pair_store i w b) (2 * i)%Z w') (2 * i + 1)%Z b' (2 * i + 1)%Z = b') by (intros w' b'; apply put_eq).
  cbn [optim_optimize]. unfold adam_optimize. change (Zlen [2 * i; 2 * i + 1]%Z =? Zlen [gw; gb])%Z with true. cbn [negb combine]. unfold adam_rate.
  pose proof HO as (_ & _ & _ & _ & _ & _ & HI & HD & _ & H0 & _). rewrite chk32_ok by (unfold INT_MIN; lia). cbn [bind].
  set (s0 := mkAdam _ _ _ _ _ _ _ _ _ _ _ _). cbn [opt_loop]. rewrite F1.
  assert (HO0 : steady D s s0). { destruct HO as (A1 & A2 & A3 & A4 & A5 & A6 & A7 & A8 & A9 & A10 & A11). split; [exact A1|]. cbn [s0 ad_b1 ad_b2 ad_l1 ad_l2 ad_eps ad_init ad_decay ad_batch ad_it ad_m ad_v]. do 8 (split; [assumption|]). split; [lia|exact A11]. }
  assert (HL0 : within 0 (P s) (ad_lr s0)) by (apply (decayed s (ad_init o) (ad_decay o) (ad_it o + 1)); auto; lia).
  destruct (steady_update D s s0 (2 * i)%Z w gw tt Hs HO0 ltac:(cbn [s0 ad_it]; lia) HL0 Vw Vgw) as (o1 & w' & E1 & HO1 & I1 & L1 & Vw'). rewrite E1. rewrite F2.
  destruct (steady_update D s o1 (2 * i + 1)%Z b gb tt Hs HO1 ltac:(rewrite I1; cbn [s0 ad_it]; lia) ltac:(rewrite L1; exact HL0) Vb Vgb) as (o2 & b' & E2 & HO2 & I2 & L2 & Vb'). rewrite E2.
  do 3 eexists. split; [rewrite F3, F4; reflexivity|]. split; [exact HO2|]. split; [rewrite I2, I1; reflexivity|]. split; [exact Vw'|exact Vb'].
Qed.

(** ** A whole network *)
Lemma calms_chain : forall q ls ds x d ds' x' d' (X : tensor f32) (g : G), calms q ds x d ls ds' x' d' -> val ds (N x) X ->
  exists ls1 g' y, forward_all ls X g = (ls1, g', Ok y) /\ val ds' (N x') y /\
    forall D : tensor f32, grad ds' (N d') D -> exists ls2 gx, backward_all ls1 D = (ls2, Ok gx) /\
      calms q ds x d ls2 ds' x' d' /\ map layer_params ls2 = map layer_params ls /\ Forall primed ls2 /\ grad ds (N d) gx.
Proof.
  intros q. induction ls as [|l ls IH]; intros ds x d ds' x' d' X g HA VX.
  - inversion HA; subst. exists [], g, X. split; [reflexivity|]. split; [exact VX|]. intros D VD. exists [], D. split; [reflexivity|]. split; [constructor|]. split; [reflexivity|]. split; [constructor|exact VD].
  - inversion HA as [|? ? ? ? ds1 x1 d1 ? ? ? ? H1 H2]; subst. destruct (calm_step q ds x d l ds1 x1 d1 X g H1 VX) as (l1 & g1 & y & E1 & Vy & B1).
    destruct (IH ds1 x1 d1 ds' x' d' y g1 H2 Vy) as (ls1 & g2 & z & E2 & Vz & B2). exists (l1 :: ls1), g2, z. cbn [forward_all]. rewrite E1, E2. split; [reflexivity|]. split; [exact Vz|]. intros D VD.
    destruct (B2 D VD) as (ls2 & gm & F1 & F2 & F3 & F4 & F5). destruct (B1 gm F5) as (l2 & gx & K1 & K2 & K3 & K4 & K5).
    exists (l2 :: ls2), gx. cbn [backward_all]. rewrite F1, K1. split; [reflexivity|]. split; [econstructor; eauto|]. split; [cbn [map]; congruence|]. split; [constructor; auto|exact K2].
Qed.
Lemma calm_with : forall q ds x d l ds' x' d' (w b w' b' : tensor f32), calm q ds x d l ds' x' d' -> layer_params l = Some (w, b) -> val (tdims w) (N q) w' -> val (tdims b) (N q) b' -> calm q ds x d (with_params l w' b') ds' x' d'.
Proof.
  intros q ds x d l ds' x' d' w b w' b' HC EP Vw Vb. pose proof (val_sized _ _ _ Vw) as Sw'. pose proof (val_sized _ _ _ Vb) as Sb'. destruct Vw as (Gw & Ew & _). destruct Vb as (Gb & Eb & _).
  destruct HC as [n k o x d l c co cn HW Sw Sb HM Hk Ho Hn HC1 Q1 Q3|k o x d l c co HW Sw Sb Hk Ho HC1 Q1 Q3|ds x d i QD|ds x d al i HNE HA QD|ds x d i QD|n r x d i c HN Hp Hc Q|n c r x d l HN QD|ds x d l HNE HT HRt Q Q2|n h w0 x d l HW Sw Sb H1 H2 HM Q1 Q3|n c h w0 x d l m K1 K2 K3 K4 K5 Hm Q1 Q2]; try discriminate; cbn [layer_params] in EP; injection EP as <- <-.
  - destruct HW as (G1 & E1 & G2 & E2). eapply calm_dense; cbn [M_Layers.fc_w M_Layers.fc_b]; eauto. unfold fc_wf; cbn [M_Layers.fc_w M_Layers.fc_b]. split; [auto|]. split; [congruence|]. split; [auto|congruence].
  - destruct HW as (G1 & E1 & G2 & E2). eapply calm_vector; cbn [M_Layers.fc_w M_Layers.fc_b]; eauto. unfold fc_wf; cbn [M_Layers.fc_w M_Layers.fc_b]. split; [auto|]. split; [congruence|]. split; [auto|congruence].
  - destruct HW as (G1 & E1 & G2 & E2). apply (calm_conv q n h w0 x d (mkConv w' b' (cv_in l) (cv_gw l) (cv_gb l) (cv_ic l) (cv_oc l) (cv_kh l) (cv_kw l) (cv_stride l) (cv_pad l) (cv_dil l))); auto.
    unfold conv_wf; cbn [cv_w cv_b cv_oc cv_ic cv_kh cv_kw]. split; [auto|]. split; [congruence|]. split; [auto|congruence].
Qed.
Lemma calm_params : forall q ds x d l ds' x' d' (w b : tensor f32), calm q ds x d l ds' x' d' -> layer_params l = Some (w, b) -> val (tdims w) (N q) w /\ val (tdims b) (N q) b.
Proof.
  intros q ds x d l ds' x' d' w b HC EP.
  destruct HC as [n k o x d l c co cn HW Sw Sb HM Hk Ho Hn HC1 Q1 Q3|k o x d l c co HW Sw Sb Hk Ho HC1 Q1 Q3|ds x d i QD|ds x d al i HNE HA QD|ds x d i QD|n r x d i c HN Hp Hc Q|n c r x d l HN QD|ds x d l HNE HT HRt Q Q2|n h w0 x d l HW Sw Sb H1 H2 HM Q1 Q3|n c h w0 x d l m K1 K2 K3 K4 K5 Hm Q1 Q2]; try discriminate; cbn [layer_params] in EP; injection EP as <- <-; destruct HW as (G1 & E1 & G2 & E2); split; apply sized_val; auto.
Qed.
Definition sq (q : nat) : Z := (N q - 35)%Z.
Lemma calm_update : forall q D i l (o : adam f32) ds x d ds' x' d', (15 <= q <= 35)%nat -> calm q ds x d l ds' x' d' -> primed l -> dims_at D i [l] -> steady D (sq q) o -> (ad_it o < INT_MAX)%Z ->
  exists l' o', layer_update i l (OAdam o) = (l', OAdam o', Ok tt) /\ steady D (sq q) o' /\ (ad_it o' <= ad_it o + 1)%Z /\ calm q ds x d l' ds' x' d' /\ params_dims l' = params_dims l.
Proof.
  intros q D i l o ds x d ds' x' d' Hq HA HR0 (HD & _) HO HM. unfold primed in HR0. destruct (layer_params l) as [(w & b)|] eqn:EP.
  - destruct HR0 as (Gw & Gb & gw & gb & EG & Vgw & Vgb). destruct HD as (D1 & D2). destruct (calm_params _ _ _ _ _ _ _ _ _ _ HA EP) as (Vw & Vb). rewrite <- D1 in Vw, Vgw. rewrite <- D2 in Vb, Vgb.
    replace (N q) with (sq q + 35)%Z in Vw, Vb by (unfold sq; lia).
    destruct (steady_pair D (sq q) o i w b gw gb ltac:(unfold sq; lia) HO HM Vw Vb Vgw Vgb) as (o' & w' & b' & E & HO' & HI & Vw' & Vb'). replace (sq q + 35)%Z with (N q) in Vw', Vb' by (unfold sq; lia).
    assert (EU : layer_update i l (OAdam o) = (with_params l w' b', OAdam o', Ok tt)).
    { destruct l as [l|l|l|l|l|l|l]; cbn [layer_params] in EP; try discriminate; injection EP as <- <-; cbn [layer_grads] in EG; cbn [layer_update with_params].
      - destruct (M_Layers.fc_gw l) as [gw'|] eqn:E1, (M_Layers.fc_gb l) as [gb'|] eqn:E2; try discriminate. injection EG as -> ->. rewrite E. reflexivity.
      - destruct (cv_gw l) as [gw'|] eqn:E1, (cv_gb l) as [gb'|] eqn:E2; try discriminate. injection EG as -> ->. rewrite E. reflexivity.
      - destruct (bn_ggamma l) as [gw'|] eqn:E1, (bn_gbeta l) as [gb'|] eqn:E2; try discriminate. injection EG as -> ->. rewrite E. reflexivity. }
    assert (EP' : layer_params (with_params l w' b') = Some (w', b')) by (destruct l; try discriminate; reflexivity).
    rewrite D1 in Vw'. rewrite D2 in Vb'. exists (with_params l w' b'), o'. split; [exact EU|]. split; [auto|]. split; [lia|]. split; [eapply calm_with; eauto|]. unfold params_dims. rewrite EP, EP'. destruct Vw' as (_ & -> & _). destruct Vb' as (_ & -> & _). reflexivity.
  - exists l, o. split; [destruct l; cbn [layer_params] in EP; try discriminate; reflexivity|]. split; [auto|]. split; [lia|]. auto.
Qed.
Lemma calms_update : forall q D ls i (o : adam f32) ds x d ds' x' d', (15 <= q <= 35)%nat -> calms q ds x d ls ds' x' d' -> Forall primed ls -> dims_at D i ls -> steady D (sq q) o -> (ad_it o + Zlen ls <= INT_MAX)%Z ->
  exists ls' o', update_all i ls (OAdam o) = (ls', OAdam o', Ok tt) /\ steady D (sq q) o' /\ (ad_it o' <= ad_it o + Zlen ls)%Z /\ calms q ds x d ls' ds' x' d' /\ map params_dims ls' = map params_dims ls.
Proof.
  intros q D. induction ls as [|l ls IH]; intros i o ds x d ds' x' d' Hq HA HF HD HO HM.
  - exists [], o. cbn [update_all]. split; [auto|]. split; [auto|]. split; [change (Zlen (@nil (layer f32))) with 0%Z; lia|]. auto.
  - inversion HA as [|? ? ? ? ds1 x1 d1 ? ? ? ? H1 H2]; subst. inversion HF as [|? ? F1 F2]; subst. destruct HD as (D1 & D2). rewrite Zlen_cons in HM. pose proof (Zlen_nonneg ls).
    destruct (calm_update q D i l o ds x d ds1 x1 d1 Hq H1 F1 (conj D1 I) HO ltac:(lia)) as (l' & o1 & E1 & O1 & I1 & A1 & P1).
    destruct (IH (i + 1)%Z o1 ds1 x1 d1 ds' x' d' Hq H2 F2 D2 O1 ltac:(lia)) as (ls' & o2 & E2 & O2 & I2 & A2 & P2).
    exists (l' :: ls'), o2. cbn [update_all]. rewrite E1, E2. split; [auto|]. split; [auto|]. split; [rewrite Zlen_cons; lia|]. split; [econstructor; eauto|cbn [map]; congruence].
Qed.
Lemma calm_gradient : forall lo x d ds (p t : tensor f32), calm_loss lo x d -> (lo = CCE -> (0 <= N d)%Z) -> val ds (N x) p -> target_fits lo ds t -> calm_target lo x t -> exists y, loss_gradient lo p t = Ok y /\ val ds (N d) y.
Proof.
  intros lo x d ds p t HC _ Vp (Gt & HT) CT. pose proof (val_finite _ _ _ Vp) as Fp. pose proof Vp as (Gp & Ep & Bp). destruct lo; cbn [loss_gradient calm_loss calm_target] in *.
  - assert (HA : aligned p t) by (unfold aligned; rewrite Ep; auto). rewrite mse_gradient_ok; [|auto..|apply (eq_zero lm), prod_range; auto]. eexists. split; [reflexivity|]. rewrite <- Ep. apply val_of; [apply good_tensor_of; [apply good_pos; auto|apply good_max; auto]|].
    intros idx HI. destruct (of_Z_ge1 _ (prod_range p Gp)) as (G1 & L1). apply (bnd_le ((N x + 1) + 1 - 0)); [lia|]. apply div_bnd; [lia| |exact G1|rewrite P_0; exact L1]. apply mul_bnd; [lia| |].
    + apply sub_bnd; [lia|apply Bp; rewrite <- Ep; exact HI|]. apply bnd_in. apply (el_shaped lm); auto. unfold sized in CT. rewrite pw. exact CT.
    + split; [split; reflexivity|]. change (s_z 2) with (f32_of_Z 2). rewrite V_two. change (P 1) with 2. rewrite Rabs_pos_eq; lra.
  - destruct HT as (b & c & -> & Et). destruct (cce_grad lm p t b c Gp Gt Ep Et) as (y & E & Gy & Ey & Hy); [|auto|].
    + eapply Forall_impl; [|exact Fp]. intros v (A & B). split; [exact A|]. intros C. unfold f32_finite, f32_nan in *. destruct v; auto; discriminate.
    + exists y. split; [exact E|]. split; [exact Gy|]. split; [exact Ey|]. intros idx HI. apply (bnd_le 0); [lia|]. apply bnd_in. rewrite P_0. replace (-(1)) with (-1) by lra. apply Hy. exact HI.
Qed.
Definition calm_net (D : Z -> list Z) (q : nat) ds x d ds' x' d' (n : net f32 G) (lo : loss) (o : adam f32) : Prop :=
  calms q ds x d (n_layers n) ds' x' d' /\ n_loss n = Some lo /\ n_opt n = Some (OAdam o) /\ dims_at D 0 (n_layers n) /\ steady D (sq q) o.
Lemma calm_fit_one : forall D q ds x d ds' x' d' (n : net f32 G) lo o (X t : tensor f32), (15 <= q <= 35)%nat -> calm_net D q ds x d ds' x' d' n lo o -> calm_loss lo x' d' -> (ad_it o + Zlen (n_layers n) <= INT_MAX)%Z ->
  val ds (N x) X -> target_fits lo ds' t -> calm_target lo x' t ->
  exists n' o', fit_one n X t n' /\ calm_net D q ds x d ds' x' d' n' lo o' /\ map params_dims (n_layers n') = map params_dims (n_layers n) /\ (ad_it o' <= ad_it o + Zlen (n_layers n))%Z.
Proof.
  intros D q ds x d ds' x' d' n lo o X t Hq (HA & HLo & HOp & HD & HO) HC HM VX HT CT.
  destruct (calms_chain q (n_layers n) ds x d ds' x' d' X (n_rng n) HA VX) as (ls1 & g1 & p & E1 & Vp & HB).
  destruct (calm_gradient lo x' d' ds' p t HC ltac:(intros; lia) Vp HT CT) as (dl & ED & Vd).
  destruct (loss_total lo ds' p t (f32_counts lm) (proj1 Vp) (proj1 (proj2 Vp)) HT) as ((c & EC) & _).
  destruct (HB dl (or_introl (val_gval _ _ _ Vd))) as (ls2 & gx & E2 & A2 & P2 & R2 & _).
  assert (LEN : Zlen ls2 = Zlen (n_layers n)) by (unfold Zlen; f_equal; rewrite <- (map_length layer_params ls2), P2, map_length; auto).
  destruct (calms_update q D ls2 0 o ds x d ds' x' d' Hq A2 R2) as (ls3 & o' & E3 & O3 & I3 & A3 & P3); [eapply dims_at_same; [apply params_dims_of; exact P2|auto]|auto|rewrite LEN; auto|].
  pose (n1 := mkNet ls1 (n_loss n) (n_opt n) g1). pose (n2 := mkNet ls2 (n_loss n) (n_opt n) g1).
  assert (Q1 : net_predict n X = (n1, Ok p)) by (unfold net_predict; rewrite E1; reflexivity).
  assert (Q2 : net_backward n1 dl = (n2, Ok tt)) by (unfold net_backward, n1; cbn [n_layers n_loss n_opt n_rng]; rewrite E2; reflexivity).
  assert (Q3 : exists n', net_update n2 = (n', Ok tt) /\ n_layers n' = ls3 /\ n_loss n' = Some lo /\ n_opt n' = Some (OAdam o')).
  { unfold net_update, n2. cbn [n_layers n_loss n_opt n_rng]. rewrite HOp. destruct ls2 as [|l2 ls2].
    - cbn [update_all] in E3. injection E3 as <- <-. eexists. split; [reflexivity|]. cbn. auto.
    - rewrite E3. eexists. split; [reflexivity|]. cbn. auto. }
  destruct Q3 as (n' & Q3 & N1 & N2 & N3). exists n', o'. split; [exists n1, n2, p, c, dl, lo; auto 10|].
  assert (PD : map params_dims ls3 = map params_dims (n_layers n)) by (rewrite P3; apply params_dims_of; auto).
  split; [split; [rewrite N1; auto|split; [auto|split; [auto|split; [rewrite N1; eapply dims_at_same; eauto|auto]]]]|]. split; [rewrite N1; auto|lia].
Qed.
Lemma calm_fit : forall D q ds x d ds' x' d' lo samples (n : net f32 G) o, (15 <= q <= 35)%nat -> calm_net D q ds x d ds' x' d' n lo o -> calm_loss lo x' d' -> (ad_it o + Zlen samples * Zlen (n_layers n) <= INT_MAX)%Z ->
  Forall (fun s => val ds (N x) (fst s) /\ target_fits lo ds' (snd s) /\ calm_target lo x' (snd s)) samples ->
  exists n' o', fit n samples n' /\ calm_net D q ds x d ds' x' d' n' lo o'.
Proof.
  intros D q ds x d ds' x' d' lo. induction samples as [|(X & t) r IH]; intros n o Hq HT HC HM HF.
  - exists n, o. split; [constructor|auto].
  - inversion HF as [|? ? (VX & Ht & Ct) HF']; subst. cbn [fst snd] in *. rewrite Zlen_cons in HM. pose proof (Zlen_nonneg r). pose proof (Zlen_nonneg (n_layers n)).
    destruct (calm_fit_one D q ds x d ds' x' d' n lo o X t Hq HT HC ltac:(nia) VX Ht Ct) as (n' & o' & F & HT' & PD & HI).
    assert (LEN : Zlen (n_layers n') = Zlen (n_layers n)) by (unfold Zlen; f_equal; rewrite <- (map_length params_dims (n_layers n')), PD, map_length; auto).
    destruct (IH n' o' Hq HT' HC ltac:(rewrite LEN; nia) HF') as (m & o2 & F2 & A2). exists m, o2. split; [econstructor; eauto|auto].
Qed.
Theorem calm_training : forall q ds x d ds' x' d' (n : net f32 G) lo o (xs ts : list (tensor f32)) e, calms q ds x d (n_layers n) ds' x' d' -> n_loss n = Some lo -> n_opt n = Some (OAdam o) -> calm_adam lm q o -> calm_loss lo x' d' ->
  (0 < Zlen xs <= Zlen ts)%Z -> (Zlen xs <= INT_MAX)%Z -> (0 <= e)%Z -> (e * Zlen xs * Zlen (n_layers n) <= INT_MAX)%Z ->
  Forall (fun X => good X /\ tdims X = ds /\ sized x X) xs -> Forall (fun t => target_fits lo ds' t /\ calm_target lo x' t) ts ->
  exists n', net_train n xs ts e = (n', Ok tt) /\ calms q ds x d (n_layers n') ds' x' d' /\
    forall X : tensor f32, good X -> tdims X = ds -> sized x X -> exists n1 p, net_predict n' X = (n1, Ok p) /\ good p /\ tdims p = ds' /\ sized x' p.
Proof.
  intros q ds x d ds' x' d' n lo o xs ts e HA HLo HOp (lr & eps & decay & batch & -> & Hq & Hlr & Heps & Hdec & Hb) HC (HX1 & HX2) HX3 HE HM HF1 HF2.
  pose (D := fun k => dims_map (n_layers n) (k - 2 * 0)%Z).
  assert (LC : Zlen (combine xs ts) = Zlen xs) by (unfold Zlen in *; rewrite combine_length; lia).
  apply within_in in Hlr. apply within_in in Heps. apply within_in in Hdec.
  destruct (calm_fit D q ds x d ds' x' d' lo (concat (repeat (combine xs ts) (Z.to_nat e))) n (adam_new lr (s_lit 9 10) (s_lit 999 1000) eps zero zero decay batch) Hq) as (n' & o' & F & A).
  - split; [auto|]. split; [auto|]. split; [auto|]. split; [apply dims_map_at|]. split; [split; intros ? ?; discriminate|]. cbn [adam_new ad_b1 ad_b2 ad_l1 ad_l2 ad_eps ad_init ad_decay ad_batch ad_it ad_m ad_v].
    split; [reflexivity|]. split; [reflexivity|]. split; [reflexivity|]. split; [reflexivity|]. split.
    { destruct Heps as (B1 & B2 & B3). split; [split; auto|]. replace (P (-40)) with (/ 2 ^ 40); [exact B3|]. change (-40)%Z with (- N 40)%Z. rewrite bpow_opp. f_equal. symmetry. apply pw. }
    split. { destruct Hlr as (B1 & B2 & B3). split; [auto|]. split; [auto|]. replace (P (sq q)) with (/ 2 ^ (35 - q)); [exact B3|]. unfold sq. replace (N q - 35)%Z with (- N (35 - q))%Z by lia. rewrite bpow_opp. f_equal. symmetry. apply pw. }
    split; [auto|]. split; [auto|]. split; [lia|]. intros k idx _. apply moments_zero.
  - exact HC.
  - cbn [adam_new ad_it]. rewrite Zlen_concat_repeat, LC, Z2Nat.id by lia. lia.
  - apply Forall_concat_repeat. eapply Forall_impl; [|apply (Forall_combine _ _ _ _ HF1 HF2)]. intros (a & b) ((G1 & G2 & G3) & G4 & G5). cbn [fst snd] in *. split; [apply sized_val; auto|auto].
  - exists n'. split; [apply train_fit; auto; apply (f32_counts lm); lia|]. destruct A as (A & _). split; [exact A|]. intros X GX EX SX.
    destruct (calms_chain q (n_layers n') ds x d ds' x' d' X (n_rng n') A (sized_val _ _ _ GX EX SX)) as (ls1 & g1 & p & E1 & Vp & _). exists (mkNet ls1 (n_loss n') (n_opt n') g1), p. unfold net_predict. rewrite E1. split; [reflexivity|]. pose proof (val_sized _ _ _ Vp). destruct Vp as (Gp & Ep & _). auto.
Qed.

Lemma calm_sized : forall q ds x d l ds' x' d', calm q ds x d l ds' x' d' -> sized_params q l.
Proof. intros q ds x d l ds' x' d' H. unfold sized_params. destruct H; cbn [layer_params]; auto. Qed.
Lemma calms_sized : forall q ls ds x d ds' x' d', calms q ds x d ls ds' x' d' -> Forall (sized_params q) ls.
Proof. intros q. induction ls as [|l ls IH]; intros ds x d ds' x' d' H; [constructor|]. inversion H; subst. constructor; [eapply calm_sized; eauto|eapply IH; eauto]. Qed.

(** ** The optimizer alone *)
Lemma adam_small : forall D cs q lr eps decay batch st, (15 <= q <= 35)%nat -> f32_in 0 (/ 2 ^ (35 - q)) lr -> f32_in (/ 2 ^ 40) 1 eps -> f32_in 0 1 decay -> (1 <= batch <= INT_MAX)%Z -> (Zlen cs <= INT_MAX)%Z ->
  store_ok D st -> calls_ok D cs -> tame_calls (2 ^ 112) cs -> Forall (fun c => f32_in (-1) (/ 2 ^ (35 - q)) (fst c)) cs -> tame_weights (2 ^ q) st ->
  exists o' st', opt_run adam_optimize cs (adam_new lr (s_lit 9 10) (s_lit 999 1000) eps zero zero decay batch) st = (o', st', Ok tt) /\ store_ok D st' /\ tame_weights (2 ^ q) st'.
Proof.
  intros D cs q lr eps decay batch st Hq HLr HE HD HB HN HS HC HT HOv HW. apply within_in in HLr. apply within_in in HE. apply within_in in HD.
  assert (EPS : / 2 ^ (35 - q) = P (sq q)) by (unfold sq; replace (N q - 35)%Z with (- N (35 - q))%Z by lia; rewrite bpow_opp; f_equal; symmetry; apply pw). rewrite EPS in *.
  assert (HE' : eps_ok eps). { destruct HE as (B1 & B2 & B3). split; [split; auto|]. replace (P (-40)) with (/ 2 ^ 40); [exact B3|]. change (-40)%Z with (- N 40)%Z. rewrite bpow_opp. f_equal. symmetry. apply pw. }
  rewrite <- (pw 112) in HT. rewrite <- (pw q) in HW. rewrite <- (pw q).
  destruct (adam_history_spec D cs (adam_new lr (s_lit 9 10) (s_lit 999 1000) eps zero zero decay batch) st ltac:(split; intros ? ?; discriminate) HS (Z.le_refl _) ltac:(cbn [adam_new ad_it]; lia) HC) as (o' & st' & E & _ & HS' & _ & VV). exists o', st'. split; [exact E|]. split; [exact HS'|].
  apply (tensor_tame lm D); auto. intros k idx HI. specialize (VV k idx HI). cbn [adam_new ad_init ad_lr ad_b1 ad_b2 ad_eps ad_l1 ad_l2 ad_decay ad_it ad_batch ad_m ad_v] in VV.
  set (I := fun p : f32 * f32 * f32 => let '(w, m, v) := p in bnd (sq q + 35) w /\ moments m v).
  match type of VV with _ = fold_left ?f ?l ?a => assert (K : I (fold_left f l a)) end.
  - apply (fold_keeps _ I (fun e => (1 <= fst (fst e) <= INT_MAX)%Z /\ tame_up lm 112 D k (snd (fst e), snd e) /\ within (-1) (P (sq q)) (snd (fst e)))).
    + intros ((w, m), v) e (BW & BM) (HN' & (TR & TG) & TO). cbn [fst snd] in TR, TG. apply (adam_step_small lm HP (sq q)); auto; [unfold sq; lia|lia| |].
      * destruct TO as (O1 & O2 & O3). assert (B : (-20 <= sq q <= 0)%Z) by (unfold sq; lia). pose proof (decayed (sq q) lr decay (fst (fst e)) B HLr HD HN') as DC. unfold adam_lr in *. change (s_le (s_z (-1)) zero) with true in DC. cbv iota in DC.
        change (s_le (snd (fst e)) zero) with (SFleb (snd (fst e)) (f32_of_Z 0)). rewrite leb_V by (auto; reflexivity). change (V (f32_of_Z 0)) with 0. destruct (Rle_bool_spec (V (snd (fst e))) 0); [exact DC|split; [auto|]; split; [auto|]; lra].
      * destruct (of_Z_ge1 batch HB) as (GB & LB). apply (div_bnd _ _ 112 0); [lia|apply TG; auto|auto|rewrite P_0; auto].
    + cbn [I]. split; [replace (sq q + 35)%Z with (N q) by (unfold sq; lia); apply (el_bnd lm); [apply HS|apply HW|rewrite (proj2 (HS k)); exact HI]|apply moments_zero].
    + intros e He. destruct (num_tame lm 112 D cs _ k e HC HT He) as (A & B). split; [lia|]. split; [auto|].
      assert (GO : forall cs n, Forall (fun c => f32_in (-1) (P (sq q)) (fst c)) cs -> In e (numbered n k cs) -> within (-1) (P (sq q)) (snd (fst e))).
      { clear. induction cs as [|c cs IH]; intros n HO HI; [destruct HI|]. cbn [numbered] in HI. inversion HO; subst. apply in_app_or in HI. destruct HI as [HI|HI]; [apply in_map_iff in HI; destruct HI as (g & <- & _); cbn [fst snd]; apply within_in; auto|eapply IH; eauto]. }
      eapply GO; eauto.
  - rewrite <- VV in K. destruct K as (K & _). replace (sq q + 35)%Z with (N q) in K by (unfold sq; lia). exact K.
Qed.

(** ** The quick start *)
Lemma drawn_unit : draws_numbers HR -> forall ds (g : G), good (drawn ds zero one g) -> f32_valid (deviation (T := f32) (prod ds)) -> f32_finite (deviation (T := f32) (prod ds)) -> Forall (f32_in 0 1) (tdata (drawn ds zero one g)).
Proof.
  intros HD ds g GD H1 H2. apply (data_all lm); auto. intros idx HI. change (tdims (drawn ds zero one g)) with ds in HI. unfold drawn. rewrite el_tensor_of by auto. unfold draw. destruct (HD (deviation (prod ds)) (engine_after (deviation (prod ds)) (Z.to_nat (ravel ds idx)) g) H1 H2) as (A & B).
  set (v := fst (rng_normal _ _)) in *. clearbody v. apply within_in. unfold clamp. change (s_lt v zero) with (SFltb v (f32_of_Z 0)).
  assert (U0 : within 0 1 (f32_of_Z 0)) by (split; [reflexivity|]; split; [reflexivity|]; change (V (f32_of_Z 0)) with 0; lra).
  assert (U1 : within 0 1 (f32_of_Z 1)) by (split; [reflexivity|]; split; [reflexivity|]; rewrite V_one; lra).
  destruct v as [s|s| |s m e]; [destruct s; split; [reflexivity|split; [reflexivity|]|reflexivity|split; [reflexivity|]]; change (0 <= 0 <= 1); lra| |exfalso; apply B; reflexivity|].
  - destruct s; [exact U0|exact U1].
  - destruct (SFltb (S754_finite s m e) (f32_of_Z 0)) eqn:E1; [exact U0|]. change (s_lt one (S754_finite s m e)) with (SFltb (f32_of_Z 1) (S754_finite s m e)). destruct (SFltb (f32_of_Z 1) (S754_finite s m e)) eqn:E2; [exact U1|].
    rewrite ltb_V in E1 by (auto; reflexivity). rewrite ltb_V in E2 by (auto; reflexivity). rewrite V_one in E2. change (V (f32_of_Z 0)) with 0 in E1. split; [exact A|]. split; [reflexivity|].
    revert E1 E2. destruct (Rlt_bool_spec (V (S754_finite s m e)) 0), (Rlt_bool_spec 1 (V (S754_finite s m e))); try discriminate. intros _ _. lra.
Qed.
Lemma sized_up : forall a b t, (a <= b)%nat -> sized a t -> sized b t.
Proof.
  intros a b t H HS. unfold sized in *. eapply Forall_impl; [|exact HS]. intros v Hv. apply within_in in Hv. apply within_in. destruct Hv as (A & B & C). split; [auto|]. split; [auto|]. pose proof (Rle_pow 2 a b ltac:(lra) H). lra.
Qed.
Lemma new_dense : draws_numbers HR -> forall k o (g : G), (0 < k)%Z -> (0 < o)%Z -> (k * o <= INT_MAX)%Z -> f32_valid (deviation (T := f32) (k * o)) -> f32_finite (deviation (T := f32) (k * o)) ->
  exists l g', fc_new k o g = Ok (l, g') /\ fc_wf l k o /\ sized 0 (M_Layers.fc_w l) /\ sized 0 (M_Layers.fc_b l).
Proof.
  intros HD k o g Hk Ho HM H1 H2. rewrite fc_new_drawn by auto. do 2 eexists. split; [reflexivity|]. assert (GW : good (drawn [k; o] zero one g)) by (apply good_tensor_of; [auto with idx|cbn [prod]; lia]).
  assert (GB : good (tensor_of [1; o]%Z (fun _ => zero : f32))) by (apply good_tensor_of; [auto with idx|cbn [prod]; nia]).
  split; [split; [exact GW|]; split; [reflexivity|]; split; [exact GB|reflexivity]|]. cbn [M_Layers.fc_w M_Layers.fc_b]. split.
  - replace (k * o)%Z with (prod [k; o]) in H1, H2 by (cbn [prod]; lia). pose proof (drawn_unit HD [k; o] g GW H1 H2) as F. unfold sized. eapply Forall_impl; [|exact F]. intros v Hv. apply within_in in Hv. apply within_in. destruct Hv as (A & B & C). split; [auto|]. split; [auto|]. simpl. lra.
  - apply (val_sized 0 _ [1; o]%Z). apply val_of; [exact GB|]. intros idx HI. apply bnd_zero.
Qed.
Theorem readme_calm : draws_numbers HR -> forall (g : G) rows x cn, (0 < rows <= 2 ^ N cn)%Z -> (cn <= 24)%nat -> (x + cn <= 43)%nat ->
  exists n, readme_net g = Ok n /\ calms 26 [rows; 10]%Z x 102 (n_layers n) [rows; 10]%Z 0 2 /\ n_loss n = Some MSE /\ Zlen (n_layers n) = 6%Z /\
    exists o, n_opt n = Some (OAdam o) /\ calm_adam lm 26 o.
Proof.
  intros HD g rows x cn Hr Hcn Hx. unfold readme_net.
  assert (R24 : (rows <= 16777216)%Z). { apply (Z.le_trans _ (2 ^ N cn)); [lia|]. change 16777216%Z with (2 ^ 24)%Z. apply Z.pow_le_mono_r; lia. }
  destruct (new_dense HD 10 100 g ltac:(reflexivity) ltac:(reflexivity) ltac:(vm_compute; discriminate) ltac:(vm_compute; reflexivity) ltac:(vm_compute; exact I)) as (f1 & g1 & E1 & W1 & S1 & B1). rewrite E1. cbn [bind].
  destruct (new_dense HD 100 100 g1 ltac:(reflexivity) ltac:(reflexivity) ltac:(vm_compute; discriminate) ltac:(vm_compute; reflexivity) ltac:(vm_compute; exact I)) as (f2 & g2 & E2 & W2 & S2 & B2). rewrite E2. cbn [bind].
  destruct (new_dense HD 100 10 g2 ltac:(reflexivity) ltac:(reflexivity) ltac:(vm_compute; discriminate) ltac:(vm_compute; reflexivity) ltac:(vm_compute; exact I)) as (f3 & g3 & E3 & W3 & S3 & B3). rewrite E3. cbn [bind].
  eexists. split; [reflexivity|]. cbn [fold_left net_add net_new net_compile n_layers n_loss n_opt app]. apply (sized_up 0 26) in S1, B1, S2, B2, S3, B3; try lia.
  split; [|split; [reflexivity|split; [reflexivity|]]].
  - apply (calms_cons 26 [rows; 10]%Z x 102 _ [rows; 100]%Z (26 + x + 4) 69); [apply (calm_dense 26 rows 10 100 x 69 f1 4 7 cn); auto; try lia; unfold INT_MAX; lia|].
    apply (calms_cons 26 [rows; 100]%Z (26 + x + 4) 69 _ [rows; 100]%Z (26 + x + 4) 69); [constructor; lia|].
    apply (calms_cons 26 [rows; 100]%Z (26 + x + 4) 69 _ [rows; 100]%Z (26 + (26 + x + 4) + 7) 36); [apply (calm_dense 26 rows 100 100 (26 + x + 4) 36 f2 7 7 cn); auto; try lia; unfold INT_MAX; lia|].
    eapply (calms_cons 26 [rows; 100]%Z (26 + (26 + x + 4) + 7) 36 _ [rows; 100]%Z 0 36); [constructor; lia|].
    eapply (calms_cons 26 [rows; 100]%Z 0 36 _ [rows; 10]%Z (26 + 0 + 7) 6); [apply (calm_dense 26 rows 100 10 0 6 f3 7 4 cn); auto; try lia; unfold INT_MAX; lia|].
    eapply (calms_cons 26 [rows; 10]%Z (26 + 0 + 7) 6 _ [rows; 10]%Z 0 2); [apply (calm_softmax 26 rows [10]%Z _ 2 None 4); [discriminate|vm_compute; discriminate|lia|lia]|constructor].
  - eexists. split; [reflexivity|]. do 4 eexists. split; [reflexivity|]. split; [lia|].
    split; [split; [reflexivity|]; split; [reflexivity|]|split; [split; [reflexivity|]; split; [reflexivity|]|split; [split; [reflexivity|]; split; [reflexivity|]|unfold INT_MAX; lia]]].
    + change (s_lit 1 1000) with (S754_finite false 8589935 (-33)). unfold f32_value. change (powerRZ 2 (-33)) with (/ 2 ^ 33). replace (2 ^ 33) with 8589934592 by (simpl; lra). change (35 - 26)%nat with 9%nat. replace (2 ^ 9) with 512 by (simpl; lra). lra.
    + change (s_lit 1 100000000) with (S754_finite false 11258999 (-50)). unfold f32_value. change (powerRZ 2 (-50)) with (/ 2 ^ 50). replace (2 ^ 50) with 1125899906842624 by (simpl; lra). replace (2 ^ 40) with 1099511627776 by (simpl; lra). lra.
    + change (zero : f32) with (f32_of_Z 0). unfold f32_value. simpl. lra.
Qed.
Theorem readme_training : draws_numbers HR -> forall (g : G) rows x cn (xs ts : list (tensor f32)) e, (0 < rows <= 2 ^ N cn)%Z -> (cn <= 24)%nat -> (x + cn <= 43)%nat ->
  (0 < Zlen xs <= Zlen ts)%Z -> (Zlen xs <= INT_MAX)%Z -> (0 <= e)%Z -> (e * Zlen xs * 6 <= INT_MAX)%Z ->
  Forall (fun X => good X /\ tdims X = [rows; 10]%Z /\ sized x X) xs -> Forall (fun t => good t /\ tdims t = [rows; 10]%Z /\ sized 0 t) ts ->
  exists n n', readme_net g = Ok n /\ net_train n xs ts e = (n', Ok tt) /\ Forall (sized_params 26) (n_layers n') /\
    forall X : tensor f32, good X -> tdims X = [rows; 10]%Z -> sized x X -> exists n1 p, net_predict n' X = (n1, Ok p) /\ good p /\ tdims p = [rows; 10]%Z /\ sized 0 p.
Proof.
  intros HD g rows x cn xs ts e Hr Hcn Hx Hl1 Hl2 He HM HX HT. destruct (readme_calm HD g rows x cn Hr Hcn Hx) as (n & E & HA & HLo & HLn & o & HO & HC).
  destruct (calm_training 26 _ x 102 _ 0 2 n MSE o xs ts e HA HLo HO HC) as (n' & E' & HA' & HPr); auto.
  - cbn [calm_loss]. lia.
  - rewrite HLn. exact HM.
  - eapply Forall_impl; [|exact HT]. intros t (G1 & G2 & G3). split; [split; auto|exact G3].
  - exists n, n'. split; [exact E|]. split; [exact E'|]. split; [eapply calms_sized; exact HA'|exact HPr].
Qed.

(** ** Prediction in evaluation mode *)
Lemma calm_eval : forall q ds x d l ds' x' d' (X : tensor f32) (g : G), calm q ds x d l ds' x' d' -> val ds (N x) X ->
  exists l1 g' y, layer_forward (layer_set_mode false l) X g = (l1, g', Ok y) /\ val ds' (N x') y.
Proof.
  intros q ds x d l ds' x' d' X g HC VX. destruct l as [l|l|l|l|l|l|l]; try (destruct (calm_step _ _ _ _ _ _ _ _ X g HC VX) as (l1 & g' & y & E & Vy & _); exists l1, g', y; split; [exact E|exact Vy]).
  - inversion HC; subst. cbn [layer_set_mode layer_forward]. rewrite dropout_eval by reflexivity. do 3 eexists. split; [reflexivity|]. apply (val_le _ (N x)); [lia|exact VX].
  - inversion HC.
Qed.
Lemma calms_eval : forall q ls ds x d ds' x' d' (X : tensor f32) (g : G), calms q ds x d ls ds' x' d' -> val ds (N x) X ->
  exists ls1 g' y, forward_all (map (layer_set_mode false) ls) X g = (ls1, g', Ok y) /\ val ds' (N x') y.
Proof.
  intros q. induction ls as [|l ls IH]; intros ds x d ds' x' d' X g HA VX.
  - inversion HA; subst. exists [], g, X. split; [reflexivity|exact VX].
  - inversion HA as [|? ? ? ? ds1 x1 d1 ? ? ? ? H1 H2]; subst. destruct (calm_eval q ds x d l ds1 x1 d1 X g H1 VX) as (l1 & g1 & y & E1 & Vy). destruct (IH ds1 x1 d1 ds' x' d' y g1 H2 Vy) as (ls1 & g2 & z & E2 & Vz).
    exists (l1 :: ls1), g2, z. cbn [map forward_all]. rewrite E1, E2. split; [reflexivity|exact Vz].
Qed.
Theorem calm_evaluation : forall q ds x d ds' x' d' (n : net f32 G), calms q ds x d (n_layers n) ds' x' d' ->
  forall X : tensor f32, good X -> tdims X = ds -> sized x X -> exists n1 p, net_predict (net_set_mode n false) X = (n1, Ok p) /\ good p /\ tdims p = ds' /\ sized x' p.
Proof.
  intros q ds x d ds' x' d' n HA X GX EX SX. destruct (calms_eval q (n_layers n) ds x d ds' x' d' X (n_rng n) HA (sized_val _ _ _ GX EX SX)) as (ls1 & g1 & p & E1 & Vp).
  do 2 eexists. unfold net_predict, net_set_mode. cbn [net_with n_layers n_rng n_loss n_opt]. rewrite E1. split; [reflexivity|]. pose proof (val_sized _ _ _ Vp). destruct Vp as (Gp & Ep & _). auto.
Qed.

(** ** The MNIST example without its batch normalisation *)
Lemma new_conv : draws_numbers HR -> forall ic oc kh kw s p d (g : G), (0 < ic)%Z -> (0 < oc)%Z -> (0 < kh)%Z -> (0 < kw)%Z -> (oc * (ic * (kh * kw)) <= INT_MAX)%Z ->
  f32_valid (deviation (T := f32) (oc * (ic * (kh * kw)))) -> f32_finite (deviation (T := f32) (oc * (ic * (kh * kw)))) ->
  exists l g', conv_new ic oc kh kw s p d g = Ok (l, g') /\ conv_wf l /\ sized 0 (cv_w l) /\ sized 0 (cv_b l) /\ cv_ic l = ic /\ cv_oc l = oc /\ cv_kh l = kh /\ cv_kw l = kw.
Proof.
  intros HD ic oc kh kw s p d g H1 H2 H3 H4 HM D1 D2. rewrite conv_new_drawn by auto. do 2 eexists. split; [reflexivity|]. destruct (le_prod4 _ _ _ _ _ H2 H1 H3 H4 HM) as (HMo & _).
  assert (GW : good (drawn [oc; ic; kh; kw] zero one g)) by (apply good_tensor_of; [auto with idx|cbn [prod]; lia]).
  assert (GB : good (tensor_of [oc; 1]%Z (fun _ => zero : f32))) by (apply good_tensor_of; [auto with idx|cbn [prod]; lia]).
  split; [split; [exact GW|]; split; [reflexivity|]; split; [exact GB|reflexivity]|]. cbn [cv_w cv_b cv_ic cv_oc cv_kh cv_kw]. split; [|split; [|auto]].
  - replace (oc * (ic * (kh * kw)))%Z with (prod [oc; ic; kh; kw]) in D1, D2 by (cbn [prod]; lia). pose proof (drawn_unit HD [oc; ic; kh; kw] g GW D1 D2) as F. unfold sized. eapply Forall_impl; [|exact F]. intros v Hv. apply within_in in Hv. apply within_in. destruct Hv as (A & B & C). split; [auto|]. split; [auto|]. simpl. lra.
  - apply (val_sized 0 _ [oc; 1]%Z). apply val_of; [exact GB|]. intros idx HI. apply bnd_zero.
Qed.
Theorem mnist_calm : draws_numbers HR -> forall g : G,
  exists n, mnist_net g = Ok n /\ calms 26 [8; 1; 28; 28]%Z 0 126 (n_layers (without_bn n)) [8; 10]%Z 0 0 /\ n_loss n = Some CCE /\ Zlen (n_layers (without_bn n)) = 10%Z /\
    exists o, n_opt n = Some (OAdam o) /\ calm_adam lm 26 o.
Proof.
  intros HD g. unfold mnist_net.
  destruct (new_conv HD 1 32 3 3 1 0 1 g ltac:(reflexivity) ltac:(reflexivity) ltac:(reflexivity) ltac:(reflexivity) ltac:(vm_compute; discriminate) ltac:(vm_compute; reflexivity) ltac:(vm_compute; exact I)) as (c & g1 & Ec & Wc & Sc & Bc & K1 & K2 & K3 & K4). rewrite Ec. cbn [bind].
  destruct (bn_new_ok 32 (s_lit 1 100000) (s_lit 9 10)) as (b1 & Eb1 & _); [vm_compute; split; discriminate || reflexivity|]. rewrite Eb1. cbn [bind].
  destruct (new_dense HD 5408 128 g1 ltac:(reflexivity) ltac:(reflexivity) ltac:(vm_compute; discriminate) ltac:(vm_compute; reflexivity) ltac:(vm_compute; exact I)) as (f1 & g2 & E1 & W1 & S1 & B1). rewrite E1. cbn [bind].
  destruct (bn_new_ok 128 (s_lit 1 100000) (s_lit 9 10)) as (b2 & Eb2 & _); [vm_compute; split; discriminate || reflexivity|]. rewrite Eb2. cbn [bind].
  destruct (new_dense HD 128 10 g2 ltac:(reflexivity) ltac:(reflexivity) ltac:(vm_compute; discriminate) ltac:(vm_compute; reflexivity) ltac:(vm_compute; exact I)) as (f2 & g3 & E2 & W2 & S2 & B2). rewrite E2. cbn [bind].
  eexists. split; [reflexivity|]. unfold without_bn. cbn [fold_left net_add net_new net_compile n_layers n_loss n_opt app filter]. apply (sized_up 0 26) in Sc, Bc, S1, B1, S2, B2; try lia.
  assert (R4 : f32_in 0 (/ 2) (s_lit 1 4)) by (split; [reflexivity|]; split; [exact I|]; unfold f32_value; simpl; lra).
  split; [|split; [reflexivity|split; [reflexivity|]]].
  - apply (calms_cons 26 [8; 1; 28; 28]%Z 0 126 _ [8; 32; 26; 26]%Z 52 75).
    { pose proof (calm_conv 26 8 28 28 0 75 c Wc Sc Bc) as H. rewrite K1, K2, K3, K4 in H. apply H; [lia|lia|vm_compute; discriminate|lia|lia]. }
    apply (calms_cons 26 [8; 32; 26; 26]%Z 52 75 _ [8; 32; 26; 26]%Z 52 75); [constructor; lia|].
    apply (calms_cons 26 [8; 32; 26; 26]%Z 52 75 _ [8; 32; 13; 13]%Z 52 67); [apply (calm_pool 26 8 32 26 26 52 67 (pool_new 2 2 0) 8); try reflexivity; try (vm_compute; discriminate); lia|].
    apply (calms_cons 26 [8; 32; 13; 13]%Z 52 67 _ [8; 32; 13; 13]%Z 53 67); [apply (calm_dropout 26 [8; 32; 13; 13]%Z 52 67); auto; cbn [length]; lia|].
    apply (calms_cons 26 [8; 32; 13; 13]%Z 53 67 _ [8; 5408]%Z 53 67); [apply (calm_flatten 26 8 32 [13; 13]%Z 53 67); [discriminate|lia]|].
    apply (calms_cons 26 [8; 5408]%Z 53 67 _ [8; 128]%Z 92 34); [apply (calm_dense 26 8 5408 128 53 34 f1 13 7 3); auto; try lia; unfold INT_MAX; lia|].
    apply (calms_cons 26 [8; 128]%Z 92 34 _ [8; 128]%Z 92 34); [constructor; lia|].
    apply (calms_cons 26 [8; 128]%Z 92 34 _ [8; 128]%Z 93 34); [apply (calm_dropout 26 [8; 128]%Z 92 34); auto; cbn [length]; lia|].
    apply (calms_cons 26 [8; 128]%Z 93 34 _ [8; 10]%Z 127 4); [apply (calm_dense 26 8 128 10 93 4 f2 8 4 3); auto; try lia; unfold INT_MAX; lia|].
    apply (calms_cons 26 [8; 10]%Z 127 4 _ [8; 10]%Z 0 0); [apply (calm_softmax 26 8 [10]%Z 127 0 None 4); [discriminate|vm_compute; discriminate|lia|lia]|constructor].
  - eexists. split; [reflexivity|]. do 4 eexists. split; [reflexivity|]. split; [lia|].
    split; [split; [reflexivity|]; split; [reflexivity|]|split; [split; [reflexivity|]; split; [reflexivity|]|split; [split; [reflexivity|]; split; [reflexivity|]|unfold INT_MAX; lia]]].
    + change (s_lit 1 1000) with (S754_finite false 8589935 (-33)). unfold f32_value. change (powerRZ 2 (-33)) with (/ 2 ^ 33). replace (2 ^ 33) with 8589934592 by (simpl; lra). change (35 - 26)%nat with 9%nat. replace (2 ^ 9) with 512 by (simpl; lra). lra.
    + change (s_lit 1 100000000) with (S754_finite false 11258999 (-50)). unfold f32_value. change (powerRZ 2 (-50)) with (/ 2 ^ 50). replace (2 ^ 50) with 1125899906842624 by (simpl; lra). replace (2 ^ 40) with 1099511627776 by (simpl; lra). lra.
    + change (zero : f32) with (f32_of_Z 0). unfold f32_value. simpl. lra.
Qed.
Lemma byte_unit : forall b, is_byte b -> f32_in 0 1 (scaled b : f32).
Proof.
  intros b Hb. destruct (f32_unit_interval lm b Hb) as (L1 & L2).
  assert (OK : f32_valid (scaled b : f32) /\ f32_finite (scaled b : f32)).
  { assert (CK : forallb (fun z => let v := f32_div (f32_of_Z z) (f32_of_Z 255) in match v with S754_finite s m e => SpecFloat.bounded f32_prec f32_emax m e | S754_zero _ => true | _ => false end) (zrange 0 256) = true) by (vm_compute; reflexivity).
    rewrite forallb_forall in CK. specialize (CK b ltac:(apply In_zrange; unfold is_byte in Hb; lia)). cbv zeta in CK. change (scaled b : f32) with (f32_div (f32_of_Z b) (f32_of_Z 255)).
    destruct (f32_div (f32_of_Z b) (f32_of_Z 255)); try discriminate CK; split; try exact I; try reflexivity; exact CK. }
  destruct OK as (A & B). apply within_in. split; [exact A|]. split; [apply finite_fin; exact B|]. apply finite_fin in B.
  change (s_le zero (scaled b)) with (SFleb (f32_of_Z 0) (scaled b)) in L1. change (s_le (scaled b) one) with (SFleb (scaled b) (f32_of_Z 1)) in L2.
  rewrite leb_V in L1, L2 by (auto; reflexivity). rewrite V_one in L2. change (V (f32_of_Z 0)) with 0 in L1. 
  split; [destruct (Rle_bool_spec 0 (V (scaled b))); [auto|discriminate]|destruct (Rle_bool_spec (V (scaled b)) 1); [auto|discriminate]].
Qed.
Theorem mnist_training : draws_numbers HR -> forall n img lab ex ex' (g : G) e, (1000 <= n <= INT_MAX)%Z ->
  (forall i r c, (0 <= i < n)%Z -> (0 <= r < 28)%Z -> (0 <= c < 28)%Z -> is_byte (img i r c)) -> Forall is_byte ex -> (forall i, (0 <= i < 1000)%Z -> (0 <= lab i <= 9)%Z) ->
  (0 <= e)%Z -> (e * 1250 <= INT_MAX)%Z ->
  exists m xs ts m', mnist_net g = Ok m /\ load_data 8 1000 (Some (image_file n 28 28 img ++ ex)) (Some (label_file n lab ++ ex')) = Ok (xs, ts) /\
    net_train (without_bn m) xs ts e = (m', Ok tt) /\ Forall (sized_params 26) (n_layers m') /\
    forall X : tensor f32, good X -> tdims X = [8; 1; 28; 28]%Z -> sized 0 X -> exists m1 p, net_predict (net_set_mode m' false) X = (m1, Ok p) /\ good p /\ tdims p = [8; 10]%Z /\ sized 0 p.
Proof.
  intros HD n img lab ex ex' g e Hn Hi Hx Hl He HM. destruct (mnist_calm HD g) as (m & E & HA & HLo & HLn & o & HO & HC).
  assert (EL : load_data 8 1000 (Some (image_file n 28 28 img ++ ex)) (Some (label_file n lab ++ ex')) = Ok (batches 1000 8 (image_batch 28 28 img : Z -> Z -> tensor f32), batches 1000 8 (label_batch lab : Z -> Z -> tensor f32))).
  { apply (data_ok (T := f32) (f32_bytes_scale lm) 8 1000 n n 28 28 img lab ex ex'); auto; try lia; try (unfold INT_MAX; lia); unfold samples; change (1000 =? -1)%Z with false; cbn iota; unfold INT_MAX in *; try lia; vm_compute; discriminate. }
  set (xs := batches 1000 8 (image_batch 28 28 img : Z -> Z -> tensor f32)) in *. set (ts := batches 1000 8 (label_batch lab : Z -> Z -> tensor f32)) in *.
  assert (LX : Zlen xs = 125%Z) by (unfold xs, batches; rewrite Zlen_map, Zlen_zrange by (vm_compute; discriminate); reflexivity). assert (LT : Zlen ts = 125%Z) by (unfold ts, batches; rewrite Zlen_map, Zlen_zrange by (vm_compute; discriminate); reflexivity).
  assert (G4 : forall f : list Z -> f32, good (tensor_of [8; 1; 28; 28]%Z f)) by (intros f; apply good_tensor_of; [split; [discriminate|repeat constructor]|vm_compute; discriminate]).
  assert (G2 : forall f : list Z -> f32, good (tensor_of [8; 10]%Z f)) by (intros f; apply good_tensor_of; [split; [discriminate|repeat constructor]|vm_compute; discriminate]).
  assert (BL : forall k, In k (zrange 0 (num_batches 1000 8)) -> (0 <= k < 125)%Z /\ batch_len 1000 8 k = 8%Z) by (intros k Hk; apply In_zrange in Hk; change (num_batches 1000 8) with 125%Z in Hk; unfold batch_len; lia).
  destruct (calm_training 26 _ 0 126 _ 0 0 (without_bn m) CCE o xs ts e HA HLo HO HC) as (m' & E' & HA' & _); auto.
  - exact I.
  - lia.
  - rewrite LX. unfold INT_MAX. lia.
  - rewrite HLn, LX. lia.
  - apply Forall_forall. intros X HX. apply in_map_iff in HX. destruct HX as (k & <- & Hk). destruct (BL k Hk) as (Hk' & ->). unfold image_batch. split; [apply G4|]. split; [reflexivity|]. apply (val_sized 0 _ [8; 1; 28; 28]%Z). apply val_of; [apply G4|].
    intros idx HI. apply in_range_4 in HI. destruct HI as (a & b & r & c & -> & Ha & Hb & Hr & Hc). unfold fn4. cbn [nth]. apply unit_bnd, byte_unit, Hi; lia.
  - apply Forall_forall. intros X HX. apply in_map_iff in HX. destruct HX as (k & <- & Hk). destruct (BL k Hk) as (Hk' & ->). unfold label_batch. split; [split; [apply G2|]; exists 8%Z, 10%Z; auto|]. cbn [calm_target]. unfold tensor_of. cbn [tdata]. apply Forall_forall. intros v Hv. apply in_map_iff in Hv. destruct Hv as (j & <- & _).
    unfold fn2. match goal with |- f32_in _ _ (if ?b then _ else _) => destruct b end; (split; [reflexivity|]; split; [exact I|]; unfold f32_value; simpl; lra).
  - exists m, xs, ts, m'. split; [exact E|]. split; [exact EL|]. split; [exact E'|]. split; [eapply calms_sized; exact HA'|]. apply (calm_evaluation 26 _ 0 126 _ 0 0 m' HA').
Qed.

(** ** The linear regression example *)
Theorem linear_calm : draws_numbers HR -> forall g : G,
  exists n, linear_net g = Ok n /\ calms 29 [1]%Z 7 134 (n_layers n) [1]%Z 70 72 /\ n_loss n = Some MSE /\ Zlen (n_layers n) = 3%Z /\
    exists o, n_opt n = Some (OAdam o) /\ calm_adam lm 29 o.
Proof.
  intros HD g. unfold M_Ex.linear_net.
  destruct (new_dense HD 1 10 g ltac:(reflexivity) ltac:(reflexivity) ltac:(vm_compute; discriminate) ltac:(vm_compute; reflexivity) ltac:(vm_compute; exact I)) as (f1 & g1 & E1 & W1 & S1 & B1). rewrite E1. cbn [bind].
  destruct (new_dense HD 10 1 g1 ltac:(reflexivity) ltac:(reflexivity) ltac:(vm_compute; discriminate) ltac:(vm_compute; reflexivity) ltac:(vm_compute; exact I)) as (f2 & g2 & E2 & W2 & S2 & B2). rewrite E2. cbn [bind].
  eexists. split; [reflexivity|]. cbn [net_add net_new net_compile n_layers n_loss n_opt app]. apply (sized_up 0 29) in S1, B1, S2, B2; try lia.
  split; [|split; [reflexivity|split; [reflexivity|]]].
  - apply (calms_cons 29 [1]%Z 7 134 _ [10]%Z 37 101); [apply (calm_vector 29 1 10 7 101 f1 1 4); auto; lia|].
    apply (calms_cons 29 [10]%Z 37 101 _ [10]%Z 37 101); [apply calm_relu; lia|].
    apply (calms_cons 29 [10]%Z 37 101 _ [1]%Z 70 72); [apply (calm_vector 29 10 1 37 72 f2 4 0); auto; try lia; vm_compute; discriminate|constructor].
  - eexists. split; [reflexivity|]. do 4 eexists. split; [reflexivity|]. split; [lia|].
    split; [split; [reflexivity|]; split; [reflexivity|]|split; [split; [reflexivity|]; split; [reflexivity|]|split; [split; [reflexivity|]; split; [reflexivity|]|unfold INT_MAX; lia]]].
    + change (s_lit 1 100) with (S754_finite false 10737418 (-30)). unfold f32_value. change (powerRZ 2 (-30)) with (/ 2 ^ 30). replace (2 ^ 30) with 1073741824 by (simpl; lra). change (35 - 29)%nat with 6%nat. replace (2 ^ 6) with 64 by (simpl; lra). lra.
    + change (s_lit 1 100000000) with (S754_finite false 11258999 (-50)). unfold f32_value. change (powerRZ 2 (-50)) with (/ 2 ^ 50). replace (2 ^ 50) with 1125899906842624 by (simpl; lra). replace (2 ^ 40) with 1099511627776 by (simpl; lra). lra.
    + change (zero : f32) with (f32_of_Z 0). unfold f32_value. simpl. lra.
Qed.
Theorem linear_training : draws_numbers HR -> forall (g : G) (xs ts : list (tensor f32)) e,
  (0 < Zlen xs <= Zlen ts)%Z -> (Zlen xs <= INT_MAX)%Z -> (0 <= e)%Z -> (e * Zlen xs * 3 <= INT_MAX)%Z ->
  Forall (fun X => good X /\ tdims X = [1]%Z /\ sized 7 X) xs -> Forall (fun t => good t /\ tdims t = [1]%Z /\ sized 70 t) ts ->
  exists n n', linear_net g = Ok n /\ net_train n xs ts e = (n', Ok tt) /\ Forall (sized_params 29) (n_layers n') /\ calms 29 [1]%Z 7 134 (n_layers n') [1]%Z 70 72 /\
    forall X : tensor f32, good X -> tdims X = [1]%Z -> sized 7 X -> exists n1 p, net_predict n' X = (n1, Ok p) /\ good p /\ tdims p = [1]%Z /\ sized 70 p.
Proof.
  intros HD g xs ts e Hl1 Hl2 He HM HX HT. destruct (linear_calm HD g) as (n & E & HA & HLo & HLn & o & HO & HC).
  destruct (calm_training 29 _ 7 134 _ 70 72 n MSE o xs ts e HA HLo HO HC) as (n' & E' & HA' & HPr); auto.
  - cbn [calm_loss]. lia.
  - rewrite HLn. exact HM.
  - eapply Forall_impl; [|exact HT]. intros t (G1 & G2 & G3). split; [split; auto|exact G3].
  - exists n, n'. split; [exact E|]. split; [exact E'|]. split; [eapply calms_sized; exact HA'|]. auto.
Qed.
Theorem linear_trained : draws_numbers HR -> forall (g : G) (xs ts : list (tensor f32)) e,
  (0 < Zlen xs <= Zlen ts)%Z -> (Zlen xs <= INT_MAX)%Z -> (0 <= e)%Z -> (e * Zlen xs * 3 <= INT_MAX)%Z ->
  Forall (fun X => good X /\ tdims X = [1]%Z /\ sized 7 X) xs -> Forall (fun t => good t /\ tdims t = [1]%Z /\ sized 70 t) ts ->
  exists n n', linear_net g = Ok n /\ net_train n xs ts e = (n', Ok tt) /\ Forall (sized_params 29) (n_layers n') /\
    forall X : tensor f32, good X -> tdims X = [1]%Z -> sized 7 X -> exists n1 p, net_predict n' X = (n1, Ok p) /\ good p /\ tdims p = [1]%Z /\ sized 70 p.
Proof. intros HD g xs ts e H1 H2 H3 H4 H5 H6. destruct (linear_training HD g xs ts e H1 H2 H3 H4 H5 H6) as (n & n' & A & B & C & _ & D). exists n, n'. auto. Qed.
End C.

Section L.
Variable lm : libm.
Let SF : Scalar f32 := F32Scalar lm.
#[local] Existing Instance SF.
Hypothesis HL : libm_like lm.
Hypothesis HP : pow_like (m_pow lm).
Context {G D GD : Type} {SD : Scalar D} {HR : Rng f32 G} {HD : Rng D GD}.
Variables (to_d : f32 -> D) (to_f : D -> f32).
Lemma calm_modes : forall q ls k x d ds' x' d' m, calms q [k] x d ls ds' x' d' -> map (layer_set_mode m) ls = ls.
Proof.
  intros q. induction ls as [|l ls IH]; intros k x d ds' x' d' m H; [reflexivity|]. inversion H as [|? ? ? ? ds1 x1 d1 ? ? ? ? H1 H2]; subst. cbn [map].
  inversion H1; subst; try (rewrite (IH _ _ _ _ _ _ m H2); reflexivity); cbn [length] in *; congruence.
Qed.
Lemma hundred : forall v : f32, f32_in 0 100 v -> f32_in (- 2 ^ 7) (2 ^ 7) v.
Proof. intros v (A & B & C). split; [exact A|]. split; [exact B|]. replace (2 ^ 7) with 128 by (simpl; lra). lra. Qed.
Theorem linear_finite : draws_numbers HR -> points_within lm to_d to_f -> forall (gd : GD) (g : G), exists p, linear_example to_d to_f gd g = Ok p /\ good p /\ tdims p = [1]%Z /\ sized 70 p.
Proof.
  intros HN HW gd g. unfold linear_example. rewrite gen_linear_ok. cbn [bind].
  set (next := line_point to_d to_f _ _). set (xs := map _ (zrange 0 100)). set (ts := map _ (zrange 0 100)).
  assert (LX : Zlen xs = 100%Z) by (unfold xs; rewrite Zlen_map, Zlen_zrange; lia). assert (LT : Zlen ts = 100%Z) by (unfold ts; rewrite Zlen_map, Zlen_zrange; lia).
  assert (G1 : forall f : list Z -> f32, good (tensor_of [1]%Z f)) by (intros f; apply good_tensor_of; [split; [discriminate|repeat constructor]|vm_compute; discriminate]).
  destruct (linear_training lm HL HP HN g xs ts 100) as (n & n' & E1 & E2 & _ & HA & HPr); try (rewrite ?LX, ?LT; unfold INT_MAX; lia).
  - unfold xs. apply Forall_forall. intros x HI. apply in_map_iff in HI. destruct HI as (i & <- & _). split; [apply G1|]. split; [reflexivity|]. unfold sized, tensor_of. cbn [tdata]. apply Forall_forall. intros v Hv. apply in_map_iff in Hv. destruct Hv as (j & <- & _).
    apply hundred. exact (proj1 (HW (after next (Z.to_nat i) gd))).
  - unfold ts. apply Forall_forall. intros x HI. apply in_map_iff in HI. destruct HI as (i & <- & _). split; [apply G1|]. split; [reflexivity|]. unfold sized, tensor_of. cbn [tdata]. apply Forall_forall. intros v Hv. apply in_map_iff in Hv. destruct Hv as (j & <- & _).
    exact (proj2 (HW (after next (Z.to_nat i) gd))).
  - change (linear_net g) with (M_Ex.linear_net (S := F32Scalar lm) g). rewrite E1. cbn [bind]. change (net_train n xs ts 100) with (net_train (S := F32Scalar lm) n xs ts 100). rewrite E2. cbn [bind]. change (new_shape [1]%Z) with (Ok (shape_of [1]%Z)). cbn [bind].
    destruct (HPr (t_fill (shape_of [1]%Z) (s_z 10))) as (n1 & p & EP & Gp & Ep & Sp).
    + apply (good_one (s_z 10)).
    + reflexivity.
    + unfold sized. cbn [t_fill tdata]. apply Forall_forall. intros v Hv. change (In v [f32_of_Z 10]) in Hv. destruct Hv as [<-|[]]. split; [reflexivity|]. split; [exact I|]. unfold f32_value. simpl. lra.
    + exists p. split; [|auto].
      assert (EM : net_set_mode n' false = n').
      { unfold net_set_mode, net_with. rewrite (calm_modes 29 _ _ _ _ _ _ _ false HA). destruct n'; reflexivity. }
      rewrite EM. change (net_predict (S := SF)) with (net_predict (S := F32Scalar lm)). rewrite EP. reflexivity.
Qed.
End L.
