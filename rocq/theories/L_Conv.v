(** * Flatten and Conv2D *)
From Coq Require Import Reals Lra Permutation.
From Coquelicot Require Import Coquelicot.
From Verif Require Import Base Scalar ScalarR Types Spec M_Shape M_Tensor M_Adv M_Act M_Layers SpecR SpecNN
  L_Index L_Shape L_Bcast L_Tensor L_Reduce L_Tensor2 L_Glue L_Nest L_Matmul L_Axes L_Adv L_RSum L_AdvR L_Act L_ActR L_Loss L_Layers L_LayersR.
Local Open Scope Z_scope.

Section S.
Context {T : Type} {S : Scalar T}.

(** ** Flatten *)
Lemma reshape_in_shape : forall (t : tensor T) ds, good t -> pos_dims ds -> prod ds = prod (tdims t) ->
  t_reshape t ds = Ok (in_shape ds t).
Proof.
  intros t ds Hg HP E. rewrite t_reshape_ok by auto. rewrite reshaped_tensor_of by auto. f_equal.
  apply tensor_of_ext; [apply pos_forall; auto|]. intros idx HI. unfold el. rewrite ravel_unravel; auto; [apply good_dims; auto|].
  rewrite <- E. apply ravel_bound; auto.
Qed.
Lemma reshape_to_in_shape : forall (t : tensor T) ds, good t -> pos_dims ds -> prod ds = prod (tdims t) ->
  reshape_to t ds = Ok (in_shape ds t).
Proof.
  intros t ds Hg HP E. pose proof (good_max t Hg). unfold reshape_to. rewrite new_shape_ok_int by (auto; lia). cbn [bind dims shape_of].
  apply reshape_in_shape; auto.
Qed.
Lemma data_in_shape : forall (t : tensor T) ds, good t -> pos_dims ds -> prod ds = prod (tdims t) -> tdata (in_shape ds t) = tdata t.
Proof.
  intros t ds Hg HP E. pose proof (reshape_in_shape t ds Hg HP E) as H. rewrite t_reshape_ok in H by auto. assert (E2 : in_shape ds t = mkTensor (shape_of ds) (tdata t)) by congruence. rewrite E2. reflexivity.
Qed.

Lemma flatten_forward_ok : forall l (x : tensor T) b c ds, good x -> tdims x = b :: c :: ds -> ds <> [] ->
  flatten_forward l x = (mkFlatten (Some (tshape x)), Ok (in_shape [b; prod (c :: ds)] x)).
Proof.
  intros l x b c ds Hg E HN. pose proof (good_dims x Hg) as HF. pose proof (good_max x Hg) as HM. rewrite E in HF, HM.
  inversion HF as [|? ? Hb HF']; subst. pose proof (prod_pos _ HF') as HP.
  unfold flatten_forward, rank. fold (tdims x). rewrite E.
  assert (HL : 3 <= Zlen (b :: c :: ds)).
  { rewrite !Zlen_cons. destruct ds; [congruence|]. rewrite Zlen_cons. pose proof (Zlen_nonneg ds). lia. }
  destruct (Z.ltb_spec (Zlen (b :: c :: ds)) 2); [lia|]. destruct (Z.eqb_spec (Zlen (b :: c :: ds)) 2); [lia|].
  f_equal. change (rd (b :: c :: ds) 0) with (Ok b). cbn [bind]. destruct (Z.eqb_spec b 0); [lia|].
  rewrite good_size by auto. rewrite E. change (prod (b :: c :: ds)) with (b * prod (c :: ds)) in *.
  rewrite Z.mul_comm, Z_div_mult by lia. rewrite i32_id by (unfold INT_MIN; nia).
  apply reshape_to_in_shape; auto with idx. rewrite E. change (prod (b :: c :: ds)) with (b * prod (c :: ds)). change (prod [b; prod (c :: ds)]) with (b * (prod (c :: ds) * 1)). lia.
Qed.
Lemma flatten_backward_ok : forall (x g : tensor T), good x -> good g -> prod (tdims g) = prod (tdims x) ->
  flatten_backward (mkFlatten (Some (tshape x))) g = Ok (in_shape (tdims x) g).
Proof. intros x g Hx Hg E. apply reshape_in_shape; auto. apply good_pos; auto. Qed.

(** ** Accumulation at computed positions *)
Lemma t_at_add_ok : forall (t : tensor T) idx v, good t -> in_range (tdims t) idx ->
  t_at_add t idx v = Ok (set_el t idx (s_add (el t idx) v)).
Proof. intros. unfold t_at_add. rewrite t_at_ok by auto. cbn [bind]. apply t_at_set_ok; auto. Qed.
Lemma tdims_set_el : forall (t : tensor T) idx v, tdims (set_el t idx v) = tdims t.
Proof. reflexivity. Qed.
Lemma idx_eqb_spec : forall a b, idx_eqb a b = true <-> a = b.
Proof. intros. unfold idx_eqb. destruct (list_eq_dec Z.eq_dec a b); split; auto; discriminate. Qed.
Lemma idx_eqb_refl : forall a, idx_eqb a a = true.
Proof. intros. apply idx_eqb_spec. reflexivity. Qed.
Lemma idx_eqb_neq : forall a b, a <> b -> idx_eqb a b = false.
Proof. intros. unfold idx_eqb. destruct (list_eq_dec Z.eq_dec a b); congruence. Qed.
Lemma nest_scatter : forall ds (pos : list Z -> list Z) (v : list Z -> T) body (t : tensor T), Forall (fun d => 0 < d) ds -> good t ->
  (forall k, in_range ds k -> in_range (tdims t) (pos k)) ->
  (forall k (o : tensor T), in_range ds k -> good o -> tdims o = tdims t -> body k o = Ok (set_el o (pos k) (s_add (el o (pos k)) (v k)))) ->
  nest ds body t = Ok (tensor_of (tdims t) (fun p => fold_left s_add (map v (filter (fun k => idx_eqb (pos k) p) (all_indices ds))) (el t p))).
Proof.
  intros ds pos v body t HF Hg HR HB. pose proof (prod_pos _ HF) as HPP.
  destruct (nest_inv (fun k o => good o /\ tdims o = tdims t /\ forall p, in_range (tdims t) p ->
     el o p = fold_left s_add (map v (filter (fun k => idx_eqb (pos k) p) (map (unravel ds) (zrange 0 k)))) (el t p)) ds body t) as (o & E & Go & Eo & HE); [auto| | |].
  - split; [auto|]. split; [auto|]. intros p Hp. reflexivity.
  - intros k o Hk (Go & Eo & HE). pose proof (unravel_range ds k HF Hk) as HI. rewrite HB by auto. eexists; split; [reflexivity|].
    split; [apply good_set_el; auto|]. split; [auto|]. intros p Hp. rewrite el_set_el by (auto; rewrite Eo; auto).
    rewrite zrange_snoc by lia. rewrite map_app, filter_app, map_app, fold_left_app. cbn [map filter].
    destruct (list_eq_dec Z.eq_dec p (pos (unravel ds k))) as [->|Hne].
    + rewrite idx_eqb_refl. cbn [map fold_left]. rewrite HE by auto. reflexivity.
    + rewrite idx_eqb_neq by congruence. rewrite HE by auto. reflexivity.
  - rewrite E. f_equal. rewrite <- Eo. apply tensor_eta; auto. rewrite Eo. intros p Hp. rewrite HE by auto. reflexivity.
Qed.

(** ** Conv2D *)
Lemma le_mul_pos : forall a b m, 0 < a -> 0 < b -> a * b <= m -> a <= m /\ b <= m.
Proof. intros. nia. Qed.
Lemma le_prod4 : forall a b c d m, 0 < a -> 0 < b -> 0 < c -> 0 < d -> a * (b * (c * d)) <= m -> a <= m /\ b <= m /\ c <= m /\ d <= m.
Proof.
  intros a b c d m Ha Hb Hc Hd H. assert (0 < c * d) by nia. assert (0 < b * (c * d)) by nia.
  apply le_mul_pos in H; auto. destruct H as [? H]. apply le_mul_pos in H; auto. destruct H as [? H]. apply le_mul_pos in H; tauto.
Qed.
Definition conv_wf (l : conv T) : Prop :=
  good (cv_w l) /\ tdims (cv_w l) = [cv_oc l; cv_ic l; cv_kh l; cv_kw l] /\ good (cv_b l) /\ tdims (cv_b l) = [cv_oc l; 1].
Definition conv_saw (l : conv T) (x : tensor T) : conv T :=
  mkConv (cv_w l) (cv_b l) (Some x) (cv_gw l) (cv_gb l) (cv_ic l) (cv_oc l) (cv_kh l) (cv_kw l) (cv_stride l) (cv_pad l) (cv_dil l).
(** The sum the code computes: channel 0 only, stride 1, no padding, no dilation. *)
Definition conv0 (x W b : tensor T) (kh kw i o y z : Z) : T :=
  s_add (fsum (map (fn2 (fun p q => s_mul (el x [i; 0; y + p; z + q]) (el W [o; 0; p; q]))) (all_indices [kh; kw]))) (el b [o; 0]).

Lemma good_4 : forall a b c d (f : list Z -> T), 0 < a -> 0 < b -> 0 < c -> 0 < d -> a * (b * (c * d)) <= INT_MAX -> good (tensor_of [a; b; c; d] f).
Proof. intros. apply good_tensor_of; [auto with idx|simpl; lia]. Qed.
Lemma set_el_dims : forall (o : tensor T) ds idx v, tdims o = ds -> in_range ds idx -> good o -> t_at_set o idx v = Ok (set_el o idx v).
Proof. intros. apply t_at_set_ok; auto. rewrite H. auto. Qed.

Lemma conv_forward_ok : forall l (x : tensor T) n h w, conv_wf l -> good x -> tdims x = [n; cv_ic l; h; w] ->
  cv_kh l <= h -> cv_kw l <= w -> n * (cv_oc l * ((h - cv_kh l + 1) * (w - cv_kw l + 1))) <= INT_MAX ->
  conv_forward l x = (conv_saw l x, Ok (tensor_of [n; cv_oc l; h - cv_kh l + 1; w - cv_kw l + 1] (fn4 (conv0 x (cv_w l) (cv_b l) (cv_kh l) (cv_kw l))))).
Proof.
  intros l x n h w (GW & EW & GB & EB) Gx Ex H1 H2 HM. unfold conv_forward, rank. fold (tdims x). rewrite Ex.
  destruct (dims4_pos x _ _ _ _ Gx Ex) as (Hn & Hic & Hh & Hw & HMx). destruct (dims4_pos _ _ _ _ _ GW EW) as (Hoc & _ & Hkh & Hkw & HMw).
  change (Zlen [n; cv_ic l; h; w] =? 4) with true. cbn [negb]. change (rd [n; cv_ic l; h; w] 1) with (Ok (cv_ic l)). cbn [step]. rewrite Z.eqb_refl. cbn [negb].
  unfold conv_saw. f_equal. change (rd [n; cv_ic l; h; w] 0) with (Ok n). change (rd [n; cv_ic l; h; w] 2) with (Ok h). change (rd [n; cv_ic l; h; w] 3) with (Ok w).
  cbn [bind]. destruct (le_prod4 _ _ _ _ _ Hn Hic Hh Hw HMx) as (_ & _ & Hhm & Hwm).
  rewrite chk32_ok by (unfold INT_MIN; lia). cbn [bind]. rewrite chk32_ok by (unfold INT_MIN; lia). cbn [bind].
  rewrite chk32_ok by (unfold INT_MIN; lia). cbn [bind]. rewrite chk32_ok by (unfold INT_MIN; lia). cbn [bind].
  set (oh := h - cv_kh l + 1) in *. set (ow := w - cv_kw l + 1) in *.
  assert (Hoh : 0 < oh) by lia. assert (How : 0 < ow) by lia.
  rewrite new_shape_ok_int by (auto with idx; simpl; nia). cbn [bind].
  rewrite (for4_nest n (cv_oc l) oh ow). apply nest_set; [apply good_new; [auto with idx|simpl; nia]|reflexivity|].
  intros idx o HI Go Eo. apply in_range_4 in HI. destruct HI as (i & c & y & z & -> & Hi & Hc & Hy & Hz). cbn [nth].
  rewrite (for2_nest (cv_kh l) (cv_kw l)).
  rewrite (nest_sum [cv_kh l; cv_kw l] (fn2 (fun p q => s_mul (el x [i; 0; y + p; z + q]) (el (cv_w l) [c; 0; p; q])))).
  - cbn [bind]. rewrite t_at_ok by (auto; rewrite EB; auto with idx). cbn [bind]. apply (set_el_dims o [n; cv_oc l; oh; ow]); auto with idx.
  - apply pos_forall; auto with idx.
  - intros idx acc HI. apply in_range_2 in HI. destruct HI as (p & q & -> & Hp & Hq). cbn [nth].
    rewrite t_at_ok by (auto; rewrite Ex; apply in_range4; lia). cbn [bind]. rewrite t_at_ok by (auto; rewrite EW; auto with idx). reflexivity.
Qed.

Lemma all_indices_1cons : forall ds, Forall (fun d => 0 < d) ds -> all_indices (1 :: ds) = map (cons 0) (all_indices ds).
Proof.
  intros ds HF. pose proof (prod_pos _ HF). unfold all_indices, ztab. rewrite map_map. change (prod (1 :: ds)) with (1 * prod ds). rewrite Z.mul_1_l.
  apply map_ext_in. intros k HI. apply In_zrange in HI. cbn [unravel]. rewrite Z.div_small, Z.mod_small by lia. reflexivity.
Qed.
(** With one input channel, stride 1, no padding, dilation 1 this is the specification. *)
Lemma conv_forward_spec : forall l (x : tensor T) n h w, conv_wf l -> good x -> tdims x = [n; 1; h; w] ->
  cv_ic l = 1 -> cv_stride l = 1 -> cv_pad l = 0 -> cv_dil l = 1 ->
  cv_kh l <= h -> cv_kw l <= w -> n * (cv_oc l * ((h - cv_kh l + 1) * (w - cv_kw l + 1))) <= INT_MAX ->
  snd (conv_forward l x) = Ok (conv_spec (cv_stride l) (cv_pad l) (cv_dil l) x (cv_w l) (cv_b l) n (cv_ic l) h w (cv_oc l) (cv_kh l) (cv_kw l)).
Proof.
  intros l x n h w HW Gx Ex Hic Hst Hpad Hdil H1 H2 HM. rewrite (conv_forward_ok l x n h w) by (auto; rewrite Hic; auto). cbn [snd]. f_equal.
  unfold conv_spec, conv_extent. rewrite Hst, Hpad, Hdil, Hic. rewrite !Z.div_1_r.
  destruct HW as (GW & EW & _). destruct (dims4_pos _ _ _ _ _ GW EW) as (Hoc & _ & Hkh & Hkw & HMw). destruct (dims4_pos x _ _ _ _ Gx Ex) as (Hn & _ & Hh & Hw & HMx).
  replace (h + 2 * 0 - 1 * (cv_kh l - 1) - 1 + 1) with (h - cv_kh l + 1) by lia. replace (w + 2 * 0 - 1 * (cv_kw l - 1) - 1 + 1) with (w - cv_kw l + 1) by lia.
  apply tensor_of_ext; [apply pos_forall; auto with idx|].
  intros idx HI. apply in_range_4 in HI. destruct HI as (i & c & y & z & -> & Hi & Hc & Hy & Hz). unfold fn4. cbn [nth]. unfold conv0. f_equal. f_equal.
  rewrite all_indices_1cons by (apply pos_forall; auto with idx). rewrite map_map. apply map_ext_in. intros idx HI.
  apply In_all_indices in HI; [|apply pos_forall; auto with idx]. apply in_range_2 in HI. destruct HI as (p & q & -> & Hp & Hq). unfold fn2, fn3. cbn [nth]. f_equal.
  unfold padded. replace (y * 1 + p * 1 - 0) with (y + p) by lia. replace (z * 1 + q * 1 - 0) with (z + q) by lia.
  destruct (Z.leb_spec 0 (y + p)), (Z.ltb_spec (y + p) h), (Z.leb_spec 0 (z + q)), (Z.ltb_spec (z + q) w); try lia. reflexivity.
Qed.
Lemma conv_forward_abort : forall l (x : tensor T), (length (tdims x) <> 4%nat \/ nth 1 (tdims x) 0 <> cv_ic l) -> conv_forward l x = (l, Abort).
Proof.
  intros l x H. unfold conv_forward, rank. fold (tdims x). destruct (tdims x) as [|a [|b [|c [|d [|e r]]]]] eqn:E; try reflexivity.
  - destruct H as [H|H]; [cbn in H; congruence|]. cbn [nth] in H. change (Zlen [a; b; c; d] =? 4) with true. cbn [negb].
    change (rd [a; b; c; d] 1) with (Ok b). cbn [step]. destruct (Z.eqb_spec b (cv_ic l)); [congruence|reflexivity].
  - destruct (Z.eqb_spec (Zlen (a :: b :: c :: d :: e :: r)) 4) as [X|]; [|reflexivity]. exfalso. unfold Zlen in X. cbn [length] in X. lia.
Qed.

(** What backward computes. *)
Definition cgb (g : tensor T) (gh gw : Z) (idx : list Z) : T :=
  if idx_eqb idx [0; 0] then fsum (map (fn2 (fun i j => el g [0; 0; i; j])) (all_indices [gh; gw])) else zero.
Definition cgw (x g : tensor T) (gh gw : Z) (idx : list Z) : T :=
  match idx with
  | [0; 0; p; q] => fsum (map (fn2 (fun i j => s_mul (el x [0; 0; i + p; j + q]) (el g [0; 0; i; j]))) (all_indices [gh; gw]))
  | _ => zero
  end.
Definition cgx (W g : tensor T) (gh gw kh kw : Z) (p : list Z) : T :=
  fold_left s_add (map (fn4 (fun i j a b => s_mul (el W [0; 0; a; b]) (el g [0; 0; i; j])))
    (filter (fun k => idx_eqb (fn4 (fun i j a b => [0; 0; i + a; j + b]) k) p) (all_indices [gh; gw; kh; kw]))) zero.

Lemma t_get_0 : forall (t : tensor T) idx, good t -> in_range (tdims t) idx -> ravel (tdims t) idx = 0 -> t_get t 0 = Ok (el t idx).
Proof. intros. unfold t_get. apply rd_el; auto. Qed.
Lemma t_set_0 : forall (t : tensor T) idx v, good t -> in_range (tdims t) idx -> ravel (tdims t) idx = 0 -> t_set t 0 v = Ok (set_el t idx v).
Proof.
  intros t idx v Hg HI E. unfold t_set, set_el. rewrite E. rewrite wr_ok; [reflexivity|]. rewrite good_len by auto. pose proof (prod_pos _ (good_dims t Hg)). lia.
Qed.
Lemma filter_all : forall {A} (p : A -> bool) l, (forall a, In a l -> p a = true) -> filter p l = l.
Proof. induction l; simpl; intros; auto. rewrite H by auto. f_equal. auto. Qed.
Lemma filter_none : forall {A} (p : A -> bool) l, (forall a, In a l -> p a = false) -> filter p l = [].
Proof. induction l; simpl; intros; auto. rewrite H by auto. auto. Qed.

Lemma keep_loop_ok : forall {A St} (bk : A -> St -> St * outcome unit) (b : A -> St -> outcome St) l s s', (forall a s s1, b a s = Ok s1 -> bk a s = (s1, Ok tt)) ->
  foldM b l s = Ok s' -> keep_loop bk l s = (s', Ok tt).
Proof.
  intros A St bk b l. induction l as [|a l IH]; intros s s' H E; cbn [foldM keep_loop] in *; [injection E as ->; reflexivity|].
  apply bind_ok_inv in E. destruct E as (s1 & E1 & E2). rewrite (H _ _ _ E1). cbn [step]. apply IH; auto.
Qed.
Lemma keep_two : forall {St} (b : Z -> Z -> St -> outcome St) m n s s', for_ 0 m (fun i => for_ 0 n (b i)) s = Ok s' ->
  keep_loop (fun i => keep_loop (fun j s => kept s (b i j s)) (zrange 0 n)) (zrange 0 m) s = (s', Ok tt).
Proof.
  intros St b m n s s' E. eapply keep_loop_ok; [|exact E]. cbv beta. intros i s1 s2 E1. eapply keep_loop_ok; [|exact E1]. cbv beta. intros j s3 s4 E2. unfold kept. rewrite E2. reflexivity.
Qed.
Lemma conv_backward_ok : forall l (x g : tensor T) n m h w gh gw, conv_wf l -> cv_in l = Some x -> good x -> good g ->
  tdims x = [n; cv_ic l; h; w] -> tdims g = [m; cv_oc l; gh; gw] -> gh = h - cv_kh l + 1 -> gw = w - cv_kw l + 1 ->
  conv_backward l g =
   (mkConv (cv_w l) (cv_b l) (cv_in l) (Some (tensor_of [cv_oc l; cv_ic l; cv_kh l; cv_kw l] (cgw x g gh gw))) (Some (tensor_of [cv_oc l; 1] (cgb g gh gw)))
      (cv_ic l) (cv_oc l) (cv_kh l) (cv_kw l) (cv_stride l) (cv_pad l) (cv_dil l),
    Ok (tensor_of [n; cv_ic l; h; w] (cgx (cv_w l) g gh gw (cv_kh l) (cv_kw l)))).
Proof.
  intros l x g n m h w gh gw (GW & EW & GB & EB) EI Gx Gg Ex Eg Egh Egw. unfold conv_backward. rewrite EI.
  destruct (dims4_pos x _ _ _ _ Gx Ex) as (Hn & Hic & Hh & Hw & HMx). destruct (dims4_pos _ _ _ _ _ GW EW) as (Hoc & _ & Hkh & Hkw & HMw).
  destruct (dims4_pos g _ _ _ _ Gg Eg) as (Hm & _ & Hgh & Hgw & HMg). rewrite Eg.
  change (rd [m; cv_oc l; gh; gw] 2) with (Ok gh). change (rd [m; cv_oc l; gh; gw] 3) with (Ok gw). cbn [bind step].
  rewrite (good_shape (cv_b l)), (good_shape (cv_w l)), (good_shape x), EB, EW, Ex by auto.
  assert (HFg : Forall (fun d => 0 < d) [gh; gw]) by (apply pos_forall; auto with idx).
  erewrite (keep_two (fun i j gb => v <- t_at g [0; 0; i; j] ;; o <- t_get gb 0 ;; t_set gb 0 (s_add o v))); cycle 1.
  { rewrite (for2_nest gh gw).
  rewrite (nest_scatter [gh; gw] (fun _ => [0; 0]) (fn2 (fun i j => el g [0; 0; i; j]))); auto.
  2: { intros. change (tdims _) with [cv_oc l; 1]. apply in_range2; lia. }
  2: { intros k o HI Go Eo. apply in_range_2 in HI. destruct HI as (i & j & -> & Hi & Hj). cbn [nth]. change (tdims o = [cv_oc l; 1]) in Eo.
       rewrite t_at_ok by (auto; rewrite Eg; apply in_range4; lia). cbn [bind].
       rewrite (t_get_0 o [0; 0]); [|auto|rewrite Eo; apply in_range2; lia|rewrite Eo; reflexivity]. cbn [bind].
       apply t_set_0; [auto|rewrite Eo; apply in_range2; lia|rewrite Eo; reflexivity]. }
  apply good_new; [auto with idx|simpl; pose proof (good_max _ GB) as X; rewrite EB in X; simpl in X; lia].
  }
  cbn [step bind].
  assert (Enw : nest [cv_kh l; cv_kw l] (fun idx gw0 => sum <- for_ 0 gh (fun i => for_ 0 gw (fun j sum =>
            xv <- t_at x [0; 0; i + nth 0 idx 0; j + nth 1 idx 0] ;; gv <- t_at g [0; 0; i; j] ;; Ok (s_add sum (s_mul xv gv)))) zero ;;
            t_at_set gw0 [0; 0; nth 0 idx 0; nth 1 idx 0] sum) (t_new (shape_of [cv_oc l; cv_ic l; cv_kh l; cv_kw l]))
      = Ok (tensor_of [cv_oc l; cv_ic l; cv_kh l; cv_kw l] (cgw x g gh gw))).
  { set (dw := [cv_oc l; cv_ic l; cv_kh l; cv_kw l]) in *.
    assert (Gn : good (t_new (shape_of dw) : tensor T)) by (apply good_new; [subst dw; auto with idx|simpl; nia]).
    destruct (nest_inv (fun k o => good o /\ tdims o = dw /\ forall p, in_range dw p -> el o p = match p with [0; 0; a; b] => if a * cv_kw l + b <? k then cgw x g gh gw p else zero | _ => zero end)
      [cv_kh l; cv_kw l] (fun idx gw0 => sum <- for_ 0 gh (fun i => for_ 0 gw (fun j sum =>
            xv <- t_at x [0; 0; i + nth 0 idx 0; j + nth 1 idx 0] ;; gv <- t_at g [0; 0; i; j] ;; Ok (s_add sum (s_mul xv gv)))) zero ;;
            t_at_set gw0 [0; 0; nth 0 idx 0; nth 1 idx 0] sum) (t_new (shape_of dw))) as (o & E & Go & Eo & HE).
    - apply pos_forall; auto with idx.
    - split; [auto|]. split; [reflexivity|]. intros p Hp. rewrite el_new by auto. unfold dw in Hp. apply in_range_4 in Hp. destruct Hp as (a & b & c & d & -> & Ha & Hb & Hc & Hd).
      destruct a as [|a|a]; auto. destruct b as [|b|b]; auto. destruct (Z.ltb_spec (c * cv_kw l + d) 0); auto. nia.
    - intros k o Hk (Go & Eo & HE). pose proof (unravel_range [cv_kh l; cv_kw l] k ltac:(apply pos_forall; auto with idx) Hk) as HI.
      pose proof (ravel_unravel [cv_kh l; cv_kw l] k ltac:(apply pos_forall; auto with idx) Hk) as HRk.
      apply in_range_2 in HI. destruct HI as (a & b & EU & Ha & Hb). rewrite EU in *. rewrite ravel2 in HRk. cbn [nth].
      rewrite (for2_nest gh gw). rewrite (nest_sum [gh; gw] (fn2 (fun i j => s_mul (el x [0; 0; i + a; j + b]) (el g [0; 0; i; j])))); auto.
      2: { intros idx acc HI. apply in_range_2 in HI. destruct HI as (i & j & -> & Hi & Hj). cbn [nth].
           rewrite t_at_ok by (auto; rewrite Ex; apply in_range4; lia). cbn [bind]. rewrite t_at_ok by (auto; rewrite Eg; apply in_range4; lia). reflexivity. }
      cbn [bind]. rewrite (set_el_dims o dw); auto; [|subst dw; apply in_range4; lia]. eexists; split; [reflexivity|].
      split; [apply good_set_el; auto|]. split; [auto|]. intros p Hp. rewrite el_set_el; auto; [|rewrite Eo; subst dw; apply in_range4; lia|rewrite Eo; auto].
      destruct (list_eq_dec Z.eq_dec p [0; 0; a; b]) as [->|Hne].
      + destruct (Z.ltb_spec (a * cv_kw l + b) (k + 1)); [reflexivity|lia].
      + rewrite HE by auto. unfold dw in Hp. apply in_range_4 in Hp. destruct Hp as (a' & b' & c & d & -> & Ha' & Hb' & Hc & Hd).
        destruct a' as [|a'|a']; auto. destruct b' as [|b'|b']; auto.
        destruct (Z.ltb_spec (c * cv_kw l + d) k), (Z.ltb_spec (c * cv_kw l + d) (k + 1)); auto; [lia|]. exfalso. apply Hne.
        assert (HU : ravel [cv_kh l; cv_kw l] [c; d] = ravel [cv_kh l; cv_kw l] [a; b]) by (rewrite !ravel2; lia).
        apply ravel_inj in HU; auto with idx. congruence.
    - rewrite E. f_equal. rewrite <- Eo. apply tensor_eta; auto. rewrite Eo. intros p Hp. rewrite HE by auto.
      unfold dw in Hp. apply in_range_4 in Hp. destruct Hp as (a & b & c & d & -> & Ha & Hb & Hc & Hd).
      destruct a as [|a|a]; auto. destruct b as [|b|b]; auto. simpl prod. destruct (Z.ltb_spec (c * cv_kw l + d) (cv_kh l * (cv_kw l * 1))); auto. nia. }
  erewrite (keep_two (fun kh kw gw0 => sum <- for_ 0 gh (fun i => for_ 0 gw (fun j sum =>
            xv <- t_at x [0; 0; i + kh; j + kw] ;; gv <- t_at g [0; 0; i; j] ;; Ok (s_add sum (s_mul xv gv)))) zero ;;
            t_at_set gw0 [0; 0; kh; kw] sum)); cycle 1.
  { rewrite (for2_nest (cv_kh l) (cv_kw l)). exact Enw. }
  cbn [step]. unfold conv_with. rewrite EI. f_equal.
  - f_equal. f_equal. apply tensor_of_ext; [apply pos_forall; auto with idx|]. intros idx HI. change (in_range [cv_oc l; 1] idx) in HI. rewrite el_new by auto.
    unfold cgb, fsum. destruct (list_eq_dec Z.eq_dec idx [0; 0]) as [->|Hne].
    + rewrite idx_eqb_refl, filter_all; auto.
    + rewrite (idx_eqb_neq idx), filter_none by (auto; intros; apply idx_eqb_neq; congruence). reflexivity.
  - rewrite (for4_nest gh gw (cv_kh l) (cv_kw l)).
    rewrite (nest_scatter [gh; gw; cv_kh l; cv_kw l] (fn4 (fun i j a b => [0; 0; i + a; j + b])) (fn4 (fun i j a b => s_mul (el (cv_w l) [0; 0; a; b]) (el g [0; 0; i; j])))).
    + f_equal. apply tensor_of_ext; [apply pos_forall; auto with idx|]. intros idx HI. change (in_range [n; cv_ic l; h; w] idx) in HI. rewrite el_new by auto. reflexivity.
    + apply pos_forall; auto with idx.
    + apply good_new; [auto with idx|simpl; nia].
    + intros k HI. apply in_range_4 in HI. destruct HI as (i & j & a & b & -> & Hi & Hj & Ha & Hb). apply in_range4; cbn [nth]; lia.
    + intros k o HI Go Eo. change (tdims o = [n; cv_ic l; h; w]) in Eo. apply in_range_4 in HI. destruct HI as (i & j & a & b & -> & Hi & Hj & Ha & Hb). unfold fn4. cbn [nth].
      rewrite t_at_ok by (auto; rewrite EW; apply in_range4; lia). cbn [bind]. rewrite t_at_ok by (auto; rewrite Eg; apply in_range4; lia). cbn [bind].
      apply t_at_add_ok; auto. rewrite Eo. apply in_range4; lia.
Qed.
End S.
