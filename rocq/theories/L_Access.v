(** * Lemmas for C100-C102 and the accessor parts of C47, C53, C61, C91 *)
From Coq Require Import Ascii String.
From Verif Require Import Base Scalar Types TextBase Spec M_Shape M_Tensor M_Adv M_Act M_Layers M_Reg M_Loss M_Opt M_Net M_Text M_Access SpecNN SpecLayers SpecNet SpecText SpecAccess
  L_Index L_Shape L_Tensor L_Tensor2 L_Glue L_Matmul L_AdvR L_Layers L_Conv L_Rows L_Pool L_Text L_Train L_Nest.
Local Open Scope Z_scope.

Section A.
Context {T : Type} {S : Scalar T}.

Lemma get_at : forall (t : tensor T) idx, wf t -> in_range (tdims t) idx -> 0 <= ravel (tdims t) idx < prod (tdims t) /\ t_get t (ravel (tdims t) idx) = t_at t idx.
Proof.
  intros t idx HW HI. split; [apply ravel_bound; auto|]. unfold t_at. destruct HW as (HP & HS & HB & HL). rewrite HS, flat_index_ok by auto. reflexivity.
Qed.
Lemma set_at : forall (t : tensor T) idx v, wf t -> in_range (tdims t) idx -> t_set t (ravel (tdims t) idx) v = t_at_set t idx v.
Proof. intros t idx v HW HI. unfold t_at_set. destruct HW as (HP & HS & HB & HL). rewrite HS, flat_index_ok by auto. reflexivity. Qed.
Lemma get_each : forall (t : tensor T) i, wf t -> 0 <= i < prod (tdims t) ->
  exists idx, in_range (tdims t) idx /\ ravel (tdims t) idx = i /\ t_get t i = Ok (el t idx).
Proof.
  intros t i HW Hi. exists (unravel (tdims t) i). pose proof HW as (HP & HS & HB & HL). pose proof (pos_forall _ HP) as HF.
  assert (HI : in_range (tdims t) (unravel (tdims t) i)) by (apply unravel_range; auto).
  split; [auto|]. assert (E : ravel (tdims t) (unravel (tdims t) i) = i) by (apply ravel_unravel; auto). split; [auto|].
  rewrite <- E at 1. rewrite (proj2 (get_at t _ HW HI)). apply at_ok; auto.
Qed.
Lemma get_outside : forall (t : tensor T) i v, wf t -> ~ 0 <= i < prod (tdims t) -> t_get t i = UB /\ t_set t i v = UB.
Proof.
  intros t i v (HP & HS & HB & HL) H. unfold t_get, t_set. rewrite rd_ub by lia. rewrite wr_ub by lia. split; reflexivity.
Qed.

(** ** Layers *)
Lemma set_forward : forall (l : fc T) k o (w b x : tensor T) n, good w -> tdims w = [k; o] -> good b -> tdims b = [1; o] ->
  good x -> tdims x = [n; k] -> n * o <= INT_MAX ->
  exists l1, fc_set_biases (fc_set_weights l w) b = (l1, Ok tt) /\ fc_get_weights l1 = w /\ fc_get_biases l1 = b /\
    fc_in l1 = fc_in l /\ fc_gw l1 = fc_gw l /\ fc_gb l1 = fc_gb l /\
    snd (fc_forward l1 x) = Ok (tensor_of [n; o] (fn2 (fun i j => s_add (sum_to k (fun p => s_mul (el x [i; p]) (el w [p; j]))) (el b [0; j])))).
Proof.
  intros l k o w b x n Gw Ew Gb Eb Gx Ex HM. exists (mkFC w b (fc_in l) (fc_gw l) (fc_gb l)).
  split. { unfold fc_set_biases, rank. fold (tdims b). rewrite Eb. reflexivity. }
  do 5 (split; [reflexivity|]). rewrite (fc_forward_2 _ k o x n); auto. unfold fc_wf; auto.
Qed.
Lemma set_biases_bad : forall (l : fc T) (b : tensor T), (forall o, tdims b <> [1; o]) -> fc_set_biases l b = (l, Throw InvalidArgument).
Proof.
  intros l b H. unfold fc_set_biases, rank. fold (tdims b). destruct (tdims b) as [|d [|o [|e ds]]] eqn:E; try reflexivity.
  - cbn. change (rd [d; o] 0) with (Ok d). cbn. destruct (Z.eqb_spec d 1) as [->|]; [|reflexivity]. destruct (H o); auto.
  - assert (Z : Zlen (d :: o :: e :: ds) =? 2 = false) by (apply Z.eqb_neq; rewrite !Zlen_cons; pose proof (Zlen_nonneg ds); lia).
    rewrite Z. reflexivity.
Qed.
Lemma set_conv_forward : forall (l : conv T) (w b x : tensor T) n h wd, good w -> tdims w = [cv_oc l; cv_ic l; cv_kh l; cv_kw l] -> good b -> tdims b = [cv_oc l; 1] ->
  good x -> tdims x = [n; cv_ic l; h; wd] -> cv_kh l <= h -> cv_kw l <= wd -> n * (cv_oc l * ((h - cv_kh l + 1) * (wd - cv_kw l + 1))) <= INT_MAX ->
  let l1 := conv_set_biases (conv_set_weights l w) b in
  conv_get_weights l1 = w /\ conv_get_biases l1 = b /\ cv_in l1 = cv_in l /\ cv_gw l1 = cv_gw l /\ cv_gb l1 = cv_gb l /\
  snd (conv_forward l1 x) = Ok (tensor_of [n; cv_oc l; h - cv_kh l + 1; wd - cv_kw l + 1] (fn4 (fun i o y z =>
    s_add (fsum (map (fn2 (fun p q => s_mul (el x [i; 0; y + p; z + q]) (el w [o; 0; p; q]))) (all_indices [cv_kh l; cv_kw l]))) (el b [o; 0])))).
Proof.
  intros l w b x n h wd Gw Ew Gb Eb Gx Ex H1 H2 HM l1. do 5 (split; [reflexivity|]).
  exact (conv_forward_out l1 x n h wd (conj Gw (conj Ew (conj Gb Eb))) Gx Ex H1 H2 HM).
Qed.
Lemma grads_read : forall (l : fc T), fc_in l = None -> fc_gw l = None -> fc_gb l = None -> fc_get_gw l = UB /\ fc_get_gb l = UB.
Proof. intros l _ E1 E2. unfold fc_get_gw, fc_get_gb. rewrite E1, E2. auto. Qed.
Lemma new_grads : forall {G} {HR : Rng T G} k o (g g' : G) l, fc_new k o g = Ok (l, g') -> fc_get_gw l = UB /\ fc_get_gb l = UB.
Proof.
  intros G HR k o g g' l E. unfold fc_new in E. apply bind_ok_inv in E. destruct E as ([w g1] & _ & E). apply bind_ok_inv in E. destruct E as (b & _ & E).
  injection E as <- _. auto.
Qed.
Lemma new_conv_grads : forall {G} {HR : Rng T G} ic oc kh kw s p d (g g' : G) l, conv_new ic oc kh kw s p d g = Ok (l, g') -> conv_get_gw l = UB /\ conv_get_gb l = UB.
Proof.
  intros G HR ic oc kh kw s p d g g' l E. unfold conv_new in E. apply bind_ok_inv in E. destruct E as ([w g1] & _ & E). apply bind_ok_inv in E. destruct E as (b & _ & E).
  injection E as <- _. auto.
Qed.
Lemma backward_grads : forall (l : fc T) k o n (x g : tensor T), fc_wf l k o -> good x -> tdims x = [n; k] -> n * o <= INT_MAX -> good g -> tdims g = [n; o] ->
  exists l1 gx, fc_backward (fst (fc_forward l x)) g = (l1, Ok gx) /\
    fc_get_gw l1 = Ok (tensor_of [k; o] (fn2 (fun p j => sum_to n (fun i => s_mul (el x [i; p]) (el g [i; j]))))) /\
    fc_get_gb l1 = Ok (tensor_of [1; o] (fn2 (fun _ j => sum_to n (fun i => el g [i; j])))) /\
    fc_get_weights l1 = fc_get_weights l /\ fc_get_biases l1 = fc_get_biases l.
Proof.
  intros l k o n x g W Gx Ex HM Gg Eg. rewrite (fc_forward_2 l k o x n) by auto. cbn [fst].
  erewrite (fc_backward_rows (mkFC (fc_w l) (fc_b l) (Some x) (fc_gw l) (fc_gb l)) k o n x g x g); eauto using as_row_2.
  do 2 eexists. split; [reflexivity|]. cbn. repeat split; reflexivity.
Qed.
Lemma conv_backward_grads : forall (l : conv T) (x g : tensor T) n h w, conv_wf l -> good x -> tdims x = [n; cv_ic l; h; w] -> cv_kh l <= h -> cv_kw l <= w ->
  n * (cv_oc l * ((h - cv_kh l + 1) * (w - cv_kw l + 1))) <= INT_MAX -> good g -> tdims g = [n; cv_oc l; h - cv_kh l + 1; w - cv_kw l + 1] ->
  let spots := all_indices [h - cv_kh l + 1; w - cv_kw l + 1] in
  exists l1 gx, conv_backward (fst (conv_forward l x)) g = (l1, Ok gx) /\
    conv_get_gw l1 = Ok (tensor_of [cv_oc l; cv_ic l; cv_kh l; cv_kw l] (fn4 (fun o c p q =>
      if (o =? 0) && (c =? 0) then fsum (map (fn2 (fun i j => s_mul (el x [0; 0; i + p; j + q]) (el g [0; 0; i; j]))) spots) else zero))) /\
    conv_get_gb l1 = Ok (tensor_of [cv_oc l; 1] (fn2 (fun o _ => if o =? 0 then fsum (map (fn2 (fun i j => el g [0; 0; i; j])) spots) else zero))) /\
    conv_get_weights l1 = conv_get_weights l /\ conv_get_biases l1 = conv_get_biases l.
Proof.
  intros l x g n h w W Gx Ex Hh Hw HM Gg Eg spots. pose proof W as WW. destruct W as (GW & EW & GB & EB). destruct (dims4_pos _ _ _ _ _ GW EW) as (Hoc & Hic & Hkh & Hkw & HMw).
  rewrite (conv_forward_ok l x n h w) by auto. cbn [fst].
  erewrite (conv_backward_ok (conv_saw l x) x g n n h w (h - cv_kh l + 1) (w - cv_kw l + 1)); [|exact WW|reflexivity|auto|auto|auto|auto|reflexivity|reflexivity].
  do 2 eexists. split; [reflexivity|]. cbn. split; [|split; [|split; reflexivity]].
  - f_equal. apply tensor_of_ext; [repeat constructor; auto; lia|]. intros idx HI. destruct (in_range_4 _ _ _ _ _ HI) as (o & c & p & q & -> & Ho & Hc & Hp & Hq). unfold cgw, fn4. cbn [nth].
    destruct (Z.eqb_spec o 0) as [->|No].
    + destruct (Z.eqb_spec c 0) as [->|Nc]; cbn [andb]; [reflexivity|]. destruct c; congruence || reflexivity.
    + cbn [andb]. destruct o; congruence || reflexivity.
  - f_equal. apply tensor_of_ext; [repeat constructor; auto; lia|]. intros idx HI. destruct (in_range_2 _ _ _ HI) as (o & c & -> & Ho & Hc). assert (c = 0) by lia. subst c. unfold cgb, fn2. cbn [nth].
    unfold idx_eqb. destruct (Z.eqb_spec o 0) as [->|No]; [reflexivity|]. destruct o; congruence || reflexivity.
Qed.
Lemma set_grads_update : forall i (l : fc T) k o (gw gb : tensor T) (opt : optim T) r, fc_wf l k o -> good gw -> tdims gw = [k; o] -> good gb -> tdims gb = [1; o] ->
  new_optim opt -> plain_rate opt = Some r ->
  let l1 := fc_set_gb (fc_set_gw l gw) gb in
  fc_get_gw l1 = Ok gw /\ fc_get_gb l1 = Ok gb /\ fc_get_weights l1 = fc_get_weights l /\ fc_get_biases l1 = fc_get_biases l /\
  exists l2 opt', layer_update i (LFC l1) opt = (LFC l2, opt', Ok tt) /\ descended r (fc_get_weights l) gw (fc_get_weights l2) /\ descended r (fc_get_biases l) gb (fc_get_biases l2).
Proof.
  intros i l k o gw gb opt r (Gw & Ew & Gb & Eb) Ggw Egw Ggb Egb HN HR l1. do 4 (split; [reflexivity|]).
  set (D := fun a => if a =? 2 * i then [k; o] else [1; o]).
  destruct (pair_optimize_ok D opt i (fc_w l) (fc_b l) gw gb) as (o' & w' & b' & E & _ & _ & _ & _ & _ & _ & _ & K); auto.
  - apply new_ready; auto.
  - apply new_room; [auto|discriminate].
  - unfold D. rewrite Z.eqb_refl. auto.
  - unfold D. destruct (Z.eqb_spec (2 * i + 1) (2 * i)); [lia|auto].
  - congruence.
  - congruence.
  - exists (mkFC w' b' (fc_in l) (Some gw) (Some gb)), o'. cbn [layer_update l1 fc_set_gb fc_set_gw fc_w fc_b fc_gw fc_gb fc_in]. unfold l1. cbn. rewrite E. split; [reflexivity|].
    destruct (K r HR). auto.
Qed.
Lemma unset_update : forall i (l : fc T) (opt : optim T) w b i0, l = mkFC w b i0 None None -> layer_update i (LFC l) opt = (LFC l, opt, Throw RuntimeError).
Proof. intros; subst; reflexivity. Qed.

(** ** Networks *)
Lemma get_added : forall {G} (n : net T G) (ls : list (layer T)) i l, n_layers n = ls -> 0 <= i < Zlen ls -> nth_error ls (Z.to_nat i) = Some l -> net_get n i = Ok l.
Proof.
  intros G n ls i l E Hi H. unfold net_get. rewrite E. rewrite (rd_ok l) by auto. unfold znth. erewrite nth_error_nth; eauto.
Qed.
Lemma get_layer : forall {G} (g : G) (ls : list (layer T)) i l, 0 <= i -> nth_error ls (Z.to_nat i) = Some l -> net_get (fold_left net_add ls (net_new g)) i = Ok l.
Proof.
  intros G g ls i l Hi H. assert (E : forall ls (n : net T G), n_layers (fold_left net_add ls n) = n_layers n ++ ls).
  { clear. intros ls. induction ls as [|a ls IH]; intros n; cbn [fold_left]; [symmetry; apply app_nil_r|]. rewrite IH. cbn. rewrite <- app_assoc. reflexivity. }
  apply get_added with (ls := ls); [apply E| |auto]. assert ((Z.to_nat i < List.length ls)%nat) by (apply nth_error_Some; congruence). unfold Zlen. lia.
Qed.
Lemma get_no_layer : forall {G} (g : G) (ls : list (layer T)) i, ~ 0 <= i < Zlen ls -> net_get (fold_left net_add ls (net_new g)) i = UB.
Proof.
  intros G g ls i Hi. assert (E : forall ls (n : net T G), n_layers (fold_left net_add ls n) = n_layers n ++ ls).
  { clear. intros ls. induction ls as [|a ls IH]; intros n; cbn [fold_left]; [symmetry; apply app_nil_r|]. rewrite IH. cbn. rewrite <- app_assoc. reflexivity. }
  unfold net_get. rewrite E. cbn. apply rd_ub. lia.
Qed.

(** ** Pooling with one argument *)
Lemma extent_same : forall s d, 0 < s <= d -> pool_extent s s d = d / s.
Proof. intros s d H. unfold pool_extent. replace (d - s) with (d + (-1) * s) by ring. rewrite Z.div_add by lia. lia. Qed.
Lemma In_window_same : forall s b c i j p, 0 < s -> In p (window s s [b; c; i; j]) <-> exists y z, p = [b; c; y; z] /\ y / s = i /\ z / s = j.
Proof.
  intros s b c i j p Hs. unfold window. rewrite in_map_iff. split.
  - intros (k & <- & HK). apply In_all_indices in HK; [|repeat constructor; lia]. destruct k as [|u [|v [|]]]; try (pose proof (in_range_length _ _ HK); discriminate).
    rewrite !in_range_cons in HK. destruct HK as (H1 & H2 & _). unfold window_pos. cbn [nth]. do 2 eexists. split; [reflexivity|].
    split; [rewrite Z.div_add_l by lia; rewrite Z.div_small by lia; lia|rewrite Z.div_add_l by lia; rewrite Z.div_small by lia; lia].
  - intros (y & z & -> & <- & <-). exists [y mod s; z mod s]. split.
    + unfold window_pos. cbn [nth]. rewrite (Z.mul_comm (y / s)), (Z.mul_comm (z / s)), <- !Z.div_mod by lia. reflexivity.
    + apply In_all_indices; [repeat constructor; lia|]. pose proof (Z.mod_pos_bound y s Hs). pose proof (Z.mod_pos_bound z s Hs). apply in_range2; lia.
Qed.
Lemma pool1 : forall s (x : tensor T) n c h w, good x -> tdims x = [n; c; h; w] -> comparable x -> 0 < s -> s <= h -> s <= w ->
  exists y, snd (pool_forward (pool_new1 s) x) = Ok y /\ good y /\ tdims y = [n; c; h / s; w / s] /\
    forall o, in_range (tdims y) o -> exists p, first_max (el x) (window s s o) p /\ el y o = el x p.
Proof.
  intros s x n c h w Gx Ex HC Hs Hh Hw. destruct (pool_forward_max (pool_new1 s) x n c h w) as (y & E & Gy & Ey & H); auto.
  exists y. rewrite E. cbn [po_size po_stride pool_new1 pool_new] in *. rewrite !extent_same in Ey by lia. do 3 (split; [auto|]).
  intros o HO. destruct (H o HO) as (_ & p & HP). exists p. auto.
Qed.
Lemma pool1_tiles : forall s n c h w b ch y z, 0 < s -> 0 <= b < n -> 0 <= ch < c -> 0 <= y < h / s * s -> 0 <= z < w / s * s ->
  exists o, in_range [n; c; h / s; w / s] o /\ In [b; ch; y; z] (window s s o) /\
    forall o', in_range [n; c; h / s; w / s] o' -> In [b; ch; y; z] (window s s o') -> o' = o.
Proof.
  intros s n c h w b ch y z Hs Hb Hc Hy Hz. exists [b; ch; y / s; z / s].
  split. { apply in_range4; auto; (split; [apply Z.div_pos; lia|apply Z.div_lt_upper_bound; lia]). }
  split. { apply In_window_same; auto. do 2 eexists. auto. }
  intros o HO HI. pose proof (in_range_length _ _ HO) as HL. destruct o as [|b' [|c' [|i [|j [|]]]]]; try discriminate HL.
  apply In_window_same in HI; auto. destruct HI as (y' & z' & E & <- & <-). injection E as <- <- <- <-. reflexivity.
Qed.

(** ** Texts *)
Lemma sview_text_ok : forall (v : sview T) own, sv_shape v = shape_of own -> Zlen own <= two64 -> Zlen (tdims (sv_orig v)) <= two64 ->
  sview_text v = Ok (view_text "SliceView" own (tdims (sv_orig v))).
Proof. intros v own E H1 H2. unfold sview_text, view_text. rewrite !shape_text_ok by (auto; rewrite E; auto). rewrite E. reflexivity. Qed.
Lemma bview_text_ok : forall (t : tensor T) r v, bview_new t (shape_of r) = Ok v -> Zlen r <= two64 -> Zlen (tdims t) <= two64 ->
  bview_text v = Ok (view_text "BroadcastView" r (tdims t)).
Proof.
  intros t r v E H1 H2. unfold bview_new in E. apply bind_ok_inv in E. destruct E as (ok & _ & E). destruct ok; [|discriminate]. cbn [negb] in E. apply bind_ok_inv in E. destruct E as (f & _ & E).
  injection E as <-. unfold bview_text, view_text. cbn [bv_shape bv_orig]. rewrite !shape_text_ok by auto. reflexivity.
Qed.
End A.

Lemma concat_ok : forall a b, pos_dims a -> pos_dims b -> prod a * prod b < two64 ->
  shape_concat (shape_of a) (shape_of b) = Ok (shape_of (a ++ b)) /\ ssize (shape_of (a ++ b)) = ssize (shape_of a) * ssize (shape_of b).
Proof.
  intros a b [Ha Fa] [Hb Fb] HM. unfold shape_concat. cbn [dims shape_of ssize]. rewrite prod_app. split; [|reflexivity].
  apply new_shape_ok; [|rewrite prod_app; auto]. split; [destruct a; [tauto|discriminate]|apply Forall_app; auto].
Qed.
Lemma concat_ravel : forall a b i j, in_range a i -> in_range b j -> in_range (a ++ b) (i ++ j) /\ ravel (a ++ b) (i ++ j) = ravel a i * prod b + ravel b j.
Proof.
  induction a as [|d a IH]; intros b i j HI HJ.
  - apply in_range_length in HI. destruct i; [|discriminate]. cbn. split; [auto|reflexivity].
  - destruct i as [|x i]; [apply in_range_length in HI; discriminate|]. rewrite in_range_cons in HI. destruct HI as (Hx & HI). destruct (IH b i j HI HJ) as (R & E). split.
    + cbn [app]. rewrite in_range_cons. auto.
    + cbn [app ravel]. rewrite E, prod_app. ring.
Qed.
