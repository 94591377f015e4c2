(** * The parallel loops of im2col and col2im (C69) *)
From Verif Require Import Base Scalar Types Spec M_Shape M_Tensor M_Par M_Col SpecNN SpecCol SpecPar
  L_Index L_Shape L_Bcast L_Tensor L_Glue L_Nest L_Matmul L_Conv L_Col L_Par.
Local Open Scope Z_scope.

Section S.
Context {T : Type} {S : Scalar T}.
Implicit Types m : mem T.

(** ** Loops inside an iteration *)
Lemma within_each : forall A W n (f : Z -> prog T -> prog T) k, (forall i k, 0 <= i < n -> within A W k -> within A W (f i k)) -> within A W k -> within A W (each n f k).
Proof.
  intros A W n f k Hf Hk. unfold each. assert (HI : forall i, In i (zrange 0 n) -> 0 <= i < n) by (intros i Hi; apply In_zrange in Hi; lia).
  induction (zrange 0 n) as [|i l IH]; cbn [fold_right]; [exact Hk|]. apply Hf; [apply HI; left; auto|]. apply IH. intros; apply HI; right; auto.
Qed.
Lemma each_sim : forall {St} (Q : mem T -> St -> Prop) n f (body : Z -> St -> outcome St) m s s' k,
  (forall i m s s' k, 0 <= i < n -> Q m s -> body i s = Ok s' -> exists m', exec (f i k) m = exec k m' /\ Q m' s') -> Q m s -> for_ 0 n body s = Ok s' ->
  exists m', exec (each n f k) m = exec k m' /\ Q m' s'.
Proof.
  intros St Q n f body m s s' k Hf HQ E. unfold each, for_ in *. assert (HI : forall i, In i (zrange 0 n) -> 0 <= i < n) by (intros i Hi; apply In_zrange in Hi; lia).
  revert m s HQ E. induction (zrange 0 n) as [|i l IH]; intros m s HQ E; cbn [foldM fold_right] in *.
  - injection E as <-. exists m. auto.
  - apply bind_ok_inv in E. destruct E as (s1 & E1 & E). destruct (Hf i m s s1 (fold_right f k l)) as (m1 & X1 & Q1); auto; [apply HI; left; auto|].
    destruct (IH ltac:(intros; apply HI; right; auto) m1 s1 Q1 E) as (m2 & X2 & Q2). exists m2. split; [congruence|auto].
Qed.
Lemma exec_all_app : forall (a b : list (prog T)) m, exec_all (a ++ b) m = exec_all b (exec_all a m).
Proof. induction a; intros; cbn [app exec_all]; auto. Qed.
Lemma grid_sim : forall {St} (Q : mem T -> St -> Prop) n ic (iter : Z -> Z -> prog T) (body : Z -> Z -> St -> outcome St) m s s',
  (forall i c m s s', 0 <= i < n -> 0 <= c < ic -> Q m s -> body i c s = Ok s' -> Q (exec (iter i c) m) s') -> Q m s ->
  for_ 0 n (fun i => for_ 0 ic (body i)) s = Ok s' -> Q (exec_all (flat_map (fun i => map (iter i) (zrange 0 ic)) (zrange 0 n)) m) s'.
Proof.
  intros St Q n ic iter body m s s' H HQ E. unfold for_ at 1 in E. assert (HI : forall i, In i (zrange 0 n) -> 0 <= i < n) by (intros i Hi; apply In_zrange in Hi; lia).
  revert m s HQ E. induction (zrange 0 n) as [|i l IH]; intros m s HQ E; cbn [foldM flat_map exec_all] in *; [injection E as <-; auto|].
  apply bind_ok_inv in E. destruct E as (s1 & E1 & E). rewrite exec_all_app. apply (IH ltac:(intros; apply HI; right; auto) _ s1); auto.
  apply (exec_sim Q (iter i) (body i) _ m s s1); auto. intros c m0 s0 s0' Hc. apply In_zrange in Hc. apply H; [apply HI; left; auto|lia].
Qed.
Lemma holds_put : forall m a l i (x : T), 0 <= i < Zlen l -> holds m a l -> holds (mput m a i x) a (upd l (Z.to_nat i) x).
Proof. intros m a l i x Hi H. rewrite <- (map_id (upd _ _ _)). rewrite <- (map_id l) in H. apply (holds_upd (fun y => y) m a l i x Hi H). Qed.

(** ** Run by one thread *)
Lemma im2col_seq : forall n ic h w oh ow kh kw stride pad dil (x : tensor T) s' r m, holds m 0 (tdata x) -> holds m 1 (tdata (t_new s' : tensor T)) ->
  for_ 0 n (fun i => for_ 0 ic (fun c => for_ 0 kh (fun p => for_ 0 kw (fun q => for_ 0 oh (fun y => for_ 0 ow (fun z out =>
    ih <- col_at y stride p dil pad ;; iw <- col_at z stride q dil pad ;;
    let row := c * kh * kw + p * kw + q in let col := (i * oh + y) * ow + z in
    if (0 <=? ih) && (ih <? h) && (0 <=? iw) && (iw <? w)
    then k <- col_flat (sstride (tshape x)) i c ih iw ;; v <- t_get x k ;; t_at_set out [row; col] v
    else t_at_set out [row; col] zero)))))) (t_new s') = Ok r ->
  holds (exec_all (im2col_loop (tshape x) s' kh kw stride pad dil n ic h w oh ow) m) 1 (tdata r).
Proof.
  intros n ic h w oh ow kh kw stride pad dil x s' r m H0 H1 E.
  set (Q := fun m (o : tensor T) => holds m 0 (tdata x) /\ holds m 1 (tdata o) /\ tshape o = s').
  unfold im2col_loop. assert (X : Q (exec_all (flat_map (fun i => map (im2col_iter (tshape x) s' kh kw stride pad dil h w oh ow i) (zrange 0 ic)) (zrange 0 n)) m) r); [|exact (proj1 (proj2 X))].
  revert E. apply grid_sim; [|unfold Q; auto]. clear m H0 H1. intros i c m o r' Hi Hc HQ E. unfold im2col_iter.
  eapply (each_sim Q) in E; [|clear m o r' HQ E|exact HQ].
  { destruct E as (m' & E & HQ'). rewrite E. exact HQ'. }
  intros p m o r' k Hp HQ E. eapply (each_sim Q) in E; [exact E|clear m o r' HQ E|exact HQ].
  intros q m o r' k' Hq HQ E. eapply (each_sim Q) in E; [exact E|clear m o r' HQ E|exact HQ].
  intros y m o r' k'' Hy HQ E. eapply (each_sim Q) in E; [exact E|clear m o r' HQ E|exact HQ].
  intros z m o r' k3 Hz (A0 & A1 & As) E. cbv beta in E. apply bind_ok_inv in E. destruct E as (ih & Ey & E). apply bind_ok_inv in E. destruct E as (iw & Ez & E). rewrite Ey, Ez.
  assert (HW : forall (v : T), t_at_set o [c * kh * kw + p * kw + q; (i * oh + y) * ow + z] v = Ok r' ->
    exists to, compute_flat_index s' [c * kh * kw + p * kw + q; (i * oh + y) * ow + z] = Ok to /\ Q (mput m 1 to v) r').
  { intros v EW. unfold t_at_set in EW. rewrite As in EW. apply bind_ok_inv in EW. destruct EW as (to & ET & EW). exists to. split; [exact ET|]. unfold t_set in EW. apply bind_ok_inv in EW. destruct EW as (d & EW & ED). injection ED as <-.
    apply wr_ok_inv in EW. destruct EW as (Hto & ->). split; [|split; [apply holds_put; auto|exact As]]. apply (holds_same m); [|exact A0]. intros j. apply mput_neq. intros (? & _). discriminate. }
  cbv zeta in E. destruct (_ && _).
  - apply bind_ok_inv in E. destruct E as (from & EF & E). apply bind_ok_inv in E. destruct E as (v & EV & E). destruct (HW v E) as (to & -> & HQ). rewrite EF. cbn [exec]. unfold t_get in EV. apply (rd_ok_inv v) in EV. destruct EV as (HF & EV).
    rewrite (A0 v from HF), <- EV. exists (mput m 1 to v). auto.
  - destruct (HW zero E) as (to & -> & HQ). cbn [exec]. exists (mput m 1 to zero). auto.
Qed.
Lemma col2im_seq : forall n ic h w oh ow kh kw stride pad dil (x : tensor T) s' r m, holds m 0 (tdata x) -> holds m 1 (tdata (t_fill s' zero : tensor T)) ->
  for_ 0 n (fun i => for_ 0 ic (fun c => for_ 0 kh (fun p => for_ 0 kw (fun q => for_ 0 oh (fun y => for_ 0 ow (fun z out =>
    ih <- col_at y stride p dil pad ;; iw <- col_at z stride q dil pad ;;
    let row := c * kh * kw + p * kw + q in let col := (i * oh + y) * ow + z in
    if (0 <=? ih) && (ih <? h) && (0 <=? iw) && (iw <? w)
    then k <- col_flat (sstride (tshape out)) i c ih iw ;; v <- t_at x [row; col] ;; o <- t_get out k ;; t_set out k (s_add o v)
    else Ok out)))))) (t_fill s' zero) = Ok r ->
  holds (exec_all (col2im_loop (tshape x) s' kh kw stride pad dil n ic h w oh ow) m) 1 (tdata r).
Proof.
  intros n ic h w oh ow kh kw stride pad dil x s' r m H0 H1 E.
  set (Q := fun m (o : tensor T) => holds m 0 (tdata x) /\ holds m 1 (tdata o) /\ tshape o = s').
  unfold col2im_loop. assert (X : Q (exec_all (flat_map (fun i => map (col2im_iter (tshape x) s' kh kw stride pad dil h w oh ow i) (zrange 0 ic)) (zrange 0 n)) m) r); [|exact (proj1 (proj2 X))].
  revert E. apply grid_sim; [|unfold Q; auto]. clear m H0 H1. intros i c m o r' Hi Hc HQ E. unfold col2im_iter.
  eapply (each_sim Q) in E; [|clear m o r' HQ E|exact HQ].
  { destruct E as (m' & E & HQ'). rewrite E. exact HQ'. }
  intros p m o r' k Hp HQ E. eapply (each_sim Q) in E; [exact E|clear m o r' HQ E|exact HQ].
  intros q m o r' k' Hq HQ E. eapply (each_sim Q) in E; [exact E|clear m o r' HQ E|exact HQ].
  intros y m o r' k'' Hy HQ E. eapply (each_sim Q) in E; [exact E|clear m o r' HQ E|exact HQ].
  intros z m o r' k3 Hz (A0 & A1 & As) E. cbv beta in E. apply bind_ok_inv in E. destruct E as (ih & Ey & E). apply bind_ok_inv in E. destruct E as (iw & Ez & E). rewrite Ey, Ez.
  cbv zeta in E. destruct (_ && _).
  - rewrite As in E. apply bind_ok_inv in E. destruct E as (to & ET & E). apply bind_ok_inv in E. destruct E as (v & EV & E). apply bind_ok_inv in E. destruct E as (u & EU & E). rewrite ET.
    unfold t_at in EV. apply bind_ok_inv in EV. destruct EV as (from & EF & EV). rewrite EF. cbn [exec]. apply (rd_ok_inv v) in EV. destruct EV as (HF & EV). rewrite (A0 v from HF), <- EV.
    unfold t_get in EU. apply (rd_ok_inv u) in EU. destruct EU as (HT & EU). rewrite (A1 u to HT), <- EU. exists (mput m 1 to (s_add u v)). split; [reflexivity|].
    unfold t_set in E. apply bind_ok_inv in E. destruct E as (d & EW & ED). injection ED as <-. apply wr_ok_inv in EW. destruct EW as (Hto & ->).
    split; [|split; [apply holds_put; auto|exact As]]. apply (holds_same m); [|exact A0]. intros j. apply mput_neq. intros (? & _). discriminate.
  - injection E as <-. exists m. unfold Q. auto.
Qed.

(** ** Which iteration owns which cell *)
Section Fit.
Variables n ic h w kh kw stride pad dil : Z.
Hypothesis HF : patches_fit n ic h w kh kw stride pad dil.
Hypothesis Hn : 0 < n. Hypothesis Hic : 0 < ic. Hypothesis Hh : 0 < h. Hypothesis Hw : 0 < w.
Local Notation oh := (conv_extent stride pad dil h kh).
Local Notation ow := (conv_extent stride pad dil w kw).
Local Notation cells := [ic * (kh * kw); n * (oh * ow)].
(** Array 1 has [size] cells; the owner of a cell is [f] of its position. *)
Definition own_one (size : Z) (f : Z -> Z) (a j : Z) : option nat := if (a =? 1) && (0 <=? j) && (j <? size) then Some (Z.to_nat (f j)) else None.
Lemma own_one_in : forall size f j, 0 <= j < size -> own_one size f 1 j = Some (Z.to_nat (f j)).
Proof. intros size f j Hj. unfold own_one. destruct (Z.leb_spec 0 j), (Z.ltb_spec j size); try lia. reflexivity. Qed.
Lemma grid_owned : forall size f (iter : Z -> Z -> prog T),
  (forall i c, 0 <= i < n -> 0 <= c < ic -> within (fun a j => a = 0 \/ a = 1 /\ 0 <= j < size /\ f j = i * ic + c) (fun a j => a = 1 /\ 0 <= j < size /\ f j = i * ic + c) (iter i c)) ->
  owned_by (own_one size f) (flat_map (fun i => map (iter i) (zrange 0 ic)) (zrange 0 n)).
Proof.
  intros size f iter H. change (flat_map (fun i => map (iter i) (zrange 0 ic)) (zrange 0 n)) with (flat_map (fun i => map (fun c => iter i c) (zrange 0 ic)) (zrange 0 n)). rewrite grid_map by lia.
  intros q p E. apply nth_error_map_zrange in E. destruct E as (-> & Hq).
  assert (HM : forall (A A' W W' : Z -> Z -> Prop) (p : prog T), (forall a j, A a j -> A' a j) -> (forall a j, W a j -> W' a j) -> within A W p -> within A' W' p).
  { clear. intros A A' W W' p HA HW. induction p as [|a i k IH|a i x k IH]; cbn [within]; [auto| |].
    - intros (H1 & H2). split; auto.
    - intros (H1 & H2 & H3). auto. }
  set (z := Z.of_nat q) in *. assert (Ez : z / ic * ic + z mod ic = z) by (rewrite (Z.div_mod z ic) at 3; lia).
  pose proof (Z.mod_pos_bound z ic Hic) as Hm. assert (Hd : 0 <= z / ic < n) by (split; [apply Z.div_pos; lia|apply Z.div_lt_upper_bound; lia]).
  assert (HO : forall j, 0 <= j < size -> f j = z / ic * ic + z mod ic -> own_one size f 1 j = Some q).
  { intros j Hj Ej. rewrite own_one_in by auto. rewrite Ej, Ez. f_equal. unfold z. apply Nat2Z.id. }
  generalize (H (z / ic) (z mod ic) Hd Hm). apply HM.
  - intros a j [->|(-> & Hj & Ej)]; [left; reflexivity|right; auto].
  - intros a j (-> & Hj & Ej). auto.
Qed.
(** (image, channel) of a cell of the matrix, and of a cell of the images. *)
Definition of_cell (j : Z) : Z := let k := key_of n ic h w kh kw stride pad dil (unravel cells j) in nth 0 k 0 * ic + nth 1 k 0.
Definition of_pixel (j : Z) : Z := let k := unravel [n; ic; h; w] j in nth 0 k 0 * ic + nth 1 k 0.

Theorem im2col_par : forall (x : tensor T) m, good x -> tdims x = [n; ic; h; w] -> holds m 0 (tdata x) -> holds m 1 (tdata (t_new (shape_of cells) : tensor T)) ->
  let loop := im2col_loop (tshape x) (shape_of cells) kh kw stride pad dil n ic h w oh ow in
  exists r, im2col x kh kw stride pad dil = Ok r /\ tshape r = shape_of cells /\ schedule_independent loop m /\ forall m', final loop m m' -> holds m' 1 (tdata r).
Proof.
  intros x m Gx Ex H0 H1 loop. pose proof (im2col_ok n ic h w kh kw stride pad dil HF Hn Hic Hh Hw x Gx Ex) as E. pose proof E as E'.
  pose proof (sizes n ic h w kh kw stride pad dil HF Hn Hic Hh Hw) as (A & B & X & Y & X1 & Y1). pose proof HF as (K1 & K2 & Hs & Hp & Hdl & HA & HB & HM).
  destruct (extent_ok n ic h w kh kw stride pad dil HF h kh K1 Hh HA) as (EH & _ & PH). destruct (extent_ok n ic h w kh kw stride pad dil HF w kw K2 Hw HB) as (EW & _ & PW).
  assert (HP : pos_dims cells) by (apply pos2; auto). assert (HPM : prod cells <= INT_MAX) by (cbn [prod]; lia). assert (HP64 : prod cells < two64) by (unfold two64, INT_MAX in *; lia).
  assert (HO : owned_by (own_one (prod cells) of_cell) loop).
  { apply grid_owned. intros i c Hi Hc. unfold im2col_iter. apply within_each; [|exact I]. intros p k Hpp Hk. apply within_each; [|exact Hk]. clear k Hk. intros q k Hq Hk. apply within_each; [|exact Hk]. clear k Hk. intros y k Hy Hk. apply within_each; [|exact Hk]. clear k Hk. intros z k Hz Hk.
    rewrite PH, PW by auto.
    replace (c * kh * kw + p * kw + q) with (ravel [ic; kh; kw] [c; p; q]) by (cbn [ravel prod]; ring). replace ((i * oh + y) * ow + z) with (ravel [n; oh; ow] [i; y; z]) by (cbn [ravel prod]; ring).
    assert (HK : in_range [n; ic; kh; kw; oh; ow] [i; c; p; q; y; z]) by (repeat constructor; lia).
    destruct (cell_key n ic h w kh kw stride pad dil HF Hn Hic Hh Hw _ HK) as (HC & EC). unfold cell_of in HC, EC. cbn [nth] in HC, EC. rewrite flat_index_ok by auto.
    set (to := ravel cells _) in *. assert (Hto : 0 <= to < prod cells) by (apply ravel_bound; auto). assert (Eto : of_cell to = i * ic + c) by (unfold of_cell, to; rewrite unravel_ravel by auto; rewrite EC; reflexivity).
    destruct (_ && _); [|cbn [within]; auto 10]. destruct (col_flat _ _ _ _ _); try exact I. cbn [within]. split; [left; reflexivity|]. intros v. auto 10. }
  exists (patches n ic h w kh kw stride pad dil x). split; [exact E|]. split; [reflexivity|]. pose proof (owned_ok _ _ m HO) as HS. split; [exact HS|]. intros m' Hm'. destruct HS as (_ & _ & _ & HS).
  apply (holds_same (exec_all loop m)); [intros j; apply HS; auto|].
  unfold im2col in E. rewrite Ex in E. change (rd [n; ic; h; w] 0) with (Ok n) in E. change (rd [n; ic; h; w] 1) with (Ok ic) in E. change (rd [n; ic; h; w] 2) with (Ok h) in E. change (rd [n; ic; h; w] 3) with (Ok w) in E. cbn [bind] in E.
  rewrite EH, EW in E. cbn [bind] in E. assert (0 < kh * kw) by nia. assert (0 < oh * ow) by nia.
  rewrite chk32_ok in E by (unfold INT_MIN; nia). cbn [bind] in E. replace (ic * kh * kw) with (ic * (kh * kw)) in E by ring. rewrite chk32_ok in E by (unfold INT_MIN; nia). cbn [bind] in E.
  rewrite chk32_ok in E by (unfold INT_MIN; nia). cbn [bind] in E. replace (oh * ow * n) with (n * (oh * ow)) in E by ring. rewrite chk32_ok in E by (unfold INT_MIN; nia). cbn [bind] in E.
  rewrite new_shape_ok_int in E by auto. cbn [bind] in E. apply im2col_seq; auto.
Qed.
Theorem col2im_par : forall (c : tensor T) m, n * (ic * (h * w)) <= INT_MAX -> good c -> tdims c = cells -> holds m 0 (tdata c) -> holds m 1 (tdata (t_fill (shape_of [n; ic; h; w]) zero : tensor T)) ->
  let loop := col2im_loop (tshape c) (shape_of [n; ic; h; w]) kh kw stride pad dil n ic h w oh ow in
  exists r, col2im c (shape_of [n; ic; h; w]) kh kw stride pad dil = Ok r /\ schedule_independent loop m /\ forall m', final loop m m' -> holds m' 1 (tdata r).
Proof.
  intros x m HMx Gx Ex H0 H1 loop. pose proof (col2im_ok n ic h w kh kw stride pad dil HF Hn Hic Hh Hw x HMx Gx Ex) as E.
  pose proof (sizes n ic h w kh kw stride pad dil HF Hn Hic Hh Hw) as (A & B & X & Y & X1 & Y1). pose proof HF as (K1 & K2 & Hs & Hp & Hdl & HA & HB & HM).
  destruct (extent_ok n ic h w kh kw stride pad dil HF h kh K1 Hh HA) as (EH & _ & PH). destruct (extent_ok n ic h w kh kw stride pad dil HF w kw K2 Hw HB) as (EW & _ & PW).
  set (o0 := t_new (shape_of [n; ic; h; w]) : tensor T). assert (HPX : pos_dims [n; ic; h; w]) by auto with idx. assert (HPM : prod [n; ic; h; w] <= INT_MAX) by (cbn [prod]; lia).
  assert (G0 : good o0) by (apply good_new; auto).
  assert (HO : owned_by (own_one (prod [n; ic; h; w]) of_pixel) loop).
  { apply grid_owned. intros i c Hi Hc. unfold col2im_iter. apply within_each; [|exact I]. intros p k Hpp Hk. apply within_each; [|exact Hk]. clear k Hk. intros q k Hq Hk. apply within_each; [|exact Hk]. clear k Hk. intros y k Hy Hk. apply within_each; [|exact Hk]. clear k Hk. intros z k Hz Hk.
    rewrite PH, PW by auto. destruct (_ && _) eqn:EI; [|exact Hk]. 
    apply andb_prop in EI. destruct EI as (EI & E4). apply andb_prop in EI. destruct EI as (EI & E3). apply andb_prop in EI. destruct EI as (E1 & E2).
    assert (HI : in_range [n; ic; h; w] [i; c; y * stride + p * dil - pad; z * stride + q * dil - pad]) by (apply in_range4; auto; lia).
    pose proof (flat_ok n ic h w o0 i c (y * stride + p * dil - pad) (z * stride + q * dil - pad) G0 eq_refl HI) as EF. change (sstride (tshape o0)) with (sstride (shape_of [n; ic; h; w])) in EF. rewrite EF. change (tdims o0) with [n; ic; h; w].
    set (to := ravel [n; ic; h; w] _) in *. assert (Hto : 0 <= to < prod [n; ic; h; w]) by (apply ravel_bound; auto). assert (Eto : of_pixel to = i * ic + c) by (unfold of_pixel, to; rewrite unravel_ravel by auto; reflexivity).
    destruct (compute_flat_index _ _); try exact I. cbn [within]. split; [left; reflexivity|]. intros v. split; [right; auto|]. intros u. auto 10. }
  eexists. split; [exact E|]. pose proof (owned_ok _ _ m HO) as HS. split; [exact HS|]. intros m' Hm'. destruct HS as (_ & _ & _ & HS).
  apply (holds_same (exec_all loop m)); [intros j; apply HS; auto|].
  unfold col2im in E. cbn [dims shape_of] in E. change (rd [n; ic; h; w] 0) with (Ok n) in E. change (rd [n; ic; h; w] 1) with (Ok ic) in E. change (rd [n; ic; h; w] 2) with (Ok h) in E. change (rd [n; ic; h; w] 3) with (Ok w) in E. cbn [bind] in E.
  rewrite EH, EW in E. cbn [bind] in E. fold (shape_of [n; ic; h; w]) in E. apply col2im_seq; auto.
Qed.
End Fit.
End S.
