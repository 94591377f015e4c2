(** * Batches are predicted row by row: lemmas for C107 *)
From Verif Require Import Base Scalar Types Spec SpecNN SpecLayers M_Shape M_Tensor M_Adv M_Act M_Layers M_Reg M_Opt M_Net SpecNet SpecBatch
  L_Index L_Shape L_Tensor L_Glue L_Nest L_Matmul L_AdvR L_Act L_ActR L_Layers L_Loss L_Conv L_Pool L_Pool2 L_BN L_Drop.

Section S.
Context {T : Type} {S : Scalar T} {G : Type} {HR : Rng T G}.

Lemma Zlen_pos : forall (sel : list Z), sel <> [] -> 0 < Zlen sel.
Proof. intros [|a r] H; [congruence|]. rewrite Zlen_cons. pose proof (Zlen_nonneg r). lia. Qed.
Lemma rows_nth : forall n sel i, rows_of n sel -> 0 <= i < Zlen sel -> 0 <= znth 0 sel i < n.
Proof.
  intros n sel i (_ & HF) Hi. rewrite Forall_forall in HF. apply HF. unfold znth. destruct (Z.ltb_spec i 0); [lia|]. apply nth_In. unfold Zlen in Hi. lia.
Qed.
Section Gather.
Variables (sel : list Z) (N : Z).
Hypothesis HS : rows_of N sel.
Lemma gather_dims : forall (x : tensor T) ds, tdims x = N :: ds -> tdims (gather sel x) = Zlen sel :: ds.
Proof. intros x ds E. unfold gather. rewrite E. reflexivity. Qed.
Lemma gather_good : forall (x : tensor T) ds, good x -> tdims x = N :: ds -> prod (Zlen sel :: ds) <= INT_MAX -> good (gather sel x).
Proof.
  intros x ds Hg E HM. unfold gather. rewrite E. cbn [tl]. apply good_tensor_of; [|auto]. pose proof (good_dims x Hg) as HF. rewrite E in HF. inversion HF; subst.
  split; [discriminate|]. constructor; [apply Zlen_pos, HS|auto].
Qed.
Lemma el_gather : forall (x : tensor T) ds i idx, tdims x = N :: ds -> 0 <= i < Zlen sel -> in_range ds idx -> el (gather sel x) (i :: idx) = el x (znth 0 sel i :: idx).
Proof. intros x ds i idx E Hi HI. unfold gather. rewrite E. cbn [tl]. rewrite el_tensor_of by (constructor; auto). reflexivity. Qed.
Lemma gather_of : forall ds (f : list Z -> T), Forall (fun d => 0 < d) ds -> 
  gather sel (tensor_of (N :: ds) f) = tensor_of (Zlen sel :: ds) (fun idx => f (znth 0 sel (hd 0 idx) :: tl idx)).
Proof.
  intros ds f HF. unfold gather. change (tdims (tensor_of (N :: ds) f)) with (N :: ds). cbn [tl]. apply tensor_of_ext; [constructor; [apply Zlen_pos, HS|auto]|].
  intros idx HI. inversion HI as [|? i ? r Hi Hr]; subst. cbn [hd tl]. rewrite el_tensor_of; [reflexivity|]. constructor; [apply rows_nth; auto|auto].
Qed.
End Gather.

Lemma flat_any : forall (l : flatten) (x : tensor T) b c ds, good x -> tdims x = b :: c :: ds -> exists l', flatten_forward l x = (l', Ok (in_shape [b; prod (c :: ds)] x)).
Proof.
  intros l x b c ds Hg E. destruct ds as [|d ds].
  - exists l. unfold flatten_forward, rank. fold (tdims x). rewrite E. change (Zlen [b; c] <? 2) with false. change (Zlen [b; c] =? 2) with true. cbv iota.
    f_equal. f_equal. cbn [prod]. rewrite Z.mul_1_r. rewrite <- E. symmetry. apply in_shape_same. auto.
  - eexists. apply flatten_forward_ok; auto. discriminate.
Qed.
Lemma in_shape_def : forall (t : tensor T) ds, in_shape ds t = tensor_of ds (fun idx => znth zero (tdata t) (ravel ds idx)).
Proof. intros. reflexivity. Qed.

(** ** What a layer does to one row *)
Definition outD (l : layer T) (ds : list Z) : list Z :=
  match l with
  | LFC l => tl (tdims (fc_w l))
  | LFlat _ => [prod ds]
  | LConv l => [cv_oc l; nth 1 ds 0 - cv_kh l + 1; nth 2 ds 0 - cv_kw l + 1]
  | LPool l => [nth 0 ds 0; pool_extent (po_size l) (po_stride l) (nth 1 ds 0); pool_extent (po_size l) (po_stride l) (nth 2 ds 0)]
  | _ => ds
  end.
Definition rowF (l : layer T) (ds r : list Z) (v : list Z -> T) : T :=
  match l with
  | LFC l => affine (hd 0 ds) (fc_w l) (fc_b l) (fun p => v [p]) (nth 0 r 0)
  | LAct l => match al_act l with Softmax => softmax_of (map v (all_indices ds)) (v r) | a => act_el a (v r) end
  | LFlat _ => v (unravel ds (nth 0 r 0))
  | LConv l => s_add (fsum (map (fn2 (fun p q => s_mul (v [0; nth 1 r 0 + p; nth 2 r 0 + q]) (el (cv_w l) [nth 0 r 0; 0; p; q]))) (all_indices [cv_kh l; cv_kw l]))) (el (cv_b l) [nth 0 r 0; 0])
  | LPool l => fst (fst (fold_left (keep (fun k => v [nth 0 r 0; nth 1 r 0 * po_stride l + nth 0 k 0; nth 2 r 0 * po_stride l + nth 1 k 0])
      (fun k => (nth 1 r 0 * po_stride l + nth 0 k 0, nth 2 r 0 * po_stride l + nth 1 k 0))) (all_indices [po_size l; po_size l]) (s_neg s_inf, 0, 0)))
  | LDrop _ => v r
  | LBN l => normalised (bn_eps l) (feat (bn_rmean l) (nth 0 r 0)) (feat (bn_rvar l) (nth 0 r 0)) (feat (bn_gamma l) (nth 0 r 0)) (feat (bn_beta l) (nth 0 r 0)) (v r)
  end.
Definition by_rows (l : layer T) (n : Z) (ds : list Z) (x : tensor T) : tensor T :=
  tensor_of (n :: outD l ds) (fun idx => rowF l ds (tl idx) (fun j => el x (hd 0 idx :: j))).

Lemma feat_eq : forall f ds idx, featured f ds -> nth 1 idx 0 = nth 0 (tl idx) 0.
Proof. intros f ds idx _. destruct idx as [|a [|b r]]; reflexivity. Qed.
Lemma good_tail : forall (x : tensor T) n ds, good x -> tdims x = n :: ds -> 0 < n /\ Forall (fun d => 0 < d) ds /\ n * prod ds <= INT_MAX.
Proof.
  intros x n ds Hg E. pose proof (good_dims x Hg) as HF. pose proof (good_max x Hg) as HM. rewrite E in HF, HM. inversion HF; subst. auto.
Qed.
Lemma layer_rows : forall n ds l D (x : tensor T) (g : G), evaluates (n :: ds) l D -> good x -> tdims x = n :: ds ->
  D = n :: outD l ds /\ good (by_rows l n ds x) /\ exists l', layer_forward l x g = (l', g, Ok (by_rows l n ds x)).
Proof.
  intros n ds l D x g HE Hg Ex. destruct (good_tail x n ds Hg Ex) as (Hn & HF & HM).
  inversion HE as [n' k o l' W1 W2 W3 W4 HO E1 E2 E3|ds0 l' HX E1 E2 E3|b c ds0 l' E1 E2 E3|n' h w l' W1 W2 W3 W4 H1 H2 HO E1 E2 E3|n' c h w l' H1 H2 H3 H4 H5 E1 E2 E3|ds0 l' HT E1 E2 E3|f ds0 l' HB HT HFe E1 E2 E3]; subst; unfold by_rows; cbn [outD layer_forward].
  - rewrite W2. cbn [tl]. destruct (dims2_pos x n k Hg Ex) as (_ & Hk & _). destruct (dims2_pos _ k o W1 W2) as (_ & Ho & _).
    split; [reflexivity|]. split; [apply good_tensor_of; [auto with idx|cbn [prod]; lia]|].
    rewrite (fc_forward_2 l' k o x n (conj W1 (conj W2 (conj W3 W4))) Hg Ex HO). unfold lift. cbn [fst snd]. eexists. f_equal. f_equal.
  - split; [reflexivity|]. split; [apply good_tensor_of; [rewrite <- Ex; apply good_pos; auto|rewrite <- Ex; apply good_max; auto]|].
    unfold lift, act_forward. cbn [fst snd]. eexists. f_equal. cbn [rowF]. assert (NS : al_act l' = Softmax \/ al_act l' <> Softmax) by (destruct (al_act l'); auto; right; discriminate). destruct NS as [EA|NS].
    2: { rewrite act_fwd_el, Ex by auto. f_equal. apply tensor_of_ext; [constructor; auto|]. intros idx HI. inversion HI as [|? i ? r Hi Hr]; subst. cbn [hd tl]. destruct (al_act l'); congruence. }
    rewrite EA in *.
    cbn [act_fwd]. specialize (HX eq_refl). destruct ds as [|d ds]; [cbn in HX; lia|]. rewrite (softmax_fwd_ok x n (d :: ds)) by (auto; discriminate). rewrite Ex. f_equal.
  - split; [reflexivity|]. inversion HF as [|? ? Hc HF0]; subst. pose proof (prod_pos _ HF) as HP.
    split; [apply good_tensor_of; [split; [discriminate|constructor; [auto|constructor; [auto|constructor]]]|cbn [prod] in *; lia]|].
    destruct (flat_any l' x n c ds0 Hg Ex) as (l2 & E). rewrite E. unfold lift. cbn [fst snd]. eexists. f_equal. f_equal. unfold in_shape.
    apply tensor_of_ext; [constructor; [auto|constructor; [auto|constructor]]|]. intros idx HI. apply in_range_2 in HI. destruct HI as (i & j & -> & Hi & Hj).
    cbn [rowF hd tl nth]. unfold el. rewrite Ex. f_equal. rewrite ravel2. change (ravel (n :: c :: ds0) (i :: unravel (c :: ds0) j)) with (i * prod (c :: ds0) + ravel (c :: ds0) (unravel (c :: ds0) j)). rewrite ravel_unravel by auto. reflexivity.
  - destruct (dims4_pos x _ _ _ _ Hg Ex) as (_ & Hic & Hh & Hw & HMx). destruct (dims4_pos _ _ _ _ _ W1 W2) as (Hoc & _ & Hkh & Hkw & HMw).
    cbn [nth]. split; [reflexivity|]. split; [apply good_4; auto; lia|].
    rewrite (conv_forward_ok l' x n h w (conj W1 (conj W2 (conj W3 W4))) Hg Ex H1 H2 HO). unfold lift. cbn [fst snd]. eexists. f_equal. f_equal.
  - destruct (pool_sizes l' x n c h w Hg Ex H2 H3 H4 H5) as (Pn & Pc & Poh & Pow & HMp & MH & MW).
    cbn [nth]. split; [reflexivity|]. split; [apply good_4; auto; lia|].
    rewrite (pool_forward_any l' x n c h w) by auto. unfold lift. cbn [fst snd]. eexists. f_equal. f_equal.
    apply tensor_of_ext; [apply pos_forall, pos4; lia|]. intros idx HI. pose proof HI as HI'. apply in_range_4 in HI'. destruct HI' as (i & o & y & z & -> & _).
    unfold value. cbn [nth]. rewrite (find_max_fold l' x n c h w) by auto. cbn [rowF hd tl nth]. unfold window_pos. cbn [nth].
    destruct (fold_left _ _ _) as ((v & p) & q). reflexivity.
  - split; [reflexivity|]. split; [apply good_tensor_of; [rewrite <- Ex; apply good_pos; auto|rewrite <- Ex; apply good_max; auto]|].
    rewrite dropout_eval by auto. eexists. f_equal. f_equal. rewrite <- (in_shape_same x Hg) at 1. unfold in_shape. rewrite Ex. apply tensor_of_ext; [constructor; auto|].
    intros idx HI. inversion HI as [|? i ? r Hi Hr]; subst. cbn [rowF hd tl]. unfold el. rewrite Ex. reflexivity.
  - split; [reflexivity|]. split; [apply good_tensor_of; [rewrite <- Ex; apply good_pos; auto|rewrite <- Ex; apply good_max; auto]|].
    destruct (bn_rows_ready f l' HB) as (HRd & PM & PV). rewrite (bn_forward_eval f l' x) by (auto; rewrite Ex; auto). unfold lift. cbn [fst snd]. eexists. f_equal. f_equal.
    unfold bn_out. rewrite Ex. apply tensor_of_ext; [constructor; auto|]. intros idx HI. cbn [rowF]. rewrite (feat_eq f _ idx HFe). inversion HI; reflexivity.
Qed.

Lemma softmax_ext : forall (u v : list Z -> T) is r, (forall j, In j is -> u j = v j) -> u r = v r -> softmax_of (map u is) (u r) = softmax_of (map v is) (v r).
Proof. intros u v is r H E. rewrite E. rewrite (map_ext_in u v is H). reflexivity. Qed.
Lemma keep_ext : forall {A} (u v : A -> T) pos (is : list A) st, (forall a, In a is -> u a = v a) -> fold_left (keep u pos) is st = fold_left (keep v pos) is st.
Proof.
  intros A u v pos is. induction is as [|a is IH]; intros st H; [reflexivity|]. cbn [fold_left]. rewrite IH by (intros; apply H; right; auto).
  f_equal. destruct st as ((m & p) & q). unfold keep. rewrite (H a) by (left; auto). reflexivity.
Qed.
Lemma rowF_ext : forall n ds l D r (u v : list Z -> T), 0 < n -> Forall (fun d => 0 < d) ds -> evaluates (n :: ds) l D -> in_range (outD l ds) r -> (forall j, in_range ds j -> u j = v j) -> rowF l ds r u = rowF l ds r v.
Proof.
  intros n ds l D r u v Hn HF HE HI HV.
  inversion HE as [n' k o l' W1 W2 W3 W4 HO E1 E2 E3|ds0 l' HX E1 E2 E3|b c ds0 l' E1 E2 E3|n' h w l' W1 W2 W3 W4 H1 H2 HO E1 E2 E3|n' c h w l' H1 H2 H3 H4 H5 E1 E2 E3|ds0 l' HT E1 E2 E3|f ds0 l' HB HT HFe E1 E2 E3]; subst; cbn [outD rowF] in *.
  - unfold affine. f_equal. unfold sum_to. f_equal. apply map_ext_in. intros p Hp. apply In_zrange in Hp. cbn [hd] in Hp. rewrite HV; [reflexivity|]. apply in_range1; lia.
  - destruct (al_act l'); try (rewrite HV by auto; reflexivity). apply softmax_ext; [|auto]. intros j Hj. apply In_all_indices in Hj; auto.
  - apply HV. apply unravel_range; auto. inversion HI as [|? j ? r' Hj Hr]; subst. exact Hj.
  - f_equal. f_equal. apply map_ext_in. intros idx Hidx. destruct (dims4_pos _ _ _ _ _ W1 W2) as (_ & Hic & Hkh & Hkw & _).
    apply In_all_indices in Hidx; [|apply pos_forall, pos2; auto]. apply in_range_2 in Hidx. destruct Hidx as (p & q & -> & Hp & Hq).
    apply in_range_3 in HI. destruct HI as (o & y & z & -> & Ho & Hy & Hz). cbn [nth] in *. unfold fn2. cbn [nth]. rewrite HV; [reflexivity|]. apply in_range3; lia.
  - f_equal. f_equal. apply keep_ext. intros idx Hidx. apply In_all_indices in Hidx; [|apply pos_forall, pos2; auto]. apply in_range_2 in Hidx. destruct Hidx as (p & q & -> & Hp & Hq).
    apply in_range_3 in HI. destruct HI as (o & y & z & -> & Ho & Hy & Hz). cbn [nth] in *. apply HV.
    pose proof (extent_bound l' H2 h y H4 Hy). pose proof (extent_bound l' H2 w z H5 Hz). apply in_range3; nia.
  - apply HV; auto.
  - rewrite HV by auto. reflexivity.
Qed.
Lemma layer_gather : forall N ds l D sel (x : tensor T), rows_of N sel -> evaluates (N :: ds) l D -> good x -> tdims x = N :: ds -> Forall (fun d => 0 < d) (outD l ds) ->
  by_rows l (Zlen sel) ds (gather sel x) = gather sel (by_rows l N ds x).
Proof.
  intros N ds l D sel x HS HE Hg Ex HO. destruct (good_tail x N ds Hg Ex) as (Hn & HF & HM). unfold by_rows. rewrite (gather_of sel N) by auto.
  apply tensor_of_ext; [constructor; [apply Zlen_pos, HS|auto]|]. intros idx HI. inversion HI as [|? i ? r Hi Hr]; subst. cbn [hd tl].
  apply (rowF_ext N ds l D); auto. intros j Hj. apply (el_gather sel N x ds); auto.
Qed.

(** ** The whole network *)
Lemma forward_gather : forall ls N ds D D' sel (x : tensor T) (g : G), rows_of N sel -> stack evaluates (N :: ds) ls D -> stack evaluates (Zlen sel :: ds) ls D' ->
  good x -> tdims x = N :: ds -> good (gather sel x) ->
  exists ls1 ls2 y, forward_all ls x g = (ls1, g, Ok y) /\ forward_all ls (gather sel x) g = (ls2, g, Ok (gather sel y)) /\ good y /\ tdims y = D /\ good (gather sel y) /\ tdims (gather sel y) = D'.
Proof.
  induction ls as [|l ls IH]; intros N ds D D' sel x g HS H1 H2 Gx Ex Gs.
  - inversion H1; inversion H2; subst. exists [], [], x. cbn [forward_all]. rewrite (gather_dims sel N x ds Ex). auto 10.
  - inversion H1 as [|? ? D1 ? ? E1 R1]; subst. inversion H2 as [|? ? D2 ? ? E2 R2]; subst.
    destruct (layer_rows N ds l D1 x g E1 Gx Ex) as (-> & G1 & l1 & F1).
    destruct (layer_rows (Zlen sel) ds l D2 (gather sel x) g E2 Gs (gather_dims sel N x ds Ex)) as (-> & G2 & l2 & F2).
    assert (HO : Forall (fun d => 0 < d) (outD l ds)) by (pose proof (good_dims _ G1) as HF; inversion HF; auto).
    rewrite (layer_gather N ds l _ sel x HS E1 Gx Ex HO) in F2, G2.
    destruct (IH N (outD l ds) D D' sel (by_rows l N ds x) g HS R1 R2 G1 eq_refl G2) as (ls1 & ls2 & y & A & B & C).
    cbn [forward_all]. rewrite F1, F2, A, B. eauto 10.
Qed.
Theorem predict_gather : forall (n : net T G) N ds D D' sel (x : tensor T), evaluates_all (N :: ds) (n_layers n) D -> evaluates_all (Zlen sel :: ds) (n_layers n) D' ->
  good x -> tdims x = N :: ds -> rows_of N sel -> prod (Zlen sel :: ds) <= INT_MAX ->
  exists n1 n2 y, net_predict n x = (n1, Ok y) /\ good y /\ tdims y = D /\ net_predict n (gather sel x) = (n2, Ok (gather sel y)) /\ good (gather sel y) /\ tdims (gather sel y) = D'.
Proof.
  intros n N ds D D' sel x H1 H2 Gx Ex HS HM. pose proof (gather_good sel N HS x ds Gx Ex HM) as Gs.
  destruct (forward_gather (n_layers n) N ds D D' sel x (n_rng n) HS H1 H2 Gx Ex Gs) as (ls1 & ls2 & y & A & B & C & E & F & H).
  unfold net_predict. rewrite A, B. eauto 10.
Qed.

(** Smaller batches are accepted where larger ones are. *)
Lemma fewer : forall N M ds l D, 0 < M <= N -> 0 < N -> Forall (fun d => 0 < d) ds -> evaluates (N :: ds) l D -> D = N :: outD l ds /\ Forall (fun d => 0 < d) (outD l ds) /\ evaluates (M :: ds) l (M :: outD l ds).
Proof.
  intros N M ds l D HM HN HF HE.
  inversion HE as [n' k o l' W1 W2 W3 W4 HO E1 E2 E3|ds0 l' HX E1 E2 E3|b c ds0 l' E1 E2 E3|n' h w l' W1 W2 W3 W4 H1 H2 HO E1 E2 E3|n' c h w l' H1 H2 H3 H4 H5 E1 E2 E3|ds0 l' HT E1 E2 E3|f ds0 l' HB HT HFe E1 E2 E3]; subst; cbn [outD nth].
  - destruct (dims2_pos _ k o W1 W2) as (_ & Ho & _). rewrite W2. cbn [tl]. split; [reflexivity|]. split; [constructor; auto|]. apply ev_fc; auto. nia.
  - split; [reflexivity|]. split; [auto|]. apply ev_act. exact HX.
  - split; [reflexivity|]. split; [constructor; [apply prod_pos; auto|constructor]|]. apply ev_flat.
  - destruct (dims4_pos _ _ _ _ _ W1 W2) as (Hoc & _ & Hkh & Hkw & _). split; [reflexivity|]. split; [constructor; [auto|constructor; [lia|constructor; [lia|constructor]]]|]. apply ev_conv; auto.
    assert (0 <= cv_oc l' * ((h - cv_kh l' + 1) * (w - cv_kw l' + 1))) by (apply Z.mul_nonneg_nonneg; [lia|apply Z.mul_nonneg_nonneg; lia]). nia.
  - split; [reflexivity|]. pose proof (extent_pos l' H2 H3 h H4). pose proof (extent_pos l' H2 H3 w H5). inversion HF; subst. split; [constructor; [auto|constructor; [lia|constructor; [lia|constructor]]]|]. apply ev_pool; auto.
  - split; [reflexivity|]. split; [auto|]. apply ev_drop. auto.
  - split; [reflexivity|]. split; [auto|]. apply (ev_bn f); auto. destruct HFe as [(n0 & E)|(n0 & h & w & E)]; injection E as -> ->; [left; eauto|right; eauto].
Qed.
Lemma fewer_all : forall (ls : list (layer T)) N M ds D, 0 < M <= N -> Forall (fun d => 0 < d) ds -> stack evaluates (N :: ds) ls D -> exists ds', D = N :: ds' /\ stack evaluates (M :: ds) ls (M :: ds').
Proof.
  induction ls as [|l ls IH]; intros N M ds D HM HF H; inversion H as [|? ? D1 ? ? E1 R1]; subst; [exists ds; split; [auto|constructor]|].
  destruct (fewer N M ds l D1 HM ltac:(lia) HF E1) as (-> & HO & E2). destruct (IH N M (outD l ds) D HM HO R1) as (ds' & -> & R2). exists ds'. split; [auto|]. econstructor; eauto.
Qed.
Theorem predict_rows : forall (n : net T G) N ds D sel (x : tensor T), evaluates_all (N :: ds) (n_layers n) D -> good x -> tdims x = N :: ds -> rows_of N sel -> Zlen sel <= N ->
  exists n1 n2 y, net_predict n x = (n1, Ok y) /\ good y /\ tdims y = D /\ net_predict n (gather sel x) = (n2, Ok (gather sel y)).
Proof.
  intros n N ds D sel x H1 Gx Ex HS HL. destruct (good_tail x N ds Gx Ex) as (Hn & HF & HM). pose proof (Zlen_pos sel (proj1 HS)) as HP.
  destruct (fewer_all (n_layers n) N (Zlen sel) ds D ltac:(lia) HF H1) as (ds' & -> & H2).
  assert (HM' : prod (Zlen sel :: ds) <= INT_MAX) by (cbn [prod]; pose proof (prod_pos _ HF); nia).
  destruct (predict_gather n N ds _ _ sel x H1 H2 Gx Ex HS HM') as (n1 & n2 & y & A & B & C & E & _). eauto 10.
Qed.
Theorem predict_single : forall (n : net T G) N ds D (x : tensor T), evaluates_all (N :: ds) (n_layers n) D -> good x -> tdims x = N :: ds ->
  exists n1 y ds', net_predict n x = (n1, Ok y) /\ good y /\ D = N :: ds' /\ tdims y = D /\
    forall i, 0 <= i < N -> exists n2 yi, net_predict n (gather [i] x) = (n2, Ok yi) /\ tdims yi = 1 :: ds' /\ forall r, in_range ds' r -> el y (i :: r) = el yi (0 :: r).
Proof.
  intros n N ds D x H1 Gx Ex. destruct (good_tail x N ds Gx Ex) as (Hn & HF & HM).
  destruct (fewer_all (n_layers n) N 1 ds D ltac:(lia) HF H1) as (ds' & ED & H2).
  assert (HR0 : forall i, 0 <= i < N -> rows_of N [i]) by (intros i Hi; split; [discriminate|constructor; [auto|constructor]]).
  assert (HM' : prod (1 :: ds) <= INT_MAX) by (cbn [prod]; pose proof (prod_pos _ HF); nia).
  destruct (predict_gather n N ds _ _ [0] x H1 H2 Gx Ex (HR0 0 ltac:(lia)) HM') as (n1 & n2 & y & A & B & C & _).
  exists n1, y, ds'. split; [auto|]. split; [auto|]. split; [auto|]. split; [auto|]. intros i Hi.
  destruct (predict_gather n N ds _ _ [i] x H1 H2 Gx Ex (HR0 i Hi) HM') as (n1' & n2' & y' & A' & B' & C' & E' & F' & K'). rewrite A in A'. injection A' as <- <-.
  exists n2', (gather [i] y). split; [auto|]. split; [auto|]. intros r Hr. rewrite C in *. rewrite ED in C. rewrite (el_gather [i] N y ds' 0 r); auto. change (Zlen [i]) with 1. lia.
Qed.
End S.
