(** * The order of the units does not matter (C129) *)
From Coq Require Import String Reals Lra Permutation.
From Verif Require Import Base Scalar ScalarR Types Spec SpecR SpecNN SpecLayers SpecOpt M_Shape M_Tensor M_Adv M_Act M_Loss M_Layers M_Reg M_Opt M_Net M_Text M_Log SpecNet SpecLog SpecRenum
  L_Index L_Shape L_Bcast L_Tensor L_Nest L_Glue L_Matmul L_Adv L_RSum L_Act L_AdvR L_ActR L_Loss L_Layers L_Conv L_Rows L_Pool L_Pool2 L_Drop L_BN L_Opt L_Net L_Net2 L_Train L_TrainR L_Log.
Local Open Scope Z_scope.
Local Open Scope list_scope.

(** ** Orders *)
Lemma place_range : forall p k i, orders p k -> 0 <= i < k -> 0 <= new_place p i < k.
Proof. intros [f|] k i H Hi; [apply H; auto|auto]. Qed.
Lemma place_inj : forall p k i j, orders p k -> 0 <= i < k -> 0 <= j < k -> new_place p i = new_place p j -> i = j.
Proof. intros [f|] k i j H Hi Hj E; [apply H; auto|auto]. Qed.
Lemma place_perm : forall p k, orders p k -> Permutation (map (new_place p) (zrange 0 k)) (zrange 0 k).
Proof.
  intros p k H. apply NoDup_Permutation_bis.
  - assert (HI : forall i, In i (zrange 0 k) -> 0 <= i < k) by (intros i Hi; apply In_zrange in Hi; lia). pose proof (NoDup_zrange 0 k) as HN.
    induction (zrange 0 k) as [|a l IH]; cbn [map]; [constructor|]. inversion HN; subst. constructor.
    + intros HX. apply in_map_iff in HX. destruct HX as (b & E & Hb). assert (b = a) by (apply (place_inj p k); auto; apply HI; cbn; auto). congruence.
    + apply IH; auto. intros; apply HI; right; auto.
  - rewrite map_length. lia.
  - intros j Hj. apply in_map_iff in Hj. destruct Hj as (i & <- & Hi). apply In_zrange in Hi. apply In_zrange. pose proof (place_range p k i H). lia.
Qed.
Lemma place_onto : forall p k j, orders p k -> 0 <= j < k -> exists i, 0 <= i < k /\ new_place p i = j.
Proof.
  intros p k j H Hj. assert (HI : In j (map (new_place p) (zrange 0 k))) by (eapply Permutation_in; [apply Permutation_sym, place_perm; auto|apply In_zrange; lia]).
  apply in_map_iff in HI. destruct HI as (i & E & Hi). apply In_zrange in Hi. exists i. split; [lia|auto].
Qed.
Lemma rsum_place : forall p k (f : Z -> R), orders p k -> rsum (zrange 0 k) f = rsum (zrange 0 k) (fun i => f (new_place p i)).
Proof. intros p k f H. rewrite <- (rsum_map (new_place p)). apply rsum_perm. apply Permutation_sym, place_perm; auto. Qed.
Lemma sum_place : forall p k (f g : Z -> R), orders p k -> (forall i, 0 <= i < k -> g (new_place p i) = f i) -> sum_to k g = sum_to k f.
Proof. intros p k f g H E. rewrite !sum_to_R, (rsum_place p k g H). apply rsum_ext. intros i Hi. apply In_zrange in Hi. apply E. lia. Qed.
Lemma sum_ext : forall k (f g : Z -> R), (forall i, 0 <= i < k -> g i = f i) -> sum_to k g = sum_to k f.
Proof. intros k f g E. rewrite !sum_to_R. apply rsum_ext. intros i Hi. apply In_zrange in Hi. apply E. lia. Qed.

Lemma reordered_el : forall p (x x' : tensor R) n k, good x -> tdims x = [n; k] -> reordered p x x' ->
  good x' /\ tdims x' = [n; k] /\ forall r i, 0 <= r < n -> 0 <= i < k -> el x' [r; new_place p i] = el x [r; i].
Proof.
  intros [f|] x x' n k Gx Ex H; cbn [reordered new_place] in *.
  - destruct H as (n' & k' & G' & E & E' & _ & V). rewrite Ex in E. injection E as <- <-. auto.
  - subst x'. auto.
Qed.
Lemma reordered_intro : forall p (x x' : tensor R) n k, good x -> good x' -> tdims x = [n; k] -> tdims x' = [n; k] -> orders p k ->
  (forall r i, 0 <= r < n -> 0 <= i < k -> el x' [r; new_place p i] = el x [r; i]) -> reordered p x x'.
Proof.
  intros [f|] x x' n k Gx Gx' Ex Ex' HO V; cbn [reordered new_place] in *.
  - exists n, k. auto 10.
  - apply tensor_ext; auto; [congruence|]. rewrite Ex'. intros idx HI. apply in_range_2 in HI. destruct HI as (r & i & -> & Hr & Hi). auto.
Qed.
Lemma reordered_good : forall p (x x' : tensor R), good x -> reordered p x x' -> good x' /\ tdims x' = tdims x.
Proof. intros [f|] x x' Gx H; cbn [reordered] in H; [destruct H as (n & k & G' & E & E' & _); split; [auto|congruence]|subst; auto]. Qed.

(** ** Positions in tensors *)
Definition wpos (p q : order) (idx : list Z) : list Z := match idx with [i; j] => [new_place p i; new_place q j] | _ => idx end.
Definition bpos (q : order) (idx : list Z) : list Z := match idx with [i; j] => [i; new_place q j] | _ => idx end.
Lemma wpos_none : forall idx, wpos None None idx = idx. Proof. intros [|i [|j [|]]]; reflexivity. Qed.
Lemma bpos_none : forall idx, bpos None idx = idx. Proof. intros [|i [|j [|]]]; reflexivity. Qed.

Lemma softmax_dec : forall a : act R, a = Softmax \/ a <> Softmax.
Proof. intros []; auto; right; discriminate. Qed.
Section S.
Context {G : Type} {HR : Rng R G}.
Local Notation layer := (layer R).
(** [t'] is [t] with the elements moved by [f]. *)
Definition tmoved (f : list Z -> list Z) (t t' : tensor R) : Prop := tdims t' = tdims t /\ forall idx, in_range (tdims t) idx -> in_range (tdims t) (f idx) /\ el t' (f idx) = el t idx.
Definition pair_moved (p q : order) (a b : option (tensor R * tensor R)) : Prop :=
  match a, b with Some (w, b), Some (w', b') => tmoved (wpos p q) w w' /\ tmoved (bpos q) b b' | None, None => True | _, _ => False end.
Lemma tmoved_refl : forall f (t : tensor R), (forall idx, f idx = idx) -> tmoved f t t.
Proof. intros f t H. split; [reflexivity|]. intros idx HI. rewrite H. auto. Qed.
Lemma tmoved_eq : forall f (t t' : tensor R), good t -> good t' -> (forall idx, f idx = idx) -> tmoved f t t' -> t' = t.
Proof. intros f t t' Gt Gt' H (ED & V). apply tensor_ext; auto. rewrite ED. intros idx HI. destruct (V idx HI) as (_ & E). rewrite H in E. exact E. Qed.
Lemma renumbered_params : forall p q (l l' : layer), renumbered p l l' q -> pair_moved p q (layer_params l) (layer_params l').
Proof.
  intros p q l l' H. destruct H as [p q k o l l' G1 G2 E1 E2 E3 E4 O1 O2 V1 V2|p l l' E|l]; [|exact I|].
  - cbn [layer_params pair_moved]. split; (split; [congruence|]); intros idx HI.
    + rewrite E1 in *. apply in_range_2 in HI. destruct HI as (i & j & -> & Hi & Hj). cbn [wpos]. split; [apply in_range2; apply place_range; auto|auto].
    + rewrite E3 in *. apply in_range_2 in HI. destruct HI as (i & j & -> & Hi & Hj). cbn [bpos]. assert (i = 0) by lia. subst i. split; [apply in_range2; [lia|apply place_range; auto]|auto].
  - unfold pair_moved. destruct (layer_params l) as [(w & b)|]; [|exact I]. split; apply tmoved_refl; [apply wpos_none|apply bpos_none].
Qed.

(** ** One layer, both passes *)
Lemma renumbered_accepts : forall ds l ds' p l' q, accepts ds l ds' -> renumbered p l l' q -> accepts (T := R) ds l' ds'.
Proof.
  intros ds l ds' p l' q HA H. destruct H as [p q k o l l' G1 G2 E1 E2 E3 E4 O1 O2 V1 V2|p l l' E|l]; [| |exact HA].
  - inversion HA as [n k0 o0 l0 W1 W2 W3 W4 HM| | | | |]; subst. rewrite E1 in W2. injection W2 as <- <-. constructor; auto.
  - inversion HA; subst. constructor. rewrite E. auto.
Qed.
Lemma renum_step : forall ds l ds' p q l' (x x' : tensor R) (g : G), accepts ds l ds' -> renumbered p l l' q -> good x -> tdims x = ds -> reordered p x x' ->
  exists l1 l1' g' y y', layer_forward l x g = (l1, g', Ok y) /\ layer_forward l' x' g = (l1', g', Ok y') /\ good y /\ tdims y = ds' /\ reordered q y y' /\
    forall d d' : tensor R, good d -> tdims d = ds' -> reordered q d d' ->
      exists l2 l2' gx gx', layer_backward l1 d = (l2, Ok gx) /\ layer_backward l1' d' = (l2', Ok gx') /\ good gx /\ tdims gx = ds /\ reordered p gx gx' /\
        accepts ds l2 ds' /\ layer_params l2 = layer_params l /\ layer_params l2' = layer_params l' /\ armed l2 /\ armed l2' /\ renumbered p l2 l2' q /\ pair_moved p q (layer_grads l2) (layer_grads l2').
Proof.
  intros ds l ds' p q l' x x' g HA HN Gx Ex HX. pose proof (renumbered_accepts _ _ _ _ _ _ HA HN) as HA'.
  destruct (reordered_good p x x' Gx HX) as (Gx' & Ex'). rewrite Ex in Ex'.
  destruct (accepts_step ds l ds' x g HA Gx Ex) as (l1 & g1 & y & EF & Gy & Ey & HB).
  destruct (accepts_step ds l' ds' x' g HA' Gx' Ex') as (l1' & g1' & y' & EF' & Gy' & Ey' & HB').
  destruct HN as [p q k o l l' G1 G2 E1 E2 E3 E4 O1 O2 V1 V2|p l l' E|l].
  - inversion HA as [n k0 o0 l0 W1 W2 W3 W4 HM EA1 EA2 EA3| | | | |]; subst l0. rewrite E1 in W2. injection W2 as <- <-.
    assert (Exx : tdims x = [n; k]) by congruence. destruct (reordered_el p x x' n k Gx Exx HX) as (_ & Exx' & VX).
    destruct (dims2_pos x n k Gx Exx) as (Hn & Hk & _). destruct (dims2_pos _ k o W1 E1) as (_ & Ho & _).
    assert (HW : fc_wf l k o) by (split; auto). assert (HW' : fc_wf l' k o) by (split; auto).
    cbn [layer_forward] in EF, EF'. rewrite (fc_forward_2 l k o x n HW Gx Exx HM) in EF. rewrite (fc_forward_2 l' k o x' n HW' Gx' Exx' HM) in EF'. unfold lift in EF, EF'. cbn [fst snd] in EF, EF'. injection EF as <- <- <-. injection EF' as <- <- <-.
    do 5 eexists. split; [cbn [layer_forward]; rewrite (fc_forward_2 l k o x n HW Gx Exx HM); reflexivity|]. split; [cbn [layer_forward]; rewrite (fc_forward_2 l' k o x' n HW' Gx' Exx' HM); reflexivity|].
    split; [exact Gy|]. split; [reflexivity|]. split.
    + apply (reordered_intro q _ _ n o); auto. intros r j Hr Hj. pose proof (place_range q o j O2 Hj) as Hqj. rewrite !el_tensor_of by (apply in_range2; auto). unfold fn2. cbn [nth]. unfold affine. rewrite V2 by auto. f_equal.
      apply (sum_place p); auto. intros i Hi. rewrite VX, V1 by auto. reflexivity.
    + intros d d' Gd Ed HD. assert (Edd : tdims d = [n; o]) by congruence. destruct (reordered_el q d d' n o Gd Edd HD) as (Gd' & Ed' & VD).
      destruct (HB d Gd ltac:(congruence)) as (l2 & gx & EB & Ggx & Egx & A2 & P2 & R2). destruct (HB' d' Gd' ltac:(congruence)) as (l2' & gx' & EB' & Ggx' & Egx' & A2' & P2' & R2').
      exists l2, l2', gx, gx'. split; [exact EB|]. split; [exact EB'|]. split; [exact Ggx|]. split; [congruence|].
      assert (AR : forall t : tensor R, tdims t = [n; k] \/ tdims t = [n; o] -> as_row t = Ok t) by (intros t Ht; unfold as_row, rank; fold (tdims t); destruct Ht as [->| ->]; reflexivity).
      cbn [layer_backward] in EB, EB'. rewrite (fc_backward_rows _ k o n x d x d) in EB; auto. rewrite (fc_backward_rows _ k o n x' d' x' d') in EB'; auto. injection EB as <- <-. injection EB' as <- <-.
      split; [|split; [rewrite ?EA1, ?EA3; exact A2|split; [exact P2|split; [exact P2'|split; [exact R2|split; [exact R2'|split]]]]]].
      * apply (reordered_intro p _ _ n k); auto. intros r i Hr Hi. pose proof (place_range p k i O1 Hi) as Hpi. rewrite !el_tensor_of by (apply in_range2; auto). unfold fn2. cbn [nth]. unfold fc_dx.
        apply (sum_place q); auto. intros j Hj. rewrite VD, V1 by auto. reflexivity.
      * apply (rn_fc p q k o); auto.
      * cbn [layer_grads fc_gw fc_gb pair_moved]. split; (split; [reflexivity|]); intros idx HI.
        -- change (in_range [k; o] idx) in HI. change (in_range [k; o] (wpos p q idx) /\ el (tensor_of [k; o] (fn2 (fc_dw n (fun i p0 => el x' [i; p0]) (fun i j => el d' [i; j])))) (wpos p q idx) = el (tensor_of [k; o] (fn2 (fc_dw n (fun i p0 => el x [i; p0]) (fun i j => el d [i; j])))) idx).
           apply in_range_2 in HI. destruct HI as (i & j & -> & Hi & Hj). cbn [wpos]. pose proof (place_range p k i O1 Hi) as Hpi. pose proof (place_range q o j O2 Hj) as Hqj.
           split; [apply in_range2; auto|]. rewrite !el_tensor_of by (apply in_range2; auto). unfold fn2. cbn [nth]. unfold fc_dw. apply sum_ext. intros r Hr. rewrite VX, VD by auto. reflexivity.
        -- change (in_range [1; o] idx) in HI. change (in_range [1; o] (bpos q idx) /\ el (tensor_of [1; o] (fn2 (fun _ => fc_db n (fun i j => el d' [i; j])))) (bpos q idx) = el (tensor_of [1; o] (fn2 (fun _ => fc_db n (fun i j => el d [i; j])))) idx).
           apply in_range_2 in HI. destruct HI as (i & j & -> & Hi & Hj). cbn [bpos]. pose proof (place_range q o j O2 Hj) as Hqj.
           split; [apply in_range2; auto|]. rewrite !el_tensor_of by (apply in_range2; auto). unfold fn2. cbn [nth]. unfold fc_db. apply sum_ext. intros r Hr. rewrite VD by auto. reflexivity.
  - assert (ED : ds' = ds) by (inversion HA; congruence). rewrite ED in *. clear ED.
    exists l1, l1', g1, y, y'. split; [exact EF|].
    cbn [layer_forward] in EF, EF'. unfold act_forward in EF, EF'. rewrite E in EF'. unfold lift in EF, EF'. cbn [fst snd] in EF, EF'.
    assert (EA : act_fwd (al_act l) x = Ok y) by congruence. assert (EA' : act_fwd (al_act l) x' = Ok y') by congruence.
    assert (EL : l1 = LAct (mkActL (al_act l) (Some x))) by congruence. assert (EL' : l1' = LAct (mkActL (al_act l) (Some x'))) by congruence. assert (g1 = g) by congruence. assert (g1' = g) by congruence. subst g1 g1' l1 l1'.
    split; [cbn [layer_forward]; unfold act_forward; rewrite E; unfold lift; cbn [fst snd]; rewrite EA'; reflexivity|]. split; [exact Gy|]. split; [exact Ey|].
    destruct p as [f|].
    + destruct HX as (n & k & _ & Exx & Exx' & PF & VX). rewrite Exx in Ex. subst ds. destruct (dims2_pos x n k Gx Exx) as (Hn & Hk & _).
      assert (HFK : Forall (fun d => 0 < d) [k]) by (repeat constructor; auto).
      assert (OF : orders (Some f) k) by exact PF.
      assert (AI : forall h : list Z -> R, rsum (all_indices [k]) h = rsum (zrange 0 k) (fun i => h [i])).
      { intros h. unfold all_indices, ztab. rewrite rsum_map. replace (prod [k]) with k by (cbn [prod]; lia). apply rsum_ext. intros i Hi. apply In_zrange in Hi. f_equal. change (unravel [k] i) with ([i / 1]). rewrite Z.div_1_r. reflexivity. }
      assert (RS : forall r, 0 <= r < n -> rowsum [k] x' r = rowsum [k] x r).
      { intros r Hr. unfold rowsum. rewrite !AI. rewrite (rsum_place (Some f) k _ OF). apply rsum_ext. intros i Hi. apply In_zrange in Hi. cbn [new_place]. rewrite VX by lia. reflexivity. }
      assert (SM : forall r i, 0 <= r < n -> 0 <= i < k -> smR [k] x' r [f i] = smR [k] x r [i]) by (intros r i Hr Hi; unfold smR; rewrite RS, VX by auto; reflexivity).
      split.
      * apply (reordered_intro (Some f) y y' n k); auto. intros r i Hr Hi. cbn [new_place]. pose proof (proj1 PF i Hi) as Hfi. destruct (softmax_dec (al_act l)) as [ES|NS].
        -- rewrite ES in EA, EA'. cbn [act_fwd] in EA, EA'. rewrite (softmax_R x n [k]) in EA by (auto; discriminate). rewrite (softmax_R x' n [k]) in EA' by (auto; discriminate). injection EA as <-. injection EA' as <-.
           rewrite !el_tensor_of by (apply in_range2; auto). cbn [hd tl]. apply SM; auto.
        -- rewrite act_fwd_el in EA by auto. rewrite act_fwd_el in EA' by auto. injection EA as <-. injection EA' as <-. rewrite Exx, Exx'. rewrite !el_tensor_of by (apply in_range2; auto). rewrite VX by auto. reflexivity.
      * intros d d' Gd Ed HD. destruct (reordered_el (Some f) d d' n k Gd Ed HD) as (Gd' & Ed' & VD). cbn [new_place] in VD.
        destruct (HB d Gd Ed) as (l2 & gx & EB & Ggx & Egx & A2 & P2 & R2). destruct (HB' d' Gd' Ed') as (l2' & gx' & EB' & Ggx' & Egx' & A2' & P2' & R2').
        exists l2, l2', gx, gx'. split; [exact EB|]. split; [exact EB'|]. split; [exact Ggx|]. split; [exact Egx|]. cbn [layer_backward] in EB, EB'. unfold act_backward in EB, EB'. cbn [al_in al_act] in EB, EB'.
        assert (BA : act_bwd (al_act l) x d = Ok gx) by congruence. assert (BA' : act_bwd (al_act l) x' d' = Ok gx') by congruence. assert (L2 : l2 = LAct (mkActL (al_act l) (Some x))) by congruence. assert (L2' : l2' = LAct (mkActL (al_act l) (Some x'))) by congruence. subst l2 l2'.
        split; [|split; [exact A2|split; [exact P2|split; [exact P2'|split; [exact R2|split; [exact R2'|split; [constructor; reflexivity|exact I]]]]]]].
        apply (reordered_intro (Some f) gx gx' n k); auto. intros r i Hr Hi. cbn [new_place]. pose proof (proj1 PF i Hi) as Hfi. destruct (softmax_dec (al_act l)) as [ES|NS].
        -- rewrite ES in BA, BA'. cbn [act_bwd] in BA, BA'. rewrite (softmax_bwd_R x d n [k]) in BA by (auto; discriminate). rewrite (softmax_bwd_R x' d' n [k]) in BA' by (auto; discriminate). injection BA as <-. injection BA' as <-.
           rewrite !el_tensor_of by (apply in_range2; auto). cbv zeta. cbn [hd tl]. rewrite SM, VD by auto. f_equal. f_equal. rewrite !AI. rewrite (rsum_place (Some f) k _ OF). apply rsum_ext. intros j Hj. apply In_zrange in Hj. cbn [new_place]. rewrite SM, VD by lia. reflexivity.
        -- rewrite act_bwd_el in BA by (auto; congruence). rewrite act_bwd_el in BA' by (auto; congruence). injection BA as <-. injection BA' as <-. rewrite Exx, Exx'. rewrite !el_tensor_of by (apply in_range2; auto). rewrite VX, VD by auto. reflexivity.
    + cbn [reordered] in *. subst x'. assert (y' = y) by congruence. subst y'. split; [reflexivity|]. intros d d' Gd Ed ->.
      destruct (HB d Gd Ed) as (l2 & gx & EB & Ggx & Egx & A2 & P2 & R2). exists l2, l2, gx, gx. do 4 (split; [assumption|]). split; [reflexivity|]. split; [exact A2|]. split; [exact P2|]. split; [exact P2|]. split; [exact R2|]. split; [exact R2|]. split; [constructor|].
      cbn [layer_backward] in EB. assert (L2 : l2 = LAct (mkActL (al_act l) (Some x))) by congruence. subst l2. exact I.
  - cbn [reordered] in HX. subst x'. exists l1, l1, g1, y, y. do 4 (split; [assumption|]). split; [reflexivity|]. intros d d' Gd Ed HD. cbn [reordered] in HD. subst d'.
    destruct (HB d Gd Ed) as (l2 & gx & EB & Ggx & Egx & A2 & P2 & R2). exists l2, l2, gx, gx. do 4 (split; [assumption|]). split; [reflexivity|]. split; [exact A2|]. split; [exact P2|]. split; [exact P2|]. split; [exact R2|]. split; [exact R2|]. split; [constructor|].
    unfold pair_moved. destruct (layer_grads l2) as [(gw & gb)|]; [|exact I]. split; apply tmoved_refl; [apply wpos_none|apply bpos_none].
Qed.

(** ** Whole networks *)
Inductive grads_moved : list order -> list layer -> list layer -> Prop :=
  | gm_nil : forall p, grads_moved [p] [] []
  | gm_cons : forall p q ps l ls l' ls', pair_moved p q (layer_grads l) (layer_grads l') -> grads_moved (q :: ps) ls ls' -> grads_moved (p :: q :: ps) (l :: ls) (l' :: ls').
Lemma renum_accepts : forall ls ps ds ds' ls', accepts_all ds ls ds' -> renumbering ps ls ls' -> accepts_all (T := R) ds ls' ds'.
Proof.
  induction ls as [|l ls IH]; intros ps ds ds' ls' HA HN; inversion HN; subst; inversion HA; subst; [constructor|]. econstructor; [eapply renumbered_accepts; eauto|eapply IH; eauto].
Qed.
Lemma renum_pass : forall ls ps ds ds' ls' (x x' : tensor R) (g : G), accepts_all ds ls ds' -> renumbering ps ls ls' -> good x -> tdims x = ds -> reordered (inputs ps) x x' ->
  exists ls1 ls1' g' y y', forward_all ls x g = (ls1, g', Ok y) /\ forward_all ls' x' g = (ls1', g', Ok y') /\ good y /\ tdims y = ds' /\ reordered (outputs ps) y y' /\
    forall d d' : tensor R, good d -> tdims d = ds' -> reordered (outputs ps) d d' ->
      exists ls2 ls2' gx gx', backward_all ls1 d = (ls2, Ok gx) /\ backward_all ls1' d' = (ls2', Ok gx') /\ good gx /\ tdims gx = ds /\ reordered (inputs ps) gx gx' /\
        accepts_all ds ls2 ds' /\ map layer_params ls2 = map layer_params ls /\ map layer_params ls2' = map layer_params ls' /\ Forall armed ls2 /\ Forall armed ls2' /\ renumbering ps ls2 ls2' /\ grads_moved ps ls2 ls2'.
Proof.
  induction ls as [|l ls IH]; intros ps ds ds' ls' x x' g HA HN Gx Ex HX.
  - inversion HA; subst. inversion HN; subst. exists [], [], g, x, x'. do 2 (split; [reflexivity|]). do 2 (split; [auto|]). split; [exact HX|]. intros d d' Gd Ed HD. exists [], [], d, d'. do 2 (split; [reflexivity|]). do 3 (split; [auto|]).
    split; [constructor|]. do 2 (split; [reflexivity|]). do 2 (split; [constructor|]). split; constructor.
  - inversion HA as [|? ? dm ? ? H1 H2]; subst. inversion HN as [|p q ps' ? ? l' r' T1 T2]; subst. cbn [inputs hd] in HX.
    destruct (renum_step _ l dm p q l' x x' g H1 T1 Gx eq_refl HX) as (l1 & l1' & g1 & y & y' & E1 & E1' & Gy & Ey & RY & B1).
    destruct (IH (q :: ps') dm ds' r' y y' g1 H2 T2 Gy Ey RY) as (ls1 & ls1' & g2 & z & z' & E2 & E2' & Gz & Ez & RZ & B2). exists (l1 :: ls1), (l1' :: ls1'), g2, z, z'. cbn [forward_all]. rewrite E1, E1', E2, E2'. do 2 (split; [reflexivity|]). do 2 (split; [auto|]). split; [exact RZ|].
    intros d d' Gd Ed HD. destruct (B2 d d' Gd Ed HD) as (ls2 & ls2' & gm & gm' & F1 & F1' & F2 & F3 & F4 & F5 & F6 & F6' & F7 & F7' & F8 & F9).
    destruct (B1 gm gm' F2 F3 F4) as (l2 & l2' & gx & gx' & K1 & K1' & K2 & K3 & K4 & K5 & K6 & K6' & K7 & K7' & K8 & K9).
    exists (l2 :: ls2), (l2' :: ls2'), gx, gx'. cbn [backward_all]. rewrite F1, F1', K1, K1'. do 2 (split; [reflexivity|]). do 3 (split; [auto|]). split; [econstructor; eauto|]. do 2 (split; [cbn [map]; congruence|]). do 2 (split; [constructor; auto|]). split; constructor; auto.
Qed.

(** ** Losses *)
Lemma bpos_perm : forall q n k, 0 < n -> 0 < k -> orders q k -> Permutation (map (bpos q) (all_indices [n; k])) (all_indices [n; k]).
Proof.
  intros q n k Hn Hk HO. assert (HF : Forall (fun d => 0 < d) [n; k]) by (repeat constructor; auto).
  assert (HI : forall idx, In idx (all_indices [n; k]) -> in_range [n; k] idx) by (intros idx H; apply In_all_indices in H; auto). apply NoDup_Permutation_bis.
  - pose proof (NoDup_all_indices [n; k] HF) as HN. induction (all_indices [n; k]) as [|a l IH]; cbn [map]; [constructor|]. inversion HN; subst. constructor.
    + intros HX. apply in_map_iff in HX. destruct HX as (b & E & Hb). assert (b = a); [|congruence]. pose proof (HI a (or_introl eq_refl)) as Ha. pose proof (HI b (or_intror Hb)) as Hb'.
      apply in_range_2 in Ha. apply in_range_2 in Hb'. destruct Ha as (r & i & -> & Hr & Hi). destruct Hb' as (r' & i' & -> & Hr' & Hi'). cbn [bpos] in E. injection E as -> E. f_equal. f_equal. apply (place_inj q k); auto.
    + apply IH; auto. intros; apply HI; right; auto.
  - rewrite map_length. lia.
  - intros j Hj. apply in_map_iff in Hj. destruct Hj as (i & <- & Hi). apply HI in Hi. apply in_range_2 in Hi. destruct Hi as (r & c & -> & Hr & Hc). cbn [bpos]. apply In_all_indices; auto. apply in_range2; auto. apply place_range; auto.
Qed.
Lemma rsum_bpos : forall q n k (f g : list Z -> R), 0 < n -> 0 < k -> orders q k -> (forall r i, 0 <= r < n -> 0 <= i < k -> g [r; new_place q i] = f [r; i]) -> rsum (all_indices [n; k]) g = rsum (all_indices [n; k]) f.
Proof.
  intros q n k f g Hn Hk HO E. rewrite <- (rsum_perm _ _ g (bpos_perm q n k Hn Hk HO)), rsum_map. apply rsum_ext. intros idx HI. apply In_all_indices in HI; [|repeat constructor; auto].
  apply in_range_2 in HI. destruct HI as (r & i & -> & Hr & Hi). cbn [bpos]. auto.
Qed.
Lemma fold_sub_R : forall {A} (v : A -> R) l z, fold_left (fun acc a => s_sub acc (v a)) l z = (z - rsum l v)%R.
Proof. intros A v. induction l as [|a l IH]; intros z; cbn [fold_left]; [rewrite rsum_nil; ring|]. rewrite IH, rsum_cons. cbn [s_sub RScalar]. ring. Qed.
Lemma loss_reordered : forall lo q ds (y y' t t' : tensor R), good y -> tdims y = ds -> reordered q y y' -> target_fits lo ds t -> reordered q t t' ->
  target_fits lo ds t' /\ loss_compute lo y' t' = loss_compute lo y t /\
  exists d d', loss_gradient lo y t = Ok d /\ loss_gradient lo y' t' = Ok d' /\ good d /\ tdims d = ds /\ reordered q d d'.
Proof.
  intros lo q ds y y' t t' Gy Ey RY HT RT. destruct (loss_total lo ds y t counts_R Gy Ey HT) as (_ & d & ED & Gd & Edd). destruct q as [f|].
  - destruct RT as (n0 & k0 & Gt' & Et & Et' & _ & VT). destruct RY as (n & k & Gy' & Ey0 & Ey' & PF & VY). rewrite Ey0 in Ey. subst ds. destruct HT as (Gt & HT).
    assert (EE : tdims t = [n; k]) by (destruct lo; [destruct HT as [HT|(? & ? & HT & _)]; congruence|destruct HT as (? & ? & -> & ->); reflexivity]). rewrite EE in Et. injection Et as <- <-.
    assert (HT' : target_fits lo [n; k] t') by (split; [exact Gt'|]; destruct lo; [left; exact Et'|eauto]).
    destruct (loss_total lo [n; k] y' t' counts_R Gy' Ey' HT') as (_ & d' & ED' & Gd' & Edd').
    destruct (dims2_pos y n k Gy Ey0) as (Hn & Hk & HM). pose proof (proj1 PF) as PF1. assert (OF : orders (Some f) k) by exact PF.
    assert (CN : s_eq (s_z (prod [n; k])) zero = false) by (apply counts_R; cbn [prod]; nia). assert (CB : s_eq (s_z n) zero = false) by (apply counts_R; nia).
    split; [exact HT'|]. destruct lo; cbn [loss_compute loss_gradient] in *.
    + assert (HA : aligned y t) by (unfold aligned; left; congruence). assert (HA' : aligned y' t') by (unfold aligned; left; congruence).
      assert (IS : in_shape [n; k] t = t) by (rewrite <- EE; apply in_shape_same; auto). assert (IS' : in_shape [n; k] t' = t') by (rewrite <- Et'; apply in_shape_same; auto).
      split.
      * rewrite !mse_compute_ok by (auto; rewrite ?Ey0, ?Ey'; exact CN). rewrite Ey0, Ey'. f_equal. apply tensor_of_ext; [repeat constructor; lia|]. intros idx _. f_equal. rewrite !fsum_R. change (rsum (all_indices [n; k]) (sqdiff y' t') = rsum (all_indices [n; k]) (sqdiff y t)).
        apply (rsum_bpos (Some f)); auto. intros r i Hr Hi. cbn [new_place]. unfold sqdiff. rewrite Ey0, Ey', IS, IS', VY, VT by auto. reflexivity.
      * exists d, d'. do 4 (split; [auto|]). rewrite mse_gradient_ok in ED by (auto; rewrite Ey0; exact CN). rewrite mse_gradient_ok in ED' by (auto; rewrite Ey'; exact CN). rewrite Ey0, IS in ED. rewrite Ey', IS' in ED'. injection ED as <-. injection ED' as <-.
        apply (reordered_intro (Some f) _ _ n k); auto. intros r i Hr Hi. cbn [new_place]. rewrite !el_tensor_of by (apply in_range2; auto). rewrite VY, VT by auto. reflexivity.
    + split.
      * rewrite (cce_compute_ok y t n k), (cce_compute_ok y' t' n k) by auto. f_equal. apply tensor_of_ext; [repeat constructor; lia|]. intros idx _. f_equal.
        rewrite (fold_sub_R (fun idx0 => s_mul (el t' idx0) (s_log (cce_clamp (el y' idx0))))), (fold_sub_R (fun idx0 => s_mul (el t idx0) (s_log (cce_clamp (el y idx0))))). f_equal.
        apply (rsum_bpos (Some f)); auto. intros r i Hr Hi. cbn [new_place]. rewrite VY, VT by auto. reflexivity.
      * exists d, d'. do 4 (split; [auto|]). rewrite (cce_gradient_ok y t n k) in ED by auto. rewrite (cce_gradient_ok y' t' n k) in ED' by auto. injection ED as <-. injection ED' as <-.
        apply (reordered_intro (Some f) _ _ n k); auto. intros r i Hr Hi. cbn [new_place]. rewrite !el_tensor_of by (apply in_range2; auto). rewrite VY, VT by auto. reflexivity.
  - cbn [reordered] in RY, RT. subst y' t'. split; [exact HT|]. split; [reflexivity|]. exists d, d. do 4 (split; [auto|]). reflexivity.
Qed.

(** ** Updates.  [pos k idx]: where position [idx] of the tensor with key [k] is in the other network. *)
Section Pos.
Variable D : Z -> list Z.
Variable pos : Z -> list Z -> list Z.
Definition matched (k : Z) (f f' : list Z -> R) : Prop := forall idx, in_range (D k) idx -> in_range (D k) (pos k idx) -> f' (pos k idx) = f idx.
Definition optim_match (o o' : optim R) : Prop :=
  match o, o' with
  | OSGD a, OSGD a' => exists b, a' = mkSGD (sg_lr a) (sg_mom a) (sg_damp a) (sg_wd a) (sg_nest a) b /\ forall k, matched k (buf_el (sg_buf a) k) (buf_el b k)
  | ORMS a, ORMS a' => rp_lr a' = rp_lr a /\ rp_alpha a' = rp_alpha a /\ rp_eps a' = rp_eps a /\ rp_mom a' = rp_mom a /\ rp_cent a' = rp_cent a /\ rp_wd a' = rp_wd a /\
      forall k idx, in_range (D k) idx -> in_range (D k) (pos k idx) -> rms_aux a' k (pos k idx) = rms_aux a k idx
  | OAdam a, OAdam a' => exists m v, a' = mkAdam (ad_init a) (ad_lr a) (ad_b1 a) (ad_b2 a) (ad_eps a) (ad_l1 a) (ad_l2 a) (ad_decay a) (ad_it a) (ad_batch a) m v /\
      forall k, matched k (buf_el (ad_m a) k) (buf_el m k) /\ matched k (buf_el (ad_v a) k) (buf_el v k)
  | _, _ => False
  end.
Lemma new_match : forall o : optim R, new_optim o -> optim_match o o.
Proof.
  intros o H. destruct H; cbn [optim_match sgd_new rms_new adam_new].
  - eexists. split; [reflexivity|]. intros k idx _ _. reflexivity.
  - do 6 (split; [reflexivity|]). intros k idx _ _. reflexivity.
  - do 2 eexists. split; [reflexivity|]. intros k. split; intros idx _ _; reflexivity.
Qed.
Definition wm (k : Z) (w w' : tensor R) : Prop := good w /\ good w' /\ tdims w = D k /\ tmoved (pos k) w w'.
Lemma wm_matched : forall k w w', wm k w w' -> matched k (el w) (el w').
Proof. intros k w w' (_ & _ & E & _ & V) idx HI _. rewrite <- E in HI. apply V. auto. Qed.
Lemma wm_range : forall k w w' idx, wm k w w' -> in_range (D k) idx -> in_range (D k) (pos k idx).
Proof. intros k w w' idx (_ & _ & E & _ & V) HI. rewrite <- E in *. apply V. auto. Qed.
Lemma wm_intro : forall k w w' w1 w1', wm k w w' -> good w1 -> good w1' -> tdims w1 = D k -> tdims w1' = D k -> (forall idx, in_range (D k) idx -> in_range (D k) (pos k idx) -> el w1' (pos k idx) = el w1 idx) -> wm k w1 w1'.
Proof.
  intros k w w' w1 w1' HW G1 G1' E1 E1' V. split; [auto|]. split; [auto|]. split; [auto|]. split; [congruence|]. rewrite E1. intros idx HI. pose proof (wm_range k w w' idx HW HI). auto.
Qed.
Lemma sgd_match : forall (o o' : sgd R) k (w w' g g' : tensor R) lr, bufs_ok D (sg_buf o) -> bufs_ok D (sg_buf o') -> wm k w w' -> wm k g g' -> optim_match (OSGD o) (OSGD o') ->
  exists o1 o1' w1 w1', sgd_update o k w g lr = (o1, Ok w1) /\ sgd_update o' k w' g' lr = (o1', Ok w1') /\ bufs_ok D (sg_buf o1) /\ bufs_ok D (sg_buf o1') /\ wm k w1 w1' /\ optim_match (OSGD o1) (OSGD o1') /\ sg_lr o1 = sg_lr o /\ sg_lr o1' = sg_lr o'.
Proof.
  intros o o' k w w' g g' lr HB HB' HW HG (b & -> & HM). cbn [sg_buf] in HB'. pose proof HW as (Gw & Gw' & Ew & Ew' & _). pose proof HG as (Gg & Gg' & Eg & Eg' & _).
  destruct (sgd_update_ok D o k w g lr HB Gw Ew Gg Eg) as (m & w1 & E1 & Gm & Em & G1 & D1 & V).
  destruct (sgd_update_ok D (mkSGD (sg_lr o) (sg_mom o) (sg_damp o) (sg_wd o) (sg_nest o) b) k w' g' lr HB' Gw' ltac:(congruence) Gg' ltac:(congruence)) as (m' & w1' & E1' & Gm' & Em' & G1' & D1' & V').
  cbn [sg_lr sg_mom sg_damp sg_wd sg_nest sg_buf] in *.
  assert (HH : forall idx, in_range (D k) idx -> in_range (D k) (pos k idx) -> (el w1' (pos k idx), el m' (pos k idx)) = (el w1 idx, el m idx)).
  { intros idx H1 H2. rewrite (V' _ H2), (V _ H1), (wm_matched k w w' HW idx H1 H2), (wm_matched k g g' HG idx H1 H2), (HM k idx H1 H2). reflexivity. }
  do 4 eexists. split; [exact E1|]. split; [exact E1'|]. cbn [sg_buf sg_lr]. split; [apply bufs_ok_put; auto|]. split; [apply bufs_ok_put; auto|]. split; [apply (wm_intro k w w'); auto; intros idx H1 H2; specialize (HH idx H1 H2); congruence|].
  split; [|auto]. cbn [optim_match]. eexists. split; [reflexivity|]. intros k' idx H1 H2. cbn [sg_buf]. rewrite !buf_el_put. destruct (Z.eqb_spec k' k) as [EK|NK]; [subst k'; specialize (HH idx H1 H2); congruence|exact (HM k' idx H1 H2)].
Qed.
Lemma rms_match : forall (o o' : rms R) k (w w' g g' : tensor R) lr, rms_ok D o -> rms_ok D o' -> wm k w w' -> wm k g g' -> optim_match (ORMS o) (ORMS o') ->
  exists o1 o1' w1 w1', rms_update o k w g lr = (o1, Ok w1) /\ rms_update o' k w' g' lr = (o1', Ok w1') /\ rms_ok D o1 /\ rms_ok D o1' /\ wm k w1 w1' /\ optim_match (ORMS o1) (ORMS o1') /\ rp_lr o1 = rp_lr o /\ rp_lr o1' = rp_lr o'.
Proof.
  intros o o' k w w' g g' lr HB HB' HW HG (A1 & A2 & A3 & A4 & A5 & A6 & HM). pose proof HW as (Gw & Gw' & Ew & Ew' & _). pose proof HG as (Gg & Gg' & Eg & Eg' & _).
  destruct (rms_update_ok D o k w g lr HB Gw Ew Gg Eg) as (o1 & w1 & E1 & HB1 & B1 & B2 & B3 & B4 & B5 & B6 & G1 & D1 & V & VO).
  destruct (rms_update_ok D o' k w' g' lr HB' Gw' ltac:(congruence) Gg' ltac:(congruence)) as (o1' & w1' & E1' & HB1' & C1 & C2 & C3 & C4 & C5 & C6 & G1' & D1' & V' & VO').
  assert (HH : forall idx, in_range (D k) idx -> in_range (D k) (pos k idx) -> (el w1' (pos k idx), rms_aux o1' k (pos k idx)) = (el w1 idx, rms_aux o1 k idx)).
  { intros idx H1 H2. pose proof (V' _ H2) as Va. pose proof (V _ H1) as Vb. rewrite (wm_matched k w w' HW idx H1 H2), (wm_matched k g g' HG idx H1 H2), (HM k idx H1 H2), A2, A3, A4, A5, A6 in Va.
    destruct (rms_aux o k idx) as ((s & m) & v). destruct (rms_aux o1 k idx) as ((s1 & m1) & v1). destruct (rms_aux o1' k (pos k idx)) as ((s2 & m2) & v2). congruence. }
  exists o1, o1', w1, w1'. do 4 (split; [auto|]). split; [apply (wm_intro k w w'); auto; intros idx H1 H2; specialize (HH idx H1 H2); congruence|].
  split; [|auto]. cbn [optim_match]. do 6 (split; [congruence|]). intros k' idx H1 H2. destruct (Z.eq_dec k' k) as [EK|NK]; [subst k'; specialize (HH idx H1 H2); congruence|]. rewrite VO, VO' by exact NK. auto.
Qed.
Lemma adam_match : forall (o o' : adam R) k (w w' g g' : tensor R) u, adam_ok D o -> adam_ok D o' -> wm k w w' -> wm k g g' -> optim_match (OAdam o) (OAdam o') ->
  exists o1 o1' w1 w1', adam_update o k w g u = (o1, Ok w1) /\ adam_update o' k w' g' u = (o1', Ok w1') /\ adam_ok D o1 /\ adam_ok D o1' /\ wm k w1 w1' /\ optim_match (OAdam o1) (OAdam o1').
Proof.
  intros o o' k w w' g g' u HB HB' HW HG (bm & bv & -> & HM). pose proof HW as (Gw & Gw' & Ew & Ew' & _). pose proof HG as (Gg & Gg' & Eg & Eg' & _).
  destruct (adam_update_ok D o k w g u HB Gw Ew Gg Eg) as (m & v & w1 & E1 & HB1 & G1 & D1 & V).
  destruct (adam_update_ok D (mkAdam (ad_init o) (ad_lr o) (ad_b1 o) (ad_b2 o) (ad_eps o) (ad_l1 o) (ad_l2 o) (ad_decay o) (ad_it o) (ad_batch o) bm bv) k w' g' u HB' Gw' ltac:(congruence) Gg' ltac:(congruence)) as (m' & v' & w1' & E1' & HB1' & G1' & D1' & V').
  cbn [ad_m ad_v] in V'.
  assert (HH : forall idx, in_range (D k) idx -> in_range (D k) (pos k idx) -> (el w1' (pos k idx), el m' (pos k idx), el v' (pos k idx)) = (el w1 idx, el m idx, el v idx)).
  { intros idx H1 H2. destruct (HM k) as (M1 & M2). rewrite (V' _ H2), (V _ H1), (wm_matched k w w' HW idx H1 H2), (wm_matched k g g' HG idx H1 H2), (M1 idx H1 H2), (M2 idx H1 H2). reflexivity. }
  do 4 eexists. split; [exact E1|]. split; [exact E1'|]. split; [exact HB1|]. split; [exact HB1'|]. split; [apply (wm_intro k w w'); auto; intros idx H1 H2; specialize (HH idx H1 H2); congruence|].
  cbn [optim_match adam_with ad_init ad_lr ad_b1 ad_b2 ad_eps ad_l1 ad_l2 ad_decay ad_it ad_batch ad_m ad_v]. do 2 eexists. split; [reflexivity|]. intros k'. destruct (HM k') as (M1 & M2).
  split; intros idx H1 H2; rewrite !buf_el_put; (destruct (Z.eqb_spec k' k) as [EK|NK]; [subst k'; specialize (HH idx H1 H2); congruence|auto]).
Qed.
Lemma pair_match : forall (o o2 : optim R) i (w b gw gb w2 b2 gw2 gb2 : tensor R) o' w' b', optim_ready D o -> optim_ready D o2 ->
  wm (2 * i) w w2 -> wm (2 * i) gw gw2 -> wm (2 * i + 1) b b2 -> wm (2 * i + 1) gb gb2 -> optim_match o o2 -> pair_optimize o i w b gw gb = (o', w', b', Ok tt) ->
  exists o2' w2' b2', pair_optimize o2 i w2 b2 gw2 gb2 = (o2', w2', b2', Ok tt) /\ optim_ready D o' /\ optim_ready D o2' /\ optim_match o' o2' /\ wm (2 * i) w' w2' /\ wm (2 * i + 1) b' b2'.
Proof.
  intros o o2 i w b gw gb w2 b2 gw2 gb2 o' w' b' HO HO2 HW HGW HB HGB HM E. unfold pair_optimize in *.
  assert (F1 : forall w b : tensor R, pair_store i w b (2 * i) = w) by (intros; unfold pair_store; rewrite Z.eqb_refl; reflexivity).
  assert (F2 : forall w b w' : tensor R, put (pair_store i w b) (2 * i) w' (2 * i + 1) = b) by (intros; rewrite put_neq by lia; unfold pair_store; destruct (Z.eqb_spec (2 * i + 1) (2 * i)); [lia|reflexivity]).
  assert (F3 : forall w b w' b' : tensor R, put (put (pair_store i w b) (2 * i) w') (2 * i + 1) b' (2 * i) = w') by (intros; rewrite put_neq by lia; apply put_eq).
  assert (F4 : forall w b w' b' : tensor R, put (put (pair_store i w b) (2 * i) w') (2 * i + 1) b' (2 * i + 1) = b') by (intros; apply put_eq).
  destruct o as [s|s|s], o2 as [s2|s2|s2]; try (destruct HM; fail); cbn [optim_optimize optim_ready] in *.
  - unfold sgd_optimize in *. change (Zlen [2 * i; 2 * i + 1] =? Zlen [gw; gb]) with true in E. change (Zlen [2 * i; 2 * i + 1] =? Zlen [gw2; gb2]) with true. cbn [negb combine opt_loop] in *. rewrite F1 in *.
    assert (EL : sgd_rate s2 (s_z (-1)) = sgd_rate s (s_z (-1))) by (destruct HM as (bb & -> & _); reflexivity).
    destruct (sgd_match s s2 (2 * i) w w2 gw gw2 (sgd_rate s (s_z (-1))) HO HO2 HW HGW HM) as (s3 & s4 & w3 & w4 & E3 & E4 & R3 & R4 & HW3 & HM3 & L3 & L4). rewrite E3 in E. rewrite EL, E4. rewrite F2 in *.
    destruct (sgd_match s3 s4 (2 * i + 1) b b2 gb gb2 (sgd_rate s (s_z (-1))) R3 R4 HB HGB HM3) as (s5 & s6 & b5 & b6 & E5 & E6 & R5 & R6 & HB5 & HM5 & L5 & L6). rewrite E5 in E. rewrite E6. rewrite F3, F4 in E. rewrite F3, F4. injection E as <- <- <-.
    do 3 eexists. split; [reflexivity|]. auto 10.
  - unfold rms_optimize in *. change (Zlen [2 * i; 2 * i + 1] =? Zlen [gw; gb]) with true in E. change (Zlen [2 * i; 2 * i + 1] =? Zlen [gw2; gb2]) with true. cbn [negb combine opt_loop] in *. rewrite F1 in *.
    assert (EL : rms_rate s2 (s_z (-1)) = rms_rate s (s_z (-1))) by (destruct HM as (EL & _); unfold rms_rate; rewrite EL; reflexivity).
    destruct (rms_match s s2 (2 * i) w w2 gw gw2 (rms_rate s (s_z (-1))) HO HO2 HW HGW HM) as (s3 & s4 & w3 & w4 & E3 & E4 & R3 & R4 & HW3 & HM3 & L3 & L4). rewrite E3 in E. rewrite EL, E4. rewrite F2 in *.
    destruct (rms_match s3 s4 (2 * i + 1) b b2 gb gb2 (rms_rate s (s_z (-1))) R3 R4 HB HGB HM3) as (s5 & s6 & b5 & b6 & E5 & E6 & R5 & R6 & HB5 & HM5 & L5 & L6). rewrite E5 in E. rewrite E6. rewrite F3, F4 in E. rewrite F3, F4. injection E as <- <- <-.
    do 3 eexists. split; [reflexivity|]. auto 10.
  - unfold adam_optimize in *. change (Zlen [2 * i; 2 * i + 1] =? Zlen [gw; gb]) with true in E. change (Zlen [2 * i; 2 * i + 1] =? Zlen [gw2; gb2]) with true. cbn [negb combine] in *. unfold adam_rate in *.
    destruct HM as (bm & bv & -> & HM). cbn [ad_init ad_lr ad_b1 ad_b2 ad_eps ad_l1 ad_l2 ad_decay ad_it ad_batch ad_m ad_v] in *. destruct (chk32 (ad_it s + 1)) as [it|e| | |]; cbn [bind] in *; try discriminate.
    set (s0 := mkAdam _ _ _ _ _ _ _ _ _ _ (ad_m s) (ad_v s)) in E. set (s0' := mkAdam _ _ _ _ _ _ _ _ _ _ bm bv) in |- *. cbn [opt_loop] in *. rewrite F1 in *. assert (HO0 : adam_ok D s0) by exact HO. assert (HO0' : adam_ok D s0') by exact HO2.
    assert (HM0 : optim_match (OAdam s0) (OAdam s0')) by (exists bm, bv; split; [reflexivity|exact HM]).
    destruct (adam_match s0 s0' (2 * i) w w2 gw gw2 tt HO0 HO0' HW HGW HM0) as (s3 & s4 & w3 & w4 & E3 & E4 & R3 & R4 & HW3 & HM3). rewrite E3 in E. rewrite E4. rewrite F2 in *.
    destruct (adam_match s3 s4 (2 * i + 1) b b2 gb gb2 tt R3 R4 HB HGB HM3) as (s5 & s6 & b5 & b6 & E5 & E6 & R5 & R6 & HB5 & HM5). rewrite E5 in E. rewrite E6. rewrite F3, F4 in E. rewrite F3, F4. injection E as <- <- <-.
    do 3 eexists. split; [reflexivity|]. auto 10.
Qed.
End Pos.

Lemma update_none : forall i (l : layer) (o : optim R), layer_params l = None -> layer_update i l o = (l, o, Ok tt).
Proof. intros i [l|l|l|l|l|l|l] o H; try discriminate; reflexivity. Qed.
Lemma update_some : forall i (l : layer) (o : optim R) w b gw gb, layer_params l = Some (w, b) -> layer_grads l = Some (gw, gb) ->
  layer_update i l o = let '(o', w', b', r) := pair_optimize o i w b gw gb in (with_params l w' b', o', r).
Proof.
  intros i [l|l|l|l|l|l|l] o w b gw gb HP HG; try discriminate; cbn [layer_params] in HP; injection HP as <- <-; cbn [layer_grads] in HG; cbn [layer_update].
  - destruct (fc_gw l) eqn:Q1, (fc_gb l) eqn:Q2; try discriminate. injection HG as -> ->. cbn [with_params]. rewrite Q1, Q2. reflexivity.
  - destruct (cv_gw l) eqn:Q1, (cv_gb l) eqn:Q2; try discriminate. injection HG as -> ->. cbn [with_params]. rewrite Q1, Q2. reflexivity.
  - destruct (bn_ggamma l) eqn:Q1, (bn_gbeta l) eqn:Q2; try discriminate. injection HG as -> ->. cbn [with_params]. rewrite Q1, Q2. reflexivity.
Qed.
Lemma renumbered_with : forall p q (l l' : layer) w b w0 b0 w1 b1 w1' b1', renumbered p l l' q -> layer_params l = Some (w, b) -> layer_params l' = Some (w0, b0) ->
  good w1 -> good w1' -> good b1 -> good b1' -> tdims w1 = tdims w -> tdims b1 = tdims b -> tmoved (wpos p q) w1 w1' -> tmoved (bpos q) b1 b1' -> renumbered p (with_params l w1 b1) (with_params l' w1' b1') q.
Proof.
  intros p q l l' w b w0 b0 w1 b1 w1' b1' H EP EP' Gw Gw' Gb Gb' Ew Eb MW MB. destruct H as [p q k o l l' G1 G2 E1 E2 E3 E4 O1 O2 V1 V2|p l l' E|l].
  - cbn [layer_params] in EP. injection EP as <- <-. cbn [with_params]. destruct MW as (Dw & Vw), MB as (Db & Vb). rewrite Ew, E1 in *. rewrite Eb, E3 in *. apply (rn_fc p q k o); cbn [fc_w fc_b]; auto.
    + intros i j Hi Hj. apply (Vw [i; j]). apply in_range2; auto.
    + intros j Hj. apply (Vb [0; j]). apply in_range2; auto; lia.
  - discriminate.
  - rewrite (tmoved_eq (wpos None None) w1 w1'), (tmoved_eq (bpos None) b1 b1') by (auto using wpos_none, bpos_none). constructor.
Qed.
Section B.
Variable D : Z -> list Z.
Variable ps : list order.
Definition p_in (i : Z) : order := nth (Z.to_nat i) ps None.
Definition p_out (i : Z) : order := nth (Datatypes.S (Z.to_nat i)) ps None.
Definition pos_of (k : Z) : list Z -> list Z := if Z.even k then wpos (p_in (k / 2)) (p_out (k / 2)) else bpos (p_out (k / 2)).
Lemma pos_w : forall i, pos_of (2 * i) = wpos (p_in i) (p_out i).
Proof. intros i. unfold pos_of. assert (E2 : 2 * i / 2 = i) by (rewrite Z.mul_comm; apply Z.div_mul; lia). assert (EV : Z.even (2 * i) = true) by (rewrite Z.even_mul; reflexivity). rewrite E2, EV. reflexivity. Qed.
Lemma pos_b : forall i, pos_of (2 * i + 1) = bpos (p_out i).
Proof.
  intros i. unfold pos_of. assert (E2 : (2 * i + 1) / 2 = i) by (rewrite Z.add_comm, Z.mul_comm, Z.div_add by lia; reflexivity). assert (EV : Z.even (2 * i + 1) = false) by (rewrite Z.even_add, Z.even_mul; reflexivity). rewrite E2, EV. reflexivity.
Qed.
Lemma update_match : forall ls ls2 ps' i (o o2 : optim R) ls' o', 0 <= i -> (forall n, nth n ps' None = nth (Z.to_nat i + n) ps None) -> renumbering ps' ls ls2 -> grads_moved ps' ls ls2 ->
  Forall armed ls -> Forall armed ls2 -> dims_at D i ls -> optim_ready D o -> optim_ready D o2 -> optim_match D pos_of o o2 -> update_all i ls o = (ls', o', Ok tt) ->
  exists ls2' o2', update_all i ls2 o2 = (ls2', o2', Ok tt) /\ renumbering ps' ls' ls2' /\ optim_match D pos_of o' o2' /\ optim_ready D o2'.
Proof.
  induction ls as [|l ls IH]; intros ls2 ps' i o o2 ls' o' Hi HN HR2 HG HA HA2 HD HO HO2 HM E.
  - inversion HR2; subst. cbn in E. injection E as <- <-. exists [], o2. split; [reflexivity|]. auto.
  - inversion HR2 as [|p q ps2 ? ? l2 r2 T1 T2]; subst. inversion HG as [|? ? ? ? ? ? ? G1 G2]; subst. inversion HA as [|? ? A1 A2]; subst. inversion HA2 as [|? ? B1 B2]; subst. destruct HD as (D1 & D2).
    assert (EP : p_in i = p) by (unfold p_in; specialize (HN 0%nat); rewrite Nat.add_0_r in HN; cbn [nth] in HN; auto).
    assert (EQ : p_out i = q) by (unfold p_out; specialize (HN 1%nat); rewrite Nat.add_1_r in HN; cbn [nth] in HN; auto).
    cbn [update_all] in *. destruct (layer_update i l o) as ((l1 & o1) & [[]|e| | |]) eqn:EU; try discriminate. destruct (update_all (i + 1) ls o1) as ((ls1 & o3) & e) eqn:EA. injection E as <- <- ->.
    assert (L : exists l3 o4, layer_update i l2 o2 = (l3, o4, Ok tt) /\ renumbered p l1 l3 q /\ optim_ready D o1 /\ optim_ready D o4 /\ optim_match D pos_of o1 o4).
    { pose proof (renumbered_params _ _ _ _ T1) as PM. unfold armed in A1, B1. destruct (layer_params l) as [(w & b)|] eqn:Q1.
      - destruct (layer_params l2) as [(w2 & b2)|] eqn:Q2; [|destruct PM]. destruct PM as (PW & PB). destruct A1 as (Gw & Gb & gw & gb & EG & Ggw & Egw & Ggb & Egb). destruct B1 as (Gw2 & Gb2 & gw2 & gb2 & EG2 & Ggw2 & Egw2 & Ggb2 & Egb2).
        rewrite EG, EG2 in G1. destruct G1 as (GW & GB). destruct D1 as (D1 & D3). rewrite (update_some i l o w b gw gb Q1 EG) in EU. destruct (pair_optimize o i w b gw gb) as (((o1' & w') & b') & r) eqn:EO. injection EU as <- <- ->.
        destruct (pair_match D pos_of o o2 i w b gw gb w2 b2 gw2 gb2 o1' w' b') as (o4 & w4 & b4 & EO2 & R1 & R2 & M1 & (W1 & W2 & W3 & W4) & (X1 & X2 & X3 & X4)); auto.
        + unfold wm. rewrite pos_w, EP, EQ. auto.
        + unfold wm. rewrite pos_w, EP, EQ. split; [auto|]. split; [auto|]. split; [congruence|auto].
        + unfold wm. rewrite pos_b, EQ. auto.
        + unfold wm. rewrite pos_b, EQ. split; [auto|]. split; [auto|]. split; [congruence|auto].
        + rewrite (update_some i l2 o2 w2 b2 gw2 gb2 Q2 EG2), EO2. do 2 eexists. split; [reflexivity|]. split; [|auto]. rewrite pos_w, EP, EQ in W4. rewrite pos_b, EQ in X4.
          apply (renumbered_with p q l l2 w b w2 b2); auto; congruence.
      - destruct (layer_params l2) as [(w2 & b2)|] eqn:Q2; [destruct PM|]. rewrite update_none in EU by auto. injection EU as <- <-. exists l2, o2. rewrite update_none by auto. auto. }
    destruct L as (l3 & o4 & EU2 & RL & R1 & R4 & M4). rewrite EU2.
    destruct (IH r2 (q :: ps2) (i + 1) o1 o4 ls1 o3) as (ls4 & o5 & EA2 & K1 & K2 & K3); auto; [lia| |].
    + intros n. specialize (HN (Datatypes.S n)). cbn [nth] in HN |- *. rewrite HN. f_equal. rewrite Z2Nat.inj_add by lia. change (Z.to_nat 1) with 1%nat. lia.
    + rewrite EA2. do 2 eexists. split; [reflexivity|]. split; [constructor; auto|auto].
Qed.
Lemma renum_fit_step : forall ds ds' (n n2 : net R G) lo o o2 (x x2 t t2 : tensor R), trainable D ds ds' n lo o -> room o (Zlen (n_layers n)) -> good x -> tdims x = ds -> target_fits lo ds' t ->
  renumbering ps (n_layers n) (n_layers n2) -> n_loss n2 = Some lo -> n_opt n2 = Some o2 -> n_rng n2 = n_rng n -> optim_ready D o2 -> optim_match D pos_of o o2 -> reordered (inputs ps) x x2 -> reordered (outputs ps) t t2 ->
  exists v n' n2' o' o2', fit_one_loss n x t v n' /\ fit_one_loss n2 x2 t2 v n2' /\ trainable D ds ds' n' lo o' /\ Zlen (n_layers n') = Zlen (n_layers n) /\ (forall k, 0 <= k -> room o (k + Zlen (n_layers n)) -> room o' k) /\
    renumbering ps (n_layers n') (n_layers n2') /\ n_loss n2' = Some lo /\ n_opt n2' = Some o2' /\ n_rng n2' = n_rng n' /\ optim_ready D o2' /\ optim_match D pos_of o' o2'.
Proof.
  intros ds ds' n m lo o o2 x x2 t t2 HT HM Gx Ex Ht RN ML MO MR RO2 OM RX RT. destruct (fit_step D ds ds' n lo o x t HT HM counts_R Gx Ex Ht) as (n1 & p & d & n2 & n' & o' & E1 & E2 & E3 & E4 & F & HT' & PD & HK & _).
  destruct HT as (HA & HL & HOp & HD & HO).
  destruct (renum_pass (n_layers n) ps ds ds' (n_layers m) x x2 (n_rng n) HA RN Gx Ex RX) as (ls1 & ls1' & g1 & y & y' & P1 & P1' & Gy & Ey & RY & HBk).
  unfold net_predict in E1. rewrite P1 in E1. injection E1 as <- <-. destruct (loss_reordered lo (outputs ps) ds' y y' t t2 Gy Ey RY Ht RT) as (Ht2 & EC & d0 & d' & ED & ED' & Gd & Edd & RD). rewrite E2 in ED. injection ED as <-.
  destruct (HBk d d' Gd Edd RD) as (ls2 & ls2' & gx & gx' & Q1 & Q1' & Ggx & Egx & _ & A2 & PL & PL' & AR & AR' & RN2 & GM2).
  unfold net_backward in E3. cbn [n_layers] in E3. rewrite Q1 in E3. cbn [step] in E3. injection E3 as <-. unfold net_with in E4. cbn [n_loss n_opt n_rng] in E4.
  destruct HT' as (HA' & HL' & HOp' & HD' & HO'). assert (HD2 : dims_at D 0 ls2) by (eapply dims_at_same; [apply params_dims_of; exact PL|exact HD]).
  destruct (loss_total lo ds' y t counts_R Gy Ey Ht) as ((c2 & EC2) & _).
  assert (U : exists n2' o2', net_update (mkNet ls2' (n_loss m) (n_opt m) g1) = (n2', Ok tt) /\ renumbering ps (n_layers n') (n_layers n2') /\ n_loss n2' = Some lo /\ n_opt n2' = Some o2' /\ n_rng n2' = n_rng n' /\ optim_ready D o2' /\ optim_match D pos_of o' o2').
  { unfold net_update in *. cbn [n_layers n_opt n_loss n_rng] in *. rewrite HOp in E4. rewrite MO. destruct ls2 as [|l2 r2] eqn:EL.
    - inversion RN2; subst. injection E4 as <-. cbn [n_layers n_opt n_rng] in *. injection HOp' as <-. eexists. exists o2. split; [reflexivity|]. cbn [n_layers n_loss n_opt n_rng]. split; [constructor|]. auto 10.
    - destruct (update_all 0 (l2 :: r2) o) as ((ls3 & o3) & r3) eqn:EU. injection E4 as <- ->. cbn [n_layers n_opt n_rng] in *. injection HOp' as ->.
      destruct (update_match (l2 :: r2) ls2' ps 0 o o2 ls3 o') as (ls4 & o4 & EU2 & K1 & K2 & K3); auto; [lia|].
      destruct ls2' as [|l2' r2']; [inversion RN2|]. rewrite EU2. do 2 eexists. split; [reflexivity|]. cbn [n_layers n_loss n_opt n_rng]. auto 10. }
  destruct U as (n2' & o2' & EU & K1 & K2 & K3 & K4 & K5 & K6). exists (el c2 [0]), n', n2', o', o2'. split; [|split].
  { exists (mkNet ls1 (n_loss n) (n_opt n) g1), (mkNet ls2 (n_loss n) (n_opt n) g1), y, c2, d, lo. unfold net_predict. rewrite P1. split; [reflexivity|]. do 4 (split; [auto|]). split; [|exact E4].
    unfold net_backward. cbn [n_layers]. rewrite Q1. reflexivity. }
  { exists (mkNet ls1' (n_loss m) (n_opt m) g1), (mkNet ls2' (n_loss m) (n_opt m) g1), y', c2, d', lo. unfold net_predict. rewrite MR, P1'. split; [reflexivity|]. split; [auto|]. split; [congruence|]. do 2 (split; [auto|]). split; [|exact EU].
    unfold net_backward. cbn [n_layers]. rewrite Q1'. reflexivity. }
  split; [split; auto|]. split; [unfold Zlen; f_equal; rewrite <- (map_length params_dims (n_layers n')), PD, map_length; reflexivity|]. split; [exact HK|]. auto 10.
Qed.
Definition sample_pair (ds ds' : list Z) (lo : loss) (s s2 : tensor R * tensor R) : Prop :=
  good (fst s) /\ tdims (fst s) = ds /\ target_fits lo ds' (snd s) /\ reordered (inputs ps) (fst s) (fst s2) /\ reordered (outputs ps) (snd s) (snd s2).
Lemma renum_losses : forall ds ds' lo samples samples2 (n n2 : net R G) o o2, Forall2 (sample_pair ds ds' lo) samples samples2 -> trainable D ds ds' n lo o -> room o (Zlen samples * Zlen (n_layers n)) ->
  renumbering ps (n_layers n) (n_layers n2) -> n_loss n2 = Some lo -> n_opt n2 = Some o2 -> n_rng n2 = n_rng n -> optim_ready D o2 -> optim_match D pos_of o o2 ->
  exists vs n' n2' o' o2', fit_losses n samples vs n' /\ fit_losses n2 samples2 vs n2' /\ trainable D ds ds' n' lo o' /\ Zlen (n_layers n') = Zlen (n_layers n) /\ (forall k, 0 <= k -> room o (k + Zlen samples * Zlen (n_layers n)) -> room o' k) /\
    renumbering ps (n_layers n') (n_layers n2') /\ n_loss n2' = Some lo /\ n_opt n2' = Some o2' /\ n_rng n2' = n_rng n' /\ optim_ready D o2' /\ optim_match D pos_of o' o2'.
Proof.
  intros ds ds' lo samples samples2 n n2 o o2 HF. revert n n2 o o2. induction HF as [|(x & t) (x2 & t2) r r2 (Gx & Ex & Ht & RX & RT) HF IH]; intros n n2 o o2 HT HM RN NL NO NR RO OM.
  - exists [], n, n2, o, o2. split; [constructor|]. split; [constructor|]. split; [exact HT|]. split; [reflexivity|]. split; [intros k Hk H; eapply room_le; [|exact H]; change (Zlen (@nil (tensor R * tensor R))) with 0; lia|]. auto 10.
  - cbn [fst snd] in *. rewrite Zlen_cons in *. pose proof (Zlen_nonneg r). pose proof (Zlen_nonneg (n_layers n)).
    destruct (renum_fit_step ds ds' n n2 lo o o2 x x2 t t2 HT) as (v & n' & n2' & o' & o2' & F & F2 & HT' & LEN & HK & RN' & NL' & NO' & NR' & RO' & OM'); auto; [eapply room_le; [|exact HM]; nia|].
    destruct (IH n' n2' o' o2' HT') as (vs & k & k2 & o3 & o4 & K1 & K2 & K3 & K4 & K5 & K6); auto; [rewrite LEN; apply HK; [nia|]; eapply room_le; [|exact HM]; nia|]. exists (v :: vs), k, k2, o3, o4.
    split; [econstructor; eauto|]. split; [econstructor; eauto|]. split; [exact K3|]. split; [congruence|]. split; [|exact K6]. intros j Hj HJ. apply K5; auto. rewrite LEN. apply HK; [nia|]. eapply room_le; [|exact HJ]. nia.
Qed.
Lemma renum_epochs : forall ds ds' lo samples samples2, Forall2 (sample_pair ds ds' lo) samples samples2 -> forall e (n n2 : net R G) o o2, trainable D ds ds' n lo o -> room o (Z.of_nat e * Zlen samples * Zlen (n_layers n)) ->
  renumbering ps (n_layers n) (n_layers n2) -> n_loss n2 = Some lo -> n_opt n2 = Some o2 -> n_rng n2 = n_rng n -> optim_ready D o2 -> optim_match D pos_of o o2 ->
  exists lss n' n2', fit_epochs samples n lss n' /\ fit_epochs samples2 n2 lss n2' /\ List.length lss = e /\ accepts_all ds (n_layers n') ds' /\ renumbering ps (n_layers n') (n_layers n2') /\ n_rng n2' = n_rng n'.
Proof.
  intros ds ds' lo samples samples2 HF. induction e as [|e IH]; intros n n2 o o2 HT HM RN NL NO NR RO OM.
  - exists [], n, n2. split; [constructor|]. split; [constructor|]. split; [reflexivity|]. split; [apply HT|auto].
  - pose proof (Zlen_nonneg samples). pose proof (Zlen_nonneg (n_layers n)). destruct (renum_losses ds ds' lo samples samples2 n n2 o o2 HF HT) as (vs & n' & n2' & o' & o2' & F & F2 & HT' & LEN & HK & RN' & NL' & NO' & NR' & RO' & OM'); auto; [eapply room_le; [|exact HM]; nia|].
    destruct (IH n' n2' o' o2' HT') as (lss & k & k2 & K1 & K2 & K3 & K4); auto; [rewrite LEN; apply HK; [nia|]; eapply room_le; [|exact HM]; nia|]. exists (vs :: lss), k, k2. split; [econstructor; eauto|]. split; [econstructor; eauto|]. split; [cbn [List.length]; congruence|exact K4].
Qed.
End B.
Theorem renum_train : forall (show : R -> string) ps ds ds' lo o (n n2 : net R G) xs xs2 ts ts2 e, accepts_all ds (n_layers n) ds' -> n_loss n = Some lo -> n_opt n = Some o -> new_optim o ->
  0 < Zlen xs <= Zlen ts -> Zlen xs <= INT_MAX -> 0 <= e -> e * Zlen xs * Zlen (n_layers n) <= INT_MAX -> Forall (fun x => good x /\ tdims x = ds) xs -> Forall (target_fits lo ds') ts ->
  renumbering ps (n_layers n) (n_layers n2) -> n_loss n2 = n_loss n -> n_opt n2 = n_opt n -> n_rng n2 = n_rng n -> Forall2 (reordered (inputs ps)) xs xs2 -> Forall2 (reordered (outputs ps)) ts ts2 ->
  exists n' n2' out, net_train_report show n xs ts e = ((n', out), Ok tt) /\ net_train_report show n2 xs2 ts2 e = ((n2', out), Ok tt) /\ accepts_all ds (n_layers n') ds' /\ renumbering ps (n_layers n') (n_layers n2') /\ n_rng n2' = n_rng n'.
Proof.
  intros show ps ds ds' lo o n n2 xs xs2 ts ts2 e HA HL HOp HN (HX1 & HX2) HX3 HE HM HF1 HF2 RN NL NO NR RX RT. pose (D := fun k => dims_map (n_layers n) (k - 2 * 0)).
  assert (LC : Zlen (combine xs ts) = Zlen xs) by (unfold Zlen in *; rewrite combine_length; lia).
  assert (LX : Zlen xs2 = Zlen xs) by (clear - RX; induction RX; rewrite ?Zlen_cons; congruence). assert (LT : Zlen ts2 = Zlen ts) by (clear - RT; induction RT; rewrite ?Zlen_cons; congruence).
  destruct (renum_epochs D ps ds ds' lo (combine xs ts) (combine xs2 ts2)) with (e := Z.to_nat e) (n := n) (n2 := n2) (o := o) (o2 := o) as (lss & n' & n2' & F & F2 & LE & A & P & K); auto; try congruence.
  - clear - HF1 HF2 RX RT. unfold sample_pair. revert ts ts2 HF2 RT. induction RX as [|x x2 xs xs2 H RX IH]; intros ts ts2 HF2 RT; [constructor|]. inversion HF1 as [|? ? (H1 & H2) HF1']; subst. inversion RT; subst; cbn [combine]; constructor; [|inversion HF2; subst; auto]. cbn [fst snd]. inversion HF2; subst. auto.
  - split; [auto|]. split; [auto|]. split; [auto|]. split; [apply dims_map_at|apply new_ready; auto].
  - apply new_room; auto. rewrite LC, Z2Nat.id by lia. auto.
  - apply new_ready; auto.
  - apply new_match; auto.
  - exists n', n2', (report_from show 0 (map average lss)). split; [|split]; [| |auto]; apply train_report; try lia; try (apply counts_R; lia); exists lss; auto.
Qed.
Theorem renum_predict : forall ps ds ds' (n n2 : net R G) (x x2 : tensor R), accepts_all ds (n_layers n) ds' -> renumbering ps (n_layers n) (n_layers n2) -> n_rng n2 = n_rng n -> good x -> tdims x = ds -> reordered (inputs ps) x x2 ->
  exists n' n2' y y2, net_predict n x = (n', Ok y) /\ net_predict n2 x2 = (n2', Ok y2) /\ good y /\ tdims y = ds' /\ reordered (outputs ps) y y2.
Proof.
  intros ps ds ds' n n2 x x2 HA RN NR Gx Ex RX. destruct (renum_pass (n_layers n) ps ds ds' (n_layers n2) x x2 (n_rng n) HA RN Gx Ex RX) as (ls1 & ls1' & g1 & y & y' & P1 & P1' & Gy & Ey & RY & _).
  unfold net_predict. rewrite NR, P1, P1'. do 4 eexists. split; [reflexivity|]. split; [reflexivity|]. auto.
Qed.
Theorem renum_trained : forall (show : R -> string) ps ds ds' lo o (n n2 : net R G) xs xs2 ts ts2 e, accepts_all ds (n_layers n) ds' -> n_loss n = Some lo -> n_opt n = Some o -> new_optim o ->
  0 < Zlen xs <= Zlen ts -> Zlen xs <= INT_MAX -> 0 <= e -> e * Zlen xs * Zlen (n_layers n) <= INT_MAX -> Forall (fun x => good x /\ tdims x = ds) xs -> Forall (target_fits lo ds') ts ->
  renumbering ps (n_layers n) (n_layers n2) -> n_loss n2 = n_loss n -> n_opt n2 = n_opt n -> n_rng n2 = n_rng n -> Forall2 (reordered (inputs ps)) xs xs2 -> Forall2 (reordered (outputs ps)) ts ts2 ->
  exists n' n2' out, net_train_report show n xs ts e = ((n', out), Ok tt) /\ net_train_report show n2 xs2 ts2 e = ((n2', out), Ok tt) /\ renumbering ps (n_layers n') (n_layers n2') /\
    forall x x2, good x -> tdims x = ds -> reordered (inputs ps) x x2 -> exists m m2 y y2, net_predict n' x = (m, Ok y) /\ net_predict n2' x2 = (m2, Ok y2) /\ tdims y = ds' /\ reordered (outputs ps) y y2.
Proof.
  intros show ps ds ds' lo o n n2 xs xs2 ts ts2 e HA HL HOp HN HX HX3 HE HM HF1 HF2 RN NL NO NR RX RT. destruct (renum_train show ps ds ds' lo o n n2 xs xs2 ts ts2 e) as (n' & n2' & out & E1 & E2 & A & P & K); auto.
  exists n', n2', out. do 3 (split; [auto|]). intros x x2 Gx Ex Rx. destruct (renum_predict ps ds ds' n' n2' x x2) as (m & m2 & y & y2 & F1 & F2 & _ & Ey & RY); auto. exists m, m2, y, y2. auto.
Qed.
Lemma reordered_none : forall l l' : list (tensor R), Forall2 (reordered None) l l' <-> l' = l.
Proof. intros l l'. split; [intros H; induction H as [|x x' l l' E H IH]; [reflexivity|cbn [reordered] in E; congruence]|intros ->; induction l; constructor; [reflexivity|auto]]. Qed.
Theorem renum_hidden : forall (show : R -> string) ps ds ds' lo o (n n2 : net R G) xs ts e, accepts_all ds (n_layers n) ds' -> n_loss n = Some lo -> n_opt n = Some o -> new_optim o ->
  0 < Zlen xs <= Zlen ts -> Zlen xs <= INT_MAX -> 0 <= e -> e * Zlen xs * Zlen (n_layers n) <= INT_MAX -> Forall (fun x => good x /\ tdims x = ds) xs -> Forall (target_fits lo ds') ts ->
  renumbering ps (n_layers n) (n_layers n2) -> inputs ps = None -> outputs ps = None -> n_loss n2 = n_loss n -> n_opt n2 = n_opt n -> n_rng n2 = n_rng n ->
  exists n' n2' out, net_train_report show n xs ts e = ((n', out), Ok tt) /\ net_train_report show n2 xs ts e = ((n2', out), Ok tt) /\
    forall x, good x -> tdims x = ds -> exists y, snd (net_predict n' x) = Ok y /\ snd (net_predict n2' x) = Ok y.
Proof.
  intros show ps ds ds' lo o n n2 xs ts e HA HL HOp HN HX HX3 HE HM HF1 HF2 RN IP OP NL NO NR. destruct (renum_trained show ps ds ds' lo o n n2 xs xs ts ts e) as (n' & n2' & out & E1 & E2 & _ & P); auto; rewrite ?IP, ?OP; try (apply reordered_none; reflexivity).
  exists n', n2', out. do 2 (split; [auto|]). intros x Gx Ex. destruct (P x x Gx Ex) as (m & m2 & y & y2 & F1 & F2 & _ & RY); [rewrite IP; reflexivity|]. rewrite OP in RY. cbn [reordered] in RY. subst y2. exists y. rewrite F1, F2. auto.
Qed.
End S.

(** ** In float32 the order matters *)
Section F.
Variable lm : libm.
Let SF : Scalar f32 := F32Scalar lm.
#[local] Existing Instance SF.
Context {G : Type} {HR : Rng f32 G}.
Definition swap12 (i : Z) : Z := if i =? 1 then 2 else if i =? 2 then 1 else i.
Definition sum_layer : layer f32 := LFC (mkFC (tensor_of [3; 1] (fun _ => f32_of_Z 1)) (tensor_of [1; 1] (fun _ => f32_of_Z 0)) None None None).
Definition sum_x : tensor f32 := tensor_of [1; 3] (fun idx => f32_of_Z (nth (Z.to_nat (nth 1 idx 0)) [2 ^ 24; 1; - 2 ^ 24] 0)).
Definition sum_x2 : tensor f32 := tensor_of [1; 3] (fun idx => f32_of_Z (nth (Z.to_nat (nth 1 idx 0)) [2 ^ 24; - 2 ^ 24; 1] 0)).
Definition sum_net (g : G) : net f32 G := mkNet [sum_layer] None None g.
Definition sum_out (g : G) (x : tensor f32) : option f32 := match snd (net_predict (sum_net g) x) with Ok y => Some (el y [0; 0]) | _ => None end.
Lemma sum_one : forall g, sum_out g sum_x = Some (f32_of_Z 0).
Proof. intros g. vm_compute. reflexivity. Qed.
Lemma sum_two : forall g, sum_out g sum_x2 = Some (f32_of_Z 1).
Proof. intros g. vm_compute. reflexivity. Qed.
Lemma swap12_permutes : permutes 3 swap12.
Proof.
  assert (H : forall i, 0 <= i < 3 -> i = 0 \/ i = 1 \/ i = 2) by (intros; lia).
  split; [intros i Hi; destruct (H i Hi) as [-> | [-> | ->]]; vm_compute; split; congruence|]. intros i j Hi Hj E. destruct (H i Hi) as [-> | [-> | ->]], (H j Hj) as [-> | [-> | ->]]; vm_compute in E; congruence.
Qed.
Theorem float_features : forall g : G, exists (n n2 : net f32 G) (x x2 y y2 : tensor f32), renumbering [Some swap12; None] (n_layers n) (n_layers n2) /\ good x /\ tdims x = [1; 3] /\ reordered (Some swap12) x x2 /\
  snd (net_predict n x) = Ok y /\ snd (net_predict n2 x2) = Ok y2 /\ el y [0; 0] = f32_of_Z 0 /\ el y2 [0; 0] = f32_of_Z 1.
Proof.
  intros g. assert (GG : forall ds f, pos_dims ds -> prod ds <= INT_MAX -> good (tensor_of ds f : tensor f32)) by (intros; apply good_tensor_of; auto).
  assert (GX : forall f, good (tensor_of [1; 3] f : tensor f32)) by (intros; apply GG; [split; [discriminate|repeat constructor]|vm_compute; discriminate]).
  assert (H3 : forall i, 0 <= i < 3 -> i = 0 \/ i = 1 \/ i = 2) by (intros; lia).
  pose proof (sum_one g) as A. pose proof (sum_two g) as B. unfold sum_out in A, B. destruct (snd (net_predict (sum_net g) sum_x)) as [y|e| | |] eqn:A1; try discriminate A. destruct (snd (net_predict (sum_net g) sum_x2)) as [y2|e| | |] eqn:B1; try discriminate B.
  exists (sum_net g), (sum_net g), sum_x, sum_x2, y, y2. split.
  - cbn [sum_net n_layers]. apply rns_cons; [|apply rns_nil]. unfold sum_layer. apply (rn_fc (Some swap12) None 3 1); cbn [fc_w fc_b orders new_place]; try reflexivity; try exact swap12_permutes; try exact I.
    + apply GG; [split; [discriminate|repeat constructor]|vm_compute; discriminate].
    + apply GG; [split; [discriminate|repeat constructor]|vm_compute; discriminate].
    + intros i j Hi Hj. pose proof (proj1 swap12_permutes i Hi). rewrite !el_tensor_of by (apply in_range2; auto). reflexivity.
  - split; [apply GX|]. split; [reflexivity|]. split; [|split; [auto|split; [auto|split; congruence]]]. exists 1, 3. split; [apply GX|]. split; [reflexivity|]. split; [reflexivity|]. split; [exact swap12_permutes|].
    intros r i Hr Hi. assert (r = 0) by lia. subst r. destruct (H3 i Hi) as [-> | [-> | ->]]; vm_compute; reflexivity.
Qed.
End F.
