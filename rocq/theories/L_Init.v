(** * Random tensors, initial weights, dropout masks in a network *)
From Verif Require Import Base Scalar Types Spec M_Shape M_Tensor M_Adv M_Act M_Loss M_Layers M_Reg M_Opt M_Net SpecNN SpecNet SpecSep SpecInit
  L_Index L_Shape L_Tensor L_Tensor2 L_Nest L_Glue L_Layers L_Conv L_Rows L_Drop.
Local Open Scope Z_scope.

Section S.
Context {T : Type} {S : Scalar T} {G : Type} {HR : Rng T G}.

Lemma clamp_is : forall lo hi v : T, s_min (s_max v lo) hi = clamp lo hi v. Proof. reflexivity. Qed.
Lemma random_drawn : forall ds (lo hi : T) (g : G), pos_dims ds -> prod ds <= INT_MAX -> f_random ds lo hi g = Ok (drawn ds lo hi g, after_drawn ds g).
Proof.
  intros ds lo hi g HP HM. unfold f_random. rewrite new_shape_ok_int by auto. cbn [bind].
  assert (HF : Forall (fun d => 0 < d) ds) by (apply pos_forall; auto). assert (HPP : 0 < prod ds) by (apply prod_pos; auto). cbn [ssize shape_of].
  set (sd := deviation (prod ds) : T).
  match goal with |- context[for_ 0 _ ?bd ?s0] => destruct (for_inv (fun k st => Zlen (fst st) = prod ds /\ snd st = engine_after sd (Z.to_nat k) g /\
     forall q, 0 <= q < k -> znth zero (fst st) q = clamp lo hi (draw sd (Z.to_nat q) g)) 0 (prod ds) bd s0) as ([out g'] & E & H1 & H2 & H3) end.
  - lia.
  - cbn [fst snd]. split; [|split; [reflexivity|intros; lia]]. unfold t_new; cbn [tdata]. rewrite Zlen_zrepeat; simpl; lia.
  - intros i [out g0] Hi (A1 & A2 & A3). cbn [fst snd] in *. unfold he_rand_range. change (s_sqrt (s_div (s_z 2) (s_z (prod ds)))) with sd.
    destruct (rng_normal sd g0) as [v g1] eqn:EV. rewrite wr_ok by lia. cbn [bind]. eexists; split; [reflexivity|]. cbn [fst snd]. rewrite Zlen_upd. split; [auto|]. split.
    + replace (Z.to_nat (i + 1)) with (Datatypes.S (Z.to_nat i)) by lia. cbn [engine_after]. rewrite <- A2, EV. reflexivity.
    + intros q Hq. destruct (Z.eq_dec q i) as [->|Hne].
      * rewrite znth_upd_eq by lia. unfold draw. rewrite <- A2, EV. reflexivity.
      * rewrite znth_upd_neq by lia. apply A3. lia.
  - rewrite E. cbn [bind fst snd] in *. unfold after_drawn. fold sd. rewrite H2. f_equal. f_equal.
    apply tensor_ext; [apply good_mk; auto|apply good_tensor_of; auto|reflexivity|]. intros idx HI. change (tdims {| tshape := shape_of ds; tdata := out |}) with ds in HI.
    unfold drawn. rewrite el_tensor_of by auto. unfold el. cbn [tdata tdims tshape shape_of]. change (tdims {| tshape := shape_of ds; tdata := out |}) with ds. apply H3. apply ravel_bound; auto.
Qed.
Lemma rand_drawn : forall ds (g : G), pos_dims ds -> prod ds <= INT_MAX -> f_rand ds g = Ok (drawn ds zero one g, after_drawn ds g).
Proof. intros. apply random_drawn; auto. Qed.
Lemma zeros_of : forall ds, pos_dims ds -> prod ds <= INT_MAX -> f_zeros ds = Ok (tensor_of ds (fun _ => zero : T)).
Proof. intros ds HP HM. apply (fills ds (zero : T)); auto. Qed.
Lemma fc_new_drawn : forall k o (g : G), 0 < k -> 0 < o -> k * o <= INT_MAX ->
  fc_new k o g = Ok (mkFC (drawn [k; o] zero one g) (tensor_of [1; o] (fun _ => zero)) None None None, after_drawn [k; o] g).
Proof.
  intros k o g Hk Ho HM. unfold fc_new. rewrite rand_drawn by (auto with idx; simpl; lia). cbn [bind]. rewrite zeros_of by (auto with idx; simpl; nia). reflexivity.
Qed.
Lemma conv_new_drawn : forall ic oc kh kw s p d (g : G), 0 < ic -> 0 < oc -> 0 < kh -> 0 < kw -> oc * (ic * (kh * kw)) <= INT_MAX ->
  conv_new ic oc kh kw s p d g = Ok (mkConv (drawn [oc; ic; kh; kw] zero one g) (tensor_of [oc; 1] (fun _ => zero)) None None None ic oc kh kw s p d, after_drawn [oc; ic; kh; kw] g).
Proof.
  intros ic oc kh kw s p d g H1 H2 H3 H4 HM. destruct (le_prod4 _ _ _ _ _ H2 H1 H3 H4 HM) as (HMo & _).
  unfold conv_new. rewrite rand_drawn by (auto with idx; simpl; lia). cbn [bind]. rewrite zeros_of by (auto with idx; simpl; lia). reflexivity.
Qed.

(** ** The engine passes through the layers *)
Lemma forward_app : forall (ls1 ls2 : list (layer T)) x (g : G),
  forward_all (ls1 ++ ls2) x g =
  match forward_all ls1 x g with
  | (l1, g1, Ok y) => let '(l2, g2, o) := forward_all ls2 y g1 in (l1 ++ l2, g2, o)
  | (l1, g1, o) => (l1 ++ ls2, g1, o)
  end.
Proof.
  induction ls1 as [|l ls1 IH]; intros ls2 x g; cbn [app forward_all].
  - destruct (forward_all ls2 x g) as [[a b] c]. reflexivity.
  - destruct (layer_forward l x g) as [[l' g'] o]. destruct o as [y|e| | |]; try reflexivity. rewrite IH.
    destruct (forward_all ls1 y g') as [[l1 g1] o1]. destruct o1 as [z|e| | |]; try reflexivity. destruct (forward_all ls2 z g1) as [[l2 g2] o2]. reflexivity.
Qed.
Lemma quiet : forall (l : layer T) x (g : G), draws l = false -> snd (fst (layer_forward l x g)) = g.
Proof.
  intros l x g H. destruct l as [l|l|l|l|l|l|l]; cbn [layer_forward draws] in *; unfold lift; auto. unfold dropout_forward. rewrite H. reflexivity.
Qed.
Lemma engine_quiet : forall (n : net T G) pre l x z, snd (net_predict (cut n pre) x) = Ok z -> draws l = false ->
  n_rng (fst (net_predict (cut n (pre ++ [l])) x)) = n_rng (fst (net_predict (cut n pre) x)).
Proof.
  intros n pre l x z E H. unfold net_predict, cut in *. cbn [n_layers n_rng n_loss n_opt] in *. rewrite forward_app. destruct (forward_all pre x (n_rng n)) as [[l1 g1] o]. cbn [fst snd n_rng] in *. subst o.
  cbn [forward_all]. pose proof (quiet l z g1 H) as Q. destruct (layer_forward l z g1) as [[l' g'] o]. cbn [fst snd] in Q. subst g'. destruct o; reflexivity.
Qed.
Lemma engine_dropout : forall (n : net T G) pre l post x z, snd (net_predict (cut n pre) x) = Ok z -> good z -> dr_train l = true ->
  let g := n_rng (fst (net_predict (cut n pre) x)) in
  n_rng (fst (net_predict (cut n (pre ++ [LDrop l])) x)) = after_drawn (tdims z) g /\
  exists m, nth_error (n_layers (fst (net_predict (cut n (pre ++ LDrop l :: post)) x))) (length pre) = Some (LDrop (mkDrop (dr_rate l) (Some m) true)) /\
    m = tensor_of (tdims z) (fun idx => if s_lt (dr_rate l) (el (drawn (tdims z) zero one g) idx) then one else zero).
Proof.
  intros n pre l post x z E Gz HT. unfold net_predict, cut in *. cbn [n_layers n_rng n_loss n_opt] in *.
  assert (HL : length (fst (fst (forward_all pre x (n_rng n)))) = length pre).
  { generalize x (n_rng n). clear. induction pre as [|a pre IH]; intros x g; cbn [forward_all]; [reflexivity|]. destruct (layer_forward a x g) as [[l' g'] o]. destruct o as [y|e| | |]; cbn; auto.
    specialize (IH y g'). destruct (forward_all pre y g') as [[r g2] o]. cbn in *. auto. }
  rewrite !forward_app. destruct (forward_all pre x (n_rng n)) as [[l1 g1] o]. cbn [fst snd n_rng] in *. subst o.
  destruct (dropout_train l z g1 HT Gz) as (r & g' & ER & Gr & Er & EF). rewrite rand_drawn in ER by (apply good_pos || apply good_max; auto). injection ER as <- <-.
  cbn [forward_all layer_forward]. rewrite EF. split; [reflexivity|].
  exists (drop_mask (dr_rate l) (drawn (tdims z) zero one g1)). split; [|].
  - match goal with |- context [forward_all post ?y ?gg] => destruct (forward_all post y gg) as [[l2 g2] o2] end. cbn [fst n_layers]. rewrite nth_error_app2 by lia. rewrite HL, Nat.sub_diag. reflexivity.
  - unfold drop_mask. reflexivity.
Qed.
End S.

(** ** update before backward *)
Section U.
Context {T : Type} {S : Scalar T} {G : Type} {HR : Rng T G}.
Definition ungraded (l : layer T) : Prop :=
  match l with LFC l => fc_gw l = None | LConv l => cv_gw l = None | LBN l => bn_ggamma l = None | _ => True end.
Lemma made_ungraded : forall l : layer T, constructed (G := G) l -> ungraded l.
Proof.
  intros l HC. destruct HC as [i o g g' l E|a| |ic oc kh kw s p d0 g g' l E|k s p|r|f eps mom l E]; cbn [ungraded]; auto.
  - unfold fc_new in E. destruct (f_rand _ _) as [(w & g1)| | | |]; try discriminate. cbn [bind] in E. destruct (f_zeros _); try discriminate. cbn [bind] in E. injection E as <- <-. reflexivity.
  - unfold conv_new in E. destruct (f_rand _ _) as [(w & g1)| | | |]; try discriminate. cbn [bind] in E. destruct (f_zeros _); try discriminate. cbn [bind] in E. injection E as <- <-. reflexivity.
  - unfold bn_new in E. repeat (match type of E with bind ?m _ = _ => destruct m; try discriminate; cbn [bind] in E end). injection E as <-. reflexivity.
Qed.
Lemma step_keeps : forall {A B C} (P : A -> Prop) (a : A) (m : outcome B) (k : B -> A * outcome C), P a -> (forall b, P (fst (k b))) -> P (fst (step a m k)).
Proof. intros A B C P a m k Ha Hk. destruct m; cbn; auto. Qed.
Lemma forward_ungraded : forall (l : layer T) x (g : G), ungraded l -> ungraded (fst (fst (layer_forward l x g))).
Proof.
  intros l x g H. destruct l as [l|l|l|l|l|l|l]; cbn [layer_forward ungraded] in *; unfold lift; cbn [fst snd]; auto.
  - unfold conv_forward. destruct (negb _); auto. apply (step_keeps (fun c => cv_gw c = None)); [auto|]. intros b. destruct (negb _); auto.
  - destruct (dropout_forward l x g) as [[? ?] ?]. exact I.
  - unfold bn_forward. destruct (_ && _); auto. destruct (bn_train l); auto.
    apply (step_keeps (fun c => bn_ggamma c = None)); [auto|intros m]. apply (step_keeps (fun c => bn_ggamma c = None)); [auto|intros v].
    apply (step_keeps (fun c => bn_ggamma c = None)); [auto|intros [[rg rb] nx]]. apply (step_keeps (fun c => bn_ggamma c = None)); [auto|intros [y rm]].
    apply (step_keeps (fun c => bn_ggamma c = None)); auto.
Qed.
Lemma forwards_ungraded : forall xs (l : layer T), ungraded l -> ungraded (forwards xs l).
Proof. induction xs as [|p xs IH]; intros l H; [auto|]. unfold forwards. cbn [fold_left]. apply IH. apply forward_ungraded. auto. Qed.
Lemma ungraded_update : forall i (l : layer T) o, ungraded l -> layer_update i l o = (l, o, if parametric l then Throw RuntimeError else Ok tt).
Proof. intros i l o H. destruct l as [l|l|l|l|l|l|l]; cbn [layer_update parametric ungraded] in *; auto; rewrite H; reflexivity. Qed.
Lemma update_first : forall i (l : layer T) o xs, constructed (G := G) l -> layer_update i (forwards xs l) o = (forwards xs l, o, if parametric (forwards xs l) then Throw RuntimeError else Ok tt).
Proof. intros. apply ungraded_update, forwards_ungraded, made_ungraded. auto. Qed.
End U.
