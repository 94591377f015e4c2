(** * Lemmas for C126: networks used by several threads *)
From Coq Require Import Reals.
From Verif Require Import Base Scalar Types M_Shape M_Tensor M_Adv M_Act M_Loss M_Layers M_Reg M_Opt M_Net M_Addr M_Par M_Threads SpecPar SpecThreads L_Par L_Path.
Local Open Scope Z_scope.

Section L.
Context {T : Type} {S : Scalar T} {G : Type} {HR : Rng T G}.
Local Notation tprog := (prog (tcell T G)).

(** [l'] is what became of [l]: a Dropout layer that draws nothing stays as it is. *)
Definition kin (l l' : layer T) : Prop := forall d, l' = LDrop d -> l = LDrop d.
Definition quiet (l : layer T) : Prop := forall d, l = LDrop d -> dr_train d = false.
Lemma quiet_kin : forall l l', quiet l -> kin l l' -> quiet l'.
Proof. intros l l' Q K d E. apply Q. auto. Qed.
Lemma kin_refl : forall l, kin l l. Proof. intros l d E. exact E. Qed.
Lemma kin_trans : forall l l1 l2, kin l l1 -> kin l1 l2 -> kin l l2. Proof. unfold kin. auto. Qed.

Lemma local_ok : forall l x g, quiet l -> layer_forward l x g = (fst (forward_local l x), g, snd (forward_local l x)).
Proof.
  intros l x g Q. destruct l as [l|l|l|l|l|l|l]; cbn [layer_forward forward_local lift fst snd]; auto.
  unfold dropout_forward. rewrite (Q l eq_refl). reflexivity.
Qed.
Lemma local_kin : forall l x, kin l (fst (forward_local l x)).
Proof. intros l x d. destruct l; cbn [forward_local fst]; congruence. Qed.
Lemma local_same : forall l x, stores l x = false -> fst (forward_local l x) = l.
Proof.
  intros l x E. destruct l as [l|l|l|l|l|l|l]; cbn [stores forward_local fst snd] in *; try discriminate; auto; f_equal.
  - unfold flatten_forward. destruct (_ <? 2) eqn:E1; [auto|]. destruct (_ =? 2) eqn:E2; [auto|]. apply Z.ltb_ge in E, E1. apply Z.eqb_neq in E2. lia.
  - unfold conv_forward. destruct (rank (tshape x) =? 4); cbn [negb andb] in *; [|auto]. destruct (rd (tdims x) 1) as [c|e| | |]; cbn [step]; auto. rewrite E. auto.
  - unfold pool_forward. rewrite E. auto.
  - unfold bn_forward. destruct (bn_train l); cbn [andb] in *.
    + apply orb_false_iff in E. destruct E as (-> & ->). reflexivity.
    + destruct (negb _ && negb _); reflexivity.
Qed.
Lemma backward_kin : forall l d, kin l (fst (layer_backward l d)).
Proof.
  intros l d. destruct l as [l|l|l|l|l|l|l]; cbn [layer_backward]; try apply kin_refl.
  - destruct (fc_backward l d). intros e. discriminate.
  - destruct (conv_backward l d). intros e. discriminate.
  - destruct (bn_backward l d). intros e. discriminate.
Qed.
Lemma update_kin : forall i l o, kin l (fst (fst (layer_update i l o))).
Proof.
  intros i l o. destruct l as [l|l|l|l|l|l|l]; cbn [layer_update fst]; try apply kin_refl; intros d.
  - destruct (fc_gw l), (fc_gb l); try discriminate. destruct (pair_optimize _ _ _ _ _ _) as [[[? ?] ?] ?]. discriminate.
  - destruct (cv_gw l), (cv_gb l); try discriminate. destruct (pair_optimize _ _ _ _ _ _) as [[[? ?] ?] ?]. discriminate.
  - destruct (bn_ggamma l), (bn_gbeta l); try discriminate. destruct (pair_optimize _ _ _ _ _ _) as [[[? ?] ?] ?]. discriminate.
Qed.

Section One.
(** The arrays of the network and of its results. *)
Variables a b : Z.
Hypothesis Hab : a <> b.
(** May the thread use the engine? *)
Variable dr : bool.
Hypothesis Ha : a <> engine.
Hypothesis Hb : b <> engine.
Definition mine (x y : Z) : Prop := x = a \/ x = b \/ (dr = true /\ x = engine).
Definition tame (l : layer T) : Prop := dr = true \/ quiet l.
Definition akin (l l' : layer T) : Prop := dr = true \/ kin l l'.
Lemma akin_refl : forall l, akin l l. Proof. right. apply kin_refl. Qed.
Lemma akin_trans : forall l l1 l2, akin l l1 -> akin l1 l2 -> akin l l2. Proof. unfold akin. intros. destruct H, H0; eauto using kin_trans. Qed.
Lemma tame_akin : forall l l', tame l -> akin l l' -> tame l'. Proof. unfold tame, akin. intros l l' [H|H] [K|K]; eauto using quiet_kin. Qed.

(** Run from [m], [p] gets to [p'] with the memory [m'], touching only its own cells and writing only the network. *)
Definition reaches (p : tprog) (m : mem (tcell T G)) (p' : tprog) (m' : mem (tcell T G)) : Prop :=
  exec p m = exec p' m' /\ (follows mine mine p' m' -> follows mine mine p m) /\ (forall x y, x <> a -> (dr = true -> x <> engine) -> m' x y = m x y) /\
  forall before after, psteps (m, before ++ p :: after) (m', before ++ p' :: after).
Lemma reach_refl : forall p m, reaches p m p m. Proof. intros p m. repeat split; auto. intros. constructor. Qed.
Lemma reach_trans : forall p m p1 m1 p2 m2, reaches p m p1 m1 -> reaches p1 m1 p2 m2 -> reaches p m p2 m2.
Proof.
  intros p m p1 m1 p2 m2 (E1 & F1 & U1 & P1) (E2 & F2 & U2 & P2). split; [congruence|]. split; [auto|]. split; [intros x y H H'; rewrite U2, U1; auto|].
  intros bf af. eapply psteps_trans; eauto.
Qed.
Lemma reach_rd : forall i k m p m', reaches (k (m a i)) m p m' -> reaches (Rd a i k) m p m'.
Proof.
  intros i k m p m' (E & F & U & P). split; [exact E|]. split; [intros H; cbn; split; [left; reflexivity|auto]|]. split; [exact U|].
  intros bf af. eapply psteps_trans; [|apply P]. eapply ps_step; [constructor|].
  pose proof (step_rd m (bf ++ Rd a i k :: af) (length bf) a i k (nth_error_mid _ _ _)) as H. rewrite upd_app in H. exact H.
Qed.
Lemma reach_wr : forall i x k m p m', reaches k (mput m a i x) p m' -> reaches (Wr a i x k) m p m'.
Proof.
  intros i x k m p m' (E & F & U & P). split; [exact E|]. split; [intros H; cbn; unfold mine at 1 2; tauto|]. split.
  - intros y z H H'. rewrite U by auto. apply mput_neq. tauto.
  - intros bf af. eapply psteps_trans; [|apply P]. eapply ps_step; [constructor|].
    pose proof (step_wr m (bf ++ Wr a i x k :: af) (length bf) a i x k (nth_error_mid _ _ _)) as H. rewrite upd_app in H. exact H.
Qed.

Lemma reach_rd_engine : forall i k m p m', dr = true -> reaches (k (m engine i)) m p m' -> reaches (Rd engine i k) m p m'.
Proof.
  intros i k m p m' D (E & F & U & P). split; [exact E|]. split; [intros H; cbn; split; [right; right; auto|auto]|]. split; [exact U|].
  intros bf af. eapply psteps_trans; [|apply P]. eapply ps_step; [constructor|].
  pose proof (step_rd m (bf ++ Rd engine i k :: af) (length bf) engine i k (nth_error_mid _ _ _)) as H. rewrite upd_app in H. exact H.
Qed.
Lemma reach_wr_engine : forall i x k m p m', dr = true -> reaches k (mput m engine i x) p m' -> reaches (Wr engine i x k) m p m'.
Proof.
  intros i x k m p m' D (E & F & U & P). split; [exact E|]. split; [intros H; cbn; unfold mine at 1 2; tauto|]. split.
  - intros y z H H'. rewrite U by auto. apply mput_neq. intros (-> & _). exact (H' D eq_refl).
  - intros bf af. eapply psteps_trans; [|apply P]. eapply ps_step; [constructor|].
    pose proof (step_wr m (bf ++ Wr engine i x k :: af) (length bf) engine i x k (nth_error_mid _ _ _)) as H. rewrite upd_app in H. exact H.
Qed.

(** The layers, and the optimizer with the engine. *)
Definition loaded (m : mem (tcell T G)) (ls : list (layer T)) (o : option (optim T) * G) : Prop :=
  (forall j l, nth_error ls j = Some l -> m a (Z.of_nat j) = CLayer l) /\ m a (-1) = COpt (fst o) /\ (dr = true -> m engine 0 = CRng (snd o)).
Lemma loaded_at : forall m pre l suf o, loaded m (pre ++ l :: suf) o -> m a (Zlen pre) = CLayer l.
Proof. intros m pre l suf o (H & _). unfold Zlen. apply H. apply nth_error_mid. Qed.
Lemma loaded_put : forall m pre l suf o l', loaded m (pre ++ l :: suf) o -> loaded (mput m a (Zlen pre) (CLayer l')) (pre ++ l' :: suf) o.
Proof.
  intros m pre l suf o l' (H & HO & HG). split; [|split].
  - intros j x E. destruct (Nat.eq_dec j (length pre)) as [->|N].
    + rewrite nth_error_mid in E. injection E as <-. apply mput_eq.
    + rewrite mput_neq by (unfold Zlen; lia). apply H. destruct (Nat.lt_ge_cases j (length pre)) as [L|L].
      * rewrite nth_error_app1 in * by auto. auto.
      * rewrite nth_error_app2 in * by auto. destruct (j - length pre)%nat eqn:D; [lia|]. exact E.
  - rewrite mput_neq; auto. unfold Zlen. lia.
  - intros D. rewrite mput_neq by (intros (E & _); auto). auto.
Qed.
Lemma loaded_opt : forall m ls o o', loaded m ls o -> loaded (mput m a (-1) (COpt o')) ls (o', snd o).
Proof.
  intros m ls o o' (H & HO & HG). split; [|split; [apply mput_eq|]].
  - intros j l E. rewrite mput_neq by lia. auto.
  - intros D. rewrite mput_neq by (intros (E & _); auto). auto.
Qed.
Lemma loaded_rng : forall m ls o g g', dr = true -> loaded m ls (o, g) -> loaded (mput m engine 0 (CRng g')) ls (o, g').
Proof.
  intros m ls o g g' D (H & HO & HG). split; [|split].
  - intros j l E. rewrite mput_neq by tauto. auto.
  - rewrite mput_neq by tauto. exact HO.
  - intros _. apply mput_eq.
Qed.
Lemma Zlen_snoc : forall {X} (l : list X) x, Zlen (l ++ [x]) = Zlen l + 1.
Proof. intros. unfold Zlen. rewrite app_length. cbn. lia. Qed.

(** The layers [suf], which are followed by [rest]. *)
Lemma forward_part : forall suf pre rest x k m o g, Forall tame suf -> loaded m (pre ++ suf ++ rest) (o, g) ->
  exists suf' g' r m', forward_all suf x g = (suf', g', r) /\ Forall2 akin suf suf' /\ (dr = false -> g' = g) /\
    reaches (forward_prog a (Zlen pre) (length suf + length rest) x k) m (andthen r k (fun y => forward_prog a (Zlen pre + Zlen suf) (length rest) y k)) m' /\ loaded m' (pre ++ suf' ++ rest) (o, g').
Proof.
  induction suf as [|l suf IH]; intros pre rest x k m o g Q L; cbn [forward_all length Nat.add].
  { exists [], g, (Ok x), m. change (Zlen (@nil (layer T))) with 0. rewrite Z.add_0_r. cbn [andthen]. split; auto. split; auto. split; auto. split; [apply reach_refl|exact L]. }
  inversion Q as [|? ? Ql Qs]; subst. cbn [forward_prog app] in *.
  assert (H : exists l' g1 r m1, layer_forward l x g = (l', g1, r) /\ akin l l' /\ (dr = false -> g1 = g) /\
              reaches (Rd a (Zlen pre) (fun c => match c with CLayer l => forward_one a (Zlen pre) l x (fun o => andthen o k (fun y => forward_prog a (Zlen pre + 1) (length suf + length rest) y k)) | _ => Done end)) m
                (andthen r k (fun y => forward_prog a (Zlen pre + 1) (length suf + length rest) y k)) m1 /\ loaded m1 (pre ++ l' :: suf ++ rest) (o, g1)).
  { destruct (match l with LDrop d => dr_train d | _ => false end) eqn:ET.
    - destruct l as [?|?|?|?|?|d|?]; try discriminate. assert (D : dr = true) by (destruct Ql as [D|Ql]; [exact D|rewrite (Ql d eq_refl) in ET; discriminate]).
      cbn [layer_forward]. destruct (dropout_forward d x g) as [[d' g1] r] eqn:EDF. exists (LDrop d'), g1, r. eexists. split; [reflexivity|]. split; [left; exact D|]. split; [congruence|]. split.
      + apply reach_rd. rewrite (loaded_at m pre _ (suf ++ rest) _ L). unfold forward_one. rewrite ET. apply reach_rd_engine; [exact D|]. rewrite (proj2 (proj2 L) D). cbn [snd]. rewrite EDF.
        apply reach_wr_engine; [exact D|]. apply reach_wr, reach_refl.
      + eapply loaded_put, loaded_rng; eauto.
    - assert (Ql' : quiet l) by (intros d ->; exact ET). rewrite (local_ok l x g Ql').
      set (l' := fst (forward_local l x)). set (r := snd (forward_local l x)).
      exists l', g, r.
      assert (EF : forall k', forward_one a (Zlen pre) l x k' = if stores l x then Wr a (Zlen pre) (CLayer l') (k' r) else k' r).
      { intros k'. unfold forward_one. destruct l as [?|?|?|?|?|d|?]; try reflexivity. rewrite (Ql' d eq_refl). reflexivity. }
      destruct (stores l x) eqn:ES.
      + exists (mput m a (Zlen pre) (CLayer l')). split; [reflexivity|]. split; [right; apply local_kin|]. split; [auto|]. split; [|eapply loaded_put; eauto].
        apply reach_rd. rewrite (loaded_at m pre l (suf ++ rest) _ L), EF. apply reach_wr, reach_refl.
      + exists m. split; [reflexivity|]. split; [right; apply local_kin|]. split; [auto|]. split; [|replace l' with l by (symmetry; apply local_same; auto); auto].
        apply reach_rd. rewrite (loaded_at m pre l (suf ++ rest) _ L), EF. apply reach_refl. }
  destruct H as (l' & g1 & r & m1 & EL & K & KG & R1 & L1). rewrite EL.
  destruct r as [y|e| | |] eqn:Er; cbn [andthen] in R1.
  2-5: eexists (l' :: suf), g1, _, m1; split; [reflexivity|]; split; [constructor; auto; clear; induction suf; auto using akin_refl|]; auto.
  destruct (IH (pre ++ [l']) rest y k m1 o g1 Qs) as (suf' & g' & r' & m' & E & F & FG & R & L'); [rewrite <- app_assoc; exact L1|].
  rewrite E. exists (l' :: suf'), g', r', m'. split; [reflexivity|]. split; [auto|]. split; [intros D; rewrite FG, KG; auto|]. rewrite Zlen_snoc in R.
  replace (Zlen pre + Zlen (l :: suf)) with (Zlen pre + 1 + Zlen suf) by (unfold Zlen; cbn [length]; lia).
  split; [eapply reach_trans; eauto|]. rewrite <- app_assoc in L'. exact L'.
Qed.
Lemma forward_path : forall ls x k m o g, Forall tame ls -> loaded m ls (o, g) ->
  exists ls' g' r m', forward_all ls x g = (ls', g', r) /\ Forall2 akin ls ls' /\ (dr = false -> g' = g) /\ reaches (forward_prog a 0 (length ls) x k) m (k r) m' /\ loaded m' ls' (o, g').
Proof.
  intros ls x k m o g Q L. destruct (forward_part ls [] [] x k m o g Q) as (ls' & g' & r & m' & E & F & FG & R & L'); [rewrite app_nil_r; exact L|].
  exists ls', g', r, m'. split; [exact E|]. split; [exact F|]. split; [exact FG|]. rewrite app_nil_r in L'. split; [|exact L']. cbn [length] in R. rewrite Nat.add_0_r in R. destruct r; exact R.
Qed.

Lemma backward_path : forall suf pre d k m o, loaded m (pre ++ suf) o ->
  exists suf' r m', backward_all suf d = (suf', r) /\ Forall2 akin suf suf' /\
    reaches (backward_prog a (length pre + length suf) d k) m (andthen r k (fun d => backward_prog a (length pre) d k)) m' /\ loaded m' (pre ++ suf') o.
Proof.
  induction suf as [|l suf IH]; intros pre d k m o L; cbn [backward_all length].
  { exists [], (Ok d), m. rewrite Nat.add_0_r. split; auto. split; auto. split; [apply reach_refl|exact L]. }
  destruct (IH (pre ++ [l]) d k m o) as (suf' & r & m1 & E & F & R & L1); [rewrite <- app_assoc; exact L|].
  rewrite E. rewrite <- app_assoc in L1. cbn [app] in L1. rewrite app_length in R. cbn [length] in R.
  replace (length pre + Datatypes.S (length suf))%nat with (Datatypes.S (length pre) + length suf)%nat by lia. replace (length pre + 1)%nat with (Datatypes.S (length pre)) in R by lia.
  destruct r as [d1|e| | |]; cbn [andthen] in R.
  2-5: eexists (l :: suf'), _, m1; split; [reflexivity|]; split; [constructor; auto using akin_refl|]; auto.
  pose proof (or_intror (backward_kin l d1) : akin l _) as K. destruct (layer_backward l d1) as [l' r'] eqn:EB. cbn [fst] in K.
  exists (l' :: suf'), r'.
  assert (HP : reaches (backward_prog a (Datatypes.S (length pre)) d1 k) m1
     (let next := andthen r' k (fun d => backward_prog a (length pre) d k) in match l with LFC _ | LConv _ | LBN _ => Wr a (Zlen pre) (CLayer l') next | _ => next end) m1).
  { cbn [backward_prog]. apply reach_rd. fold (Zlen pre). rewrite (loaded_at m1 pre l suf' o L1), EB. apply reach_refl. }
  assert (HQ : exists m2, reaches (let next := andthen r' k (fun d => backward_prog a (length pre) d k) in match l with LFC _ | LConv _ | LBN _ => Wr a (Zlen pre) (CLayer l') next | _ => next end) m1
                 (andthen r' k (fun d => backward_prog a (length pre) d k)) m2 /\ loaded m2 (pre ++ l' :: suf') o).
  { destruct l as [l|l|l|l|l|l|l]; cbn [layer_backward] in EB; cbv zeta.
    - exists (mput m1 a (Zlen pre) (CLayer l')). split; [apply reach_wr, reach_refl|eapply loaded_put; eauto].
    - exists m1. injection EB as <- _. split; [apply reach_refl|auto].
    - exists m1. injection EB as <- _. split; [apply reach_refl|auto].
    - exists (mput m1 a (Zlen pre) (CLayer l')). split; [apply reach_wr, reach_refl|eapply loaded_put; eauto].
    - exists m1. injection EB as <- _. split; [apply reach_refl|auto].
    - exists m1. injection EB as <- _. split; [apply reach_refl|auto].
    - exists (mput m1 a (Zlen pre) (CLayer l')). split; [apply reach_wr, reach_refl|eapply loaded_put; eauto]. }
  destruct HQ as (m2 & R2 & L2). exists m2. split; [reflexivity|]. split; [auto|]. split; [|exact L2].
  eapply reach_trans; [exact R|]. eapply reach_trans; [exact HP|exact R2].
Qed.

Lemma update_path : forall suf pre k m o g, loaded m (pre ++ suf) (Some o, g) ->
  exists suf' o' r m', update_all (Zlen pre) suf o = (suf', o', r) /\ Forall2 akin suf suf' /\
    reaches (update_prog a (Zlen pre) (length suf) k) m (k r) m' /\ loaded m' (pre ++ suf') (Some o', g).
Proof.
  induction suf as [|l suf IH]; intros pre k m o g L; cbn [update_all length update_prog].
  { exists [], o, (Ok tt), m. split; auto. split; auto. split; [apply reach_refl|exact L]. }
  pose proof (or_intror (update_kin (Zlen pre) l o) : akin l _) as K. destruct (layer_update (Zlen pre) l o) as [[l' o1] r] eqn:EU. cbn [fst] in K.
  assert (H : exists m1, reaches (update_prog a (Zlen pre) (Datatypes.S (length suf)) k) m (andthen r k (fun _ => update_prog a (Zlen pre + 1) (length suf) k)) m1 /\ loaded m1 (pre ++ l' :: suf) (Some o1, g)).
  { assert (HW : reaches (Rd a (-1) (fun c => match c with
        | COpt (Some o) => let '(l', o', r) := layer_update (Zlen pre) l o in Wr a (-1) (COpt (Some o')) (Wr a (Zlen pre) (CLayer l') (andthen r k (fun _ => update_prog a (Zlen pre + 1) (length suf) k)))
        | _ => Done end)) m (andthen r k (fun _ => update_prog a (Zlen pre + 1) (length suf) k)) (mput (mput m a (-1) (COpt (Some o1))) a (Zlen pre) (CLayer l')) /\
        loaded (mput (mput m a (-1) (COpt (Some o1))) a (Zlen pre) (CLayer l')) (pre ++ l' :: suf) (Some o1, g)).
    { split.
      - apply reach_rd. rewrite (proj1 (proj2 L)). cbn [fst]. rewrite EU. apply reach_wr, reach_wr, reach_refl.
      - eapply loaded_put. apply (loaded_opt m _ (Some o, g)). exact L. }
    assert (HN : (l', o1, r) = (l, o, Ok tt) -> reaches (update_prog a (Zlen pre + 1) (length suf) k) m (andthen r k (fun _ => update_prog a (Zlen pre + 1) (length suf) k)) m /\ loaded m (pre ++ l' :: suf) (Some o1, g)).
    { intros E. injection E as -> -> ->. split; [apply reach_refl|exact L]. }
    cbn [update_prog]. destruct l as [l|l|l|l|l|l|l]; cbn [layer_update] in EU.
    1,4,7: eexists; split; [apply reach_rd; rewrite (loaded_at m pre _ suf _ L); exact (proj1 HW)|exact (proj2 HW)].
    all: destruct (HN (eq_sym EU)); exists m; split; [apply reach_rd; rewrite (loaded_at m pre _ suf _ L); assumption|assumption]. }
  destruct H as (m1 & R1 & L1). cbn [update_prog] in R1.
  destruct r as [[]|e| | |]; cbn [andthen] in R1.
  2-5: eexists (l' :: suf), o1, _, m1; split; [reflexivity|]; split; [constructor; auto; clear; induction suf; auto using akin_refl|]; auto.
  destruct (IH (pre ++ [l']) k m1 o1 g) as (suf' & o' & r' & m' & E & F & R & L'); [rewrite <- app_assoc; exact L1|].
  rewrite Zlen_snoc in E, R. rewrite E. exists (l' :: suf'), o', r', m'. split; [reflexivity|]. split; [auto|]. split; [eapply reach_trans; eauto|]. rewrite <- app_assoc in L'. exact L'.
Qed.

Lemma mode_path : forall md suf pre k m o, loaded m (pre ++ suf) o ->
  exists m', reaches (mode_prog a md (Zlen pre) (length suf) k) m k m' /\ loaded m' (pre ++ map (layer_set_mode md) suf) o.
Proof.
  intros md. induction suf as [|l suf IH]; intros pre k m o L; cbn [length mode_prog map].
  { exists m. split; [apply reach_refl|auto]. }
  destruct (IH (pre ++ [layer_set_mode md l]) k (mput m a (Zlen pre) (CLayer (layer_set_mode md l))) o) as (m' & R & L').
  { rewrite <- app_assoc. eapply loaded_put; eauto. }
  exists m'. rewrite Zlen_snoc in R. rewrite <- app_assoc in L'. split; [|exact L']. apply reach_rd. rewrite (loaded_at m pre l suf o L). apply reach_wr. exact R.
Qed.

(** ** Networks *)
Definition holds_net (m : mem (tcell T G)) (n : net T G) : Prop := loaded m (n_layers n) (n_opt n, n_rng n).
Definition grown (n n' : net T G) : Prop := n_loss n' = n_loss n /\ Forall2 akin (n_layers n) (n_layers n').
Lemma kin_all : forall ls, Forall2 akin ls ls. Proof. induction ls; auto using akin_refl. Qed.
Lemma kins_trans : forall x y z, Forall2 akin x y -> Forall2 akin y z -> Forall2 akin x z.
Proof. intros x y z H. revert z. induction H; intros z H1; inversion H1; subst; constructor; eauto using akin_trans. Qed.
Lemma kins_quiet : forall x y, Forall2 akin x y -> Forall tame x -> Forall tame y.
Proof. intros x y H. induction H; intros Q; inversion Q; subst; constructor; eauto using tame_akin. Qed.
Lemma kins_length : forall (x y : list (layer T)), Forall2 akin x y -> length y = length x.
Proof. intros x y H. induction H; cbn; congruence. Qed.
Lemma grown_refl : forall n, grown n n. Proof. intros n. split; auto using kin_all. Qed.
Lemma grown_trans : forall n n1 n2, grown n n1 -> grown n1 n2 -> grown n n2.
Proof. intros n n1 n2 (E1 & K1) (E2 & K2). split; [congruence|eauto using kins_trans]. Qed.
Definition still (n : net T G) : Prop := Forall tame (n_layers n).
Lemma grown_still : forall n n', grown n n' -> still n -> still n'. Proof. intros n n' (_ & K) Q. eapply kins_quiet; eauto. Qed.
Lemma grown_length : forall n n', grown n n' -> length (n_layers n') = length (n_layers n). Proof. intros n n' (_ & K). apply kins_length; auto. Qed.

Definition goes (p : tprog) (n : net T G) {A} (res : net T G * outcome A) (k : outcome A -> tprog) (m : mem (tcell T G)) : Prop :=
  grown n (fst res) /\ exists m', reaches p m (k (snd res)) m' /\ holds_net m' (fst res).
Lemma goes_predict : forall n x k m, still n -> holds_net m n -> goes (forward_prog a 0 (length (n_layers n)) x k) n (net_predict n x) k m.
Proof.
  intros n x k m Q L. unfold net_predict. destruct (forward_path (n_layers n) x k m (n_opt n) (n_rng n) Q L) as (ls & g' & r & m' & E & F & _ & R & L').
  rewrite E. split; [split; auto|]. exists m'. auto.
Qed.
Lemma goes_update : forall n k m, holds_net m n -> goes (updates_prog a (length (n_layers n)) k) n (net_update n) k m.
Proof.
  intros n k m L. unfold net_update, updates_prog. destruct (n_layers n) as [|l ls] eqn:E.
  { split; [apply grown_refl|]. exists m. split; [apply reach_refl|auto]. }
  cbn [length]. destruct (n_opt n) as [o|] eqn:EO.
  - unfold holds_net in L. rewrite E, EO in L. destruct (update_path (l :: ls) [] k m o (n_rng n) L) as (ls' & o' & r & m' & EU & F & R & L').
    change (Zlen (@nil (layer T))) with 0 in *. rewrite EU. split; [split; [auto|rewrite E; exact F]|]. exists m'. split; [|exact L']. cbn [length] in R.
    apply reach_rd. rewrite (proj1 (proj2 L)). exact R.
  - split; [apply grown_refl|]. exists m. split; [|exact L]. apply reach_rd. rewrite (proj1 (proj2 L)). cbn [fst]. rewrite EO. apply reach_refl.
Qed.
Lemma goes_bind : forall {A B} p n (res : net T G * outcome A) (k1 : outcome A -> tprog) m (res' : net T G * outcome B) k,
  goes p n res k1 m -> (forall m1, grown n (fst res) -> holds_net m1 (fst res) -> goes (k1 (snd res)) (fst res) res' k m1) -> goes p n res' k m.
Proof.
  intros A B p n res k1 m res' k (Gr & m1 & R & L) H. destruct (H m1 Gr L) as (Gr' & m2 & R' & L'). split; [eapply grown_trans; eauto|]. exists m2. split; [eapply reach_trans; eauto|auto].
Qed.
Lemma goes_here : forall {A} n (r : outcome A) (k : outcome A -> tprog) m, holds_net m n -> goes (k r) n (n, r) k m.
Proof. intros. split; [apply grown_refl|]. exists m. split; [apply reach_refl|auto]. Qed.
Lemma goes_then : forall {A B} (o : outcome A) n (f : A -> tprog) (h : A -> net T G * outcome B) (k : outcome B -> tprog) m, holds_net m n ->
  (forall x, o = Ok x -> goes (f x) n (h x) k m) -> goes (andthen o k f) n (step n o h) k m.
Proof. intros A B o n f h k m L H. destruct o; cbn [andthen step]; [apply H; auto| | | |]; apply goes_here; auto. Qed.

Lemma goes_sample : forall n x t total k m, still n -> holds_net m n ->
  goes (sample_prog a (n_loss n) (length (n_layers n)) x t total k) n (train_sample n x t total) k m.
Proof.
  intros n x t total k m Q L. unfold sample_prog, train_sample.
  pose proof (goes_predict n x (fun o => andthen o k (fun p => match n_loss n with
    | None => k UB
    | Some l => andthen (t <- t ;; c <- loss_compute l p t ;; total <- (let '(total', r) := t_binop_ip s_add false total c in _ <- r ;; Ok total') ;;
               d <- loss_gradient l p t ;; Ok (total, d)) k (fun q =>
      backward_prog a (length (n_layers n)) (snd q) (fun o => andthen o k (fun _ => updates_prog a (length (n_layers n)) (fun r => andthen r k (fun _ => k (Ok (fst q)))))))
    end)) m Q L) as HP.
  destruct (net_predict n x) as [n1 o]. eapply goes_bind; [exact HP|]. cbn [fst snd]. intros m1 Gr L1. apply goes_then; auto. intros p _.
  destruct (n_loss n) as [l|]; [|apply goes_here; auto].
  apply goes_then; auto. intros [tot d] _. cbn [fst snd]. rewrite <- (grown_length _ _ Gr).
  destruct (backward_path (n_layers n1) [] d (fun o => andthen o k (fun _ => updates_prog a (length (n_layers n1)) (fun r => andthen r k (fun _ => k (Ok tot))))) m1 (n_opt n1, n_rng n1) L1) as (ls & r & m2 & E & F & R & L2).
  unfold net_backward. rewrite E. cbn [app length Nat.add backward_prog] in R, L2.
  assert (G2 : grown n1 (net_with n1 ls)) by (split; auto).
  destruct r as [d'|e| | |]; cbn [step andthen] in *; try (split; [exact G2|]; exists m2; split; [exact R|exact L2]).
  pose proof (goes_update (net_with n1 ls) (fun r => andthen r k (fun _ => k (Ok tot))) m2 L2) as HU.
  destruct (net_update (net_with n1 ls)) as [n3 r3]. cbn [n_layers net_with] in HU. rewrite (kins_length _ _ F) in HU.
  destruct HU as (G3 & m3 & R3 & L3). cbn [fst snd] in *.
  assert (H : goes (andthen r3 k (fun _ => k (Ok tot))) n3 (step n3 r3 (fun _ => (n3, Ok tot))) k m3) by (apply goes_then; auto; intros; apply goes_here; auto).
  destruct H as (G4 & m4 & R4 & L4). split; [eapply grown_trans; [exact G2|eapply grown_trans; eauto]|]. exists m4. split; [|exact L4].
  eapply reach_trans; [exact R|]. eapply reach_trans; [exact R3|exact R4].
Qed.
Lemma goes_samples : forall xs n ts i total k m, still n -> holds_net m n ->
  goes (samples_prog a (n_loss n) (length (n_layers n)) xs ts i total k) n (train_samples n xs ts i total) k m.
Proof.
  induction xs as [|x xs IH]; intros n ts i total k m Q L; cbn [samples_prog train_samples]; [apply goes_here; auto|].
  pose proof (goes_sample n x (rd ts i) total (fun o => andthen o k (fun total => samples_prog a (n_loss n) (length (n_layers n)) xs ts (i + 1) total k)) m Q L) as H.
  destruct (train_sample n x (rd ts i) total) as [n1 o]. eapply goes_bind; [exact H|]. cbn [fst snd]. intros m1 Gr L1. apply goes_then; auto. intros tot _.
  rewrite <- (grown_length _ _ Gr), <- (proj1 Gr). apply IH; auto. eapply grown_still; eauto.
Qed.
Lemma goes_epoch : forall n xs ts k m, still n -> holds_net m n -> goes (epoch_prog a (n_loss n) (length (n_layers n)) xs ts k) n (train_epoch n xs ts) k m.
Proof.
  intros n xs ts k m Q L. unfold epoch_prog, train_epoch. apply goes_then; auto. intros total _.
  pose proof (goes_samples xs n ts 0 total (fun o => andthen o k (fun total => andthen (t_div_s total (s_z (Zlen xs))) k (fun _ => k (Ok tt)))) m Q L) as H.
  destruct (train_samples n xs ts 0 total) as [n1 o]. eapply goes_bind; [exact H|]. cbn [fst snd]. intros m1 Gr L1. apply goes_then; auto. intros tot _.
  apply goes_then; auto. intros. apply goes_here; auto.
Qed.
Lemma goes_epochs : forall e n xs ts k m, still n -> holds_net m n -> goes (epochs_prog a (n_loss n) (length (n_layers n)) xs ts e k) n (train_epochs n xs ts e) k m.
Proof.
  induction e as [|e IH]; intros n xs ts k m Q L; cbn [epochs_prog train_epochs]; [apply goes_here; auto|].
  pose proof (goes_epoch n xs ts (fun o => andthen o k (fun _ => epochs_prog a (n_loss n) (length (n_layers n)) xs ts e k)) m Q L) as H.
  destruct (train_epoch n xs ts) as [n1 o]. eapply goes_bind; [exact H|]. cbn [fst snd]. intros m1 Gr L1. apply goes_then; auto. intros [] _.
  rewrite <- (grown_length _ _ Gr), <- (proj1 Gr). apply IH; auto. eapply grown_still; eauto.
Qed.

(** ** The calls of one thread *)
Definition sober (n : net T G) (cs : list (call T)) : Prop := dr = true \/ no_draws n cs.
Lemma grown_drops : forall n n' d, grown n n' -> dr = true \/ (In (LDrop d) (n_layers n') -> In (LDrop d) (n_layers n)).
Proof.
  intros n n' d (_ & K). induction K as [|l l' x y K1 K2 IH]; [right; auto|]. destruct K1 as [D|K1]; [left; exact D|]. destruct IH as [D|IH]; [left; exact D|right].
  intros [->|H]; [left; apply (K1 d); reflexivity|right; auto].
Qed.
Lemma sober_still : forall n cs, sober n cs -> still n.
Proof. intros n cs H. apply Forall_forall. intros l HI. destruct H as [H|H]; [left; exact H|right]. intros d ->. apply (H d HI). Qed.
Lemma in_tail : forall {X} (P : X) c cs, ~ In P (c :: cs) -> ~ In P cs.
Proof. intros X P c cs H H1. apply H. right. auto. Qed.
Lemma grown_sober : forall n n' c cs, grown n n' -> sober n (c :: cs) -> sober n' cs.
Proof.
  intros n n' c cs Gr [H|H]; [left; exact H|]. destruct (Bool.bool_dec dr true) as [D|D]; [left; exact D|right]. intros d Hd. destruct (grown_drops _ _ d Gr) as [D'|K]; [tauto|].
  destruct (H d (K Hd)). eauto using in_tail.
Qed.

Lemma call_path : forall c cs n k m, sober n (c :: cs) -> holds_net m n ->
  let r := do_call net_train n c in
  sober (fst r) cs /\ n_loss (fst r) = n_loss n /\ length (n_layers (fst r)) = length (n_layers n) /\
  exists m', reaches (call_prog a (n_loss n) (length (n_layers n)) c k) m (k (snd r)) m' /\ holds_net m' (fst r).
Proof.
  intros c cs n k m D L. pose proof (sober_still _ _ D) as Q. destruct c as [xs ts e|x|md]; cbn [do_call call_prog].
  - pose proof (goes_epochs (Z.to_nat e) n xs ts (fun r => k (SDone r)) m Q L) as (Gr & H). unfold net_train. destruct (train_epochs n xs ts (Z.to_nat e)) as [n1 o]. cbn [fst snd] in *.
    split; [eapply grown_sober; eauto|]. split; [apply Gr|split; [apply grown_length; auto|exact H]].
  - pose proof (goes_predict n x (fun r => k (SValue r)) m Q L) as (Gr & H). destruct (net_predict n x) as [n1 o]. cbn [fst snd] in *.
    split; [eapply grown_sober; eauto|]. split; [apply Gr|split; [apply grown_length; auto|exact H]].
  - cbn [fst snd]. split; [|split; [reflexivity|split; [apply map_length|]]].
    + destruct D as [D|D]; [left; exact D|right]. intros d Hd. unfold net_set_mode, net_with in Hd. cbn [n_layers] in Hd. apply in_map_iff in Hd. destruct Hd as (l & E & HI).
      destruct l as [l|l|l|l|l|l|l]; try discriminate. cbn [layer_set_mode] in E. injection E as <-. destruct (D l HI) as (_ & HN). split; [|eapply in_tail; eauto].
      cbn. destruct md; auto. exfalso. apply HN. left. reflexivity.
    + destruct (mode_path md (n_layers n) [] (k (SDone (Ok tt))) m (n_opt n, n_rng n) L) as (m' & R & L'). exists m'. split; [exact R|exact L'].
Qed.
(** The results go to the array [b], from cell [j] on. *)
Lemma calls_path : forall cs n j m, sober n cs -> holds_net m n ->
  let r := run_calls net_train n cs in let p := calls_prog a (n_loss n) (length (n_layers n)) b cs j in
  follows mine mine p m /\ holds_net (exec p m) (fst r) /\
  (forall i s, nth_error (snd r) i = Some s -> exec p m b (j + Z.of_nat i) = CSeen s) /\ forall i, i < j -> exec p m b i = m b i.
Proof.
  induction cs as [|c cs IH]; intros n j m D L; cbn [run_calls calls_prog].
  { cbn. split; [auto|]. split; [exact L|]. split; [intros [|i] s E; discriminate|auto]. }
  destruct (call_path c cs n (fun s => Wr b j (CSeen s) (calls_prog a (n_loss n) (length (n_layers n)) b cs (j + 1))) m D L) as (D' & EL & EN & m1 & (EX & EF & EU & _) & L1).
  destruct (do_call net_train n c) as [n1 s]. cbn [fst snd] in *.
  assert (L2 : holds_net (mput m1 b j (CSeen s)) n1).
  { destruct L1 as (A1 & A2 & A3). split; [intros i l E; rewrite mput_neq by tauto; auto|]. split; [rewrite mput_neq by tauto; auto|]. intros E. rewrite mput_neq by (intros (E1 & _); congruence). auto. }
  pose proof (IH n1 (j + 1) (mput m1 b j (CSeen s)) D' L2) as H. cbv zeta in H. rewrite EL, EN in H.
  destruct (run_calls net_train n1 cs) as [n2 ss]. cbn [fst snd] in *. destruct H as (F & H2 & H3 & H4).
  cbv zeta. rewrite EX. split; [apply EF; cbn [follows]; unfold mine at 1 2; tauto|]. cbn [exec]. split; [exact H2|]. split.
  - intros [|i] s' E.
    + injection E as <-. rewrite Z.add_0_r, H4 by lia. apply mput_eq.
    + replace (j + Z.of_nat (Datatypes.S i)) with (j + 1 + Z.of_nat i) by lia. auto.
  - intros i Hi. rewrite H4 by lia. rewrite mput_neq by lia. apply EU; auto.
Qed.
End One.

(** ** All threads *)
Lemma nth_error_combine_seq : forall {X} (l : list X) st q, nth_error (combine (seq st (length l)) l) q = match nth_error l q with Some x => Some ((st + q)%nat, x) | None => None end.
Proof.
  induction l as [|x l IH]; intros st q; cbn [length seq combine]; [destruct q; reflexivity|]. destruct q; cbn [nth_error]; [rewrite Nat.add_0_r; reflexivity|].
  rewrite IH. replace (Datatypes.S st + q)%nat with (st + Datatypes.S q)%nat by lia. reflexivity.
Qed.
Lemma nth_threads : forall (users : list (net T G * list (call T))) q, nth_error (threads users) q = match nth_error users q with Some (n, cs) => Some (thread_prog (Z.of_nat q) n cs) | None => None end.
Proof.
  intros users q. unfold threads. rewrite nth_error_map, nth_error_combine_seq. destruct (nth_error users q) as [[n cs]|]; reflexivity.
Qed.
Theorem threads_ok : forall (users : list (net T G * list (call T))) w m,
  (forall i n cs, nth_error users i = Some (n, cs) -> in_memory m (Z.of_nat i) n /\ if Nat.eqb i w then m engine 0 = CRng (n_rng n) else no_draws n cs) ->
  race_free (threads users) m /\ well_founded (fun c c' : mem (tcell T G) * list tprog => pstep c' c) /\ (exists m', final (threads users) m m') /\
  forall m', final (threads users) m m' -> forall i n cs, nth_error users i = Some (n, cs) ->
    in_memory m' (Z.of_nat i) (fst (run_calls net_train n cs)) /\ returned m' (Z.of_nat i) (snd (run_calls net_train n cs)) /\
    (i = w -> m' engine 0 = CRng (n_rng (fst (run_calls net_train n cs)))).
Proof.
  intros users w m H.
  set (A := fun (q : nat) => mine (2 * Z.of_nat q) (2 * Z.of_nat q + 1) (Nat.eqb q w)).
  assert (HL : forall q n cs, nth_error users q = Some (n, cs) -> holds_net (2 * Z.of_nat q) (Nat.eqb q w) m n /\ sober (Nat.eqb q w) n cs).
  { intros q n cs E. destruct (H q n cs E) as ((L1 & L2) & HE). unfold holds_net, loaded, sober. cbn [fst snd]. destruct (Nat.eqb q w); split; auto. split; auto. split; auto. discriminate. }
  pose proof (fun q n cs E => calls_path (2 * Z.of_nat q) (2 * Z.of_nat q + 1) ltac:(lia) (Nat.eqb q w) ltac:(unfold engine; lia) ltac:(unfold engine; lia) cs n 0 m (proj2 (HL q n cs E)) (proj1 (HL q n cs E))) as HC.
  assert (HF : forall q p, nth_error (threads users) q = Some p -> follows (A q) (A q) p m).
  { intros q p E. rewrite nth_threads in E. destruct (nth_error users q) as [[n cs]|] eqn:E1; [|discriminate]. injection E as <-. apply (HC q n cs E1). }
  assert (HS : forall q q' a i, q <> q' -> (q < length (threads users))%nat -> (q' < length (threads users))%nat -> A q a i -> ~ A q' a i).
  { intros q q' a i N _ _ [->|[->|(D & ->)]] [E|[E|(D' & E)]]; unfold engine in *; lia. }
  split; [apply (path_no_race _ A A m HF HS)|]. split; [apply pstep_wf|]. split; [exists (exec_all (threads users) m); apply exec_all_final|].
  intros m' Hm i n cs E. pose proof (nth_threads users i) as E1. rewrite E in E1.
  pose proof (path_final _ A A m HF HS m' Hm i (thread_prog (Z.of_nat i) n cs)) as HV.
  destruct (HC i n cs E) as (_ & (L1 & L2 & L3) & R & _). cbn [fst snd] in L2, L3.
  split; [split|split].
  - intros j l El. rewrite (HV _ _ E1) by (left; reflexivity). apply L1. exact El.
  - rewrite (HV _ _ E1) by (left; reflexivity). exact L2.
  - intros j s Es. rewrite (HV _ _ E1) by (right; left; reflexivity). exact (R j s Es).
  - intros ->. rewrite Nat.eqb_refl in L3. rewrite (HV _ _ E1) by (right; right; rewrite Nat.eqb_refl; auto). exact (L3 eq_refl).
Qed.

(** ** Threads that only read *)
Section Read.
Variable b : Z.
Definition sees (x y : Z) : Prop := x = 0 \/ x = b.
Definition puts (x y : Z) : Prop := x = b.
Lemma read_forward : forall suf pre x k (m : mem (tcell T G)) g, (forall j l, nth_error (pre ++ suf) j = Some l -> m 0 (Z.of_nat j) = CLayer l) ->
  Forall (fun l => match l with LDrop d => dr_train d = false | LBN b => bn_train b = false | _ => False end) suf ->
  exists r, forward_all suf x g = (suf, g, r) /\ exec (forward_prog 0 (Zlen pre) (length suf) x k) m = exec (k r) m /\
    (follows sees puts (k r) m -> follows sees puts (forward_prog 0 (Zlen pre) (length suf) x k) m).
Proof.
  induction suf as [|l suf IH]; intros pre x k m g L R; cbn [forward_all forward_prog length].
  { exists (Ok x). auto. }
  inversion R as [|? ? Rl Rs]; subst.
  assert (Q : quiet l) by (intros d ->; exact Rl). assert (ST : stores l x = false) by (destruct l; try tauto; cbn; rewrite Rl; reflexivity).
  rewrite (local_ok l x g Q), (local_same l x ST). cbn [exec follows].
  assert (E0 : m 0 (Zlen pre) = CLayer l) by (unfold Zlen; apply L, nth_error_mid). rewrite E0.
  assert (EF : forall k', forward_one 0 (Zlen pre) l x k' = k' (snd (forward_local l x))).
  { intros k'. unfold forward_one. rewrite ST. destruct l as [?|?|?|?|?|d|?]; try reflexivity. rewrite (Q d eq_refl). reflexivity. }
  rewrite EF. destruct (snd (forward_local l x)) as [y|e| | |]; cbn [andthen].
  2-5: eexists; split; [reflexivity|]; split; [reflexivity|]; intros F; split; [left; reflexivity|exact F].
  destruct (IH (pre ++ [l]) y k m g) as (r & E & X & F); [rewrite <- app_assoc; exact L|exact Rs|]. rewrite Zlen_snoc in X, F.
  rewrite E. exists r. split; [reflexivity|]. split; [exact X|]. intros HF. split; [left; reflexivity|auto].
Qed.
Hypothesis Hb : b <> 0.
Lemma read_calls : forall xs n j m, in_memory m 0 n -> reads_only n ->
  let p := calls_prog 0 (n_loss n) (length (n_layers n)) b (map (@CPredict T) xs) j in
  fst (run_calls net_train n (map (@CPredict T) xs)) = n /\ follows sees puts p m /\
  (forall i s, nth_error (snd (run_calls net_train n (map (@CPredict T) xs))) i = Some s -> exec p m b (j + Z.of_nat i) = CSeen s) /\ forall i, i < j -> exec p m b i = m b i.
Proof.
  induction xs as [|x xs IH]; intros n j m L R; cbn [map run_calls calls_prog].
  { cbn. split; [auto|]. split; [auto|]. split; [intros [|i] s E; discriminate|auto]. }
  cbv zeta. cbn [do_call call_prog].
  destruct (read_forward (n_layers n) [] x (fun r => Wr b j (CSeen (SValue r)) (calls_prog 0 (n_loss n) (length (n_layers n)) b (map (@CPredict T) xs) (j + 1))) m (n_rng n) (proj1 L) R) as (r & E & X & F).
  change (Zlen (@nil (layer T))) with 0 in X, F. unfold net_predict. rewrite E.
  replace (mkNet (n_layers n) (n_loss n) (n_opt n) (n_rng n)) with n by (destruct n; reflexivity).
  assert (L2 : in_memory (mput m b j (CSeen (SValue r))) 0 n).
  { destruct L as (A1 & A2). split; [intros i l El; rewrite mput_neq by (intros (E1 & _); lia); auto|rewrite mput_neq by (intros (E1 & _); lia); auto]. }
  destruct (IH n (j + 1) _ L2 R) as (H1 & H2 & H3 & H4). destruct (run_calls net_train n (map (@CPredict T) xs)) as [n2 ss]. cbn [fst snd] in *.
  split; [exact H1|]. rewrite X. split; [apply F; cbn [follows]; unfold sees at 1, puts at 1; auto|]. cbn [exec]. split.
  - intros [|i] s' Es.
    + injection Es as <-. rewrite Z.add_0_r, H4 by lia. apply mput_eq.
    + replace (j + Z.of_nat (Datatypes.S i)) with (j + 1 + Z.of_nat i) by lia. auto.
  - intros i Hi. rewrite H4 by lia. apply mput_neq. lia.
Qed.
End Read.
Theorem sharing_ok : forall (n : net T G) uses m, in_memory m 0 n -> reads_only n ->
  race_free (sharing n uses) m /\ (exists m', final (sharing n uses) m m') /\
  forall m', final (sharing n uses) m m' -> in_memory m' 0 n /\
    forall i xs, nth_error uses i = Some xs -> fst (run_calls net_train n (map (@CPredict T) xs)) = n /\ returned m' (Z.of_nat i) (snd (run_calls net_train n (map (@CPredict T) xs))).
Proof.
  intros n uses m L R.
  set (A := fun (q : nat) => sees (2 * Z.of_nat q + 1)). set (W := fun (q : nat) => puts (2 * Z.of_nat q + 1)).
  assert (HN : forall q, nth_error (sharing n uses) q = match nth_error uses q with Some xs => Some (calls_prog 0 (n_loss n) (length (n_layers n)) (2 * Z.of_nat q + 1) (map (@CPredict T) xs) 0) | None => None end).
  { intros q. unfold sharing. rewrite nth_error_map, nth_error_combine_seq. destruct (nth_error uses q); reflexivity. }
  assert (HF : forall q p, nth_error (sharing n uses) q = Some p -> follows (A q) (W q) p m).
  { intros q p E. rewrite HN in E. destruct (nth_error uses q) as [xs|]; [|discriminate]. injection E as <-. apply (read_calls (2 * Z.of_nat q + 1) ltac:(lia) xs n 0 m L R). }
  assert (HS : forall q q' a i, q <> q' -> (q < length (sharing n uses))%nat -> (q' < length (sharing n uses))%nat -> W q a i -> ~ A q' a i).
  { intros q q' a i N _ _ -> [E|E]; lia. }
  split; [apply (path_no_race _ A W m HF HS)|]. split; [exists (exec_all (sharing n uses) m); apply exec_all_final|].
  intros m' Hm. split.
  - assert (K : forall i, m' 0 i = m 0 i).
    { intros i. destruct Hm as (ps' & Hp & _). assert (I : forall c, psteps (m, sharing n uses) c -> fst c 0 i = m 0 i).
      { intros c Hc. remember (m, sharing n uses) as c0. induction Hc as [c|c c' c'' Hc IH Hs]; subst; [reflexivity|]. rewrite <- IH by auto.
        destruct (path_inv_steps _ A W m HF HS _ Hc) as (HL & HP). destruct Hs as [m1 ps q a' i' k E|m1 ps q a' i' v k E]; cbn [fst snd] in *; [reflexivity|].
        destruct (nth_some ps _ q _ HL E) as (p0 & E0). destruct (HP q _ p0 E E0) as ((_ & HW & _) & _). apply mput_neq. intros (<- & _). unfold W, puts in HW. lia. }
      exact (I _ Hp). }
    destruct L as (L1 & L2). split; [intros j l El; change (2 * 0) with 0 in *; rewrite K; auto|change (2 * 0) with 0 in *; rewrite K; auto].
  - intros i xs E. pose proof (HN i) as E1. rewrite E in E1. destruct (read_calls (2 * Z.of_nat i + 1) ltac:(lia) xs n 0 m L R) as (H1 & _ & H3 & _).
    split; [exact H1|]. intros j s Es. rewrite (path_final _ A W m HF HS m' Hm i _ _ _ E1) by (right; reflexivity). exact (H3 j s Es).
Qed.

(** ** Races *)
(** Two threads that predict with the same network write its first layer. *)
Lemma same_net_race : forall i (n : net T G) l r x y cs cs' m, n_layers n = l :: r -> quiet l -> stores l x = true -> stores l y = true -> in_memory m i n ->
  exists c, psteps (m, [thread_prog i n (CPredict x :: cs); thread_prog i n (CPredict y :: cs')]) c /\ both_write (snd c).
Proof.
  intros i n l r x y cs cs' m E Q Sx Sy (L & _). set (p := thread_prog i n (CPredict x :: cs)). set (p' := thread_prog i n (CPredict y :: cs')).
  assert (EF : forall z k, stores l z = true -> forward_one (2 * i) 0 l z k = Wr (2 * i) 0 (CLayer (fst (forward_local l z))) (k (snd (forward_local l z)))).
  { intros z k Hz. unfold forward_one. rewrite Hz. destruct l as [?|?|?|?|?|d|?]; try reflexivity. rewrite (Q d eq_refl). reflexivity. }
  assert (E0 : m (2 * i) 0 = CLayer l) by (apply (L 0%nat); rewrite E; reflexivity).
  exists (run_sched [0%nat; 1%nat] (m, [p; p'])). split; [apply sched_steps|].
  unfold p, p', thread_prog. rewrite E. cbn [calls_prog call_prog length forward_prog run_sched nth_error fst snd upd]. rewrite !E0, !EF by auto.
  exists 0%nat, 1%nat. do 6 eexists. split; [lia|]. split; reflexivity.
Qed.
Lemma keeps_stores : forall (l : layer T) x, keeps l x -> quiet l /\ stores l x = true.
Proof.
  intros l x K. split; [intros d ->; destruct K|]. destruct l as [l|l|l|l|l|l|l]; cbn in *; try tauto; unfold rank, tdims in *.
  - apply Z.ltb_lt. auto.
  - destruct K as (b & h & w & ->). cbn. apply Z.eqb_refl.
  - apply Z.eqb_eq. auto.
Qed.
Theorem same_net_writes : forall i (n : net T G) l r x y cs cs' m, n_layers n = l :: r -> keeps l x -> keeps l y -> in_memory m i n ->
  exists c, psteps (m, [thread_prog i n (CPredict x :: cs); thread_prog i n (CPredict y :: cs')]) c /\ both_write (snd c).
Proof. intros i n l r x y cs cs' m E K K' L. destruct (keeps_stores l x K), (keeps_stores l y K'). eapply same_net_race; eauto. Qed.
Lemma writes_race : forall {V} (ps : list (prog V)) m c, psteps (m, ps) c -> both_write (snd c) -> ~ race_free ps m.
Proof.
  intros V ps m c H (q & q' & a & i & x & x' & k & k' & N & E & E') R. apply (R c H). exists q, q'. do 2 eexists. exists a, i, true, true.
  split; [exact N|]. split; [exact E|]. split; [exact E'|]. repeat split.
Qed.
(** Two threads whose predictions get to a Dropout layer in training mode write the engine. *)
Lemma net_first : forall i i' (n n' : net T G) m m1, i <> i' -> in_memory m i' n' -> (forall x y, x <> 2 * i -> m1 x y = m x y) -> in_memory m1 i' n'.
Proof. intros i i' n n' m m1 N (L & O) U. split; [intros j l E; rewrite U by lia; auto|rewrite U by lia; auto]. Qed.
Lemma dropout_race : forall i i' (n n' : net T G) x y cs cs' m g, i <> i' -> draws n x -> draws n' y -> in_memory m i n -> in_memory m i' n' -> m engine 0 = CRng g ->
  exists c, psteps (m, [thread_prog i n (CPredict x :: cs); thread_prog i' n' (CPredict y :: cs')]) c /\ both_write (snd c).
Proof.
  intros i i' n n' x y cs cs' m g N (pre & d & post & ls & g1 & z & E & D & Q & EV) (pre' & d' & post' & ls' & g1' & z' & E' & D' & Q' & EV') L L' EG.
  set (p := thread_prog i n (CPredict x :: cs)). set (p' := thread_prog i' n' (CPredict y :: cs')).
  set (k := fun r => Wr (2 * i + 1) 0 (CSeen (SValue r)) (calls_prog (2 * i) (n_loss n) (length (n_layers n)) (2 * i + 1) cs 1) : tprog).
  set (k' := fun r => Wr (2 * i' + 1) 0 (CSeen (SValue r)) (calls_prog (2 * i') (n_loss n') (length (n_layers n')) (2 * i' + 1) cs' 1) : tprog).
  assert (QQ : forall l, Forall (fun l => forall d, l = LDrop d -> dr_train d = false) l -> Forall (tame false) l) by (intros l Hl; eapply Forall_impl; [|exact Hl]; intros u Hu; right; exact Hu).
  assert (P1 : exists m1, reaches (2 * i) 1 false p m (forward_prog (2 * i) (Zlen pre) (Datatypes.S (length post)) z k) m1 /\ m1 (2 * i) (Zlen pre) = CLayer (LDrop d)).
  { destruct L as (L1 & L2). rewrite E in L1. destruct (forward_part (2 * i) 1 ltac:(lia) false ltac:(unfold engine; lia) ltac:(unfold engine; lia) pre [] (LDrop d :: post) x k m (n_opt n) (n_rng n) (QQ _ Q)) as (a1 & ga & r & m1 & EA & F & _ & R & LL); [split; [exact L1|split; [exact L2|discriminate]]|].
    rewrite EA in EV. injection EV as EV1 _ EV3; rewrite EV3 in R; clear EV3. cbn [andthen length] in R. exists m1. split.
    - unfold p, thread_prog. cbn [calls_prog call_prog]. rewrite E at 1. rewrite app_length. exact R.
    - cbn [app] in LL. pose proof (loaded_at _ _ _ _ _ _ _ LL) as H. unfold Zlen in *. rewrite (kins_length _ _ _ F) in H. exact H. }
  destruct P1 as (m1 & R1 & C1). assert (L1' : in_memory m1 i' n') by (eapply net_first; eauto; intros u v Hu; apply R1; [exact Hu|discriminate]).
  assert (P2 : exists m2, reaches (2 * i') 1 false p' m1 (forward_prog (2 * i') (Zlen pre') (Datatypes.S (length post')) z' k') m2 /\ m2 (2 * i') (Zlen pre') = CLayer (LDrop d')).
  { destruct L1' as (L1 & L2). rewrite E' in L1. destruct (forward_part (2 * i') 1 ltac:(lia) false ltac:(unfold engine; lia) ltac:(unfold engine; lia) pre' [] (LDrop d' :: post') y k' m1 (n_opt n') (n_rng n') (QQ _ Q')) as (a1 & ga & r & m2 & EA & F & _ & R & LL); [split; [exact L1|split; [exact L2|discriminate]]|].
    rewrite EA in EV'. injection EV' as EV1 _ EV3; rewrite EV3 in R; clear EV3. cbn [andthen length] in R. exists m2. split.
    - unfold p', thread_prog. cbn [calls_prog call_prog]. rewrite E' at 1. rewrite app_length. exact R.
    - cbn [app] in LL. pose proof (loaded_at _ _ _ _ _ _ _ LL) as H. unfold Zlen in *. rewrite (kins_length _ _ _ F) in H. exact H. }
  destruct P2 as (m2 & R2 & C2).
  destruct R1 as (_ & _ & U1 & S1), R2 as (_ & _ & U2 & S2).
  assert (C1' : m2 (2 * i) (Zlen pre) = CLayer (LDrop d)) by (rewrite U2 by (lia || discriminate); exact C1).
  assert (EG' : m2 engine 0 = CRng g) by (unfold engine in *; rewrite U2, U1 by (lia || discriminate); exact EG).
  set (q := forward_prog (2 * i) (Zlen pre) (Datatypes.S (length post)) z k) in *. set (q' := forward_prog (2 * i') (Zlen pre') (Datatypes.S (length post')) z' k') in *.
  exists (run_sched [0%nat; 1%nat; 0%nat; 1%nat] (m2, [q; q'])). split.
  - eapply psteps_trans; [exact (S1 [] [p'])|]. eapply psteps_trans; [exact (S2 [q] [])|]. apply sched_steps.
  - unfold q, q'. cbn [forward_prog run_sched nth_error fst snd upd]. rewrite !C1', !C2. unfold forward_one. rewrite D, D'.
    cbn [run_sched nth_error fst snd upd]. rewrite !EG'. destruct (dropout_forward d z g) as [[l1 g2] o1], (dropout_forward d' z' g) as [[l2 g3] o2].
    exists 0%nat, 1%nat. do 6 eexists. split; [lia|]. split; reflexivity.
Qed.
End L.
