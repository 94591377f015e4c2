(** * Optimizers: histories in terms of the specification, independence of tensors, rejected arguments *)
From Coq Require Import Permutation.
From Verif Require Import Base Scalar Types Spec M_Shape M_Tensor M_Layers M_Opt SpecOpt L_Index L_Shape L_Tensor L_Nest L_Glue L_Act L_Opt.

Lemma fold_left_iso : forall {A B E} (phi : A -> B) (f : A -> E -> A) (g : B -> E -> B) l a, (forall a e, phi (f a e) = g (phi a) e) ->
  phi (fold_left f l a) = fold_left g l (phi a).
Proof. intros A B E phi f g l. induction l as [|e l IH]; intros a H; [reflexivity|]. cbn. rewrite IH, H by auto. reflexivity. Qed.

Section S.
Context {T : Type} {S : Scalar T}.

Lemma rms_history_spec : forall D cs (o : rms T) st, rms_ok D o -> store_ok D st -> calls_ok D cs ->
  exists o' st', opt_run rms_optimize cs o st = (o', st', Ok tt) /\ rms_ok D o' /\ rms_same o o' /\ store_ok D st' /\
    forall k idx, in_range (D k) idx ->
      (el (st' k) idx, buf_el (rp_sq o') k idx, buf_el (rp_mean o') k idx, buf_el (rp_vel o') k idx) =
      fold_left (fun p e => rms_rule (rp_alpha o) (rp_eps o) (rp_mom o) (rp_cent o) (rp_wd o) (rate (rp_lr o) (fst e)) (el (snd e) idx) p) (updates k cs)
        (el (st k) idx, buf_el (rp_sq o) k idx, buf_el (rp_mean o) k idx, buf_el (rp_vel o) k idx).
Proof.
  intros D cs o st HO HS HC. destruct (rms_history D cs o st HO HS HC) as (o' & st' & E & I & SS & HS' & V). exists o', st'. do 4 (split; [assumption|]). intros k idx HI.
  specialize (V k idx HI). apply (f_equal (fun p : T * (T * T * T) => let '(w, (s, m, v)) := p in (w, s, m, v))) in V. unfold rms_aux in V at 1. rewrite V. clear V.
  rewrite (fold_left_iso (fun p : T * (T * T * T) => let '(w, (s, m, v)) := p in (w, s, m, v)) _ (fun p e => rms_rule (rp_alpha o) (rp_eps o) (rp_mom o) (rp_cent o) (rp_wd o) (rate (rp_lr o) (fst e)) (el (snd e) idx) p)); [reflexivity|].
  intros (w & (s & m) & v) e. reflexivity.
Qed.
Lemma adam_history_spec : forall D cs (o : adam T) st, adam_ok D o -> store_ok D st -> 0 <= ad_it o -> ad_it o + Zlen cs <= INT_MAX -> calls_ok D cs ->
  exists o' st', opt_run adam_optimize cs o st = (o', st', Ok tt) /\ adam_ok D o' /\ store_ok D st' /\ ad_it o' = ad_it o + Zlen cs /\
    forall k idx, in_range (D k) idx ->
      (el (st' k) idx, buf_el (ad_m o') k idx, buf_el (ad_v o') k idx) =
      fold_left (fun p e => adam_rule (ad_b1 o) (ad_b2 o) (ad_eps o) (ad_l1 o) (ad_l2 o) (adam_scaled (ad_b1 o) (ad_b2 o))
                              (fst (fst e)) (adam_lr (ad_init o) (ad_decay o) (fst (fst e)) (snd (fst e))) (s_div (el (snd e) idx) (s_z (ad_batch o))) p)
        (numbered (ad_it o + 1) k cs) (el (st k) idx, buf_el (ad_m o) k idx, buf_el (ad_v o) k idx).
Proof.
  intros D cs o st HO HS H0 HM HC. destruct (adam_history D cs o st HO HS H0 HM HC) as (o' & st' & E & I & HS' & EI & _ & V). exists o', st'. do 4 (split; [assumption|]). intros k idx HI.
  specialize (V k idx HI). apply (f_equal (fun p : T * (T * T) => let '(w, (m, v)) := p in (w, m, v))) in V. unfold adam_aux in V at 1. rewrite V. clear V.
  erewrite (fold_left_iso (fun p : T * (T * T) => let '(w, (m, v)) := p in (w, m, v))); [reflexivity|].
  intros (w & m & v) e. unfold adam_rule'. destruct (adam_param _ _ _ _ _ _) as ((a & b) & c) eqn:EP. rewrite <- EP. reflexivity.
Qed.
(** The learning rate in force after a call. *)
Lemma adam_call_rate : forall D (l : list (Z * tensor T)) lro (o : adam T) st, adam_ok D o -> store_ok D st -> 0 <= ad_it o < INT_MAX -> Forall (fun p => good (snd p) /\ tdims (snd p) = D (fst p)) l ->
  exists o' st', adam_optimize o st (map fst l) (map snd l) lro = (o', st', Ok tt) /\ adam_ok D o' /\ store_ok D st' /\
    ad_it o' = ad_it o + 1 /\ ad_lr o' = adam_lr (ad_init o) (ad_decay o) (ad_it o + 1) lro /\ ad_init o' = ad_init o /\ ad_decay o' = ad_decay o.
Proof.
  intros D l lro o st HO HS HI HL. destruct (adam_call_ok D l lro o st HO HS HI HL) as (o' & st' & E & I & SS & HS' & _). exists o', st'.
  destruct SS as (S0&S1&S2&S3&S4&S5&S6&S7&S8&S9). cbn [adam_at ad_init ad_lr ad_b1 ad_b2 ad_eps ad_l1 ad_l2 ad_decay ad_it ad_batch] in *. auto 10.
Qed.

(** ** Independence *)
Lemma sgd_independent : forall D cs cs' (o o1 o2 : sgd T) st st1 st2 k, bufs_ok D (sg_buf o) -> store_ok D st -> calls_ok D cs -> calls_ok D cs' ->
  updates k cs = updates k cs' -> opt_run sgd_optimize cs o st = (o1, st1, Ok tt) -> opt_run sgd_optimize cs' o st = (o2, st2, Ok tt) ->
  st1 k = st2 k /\ forall idx, in_range (D k) idx -> buf_el (sg_buf o1) k idx = buf_el (sg_buf o2) k idx.
Proof.
  intros D cs cs' o o1 o2 st st1 st2 k HO HS HC HC' HU E1 E2.
  destruct (sgd_history D cs o st HO HS HC) as (p1 & q1 & F1 & _ & _ & K1 & V1). destruct (sgd_history D cs' o st HO HS HC') as (p2 & q2 & F2 & _ & _ & K2 & V2).
  rewrite E1 in F1. injection F1 as <- <-. rewrite E2 in F2. injection F2 as <- <-. destruct (K1 k) as (G1 & D1). destruct (K2 k) as (G2 & D2).
  assert (H : forall idx, in_range (D k) idx -> (el (st1 k) idx, buf_el (sg_buf o1) k idx) = (el (st2 k) idx, buf_el (sg_buf o2) k idx)) by (intros; rewrite V1, V2, HU by auto; reflexivity).
  split; [apply tensor_ext; auto; [congruence|]; intros idx HI; rewrite D1 in HI|intros idx HI]; specialize (H idx HI); congruence.
Qed.
Lemma rms_independent : forall D cs cs' (o o1 o2 : rms T) st st1 st2 k, rms_ok D o -> store_ok D st -> calls_ok D cs -> calls_ok D cs' ->
  updates k cs = updates k cs' -> opt_run rms_optimize cs o st = (o1, st1, Ok tt) -> opt_run rms_optimize cs' o st = (o2, st2, Ok tt) ->
  st1 k = st2 k /\ forall idx, in_range (D k) idx ->
    buf_el (rp_sq o1) k idx = buf_el (rp_sq o2) k idx /\ buf_el (rp_mean o1) k idx = buf_el (rp_mean o2) k idx /\ buf_el (rp_vel o1) k idx = buf_el (rp_vel o2) k idx.
Proof.
  intros D cs cs' o o1 o2 st st1 st2 k HO HS HC HC' HU E1 E2.
  destruct (rms_history_spec D cs o st HO HS HC) as (p1 & q1 & F1 & _ & _ & K1 & V1). destruct (rms_history_spec D cs' o st HO HS HC') as (p2 & q2 & F2 & _ & _ & K2 & V2).
  rewrite E1 in F1. injection F1 as <- <-. rewrite E2 in F2. injection F2 as <- <-. destruct (K1 k) as (G1 & D1). destruct (K2 k) as (G2 & D2).
  assert (H : forall idx, in_range (D k) idx -> (el (st1 k) idx, buf_el (rp_sq o1) k idx, buf_el (rp_mean o1) k idx, buf_el (rp_vel o1) k idx) =
    (el (st2 k) idx, buf_el (rp_sq o2) k idx, buf_el (rp_mean o2) k idx, buf_el (rp_vel o2) k idx)) by (intros; rewrite V1, V2, HU by auto; reflexivity).
  split; [apply tensor_ext; auto; [congruence|]; intros idx HI; rewrite D1 in HI|intros idx HI; split; [|split]]; specialize (H idx HI); congruence.
Qed.
Lemma adam_independent : forall D cs cs' (o o1 o2 : adam T) st st1 st2 k, adam_ok D o -> store_ok D st -> calls_ok D cs -> calls_ok D cs' ->
  0 <= ad_it o -> ad_it o + Zlen cs <= INT_MAX -> ad_it o + Zlen cs' <= INT_MAX ->
  numbered (ad_it o + 1) k cs = numbered (ad_it o + 1) k cs' -> opt_run adam_optimize cs o st = (o1, st1, Ok tt) -> opt_run adam_optimize cs' o st = (o2, st2, Ok tt) ->
  st1 k = st2 k /\ forall idx, in_range (D k) idx -> buf_el (ad_m o1) k idx = buf_el (ad_m o2) k idx /\ buf_el (ad_v o1) k idx = buf_el (ad_v o2) k idx.
Proof.
  intros D cs cs' o o1 o2 st st1 st2 k HO HS HC HC' H0 HM HM' HU E1 E2.
  destruct (adam_history_spec D cs o st HO HS H0 HM HC) as (p1 & q1 & F1 & _ & K1 & _ & V1). destruct (adam_history_spec D cs' o st HO HS H0 HM' HC') as (p2 & q2 & F2 & _ & K2 & _ & V2).
  rewrite E1 in F1. injection F1 as <- <-. rewrite E2 in F2. injection F2 as <- <-. destruct (K1 k) as (G1 & D1). destruct (K2 k) as (G2 & D2).
  assert (H : forall idx, in_range (D k) idx -> (el (st1 k) idx, buf_el (ad_m o1) k idx, buf_el (ad_v o1) k idx) = (el (st2 k) idx, buf_el (ad_m o2) k idx, buf_el (ad_v o2) k idx))
    by (intros; rewrite V1, V2, HU by auto; reflexivity).
  split; [apply tensor_ext; auto; [congruence|]; intros idx HI; rewrite D1 in HI|intros idx HI; split]; specialize (H idx HI); congruence.
Qed.
(** Reordering the tensors of the calls. *)
Definition reordered (c c' : call T) : Prop := fst c = fst c' /\ NoDup (map fst (snd c)) /\ Permutation (snd c) (snd c').
Lemma grads_perm : forall k (l l' : list (Z * tensor T)), NoDup (map fst l) -> Permutation l l' -> grads k l = grads k l'.
Proof.
  intros k l l' HN HP. unfold grads. f_equal. induction HP as [|(a, x) l l' HP IH|(a, x) (b, y) l|l1 l2 l3 HP1 IH1 HP2 IH2].
  - reflexivity.
  - cbn in HN. inversion HN; subst. cbn [filter fst]. rewrite IH by auto. reflexivity.
  - cbn [filter fst map] in *. inversion HN as [|? ? HI HN']; subst. destruct (Z.eqb_spec a k) as [->|], (Z.eqb_spec b k) as [->|]; try reflexivity. exfalso. apply HI. left. reflexivity.
  - rewrite IH1 by auto. apply IH2. eapply Permutation_NoDup; [apply Permutation_map; exact HP1|auto].
Qed.
Lemma updates_perm : forall k cs cs', Forall2 reordered cs cs' -> updates k cs = updates k cs'.
Proof.
  intros k cs cs' H. induction H as [|(a, l) (a', l') cs cs' (E & HN & HP) H IH]; [reflexivity|]. cbn [fst snd] in *. unfold updates in *. cbn [flat_map fst snd].
  rewrite IH, E, (grads_perm k l l') by auto. reflexivity.
Qed.
Lemma numbered_perm : forall k cs cs' n, Forall2 reordered cs cs' -> numbered n k cs = numbered n k cs'.
Proof.
  intros k cs cs' n H. revert n. induction H as [|(a, l) (a', l') cs cs' (E & HN & HP) H IH]; intros n; [reflexivity|]. cbn [fst snd] in *. cbn [numbered fst snd].
  rewrite IH, E, (grads_perm k l l') by auto. reflexivity.
Qed.

(** ** Rejected arguments *)
Lemma opt_counts : forall (st : store T) ks gs lro, Zlen ks <> Zlen gs ->
  (forall o : sgd T, sgd_optimize o st ks gs lro = (o, st, Throw InvalidArgument)) /\
  (forall o : rms T, rms_optimize o st ks gs lro = (o, st, Throw InvalidArgument)) /\
  (forall o : adam T, adam_optimize o st ks gs lro = (o, st, Throw InvalidArgument)).
Proof. intros st ks gs lro H. apply Z.eqb_neq in H. unfold sgd_optimize, rms_optimize, adam_optimize. rewrite H. auto. Qed.
Lemma loop_ub : forall {O C} (update : O -> Z -> tensor T -> tensor T -> C -> O * outcome (tensor T)) c k g r o st,
  snd (update o k (st k) g c) = UB -> snd (opt_loop update c ((k, g) :: r) o st) = UB.
Proof. intros. cbn [opt_loop]. destruct (update o k (st k) g c) as (o' & []); cbn in *; congruence. Qed.
Lemma opt_short : forall D (st : store T) k g ks gs lro, store_ok D st -> good g -> prod (tdims g) < prod (D k) -> Zlen ks = Zlen gs ->
  (forall o : sgd T, bufs_ok D (sg_buf o) -> snd (sgd_optimize o st (k :: ks) (g :: gs) lro) = UB) /\
  (forall o : rms T, rms_ok D o -> snd (rms_optimize o st (k :: ks) (g :: gs) lro) = UB) /\
  (forall o : adam T, adam_ok D o -> 0 <= ad_it o < INT_MAX -> snd (adam_optimize o st (k :: ks) (g :: gs) lro) = UB).
Proof.
  intros D st k g ks gs lro HS Gg Hg HL. destruct (HS k) as (Gw & Ew). unfold sgd_optimize, rms_optimize, adam_optimize. rewrite !Zlen_cons, HL, Z.eqb_refl. cbn [negb combine].
  split; [|split].
  - intros o HO. apply loop_ub. apply (sgd_short D); auto.
  - intros o HO. apply loop_ub. apply (rms_short D); auto.
  - intros o HO HI. unfold adam_rate. rewrite chk32_ok by (unfold INT_MIN; lia). cbn [bind]. apply loop_ub. apply (adam_short D); auto.
Qed.

(** ** Reused addresses *)
Lemma updates_app : forall k (a b : list (call T)), updates k (a ++ b) = updates k a ++ updates k b.
Proof. intros. unfold updates. apply flat_map_app. Qed.
Lemma calls_ok_app : forall D (a b : list (call T)), calls_ok D a -> calls_ok D b -> calls_ok D (a ++ b).
Proof. intros. apply Forall_app. auto. Qed.
Lemma sgd_unused : forall D cs0 cs lr mom damp wd nest (o1 o2 : sgd T) st st1 st2 k, store_ok D st -> calls_ok D cs0 -> calls_ok D cs -> updates k cs0 = [] ->
  opt_run sgd_optimize (cs0 ++ cs) (sgd_new lr mom damp wd nest) st = (o1, st1, Ok tt) -> opt_run sgd_optimize cs (sgd_new lr mom damp wd nest) st = (o2, st2, Ok tt) ->
  st1 k = st2 k.
Proof.
  intros D cs0 cs lr mom damp wd nest o1 o2 st st1 st2 k HS H0 H1 HU E1 E2.
  apply (sgd_independent D (cs0 ++ cs) cs (sgd_new lr mom damp wd nest) o1 o2 st st1 st2 k ltac:(intros ? ?; discriminate) HS (calls_ok_app D _ _ H0 H1) H1); auto. rewrite updates_app, HU. reflexivity.
Qed.
Lemma rms_unused : forall D cs0 cs lr alpha eps mom cent wd (o1 o2 : rms T) st st1 st2 k, store_ok D st -> calls_ok D cs0 -> calls_ok D cs -> updates k cs0 = [] ->
  opt_run rms_optimize (cs0 ++ cs) (rms_new lr alpha eps mom cent wd) st = (o1, st1, Ok tt) -> opt_run rms_optimize cs (rms_new lr alpha eps mom cent wd) st = (o2, st2, Ok tt) ->
  st1 k = st2 k.
Proof.
  intros D cs0 cs lr alpha eps mom cent wd o1 o2 st st1 st2 k HS H0 H1 HU E1 E2.
  apply (rms_independent D (cs0 ++ cs) cs (rms_new lr alpha eps mom cent wd) o1 o2 st st1 st2 k ltac:(split; [|split]; intros ? ?; discriminate) HS (calls_ok_app D _ _ H0 H1) H1); auto. rewrite updates_app, HU. reflexivity.
Qed.
(** A momentum buffer left by a smaller tensor is read past its end. *)
Lemma sgd_stale_ub : forall (o : sgd T) k (m w g : tensor T) lr, sg_buf o k = Some m -> good m -> good w -> good g -> tdims g = tdims w -> prod (tdims m) < prod (tdims w) ->
  s_eq (sg_mom o) zero = false -> snd (sgd_update o k w g lr) = UB.
Proof.
  intros o k m w g lr EB Gm Gw Gg Eg HL HM. unfold sgd_update, buf_get. rewrite EB. rewrite (good_size w Gw).
  pose proof (good_prod_pos m Gm) as HP. pose proof (good_len m Gm) as Lm. pose proof (good_len w Gw) as Lw. pose proof (good_len g Gg) as Lg. rewrite Eg in Lg.
  rewrite (for_ub _ _ _ _ (prod (tdims m)) (fun _ p => Zlen (fst p) = prod (tdims w) /\ Zlen (snd p) = prod (tdims m))); [reflexivity|lia| | |].
  - auto.
  - intros j (wd & md) Hj (H1 & H2). cbn [fst snd] in *. unfold sgd_body. rewrite HM. rewrite (rd_ok zero (tdata g) j) by lia. cbn [bind negb]. rewrite !(rd_ok zero wd j) by lia. cbn [bind].
    destruct (s_eq (sg_wd o) zero); cbn [negb bind]; rewrite (rd_ok zero md j) by lia; cbn [bind]; rewrite (wr_ok md j) by lia; cbn [bind]; rewrite (wr_ok wd j) by lia; cbn [bind];
      (eexists; split; [reflexivity|]; cbn [fst snd]; rewrite ?Zlen_upd; auto).
  - intros (wd & md) (H1 & H2). cbn [fst snd] in *. unfold sgd_body. rewrite HM. rewrite (rd_ok zero (tdata g)) by lia. cbn [bind negb]. rewrite !(rd_ok zero wd) by lia. cbn [bind].
    destruct (s_eq (sg_wd o) zero); cbn [negb bind]; rewrite (rd_ub md) by lia; reflexivity.
Qed.
End S.
