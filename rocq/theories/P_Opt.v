(** * Properties C55-C60, C76 and C90: the optimizers

    Weights are named by address.  [D k] are the dimensions of the tensor at address [k]: [store_ok D] says the weights
    have them, [calls_ok D] that every gradient has the dimensions of its weight.  [updates k cs] lists the (override,
    gradient) pairs the history [cs] of calls gives to [k]; [buf_el b k idx] is the state kept at one position. *)
From Coq Require Import Reals Lra Permutation.
From Verif Require Import Base Scalar ScalarR Types Spec M_Shape M_Tensor M_Layers M_Opt SpecR SpecOpt
  L_Index L_Shape L_Tensor L_Glue L_Nest L_Matmul L_RSum L_Opt L_Opt2 L_OptR L_OptB P_Layers.
Local Open Scope Z_scope.

(** ** C55.  Every history of calls succeeds and takes each parameter through [sgd_rule] once per gradient, in order, at
    the override if positive and else at the learning rate. *)
Theorem C55_history : forall {T} {S : Scalar T} D cs (o : sgd T) (st : store T), bufs_ok D (sg_buf o) -> store_ok D st -> calls_ok D cs ->
  exists o' st', opt_run sgd_optimize cs o st = (o', st', Ok tt) /\ bufs_ok D (sg_buf o') /\ sgd_same o o' /\ store_ok D st' /\
    forall k idx, in_range (D k) idx -> (el (st' k) idx, buf_el (sg_buf o') k idx) =
      fold_left (fun p e => sgd_rule (sg_mom o) (sg_damp o) (sg_wd o) (sg_nest o) (rate (sg_lr o) (fst e)) (el (snd e) idx) p) (updates k cs) (el (st k) idx, buf_el (sg_buf o) k idx).
Proof. exact @sgd_history. Qed.
(** Over the reals and without weight decay the momentum buffer is the discounted sum of the gradients. *)
Theorem C55_velocity : forall D cs lr mom damp nest (o' : sgd R) st st' k idx, mom <> 0%R -> store_ok D st -> calls_ok D cs -> in_range (D k) idx ->
  opt_run sgd_optimize cs (sgd_new lr mom damp 0%R nest) st = (o', st', Ok tt) ->
  buf_el (sg_buf o') k idx = ((1 - damp) * weighted mom (map (fun e => el (snd e) idx) (updates k cs)))%R.
Proof. exact sgd_velocity. Qed.
(** Without momentum either, the weight moves by the sum of rate times gradient. *)
Theorem C55_plain : forall D cs lr damp nest (o' : sgd R) st st' k idx, store_ok D st -> calls_ok D cs -> in_range (D k) idx ->
  opt_run sgd_optimize cs (sgd_new lr 0%R damp 0%R nest) st = (o', st', Ok tt) ->
  el (st' k) idx = (el (st k) idx - rsum (updates k cs) (fun e => rate lr (fst e) * el (snd e) idx))%R.
Proof. exact sgd_plain. Qed.
Definition DZ (_ : Z) : list Z := [2].
Definition stZ (_ : Z) : tensor Z := ramp [2].
Definition callsZ : list (call Z) := [(-1, [(0, ramp [2]); (1, ramp [2])]); (5, [(1, ramp [2])])].
Lemma stZ_ok : store_ok DZ stZ. Proof. intros k. split; [ramps|reflexivity]. Qed.
Lemma callsZ_ok : calls_ok DZ callsZ. Proof. repeat constructor; cbn [snd]; ramps. Qed.
Example C55_case : store_ok DZ stZ /\ calls_ok DZ callsZ /\
  let '(_, st, r) := opt_run sgd_optimize callsZ (sgd_new 1 2 0 0 false) stZ in r = Ok tt /\ tdata (st 0) = [0; 0] /\ tdata (st 1) = [0; -15].
Proof. split; [exact stZ_ok|]. split; [exact callsZ_ok|]. vm_compute. auto. Qed.
Print Assumptions C55_history.
Print Assumptions C55_velocity.
Print Assumptions C55_plain.

(** ** C56.  The same for RMSProp and [rms_rule]. *)
Theorem C56_history : forall {T} {S : Scalar T} D cs (o : rms T) (st : store T), rms_ok D o -> store_ok D st -> calls_ok D cs ->
  exists o' st', opt_run rms_optimize cs o st = (o', st', Ok tt) /\ rms_ok D o' /\ rms_same o o' /\ store_ok D st' /\
    forall k idx, in_range (D k) idx ->
      (el (st' k) idx, buf_el (rp_sq o') k idx, buf_el (rp_mean o') k idx, buf_el (rp_vel o') k idx) =
      fold_left (fun p e => rms_rule (rp_alpha o) (rp_eps o) (rp_mom o) (rp_cent o) (rp_wd o) (rate (rp_lr o) (fst e)) (el (snd e) idx) p) (updates k cs)
        (el (st k) idx, buf_el (rp_sq o) k idx, buf_el (rp_mean o) k idx, buf_el (rp_vel o) k idx).
Proof. exact @rms_history_spec. Qed.
(** After every history the square average is non-negative, and so is the centered variance; the denominator, which each
    step computes from the state it has just stored, is positive. *)
Theorem C56_defined : forall D cs lr alpha eps mom cent wd (o' : rms R) st st' k idx, (0 <= alpha <= 1)%R -> (0 < eps)%R -> store_ok D st -> calls_ok D cs -> in_range (D k) idx ->
  opt_run rms_optimize cs (rms_new lr alpha eps mom cent wd) st = (o', st', Ok tt) ->
  (0 <= buf_el (rp_sq o') k idx /\ 0 < sqrt (buf_el (rp_sq o') k idx + eps) /\
  (cent = true -> 0 <= buf_el (rp_sq o') k idx - buf_el (rp_mean o') k idx * buf_el (rp_mean o') k idx /\
                  0 < sqrt (buf_el (rp_sq o') k idx - buf_el (rp_mean o') k idx * buf_el (rp_mean o') k idx + eps)))%R.
Proof. exact rms_defined. Qed.
Example C56_case : rms_ok D1 (rms_new 1%R (1/2)%R (1/8)%R (1/2)%R true 0%R) /\ store_ok D1 stR /\ calls_ok D1 shared /\
  exists o st, opt_run rms_optimize shared (rms_new 1%R (1/2)%R (1/8)%R (1/2)%R true 0%R) stR = (o, st, Ok tt).
Proof.
  assert (H : rms_ok D1 (rms_new 1%R (1/2)%R (1/8)%R (1/2)%R true 0%R)) by (split; [|split]; intros ? ?; discriminate).
  split; [exact H|]. split; [exact stR_ok|]. split; [exact shared_ok|].
  destruct (rms_history_spec D1 shared _ stR H stR_ok shared_ok) as (o & st & E & _). exists o, st. exact E.
Qed.
Example C56_case_Z : let '(_, st, r) := opt_run rms_optimize callsZ (rms_new 1 0 0 0 false 0) stZ in r = Ok tt /\ tdata (st 0) = [0; 0] /\ tdata (st 1) = [0; -5].
Proof. vm_compute. auto. Qed.
Print Assumptions C56_history.
Print Assumptions C56_defined.

(** ** C57.  The moments are the moving averages of gradient / batch size and its square. *)
Theorem C57_moments : forall D cs lr b1 b2 eps l1 l2 decay batch (o' : adam R) st st' k idx, store_ok D st -> Zlen cs <= INT_MAX -> calls_ok D cs -> in_range (D k) idx ->
  opt_run adam_optimize cs (adam_new lr b1 b2 eps l1 l2 decay batch) st = (o', st', Ok tt) ->
  (let a := map (fun e => el (snd e) idx / IZR batch) (updates k cs) in
  buf_el (ad_m o') k idx = (1 - b1) * weighted b1 a /\
  buf_el (ad_v o') k idx = (1 - b2) * weighted b2 (map (fun x => x * x) a) /\
  (0 <= b2 <= 1 -> 0 <= buf_el (ad_v o') k idx))%R.
Proof. exact adam_moments. Qed.
(** Each call adds one to the iteration count and sets the learning rate from it, unless overridden. *)
Theorem C57_rate : forall {T} {S : Scalar T} D (l : list (Z * tensor T)) lro (o : adam T) (st : store T), adam_ok D o -> store_ok D st -> 0 <= ad_it o < INT_MAX ->
  Forall (fun p => good (snd p) /\ tdims (snd p) = D (fst p)) l ->
  exists o' st', adam_optimize o st (map fst l) (map snd l) lro = (o', st', Ok tt) /\ adam_ok D o' /\ store_ok D st' /\
    ad_it o' = ad_it o + 1 /\ ad_lr o' = adam_lr (ad_init o) (ad_decay o) (ad_it o + 1) lro /\ ad_init o' = ad_init o /\ ad_decay o' = ad_decay o.
Proof. exact @adam_call_rate. Qed.
Example C57_case : adam_ok D1 adamR /\ store_ok D1 stR /\ calls_ok D1 shared /\ exists o st, opt_run adam_optimize shared adamR stR = (o, st, Ok tt) /\ ad_it o = 2.
Proof.
  split; [exact adamR_ok|]. split; [exact stR_ok|]. split; [exact shared_ok|].
  destruct (adam_history_spec D1 shared adamR stR adamR_ok stR_ok (Z.le_refl _) ltac:(vm_compute; discriminate) shared_ok) as (o & st & E & _ & _ & EI & _). exists o, st. auto.
Qed.
Print Assumptions C57_moments.
Print Assumptions C57_rate.

(** ** C58.  One update of a new optimizer, gradient 1, learning rate 1: the weight moves by 1/2, the textbook step is 1. *)
Theorem C58_refuted : exists (cs : list (call R)) D st o' st', store_ok D st /\ calls_ok D cs /\
  opt_run adam_optimize cs (adam_new 1 (1/2) (15/16) 0 0 0 0 1)%R st = (o', st', Ok tt) /\
  el (st' 1) [0] = (- (1 / 2))%R /\ fst (fst (adam_textbook 1 (1/2) (15/16) 0 0 0 0 1 1 cs [0%Z] (el (st 1%Z) [0%Z])))%R = (- (1))%R.
Proof.
  exact (match alone_run with ex_intro o' (ex_intro st' (conj E V)) =>
    ex_intro _ alone (ex_intro _ D1 (ex_intro _ stR (ex_intro _ o' (ex_intro _ st' (conj stR_ok (conj alone_ok (conj E (conj V textbook_alone)))))))) end).
Qed.
(** If another tensor was optimized by an earlier call, the same first update moves the weight by 31/72. *)
Theorem C58_shared_refuted : exists (cs : list (call R)) D st o' st', store_ok D st /\ calls_ok D cs /\
  opt_run adam_optimize cs (adam_new 1 (1/2) (15/16) 0 0 0 0 1)%R st = (o', st', Ok tt) /\ updates 1 cs = [((-1)%R, cR 1)] /\
  el (st' 1) [0] = (- (31 / 72))%R /\ fst (fst (adam_textbook 1 (1/2) (15/16) 0 0 0 0 1 1 cs [0%Z] (el (st 1%Z) [0%Z])))%R = (- (1))%R.
Proof.
  exact (match shared_run with ex_intro o' (ex_intro st' (conj E V)) =>
    ex_intro _ shared (ex_intro _ D1 (ex_intro _ stR (ex_intro _ o' (ex_intro _ st' (conj stR_ok (conj shared_ok (conj E (conj eq_refl (conj V textbook_shared))))))))) end).
Qed.
(** What holds for every history: [adam_rule] corrected by the number of the call, with the rate scaled by [adam_scaled]. *)
Theorem C58_step_partial : forall {T} {S : Scalar T} D cs (o : adam T) (st : store T), adam_ok D o -> store_ok D st -> 0 <= ad_it o -> ad_it o + Zlen cs <= INT_MAX -> calls_ok D cs ->
  exists o' st', opt_run adam_optimize cs o st = (o', st', Ok tt) /\ adam_ok D o' /\ store_ok D st' /\ ad_it o' = ad_it o + Zlen cs /\
    forall k idx, in_range (D k) idx ->
      (el (st' k) idx, buf_el (ad_m o') k idx, buf_el (ad_v o') k idx) =
      fold_left (fun p e => adam_rule (ad_b1 o) (ad_b2 o) (ad_eps o) (ad_l1 o) (ad_l2 o) (adam_scaled (ad_b1 o) (ad_b2 o))
                              (fst (fst e)) (adam_lr (ad_init o) (ad_decay o) (fst (fst e)) (snd (fst e))) (s_div (el (snd e) idx) (s_z (ad_batch o))) p)
        (numbered (ad_it o + 1) k cs) (el (st k) idx, buf_el (ad_m o) k idx, buf_el (ad_v o) k idx).
Proof. exact @adam_history_spec. Qed.
(** Without penalties the step is the textbook one times sqrt(1 - b2^n) / (1 - b1^n). *)
Theorem C58_ratio : forall (b1 b2 eps : R) (n : Z) (lr a w m v : R), (tiny <= powerRZ b1 n)%R -> (tiny <= powerRZ b2 n)%R ->
  (fst (fst (adam_rule b1 b2 eps 0 0 (adam_scaled b1 b2) n lr a (w, m, v))) =
  w - sqrt (1 - powerRZ b2 n) / (1 - powerRZ b1 n) * (w - fst (fst (adam_rule b1 b2 eps 0 0 (fun _ r => r) n lr a (w, m, v)))))%R.
Proof. exact adam_ratio. Qed.
Example C58_case : (@tiny R RScalar <= powerRZ (1/2) 2)%R /\ (@tiny R RScalar <= powerRZ (15/16) 2)%R.
Proof. rewrite !pow_2. pose proof tiny_small. lra. Qed.
Print Assumptions C58_refuted.
Print Assumptions C58_shared_refuted.
Print Assumptions C58_step_partial.
Print Assumptions C58_ratio.

(** ** C59.  What happens at [k] depends only on the calls' gradients for [k]. *)
Theorem C59_sgd : forall {T} {S : Scalar T} D cs cs' (o o1 o2 : sgd T) (st st1 st2 : store T) k, bufs_ok D (sg_buf o) -> store_ok D st -> calls_ok D cs -> calls_ok D cs' ->
  updates k cs = updates k cs' -> opt_run sgd_optimize cs o st = (o1, st1, Ok tt) -> opt_run sgd_optimize cs' o st = (o2, st2, Ok tt) ->
  st1 k = st2 k /\ forall idx, in_range (D k) idx -> buf_el (sg_buf o1) k idx = buf_el (sg_buf o2) k idx.
Proof. exact @sgd_independent. Qed.
Theorem C59_rms : forall {T} {S : Scalar T} D cs cs' (o o1 o2 : rms T) (st st1 st2 : store T) k, rms_ok D o -> store_ok D st -> calls_ok D cs -> calls_ok D cs' ->
  updates k cs = updates k cs' -> opt_run rms_optimize cs o st = (o1, st1, Ok tt) -> opt_run rms_optimize cs' o st = (o2, st2, Ok tt) ->
  st1 k = st2 k /\ forall idx, in_range (D k) idx ->
    buf_el (rp_sq o1) k idx = buf_el (rp_sq o2) k idx /\ buf_el (rp_mean o1) k idx = buf_el (rp_mean o2) k idx /\ buf_el (rp_vel o1) k idx = buf_el (rp_vel o2) k idx.
Proof. exact @rms_independent. Qed.
(** Adam: the number of each call matters too. *)
Theorem C59_adam_partial : forall {T} {S : Scalar T} D cs cs' (o o1 o2 : adam T) (st st1 st2 : store T) k, adam_ok D o -> store_ok D st -> calls_ok D cs -> calls_ok D cs' ->
  0 <= ad_it o -> ad_it o + Zlen cs <= INT_MAX -> ad_it o + Zlen cs' <= INT_MAX ->
  numbered (ad_it o + 1) k cs = numbered (ad_it o + 1) k cs' -> opt_run adam_optimize cs o st = (o1, st1, Ok tt) -> opt_run adam_optimize cs' o st = (o2, st2, Ok tt) ->
  st1 k = st2 k /\ forall idx, in_range (D k) idx -> buf_el (ad_m o1) k idx = buf_el (ad_m o2) k idx /\ buf_el (ad_v o1) k idx = buf_el (ad_v o2) k idx.
Proof. exact @adam_independent. Qed.
(** Adam: optimizing tensor 0 first changes the later update of tensor 1. *)
Lemma two_runs : exists D (cs cs' : list (call R)) o1 o2 st st1 st2, store_ok D st /\ calls_ok D cs /\ calls_ok D cs' /\ updates 1 cs = updates 1 cs' /\
  opt_run adam_optimize cs adamR st = (o1, st1, Ok tt) /\ opt_run adam_optimize cs' adamR st = (o2, st2, Ok tt) /\ el (st1 1) [0] <> el (st2 1) [0].
Proof.
  destruct alone_run as (o1 & st1 & E1 & V1). destruct shared_run as (o2 & st2 & E2 & V2). exists D1, alone, shared, o1, o2, stR, st1, st2.
  split; [exact stR_ok|]. split; [exact alone_ok|]. split; [exact shared_ok|]. split; [reflexivity|]. split; [exact E1|]. split; [exact E2|]. rewrite V1, V2. lra.
Qed.
Theorem C59_adam_refuted : exists D (cs cs' : list (call R)) o1 o2 st st1 st2, store_ok D st /\ calls_ok D cs /\ calls_ok D cs' /\ updates 1 cs = updates 1 cs' /\
  opt_run adam_optimize cs adamR st = (o1, st1, Ok tt) /\ opt_run adam_optimize cs' adamR st = (o2, st2, Ok tt) /\ el (st1 1) [0] <> el (st2 1) [0].
Proof. exact two_runs. Qed.
(** Reordering the (distinct) tensors within calls changes nothing that the theorems above depend on. *)
Theorem C59_order : forall {T} k (cs cs' : list (call T)) n,
  Forall2 (fun c c' => fst c = fst c' /\ NoDup (map fst (snd c)) /\ Permutation (snd c) (snd c')) cs cs' ->
  updates k cs = updates k cs' /\ numbered n k cs = numbered n k cs'.
Proof. exact (fun T k cs cs' n H => conj (updates_perm k cs cs' H) (numbered_perm k cs cs' n H)). Qed.
Example C59_case : updates 0 callsZ = updates 0 [(-1, [(1, ramp [2]); (0, ramp [2])])] /\ updates 0 callsZ = [(-1, ramp [2])] /\ updates 7 callsZ = [].
Proof. vm_compute. auto. Qed.
Print Assumptions C59_sgd.
Print Assumptions C59_rms.
Print Assumptions C59_adam_partial.
Print Assumptions C59_adam_refuted.
Print Assumptions C59_order.

(** ** C60.  A different number of weights and gradients throws and changes nothing. *)
Theorem C60_counts_partial : forall {T} {S : Scalar T} (st : store T) ks gs lro, Zlen ks <> Zlen gs ->
  (forall o : sgd T, sgd_optimize o st ks gs lro = (o, st, Throw InvalidArgument)) /\
  (forall o : rms T, rms_optimize o st ks gs lro = (o, st, Throw InvalidArgument)) /\
  (forall o : adam T, adam_optimize o st ks gs lro = (o, st, Throw InvalidArgument)).
Proof. exact @opt_counts. Qed.
(** A gradient with fewer elements than its weight is read past its end by all three. *)
Theorem C60_short : forall {T} {S : Scalar T} D (st : store T) k g ks gs lro, store_ok D st -> good g -> prod (tdims g) < prod (D k) -> Zlen ks = Zlen gs ->
  (forall o : sgd T, bufs_ok D (sg_buf o) -> snd (sgd_optimize o st (k :: ks) (g :: gs) lro) = UB) /\
  (forall o : rms T, rms_ok D o -> snd (rms_optimize o st (k :: ks) (g :: gs) lro) = UB) /\
  (forall o : adam T, adam_ok D o -> 0 <= ad_it o < INT_MAX -> snd (adam_optimize o st (k :: ks) (g :: gs) lro) = UB).
Proof. exact @opt_short. Qed.
Theorem C60_short_refuted : exists (o : sgd Z) (st : store Z) g, store_ok DZ st /\ good g /\ tdims g <> DZ 0 /\ snd (sgd_optimize o st [0] [g] (-1)) = UB.
Proof.
  exact (ex_intro _ (sgd_new 1 0 0 0 false) (ex_intro _ stZ (ex_intro _ (ramp [1]) (conj stZ_ok (conj (ltac:(ramps) : good (ramp [1])) (conj (ltac:(discriminate) : tdims (ramp [1]) <> DZ 0) eq_refl)))))).
Qed.
(** A longer gradient is silently accepted. *)
Theorem C60_long_refuted : exists (o : sgd Z) (st : store Z) g, store_ok DZ st /\ good g /\ tdims g <> DZ 0 /\ snd (sgd_optimize o st [0] [g] (-1)) = Ok tt.
Proof.
  exact (ex_intro _ (sgd_new 1 0 0 0 false) (ex_intro _ stZ (ex_intro _ (ramp [3; 2]) (conj stZ_ok (conj (ltac:(ramps) : good (ramp [3; 2])) (conj (ltac:(discriminate) : tdims (ramp [3; 2]) <> DZ 0) eq_refl)))))).
Qed.
Example C60_case : Zlen [0; 1] <> Zlen [ramp [2]] /\ prod (tdims (ramp [1])) < prod (DZ 0).
Proof. vm_compute. split; [discriminate|reflexivity]. Qed.
Print Assumptions C60_counts_partial.
Print Assumptions C60_short.
Print Assumptions C60_short_refuted.
Print Assumptions C60_long_refuted.

(** ** C76.  A tensor placed where a destroyed tensor was: its first update, with gradient 0, moves it by the old momentum. *)
Definition gZ (v : Z) : tensor Z := tensor_of [1] (fun _ => v).
Theorem C76_momentum_refuted : exists (o o1 o2 : sgd Z) (st st1 st2 new : store Z),
  sgd_optimize o st [0] [gZ 5] (-1) = (o1, st1, Ok tt) /\ tdims (new 0) = tdims (st 0) /\
  sgd_optimize o1 new [0] [gZ 0] (-1) = (o2, st2, Ok tt) /\ tdata (new 0) = [7] /\ tdata (st2 0) = [2] /\
  (let '(_, st3, _) := sgd_optimize o new [0] [gZ 0] (-1) in tdata (st3 0)) = [7].
Proof.
  exact (let o := sgd_new 1 1 0 0 false in let st := fun _ => gZ 0 in let new := fun _ => gZ 7 in
    let r1 := sgd_optimize o st [0] [gZ 5] (-1) in let o1 := fst (fst r1) in let r2 := sgd_optimize o1 new [0] [gZ 0] (-1) in
    ex_intro _ o (ex_intro _ o1 (ex_intro _ (fst (fst r2)) (ex_intro _ st (ex_intro _ (snd (fst r1)) (ex_intro _ (snd (fst r2)) (ex_intro _ new
      (conj eq_refl (conj eq_refl (conj eq_refl (conj eq_refl (conj eq_refl eq_refl)))))))))))).
Qed.
(** If it is larger than the old one, the old momentum buffer is read past its end. *)
Theorem C76_larger : forall {T} {S : Scalar T} (o : sgd T) k (m w g : tensor T) lr, sg_buf o k = Some m -> good m -> good w -> good g -> tdims g = tdims w ->
  prod (tdims m) < prod (tdims w) -> s_eq (sg_mom o) zero = false -> snd (sgd_update o k w g lr) = UB.
Proof. exact @sgd_stale_ub. Qed.
(** At an address no earlier call used, SGD and RMSProp behave as if new. *)
Theorem C76_unused_partial : forall {T} {S : Scalar T} D cs0 cs (st st1 st2 : store T) k, store_ok D st -> calls_ok D cs0 -> calls_ok D cs -> updates k cs0 = [] ->
  (forall lr mom damp wd nest o1 o2, opt_run sgd_optimize (cs0 ++ cs) (sgd_new lr mom damp wd nest) st = (o1, st1, Ok tt) ->
    opt_run sgd_optimize cs (sgd_new lr mom damp wd nest) st = (o2, st2, Ok tt) -> st1 k = st2 k) /\
  (forall lr alpha eps mom cent wd o1 o2, opt_run rms_optimize (cs0 ++ cs) (rms_new lr alpha eps mom cent wd) st = (o1, st1, Ok tt) ->
    opt_run rms_optimize cs (rms_new lr alpha eps mom cent wd) st = (o2, st2, Ok tt) -> st1 k = st2 k).
Proof.
  exact (fun T S D cs0 cs st st1 st2 k HS H0 H1 HU => conj
    (fun lr mom damp wd nest o1 o2 => sgd_unused D cs0 cs lr mom damp wd nest o1 o2 st st1 st2 k HS H0 H1 HU)
    (fun lr alpha eps mom cent wd o1 o2 => rms_unused D cs0 cs lr alpha eps mom cent wd o1 o2 st st1 st2 k HS H0 H1 HU)).
Qed.
Example C76_case : updates 1 [(-1, [(0, ramp [2])])] = [] /\ sg_buf (fst (sgd_update (sgd_new 1 1 0 0 false) 0 (gZ 0) (gZ 5) 1)) 0 = Some (gZ 5) /\
  prod (tdims (gZ 5)) < prod (tdims (ramp [2])) /\ s_eq (sg_mom (sgd_new 1 1 0 0 false)) zero = false.
Proof. vm_compute. auto. Qed.
Print Assumptions C76_momentum_refuted.
Print Assumptions C76_larger.
Print Assumptions C76_unused_partial.

(** ** C90.  After any history [cs0], further calls [cs] move each weight by at most the sum of their learning rates times a
    constant, whatever the gradients.  A single step is [cs] with one call. *)
Theorem C90_rmsprop : forall D cs0 cs lr alpha eps mom wd (o1 o2 : rms R) st st1 st2 k idx, (0 <= alpha < 1)%R -> (0 < eps)%R -> (0 <= mom < 1)%R ->
  store_ok D st -> calls_ok D cs0 -> calls_ok D cs -> in_range (D k) idx ->
  opt_run rms_optimize cs0 (rms_new lr alpha eps mom false wd) st = (o1, st1, Ok tt) -> opt_run rms_optimize (cs0 ++ cs) (rms_new lr alpha eps mom false wd) st = (o2, st2, Ok tt) ->
  (Rabs (el (st2 k) idx - el (st1 k) idx) <= rsum (updates k cs) (fun e => Rabs (rate lr (fst e))) / (sqrt (1 - alpha) * (1 - mom)))%R.
Proof. exact rms_bounded. Qed.
(** Adam without penalties, with decay rates such as the defaults 0.9 and 0.999; [numbered n k cs] are the updates of [k] with the
    number of the call, [tiny] is the smallest float. *)
Theorem C90_adam : forall D cs0 cs lr b1 b2 eps decay batch (o1 o2 : adam R) st st1 st2 k idx, (0 <= b1 < 1)%R -> (b1 ^ 2 < b2 < 1)%R -> (1 - b2 <= (1 - b1) ^ 2)%R -> (0 < eps)%R ->
  store_ok D st -> calls_ok D cs0 -> calls_ok D cs -> Zlen cs0 + Zlen cs <= INT_MAX -> in_range (D k) idx ->
  opt_run adam_optimize cs0 (adam_new lr b1 b2 eps 0%R 0%R decay batch) st = (o1, st1, Ok tt) -> opt_run adam_optimize (cs0 ++ cs) (adam_new lr b1 b2 eps 0%R 0%R decay batch) st = (o2, st2, Ok tt) ->
  (Rabs (el (st2 k) idx - el (st1 k) idx) <= rsum (numbered (Zlen cs0 + 1) k cs) (fun e => Rabs (adam_lr lr decay (fst (fst e)) (snd (fst e)))) *
    ((1 - b1) * sqrt (b2 / ((b2 - b1 ^ 2) * (1 - b2))) / (1 - tiny)))%R.
Proof. exact adam_bounded. Qed.
(** Centered RMSProp has no such bound: at learning rate 1 a single call can move a weight by more than any [B]. *)
Theorem C90_centered : forall B : R, exists D cs c (o1 o2 : rms R) st st1 st2, store_ok D st /\ calls_ok D (cs ++ [c]) /\ (exists g, c = ((-1)%R, [(1, g)])) /\ in_range (D 1) [0] /\
  opt_run rms_optimize cs (rms_new 1 (1 / 2) 1 0 true 0)%R st = (o1, st1, Ok tt) /\ opt_run rms_optimize (cs ++ [c]) (rms_new 1 (1 / 2) 1 0 true 0)%R st = (o2, st2, Ok tt) /\
  (B < Rabs (el (st2 1%Z) [0%Z] - el (st1 1%Z) [0%Z]))%R.
Proof. exact rms_centered. Qed.
(** The default options qualify; Adam's constant is then below 7.4.  Two calls after one. *)
Example C90_case : (0 <= 99 / 100 < 1 /\ 0 <= 9 / 10 < 1 /\ (9 / 10) ^ 2 < 999 / 1000 < 1 /\ 1 - 999 / 1000 <= (1 - 9 / 10) ^ 2 /\
    (1 - 9 / 10) * sqrt (999 / 1000 / ((999 / 1000 - (9 / 10) ^ 2) * (1 - 999 / 1000))) / (1 - tiny) < 74 / 10)%R /\
  store_ok D1 stR /\ calls_ok D1 alone /\ calls_ok D1 shared /\ (exists o st, opt_run rms_optimize (alone ++ shared) (rms_new (1 / 100) (99 / 100) (1 / 1000) 0 false 0)%R stR = (o, st, Ok tt)) /\
  exists o st, opt_run adam_optimize (alone ++ shared) (adam_new (1 / 1000) (9 / 10) (999 / 1000) (1 / 1000) 0 0 0 1)%R stR = (o, st, Ok tt).
Proof.
  split; [|split; [exact stR_ok|split; [exact alone_ok|split; [exact shared_ok|split]]]].
  - split; [lra|]. split; [lra|]. split; [lra|]. split; [lra|]. pose proof tiny_small. assert (HS : (sqrt (999 / 1000 / ((999 / 1000 - (9 / 10) ^ 2) * (1 - 999 / 1000))) < 73)%R).
    { apply Rsqr_incrst_0; [|apply sqrt_pos|lra]. rewrite Rsqr_sqrt by lra. unfold Rsqr. lra. }
    pose proof (tiny_pos). apply Rmult_lt_reg_r with (1 - tiny)%R; [lra|]. unfold Rdiv at 1. rewrite Rmult_assoc, Rinv_l by lra. lra.
  - destruct (rms_history_spec D1 (alone ++ shared) _ stR (rms_new_ok D1 (1 / 100) (99 / 100) (1 / 1000) 0 false 0) stR_ok (calls_ok_app D1 _ _ alone_ok shared_ok)) as (o & st & E & _). exists o, st. exact E.
  - destruct (adam_history_spec D1 (alone ++ shared) (adam_new (1 / 1000) (9 / 10) (999 / 1000) (1 / 1000) 0 0 0 1)%R stR ltac:(split; intros ? ?; discriminate) stR_ok (Z.le_refl _) ltac:(vm_compute; discriminate) (calls_ok_app D1 _ _ alone_ok shared_ok)) as (o & st & E & _). exists o, st. exact E.
Qed.
Print Assumptions C90_rmsprop.
Print Assumptions C90_adam.
Print Assumptions C90_centered.
