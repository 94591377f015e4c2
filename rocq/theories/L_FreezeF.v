(** * A learning rate of zero in float32 (C141) *)
From Coq Require Import Reals SpecFloat.
From Verif Require Import Base Scalar Types Spec SpecR SpecF32 SpecOpt M_Shape M_Tensor M_Layers M_Opt M_Net L_Index L_Tensor L_Opt L_Float L_FloatT.
Local Open Scope Z_scope.

Section F.
Variable lm : libm.
Local Instance SFz : Scalar f32 := F32Scalar lm.

Definition same32 (w w' : f32) : Prop := f32_finite w' /\ f32_value w' = f32_value w.
Lemma zero_times : forall w g : f32, f32_finite w -> f32_finite g -> same32 w (s_sub w (s_mul zero g)).
Proof.
  intros w g HW HG. change (same32 w (SFsub f32_prec f32_emax w (SFmul f32_prec f32_emax (S754_zero false) g))).
  destruct g as [sg|sg| |sg mg eg], w as [sw|sw| |sw mw ew]; try destruct HW; try destruct HG; try destruct sg; try destruct sw; split; cbn; auto.
Qed.
Lemma in_updates : forall k (cs : list (call f32)) e, In e (updates k cs) -> exists c p, In c cs /\ In p (snd c) /\ fst p = k /\ e = (fst c, snd p).
Proof.
  intros k cs e H. unfold updates in H. apply in_flat_map in H. destruct H as (c & H1 & H2). apply in_map_iff in H2. destruct H2 as (g & <- & H3). unfold grads in H3. apply in_map_iff in H3. destruct H3 as (p & <- & H4).
  apply filter_In in H4. destruct H4 as (H4 & H5). apply Z.eqb_eq in H5. exists c, p. auto.
Qed.
Theorem sgd_zero32 : forall D cs damp nest st, store_ok D st -> calls_ok D cs -> Forall (fun c => s_lt zero (fst c) = false /\ Forall (fun p => all_finite (snd p)) (snd c)) cs ->
  exists o' st', opt_run sgd_optimize cs (sgd_new zero zero damp zero nest) st = (o', st', Ok tt) /\
    forall k idx, in_range (D k) idx -> f32_finite (el (st k) idx) -> f32_finite (el (st' k) idx) /\ f32_value (el (st' k) idx) = f32_value (el (st k) idx).
Proof.
  intros D cs damp nest st HS HC HF. destruct (sgd_history D cs (sgd_new zero zero damp zero nest) st) as (o' & st' & E & _ & _ & _ & H); [intros k m; discriminate|exact HS|exact HC|].
  exists o', st'. split; [exact E|]. intros k idx HI HW. specialize (H k idx HI). apply (f_equal fst) in H. cbn [fst sgd_new sg_mom sg_damp sg_wd sg_nest sg_lr] in H. rewrite H. clear H E.
  assert (HU : forall e, In e (updates k cs) -> rate zero (fst e) = zero /\ f32_finite (el (snd e) idx)).
  { intros e He. destruct (in_updates k cs e He) as (c & p & H1 & H2 & H3 & ->). cbn [fst snd]. rewrite Forall_forall in HF. destruct (HF c H1) as (A & B). unfold rate. rewrite A. split; [reflexivity|].
    rewrite Forall_forall in B. unfold calls_ok in HC. rewrite Forall_forall in HC. pose proof (HC c H1) as HC1. rewrite Forall_forall in HC1. destruct (HC1 p H2) as (C1 & C2). rewrite H3 in C2. refine (proj2 (el_all lm _ (snd p) idx C1 (B p H2) _)). rewrite C2. exact HI. }
  cut (forall us w v, f32_finite w -> (forall e, In e us -> rate zero (fst e) = zero /\ f32_finite (el (snd e) idx)) ->
    same32 w (fst (fold_left (fun p e => sgd_rule zero damp zero nest (rate zero (fst e)) (el (snd e) idx) p) us (w, v)))).
  { intros HH. apply (HH (updates k cs) _ _ HW HU). }
  clear HU.
  induction us as [|e us IH]; intros w v Hw HU; cbn [fold_left]; [split; auto|]. destruct (HU e (or_introl eq_refl)) as (A & B). rewrite A.
  change (sgd_rule zero damp zero nest zero (el (snd e) idx) (w, v)) with (s_sub w (s_mul zero (el (snd e) idx)), v). destruct (zero_times w _ Hw B) as (C1 & C2).
  destruct (IH _ v C1 (fun e H => HU e (or_intror H))) as (D1 & D2). split; [exact D1|]. rewrite D2. exact C2.
Qed.
Theorem inf_zero : exists o' st', sgd_optimize (sgd_new zero zero zero zero false) (fun _ => t_fill (shape_of [1]) one) [0] [t_fill (shape_of [1]) (s_inf : f32)] (s_z (-1)) = (o', st', Ok tt) /\ f32_nan (el (st' 0) [0]).
Proof. eexists. eexists. split; [vm_compute; reflexivity|vm_compute; reflexivity]. Qed.
End F.
