(** * C99: what training reports *)
From Coq Require Import ZArith Ascii String Reals Lra.
From Verif Require Import Base Scalar ScalarR Types TextBase Spec SpecNN SpecR SpecLayers SpecOpt M_Shape M_Tensor M_Adv M_Act M_Loss M_Layers M_Reg M_Opt M_Net M_Text M_Log SpecText SpecNet SpecNetR SpecLog
  L_Index L_Tensor L_Text L_Net L_Log L_LogR L_RSum L_Linear P_Tensor P_Net P_Linear.
Local Open Scope R_scope.
Local Open Scope string_scope.
Local Existing Instance counter_rng.

(** ** C99.  [net_train_report show n xs ts e]: the network, the text written to the standard output and the outcome of training.
    [fit_epochs samples n lss n']: training on the samples in order, once per list in [lss], leads from [n] to [n'], and each list
    holds the losses of the samples, each computed just before the update for that sample.  [report_from show 0 vs]: the lines
    "Epoch 0 - Loss: [v0]", "Epoch 1 - Loss: [v1]", ... *)
Theorem C99_report : forall {T} {S : Scalar T} {G} {HR : Rng T G} (show : T -> string) xs ts e (n n' : net T G) out, (Zlen xs <= Zlen ts)%Z -> s_eq (s_z (Zlen xs)) zero = false ->
  net_train_report show n xs ts e = ((n', out), Ok tt) <->
  exists lss, fit_epochs (combine xs ts) n lss n' /\ List.length lss = Z.to_nat e /\ out = report_from show 0 (map average lss).
Proof. exact @train_report. Qed.
(** If training fails, the text is that of the epochs completed before. *)
Theorem C99_failure : forall {T} {S : Scalar T} {G} {HR : Rng T G} (show : T -> string) xs ts e (n n' : net T G) out o, (Zlen xs <= Zlen ts)%Z -> s_eq (s_z (Zlen xs)) zero = false ->
  net_train_report show n xs ts e = ((n', out), o) -> o <> Ok tt ->
  exists lss n1, fit_epochs (combine xs ts) n lss n1 /\ (List.length lss < Z.to_nat e)%nat /\ out = report_from show 0 (map average lss) /\ snd (train_epoch n1 xs ts) = o.
Proof. exact @train_report_failed. Qed.
(** On an empty dataset a broken line is written before the exception. *)
Theorem C99_empty : forall {T} {S : Scalar T} {G} {HR : Rng T G} (show : T -> string) ts e (n : net T G), (0 < e)%Z -> s_eq (s_z 0) zero = true ->
  net_train_report show n [] ts e = ((n, "Epoch 0 - Loss: "), Throw InvalidArgument).
Proof. exact @train_report_empty. Qed.
(** Writing the report does not change the training the other theorems speak about. *)
Theorem C99_same_training : forall {T} {S : Scalar T} {G} {HR : Rng T G} (show : T -> string) xs ts e (n : net T G),
  exists out, net_train_report show n xs ts e = ((fst (net_train n xs ts e), out), snd (net_train n xs ts e)).
Proof. exact @train_report_same. Qed.
(** Equal reports mean equal numbers of epochs with losses written alike. *)
Theorem C99_distinct : forall {T} (show : T -> string), unbroken show -> forall vs ws e, report_from show e vs = report_from show e ws -> map show vs = map show ws.
Proof. exact @report_inj. Qed.
(** On one sample (or one batch) the number for epoch i is the loss of the network after i epochs, that is before the epoch ... *)
Theorem C99_one_batch : forall {G} {HR : Rng R G} (show : R -> string) (n : net R G) x t e n' out, net_train_report show n [x] [t] e = ((n', out), Ok tt) ->
  exists vs, out = report_from show 0 vs /\ List.length vs = Z.to_nat e /\
    forall i, (i < List.length vs)%nat -> exists m, net_train n [x] [t] (Z.of_nat i) = (m, Ok tt) /\ loss_of m x t (nth i vs 0%R).
Proof. exact @single_report. Qed.
(** ... so the last line is not the loss of the trained network. *)
Lemma stale_report : forall show : R -> string, exists (n n' : net R unit) x t v v',
  net_train_report (HR := rngR) show n [x] [t] 1 = ((n', report_from show 0 [v]), Ok tt) /\ loss_of (HR := rngR) n' x t v' /\ v <> v'.
Proof.
  intros show. assert (G1 : good (constR [1; 3]%Z 1)) by constRs. assert (G2 : good (constR [1; 2]%Z 5)) by constRs.
  assert (LN : linear_net 1 3 2 (1 / 4) (lin_net (1 / 4)) lin32) by (apply lin_net_linear; [lia|vm_compute; discriminate]).
  destruct (linear_single (HR := rngR) 3 2 (1 / 4) _ _ _ _ LN G1 eq_refl G2 eq_refl) as (v & HV & HE).
  destruct (HE 1%nat) as (n1 & T1 & L1). assert (NL : n_loss (lin_net (1 / 4)) = Some MSE) by reflexivity.
  assert (EV : v = 4%R).
  { destruct (linear_ready 1 3 2 (1 / 4) _ _ _ LN G1 eq_refl) as (_ & EN & W).
    assert (H : mse_of (HR := rngR) (lin_net (1 / 4)) (constR [1; 3]%Z 1) (constR [1; 2]%Z 5) (lin_loss 1 3 2 (constR [1; 3]%Z 1) (constR [1; 2]%Z 5) lin32))
      by apply (loss_lin (HR := rngR) 1 3 2 _ _ G1 eq_refl G2 eq_refl _ _ EN W).
    rewrite (loss_of_fun _ _ _ _ _ (mse_loss_of (HR := rngR) _ _ _ _ NL HV) (mse_loss_of (HR := rngR) _ _ _ _ NL H)). unfold lin_loss, resid. change (zrange 0 3) with [0; 1; 2]%Z. change (zrange 0 2) with [0; 1]%Z. change (zrange 0 1) with [0]%Z.
    rewrite !rsum_cons, !rsum_nil. cbn [lin32 fc_w fc_b]. unfold constR. rewrite !el_tensor_of by auto with idx. change (1 * 2)%Z with 2%Z. field. }
  destruct (train_report_same (HR := rngR) show [constR [1; 3]%Z 1] [constR [1; 2]%Z 5] 1 (lin_net (1 / 4))) as (out & E).
  change (Z.of_nat 1) with 1%Z in T1. rewrite T1 in E. cbn [fst snd] in E.
  destruct (single_report show _ _ _ _ _ _ E) as (vs & EO & EL & HI). destruct vs as [|w [|]]; try discriminate EL. clear EL.
  destruct (HI 0%nat ltac:(cbn; lia)) as (m & TM & LM). cbn [nth] in LM. change (Z.of_nat 0) with 0%Z in TM. injection TM as <-.
  exists (lin_net (1 / 4)), n1, (constR [1; 3]%Z 1), (constR [1; 2]%Z 5), w, 0%R. rewrite E, EO. split; [reflexivity|].
  split.
  - apply mse_loss_of; [rewrite (train_loss _ _ _ _ _ T1); exact NL|].
    assert (ED : dot (constR [1; 3]%Z 1) (constR [1; 3]%Z 1) + 1 = 4) by exact (proj1 (proj2 (proj2 (proj2 C89_single_case)))).
    rewrite ED in L1. replace 0 with (((1 - 2 * (1 / 4) * 4 / 2) ^ 2) ^ 1 * v) by lra. exact L1.
  - rewrite (loss_of_fun _ _ _ _ _ LM (mse_loss_of (HR := rngR) _ _ _ _ NL HV)), EV. lra.
Qed.
Theorem C99_final_loss_refuted : forall show : R -> string, exists (n n' : net R unit) x t v v',
  net_train_report (HR := rngR) show n [x] [t] 1 = ((n', report_from show 0 [v]), Ok tt) /\ loss_of (HR := rngR) n' x t v' /\ v <> v'.
Proof. exact stale_report. Qed.
(** For one linear layer (C89) at a small enough rate the reported losses never increase. *)
Theorem C99_linear : forall {G} {HR : Rng R G} (show : R -> string) N k o lr (n : net R G) l x t e, linear_net N k o lr n l -> good x -> tdims x = [N; k] -> good t -> tdims t = [N; o] ->
  0 <= lr -> lr * (dot x x + IZR N) <= IZR (N * o) -> (0 <= e)%Z ->
  exists n' vs, net_train_report show n [x] [t] e = ((n', report_from show 0 vs), Ok tt) /\ List.length vs = Z.to_nat e /\
    forall i, (Datatypes.S i < List.length vs)%nat -> nth (Datatypes.S i) vs 0 <= nth i vs 0.
Proof. exact @linear_report. Qed.


(** x = 1, t = 3: the weight and the bias go from 0 to 6 and then to -12 (C63), so the losses of the epochs are 9 and 81. *)
Definition newline := String (ascii_of_nat 10) "".
Example C99_report_case : s_eq (s_z (Zlen [oneZ 1]) : Z) zero = false /\
  snd (fst (net_train_report show_int netT [oneZ 1] [oneZ 3] 2)) = "Epoch 0 - Loss: [9]" ++ newline ++ "Epoch 1 - Loss: [81]" ++ newline /\
  snd (net_train_report show_int netT [oneZ 1] [oneZ 3] 2) = Ok tt.
Proof. split; [reflexivity|]. split; vm_compute; reflexivity. Qed.
(** Two samples with losses 9 and 25: the average is written. *)
Example C99_average_case : snd (fst (net_train_report show_int netT [oneZ 1; oneZ 0] [oneZ 3; oneZ 1] 1)) = "Epoch 0 - Loss: [17]" ++ newline.
Proof. vm_compute; reflexivity. Qed.
(** The second sample has the wrong shape: nothing is written. *)
Example C99_failure_case : snd (fst (net_train_report show_int netT [oneZ 1; tensor_of [1; 2]%Z (fun _ => 1%Z)] [oneZ 3; oneZ 3] 1)) = "" /\ snd (net_train_report show_int netT [oneZ 1; tensor_of [1; 2]%Z (fun _ => 1%Z)] [oneZ 3; oneZ 3] 1) <> Ok tt.
Proof. vm_compute. split; [reflexivity|discriminate]. Qed.
Example C99_empty_case : net_train_report show_int netT [] [] 3 = ((netT, "Epoch 0 - Loss: "), Throw InvalidArgument).
Proof. apply C99_empty; [lia|reflexivity]. Qed.
Example C99_distinct_case : unbroken show_int.
Proof. exact show_int_unbroken. Qed.
Example C99_linear_case : forall show, exists n' vs, net_train_report (HR := rngR) show (lin_net (1 / 4)) [constR [1; 3]%Z 1] [constR [1; 2]%Z 5] 7 = ((n', report_from show 0 vs), Ok tt) /\ List.length vs = 7%nat.
Proof.
  intros show. assert (G1 : good (constR [1; 3]%Z 1)) by constRs. assert (G2 : good (constR [1; 2]%Z 5)) by constRs.
  assert (LN : linear_net 1 3 2 (1 / 4) (lin_net (1 / 4)) lin32) by (apply lin_net_linear; [lia|vm_compute; discriminate]).
  destruct (C99_linear (HR := rngR) show 1 3 2 (1 / 4) _ _ _ _ 7 LN G1 eq_refl G2 eq_refl) as (n' & vs & E & L & _); [lra|rewrite (proj1 (proj2 (proj2 (proj2 C89_single_case)))); change (1 * 2)%Z with 2%Z; lra|lia|].
  exists n', vs. auto.
Qed.
Print Assumptions C99_report.
Print Assumptions C99_failure.
Print Assumptions C99_empty.
Print Assumptions C99_same_training.
Print Assumptions C99_distinct.
Print Assumptions C99_one_batch.
Print Assumptions C99_final_loss_refuted.
Print Assumptions C99_linear.
