(** * Training a network that already fits its data (C118) *)
From Coq Require Import Reals Lra String.
From Verif Require Import Base Scalar ScalarR Types Spec SpecR SpecNN SpecLayers SpecOpt M_Shape M_Tensor M_Adv M_Act M_Loss M_Layers M_Reg M_Opt M_Net M_Text M_Log SpecNet SpecLog SpecFit L_Tensor L_Layers L_Fit P_Net.
Local Open Scope Z_scope.

(** ** C118: training leaves a network that already predicts its targets exactly as it is
    In exact arithmetic: layers without a mode, any new optimizer without decay or penalties. [M] is the value of infinity,
    from which max pooling starts. For the cross-entropy the targets must lie in the range to which it clamps predictions. *)
Theorem C118_settled : forall (M : R), let sc : Scalar R := RInf M in forall G (HR : Rng R G) (show : R -> string) (n : net R G) ds ds' lo o samples e,
  accepts_all ds (n_layers n) ds' -> Forall (fun l => layer_mode l = None) (n_layers n) ->
  n_loss n = Some lo -> n_opt n = Some o -> no_penalty o -> samples <> [] ->
  Forall (fun s => good (fst s) /\ tdims (fst s) = ds /\ snd (net_predict n (fst s)) = Ok (snd s) /\ at_rest lo (snd s)) samples ->
  0 <= e -> e * Zlen samples * Zlen (n_layers n) <= INT_MAX ->
  exists n' out vs, net_train_report show n (map fst samples) (map snd samples) e = ((n', out), Ok tt) /\
    map layer_params (n_layers n') = map layer_params (n_layers n) /\ (forall x, snd (net_predict n' x) = snd (net_predict n x)) /\
    Forall2 (fun s v => loss_of n (fst s) (snd s) v) samples vs /\ out = report_from show 0 (repeat (average vs) (Z.to_nat e)) /\ (lo = MSE -> average vs = 0%R).
Proof. exact @settled_training. Qed.
Print Assumptions C118_settled.

(** The general claim is false: a prediction of exactly (1, 0) for the target (1, 0) is clamped, and every learning rate moves
    the weights away from it. *)
Theorem C118_certain_refuted : forall {G} {HR : Rng R G} (lr : R) (g : G), (0 < lr)%R ->
  exists (n n' : net R G) x t w b w' b', n_loss n = Some CCE /\ n_opt n = Some (OSGD (sgd_new lr 0 0 0 false)%R) /\ good x /\ good t /\ snd (net_predict n x) = Ok t /\
    net_train n [x] [t] 1 = (n', Ok tt) /\ map layer_params (n_layers n) = [Some (w, b)] /\ map layer_params (n_layers n') = [Some (w', b')] /\
    (el w [0; 0]%Z < el w' [0; 0]%Z)%R /\ (el w' [0; 1]%Z < el w [0; 1]%Z)%R.
Proof. exact @certain_moves. Qed.
Print Assumptions C118_certain_refuted.

(** A network as in the first theorem: y = (x, 0), trained on x = 1 with Adam for five epochs. *)
Example C118_example : let sc : Scalar R := RInf 0 in exists n' out, net_train_report (G := unit) (HR := rngR) (fun _ => "0"%string) (mkNet [LFC sure_fc] (Some MSE) (Some (OAdam (adam_new 1 0 0 1 0 0 0 1)%R)) tt) [sure_x] [sure_t] 5 = ((n', out), Ok tt) /\
  map layer_params (n_layers n') = [Some (fc_w sure_fc, fc_b sure_fc)] /\ out = report_from (fun _ => "0"%string) 0 (repeat 0%R 5).
Proof.
  intros sc. pose (o := OAdam (adam_new 1 0 0 1 0 0 0 1)%R). pose (n := mkNet [LFC sure_fc] (Some MSE) (Some o) tt : net R unit).
  assert (H1 : Forall (fun l => layer_mode l = None) (n_layers n)) by (constructor; [reflexivity|constructor]).
  assert (H2 : no_penalty o) by (constructor; lra || lia).
  assert (H3 : Forall (fun s => good (fst s) /\ tdims (fst s) = [1; 1] /\ snd (net_predict (HR := rngR) n (fst s)) = Ok (snd s) /\ at_rest MSE (snd s)) [(sure_x, sure_t)]).
  { constructor; [|constructor]. cbn [fst snd]. split; [apply good12; lia|]. split; [reflexivity|]. split; [|exact I]. pose proof (sure_predict_any (HR := rngR) (Some MSE) (Some o) tt) as E. exact (f_equal snd E). }
  assert (H4 : 5 * Zlen [(sure_x, sure_t)] * Zlen (n_layers n) <= INT_MAX) by (vm_compute; discriminate).
  destruct (@C118_settled 0%R unit rngR (fun _ => "0"%string) n [1; 1] [1; 2] MSE o [(sure_x, sure_t)] 5 (sure_accepts _) H1 eq_refl eq_refl H2 ltac:(discriminate) H3 ltac:(lia) H4) as (n' & out & vs & K1 & K2 & _ & _ & K3 & K4).
  exists n', out. split; [exact K1|]. split; [exact K2|]. rewrite <- (K4 eq_refl). exact K3.
Qed.
