(** * C106: training a classifier with Softmax outputs and categorical cross-entropy

    The full statement: for every classifier made of a fully connected layer and Softmax, compiled with
    categorical cross-entropy and plain SGD, every batch and every target whose rows sum to one, a small enough
    training step reduces the loss unless the prediction is already the target.  It is false for batches of two
    rows ([C106_refuted]): the gradient returned by the loss is already the one of the inputs of Softmax (C39),
    and the Softmax layer multiplies it by its own Jacobian a second time.  What remains true: *)
From Coq Require Import Reals Lra.
From Coquelicot Require Import Coquelicot.
From Verif Require Import Base Scalar ScalarR Types Spec SpecNN SpecR SpecLayers SpecOpt M_Shape M_Tensor M_Adv M_Act M_Loss M_Layers M_Reg M_Opt M_Net SpecNet SpecNetR SpecClass
  L_Index L_Shape L_Tensor L_Glue L_Nest L_Matmul L_RSum L_AdvR L_ActR L_Loss L_Layers L_LayersR L_Class.
Local Open Scope R_scope.

(** A batch of one row: every small enough step reduces the loss, unless the prediction equals the target. *)
Theorem C106_partial : forall {G} {HR : Rng R G} k c (l : fc R) x t damp nest (g0 : G) l1 Z p, fc_wf l k c -> good x -> tdims x = [1; k]%Z -> distributions 1 c t ->
  fc_forward l x = (l1, Ok Z) -> softmax_fwd Z = Ok p -> unclamped p -> (exists idx, in_range [1; c]%Z idx /\ el p idx <> el t idx) ->
  exists e, 0 < e /\ forall lr, 0 < lr < e -> exists n' v v', fit_one (classifier l lr damp nest g0) x t n' /\
    cce_of (classifier l lr damp nest g0) x t v /\ cce_of n' x t v' /\ v' < v.
Proof. exact @classifier_improves. Qed.

(** Any batch: the signal [d] passed below the Softmax never points uphill with respect to its inputs, and it
    vanishes exactly at a perfect prediction. *)
Theorem C106_signal : forall N c (Z p t : tensor R), good Z -> tdims Z = [N; c] -> softmax_fwd Z = Ok p -> unclamped p -> distributions N c t ->
  exists g d, cce_gradient p t = Ok g /\ softmax_bwd Z g = Ok d /\ tdims d = [N; c] /\ 0 <= dot g d /\
    (dot g d = 0 <-> forall idx, in_range [N; c] idx -> el p idx = el t idx).
Proof. exact signal_descends. Qed.

(** Any batch: how fast the loss falls with the learning rate of one step; [g] is the derivative of the loss
    with respect to the inputs of Softmax (C39), [shift] is how far the step moves them. *)
Theorem C106_slope : forall {G} {HR : Rng R G} N k c (l : fc R) x t damp nest (g0 : G) l1 Z p, fc_wf l k c -> good x -> tdims x = [N; k] -> (N * c <= INT_MAX)%Z -> distributions N c t ->
  fc_forward l x = (l1, Ok Z) -> softmax_fwd Z = Ok p -> unclamped p ->
  exists g d L, cce_gradient p t = Ok g /\ softmax_bwd Z g = Ok d /\
    (forall lr, cce_of (classifier l lr damp nest g0) x t (L 0)) /\
    (forall lr, exists n', fit_one (classifier l lr damp nest g0) x t n' /\ cce_of n' x t (L lr)) /\
    is_derive L 0 (- dot g (shift N k c x d)).
Proof. exact @classifier_slope. Qed.

(** Two rows and two classes: every small enough step makes the loss larger. *)
Lemma worse : forall {G} {HR : Rng R G} damp nest (g0 : G), exists (l : fc R) x t l1 Z p, fc_wf l 1 2 /\ good x /\ tdims x = [2; 1]%Z /\ distributions 2 2 t /\
  fc_forward l x = (l1, Ok Z) /\ softmax_fwd Z = Ok p /\ unclamped p /\
  exists e, 0 < e /\ forall lr, 0 < lr < e -> exists n' v v', fit_one (classifier l lr damp nest g0) x t n' /\
    cce_of (classifier l lr damp nest g0) x t v /\ cce_of n' x t v' /\ v < v'.
Proof.
  intros G HR damp nest g0. exists badW, badX, badT, (fed badX badW), badZ, badP. split; [apply bad_wf|]. split; [apply bad_goodX|]. split; [reflexivity|]. split; [apply bad_target|].
  split; [rewrite (fc_forward_2 badW 1 2 badX 2); [fold (logits 2 1 2 badX badW); rewrite bad_logits; reflexivity|apply bad_wf|apply bad_goodX|reflexivity|vm_compute; discriminate]|].
  split; [rewrite (prob_ok 2 2 badZ badZ_good eq_refl), bad_prob; reflexivity|]. split; [apply bad_unclamped|]. apply classifier_worse.
Qed.
Theorem C106_refuted : forall {G} {HR : Rng R G} damp nest (g0 : G), exists (l : fc R) x t l1 Z p, fc_wf l 1 2 /\ good x /\ tdims x = [2; 1]%Z /\ distributions 2 2 t /\
  fc_forward l x = (l1, Ok Z) /\ softmax_fwd Z = Ok p /\ unclamped p /\
  exists e, 0 < e /\ forall lr, 0 < lr < e -> exists n' v v', fit_one (classifier l lr damp nest g0) x t n' /\
    cce_of (classifier l lr damp nest g0) x t v /\ cce_of n' x t v' /\ v < v'.
Proof. exact @worse. Qed.

(** The hypotheses are met: one row, three inputs, two classes, zero parameters. *)
Definition flat0 : fc R := mkFC (tensor_of [3; 2]%Z (fun _ => 0)) (tensor_of [1; 2]%Z (fun _ => 0)) None None None.
Definition ones13 : tensor R := tensor_of [1; 3]%Z (fun _ => 1).
Definition hot : tensor R := tensor_of [1; 2]%Z (fn2 (fun _ j => if Z.eqb j 0 then 1 else 0)).
Ltac zeqb := change (0 =? 0)%Z with true; change (1 =? 0)%Z with false; cbv iota.
Ltac pos12 := split; [discriminate|apply Forall_cons; [lia|apply Forall_cons; [lia|apply Forall_nil]]].
Example C106_case : exists l1 Z p, fc_wf flat0 3 2 /\ good ones13 /\ tdims ones13 = [1; 3]%Z /\ distributions 1 2 hot /\
  fc_forward flat0 ones13 = (l1, Ok Z) /\ softmax_fwd Z = Ok p /\ unclamped p /\ exists idx, in_range [1; 2]%Z idx /\ el p idx <> el hot idx.
Proof.
  assert (W : fc_wf flat0 3 2).
  { split; [apply good_tensor_of; [pos12|vm_compute; discriminate]|]. split; [reflexivity|]. split; [apply good_tensor_of; [pos12|vm_compute; discriminate]|reflexivity]. }
  assert (GX : good ones13) by (apply good_tensor_of; [pos12|vm_compute; discriminate]).
  assert (HM : (1 * 2 <= INT_MAX)%Z) by (vm_compute; discriminate).
  destruct (logits_good 1 3 2 ones13 GX eq_refl HM flat0 W) as (GL & EL).
  assert (VP : forall idx, in_range [1; 2]%Z idx -> el (prob 1 2 (logits 1 3 2 ones13 flat0)) idx = 1 / 2).
  { intros idx HI. destruct (in_range_2 _ _ _ HI) as (i & j & -> & Hi & Hj). unfold prob. rewrite el_tensor_of by auto. cbn [hd tl]. unfold smR, rowsum. rewrite rsum1, rsum_two by lia.
    assert (E0 : forall q, (0 <= q < 2)%Z -> el (logits 1 3 2 ones13 flat0) [i; q] = 0).
    { intros q Hq. unfold logits. rewrite el_tensor_of by (apply in_range2; lia). unfold fn2. cbn [nth]. rewrite affine_R. unfold flat0. cbn [fc_w fc_b]. rewrite (el_tensor_of [1; 2]%Z) by (apply in_range2; lia).
      rewrite rsum_zero; [ring|]. intros r Hr. apply In_zrange in Hr. rewrite (el_tensor_of [3; 2]%Z) by (apply in_range2; lia). ring. }
    rewrite !E0, exp_0 by lia. lra. }
  exists (fed ones13 flat0), (logits 1 3 2 ones13 flat0), (prob 1 2 (logits 1 3 2 ones13 flat0)). split; [auto|]. split; [auto|]. split; [reflexivity|].
  split. { split; [apply good_tensor_of; [pos12|vm_compute; discriminate]|]. split; [reflexivity|]. intros i Hi. rewrite rsum_two. unfold hot. rewrite !el_tensor_of by (apply in_range2; lia). unfold fn2. cbn [nth]. zeqb. ring. }
  split; [rewrite (fc_forward_2 flat0 3 2 ones13 1) by auto; reflexivity|]. split; [apply prob_ok; auto|].
  split; [intros idx HI; rewrite VP by auto; lra|]. exists [0; 0]%Z. split; [apply in_range2; lia|]. rewrite VP by (apply in_range2; lia). unfold hot. rewrite el_tensor_of by (apply in_range2; lia). unfold fn2. cbn [nth]. zeqb. lra.
Qed.
Print Assumptions C106_partial.
Print Assumptions C106_signal.
Print Assumptions C106_slope.
Print Assumptions C106_refuted.
