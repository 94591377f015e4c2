(** * Specification: float32 networks whose numbers stay in range while they are trained (C125) *)
From Coq Require Import Reals SpecFloat.
From Verif Require Import Base Scalar Types Spec SpecNN SpecR SpecF32 M_Shape M_Tensor M_Adv M_Act M_Loss M_Layers M_Reg M_Opt M_Net M_Data SpecData SpecNet L_Layers L_Conv.
Local Open Scope R_scope.

(** Every element is a finite float of absolute value 2^n at most. *)
Definition sized (n : nat) (t : tensor f32) : Prop := Forall (f32_in (- 2 ^ n) (2 ^ n)) (tdata t).

(** [calm q ds x d l ds' x' d']: the parameters of the layer [l] are [sized q].  It takes inputs of dimensions [ds] that are [sized x] to outputs of
    dimensions [ds'] that are [sized x'], and gradients that are [sized d'] back to gradients that are [sized d], if d is at most 127.  The gradients of
    the parameters are [sized 112]. *)
Inductive calm (q : nat) : list Z -> nat -> nat -> layer f32 -> list Z -> nat -> nat -> Prop :=
  | calm_dense : forall n k o x d l c co cn, fc_wf l k o -> sized q (fc_w l) -> sized q (fc_b l) -> (n * o <= INT_MAX)%Z ->
      (k < 2 ^ Z.of_nat c)%Z -> (o <= 2 ^ Z.of_nat co)%Z -> (n <= 2 ^ Z.of_nat cn)%Z -> (c <= 24 /\ co <= 24 /\ cn <= 24)%nat ->
      (q + x + c <= 127)%nat -> (x + d + cn <= 112)%nat ->
      calm q [n; k] x (d + q + co) (LFC l) [n; o] (q + x + c) d
  | calm_vector : forall k o x d l c co, fc_wf l k o -> sized q (fc_w l) -> sized q (fc_b l) ->
      (k < 2 ^ Z.of_nat c)%Z -> (o <= 2 ^ Z.of_nat co)%Z -> (c <= 24 /\ co <= 24)%nat ->
      (q + x + c <= 127)%nat -> (x + d <= 112)%nat ->
      calm q [k] x (d + q + co) (LFC l) [o] (q + x + c) d
  | calm_relu : forall ds x d i, (d <= 127)%nat -> calm q ds x d (LAct (mkActL ReLU i)) ds x d
  | calm_leaky : forall ds x d al i, length ds <> 1%nat -> f32_in (-1) 1 al -> (d <= 127)%nat -> calm q ds x d (LAct (mkActL (LeakyReLU al) i)) ds x d
  | calm_sigmoid : forall ds x d i, (d <= 127)%nat -> calm q ds x d (LAct (mkActL Sigmoid i)) ds 0 d
  | calm_softmax : forall n r x d i c, r <> [] -> (prod r <= 2 ^ Z.of_nat c)%Z -> (c <= 24)%nat -> (d + c <= 127)%nat ->
      calm q (n :: r) x (d + c) (LAct (mkActL Softmax i)) (n :: r) 0 d
  | calm_flatten : forall n c r x d l, r <> [] -> (d <= 127)%nat -> calm q (n :: c :: r) x d (LFlat l) [n; prod (c :: r)] x d
  | calm_dropout : forall ds x d l, length ds <> 1%nat -> dr_train l = true -> f32_in 0 (/ 2) (dr_rate l) -> (x + 1 <= 127)%nat -> (d <= 127)%nat -> calm q ds x d (LDrop l) ds (x + 1) d
  | calm_conv : forall n h w x d l, conv_wf l -> sized q (cv_w l) -> sized q (cv_b l) -> (cv_kh l <= h)%Z -> (cv_kw l <= w)%Z ->
      (n * (cv_oc l * ((h - cv_kh l + 1) * (w - cv_kw l + 1))) <= INT_MAX)%Z ->
      (q + x + 26 <= 127)%nat -> (x + d + 25 <= 112)%nat ->
      calm q [n; cv_ic l; h; w] x (d + q + 25) (LConv l) [n; cv_oc l; h - cv_kh l + 1; w - cv_kw l + 1]%Z (q + x + 26) d
  | calm_pool : forall n c h w x d l m, po_pad l = 0%Z -> (0 < po_stride l)%Z -> (0 < po_size l)%Z -> (po_size l <= h)%Z -> (po_size l <= w)%Z ->
      (pool_extent (po_size l) (po_stride l) h * pool_extent (po_size l) (po_stride l) w <= 2 ^ Z.of_nat m)%Z -> (m <= 24)%nat -> (d + m <= 127)%nat ->
      calm q [n; c; h; w] x (d + m) (LPool l) [n; c; pool_extent (po_size l) (po_stride l) h; pool_extent (po_size l) (po_stride l) w] x d.
(** The layers one after the other. *)
Inductive calms (q : nat) : list Z -> nat -> nat -> list (layer f32) -> list Z -> nat -> nat -> Prop :=
  | calms_nil : forall ds x d, calms q ds x d [] ds x d
  | calms_cons : forall ds x d l ds1 x1 d1 r ds2 x2 d2, calm q ds x d l ds1 x1 d1 -> calms q ds1 x1 d1 r ds2 x2 d2 -> calms q ds x d (l :: r) ds2 x2 d2.

(** The loss takes predictions that are [sized x] to gradients that are [sized d]. *)
Definition calm_loss (l : loss) (x d : nat) : Prop := match l with MSE => (x + 2 <= d <= 127)%nat | CCE => True end.
Definition calm_target (l : loss) (x : nat) (t : tensor f32) : Prop := match l with MSE => sized x t | CCE => Forall (f32_in 0 1) (tdata t) end.

Section S.
Variable lm : libm.
Let SF : Scalar f32 := F32Scalar lm.
#[local] Existing Instance SF.
(** Adam with its default decay rates 0.9 and 0.999, no regularisation, and a learning rate of 2^(q-35) at most. *)
Definition calm_adam (q : nat) (o : adam f32) : Prop := exists lr eps decay batch,
  o = adam_new lr (s_lit 9 10) (s_lit 999 1000) eps zero zero decay batch /\
  (15 <= q <= 35)%nat /\ f32_in 0 (/ 2 ^ (35 - q)) lr /\ f32_in (/ 2 ^ 40) 1 eps /\ f32_in 0 1 decay /\ (1 <= batch <= INT_MAX)%Z.
(** The points of the data set: [x] from 0 to 100 and [y = 2x + 3 + noise] of absolute value 2^70 at most. *)
Definition points_within {D GD} {SD : Scalar D} {HD : Rng D GD} (to_d : f32 -> D) (to_f : D -> f32) : Prop :=
  forall gd : GD, let p := fst (line_point to_d to_f (rng_uniform (s_z 0) (s_z 100)) (rng_normal (to_d one)) gd) in f32_in 0 100 (fst p) /\ f32_in (- 2 ^ 70) (2 ^ 70) (snd p).
End S.
(** The parameters of the layer, if it has any, are [sized q]. *)
Definition sized_params (q : nat) (l : layer f32) : Prop := match layer_params l with Some (w, b) => sized q w /\ sized q b | None => True end.
(** A random engine that draws numbers, possibly infinite, from a normal distribution of finite deviation. *)
Definition draws_numbers {G} (HR : Rng f32 G) : Prop := forall sd g, f32_valid sd -> f32_finite sd -> let v := fst (rng_normal sd g) in f32_valid v /\ ~ f32_nan v.
(** The network with its batch normalisation layers left out. *)
Definition without_bn {G} (n : net f32 G) : net f32 G := mkNet (filter (fun l => match l with LBN _ => false | _ => true end) (n_layers n)) (n_loss n) (n_opt n) (n_rng n).
