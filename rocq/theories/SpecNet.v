(** * Specification vocabulary for networks *)
From Verif Require Import Base Scalar Types Spec SpecNN M_Shape M_Tensor M_Adv M_Act M_Loss M_Layers M_Reg M_Opt M_Net.

Section S.
Context {T : Type} {S : Scalar T} {G : Type} {HR : Rng T G}.

(** A layer without the input it remembers for backward: everything else, parameters included. *)
Definition without_input (l : layer T) : layer T :=
  match l with
  | LFC l => LFC (mkFC (fc_w l) (fc_b l) None (fc_gw l) (fc_gb l))
  | LAct l => LAct (mkActL (al_act l) None)
  | LFlat l => LFlat (mkFlatten None)
  | LConv l => LConv (mkConv (cv_w l) (cv_b l) None (cv_gw l) (cv_gb l) (cv_ic l) (cv_oc l) (cv_kh l) (cv_kw l) (cv_stride l) (cv_pad l) (cv_dil l))
  | LPool l => LPool (mkPool (po_size l) (po_stride l) (po_pad l) None)
  | l => l
  end.
(** The mode of a layer, if it has one. *)
Definition layer_mode (l : layer T) : option bool := match l with LDrop l => Some (dr_train l) | LBN l => Some (bn_train l) | _ => None end.
Definition in_mode (m : bool) (l : layer T) : Prop := layer_mode l = None \/ layer_mode l = Some m.
(** The parameters of a layer and their gradients after backward. *)
Definition layer_params (l : layer T) : option (tensor T * tensor T) :=
  match l with LFC l => Some (fc_w l, fc_b l) | LConv l => Some (cv_w l, cv_b l) | LBN l => Some (bn_gamma l, bn_beta l) | _ => None end.
Definition layer_grads (l : layer T) : option (tensor T * tensor T) :=
  match l with
  | LFC l => match fc_gw l, fc_gb l with Some w, Some b => Some (w, b) | _, _ => None end
  | LConv l => match cv_gw l, cv_gb l with Some w, Some b => Some (w, b) | _, _ => None end
  | LBN l => match bn_ggamma l, bn_gbeta l with Some w, Some b => Some (w, b) | _, _ => None end
  | _ => None
  end.
(** The layer with other parameters. *)
Definition with_params (l : layer T) (w b : tensor T) : layer T :=
  match l with
  | LFC l => LFC (mkFC w b (fc_in l) (fc_gw l) (fc_gb l))
  | LConv l => LConv (mkConv w b (cv_in l) (cv_gw l) (cv_gb l) (cv_ic l) (cv_oc l) (cv_kh l) (cv_kw l) (cv_stride l) (cv_pad l) (cv_dil l))
  | LBN l => LBN (mkBN (bn_n l) (bn_eps l) (bn_mom l) w b (bn_rmean l) (bn_rvar l) (bn_mean l) (bn_var l) (bn_norm l) (bn_ggamma l) (bn_gbeta l) (bn_train l))
  | l => l
  end.

(** Two networks that differ at most in the inputs their layers remember; all layers of a network in a mode. *)
Definition same_but_inputs (n n' : net T G) : Prop :=
  map without_input (n_layers n') = map without_input (n_layers n) /\ n_loss n' = n_loss n /\ n_opt n' = n_opt n /\ n_rng n' = n_rng n.
Definition net_in_mode (m : bool) (n : net T G) : Prop := Forall (in_mode m) (n_layers n).

(** Training on one sample: predict, gradient of the loss, backward, update. *)
Definition fit_one (n : net T G) (x t : tensor T) (n' : net T G) : Prop :=
  exists n1 n2 p c d l, net_predict n x = (n1, Ok p) /\ n_loss n = Some l /\ loss_compute l p t = Ok c /\ loss_gradient l p t = Ok d /\
    net_backward n1 d = (n2, Ok tt) /\ net_update n2 = (n', Ok tt).
(** On a list of samples, in order. *)
Inductive fit : net T G -> list (tensor T * tensor T) -> net T G -> Prop :=
  | fit_nil : forall n, fit n [] n
  | fit_cons : forall n x t n1 r n2, fit_one n x t n1 -> fit n1 r n2 -> fit n ((x, t) :: r) n2.
End S.

(** ** Layers as constructed, and inputs for which shapes are preserved (C42, C44) *)
Section Cases.
Context {T : Type} {S : Scalar T} {G : Type} {HR : Rng T G}.

(** The layers the constructors return. *)
Inductive constructed : layer T -> Prop :=
  | made_fc : forall i o (g g' : G) l, fc_new i o g = Ok (l, g') -> constructed (LFC l)
  | made_act : forall a, constructed (LAct (act_new a))
  | made_flat : constructed (LFlat flatten_new)
  | made_conv : forall ic oc kh kw s p d (g g' : G) l, conv_new ic oc kh kw s p d g = Ok (l, g') -> constructed (LConv l)
  | made_pool : forall k s p, constructed (LPool (pool_new k s p))
  | made_drop : forall r, constructed (LDrop (dropout_new r))
  | made_bn : forall f eps mom l, bn_new f eps mom = Ok l -> constructed (LBN l).

(** Whether the layer kind checks that it has seen an input. *)
Definition checks_forward (l : layer T) : bool := match l with LFC _ | LConv _ | LPool _ | LBN _ => true | _ => false end.

(** Inputs a layer handles: (batch, features) for fully connected, rank above one for Softmax, rank above
    two for Flatten, images at least as large as the kernel or window (pooling without padding), training
    mode for Dropout; nothing for batch normalisation. *)
Definition handles (l : layer T) (x : tensor T) : Prop :=
  good x /\
  match l with
  | LFC l => exists k o n, good (fc_w l) /\ tdims (fc_w l) = [k; o] /\ good (fc_b l) /\ tdims (fc_b l) = [1; o] /\ tdims x = [n; k] /\ n * o <= INT_MAX
  | LAct l => al_act l = Softmax -> (2 <= length (tdims x))%nat
  | LFlat _ => (2 < length (tdims x))%nat
  | LConv l => good (cv_w l) /\ tdims (cv_w l) = [cv_oc l; cv_ic l; cv_kh l; cv_kw l] /\ good (cv_b l) /\ tdims (cv_b l) = [cv_oc l; 1] /\
      exists n h w, tdims x = [n; cv_ic l; h; w] /\ cv_kh l <= h /\ cv_kw l <= w /\ n * (cv_oc l * ((h - cv_kh l + 1) * (w - cv_kw l + 1))) <= INT_MAX
  | LPool l => po_pad l = 0 /\ 0 < po_stride l /\ 0 < po_size l /\ exists n c h w, tdims x = [n; c; h; w] /\ po_size l <= h /\ po_size l <= w
  | LDrop l => dr_train l = true
  | LBN _ => False
  end.
(** forward succeeds, and backward maps every tensor shaped like the output to one shaped like the input. *)
Definition shape_preserving (l : layer T) (x : tensor T) : Prop :=
  forall g : G, exists l1 g' y, layer_forward l x g = (l1, g', Ok y) /\ good y /\
    forall d : tensor T, good d -> tdims d = tdims y -> exists l2 gx, layer_backward l1 d = (l2, Ok gx) /\ good gx /\ tdims gx = tdims x.
End Cases.

(** ** Networks on which training is defined *)
Section Train.
Context {T : Type} {S : Scalar T} {G : Type} {HR : Rng T G}.

(** The layer takes inputs of shape [ds] to outputs of shape [ds'] in both passes. *)
Inductive accepts : list Z -> layer T -> list Z -> Prop :=
  | acc_fc : forall n k o l, good (fc_w l) -> tdims (fc_w l) = [k; o] -> good (fc_b l) -> tdims (fc_b l) = [1; o] -> n * o <= INT_MAX ->
      accepts [n; k] (LFC l) [n; o]
  | acc_act : forall ds l, (al_act l = Softmax -> (2 <= length ds)%nat) -> accepts ds (LAct l) ds
  | acc_flat : forall b c ds l, ds <> [] -> accepts (b :: c :: ds) (LFlat l) [b; prod (c :: ds)]
  | acc_conv : forall n h w l, good (cv_w l) -> tdims (cv_w l) = [cv_oc l; cv_ic l; cv_kh l; cv_kw l] -> good (cv_b l) -> tdims (cv_b l) = [cv_oc l; 1] ->
      cv_kh l <= h -> cv_kw l <= w -> n * (cv_oc l * ((h - cv_kh l + 1) * (w - cv_kw l + 1))) <= INT_MAX ->
      accepts [n; cv_ic l; h; w] (LConv l) [n; cv_oc l; h - cv_kh l + 1; w - cv_kw l + 1]
  | acc_pool : forall n c h w l, po_pad l = 0 -> 0 < po_stride l -> 0 < po_size l -> po_size l <= h -> po_size l <= w ->
      accepts [n; c; h; w] (LPool l) [n; c; pool_extent (po_size l) (po_stride l) h; pool_extent (po_size l) (po_stride l) w]
  | acc_drop : forall ds l, dr_train l = true -> accepts ds (LDrop l) ds.
(** Layers one after the other. *)
Inductive stack (acc : list Z -> layer T -> list Z -> Prop) : list Z -> list (layer T) -> list Z -> Prop :=
  | acc_nil : forall ds, stack acc ds [] ds
  | acc_cons : forall ds l ds' r ds'', acc ds l ds' -> stack acc ds' r ds'' -> stack acc ds (l :: r) ds''.
Definition accepts_all : list Z -> list (layer T) -> list Z -> Prop := stack accepts.
(** The layer takes one sample of shape [ds], without a batch dimension, to one of shape [ds']. *)
Inductive accepts1 : list Z -> layer T -> list Z -> Prop :=
  | acc1_fc : forall k o l, good (fc_w l) -> tdims (fc_w l) = [k; o] -> good (fc_b l) -> tdims (fc_b l) = [1; o] -> accepts1 [k] (LFC l) [o]
  | acc1_act : forall k l, match al_act l with ReLU | Sigmoid | Tanh => True | _ => False end -> accepts1 [k] (LAct l) [k].
Definition accepts1_all : list Z -> list (layer T) -> list Z -> Prop := stack accepts1.
(** Targets the loss accepts for predictions of shape [ds]. *)
Definition target_fits (l : loss) (ds : list Z) (t : tensor T) : Prop :=
  good t /\
  match l with
  | MSE => tdims t = ds \/ exists n r, tdims t = [n] /\ ds = n :: r /\ prod r = 1
  | CCE => exists b c, ds = [b; c] /\ tdims t = [b; c]
  end.
(** An optimizer as constructed. *)
Inductive new_optim : optim T -> Prop :=
  | new_sgd : forall lr mom damp wd nest, new_optim (OSGD (sgd_new lr mom damp wd nest))
  | new_rms : forall lr al eps mom cent wd, new_optim (ORMS (rms_new lr al eps mom cent wd))
  | new_adam : forall lr b1 b2 eps l1 l2 decay batch, new_optim (OAdam (adam_new lr b1 b2 eps l1 l2 decay batch)).
(** Adam counts its calls in an int: [k] more calls do not overflow it. *)
Definition room (o : optim T) (k : Z) : Prop := match o with OAdam o => 0 <= ad_it o /\ ad_it o + k <= INT_MAX | _ => True end.
(** Positive counts are not zero when converted. *)
Definition counts_nonzero : Prop := forall n, 0 < n <= INT_MAX -> s_eq (s_z n) zero = false.
(** Shapes of the parameters. *)
Definition params_dims (l : layer T) : option (list Z * list Z) := match layer_params l with Some (w, b) => Some (tdims w, tdims b) | None => None end.
(** The learning rate of plain SGD (no momentum, no weight decay) as used by a layer update. *)
Definition plain_rate (o : optim T) : option T :=
  match o with OSGD s => if s_eq (sg_mom s) zero && s_eq (sg_wd s) zero then Some (if s_lt zero (s_z (-1)) then s_z (-1) else sg_lr s) else None | _ => None end.
(** The parameters of [l'] are those of [l] minus [r] times the gradients stored in [l]. *)
Definition descended (r : T) (w g w' : tensor T) : Prop := tdims w' = tdims w /\ forall idx, in_range (tdims w) idx -> el w' idx = s_sub (el w idx) (s_mul r (el g idx)).
Definition layer_descended (r : T) (l l' : layer T) : Prop :=
  match layer_params l, layer_grads l, layer_params l' with
  | Some (w, b), Some (gw, gb), Some (w', b') => descended r w gw w' /\ descended r b gb b'
  | None, _, None => True
  | _, _, _ => False
  end.
End Train.
