(** * Specification vocabulary for networks over the reals *)
From Coq Require Import Reals.
From Coquelicot Require Import Coquelicot.
From Verif Require Import Base Scalar ScalarR Types Spec SpecNN SpecR M_Shape M_Tensor M_Adv M_Act M_Loss M_Layers M_Reg M_Opt M_Net SpecNet.
Local Open Scope R_scope.

(** ** Moving the parameters *)
(** [w] moved by [u] times [d]. *)
Definition moved (u : R) (w d : tensor R) : tensor R := tensor_of (tdims w) (fun idx => el w idx + u * el d idx).
(** For each layer a direction for its weights and biases, if it has parameters. *)
Definition direction := option (tensor R * tensor R).
Definition direction_for (l : layer R) (d : direction) : Prop :=
  match layer_params l, d with
  | Some (w, b), Some (dw, db) => good dw /\ tdims dw = tdims w /\ good db /\ tdims db = tdims b
  | None, None => True
  | _, _ => False
  end.
Definition layer_moved (u : R) (l : layer R) (d : direction) : layer R :=
  match layer_params l, d with
  | Some (w, b), Some (dw, db) => with_params l (moved u w dw) (moved u b db)
  | _, _ => l
  end.
Definition layers_moved (u : R) (ls : list (layer R)) (ds : list direction) : list (layer R) :=
  map (fun p => layer_moved u (fst p) (snd p)) (combine ls ds).
(** Inner product of the stored gradients of a layer with a direction; sum over the layers. *)
Definition layer_slope (l : layer R) (d : direction) : R :=
  match layer_grads l, d with Some (gw, gb), Some (dw, db) => dot gw dw + dot gb db | _, _ => 0 end.
Definition slope (ls : list (layer R)) (ds : list direction) : R := rsum (combine ls ds) (fun p => layer_slope (fst p) (snd p)).

(** [l2] holds gradients of the shapes of the parameters of [l]. *)
Definition has_grads (l l2 : layer R) : Prop :=
  match layer_params l with
  | Some (w, b) => exists gw gb, layer_grads l2 = Some (gw, gb) /\ good gw /\ tdims gw = tdims w /\ good gb /\ tdims gb = tdims b
  | None => True
  end.

(** ** Networks *)
(** The layer maps inputs of shape [ds] to outputs of shape [ds']: fully connected on (batch, features); activations;
    Flatten on rank above two; Conv2D with one output channel on one image. *)
Inductive fits : list Z -> layer R -> list Z -> Prop :=
  | fits_fc : forall n k o l, good (fc_w l) -> tdims (fc_w l) = [k; o] -> good (fc_b l) -> tdims (fc_b l) = [1; o]%Z -> (n * o <= INT_MAX)%Z ->
      fits [n; k] (LFC l) [n; o]
  | fits_act : forall ds l, al_act l <> Softmax -> fits ds (LAct l) ds
  | fits_softmax : forall b ds l, al_act l = Softmax -> ds <> [] -> fits (b :: ds) (LAct l) (b :: ds)
  | fits_flat : forall b c ds l, ds <> [] -> fits (b :: c :: ds) (LFlat l) [b; prod (c :: ds)]
  | fits_conv : forall h w l, good (cv_w l) -> tdims (cv_w l) = [1%Z; cv_ic l; cv_kh l; cv_kw l] -> good (cv_b l) -> tdims (cv_b l) = [1; 1]%Z ->
      cv_oc l = 1%Z -> (cv_kh l <= h)%Z -> (cv_kw l <= w)%Z -> fits [1%Z; cv_ic l; h; w] (LConv l) [1; 1; h - cv_kh l + 1; w - cv_kw l + 1]%Z.
Inductive chain : list Z -> list (layer R) -> list Z -> Prop :=
  | chain_nil : forall ds, chain ds [] ds
  | chain_cons : forall ds l ds' r ds'', fits ds l ds' -> chain ds' r ds'' -> chain ds (l :: r) ds''.

Section N.
Context {G : Type} {HR : Rng R G}.
(** No ReLU or LeakyReLU input is zero when the layers are run on [x]. *)
Definition layer_smooth (l : layer R) (x : tensor R) : Prop := match l with LAct l => act_smooth_at (al_act l) x | _ => True end.
Fixpoint smooth_run (ls : list (layer R)) (x : tensor R) (g : G) : Prop :=
  match ls with
  | [] => True
  | l :: r => layer_smooth l x /\ match layer_forward l x g with (_, g', Ok y) => smooth_run r y g' | _ => True end
  end.
(** The MSE loss of the prediction for [x] against [t] is [v]. *)
Definition mse_of (n : net R G) (x t : tensor R) (v : R) : Prop :=
  exists n' p, net_predict n x = (n', Ok p) /\ mse_compute p t = Ok (tensor_of [1%Z] (fun _ => v)).
(** Targets MSELoss accepts for predictions of shape [ds] (C37). *)
Definition target_for (ds : list Z) (t : tensor R) : Prop := good t /\ (tdims t = ds \/ exists n r, tdims t = [n] /\ ds = n :: r /\ prod r = 1%Z).
(** The network with other layers. *)
Definition with_layers (n : net R G) (ls : list (layer R)) : net R G := mkNet ls (n_loss n) (n_opt n) (n_rng n).
(** A tensor with the entry at [idx] increased by [u]. *)
Definition bumped (w : tensor R) (idx : list Z) (u : R) : tensor R := tensor_of (tdims w) (fun i => if idx_eqb i idx then el w i + u else el w i).
End N.

(** ** Plain gradient descent *)
(** A new SGD optimizer without momentum and weight decay. *)
Definition plain_sgd (lr : R) (o : optim R) : Prop := exists damp nest, o = OSGD (sgd_new lr 0 damp 0 nest).
(** A sample for a network from shape [ds] to shape [ds']. *)
Definition sample_for (ds ds' : list Z) (s : tensor R * tensor R) : Prop := good (fst s) /\ tdims (fst s) = ds /\ target_for ds' (snd s).
(** Some layer stores a gradient that is not zero. *)
Definition nonzero_gradient (ls : list (layer R)) : Prop :=
  exists l gw gb, In l ls /\ layer_grads l = Some (gw, gb) /\
    ((exists idx, in_range (tdims gw) idx /\ el gw idx <> 0) \/ exists idx, in_range (tdims gb) idx /\ el gb idx <> 0).
(** Sum of the squared differences of the entries. *)
Definition sqdist (a b : tensor R) : R := rsum (all_indices (tdims a)) (fun idx => (el a idx - el b idx) ^ 2).
(** A network of one fully connected layer [l] from [k] to [o] features, compiled with MSELoss and plain SGD, for batches of [N]. *)
Definition linear_net {G} (N k o : Z) (lr : R) (n : net R G) (l : fc R) : Prop :=
  n_layers n = [LFC l] /\ fits [N; k] (LFC l) [N; o] /\ n_loss n = Some MSE /\ exists op, n_opt n = Some op /\ plain_sgd lr op.
