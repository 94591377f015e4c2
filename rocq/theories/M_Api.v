(** * The objects a program can obtain through the interface

    [made x]: some sequence of calls produces the object [x].  A call counts when it returns or throws; after
    anything else the program has no further objects.  Objects that have been moved from are left out (see M_Heap). *)
From Verif Require Import Base Scalar Types M_Shape M_Tensor M_Adv M_Act M_Loss M_Layers M_Reg M_Opt M_Net M_Data M_Slice M_Access SpecNet.

Definition returns {A} (o : outcome A) : Prop := match o with Ok _ | Throw _ => True | _ => False end.

Section Api.
Context {T D G GD : Type} {S : Scalar T} {SD : Scalar D} {HR : Rng T G} {HD : Rng D GD}.
Variables (to_d : T -> D) (to_f : D -> T).

Inductive object := OTensor (t : tensor T) | OLayer (l : layer T) | OOptim (o : optim T) | ONet (n : net T G).

(** Every tensor held by a layer. *)
Definition opt_list {A} (o : option A) : list A := match o with Some a => [a] | None => [] end.
Definition layer_tensors (l : layer T) : list (tensor T) :=
  match l with
  | LFC l => [fc_w l; fc_b l] ++ opt_list (fc_in l) ++ opt_list (fc_gw l) ++ opt_list (fc_gb l)
  | LAct l => opt_list (al_in l)
  | LFlat _ => []
  | LConv l => [cv_w l; cv_b l] ++ opt_list (cv_in l) ++ opt_list (cv_gw l) ++ opt_list (cv_gb l)
  | LPool l => opt_list (po_in l)
  | LDrop l => opt_list (dr_mask l)
  | LBN l => [bn_gamma l; bn_beta l; bn_rmean l; bn_rvar l] ++ opt_list (bn_mean l) ++ opt_list (bn_var l) ++ opt_list (bn_norm l) ++
             opt_list (bn_ggamma l) ++ opt_list (bn_gbeta l)
  end.

Inductive made : object -> Prop :=
(** Tensor.hpp:17-25: constructors; [src], [vals] is the caller's memory. *)
| api_new : forall ds s, new_shape ds = Ok s -> made (OTensor (t_new s))
| api_fill : forall ds s v, new_shape ds = Ok s -> made (OTensor (t_fill s v))
| api_from_ptr : forall ds s src t, new_shape ds = Ok s -> t_from_ptr s src = Ok t -> made (OTensor t)
| api_from_list : forall ds s vals t, new_shape ds = Ok s -> t_from_list s vals = Ok t -> made (OTensor t)
| api_copy : forall t t', made (OTensor t) -> t_copy t = Ok t' -> made (OTensor t')
(** TensorFactory.hpp *)
| api_identity : forall n t, f_identity n = Ok t -> made (OTensor t)
| api_random : forall ds mn mx (g : G) t g', f_random ds mn mx g = Ok (t, g') -> made (OTensor t)
(** Tensor.hpp:62-65, SliceView.hpp:78-84: element writes *)
| api_set : forall t i v t', made (OTensor t) -> t_set t i v = Ok t' -> made (OTensor t')
| api_at_set : forall t idx v t', made (OTensor t) -> t_at_set t idx v = Ok t' -> made (OTensor t')
| api_view_set : forall t sl st v idx x t', made (OTensor t) -> sview_new t sl st = Ok v -> sview_set v idx x = Ok t' -> made (OTensor t')
(** Tensor.hpp:77, 82-84 *)
| api_slice : forall t d i t', made (OTensor t) -> t_slice t d i = Ok t' -> made (OTensor t')
| api_reshape : forall t ds, made (OTensor t) -> returns (snd (t_reshape_st t ds)) -> made (OTensor (fst (t_reshape_st t ds)))
(** Tensor.hpp:33-58, for the four operators; [alias]: the operand is the tensor itself *)
| api_binop : forall op a b t, made (OTensor a) -> made (OTensor b) -> t_binop op a b = Ok t -> made (OTensor t)
| api_binop_ip : forall op alias a b, made (OTensor a) -> made (OTensor b) -> returns (snd (t_binop_ip op alias a b)) ->
    made (OTensor (fst (t_binop_ip op alias a b)))
| api_map : forall f a t, made (OTensor a) -> t_map f a = Ok t -> made (OTensor t)
| api_map_ip : forall f a t, made (OTensor a) -> t_map_ip f a = Ok t -> made (OTensor t)
| api_div_s : forall a s t, made (OTensor a) -> t_div_s a s = Ok t -> made (OTensor t)
| api_div_s_ip : forall a s, made (OTensor a) -> returns (snd (t_div_s_ip_st a s)) -> made (OTensor (fst (t_div_s_ip_st a s)))
| api_s_sub : forall s a t, made (OTensor a) -> s_sub_t s a = Ok t -> made (OTensor t)
| api_s_div : forall s a t, made (OTensor a) -> s_div_t s a = Ok t -> made (OTensor t)
(** TensorOperations.hpp, AdvancedTensorOperations.hpp *)
| api_sum : forall a t, made (OTensor a) -> t_sum a = Ok t -> made (OTensor t)
| api_sum_axis : forall a ax t, made (OTensor a) -> t_sum_axis a ax = Ok t -> made (OTensor t)
| api_sum_axes : forall a axes t, made (OTensor a) -> t_sum_axes a axes = Ok t -> made (OTensor t)
| api_mean : forall a axes t, made (OTensor a) -> t_mean_axes a axes = Ok t -> made (OTensor t)
| api_variance : forall a m axes t, made (OTensor a) -> made (OTensor m) -> t_variance_axes a m axes = Ok t -> made (OTensor t)
| api_variance_all : forall a m t, made (OTensor a) -> made (OTensor m) -> t_variance_all a m = Ok t -> made (OTensor t)
| api_pair : forall f a b t, made (OTensor a) -> made (OTensor b) -> t_apply_pair f a b = Ok t -> made (OTensor t)
| api_reciprocal : forall e a t, made (OTensor a) -> t_reciprocal e a = Ok t -> made (OTensor t)
| api_transpose : forall a i j t, made (OTensor a) -> t_transpose a i j = Ok t -> made (OTensor t)
| api_matmul : forall a b t, made (OTensor a) -> made (OTensor b) -> t_matmul a b = Ok t -> made (OTensor t)
| api_matmul_slice : forall a b sa ta sb tb va vb t, made (OTensor a) -> made (OTensor b) -> sview_new a sa ta = Ok va -> sview_new b sb tb = Ok vb ->
    t_matmat_slice va vb = Ok t -> made (OTensor t)
(** Activation.hpp, Loss.hpp *)
| api_act_fwd : forall a x t, made (OTensor x) -> act_fwd a x = Ok t -> made (OTensor t)
| api_act_bwd : forall a x g t, made (OTensor x) -> made (OTensor g) -> act_bwd a x g = Ok t -> made (OTensor t)
| api_loss : forall l p y t, made (OTensor p) -> made (OTensor y) -> loss_compute l p y = Ok t -> made (OTensor t)
| api_loss_grad : forall l p y t, made (OTensor p) -> made (OTensor y) -> loss_gradient l p y = Ok t -> made (OTensor t)
(** MNistLoader.hpp, SampleGenerator.hpp *)
| api_images : forall b n file ts t, load_images b n file = Ok ts -> In t ts -> made (OTensor t)
| api_labels : forall b n file ts t, load_labels b n file = Ok ts -> In t ts -> made (OTensor t)
| api_linear : forall n noise (g : GD) xs ys t, gen_linear to_d to_f n noise g = Ok (xs, ys) -> In t (xs ++ ys) -> made (OTensor t)
| api_batched : forall n b noise (g : GD) xs ys t, gen_batched to_d to_f n b noise g = Ok (xs, ys) -> In t (xs ++ ys) -> made (OTensor t)
(** Layer.hpp *)
| api_layer : forall l, constructed (G := G) l -> made (OLayer l)
| api_fc_weights : forall l w, made (OLayer (LFC l)) -> made (OTensor w) -> made (OLayer (LFC (fc_set_weights l w)))
| api_fc_biases : forall l b, made (OLayer (LFC l)) -> made (OTensor b) -> returns (snd (fc_set_biases l b)) -> made (OLayer (LFC (fst (fc_set_biases l b))))
| api_fc_weight_gradient : forall l w, made (OLayer (LFC l)) -> made (OTensor w) -> made (OLayer (LFC (fc_set_gw l w)))
| api_fc_bias_gradient : forall l b, made (OLayer (LFC l)) -> made (OTensor b) -> made (OLayer (LFC (fc_set_gb l b)))
| api_conv_weights : forall l w, made (OLayer (LConv l)) -> made (OTensor w) -> made (OLayer (LConv (conv_set_weights l w)))
| api_conv_biases : forall l b, made (OLayer (LConv l)) -> made (OTensor b) -> made (OLayer (LConv (conv_set_biases l b)))
| api_forward : forall l x (g : G) l' g' o, made (OLayer l) -> made (OTensor x) -> layer_forward l x g = (l', g', o) -> returns o -> made (OLayer l')
| api_forward_out : forall l x (g : G) l' g' y, made (OLayer l) -> made (OTensor x) -> layer_forward l x g = (l', g', Ok y) -> made (OTensor y)
| api_backward : forall l d l' o, made (OLayer l) -> made (OTensor d) -> layer_backward l d = (l', o) -> returns o -> made (OLayer l')
| api_backward_out : forall l d l' y, made (OLayer l) -> made (OTensor d) -> layer_backward l d = (l', Ok y) -> made (OTensor y)
| api_update : forall i l o l' o' r, made (OLayer l) -> made (OOptim o) -> layer_update i l o = (l', o', r) -> returns r -> made (OLayer l')
| api_update_opt : forall i l o l' o' r, made (OLayer l) -> made (OOptim o) -> layer_update i l o = (l', o', r) -> returns r -> made (OOptim o')
| api_mode : forall m l, made (OLayer l) -> made (OLayer (layer_set_mode m l))
| api_layer_tensor : forall l t, made (OLayer l) -> In t (layer_tensors l) -> made (OTensor t)
(** Optimizer.hpp *)
| api_sgd : forall lr mom damp wd nest, made (OOptim (OSGD (sgd_new lr mom damp wd nest)))
| api_rms : forall lr alpha eps mom cent wd, made (OOptim (ORMS (rms_new lr alpha eps mom cent wd)))
| api_adam : forall lr b1 b2 eps l1 l2 decay batch, made (OOptim (OAdam (adam_new lr b1 b2 eps l1 l2 decay batch)))
| api_optimize : forall o st ks gs lro o' st' r, made (OOptim o) -> (forall k, made (OTensor (st k))) -> (forall g, In g gs -> made (OTensor g)) ->
    optim_optimize o st ks gs lro = (o', st', r) -> returns r -> made (OOptim o')
| api_optimize_w : forall o st ks gs lro o' st' r k, made (OOptim o) -> (forall k, made (OTensor (st k))) -> (forall g, In g gs -> made (OTensor g)) ->
    optim_optimize o st ks gs lro = (o', st', r) -> returns r -> made (OTensor (st' k))
(** SmartDNN.hpp *)
| api_net : forall g, made (ONet (net_new g))
| api_add : forall n l, made (ONet n) -> made (OLayer l) -> made (ONet (net_add n l))
| api_compile : forall n l o, made (ONet n) -> made (OOptim o) -> made (ONet (net_compile n l o))
| api_predict : forall n x n' o, made (ONet n) -> made (OTensor x) -> net_predict n x = (n', o) -> returns o -> made (ONet n')
| api_predict_out : forall n x n' y, made (ONet n) -> made (OTensor x) -> net_predict n x = (n', Ok y) -> made (OTensor y)
| api_predict_all : forall n xs n' o, made (ONet n) -> (forall x, In x xs -> made (OTensor x)) -> net_predict_all n xs = (n', o) -> returns o -> made (ONet n')
| api_predict_all_out : forall n xs n' ys y, made (ONet n) -> (forall x, In x xs -> made (OTensor x)) -> net_predict_all n xs = (n', Ok ys) -> In y ys -> made (OTensor y)
| api_train : forall n xs ts e n' r, made (ONet n) -> (forall x, In x xs -> made (OTensor x)) -> (forall t, In t ts -> made (OTensor t)) ->
    net_train n xs ts e = (n', r) -> returns r -> made (ONet n')
| api_net_mode : forall n m, made (ONet n) -> made (ONet (net_set_mode n m))
| api_net_backward : forall n d n' r, made (ONet n) -> made (OTensor d) -> net_backward n d = (n', r) -> returns r -> made (ONet n')
| api_net_update : forall n n' r, made (ONet n) -> net_update n = (n', r) -> returns r -> made (ONet n')
| api_get : forall n i l, made (ONet n) -> net_get n i = Ok l -> made (OLayer l)
(** getLayer returns a pointer to the layer itself: calls through it change the network's layer.  [l] is what they make of it. *)
| api_put : forall n i l ls, made (ONet n) -> made (OLayer l) -> wr (n_layers n) i l = Ok ls -> made (ONet (net_with n ls)).
End Api.
Arguments object : clear implicits.
