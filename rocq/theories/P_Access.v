(** * C100-C102: element access by position, parameter accessors, joined shapes; accessor parts of C47, C53, C61 and C91 *)
From Coq Require Import Reals Lra Ascii String.
From Verif Require Import Base Scalar ScalarR Types TextBase Spec M_Shape M_Tensor M_Adv M_Act M_Layers M_Reg M_Loss M_Opt M_Net M_Text M_Access SpecNN SpecLayers SpecNet SpecText SpecAccess
  L_Index L_Shape L_Tensor L_Tensor2 L_Glue L_Nest L_Matmul L_Layers L_Conv L_Text L_Pool L_Drop L_Train L_Access P_Tensor P_Layers P_Reg.
Local Open Scope Z_scope.

(** ** C100.  [t_get], [t_set]: operator[]; [t_at], [t_at_set]: access by multi-index.  Position [ravel ds idx] is the row-major
    position of [idx]. *)
Theorem C100_read : forall {T} (t : tensor T) idx, wf t -> in_range (tdims t) idx ->
  0 <= ravel (tdims t) idx < prod (tdims t) /\ t_get t (ravel (tdims t) idx) = t_at t idx.
Proof. exact @get_at. Qed.
Theorem C100_write : forall {T} (t : tensor T) idx v, wf t -> in_range (tdims t) idx -> t_set t (ravel (tdims t) idx) v = t_at_set t idx v.
Proof. exact @set_at. Qed.
(** Every position holds exactly one element. *)
Theorem C100_every_position : forall {T} {S : Scalar T} (t : tensor T) i, wf t -> 0 <= i < prod (tdims t) ->
  exists idx, in_range (tdims t) idx /\ ravel (tdims t) idx = i /\ t_get t i = Ok (el t idx).
Proof. exact @get_each. Qed.
(** Nothing is checked: outside the tensor both are undefined. *)
Theorem C100_outside_undefined : forall {T} (t : tensor T) i v, wf t -> ~ 0 <= i < prod (tdims t) -> t_get t i = UB /\ t_set t i v = UB.
Proof. exact @get_outside. Qed.
Lemma wf_ramp_23 : wf (ramp [2; 3]).
Proof. split; [split; [discriminate|repeat constructor]|]. split; [reflexivity|]. split; reflexivity. Qed.
Example C100_case : wf (ramp [2; 3]) /\ in_range [2; 3] [1; 0] /\ ravel [2; 3] [1; 0] = 3 /\ t_get (ramp [2; 3]) 3 = Ok 3 /\
  t_set (ramp [2; 3]) 3 9 = Ok (mkTensor (shape_of [2; 3]) [0; 1; 2; 9; 4; 5]) /\ t_get (ramp [2; 3]) 6 = UB.
Proof. split; [exact wf_ramp_23|]. split; [apply in_range2; lia|]. repeat split; vm_compute; reflexivity. Qed.
Print Assumptions C100_read.
Print Assumptions C100_write.
Print Assumptions C100_every_position.
Print Assumptions C100_outside_undefined.

(** ** C101.  The next forward uses what was set; nothing else of the layer changes. *)
Theorem C101_dense_partial : forall {T} {S : Scalar T} (l : fc T) k o (w b x : tensor T) n, good w -> tdims w = [k; o] -> good b -> tdims b = [1; o] ->
  good x -> tdims x = [n; k] -> n * o <= INT_MAX ->
  exists l1, fc_set_biases (fc_set_weights l w) b = (l1, Ok tt) /\ fc_get_weights l1 = w /\ fc_get_biases l1 = b /\
    fc_in l1 = fc_in l /\ fc_gw l1 = fc_gw l /\ fc_gb l1 = fc_gb l /\
    snd (fc_forward l1 x) = Ok (tensor_of [n; o] (fn2 (fun i j => s_add (sum_to k (fun p => s_mul (el x [i; p]) (el w [p; j]))) (el b [0; j])))).
Proof. exact @set_forward. Qed.
Theorem C101_biases_checked : forall {T} (l : fc T) (b : tensor T), (forall o, tdims b <> [1; o]) -> fc_set_biases l b = (l, Throw InvalidArgument).
Proof. exact @set_biases_bad. Qed.
Theorem C101_convolution : forall {T} {S : Scalar T} (l : conv T) (w b x : tensor T) n h wd, good w -> tdims w = [cv_oc l; cv_ic l; cv_kh l; cv_kw l] -> good b -> tdims b = [cv_oc l; 1] ->
  good x -> tdims x = [n; cv_ic l; h; wd] -> cv_kh l <= h -> cv_kw l <= wd -> n * (cv_oc l * ((h - cv_kh l + 1) * (wd - cv_kw l + 1))) <= INT_MAX ->
  let l1 := conv_set_biases (conv_set_weights l w) b in
  conv_get_weights l1 = w /\ conv_get_biases l1 = b /\ cv_in l1 = cv_in l /\ cv_gw l1 = cv_gw l /\ cv_gb l1 = cv_gb l /\
  snd (conv_forward l1 x) = Ok (tensor_of [n; cv_oc l; h - cv_kh l + 1; wd - cv_kw l + 1] (fn4 (fun i o y z =>
    s_add (fsum (map (fn2 (fun p q => s_mul (el x [i; 0; y + p; z + q]) (el w [o; 0; p; q]))) (all_indices [cv_kh l; cv_kw l]))) (el b [o; 0])))).
Proof. exact @set_conv_forward. Qed.
(** Weights of another layer's shape are accepted, and a forward that worked fails afterwards; so are biases of another width. *)
Lemma set_unchecked : exists (l l2 : fc Z) (w b x : tensor Z), fc_wf l 3 2 /\ good x /\ tdims x = [2; 3] /\ good w /\ tdims w = [5; 2] /\ good b /\ tdims b = [1; 7] /\
  (exists y, snd (fc_forward l x) = Ok y) /\ snd (fc_forward (fc_set_weights l w) x) = Throw InvalidArgument /\
  fc_set_biases l b = (l2, Ok tt) /\ snd (fc_forward l2 x) = Throw InvalidArgument.
Proof.
  exists (mkFC (ramp [3; 2]) (ramp [1; 2]) None None None). do 1 eexists. exists (ramp [5; 2]), (ramp [1; 7]), (ramp [2; 3]).
  split; [split; [ramps|split; [reflexivity|split; [ramps|reflexivity]]]|]. split; [ramps|]. split; [reflexivity|]. split; [ramps|]. split; [reflexivity|]. split; [ramps|]. split; [reflexivity|].
  split; [eexists; vm_compute; reflexivity|]. split; [vm_compute; reflexivity|]. split; [reflexivity|]. vm_compute. reflexivity.
Qed.
Theorem C101_shapes_refuted : exists (l l2 : fc Z) (w b x : tensor Z), fc_wf l 3 2 /\ good x /\ tdims x = [2; 3] /\ good w /\ tdims w = [5; 2] /\ good b /\ tdims b = [1; 7] /\
  (exists y, snd (fc_forward l x) = Ok y) /\ snd (fc_forward (fc_set_weights l w) x) = Throw InvalidArgument /\
  fc_set_biases l b = (l2, Ok tt) /\ snd (fc_forward l2 x) = Throw InvalidArgument.
Proof. exact set_unchecked. Qed.
(** Reading a gradient before the first backward is undefined; after a backward it is the gradient of that batch, and the
    parameters are those of before. *)
Theorem C101_new_gradients_undefined : forall {T} {S : Scalar T} {G} {HR : Rng T G} k o (g g' : G) l, fc_new k o g = Ok (l, g') -> fc_get_gw l = UB /\ fc_get_gb l = UB.
Proof. exact @new_grads. Qed.
Theorem C101_new_convolution_gradients_undefined : forall {T} {S : Scalar T} {G} {HR : Rng T G} ic oc kh kw s p d (g g' : G) l, conv_new ic oc kh kw s p d g = Ok (l, g') -> conv_get_gw l = UB /\ conv_get_gb l = UB.
Proof. exact @new_conv_grads. Qed.
Theorem C101_gradients : forall {T} {S : Scalar T} (l : fc T) k o n (x g : tensor T), fc_wf l k o -> good x -> tdims x = [n; k] -> n * o <= INT_MAX -> good g -> tdims g = [n; o] ->
  exists l1 gx, fc_backward (fst (fc_forward l x)) g = (l1, Ok gx) /\
    fc_get_gw l1 = Ok (tensor_of [k; o] (fn2 (fun p j => sum_to n (fun i => s_mul (el x [i; p]) (el g [i; j]))))) /\
    fc_get_gb l1 = Ok (tensor_of [1; o] (fn2 (fun _ j => sum_to n (fun i => el g [i; j])))) /\
    fc_get_weights l1 = fc_get_weights l /\ fc_get_biases l1 = fc_get_biases l.
Proof. exact @backward_grads. Qed.
(** For a convolution, whose backward uses the first sample, the first input channel and the first output channel only (C46). *)
Theorem C101_convolution_gradients : forall {T} {S : Scalar T} (l : conv T) (x g : tensor T) n h w, conv_wf l -> good x -> tdims x = [n; cv_ic l; h; w] -> cv_kh l <= h -> cv_kw l <= w ->
  n * (cv_oc l * ((h - cv_kh l + 1) * (w - cv_kw l + 1))) <= INT_MAX -> good g -> tdims g = [n; cv_oc l; h - cv_kh l + 1; w - cv_kw l + 1] ->
  let spots := all_indices [h - cv_kh l + 1; w - cv_kw l + 1] in
  exists l1 gx, conv_backward (fst (conv_forward l x)) g = (l1, Ok gx) /\
    conv_get_gw l1 = Ok (tensor_of [cv_oc l; cv_ic l; cv_kh l; cv_kw l] (fn4 (fun o c p q =>
      if (o =? 0) && (c =? 0) then fsum (map (fn2 (fun i j => s_mul (el x [0; 0; i + p; j + q]) (el g [0; 0; i; j]))) spots) else zero))) /\
    conv_get_gb l1 = Ok (tensor_of [cv_oc l; 1] (fn2 (fun o _ => if o =? 0 then fsum (map (fn2 (fun i j => el g [0; 0; i; j])) spots) else zero))) /\
    conv_get_weights l1 = conv_get_weights l /\ conv_get_biases l1 = conv_get_biases l.
Proof. exact @conv_backward_grads. Qed.
(** Gradients that were set are what the next update applies: plain SGD moves every parameter by the rate times them. *)
Theorem C101_set_gradients : forall {T} {S : Scalar T} i (l : fc T) k o (gw gb : tensor T) (opt : optim T) r, fc_wf l k o -> good gw -> tdims gw = [k; o] -> good gb -> tdims gb = [1; o] ->
  new_optim opt -> plain_rate opt = Some r ->
  let l1 := fc_set_gb (fc_set_gw l gw) gb in
  fc_get_gw l1 = Ok gw /\ fc_get_gb l1 = Ok gb /\ fc_get_weights l1 = fc_get_weights l /\ fc_get_biases l1 = fc_get_biases l /\
  exists l2 opt', layer_update i (LFC l1) opt = (LFC l2, opt', Ok tt) /\ descended r (fc_get_weights l) gw (fc_get_weights l2) /\ descended r (fc_get_biases l) gb (fc_get_biases l2).
Proof. exact @set_grads_update. Qed.
Example C101_case : fc_wf (mkFC (ramp [3; 2]) (ramp [1; 2]) None None None) 3 2 /\ good (ramp [2; 3]) /\ good (ramp [2; 2]) /\
  plain_rate (OSGD (sgd_new 1 0 0 0 false) : optim Z) = Some 1 /\ new_optim (OSGD (sgd_new 1 0 0 0 false) : optim Z) /\
  snd (fc_forward (fst (fc_set_biases (fc_set_weights (mkFC (ramp [1; 1]) (ramp [1; 1]) None None None) (ramp [3; 2])) (ramp [1; 2]))) (ramp [2; 3])) = Ok (mkTensor (shape_of [2; 2]) [10; 14; 28; 41]).
Proof. split; [split; [ramps|split; [reflexivity|split; [ramps|reflexivity]]]|]. split; [ramps|]. split; [ramps|]. split; [reflexivity|]. split; [constructor|]. vm_compute. reflexivity. Qed.
Print Assumptions C101_dense_partial.
Print Assumptions C101_biases_checked.
Print Assumptions C101_convolution.
Print Assumptions C101_shapes_refuted.
Print Assumptions C101_new_gradients_undefined.
Print Assumptions C101_new_convolution_gradients_undefined.
Print Assumptions C101_gradients.
Print Assumptions C101_convolution_gradients.
Print Assumptions C101_set_gradients.

(** ** C102.  Joining two shapes appends their dimensions; the element of the joint index has the position of the first part
    times the size of the second shape plus the position of the second part. *)
Theorem C102_concat : forall a b, pos_dims a -> pos_dims b -> prod a * prod b < two64 ->
  shape_concat (shape_of a) (shape_of b) = Ok (shape_of (a ++ b)) /\ ssize (shape_of (a ++ b)) = ssize (shape_of a) * ssize (shape_of b).
Proof. exact concat_ok. Qed.
Theorem C102_positions : forall a b i j, in_range a i -> in_range b j -> in_range (a ++ b) (i ++ j) /\ ravel (a ++ b) (i ++ j) = ravel a i * prod b + ravel b j.
Proof. exact concat_ravel. Qed.
Example C102_case : shape_concat (shape_of [2; 3]) (shape_of [4]) = Ok (shape_of [2; 3; 4]) /\ ravel [2; 3; 4] [1; 2; 3] = 23.
Proof. split; vm_compute; reflexivity. Qed.
Print Assumptions C102_concat.
Print Assumptions C102_positions.

(** ** C47.  Pooling built from a size alone: the windows tile the image. *)
Theorem C47_size_only : forall {T} {S : Scalar T} s (x : tensor T) n c h w, good x -> tdims x = [n; c; h; w] -> comparable x -> 0 < s -> s <= h -> s <= w ->
  exists y, snd (pool_forward (pool_new1 s) x) = Ok y /\ good y /\ tdims y = [n; c; h / s; w / s] /\
    forall o, in_range (tdims y) o -> exists p, first_max (el x) (window s s o) p /\ el y o = el x p.
Proof. exact @pool1. Qed.
Theorem C47_tiles : forall s n c h w b ch y z, 0 < s -> 0 <= b < n -> 0 <= ch < c -> 0 <= y < h / s * s -> 0 <= z < w / s * s ->
  exists o, in_range [n; c; h / s; w / s] o /\ In [b; ch; y; z] (window s s o) /\
    forall o', in_range [n; c; h / s; w / s] o' -> In [b; ch; y; z] (window s s o') -> o' = o.
Proof. exact pool1_tiles. Qed.
(** With a stride of its own. *)
Lemma pool_fresh : forall {T} {S : Scalar T} k s (x : tensor T) n c h w, good x -> tdims x = [n; c; h; w] -> comparable x -> 0 < s -> 0 < k -> k <= h -> k <= w ->
  exists y, snd (pool_forward (pool_new k s 0) x) = Ok y /\ good y /\ tdims y = [n; c; pool_extent k s h; pool_extent k s w] /\
    forall o, in_range (tdims y) o -> exists p, first_max (el x) (window k s o) p /\ el y o = el x p.
Proof.
  intros T S k s x n c h w Gx Ex HC H1 H2 H3 H4. destruct (pool_forward_max (pool_new k s 0) x n c h w Gx Ex HC eq_refl H1 H2 H3 H4) as (y & E & Gy & Ey & HV).
  exists y. rewrite E. split; [reflexivity|]. split; [exact Gy|]. split; [exact Ey|]. intros o Ho. apply (HV o Ho).
Qed.
Theorem C47_new : forall {T} {S : Scalar T} k s (x : tensor T) n c h w, good x -> tdims x = [n; c; h; w] -> comparable x -> 0 < s -> 0 < k -> k <= h -> k <= w ->
  exists y, snd (pool_forward (pool_new k s 0) x) = Ok y /\ good y /\ tdims y = [n; c; pool_extent k s h; pool_extent k s w] /\
    forall o, in_range (tdims y) o -> exists p, first_max (el x) (window k s o) p /\ el y o = el x p.
Proof. exact @pool_fresh. Qed.
Print Assumptions C47_new.
(** Inputs of another rank are rejected, and the layer still remembers the input before. *)
Lemma pool_other_ranks : forall {T} {S : Scalar T} (l : pool T) (x : tensor T), Zlen (tdims x) <> 4 -> pool_forward l x = (l, Throw RuntimeError).
Proof. intros T S l x H. unfold pool_forward, rank. fold (tdims x). rewrite (proj2 (Z.eqb_neq _ _) H). reflexivity. Qed.
Theorem C47_other_ranks : forall {T} {S : Scalar T} (l : pool T) (x : tensor T), Zlen (tdims x) <> 4 -> pool_forward l x = (l, Throw RuntimeError).
Proof. exact @pool_other_ranks. Qed.
Print Assumptions C47_other_ranks.
Example C47_other_ranks_case : pool_forward (pool_new 2 1 0) (ramp [3; 4]) = (pool_new 2 1 0, Throw RuntimeError).
Proof. reflexivity. Qed.
Example C47_size_only_case : snd (pool_forward (pool_new1 2) (ramp [1; 1; 5; 4])) = Ok (mkTensor (shape_of [1; 1; 2; 2]) [5; 7; 13; 15]).
Proof. vm_compute. reflexivity. Qed.
Print Assumptions C47_size_only.
Print Assumptions C47_tiles.

(** ** C61.  Layers are kept in the order they were added; any other position is undefined. *)
Theorem C61_get_layer : forall {T} {G} (g : G) (ls : list (layer T)) i l, 0 <= i -> nth_error ls (Z.to_nat i) = Some l -> net_get (fold_left net_add ls (net_new g)) i = Ok l.
Proof. exact @get_layer. Qed.
Theorem C61_get_no_layer : forall {T} {G} (g : G) (ls : list (layer T)) i, ~ 0 <= i < Zlen ls -> net_get (fold_left net_add ls (net_new g)) i = UB.
Proof. exact @get_no_layer. Qed.
Example C61_get_layer_case : net_get (fold_left net_add [LAct (act_new ReLU); LFlat flatten_new : layer Z] (net_new tt)) 1 = Ok (LFlat flatten_new).
Proof. reflexivity. Qed.
(** A new activation layer computes the function it was made for, in both directions (C32-C36 say what the functions are). *)
Lemma act_fresh : forall {T} {S : Scalar T} {G} {HR : Rng T G} (a : act T) (x d : tensor T) (g : G), let n := net_add (net_new g) (LAct (act_new a)) in
  snd (net_predict n x) = act_fwd a x /\ snd (layer_backward (fst (fst (layer_forward (LAct (act_new a)) x g))) d) = act_bwd a x d.
Proof. intros T S G HR a x d g n. split; [|reflexivity]. unfold n, net_predict. cbn. destruct (act_fwd a x); reflexivity. Qed.
Theorem C61_activation : forall {T} {S : Scalar T} {G} {HR : Rng T G} (a : act T) (x d : tensor T) (g : G), let n := net_add (net_new g) (LAct (act_new a)) in
  snd (net_predict n x) = act_fwd a x /\ snd (layer_backward (fst (fst (layer_forward (LAct (act_new a)) x g))) d) = act_bwd a x d.
Proof. exact @act_fresh. Qed.
Print Assumptions C61_activation.
Print Assumptions C61_get_layer.
Print Assumptions C61_get_no_layer.

(** ** C91.  Views. *)
Theorem C91_slice_view : forall {T} (v : sview T) own, sv_shape v = shape_of own -> Zlen own <= two64 -> Zlen (tdims (sv_orig v)) <= two64 ->
  sview_text v = Ok (view_text "SliceView" own (tdims (sv_orig v))).
Proof. exact @sview_text_ok. Qed.
Theorem C91_broadcast_view : forall {T} (t : tensor T) r v, bview_new t (shape_of r) = Ok v -> Zlen r <= two64 -> Zlen (tdims t) <= two64 ->
  bview_text v = Ok (view_text "BroadcastView" r (tdims t)).
Proof. exact @bview_text_ok. Qed.
Example C91_view_case : (v <- bview_new (ramp [1; 3]) (shape_of [2; 3]) ;; bview_text v) = Ok "BroadcastView of shape (2, 3) from original shape (1, 3)"%string.
Proof. vm_compute. reflexivity. Qed.
Print Assumptions C91_slice_view.
Print Assumptions C91_broadcast_view.

(** ** C53.  A new dropout layer drops what its rate says and scales the rest. *)
Lemma dropout_fresh : forall {T} {S : Scalar T} {G} {HR : Rng T G} rate (x : tensor T) (g : G), good x ->
  exists r g', f_rand (tdims x) g = Ok (r, g') /\ good r /\ tdims r = tdims x /\
    snd (dropout_forward (dropout_new rate) x g) =
      Ok (tensor_of (tdims x) (fun idx => s_mul (s_mul (el x idx) (if s_lt rate (el r idx) then one else zero)) (s_div one (s_sub one rate)))).
Proof.
  intros T S G HR rate x g Gx. destruct (dropout_train (dropout_new rate) x g eq_refl Gx) as (r & g' & E & Gr & Er & F).
  exists r, g'. rewrite F. auto.
Qed.
Theorem C53_new : forall {T} {S : Scalar T} {G} {HR : Rng T G} rate (x : tensor T) (g : G), good x ->
  exists r g', f_rand (tdims x) g = Ok (r, g') /\ good r /\ tdims r = tdims x /\
    snd (dropout_forward (dropout_new rate) x g) =
      Ok (tensor_of (tdims x) (fun idx => s_mul (s_mul (el x idx) (if s_lt rate (el r idx) then one else zero)) (s_div one (s_sub one rate)))).
Proof. exact @dropout_fresh. Qed.
Print Assumptions C53_new.
