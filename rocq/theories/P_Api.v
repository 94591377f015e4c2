(** * Properties C85 and C86: the tensors a program can obtain *)
From Verif Require Import Base Scalar Types Spec SpecNN SpecApi M_Shape M_Tensor M_Adv M_Act M_Loss M_Layers M_Reg M_Opt M_Net M_Data M_Api SpecNet
  L_Index L_Shape L_Tensor L_Api.

(** ** C85.  [made (OTensor t)]: some sequence of calls on tensors, layers, optimizers, networks and data sets yields [t]. *)
Theorem C85_tensors_consistent : forall {T D G GD} {S : Scalar T} {SD : Scalar D} {HR : Rng T G} {HD : Rng D GD} (to_d : T -> D) (to_f : D -> T) t,
  made (G := G) (HD := HD) to_d to_f (OTensor t) -> consistent t.
Proof. exact @made_tensor. Qed.
(** The form the other properties assume: with a representable element count the tensor is [wf], up to INT_MAX elements it is [good]. *)
Theorem C85_tensors_wf : forall {T D G GD} {S : Scalar T} {SD : Scalar D} {HR : Rng T G} {HD : Rng D GD} (to_d : T -> D) (to_f : D -> T) t,
  made (G := G) (HD := HD) to_d to_f (OTensor t) -> (prod (tdims t) < two64 -> wf t) /\ (prod (tdims t) <= INT_MAX -> good t).
Proof. exact @made_wf. Qed.
(** Every tensor inside a layer, and inside a layer of a network. *)
Theorem C85_layers_consistent : forall {T D G GD} {S : Scalar T} {SD : Scalar D} {HR : Rng T G} {HD : Rng D GD} (to_d : T -> D) (to_f : D -> T) l t,
  made (G := G) (HD := HD) to_d to_f (OLayer l) -> In t (layer_tensors l) -> consistent t.
Proof. exact @made_layer. Qed.
Theorem C85_networks_consistent : forall {T D G GD} {S : Scalar T} {SD : Scalar D} {HR : Rng T G} {HD : Rng D GD} (to_d : T -> D) (to_f : D -> T) (n : net T G) l t,
  made (HD := HD) to_d to_f (ONet n) -> In l (n_layers n) -> In t (layer_tensors l) -> consistent t.
Proof. exact @made_net. Qed.
(** at() on such a tensor never leaves the buffer: it returns or throws. *)
Theorem C85_at_never_undefined : forall {T D G GD} {S : Scalar T} {SD : Scalar D} {HR : Rng T G} {HD : Rng D GD} (to_d : T -> D) (to_f : D -> T) t idx,
  made (G := G) (HD := HD) to_d to_f (OTensor t) -> prod (tdims t) < two64 -> returns (t_at t idx).
Proof. exact @made_at. Qed.
(** A network of one layer, trained for one epoch, and its prediction. *)
Definition nullrng : Rng Z Z := {| rng_seed := fun z => z; rng_normal := fun _ g => (g, g + 1); rng_uniform := fun _ _ g => (g, g + 1) |}.
Definition x22 : tensor Z := t_fill (shape_of [2; 2]) 1.
Lemma x22_made : made (HR := nullrng) (HD := nullrng) (fun z : Z => z) (fun z : Z => z) (OTensor x22).
Proof. apply (api_fill _ _ [2; 2]). reflexivity. Qed.
Lemma case85 : exists t : tensor Z, made (HR := nullrng) (HD := nullrng) (fun z => z) (fun z => z) (OTensor t) /\ tdims t = [2; 3] /\ prod (tdims t) < two64.
Proof.
  destruct (fc_new (H := nullrng) 2 3 5) as [[l g']|e| | |] eqn:EL; try (vm_compute in EL; discriminate).
  assert (HL : made (HR := nullrng) (HD := nullrng) (fun z : Z => z) (fun z : Z => z) (OLayer (LFC l))) by (apply api_layer; exact (made_fc _ _ _ _ _ EL)).
  set (n := net_compile (net_add (net_new 0) (LFC l)) MSE (OSGD (sgd_new 1 0 0 0 false))).
  assert (HN : made (HR := nullrng) (HD := nullrng) (fun z : Z => z) (fun z : Z => z) (ONet n)) by (apply api_compile; [apply api_add; [apply api_net|exact HL]|apply api_sgd]).
  assert (HY : made (HR := nullrng) (HD := nullrng) (fun z : Z => z) (fun z : Z => z) (OTensor (t_fill (shape_of [2; 3]) 1 : tensor Z))) by (apply (api_fill _ _ [2; 3]); reflexivity).
  destruct (net_train (HR := nullrng) n [x22] [t_fill (shape_of [2; 3]) 1] 1) as [n1 r] eqn:ET.
  assert (ER : r = Ok tt) by (vm_compute in EL; injection EL as <- <-; vm_compute in ET; congruence).
  assert (HN1 : made (HR := nullrng) (HD := nullrng) (fun z : Z => z) (fun z : Z => z) (ONet n1)).
  { eapply api_train; [exact HN| | |exact ET|subst r; exact I]; intros z [<-|[]]; [exact x22_made|exact HY]. }
  destruct (net_predict (HR := nullrng) n1 x22) as [n2 o] eqn:EP.
  assert (EO : exists y, o = Ok y /\ tdims y = [2; 3]).
  { vm_compute in EL; injection EL as <- <-. vm_compute in ET. injection ET as <- _. vm_compute in EP. injection EP as _ <-. eexists. split; reflexivity. }
  destruct EO as (y & -> & HD). exists y. split; [eapply api_predict_out; [exact HN1|exact x22_made|exact EP]|]. split; [exact HD|]. rewrite HD. vm_compute. reflexivity.
Qed.
Example C85_case : exists t : tensor Z, made (HR := nullrng) (HD := nullrng) (fun z => z) (fun z => z) (OTensor t) /\ tdims t = [2; 3] /\ prod (tdims t) < two64.
Proof. exact case85. Qed.
Print Assumptions C85_tensors_consistent.
Print Assumptions C85_tensors_wf.
Print Assumptions C85_layers_consistent.
Print Assumptions C85_networks_consistent.
Print Assumptions C85_at_never_undefined.

(** ** C86.  Refuted: assigning a dimension through operator[] leaves size and strides as they were.  A larger dimension makes at()
    undefined at an index the shape accepts; a smaller one stays inside the buffer, but size() is no longer the product. *)
Theorem C86_larger_dimension_undefined : forall {T} {S : Scalar T} ds i v, pos_dims ds -> (i < length ds)%nat -> nth i ds 0 < v ->
  prod ds + (v - nth i ds 0) * prod (skipn (Datatypes.S i) ds) < two64 ->
  exists s s' idx, new_shape ds = Ok s /\ shape_set s (Z.of_nat i) v = Ok s' /\ dims s' = upd ds i v /\ in_range (dims s') idx /\ t_at (t_new s' : tensor T) idx = UB.
Proof. exact @set_larger. Qed.
Theorem C86_smaller_dimension_stale : forall {T} {S : Scalar T} ds i v, pos_dims ds -> prod ds < two64 -> (i < length ds)%nat -> 0 < v <= nth i ds 0 ->
  exists s s', new_shape ds = Ok s /\ shape_set s (Z.of_nat i) v = Ok s' /\ dims s' = upd ds i v /\ ssize s' = prod ds /\
    forall (x : T) idx, in_range (dims s') idx -> t_at (t_fill s' x) idx = Ok x.
Proof. exact @set_smaller. Qed.
Theorem C86_refuted : exists s s' s2, new_shape [2; 3] = Ok s /\ shape_set s 0 5 = Ok s' /\ new_shape [5; 3] = Ok s2 /\
  shape_eqb s' s2 = true /\ ssize s' = 6 /\ ssize s2 = 15 /\ in_range (dims s') [4; 2] /\ t_at (t_new s' : tensor Z) [4; 2] = UB.
Proof.
  do 3 eexists. split; [reflexivity|]. split; [reflexivity|]. split; [reflexivity|]. split; [reflexivity|]. split; [reflexivity|]. split; [reflexivity|].
  split; [repeat constructor; lia|vm_compute; reflexivity].
Qed.
Example C86_case : pos_dims [2; 3] /\ (0 < length [2; 3])%nat /\ nth 0 [2; 3] 0 < 5 /\ prod [2; 3] + (5 - nth 0 [2; 3] 0) * prod (skipn 1 [2; 3]) < two64.
Proof. split; [split; [discriminate|repeat constructor]|]. split; [simpl; lia|]. split; [simpl; lia|vm_compute; reflexivity]. Qed.
Print Assumptions C86_larger_dimension_undefined.
Print Assumptions C86_smaller_dimension_stale.
Print Assumptions C86_refuted.
