(** * Properties C01-C08: shapes, addressing and broadcasting rules. *)
From Verif Require Import Base Scalar Types Spec M_Shape M_Tensor L_Index L_Shape L_Bcast L_Tensor L_Tensor2 L_Glue.

(** ** C01 *)
Theorem C01_shape_construction : forall ds, pos_dims ds -> prod ds < two64 ->
  exists s, new_shape ds = Ok s /\ dims s = ds /\ rank s = Z.of_nat (length ds) /\ ssize s = prod ds /\
    length (sstride s) = length ds /\
    forall i, (i < length ds)%nat -> nth i (sstride s) 0 = prod (skipn (S i) ds).
Proof. exact new_shape_facts. Qed.
Theorem C01_shape_rejects : forall ds, ~ pos_dims ds -> new_shape ds = Throw InvalidArgument.
Proof. exact new_shape_throw. Qed.
Example C01_case : pos_dims [2; 3; 4] /\ prod [2; 3; 4] < two64 /\ ~ pos_dims [2; 0] /\ ~ pos_dims [].
Proof.
  repeat split; try discriminate; try (repeat constructor; lia).
  - intros [_ H]. inversion H as [|? ? ? H']; inversion H'; lia.
  - intros [H _]; auto.
Qed.
Print Assumptions C01_shape_construction.
Print Assumptions C01_shape_rejects.

(** ** C02.  Full statement:
    [forall ds s, Forall is_int ds -> new_shape ds = Ok s -> ssize s = prod (dims s)].
    False: the size wraps modulo 2^64, and the wrapped buffer is then indexed out of bounds. *)
Theorem C02_size_is_product_refuted : exists ds s idx,
  Forall is_int ds /\ new_shape ds = Ok s /\ ssize s <> prod ds /\
  in_range ds idx /\ t_at (t_new s : tensor Z) idx = UB.
Proof.
  exists [4194304; 4194304; 4194304]. eexists. exists [0; 0; 0].
  split; [repeat constructor; discriminate|]. split; [reflexivity|]. split; [vm_compute; discriminate|].
  split; [repeat constructor; lia|]. vm_compute. reflexivity.
Qed.
(** What holds: the size is the product modulo 2^64, hence exact below 2^64. *)
Theorem C02_size_is_product_partial : forall ds, pos_dims ds ->
  exists s, new_shape ds = Ok s /\ dims s = ds /\ ssize s = prod ds mod two64.
Proof. exact new_shape_wrap. Qed.
Print Assumptions C02_size_is_product_refuted.
Print Assumptions C02_size_is_product_partial.

(** ** C03 *)
Theorem C03_reshape_ok : forall {T} (t : tensor T) ds, wf t -> Forall is_int ds ->
  pos_dims ds -> prod ds = prod (tdims t) ->
  t_reshape_st t ds = (mkTensor (shape_of ds) (tdata t), Ok tt).
Proof. exact @reshape_ok. Qed.
Theorem C03_reshape_rejects : forall {T} (t : tensor T) ds, wf t -> Forall is_int ds ->
  ~ (pos_dims ds /\ prod ds = prod (tdims t)) ->
  exists e, t_reshape_st t ds = (t, Throw e) /\ (~ pos_dims ds -> e = InvalidArgument) /\ (pos_dims ds -> e = if prod ds <? two64 then RuntimeError else OverflowError).
Proof. exact @reshape_fail. Qed.
Theorem C03_reshape_back : forall {T} (t t' : tensor T) ds,
  wf t -> Forall is_int ds -> Forall is_int (tdims t) -> t_reshape_st t ds = (t', Ok tt) ->
  wf t' /\ tdims t' = ds /\ tdata t' = tdata t /\ prod ds = prod (tdims t) /\ t_reshape_st t' (tdims t) = (t, Ok tt).
Proof. exact @reshape_back. Qed.
Example C03_case : wf (tensor_of [2; 3] (ravel [2; 3])) /\ Forall is_int [3; 2] /\ pos_dims [3; 2] /\ prod [3; 2] = prod [2; 3].
Proof. repeat split; try discriminate; try (repeat constructor; discriminate || lia). Qed.
Print Assumptions C03_reshape_ok.
Print Assumptions C03_reshape_rejects.
Print Assumptions C03_reshape_back.

(** ** C04.  For every shape the constructor accepts, with a representable size. *)
Theorem C04_addressing_bijection : forall ds s, new_shape ds = Ok s -> prod ds < two64 ->
  (forall idx, in_range ds idx -> exists k, compute_flat_index s idx = Ok k /\ 0 <= k < ssize s) /\
  (forall i j k, in_range ds i -> in_range ds j ->
     compute_flat_index s i = Ok k -> compute_flat_index s j = Ok k -> i = j) /\
  (forall k, 0 <= k < ssize s -> exists idx, in_range ds idx /\ compute_flat_index s idx = Ok k).
Proof. exact new_shape_bijection. Qed.
(** Cells are in lexicographic (row-major) order of their multi-indices. *)
Theorem C04_row_major_order : forall ds s i j, new_shape ds = Ok s -> prod ds < two64 -> in_range ds i -> in_range ds j ->
  exists k k', compute_flat_index s i = Ok k /\ compute_flat_index s j = Ok k' /\ (lex_lt i j <-> k < k').
Proof. exact new_shape_lex. Qed.
Theorem C04_flat_is_ravel : forall ds s idx, new_shape ds = Ok s -> prod ds < two64 -> in_range ds idx ->
  compute_flat_index s idx = Ok (ravel ds idx).
Proof. exact new_shape_ravel. Qed.
Example C04_case : exists s, new_shape [2; 3] = Ok s /\ prod [2; 3] < two64 /\ in_range [2; 3] [1; 2] /\ compute_flat_index s [1; 2] = Ok 5.
Proof. eexists. split; [reflexivity|]. split; [vm_compute; reflexivity|]. split; [repeat constructor; lia|vm_compute; reflexivity]. Qed.
Print Assumptions C04_addressing_bijection.
Print Assumptions C04_row_major_order.
Print Assumptions C04_flat_is_ravel.

(** ** C05 *)
Theorem C05_at_safe : forall {T} {S : Scalar T} (t : tensor T) idx, wf t ->
  (in_range (tdims t) idx -> exists k, compute_flat_index (tshape t) idx = Ok k /\ 0 <= k < Zlen (tdata t) /\
      t_at t idx = Ok (znth zero (tdata t) k)) /\
  (length idx <> length (tdims t) -> t_at t idx = Throw InvalidArgument) /\
  (length idx = length (tdims t) -> ~ in_range (tdims t) idx -> t_at t idx = Throw OutOfRange).
Proof. exact @at_total. Qed.
Theorem C05_at_write_rejects : forall {T} (t : tensor T) idx v, wf t -> ~ in_range (tdims t) idx ->
  t_at_set t idx v = Throw (if Nat.eqb (length idx) (length (tdims t)) then OutOfRange else InvalidArgument).
Proof. exact @at_set_fail. Qed.
Example C05_case : wf (tensor_of [2; 3] (ravel [2; 3])) /\ in_range [2; 3] [1; 0] /\ ~ in_range [2; 3] [1; -1].
Proof.
  repeat split; try discriminate; try (repeat constructor; lia).
  intro H. inversion H as [|? ? ? ? ? H']; inversion H'; lia.
Qed.
Print Assumptions C05_at_safe.
Print Assumptions C05_at_write_rejects.

(** ** C06 *)
Theorem C06_read_after_write : forall {T} {S : Scalar T} (t : tensor T) i v, wf t -> in_range (tdims t) i ->
  exists t', t_at_set t i v = Ok t' /\ wf t' /\ tshape t' = tshape t /\ t_at t' i = Ok v /\
    forall j, in_range (tdims t) j -> j <> i -> t_at t' j = t_at t j.
Proof. exact @at_read_write. Qed.
Example C06_case : exists t', t_at_set (tensor_of [2; 3] (ravel [2; 3])) [1; 0] 9 = Ok t' /\ tdata t' = [0; 1; 2; 9; 4; 5].
Proof. eexists. split; vm_compute; reflexivity. Qed.
Print Assumptions C06_read_after_write.

(** ** C07 *)
Theorem C07_broadcast_shapes : forall a b, pos_dims a -> pos_dims b ->
  (forall r, bcast a b r -> prod r < two64 -> broadcast_shapes (shape_of a) (shape_of b) = Ok (shape_of r)) /\
  ((forall r, ~ bcast a b r) -> broadcast_shapes (shape_of a) (shape_of b) = Throw InvalidArgument) /\
  (exists ok, are_broadcastable (shape_of a) (shape_of b) = Ok ok /\ (ok = true <-> exists r, bcast a b r)) /\
  (forall r r', bcast a b r -> bcast a b r' -> r = r').
Proof. exact broadcast_spec. Qed.
(** Compatibility in every position is enough for the result to exist. *)
Theorem C07_broadcast_exists : forall a b, pos_dims a -> pos_dims b ->
  (forall i, (i < Nat.max (length a) (length b))%nat ->
     compatible (nth i (pad (Nat.max (length a) (length b)) a) 0) (nth i (pad (Nat.max (length a) (length b)) b) 0)) ->
  exists r, bcast a b r.
Proof. exact bcast_of_compatible. Qed.
Example C07_case : bcast [2; 1; 4] [3; 1] [2; 3; 4] /\ ~ (exists r, bcast [2] [3] r).
Proof.
  split.
  - split; [reflexivity|]. intros i Hi. unfold compatible.
    destruct i as [|[|[|i]]]; [split; [auto|reflexivity]..|simpl in Hi; lia].
  - intros (r & _ & H). destruct (H O ltac:(simpl; lia)) as [K _]. unfold compatible in K. simpl in K. lia.
Qed.
Print Assumptions C07_broadcast_shapes.
Print Assumptions C07_broadcast_exists.

(** ** C08: equality of outcomes (same result, or both throw). *)
Theorem C08_commutative : forall a b, pos_dims a -> pos_dims b ->
  broadcast_shapes (shape_of a) (shape_of b) = broadcast_shapes (shape_of b) (shape_of a).
Proof. exact broadcast_comm. Qed.
Theorem C08_associative : forall a b c, pos_dims a -> pos_dims b -> pos_dims c ->
  bind (broadcast_shapes (shape_of a) (shape_of b)) (fun m => broadcast_shapes m (shape_of c)) =
  bind (broadcast_shapes (shape_of b) (shape_of c)) (fun m => broadcast_shapes (shape_of a) m).
Proof. exact broadcast_assoc. Qed.
Theorem C08_idempotent_neutral : forall a, pos_dims a -> prod a < two64 ->
  broadcast_shapes (shape_of a) (shape_of a) = Ok (shape_of a) /\
  broadcast_shapes (shape_of [1]) (shape_of a) = Ok (shape_of a).
Proof. exact broadcast_unit. Qed.
Example C08_case : bind (broadcast_shapes (shape_of [2; 1]) (shape_of [3])) (fun m => broadcast_shapes m (shape_of [4; 1; 1]))
  = Ok (shape_of [4; 2; 3]).
Proof. reflexivity. Qed.
Print Assumptions C08_commutative.
Print Assumptions C08_associative.
Print Assumptions C08_idempotent_neutral.
