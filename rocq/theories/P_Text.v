(** * C91: text forms *)
From Coq Require Import ZArith Ascii String.
From Verif Require Import Base Scalar Types Spec TextBase M_Shape M_Text SpecText L_Text.
Local Open Scope Z_scope.
Local Open Scope list_scope.

(** C91.  A shape is written as its dimensions in order, in decimal, separated by a comma and a space, in parentheses. *)
Theorem C91_shape : forall s : shape, Zlen (dims s) <= two64 -> shape_text s = Ok (dims_text (dims s)).
Proof. exact shape_text_ok. Qed.
Print Assumptions C91_shape.
Example C91_shape_case : shape_text (shape_of [2; 128; 3]) = Ok "(2, 128, 3)"%string.
Proof. vm_compute. reflexivity. Qed.

(** Two shapes with the same text have the same dimensions. *)
Theorem C91_shape_distinct : forall s s' : shape, Zlen (dims s) <= two64 -> Zlen (dims s') <= two64 ->
  shape_text s = shape_text s' -> dims s = dims s'.
Proof. exact shape_text_inj. Qed.
Print Assumptions C91_shape_distinct.
Example C91_shape_distinct_case : shape_text (shape_of [12; 3]) <> shape_text (shape_of [1; 23]).
Proof. vm_compute. discriminate. Qed.

(** The data text of a tensor is all its values in storage order, in brackets. *)
Theorem C91_values : forall {T} {S : Scalar T} (show : T -> string) (t : tensor T), good t ->
  data_text show t = Ok (values_text show (tdata t)).
Proof. exact @data_text_ok. Qed.
Print Assumptions C91_values.
Example C91_values_case : data_text show_int (tensor_of [2; 2] (fn2 (fun i j => 10 * i - j))) = Ok "[0, -1, 10, 9]"%string.
Proof. vm_compute. reflexivity. Qed.

(** When values are written faithfully, two tensors with the same data text hold the same values. *)
Theorem C91_values_distinct : forall {T} {S : Scalar T} (show : T -> string), unbroken show ->
  (forall x y, show x = show y -> x = y) ->
  forall a b : tensor T, good a -> good b -> data_text show a = data_text show b -> tdata a = tdata b.
Proof. exact @data_text_inj. Qed.
Print Assumptions C91_values_distinct.
(** Decimal integers are written faithfully, so this is unconditional for integer tensors. *)
Theorem C91_int_values : forall a b : tensor Z, good a -> good b ->
  data_text show_int a = data_text show_int b -> tdata a = tdata b.
Proof. exact int_text_inj. Qed.
Print Assumptions C91_int_values.
Example C91_unbroken_case : unbroken show_int.
Proof. exact show_int_unbroken. Qed.

(** The detailed text is the shape, the first ten values, and an ellipsis when there are more. *)
Theorem C91_detail : forall {T} {S : Scalar T} (show : T -> string) (type_name : string) (t : tensor T),
  good t -> Zlen (tdims t) <= two64 ->
  tensor_detail show type_name t = Ok (detail_text show type_name (tdims t) (tdata t)).
Proof. exact @detail_ok. Qed.
Print Assumptions C91_detail.

(** Two detailed texts agree exactly when the shapes agree and the first ten values are written alike. *)
Theorem C91_detail_equal : forall {T} {S : Scalar T} (show : T -> string) (type_name : string), unbroken show ->
  forall a b : tensor T, good a -> good b -> Zlen (tdims a) <= two64 -> Zlen (tdims b) <= two64 ->
  (tensor_detail show type_name a = tensor_detail show type_name b <->
   tdims a = tdims b /\ map show (firstn 10 (tdata a)) = map show (firstn 10 (tdata b))).
Proof. exact @detail_eq. Qed.
Print Assumptions C91_detail_equal.
Example C91_detail_case :
  let a := tensor_of [12] (fun idx => znth 0 idx 0) in
  let b := tensor_of [12] (fun idx => if znth 0 idx 0 =? 11 then 99 else znth 0 idx 0) in
  good a /\ good b /\ tdata a <> tdata b /\ tensor_detail show_int "i" a = tensor_detail show_int "i" b /\
  tensor_detail show_int "i" a =
    Ok ("Tensor:" ++ nl ++ "TensorData<i, CPUDevice>:" ++ nl ++ "Shape: (12)" ++ nl ++
        "Data: [0, 1, 2, 3, 4, 5, 6, 7, 8, 9, ...]" ++ nl)%string.
Proof.
  assert (G : forall f, good (tensor_of [12] f : tensor Z)).
  { intros f. apply L_Index.good_tensor_of; [split; [discriminate|repeat constructor]|vm_compute; discriminate]. }
  intros a b. split; [apply G|]. split; [apply G|]. split; [vm_compute; discriminate|]. split; vm_compute; reflexivity.
Qed.
