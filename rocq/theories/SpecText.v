(** * What the text forms should be *)
From Coq Require Import ZArith Ascii String.
From Verif Require Import Base Types Spec TextBase.
Local Open Scope string_scope.

(** Items separated by a comma and a space. *)
Definition listed (l : list string) : string := String.concat ", " l.
(** "(2, 3)" *)
Definition dims_text (ds : list Z) : string := "(" ++ listed (map show_int ds) ++ ")".
(** "[1, 2, 3]" *)
Definition values_text {T} (show : T -> string) (l : list T) : string := "[" ++ listed (map show l) ++ "]".
(** The shape, the first ten values, and an ellipsis when there are more. *)
Definition detail_text {T} (show : T -> string) (type_name : string) (ds : list Z) (l : list T) : string :=
  "Tensor:" ++ nl ++ "TensorData<" ++ type_name ++ ", CPUDevice>:" ++ nl ++
  "Shape: " ++ dims_text ds ++ nl ++
  "Data: [" ++ listed (map show (firstn 10 l)) ++ (if (10 <? Zlen l)%Z then ", ..." else "") ++ "]" ++ nl.
(** The way one value is written never produces an empty text, a comma or a closing bracket. *)
Definition unbroken {T} (show : T -> string) : Prop :=
  forall v, show v <> "" /\ ~ In ","%char (list_ascii_of_string (show v)) /\ ~ In "]"%char (list_ascii_of_string (show v)).
