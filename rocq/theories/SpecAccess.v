(** * What accessors should do *)
From Coq Require Import ZArith Ascii String.
From Verif Require Import Base Types Spec TextBase SpecText.

(** The text of a view: its own shape and the shape of the tensor it looks at. *)
Definition view_text (kind : string) (own original : list Z) : string :=
  (kind ++ " of shape " ++ dims_text own ++ " from original shape " ++ dims_text original)%string.
