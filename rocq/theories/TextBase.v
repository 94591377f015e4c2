(** * Text primitives shared by model and specification: what a stream writes for an int and for '\n' (C++ standard, not /repo) *)
From Coq Require Import ZArith Ascii String DecimalString DecimalZ.

(** Decimal digits, most significant first, with a leading minus sign for negative numbers. *)
Definition show_int (z : Z) : string := NilZero.string_of_int (Z.to_int z).
Definition nl : string := String (ascii_of_nat 10) EmptyString.
