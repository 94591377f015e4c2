(** * Real numbers as the element type, for the exact-arithmetic readings.

    Comparison is decided with [Rlt_dec] (the standard library's real axioms).
    [s_inf] has no meaning over the reals; no theorem about R uses it. *)
From Coq Require Import Reals.
From Verif Require Import Base Scalar.

Definition Rltb (x y : R) : bool := if Rlt_dec x y then true else false.
Definition Rleb (x y : R) : bool := if Rle_dec x y then true else false.
Definition Reqb (x y : R) : bool := if Req_EM_T x y then true else false.

#[global] Instance RScalar : Scalar R := {|
  s_z := IZR; s_lit := fun n d => (IZR n / IZR d)%R;
  s_add := Rplus; s_sub := Rminus; s_mul := Rmult; s_div := Rdiv; s_neg := Ropp;
  s_lt := Rltb; s_le := Rleb; s_eq := Reqb;
  s_sqrt := sqrt; s_exp := exp; s_log := ln; s_tanh := tanh;
  s_powi := powerRZ; s_corr := fun x b n => (x / (1 - powerRZ b n))%R; s_inf := 0%R |}.

(** The reals with a finite value [M] in place of infinity, for code that compares with minus infinity; only used
    where the inputs are assumed to lie above [- M].  Not a registered instance. *)
Definition RInf (M : R) : Scalar R := {|
  s_z := IZR; s_lit := fun n d => (IZR n / IZR d)%R;
  s_add := Rplus; s_sub := Rminus; s_mul := Rmult; s_div := Rdiv; s_neg := Ropp;
  s_lt := Rltb; s_le := Rleb; s_eq := Reqb;
  s_sqrt := sqrt; s_exp := exp; s_log := ln; s_tanh := tanh;
  s_powi := powerRZ; s_corr := fun x b n => (x / (1 - powerRZ b n))%R; s_inf := M |}.
