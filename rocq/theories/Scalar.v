(** * Scalar: the template parameter [T] as operations without laws.

    A theorem quantified over [Scalar T] holds for every element type and every
    arithmetic, IEEE float included, because no algebraic law is available. *)
From Verif Require Import Base.
From Coq Require Import Floats.SpecFloat.

Class Scalar (T : Type) := {
  s_z    : Z -> T;              (* conversion T(n) from an integer *)
  s_lit  : Z -> Z -> T;         (* literal n/d, e.g. 0.01 = s_lit 1 100 *)
  s_add  : T -> T -> T;
  s_sub  : T -> T -> T;
  s_mul  : T -> T -> T;
  s_div  : T -> T -> T;
  s_neg  : T -> T;
  s_lt   : T -> T -> bool;      (* operator< ; a > b is [s_lt b a] *)
  s_le   : T -> T -> bool;      (* operator<= ; a >= b is [s_le b a] *)
  s_eq   : T -> T -> bool;      (* operator== *)
  s_sqrt : T -> T;
  s_exp  : T -> T;
  s_log  : T -> T;
  s_tanh : T -> T;
  s_powi : T -> Z -> T;         (* T(std::pow(b, n)) with an integer exponent *)
  s_corr : T -> T -> Z -> T;    (* T(x / (T(1) - std::pow(b, n))): for T = float evaluated in double *)
  s_inf  : T                    (* std::numeric_limits<T>::infinity() *)
}.

(** std::max(a,b) returns b exactly when a < b; std::min(a,b) returns b exactly when b < a. *)
Definition s_max {T} `{Scalar T} (a b : T) : T := if s_lt a b then b else a.
Definition s_min {T} `{Scalar T} (a b : T) : T := if s_lt b a then b else a.
(** std::abs *)
Definition s_abs {T} `{Scalar T} (a : T) : T := if s_lt a (s_z 0) then s_neg a else a.

Notation zero := (s_z 0).
Notation one := (s_z 1).

(** ** Integers, used as a small computable instance for examples
    (element type [int]; the transcendental fields are not used there). *)
#[global] Instance ZScalar : Scalar Z := {|
  s_z := fun n => n; s_lit := fun n d => Z.quot n d;
  s_add := Z.add; s_sub := Z.sub; s_mul := Z.mul; s_div := Z.quot; s_neg := Z.opp;
  s_lt := Z.ltb; s_le := Z.leb; s_eq := Z.eqb;
  s_sqrt := Z.sqrt; s_exp := fun x => x; s_log := fun x => x; s_tanh := fun x => x;
  s_powi := Z.pow; s_corr := fun x b n => Z.quot x (1 - Z.pow b n); s_inf := 2147483647 |}.

(** ** IEEE-754 binary32 through Coq's [SpecFloat] (axiom free). *)
Definition f32 := spec_float.
Definition f32_prec : Z := 24.
Definition f32_emax : Z := 128.
Definition f32_of_Z (z : Z) : f32 := binary_normalize f32_prec f32_emax z 0 false.
Definition f32_div := SFdiv f32_prec f32_emax.

(** ** binary64, and conversions.  float to double is exact, double to float rounds to nearest. *)
Definition f64 := spec_float.
Definition f64_prec : Z := 53.
Definition f64_emax : Z := 1024.
Definition f64_of_Z (z : Z) : f64 := binary_normalize f64_prec f64_emax z 0 false.
Definition sf_convert (prec emax : Z) (x : spec_float) : spec_float :=
  match x with S754_finite s m e => binary_normalize prec emax (cond_Zopp s (Zpos m)) e s | x => x end.
Definition f64_of_f32 (x : f32) : f64 := sf_convert f64_prec f64_emax x.
Definition f32_of_f64 (x : f64) : f32 := sf_convert f32_prec f32_emax x.

(** The C math library functions are not specified by IEEE-754; they are a parameter.  std::pow of a float and an int
    converts both to double and returns a double. *)
Record libm := { m_exp : f32 -> f32; m_log : f32 -> f32; m_tanh : f32 -> f32; m_pow : f32 -> Z -> f64 }.

(** A power by repeated multiplication in binary64, for concrete libraries. *)
Fixpoint f64_pow_nat (x : f64) (n : nat) : f64 := match n with O => f64_of_Z 1 | S n' => SFmul f64_prec f64_emax x (f64_pow_nat x n') end.
Definition pow64 (b : f32) (n : Z) : f64 := f64_pow_nat (f64_of_f32 b) (Z.to_nat n).

(** Float scalar over a given math library.  A literal n/d is a double rounded to float. *)
Definition F32Scalar (lm : libm) : Scalar f32 := {|
  s_z := f32_of_Z; s_lit := fun n d => f32_of_f64 (SFdiv f64_prec f64_emax (f64_of_Z n) (f64_of_Z d));
  s_add := SFadd f32_prec f32_emax; s_sub := SFsub f32_prec f32_emax;
  s_mul := SFmul f32_prec f32_emax; s_div := f32_div; s_neg := SFopp;
  s_lt := SFltb; s_le := SFleb; s_eq := SFeqb;
  s_sqrt := SFsqrt f32_prec f32_emax;
  s_exp := m_exp lm; s_log := m_log lm; s_tanh := m_tanh lm;
  s_powi := fun b n => f32_of_f64 (m_pow lm b n);
  s_corr := fun x b n => f32_of_f64 (SFdiv f64_prec f64_emax (f64_of_f32 x) (SFsub f64_prec f64_emax (f64_of_Z 1) (m_pow lm b n)));
  s_inf := S754_infinity false |}.
