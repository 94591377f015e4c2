(** * Vocabulary for float32 results *)
From Coq Require Import Reals SpecFloat.
From Verif Require Import Base Scalar Types SpecR.
Local Open Scope R_scope.

(** The real number a float stands for; 0 for infinities and NaN. *)
Definition f32_value (x : f32) : R :=
  match x with S754_finite s m e => (if s then -1 else 1) * IZR (Zpos m) * powerRZ 2 e | _ => 0 end.
Definition f32_finite (x : f32) : Prop := match x with S754_finite _ _ _ | S754_zero _ => True | _ => False end.
Definition f32_nan (x : f32) : Prop := x = S754_nan.
(** Sign, mantissa and exponent are those of a binary32 number (a C++ [float] is always one). *)
Definition f32_valid (x : f32) : Prop := valid_binary f32_prec f32_emax x = true.
Definition all_valid (t : tensor f32) : Prop := Forall f32_valid (tdata t).
Definition all_finite (t : tensor f32) : Prop := Forall (fun x => f32_valid x /\ f32_finite x) (tdata t).
(** Half the distance between 1 and the next float, and half the smallest positive float. *)
Definition ulp_half : R := / 2 ^ 24.
Definition tiny_half : R := / 2 ^ 150.

(** Relative error bound of a chain of [n] rounded operations. *)
Definition growth (n : Z) : R := (1 + ulp_half) ^ Z.to_nat n - 1.
(** [computed] is within the bound of the exact sum of the terms [f], where [n] roundings were made and [k] products rounded. *)
Definition near_sum {A} (n k : Z) (computed : f32) (terms : list A) (f : A -> R) : Prop :=
  Rabs (f32_value computed - rsum terms f) <= growth n * rsum terms (fun a => Rabs (f a)) + (1 + growth n) * IZR k * tiny_half.

(** What is asked of the C library's [expf]: exp(0) = 1, exp(-inf) = 0, exp(inf) = inf; a value in [0, 1] below zero; at least 1 (or
    infinite) above zero; infinite from 128 on, where the exact value exceeds every float. *)
Record exp_like (e : f32 -> f32) : Prop := {
  exp_valid : forall x, f32_valid x -> f32_valid (e x);
  exp_at_zero : forall s, e (S754_zero s) = f32_of_Z 1;
  exp_at_inf : forall s, e (S754_infinity s) = if s then S754_zero false else S754_infinity false;
  exp_below : forall x, f32_valid x -> f32_finite x -> f32_value x <= 0 -> f32_finite (e x) /\ 0 <= f32_value (e x) <= 1;
  exp_above : forall x, f32_valid x -> f32_finite x -> 0 <= f32_value x -> e x = S754_infinity false \/ (f32_finite (e x) /\ 1 <= f32_value (e x));
  exp_huge : forall x, f32_valid x -> f32_finite x -> 128 <= f32_value x -> e x = S754_infinity false }.
(** Of [tanhf] and [logf], where the library calls them: log(inf) = inf and log is at least 0 from 1 on; tanh(inf) = 1, tanh is
    in [-1, 1], and in [0, 1] on non-negative numbers. *)
Record log_like (l : f32 -> f32) : Prop := {
  log_valid : forall x, f32_valid x -> f32_valid (l x);
  log_at_inf : l (S754_infinity false) = S754_infinity false;
  log_above : forall x, f32_valid x -> f32_finite x -> 1 <= f32_value x -> f32_finite (l x) /\ 0 <= f32_value (l x) }.
Record tanh_like (h : f32 -> f32) : Prop := {
  tanh_valid : forall x, f32_valid x -> f32_valid (h x);
  tanh_at_inf : h (S754_infinity false) = f32_of_Z 1;
  tanh_between : forall x, f32_valid x -> f32_finite x -> f32_finite (h x) /\ -1 <= f32_value (h x) <= 1;
  tanh_above : forall x, f32_valid x -> f32_finite x -> 0 <= f32_value x -> 0 <= f32_value (h x) }.
Record libm_like (lm : libm) : Prop := { like_exp : exp_like (m_exp lm); like_log : log_like (m_log lm); like_tanh : tanh_like (m_tanh lm) }.
(** exp does not decrease (on numbers up to zero, where the value is finite). *)
Definition exp_monotone (e : f32 -> f32) : Prop := forall x y, f32_valid x -> f32_finite x -> f32_valid y -> f32_finite y ->
  f32_value x <= f32_value y -> f32_value y <= 0 -> f32_value (e x) <= f32_value (e y).
(** A finite float with a value in [lo, hi]. *)
Definition f32_in (lo hi : R) (x : f32) : Prop := f32_valid x /\ f32_finite x /\ lo <= f32_value x <= hi.

(** Compilers may fuse a multiplication with the following addition (GCC does by default under -march=native where the hardware can):
    the result is then the float nearest to s + a*b, infinite when s + a*b is out of range.  [accumulate l r]: [r] is a result of adding up
    the products of the pairs in [l] from zero in order, each step fused or not. *)
Definition nearest32 (r : R) (x : f32) : Prop :=
  f32_valid x /\ (f32_finite x -> Rabs r < 2 ^ 128 - 2 ^ 103 /\ forall z, f32_valid z -> f32_finite z -> Rabs (f32_value x - r) <= Rabs (f32_value z - r)).
Definition fused (s a b r : f32) : Prop :=
  nearest32 (f32_value s + f32_value a * f32_value b) r /\ (f32_finite r -> f32_finite s /\ f32_finite a /\ f32_finite b).
Inductive accumulate : list (f32 * f32) -> f32 -> Prop :=
| acc_start : accumulate [] (f32_of_Z 0)
| acc_separate : forall l s a b, accumulate l s -> accumulate (l ++ [(a, b)]) (SFadd f32_prec f32_emax s (SFmul f32_prec f32_emax a b))
| acc_fused : forall l s a b r, accumulate l s -> fused s a b r -> accumulate (l ++ [(a, b)]) r.

(** ** Training in float32 *)
(** A decay rate: a float between 0 and 1 - 2^-10 (0.999 is one). *)
Definition f32_decay (b : f32) : Prop := f32_in 0 (1 - / 2 ^ 10) b.
(** What is asked of [pow(double, double)] for such a base and a positive whole exponent: a double from 0 to the base. *)
Definition pow_like (p : f32 -> Z -> f64) : Prop := forall b n, f32_decay b -> (1 <= n)%Z ->
  valid_binary f64_prec f64_emax (p b n) = true /\ f32_finite (p b n) /\ 0 <= f32_value (p b n) <= f32_value b.
(** A history of calls of an optimizer whose rate overrides are at most one in absolute value and whose gradients are at most [G]. *)
Definition tame_calls (G : R) (cs : list (f32 * list (Z * tensor f32))) : Prop :=
  Forall (fun c => f32_in (-1) 1 (fst c) /\ Forall (fun p => Forall (f32_in (- G) G) (tdata (snd p))) (snd c)) cs.
(** Every entry of every weight tensor is at most [W] in absolute value. *)
Definition tame_weights (W : R) (st : Z -> tensor f32) : Prop := forall k, Forall (f32_in (- W) W) (tdata (st k)).
(** A number at least (at most) zero, possibly infinite; never NaN. *)
Definition f32_nonneg (x : f32) : Prop := f32_valid x /\ (x = S754_infinity false \/ (f32_finite x /\ 0 <= f32_value x)).
Definition f32_nonpos (x : f32) : Prop := f32_valid x /\ (x = S754_infinity true \/ (f32_finite x /\ f32_value x <= 0)).
(** What is asked of [logf] on (0, 1]: finite, not positive, at least -104 (the logarithm of the smallest float is about -103.3). *)
Definition log_below_one (l : f32 -> f32) : Prop := forall x, f32_valid x -> f32_finite x -> 0 < f32_value x <= 1 -> f32_in (-104) 0 (l x).
