(** Specification for cdf and icdf in double: the assumptions on the further functions of the C++
    mathematical library, and what it means to compute a distribution function. *)
From Coq Require Import ZArith Bool List Reals.
From Flocq Require Import Core IEEE754.BinarySingleNaN.
From Verif Require Import UniformModel FloatDrawModel FloatDrawSpec FloatCdfModel.
Open Scope R_scope.

(** two units in the last place for exp between -400 and 400, for expm1 and log1p at nonpositive
    arguments and for atan; the limits at infinity; exp and pow beyond e^400 and e^-400 only have to
    be large or small; results do not cross 0, 1 and pi/2 where the exact ones do not *)
Record accurate_x (M : libmx) : Prop := {
  ax_base : accurate (x_base M);
  ax_exp : forall x, is_finite x = true -> Rabs (B2R x) <= 400 -> is_finite (x_exp M x) = true /\ Rabs (B2R (x_exp M x) - exp (B2R x)) <= / 2 ^ 51 * exp (B2R x);
  ax_exp_1 : forall x, is_finite x = true -> B2R x <= 0 -> B2R (x_exp M x) <= 1;
  ax_exp_small : forall x, is_finite x = true -> B2R x < - 400 -> is_finite (x_exp M x) = true /\ 0 <= B2R (x_exp M x) <= / 2 ^ 100;
  ax_exp_large : forall x, is_finite x = true -> 400 < B2R x -> x_exp M x = B754_infinity false \/ is_finite (x_exp M x) = true /\ 2 ^ 100 <= B2R (x_exp M x);
  ax_exp_minf : is_finite (x_exp M (B754_infinity true)) = true /\ B2R (x_exp M (B754_infinity true)) = 0;
  ax_exp_pinf : x_exp M (B754_infinity false) = B754_infinity false;
  ax_expm1 : forall x, is_finite x = true -> B2R x <= 0 -> is_finite (x_expm1 M x) = true /\ -1 <= B2R (x_expm1 M x) <= 0 /\ Rabs (B2R (x_expm1 M x) - (exp (B2R x) - 1)) <= / 2 ^ 51 * (1 - exp (B2R x));
  ax_expm1_minf : is_finite (x_expm1 M (B754_infinity true)) = true /\ B2R (x_expm1 M (B754_infinity true)) = -1;
  ax_ln1p : forall x, is_finite x = true -> -1 < B2R x <= 0 -> is_finite (x_ln1p M x) = true /\ Rabs (B2R (x_ln1p M x) - ln (1 + B2R x)) <= / 2 ^ 51 * Rabs (ln (1 + B2R x));
  ax_atan : forall x, is_finite x = true -> is_finite (x_atan M x) = true /\ Rabs (B2R (x_atan M x)) <= B2R dpi / 2 /\ Rabs (B2R (x_atan M x) - atan (B2R x)) <= / 2 ^ 51;
  ax_atan_inf : forall s, is_finite (x_atan M (B754_infinity s)) = true /\ Rabs (B2R (x_atan M (B754_infinity s))) <= B2R dpi / 2 /\ Rabs (B2R (x_atan M (B754_infinity s)) - (if s then - (PI / 2) else PI / 2)) <= / 2 ^ 51;
  ax_pow_le1 : forall x y, is_finite x = true -> is_finite y = true -> 1 <= B2R x -> B2R y <= 0 -> B2R (m_pow (x_base M) x y) <= 1;
  ax_pow_small : forall x y, is_finite x = true -> is_finite y = true -> 0 < B2R x -> B2R y * ln (B2R x) < - 400 -> is_finite (m_pow (x_base M) x y) = true /\ 0 <= B2R (m_pow (x_base M) x y) <= / 2 ^ 100;
  ax_pow_large : forall x y, is_finite x = true -> is_finite y = true -> 0 < B2R x -> 400 < B2R y * ln (B2R x) -> m_pow (x_base M) x y = B754_infinity false \/ is_finite (m_pow (x_base M) x y) = true /\ 2 ^ 100 <= B2R (m_pow (x_base M) x y);
  ax_pow_inf_neg : forall y, is_finite y = true -> B2R y < 0 -> is_finite (m_pow (x_base M) (B754_infinity false) y) = true /\ B2R (m_pow (x_base M) (B754_infinity false) y) = 0;
  ax_pow_inf_pos : forall y, is_finite y = true -> 0 < B2R y -> m_pow (x_base M) (B754_infinity false) y = B754_infinity false
}.

(** a and b whose difference cannot overflow *)
Definition position (x : double) : Prop := is_finite x = true /\ Rabs (B2R x) <= bpow radix2 1000.

(** the computed [y] is finite, in [0,1] and within [e] of [p] *)
Definition computes (y : double) (p e : R) : Prop := is_finite y = true /\ 0 <= B2R y <= 1 /\ Rabs (B2R y - p) <= e.
(** the computed [y] is finite and the distribution function [F] is within [e] of [p] there *)
Definition solves (y : double) (F : R -> R) (p e : R) : Prop := is_finite y = true /\ Rabs (F (B2R y) - p) <= e.
