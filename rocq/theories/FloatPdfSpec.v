(** Specification for pdf in double: the densities, what it means to compute one, and a further
    assumption on exp. *)
From Coq Require Import ZArith Bool Reals.
From Flocq Require Import Core IEEE754.BinarySingleNaN.
From Verif Require Import UniformModel FloatDrawModel FloatDrawSpec FloatCdfModel FloatCdfSpec.
Open Scope R_scope.

(** ** Densities *)
Definition f_exponential (mu x : R) : R := if Rlt_dec x 0 then 0 else exp (- (x / mu)) / mu.
Definition f_twosided (mu x : R) : R := exp (- (Rabs x / mu)) / (2 * mu).
Definition f_rayleigh (nu x : R) : R := if Rle_dec x 0 then 0 else x / (nu * nu) * exp (- ((x / nu) * (x / nu) / 2)).
Definition f_weibull (theta beta x : R) : R := if Rlt_dec x 0 then 0 else beta / theta * Rpower (x / theta) (beta - 1) * exp (- Rpower (x / theta) beta).
Definition f_pareto (gamma theta x : R) : R := if Rlt_dec x 0 then 0 else gamma / theta * Rpower (1 + x / theta) (- gamma - 1).
Definition f_powerlaw (gamma theta x : R) : R := if Rlt_dec x theta then 0 else gamma / theta * Rpower (x / theta) (- gamma - 1).
Definition f_cauchy (theta eta x : R) : R := let z := (x - eta) / theta in / (PI * (1 + z * z)) / theta.
Definition f_logistic (theta eta x : R) : R := let t := exp (- ((x - eta) / theta)) in t / (theta * ((1 + t) * (1 + t))).
Definition f_extreme (theta eta x : R) : R := let z := (x - eta) / theta in exp (z - exp z) / theta.
Definition f_tent (m d x : R) : R := if Rlt_dec (Rabs (x - m)) d then (1 - Rabs (x - m) / d) / d else 0.
Definition f_uniform (a b x : R) : R := if Rlt_dec x a then 0 else if Rlt_dec x b then / (b - a) else 0.

(** the computed [y] is finite, not negative and within [e] of [p] *)
Definition density (y : double) (p e : R) : Prop := is_finite y = true /\ 0 <= B2R y /\ Rabs (B2R y - p) <= e.

(** exp underflows to 0 from -750 on, overflows from 750 on and hands NaN on; pow overflows as well *)
Definition ends (M : libmx) : Prop :=
  (forall x, is_finite x = true -> B2R x <= -750 -> is_finite (x_exp M x) = true /\ B2R (x_exp M x) = 0) /\
  (forall x, is_finite x = true -> 750 <= B2R x -> x_exp M x = B754_infinity false) /\
  (forall x y, is_finite x = true -> is_finite y = true -> 0 < B2R x -> 750 <= B2R y * ln (B2R x) -> m_pow (x_base M) x y = B754_infinity false) /\
  x_exp M B754_nan = B754_nan.

(** exponents g for which g + 1 is a shape *)
Definition shape19 (g : double) : Prop := is_finite g = true /\ / 8 <= B2R g <= 2 ^ 19.
