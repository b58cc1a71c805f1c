(** Specification for truncated_normal_dist in double. *)
From Coq Require Import ZArith Bool Reals.
From Flocq Require Import Core IEEE754.BinarySingleNaN.
From Verif Require Import UniformModel FloatDrawModel FloatNormSpec.
Open Scope R_scope.

(** the bounds: finite, or minus infinity below and plus infinity above *)
Definition lower_bound (a : double) : Prop := is_finite a = true \/ a = B754_infinity true.
Definition upper_bound (b : double) : Prop := is_finite b = true \/ b = B754_infinity false.
(** probability of the normal distribution below a bound *)
Definition F_below (mu sigma : R) (a : double) : R :=
  match a with B754_infinity true => 0 | B754_infinity false => 1 | _ => F_normal mu sigma (B2R a) end.
Definition bound_le (a b : double) : Prop :=
  match a, b with B754_infinity true, _ | _, B754_infinity false => True | _, _ => B2R a <= B2R b end.
(** probability of the interval, distribution function and density inside it *)
Definition mass (mu sigma : R) (a b : double) : R := F_below mu sigma b - F_below mu sigma a.
Definition F_truncated (mu sigma : R) (a b : double) (x : R) : R := (F_normal mu sigma x - F_below mu sigma a) / mass mu sigma a b.
Definition f_truncated (mu sigma : R) (a b : double) (x : R) : R := f_normal mu sigma x / mass mu sigma a b.
