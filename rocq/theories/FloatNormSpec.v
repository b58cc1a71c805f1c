(** Specification for pdf and cdf of the normal, lognormal and Maxwell distributions in double. *)
From Coq Require Import ZArith Bool Reals.
From Coquelicot Require Import Coquelicot.
From Flocq Require Import Core IEEE754.BinarySingleNaN.
From Verif Require Import UniformModel FloatDrawModel FloatDrawSpec FloatCdfModel FloatCdfSpec FloatPdfSpec FloatNormModel.
Open Scope R_scope.

(** ** Densities and distribution functions *)
Definition gauss_density (z : R) : R := exp (- (z * z / 2)) / sqrt (2 * PI).
Definition gauss_cdf (z : R) : R := / 2 + RInt gauss_density 0 z.
Definition f_normal (mu sigma x : R) : R := gauss_density ((x - mu) / sigma) / sigma.
Definition F_normal (mu sigma x : R) : R := gauss_cdf ((x - mu) / sigma).
Definition f_lognormal (mu sigma x : R) : R := if Rle_dec x 0 then 0 else gauss_density ((ln x - mu) / sigma) / (x * sigma).
Definition F_lognormal (mu sigma x : R) : R := if Rle_dec x 0 then 0 else gauss_cdf ((ln x - mu) / sigma).
Definition f_maxwell (theta x : R) : R := sqrt (2 / PI) * (x / theta) ^ 2 * exp (- ((x / theta) ^ 2 / 2)) / theta.
Definition F_maxwell (theta x : R) : R := RInt (f_maxwell theta) 0 x.

(** ** The error function and its assumed accuracy: two units in the last place of 1, results do not
    leave [-1,1] or [0,2], and the limits at infinity *)
Definition error_function (x : R) : R := 2 / sqrt PI * RInt (fun t => exp (- (t * t))) 0 x.
Record accurate_e (N : libme) : Prop := {
  ae_base : accurate_x (e_base N);
  ae_erf : forall x, is_finite x = true -> is_finite (e_erf N x) = true /\ -1 <= B2R (e_erf N x) <= 1 /\ Rabs (B2R (e_erf N x) - error_function (B2R x)) <= / 2 ^ 51;
  ae_erf_inf : forall s, is_finite (e_erf N (B754_infinity s)) = true /\ B2R (e_erf N (B754_infinity s)) = if s then -1 else 1;
  ae_erfc : forall x, is_finite x = true -> is_finite (e_erfc N x) = true /\ 0 <= B2R (e_erfc N x) <= 2 /\ Rabs (B2R (e_erfc N x) - (1 - error_function (B2R x))) <= / 2 ^ 51;
  ae_erfc_inf : forall s, is_finite (e_erfc N (B754_infinity s)) = true /\ B2R (e_erfc N (B754_infinity s)) = if s then 2 else 0
}.

(** the computed [y] is finite and within [e] of [p] *)
Definition near (y : double) (p e : R) : Prop := is_finite y = true /\ Rabs (B2R y - p) <= e.

(** relative accuracy of erfc on [0,22] *)
Definition tail_accurate (N : libme) : Prop := forall x, is_finite x = true -> 0 <= B2R x <= 22 ->
  Rabs (B2R (e_erfc N x) - (1 - error_function (B2R x))) <= / 2 ^ 51 * (1 - error_function (B2R x)).
