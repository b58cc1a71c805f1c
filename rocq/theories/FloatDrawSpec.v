(** Specification for the draws in double: the assumptions on the C++ mathematical library and on
    the parameters, the textbook distribution functions, and what it means to follow them. *)
From Coq Require Import ZArith Bool List Reals.
From Flocq Require Import Core IEEE754.BinarySingleNaN.
From Verif Require Import UniformModel FloatDrawModel.
Open Scope R_scope.

(** a relative error of at most 2^-51 (two units in the last place) for log, for pow with results
    between e^-400 and e^400 and for sin between 2^-52 and the double next to pi; an absolute error
    of at most 2^-52 for cos there; pow does not fall below 1 when the exact power does not; powers
    of zero with a positive exponent are zero *)
Record accurate (L : libm) : Prop := {
  acc_ln : forall x, is_finite x = true -> 0 < B2R x -> is_finite (m_ln L x) = true /\ Rabs (B2R (m_ln L x) - ln (B2R x)) <= / 2 ^ 51 * Rabs (ln (B2R x));
  acc_pow : forall x y, is_finite x = true -> is_finite y = true -> 0 < B2R x -> Rabs (B2R y * ln (B2R x)) <= 400 ->
    is_finite (m_pow L x y) = true /\ Rabs (B2R (m_pow L x y) - Rpower (B2R x) (B2R y)) <= / 2 ^ 51 * Rpower (B2R x) (B2R y);
  acc_pow_1 : forall x y, is_finite x = true -> is_finite y = true -> 0 < B2R x -> 0 <= B2R y * ln (B2R x) <= 400 -> 1 <= B2R (m_pow L x y);
  acc_pow_0 : forall x y, is_finite x = true -> is_finite y = true -> B2R x = 0 -> 0 < B2R y -> is_finite (m_pow L x y) = true /\ B2R (m_pow L x y) = 0;
  acc_cos : forall x, is_finite x = true -> / 2 ^ 52 <= B2R x <= 7074237752028440 / 2251799813685248 -> is_finite (m_cos L x) = true /\ Rabs (B2R (m_cos L x) - cos (B2R x)) <= / 2 ^ 52;
  acc_sin : forall x, is_finite x = true -> / 2 ^ 52 <= B2R x <= 7074237752028440 / 2251799813685248 -> is_finite (m_sin L x) = true /\ Rabs (B2R (m_sin L x) - sin (B2R x)) <= / 2 ^ 51 * Rabs (sin (B2R x))
}.
(** moderate parameters *)
Definition scale (x : double) : Prop := is_finite x = true /\ bpow radix2 (-300) <= B2R x <= bpow radix2 300.
Definition location (x : double) : Prop := is_finite x = true /\ Rabs (B2R x) <= bpow radix2 300.
Definition shape (x : double) : Prop := is_finite x = true /\ / 8 <= B2R x <= 2 ^ 20.

(** ** Distribution functions *)
Definition F_exponential (mu x : R) : R := if Rle_dec x 0 then 0 else 1 - exp (- (x / mu)).
Definition F_twosided (mu x : R) : R := if Rle_dec x 0 then exp (x / mu) / 2 else 1 - exp (- (x / mu)) / 2.
Definition tent_F (z : R) : R := if Rle_dec z (-1) then 0 else if Rle_dec z 0 then (1 + z) * (1 + z) / 2 else if Rle_dec z 1 then 1 - (1 - z) * (1 - z) / 2 else 1.
Definition F_tent (m d x : R) : R := tent_F ((x - m) / d).
Definition F_weibull (theta beta x : R) : R := if Rle_dec x 0 then 0 else 1 - exp (- Rpower (x / theta) beta).
Definition F_rayleigh (nu x : R) : R := if Rle_dec x 0 then 0 else 1 - exp (- ((x / nu) * (x / nu) / 2)).
Definition F_pareto (gamma theta x : R) : R := if Rle_dec x 0 then 0 else 1 - Rpower (1 + x / theta) (- gamma).
Definition F_powerlaw (gamma theta x : R) : R := if Rle_dec x theta then 0 else 1 - Rpower (x / theta) (- gamma).
Definition F_cauchy (theta eta x : R) : R := / 2 + atan ((x - eta) / theta) / PI.
Definition F_logistic (theta eta x : R) : R := / (1 + exp (- ((x - eta) / theta))).
Definition F_extreme (theta eta x : R) : R := 1 - exp (- exp ((x - eta) / theta)).

(** ** Following a distribution *)
(** every draw is finite, and a point where the distribution function takes the value [u r] up to [e] *)
Definition inverts (draw : Z -> double) (D : Z) (u : Z -> R) (F : R -> R) (e : R) : Prop :=
  forall r, (0 <= r <= D)%Z -> is_finite (draw r) = true /\ Rabs (F (B2R (draw r)) - u r) <= e.
(** the Kolmogorov distance between the draws from D + 1 equally likely outputs and [F] is at most [e] *)
Definition samples (draw : Z -> double) (D : Z) (F : R -> R) (e : R) : Prop :=
  forall t, exists l : list Z, NoDup l /\ (forall r, In r l <-> (0 <= r <= D)%Z /\ B2R (draw r) <= t) /\ Rabs (INR (length l) / (IZR D + 1) - F t) <= e.
Definition in_range (draw : Z -> double) (D : Z) (P : R -> Prop) : Prop := forall r, (0 <= r <= D)%Z -> P (B2R (draw r)).
