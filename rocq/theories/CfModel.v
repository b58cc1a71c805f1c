(** Continued fraction of the upper incomplete gamma function (special_functions.hpp 252-280), over the reals.
    Definitions only.  Rounding is not modelled.  GammaP and GammaQ call it with x >= a + 1 only (426-427, 432, 449,
    454), so x + 1 - a is not 0. *)
From Coq Require Import Reals ZArith Bool.
From Verif Require Import ContModel GamModel SeriesModel.
Local Open Scope R_scope.

(** min{4 * numeric_limits<T>::min()} (255) *)
Definition cf_min : R := 4 * / 2 ^ 1022.
(** the tests [if (abs(di) < min) di = min;] (263-264, 266-267) *)
Definition cf_guard (y : R) : R := if Rlt_dec (Rabs y) cf_min then cf_min else y.
(** the do-while loop (258-271); [k] is the number of iterations that are still allowed (i < itmax, 253, 271) *)
Fixpoint cf_loop (k : nat) (a bi ci di h i : R) : R :=
  match k with
  | O => h
  | S k =>
      let i := i + 1 in
      let ai := - i * (i - a) in
      let bi := bi + 2 in
      let di := cf_guard (ai * di + bi) in
      let ci := cf_guard (bi + ai / ci) in
      let di := 1 / di in
      let del := di * ci in
      let h := h * del in
      if Rlt_dec eps4 (Rabs (del - 1)) then cf_loop k a bi ci di h i else h
  end.
(** GammaQ_cf (252-280) *)
Definition GammaQ_cf (by_Gamma_a : bool) (a x : R) : R :=
  let bi := x + 1 - a in
  let h := cf_loop itmax a bi (1 / cf_min) (1 / bi) (1 / bi) 0 in
  if by_Gamma_a then exp (- x + a * ln x - lgamma a) * h else exp (- x + a * ln x) * h.
