(** Continuous distributions with closed formulas, in exact arithmetic on the real numbers.
    Simplifications: result_type is R (rounding, overflow and signed zeros are not modelled); math::exp,
    ln, sqrt, cos, sin, atan, pow and the constants are the exact mathematical functions and numbers;
    errno is not modelled.  A function that can return NaN or an infinity returns an [xreal].
    The argument [u] of a draw is the uniform variate.  Definitions only. *)
From Coq Require Import Reals.
Local Open Scope R_scope.

Inductive xreal := Fin (r : R) | PInf | NInf | NaN.

(** the domain checks at the start of icdf *)
Definition dom_cc (x : R) (v : xreal) : xreal :=   (* if (x < 0 or x > 1) return NaN *)
  if Rlt_dec x 0 then NaN else if Rlt_dec 1 x then NaN else v.
Definition dom_co (x : R) (v : xreal) : xreal :=   (* if (x < 0 or x >= 1) return NaN *)
  if Rlt_dec x 0 then NaN else if Rle_dec 1 x then NaN else v.
Definition dom_oo (x : R) (v : xreal) : xreal :=   (* if (x <= 0 or x >= 1) return NaN *)
  if Rle_dec x 0 then NaN else if Rle_dec 1 x then NaN else v.
(** if (x == a) return v; *)
Definition at_point (a x : R) (v w : xreal) : xreal := if Req_EM_T x a then v else w.

(** math::pow for x > 0, and for x = 0, y > 0 *)
Definition rpow (x y : R) : R := if Req_EM_T x 0 then 0 else Rpower x y.

(** uniform01_dist: operator() (103-105), pdf (122-126), cdf (129-135), icdf (138-146) *)
Definition u01_draw (u : R) : R := u.
Definition u01_pdf (x : R) : R := if Rlt_dec x 0 then 0 else if Rle_dec 1 x then 0 else 1.
Definition u01_cdf (x : R) : R := if Rlt_dec x 0 then 0 else if Rle_dec 1 x then 1 else x.
Definition u01_icdf (x : R) : xreal := dom_cc x (Fin x).

(** uniform_dist: d = b - a (78), operator() (133-135), pdf (160-164), cdf (167-173), icdf (176-184) *)
Definition uni_draw (a b u : R) : R := (b - a) * u + a.
Definition uni_pdf (a b x : R) : R := if Rlt_dec x a then 0 else if Rle_dec b x then 0 else 1 / (b - a).
Definition uni_cdf (a b x : R) : R :=
  if Rlt_dec x a then 0 else if Rle_dec b x then 1 else (x - a) / (b - a).
Definition uni_icdf (a b x : R) : xreal := dom_cc x (Fin (x * (b - a) + a)).

(** exponential_dist: operator() (122-124), pdf (145), cdf (148), icdf (151-161) *)
Definition expo_draw (mu u : R) : R := - mu * ln u.
Definition expo_pdf (mu x : R) : R := if Rlt_dec x 0 then 0 else exp (- x / mu) / mu.
Definition expo_cdf (mu x : R) : R := if Rle_dec x 0 then 0 else 1 - exp (- x / mu).
Definition expo_icdf (mu x : R) : xreal :=
  dom_cc x (at_point 1 x PInf (Fin (- mu * ln (1 - x)))).

(** twosided_exponential_dist: pdf (146-148), cdf (151-153), icdf (156-169), operator() (123-125) calls icdf *)
Definition two_pdf (mu x : R) : R := exp (- Rabs x / mu) / (2 * mu).
Definition two_cdf (mu x : R) : R := if Rle_dec x 0 then exp (x / mu) / 2 else 1 - exp (- x / mu) / 2.
Definition two_icdf (mu x : R) : xreal :=
  dom_cc x (at_point 1 x PInf (at_point 0 x NInf
    (Fin (if Rlt_dec x (1 / 2) then mu * ln (2 * x) else - mu * ln (2 - 2 * x))))).
Definition two_draw (mu u : R) : xreal := two_icdf mu u.

(** pareto_dist: operator() (128-130), pdf (155-159), cdf (161-165), icdf (167-179) *)
Definition par_draw (gamma theta u : R) : R := (Rpower u (- 1 / gamma) - 1) * theta.
Definition par_pdf (gamma theta x : R) : R :=
  if Rlt_dec x 0 then 0 else gamma / theta * Rpower (1 + x / theta) (- gamma - 1).
Definition par_cdf (gamma theta x : R) : R :=
  if Rle_dec x 0 then 0 else 1 - Rpower (1 + x / theta) (- gamma).
Definition par_icdf (gamma theta x : R) : xreal :=
  dom_oo x (at_point 0 x (Fin 0) (at_point 1 x PInf (Fin ((Rpower (1 - x) (- 1 / gamma) - 1) * theta)))).

(** powerlaw_dist: operator() (128-130), min (138), pdf (155-159), cdf (162-166), icdf (169-181) *)
Definition pow_draw (gamma theta u : R) : R := theta * Rpower u (- 1 / gamma).
Definition pow_pdf (gamma theta x : R) : R :=
  if Rlt_dec x theta then 0 else gamma / theta * Rpower (x / theta) (- gamma - 1).
Definition pow_cdf (gamma theta x : R) : R :=
  if Rle_dec x 0 then 0 else 1 - Rpower (x / theta) (- gamma).
Definition pow_icdf (gamma theta x : R) : xreal :=
  dom_oo x (at_point 0 x (Fin theta) (at_point 1 x PInf (Fin (theta * Rpower (1 - x) (- 1 / gamma))))).

(** logistic_dist: icdf_ (117-119), operator() (132-134), pdf (159-163), cdf (166-169), icdf (172-184) *)
Definition log_icdf_ (theta eta x : R) : R := eta - ln ((1 - x) / x) * theta.
Definition log_draw (theta eta u : R) : R := log_icdf_ theta eta u.
Definition log_pdf (theta eta x : R) : R :=
  let t1 := exp (- Rabs ((x - eta) / theta)) in
  let t2 := 1 + t1 in
  t1 / (theta * t2 * t2).
Definition log_cdf (theta eta x : R) : R :=
  let t1 := exp (- Rabs ((x - eta) / theta)) in
  if Rle_dec eta x then 1 / (1 + t1) else t1 / (1 + t1).
Definition log_icdf (theta eta x : R) : xreal :=
  dom_cc x (at_point 0 x NInf (at_point 1 x PInf (Fin (log_icdf_ theta eta x)))).

(** tent_dist: icdf_ (116-119), operator() (132-134), min, max (142-144), pdf (159-164), cdf (167-176),
    icdf (179-187) *)
Definition tent_icdf_ (m d x : R) : R :=
  if Rlt_dec x (1 / 2) then (- 1 + sqrt (2 * x)) * d + m else (1 - sqrt (2 - 2 * x)) * d + m.
Definition tent_draw (m d u : R) : R := tent_icdf_ m d u.
Definition tent_pdf (m d x : R) : R :=
  let x := x - m in
  if Rle_dec x (- d) then 0 else if Rle_dec d x then 0
  else if Rlt_dec x 0 then (1 + x / d) / d else (1 - x / d) / d.
Definition tent_cdf (m d x : R) : R :=
  let x := x - m in
  if Rle_dec x (- d) then 0
  else if Rle_dec x 0 then (x + d) * (x + d) / (2 * d * d)
  else if Rlt_dec x d then 1 - (x - d) * (x - d) / (2 * d * d)
  else 1.
Definition tent_icdf (m d x : R) : xreal := dom_cc x (Fin (tent_icdf_ m d x)).

(** cauchy_dist: icdf_ (118-121), operator() (134-136), pdf (161-165), cdf (168-173), icdf (176-188) *)
Definition cau_icdf_ (theta eta x : R) : R :=
  let t := x * PI in eta - theta * cos t / sin t.
Definition cau_draw (theta eta u : R) : R := cau_icdf_ theta eta u.
Definition cau_pdf (theta eta x : R) : R :=
  let x := (x - eta) / theta in 1 / PI / (1 + x * x) / theta.
Definition cau_cdf (theta eta x : R) : R :=
  let x := (x - eta) / theta in 1 / PI * atan x + 1 / 2.
Definition cau_icdf (theta eta x : R) : xreal :=
  dom_oo x (at_point 0 x NInf (at_point 1 x PInf (Fin (cau_icdf_ theta eta x)))).

(** weibull_dist: operator() (127-129), pdf (154-169), cdf (172-177), icdf (180-188);
    expm1(x) = exp(x) - 1, ln1p(x) = ln(1 + x) *)
Definition wei_draw (theta beta u : R) : R := theta * rpow (- ln u) (1 / beta).
Definition wei_pdf (theta beta x : R) : xreal :=
  if Rlt_dec x 0 then Fin 0
  else
    let x := x / theta in
    if Rlt_dec 0 x then
      let t1 := Rpower x beta in
      let t2 := t1 / x in
      Fin (beta / theta * t2 * exp (- t1))
    else if Req_EM_T beta 1 then Fin (1 / theta)
    else if Rlt_dec 1 beta then Fin 0
    else NaN.
Definition wei_cdf (theta beta x : R) : R :=
  let x := x / theta in
  if Rle_dec x 0 then 0 else - (exp (- Rpower x beta) - 1).
Definition wei_icdf (theta beta x : R) : xreal :=
  dom_co x (Fin (theta * rpow (- ln (1 + - x)) (1 / beta))).

(** rayleigh_dist: pdf (145-150), cdf (153-157), icdf (160-168), operator() (122-124) calls icdf;
    icdf(1) evaluates sqrt(-2 * ln(0)) = +inf *)
Definition ray_pdf (nu x : R) : R :=
  if Rle_dec x 0 then 0 else let t := x / (nu * nu) in t * exp (- t * x / 2).
Definition ray_cdf (nu x : R) : R :=
  if Rle_dec x 0 then 0 else 1 - exp (- x * x / (2 * nu * nu)).
Definition ray_icdf (nu x : R) : xreal :=
  dom_cc x (at_point 1 x PInf (Fin (nu * sqrt (- 2 * ln (1 - x))))).
Definition ray_draw (nu u : R) : xreal := ray_icdf nu u.

(** extreme_value_dist: operator() (126-128), pdf (153-157), cdf (160-164), icdf (167-179) *)
Definition ext_draw (theta eta u : R) : R := eta + theta * ln (- ln u).
Definition ext_pdf (theta eta x : R) : R :=
  let x := (x - eta) / theta in exp (x - exp x) / theta.
Definition ext_cdf (theta eta x : R) : R :=
  let x := (x - eta) / theta in 1 - exp (- exp x).
Definition ext_icdf (theta eta x : R) : xreal :=
  dom_oo x (at_point 0 x NInf (at_point 1 x PInf (Fin (eta + theta * ln (- ln (1 - x)))))).
