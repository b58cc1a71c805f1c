(** The evaluation of inv_Phi, inv_erf and inv_erfc by a rational approximation and Halley steps, in exact arithmetic.
    Simplifications: real numbers instead of floating-point numbers (no rounding, overflow or underflow); the constants
    sqrt_2pi, one_over_sqrt_2 and sqrt_pi_over_2 (constants.hpp 56-61, 75-80, 94-104) are the exact numbers; Phi, std::erf,
    std::erfc, std::sqrt, std::exp, std::log and std::log1p are the exact functions; errno is not modelled.  A division by zero
    is the outcome NaN, so that a theorem with a finite outcome excludes it.  Definitions only. *)
From Coq Require Import Reals ZArith List.
From Verif Require Import ContModel NormModel.
Import ListNotations.
Local Open Scope R_scope.

(** inv_Phi_traits (special_functions.hpp 789-824): the coefficients, here as decimal fractions n / 10^15 and n / 10^18 *)
Definition inv_a : list Z := [-39696830286653760; 220946098424520500; -275928510446968700; 138357751867269000; -30664798066147160; 2506628277459239]%Z.
Definition inv_b : list Z := [-54476098798224060; 161585836858040900; -155698979859886600; 66801311887719720; -13280681552885720]%Z.
Definition inv_c : list Z := [-7784894002430293; -322396458041136500; -2400758277161838000; -2549732539343734000; 4374664141464968000; 2938163982698783000]%Z.
Definition inv_d : list Z := [7784695709041462; 322467129070039800; 2445134137142996000; 3754408661907416000]%Z.
Definition coeff15 (l : list Z) (i : nat) : R := IZR (nth i l 0%Z) / 1000000000000000.
Definition coeff18 (l : list Z) (i : nat) : R := IZR (nth i l 0%Z) / 1000000000000000000.
Definition ca := coeff15 inv_a.
Definition cb := coeff15 inv_b.
Definition cc := coeff18 inv_c.
Definition cd := coeff18 inv_d.
Definition x_low : R := 2425 / 100000.
Definition x_high : R := 1 - 2425 / 100000.

Definition quotient (a b : R) : xreal := if Req_EM_T b 0 then NaN else Fin (a / b).

(** inv_Phi_approx (special_functions.hpp 826-878) *)
Definition tail_num (q : R) : R := ((((cc 0 * q + cc 1) * q + cc 2) * q + cc 3) * q + cc 4) * q + cc 5.
Definition tail_den (q : R) : R := (((cd 0 * q + cd 1) * q + cd 2) * q + cd 3) * q + 1.
Definition central_num (r : R) : R := ((((ca 0 * r + ca 1) * r + ca 2) * r + ca 3) * r + ca 4) * r + ca 5.
Definition central_den (r : R) : R := ((((cb 0 * r + cb 1) * r + cb 2) * r + cb 3) * r + cb 4) * r + 1.
Definition inv_Phi_approx (x : R) : xreal :=
  if Rlt_dec x 0 then NaN else if Rlt_dec 1 x then NaN
  else if Req_EM_T x 0 then NInf else if Req_EM_T x 1 then PInf
  else if Rlt_dec x x_low then let q := sqrt (- (2) * ln x) in quotient (tail_num q) (tail_den q)
  else if Rlt_dec x x_high then let q := x - 1 / 2 in let r := q * q in quotient (central_num r * q) (central_den r)
  else let q := sqrt (- (2) * ln (1 + - x)) in quotient (- tail_num q) (tail_den q).

(** y - a / b *)
Definition minus_quotient (y a b : R) : xreal := match quotient a b with Fin v => Fin (y - v) | v => v end.
Definition if_finite (y : xreal) (f : R -> xreal) : xreal := match y with Fin y => f y | y => y end.

(** inv_Phi (special_functions.hpp 880-911): one step, and a second one for types of more than 10 bytes ([wide]) *)
Definition halley_Phi (x y : R) : xreal :=
  let e := Phi y - x in let u := e * sqrt (2 * PI) * exp (y * y * (1 / 2)) in minus_quotient y u (1 + y * u * (1 / 2)).
Definition inv_Phi_alg (wide : bool) (x : R) : xreal :=
  let y := if_finite (inv_Phi_approx x) (halley_Phi x) in if wide then if_finite y (halley_Phi x) else y.

(** inv_erf (special_functions.hpp 913-943) *)
Definition scale (y : xreal) (s : R) : xreal :=
  match y with Fin y => Fin (y * s) | PInf => if Rlt_dec 0 s then PInf else NInf | NInf => if Rlt_dec 0 s then NInf else PInf | NaN => NaN end.
Definition halley_erf (x y : R) : xreal :=
  let e := erf y - x in let u := e * (sqrt PI / 2) * exp (y * y) in minus_quotient y u (1 + y * u).
Definition inv_erf_alg (wide : bool) (x : R) : xreal :=
  let y := scale (inv_Phi_approx ((x + 1) / 2)) (1 / sqrt 2) in
  let y := if_finite y (halley_erf x) in if wide then if_finite y (halley_erf x) else y.

(** inv_erfc (special_functions.hpp 945-981) *)
Definition halley_erfc (x y : R) : xreal :=
  let e := erfc y - x in let u := - e * (sqrt PI / 2) * exp (y * y) in minus_quotient y u (1 + y * u).
Definition neg (y : xreal) : xreal := match y with Fin y => Fin (- y) | PInf => NInf | NInf => PInf | NaN => NaN end.
Definition inv_erfc_alg (wide : bool) (x : R) : xreal :=
  let flag := if Rlt_dec 1 x then true else false in
  let x := if flag then - (x - 1) + 1 else x in
  let y := scale (neg (inv_Phi_approx (x / 2))) (1 / sqrt 2) in
  let y := if_finite y (halley_erfc x) in
  let y := if wide then if_finite y (halley_erfc x) else y in
  if flag then neg y else y.
