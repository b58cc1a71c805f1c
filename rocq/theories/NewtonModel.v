(** The iterations that solve for quantiles: inv_GammaP (special_functions.hpp 534-574, Halley), inv_Beta_I
    (679-713, Newton) and maxwell_dist::icdf (maxwell_dist.hpp 158-180, Newton), over the reals.
    Definitions only.  Rounding is not modelled.  Each loop also says why it ended; that tag is not part of the
    value returned by the code. *)
From Coq Require Import Reals ZArith Bool.
From Flocq Require Import IEEE754.BinarySingleNaN.
From Verif Require UniformModel.
From Verif Require Import ContModel GamModel SeriesModel NormModel.
Local Open Scope R_scope.

(** why a loop ended: its tolerance was met, the argument was not positive, or all iterations were used *)
Inductive ending := Met | Zero | Limit.

(** ** inv_GammaP *)

(** eps{sqrt(numeric_limits<double>::epsilon())} (536) *)
Definition hal_eps : R := sqrt epsilon.
(** the density, t in lines 557-560, with a1, glna, lna1, afac (537-540) *)
Definition hal_density (a x : R) : R :=
  let a1 := a - 1 in
  let glna := lgamma a in
  let lna1 := ln a1 in
  let afac := exp (a1 * (lna1 - 1) - glna) in
  if Rlt_dec 1 a then afac * exp (- (x - a1) + a1 * (ln x - lna1)) else exp (- x + a1 * ln x - glna).
(** the initial guess (541-551); pow(b, 3.0) is the cube of b, whatever its sign *)
Definition hal_start (a p : R) : R :=
  if Rlt_dec 1 a then
    let pp := if Rlt_dec p (1 / 2) then p else 1 - p in
    let t := sqrt (- (2) * ln pp) in
    let x := (230753 / 100000 + t * (27061 / 100000)) / (1 + t * (99229 / 100000 + t * (4481 / 100000))) - t in
    let x := if Rlt_dec p (1 / 2) then - x else x in
    Rmax (1 / 1000) (a * (1 - 1 / (9 * a) - x / (3 * sqrt a)) ^ 3)
  else
    let t := 1 - a * (253 / 1000 + a * (12 / 100)) in
    if Rlt_dec p t then Rpower (p / t) (1 / a) else 1 - ln (1 + - (p - t) / (1 - t)).
(** lines 557-564: the step t and the new x, for a positive x; [gp] evaluates GammaP(a, x) *)
Definition hal_step (gp : R -> R) (a p x : R) : R * R :=
  let err := gp x - p in
  let u := err / hal_density a x in
  let t := u / (1 - Rmin 1 (u * ((a - 1) / x - 1)) / 2) in
  let x' := x - t in
  (t, if Rle_dec x' 0 then (x' + t) / 2 else x').
(** the loop (552-570); [k] iterations are left *)
Fixpoint hal_loop (k : nat) (gp : R -> R) (a p x : R) : ending * R :=
  match k with
  | O => (Limit, x)
  | S k =>
      if Rle_dec x 0 then (Zero, 0)
      else
        let (t, x') := hal_step gp a p x in
        if Rlt_dec (Rabs t) (hal_eps * x') then (Met, x') else hal_loop k gp a p x'
  end.
(** numeric_limits<double>::digits *)
Definition digits : nat := 53.
(** inv_GammaP (535-571) *)
Definition inv_GammaP_alg (gp : R -> R) (a p : R) : ending * R := hal_loop digits gp a p (hal_start a p).
(** GammaP<double, true>(a, x) of SeriesModel as a number (it is not NaN for the positive arguments used here) *)
Definition gp_series (cf : bool -> R -> R -> R) (asyP : R -> R -> R) (a x : R) : R :=
  match GammaP_alg cf asyP true a x with Fin r => r | _ => 0 end.

(** ** inv_Beta_I *)

(** the initial guess (685-700) *)
Definition new_start (x p q : R) : R :=
  if (if Rle_dec 1 (2 * p) then if Rle_dec 1 (2 * q) then true else false else false)
  then (3 * p - 1) / (3 * p + 3 * q - 2)
  else
    let lnp := ln (p / (p + q)) in
    let lnq := ln (q / (p + q)) in
    let t := exp (p * lnp) / p in
    let u := exp (q * lnq) / q in
    let w := t + u in
    if Rlt_dec x (t / w) then Rpower (p * w * x) (1 / p) else 1 - Rpower (q * w * (1 - x)) (1 / q).
(** df (703) *)
Definition new_slope (p q norm y : R) : R := Rpower (1 - y) (q - 1) * Rpower y (p - 1) / norm.
(** while (y - dy <= 0 or y - dy >= 1) dy *= 3/4 (708-709); [None]: not finished after [fuel] tests *)
Fixpoint new_shrink (fuel : nat) (y dy : R) : option R :=
  match fuel with
  | O => None
  | S fuel =>
      if (if Rle_dec (y - dy) 0 then true else if Rle_dec 1 (y - dy) then true else false)
      then new_shrink fuel y (dy * (3 / 4)) else Some dy
  end.
(** the loop (701-711); [bi] evaluates Beta_I(y, p, q, norm); the order of dy = f / df and of the test does not matter *)
Fixpoint new_loop (fuel k : nat) (bi : R -> R) (x p q norm y : R) : option (ending * R) :=
  match k with
  | O => Some (Limit, y)
  | S k =>
      let f := bi y - x in
      if Rlt_dec (Rabs (f / y)) (2 * epsilon) then Some (Met, y)
      else
        match new_shrink fuel y (f / new_slope p q norm y) with
        | Some dy => new_loop fuel k bi x p q norm (y - dy)
        | None => None
        end
  end.
(** inv_Beta_I (680-712) *)
Definition inv_Beta_I_alg (fuel : nat) (bi : R -> R) (x p q norm : R) : option (ending * R) :=
  if Rlt_dec x epsilon then Some (Met, 0)
  else if Rlt_dec (1 - x) epsilon then Some (Met, 1)
  else new_loop fuel digits bi x p q norm (new_start x p q).

(** inv_Beta_I with the functions of GamModel in place of Beta_I and Beta; [None] does not occur for 0 < p, 0 < q and
    enough fuel *)
Definition beta_val (p q : R) (y : R) : R := match Beta_I (Fin y) p q (Beta p q) with Fin r => r | _ => 0 end.
Definition norm_val (p q : R) : R := match Beta p q with Fin r => r | _ => 0 end.
Definition inv_newton (fuel : nat) (p q x : R) : R :=
  match inv_Beta_I_alg fuel (beta_val p q) x p q (norm_val p q) with Some (_, r) => r | None => 0 end.
(** inv_GammaP with the same for GammaP *)
Definition inv_halley (gp : R -> R -> R) (a p : R) : R := snd (inv_GammaP_alg (gp a) a p).

(** The same initial guess when std::pow underflows: a power below 2^-1075 is rounded to 0 *)
Definition underflow (r : R) : R := if Rlt_dec r (/ 2 ^ 1075) then 0 else r.
Definition new_start_double (x p q : R) : R :=
  let lnp := ln (p / (p + q)) in
  let lnq := ln (q / (p + q)) in
  let t := exp (p * lnp) / p in
  let u := exp (q * lnq) / q in
  let w := t + u in
  if Rlt_dec x (t / w) then underflow (Rpower (p * w * x) (1 / p)) else 1 - underflow (Rpower (q * w * (1 - x)) (1 / q)).
(** the first iteration (702-710) in binary64 arithmetic at y = 0 for p < 1: Beta_I(0) is 0, pow(1 - y, q - 1) is 1 and
    pow(y, p - 1) is infinity; [None]: the inner loop is not finished after [fuel] tests; [Some None]: break *)
Definition bf : Type := binary_float 53 1024.
Definition bf_of (m e : Z) : bf := binary_normalize 53 1024 eq_refl eq_refl mode_NE m e false.
Fixpoint new_shrink_double (fuel : nat) (y dy : bf) : option bf :=
  match fuel with
  | O => None
  | S fuel =>
      let d := Bminus mode_NE y dy in
      if (Bleb d (bf_of 0 0) || Bleb (bf_of 1 0) d)%bool then new_shrink_double fuel y (Bmult mode_NE dy (bf_of 3 (-2))) else Some dy
  end.
Definition new_first_double (fuel : nat) (x norm : bf) : option (option bf) :=
  let y := bf_of 0 0 in
  let f := Bminus mode_NE (bf_of 0 0) x in
  let df := Bdiv mode_NE (Bmult mode_NE (bf_of 1 0) (B754_infinity false)) norm in
  let dy := Bdiv mode_NE f df in
  if Bltb (Babs (Bdiv mode_NE f y)) (bf_of 1 (-51)) then Some None
  else match new_shrink_double fuel y dy with Some dy => Some (Some (Bminus mode_NE y dy)) | None => None end.

(** ** maxwell_dist::icdf (157-177) *)

(** y(2 * theta * sqrt_2_over_pi) (169) *)
Definition mxw_start (theta : R) : R := 2 * theta * sqrt (2 / PI).
(** the loop (170-175); the division by the density is not defined for y = 0 *)
Fixpoint mxw_loop (k : nat) (theta x y : R) : ending * R :=
  match k with
  | O => (Limit, y)
  | S k =>
      if Req_EM_T y 0 then (Zero, 0)
      else
        let y' := y - (max_cdf theta y - x) / max_pdf theta y in
        if Rlt_dec (Rabs (y' / y - 1)) (4 * epsilon) then (Met, y') else mxw_loop k theta x y'
  end.
(** digits + 2 iterations (170) *)
Definition mxw_iterate (theta x : R) : ending * R := mxw_loop 55 theta x (mxw_start theta).
Definition mxw_icdf (theta x : R) : xreal :=
  if Rlt_dec x 0 then NaN else if Rlt_dec 1 x then NaN
  else if Req_EM_T x 1 then PInf
  else if Req_EM_T x 0 then Fin 0
  else match mxw_iterate theta x with (Zero, _) => NaN | (_, y) => Fin y end.
