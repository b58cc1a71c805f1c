(** The normal distribution function and the distributions built on it, in exact arithmetic.
    Simplifications as in ContModel.  std::erf and std::erfc are the exact functions.  The value of
    math::inv_Phi inside (0,1) is a parameter [inv]; the theorems take the exact inverse of Phi there
    (its evaluation by a rational approximation and Halley steps is modelled in InvPhiModel), its
    values at the ends and outside of [0,1] are those of the code.  Definitions only. *)
From Coq Require Import Reals.
From Coquelicot Require Import Coquelicot.
From Verif Require Import ContModel.
Local Open Scope R_scope.

(** std::erf, std::erfc (special_functions.hpp 52-53) *)
Definition erf (x : R) : R := 2 / sqrt PI * RInt (fun t => exp (- (t * t))) 0 x.
Definition erfc (x : R) : R := 1 - erf x.

(** Phi (special_functions.hpp 761-768) *)
Definition Phi (x : R) : R :=
  let x := x * (1 / sqrt 2) in
  if Rlt_dec x (- (6744897501960817 / 10000000000000000) * (1 / sqrt 2)) then 1 / 2 * erfc (- x)
  else if Rlt_dec (6744897501960817 / 10000000000000000 * (1 / sqrt 2)) x then 1 - 1 / 2 * erfc x
  else 1 / 2 + 1 / 2 * erf x.

(** inv_Phi (special_functions.hpp 827-839, 881-893) *)
Definition inv_Phi (inv : R -> R) (x : R) : xreal :=
  if Rlt_dec x 0 then NaN else if Rlt_dec 1 x then NaN
  else if Req_EM_T x 0 then NInf else if Req_EM_T x 1 then PInf else Fin (inv x).

(** x * s + m in extended arithmetic *)
Definition affine (v : xreal) (s m : R) : xreal :=
  match v with
  | Fin r => Fin (r * s + m)
  | PInf => if Rlt_dec 0 s then PInf else if Rlt_dec s 0 then NInf else NaN
  | NInf => if Rlt_dec 0 s then NInf else if Rlt_dec s 0 then PInf else NaN
  | NaN => NaN
  end.

(** normal_dist: pdf (156-160), cdf (163-167), icdf (170), operator() (129-131) calls icdf *)
Definition norm_pdf (mu sigma x : R) : R :=
  let t := x - mu in 1 / sqrt (2 * PI) / sigma * exp (t * t / (- (2) * sigma * sigma)).
Definition norm_cdf (mu sigma x : R) : R := Phi ((x - mu) / sigma).
Definition norm_icdf (inv : R -> R) (mu sigma x : R) : xreal := affine (inv_Phi inv x) sigma mu.
Definition norm_draw := norm_icdf.

(** lognormal_dist: pdf (155-161), cdf (164-170), icdf (173-185), operator() (128-130) calls icdf *)
Definition logn_pdf (mu sigma x : R) : R :=
  if Rle_dec x 0 then 0
  else let t := (ln x - mu) / sigma in 1 / sqrt (2 * PI) / (x * sigma) * exp (- t * t / 2).
Definition logn_cdf (mu sigma x : R) : R :=
  if Rle_dec x 0 then 0 else erfc (1 / sqrt 2 * (mu - ln x) / sigma) / 2.
Definition logn_icdf (inv : R -> R) (mu sigma x : R) : xreal :=
  dom_cc x (at_point 0 x (Fin 0) (at_point 1 x PInf (Fin (exp (inv x * sigma + mu))))).
Definition logn_draw := logn_icdf.

(** truncated_normal_dist: param_type (56-108).  [a], [b] may be infinite. *)
Record tn_param := TnParam { tn_mu : R; tn_sigma : R; tn_a : xreal; tn_b : xreal; tn_Phi_a : R; tn_Phi_b : R }.
(** Phi of (x - mu) / sigma for an extended x and sigma > 0 *)
Definition Phi_at (mu sigma : R) (x : xreal) : R :=
  match x with Fin x => Phi ((x - mu) / sigma) | PInf => 1 | _ => 0 end.
(** param_type(mu, sigma, a, b) (105-108) with update_Phi (62-71) *)
Definition tn_make (mu sigma : R) (a b : xreal) : tn_param :=
  TnParam mu sigma a b (match a with NInf => 0 | _ => Phi_at mu sigma a end)
                       (match b with PInf => 1 | _ => Phi_at mu sigma b end).
(** truncated_normal_dist: pdf (202-207), cdf (210-214), icdf (217-221), operator() (167-169) *)
Definition tn_pdf (P : tn_param) (x : R) : R :=
  let x := (x - tn_mu P) / tn_sigma P in
  1 / sqrt (2 * PI) / tn_sigma P * exp (- x * x / 2) / (tn_Phi_b P - tn_Phi_a P).
Definition tn_cdf (P : tn_param) (x : R) : R :=
  let x := (x - tn_mu P) / tn_sigma P in (Phi x - tn_Phi_a P) / (tn_Phi_b P - tn_Phi_a P).
Definition tn_icdf (inv : R -> R) (P : tn_param) (x : R) : xreal :=
  let x := x * (tn_Phi_b P - tn_Phi_a P) + tn_Phi_a P in affine (inv_Phi inv x) (tn_sigma P) (tn_mu P).
Definition tn_draw := tn_icdf.

(** maxwell_dist: pdf (143-148), cdf (151-155); icdf is an iteration, see NewtonModel *)
Definition max_pdf (theta x : R) : R :=
  let x2 := x * x in let t2 := theta * theta in
  sqrt (2 / PI) * x2 * exp (- x2 / (2 * t2)) / (t2 * theta).
Definition max_cdf (theta x : R) : R :=
  erf (x * (1 / sqrt 2) / theta) - sqrt (2 / PI) * x * exp (- x * x / (2 * theta * theta)) / theta.
