(** Gamma and Beta functions and the distributions built on them, in exact arithmetic.
    Simplifications as in ContModel.  std::tgamma and std::lgamma are the exact functions (positive
    arguments).  math::GammaP and math::Beta_I are the exact integrals here; the series, continued fraction
    and asymptotic expansion that evaluate them are the subject of SeriesModel.  The values of
    math::inv_GammaP and math::inv_Beta_I inside (0,1) are a parameter [inv] (the numerical iteration is
    in NewtonModel); the cut-offs of inv_Beta_I near 0 and 1 are those of the code.  Definitions only. *)
From Coq Require Import Reals ZArith.
From Coquelicot Require Import Coquelicot.
From Verif Require Import ContModel.
Local Open Scope R_scope.

(** ** Extended arithmetic *)

Definition xdiv (a b : R) : xreal :=
  if Req_EM_T b 0 then (if Rlt_dec 0 a then PInf else if Rlt_dec a 0 then NInf else NaN) else Fin (a / b).
Definition xln (x : R) : xreal :=
  if Rlt_dec x 0 then NaN else if Req_EM_T x 0 then NInf else Fin (ln x).
Definition xscale (c : R) (v : xreal) : xreal :=
  match v with
  | Fin r => Fin (c * r)
  | PInf => if Rlt_dec 0 c then PInf else if Rlt_dec c 0 then NInf else NaN
  | NInf => if Rlt_dec 0 c then NInf else if Rlt_dec c 0 then PInf else NaN
  | NaN => NaN
  end.
Definition xshift (v : xreal) (c : R) : xreal := match v with Fin r => Fin (r + c) | _ => v end.
Definition xexp (v : xreal) : xreal := match v with Fin r => Fin (exp r) | NInf => Fin 0 | _ => v end.
Definition xadd (v w : xreal) : xreal :=
  match v, w with
  | Fin r, Fin s => Fin (r + s)
  | NaN, _ | _, NaN | PInf, NInf | NInf, PInf => NaN
  | PInf, _ | _, PInf => PInf
  | NInf, _ | _, NInf => NInf
  end.
(** std::pow of a non-negative base *)
Definition xpow (x y : R) : xreal :=
  if Req_EM_T x 0 then (if Rlt_dec y 0 then PInf else if Req_EM_T y 0 then Fin 1 else Fin 0) else Fin (Rpower x y).

(** ** Special functions *)

(** std::tgamma (special_functions.hpp 122-124): the limit of integrals over [1/(n+1), n+1] *)
Definition tgamma (a : R) : R :=
  real (Lim_seq (fun n => RInt (fun t => exp (- t) * Rpower t (a - 1)) (/ (INR n + 1)) (INR n + 1))).
(** std::lgamma (104-106) *)
Definition lgamma (a : R) : R := ln (tgamma a).

(** ln of numeric_limits<double>::max() *)
Definition ln_max : R := ln ((2 ^ 53 - 1) * 2 ^ 971).
(** Beta (137-150) *)
Definition Beta (x y : R) : xreal :=
  if Rle_dec x 0 then NaN else if Rle_dec y 0 then NaN
  else
    let z := x + y in
    if Rlt_dec ln_max (z * ln z - z) then Fin (exp (lgamma x + lgamma y - lgamma z))
    else Fin (tgamma x / tgamma z * tgamma y).
(** ln_binomial (177-179) *)
Definition ln_binomial (n m : R) : R := lgamma (n + 1) - lgamma (m + 1) - lgamma (n - m + 1).
(** Pochhammer (195-197) *)
Definition Pochhammer (x a : R) : R := exp (lgamma (x + a) - lgamma x).

(** the value computed by GammaP<double, false> for a > 0: the integral up to x *)
Definition inc_gamma (a x : R) : R :=
  if Rle_dec x 0 then 0
  else real (Lim_seq (fun n => RInt (fun t => exp (- t) * Rpower t (a - 1)) (/ (INR n + 1)) x)).
(** the value computed by GammaP<double, true> for a > 0 *)
Definition GammaP (a x : R) : R := inc_gamma a x / tgamma a.

(** the integral of t^(p-1) (1-t)^(q-1) up to x *)
Definition inc_beta (p q x : R) : R :=
  if Rle_dec x 0 then 0
  else real (Lim_seq (fun n => RInt (fun t => Rpower t (p - 1) * Rpower (1 - t) (q - 1))
                                    (/ (INR n + 2)) (Rmin x (1 - / (INR n + 2))))).
(** Beta_I (602-608): the guards; then the integral over [norm] *)
Definition Beta_I (x : xreal) (p q : R) (norm : xreal) : xreal :=
  match x, norm with
  | Fin x, Fin b =>
      if Rle_dec p 0 then NaN else if Rle_dec q 0 then NaN else if Rlt_dec x 0 then NaN else if Rlt_dec 1 x then NaN
      else Fin (inc_beta p q x / b)
  | _, _ => NaN
  end.
(** numeric_limits<double>::epsilon() *)
Definition epsilon : R := / 2 ^ 52.
(** inv_Beta_I (679-683) *)
Definition inv_Beta_I (inv : R -> R -> R -> R) (x p q : R) : R :=
  if Rlt_dec x epsilon then 0 else if Rlt_dec (1 - x) epsilon then 1 else inv p q x.

(** ** gamma_dist: icdf_ (120-122), operator() (135-137), pdf (162-168), cdf (171-175), icdf (178-190) *)
Definition gam_icdf_ (inv : R -> R -> R) (kappa theta x : R) : R := inv kappa x * theta.
Definition gam_draw (inv : R -> R -> R) (kappa theta u : R) : xreal := Fin (gam_icdf_ inv kappa theta u).
Definition gam_pdf (kappa theta x : R) : xreal :=
  if Rlt_dec x 0 then Fin 0
  else
    let x := x / theta in
    match xexp (xshift (xshift (xscale (kappa - 1) (xln x)) (- x)) (- lgamma kappa)) with
    | Fin r => Fin (r / theta)
    | v => v
    end.
Definition gam_cdf (kappa theta x : R) : R :=
  if Rle_dec x 0 then 0 else GammaP kappa (x / theta).
Definition gam_icdf (inv : R -> R -> R) (kappa theta x : R) : xreal :=
  dom_oo x (at_point 0 x (Fin 0) (at_point 1 x PInf (Fin (gam_icdf_ inv kappa theta x)))).

(** ** chi_square_dist: icdf_ (114-116), operator() (129-131), pdf (152-158), cdf (161-165), icdf (168-180) *)
Definition chi_icdf_ (inv : R -> R -> R) (nu : Z) (x : R) : R := inv (IZR nu / 2) x * 2.
Definition chi_draw (inv : R -> R -> R) (nu : Z) (u : R) : xreal := Fin (chi_icdf_ inv nu u).
Definition chi_pdf (nu : Z) (x : R) : xreal :=
  if Rlt_dec x 0 then Fin 0
  else
    let x := x / 2 in
    match xpow x (IZR nu / 2 - 1) with
    | Fin r => Fin (r / (exp (x + lgamma (IZR nu / 2)) * 2))
    | v => v
    end.
Definition chi_cdf (nu : Z) (x : R) : R := if Rle_dec x 0 then 0 else GammaP (IZR nu / 2) (x / 2).
Definition chi_icdf (inv : R -> R -> R) (nu : Z) (x : R) : xreal :=
  dom_oo x (at_point 0 x (Fin 0) (at_point 1 x PInf (Fin (chi_icdf_ inv nu x)))).

(** ** beta_dist: param_type (57-97), operator() (140-143), pdf (164-174), cdf (177-183), icdf (186-198) *)
Record bet_param := BetParam { bet_alpha : R; bet_beta : R; bet_norm : xreal }.
(** param_type(alpha, beta) (84) with the initialiser of norm_ (59) *)
Definition bet_make (alpha beta : R) : bet_param := BetParam alpha beta (Beta alpha beta).
(** param_type() (82, 59) *)
Definition bet_default : bet_param := BetParam 1 1 (Beta 1 1).
(** alpha(alpha_new) (73-76), beta(beta_new) (78-81) *)
Definition bet_set_alpha (P : bet_param) (a : R) : bet_param := BetParam a (bet_beta P) (Beta a (bet_beta P)).
Definition bet_set_beta (P : bet_param) (b : R) : bet_param := BetParam (bet_alpha P) b (Beta (bet_alpha P) b).
(** operator== (89-92) *)
Definition bet_eqb (P Q : bet_param) : bool := if Req_EM_T (bet_alpha P) (bet_alpha Q) then true else false.
Definition bet_draw (inv : R -> R -> R -> R) (P : bet_param) (u : R) : xreal :=
  Fin (inv_Beta_I inv u (bet_alpha P) (bet_beta P)).
Definition bet_pdf (P : bet_param) (x : R) : xreal :=
  if Rlt_dec x 0 then Fin 0 else if Rlt_dec 1 x then Fin 0
  else if (if Req_EM_T x 0 then if Rlt_dec (bet_alpha P - 1) 0 then true else false else false) then NaN
  else if (if Req_EM_T x 1 then if Rlt_dec (bet_beta P - 1) 0 then true else false else false) then NaN
  else match bet_norm P, xpow x (bet_alpha P - 1), xpow (1 - x) (bet_beta P - 1) with
       | Fin b, Fin r, Fin s => Fin (1 / b * r * s)
       | _, _, _ => NaN
       end.
Definition bet_cdf (P : bet_param) (x : R) : xreal :=
  if Rle_dec x 0 then Fin 0 else if Rle_dec 1 x then Fin 1
  else Beta_I (Fin x) (bet_alpha P) (bet_beta P) (bet_norm P).
Definition bet_icdf (inv : R -> R -> R -> R) (P : bet_param) (x : R) : xreal :=
  dom_cc x (at_point 0 x (Fin 0) (at_point 1 x (Fin 1) (Fin (inv_Beta_I inv x (bet_alpha P) (bet_beta P))))).

(** ** student_t_dist: icdf_ (113-117), operator() (130-132), pdf (153-158), cdf (161-165), icdf (168-180) *)
Definition stu_icdf_ (inv : R -> R -> R -> R) (nu : Z) (x : R) : xreal :=
  let t := inv_Beta_I inv x (IZR nu / 2) (IZR nu / 2) in
  match xdiv (IZR nu) (t * (1 - t)) with
  | Fin r => Fin (sqrt r * (t - 1 / 2))
  | v => xscale (t - 1 / 2) v
  end.
Definition stu_draw (inv : R -> R -> R -> R) (nu : Z) (u : R) : xreal := stu_icdf_ inv nu u.
(** P.nu() + 1 is computed in int: undefined for the largest int; [None] is undefined behaviour *)
Definition stu_pdf (nu : Z) (x : R) : option R :=
  if (nu + 1 <? 2 ^ 31)%Z then
    let norm := exp (lgamma (IZR (nu + 1) / 2) - lgamma (IZR nu / 2)) / sqrt (PI * IZR nu) in
    Some (norm * Rpower (1 + x * x / IZR nu) (IZR (nu + 1) / - (2)))
  else None.
Definition stu_cdf (nu : Z) (x : R) : xreal :=
  let t1 := sqrt (x * x + IZR nu) in
  let t2 := (x + t1) / (2 * t1) in
  Beta_I (Fin t2) (IZR nu / 2) (IZR nu / 2) (Beta (IZR nu / 2) (IZR nu / 2)).
Definition stu_icdf (inv : R -> R -> R -> R) (nu : Z) (x : R) : xreal :=
  dom_oo x (at_point 0 x NInf (at_point 1 x PInf (stu_icdf_ inv nu x))).

(** ** snedecor_f_dist: icdf_ (117-121), operator() (133-135), pdf (159-174), cdf (177-182), icdf (185-197) *)
Definition sne_icdf_ (inv : R -> R -> R -> R) (n m : Z) (x : R) : xreal :=
  let t := inv_Beta_I inv x (1 / 2 * IZR n) (1 / 2 * IZR m) in
  match xdiv t (1 - t) with
  | Fin r => Fin (r * IZR m / IZR n)
  | v => v
  end.
Definition sne_draw (inv : R -> R -> R -> R) (n m : Z) (u : R) : xreal := sne_icdf_ inv n m u.
Definition sne_pdf (n m : Z) (x : R) : xreal :=
  let n := IZR n in
  let m := IZR m in
  let s := xadd (Fin (1 / 2 * ln (n / m) * n)) (xscale (1 / 2 * n - 1) (xln x)) in
  let s := xadd s (xscale (- (1 / 2 * n + 1 / 2 * m)) (xln (1 + n * x / m))) in
  xexp (xshift (xshift (xshift s (- lgamma (1 / 2 * n))) (- lgamma (1 / 2 * m))) (lgamma (1 / 2 * (n + m)))).
Definition sne_cdf (n m : Z) (x : R) : xreal :=
  let n := IZR n in
  let m := IZR m in
  Beta_I (xdiv (n * x) (m + n * x)) (1 / 2 * n) (1 / 2 * m) (Beta (1 / 2 * n) (1 / 2 * m)).
Definition sne_icdf (inv : R -> R -> R -> R) (n m : Z) (x : R) : xreal :=
  dom_oo x (at_point 0 x (Fin 0) (at_point 1 x PInf (sne_icdf_ inv n m x))).
