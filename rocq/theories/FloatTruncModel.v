(** Model of pdf and cdf of truncated_normal_dist in IEEE double, on top of FloatNormModel.v.
    Definitions only. *)
From Coq Require Import ZArith Bool.
From Flocq Require Import Core.Zaux IEEE754.BinarySingleNaN.
From Verif Require Import UniformModel FloatDrawModel FloatCdfModel FloatNormModel.
Open Scope Z_scope.

Section Functions.
Variable N : libme.
Let M := e_base N.

(** param_type::update_Phi (truncated_normal_dist.hpp 62-71) *)
Definition trunc_Phi_a (mu sigma a : double) : double :=
  if Bltb (B754_infinity true) a then fPhi N (ddiv (dsub a mu) sigma) else dint 0.
Definition trunc_Phi_b (mu sigma b : double) : double :=
  if Bltb b (B754_infinity false) then fPhi N (ddiv (dsub b mu) sigma) else dint 1.

(** pdf, cdf (truncated_normal_dist.hpp 202-207, 210-214) *)
Definition trunc_fpdf (mu sigma a b x : double) : double :=
  let x := ddiv (dsub x mu) sigma in
  ddiv (dmul (ddiv dinvsqrt2pi sigma) (x_exp M (ddiv (dmul (dopp x) x) (dint 2))))
       (dsub (trunc_Phi_b mu sigma b) (trunc_Phi_a mu sigma a)).
Definition trunc_fcdf (mu sigma a b x : double) : double :=
  let x := ddiv (dsub x mu) sigma in
  ddiv (dsub (fPhi N x) (trunc_Phi_a mu sigma a)) (dsub (trunc_Phi_b mu sigma b) (trunc_Phi_a mu sigma a)).
End Functions.
