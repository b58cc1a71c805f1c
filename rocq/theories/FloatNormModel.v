(** Model of pdf and cdf of normal_dist, lognormal_dist and maxwell_dist in IEEE double.

    As in FloatCdfModel.v every C++ operation is one correctly rounded operation, with overflow to
    infinity, and the functions of the C++ mathematical library are parameters.  Definitions only. *)
From Coq Require Import ZArith Bool.
From Flocq Require Import Core.Zaux IEEE754.BinarySingleNaN.
From Verif Require Import UniformModel FloatDrawModel FloatCdfModel.
Open Scope Z_scope.

(** std::erf and std::erfc (special_functions.hpp 52-53) beside those of [libmx] *)
Record libme := Libme { e_base : libmx; e_erf : double -> double; e_erfc : double -> double }.

(** math::constants<double>: one_over_sqrt_2, one_over_sqrt_2pi, sqrt_2_over_pi (constants.hpp 77-79) *)
Definition dinvsqrt2 : double := ddiv (dint 6369051672525773) (dint 9007199254740992).
Definition dinvsqrt2pi : double := ddiv (dint 7186705221432913) (dint 18014398509481984).
Definition dsqrt2overpi : double := ddiv (dint 7186705221432913) (dint 9007199254740992).
(** the literal 0.6744897501960817 *)
Definition dquartile : double := ddiv (dint 6075263575296585) (dint 9007199254740992).

Section Functions.
Variable N : libme.
Let M := e_base N.
Let L := x_base M.

(** math::Phi(double) (special_functions.hpp 761-768) *)
Definition fPhi (x : double) : double :=
  let x := dmul x dinvsqrt2 in
  if Bltb x (dmul (dopp dquartile) dinvsqrt2) then dmul dhalf (e_erfc N (dopp x))
  else if Bltb (dmul dquartile dinvsqrt2) x then dsub (dint 1) (dmul dhalf (e_erfc N x))
  else dadd dhalf (dmul dhalf (e_erf N x)).

(** normal_dist::pdf, cdf (normal_dist.hpp 156-160, 163-167) *)
Definition normal_fpdf (mu sigma x : double) : double :=
  let t := dsub x mu in
  dmul (ddiv dinvsqrt2pi sigma) (x_exp M (ddiv (dmul t t) (dmul (dmul (dint (-2)) sigma) sigma))).
Definition normal_fcdf (mu sigma x : double) : double := fPhi (ddiv (dsub x mu) sigma).

(** lognormal_dist::pdf, cdf (lognormal_dist.hpp 155-161, 164-170) *)
Definition lognormal_fpdf (mu sigma x : double) : double :=
  if Bleb x (dint 0) then dint 0
  else
    let t := ddiv (dsub (m_ln L x) mu) sigma in
    dmul (ddiv dinvsqrt2pi (dmul x sigma)) (x_exp M (ddiv (dmul (dopp t) t) (dint 2))).
Definition lognormal_fcdf (mu sigma x : double) : double :=
  if Bleb x (dint 0) then dint 0
  else ddiv (e_erfc N (ddiv (dmul dinvsqrt2 (dsub mu (m_ln L x))) sigma)) (dint 2).

(** maxwell_dist::pdf, cdf (maxwell_dist.hpp 143-148, 151-155) *)
Definition maxwell_fpdf (theta x : double) : double :=
  let x2 := dmul x x in
  let t2 := dmul theta theta in
  ddiv (dmul (dmul dsqrt2overpi x2) (x_exp M (ddiv (dopp x2) (dmul (dint 2) t2)))) (dmul t2 theta).
Definition maxwell_fcdf (theta x : double) : double :=
  dsub (e_erf N (ddiv (dmul x dinvsqrt2) theta))
       (ddiv (dmul (dmul dsqrt2overpi x) (x_exp M (ddiv (dmul (dopp x) x) (dmul (dmul (dint 2) theta) theta)))) theta).
End Functions.
