(** Model of pdf of the continuous distributions with closed formulas, in IEEE double.

    As in FloatCdfModel.v every C++ operation is one correctly rounded operation, with overflow to
    infinity, and the functions of the C++ mathematical library are parameters.  Definitions only. *)
From Coq Require Import ZArith Bool.
From Flocq Require Import Core.Zaux IEEE754.BinarySingleNaN.
From Verif Require Import UniformModel FloatDrawModel FloatCdfModel.
Open Scope Z_scope.

Section Functions.
Variable M : libmx.
Let L := x_base M.

(** exponential_dist::pdf (exponential_dist.hpp 145) *)
Definition exponential_fpdf (mu x : double) : double :=
  if Bltb x (dint 0) then dint 0 else ddiv (x_exp M (ddiv (dopp x) mu)) mu.

(** twosided_exponential_dist::pdf (twosided_exponential_dist.hpp 146-148) *)
Definition twosided_fpdf (mu x : double) : double :=
  ddiv (x_exp M (ddiv (dopp (Babs x)) mu)) (dmul (dint 2) mu).

(** rayleigh_dist::pdf (rayleigh_dist.hpp 145-150) *)
Definition rayleigh_fpdf (nu x : double) : double :=
  if Bleb x (dint 0) then dint 0
  else let t := ddiv x (dmul nu nu) in dmul t (x_exp M (ddiv (dmul (dopp t) x) (dint 2))).

(** weibull_dist::pdf (weibull_dist.hpp 154-169) *)
Definition weibull_fpdf (theta beta x : double) : double :=
  if Bltb x (dint 0) then dint 0
  else
    let y := ddiv x theta in
    if Bltb (dint 0) y then
      let t1 := m_pow L y beta in
      let t2 := ddiv t1 y in
      dmul (dmul (ddiv beta theta) t2) (x_exp M (dopp t1))
    else if Beqb beta (dint 1) then ddiv (dint 1) theta
    else if Bltb (dint 1) beta then dint 0
    else dnan.

(** pareto_dist::pdf (pareto_dist.hpp 155-159) *)
Definition pareto_fpdf (gamma theta x : double) : double :=
  if Bltb x (dint 0) then dint 0
  else dmul (ddiv gamma theta) (m_pow L (dadd (dint 1) (ddiv x theta)) (dsub (dopp gamma) (dint 1))).

(** powerlaw_dist::pdf (powerlaw_dist.hpp 155-159) *)
Definition powerlaw_fpdf (gamma theta x : double) : double :=
  if Bltb x theta then dint 0
  else dmul (ddiv gamma theta) (m_pow L (ddiv x theta) (dsub (dopp gamma) (dint 1))).

(** logistic_dist::pdf (logistic_dist.hpp 159-163) *)
Definition logistic_fpdf (theta eta x : double) : double :=
  let t1 := x_exp M (dopp (Babs (ddiv (dsub x eta) theta))) in
  let t2 := dadd (dint 1) t1 in
  ddiv t1 (dmul (dmul theta t2) t2).

(** extreme_value_dist::pdf (extreme_value_dist.hpp 153-157) *)
Definition extreme_fpdf (theta eta x : double) : double :=
  let y := ddiv (dsub x eta) theta in
  ddiv (x_exp M (dsub y (x_exp M y))) theta.
End Functions.

(** cauchy_dist::pdf (cauchy_dist.hpp 161-165) *)
Definition cauchy_fpdf (theta eta x : double) : double :=
  let y := ddiv (dsub x eta) theta in
  ddiv (ddiv dinvpi (dadd (dint 1) (dmul y y))) theta.

(** tent_dist::pdf (tent_dist.hpp 159-164) *)
Definition tent_fpdf (m d x : double) : double :=
  let y := dsub x m in
  if Bleb y (dopp d) || Bleb d y then dint 0
  else if Bltb y (dint 0) then ddiv (dadd (dint 1) (ddiv y d)) d
  else ddiv (dsub (dint 1) (ddiv y d)) d.

(** uniform_dist::pdf (uniform_dist.hpp 53-60, 160-164) *)
Definition uniform_fpdf (a b x : double) : double :=
  if Bltb x a || Bleb b x then dint 0 else ddiv (dint 1) (dsub b a).
