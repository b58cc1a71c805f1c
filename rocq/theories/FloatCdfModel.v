(** Model of cdf and icdf of the continuous distributions with closed formulas, in IEEE double.

    As in FloatDrawModel.v every C++ operation is one correctly rounded operation, with overflow to
    infinity, and the functions of the C++ mathematical library are parameters.  errno is not
    modelled.  Definitions only. *)
From Coq Require Import ZArith Bool.
From Flocq Require Import Core.Zaux IEEE754.BinarySingleNaN.
From Verif Require Import UniformModel FloatDrawModel.
Open Scope Z_scope.

(** std::exp, std::expm1, std::log1p and std::atan (math.hpp 77, 122, 135, 160) beside those of [libm] *)
Record libmx := Libmx { x_base : libm; x_exp : double -> double; x_expm1 : double -> double; x_ln1p : double -> double; x_atan : double -> double }.

(** math::constants<double>::one_over_pi (constants.hpp 76) *)
Definition dinvpi : double := ddiv (dint 5734161139222659) (dint 18014398509481984).
Definition dhalf : double := ddiv (dint 1) (dint 2).
Definition dinf (s : bool) : double := B754_infinity s.
Definition dnan : double := B754_nan.

Section Functions.
Variable M : libmx.
Let L := x_base M.

(** exponential_dist::cdf, icdf (exponential_dist.hpp 148, 151-161) *)
Definition exponential_fcdf (mu x : double) : double :=
  if Bleb x (dint 0) then dint 0 else dsub (dint 1) (x_exp M (ddiv (dopp x) mu)).
Definition exponential_ficdf (mu x : double) : double :=
  if Bltb x (dint 0) || Bltb (dint 1) x then dnan
  else if Beqb x (dint 1) then dinf false
  else dmul (dopp mu) (m_ln L (dsub (dint 1) x)).

(** twosided_exponential_dist::cdf (twosided_exponential_dist.hpp 151-153); icdf is twosided_ficdf *)
Definition twosided_fcdf (mu x : double) : double :=
  if Bleb x (dint 0) then ddiv (x_exp M (ddiv x mu)) (dint 2)
  else dsub (dint 1) (ddiv (x_exp M (ddiv (dopp x) mu)) (dint 2)).

(** rayleigh_dist::cdf (rayleigh_dist.hpp 153-157); icdf is rayleigh_ficdf *)
Definition rayleigh_fcdf (nu x : double) : double :=
  if Bleb x (dint 0) then dint 0
  else dsub (dint 1) (x_exp M (ddiv (dmul (dopp x) x) (dmul (dmul (dint 2) nu) nu))).

(** weibull_dist::cdf, icdf (weibull_dist.hpp 172-177, 180-188) *)
Definition weibull_fcdf (theta beta x : double) : double :=
  let y := ddiv x theta in
  if Bleb y (dint 0) then dint 0 else dopp (x_expm1 M (dopp (m_pow L y beta))).
Definition weibull_ficdf (theta beta x : double) : double :=
  if Bltb x (dint 0) || Bleb (dint 1) x then dnan
  else dmul theta (m_pow L (dopp (x_ln1p M (dopp x))) (ddiv (dint 1) beta)).

(** pareto_dist::cdf, icdf (pareto_dist.hpp 161-165, 167-179); the comparisons with 0 and 1 behind
    the first one are never true *)
Definition pareto_fcdf (gamma theta x : double) : double :=
  if Bleb x (dint 0) then dint 0
  else dsub (dint 1) (m_pow L (dadd (dint 1) (ddiv x theta)) (dopp gamma)).
Definition pareto_ficdf (gamma theta x : double) : double :=
  if Bleb x (dint 0) || Bleb (dint 1) x then dnan
  else if Beqb x (dint 0) then dint 0
  else if Beqb x (dint 1) then dinf false
  else dmul (dsub (m_pow L (dsub (dint 1) x) (ddiv (dint (-1)) gamma)) (dint 1)) theta.

(** powerlaw_dist::cdf, icdf (powerlaw_dist.hpp 162-166, 169-181) *)
Definition powerlaw_fcdf (gamma theta x : double) : double :=
  if Bleb x (dint 0) then dint 0 else dsub (dint 1) (m_pow L (ddiv x theta) (dopp gamma)).
Definition powerlaw_ficdf (gamma theta x : double) : double :=
  if Bleb x (dint 0) || Bleb (dint 1) x then dnan
  else if Beqb x (dint 0) then theta
  else if Beqb x (dint 1) then dinf false
  else dmul theta (m_pow L (dsub (dint 1) x) (ddiv (dint (-1)) gamma)).

(** cauchy_dist::cdf, icdf (cauchy_dist.hpp 168-173, 176-188) *)
Definition cauchy_fcdf (theta eta x : double) : double :=
  dadd (dmul dinvpi (x_atan M (ddiv (dsub x eta) theta))) dhalf.
Definition cauchy_ficdf_ (theta eta x : double) : double :=
  if Bleb x (dint 0) || Bleb (dint 1) x then dnan
  else if Beqb x (dint 0) then dinf true
  else if Beqb x (dint 1) then dinf false
  else cauchy_ficdf L theta eta x.

(** logistic_dist::cdf, icdf (logistic_dist.hpp 166-169, 172-184) *)
Definition logistic_fcdf (theta eta x : double) : double :=
  let t1 := x_exp M (dopp (Babs (ddiv (dsub x eta) theta))) in
  if Bleb eta x then ddiv (dint 1) (dadd (dint 1) t1) else ddiv t1 (dadd (dint 1) t1).
Definition logistic_ficdf_ (theta eta x : double) : double :=
  if Bltb x (dint 0) || Bltb (dint 1) x then dnan
  else if Beqb x (dint 0) then dinf true
  else if Beqb x (dint 1) then dinf false
  else logistic_ficdf L theta eta x.

(** extreme_value_dist::cdf, icdf (extreme_value_dist.hpp 160-164, 167-179) *)
Definition extreme_fcdf (theta eta x : double) : double :=
  dsub (dint 1) (x_exp M (dopp (x_exp M (ddiv (dsub x eta) theta)))).
Definition extreme_ficdf (theta eta x : double) : double :=
  if Bleb x (dint 0) || Bleb (dint 1) x then dnan
  else if Beqb x (dint 0) then dinf true
  else if Beqb x (dint 1) then dinf false
  else dadd eta (dmul theta (m_ln L (dopp (m_ln L (dsub (dint 1) x))))).
End Functions.

(** tent_dist::cdf, icdf (tent_dist.hpp 167-176, 179-187) *)
Definition tent_fcdf (m d x : double) : double :=
  let y := dsub x m in
  if Bleb y (dopp d) then dint 0
  else if Bleb y (dint 0) then ddiv (dmul (dadd y d) (dadd y d)) (dmul (dmul (dint 2) d) d)
  else if Bltb y d then dsub (dint 1) (ddiv (dmul (dsub y d) (dsub y d)) (dmul (dmul (dint 2) d) d))
  else dint 1.
Definition tent_ficdf_ (m d x : double) : double :=
  if Bltb x (dint 0) || Bltb (dint 1) x then dnan else tent_ficdf m d x.

(** uniform_dist::cdf, icdf (uniform_dist.hpp 53-60, 167-173, 176-184) *)
Definition uniform_fcdf (a b x : double) : double :=
  if Bltb x a then dint 0 else if Bleb b x then dint 1 else ddiv (dsub x a) (dsub b a).
Definition uniform_ficdf (a b x : double) : double :=
  if Bltb x (dint 0) || Bltb (dint 1) x then dnan else dadd (dmul x (dsub b a)) a.
