(** Model of the draws of the continuous distributions with closed formulas, in IEEE double.

    Every C++ operation is one correctly rounded operation, [std::sqrt] is correctly rounded
    (as IEEE-754 demands), and the other functions of the C++ mathematical library are parameters.
    [D] = max() - min() of the engine and [r] = the next output minus min(). *)
From Coq Require Import ZArith Bool.
From Flocq Require Import Core.Zaux IEEE754.BinarySingleNaN.
From Verif Require Import UniformModel.
Open Scope Z_scope.

(** std::log (math.hpp 139, 145), std::pow, std::cos and std::sin (math.hpp 53, 54, 164) of double *)
Record libm := Libm { m_ln : double -> double; m_pow : double -> double -> double; m_cos : double -> double; m_sin : double -> double }.

Definition dadd : double -> double -> double := fadd 53 1024.
Definition dsub : double -> double -> double := fsub 53 1024.
Definition dmul : double -> double -> double := fmul 53 1024.
Definition ddiv : double -> double -> double := fdiv 53 1024.
Definition dopp (x : double) : double := Bopp x.
Definition dsqrt (x : double) : double := Bsqrt mode_NE x.
Definition dint (z : Z) : double := of_int 53 1024 z.
(** math::constants<double>::pi (constants.hpp 69): the double next to 3.14159265358979323846264 *)
Definition dpi : double := ddiv (dint 7074237752028440) (dint 2251799813685248).

Section Draws.
Variable L : libm.

(** exponential_dist::operator() (exponential_dist.hpp 122-123) *)
Definition exponential_fdraw (mu : double) (D r : Z) : double := dmul (dopp mu) (m_ln L (uniformoc 53 1024 D r)).

(** twosided_exponential_dist::icdf and operator() (twosided_exponential_dist.hpp 123-124, 156-169);
    one_half is 0.5 (constants.hpp 68) *)
Definition twosided_ficdf (mu x : double) : double :=
  if Bltb x (dint 0) || Bltb (dint 1) x then B754_nan
  else if Beqb x (dint 1) then B754_infinity false
  else if Beqb x (dint 0) then B754_infinity true
  else if Bltb x (ddiv (dint 1) (dint 2)) then dmul mu (m_ln L (dmul (dint 2) x))
  else dmul (dopp mu) (m_ln L (dsub (dint 2) (dmul (dint 2) x))).
Definition twosided_fdraw (mu : double) (D r : Z) : double := twosided_ficdf mu (uniformoo 53 1024 D r).

(** tent_dist::icdf_ and operator() (tent_dist.hpp 116-118, 132-133) *)
Definition tent_ficdf (m d x : double) : double :=
  if Bltb x (ddiv (dint 1) (dint 2)) then dadd (dmul (dadd (dint (-1)) (dsqrt (dmul (dint 2) x))) d) m
  else dadd (dmul (dsub (dint 1) (dsqrt (dsub (dint 2) (dmul (dint 2) x)))) d) m.
Definition tent_fdraw (m d : double) (D r : Z) : double := tent_ficdf m d (uniformcc 53 1024 D r).

(** weibull_dist::operator() (weibull_dist.hpp 127-128) *)
Definition weibull_fdraw (theta beta : double) (D r : Z) : double :=
  dmul theta (m_pow L (dopp (m_ln L (uniformoc 53 1024 D r))) (ddiv (dint 1) beta)).

(** rayleigh_dist::icdf and operator() (rayleigh_dist.hpp 122-123, 160-168) *)
Definition rayleigh_ficdf (nu x : double) : double :=
  if Bltb x (dint 0) || Bltb (dint 1) x then B754_nan
  else dmul nu (dsqrt (dmul (dint (-2)) (m_ln L (dsub (dint 1) x)))).
Definition rayleigh_fdraw (nu : double) (D r : Z) : double := rayleigh_ficdf nu (uniformoo 53 1024 D r).

(** pareto_dist::operator() (pareto_dist.hpp 128-129) *)
Definition pareto_fdraw (gamma theta : double) (D r : Z) : double :=
  dmul (dsub (m_pow L (uniformoo 53 1024 D r) (ddiv (dint (-1)) gamma)) (dint 1)) theta.

(** powerlaw_dist::operator() (powerlaw_dist.hpp 128-129) *)
Definition powerlaw_fdraw (gamma theta : double) (D r : Z) : double :=
  dmul theta (m_pow L (uniformoc 53 1024 D r) (ddiv (dint (-1)) gamma)).

(** cauchy_dist::icdf_ and operator() (cauchy_dist.hpp 118-121, 134-135) *)
Definition cauchy_ficdf (theta eta x : double) : double :=
  let t := dmul x dpi in dsub eta (ddiv (dmul theta (m_cos L t)) (m_sin L t)).
Definition cauchy_fdraw (theta eta : double) (D r : Z) : double := cauchy_ficdf theta eta (uniformoo 53 1024 D r).

(** logistic_dist::icdf_ and operator() (logistic_dist.hpp 117-119, 132-133) *)
Definition logistic_ficdf (theta eta x : double) : double := dsub eta (dmul (m_ln L (ddiv (dsub (dint 1) x) x)) theta).
Definition logistic_fdraw (theta eta : double) (D r : Z) : double := logistic_ficdf theta eta (uniformoo 53 1024 D r).

(** extreme_value_dist::operator() (extreme_value_dist.hpp 126-127) *)
Definition extreme_fdraw (theta eta : double) (D r : Z) : double :=
  dadd eta (dmul theta (m_ln L (dopp (m_ln L (uniformoo 53 1024 D r))))).
End Draws.
