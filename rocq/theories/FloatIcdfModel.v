(** Model of icdf and operator() of lognormal_dist and truncated_normal_dist in IEEE double, on top of
    FloatInvModel.v and FloatTruncModel.v.  Definitions only. *)
From Coq Require Import ZArith Bool.
From Flocq Require Import Core.Zaux IEEE754.BinarySingleNaN.
From Verif Require Import UniformModel FloatDrawModel FloatCdfModel FloatNormModel FloatTruncModel FloatInvModel.
Open Scope Z_scope.

Section Functions.
Variable N : libme.
Let M := e_base N.

(** lognormal_dist::icdf (lognormal_dist.hpp 173-185); errno is not modelled *)
Definition lognormal_ficdf (mu sigma x : double) : double :=
  if Bltb x (dint 0) || Bltb (dint 1) x then dnan
  else if Beqb x (dint 0) then dint 0
  else if Beqb x (dint 1) then dinf false
  else x_exp M (dadd (dmul (finv_Phi N x) sigma) mu).
(** lognormal_dist::operator() (lognormal_dist.hpp 128-130) *)
Definition lognormal_fdraw (mu sigma : double) (D r : Z) : double := lognormal_ficdf mu sigma (uniformoo 53 1024 D r).

(** truncated_normal_dist::icdf (truncated_normal_dist.hpp 217-221) *)
Definition trunc_position (mu sigma a b x : double) : double :=
  dadd (dmul x (dsub (trunc_Phi_b N mu sigma b) (trunc_Phi_a N mu sigma a))) (trunc_Phi_a N mu sigma a).
Definition trunc_ficdf (mu sigma a b x : double) : double :=
  dadd (dmul (finv_Phi N (trunc_position mu sigma a b x)) sigma) mu.
(** truncated_normal_dist::operator() (truncated_normal_dist.hpp 167-169) *)
Definition trunc_fdraw (mu sigma a b : double) (D r : Z) : double := trunc_ficdf mu sigma a b (uniformoo 53 1024 D r).
End Functions.
