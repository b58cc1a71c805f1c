(** Model of the draw of geometric_dist in IEEE double, with the logarithm of the C++ library as a
    parameter (FloatDrawModel.v).  Definitions only. *)
From Coq Require Import ZArith.
From Verif Require Import UniformModel FloatDrawModel.

Section Geometric.
Variable L : libm.
(** param_type (geometric_dist.hpp 66-76): q = 1 - p, one_over_ln_q = 1 / ln q *)
Definition geometric_fq (p : double) : double := dsub (dint 1) p.
Definition geometric_fool (p : double) : double := ddiv (dint 1) (m_ln L (geometric_fq p)).
(** operator() (geometric_dist.hpp 92-94) *)
Definition geometric_fdraw (p : double) (D r : Z) : int_result :=
  double_to_signed 32 (dmul (m_ln L (uniformoo 53 1024 D r)) (geometric_fool p)).
End Geometric.
