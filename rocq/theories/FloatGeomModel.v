(** Model of pdf and cdf of geometric_dist in IEEE double, with pow as a parameter.
    Definitions only. *)
From Coq Require Import ZArith.
From Verif Require Import UniformModel FloatDrawModel DiscDrawModel.
Open Scope Z_scope.

Section Geometric.
Variable L : libm.
(** geometric_dist::pdf (geometric_dist.hpp 115-117) *)
Definition geometric_fpdf (p : double) (x : Z) : double :=
  if x <? 0 then dint 0 else dmul p (m_pow L (geometric_fq p) (dint x)).
(** geometric_dist::cdf (geometric_dist.hpp 120-122); [None] if x + 1 overflows int *)
Definition geometric_fcdf (p : double) (x : Z) : option double :=
  if x <? 0 then Some (dint 0)
  else if x + 1 <? 2 ^ 31 then Some (dsub (dint 1) (m_pow L (geometric_fq p) (dint (x + 1))))
  else None.
End Geometric.
