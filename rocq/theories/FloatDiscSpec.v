(** Specification for pdf and cdf of the discrete distributions in double. *)
From Coq Require Import ZArith Reals.
Open Scope R_scope.

(** integers a, .., b - 1 with equal probability *)
Definition f_uniform_int (a b x : Z) : R := if (Z.leb a x && Z.ltb x b)%bool then 1 / IZR (b - a) else 0.
Definition F_uniform_int (a b x : Z) : R := if Z.ltb x a then 0 else if Z.ltb x b then IZR (x - a + 1) / IZR (b - a) else 1.
(** [h] with probability [p], [t] otherwise *)
Definition f_bernoulli (p : R) (h t x : Z) : R := (if Z.eqb x h then p else 0) + (if Z.eqb x t then 1 - p else 0).
Definition F_bernoulli (p : R) (h t x : Z) : R := (if Z.leb h x then p else 0) + (if Z.leb t x then 1 - p else 0).
