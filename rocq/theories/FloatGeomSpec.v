(** Specification for pdf and cdf of geometric_dist in double. *)
From Coq Require Import ZArith Reals.
Open Scope R_scope.

(** probability of exactly [x] failures before the first success, and of at most [x] *)
Definition f_geometric (p : R) (x : Z) : R := if Z.ltb x 0 then 0 else p * (1 - p) ^ Z.to_nat x.
Definition F_geometric (p : R) (x : Z) : R := if Z.ltb x 0 then 0 else sum_f_R0 (fun k => p * (1 - p) ^ k) (Z.to_nat x).
