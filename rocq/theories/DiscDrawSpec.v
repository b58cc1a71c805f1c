(** Specification for the discrete draws in double: probabilities by counting the outputs of the engine. *)
From Coq Require Import ZArith List Reals.
Open Scope R_scope.

(** of the D + 1 equally likely outputs 0, .., D a fraction of [p], up to [e], satisfies [A] *)
Definition probability (A : Z -> Prop) (D : Z) (p e : R) : Prop :=
  exists l : list Z, NoDup l /\ (forall r, In r l <-> (0 <= r <= D)%Z /\ A r) /\ Rabs (INR (length l) / (IZR D + 1) - p) <= e.
(** the distribution function of the uniform distribution on [a, b] *)
Definition F_uniform (a b x : R) : R := if Rle_dec x a then 0 else if Rle_dec b x then 1 else (x - a) / (b - a).
(** sums of weights *)
Definition upto (w : list R) (k : nat) : R := fold_right Rplus 0 (firstn k w).
Definition whole (w : list R) : R := fold_right Rplus 0 w.
