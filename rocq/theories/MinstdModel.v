(** Model of trng/minstd.hpp and minstd.cc.  Definitions only. *)
From Coq Require Import ZArith List Bool.
From Verif Require Import Base.
Open Scope Z_scope.

(** The state is the single uint32_t r (minstd.hpp 64). *)
Definition minstd_max : Z := 2147483646.
Definition minstd_min : Z := 1.

(** step (minstd.hpp 164-170). *)
Definition minstd_step (r : Z) : Z :=
  let t := wrap64 (r * 16807) in
  let t := wrap64 (Z.land t 2147483647 + Z.shiftr t 31) in
  let t := if t >=? 2147483647 then t - 2147483647 else t in
  wrap32 t.

(** operator() (172-175). *)
Definition minstd_next (r : Z) : Z * Z := let r' := minstd_step r in (r', r').

(** discard (177-181): n is reduced modulo max - min first. *)
Definition minstd_discard (r n : Z) : Z :=
  Nat.iter (Z.to_nat (n mod (minstd_max - minstd_min))) minstd_step r.

(** seed(unsigned long) (minstd.cc 57-61). *)
Definition minstd_seed (s : Z) : Z :=
  let r := wrap32 (s mod 2147483647) in if r =? 0 then 1 else r.

(** operator== (minstd.cc 42-44, 64). *)
Definition minstd_eqb (r1 r2 : Z) : bool := r1 =? r2.
