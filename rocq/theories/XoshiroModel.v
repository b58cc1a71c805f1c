(** Model of trng/xoshiro256plus.hpp and trng/xoshiro256plus.cc.  Definitions only. *)
From Coq Require Import ZArith List Bool.
From Verif Require Import Base GaussModel LinAlgModel MinstdModel LagfibModel.
Import ListNotations.
Open Scope Z_scope.

(** status_type::r (xoshiro256plus.hpp 68): four uint64_t. *)
Record xoshiro := Xo { xr0 : Z; xr1 : Z; xr2 : Z; xr3 : Z }.

(** x << k on uint64_t. *)
Definition shl64 (x k : Z) : Z := wrap64 (Z.shiftl x k).

(** step (220-229). *)
Definition xo_step (S : xoshiro) : xoshiro :=
  let '(Xo r0 r1 r2 r3) := S in
  let t := shl64 r1 17 in
  let r2 := Z.lxor r2 r0 in
  let r3 := Z.lxor r3 r1 in
  let r1 := Z.lxor r1 r2 in
  let r0 := Z.lxor r0 r3 in
  let r2 := Z.lxor r2 t in
  let r3 := Z.lor (shl64 r3 45) (Z.shiftr r3 (64 - 45)) in
  Xo r0 r1 r2 r3.

(** operator() (232-235). *)
Definition xo_next (S : xoshiro) : Z * xoshiro :=
  let S := xo_step S in (wrap64 (xr0 S + xr3 S), S).

(** The default state (68) and status_type(i, eye) (77-87). *)
Definition xo_default : xoshiro := Xo (2 ^ 63) 0 0 0.
Definition xo_eye (i : nat) : xoshiro :=
  let mask := 2 ^ 63 in
  let i := Z.of_nat i in
  if i <? 64 then Xo (Z.shiftr mask i) 0 0 0
  else if i <? 2 * 64 then Xo 0 (Z.shiftr mask (i - 64)) 0 0
  else if i <? 3 * 64 then Xo 0 0 (Z.shiftr mask (i - 2 * 64)) 0
  else Xo 0 0 0 (Z.shiftr mask (i - 3 * 64)).

(** to_vector (122-134): GF2(((r[q] << i) & mask) > 0). *)
Definition xo_bits (r : Z) : list bool :=
  map (fun i => Z.land (shl64 r (Z.of_nat i)) (2 ^ 63) >? 0) (seq 0 64).
Definition xo_vector (S : xoshiro) : list bool :=
  xo_bits (xr0 S) ++ xo_bits (xr1 S) ++ xo_bits (xr2 S) ++ xo_bits (xr3 S).

(** The matrix of one step (247-254 and 279-286): column i is the image of the i-th unit vector. *)
Definition xo_matrix : list bool :=
  mmake gf2_scalar 256 (fun j i => vget gf2_scalar (xo_vector (xo_step (xo_eye i))) j).

(** The words read back from the vector (261-269 and 291-299). *)
Definition xo_word (v : list bool) (j : nat) : Z :=
  fold_left (fun r i => let r := shl64 r 1 in if vget gf2_scalar v (i + 64 * j) then Z.lor r 1 else r) (seq 0 64) 0.
Definition xo_of_vector (v : list bool) : xoshiro := Xo (xo_word v 0) (xo_word v 1) (xo_word v 2) (xo_word v 3).

(** jump2 (245-270). *)
Definition xo_jump2 (s : Z) (S : xoshiro) : xoshiro :=
  let M := Nat.iter (Z.to_nat s) (fun M => mat_power gf2_scalar 256 M 2) xo_matrix in
  xo_of_vector (mat_vec gf2_scalar 256 M (xo_vector S)).

(** jump (273-301) and discard (304). *)
Definition xo_jump (s : Z) (S : xoshiro) : xoshiro :=
  if s <? 16 then Nat.iter (Z.to_nat s) xo_step S
  else xo_of_vector (mat_vec gf2_scalar 256 (mat_power gf2_scalar 256 xo_matrix s) (xo_vector S)).
Definition xo_discard (s : Z) (S : xoshiro) : xoshiro := xo_jump s S.

(** Seeding: the correction of an all-zero state (157-158; xoshiro256plus.cc 76-77). *)
Definition xo_fix (S : xoshiro) : xoshiro :=
  if (xr0 S =? 0) && (xr1 S =? 0) && (xr2 S =? 0) && (xr3 S =? 0)
  then Xo (Z.lor (xr0 S) (2 ^ 63)) (xr1 S) (xr2 S) (xr3 S) else S.
(** seed(s0, s1, s2, s3) (xoshiro256plus.cc 71-78). *)
Definition xo_seed4 (s0 s1 s2 s3 : Z) : xoshiro := xo_fix (Xo s0 s1 s2 s3).
(** seed(gen) (148-159): two values of the source per word. *)
Definition xo_gen_word (g : gen) (s : g_state g) : Z * g_state g :=
  let '(a, s) := g_next g s in
  let r := wrap64 (shl64 0 32 + a) in
  let '(b, s) := g_next g s in
  (wrap64 (shl64 r 32 + b), s).
Definition xo_seed_gen (g : gen) (s : g_state g) : xoshiro :=
  let '(r0, s) := xo_gen_word g s in
  let '(r1, s) := xo_gen_word g s in
  let '(r2, s) := xo_gen_word g s in
  let '(r3, s) := xo_gen_word g s in
  xo_fix (Xo r0 r1 r2 r3).
(** seed(unsigned long) (xoshiro256plus.cc 66-69) and the constructor (57); seed() (64) restores the default state. *)
Definition xo_seed (s : Z) : xoshiro := xo_seed_gen minstd_gen (minstd_seed s).

(** operator== (xoshiro256plus.cc 41-45, 81). *)
Definition xo_eqb (S1 S2 : xoshiro) : bool :=
  (xr0 S1 =? xr0 S2) && (xr1 S1 =? xr1 S2) && (xr2 S1 =? xr2 S2) && (xr3 S1 =? xr3 S2).
