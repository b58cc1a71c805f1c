(** Model of trng/count128_lcg_shift.hpp and .cc.  Definitions only.
    128-bit values are Z modulo 2^128 (the arithmetic of both uint128 implementations, see
    Uint128Model.v).  The two implementations of [uint128::hi()] differ, so the output function
    takes [hi] as an argument:
      native   (uint128.hpp optimized_impl 295-297): upper 64 bits,
      portable (uint128.hpp portable_impl 512-514): returns the lower 64 bits. *)
From Coq Require Import ZArith List Bool.
From Verif Require Import Base Lcg64Model.
Open Scope Z_scope.

Record c128 := C128 { c_inc : Z; c_a : Z; c_b : Z; c_r : Z }.

Definition c128_ok (R : c128) : Prop :=
  word 128 (c_inc R) /\ word 64 (c_a R) /\ word 64 (c_b R) /\ word 128 (c_r R).

Definition hi_native (x : Z) : Z := x / 2 ^ 64.
Definition hi_portable (x : Z) : Z := x mod 2 ^ 64.
Definition lo64 (x : Z) : Z := x mod 2 ^ 64.

Definition c128_set (R : c128) (r : Z) : c128 := C128 (c_inc R) (c_a R) (c_b R) r.

(** step (count128_lcg_shift.hpp 240-242). *)
Definition c128_step (R : c128) : c128 := c128_set R (wrap128 (c_r R + c_inc R)).

(** Output (245-254): t = (lo ^ hi) * a + b, then xor-shifts 23, 41, 18. *)
Definition c128_scramble (t : Z) : Z := xorshr 18 (xorshl64 41 (xorshr 23 t)).
Definition c128_mix (a b x : Z) : Z := c128_scramble (wrap64 (wrap64 (x * a) + b)).
Definition c128_next (hi : Z -> Z) (R : c128) : Z * c128 :=
  let R' := c128_step R in
  (c128_mix (c_a R') (c_b R') (Z.lxor (lo64 (c_r R')) (hi (c_r R'))), R').

(** split (264-276). *)
Definition c128_split (R : c128) (s n : Z) : outcome c128 :=
  if (s <? 1) || (n >=? s) then Throws
  else if s >? 1 then
    let r1 := wrap128 (c_r R + wrap128 (n * c_inc R)) in
    let r2 := wrap128 (r1 + c_inc R) in
    let inc' := wrap128 (c_inc R * s) in
    Returns (C128 inc' (c_a R) (c_b R) (wrap128 (r2 - inc')))
  else Returns R.

(** jump2 (279-281), the shift count is reduced modulo 128. *)
Definition c128_jump2 (R : c128) (s : Z) : c128 :=
  c128_set R (wrap128 (c_r R + wrap128 (wrap128 (Z.shiftl 1 (s mod 128)) * c_inc R))).

(** jump (284-286) and discard (289-291). *)
Definition c128_jump (R : c128) (s : Z) : c128 :=
  c128_set R (wrap128 (c_r R + wrap128 (s * c_inc R))).
Definition c128_discard := c128_jump.

(** Predefined increments and multipliers (count128_lcg_shift.cc 62-70). *)
Definition c128_default_inc : Z := 337796325545380861827125810166389624843.
Definition c128_params : list (Z * Z * Z) :=
  (c128_default_inc, 18145460002477866997, 1) :: (c128_default_inc, 2862933555777941757, 1)
  :: (c128_default_inc, 3202034522624059733, 1) :: (c128_default_inc, 3935559000370003845, 1) :: nil.

(** operator== (count128_lcg_shift.cc 42-45 -- the increment is not compared --, 53-55, 93-95). *)
Definition c128_eqb (R1 R2 : c128) : bool :=
  (c_a R1 =? c_a R2) && (c_b R1 =? c_b R2) && (c_r R1 =? c_r R2).

(** seed (count128_lcg_shift.cc 84-90): both halves are s. *)
Definition c128_seed (R : c128) (s : Z) : c128 := c128_set R (wrap64 s * 2 ^ 64 + wrap64 s).
