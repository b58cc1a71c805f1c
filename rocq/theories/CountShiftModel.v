(** Model of trng/lcg64_count_shift.hpp and lcg64_count_shift.cc.  Definitions only.
    log2_floor, pow, g, f (lcg64_count_shift.hpp 289-340) are textually the functions of
    lcg64.hpp and are not repeated: the LCG part of the state is a [lcg64] record. *)
From Coq Require Import ZArith List Bool.
From Verif Require Import Base Lcg64Model.
Open Scope Z_scope.

(** parameter_type {a, b, inc} (lcg64_count_shift.hpp 89) and status_type {r, count} (128). *)
Record lcs := Lcs { cs_lcg : lcg64; cs_inc : Z; cs_count : Z }.

(** modulus (lcg64_count_shift.hpp 61): the Mersenne prime 2^61-1. *)
Definition cs_modulus : Z := 2305843009213693951.

(** States the engine is meant to be in: counter and increment reduced.  All constructors and
    [seed] produce such counters; [inc] comes from the parameter set. *)
Definition lcs_ok (R : lcs) : Prop :=
  lcg64_ok (cs_lcg R) /\ 0 <= cs_inc R < cs_modulus /\ 0 <= cs_count R < cs_modulus.

(** [x += y; if (x >= modulus) x -= modulus;] on uint64_t. *)
Definition cs_addmod (x y : Z) : Z :=
  let z := wrap64 (x + y) in
  if z >=? cs_modulus then wrap64 (z - cs_modulus) else z.

(** step (265-270). *)
Definition cs_step (R : lcs) : lcs :=
  Lcs (lcg64_step (cs_lcg R)) (cs_inc R) (cs_addmod (cs_count R) (cs_inc R)).

(** Output scrambling (273-280): t = r + count, xor-shifts 17, 31, 8.  The shifts are those of
    lcg64_shift. *)
Definition cs_out (r count : Z) : Z := lcg64_shift_out (wrap64 (r + count)).

(** operator() (273-280). *)
Definition cs_next (R : lcs) : Z * lcs :=
  let R' := cs_step R in (cs_out (lcg_r (cs_lcg R')) (cs_count R'), R').

(** mult_modulo (344-361): binary multiplication by the smaller operand. *)
Fixpoint mult_modulo_loop (fuel : nat) (a x result : Z) : Z :=
  match fuel with
  | O => result
  | S k =>
    if a >? 0
    then mult_modulo_loop k (Z.shiftr a 1) (cs_addmod x x)
           (if Z.land a 1 =? 1 then cs_addmod result x else result)
    else result
  end.
Definition mult_modulo (a b : Z) : Z :=
  if a >? b then mult_modulo_loop 64 b a 0 else mult_modulo_loop 64 a b 0.

(** jump2 (384-394); [1ull << s] undefined for s >= 64. *)
Definition cs_jump2 (R : lcs) (s : Z) : option lcs :=
  match lcg64_jump2 (cs_lcg R) s with
  | None => None
  | Some L =>
    let p := Nat.iter (Z.to_nat s) (mult_modulo 2) 1 in
    Some (Lcs L (cs_inc R) (cs_addmod (cs_count R) (mult_modulo p (cs_inc R))))
  end.

(** jump (397-416).  The loop over the LCG part is the loop of lcg64::jump. *)
Definition cs_jump (R : lcs) (s : Z) : option lcs :=
  if s <? 16 then Some (Nat.iter (Z.to_nat s) cs_step R)
  else match jump_loop 64 0 s (cs_lcg R) with
       | None => None
       | Some L => Some (Lcs L (cs_inc R) (cs_addmod (cs_count R) (mult_modulo (cs_inc R) s)))
       end.

(** discard (419). *)
Definition cs_discard := cs_jump.

(** backward (422-428). *)
Definition cs_backward (R : lcs) : lcs :=
  Lcs (lcg64_backward (cs_lcg R)) (cs_inc R)
      (cs_addmod (cs_count R) (wrap64 (cs_modulus - cs_inc R))).

(** split (366-381). *)
Definition cs_split (R : lcs) (s n : Z) : outcome lcs :=
  if (s <? 1) || (n >=? s) then Throws
  else if s >? 1 then
    match cs_jump R (wrap64 (n + 1)) with
    | None => Undefined
    | Some R1 =>
      let L := cs_lcg R1 in
      let b' := wrap64 (lcg_b L * lcg64_f s (lcg_a L)) in
      let a' := lcg64_pow (lcg_a L) s in
      Returns (cs_backward (Lcs (Lcg64 a' b' (lcg_r L)) (mult_modulo s (cs_inc R1)) (cs_count R1)))
    end
  else Returns R.

(** Predefined parameter sets (lcg64_count_shift.cc 63-70). *)
Definition cs_params : list (Z * Z * Z) :=
  (18145460002477866997, 1, 1425089352415399810) :: (2862933555777941757, 1, 1425089352415399810)
  :: (3202034522624059733, 1, 1425089352415399810) :: (3935559000370003845, 1, 1425089352415399810)
  :: nil.

(** operator== (lcg64_count_shift.cc 42-45, 53-56, 99-101). *)
Definition lcs_eqb (R1 R2 : lcs) : bool :=
  lcg64_eqb (cs_lcg R1) (cs_lcg R2) && (cs_inc R1 =? cs_inc R2) && (cs_count R1 =? cs_count R2).

(** seed(unsigned long [long]) (lcg64_count_shift.cc 88-96). *)
Definition cs_seed (R : lcs) (s : Z) : lcs :=
  Lcs (lcg64_seed (cs_lcg R) s) (cs_inc R) (wrap64 s mod cs_modulus).
