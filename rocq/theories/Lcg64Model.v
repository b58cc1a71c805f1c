(** Model of trng/lcg64.hpp, trng/lcg64.cc and trng/lcg64_shift.hpp, trng/lcg64_shift.cc.
    The two classes differ only in [operator()] (lcg64.hpp 254-257, lcg64_shift.hpp 254-261);
    everything else is textually the same code.  Definitions only. *)
From Coq Require Import ZArith List Bool.
From Verif Require Import Base.
Open Scope Z_scope.

(** parameter_type {a, b} (lcg64.hpp 83-84) and status_type {r} (lcg64.hpp 123). *)
Record lcg64 := Lcg64 { lcg_a : Z; lcg_b : Z; lcg_r : Z }.

(** All fields are [uint64_t]. *)
Definition lcg64_ok (R : lcg64) : Prop :=
  word 64 (lcg_a R) /\ word 64 (lcg_b R) /\ word 64 (lcg_r R).

Definition set_r (R : lcg64) (r : Z) : lcg64 := Lcg64 (lcg_a R) (lcg_b R) r.

(** step: [S.r = P.a * S.r + P.b]  (lcg64.hpp 251). *)
Definition lcg64_step (R : lcg64) : lcg64 :=
  set_r R (wrap64 (wrap64 (lcg_a R * lcg_r R) + lcg_b R)).

(** lcg64::operator() (lcg64.hpp 254-257). *)
Definition lcg64_next (R : lcg64) : Z * lcg64 :=
  let R' := lcg64_step R in (lcg_r R', R').

(** [t ^= t >> k], [t ^= t << k] on uint64_t. *)
Definition xorshr (k t : Z) : Z := Z.lxor t (Z.shiftr t k).
Definition xorshl64 (k t : Z) : Z := Z.lxor t (wrap64 (Z.shiftl t k)).

(** lcg64_shift::operator() (lcg64_shift.hpp 254-261). *)
Definition lcg64_shift_out (t : Z) : Z := xorshr 8 (xorshl64 31 (xorshr 17 t)).
Definition lcg64_shift_next (R : lcg64) : Z * lcg64 :=
  let R' := lcg64_step R in (lcg64_shift_out (lcg_r R'), R').

(** log2_floor (lcg64.hpp 266-274): counts shifts until x is 0, minus one, in [unsigned int]
    (so 0 gives 2^32-1; never called with 0).  A 64-bit x needs at most 64 rounds. *)
Fixpoint log2_floor_loop (fuel : nat) (x y : Z) : Z :=
  match fuel with
  | O => y
  | S k => if x >? 0 then log2_floor_loop k (Z.shiftr x 1) (wrap32 (y + 1)) else y
  end.
Definition lcg64_log2_floor (x : Z) : Z := wrap32 (log2_floor_loop 64 x 0 - 1).

(** pow (lcg64.hpp 278-287): right-to-left square and multiply on uint64_t. *)
Fixpoint pow_loop (fuel : nat) (result x n : Z) : Z :=
  match fuel with
  | O => result
  | S k =>
    if n >? 0
    then pow_loop k (if Z.land n 1 >? 0 then wrap64 (result * x) else result)
                  (wrap64 (x * x)) (Z.shiftr n 1)
    else result
  end.
Definition lcg64_pow (x n : Z) : Z := pow_loop 64 1 x n.

(** g (lcg64.hpp 291-298): for i < l: res *= 1 + p; p *= p. *)
Fixpoint g_loop (l : nat) (p res : Z) : Z :=
  match l with
  | O => res
  | S k => g_loop k (wrap64 (p * p)) (wrap64 (res * wrap64 (1 + p)))
  end.
Definition lcg64_g (l a : Z) : Z := g_loop (Z.to_nat l) a 1.

(** f (lcg64.hpp 302-314): for l = 0..e: if bit l of s: y = g(l,a) + p*y; p *= p. *)
Fixpoint f_loop (count : nat) (l s a y p : Z) : Z :=
  match count with
  | O => y
  | S k =>
    let y' := if Z.land (Z.shiftl 1 l) s >? 0
              then wrap64 (lcg64_g l a + wrap64 (p * y)) else y in
    f_loop k (l + 1) s a y' (wrap64 (p * p))
  end.
Definition lcg64_f (s a : Z) : Z :=
  if s =? 0 then 0
  else f_loop (Z.to_nat (lcg64_log2_floor s + 1)) 0 s a 0 a.

(** jump2 (lcg64.hpp 333-335).  [1ull << s] is undefined for s >= 64: [None]. *)
Definition lcg64_jump2_r (R : lcg64) (s : Z) : lcg64 :=
  let e := Z.shiftl 1 s in
  set_r R (wrap64 (wrap64 (lcg_r R * lcg64_pow (lcg_a R) e)
                   + wrap64 (lcg64_f e (lcg_a R) * lcg_b R))).
Definition lcg64_jump2 (R : lcg64) (s : Z) : option lcg64 :=
  if s <? 64 then Some (lcg64_jump2_r R s) else None.

(** jump (lcg64.hpp 338-351).  s is unsigned long long, so the loop runs at most 64 rounds. *)
Fixpoint jump_loop (fuel : nat) (i s : Z) (R : lcg64) : option lcg64 :=
  match fuel with
  | O => Some R
  | S k =>
    if s >? 0 then
      match (if s mod 2 =? 1 then lcg64_jump2 R i else Some R) with
      | Some R' => jump_loop k (i + 1) (Z.shiftr s 1) R'
      | None => None
      end
    else Some R
  end.
Definition lcg64_jump (R : lcg64) (s : Z) : option lcg64 :=
  if s <? 16 then Some (Nat.iter (Z.to_nat s) lcg64_step R)
  else jump_loop 64 0 s R.

(** discard (lcg64.hpp 354). *)
Definition lcg64_discard := lcg64_jump.

(** backward (lcg64.hpp 357-360): for i < 64: jump2(i). *)
Definition lcg64_backward (R : lcg64) : lcg64 :=
  fold_left (fun R i => lcg64_jump2_r R (Z.of_nat i)) (seq 0 64) R.

(** split (lcg64.hpp 319-330), s and n are [unsigned int]; [n + 1ull] is 64-bit. *)
Definition lcg64_split (R : lcg64) (s n : Z) : outcome lcg64 :=
  if (s <? 1) || (n >=? s) then Throws
  else if s >? 1 then
    match lcg64_jump R (wrap64 (n + 1)) with
    | None => Undefined
    | Some R1 =>
      let b' := wrap64 (lcg_b R1 * lcg64_f s (lcg_a R1)) in
      let a' := lcg64_pow (lcg_a R1) s in
      Returns (lcg64_backward (Lcg64 a' b' (lcg_r R1)))
    end
  else Returns R.

(** Predefined parameter sets (lcg64.cc 59-62; lcg64_shift.cc has the same values). *)
Definition lcg64_params : list (Z * Z) :=
  (18145460002477866997, 1) :: (2862933555777941757, 1)
  :: (3202034522624059733, 1) :: (3935559000370003845, 1) :: nil.

(** operator== (lcg64.cc 42-44, 51-53, 78). *)
Definition lcg64_eqb (R1 R2 : lcg64) : bool :=
  (lcg_a R1 =? lcg_a R2) && (lcg_b R1 =? lcg_b R2) && (lcg_r R1 =? lcg_r R2).

(** seed(unsigned long long) (lcg64.cc 75). *)
Definition lcg64_seed (R : lcg64) (s : Z) : lcg64 := set_r R (wrap64 s).
