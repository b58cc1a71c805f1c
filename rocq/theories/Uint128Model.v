(** Model of trng::portable_impl::uint128 (trng/uint128.hpp 493-770).  Definitions only.
    The native class (optimized_impl, 270-468) forwards every operation to the compiler's
    unsigned __int128 and is represented by integers modulo 2^128. *)
From Coq Require Import ZArith List Bool.
From Verif Require Import Base IntMathModel.
Open Scope Z_scope.

(** m_hi, m_lo (494-495). *)
Record u128 := U128 { u_hi : Z; u_lo : Z }.
(** uint128(lo) (504-505). *)
Definition u_of64 (lo : Z) : u128 := U128 0 lo.

(** lo(), hi() and the conversion to std::uint64_t (510-520): hi() returns m_lo. *)
Definition u_get_lo (a : u128) : Z := u_lo a.
Definition u_get_hi (a : u128) : Z := u_lo a.
Definition u_to64 (a : u128) : Z := u_lo a.

(** Comparisons (534-556). *)
Definition u_eqb (a b : u128) : bool := (u_lo a =? u_lo b) && (u_hi a =? u_hi b).
Definition u_neb (a b : u128) : bool := negb (u_lo a =? u_lo b) || negb (u_hi a =? u_hi b).
Definition u_ltb (a b : u128) : bool := (u_hi a <? u_hi b) || ((u_hi a =? u_hi b) && (u_lo a <? u_lo b)).
Definition u_leb (a b : u128) : bool := (u_hi a <? u_hi b) || ((u_hi a =? u_hi b) && (u_lo a <=? u_lo b)).
Definition u_gtb (a b : u128) : bool := (u_hi a >? u_hi b) || ((u_hi a =? u_hi b) && (u_lo a >? u_lo b)).
Definition u_geb (a b : u128) : bool := (u_hi a >? u_hi b) || ((u_hi a =? u_hi b) && (u_lo a >=? u_lo b)).

(** ~x on uint64_t. *)
Definition not64 (x : Z) : Z := 2 ^ 64 - 1 - x.
(** operator~ (733-735), ++ (671-676), -- (684-689), unary - (560-562). *)
Definition u_not (a : u128) : u128 := U128 (not64 (u_hi a)) (not64 (u_lo a)).
Definition u_inc (a : u128) : u128 :=
  let lo := wrap64 (u_lo a + 1) in U128 (if lo =? 0 then wrap64 (u_hi a + 1) else u_hi a) lo.
Definition u_dec (a : u128) : u128 :=
  U128 (if u_lo a =? 0 then wrap64 (u_hi a - 1) else u_hi a) (wrap64 (u_lo a - 1)).
Definition u_neg (a : u128) : u128 := u_inc (u_not a).

(** += and -= (564-577). *)
Definition b2z (b : bool) : Z := if b then 1 else 0.
Definition u_add (a b : u128) : u128 :=
  let lo := wrap64 (u_lo a + u_lo b) in
  U128 (wrap64 (wrap64 (u_hi a + b2z (lo <? u_lo b)) + u_hi b)) lo.
Definition u_sub (a b : u128) : u128 :=
  let lo := wrap64 (u_lo a - u_lo b) in
  U128 (wrap64 (wrap64 (u_hi a - b2z (lo >? u_lo a)) - u_hi b)) lo.

(** *= (579-611). *)
Definition lo32 (x : Z) : Z := Z.land x 0xffffffff.
Definition hi32 (x : Z) : Z := Z.shiftr x 32.
Definition shl32 (x : Z) : Z := wrap64 (Z.shiftl x 32).
Definition mul64 (x y : Z) : Z := wrap64 (x * y).
Definition u_add_hi (a : u128) (m : Z) : u128 := U128 (wrap64 (u_hi a + m)) (u_lo a).
Definition u_mul (a b : u128) : u128 :=
  let lo0 := lo32 (u_lo a) in let lo1 := hi32 (u_lo a) in
  let hi0 := lo32 (u_hi a) in let hi1 := hi32 (u_hi a) in
  let olo0 := lo32 (u_lo b) in let olo1 := hi32 (u_lo b) in
  let ohi0 := lo32 (u_hi b) in let ohi1 := hi32 (u_hi b) in
  let t := U128 0 (mul64 lo0 olo0) in
  let t := u_add t (U128 (Z.shiftr (mul64 lo1 olo0) 32) (shl32 (mul64 lo1 olo0))) in
  let t := u_add t (U128 (Z.shiftr (mul64 lo0 olo1) 32) (shl32 (mul64 lo0 olo1))) in
  let t := u_add_hi t (mul64 hi0 olo0) in
  let t := u_add_hi t (mul64 lo0 ohi0) in
  let t := u_add_hi t (mul64 lo1 olo1) in
  let t := u_add_hi t (shl32 (mul64 hi1 olo0)) in
  let t := u_add_hi t (shl32 (mul64 lo0 ohi1)) in
  let t := u_add_hi t (shl32 (mul64 hi0 olo1)) in
  u_add_hi t (shl32 (mul64 lo1 ohi0)).

(** Shifts (749-767).  Shifting a uint64_t by 64 or more is undefined ([None]); the negation of the
    smallest int does not arise for the shifts considered (|s| < 2^31). *)
Definition sh64l (x s : Z) : option Z := if (0 <=? s) && (s <? 64) then Some (wrap64 (Z.shiftl x s)) else None.
Definition sh64r (x s : Z) : option Z := if (0 <=? s) && (s <? 64) then Some (Z.shiftr x s) else None.
Definition u_shr_nonneg (a : u128) (s : Z) : option u128 :=
  if s =? 0 then Some a
  else if s <? 64 then
    bind (sh64r (u_hi a) s) (fun h => bind (sh64r (u_lo a) s) (fun l => bind (sh64l (u_hi a) (64 - s)) (fun m =>
      Some (U128 h (Z.lor l m)))))
  else bind (sh64r (u_hi a) (s - 64)) (fun l => Some (U128 0 l)).
Definition u_shl_nonneg (a : u128) (s : Z) : option u128 :=
  if s =? 0 then Some a
  else if s <? 64 then
    bind (sh64l (u_hi a) s) (fun h => bind (sh64r (u_lo a) (64 - s)) (fun m => bind (sh64l (u_lo a) s) (fun l =>
      Some (U128 (Z.lor h m) l))))
  else bind (sh64l (u_lo a) (s - 64)) (fun h => Some (U128 h 0)).
Definition u_shr (a : u128) (s : Z) : option u128 := if s <? 0 then u_shl_nonneg a (- s) else u_shr_nonneg a s.
Definition u_shl (a : u128) (s : Z) : option u128 := if s <? 0 then u_shr_nonneg a (- s) else u_shl_nonneg a s.

(** |=, &=, ^= and |, &, ^ (697-731). *)
Definition u_or (a b : u128) : u128 := U128 (Z.lor (u_hi a) (u_hi b)) (Z.lor (u_lo a) (u_lo b)).
Definition u_and (a b : u128) : u128 := U128 (Z.land (u_hi a) (u_hi b)) (Z.land (u_lo a) (u_lo b)).
Definition u_xor (a b : u128) : u128 := U128 (Z.lxor (u_hi a) (u_hi b)) (Z.lxor (u_lo a) (u_lo b)).

(** /= and %= (613-663): restoring division, one quotient bit per round.  [word] is m_hi in the first
    loop (i = 127..64) and m_lo in the second (i = 63..0), [i] the bit within the word; the quotient
    word [q] and the remainder [r] are carried along. *)
Definition u_shl1 (a : u128) : u128 := match u_shl a 1 with Some b => b | None => a end.
Definition div_round (other : u128) (word i : Z) (q : Z) (r : u128) : Z * u128 :=
  let r := u_shl1 r in
  let r := U128 (u_hi r) (Z.lor (u_lo r) (if Z.land word (wrap64 (Z.shiftl 1 i)) >? 0 then 1 else 0)) in
  if u_geb r other then (Z.lor q (wrap64 (Z.shiftl 1 i)), u_sub r other) else (q, r).
Fixpoint div_loop (other : u128) (word : Z) (n : nat) (q : Z) (r : u128) : Z * u128 :=
  match n with
  | O => (q, r)
  | S i => let '(q, r) := div_round other word (Z.of_nat i) q r in div_loop other word i q r
  end.
Definition u_divmod (a other : u128) : u128 * u128 :=
  let '(qhi, r) := div_loop other (u_hi a) 64 0 (U128 0 0) in
  let '(qlo, r) := div_loop other (u_lo a) 64 0 r in
  (U128 qhi qlo, r).
Definition u_div (a b : u128) : u128 := fst (u_divmod a b).
Definition u_mod (a b : u128) : u128 := snd (u_divmod a b).
