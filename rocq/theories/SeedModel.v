(** Model of the member function templates seed(gen &) of lcg64, lcg64_shift, lcg64_count_shift,
    count128_lcg_shift and minstd.  Definitions only.  seed(gen &) of the mrg and yarn engines is in
    MrgModel.v, of the lagged Fibonacci engines in LagfibModel.v, of the Mersenne twisters in MtModel.v,
    of xoshiro256plus in XoshiroModel.v.

    The values of the source are integers; a negative one (signed result_type) is converted to the unsigned
    type of the engine. *)
From Coq Require Import ZArith List Bool.
From Verif Require Import Base Lcg64Model CountShiftModel Count128Model MinstdModel LagfibModel.
Open Scope Z_scope.

(** for (int i{0}; i < n; ++i) { r <<= 32u; r += g(); } (lcg64.hpp 181-184, lcg64_shift.hpp 181-184,
    lcg64_count_shift.hpp 188-191 and 195-198, count128_lcg_shift.hpp 170-173); [wrap] is the reduction of
    the type of r. *)
Fixpoint shift_in (wrap : Z -> Z) (g : gen) (n : nat) (r : Z) (s : g_state g) : Z * g_state g :=
  match n with
  | O => (r, s)
  | S n =>
    let r := wrap (Z.shiftl r 32) in
    let '(x, s) := g_next g s in
    shift_in wrap g n (wrap (r + x)) s
  end.

(** lcg64::seed(gen &) (lcg64.hpp 178-186) and lcg64_shift::seed(gen &) (lcg64_shift.hpp 178-186). *)
Definition lcg64_seed_gen (R : lcg64) (g : gen) (s : g_state g) : lcg64 * g_state g :=
  let '(r, s) := shift_in wrap64 g 2 0 s in (set_r R r, s).

(** lcg64_count_shift::seed(gen &) (lcg64_count_shift.hpp 184-200). *)
Definition cs_seed_gen (R : lcs) (g : gen) (s : g_state g) : lcs * g_state g :=
  let '(r, s) := shift_in wrap64 g 2 0 s in
  let '(c, s) := shift_in wrap64 g 2 0 s in
  (Lcs (set_r (cs_lcg R) r) (cs_inc R) (c mod cs_modulus), s).

(** count128_lcg_shift::seed(gen &) (count128_lcg_shift.hpp 167-175). *)
Definition c128_seed_gen (R : c128) (g : gen) (s : g_state g) : c128 * g_state g :=
  let '(r, s) := shift_in wrap128 g 4 0 s in (c128_set R r, s).

(** minstd::seed(gen &) (minstd.hpp 112-117): do { S.r = g() % 2147483647; } while (S.r == 0);
    [None] is "still in the loop after [fuel] rounds". *)
Fixpoint minstd_seed_gen (fuel : nat) (g : gen) (s : g_state g) : option (Z * g_state g) :=
  match fuel with
  | O => None
  | S fuel =>
    let '(x, s) := g_next g s in
    let r := wrap32 (Z.rem x 2147483647) in
    if r =? 0 then minstd_seed_gen fuel g s else Some (r, s)
  end.
