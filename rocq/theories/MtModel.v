(** Model of trng/mt19937.hpp, mt19937.cc, mt19937_64.hpp, mt19937_64.cc.  Definitions only.
    Line numbers are those of mt19937.hpp unless another file is named. *)
From Coq Require Import ZArith List Bool.
From Verif Require Import Base IntMathModel GaussModel MrgModel LagfibModel.
Import ListNotations.
Open Scope Z_scope.

(** What differs between the two classes: width of result_type, N, M, UM, LM, mag01[1] (75-78, 221;
    mt19937_64.hpp 78-81, 229), the tempering and the seeding step. *)
Record mt_class := MtClass {
  mt_w : Z; mt_N : nat; mt_M : nat; mt_UM : Z; mt_LM : Z; mt_A : Z;
  mt_temper : Z -> Z; mt_seed0 : Z -> Z; mt_seed_step : Z -> Z -> Z }.

(** Tempering (236-240; mt19937_64.hpp 245-249). *)
Definition temper32 (x : Z) : Z :=
  let x := Z.lxor x (Z.shiftr x 11) in
  let x := Z.lxor x (Z.land (wrap32 (Z.shiftl x 7)) 0x9d2c5680) in
  let x := Z.lxor x (Z.land (wrap32 (Z.shiftl x 15)) 0xefc60000) in
  Z.lxor x (Z.shiftr x 18).
Definition temper64 (x : Z) : Z :=
  let x := Z.lxor x (Z.land (Z.shiftr x 29) 0x5555555555555555) in
  let x := Z.lxor x (Z.land (wrap64 (Z.shiftl x 17)) 0x71D67FFFEDA60000) in
  let x := Z.lxor x (Z.land (wrap64 (Z.shiftl x 37)) 0xFFF7EEE000000000) in
  Z.lxor x (Z.shiftr x 43).

(** The seeding recurrence (mt19937.cc 70-73, mt19937_64.cc 70-73); [i] is S.mti. *)
Definition seed_step32 (p i : Z) : Z :=
  Z.land (wrap32 (wrap32 (1812433253 * Z.lxor p (Z.shiftr p 30)) + i)) 0xffffffff.
Definition seed_step64 (p i : Z) : Z :=
  wrap64 (wrap64 (6364136223846793005 * Z.lxor p (Z.shiftr p 62)) + i).

Definition mt32_class : mt_class :=
  MtClass 32 624 397 0x80000000 0x7FFFFFFF 0x9908b0df temper32 (fun s => Z.land s 0xffffffff) seed_step32.
(** unsigned long is taken as 64 bits wide. *)
Definition mt64_class : mt_class :=
  MtClass 64 312 156 0xFFFFFFFF80000000 0x7FFFFFFF 0xB5026F5AA96619E9 temper64 (fun s => s) seed_step64.

(** status_type (117-153): the index (an int) and the array. *)
Record mt := Mt { mt_i : Z; mt_v : list Z }.

(** One assignment of the regeneration: x = (mt[i] & UM) | (mt[k] & LM);
    mt[i] = mt[j] ^ (x >> 1) ^ mag01[x & 1] (225-226, 229-230, 232-233).  Array accesses outside
    the array are undefined behaviour ([None]). *)
Definition mt_set (c : mt_class) (r : list Z) (i k j : Z) : option (list Z) :=
  bind (rd r i) (fun a => bind (rd r k) (fun b => bind (rd r j) (fun m =>
    let x := Z.lor (Z.land a (mt_UM c)) (Z.land b (mt_LM c)) in
    wr r i (Z.lxor (Z.lxor m (Z.shiftr x 1)) (if Z.land x 1 =? 1 then mt_A c else 0))))).
(** for (; i < end; ++i) with mt[j] = mt[i + off]; [cnt] is the number of rounds. *)
Fixpoint mt_loop (c : mt_class) (cnt : nat) (i off : Z) (r : list Z) : option (list Z) :=
  match cnt with
  | O => Some r
  | S cnt => bind (mt_set c r i (i + 1) (i + off)) (mt_loop c cnt (i + 1) off)
  end.
Definition mt_regenerate (c : mt_class) (r : list Z) : option (list Z) :=
  let N := Z.of_nat (mt_N c) in let M := Z.of_nat (mt_M c) in
  bind (mt_loop c (mt_N c - mt_M c) 0 M r) (fun r =>
  bind (mt_loop c (mt_M c - 1) (N - M) (M - N) r) (fun r =>
  mt_set c r (N - 1) 0 (M - 1))).

(** operator() (220-242). *)
Definition mt_step (c : mt_class) (S : mt) : option (Z * mt) :=
  let S1 := if mt_i S >=? Z.of_nat (mt_N c) then bind (mt_regenerate c (mt_v S)) (fun r => Some (Mt 0 r)) else Some S in
  bind S1 (fun S => bind (rd (mt_v S) (mt_i S)) (fun x => Some (mt_temper c x, Mt (mt_i S + 1) (mt_v S)))).
(** The engine is [None] once undefined behaviour has occurred. *)
Definition mt_next (c : mt_class) (S : option mt) : option Z * option mt :=
  match bind S (mt_step c) with Some (x, S1) => (Some x, Some S1) | None => (None, None) end.
(** discard (244-247). *)
Definition mt_discard (c : mt_class) (n : Z) (S : option mt) : option mt :=
  Nat.iter (Z.to_nat n) (fun S => snd (mt_next c S)) S.

(** seed(unsigned long) (mt19937.cc 69-74, mt19937_64.cc 69-74). *)
Fixpoint mt_seed_loop (c : mt_class) (cnt : nat) (i : Z) (r : list Z) : option (list Z) :=
  match cnt with
  | O => Some r
  | S cnt => bind (rd r (i - 1)) (fun p => bind (wr r i (mt_seed_step c p i)) (mt_seed_loop c cnt (i + 1)))
  end.
Definition mt_seed (c : mt_class) (s : Z) (S : mt) : option mt :=
  bind (wr (mt_v S) 0 (mt_seed0 c s)) (fun r =>
  bind (mt_seed_loop c (mt_N c - 1) 1 r) (fun r => Some (Mt (Z.of_nat (mt_N c)) r))).
(** A status_type before seeding (119-120), and the constructors (mt19937.cc 63-65). *)
Definition mt_blank (c : mt_class) : mt := Mt 0 (repeat 0 (mt_N c)).
Definition mt_construct (c : mt_class) (s : Z) : option mt := mt_seed c s (mt_blank c).
Definition mt_default (c : mt_class) : option mt := mt_construct c 5489.
(** seed(gen) (166-170: one value; mt19937_64.hpp 171-179: two values). *)
Definition mt32_seed_gen (g : gen) (s : g_state g) (S : mt) : option mt :=
  mt_seed mt32_class (wrap64 (fst (g_next g s))) S.
Definition mt64_seed_gen (g : gen) (s : g_state g) (S : mt) : option mt :=
  let '(a, s) := g_next g s in
  let r := wrap64 (wrap64 (Z.shiftl 0 32) + a) in
  let '(b, s) := g_next g s in
  mt_seed mt64_class (wrap64 (wrap64 (Z.shiftl r 32) + b)) S.

(** operator== of status_type compares the array only (mt19937.cc 51-56), of the engine 77-79. *)
Definition mt_eqb (S1 S2 : mt) : bool := list_eqb (mt_v S1) (mt_v S2).
