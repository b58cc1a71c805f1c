(** Model of trng/linear_algebra.hpp.  Definitions only. *)
From Coq Require Import ZArith List Bool.
From Verif Require Import Base GaussModel.
Import ListNotations.
Open Scope Z_scope.

(** The scalar type T: its operations +, *, T{0} (also T{}), T{1}. *)
Record scalar := Scalar { sc : Type; s_zero : sc; s_one : sc; s_add : sc -> sc -> sc; s_mul : sc -> sc -> sc }.

(** An unsigned integer type of [w] bits (not narrower than int, so no promotion). *)
Definition uint_scalar (w : Z) : scalar :=
  Scalar Z 0 1 (fun x y => (x + y) mod 2 ^ w) (fun x y => (x * y) mod 2 ^ w).

(** class GF2 (228-275): the value is a uint8_t that is only ever 0 or 1; + is ^, * is &. *)
Definition gf2_scalar : scalar := Scalar bool false true xorb andb.
(** GF2 * integral (264-268): a.value ? b : T{}. *)
Definition gf2_times (a : bool) (b : Z) : Z := if a then b else 0.

Section LinAlg.
Variable T : scalar.
Let t := sc T.

(** vector<T,n>, matrix<T,n> (46-120) hold their entries in a flat array; entry (i,j) of a matrix is
    data[j + i*n] (113-114).  Reading outside the array gives zero in the model, writing outside has no
    effect; all loops below stay inside. *)
Definition vget (v : list t) (i : nat) : t := nth i v (s_zero T).
Definition mget (n : nat) (a : list t) (i j : nat) : t := nth (j + i * n) a (s_zero T).
Definition mset (n : nat) (a : list t) (i j : nat) (x : t) : list t := upd a (j + i * n) x.
(** vector(F), matrix(F) (60-67, 99-107). *)
Definition vmake (n : nat) (f : nat -> t) : list t := map f (seq 0 n).
Definition mmake (n : nat) (f : nat -> nat -> t) : list t :=
  flat_map (fun i => map (fun j => f i j) (seq 0 n)) (seq 0 n).

(** operator+ and scalar products (123-168). *)
Definition vadd (n : nat) (a b : list t) : list t := vmake n (fun i => s_add T (vget a i) (vget b i)).
Definition vscale (n : nat) (c : t) (b : list t) : list t := vmake n (fun i => s_mul T c (vget b i)).
Definition vscale_r (n : nat) (b : list t) (c : t) : list t := vmake n (fun i => s_mul T (vget b i) c).
Definition madd (n : nat) (a b : list t) : list t :=
  mmake n (fun i j => s_add T (mget n a i j) (mget n b i j)).
Definition mscale (n : nat) (c : t) (b : list t) : list t := mmake n (fun i j => s_mul T c (mget n b i j)).
Definition mscale_r (n : nat) (b : list t) (c : t) : list t := mmake n (fun i j => s_mul T (mget n b i j) c).

(** matrix * vector (171-182). *)
Definition mat_vec (n : nat) (a : list t) (b : list t) : list t :=
  vmake n (fun i => fold_left (fun sum k => s_add T sum (s_mul T (mget n a i k) (vget b k))) (seq 0 n) (s_zero T)).

(** matrix * matrix (185-206), blocked with step 32: the loops over j0 and k0 run through the multiples
    of 32 below n; [blk n x0] are the indices from x0 to min(n, x0 + 32) - 1. *)
Definition block_step : nat := 32.
Definition blocks (n : nat) : list nat := map (fun q => (q * block_step)%nat) (seq 0 ((n + (block_step - 1)) / block_step)).
Definition blk (n x0 : nat) : list nat := seq x0 (Nat.min n (x0 + block_step) - x0).
(** "for i < n, for j in the block": all pairs in loop order. *)
Definition cells (n j0 : nat) : list (nat * nat) :=
  flat_map (fun i => map (fun j => (i, j)) (blk n j0)) (seq 0 n).
Definition block_sum (n : nat) (a b : list t) (i j k0 : nat) : t :=
  fold_left (fun sum k => s_add T sum (s_mul T (mget n a i k) (mget n b k j))) (blk n k0) (s_zero T).
Definition mat_mult (n : nat) (a b : list t) : list t :=
  fold_left (fun res j0 =>
      let res := fold_left (fun res (ij : nat * nat) => mset n res (fst ij) (snd ij) (s_zero T)) (cells n j0) res in
      fold_left (fun res k0 =>
          fold_left (fun res (ij : nat * nat) =>
              mset n res (fst ij) (snd ij) (s_add T (mget n res (fst ij) (snd ij)) (block_sum n a b (fst ij) (snd ij) k0)))
            (cells n j0) res)
        (blocks n) res)
    (blocks n) (repeat (s_zero T) (n * n)).

(** power (209-225); [m] is an unsigned long long, so 64 rounds suffice. *)
Definition unit_matrix (n : nat) : list t :=
  mmake n (fun i j => if Nat.eqb i j then s_one T else s_zero T).
Fixpoint power_rounds (n fuel : nat) (m : Z) (res powers : list t) : list t :=
  match fuel with
  | O => res
  | S fuel =>
      if m >? 0 then
        let res := if Z.land m 1 =? 1 then mat_mult n res powers else res in
        let m := Z.shiftr m 1 in
        if m =? 0 then res else power_rounds n fuel m res (mat_mult n powers powers)
      else res
  end.
Definition mat_power (n : nat) (a : list t) (m : Z) : list t := power_rounds n 64 m (unit_matrix n) a.
End LinAlg.
