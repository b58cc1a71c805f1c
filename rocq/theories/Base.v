(** Shared definitions: machine words and streams of draws.  No proofs. *)
From Coq Require Import ZArith.
Open Scope Z_scope.

(** [uint64_t] / [unsigned long long] arithmetic is arithmetic modulo 2^64 (C++ [basic.fundamental]). *)
Definition wrap64 (x : Z) : Z := x mod 2 ^ 64.
Definition wrap32 (x : Z) : Z := x mod 2 ^ 32.
Definition wrap128 (x : Z) : Z := x mod 2 ^ 128.

(** A value of an unsigned type of [w] bits. *)
Definition word (w : Z) (x : Z) : Prop := 0 <= x < 2 ^ w.

(** Outcome of a call: throws a C++ exception (the object is unchanged), undefined behaviour,
    or a normal return with the object afterwards. *)
Inductive outcome (E : Type) := Throws | Undefined | Returns (R : E).
Arguments Throws {E}. Arguments Undefined {E}. Arguments Returns {E} R.

(** ** Streams of draws
    [next] is one call of an engine's [operator()]: it returns the value and the engine afterwards. *)

(** The engine after [k] draws. *)
Definition after {E O : Type} (next : E -> O * E) (k : nat) (R : E) : E :=
  Nat.iter k (fun R => snd (next R)) R.

(** The value of the [k]-th draw, counting from 0. *)
Definition draw {E O : Type} (next : E -> O * E) (R : E) (k : nat) : O :=
  fst (next (after next k R)).
