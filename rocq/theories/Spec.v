(** Specification vocabulary used in the property statements.  Independent of every engine model. *)
From Coq Require Import ZArith List.
From Verif Require Import Base.
Open Scope Z_scope.

(** The draws of [R'] are every [s]-th draw of [R], starting with draw [n] (counting from 0). *)
Definition leapfrog {E O} (next : E -> O * E) (R R' : E) (s n : Z) : Prop :=
  forall k : nat, draw next R' k = draw next R (k * Z.to_nat s + Z.to_nat n).

(** [f] maps w-bit words one-to-one onto w-bit words. *)
Definition permutes_words (w : Z) (f : Z -> Z) : Prop :=
  (forall t, word w t -> word w (f t)) /\
  (forall v, word w v -> exists! t, word w t /\ f t = v).

(** [f] maps [0,m) one-to-one onto [0,m). *)
Definition permutes_below (m : Z) (f : Z -> Z) : Prop :=
  (forall t, 0 <= t < m -> 0 <= f t < m) /\
  (forall v, 0 <= v < m -> exists! t, 0 <= t < m /\ f t = v).

(** The stream of draws visits every value of [lo,hi) exactly once in any [hi-lo] consecutive
    draws and then repeats. *)
Definition full_cycle_stream {E} (next : E -> Z * E) (R : E) (lo hi : Z) : Prop :=
  (forall k, lo <= draw next R k < hi) /\
  (forall v, lo <= v < hi -> exists! k, (k < Z.to_nat (hi - lo))%nat /\ draw next R k = v) /\
  (forall k, draw next R (k + Z.to_nat (hi - lo)) = draw next R k).

(** The [s] engines [streams 0 .. streams (s-1)] read round-robin give the draws of [R] in order, and
    the positions of [R] are partitioned: position i belongs to exactly one pair (stream, index). *)
Definition tiles {E O} (next : E -> O * E) (R : E) (s : nat) (streams : nat -> E) : Prop :=
  (forall i, draw next R i = draw next (streams (Nat.modulo i s)) (Nat.div i s)) /\
  (forall i, exists! nk : nat * nat, (fst nk < s)%nat /\ i = (snd nk * s + fst nk)%nat) /\
  (forall n k, (n < s)%nat -> draw next (streams n) k = draw next R (k * s + n)).
