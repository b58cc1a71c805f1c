(** Model of int_math::gauss (trng/int_math.hpp 142-211).  Definitions only.
    The flat array a[n*n] is the list of its n rows; p is the row permutation.  The inner loops over
    the columns of one row write each element once and read only that element and the pivot row, so
    they are written as maps over the column index. *)
From Coq Require Import ZArith List Bool Arith.
From Verif Require Import Base IntMathModel.
Import ListNotations.
Open Scope Z_scope.

Fixpoint upd {A} (l : list A) (i : nat) (v : A) : list A :=
  match l, i with
  | [], _ => []
  | _ :: l', O => v :: l'
  | x :: l', S k => x :: upd l' k v
  end.

(** a[n * r + c], p[i], b[i] *)
Definition ent (a : list (list Z)) (r c : nat) : Z := nth c (nth r a []) 0.
Definition prow (p : list nat) (i : nat) : nat := nth i p 0%nat.

(** while (j < n and a[n * p[j] + i] == 0) j++   (155-156); [k] is n - j. *)
Fixpoint find_row (a : list (list Z)) (p : list nat) (i j k : nat) : nat :=
  match k with
  | O => j
  | S k' => if ent a (prow p j) i =? 0 then find_row a p i (S j) k' else j
  end.

(** search for a pivot element (151-162) *)
Definition pivot (n : nat) (a : list (list Z)) (p : list nat) (i : nat) : list nat :=
  if ent a (prow p i) i =? 0 then
    let j := find_row a p i (S i) (n - S i) in
    if (j <? n)%nat then upd (upd p i (prow p j)) j (prow p i) else p
  else p.

(** x - y in [0,m): the subtraction with correction used throughout. *)
Definition subm (m x y : Z) : Z := let t := x - y in if t <? 0 then t + m else t.

(** the pivot row is multiplied by t (168-172) *)
Definition scale_row (n : nat) (m : Z) (i : nat) (t : Z) (row : list Z) : list Z :=
  map (fun c => if (c <? i)%nat then nth c row 0 else Z.rem (nth c row 0 * t) m) (seq 0 n).

(** row j is multiplied by t, then the pivot row is subtracted (176-182) *)
Definition sub_row (n : nat) (m : Z) (i : nat) (t : Z) (row piv : list Z) : list Z :=
  map (fun c => if (c <? i)%nat then nth c row 0
                else subm m (Z.rem (nth c row 0 * t) m) (nth c piv 0)) (seq 0 n).

(** body of the loop over j > i (173-188) *)
Definition elim_row (n : nat) (m : Z) (p : list nat) (i j : nat) (ab : list (list Z) * list Z)
  : result (list (list Z) * list Z) :=
  let (a, b) := ab in
  let pj := prow p j in let pi := prow p i in
  if ent a pj i =? 0 then Val ab
  else match modulo_inverse (ent a pj i) m with
       | Val t => Val (upd a pj (sub_row n m i t (nth pj a []) (nth pi a [])),
                       upd b pj (subm m (Z.rem (nth pj b 0 * t) m) (nth pi b 0)))
       | InvalidArgument => InvalidArgument | RuntimeError => RuntimeError
       | Overflow => Overflow | OutOfFuel => OutOfFuel
       end.

Fixpoint elim_rows (n : nat) (m : Z) (p : list nat) (i : nat) (js : list nat)
  (ab : list (list Z) * list Z) : result (list (list Z) * list Z) :=
  match js with
  | [] => Val ab
  | j :: js' =>
    match elim_row n m p i j ab with
    | Val ab' => elim_rows n m p i js' ab'
    | e => e
    end
  end.

(** make matrix triangular (149-189); [k] is n - i.  Returns (rank, a, b, p). *)
Fixpoint triangulate (n : nat) (m : Z) (k i : nat) (a : list (list Z)) (b : list Z) (p : list nat)
  : result (nat * list (list Z) * list Z * list nat) :=
  match k with
  | O => Val (i, a, b, p)
  | S k' =>
    let p := pivot n a p i in
    let pi := prow p i in
    if ent a pi i =? 0 then Val (i, a, b, p)
    else match modulo_inverse (ent a pi i) m with
         | Val t =>
           let a1 := upd a pi (scale_row n m i t (nth pi a [])) in
           let b1 := upd b pi (Z.rem (nth pi b 0 * t) m) in
           match elim_rows n m p i (seq (S i) (n - S i)) (a1, b1) with
           | Val (a2, b2) => triangulate n m k' (S i) a2 b2 p
           | InvalidArgument => InvalidArgument | RuntimeError => RuntimeError
           | Overflow => Overflow | OutOfFuel => OutOfFuel
           end
         | InvalidArgument => InvalidArgument | RuntimeError => RuntimeError
         | Overflow => Overflow | OutOfFuel => OutOfFuel
         end
  end.

(** solve triangular system (198-204): rows i = k-1, ..., 0. *)
Fixpoint back_sub (n : nat) (m : Z) (a : list (list Z)) (p : list nat) (k : nat) (b : list Z) : list Z :=
  match k with
  | O => b
  | S i =>
    let pi := prow p i in
    let v := fold_left (fun t j => subm m t (Z.rem (ent a pi j * nth (prow p j) b 0) m))
                       (seq (S i) (n - S i)) (nth pi b 0) in
    back_sub n m a p i (upd b pi v)
  end.

(** gauss<n>(a, b, m): the vector left in b, or the exception. *)
Definition gauss (n : nat) (m : Z) (a : list (list Z)) (b : list Z) : result (list Z) :=
  match triangulate n m n 0 a b (seq 0 n) with
  | Val (rank, a1, b1, p) =>
    if existsb (fun i => negb (nth (prow p i) b1 0 =? 0)) (seq rank (n - rank)) then RuntimeError
    else let b2 := back_sub n m a1 p (n - 1) b1 in
         Val (map (fun i => nth (prow p i) b2 0) (seq 0 n))
  | InvalidArgument => InvalidArgument | RuntimeError => RuntimeError
  | Overflow => Overflow | OutOfFuel => OutOfFuel
  end.
