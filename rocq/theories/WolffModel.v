(** Model of the lattice and of the Wolff cluster step of examples/Ising_model.cc.

    The random number engine with its two distributions is a state with two functions, [pick] for
    the draw of uniform_int_dist U(0, L) and [draw] for the draw of bernoulli_dist B.  Undefined
    behaviour (index out of range, overflow of int) is [None].  Definitions only. *)
From Coq Require Import ZArith List Bool.
Import ListNotations.
Open Scope Z_scope.

Definition obind {A B} (x : option A) (f : A -> option B) : option B := match x with Some a => f a | None => None end.
(** a value of type int *)
Definition int_ok (z : Z) : bool := (- 2 ^ 31 <=? z) && (z <? 2 ^ 31).

(** struct coord (Ising_model.cc 75-78) *)
Record coord := Coord { cx : Z; cy : Z }.
(** class lattice (81-99); L2 is L * L *)
Record lattice := Lat { lat_L : Z; lat_s : list Z }.

(** lattice::pos (102-108): the two loops, with fuel *)
Fixpoint pos_up (fuel : nat) (L x : Z) : option Z :=
  match fuel with
  | O => None
  | S f => if x <? 0 then pos_up f L (x + L) else Some x
  end.
Fixpoint pos_down (fuel : nat) (L x : Z) : option Z :=
  match fuel with
  | O => None
  | S f => if L <=? x then pos_down f L (x - L) else Some x
  end.
Definition lat_pos (L x : Z) : option Z :=
  let n := S (Z.to_nat (Z.abs x)) in obind (pos_up n L x) (pos_down (n + Z.to_nat L) L).

(** lattice::resize for a lattice without spins (116-125) *)
Definition lat_new (L : Z) : option lattice :=
  if (0 <? L) && int_ok (L * L) then Some (Lat L (repeat 0 (Z.to_nat (L * L)))) else None.
(** lattice::fill (133-136) *)
Definition lat_fill (l : lattice) (w : Z) : lattice := Lat (lat_L l) (repeat w (Z.to_nat (lat_L l * lat_L l))).

(** the index expression pos(r.x) + pos(r.y) * L (129, 140, 145) *)
Definition lat_index (l : lattice) (r : coord) : option nat :=
  if int_ok (cx r) && int_ok (cy r) then
    obind (lat_pos (lat_L l) (cx r)) (fun i => obind (lat_pos (lat_L l) (cy r)) (fun j => Some (Z.to_nat (i + j * lat_L l))))
  else None.
(** lattice::get (139-141) *)
Definition lat_get (l : lattice) (r : coord) : option Z := obind (lat_index l r) (nth_error (lat_s l)).
(** lattice::set (144-146) *)
Definition put (s : list Z) (k : nat) (v : Z) : list Z := firstn k s ++ v :: skipn (S k) s.
Definition lat_set (l : lattice) (r : coord) (w : Z) : option lattice :=
  obind (lat_index l r) (fun k => obind (nth_error (lat_s l) k) (fun _ => Some (Lat (lat_L l) (put (lat_s l) k w)))).
(** lattice::flipp (128-130) *)
Definition lat_flipp (l : lattice) (r : coord) : option lattice :=
  obind (lat_index l r) (fun k => obind (nth_error (lat_s l) k) (fun v => Some (Lat (lat_L l) (put (lat_s l) k (v * -1))))).

(** the sum of lattice::energy (149-155) before the division by L2; a sum of ints in double, exact
    for L < 2^25 *)
Definition zrange (L : Z) : list Z := map Z.of_nat (seq 0 (Z.to_nat L)).
Definition lat_energy (l : lattice) : option Z :=
  let L := lat_L l in
  fold_left (fun e i => fold_left (fun e j =>
    obind e (fun e => obind (nth_error (lat_s l) (Z.to_nat (i + j * L))) (fun v =>
    obind (lat_pos L (i + 1)) (fun i' => obind (nth_error (lat_s l) (Z.to_nat (i' + j * L))) (fun a =>
    obind (lat_pos L (j + 1)) (fun j' => obind (nth_error (lat_s l) (Z.to_nat (i + j' * L))) (fun b =>
    Some (e - v * (a + b)))))))) ) (zrange L) e) (zrange L) (Some 0).

Section Step.
Variable E : Type.
Variable draw : E -> bool * E.
Variable pick : E -> Z * E.

(** if (s.get(r) == oldspin) if (B(R)) { buffer.push(r); s.flipp(r); } (206-210, repeated three times) *)
Definition try_site (old : Z) (r : coord) (st : list coord * lattice * E) : option (list coord * lattice * E) :=
  let '(q, l, e) := st in
  obind (lat_get l r) (fun v =>
    if v =? old then
      let (b, e) := draw e in
      if b then obind (lat_flipp l r) (fun l => Some (q ++ [r], l, e)) else Some (q, l, e)
    else Some (q, l, e)).
(** while (!buffer.empty()) (202-233) *)
Fixpoint wolff_loop (fuel : nat) (old : Z) (st : list coord * lattice * E) : option (lattice * E) :=
  match fuel with
  | O => None
  | S f =>
    let '(q, l, e) := st in
    match q with
    | [] => Some (l, e)
    | r :: q =>
      let r := Coord (cx r - 1) (cy r) in
      obind (try_site old r (q, l, e)) (fun st =>
      let r := Coord (cx r + 1 + 1) (cy r) in
      obind (try_site old r st) (fun st =>
      let r := Coord (cx r - 1) (cy r - 1) in
      obind (try_site old r st) (fun st =>
      let r := Coord (cx r) (cy r + 1 + 1) in
      obind (try_site old r st) (wolff_loop f old))))
    end
  end.
(** wolffstep (188-234) *)
Definition wolffstep (fuel : nat) (l : lattice) (e : E) : option (lattice * E) :=
  let (x, e) := pick e in
  let (y, e) := pick e in
  let r := Coord x y in
  obind (lat_get l r) (fun old => obind (lat_flipp l r) (fun l => wolff_loop fuel old ([r], l, e))).
End Step.
Arguments try_site {E}. Arguments wolff_loop {E}. Arguments wolffstep {E}.
