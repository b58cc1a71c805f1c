(** correlated_normal_dist.hpp in exact real arithmetic.

    Vectors are lists; an access outside a vector is the outcome [OutOfBounds].  A division by zero or
    a square root of a negative number, which IEEE arithmetic answers with an infinity or NaN, is the
    outcome [NotReal].  inv_Phi of the uniform variate is an input: a draw takes the standard normal
    variate z.  size_type products d * d are not wrapped. *)
From Coq Require Import Reals List Arith.
Import ListNotations.

Inductive result (A : Type) : Type :=
| Value (a : A)
| NotReal
| OutOfBounds.
Arguments Value {A} a. Arguments NotReal {A}. Arguments OutOfBounds {A}.

Definition bind {A B} (x : result A) (f : A -> result B) : result B :=
  match x with Value a => f a | NotReal => NotReal | OutOfBounds => OutOfBounds end.

(** H_[p] as a value and as the left side of an assignment *)
Definition rd (H : list R) (p : nat) : result R :=
  match nth_error H p with Some v => Value v | None => OutOfBounds end.
Fixpoint wr (H : list R) (p : nat) (v : R) : result (list R) :=
  match H, p with
  | _ :: t, O => Value (v :: t)
  | x :: t, S p => bind (wr t p v) (fun t' => Value (x :: t'))
  | [], _ => OutOfBounds
  end.

(** x / y and math::sqrt(x) *)
Definition rdiv (x y : R) : result R := if Req_EM_T y 0 then NotReal else Value (x / y)%R.
Definition rsqrt (x : R) : result R := if Rlt_dec x 0 then NotReal else Value (sqrt x).

(** for (size_type i{first}; i < first + n; ++i) s = body(i, s) *)
Fixpoint for_ {S : Type} (first n : nat) (body : nat -> S -> result S) (s : S) : result S :=
  match n with
  | O => Value s
  | Datatypes.S n => bind (body first s) (for_ (Datatypes.S first) n body)
  end.

(** the loops over j in lines 66-68 and 71-73: t = sum of H_[i*d+j] * H_[k*d+j] for j < n *)
Definition dot (d : nat) (H : list R) (i k n : nat) : result R :=
  for_ 0 n (fun j t => bind (rd H (i * d + j)) (fun x => bind (rd H (k * d + j)) (fun y =>
                       Value (t + x * y)%R))) 0%R.

(** lines 65-70, body of the loop over k *)
Definition chol_entry (d i k : nat) (H : list R) : result (list R) :=
  bind (dot d H i k k) (fun t =>
  bind (rd H (i * d + k)) (fun x =>
  bind (rd H (k * d + k)) (fun y =>
  bind (rdiv (x - t)%R y) (fun v => wr H (i * d + k) v)))).

(** lines 64-77, body of the loop over i *)
Definition chol_row (d i : nat) (H : list R) : result (list R) :=
  bind (for_ 0 i (chol_entry d i) H) (fun H =>
  bind (dot d H i i i) (fun t =>
  bind (rd H (i * d + i)) (fun x =>
  bind (rsqrt (x - t)%R) (fun v =>
  bind (wr H (i * d + i) v) (fun H =>
  for_ (S i) (d - S i) (fun k H => wr H (i * d + k) 0%R) H))))).

(** Cholesky_factorization (63-78) *)
Definition cholesky (d : nat) (H : list R) : result (list R) := for_ 0 d (chol_row d) H.

(** param_type: H_ (60) and d_ (61) *)
Record cn_param := CnParam { cn_H : list R; cn_d : nat }.

(** param_type() (91) *)
Definition cn_param_default : cn_param := CnParam [] 0.

(** param_type(first, last) (92-100); d_ is the integer part of the square root of the length *)
Definition cn_param_make (A : list R) : result cn_param :=
  let d := Nat.sqrt (length A) in
  bind (cholesky d (firstn (d * d) A)) (fun H => Value (CnParam H d)).

(** H_times (80-86) *)
Definition H_times (P : cn_param) (normal : list R) : result R :=
  let d := length normal in
  for_ 0 d (fun j y => bind (rd (cn_H P) ((d - 1) * cn_d P + j)) (fun h => bind (rd normal j) (fun z =>
                       Value (y + h * z)%R))) 0%R.

(** the distribution object: P (153) and normal_ (154) *)
Record cn_dist := CnDist { cn_P : cn_param; cn_normal : list R }.

(** constructor (160), reset (162), param(P_new) (181) *)
Definition cn_make (P : cn_param) : cn_dist := CnDist P [].
Definition cn_reset (g : cn_dist) : cn_dist := CnDist (cn_P g) [].
Definition cn_set_param (g : cn_dist) (P : cn_param) : cn_dist := CnDist P (cn_normal g).

(** operator()(r) (165-171), for the standard normal variate z = inv_Phi(uniformoo(r)) *)
Definition cn_draw (g : cn_dist) (z : R) : result (R * cn_dist) :=
  let normal := cn_normal g ++ [z] in
  bind (H_times (cn_P g) normal) (fun y =>
  Value (y, CnDist (cn_P g) (if Nat.eqb (length normal) (cn_d (cn_P g)) then [] else normal))).

(** a run of draws *)
Fixpoint cn_draws (g : cn_dist) (zs : list R) : result (list R * cn_dist) :=
  match zs with
  | [] => Value ([], g)
  | z :: zs => bind (cn_draw g z) (fun '(y, g) => bind (cn_draws g zs) (fun '(ys, g) => Value (y :: ys, g)))
  end.

(** operator()(r, P) (173-176) *)
Definition cn_draw_with (P : cn_param) (z : R) : result R :=
  bind (cn_draw (cn_make P) z) (fun '(y, _) => Value y).

(** operator== on parameters (105-108) and distributions (187-191) *)
Definition cn_param_eq (P1 P2 : cn_param) : Prop := cn_H P1 = cn_H P2.
Definition cn_eq (g1 g2 : cn_dist) : Prop := cn_param_eq (cn_P g1) (cn_P g2).
