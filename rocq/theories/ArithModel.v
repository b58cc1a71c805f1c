(** The arithmetic the table-driven distributions compute with.  The code models of DiscreteModel.v
    are written once over the record [arith] and used with two instances:
    - [real_arith]: exact arithmetic on the real numbers (for statements "in exact arithmetic");
    - [double_arith]: IEEE binary64, round to nearest even (Flocq), the type [double] of the code.
    Definitions only. *)
From Coq Require Import ZArith List Bool Reals.
From Flocq Require Import Core.Zaux Core.Raux Core.FLX IEEE754.BinarySingleNaN.
From Verif Require Import UniformModel.
Import ListNotations.

Record arith := Arith {
  num : Type;
  zero : num;
  one : num;
  add : num -> num -> num;
  sub : num -> num -> num;
  mul : num -> num -> num;
  div : num -> num -> num;
  ltb : num -> num -> bool;   (* a < b  *)
  leb : num -> num -> bool;   (* a <= b *)
  ofz : Z -> num;             (* conversion of an integer that is exactly representable *)
}.

Definition real_arith : arith :=
  Arith R 0%R 1%R Rplus Rminus Rmult Rdiv Rlt_bool Rle_bool IZR.

Definition double_arith : arith :=
  Arith double (of_int 53 1024 0) (of_int 53 1024 1)
    (fadd 53 1024) (fsub 53 1024) (fmul 53 1024) (fdiv 53 1024)
    (Bltb (prec := 53) (emax := 1024)) (Bleb (prec := 53) (emax := 1024)) (of_int 53 1024).

(** std::vector<double>::operator[]: an index out of range is undefined behaviour ([None]). *)
Definition vget {T} (l : list T) (i : nat) : option T := nth_error l i.
Fixpoint vput {T} (l : list T) (i : nat) (v : T) : list T :=
  match l, i with
  | [], _ => []
  | _ :: t, O => v :: t
  | x :: t, S k => x :: vput t k v
  end.
Definition vset {T} (l : list T) (i : nat) (v : T) : option (list T) :=
  if (i <? length l)%nat then Some (vput l i v) else None.
