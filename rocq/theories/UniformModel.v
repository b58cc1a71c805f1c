(** Model of trng/uniformxx.hpp (u01xx_traits and the uniform?? functions), of
    the engine call with a bound, and of uniform_int_dist and uniform_dist.

    Floating-point arithmetic is IEEE-754 with rounding to nearest even, as
    formalised by Flocq: a value is an element of [binary_float prec emax],
    (53, 1024) for double and (24, 128) for float, including infinities and
    NaN.  Every C++ operation is one correctly rounded operation
    (FLT_EVAL_METHOD = 0, no contraction into fused operations). *)
From Coq Require Import ZArith Bool List.
From Flocq Require Import Core.Zaux Core.FLX IEEE754.BinarySingleNaN.
Import ListNotations.
Open Scope Z_scope.

(** static_cast to a signed type of [w] bits. *)
Definition signed_cast (w x : Z) : Z :=
  let y := x mod 2 ^ w in if y <? 2 ^ (w - 1) then y else y - 2 ^ w.

(** Bits<top, count> (uniformxx.hpp 46-54).  [fuel] bounds the template
    recursion; 64 levels are enough for a 64-bit argument. *)
Fixpoint bits_of (fuel : nat) (top count : Z) : Z :=
  match fuel with
  | O => count
  | S k => if top =? 0 then count else bits_of k (top / 2) (count + 1)
  end.

(** Holes<top, count> (uniformxx.hpp 58-66): zero bits below the leading one;
    [~top & 1u] is 1 for even [top]. *)
Fixpoint holes_of (fuel : nat) (top count : Z) : Z :=
  match fuel with
  | O => count
  | S k => if top =? 0 then count
           else holes_of k (top / 2) (count + (if Z.even top then 1 else 0))
  end.

(** domain_bits, domain_full_bits (uniformxx.hpp 81-83); [D] is domain_max0 =
    max() - min() of the engine. *)
Definition domain_bits (D : Z) : Z := bits_of 64 D 0.
Definition domain_full_bits (D : Z) : Z :=
  domain_bits D - (if holes_of 64 D 0 >? 0 then 1 else 0).

(** int_ok, long_ok, long_long_ok (uniformxx.hpp 84-90), for 32-bit int and
    64-bit long and long long. *)
Definition int_ok (D : Z) : bool := domain_bits D <? 32.
Definition long_ok (D : Z) : bool := domain_bits D <? 64.
Definition long_long_ok (D : Z) : bool := domain_bits D <? 64.

Section Format.
Context (prec emax : Z) {prec_gt_0_ : Prec_gt_0 prec} {prec_lt_emax_ : Prec_lt_emax prec emax}.

Notation F := (binary_float prec emax).

(** Conversion of an integer to the floating-point type. *)
Definition of_int (z : Z) : F := binary_normalize prec emax _ _ mode_NE z 0 false.
Definition fadd (x y : F) : F := Bplus mode_NE x y.
Definition fsub (x y : F) : F := Bminus mode_NE x y.
Definition fmul (x y : F) : F := Bmult mode_NE x y.
Definition fdiv (x y : F) : F := Bdiv mode_NE x y.

(** numeric_limits<ret_t>::epsilon(). *)
Definition native_eps : F := binary_normalize prec emax _ _ mode_NE 1 (1 - prec) false.

(** bits and calls_needed (uniformxx.hpp 92-97); ret_bits is [prec]. *)
Definition want_bits (req : Z) : Z :=
  let bits0 := if req <? prec then req else prec in if bits0 <? 1 then 1 else bits0.
Definition calls_needed (D req : Z) : Z :=
  want_bits req / domain_full_bits D +
  (if want_bits req mod domain_full_bits D =? 0 then 0 else 1).

(** use_ll_of_shifted and domain_max (uniformxx.hpp 102-105). *)
Definition use_ll_of_shifted (D req : Z) : bool :=
  negb (long_long_ok D) && (D / 2 =? (2 ^ 64 - 1) / 2) && (want_bits req <? domain_bits D).
Definition domain_max (D req : Z) : Z := if use_ll_of_shifted D req then D / 2 else D.

(** addin (uniformxx.hpp 107-120); [x] is r() - min(). *)
Definition addin (D req x : Z) : F :=
  if int_ok D then of_int (signed_cast 32 x)
  else if long_ok D then of_int (signed_cast 64 x)
  else if long_long_ok D then of_int (signed_cast 64 x)
  else if use_ll_of_shifted D req then of_int (signed_cast 64 (x / 2))
  else of_int x.

(** scale_per_step (uniformxx.hpp 123, 139). *)
Definition scale_per_step (D req : Z) : F := fadd (of_int (domain_max D req)) (of_int 1).

(** variate_max (uniformxx.hpp 121-129). *)
Definition variate_max (D req : Z) : F :=
  let max_addin := of_int (domain_max D req) in
  Nat.iter (Z.to_nat (calls_needed D req) - 1)
    (fun ret => fadd (fmul ret (scale_per_step D req)) max_addin) max_addin.

(** variate (uniformxx.hpp 130-144): [x] and [xs] are the calls_needed values
    of r() - min() in the order of the calls.  The static assertions hold for
    1 <= D < 2^64. *)
Definition variate (D req : Z) (x : Z) (xs : list Z) : F :=
  fold_left (fun ret x => fadd (fmul ret (scale_per_step D req)) (addin D req x)) xs
    (addin D req x).

(** eps (uniformxx.hpp 145-150). *)
Definition eps (D req : Z) : F :=
  let domain_eps := fdiv (of_int 1) (of_int (domain_max D req)) in
  if Bleb domain_eps native_eps || negb (req =? 1) then native_eps else domain_eps.

(** cc_norm, co_norm, oo_norm (uniformxx.hpp 151-156). *)
Definition cc_norm (D req : Z) : F := fdiv (of_int 1) (variate_max D req).
Definition co_norm (D req : Z) : F := fmul (cc_norm D req) (fsub (of_int 1) (eps D req)).
Definition oo_norm (D req : Z) : F :=
  fmul (cc_norm D req) (fsub (of_int 1) (fmul (of_int 2) (eps D req))).

(** cc, co, oc, oo (uniformxx.hpp 159-169). *)
Definition u01_cc (D req : Z) (x : Z) (xs : list Z) : F :=
  if negb (Beqb (fmul (variate_max D req) (cc_norm D req)) (of_int 1))
  then fdiv (variate D req x xs) (variate_max D req)
  else fmul (variate D req x xs) (cc_norm D req).
Definition u01_co (D req : Z) (x : Z) (xs : list Z) : F := fmul (variate D req x xs) (co_norm D req).
Definition u01_oc (D req : Z) (x : Z) (xs : list Z) : F := fsub (of_int 1) (u01_co D req x xs).
Definition u01_oo (D req : Z) (x : Z) (xs : list Z) : F :=
  fadd (fmul (variate D req x xs) (oo_norm D req)) (eps D req).

(** uniformcc, uniformco, uniformoc, uniformoo (uniformxx.hpp 177-195): one
    requested bit, hence one call.  [x] is r() - min(). *)
Definition uniformcc (D x : Z) : F := u01_cc D 1 x [].
Definition uniformco (D x : Z) : F := u01_co D 1 x [].
Definition uniformoc (D x : Z) : F := u01_oc D 1 x [].
Definition uniformoo (D x : Z) : F := u01_oo D 1 x [].

End Format.

(** double and float. *)
Definition prec64_gt_0 : Prec_gt_0 53 := eq_refl.
Definition prec64_lt_emax : Prec_lt_emax 53 1024 := eq_refl.
Definition prec32_gt_0 : Prec_gt_0 24 := eq_refl.
Definition prec32_lt_emax : Prec_lt_emax 24 128 := eq_refl.
#[global] Existing Instances prec64_gt_0 prec64_lt_emax prec32_gt_0 prec32_lt_emax.

Notation double := (binary_float 53 1024).
Notation float := (binary_float 24 128).

(** Result of an operation that can be undefined behaviour. *)
Inductive int_result := IntVal (z : Z) | IntUB.

(** static_cast<int>, static_cast<long> from double: truncation; undefined if
    the value is not finite or the truncated value does not fit. *)
Definition double_to_signed (w : Z) (x : double) : int_result :=
  if is_finite x then
    let z := Btrunc x in
    if (- 2 ^ (w - 1) <=? z) && (z <? 2 ^ (w - 1)) then IntVal z else IntUB
  else IntUB.

(** int addition and subtraction; overflow is undefined. *)
Definition int_add (x y : Z) : int_result :=
  if (- 2 ^ 31 <=? x + y) && (x + y <? 2 ^ 31) then IntVal (x + y) else IntUB.
Definition int_sub (x y : Z) : int_result :=
  if (- 2 ^ 31 <=? x - y) && (x - y <? 2 ^ 31) then IntVal (x - y) else IntUB.
Definition int_bind (r : int_result) (f : Z -> int_result) : int_result :=
  match r with IntVal z => f z | IntUB => IntUB end.

(** long R::operator()(long x) (lcg64.hpp 260-262 and the same function in
    every engine); [D] = max() - min(), [r] = the next output minus min(). *)
Definition engine_bounded (D r : Z) (x : Z) : int_result :=
  double_to_signed 64 (fmul 53 1024 (uniformco 53 1024 D r) (of_int 53 1024 x)).

(** uniform_int_dist (uniform_int_dist.hpp 47-80, 93-96, 104-106): parameters
    a, b and d = b - a, computed in int. *)
Record uniform_int := UniformInt { ui_a : Z; ui_b : Z; ui_d : Z }.
Inductive uniform_int_result := UIVal (p : uniform_int) | UIUB.
Definition uniform_int_make (a b : Z) : uniform_int_result :=
  match int_sub b a with IntVal d => UIVal (UniformInt a b d) | IntUB => UIUB end.
Definition uniform_int_draw (P : uniform_int) (D r : Z) : int_result :=
  int_bind (double_to_signed 32 (fmul 53 1024 (of_int 53 1024 (ui_d P)) (uniformco 53 1024 D r)))
    (fun z => int_add z (ui_a P)).
Definition uniform_int_min (P : uniform_int) : int_result := IntVal (ui_a P).
Definition uniform_int_max (P : uniform_int) : int_result := int_sub (ui_b P) 1.
(** a(a_new), b(b_new) (uniform_int_dist.hpp 57-68). *)
Definition uniform_int_set_a (P : uniform_int) (a : Z) : uniform_int_result := uniform_int_make a (ui_b P).
Definition uniform_int_set_b (P : uniform_int) (b : Z) : uniform_int_result := uniform_int_make (ui_a P) b.

(** uniform_dist<double> (uniform_dist.hpp 48-78, 128-130). *)
Definition uniform_draw (a b : double) (D r : Z) : double :=
  fadd 53 1024 (fmul 53 1024 (fsub 53 1024 b a) (uniformco 53 1024 D r)) a.
