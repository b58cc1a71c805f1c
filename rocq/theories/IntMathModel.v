(** Model of trng/int_math.hpp (everything except gauss, see GaussModel.v).  Definitions only. *)
From Coq Require Import ZArith List Bool.
From Verif Require Import Base.
Open Scope Z_scope.

(** ** Integer types
    [t_norm] is what the type does to a mathematical result: unsigned types reduce modulo 2^w,
    for signed types a result out of range is undefined behaviour ([None]). *)
Record inttype := IntType { t_width : Z; t_max : Z; t_norm : Z -> option Z }.
Definition uint_t (w : Z) : inttype := IntType w (2 ^ w - 1) (fun x => Some (x mod 2 ^ w)).
Definition sint_t (w : Z) : inttype :=
  IntType w (2 ^ (w - 1) - 1)
    (fun x => if (- 2 ^ (w - 1) <=? x) && (x <? 2 ^ (w - 1)) then Some x else None).

Definition bind {A B} (x : option A) (f : A -> option B) : option B :=
  match x with Some a => f a | None => None end.

(** pow2 (int_math.hpp 50-53): [T(1) << x]; a negative shift or one of at least the width is undefined.
    (Types narrower than int are promoted before the shift; they are not modelled.) *)
Definition pow2 (T : inttype) (x : Z) : option Z :=
  if (0 <=? x) && (x <? t_width T) then t_norm T (2 ^ x) else None.

(** log2_floor (55-58): x <= 1 ? 0 : 1 + log2_floor(x / 2).  [fuel] bounds the recursion depth;
    64 levels suffice for every 64-bit type. *)
Fixpoint log2_floor_rec (T : inttype) (fuel : nat) (x : Z) : option Z :=
  match fuel with
  | O => None
  | S k => if x <=? 1 then Some 0
           else bind (log2_floor_rec T k (Z.quot x 2)) (fun y => t_norm T (1 + y))
  end.
Definition log2_floor (T : inttype) (x : Z) : option Z := log2_floor_rec T 65 x.

(** log2_ceil (60-63). *)
Definition log2_ceil (T : inttype) (x : Z) : option Z :=
  bind (log2_floor T x) (fun l => bind (pow2 T l) (fun p =>
    if p <? x then t_norm T (l + 1) else Some l)).

(** ceil2 (66-69): x <= 1 ? x : 2 * ceil2((x + 1) / 2). *)
Fixpoint ceil2_rec (T : inttype) (fuel : nat) (x : Z) : option Z :=
  match fuel with
  | O => None
  | S k => if x <=? 1 then Some x
           else bind (t_norm T (x + 1)) (fun x1 =>
                bind (ceil2_rec T k (Z.quot x1 2)) (fun y => t_norm T (2 * y)))
  end.
Definition ceil2 (T : inttype) (x : Z) : option Z := ceil2_rec T 65 x.

(** mask (72-78): x == max ? x : ceil2(x + 1) - 1. *)
Definition mask (T : inttype) (x : Z) : option Z :=
  if x =? t_max T then Some x
  else bind (t_norm T (x + 1)) (fun x1 =>
       bind (ceil2 T x1) (fun y => t_norm T (y - 1))).

(** ** Matrices modulo m (82-112).  Entries are int32_t in [0,m), products and sums are int64_t.
    A vector is a list, a matrix the list of its rows. *)

(** [t += (x * y) % m; if (t >= m) t -= m;] *)
Definition mac (m t x y : Z) : Z :=
  let t' := t + Z.rem (x * y) m in if t' >=? m then t' - m else t'.

Fixpoint dot_loop (m t : Z) (a b : list Z) : Z :=
  match a, b with
  | x :: a', y :: b' => dot_loop m (mac m t x y) a' b'
  | _, _ => t
  end.

(** matrix_vec_mult (82-95). *)
Definition matrix_vec_mult (m : Z) (a : list (list Z)) (b : list Z) : list Z :=
  map (fun row => dot_loop m 0 row b) a.

Definition column (b : list (list Z)) (i : nat) : list Z := map (fun row => nth i row 0) b.

(** matrix_mult (99-112): c[j][i] = sum_k a[j][k] * b[k][i]. *)
Definition matrix_mult (n : nat) (m : Z) (a b : list (list Z)) : list (list Z) :=
  map (fun row => map (fun i => dot_loop m 0 row (column b i)) (seq 0 n)) a.

(** ** modulo_inverse (116-138) *)

(** Outcomes: value, std::invalid_argument, std::runtime_error, signed overflow, loop bound of the
    model exceeded (shown to be impossible). *)
Inductive result (A : Type) := Val (x : A) | InvalidArgument | RuntimeError | Overflow | OutOfFuel.
Arguments Val {A}. Arguments InvalidArgument {A}. Arguments RuntimeError {A}.
Arguments Overflow {A}. Arguments OutOfFuel {A}.

Definition int32 (x : Z) : bool := (- 2 ^ 31 <=? x) && (x <? 2 ^ 31).

(** The loop (125-133): [q * f] and [flast - q * f] are int32_t computations. *)
Fixpoint modulo_inverse_loop (fuel : nat) (a m1 f flast : Z) : result (Z * Z) :=
  match fuel with
  | O => OutOfFuel
  | S k =>
    if a >? 1 then
      let temp := Z.rem m1 a in
      let q := Z.quot m1 a in
      if int32 (q * f) && int32 (flast - q * f)
      then modulo_inverse_loop k temp a (flast - q * f) f
      else Overflow
    else Val (a, f)
  end.

Definition modulo_inverse (a m : Z) : result Z :=
  if (a <=? 0) || (m <=? 1) then InvalidArgument
  else match modulo_inverse_loop 65 a m 1 0 with
       | Val (a', f) => if a' =? 0 then RuntimeError else Val (if f >=? 0 then f else f + m)
       | InvalidArgument => InvalidArgument | RuntimeError => RuntimeError
       | Overflow => Overflow | OutOfFuel => OutOfFuel
       end.

(** ** modulo (216-320)
    The compile-time constants e = log2_ceil(m), k = 2^e - m, mask = 2^e - 1; the class is selected by
    j = log2_floor(r).  [x] is uint64_t. *)
Definition mod_e (m : Z) : Z := match log2_ceil (sint_t 32) m with Some e => e | None => 0 end.
Definition mod_k (m : Z) : Z := 2 ^ mod_e m - m.
Definition mod_mask (m : Z) : Z := 2 ^ mod_e m - 1.

(** [if (y >= c) y -= c;] *)
Definition csub (c y : Z) : Z := if y >=? c then y - c else y.

(** x = (x & mask) + (x >> e) * k, on uint64_t. *)
Definition fold_k (m x : Z) : Z :=
  wrap64 (Z.land x (mod_mask m) + wrap64 (Z.shiftr x (mod_e m) * mod_k m)).

(** modulo_helper<m,0>::modulo (229-243): y is truncated to uint32_t. *)
Definition modulo_0 (m x : Z) : Z :=
  if mod_mask m =? m then
    csub m (wrap32 (Z.land x (mod_mask m) + Z.shiftr x (mod_e m)))
  else if mod_k m * (mod_k m + 2) <=? m then csub m (fold_k m (fold_k m x))
  else x mod m.

(** modulo_helper<m,1>::modulo (254-273). *)
Definition modulo_1 (m x : Z) : Z :=
  if mod_mask m =? m then
    csub m (csub (2 * m) (wrap64 (Z.land x (mod_mask m) + Z.shiftr x (mod_e m))))
  else if mod_k m * (mod_k m + 2) <=? m then csub m (csub (2 * m) (fold_k m (fold_k m x)))
  else x mod m.

(** modulo_helper<m,2>::modulo (284-307). *)
Definition modulo_2 (m x : Z) : Z :=
  if mod_mask m =? m then
    csub m (csub (2 * m) (csub (4 * m) (wrap64 (Z.land x (mod_mask m) + Z.shiftr x (mod_e m)))))
  else if mod_k m * (mod_k m + 2) <=? m then
    csub m (csub (2 * m) (csub (4 * m) (fold_k m (fold_k m x))))
  else x mod m.

(** Conversion to int32_t (modulo 2^32; implementation-defined before C++20). *)
Definition to_int32 (x : Z) : Z := let y := x mod 2 ^ 32 in if y >=? 2 ^ 31 then y - 2 ^ 32 else y.
(** modulo<m,r> (315-320): helper log2_floor(r); only 0, 1, 2 exist, i.e. r in 1..7.  All helpers return
    int32_t. *)
Definition modulo (m r x : Z) : Z :=
  to_int32 (if r <? 2 then modulo_0 m x else if r <? 4 then modulo_1 m x else modulo_2 m x).

(** ** power (324-354) *)

(** pow (328-337), int64_t products of values in [0,m), n is int32_t. *)
Fixpoint power_loop (fuel : nat) (m p t n : Z) : Z :=
  match fuel with
  | O => p
  | S k =>
    if n >? 0
    then power_loop k m (if Z.land n 1 =? 1 then modulo m 1 (p * t) else p)
                    (modulo m 1 (t * t)) (Z.quot n 2)
    else p
  end.
Definition power_pow (m b n : Z) : Z := power_loop 32 m 1 b n.

(** operator() (350-353) with the tables of the constructor (344-349) inlined:
    b_power0[i] = pow(i) for i < 2^16, b_power1[i] = pow(i * 2^16) for i < 2^15.
    A negative n indexes outside the tables: [None]. *)
Definition power (m b n : Z) : option Z :=
  let i1 := Z.shiftr n 16 in
  let i0 := Z.land n 65535 in
  if (0 <=? i1) && (i1 <? 32768)
  then Some (modulo m 1 (power_pow m b (i1 * 65536) * power_pow m b i0))
  else None.
