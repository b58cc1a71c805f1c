(** Model of trng/mrg2.hpp, mrg3.hpp, mrg3s.hpp, mrg4.hpp, mrg5.hpp, mrg5s.hpp (and the .cc files) and of
    the corresponding yarn engines, which are textually the same code except for operator() and the
    seeding of yarn5s from a generator.  Definitions only.

    step and backward are written out per order, like the code.  jump2, jump and split are the same text
    in all files up to the order; they are written once, for the lists P.a and S.r of length k. *)
From Coq Require Import ZArith List Bool Arith.
From Verif Require Import Base IntMathModel GaussModel.
Import ListNotations.
Open Scope Z_scope.

(** parameter_type P {a[k]} and status_type S {r[k]} (mrg_parameter.hpp, mrg_status.hpp), int32_t. *)
Record mrg := Mrg { mrg_a : list Z; mrg_r : list Z }.

(** static_cast<uint64_t>(a) * static_cast<uint64_t>(r), and uint64_t addition *)
Definition umul (a r : Z) : Z := wrap64 (wrap64 a * wrap64 r).
Definition uadd (x y : Z) : Z := wrap64 (x + y).

(** ** step *)

(** mrg2.hpp 157-162 *)
Definition mrg2_step (m : Z) (a r : list Z) : list Z :=
  match a, r with
  | [a0; a1], [r0; r1] => [modulo m 2 (uadd (umul a0 r0) (umul a1 r1)); r0]
  | _, _ => r
  end.

(** mrg3.hpp 160-167, mrg3s.hpp 159-166 *)
Definition mrg3_step (m : Z) (a r : list Z) : list Z :=
  match a, r with
  | [a0; a1; a2], [r0; r1; r2] =>
    [modulo m 3 (uadd (uadd (umul a0 r0) (umul a1 r1)) (umul a2 r2)); r0; r1]
  | _, _ => r
  end.

(** mrg4.hpp 163-172 *)
Definition mrg4_step (m : Z) (a r : list Z) : list Z :=
  match a, r with
  | [a0; a1; a2; a3], [r0; r1; r2; r3] =>
    [modulo m 4 (uadd (uadd (uadd (umul a0 r0) (umul a1 r1)) (umul a2 r2)) (umul a3 r3)); r0; r1; r2]
  | _, _ => r
  end.

(** mrg5.hpp 164-177, mrg5s.hpp 165-178 *)
Definition mrg5_step (m : Z) (a r : list Z) : list Z :=
  match a, r with
  | [a0; a1; a2; a3; a4], [r0; r1; r2; r3; r4] =>
    let t := uadd (uadd (uadd (umul a0 r0) (umul a1 r1)) (umul a2 r2)) (umul a3 r3) in
    let mm := umul (umul 2 m) m in
    let t := if t >=? mm then wrap64 (t - mm) else t in
    let t := uadd t (umul a4 r4) in
    [modulo m 5 t; r0; r1; r2; r3]
  | _, _ => r
  end.

(** ** backward *)

(** t -= (a * r) % modulus; if (t < 0) t += modulus; *)
Definition back_term (m t a r : Z) : Z := subm m t (Z.rem (a * r) m).
(** t = (t * modulo_inverse(a, modulus)) % modulus *)
Definition back_div (m t a : Z) : result Z :=
  match modulo_inverse a m with
  | Val i => Val (Z.rem (t * i) m)
  | InvalidArgument => InvalidArgument | RuntimeError => RuntimeError
  | Overflow => Overflow | OutOfFuel => OutOfFuel
  end.
Definition map_result {A B} (f : A -> B) (x : result A) : result B :=
  match x with
  | Val a => Val (f a)
  | InvalidArgument => InvalidArgument | RuntimeError => RuntimeError
  | Overflow => Overflow | OutOfFuel => OutOfFuel
  end.

(** mrg2.hpp 252-274 *)
Definition mrg2_backward (m : Z) (a r : list Z) : result (list Z) :=
  match a, r with
  | [a0; a1], [r0; r1] =>
    map_result (fun t => [r1; t])
      (if negb (a1 =? 0) then back_div m (back_term m r0 a0 r1) a1
       else if negb (a0 =? 0) then back_div m r1 a0
       else Val 0)
  | _, _ => OutOfFuel
  end.

(** mrg3.hpp 275-316, mrg3s.hpp 274-315 *)
Definition mrg3_backward (m : Z) (a r : list Z) : result (list Z) :=
  match a, r with
  | [a0; a1; a2], [r0; r1; r2] =>
    map_result (fun t => [r1; r2; t])
      (if negb (a2 =? 0) then back_div m (back_term m (back_term m r0 a0 r1) a1 r2) a2
       else if negb (a1 =? 0) then back_div m (back_term m r1 a0 r2) a1
       else if negb (a0 =? 0) then back_div m r2 a0
       else Val 0)
  | _, _ => OutOfFuel
  end.

(** mrg4.hpp 302-361 *)
Definition mrg4_backward (m : Z) (a r : list Z) : result (list Z) :=
  match a, r with
  | [a0; a1; a2; a3], [r0; r1; r2; r3] =>
    map_result (fun t => [r1; r2; r3; t])
      (if negb (a3 =? 0) then back_div m (back_term m (back_term m (back_term m r0 a0 r1) a1 r2) a2 r3) a3
       else if negb (a2 =? 0) then back_div m (back_term m (back_term m r1 a0 r2) a1 r3) a2
       else if negb (a1 =? 0) then back_div m (back_term m r2 a0 r3) a1
       else if negb (a0 =? 0) then back_div m r3 a0
       else Val 0)
  | _, _ => OutOfFuel
  end.

(** mrg5.hpp 333-410, mrg5s.hpp 334-411.  The cases a[4] == 0 use the state one position too new
    (compare mrg4: there the case a[2] != 0 starts from S.r[1], here the case a[3] != 0 from S.r[0]). *)
Definition mrg5_backward (m : Z) (a r : list Z) : result (list Z) :=
  match a, r with
  | [a0; a1; a2; a3; a4], [r0; r1; r2; r3; r4] =>
    map_result (fun t => [r1; r2; r3; r4; t])
      (if negb (a4 =? 0) then
         back_div m (back_term m (back_term m (back_term m (back_term m r0 a0 r1) a1 r2) a2 r3) a3 r4) a4
       else if negb (a3 =? 0) then
         back_div m (back_term m (back_term m (back_term m r0 a0 r1) a1 r2) a2 r3) a3
       else if negb (a2 =? 0) then back_div m (back_term m (back_term m r1 a0 r2) a1 r3) a2
       else if negb (a1 =? 0) then back_div m (back_term m r2 a0 r3) a1
       else if negb (a0 =? 0) then back_div m r3 a0
       else Val 0)
  | _, _ => OutOfFuel
  end.

(** ** The engine classes *)
Record mrg_class := MrgClass {
  mc_order : nat; mc_modulus : Z;
  mc_step : Z -> list Z -> list Z -> list Z;
  mc_backward : Z -> list Z -> list Z -> result (list Z)
}.
Definition mrg2_class := MrgClass 2 2147483647 mrg2_step mrg2_backward.   (* mrg2.hpp 59 *)
Definition mrg3_class := MrgClass 3 2147483647 mrg3_step mrg3_backward.   (* mrg3.hpp 59 *)
Definition mrg3s_class := MrgClass 3 2147462579 mrg3_step mrg3_backward.  (* mrg3s.hpp 59 *)
Definition mrg4_class := MrgClass 4 2147483647 mrg4_step mrg4_backward.   (* mrg4.hpp 61 *)
Definition mrg5_class := MrgClass 5 2147483647 mrg5_step mrg5_backward.   (* mrg5.hpp 61 *)
Definition mrg5s_class := MrgClass 5 2147461007 mrg5_step mrg5_backward.  (* mrg5s.hpp 61 *)
Definition mrg_classes := [mrg2_class; mrg3_class; mrg3s_class; mrg4_class; mrg5_class; mrg5s_class].

Definition mrg_step (c : mrg_class) (R : mrg) : mrg :=
  Mrg (mrg_a R) (mc_step c (mc_modulus c) (mrg_a R) (mrg_r R)).

(** operator() (mrg2.hpp 165-168 etc.) *)
Definition mrg_next (c : mrg_class) (R : mrg) : Z * mrg :=
  let R' := mrg_step c R in (nth 0 (mrg_r R') 0, R').

(** ** jump2 (mrg2.hpp 209-230, mrg3.hpp 226-253, mrg4.hpp 245-280, mrg5.hpp 266-311) *)

(** the matrix b before the loop: first row P.a, below it the shifted identity *)
Definition companion (a : list Z) : list (list Z) :=
  map (fun i => match i with
                | O => a
                | S i' => map (fun j => if (j =? i')%nat then 1 else 0) (seq 0 (length a))
                end) (seq 0 (length a)).

(** the loop: c = b*b; ++i; stop if i == s; b = c*c *)
Fixpoint jump2_loop (k : nat) (m : Z) (s : nat) (b c : list (list Z)) : list (list Z) * list (list Z) :=
  match s with
  | O => (b, c)
  | S O => (b, matrix_mult k m b b)
  | S (S s') => let c := matrix_mult k m b b in jump2_loop k m s' (matrix_mult k m c c) c
  end.

Definition mrg_jump2 (cl : mrg_class) (R : mrg) (s : Z) : mrg :=
  let m := mc_modulus cl in
  let (b, c) := jump2_loop (mc_order cl) m (Z.to_nat s) (companion (mrg_a R)) [] in
  Mrg (mrg_a R) (matrix_vec_mult m (if Z.land s 1 =? 0 then b else c) (mrg_r R)).

(** jump (mrg2.hpp 233-246 etc.), s is unsigned long long. *)
Fixpoint mrg_jump_loop (cl : mrg_class) (fuel : nat) (i s : Z) (R : mrg) : mrg :=
  match fuel with
  | O => R
  | S k =>
    if s >? 0
    then mrg_jump_loop cl k (i + 1) (Z.shiftr s 1) (if s mod 2 =? 1 then mrg_jump2 cl R i else R)
    else R
  end.
Definition mrg_jump (cl : mrg_class) (R : mrg) (s : Z) : mrg :=
  if s <? 16 then Nat.iter (Z.to_nat s) (mrg_step cl) R else mrg_jump_loop cl 64 0 s R.

(** discard (mrg2.hpp 249 etc.) *)
Definition mrg_discard := mrg_jump.

(** ** split (mrg2.hpp 177-206, mrg3.hpp 182-223, mrg4.hpp 187-242, mrg5.hpp 192-263) *)

(** q0 = S.r[0]; jump(s); q1 = S.r[0]; ...; returns the list of [count] values. *)
Fixpoint split_q (cl : mrg_class) (s : Z) (count : nat) (R : mrg) : list Z :=
  match count with
  | O => []
  | S O => [nth 0 (mrg_r R) 0]
  | S k => nth 0 (mrg_r R) 0 :: split_q cl s k (mrg_jump cl R s)
  end.

(** b[i*k+j] = q[k-1+i-j], a[i] = q[k+i] *)
Definition split_matrix (k : nat) (q : list Z) : list (list Z) :=
  map (fun i => map (fun j => nth (k - 1 + i - j) q 0) (seq 0 k)) (seq 0 k).
Definition split_rhs (k : nat) (q : list Z) : list Z := map (fun i => nth (k + i) q 0) (seq 0 k).
(** S.r[i] = q[k-1-i] *)
Definition split_state (k : nat) (q : list Z) : list Z := map (fun i => nth (k - 1 - i) q 0) (seq 0 k).

Fixpoint backwards (cl : mrg_class) (count : nat) (a r : list Z) : result (list Z) :=
  match count with
  | O => Val r
  | S k => match mc_backward cl (mc_modulus cl) a r with
           | Val r' => backwards cl k a r'
           | InvalidArgument => InvalidArgument | RuntimeError => RuntimeError
           | Overflow => Overflow | OutOfFuel => OutOfFuel
           end
  end.

(** s, n are unsigned int.  An exception of gauss or modulo_inverse would leave the engine half way
    through the split; it is mapped to [Undefined] and shown not to occur. *)
Definition mrg_split (cl : mrg_class) (R : mrg) (s n : Z) : outcome mrg :=
  if (s <? 1) || (n >=? s) then Throws
  else if s >? 1 then
    let k := mc_order cl in
    let q := split_q cl s (2 * k) (mrg_jump cl R (wrap64 (n + 1))) in
    match gauss k (mc_modulus cl) (split_matrix k q) (split_rhs k q) with
    | Val a' =>
      match backwards cl k a' (split_state k q) with
      | Val r' => Returns (Mrg a' r')
      | _ => Undefined
      end
    | _ => Undefined
    end
  else Returns R.

(** ** Comparison, seeding, predefined parameters *)

(** operator== (mrg_parameter.hpp 68-70, mrg_status.hpp 72-74, mrg2.cc 69 etc.): std::equal over k elements. *)
Fixpoint list_eqb (l l' : list Z) : bool :=
  match l, l' with
  | [], [] => true
  | x :: t, y :: t' => (x =? y) && list_eqb t t'
  | _, _ => false
  end.
Definition mrg_eqb (R1 R2 : mrg) : bool := list_eqb (mrg_a R1) (mrg_a R2) && list_eqb (mrg_r R1) (mrg_r R2).

(** Conversion of an unsigned long to int64_t. *)
Definition to_int64 (s : Z) : Z := if s <? 2 ^ 63 then s else s - 2 ^ 64.

(** seed(unsigned long) (mrg2.cc 50-57 etc.): r[0] = s mod m, the others 1. *)
Definition mrg_seed (cl : mrg_class) (R : mrg) (s : Z) : mrg :=
  let t := Z.rem (to_int64 s) (mc_modulus cl) in
  Mrg (mrg_a R) ((if t <? 0 then t + mc_modulus cl else t) :: repeat 1 (mc_order cl - 1)).

(** seed(s1, ..., sk) (mrg2.cc 59-66 etc.), int32_t arguments. *)
Definition mrg_seed_values (cl : mrg_class) (R : mrg) (l : list Z) : mrg :=
  Mrg (mrg_a R) (map (fun s => let t := Z.rem s (mc_modulus cl) in
                               if t <? 0 then t + mc_modulus cl else t) l).

(** seed(gen) (mrg2.hpp 87-92 etc.): static_cast<uint32_t>(g()) % modulus, [l] are the values of g(). *)
Definition mrg_seed_gen (cl : mrg_class) (R : mrg) (l : list Z) : mrg :=
  Mrg (mrg_a R) (map (fun g => wrap32 g mod mc_modulus cl) l).

(** yarn5s::seed(gen) (yarn5s.hpp 89-101) converts to int32_t instead. *)
Definition to_int32 (g : Z) : Z := let w := wrap32 g in if w <? 2 ^ 31 then w else w - 2 ^ 32.
Definition yarn5s_seed_gen (R : mrg) (l : list Z) : mrg :=
  Mrg (mrg_a R) (map (fun g => Z.rem (to_int32 g) (mc_modulus mrg5s_class)) l).

(** mrg2.cc 40-41, mrg3.cc 40-43, mrg3s.cc 40-41, mrg4.cc 40-42, mrg5.cc 40, mrg5s.cc 40-43;
    the yarn files have the same values. *)
Definition mrg_params : list (mrg_class * list Z) :=
  [ (mrg2_class, [1498809829; 1160990996]); (mrg2_class, [46325; 1084587]);
    (mrg3_class, [2021422057; 1826992351; 1977753457]); (mrg3_class, [1476728729; 0; 1155643113]);
    (mrg3_class, [65338; 0; 64636]);
    (mrg3s_class, [2025213985; 1112953677; 2038969601]); (mrg3s_class, [1287767370; 1045931779; 58150106]);
    (mrg4_class, [2001982722; 1412284257; 1155380217; 1668339922]); (mrg4_class, [64886; 0; 0; 64322]);
    (mrg5_class, [107374182; 0; 0; 0; 104480]);
    (mrg5s_class, [1053223373; 1530818118; 1612122482; 133497989; 573245311]);
    (mrg5s_class, [2068619238; 2138332912; 671754166; 1442240992; 1526958817]) ].

(** ** yarn *)

(** The yarn classes: the mrg class and the generator gen (yarn2.hpp 59-60 etc.). *)
Record yarn_class := YarnClass { yc_mrg : mrg_class; yc_gen : Z }.
Definition yarn2_class := YarnClass mrg2_class 123567893.
Definition yarn3_class := YarnClass mrg3_class 123567893.
Definition yarn3s_class := YarnClass mrg3s_class 1616076847.
Definition yarn4_class := YarnClass mrg4_class 123567893.
Definition yarn5_class := YarnClass mrg5_class 123567893.
Definition yarn5s_class := YarnClass mrg5s_class 889744251.
Definition yarn_classes :=
  [yarn2_class; yarn3_class; yarn3s_class; yarn4_class; yarn5_class; yarn5s_class].

(** S.r[0] == 0 ? 0 : g(S.r[0]) (yarn2.hpp 181); g is the power table, [None] for a negative index. *)
Definition yarn_out (y : yarn_class) (r : Z) : option Z :=
  if r =? 0 then Some 0 else power (mc_modulus (yc_mrg y)) (yc_gen y) r.

(** operator() (yarn2.hpp 167-183 etc.) *)
Definition yarn_next (y : yarn_class) (R : mrg) : option Z * mrg :=
  let R' := mrg_step (yc_mrg y) R in (yarn_out y (nth 0 (mrg_r R') 0), R').
