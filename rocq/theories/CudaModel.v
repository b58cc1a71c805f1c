(** Model of the code that is compiled in place of the host code when TRNG_CUDA is defined (cuda.hpp 36-46):
    operator() of the yarn engines, int_math::modulo_inverse and int_math::gauss without their exceptions,
    and split() of the parallel engines without the test of its arguments.  Definitions only. *)
From Coq Require Import ZArith List Bool Arith.
From Verif Require Import Base IntMathModel GaussModel MrgModel Lcg64Model CountShiftModel Count128Model.
Import ListNotations.
Open Scope Z_scope.

(** ** yarn *)
Definition int64 (x : Z) : bool := (- 2 ^ 63 <=? x) && (x <? 2 ^ 63).

(** modulo<modulus, 1>(x * y): the product is an int64_t, the parameter of modulo a uint64_t. *)
Definition mulm_cuda (m x y : Z) : result Z :=
  if int64 (x * y) then Val (modulo m 1 (wrap64 (x * y))) else Overflow.

(** The while loop (yarn2.hpp 174-179, yarn3.hpp 179-184, yarn3s.hpp 178-183, yarn4.hpp 182-187,
    yarn5.hpp 187-192, yarn5s.hpp 188-193); n is an int32_t, p and t are int64_t. *)
Fixpoint yarn_loop_cuda (fuel : nat) (m n p t : Z) : result Z :=
  match fuel with
  | O => OutOfFuel
  | S k =>
    if n >? 0 then
      match (if Z.land n 1 =? 1 then mulm_cuda m p t else Val p) with
      | Val p' =>
        match mulm_cuda m t t with
        | Val t' => yarn_loop_cuda k m (Z.quot n 2) p' t'
        | e => e
        end
      | e => e
      end
    else Val p
  end.

(** operator() (yarn2.hpp 169-180 etc.) *)
Definition yarn_out_cuda (y : yarn_class) (r : Z) : result Z :=
  if r =? 0 then Val 0
  else map_result IntMathModel.to_int32 (yarn_loop_cuda 32 (mc_modulus (yc_mrg y)) r 1 (yc_gen y)).
Definition yarn_next_cuda (y : yarn_class) (R : mrg) : result Z * mrg :=
  let R' := mrg_step (yc_mrg y) R in (yarn_out_cuda y (nth 0 (mrg_r R') 0), R').

(** ** modulo_inverse (int_math.hpp 116-138): neither argument nor result is tested. *)
Definition modulo_inverse_cuda (a m : Z) : result Z :=
  match modulo_inverse_loop 65 a m 1 0 with
  | Val (_, f) => if f >=? 0 then Val f else if int32 (f + m) then Val (f + m) else Overflow
  | InvalidArgument => InvalidArgument | RuntimeError => RuntimeError
  | Overflow => Overflow | OutOfFuel => OutOfFuel
  end.

(** ** gauss (int_math.hpp 142-211): no test whether a solution exists. *)
Definition elim_row_cuda (n : nat) (m : Z) (p : list nat) (i j : nat) (ab : list (list Z) * list Z)
  : result (list (list Z) * list Z) :=
  let (a, b) := ab in
  let pj := prow p j in let pi := prow p i in
  if ent a pj i =? 0 then Val ab
  else match modulo_inverse_cuda (ent a pj i) m with
       | Val t => Val (upd a pj (sub_row n m i t (nth pj a []) (nth pi a [])),
                       upd b pj (subm m (Z.rem (nth pj b 0 * t) m) (nth pi b 0)))
       | InvalidArgument => InvalidArgument | RuntimeError => RuntimeError
       | Overflow => Overflow | OutOfFuel => OutOfFuel
       end.

Fixpoint elim_rows_cuda (n : nat) (m : Z) (p : list nat) (i : nat) (js : list nat)
  (ab : list (list Z) * list Z) : result (list (list Z) * list Z) :=
  match js with
  | [] => Val ab
  | j :: js' =>
    match elim_row_cuda n m p i j ab with
    | Val ab' => elim_rows_cuda n m p i js' ab'
    | e => e
    end
  end.

Fixpoint triangulate_cuda (n : nat) (m : Z) (k i : nat) (a : list (list Z)) (b : list Z) (p : list nat)
  : result (nat * list (list Z) * list Z * list nat) :=
  match k with
  | O => Val (i, a, b, p)
  | S k' =>
    let p := pivot n a p i in
    let pi := prow p i in
    if ent a pi i =? 0 then Val (i, a, b, p)
    else match modulo_inverse_cuda (ent a pi i) m with
         | Val t =>
           let a1 := upd a pi (scale_row n m i t (nth pi a [])) in
           let b1 := upd b pi (Z.rem (nth pi b 0 * t) m) in
           match elim_rows_cuda n m p i (seq (S i) (n - S i)) (a1, b1) with
           | Val (a2, b2) => triangulate_cuda n m k' (S i) a2 b2 p
           | InvalidArgument => InvalidArgument | RuntimeError => RuntimeError
           | Overflow => Overflow | OutOfFuel => OutOfFuel
           end
         | InvalidArgument => InvalidArgument | RuntimeError => RuntimeError
         | Overflow => Overflow | OutOfFuel => OutOfFuel
         end
  end.

Definition gauss_cuda (n : nat) (m : Z) (a : list (list Z)) (b : list Z) : result (list Z) :=
  match triangulate_cuda n m n 0 a b (seq 0 n) with
  | Val (rank, a1, b1, p) =>
    let b2 := back_sub n m a1 p (n - 1) b1 in
    Val (map (fun i => nth (prow p i) b2 0) (seq 0 n))
  | InvalidArgument => InvalidArgument | RuntimeError => RuntimeError
  | Overflow => Overflow | OutOfFuel => OutOfFuel
  end.

(** ** backward: the mrg and yarn functions of MrgModel with the other modulo_inverse. *)
Definition back_div_cuda (m t a : Z) : result Z :=
  map_result (fun i => Z.rem (t * i) m) (modulo_inverse_cuda a m).

(** mrg2.hpp 252-274, yarn2.hpp *)
Definition mrg2_backward_cuda (m : Z) (a r : list Z) : result (list Z) :=
  match a, r with
  | [a0; a1], [r0; r1] =>
    map_result (fun t => [r1; t])
      (if negb (a1 =? 0) then back_div_cuda m (back_term m r0 a0 r1) a1
       else if negb (a0 =? 0) then back_div_cuda m r1 a0
       else Val 0)
  | _, _ => OutOfFuel
  end.
(** mrg3.hpp 275-316, mrg3s.hpp 274-315 *)
Definition mrg3_backward_cuda (m : Z) (a r : list Z) : result (list Z) :=
  match a, r with
  | [a0; a1; a2], [r0; r1; r2] =>
    map_result (fun t => [r1; r2; t])
      (if negb (a2 =? 0) then back_div_cuda m (back_term m (back_term m r0 a0 r1) a1 r2) a2
       else if negb (a1 =? 0) then back_div_cuda m (back_term m r1 a0 r2) a1
       else if negb (a0 =? 0) then back_div_cuda m r2 a0
       else Val 0)
  | _, _ => OutOfFuel
  end.
(** mrg4.hpp 302-361 *)
Definition mrg4_backward_cuda (m : Z) (a r : list Z) : result (list Z) :=
  match a, r with
  | [a0; a1; a2; a3], [r0; r1; r2; r3] =>
    map_result (fun t => [r1; r2; r3; t])
      (if negb (a3 =? 0) then
         back_div_cuda m (back_term m (back_term m (back_term m r0 a0 r1) a1 r2) a2 r3) a3
       else if negb (a2 =? 0) then back_div_cuda m (back_term m (back_term m r1 a0 r2) a1 r3) a2
       else if negb (a1 =? 0) then back_div_cuda m (back_term m r2 a0 r3) a1
       else if negb (a0 =? 0) then back_div_cuda m r3 a0
       else Val 0)
  | _, _ => OutOfFuel
  end.
(** mrg5.hpp 333-410, mrg5s.hpp 334-411 *)
Definition mrg5_backward_cuda (m : Z) (a r : list Z) : result (list Z) :=
  match a, r with
  | [a0; a1; a2; a3; a4], [r0; r1; r2; r3; r4] =>
    map_result (fun t => [r1; r2; r3; r4; t])
      (if negb (a4 =? 0) then
         back_div_cuda m (back_term m (back_term m (back_term m (back_term m r0 a0 r1) a1 r2) a2 r3) a3 r4) a4
       else if negb (a3 =? 0) then
         back_div_cuda m (back_term m (back_term m (back_term m r0 a0 r1) a1 r2) a2 r3) a3
       else if negb (a2 =? 0) then back_div_cuda m (back_term m (back_term m r1 a0 r2) a1 r3) a2
       else if negb (a1 =? 0) then back_div_cuda m (back_term m r2 a0 r3) a1
       else if negb (a0 =? 0) then back_div_cuda m r3 a0
       else Val 0)
  | _, _ => OutOfFuel
  end.
Definition mrg_backward_cuda (cl : mrg_class) : Z -> list Z -> list Z -> result (list Z) :=
  match mc_order cl with
  | 2%nat => mrg2_backward_cuda | 3%nat => mrg3_backward_cuda | 4%nat => mrg4_backward_cuda
  | _ => mrg5_backward_cuda
  end.
Fixpoint backwards_cuda (cl : mrg_class) (count : nat) (a r : list Z) : result (list Z) :=
  match count with
  | O => Val r
  | S k => match mrg_backward_cuda cl (mc_modulus cl) a r with
           | Val r' => backwards_cuda cl k a r'
           | InvalidArgument => InvalidArgument | RuntimeError => RuntimeError
           | Overflow => Overflow | OutOfFuel => OutOfFuel
           end
  end.

(** ** split without the test of s and n *)

(** mrg2.hpp 177-206, mrg3.hpp 182-223, mrg4.hpp 187-242, mrg5.hpp 192-263 and the yarn files *)
Definition mrg_split_cuda (cl : mrg_class) (R : mrg) (s n : Z) : outcome mrg :=
  if s >? 1 then
    let k := mc_order cl in
    let q := split_q cl s (2 * k) (mrg_jump cl R (wrap64 (n + 1))) in
    match gauss_cuda k (mc_modulus cl) (split_matrix k q) (split_rhs k q) with
    | Val a' =>
      match backwards_cuda cl k a' (split_state k q) with
      | Val r' => Returns (Mrg a' r')
      | _ => Undefined
      end
    | _ => Undefined
    end
  else Returns R.

(** lcg64.hpp 319-330, lcg64_shift.hpp *)
Definition lcg64_split_cuda (R : lcg64) (s n : Z) : outcome lcg64 :=
  if s >? 1 then
    match lcg64_jump R (wrap64 (n + 1)) with
    | None => Undefined
    | Some R1 =>
      let b' := wrap64 (lcg_b R1 * lcg64_f s (lcg_a R1)) in
      let a' := lcg64_pow (lcg_a R1) s in
      Returns (lcg64_backward (Lcg64 a' b' (lcg_r R1)))
    end
  else Returns R.
(** lcg64_count_shift.hpp 366-381 *)
Definition cs_split_cuda (R : lcs) (s n : Z) : outcome lcs :=
  if s >? 1 then
    match cs_jump R (wrap64 (n + 1)) with
    | None => Undefined
    | Some R1 =>
      let L := cs_lcg R1 in
      let b' := wrap64 (lcg_b L * lcg64_f s (lcg_a L)) in
      let a' := lcg64_pow (lcg_a L) s in
      Returns (cs_backward (Lcs (Lcg64 a' b' (lcg_r L)) (mult_modulo s (cs_inc R1)) (cs_count R1)))
    end
  else Returns R.
(** count128_lcg_shift.hpp 264-276 *)
Definition c128_split_cuda (R : c128) (s n : Z) : outcome c128 :=
  if s >? 1 then
    let r1 := wrap128 (c_r R + wrap128 (n * c_inc R)) in
    let r2 := wrap128 (r1 + c_inc R) in
    let inc' := wrap128 (c_inc R * s) in
    Returns (C128 inc' (c_a R) (c_b R) (wrap128 (r2 - inc')))
  else Returns R.
