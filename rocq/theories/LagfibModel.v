(** Model of trng/lagfib2xor.hpp, lagfib2plus.hpp, lagfib4xor.hpp, lagfib4plus.hpp.  Definitions only.
    Line numbers are those of lagfib2xor.hpp unless another file is named.  The four classes differ in
    the number of lags and in the operation; both are parameters here. *)
From Coq Require Import ZArith List Bool.
From Verif Require Import Base IntMathModel GaussModel LinAlgModel MinstdModel MrgModel.
Import ListNotations.
Open Scope Z_scope.

(** Template parameters: result_type has [lf_w] bits; the lags [A; B] or [A; B; C; D] in template order,
    the last one being the size of the recurrence; ^ or +. *)
Inductive lf_op := OpXor | OpPlus.
Record lf_class := LfClass { lf_w : Z; lf_lags : list Z; lf_oper : lf_op }.
Definition lf_last (c : lf_class) : Z := last (lf_lags c) 0.
Definition lf_combine (c : lf_class) (x y : Z) : Z :=
  match lf_oper c with OpXor => Z.lxor x y | OpPlus => (x + y) mod 2 ^ lf_w c end.

(** status_type (70-120): the array r of ceil2(B) values and the index. *)
Record lf := Lf { lf_r : list Z; lf_index : Z }.

(** size() (73) and the mask used in step (240) and discard (158), both computed in unsigned int. *)
Definition lf_size (c : lf_class) : Z := match ceil2 (uint_t 32) (lf_last c) with Some s => s | None => 0 end.
Definition lf_mask (c : lf_class) : Z := match mask (uint_t 32) (lf_last c) with Some k => k | None => 0 end.

(** Array access; outside the array it is undefined behaviour ([None]). *)
Definition rd (r : list Z) (i : Z) : option Z := if i <? 0 then None else nth_error r (Z.to_nat i).
Definition wr (r : list Z) (i v : Z) : option (list Z) :=
  if (0 <=? i) && (i <? Z.of_nat (length r)) then Some (upd r (Z.to_nat i) v) else None.

(** S.r[(S.index - A) & mask] op S.r[(S.index - B) & mask] op ... (243; lagfib4xor.hpp 246-247),
    [acc] is the value of the left operand. *)
Fixpoint lf_taps (c : lf_class) (r : list Z) (i : Z) (lags : list Z) (acc : Z) : option Z :=
  match lags with
  | [] => Some acc
  | l :: lags => bind (rd r (Z.land (wrap32 (i - l)) (lf_mask c)))
                      (fun x => lf_taps c r i lags (lf_combine c acc x))
  end.
Definition lf_new (c : lf_class) (r : list Z) (i : Z) : option Z :=
  match lf_lags c with
  | [] => None
  | l :: lags => bind (rd r (Z.land (wrap32 (i - l)) (lf_mask c))) (fun x => lf_taps c r i lags x)
  end.

(** step (239-244). *)
Definition lf_step (c : lf_class) (S : lf) : option lf :=
  let i := Z.land (wrap32 (lf_index S + 1)) (lf_mask c) in
  bind (lf_new c (lf_r S) i) (fun v => bind (wr (lf_r S) i v) (fun r => Some (Lf r i))).

(** operator() (56-59).  The engine is [None] once undefined behaviour has occurred. *)
Definition lf_next (c : lf_class) (S : option lf) : option Z * option lf :=
  let S' := bind S (lf_step c) in (bind S' (fun S => rd (lf_r S) (lf_index S)), S').

(** A fresh engine: r[...]{}, index{0} (71-72). *)
Definition lf_fresh (c : lf_class) : lf := Lf (repeat 0 (Z.to_nat (lf_size c))) 0.

(** A seed source: the uniform random number generator passed to seed(gen &). *)
Record gen := Gen { g_state : Type; g_next : g_state -> Z * g_state; g_min : Z; g_max : Z }.
Definition minstd_gen : gen := Gen Z minstd_next minstd_min minstd_max.

(** The bit loop of seed(gen &) (142-146): r <<= 1; if (g() - min > max / 2) ++r. *)
Fixpoint lf_seed_word (g : gen) (w : Z) (bits : nat) (r : Z) (s : g_state g) : Z * g_state g :=
  match bits with
  | O => (r, s)
  | S k =>
      let r := (2 * r) mod 2 ^ w in
      let '(x, s) := g_next g s in
      lf_seed_word g w k (if x - g_min g >? Z.quot (g_max g) 2 then (r + 1) mod 2 ^ w else r) s
  end.
Fixpoint lf_seed_loop (g : gen) (w : Z) (count i : nat) (r : list Z) (s : g_state g) : option (list Z) :=
  match count with
  | O => Some r
  | S k =>
      let '(x, s) := lf_seed_word g w (Z.to_nat w) 0 s in
      bind (wr r (Z.of_nat i) x) (fun r => lf_seed_loop g w k (S i) r s)
  end.
(** seed(gen &) (138-150). *)
Definition lf_seed_gen (c : lf_class) (g : gen) (s : g_state g) (S : lf) : option lf :=
  bind (lf_seed_loop g (lf_w c) (Z.to_nat (lf_last c)) 0 (lf_r S) s)
       (fun r => Some (Lf r (lf_last c - 1))).
(** seed(unsigned long) (133-136) and the constructors (122-129). *)
Definition lf_seed (c : lf_class) (s : Z) (S : lf) : option lf := lf_seed_gen c minstd_gen (minstd_seed s) S.
Definition lf_construct (c : lf_class) (s : Z) : option lf := lf_seed c s (lf_fresh c).

(** discard (152-185).  [n] is an unsigned long long. *)
Definition lf_pivot (c : lf_class) (n : Z) : Z :=
  match log2_ceil (uint_t 64) n with
  | Some l => wrap64 (wrap64 (wrap64 (l * lf_last c) * lf_last c) * lf_last c)
  | None => 0
  end.
(** The matrix (162-166): M(i,i+1) = 1, M(size-1, size-lag) = 1 for each lag, the rest zero. *)
Definition lf_matrix (T : scalar) (c : lf_class) : list (sc T) :=
  let n := Z.to_nat (lf_last c) in
  mmake T n (fun i j =>
    if (Nat.eqb (S i) j) || (Nat.eqb (S i) n && existsb (fun l => Z.of_nat j =? lf_last c - l) (lf_lags c))
    then s_one T else s_zero T).
Fixpoint read_window (r : list Z) (i mask : Z) (n : nat) : option (list Z) :=
  match n with
  | O => Some []
  | S k => bind (rd r (Z.land (wrap32 (i - Z.of_nat k)) mask))
                (fun x => bind (read_window r i mask k) (fun v => Some (x :: v)))
  end.
Fixpoint write_window (r : list Z) (i mask : Z) (w : list Z) (k n : nat) : option (list Z) :=
  match n with
  | O => Some r
  | S n' => bind (wr r (Z.land (wrap32 (i - Z.of_nat k)) mask) (nth (length w - 1 - k) w 0))
                 (fun r => write_window r i mask w (S k) n')
  end.
(** W = M * V: for ^ the matrix is over GF2 and the entries of the vector are added with ^= (170-176);
    for + it is a matrix over result_type (lagfib2plus.hpp 170). *)
Definition lf_jump_vector (c : lf_class) (e : Z) (v : list Z) : list Z :=
  let n := Z.to_nat (lf_last c) in
  match lf_oper c with
  | OpXor => let M := mat_power gf2_scalar n (lf_matrix gf2_scalar c) e in
             vmake (uint_scalar (lf_w c)) n (fun i =>
               fold_left (fun sum k => Z.lxor sum (gf2_times (mget gf2_scalar n M i k) (nth k v 0))) (seq 0 n) 0)
  | OpPlus => mat_vec (uint_scalar (lf_w c)) n
                (mat_power (uint_scalar (lf_w c)) n (lf_matrix (uint_scalar (lf_w c)) c) e) v
  end.
Definition lf_discard (c : lf_class) (n : Z) (R : lf) : option lf :=
  let S0 :=
    if n >? lf_pivot c n then
      let e := wrap64 (n - lf_last c) in
      bind (read_window (lf_r R) (lf_index R) (lf_mask c) (Z.to_nat (lf_last c))) (fun v =>
      let w := lf_jump_vector c e v in
      let i := Z.land (wrap32 (wrap64 (lf_index R + e))) (lf_mask c) in
      bind (write_window (lf_r R) i (lf_mask c) w 0 (Z.to_nat (lf_last c))) (fun r =>
      Some (Lf r i, wrap64 (n - e))))
    else Some (R, n) in
  bind S0 (fun Sn => Nat.iter (Z.to_nat (snd Sn)) (fun S => bind S (lf_step c)) (Some (fst Sn))).

(** operator== of status_type (79-86) and of the engine (188). *)
Definition lf_eqb (S1 S2 : lf) : bool :=
  (lf_index S1 =? lf_index S2) && list_eqb (lf_r S1) (lf_r S2).

(** The predefined engines (247-283; lagfib2plus.hpp 245-277, lagfib4xor.hpp 251-287,
    lagfib4plus.hpp 248-280).  unsigned long and unsigned long long are taken as 64 bits wide. *)
Definition lf2_lags : list (list Z) :=
  [[168; 521]; [273; 607]; [418; 1279]; [1029; 2281]; [576; 3217]; [2098; 4423]; [4187; 9689]; [9842; 19937]].
Definition lf4_lags : list (list Z) :=
  [[168; 205; 242; 521]; [147; 239; 515; 607]; [418; 705; 992; 1279]; [305; 610; 915; 2281];
   [576; 871; 1461; 3217]; [1419; 1736; 2053; 4423]; [471; 2032; 4064; 9689]; [3860; 7083; 11580; 19937]].
Definition lf_predefined : list lf_class :=
  flat_map (fun w =>
    LfClass w [103; 250] OpXor :: LfClass w [471; 1586; 6988; 9689] OpXor ::
    flat_map (fun l => [LfClass w l OpXor; LfClass w l OpPlus]) (lf2_lags ++ lf4_lags)) [32; 64].
