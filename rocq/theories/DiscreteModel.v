(** Model of the table-driven discrete distributions: utility::discrete, discrete_dist,
    fast_discrete_dist, hypergeometric_dist, binomial_dist, poisson_dist,
    zero_truncated_poisson_dist, negative_binomial_dist, and of bernoulli_dist, geometric_dist and
    the pdf/cdf of uniform_int_dist.  [None] is undefined behaviour (index out of range, overflow of
    a signed integer, conversion out of range) or exhausted fuel.  Definitions only.

    The uniform variate [u] a draw consumes is an argument: it is what utility::uniformco<double> or
    utility::uniformoo<double> returned (UniformModel.v). *)
From Coq Require Import ZArith List Bool Reals.
From Flocq Require Import Core.Zaux Core.Raux Core.Generic_fmt.
From Verif Require Import Base IntMathModel ArithModel.
Import ListNotations.
Local Open Scope nat_scope.

Definition int_min : Z := (- 2 ^ 31)%Z.
Definition int_max : Z := (2 ^ 31 - 1)%Z.
(** result of int arithmetic: out of range is undefined behaviour *)
Definition as_int (x : Z) : option Z :=
  if ((int_min <=? x) && (x <=? int_max))%Z then Some x else None.
(** static_cast<int> of a size_t: reduced modulo 2^32 (gcc, clang) *)
Definition size_to_int (x : Z) : Z := ((x + 2 ^ 31) mod 2 ^ 32 - 2 ^ 31)%Z.

Section Arith.
Variable A : arith.
Notation num := (num A).

(** ** utility::discrete (utility.hpp 199-213)
    Binary search; [i1], [i2] are the loop variables, [fuel] at least the number of iterations. *)
Fixpoint discrete_loop (fuel : nat) (x : num) (c : list num) (i1 i2 : nat) : option nat :=
  if 1 <? i2 - i1 then
    match fuel with
    | O => None
    | S k =>
        let i3 := (i2 + i1) / 2 in
        match vget c i3 with
        | None => None
        | Some y => if leb A x y then discrete_loop k x c i1 i3 else discrete_loop k x c i3 i2
        end
    end
  else Some i2.
Definition discrete (x : num) (c : list num) : option nat :=
  match c with
  | [] => None                       (* *first of an empty range *)
  | c0 :: _ => if ltb A x c0 then Some 0 else discrete_loop (length c) x c 0 (length c - 1)
  end.

(** ** discrete_dist (discrete_dist.hpp) *)

(** param_type (56-110): P_, N_, layers_, offset_ *)
Record ddist := DDist { dd_P : list num; dd_N : nat; dd_layers : nat; dd_offset : nat }.

(** int_math::pow2 and log2_ceil on size_t (64 bits, unsigned) *)
Definition size_pow2 (n : nat) : option nat :=
  option_map Z.to_nat (pow2 (uint_t 64) (Z.of_nat n)).
Definition size_log2_ceil (n : nat) : option nat :=
  option_map Z.to_nat (log2_ceil (uint_t 64) (Z.of_nat n)).

(** update_layer (80-87); the loop is entered with i >= 1, so (i - 1) does not wrap *)
Fixpoint update_layer_loop (fuel : nat) (P : list num) (i last : nat) : option (list num) :=
  if i <? last then
    match fuel with
    | O => None
    | S k =>
        bind (if i + 1 <? last
              then bind (vget P i) (fun a => bind (vget P (i + 1)) (fun b => Some (add A a b)))
              else vget P i) (fun v =>
        bind (vset P ((i - 1) / 2) v) (fun P' =>
        update_layer_loop k P' (i + 2) last))
    end
  else Some P.
Definition update_layer (P : list num) (layer n : nat) : option (list num) :=
  bind (size_pow2 layer) (fun p =>
    let first := p - 1 in update_layer_loop n P first (first + n)).

(** update_all_layers (88-98): the deepest layer holds N_ nodes, layer l above it 2^l *)
Fixpoint update_upper_layers (layer : nat) (P : list num) : option (list num) :=
  match layer with
  | O => Some P
  | S k => bind (size_pow2 layer) (fun n => bind (update_layer P layer n) (update_upper_layers k))
  end.
Definition update_all_layers (d : ddist) : option ddist :=
  option_map (fun P => DDist P (dd_N d) (dd_layers d) (dd_offset d))
    (match dd_layers d with
     | O => Some (dd_P d)
     | S k => bind (update_layer (dd_P d) (S k) (dd_N d)) (update_upper_layers k)
     end).

(** param_type(std::vector<double>) (61-70): the weights are moved behind [offset] zeros *)
Definition ddist_make (w : list num) : option ddist :=
  let N := length w in
  bind (size_log2_ceil N) (fun layers => bind (size_pow2 layers) (fun p =>
    update_all_layers (DDist (repeat (zero A) (p - 1) ++ w) N layers (p - 1)))).

(** operator() (123-138), [u] the value of utility::uniformco<double>; every iteration of the loop
    at least doubles x+1, so [dd_offset d + 1] iterations suffice. *)
Fixpoint ddist_loop (fuel : nat) (d : ddist) (u : num) (x : nat) : option nat :=
  if x <? dd_offset d then
    match fuel with
    | O => None
    | S k =>
        match vget (dd_P d) (2 * x + 1) with
        | None => None
        | Some p => if ltb A u p then ddist_loop k d u (2 * x + 1)
                    else ddist_loop k d (sub A u p) (2 * x + 2)
        end
    end
  else Some x.
Definition ddist_draw (d : ddist) (u : num) : option Z :=
  if dd_N d =? 0 then Some (-1)%Z
  else bind (vget (dd_P d) 0) (fun W =>
       bind (ddist_loop (S (dd_offset d)) d (mul A u W) 0) (fun x =>
       Some (size_to_int (Z.of_nat (x - dd_offset d))))).

(** min (145), max (146) *)
Definition ddist_min (d : ddist) : Z := 0%Z.
Definition ddist_max (d : ddist) : Z := size_to_int (Z.of_nat (dd_N d) - 1).

(** param(int x, double p) (149-158): do { } while (x > 0), indices are ints *)
Fixpoint ddist_update_loop (fuel : nat) (P : list num) (x : nat) : option (list num) :=
  match fuel with
  | O => None
  | S k =>
      let x := (x - 1) / 2 in
      bind (vget P (2 * x + 1)) (fun a => bind (vget P (2 * x + 2)) (fun b =>
      bind (vset P x (add A a b)) (fun P' =>
      if 0 <? x then ddist_update_loop k P' x else Some P')))
  end.
Definition ddist_update (d : ddist) (x : Z) (p : num) : option ddist :=
  bind (as_int (x + size_to_int (Z.of_nat (dd_offset d)))) (fun x =>
  if (x <? 0)%Z then None            (* P_[x] with negative x: out of range *)
  else
    let x := Z.to_nat x in
    bind (vset (dd_P d) x p) (fun P =>
    option_map (fun P => DDist P (dd_N d) (dd_layers d) (dd_offset d))
      (if 0 <? x then ddist_update_loop x P x else Some P))).

(** pdf (160-162) *)
Definition ddist_pdf (d : ddist) (x : Z) : option num :=
  if ((x <? 0) || (size_to_int (Z.of_nat (dd_N d)) <=? x))%Z then Some (zero A)
  else bind (vget (dd_P d) (Z.to_nat x + dd_offset d)) (fun p =>
       bind (vget (dd_P d) 0) (fun W => Some (div A p W))).

(** std::accumulate(first, last, 0.0) *)
Definition accumulate (l : list num) : num := fold_left (add A) l (zero A).

(** cdf (164-172) *)
Definition ddist_cdf (d : ddist) (x : Z) : option num :=
  if (x <? 0)%Z then Some (zero A)
  else if (x <? size_to_int (Z.of_nat (dd_N d)))%Z then
    let n := Z.to_nat x + 1 in
    if length (dd_P d) <? dd_offset d + n then None
    else bind (vget (dd_P d) 0) (fun W =>
         Some (div A (accumulate (firstn n (skipn (dd_offset d) (dd_P d)))) W))
  else Some (one A).

(** ** fast_discrete_dist (fast_discrete_dist.hpp) *)

(** param_type (62-67): P, F, L, N *)
Record fdist := FDist { fd_P : list num; fd_F : list num; fd_L : list Z; fd_N : nat }.

(** What std::vector's move constructor leaves behind: the empty vector. *)
Definition moved_from (w : list num) : list num := [].

(** param_type(std::vector<double> P) (69-96).  The parameter P hides the member P: the member is
    move-constructed from it, and everything afterwards reads the moved-from parameter.  The body of
    [if (s > 0.0)] (72-95) is not modelled: it is entered only if the sum over the moved-from vector
    is positive, and the result is then [None]. *)
Definition fdist_make (w : list num) : option fdist :=
  let member := w in
  let param := moved_from w in
  let s := accumulate param in
  if ltb A (zero A) s then None
  else Some (FDist member (repeat (zero A) (length param)) (repeat 0%Z (length param)) (length param)).

(** operator() (128-132); [trunc] is static_cast<int> of a double *)
Definition fdist_draw (trunc : num -> option Z) (d : fdist) (u : num) : option Z :=
  let U := mul A u (ofz A (Z.of_nat (fd_N d))) in
  bind (trunc U) (fun I =>
  if (I <? 0)%Z then None
  else bind (vget (fd_F d) (Z.to_nat I)) (fun f =>
       if leb A (sub A U (ofz A I)) f then Some I else vget (fd_L d) (Z.to_nat I))).

(** min (139), max (140) *)
Definition fdist_min (d : fdist) : Z := 0%Z.
Definition fdist_max (d : fdist) : Z := size_to_int (Z.of_nat (fd_N d) - 1).

(** ** Cumulative tables of hypergeometric_dist and binomial_dist *)

(** "build list with cumulative density function" (hypergeometric_dist.hpp 71-73, binomial_dist.hpp
    72-74): P_[i] += P_[i-1], i ascending.  [acc] is the already updated predecessor. *)
Fixpoint cumulate_from (acc : num) (l : list num) : list num :=
  match l with
  | [] => []
  | x :: t => let y := add A x acc in y :: cumulate_from y t
  end.
Definition cumulate (l : list num) : list num :=
  match l with [] => [] | x :: t => x :: cumulate_from x t end.

(** P_[i] /= P_.back(), i ascending (hypergeometric_dist.hpp 74-75, binomial_dist.hpp 75-77): the last
    entry is the last one to be divided, so every entry is divided by the original last entry *)
Definition normalise (l : list num) : list num := map (fun x => div A x (last l (zero A))) l.

(** pdf and cdf from such a table that starts at outcome [lo] and ends at [hi]
    (hypergeometric_dist.hpp 131-146, binomial_dist.hpp 126-140) *)
Definition table_pdf (lo hi : Z) (P : list num) (x : Z) : option num :=
  if ((x <? lo) || (hi <? x))%Z then Some (zero A)
  else
    let i := Z.to_nat (x - lo) in
    if i =? 0 then vget P 0
    else bind (vget P i) (fun a => bind (vget P (i - 1)) (fun b => Some (sub A a b))).
Definition table_cdf (lo hi : Z) (P : list num) (x : Z) : option num :=
  if (x <? lo)%Z then Some (zero A)
  else if (hi <? x)%Z then Some (one A)
  else vget P (Z.to_nat (x - lo)).

(** the integers lo, lo+1, .., hi *)
Definition zrange (lo hi : Z) : list Z := map (fun i => (lo + Z.of_nat i)%Z) (seq 0 (Z.to_nat (hi - lo + 1))).

(** *** hypergeometric_dist: calc_probabilities (63-76); the int expressions d_ - n_ + m_, n_ - m_ and
    m_ - x are computed without overflow check (parameters 0 <= m, d <= n). *)
Section Hypergeometric.
Variable exp : num -> num.
Variable ln_binomial : Z -> Z -> num.
Variables n m d : Z.
Definition hyper_min : Z := Z.max 0 (d - n + m).
Definition hyper_max : Z := Z.min d m.
Definition hyper_table : list num :=
  normalise (cumulate (map (fun x => exp (add A (ln_binomial m x) (ln_binomial (n - m) (m - x))))%Z
                           (zrange hyper_min hyper_max))).
Definition hyper_pdf (x : Z) : option num := table_pdf hyper_min hyper_max hyper_table x.
Definition hyper_cdf (x : Z) : option num := table_cdf hyper_min hyper_max hyper_table x.
(** operator() (110-113) *)
Definition hyper_draw (u : num) : option Z :=
  bind (discrete u hyper_table) (fun k => as_int (hyper_min + Z.of_nat k)).
End Hypergeometric.

(** *** binomial_dist: calc_probabilities (59-78) *)
Section Binomial.
Variables ln exp : num -> num.
Variable p : num.
Variable n : Z.
Fixpoint binomial_weights (k : nat) (i : Z) (ln_binom : num) : list num :=
  match k with
  | O => []
  | S k =>
      let ln_p := ln p in
      let ln_1_p := ln (sub A (one A) p) in
      let ln_prob := add A (add A ln_binom (mul A (ofz A i) ln_p)) (mul A (ofz A (n - i)) ln_1_p) in
      exp ln_prob ::
      binomial_weights k (i + 1) (sub A (add A ln_binom (ln (ofz A (n - i)))) (ln (ofz A (i + 1))))
  end.
Definition binomial_table : list num :=
  normalise (cumulate (binomial_weights (Z.to_nat (n + 1)) 0 (zero A))).
Definition binomial_pdf (x : Z) : option num := table_pdf 0 n binomial_table x.
Definition binomial_cdf (x : Z) : option num := table_cdf 0 n binomial_table x.
(** operator() (107-110) *)
Definition binomial_draw (u : num) : option Z :=
  option_map (fun k => size_to_int (Z.of_nat k)) (discrete u binomial_table).
End Binomial.

(** ** The samplers with a finite table and an unbounded tail *)

(** poisson_dist operator() (92-104), negative_binomial_dist (121-133), zero_truncated_poisson_dist
    (93-105): the same code.  [tail_loop]: while (p > 0) { ++x_i; p -= pdf(x_i); } *)
Fixpoint tail_loop (fuel : nat) (pdf : Z -> num) (p : num) (x : Z) : option Z :=
  if ltb A (zero A) p then
    match fuel with
    | O => None
    | S k => bind (as_int (x + 1)) (fun x => tail_loop k pdf (sub A p (pdf x)) x)
    end
  else Some x.
Definition sampler_draw (fuel : nat) (pdf cdf : Z -> num) (P : list num) (u : num) : option Z :=
  bind (discrete u P) (fun x =>
    let xi := size_to_int (Z.of_nat x) in
    if (x + 1 =? length P) then tail_loop fuel pdf (sub A u (cdf xi)) xi else Some xi).

(** calc_probabilities of poisson_dist (60-68): while (x < 7 or x < 2 * mu) push cdf(x); push 1.
    [go x] is the loop condition, [fuel] the number of iterations allowed. *)
Fixpoint cdf_table (fuel : nat) (go : Z -> bool) (cdf : Z -> num) (x : Z) : option (list num) :=
  if go x then
    match fuel with
    | O => None
    | S k => option_map (cons (cdf x)) (cdf_table k go cdf (x + 1))
    end
  else Some [one A].
Definition poisson_go (mu : num) (x : Z) : bool :=
  ((x <? 7)%Z || ltb A (ofz A x) (mul A (ofz A 2) mu)).
Definition poisson_table (fuel : nat) (mu : num) (cdf : Z -> num) : option (list num) :=
  cdf_table fuel (poisson_go mu) cdf 0.
(** zero_truncated_poisson_dist (59-69): entry 0 is 0, the loop starts at 1 *)
Definition zero_truncated_table (fuel : nat) (mu : num) (cdf : Z -> num) : option (list num) :=
  option_map (cons (zero A)) (cdf_table fuel (poisson_go mu) cdf 1).
(** negative_binomial_dist (82-92): p = 0; while (p < 1 - 1/4096) { p = cdf(x); push p; ++x }; push 1 *)
Fixpoint negbin_loop (fuel : nat) (cdf : Z -> num) (p : num) (x : Z) : option (list num) :=
  if ltb A p (sub A (one A) (div A (one A) (ofz A 4096))) then
    match fuel with
    | O => None
    | S k => option_map (cons (cdf x)) (negbin_loop k cdf (cdf x) (x + 1))
    end
  else Some [one A].
Definition negbin_table (fuel : nat) (cdf : Z -> num) : option (list num) :=
  negbin_loop fuel cdf (zero A) 0.

(** ** bernoulli_dist (bernoulli_dist.hpp); T = int *)
Record bernoulli := Bernoulli { bn_p : num; bn_head : Z; bn_tail : Z }.
(** operator() (159-161) *)
Definition bernoulli_draw (b : bernoulli) (u : num) : Z :=
  if ltb A u (bn_p b) then bn_head b else bn_tail b.
(** min, max (169-178) *)
Definition bernoulli_min (b : bernoulli) : Z :=
  if (bn_head b <? bn_tail b)%Z then bn_head b else bn_tail b.
Definition bernoulli_max (b : bernoulli) : Z :=
  if (bn_head b >? bn_tail b)%Z then bn_head b else bn_tail b.
(** pdf (196-202) *)
Definition bernoulli_pdf (b : bernoulli) (x : Z) : num :=
  if (x =? bn_head b)%Z then bn_p b
  else if (x =? bn_tail b)%Z then sub A (one A) (bn_p b)
  else zero A.
(** cdf (205-220) *)
Definition bernoulli_cdf (b : bernoulli) (x : Z) : num :=
  if (bn_head b <? bn_tail b)%Z then
    if (x <? bn_head b)%Z then zero A
    else if (x <? bn_tail b)%Z then bn_p b
    else one A
  else
    if (x <? bn_tail b)%Z then zero A
    else if (x <? bn_head b)%Z then sub A (one A) (bn_p b)
    else one A.

(** ** uniform_int_dist: pdf (121-125) and cdf (128-134) with parameters a < b and d = b - a *)
Definition uniform_int_pdf (a b d x : Z) : num :=
  if ((x <? a) || (b <=? x))%Z then zero A else div A (one A) (ofz A d).
Definition uniform_int_cdf (a b d x : Z) : num :=
  if (x <? a)%Z then zero A
  else if (b <=? x)%Z then one A
  else div A (ofz A (x - a + 1)) (ofz A d).

End Arith.

Arguments DDist {A}. Arguments dd_P {A}. Arguments dd_N {A}. Arguments dd_layers {A}.
Arguments dd_offset {A}.
Arguments FDist {A}. Arguments fd_P {A}. Arguments fd_F {A}. Arguments fd_L {A}. Arguments fd_N {A}.
Arguments Bernoulli {A}. Arguments bn_p {A}. Arguments bn_head {A}. Arguments bn_tail {A}.

(** static_cast<int> of a real number *)
Definition real_to_int (x : R) : option Z := as_int (Ztrunc x).

(** ** geometric_dist in exact arithmetic (geometric_dist.hpp): q = 1 - p, one_over_ln_q = 1 / ln q *)
Definition geom_q (p : R) : R := (1 - p)%R.
(** operator() (92-94) *)
Definition geom_draw (p u : R) : option Z := real_to_int (ln u * (1 / ln (geom_q p)))%R.
(** pdf (115-117), cdf (120-122); x + 1 is computed in int *)
Definition geom_pdf (p : R) (x : Z) : R :=
  if (x <? 0)%Z then 0%R else (p * powerRZ (geom_q p) x)%R.
Definition geom_cdf (p : R) (x : Z) : option R :=
  if (x <? 0)%Z then Some 0%R
  else option_map (fun x1 => (1 - powerRZ (geom_q p) x1)%R) (as_int (x + 1)).

(** ** Exact values of the special functions at the arguments the tables use
    [ln_gamma_1 x] is math::ln_Gamma(x + 1.0) = ln x!, [ln_binomial_R a b] is math::ln_binomial
    (special_functions.hpp 177-179), [gammaQ_1 x mu] is math::GammaQ(x + 1.0, mu), the regularised
    upper incomplete gamma function: at integer order it is the sum of exp(-mu) mu^k / k! over k <= x
    (Prop_Sampler.v checks its derivative and initial value).  The numerical evaluation of these
    functions in special_functions.hpp is not modelled. *)
Definition ln_gamma_1 (x : Z) : R := ln (INR (fact (Z.to_nat x))).
Definition ln_binomial_R (a b : Z) : R := (ln_gamma_1 a - ln_gamma_1 b - ln_gamma_1 (a - b))%R.
Definition gammaQ_1 (x : Z) (mu : R) : R :=
  sum_f_R0 (fun k => exp (- mu) * (mu ^ k / INR (fact k)))%R (Z.to_nat x).

(** poisson_dist: pdf (118-120), cdf (122) *)
Definition poisson_pdf (mu : R) (x : Z) : R :=
  if (x <? 0)%Z then 0%R else exp (- mu - ln_gamma_1 x + IZR x * ln mu)%R.
Definition poisson_cdf (mu : R) (x : Z) : R := if (x <? 0)%Z then 0%R else gammaQ_1 x mu.

(** zero_truncated_poisson_dist: pdf (119-123), cdf (125-129) *)
Definition expm1 (x : R) : R := (exp x - 1)%R.
Definition ztp_pdf (mu : R) (x : Z) : R :=
  if (x <=? 0)%Z then 0%R else (exp (- ln_gamma_1 x + IZR x * ln mu) / expm1 mu)%R.
Definition ztp_cdf (mu : R) (x : Z) : R :=
  if (x <=? 0)%Z then 0%R else ((exp mu * gammaQ_1 x mu - 1) / expm1 mu)%R.
