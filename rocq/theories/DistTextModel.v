(** Model of the text operators of the distributions: operator<< and operator>> of param_type and of the
    distribution classes.  Doubles are extended reals (finite values: the real numbers a double can have);
    the sign of zero is not kept.  Output of a double in fixed notation is the exact value rounded to the
    stream's precision, ties to even (printf); input is the decimal value rounded to the nearest double,
    ties to even (strtod), classic locale, no width.  Definitions only. *)
From Coq Require Import ZArith Reals Bool String List.
From Flocq Require Import Core.
From Verif Require Import ContModel StreamModel EngineTextModel.
Import ListNotations.
Open Scope Z_scope.

(** ** ostream: flags and precision; operator<< of a double *)
Record ostr := Ostr { o_flags : Z; o_prec : Z; o_text : list Z }.
Definition o_put (t : list Z) (s : ostr) : ostr := Ostr (o_flags s) (o_prec s) (o_text s ++ t).
Definition set_prec (p : Z) (s : ostr) : ostr := Ostr (o_flags s) p (o_text s).
Definition set_flags (f : Z) (s : ostr) : ostr := Ostr f (o_prec s) (o_text s).
(** a number that stands for the flags dec | fixed | left *)
Definition fixed_flags : Z := 1.

(** [n] in decimal with at least one digit *)
Definition put_decimal (n : Z) : list Z :=
  if n =? 0 then [48] else digits_rec 10 (fun d => 48 + d) (S (Z.to_nat (Z.log2 n))) n [].
(** the last [k] decimal digits of [n] *)
Fixpoint put_last (k : nat) (n : Z) (acc : list Z) : list Z :=
  match k with O => acc | S k => put_last k (n / 10) (48 + n mod 10 :: acc) end.
Definition put_fixed (p n : Z) : list Z :=
  put_decimal (n / 10 ^ p) ++ if p =? 0 then [] else 46 :: put_last (Z.to_nat p) n [].
Definition put_real (p : Z) (x : xreal) : list Z :=
  match x with
  | Fin r => (if Rlt_dec r 0 then [45] else []) ++ put_fixed p (ZnearestE (Rabs r * IZR (10 ^ p)))
  | PInf => chars "inf" | NInf => chars "-inf" | NaN => chars "nan"
  end.

(** ** istream >> double without skipws: sign, digits, point and digits, exponent.  Failbit if the text is
    not a number or too large. *)
Definition is_double (r : R) : Prop := generic_format radix2 (FLT_exp (-1074) 53) r /\ (Rabs r < IZR (2 ^ 1024))%R.
Definition to_double (r : R) : R := round radix2 (FLT_exp (-1074) 53) ZnearestE r.
Definition take_sign (t : list Z) : bool * list Z :=
  match t with
  | c :: t' => if c =? 45 then (true, t') else if c =? 43 then (false, t') else (false, t)
  | [] => (false, [])
  end.
Definition decimal_value (neg : bool) (n e : Z) : R :=
  let v := (if e >=? 0 then IZR (n * 10 ^ e) else (IZR n / IZR (10 ^ (- e))))%R in if neg then (- v)%R else v.
Definition get_real (s : istr) (old : xreal) : istr * xreal :=
  if i_good s then
    let (neg, t0) := take_sign (i_chars s) in
    let (ip, t1) := take_digits t0 0 in
    let ni := Z.of_nat (length t0) - Z.of_nat (length t1) in
    let t1' := match t1 with c :: t => if c =? 46 then t else t1 | [] => t1 end in
    let (m, t2) := take_digits t1' ip in
    let nf := match t1 with c :: _ => if c =? 46 then Z.of_nat (length t1') - Z.of_nat (length t2) else 0 | [] => 0 end in
    let m := match t1 with c :: _ => if c =? 46 then m else ip | [] => ip end in
    let t2 := match t1 with c :: _ => if c =? 46 then t2 else t1 | [] => t1 end in
    let '(e, bad, t3) :=
      match t2 with
      | c :: t => if ((c =? 101) || (c =? 69)) && (0 <? ni + nf)
                  then let (eneg, u) := take_sign t in
                       let (e, u') := take_digits u 0 in
                       (if eneg then - e else e, Z.of_nat (length u) =? Z.of_nat (length u'), u')
                  else (0, false, t2)
      | [] => (0, false, t2)
      end in
    let eof := match t3 with [] => true | _ => false end in
    if (ni + nf =? 0) || bad then (Istr t3 eof true, Fin 0)
    else let v := to_double (decimal_value neg m (e - nf)) in
         if Rlt_dec (Rabs v) (IZR (2 ^ 1024)) then (Istr t3 eof false, Fin v) else (Istr t3 eof true, Fin v)
  else (set_fail s, old).

(** ** Parameters *)
Inductive value := VReal (x : xreal) | VInt (n : Z).
Inductive field := FReal | FNum (T : num_type).
Definition put_value (p : Z) (v : value) : list Z := match v with VReal x => put_real p x | VInt n => put_int n end.
(** the variable read into is uninitialised; its value is used only if the stream has not failed *)
Definition get_value (F : field) (s : istr) : istr * value :=
  match F with
  | FReal => let (s, x) := get_real s (Fin 0) in (s, VReal x)
  | FNum T => let (s, n) := get_int T s 0 in (s, VInt n)
  end.
Fixpoint put_values (p : Z) (vs : list value) : list Z :=
  match vs with
  | [] => []
  | v :: vs' => put_value p v ++ match vs' with [] => [] | _ => 32 :: put_values p vs' end
  end.
Fixpoint get_values (Fs : list field) (s : istr) : istr * list value :=
  match Fs with
  | [] => (s, [])
  | F :: Fs' =>
      let (s, v) := get_value F s in
      match Fs' with
      | [] => (s, [v])
      | _ => let (s, vs) := get_values Fs' (delim_c 32 s) in (s, v :: vs)
      end
  end.

(** A distribution class as far as text is concerned: the text written before the parameters, the text
    expected there, the parameters, and the argument of setprecision if there is one. *)
Record dist_class := DistClass {
  dc_written : list Z; dc_expected : list Z; dc_fields : list field; dc_prec : option Z }.

(** operator<< of param_type: flags saved and restored, the precision is not (exponential_dist.hpp 83-92 etc.). *)
Definition saving_flags (body : ostr -> ostr) (s : ostr) : ostr :=
  let flags := o_flags s in set_flags flags (body (set_flags fixed_flags s)).
Definition write_param (c : dist_class) (vs : list value) (s : ostr) : ostr :=
  saving_flags (fun s =>
    let s := o_put [40] s in
    let s := match dc_prec c with Some p => set_prec p s | None => s end in
    let s := o_put (put_values (o_prec s) vs) s in
    o_put [41] s) s.
(** operator<< of the class (exponential_dist.hpp 181-188 etc.) *)
Definition write_dist (c : dist_class) (vs : list value) (s : ostr) : ostr :=
  saving_flags (fun s => o_put [93] (write_param c vs (o_put (dc_written c) s))) s.

(** operator>> of param_type (exponential_dist.hpp 95-105 etc.) and of the class (191-202 etc.): the object
    is assigned if the stream has not failed. *)
Definition read_param (c : dist_class) (s : istr) (old : list value) : istr * list value :=
  let s := delim_c 40 s in
  let (s, vs) := get_values (dc_fields c) s in
  let s := delim_c 41 s in
  (s, if i_fail s then old else vs).
(** the value of a parameter object that was not assigned *)
Definition no_values : list value := [].
Definition read_dist (c : dist_class) (s : istr) (old : list value) : istr * list value :=
  let s := delim_str (dc_expected c) (ignore_spaces s) in
  let (s, vs) := read_param c s no_values in
  let s := delim_c 93 s in
  (s, if i_fail s then old else vs).

(** ** The classes with a fixed number of parameters.  digits10 + 1 = 16 for double; long double and float
    are not modelled.  result type and parameters of bernoulli_dist: int. *)
Definition same_text (name : string) (Fs : list field) (p : option Z) : dist_class :=
  let n := chars ("[" ++ name ++ " ") in DistClass n n Fs p.
Definition precise (name : string) (Fs : list field) : dist_class := same_text name Fs (Some 16).
Definition I := FNum i32.
(** twosided_exponential_dist.hpp 84-92, 95-105, 189-196 (writes "[exponential "), 199-210 (expects
    "[twosided exponential ") *)
Definition twosided_exponential_text : dist_class :=
  DistClass (chars "[exponential ") (chars "[twosided exponential ") [FReal] (Some 16).
(** bernoulli_dist.hpp 117-125, 128-141, 239-246, 249-260 *)
Definition bernoulli_text : dist_class := same_text "bernoulli" [FReal; I; I] None.
(** exponential_dist.hpp 83-105, 181-202 *)
Definition exponential_text : dist_class := precise "exponential" [FReal].
(** normal_dist.hpp 90-113, 190-211 *)
Definition normal_text : dist_class := precise "normal" [FReal; FReal].
(** truncated_normal_dist.hpp 125-149, 241-263 *)
Definition truncated_normal_text : dist_class := precise "truncated_normal" [FReal; FReal; FReal; FReal].
(** The remaining classes; lines of operator<< of param_type, of operator>>, of << and >> of the class. *)
Definition other_texts : list dist_class :=
  [ precise "beta" [FReal; FReal]                     (* beta_dist.hpp 105-106, 117-118, 222, 233 *)
  ; precise "binomial" [FReal; I]                     (* binomial_dist.hpp 161-162, 174, 197, 208 *)
  ; precise "cauchy" [FReal; FReal]                   (* cauchy_dist.hpp 93-94, 105, 212, 223 *)
  ; same_text "chi_square" [I] None                   (* chi_square_dist.hpp 90, 101, 204, 215-216 *)
  ; precise "extreme_value" [FReal; FReal]            (* extreme_value_dist.hpp 92-93, 104, 203, 214-215 *)
  ; precise "gamma" [FReal; FReal]                    (* gamma_dist.hpp 94-95, 106-107, 214, 225 *)
  ; precise "geometric" [FReal]                       (* geometric_dist.hpp 146, 157, 183, 194 *)
  ; precise "hypergeometric" [I; I; I]                (* hypergeometric_dist.hpp 167-168, 179-180, 203, 214-215 *)
  ; precise "logistic" [FReal; FReal]                 (* logistic_dist.hpp 92-93, 104, 208, 219 *)
  ; precise "lognormal" [FReal; FReal]                (* lognormal_dist.hpp 94-95, 106, 209, 220 *)
  ; precise "maxwell" [FReal]                         (* maxwell_dist.hpp 88-89, 100, 201, 212 *)
  ; precise "negative_binomial" [FReal; I]            (* negative_binomial_dist.hpp 173-174, 186, 209, 220-221 *)
  ; precise "pareto" [FReal; FReal]                   (* pareto_dist.hpp 93-94, 105-106, 203, 214 *)
  ; precise "poisson" [FReal]                         (* poisson_dist.hpp 141-142, 153, 176, 187 *)
  ; precise "powerlaw" [FReal; FReal]                 (* powerlaw_dist.hpp 93-94, 105-106, 205, 216 *)
  ; precise "rayleigh" [FReal]                        (* rayleigh_dist.hpp 88-89, 100, 192, 203 *)
  ; same_text "snedecor_f" [I; I] None                (* snedecor_f_dist.hpp 93, 104, 221, 232-233 *)
  ; same_text "student_t" [I] None                    (* student_t_dist.hpp 89, 100, 204, 215 *)
  ; precise "tent" [FReal; FReal]                     (* tent_dist.hpp 92-93, 104, 211, 222 *)
  ; precise "uniform" [FReal; FReal]                  (* uniform_dist.hpp 99-100, 111, 210, 221 *)
  ; same_text "uniform_int" [I; I] None               (* uniform_int_dist.hpp 157, 168, 193, 204-205 *)
  ; same_text "uniform01" [] None                     (* uniform01_dist.hpp 74, 84, 170, 181 *)
  ; precise "weibull" [FReal; FReal]                  (* weibull_dist.hpp 92-93, 104-105, 212, 223 *)
  ; precise "zero-truncated poisson" [FReal] ].       (* zero_truncated_poisson_dist.hpp 151-152, 163, 188, 199-200 *)

(** ** Classes with a variable number of parameters *)

(** discrete_dist.hpp 187-202, 205-225, 242, 253: the number, a blank, the weights.  The loop runs n times
    whether the stream has failed or not.  fast_discrete_dist.hpp 167-182, 185-205, 222, 233-234 alike. *)
Definition write_weights (ws : list xreal) (s : ostr) : ostr :=
  saving_flags (fun s =>
    let s := o_put (40 :: put_int (Z.of_nat (length ws)) ++ [32]) s in
    let s := match ws with [] => s | _ => set_prec 16 s end in
    let s := o_put (put_values (o_prec s) (map VReal ws)) s in
    o_put [41] s) s.
Definition write_discrete (name : list Z) (ws : list xreal) (s : ostr) : ostr :=
  saving_flags (fun s => o_put [93] (write_weights ws (o_put name s))) s.
Inductive outcome := ReadAs (s : istr) (vs : list value) | Uninitialised | Endless.
(** Uninitialised: n or p is used though the stream had failed before it was first read.  Endless: the number
    is too large, n becomes 2^64-1 and as many elements are appended.  (get_int returns -1 then and 0 if
    there is no digit.) *)
Definition read_discrete (name : list Z) (s : istr) (old : list value) : outcome :=
  let s := delim_c 40 (delim_str name (ignore_spaces s)) in
  if i_good s then
    let (s, n) := get_int u64 s (-1) in
    if n <? 0 then Endless
    else
      let s := delim_c 32 s in
      if (0 <? n) && negb (i_good s) then Uninitialised
      else
        let (s, vs) := get_values (repeat FReal (Z.to_nat n)) s in
        let s := delim_c 93 (delim_c 41 s) in
        ReadAs s (if i_fail s then old else vs)
  else Uninitialised.
Definition discrete_name : list Z := chars "[discrete ".
Definition fast_discrete_name : list Z := chars "[fast_discrete ".

(** correlated_normal_dist.hpp 115-126, 129-150, 204, 215-216: the dimension d, then d * d times a blank and an
    element of the matrix.  On input d is an unsigned int and d * d wraps. *)
Definition write_matrix (d : Z) (H : list xreal) (s : ostr) : ostr :=
  saving_flags (fun s =>
    let s := o_put (40 :: put_int d) s in
    let s := set_prec 16 s in
    let s := o_put (flat_map (fun x => 32 :: put_real (o_prec s) x) H) s in
    o_put [41] s) s.
Definition correlated_name : list Z := chars "[correlated_normal ".
Definition write_correlated (d : Z) (H : list xreal) (s : ostr) : ostr :=
  saving_flags (fun s => o_put [93] (write_matrix d H (o_put correlated_name s))) s.
Fixpoint get_elements (k : nat) (s : istr) : istr * list value :=
  match k with
  | O => (s, [])
  | S k => let (s, v) := get_value FReal (delim_c 32 s) in
           let (s, vs) := get_elements k s in (s, v :: vs)
  end.
(** Uninitialised: d is used though the stream had failed before it was read *)
Definition read_correlated (s : istr) (old : list value) : outcome :=
  let s := delim_c 40 (delim_str correlated_name (ignore_spaces s)) in
  if i_good s then
    let (s, d) := get_int u32 s (-1) in
    let (s, vs) := get_elements (Z.to_nat ((d * d) mod 2 ^ 32)) s in
    let s := delim_c 93 (delim_c 41 s) in
    ReadAs s (if i_fail s then old else VInt d :: vs)
  else Uninitialised.
