(** Series evaluation of the incomplete Gamma function (special_functions.hpp 219-240), branch selection of
    GammaP and GammaQ (412-458) and algorithm AS 63 for the incomplete Beta function (597-640), over the reals.
    Definitions only.  Rounding is not modelled; undefined behaviour of the integer operations is. *)
From Coq Require Import Reals ZArith Bool.
From Verif Require Import ContModel GamModel.
Local Open Scope R_scope.

(** eps{4 * numeric_limits<T>::epsilon()} (221, 610) *)
Definition eps4 : R := 4 * epsilon.
(** itmax{numeric_limits<double>::digits} (220) *)
Definition itmax : nat := 53.

(** the do-while loop (226-232); [k] is the number of iterations that are still allowed *)
Fixpoint gser_loop (k : nat) (x xx n sum : R) : R :=
  match k with
  | O => sum
  | S k =>
      let n := n + 1 in
      let xx := xx * (x / n) in
      let sum := sum + xx in
      if Rlt_dec (eps4 * Rabs sum) (Rabs xx) then gser_loop k x xx n sum else sum
  end.
(** GammaP_ser (219-240) *)
Definition GammaP_ser (by_Gamma_a : bool) (a x : R) : R :=
  if Rlt_dec x eps4 then 0
  else
    let xx := 1 / a in
    let sum := gser_loop itmax x xx a xx in
    if by_Gamma_a then exp (- x + a * ln x - lgamma a) * sum else exp (- x + a * ln x) * sum.

(** detail::GammaP (412-433) and detail::GammaQ (436-457), with the continued fraction GammaQ_cf and the
    asymptotic expansions GammaP_asympt, GammaQ_asympt as parameters *)
Section branches.
Variable cf : bool -> R -> R -> R.
Variables asyP asyQ : R -> R -> R.
Definition in_asympt (a x : R) : bool :=
  if Rlt_dec 15 a then if Rlt_dec (3 / 10 * a) x then if Rlt_dec x (235 / 100 * a) then true else false else false else false.
Definition GammaP_alg (by_Gamma_a : bool) (a x : R) : xreal :=
  if Rlt_dec x 0 then NaN else if Rle_dec a 0 then NaN
  else if by_Gamma_a then
    if in_asympt a x then Fin (asyP a x)
    else if Rlt_dec x (a + 1) then Fin (GammaP_ser true a x) else Fin (1 - cf true a x)
  else if Rlt_dec x (a + 1) then Fin (GammaP_ser false a x) else Fin (tgamma a - cf false a x).
Definition GammaQ_alg (by_Gamma_a : bool) (a x : R) : xreal :=
  if Rlt_dec x 0 then NaN else if Rle_dec a 0 then NaN
  else if by_Gamma_a then
    if in_asympt a x then Fin (asyQ a x)
    else if Rlt_dec x (a + 1) then Fin (1 - GammaP_ser true a x) else Fin (cf true a x)
  else if Rlt_dec x (a + 1) then Fin (tgamma a - GammaP_ser false a x) else Fin (cf false a x).
End branches.

(** Outcomes of Beta_I: a value, the NaN of the guard, undefined behaviour (conversion or decrement of the int s),
    or more than the allowed number of iterations *)
Inductive bres := BVal (y : R) | BNaN | BUndefined | BFuel.

(** the loop (620-637) *)
Fixpoint beta_loop (fuel : nat) (x p q term i y rx temp : R) (s : Z) (psq : R) : bres :=
  match fuel with
  | O => BFuel
  | S fuel =>
      let term := term * (temp * rx / (p + i)) in
      let y := y + term in
      let temp := Rabs term in
      if (if Rle_dec temp eps4 then if Rle_dec temp (eps4 * y) then true else false else false) then BVal y
      else if Z.eqb s (- 2 ^ 31) then BUndefined
      else
        let i := i + 1 in
        let s := Z.sub s 1 in
        if Z.leb 0 s then
          beta_loop fuel x p q term i y (if Z.eqb s 0 then x else rx) (q - i) s psq
        else beta_loop fuel x p q term i y rx psq s (psq + 1)
  end.
(** lines 611-639 after the exchange; exp(p*ln(x)+(q-1)*ln(cx)) is 0 for x = 0 (ln(0) is -inf and cx = 1) *)
Definition beta_core (fuel : nat) (x cx p q norm : R) : bres :=
  let psq := p + q in
  let s := Int_part (q + cx * psq) in
  if Z.leb (2 ^ 31) s then BUndefined
  else
    let rx := if Z.eqb s 0 then x else x / cx in
    match beta_loop fuel x p q 1 1 1 rx (q - 1) s psq with
    | BVal y => BVal (if Req_EM_T x 0 then 0 else y * (exp (p * ln x + (q - 1) * ln cx) / p / norm))
    | r => r
    end.
(** Beta_I (601-640) *)
Definition Beta_I_alg (fuel : nat) (x p q norm : R) : bres :=
  if (if Rle_dec p 0 then true else if Rle_dec q 0 then true else if Rlt_dec x 0 then true else if Rlt_dec 1 x then true else false)
  then BNaN
  else if Rlt_dec p ((p + q) * x) then
    match beta_core fuel (1 - x) x q p norm with BVal y => BVal (1 - y) | r => r end
  else beta_core fuel x (1 - x) p q norm.
(** Beta_I of an argument that may be infinite or NaN: the guard sees +inf and -inf, but not NaN, and the conversion of
    NaN to int is undefined *)
Definition Beta_I_x (fuel : nat) (x : xreal) (p q norm : R) : bres :=
  match x with
  | Fin x => Beta_I_alg fuel x p q norm
  | NaN => if (if Rle_dec p 0 then true else if Rle_dec q 0 then true else false) then BNaN else BUndefined
  | _ => BNaN
  end.
(** student_t_dist::cdf (161-165) at an infinite argument: t1 = inf and t2 = (x + inf)/(2*inf) is NaN *)
Definition stu_cdf_x (fuel : nat) (nu : Z) (x : xreal) (norm : R) : bres :=
  match x with
  | Fin x =>
      let t1 := sqrt (x * x + IZR nu) in
      Beta_I_x fuel (Fin ((x + t1) / (2 * t1))) (IZR nu / 2) (IZR nu / 2) norm
  | _ => Beta_I_x fuel NaN (IZR nu / 2) (IZR nu / 2) norm
  end.
(** snedecor_f_dist::cdf (177-182) at an infinite argument: n*x/(m+n*x) is inf/inf *)
Definition sne_cdf_x (fuel : nat) (n m : Z) (x : xreal) (norm : R) : bres :=
  match x with
  | Fin x => Beta_I_x fuel (xdiv (IZR n * x) (IZR m + IZR n * x)) (1 / 2 * IZR n) (1 / 2 * IZR m) norm
  | _ => Beta_I_x fuel NaN (1 / 2 * IZR n) (1 / 2 * IZR m) norm
  end.
