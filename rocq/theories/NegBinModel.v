(** negative_binomial_dist (negative_binomial_dist.hpp): probabilities and cumulative probabilities in exact arithmetic.
    Simplifications as in GamModel: real numbers without rounding, extended by infinities and NaN; std::lgamma, std::log and
    std::log1p are the exact functions.  std::sort is an insertion sort; with a NaN among the terms its behaviour is undefined
    in C++ (the comparison is no strict weak ordering), here the result is NaN in any order.  x + 1 overflows for the largest
    int, the outcome [None].  The table and the draw are negbin_table and sampler_draw of DiscreteModel.  Definitions only. *)
From Coq Require Import Reals ZArith List.
From Verif Require Import Base DiscreteModel ContModel GamModel.
Import ListNotations.
Local Open Scope R_scope.

(** the comparison |a| < |b| of the terms (71); an infinite magnitude is the largest, NaN compares false *)
Definition abs_less (a b : xreal) : bool :=
  match a, b with
  | Fin a, Fin b => if Rlt_dec (Rabs a) (Rabs b) then true else false
  | Fin _, PInf | Fin _, NInf => true
  | _, _ => false
  end.
(** std::sort (70-71) *)
Fixpoint insert (a : xreal) (l : list xreal) : list xreal :=
  match l with [] => [a] | b :: l' => if abs_less b a then b :: insert a l' else a :: l end.
Definition sort (l : list xreal) : list xreal := fold_right insert [] l.
(** std::accumulate (72) *)
Definition accumulate (l : list xreal) : xreal := fold_left xadd l (Fin 0).

(** the terms (67-69), [x1] is x + 1 *)
Definition nb_terms (p r x x1 : R) : list xreal :=
  [Fin (lgamma (r + x)); Fin (- lgamma r); Fin (- lgamma x1); xscale r (xln p); xscale x (xln (1 + - p))].
(** param_type::pdf (64-73), the value at x >= 0 *)
Definition nb_pdf_at (p r : R) (x : Z) : xreal := xexp (accumulate (sort (nb_terms p r (IZR x) (IZR (x + 1))))).
Definition nb_pdf (p r : R) (x : Z) : option xreal :=
  if (x <? 0)%Z then Some (Fin 0) else option_map (fun _ => nb_pdf_at p r x) (as_int (x + 1)).
(** param_type::cdf (76-80), the value at x >= 0: Beta_I (special_functions.hpp 660-662) with the exact integral *)
Definition nb_cdf_at (p r : R) (x : Z) : xreal := Beta_I (Fin p) r (IZR (x + 1)) (Beta r (IZR (x + 1))).
Definition nb_cdf (p r : R) (x : Z) : option xreal :=
  if (x <? 0)%Z then Some (Fin 0) else option_map (fun _ => nb_cdf_at p r x) (as_int (x + 1)).
(** pdf and cdf as seen by calc_probabilities (82-92) and operator() (126-138), where the value is finite *)
Definition fin_part (v : xreal) : R := match v with Fin v => v | _ => 0 end.
Definition nb_pdf_real (p r : R) (x : Z) : R := fin_part (nb_pdf_at p r x).
Definition nb_cdf_real (p r : R) (x : Z) : R := fin_part (nb_cdf_at p r x).
