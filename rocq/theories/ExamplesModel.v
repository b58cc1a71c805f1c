(** Model of the parallel programs in /repo/examples: pi.cc, pi_block_openmp.cc, pi_block_mpi.cc, pi_block_tbb.cc,
    pi_block_cuda.cu, pi_leap_openmp.cc, pi_leap_mpi.cc, pi_leap_cuda.cu, site_percolation_embarrassing.cc and
    site_percolation_fine-grained.cc.  Definitions only.
    One process is a function of its rank; the number of samples, processes and lattice sites are arguments.  int is
    32 bits wide and long 64 bits, signed overflow is [Overflow].  The programs are written for any engine type E with
    its u(r), jump and split, and for any test of a point; the instances are at the end. *)
From Coq Require Import ZArith List Bool Arith.
From Flocq Require Import BinarySingleNaN.
From Verif Require Import Base IntMathModel MrgModel UniformModel CudaModel.
Import ListNotations.
Open Scope Z_scope.

Definition rbind {A B} (x : result A) (f : A -> result B) : result B :=
  match x with
  | Val a => f a
  | InvalidArgument => InvalidArgument | RuntimeError => RuntimeError
  | Overflow => Overflow | OutOfFuel => OutOfFuel
  end.
Definition checked (ok : Z -> bool) (x : Z) : result Z := if ok x then Val x else Overflow.

(** for (i = i0; i < stop; i += step) body, where i is of the type with range [ok] *)
Fixpoint for_loop {S} (ok : Z -> bool) (fuel : nat) (i stop step : Z) (body : Z -> S -> result S) (s : S) : result S :=
  match fuel with
  | O => OutOfFuel
  | Datatypes.S k =>
    if i <? stop then
      rbind (body i s) (fun s' => rbind (checked ok (i + step)) (fun i' => for_loop ok k i' stop step body s'))
    else Val s
  end.

(** The sum of what the processes counted (reduction(+ : in), MPI_Reduce, the loop over in[rank]). *)
Fixpoint total (l : list (result Z)) : result Z :=
  match l with
  | [] => Val 0
  | x :: l' => rbind x (fun a => rbind (total l') (fun b => Val (a + b)))
  end.
Definition all_ranks {A} (size : Z) (f : Z -> A) : list A := map (fun k => f (Z.of_nat k)) (seq 0 (Z.to_nat size)).

Section Programs.
Context {E V : Type} (u : E -> result (V * E)) (jump : E -> Z -> E) (split : E -> Z -> Z -> outcome E).
Context (hit : V -> V -> bool).

(** const double x{u(r)}, y{u(r)}; if (x * x + y * y <= 1.0) ++in;   (pi.cc 45-47) *)
Definition point (_ : Z) (s : E * Z) : result (E * Z) :=
  rbind (u (fst s)) (fun xr => rbind (u (snd xr)) (fun yr =>
    Val (snd yr, if hit (fst xr) (fst yr) then snd s + 1 else snd s))).

(** pi.cc 39-48 *)
Definition pi_serial (R : E) (samples : Z) : result Z :=
  rbind (for_loop int64 (Datatypes.S (Z.to_nat samples)) 0 samples 1 point (R, 0)) (fun s => Val (snd s)).

(** rank * samples / size *)
Definition block_start (samples size rank : Z) : result Z :=
  rbind (checked int64 (rank * samples)) (fun t => Val (Z.quot t size)).

(** pi_block_openmp.cc 43-56, pi_block_mpi.cc 43-57, pi_block_cuda.cu 39-50 (pi_block_hip.hip 41-52 is the same) *)
Definition pi_block (R : E) (samples size rank : Z) : result Z :=
  rbind (block_start samples size rank) (fun first =>
  rbind (block_start samples size (rank + 1)) (fun last =>
  rbind (checked int64 (2 * first)) (fun skip =>
  rbind (for_loop int64 (Datatypes.S (Z.to_nat samples)) first last 1 point (jump R (wrap64 skip), 0))
        (fun s => Val (snd s))))).

(** pi_block_tbb.cc 40-70; the loop test i != range.end() is written i < range.end().
    parallel_reduce halves the range in some way; the second half is given to the same
    object or to a new one, which is joined later. *)
Inductive schedule := Run | Split (middle : Z) (other : bool) (left right : schedule).
Definition tbb_apply (R : E) (begin stop inn : Z) : result Z :=
  rbind (checked int64 (2 * begin)) (fun skip =>
  rbind (for_loop int64 (Datatypes.S (Z.to_nat (stop - begin))) begin stop 1 point (jump R (wrap64 skip), inn))
        (fun s => Val (snd s))).
Fixpoint tbb_reduce (R : E) (t : schedule) (begin stop inn : Z) : result Z :=
  match t with
  | Run => tbb_apply R begin stop inn
  | Split m other l r =>
    rbind (tbb_reduce R l begin m inn) (fun a =>
      if other then rbind (tbb_reduce R r m stop 0) (fun b => Val (a + b))
      else tbb_reduce R r m stop a)
  end.

(** rx.split(2, k); rx.split(size, rank); *)
Definition as_result {A} (x : outcome A) : result A :=
  match x with Returns a => Val a | Throws => InvalidArgument | Undefined => Overflow end.
Definition leap_engine (R : E) (k size rank : Z) : result E :=
  rbind (as_result (split R 2 k)) (fun r => as_result (split r size rank)).

(** const double x{u(rx)}, y{u(ry)}; if (x * x + y * y <= 1.0) ++in; *)
Definition point2 (_ : Z) (s : E * E * Z) : result (E * E * Z) :=
  let '(rx, ry, inn) := s in
  rbind (u rx) (fun x => rbind (u ry) (fun y =>
    Val (snd x, snd y, if hit (fst x) (fst y) then inn + 1 else inn))).

(** pi_leap_openmp.cc 43-60, pi_leap_mpi.cc 43-61 *)
Definition pi_leap (R : E) (samples size rank : Z) : result Z :=
  rbind (leap_engine R 0 size rank) (fun rx =>
  rbind (leap_engine R 1 size rank) (fun ry =>
  rbind (for_loop int64 (Datatypes.S (Z.to_nat samples)) rank samples size point2 (rx, ry, 0)) (fun s => Val (snd s)))).

(** pi_leap_cuda.cu 39-49, 56-61: the streams of pi_leap, but the loop bounds of pi_block *)
Definition pi_leap_cuda (R : E) (samples size rank : Z) : result Z :=
  rbind (leap_engine R 0 size rank) (fun rx =>
  rbind (leap_engine R 1 size rank) (fun ry =>
  rbind (block_start samples size rank) (fun first =>
  rbind (block_start samples size (rank + 1)) (fun last =>
  rbind (for_loop int64 (Datatypes.S (Z.to_nat samples)) first last 1 point2 (rx, ry, 0)) (fun s => Val (snd s)))))).

(** ** site percolation *)
Context (occupied : V -> bool).

(** if (u(R) < P) site = 1; else site = 0; *)
Definition set_site (_ : Z) (s : E * list bool) : result (E * list bool) :=
  rbind (u (fst s)) (fun xr => Val (snd xr, snd s ++ [occupied (fst xr)])).

(** The loops over x and y (site_percolation_embarrassing.cc 55-60): the lattice, row by row. *)
Definition fill (Nx Ny : Z) (R : E) : result (E * list bool) :=
  for_loop int32 (Datatypes.S (Z.to_nat Nx)) 0 Nx 1
    (fun _ s => for_loop int32 (Datatypes.S (Z.to_nat Ny)) 0 Ny 1 set_site s) (R, []).

(** site_percolation_embarrassing.cc 39-40, 52-62: the realizations and their lattices on one process *)
Definition perc_embarrassing (R : E) (realizations Nx Ny size rank : Z) : result (list (Z * list bool)) :=
  rbind (checked int32 (Nx * Ny)) (fun sweep =>
  rbind (checked int32 (rank * sweep)) (fun skip =>
  rbind (for_loop int32 (Datatypes.S (Z.to_nat realizations)) rank realizations size
    (fun i s =>
       rbind (fill Nx Ny (fst s)) (fun f =>
       rbind (checked int32 ((size - 1) * sweep)) (fun n =>
       Val (jump (fst f) (wrap64 n), snd s ++ [(i, snd f)]))))
    (jump R (wrap64 skip), [])) (fun s => Val (snd s)))).

(** site_percolation_fine-grained.cc 59-82 on the process with coordinates (cx, cy) of a dx * dy grid: the
    lattice section of every realization, row by row from y0 to y1 *)
Definition section_start (N dims c : Z) : result Z :=
  rbind (checked int32 (c * N)) (fun t => Val (Z.quot t dims)).
Definition fine_row (Nx x0 x1 : Z) (s : E * list bool) : result (E * list bool) :=
  rbind (for_loop int32 (Datatypes.S (Z.to_nat Nx)) x0 x1 1 set_site s) (fun f =>
  Val (jump (fst f) (wrap64 (Nx - (x1 - x0))), snd f)).
Definition fine_sweep (Nx Ny x0 x1 y0 y1 : Z) (R : E) : result (E * list bool) :=
  rbind (for_loop int32 (Datatypes.S (Z.to_nat Ny)) y0 y1 1 (fun _ => fine_row Nx x0 x1) (R, [])) (fun f =>
  rbind (checked int32 (Nx * (Ny - (y1 - y0)))) (fun n => Val (jump (fst f) (wrap64 n), snd f))).
Definition perc_fine (R : E) (realizations Nx Ny dx dy cx cy : Z) : result (list (list bool)) :=
  rbind (section_start Nx dx cx) (fun x0 => rbind (section_start Nx dx (cx + 1)) (fun x1 =>
  rbind (section_start Ny dy cy) (fun y0 => rbind (section_start Ny dy (cy + 1)) (fun y1 =>
  rbind (checked int32 (Nx * y0)) (fun t => rbind (checked int32 (t + x0)) (fun skip =>
  rbind (for_loop int32 (Datatypes.S (Z.to_nat realizations)) 0 realizations 1
    (fun _ s => rbind (fine_sweep Nx Ny x0 x1 y0 y1 (fst s)) (fun f => Val (fst f, snd s ++ [snd f])))
    (jump R (wrap64 skip), [])) (fun s => Val (snd s)))))))).
End Programs.

(** ** The engines and distributions of the programs *)

(** trng::uniform01_dist<> u; u(r) with a yarn engine (uniform01_dist.hpp 103-105) *)
Definition u_double (y : yarn_class) (R : mrg) : result (double * mrg) :=
  match yarn_next y R with
  | (Some r, R') => Val (uniformco 53 1024 (mc_modulus (yc_mrg y) - 1) r, R')
  | (None, _) => Overflow
  end.
(** trng::uniform01_dist<float> u; u(r) on a CUDA device *)
Definition u_float_cuda (y : yarn_class) (R : mrg) : result (float * mrg) :=
  let (r, R') := yarn_next_cuda y R in
  rbind r (fun r => Val (uniformco 24 128 (mc_modulus (yc_mrg y) - 1) r, R')).

(** x * x + y * y <= 1.0, and in float x * x + y * y <= 1 *)
Definition in_circle (x y : double) : bool :=
  Bleb (fadd 53 1024 (fmul 53 1024 x x) (fmul 53 1024 y y)) (of_int 53 1024 1).
Definition in_circle_float (x y : float) : bool :=
  Bleb (fadd 24 128 (fmul 24 128 x x) (fmul 24 128 y y)) (of_int 24 128 1).

(** u(R) < P *)
Definition below (P x : double) : bool := Bltb x P.

(** The programs. *)
Definition pi_cc (R : mrg) (samples : Z) : result Z := pi_serial (u_double yarn2_class) in_circle R samples.
Definition pi_block_openmp (R : mrg) (samples size : Z) : result Z :=
  total (all_ranks size (pi_block (u_double yarn2_class) (mrg_jump mrg2_class) in_circle R samples size)).
Definition pi_block_tbb (R : mrg) (t : schedule) (samples : Z) : result Z :=
  tbb_reduce (u_double yarn2_class) (mrg_jump mrg2_class) in_circle R t 0 samples 0.
Definition pi_leap_openmp (R : mrg) (samples size : Z) : result Z :=
  total (all_ranks size (pi_leap (u_double yarn2_class) (mrg_split mrg2_class) in_circle R samples size)).
Definition pi_block_cu (R : mrg) (samples size : Z) : result Z :=
  total (all_ranks size (pi_block (u_float_cuda yarn5s_class) (mrg_jump mrg5s_class) in_circle_float R samples size)).
Definition pi_leap_cu (R : mrg) (samples size : Z) : result Z :=
  total (all_ranks size (pi_leap_cuda (u_float_cuda yarn2_class) (mrg_split_cuda mrg2_class) in_circle_float R samples size)).
Definition site_percolation_embarrassing (R : mrg) (P : double) (realizations Nx Ny size rank : Z) :=
  perc_embarrassing (u_double yarn2_class) (mrg_jump mrg2_class) (below P) R realizations Nx Ny size rank.
Definition site_percolation_fine (R : mrg) (P : double) (realizations Nx Ny dx dy cx cy : Z) :=
  perc_fine (u_double yarn2_class) (mrg_jump mrg2_class) (below P) R realizations Nx Ny dx dy cx cy.
