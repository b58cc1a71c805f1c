(** C86: the quantile iteration of maxwell_dist. *)
From Coq Require Import Reals ZArith Lra Psatz Lia.
From Coquelicot Require Import Coquelicot.
From Verif Require Import ContModel NormModel NormProofs SeriesModel NewtonModel NewtonProofs NewtonMaxwell.
Local Open Scope R_scope.

(** the guards: not a number outside [0,1] and nowhere else in it, the ends of the support at 0 and 1 *)
Theorem C86_guards : forall theta x, 0 < theta ->
  (x < 0 \/ 1 < x -> mxw_icdf theta x = NaN) /\ mxw_icdf theta 0 = Fin 0 /\ mxw_icdf theta 1 = PInf.
Proof.
  intros th x _. unfold mxw_icdf. split; [|split].
  - intros [H|H]; destruct (Rlt_dec x 0); try reflexivity; try lra. destruct (Rlt_dec 1 x); [reflexivity|lra].
  - destruct (Rlt_dec 0 0); [lra|]. destruct (Rlt_dec 1 0); [lra|]. destruct (Req_EM_T 0 1); [lra|]. destruct (Req_EM_T 0 0); [reflexivity|lra].
  - destruct (Rlt_dec 1 0); [lra|]. destruct (Rlt_dec 1 1); [lra|]. destruct (Req_EM_T 1 1); [reflexivity|lra].
Qed.
Example C86_guards_example : mxw_icdf 2 (- (1)) = NaN /\ mxw_icdf 2 3 = NaN.
Proof. split; apply (C86_guards 2); lra. Qed.

(** total correctness: 55 iterations meet the tolerance test and the answer solves cdf(v) = x *)
Theorem C86_quantile : forall theta x, 0 < theta -> / 2 ^ 53 <= x <= 1 - / 2 ^ 53 ->
  exists v, fst (mxw_iterate theta x) = Met /\ mxw_icdf theta x = Fin v /\ 0 < v /\ Rabs (max_cdf theta v - x) <= / 2 ^ 96.
Proof.
  intros th x Ht Hx. assert (0 < / 2 ^ 53) by lra. destruct (mx_main x Hx) as (r & E & R). exists (th * r). split; [|split; [|split]].
  - unfold mxw_iterate. rewrite mx_start, mx_scale by exact Ht. rewrite E. reflexivity.
  - rewrite mx_icdf by lra. rewrite E. reflexivity.
  - apply Rmult_lt_0_compat; assumption.
  - rewrite max_cdf_scale by exact Ht. exact (mx_met 55 x y0 r E).
Qed.
(** the answer separates any two arguments further apart than twice the tolerance: it is increasing on the multiples of 2^-53,
    among which the arguments drawn by the uniform generators lie *)
Theorem C86_increasing : forall theta x x' v v', 0 < theta -> / 2 ^ 53 <= x -> x + / 2 ^ 53 <= x' -> x' <= 1 - / 2 ^ 53 ->
  mxw_icdf theta x = Fin v -> mxw_icdf theta x' = Fin v' -> v < v'.
Proof.
  intros th x x' v v' Ht Hx Hd Hx' Ev Ev'. assert (0 < / 2 ^ 53) by lra.
  destruct (C86_quantile th x Ht ltac:(lra)) as (w & _ & W & _ & C). destruct (C86_quantile th x' Ht ltac:(lra)) as (w' & _ & W' & _ & C').
  rewrite Ev in W. rewrite Ev' in W'. assert (Q : v = w) by (injection W; auto). assert (Q' : v' = w') by (injection W'; auto). rewrite <- Q in C. rewrite <- Q' in C'.
  apply Rnot_le_lt. intros N. pose proof (max_monotone th Ht v' v N) as M. pose proof (abs_in _ _ C). pose proof (abs_in _ _ C'). lra.
Qed.
Example C86_increasing_example : exists v v', mxw_icdf 3 (1 / 4) = Fin v /\ mxw_icdf 3 (3 / 4) = Fin v' /\ v < v'.
Proof.
  destruct (C86_quantile 3 (1 / 4) ltac:(lra) ltac:(lra)) as (v & _ & E & _). destruct (C86_quantile 3 (3 / 4) ltac:(lra) ltac:(lra)) as (v' & _ & E' & _).
  exists v, v'. split; [exact E|]. split; [exact E'|]. apply (C86_increasing 3 (1 / 4) (3 / 4) v v'); try assumption; lra.
Qed.
(** whatever the argument: a result accepted by the tolerance test is a solution *)
Theorem C86_tolerance : forall theta x v, 0 < theta -> mxw_iterate theta x = (Met, v) -> Rabs (max_cdf theta v - x) <= / 2 ^ 96.
Proof.
  intros th x v Ht. unfold mxw_iterate. rewrite mx_start, mx_scale by exact Ht. destruct (mxw_loop 55 1 x y0) as (e & r) eqn:E. intros H.
  assert (A : e = Met) by (injection H; auto). assert (B : th * r = v) by (injection H; auto). rewrite <- B, max_cdf_scale by exact Ht. rewrite A in E. exact (mx_met 55 x y0 r E).
Qed.
Example C86_tolerance_example : exists v, mxw_iterate 2 (1 / 3) = (Met, v).
Proof. destruct (C86_quantile 2 (1 / 3) ltac:(lra) ltac:(lra)) as (v & E & _). destruct (mxw_iterate 2 (1 / 3)) as (e & w). cbn [fst] in E. exists w. rewrite E. reflexivity. Qed.
(** theta is a scale parameter of the quantiles *)
Theorem C86_scale : forall theta x v, 0 < theta -> 0 < x < 1 -> (mxw_icdf 1 x = Fin v -> mxw_icdf theta x = Fin (theta * v)).
Proof.
  intros th x v Ht Hx. rewrite !mx_icdf by lra. destruct (mxw_loop 55 1 x y0) as ([] & r); intros H; try discriminate H; assert (A : 1 * r = v) by (injection H; auto); rewrite <- A, Rmult_1_l; reflexivity.
Qed.
Example C86_scale_example : exists v, mxw_icdf 1 (1 / 2) = Fin v /\ mxw_icdf 5 (1 / 2) = Fin (5 * v).
Proof. destruct (C86_quantile 1 (1 / 2) ltac:(lra) ltac:(lra)) as (v & _ & E & _). exists v. split; [exact E|]. apply C86_scale; [lra|lra|exact E]. Qed.
(** for very small arguments the 55 iterations do not suffice: the step at most halves the value, so the answer stays above 2^-55 theta
    and its distribution function above 2^-170, whatever the argument *)
Theorem C86_tiny_refuted : forall theta x, 0 < theta -> 0 < x < / 2 ^ 171 ->
  exists v, mxw_icdf theta x = Fin v /\ / 2 ^ 55 * theta <= v /\ / 2 ^ 170 <= max_cdf theta v /\ 2 * x < max_cdf theta v.
Proof.
  intros th x Ht Hx. assert (T : 0 < x <= / 2 ^ 10) by lra. destruct (mx_tiny x T) as (e & r & E & N & R). pose proof (mx_tiny_cdf r R) as C. exists (th * r).
  split; [rewrite mx_icdf by lra; rewrite E; destruct e; [reflexivity|exfalso; apply N; reflexivity|reflexivity]|]. split; [|rewrite max_cdf_scale by exact Ht; split; lra].
  rewrite (Rmult_comm th). apply Rmult_le_compat_r; lra.
Qed.
Example C86_tiny_example : exists v, mxw_icdf 2 (/ 2 ^ 1000) = Fin v /\ / 2 ^ 170 <= max_cdf 2 v.
Proof.
  assert (0 < / 2 ^ 1000 < / 2 ^ 171).
  { split; [apply Rinv_0_lt_compat, pow_lt; lra|]. apply Rinv_lt_contravar; [apply Rmult_lt_0_compat; apply pow_lt; lra|apply Rlt_pow; [lra|lia]]. }
  destruct (C86_tiny_refuted 2 (/ 2 ^ 1000) ltac:(lra) ltac:(lra)) as (v & E & _ & C & _). exists v. split; assumption.
Qed.

Print Assumptions C86_guards.
Print Assumptions C86_quantile.
Print Assumptions C86_increasing.
Print Assumptions C86_tolerance.
Print Assumptions C86_scale.
Print Assumptions C86_tiny_refuted.
