(** C83-C85: the iterations inv_GammaP and inv_Beta_I, against the integrals they invert. *)
From Coq Require Import Reals ZArith Lra Psatz Lia.
From Coquelicot Require Import Coquelicot.
From Flocq Require Import IEEE754.BinarySingleNaN.
From Verif Require Import ContModel ContProofs GamModel SeriesModel NewtonModel Improper GammaFn BetaFn GamProofs SeriesProofs NewtonProofs NewtonBeta
  Prop_Continuous Prop_Gamma Prop_Series.
Local Open Scope R_scope.

(** ** Specification *)
(** [g] evaluates the regularised incomplete gamma function with an error of at most [d] *)
Definition evaluates_gamma (a : R) (g : R -> R) (d : R) : Prop :=
  forall x v w, 0 < x -> up_to (gamma_integrand a) x v -> over_half_line (gamma_integrand a) w -> Rabs (g x - v / w) <= d.
(** [r] solves P(a, r) = p, respectively I_r(p, q) = x, up to an error of [d] *)
Definition solves_gamma (a p r d : R) : Prop :=
  forall v w, up_to (gamma_integrand a) r v -> over_half_line (gamma_integrand a) w -> Rabs (v / w - p) <= d.
Definition evaluates_beta (p q : R) (g : R -> R) (d : R) : Prop :=
  forall y v w, 0 < y < 1 -> up_to (beta_integrand p q) y v -> over_unit (beta_integrand p q) w -> Rabs (g y - v / w) <= d.
Definition solves_beta (p q x r d : R) : Prop :=
  forall v w, up_to (beta_integrand p q) r v -> over_unit (beta_integrand p q) w -> Rabs (v / w - x) <= d.

(** ** C83: inv_GammaP *)

(** the result is positive whatever the evaluation of GammaP returns; the exit for x <= 0 is never taken *)
Theorem C83_positive : forall gp a p, 0 < a -> 0 < p < 1 -> 0 < snd (inv_GammaP_alg gp a p) /\ fst (inv_GammaP_alg gp a p) <> Zero.
Proof.
  intros gp a p Ha Hp. destruct (hal_loop_pos gp a p Ha digits (hal_start a p) (hal_start_pos a p Ha Hp)) as (A & B). split; assumption.
Qed.
Example C83_positive_example : 0 < snd (inv_GammaP_alg (fun x => 1 - exp (- x)) 1 (1 / 3)).
Proof. apply (C83_positive (fun x => 1 - exp (- x)) 1 (1 / 3)); lra. Qed.
(** the iteration rests exactly at the solutions, and accepts them *)
Theorem C83_fixed : forall gp a p x, 0 < a -> 0 < x ->
  (snd (hal_step gp a p x) = x <-> gp x = p) /\ (gp x = p -> forall k, hal_loop (S k) gp a p x = (Met, x)).
Proof.
  intros gp a p x Ha Hx. split; [exact (hal_fixed gp a p x Ha Hx)|]. intros E k. cbn [hal_loop]. destruct (Rle_dec x 0); [lra|].
  pose proof (proj2 (hal_fixed gp a p x Ha Hx) E) as S1. assert (T : fst (hal_step gp a p x) = 0).
  { unfold hal_step. cbv zeta. cbn [fst]. rewrite E. replace (p - p) with 0 by ring. unfold Rdiv. rewrite !Rmult_0_l. reflexivity. }
  destruct (hal_step gp a p x) as [t r]. cbn [fst snd] in S1, T. subst t r. rewrite Rabs_R0. destruct (Rlt_dec 0 (hal_eps * x)) as [|N]; [reflexivity|].
  exfalso. apply N. apply Rmult_lt_0_compat; [rewrite hal_eps_val; lra|exact Hx].
Qed.
Example C83_fixed_example : snd (hal_step (fun x => 1 - exp (- x)) 1 (1 / 2) (ln 2)) = ln 2.
Proof.
  assert (L2 : 0 < ln 2) by (rewrite <- ln_1; apply ln_increasing; lra).
  apply (C83_fixed (fun x => 1 - exp (- x)) 1 (1 / 2) (ln 2)); [lra|exact L2|]. rewrite exp_Ropp, exp_ln by lra. lra.
Qed.
(** a result accepted by the tolerance test solves the equation up to the error of the evaluation and a cubic term *)
Theorem C83_tolerance : forall gp a p d r, 0 < a -> 0 < p < 1 -> evaluates_gamma a gp d -> inv_GammaP_alg gp a p = (Met, r) -> a + 1 + r <= 2 ^ 25 ->
  solves_gamma a p r (d + / 2 ^ 76 * a * (a + 1 + r) ^ 2).
Proof.
  intros gp a p d r Ha Hp Hg E HB v w Hv Hw.
  destruct (hal_loop_met gp a p Ha digits (hal_start a p) r (hal_start_pos a p Ha Hp) E) as (z & t & Hz & Hr & S1 & T).
  assert (S2 : hal_step (fun _ => gp z) a p z = (t, r)) by exact S1.
  pose proof (hal_cubic a p (gp z) z t r Ha Hz Hr S2 T HB) as C.
  pose proof (Hg z (lgam a z) (Gam a) Hz (lgam_gen a z Ha Hz) (Gam_gen a Ha)) as G. rewrite <- P_in in G by exact Hz.
  rewrite (int_gamma a r v Ha Hr Hv), (int_Gamma a w Ha Hw), <- P_in by exact Hr.
  set (e := / 2 ^ 76 * a * (a + 1 + r) ^ 2) in *. clearbody e.
  replace (P a r - p) with ((P a r - P a z + (gp z - p)) - (gp z - P a z)) by ring.
  pose proof (Rabs_triang (P a r - P a z + (gp z - p)) (- (gp z - P a z))) as Tr. rewrite Rabs_Ropp in Tr. unfold Rminus at 1. lra.
Qed.
Lemma exact_evaluates a : 0 < a -> evaluates_gamma a (P a) 0.
Proof.
  intros Ha x v w Hx Hv Hw. rewrite (int_gamma a x v Ha Hx Hv), (int_Gamma a w Ha Hw), <- P_in by exact Hx. rewrite Rminus_diag_eq by reflexivity. rewrite Rabs_R0. lra.
Qed.
(** an evaluation with an error of at most 1/10 and an accepted result *)
Example C83_tolerance_example : exists gp r, evaluates_gamma 1 gp (1 / 10) /\ inv_GammaP_alg gp 1 (1 / 2) = (Met, r) /\ 1 + 1 + r <= 2 ^ 25.
Proof.
  set (x0 := hal_start 1 (1 / 2)). pose proof (hal_start_pos 1 (1 / 2) ltac:(lra) ltac:(lra)) as X. fold x0 in X.
  assert (E : x0 = 500 / 627).
  { unfold x0, hal_start. destruct (Rlt_dec 1 1); [lra|]. cbv zeta. destruct (Rlt_dec (1 / 2) (1 - 1 * (253 / 1000 + 1 * (12 / 100)))); [|lra].
    replace (1 / 1) with 1 by lra. rewrite Rpower_1 by lra. lra. }
  assert (B : Rabs (P 1 x0 - 1 / 2) <= 1 / 10).
  { assert (Q : P 1 x0 = 1 - exp (- x0)).
    { pose proof (C76_exponential 1 x0 ltac:(lra)) as Q. rewrite gam_cdf_P in Q by lra. replace (x0 / 1) with x0 in Q by field. rewrite Q. unfold expo_cdf.
      destruct (Rle_dec x0 0); [lra|]. f_equal. f_equal. field. }
    rewrite Q. pose proof (exp_lower8 x0 (46 / 100) ltac:(lra) ltac:(lra) ltac:(rewrite E; lra)) as U.
    assert (L : 41 / 100 <= exp (- x0)).
    { replace (- x0) with ((- x0 / 8) + (- x0 / 8) + (- x0 / 8) + (- x0 / 8) + (- x0 / 8) + (- x0 / 8) + (- x0 / 8) + (- x0 / 8)) by field. rewrite !exp_plus.
      pose proof (exp_ineq1_le (- x0 / 8)) as L. assert (90 / 100 <= exp (- x0 / 8)) by lra. set (e := exp (- x0 / 8)) in *.
      replace (e * e * e * e * e * e * e * e) with (e ^ 8) by ring. apply Rle_trans with ((90 / 100) ^ 8); [lra|]. apply pow_incr. lra. }
    apply Rabs_le. lra. }
  exists (fun x => P 1 x - (P 1 x0 - 1 / 2)), x0. split; [|split; [|rewrite E; lra]].
  - intros x v w Hx Hv Hw. pose proof (exact_evaluates 1 ltac:(lra) x v w Hx Hv Hw) as H. pose proof (Rabs_pos (P 1 x - v / w)) as A.
    assert (Z : P 1 x - v / w = 0) by (destruct (Req_dec (P 1 x - v / w) 0) as [Z|N]; [exact Z|pose proof (Rabs_no_R0 _ N); lra]).
    replace (P 1 x - (P 1 x0 - 1 / 2) - v / w) with (- (P 1 x0 - 1 / 2)) by lra. rewrite Rabs_Ropp. exact B.
  - apply (C83_fixed (fun x => P 1 x - (P 1 x0 - 1 / 2)) 1 (1 / 2) x0 ltac:(lra) X); ring.
Qed.
(** quantiles of gamma_dist and chi_square_dist *)
Theorem C83_distributions : forall gp kappa theta u d r, 0 < kappa -> 0 < theta -> 0 < u < 1 -> evaluates_gamma kappa (gp kappa) d ->
  inv_GammaP_alg (gp kappa) kappa u = (Met, r) -> kappa + 1 + r <= 2 ^ 25 ->
  gam_icdf (inv_halley gp) kappa theta u = Fin (r * theta) /\ Rabs (gam_cdf kappa theta (r * theta) - u) <= d + / 2 ^ 76 * kappa * (kappa + 1 + r) ^ 2 /\
  (forall nu, kappa = IZR nu / 2 -> chi_icdf (inv_halley gp) nu u = Fin (r * 2) /\ Rabs (chi_cdf nu (r * 2) - u) <= d + / 2 ^ 76 * kappa * (kappa + 1 + r) ^ 2).
Proof.
  intros gp k t u d r Hk Ht Hu Hg E HB. pose proof (C83_positive (gp k) k u Hk Hu) as (R0 & _). rewrite E in R0. cbn [snd] in R0.
  pose proof (C83_tolerance (gp k) k u d r Hk Hu Hg E HB (lgam k r) (Gam k) (lgam_gen k r Hk R0) (Gam_gen k Hk)) as T. rewrite <- P_in in T by exact R0.
  assert (I1 : inv_halley gp k u = r) by (unfold inv_halley; rewrite E; reflexivity).
  split; [|split].
  - rewrite gam_icdf_in by exact Hu. rewrite I1. reflexivity.
  - rewrite gam_cdf_P by assumption. replace (r * t / t) with r by (field; lra). exact T.
  - intros nu En. split.
    + unfold chi_icdf. rewrite dom_oo_in, !at_point_ne by lra. unfold chi_icdf_. rewrite <- En, I1. reflexivity.
    + rewrite chi_gam, <- En, gam_cdf_P by lra. replace (r * 2 / 2) with r by (field; lra). exact T.
Qed.
(** a small shape: the loop uses up its iterations and icdf(1/2) is a point where the distribution function is above 0.69,
    whatever the continued fraction and the asymptotic expansion return *)
Theorem C83_small_shape_refuted : exists kappa u, 0 < kappa /\ 0 < u < 1 /\ forall cf asyP, exists r,
  inv_GammaP_alg (gp_series cf asyP kappa) kappa u = (Limit, r) /\ gam_icdf (inv_halley (gp_series cf asyP)) kappa 1 u = Fin r /\ u + 19 / 100 <= gam_cdf kappa 1 r.
Proof.
  exists (1 / 128), (1 / 2). split; [lra|]. split; [lra|]. intros cf asyP. destruct (ss_result cf asyP) as (r & E & B). exists r.
  assert (R0 : 0 < r) by (assert (0 < / 2 ^ 51) by lra; lra). split; [exact E|]. split.
  - rewrite gam_icdf_in by lra. unfold inv_halley. rewrite E. cbn [snd]. f_equal. ring.
  - rewrite gam_cdf_P by lra. replace (r / 1) with r by field. pose proof (ss_P r R0 B) as Q. lra.
Qed.

(** ** C84: inv_Beta_I *)

(** the inner loop ends, and the result lies strictly inside (0, 1), whatever the evaluation of Beta_I returns *)
Theorem C84_defined : forall bi x p q norm, 0 < p -> 0 < q -> epsilon <= x <= 1 - epsilon ->
  exists n e r, (forall fuel, (n < fuel)%nat -> inv_Beta_I_alg fuel bi x p q norm = Some (e, r)) /\ 0 < r < 1 /\ e <> Zero.
Proof.
  intros bi x p q norm Hp Hq Hx. pose proof eps_pos as E0. destruct (loop_total bi x p q norm digits (new_start x p q)) as (n & e & r & A & B & C & _); [apply new_start_in; lra|].
  exists n, e, r. split; [|split; assumption]. intros fuel Hf. rewrite inv_loop by exact Hx. apply A, Hf.
Qed.
Example C84_defined_example : epsilon <= 1 / 3 <= 1 - epsilon /\ new_start (1 / 3) 2 3 = 5 / 13.
Proof.
  pose proof eps_pos. split; [lra|]. rewrite new_start_val by lra. unfold guess. field.
Qed.
(** a result accepted by the tolerance test solves the equation up to the error of the evaluation and 2^-51 times the result *)
Theorem C84_tolerance : forall fuel bi x p q norm d r, 0 < p -> 0 < q -> epsilon <= x <= 1 - epsilon -> evaluates_beta p q bi d ->
  inv_Beta_I_alg fuel bi x p q norm = Some (Met, r) -> 0 < r < 1 /\ solves_beta p q x r (d + / 2 ^ 51 * r).
Proof.
  intros fuel bi x p q norm d r Hp Hq Hx Hb E. pose proof eps_pos as E0.
  assert (S0 : 0 < new_start x p q < 1) by (apply new_start_in; lra).
  assert (R0 : 0 < r < 1).
  { destruct (C84_defined bi x p q norm Hp Hq Hx) as (n & e & r' & A & B & _). specialize (A (Nat.max fuel (S n)) ltac:(lia)).
    rewrite (inv_more bi x p q norm fuel (Nat.max fuel (S n)) (Met, r) ltac:(lia) E) in A. assert (r = r') by (injection A; auto). lra. }
  split; [exact R0|]. intros v w Hv Hw. rewrite inv_loop in E by exact Hx. pose proof (loop_met fuel bi x p q norm digits _ r S0 E) as M.
  unfold Rdiv in M. rewrite Rabs_mult, (Rabs_pos_eq (/ r)) in M by (left; apply Rinv_0_lt_compat; lra).
  apply (Rmult_lt_compat_r r) in M; [|lra]. rewrite Rmult_assoc, Rinv_l in M by lra. pose proof (Hb r v w R0 Hv Hw) as B.
  assert (E2 : 2 * epsilon = / 2 ^ 51) by (unfold epsilon; lra). rewrite E2 in M. clear E2.
  replace (v / w - x) with ((bi r - x) - (bi r - v / w)) by ring. pose proof (Rabs_triang (bi r - x) (- (bi r - v / w))) as T. rewrite Rabs_Ropp in T. unfold Rminus at 1. lra.
Qed.
(** the slope used by the step is the derivative of the regularised integral *)
Theorem C84_slope : forall p q w y, 0 < p -> 0 < q -> 0 < y < 1 -> over_unit (beta_integrand p q) w ->
  derivable_pt_lim (fun t => value (bet_cdf (bet_make p q) t)) y (new_slope p q w y).
Proof.
  intros p q w y Hp Hq Hy Hw. rewrite (int_Beta p q w Hp Hq Hw), new_slope_val. apply is_derive_Reals.
  apply (is_derive_ext (I p q)); [intros t; symmetry; apply bet_val; assumption|]. apply I_deriv; assumption.
Qed.
(** an exact solution is accepted at once *)
Theorem C84_fixed : forall fuel k bi x p q norm y, 0 < y < 1 -> bi y = x -> new_loop fuel (S k) bi x p q norm y = Some (Met, y).
Proof.
  intros fuel k bi x p q norm y Hy E. apply loop_hit. rewrite E. replace ((x - x) / y) with 0 by (field; lra). rewrite Rabs_R0. pose proof eps_pos. lra.
Qed.
Example C84_fixed_example : inv_Beta_I_alg 1 (fun y => y) (1 / 2) 1 1 1 = Some (Met, 1 / 2).
Proof.
  pose proof eps_pos as E0. rewrite inv_loop by lra. rewrite new_start_val by lra. replace (guess 1 1) with (1 / 2) by (unfold guess; lra).
  apply C84_fixed; lra.
Qed.
(** alpha = 1/1024, beta = 1023/1024, x = 1/4: the initial guess underflows to 0 and the inner loop never ends, for all
    positive doubles x and norm and whatever number of tests is allowed *)
Theorem C84_hang_refuted : exists x p q, 0 < p /\ 0 < q /\ epsilon <= x <= 1 - epsilon /\ new_start_double x p q = 0 /\
  forall fuel xd nd, is_finite xd = true -> Bltb (bf_of 0 0) xd = true -> is_finite nd = true -> Bltb (bf_of 0 0) nd = true -> new_first_double fuel xd nd = None.
Proof.
  exists (1 / 4), (1 / 1024), (1023 / 1024). pose proof eps_pos as E0. split; [lra|]. split; [lra|]. split; [lra|]. split; [apply start_underflow|].
  intros fuel xd nd F1 P1 F2 P2. destruct xd as [s|s| |s m e h]; try discriminate F1; [destruct s; discriminate P1|]. destruct s; [discriminate P1|].
  destruct nd as [s|s| |s m' e' h']; try discriminate F2; [destruct s; discriminate P2|]. destruct s; [discriminate P2|]. apply first_double_stuck.
Qed.
Example C84_hang_example : is_finite (bf_of 1 (-2)) = true /\ Bltb (bf_of 0 0) (bf_of 1 (-2)) = true /\ is_finite (bf_of 1024 0) = true /\ Bltb (bf_of 0 0) (bf_of 1024 0) = true.
Proof. repeat split; reflexivity. Qed.

(** ** C85: Newton's method converges *)

(** the approximate median, the start of the iteration *)
Definition median_guess (p q : R) : R := (3 * p - 1) / (3 * p + 3 * q - 2).
(** beta_dist with parameters >= 1: quantiles on the side of the guess away from the mode, exact Beta_I *)
Theorem C85_beta : forall alpha beta u, 1 <= alpha -> 1 <= beta -> alpha + beta <= 2 ^ 58 -> epsilon <= u <= 1 - epsilon ->
  beta <= alpha /\ u <= value (bet_cdf (bet_make alpha beta) (median_guess alpha beta)) \/
  alpha <= beta /\ value (bet_cdf (bet_make alpha beta) (median_guess alpha beta)) <= u ->
  exists r, (forall fuel, (0 < fuel)%nat -> inv_Beta_I_alg fuel (beta_val alpha beta) u alpha beta (norm_val alpha beta) = Some (Met, r) /\
    bet_icdf (inv_newton fuel) (bet_make alpha beta) u = Fin r) /\ 0 < r < 1 /\ Rabs (value (bet_cdf (bet_make alpha beta) r) - u) < / 2 ^ 51 * r.
Proof.
  intros a b u Ha Hb Hs Hu H. pose proof eps_pos as E0. rewrite !bet_val in H by lra.
  destruct (inv_converges a b u Ha Hb Hs Hu H) as (r & A & B & C). exists r. split; [|split; [exact B|]].
  - intros fuel Hf. pose proof (A fuel Hf) as A1. rewrite <- alg_exact in A1 by lra. split; [exact A1|].
    unfold bet_icdf. rewrite dom_cc_in, !at_point_ne by lra. rewrite inv_cut_in by exact Hu. unfold inv_newton, bet_make. cbn [bet_alpha bet_beta]. rewrite A1. reflexivity.
  - rewrite bet_val by lra. replace (/ 2 ^ 51) with (2 * epsilon) by (unfold epsilon; lra). exact C.
Qed.
(** equal parameters: all quantiles *)
Theorem C85_beta_equal : forall alpha u, 1 <= alpha -> alpha <= 2 ^ 57 -> epsilon <= u <= 1 - epsilon ->
  exists r, (forall fuel, (0 < fuel)%nat -> bet_icdf (inv_newton fuel) (bet_make alpha alpha) u = Fin r) /\ 0 < r < 1 /\
    Rabs (value (bet_cdf (bet_make alpha alpha) r) - u) < / 2 ^ 51 * r.
Proof.
  intros a u Ha Hs Hu. destruct (C85_beta a a u Ha Ha ltac:(lra) Hu) as (r & A & B).
  - lra.
  - exists r. split; [|exact B]. intros fuel Hf. apply (A fuel Hf).
Qed.
Example C85_beta_equal_example : exists r, bet_icdf (inv_newton 1) (bet_make 2 2) (1 / 100) = Fin r /\ Rabs (value (bet_cdf (bet_make 2 2) r) - 1 / 100) < / 2 ^ 51.
Proof.
  pose proof eps_pos as E0. destruct (C85_beta_equal 2 (1 / 100)) as (r & A & B & C); [lra|lra|unfold epsilon; lra|]. exists r. split; [apply A; lia|]. assert (0 < / 2 ^ 51) by lra. nra.
Qed.
(** student_t_dist with at least 2 degrees of freedom *)
Theorem C85_student : forall nu u, (2 <= nu < 2 ^ 31)%Z -> epsilon <= u <= 1 - epsilon ->
  exists v, (forall fuel, (0 < fuel)%nat -> stu_icdf (inv_newton fuel) nu u = Fin v /\ stu_draw (inv_newton fuel) nu u = Fin v) /\
    Rabs (value (stu_cdf nu v) - u) < / 2 ^ 51.
Proof.
  intros nu u (Hn & Hn2) Hu. pose proof eps_pos as E0. assert (N0 : (0 < nu)%Z) by lia. assert (N1 : 2 <= IZR nu) by (apply IZR_le in Hn; exact Hn).
  assert (N2 : IZR nu < 2147483648) by (apply IZR_lt in Hn2; exact Hn2).
  destruct (inv_converges_sym (IZR nu / 2) u) as (r & A & B & C); [lra|lra|exact Hu|]. exists (stu_q nu r).
  assert (D : forall fuel, (0 < fuel)%nat -> stu_icdf_ (inv_newton fuel) nu u = Fin (stu_q nu r)).
  { intros fuel Hf. unfold stu_icdf_. cbv zeta. rewrite inv_cut_in by exact Hu. unfold inv_newton. rewrite alg_exact by (lra || exact Hu). rewrite (A fuel Hf). apply stu_icdf_in, B. }
  split.
  - intros fuel Hf. split; [|exact (D fuel Hf)]. unfold stu_icdf. rewrite dom_oo_in, !at_point_ne by lra. exact (D fuel Hf).
  - rewrite stu_val by exact N0. rewrite stu_F_inv by assumption. replace (/ 2 ^ 51) with (2 * epsilon) by (unfold epsilon; lra). nra.
Qed.
Example C85_student_example : exists v, stu_icdf (inv_newton 1) 5 (975 / 1000) = Fin v /\ Rabs (value (stu_cdf 5 v) - 975 / 1000) < / 2 ^ 51.
Proof.
  destruct (C85_student 5 (975 / 1000)) as (v & A & B); [lia|unfold epsilon; lra|]. exists v. split; [apply A; lia|exact B].
Qed.
(** snedecor_f_dist with at least 2 degrees of freedom each *)
Theorem C85_snedecor : forall n m u, (2 <= n < 2 ^ 31)%Z -> (2 <= m < 2 ^ 31)%Z -> epsilon <= u <= 1 - epsilon ->
  (m <= n)%Z /\ u <= sne_cdf0 n m (IZR m * (3 * IZR n - 2) / (IZR n * (3 * IZR m - 2))) \/
  (n <= m)%Z /\ sne_cdf0 n m (IZR m * (3 * IZR n - 2) / (IZR n * (3 * IZR m - 2))) <= u ->
  exists v, (forall fuel, (0 < fuel)%nat -> sne_icdf (inv_newton fuel) n m u = Fin v /\ sne_draw (inv_newton fuel) n m u = Fin v) /\
    0 < v /\ Rabs (sne_cdf0 n m v - u) < / 2 ^ 51.
Proof.
  intros n m u (Hn & Hn2) (Hm & Hm2) Hu H. pose proof eps_pos as E0. assert (N0 : (0 < n)%Z) by lia. assert (M0 : (0 < m)%Z) by lia.
  assert (N1 : 2 <= IZR n) by (apply IZR_le in Hn; exact Hn). assert (M1 : 2 <= IZR m) by (apply IZR_le in Hm; exact Hm).
  assert (N2 : IZR n < 2147483648) by (apply IZR_lt in Hn2; exact Hn2). assert (M2 : IZR m < 2147483648) by (apply IZR_lt in Hm2; exact Hm2).
  set (g := guess (1 / 2 * IZR n) (1 / 2 * IZR m)). destruct (guess_in (1 / 2 * IZR n) (1 / 2 * IZR m) ltac:(lra) ltac:(lra)) as (G & _). fold g in G.
  assert (Q : sne_q n m g = IZR m * (3 * IZR n - 2) / (IZR n * (3 * IZR m - 2))).
  { unfold sne_q, g, guess. field. repeat split; lra. }
  rewrite <- Q in H. rewrite sne_val, sne_F_inv in H by assumption.
  assert (HC : 1 / 2 * IZR m <= 1 / 2 * IZR n /\ u <= I (1 / 2 * IZR n) (1 / 2 * IZR m) g \/ 1 / 2 * IZR n <= 1 / 2 * IZR m /\ I (1 / 2 * IZR n) (1 / 2 * IZR m) g <= u).
  { destruct H as [(H1 & H2)|(H1 & H2)]; apply IZR_le in H1; [left|right]; split; lra. }
  destruct (inv_converges (1 / 2 * IZR n) (1 / 2 * IZR m) u) as (r & A & B & C); [lra|lra|lra|exact Hu|exact HC|]. exists (sne_q n m r).
  assert (D : forall fuel, (0 < fuel)%nat -> sne_icdf_ (inv_newton fuel) n m u = Fin (sne_q n m r)).
  { intros fuel Hf. unfold sne_icdf_. cbv zeta. rewrite inv_cut_in by exact Hu. unfold inv_newton. rewrite alg_exact by (lra || exact Hu). rewrite (A fuel Hf). apply sne_icdf_in, B. }
  split; [|split].
  - intros fuel Hf. split; [|exact (D fuel Hf)]. unfold sne_icdf. rewrite dom_oo_in, !at_point_ne by lra. exact (D fuel Hf).
  - apply sne_q_pos; assumption.
  - rewrite sne_val, sne_F_inv by assumption. replace (/ 2 ^ 51) with (2 * epsilon) by (unfold epsilon; lra). nra.
Qed.
Example C85_snedecor_example : exists v, sne_icdf (inv_newton 1) 4 4 (1 / 20) = Fin v /\ Rabs (sne_cdf0 4 4 v - 1 / 20) < / 2 ^ 51.
Proof.
  destruct (C85_snedecor 4 4 (1 / 20)) as (v & A & _ & B).
  - lia.
  - lia.
  - unfold epsilon; lra.
  - destruct (Rle_dec (1 / 20) (sne_cdf0 4 4 (IZR 4 * (3 * IZR 4 - 2) / (IZR 4 * (3 * IZR 4 - 2))))); [left|right]; split; lia || lra.
  - exists v. split; [apply A; lia|exact B].
Qed.

Print Assumptions C83_positive.
Print Assumptions C83_fixed.
Print Assumptions C83_tolerance.
Print Assumptions C83_distributions.
Print Assumptions C83_small_shape_refuted.
Print Assumptions C84_defined.
Print Assumptions C84_tolerance.
Print Assumptions C84_slope.
Print Assumptions C84_fixed.
Print Assumptions C84_hang_refuted.
Print Assumptions C85_beta.
Print Assumptions C85_beta_equal.
Print Assumptions C85_student.
Print Assumptions C85_snedecor.
