(** C81, C82: the series that evaluate the incomplete gamma and beta functions, against the integrals. *)
From Coq Require Import Reals ZArith Lra Psatz Lia.
From Coquelicot Require Import Coquelicot.
From Verif Require Import ContModel ContProofs GamModel SeriesModel Improper GammaFn BetaFn GamProofs SeriesProofs Prop_Continuous Prop_Gamma.
Local Open Scope R_scope.

(** ** Tools *)
Lemma ser_val a x : eps4 <= x -> GammaP_ser true a x = exp (- x + a * ln x - lgamma a) * gser_sum a x /\ GammaP_ser false a x = exp (- x + a * ln x) * gser_sum a x.
Proof. intros H. unfold GammaP_ser. destruct (Rlt_dec x eps4); [lra|]. split; reflexivity. Qed.
Lemma alg_ser cf asyP asyQ (by_Gamma_a : bool) a x : 0 < a -> 0 <= x -> x < a + 1 -> a <= 15 \/ x <= 3 / 10 * a ->
  GammaP_alg cf asyP by_Gamma_a a x = Fin (GammaP_ser by_Gamma_a a x) /\
  GammaQ_alg cf asyQ by_Gamma_a a x = Fin ((if by_Gamma_a then 1 else tgamma a) - GammaP_ser by_Gamma_a a x).
Proof.
  intros Ha H0 H1 H2. unfold GammaP_alg, GammaQ_alg. destruct (Rlt_dec x 0); [lra|]. destruct (Rle_dec a 0); [lra|].
  assert (E : in_asympt a x = false).
  { unfold in_asympt. destruct (Rlt_dec 15 a); [|reflexivity]. destruct (Rlt_dec (3 / 10 * a) x); [lra|reflexivity]. }
  rewrite E. destruct (Rlt_dec x (a + 1)); [|lra]. destruct by_Gamma_a; split; reflexivity.
Qed.
Lemma int_gamma a x v : 0 < a -> 0 < x -> up_to (gamma_integrand a) x v -> v = lgam a x.
Proof. intros Ha Hx H. exact (gen_unique _ _ _ _ H (lgam_gen a x Ha Hx)). Qed.
Lemma int_Gamma a w : 0 < a -> over_half_line (gamma_integrand a) w -> w = Gam a.
Proof. intros Ha H. exact (gen_unique _ _ _ _ H (Gam_gen a Ha)). Qed.
Lemma int_beta p q x v : 0 < p -> 0 < q -> 0 < x < 1 -> up_to (beta_integrand p q) x v -> v = lbet p q x.
Proof. intros Hp Hq Hx H. exact (gen_unique _ _ _ _ H (lbet_gen p q x Hp Hq Hx)). Qed.
Lemma int_Beta p q w : 0 < p -> 0 < q -> over_unit (beta_integrand p q) w -> w = Bet p q.
Proof. intros Hp Hq H. exact (gen_unique _ _ _ _ H (Bet_gen p q Hp Hq)). Qed.
Lemma scaled c s t e : 0 <= c -> s <= t <= s * (1 + e) -> c * s <= c * t <= c * s * (1 + e).
Proof. intros Hc H. split; [apply Rmult_le_compat_l; lra|]. rewrite Rmult_assoc. apply Rmult_le_compat_l; lra. Qed.
Lemma gser_bounds a x : series_range a x -> gser_sum a x <= PSeries (gc a) x <= gser_sum a x * (1 + / 2 ^ 46).
Proof.
  intros H. destruct (gser_range a x H) as ((L & U) & P0). destruct eps4_val as (_ & E). rewrite E in U. lra.
Qed.

(** ** C81: incomplete gamma functions by series *)

(** GammaP and GammaQ, regularised, where they use the series: relative error at most 2^-46, never above the integral *)
Theorem C81_regularised : forall cf asyP asyQ a x v w, 0 < a -> eps4 <= x -> x < a + 1 -> a <= 15 \/ x <= 3 / 10 * a ->
  up_to (gamma_integrand a) x v -> over_half_line (gamma_integrand a) w ->
  exists r, GammaP_alg cf asyP true a x = Fin r /\ GammaQ_alg cf asyQ true a x = Fin (1 - r) /\ r <= v / w <= r * (1 + / 2 ^ 46).
Proof.
  intros cf asyP asyQ a x v w Ha H0 H1 H2 Hv Hw. destruct eps4_val as (Pe & _).
  destruct (alg_ser cf asyP asyQ true a x Ha ltac:(lra) H1 H2) as (E1 & E2). exists (GammaP_ser true a x). split; [exact E1|]. split; [exact E2|].
  destruct (ser_val a x H0) as (E & _). rewrite E, pref_P by lra. rewrite (int_gamma a x v), (int_Gamma a w) by (assumption || lra).
  pose proof (Gam_pos a Ha) as GP. unfold lgam. replace (exp (- x) * Rpower x a * PSeries (gc a) x / Gam a) with (exp (- x) * Rpower x a / Gam a * PSeries (gc a) x) by (field; lra).
  apply scaled; [|apply gser_bounds; repeat split; assumption || lra].
  apply Rlt_le, Rdiv_lt_0_compat; [apply Rmult_lt_0_compat; [apply exp_pos|apply Rpower_pos]|exact GP].
Qed.
Example C81_regularised_example : exists v w, up_to (gamma_integrand 3) 2 v /\ over_half_line (gamma_integrand 3) w /\ eps4 <= 2 /\ 2 < 3 + 1 /\ 3 <= 15.
Proof.
  exists (lgam 3 2), (Gam 3). split; [exact (lgam_gen 3 2 ltac:(lra) ltac:(lra))|]. split; [exact (Gam_gen 3 ltac:(lra))|]. destruct eps4_val as (_ & ->). lra.
Qed.
(** inc_gamma, not regularised, for the same arguments *)
Theorem C81_unregularised : forall cf asyP asyQ a x v w, 0 < a -> eps4 <= x -> x < a + 1 -> a <= 15 \/ x <= 3 / 10 * a ->
  up_to (gamma_integrand a) x v -> over_half_line (gamma_integrand a) w ->
  exists r, GammaP_alg cf asyP false a x = Fin r /\ GammaQ_alg cf asyQ false a x = Fin (w - r) /\ r <= v <= r * (1 + / 2 ^ 46).
Proof.
  intros cf asyP asyQ a x v w Ha H0 H1 H2 Hv Hw. destruct eps4_val as (Pe & _).
  destruct (alg_ser cf asyP asyQ false a x Ha ltac:(lra) H1 H2) as (E1 & E2). exists (GammaP_ser false a x). split; [exact E1|].
  rewrite (int_Gamma a w) by assumption. rewrite tgamma_Gam in E2 by exact Ha. split; [exact E2|].
  destruct (ser_val a x H0) as (_ & E). rewrite E, pref_lgam by lra. rewrite (int_gamma a x v) by (assumption || lra). unfold lgam.
  apply scaled; [|apply gser_bounds; repeat split; assumption || lra].
  apply Rlt_le, Rmult_lt_0_compat; [apply exp_pos|apply Rpower_pos].
Qed.
(** arguments below the tolerance give 0; for a >= 1 the integral is at most twice the argument *)
Theorem C81_cut : forall cf asyP a x v w, 1 <= a -> 0 < x < eps4 -> up_to (gamma_integrand a) x v -> over_half_line (gamma_integrand a) w ->
  GammaP_alg cf asyP true a x = Fin 0 /\ 0 <= v / w <= 2 * x /\ x < / 2 ^ 50.
Proof.
  intros cf asyP a x v w Ha Hx Hv Hw. destruct eps4_val as (Pe & Ee). rewrite Ee in Hx.
  destruct (alg_ser cf asyP asyP true a x ltac:(lra) ltac:(lra) ltac:(lra) ltac:(lra)) as (E1 & _). rewrite E1. split.
  - unfold GammaP_ser. destruct (Rlt_dec x eps4); [reflexivity|lra].
  - rewrite (int_gamma a x v), (int_Gamma a w) by (assumption || lra). rewrite <- P_in by lra. split; [apply P_small; lra|lra].
Qed.
(** arguments outside the domain *)
Theorem C81_guard : forall cf asy b a x, x < 0 \/ a <= 0 -> GammaP_alg cf asy b a x = NaN /\ GammaQ_alg cf asy b a x = NaN.
Proof.
  intros cf asy b a x H. unfold GammaP_alg, GammaQ_alg. destruct (Rlt_dec x 0); [split; reflexivity|]. destruct (Rle_dec a 0); [split; reflexivity|lra].
Qed.
(** a small shape: the value 0 is returned where the integral is more than half of the whole *)
Theorem C81_cut_refuted : exists a x v w, 0 < a /\ 0 < x /\ up_to (gamma_integrand a) x v /\ over_half_line (gamma_integrand a) w /\
  (forall cf asyP, GammaP_alg cf asyP true a x = Fin 0) /\ 1 / 2 <= v / w.
Proof.
  destruct eps4_val as (Pe & Ee). exists (1 / 128), (/ 2 ^ 51), (lgam (1 / 128) (/ 2 ^ 51)), (Gam (1 / 128)).
  assert (Hx : 0 < / 2 ^ 51) by lra. split; [lra|]. split; [lra|]. split; [exact (lgam_gen (1 / 128) _ ltac:(lra) Hx)|]. split; [exact (Gam_gen (1 / 128) ltac:(lra))|]. split.
  - intros cf asyP. destruct (alg_ser cf asyP asyP true (1 / 128) (/ 2 ^ 51) ltac:(lra) ltac:(lra) ltac:(lra) ltac:(lra)) as (E1 & _). rewrite E1.
    unfold GammaP_ser. destruct (Rlt_dec (/ 2 ^ 51) eps4) as [|N]; [reflexivity|]. exfalso. rewrite Ee in N. lra.
  - pose proof (Gam_pos (1 / 128) ltac:(lra)) as GP. pose proof (Gam_le_1 (1 / 128) ltac:(lra)) as G1. rewrite Gam_rec in G1 by lra.
    pose proof (lgam_lower (1 / 128) (/ 2 ^ 51) ltac:(lra) Hx) as L.
    assert (X : 7 / 10 <= Rpower (/ 2 ^ 51) (1 / 128)).
    { unfold Rpower. rewrite ln_Rinv, (ln_pow 2) by lra. rewrite (INR_IZR_INZ 51). change (IZR (Z.of_nat 51)) with 51.
      assert (L2 : 0 < ln 2) by (rewrite <- ln_1; apply ln_increasing; lra).
      apply Rle_trans with (exp (- (/ 2 * ln 2))).
      - rewrite exp_Ropp. fold (Rpower 2 (/ 2)). rewrite Rpower_sqrt by lra. 
        assert (S2 : sqrt 2 <= 10 / 7). { rewrite <- (sqrt_Rsqr (10 / 7)) by lra. apply sqrt_le_1_alt. unfold Rsqr. lra. }
        pose proof (sqrt_lt_R0 2 ltac:(lra)). replace (7 / 10) with (/ (10 / 7)) by field. apply Rinv_le_contravar; lra.
      - left. apply exp_increasing. lra. }
    assert (E : 9 / 10 <= exp (- / 2 ^ 51)). { pose proof (exp_ineq1_le (- / 2 ^ 51)). lra. }
    assert (M : 63 / 100 <= exp (- / 2 ^ 51) * Rpower (/ 2 ^ 51) (1 / 128)) by nra.
    apply (Rmult_le_reg_r (Gam (1 / 128))); [exact GP|].
    replace (lgam (1 / 128) (/ 2 ^ 51) / Gam (1 / 128) * Gam (1 / 128)) with (lgam (1 / 128) (/ 2 ^ 51)) by (field; lra). lra.
Qed.
(** the number of terms is limited to 53: inc_gamma(170, 170) is too small by more than one part in 10^7 *)
Theorem C81_iterations_refuted : exists a x v, 0 < a /\ eps4 <= x /\ x < a + 1 /\ up_to (gamma_integrand a) x v /\
  forall cf asyP, exists r, GammaP_alg cf asyP false a x = Fin r /\ 0 < r /\ r * (1 + 1 / 10 ^ 7) < v.
Proof.
  destruct eps4_val as (Pe & Ee). exists 170, 170, (lgam 170 170). split; [lra|]. split; [rewrite Ee; lra|]. split; [lra|]. split; [exact (lgam_gen 170 170 ltac:(lra) ltac:(lra))|].
  intros cf asyP. exists (GammaP_ser false 170 170).
  assert (C : 0 < exp (- (170)) * Rpower 170 170) by (apply Rmult_lt_0_compat; [apply exp_pos|apply Rpower_pos]).
  destruct (ser_val 170 170 ltac:(rewrite Ee; lra)) as (_ & E).
  split; [|split].
  - unfold GammaP_alg. destruct (Rlt_dec 170 0); [lra|]. destruct (Rle_dec 170 0); [lra|]. destruct (Rlt_dec 170 (170 + 1)); [reflexivity|lra].
  - rewrite E, pref_lgam by lra. apply Rmult_lt_0_compat; [exact C|]. destruct (gser_sum_spec 170 170 ltac:(lra) ltac:(lra)) as (j & _ & -> & _).
    pose proof (gsum_pos 170 170 j ltac:(lra) ltac:(lra)). pose proof (gt_pos 170 170 0 ltac:(lra) ltac:(lra)). lra.
  - rewrite E, pref_lgam by lra. unfold lgam. rewrite Rmult_assoc. apply Rmult_lt_compat_l; [exact C|]. pose proof gser_short as G.
    replace (1 / 10 ^ 7) with (1 / 10000000) by field. exact G.
Qed.

(** ** C82: regularised incomplete beta function by algorithm AS 63 *)

Lemma alg_low fuel x p q w : 0 < p -> 0 < q -> 0 <= x <= 1 -> (p + q) * x <= p -> Beta_I_alg fuel x p q w = beta_core fuel x (1 - x) p q w.
Proof.
  intros Hp Hq Hx Hf. unfold Beta_I_alg. destruct (Rle_dec p 0); [lra|]. destruct (Rle_dec q 0); [lra|]. destruct (Rlt_dec x 0); [lra|]. destruct (Rlt_dec 1 x); [lra|].
  destruct (Rlt_dec p ((p + q) * x)); [lra|reflexivity].
Qed.
Lemma alg_high fuel x p q w : 0 < p -> 0 < q -> 0 <= x <= 1 -> p < (p + q) * x ->
  Beta_I_alg fuel x p q w = match beta_core fuel (1 - x) (1 - (1 - x)) q p w with BVal y => BVal (1 - y) | r => r end.
Proof.
  intros Hp Hq Hx Hf. unfold Beta_I_alg. destruct (Rle_dec p 0); [lra|]. destruct (Rle_dec q 0); [lra|]. destruct (Rlt_dec x 0); [lra|]. destruct (Rlt_dec 1 x); [lra|].
  destruct (Rlt_dec p ((p + q) * x)); [|lra]. replace (1 - (1 - x)) with x by ring. reflexivity.
Qed.
(** every value returned is close to the ratio of the integrals *)
Theorem C82_accuracy : forall fuel x p q v w r, 0 < p -> 0 < q -> 0 < x < 1 ->
  up_to (beta_integrand p q) x v -> over_unit (beta_integrand p q) w -> Beta_I_alg fuel x p q w = BVal r ->
  ((p + q) * x <= p -> Rabs (v / w - r) <= / 2 ^ 50 * (1 + q + p / q) * r) /\
  (p < (p + q) * x -> Rabs (v / w - r) <= / 2 ^ 50 * (1 + p + q / p) * (1 - r)).
Proof.
  intros fuel x p q v w r Hp Hq Hx Hv Hw H. rewrite (int_beta p q x v), (int_Beta p q w) in * by assumption. destruct eps4_val as (_ & Ee).
  pose proof (Bet_pos p q Hp Hq) as BP. rewrite <- Ee. split; intros Hf.
  - rewrite alg_low in H by (assumption || lra). apply (core_value fuel x p q (Bet p q) r); assumption.
  - rewrite alg_high in H by (assumption || lra). destruct (beta_core fuel (1 - x) (1 - (1 - x)) q p (Bet p q)) as [y| | |] eqn:E; try discriminate H.
    assert (Er : r = 1 - y) by (injection H; auto). rewrite Er. 
    pose proof (core_value fuel (1 - x) q p (Bet p q) y Hq Hp ltac:(lra) ltac:(lra) BP E) as K.
    rewrite (lbet_reflect p q x), (Bet_sym q p) by assumption.
    replace ((Bet p q - lbet q p (1 - x)) / Bet p q - (1 - y)) with (- (lbet q p (1 - x) / Bet p q - y)) by (field; lra). rewrite Rabs_Ropp.
    replace (1 - (1 - y)) with y by ring. exact K.
Qed.
(** the evaluation ends with a value, with no undefined behaviour, for parameters that are not too large and not too different *)
Theorem C82_defined : forall x p q w, 0 < p -> 0 < q -> 0 <= x <= 1 -> p + q <= 2 ^ 30 -> p + q <= 2 ^ 20 * p -> p + q <= 2 ^ 20 * q ->
  exists fuel r, (forall f, (fuel <= f)%nat -> Beta_I_alg f x p q w = BVal r) /\ (x = 0 -> r = 0) /\ (x = 1 -> r = 1).
Proof.
  intros x p q w Hp Hq Hx H1 H2 H3. destruct (Rle_dec ((p + q) * x) p) as [Hf|Hf].
  - destruct (Req_dec x 0) as [->|Hx0].
    + exists 1%nat, 0. split; [|split; [auto|intros; lra]]. intros f Hn. rewrite alg_low by (assumption || lra). replace (1 - 0) with 1 by ring.
      destruct f; [lia|]. apply core_0; lra.
    + assert (Hx1 : x < 1) by (destruct (Req_dec x 1) as [->|]; lra).
      destruct (core_defined p q x w Hp Hq ltac:(lra) Hf H1 H3) as (fuel & y & A). exists fuel, y. split; [|split; intros; lra].
      intros f Hn. rewrite alg_low by (assumption || lra). apply A, Hn.
  - destruct (Req_dec x 1) as [->|Hx1].
    + exists 1%nat, 1. split; [|split; [intros; lra|auto]]. intros f Hn. rewrite alg_high by lra. replace (1 - (1 - 1)) with 1 by ring. replace (1 - 1) with 0 by ring.
      destruct f; [lia|]. rewrite core_0 by lra. f_equal. ring.
    + assert (Hx0 : 0 < x) by nra.
      destruct (core_defined q p (1 - x) w Hq Hp ltac:(lra) ltac:(lra) ltac:(lra) ltac:(lra)) as (fuel & y & A). exists fuel, (1 - y). split; [|split; intros; lra].
      intros f Hn. rewrite alg_high by (assumption || lra). rewrite (A f Hn). reflexivity.
Qed.
Example C82_example : 0 < 3 /\ 0 < 5 / 2 /\ 0 < 1 / 4 < 1 /\ 3 + 5 / 2 <= 2 ^ 30 /\ 3 + 5 / 2 <= 2 ^ 20 * 3 /\ 3 + 5 / 2 <= 2 ^ 20 * (5 / 2) /\
  exists v w, up_to (beta_integrand 3 (5 / 2)) (1 / 4) v /\ over_unit (beta_integrand 3 (5 / 2)) w.
Proof.
  do 6 (split; [lra|]). exists (lbet 3 (5 / 2) (1 / 4)), (Bet 3 (5 / 2)). split; [exact (lbet_gen 3 (5 / 2) (1 / 4) ltac:(lra) ltac:(lra) ltac:(lra))|exact (Bet_gen 3 (5 / 2) ltac:(lra) ltac:(lra))].
Qed.
Theorem C82_guard : forall fuel x p q w, p <= 0 \/ q <= 0 \/ x < 0 \/ 1 < x -> Beta_I_alg fuel x p q w = BNaN.
Proof.
  intros fuel x p q w H. unfold Beta_I_alg. destruct (Rle_dec p 0); [reflexivity|]. destruct (Rle_dec q 0); [reflexivity|]. destruct (Rlt_dec x 0); [reflexivity|]. destruct (Rlt_dec 1 x); [reflexivity|lra].
Qed.
(** student_t_dist::cdf for up to 2^30 degrees of freedom is within 2^-50 (2 + nu/2) of the distribution function *)
Theorem C82_student_t : forall nu x w, (0 < nu <= 2 ^ 30)%Z -> over_unit (beta_integrand (IZR nu / 2) (IZR nu / 2)) w ->
  exists fuel r, (forall f, (fuel <= f)%nat -> stu_cdf_x f nu (Fin x) w = BVal r) /\
    Rabs (value (stu_cdf nu x) - r) <= / 2 ^ 50 * (2 + IZR nu / 2) * (if Rle_dec x 0 then r else 1 - r).
Proof.
  intros nu x w Hn Hw. set (p := IZR nu / 2). assert (Hp : 0 < p). { unfold p. assert (0 < IZR nu) by (apply IZR_lt; lia). lra. }
  assert (HN : IZR nu <= 2 ^ 30). { destruct Hn as (_ & Hn). apply IZR_le in Hn. cbn in Hn. lra. }
  pose proof (t2_in nu ltac:(lia) x) as T. pose proof (int_Beta p p w Hp Hp Hw) as Ew.
  destruct (C82_defined (t2 nu x) p p w Hp Hp ltac:(lra) ltac:(unfold p; lra) ltac:(lra) ltac:(lra)) as (fuel & r & A & _).
  exists fuel, r. split; [intros f Hf; exact (A f Hf)|].
  rewrite stu_cdf_F by lia. cbn [value]. unfold stu_F. rewrite I_in by exact T. fold p.
  destruct (C82_accuracy fuel (t2 nu x) p p (lbet p p (t2 nu x)) w r Hp Hp T) as (L & U); [exact (lbet_gen p p _ Hp Hp T)|exact Hw|exact (A fuel (Nat.le_refl fuel))|].
  rewrite <- Ew. replace (p / p) with 1 in L, U by (field; lra). replace (1 + p + 1) with (2 + p) in L, U by ring.
  assert (T0 : t2 nu 0 = 1 / 2). { unfold t2. pose proof (t1_pos nu ltac:(lia) 0). field. lra. }
  destruct (Rle_dec x 0) as [Hx|Hx].
  - apply L. apply (proj1 (t2_le nu ltac:(lia) x 0)) in Hx. rewrite T0 in Hx. nra.
  - apply U. assert (T3 : t2 nu 0 < t2 nu x) by (apply t2_strict; [lia|lra]). rewrite T0 in T3. nra.
Qed.
(** snedecor_f_dist::cdf *)
Theorem C82_snedecor_f : forall n m x w, (0 < n)%Z -> (0 < m)%Z -> (n + m <= 2 ^ 31)%Z -> (n + m <= 2 ^ 20 * n)%Z -> (n + m <= 2 ^ 20 * m)%Z -> 0 < x ->
  over_unit (beta_integrand (1 / 2 * IZR n) (1 / 2 * IZR m)) w ->
  exists fuel r, (forall f, (fuel <= f)%nat -> sne_cdf_x f n m (Fin x) w = BVal r) /\
    (x <= 1 -> Rabs (value (sne_cdf n m x) - r) <= / 2 ^ 50 * (1 + IZR m / 2 + IZR n / IZR m) * r) /\
    (1 < x -> Rabs (value (sne_cdf n m x) - r) <= / 2 ^ 50 * (1 + IZR n / 2 + IZR m / IZR n) * (1 - r)).
Proof.
  intros n m x w Hn Hm H1 H2 H3 Hx Hw. assert (Pn : 0 < IZR n) by (apply IZR_lt; lia). assert (Pm : 0 < IZR m) by (apply IZR_lt; lia).
  apply IZR_le in H1, H2, H3. rewrite plus_IZR in H1, H2, H3. rewrite mult_IZR in H2, H3. change (IZR (2 ^ 31)) with 2147483648 in H1. change (IZR (2 ^ 20)) with 1048576 in H2, H3.
  set (p := 1 / 2 * IZR n) in *. set (q := 1 / 2 * IZR m) in *. assert (Hp : 0 < p) by (unfold p; lra). assert (Hq : 0 < q) by (unfold q; lra).
  assert (D : 0 < IZR m + IZR n * x) by nra.
  set (t := IZR n * x / (IZR m + IZR n * x)).
  assert (T : 0 < t < 1). { unfold t. split; [apply Rdiv_lt_0_compat; nra|]. apply (Rmult_lt_reg_r (IZR m + IZR n * x)); [exact D|]. unfold Rdiv. rewrite Rmult_assoc, Rinv_l by lra. nra. }
  assert (EX : forall f, sne_cdf_x f n m (Fin x) w = Beta_I_alg f t p q w).
  { intros f. unfold sne_cdf_x, xdiv. destruct (Req_EM_T (IZR m + IZR n * x) 0); [lra|]. reflexivity. }
  assert (EC : value (sne_cdf n m x) = lbet p q t / w).
  { unfold sne_cdf, xdiv. cbv zeta. destruct (Req_EM_T (IZR m + IZR n * x) 0); [lra|]. fold t p q. rewrite Beta_I_I by (assumption || lra). cbn [value]. rewrite I_in by exact T.
    rewrite (int_Beta p q w) by assumption. reflexivity. }
  destruct (C82_defined t p q w Hp Hq ltac:(lra) ltac:(unfold p, q; lra) ltac:(unfold p, q; lra) ltac:(unfold p, q; lra)) as (fuel & r & A & _).
  exists fuel, r. split; [intros f Hf; rewrite EX; apply A, Hf|]. rewrite EC.
  destruct (C82_accuracy fuel t p q (lbet p q t) w r Hp Hq T) as (L & U); [exact (lbet_gen p q t Hp Hq T)|exact Hw|exact (A fuel (Nat.le_refl fuel))|].
  replace (p / q) with (IZR n / IZR m) in L by (unfold p, q; field; lra). replace (q / p) with (IZR m / IZR n) in U by (unfold p, q; field; lra).
  replace (IZR m / 2) with q by (unfold q; field). replace (IZR n / 2) with p by (unfold p; field).
  assert (F : (p + q) * t - p = IZR n * IZR m * (x - 1) / (2 * (IZR m + IZR n * x))) by (unfold p, q, t; field; lra).
  assert (S0 : 0 < / (2 * (IZR m + IZR n * x))) by (apply Rinv_0_lt_compat; lra). unfold Rdiv in F at 1.
  assert (NM : 0 < IZR n * IZR m) by nra. set (z := / (2 * (IZR m + IZR n * x))) in *. split; intros Hx1.
  - apply L. assert (0 <= IZR n * IZR m * (1 - x) * z) by (apply Rmult_le_pos; [apply Rmult_le_pos|]; lra). lra.
  - apply U. assert (0 < IZR n * IZR m * (x - 1) * z) by (apply Rmult_lt_0_compat; [apply Rmult_lt_0_compat|]; lra). lra.
Qed.
(** the distribution functions at infinity convert NaN to int *)
Theorem C82_infinity_undefined : forall fuel nu n m w, (0 < nu)%Z -> (0 < n)%Z -> (0 < m)%Z ->
  stu_cdf_x fuel nu PInf w = BUndefined /\ stu_cdf_x fuel nu NInf w = BUndefined /\ sne_cdf_x fuel n m PInf w = BUndefined.
Proof.
  intros fuel nu n m w H1 H2 H3. apply IZR_lt in H1, H2, H3. unfold stu_cdf_x, sne_cdf_x, Beta_I_x.
  destruct (Rle_dec (IZR nu / 2) 0); [lra|]. destruct (Rle_dec (1 / 2 * IZR n) 0); [lra|]. destruct (Rle_dec (1 / 2 * IZR m) 0); [lra|]. repeat split.
Qed.
Theorem C82_infinity_refuted : exists nu n m, (0 < nu)%Z /\ (0 < n)%Z /\ (0 < m)%Z /\
  forall fuel w, stu_cdf_x fuel nu PInf w = BUndefined /\ sne_cdf_x fuel n m PInf w = BUndefined.
Proof.
  exists 1%Z, 1%Z, 1%Z. do 3 (split; [lia|]). intros fuel w. destruct (C82_infinity_undefined fuel 1 1 1 w) as (A & _ & B); [lia|lia|lia|]. split; assumption.
Qed.
(** 2^31 - 1 degrees of freedom: the number of steps of the first kind does not fit into int *)
Theorem C82_conversion_refuted : exists nu x, (0 < nu < 2 ^ 31)%Z /\ forall fuel w, stu_cdf_x fuel nu (Fin x) w = BUndefined.
Proof.
  exists (2 ^ 31 - 1)%Z, (-1). split; [lia|]. intros fuel w. unfold stu_cdf_x. cbv zeta. change (IZR (2 ^ 31 - 1)) with 2147483647.
  replace (-1 * -1 + 2147483647) with 2147483648 by ring. set (t := sqrt 2147483648).
  assert (T1 : 40000 < t). { unfold t. rewrite <- (sqrt_Rsqr 40000) by lra. apply sqrt_lt_1_alt. unfold Rsqr. lra. }
  assert (T2 : t <= 65536). { unfold t. rewrite <- (sqrt_Rsqr 65536) by lra. apply sqrt_le_1_alt. unfold Rsqr. lra. }
  unfold Beta_I_x. set (p := 2147483647 / 2).
  assert (E : (-1 + t) / (2 * t) = 1 / 2 - 1 / 2 * / t) by (field; lra). rewrite E.
  assert (I1 : / 65536 <= / t) by (apply Rinv_le_contravar; lra). assert (I2 : / t < / 40000) by (apply Rinv_lt_contravar; nra).
  rewrite alg_low by (unfold p; nra). unfold beta_core. cbv zeta.
  destruct (floor_nat (p + (1 - (1 / 2 - 1 / 2 * / t)) * (p + p)) ltac:(unfold p; nra)) as (s & F & L & U). rewrite F.
  destruct (Z.leb_spec (2 ^ 31) (Z.of_nat s)) as [C|C]; [reflexivity|]. exfalso.
  assert (C1 : (Z.of_nat s + 1 <= 2 ^ 31)%Z) by lia. apply IZR_le in C1. rewrite plus_IZR, <- INR_IZR_INZ in C1. change (IZR (2 ^ 31)) with 2147483648 in C1. unfold p in U. nra.
Qed.
(** the counter of steps is decremented below the smallest int *)
Theorem C82_decrement_refuted : exists n m x, (0 < n < 2 ^ 31)%Z /\ (0 < m < 2 ^ 31)%Z /\ 0 < x /\
  exists fuel, forall f w, (fuel <= f)%nat -> sne_cdf_x f n m (Fin x) w = BUndefined.
Proof.
  exists (2 ^ 30)%Z, 1%Z, (1 - / 2 ^ 30). split; [lia|]. split; [lia|]. split; [lra|]. destruct b29_overflow as (fuel & A). exists fuel. intros f w Hf.
  unfold sne_cdf_x, xdiv. change (IZR (2 ^ 30)) with 1073741824. replace (1073741824 * (1 - / 2 ^ 30)) with 1073741823 by lra.
  destruct (Req_EM_T (1 + 1073741823) 0); [lra|]. replace (1073741823 / (1 + 1073741823)) with x30 by (unfold x30; lra).
  replace (1 / 2 * 1073741824) with p29 by (unfold p29; lra). replace (1 / 2 * 1) with (1 / 2) by ring. unfold Beta_I_x.
  rewrite alg_low by (unfold p29, x30; lra). apply A, Hf.
Qed.

Print Assumptions C81_regularised.
Print Assumptions C81_unregularised.
Print Assumptions C81_cut.
Print Assumptions C81_guard.
Print Assumptions C81_cut_refuted.
Print Assumptions C81_iterations_refuted.
Print Assumptions C82_accuracy.
Print Assumptions C82_defined.
Print Assumptions C82_guard.
Print Assumptions C82_student_t.
Print Assumptions C82_snedecor_f.
Print Assumptions C82_infinity_undefined.
Print Assumptions C82_infinity_refuted.
Print Assumptions C82_conversion_refuted.
Print Assumptions C82_decrement_refuted.
