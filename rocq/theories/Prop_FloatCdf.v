(** C102: cdf and icdf of the distributions with closed formulas, in double. *)
From Coq Require Import ZArith Bool List Reals Lia Lra Psatz.
From Flocq Require Import Core IEEE754.BinarySingleNaN.
From Verif Require Import FloatFacts UniformModel UniformProofs FloatDrawModel FloatDrawSpec FloatDrawProofs FloatDrawCore FloatDrawLoc FloatDrawTrig DiscDrawSpec FloatCdfModel FloatCdfSpec FloatCdfProofs FloatCdfCore FloatCdfPow FloatCdfLoc FloatCdfInv FloatCdfLibm.
Local Open Scope R_scope.

Lemma trip (v c : double) F p e1 e2 e : solves v F p e1 -> (is_finite v = true -> computes c (F (B2R v)) e2) -> e1 + e2 <= e -> Rabs (B2R c - p) <= e.
Proof. intros (A & B) H E. destruct (H A) as (_ & _ & C). apply Rabs_le_inv in B, C. apply Rabs_le. lra. Qed.

Theorem C102_exponential : forall M mu, accurate_x M -> scale mu ->
  (forall x, is_finite x = true -> computes (exponential_fcdf M mu x) (F_exponential (B2R mu) (B2R x)) (8 / 2 ^ 52)) /\
  (forall x, is_finite x = true -> 0 <= B2R x < 1 -> solves (exponential_ficdf M mu x) (F_exponential (B2R mu)) (B2R x) (21 / 2 ^ 52) /\ Rabs (B2R (exponential_fcdf M mu (exponential_ficdf M mu x)) - B2R x) <= 29 / 2 ^ 52).
Proof.
  intros M mu HM H0.
  assert (C : forall x, is_finite x = true -> computes (exponential_fcdf M mu x) (F_exponential (B2R mu) (B2R x)) (8 / 2 ^ 52)) by (intros x F; exact (exponential_cdf M HM mu x H0 F)).
  split; [exact C|]. intros x F R. assert (I : solves (exponential_ficdf M mu x) (F_exponential (B2R mu)) (B2R x) (21 / 2 ^ 52)) by exact (exponential_inv M HM mu x H0 F R).
  split; [exact I|]. apply (trip _ _ _ _ _ _ _ I (C _)). lra.
Qed.
Theorem C102_twosided : forall M mu, accurate_x M -> scale mu ->
  (forall x, is_finite x = true -> computes (twosided_fcdf M mu x) (F_twosided (B2R mu) (B2R x)) (8 / 2 ^ 52)) /\
  (forall x, is_finite x = true -> / 2 ^ 52 <= B2R x < 1 -> solves (twosided_ficdf (x_base M) mu x) (F_twosided (B2R mu)) (B2R x) (12 / 2 ^ 52) /\ Rabs (B2R (twosided_fcdf M mu (twosided_ficdf (x_base M) mu x)) - B2R x) <= 20 / 2 ^ 52).
Proof.
  intros M mu HM H0.
  assert (C : forall x, is_finite x = true -> computes (twosided_fcdf M mu x) (F_twosided (B2R mu) (B2R x)) (8 / 2 ^ 52)) by (intros x F; exact (twosided_cdf M HM mu x H0 F)).
  split; [exact C|]. intros x F R. assert (I : solves (twosided_ficdf (x_base M) mu x) (F_twosided (B2R mu)) (B2R x) (12 / 2 ^ 52)) by exact (twosided_inv M HM mu x H0 F R).
  split; [exact I|]. apply (trip _ _ _ _ _ _ _ I (C _)). lra.
Qed.
Theorem C102_rayleigh : forall M nu, accurate_x M -> scale nu ->
  (forall x, is_finite x = true -> computes (rayleigh_fcdf M nu x) (F_rayleigh (B2R nu) (B2R x)) (20 / 2 ^ 52)) /\
  (forall x, is_finite x = true -> / 2 ^ 52 <= B2R x < 1 -> solves (rayleigh_ficdf (x_base M) nu x) (F_rayleigh (B2R nu)) (B2R x) (42 / 2 ^ 52) /\ Rabs (B2R (rayleigh_fcdf M nu (rayleigh_ficdf (x_base M) nu x)) - B2R x) <= 62 / 2 ^ 52).
Proof.
  intros M nu HM H0.
  assert (C : forall x, is_finite x = true -> computes (rayleigh_fcdf M nu x) (F_rayleigh (B2R nu) (B2R x)) (20 / 2 ^ 52)) by (intros x F; exact (rayleigh_cdf M HM nu x H0 F)).
  split; [exact C|]. intros x F R. assert (I : solves (rayleigh_ficdf (x_base M) nu x) (F_rayleigh (B2R nu)) (B2R x) (42 / 2 ^ 52)) by exact (rayleigh_inv M HM nu x H0 F R).
  split; [exact I|]. apply (trip _ _ _ _ _ _ _ I (C _)). lra.
Qed.
Theorem C102_weibull : forall M theta beta, accurate_x M -> scale theta -> shape beta ->
  (forall x, is_finite x = true -> computes (weibull_fcdf M theta beta x) (F_weibull (B2R theta) (B2R beta) (B2R x)) ((24 + 4 * B2R beta) / 2 ^ 52)) /\
  (forall x, is_finite x = true -> (B2R x = 0 \/ / 2 ^ 52 <= B2R x < 1) -> solves (weibull_ficdf M theta beta x) (F_weibull (B2R theta) (B2R beta)) (B2R x) ((344 + 20 * B2R beta) / 2 ^ 52) /\ Rabs (B2R (weibull_fcdf M theta beta (weibull_ficdf M theta beta x)) - B2R x) <= (368 + 24 * B2R beta) / 2 ^ 52).
Proof.
  intros M theta beta HM H0 H1.
  assert (C : forall x, is_finite x = true -> computes (weibull_fcdf M theta beta x) (F_weibull (B2R theta) (B2R beta) (B2R x)) ((24 + 4 * B2R beta) / 2 ^ 52)) by (intros x F; exact (weibull_cdf M HM theta beta x H0 H1 F)).
  split; [exact C|]. intros x F R. assert (I : solves (weibull_ficdf M theta beta x) (F_weibull (B2R theta) (B2R beta)) (B2R x) ((344 + 20 * B2R beta) / 2 ^ 52)) by exact (weibull_inv M HM theta beta x H0 H1 F R).
  split; [exact I|]. apply (trip _ _ _ _ _ _ _ I (C _)). lra.
Qed.
Theorem C102_pareto : forall M gamma theta, accurate_x M -> shape gamma -> scale theta ->
  (forall x, is_finite x = true -> computes (pareto_fcdf M gamma theta x) (F_pareto (B2R gamma) (B2R theta) (B2R x)) ((6 + 8 * B2R gamma) / 2 ^ 52)) /\
  (forall x, is_finite x = true -> 0 < B2R x < 1 -> solves (pareto_ficdf M gamma theta x) (F_pareto (B2R gamma) (B2R theta)) (B2R x) ((5 + 20 * B2R gamma) / 2 ^ 52) /\ Rabs (B2R (pareto_fcdf M gamma theta (pareto_ficdf M gamma theta x)) - B2R x) <= (11 + 28 * B2R gamma) / 2 ^ 52).
Proof.
  intros M gamma theta HM H0 H1.
  assert (C : forall x, is_finite x = true -> computes (pareto_fcdf M gamma theta x) (F_pareto (B2R gamma) (B2R theta) (B2R x)) ((6 + 8 * B2R gamma) / 2 ^ 52)) by (intros x F; exact (pareto_cdf M HM gamma theta x H0 H1 F)).
  split; [exact C|]. intros x F R. assert (I : solves (pareto_ficdf M gamma theta x) (F_pareto (B2R gamma) (B2R theta)) (B2R x) ((5 + 20 * B2R gamma) / 2 ^ 52)) by exact (pareto_inv M HM gamma theta x H0 H1 F R).
  split; [exact I|]. apply (trip _ _ _ _ _ _ _ I (C _)). lra.
Qed.
Theorem C102_cauchy : forall M theta eta, accurate_x M -> scale theta -> location eta ->
  (forall x, is_finite x = true -> computes (cauchy_fcdf M theta eta x) (F_cauchy (B2R theta) (B2R eta) (B2R x)) (10 / 2 ^ 52)) /\
  (forall x, is_finite x = true -> / 2 ^ 52 <= B2R x < 1 -> solves (cauchy_ficdf_ M theta eta x) (F_cauchy (B2R theta) (B2R eta)) (B2R x) ((12 + Rabs (B2R eta) / B2R theta) / 2 ^ 52) /\ Rabs (B2R (cauchy_fcdf M theta eta (cauchy_ficdf_ M theta eta x)) - B2R x) <= (22 + Rabs (B2R eta) / B2R theta) / 2 ^ 52).
Proof.
  intros M theta eta HM H0 H1.
  assert (C : forall x, is_finite x = true -> computes (cauchy_fcdf M theta eta x) (F_cauchy (B2R theta) (B2R eta) (B2R x)) (10 / 2 ^ 52)) by (intros x F; exact (cauchy_cdf M HM theta eta x H0 H1 F)).
  split; [exact C|]. intros x F R. assert (I : solves (cauchy_ficdf_ M theta eta x) (F_cauchy (B2R theta) (B2R eta)) (B2R x) ((12 + Rabs (B2R eta) / B2R theta) / 2 ^ 52)) by exact (cauchy_inv M HM theta eta x H0 H1 F R).
  split; [exact I|]. apply (trip _ _ _ _ _ _ _ I (C _)). lra.
Qed.
Theorem C102_logistic : forall M theta eta, accurate_x M -> scale theta -> location eta ->
  (forall x, is_finite x = true -> computes (logistic_fcdf M theta eta x) (F_logistic (B2R theta) (B2R eta) (B2R x)) (13 / 2 ^ 52)) /\
  (forall x, is_finite x = true -> / 2 ^ 52 <= B2R x < 1 -> solves (logistic_ficdf_ M theta eta x) (F_logistic (B2R theta) (B2R eta)) (B2R x) ((140 + Rabs (B2R eta) / B2R theta) / 2 ^ 52) /\ Rabs (B2R (logistic_fcdf M theta eta (logistic_ficdf_ M theta eta x)) - B2R x) <= (153 + Rabs (B2R eta) / B2R theta) / 2 ^ 52).
Proof.
  intros M theta eta HM H0 H1.
  assert (C : forall x, is_finite x = true -> computes (logistic_fcdf M theta eta x) (F_logistic (B2R theta) (B2R eta) (B2R x)) (13 / 2 ^ 52)) by (intros x F; exact (logistic_cdf M HM theta eta x H0 H1 F)).
  split; [exact C|]. intros x F R. assert (I : solves (logistic_ficdf_ M theta eta x) (F_logistic (B2R theta) (B2R eta)) (B2R x) ((140 + Rabs (B2R eta) / B2R theta) / 2 ^ 52)) by exact (logistic_inv M HM theta eta x H0 H1 F R).
  split; [exact I|]. apply (trip _ _ _ _ _ _ _ I (C _)). lra.
Qed.
Theorem C102_extreme : forall M theta eta, accurate_x M -> scale theta -> location eta ->
  (forall x, is_finite x = true -> computes (extreme_fcdf M theta eta x) (F_extreme (B2R theta) (B2R eta) (B2R x)) (73 / 2 ^ 52)) /\
  (forall x, is_finite x = true -> / 2 ^ 52 <= B2R x < 1 -> solves (extreme_ficdf M theta eta x) (F_extreme (B2R theta) (B2R eta)) (B2R x) ((141 + Rabs (B2R eta) / B2R theta) / 2 ^ 52) /\ Rabs (B2R (extreme_fcdf M theta eta (extreme_ficdf M theta eta x)) - B2R x) <= (214 + Rabs (B2R eta) / B2R theta) / 2 ^ 52).
Proof.
  intros M theta eta HM H0 H1.
  assert (C : forall x, is_finite x = true -> computes (extreme_fcdf M theta eta x) (F_extreme (B2R theta) (B2R eta) (B2R x)) (73 / 2 ^ 52)) by (intros x F; exact (extreme_cdf M HM theta eta x H0 H1 F)).
  split; [exact C|]. intros x F R. assert (I : solves (extreme_ficdf M theta eta x) (F_extreme (B2R theta) (B2R eta)) (B2R x) ((141 + Rabs (B2R eta) / B2R theta) / 2 ^ 52)) by exact (extreme_inv M HM theta eta x H0 H1 F R).
  split; [exact I|]. apply (trip _ _ _ _ _ _ _ I (C _)). lra.
Qed.
Theorem C102_tent : forall m d, location m -> scale d ->
  (forall x, is_finite x = true -> computes (tent_fcdf m d x) (F_tent (B2R m) (B2R d) (B2R x)) (5 / 2 ^ 52)) /\
  (forall x, is_finite x = true -> 0 <= B2R x <= 1 -> solves (tent_ficdf_ m d x) (F_tent (B2R m) (B2R d)) (B2R x) ((5 + Rabs (B2R m) / B2R d) / 2 ^ 52) /\ Rabs (B2R (tent_fcdf m d (tent_ficdf_ m d x)) - B2R x) <= (10 + Rabs (B2R m) / B2R d) / 2 ^ 52).
Proof.
  intros m d H0 H1.
  assert (C : forall x, is_finite x = true -> computes (tent_fcdf m d x) (F_tent (B2R m) (B2R d) (B2R x)) (5 / 2 ^ 52)) by (intros x F; exact (tent_cdf m d x H0 H1 F)).
  split; [exact C|]. intros x F R. assert (I : solves (tent_ficdf_ m d x) (F_tent (B2R m) (B2R d)) (B2R x) ((5 + Rabs (B2R m) / B2R d) / 2 ^ 52)) by exact (tent_inv m d x H0 H1 F R).
  split; [exact I|]. apply (trip _ _ _ _ _ _ _ I (C _)). lra.
Qed.
(** from theta upwards; C102_powerlaw_refuted shows what happens below *)
Theorem C102_powerlaw : forall M gamma theta, accurate_x M -> shape gamma -> scale theta ->
  (forall x, is_finite x = true -> B2R theta <= B2R x \/ B2R x <= 0 -> computes (powerlaw_fcdf M gamma theta x) (F_powerlaw (B2R gamma) (B2R theta) (B2R x)) ((6 + 8 * B2R gamma) / 2 ^ 52)) /\
  (forall x, is_finite x = true -> 0 < B2R x < 1 -> solves (powerlaw_ficdf M gamma theta x) (F_powerlaw (B2R gamma) (B2R theta)) (B2R x) ((5 + 10 * B2R gamma) / 2 ^ 52) /\ B2R theta <= B2R (powerlaw_ficdf M gamma theta x) /\
     Rabs (B2R (powerlaw_fcdf M gamma theta (powerlaw_ficdf M gamma theta x)) - B2R x) <= (11 + 18 * B2R gamma) / 2 ^ 52).
Proof.
  intros M g th HM Hg Ht. assert (C : forall x, is_finite x = true -> B2R th <= B2R x -> computes (powerlaw_fcdf M g th x) (F_powerlaw (B2R g) (B2R th) (B2R x)) ((6 + 8 * B2R g) / 2 ^ 52)) by (intros x F R; exact (powerlaw_cdf M HM g th x Hg Ht F R)). split.
  - intros x F [R|R]; [exact (C x F R)|]. pose proof (scale_pos th Ht) as P. pose proof q_pos as Q. unfold powerlaw_fcdf, F_powerlaw. rewrite (leb_0 x F), Rle_bool_true by exact R. destruct (Rle_dec (B2R x) (B2R th)) as [_|N]; [|lra]. apply computes_0. split; [lra|]. apply Rmult_le_pos; [destruct Hg as (_ & G); lra|change (/ 2 ^ 52) with q; lra].
  - intros x F R. destruct (powerlaw_inv M HM g th x Hg Ht F R) as (I & G). split; [exact I|]. split; [exact G|]. apply (trip _ _ _ _ _ _ ((11 + 18 * B2R g) / 2 ^ 52) I (fun A => C _ A G)). unfold q. lra.
Qed.
(** between 0 and theta powerlaw_dist::cdf is negative: theta = 2, gamma = 1, x = 1 *)
Theorem C102_powerlaw_refuted : forall M, accurate_x M -> exists gamma theta x, shape gamma /\ scale theta /\ is_finite x = true /\ B2R (powerlaw_fcdf M gamma theta x) < 0.
Proof.
  intros M HM. exists (dint 1), (dint 2), (dint 1). pose proof q_pos as Q. pose proof big_10 as B10. destruct (int_ok_ 1 ltac:(lia)) as (F1 & V1). destruct (int_ok_ 2 ltac:(lia)) as (F2 & V2). assert (N : bpow radix2 (-300) <= 1) by (change 1 with (bpow radix2 0); apply bpow_le; lia). assert (P : 2 <= bpow radix2 300) by (change 2 with (bpow radix2 1); apply bpow_le; lia).
  split; [split; [exact F1|rewrite V1; lra]|]. split; [split; [exact F2|rewrite V2; lra]|]. split; [exact F1|]. unfold powerlaw_fcdf. rewrite (leb_0 _ F1), V1, Rle_bool_false by lra.
  destruct half_ok as (FH & VH). destruct (opp_ok _ F1) as (FO & VO). set (h := ddiv (dint 1) (dint 2)) in *. set (g := dopp (dint 1)) in *. rewrite V1 in VO.
  assert (EP : Rpower (B2R h) (B2R g) = 2). { rewrite VH, VO, Rpower_Ropp, Rpower_1 by lra. apply Rinv_inv. }
  destruct (acc_pow _ (ax_base M HM) h g FH FO) as (P1 & P2); [lra| |]. { rewrite VH, VO, ln_Rinv by lra. pose proof ln2_up. pose proof ln2_pos. rewrite Rabs_pos_eq; lra. }
  rewrite EP in P2. set (p := m_pow (x_base M) h g) in *. assert (PR : 3 / 2 <= B2R p <= 3). { apply Rabs_le_inv in P2. assert (/ 2 ^ 51 <= / 1000) by lra. lra. }
  destruct (sub_near (dint 1) p F1 P1) as (_ & _ & S & _); [rewrite V1; apply Rabs_le; lra|]. rewrite V1 in S. rewrite (Rabs_left1 (1 - B2R p)) in S by lra. apply Rabs_le_inv in S. assert (q / 2 * - (1 - B2R p) <= q / 2 * 2) by (apply Rmult_le_compat_l; lra). lra.
Qed.
Theorem C102_uniform : forall a b, location a -> location b -> bpow radix2 (-300) <= B2R b - B2R a ->
  (forall x, is_finite x = true -> computes (uniform_fcdf a b x) (F_uniform (B2R a) (B2R b) (B2R x)) (3 / 2 ^ 52)) /\
  (forall x, is_finite x = true -> 0 <= B2R x <= 1 -> solves (uniform_ficdf a b x) (F_uniform (B2R a) (B2R b)) (B2R x) ((3 + Rmax (Rabs (B2R a)) (Rabs (B2R b)) / (B2R b - B2R a)) / 2 ^ 52) /\
     Rabs (B2R (uniform_fcdf a b (uniform_ficdf a b x)) - B2R x) <= (6 + Rmax (Rabs (B2R a)) (Rabs (B2R b)) / (B2R b - B2R a)) / 2 ^ 52).
Proof.
  intros a b Ha Hb W. pose proof (bpow_gt_0 radix2 (-300)) as P. assert (LP : forall y, location y -> position y). { intros y (F & R). split; [exact F|]. apply Rle_trans with (1 := R). apply bpow_le. lia. }
  assert (C : forall x, is_finite x = true -> computes (uniform_fcdf a b x) (F_uniform (B2R a) (B2R b) (B2R x)) (3 / 2 ^ 52)) by (intros x F; exact (uniform_cdf a b x (LP a Ha) (LP b Hb) ltac:(lra) F)).
  split; [exact C|]. intros x F R. pose proof (uniform_inv a b x Ha Hb W F R) as I. split; [exact I|]. apply (trip _ _ _ _ _ _ _ I (C _)). unfold q. lra.
Qed.
(** for every a < b whose difference does not overflow *)
Theorem C102_uniform_cdf : forall a b x, position a -> position b -> B2R a < B2R b -> is_finite x = true -> computes (uniform_fcdf a b x) (F_uniform (B2R a) (B2R b) (B2R x)) (3 / 2 ^ 52).
Proof. intros a b x Ha Hb W F. exact (uniform_cdf a b x Ha Hb W F). Qed.

(** outside [0,1] the result is NaN; at the ends it is an infinity, except that four functions test
    x <= 0 and x >= 1 first and return NaN there too *)
Theorem C102_ends : forall M x, is_finite x = true ->
  (B2R x < 0 \/ 1 < B2R x -> forall p r, exponential_ficdf M p x = B754_nan /\ twosided_ficdf (x_base M) p x = B754_nan /\ rayleigh_ficdf (x_base M) p x = B754_nan /\ logistic_ficdf_ M p r x = B754_nan /\ tent_ficdf_ p r x = B754_nan /\ uniform_ficdf p r x = B754_nan) /\
  (B2R x <= 0 \/ 1 <= B2R x -> forall p r, pareto_ficdf M p r x = B754_nan /\ powerlaw_ficdf M p r x = B754_nan /\ cauchy_ficdf_ M p r x = B754_nan /\ extreme_ficdf M p r x = B754_nan) /\
  (B2R x < 0 \/ 1 <= B2R x -> forall p r, weibull_ficdf M p r x = B754_nan) /\
  (B2R x = 1 -> forall p r, exponential_ficdf M p x = B754_infinity false /\ twosided_ficdf (x_base M) p x = B754_infinity false /\ logistic_ficdf_ M p r x = B754_infinity false) /\
  (B2R x = 0 -> forall p r, twosided_ficdf (x_base M) p x = B754_infinity true /\ logistic_ficdf_ M p r x = B754_infinity true).
Proof.
  intros M x F. destruct (int_ok_ 0 ltac:(lia)) as (F0 & V0). destruct (int_ok_ 1 ltac:(lia)) as (F1 & V1).
  assert (LL : forall y : double, is_finite y = true -> Bltb x y = Rlt_bool (B2R x) (B2R y) /\ Bltb y x = Rlt_bool (B2R y) (B2R x) /\ Bleb x y = Rle_bool (B2R x) (B2R y) /\ Bleb y x = Rle_bool (B2R y) (B2R x) /\ Beqb x y = Req_bool (B2R x) (B2R y)). { intros y Fy. rewrite !Bltb_correct, !Bleb_correct, Beqb_correct by assumption. repeat split; reflexivity. }
  destruct (LL _ F0) as (A1 & _ & A3 & _ & A5). destruct (LL _ F1) as (_ & B2' & _ & B4 & B5). rewrite V0 in *. rewrite V1 in *.
  unfold exponential_ficdf, twosided_ficdf, rayleigh_ficdf, logistic_ficdf_, tent_ficdf_, uniform_ficdf, pareto_ficdf, powerlaw_ficdf, cauchy_ficdf_, extreme_ficdf, weibull_ficdf. rewrite A1, A3, A5, B2', B4, B5.
  split; [|split; [|split; [|split]]]; intros H p r.
  - destruct H as [H|H]; [rewrite (Rlt_bool_true _ _ H)|rewrite (Rlt_bool_true _ _ H), orb_true_r]; repeat split; reflexivity.
  - destruct H as [H|H]; [rewrite (Rle_bool_true _ _ H)|rewrite (Rle_bool_true _ _ H), orb_true_r]; repeat split; reflexivity.
  - destruct H as [H|H]; [rewrite (Rlt_bool_true _ _ H)|rewrite (Rle_bool_true _ _ H), orb_true_r]; reflexivity.
  - rewrite !Rlt_bool_false by lra. rewrite (Req_bool_false _ 0) by lra. rewrite (Req_bool_true _ 1) by lra. repeat split; reflexivity.
  - rewrite !Rlt_bool_false by lra. rewrite (Req_bool_true _ 0) by lra. rewrite (Req_bool_false _ 1) by lra. repeat split; reflexivity.
Qed.

(** the assumptions can be met *)
Example C102_example : accurate_x rounded_libmx /\ scale (dint 3) /\ shape (dint 2) /\ location (dopp (dint 7)) /\ position (dint 5) /\
  Rabs (B2R (exponential_fcdf rounded_libmx (dint 3) (exponential_ficdf rounded_libmx (dint 3) (ddiv (dint 1) (dint 2)))) - / 2) <= 29 / 2 ^ 52.
Proof.
  destruct (int_ok_ 3 ltac:(lia)) as (A3 & B3). destruct (int_ok_ 2 ltac:(lia)) as (A2 & B2). destruct (int_ok_ 7 ltac:(lia)) as (A7 & B7). destruct (int_ok_ 5 ltac:(lia)) as (A5 & B5). destruct (opp_ok _ A7) as (A8 & B8). destruct half_ok as (AH & BH).
  assert (P : 8 <= bpow radix2 300) by (change 8 with (bpow radix2 3); apply bpow_le; lia). assert (P2 : 8 <= bpow radix2 1000) by (change 8 with (bpow radix2 3); apply bpow_le; lia). assert (N : bpow radix2 (-300) <= 1) by (change 1 with (bpow radix2 0); apply bpow_le; lia).
  assert (S3 : scale (dint 3)) by (split; [exact A3|rewrite B3; lra]). split; [exact rounded_x_accurate|]. split; [exact S3|]. split; [split; [exact A2|rewrite B2; lra]|]. split; [split; [exact A8|rewrite B8, B7, Rabs_Ropp, Rabs_pos_eq; lra]|]. split; [split; [exact A5|rewrite B5, Rabs_pos_eq; lra]|].
  rewrite <- BH. apply (C102_exponential rounded_libmx (dint 3) rounded_x_accurate S3); [exact AH|rewrite BH; lra].
Qed.

Print Assumptions C102_exponential.
Print Assumptions C102_twosided.
Print Assumptions C102_rayleigh.
Print Assumptions C102_weibull.
Print Assumptions C102_pareto.
Print Assumptions C102_cauchy.
Print Assumptions C102_logistic.
Print Assumptions C102_extreme.
Print Assumptions C102_tent.
Print Assumptions C102_powerlaw.
Print Assumptions C102_powerlaw_refuted.
Print Assumptions C102_uniform.
Print Assumptions C102_uniform_cdf.
Print Assumptions C102_ends.
Print Assumptions C102_example.
