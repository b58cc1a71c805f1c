(** C105: pdf of the distributions with closed formulas, in double. *)
From Coq Require Import ZArith Bool Reals Lia Lra.
From Flocq Require Import Core IEEE754.BinarySingleNaN.
From Verif Require Import FloatFacts UniformModel UniformProofs FloatDrawModel FloatDrawSpec FloatDrawProofs FloatDrawCore FloatDrawLoc FloatDrawTrig FloatDrawLibm FloatCdfModel FloatCdfSpec FloatPdfModel FloatPdfSpec FloatPdfProofs FloatPdfMore FloatPdfTail FloatPdfNan.
Local Open Scope R_scope.

Theorem C105_exponential : forall M mu x, accurate_x M -> scale mu -> is_finite x = true ->
  density (exponential_fpdf M mu x) (f_exponential (B2R mu) (B2R x)) (9 / 2 ^ 52 / B2R mu).
Proof. intros M mu x HM H F. exact (exponential_pdf M HM mu x H F). Qed.
Theorem C105_twosided : forall M mu x, accurate_x M -> scale mu -> is_finite x = true ->
  density (twosided_fpdf M mu x) (f_twosided (B2R mu) (B2R x)) (5 / 2 ^ 52 / B2R mu).
Proof. intros M mu x HM H F. exact (twosided_pdf M HM mu x H F). Qed.
Theorem C105_logistic : forall M theta eta x, accurate_x M -> scale theta -> location eta -> is_finite x = true ->
  density (logistic_fpdf M theta eta x) (f_logistic (B2R theta) (B2R eta) (B2R x)) (25 / 2 ^ 52 / B2R theta).
Proof. intros M theta eta x HM H0 H1 F. exact (logistic_pdf M HM theta eta x H0 H1 F). Qed.
Theorem C105_pareto : forall M gamma theta x, accurate_x M -> shape19 gamma -> scale theta -> is_finite x = true ->
  density (pareto_fpdf M gamma theta x) (f_pareto (B2R gamma) (B2R theta) (B2R x)) ((21 + 9 * B2R gamma) / 2 ^ 52 * (B2R gamma / B2R theta)).
Proof. intros M gamma theta x HM H0 H1 F. exact (pareto_pdf M HM gamma theta x H0 H1 F). Qed.
Theorem C105_powerlaw : forall M gamma theta x, accurate_x M -> shape19 gamma -> scale theta -> is_finite x = true ->
  density (powerlaw_fpdf M gamma theta x) (f_powerlaw (B2R gamma) (B2R theta) (B2R x)) ((21 + 9 * B2R gamma) / 2 ^ 52 * (B2R gamma / B2R theta)).
Proof. intros M gamma theta x HM H0 H1 F. exact (powerlaw_pdf M HM gamma theta x H0 H1 F). Qed.
Theorem C105_cauchy : forall theta eta x, scale theta -> location eta -> is_finite x = true ->
  density (cauchy_fpdf theta eta x) (f_cauchy (B2R theta) (B2R eta) (B2R x)) (8 / 2 ^ 52 / B2R theta).
Proof. intros theta eta x H0 H1 F. exact (cauchy_pdf theta eta x H0 H1 F). Qed.
Theorem C105_tent : forall m d x, location m -> scale d -> is_finite x = true ->
  density (tent_fpdf m d x) (f_tent (B2R m) (B2R d) (B2R x)) (7 / 2 ^ 52 / B2R d).
Proof. intros m d x H0 H1 F. exact (tent_pdf m d x H0 H1 F). Qed.
Theorem C105_uniform : forall a b x, is_finite a = true -> is_finite b = true -> is_finite x = true -> bpow radix2 (-600) <= B2R b - B2R a <= bpow radix2 600 ->
  density (uniform_fpdf a b x) (f_uniform (B2R a) (B2R b) (B2R x)) (5 / 2 ^ 52 / (B2R b - B2R a)).
Proof. intros a b x Fa Fb F H. exact (uniform_pdf a b x Fa Fb F H). Qed.
Theorem C105_extreme_value : forall M theta eta x, accurate_x M -> ends M -> scale theta -> location eta -> is_finite x = true -> (B2R x - B2R eta) / B2R theta < bpow radix2 900 ->
  density (extreme_fpdf M theta eta x) (f_extreme (B2R theta) (B2R eta) (B2R x)) (150 / 2 ^ 52 / B2R theta).
Proof. intros M theta eta x HM HE H0 H1 F B. exact (extreme_pdf M HM HE theta eta x H0 H1 F B). Qed.
Theorem C105_rayleigh : forall M nu x, accurate_x M -> ends M -> scale nu -> is_finite x = true -> B2R x / (B2R nu * B2R nu) <= bpow radix2 998 ->
  density (rayleigh_fpdf M nu x) (f_rayleigh (B2R nu) (B2R x)) (64 / 2 ^ 52 / B2R nu).
Proof. intros M nu x HM HE H F B. exact (rayleigh_pdf M HM HE nu x H F B). Qed.
(** relative error for arguments that are neither tiny nor far out *)
Theorem C105_weibull : forall M theta beta x, accurate_x M -> scale theta -> shape beta -> is_finite x = true ->
  bpow radix2 (-200) <= B2R x / B2R theta <= bpow radix2 200 -> -100 <= B2R beta * ln (B2R x / B2R theta) -> Rpower (B2R x / B2R theta) (B2R beta) <= 100 ->
  density (weibull_fpdf M theta beta x) (f_weibull (B2R theta) (B2R beta) (B2R x))
    ((26 + 2 * B2R beta + (16 + 4 * B2R beta) * Rpower (B2R x / B2R theta) (B2R beta)) / 2 ^ 52 * f_weibull (B2R theta) (B2R beta) (B2R x)).
Proof. intros M theta beta x HM H0 H1 F R L U. exact (weibull_pdf M HM theta beta x H0 H1 F R L U). Qed.
(** at 0 and to the left of it *)
Theorem C105_weibull_edge : forall M theta beta x, scale theta -> shape beta -> is_finite x = true ->
  (B2R x < 0 -> weibull_fpdf M theta beta x = dint 0) /\
  (B2R x = 0 -> B2R beta = 1 -> density (weibull_fpdf M theta beta x) (/ B2R theta) (3 / 2 ^ 52 / B2R theta)) /\
  (B2R x = 0 -> 1 < B2R beta -> weibull_fpdf M theta beta x = dint 0) /\
  (B2R x = 0 -> B2R beta < 1 -> weibull_fpdf M theta beta x = dnan).
Proof.
  intros M theta beta x H0 H1 F. split; [intros H; exact (weibull_left M theta beta x F H)|]. split; [|split]; intros Z; pose proof (weibull_at_0 M theta beta x H0 H1 F Z) as (A & B & C); [exact A|exact B|exact C].
Qed.

(** ** NaN in the tail *)
Theorem C105_extreme_value_tail : forall M theta eta x, accurate_x M -> ends M -> scale theta -> location eta -> is_finite x = true -> bpow radix2 1025 <= (B2R x - B2R eta) / B2R theta ->
  extreme_fpdf M theta eta x = dnan.
Proof. intros M theta eta x HM HE H0 H1 F B. exact (extreme_nan M HM HE theta eta x H0 H1 F B). Qed.
Theorem C105_rayleigh_tail : forall M nu x, accurate_x M -> ends M -> scale nu -> is_finite x = true -> bpow radix2 1025 <= B2R x / (B2R nu * B2R nu) -> rayleigh_fpdf M nu x = dnan.
Proof. intros M nu x HM HE H F B. exact (rayleigh_nan M HM nu x H F B). Qed.
Theorem C105_weibull_tail : forall M theta beta x, accurate_x M -> ends M -> scale theta -> shape beta -> is_finite x = true -> 0 < B2R x -> 760 <= B2R beta * ln (B2R x / B2R theta) ->
  weibull_fpdf M theta beta x = dnan.
Proof. intros M theta beta x HM HE H0 H1 F X B. exact (weibull_nan M HM HE theta beta x H0 H1 F X B). Qed.

Lemma pow2_ok n : (-1000 <= n <= 1000)%Z -> is_finite (nearest (bpow radix2 n)) = true /\ B2R (nearest (bpow radix2 n)) = bpow radix2 n.
Proof.
  intros H. pose proof (bpow_gt_0 radix2 n) as P. assert (B : bpow radix2 n <= big) by (apply bpow_le; lia). pose proof big_10 as T. destruct (nearest_ok (bpow radix2 n)) as (A & V); [rewrite Rabs_pos_eq; lra|]. split; [exact A|]. rewrite V. apply (rnd_fmt 53 1024 H3_64 H70_64). apply (fmt_bpow 53 1024 H3_64 H70_64). lia.
Qed.
Lemma pow2_scale n : (-300 <= n <= 300)%Z -> scale (nearest (bpow radix2 n)).
Proof. intros H. destruct (pow2_ok n ltac:(lia)) as (A & B). split; [exact A|]. rewrite B. split; apply bpow_le; lia. Qed.

(** pdf is not a number although the density is positive and tends to 0 there *)
Theorem C105_extreme_value_refuted : exists M theta eta x, accurate_x M /\ ends M /\ scale theta /\ location eta /\ is_finite x = true /\ is_nan (extreme_fpdf M theta eta x) = true.
Proof.
  exists nan_libmx, (nearest (bpow radix2 (-300))), (dint 0), (nearest (bpow radix2 800)). destruct (pow2_ok 800 ltac:(lia)) as (A & B). destruct (pow2_ok (-300) ltac:(lia)) as (A2 & B2). destruct (int_ok_ 0 ltac:(lia)) as (F0 & V0).
  assert (L : location (dint 0)) by (split; [exact F0|]; rewrite V0, Rabs_R0; left; apply bpow_gt_0). assert (S : scale (nearest (bpow radix2 (-300)))) by (apply pow2_scale; lia).
  split; [exact nan_accurate|]. split; [exact nan_ends|]. split; [exact S|]. split; [exact L|]. split; [exact A|].
  rewrite (C105_extreme_value_tail nan_libmx _ _ _ nan_accurate nan_ends S L A); [reflexivity|]. rewrite B, B2, V0, Rminus_0_r. change (-300)%Z with (- (300))%Z. rewrite bpow_opp. unfold Rdiv. rewrite Rinv_inv, <- bpow_plus. apply bpow_le. lia.
Qed.
Theorem C105_rayleigh_refuted : exists M nu x, accurate_x M /\ ends M /\ scale nu /\ is_finite x = true /\ is_nan (rayleigh_fpdf M nu x) = true.
Proof.
  exists nan_libmx, (nearest (bpow radix2 (-300))), (nearest (bpow radix2 600)). destruct (pow2_ok 600 ltac:(lia)) as (A & B). destruct (pow2_ok (-300) ltac:(lia)) as (A2 & B2). assert (S : scale (nearest (bpow radix2 (-300)))) by (apply pow2_scale; lia).
  split; [exact nan_accurate|]. split; [exact nan_ends|]. split; [exact S|]. split; [exact A|].
  rewrite (C105_rayleigh_tail nan_libmx _ _ nan_accurate nan_ends S A); [reflexivity|]. rewrite B, B2, <- bpow_plus. change (-300 + -300)%Z with (- (600))%Z. rewrite bpow_opp. unfold Rdiv. rewrite Rinv_inv, <- bpow_plus. apply bpow_le. lia.
Qed.
Theorem C105_weibull_refuted : exists M x, accurate_x M /\ ends M /\ is_finite x = true /\ B2R x = bpow radix2 800 /\ is_nan (weibull_fpdf M (dint 1) (dint 2) x) = true.
Proof.
  exists nan_libmx, (nearest (bpow radix2 800)). destruct (pow2_ok 800 ltac:(lia)) as (A & B). destruct (int_ok_ 1 ltac:(lia)) as (F1 & V1). destruct (int_ok_ 2 ltac:(lia)) as (F2 & V2).
  assert (S : scale (dint 1)) by (split; [exact F1|]; rewrite V1; split; [change 1 with (bpow radix2 0); apply bpow_le; lia|change 1 with (bpow radix2 0); apply bpow_le; lia]). assert (H2 : shape (dint 2)) by (split; [exact F2|]; rewrite V2; lra).
  split; [exact nan_accurate|]. split; [exact nan_ends|]. split; [exact A|]. split; [exact B|].
  rewrite (C105_weibull_tail nan_libmx _ _ _ nan_accurate nan_ends S H2 A); [reflexivity|rewrite B; apply bpow_gt_0|]. rewrite B, V1, V2. replace (bpow radix2 800 / 1) with (bpow radix2 800) by field. rewrite ln_bpow. pose proof (ln_lo 2 ltac:(lra)) as L. lra.
Qed.

(** the hypotheses are met by ordinary parameters *)
Example C105_example : accurate_x nan_libmx /\ ends nan_libmx /\ scale (dint 3) /\ shape19 (dint 2) /\ location (dint 7) /\
  density (exponential_fpdf nan_libmx (dint 3) (dint 5)) (exp (- (5 / 3)) / 3) (9 / 2 ^ 52 / 3) /\
  density (rayleigh_fpdf nan_libmx (dint 3) (dint 5)) (5 / (3 * 3) * exp (- (5 / 3 * (5 / 3) / 2))) (64 / 2 ^ 52 / 3).
Proof.
  destruct (int_ok_ 3 ltac:(lia)) as (F3 & V3). destruct (int_ok_ 2 ltac:(lia)) as (F2 & V2). destruct (int_ok_ 7 ltac:(lia)) as (F7 & V7). destruct (int_ok_ 5 ltac:(lia)) as (F5 & V5).
  assert (P : 8 <= bpow radix2 300) by (change 8 with (bpow radix2 3); apply bpow_le; lia). assert (N : bpow radix2 (-300) <= 1) by (change 1 with (bpow radix2 0); apply bpow_le; lia). assert (P9 : 8 <= bpow radix2 998) by (change 8 with (bpow radix2 3); apply bpow_le; lia).
  assert (S : scale (dint 3)) by (split; [exact F3|rewrite V3; lra]).
  pose proof (C105_exponential nan_libmx (dint 3) (dint 5) nan_accurate S F5) as A. pose proof (C105_rayleigh nan_libmx (dint 3) (dint 5) nan_accurate nan_ends S F5) as B.
  rewrite V3, V5 in A, B. unfold f_exponential in A. unfold f_rayleigh in B. destruct (Rlt_dec 5 0) as [K|_]; [lra|]. destruct (Rle_dec 5 0) as [K|_]; [lra|].
  split; [exact nan_accurate|]. split; [exact nan_ends|]. split; [exact S|]. split; [split; [exact F2|rewrite V2; lra]|]. split; [split; [exact F7|rewrite V7, Rabs_pos_eq; lra]|]. split; [exact A|]. apply B. lra.
Qed.
Example C105_example_weibull : density (weibull_fpdf nan_libmx (dint 3) (dint 2) (dint 3)) (2 / 3 * 1 * exp (- 1)) ((30 + 24) / 2 ^ 52 * (2 / 3 * 1 * exp (- 1))).
Proof.
  destruct (int_ok_ 3 ltac:(lia)) as (F3 & V3). destruct (int_ok_ 2 ltac:(lia)) as (F2 & V2). assert (P : 8 <= bpow radix2 300) by (change 8 with (bpow radix2 3); apply bpow_le; lia). assert (N : bpow radix2 (-300) <= 1) by (change 1 with (bpow radix2 0); apply bpow_le; lia).
  assert (P2 : 1 <= bpow radix2 200) by (change 1 with (bpow radix2 0); apply bpow_le; lia). assert (N2 : bpow radix2 (-200) <= 1) by (change 1 with (bpow radix2 0); apply bpow_le; lia).
  assert (S : scale (dint 3)) by (split; [exact F3|rewrite V3; lra]). assert (S2 : shape (dint 2)) by (split; [exact F2|rewrite V2; lra]). pose proof (C105_weibull nan_libmx (dint 3) (dint 2) (dint 3) nan_accurate S S2 F3) as A.
  rewrite V3, V2 in A. unfold f_weibull in A. replace (3 / 3) with 1 in A by field. destruct (Rlt_dec 3 0) as [K|_]; [lra|]. assert (R1 : forall b, Rpower 1 b = 1) by (intros b; unfold Rpower; rewrite ln_1, Rmult_0_r, exp_0; reflexivity). rewrite !R1 in A. replace (30 + 24) with (26 + 2 * 2 + (16 + 4 * 2) * 1) by ring. apply A; [lra|rewrite ln_1; lra|lra].
Qed.

Print Assumptions C105_exponential.
Print Assumptions C105_cauchy.
Print Assumptions C105_extreme_value.
Print Assumptions C105_rayleigh.
Print Assumptions C105_weibull.
Print Assumptions C105_weibull_refuted.
