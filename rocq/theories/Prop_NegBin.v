(** C98: negative_binomial_dist computes and draws the negative binomial distribution. *)
From Coq Require Import Reals ZArith Lra Psatz Lia List.
From Flocq Require Core.Raux.
From Coquelicot Require Import Coquelicot.
From Verif Require Import Base ArithModel DiscreteModel DiscreteReal ContModel ContProofs GamModel SeriesModel Improper GammaFn BetaFn GamProofs SeriesProofs
  SamplerProofs Prop_Sampler Prop_Continuous Prop_Gamma Prop_Series NegBinModel NegBinProofs.
Import ListNotations.
Local Open Scope R_scope.

(** ** The distribution *)
(** r (r + 1) ... (r + k - 1) *)
Fixpoint rising (r : R) (k : nat) : R := match k with O => 1 | S k => rising r k * (r + INR k) end.
(** the probability of k failures before the r-th success, r need not be an integer *)
Definition negbin_prob (p r : R) (k : nat) : R := rising r k / INR (fact k) * (Rpower p r * (1 - p) ^ k).
(** the probability of at most x failures *)
Definition negbin_upto (p r : R) (x : Z) : R := if (x <? 0)%Z then 0 else sum_f_R0 (negbin_prob p r) (Z.to_nat x).

Lemma rising_rise r k : rising r k = rise r k.
Proof. induction k as [|k IH]; cbn; [reflexivity|rewrite IH; reflexivity]. Qed.
Lemma prob_nb p r k : negbin_prob p r k = nb r p k.
Proof. unfold negbin_prob, nb. rewrite rising_rise. reflexivity. Qed.
Lemma upto_nb p r x : (0 <= x)%Z -> negbin_upto p r x = sum_f_R0 (nb r p) (Z.to_nat x).
Proof. intros Hx. unfold negbin_upto. rewrite (proj2 (Z.ltb_ge x 0)) by lia. apply sum_eq. intros k _. apply prob_nb. Qed.

(** the probabilities are the ones of the textbook and sum up to one *)
Theorem C98_distribution : forall p r, 0 < p <= 1 -> 0 < r ->
  (forall k, 0 <= negbin_prob p r k) /\ infinite_sum (negbin_prob p r) 1 /\
  (forall n k, r = INR (S n) -> negbin_prob p r k = Binomial.C (n + k) k * p ^ S n * (1 - p) ^ k).
Proof.
  intros p r Hp Hr. split; [intros k; rewrite prob_nb; apply nb_nonneg; assumption|]. split.
  - intros e He. destruct (nb_total r p Hr Hp e He) as (N & HN). exists N. intros n Hn. specialize (HN n Hn).
    rewrite (sum_eq (negbin_prob p r) (nb r p)); [exact HN|intros k _; apply prob_nb].
  - intros n k ->. unfold negbin_prob. rewrite Rpower_pow by lra. rewrite <- Rmult_assoc. f_equal. f_equal.
    unfold Binomial.C. replace (n + k - k)%nat with n by lia. pose proof (INR_fact_lt_0 n). 
    assert (E : rising (INR (S n)) k * INR (fact n) = INR (fact (n + k))).
    { clear -k. induction k as [|k IH]; [rewrite Nat.add_0_r; cbn [rising]; ring|]. cbn [rising]. replace (n + S k)%nat with (S (n + k)) by lia.
      change (fact (S (n + k))) with (S (n + k) * fact (n + k))%nat. rewrite mult_INR, <- IH, <- plus_INR. replace (S n + k)%nat with (S (n + k)) by lia. ring. }
    pose proof (INR_fact_lt_0 k). rewrite <- E. field. lra.
Qed.

(** ** pdf and cdf *)
Theorem C98_pdf : forall p r x, 0 < p < 1 -> 0 < r -> (x < int_max)%Z ->
  nb_pdf p r x = Some (Fin (if (x <? 0)%Z then 0 else negbin_prob p r (Z.to_nat x))).
Proof.
  intros p r x Hp Hr Hx. destruct (Z.ltb_spec x 0) as [N|N]; [unfold nb_pdf; rewrite (proj2 (Z.ltb_lt x 0)) by lia; reflexivity|].
  rewrite nb_pdf_value by (assumption || lia). rewrite prob_nb. reflexivity.
Qed.
Theorem C98_cdf : forall p r x, 0 < p <= 1 -> 0 < r -> (x < int_max)%Z -> nb_cdf p r x = Some (Fin (negbin_upto p r x)).
Proof.
  intros p r x Hp Hr Hx. destruct (Z.ltb_spec x 0) as [N|N].
  - unfold nb_cdf, negbin_upto. rewrite (proj2 (Z.ltb_lt x 0)) by lia. reflexivity.
  - rewrite nb_cdf_value by (assumption || lia). rewrite upto_nb by exact N. reflexivity.
Qed.
Example C98_cdf_example : 0 < 1 / 3 < 1 /\ 0 < 2 /\ (1 < int_max)%Z /\ negbin_prob (1 / 3) 2 1 = 4 / 27 /\ negbin_upto (1 / 3) 2 1 = 7 / 27.
Proof.
  split; [lra|]. split; [lra|]. split; [reflexivity|]. assert (E : Rpower (1 / 3) 2 = 1 / 9) by (replace 2 with (INR 2) by reflexivity; rewrite Rpower_pow by lra; cbn; field).
  change (negbin_upto (1 / 3) 2 1) with (negbin_prob (1 / 3) 2 0 + negbin_prob (1 / 3) 2 1). unfold negbin_prob. rewrite E. cbn. split; lra.
Qed.
(** the documented parameter p = 1: cdf is right, pdf(0) is NaN instead of 1 *)
Theorem C98_certain_success : forall r x, 0 < r -> (0 < x < int_max)%Z -> nb_cdf 1 r (x - 1) = Some (Fin 1) /\ nb_pdf 1 r x = Some (Fin 0).
Proof.
  intros r x Hr Hx. split.
  - rewrite C98_cdf by (lra || lia). do 2 f_equal. rewrite upto_nb by lia. rewrite nb_sum by lra. unfold I. destruct (Rle_dec 1 0); [lra|]. destruct (Rle_dec 1 1); [reflexivity|lra].
  - unfold nb_pdf. rewrite (proj2 (Z.ltb_ge x 0)), as_int_in by lia. cbn [option_map]. rewrite nb_pdf_at_1 by (assumption || lia). do 2 f_equal.
    unfold nb. replace (Z.to_nat x) with (S (Z.to_nat (x - 1))) by lia. cbn [pow]. ring.
Qed.
Theorem C98_pdf_at_one_refuted : exists r, 0 < r /\ negbin_prob 1 r 0 = 1 /\ nb_pdf 1 r 0 = Some ContModel.NaN.
Proof.
  exists 1. split; [lra|]. split.
  - unfold negbin_prob. rewrite (Rpower_1 1) by lra. cbn. field.
  - unfold nb_pdf. cbn [Z.ltb Z.compare]. rewrite as_int_in by (unfold int_max; lia). cbn [option_map]. f_equal. unfold nb_pdf_at.
    rewrite <- (accumulate_perm _ _ (sort_perm _)). unfold nb_terms, xln.
    destruct (Rlt_dec 1 0); [lra|]. destruct (Req_EM_T 1 0); [lra|]. destruct (Rlt_dec (1 + - (1)) 0); [lra|]. destruct (Req_EM_T (1 + - (1)) 0); [|lra].
    unfold xscale. destruct (Rlt_dec 0 0); [lra|]. destruct (Rlt_dec 0 0); [lra|]. reflexivity.
Qed.
(** the largest int: signed overflow *)
Theorem C98_overflow_refuted : forall p r, nb_pdf p r int_max = None /\ nb_cdf p r int_max = None.
Proof. intros p r. split; reflexivity. Qed.

(** ** Draws *)
Lemma nb_cumulative p r : 0 < p <= 1 -> 0 < r -> cumulative (nb_pdf_real p r) (nb_cdf_real p r).
Proof.
  intros Hp Hr.
  assert (EP : forall x, (1 <= x)%Z -> nb_pdf_real p r x = nb r p (Z.to_nat x)).
  { intros x Hx. unfold nb_pdf_real. destruct (Req_dec p 1) as [->|N]; [rewrite nb_pdf_at_1 by (assumption || lia)|rewrite nb_pdf_at_in by (lra || lia)]; reflexivity. }
  assert (EC : forall x, (0 <= x)%Z -> nb_cdf_real p r x = sum_f_R0 (nb r p) (Z.to_nat x)) by (intros x Hx; unfold nb_cdf_real; rewrite nb_cdf_at_in by (assumption || lia); reflexivity).
  split; [|split]; intros x Hx.
  - rewrite !EC, EP by lia. replace (Z.to_nat (x + 1)) with (S (Z.to_nat x)) by lia. reflexivity.
  - rewrite EP by exact Hx. apply nb_nonneg; assumption.
  - rewrite EC by exact Hx. apply (sum_incr (nb r p)); [exact (nb_total r p Hr Hp)|intros n; apply nb_nonneg; assumption].
Qed.
Lemma nb_reaches p r : 0 < p <= 1 -> 0 < r -> r + 54 <= p * 2 ^ 30 -> max_variate <= nb_cdf_real p r (int_max - 1).
Proof.
  intros Hp Hr H. unfold nb_cdf_real. rewrite nb_cdf_at_in by (assumption || (unfold int_max; lia)). cbn [fin_part].
  pose proof (nb_tail r p (Z.to_nat (int_max - 1)) Hr Hp) as T.
  assert (E : INR (S (Z.to_nat (int_max - 1))) = IZR int_max) by (rewrite S_INR, INR_IZR_INZ, Z2Nat.id by (unfold int_max; lia); rewrite <- plus_IZR; f_equal). rewrite E in T.
  assert (L2 : 0 < ln 2 <= 1).
  { split; [rewrite <- ln_1; apply ln_increasing; lra|]. pose proof (exp_ineq1_le 1). rewrite <- (ln_exp 1). apply ln_le; lra. }
  assert (B : Rpower 2 r * exp (- (p / 2) * IZR int_max) <= / IZR (2 ^ 53)).
  { assert (E53 : / IZR (2 ^ 53) = exp (- (53 * ln 2))).
    { rewrite exp_Ropp. f_equal. replace 53 with (INR 53) by (cbn; lra). change (exp (INR 53 * ln 2)) with (Rpower 2 (INR 53)). rewrite Rpower_pow by lra. rewrite pow_IZR. reflexivity. }
    rewrite E53. unfold Rpower. rewrite <- exp_plus. apply (proj2 (exp_le_iff _ _)). change int_max with 2147483647%Z. 
    assert (r * ln 2 <= r * 1) by (apply Rmult_le_compat_l; lra). lra. }
  unfold max_variate. lra.
Qed.
(** what is drawn is the quantile of the variate, for every variate but p^r *)
Theorem C98_draw : forall p r u, 0 < p <= 1 -> 0 < r -> r + 54 <= p * 2 ^ 30 -> 0 <= u <= max_variate -> u <> Rpower p r ->
  exists n T x, (forall fuel, (n <= fuel)%nat ->
      negbin_table real_arith fuel (nb_cdf_real p r) = Some T /\
      sampler_draw real_arith fuel (nb_pdf_real p r) (nb_cdf_real p r) T u = Some x) /\
    quantile (negbin_upto p r) 0 u x /\ (0 <= x < int_max)%Z.
Proof.
  intros p r u Hp Hr H Hu Hne. pose proof (nb_reaches p r Hp Hr H) as RC.
  assert (EC : forall x, (0 <= x)%Z -> nb_cdf_real p r x = negbin_upto p r x) by (intros x Hx; unfold nb_cdf_real; rewrite nb_cdf_at_in, upto_nb by (assumption || lia); reflexivity).
  assert (MV : 1 - 1 / 4096 <= max_variate <= 1).
  { unfold max_variate. assert (0 < / IZR (2 ^ 53)) by (apply Rinv_0_lt_compat, IZR_lt; lia). assert (/ IZR (2 ^ 53) <= / 4096) by (apply Rinv_le_contravar; [lra|apply IZR_le; lia]). lra. }
  assert (E0 : nb_cdf_real p r 0 = Rpower p r) by (rewrite EC by lia; unfold negbin_upto, negbin_prob; cbn; field).
  destruct (C55_negative_binomial _ _ u (int_max - 1) (nb_cumulative p r Hp Hr)) as (n & T & x & A & Q); try (lra || (unfold int_max; lia)).
  assert (Q' : quantile (negbin_upto p r) 0 u x).
  { destruct Q as (Q0 & Q1). split; [exact Q0|]. intros y Hy. rewrite <- EC by exact Hy. apply Q1, Hy. }
  exists n, T, x. split; [exact A|]. split; [exact Q'|]. destruct Q' as (Q0 & Q1). split; [exact Q0|].
  assert (x <= int_max - 1)%Z; [|lia]. apply Q1; [unfold int_max; lia|]. rewrite <- EC by (unfold int_max; lia). lra.
Qed.
Example C98_draw_example : 0 < 1 / 3 <= 1 /\ 0 < 2 /\ 2 + 54 <= 1 / 3 * 2 ^ 30 /\ 0 <= 1 / 5 <= max_variate /\ 1 / 5 <> Rpower (1 / 3) 2 /\
  quantile (negbin_upto (1 / 3) 2) 0 (1 / 5) 1.
Proof.
  assert (E : Rpower (1 / 3) 2 = 1 / 9) by (replace 2 with (INR 2) by reflexivity; rewrite Rpower_pow by lra; cbn; field).
  assert (/ IZR (2 ^ 53) <= / 4096) by (apply Rinv_le_contravar; [lra|apply IZR_le; lia]).
  split; [lra|]. split; [lra|]. split; [lra|]. split; [unfold max_variate; lra|]. split; [lra|]. split; [lia|]. intros y Hy.
  assert (M : forall y, (1 <= y)%Z -> 7 / 27 <= negbin_upto (1 / 3) 2 y).
  { intros z Hz. rewrite upto_nb by lia. replace (Z.to_nat z) with (1 + Z.to_nat (z - 1))%nat by lia.
    apply Rle_trans with (sum_f_R0 (nb 2 (1 / 3)) 1).
    - cbn [sum_f_R0]. rewrite <- !prob_nb. destruct C98_cdf_example as (_ & _ & _ & E1 & _). rewrite E1. unfold negbin_prob. rewrite E. cbn. lra.
    - induction (Z.to_nat (z - 1)) as [|n IH]; [apply Rle_refl|]. replace (1 + S n)%nat with (S (1 + n)) by lia. cbn [sum_f_R0] in *.
      pose proof (nb_nonneg 2 (1 / 3) (S (1 + n)) ltac:(lra) ltac:(lra)). lra. }
  destruct (Z.eq_dec y 0) as [->|N].
  - split; [lia|]. intros K. exfalso. unfold negbin_upto, negbin_prob in K. cbn in K. rewrite E in K. lra.
  - split; intros; [|lia]. specialize (M y ltac:(lia)). lra.
Qed.
(** p = 0: cdf is zero everywhere and the table is never finished *)
Theorem C98_never_success_refuted : forall r, 0 < r -> (forall x, (0 <= x < int_max)%Z -> nb_cdf 0 r x = Some (Fin 0)) /\
  forall fuel, negbin_table real_arith fuel (nb_cdf_real 0 r) = None.
Proof.
  intros r Hr.
  assert (Z0 : forall x, (0 <= x)%Z -> nb_cdf_at 0 r x = Fin 0).
  { intros x Hx. unfold nb_cdf_at. assert (0 < IZR (x + 1)) by (apply IZR_lt; lia). rewrite Beta_I_I by lra. unfold I. destruct (Rle_dec 0 0); [reflexivity|lra]. }
  split.
  - intros x Hx. unfold nb_cdf. rewrite (proj2 (Z.ltb_ge x 0)), as_int_in by lia. cbn [option_map]. rewrite Z0 by lia. reflexivity.
  - intros fuel. unfold negbin_table. change (zero real_arith) with 0. assert (G : forall f x, (0 <= x)%Z -> negbin_loop real_arith f (nb_cdf_real 0 r) 0 x = None); [|apply G; lia].
    assert (L : ltb real_arith 0 (sub real_arith (one real_arith) (div real_arith (one real_arith) (ofz real_arith 4096))) = true) by (cbn [ltb sub one div ofz real_arith]; apply Core.Raux.Rlt_bool_true; lra).
    induction f as [|f IH]; intros x Hx; cbn [negbin_loop]; rewrite L; [reflexivity|].
    assert (C0 : nb_cdf_real 0 r x = 0) by (unfold nb_cdf_real; rewrite Z0 by exact Hx; reflexivity). rewrite C0, IH by lia. reflexivity.
Qed.

(** ** cdf by the algorithm of Beta_I *)
Theorem C98_cdf_algorithm : forall p r x w, 0 < p < 1 -> 0 < r -> (0 <= x < int_max)%Z ->
  r + IZR (x + 1) <= 2 ^ 30 -> r + IZR (x + 1) <= 2 ^ 20 * r -> r + IZR (x + 1) <= 2 ^ 20 * IZR (x + 1) -> over_unit (beta_integrand r (IZR (x + 1))) w ->
  exists fuel v, (forall f, (fuel <= f)%nat -> Beta_I_alg f p r (IZR (x + 1)) w = BVal v) /\
    ((r + IZR (x + 1)) * p <= r -> Rabs (negbin_upto p r x - v) <= / 2 ^ 50 * (1 + IZR (x + 1) + r / IZR (x + 1)) * v) /\
    (r < (r + IZR (x + 1)) * p -> Rabs (negbin_upto p r x - v) <= / 2 ^ 50 * (1 + r + IZR (x + 1) / r) * (1 - v)).
Proof.
  intros p r x w Hp Hr Hx H1 H2 H3 Hw. assert (X0 : 0 < IZR (x + 1)) by (apply IZR_lt; lia).
  destruct (C82_defined p r (IZR (x + 1)) w Hr X0 ltac:(lra) H1 H2 H3) as (fuel & v & A & _). exists fuel, v. split; [exact A|].
  assert (E : negbin_upto p r x = lbet r (IZR (x + 1)) p / w).
  { rewrite (int_Beta _ _ w Hr X0 Hw), upto_nb by lia. rewrite nb_sum by lra. rewrite S_INR, INR_IZR_INZ, Z2Nat.id, <- plus_IZR by lia. apply I_in, Hp. }
  rewrite E. exact (C82_accuracy fuel p r (IZR (x + 1)) _ w v Hr X0 Hp (lbet_gen r (IZR (x + 1)) p Hr X0 Hp) Hw (A fuel (Nat.le_refl _))).
Qed.
Example C98_cdf_algorithm_example : 0 < 1 / 3 < 1 /\ 0 < 2 /\ (0 <= 1 < int_max)%Z /\ 2 + IZR (1 + 1) <= 2 ^ 30 /\ 2 + IZR (1 + 1) <= 2 ^ 20 * 2 /\ 2 + IZR (1 + 1) <= 2 ^ 20 * IZR (1 + 1) /\
  over_unit (beta_integrand 2 (IZR (1 + 1))) (/ 6).
Proof.
  split; [lra|]. split; [lra|]. split; [split; [lia|reflexivity]|]. change (IZR (1 + 1)) with 2. split; [lra|]. split; [lra|]. split; [lra|].
  replace (/ 6) with (Bet 2 2); [exact (Bet_gen 2 2 ltac:(lra) ltac:(lra))|]. 
  pose proof (Bet_rise 2 1 ltac:(lra)) as K. cbn in K. pose proof (Bet_pos 2 2 ltac:(lra) ltac:(lra)) as B.
  change (1 + 1) with 2 in K. assert (K2 : / (2 * Bet 2 2) = 3) by lra. assert (2 * Bet 2 2 * 3 = 1) by (rewrite <- K2; field; lra). lra.
Qed.

Print Assumptions C98_distribution.
Print Assumptions C98_pdf.
Print Assumptions C98_cdf.
Print Assumptions C98_certain_success.
Print Assumptions C98_pdf_at_one_refuted.
Print Assumptions C98_overflow_refuted.
Print Assumptions C98_draw.
Print Assumptions C98_never_success_refuted.
Print Assumptions C98_cdf_algorithm.
