(** C55, C46, C65, C66: poisson_dist, zero_truncated_poisson_dist, negative_binomial_dist,
    hypergeometric_dist, binomial_dist, geometric_dist. *)
From Coq Require Import ZArith List Bool Reals Lra Lia Arith.
From Flocq Require Import Core.Raux Core.Generic_fmt IEEE754.BinarySingleNaN.
From Verif Require Import Base IntMathModel UniformModel ArithModel DiscreteModel DiscreteProofs
  DiscreteReal Prop_Discrete SamplerProofs.
Import ListNotations.
Local Open Scope R_scope.

(** ** C55 *)

(** x is the least value from lo on whose cumulative probability is at least u *)
Definition quantile (cdf : Z -> R) (lo : Z) (u : R) (x : Z) : Prop :=
  (lo <= x)%Z /\ forall y, (lo <= y)%Z -> (x <= y)%Z <-> u <= cdf y.

(** cdf is the cumulative sum of the nonnegative pdf and never exceeds 1 *)
Definition cumulative (pdf cdf : Z -> R) : Prop :=
  (forall x, (0 <= x)%Z -> cdf (x + 1)%Z = cdf x + pdf (x + 1)%Z) /\
  (forall x, (1 <= x)%Z -> 0 <= pdf x) /\ (forall x, (0 <= x)%Z -> cdf x <= 1).

(** *** Poisson probabilities *)
Definition poisson_term (mu : R) (k : nat) : R := exp (- mu) * (mu ^ k / INR (fact k)).

Lemma fact_pos k : 0 < INR (fact k).
Proof. apply INR_fact_lt_0. Qed.
Lemma poisson_term_pos mu k : 0 < mu -> 0 < poisson_term mu k.
Proof.
  intros H. unfold poisson_term. apply Rmult_lt_0_compat; [apply exp_pos|].
  apply Rdiv_lt_0_compat; [now apply pow_lt|apply fact_pos].
Qed.
Lemma exp_mult_ln mu n : 0 < mu -> exp (INR n * ln mu) = mu ^ n.
Proof. intros H. rewrite <- Rpower_pow by assumption. reflexivity. Qed.

Lemma poisson_pdf_eq mu x : 0 < mu -> (0 <= x)%Z -> poisson_pdf mu x = poisson_term mu (Z.to_nat x).
Proof.
  intros Hm Hx. unfold poisson_pdf, poisson_term, ln_gamma_1. rewrite (proj2 (Z.ltb_ge x 0)) by lia.
  replace (IZR x) with (INR (Z.to_nat x)) by (rewrite INR_IZR_INZ, Z2Nat.id by lia; reflexivity).
  unfold Rminus. rewrite !exp_plus, (exp_Ropp (ln _)), exp_ln by apply fact_pos.
  rewrite exp_mult_ln by assumption. unfold Rdiv. ring.
Qed.

Lemma exp_sum mu : Un_cv (fun N => sum_f_R0 (fun k => mu ^ k / INR (fact k)) N) (exp mu).
Proof.
  unfold exp. destruct (exist_exp mu) as [l Hl]. cbn [proj1_sig]. unfold exp_in, infinite_sum in Hl.
  intros eps He. destruct (Hl eps He) as [N HN]. exists N. intros n Hn. specialize (HN n Hn).
  rewrite (sum_eq (fun k => mu ^ k / INR (fact k)) (fun i => / INR (fact i) * mu ^ i)); [exact HN|].
  intros i _. unfold Rdiv. ring.
Qed.
Lemma exp_partial mu N : 0 <= mu -> sum_f_R0 (fun k => mu ^ k / INR (fact k)) N <= exp mu.
Proof.
  intros H. apply (sum_incr (fun k => mu ^ k / INR (fact k)) N (exp mu)); [apply exp_sum|].
  intros n. apply Rmult_le_pos; [now apply pow_le|]. left. apply Rinv_0_lt_compat, fact_pos.
Qed.
Lemma poisson_sum mu N : sum_f_R0 (poisson_term mu) N = exp (- mu) * sum_f_R0 (fun k => mu ^ k / INR (fact k)) N.
Proof. rewrite scal_sum. apply sum_eq. intros i _. unfold poisson_term. ring. Qed.
Lemma poisson_sum_1 mu N : 0 <= mu -> sum_f_R0 (poisson_term mu) N <= 1.
Proof.
  intros H. rewrite poisson_sum. replace 1 with (exp (- mu) * exp mu).
  - apply Rmult_le_compat_l; [left; apply exp_pos|now apply exp_partial].
  - rewrite <- exp_plus. replace (- mu + mu) with 0 by ring. apply exp_0.
Qed.

Lemma poisson_cumulative mu : 0 < mu -> cumulative (poisson_pdf mu) (poisson_cdf mu).
Proof.
  intros Hm. unfold cumulative. repeat split; intros x Hx.
  - unfold poisson_cdf. rewrite (proj2 (Z.ltb_ge _ 0)), (proj2 (Z.ltb_ge x 0)) by lia.
    rewrite poisson_pdf_eq by (assumption || lia). unfold gammaQ_1.
    replace (Z.to_nat (x + 1)) with (S (Z.to_nat x)) by lia. reflexivity.
  - rewrite poisson_pdf_eq by (assumption || lia). left. now apply poisson_term_pos.
  - unfold poisson_cdf. rewrite (proj2 (Z.ltb_ge x 0)) by lia. apply poisson_sum_1. lra.
Qed.

(** the tail beyond n is at most e^mu / 2^(n+1) *)
Lemma partial_tail (f g : nat -> R) n c : 0 <= c -> (forall k, (n < k)%nat -> f k <= c * g k) ->
  (forall k, 0 <= g k) -> forall m, (n <= m)%nat -> sum_f_R0 f m <= sum_f_R0 f n + c * sum_f_R0 g m.
Proof.
  intros Hc Hfg Hg m Hm. induction Hm as [|m Hm IH].
  - assert (0 <= sum_f_R0 g n) by now apply cond_pos_sum.
    assert (0 <= c * sum_f_R0 g n) by now apply Rmult_le_pos. lra.
  - cbn [sum_f_R0]. specialize (Hfg (S m) ltac:(lia)). lra.
Qed.
Lemma exp_tail mu n : 0 <= mu ->
  exp mu <= sum_f_R0 (fun k => mu ^ k / INR (fact k)) n + (/ 2) ^ S n * exp (2 * mu).
Proof.
  intros Hm.
  assert (H : forall m, (n <= m)%nat -> sum_f_R0 (fun k => mu ^ k / INR (fact k)) m <=
     sum_f_R0 (fun k => mu ^ k / INR (fact k)) n + (/ 2) ^ S n * exp (2 * mu)).
  { intros m Hnm. apply Rle_trans with
      (sum_f_R0 (fun k => mu ^ k / INR (fact k)) n +
       (/ 2) ^ S n * sum_f_R0 (fun k => (2 * mu) ^ k / INR (fact k)) m).
    - apply partial_tail with (g := fun k => (2 * mu) ^ k / INR (fact k)); [|intros k Hk|intros k|lia].
      + apply pow_le. lra.
      + rewrite Rpow_mult_distr. unfold Rdiv. rewrite <- !Rmult_assoc.
        apply Rmult_le_compat_r; [left; apply Rinv_0_lt_compat, fact_pos|].
        rewrite <- (Rmult_1_l (mu ^ k)) at 1. apply Rmult_le_compat_r; [now apply pow_le|].
        replace k with (S n + (k - S n))%nat at 1 by lia. rewrite pow_add.
        rewrite <- Rmult_assoc, <- Rpow_mult_distr. replace (/ 2 * 2) with 1 by field.
        rewrite pow1, Rmult_1_l. apply pow_R1_Rle. lra.
      + apply Rmult_le_pos; [apply pow_le; lra|]. left. apply Rinv_0_lt_compat, fact_pos.
    - apply Rplus_le_compat_l, Rmult_le_compat_l; [apply pow_le; lra|]. apply exp_partial. lra. }
  apply Rnot_lt_le. intros Hlt.
  destruct (exp_sum mu (exp mu - (sum_f_R0 (fun k => mu ^ k / INR (fact k)) n + (/ 2) ^ S n * exp (2 * mu))))
    as [N HN]; [lra|].
  specialize (HN (max N n) ltac:(lia)). specialize (H (max N n) ltac:(lia)).
  unfold R_dist in HN. rewrite Rabs_left1 in HN; lra.
Qed.

(** e^mu <= 4^mu; for 0 <= mu <= 2^28 the factor 2^(-2^31) makes everything tiny *)
Lemma exp_4 x : 0 <= x -> exp x <= Rpower 2 (2 * x).
Proof.
  intros H. unfold Rpower. apply exp_le. replace (2 * x * ln 2) with (x * (2 * ln 2)) by ring.
  rewrite <- (Rmult_1_r x) at 1. apply Rmult_le_compat_l; [exact H|].
  replace (2 * ln 2) with (ln 4).
  - rewrite <- (ln_exp 1). left. apply ln_increasing; [apply exp_pos|]. pose proof exp_le_3. lra.
  - replace 4 with (2 * 2) by ring. rewrite ln_mult by lra. ring.
Qed.

Lemma tail_small mu n : 0 <= mu <= IZR (2 ^ 28) -> (2 ^ 31 - 1 <= Z.of_nat n)%Z ->
  (/ 2) ^ n * exp (2 * mu) <= / IZR (2 ^ 53).
Proof.
  intros Hm Hn. apply IZR_le in Hn. rewrite <- INR_IZR_INZ in Hn.
  change (IZR (2 ^ 31 - 1)) with 2147483647 in Hn. change (IZR (2 ^ 28)) with 268435456 in Hm.
  apply Rle_trans with (Rpower 2 (- INR n) * Rpower 2 (2 * (2 * mu))).
  - apply Rmult_le_compat.
    + apply pow_le. lra.
    + left. apply exp_pos.
    + rewrite Rpower_Ropp, Rpower_pow by lra. rewrite pow_inv. lra.
    + apply exp_4. lra.
  - rewrite <- Rpower_plus. replace (/ IZR (2 ^ 53)) with (Rpower 2 (- INR 53)).
    + apply Rle_Rpower; [lra|]. rewrite (INR_IZR_INZ 53). change (IZR (Z.of_nat 53)) with 53. lra.
    + rewrite Rpower_Ropp, Rpower_pow by lra. f_equal. rewrite pow_IZR. reflexivity.
Qed.

(** the largest variate of uniformco<double> *)
Definition max_variate : R := 1 - / IZR (2 ^ 53).

Lemma poisson_reaches mu : 0 < mu <= IZR (2 ^ 28) -> max_variate <= poisson_cdf mu int_max.
Proof.
  intros Hm. unfold max_variate, poisson_cdf.
  rewrite (proj2 (Z.ltb_ge int_max 0)) by (unfold int_max; lia).
  unfold gammaQ_1. change (fun k => exp (- mu) * (mu ^ k / INR (fact k))) with (poisson_term mu).
  rewrite poisson_sum.
  assert (Hn : (2 ^ 31 - 1 <= Z.of_nat (S (Z.to_nat int_max)))%Z) by (unfold int_max; lia).
  assert (Hn' : (2 ^ 31 - 1 <= Z.of_nat (Z.to_nat int_max))%Z) by (unfold int_max; lia).
  generalize dependent (Z.to_nat int_max). intros n Hn Hn'.
  pose proof (exp_tail mu n ltac:(lra)) as H.
  apply Rmult_le_compat_l with (r := exp (- mu)) in H; [|left; apply exp_pos].
  rewrite <- exp_plus, Rplus_opp_l, exp_0, Rmult_plus_distr_l in H.
  assert (exp (- mu) <= 1).
  { rewrite <- exp_0. apply exp_le. lra. }
  assert (Hs : 0 <= (/ 2) ^ S n * exp (2 * mu)) by (apply Rmult_le_pos; [apply pow_le; lra|left; apply exp_pos]).
  pose proof (tail_small mu (S n) ltac:(lra) Hn) as Ht.
  assert (exp (- mu) * ((/ 2) ^ S n * exp (2 * mu)) <= 1 * ((/ 2) ^ S n * exp (2 * mu)))
    by (apply Rmult_le_compat_r; lra).
  lra.
Qed.

(** the loop condition x < 7 or x < 2 mu *)
Lemma poisson_go_spec mu x : poisson_go real_arith mu x = (x <? Z.max 7 (Zceil (2 * mu)))%Z.
Proof.
  unfold poisson_go. cbn [ltb mul ofz real_arith].
  destruct (Z.ltb_spec x 7), (Z.ltb_spec x (Z.max 7 (Zceil (2 * mu)))); cbn [orb]; try lia; auto.
  - apply Rlt_bool_true. apply Rnot_le_lt. intros Hc. apply Zceil_glb in Hc. lia.
  - apply Rlt_bool_false. apply Rle_trans with (1 := Zceil_ub _). apply IZR_le. lia.
Qed.

Lemma two_mu_bound mu : 0 < mu <= IZR (2 ^ 28) -> (Zceil (2 * mu) <= 2 ^ 29)%Z.
Proof. intros H. apply Zceil_glb. change (IZR (2 ^ 28)) with 268435456 in H. change (IZR (2 ^ 29)) with 536870912. lra. Qed.

(** poisson_dist: every mean up to 2^28 and every variate (other than the single value cdf(0)). *)
Theorem C55_poisson : forall mu u, 0 < mu <= IZR (2 ^ 28) -> 0 <= u <= max_variate ->
  u <> poisson_cdf mu 0 ->
  exists n T x, (forall fuel, (n <= fuel)%nat ->
      poisson_table real_arith fuel mu (poisson_cdf mu) = Some T /\
      sampler_draw real_arith fuel (poisson_pdf mu) (poisson_cdf mu) T u = Some x) /\
    quantile (poisson_cdf mu) 0 u x.
Proof.
  intros mu u Hm Hu Hne.
  set (K := Z.to_nat (Z.max 7 (Zceil (2 * mu)))).
  pose proof (two_mu_bound mu Hm) as H2.
  destruct (poisson_cumulative mu ltac:(lra)) as (Hs & Hp & H1).
  pose proof (poisson_reaches mu Hm) as Hr.
  destruct (sampler_ok _ _ Hs Hp H1 K u int_max) as (x & Hx & Hx0 & Hlt & Hge).
  - lia.
  - unfold int_max. lia.
  - assert (0 < / IZR (2 ^ 53)) by (apply Rinv_0_lt_compat, IZR_lt; reflexivity).
    unfold max_variate in Hu. lra.
  - lra.
  - exists (K + Z.to_nat int_max)%nat, (sampler_table (poisson_cdf mu) K), x. split.
    + intros fuel Hf. split; [|apply Hx; lia].
      unfold poisson_table. rewrite (cdf_table_ok (poisson_cdf mu) _ K K); try lia; auto.
      * intros y Hy. rewrite poisson_go_spec. apply Z.ltb_lt. lia.
      * rewrite poisson_go_spec. apply Z.ltb_ge. lia.
    + split; [exact Hx0|]. intros y Hy.
      destruct (Rle_lt_dec (poisson_cdf mu 0) u) as [Hc|Hc].
      * destruct (Hge Hc) as [Hx1 Hq]. destruct (Z.eq_dec y 0) as [->|Hy0].
        -- split; intros; [lia|lra].
        -- apply Hq. lia.
      * rewrite (Hlt Hc). split; [intros _|lia].
        apply Rle_trans with (poisson_cdf mu 0); [lra|]. apply (cdf_mono _ _ Hs Hp). lia.
Qed.

(** *** zero-truncated Poisson probabilities *)
Lemma expm1_pos mu : 0 < mu -> mu <= expm1 mu.
Proof. intros H. unfold expm1. pose proof (exp_ineq1 mu). lra. Qed.

Lemma ztp_cdf_eq mu x : 0 < mu -> (0 <= x)%Z ->
  ztp_cdf mu x = (exp mu * sum_f_R0 (poisson_term mu) (Z.to_nat x) - 1) / expm1 mu.
Proof.
  intros Hm Hx. unfold ztp_cdf, gammaQ_1. destruct (Z.leb_spec x 0).
  - assert (x = 0)%Z by lia. subst x. cbn. unfold poisson_term. cbn.
    replace (exp mu * (exp (- mu) * (1 / 1)) - 1) with 0; [unfold Rdiv; ring|].
    replace (exp mu * (exp (- mu) * (1 / 1))) with (exp (mu + - mu)) by (rewrite exp_plus; field).
    rewrite Rplus_opp_r, exp_0. ring.
  - reflexivity.
Qed.
Lemma ztp_pdf_eq mu x : 0 < mu -> (1 <= x)%Z ->
  ztp_pdf mu x = exp mu * poisson_term mu (Z.to_nat x) / expm1 mu.
Proof.
  intros Hm Hx. unfold ztp_pdf, poisson_term, ln_gamma_1. rewrite (proj2 (Z.leb_gt x 0)) by lia.
  replace (IZR x) with (INR (Z.to_nat x)) by (rewrite INR_IZR_INZ, Z2Nat.id by lia; reflexivity).
  rewrite exp_plus, exp_Ropp, exp_ln by apply fact_pos.
  rewrite exp_mult_ln by assumption. f_equal.
  rewrite <- Rmult_assoc, <- exp_plus, Rplus_opp_r, exp_0. unfold Rdiv. ring.
Qed.
Lemma ztp_cumulative mu : 0 < mu -> cumulative (ztp_pdf mu) (ztp_cdf mu).
Proof.
  intros Hm. pose proof (expm1_pos mu Hm) as He. unfold cumulative. repeat split; intros x Hx.
  - rewrite !ztp_cdf_eq, ztp_pdf_eq by (assumption || lia).
    replace (Z.to_nat (x + 1)) with (S (Z.to_nat x)) by lia. cbn [sum_f_R0]. field. lra.
  - rewrite ztp_pdf_eq by (assumption || lia).
    apply Rmult_le_pos; [|left; apply Rinv_0_lt_compat; lra].
    apply Rmult_le_pos; left; [apply exp_pos|now apply poisson_term_pos].
  - rewrite ztp_cdf_eq by (assumption || lia).
    apply Rmult_le_reg_r with (expm1 mu); [lra|].
    unfold Rdiv. rewrite Rmult_assoc, Rinv_l, Rmult_1_r, Rmult_1_l by lra.
    unfold expm1. pose proof (poisson_sum_1 mu (Z.to_nat x) ltac:(lra)) as H.
    apply Rmult_le_compat_l with (r := exp mu) in H; [lra|left; apply exp_pos].
Qed.

Lemma exp_tail_mu mu n : 0 <= mu ->
  exp mu <= sum_f_R0 (fun k => mu ^ k / INR (fact k)) (S n) + mu * ((/ 2) ^ S n * exp (2 * mu)).
Proof.
  intros Hm.
  assert (Hstep : forall k, mu ^ S k / INR (fact (S k)) <= mu * (mu ^ k / INR (fact k))).
  { intros k. cbn [pow]. unfold Rdiv. rewrite <- Rmult_assoc. apply Rmult_le_compat_l.
    - apply Rmult_le_pos; [exact Hm|now apply pow_le].
    - apply Rinv_le_contravar; [apply fact_pos|]. apply le_INR. cbn [fact]. lia. }
  assert (H : forall m, sum_f_R0 (fun k => mu ^ k / INR (fact k)) (S n + m) <=
     sum_f_R0 (fun k => mu ^ k / INR (fact k)) (S n) + mu * ((/ 2) ^ S n * exp (2 * mu))).
  { intros m.
    assert (Hm1 : forall m, sum_f_R0 (fun k => mu ^ k / INR (fact k)) (S n + m) -
              sum_f_R0 (fun k => mu ^ k / INR (fact k)) (S n) <=
            mu * (sum_f_R0 (fun k => mu ^ k / INR (fact k)) (n + m) -
              sum_f_R0 (fun k => mu ^ k / INR (fact k)) n)).
    { clear m. induction m.
      - rewrite !Nat.add_0_r. lra.
      - set (f := fun k => mu ^ k / INR (fact k)) in *.
        pose proof (tech5 f (S (n + m))) as E1. pose proof (tech5 f (n + m)) as E2.
        replace (S n + S m)%nat with (S (S (n + m))) by lia.
        replace (n + S m)%nat with (S (n + m)) by lia.
        replace (S n + m)%nat with (S (n + m)) in IHm by lia.
        assert (E3 : mu * sum_f_R0 f (S (n + m)) = mu * sum_f_R0 f (n + m) + mu * f (S (n + m)))
          by (rewrite E2; ring).
        specialize (Hstep (S (n + m))). fold (f (S (n + m))) in Hstep. fold (f (S (S (n + m)))) in Hstep.
        rewrite E1. lra. }
    specialize (Hm1 m).
    pose proof (exp_tail mu n Hm) as Ht. pose proof (exp_partial mu (n + m) Hm) as Hp.
    assert (mu * (sum_f_R0 (fun k => mu ^ k / INR (fact k)) (n + m) -
              sum_f_R0 (fun k => mu ^ k / INR (fact k)) n) <= mu * ((/ 2) ^ S n * exp (2 * mu)))
      by (apply Rmult_le_compat_l; lra).
    lra. }
  apply Rnot_lt_le. intros Hlt.
  destruct (exp_sum mu (exp mu - (sum_f_R0 (fun k => mu ^ k / INR (fact k)) (S n) + mu * ((/ 2) ^ S n * exp (2 * mu)))))
    as [N HN]; [lra|].
  specialize (HN (S n + N)%nat ltac:(lia)). specialize (H N).
  unfold R_dist in HN. rewrite Rabs_left1 in HN; lra.
Qed.

Lemma ztp_reaches mu : 0 < mu <= IZR (2 ^ 28) -> max_variate <= ztp_cdf mu int_max.
Proof.
  intros Hm. pose proof (expm1_pos mu ltac:(lra)) as He.
  rewrite ztp_cdf_eq by (unfold int_max; lra || lia).
  rewrite poisson_sum.
  assert (Hn : exists n, Z.to_nat int_max = S n /\ (2 ^ 31 - 1 <= Z.of_nat (S n))%Z).
  { exists (Z.to_nat int_max - 1)%nat. unfold int_max. lia. }
  destruct Hn as (n & -> & Hn).
  pose proof (exp_tail_mu mu n ltac:(lra)) as Ht.
  pose proof (tail_small mu (S n) ltac:(lra) Hn) as Hs.
  rewrite <- Rmult_assoc, <- exp_plus, Rplus_opp_r, exp_0, Rmult_1_l.
  apply Rmult_le_reg_r with (expm1 mu); [lra|].
  unfold Rdiv. rewrite Rmult_assoc, Rinv_l, Rmult_1_r by lra.
  unfold max_variate.
  assert (0 <= (/ 2) ^ S n * exp (2 * mu)) by (apply Rmult_le_pos; [apply pow_le; lra|left; apply exp_pos]).
  assert (mu * ((/ 2) ^ S n * exp (2 * mu)) <= expm1 mu * / IZR (2 ^ 53)).
  { apply Rmult_le_compat; lra. }
  unfold expm1 in *. lra.
Qed.

(** zero_truncated_poisson_dist: every mean up to 2^28 and every variate; 0 is never returned. *)
Theorem C55_zero_truncated : forall mu u, 0 < mu <= IZR (2 ^ 28) -> 0 <= u <= max_variate ->
  exists n T x, (forall fuel, (n <= fuel)%nat ->
      zero_truncated_table real_arith fuel mu (ztp_cdf mu) = Some T /\
      sampler_draw real_arith fuel (ztp_pdf mu) (ztp_cdf mu) T u = Some x) /\
    quantile (ztp_cdf mu) 1 u x.
Proof.
  intros mu u Hm Hu.
  set (K := Z.to_nat (Z.max 7 (Zceil (2 * mu)))).
  pose proof (two_mu_bound mu Hm) as H2.
  destruct (ztp_cumulative mu ltac:(lra)) as (Hs & Hp & H1).
  pose proof (ztp_reaches mu Hm) as Hr.
  destruct (sampler_ok _ _ Hs Hp H1 K u int_max) as (x & Hx & Hx0 & Hlt & Hge).
  - lia.
  - unfold int_max. lia.
  - assert (0 < / IZR (2 ^ 53)) by (apply Rinv_0_lt_compat, IZR_lt; reflexivity).
    unfold max_variate in Hu. lra.
  - lra.
  - exists (K + Z.to_nat int_max)%nat, (sampler_table (ztp_cdf mu) K), x. split.
    + intros fuel Hf. split; [|apply Hx; lia].
      unfold zero_truncated_table. rewrite (cdf_table_ok (ztp_cdf mu) _ (K - 1) (K - 1)); try lia; auto.
      * cbn [option_map]. f_equal. unfold sampler_table.
        replace K with (S (K - 1)) at 2 by lia. cbn [seq map app].
        f_equal. f_equal. rewrite <- seq_shift, map_map. apply map_ext. intros i. f_equal. lia.
      * intros y Hy. rewrite poisson_go_spec. apply Z.ltb_lt. lia.
      * rewrite poisson_go_spec. apply Z.ltb_ge. lia.
    + apply Hge. unfold ztp_cdf. cbn. lra.
Qed.

(** *** negative_binomial_dist: any probabilities; the variate and 1 - 1/4096 must be reached by some
    int X. *)
Theorem C55_negative_binomial : forall pdf cdf u X, cumulative pdf cdf -> u <= 1 -> u <> cdf 0%Z ->
  (0 <= X < int_max)%Z -> u <= cdf X -> 1 - 1 / 4096 <= cdf X ->
  exists n T x, (forall fuel, (n <= fuel)%nat ->
      negbin_table real_arith fuel cdf = Some T /\
      sampler_draw real_arith fuel pdf cdf T u = Some x) /\
    quantile cdf 0 u x.
Proof.
  intros pdf cdf u X (Hs & Hp & H1) Hu Hne HX HuX HtX.
  destruct (negbin_loop_ok cdf (Z.to_nat X) 0 0) as (K & HK & ET).
  - lra.
  - exists (Z.to_nat X). split; [lia|]. rewrite Z.add_0_l, Z2Nat.id by lia. exact HtX.
  - destruct (sampler_ok _ _ Hs Hp H1 K u (X + 1)) as (x & Hx & Hx0 & Hlt & Hge); try lia; auto.
    { rewrite Hs by lia. assert (0 <= pdf (X + 1)%Z) by (apply Hp; lia). lra. }
    exists (K + Z.to_nat (X + 1))%nat, (sampler_table cdf K), x. split.
    + intros fuel Hf. split; [|apply Hx; lia]. unfold negbin_table. apply ET. lia.
    + split; [exact Hx0|]. intros y Hy.
      destruct (Rle_lt_dec (cdf 0%Z) u) as [Hc|Hc].
      * destruct (Hge Hc) as [Hx1 Hq]. destruct (Z.eq_dec y 0) as [->|Hy0].
        -- split; intros; [lia|lra].
        -- apply Hq. lia.
      * rewrite (Hlt Hc). split; [intros _|lia].
        apply Rle_trans with (cdf 0%Z); [lra|]. apply (cdf_mono _ _ Hs Hp). lia.
Qed.

(** gammaQ_1 x is GammaQ(x+1, .): it is 1 at mu = 0 and its derivative is - mu^x e^(-mu) / x!. *)
Theorem C55_gammaQ : forall x mu, (0 <= x)%Z -> gammaQ_1 x 0 = 1 /\
  derivable_pt_lim (gammaQ_1 x) mu (- (exp (- mu) * (mu ^ Z.to_nat x / INR (fact (Z.to_nat x))))).
Proof.
  intros x mu Hx. unfold gammaQ_1. generalize (Z.to_nat x) as n. clear x Hx.
  assert (Hexp : forall m, derivable_pt_lim (fun m => exp (- m)) m (- exp (- m))).
  { intros m. replace (- exp (- m)) with (exp (- m) * (- 1)) by ring.
    apply (derivable_pt_lim_comp (fun m => - m) exp).
    - replace (-1) with (-(1)) by ring. apply (derivable_pt_lim_opp id). apply derivable_pt_lim_id.
    - apply derivable_pt_lim_exp. }
  intros n. split.
  - induction n.
    + cbn. rewrite Ropp_0, exp_0. field.
    + cbn [sum_f_R0]. rewrite IHn. cbn [pow]. unfold Rdiv. rewrite Rmult_0_l. ring.
  - induction n.
    + cbn [sum_f_R0]. cbn [pow fact INR].
      replace (- (exp (- mu) * (1 / 1))) with (- exp (- mu) * (1 / 1) + exp (- mu) * 0) by field.
      apply (derivable_pt_lim_mult (fun m => exp (- m)) (fun _ => 1 / 1)).
      * apply Hexp.
      * apply (derivable_pt_lim_const (1 / 1)).
    + cbn [sum_f_R0].
      replace (- (exp (- mu) * (mu ^ S n / INR (fact (S n))))) with
        (- (exp (- mu) * (mu ^ n / INR (fact n))) +
         (- exp (- mu) * (mu ^ S n / INR (fact (S n))) + exp (- mu) * (INR (S n) * mu ^ n / INR (fact (S n))))).
      * apply (derivable_pt_lim_plus (fun m => sum_f_R0 (fun k => exp (- m) * (m ^ k / INR (fact k))) n)
                 (fun m => exp (- m) * (m ^ S n / INR (fact (S n))))); [exact IHn|].
        apply (derivable_pt_lim_mult (fun m => exp (- m)) (fun m => m ^ S n / INR (fact (S n)))); [apply Hexp|].
        unfold Rdiv. 
        replace (INR (S n) * mu ^ n * / INR (fact (S n))) with
          (INR (S n) * mu ^ n * / INR (fact (S n)) + mu ^ S n * 0) by ring.
        apply (derivable_pt_lim_mult (fun m => m ^ S n) (fun _ => / INR (fact (S n)))).
        -- apply (derivable_pt_lim_pow mu (S n)).
        -- apply derivable_pt_lim_const.
      * replace (INR (fact (S n))) with (INR (S n) * INR (fact n)) by (rewrite <- mult_INR; reflexivity).
        field. split; [apply not_0_INR; apply fact_neq_0|apply not_0_INR; lia].
Qed.
(** for the single variate u = cdf(0) the least value with cdf >= u is 0, but 1 is returned *)
Theorem C55_every_variate_refuted : exists mu u, 0 < mu <= IZR (2 ^ 28) /\ 0 <= u <= max_variate /\
  exists n T x, (forall fuel, (n <= fuel)%nat ->
      poisson_table real_arith fuel mu (poisson_cdf mu) = Some T /\
      sampler_draw real_arith fuel (poisson_pdf mu) (poisson_cdf mu) T u = Some x) /\
    ~ quantile (poisson_cdf mu) 0 u x.
Proof.
  assert (E0 : poisson_cdf 1 0 = exp (- (1))).
  { unfold poisson_cdf, gammaQ_1. cbn. field. }
  assert (He : exp (- (1)) <= / 2).
  { rewrite exp_Ropp. apply Rinv_le_contravar; [lra|]. pose proof (exp_ineq1 1). lra. }
  assert (Hm : 0 < 1 <= IZR (2 ^ 28)) by (split; [lra|apply IZR_le; lia]).
  assert (Hv : poisson_cdf 1 0 <= max_variate).
  { rewrite E0. unfold max_variate.
    assert (/ IZR (2 ^ 53) <= / 2) by (apply Rinv_le_contravar; [lra|apply IZR_le; lia]). lra. }
  exists 1, (poisson_cdf 1 0). split; [exact Hm|]. split.
  { split; [rewrite E0; left; apply exp_pos|exact Hv]. }
  set (K := Z.to_nat (Z.max 7 (Zceil (2 * 1)))).
  pose proof (two_mu_bound 1 Hm) as H2.
  destruct (poisson_cumulative 1 ltac:(lra)) as (Hs & Hp & H1).
  pose proof (poisson_reaches 1 Hm) as Hr.
  destruct (sampler_ok _ _ Hs Hp H1 K (poisson_cdf 1 0) int_max) as (x & Hx & Hx0 & Hlt & Hge).
  - lia.
  - unfold int_max. lia.
  - apply H1. lia.
  - lra.
  - exists (K + Z.to_nat int_max)%nat, (sampler_table (poisson_cdf 1) K), x. split.
    + intros fuel Hf. split; [|apply Hx; lia].
      unfold poisson_table. rewrite (cdf_table_ok (poisson_cdf 1) _ K K); try lia; auto.
      * intros y Hy. rewrite poisson_go_spec. apply Z.ltb_lt. lia.
      * rewrite poisson_go_spec. apply Z.ltb_ge. lia.
    + intros [_ Hq]. destruct (Hge (Rle_refl _)) as [Hx1 _].
      pose proof (proj2 (Hq 0%Z (Z.le_refl 0)) (Rle_refl _)). lia.
Qed.

Example C55_ex : exists n T x, (forall fuel, (n <= fuel)%nat ->
      zero_truncated_table real_arith fuel 2.5 (ztp_cdf 2.5) = Some T /\
      sampler_draw real_arith fuel (ztp_pdf 2.5) (ztp_cdf 2.5) T 0.75 = Some x) /\
    quantile (ztp_cdf 2.5) 1 0.75 x.
Proof.
  apply C55_zero_truncated.
  - split; [lra|]. apply Rle_trans with 3; [lra|]. apply IZR_le. lia.
  - unfold max_variate. assert (/ IZR (2 ^ 53) <= / 4) by (apply Rinv_le_contravar; [lra|apply IZR_le; lia]).
    lra.
Qed.

(** ** C46 *)

(** binomial coefficients by Pascal's rule: 0 outside 0 <= k <= n *)
Fixpoint choose (n k : nat) : nat :=
  match n, k with
  | _, O => 1
  | O, S _ => 0
  | S n', S k' => choose n' k' + choose n' k
  end.

Lemma choose_0 n : choose n 0 = 1%nat.
Proof. now destruct n. Qed.
Lemma choose_gt n : forall k, (n < k)%nat -> choose n k = 0%nat.
Proof.
  induction n; intros [|k] H; try lia; auto. cbn. rewrite !IHn by lia. reflexivity.
Qed.
Lemma choose_diag n : choose n n = 1%nat.
Proof. induction n; auto. cbn. rewrite IHn, choose_gt by lia. reflexivity. Qed.
Lemma choose_fact n : forall k, (k <= n)%nat ->
  (choose n k * (fact k * fact (n - k)) = fact n)%nat.
Proof.
  induction n; intros [|k] H; try lia; auto.
  - rewrite choose_0. cbn [fact]. rewrite Nat.sub_0_r. cbn [fact]. lia.
  - cbn [choose]. destruct (Nat.eq_dec k n) as [->|Hk].
    + rewrite choose_diag, choose_gt by lia. rewrite Nat.sub_diag. cbn. lia.
    + pose proof (IHn k ltac:(lia)) as H1. pose proof (IHn (S k) ltac:(lia)) as H2.
      replace (S n - S k)%nat with (n - k)%nat by lia.
      replace (n - k)%nat with (S (n - S k)) in * by lia.
      replace (S (n - S k) - 1)%nat with (n - S k)%nat in * by lia.
      set (a := (n - S k)%nat) in *. set (c := choose n k) in *. set (d := choose n (S k)) in *.
      assert (Ha : n = (S k + a)%nat) by lia.
      change (fact (S n)) with ((S n) * fact n)%nat.
      change (fact (S k)) with ((S k) * fact k)%nat in *.
      change (fact (S a)) with ((S a) * fact a)%nat in *.
      replace ((c + d) * (S k * fact k * (S a * fact a)))%nat with
        (S k * (c * (fact k * (S a * fact a))) + S a * (d * (S k * fact k * fact a)))%nat by lia.
      rewrite H1, H2. lia.
Qed.
Lemma choose_pos n k : (k <= n)%nat -> (0 < choose n k)%nat.
Proof. intros H. pose proof (choose_fact n k H). pose proof (lt_O_fact n). destruct (choose n k); lia. Qed.

(** sum of f over 0 .. n *)
Fixpoint nsum (f : nat -> nat) (n : nat) : nat :=
  match n with O => f O | S m => (nsum f m + f (S m))%nat end.
Lemma nsum_ext f g n : (forall i, (i <= n)%nat -> f i = g i) -> nsum f n = nsum g n.
Proof. induction n; intros H; cbn; [apply H; lia|]. rewrite IHn, H by (intros; try apply H; lia). reflexivity. Qed.
Lemma nsum_plus f g n : nsum (fun i => f i + g i)%nat n = (nsum f n + nsum g n)%nat.
Proof. induction n; cbn; lia. Qed.
Lemma nsum_shift f n : nsum f (S n) = (f 0 + nsum (fun i => f (S i)) n)%nat.
Proof. induction n; cbn in *; lia. Qed.
Lemma nsum_0 n : nsum (fun _ => 0%nat) n = 0%nat.
Proof. induction n; cbn; lia. Qed.

Lemma vandermonde a b : forall d, nsum (fun x => choose a x * choose b (d - x))%nat d = choose (a + b) d.
Proof.
  induction a; intros d.
  - cbn [plus]. destruct d as [|d].
    + cbn. rewrite choose_0. lia.
    + rewrite nsum_shift. cbn [choose Nat.sub].
      rewrite (nsum_ext _ (fun _ => 0%nat)), nsum_0 by (intros; cbn; lia). lia.
  - destruct d as [|d].
    + cbn. rewrite !choose_0. lia.
    + rewrite nsum_shift.
      rewrite (nsum_ext _ (fun x => choose a x * choose b (d - x) + choose a (S x) * choose b (d - x))%nat).
      2:{ intros i Hi. cbn [choose]. replace (S d - S i)%nat with (d - i)%nat by lia. lia. }
      rewrite nsum_plus, IHa. cbn [plus]. cbn [choose].
      pose proof (IHa (S d)) as H. rewrite nsum_shift in H.
      rewrite (nsum_ext (fun i => choose a (S i) * choose b (S d - S i))%nat
                 (fun x => choose a (S x) * choose b (d - x))%nat) in H.
      2:{ intros i Hi. replace (S d - S i)%nat with (d - i)%nat by lia. lia. }
      rewrite choose_0 in *. cbn [choose] in *. lia.
Qed.

(** the weight the code computes *)
Lemma ln_binomial_choose a b : (0 <= b <= a)%Z ->
  exp (ln_binomial_R a b) = INR (choose (Z.to_nat a) (Z.to_nat b)).
Proof.
  intros H. unfold ln_binomial_R, ln_gamma_1, Rminus.
  rewrite !exp_plus, !exp_Ropp, !exp_ln by apply fact_pos.
  replace (Z.to_nat (a - b)) with (Z.to_nat a - Z.to_nat b)%nat by lia.
  pose proof (choose_fact (Z.to_nat a) (Z.to_nat b) ltac:(lia)) as E.
  rewrite <- E at 1. rewrite !mult_INR. field. split; apply not_0_INR, fact_neq_0.
Qed.

Definition hyper_weight (n m : Z) (x : Z) : R :=
  INR (choose (Z.to_nat m) (Z.to_nat x) * choose (Z.to_nat (n - m)) (Z.to_nat (m - x))).

Lemma hyper_table_eq n m d : (0 <= d)%Z -> (0 <= m <= n)%Z -> (d <= n)%Z ->
  (forall x, (hyper_min n m d <= x <= hyper_max m d)%Z -> (m - x <= n - m)%Z) ->
  hyper_table real_arith exp ln_binomial_R n m d =
  normalise real_arith (cumulate real_arith (map (hyper_weight n m) (zrange (hyper_min n m d) (hyper_max m d)))).
Proof.
  intros Hd Hm Hdn Hx. unfold hyper_table. f_equal. f_equal.
  apply map_ext_in. intros x Hin. unfold zrange in Hin. apply in_map_iff in Hin.
  destruct Hin as (i & <- & Hi). apply in_seq in Hi.
  assert (H : (hyper_min n m d <= hyper_min n m d + Z.of_nat i <= hyper_max m d)%Z) by lia.
  set (x := (hyper_min n m d + Z.of_nat i)%Z) in *. specialize (Hx x H).
  unfold hyper_min, hyper_max in H.
  change (add real_arith (ln_binomial_R m x) (ln_binomial_R (n - m) (m - x))) with
    (ln_binomial_R m x + ln_binomial_R (n - m) (m - x)).
  rewrite exp_plus, !ln_binomial_choose by lia. unfold hyper_weight. now rewrite mult_INR.
Qed.

Lemma zrange_length lo hi : length (zrange lo hi) = Z.to_nat (hi - lo + 1).
Proof. unfold zrange. now rewrite map_length, seq_length. Qed.
Lemma zrange_nth lo hi i d : (i < Z.to_nat (hi - lo + 1))%nat -> nth i (zrange lo hi) d = (lo + Z.of_nat i)%Z.
Proof.
  intros H. unfold zrange.
  rewrite nth_indep with (d' := (lo + Z.of_nat 0)%Z) by (rewrite map_length, seq_length; lia).
  rewrite (map_nth (fun i => (lo + Z.of_nat i)%Z)). rewrite seq_nth by lia. reflexivity.
Qed.
Lemma map_zrange_nth (f : Z -> R) lo hi i : (i < Z.to_nat (hi - lo + 1))%nat ->
  nth i (map f (zrange lo hi)) 0 = f (lo + Z.of_nat i)%Z.
Proof.
  intros H. rewrite nth_indep with (d' := f lo) by (rewrite map_length, zrange_length; lia).
  rewrite map_nth. now rewrite zrange_nth.
Qed.
(** partial sums over a range *)
Lemma prefix_zrange (f : Z -> R) lo hi i : (i <= Z.to_nat (hi - lo + 1))%nat ->
  prefix (map f (zrange lo hi)) i = zsum f lo i.
Proof.
  induction i; intros H; [reflexivity|].
  rewrite prefix_S, IHi by lia. cbn [zsum]. now rewrite map_zrange_nth by lia.
Qed.

Lemma zsum_ext f g lo n : (forall i, (i < n)%nat -> f (lo + Z.of_nat i)%Z = g (lo + Z.of_nat i)%Z) ->
  zsum f lo n = zsum g lo n.
Proof. induction n; intros H; cbn; auto. rewrite IHn, H by (intros; try apply H; lia). reflexivity. Qed.
Lemma zsum_split f lo n m : zsum f lo (n + m) = zsum f lo n + zsum f (lo + Z.of_nat n) m.
Proof.
  induction m; cbn; [rewrite Nat.add_0_r; lra|].
  replace (n + S m)%nat with (S (n + m)) by lia. cbn [zsum]. rewrite IHm.
  replace (lo + Z.of_nat n + Z.of_nat m)%Z with (lo + Z.of_nat (n + m))%Z by lia. lra.
Qed.
Lemma zsum_zero f lo n : (forall i, (i < n)%nat -> f (lo + Z.of_nat i)%Z = 0) -> zsum f lo n = 0.
Proof. induction n; intros H; cbn; auto. rewrite IHn, H by (intros; try apply H; lia). lra. Qed.
Lemma zsum_nsum (g : nat -> nat) n : zsum (fun x => INR (g (Z.to_nat x))) 0 (S n) = INR (nsum g n).
Proof.
  induction n; [cbn; lra|].
  change (zsum (fun x => INR (g (Z.to_nat x))) 0 (S (S n))) with
    (zsum (fun x => INR (g (Z.to_nat x))) 0 (S n) + INR (g (Z.to_nat (0 + Z.of_nat (S n))))).
  rewrite IHn. cbn [nsum]. rewrite plus_INR. do 3 f_equal. lia.
Qed.

Lemma hyper_total n m : (0 <= m <= n)%Z ->
  zsum (hyper_weight n m) (hyper_min n m m) (Z.to_nat (hyper_max m m - hyper_min n m m + 1)) =
  INR (choose (Z.to_nat n) (Z.to_nat m)).
Proof.
  intros H. unfold hyper_min, hyper_max. rewrite Z.min_id.
  set (lo := Z.max 0 (m - n + m)).
  assert (E : zsum (hyper_weight n m) 0 (S (Z.to_nat m)) = INR (choose (Z.to_nat n) (Z.to_nat m))).
  { replace (Z.to_nat n) with (Z.to_nat m + Z.to_nat (n - m))%nat by lia.
    rewrite <- vandermonde, <- zsum_nsum. apply zsum_ext. intros i Hi.
    unfold hyper_weight. do 3 f_equal. lia. }
  rewrite <- E.
  replace (S (Z.to_nat m)) with (Z.to_nat lo + Z.to_nat (m - lo + 1))%nat by lia.
  rewrite zsum_split. rewrite (zsum_zero _ 0 (Z.to_nat lo)).
  - rewrite Z.add_0_l, Z2Nat.id by lia. lra.
  - intros i Hi. unfold hyper_weight. rewrite (choose_gt (Z.to_nat (n - m))) by lia.
    rewrite Nat.mul_0_r. reflexivity.
Qed.

(** The probabilities of the textbook: x white balls among d drawn from n balls of which m are white. *)
Definition hypergeometric_probability (n m d x : nat) : R :=
  INR (choose m x * choose (n - m) (d - x)) / INR (choose n d).

(** Exact arithmetic, d = m: pdf and cdf are right, and a draw is the quantile. *)
Theorem C46_d_equals_m : forall n m, (0 <= m <= n)%Z ->
  let pdf := hyper_pdf real_arith exp ln_binomial_R n m m in
  let cdf := hyper_cdf real_arith exp ln_binomial_R n m m in
  (forall x, (0 <= x <= m)%Z ->
     pdf x = Some (hypergeometric_probability (Z.to_nat n) (Z.to_nat m) (Z.to_nat m) (Z.to_nat x))) /\
  (forall x, (x < 0 \/ m < x)%Z -> pdf x = Some 0) /\
  (forall x, (0 <= x <= m)%Z -> cdf x = Some (zsum (fun y =>
     hypergeometric_probability (Z.to_nat n) (Z.to_nat m) (Z.to_nat m) (Z.to_nat y)) 0 (S (Z.to_nat x)))).
Proof.
  intros n m H pdf cdf.
  set (lo := hyper_min n m m). set (hi := hyper_max m m).
  assert (Hlo : lo = Z.max 0 (m - n + m)) by reflexivity.
  assert (Hhi : hi = m) by (unfold hi, hyper_max; apply Z.min_id).
  set (ws := map (hyper_weight n m) (zrange lo hi)).
  assert (ET : hyper_table real_arith exp ln_binomial_R n m m = normalise real_arith (cumulate real_arith ws)).
  { apply hyper_table_eq; lia. }
  assert (Hlen : length ws = Z.to_nat (hi - lo + 1)) by (unfold ws; rewrite map_length; apply zrange_length).
  assert (Hne : ws <> []). { intros E. rewrite E in Hlen. cbn in Hlen. lia. }
  assert (Htot : prefix ws (length ws) = INR (choose (Z.to_nat n) (Z.to_nat m))).
  { rewrite Hlen. unfold ws. rewrite prefix_zrange by lia. apply hyper_total. lia. }
  assert (Hc : 0 < INR (choose (Z.to_nat n) (Z.to_nat m))).
  { apply lt_0_INR. apply choose_pos. lia. }
  assert (Hzero : forall x, (0 <= x < lo)%Z ->
     hypergeometric_probability (Z.to_nat n) (Z.to_nat m) (Z.to_nat m) (Z.to_nat x) = 0).
  { intros x Hx. unfold hypergeometric_probability.
    rewrite (choose_gt (Z.to_nat n - Z.to_nat m)) by lia. rewrite Nat.mul_0_r. cbn. unfold Rdiv. ring. }
  assert (Hw : forall x, (lo <= x <= hi)%Z -> hyper_weight n m x / INR (choose (Z.to_nat n) (Z.to_nat m)) =
     hypergeometric_probability (Z.to_nat n) (Z.to_nat m) (Z.to_nat m) (Z.to_nat x)).
  { intros x Hx. unfold hyper_weight, hypergeometric_probability. do 4 f_equal; lia. }
  split; [|split].
  - intros x Hx. unfold pdf, hyper_pdf. fold lo hi. destruct (Z.lt_ge_cases x lo) as [Hl|Hl].
    + unfold table_pdf. rewrite (proj2 (Z.ltb_lt x lo)) by lia. cbn [orb].
      rewrite Hzero by lia. reflexivity.
    + rewrite ET, (table_pdf_ok ws Hne) by lia. rewrite Htot. f_equal.
      unfold ws. rewrite map_zrange_nth by lia.
      rewrite <- Hw by lia. do 2 f_equal. lia.
  - intros x Hx. unfold pdf, hyper_pdf, table_pdf. fold lo hi.
    destruct (Z.ltb_spec x lo), (Z.ltb_spec hi x); try lia; reflexivity.
  - intros x Hx. unfold cdf, hyper_cdf. fold lo hi. destruct (Z.lt_ge_cases x lo) as [Hl|Hl].
    + unfold table_cdf. rewrite (proj2 (Z.ltb_lt x lo)) by lia.
      rewrite zsum_zero by (intros i Hi; apply Hzero; lia). reflexivity.
    + rewrite ET, (table_cdf_ok ws Hne) by lia. rewrite Htot. f_equal.
      unfold ws. rewrite prefix_zrange by lia.
      replace (S (Z.to_nat x)) with (Z.to_nat lo + S (Z.to_nat (x - lo)))%nat by lia.
      rewrite zsum_split. rewrite (zsum_zero _ 0 (Z.to_nat lo)) by (intros i Hi; apply Hzero; lia).
      rewrite Z.add_0_l, Z2Nat.id by lia. rewrite Rplus_0_l.
      assert (Hs : forall k, (k <= Z.to_nat (hi - lo + 1))%nat ->
        zsum (hyper_weight n m) lo k / INR (choose (Z.to_nat n) (Z.to_nat m)) =
        zsum (fun y => hypergeometric_probability (Z.to_nat n) (Z.to_nat m) (Z.to_nat m) (Z.to_nat y)) lo k).
      { induction k; intros Hk; cbn [zsum]; [unfold Rdiv; ring|].
        rewrite <- IHk, <- Hw by lia. unfold Rdiv. ring. }
      apply Hs. lia.
Qed.

(** In general the code is wrong: n = 10 balls, m = 3 white, d = 2 drawn. *)
Theorem C46_refuted : exists n m d x, (0 <= m <= n)%Z /\ (0 <= d <= n)%Z /\ (0 <= x <= d)%Z /\
  hyper_pdf real_arith exp ln_binomial_R n m d x <>
  Some (hypergeometric_probability (Z.to_nat n) (Z.to_nat m) (Z.to_nat d) (Z.to_nat x)).
Proof.
  exists 10%Z, 3%Z, 2%Z, 0%Z. split; [lia|]. split; [lia|]. split; [lia|].
  unfold hyper_pdf. rewrite hyper_table_eq by (unfold hyper_min, hyper_max; lia).
  rewrite table_pdf_ok.
  - change (map (hyper_weight 10 3) (zrange (hyper_min 10 3 2) (hyper_max 3 2))) with
      [hyper_weight 10 3 0; hyper_weight 10 3 1; hyper_weight 10 3 2].
    change (Z.to_nat (0 - hyper_min 10 3 2)) with 0%nat.
    assert (W0 : hyper_weight 10 3 0 = 35) by (unfold hyper_weight; rewrite INR_IZR_INZ; reflexivity).
    assert (W1 : hyper_weight 10 3 1 = 63) by (unfold hyper_weight; rewrite INR_IZR_INZ; reflexivity).
    assert (W2 : hyper_weight 10 3 2 = 21) by (unfold hyper_weight; rewrite INR_IZR_INZ; reflexivity).
    assert (Q : hypergeometric_probability (Z.to_nat 10) (Z.to_nat 3) (Z.to_nat 2) (Z.to_nat 0) = 21 / 45)
      by (unfold hypergeometric_probability; rewrite !INR_IZR_INZ; reflexivity).
    rewrite Q, W0, W1, W2. unfold prefix. cbn [nth firstn length fold_right].
    intros E. apply (f_equal (fun o => match o with Some r => r | None => 0 end)) in E. lra.
  - discriminate.
  - reflexivity.
  - unfold hyper_min, hyper_max. lia.
Qed.

Example C46_ex : hyper_pdf real_arith exp ln_binomial_R 10 3 3 1 = Some (63 / 120).
Proof.
  destruct (C46_d_equals_m 10 3 ltac:(lia)) as [H _]. rewrite H by lia.
  unfold hypergeometric_probability. rewrite !INR_IZR_INZ. reflexivity.
Qed.

(** The draw is the quantile of these probabilities, for every variate except u = cdf(min()). *)
Theorem C46_draw : forall n m u, (0 <= m <= n)%Z -> (m <= int_max)%Z -> 0 < u <= 1 ->
  Some u <> hyper_cdf real_arith exp ln_binomial_R n m m (hyper_min n m m) ->
  exists x, hyper_draw real_arith exp ln_binomial_R n m m u = Some x /\ (0 <= x <= m)%Z /\
    forall y, (0 <= y <= m)%Z -> (x <= y)%Z <-> u <= zsum (fun y =>
      hypergeometric_probability (Z.to_nat n) (Z.to_nat m) (Z.to_nat m) (Z.to_nat y)) 0 (S (Z.to_nat y)).
Proof.
  intros n m u H Hm Hu Hne0.
  destruct (C46_d_equals_m n m H) as (_ & _ & Hcdf).
  set (F := fun y => zsum (fun y =>
    hypergeometric_probability (Z.to_nat n) (Z.to_nat m) (Z.to_nat m) (Z.to_nat y)) 0 (S (Z.to_nat y))).
  change (forall x, (0 <= x <= m)%Z -> hyper_cdf real_arith exp ln_binomial_R n m m x = Some (F x)) in Hcdf.
  set (lo := hyper_min n m m) in *. set (hi := hyper_max m m).
  assert (Hlo : lo = Z.max 0 (m - n + m)) by reflexivity.
  assert (Hhi : hi = m) by (unfold hi, hyper_max; apply Z.min_id).
  set (ws := map (hyper_weight n m) (zrange lo hi)).
  assert (ET : hyper_table real_arith exp ln_binomial_R n m m = normalise real_arith (cumulate real_arith ws)).
  { apply hyper_table_eq; lia. }
  assert (Hlen : length ws = Z.to_nat (hi - lo + 1)) by (unfold ws; rewrite map_length; apply zrange_length).
  assert (Hne : ws <> []). { intros E. rewrite E in Hlen. cbn in Hlen. lia. }
  assert (Htot : prefix ws (length ws) = INR (choose (Z.to_nat n) (Z.to_nat m))).
  { rewrite Hlen. unfold ws. rewrite prefix_zrange by lia. apply hyper_total. lia. }
  assert (Hc : 0 < prefix ws (length ws)).
  { rewrite Htot. apply lt_0_INR. apply choose_pos. lia. }
  assert (Hnn : Forall (fun w => 0 <= w) ws).
  { apply Forall_forall. intros w Hw. apply in_map_iff in Hw. destruct Hw as (x & <- & _). apply pos_INR. }
  (* the code's cdf is the table *)
  assert (HF : forall x, (lo <= x <= m)%Z -> F x = prefix ws (S (Z.to_nat (x - lo))) / prefix ws (length ws)).
  { intros x Hx. pose proof (Hcdf x ltac:(lia)) as E. unfold hyper_cdf in E. fold lo hi in E.
    rewrite ET, (table_cdf_ok ws Hne) in E by lia. injection E as E. symmetry. exact E. }
  assert (HF0 : forall x, (0 <= x < lo)%Z -> F x = 0).
  { intros x Hx. pose proof (Hcdf x ltac:(lia)) as E. unfold hyper_cdf, table_cdf in E. fold lo hi in E.
    rewrite (proj2 (Z.ltb_lt x lo)) in E by lia. injection E as E. symmetry. exact E. }
  destruct (table_draw ws Hne Hnn Hc u) as (k & Hk & Hkl & Hq).
  - lra.
  - rewrite table_nth by (assumption || lia).
    intros E. apply Hne0. rewrite Hcdf by lia. f_equal. change (u = F lo). rewrite HF by lia.
    rewrite Z.sub_diag. exact E.
  - exists (lo + Z.of_nat k)%Z. unfold hyper_draw. rewrite ET, Hk. cbn [bind]. fold lo.
    split; [|split; [lia|]].
    + unfold as_int. rewrite (proj2 (Z.leb_le _ _)), (proj2 (Z.leb_le _ _)); [reflexivity|lia|unfold int_min; lia].
    + intros y Hy. change (zsum _ 0 (S (Z.to_nat y))) with (F y).
      destruct (Z.lt_ge_cases y lo) as [Hl|Hl].
      * rewrite HF0 by lia. split; intros; [lia|lra].
      * rewrite HF by lia. rewrite <- Hq by lia. lia.
Qed.

(** ** C65: binomial_dist *)

(** the probability of x successes in n trials *)
Definition binomial_probability (n x : nat) (p : R) : R := INR (choose n x) * p ^ x * (1 - p) ^ (n - x).

Lemma choose_C n k : (k <= n)%nat -> INR (choose n k) = C n k.
Proof.
  intros H. unfold C. rewrite <- (choose_fact n k H). rewrite !mult_INR. field.
  split; apply not_0_INR, fact_neq_0.
Qed.

Lemma sum_zsum (f : nat -> R) n : zsum (fun x => f (Z.to_nat x)) 0 (S n) = sum_f_R0 f n.
Proof.
  induction n; [cbn; lra|].
  change (zsum (fun x => f (Z.to_nat x)) 0 (S (S n))) with
    (zsum (fun x => f (Z.to_nat x)) 0 (S n) + f (Z.to_nat (0 + Z.of_nat (S n)))).
  rewrite IHn. rewrite Z.add_0_l, Nat2Z.id. reflexivity.
Qed.

Lemma binomial_total n p : zsum (fun x => binomial_probability n (Z.to_nat x) p) 0 (S n) = 1.
Proof.
  rewrite (sum_zsum (fun x => binomial_probability n x p)).
  transitivity ((p + (1 - p)) ^ n).
  - rewrite binomial. apply sum_eq. intros i Hi. unfold binomial_probability. now rewrite choose_C by lia.
  - replace (p + (1 - p)) with 1 by lra. apply pow1.
Qed.

Lemma exp_INR_ln x n : 0 < x -> exp (INR n * ln x) = x ^ n.
Proof. intros. now apply exp_mult_ln. Qed.

Lemma choose_step n i : (i < n)%nat -> (choose n (S i) * S i = choose n i * (n - i))%nat.
Proof.
  intros H. pose proof (choose_fact n i ltac:(lia)) as H1. pose proof (choose_fact n (S i) ltac:(lia)) as H2.
  replace (n - i)%nat with (S (n - S i)) in * by lia.
  change (fact (S i)) with (S i * fact i)%nat in H2.
  change (fact (S (n - S i))) with (S (n - S i) * fact (n - S i))%nat in H1.
  pose proof (lt_O_fact i). pose proof (lt_O_fact (n - S i)).
  apply (Nat.mul_cancel_r _ _ (fact i * fact (n - S i))); [apply Nat.neq_mul_0; lia|].
  transitivity (fact n); [rewrite <- H2; lia|rewrite <- H1; lia].
Qed.

Lemma binomial_weights_eq p n : 0 < p < 1 -> (0 <= n)%Z -> forall k i, (Z.of_nat k + i = n + 1)%Z -> (0 <= i)%Z ->
  forall lb : R, (k <> 0%nat -> lb = ln (INR (choose (Z.to_nat n) (Z.to_nat i)))) ->
  binomial_weights real_arith ln exp p n k i lb =
  map (fun j => binomial_probability (Z.to_nat n) (Z.to_nat (i + Z.of_nat j)) p) (seq 0 k).
Proof.
  intros Hp Hn. induction k; intros i Hi Hi0 lb Hlb; [reflexivity|].
  cbn [binomial_weights seq map]. f_equal.
  - rewrite Z.add_0_r. rewrite (Hlb ltac:(lia)).
    change (exp (ln (INR (choose (Z.to_nat n) (Z.to_nat i))) + IZR i * ln p + IZR (n - i) * ln (1 - p)) =
      binomial_probability (Z.to_nat n) (Z.to_nat i) p).
    rewrite !exp_plus, exp_ln by (apply lt_0_INR, choose_pos; lia).
    replace (IZR i) with (INR (Z.to_nat i)) by (rewrite INR_IZR_INZ; f_equal; lia).
    replace (IZR (n - i)) with (INR (Z.to_nat (n - i))) by (rewrite INR_IZR_INZ; f_equal; lia).
    rewrite !exp_INR_ln by lra. unfold binomial_probability. do 2 f_equal. lia.
  - rewrite IHk.
    + rewrite <- seq_shift, map_map. apply map_ext. intros j. do 2 f_equal. lia.
    + lia.
    + lia.
    + intros Hk. rewrite (Hlb ltac:(lia)).
      change (ln (INR (choose (Z.to_nat n) (Z.to_nat i))) + ln (IZR (n - i)) - ln (IZR (i + 1)) =
        ln (INR (choose (Z.to_nat n) (Z.to_nat (i + 1))))).
      assert (Hc : 0 < INR (choose (Z.to_nat n) (Z.to_nat i))) by (apply lt_0_INR, choose_pos; lia).
      assert (Hc' : 0 < INR (choose (Z.to_nat n) (Z.to_nat (i + 1)))) by (apply lt_0_INR, choose_pos; lia).
      assert (0 < IZR (n - i)) by (apply IZR_lt; lia).
      assert (0 < IZR (i + 1)) by (apply IZR_lt; lia).
      rewrite <- ln_mult by assumption.
      apply Rplus_eq_reg_r with (ln (IZR (i + 1))). rewrite <- (ln_mult (INR (choose _ (Z.to_nat (i + 1))))) by assumption.
      unfold Rminus. rewrite Rplus_assoc, Rplus_opp_l, Rplus_0_r. f_equal.
      replace (IZR (n - i)) with (INR (Z.to_nat n - Z.to_nat i)) by (rewrite INR_IZR_INZ; f_equal; lia).
      replace (IZR (i + 1)) with (INR (S (Z.to_nat i))) by (rewrite INR_IZR_INZ; f_equal; lia).
      rewrite <- !mult_INR. f_equal. replace (Z.to_nat (i + 1)) with (S (Z.to_nat i)) by lia.
      symmetry. apply choose_step. lia.
Qed.

Section Binomial.
Variable p : R.
Variable n : Z.
Hypothesis Hp : 0 < p < 1.
Hypothesis Hn : (0 <= n)%Z.
Let prob (x : Z) : R := binomial_probability (Z.to_nat n) (Z.to_nat x) p.
Let ws : list R := map prob (zrange 0 n).

Lemma binomial_table_eq : binomial_table real_arith ln exp p n = normalise real_arith (cumulate real_arith ws).
Proof.
  unfold binomial_table. do 2 f_equal. rewrite binomial_weights_eq; auto; try lia.
  - unfold ws, zrange. rewrite map_map. replace (n - 0 + 1)%Z with (n + 1)%Z by lia. reflexivity.
  - intros _. rewrite choose_0. cbn. symmetry. apply ln_1.
Qed.
Lemma binomial_ws_length : length ws = Z.to_nat (n + 1).
Proof. unfold ws. rewrite map_length, zrange_length. f_equal. lia. Qed.
Lemma binomial_ws_total : prefix ws (length ws) = 1.
Proof.
  rewrite binomial_ws_length. unfold ws. rewrite prefix_zrange by lia.
  replace (Z.to_nat (n + 1)) with (S (Z.to_nat n)) by lia. apply binomial_total.
Qed.
Lemma binomial_ws_ne : ws <> [].
Proof. intros E. pose proof binomial_ws_length as H. rewrite E in H. cbn in H. lia. Qed.
Lemma binomial_prob_nonneg x : 0 <= prob x.
Proof.
  unfold prob, binomial_probability. apply Rmult_le_pos; [apply Rmult_le_pos|].
  - apply pos_INR.
  - apply pow_le. lra.
  - apply pow_le. lra.
Qed.
Lemma binomial_tables :
  (forall x, (0 <= x <= n)%Z -> binomial_pdf real_arith ln exp p n x = Some (prob x)) /\
  (forall x, (0 <= x <= n)%Z -> binomial_cdf real_arith ln exp p n x = Some (zsum prob 0 (S (Z.to_nat x)))) /\
  forall u, 0 <= u <= 1 -> u <> prob 0 -> (n <= int_max)%Z ->
  exists x, binomial_draw real_arith ln exp p n u = Some x /\ (0 <= x <= n)%Z /\
    forall y, (0 <= y <= n)%Z -> (x <= y)%Z <-> u <= zsum prob 0 (S (Z.to_nat y)).
Proof.
  pose proof binomial_ws_length as Hl. pose proof binomial_ws_total as Ht. pose proof binomial_ws_ne as Hne.
  assert (Hpre : forall j, (j <= Z.to_nat (n + 1))%nat -> prefix ws j = zsum prob 0 j).
  { intros j Hj. unfold ws. apply prefix_zrange. lia. }
  split; [|split].
  - intros x Hx. unfold binomial_pdf. rewrite binomial_table_eq, (table_pdf_ok ws Hne) by lia.
    rewrite Ht. f_equal. unfold ws. rewrite map_zrange_nth by lia.
    replace (0 + Z.of_nat (Z.to_nat (x - 0)))%Z with x by lia. field.
  - intros x Hx. unfold binomial_cdf. rewrite binomial_table_eq, (table_cdf_ok ws Hne) by lia.
    rewrite Ht, Hpre by lia. replace (x - 0)%Z with x by lia. f_equal. field.
  - intros u Hu Hu0 Hm.
    destruct (table_draw ws Hne) with (u := u) as (k & Hk & Hkl & Hq).
    + apply Forall_forall. intros w Hw. apply in_map_iff in Hw. destruct Hw as (x & <- & _). apply binomial_prob_nonneg.
    + lra.
    + lra.
    + rewrite table_nth by (assumption || lia). rewrite Ht, Hpre by lia. cbn [zsum].
      replace (0 + Z.of_nat 0)%Z with 0%Z by lia. unfold Rdiv. rewrite Rinv_1. intros E. apply Hu0. rewrite E. ring.
    + exists (Z.of_nat k). unfold binomial_draw. rewrite binomial_table_eq, Hk. cbn [option_map].
      split; [|split; [lia|]].
      * unfold size_to_int. f_equal. unfold int_max in Hm. rewrite Z.mod_small by lia.
        destruct (Z.ltb_spec (Z.of_nat k) (2 ^ 31)); lia.
      * intros y Hy. specialize (Hq (Z.to_nat y) ltac:(lia)). rewrite Ht, Hpre in Hq by lia.
        replace (zsum prob 0 (S (Z.to_nat y)) / 1) with (zsum prob 0 (S (Z.to_nat y))) in Hq by field.
        rewrite <- Hq. lia.
Qed.
End Binomial.

Theorem C65_binomial : forall p n, 0 < p < 1 -> (0 <= n <= int_max)%Z ->
  let prob := fun x => binomial_probability (Z.to_nat n) (Z.to_nat x) p in
  (forall x, (0 <= x <= n)%Z -> binomial_pdf real_arith ln exp p n x = Some (prob x)) /\
  (forall x, (0 <= x <= n)%Z -> binomial_cdf real_arith ln exp p n x = Some (zsum prob 0 (S (Z.to_nat x)))) /\
  forall u, 0 <= u <= 1 -> u <> prob 0%Z ->
  exists x, binomial_draw real_arith ln exp p n u = Some x /\ (0 <= x <= n)%Z /\
    forall y, (0 <= y <= n)%Z -> (x <= y)%Z <-> u <= zsum prob 0 (S (Z.to_nat y)).
Proof.
  intros p n Hp Hn prob. destruct (binomial_tables p n Hp ltac:(lia)) as (H1 & H2 & H3).
  split; [exact H1|]. split; [exact H2|]. intros u Hu Hu0. apply H3; auto. lia.
Qed.

Example C65_ex : exists x, binomial_draw real_arith ln exp (1 / 2) 2 (3 / 5) = Some x /\ x = 1%Z.
Proof.
  destruct (C65_binomial (1 / 2) 2 ltac:(lra) ltac:(unfold int_max; lia)) as (_ & _ & H).
  assert (P0 : binomial_probability (Z.to_nat 2) (Z.to_nat 0) (1 / 2) = 1 / 4)
    by (change (INR 1 * (1 / 2) ^ 0 * (1 - 1 / 2) ^ 2 = 1 / 4); cbn; lra).
  assert (P1 : binomial_probability (Z.to_nat 2) (Z.to_nat 1) (1 / 2) = 1 / 2)
    by (change (INR 2 * (1 / 2) ^ 1 * (1 - 1 / 2) ^ 1 = 1 / 2); cbn; lra).
  destruct (H (3 / 5) ltac:(lra)) as (x & Hx & Hr & Hq).
  { cbv beta. rewrite P0. lra. }
  exists x. split; [exact Hx|].
  pose proof (Hq 0%Z ltac:(lia)) as Q0. pose proof (Hq 1%Z ltac:(lia)) as Q1.
  change (S (Z.to_nat 0)) with 1%nat in Q0. change (S (Z.to_nat 1)) with 2%nat in Q1.
  cbn [zsum] in Q0, Q1. change (0 + Z.of_nat 0)%Z with 0%Z in *. change (0 + Z.of_nat 1)%Z with 1%Z in *.
  cbv beta in Q0, Q1. rewrite P0 in Q0, Q1. rewrite P1 in Q1.
  assert (x <= 1)%Z by (apply Q1; lra).
  assert (~ (x <= 0)%Z) by (intros Hc; apply Q0 in Hc; lra). lia.
Qed.

(** p = 0 is a legitimate success probability, but in double arithmetic the code multiplies 0 by
    ln 0 = -inf: the whole table is NaN and every draw returns n instead of 0.  Only the values of the
    library functions at 0 and NaN matter. *)
Notation NaN := (B754_nan : num double_arith).
Definition double_zero : num double_arith := B754_zero false.

Lemma nan_add_r x : add double_arith x NaN = NaN.
Proof. cbn. unfold fadd. destruct x; reflexivity. Qed.
Lemma nan_add_l x : add double_arith NaN x = NaN.
Proof. reflexivity. Qed.
Lemma nan_cumulate l : cumulate_from double_arith NaN l = repeat NaN (length l).
Proof. induction l as [|a l IH]; [reflexivity|]. cbn [cumulate_from length repeat]. now rewrite nan_add_r, IH. Qed.
Lemma nan_discrete_loop u : forall fuel len i1 i2, (i2 - i1 <= fuel)%nat -> (i2 < len)%nat ->
  discrete_loop double_arith fuel u (repeat NaN len) i1 i2 = Some i2.
Proof.
  induction fuel; intros len i1 i2 Hf Hl; cbn [discrete_loop].
  - now rewrite (proj2 (Nat.ltb_ge _ _)) by lia.
  - destruct (Nat.ltb_spec 1 (i2 - i1)) as [H|H]; [|reflexivity].
    assert (H3 : (i1 < (i2 + i1) / 2 < i2)%nat).
    { pose proof (Nat.div_mod (i2 + i1) 2 ltac:(lia)). pose proof (Nat.mod_upper_bound (i2 + i1) 2 ltac:(lia)). lia. }
    unfold vget.
    rewrite nth_error_repeat by lia.
    assert (El : leb double_arith u NaN = false) by (destruct u; reflexivity).
    rewrite El. apply IHfuel; lia.
Qed.

Lemma binomial_weights_length (A : arith) ln exp p n : forall k i lb,
  length (binomial_weights A ln exp p n k i lb) = k.
Proof. induction k; intros i lb; [reflexivity|]. cbn [binomial_weights length]. now rewrite IHk. Qed.

Theorem C65_zero_probability_draw : forall ln exp : num double_arith -> num double_arith,
  ln double_zero = B754_infinity true -> exp NaN = NaN ->
  forall n u, (1 <= n <= int_max)%Z -> binomial_draw double_arith ln exp double_zero n u = Some n.
Proof.
  intros ln exp Hln Hexp n u Hn. unfold binomial_draw.
  assert (E : binomial_table double_arith ln exp double_zero n = repeat NaN (Z.to_nat (n + 1))).
  { unfold binomial_table. replace (Z.to_nat (n + 1)) with (S (Z.to_nat n)) by lia.
    cbn [binomial_weights]. rewrite Hln.
    change (mul double_arith (ofz double_arith 0) (B754_infinity true)) with NaN.
    rewrite nan_add_r, nan_add_l, Hexp. cbn [cumulate]. rewrite nan_cumulate.
    change (NaN :: repeat NaN ?k) with (repeat NaN (S k)).
    set (l := binomial_weights _ _ _ _ _ _ _ _).
    assert (Hl : length l = Z.to_nat n).
    { apply binomial_weights_length. }
    rewrite Hl. unfold normalise. generalize (S (Z.to_nat n)). intros k.
    generalize (last (repeat NaN k) (zero double_arith)). intros y.
    induction k; [reflexivity|]. cbn [repeat map]. rewrite IHk. f_equal. }
  rewrite E. unfold discrete. replace (Z.to_nat (n + 1)) with (S (Z.to_nat n)) by lia. cbn [repeat].
  assert (El : ltb double_arith u NaN = false) by (destruct u; reflexivity). rewrite El.
  change (NaN :: repeat NaN (Z.to_nat n)) with (repeat NaN (S (Z.to_nat n))).
  rewrite repeat_length. rewrite nan_discrete_loop by lia. cbn [option_map]. f_equal.
  unfold size_to_int. unfold int_max in Hn. replace (Z.of_nat (S (Z.to_nat n) - 1)) with n by lia.
  rewrite Z.mod_small by lia. lia.
Qed.

Theorem C65_zero_probability_refuted : exists (ln exp : num double_arith -> num double_arith) p n u,
  ln double_zero = B754_infinity true /\ exp NaN = NaN /\ p = double_zero /\
  binomial_draw double_arith ln exp p n u <> Some 0%Z.
Proof.
  exists (fun x => match x with B754_zero _ => B754_infinity true | _ => x end), (fun x => x), double_zero,
    3%Z, (one double_arith).
  split; [reflexivity|]. split; [reflexivity|]. split; [reflexivity|].
  rewrite C65_zero_probability_draw; [discriminate|reflexivity|reflexivity|unfold int_max; lia].
Qed.

(** The default constructed param_type of binomial_dist (n = 0), hypergeometric_dist, poisson_dist has an
    empty table: pdf, cdf and every draw read outside it. *)
Theorem C65_default_parameters_undefined : forall (A : arith) (u : num A),
  discrete A u [] = None /\ table_pdf A 0 0 [] 0 = None /\ table_cdf A 0 0 [] 0 = None.
Proof. intros A u. repeat split. Qed.
Theorem C65_default_parameters_refuted : exists x, (0 <= x <= 0)%Z /\ table_pdf real_arith 0 0 [] x = None.
Proof. exists 0%Z. split; [lia|reflexivity]. Qed.

(** ** C66: geometric_dist *)

Lemma powerRZ_exp q x : 0 < q -> (0 <= x)%Z -> powerRZ q x = exp (IZR x * ln q).
Proof.
  intros Hq Hx. rewrite <- (Z2Nat.id x) by lia. rewrite <- pow_powerRZ, <- INR_IZR_INZ. symmetry.
  now apply exp_mult_ln.
Qed.

Lemma exp_lt_iff a b : exp a < exp b <-> a < b.
Proof. split; [apply exp_lt_inv|apply exp_increasing]. Qed.

(** A draw returns x exactly when q^(x+1) < u <= q^x and x is an int; so x <= k exactly when
    1 - u < cdf(k). *)
Theorem C66_geometric : forall p u x, 0 < p < 1 -> 0 < u < 1 ->
  geom_draw p u = Some x <->
  (0 <= x <= int_max)%Z /\ powerRZ (1 - p) (x + 1) < u <= powerRZ (1 - p) x.
Proof.
  intros p u x Hp Hu. unfold geom_draw, real_to_int, geom_q.
  assert (Hq : ln (1 - p) < 0) by (rewrite <- ln_1; apply ln_increasing; lra).
  assert (Hl : ln u < 0) by (rewrite <- ln_1; apply ln_increasing; lra).
  set (t := ln u * (1 / ln (1 - p))).
  assert (Ht : ln u = t * ln (1 - p)) by (unfold t; field; lra).
  assert (Ht0 : 0 < t).
  { unfold t. replace (ln u * (1 / ln (1 - p))) with ((- ln u) * / (- ln (1 - p))) by (field; lra).
    apply Rmult_lt_0_compat; [lra|]. apply Rinv_0_lt_compat. lra. }
  rewrite Ztrunc_floor by lra.
  assert (Hiff : forall y, (0 <= y)%Z -> powerRZ (1 - p) y < u <-> t < IZR y).
  { intros y Hy. rewrite powerRZ_exp by (lra || lia). rewrite <- (exp_ln u) by lra. rewrite exp_lt_iff, Ht.
    split; intros; nra. }
  pose proof (Zfloor_lb t) as Hlb. pose proof (Zfloor_ub t) as Hub.
  assert (Hf0 : (0 <= Zfloor t)%Z) by (apply Zfloor_lub; lra).
  unfold as_int. split.
  - destruct (Z.leb_spec int_min (Zfloor t)), (Z.leb_spec (Zfloor t) int_max); cbn [andb]; try discriminate.
    intros E. injection E as <-. split; [lia|]. split.
    + apply Hiff; [lia|]. rewrite plus_IZR. exact Hub.
    + apply Rnot_lt_le. rewrite Hiff by lia. lra.
  - intros (Hx & H1 & H2). apply Hiff in H1; [|lia]. apply Rle_not_lt in H2. rewrite Hiff in H2 by lia.
    assert (Hxt : Zfloor t = x) by (apply Zfloor_imp; split; [lra|exact H1]).
    rewrite Hxt. rewrite (proj2 (Z.leb_le int_min x)), (proj2 (Z.leb_le x int_max)) by (unfold int_min; lia).
    reflexivity.
Qed.

(** cdf is the sum of pdf below max(), and a draw inverts it *)
Theorem C66_cdf : forall p x, 0 < p < 1 -> (0 <= x < int_max)%Z ->
  geom_cdf p x = Some (zsum (geom_pdf p) 0 (S (Z.to_nat x))) /\
  zsum (geom_pdf p) 0 (S (Z.to_nat x)) = 1 - powerRZ (1 - p) (x + 1).
Proof.
  intros p x Hp Hx.
  assert (E : forall k, zsum (geom_pdf p) 0 k = 1 - (1 - p) ^ k).
  { induction k; [cbn; lra|]. cbn [zsum]. rewrite IHk. unfold geom_pdf, geom_q.
    rewrite (proj2 (Z.ltb_ge _ _)) by lia. rewrite Z.add_0_l, <- pow_powerRZ. cbn [pow]. ring. }
  assert (E' : powerRZ (1 - p) (x + 1) = (1 - p) ^ S (Z.to_nat x)).
  { rewrite pow_powerRZ. f_equal. lia. }
  rewrite E, E'. split; [|reflexivity].
  unfold geom_cdf, geom_q. rewrite (proj2 (Z.ltb_ge x 0)) by lia.
  unfold as_int. rewrite (proj2 (Z.leb_le _ _)), (proj2 (Z.leb_le _ _)) by (unfold int_min, int_max in *; lia).
  cbn [andb option_map]. now rewrite E'.
Qed.

(** A small success probability: the conversion to int overflows for the median variate. *)
Theorem C66_draw_defined_refuted : exists p u, 0 < p < 1 /\ u = 1 / 2 /\ geom_draw p u = None.
Proof.
  exists (/ IZR (2 ^ 40)), (1 / 2).
  assert (Hb : 0 < / IZR (2 ^ 40) <= / 1024).
  { split; [apply Rinv_0_lt_compat, IZR_lt; reflexivity|]. apply Rinv_le_contravar; [lra|]. apply IZR_le. lia. }
  assert (Hp : 0 < / IZR (2 ^ 40) < 1) by lra.
  split; [exact Hp|]. split; [reflexivity|].
  destruct (geom_draw (/ IZR (2 ^ 40)) (1 / 2)) as [x|] eqn:E; [exfalso|reflexivity].
  apply C66_geometric in E; [|exact Hp|lra]. destruct E as (Hx & H1 & _).
  rewrite powerRZ_exp in H1 by (lra || lia).
  (* ln q >= - 2 p *)
  set (p := / IZR (2 ^ 40)) in *.
  assert (Hln : - (2 * p) <= ln (1 - p)).
  { rewrite <- (ln_exp (- (2 * p))). apply Rnot_lt_le. intros Hc. apply ln_lt_inv in Hc; [|lra|apply exp_pos].
    rewrite exp_Ropp in Hc. pose proof (exp_ineq1_le (2 * p)) as He.
    assert (/ exp (2 * p) <= / (1 + 2 * p)) by (apply Rinv_le_contravar; lra).
    assert (/ (1 + 2 * p) <= 1 - p).
    { apply Rmult_le_reg_r with (1 + 2 * p); [lra|]. rewrite Rinv_l by lra. nra. }
    lra. }
  assert (Hx2 : IZR (x + 1) <= IZR (2 ^ 31)) by (apply IZR_le; unfold int_max in Hx; lia).
  assert (Hx1 : 0 <= IZR (x + 1)) by (apply IZR_le; lia).
  assert (Hprod : - (1 / 4) <= IZR (x + 1) * ln (1 - p)).
  { apply Rle_trans with (IZR (x + 1) * (- (2 * p))); [|apply Rmult_le_compat_l; assumption].
    apply Rle_trans with (IZR (2 ^ 31) * (- (2 * p))).
    - unfold p. change (IZR (2 ^ 31)) with 2147483648. change (IZR (2 ^ 40)) with 1099511627776. lra.
    - assert (0 < p) by lra. nra. }
  assert (exp (- (1 / 4)) <= exp (IZR (x + 1) * ln (1 - p))) by (now apply exp_le).
  pose proof (exp_ineq1_le (- (1 / 4))). lra.
Qed.

(** cdf is undefined at max(): x + 1 overflows. *)
Theorem C66_cdf_at_max_refuted : exists x, x = int_max /\ forall p, geom_cdf p x = None.
Proof. exists int_max. split; [reflexivity|]. intros p. reflexivity. Qed.

Example C66_ex : geom_draw (1 / 2) (3 / 16) = Some 2%Z.
Proof. apply C66_geometric; [lra|lra|]. split; [unfold int_max; lia|].
  change ((1 - 1 / 2) ^ 3 < 3 / 16 <= (1 - 1 / 2) ^ 2). cbn. lra. Qed.

Print Assumptions C55_poisson.
Print Assumptions C55_zero_truncated.
Print Assumptions C55_negative_binomial.
Print Assumptions C55_gammaQ.
Print Assumptions C55_every_variate_refuted.
Print Assumptions C46_d_equals_m.
Print Assumptions C46_draw.
Print Assumptions C46_refuted.
Print Assumptions C65_binomial.
Print Assumptions C65_zero_probability_draw.
Print Assumptions C65_zero_probability_refuted.
Print Assumptions C65_default_parameters_refuted.
Print Assumptions C66_geometric.
Print Assumptions C66_cdf.
Print Assumptions C66_draw_defined_refuted.
Print Assumptions C66_cdf_at_max_refuted.
