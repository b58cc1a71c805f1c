(** C95: the continued fraction that evaluates the upper incomplete gamma function, against the integrals. *)
From Coq Require Import Reals ZArith Lra Psatz Lia.
From Coquelicot Require Import Coquelicot.
From Verif Require Import ContModel ContProofs GamModel SeriesModel Improper GammaFn GamProofs SeriesProofs CfModel CfFacts CfProofs CfTable Prop_Continuous Prop_Gamma Prop_Series.
Local Open Scope R_scope.

(** ** Tools *)
Lemma alg_cf asyP asyQ (by_Gamma_a : bool) a x : 0 < a -> a + 1 <= x -> a <= 15 \/ 235 / 100 * a <= x \/ by_Gamma_a = false ->
  GammaQ_alg GammaQ_cf asyQ by_Gamma_a a x = Fin (GammaQ_cf by_Gamma_a a x) /\
  GammaP_alg GammaQ_cf asyP by_Gamma_a a x = Fin ((if by_Gamma_a then 1 else tgamma a) - GammaQ_cf by_Gamma_a a x).
Proof.
  intros Ha Hx H. unfold GammaP_alg, GammaQ_alg. destruct (Rlt_dec x 0); [lra|]. destruct (Rle_dec a 0); [lra|]. destruct (Rlt_dec x (a + 1)); [lra|].
  destruct by_Gamma_a; [|split; reflexivity].
  assert (E : in_asympt a x = false).
  { unfold in_asympt. destruct (Rlt_dec 15 a); [|reflexivity]. destruct (Rlt_dec (3 / 10 * a) x); [|reflexivity]. destruct (Rlt_dec x (235 / 100 * a)); [|reflexivity].
    destruct H as [H|[H|H]]; [lra|lra|discriminate H]. }
  rewrite E. split; reflexivity.
Qed.
Lemma cf_regular a x : 0 < a -> 0 < x -> GammaQ_cf true a x = e0 a x / Gam a * cf_value a x.
Proof. intros Ha Hx. unfold GammaQ_cf, e0, cf_value. cbv zeta. rewrite pref_P by assumption. reflexivity. Qed.
Lemma cf_plain a x : 0 < x -> GammaQ_cf false a x = e0 a x * cf_value a x.
Proof. intros Hx. unfold GammaQ_cf, e0, cf_value. cbv zeta. rewrite pref_lgam by assumption. reflexivity. Qed.
Lemma Fin_inj s t : Fin s = Fin t -> s = t.
Proof. intros H. injection H. auto. Qed.
Lemma scaled_abs c s t e : 0 <= c -> Rabs (s - t) <= e * t -> Rabs (c * s - c * t) <= e * (c * t).
Proof.
  intros Hc H. replace (c * s - c * t) with (c * (s - t)) by ring. rewrite Rabs_mult, (Rabs_pos_eq c) by exact Hc.
  replace (e * (c * t)) with (c * (e * t)) by ring. apply Rmult_le_compat_l; assumption.
Qed.

(** ** C95 *)

(** GammaQ and GammaP, regularised, where they use the continued fraction: relative error of the complement at most
    2^-37, and at most 2^-44 for shapes from 1 *)
Theorem C95_regularised : forall asyP asyQ a x v w, 0 < a -> a + 1 <= x -> x <= 2 ^ 1000 -> a <= 15 \/ 235 / 100 * a <= x ->
  up_to (gamma_integrand a) x v -> over_half_line (gamma_integrand a) w ->
  exists r, GammaQ_alg GammaQ_cf asyQ true a x = Fin r /\ GammaP_alg GammaQ_cf asyP true a x = Fin (1 - r) /\
    Rabs (r - (w - v) / w) <= / 2 ^ 37 * ((w - v) / w) /\ (1 <= a -> Rabs (r - (w - v) / w) <= / 2 ^ 44 * ((w - v) / w)).
Proof.
  intros asyP asyQ a x v w Ha Hx HM H Hv Hw. rewrite (int_gamma a x v), (int_Gamma a w) by (assumption || lra).
  destruct (alg_cf asyP asyQ true a x Ha Hx ltac:(lra)) as (E1 & E2). exists (GammaQ_cf true a x). split; [exact E1|]. split; [exact E2|].
  pose proof (Gam_pos a Ha) as GP. pose proof (e0_pos a x) as EP. rewrite cf_regular by lra.
  assert (C : 0 <= e0 a x / Gam a) by (apply Rdiv_le_0_compat; lra).
  assert (EQ : (Gam a - lgam a x) / Gam a = e0 a x / Gam a * uu a x 0) by (rewrite uu_0 by assumption; field; lra). rewrite EQ.
  destruct (cf_value_close a x) as (K1 & K2); [repeat split; try assumption; lra|].
  split; [apply scaled_abs; assumption|]. intros H1. apply scaled_abs; [exact C|exact (K2 H1)].
Qed.
(** inc_Gamma and cinc_gamma, not regularised: the same for shapes up to 64 and for arguments from 2.35 a *)
Theorem C95_unregularised : forall asyP asyQ a x v w, 0 < a -> a + 1 <= x -> x <= 2 ^ 1000 -> a <= 64 \/ 235 / 100 * a <= x ->
  up_to (gamma_integrand a) x v -> over_half_line (gamma_integrand a) w ->
  exists r, GammaQ_alg GammaQ_cf asyQ false a x = Fin r /\ GammaP_alg GammaQ_cf asyP false a x = Fin (w - r) /\
    Rabs (r - (w - v)) <= / 2 ^ 37 * (w - v) /\ (1 <= a -> Rabs (r - (w - v)) <= / 2 ^ 44 * (w - v)).
Proof.
  intros asyP asyQ a x v w Ha Hx HM H Hv Hw. rewrite (int_gamma a x v), (int_Gamma a w) by (assumption || lra).
  destruct (alg_cf asyP asyQ false a x Ha Hx ltac:(tauto)) as (E1 & E2). exists (GammaQ_cf false a x). split; [exact E1|]. rewrite tgamma_Gam in E2 by exact Ha. split; [exact E2|].
  pose proof (e0_pos a x) as EP. rewrite cf_plain by lra.
  assert (EQ : Gam a - lgam a x = e0 a x * uu a x 0) by (rewrite uu_0 by assumption; field; lra). rewrite EQ.
  destruct (cf_value_close a x) as (K1 & K2); [repeat split; try assumption; lra|].
  split; [apply scaled_abs; lra|]. intros H1. apply scaled_abs; [lra|exact (K2 H1)].
Qed.
(** both branches: for shapes up to 15 and arguments that are not below the tolerance GammaP is within 2^-37 of the
    ratio of the integrals, for shapes from 1 within 2^-44 *)
Theorem C95_GammaP : forall asyP a x v w, 0 < a <= 15 -> eps4 <= x -> x <= 2 ^ 1000 ->
  up_to (gamma_integrand a) x v -> over_half_line (gamma_integrand a) w ->
  exists r, GammaP_alg GammaQ_cf asyP true a x = Fin r /\ Rabs (r - v / w) <= / 2 ^ 37 /\ (1 <= a -> Rabs (r - v / w) <= / 2 ^ 44).
Proof.
  intros asyP a x v w Ha H0 HM Hv Hw. destruct eps4_val as (Pe & _).
  assert (Vw : 0 <= v / w <= 1). { rewrite (int_gamma a x v), (int_Gamma a w) by (assumption || lra). rewrite <- P_in by lra. apply P_range. lra. }
  assert (W : w <> 0). { rewrite (int_Gamma a w) by (assumption || lra). pose proof (Gam_pos a ltac:(lra)). lra. }
  destruct (Rlt_dec x (a + 1)) as [L|L].
  - destruct (C81_regularised GammaQ_cf asyP asyP a x v w ltac:(lra) H0 L ltac:(lra) Hv Hw) as (r & E & _ & B). exists r. split; [exact E|].
    assert (B' : Rabs (r - v / w) <= / 2 ^ 46). { apply Rabs_le. nra. } split; [|intros _]; lra.
  - destruct (C95_regularised asyP asyP a x v w ltac:(lra) ltac:(lra) HM ltac:(lra) Hv Hw) as (r & _ & E & B1 & B2). exists (1 - r). split; [exact E|].
    replace ((w - v) / w) with (1 - v / w) in * by (field; exact W). replace (1 - r - v / w) with (- (r - (1 - v / w))) by ring. rewrite Rabs_Ropp.
    split; [|intros H1; specialize (B2 H1)]; nra.
Qed.
(** the cdf of poisson_dist, GammaQ(x + 1.0, mu): within 2^-44 of the sum of the probabilities of 0, ..., x, where
    GammaQ does not use the asymptotic expansion *)
Definition poisson_sum (mu : R) (n : nat) : R := sum_f_R0 (fun k => exp (- mu) * mu ^ k / INR (fact k)) n.
Lemma P_poisson mu n : 0 < mu -> lgam (INR n + 1) mu / Gam (INR n + 1) = 1 - poisson_sum mu n.
Proof.
  intros Hm. induction n.
  - cbn [INR]. rewrite Rplus_0_l, lgam_1, Gam_1 by exact Hm. unfold poisson_sum. cbn [sum_f_R0 pow fact INR]. field.
  - rewrite S_INR. pose proof (pos_INR n) as N. rewrite lgam_rec, Gam_rec by lra. unfold poisson_sum. cbn [sum_f_R0]. fold (poisson_sum mu n).
    pose proof (Gam_pos (INR n + 1) ltac:(lra)) as GP. replace (lgam (INR n + 1) mu) with ((1 - poisson_sum mu n) * Gam (INR n + 1)) by (rewrite <- IHn; field; lra).
    assert (GF : forall m, Gam (INR m + 1) = INR (fact m)).
    { induction m; [cbn [INR fact]; rewrite Rplus_0_l; apply Gam_1|]. rewrite S_INR, Gam_rec, IHm by (pose proof (pos_INR m); lra). rewrite <- S_INR, <- mult_INR. reflexivity. }
    rewrite GF in *. rewrite <- S_INR, Rpower_pow by exact Hm. replace (INR (fact (S n))) with (INR (S n) * INR (fact n)) by (rewrite <- mult_INR; reflexivity).
    rewrite S_INR in *. field. lra.
Qed.
Theorem C95_poisson : forall asyQ x mu, (0 <= x)%Z -> 0 < mu <= 2 ^ 1000 -> (x <= 14)%Z \/ mu <= 3 / 10 * IZR x \/ 235 / 100 * (IZR x + 1) <= mu ->
  exists r, GammaQ_alg GammaQ_cf asyQ true (IZR x + 1) mu = Fin r /\
    Rabs (r - sum_f_R0 (fun k => exp (- mu) * mu ^ k / INR (fact k)) (Z.to_nat x)) <= / 2 ^ 44.
Proof.
  intros asyQ x mu Hx Hm D. fold (poisson_sum mu (Z.to_nat x)). assert (X : IZR x = INR (Z.to_nat x)) by (rewrite INR_IZR_INZ, Z2Nat.id by exact Hx; reflexivity).
  pose proof (P_poisson mu (Z.to_nat x) (proj1 Hm)) as PP. rewrite <- X in PP. set (a := IZR x + 1) in *. assert (Ha : 1 <= a) by (pose proof (IZR_le _ _ Hx); unfold a; lra).
  assert (D' : a <= 15 \/ mu <= 3 / 10 * a \/ 235 / 100 * a <= mu). { assert (A : a = IZR x + 1) by reflexivity. destruct D as [D|D]; [apply IZR_le in D; lra|lra]. }
  pose proof (lgam_gen a mu ltac:(lra) (proj1 Hm)) as Hv. pose proof (Gam_gen a ltac:(lra)) as Hw. pose proof (Gam_pos a ltac:(lra)) as GP.
  assert (Vw : 0 <= lgam a mu / Gam a <= 1) by (rewrite <- P_in by lra; apply P_range; lra).
  replace (poisson_sum mu (Z.to_nat x)) with (1 - lgam a mu / Gam a) by lra. destruct eps4_val as (Pe & Ee).
  destruct (Rlt_dec mu (a + 1)) as [L|L]; [destruct (Rlt_dec mu eps4) as [C|C]|].
  - destruct (alg_ser GammaQ_cf asyQ asyQ true a mu ltac:(lra) ltac:(lra) L ltac:(rewrite Ee in C; lra)) as (_ & E). exists (1 - GammaP_ser true a mu). split; [exact E|].
    destruct (C81_cut GammaQ_cf asyQ a mu _ _ Ha ltac:(lra) Hv Hw) as (E0 & B & B').
    destruct (alg_ser GammaQ_cf asyQ asyQ true a mu ltac:(lra) ltac:(lra) L ltac:(rewrite Ee in C; lra)) as (E1 & _). rewrite E1 in E0. rewrite (Fin_inj _ _ E0).
    apply Rabs_le. lra.
  - destruct (C81_regularised GammaQ_cf asyQ asyQ a mu _ _ ltac:(lra) ltac:(lra) L ltac:(lra) Hv Hw) as (r & _ & E & B). exists (1 - r). split; [exact E|].
    apply Rabs_le. nra.
  - destruct (C95_regularised asyQ asyQ a mu _ _ ltac:(lra) ltac:(lra) ltac:(lra) ltac:(lra) Hv Hw) as (r & E & _ & _ & B). exists r. split; [exact E|]. specialize (B Ha).
    replace ((Gam a - lgam a mu) / Gam a) with (1 - lgam a mu / Gam a) in B by (field; lra). nra.
Qed.
Example C95_case : exists v w r, up_to (gamma_integrand (1 / 2)) 3 v /\ over_half_line (gamma_integrand (1 / 2)) w /\ 0 < w - v /\
  (forall asyQ, GammaQ_alg GammaQ_cf asyQ true (1 / 2) 3 = Fin r) /\ 0 < r /\ Rabs (r - (w - v) / w) <= / 2 ^ 37 * ((w - v) / w).
Proof.
  assert (T : 3 <= 2 ^ 1000). { change 1000%nat with (2 + 998)%nat. rewrite pow_add. assert (1 <= 2 ^ 998) by (apply pow_R1_Rle; lra). set (Y := 2 ^ 998) in *. clearbody Y. cbn. lra. }
  exists (lgam (1 / 2) 3), (Gam (1 / 2)), (GammaQ_cf true (1 / 2) 3). pose proof (lgam_gen (1 / 2) 3 ltac:(lra) ltac:(lra)) as Hv. pose proof (Gam_gen (1 / 2) ltac:(lra)) as Hw.
  split; [exact Hv|]. split; [exact Hw|].
  pose proof (uu_0 (1 / 2) 3 ltac:(lra) ltac:(lra)) as U. pose proof (uu_pos (1 / 2) 3 ltac:(lra) ltac:(lra) 0) as UP. pose proof (e0_pos (1 / 2) 3) as EP. pose proof (Gam_pos (1 / 2) ltac:(lra)) as GP.
  assert (D : 0 < Gam (1 / 2) - lgam (1 / 2) 3). { replace (Gam (1 / 2) - lgam (1 / 2) 3) with (e0 (1 / 2) 3 * uu (1 / 2) 3 0) by (rewrite U; field; lra). apply Rmult_lt_0_compat; assumption. }
  split; [exact D|]. split; [intros asyQ; exact (proj1 (alg_cf asyQ asyQ true (1 / 2) 3 ltac:(lra) ltac:(lra) ltac:(lra)))|].
  destruct (C95_regularised (fun _ _ => 0) (fun _ _ => 0) (1 / 2) 3 _ _ ltac:(lra) ltac:(lra) T ltac:(lra) Hv Hw) as (r & E & _ & B & _).
  pose proof (proj1 (alg_cf (fun _ _ => 0) (fun _ _ => 0) true (1 / 2) 3 ltac:(lra) ltac:(lra) ltac:(lra))) as E'. rewrite E in E'. pose proof (Fin_inj _ _ E') as Er.
  rewrite Er in B. split; [|exact B]. rewrite cf_regular by lra. apply Rmult_lt_0_compat; [apply Rdiv_lt_0_compat; assumption|].
  destruct (cf_value_conv (1 / 2) 3 ltac:(lra) ltac:(lra)) as (m & _ & -> & _). apply hh_pos; lra.
Qed.
(** the number of iterations is limited to 53: for a small shape the value is too small by more than one part in
    2^40, 1024 times the tolerance of the loop *)
Theorem C95_limit_refuted : exists a x v w, 0 < a /\ a + 1 <= x /\ up_to (gamma_integrand a) x v /\ over_half_line (gamma_integrand a) w /\
  forall asyQ, exists r, GammaQ_alg GammaQ_cf asyQ true a x = Fin r /\ 0 < r /\ r * (1 + 1024 * eps4) < (w - v) / w.
Proof.
  exists (1 / 1024), (1025 / 1024), (lgam (1 / 1024) (1025 / 1024)), (Gam (1 / 1024)). split; [lra|]. split; [lra|].
  split; [exact (lgam_gen (1 / 1024) (1025 / 1024) ltac:(lra) ltac:(lra))|]. split; [exact (Gam_gen (1 / 1024) ltac:(lra))|]. intros asyQ. exists (GammaQ_cf true (1 / 1024) (1025 / 1024)).
  split; [exact (proj1 (alg_cf asyQ asyQ true (1 / 1024) (1025 / 1024) ltac:(lra) ltac:(lra) ltac:(lra)))|].
  pose proof short_1024 as SH. pose proof (uu_0 (1 / 1024) (1025 / 1024) ltac:(lra) ltac:(lra)) as U. pose proof (e0_pos (1 / 1024) (1025 / 1024)) as EP. pose proof (Gam_pos (1 / 1024) ltac:(lra)) as GP.
  rewrite cf_regular by lra. assert (C : 0 < e0 (1 / 1024) (1025 / 1024) / Gam (1 / 1024)) by (apply Rdiv_lt_0_compat; assumption). split.
  - apply Rmult_lt_0_compat; [exact C|]. destruct (cf_value_conv (1 / 1024) (1025 / 1024) ltac:(lra) ltac:(lra)) as (m & _ & -> & _). apply hh_pos; lra.
  - replace ((Gam (1 / 1024) - lgam (1 / 1024) (1025 / 1024)) / Gam (1 / 1024)) with (e0 (1 / 1024) (1025 / 1024) / Gam (1 / 1024) * uu (1 / 1024) (1025 / 1024) 0) by (rewrite U; field; lra).
    rewrite Rmult_assoc. apply Rmult_lt_compat_l; [exact C|]. destruct eps4_val as (_ & ->). replace (1 + 1024 * / 2 ^ 50) with (1 + / 2 ^ 40) by (cbn; field). exact SH.
Qed.
Print Assumptions C95_regularised.
Print Assumptions C95_unregularised.
Print Assumptions C95_GammaP.
Print Assumptions C95_poisson.
Print Assumptions C95_limit_refuted.
