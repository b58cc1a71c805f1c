(** C96: the uniform asymptotic expansion of the incomplete gamma functions for large shapes, against the integrals. *)
From Coq Require Import Reals ZArith Lra Psatz Lia.
From Coquelicot Require Import Coquelicot.
From Verif Require Import ContModel ContProofs GamModel SeriesModel Improper GammaFn GamProofs SeriesProofs CfModel AsyModel AsyFacts AsyTable AsyProofs AsyValue AsyBreak Prop_Continuous Prop_Gamma Prop_Series Prop_Cf.
Local Open Scope R_scope.

(** ** Tools *)
(** the shapes outside three windows of lengths 0.01, 0.02 and 0.02 *)
Definition outside (a : R) : Prop := a <= 1617 / 100 \/ 1618 / 100 <= a <= 2652 / 100 \/ 2654 / 100 <= a <= 3939 / 100 \/ 3941 / 100 <= a.
Lemma alg_asy cf asyP asyQ a x : 15 < a -> 3 / 10 * a < x -> x < 235 / 100 * a ->
  GammaP_alg cf asyP true a x = Fin (asyP a x) /\ GammaQ_alg cf asyQ true a x = Fin (asyQ a x).
Proof.
  intros Ha H1 H2. unfold GammaP_alg, GammaQ_alg, in_asympt. destruct (Rlt_dec x 0); [lra|]. destruct (Rle_dec a 0); [lra|]. destruct (Rlt_dec 15 a); [|lra]. destruct (Rlt_dec (3 / 10 * a) x); [|lra]. destruct (Rlt_dec x (235 / 100 * a)); [|lra]. split; reflexivity.
Qed.
Lemma asy_close a x : 15 < a -> 3 / 10 * a < x -> x < 235 / 100 * a ->
  let P := lgam a x / Gam a in let Q := (Gam a - lgam a x) / Gam a in let p := GammaP_asympt a x in let q := GammaQ_asympt a x in
  p + q = 1 /\ P + Q = 1 /\ 0 < P < 1 /\ Rabs (p - P) <= / 2 ^ 47 /\ (outside a -> Rabs (p - P) <= / 2 ^ 56) /\
  (outside a -> a / 32 <= Rabs (x - a) -> (a <= x -> Rabs (q - Q) <= / 2 ^ 43 * Q) /\ (x <= a -> Rabs (p - P) <= / 2 ^ 43 * P)).
Proof.
  intros Ha H1 H2 P Q p q. destruct (asy_value a x ltac:(lra) H1 H2) as (b & m & RG & HX & HM & B1 & B2 & V1 & V2). destruct (tail_total a b m ltac:(lra) RG) as (ER & T1 & T2 & T3).
  assert (RE : outside a -> regular a) by (intros O; apply regular_all; [lra|exact O]). pose proof (Gam_pos a ltac:(lra)) as GP.
  assert (PQ : P + Q = 1) by (unfold P, Q; field; lra).
  assert (MB : a / 32 <= Rabs (x - a) -> 1 / 32 <= m). { intros H. rewrite HM. apply (proj1 (Rle_div_r (1 / 32) (Rabs (x - a)) a ltac:(lra))). lra. }
  set (t := tailx a b (s' b m)) in *. clearbody t. destruct b; cbn [EX sg] in *.
  - replace (a * (1 + m)) with x in * by (rewrite HX; ring). fold Q in ER, T1, T2, T3. fold p in V2. fold q in V1. replace (p - P) with (- (t - Q)) by lra. rewrite Rabs_Ropp, V1.
    split; [lra|]. split; [exact PQ|]. split; [lra|]. split; [exact T1|]. split; [intros O; apply T2, RE, O|]. intros O D. split; [intros _; apply T3; [apply RE, O|apply MB, D]|]. intros XA. exfalso. destruct RG as (R1 & _). assert (m = 0) by nra. specialize (MB D). lra.
  - replace (a * (1 - m)) with x in * by (rewrite HX; ring). fold P in ER, T1, T2, T3. fold p in V1. fold q in V2. rewrite V1.
    split; [lra|]. split; [exact PQ|]. split; [lra|]. split; [exact T1|]. split; [intros O; apply T2, RE, O|]. intros O D. split; [|intros _; apply T3; [apply RE, O|apply MB, D]]. intros XA. specialize (B1 XA). discriminate B1.
Qed.

(** ** C96 *)

(** GammaP and GammaQ where they use the expansion: the two values add up to 1, the error is at most 2^-47 for every
    shape above 15 and at most 2^-56 outside the three windows *)
Theorem C96_absolute : forall a x v w, 15 < a -> 3 / 10 * a < x -> x < 235 / 100 * a -> up_to (gamma_integrand a) x v -> over_half_line (gamma_integrand a) w ->
  exists p q, GammaP_alg GammaQ_cf GammaP_asympt true a x = Fin p /\ GammaQ_alg GammaQ_cf GammaQ_asympt true a x = Fin q /\ p + q = 1 /\
    Rabs (p - v / w) <= / 2 ^ 47 /\ Rabs (q - (w - v) / w) <= / 2 ^ 47 /\ (outside a -> Rabs (p - v / w) <= / 2 ^ 56 /\ Rabs (q - (w - v) / w) <= / 2 ^ 56).
Proof.
  intros a x v w Ha H1 H2 Hv Hw. rewrite (int_gamma a x v), (int_Gamma a w) by (assumption || lra). destruct (alg_asy GammaQ_cf GammaP_asympt GammaQ_asympt a x Ha H1 H2) as (E1 & E2).
  exists (GammaP_asympt a x), (GammaQ_asympt a x). split; [exact E1|]. split; [exact E2|]. destruct (asy_close a x Ha H1 H2) as (PQ & VQ & _ & A1 & A2 & _).
  set (P := lgam a x / Gam a) in *. set (Q := (Gam a - lgam a x) / Gam a) in *. set (p := GammaP_asympt a x) in *. set (q := GammaQ_asympt a x) in *.
  assert (E : Rabs (q - Q) = Rabs (p - P)) by (replace (q - Q) with (- (p - P)) by lra; apply Rabs_Ropp). rewrite E. split; [exact PQ|]. split; [exact A1|]. split; [exact A1|]. intros O. split; exact (A2 O).
Qed.
(** away from the centre the smaller of the two values has a relative error of at most 2^-43 *)
Theorem C96_relative : forall a x v w, 15 < a -> 3 / 10 * a < x -> x < 235 / 100 * a -> outside a -> a / 32 <= Rabs (x - a) -> up_to (gamma_integrand a) x v -> over_half_line (gamma_integrand a) w ->
  exists p q, GammaP_alg GammaQ_cf GammaP_asympt true a x = Fin p /\ GammaQ_alg GammaQ_cf GammaQ_asympt true a x = Fin q /\ 0 < v < w /\
    (a <= x -> Rabs (q - (w - v) / w) <= / 2 ^ 43 * ((w - v) / w)) /\ (x <= a -> Rabs (p - v / w) <= / 2 ^ 43 * (v / w)).
Proof.
  intros a x v w Ha H1 H2 O D Hv Hw. rewrite (int_gamma a x v), (int_Gamma a w) by (assumption || lra). destruct (alg_asy GammaQ_cf GammaP_asympt GammaQ_asympt a x Ha H1 H2) as (E1 & E2).
  exists (GammaP_asympt a x), (GammaQ_asympt a x). split; [exact E1|]. split; [exact E2|]. destruct (asy_close a x Ha H1 H2) as (_ & _ & _ & _ & _ & A). split; [|exact (A O D)].
  split; [apply lgam_pos; lra|apply lgam_lt_Gam; lra].
Qed.
(** GammaP for every shape: all three methods together *)
Theorem C96_GammaP : forall a x v w, 0 < a -> eps4 <= x -> x <= 2 ^ 1000 -> up_to (gamma_integrand a) x v -> over_half_line (gamma_integrand a) w ->
  exists r, GammaP_alg GammaQ_cf GammaP_asympt true a x = Fin r /\ Rabs (r - v / w) <= / 2 ^ 37 /\ (1 <= a -> Rabs (r - v / w) <= / 2 ^ 44).
Proof.
  intros a x v w Ha H0 HM Hv Hw. destruct (Rle_dec a 15) as [C|C]; [apply C95_GammaP; try assumption; lra|]. destruct eps4_val as (Pe & _).
  assert (Vw : 0 <= v / w <= 1). { rewrite (int_gamma a x v), (int_Gamma a w) by (assumption || lra). rewrite <- P_in by lra. apply P_range. lra. }
  assert (W : w <> 0). { rewrite (int_Gamma a w) by (assumption || lra). pose proof (Gam_pos a ltac:(lra)). lra. }
  destruct (Rle_dec x (3 / 10 * a)) as [L|L]; [|destruct (Rlt_dec x (235 / 100 * a)) as [U|U]].
  - destruct (C81_regularised GammaQ_cf GammaP_asympt GammaQ_asympt a x v w Ha H0 ltac:(lra) ltac:(lra) Hv Hw) as (r & E & _ & B). exists r. split; [exact E|].
    assert (B' : Rabs (r - v / w) <= / 2 ^ 46). { apply Rabs_le. nra. } split; [|intros _]; lra.
  - destruct (C96_absolute a x v w ltac:(lra) ltac:(lra) U Hv Hw) as (p & q & E & _ & _ & B & _). exists p. split; [exact E|]. split; [|intros _]; lra.
  - destruct (C95_regularised GammaP_asympt GammaQ_asympt a x v w Ha ltac:(lra) HM ltac:(lra) Hv Hw) as (r & _ & E & _ & B2). exists (1 - r). split; [exact E|]. specialize (B2 ltac:(lra)).
    replace ((w - v) / w) with (1 - v / w) in B2 by (field; exact W). replace (1 - r - v / w) with (- (r - (1 - v / w))) by ring. rewrite Rabs_Ropp. split; [|intros _]; nra.
Qed.
(** the cdf of poisson_dist, GammaQ(x + 1.0, mu), for every x and mu *)
Theorem C96_poisson : forall x mu, (0 <= x)%Z -> 0 < mu <= 2 ^ 1000 ->
  exists r, GammaQ_alg GammaQ_cf GammaQ_asympt true (IZR x + 1) mu = Fin r /\
    Rabs (r - sum_f_R0 (fun k => exp (- mu) * mu ^ k / INR (fact k)) (Z.to_nat x)) <= / 2 ^ 44.
Proof.
  intros x mu Hx Hm. destruct (Z_le_gt_dec x 14) as [C|C]; [apply C95_poisson; [exact Hx|exact Hm|left; exact C]|].
  assert (X15 : 15 <= IZR x) by (apply IZR_le; lia). set (a := IZR x + 1) in *. pose proof (lgam_gen a mu ltac:(unfold a; lra) (proj1 Hm)) as Hv. pose proof (Gam_gen a ltac:(unfold a; lra)) as Hw.
  assert (SUM : sum_f_R0 (fun k => exp (- mu) * mu ^ k / INR (fact k)) (Z.to_nat x) = 1 - lgam a mu / Gam a).
  { fold (poisson_sum mu (Z.to_nat x)). pose proof (P_poisson mu (Z.to_nat x) (proj1 Hm)) as PP. rewrite INR_IZR_INZ, Z2Nat.id in PP by exact Hx. fold a in PP. lra. }
  pose proof (Gam_pos a ltac:(unfold a; lra)) as GP. assert (A16 : 16 <= a) by (unfold a; lra).
  assert (Vw : 0 <= lgam a mu / Gam a <= 1) by (rewrite <- P_in by lra; apply P_range; lra). rewrite SUM. destruct eps4_val as (Pe & Ee).
  destruct (Rle_dec mu (3 / 10 * a)) as [L|L]; [|destruct (Rlt_dec mu (235 / 100 * a)) as [U|U]].
  - destruct (Rlt_dec mu eps4) as [S|S].
    + destruct (alg_ser GammaQ_cf GammaP_asympt GammaQ_asympt true a mu ltac:(lra) ltac:(lra) ltac:(lra) ltac:(lra)) as (E1 & E). exists (1 - GammaP_ser true a mu). split; [exact E|].
      destruct (C81_cut GammaQ_cf GammaP_asympt a mu _ _ ltac:(lra) ltac:(lra) Hv Hw) as (E0 & B & B'). rewrite E1 in E0. rewrite (Fin_inj _ _ E0). apply Rabs_le. lra.
    + destruct (C81_regularised GammaQ_cf GammaP_asympt GammaQ_asympt a mu _ _ ltac:(lra) ltac:(lra) ltac:(lra) ltac:(lra) Hv Hw) as (r & _ & E & B). exists (1 - r). split; [exact E|]. apply Rabs_le. nra.
  - destruct (C96_absolute a mu _ _ ltac:(lra) ltac:(lra) U Hv Hw) as (p & q & _ & E & PQ & B & _). exists q. split; [exact E|]. replace (q - (1 - lgam a mu / Gam a)) with (- (p - lgam a mu / Gam a)) by lra. rewrite Rabs_Ropp. lra.
  - destruct (C95_regularised GammaP_asympt GammaQ_asympt a mu _ _ ltac:(lra) ltac:(lra) ltac:(lra) ltac:(lra) Hv Hw) as (r & E & _ & _ & B). exists r. split; [exact E|]. specialize (B ltac:(lra)).
    replace ((Gam a - lgam a mu) / Gam a) with (1 - lgam a mu / Gam a) in B by (field; lra). nra.
Qed.
Example C96_case : exists v w p q, up_to (gamma_integrand 20) 30 v /\ over_half_line (gamma_integrand 20) w /\ 0 < v < w /\
  GammaP_alg GammaQ_cf GammaP_asympt true 20 30 = Fin p /\ GammaQ_alg GammaQ_cf GammaQ_asympt true 20 30 = Fin q /\ p + q = 1 /\ Rabs (p - v / w) <= / 2 ^ 56 /\ Rabs (q - (w - v) / w) <= / 2 ^ 43 * ((w - v) / w).
Proof.
  pose proof (lgam_gen 20 30 ltac:(lra) ltac:(lra)) as Hv. pose proof (Gam_gen 20 ltac:(lra)) as Hw. assert (O : outside 20) by (right; left; lra). assert (D : 20 / 32 <= Rabs (30 - 20)) by (rewrite Rabs_pos_eq; lra).
  destruct (C96_absolute 20 30 _ _ ltac:(lra) ltac:(lra) ltac:(lra) Hv Hw) as (p & q & E1 & E2 & PQ & _ & _ & B). destruct (C96_relative 20 30 _ _ ltac:(lra) ltac:(lra) ltac:(lra) O D Hv Hw) as (p' & q' & F1 & F2 & VW & Bq & _).
  exists (lgam 20 30), (Gam 20), p, q. rewrite E2 in F2. rewrite (Fin_inj _ _ F2). split; [exact Hv|]. split; [exact Hw|]. split; [exact VW|]. split; [exact E1|]. split; [rewrite <- (Fin_inj _ _ F2); exact E2|].
  rewrite <- (Fin_inj _ _ F2). split; [exact PQ|]. split; [exact (proj1 (B O))|]. rewrite (Fin_inj _ _ F2). apply Bq. lra.
Qed.
(** the summation stops at the first coefficient that does not change the sum, also at an accidental zero: for a shape
    between 16.17 and 16.18 the terms from the 16th on are lost, and the error is more than 128 times 2^-56 *)
Theorem C96_break_refuted : exists a x v w, 15 < a /\ 3 / 10 * a < x /\ x < 235 / 100 * a /\ up_to (gamma_integrand a) x v /\ over_half_line (gamma_integrand a) w /\
  exists p q, GammaP_alg GammaQ_cf GammaP_asympt true a x = Fin p /\ GammaQ_alg GammaQ_cf GammaQ_asympt true a x = Fin q /\ p < v / w - / 2 ^ 49 /\ (w - v) / w + / 2 ^ 49 < q.
Proof.
  destruct zero_15 as (a & Ha & Z). set (m := 1 - exp (- (6 / 5))). destruct (break_dropped a m Ha Z eq_refl) as (RG & B). destruct exp_12 as (X1 & X2). set (x := a * exp (- (6 / 5))).
  assert (H1 : 3 / 10 * a < x) by (unfold x; nra). assert (H2 : x < 235 / 100 * a) by (unfold x; nra). exists a, x, (lgam a x), (Gam a). split; [lra|]. split; [exact H1|]. split; [exact H2|].
  split; [apply lgam_gen; lra|]. split; [apply Gam_gen; lra|]. destruct (alg_asy GammaQ_cf GammaP_asympt GammaQ_asympt a x ltac:(lra) H1 H2) as (E1 & E2).
  exists (GammaP_asympt a x), (GammaQ_asympt a x). split; [exact E1|]. split; [exact E2|]. destruct (asy_value a x ltac:(lra) H1 H2) as (b & m' & RG' & HX & _ & _ & B2 & V1 & V2). assert (EB : b = false) by (apply B2; unfold x; nra). subst b. cbn [sg] in HX.
  assert (M : m' = m). { apply (Rmult_eq_reg_l a); [|lra]. unfold m, x in *. set (e := exp _) in *. clearbody e. lra. } rewrite M in *. rewrite <- V1 in B. rewrite <- V1 in V2. cbn [EX] in B. replace (a * (1 - m)) with x in B by (unfold x, m; ring).
  split; [exact B|]. rewrite V2. pose proof (Gam_pos a ltac:(lra)). replace ((Gam a - lgam a x) / Gam a) with (1 - lgam a x / Gam a) by (field; lra). lra.
Qed.
Print Assumptions C96_absolute.
Print Assumptions C96_relative.
Print Assumptions C96_GammaP.
Print Assumptions C96_poisson.
Print Assumptions C96_break_refuted.
