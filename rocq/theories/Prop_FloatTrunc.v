(** C109: pdf and cdf of truncated_normal_dist in double. *)
From Coq Require Import ZArith Bool Reals Lia Lra Psatz.
From Coquelicot Require Import Coquelicot.
From Flocq Require Import Core IEEE754.BinarySingleNaN.
From Verif Require Import FloatFacts UniformModel UniformProofs FloatDrawModel FloatDrawSpec FloatDrawProofs FloatDrawCore FloatDrawLoc FloatDrawTrig FloatDrawLaw FloatDrawLibm DiscDrawTree FloatCdfModel FloatCdfSpec FloatCdfProofs FloatCdfCore FloatPdfSpec FloatPdfProofs FloatPdfNan Prop_FloatPdf FloatNormModel FloatNormSpec NormModel NormProofs FloatNormProofs FloatNormPdf FloatNormTail Prop_FloatNorm FloatTruncModel FloatTruncSpec FloatTruncProofs.
Local Open Scope R_scope.

Theorem C109_cdf : forall N mu sigma a b x, accurate_e N -> location mu -> scale sigma -> lower_bound a -> upper_bound b -> is_finite x = true -> bound_le a x -> bound_le x b ->
  let p := mass (B2R mu) (B2R sigma) a b in bpow radix2 (-40) <= p ->
  near (trunc_fcdf N mu sigma a b x) (F_truncated (B2R mu) (B2R sigma) a b (B2R x)) (49 / 2 ^ 52 / p).
Proof. intros N mu sigma a b x HN Hm Hs Ha Hb Fx Lx Ux p Hp. exact (trunc_cdf N HN mu sigma Hm Hs a b x Ha Hb Fx Lx Ux Hp). Qed.
Print Assumptions C109_cdf.
Theorem C109_pdf : forall N mu sigma a b x, accurate_e N -> location mu -> scale sigma -> lower_bound a -> upper_bound b -> is_finite x = true ->
  let p := mass (B2R mu) (B2R sigma) a b in bpow radix2 (-40) <= p ->
  density (trunc_fpdf N mu sigma a b x) (f_truncated (B2R mu) (B2R sigma) a b (B2R x)) (30 / 2 ^ 52 / (B2R sigma * p ^ 2)).
Proof. intros N mu sigma a b x HN Hm Hs Ha Hb Fx p Hp. exact (trunc_pdf N HN mu sigma Hm Hs a b x Ha Hb Fx Hp). Qed.
Print Assumptions C109_pdf.
(** with the lower bound 13 to 30 sigma above mu, cdf is NaN: Phi is 1 at both bounds *)
Theorem C109_upper_tail : forall N mu sigma a b x, accurate_e N -> tail_accurate N -> location mu -> scale sigma ->
  let z y := (B2R y - B2R mu) / B2R sigma in
  is_finite a = true -> 13 <= z a <= 30 -> b = B754_infinity false \/ is_finite b = true /\ 13 <= z b <= 30 -> is_finite x = true -> 13 <= z x <= 30 ->
  is_nan (trunc_fcdf N mu sigma a b x) = true.
Proof. intros N mu sigma a b x HN HT Hm Hs z Fa Ha Hb Fx Hx. exact (trunc_nan N HN mu sigma Hm Hs HT a b x Fa Ha Hb Fx Hx). Qed.
Print Assumptions C109_upper_tail.
Lemma zero_ok : location (dint 0).
Proof. destruct (int_ok_ 0 ltac:(lia)) as (F & V). split; [exact F|]. rewrite V, Rabs_R0. apply bpow_ge_0. Qed.
Lemma one_scale : scale (dint 1).
Proof. destruct (int_ok_ 1 ltac:(lia)) as (F & V). split; [exact F|]. rewrite V. change 1 with (bpow radix2 0). split; apply bpow_le; lia. Qed.
Theorem C109_upper_tail_refuted : exists N a x, accurate_e N /\ tail_accurate N /\ B2R a = 20 /\ B2R x = 25 /\
  is_nan (trunc_fcdf N (dint 0) (dint 1) a (B754_infinity false) x) = true /\ 0 < mass 0 1 a (B754_infinity false).
Proof.
  destruct (int_ok_ 0 ltac:(lia)) as (F0 & V0). destruct (int_ok_ 1 ltac:(lia)) as (F1 & V1). destruct (int_ok_ 20 ltac:(lia)) as (FA & VA). destruct (int_ok_ 25 ltac:(lia)) as (FX & VX).
  exists nan_libme, (dint 20), (dint 25). split; [exact nan_accurate_e|]. split; [exact nan_tail|]. split; [exact VA|]. split; [exact VX|]. split.
  - apply (C109_upper_tail nan_libme (dint 0) (dint 1) (dint 20) (B754_infinity false) (dint 25) nan_accurate_e nan_tail zero_ok one_scale FA); [rewrite V0, V1, VA; lra|left; reflexivity|exact FX|rewrite V0, V1, VX; lra].
  - unfold mass. replace (F_below 0 1 (dint 20)) with (F_normal 0 1 20). { cbn [F_below]. unfold F_normal. pose proof (gauss_cdf_range ((20 - 0) / 1)). lra. } rewrite <- VA at 1. destruct (dint 20); try discriminate FA; reflexivity.
Qed.

(** ** Examples: the upper half of the standard normal distribution *)
Lemma F_below_fin mu sg (a : double) v : is_finite a = true -> B2R a = v -> F_below mu sg a = F_normal mu sg v.
Proof. intros F <-. destruct a; try discriminate F; reflexivity. Qed.
Lemma half_mass : mass 0 1 (dint 0) (B754_infinity false) = / 2.
Proof.
  unfold mass. destruct (int_ok_ 0 ltac:(lia)) as (F0 & V0). rewrite (F_below_fin 0 1 (dint 0) 0 F0 V0).
  cbn [F_below]. unfold F_normal. replace ((0 - 0) / 1) with 0 by field. unfold gauss_cdf. rewrite RInt_point. change zero with 0. lra.
Qed.
Example C109_half : near (trunc_fcdf nan_libme (dint 0) (dint 1) (dint 0) (B754_infinity false) (dint 3)) (2 * gauss_cdf 3 - 1) (98 / 2 ^ 52).
Proof.
  destruct (int_ok_ 0 ltac:(lia)) as (F0 & V0). destruct (int_ok_ 1 ltac:(lia)) as (F1 & V1). destruct (int_ok_ 3 ltac:(lia)) as (F3 & V3). pose proof half_mass as HM.
  assert (K := C109_cdf nan_libme (dint 0) (dint 1) (dint 0) (B754_infinity false) (dint 3) nan_accurate_e zero_ok one_scale (or_introl F0) (or_intror eq_refl) F3). rewrite V0, V1 in K. cbv zeta in K. rewrite HM in K. destruct K as (A & B).
  - unfold bound_le. revert V0 V3 F0 F3. destruct (dint 0) as [c|c| |c e f g]; destruct (dint 3) as [c'|c'| |c' e' f' g']; intros V0 V3 F0 F3; try discriminate F0; try discriminate F3; rewrite V0, V3; lra.
  - unfold bound_le. destruct (dint 3); exact I || (destruct s; exact I).
  - change (/ 2) with (bpow radix2 (-1)). apply bpow_le. lia.
  - split; [exact A|]. unfold F_truncated in B. rewrite HM, V3 in B. unfold mass in HM. change (F_below 0 1 (B754_infinity false)) with 1 in HM. replace ((F_normal 0 1 3 - F_below 0 1 (dint 0)) / / 2) with (2 * gauss_cdf 3 - 1) in B; [lra|]. replace (F_below 0 1 (dint 0)) with (/ 2) by lra. unfold F_normal. replace ((3 - 0) / 1) with 3 by field. field.
Qed.
Example C109_half_pdf : density (trunc_fpdf nan_libme (dint 0) (dint 1) (dint 0) (B754_infinity false) (dint 3)) (2 * gauss_density 3) (120 / 2 ^ 52).
Proof.
  destruct (int_ok_ 0 ltac:(lia)) as (F0 & V0). destruct (int_ok_ 1 ltac:(lia)) as (F1 & V1). destruct (int_ok_ 3 ltac:(lia)) as (F3 & V3). pose proof half_mass as HM.
  assert (K := C109_pdf nan_libme (dint 0) (dint 1) (dint 0) (B754_infinity false) (dint 3) nan_accurate_e zero_ok one_scale (or_introl F0) (or_intror eq_refl) F3). rewrite V0, V1 in K. cbv zeta in K. unfold f_truncated, f_normal in K. rewrite HM, V3 in K. replace (gauss_density ((3 - 0) / 1) / 1 / / 2) with (2 * gauss_density 3) in K by (replace ((3 - 0) / 1) with 3 by field; field).
  replace (120 / 2 ^ 52) with (30 / 2 ^ 52 / (1 * (/ 2) ^ 2)) by field. apply K. change (/ 2) with (bpow radix2 (-1)). apply bpow_le. lia.
Qed.
