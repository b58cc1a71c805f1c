(** C106: pdf and cdf of the normal, lognormal and Maxwell distributions in double. *)
From Coq Require Import ZArith Bool Reals Lia Lra Psatz.
From Coquelicot Require Import Coquelicot.
From Flocq Require Import Core IEEE754.BinarySingleNaN.
From Verif Require Import FloatFacts UniformModel UniformProofs FloatDrawModel FloatDrawSpec FloatDrawProofs FloatDrawCore FloatDrawLoc FloatDrawTrig FloatDrawLaw FloatDrawLibm DiscDrawTree FloatCdfModel FloatCdfSpec FloatCdfProofs FloatCdfCore FloatPdfSpec FloatPdfProofs FloatPdfTail FloatPdfNan Prop_FloatPdf FloatNormModel FloatNormSpec NormModel NormProofs FloatNormProofs FloatNormPdf FloatNormLog FloatNormMax FloatNormTail.
Local Open Scope R_scope.

(** ** Distribution functions *)
Theorem C106_normal_cdf : forall N mu sigma x, accurate_e N -> location mu -> scale sigma -> is_finite x = true ->
  computes (normal_fcdf N mu sigma x) (F_normal (B2R mu) (B2R sigma) (B2R x)) (11 / 2 ^ 52).
Proof. intros N mu sigma x HN H0 H1 F. exact (normal_cdf N HN mu sigma x H0 H1 F). Qed.
(** in the lower tail the error is small compared to the value itself *)
Theorem C106_normal_tail : forall N mu sigma x, accurate_e N -> tail_accurate N -> location mu -> scale sigma -> is_finite x = true ->
  let z := (B2R x - B2R mu) / B2R sigma in -30 <= z <= -1 ->
  near (normal_fcdf N mu sigma x) (F_normal (B2R mu) (B2R sigma) (B2R x)) ((32 * z ^ 2 + 4) / 2 ^ 52 * F_normal (B2R mu) (B2R sigma) (B2R x)).
Proof. intros N mu sigma x HN HT H0 H1 F z Hz. exact (normal_tail N HN HT mu sigma x H0 H1 F Hz). Qed.
(** the logarithm is rounded before it is divided by sigma *)
Theorem C106_lognormal_cdf : forall N mu sigma x, accurate_e N -> location mu -> scale sigma -> is_finite x = true ->
  computes (lognormal_fcdf N mu sigma x) (F_lognormal (B2R mu) (B2R sigma) (B2R x)) ((8 + 8 * Rabs (ln (B2R x)) / B2R sigma) / 2 ^ 52).
Proof. intros N mu sigma x HN H0 H1 F. exact (lognormal_cdf N HN mu sigma x H0 H1 F). Qed.
Theorem C106_maxwell_cdf : forall N theta x, accurate_e N -> ends (e_base N) -> scale theta -> is_finite x = true -> 0 <= B2R x ->
  near (maxwell_fcdf N theta x) (F_maxwell (B2R theta) (B2R x)) (130 / 2 ^ 52).
Proof. intros N theta x HN HE H F X. exact (maxwell_cdf N HN HE theta x H F X). Qed.

(** ** Densities *)
Theorem C106_normal_pdf : forall N mu sigma x, accurate_e N -> location mu -> scale sigma -> is_finite x = true ->
  density (normal_fpdf N mu sigma x) (f_normal (B2R mu) (B2R sigma) (B2R x)) (12 / 2 ^ 52 / B2R sigma).
Proof. intros N mu sigma x HN H0 H1 F. exact (normal_pdf N HN mu sigma x H0 H1 F). Qed.
Theorem C106_lognormal_pdf : forall N mu sigma x, accurate_e N -> location mu -> scale sigma -> is_finite x = true ->
  (B2R x <= 0 -> lognormal_fpdf N mu sigma x = dint 0) /\
  (0 < B2R x -> bpow radix2 (-640) <= B2R x * B2R sigma <= bpow radix2 640 ->
   density (lognormal_fpdf N mu sigma x) (f_lognormal (B2R mu) (B2R sigma) (B2R x)) ((20 + 4 * Rabs (ln (B2R x)) / B2R sigma) / 2 ^ 52 / (B2R x * B2R sigma))).
Proof.
  intros N mu sigma x HN H0 H1 F. split; intros X; [|intros R].
  - destruct (lognormal_pdf N HN mu sigma x H0 H1 F (or_introl X)) as [(_ & A)|(A & _)]; [exact A|lra].
  - destruct (lognormal_pdf N HN mu sigma x H0 H1 F (or_intror R)) as [(A & _)|(_ & A)]; [lra|exact A].
Qed.
Theorem C106_maxwell_pdf : forall N theta x, accurate_e N -> ends (e_base N) -> scale theta -> is_finite x = true -> Rabs (B2R x) <= bpow radix2 500 ->
  density (maxwell_fpdf N theta x) (f_maxwell (B2R theta) (B2R x)) (130 / 2 ^ 52 / B2R theta).
Proof. intros N theta x HN HE H F X. exact (maxwell_pdf N HN HE theta x H F X). Qed.

(** ** NaN *)
Theorem C106_lognormal_small : forall N mu sigma x, accurate_e N -> ends (e_base N) -> is_finite mu = true -> Rabs (B2R mu) <= 100 -> is_finite sigma = true -> 1 <= B2R sigma <= 4 -> is_finite x = true -> 0 < B2R x <= bpow radix2 (-1033) ->
  lognormal_fpdf N mu sigma x = dnan.
Proof. intros N mu sigma x HN HE F0 H0 F1 H1 F X. exact (lognormal_nan N HN HE mu sigma x F0 F1 H0 H1 F X). Qed.
Theorem C106_maxwell_large : forall N theta x, accurate_e N -> scale theta -> is_finite x = true -> bpow radix2 512 <= Rabs (B2R x) -> maxwell_fpdf N theta x = dnan.
Proof. intros N theta x HN H F X. exact (maxwell_nan N HN theta x H F X). Qed.

(** ** A library that meets the assumptions *)
Definition nan_libme : libme := Libme nan_libmx
  (fun x => match x with B754_infinity s => if s then dint (-1) else dint 1 | _ => nearest (error_function (B2R x)) end)
  (fun x => match x with B754_infinity s => if s then dint 2 else dint 0 | _ => nearest (1 - error_function (B2R x)) end).
Lemma near_range y a b : -1 <= a -> b <= 2 -> a <= y <= b -> generic_format radix2 (SpecFloat.fexp 53 1024) a -> generic_format radix2 (SpecFloat.fexp 53 1024) b ->
  is_finite (nearest y) = true /\ a <= B2R (nearest y) <= b /\ Rabs (B2R (nearest y) - y) <= / 2 ^ 51.
Proof.
  intros A B H FA FB. pose proof q_pos as Q. pose proof big_10 as BB. pose proof tiny_small as T. assert (Y : Rabs y <= 2) by (apply Rabs_le; lra). destruct (nearest_ok y ltac:(lra)) as (N1 & N2). split; [exact N1|]. rewrite N2. split; [split; [apply (rnd_ge_fmt 53 1024 H3_64 H70_64); [exact FA|lra]|apply (rnd_le_fmt 53 1024 H3_64 H70_64); [exact FB|lra]]|].
  pose proof (rnd_err y) as R. assert (q / 2 * Rabs y <= q / 2 * 2) by (apply Rmult_le_compat_l; lra). replace (/ 2 ^ 51) with (2 * q) by (unfold q; field). lra.
Qed.
Lemma nan_accurate_e : accurate_e nan_libme.
Proof.
  pose proof (fmt_1 53 1024 H3_64 H70_64) as F1. assert (F0 : generic_format radix2 (SpecFloat.fexp 53 1024) 0) by apply generic_format_0. assert (F2 : generic_format radix2 (SpecFloat.fexp 53 1024) 2) by (change 2 with (bpow radix2 1); apply (fmt_bpow 53 1024 H3_64 H70_64); lia). assert (FM : generic_format radix2 (SpecFloat.fexp 53 1024) (-1)) by (replace (-1) with (- (1)) by ring; apply generic_format_opp, F1).
  assert (EB : forall x, -1 <= error_function x <= 1) by (intros x; rewrite erf_eq; pose proof (erf_bound x); lra).
  split.
  - exact nan_accurate.
  - intros x F. pose proof (EB (B2R x)). replace (e_erf nan_libme x) with (nearest (error_function (B2R x))) by (destruct x; try discriminate F; reflexivity). apply near_range; try assumption; lra.
  - intros s. destruct s; cbn [nan_libme e_erf]; [exact int_m1|]. destruct (int_ok_ 1 ltac:(lia)) as (A & B). split; assumption.
  - intros x F. pose proof (EB (B2R x)). replace (e_erfc nan_libme x) with (nearest (1 - error_function (B2R x))) by (destruct x; try discriminate F; reflexivity). apply near_range; try assumption; lra.
  - intros s. destruct s; cbn [nan_libme e_erfc]; [destruct (int_ok_ 2 ltac:(lia)) as (A & B)|destruct (int_ok_ 0 ltac:(lia)) as (A & B)]; split; assumption.
Qed.

Lemma nan_tail : tail_accurate nan_libme.
Proof.
  intros x F H. replace (e_erfc nan_libme x) with (nearest (1 - error_function (B2R x))) by (destruct x; try discriminate F; reflexivity). rewrite erf_eq. pose proof q_pos as Q. pose proof big_10 as BB. pose proof (erf_bound (B2R x)) as EB. pose proof (erfc_low (B2R x) ltac:(lra)) as L. destruct (nearest_ok (1 - erf (B2R x)) ltac:(rewrite Rabs_pos_eq; lra)) as (_ & N2). rewrite N2.
  assert (B : bpow radix2 (-1020) <= bpow radix2 (-976)) by (apply bpow_le; lia). pose proof (rnd_rel (1 - erf (B2R x)) ltac:(right; rewrite Rabs_pos_eq; lra)) as R. rewrite (Rabs_pos_eq (1 - erf (B2R x))) in R by lra. replace (/ 2 ^ 51) with (2 * q) by (unfold q; field). assert (0 <= q * (1 - erf (B2R x))) by (apply Rmult_le_pos; lra). lra.
Qed.

(** pdf is not a number although the density tends to 0 there *)
Theorem C106_maxwell_refuted : exists N x, accurate_e N /\ ends (e_base N) /\ is_finite x = true /\ B2R x = bpow radix2 512 /\ is_nan (maxwell_fpdf N (dint 1) x) = true.
Proof.
  exists nan_libme, (nearest (bpow radix2 512)). destruct (pow2_ok 512 ltac:(lia)) as (A & B). destruct (int_ok_ 1 ltac:(lia)) as (F1 & V1). assert (S : scale (dint 1)) by (split; [exact F1|]; rewrite V1; split; [change 1 with (bpow radix2 0); apply bpow_le; lia|change 1 with (bpow radix2 0); apply bpow_le; lia]).
  split; [exact nan_accurate_e|]. split; [exact nan_ends|]. split; [exact A|]. split; [exact B|]. rewrite (C106_maxwell_large nan_libme _ _ nan_accurate_e S A); [reflexivity|]. rewrite B, Rabs_pos_eq; [lra|left; apply bpow_gt_0].
Qed.
Definition least : double := @B754_finite 53 1024 false 1 (-1074) eq_refl.
Theorem C106_lognormal_refuted : exists N, accurate_e N /\ ends (e_base N) /\ 0 < B2R least /\ is_nan (lognormal_fpdf N (dint 0) (dint 1) least) = true.
Proof.
  exists nan_libme. destruct (int_ok_ 1 ltac:(lia)) as (F1 & V1). destruct (int_ok_ 0 ltac:(lia)) as (F0 & V0). assert (L : B2R least = bpow radix2 (-1074)) by (unfold least; cbn [B2R]; unfold F2R; cbn [Fnum Fexp cond_Zopp]; ring). pose proof (bpow_gt_0 radix2 (-1074)) as P.
  split; [exact nan_accurate_e|]. split; [exact nan_ends|]. split; [rewrite L; exact P|]. rewrite (C106_lognormal_small nan_libme _ _ _ nan_accurate_e nan_ends F0 ltac:(rewrite V0, Rabs_R0; lra) F1 ltac:(rewrite V1; lra)); [reflexivity|reflexivity|]. rewrite L. split; [exact P|apply bpow_le; lia].
Qed.

(** the hypotheses are met by ordinary parameters *)
Example C106_example : accurate_e nan_libme /\ ends (e_base nan_libme) /\ location (dint 7) /\ scale (dint 3) /\
  computes (normal_fcdf nan_libme (dint 7) (dint 3) (dint 5)) (gauss_cdf ((5 - 7) / 3)) (11 / 2 ^ 52) /\
  density (normal_fpdf nan_libme (dint 7) (dint 3) (dint 5)) (gauss_density ((5 - 7) / 3) / 3) (12 / 2 ^ 52 / 3) /\
  computes (lognormal_fcdf nan_libme (dint 7) (dint 3) (dint 5)) (gauss_cdf ((ln 5 - 7) / 3)) ((8 + 8 * Rabs (ln 5) / 3) / 2 ^ 52) /\
  near (maxwell_fcdf nan_libme (dint 3) (dint 5)) (RInt (f_maxwell 3) 0 5) (130 / 2 ^ 52) /\
  density (maxwell_fpdf nan_libme (dint 3) (dint 5)) (sqrt (2 / PI) * (5 / 3) ^ 2 * exp (- ((5 / 3) ^ 2 / 2)) / 3) (130 / 2 ^ 52 / 3).
Proof.
  destruct (int_ok_ 3 ltac:(lia)) as (F3 & V3). destruct (int_ok_ 7 ltac:(lia)) as (F7 & V7). destruct (int_ok_ 5 ltac:(lia)) as (F5 & V5).
  assert (P : 8 <= bpow radix2 300) by (change 8 with (bpow radix2 3); apply bpow_le; lia). assert (N : bpow radix2 (-300) <= 1) by (change 1 with (bpow radix2 0); apply bpow_le; lia). assert (P5 : 8 <= bpow radix2 500) by (change 8 with (bpow radix2 3); apply bpow_le; lia).
  assert (S : scale (dint 3)) by (split; [exact F3|rewrite V3; lra]). assert (L : location (dint 7)) by (split; [exact F7|rewrite V7, Rabs_pos_eq; lra]).
  split; [exact nan_accurate_e|]. split; [exact nan_ends|]. split; [exact L|]. split; [exact S|].
  pose proof (C106_normal_cdf nan_libme (dint 7) (dint 3) (dint 5) nan_accurate_e L S F5) as A. pose proof (C106_normal_pdf nan_libme (dint 7) (dint 3) (dint 5) nan_accurate_e L S F5) as B. pose proof (C106_lognormal_cdf nan_libme (dint 7) (dint 3) (dint 5) nan_accurate_e L S F5) as C.
  pose proof (C106_maxwell_cdf nan_libme (dint 3) (dint 5) nan_accurate_e nan_ends S F5) as D. pose proof (C106_maxwell_pdf nan_libme (dint 3) (dint 5) nan_accurate_e nan_ends S F5) as E.
  rewrite V3, ?V5, ?V7 in *. unfold F_normal in A. unfold f_normal in B. unfold F_lognormal in C. destruct (Rle_dec 5 0) as [K|_]; [lra|]. split; [exact A|]. split; [exact B|]. split; [exact C|]. split; [apply D; lra|]. apply E. rewrite Rabs_pos_eq; lra.
Qed.
Example C106_example_tail : accurate_e nan_libme /\ tail_accurate nan_libme /\ location (dint 50) /\ scale (dint 2) /\
  near (normal_fcdf nan_libme (dint 50) (dint 2) (dint 0)) (gauss_cdf (-25)) (20004 / 2 ^ 52 * gauss_cdf (-25)).
Proof.
  destruct (int_ok_ 2 ltac:(lia)) as (F2 & V2). destruct (int_ok_ 50 ltac:(lia)) as (F50 & V50). destruct (int_ok_ 0 ltac:(lia)) as (F0 & V0). 
  assert (L : location (dint 50)) by (split; [exact F50|rewrite V50, Rabs_pos_eq; [|lra]; apply Rle_trans with (bpow radix2 8); [cbn; lra|apply bpow_le; lia]]).
  assert (S : scale (dint 2)) by (split; [exact F2|rewrite V2; split; [apply Rle_trans with (bpow radix2 0); [apply bpow_le; lia|cbn; lra]|apply Rle_trans with (bpow radix2 8); [cbn; lra|apply bpow_le; lia]]]).
  split; [exact nan_accurate_e|]. split; [exact nan_tail|]. split; [exact L|]. split; [exact S|]. pose proof (C106_normal_tail nan_libme (dint 50) (dint 2) (dint 0) nan_accurate_e nan_tail L S F0) as A. cbv zeta in A. unfold F_normal in A. rewrite V0, V2, V50 in A. replace ((0 - 50) / 2) with (-25) in A by field. replace (32 * (-25) ^ 2 + 4) with 20004 in A by ring. apply A. lra.
Qed.
Example C106_example_lognormal : density (lognormal_fpdf nan_libme (dint 7) (dint 3) (dint 5)) (gauss_density ((ln 5 - 7) / 3) / (5 * 3)) ((20 + 4 * Rabs (ln 5) / 3) / 2 ^ 52 / (5 * 3)).
Proof.
  destruct (int_ok_ 3 ltac:(lia)) as (F3 & V3). destruct (int_ok_ 7 ltac:(lia)) as (F7 & V7). destruct (int_ok_ 5 ltac:(lia)) as (F5 & V5).
  assert (P : 8 <= bpow radix2 300) by (change 8 with (bpow radix2 3); apply bpow_le; lia). assert (N : bpow radix2 (-300) <= 1) by (change 1 with (bpow radix2 0); apply bpow_le; lia). assert (P6 : 16 <= bpow radix2 640) by (change 16 with (bpow radix2 4); apply bpow_le; lia). assert (N6 : bpow radix2 (-640) <= 1) by (change 1 with (bpow radix2 0); apply bpow_le; lia).
  assert (S : scale (dint 3)) by (split; [exact F3|rewrite V3; lra]). assert (L : location (dint 7)) by (split; [exact F7|rewrite V7, Rabs_pos_eq; lra]).
  pose proof (proj2 (C106_lognormal_pdf nan_libme (dint 7) (dint 3) (dint 5) nan_accurate_e L S F5)) as A. rewrite V3, V5, V7 in A. unfold f_lognormal in A. destruct (Rle_dec 5 0) as [K|_]; [lra|]. apply A; lra.
Qed.

Print Assumptions C106_normal_cdf.
Print Assumptions C106_normal_tail.
Print Assumptions C106_lognormal_cdf.
Print Assumptions C106_maxwell_cdf.
Print Assumptions C106_lognormal_pdf.
Print Assumptions C106_maxwell_refuted.
