(** C108: pdf and cdf of geometric_dist in double. *)
From Coq Require Import ZArith Bool Reals Lia Lra Psatz.
From Coquelicot Require Import Coquelicot.
From Flocq Require Import Core IEEE754.BinarySingleNaN.
From Verif Require Import FloatFacts UniformModel UniformProofs FloatDrawModel FloatDrawSpec FloatDrawProofs FloatDrawCore FloatDrawLoc FloatDrawTrig FloatDrawLaw FloatDrawLibm DiscDrawModel DiscDrawTree FloatCdfModel FloatCdfSpec FloatCdfProofs FloatCdfCore FloatPdfSpec FloatPdfProofs FloatPdfNan Prop_FloatPdf FloatNormSpec FloatNormMax FloatGeomModel FloatGeomSpec FloatGeomProofs.
Local Open Scope R_scope.

Lemma sum_geometric p n : sum_f_R0 (fun k => p * (1 - p) ^ k) n = 1 - (1 - p) ^ S n.
Proof. induction n as [|n IH]; [cbn; ring|]. rewrite tech5, IH. cbn [pow]. ring. Qed.
Theorem C108_cdf : forall M p x, accurate_x M -> is_finite p = true -> 0 < B2R p < 1 -> (- 2 ^ 31 <= x < 2 ^ 31 - 1)%Z ->
  exists y, geometric_fcdf (x_base M) p x = Some y /\ near y (F_geometric (B2R p) x) ((Rmin (2 * IZR (Z.max 0 (x + 1))) (1 / B2R p) + 6) / 2 ^ 52).
Proof.
  intros M p x HM Fp Hp Hx. destruct (Z.ltb_spec x 0) as [N|N].
  - exists (dint 0). unfold geometric_fcdf, F_geometric. rewrite (proj2 (Z.ltb_lt x 0) N). split; [reflexivity|]. destruct (int_ok_ 0 ltac:(lia)) as (F0 & V0). split; [exact F0|]. rewrite V0, Rminus_0_r, Rabs_R0. rewrite Z.max_l by lia. rewrite Rmin_left; [lra|]. rewrite Rmult_0_r. apply Rmult_le_pos; [lra|]. left. apply Rinv_0_lt_compat. lra.
  - destruct (geom_cdf M HM p Fp Hp x ltac:(lia)) as (y & Y1 & Y2). exists y. split; [exact Y1|]. unfold F_geometric. rewrite (proj2 (Z.ltb_ge x 0) N), sum_geometric, Z.max_r by lia. replace (S (Z.to_nat x)) with (Z.to_nat (x + 1)) by lia. exact Y2.
Qed.
Print Assumptions C108_cdf.
Theorem C108_pdf : forall M p x, accurate_x M -> is_finite p = true -> bpow radix2 (-1000) <= B2R p < 1 -> (- 2 ^ 31 <= x < 2 ^ 31)%Z ->
  density (geometric_fpdf (x_base M) p x) (f_geometric (B2R p) x) ((Rmin (2 * IZR (Z.max 0 x)) (1 / B2R p) + 6) / 2 ^ 52 * B2R p).
Proof.
  intros M p x HM Fp Hp Hx. pose proof (bpow_gt_0 radix2 (-1000)) as B. destruct (Z.ltb_spec x 0) as [N|N].
  - unfold geometric_fpdf, f_geometric. rewrite (proj2 (Z.ltb_lt x 0) N). destruct (int_ok_ 0 ltac:(lia)) as (F0 & V0). split; [exact F0|]. rewrite V0, Rminus_0_r, Rabs_R0. split; [lra|]. rewrite Z.max_l by lia. rewrite Rmin_left; [apply Rmult_le_pos; lra|]. rewrite Rmult_0_r. apply Rmult_le_pos; [lra|]. left. apply Rinv_0_lt_compat. lra.
  - unfold f_geometric. rewrite (proj2 (Z.ltb_ge x 0) N), Z.max_r by lia. exact (geom_pdf M HM p Fp ltac:(lra) x (proj1 Hp) ltac:(lia)).
Qed.
Print Assumptions C108_pdf.

(** up to p = 2^-55 the parameter q is rounded to 1, and cdf is not positive whatever its exact value *)
Lemma fq_one p : is_finite p = true -> 0 < B2R p <= bpow radix2 (-55) -> is_finite (geometric_fq p) = true /\ B2R (geometric_fq p) = 1.
Proof.
  intros F H. destruct (int_ok_ 1 ltac:(lia)) as (F1 & V1). pose proof big_10 as BB. assert (S55 : bpow radix2 (-55) <= / 16) by (change (/ 16) with (bpow radix2 (-4)); apply bpow_le; lia). destruct (sub_ok (dint 1) p F1 F) as (S1 & S2); [rewrite V1, Rabs_pos_eq by lra; lra|]. rewrite V1 in S2. unfold geometric_fq. split; [exact S1|]. rewrite S2. apply Rle_antisym; [apply (rnd_le_fmt 53 1024 H3_64 H70_64); [apply (fmt_1 53 1024 H3_64 H70_64)|lra]|].
  pose proof (generic_format_B2R 53 1024 (dint 1)) as G. rewrite V1 in G. apply Rnot_lt_le. intros K.
  pose proof (pred_ge_gt radix2 (SpecFloat.fexp 53 1024) _ 1 (generic_format_round radix2 (SpecFloat.fexp 53 1024) ZnearestE (1 - B2R p)) G K) as A. rewrite (pred_1 53 1024 H3_64 H70_64) in A. change (Z.opp 53) with (-53)%Z in A.
  destruct (round_N_pt radix2 (SpecFloat.fexp 53 1024) (fun z => negb (Z.even z)) (1 - B2R p)) as (_ & D). specialize (D 1 G). replace (1 - (1 - B2R p)) with (B2R p) in D by ring. rewrite (Rabs_pos_eq (B2R p)) in D by lra. apply Rabs_le_inv in D. assert (bpow radix2 (-53) = 4 * bpow radix2 (-55)) by (change (-53)%Z with (2 + -55)%Z; rewrite bpow_plus; cbn; lra). pose proof (bpow_gt_0 radix2 (-55)). lra.
Qed.
Theorem C108_small_p : forall M p x, accurate_x M -> is_finite p = true -> 0 < B2R p <= bpow radix2 (-55) -> (0 <= x < 2 ^ 31 - 1)%Z ->
  exists y, geometric_fcdf (x_base M) p x = Some y /\ is_finite y = true /\ B2R y <= 0.
Proof.
  intros M p x HM F H Hx. destruct (fq_one p F H) as (Q1 & Q2). unfold geometric_fcdf. rewrite (proj2 (Z.ltb_ge x 0)), (proj2 (Z.ltb_lt (x + 1) (2 ^ 31))) by lia. eexists. split; [reflexivity|]. destruct (int_ok_ 1 ltac:(lia)) as (F1 & V1). destruct (int_ok_ (x + 1) ltac:(lia)) as (FN & VN). set (P := m_pow _ _ _).
  destruct (acc_pow _ (ax_base M HM) (geometric_fq p) (dint (x + 1)) Q1 FN ltac:(lra)) as (A1 & A2); [rewrite Q2, ln_1, Rmult_0_r, Rabs_R0; lra|]. pose proof (acc_pow_1 _ (ax_base M HM) (geometric_fq p) (dint (x + 1)) Q1 FN ltac:(lra) ltac:(rewrite Q2, ln_1, Rmult_0_r; lra)) as A3. fold P in A1, A2, A3. rewrite Q2 in A2. unfold Rpower in A2. rewrite ln_1, Rmult_0_r, exp_0 in A2. apply Rabs_le_inv in A2. pose proof big_10 as BB.
  destruct (sub_ok (dint 1) P F1 A1) as (S1 & S2); [rewrite V1; apply Rabs_le; lra|]. split; [exact S1|]. rewrite S2, V1. apply (rnd_le_fmt 53 1024 H3_64 H70_64); [apply generic_format_0|lra].
Qed.
Print Assumptions C108_small_p.

Theorem C108_small_p_refuted : exists M p x y, accurate_x M /\ is_finite p = true /\ 0 < B2R p < 1 /\ (0 <= x < 2 ^ 31 - 1)%Z /\
  geometric_fcdf (x_base M) p x = Some y /\ B2R y <= 0 /\ / 2 ^ 32 <= F_geometric (B2R p) x.
Proof.
  destruct (pow2_ok (-60) ltac:(lia)) as (A & B). set (p := nearest (bpow radix2 (-60))) in *. assert (H : 0 < B2R p <= bpow radix2 (-55)) by (rewrite B; split; [apply bpow_gt_0|apply bpow_le; lia]). assert (S55 : bpow radix2 (-55) <= / 16) by (change (/ 16) with (bpow radix2 (-4)); apply bpow_le; lia).
  destruct (C108_small_p nan_libmx p (2 ^ 30) nan_accurate A H ltac:(lia)) as (y & Y1 & _ & Y2). exists nan_libmx, p, (2 ^ 30)%Z, y. split; [exact nan_accurate|]. split; [exact A|]. split; [lra|]. split; [lia|]. split; [exact Y1|]. split; [exact Y2|].
  unfold F_geometric. change (2 ^ 30 <? 0)%Z with false. cbv iota. rewrite sum_geometric. replace (S (Z.to_nat (2 ^ 30))) with (Z.to_nat (2 ^ 30 + 1)) by lia. rewrite <- (W_pow p ltac:(lra) (2 ^ 30 + 1)) by lia. unfold W. assert (LT : B2R p <= - ln (1 - B2R p)). { pose proof (exp_1m (- B2R p)) as X. assert (ln (1 - B2R p) <= - B2R p) by (rewrite <- (ln_exp (- B2R p)); apply ln_le; lra). lra. }
  assert (Z1 : / 2 ^ 30 <= IZR (2 ^ 30 + 1) * - ln (1 - B2R p)). { apply Rle_trans with (IZR (2 ^ 30 + 1) * B2R p); [|apply Rmult_le_compat_l; [apply IZR_le; lia|exact LT]]. rewrite B. change (IZR (2 ^ 30 + 1)) with 1073741825. cbn. lra. }
  assert (E : exp (- (IZR (2 ^ 30 + 1) * - ln (1 - B2R p))) <= exp (- / 2 ^ 30)) by (apply exp_le; lra). assert (E2 : exp (- / 2 ^ 30) <= 1 - / 2 ^ 31). { rewrite exp_Ropp. pose proof (exp_1m (/ 2 ^ 30)) as X. apply Rle_trans with (/ (1 + / 2 ^ 30)); [apply Rinv_le_contravar; lra|lra]. } lra.
Qed.
Print Assumptions C108_small_p_refuted.
(** cdf(max()) overflows int *)
Theorem C108_max_refuted : exists p x, is_finite p = true /\ 0 < B2R p < 1 /\ (0 <= x < 2 ^ 31)%Z /\ forall L, geometric_fcdf L p x = None.
Proof.
  destruct (pow2_ok (-1) ltac:(lia)) as (A & B). exists (nearest (bpow radix2 (-1))), (2 ^ 31 - 1)%Z. rewrite B. split; [exact A|]. split; [cbn; lra|]. split; [lia|]. intros L. reflexivity.
Qed.

(** ** Examples *)
Example C108_half : exists y, geometric_fcdf (x_base nan_libmx) (nearest (bpow radix2 (-1))) 1 = Some y /\ near y (3 / 4) (8 / 2 ^ 52).
Proof.
  destruct (pow2_ok (-1) ltac:(lia)) as (A & B). destruct (C108_cdf nan_libmx _ 1 nan_accurate A ltac:(rewrite B; cbn; lra) ltac:(lia)) as (y & Y1 & Y2 & Y3). exists y. split; [exact Y1|]. split; [exact Y2|]. rewrite B in Y3. assert (E : F_geometric (bpow radix2 (-1)) 1 = 3 / 4) by (change (bpow radix2 (-1)) with (/ 2); unfold F_geometric; change (1 <? 0)%Z with false; cbv iota; rewrite sum_geometric; change (S (Z.to_nat 1)) with 2%nat; field). rewrite E in Y3. apply Rle_trans with (1 := Y3). pose proof (Rmin_r (2 * IZR (Z.max 0 (1 + 1))) (1 / bpow radix2 (-1))) as X. change (bpow radix2 (-1)) with (/ 2) in *. lra.
Qed.
Example C108_half_pdf : density (geometric_fpdf (x_base nan_libmx) (nearest (bpow radix2 (-1))) 3) (/ 16) (4 / 2 ^ 52).
Proof.
  destruct (pow2_ok (-1) ltac:(lia)) as (A & B). assert (P : bpow radix2 (-1000) <= bpow radix2 (-1)) by (apply bpow_le; lia). destruct (C108_pdf nan_libmx _ 3 nan_accurate A ltac:(rewrite B; split; [exact P|cbn; lra]) ltac:(lia)) as (Y1 & Y2 & Y3). split; [exact Y1|]. split; [exact Y2|]. rewrite B in Y3. assert (E : f_geometric (bpow radix2 (-1)) 3 = / 16) by (change (bpow radix2 (-1)) with (/ 2); unfold f_geometric; change (3 <? 0)%Z with false; cbv iota; change (Z.to_nat 3) with 3%nat; field). rewrite E in Y3. apply Rle_trans with (1 := Y3). pose proof (Rmin_r (2 * IZR (Z.max 0 3)) (1 / bpow radix2 (-1))) as X. change (bpow radix2 (-1)) with (/ 2) in *. lra.
Qed.
