(** pdf and cdf of geometric_dist in double. *)
From Coq Require Import ZArith Bool Reals Lia Lra Psatz.
From Coquelicot Require Import Coquelicot.
From Flocq Require Import Core IEEE754.BinarySingleNaN.
From Verif Require Import FloatFacts UniformModel UniformProofs FloatDrawModel FloatDrawSpec FloatDrawProofs FloatDrawCore FloatDrawLoc FloatDrawTrig FloatDrawLaw FloatDrawLibm DiscDrawModel DiscDrawTree FloatCdfModel FloatCdfSpec FloatCdfProofs FloatCdfCore FloatPdfSpec FloatPdfProofs FloatNormSpec FloatNormMax FloatGeomModel.
Local Open Scope R_scope.
Notation rnd := (round radix2 (SpecFloat.fexp 53 1024) ZnearestE).

Lemma ye y : 0 <= y -> y * exp (- y) <= / 2.
Proof.
  intros H. assert (E : 2 * y <= exp y). { replace y with (y / 2 + y / 2) at 2 by field. rewrite exp_plus. pose proof (exp_1m (y / 2)) as A. assert ((1 + y / 2) * (1 + y / 2) <= exp (y / 2) * exp (y / 2)) by (apply Rmult_le_compat; lra). pose proof (Rle_0_sqr (1 - y / 2)) as S. unfold Rsqr in S. lra. }
  rewrite exp_Ropp. pose proof (exp_pos y) as P. apply Rmult_le_reg_r with (exp y); [exact P|]. replace (y * / exp y * exp y) with y by (field; lra). lra.
Qed.
Lemma exp_near d : Rabs d <= / 2 -> Rabs (exp (- d) - 1) <= 2 * Rabs d.
Proof.
  intros H. pose proof (Rabs_le_inv _ _ H) as H'. pose proof (exp_1m (- d)) as A. destruct (Rle_lt_dec d 0) as [K|K].
  - rewrite (Rabs_left1 d) by exact K. pose proof (exp_up (- d) ltac:(lra) ltac:(lra)). apply Rabs_le. lra.
  - rewrite (Rabs_pos_eq d) by lra. assert (exp (- d) <= 1) by (rewrite <- exp_0; apply exp_le; lra). apply Rabs_le. lra.
Qed.

Section Geometric.
Variable M : libmx.
Hypothesis HM : accurate_x M.
Let L := x_base M.
Variable p : double.
Hypothesis Fp : is_finite p = true.
Hypothesis Hp : 0 < B2R p < 1.
Let t := 1 - B2R p.
Lemma fq_ok : is_finite (geometric_fq p) = true /\ B2R (geometric_fq p) <= 1 /\ lc q (B2R (geometric_fq p)) t.
Proof.
  pose proof q_pos as Q. destruct (int_ok_ 1 ltac:(lia)) as (F1 & V1). pose proof big_10 as BB. destruct (sub_ok (dint 1) p F1 Fp) as (S1 & S2); [rewrite V1, Rabs_pos_eq by lra; lra|]. rewrite V1 in S2. unfold geometric_fq. split; [exact S1|]. rewrite S2. split; [apply (rnd_le_fmt 53 1024 H3_64 H70_64); [apply (fmt_1 53 1024 H3_64 H70_64)|lra]|]. fold t.
  assert (T : bpow radix2 (-1010) <= t). { pose proof (pred_ge_gt radix2 (SpecFloat.fexp 53 1024) (B2R p) 1 (generic_format_B2R 53 1024 p) (fmt_1 53 1024 H3_64 H70_64) (proj2 Hp)) as A. rewrite (pred_1 53 1024 H3_64 H70_64) in A. change (Z.opp 53) with (-53)%Z in A. rewrite u_eq in A. apply Rle_trans with (bpow radix2 (-53)); [apply bpow_le; lia|]. rewrite u_eq. unfold t. lra. }
  pose proof (bpow_gt_0 radix2 (-1010)) as TB. pose proof (rnd_lc 0 t t (lc_refl t ltac:(lra)) ltac:(lra)) as K. rewrite Rplus_0_l in K. apply K. split; [exact T|]. apply Rle_trans with 1; [unfold t; lra|]. change 1 with (bpow radix2 0). apply bpow_le. lia.
Qed.
Definition W (n : Z) : R := exp (- (IZR n * - ln t)).
Lemma W_pow n : (0 <= n)%Z -> W n = t ^ Z.to_nat n.
Proof. intros H. unfold W. rewrite <- Rpower_pow by (unfold t; lra). unfold Rpower. f_equal. rewrite INR_IZR_INZ, Z2Nat.id by exact H. ring. Qed.
Lemma W_p n : (0 <= n)%Z -> 2 * IZR n * W n <= Rmin (2 * IZR n) (1 / B2R p) /\ 0 < W n <= 1.
Proof.
  intros H. pose proof (IZR_le 0 n H) as N. assert (LT : B2R p <= - ln t). { pose proof (exp_1m (- B2R p)) as A. assert (X : ln t <= - B2R p) by (rewrite <- (ln_exp (- B2R p)); apply ln_le; unfold t; lra). lra. }
  assert (E1 : W n <= exp (- (IZR n * B2R p))) by (unfold W; apply exp_le; assert (IZR n * B2R p <= IZR n * - ln t) by (apply Rmult_le_compat_l; lra); lra). assert (NP : 0 <= IZR n * B2R p) by (apply Rmult_le_pos; lra). assert (W0 : 0 < W n) by apply exp_pos. assert (W1 : W n <= 1) by (apply Rle_trans with (1 := E1); rewrite <- exp_0; apply exp_le; lra).
  split; [|lra]. apply Rmin_glb.
  - assert (2 * IZR n * W n <= 2 * IZR n * 1) by (apply Rmult_le_compat_l; lra). lra.
  - pose proof (ye _ NP) as Y. apply Rmult_le_reg_r with (B2R p); [lra|]. replace (1 / B2R p * B2R p) with 1 by (field; lra). assert (IZR n * B2R p * W n <= IZR n * B2R p * exp (- (IZR n * B2R p))) by (apply Rmult_le_compat_l; lra). lra.
Qed.
Lemma qpow n : (0 <= n < 2 ^ 31)%Z -> is_finite (m_pow L (geometric_fq p) (dint n)) = true /\ 0 <= B2R (m_pow L (geometric_fq p) (dint n)) /\
  Rabs (B2R (m_pow L (geometric_fq p) (dint n)) - W n) <= (Rmin (2 * IZR n) (1 / B2R p) + 4) * q.
Proof.
  intros H. pose proof q_pos as Q. assert (Q1 : q <= / 1000000000000) by (unfold q; lra). destruct fq_ok as (F & F1 & C1 & C2 & C3). destruct (int_ok_ n ltac:(lia)) as (FN & VN). destruct (W_p n ltac:(lia)) as (WP & W0 & W1). set (r := Rmin (2 * IZR n) (1 / B2R p)) in *.
  pose proof (IZR_le 0 n ltac:(lia)) as N. assert (N2 : IZR n <= 2147483648) by (apply IZR_le; lia). set (x := B2R (geometric_fq p)) in *. assert (LX : ln x <= 0) by (rewrite <- ln_1; apply ln_le; lra).
  set (d := IZR n * - ln x - IZR n * - ln t). assert (D : Rabs d <= IZR n * q). { unfold d. replace (IZR n * - ln x - IZR n * - ln t) with (- (IZR n * (ln x - ln t))) by ring. rewrite Rabs_Ropp, Rabs_mult, (Rabs_pos_eq (IZR n)) by exact N. apply Rmult_le_compat_l; lra. }
  assert (NQ : IZR n * q <= / 400) by (apply Rle_trans with (2147483648 * / 1000000000000); [apply Rmult_le_compat; lra|lra]). pose proof (exp_near d ltac:(lra)) as ED. assert (EX : exp (- (IZR n * - ln x)) = W n * exp (- d)) by (unfold W, d; rewrite <- exp_plus; f_equal; ring). pose proof (Rabs_le_inv _ _ ED) as ED'. pose proof (Rabs_le_inv _ _ D) as D'. pose proof (exp_pos (- d)) as P0.
  assert (E1 : Rabs (W n * exp (- d) - W n) <= r * q). { replace (W n * exp (- d) - W n) with (W n * (exp (- d) - 1)) by ring. rewrite Rabs_mult, (Rabs_pos_eq (W n)) by lra. apply Rle_trans with (W n * (2 * (IZR n * q))); [apply Rmult_le_compat_l; lra|]. replace (W n * (2 * (IZR n * q))) with (2 * IZR n * W n * q) by ring. apply Rmult_le_compat_r; lra. }
  pose proof (Rabs_le_inv _ _ E1) as E1'. destruct (Rle_lt_dec (IZR n * - ln x) 400) as [K|K].
  - destruct (acc_pow L (ax_base M HM) (geometric_fq p) (dint n) F FN C1) as (A1 & A2); [rewrite VN; fold x; rewrite Rabs_left1; [lra|]; assert (0 <= IZR n * - ln x) by (apply Rmult_le_pos; lra); lra|]. split; [exact A1|]. unfold Rpower in A2. rewrite VN in A2. fold x in A2. replace (IZR n * ln x) with (- (IZR n * - ln x)) in A2 by ring. rewrite EX in A2. replace (/ 2 ^ 51) with (2 * q) in A2 by (unfold q; field). apply Rabs_le_inv in A2.
    assert (B : W n * exp (- d) <= 1 * (101 / 100)) by (apply Rmult_le_compat; lra). assert (B0 : 0 < W n * exp (- d)) by (apply Rmult_lt_0_compat; lra). assert (B1 : 2 * q * (W n * exp (- d)) <= 2 * q * (101 / 100)) by (apply Rmult_le_compat_l; lra). assert (B2 : 2 * q * (W n * exp (- d)) <= / 2 * (W n * exp (- d))) by (apply Rmult_le_compat_r; lra). split; [lra|]. apply Rabs_le. lra.
  - destruct (ax_pow_small M HM (geometric_fq p) (dint n) F FN C1 ltac:(rewrite VN; fold x; lra)) as (A1 & A2). fold L in A1, A2. split; [exact A1|]. split; [lra|]. assert (WS : W n <= q / 2) by (unfold W; apply exp_tail; unfold d in D'; lra). assert (S : / 2 ^ 100 <= q) by (unfold q; apply Rinv_le_contravar; [lra|]; apply Rle_pow; [lra|lia]). assert (R0 : 0 <= r) by (apply Rle_trans with (2 := WP); apply Rmult_le_pos; lra). assert (0 <= r * q) by (apply Rmult_le_pos; lra). apply Rabs_le. lra.
Qed.
Lemma geom_cdf x : (0 <= x < 2 ^ 31 - 1)%Z -> exists y, geometric_fcdf L p x = Some y /\ near y (1 - t ^ Z.to_nat (x + 1)) ((Rmin (2 * IZR (x + 1)) (1 / B2R p) + 6) * q).
Proof.
  intros H. pose proof q_pos as Q. pose proof big_10 as BB. pose proof tiny_small as TS. unfold geometric_fcdf. rewrite (proj2 (Z.ltb_ge x 0)), (proj2 (Z.ltb_lt (x + 1) (2 ^ 31))) by lia. eexists. split; [reflexivity|]. rewrite <- W_pow by lia. destruct (qpow (x + 1) ltac:(lia)) as (A1 & A2 & A3). destruct (W_p (x + 1) ltac:(lia)) as (_ & W0 & W1). set (r := Rmin _ _) in *. set (P := m_pow L _ _) in *. destruct (int_ok_ 1 ltac:(lia)) as (F1 & V1).
  pose proof (Rabs_le_inv _ _ A3) as A3'. assert (RB : r * q <= 1). { unfold r. apply Rle_trans with (2 * IZR (x + 1) * q); [apply Rmult_le_compat_r; [lra|apply Rmin_l]|]. pose proof (IZR_le (x + 1) (2 ^ 31) ltac:(lia)) as X. change (IZR (2 ^ 31)) with 2147483648 in X. pose proof (IZR_le 0 (x + 1) ltac:(lia)). apply Rle_trans with (2 * 2147483648 * / 1000000000000); [apply Rmult_le_compat; try lra; unfold q; lra|lra]. } assert (Q1 : q <= / 1000000000000) by (unfold q; lra).
  destruct (sub_ok (dint 1) P F1 A1) as (S1 & S2); [rewrite V1; apply Rabs_le; lra|]. split; [exact S1|]. rewrite S2, V1. pose proof (rnd_err (1 - B2R P)) as R. assert (AP : Rabs (1 - B2R P) <= 3) by (apply Rabs_le; lra). assert (q / 2 * Rabs (1 - B2R P) <= q / 2 * 3) by (apply Rmult_le_compat_l; lra). apply Rabs_le_inv in R. apply Rabs_le. lra.
Qed.
Lemma geom_pdf x : bpow radix2 (-1000) <= B2R p -> (0 <= x < 2 ^ 31)%Z -> density (geometric_fpdf L p x) (B2R p * t ^ Z.to_nat x) ((Rmin (2 * IZR x) (1 / B2R p) + 6) * q * B2R p).
Proof.
  intros Hb H. pose proof q_pos as Q. pose proof big_10 as BB. pose proof tiny_pos as TP. unfold geometric_fpdf. rewrite (proj2 (Z.ltb_ge x 0)) by lia. rewrite <- W_pow by lia. destruct (qpow x ltac:(lia)) as (A1 & A2 & A3). destruct (W_p x ltac:(lia)) as (_ & W0 & W1). set (r := Rmin _ _) in *. set (P := m_pow L _ _) in *. pose proof (Rabs_le_inv _ _ A3) as A3'.
  assert (RB : 0 <= r * q <= 1). { split; [apply Rmult_le_pos; [|lra]; unfold r; pose proof (IZR_le 0 x ltac:(lia)); apply Rmin_glb; [lra|apply Rmult_le_pos; [lra|left; apply Rinv_0_lt_compat; lra]]|]. unfold r. apply Rle_trans with (2 * IZR x * q); [apply Rmult_le_compat_r; [lra|apply Rmin_l]|]. pose proof (IZR_le x (2 ^ 31) ltac:(lia)) as X. change (IZR (2 ^ 31)) with 2147483648 in X. pose proof (IZR_le 0 x ltac:(lia)). apply Rle_trans with (2 * 2147483648 * / 1000000000000); [apply Rmult_le_compat; try lra; unfold q; lra|lra]. } assert (Q1 : q <= / 1000000000000) by (unfold q; lra).
  assert (PB : 0 <= B2R p * B2R P <= B2R p * 3) by (split; [apply Rmult_le_pos; lra|apply Rmult_le_compat_l; lra]). destruct (mul_ok p P Fp A1) as (S1 & S2); [rewrite Rabs_pos_eq; lra|]. split; [exact S1|]. rewrite S2. split; [apply (rnd_ge_0 53 1024 H3_64 H70_64), PB|].
  pose proof (rnd_err (B2R p * B2R P)) as R. rewrite (Rabs_pos_eq (B2R p * B2R P)) in R by lra. apply Rabs_le_inv in R.
  assert (T : tiny <= q * B2R p / 4). { apply Rle_trans with (q * bpow radix2 (-1000) / 4); [|assert (q * bpow radix2 (-1000) <= q * B2R p) by (apply Rmult_le_compat_l; lra); lra]. replace q with (bpow radix2 (-52)) by (unfold q; cbn; lra). rewrite <- bpow_plus. unfold tiny. change (-52 + -1000)%Z with (23 + -1075)%Z. rewrite bpow_plus. pose proof (bpow_gt_0 radix2 (-1075)). assert (4 * bpow radix2 (-1075) <= bpow radix2 23 * bpow radix2 (-1075)) by (apply Rmult_le_compat_r; [lra|cbn; lra]). lra. }
  assert (E : Rabs (B2R p * B2R P - B2R p * W x) <= (r + 4) * q * B2R p). { replace (B2R p * B2R P - B2R p * W x) with (B2R p * (B2R P - W x)) by ring. rewrite Rabs_mult, (Rabs_pos_eq (B2R p)), Rmult_comm by lra. apply Rmult_le_compat_r; lra. }
  apply Rabs_le_inv in E. assert (q / 2 * (B2R p * B2R P) <= q / 2 * (B2R p * 3)) by (apply Rmult_le_compat_l; lra). replace ((r + 6) * q * B2R p) with ((r + 4) * q * B2R p + 2 * (q * B2R p)) by ring. apply Rabs_le. lra.
Qed.
End Geometric.
