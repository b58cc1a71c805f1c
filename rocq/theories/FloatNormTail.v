(** The lower tail of the normal distribution in double: cdf keeps its relative accuracy. *)
From Coq Require Import ZArith Bool Reals Lia Lra Psatz.
From Coquelicot Require Import Coquelicot.
From Flocq Require Import Core IEEE754.BinarySingleNaN.
From Verif Require Import FloatFacts UniformModel UniformProofs FloatDrawModel FloatDrawSpec FloatDrawProofs FloatDrawCore FloatDrawLoc FloatDrawTrig FloatDrawLaw FloatDrawLibm DiscDrawTree FloatCdfModel FloatCdfSpec FloatCdfProofs FloatCdfCore FloatCdfLoc FloatPdfSpec FloatPdfProofs FloatPdfTail FloatPdfNan FloatNormModel FloatNormSpec NormModel NormProofs FloatNormProofs.
Local Open Scope R_scope.
Notation rnd := (round radix2 (SpecFloat.fexp 53 1024) ZnearestE).

(** ** Mills' ratio *)
Definition mills (t : R) : R := erf t + 2 / sqrt PI * (exp (- (t * t)) / (2 * t + 1)).
Definition mills' (t : R) : R := 2 / sqrt PI * (exp (- (t * t)) * ((2 * t - 1) / ((2 * t + 1) * (2 * t + 1)))).
Lemma mills_deriv t : 0 <= t -> is_derive mills t (mills' t).
Proof.
  intros H. pose proof sqrt_PI_pos as S. replace (mills' t) with (plus (2 / sqrt PI * exp (- (t * t))) (2 / sqrt PI * (exp (- (t * t)) * (- (2 * t) / (2 * t + 1) - 2 / ((2 * t + 1) * (2 * t + 1)))))).
  - apply (is_derive_plus erf (fun t => 2 / sqrt PI * (exp (- (t * t)) / (2 * t + 1)))); [apply erf_deriv|]. auto_derive; [lra|]. field. lra.
  - unfold plus. cbn. unfold mills'. field. lra.
Qed.
Lemma mills_bound t : / 2 <= t -> 2 / sqrt PI * exp (- (t * t)) <= (2 * t + 1) * (1 - erf t).
Proof.
  intros T. assert (G : mills t <= 1).
  { apply Rnot_lt_le. intros C. set (e := mills t - 1). assert (E0 : 0 < e) by (unfold e; lra). set (y := Rmax t (2 / e)). assert (TY : t <= y) by apply Rmax_l. assert (EY : 2 / e <= y) by apply Rmax_r.
    destruct (MVT_gen mills t y mills') as (c & C1 & E).
    - intros x Hx. rewrite Rmin_left in Hx by lra. apply mills_deriv. lra.
    - intros x Hx. rewrite Rmin_left in Hx by lra. apply derivable_continuous_pt. exists (mills' x). apply is_derive_Reals, mills_deriv. lra.
    - rewrite Rmin_left, Rmax_right in C1 by lra. pose proof two_sqrtPI as W. assert (P : 0 <= mills' c * (y - t)). { apply Rmult_le_pos; [|lra]. unfold mills'. apply Rmult_le_pos; [lra|]. apply Rmult_le_pos; [left; apply exp_pos|]. apply Rmult_le_pos; [lra|]. left. apply Rinv_0_lt_compat, Rmult_lt_0_compat; lra. }
      pose proof (erf_bound y) as B. assert (X : 2 / sqrt PI * (exp (- (y * y)) / (2 * y + 1)) < e).
      { assert (X1 : exp (- (y * y)) <= 1) by (rewrite <- exp_0; apply exp_le; pose proof (Rle_0_sqr y) as K; unfold Rsqr in K; lra). pose proof (exp_pos (- (y * y))) as X0. assert (Y : 2 <= e * y). { apply Rmult_le_reg_r with (/ e); [apply Rinv_0_lt_compat, E0|]. replace (e * y * / e) with y by (field; lra). exact EY. }
        apply Rle_lt_trans with (6 / 5 * (1 / (2 * y + 1))); [apply Rmult_le_compat; try lra; [apply Rmult_le_pos; [lra|left; apply Rinv_0_lt_compat; lra]|apply Rmult_le_compat_r; [left; apply Rinv_0_lt_compat; lra|exact X1]]|]. apply Rmult_lt_reg_r with (2 * y + 1); [lra|]. replace (6 / 5 * (1 / (2 * y + 1)) * (2 * y + 1)) with (6 / 5) by (field; lra). lra. }
      unfold e in X. unfold mills in E at 1. lra. }
  unfold mills in G. assert (D : 2 / sqrt PI * (exp (- (t * t)) / (2 * t + 1)) <= 1 - erf t) by lra. apply Rmult_le_reg_r with (/ (2 * t + 1)); [apply Rinv_0_lt_compat; lra|]. replace ((2 * t + 1) * (1 - erf t) * / (2 * t + 1)) with (1 - erf t) by (field; lra). unfold Rdiv in D at 2. rewrite Rmult_assoc. exact D.
Qed.
Lemma erf_incr a b : a <= b -> erf a <= erf b.
Proof. intros H. destruct (erf_mvt a b) as (c & _ & E). pose proof two_sqrtPI as W. pose proof (exp_pos (- (c * c))). assert (0 <= 2 / sqrt PI * exp (- (c * c)) * (b - a)) by (apply Rmult_le_pos; [apply Rmult_le_pos; lra|lra]). lra. Qed.
Lemma erfc_rel y Y e : / 2 <= y -> / 2 <= Y -> Rabs (Y - y) <= e -> (2 * (y + e) + 1) * e <= / 2 -> Rabs ((1 - erf Y) - (1 - erf y)) <= 2 * ((2 * (y + e) + 1) * e) * (1 - erf y).
Proof.
  intros Hy HY E H. destruct (erf_mvt y Y) as (c & C & D). replace (1 - erf Y - (1 - erf y)) with (- (erf Y - erf y)) by ring. rewrite Rabs_Ropp, D. pose proof (Rabs_le_inv _ _ E) as E'. pose proof two_sqrtPI as W. pose proof (exp_pos (- (c * c))) as P. pose proof (Rabs_pos (Y - y)) as A0. pose proof (erf_bound y) as By. pose proof (erf_bound Y) as BY.
  assert (HC : / 2 <= c /\ c <= y + e) by (unfold Rmin, Rmax in C; destruct (Rle_dec y Y); lra). pose proof (mills_bound c (proj1 HC)) as M. rewrite Rabs_mult, (Rabs_pos_eq (_ * _)) by (apply Rmult_le_pos; lra). set (n := 2 * (y + e) + 1) in *. pose proof (erf_bound c) as Bc.
  assert (B1 : 2 / sqrt PI * exp (- (c * c)) * Rabs (Y - y) <= n * e * (1 - erf c)). { replace (n * e * (1 - erf c)) with (n * (1 - erf c) * e) by ring. apply Rmult_le_compat; try lra; [apply Rmult_le_pos; lra|]. apply Rle_trans with (1 := M). apply Rmult_le_compat_r; [lra|unfold n; lra]. }
  assert (e0 : 0 <= e) by lra. assert (NE : 0 <= n * e) by (apply Rmult_le_pos; [unfold n; lra|exact e0]). destruct (Rle_lt_dec y c) as [K|K].
  - pose proof (erf_incr _ _ K). assert (n * e * (1 - erf c) <= n * e * (1 - erf y)) by (apply Rmult_le_compat_l; lra). assert (0 <= n * e * (1 - erf y)) by (apply Rmult_le_pos; lra). lra.
  - assert (YC : Y <= c) by (unfold Rmin, Rmax in C; destruct (Rle_dec y Y); lra). pose proof (erf_incr _ _ YC) as I. assert (B2 : n * e * (1 - erf c) <= n * e * (1 - erf Y)) by (apply Rmult_le_compat_l; lra). assert (YY : Y <= y) by lra.
    assert (ED : erf Y - erf y <= 0) by (pose proof (erf_incr _ _ YY); lra). assert (L : 2 / sqrt PI * exp (- (c * c)) * Rabs (Y - y) = erf y - erf Y) by (rewrite Rabs_left1 by lra; rewrite <- (Ropp_minus_distr (erf Y)), D; ring).
    rewrite L in *. assert (B3 : n * e * (1 - erf Y) <= / 2 * (1 - erf Y)) by (apply Rmult_le_compat_r; lra). assert (B4 : 1 - erf Y <= 2 * (1 - erf y)) by lra. assert (n * e * (1 - erf Y) <= n * e * (2 * (1 - erf y))) by (apply Rmult_le_compat_l; lra). lra.
Qed.
Lemma erfc_low t : t <= 22 -> bpow radix2 (-976) <= 1 - erf t.
Proof.
  intros H. pose proof (erf_incr _ _ H) as I. apply Rle_trans with (1 - erf 22); [|lra]. pose proof (mills_bound 22 ltac:(lra)) as M. pose proof two_sqrtPI as W.
  assert (E : bpow radix2 (-970) <= exp (- (22 * 22))). { rewrite <- (exp_ln (bpow radix2 (-970))) by apply bpow_gt_0. apply exp_le. rewrite ln_bpow. assert (L : / 2 <= ln 2). { pose proof (ln_lo 2 ltac:(lra)). lra. } lra. }
  assert (B : bpow radix2 (-970) = 64 * bpow radix2 (-976)) by (change (-970)%Z with (6 + -976)%Z; rewrite bpow_plus; reflexivity). pose proof (bpow_gt_0 radix2 (-976)) as P. assert (1 * exp (- (22 * 22)) <= 2 / sqrt PI * exp (- (22 * 22))) by (apply Rmult_le_compat_r; [left; apply exp_pos|lra]). lra.
Qed.
Lemma thr_ok : is_finite (dmul (dopp dquartile) dinvsqrt2) = true /\ - (48 / 100) <= B2R (dmul (dopp dquartile) dinvsqrt2) <= - (47 / 100).
Proof.
  destruct (sf_val (dmul (dopp dquartile) dinvsqrt2) true 8591720143175690 (-54) ltac:(vm_compute; reflexivity)) as (A & B). split; [exact A|]. rewrite B. unfold F2R. cbn. lra.
Qed.

Section Tail.
Variable N : libme.
Hypothesis HN : accurate_e N.
Hypothesis HT : tail_accurate N.
Lemma phi_tail Z z : apx 100 Z z (2 * q) tiny -> -30 <= z <= -1 ->
  is_finite (fPhi N Z) = true /\ Rabs (B2R (fPhi N Z) - gauss_cdf z) <= (32 * z ^ 2 + 4) * q * gauss_cdf z.
Proof.
  intros A Hz. pose proof q_pos as Q. pose proof tiny_small as TS. pose proof tiny_pos as TP. pose proof isqrt2 as I. assert (Q1 : q <= / 1000000000000) by (unfold q; lra). pose proof (mul_isqrt2 Z z (2 * q) tiny A ltac:(lra) ltac:(lra)) as B. unfold fPhi. cbv zeta. set (X := dmul Z dinvsqrt2) in *.
  assert (II : / sqrt 2 * / sqrt 2 = / 2). { rewrite <- Rinv_mult, sqrt_sqrt by lra. reflexivity. } set (y := - (z / sqrt 2)). assert (YZ : y = - z * / sqrt 2) by (unfold y, Rdiv; ring). assert (Y2 : y * y = z ^ 2 / 2) by (rewrite YZ; replace (- z * / sqrt 2 * (- z * / sqrt 2)) with (z ^ 2 * (/ sqrt 2 * / sqrt 2)) by ring; rewrite II; reflexivity).
  assert (Yl : 7 / 10 <= y). { rewrite YZ. apply Rle_trans with (1 * (7 / 10)); [lra|]. apply Rmult_le_compat; lra. } assert (Yh : y <= 213 / 10). { rewrite YZ. apply Rle_trans with (30 * (71 / 100)); [|lra]. apply Rmult_le_compat; lra. }
  destruct B as [(FX & E)|[(_ & E)|(_ & E)]]; [|fold y in E; unfold y in Yl; lra|unfold y in Yh; lra].
  assert (E' : Rabs (- B2R X - y) <= 9 * q * y). { replace (- B2R X - y) with (- (B2R X - z / sqrt 2)) by (unfold y; ring). rewrite Rabs_Ropp. apply Rle_trans with (1 := E). replace (Rabs (z / sqrt 2)) with y by (rewrite Rabs_left1; [reflexivity|unfold y in Yl; lra]). assert (q * (7 / 10) <= q * y) by (apply Rmult_le_compat_l; lra). lra. }
  assert (QY : 0 <= q * y <= / 10000000000). { split; [apply Rmult_le_pos; lra|]. apply Rle_trans with (/ 1000000000000 * (213 / 10)); [apply Rmult_le_compat; lra|lra]. }
  pose proof (Rabs_le_inv _ _ E') as E2. destruct (opp_ok X FX) as (FO & VO). destruct thr_ok as (FT & VT).
  assert (BR : Bltb X (dmul (dopp dquartile) dinvsqrt2) = true). { rewrite (Bltb_correct _ _ _ _ FX FT). apply Rlt_bool_true. lra. }
  rewrite BR. pose proof (HT (dopp X) FO ltac:(rewrite VO; lra)) as T. destruct (ae_erfc N HN (dopp X) FO) as (C1 & C2 & _). rewrite erf_eq, VO in T. set (Y := - B2R X) in *. set (W := B2R (e_erfc N (dopp X))) in *.
  assert (M : (2 * (y + 9 * q * y) + 1) * (9 * q * y) <= 312 / 10 * q * (y * y)). { replace (312 / 10 * q * (y * y)) with (312 / 90 * y * (9 * q * y)) by field. apply Rmult_le_compat_r; lra. }
  assert (Z2 : 0 <= q * z ^ 2 <= / 1000000000). { split; [apply Rmult_le_pos; [lra|apply pow2_ge_0]|]. apply Rle_trans with (/ 1000000000000 * 900); [|lra]. apply Rmult_le_compat; try lra; [apply pow2_ge_0|]. replace (z ^ 2) with (2 * (y * y)) by lra. assert (y * y <= 213 / 10 * (213 / 10)) by (apply Rmult_le_compat; lra). replace (z ^ 2) with ((- z) * (- z)) in * by ring. assert ((- z) * (- z) <= 30 * 30) by (apply Rmult_le_compat; lra). lra. }
  rewrite Y2 in M. pose proof (erfc_rel y Y (9 * q * y) ltac:(lra) ltac:(lra) E' ltac:(lra)) as R. pose proof (erfc_low Y ltac:(lra)) as LY. pose proof (bpow_gt_0 radix2 (-976)) as BP.
  assert (G : gauss_cdf z = (1 - erf y) / 2) by (rewrite gauss_cdf_erf; unfold y; rewrite erf_odd; field). set (p := 1 - erf y) in *. set (P := 1 - erf Y) in *. pose proof (erfc_low y ltac:(lra)) as Ly. fold p in Ly.
  assert (R' : Rabs (P - p) <= 312 / 10 * (q * z ^ 2) * p). { apply Rle_trans with (1 := R). apply Rmult_le_compat_r; lra. }
  replace (/ 2 ^ 51) with (2 * q) in T by (unfold q; field). pose proof (Rabs_le_inv _ _ T) as T'. pose proof (Rabs_le_inv _ _ R') as R2. assert (QP : q * P <= / 1000000 * P) by (apply Rmult_le_compat_r; lra). assert (ZP : 0 <= (q * z ^ 2) * p <= / 1000000 * p) by (split; [apply Rmult_le_pos; lra|apply Rmult_le_compat_r; lra]).
  destruct (half_mul _ C1 ltac:(fold W; rewrite Rabs_pos_eq; lra)) as (H1 & H2 & _). split; [exact H1|]. fold W in H2. rewrite H2, G.
  assert (B3 : bpow radix2 (-976) = bpow radix2 44 * bpow radix2 (-1020)) by (rewrite <- bpow_plus; reflexivity). pose proof (bpow_gt_0 radix2 (-1020)) as B4. assert (B5 : 4 * bpow radix2 (-1020) <= bpow radix2 (-976)) by (rewrite B3; apply Rmult_le_compat_r; [lra|cbn; lra]).
  assert (WL : / 2 * P <= W) by lra. pose proof (rnd_rel (/ 2 * W) ltac:(right; rewrite Rabs_pos_eq; lra)) as RR. rewrite (Rabs_pos_eq (/ 2 * W)) in RR by lra. apply Rabs_le_inv in RR. assert (PP : q * P <= q * (101 / 100 * p)) by (apply Rmult_le_compat_l; lra). assert (WW : q * W <= q * (102 / 100 * p)) by (apply Rmult_le_compat_l; lra).
  assert (q0 : 0 <= q * p) by (apply Rmult_le_pos; lra). replace ((32 * z ^ 2 + 4) * q * (p / 2)) with (16 * (q * z ^ 2 * p) + 2 * (q * p)) by field. apply Rabs_le. lra.
Qed.
Lemma normal_tail mu sg x : location mu -> scale sg -> is_finite x = true -> -30 <= (B2R x - B2R mu) / B2R sg <= -1 ->
  is_finite (normal_fcdf N mu sg x) = true /\ Rabs (B2R (normal_fcdf N mu sg x) - F_normal (B2R mu) (B2R sg) (B2R x)) <= (32 * ((B2R x - B2R mu) / B2R sg) ^ 2 + 4) * q * F_normal (B2R mu) (B2R sg) (B2R x).
Proof. intros Hm Hs F Hz. exact (phi_tail _ _ (apx_std sg mu x Hs Hm F) Hz). Qed.
End Tail.
