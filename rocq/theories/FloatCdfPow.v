(** cdf of pareto_dist, powerlaw_dist and weibull_dist in double. *)
From Coq Require Import ZArith Bool Reals Lia Lra Psatz.
From Flocq Require Import Core IEEE754.BinarySingleNaN.
From Verif Require Import FloatFacts UniformModel UniformProofs FloatDrawModel FloatDrawSpec FloatDrawProofs FloatDrawCore FloatDrawLoc FloatDrawTrig FloatDrawLaw DiscDrawTree FloatCdfModel FloatCdfSpec FloatCdfProofs FloatCdfCore.
Local Open Scope R_scope.
Notation rnd := (round radix2 (SpecFloat.fexp 53 1024) ZnearestE).

Lemma add_any (X Y : double) : is_finite X = true -> is_finite Y = true -> 0 < B2R X ->
  (is_finite (dadd X Y) = true /\ B2R (dadd X Y) = rnd (B2R X + B2R Y)) \/ (bpow radix2 1000 <= Rabs (B2R X + B2R Y) /\ dadd X Y = B754_infinity false).
Proof.
  intros FX FY P. pose proof (Bplus_correct 53 1024 _ _ mode_NE X Y FX FY) as C. change (round_mode mode_NE) with ZnearestE in C. destruct (Rlt_bool_spec (Rabs (rnd (B2R X + B2R Y))) (bpow radix2 1024)) as [H|H].
  - left. destruct C as (C1 & C2 & _). split; assumption.
  - right. destruct C as (C & _). split; [apply rnd_far, H|]. apply is_inf in C. unfold dadd, fadd. rewrite C, (sign_pos X P). reflexivity.
Qed.
Lemma bpow_mono_900 x : bpow radix2 1000 <= x -> bpow radix2 900 <= x.
Proof. intros H. apply Rle_trans with (2 := H). apply bpow_le. lia. Qed.

Section Functions.
Variable M : libmx.
Hypothesis HM : accurate_x M.

Lemma pareto_cdf g th x : shape g -> scale th -> is_finite x = true -> computes (pareto_fcdf M g th x) (F_pareto (B2R g) (B2R th) (B2R x)) ((6 + 8 * B2R g) * q).
Proof.
  intros Hg Ht F. pose proof q_pos as Q. pose proof tiny_small as T. pose proof tiny_pos as T0. pose proof (scale_pos th Ht) as Pt. assert (G0 : 0 <= B2R g) by (destruct Hg as (_ & R); lra). assert (GQ : 0 <= B2R g * q) by (apply Rmult_le_pos; lra).
  unfold pareto_fcdf, F_pareto. rewrite (leb_0 x F). destruct (Rle_bool_spec (B2R x) 0) as [H|H]; destruct (Rle_dec (B2R x) 0) as [C|C]; try lra; [apply computes_0; lra|].
  destruct (int_ok_ 1 ltac:(lia)) as (F1 & V1). set (w := B2R x / B2R th). assert (W0 : 0 < w) by (apply Rdiv_lt_0_compat; lra).
  assert (A : apx1 (dadd (dint 1) (ddiv x th)) (1 + w)).
  { destruct (div_near x th F Pt) as [(D1 & D2 & D3 & _)|[(D1 & D2)|(D1 & D2)]].
    - fold w in D2. set (R := ddiv x th) in *. specialize (D3 ltac:(lra)). rewrite (Rabs_pos_eq w) in D2 by lra. apply Rabs_le_inv in D2. assert (QW : 0 <= q * w <= / 1000 * w) by (split; [apply Rmult_le_pos; lra|apply Rmult_le_compat_r; lra]).
      destruct (add_any (dint 1) R F1 D1 ltac:(lra)) as [(S1 & S2)|(S1 & S2)]; rewrite V1 in *.
      + left. split; [exact S1|]. rewrite S2. split; [apply (rnd_ge_fmt 53 1024 H3_64 H70_64); [apply (fmt_1 53 1024 H3_64 H70_64)|lra]|]. replace (4 * q) with (2 * (2 * q)) by ring. apply lc_rel; [lra|lra|].
        pose proof (rnd_err (1 + B2R R)) as E. rewrite (Rabs_pos_eq (1 + B2R R)) in E by lra. assert (q / 2 * (1 + B2R R) <= q / 2 * (1 + 2 * w + q)) by (apply Rmult_le_compat_l; lra). assert (q * q <= q * / 1000) by (apply Rmult_le_compat_l; lra). apply Rabs_le_inv in E. apply Rabs_le. lra.
      + right. split; [exact S2|]. rewrite Rabs_pos_eq in S1 by lra. assert (B : bpow radix2 1000 <= 2 * (1 + w)) by lra. assert (2 * bpow radix2 900 <= bpow radix2 1000); [|lra]. change 2 with (bpow radix2 1). rewrite <- bpow_plus. apply bpow_le. lia.
    - right. split; [rewrite D1; reflexivity|]. fold w in D2. pose proof (bpow_mono_900 _ D2). lra.
    - exfalso. fold w in D2. pose proof (bpow_gt_0 radix2 1000). lra. }
  pose proof (pow_neg M HM g _ (1 + w) Hg ltac:(lra) A) as E. apply one_minus in E. revert E. apply computes_weaken. lra.
Qed.
Lemma powerlaw_cdf g th x : shape g -> scale th -> is_finite x = true -> B2R th <= B2R x -> computes (powerlaw_fcdf M g th x) (F_powerlaw (B2R g) (B2R th) (B2R x)) ((6 + 8 * B2R g) * q).
Proof.
  intros Hg Ht F Hx. pose proof q_pos as Q. pose proof (scale_pos th Ht) as Pt. assert (G0 : 0 <= B2R g) by (destruct Hg as (_ & R); lra). assert (GQ : 0 <= B2R g * q) by (apply Rmult_le_pos; lra).
  unfold powerlaw_fcdf. rewrite (leb_0 x F). destruct (Rle_bool_spec (B2R x) 0) as [H|H]; [lra|]. set (w := B2R x / B2R th). assert (WM : w * B2R th = B2R x) by (unfold w; field; lra). assert (W1 : 1 <= w) by (apply Rmult_le_reg_r with (B2R th); lra).
  assert (EF : F_powerlaw (B2R g) (B2R th) (B2R x) = 1 - Rpower w (- B2R g)). { unfold F_powerlaw. destruct (Rle_dec (B2R x) (B2R th)) as [C|C]; [|reflexivity]. replace w with 1; [unfold Rpower; rewrite ln_1, Rmult_0_r, exp_0; lra|]. apply Rmult_eq_reg_r with (B2R th); lra. } rewrite EF.
  assert (A : apx1 (ddiv x th) w).
  { destruct (div_any x th F Pt) as [(D1 & D2)|(D1 & D2)]; change (B2R x / B2R th) with w in D1, D2.
    - left. split; [exact D1|]. rewrite D2. split; [apply (rnd_ge_fmt 53 1024 H3_64 H70_64); [apply (fmt_1 53 1024 H3_64 H70_64)|exact W1]|]. destruct (lc_rnd w) as (_ & _ & E); [apply Rle_trans with (2 := W1); change 1 with (bpow radix2 0); apply bpow_le; lia|]. lra.
    - right. rewrite D2. destruct (Rlt_dec _ 0) as [K|K]; [lra|]. split; [reflexivity|]. rewrite Rabs_pos_eq in D1 by lra. apply bpow_mono_900, D1. }
  pose proof (pow_neg M HM g _ _ Hg W1 A) as E. apply one_minus in E. revert E. apply computes_weaken. lra.
Qed.

(** ** weibull *)
Lemma exp_minus_ge t : 0 <= t -> 0 <= 1 - exp (- t) <= t.
Proof. intros H. pose proof (exp_1m (- t)). assert (exp (- t) <= 1) by (rewrite <- exp_0; apply exp_le; lra). lra. Qed.
Lemma ln_tiny w : 0 < w <= bpow radix2 (-1000) -> ln w <= - 500.
Proof. intros H. apply Rle_trans with (ln (bpow radix2 (-1000))); [apply ln_le; lra|]. rewrite ln_bpow. pose proof (ln_lo 2 ltac:(lra)). lra. Qed.
Lemma exp_500 : 80 <= exp 60.
Proof. pose proof (exp_1m 60) as A. replace 60 with (30 + 30) by ring. rewrite exp_plus. pose proof (exp_1m 30). apply Rle_trans with (31 * 31); [lra|]. apply Rmult_le_compat; lra. Qed.

Lemma weibull_power be th x (y : double) : scale th -> shape be -> is_finite x = true -> 0 < B2R x -> y = ddiv x th -> (y = B754_infinity false \/ is_finite y = true /\ 0 < B2R y) ->
  apxn (dopp (m_pow (x_base M) y be)) (Rpower (B2R x / B2R th) (B2R be)) ((8 + 2 * B2R be) * q) (2 * q).
Proof.
  intros Ht (Fb & Rb) F Hx Ey Hy. pose proof q_pos as Q. pose proof tiny_small as T. pose proof tiny_pos as T0. pose proof (scale_pos th Ht) as Pt. set (w := B2R x / B2R th). assert (W0 : 0 < w) by (apply Rdiv_lt_0_compat; lra). set (t := Rpower w (B2R be)). assert (TE : t = exp (B2R be * ln w)) by reflexivity. assert (Tp : 0 < t) by apply exp_pos.
  assert (BQ : 0 <= B2R be * q <= 2 ^ 20 * q) by (split; [apply Rmult_le_pos|apply Rmult_le_compat_r]; lra).
  destruct (div_any x th F Pt) as [(D1 & D2)|(D1 & D2)]; change (B2R x / B2R th) with w in D1, D2.
  - rewrite <- Ey in D1, D2. destruct Hy as [Hy|(_ & Y0)]; [rewrite Hy in D1; discriminate D1|].
    assert (SM : forall u, u <= - 62 -> exp u <= q / 2) by (intros u Hu; replace u with (- - u) by ring; apply exp_tail; lra).
    destruct (Rle_lt_dec (bpow radix2 (-1020)) w) as [Hw|Hw].
    + destruct (lc_rnd w Hw) as (_ & _ & LC). rewrite <- D2 in LC. assert (LB : Rabs (B2R be * ln (B2R y) - B2R be * ln w) <= B2R be * q) by (rewrite <- Rmult_minus_distr_l, Rabs_mult, (Rabs_pos_eq (B2R be)) by lra; apply Rmult_le_compat_l; lra). pose proof (Rabs_le_inv _ _ LB) as LB'. unfold q in BQ at 3.
      destruct (Rlt_le_dec 400 (B2R be * ln (B2R y))) as [K|K]; [|destruct (Rlt_le_dec (B2R be * ln (B2R y)) (-400)) as [K2|K2]].
      * right. split.
        -- destruct (ax_pow_large M HM y be D1 Fb Y0 K) as [E|(E1 & E2)]; [left; rewrite E; reflexivity|right]. destruct (opp_ok _ E1) as (O1 & O2). split; [exact O1|]. rewrite O2. lra.
        -- rewrite TE. apply Rle_trans with (1 := exp_500). apply exp_le. lra.
      * left. destruct (ax_pow_small M HM y be D1 Fb Y0 K2) as (E1 & E2). destruct (opp_ok _ E1) as (O1 & O2). split; [exact O1|]. rewrite O2. split; [lra|]. pose proof (SM (B2R be * ln w) ltac:(lra)) as S. rewrite <- TE in S. assert (/ 2 ^ 100 <= q) by (unfold q; lra). assert (0 <= (8 + 2 * B2R be) * q * t) by (apply Rmult_le_pos; lra). rewrite Ropp_involutive. apply Rabs_le. lra.
      * left. destruct (acc_pow _ (ax_base M HM) y be D1 Fb Y0) as (E1 & E2); [apply Rabs_le; lra|]. destruct (opp_ok _ E1) as (O1 & O2). split; [exact O1|]. rewrite O2.
        assert (C : lc (4 * q) (B2R (m_pow (x_base M) y be)) (Rpower (B2R y) (B2R be))) by (replace (4 * q) with (2 * / 2 ^ 51) by (unfold q; field); apply lc_rel; [apply exp_pos|lra|exact E2]).
        assert (C2 : lc (B2R be * q) (Rpower (B2R y) (B2R be)) t) by (split; [apply exp_pos|]; split; [exact Tp|]; rewrite ln_Rpower; unfold t; rewrite ln_Rpower; exact LB). pose proof (lc_trans _ _ _ _ _ C C2) as C3. assert (KS : 4 * q + B2R be * q <= / 2) by (unfold q in *; lra).
        split; [destruct C3 as (C3 & _); lra|]. rewrite Ropp_involutive. apply Rle_trans with (1 := lc_abs _ _ _ C3 KS). lra.
    + assert (YB : B2R y <= bpow radix2 (-1000)).
      { rewrite D2. apply (rnd_le_fmt 53 1024 H3_64 H70_64); [apply (fmt_bpow 53 1024 H3_64 H70_64); lia|]. apply Rlt_le, Rlt_le_trans with (1 := Hw). apply bpow_le. lia. }
      assert (WB : w <= bpow radix2 (-1000)) by (apply Rlt_le, Rlt_le_trans with (1 := Hw); apply bpow_le; lia).
      pose proof (ln_tiny (B2R y) ltac:(lra)) as LY. pose proof (ln_tiny w ltac:(lra)) as LW. assert (BY : B2R be * ln (B2R y) <= - 62). { apply Rle_trans with (B2R be * -500); [apply Rmult_le_compat_l; lra|lra]. } assert (BW : B2R be * ln w <= - 62). { apply Rle_trans with (B2R be * -500); [apply Rmult_le_compat_l; lra|lra]. }
      pose proof (SM _ BW) as SW. rewrite <- TE in SW. left. assert (K0 : 0 <= (8 + 2 * B2R be) * q * t) by (apply Rmult_le_pos; lra). destruct (Rlt_le_dec (B2R be * ln (B2R y)) (-400)) as [K2|K2].
      * destruct (ax_pow_small M HM y be D1 Fb Y0 K2) as (E1 & E2). destruct (opp_ok _ E1) as (O1 & O2). split; [exact O1|]. rewrite O2. split; [lra|]. assert (/ 2 ^ 100 <= q) by (unfold q; lra). rewrite Ropp_involutive. apply Rabs_le. lra.
      * destruct (acc_pow _ (ax_base M HM) y be D1 Fb Y0) as (E1 & E2); [apply Rabs_le; lra|]. destruct (opp_ok _ E1) as (O1 & O2). split; [exact O1|]. rewrite O2. pose proof (SM _ BY) as SY. change (exp (B2R be * ln (B2R y))) with (Rpower (B2R y) (B2R be)) in SY. assert (P0 : 0 < Rpower (B2R y) (B2R be)) by apply exp_pos. replace (/ 2 ^ 51) with (2 * q) in E2 by (unfold q; field).
        assert (2 * q * Rpower (B2R y) (B2R be) <= 1 * Rpower (B2R y) (B2R be)) by (apply Rmult_le_compat_r; lra). apply Rabs_le_inv in E2. split; [lra|]. rewrite Ropp_involutive. apply Rabs_le. lra.
  - right. rewrite Ey, D2. destruct (Rlt_dec _ 0) as [K|K]; [lra|]. rewrite (ax_pow_inf_pos M HM be Fb ltac:(lra)). split; [left; reflexivity|]. rewrite TE. apply Rle_trans with (1 := exp_500). apply exp_le. rewrite Rabs_pos_eq in D1 by lra.
    assert (L5 : 500 <= ln w). { apply Rle_trans with (ln (bpow radix2 1000)); [rewrite ln_bpow; pose proof (ln_lo 2 ltac:(lra)); lra|apply ln_le; [apply bpow_gt_0|exact D1]]. } apply Rle_trans with (/ 8 * 500); [lra|]. apply Rmult_le_compat; lra.
Qed.
Lemma weibull_cdf th be x : scale th -> shape be -> is_finite x = true -> computes (weibull_fcdf M th be x) (F_weibull (B2R th) (B2R be) (B2R x)) ((24 + 4 * B2R be) * q).
Proof.
  intros Ht Hb F. pose proof q_pos as Q. pose proof tiny_small as T. pose proof tiny_pos as T0. pose proof (scale_pos th Ht) as Pt. pose proof Hb as (Fb & Rb). assert (BQ : 0 <= B2R be * q <= 2 ^ 20 * q) by (split; [apply Rmult_le_pos|apply Rmult_le_compat_r]; lra). unfold q in BQ at 3.
  unfold weibull_fcdf, F_weibull. set (w := B2R x / B2R th). destruct (Rle_dec (B2R x) 0) as [C|C].
  - replace (Bleb (ddiv x th) (dint 0)) with true; [apply computes_0; lra|]. destruct (div_near x th F Pt) as [(D1 & _ & _ & D3)|[(D1 & D2)|(D1 & D2)]].
    + rewrite (leb_0 _ D1). symmetry. apply Rle_bool_true. apply D3, C.
    + exfalso. fold w in D2. pose proof (bpow_gt_0 radix2 1000). assert (0 <= - B2R x * / B2R th) by (apply Rmult_le_pos; [lra|left; apply Rinv_0_lt_compat, Pt]). unfold w, Rdiv in *. lra.
    + rewrite D1. reflexivity.
  - assert (W0 : 0 < w) by (apply Rdiv_lt_0_compat; lra). set (t := Rpower w (B2R be)). assert (Tp : 0 < t) by apply exp_pos.
    assert (Cc : forall y, y = ddiv x th -> y = B754_infinity false \/ is_finite y = true /\ 0 < B2R y -> computes (dopp (x_expm1 M (dopp (m_pow (x_base M) y be)))) (1 - exp (- t)) ((24 + 4 * B2R be) * q)).
    { intros y E H. pose proof (weibull_power be th x y Ht Hb F ltac:(lra) E H) as A. fold w t in A. pose proof (expm1_neg M HM _ t ((8 + 2 * B2R be) * q) (2 * q) ltac:(lra) ltac:(split; [lra|unfold q in *; lra]) ltac:(lra) A) as R. revert R. apply computes_weaken. lra. }
    destruct (div_near x th F Pt) as [(D1 & D2 & D3 & _)|[(D1 & D2)|(D1 & D2)]].
    + rewrite (leb_0 _ D1). destruct (Rle_bool_spec (B2R (ddiv x th)) 0) as [Y|Y]; [|apply Cc; [reflexivity|right; split; assumption]].
      specialize (D3 ltac:(lra)). fold w in D2. replace (B2R (ddiv x th)) with 0 in D2 by lra. rewrite (Rabs_pos_eq w) in D2 by lra. apply Rabs_le_inv in D2. assert (q / 2 * w <= / 2 * w) by (apply Rmult_le_compat_r; lra). assert (WB : w <= bpow radix2 (-1000)). { apply Rle_trans with (2 * tiny); [lra|]. unfold tiny. change 2 with (bpow radix2 1). rewrite <- bpow_plus. apply bpow_le. lia. }
      pose proof (ln_tiny w ltac:(lra)) as LW. assert (BW : B2R be * ln w <= - 62) by (apply Rle_trans with (B2R be * -500); [apply Rmult_le_compat_l; lra|lra]). assert (t <= q / 2) by (unfold t, Rpower; replace (B2R be * ln w) with (- - (B2R be * ln w)) by ring; apply exp_tail; lra).
      pose proof (exp_minus_ge t ltac:(lra)). apply computes_0. lra.
    + rewrite D1. change (Bleb (B754_infinity false) (dint 0)) with false. apply Cc; [symmetry; exact D1|left; reflexivity].
    + exfalso. fold w in D2. pose proof (bpow_gt_0 radix2 1000). lra.
Qed.
End Functions.
