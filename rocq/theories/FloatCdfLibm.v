(** A library that meets the assumptions of FloatCdfSpec.v. *)
From Coq Require Import ZArith Bool List Reals Lia Lra Psatz.
From Flocq Require Import Core IEEE754.BinarySingleNaN.
From Verif Require Import FloatFacts UniformModel UniformProofs UnifAccProofs FloatDrawModel FloatDrawSpec FloatDrawProofs FloatDrawCore FloatDrawLoc FloatDrawTrig FloatDrawLibm FloatDrawLaw FloatCdfModel FloatCdfSpec FloatCdfProofs FloatCdfCore FloatCdfPow FloatCdfLoc.
Local Open Scope R_scope.

(** rounded results in the middle, 0 and infinity outside *)
Definition mid (t v : R) : double := if Rlt_dec t (-400) then nearest 0 else if Rlt_dec 400 t then B754_infinity false else nearest v.
Definition rx_exp (x : double) : double :=
  match x with B754_infinity true => nearest 0 | B754_infinity false => B754_infinity false | _ => mid (B2R x) (exp (B2R x)) end.
Definition rx_pow (x y : double) : double :=
  match x with
  | B754_infinity _ => if Rlt_dec (B2R y) 0 then nearest 0 else B754_infinity false
  | _ => if Req_EM_T (B2R x) 0 then nearest 0 else mid (B2R y * ln (B2R x)) (Rpower (B2R x) (B2R y))
  end.
(** below 2^-52 the argument is the result *)
Definition rx_expm1 (x : double) : double :=
  match x with B754_infinity true => nearest (-1) | _ => if Rle_dec (Rabs (B2R x)) q then x else nearest (exp (B2R x) - 1) end.
Definition rx_ln1p (x : double) : double := if Rle_dec (Rabs (B2R x)) q then x else nearest (ln (1 + B2R x)).
Definition clip (h t : R) : R := Rmin h (Rmax (- h) t).
Definition rx_atan (x : double) : double :=
  nearest (clip (B2R dpi / 2) (match x with B754_infinity s => if s then - (PI / 2) else PI / 2 | _ => atan (B2R x) end)).
Definition rounded_libmx : libmx :=
  Libmx (Libm (m_ln rounded_libm) rx_pow (m_cos rounded_libm) (m_sin rounded_libm)) rx_exp rx_expm1 rx_ln1p rx_atan.

Lemma zero_ok : is_finite (nearest 0) = true /\ B2R (nearest 0) = 0.
Proof. pose proof big_10. destruct (nearest_ok 0 ltac:(rewrite Rabs_R0; lra)) as (N1 & N2). split; [exact N1|]. rewrite N2. apply (rnd_0 53 1024 H3_64 H70_64). Qed.
Lemma mid_in t : Rabs t <= 400 -> mid t (exp t) = nearest (exp t).
Proof. intros H. apply Rabs_le_inv in H. unfold mid. destruct (Rlt_dec t (-400)); [lra|]. destruct (Rlt_dec 400 t); [lra|]. reflexivity. Qed.
Lemma exp_rng t : Rabs t <= 400 -> bpow radix2 (-800) <= exp t <= bpow radix2 800.
Proof.
  intros H. apply Rabs_le_inv in H. assert (L2 : / 2 <= ln 2). { rewrite <- (ln_exp (/ 2)). apply ln_le; [apply exp_pos|]. pose proof (exp_up (/ 2) ltac:(lra) ltac:(lra)). lra. }
  split; [rewrite <- (exp_ln (bpow radix2 (-800))) by apply bpow_gt_0|rewrite <- (exp_ln (bpow radix2 800)) by apply bpow_gt_0]; rewrite ln_bpow; apply Raux.exp_le; lra.
Qed.
Lemma mid_ok t : Rabs t <= 400 -> is_finite (mid t (exp t)) = true /\ B2R (mid t (exp t)) = rnd (exp t) /\ Rabs (B2R (mid t (exp t)) - exp t) <= / 2 ^ 51 * exp t.
Proof.
  intros H. pose proof q_pos as Q. rewrite (mid_in t H). pose proof (exp_rng t H) as E. pose proof (exp_pos t) as P. assert (BB : bpow radix2 800 <= big) by (apply bpow_le; lia). destruct (nearest_ok (exp t)) as (N1 & N2); [rewrite Rabs_pos_eq; lra|]. split; [exact N1|]. split; [exact N2|].
  rewrite N2. assert (Q51 : / 2 ^ 51 = 2 * q) by (unfold q; field). rewrite Q51. apply Rle_trans with (q / 2 * Rabs (exp t)); [apply rnd_rel|rewrite Rabs_pos_eq by lra; apply Rmult_le_compat_r; lra]. right. rewrite Rabs_pos_eq by lra. apply Rle_trans with (2 := proj1 E). apply bpow_le. lia.
Qed.
Lemma mid_le1 t : t <= 0 -> B2R (mid t (exp t)) <= 1.
Proof.
  intros H. destruct (Rlt_dec t (-400)) as [C|C]; [unfold mid; destruct (Rlt_dec t (-400)); [|contradiction]; rewrite (proj2 zero_ok); lra|].
  destruct (mid_ok t) as (_ & E & _); [apply Rabs_le; lra|]. rewrite E. apply (rnd_le_fmt 53 1024 H3_64 H70_64); [apply (fmt_1 53 1024 H3_64 H70_64)|]. rewrite <- exp_0. apply Raux.exp_le, H.
Qed.
Lemma pow_mid (x y : double) : is_finite x = true -> 0 < B2R x -> rx_pow x y = mid (B2R y * ln (B2R x)) (exp (B2R y * ln (B2R x))).
Proof. intros F X. unfold rx_pow, Rpower. destruct x as [s|s| |s m e Hx]; try discriminate F; destruct (Req_EM_T _ 0) as [Z|Z]; try (cbn in X; lra); try lra; reflexivity. Qed.
Lemma exp_mid (x : double) : is_finite x = true -> rx_exp x = mid (B2R x) (exp (B2R x)).
Proof. destruct x as [s|s| |s m e Hx]; try discriminate; reflexivity. Qed.
Lemma expm1_fin (x : double) : is_finite x = true -> rx_expm1 x = if Rle_dec (Rabs (B2R x)) q then x else nearest (exp (B2R x) - 1).
Proof. destruct x as [s|s| |s m e Hx]; try discriminate; reflexivity. Qed.
Lemma small_10 : 0 <= / 2 ^ 100. Proof. left. apply Rinv_0_lt_compat. lra. Qed.
Lemma dpi_half_fmt : generic_format radix2 (SpecFloat.fexp 53 1024) (B2R dpi / 2).
Proof. rewrite (proj2 dpi_ok). change (SpecFloat.fexp 53 1024) with (FLT_exp (-1074) 53). apply generic_format_FLT. exists (Float radix2 7074237752028440 (-52)); [unfold F2R; cbn; lra|cbn; lia|cbn; lia]. Qed.
Lemma clip_rng h t : 0 <= h -> - h <= clip h t <= h.
Proof. intros H. unfold clip. split; [apply Rmin_glb; [lra|apply Rmax_l]|apply Rmin_l]. Qed.
Lemma clip_near h t e : 0 <= h -> 0 <= e -> Rabs t <= h + e -> Rabs (clip h t - t) <= e.
Proof. intros H E T. apply Rabs_le_inv in T. unfold clip, Rmin, Rmax. destruct (Rle_dec (- h) t); destruct (Rle_dec h _); apply Rabs_le; lra. Qed.
Lemma atan_near t : Rabs t <= PI / 2 -> is_finite (nearest (clip (B2R dpi / 2) t)) = true /\ Rabs (B2R (nearest (clip (B2R dpi / 2) t))) <= B2R dpi / 2 /\ Rabs (B2R (nearest (clip (B2R dpi / 2) t)) - t) <= / 2 ^ 51.
Proof.
  intros H. pose proof q_pos as Q. pose proof dpi_near as D. pose proof dpi_half_fmt as FM. destruct dpi_ok as (_ & V). pose proof big_10 as B. assert (H0 : 0 <= B2R dpi / 2 <= 2) by lra. pose proof (clip_rng (B2R dpi / 2) t ltac:(lra)) as C. pose proof (clip_near (B2R dpi / 2) t (q / 2) ltac:(lra) ltac:(lra) ltac:(lra)) as N.
  set (c := clip (B2R dpi / 2) t) in *. set (h := B2R dpi / 2) in *. assert (AC : Rabs c <= 2) by (apply Rabs_le; lra). destruct (nearest_ok c ltac:(lra)) as (N1 & N2). split; [exact N1|]. rewrite N2. split.
  - apply Rabs_le. split; [apply (rnd_ge_fmt 53 1024 H3_64 H70_64); [apply generic_format_opp, FM|lra]|apply (rnd_le_fmt 53 1024 H3_64 H70_64); [exact FM|lra]].
  - pose proof (rnd_err c) as E. pose proof tiny_small as T. assert (q / 2 * Rabs c <= q / 2 * 2) by (apply Rmult_le_compat_l; lra). assert (Q51 : / 2 ^ 51 = 2 * q) by (unfold q; field). rewrite Q51. apply Rabs_le_inv in E, N. apply Rabs_le. lra.
Qed.
Lemma minus1_ok : is_finite (nearest (-1)) = true /\ B2R (nearest (-1)) = -1.
Proof. pose proof big_10. destruct (nearest_ok (-1)) as (A & B); [rewrite Rabs_left1; lra|]. split; [exact A|]. rewrite B. apply (rnd_fmt 53 1024 H3_64 H70_64). apply generic_format_opp. apply (fmt_1 53 1024 H3_64 H70_64). Qed.

Lemma rounded_x_accurate : accurate_x rounded_libmx.
Proof.
  pose proof q_pos as Q. pose proof big_10 as B. assert (Q51 : / 2 ^ 51 = 2 * q) by (unfold q; field). destruct zero_ok as (Z1 & Z2). pose proof small_10 as S10. destruct rounded_accurate as [A1 A2 A3 A4 A5 A6].
  split; cbn [rounded_libmx x_base x_exp x_expm1 x_ln1p x_atan m_pow].
  - split; cbn [m_ln m_pow m_cos m_sin]; try assumption.
    + intros x y Fx Fy X H. rewrite (pow_mid x y Fx X). destruct (mid_ok _ H) as (C1 & _ & C2). split; [exact C1|exact C2].
    + intros x y Fx Fy X H. rewrite (pow_mid x y Fx X). destruct (mid_ok (B2R y * ln (B2R x))) as (_ & C & _); [rewrite Rabs_pos_eq; lra|]. rewrite C. apply (rnd_ge_fmt 53 1024 H3_64 H70_64); [apply (fmt_1 53 1024 H3_64 H70_64)|]. rewrite <- exp_0. apply Raux.exp_le. lra.
    + intros x y Fx Fy X Y. unfold rx_pow. destruct x as [s|s| |s m e Hx]; try discriminate Fx; destruct (Req_EM_T _ 0) as [Z|Z]; try contradiction; split; assumption.
  - intros x F H. rewrite (exp_mid x F). destruct (mid_ok _ H) as (C1 & _ & C2). split; [exact C1|exact C2].
  - intros x F H. rewrite (exp_mid x F). apply mid_le1, H.
  - intros x F H. rewrite (exp_mid x F). unfold mid. destruct (Rlt_dec (B2R x) (-400)) as [_|N]; [|contradiction]. rewrite Z2. split; [exact Z1|lra].
  - intros x F H. left. rewrite (exp_mid x F). unfold mid. destruct (Rlt_dec (B2R x) (-400)) as [N|_]; [lra|]. destruct (Rlt_dec 400 (B2R x)) as [_|N]; [reflexivity|contradiction].
  - split; assumption.
  - reflexivity.
  - intros x F H. rewrite (expm1_fin x F). rewrite Q51. destruct (Rle_dec (Rabs (B2R x)) q) as [C|C].
    + rewrite (Rabs_left1 (B2R x)) in C by exact H. set (t := - B2R x) in *. assert (T : B2R x = - t) by (unfold t; ring). rewrite T in *. split; [exact F|]. split; [lra|]. pose proof (exp_1m (- t)) as L1. assert (L2 : exp (- t) <= 1 - t + t * t). { rewrite exp_Ropp. pose proof (exp_1m t) as L. assert (t * t <= / 1000 * t) by (apply Rmult_le_compat_r; lra). assert (t * t * t <= / 1000 * (t * t)). { replace (t * t * t) with (t * (t * t)) by ring. apply Rmult_le_compat_r; [apply Rle_0_sqr|lra]. } apply Rle_trans with (/ (1 + t)); [apply Rinv_le_contravar; lra|]. apply Rmult_le_reg_r with (1 + t); [lra|]. rewrite Rinv_l by lra. assert (0 <= t * t * t) by (repeat apply Rmult_le_pos; lra). lra. }
      assert (TT : t * t <= q * t) by (apply Rmult_le_compat_r; lra). assert (QT : q * t <= / 1000 * t) by (apply Rmult_le_compat_r; lra). assert (2 * q * (t / 2) <= 2 * q * (1 - exp (- t))) by (apply Rmult_le_compat_l; lra). apply Rabs_le. lra.
    + rewrite (Rabs_left1 (B2R x)) in C by exact H. assert (E1 : exp (B2R x) <= 1 - q / 2). { apply Rle_trans with (exp (- q)); [apply Raux.exp_le; lra|]. rewrite exp_Ropp. apply Rle_trans with (/ (1 + q)); [apply Rinv_le_contravar; [lra|apply exp_1m]|]. apply Rmult_le_reg_r with (1 + q); [lra|]. rewrite Rinv_l by lra. assert (q * q <= / 1000 * q) by (apply Rmult_le_compat_r; lra). lra. }
      pose proof (exp_pos (B2R x)) as EP. set (v := exp (B2R x) - 1) in *. destruct (nearest_ok v) as (N1 & N2); [unfold v; apply Rabs_le; lra|]. split; [exact N1|]. rewrite N2. split.
      * split; [apply (rnd_ge_fmt 53 1024 H3_64 H70_64); [apply generic_format_opp, (fmt_1 53 1024 H3_64 H70_64)|unfold v; lra]|apply (rnd_le_fmt 53 1024 H3_64 H70_64); [apply generic_format_0|unfold v; lra]].
      * replace (1 - exp (B2R x)) with (Rabs v) by (unfold v; rewrite Rabs_left1; lra). apply Rle_trans with (q / 2 * Rabs v); [apply rnd_rel|apply Rmult_le_compat_r; [apply Rabs_pos|lra]]. right. unfold v. rewrite Rabs_left1 by lra. pose proof (bpow_q (-1020) ltac:(lia)). lra.
  - exact minus1_ok.
  - intros x F H. unfold rx_ln1p. rewrite Q51. destruct (Rle_dec (Rabs (B2R x)) q) as [C|C].
    + rewrite (Rabs_left1 (B2R x)) in C by lra. split; [exact F|]. pose proof (ln_up (1 + B2R x) ltac:(lra)) as U. pose proof (ln_lo (1 + B2R x) ltac:(lra)) as Lo. set (t := - B2R x) in *. assert (T : B2R x = - t) by (unfold t; ring). rewrite T in *. rewrite (Rabs_left1 (ln (1 + - t))) by lra.
      assert (TT : t * t <= q * t) by (apply Rmult_le_compat_r; lra). assert (I : / (1 + - t) <= 1 + t + 2 * (t * t)). { apply Rmult_le_reg_r with (1 + - t); [lra|]. rewrite Rinv_l by lra. assert (t * t * t <= / 1000 * (t * t)). { replace (t * t * t) with (t * (t * t)) by ring. apply Rmult_le_compat_r; [apply Rle_0_sqr|lra]. } assert (0 <= t * t) by apply Rle_0_sqr. lra. }
      assert (2 * q * t <= 2 * q * - ln (1 + - t)) by (apply Rmult_le_compat_l; lra). apply Rabs_le. lra.
    + assert (X1 : 1 + B2R x <= 1 - q) by (rewrite (Rabs_left1 (B2R x)) in C by lra; lra). pose proof (ln_up (1 + B2R x) ltac:(lra)) as U. destruct (opp_ok x F) as (O1 & O2).
      assert (LB : - 2000 <= ln (1 + B2R x)).
      { assert (G : q / 2 <= 1 + B2R x). { pose proof (below_1 (dopp x) ltac:(rewrite O2; lra)) as G. rewrite O2 in G. lra. } pose proof (ln_ge_53 (1 + B2R x) G). lra. }
      set (v := ln (1 + B2R x)) in *. destruct (nearest_ok v) as (N1 & N2); [apply Rabs_le; lra|]. split; [exact N1|]. rewrite N2. apply Rle_trans with (q / 2 * Rabs v); [apply rnd_rel|apply Rmult_le_compat_r; [apply Rabs_pos|lra]]. right. rewrite Rabs_left1 by lra. pose proof (bpow_q (-1020) ltac:(lia)). lra.
  - intros x F. unfold rx_atan. pose proof (atan_bound (B2R x)) as AB. destruct x as [s|s| |s m e Hx]; try discriminate F; apply atan_near, Rabs_le; lra.
  - intros s. unfold rx_atan. apply atan_near. pose proof PI_18. destruct s; [rewrite Rabs_left1 by lra|rewrite Rabs_pos_eq by lra]; lra.
  - intros x y Fx Fy X Y. rewrite (pow_mid x y Fx ltac:(lra)). apply mid_le1. assert (0 <= ln (B2R x)) by (rewrite <- ln_1; apply ln_le; lra). replace (B2R y * ln (B2R x)) with (- (- B2R y * ln (B2R x))) by ring. assert (0 <= - B2R y * ln (B2R x)) by (apply Rmult_le_pos; lra). lra.
  - intros x y Fx Fy X H. rewrite (pow_mid x y Fx X). unfold mid. destruct (Rlt_dec _ (-400)) as [_|N]; [|contradiction]. rewrite Z2. split; [exact Z1|lra].
  - intros x y Fx Fy X H. left. rewrite (pow_mid x y Fx X). unfold mid. destruct (Rlt_dec _ (-400)) as [N|_]; [lra|]. destruct (Rlt_dec 400 _) as [_|N]; [reflexivity|contradiction].
  - intros y Fy H. unfold rx_pow. destruct (Rlt_dec (B2R y) 0) as [_|N]; [|contradiction]. split; assumption.
  - intros y Fy H. unfold rx_pow. destruct (Rlt_dec (B2R y) 0) as [N|_]; [lra|reflexivity].
Qed.
