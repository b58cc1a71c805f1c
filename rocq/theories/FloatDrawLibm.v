(** A correctly rounded mathematical library is accurate. *)
From Coq Require Import ZArith Bool List Reals Lia Lra Psatz.
From Flocq Require Import Core IEEE754.BinarySingleNaN.
From Verif Require Import FloatFacts UniformModel UniformProofs UnifAccProofs FloatDrawModel FloatDrawSpec FloatDrawProofs FloatDrawCore FloatDrawLoc FloatDrawTrig.
Local Open Scope R_scope.

Lemma prec53 : Prec_gt_0 53. Proof. reflexivity. Qed.
Lemma emax1024 : Prec_lt_emax 53 1024. Proof. reflexivity. Qed.
(** the double next to a real number *)
Definition nearest (x : R) : double := binary_normalize 53 1024 prec53 emax1024 mode_NE (ZnearestE (scaled_mantissa radix2 (SpecFloat.fexp 53 1024) x)) (cexp radix2 (SpecFloat.fexp 53 1024) x) false.
Lemma nearest_ok x : Rabs x <= 4 * big -> is_finite (nearest x) = true /\ B2R (nearest x) = rnd x.
Proof.
  intros H. pose proof (binary_normalize_correct 53 1024 prec53 emax1024 mode_NE (ZnearestE (scaled_mantissa radix2 (SpecFloat.fexp 53 1024) x)) (cexp radix2 (SpecFloat.fexp 53 1024) x) false) as C.
  cbv zeta in C. change (F2R {| Fnum := ZnearestE (scaled_mantissa radix2 (SpecFloat.fexp 53 1024) x); Fexp := cexp radix2 (SpecFloat.fexp 53 1024) x |}) with (rnd x) in C. change (round_mode mode_NE) with ZnearestE in C. rewrite (rnd_fmt 53 1024 H3_64 H70_64 _ (fmt_rnd 53 1024 H3_64 H70_64 x)) in C.
  rewrite (inrange_lt 53 1024 H3_64 H70_64 x (inr x H)) in C. destruct C as (C1 & C2 & _). split; assumption.
Qed.
Definition rounded_libm : libm := Libm (fun x => nearest (ln (B2R x))) (fun x y => if Req_EM_T (B2R x) 0 then nearest 0 else nearest (Rpower (B2R x) (B2R y))) (fun x => nearest (cos (B2R x))) (fun x => nearest (sin (B2R x))).

Lemma ln_far (x : double) : 0 < B2R x -> B2R x <> 1 -> q / 4 <= Rabs (ln (B2R x)).
Proof.
  intros X N. pose proof q_pos as Q. destruct (Rlt_dec (B2R x) 1) as [L|L].
  - pose proof (below_1 x L) as U. pose proof (neg_ln_ge (B2R x) ltac:(lra)). rewrite Rabs_left1; lra.
  - assert (G : 1 + q <= B2R x).
    { pose proof (fmt_B2R 53 1024 H3_64 H70_64 x) as Fx. pose proof (fmt_1 53 1024 H3_64 H70_64) as F1. pose proof (succ_le_lt radix2 (SpecFloat.fexp 53 1024) 1 (B2R x) F1 Fx ltac:(lra)) as S. rewrite succ_eq_pos in S by lra. change 1 with (bpow radix2 0) in S at 2. rewrite ulp_bpow in S. replace (bpow radix2 (SpecFloat.fexp 53 1024 (0 + 1))) with q in S by (unfold q; cbn; lra). exact S. }
    assert (q / 4 <= ln (B2R x)); [|rewrite Rabs_pos_eq; lra]. apply Rle_trans with (ln (1 + q)); [|apply ln_le; lra]. rewrite <- (ln_exp (q / 4)). apply ln_le; [apply exp_pos|]. pose proof (exp_up (q / 4) ltac:(lra) ltac:(lra)). lra.
Qed.
Lemma ln_big (x : double) : is_finite x = true -> 0 < B2R x -> Rabs (ln (B2R x)) <= 2000.
Proof.
  intros F X. pose proof ln2_up as L2. assert (L0 : 0 < ln 2) by (rewrite <- ln_1; apply ln_increasing; lra).
  assert (U : B2R x <= bpow radix2 1024) by (pose proof (abs_B2R_lt_emax 53 1024 x) as A; rewrite Rabs_pos_eq in A by lra; lra).
  assert (Lo : bpow radix2 (-1074) <= B2R x). { pose proof (abs_B2R_ge_emin 53 1024 x) as A. destruct x as [s|s| |s m e Hb]; try (cbn in X; lra). specialize (A eq_refl). rewrite Rabs_pos_eq in A by lra. exact A. }
  pose proof (ln_le _ _ X U) as A1. pose proof (ln_le _ _ (bpow_gt_0 radix2 (-1074)) Lo) as A2. rewrite ln_bpow in A1, A2. apply Rabs_le. lra.
Qed.
Lemma bpow_q k : (k <= -60)%Z -> bpow radix2 k <= q / 16.
Proof. intros H. apply Rle_trans with (bpow radix2 (-60)); [apply bpow_le, H|]. unfold q. cbn. lra. Qed.

Lemma rounded_accurate : accurate rounded_libm.
Proof.
  pose proof q_pos as Q. pose proof big_10 as B. assert (Q51 : / 2 ^ 51 = 2 * q) by (unfold q; field). split; cbn [rounded_libm m_ln m_pow m_cos m_sin].
  - intros x F X. pose proof (ln_big x F X) as LB. assert (B2 : 2000 <= 4 * big) by lra. destruct (nearest_ok (ln (B2R x)) ltac:(lra)) as (N1 & N2). split; [exact N1|]. rewrite N2. apply Rle_trans with (q / 2 * Rabs (ln (B2R x))); [|rewrite Q51; apply Rmult_le_compat_r; [apply Rabs_pos|lra]]. apply rnd_rel.
    destruct (Req_dec (B2R x) 1) as [E|N]; [left; rewrite E; apply ln_1|right]. pose proof (ln_far x X N). pose proof (bpow_q (-1020) ltac:(lia)). lra.
  - intros x y Fx Fy X H. destruct (Req_EM_T (B2R x) 0) as [Z|Z]; [lra|]. pose proof (exp_range (B2R y * ln (B2R x)) 400) as ER. pose proof (exp_pos (B2R y * ln (B2R x))) as EP. fold (Rpower (B2R x) (B2R y)) in *.
    assert (ER2 : bpow radix2 (-800) <= Rpower (B2R x) (B2R y) <= bpow radix2 800).
    { apply Rabs_le_inv in H. assert (L2 : / 2 <= ln 2). { rewrite <- (ln_exp (/ 2)). apply ln_le; [apply exp_pos|]. pose proof (exp_up (/ 2) ltac:(lra) ltac:(lra)). lra. } unfold Rpower. split; [rewrite <- (exp_ln (bpow radix2 (-800))) by apply bpow_gt_0|rewrite <- (exp_ln (bpow radix2 800)) by apply bpow_gt_0]; rewrite ln_bpow; apply Raux.exp_le; lra. }
    assert (BB : bpow radix2 800 <= big) by (apply bpow_le; lia). destruct (nearest_ok (Rpower (B2R x) (B2R y))) as (N1 & N2); [rewrite Rabs_pos_eq; lra|]. split; [exact N1|]. rewrite N2. rewrite Q51. rewrite <- (Rabs_pos_eq (Rpower (B2R x) (B2R y))) at 3 by lra. apply Rle_trans with (q / 2 * Rabs (Rpower (B2R x) (B2R y))); [|apply Rmult_le_compat_r; [apply Rabs_pos|lra]]. apply rnd_rel. right. rewrite Rabs_pos_eq by lra. apply Rle_trans with (2 := proj1 ER2). apply bpow_le. lia.
  - intros x y Fx Fy X H. destruct (Req_EM_T (B2R x) 0) as [Z|Z]; [lra|].
    assert (ER2 : 1 <= Rpower (B2R x) (B2R y) <= bpow radix2 800).
    { assert (L2 : / 2 <= ln 2). { rewrite <- (ln_exp (/ 2)). apply ln_le; [apply exp_pos|]. pose proof (exp_up (/ 2) ltac:(lra) ltac:(lra)). lra. } unfold Rpower. split; [rewrite <- exp_0|rewrite <- (exp_ln (bpow radix2 800)) by apply bpow_gt_0; rewrite ln_bpow]; apply Raux.exp_le; lra. }
    assert (BB : bpow radix2 800 <= big) by (apply bpow_le; lia). destruct (nearest_ok (Rpower (B2R x) (B2R y))) as (N1 & N2); [rewrite Rabs_pos_eq; lra|]. rewrite N2. apply (rnd_ge_fmt 53 1024 H3_64 H70_64); [apply (fmt_1 53 1024 H3_64 H70_64)|lra].
  - intros x y Fx Fy X H. destruct (Req_EM_T (B2R x) 0) as [Z|Z]; [|contradiction]. destruct (nearest_ok 0 ltac:(rewrite Rabs_R0; lra)) as (N1 & N2). split; [exact N1|]. rewrite N2. apply (rnd_0 53 1024 H3_64 H70_64).
  - intros x F R. pose proof (COS_bound (B2R x)) as C. assert (CA : Rabs (cos (B2R x)) <= 1) by (apply Rabs_le; lra). destruct (nearest_ok (cos (B2R x)) ltac:(lra)) as (N1 & N2). split; [exact N1|]. rewrite N2. fold q. pose proof (rnd_err (cos (B2R x))) as E. pose proof tiny_q. assert (q / 2 * Rabs (cos (B2R x)) <= q / 2 * 1) by (apply Rmult_le_compat_l; lra). lra.
  - intros x F R. pose proof (SIN_bound (B2R x)) as C. assert (CA : Rabs (sin (B2R x)) <= 1) by (apply Rabs_le; lra). destruct (nearest_ok (sin (B2R x)) ltac:(lra)) as (N1 & N2). split; [exact N1|]. rewrite N2. apply Rle_trans with (q / 2 * Rabs (sin (B2R x))); [|rewrite Q51; apply Rmult_le_compat_r; [apply Rabs_pos|lra]]. apply rnd_rel. right. fold q in R.
    pose proof dpi_near as DN. rewrite (proj2 dpi_ok) in DN. pose proof (sin_low (B2R x) ltac:(lra)) as S. assert (q / 4 <= Rmin (B2R x) (PI - B2R x)) by (apply Rmin_glb; lra). rewrite Rabs_pos_eq by lra. pose proof (bpow_q (-1020) ltac:(lia)). lra.
Qed.
