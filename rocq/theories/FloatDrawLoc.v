(** Backward errors of the draws of extreme_value, logistic, tent and cauchy_dist. *)
From Coq Require Import ZArith Bool List Reals Lia Lra Psatz.
From Coquelicot Require Import Coquelicot.
From Flocq Require Import Core Sterbenz Mult_error IEEE754.BinarySingleNaN.
From Verif Require Import FloatFacts UniformModel UniformProofs UnifAccProofs FloatDrawModel FloatDrawSpec FloatDrawProofs FloatDrawCore.
Local Open Scope R_scope.

(** ** Lipschitz bounds *)
Lemma lip (f f' : R -> R) x y : (forall t, is_derive f t (f' t)) -> (forall t, Rabs (f' t) <= 1) -> Rabs (f x - f y) <= Rabs (x - y).
Proof.
  intros D B. destruct (MVT_gen f y x f') as (c & _ & E).
  - intros t _. apply D.
  - intros t _. apply derivable_continuous_pt. exists (f' t). apply is_derive_Reals, D.
  - rewrite E, Rabs_mult. apply Rle_trans with (1 * Rabs (x - y)); [apply Rmult_le_compat_r; [apply Rabs_pos|apply B]|lra].
Qed.
Lemma gumbel_lip x y : Rabs (exp (- exp x) - exp (- exp y)) <= Rabs (x - y).
Proof.
  apply (lip (fun t => exp (- exp t)) (fun t => - (exp t * exp (- exp t)))).
  - intros t. auto_derive; [exact I|]. ring.
  - intros t. rewrite Rabs_Ropp. pose proof (exp_pos t) as P. rewrite exp_Ropp. pose proof (exp_pos (exp t)) as P'. pose proof (exp_1m (exp t)) as E. assert (I : 0 < / exp (exp t)) by (apply Rinv_0_lt_compat, P'). rewrite Rabs_pos_eq by (apply Rmult_le_pos; lra).
    apply Rmult_le_reg_r with (exp (exp t)); [exact P'|]. rewrite Rmult_assoc, Rinv_l by lra. lra.
Qed.
Lemma logistic_lip x y : Rabs (/ (1 + exp (- x)) - / (1 + exp (- y))) <= Rabs (x - y).
Proof.
  apply (lip (fun t => / (1 + exp (- t))) (fun t => exp (- t) / ((1 + exp (- t)) * (1 + exp (- t))))).
  - intros t. pose proof (exp_pos (- t)). auto_derive; [lra|]. field. lra.
  - intros t. pose proof (exp_pos (- t)) as P. set (w := exp (- t)) in *. assert (W : 0 < (1 + w) * (1 + w)) by (apply Rmult_lt_0_compat; lra). rewrite Rabs_pos_eq by (apply Rmult_le_pos; [lra|left; apply Rinv_0_lt_compat, W]).
    apply Rmult_le_reg_r with ((1 + w) * (1 + w)); [exact W|]. unfold Rdiv. rewrite Rmult_assoc, Rinv_l by lra. nra.
Qed.
Lemma atan_lip x y : Rabs (atan x - atan y) <= Rabs (x - y).
Proof.
  apply (lip atan (fun t => / (1 + t * t))).
  - intros t. auto_derive; [exact I|]. field. nra.
  - intros t. assert (0 <= t * t) by nra. rewrite Rabs_pos_eq by (left; apply Rinv_0_lt_compat; lra). rewrite <- Rinv_1. apply Rinv_le_contravar; lra.
Qed.
(** the arctangent at a distance that grows with the argument *)
Lemma atan_far a b s k : 0 < s <= 1 -> (1 + a * a) * (s * s) = 1 -> 0 <= k <= / 4 -> Rabs (b - a) <= k / s -> Rabs (atan b - atan a) <= 4 * k.
Proof.
  intros Hs Ha Hk H. destruct (MVT_gen atan a b (fun t => / (1 + t * t))) as (c & C & E).
  - intros t _. auto_derive; [exact I|]. field. nra.
  - intros t _. apply derivable_continuous_pt, derivable_pt_atan.
  - rewrite E, Rabs_mult. assert (C2 : Rabs (c - a) <= k / s).
    { apply Rle_trans with (2 := H). unfold Rmin, Rmax in C. destruct (Rle_dec a b); [rewrite !Rabs_pos_eq by lra; lra|rewrite !Rabs_left1 by lra; lra]. }
    assert (S2 : 0 < s * s) by nra. assert (I : (c - a) * (c - a) <= k * k / (s * s)).
    { rewrite <- (Rabs_pos_eq ((c - a) * (c - a))) by apply Rle_0_sqr. rewrite Rabs_mult. replace (k * k / (s * s)) with (k / s * (k / s)) by (field; lra). pose proof (Rabs_pos (c - a)). apply Rmult_le_compat; lra. }
    assert (A : 1 + a * a = / (s * s)). { apply Rmult_eq_reg_r with (s * s); [|lra]. rewrite Rinv_l by lra. exact Ha. }
    assert (G : / (4 * (s * s)) <= 1 + c * c).
    { assert (a * a <= 2 * (c * c) + 2 * ((c - a) * (c - a))) by (pose proof (Rle_0_sqr (2 * c - a)) as SQ; unfold Rsqr in SQ; lra). assert (k * k / (s * s) <= / 16 * / (s * s)). { unfold Rdiv. apply Rmult_le_compat_r; [left; apply Rinv_0_lt_compat, S2|apply Rle_trans with (/ 4 * / 4); [apply Rmult_le_compat; lra|lra]]. } rewrite Rinv_mult. assert (0 < / (s * s)) by (apply Rinv_0_lt_compat, S2). lra. }
    assert (G0 : 0 < / (4 * (s * s))) by (apply Rinv_0_lt_compat; lra). rewrite (Rabs_pos_eq (/ (1 + c * c))) by (left; apply Rinv_0_lt_compat; lra).
    apply Rle_trans with (4 * (s * s) * (k / s)); [apply Rmult_le_compat; [left; apply Rinv_0_lt_compat; lra|apply Rabs_pos| |exact H]|].
    + replace (4 * (s * s)) with (/ / (4 * (s * s))) by (apply Rinv_inv). apply Rinv_le_contravar; lra.
    + replace (4 * (s * s) * (k / s)) with (4 * k * s) by (field; lra). apply Rle_trans with (4 * k * 1); [apply Rmult_le_compat_l; lra|lra].
Qed.

(** ** Scaling and shifting *)
(** v = eta + theta w, rounded twice *)
Lemma affine_err (W V : R) th et l K : 0 < th -> Rabs (W - th * l) <= q / 2 * Rabs (th * l) + tiny -> Rabs (V - (et + W)) <= q / 2 * Rabs (et + W) + tiny -> tiny / th <= q / 1024 -> Rabs l <= K -> 1 <= K <= 1000 ->
  Rabs ((V - et) / th - l) <= (K + 1 + Rabs et / th) * q.
Proof.
  intros T H1 H2 H3' HL HK. pose proof q_pos as Q. assert (I : 0 < / th) by (apply Rinv_0_lt_compat, T). rewrite Rabs_mult, (Rabs_pos_eq th) in H1 by lra.
  assert (W1 : Rabs W <= th * (K + 1) + tiny). { replace W with ((W - th * l) + th * l) by ring. apply Rle_trans with (1 := Rabs_triang _ _). rewrite (Rabs_mult th l), (Rabs_pos_eq th) by lra. assert (th * Rabs l <= th * K) by (apply Rmult_le_compat_l; lra). assert (th * K <= th * 1000) by (apply Rmult_le_compat_l; lra). assert (q / 2 * (th * Rabs l) <= / 1000 * (th * Rabs l)) by (apply Rmult_le_compat_r; [apply Rmult_le_pos; [lra|apply Rabs_pos]|lra]). lra. }
  pose proof (Rabs_triang et W) as TW. assert (B : q / 2 * Rabs (et + W) <= q / 2 * (Rabs et + (th * (K + 1) + tiny))) by (apply Rmult_le_compat_l; lra). pose proof tiny_pos as T0.
  replace ((V - et) / th - l) with (((V - (et + W)) + (W - th * l)) * / th) by (field; lra). rewrite Rabs_mult, (Rabs_pos_eq (/ th)) by lra.
  assert (C : q / 2 * (th * Rabs l) <= q / 2 * (th * K)) by (apply Rmult_le_compat_l; [lra|apply Rmult_le_compat_l; lra]).
  assert (SUM : Rabs (V - (et + W) + (W - th * l)) <= q / 2 * (Rabs et + (th * (K + 1) + tiny)) + tiny + (q / 2 * (th * K) + tiny)) by (apply Rle_trans with (1 := Rabs_triang _ _); lra).
  apply Rle_trans with ((q / 2 * (Rabs et + (th * (K + 1) + tiny)) + tiny + (q / 2 * (th * K) + tiny)) * / th); [apply Rmult_le_compat_r; lra|].
  replace ((q / 2 * (Rabs et + (th * (K + 1) + tiny)) + tiny + (q / 2 * (th * K) + tiny)) * / th) with (q / 2 * (Rabs et / th) + q * (K + / 2) + (q / 2) * (tiny / th) + 2 * (tiny / th)) by (field; lra).
  assert (0 <= Rabs et / th) by (apply Rmult_le_pos; [apply Rabs_pos|lra]). assert (0 <= q * (Rabs et / th)) by (apply Rmult_le_pos; lra). assert (0 < tiny / th) by (apply Rmult_lt_0_compat; lra). assert (q / 2 * (tiny / th) <= 1 * (tiny / th)) by (apply Rmult_le_compat_r; lra). lra.
Qed.
Lemma scale_range th l : scale th -> Rabs l <= 2 ^ 70 -> Rabs (B2R th * l) <= bpow radix2 370.
Proof.
  intros Ht H. pose proof (scale_pos th Ht). rewrite Rabs_mult, Rabs_pos_eq by lra. change (bpow radix2 370) with (bpow radix2 (300 + 70)). rewrite bpow_plus. change (bpow radix2 70) with (IZR (2 ^ 70)). destruct Ht as (_ & Rt). pose proof (Rabs_pos l). change (IZR (2 ^ 70)) with 1180591620717411303424. apply Rmult_le_compat; lra.
Qed.
Lemma big_370 : bpow radix2 300 + 2 * bpow radix2 370 + 1 <= big.
Proof. assert (bpow radix2 300 <= bpow radix2 370) by (apply bpow_le; lia). assert (bpow radix2 0 <= bpow radix2 370) by (apply bpow_le; lia). assert (bpow radix2 (3 + 370) <= big) by (apply bpow_le; lia). rewrite bpow_plus in *. change (bpow radix2 3) with 8 in *. change (bpow radix2 0) with 1 in *. lra. Qed.

Section Draws.
Variable L : libm.
Hypothesis HL : accurate L.

Lemma plus_core th et l K : scale th -> location et -> is_finite l = true -> Rabs (B2R l) <= K -> 1 <= K <= 1000 -> let v := dadd et (dmul th l) in
  is_finite v = true /\ Rabs ((B2R v - B2R et) / B2R th - B2R l) <= (K + 1 + Rabs (B2R et) / B2R th) * q.
Proof.
  intros Ht He Fl Hl HK v. pose proof (scale_pos th Ht) as Pt. pose proof (scale_range th (B2R l) Ht ltac:(lra)) as S. pose proof big_370 as B. pose proof (bpow_gt_0 radix2 370) as P370. pose proof (bpow_gt_0 radix2 300) as P300. destruct He as (Fe & Re). pose proof q_pos as Q. pose proof tiny_q as TQ. pose proof tiny_pos as T0.
  destruct (mul_ok th l (proj1 Ht) Fl ltac:(lra)) as (M1 & M2). pose proof (rnd_err (B2R th * B2R l)) as E1. rewrite <- M2 in E1. set (W := dmul th l) in *.
  assert (WB : Rabs (B2R W) <= 2 * bpow radix2 370 + 1). { replace (B2R W) with ((B2R W - B2R th * B2R l) + B2R th * B2R l) by ring. apply Rle_trans with (1 := Rabs_triang _ _). assert (q / 2 * Rabs (B2R th * B2R l) <= 1 * Rabs (B2R th * B2R l)) by (apply Rmult_le_compat_r; [apply Rabs_pos|lra]). lra. }
  pose proof (Rabs_triang (B2R et) (B2R W)) as TR. destruct (add_ok et W Fe M1 ltac:(lra)) as (A1 & A2). pose proof (rnd_err (B2R et + B2R W)) as E2. rewrite <- A2 in E2. fold v in A1, A2, E2. split; [exact A1|]. 
  apply affine_err with (B2R W); [exact Pt|exact E1|exact E2|apply tiny_scale, Ht|exact Hl|exact HK].
Qed.
Lemma minus_core th et l K : scale th -> location et -> is_finite l = true -> Rabs (B2R l) <= K -> 1 <= K <= 1000 -> let v := dsub et (dmul l th) in
  is_finite v = true /\ Rabs ((B2R v - B2R et) / B2R th + B2R l) <= (K + 1 + Rabs (B2R et) / B2R th) * q.
Proof.
  intros Ht He Fl Hl HK v. pose proof (scale_pos th Ht) as Pt. pose proof (scale_range th (B2R l) Ht ltac:(lra)) as S. pose proof big_370 as B. pose proof (bpow_gt_0 radix2 370) as P370. pose proof (bpow_gt_0 radix2 300) as P300. destruct He as (Fe & Re). pose proof q_pos as Q. pose proof tiny_q as TQ. pose proof tiny_pos as T0.
  rewrite Rmult_comm in S. destruct (mul_ok l th Fl (proj1 Ht) ltac:(lra)) as (M1 & M2). pose proof (rnd_err (B2R l * B2R th)) as E1. rewrite <- M2 in E1. set (W := dmul l th) in *.
  assert (WB : Rabs (B2R W) <= 2 * bpow radix2 370 + 1). { replace (B2R W) with ((B2R W - B2R l * B2R th) + B2R l * B2R th) by ring. apply Rle_trans with (1 := Rabs_triang _ _). assert (q / 2 * Rabs (B2R l * B2R th) <= 1 * Rabs (B2R l * B2R th)) by (apply Rmult_le_compat_r; [apply Rabs_pos|lra]). lra. }
  assert (TR : Rabs (B2R et - B2R W) <= Rabs (B2R et) + Rabs (B2R W)) by (unfold Rminus; rewrite <- (Rabs_Ropp (B2R W)); apply Rabs_triang). destruct (sub_ok et W Fe M1 ltac:(lra)) as (A1 & A2). pose proof (rnd_err (B2R et - B2R W)) as E2. rewrite <- A2 in E2. fold v in A1, A2, E2. split; [exact A1|]. 
  replace ((B2R v - B2R et) / B2R th + B2R l) with ((B2R v - B2R et) / B2R th - - B2R l) by ring. apply affine_err with (- B2R W); [exact Pt| |exact E2|apply tiny_scale, Ht|rewrite Rabs_Ropp; exact Hl|exact HK].
  replace (- B2R W - B2R th * - B2R l) with (- (B2R W - B2R l * B2R th)) by ring. replace (B2R th * - B2R l) with (- (B2R l * B2R th)) by ring. rewrite !Rabs_Ropp. exact E1.
Qed.

(** ** extreme_value *)
Lemma extreme_core th et X : scale th -> location et -> is_finite X = true -> q / 2 <= B2R X <= 1 - q / 2 -> let v := dadd et (dmul th (m_ln L (dopp (m_ln L X)))) in
  is_finite v = true /\ Rabs (exp (- exp ((B2R v - B2R et) / B2R th)) - B2R X) <= (140 + Rabs (B2R et) / B2R th) * q.
Proof.
  intros Ht He F R v. pose proof q_pos as Q. destruct (ln_core L HL X F ltac:(lra)) as (FL & [(E & _)|(_ & G & C)]); [lra|]. pose proof (ln_ge_53 (B2R X) (proj1 R)) as L40. set (e := - ln (B2R X)) in *. assert (He' : q / 2 <= e <= 40) by (unfold e in *; lra).
  assert (LE : - 40 <= ln e <= 39). { split; [apply ln_ge_53; lra|]. pose proof (ln_up e ltac:(lra)). lra. }
  destruct (opp_ok _ FL) as (O1 & O2). rewrite <- O2 in C. set (Y := dopp (m_ln L X)) in *. destruct C as (Y0 & _ & LY). destruct (acc_ln L HL Y O1 Y0) as (N1 & N2). pose proof (Rabs_le_inv _ _ LY) as LY'.
  assert (A : Rabs (B2R (m_ln L Y) - ln e) <= 89 * q).
  { replace (B2R (m_ln L Y) - ln e) with ((B2R (m_ln L Y) - ln (B2R Y)) + (ln (B2R Y) - ln e)) by ring. apply Rle_trans with (1 := Rabs_triang _ _). assert (Rabs (ln (B2R Y)) <= 41) by (apply Rabs_le; lra). assert (/ 2 ^ 51 * Rabs (ln (B2R Y)) <= / 2 ^ 51 * 41) by (apply Rmult_le_compat_l; lra). replace (/ 2 ^ 51) with (2 * q) in * by (unfold q; field). lra. }
  pose proof (Rabs_le_inv _ _ A) as A'. destruct (plus_core th et (m_ln L Y) 50 Ht He N1 ltac:(apply Rabs_le; lra) ltac:(lra)) as (V1 & V2). fold v in V1, V2. split; [exact V1|].
  replace (B2R X) with (exp (- exp (ln e))) by (rewrite exp_ln by lra; unfold e; rewrite Ropp_involutive; apply exp_ln; lra). apply Rle_trans with (1 := gumbel_lip _ _).
  replace ((B2R v - B2R et) / B2R th - ln e) with (((B2R v - B2R et) / B2R th - B2R (m_ln L Y)) + (B2R (m_ln L Y) - ln e)) by ring. apply Rle_trans with (1 := Rabs_triang _ _). lra.
Qed.

(** ** logistic *)
Lemma logistic_core th et X : scale th -> location et -> is_finite X = true -> q <= B2R X <= 1 - q / 2 -> let v := logistic_ficdf L th et X in
  is_finite v = true /\ Rabs (/ (1 + exp (- ((B2R v - B2R et) / B2R th))) - B2R X) <= (140 + Rabs (B2R et) / B2R th) * q.
Proof.
  intros Ht He F R v. pose proof q_pos as Q. destruct (int_ok_ 1 ltac:(lia)) as (F1 & V1). assert (B4 : 1000 <= big) by (apply Rle_trans with (bpow radix2 10); [cbn; lra|apply bpow_le; lia]). remember (B2R X) as x eqn:Ex.
  destruct (sub_ok (dint 1) X F1 F) as (S1 & S2); [rewrite V1, <- Ex, Rabs_pos_eq; lra|]. rewrite V1, <- Ex in S2. unfold logistic_ficdf in v. set (W := dsub (dint 1) X) in *.
  assert (CW : lc q (B2R W) (1 - x)). { rewrite S2. apply lc_rnd. apply Rle_trans with (bpow radix2 (-53)); [apply bpow_le; lia|rewrite u_eq; lra]. }
  assert (CX : lc 0 (B2R X) x) by (rewrite <- Ex; apply lc_refl; lra). assert (RX : bpow radix2 (-52) <= x <= bpow radix2 0) by (replace (bpow radix2 (-52)) with q by (unfold q; cbn; lra); change (bpow radix2 0) with 1; lra).
  assert (RI : bpow radix2 0 <= / x <= bpow radix2 52). { replace (bpow radix2 52) with (/ bpow radix2 (-52)) by (rewrite <- bpow_opp; reflexivity). change (bpow radix2 0) with 1. split; [rewrite <- Rinv_1; apply Rinv_le_contravar; lra|apply Rinv_le_contravar; [apply bpow_gt_0|lra]]. }
  destruct (div_lc W X q 0 (1 - x) x S1 F CW CX) as (D1 & D2); [lra| |].
  { apply bpow_widen with (-53 + 0)%Z (0 + 52)%Z; [lia|lia|]. apply bpow_range; [change (bpow radix2 0) with 1; rewrite u_eq; lra|exact RI]. }
  set (Y := ddiv W X) in *. pose proof D2 as (Y0 & P0 & LY).
  assert (LR : - 80 <= ln ((1 - x) / x) <= 40). { unfold Rdiv. rewrite ln_mult by (try apply Rinv_0_lt_compat; lra). rewrite ln_Rinv by lra. pose proof (ln_ge_53 x ltac:(lra)). pose proof (ln_ge_53 (1 - x) ltac:(lra)). pose proof (ln_up x ltac:(lra)). pose proof (ln_up (1 - x) ltac:(lra)). lra. }
  assert (LR2 : - 40 <= ln ((1 - x) / x)). { unfold Rdiv. rewrite ln_mult by (try apply Rinv_0_lt_compat; lra). rewrite ln_Rinv by lra. pose proof (ln_ge_53 (1 - x) ltac:(lra)). pose proof (ln_up x ltac:(lra)). lra. }
  pose proof (Rabs_le_inv _ _ LY) as LY'. destruct (acc_ln L HL Y D1 Y0) as (N1 & N2).
  assert (A : Rabs (B2R (m_ln L Y) - ln ((1 - x) / x)) <= 85 * q).
  { replace (B2R (m_ln L Y) - ln ((1 - x) / x)) with ((B2R (m_ln L Y) - ln (B2R Y)) + (ln (B2R Y) - ln ((1 - x) / x))) by ring. apply Rle_trans with (1 := Rabs_triang _ _). assert (Rabs (ln (B2R Y)) <= 41) by (apply Rabs_le; lra). assert (/ 2 ^ 51 * Rabs (ln (B2R Y)) <= / 2 ^ 51 * 41) by (apply Rmult_le_compat_l; lra). replace (/ 2 ^ 51) with (2 * q) in * by (unfold q; field). lra. }
  pose proof (Rabs_le_inv _ _ A) as A'. destruct (minus_core th et (m_ln L Y) 50 Ht He N1 ltac:(apply Rabs_le; lra) ltac:(lra)) as (M1 & M2). fold v in M1, M2. split; [exact M1|].
  replace x with (/ (1 + exp (- (- ln ((1 - x) / x))))) at 1 by (rewrite Ropp_involutive, exp_ln by exact P0; field; lra). apply Rle_trans with (1 := logistic_lip _ _).
  replace ((B2R v - B2R et) / B2R th - - ln ((1 - x) / x)) with (((B2R v - B2R et) / B2R th + B2R (m_ln L Y)) - (B2R (m_ln L Y) - ln ((1 - x) / x))) by ring. unfold Rminus at 1. apply Rle_trans with (1 := Rabs_triang _ _). rewrite Rabs_Ropp. lra.
Qed.
End Draws.
