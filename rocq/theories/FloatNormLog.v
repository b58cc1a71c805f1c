(** cdf and pdf of the lognormal distribution in double. *)
From Coq Require Import ZArith Bool Reals Lia Lra Psatz.
From Coquelicot Require Import Coquelicot.
From Flocq Require Import Core IEEE754.BinarySingleNaN.
From Verif Require Import FloatFacts UniformModel UniformProofs FloatDrawModel FloatDrawSpec FloatDrawProofs FloatDrawCore FloatDrawLoc FloatDrawTrig FloatDrawLaw FloatDrawLibm DiscDrawTree FloatCdfModel FloatCdfSpec FloatCdfProofs FloatCdfCore FloatCdfLoc FloatPdfSpec FloatPdfProofs FloatPdfTail FloatPdfNan FloatNormModel FloatNormSpec NormModel NormProofs FloatNormProofs FloatNormPdf.
Local Open Scope R_scope.
Notation rnd := (round radix2 (SpecFloat.fexp 53 1024) ZnearestE).

Lemma div_sig (P sg : double) v k tau : is_finite P = true -> scale sg -> Rabs (B2R P - v) <= k * Rabs v + tau -> 0 <= k <= / 1000 -> 0 <= tau <= 1 -> apx 100 (ddiv P sg) (v / B2R sg) (k + q) (2 * (tau / B2R sg) + tiny).
Proof.
  intros F Hs E K T. pose proof q_pos as Q. pose proof (scale_pos sg Hs) as Ps. destruct Hs as (Fs & Rs). assert (Is : 0 < / B2R sg) by (apply Rinv_0_lt_compat, Ps). assert (BI : / B2R sg <= bpow radix2 300) by (change 300%Z with (- (-300))%Z; rewrite bpow_opp; apply Rinv_le; [apply bpow_gt_0|lra]).
  set (z := v / B2R sg). set (w := B2R P / B2R sg). set (ta := tau / B2R sg). assert (TA : 0 <= ta <= bpow radix2 300) by (unfold ta, Rdiv; split; [apply Rmult_le_pos; lra|apply Rle_trans with (1 * / B2R sg); [apply Rmult_le_compat_r; lra|lra]]).
  assert (W : Rabs (w - z) <= k * Rabs z + ta). { replace (w - z) with ((B2R P - v) * / B2R sg) by (unfold w, z, Rdiv; ring). rewrite Rabs_mult, (Rabs_pos_eq (/ B2R sg)) by lra. apply Rle_trans with ((k * Rabs v + tau) * / B2R sg); [apply Rmult_le_compat_r; lra|]. unfold z, ta, Rdiv. rewrite Rabs_mult, (Rabs_pos_eq (/ B2R sg)) by lra. lra. }
  pose proof (Rabs_pos z) as Z0. assert (KZ : 0 <= k * Rabs z <= / 1000 * Rabs z) by (split; [apply Rmult_le_pos; lra|apply Rmult_le_compat_r; lra]). assert (WB : Rabs w <= Rabs z + / 1000 * Rabs z + ta) by (replace w with ((w - z) + z) by ring; apply Rle_trans with (1 := Rabs_triang _ _); lra).
  destruct (div_any P sg F Ps) as [(A & B)|(A & B)]; fold w in A, B.
  - left. split; [exact A|]. rewrite B. pose proof (rnd_err w) as R. assert (q / 2 * Rabs w <= q / 2 * (Rabs z + / 1000 * Rabs z + ta)) by (apply Rmult_le_compat_l; lra). assert (q / 2 * ta <= / 2 * ta) by (apply Rmult_le_compat_r; lra). assert (0 <= q * Rabs z) by (apply Rmult_le_pos; lra).
    replace (rnd w - z) with ((rnd w - w) + (w - z)) by ring. apply Rle_trans with (1 := Rabs_triang _ _). lra.
  - assert (B3 : 400 + 4 * bpow radix2 300 <= bpow radix2 1000). { assert (100 <= bpow radix2 300) by (apply Rle_trans with (bpow radix2 7); [cbn; lra|apply bpow_le; lia]). apply Rle_trans with (bpow radix2 3 * bpow radix2 300); [change (bpow radix2 3) with 8; lra|rewrite <- bpow_plus; apply bpow_le; lia]. }
    right. rewrite B. assert (ZB : 200 <= Rabs z) by lra. destruct (Rlt_dec (B2R P) 0) as [C|C]; [right|left]; (split; [reflexivity|]).
    + assert (W0 : w <= 0) by (unfold w, Rdiv; replace (B2R P * / B2R sg) with (- (- B2R P * / B2R sg)) by ring; assert (0 <= - B2R P * / B2R sg) by (apply Rmult_le_pos; lra); lra). rewrite Rabs_left1 in A by exact W0. apply Rabs_le_inv in W. unfold Rabs in *. destruct (Rcase_abs z); lra.
    + assert (W0 : 0 <= w) by (unfold w, Rdiv; apply Rmult_le_pos; lra). rewrite Rabs_pos_eq in A by exact W0. apply Rabs_le_inv in W. unfold Rabs in *. destruct (Rcase_abs z); lra.
Qed.
Lemma mul_shrink_l (X C : double) : is_finite X = true -> is_finite C = true -> 0 <= B2R C <= 1 -> is_finite (dmul C X) = true /\ B2R (dmul C X) = rnd (B2R X * B2R C).
Proof.
  intros FX FC R. pose proof (Bmult_correct 53 1024 _ _ mode_NE C X) as K. change (round_mode mode_NE) with ZnearestE in K. rewrite (Rmult_comm (B2R C)) in K. assert (B : Rabs (rnd (B2R X * B2R C)) < bpow radix2 1024).
  { apply Rle_lt_trans with (Rabs (B2R X)); [|apply abs_B2R_lt_emax]. apply abs_round_le_generic; try typeclasses eauto; [apply generic_format_abs, (fmt_B2R 53 1024 H3_64 H70_64)|]. rewrite Rabs_mult, (Rabs_pos_eq (B2R C)) by lra. rewrite <- (Rmult_1_r (Rabs (B2R X))) at 2. apply Rmult_le_compat_l; [apply Rabs_pos|lra]. }
  rewrite Rlt_bool_true in K by exact B. destruct K as (K1 & K2 & _). split; [unfold dmul, fmul; rewrite K2, FX, FC; reflexivity|exact K1].
Qed.
(** a subtraction of which one side carries an error *)
Lemma sub_err (A B : double) a b e : is_finite A = true -> location B \/ location A -> is_finite B = true -> Rabs (B2R A - a) <= e -> Rabs (B2R B - b) <= e -> B2R A = a \/ B2R B = b -> Rabs (B2R A - B2R B) <= 4 * big ->
  is_finite (dsub A B) = true /\ Rabs (B2R (dsub A B) - (a - b)) <= q / 2 * Rabs (a - b) + 2 * e.
Proof.
  intros FA L FB EA EB O R. pose proof q_pos as Q. destruct (sub_near A B FA FB R) as (S1 & _ & S2 & _). split; [exact S1|]. set (x := B2R A - B2R B) in *. assert (X : Rabs (x - (a - b)) <= e). { destruct O as [O|O]; unfold x; rewrite O; [replace (a - B2R B - (a - b)) with (- (B2R B - b)) by ring; rewrite Rabs_Ropp; exact EB|replace (B2R A - b - (a - b)) with (B2R A - a) by ring; exact EA]. }
  assert (XB : Rabs x <= Rabs (a - b) + e) by (replace x with ((x - (a - b)) + (a - b)) by ring; apply Rle_trans with (1 := Rabs_triang _ _); lra). assert (q / 2 * Rabs x <= q / 2 * (Rabs (a - b) + e)) by (apply Rmult_le_compat_l; lra). assert (0 <= e) by (apply Rle_trans with (2 := EA), Rabs_pos). assert (q / 2 * e <= / 2 * e) by (apply Rmult_le_compat_r; lra).
  replace (B2R (dsub A B) - (a - b)) with ((B2R (dsub A B) - x) + (x - (a - b))) by ring. apply Rle_trans with (1 := Rabs_triang _ _). lra.
Qed.

Lemma tiny_over sg : scale sg -> tiny / B2R sg <= q / 32.
Proof.
  intros Hs. pose proof (scale_pos sg Hs) as Ps. apply Rmult_le_reg_r with (B2R sg); [exact Ps|]. unfold Rdiv at 1. rewrite Rmult_assoc, Rinv_l, Rmult_1_r by lra. apply Rle_trans with (q / 32 * bpow radix2 (-300)); [|apply Rmult_le_compat_l; [pose proof q_pos; lra|apply Hs]]. replace (q / 32) with (bpow radix2 (-57)) by (unfold q; cbn; lra). unfold tiny. rewrite <- bpow_plus. apply bpow_le. lia.
Qed.
Lemma half_div E p e : is_finite E = true -> 0 <= B2R E <= 2 -> Rabs (B2R E - p) <= e -> computes (ddiv E (dint 2)) (p / 2) (e / 2 + q).
Proof.
  intros F R A. pose proof q_pos as Q. pose proof tiny_small as T. pose proof big_10 as B. destruct (int_ok_ 2 ltac:(lia)) as (F2 & V2). destruct (div_ok E (dint 2) F) as (S1 & S2); [rewrite V2; lra|rewrite V2, Rabs_pos_eq; lra|]. rewrite V2 in S2. split; [exact S1|]. rewrite S2. split.
  - split; [apply (rnd_ge_0 53 1024 H3_64 H70_64); lra|apply (rnd_le_fmt 53 1024 H3_64 H70_64); [apply (fmt_1 53 1024 H3_64 H70_64)|lra]].
  - pose proof (rnd_err (B2R E / 2)) as X. rewrite (Rabs_pos_eq (B2R E / 2)) in X by lra. assert (q / 2 * (B2R E / 2) <= q / 2 * 1) by (apply Rmult_le_compat_l; lra). apply Rabs_le_inv in X, A. apply Rabs_le. lra.
Qed.

(** ** The bell curve *)
Lemma bell_lip a b : Rabs (exp (- (b * b / 2)) - exp (- (a * a / 2))) <= Rabs (b - a).
Proof.
  destruct (MVT_gen (fun x => exp (- (x * x / 2))) a b (fun x => - x * exp (- (x * x / 2)))) as (c & _ & E).
  - intros x _. auto_derive; [exact I|]. unfold Rdiv. field.
  - intros x _. apply continuity_pt_filterlim, (ex_derive_continuous (fun x => exp (- (x * x / 2)))). auto_derive. exact I.
  - cbv beta in E. rewrite E, Rabs_mult. assert (H : Rabs (- c * exp (- (c * c / 2))) <= 1). { rewrite Rabs_mult, Rabs_Ropp, (Rabs_pos_eq (exp _)) by (left; apply exp_pos). replace (c * c) with (Rabs c * Rabs c) by (rewrite <- Rabs_mult; apply Rabs_pos_eq, Rle_0_sqr). apply r_exp, Rabs_pos. }
    apply Rle_trans with (1 * Rabs (b - a)); [apply Rmult_le_compat_r; [apply Rabs_pos|exact H]|lra].
Qed.
Lemma bell_close t z k tau : 0 <= k <= / 4000 -> 0 <= tau -> Rabs (t - z) <= k * Rabs z + tau -> Rabs (exp (- (t * t / 2)) - exp (- (z * z / 2))) <= 6 * k + tau + q.
Proof.
  intros K T H. assert (exists w, Rabs (w - z) <= k * Rabs z /\ Rabs (t - w) <= tau) as (w & W1 & W2).
  { pose proof (Rabs_pos z) as Z0. assert (KZ : 0 <= k * Rabs z) by (apply Rmult_le_pos; lra). set (r := k * Rabs z) in *. destruct (Rle_lt_dec (Rabs (t - z)) r) as [C|C]; [exists t; unfold Rminus at 2; rewrite Rplus_opp_r, Rabs_R0; split; lra|]. destruct (Rle_lt_dec 0 (t - z)) as [D|D].
    - exists (z + r). rewrite Rabs_pos_eq in C, H by lra. split; apply Rabs_le; lra.
    - exists (z - r). rewrite Rabs_left in C, H by lra. split; apply Rabs_le; lra. }
  pose proof (bell_lip w t) as B. pose proof (sq_close w z k ltac:(lra) W1) as S. assert (Z2 : 0 <= z * z / 2) by (pose proof (Rle_0_sqr z) as X; unfold Rsqr in X; lra). assert (WW : 0 <= w * w / 2) by (pose proof (Rle_0_sqr w) as X; unfold Rsqr in X; lra).
  pose proof (far_back (w * w / 2) (z * z / 2) (3 * k) 0 Z2 WW ltac:(lra) ltac:(lra)) as FB. assert (S2 : Rabs (w * w / 2 - z * z / 2) <= 3 * k * (z * z / 2) + 0) by (replace (w * w / 2 - z * z / 2) with ((w * w - z * z) * / 2) by field; rewrite Rabs_mult, (Rabs_pos_eq (/ 2)) by lra; lra). specialize (FB S2).
  replace (exp (- (t * t / 2)) - exp (- (z * z / 2))) with ((exp (- (t * t / 2)) - exp (- (w * w / 2))) + (exp (- (w * w / 2)) - exp (- (z * z / 2)))) by ring. apply Rle_trans with (1 := Rabs_triang _ _). lra.
Qed.
Lemma neg_sq_sqn (T : double) : is_finite T = true -> sqn (dmul (dopp T) T) (B2R T * B2R T) q.
Proof.
  intros F. pose proof q_pos as Q. destruct (opp_ok T F) as (O1 & O2). set (b := B2R T * B2R T). assert (B0 : 0 <= b) by apply Rle_0_sqr. assert (QB : 0 <= q * b) by (apply Rmult_le_pos; lra). assert (PB : B2R (dopp T) * B2R T = - b) by (rewrite O2; unfold b; ring).
  destruct (mul_any (dopp T) T O1 F) as [(A & B)|(A & B)]; rewrite PB in *.
  - left. split; [exact A|]. rewrite B, rnd_opp, Ropp_involutive. pose proof (rnd_err b) as R. rewrite (Rabs_pos_eq b) in R by exact B0. pose proof (rnd_ge_0 53 1024 H3_64 H70_64 _ B0). split; lra.
  - right. rewrite Rabs_Ropp, Rabs_pos_eq in A by exact B0. rewrite B. pose proof (bpow_gt_0 radix2 1000). destruct (Rlt_dec (- b) 0) as [K|K]; [|lra]. split; [reflexivity|]. apply Rle_trans with (2 := A), bpow_le. lia.
Qed.

Section Functions.
Variable N : libme.
Hypothesis HN : accurate_e N.
Let M := e_base N.
Let HM : accurate_x M := ae_base N HN.
Let L := x_base M.

Lemma ln_loc x : is_finite x = true -> 0 < B2R x -> is_finite (m_ln L x) = true /\ Rabs (B2R (m_ln L x) - ln (B2R x)) <= 2 * q * Rabs (ln (B2R x)) /\ Rabs (ln (B2R x)) <= 2000 /\ location (m_ln L x).
Proof.
  intros F X. pose proof q_pos as Q. destruct (acc_ln L (ax_base M HM) x F X) as (A & B). replace (/ 2 ^ 51) with (2 * q) in B by (unfold q; field). pose proof (ln_big x F X) as C. split; [exact A|]. split; [exact B|]. split; [exact C|]. split; [exact A|].
  assert (2 * q * Rabs (ln (B2R x)) <= 1 * 2000) by (apply Rmult_le_compat; try lra; apply Rabs_pos). assert (4000 <= bpow radix2 300) by (apply Rle_trans with (bpow radix2 12); [cbn; lra|apply bpow_le; lia]). pose proof (Rabs_triang (B2R (m_ln L x) - ln (B2R x)) (ln (B2R x))) as T. replace (B2R (m_ln L x) - ln (B2R x) + ln (B2R x)) with (B2R (m_ln L x)) in T by ring. lra.
Qed.
Lemma loc_diff (A B : double) : location A -> location B -> Rabs (B2R A - B2R B) <= 4 * big.
Proof. intros (_ & A1) (_ & B1). assert (bpow radix2 300 <= big) by (apply bpow_le; lia). pose proof (Rabs_triang (B2R A) (- B2R B)) as T. rewrite Rabs_Ropp in T. unfold Rminus. pose proof (bpow_gt_0 radix2 300). lra. Qed.

Lemma lognormal_cdf mu sg x : location mu -> scale sg -> is_finite x = true -> computes (lognormal_fcdf N mu sg x) (F_lognormal (B2R mu) (B2R sg) (B2R x)) ((8 + 8 * Rabs (ln (B2R x)) / B2R sg) * q).
Proof.
  intros Hm Hs F. pose proof q_pos as Q. pose proof tiny_small as TS. pose proof tiny_pos as TP. pose proof (scale_pos sg Hs) as Ps. assert (Is : 0 < / B2R sg) by (apply Rinv_0_lt_compat, Ps). unfold lognormal_fcdf, F_lognormal. rewrite (leb_0 x F). destruct (Rle_bool_spec (B2R x) 0) as [H|H]; destruct (Rle_dec (B2R x) 0) as [C|C]; try lra.
  { apply computes_0. split; [lra|]. apply Rmult_le_pos; [|lra]. assert (0 <= 8 * Rabs (ln (B2R x)) / B2R sg) by (apply Rmult_le_pos; [apply Rmult_le_pos; [lra|apply Rabs_pos]|lra]). lra. }
  destruct (ln_loc x F H) as (L1 & L2 & L3 & L4). fold M L. set (l := ln (B2R x)) in *. pose proof (Rabs_pos l) as l0. set (u := B2R mu - l).
  destruct (sub_err mu (m_ln L x) (B2R mu) l (2 * q * Rabs l) (proj1 Hm) (or_introl L4) L1 ltac:(unfold Rminus; rewrite Rplus_opp_r, Rabs_R0; apply Rmult_le_pos; lra) L2 (or_introl eq_refl) (loc_diff _ _ Hm L4)) as (S1 & S2). fold u in S2. set (T := dsub mu (m_ln L x)) in *.
  pose proof isqrt2 as I. destruct dinvsqrt2_ok as (FC & VC). pose proof (lc_abs _ _ _ invsqrt2_lc ltac:(lra)) as LA. destruct (mul_shrink_l T dinvsqrt2 S1 FC ltac:(lra)) as (P1 & P2). set (P := dmul dinvsqrt2 T) in *. set (i := / sqrt 2) in *. set (c := B2R dinvsqrt2) in *. set (v := u * i). 
  assert (EP : Rabs (B2R P - v) <= 4 * q * Rabs v + (4 * q * Rabs l + tiny)).
  { assert (RV : Rabs v = Rabs u * i) by (unfold v; rewrite Rabs_mult, (Rabs_pos_eq i) by lra; reflexivity). set (l' := Rabs l) in *. pose proof (Rabs_pos u) as u0. set (u' := Rabs u) in *. assert (QL : 0 <= q * l') by (apply Rmult_le_pos; lra). assert (UI : 0 <= u' * i) by (apply Rmult_le_pos; lra). assert (QUI : 0 <= q * (u' * i) <= / 1000 * (u' * i)) by (split; [apply Rmult_le_pos; lra|apply Rmult_le_compat_r; lra]).
    assert (CI : c <= 101 / 100 * i) by (apply Rabs_le_inv in LA; assert (2 * q * i <= / 100 * i) by (apply Rmult_le_compat_r; lra); lra). assert (UC : u' * c <= 101 / 100 * (u' * i)) by (replace (101 / 100 * (u' * i)) with (u' * (101 / 100 * i)) by ring; apply Rmult_le_compat_l; lra). assert (QUC : q * (u' * c) <= q * (101 / 100 * (u' * i))) by (apply Rmult_le_compat_l; lra).
    assert (LC : q * l' * c <= q * l' * (72 / 100)) by (apply Rmult_le_compat_l; lra). 
    assert (X : Rabs (B2R T * c - v) <= (q / 2 * u' + 2 * (2 * q * l')) * c + u' * (2 * q * i)). { unfold v. replace (B2R T * c - u * i) with ((B2R T - u) * c + u * (c - i)) by ring. apply Rle_trans with (1 := Rabs_triang _ _). rewrite !Rabs_mult, (Rabs_pos_eq c) by lra. fold u'. apply Rplus_le_compat; [apply Rmult_le_compat_r; lra|apply Rmult_le_compat_l; lra]. }
    replace ((q / 2 * u' + 2 * (2 * q * l')) * c + u' * (2 * q * i)) with (q * (u' * c) / 2 + 4 * (q * l' * c) + 2 * (q * (u' * i))) in X by field.
    pose proof (rnd_err (B2R T * c)) as R. rewrite <- P2 in R. assert (TC : Rabs (B2R T * c) <= 2 * (u' * i) + 3 * (q * l')). { pose proof (Rabs_triang (B2R T * c - v) v) as TT. replace (B2R T * c - v + v) with (B2R T * c) in TT by ring. rewrite RV in TT. lra. }
    assert (q / 2 * Rabs (B2R T * c) <= q / 2 * (2 * (u' * i) + 3 * (q * l'))) by (apply Rmult_le_compat_l; lra). assert (q * (q * l') <= / 1000 * (q * l')) by (apply Rmult_le_compat_r; lra).
    rewrite RV. replace (B2R P - v) with ((B2R P - B2R T * c) + (B2R T * c - v)) by ring. apply Rle_trans with (1 := Rabs_triang _ _). lra. }
  assert (QL : 0 <= q * Rabs l <= q * 2000) by (split; [apply Rmult_le_pos; lra|apply Rmult_le_compat_l; lra]).
  pose proof (div_sig P sg v (4 * q) (4 * q * Rabs l + tiny) P1 Hs EP ltac:(lra) ltac:(unfold q in *; lra)) as A. apply (apx_le 100 8) in A; [|lra]. set (ls := Rabs l / B2R sg) in *. assert (LS : 0 <= ls) by (apply Rmult_le_pos; lra). assert (QLS : 0 <= q * ls) by (apply Rmult_le_pos; lra). pose proof (tiny_over sg Hs) as TO.
  assert (TAU : 0 <= 2 * ((4 * q * Rabs l + tiny) / B2R sg) + tiny <= 8 * (q * ls) + q / 8). { replace ((4 * q * Rabs l + tiny) / B2R sg) with (4 * (q * ls) + tiny / B2R sg) by (unfold ls, Rdiv; ring). assert (0 <= tiny / B2R sg) by (apply Rmult_le_pos; lra). lra. }
  destruct (erfc_at N HN _ _ _ _ A ltac:(lra) (proj1 TAU)) as (E1 & E2 & E3). set (tau := 2 * ((4 * q * Rabs l + tiny) / B2R sg) + tiny) in *. assert (q * tau <= / 1000 * tau) by (apply Rmult_le_compat_r; lra).
  replace (gauss_cdf ((l - B2R mu) / B2R sg)) with ((1 - erf (v / B2R sg)) / 2).
  - pose proof (half_div _ _ _ E1 E2 E3) as D. revert D. apply computes_weaken. replace ((8 + 8 * Rabs l / B2R sg) * q) with (8 * q + 8 * (q * ls)) by (unfold ls, Rdiv; ring). lra.
  - rewrite gauss_cdf_erf. replace ((l - B2R mu) / B2R sg / sqrt 2) with (- (v / B2R sg)) by (unfold v, u, i; pose proof (sqrt_lt_R0 2 ltac:(lra)); field; repeat split; lra). rewrite erf_odd. field.
Qed.
Lemma bell_at Z z k tau : apx 100 Z z k tau -> 0 <= k <= / 4000 -> 0 <= tau -> computes (x_exp M (ddiv (dmul (dopp Z) Z) (dint 2))) (exp (- (z * z / 2))) (6 * k + tau + 20 * q).
Proof.
  intros A K T. pose proof q_pos as Q. destruct (int_ok_ 2 ltac:(lia)) as (F2 & V2). assert (LC2 : lc q (B2R (dint 2)) 2) by (rewrite V2; destruct (lc_refl 2 ltac:(lra)) as (X1 & X2 & X3); split; [exact X1|split; [exact X2|lra]]).
  assert (R2 : bpow radix2 (-600) <= B2R (dint 2) <= bpow radix2 602) by (rewrite V2; change 2 with (bpow radix2 1); split; apply bpow_le; lia).
  assert (INF : forall s, Z = B754_infinity s -> 100 <= Rabs z -> computes (x_exp M (ddiv (dmul (dopp Z) Z) (dint 2))) (exp (- (z * z / 2))) (6 * k + tau + 20 * q)).
  { intros s -> Hz. assert (E : ddiv (dmul (dopp (B754_infinity s)) (B754_infinity s)) (dint 2) = B754_infinity true) by (replace (dmul (dopp (B754_infinity s)) (B754_infinity s)) with (B754_infinity true : double) by (destruct s; reflexivity); apply inf_div; [exact F2|lra]). rewrite E. destruct (ax_exp_minf M HM) as (X1 & X2). split; [exact X1|]. rewrite X2. split; [lra|].
    assert (Z2 : 40 <= z * z / 2). { assert (100 * 100 <= Rabs z * Rabs z) by (apply Rmult_le_compat; lra). rewrite <- Rabs_mult, Rabs_pos_eq in H by apply Rle_0_sqr. lra. } pose proof (exp_tail _ Z2). pose proof (exp_pos (- (z * z / 2))). apply Rabs_le. lra. }
  destruct A as [(F & E)|[(F & E)|(F & E)]].
  - pose proof (sq_apxn _ _ _ _ _ (neg_sq_sqn Z F) ltac:(lra) ltac:(apply Rle_0_sqr) F2 LC2 R2) as B. assert (T0 : 0 <= B2R Z * B2R Z / 2) by (pose proof (Rle_0_sqr (B2R Z)) as X; unfold Rsqr in X; lra). destruct (exp_at M HM _ _ _ _ B T0 ltac:(lra) ltac:(lra)) as (E1 & E2 & E3). split; [exact E1|]. split; [exact E2|].
    pose proof (bell_close _ _ _ _ K T E) as BC. set (e := x_exp M _) in *. replace (B2R e - exp (- (z * z / 2))) with ((B2R e - exp (- (B2R Z * B2R Z / 2))) + (exp (- (B2R Z * B2R Z / 2)) - exp (- (z * z / 2)))) by ring. apply Rle_trans with (1 := Rabs_triang _ _). lra.
  - apply (INF _ F). pose proof (Rle_abs z). lra.
  - apply (INF _ F). pose proof (Rle_abs (- z)). rewrite Rabs_Ropp in *. lra.
Qed.

Lemma lognormal_pdf mu sg x : location mu -> scale sg -> is_finite x = true -> B2R x <= 0 \/ bpow radix2 (-640) <= B2R x * B2R sg <= bpow radix2 640 ->
  B2R x <= 0 /\ lognormal_fpdf N mu sg x = dint 0 \/ 0 < B2R x /\ density (lognormal_fpdf N mu sg x) (f_lognormal (B2R mu) (B2R sg) (B2R x)) ((20 + 4 * Rabs (ln (B2R x)) / B2R sg) * q / (B2R x * B2R sg)).
Proof.
  intros Hm Hs F HR. pose proof q_pos as Q. pose proof tiny_small as TS. pose proof tiny_pos as TP. pose proof (scale_pos sg Hs) as Ps. assert (Is : 0 < / B2R sg) by (apply Rinv_0_lt_compat, Ps). unfold lognormal_fpdf, f_lognormal. rewrite (leb_0 x F). destruct (Rle_bool_spec (B2R x) 0) as [H|H]; destruct (Rle_dec (B2R x) 0) as [C|C]; try lra; [left; split; [exact H|reflexivity]|]. right. split; [exact H|]. destruct HR as [HR|HR]; [lra|].
  destruct (ln_loc x F H) as (L1 & L2 & L3 & L4). fold M L. set (l := ln (B2R x)) in *. pose proof (Rabs_pos l) as l0. set (u := l - B2R mu).
  destruct (sub_err (m_ln L x) mu l (B2R mu) (2 * q * Rabs l) L1 (or_introl Hm) (proj1 Hm) L2 ltac:(unfold Rminus; rewrite Rplus_opp_r, Rabs_R0; apply Rmult_le_pos; lra) (or_intror eq_refl) (loc_diff _ _ L4 Hm)) as (S1 & S2). fold u in S2. set (T := dsub (m_ln L x) mu) in *.
  assert (QL : 0 <= q * Rabs l <= q * 2000) by (split; [apply Rmult_le_pos; lra|apply Rmult_le_compat_l; lra]).
  pose proof (div_sig T sg u (q / 2) (2 * (2 * q * Rabs l)) S1 Hs S2 ltac:(lra) ltac:(unfold q in *; lra)) as A. set (ls := Rabs l / B2R sg) in *. assert (LS : 0 <= ls) by (apply Rmult_le_pos; lra). assert (QLS : 0 <= q * ls) by (apply Rmult_le_pos; lra).
  replace (2 * (2 * (2 * q * Rabs l) / B2R sg) + tiny) with (8 * (q * ls) + tiny) in A by (unfold ls, Rdiv; ring).
  pose proof (bell_at _ _ _ _ A ltac:(lra) ltac:(lra)) as E. cbv zeta. set (z := u / B2R sg) in *.
  pose proof isqrt2pi as I. destruct dinvsqrt2pi_ok as (C1 & C2). set (c := / sqrt (2 * PI)) in *. destruct Hs as (Fs & Rs). set (y := B2R x * B2R sg) in *. assert (Y0 : 0 < y) by (apply Rmult_lt_0_compat; lra).
  destruct (mul_lc x sg 0 0 (B2R x) (B2R sg) F Fs (lc_refl _ H) (lc_refl _ Ps) ltac:(lra) (bpow_widen _ _ _ _ _ (ltac:(lia) : (-1010 <= -640)%Z) (ltac:(lia) : (640 <= 1000)%Z) HR)) as (D1 & D2). fold y in D2.
  assert (BI : bpow radix2 (-640) <= / y <= bpow radix2 640). { split; [change (-640)%Z with (- (640))%Z|change 640%Z with (- (-640))%Z]; rewrite bpow_opp; apply Rinv_le; try lra; apply bpow_gt_0. }
  assert (R : bpow radix2 (-642) <= c / y <= bpow radix2 640) by (apply (bpow_range (-2) (-640) c (/ y) 0 640); [cbn; lra|exact BI]).
  destruct (div_lc dinvsqrt2pi (dmul x sg) q (0 + 0 + q) c y C1 D1 invsqrt2pi_lc D2 ltac:(lra) (bpow_widen _ _ _ _ _ (ltac:(lia) : (-1010 <= -642)%Z) (ltac:(lia) : (640 <= 1000)%Z) R)) as (G1 & G2).
  pose proof (mul_dens _ _ _ _ _ _ G1 G2 ltac:(lra) (bpow_widen _ _ _ _ _ (ltac:(lia) : (-660 <= -642)%Z) (ltac:(lia) : (640 <= 660)%Z) R) E) as DD.
  unfold gauss_density. replace (exp (- (z * z / 2)) / sqrt (2 * PI) / y) with (c / y * exp (- (z * z / 2))) by (unfold c, Rdiv; ring).
  revert DD. apply density_weaken. assert (IY : 0 < / y) by (apply Rinv_0_lt_compat, Y0). unfold Rdiv. rewrite <- Rmult_assoc. apply Rmult_le_compat_r; [lra|]. replace ((20 + 4 * Rabs l * / B2R sg) * q) with (20 * q + 4 * (q * ls)) by (unfold ls, Rdiv; ring). apply Rle_trans with ((45 * q + 8 * (q * ls)) * (2 / 5)); [|lra]. apply Rmult_le_compat; lra.
Qed.

(** for tiny arguments 1/(x sigma) overflows while the exponential is zero *)
Lemma lognormal_nan (HE : ends M) mu sg x : is_finite mu = true -> is_finite sg = true -> Rabs (B2R mu) <= 100 -> 1 <= B2R sg <= 4 -> is_finite x = true -> 0 < B2R x <= bpow radix2 (-1033) -> lognormal_fpdf N mu sg x = dnan.
Proof.
  intros Fm Fs Rm Rs F X. pose proof q_pos as Q. assert (Hm : location mu). { split; [exact Fm|]. apply Rle_trans with (1 := Rm). apply Rle_trans with (bpow radix2 9); [cbn; lra|apply bpow_le; lia]. } assert (Hs : scale sg). { split; [exact Fs|]. split; [apply Rle_trans with (bpow radix2 0); [apply bpow_le; lia|cbn; lra]|apply Rle_trans with (bpow radix2 3); [cbn; lra|apply bpow_le; lia]]. }
  unfold lognormal_fpdf. rewrite (leb_0 x F). destruct (Rle_bool_spec (B2R x) 0) as [H|_]; [lra|]. cbv zeta. fold M L. destruct (ln_loc x F ltac:(lra)) as (L1 & L2 & L3 & L4). set (l := ln (B2R x)) in *.
  assert (LL : l <= - 516). { unfold l. apply Rle_trans with (ln (bpow radix2 (-1033))); [apply ln_le; lra|]. rewrite ln_bpow. pose proof (ln_lo 2 ltac:(lra)). lra. } apply Rabs_le_inv in Rm. pose proof (Rabs_le_inv _ _ L3) as L3'.
  destruct (sub_err (m_ln L x) mu l (B2R mu) (2 * q * Rabs l) L1 (or_introl Hm) Fm L2 ltac:(unfold Rminus; rewrite Rplus_opp_r, Rabs_R0; apply Rmult_le_pos; [lra|apply Rabs_pos]) (or_intror eq_refl) (loc_diff _ _ L4 Hm)) as (S1 & S2). set (T := dsub (m_ln L x) mu) in *.
  assert (TB : - 2200 <= B2R T <= - 415). { rewrite (Rabs_left l) in S2 by lra. rewrite (Rabs_left (l - B2R mu)) in S2 by lra. assert (q / 2 * - (l - B2R mu) <= / 10000 * - (l - B2R mu)) by (apply Rmult_le_compat_r; lra). assert (q * - l <= / 10000 * - l) by (apply Rmult_le_compat_r; lra). apply Rabs_le_inv in S2. lra. }
  assert (Is : / 4 <= / B2R sg <= 1) by (split; [apply Rinv_le; lra|rewrite <- Rinv_1; apply Rinv_le; lra]). pose proof big_10 as BB. pose proof tiny_small as TS.
  assert (W : - 2200 <= B2R T / B2R sg <= - 103). { assert (415 * / 4 <= - B2R T * / B2R sg) by (apply Rmult_le_compat; lra). assert (- B2R T * / B2R sg <= 2200 * 1) by (apply Rmult_le_compat; lra). unfold Rdiv. lra. }
  destruct (div_ok T sg S1 ltac:(lra)) as (Z1 & Z2); [rewrite Rabs_left by lra; lra|]. pose proof (rnd_err (B2R T / B2R sg)) as ZE. rewrite <- Z2 in ZE. set (Z := ddiv T sg) in *. rewrite (Rabs_left (B2R T / B2R sg)) in ZE by lra. assert (q / 2 * - (B2R T / B2R sg) <= q / 2 * 2200) by (apply Rmult_le_compat_l; lra). assert (q * 2200 <= / 1000) by (unfold q; lra). apply Rabs_le_inv in ZE. assert (ZB : - 2201 <= B2R Z <= - 102) by lra.
  destruct (opp_ok Z Z1) as (O1 & O2). assert (ZZ : 102 * 102 <= B2R (dopp Z) * - B2R Z <= 2201 * 2201) by (rewrite O2; split; apply Rmult_le_compat; lra). assert (B6 : 10000000 <= big) by (apply Rle_trans with (bpow radix2 24); [cbn; lra|apply bpow_le; lia]).
  destruct (mul_ok (dopp Z) Z O1 Z1) as (U1 & U2); [rewrite Rabs_left by lra; lra|]. pose proof (rnd_err (B2R (dopp Z) * B2R Z)) as UE. rewrite <- U2 in UE. set (U := dmul (dopp Z) Z) in *. rewrite (Rabs_left (B2R (dopp Z) * B2R Z)) in UE by lra. assert (q / 2 * - (B2R (dopp Z) * B2R Z) <= q / 2 * 5000000) by (apply Rmult_le_compat_l; lra). assert (q * 5000000 <= / 1000) by (unfold q; lra). apply Rabs_le_inv in UE.
  destruct (int_ok_ 2 ltac:(lia)) as (F2 & V2). destruct (div_ok U (dint 2) U1) as (W1 & W2); [rewrite V2; lra|rewrite V2, Rabs_left by lra; lra|]. rewrite V2 in W2. pose proof (rnd_err (B2R U / 2)) as WE. rewrite <- W2 in WE. set (V := ddiv U (dint 2)) in *. rewrite (Rabs_left (B2R U / 2)) in WE by lra. assert (q / 2 * - (B2R U / 2) <= q / 2 * 5000000) by (apply Rmult_le_compat_l; lra). apply Rabs_le_inv in WE.
  destruct (proj1 HE V W1 ltac:(lra)) as (E1 & E2).
  (* the factor *)
  assert (X4 : B2R x <= B2R x * B2R sg <= bpow radix2 (-1031)). { split; [rewrite <- (Rmult_1_r (B2R x)) at 1; apply Rmult_le_compat_l; lra|]. change (-1031)%Z with (-1033 + 2)%Z. rewrite bpow_plus. change (bpow radix2 2) with 4. apply Rmult_le_compat; lra. }
  assert (B1 : bpow radix2 (-1031) <= 1) by (change 1 with (bpow radix2 0); apply bpow_le; lia). destruct (mul_ok x sg F Fs) as (D1 & D2); [rewrite Rabs_pos_eq by lra; lra|]. set (D := dmul x sg) in *.
  assert (D3 : B2R x <= B2R D) by (rewrite D2; apply (rnd_ge_fmt 53 1024 H3_64 H70_64); [apply (fmt_B2R 53 1024 H3_64 H70_64)|lra]). assert (D4 : B2R D <= bpow radix2 (-1031)) by (rewrite D2; apply (rnd_le_fmt 53 1024 H3_64 H70_64); [apply (fmt_bpow 53 1024 H3_64 H70_64); lia|lra]).
  destruct dinvsqrt2pi_ok as (C1 & C2). rewrite (div_over dinvsqrt2pi D C1 ltac:(lra)).
  - apply inf_times_0; assumption.
  - apply Rle_trans with (bpow radix2 (-2) * bpow radix2 1031); [rewrite <- bpow_plus; apply bpow_le; lia|]. unfold Rdiv. apply Rmult_le_compat; try (left; apply bpow_gt_0); [rewrite C2; cbn; lra|]. change 1031%Z with (- (-1031))%Z. rewrite bpow_opp. apply Rinv_le; lra.
Qed.

End Functions.
