(** inv_Phi and the draws of the normal distribution in double: all three regions. *)
From Coq Require Import ZArith Bool Reals Lia Lra Psatz.
From Coquelicot Require Import Coquelicot.
From Flocq Require Import Core IEEE754.BinarySingleNaN.
From Verif Require Import InvPhiModel InvPhiCentral InvPhiTail InvPhiProofs FloatInvReal FloatFacts UniformModel UniformProofs FloatDrawModel FloatDrawSpec FloatDrawProofs FloatDrawCore FloatDrawLoc FloatDrawTrig FloatDrawLaw DiscDrawTree FloatCdfModel FloatCdfSpec FloatCdfProofs FloatCdfCore FloatCdfLoc FloatPdfSpec FloatPdfProofs FloatNormModel FloatNormSpec NormModel NormProofs FloatNormProofs FloatNormTail FloatInvModel FloatInvProofs FloatInvStep.
Local Open Scope R_scope.
Notation rnd := (round radix2 (SpecFloat.fexp 53 1024) ZnearestE).

Lemma phi_low y : -10 <= y <= -1 -> phi y <= 13 * Phi y.
Proof.
  intros H. pose proof isqrt2 as I. pose proof s2pi_bounds as S. pose proof two_sqrtPI as W. assert (II : / sqrt 2 * / sqrt 2 = / 2). { rewrite <- Rinv_mult, sqrt_sqrt by lra. reflexivity. }
  set (t := - (y / sqrt 2)). assert (TY : t = - y * / sqrt 2) by (unfold t, Rdiv; ring). assert (T1 : 7 / 10 <= t) by (rewrite TY; apply Rle_trans with (1 * (7 / 10)); [lra|apply Rmult_le_compat; lra]). assert (T2 : t <= 71 / 10) by (rewrite TY; apply Rle_trans with (10 * (71 / 100)); [apply Rmult_le_compat; lra|lra]).
  assert (TT : t * t = y * y / 2) by (rewrite TY; replace (- y * / sqrt 2 * (- y * / sqrt 2)) with (y * y * (/ sqrt 2 * / sqrt 2)) by ring; rewrite II; reflexivity). pose proof (mills_bound t ltac:(lra)) as M. rewrite TT in M.
  assert (P : Phi y = / 2 * (1 - erf t)) by (rewrite Phi_erf; unfold t; rewrite erf_odd; field). pose proof (erf_bound t) as B. assert (R0 : 0 <= 1 - erf t) by lra. set (r := 1 - erf t) in *. set (x := exp (- (y * y / 2))) in *. pose proof (exp_pos (- (y * y / 2))) as X. fold x in X.
  assert (F : phi y <= 4 / 10 * x). { unfold phi. fold s2pi. replace (- (y * y) / 2) with (- (y * y / 2)) by field. fold x. apply Rmult_le_compat_r; [lra|]. apply Rmult_le_reg_r with s2pi; [lra|]. replace (1 / s2pi * s2pi) with 1 by (field; lra). lra. }
  assert (M1 : 1 * x <= 2 / sqrt PI * x) by (apply Rmult_le_compat_r; lra). assert (M2 : (2 * t + 1) * r <= (152 / 10) * r) by (apply Rmult_le_compat_r; lra). lra.
Qed.
Lemma rnd_half v : / 2 <= v <= 1 -> Rabs (rnd v - v) <= q / 4.
Proof.
  intros H. pose proof q_pos as Q. destruct (Req_dec v 1) as [E|E].
  - subst v. rewrite (rnd_fmt 53 1024 H3 H70 1 (fmt_1 53 1024 H3 H70)). unfold Rminus. rewrite Rplus_opp_r, Rabs_R0. lra.
  - apply Rle_trans with (/ 2 * ulp radix2 (SpecFloat.fexp 53 1024) v); [apply error_le_half_ulp; typeclasses eauto|]. rewrite ulp_neq_0 by lra. unfold cexp. assert (M : mag radix2 v = 0%Z :> Z) by (apply mag_unique_pos; change (bpow radix2 (0 - 1)) with (/ 2); change (bpow radix2 0) with 1; lra). rewrite M. change (SpecFloat.fexp 53 1024 0) with (-53)%Z. rewrite u_eq. lra.
Qed.
Lemma thr_up : is_finite (dmul dquartile dinvsqrt2) = true /\ 47 / 100 <= B2R (dmul dquartile dinvsqrt2) <= 48 / 100.
Proof. destruct (sf_val (dmul dquartile dinvsqrt2) false 8591720143175690 (-54) ltac:(vm_compute; reflexivity)) as (A & B). split; [exact A|]. rewrite B. unfold F2R. cbn. lra. Qed.

Section Inverse.
Variable N : libme.
Hypothesis HN : accurate_e N.
Hypothesis HT : tail_accurate N.
Let M := e_base N.
Let L := x_base M.

Lemma at_self Y k tau : is_finite Y = true -> 0 <= k -> 0 <= tau -> apx 100 Y (B2R Y) k tau.
Proof. intros F K T. left. split; [exact F|]. unfold Rminus. rewrite Rplus_opp_r, Rabs_R0. pose proof (Rabs_pos (B2R Y)). assert (0 <= k * Rabs (B2R Y)) by (apply Rmult_le_pos; lra). lra. Qed.
Lemma phi_8 Y : is_finite Y = true -> is_finite (fPhi N Y) = true /\ Rabs (B2R (fPhi N Y) - Phi (B2R Y)) <= 8 * q.
Proof.
  intros F. destruct (fPhi_ok N HN Y (B2R Y) 0 0 (at_self Y 0 0 F ltac:(lra) ltac:(lra)) ltac:(lra) ltac:(lra)) as (A & _ & B). split; [exact A|]. rewrite gauss_Phi in B. lra.
Qed.
Lemma phi_lower Y : is_finite Y = true -> - (901 / 100) <= B2R Y <= -1 -> is_finite (fPhi N Y) = true /\ Rabs (B2R (fPhi N Y) - Phi (B2R Y)) <= 2700 * q * Phi (B2R Y).
Proof.
  intros F R. pose proof q_pos as Q. destruct (phi_tail N HN HT Y (B2R Y) (at_self Y (2 * q) tiny F ltac:(lra) ltac:(pose proof tiny_pos; lra)) ltac:(lra)) as (A & B). split; [exact A|]. rewrite gauss_Phi in B. apply Rle_trans with (1 := B). pose proof (Phi_range (B2R Y)). apply Rmult_le_compat_r; [lra|]. apply Rmult_le_compat_r; [lra|].
  set (y := B2R Y) in *. assert (y ^ 2 <= (901 / 100) * (901 / 100)) by (replace (y ^ 2) with (- y * - y) by ring; apply Rmult_le_compat; lra). lra.
Qed.
Lemma phi_upper Y : is_finite Y = true -> 1 <= B2R Y <= 901 / 100 -> is_finite (fPhi N Y) = true /\ Rabs (B2R (fPhi N Y) - Phi (B2R Y)) <= q / 4 + 2700 * q * Phi (- B2R Y).
Proof.
  intros F R. pose proof q_pos as Q. destruct (opp_ok Y F) as (FO & VO). destruct (phi_lower (dopp Y) FO ltac:(rewrite VO; lra)) as (A & B). rewrite VO in B. set (y := B2R Y) in *. destruct dinvsqrt2_ok as (FC & VC). destruct (int_ok_ 1 ltac:(lia)) as (F1 & V1). destruct thr_ok as (FT & VT). destruct thr_up as (FU & VU).
  assert (YC : 7 / 10 <= y * B2R dinvsqrt2 <= 7). { rewrite VC. lra. } destruct (mul_ok Y dinvsqrt2 F FC (big_ok (y * B2R dinvsqrt2) ltac:(rewrite Rabs_pos_eq; lra))) as (X1 & X2). fold y in X2.
  destruct (mul_ok (dopp Y) dinvsqrt2 FO FC) as (Z1 & Z2); [rewrite VO; fold y; apply big_ok; apply Rabs_le; lra|]. rewrite VO in Z2. fold y in Z2. replace (- y * B2R dinvsqrt2) with (- (y * B2R dinvsqrt2)) in Z2 by ring. rewrite rnd_opp in Z2. rewrite <- X2 in Z2.
  assert (XR : / 2 <= B2R (dmul Y dinvsqrt2)). { rewrite X2. pose proof (rnd_err (y * B2R dinvsqrt2)) as E. rewrite (Rabs_pos_eq (y * _)) in E by lra. pose proof tiny_small. assert (q / 2 * (y * B2R dinvsqrt2) <= / 1000000 * 7) by (apply Rmult_le_compat; lra). apply Rabs_le_inv in E. lra. }
  destruct (opp_ok _ Z1) as (W1 & W2). assert (EQ : dopp (dmul (dopp Y) dinvsqrt2) = dmul Y dinvsqrt2).
  { apply B2R_inj; [apply is_finite_strict_B2R; rewrite W2, Z2; lra|apply is_finite_strict_B2R; lra|]. rewrite W2, Z2. ring. }
  assert (FL : fPhi N (dopp Y) = dmul dhalf (e_erfc N (dmul Y dinvsqrt2))). { unfold fPhi. cbv zeta. assert (BR : Bltb (dmul (dopp Y) dinvsqrt2) (dmul (dopp dquartile) dinvsqrt2) = true) by (rewrite (Bltb_correct _ _ _ _ Z1 FT); apply Rlt_bool_true; lra). rewrite BR, EQ. reflexivity. }
  assert (FH : fPhi N Y = dsub (dint 1) (fPhi N (dopp Y))). { rewrite FL. unfold fPhi. cbv zeta. assert (B1 : Bltb (dmul Y dinvsqrt2) (dmul (dopp dquartile) dinvsqrt2) = false) by (rewrite (Bltb_correct _ _ _ _ X1 FT); apply Rlt_bool_false; lra). assert (B2 : Bltb (dmul dquartile dinvsqrt2) (dmul Y dinvsqrt2) = true) by (rewrite (Bltb_correct _ _ _ _ FU X1); apply Rlt_bool_true; lra). rewrite B1, B2. reflexivity. }
  rewrite FH. clear FH FL EQ. set (P := fPhi N (dopp Y)) in *. clearbody P. pose proof (Phi_range (- y)) as PR. assert (PH : Phi (- y) <= / 2). { replace (/ 2) with (Phi 0) by (rewrite Phi_erf; unfold Rdiv; rewrite Rmult_0_l, erf_0; lra). apply (proj1 (Phi_le _ _)). lra. }
  assert (QP : 2700 * q * Phi (- y) <= / 100 * Phi (- y)) by (apply Rmult_le_compat_r; lra). pose proof (Rabs_le_inv _ _ B) as B'. pose proof (proj1 (Phi_le (- y) (-1)) ltac:(lra)) as PM.
  assert (P1 : Phi (-1) <= 49 / 100). { pose proof (InvPhiTail.mills 1 ltac:(lra)) as Mi. rewrite Rmult_1_l in Mi. pose proof (phi_le 1). replace (-1) with (- (1)) by lra. lra. }
  destruct (sub_ok (dint 1) P F1 A) as (S1 & S2); [rewrite V1; apply big_ok; apply Rabs_le; lra|]. split; [exact S1|]. rewrite S2, V1. pose proof (rnd_half (1 - B2R P) ltac:(lra)) as RH. replace (Phi y) with (1 - Phi (- y)) by (rewrite Phi_opp; ring).
  replace (rnd (1 - B2R P) - (1 - Phi (- y))) with ((rnd (1 - B2R P) - (1 - B2R P)) - (B2R P - Phi (- y))) by ring. unfold Rminus at 1. apply Rle_trans with (1 := Rabs_triang _ _). rewrite Rabs_Ropp. lra.
Qed.

Definition good (X Y : double) : Prop := is_finite Y = true /\ is_finite (fhalley N X Y) = true /\ Rabs (B2R (fhalley N X Y)) <= 12 /\ Rabs (Phi (B2R (fhalley N X Y)) - B2R X) <= 45 * q.
Lemma resid y x a : Rabs ((Phi y - x) * s2pi * exp (y * y * (1 / 2))) <= a -> Rabs (Phi y - x) <= a * phi y.
Proof.
  intros H. pose proof (phi_K y) as K. pose proof (phi_pos y) as P. rewrite Rmult_assoc in H. set (k := s2pi * exp (y * y * (1 / 2))) in *. replace (Phi y - x) with ((Phi y - x) * k * phi y) by (rewrite Rmult_assoc, (Rmult_comm k), K; ring). rewrite Rabs_mult, (Rabs_pos_eq (phi y)) by lra. apply Rmult_le_compat_r; lra.
Qed.
Lemma cube_tail y : Rabs y <= 901 / 100 -> (2 / 10 + y * y / 10) * (1 / 1000000 * (1 / 1000000) * (1 / 1000000)) <= q.
Proof. intros H. assert (Y : Rabs (y * y) <= 901 / 100 * (901 / 100)) by (apply rabs_mul; exact H). apply Rabs_le_inv in Y. unfold q. lra. Qed.
Lemma good_lower X Y t : is_finite X = true -> is_finite Y = true -> q <= B2R X <= / 40 -> 43 / 16 <= t <= 9 -> Rabs (et t - B2R X) <= / 1000000000 * B2R X -> Rabs (B2R Y - gt t) <= / 10000000000 -> good X Y.
Proof.
  intros FX FY RX Rt Et EY. pose proof q_pos as Q. destruct (tail_U t (B2R X) (B2R Y) Rt ltac:(lra) ltac:(lra) ltac:(lra)) as (Ry & HU). split; [exact FY|]. destruct (phi_8 Y FY) as (F & D8). destruct (phi_lower Y FY ltac:(lra)) as (_ & DL). set (dl := Rabs (B2R (fPhi N Y) - Phi (B2R Y))) in *.
  pose proof (resid _ _ _ HU) as HE. pose proof (phi_le (B2R Y)) as P1. pose proof (phi_pos (B2R Y)) as P0. pose proof (InvPhiTail.mills (- B2R Y) ltac:(lra)) as Mi. rewrite phi_even, Ropp_involutive in Mi. pose proof (Phi_range (B2R Y)) as PR.
  assert (MP : 19 / 10 * Phi (B2R Y) <= phi (B2R Y)) by (apply Rle_trans with (2 := Mi); apply Rmult_le_compat_r; lra). assert (D1 : 2700 * q * Phi (B2R Y) <= / 100 * Phi (B2R Y)) by (apply Rmult_le_compat_r; lra).
  assert (AY : Rabs (B2R Y) = - B2R Y) by (apply Rabs_left; lra). apply (step_ok N HN X Y dl (1 / 1000000)); [exact FX|exact FY|rewrite AY; lra|lra|split; [exact F|apply Rle_refl]|exact D8|lra|exact HU|lra|apply cube_tail; rewrite AY; lra|lra|].
  rewrite AY. assert (- B2R Y * dl <= - B2R Y * (/ 100 * Phi (B2R Y))) by (apply Rmult_le_compat_l; lra). lra.
Qed.
Lemma good_upper X Y t : is_finite X = true -> is_finite Y = true -> q / 2 <= 1 - B2R X <= / 40 -> 43 / 16 <= t <= 9 -> Rabs (et t - (1 - B2R X)) <= / 1000000000 * (1 - B2R X) -> Rabs (B2R Y - - gt t) <= / 10000000000 -> good X Y.
Proof.
  intros FX FY RX Rt Et EY. pose proof q_pos as Q. assert (EY' : Rabs (- B2R Y - gt t) <= 1 / 10000000000). { rewrite <- Rabs_Ropp. replace (- (- B2R Y - gt t)) with (B2R Y - - gt t) by ring. lra. }
  destruct (tail_U t (1 - B2R X) (- B2R Y) Rt ltac:(lra) ltac:(lra) EY') as (Ry & HU). split; [exact FY|]. destruct (phi_8 Y FY) as (F & D8). destruct (phi_upper Y FY ltac:(lra)) as (_ & DL). set (dl := Rabs (B2R (fPhi N Y) - Phi (B2R Y))) in *.
  pose proof (resid _ _ _ HU) as HE. pose proof (phi_low (- B2R Y) ltac:(lra)) as PL. pose proof (InvPhiTail.mills (B2R Y) ltac:(lra)) as Mi. pose proof (Phi_range (- B2R Y)) as PR. rewrite phi_even in HE, PL.
  assert (HU2 : Rabs ((Phi (B2R Y) - B2R X) * s2pi * exp (B2R Y * B2R Y * (1 / 2))) <= 1 / 1000000). { rewrite <- Rabs_Ropp. replace (- ((Phi (B2R Y) - B2R X) * s2pi * exp (B2R Y * B2R Y * (1 / 2)))) with ((Phi (- B2R Y) - (1 - B2R X)) * s2pi * exp (- B2R Y * - B2R Y * (1 / 2))); [exact HU|]. rewrite Phi_opp. replace (- B2R Y * - B2R Y) with (B2R Y * B2R Y) by ring. ring. }
  pose proof (resid _ _ _ HU2) as HE2. pose proof (phi_le (B2R Y)) as P1. pose proof (phi_pos (B2R Y)) as P0. apply Rabs_le_inv in HE. set (p := Phi (- B2R Y)) in *. set (f := phi (B2R Y)) in *. assert (XP : q / 4 <= 5001 / 10000 * p) by lra. assert (D1 : 2700 * q * p <= / 100 * p) by (apply Rmult_le_compat_r; lra).
  assert (MP : 19 / 10 * p <= f) by (apply Rle_trans with (2 := Mi); apply Rmult_le_compat_r; lra). assert (AY : Rabs (B2R Y) = B2R Y) by (apply Rabs_pos_eq; lra).
  apply (step_ok N HN X Y dl (1 / 1000000)); [exact FX|exact FY|rewrite AY; lra|lra|split; [exact F|apply Rle_refl]|exact D8|fold f in HE2; lra|exact HU2|lra|apply cube_tail; rewrite AY; lra|fold f; lra|].
  rewrite AY. fold f. assert (B2R Y * dl <= B2R Y * (511 / 1000 * p)) by (apply Rmult_le_compat_l; lra). lra.
Qed.
Lemma good_central (X Qf Y : double) : is_finite X = true -> is_finite Y = true -> 0 < B2R X < 1 -> Rabs (B2R Qf) <= 475755 / 1000000 -> Rabs (B2R Qf - (B2R X - / 2)) <= q -> Rabs (B2R Y - gc (B2R Qf)) <= / 1000000000 -> good X Y.
Proof.
  intros FX FY RX RQ EQ EY. pose proof q_pos as Q. destruct (central_U (B2R Qf) (B2R X) (B2R Y) RQ) as (Ry & HE & HU); [rewrite <- Rabs_Ropp; replace (- (B2R X - (1 / 2 + B2R Qf))) with (B2R Qf - (B2R X - / 2)) by field; lra|lra|]. split; [exact FY|]. destruct (phi_8 Y FY) as (F & D8).
  set (y := B2R Y) in *. assert (YY : y * y <= 198 / 100 * (198 / 100)). { pose proof (rabs_mul y y _ _ Ry Ry) as A. apply Rabs_le_inv in A. lra. } pose proof (Rle_0_sqr y) as YP. unfold Rsqr in YP.
  assert (PL : / 30 <= phi y). { pose proof (phi_K y) as K. pose proof (phi_pos y) as P. pose proof s2pi_bounds as S. assert (X2 : exp (y * y * (1 / 2)) <= 9). { apply Rle_trans with (exp (1 + 1)); [apply exp_le; lra|]. rewrite exp_plus. pose proof exp_le_3. pose proof (exp_pos 1). apply Rle_trans with (3 * 3); [apply Rmult_le_compat; lra|lra]. } pose proof (exp_pos (y * y * (1 / 2))) as X0.
    assert (KB : s2pi * exp (y * y * (1 / 2)) <= 3 * 9) by (apply Rmult_le_compat; lra). apply Rmult_le_reg_r with (s2pi * exp (y * y * (1 / 2))); [apply Rmult_lt_0_compat; lra|]. rewrite K. lra. }
  apply (step_ok N HN X Y (Rabs (B2R (fPhi N Y) - Phi y)) (5 / 1000000)); fold y; [exact FX|exact FY|lra|exact RX|split; [exact F|apply Rle_refl]|exact D8|lra|exact HU|lra|unfold q; lra|lra|].
  apply Rle_trans with (198 / 100 * (8 * q)); [apply Rmult_le_compat; try apply Rabs_pos; lra|lra].
Qed.

Lemma approx_good X : is_finite X = true -> q <= B2R X <= 1 - q / 2 -> good X (finv_approx N X).
Proof.
  intros FX RX. pose proof q_pos as Q. destruct (int_ok_ 0 ltac:(lia)) as (F0 & V0). destruct (int_ok_ 1 ltac:(lia)) as (F1 & V1). destruct fx_low_ok as (FL & VL). destruct fx_high_ok as (FH & VH). destruct half_ok as (Fh & Vh). fold dhalf in Fh, Vh. set (x := B2R X) in *.
  unfold finv_approx. cbv zeta. fold M L.
  assert (C1 : Bltb X (dint 0) || Bltb (dint 1) X = false) by (rewrite !Bltb_correct by assumption; rewrite V0, V1; fold x; rewrite !Rlt_bool_false by lra; reflexivity). rewrite C1. clear C1.
  assert (C2 : Beqb X (dint 0) = false) by (rewrite (Beqb_correct _ _ _ _ FX F0), V0; apply Req_bool_false; fold x; lra). rewrite C2. assert (C3 : Beqb X (dint 1) = false) by (rewrite (Beqb_correct _ _ _ _ FX F1), V1; apply Req_bool_false; fold x; lra). rewrite C3. clear C2 C3.
  rewrite (Bltb_correct _ _ _ _ FX FL), (Bltb_correct _ _ _ _ FX FH). fold x.
  assert (LN : forall z, 0 < z <= / 40 -> ln z <= - (362 / 100)). { intros z Hz. rewrite <- (ln_exp (- (362 / 100))). apply ln_le; [lra|]. rewrite exp_Ropp. pose proof exp_362. pose proof (exp_pos (362 / 100)). eapply Rle_trans; [apply Hz|]. apply Rinv_le_contravar; assumption. }
  destruct (Rlt_bool_spec x (B2R fx_low)) as [K|K].
  - assert (XP : 0 < x <= / 40) by lra. destruct (acc_ln L (ax_base M (ae_base N HN)) X FX ltac:(fold x; lra)) as (A & B). fold x in B. replace (/ 2 ^ 51) with (2 * q) in B by (unfold q; field).
    destruct (tail_sqrt (m_ln L X) (ln x) A B (conj (ln_ge_53 x ltac:(lra)) (LN x XP))) as (T1 & T2 & T3). rewrite exp_ln in T3 by lra. set (T := dsqrt (dmul (dint (-2)) (m_ln L X))) in *. destruct (tail_start T T1 T2) as ((S1 & S2) & _).
    apply (good_lower X _ (B2R T)); [exact FX|exact S1|fold x; lra|exact T2|exact T3|exact S2].
  - destruct (Rlt_bool_spec x (B2R fx_high)) as [K'|K'].
    + assert (AX : Rabs (x - / 2) <= 47575001 / 100000000) by (apply Rabs_le; lra). destruct (sub_ok X dhalf FX Fh) as (S1 & S2); [fold x; rewrite Vh; apply big_ok; lra|]. fold x in S2. rewrite Vh in S2. pose proof (rnd_err (x - / 2)) as E. rewrite <- S2 in E. pose proof tiny_small as TS. assert (q / 2 * Rabs (x - / 2) <= q / 2 * 1) by (apply Rmult_le_compat_l; lra). assert (E1 : Rabs (B2R (dsub X dhalf) - (x - / 2)) <= q) by lra.
      assert (AQ : Rabs (B2R (dsub X dhalf)) <= 475755 / 1000000). { replace (B2R (dsub X dhalf)) with ((B2R (dsub X dhalf) - (x - / 2)) + (x - / 2)) by ring. apply Rle_trans with (1 := Rabs_triang _ _). lra. }
      destruct (central_start _ S1 AQ) as (A & B). apply (good_central X (dsub X dhalf)); [exact FX|exact A|fold x; lra|exact AQ|exact E1|exact B].
    + destruct (opp_ok X FX) as (FO & VO). fold x in VO. destruct (ax_ln1p M (ae_base N HN) (dopp X) FO ltac:(rewrite VO; lra)) as (A & B). rewrite VO in B. replace (1 + - x) with (1 - x) in B by ring. replace (/ 2 ^ 51) with (2 * q) in B by (unfold q; field).
      assert (XP : 0 < 1 - x <= / 40) by lra. destruct (tail_sqrt (x_ln1p M (dopp X)) (ln (1 - x)) A B (conj (ln_ge_53 (1 - x) ltac:(lra)) (LN (1 - x) XP))) as (T1 & T2 & T3). rewrite exp_ln in T3 by lra. set (T := dsqrt (dmul (dint (-2)) (x_ln1p M (dopp X)))) in *. destruct (tail_start T T1 T2) as (_ & (S1 & S2)).
      apply (good_upper X _ (B2R T)); [exact FX|exact S1|fold x; lra|exact T2|exact T3|exact S2].
Qed.
Lemma inv_ok X : is_finite X = true -> q <= B2R X <= 1 - q / 2 -> is_finite (finv_Phi N X) = true /\ Rabs (B2R (finv_Phi N X)) <= 12 /\ Rabs (Phi (B2R (finv_Phi N X)) - B2R X) <= 45 * q.
Proof. intros FX RX. destruct (approx_good X FX RX) as (A & B). unfold finv_Phi. cbv zeta. rewrite A. exact B. Qed.

Lemma affine_core th et l K : scale th -> location et -> is_finite l = true -> Rabs (B2R l) <= K -> 1 <= K <= 1000 -> let v := dadd (dmul l th) et in
  is_finite v = true /\ Rabs ((B2R v - B2R et) / B2R th - B2R l) <= (K + 1 + Rabs (B2R et) / B2R th) * q.
Proof.
  intros Ht He Fl Hl HK v. pose proof (scale_pos th Ht) as Pt. pose proof (scale_range th (B2R l) Ht ltac:(lra)) as S. pose proof big_370 as B. pose proof (bpow_gt_0 radix2 370) as P370. pose proof (bpow_gt_0 radix2 300) as P300. destruct He as (Fe & Re). pose proof q_pos as Q. pose proof tiny_q as TQ. pose proof tiny_pos as T0.
  rewrite Rmult_comm in S. destruct (mul_ok l th Fl (proj1 Ht) ltac:(lra)) as (M1 & M2). pose proof (rnd_err (B2R l * B2R th)) as E1. rewrite <- M2 in E1. set (W := dmul l th) in *.
  assert (WB : Rabs (B2R W) <= 2 * bpow radix2 370 + 1). { replace (B2R W) with ((B2R W - B2R l * B2R th) + B2R l * B2R th) by ring. apply Rle_trans with (1 := Rabs_triang _ _). assert (q / 2 * Rabs (B2R l * B2R th) <= 1 * Rabs (B2R l * B2R th)) by (apply Rmult_le_compat_r; [apply Rabs_pos|lra]). lra. }
  pose proof (Rabs_triang (B2R W) (B2R et)) as TR. destruct (add_ok W et M1 Fe ltac:(lra)) as (A1 & A2). pose proof (rnd_err (B2R W + B2R et)) as E2. rewrite <- A2 in E2. fold v in A1, A2, E2. split; [exact A1|].
  rewrite (Rmult_comm (B2R l)) in E1. rewrite (Rplus_comm (B2R W)) in E2. apply affine_err with (B2R W); [exact Pt|exact E1|exact E2|apply tiny_scale, Ht|exact Hl|exact HK].
Qed.
Lemma normal_icdf mu sg X : location mu -> scale sg -> is_finite X = true -> q <= B2R X <= 1 - q / 2 ->
  is_finite (normal_ficdf N mu sg X) = true /\ Rabs (F_normal (B2R mu) (B2R sg) (B2R (normal_ficdf N mu sg X)) - B2R X) <= (51 + Rabs (B2R mu) / B2R sg) * q.
Proof.
  intros Hm Hs FX RX. destruct (inv_ok X FX RX) as (A & B & C). destruct (affine_core sg mu _ 12 Hs Hm A B ltac:(lra)) as (V1 & V2). fold (normal_ficdf N mu sg X) in V1, V2. split; [exact V1|]. unfold F_normal. rewrite gauss_Phi. set (v := B2R (normal_ficdf N mu sg X)) in *. set (l := B2R (finv_Phi N X)) in *. clearbody l.
  destruct (Phi_mvt l ((v - B2R mu) / B2R sg)) as (c & _ & E). pose proof (phi_le c) as P1. pose proof (phi_pos c) as P0. pose proof q_pos as Q. pose proof (scale_pos sg Hs) as Ps. assert (K : 0 <= Rabs (B2R mu) / B2R sg) by (apply Rmult_le_pos; [apply Rabs_pos|left; apply Rinv_0_lt_compat, Ps]). assert (KQ : 0 <= Rabs (B2R mu) / B2R sg * q) by (apply Rmult_le_pos; lra).
  assert (D : Rabs (Phi ((v - B2R mu) / B2R sg) - Phi l) <= 2 / 5 * ((12 + 1 + Rabs (B2R mu) / B2R sg) * q)) by (rewrite E, Rabs_mult, (Rabs_pos_eq (phi c)) by lra; apply Rmult_le_compat; try lra; apply Rabs_pos).
  replace (Phi ((v - B2R mu) / B2R sg) - B2R X) with ((Phi ((v - B2R mu) / B2R sg) - Phi l) + (Phi l - B2R X)) by ring. apply Rle_trans with (1 := Rabs_triang _ _). lra.
Qed.
End Inverse.
