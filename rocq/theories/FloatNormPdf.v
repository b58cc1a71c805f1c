(** pdf of the normal distribution in double. *)
From Coq Require Import ZArith Bool Reals Lia Lra Psatz.
From Coquelicot Require Import Coquelicot.
From Flocq Require Import Core IEEE754.BinarySingleNaN.
From Verif Require Import FloatFacts UniformModel UniformProofs FloatDrawModel FloatDrawSpec FloatDrawProofs FloatDrawCore FloatDrawLoc FloatDrawTrig FloatDrawLaw DiscDrawTree FloatCdfModel FloatCdfSpec FloatCdfProofs FloatCdfCore FloatCdfLoc FloatPdfSpec FloatPdfProofs FloatPdfTail FloatNormModel FloatNormSpec FloatNormProofs.
Local Open Scope R_scope.
Notation rnd := (round radix2 (SpecFloat.fexp 53 1024) ZnearestE).

(** ** Quotients of a computed square by twice a squared scale *)
Definition sqn (n : double) (a k : R) : Prop :=
  (is_finite n = true /\ B2R n <= 0 /\ Rabs (- B2R n - a) <= k * a + tiny) \/ (n = B754_infinity true /\ bpow radix2 900 <= a).
Definition apxi (v : double) (t k tau : R) : Prop := (is_finite v = true /\ B2R v <= 0 /\ Rabs (- B2R v - t) <= k * t + tau) \/ (v = B754_infinity true /\ 80 <= t).
Lemma sq_apxi (n d : double) a D k : sqn n a k -> 0 <= k <= / 1000 -> 0 <= a -> is_finite d = true -> lc q (B2R d) D -> bpow radix2 (-600) <= B2R d <= bpow radix2 602 -> apxi (ddiv n d) (a / D) (k + 5 * q) (q / 2).
Proof.
  intros Hn Hk Ha Fd Ld Rd. pose proof q_pos as Q. pose proof tiny_small as T. pose proof tiny_pos as T0. pose proof (bpow_gt_0 radix2 (-600)) as BP. assert (Pd : 0 < B2R d) by lra. assert (Id : 0 < / B2R d) by (apply Rinv_0_lt_compat, Pd). pose proof Ld as (_ & PD & _). set (t := a / D).
  assert (Pt : 0 <= t) by (apply Rmult_le_pos; [exact Ha|left; apply Rinv_0_lt_compat, PD]).
  assert (TD : Rabs (a / B2R d - t) <= 2 * q * t).
  { destruct (Req_dec a 0) as [->|NA]; [unfold t, Rdiv; rewrite !Rmult_0_l, Rmult_0_r, Rminus_0_r, Rabs_R0; lra|]. unfold t. apply lc_abs; [|lra]. replace q with (0 + q) by ring. apply lc_div; [apply lc_refl; lra|exact Ld]. }
  pose proof (Rabs_le_inv _ _ TD) as TD'. assert (QT : 0 <= q * t <= / 1000 * t) by (split; [apply Rmult_le_pos; lra|apply Rmult_le_compat_r; lra]). assert (AD : 0 <= a / B2R d) by (apply Rmult_le_pos; lra).
  destruct Hn as [(Fn & Nn & En)|(En & Ea)].
  - set (y := - B2R n) in *. assert (EY : Rabs (y / B2R d - a / B2R d) <= k * (a / B2R d) + tiny / B2R d).
    { replace (y / B2R d - a / B2R d) with ((y - a) * / B2R d) by (unfold Rdiv; ring). rewrite Rabs_mult, (Rabs_pos_eq (/ B2R d)) by lra. apply Rle_trans with ((k * a + tiny) * / B2R d); [apply Rmult_le_compat_r; lra|]. unfold Rdiv. lra. }
    assert (TQ : tiny / B2R d <= q / 8). { apply Rmult_le_reg_r with (B2R d); [exact Pd|]. unfold Rdiv at 1. rewrite Rmult_assoc, Rinv_l, Rmult_1_r by lra. apply Rle_trans with (q / 8 * bpow radix2 (-600)); [|apply Rmult_le_compat_l; lra]. replace (q / 8) with (bpow radix2 (-55)) by (unfold q; cbn; lra). unfold tiny. rewrite <- bpow_plus. apply bpow_le. lia. }
    assert (KA : k * (a / B2R d) <= k * t + k * (2 * q * t)). { replace (k * t + k * (2 * q * t)) with (k * (t + 2 * q * t)) by ring. apply Rmult_le_compat_l; lra. } assert (k * (2 * q * t) <= / 1000 * (2 * q * t)) by (apply Rmult_le_compat_r; lra).
    assert (YT : Rabs (y / B2R d - t) <= (k + 3 * q) * t + q / 8) by (apply Rabs_le_inv in EY; apply Rabs_le; lra). pose proof (Rabs_le_inv _ _ YT) as YT'. assert (YP : 0 <= y / B2R d) by (apply Rmult_le_pos; [unfold y; lra|lra]).
    assert (KT : 0 <= k * t <= / 1000 * t) by (split; [apply Rmult_le_pos; lra|apply Rmult_le_compat_r; lra]). assert (NY : B2R n / B2R d = - (y / B2R d)) by (unfold y, Rdiv; ring).
    destruct (div_any n d Fn Pd) as [(A & B)|(A & B)]; rewrite NY in *.
    + left. split; [exact A|]. rewrite B, rnd_opp, Ropp_involutive. pose proof (rnd_err (y / B2R d)) as E5. rewrite (Rabs_pos_eq (y / B2R d)) in E5 by exact YP. split; [pose proof (rnd_ge_0 53 1024 H3_64 H70_64 _ YP); lra|].
      assert (q / 2 * (y / B2R d) <= q / 2 * (2 * t + q)) by (apply Rmult_le_compat_l; lra). assert (q * q <= q * / 1000) by (apply Rmult_le_compat_l; lra). apply Rabs_le_inv in E5. apply Rabs_le. lra.
    + right. rewrite Rabs_Ropp, Rabs_pos_eq in A by exact YP. pose proof bpow_1000. split; [|lra]. rewrite B. destruct (Rlt_dec _ 0) as [K|K]; [reflexivity|]. exfalso. replace y with 0 in A by (unfold y; lra). unfold Rdiv in A. rewrite Rmult_0_l in A. lra.
  - right. subst n. split; [apply inf_div; assumption|]. assert (160 <= a / B2R d); [|lra]. apply Rmult_le_reg_r with (B2R d); [lra|]. replace (a / B2R d * B2R d) with a by (field; lra). apply Rle_trans with (2 := Ea). apply Rle_trans with (bpow radix2 8 * bpow radix2 602); [change (bpow radix2 8) with 256; pose proof (bpow_gt_0 radix2 602); lra|]. rewrite <- bpow_plus. apply bpow_le. lia.
Qed.

Lemma sq_apxn (n d : double) a D k : sqn n a k -> 0 <= k <= / 1000 -> 0 <= a -> is_finite d = true -> lc q (B2R d) D -> bpow radix2 (-600) <= B2R d <= bpow radix2 602 -> apxn (ddiv n d) (a / D) (k + 5 * q) (q / 2).
Proof. intros H1 H2 H3 H4 H5 H6. destruct (sq_apxi n d a D k H1 H2 H3 H4 H5 H6) as [A|(A & B)]; [left; exact A|right; split; [left; exact A|exact B]]. Qed.
Lemma sq_close t u k : 0 <= k <= / 1000 -> Rabs (t - u) <= k * Rabs u -> Rabs (t * t - u * u) <= 3 * k * (u * u).
Proof.
  intros K H. replace (t * t - u * u) with ((t - u) * (t + u)) by ring. rewrite Rabs_mult. assert (S : Rabs (t + u) <= (2 + k) * Rabs u). { replace (t + u) with ((t - u) + 2 * u) by ring. apply Rle_trans with (1 := Rabs_triang _ _). rewrite Rabs_mult, (Rabs_pos_eq 2) by lra. lra. }
  replace (u * u) with (Rabs u * Rabs u) by (rewrite <- Rabs_mult; apply Rabs_pos_eq; apply Rle_0_sqr). pose proof (Rabs_pos u) as U. assert (U2 : 0 <= Rabs u * Rabs u) by (apply Rmult_le_pos; exact U).
  apply Rle_trans with (k * Rabs u * ((2 + k) * Rabs u)); [apply Rmult_le_compat; try apply Rabs_pos; assumption|]. replace (k * Rabs u * ((2 + k) * Rabs u)) with (k * (2 + k) * (Rabs u * Rabs u)) by ring. apply Rmult_le_compat_r; [exact U2|]. assert (k * k <= k * 1) by (apply Rmult_le_compat_l; lra). lra.
Qed.
(** minus the square of a computed difference *)
Lemma sq_sqn (T : double) u : is_finite T = true -> Rabs (B2R T - u) <= q / 2 * Rabs u -> is_nan (dmul T T) = false /\ sqn (dopp (dmul T T)) (u * u) (3 * q).
Proof.
  intros F E. pose proof q_pos as Q. pose proof tiny_pos as TP. pose proof (sq_close (B2R T) u (q / 2) ltac:(lra) E) as S. set (a := u * u) in *. assert (A0 : 0 <= a) by apply Rle_0_sqr. set (b := B2R T * B2R T) in *. assert (B0 : 0 <= b) by apply Rle_0_sqr. apply Rabs_le_inv in S. assert (QA : 0 <= q * a <= / 1000 * a) by (split; [apply Rmult_le_pos; lra|apply Rmult_le_compat_r; lra]).
  destruct (mul_any T T F F) as [(A & B)|(A & B)]; fold b in A, B.
  - split; [destruct (dmul T T); try discriminate A; reflexivity|]. left. destruct (opp_ok _ A) as (C & D). split; [exact C|]. rewrite D, B, Ropp_involutive. pose proof (rnd_err b) as R. rewrite (Rabs_pos_eq b) in R by exact B0. pose proof (rnd_ge_0 53 1024 H3_64 H70_64 _ B0). split; [lra|]. assert (q / 2 * b <= q / 2 * (2 * a)) by (apply Rmult_le_compat_l; lra). apply Rabs_le_inv in R. apply Rabs_le. lra.
  - split; [rewrite B; reflexivity|]. right. rewrite B. destruct (Rlt_dec b 0) as [K|K]; [lra|]. split; [reflexivity|]. rewrite Rabs_pos_eq in A by exact B0. assert (2 * bpow radix2 900 <= bpow radix2 1000) by (change 2 with (bpow radix2 1); rewrite <- bpow_plus; apply bpow_le; lia). lra.
Qed.
(** -2 sigma sigma *)
Lemma m2_ok sg : scale sg -> let d := dmul (dmul (dint (-2)) sg) sg in is_finite d = true /\ lc q (- B2R d) (2 * B2R sg * B2R sg) /\ bpow radix2 (-600) <= - B2R d <= bpow radix2 602.
Proof.
  intros Hn d. pose proof q_pos as Q. pose proof (scale_pos sg Hn) as Pn. destruct Hn as (Fn & Rn). destruct int_m2 as (F2 & V2). assert (V3 : B2R (dint (-2)) * B2R sg = - (2 * B2R sg)) by (rewrite V2; ring).
  destruct (mul_ok (dint (-2)) sg F2 Fn) as (A1 & A2); [rewrite V3, Rabs_Ropp, Rabs_pos_eq by lra; assert (bpow radix2 300 <= big) by (apply bpow_le; lia); pose proof (bpow_gt_0 radix2 1000); unfold big in *; lra|].
  rewrite V3 in A2. rewrite rnd_opp, (rnd_fmt 53 1024 H3_64 H70_64 _ (fmt_double _ (fmt_B2R 53 1024 H3_64 H70_64 sg))) in A2.
  assert (R : bpow radix2 (-599) <= 2 * B2R sg * B2R sg <= bpow radix2 601).
  { change (-599)%Z with (1 + -300 + -300)%Z. change 601%Z with (1 + 300 + 300)%Z. apply bpow_range; [|exact Rn]. apply bpow_range; [|exact Rn]. change (bpow radix2 1) with 2. lra. }
  assert (W : bpow radix2 (-1010) <= 2 * B2R sg * B2R sg <= bpow radix2 1000) by (apply bpow_widen with (-599)%Z 601%Z; [lia|lia|exact R]).
  assert (P2 : 0 < 2 * B2R sg * B2R sg) by (apply Rmult_lt_0_compat; lra). destruct (rnd_lc 0 (2 * B2R sg * B2R sg) _ (lc_refl _ P2) ltac:(lra) W) as (M & C).
  destruct (mul_ok (dmul (dint (-2)) sg) sg A1 Fn) as (M1 & M2); [rewrite A2; replace (- (2 * B2R sg) * B2R sg) with (- (2 * B2R sg * B2R sg)) by ring; rewrite Rabs_Ropp; exact M|].
  rewrite A2 in M2. replace (- (2 * B2R sg) * B2R sg) with (- (2 * B2R sg * B2R sg)) in M2 by ring. rewrite rnd_opp in M2. fold d in M1, M2. split; [exact M1|]. rewrite M2, Ropp_involutive. replace (0 + q) with q in C by ring. split; [exact C|]. apply (lc_range (-599) 601 q _ _ C); [lra|exact R].
Qed.
Lemma isqrt2pi : / 4 <= / sqrt (2 * PI) <= 2 / 5.
Proof. pose proof q_pos as Q. pose proof (lc_abs _ _ _ invsqrt2pi_lc ltac:(lra)) as A. destruct invsqrt2pi_lc as (_ & P & _). rewrite (proj2 dinvsqrt2pi_ok) in A. assert (2 * q * / sqrt (2 * PI) <= / 10000 * / sqrt (2 * PI)) by (apply Rmult_le_compat_r; lra). apply Rabs_le_inv in A. lra. Qed.

Section Functions.
Variable N : libme.
Hypothesis HN : accurate_e N.
Let HM := ae_base N HN.
Lemma normal_pdf mu sg x : location mu -> scale sg -> is_finite x = true -> density (normal_fpdf N mu sg x) (f_normal (B2R mu) (B2R sg) (B2R x)) (12 * q / B2R sg).
Proof.
  intros Hm Hs F. pose proof q_pos as Q. pose proof (scale_pos sg Hs) as Ps. destruct (sub_loc x mu F Hm) as (D1 & _ & D2 & _). unfold normal_fpdf. cbv zeta. set (T := dsub x mu) in *. set (u := B2R x - B2R mu) in *.
  destruct (sq_sqn T u D1 D2) as (NN & SN). destruct (m2_ok sg Hs) as (M1 & M2 & M3). set (d' := dmul (dmul (dint (-2)) sg) sg) in *. destruct (opp_ok d' M1) as (O1 & O2). assert (ED : d' = dopp (dopp d')) by (symmetry; apply Bopp_involutive). rewrite ED, (div_opp _ _ NN). rewrite <- O2 in M2, M3.
  pose proof (sq_apxn _ _ _ _ _ SN ltac:(lra) ltac:(apply Rle_0_sqr) O1 M2 M3) as A. assert (P2 : 0 < 2 * B2R sg * B2R sg) by (apply Rmult_lt_0_compat; lra).
  assert (T0 : 0 <= u * u / (2 * B2R sg * B2R sg)) by (apply Rmult_le_pos; [apply Rle_0_sqr|left; apply Rinv_0_lt_compat, P2]). pose proof (exp_at (e_base N) HM _ _ _ _ A T0 ltac:(lra) ltac:(lra)) as E.
  pose proof isqrt2pi as I. destruct dinvsqrt2pi_ok as (C1 & C2). set (c := / sqrt (2 * PI)) in *. destruct Hs as (Fs & Rs). assert (BI : bpow radix2 (-300) <= / B2R sg <= bpow radix2 300). { split; [change (-300)%Z with (- (300))%Z|change 300%Z with (- (-300))%Z]; rewrite bpow_opp; apply Rinv_le; try lra; apply bpow_gt_0. }
  assert (R : bpow radix2 (-302) <= c / B2R sg <= bpow radix2 300) by (apply (bpow_range (-2) (-300) c (/ B2R sg) 0 300); [cbn; lra|exact BI]).
  destruct (div_lc dinvsqrt2pi sg q 0 c (B2R sg) C1 Fs invsqrt2pi_lc (lc_refl _ Ps) ltac:(lra) (bpow_widen _ _ _ _ _ (ltac:(lia) : (-1010 <= -302)%Z) (ltac:(lia) : (300 <= 1000)%Z) R)) as (G1 & G2).
  pose proof (mul_dens _ _ _ _ _ _ G1 G2 ltac:(lra) (bpow_widen _ _ _ _ _ (ltac:(lia) : (-660 <= -302)%Z) (ltac:(lia) : (300 <= 660)%Z) R) E) as DD.
  unfold f_normal, gauss_density. fold u. replace (exp (- (u / B2R sg * (u / B2R sg) / 2)) / sqrt (2 * PI) / B2R sg) with (c / B2R sg * exp (- (u * u / (2 * B2R sg * B2R sg)))).
  - revert DD. apply density_weaken. assert (IS : 0 < / B2R sg) by (apply Rinv_0_lt_compat, Ps). unfold Rdiv. rewrite <- Rmult_assoc. apply Rmult_le_compat_r; [lra|]. apply Rle_trans with (29 * q * (2 / 5)); [|lra]. apply Rmult_le_compat; lra.
  - replace (u / B2R sg * (u / B2R sg) / 2) with (u * u / (2 * B2R sg * B2R sg)) by (field; lra). unfold c, Rdiv. ring.
Qed.
End Functions.
