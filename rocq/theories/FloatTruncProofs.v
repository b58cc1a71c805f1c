(** pdf and cdf of truncated_normal_dist in double. *)
From Coq Require Import ZArith Bool Reals Lia Lra Psatz.
From Coquelicot Require Import Coquelicot.
From Flocq Require Import Core IEEE754.BinarySingleNaN.
From Verif Require Import FloatFacts UniformModel UniformProofs FloatDrawModel FloatDrawSpec FloatDrawProofs FloatDrawCore FloatDrawLoc FloatDrawTrig FloatDrawLaw FloatDrawLibm DiscDrawTree FloatCdfModel FloatCdfSpec FloatCdfProofs FloatCdfCore FloatCdfLoc FloatPdfSpec FloatPdfProofs FloatPdfTail FloatPdfNan FloatNormModel FloatNormSpec NormModel NormProofs FloatNormProofs FloatNormPdf FloatNormLog FloatNormMax FloatNormTail FloatTruncModel FloatTruncSpec.
Local Open Scope R_scope.
Notation rnd := (round radix2 (SpecFloat.fexp 53 1024) ZnearestE).

Lemma rnd_one v : 0 <= v <= q / 8 -> rnd (1 - v) = 1.
Proof.
  intros H. pose proof q_pos as Q. pose proof (fmt_1 53 1024 H3_64 H70_64) as G. apply Rle_antisym; [apply (rnd_le_fmt 53 1024 H3_64 H70_64); [exact G|lra]|]. apply Rnot_lt_le. intros K.
  pose proof (pred_ge_gt radix2 (SpecFloat.fexp 53 1024) _ 1 (generic_format_round radix2 (SpecFloat.fexp 53 1024) ZnearestE (1 - v)) G K) as A. rewrite (pred_1 53 1024 H3_64 H70_64) in A. change (Z.opp 53) with (-53)%Z in A. rewrite u_eq in A.
  destruct (round_N_pt radix2 (SpecFloat.fexp 53 1024) (fun z => negb (Z.even z)) (1 - v)) as (_ & D). specialize (D 1 G). replace (1 - (1 - v)) with v in D by ring. rewrite (Rabs_pos_eq v) in D by lra. apply Rabs_le_inv in D. lra.
Qed.
Lemma tiny_over_q : tiny <= q / 4.
Proof. replace (q / 4) with (bpow radix2 (-54)) by (unfold q; cbn; lra). apply bpow_le. lia. Qed.
(** a quotient of which both sides carry an error *)
Lemma quot (X Y : double) x d e1 e : is_finite X = true -> Rabs (B2R X - x) <= e1 -> Rabs (B2R Y - d) <= e -> 0 < d -> e <= d / 100 -> bpow radix2 (-100) <= d -> Rabs x + e1 <= bpow radix2 500 ->
  is_finite (ddiv X Y) = true /\ B2R (ddiv X Y) = rnd (B2R X / B2R Y) /\ 0 < B2R Y /\ Rabs (B2R (ddiv X Y) - x / d) <= ((e1 + Rabs x / d * e) * (102 / 100) + q * (Rabs x + e1)) / d + tiny.
Proof.
  intros FX EX EY D E Db Bx. pose proof q_pos as Q. pose proof tiny_pos as TP. apply Rabs_le_inv in EY. assert (YL : 99 / 100 * d <= B2R Y) by lra. assert (Y0 : 0 < B2R Y) by lra. assert (YI : 0 < / B2R Y <= 102 / 100 * / d). { split; [apply Rinv_0_lt_compat, Y0|]. apply Rle_trans with (/ (99 / 100 * d)); [apply Rinv_le_contravar; lra|]. rewrite Rinv_mult. assert (0 < / d) by (apply Rinv_0_lt_compat, D). assert (/ (99 / 100) <= 102 / 100) by lra. apply Rmult_le_compat_r; lra. }
  assert (DI : 0 < / d <= bpow radix2 100) by (split; [apply Rinv_0_lt_compat, D|change 100%Z with (- (-100))%Z; rewrite bpow_opp; apply Rinv_le; [apply bpow_gt_0|exact Db]]).
  assert (e10 : 0 <= e1) by (apply Rle_trans with (2 := EX), Rabs_pos). assert (e0 : 0 <= e) by lra. assert (XB : Rabs (B2R X) <= Rabs x + e1) by (replace (B2R X) with ((B2R X - x) + x) by ring; apply Rle_trans with (1 := Rabs_triang _ _); lra). pose proof (Rabs_pos x) as x0. pose proof (Rabs_pos (B2R X)) as X0.
  assert (QB : Rabs (B2R X / B2R Y) <= 102 / 100 * ((Rabs x + e1) / d)). { unfold Rdiv. rewrite Rabs_mult, (Rabs_pos_eq (/ B2R Y)) by lra. apply Rle_trans with ((Rabs x + e1) * (102 / 100 * / d)); [apply Rmult_le_compat; lra|right; unfold Rdiv; ring]. }
  assert (S0 : 0 <= (Rabs x + e1) / d <= big). { unfold Rdiv. split; [apply Rmult_le_pos; lra|]. apply Rle_trans with (bpow radix2 500 * bpow radix2 100); [apply Rmult_le_compat; lra|]. rewrite <- bpow_plus. apply bpow_le. lia. }
  destruct (div_ok X Y FX ltac:(lra) ltac:(lra)) as (A1 & A2). split; [exact A1|]. split; [exact A2|]. split; [exact Y0|]. rewrite A2. pose proof (rnd_err (B2R X / B2R Y)) as R. assert (q / 2 * Rabs (B2R X / B2R Y) <= q / 2 * (102 / 100 * ((Rabs x + e1) / d))) by (apply Rmult_le_compat_l; lra). assert (QS : 0 <= q * ((Rabs x + e1) / d)) by (apply Rmult_le_pos; lra).
  assert (T : Rabs (B2R X / B2R Y - x / d) <= (e1 + Rabs x / d * e) * (102 / 100) / d). { replace (B2R X / B2R Y - x / d) with (((B2R X - x) + x / d * (d - B2R Y)) * / B2R Y) by (field; lra). rewrite Rabs_mult, (Rabs_pos_eq (/ B2R Y)) by lra. assert (U : Rabs (B2R X - x + x / d * (d - B2R Y)) <= e1 + Rabs x / d * e). { apply Rle_trans with (1 := Rabs_triang _ _). apply Rplus_le_compat; [exact EX|]. unfold Rdiv. rewrite !Rabs_mult, (Rabs_pos_eq (/ d)) by lra. apply Rmult_le_compat_l; [apply Rmult_le_pos; lra|]. apply Rabs_le. lra. }
    replace ((e1 + Rabs x / d * e) * (102 / 100) / d) with ((e1 + Rabs x / d * e) * (102 / 100 * / d)) by (unfold Rdiv; ring). apply Rmult_le_compat; try lra; apply Rabs_pos. }
  replace (((e1 + Rabs x / d * e) * (102 / 100) + q * (Rabs x + e1)) / d) with ((e1 + Rabs x / d * e) * (102 / 100) / d + q * ((Rabs x + e1) / d)) by (unfold Rdiv; ring).
  replace (rnd (B2R X / B2R Y) - x / d) with ((rnd (B2R X / B2R Y) - B2R X / B2R Y) + (B2R X / B2R Y - x / d)) by ring. apply Rle_trans with (1 := Rabs_triang _ _). lra.
Qed.
(** a difference of two probabilities *)
Lemma diff (X Y : double) x y : computes X x (11 * q) -> computes Y y (11 * q) -> is_finite (dsub X Y) = true /\ Rabs (B2R (dsub X Y) - (x - y)) <= 23 * q.
Proof.
  intros (FX & RX & EX) (FY & RY & EY). pose proof q_pos as Q. pose proof tiny_q as T. pose proof big_10 as B. destruct (sub_ok X Y FX FY ltac:(apply Rabs_le; lra)) as (A1 & A2). split; [exact A1|]. rewrite A2. pose proof (rnd_err (B2R X - B2R Y)) as R. assert (AB : Rabs (B2R X - B2R Y) <= 1) by (apply Rabs_le; lra). assert (q / 2 * Rabs (B2R X - B2R Y) <= q / 2 * 1) by (apply Rmult_le_compat_l; lra). apply Rabs_le_inv in R, EX, EY. apply Rabs_le. lra.
Qed.
Lemma F_mono mu sg x y : 0 < sg -> x <= y -> F_normal mu sg x <= F_normal mu sg y.
Proof. intros S H. unfold F_normal. rewrite !gauss_cdf_erf. assert (I : 0 < / sg) by (apply Rinv_0_lt_compat, S). pose proof isqrt2 as R. assert (erf ((x - mu) / sg / sqrt 2) <= erf ((y - mu) / sg / sqrt 2)); [|lra]. apply erf_incr. unfold Rdiv. apply Rmult_le_compat_r; [lra|]. apply Rmult_le_compat_r; lra. Qed.
Lemma f_bound mu sg x : 0 < sg -> 0 <= f_normal mu sg x <= 2 / 5 / sg.
Proof.
  intros S. unfold f_normal, gauss_density. assert (I : 0 < / sg) by (apply Rinv_0_lt_compat, S). pose proof isqrt2pi as C. set (z := (x - mu) / sg). assert (E : 0 < exp (- (z * z / 2)) <= 1). { split; [apply exp_pos|]. rewrite <- exp_0. apply exp_le. pose proof (Rle_0_sqr z) as X. unfold Rsqr in X. lra. }
  unfold Rdiv. split; [apply Rmult_le_pos; [apply Rmult_le_pos; lra|lra]|]. apply Rmult_le_compat_r; [lra|]. apply Rle_trans with (1 * (2 / 5)); [apply Rmult_le_compat; lra|lra].
Qed.

Section Functions.
Variable N : libme.
Hypothesis HN : accurate_e N.
Let M := e_base N.
Let HM : accurate_x M := ae_base N HN.
Variables mu sg : double.
Hypothesis Hm : location mu.
Hypothesis Hs : scale sg.
Let m := B2R mu.
Let s := B2R sg.
Lemma Phi_a_ok a : lower_bound a -> computes (trunc_Phi_a N mu sg a) (F_below m s a) (11 * q).
Proof.
  pose proof q_pos as Q. intros [F| ->].
  - assert (E : Bltb (B754_infinity true) a = true) by (destruct a as [b|b| |b ? ? ?]; try discriminate F; try destruct b; reflexivity). unfold trunc_Phi_a. rewrite E. replace (F_below m s a) with (F_normal m s (B2R a)) by (destruct a; try discriminate F; reflexivity). exact (normal_cdf N HN mu sg a Hm Hs F).
  - apply computes_0. cbn. lra.
Qed.
Lemma Phi_b_ok b : upper_bound b -> computes (trunc_Phi_b N mu sg b) (F_below m s b) (11 * q).
Proof.
  pose proof q_pos as Q. intros [F| ->].
  - assert (E : Bltb b (B754_infinity false) = true) by (destruct b as [c|c| |c ? ? ?]; try discriminate F; try destruct c; reflexivity). unfold trunc_Phi_b. rewrite E. replace (F_below m s b) with (F_normal m s (B2R b)) by (destruct b; try discriminate F; reflexivity). exact (normal_cdf N HN mu sg b Hm Hs F).
  - destruct (int_ok_ 1 ltac:(lia)) as (F & V). unfold trunc_Phi_b. cbn [Bltb]. change (Bltb (B754_infinity false) (B754_infinity false)) with false. cbv iota. split; [exact F|]. rewrite V. cbn. split; [lra|]. apply Rabs_le. lra.
Qed.
Lemma below_01 a : 0 <= F_below m s a <= 1.
Proof. assert (H : forall x, 0 <= F_normal m s x <= 1) by (intros x; unfold F_normal; pose proof (gauss_cdf_range ((x - m) / s)); lra). destruct a as [c|c| |c ? ? ?]; try apply H. destruct c; cbn; lra. Qed.
Lemma trunc_cdf a b x : lower_bound a -> upper_bound b -> is_finite x = true -> bound_le a x -> bound_le x b -> bpow radix2 (-40) <= mass m s a b ->
  near (trunc_fcdf N mu sg a b x) (F_truncated m s a b (B2R x)) (49 * q / mass m s a b).
Proof.
  intros Ha Hb Fx Lx Ux D. pose proof q_pos as Q. pose proof tiny_q as T. pose proof (scale_pos sg Hs) as Ps. fold s in Ps. pose proof (Phi_a_ok a Ha) as CA. pose proof (Phi_b_ok b Hb) as CB. pose proof (normal_cdf N HN mu sg x Hm Hs Fx) as CX. fold m s in CX. unfold normal_fcdf in CX. destruct (diff _ _ _ _ CX CA) as (N1 & N2). destruct (diff _ _ _ _ CB CA) as (D1 & D2). fold (mass m s a b) in D2. set (d := mass m s a b) in *. unfold trunc_fcdf, F_truncated. fold d. cbv zeta. set (n := F_normal m s (B2R x) - F_below m s a) in *.
  assert (B40 : bpow radix2 (-40) = 4096 * q) by (unfold q; cbn; lra). assert (D0 : 0 < d) by lra. assert (d1 : d <= 1) by (pose proof (below_01 a); pose proof (below_01 b); unfold d, mass; lra).
  assert (NB : 0 <= n <= d). { pose proof (gauss_cdf_range ((B2R x - m) / s)) as G. fold (F_normal m s (B2R x)) in G. assert (A : F_below m s a <= F_normal m s (B2R x)). { destruct Ha as [F| ->]; [|cbn; lra]. replace (F_below m s a) with (F_normal m s (B2R a)) by (destruct a; try discriminate F; reflexivity). apply F_mono; [exact Ps|]. destruct a as [c|c| |c ? ? ?]; try discriminate F; destruct x as [c'|c'| |c' ? ? ?]; try discriminate Fx; exact Lx. }
    assert (B : F_normal m s (B2R x) <= F_below m s b). { destruct Hb as [F| ->]; [|cbn; lra]. replace (F_below m s b) with (F_normal m s (B2R b)) by (destruct b; try discriminate F; reflexivity). apply F_mono; [exact Ps|]. destruct b as [c|c| |c ? ? ?]; try discriminate F; destruct x as [c'|c'| |c' ? ? ?]; try discriminate Fx; exact Ux. } unfold n, d, mass. lra. }
  destruct (quot _ _ n d (23 * q) (23 * q) N1 N2 D2 D0 ltac:(lra) ltac:(apply Rle_trans with (2 := D), bpow_le; lia)) as (K1 & _ & _ & K2). { rewrite Rabs_pos_eq by lra. apply Rle_trans with (bpow radix2 2); [cbn; lra|apply bpow_le; lia]. }
  split; [exact K1|]. apply Rle_trans with (1 := K2). rewrite Rabs_pos_eq by lra. assert (ND : n / d <= 1) by (apply Rmult_le_reg_r with d; [exact D0|]; unfold Rdiv; rewrite Rmult_assoc, Rinv_l by lra; lra). assert (n0 : 0 <= n / d) by (apply Rmult_le_pos; [lra|left; apply Rinv_0_lt_compat, D0]). assert (n / d * (23 * q) <= 1 * (23 * q)) by (apply Rmult_le_compat_r; lra). assert (q * (n + 23 * q) <= q * (11 / 10)) by (apply Rmult_le_compat_l; lra). assert (DI : 1 <= / d) by (rewrite <- Rinv_1; apply Rinv_le_contravar; lra).
  apply Rle_trans with ((481 / 10 * q) / d + q * / 4 * 1); [|assert (q * / 4 * 1 <= q * / 4 * / d) by (apply Rmult_le_compat_l; lra); unfold Rdiv in *; lra].
  apply Rplus_le_compat; [unfold Rdiv; apply Rmult_le_compat_r; lra|apply Rle_trans with (q * / 4); [pose proof tiny_over_q|]; lra].
Qed.
Lemma trunc_pdf a b x : lower_bound a -> upper_bound b -> is_finite x = true -> bpow radix2 (-40) <= mass m s a b ->
  density (trunc_fpdf N mu sg a b x) (f_truncated m s a b (B2R x)) (30 * q / (s * (mass m s a b) ^ 2)).
Proof.
  intros Ha Hb Fx D. pose proof q_pos as Q. pose proof tiny_q as T. pose proof tiny_small as TS. pose proof tiny_pos as TP. pose proof (scale_pos sg Hs) as Ps. fold s in Ps. destruct (diff _ _ _ _ (Phi_b_ok b Hb) (Phi_a_ok a Ha)) as (D1 & D2). fold (mass m s a b) in D2. set (d := mass m s a b) in *. unfold trunc_fpdf, f_truncated. fold d. cbv zeta.
  pose proof (bell_at N HN _ _ _ _ (apx_std sg mu x Hs Hm Fx) ltac:(lra) ltac:(lra)) as E. fold M m s in E. fold M. set (z := (B2R x - m) / s) in *. set (t := ddiv (dsub x mu) sg) in *.
  pose proof isqrt2pi as I. destruct dinvsqrt2pi_ok as (C1 & C2). set (c := / sqrt (2 * PI)) in *. pose proof Hs as (Fs & Rs). fold s in Rs. assert (BI : bpow radix2 (-300) <= / s <= bpow radix2 300). { split; [change (-300)%Z with (- (300))%Z|change 300%Z with (- (-300))%Z]; rewrite bpow_opp; apply Rinv_le; try lra; apply bpow_gt_0. }
  assert (R : bpow radix2 (-302) <= c / s <= bpow radix2 300) by (apply (bpow_range (-2) (-300) c (/ s) 0 300); [cbn; lra|exact BI]).
  destruct (div_lc dinvsqrt2pi sg q 0 c s C1 Fs invsqrt2pi_lc (lc_refl _ Ps) ltac:(lra) (bpow_widen _ _ _ _ _ (ltac:(lia) : (-1010 <= -302)%Z) (ltac:(lia) : (300 <= 1000)%Z) R)) as (G1 & G2).
  pose proof (mul_dens _ _ _ _ _ _ G1 G2 ltac:(lra) (bpow_widen _ _ _ _ _ (ltac:(lia) : (-660 <= -302)%Z) (ltac:(lia) : (300 <= 660)%Z) R) E) as DD. replace (c / s * exp (- (z * z / 2))) with (f_normal m s (B2R x)) in DD by (unfold f_normal, gauss_density; fold z; unfold c, Rdiv; ring).
  assert (IS : 0 < / s) by (apply Rinv_0_lt_compat, Ps). apply (density_weaken _ _ _ (17 * q * / s)) in DD; [|unfold Rdiv; rewrite <- Rmult_assoc; apply Rmult_le_compat_r; [lra|]; apply Rle_trans with (41 * q * (2 / 5)); [apply Rmult_le_compat; lra|lra]].
  destruct DD as (DA & DB & DC). set (X := dmul (ddiv dinvsqrt2pi sg) _) in *. pose proof (f_bound m s (B2R x) Ps) as FB. set (f := f_normal m s (B2R x)) in *.
  assert (B40 : bpow radix2 (-40) = 4096 * q) by (unfold q; cbn; lra). assert (D0 : 0 < d) by lra. assert (d1 : d <= 1) by (pose proof (below_01 a); pose proof (below_01 b); unfold d, mass; lra). assert (FS : f <= 2 / 5 * / s) by (unfold Rdiv in FB; lra). assert (Q1 : q <= / 1000000000) by (unfold q; lra).
  assert (QS : 0 <= q * / s <= / 1000000000 * / s) by (split; [apply Rmult_le_pos; lra|apply Rmult_le_compat_r; lra]).
  destruct (quot _ _ f d (17 * q * / s) (23 * q) DA DC D2 D0 ltac:(lra) ltac:(apply Rle_trans with (2 := D), bpow_le; lia)) as (K1 & K3 & K4 & K2). { rewrite Rabs_pos_eq by lra. apply Rle_trans with (bpow radix2 300); [lra|apply bpow_le; lia]. }
  split; [exact K1|]. split. { rewrite K3. apply (rnd_ge_0 53 1024 H3_64 H70_64). apply Rmult_le_pos; [exact DB|left; apply Rinv_0_lt_compat, K4]. }
  apply Rle_trans with (1 := K2). rewrite Rabs_pos_eq by lra. assert (DI : 1 <= / d) by (rewrite <- Rinv_1; apply Rinv_le_contravar; lra). set (i := / d) in *. set (w := q * / s) in *. replace (30 * q / (s * d ^ 2)) with (30 * w * i * i) by (unfold w, i; field; lra).
  assert (FQ : f * q <= 2 / 5 * w) by (unfold w; replace (2 / 5 * (q * / s)) with (2 / 5 * / s * q) by ring; apply Rmult_le_compat_r; lra). unfold Rdiv at 1 2. fold i. assert (F0 : 0 <= f * q) by (apply Rmult_le_pos; lra). assert (W0 : 0 <= w) by apply QS. assert (WI : w <= w * i) by (rewrite <- (Rmult_1_r w) at 1; apply Rmult_le_compat_l; lra).
  assert (FI : f * i * (23 * q) <= 46 / 5 * (w * i)). { replace (f * i * (23 * q)) with (23 * (f * q) * i) by ring. replace (46 / 5 * (w * i)) with (46 / 5 * w * i) by ring. apply Rmult_le_compat_r; lra. }
  assert (QW : q * w <= / 1000000000 * w) by (apply Rmult_le_compat_r; lra). assert (TW : tiny <= w). { unfold w. apply Rle_trans with (bpow radix2 (-52) * bpow radix2 (-300)); [rewrite <- bpow_plus; apply bpow_le; lia|]. replace (bpow radix2 (-52)) with q by (unfold q; cbn; lra). apply Rmult_le_compat_l; lra. }
  assert (WII : w * i <= w * i * i) by (rewrite <- (Rmult_1_r (w * i)) at 1; apply Rmult_le_compat_l; [apply Rmult_le_pos; lra|lra]).
  assert (Z : (17 * q * / s + f * i * (23 * q)) * (102 / 100) + q * (f + 17 * q * / s) <= 28 * (w * i)). { replace (17 * q * / s) with (17 * w) by (unfold w; ring). replace (q * (f + 17 * w)) with (f * q + 17 * (q * w)) by ring. lra. }
  assert (ZI : ((17 * q * / s + f * i * (23 * q)) * (102 / 100) + q * (f + 17 * q * / s)) * i <= 28 * (w * i) * i) by (apply Rmult_le_compat_r; lra). lra.
Qed.

(** ** Far in the upper tail Phi is exactly 1 *)
Hypothesis HT : tail_accurate N.
Lemma thr_pos : is_finite (dmul dquartile dinvsqrt2) = true /\ B2R (dmul dquartile dinvsqrt2) <= 48 / 100.
Proof. destruct (sf_val (dmul dquartile dinvsqrt2) false 8591720143175690 (-54) ltac:(vm_compute; reflexivity)) as (A & B). split; [exact A|]. rewrite B. unfold F2R. cbn. lra. Qed.
Lemma phi_one x : is_finite x = true -> 13 <= (B2R x - m) / s <= 30 -> is_finite (fPhi N (ddiv (dsub x mu) sg)) = true /\ B2R (fPhi N (ddiv (dsub x mu) sg)) = 1.
Proof.
  intros Fx Hz. pose proof (apx_std sg mu x Hs Hm Fx) as A. fold m s in A. set (z := (B2R x - m) / s) in *. set (Z := ddiv (dsub x mu) sg) in *. pose proof q_pos as Q. pose proof tiny_small as TS. pose proof tiny_pos as TP. pose proof isqrt2 as I. assert (Q1 : q <= / 1000000000000) by (unfold q; lra). pose proof (mul_isqrt2 Z z (2 * q) tiny A ltac:(lra) ltac:(lra)) as B. unfold fPhi. cbv zeta. set (X := dmul Z dinvsqrt2) in *. set (y := z / sqrt 2) in *.
  assert (Yl : 91 / 10 <= y). { unfold y, Rdiv. apply Rle_trans with (13 * (7 / 10)); [lra|]. apply Rmult_le_compat; lra. } assert (Yh : y <= 213 / 10). { unfold y, Rdiv. apply Rle_trans with (30 * (71 / 100)); [|lra]. apply Rmult_le_compat; lra. }
  destruct B as [(FX & E)|[(_ & E)|(_ & E)]]; [|lra|lra]. rewrite (Rabs_pos_eq y) in E by lra. assert ((2 * q + 6 * q) * y <= 8 * / 1000000000000 * (213 / 10)) by (apply Rmult_le_compat; lra). apply Rabs_le_inv in E. destruct thr_ok as (FT & VT). destruct thr_pos as (FP & VP).
  assert (B1 : Bltb X (dmul (dopp dquartile) dinvsqrt2) = false) by (rewrite (Bltb_correct _ _ _ _ FX FT); apply Rlt_bool_false; lra). assert (B2 : Bltb (dmul dquartile dinvsqrt2) X = true) by (rewrite (Bltb_correct _ _ _ _ FP FX); apply Rlt_bool_true; lra). rewrite B1, B2.
  pose proof (HT X FX ltac:(lra)) as T. destruct (ae_erfc N HN X FX) as (C1 & C2 & _). rewrite erf_eq in T. destruct (erfc_tail (B2R X) ltac:(lra)) as (P0 & P1). assert (E2 : exp (- (B2R X * B2R X)) <= q / 2 * (q / 2)). { apply exp_tail2. apply Rle_trans with (9 * 9); [lra|]. apply Rmult_le_compat; lra. } set (p := 1 - erf (B2R X)) in *. replace (/ 2 ^ 51) with (2 * q) in T by (unfold q; field). apply Rabs_le_inv in T. assert (2 * q * p <= 1 * p) by (apply Rmult_le_compat_r; lra). assert (q * q <= q * / 1000) by (apply Rmult_le_compat_l; lra).
  destruct (half_mul _ C1 ltac:(rewrite Rabs_pos_eq; lra)) as (HH1 & HH2 & _). set (W := B2R (e_erfc N X)) in *. assert (HW : 0 <= B2R (dmul dhalf (e_erfc N X)) <= q / 8). { rewrite HH2. split; [apply (rnd_ge_0 53 1024 H3_64 H70_64); lra|]. apply (rnd_le_fmt 53 1024 H3_64 H70_64); [|lra]. replace (q / 8) with (bpow radix2 (-55)) by (unfold q; cbn; lra). apply (fmt_bpow 53 1024 H3_64 H70_64). lia. }
  destruct (int_ok_ 1 ltac:(lia)) as (F1 & V1). pose proof big_10 as BB. destruct (sub_ok (dint 1) (dmul dhalf (e_erfc N X)) F1 HH1) as (S1 & S2); [rewrite V1, Rabs_pos_eq; lra|]. split; [exact S1|]. rewrite S2, V1. apply rnd_one, HW.
Qed.
Lemma sub_same (X Y : double) : is_finite X = true -> B2R X = 1 -> is_finite Y = true -> B2R Y = 1 -> exists c, dsub X Y = B754_zero c.
Proof.
  intros FX VX FY VY. pose proof big_10 as BB. destruct (sub_ok X Y FX FY) as (S1 & S2); [rewrite VX, VY, Rminus_diag_eq, Rabs_R0 by reflexivity; lra|]. rewrite VX, VY, Rminus_diag_eq, round_0 in S2 by (reflexivity || typeclasses eauto). destruct (dsub X Y) as [c|c| |c e f g]; try discriminate S1; [exists c; reflexivity|]. exfalso. cbn [B2R] in S2. apply eq_0_F2R in S2. destruct c; discriminate S2.
Qed.
Lemma trunc_nan a b x : is_finite a = true -> 13 <= (B2R a - m) / s <= 30 -> b = B754_infinity false \/ is_finite b = true /\ 13 <= (B2R b - m) / s <= 30 -> is_finite x = true -> 13 <= (B2R x - m) / s <= 30 ->
  is_nan (trunc_fcdf N mu sg a b x) = true.
Proof.
  intros Fa Ha Hb Fx Hx. destruct (phi_one a Fa Ha) as (A1 & A2). destruct (phi_one x Fx Hx) as (X1 & X2). assert (EA : trunc_Phi_a N mu sg a = fPhi N (ddiv (dsub a mu) sg)). { unfold trunc_Phi_a. replace (Bltb (B754_infinity true) a) with true; [reflexivity|]. destruct a as [c|c| |c ? ? ?]; try discriminate Fa; try destruct c; reflexivity. }
  assert (PB : is_finite (trunc_Phi_b N mu sg b) = true /\ B2R (trunc_Phi_b N mu sg b) = 1). { destruct Hb as [-> |(Fb & Hb)]; [exact (int_ok_ 1 ltac:(lia))|]. destruct (phi_one b Fb Hb) as (B1 & B2). unfold trunc_Phi_b. replace (Bltb b (B754_infinity false)) with true; [split; [exact B1|exact B2]|]. destruct b as [c|c| |c ? ? ?]; try discriminate Fb; try destruct c; reflexivity. }
  unfold trunc_fcdf. cbv zeta. rewrite EA. destruct (sub_same _ _ X1 X2 A1 A2) as (c1 & ->). destruct (sub_same _ _ (proj1 PB) (proj2 PB) A1 A2) as (c2 & ->). reflexivity.
Qed.
End Functions.
