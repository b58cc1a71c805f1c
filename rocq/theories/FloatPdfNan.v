(** pdf in double: weibull, and the arguments for which rayleigh and weibull give NaN. *)
From Coq Require Import ZArith Bool Reals Lia Lra Psatz.
From Flocq Require Import Core IEEE754.BinarySingleNaN.
From Verif Require Import FloatFacts UniformModel UniformProofs FloatDrawModel FloatDrawSpec FloatDrawProofs FloatDrawCore FloatDrawLoc FloatDrawTrig FloatDrawLaw DiscDrawTree FloatCdfModel FloatCdfSpec FloatCdfProofs FloatCdfCore FloatCdfLoc FloatCdfPow FloatDrawLibm FloatCdfLibm FloatPdfModel FloatPdfSpec FloatPdfProofs FloatPdfTail.
Local Open Scope R_scope.
Notation rnd := (round radix2 (SpecFloat.fexp 53 1024) ZnearestE).

Lemma zero_form (E : double) : is_finite E = true -> B2R E = 0 -> exists s, E = B754_zero s.
Proof. intros F V. apply eq_sym in V. destruct E as [s|s| |s m e H]; try discriminate F; [exists s; reflexivity|]. exfalso. apply eq_sym in V. cbn in V. apply eq_0_F2R in V. destruct s; discriminate V. Qed.
Lemma pos_form (B : double) : is_finite B = true -> 0 < B2R B -> exists m e H, B = B754_finite false m e H.
Proof. intros F P. pose proof (sign_pos B P) as S. destruct B as [s|s| |s m e H]; try discriminate F; cbn in P; [lra|]. cbn in S. subst s. exists m, e, H. reflexivity. Qed.
Lemma inf_times_0 (E : double) : is_finite E = true -> B2R E = 0 -> dmul (B754_infinity false) E = dnan.
Proof. intros F V. destruct (zero_form E F V) as (s & ->). reflexivity. Qed.
Lemma mul_minf (X : double) : is_finite X = true -> 0 < B2R X -> dmul (B754_infinity true) X = B754_infinity true.
Proof. intros F P. destruct (pos_form X F P) as (m & e & H & ->). reflexivity. Qed.
Lemma mul_pinf (X : double) : is_finite X = true -> 0 < B2R X -> dmul X (B754_infinity false) = B754_infinity false.
Proof. intros F P. destruct (pos_form X F P) as (m & e & H & ->). reflexivity. Qed.

Section Functions.
Variable M : libmx.
Hypothesis HM : accurate_x M.
Hypothesis HE : ends M.

Lemma rayleigh_nan nu x : scale nu -> is_finite x = true -> bpow radix2 1025 <= B2R x / (B2R nu * B2R nu) -> rayleigh_fpdf M nu x = dnan.
Proof.
  intros Hn F H. pose proof q_pos as Q. pose proof (scale_pos nu Hn) as Pn. assert (n0 : 0 < B2R nu * B2R nu) by (apply Rmult_lt_0_compat; lra). pose proof (bpow_gt_0 radix2 1025) as B. assert (B2 : bpow radix2 1025 = 2 * bpow radix2 1024) by (change 1025%Z with (1 + 1024)%Z; rewrite bpow_plus; reflexivity).
  assert (X : 0 < B2R x). { apply Rmult_lt_reg_r with (/ (B2R nu * B2R nu)); [apply Rinv_0_lt_compat, n0|]. unfold Rdiv in H. lra. }
  pose proof (bpow_range (-300) (-300) (B2R nu) (B2R nu) 300 300 (proj2 Hn) (proj2 Hn)) as R2.
  destruct (mul_lc nu nu 0 0 (B2R nu) (B2R nu) (proj1 Hn) (proj1 Hn) (lc_refl _ Pn) (lc_refl _ Pn) ltac:(lra) (bpow_widen _ _ _ _ _ (ltac:(lia) : (-1010 <= -300 + -300)%Z) (ltac:(lia) : (300 + 300 <= 1000)%Z) R2)) as (N1 & N2). 
  pose proof (lc_div _ _ _ _ _ _ (lc_refl _ X) N2) as D. destruct (lc_bounds _ _ _ D ltac:(lra)) as (L1 & _). destruct N2 as (PN & _ & _).
  assert (O : ddiv x (dmul nu nu) = B754_infinity false) by (apply div_over; [exact F|exact PN|lra]).
  unfold rayleigh_fpdf. rewrite (leb_0 x F). rewrite Rle_bool_false by exact X. rewrite O. cbv zeta. change (dopp (B754_infinity false)) with (B754_infinity true : double). rewrite (mul_minf x F X). destruct (int_ok_ 2 ltac:(lia)) as (F2 & V2). rewrite inf_div by (try exact F2; lra). destruct (ax_exp_minf M HM) as (E1 & E2). apply inf_times_0; assumption.
Qed.

Lemma ratio_ok be th : shape be -> scale th -> is_finite (ddiv be th) = true /\ lc (0 + 0 + q) (B2R (ddiv be th)) (B2R be / B2R th) /\ bpow radix2 (-310) <= B2R be / B2R th <= bpow radix2 330.
Proof.
  intros (Fb & Rb) Ht. pose proof q_pos as Q. pose proof (scale_pos th Ht) as Pt.
  assert (Hc : bpow radix2 (-310) <= B2R be / B2R th <= bpow radix2 330).
  { unfold Rdiv. change (-310)%Z with (-3 + -307)%Z. change 330%Z with (20 + 310)%Z. apply bpow_range; [cbn; lra|]. destruct Ht as (_ & Rt). pose proof (bpow_gt_0 radix2 (-300)) as B3. split.
    - apply Rle_trans with (bpow radix2 (- (300))); [apply bpow_le; lia|]. rewrite bpow_opp. apply Rinv_le; lra.
    - apply Rle_trans with (bpow radix2 (- (-300))); [|apply bpow_le; lia]. rewrite bpow_opp. apply Rinv_le; lra. }
  destruct (div_lc be th 0 0 (B2R be) (B2R th) Fb (proj1 Ht)) as (G1 & G2); [apply lc_refl; lra|apply lc_refl; lra|lra|revert Hc; apply bpow_widen; lia|]. split; [exact G1|]. split; [exact G2|exact Hc].
Qed.

Lemma weibull_nan th be x : scale th -> shape be -> is_finite x = true -> 0 < B2R x -> 760 <= B2R be * ln (B2R x / B2R th) -> weibull_fpdf M th be x = dnan.
Proof.
  intros Ht Hb F X H. pose proof q_pos as Q. pose proof (scale_pos th Ht) as Pt. pose proof Hb as (Fb & Rb). destruct (ratio_ok be th Hb Ht) as (B1 & B2 & B3). destruct B2 as (B2 & _ & _). set (B := ddiv be th) in *. destruct (ax_exp_minf M HM) as (E1 & E2).
  set (w := B2R x / B2R th) in *. assert (W0 : 0 < w) by (apply Rdiv_lt_0_compat; lra). destruct (int_ok_ 0 ltac:(lia)) as (F0 & V0). unfold weibull_fpdf. rewrite (ltb_0 x F). rewrite Rlt_bool_false by lra. cbv zeta. fold B.
  destruct (div_any x th F Pt) as [(D1 & D2)|(D1 & D2)].
  - fold w in D2. assert (W1 : 1 <= w). { apply Rnot_lt_le. intros K. assert (ln w <= 0) by (rewrite <- ln_1; apply ln_le; lra). assert (0 <= B2R be * - ln w) by (apply Rmult_le_pos; lra). lra. }
    destruct (lc_rnd w) as (PY & _ & LY); [apply Rle_trans with (2 := W1); change 1 with (bpow radix2 0); apply bpow_le; lia|]. rewrite <- D2 in PY, LY. set (y := ddiv x th) in *. assert (BQ : B2R be * q <= 2 ^ 20 * q) by (apply Rmult_le_compat_r; lra). unfold q in BQ at 2.
    assert (LB : Rabs (B2R be * ln (B2R y) - B2R be * ln w) <= B2R be * q) by (rewrite <- Rmult_minus_distr_l, Rabs_mult, (Rabs_pos_eq (B2R be)) by lra; apply Rmult_le_compat_l; lra). apply Rabs_le_inv in LB.
    rewrite (Bltb_correct _ _ (dint 0) y F0 D1), V0, Rlt_bool_true by exact PY. rewrite (proj1 (proj2 (proj2 HE)) y be D1 Fb PY ltac:(lra)). rewrite inf_div by assumption. rewrite (mul_pinf B B1 B2). apply inf_times_0; [exact E1|exact E2].
  - rewrite D2. destruct (Rlt_dec (B2R x) 0) as [K|K]; [lra|]. change (Bltb (dint 0) (B754_infinity false)) with true. cbv iota. rewrite (ax_pow_inf_pos M HM be Fb ltac:(lra)). change (ddiv (B754_infinity false) (B754_infinity false)) with (B754_nan : double). destruct (pos_form B B1 B2) as (m & e & K1 & ->). reflexivity.
Qed.

Lemma weibull_pdf th be x : scale th -> shape be -> is_finite x = true -> bpow radix2 (-200) <= B2R x / B2R th <= bpow radix2 200 -> -100 <= B2R be * ln (B2R x / B2R th) -> Rpower (B2R x / B2R th) (B2R be) <= 100 ->
  density (weibull_fpdf M th be x) (f_weibull (B2R th) (B2R be) (B2R x)) ((26 + 2 * B2R be + (16 + 4 * B2R be) * Rpower (B2R x / B2R th) (B2R be)) * q * f_weibull (B2R th) (B2R be) (B2R x)).
Proof.
  intros Ht Hb F Rw Lo Hi. pose proof q_pos as Q. pose proof (scale_pos th Ht) as Pt. pose proof Hb as (Fb & Rb). destruct (ratio_ok be th Hb Ht) as (B1 & B2 & B3). set (B := ddiv be th) in *. set (w := B2R x / B2R th) in *. pose proof (bpow_gt_0 radix2 (-200)) as BP.
  assert (X : 0 < B2R x). { apply Rmult_lt_reg_r with (/ B2R th); [apply Rinv_0_lt_compat, Pt|]. change (B2R x * / B2R th) with w. lra. } destruct (int_ok_ 0 ltac:(lia)) as (F0 & V0).
  unfold weibull_fpdf, f_weibull. fold w. rewrite (ltb_0 x F). rewrite Rlt_bool_false by lra. destruct (Rlt_dec (B2R x) 0) as [K|_]; [lra|]. cbv zeta. fold B.
  destruct (div_lc x th 0 0 (B2R x) (B2R th) F (proj1 Ht) (lc_refl _ X) (lc_refl _ Pt) ltac:(lra)) as (Y1 & Y2); [fold w; revert Rw; apply bpow_widen; lia|]. fold w in Y2. set (y := ddiv x th) in *. pose proof Y2 as (PY & W0 & LY).
  rewrite (Bltb_correct _ _ (dint 0) y F0 Y1), V0, Rlt_bool_true by exact PY. set (t := Rpower w (B2R be)) in *. assert (T0 : 0 < t) by apply exp_pos. assert (LT : B2R be * ln w <= 100). { rewrite <- (ln_Rpower w (B2R be)). apply Rle_trans with (ln (exp 100)); [|rewrite ln_exp; lra]. apply ln_le; [exact T0|]. pose proof (exp_1m 100). fold t. lra. }
  assert (BQ : 0 <= B2R be * q <= / 2 ^ 32) by (split; [apply Rmult_le_pos; lra|]; apply Rle_trans with (2 ^ 20 * q); [apply Rmult_le_compat_r; lra|unfold q; lra]).
  assert (LB : Rabs (B2R be * ln (B2R y) - B2R be * ln w) <= B2R be * q) by (rewrite <- Rmult_minus_distr_l, Rabs_mult, (Rabs_pos_eq (B2R be)) by lra; apply Rmult_le_compat_l; lra). pose proof (Rabs_le_inv _ _ LB) as LB'.
  destruct (acc_pow _ (ax_base M HM) y be Y1 Fb PY) as (P1 & P2); [apply Rabs_le; lra|]. set (t1 := m_pow (x_base M) y be) in *.
  assert (C : lc (4 * q) (B2R t1) (Rpower (B2R y) (B2R be))) by (replace (4 * q) with (2 * / 2 ^ 51) by (unfold q; field); apply lc_rel; [apply exp_pos|lra|exact P2]).
  assert (C2 : lc (B2R be * q) (Rpower (B2R y) (B2R be)) t) by (split; [apply exp_pos|]; split; [exact T0|]; rewrite ln_Rpower; unfold t; rewrite ln_Rpower; exact LB). pose proof (lc_trans _ _ _ _ _ C C2) as C3. clear C C2. assert (KS : 4 * q + B2R be * q <= / 1000000) by (unfold q in *; lra).
  assert (RT : bpow radix2 (- (2 * 100)) <= t <= bpow radix2 (2 * 100)) by (unfold t, Rpower; apply exp_range; lra).
  assert (IW : bpow radix2 (-200) <= / w <= bpow radix2 200). { split; [change (-200)%Z with (- (200))%Z|change 200%Z with (- (-200))%Z]; rewrite bpow_opp; apply Rinv_le; lra. }
  assert (RTW : bpow radix2 (-400) <= t / w <= bpow radix2 400) by (unfold Rdiv; exact (bpow_range (-200) (-200) t (/ w) 200 200 RT IW)).
  destruct (div_lc t1 y _ _ _ _ P1 Y1 C3 Y2 ltac:(lra)) as (G1 & G2); [revert RTW; apply bpow_widen; lia|]. set (t2 := ddiv t1 y) in *.
  pose proof (bpow_range _ _ _ _ _ _ B3 RTW) as RC. destruct (mul_lc B t2 _ _ _ _ B1 G1 B2 G2 ltac:(lra)) as (H1 & H2); [revert RC; apply bpow_widen; lia|]. set (c := dmul B t2) in *.
  destruct (opp_ok t1 P1) as (O1 & O2). pose proof (lc_abs _ _ _ C3 ltac:(lra)) as DT. pose proof (Rabs_le_inv _ _ DT) as DT'. assert (D1 : 2 * (4 * q + B2R be * q) * t <= 2 * / 1000000 * t) by (apply Rmult_le_compat_r; lra).
  destruct (ax_exp M HM (dopp t1) O1) as (E1 & E2); [rewrite O2; apply Rabs_le; destruct C3; lra|]. rewrite O2 in E2. set (E := x_exp M (dopp t1)) in *.
  assert (C4 : lc (4 * q) (B2R E) (exp (- B2R t1))) by (replace (4 * q) with (2 * / 2 ^ 51) by (unfold q; field); apply lc_rel; [apply exp_pos|lra|exact E2]).
  assert (C5 : lc (2 * (4 * q + B2R be * q) * t) (exp (- B2R t1)) (exp (- t))) by (split; [apply exp_pos|]; split; [apply exp_pos|]; rewrite !ln_exp; replace (- B2R t1 - - t) with (- (B2R t1 - t)) by ring; rewrite Rabs_Ropp; exact DT).
  pose proof (lc_trans _ _ _ _ _ C4 C5) as C6. assert (RE : bpow radix2 (- (2 * 100)) <= exp (- t) <= bpow radix2 (2 * 100)) by (apply exp_range; lra). pose proof (bpow_range _ _ _ _ _ _ RC RE) as RV.
  destruct (mul_lc c E _ _ _ _ H1 E1 H2 C6 ltac:(lra)) as (V1 & V2); [revert RV; apply bpow_widen; lia|].
  assert (PT : Rpower w (B2R be - 1) = t / w). { unfold Rminus. rewrite Rpower_plus, Rpower_Ropp, Rpower_1 by exact W0. reflexivity. } rewrite PT. set (p := B2R be / B2R th * (t / w) * exp (- t)) in *.
  pose proof (lc_abs _ _ _ V2 ltac:(lra)) as A. destruct V2 as (V2 & _ & _). split; [exact V1|]. split; [lra|]. apply Rle_trans with (1 := A). right. ring.
Qed.
Lemma weibull_left th be x : is_finite x = true -> B2R x < 0 -> weibull_fpdf M th be x = dint 0.
Proof. intros F H. unfold weibull_fpdf. rewrite (ltb_0 x F), Rlt_bool_true by exact H. reflexivity. Qed.
Lemma weibull_at_0 th be x : scale th -> shape be -> is_finite x = true -> B2R x = 0 ->
  (B2R be = 1 -> density (weibull_fpdf M th be x) (/ B2R th) (3 * q / B2R th)) /\ (1 < B2R be -> weibull_fpdf M th be x = dint 0) /\ (B2R be < 1 -> weibull_fpdf M th be x = dnan).
Proof.
  intros Ht Hb F X. pose proof q_pos as Q. pose proof (scale_pos th Ht) as Pt. pose proof Hb as (Fb & Rb). pose proof big_10 as B10. destruct (int_ok_ 0 ltac:(lia)) as (F0 & V0). destruct (int_ok_ 1 ltac:(lia)) as (F1 & V1).
  destruct (div_ok x th F ltac:(lra)) as (D1 & D2); [rewrite X; unfold Rdiv; rewrite Rmult_0_l, Rabs_R0; lra|]. rewrite X in D2. unfold Rdiv in D2. rewrite Rmult_0_l, (rnd_0 53 1024 H3_64 H70_64) in D2.
  unfold weibull_fpdf. rewrite (ltb_0 x F), Rlt_bool_false by lra. cbv zeta. rewrite (Bltb_correct _ _ (dint 0) _ F0 D1), V0, D2, Rlt_bool_false by lra. rewrite (Beqb_correct _ _ be (dint 1) Fb F1), (Bltb_correct _ _ (dint 1) be F1 Fb), V1.
  split; [|split]; intros H.
  - rewrite Req_bool_true by exact H. assert (C : computes (dint 1) 1 0) by (split; [exact F1|]; rewrite V1; split; [lra|]; rewrite Rminus_eq_0, Rabs_R0; lra). apply (div_scale _ _ _ _ Ht) in C. replace (1 / B2R th) with (/ B2R th) in C by (unfold Rdiv; ring). revert C. apply dens_up; [exact Pt|lra].
  - rewrite Req_bool_false by lra. rewrite Rlt_bool_true by exact H. reflexivity.
  - rewrite Req_bool_false by lra. rewrite Rlt_bool_false by lra. reflexivity.
Qed.
End Functions.

(** ** A library that meets the assumptions *)
Definition nan_libmx : libmx := Libmx (x_base rounded_libmx) (fun x => match x with B754_nan => B754_nan | _ => x_exp rounded_libmx x end) (x_expm1 rounded_libmx) (x_ln1p rounded_libmx) (x_atan rounded_libmx).
Lemma nan_exp (x : double) : is_finite x = true -> x_exp nan_libmx x = x_exp rounded_libmx x.
Proof. intros F. destruct x; try discriminate F; reflexivity. Qed.
Lemma nan_accurate : accurate_x nan_libmx.
Proof.
  destruct rounded_x_accurate as [A1 A2 A3 A4 A5 A6 A7 A8 A9 A10 A11 A12 A13 A14 A15 A16 A17]. split; try assumption; intros x F; rewrite (nan_exp x F); [apply A2|apply A3|apply A4|apply A5]; exact F.
Qed.
Lemma nan_ends : ends nan_libmx.
Proof.
  split; [|split; [|split]].
  - intros x F H. rewrite (nan_exp x F). change (x_exp rounded_libmx x) with (rx_exp x). rewrite (exp_mid x F). unfold mid. destruct (Rlt_dec (B2R x) (-400)) as [_|N]; [apply zero_ok|lra].
  - intros x F H. rewrite (nan_exp x F). change (x_exp rounded_libmx x) with (rx_exp x). rewrite (exp_mid x F). unfold mid. destruct (Rlt_dec (B2R x) (-400)) as [N|_]; [lra|]. destruct (Rlt_dec 400 (B2R x)) as [_|N]; [reflexivity|lra].
  - intros x y F Fy X H. change (m_pow (x_base nan_libmx) x y) with (rx_pow x y). rewrite (pow_mid x y F X). unfold mid. destruct (Rlt_dec (B2R y * ln (B2R x)) (-400)) as [N|_]; [lra|]. destruct (Rlt_dec 400 (B2R y * ln (B2R x))) as [_|N]; [reflexivity|lra].
  - reflexivity.
Qed.
