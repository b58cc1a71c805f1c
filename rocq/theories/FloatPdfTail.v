(** pdf in double: extreme value, rayleigh, weibull, where the result can be NaN. *)
From Coq Require Import ZArith Bool Reals Lia Lra Psatz.
From Flocq Require Import Core IEEE754.BinarySingleNaN.
From Verif Require Import FloatFacts UniformModel UniformProofs FloatDrawModel FloatDrawSpec FloatDrawProofs FloatDrawCore FloatDrawLoc FloatDrawTrig FloatDrawLaw DiscDrawTree FloatCdfModel FloatCdfSpec FloatCdfProofs FloatCdfCore FloatCdfLoc FloatCdfPow FloatPdfModel FloatPdfSpec FloatPdfProofs.
Local Open Scope R_scope.
Notation rnd := (round radix2 (SpecFloat.fexp 53 1024) ZnearestE).

(** ** No overflow in the difference of two positive numbers, overflow of a quotient *)
Lemma sub_pos (x y : double) : is_finite x = true -> is_finite y = true -> 0 <= B2R x -> 0 <= B2R y -> is_finite (dsub x y) = true /\ B2R (dsub x y) = rnd (B2R x - B2R y).
Proof.
  intros Fx Fy Px Py. pose proof (abs_B2R_lt_emax 53 1024 x) as Rx. pose proof (abs_B2R_lt_emax 53 1024 y) as Ry. pose proof (Bminus_correct 53 1024 _ _ mode_NE x y Fx Fy) as C. change (round_mode mode_NE) with ZnearestE in C. rewrite Rabs_pos_eq in Rx, Ry by assumption.
  assert (B : Rabs (rnd (B2R x - B2R y)) < bpow radix2 1024).
  { assert (A1 : rnd (B2R x - B2R y) <= B2R x) by (apply (rnd_le_fmt 53 1024 H3_64 H70_64); [apply (fmt_B2R 53 1024 H3_64 H70_64)|lra]). assert (A2 : - B2R y <= rnd (B2R x - B2R y)) by (apply (rnd_ge_fmt 53 1024 H3_64 H70_64); [apply generic_format_opp, (fmt_B2R 53 1024 H3_64 H70_64)|lra]). apply Rabs_lt. lra. }
  rewrite Rlt_bool_true in C by exact B. destruct C as (C1 & C2 & _). split; [exact C2|exact C1].
Qed.
Lemma div_over (x y : double) : is_finite x = true -> 0 < B2R y -> bpow radix2 1024 <= B2R x / B2R y -> ddiv x y = B754_infinity false.
Proof.
  intros F P H. pose proof (bpow_gt_0 radix2 1024) as B. destruct (div_any x y F P) as [(D1 & D2)|(D1 & D2)].
  - exfalso. pose proof (abs_B2R_lt_emax 53 1024 (ddiv x y)) as R. assert (G : bpow radix2 1024 <= B2R (ddiv x y)).
    { rewrite D2. rewrite <- (round_generic radix2 (SpecFloat.fexp 53 1024) ZnearestE (bpow radix2 1024)); [apply round_le; try typeclasses eauto; exact H|]. apply generic_format_bpow'; [typeclasses eauto|]. vm_compute. discriminate. }
    rewrite Rabs_pos_eq in R by lra. lra.
  - rewrite D2. destruct (Rlt_dec (B2R x) 0) as [K|K]; [|reflexivity]. exfalso. assert (0 < - B2R x * / B2R y) by (apply Rmult_lt_0_compat; [lra|apply Rinv_0_lt_compat, P]). unfold Rdiv in H. lra.
Qed.

(** ** tiny, scaled *)
Lemma tiny_scale' x : scale x -> tiny <= q / 1024 * / B2R x.
Proof.
  intros Hx. pose proof (scale_pos x Hx) as P. destruct Hx as (_ & R). apply Rle_trans with (bpow radix2 (-72) * bpow radix2 (- (300))).
  - rewrite <- bpow_plus. apply bpow_le. lia.
  - apply Rmult_le_compat; try (left; apply bpow_gt_0); [unfold q; cbn; lra|]. rewrite bpow_opp. apply Rinv_le; lra.
Qed.

Section Functions.
Variable M : libmx.
Hypothesis HM : accurate_x M.
Hypothesis HE : ends M.

(** ** extreme value *)
Lemma exp_near (Z : double) z : is_finite Z = true -> Rabs (B2R Z - z) <= 2 * q * Rabs z + tiny -> (0 <= z -> 0 <= B2R Z) -> z <= 6 -> is_finite (x_exp M Z) = true /\ 0 <= B2R (x_exp M Z) /\ Rabs (B2R (x_exp M Z) - exp z) <= 29 * q * exp z + 5 * q.
Proof.
  intros F E S1 N. pose proof q_pos as Q. pose proof tiny_small as T. pose proof tiny_pos as T0. assert (Q2 : / 2 ^ 51 = 2 * q) by (unfold q; field). pose proof (exp_pos z) as EP. assert (Q100 : 0 < / 2 ^ 100 <= q / 4) by (unfold q; lra).
  pose proof (Rabs_pos z) as AZ. assert (QZ : 0 <= q * Rabs z <= / 1000000 * Rabs z) by (split; [apply Rmult_le_pos; lra|apply Rmult_le_compat_r; lra]).
  destruct (Rlt_le_dec (B2R Z) (-400)) as [C2|C2].
  - destruct (Rle_lt_dec 0 z) as [N0|N0]; [specialize (S1 N0); lra|]. rewrite (Rabs_left1 z) in * by lra. apply Rabs_le_inv in E. destruct (ax_exp_small M HM Z F C2) as (X1 & X2 & X3). split; [exact X1|]. split; [exact X2|].
    pose proof (exp_tail (- z) ltac:(lra)) as ET. rewrite Ropp_involutive in ET. assert (0 <= 29 * q * exp z) by (apply Rmult_le_pos; lra). apply Rabs_le. lra.
  - assert (Z4 : B2R Z <= 400). { destruct (Rle_lt_dec z 0) as [N0|N0]; [rewrite (Rabs_left1 z) in * by lra|rewrite (Rabs_pos_eq z) in * by lra]; apply Rabs_le_inv in E; lra. }
    destruct (ax_exp M HM Z F) as (X1 & X2); [apply Rabs_le; lra|]. rewrite Q2 in X2. set (E1 := x_exp M Z) in *. set (y := B2R Z) in *. pose proof (exp_pos y) as YP.
    assert (E10 : 0 <= B2R E1) by (apply Rabs_le_inv in X2; assert (q * exp y <= / 1000 * exp y) by (apply Rmult_le_compat_r; lra); lra).
    split; [exact X1|]. split; [exact E10|].
    assert (ZB : Rabs z <= 500). { destruct (Rle_lt_dec z 0) as [N0|N0]; [|rewrite Rabs_pos_eq; lra]. rewrite (Rabs_left1 z) in * by lra. apply Rabs_le_inv in E. lra. }
    set (dl := 2 * q * Rabs z + tiny) in *.
    assert (DL : dl <= / 900) by (unfold dl; lra). pose proof (exp_shift z (y - z) dl E ltac:(lra)) as SH. replace (z + (y - z)) with y in SH by ring.
    assert (DE : dl * exp z <= 13 * q * exp z + 5 / 2 * q).
    { destruct (Rle_lt_dec z 0) as [N0|N0].
      - unfold dl. rewrite (Rabs_left1 z) by exact N0. replace ((2 * q * - z + tiny) * exp z) with (2 * q * (- z * exp z) + tiny * exp z) by ring. assert (2 * q * (- z * exp z) <= 2 * q * 1) by (apply Rmult_le_compat_l; [lra|apply z_exp, N0]). assert (tiny * exp z <= q / 1024 * 1). { apply Rmult_le_compat; try lra. rewrite <- exp_0. apply exp_le, N0. } assert (0 <= 13 * q * exp z) by (apply Rmult_le_pos; lra). lra.
      - assert (dl * exp z <= 13 * q * exp z); [|lra]. apply Rmult_le_compat_r; [lra|]. unfold dl. rewrite (Rabs_pos_eq z) by lra. assert (2 * q * z <= 2 * q * 6) by (apply Rmult_le_compat_l; lra). lra. }
    replace (B2R E1 - exp z) with ((B2R E1 - exp y) + (exp y - exp z)) by ring. apply Rle_trans with (1 := Rabs_triang _ _). assert (YE : exp y <= 3 / 2 * exp z). { apply Rabs_le_inv in SH. assert (dl * exp z <= / 900 * exp z) by (apply Rmult_le_compat_r; lra). lra. }
    assert (2 * q * exp y <= 2 * q * (3 / 2 * exp z)) by (apply Rmult_le_compat_l; lra). lra.
Qed.
Lemma exp_2z z : 2 * z <= exp z /\ 1 <= exp z - z.
Proof. pose proof (exp_1m (z - ln 2)) as A. unfold Rminus in A at 2. rewrite exp_plus, exp_Ropp, exp_ln in A by lra. assert (L : ln 2 <= 1). { rewrite <- (ln_exp 1). apply ln_le; [lra|]. pose proof (exp_1m 1). lra. } pose proof (exp_1m z). lra. Qed.
Lemma exp_sq z : 0 <= z -> z * z / 4 <= exp z.
Proof. intros H. replace z with (z / 2 + z / 2) at 3 by field. rewrite exp_plus. pose proof (exp_1m (z / 2)). apply Rle_trans with ((z / 2) * (z / 2)); [lra|]. apply Rmult_le_compat; lra. Qed.
Lemma exp_cube z : 6 <= z -> z + 100 <= exp z.
Proof. intros H. pose proof (exp_1m (z - 21 / 4)) as A. pose proof (exp_5 (21 / 4) ltac:(lra)) as B. replace z with (21 / 4 + (z - 21 / 4)) at 2 by ring. rewrite exp_plus. apply Rle_trans with (128 * (1 + (z - 21 / 4))); [lra|]. apply Rmult_le_compat; lra. Qed.
Lemma minus_inf (Z : double) : is_finite Z = true -> dsub Z (B754_infinity false) = B754_infinity true.
Proof. destruct Z as [s|s| |s m e H]; try discriminate; reflexivity. Qed.
Lemma extreme_exponent th et x : scale th -> location et -> is_finite x = true -> (B2R x - B2R et) / B2R th < bpow radix2 900 -> let Z := ddiv (dsub x et) th in let z := (B2R x - B2R et) / B2R th in apxn (dsub Z (x_exp M Z)) (exp z - z) (62 * q) (7 * q).
Proof.
  intros Ht He Hx HB. cbv zeta. pose proof q_pos as Q. pose proof tiny_small as T. pose proof tiny_pos as T0. assert (Q2 : / 2 ^ 51 = 2 * q) by (unfold q; field). pose proof (std_ok th et x Ht He Hx) as S. cbv zeta in S. set (z := (B2R x - B2R et) / B2R th) in *. set (Z := ddiv (dsub x et) th) in *.
  destruct (exp_2z z) as (E2 & T1). set (t := exp z - z) in *. pose proof (exp_pos z) as EP. pose proof (Rabs_pos z) as AZ. assert (B9 : 1024 <= bpow radix2 900) by (change 1024 with (bpow radix2 10); apply bpow_le; lia).
  destruct S as [(F & E & S1 & S2)|[(F & G)|(F & G)]]; [|lra|].
  2: { right. rewrite F. destruct (ax_exp_minf M HM) as (X1 & X2). split; [|unfold t; lra]. left. destruct (x_exp M (B754_infinity true)) as [s|s| |s m e H]; try discriminate X1; reflexivity. }
  assert (QZ : 0 <= q * Rabs z <= / 1000000 * Rabs z) by (split; [apply Rmult_le_pos; lra|apply Rmult_le_compat_r; lra]).
  destruct (Rle_lt_dec z 6) as [C|C].
  - left. destruct (exp_near Z z F E S1 C) as (X1 & X2 & X3). set (E1 := x_exp M Z) in *.
    assert (AT : Rabs z <= t /\ exp z <= 2 * t). { unfold t. destruct (Rle_lt_dec z 0) as [N|N]; [rewrite (Rabs_left1 z) by lra|rewrite (Rabs_pos_eq z) by lra]; lra. }
    assert (QT : 0 <= q * t <= / 1000 * t) by (split; [apply Rmult_le_pos; lra|apply Rmult_le_compat_r; lra]). assert (K1 : q * Rabs z <= q * t) by (apply Rmult_le_compat_l; lra). assert (K2 : q * exp z <= q * (2 * t)) by (apply Rmult_le_compat_l; lra).
    assert (D : Rabs (- (B2R Z - B2R E1) - t) <= 60 * (q * t) + 6 * q). { unfold t at 1. replace (- (B2R Z - B2R E1) - (exp z - z)) with ((B2R E1 - exp z) - (B2R Z - z)) by ring. apply Rabs_le_inv in X3, E. apply Rabs_le. lra. }
    assert (W : is_finite (dsub Z E1) = true /\ B2R (dsub Z E1) = rnd (B2R Z - B2R E1)).
    { destruct (Rle_lt_dec 0 (B2R Z)) as [N|N]; [apply sub_pos; assumption|]. assert (z <= 0) by (apply Rnot_lt_le; intros K; specialize (S1 ltac:(lra)); lra). assert (EL : exp z <= 1) by (rewrite <- exp_0; apply exp_le; lra). assert (29 * q * exp z <= 29 * q * 1) by (apply Rmult_le_compat_l; lra).
      assert (L : location E1). { split; [exact X1|]. rewrite Rabs_pos_eq by lra. apply Rle_trans with (bpow radix2 2); [apply Rabs_le_inv in X3; cbn; lra|apply bpow_le; lia]. } destruct (sub_loc Z E1 F L) as (W1 & W2 & _). split; assumption. }
    destruct W as (W1 & W2). split; [exact W1|]. pose proof (Rabs_le_inv _ _ D) as D'. pose proof (rnd_err (B2R Z - B2R E1)) as R. rewrite <- W2 in R. assert (N0 : B2R Z - B2R E1 <= 0) by lra. rewrite (Rabs_left1 (B2R Z - B2R E1)) in R by lra.
    split; [rewrite W2; apply (rnd_le_fmt 53 1024 H3_64 H70_64); [apply generic_format_0|exact N0]|]. assert (q / 2 * - (B2R Z - B2R E1) <= q / 2 * (2 * t)) by (apply Rmult_le_compat_l; lra). apply Rabs_le_inv in R. apply Rabs_le. lra.
  - right. pose proof (exp_cube z ltac:(lra)) as EC. split; [|unfold t; lra]. rewrite (Rabs_pos_eq z) in * by lra. specialize (S1 ltac:(lra)). assert (ZL : 21 / 4 <= B2R Z) by (apply Rabs_le_inv in E; lra).
    assert (FM : generic_format radix2 (SpecFloat.fexp 53 1024) (-80)). { apply (generic_format_opp radix2 _ 80). destruct (int_ok_ 80 ltac:(lia)) as (_ & V). rewrite <- V. apply (fmt_B2R 53 1024 H3_64 H70_64). }
    assert (FIN : forall e1 : double, is_finite e1 = true -> B2R Z + 80 <= B2R e1 -> is_finite (dsub Z e1) = true /\ B2R (dsub Z e1) <= -80).
    { intros e1 F1 G. destruct (sub_pos Z e1 F F1 S1 ltac:(lra)) as (W1 & W2). split; [exact W1|]. rewrite W2. apply (rnd_le_fmt 53 1024 H3_64 H70_64); [exact FM|lra]. }
    destruct (Rle_lt_dec (B2R Z) 400) as [C4|C4]; [|destruct (Rle_lt_dec 750 (B2R Z)) as [C7|C7]].
    + destruct (ax_exp M HM Z F) as (X1 & X2); [apply Rabs_le; lra|]. rewrite Q2 in X2. right. apply FIN; [exact X1|]. pose proof (exp_pos (B2R Z)) as YP. apply Rabs_le_inv in X2. assert (q * exp (B2R Z) <= / 1000 * exp (B2R Z)) by (apply Rmult_le_compat_r; lra). assert (exp (B2R Z) >= B2R Z + 97); [|lra].
      destruct (Rle_lt_dec 6 (B2R Z)) as [G|G]; [pose proof (exp_cube _ G); lra|pose proof (exp_5 (B2R Z) ltac:(lra)); lra].
    + left. rewrite (proj1 (proj2 HE) Z F C7). apply minus_inf, F.
    + destruct (ax_exp_large M HM Z F C4) as [X|(X1 & X2)]; [left; rewrite X; apply minus_inf, F|]. right. apply FIN; [exact X1|]. lra.
Qed.
Lemma extreme_pdf th et x : scale th -> location et -> is_finite x = true -> (B2R x - B2R et) / B2R th < bpow radix2 900 -> density (extreme_fpdf M th et x) (f_extreme (B2R th) (B2R et) (B2R x)) (150 * q / B2R th).
Proof.
  intros Ht He Hx HB. pose proof q_pos as Q. pose proof (extreme_exponent th et x Ht He Hx HB) as A. cbv zeta in A. unfold extreme_fpdf, f_extreme. cbv zeta. set (z := (B2R x - B2R et) / B2R th) in *. destruct (exp_2z z) as (_ & T1). pose proof (exp_at M HM _ _ _ _ A ltac:(lra) ltac:(lra) ltac:(lra)) as E.
  replace (- (exp z - z)) with (z - exp z) in E by ring. apply (div_scale _ _ _ _ Ht) in E. revert E. apply dens_up; [apply scale_pos, Ht|lra].
Qed.
Lemma extreme_nan th et x : scale th -> location et -> is_finite x = true -> bpow radix2 1025 <= (B2R x - B2R et) / B2R th -> extreme_fpdf M th et x = dnan.
Proof.
  intros Ht He Hx H. pose proof q_pos as Q. pose proof (scale_pos th Ht) as Pt. assert (It : 0 < / B2R th) by (apply Rinv_0_lt_compat, Pt). destruct (sub_loc x et Hx He) as (D1 & _ & D2 & D3 & _). set (u := B2R x - B2R et) in *. pose proof (bpow_gt_0 radix2 1024) as B.
  assert (B2 : bpow radix2 1025 = 2 * bpow radix2 1024) by (change 1025%Z with (1 + 1024)%Z; rewrite bpow_plus; reflexivity). assert (U : 0 <= u). { apply Rmult_le_reg_r with (/ B2R th); [exact It|]. unfold Rdiv in H. lra. }
  rewrite (Rabs_pos_eq u) in D2 by exact U. apply Rabs_le_inv in D2. assert (q / 2 * u <= / 2 * u) by (apply Rmult_le_compat_r; lra). assert (G : u / 2 * / B2R th <= B2R (dsub x et) * / B2R th) by (apply Rmult_le_compat_r; lra).
  assert (O : ddiv (dsub x et) th = B754_infinity false) by (apply div_over; [exact D1|exact Pt|unfold Rdiv in *; lra]). unfold extreme_fpdf. rewrite O, (ax_exp_pinf M HM). change (dsub (B754_infinity false) (B754_infinity false)) with dnan. unfold dnan. rewrite (proj2 (proj2 (proj2 HE))). reflexivity.
Qed.

(** ** rayleigh *)
Lemma r_exp r : 0 <= r -> r * exp (- (r * r / 2)) <= 1 /\ r * (r * r / 2) * exp (- (r * r / 2)) <= 4.
Proof.
  intros H. set (s := r * r / 2). assert (S0 : 0 <= s) by (unfold s; pose proof (Rle_0_sqr r) as K; unfold Rsqr in K; lra). assert (RS : r <= / 2 + s) by (unfold s; pose proof (Rle_0_sqr (r - 1)) as K; unfold Rsqr in K; lra). rewrite exp_Ropp. pose proof (exp_pos s) as P. pose proof (exp_1m s) as E1. pose proof (exp_sq s S0) as E2.
  assert (RI : / exp s * exp s = 1) by (apply Rinv_l; lra). split; apply Rmult_le_reg_r with (exp s); try exact P; rewrite Rmult_assoc, RI; [lra|]. rewrite Rmult_1_r.
  assert (E3 : 1 + s + s * s / 4 <= exp s). { replace s with (s / 2 + s / 2) at 4 by field. rewrite exp_plus. pose proof (exp_1m (s / 2)). apply Rle_trans with ((1 + s / 2) * (1 + s / 2)); [lra|]. apply Rmult_le_compat; lra. }
  assert (r * s <= (/ 2 + s) * s) by (apply Rmult_le_compat_r; lra). lra.
Qed.
Lemma r_far r : 40 <= r -> r * exp (- (r * r / 2)) <= q.
Proof.
  intros H. set (s := r * r / 2). assert (S0 : 800 <= s) by (unfold s; assert (40 * 40 <= r * r) by (apply Rmult_le_compat; lra); lra). replace (- s) with (- (s / 2) + - (s / 2)) by field. rewrite exp_plus. pose proof (exp_tail (s / 2) ltac:(lra)) as T. pose proof (exp_pos (- (s / 2))) as P. pose proof q_pos as Q.
  assert (A : r * exp (- (s / 2)) <= 1). { rewrite exp_Ropp. pose proof (exp_pos (s / 2)). apply Rmult_le_reg_r with (exp (s / 2)); [lra|]. rewrite Rmult_assoc, Rinv_l by lra. pose proof (exp_1m (s / 2)). assert (r <= 1 + s / 2) by (unfold s; pose proof (Rle_0_sqr (r - 2)) as K; unfold Rsqr in K; lra). lra. }
  rewrite <- Rmult_assoc. apply Rle_trans with (1 * (q / 2)); [apply Rmult_le_compat; try lra; apply Rmult_le_pos; lra|lra].
Qed.
Lemma rayleigh_t nu x : scale nu -> is_finite x = true -> 0 < B2R x -> B2R x / (B2R nu * B2R nu) <= bpow radix2 998 -> let t := ddiv x (dmul nu nu) in is_finite t = true /\ 0 <= B2R t /\ Rabs (B2R t * B2R nu - B2R x / B2R nu) <= 3 * q * (B2R x / B2R nu) + tiny * B2R nu.
Proof.
  intros Hn F X H. cbv zeta. pose proof q_pos as Q. pose proof (scale_pos nu Hn) as Pn. pose proof (bpow_range (-300) (-300) (B2R nu) (B2R nu) 300 300 (proj2 Hn) (proj2 Hn)) as R2. pose proof (bpow_gt_0 radix2 998) as BP.
  destruct (mul_lc nu nu 0 0 (B2R nu) (B2R nu) (proj1 Hn) (proj1 Hn) (lc_refl _ Pn) (lc_refl _ Pn) ltac:(lra) (bpow_widen _ _ _ _ _ (ltac:(lia) : (-1010 <= -300 + -300)%Z) (ltac:(lia) : (300 + 300 <= 1000)%Z) R2)) as (N1 & N2). set (N := dmul nu nu) in *. set (n := B2R nu * B2R nu) in *. assert (n0 : 0 < n) by (apply Rmult_lt_0_compat; lra).
  pose proof (lc_div _ _ _ _ _ _ (lc_refl _ X) N2) as D. pose proof (lc_abs _ _ _ D ltac:(lra)) as A. destruct N2 as (PN & _ & _). set (w := B2R x / n) in *. assert (W0 : 0 < w) by (apply Rdiv_lt_0_compat; assumption). replace (2 * (0 + (0 + 0 + q)) * w) with (2 * q * w) in A by ring. apply Rabs_le_inv in A. assert (QW : 0 <= q * w <= / 1000 * w) by (split; [apply Rmult_le_pos; lra|apply Rmult_le_compat_r; lra]).
  assert (B4 : 4 * bpow radix2 998 = bpow radix2 1000) by (change 4 with (bpow radix2 2); rewrite <- bpow_plus; reflexivity).
  destruct (div_any x N F PN) as [(T1 & T2)|(T1 & T2)]; [|exfalso; rewrite Rabs_pos_eq in T1 by lra; lra]. split; [exact T1|]. split; [rewrite T2; apply (rnd_ge_0 53 1024 H3_64 H70_64); lra|].
  pose proof (rnd_err (B2R x / B2R N)) as E. rewrite <- T2 in E. rewrite (Rabs_pos_eq (B2R x / B2R N)) in E by lra. assert (q / 2 * (B2R x / B2R N) <= q / 2 * (2 * w)) by (apply Rmult_le_compat_l; lra). apply Rabs_le_inv in E.
  replace (B2R x / B2R nu) with (w * B2R nu) by (unfold w, n; field; lra). replace (B2R (ddiv x N) * B2R nu - w * B2R nu) with ((B2R (ddiv x N) - w) * B2R nu) by ring. rewrite Rabs_mult, (Rabs_pos_eq (B2R nu)) by lra. replace (3 * q * (w * B2R nu) + tiny * B2R nu) with ((3 * q * w + tiny) * B2R nu) by ring. apply Rmult_le_compat_r; [lra|]. apply Rabs_le. lra.
Qed.
Lemma rayleigh_pdf nu x : scale nu -> is_finite x = true -> B2R x / (B2R nu * B2R nu) <= bpow radix2 998 -> density (rayleigh_fpdf M nu x) (f_rayleigh (B2R nu) (B2R x)) (64 * q / B2R nu).
Proof.
  intros Hn F HB. pose proof q_pos as Q. pose proof tiny_small as TS. pose proof tiny_pos as T0. pose proof (scale_pos nu Hn) as Pn. assert (In : 0 < / B2R nu) by (apply Rinv_0_lt_compat, Pn). unfold rayleigh_fpdf, f_rayleigh. rewrite (leb_0 x F). destruct (Rle_bool_spec (B2R x) 0) as [H|H]; destruct (Rle_dec (B2R x) 0) as [C|C]; try lra.
  { apply density_0. split; [lra|]. apply Rmult_le_pos; lra. }
  destruct (rayleigh_t nu x Hn F H HB) as (T1 & T2 & T3). cbv zeta. set (t := ddiv x (dmul nu nu)) in *. set (r := B2R x / B2R nu) in *. assert (R0 : 0 < r) by (apply Rdiv_lt_0_compat; lra). assert (XR : B2R x = r * B2R nu) by (unfold r; field; lra). set (s := r * r / 2). replace (B2R x / (B2R nu * B2R nu)) with (r / B2R nu) by (unfold r; field; lra).
  assert (S0 : 0 < s) by (unfold s; pose proof (Rmult_lt_0_compat r r R0 R0); lra). destruct (r_exp r ltac:(lra)) as (RE1 & RE2). fold s in RE1, RE2. pose proof (exp_pos (- s)) as ES.
  set (a := B2R t * B2R nu) in *. set (eta := tiny * B2R nu) in *. assert (ETA : 0 <= eta <= q / 1024 / 1024).
  { unfold eta, tiny. split; [apply Rmult_le_pos; [left; apply bpow_gt_0|lra]|]. apply Rle_trans with (bpow radix2 (-1075) * bpow radix2 300); [apply Rmult_le_compat_l; [left; apply bpow_gt_0|apply (proj2 Hn)]|]. rewrite <- bpow_plus. apply Rle_trans with (bpow radix2 (-72)); [apply bpow_le; lia|]. right. unfold q. cbn. lra. }
  pose proof (Rabs_le_inv _ _ T3) as T3'. assert (QR : 0 <= q * r <= / 1000000 * r) by (split; [apply Rmult_le_pos; lra|apply Rmult_le_compat_r; lra]). assert (A0 : 0 <= a) by (apply Rmult_le_pos; lra).
  destruct (opp_ok t T1) as (O1 & O2). destruct (int_ok_ 2 ltac:(lia)) as (F2 & V2). set (V := ddiv (dmul (dopp t) x) (dint 2)).
  assert (AR : B2R (dopp t) * B2R x = - (a * r)) by (rewrite O2, XR; unfold a; ring). assert (AR0 : 0 <= a * r) by (apply Rmult_le_pos; lra).
  assert (VV : (is_finite V = true /\ Rabs (- B2R V - a * r / 2) <= q * (a * r) + 2 * tiny) \/ ((V = B754_infinity true \/ is_finite V = true /\ B2R V <= - 2000) /\ 5000 <= a * r)).
  { assert (B5 : 10000 <= bpow radix2 1000) by (apply Rle_trans with (bpow radix2 14); [cbn; lra|apply bpow_le; lia]). unfold V. destruct (mul_any (dopp t) x O1 F) as [(U1 & U2)|(U1 & U2)]; rewrite AR in *.
    - set (U := dmul (dopp t) x) in *. rewrite (rnd_opp (a * r)) in U2. pose proof (rnd_err (a * r)) as EU. rewrite (Rabs_pos_eq (a * r)) in EU by lra. assert (RU : 0 <= rnd (a * r)) by (apply (rnd_ge_0 53 1024 H3_64 H70_64); lra). apply Rabs_le_inv in EU. assert (QA : 0 <= q * (a * r) <= / 1000 * (a * r)) by (split; [apply Rmult_le_pos; lra|apply Rmult_le_compat_r; lra]).
      destruct (div_any U (dint 2) U1 ltac:(lra)) as [(W1 & W2)|(W1 & W2)]; rewrite V2 in *.
      + left. split; [exact W1|]. rewrite W2, U2. replace (- rnd (a * r) / 2) with (- (rnd (a * r) / 2)) by field. rewrite rnd_opp. pose proof (rnd_err (rnd (a * r) / 2)) as EV. rewrite (Rabs_pos_eq (rnd (a * r) / 2)) in EV by lra. assert (q / 2 * (rnd (a * r) / 2) <= q / 2 * (a * r / 2 + / 2000 * (a * r) + tiny)) by (apply Rmult_le_compat_l; lra). assert (q / 2 * tiny <= / 4 * tiny) by (apply Rmult_le_compat_r; lra). apply Rabs_le_inv in EV. rewrite Ropp_involutive. apply Rabs_le. lra.
      + right. rewrite W2. rewrite U2 in W1. replace (- rnd (a * r) / 2) with (- (rnd (a * r) / 2)) in W1 by field. rewrite Rabs_Ropp, Rabs_pos_eq in W1 by lra. destruct (Rlt_dec (B2R U) 0) as [K|K]; [|exfalso; rewrite U2 in K; lra]. split; [left; reflexivity|lra].
    - right. rewrite U2. rewrite Rabs_Ropp, Rabs_pos_eq in U1 by lra. destruct (Rlt_dec (- (a * r)) 0) as [K|K]; [|lra]. split; [left; apply inf_div; [exact F2|lra]|lra]. }
  assert (FIN : forall E : double, is_finite E = true -> 0 <= B2R E -> Rabs (a * B2R E - r * exp (- s)) <= 62 * q -> density (dmul t E) (r / B2R nu * exp (- s)) (64 * q / B2R nu)).
  { intros E F1 E0 D. assert (D2 : B2R t * B2R E = a * B2R E * / B2R nu) by (unfold a; field; lra). apply Rabs_le_inv in D. assert (AE : 0 <= a * B2R E) by (apply Rmult_le_pos; lra). assert (BN : / B2R nu <= bpow radix2 300). { change 300%Z with (- (-300))%Z. rewrite bpow_opp. apply Rinv_le; [apply bpow_gt_0|apply (proj2 Hn)]. }
    assert (Y : 0 <= B2R t * B2R E <= 2 * / B2R nu) by (rewrite D2; split; [apply Rmult_le_pos; lra|apply Rmult_le_compat_r; lra]). assert (BB : bpow radix2 300 <= big) by (apply bpow_le; lia).
    destruct (mul_ok t E T1 F1) as (M1 & M2); [rewrite Rabs_pos_eq; lra|]. split; [exact M1|]. rewrite M2. split; [apply (rnd_ge_0 53 1024 H3_64 H70_64); lra|]. pose proof (rnd_err (B2R t * B2R E)) as R. rewrite (Rabs_pos_eq (B2R t * B2R E)) in R by lra.
    assert (q / 2 * (B2R t * B2R E) <= q / 2 * (2 * / B2R nu)) by (apply Rmult_le_compat_l; lra). assert (TN : tiny <= q / 1024 * / B2R nu). { pose proof (tiny_scale' nu Hn). lra. }
    apply Rabs_le_inv in R. replace (rnd (B2R t * B2R E) - r / B2R nu * exp (- s)) with ((rnd (B2R t * B2R E) - B2R t * B2R E) + (a * B2R E - r * exp (- s)) * / B2R nu) by (rewrite D2; unfold Rdiv; ring).
    assert (DN : Rabs ((a * B2R E - r * exp (- s)) * / B2R nu) <= 62 * q * / B2R nu) by (rewrite Rabs_mult, (Rabs_pos_eq (/ B2R nu)) by lra; apply Rmult_le_compat_r; [lra|apply Rabs_le; lra]). apply Rabs_le_inv in DN. unfold Rdiv. apply Rabs_le. lra. }
  replace (r * r / 2) with s by reflexivity.
  destruct (Rle_lt_dec r 40) as [C4|C4].
  - (* moderate *)
    assert (AR1 : Rabs (a * r / 2 - s) <= 3 * q * (2 * s) / 2 + q / 1024). { unfold s. replace (a * r / 2 - r * r / 2) with ((a - r) * r * / 2) by field. rewrite Rabs_mult, (Rabs_pos_eq (/ 2)) by lra. rewrite Rabs_mult, (Rabs_pos_eq r) by lra. assert (Rabs (a - r) * r <= (3 * q * r + eta) * r) by (apply Rmult_le_compat_r; lra). assert (eta * r <= q / 1024 / 1024 * 40) by (apply Rmult_le_compat; lra). lra. }
    assert (S8 : s <= 800). { unfold s. assert (r * r <= 40 * 40) by (apply Rmult_le_compat; lra). lra. } assert (QS : 0 <= q * s <= / 1000000 * s) by (split; [apply Rmult_le_pos; lra|apply Rmult_le_compat_r; lra]). apply Rabs_le_inv in AR1.
    destruct VV as [(W1 & W2)|(_ & W)]; [|lra]. assert (QA : q * (a * r) <= q * (2 * s + 6 * q * s + q)) by (apply Rmult_le_compat_l; lra). assert (q * (q * s) <= / 1000 * (q * s)) by (apply Rmult_le_compat_r; lra). assert (q * q <= / 1000 * q) by (apply Rmult_le_compat_r; lra).
    assert (VS : Rabs (B2R V - - s) <= 6 * q * s + q / 64). { apply Rabs_le_inv in W2. apply Rabs_le. lra. }
    pose proof (Rabs_le_inv _ _ VS) as VS'. assert (AB : a <= 101 / 100 * r + q) by lra.
    destruct (Rlt_le_dec (B2R V) (-400)) as [K|K].
    + destruct (ax_exp_small M HM V W1 K) as (X1 & X2 & X3). apply FIN; [exact X1|exact X2|]. pose proof (exp_tail s ltac:(lra)) as ET. assert (r * exp (- s) <= 40 * (q / 2)) by (apply Rmult_le_compat; lra). assert (0 <= r * exp (- s)) by (apply Rmult_le_pos; lra). assert (H10 : / 2 ^ 100 <= q / 1000) by (unfold q; lra). assert (a * B2R (x_exp M V) <= 41 * (q / 1000)) by (apply Rmult_le_compat; lra). assert (0 <= a * B2R (x_exp M V)) by (apply Rmult_le_pos; lra). apply Rabs_le. lra.
    + destruct (ax_exp M HM V W1) as (X1 & X2); [apply Rabs_le; lra|]. replace (/ 2 ^ 51) with (2 * q) in X2 by (unfold q; field). set (E := x_exp M V) in *. pose proof (exp_shift (- s) (B2R V - - s) _ VS ltac:(lra)) as SH. replace (- s + (B2R V - - s)) with (B2R V) in SH by ring. set (ev := exp (B2R V)) in *. pose proof (exp_pos (B2R V)) as EV. fold ev in EV.
      set (es := exp (- s)) in *. assert (SE : 0 <= s * es) by (apply Rmult_le_pos; lra). assert (SH2 : Rabs (ev - es) <= q * (12 * (s * es) + / 32 * es)) by (apply Rle_trans with (1 := SH); right; field).
      assert (S2 : ev <= 2 * es). { apply Rabs_le_inv in SH. assert (2 * (6 * q * s + q / 64) * es <= 1 * es) by (apply Rmult_le_compat_r; lra). lra. }
      assert (DE : Rabs (B2R E - es) <= q * (12 * (s * es) + (4 + / 32) * es)). { replace (B2R E - es) with ((B2R E - ev) + (ev - es)) by ring. apply Rle_trans with (1 := Rabs_triang _ _). assert (2 * q * ev <= 2 * q * (2 * es)) by (apply Rmult_le_compat_l; lra). lra. }
      assert (E0 : 0 <= B2R E). { apply Rabs_le_inv in X2. assert (2 * q * ev <= 1 * ev) by (apply Rmult_le_compat_r; lra). lra. }
      apply FIN; [exact X1|exact E0|]. replace (a * B2R E - r * es) with (a * (B2R E - es) + (a - r) * es) by ring. apply Rle_trans with (1 := Rabs_triang _ _). rewrite !Rabs_mult, (Rabs_pos_eq a), (Rabs_pos_eq es) by lra.
      assert (ES1 : es <= 1) by (unfold es; rewrite <- exp_0; apply exp_le; lra).
      assert (Z1 : Rabs (a - r) * es <= (3 * q * r + eta) * es) by (apply Rmult_le_compat_r; lra). assert (Z2 : 3 * q * (r * es) <= 3 * q * 1) by (apply Rmult_le_compat_l; lra). assert (Z3 : eta * es <= q / 1024 / 1024 * 1) by (apply Rmult_le_compat; lra).
      assert (P0 : 0 <= q * (12 * (s * es) + (4 + / 32) * es)) by (apply Rmult_le_pos; lra).
      assert (Z4 : a * Rabs (B2R E - es) <= (101 / 100 * r + q) * (q * (12 * (s * es) + (4 + / 32) * es))) by (apply Rmult_le_compat; try lra; apply Rabs_pos).
      replace ((101 / 100 * r + q) * (q * (12 * (s * es) + (4 + / 32) * es))) with (q * (1212 / 100 * (r * s * es) + 101 / 100 * (4 + / 32) * (r * es) + q * (12 * (s * es)) + q * ((4 + / 32) * es))) in Z4 by field.
      assert (SE1 : s * es <= 1). { unfold es. rewrite exp_Ropp. pose proof (exp_pos s). pose proof (exp_1m s). apply Rmult_le_reg_r with (exp s); [lra|]. rewrite Rmult_assoc, Rinv_l by lra. lra. }
      assert (q * (12 * (s * es)) <= / 1000 * 12) by (apply Rmult_le_compat; lra). assert (q * ((4 + / 32) * es) <= / 1000 * 5) by (apply Rmult_le_compat; lra).
      assert (q * (1212 / 100 * (r * s * es) + 101 / 100 * (4 + / 32) * (r * es) + q * (12 * (s * es)) + q * ((4 + / 32) * es)) <= q * 54) by (apply Rmult_le_compat_l; lra). lra.
  - (* far *)
    pose proof (r_far r ltac:(lra)) as RF. fold s in RF. assert (S8 : 1600 <= r * r) by (apply Rle_trans with (40 * 40); [lra|apply Rmult_le_compat; lra]). assert (ARL : 1590 <= a * r). { apply Rle_trans with ((999 / 1000 * r) * r); [lra|]. apply Rmult_le_compat_r; lra. } assert (QA : q * (a * r) <= / 1000 * (a * r)) by (apply Rmult_le_compat_r; lra).
    assert (E0 : is_finite (x_exp M V) = true /\ B2R (x_exp M V) = 0). { destruct VV as [(W1 & W2)|([-> |(W1 & W2)] & _)]; [apply (proj1 HE); [exact W1|apply Rabs_le_inv in W2; lra]|apply (ax_exp_minf M HM)|apply (proj1 HE); [exact W1|lra]]. }
    destruct E0 as (X1 & X2). apply FIN; [exact X1|lra|]. rewrite X2, Rmult_0_r. assert (0 <= r * exp (- s)) by (apply Rmult_le_pos; lra). apply Rabs_le. lra.
Qed.
End Functions.
