(** The Halley step of inv_Phi in double. *)
From Coq Require Import ZArith Bool Reals Lia Lra Psatz.
From Coquelicot Require Import Coquelicot.
From Flocq Require Import Core IEEE754.BinarySingleNaN.
From Verif Require Import InvPhiModel InvPhiCentral InvPhiTail InvPhiProofs FloatInvReal FloatFacts UniformModel UniformProofs FloatDrawModel FloatDrawSpec FloatDrawProofs FloatDrawCore FloatDrawLoc FloatDrawTrig FloatDrawLaw DiscDrawTree FloatCdfModel FloatCdfSpec FloatCdfProofs FloatCdfCore FloatCdfLoc FloatPdfSpec FloatPdfProofs FloatNormModel FloatNormSpec NormModel NormProofs FloatNormProofs FloatNormTail FloatInvModel FloatInvProofs.
Local Open Scope R_scope.
Notation rnd := (round radix2 (SpecFloat.fexp 53 1024) ZnearestE).

Lemma gauss_Phi z : gauss_cdf z = Phi z.
Proof. rewrite gauss_cdf_erf, Phi_erf. field. Qed.
Lemma tiny_200 : tiny <= / 2 ^ 200.
Proof. unfold tiny. apply Rle_trans with (bpow radix2 (-200)); [apply bpow_le; lia|]. cbn. lra. Qed.
Lemma exp_50 h : h <= 50 -> exp h <= 2 ^ 100.
Proof.
  intros H. assert (E : 2 ^ 100 = exp (100 * ln 2)). { replace (100 * ln 2) with (ln (2 ^ 100)) by (rewrite ln_pow by lra; rewrite INR_IZR_INZ; reflexivity). rewrite exp_ln; [reflexivity|lra]. }
  rewrite E. apply exp_le. assert (L : / 2 <= ln 2). { pose proof (ln_lo 2 ltac:(lra)). lra. } lra.
Qed.
Lemma rabs_mul a b A B : Rabs a <= A -> Rabs b <= B -> Rabs (a * b) <= A * B.
Proof. intros H1 H2. rewrite Rabs_mult. apply Rmult_le_compat; try apply Rabs_pos; assumption. Qed.

Section Step.
Variable N : libme.
Hypothesis HN : accurate_e N.

(** the residual times the derivative's reciprocal *)
Lemma corr_ok (P X Y : double) dl a : is_finite P = true -> is_finite X = true -> is_finite Y = true -> Rabs (B2R Y) <= 10 -> 0 <= B2R X <= 1 -> Rabs (B2R P - Phi (B2R Y)) <= dl -> dl <= 8 * q -> Rabs (Phi (B2R Y) - B2R X) <= 4 / 10000000 -> 
  Rabs ((Phi (B2R Y) - B2R X) * s2pi * exp (B2R Y * B2R Y * (1 / 2))) <= a -> a <= 1 / 100000 -> dl <= 52 / 100 * phi (B2R Y) -> Rabs (B2R Y) * dl <= 52 / 100 * phi (B2R Y) ->
  let u := dmul (dmul (dsub P X) dsqrt2pi) (x_exp (e_base N) (dmul (dmul Y Y) dhalf)) in
  is_finite u = true /\ exists w, Rabs (B2R u - (Phi (B2R Y) - B2R X) * s2pi * exp (B2R Y * B2R Y * (1 / 2))) <= w /\ Rabs (B2R Y) * w <= 54 / 100 /\ w <= 54 / 100 /\ w * phi (B2R Y) <= 10 * q.
Proof.
  intros FP FX FY Ry Rx EP Hd HE HU Ha D1 D2. cbv zeta. pose proof q_pos as Q. pose proof tiny_200 as T2. pose proof tiny_pos as T0. destruct dsqrt2pi_ok as (FS & RS & ES). destruct half_ok as (FH & VH). fold dhalf in FH, VH. pose proof s2pi_bounds as SB. pose proof (phi_K (B2R Y)) as K. pose proof (phi_pos (B2R Y)) as P0. pose proof (phi_le (B2R Y)) as P1.
  set (y := B2R Y) in *. set (x := B2R X) in *. set (E := Phi y - x) in *. set (X0 := exp (y * y * (1 / 2))) in *. set (k := s2pi * X0) in *. set (f := phi y) in *. pose proof (Phi_range y) as PR. assert (X01 : 1 <= X0). { apply Rle_trans with (exp 0); [rewrite exp_0; lra|]. unfold X0. apply exp_le. pose proof (Rle_0_sqr y) as S. unfold Rsqr in S. lra. }
  assert (YY : y * y <= 100). { replace (y * y) with (Rabs y * Rabs y) by (rewrite <- Rabs_mult; apply Rabs_pos_eq; pose proof (Rle_0_sqr y) as S; exact S). pose proof (Rabs_pos y). apply Rle_trans with (10 * 10); [apply Rmult_le_compat; lra|lra]. } pose proof (Rle_0_sqr y) as YP. unfold Rsqr in YP.
  assert (X02 : X0 <= 2 ^ 100) by (apply exp_50; lra). assert (k1 : X0 <= k) by (unfold k; replace X0 with (1 * X0) at 1 by ring; apply Rmult_le_compat_r; lra). assert (k2 : k <= 3 * 2 ^ 100) by (unfold k; apply Rmult_le_compat; lra). assert (dl0 : 0 <= dl) by (pose proof (Rabs_pos (B2R P - Phi y)); lra). pose proof (Rabs_pos E) as E0.
  (* the residual *)
  assert (SP : Rabs (B2R P - x) <= Rabs E + dl). { replace (B2R P - x) with (E + (B2R P - Phi y)) by (unfold E; ring). apply Rle_trans with (1 := Rabs_triang _ _). lra. }
  destruct (sub_ok P X FP FX (big_ok (B2R P - x) ltac:(lra))) as (S1 & S2). fold x in S2. pose proof (rnd_err (B2R P - x)) as S3. rewrite <- S2 in S3. set (e := B2R (dsub P X)) in *. assert (S4 : q / 2 * Rabs (B2R P - x) <= q / 2 * (Rabs E + dl)) by (apply Rmult_le_compat_l; lra). assert (QE : 0 <= q * Rabs E <= q * (4 / 10000000)) by (split; [apply Rmult_le_pos|apply Rmult_le_compat_l]; lra). assert (QD : 0 <= q * dl <= / 1000000 * dl) by (split; [apply Rmult_le_pos|apply Rmult_le_compat_r]; lra).
  set (d1 := 1000001 / 1000000 * dl + q * Rabs E + tiny). assert (EE : Rabs (e - E) <= d1). { replace (e - E) with ((e - (B2R P - x)) + (B2R P - Phi y)) by (unfold E; ring). apply Rle_trans with (1 := Rabs_triang _ _). unfold d1. lra. }
  assert (d10 : 0 <= d1) by (unfold d1; lra). assert (Ae : Rabs e <= Rabs E + d1). { replace e with ((e - E) + E) by ring. apply Rle_trans with (1 := Rabs_triang _ _). lra. } assert (d1s : d1 <= 9 * q) by (unfold d1; unfold q in *; lra). pose proof (Rabs_pos e) as e0.
  (* times sqrt_2pi *)
  assert (M0 : Rabs (e * B2R dsqrt2pi) <= 26 / 10 * Rabs e). { rewrite Rabs_mult, (Rabs_pos_eq (B2R dsqrt2pi)) by lra. rewrite Rmult_comm. apply Rmult_le_compat_r; lra. }
  destruct (mul_ok (dsub P X) dsqrt2pi S1 FS (big_ok (e * B2R dsqrt2pi) ltac:(lra))) as (M1 & M2). fold e in M2. pose proof (rnd_err (e * B2R dsqrt2pi)) as M3. rewrite <- M2 in M3. set (m := B2R (dmul (dsub P X) dsqrt2pi)) in *. assert (M4 : q / 2 * Rabs (e * B2R dsqrt2pi) <= q / 2 * (26 / 10 * Rabs e)) by (apply Rmult_le_compat_l; lra). assert (Qe : q * Rabs e <= / 1000000000000000 * Rabs e) by (apply Rmult_le_compat_r; lra).
  assert (ME : Rabs (m - e * s2pi) <= 2 / 10000000000 * Rabs e + tiny). { replace (m - e * s2pi) with ((m - e * B2R dsqrt2pi) + e * (B2R dsqrt2pi - s2pi)) by ring. apply Rle_trans with (1 := Rabs_triang _ _). rewrite (Rabs_mult e). assert (Rabs e * Rabs (B2R dsqrt2pi - s2pi) <= Rabs e * / 10000000000) by (apply Rmult_le_compat_l; lra). lra. }
  (* the exponential *)
  destruct (mul_ok Y Y FY FY (big_ok (y * y) ltac:(rewrite Rabs_pos_eq; lra))) as (H1 & H2). fold y in H2. pose proof (rnd_err (y * y)) as H3'. rewrite <- H2, (Rabs_pos_eq (y * y)) in H3' by lra. assert (H4 : q / 2 * (y * y) <= q / 2 * 100) by (apply Rmult_le_compat_l; lra). set (z := B2R (dmul Y Y)) in *. pose proof tiny_small as TS. assert (Z1 : Rabs (z - y * y) <= 51 * q) by lra. pose proof (Rabs_le_inv _ _ Z1) as Z1'.
  assert (Z2 : Rabs (z * / 2) <= 51) by (apply Rabs_le; lra). destruct (mul_ok (dmul Y Y) dhalf H1 FH) as (G1 & G2); [fold z; rewrite VH; apply big_ok; lra|]. fold z in G2. rewrite VH in G2. pose proof (rnd_err (z * / 2)) as G3. rewrite <- G2 in G3. assert (G4 : q / 2 * Rabs (z * / 2) <= q / 2 * 51) by (apply Rmult_le_compat_l; lra). set (h := B2R (dmul (dmul Y Y) dhalf)) in *.
  assert (Hh : Rabs (h - y * y * (1 / 2)) <= 60 * q). { replace (h - y * y * (1 / 2)) with ((h - z * / 2) + (z - y * y) * / 2) by field. apply Rle_trans with (1 := Rabs_triang _ _). rewrite (Rabs_mult (z - y * y)), (Rabs_pos_eq (/ 2)) by lra. lra. } pose proof (Rabs_le_inv _ _ Hh) as Hh'.
  destruct (ax_exp _ (ae_base N HN) _ G1 ltac:(fold h; apply Rabs_le; lra)) as (X1 & X2). fold h in X2. set (Xh := B2R (x_exp (e_base N) (dmul (dmul Y Y) dhalf))) in *.
  assert (XX : exp h = X0 * exp (h - y * y * (1 / 2))) by (unfold X0; rewrite <- exp_plus; f_equal; ring). pose proof (exp_near (h - y * y * (1 / 2)) (/ 1000000000000) ltac:(lra) ltac:(lra)) as XN. set (r := exp (h - y * y * (1 / 2))) in *.
  assert (XE : Rabs (Xh - X0) <= / 10000000000 * X0). { rewrite XX in X2. assert (R1 : Rabs (X0 * r - X0) <= / 100000000000 * X0). { replace (X0 * r - X0) with ((r - 1) * X0) by ring. rewrite Rabs_mult, (Rabs_pos_eq X0) by lra. apply Rmult_le_compat_r; [lra|]. apply Rabs_le. lra. } assert (R2 : X0 * r <= X0 * 2) by (apply Rmult_le_compat_l; lra). replace (Xh - X0) with ((Xh - X0 * r) + (X0 * r - X0)) by ring. apply Rle_trans with (1 := Rabs_triang _ _). lra. }
  assert (Xh1 : Rabs Xh <= 11 / 10 * X0). { replace Xh with ((Xh - X0) + X0) by ring. apply Rle_trans with (1 := Rabs_triang _ _). rewrite (Rabs_pos_eq X0) by lra. lra. }
  (* the product *)
  assert (ek : 0 <= Rabs e * k) by (apply Rmult_le_pos; lra). assert (eX : Rabs e * X0 <= Rabs e * k) by (apply Rmult_le_compat_l; lra). assert (tX : tiny * X0 <= tiny * k) by (apply Rmult_le_compat_l; lra). assert (tk : 0 < tiny * k) by (apply Rmult_lt_0_compat; lra).
  assert (PE : Rabs (m * Xh - e * k) <= 5 / 10000000000 * (Rabs e * k) + 11 / 10 * (tiny * k)).
  { replace (m * Xh - e * k) with ((m - e * s2pi) * Xh + e * s2pi * (Xh - X0)) by (unfold k; ring). apply Rle_trans with (1 := Rabs_triang _ _). pose proof (rabs_mul _ _ _ _ ME Xh1) as A1. assert (A2 : Rabs (e * s2pi * (Xh - X0)) <= / 10000000000 * (Rabs e * k)). { rewrite !Rabs_mult, (Rabs_pos_eq s2pi) by lra. replace (/ 10000000000 * (Rabs e * k)) with (Rabs e * s2pi * (/ 10000000000 * X0)) by (unfold k; ring). apply Rmult_le_compat_l; [apply Rmult_le_pos; lra|exact XE]. }
    replace ((2 / 10000000000 * Rabs e + tiny) * (11 / 10 * X0)) with (22 / 100000000000 * (Rabs e * X0) + 11 / 10 * (tiny * X0)) in A1 by field. lra. }
  assert (Uek : E * k = E * s2pi * X0) by (unfold k; ring). rewrite <- Uek in HU |- *. assert (Ek : Rabs E * k <= a). { rewrite Rabs_mult, (Rabs_pos_eq k) in HU by lra. exact HU. }
  assert (dk : dl * k <= 52 / 100). { apply Rle_trans with (52 / 100 * f * k); [apply Rmult_le_compat_r; lra|]. rewrite Rmult_assoc, K. lra. } assert (ydk : Rabs y * dl * k <= 52 / 100). { apply Rle_trans with (52 / 100 * f * k); [apply Rmult_le_compat_r; lra|]. rewrite Rmult_assoc, K. lra. }
  assert (tks : tiny * k <= / 1000000000). { apply Rle_trans with (/ 2 ^ 200 * (3 * 2 ^ 100)); [apply Rmult_le_compat; lra|lra]. } assert (qEk : 0 <= q * (Rabs E * k) <= / 1000000000) by (split; [apply Rmult_le_pos; [lra|apply Rmult_le_pos; lra]|apply Rle_trans with (/ 1000000000000000 * (1 / 100000)); [apply Rmult_le_compat; try lra; apply Rmult_le_pos; lra|lra]]).
  assert (d1k : d1 * k = 1000001 / 1000000 * (dl * k) + q * (Rabs E * k) + tiny * k) by (unfold d1; ring). assert (ek1 : Rabs e * k <= Rabs E * k + d1 * k) by (rewrite <- Rmult_plus_distr_r; apply Rmult_le_compat_r; lra).
  assert (MX : Rabs (m * Xh) <= 2 * (Rabs e * k) + 2 * (tiny * k)). { replace (m * Xh) with ((m * Xh - e * k) + e * k) by ring. apply Rle_trans with (1 := Rabs_triang _ _). rewrite (Rabs_mult e k), (Rabs_pos_eq k) by lra. lra. }
  destruct (mul_ok (dmul (dsub P X) dsqrt2pi) (x_exp (e_base N) (dmul (dmul Y Y) dhalf)) M1 X1) as (U1 & U2); [fold m Xh; apply big_ok; lra|]. fold m Xh in U2. pose proof (rnd_err (m * Xh)) as U3. rewrite <- U2 in U3. split; [exact U1|]. set (u := B2R (dmul (dmul (dsub P X) dsqrt2pi) (x_exp (e_base N) (dmul (dmul Y Y) dhalf)))) in *.
  assert (U4 : q / 2 * Rabs (m * Xh) <= / 1000000000000000 * (2 * (Rabs e * k) + 2 * (tiny * k))) by (apply Rmult_le_compat; try lra; apply Rabs_pos).
  set (om := 6 / 10000000000 * (Rabs E + d1) + d1 + 4 * tiny). exists (om * k).
  assert (OK : om * k = 6 / 10000000000 * (Rabs E * k + d1 * k) + d1 * k + 4 * (tiny * k)) by (unfold om; ring). assert (tk1 : tiny <= tiny * k) by (rewrite <- (Rmult_1_r tiny) at 1; apply Rmult_le_compat_l; lra).
  split.
  - replace (u - E * k) with ((u - m * Xh) + ((m * Xh - e * k) + (e - E) * k)) by ring. apply Rle_trans with (1 := Rabs_triang _ _). pose proof (Rabs_triang (m * Xh - e * k) ((e - E) * k)) as TR. rewrite (Rabs_mult (e - E) k), (Rabs_pos_eq k) in TR by lra. assert (Rabs (e - E) * k <= d1 * k) by (apply Rmult_le_compat_r; lra). rewrite OK. lra.
  - pose proof (Rabs_pos y) as y0. split; [|split].
    + assert (YR : Rabs y * (Rabs E * k + tiny * k) <= 10 * (1 / 100000 + / 1000000000)) by (apply Rmult_le_compat; try lra; apply Rplus_le_le_0_compat; [apply Rmult_le_pos; lra|lra]). assert (YQ : Rabs y * (q * (Rabs E * k)) <= 10 * / 1000000000) by (apply Rmult_le_compat; lra). assert (YT : 0 <= Rabs y * (tiny * k)) by (apply Rmult_le_pos; lra). assert (YE : 0 <= Rabs y * (Rabs E * k)) by (apply Rmult_le_pos; [lra|apply Rmult_le_pos; lra]).
      assert (YT2 : Rabs y * (tiny * k) <= 10 * / 1000000000) by (apply Rmult_le_compat; lra). rewrite OK, d1k. replace (Rabs y * (6 / 10000000000 * (Rabs E * k + (1000001 / 1000000 * (dl * k) + q * (Rabs E * k) + tiny * k)) + (1000001 / 1000000 * (dl * k) + q * (Rabs E * k) + tiny * k) + 4 * (tiny * k))) with (6 / 10000000000 * (Rabs y * (Rabs E * k)) + (1 + 6 / 10000000000) * (1000001 / 1000000 * (Rabs y * dl * k) + Rabs y * (q * (Rabs E * k)) + Rabs y * (tiny * k)) + 4 * (Rabs y * (tiny * k))) by ring. lra.
    + rewrite OK, d1k. assert (0 <= Rabs E * k) by (apply Rmult_le_pos; lra). lra.
    + replace (om * k * f) with (om * (f * k)) by ring. rewrite K. clear - QE QD Hd HE T0 T2 Q. unfold om, d1. unfold q in *. lra.
Qed.

Lemma step_ok X Y dl a : is_finite X = true -> is_finite Y = true -> Rabs (B2R Y) <= 10 -> 0 < B2R X < 1 -> near (fPhi N Y) (Phi (B2R Y)) dl -> dl <= 8 * q -> Rabs (Phi (B2R Y) - B2R X) <= 4 / 10000000 -> 
  Rabs ((Phi (B2R Y) - B2R X) * s2pi * exp (B2R Y * B2R Y * (1 / 2))) <= a -> a <= 1 / 100000 -> (2 / 10 + B2R Y * B2R Y / 10) * (a * a * a) <= q -> dl <= 52 / 100 * phi (B2R Y) -> Rabs (B2R Y) * dl <= 52 / 100 * phi (B2R Y) ->
  is_finite (fhalley N X Y) = true /\ Rabs (B2R (fhalley N X Y)) <= 12 /\ Rabs (Phi (B2R (fhalley N X Y)) - B2R X) <= 45 * q.
Proof.
  intros FX FY Ry Rx (FP & EP) Hd HE HU Ha H3' D1 D2. pose proof q_pos as Q. pose proof tiny_small as TS. pose proof tiny_pos as T0. destruct half_ok as (FH & VH). fold dhalf in FH, VH. destruct (int_ok_ 1 ltac:(lia)) as (F1 & V1).
  destruct (corr_ok (fPhi N Y) X Y dl a FP FX FY Ry ltac:(lra) EP Hd HE HU Ha D1 D2) as (FU & w & W1 & W2 & W3 & W4). unfold fhalley. cbv zeta. set (U := dmul (dmul (dsub (fPhi N Y) X) dsqrt2pi) (x_exp (e_base N) (dmul (dmul Y Y) dhalf))) in *. clearbody U.
  set (y := B2R Y) in *. set (u := B2R U) in *. set (U0 := (Phi y - B2R X) * s2pi * exp (y * y * (1 / 2))) in *. pose proof (Rabs_pos y) as y0. assert (a0 : 0 <= a) by (pose proof (Rabs_pos U0); lra). assert (w0 : 0 <= w) by (pose proof (Rabs_pos (u - U0)); lra).
  assert (Au : Rabs u <= 55 / 100). { replace u with ((u - U0) + U0) by ring. apply Rle_trans with (1 := Rabs_triang _ _). lra. }
  assert (Ayu : Rabs (y * u) <= 541 / 1000). { replace (y * u) with (y * (u - U0) + y * U0) by ring. apply Rle_trans with (1 := Rabs_triang _ _). rewrite !Rabs_mult. assert (Rabs y * Rabs (u - U0) <= Rabs y * w) by (apply Rmult_le_compat_l; lra). assert (Rabs y * Rabs U0 <= 10 * (1 / 100000)) by (apply Rmult_le_compat; try lra; apply Rabs_pos). lra. }
  destruct (mul_ok Y U FY FU (big_ok (y * u) ltac:(lra))) as (A1 & A2). fold y u in A2. pose proof (rnd_err (y * u)) as A3. rewrite <- A2 in A3. set (b := B2R (dmul Y U)) in *. assert (A4 : q / 2 * Rabs (y * u) <= q / 2 * 1) by (apply Rmult_le_compat_l; lra). assert (A5 : Rabs (b - y * u) <= q) by lra. pose proof (Rabs_le_inv _ _ A5) as A6. pose proof (Rabs_le_inv _ _ Ayu) as A7.
  assert (Ab : Rabs (b * / 2) <= 1) by (apply Rabs_le; lra). destruct (mul_ok (dmul Y U) dhalf A1 FH) as (B1 & B2); [fold b; rewrite VH; apply big_ok; lra|]. fold b in B2. rewrite VH in B2. pose proof (rnd_err (b * / 2)) as B3. rewrite <- B2 in B3. set (c := B2R (dmul (dmul Y U) dhalf)) in *. assert (B4 : q / 2 * Rabs (b * / 2) <= q / 2 * 1) by (apply Rmult_le_compat_l; lra). assert (B5 : Rabs (c - b * / 2) <= q) by lra. pose proof (Rabs_le_inv _ _ B5) as B6.
  assert (Ac : Rabs (1 + c) <= 2) by (apply Rabs_le; lra). destruct (add_ok (dint 1) (dmul (dmul Y U) dhalf) F1 B1) as (C1 & C2); [fold c; rewrite V1; apply big_ok; lra|]. fold c in C2. rewrite V1 in C2. pose proof (rnd_err (1 + c)) as C3. rewrite <- C2 in C3. set (d := B2R (dadd (dint 1) (dmul (dmul Y U) dhalf))) in *. assert (C4 : q / 2 * Rabs (1 + c) <= q / 2 * 2) by (apply Rmult_le_compat_l; lra). assert (C5 : Rabs (d - (1 + c)) <= 2 * q) by lra. pose proof (Rabs_le_inv _ _ C5) as C6.
  set (D := 1 + y * u / 2). assert (RD : 729 / 1000 <= D <= 13 / 10) by (unfold D; lra). assert (ED : Rabs (d - D) <= 4 * q) by (apply Rabs_le; unfold D; lra). assert (Rd : 72 / 100 <= d <= 2) by (pose proof (Rabs_le_inv _ _ ED); lra).
  assert (Id : 0 < / d <= 14 / 10). { split; [apply Rinv_0_lt_compat; lra|]. apply Rmult_le_reg_r with d; [lra|]. rewrite Rinv_l by lra. lra. } assert (ID : 0 < / D <= 14 / 10). { split; [apply Rinv_0_lt_compat; lra|]. apply Rmult_le_reg_r with D; [lra|]. rewrite Rinv_l by lra. lra. }
  assert (Av : Rabs (u / d) <= 1). { unfold Rdiv. rewrite Rabs_mult, (Rabs_pos_eq (/ d)) by lra. apply Rle_trans with (55 / 100 * (14 / 10)); [apply Rmult_le_compat; try lra; apply Rabs_pos|lra]. }
  assert (EV : Rabs (u / d - u / D) <= 5 * q). { replace (u / d - u / D) with (- (u * (d - D)) * (/ d * / D)) by (field; lra). rewrite Rabs_mult, Rabs_Ropp, (Rabs_pos_eq (/ d * / D)) by (apply Rmult_le_pos; lra). pose proof (rabs_mul _ _ _ _ Au ED) as R1. assert (R2 : / d * / D <= 14 / 10 * (14 / 10)) by (apply Rmult_le_compat; lra). apply Rle_trans with (55 / 100 * (4 * q) * (14 / 10 * (14 / 10))); [apply Rmult_le_compat; try lra; [apply Rabs_pos|apply Rmult_le_pos; lra]|lra]. }
  destruct (div_ok U (dadd (dint 1) (dmul (dmul Y U) dhalf)) FU) as (G1 & G2); [fold d; lra|fold d u; apply big_ok; lra|]. fold d u in G2. pose proof (rnd_err (u / d)) as G3. rewrite <- G2 in G3. set (v := B2R (ddiv U (dadd (dint 1) (dmul (dmul Y U) dhalf)))) in *. assert (G4 : q / 2 * Rabs (u / d) <= q / 2 * 1) by (apply Rmult_le_compat_l; lra). assert (G5 : Rabs (v - u / d) <= q) by lra.
  assert (Avv : Rabs v <= 11 / 10). { replace v with ((v - u / d) + u / d) by ring. apply Rle_trans with (1 := Rabs_triang _ _). lra. } assert (Ayv : Rabs (y - v) <= 112 / 10). { unfold Rminus. apply Rle_trans with (1 := Rabs_triang _ _). rewrite Rabs_Ropp. lra. }
  destruct (sub_ok Y (ddiv U (dadd (dint 1) (dmul (dmul Y U) dhalf))) FY G1) as (I1 & I2); [fold y v; apply big_ok; lra|]. fold y v in I2. pose proof (rnd_err (y - v)) as I3. rewrite <- I2 in I3. set (yh := B2R (dsub Y (ddiv U (dadd (dint 1) (dmul (dmul Y U) dhalf))))) in *. assert (I4 : q / 2 * Rabs (y - v) <= q / 2 * 12) by (apply Rmult_le_compat_l; lra). split; [exact I1|]. split.
  { replace yh with ((yh - (y - v)) + (y - v)) by ring. apply Rle_trans with (1 := Rabs_triang _ _). lra. }
  assert (YH : Rabs (yh - (y - u / D)) <= 20 * q). { replace (yh - (y - u / D)) with ((yh - (y - v)) + (- (v - u / d) + - (u / d - u / D))) by ring. apply Rle_trans with (1 := Rabs_triang _ _). eapply Rle_trans; [apply Rplus_le_compat_l, Rabs_triang|]. rewrite !Rabs_Ropp. lra. }
  pose proof (proj2 (halley_real (B2R X) y a w (10 * q) q u yh Rx HU Ry Ha ltac:(lra) H3' W1 W2 W4 YH)) as R. lra.
Qed.
End Step.
