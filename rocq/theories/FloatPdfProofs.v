(** pdf in double: division by a scale, the distributions whose density is bounded by 1 / scale. *)
From Coq Require Import ZArith Bool Reals Lia Lra Psatz.
From Flocq Require Import Core IEEE754.BinarySingleNaN.
From Verif Require Import FloatFacts UniformModel UniformProofs FloatDrawModel FloatDrawSpec FloatDrawProofs FloatDrawCore FloatDrawLoc FloatDrawTrig FloatDrawLaw DiscDrawTree FloatCdfModel FloatCdfSpec FloatCdfProofs FloatCdfCore FloatCdfLoc FloatCdfPow FloatPdfModel FloatPdfSpec.
Local Open Scope R_scope.
Notation rnd := (round radix2 (SpecFloat.fexp 53 1024) ZnearestE).

Lemma density_weaken v p e e' : e <= e' -> density v p e -> density v p e'.
Proof. intros H (A & B & C). split; [exact A|]. split; [exact B|]. lra. Qed.
Lemma density_0 p e : 0 <= p <= e -> density (dint 0) p e.
Proof. intros H. destruct (int_ok_ 0 ltac:(lia)) as (F & V). split; [exact F|]. rewrite V. split; [lra|]. apply Rabs_le. lra. Qed.
Lemma ltb_0 (x : double) : is_finite x = true -> Bltb x (dint 0) = Rlt_bool (B2R x) 0.
Proof. intros F. destruct (int_ok_ 0 ltac:(lia)) as (F0 & V0). rewrite Bltb_correct by assumption. rewrite V0. reflexivity. Qed.
Lemma scale_650 x : scale x -> bpow radix2 (-650) <= B2R x <= bpow radix2 650.
Proof. intros (_ & R). apply bpow_widen with (-300)%Z 300%Z; [lia|lia|exact R]. Qed.

(** rounding of a number up to c *)
Lemma rnd_upto y c : 0 <= y <= 4 * c -> bpow radix2 (-660) <= c <= bpow radix2 660 -> Rabs y <= 4 * big /\ 0 <= rnd y /\ Rabs (rnd y - y) <= 3 * q * c.
Proof.
  intros Hy Hc. pose proof q_pos as Q. assert (B : bpow radix2 660 <= big) by (apply bpow_le; lia). assert (T : tiny <= q * c).
  { apply Rle_trans with (bpow radix2 (-52) * bpow radix2 (-660)); [rewrite <- bpow_plus; apply bpow_le; lia|]. replace (bpow radix2 (-52)) with q by (unfold q; cbn; lra). apply Rmult_le_compat_l; lra. }
  split; [rewrite Rabs_pos_eq; lra|]. split; [apply (rnd_ge_0 53 1024 H3_64 H70_64); lra|]. pose proof (rnd_err y) as E. rewrite (Rabs_pos_eq y) in E by lra. assert (q / 2 * y <= q / 2 * (4 * c)) by (apply Rmult_le_compat_l; lra). lra.
Qed.
Lemma mul_dens (G E : double) c p k e : is_finite G = true -> lc k (B2R G) c -> k <= / 4 -> bpow radix2 (-660) <= c <= bpow radix2 660 -> computes E p e -> density (dmul G E) (c * p) ((e + 2 * k + 3 * q) * c).
Proof.
  intros FG LG K Hc (FE & RE & A). pose proof q_pos as Q. pose proof (lc_abs _ _ _ LG ltac:(lra)) as D. apply Rabs_le_inv in D. destruct (lc_bounds _ _ _ LG ltac:(lra)) as (L1 & L2). pose proof (bpow_gt_0 radix2 (-660)) as BP.
  assert (GE : 0 <= B2R G * B2R E <= 4 * c). { split; [apply Rmult_le_pos; lra|]. apply Rle_trans with (2 * c * 1); [apply Rmult_le_compat; lra|lra]. }
  destruct (rnd_upto _ c GE Hc) as (R1 & R2 & R3). destruct (mul_ok G E FG FE R1) as (M1 & M2). split; [exact M1|]. rewrite M2. split; [exact R2|].
  assert (X : Rabs ((B2R G - c) * B2R E) <= 2 * k * c). { rewrite Rabs_mult, (Rabs_pos_eq (B2R E)) by lra. apply Rle_trans with (2 * k * c * 1); [|lra]. apply Rmult_le_compat; [apply Rabs_pos|lra|apply Rabs_le; lra|lra]. }
  assert (Y : Rabs (c * (B2R E - p)) <= c * e). { rewrite Rabs_mult, (Rabs_pos_eq c) by lra. apply Rmult_le_compat_l; lra. }
  replace (rnd (B2R G * B2R E) - c * p) with ((rnd (B2R G * B2R E) - B2R G * B2R E) + ((B2R G - c) * B2R E + c * (B2R E - p))) by ring.
  apply Rabs_le_inv in R3. apply Rabs_le_inv in X. apply Rabs_le_inv in Y. apply Rabs_le. lra.
Qed.
Lemma div_dens (E D : double) d p k e : lc k (B2R D) d -> k <= / 4 -> bpow radix2 (-650) <= d <= bpow radix2 650 -> computes E p e -> density (ddiv E D) (p / d) ((e + 2 * k + 3 * q) / d).
Proof.
  intros LD K Hd (FE & RE & A). pose proof q_pos as Q. pose proof (bpow_gt_0 radix2 (-650)) as BP. assert (Pd : 0 < d) by lra. assert (Id : 0 < / d) by (apply Rinv_0_lt_compat, Pd).
  pose proof (lc_inv _ _ _ LD) as LI. pose proof (lc_abs _ _ _ LI ltac:(lra)) as DD. apply Rabs_le_inv in DD. destruct (lc_bounds _ _ _ LI ltac:(lra)) as (L1 & L2). destruct LD as (PD & _ & _).
  assert (Hc : bpow radix2 (-660) <= / d <= bpow radix2 660).
  { split; [apply Rle_trans with (bpow radix2 (-650)); [apply bpow_le; lia|]; change (-650)%Z with (- (650))%Z; rewrite bpow_opp; apply Rinv_le; lra|].
    apply Rle_trans with (bpow radix2 650); [|apply bpow_le; lia]. change 650%Z with (- (-650))%Z. rewrite bpow_opp. apply Rinv_le; [exact BP|lra]. }
  assert (GE : 0 <= B2R E / B2R D <= 4 * / d). { unfold Rdiv. split; [apply Rmult_le_pos; lra|]. apply Rle_trans with (1 * (2 * / d)); [apply Rmult_le_compat; lra|lra]. }
  destruct (rnd_upto _ (/ d) GE Hc) as (R1 & R2 & R3). destruct (div_ok E D FE ltac:(lra) R1) as (M1 & M2). split; [exact M1|]. rewrite M2. split; [exact R2|].
  assert (X : Rabs (B2R E * (/ B2R D - / d)) <= 2 * k * / d). { rewrite Rabs_mult, (Rabs_pos_eq (B2R E)) by lra. apply Rle_trans with (1 * (2 * k * / d)); [|lra]. apply Rmult_le_compat; [lra|apply Rabs_pos|lra|apply Rabs_le; lra]. }
  assert (Y : Rabs ((B2R E - p) * / d) <= e * / d). { rewrite Rabs_mult, (Rabs_pos_eq (/ d)) by lra. apply Rmult_le_compat_r; lra. }
  replace (rnd (B2R E / B2R D) - p / d) with ((rnd (B2R E / B2R D) - B2R E / B2R D) + (B2R E * (/ B2R D - / d) + (B2R E - p) * / d)) by (unfold Rdiv; ring).
  apply Rabs_le_inv in R3. apply Rabs_le_inv in X. apply Rabs_le_inv in Y. apply Rabs_le. unfold Rdiv. lra.
Qed.
Lemma div_scale (E D : double) p e : scale D -> computes E p e -> density (ddiv E D) (p / B2R D) ((e + 3 * q) / B2R D).
Proof. intros S C. pose proof (div_dens E D (B2R D) p 0 e (lc_refl _ (scale_pos D S)) ltac:(lra) (scale_650 D S) C) as H. replace (e + 2 * 0 + 3 * q) with (e + 3 * q) in H by ring. exact H. Qed.
Lemma dens_up v p d a b : 0 < d -> a <= b -> density v p (a / d) -> density v p (b / d).
Proof. intros D H. apply density_weaken. apply Rmult_le_compat_r; [left; apply Rinv_0_lt_compat, D|exact H]. Qed.

Section Functions.
Variable M : libmx.
Hypothesis HM : accurate_x M.

Lemma exponential_pdf mu x : scale mu -> is_finite x = true -> density (exponential_fpdf M mu x) (f_exponential (B2R mu) (B2R x)) (9 * q / B2R mu).
Proof.
  intros Hm F. pose proof q_pos as Q. pose proof tiny_small as T. pose proof tiny_pos as T0. pose proof (scale_pos mu Hm) as Pm. assert (Im : 0 < / B2R mu) by (apply Rinv_0_lt_compat, Pm). unfold exponential_fpdf, f_exponential. rewrite (ltb_0 x F). destruct (Rlt_bool_spec (B2R x) 0) as [H|H]; destruct (Rlt_dec (B2R x) 0) as [C|C]; try lra.
  - apply density_0. split; [lra|]. apply Rmult_le_pos; lra.
  - destruct (opp_ok x F) as (O1 & O2). pose proof (div_apxn (dopp x) mu O1 ltac:(lra) Pm) as A. rewrite O2, Ropp_involutive in A. assert (P : 0 <= B2R x / B2R mu) by (apply Rmult_le_pos; lra).
    pose proof (exp_at M HM _ _ _ _ A P ltac:(lra) ltac:(lra)) as E. apply (div_scale _ _ _ _ Hm) in E. revert E. apply dens_up; [exact Pm|]. lra.
Qed.
Lemma abs_ok (x : double) : is_finite x = true -> is_finite (Babs x) = true /\ B2R (Babs x) = Rabs (B2R x).
Proof. intros F. split; [rewrite is_finite_Babs; exact F|apply B2R_Babs]. Qed.
Lemma double_ok mu : scale mu -> is_finite (dmul (dint 2) mu) = true /\ B2R (dmul (dint 2) mu) = 2 * B2R mu.
Proof.
  intros Hm. pose proof (scale_pos mu Hm) as Pm. destruct Hm as (Fm & Rm). destruct (int_ok_ 2 ltac:(lia)) as (F2 & V2).
  destruct (mul_ok (dint 2) mu F2 Fm) as (A1 & A2); [rewrite V2, Rabs_pos_eq by lra; assert (bpow radix2 300 <= big) by (apply bpow_le; lia); pose proof (bpow_gt_0 radix2 1000); unfold big in *; lra|].
  rewrite V2 in A2. rewrite (rnd_fmt 53 1024 H3_64 H70_64 _ (fmt_double _ (fmt_B2R 53 1024 H3_64 H70_64 mu))) in A2. split; assumption.
Qed.
Lemma twosided_pdf mu x : scale mu -> is_finite x = true -> density (twosided_fpdf M mu x) (f_twosided (B2R mu) (B2R x)) (5 * q / B2R mu).
Proof.
  intros Hm F. pose proof q_pos as Q. pose proof tiny_small as T. pose proof tiny_pos as T0. pose proof (scale_pos mu Hm) as Pm. assert (Im : 0 < / B2R mu) by (apply Rinv_0_lt_compat, Pm). unfold twosided_fpdf, f_twosided.
  destruct (abs_ok x F) as (FA & VA). destruct (opp_ok _ FA) as (O1 & O2). pose proof (Rabs_pos (B2R x)) as AP. pose proof (div_apxn (dopp (Babs x)) mu O1 ltac:(lra) Pm) as A. rewrite O2, Ropp_involutive, VA in A.
  assert (P : 0 <= Rabs (B2R x) / B2R mu) by (apply Rmult_le_pos; lra). pose proof (exp_at M HM _ _ _ _ A P ltac:(lra) ltac:(lra)) as E. destruct (double_ok mu Hm) as (D1 & D2).
  assert (D3 : bpow radix2 (-650) <= 2 * B2R mu <= bpow radix2 650). { destruct Hm as (_ & R). assert (bpow radix2 300 * 2 <= bpow radix2 650) by (change 2 with (bpow radix2 1); rewrite <- bpow_plus; apply bpow_le; lia). assert (bpow radix2 (-650) <= bpow radix2 (-300)) by (apply bpow_le; lia). lra. }
  assert (L : lc 0 (B2R (dmul (dint 2) mu)) (2 * B2R mu)) by (rewrite D2; apply lc_refl; lra). pose proof (div_dens _ _ _ _ _ _ L ltac:(lra) D3 E) as G. revert G. apply density_weaken.
  apply Rle_trans with (10 * q / (2 * B2R mu)); [apply Rmult_le_compat_r; [left; apply Rinv_0_lt_compat; lra|lra]|]. right. field. lra.
Qed.

(** ** logistic *)
Lemma t_1p a b : 0 <= a <= 1 -> 0 <= b <= 1 -> Rabs (a / ((1 + a) * (1 + a)) - b / ((1 + b) * (1 + b))) <= Rabs (a - b).
Proof.
  intros A B. replace (a / ((1 + a) * (1 + a)) - b / ((1 + b) * (1 + b))) with ((a - b) * ((1 - a * b) / ((1 + a) * (1 + a) * ((1 + b) * (1 + b))))) by (field; lra).
  rewrite Rabs_mult. assert (AB : 0 <= a * b <= 1) by (split; [apply Rmult_le_pos|rewrite <- (Rmult_1_r 1); apply Rmult_le_compat]; lra).
  assert (D : 1 <= (1 + a) * (1 + a) * ((1 + b) * (1 + b))). { rewrite <- (Rmult_1_r 1) at 1. apply Rmult_le_compat; try lra; rewrite <- (Rmult_1_r 1) at 1; apply Rmult_le_compat; lra. }
  assert (X : 0 <= (1 - a * b) / ((1 + a) * (1 + a) * ((1 + b) * (1 + b))) <= 1).
  { split; [apply Rmult_le_pos; [lra|left; apply Rinv_0_lt_compat; lra]|]. apply Rmult_le_reg_r with ((1 + a) * (1 + a) * ((1 + b) * (1 + b))); [lra|]. unfold Rdiv. rewrite Rmult_assoc, Rinv_l by lra. lra. }
  rewrite (Rabs_pos_eq _ (proj1 X)). rewrite <- (Rmult_1_r (Rabs (a - b))) at 2. apply Rmult_le_compat_l; [apply Rabs_pos|apply X].
Qed.
Lemma logistic_even th z : 0 < th -> let t := exp (- z) in let u := exp (- Rabs z) in t / (th * ((1 + t) * (1 + t))) = u / ((1 + u) * (1 + u)) / th.
Proof.
  intros P t u. destruct (Rcase_abs z) as [N|N].
  - assert (U : u = / t) by (unfold u, t; rewrite Rabs_left by exact N; rewrite <- exp_Ropp; f_equal; ring). assert (T : 0 < t) by apply exp_pos. rewrite U. field. lra.
  - assert (U : u = t) by (unfold u, t; rewrite Rabs_right by exact N; reflexivity). rewrite U. assert (T : 0 < t) by apply exp_pos. field. lra.
Qed.
Lemma logistic_pdf th et x : scale th -> location et -> is_finite x = true -> density (logistic_fpdf M th et x) (f_logistic (B2R th) (B2R et) (B2R x)) (25 * q / B2R th).
Proof.
  intros Ht He F. pose proof q_pos as Q. pose proof tiny_small as T. pose proof tiny_pos as T0. pose proof (scale_pos th Ht) as Pt. unfold logistic_fpdf, f_logistic. cbv zeta. set (z := (B2R x - B2R et) / B2R th).
  rewrite (logistic_even (B2R th) z Pt). pose proof (abs_opp_apxn th et x Ht He F) as A. fold z in A. pose proof (exp_at M HM _ _ _ _ A (Rabs_pos z) ltac:(lra) ltac:(lra)) as E.
  set (t1 := x_exp M (dopp (Babs (ddiv (dsub x et) th)))) in *. set (u := exp (- Rabs z)) in *. assert (U : 0 <= u <= 1) by (unfold u; split; [left; apply exp_pos|]; rewrite <- exp_0; apply exp_le; pose proof (Rabs_pos z); lra).
  destruct E as (F1 & R1 & A1). destruct (int_ok_ 1 ltac:(lia)) as (FI & VI). destruct (add_ok (dint 1) t1 FI F1) as (F2 & V2); [rewrite VI, Rabs_pos_eq by lra; pose proof big_10; lra|]. rewrite VI in V2. set (t2 := dadd (dint 1) t1) in *.
  assert (S : 1 <= 1 + B2R t1 <= 2) by lra. assert (B0 : bpow radix2 (-1020) <= 1) by (change 1 with (bpow radix2 0); apply bpow_le; lia). assert (L2 : lc q (B2R t2) (1 + B2R t1)) by (rewrite V2; apply lc_rnd; lra).
  assert (RR : bpow radix2 0 <= 1 + B2R t1 <= bpow radix2 1) by (change (bpow radix2 0) with 1; change (bpow radix2 1) with 2; lra).
  pose proof (proj2 Ht) as Rt. pose proof (bpow_range _ _ _ _ _ _ Rt RR) as D1. pose proof (bpow_range _ _ _ _ _ _ D1 RR) as D2.
  destruct (mul_lc th t2 0 q (B2R th) (1 + B2R t1) (proj1 Ht) F2 (lc_refl _ Pt) L2 ltac:(lra)) as (G1 & G2); [revert D1; apply bpow_widen; lia|].
  destruct (mul_lc (dmul th t2) t2 (0 + q + q) q _ _ G1 F2 G2 L2 ltac:(lra)) as (G3 & G4); [revert D2; apply bpow_widen; lia|].
  assert (C : computes t1 (B2R t1) 0) by (split; [exact F1|]; split; [exact R1|]; rewrite Rminus_eq_0, Rabs_R0; lra).
  assert (K4 : 0 + q + q + q + q <= / 4) by (unfold q; lra). pose proof (div_dens t1 _ _ _ _ _ G4 K4 (bpow_widen (-300 + 0 + 0) (-650) (300 + 1 + 1) 650 _ ltac:(lia) ltac:(lia) D2) C) as (X & Y & Z).
  split; [exact X|]. split; [exact Y|]. pose proof (t_1p (B2R t1) u R1 U) as W. assert (SS : 1 <= (1 + B2R t1) * (1 + B2R t1)) by (rewrite <- (Rmult_1_r 1) at 1; apply Rmult_le_compat; lra). assert (Im : 0 < / B2R th) by (apply Rinv_0_lt_compat, Pt).
  assert (E0 : B2R t1 / (B2R th * (1 + B2R t1) * (1 + B2R t1)) = B2R t1 / ((1 + B2R t1) * (1 + B2R t1)) / B2R th) by (field; lra). rewrite E0 in Z.
  assert (Z2 : (0 + 2 * (0 + q + q + q + q) + 3 * q) / (B2R th * (1 + B2R t1) * (1 + B2R t1)) <= 11 * q * / B2R th).
  { replace ((0 + 2 * (0 + q + q + q + q) + 3 * q) / (B2R th * (1 + B2R t1) * (1 + B2R t1))) with (11 * q * / B2R th * / ((1 + B2R t1) * (1 + B2R t1))) by (field; lra). rewrite <- (Rmult_1_r (11 * q * / B2R th)) at 2. apply Rmult_le_compat_l; [apply Rmult_le_pos; lra|]. rewrite <- Rinv_1. apply Rinv_le; lra. }
  assert (Y2 : Rabs (B2R t1 / ((1 + B2R t1) * (1 + B2R t1)) / B2R th - u / ((1 + u) * (1 + u)) / B2R th) <= 14 * q * / B2R th).
  { replace (B2R t1 / ((1 + B2R t1) * (1 + B2R t1)) / B2R th - u / ((1 + u) * (1 + u)) / B2R th) with ((B2R t1 / ((1 + B2R t1) * (1 + B2R t1)) - u / ((1 + u) * (1 + u))) * / B2R th) by (unfold Rdiv; ring). rewrite Rabs_mult, (Rabs_pos_eq (/ B2R th)) by lra. apply Rmult_le_compat_r; [lra|]. lra. }
  apply Rabs_le_inv in Z. apply Rabs_le_inv in Y2. apply Rabs_le. unfold Rdiv at 3 6. lra.
Qed.

(** ** pareto, powerlaw *)
Lemma g1_ok g : shape19 g -> exists g1, dsub (dopp g) (dint 1) = dopp g1 /\ shape g1 /\ Rabs (B2R g1 - (B2R g + 1)) <= q / 2 * (B2R g + 1).
Proof.
  intros (F & R). pose proof q_pos as Q. destruct (opp_ok g F) as (O1 & O2). destruct (int_ok_ 1 ltac:(lia)) as (FI & VI). pose proof big_10 as B.
  assert (B2 : 2 ^ 20 <= 4 * big). { apply Rle_trans with (bpow radix2 20); [right; cbn; lra|]. assert (bpow radix2 20 <= big) by (apply bpow_le; lia). pose proof (bpow_gt_0 radix2 20). lra. }
  destruct (sub_ok (dopp g) (dint 1) O1 FI) as (S1 & S2); [rewrite O2, VI; replace (- B2R g - 1) with (- (B2R g + 1)) by ring; rewrite Rabs_Ropp, Rabs_pos_eq by lra; lra|].
  rewrite O2, VI in S2. replace (- B2R g - 1) with (- (B2R g + 1)) in S2 by ring. rewrite rnd_opp in S2.
  exists (dopp (dsub (dopp g) (dint 1))). destruct (opp_ok _ S1) as (P1 & P2). rewrite S2, Ropp_involutive in P2. split; [unfold dopp at 2 3; rewrite Bopp_involutive; reflexivity|].
  assert (B0 : bpow radix2 (-1020) <= 1) by (change 1 with (bpow radix2 0); apply bpow_le; lia). pose proof (rnd_rel (B2R g + 1) ltac:(right; rewrite Rabs_pos_eq; lra)) as E. rewrite (Rabs_pos_eq (B2R g + 1)) in E by lra. rewrite P2.
  assert (q / 2 * (B2R g + 1) <= / 1000 * (B2R g + 1)) by (apply Rmult_le_compat_r; lra). split; [|exact E]. split; [exact P1|]. rewrite P2. apply Rabs_le_inv in E. lra.
Qed.
Lemma pow_dens g th (S : double) w : shape19 g -> scale th -> 1 <= w -> apx1 S w ->
  density (dmul (ddiv g th) (m_pow (x_base M) S (dsub (dopp g) (dint 1)))) (B2R g / B2R th * Rpower w (- B2R g - 1)) ((21 + 9 * B2R g) * q * (B2R g / B2R th)).
Proof.
  intros Hg Ht Hw A. pose proof q_pos as Q. pose proof (scale_pos th Ht) as Pt. destruct (g1_ok g Hg) as (g1 & -> & Sg & Eg). destruct Hg as (Fg & Rg).
  pose proof (pow_neg M HM g1 S w Sg Hw A) as P. assert (LW : 0 <= ln w) by (rewrite <- ln_1; apply ln_le; lra). apply Rabs_le_inv in Eg. pose proof (proj2 Sg) as Rg1.
  assert (R12 : Rabs (Rpower w (- B2R g1) - Rpower w (- B2R g - 1)) <= 2 * (q / 2) + 2 * 0 + q).
  { unfold Rpower. replace (- B2R g1 * ln w) with (- (B2R g1 * ln w)) by ring. replace ((- B2R g - 1) * ln w) with (- ((B2R g + 1) * ln w)) by ring. apply far_back; try (apply Rmult_le_pos; lra); try lra.
    replace (B2R g1 * ln w - (B2R g + 1) * ln w) with ((B2R g1 - (B2R g + 1)) * ln w) by ring. rewrite Rabs_mult, (Rabs_pos_eq (ln w)) by lra. apply Rle_trans with (q / 2 * (B2R g + 1) * ln w); [apply Rmult_le_compat_r; [lra|apply Rabs_le; lra]|lra]. }
  assert (GQ : 0 <= B2R g * q <= / 1000) by (split; [apply Rmult_le_pos; lra|]; apply Rle_trans with (2 ^ 19 * q); [apply Rmult_le_compat_r; lra|unfold q; lra]).
  assert (C : computes (m_pow (x_base M) S (dopp g1)) (Rpower w (- B2R g - 1)) ((16 + 9 * B2R g) * q)).
  { destruct P as (P1 & P2 & P3). split; [exact P1|]. split; [exact P2|]. assert (G9 : 5 + 8 * B2R g1 <= 13 + (/ 2 + 9 * B2R g)) by (assert (q / 2 * (B2R g + 1) <= / 80 * (B2R g + 1)) by (apply Rmult_le_compat_r; lra); lra). assert (G10 : (5 + 8 * B2R g1) * q <= (13 + (/ 2 + 9 * B2R g)) * q) by (apply Rmult_le_compat_r; lra).
    replace (B2R (m_pow (x_base M) S (dopp g1)) - Rpower w (- B2R g - 1)) with ((B2R (m_pow (x_base M) S (dopp g1)) - Rpower w (- B2R g1)) + (Rpower w (- B2R g1) - Rpower w (- B2R g - 1))) by ring. apply Rle_trans with (1 := Rabs_triang _ _). replace ((16 + 9 * B2R g) * q) with ((13 + (/ 2 + 9 * B2R g)) * q + 5 / 2 * q) by field. lra. }
  assert (Hc : bpow radix2 (-310) <= B2R g / B2R th <= bpow radix2 330).
  { unfold Rdiv. change (-310)%Z with (-3 + -307)%Z. change 330%Z with (20 + 310)%Z. apply bpow_range; [cbn; lra|]. destruct Ht as (_ & Rt). pose proof (bpow_gt_0 radix2 (-300)) as B3. split.
    - apply Rle_trans with (bpow radix2 (- (300))); [apply bpow_le; lia|]. rewrite bpow_opp. apply Rinv_le; lra.
    - apply Rle_trans with (bpow radix2 (- (-300))); [|apply bpow_le; lia]. rewrite bpow_opp. apply Rinv_le; lra. }
  destruct (div_lc g th 0 0 (B2R g) (B2R th) Fg (proj1 Ht)) as (G1 & G2); [apply lc_refl; lra|apply lc_refl; lra|lra|revert Hc; apply bpow_widen; lia|].
  pose proof (mul_dens _ _ _ _ _ _ G1 G2 ltac:(lra) (bpow_widen (-310) (-660) 330 660 _ ltac:(lia) ltac:(lia) Hc) C) as D. revert D. apply density_weaken. apply Rmult_le_compat_r; [pose proof (bpow_gt_0 radix2 (-310)); lra|]. lra.
Qed.
End Functions.
