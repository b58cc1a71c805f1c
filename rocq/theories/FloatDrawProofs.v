(** Rounding errors of the draws of continuous distributions. *)
From Coq Require Import ZArith Bool List Reals Lia Lra Psatz.
From Flocq Require Import Core Relative IEEE754.BinarySingleNaN.
From Verif Require Import FloatFacts UniformModel UniformProofs UnifAccProofs FloatDrawModel FloatDrawSpec.
Open Scope R_scope.

(** ** Closeness of logarithms *)
Definition lc (k x y : R) : Prop := 0 < x /\ 0 < y /\ Rabs (ln x - ln y) <= k.

Lemma exp_1m x : 1 + x <= exp x. Proof. destruct (Req_dec x 0) as [->|N]; [rewrite exp_0; lra|left; apply exp_ineq1; exact N]. Qed.
Lemma exp_up x : x <= / 2 -> 0 <= x -> exp x <= 1 + 2 * x.
Proof.
  intros H P. pose proof (exp_1m (- x)) as E. rewrite exp_Ropp in E. pose proof (exp_pos x).
  apply Rmult_le_reg_r with (/ exp x); [apply Rinv_0_lt_compat; lra|]. rewrite Rinv_r by lra. apply Rle_trans with ((1 + 2 * x) * (1 + - x)); [|apply Rmult_le_compat_l; lra]. nra.
Qed.
Lemma ln_up x : 0 < x -> ln x <= x - 1.
Proof. intros H. pose proof (exp_1m (ln x)) as E. rewrite exp_ln in E by exact H. lra. Qed.
Lemma ln_lo x : 0 < x -> 1 - / x <= ln x.
Proof. intros H. pose proof (ln_up (/ x) (Rinv_0_lt_compat _ H)) as E. rewrite ln_Rinv in E by exact H. lra. Qed.

Lemma lc_refl x : 0 < x -> lc 0 x x.
Proof. intros H. split; [exact H|]. split; [exact H|]. rewrite (Rminus_diag_eq _ _ eq_refl), Rabs_R0. lra. Qed.
Lemma lc_weaken a b x y : a <= b -> lc a x y -> lc b x y.
Proof. intros H (P & Q & E). split; [exact P|]. split; [exact Q|]. lra. Qed.
Lemma lc_sym a x y : lc a x y -> lc a y x.
Proof. intros (P & Q & E). split; [exact Q|]. split; [exact P|]. rewrite Rabs_minus_sym. exact E. Qed.
Lemma lc_trans a b x y z : lc a x y -> lc b y z -> lc (a + b) x z.
Proof. intros (P & _ & E) (_ & Q & F). split; [exact P|]. split; [exact Q|]. replace (ln x - ln z) with ((ln x - ln y) + (ln y - ln z)) by ring. apply Rle_trans with (1 := Rabs_triang _ _). lra. Qed.
Lemma lc_mul a b x y z w : lc a x y -> lc b z w -> lc (a + b) (x * z) (y * w).
Proof.
  intros (P & P' & E) (Q & Q' & F). split; [apply Rmult_lt_0_compat; assumption|]. split; [apply Rmult_lt_0_compat; assumption|]. rewrite !ln_mult by assumption.
  replace (ln x + ln z - (ln y + ln w)) with ((ln x - ln y) + (ln z - ln w)) by ring. apply Rle_trans with (1 := Rabs_triang _ _). lra.
Qed.
Lemma lc_inv a x y : lc a x y -> lc a (/ x) (/ y).
Proof.
  intros (P & Q & E). split; [apply Rinv_0_lt_compat, P|]. split; [apply Rinv_0_lt_compat, Q|]. rewrite !ln_Rinv by assumption. replace (- ln x - - ln y) with (- (ln x - ln y)) by ring. rewrite Rabs_Ropp. exact E.
Qed.
Lemma lc_div a b x y z w : lc a x y -> lc b z w -> lc (a + b) (x / z) (y / w).
Proof. intros H G. apply lc_mul; [exact H|apply lc_inv, G]. Qed.
Lemma ln_sqrt x : 0 < x -> ln (sqrt x) = ln x / 2.
Proof. intros H. assert (S : 0 < sqrt x) by (apply sqrt_lt_R0, H). assert (E : ln x = ln (sqrt x) + ln (sqrt x)) by (rewrite <- ln_mult by exact S; f_equal; symmetry; apply sqrt_sqrt; lra). lra. Qed.
Lemma lc_sqrt a x y : lc a x y -> lc (a / 2) (sqrt x) (sqrt y).
Proof.
  intros (P & Q & E). split; [apply sqrt_lt_R0, P|]. split; [apply sqrt_lt_R0, Q|]. rewrite !ln_sqrt by assumption. replace (ln x / 2 - ln y / 2) with ((ln x - ln y) * / 2) by field.
  rewrite Rabs_mult, (Rabs_pos_eq (/ 2)) by lra. lra.
Qed.
Lemma lc_rel d x y : 0 < y -> 0 <= d <= / 2 -> Rabs (x - y) <= d * y -> lc (2 * d) x y.
Proof.
  intros Hy Hd H. apply Rabs_le_inv in H. assert (X : 0 < x) by nra. split; [exact X|]. split; [exact Hy|].
  assert (E : ln x - ln y = ln (x / y)) by (unfold Rdiv; rewrite ln_mult, ln_Rinv by (try apply Rinv_0_lt_compat; assumption); lra). rewrite E.
  assert (I : 0 < / y) by (apply Rinv_0_lt_compat, Hy). assert (Q : 1 - d <= x / y <= 1 + d).
  { split; apply Rmult_le_reg_r with y; try exact Hy; unfold Rdiv; rewrite Rmult_assoc, Rinv_l by lra; lra. }
  apply Rabs_le. split.
  - apply Rle_trans with (2 := ln_lo (x / y) ltac:(lra)). assert (/ (x / y) <= / (1 - d)) by (apply Rinv_le_contravar; lra).
    assert (/ (1 - d) <= 1 + 2 * d); [|lra]. apply Rmult_le_reg_r with (1 - d); [lra|]. rewrite Rinv_l by lra. nra.
  - apply Rle_trans with (1 := ln_up (x / y) ltac:(lra)). lra.
Qed.
Lemma lc_abs k x y : lc k x y -> k <= / 2 -> Rabs (x - y) <= 2 * k * y.
Proof.
  intros (P & Q & E) K. assert (K0 : 0 <= k) by (apply Rle_trans with (2 := E); apply Rabs_pos). apply Rabs_le_inv in E.
  assert (U : x <= y * exp k). { rewrite <- (exp_ln x P). rewrite <- (exp_ln y Q) at 1. rewrite <- exp_plus. apply exp_le. lra. }
  assert (W : y * exp (- k) <= x). { rewrite <- (exp_ln x P). rewrite <- (exp_ln y Q) at 1. rewrite <- exp_plus. apply exp_le. lra. }
  pose proof (exp_up k K K0). pose proof (exp_1m (- k)). assert (y * exp k <= y * (1 + 2 * k)) by (apply Rmult_le_compat_l; lra). assert (y * (1 + - k) <= y * exp (- k)) by (apply Rmult_le_compat_l; lra).
  assert (0 <= y * k) by (apply Rmult_le_pos; lra). apply Rabs_le. lra.
Qed.
Lemma lc_bounds k x y : lc k x y -> k <= / 2 -> y / 2 <= x <= 2 * y.
Proof.
  intros H K. pose proof (lc_abs k x y H K) as A. destruct H as (P & Q & E). pose proof (Rabs_pos (ln x - ln y)). assert (2 * k * y <= 1 * y) by (apply Rmult_le_compat_r; lra). 
  pose proof (lc_abs k y x (lc_sym k x y (conj P (conj Q E))) K) as B. apply Rabs_le_inv in A. apply Rabs_le_inv in B. assert (2 * k * x <= 1 * x) by (apply Rmult_le_compat_r; lra). lra.
Qed.

(** the exponential of a perturbed exponent *)
Lemma exp_back s e kap tau : 0 <= e -> 0 <= kap -> 0 <= tau -> Rabs (s - e) <= kap * e + tau -> kap * e + tau <= / 2 -> Rabs (exp (- s) - exp (- e)) <= 2 * kap + 2 * tau.
Proof.
  intros He Hk Ht H W. set (w := kap * e + tau) in *. assert (W0 : 0 <= w) by (apply Rle_trans with (2 := H); apply Rabs_pos). apply Rabs_le_inv in H. pose proof (exp_pos (- e)) as X.
  assert (U : exp (- s) <= exp (- e) * exp w) by (rewrite <- exp_plus; apply exp_le; lra). assert (V : exp (- e) * exp (- w) <= exp (- s)) by (rewrite <- exp_plus; apply exp_le; lra).
  pose proof (exp_up w W W0). pose proof (exp_1m (- w)). assert (exp (- e) * exp w <= exp (- e) * (1 + 2 * w)) by (apply Rmult_le_compat_l; lra). assert (exp (- e) * (1 + - w) <= exp (- e) * exp (- w)) by (apply Rmult_le_compat_l; lra).
  assert (E1 : exp (- e) <= 1) by (rewrite <- exp_0; apply exp_le; lra).
  assert (E2 : e * exp (- e) <= 1). { rewrite exp_Ropp. pose proof (exp_1m e). pose proof (exp_pos e). apply Rmult_le_reg_r with (exp e); [lra|]. rewrite Rmult_assoc, Rinv_l by lra. lra. }
  assert (B : exp (- e) * w <= kap + tau). { unfold w. replace (exp (- e) * (kap * e + tau)) with (kap * (e * exp (- e)) + tau * exp (- e)) by ring.
    assert (kap * (e * exp (- e)) <= kap * 1) by (apply Rmult_le_compat_l; lra). assert (tau * exp (- e) <= tau * 1) by (apply Rmult_le_compat_l; lra). lra. }
  assert (0 <= exp (- e) * w) by (apply Rmult_le_pos; lra). apply Rabs_le. lra.
Qed.

(** ** Rounding to double *)
Notation rnd := (round radix2 (SpecFloat.fexp 53 1024) ZnearestE).
Notation fmt := (generic_format radix2 (SpecFloat.fexp 53 1024)).
Definition q : R := / 2 ^ 52.
Definition big : R := bpow radix2 1000.
Definition small : R := bpow radix2 (-1000).
Definition tiny : R := bpow radix2 (-1075).
Lemma q_pos : 0 < q <= / 1000000000000000. Proof. unfold q. lra. Qed.
Lemma tiny_pos : 0 < tiny. Proof. apply bpow_gt_0. Qed.
Lemma small_pos : 0 < small. Proof. apply bpow_gt_0. Qed.
Lemma u_eq : bpow radix2 (-53) = q / 2. Proof. unfold q. cbn. lra. Qed.

Lemma rnd_err x : Rabs (rnd x - x) <= q / 2 * Rabs x + tiny.
Proof.
  destruct (error_N_FLT radix2 (-1074) 53 ltac:(lia) (fun z => negb (Z.even z)) x) as (e & t & He & Ht & _ & E). change (FLT_exp (-1074) 53) with (SpecFloat.fexp 53 1024) in E. 
  fold ZnearestE in E. rewrite E. replace (x * (1 + e) + t - x) with (e * x + t) by ring. apply Rle_trans with (1 := Rabs_triang _ _). rewrite Rabs_mult.
  replace (/ 2 * bpow radix2 (- (53) + 1)) with (q / 2) in He by (unfold q; cbn; lra). replace (/ 2 * bpow radix2 (-1074)) with tiny in Ht by (unfold tiny; change (-1075)%Z with (-1 + -1074)%Z; rewrite bpow_plus; reflexivity).
  assert (Rabs e * Rabs x <= q / 2 * Rabs x) by (apply Rmult_le_compat_r; [apply Rabs_pos|exact He]). lra.
Qed.
Lemma rnd_rel x : x = 0 \/ bpow radix2 (-1020) <= Rabs x -> Rabs (rnd x - x) <= q / 2 * Rabs x.
Proof.
  intros [->|H]; [rewrite round_0 by typeclasses eauto; rewrite (Rminus_diag_eq _ _ eq_refl), Rabs_R0; lra|].
  pose proof (relative_error_N_FLT radix2 (-1074) 53 ltac:(lia) (fun z => negb (Z.even z)) x) as E. change (FLT_exp (-1074) 53) with (SpecFloat.fexp 53 1024) in E.
  replace (/ 2 * bpow radix2 (- (53) + 1)) with (q / 2) in E by (unfold q; cbn; lra). apply E. apply Rle_trans with (2 := H). apply bpow_le. lia.
Qed.
Lemma lc_rnd x : bpow radix2 (-1020) <= x -> lc q (rnd x) x.
Proof.
  intros H. assert (X : 0 < x) by (apply Rlt_le_trans with (2 := H); apply bpow_gt_0). pose proof (rnd_rel x ltac:(right; rewrite Rabs_pos_eq; lra)) as R. rewrite (Rabs_pos_eq x) in R by lra.
  replace q with (2 * (q / 2)) by field. pose proof q_pos. apply lc_rel; [exact X|lra|exact R].
Qed.
Notation H3 := H3_64. Notation H70 := H70_64.
Lemma inr x : Rabs x <= 4 * big -> inrange 1024 x.
Proof. intros H. unfold inrange. apply Rle_trans with (1 := H). unfold big. replace 4 with (bpow radix2 2) by (cbn; lra). rewrite <- bpow_plus. apply bpow_le. lia. Qed.

Lemma mul_ok (x y : double) : is_finite x = true -> is_finite y = true -> Rabs (B2R x * B2R y) <= 4 * big -> is_finite (dmul x y) = true /\ B2R (dmul x y) = rnd (B2R x * B2R y).
Proof. intros Fx Fy H. apply (fmul_ok 53 1024 H3 H70 x y Fx Fy). apply inr, H. Qed.
Lemma div_ok (x y : double) : is_finite x = true -> B2R y <> 0 -> Rabs (B2R x / B2R y) <= 4 * big -> is_finite (ddiv x y) = true /\ B2R (ddiv x y) = rnd (B2R x / B2R y).
Proof. intros Fx Fy H. apply (fdiv_ok 53 1024 H3 H70 x y Fx Fy). apply inr, H. Qed.
Lemma add_ok (x y : double) : is_finite x = true -> is_finite y = true -> Rabs (B2R x + B2R y) <= 4 * big -> is_finite (dadd x y) = true /\ B2R (dadd x y) = rnd (B2R x + B2R y).
Proof. intros Fx Fy H. apply (fadd_ok 53 1024 H3 H70 x y Fx Fy). apply inr, H. Qed.
Lemma sub_ok (x y : double) : is_finite x = true -> is_finite y = true -> Rabs (B2R x - B2R y) <= 4 * big -> is_finite (dsub x y) = true /\ B2R (dsub x y) = rnd (B2R x - B2R y).
Proof. intros Fx Fy H. apply (fsub_ok 53 1024 H3 H70 x y Fx Fy). apply inr, H. Qed.
Lemma opp_ok (x : double) : is_finite x = true -> is_finite (dopp x) = true /\ B2R (dopp x) = - B2R x.
Proof. intros F. unfold dopp. rewrite is_finite_Bopp, B2R_Bopp. auto. Qed.
Lemma sqrt_ok (x : double) : is_finite x = true -> 0 <= B2R x -> is_finite (dsqrt x) = true /\ B2R (dsqrt x) = rnd (sqrt (B2R x)).
Proof.
  intros F H. unfold dsqrt. destruct (Bsqrt_correct 53 1024 _ _ mode_NE x) as (A & B & _). split; [|exact A]. rewrite B. destruct x as [| | |s m e Hb]; try reflexivity; try discriminate F.
  destruct s; [|reflexivity]. exfalso. cbn [B2R] in H. assert (F2R (Float radix2 (cond_Zopp true (Z.pos m)) e) < 0) by (apply F2R_lt_0; cbn; lia). lra.
Qed.
Lemma int_ok_ z : (0 <= z <= 2 ^ 53)%Z -> is_finite (dint z) = true /\ B2R (dint z) = IZR z.
Proof.
  intros H. destruct (of_int_ok 53 1024 H3 H70 z) as (A & B).
  - apply inr. rewrite Rabs_pos_eq by (apply IZR_le; lia). apply Rle_trans with (bpow radix2 53); [change (bpow radix2 53) with (IZR (2 ^ 53)); apply IZR_le; lia|].
    unfold big. replace 4 with (bpow radix2 2) by (cbn; lra). rewrite <- bpow_plus. apply bpow_le. lia.
  - split; [exact A|]. unfold dint. rewrite B. apply round_generic; [typeclasses eauto|]. replace (IZR z) with (F2R (Float radix2 z 0)) by (unfold F2R; cbn; ring).
    apply generic_format_FLT. destruct (Z.eq_dec z (2 ^ 53)) as [->|N].
    + exists (Float radix2 1 53); [unfold F2R; cbn; ring|cbn; lia|cbn; lia].
    + exists (Float radix2 z 0); [reflexivity|cbn [Fnum]; rewrite Z.abs_eq by lia; change (radix2 ^ 53)%Z with (2 ^ 53)%Z; lia|cbn; lia].
Qed.
Lemma int_m1 : is_finite (dint (-1)) = true /\ B2R (dint (-1)) = -1.
Proof. assert (E : dint (-1) = dopp (dint 1)) by (apply B2SF_inj; vm_compute; reflexivity). rewrite E. destruct (int_ok_ 1 ltac:(lia)) as (A & B). destruct (opp_ok _ A) as (C & D). rewrite B in D. split; [exact C|lra]. Qed.
Lemma int_m2 : is_finite (dint (-2)) = true /\ B2R (dint (-2)) = -2.
Proof. assert (E : dint (-2) = dopp (dint 2)) by (apply B2SF_inj; vm_compute; reflexivity). rewrite E. destruct (int_ok_ 2 ltac:(lia)) as (A & B). destruct (opp_ok _ A) as (C & D). rewrite B in D. split; [exact C|lra]. Qed.
Lemma half_ok : is_finite (ddiv (dint 1) (dint 2)) = true /\ B2R (ddiv (dint 1) (dint 2)) = / 2.
Proof.
  destruct (int_ok_ 1 ltac:(lia)) as (A & B). destruct (int_ok_ 2 ltac:(lia)) as (A2 & B2). destruct (div_ok (dint 1) (dint 2) A) as (C & D).
  - rewrite B2. lra.
  - rewrite B, B2. rewrite Rabs_pos_eq by lra. assert (bpow radix2 0 <= big) by (apply bpow_le; lia). change (bpow radix2 0) with 1 in H. lra.
  - split; [exact C|]. rewrite D, B, B2. replace (1 / 2) with (bpow radix2 (-1)) by (cbn; lra). rewrite round_generic; [cbn; lra|typeclasses eauto|]. apply (fmt_bpow 53 1024 H3 H70). lia.
Qed.

Lemma bpow_range a b x y n m : bpow radix2 a <= x <= bpow radix2 n -> bpow radix2 b <= y <= bpow radix2 m -> bpow radix2 (a + b) <= x * y <= bpow radix2 (n + m).
Proof. intros X Y. pose proof (bpow_gt_0 radix2 a). pose proof (bpow_gt_0 radix2 b). rewrite !bpow_plus. split; apply Rmult_le_compat; lra. Qed.
Lemma bpow_widen a a' b b' x : (a' <= a)%Z -> (b <= b')%Z -> bpow radix2 a <= x <= bpow radix2 b -> bpow radix2 a' <= x <= bpow radix2 b'.
Proof. intros A B H. pose proof (bpow_le radix2 _ _ A). pose proof (bpow_le radix2 _ _ B). lra. Qed.
Lemma lc_range a b k x y : lc k x y -> k <= / 2 -> bpow radix2 a <= y <= bpow radix2 b -> bpow radix2 (a - 1) <= x <= bpow radix2 (b + 1).
Proof.
  intros H K R. pose proof (lc_bounds k x y H K). replace (bpow radix2 (a - 1)) with (bpow radix2 a / 2) by (unfold Z.sub; rewrite bpow_plus; cbn; field). replace (bpow radix2 (b + 1)) with (2 * bpow radix2 b) by (rewrite bpow_plus; cbn; ring). lra.
Qed.
Lemma rnd_lc k v x : lc k v x -> k <= / 2 -> bpow radix2 (-1010) <= x <= bpow radix2 1000 -> Rabs v <= 4 * big /\ lc (k + q) (rnd v) x.
Proof.
  intros H K R. pose proof (lc_range _ _ _ _ _ H K R) as V. pose proof H as (P & _). split.
  - rewrite Rabs_pos_eq by lra. apply Rle_trans with (1 := proj2 V). unfold big. change (1000 + 1)%Z with (1 + 1000)%Z. rewrite bpow_plus. pose proof (bpow_gt_0 radix2 1000). change (bpow radix2 1) with 2. lra.
  - replace (k + q) with (q + k) by ring. apply lc_trans with v; [|exact H]. apply lc_rnd. apply Rle_trans with (2 := proj1 V). apply bpow_le. lia.
Qed.
Lemma mul_lc (X Y : double) a b x y : is_finite X = true -> is_finite Y = true -> lc a (B2R X) x -> lc b (B2R Y) y -> a + b <= / 2 -> bpow radix2 (-1010) <= x * y <= bpow radix2 1000 ->
  is_finite (dmul X Y) = true /\ lc (a + b + q) (B2R (dmul X Y)) (x * y).
Proof.
  intros FX FY HX HY K R. destruct (rnd_lc _ _ _ (lc_mul _ _ _ _ _ _ HX HY) K R) as (M & C). destruct (mul_ok X Y FX FY M) as (A & B). split; [exact A|]. rewrite B. exact C.
Qed.
Lemma div_lc (X Y : double) a b x y : is_finite X = true -> is_finite Y = true -> lc a (B2R X) x -> lc b (B2R Y) y -> a + b <= / 2 -> bpow radix2 (-1010) <= x / y <= bpow radix2 1000 ->
  is_finite (ddiv X Y) = true /\ lc (a + b + q) (B2R (ddiv X Y)) (x / y).
Proof.
  intros FX FY HX HY K R. destruct (rnd_lc _ _ _ (lc_div _ _ _ _ _ _ HX HY) K R) as (M & C). pose proof HY as (PY & _). assert (NY : B2R Y <> 0) by lra. destruct (div_ok X Y FX NY M) as (A & B). split; [exact A|]. rewrite B. exact C.
Qed.

(** ** Logarithms *)
Lemma ln_le x y : 0 < x -> x <= y -> ln x <= ln y.
Proof. intros H [L|E]; [left; apply ln_increasing; assumption|right; rewrite E; reflexivity]. Qed.
Lemma ln2_up : ln 2 <= 3 / 4.
Proof.
  assert (E : 2 <= exp (3 / 4)).
  { pose proof (exp_1m (3 / 32)) as H. replace (3 / 4) with (3/32 + 3/32 + (3/32 + 3/32) + (3/32 + 3/32 + (3/32 + 3/32))) by field. rewrite !exp_plus.
    assert (A : 1.19 <= exp (3/32) * exp (3/32)) by nra. assert (B : 1.416 <= exp (3/32) * exp (3/32) * (exp (3/32) * exp (3/32))) by nra. nra. }
  rewrite <- (ln_exp (3 / 4)). apply ln_le; lra.
Qed.
Lemma ln_bpow n : ln (bpow radix2 n) = IZR n * ln 2.
Proof. rewrite bpow_powerRZ. rewrite powerRZ_Rpower by (cbn; lra). unfold Rpower. rewrite ln_exp. reflexivity. Qed.
Lemma ln2_pos : 0 < ln 2. Proof. rewrite <- ln_1. apply ln_increasing; lra. Qed.
Lemma ln_ge_53 x : q / 2 <= x -> - 40 <= ln x.
Proof.
  intros H. rewrite <- u_eq in H. pose proof (ln_le (bpow radix2 (-53)) x (bpow_gt_0 _ _) H) as E. rewrite ln_bpow in E. pose proof ln2_up. lra.
Qed.
Lemma neg_ln_ge x : 0 < x <= 1 - q / 2 -> q / 2 <= - ln x.
Proof. intros H. pose proof (ln_up x (proj1 H)). lra. Qed.
Lemma exp_bpow x n : 0 <= x <= IZR n -> exp x <= bpow radix2 (2 * n).
Proof.
  intros H. apply Rle_trans with (exp (IZR n)); [apply exp_le; lra|]. apply Rle_trans with (exp (ln (bpow radix2 (2 * n)))); [apply exp_le|rewrite exp_ln; [lra|apply bpow_gt_0]].
  rewrite ln_bpow, mult_IZR. assert (L : / 2 <= ln 2). { pose proof (ln_lo 2 ltac:(lra)). lra. } nra.
Qed.
Lemma exp_range x n : - IZR n <= x <= IZR n -> bpow radix2 (- (2 * n)) <= exp x <= bpow radix2 (2 * n).
Proof.
  intros H. assert (N : 0 <= IZR n) by lra. split.
  - rewrite bpow_opp. replace (exp x) with (/ exp (- x)) by (rewrite exp_Ropp, Rinv_inv; reflexivity). destruct (Rle_dec 0 (- x)) as [P|P].
    + apply Rinv_le_contravar; [apply exp_pos|apply exp_bpow; lra].
    + apply Rle_trans with 1; [|rewrite <- exp_Ropp, <- exp_0; apply exp_le; lra]. rewrite <- Rinv_1. apply Rinv_le_contravar; [lra|]. rewrite <- exp_0. apply exp_bpow. lra.
  - destruct (Rle_dec 0 x) as [P|P]; [apply exp_bpow; lra|]. apply Rle_trans with 1; [rewrite <- exp_0; apply exp_le; lra|]. rewrite <- exp_0. apply exp_bpow. lra.
Qed.

(** ** The uniform variates *)
Lemma below_1 (x : double) : B2R x < 1 -> B2R x <= 1 - q / 2.
Proof. intros H. rewrite <- u_eq. change (bpow radix2 (-53)) with (bpow radix2 (- (53))). rewrite <- (pred_1 53 1024 H3 H70). apply pred_ge_gt; [typeclasses eauto|apply (fmt_B2R 53 1024 H3 H70)|apply (fmt_1 53 1024 H3 H70)|exact H]. Qed.

Lemma oc_range D r : (1 <= D < 2 ^ 64)%Z -> (0 <= r <= D)%Z -> is_finite (uniformoc 53 1024 D r) = true /\ q / 2 <= B2R (uniformoc 53 1024 D r) <= 1.
Proof.
  intros HD Hr. destruct (uniformoc_ok 53 1024 fmt53 D r HD Hr) as (A & B). split; [exact A|]. split; [|lra]. destruct (oc_val 53 1024 fmt53 D HD r Hr) as (E & C). rewrite E. change (bpow radix2 (- (53))) with (bpow radix2 (-53)) in C.
  rewrite <- u_eq. apply (rnd_ge_fmt 53 1024 H3 H70); [apply (fmt_bpow 53 1024 H3 H70); lia|lra].
Qed.
Lemma oo_range D r : (1 <= D < 2 ^ 64)%Z -> (0 <= r <= D)%Z -> (2 <= domain_max 53 D 1)%Z -> B2R (uniformoo 53 1024 D r) < 1 -> is_finite (uniformoo 53 1024 D r) = true /\ q <= B2R (uniformoo 53 1024 D r) <= 1 - q / 2.
Proof.
  intros HD Hr HM H. destruct (oo_val 53 1024 fmt53 D HD HM r Hr) as (w & E & F & W & _). split; [exact F|]. split; [|apply below_1, H]. rewrite E.
  destruct (eps_ok 53 1024 fmt53 D 1 HD nil (one_call 53 1024 fmt53 D HD)) as (_ & P). change (bpow radix2 (- (53))) with (bpow radix2 (-53)) in P. rewrite u_eq in P.
  apply (rnd_ge_fmt 53 1024 H3 H70); [replace q with (bpow radix2 (-52)) by (unfold q; cbn; lra); apply (fmt_bpow 53 1024 H3 H70); lia|lra].
Qed.

(** ** The mathematical library *)
Lemma scale_pos x : scale x -> 0 < B2R x.
Proof. intros (_ & H). pose proof (bpow_gt_0 radix2 (-300)). lra. Qed.

Section Draws.
Variable L : libm.
Hypothesis HL : accurate L.

Lemma ln_core X : is_finite X = true -> 0 < B2R X <= 1 -> is_finite (m_ln L X) = true /\
  ((B2R X = 1 /\ B2R (m_ln L X) = 0) \/ (B2R X <= 1 - q / 2 /\ q / 2 <= - ln (B2R X) /\ lc (4 * q) (- B2R (m_ln L X)) (- ln (B2R X)))).
Proof.
  intros F H. destruct (acc_ln L HL X F (proj1 H)) as (A & B). split; [exact A|]. destruct (Req_dec (B2R X) 1) as [E|N].
  - left. split; [exact E|]. rewrite E, ln_1, Rabs_R0 in B. apply Rabs_le_inv in B. lra.
  - right. assert (U : B2R X <= 1 - q / 2) by (apply below_1; lra). split; [exact U|]. pose proof (neg_ln_ge (B2R X) ltac:(lra)) as G. split; [exact G|]. pose proof q_pos.
    replace (4 * q) with (2 * / 2 ^ 51) by (unfold q; field). apply lc_rel; [lra|lra|]. rewrite (Rabs_left1 (ln (B2R X))) in B by lra. rewrite <- Rabs_Ropp. replace (- (- B2R (m_ln L X) - - ln (B2R X))) with (B2R (m_ln L X) - ln (B2R X)) by ring. exact B.
Qed.
(** e in [2^-53, 40] as powers of two *)
Lemma e_range e : q / 2 <= e <= 40 -> bpow radix2 (-53) <= e <= bpow radix2 6.
Proof. intros H. rewrite u_eq. change (bpow radix2 6) with 64. lra. Qed.

Lemma exp_core mu X : scale mu -> is_finite X = true -> q / 2 <= B2R X <= 1 -> let v := dmul (dopp mu) (m_ln L X) in
  is_finite v = true /\ 0 <= B2R v /\ Rabs (exp (- (B2R v / B2R mu)) - B2R X) <= 20 * q.
Proof.
  intros Hmu FX HX v. pose proof (scale_pos mu Hmu) as Pmu. destruct Hmu as (Fmu & Rmu). pose proof q_pos as Q. destruct (ln_core X FX ltac:(lra)) as (FL & [(E & Z)|(U & G & C)]).
  - destruct (opp_ok mu Fmu) as (O1 & O2). destruct (mul_ok (dopp mu) (m_ln L X) O1 FL) as (M1 & M2); [rewrite Z, Rmult_0_r, Rabs_R0; pose proof (bpow_gt_0 radix2 1000); unfold big; lra|].
    fold v in M1, M2. rewrite Z, Rmult_0_r, round_0 in M2 by typeclasses eauto. split; [exact M1|]. rewrite M2. split; [lra|]. unfold Rdiv. rewrite Rmult_0_l, Ropp_0, exp_0, E, (Rminus_diag_eq _ _ eq_refl), Rabs_R0. lra.
  - pose proof (ln_ge_53 (B2R X) (proj1 HX)) as L40. set (e := - ln (B2R X)) in *. assert (He : q / 2 <= e <= 40) by (unfold e in *; lra). pose proof (e_range e He) as Re.
    destruct (opp_ok mu Fmu) as (O1 & O2). destruct (rnd_lc (4 * q) (B2R mu * - B2R (m_ln L X)) (B2R mu * e)) as (M & C').
    + replace (4 * q) with (0 + 4 * q) by ring. apply lc_mul; [apply lc_refl, Pmu|exact C].
    + lra.
    + apply bpow_widen with (-300 + -53)%Z (300 + 6)%Z; [lia|lia|]. apply bpow_range; assumption.
    + destruct (mul_ok (dopp mu) (m_ln L X) O1 FL) as (M1 & M2); [rewrite O2; replace (- B2R mu * B2R (m_ln L X)) with (B2R mu * - B2R (m_ln L X)) by ring; exact M|]. fold v in M1, M2. rewrite O2 in M2.
      replace (- B2R mu * B2R (m_ln L X)) with (B2R mu * - B2R (m_ln L X)) in M2 by ring. rewrite <- M2 in C'. split; [exact M1|]. split; [left; apply C'|].
      assert (S : lc (5 * q) (B2R v / B2R mu) e). { replace e with (B2R mu * e / B2R mu) by (field; lra). replace (5 * q) with (4 * q + q + 0) by ring. apply lc_div; [exact C'|apply lc_refl, Pmu]. }
      pose proof (lc_abs _ _ _ S ltac:(lra)) as A. replace (B2R X) with (exp (- e)) by (unfold e; rewrite Ropp_involutive; apply exp_ln; lra).
      replace (20 * q) with (2 * (10 * q) + 2 * 0) by ring. assert (QE : q * e <= q * 40) by (apply Rmult_le_compat_l; lra). apply exp_back; lra.
Qed.
End Draws.
