(** Backward errors of the draws of tent_dist and cauchy_dist. *)
From Coq Require Import ZArith Bool List Reals Lia Lra Psatz Machin.
From Coquelicot Require Import Coquelicot.
From Flocq Require Import Core Sterbenz Mult_error IEEE754.BinarySingleNaN.
From Verif Require Import FloatFacts UniformModel UniformProofs UnifAccProofs FloatDrawModel FloatDrawSpec FloatDrawProofs FloatDrawCore FloatDrawLoc.
Local Open Scope R_scope.
Notation rnd := (round radix2 (SpecFloat.fexp 53 1024) ZnearestE).

(** ** tent *)
Lemma tent_mono_lip a b : a <= b -> 0 <= tent_F b - tent_F a <= b - a.
Proof.
  intros H. unfold tent_F.
  destruct (Rle_dec a (-1)), (Rle_dec b (-1)); try lra.
  - destruct (Rle_dec b 0); [split; nra|]. destruct (Rle_dec b 1); [split; nra|lra].
  - destruct (Rle_dec a 0), (Rle_dec b 0); try lra; [split; nra| |].
    + destruct (Rle_dec b 1); [split; nra|split; nra].
    + destruct (Rle_dec a 1), (Rle_dec b 1); try lra; split; nra.
Qed.
Lemma tent_lip a b : Rabs (tent_F a - tent_F b) <= Rabs (a - b).
Proof. destruct (Rle_dec a b) as [H|H]; [pose proof (tent_mono_lip a b H); rewrite !Rabs_left1; lra|pose proof (tent_mono_lip b a ltac:(lra)); rewrite !Rabs_pos_eq; lra]. Qed.

Lemma fmt_2 : generic_format radix2 (SpecFloat.fexp 53 1024) 2. Proof. change 2 with (bpow radix2 1). apply (fmt_bpow 53 1024 H3_64 H70_64). lia. Qed.
Lemma fmt_double x : generic_format radix2 (SpecFloat.fexp 53 1024) x -> generic_format radix2 (SpecFloat.fexp 53 1024) (2 * x).
Proof.
  intros H. rewrite Rmult_comm. change 2 with (bpow radix2 1). change (SpecFloat.fexp 53 1024) with (FLT_exp (-1074) 53) in *. apply mult_bpow_pos_exact_FLT; [exact H|lia].
Qed.
Lemma sqrt_01 x : 0 <= x <= 1 -> 0 <= sqrt x <= 1. Proof. intros H. split; [apply sqrt_pos|]. rewrite <- sqrt_1. apply sqrt_le_1_alt. lra. Qed.
Lemma big_10 : 1000 <= big. Proof. apply Rle_trans with (bpow radix2 10); [cbn; lra|apply bpow_le; lia]. Qed.

(** the scaled argument a of  a d + m *)
Lemma tent_arg x (Y : double) (s : bool) : is_finite Y = true -> 0 <= B2R Y <= 1 -> let A := if s then dadd (dint (-1)) (dsqrt Y) else dsub (dint 1) (dsqrt Y) in let a := if s then -1 + sqrt (B2R Y) else 1 - sqrt (B2R Y) in
  x = a -> is_finite A = true /\ Rabs (B2R A) <= 1 /\ Rabs (B2R A - x) <= 3 * q.
Proof.
  intros F R A a ->. pose proof q_pos as Q. pose proof tiny_q as TQ. pose proof tiny_pos as T0. pose proof (sqrt_01 _ R) as S. pose proof big_10 as B. pose proof (fmt_1 53 1024 H3_64 H70_64) as F1. assert (FM1 : generic_format radix2 (SpecFloat.fexp 53 1024) (-1)) by (apply generic_format_opp; exact F1).
  destruct (sqrt_ok Y F (proj1 R)) as (Q1 & Q2). pose proof (rnd_err (sqrt (B2R Y))) as E. rewrite <- Q2 in E. rewrite (Rabs_pos_eq (sqrt (B2R Y))) in E by lra. assert (q / 2 * sqrt (B2R Y) <= q / 2 * 1) by (apply Rmult_le_compat_l; lra).
  assert (R2 : 0 <= B2R (dsqrt Y) <= 1) by (rewrite Q2; split; [apply (rnd_ge_0 53 1024 H3_64 H70_64); lra|apply (rnd_le_fmt 53 1024 H3_64 H70_64); [exact F1|lra]]). apply Rabs_le_inv in E.
  unfold A, a. destruct s.
  - destruct int_m1 as (I1 & I2). destruct (add_ok (dint (-1)) (dsqrt Y) I1 Q1) as (A1 & A2); [rewrite I2, Rabs_left1; lra|]. rewrite I2 in A2. pose proof (rnd_err (-1 + B2R (dsqrt Y))) as E2. rewrite <- A2 in E2. rewrite (Rabs_left1 (-1 + B2R (dsqrt Y))) in E2 by lra. assert (q / 2 * - (-1 + B2R (dsqrt Y)) <= q / 2 * 1) by (apply Rmult_le_compat_l; lra). apply Rabs_le_inv in E2.
    split; [exact A1|]. split; [|apply Rabs_le; lra]. rewrite A2. apply Rabs_le. split; [apply (rnd_ge_fmt 53 1024 H3_64 H70_64); [exact FM1|lra]|apply (rnd_le_fmt 53 1024 H3_64 H70_64); [exact F1|lra]].
  - destruct (int_ok_ 1 ltac:(lia)) as (I1 & I2). destruct (sub_ok (dint 1) (dsqrt Y) I1 Q1) as (A1 & A2); [rewrite I2, Rabs_pos_eq; lra|]. rewrite I2 in A2. pose proof (rnd_err (1 - B2R (dsqrt Y))) as E2. rewrite <- A2 in E2. rewrite (Rabs_pos_eq (1 - B2R (dsqrt Y))) in E2 by lra. assert (q / 2 * (1 - B2R (dsqrt Y)) <= q / 2 * 1) by (apply Rmult_le_compat_l; lra). apply Rabs_le_inv in E2.
    split; [exact A1|]. split; [|apply Rabs_le; lra]. rewrite A2. apply Rabs_le. split; [apply (rnd_ge_fmt 53 1024 H3_64 H70_64); [exact FM1|lra]|apply (rnd_le_fmt 53 1024 H3_64 H70_64); [exact F1|lra]].
Qed.
Lemma tent_place m d (A : double) : location m -> scale d -> is_finite A = true -> Rabs (B2R A) <= 1 -> let v := dadd (dmul A d) m in
  is_finite v = true /\ B2R (dsub m d) <= B2R v <= B2R (dadd m d) /\ Rabs ((B2R v - B2R m) / B2R d - B2R A) <= (2 + Rabs (B2R m) / B2R d) * q.
Proof.
  intros (Fm & Rm) Hd FA RA v. pose proof (scale_pos d Hd) as Pd. pose proof Hd as (Fd & Rd). pose proof (Rabs_pos (B2R A)) as PA. assert (B : bpow radix2 300 + bpow radix2 300 <= big) by (pose proof big_370; pose proof (bpow_gt_0 radix2 300); assert (bpow radix2 300 <= bpow radix2 370) by (apply bpow_le; lia); lra).
  assert (AD : Rabs (B2R A * B2R d) <= B2R d) by (rewrite Rabs_mult, (Rabs_pos_eq (B2R d)) by lra; assert (Rabs (B2R A) * B2R d <= 1 * B2R d) by (apply Rmult_le_compat_r; lra); lra). apply Rabs_le_inv in Rm. pose proof (bpow_gt_0 radix2 300) as P300. pose proof (Rabs_le_inv _ _ AD) as AD'.
  destruct (mul_ok A d FA Fd ltac:(lra)) as (M1 & M2). pose proof (fmt_B2R 53 1024 H3_64 H70_64 d) as Fd'. assert (Fd2 : generic_format radix2 (SpecFloat.fexp 53 1024) (- B2R d)) by (apply generic_format_opp; exact Fd').
  assert (WR : - B2R d <= B2R (dmul A d) <= B2R d) by (rewrite M2; split; [apply (rnd_ge_fmt 53 1024 H3_64 H70_64); [exact Fd2|lra]|apply (rnd_le_fmt 53 1024 H3_64 H70_64); [exact Fd'|lra]]).
  destruct (add_ok (dmul A d) m M1 Fm ltac:(apply Rabs_le; lra)) as (V1 & V2). fold v in V1, V2. destruct (sub_ok m d Fm Fd ltac:(apply Rabs_le; lra)) as (_ & S2). destruct (add_ok m d Fm Fd ltac:(apply Rabs_le; lra)) as (_ & A2).
  split; [exact V1|]. split; [rewrite V2, S2, A2; split; apply (rnd_le 53 1024 H3_64 H70_64); lra|].
  replace 2 with (1 + 1) by ring. apply affine_err with (B2R (dmul A d)); [exact Pd| | |apply tiny_scale, Hd|exact RA|lra].
  - rewrite (Rmult_comm (B2R d)), M2. apply rnd_err.
  - rewrite (Rplus_comm (B2R m)), V2. apply rnd_err.
Qed.
Lemma tent_core m d X : location m -> scale d -> is_finite X = true -> 0 <= B2R X <= 1 -> let v := tent_ficdf m d X in
  is_finite v = true /\ B2R (dsub m d) <= B2R v <= B2R (dadd m d) /\ Rabs (tent_F ((B2R v - B2R m) / B2R d) - B2R X) <= (5 + Rabs (B2R m) / B2R d) * q.
Proof.
  intros Hm Hd F R. cbv zeta. destruct half_ok as (Fh & Vh). destruct (int_ok_ 2 ltac:(lia)) as (I1 & I2). pose proof big_10 as B. pose proof (fmt_B2R 53 1024 H3_64 H70_64 X) as FX.
  destruct (mul_ok (dint 2) X I1 F) as (M1 & M2); [rewrite I2, Rabs_pos_eq; lra|]. rewrite I2 in M2. rewrite (rnd_fmt 53 1024 H3_64 H70_64 _ (fmt_double _ FX)) in M2.
  assert (K : exists A, tent_ficdf m d X = dadd (dmul A d) m /\ is_finite A = true /\ Rabs (B2R A) <= 1 /\ exists z, tent_F z = B2R X /\ Rabs (B2R A - z) <= 3 * q).
  { unfold tent_ficdf. rewrite (Bltb_correct _ _ X _ F Fh), Vh. destruct (Rlt_bool_spec (B2R X) (/ 2)) as [H|H].
    - destruct (tent_arg _ (dmul (dint 2) X) true M1 ltac:(lra) eq_refl) as (T1 & T2 & T3). eexists. split; [reflexivity|]. split; [exact T1|]. split; [exact T2|]. rewrite M2 in T3. exists (-1 + sqrt (2 * B2R X)). split; [|exact T3].
      pose proof (sqrt_01 (2 * B2R X) ltac:(lra)) as S. pose proof (sqrt_sqrt (2 * B2R X) ltac:(lra)) as SS. unfold tent_F. destruct (Rle_dec _ _) as [C|C]; [assert (Z : sqrt (2 * B2R X) = 0) by lra; rewrite Z in SS; lra|]. destruct (Rle_dec _ _) as [C2|C2]; [|lra]. replace (1 + (-1 + sqrt (2 * B2R X))) with (sqrt (2 * B2R X)) by ring. rewrite SS. field.
    - destruct (sub_ok (dint 2) (dmul (dint 2) X) I1 M1) as (S1 & S2); [rewrite I2, M2, Rabs_pos_eq; lra|]. rewrite I2, M2 in S2. rewrite (rnd_fmt 53 1024 H3_64 H70_64) in S2.
      2:{ change (SpecFloat.fexp 53 1024) with (FLT_exp (-1074) 53) in *. apply sterbenz; [typeclasses eauto|typeclasses eauto|exact fmt_2|apply fmt_double; exact FX|lra]. }
      destruct (tent_arg _ (dsub (dint 2) (dmul (dint 2) X)) false S1 ltac:(lra) eq_refl) as (T1 & T2 & T3). eexists. split; [reflexivity|]. split; [exact T1|]. split; [exact T2|]. rewrite S2 in T3. exists (1 - sqrt (2 - 2 * B2R X)). split; [|exact T3].
      pose proof (sqrt_01 (2 - 2 * B2R X) ltac:(lra)) as S. pose proof (sqrt_sqrt (2 - 2 * B2R X) ltac:(lra)) as SS. unfold tent_F. destruct (Rle_dec _ _) as [C|C]; [lra|]. destruct (Rle_dec _ _) as [C2|C2]. 
      + assert (Z : sqrt (2 - 2 * B2R X) = 1) by lra. rewrite Z in *. lra.
      + destruct (Rle_dec _ _) as [C3|C3]; [|lra]. replace (1 - (1 - sqrt (2 - 2 * B2R X))) with (sqrt (2 - 2 * B2R X)) by ring. rewrite SS. field. }
  destruct K as (A & -> & FA & RA & z & Ez & Dz). destruct (tent_place m d A Hm Hd FA RA) as (P1 & P2 & P3). split; [exact P1|]. split; [exact P2|]. rewrite <- Ez. apply Rle_trans with (1 := tent_lip _ _).
  replace ((B2R (dadd (dmul A d) m) - B2R m) / B2R d - z) with (((B2R (dadd (dmul A d) m) - B2R m) / B2R d - B2R A) + (B2R A - z)) by ring. apply Rle_trans with (1 := Rabs_triang _ _). lra.
Qed.

(** ** cauchy *)
(* Machin's series, each term rounded down to a multiple of 10^-24 *)
Definition pi_num (i : nat) : Z := ((if Nat.even i then 1 else -1) * (2 * 7 ^ (2 * Z.of_nat i + 1) + 3 ^ (2 * Z.of_nat i + 1)))%Z.
Definition pi_den (i : nat) : Z := ((2 * Z.of_nat i + 1) * 21 ^ (2 * Z.of_nat i + 1))%Z.
Fixpoint pi_sum (n : nat) : Z := ((match n with O => 0 | S k => pi_sum k end) + 10 ^ 24 * pi_num n / pi_den n)%Z.
Lemma pi_den_pos i : (0 < pi_den i)%Z.
Proof. unfold pi_den. apply Z.mul_pos_pos; [lia|]. apply Z.pow_pos_nonneg; lia. Qed.
Lemma pi_term i : tg_alt PI_2_3_7_tg i = IZR (pi_num i) / IZR (pi_den i).
Proof.
  unfold tg_alt, PI_2_3_7_tg, Ratan_seq, pi_num, pi_den.
  assert (E : (2 * Z.of_nat i + 1)%Z = Z.of_nat (2 * i + 1)) by lia. rewrite E. rewrite (INR_IZR_INZ (2 * i + 1)), !mult_IZR, plus_IZR, mult_IZR. rewrite <- !pow_IZR. set (m := (2 * i + 1)%nat).
  assert (M : IZR (Z.of_nat m) <> 0) by (apply IZR_neq; unfold m; lia).
  assert (S : (-1) ^ i = IZR (if Nat.even i then 1 else -1)).
  { clear. induction i as [|i IH]; [reflexivity|]. cbn [pow]. rewrite IH, Nat.even_succ, <- Nat.negb_even. destruct (Nat.even i); cbn [negb]; lra. }
  rewrite S. assert (P : 21 ^ m = 3 ^ m * 7 ^ m) by (rewrite <- Rpow_mult_distr; f_equal; lra). rewrite P, !pow_inv by lra. field. repeat split; try exact M; apply pow_nonzero; lra.
Qed.
Lemma pi_sum_ok n : IZR (pi_sum n) <= 10 ^ 24 * sum_f_R0 (tg_alt PI_2_3_7_tg) n <= IZR (pi_sum n) + INR (S n).
Proof.
  assert (T : forall i, IZR (10 ^ 24 * pi_num i / pi_den i) <= 10 ^ 24 * tg_alt PI_2_3_7_tg i <= IZR (10 ^ 24 * pi_num i / pi_den i) + 1).
  { intros i. rewrite pi_term. pose proof (pi_den_pos i) as D. pose proof (Z.mul_div_le (10 ^ 24 * pi_num i) _ D) as L. pose proof (Z.mul_succ_div_gt (10 ^ 24 * pi_num i) _ D) as G.
    set (f := (10 ^ 24 * pi_num i / pi_den i)%Z) in *. assert (DR : 0 < IZR (pi_den i)) by (apply IZR_lt; exact D). apply IZR_le in L. apply Z.lt_le_incl, IZR_le in G. rewrite !mult_IZR in L, G. rewrite succ_IZR in G.
    replace (IZR (10 ^ 24)) with (10 ^ 24) in L, G by (change (10 ^ 24)%Z with 1000000000000000000000000%Z; lra).
    replace (10 ^ 24 * (IZR (pi_num i) / IZR (pi_den i))) with (10 ^ 24 * IZR (pi_num i) / IZR (pi_den i)) by (field; lra).
    split; apply Rmult_le_reg_r with (IZR (pi_den i)); try exact DR; replace (10 ^ 24 * IZR (pi_num i) / IZR (pi_den i) * IZR (pi_den i)) with (10 ^ 24 * IZR (pi_num i)) by (field; lra); lra. }
  induction n as [|n IH].
  - cbn [pi_sum sum_f_R0 INR]. rewrite Z.add_0_l. apply T.
  - cbn [pi_sum sum_f_R0]. rewrite plus_IZR. specialize (T (S n)). rewrite (S_INR (S n)). rewrite Rmult_plus_distr_l. cbn [Nat.add] in *. lra.
Qed.
Lemma PI_18 : 3141592653589793238 / 1000000000000000000 < PI < 3141592653589793239 / 1000000000000000000.
Proof.
  destruct (PI_2_3_7_ineq 10) as (L & U). change (S (2 * 10)) with 21%nat in L. change (2 * 10)%nat with 20%nat in U. pose proof (proj1 (pi_sum_ok 21)) as A. pose proof (proj2 (pi_sum_ok 20)) as B.
  replace (INR 21) with 21 in B by (rewrite INR_IZR_INZ; reflexivity).
  let x := eval vm_compute in (pi_sum 21) in assert (E1 : pi_sum 21 = x) by (vm_compute; reflexivity). let x := eval vm_compute in (pi_sum 20) in assert (E2 : pi_sum 20 = x) by (vm_compute; reflexivity).
  rewrite E1 in A. rewrite E2 in B. lra.
Qed.
Lemma dpi_ok : is_finite dpi = true /\ B2R dpi = 7074237752028440 / 2251799813685248.
Proof.
  destruct (int_ok_ 7074237752028440 ltac:(lia)) as (A1 & A2). destruct (int_ok_ 2251799813685248 ltac:(lia)) as (B1 & B2). pose proof big_10 as B. unfold dpi.
  destruct (div_ok (dint 7074237752028440) (dint 2251799813685248) A1) as (C & D); [rewrite B2; lra|rewrite A2, B2, Rabs_pos_eq; lra|]. split; [exact C|]. rewrite D, A2, B2. apply (rnd_fmt 53 1024 H3_64 H70_64).
  change (SpecFloat.fexp 53 1024) with (FLT_exp (-1074) 53). apply generic_format_FLT. exists (Float radix2 7074237752028440 (-51)); [unfold F2R; cbn; lra|cbn; lia|cbn; lia].
Qed.
Lemma dpi_near : q / 4 <= PI - B2R dpi <= q.
Proof. rewrite (proj2 dpi_ok). pose proof PI_18. unfold q. lra. Qed.

Lemma sin_half t : 0 <= t <= PI / 3 -> t / 2 <= sin t.
Proof.
  intros H. destruct (MVT_gen sin 0 t cos) as (c & C & E).
  - intros x _. auto_derive; [exact I|]. ring.
  - intros x _. apply continuity_pt_filterlim. apply continuous_sin.
  - rewrite sin_0, !Rminus_0_r in E. rewrite E. rewrite Rmin_left, Rmax_right in C by lra. assert (/ 2 <= cos c). { replace (/ 2) with (1 / 2) by field. rewrite <- cos_PI3. apply cos_decr_1; pose proof PI_RGT_0; lra. } nra.
Qed.
Lemma sin_low t : 0 <= t <= PI -> Rmin t (PI - t) / 4 <= sin t.
Proof.
  intros H. pose proof PI_18 as P. destruct (Rle_dec t (PI / 3)) as [C|C].
  - pose proof (sin_half t ltac:(lra)). pose proof (Rmin_l t (PI - t)). lra.
  - destruct (Rle_dec (PI - t) (PI / 3)) as [C2|C2].
    + pose proof (sin_half (PI - t) ltac:(lra)) as S. rewrite sin_PI_x in S. pose proof (Rmin_r t (PI - t)). lra.
    + pose proof (Rmin_l t (PI - t)). pose proof (Rmin_r t (PI - t)). destruct (Rle_dec t (PI / 2)) as [C3|C3].
      * pose proof (sin_half (PI / 3) ltac:(lra)). assert (sin (PI / 3) <= sin t) by (apply sin_incr_1; lra). lra.
      * pose proof (sin_half (PI / 3) ltac:(lra)). assert (sin (PI / 3) <= sin (PI - t)) by (apply sin_incr_1; lra). rewrite sin_PI_x in *. lra.
Qed.

Section Cauchy.
Variable L : libm.
Hypothesis HL : accurate L.

Lemma angle X : is_finite X = true -> q <= B2R X <= 1 -> let t := dmul X dpi in is_finite t = true /\ (2 * q <= B2R t <= B2R dpi /\ B2R t < PI) /\ Rabs (B2R t - B2R X * PI) <= 3 * q /\ q / 16 <= sin (B2R t).
Proof.
  intros F R t. pose proof q_pos as Q. destruct dpi_ok as (P1 & P2). pose proof dpi_near as PN. pose proof PI_18 as PI18. pose proof big_10 as B. remember (B2R dpi) as p eqn:Ep. remember (B2R X) as x eqn:Ex.
  assert (P : 314 / 100 < p < 315 / 100) by lra. assert (XP : 3 * x <= x * p <= 315 / 100 * x) by (split; rewrite (Rmult_comm x); apply Rmult_le_compat_r; lra).
  destruct (mul_ok X dpi F P1) as (M1 & M2); [rewrite <- Ex, <- Ep, Rabs_pos_eq; lra|]. rewrite <- Ex, <- Ep in M2. fold t in M1, M2.
  pose proof (rnd_rel (x * p)) as E. rewrite <- M2 in E. rewrite (Rabs_pos_eq (x * p)) in E by lra. assert (GE : bpow radix2 (-1020) <= x * p). { apply Rle_trans with (bpow radix2 (-52)); [apply bpow_le; lia|]. replace (bpow radix2 (-52)) with q by (unfold q; cbn; lra). lra. }
  specialize (E (or_intror GE)). assert (E2 : q / 2 * (x * p) <= q / 2 * (315 / 100 * x)) by (apply Rmult_le_compat_l; lra). assert (qx : q * x <= q * 1) by (apply Rmult_le_compat_l; lra). assert (qx0 : 0 < q * x) by (apply Rmult_lt_0_compat; lra). pose proof (Rabs_le_inv _ _ E) as E'.
  assert (qx2 : q * x <= / 1000 * x) by (apply Rmult_le_compat_r; lra).
  assert (T : B2R t <= p). { rewrite M2. apply (rnd_le_fmt 53 1024 H3_64 H70_64); [rewrite Ep; apply (fmt_B2R 53 1024 H3_64 H70_64)|]. assert (x * p <= 1 * p) by (apply Rmult_le_compat_r; lra). lra. }
  assert (T0 : 2 * q <= B2R t) by lra. split; [exact M1|]. split; [lra|]. split.
  - assert (D : 0 <= x * PI - x * p <= q * 1). { replace (x * PI - x * p) with (x * (PI - p)) by ring. split; [apply Rmult_le_pos; lra|]. apply Rle_trans with (1 * q); [apply Rmult_le_compat; lra|lra]. } apply Rabs_le. lra.
  - apply Rle_trans with (2 := sin_low (B2R t) ltac:(lra)). assert (q / 4 <= Rmin (B2R t) (PI - B2R t)) by (apply Rmin_glb; lra). lra.
Qed.

(** the quotient theta cos t / sin t *)
Lemma cot_err th (c s C S A B : R) : 0 < th -> 0 < S <= 1 -> Rabs C <= 1 -> tiny / th <= q / 1024 -> q / 16 <= S -> Rabs (c - C) <= q -> Rabs (s - S) <= 2 * q * S ->
  Rabs (A - th * c) <= q / 2 * Rabs (th * c) + tiny -> Rabs (B - A / s) <= q / 2 * Rabs (A / s) + tiny -> Rabs (B / th - C / S) <= 5 * q / S /\ Rabs (B / th) <= 11 / 10 / S.
Proof.
  intros T HS HC HT HSq Hc Hs HA HB. pose proof q_pos as Q. pose proof tiny_pos as T0. assert (IT : 0 < / th) by (apply Rinv_0_lt_compat, T). assert (IS : 1 <= / S) by (rewrite <- Rinv_1; apply Rinv_le_contravar; lra).
  assert (Hc1 : Rabs c <= 1001 / 1000). { replace c with ((c - C) + C) by ring. apply Rle_trans with (1 := Rabs_triang _ _). lra. }
  assert (S1 : 999 / 1000 * S <= s <= 1001 / 1000 * S). { apply Rabs_le_inv in Hs. assert (2 * q * S <= / 1000 * S) by (apply Rmult_le_compat_r; lra). lra. }
  assert (Is : 0 < / s) by (apply Rinv_0_lt_compat; lra). assert (Is2 : / s <= 1002 / 1000 * / S). { apply Rmult_le_reg_r with s; [lra|]. rewrite Rinv_l by lra. apply Rle_trans with (1002 / 1000 * / S * (999 / 1000 * S)); [|apply Rmult_le_compat_l; lra]. replace (1002 / 1000 * / S * (999 / 1000 * S)) with (1002 / 1000 * (999 / 1000)) by (field; lra). lra. }
  set (a := A / th). assert (Ha : Rabs (a - c) <= 6 / 10 * q).
  { unfold a. replace (A / th - c) with ((A - th * c) * / th) by (field; lra). rewrite Rabs_mult, (Rabs_pos_eq (/ th)) by lra. rewrite Rabs_mult, (Rabs_pos_eq th) in HA by lra. apply Rle_trans with ((q / 2 * (th * Rabs c) + tiny) * / th); [apply Rmult_le_compat_r; lra|]. replace ((q / 2 * (th * Rabs c) + tiny) * / th) with (q / 2 * Rabs c + tiny / th) by (field; lra). assert (q / 2 * Rabs c <= q / 2 * (1001 / 1000)) by (apply Rmult_le_compat_l; lra). lra. }
  assert (Ha1 : Rabs a <= 1002 / 1000). { replace a with ((a - c) + c) by ring. apply Rle_trans with (1 := Rabs_triang _ _). lra. }
  assert (AC : Rabs (a - C) <= 16 / 10 * q). { replace (a - C) with ((a - c) + (c - C)) by ring. apply Rle_trans with (1 := Rabs_triang _ _). lra. }
  assert (As : Rabs (a / s) <= 1005 / 1000 * / S). { unfold Rdiv. rewrite Rabs_mult, (Rabs_pos_eq (/ s)) by lra. apply Rle_trans with (1002 / 1000 * (1002 / 1000 * / S)); [apply Rmult_le_compat; try lra; apply Rabs_pos|lra]. }
  assert (Q1 : Rabs (a / s - C / S) <= 38 / 10 * q * / S).
  { replace (a / s - C / S) with (((a - C) - C / S * (s - S)) * / s) by (field; lra). rewrite Rabs_mult, (Rabs_pos_eq (/ s)) by lra.
    assert (N : Rabs (a - C - C / S * (s - S)) <= 36 / 10 * q). { unfold Rminus at 1. apply Rle_trans with (1 := Rabs_triang _ _). rewrite Rabs_Ropp, Rabs_mult. assert (CS : Rabs (C / S) <= / S). { unfold Rdiv. rewrite Rabs_mult, (Rabs_pos_eq (/ S)) by lra. assert (Rabs C * / S <= 1 * / S) by (apply Rmult_le_compat_r; lra). lra. } assert (Rabs (C / S) * Rabs (s - S) <= / S * (2 * q * S)) by (apply Rmult_le_compat; [apply Rabs_pos|apply Rabs_pos|exact CS|exact Hs]). replace (/ S * (2 * q * S)) with (2 * q) in H by (field; lra). lra. }
    apply Rle_trans with (36 / 10 * q * (1002 / 1000 * / S)); [apply Rmult_le_compat; try lra; apply Rabs_pos|]. assert (0 < q * / S) by (apply Rmult_lt_0_compat; lra). lra. }
  assert (Q2 : Rabs (B / th - a / s) <= 6 / 10 * q * / S).
  { replace (B / th - a / s) with ((B - A / s) * / th) by (unfold a; field; lra). rewrite Rabs_mult, (Rabs_pos_eq (/ th)) by lra. replace (A / s) with (th * (a / s)) in HB at 2 by (unfold a; field; lra). rewrite (Rabs_mult th), (Rabs_pos_eq th) in HB by lra.
    apply Rle_trans with ((q / 2 * (th * Rabs (a / s)) + tiny) * / th); [apply Rmult_le_compat_r; lra|]. replace ((q / 2 * (th * Rabs (a / s)) + tiny) * / th) with (q / 2 * Rabs (a / s) + tiny / th) by (field; lra). assert (q / 2 * Rabs (a / s) <= q / 2 * (1005 / 1000 * / S)) by (apply Rmult_le_compat_l; lra). assert (q * 1 <= q * / S) by (apply Rmult_le_compat_l; lra). lra. }
  split.
  - replace (B / th - C / S) with ((B / th - a / s) + (a / s - C / S)) by ring. apply Rle_trans with (1 := Rabs_triang _ _). unfold Rdiv at 5. assert (0 < q * / S) by (apply Rmult_lt_0_compat; lra). lra.
  - replace (B / th) with ((B / th - a / s) + a / s) by ring. apply Rle_trans with (1 := Rabs_triang _ _). assert (q * / S <= / 1000 * / S) by (apply Rmult_le_compat_r; lra). lra.
Qed.

Lemma cauchy_core th et X : scale th -> location et -> is_finite X = true -> q <= B2R X <= 1 -> let v := cauchy_ficdf L th et X in
  is_finite v = true /\ Rabs (/ 2 + atan ((B2R v - B2R et) / B2R th) / PI - B2R X) <= (12 + Rabs (B2R et) / B2R th) * q.
Proof.
  intros Ht He F R v. pose proof q_pos as Q. pose proof tiny_q as TQ. pose proof tiny_pos as T0. pose proof (scale_pos th Ht) as Pt. pose proof (tiny_scale th Ht) as TS. destruct (angle X F R) as (F1 & (A0 & A1) & A2 & A3). rewrite (proj2 dpi_ok) in A0. assert (AR : / 2 ^ 52 <= B2R (dmul X dpi) <= 7074237752028440 / 2251799813685248) by (fold q; lra). unfold cauchy_ficdf in v. set (t := dmul X dpi) in *. pose proof PI_18 as PI18.
  destruct (acc_cos L HL t F1 AR) as (C1 & C2). destruct (acc_sin L HL t F1 AR) as (S1 & S2). fold q in C2. replace (/ 2 ^ 51) with (2 * q) in S2 by (unfold q; field). rewrite (Rabs_pos_eq (sin (B2R t))) in S2 by lra. set (S := sin (B2R t)) in *. set (C := cos (B2R t)) in *.
  assert (HC : Rabs C <= 1) by (apply Rabs_le, COS_bound). assert (HS : S <= 1) by apply SIN_bound.
  assert (Hc1 : Rabs (B2R (m_cos L t)) <= 2). { replace (B2R (m_cos L t)) with ((B2R (m_cos L t) - C) + C) by ring. apply Rle_trans with (1 := Rabs_triang _ _). lra. }
  pose proof (scale_range th (B2R (m_cos L t)) Ht ltac:(lra)) as SR. pose proof big_370 as B. pose proof (bpow_gt_0 radix2 370) as P370. pose proof (bpow_gt_0 radix2 300) as P300. destruct (mul_ok th (m_cos L t) (proj1 Ht) C1 ltac:(lra)) as (M1 & M2). pose proof (rnd_err (B2R th * B2R (m_cos L t))) as E1. rewrite <- M2 in E1. set (A := dmul th (m_cos L t)) in *.
  assert (IS : 1 <= / S) by (rewrite <- Rinv_1; apply Rinv_le_contravar; lra). assert (IS2 : / S <= 2 ^ 56). { apply Rle_trans with (/ (q / 16)); [apply Rinv_le_contravar; lra|]. unfold q. lra. }
  assert (S3 : 999 / 1000 * S <= B2R (m_sin L t)). { apply Rabs_le_inv in S2. assert (2 * q * S <= / 1000 * S) by (apply Rmult_le_compat_r; lra). lra. }
  assert (Is2 : 0 < / B2R (m_sin L t) <= 2 * / S). { split; [apply Rinv_0_lt_compat; lra|]. apply Rmult_le_reg_r with (B2R (m_sin L t)); [lra|]. rewrite Rinv_l by lra. apply Rle_trans with (2 * / S * (999 / 1000 * S)); [|apply Rmult_le_compat_l; lra]. replace (2 * / S * (999 / 1000 * S)) with (2 * (999 / 1000)) by (field; lra). lra. }
  assert (AS : Rabs (B2R A / B2R (m_sin L t)) <= bpow radix2 370).
  { assert (A00 : Rabs (B2R A) <= 4 * bpow radix2 300). { rewrite Rabs_mult, (Rabs_pos_eq (B2R th)) in E1 by lra. replace (B2R A) with ((B2R A - B2R th * B2R (m_cos L t)) + B2R th * B2R (m_cos L t)) by ring. apply Rle_trans with (1 := Rabs_triang _ _). rewrite (Rabs_mult (B2R th)), (Rabs_pos_eq (B2R th)) by lra. destruct Ht as (_ & Rt). assert (B2R th * Rabs (B2R (m_cos L t)) <= bpow radix2 300 * 2) by (apply Rmult_le_compat; try lra; apply Rabs_pos). assert (q / 2 * (B2R th * Rabs (B2R (m_cos L t))) <= / 2 * (bpow radix2 300 * 2)) by (apply Rmult_le_compat; try lra; apply Rmult_le_pos; [lra|apply Rabs_pos]). assert (bpow radix2 0 <= bpow radix2 300) by (apply bpow_le; lia). change (bpow radix2 0) with 1 in *. lra. }
    unfold Rdiv. rewrite Rabs_mult, (Rabs_pos_eq (/ B2R (m_sin L t))) by lra. change (bpow radix2 370) with (bpow radix2 (70 + 300)). rewrite bpow_plus. apply Rle_trans with (4 * bpow radix2 300 * (2 * 2 ^ 56)); [apply Rmult_le_compat; try lra; apply Rabs_pos|]. replace (4 * bpow radix2 300 * (2 * 2 ^ 56)) with (4 * (2 * 2 ^ 56) * bpow radix2 300) by ring. apply Rmult_le_compat_r; [lra|]. change (bpow radix2 70) with 1180591620717411303424. lra. }
  destruct (div_ok A (m_sin L t) M1 ltac:(lra) ltac:(lra)) as (D1 & D2). pose proof (rnd_err (B2R A / B2R (m_sin L t))) as E2. rewrite <- D2 in E2. set (W := ddiv A (m_sin L t)) in *.
  destruct (cot_err (B2R th) _ _ C S _ _ Pt ltac:(lra) HC TS A3 C2 S2 E1 E2) as (K1 & K2).
  assert (WB : Rabs (B2R W) <= 2 * bpow radix2 370 + 1). { replace (B2R W) with ((B2R W - B2R A / B2R (m_sin L t)) + B2R A / B2R (m_sin L t)) by ring. apply Rle_trans with (1 := Rabs_triang _ _). assert (q / 2 * Rabs (B2R A / B2R (m_sin L t)) <= 1 * Rabs (B2R A / B2R (m_sin L t))) by (apply Rmult_le_compat_r; [apply Rabs_pos|lra]). lra. }
  assert (TR : Rabs (B2R et - B2R W) <= Rabs (B2R et) + Rabs (B2R W)) by (unfold Rminus; rewrite <- (Rabs_Ropp (B2R W)); apply Rabs_triang). destruct He as (Fe & Re). destruct (sub_ok et W Fe D1 ltac:(lra)) as (V1 & V2). pose proof (rnd_err (B2R et - B2R W)) as E3. rewrite <- V2 in E3. fold v in V1, V2, E3. split; [exact V1|].
  assert (IT : 0 < / B2R th) by (apply Rinv_0_lt_compat, Pt). remember (Rabs (B2R et) / B2R th) as k eqn:Ek. assert (Hk : 0 <= k) by (rewrite Ek; apply Rmult_le_pos; [apply Rabs_pos|lra]).
  (* the argument of the arctangent, in two steps *)
  set (z := (B2R v - B2R et) / B2R th). assert (Z : Rabs (z + B2R W / B2R th) <= q / 2 * k + 6 / 10 * q / S).
  { unfold z. replace ((B2R v - B2R et) / B2R th + B2R W / B2R th) with ((B2R v - (B2R et - B2R W)) * / B2R th) by (field; lra). rewrite Rabs_mult, (Rabs_pos_eq (/ B2R th)) by lra. apply Rle_trans with ((q / 2 * (Rabs (B2R et) + Rabs (B2R W)) + tiny) * / B2R th). 
    - apply Rmult_le_compat_r; [lra|]. assert (q / 2 * Rabs (B2R et - B2R W) <= q / 2 * (Rabs (B2R et) + Rabs (B2R W))) by (apply Rmult_le_compat_l; lra). lra.
    - replace ((q / 2 * (Rabs (B2R et) + Rabs (B2R W)) + tiny) * / B2R th) with (q / 2 * k + q / 2 * (Rabs (B2R W) * / B2R th) + tiny / B2R th) by (rewrite Ek; field; lra). unfold Rdiv in K2. rewrite Rabs_mult, (Rabs_pos_eq (/ B2R th)) in K2 by lra. assert (q / 2 * (Rabs (B2R W) * / B2R th) <= q / 2 * (11 * / 10 * / S)) by (apply Rmult_le_compat_l; lra). assert (q * 1 <= q * / S) by (apply Rmult_le_compat_l; lra). unfold Rdiv at 5. lra. }
  assert (Z2 : Rabs (z - - (C / S)) <= q / 2 * k + 6 * q / S). { replace (z - - (C / S)) with ((z + B2R W / B2R th) + - (B2R W / B2R th - C / S)) by ring. apply Rle_trans with (1 := Rabs_triang _ _). rewrite Rabs_Ropp. unfold Rdiv in *. assert (0 < q * / S) by (apply Rmult_lt_0_compat; lra). lra. }
  assert (N : exists b, Rabs (b - - (C / S)) <= 6 * q / S /\ Rabs (z - b) <= q / 2 * k).
  { assert (P1 : 0 <= q / 2 * k) by (apply Rmult_le_pos; lra). assert (P2 : 0 <= 6 * q / S) by (apply Rmult_le_pos; lra). set (m := - (C / S)) in *. set (u := 6 * q / S) in *. set (w := q / 2 * k) in *. apply Rabs_le_inv in Z2. destruct (Rle_dec (z - m) u) as [Y|Y]; [destruct (Rle_dec (- u) (z - m)) as [Y2|Y2]|].
    - exists z. split; [apply Rabs_le; lra|]. rewrite (Rminus_diag_eq _ _ eq_refl), Rabs_R0. exact P1.
    - exists (m - u). split; apply Rabs_le; lra.
    - exists (m + u). split; apply Rabs_le; lra. }
  destruct N as (b & N1 & N2).
  assert (T1 : atan (- (C / S)) = B2R t - PI / 2). { replace (- (C / S)) with (tan (B2R t - PI / 2)) by (unfold tan; rewrite sin_minus, cos_minus, cos_PI2, sin_PI2; unfold C, S in *; field; lra). apply atan_tan. lra. }
  assert (T2 : Rabs (atan b - atan (- (C / S))) <= 4 * (6 * q)). { apply atan_far with S; [lra| |lra|exact N1]. pose proof (sin2_cos2 (B2R t)) as SC. unfold Rsqr in SC. fold S C in SC. replace ((1 + - (C / S) * - (C / S)) * (S * S)) with (S * S + C * C) by (field; lra). exact SC. }
  pose proof (atan_lip z b) as T3. rewrite T1 in T2.
  assert (T4 : Rabs (atan z - (B2R X * PI - PI / 2)) <= 27 * q + q / 2 * k). { replace (atan z - (B2R X * PI - PI / 2)) with ((atan z - atan b) + ((atan b - (B2R t - PI / 2)) + (B2R t - B2R X * PI))) by ring. apply Rle_trans with (1 := Rabs_triang _ _). pose proof (Rabs_triang (atan b - (B2R t - PI / 2)) (B2R t - B2R X * PI)). lra. }
  replace (/ 2 + atan z / PI - B2R X) with ((atan z - (B2R X * PI - PI / 2)) * / PI) by (field; lra). rewrite Rabs_mult, (Rabs_pos_eq (/ PI)) by (left; apply Rinv_0_lt_compat; lra).
  assert (IP : 0 < / PI <= / 3) by (split; [apply Rinv_0_lt_compat; lra|apply Rinv_le_contravar; lra]). apply Rle_trans with ((27 * q + q / 2 * k) * / 3); [apply Rmult_le_compat; try lra; apply Rabs_pos|]. assert (0 <= q * k) by (apply Rmult_le_pos; lra). lra.
Qed.
End Cauchy.
