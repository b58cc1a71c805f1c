(** cdf of the distributions with a location, in double. *)
From Coq Require Import ZArith Bool Reals Lia Lra Psatz Ratan.
From Flocq Require Import Core IEEE754.BinarySingleNaN.
From Verif Require Import FloatFacts UniformModel UniformProofs FloatDrawModel FloatDrawSpec FloatDrawProofs FloatDrawCore FloatDrawLoc FloatDrawTrig FloatDrawLaw DiscDrawTree DiscDrawSpec FloatCdfModel FloatCdfSpec FloatCdfProofs FloatCdfCore FloatCdfPow.
Local Open Scope R_scope.
Notation rnd := (round radix2 (SpecFloat.fexp 53 1024) ZnearestE).

Lemma sub_near_ (x e : double) : is_finite (dsub x e) = true -> B2R (dsub x e) = rnd (B2R x - B2R e) -> is_finite (dsub x e) = true /\ B2R (dsub x e) = rnd (B2R x - B2R e) /\
  Rabs (B2R (dsub x e) - (B2R x - B2R e)) <= q / 2 * Rabs (B2R x - B2R e) /\ (0 <= B2R x - B2R e -> 0 <= B2R (dsub x e)) /\ (B2R x - B2R e <= 0 -> B2R (dsub x e) <= 0).
Proof.
  intros A B. split; [exact A|]. split; [exact B|]. split; [|split].
  - rewrite B. replace (B2R x - B2R e) with (B2R x + - B2R e) by ring. apply rnd_plus; [apply (fmt_B2R 53 1024 H3_64 H70_64)|]. apply generic_format_opp, (fmt_B2R 53 1024 H3_64 H70_64).
  - intros H. rewrite B. apply (rnd_ge_0 53 1024 H3_64 H70_64), H.
  - intros H. rewrite B. replace (B2R x - B2R e) with (- (- (B2R x - B2R e))) by ring. rewrite rnd_opp. pose proof (rnd_ge_0 53 1024 H3_64 H70_64 (- (B2R x - B2R e)) ltac:(lra)) as G. cbv beta in G. lra.
Qed.
Definition sub_facts (x e : double) : Prop := is_finite (dsub x e) = true /\ B2R (dsub x e) = rnd (B2R x - B2R e) /\
  Rabs (B2R (dsub x e) - (B2R x - B2R e)) <= q / 2 * Rabs (B2R x - B2R e) /\ (0 <= B2R x - B2R e -> 0 <= B2R (dsub x e)) /\ (B2R x - B2R e <= 0 -> B2R (dsub x e) <= 0).
Lemma sub_near (x e : double) : is_finite x = true -> is_finite e = true -> Rabs (B2R x - B2R e) <= 4 * big -> sub_facts x e.
Proof. intros Fx Fe R. destruct (sub_ok x e Fx Fe R) as (A & B). apply sub_near_; assumption. Qed.
(** a location is too small to push the largest double over the edge *)
Definition dmax : double := @B754_finite 53 1024 false 9007199254740991 971 eq_refl.
Definition d300 : double := @B754_finite 53 1024 false 4503599627370496 248 eq_refl.
Lemma max_rounds : rnd (bpow radix2 1024 - bpow radix2 971 + bpow radix2 300) < bpow radix2 1024.
Proof.
  assert (V1 : B2R dmax = bpow radix2 1024 - bpow radix2 971). { unfold dmax. cbn [B2R cond_Zopp]. unfold F2R. cbn [Fnum Fexp]. replace 1024%Z with (53 + 971)%Z by reflexivity. rewrite bpow_plus. replace (bpow radix2 53) with (IZR (9007199254740991 + 1)) by reflexivity. rewrite plus_IZR. ring. }
  assert (V2 : B2R d300 = bpow radix2 300). { unfold d300. cbn [B2R cond_Zopp]. unfold F2R. cbn [Fnum Fexp]. replace 300%Z with (52 + 248)%Z by reflexivity. rewrite bpow_plus. reflexivity. }
  pose proof (Bplus_correct 53 1024 _ _ mode_NE dmax d300 eq_refl eq_refl) as C. change (round_mode mode_NE) with ZnearestE in C. rewrite V1, V2 in C. destruct (Rlt_bool_spec (Rabs (rnd (bpow radix2 1024 - bpow radix2 971 + bpow radix2 300))) (bpow radix2 1024)) as [H|H].
  - apply Rle_lt_trans with (2 := H), Rle_abs.
  - exfalso. destruct C as (C & _). revert C. vm_compute. intros C. discriminate C.
Qed.
Lemma sub_loc (x e : double) : is_finite x = true -> location e -> sub_facts x e.
Proof.
  intros Fx (Fe & Re). pose proof (abs_B2R_le_emax_minus_prec 53 1024 _ x) as Rx. change (1024 - 53)%Z with 971%Z in Rx. pose proof (Bminus_correct 53 1024 _ _ mode_NE x e Fx Fe) as C. change (round_mode mode_NE) with ZnearestE in C.
  assert (B : Rabs (rnd (B2R x - B2R e)) < bpow radix2 1024).
  { apply Rle_lt_trans with (2 := max_rounds). apply Rabs_le_inv in Rx, Re. apply Rabs_le. split; [rewrite <- rnd_opp|]; apply round_le; try typeclasses eauto; lra. }
  rewrite Rlt_bool_true in C by exact B. destruct C as (C1 & C2 & _). apply sub_near_; [exact C2|exact C1].
Qed.

Lemma std_ok th et x : scale th -> location et -> is_finite x = true -> let z := (B2R x - B2R et) / B2R th in let Z := ddiv (dsub x et) th in
  (is_finite Z = true /\ Rabs (B2R Z - z) <= 2 * q * Rabs z + tiny /\ (0 <= z -> 0 <= B2R Z) /\ (z <= 0 -> B2R Z <= 0)) \/ (Z = B754_infinity false /\ bpow radix2 900 <= z) \/ (Z = B754_infinity true /\ z <= - bpow radix2 900).
Proof.
  intros Ht He Hx z Z. pose proof q_pos as Q. pose proof (scale_pos th Ht) as Pt. assert (It : 0 < / B2R th) by (apply Rinv_0_lt_compat, Pt).
  destruct (sub_loc x et Hx He) as (D1 & _ & D2 & D3 & D4). set (d := dsub x et) in *. set (y := B2R x - B2R et) in *.
  assert (YZ : y = z * B2R th) by (unfold z; field; lra). set (s := B2R d / B2R th).
  assert (S : Rabs (s - z) <= q / 2 * Rabs z).
  { replace (s - z) with ((B2R d - y) * / B2R th) by (unfold s; rewrite YZ; field; lra). rewrite Rabs_mult, (Rabs_pos_eq (/ B2R th)) by lra. replace (q / 2 * Rabs z) with (q / 2 * Rabs y * / B2R th); [apply Rmult_le_compat_r; lra|].
    rewrite YZ, Rabs_mult, (Rabs_pos_eq (B2R th)) by lra. field. lra. }
  assert (SG : (0 <= z -> 0 <= y) /\ (z <= 0 -> y <= 0)). { rewrite YZ. split; intros H; [apply Rmult_le_pos; lra|]. replace (z * B2R th) with (- (- z * B2R th)) by ring. assert (0 <= - z * B2R th) by (apply Rmult_le_pos; lra). lra. }
  assert (QZ : 0 <= q * Rabs z <= / 1000 * Rabs z) by (pose proof (Rabs_pos z); split; [apply Rmult_le_pos; lra|apply Rmult_le_compat_r; lra]).
  assert (B9 : 2 * bpow radix2 900 <= bpow radix2 1000) by (change 2 with (bpow radix2 1); rewrite <- bpow_plus; apply bpow_le; lia). pose proof (bpow_gt_0 radix2 900) as P9.
  destruct (div_near d th D1 Pt) as [(A & B & C & E)|[(A & B)|(A & B)]]; fold Z s in A, B.
  - left. split; [exact A|]. fold Z in C, E. split; [|split; intros H; [apply C, D3, SG, H|apply E, D4, SG, H]].
    replace (B2R Z - z) with ((B2R Z - s) + (s - z)) by ring. apply Rle_trans with (1 := Rabs_triang _ _). assert (SZ : Rabs s <= 2 * Rabs z) by (pose proof (Rabs_triang (s - z) z) as T; replace (s - z + z) with s in T by ring; lra).
    assert (q / 2 * Rabs s <= q / 2 * (2 * Rabs z)) by (apply Rmult_le_compat_l; lra). lra.
  - right. left. split; [exact A|]. destruct (Rle_lt_dec z 0) as [N|N]; [exfalso; pose proof (D4 (proj2 SG N)) as G; assert (s <= 0); [|lra]; unfold s; replace (B2R d / B2R th) with (- (- B2R d * / B2R th)) by (unfold Rdiv; ring); assert (0 <= - B2R d * / B2R th) by (apply Rmult_le_pos; lra); lra|].
    rewrite (Rabs_pos_eq z) in * by lra. apply Rabs_le_inv in S. lra.
  - right. right. split; [exact A|]. destruct (Rle_lt_dec 0 z) as [N|N]; [exfalso; pose proof (D3 (proj1 SG N)) as G; assert (0 <= s) by (apply Rmult_le_pos; lra); lra|].
    rewrite (Rabs_left1 z) in * by lra. apply Rabs_le_inv in S. lra.
Qed.

(** ** cauchy *)
Lemma sf_val (x : double) s m e : B2SF x = SpecFloat.S754_finite s m e -> is_finite x = true /\ B2R x = F2R (Float radix2 (cond_Zopp s (Z.pos m)) e).
Proof. destruct x as [t|t| |t m' e' H]; cbn [B2SF]; intros E; try discriminate E. injection E as -> -> ->. split; reflexivity. Qed.
Lemma dinvpi_ok : is_finite dinvpi = true /\ B2R dinvpi = 5734161139222659 / 18014398509481984.
Proof. assert (E : B2SF dinvpi = SpecFloat.S754_finite false 5734161139222659 (-54)) by (vm_compute; reflexivity). apply sf_val in E. destruct E as (A & B). split; [exact A|]. rewrite B. unfold F2R. cbn. lra. Qed.
Lemma dinvpi_half : rnd (B2R dinvpi * (B2R dpi / 2)) = / 2.
Proof.
  assert (E : B2SF (ddiv dpi (dint 2)) = SpecFloat.S754_finite false 7074237752028440 (-52)) by (vm_compute; reflexivity). apply sf_val in E. destruct E as (A & B).
  assert (E : B2SF (dmul dinvpi (ddiv dpi (dint 2))) = SpecFloat.S754_finite false 4503599627370496 (-53)) by (vm_compute; reflexivity). apply sf_val in E. destruct E as (C & D).
  assert (V : B2R (ddiv dpi (dint 2)) = B2R dpi / 2) by (rewrite B, (proj2 dpi_ok); unfold F2R; cbn; lra). rewrite <- V.
  destruct (mul_ok dinvpi (ddiv dpi (dint 2)) (proj1 dinvpi_ok) A) as (_ & M); [rewrite V, (proj2 dinvpi_ok), (proj2 dpi_ok); rewrite Rabs_pos_eq by lra; pose proof big_10; lra|].
  rewrite <- M, D. unfold F2R. cbn. lra.
Qed.
Lemma dinvpi_near : Rabs (B2R dinvpi * PI - 1) <= q.
Proof. rewrite (proj2 dinvpi_ok). pose proof PI_18. apply Rabs_le. unfold q. lra. Qed.
Lemma atan_large z : 0 < z -> q * z >= 1 -> PI / 2 - q <= atan z <= PI / 2.
Proof.
  intros Z H. pose proof (atan_bound z) as B. pose proof (atan_inv z Z) as E. pose proof (atan_lip (/ z) 0) as L. rewrite atan_0, !Rminus_0_r in L. assert (I : 0 < / z) by (apply Rinv_0_lt_compat, Z). rewrite (Rabs_pos_eq (/ z)) in L by lra.
  apply Rabs_le_inv in L. assert (/ z <= q). { apply Rmult_le_reg_r with z; [exact Z|]. rewrite Rinv_l by lra. lra. } lra.
Qed.
Lemma q_900 z : bpow radix2 900 <= z -> q * z >= 1.
Proof. intros H. assert (q * bpow radix2 900 <= q * z) by (apply Rmult_le_compat_l; [pose proof q_pos; lra|exact H]). assert (bpow radix2 52 <= bpow radix2 900) by (apply bpow_le; lia). assert (q * bpow radix2 52 <= q * bpow radix2 900) by (apply Rmult_le_compat_l; [pose proof q_pos; lra|assumption]). assert (q * bpow radix2 52 = 1) by (unfold q; cbn; lra). lra. Qed.

Section Functions.
Variable M : libmx.
Hypothesis HM : accurate_x M.

Lemma atan_std th et x : scale th -> location et -> is_finite x = true -> let A := x_atan M (ddiv (dsub x et) th) in
  is_finite A = true /\ Rabs (B2R A) <= B2R dpi / 2 /\ Rabs (B2R A - atan ((B2R x - B2R et) / B2R th)) <= 14 * q.
Proof.
  intros Ht He Hx A. pose proof q_pos as Q. pose proof tiny_small as T. assert (Q2 : / 2 ^ 51 = 2 * q) by (unfold q; field). pose proof (std_ok th et x Ht He Hx) as S. cbv zeta in S. set (z := (B2R x - B2R et) / B2R th) in *. set (Z := ddiv (dsub x et) th) in *.
  destruct S as [(F & E & _)|[(F & G)|(F & G)]].
  - destruct (ax_atan M HM Z F) as (A1 & A2 & A3). fold A in A1, A2, A3. split; [exact A1|]. split; [exact A2|]. assert (N : 1 <= 1 + z * z) by nra. set (s := / sqrt (1 + z * z)).
    assert (R1 : 1 <= sqrt (1 + z * z)) by (rewrite <- sqrt_1 at 1; apply sqrt_le_1_alt, N). assert (RZ : Rabs z <= sqrt (1 + z * z)). { rewrite <- sqrt_Rsqr_abs. apply sqrt_le_1_alt. unfold Rsqr. lra. }
    assert (SS : 0 < s <= 1). { unfold s. split; [apply Rinv_0_lt_compat; lra|]. apply Rle_trans with (/ 1); [apply Rinv_le_contravar; lra|lra]. }
    assert (SE : (1 + z * z) * (s * s) = 1). { unfold s. pose proof (sqrt_sqrt (1 + z * z) ltac:(lra)) as W. set (r := sqrt (1 + z * z)) in *. rewrite <- W. field. lra. }
    pose proof (atan_far z (B2R Z) s (3 * q) SS SE ltac:(lra)) as K. assert (D : Rabs (B2R Z - z) <= 3 * q / s).
    { apply Rle_trans with (1 := E). replace (3 * q / s) with (2 * q * sqrt (1 + z * z) + q * sqrt (1 + z * z)) by (unfold s; field; lra). assert (2 * q * Rabs z <= 2 * q * sqrt (1 + z * z)) by (apply Rmult_le_compat_l; lra). assert (q * 1 <= q * sqrt (1 + z * z)) by (apply Rmult_le_compat_l; lra). lra. }
    specialize (K D). replace (B2R A - atan z) with ((B2R A - atan (B2R Z)) + (atan (B2R Z) - atan z)) by ring. apply Rle_trans with (1 := Rabs_triang _ _). lra.
  - destruct (ax_atan_inf M HM false) as (A1 & A2 & A3). rewrite <- F in A1, A2, A3. fold A in A1, A2, A3. split; [exact A1|]. split; [exact A2|]. pose proof (bpow_gt_0 radix2 900). pose proof (atan_large z ltac:(lra) (q_900 z G)). apply Rabs_le_inv in A3. apply Rabs_le. lra.
  - destruct (ax_atan_inf M HM true) as (A1 & A2 & A3). rewrite <- F in A1, A2, A3. fold A in A1, A2, A3. split; [exact A1|]. split; [exact A2|]. pose proof (bpow_gt_0 radix2 900). pose proof (atan_large (- z) ltac:(lra) (q_900 (- z) ltac:(lra))) as B. rewrite atan_opp in B. apply Rabs_le_inv in A3. apply Rabs_le. lra.
Qed.
Lemma cauchy_cdf th et x : scale th -> location et -> is_finite x = true -> computes (cauchy_fcdf M th et x) (F_cauchy (B2R th) (B2R et) (B2R x)) (10 * q).
Proof.
  intros Ht He Hx. pose proof q_pos as Q. pose proof tiny_small as T. destruct (atan_std th et x Ht He Hx) as (A1 & A2 & A3). unfold cauchy_fcdf, F_cauchy. set (A := x_atan M _) in *. set (a := atan _) in *. destruct dinvpi_ok as (I1 & I2). destruct half_ok as (F2 & V2). fold dhalf in F2, V2.
  pose proof PI_18 as PI8. pose proof dinvpi_near as NP. pose proof dpi_ok as (_ & DP). pose proof big_10 as B10.
  assert (AB : Rabs (B2R A) <= 2) by lra. assert (AR : Rabs (B2R dinvpi * B2R A) <= 1). { rewrite Rabs_mult, (Rabs_pos_eq (B2R dinvpi)) by lra. apply Rle_trans with (B2R dinvpi * 2); [apply Rmult_le_compat_l; lra|lra]. }
  destruct (mul_ok dinvpi A I1 A1) as (M1 & M2); [lra|]. set (P := dmul dinvpi A) in *. pose proof (rnd_err (B2R dinvpi * B2R A)) as E1. rewrite <- M2 in E1. assert (q / 2 * Rabs (B2R dinvpi * B2R A) <= q / 2 * 1) by (apply Rmult_le_compat_l; lra).
  assert (PR : - / 2 <= B2R P <= / 2).
  { rewrite M2. apply Rabs_le_inv in A2. assert (I0 : 0 <= B2R dinvpi) by lra. rewrite <- dinvpi_half at 2. split; [|apply round_le; try typeclasses eauto; apply Rmult_le_compat_l; lra].
    rewrite <- dinvpi_half, <- rnd_opp. apply round_le; try typeclasses eauto. replace (- (B2R dinvpi * (B2R dpi / 2))) with (B2R dinvpi * - (B2R dpi / 2)) by ring. apply Rmult_le_compat_l; lra. }
  destruct (add_ok P dhalf M1 F2) as (S1 & S2); [rewrite V2, Rabs_pos_eq; lra|]. rewrite V2 in S2. set (V := dadd P dhalf) in *. split; [exact S1|].
  pose proof (rnd_err (B2R P + / 2)) as E2. rewrite <- S2, (Rabs_pos_eq (B2R P + / 2)) in E2 by lra. assert (q / 2 * (B2R P + / 2) <= q / 2 * 1) by (apply Rmult_le_compat_l; lra).
  split; [split|].
  - rewrite S2. apply (rnd_ge_0 53 1024 H3_64 H70_64). lra.
  - rewrite S2. apply (rnd_le_fmt 53 1024 H3_64 H70_64); [apply (fmt_1 53 1024 H3_64 H70_64)|lra].
  - assert (E3 : Rabs (B2R dinvpi * B2R A - B2R A / PI) <= q). { replace (B2R dinvpi * B2R A - B2R A / PI) with ((B2R A / PI) * (B2R dinvpi * PI - 1)) by (field; lra). rewrite Rabs_mult. apply Rle_trans with (1 * q); [|lra]. apply Rmult_le_compat; try apply Rabs_pos; [|exact NP]. unfold Rdiv. rewrite Rabs_mult, (Rabs_pos_eq (/ PI)) by (left; apply Rinv_0_lt_compat; lra). apply Rmult_le_reg_r with PI; [lra|]. rewrite Rmult_assoc, Rinv_l by lra. lra. }
    assert (E4 : Rabs (B2R A / PI - a / PI) <= 5 * q). { replace (B2R A / PI - a / PI) with ((B2R A - a) / PI) by (field; lra). unfold Rdiv. rewrite Rabs_mult, (Rabs_pos_eq (/ PI)) by (left; apply Rinv_0_lt_compat; lra). apply Rmult_le_reg_r with PI; [lra|]. rewrite Rmult_assoc, Rinv_l by lra. assert (5 * q * 3 <= 5 * q * PI) by (apply Rmult_le_compat_l; lra). lra. }
    apply Rabs_le_inv in E1, E2, E3, E4. apply Rabs_le. lra.
Qed.

(** ** logistic *)
Lemma abs_opp_apxn th et x : scale th -> location et -> is_finite x = true -> apxn (dopp (Babs (ddiv (dsub x et) th))) (Rabs ((B2R x - B2R et) / B2R th)) (2 * q) tiny.
Proof.
  intros Ht He Hx. pose proof (std_ok th et x Ht He Hx) as S. cbv zeta in S. set (z := (B2R x - B2R et) / B2R th) in *. set (Z := ddiv (dsub x et) th) in *. assert (B80 : 80 <= bpow radix2 900) by (apply Rle_trans with (bpow radix2 7); [cbn; lra|apply bpow_le; lia]).
  destruct S as [(F & E & S1 & S2)|[(F & G)|(F & G)]].
  - left. destruct (opp_ok (Babs Z)) as (O1 & O2); [rewrite is_finite_Babs; exact F|]. split; [exact O1|]. rewrite O2, B2R_Babs. pose proof (Rabs_pos (B2R Z)). split; [lra|]. rewrite Ropp_involutive. apply Rle_trans with (1 := Rabs_triang_inv2 (B2R Z) z). exact E.
  - right. rewrite F. split; [left; reflexivity|]. rewrite Rabs_pos_eq; lra.
  - right. rewrite F. split; [left; reflexivity|]. rewrite Rabs_left1; lra.
Qed.
Lemma inv_1p a b : 0 <= a -> 0 <= b -> Rabs (/ (1 + a) - / (1 + b)) <= Rabs (a - b).
Proof.
  intros A B. replace (/ (1 + a) - / (1 + b)) with ((b - a) * / ((1 + a) * (1 + b))) by (field; lra). rewrite Rabs_mult, (Rabs_minus_sym b a). assert (1 <= (1 + a) * (1 + b)) by nra. rewrite (Rabs_pos_eq (/ _)) by (left; apply Rinv_0_lt_compat; lra).
  rewrite <- (Rmult_1_r (Rabs (a - b))) at 2. apply Rmult_le_compat_l; [apply Rabs_pos|]. apply Rle_trans with (/ 1); [apply Rinv_le_contravar; lra|lra].
Qed.
Lemma logistic_cdf th et x : scale th -> location et -> is_finite x = true -> computes (logistic_fcdf M th et x) (F_logistic (B2R th) (B2R et) (B2R x)) (13 * q).
Proof.
  intros Ht He Hx. pose proof q_pos as Q. pose proof tiny_small as T. pose proof tiny_pos as T0. pose proof (scale_pos th Ht) as Pt. assert (It : 0 < / B2R th) by (apply Rinv_0_lt_compat, Pt). pose proof (abs_opp_apxn th et x Ht He Hx) as A. pose proof (exp_at M HM _ _ _ _ A (Rabs_pos _) ltac:(lra) ltac:(lra)) as (E1 & E2 & E3).
  unfold logistic_fcdf, F_logistic. cbv zeta. set (T1 := x_exp M _) in *. set (z := (B2R x - B2R et) / B2R th) in *. rewrite Bleb_correct by (apply He || exact Hx).
  destruct (int_ok_ 1 ltac:(lia)) as (F1 & V1). pose proof big_10 as B10. destruct (add_ok (dint 1) T1 F1 E1) as (S1 & S2); [rewrite V1, Rabs_pos_eq; lra|]. rewrite V1 in S2. set (U := dadd (dint 1) T1) in *.
  pose proof (rnd_err (1 + B2R T1)) as R1. rewrite <- S2, (Rabs_pos_eq (1 + B2R T1)) in R1 by lra. assert (q / 2 * (1 + B2R T1) <= q / 2 * 2) by (apply Rmult_le_compat_l; lra).
  assert (U1 : 1 <= B2R U). { rewrite S2. apply (rnd_ge_fmt 53 1024 H3_64 H70_64); [apply (fmt_1 53 1024 H3_64 H70_64)|lra]. }
  set (e := exp (- Rabs z)) in *. assert (e0 : 0 < e) by apply exp_pos.
  assert (IU : Rabs (/ B2R U - / (1 + e)) <= 11 * q). { replace (B2R U) with (1 + (B2R U - 1)) by ring. apply Rle_trans with (1 := inv_1p (B2R U - 1) e ltac:(lra) ltac:(lra)). apply Rabs_le_inv in R1, E3. apply Rabs_le. lra. }
  assert (UI : 0 < / B2R U <= 1). { split; [apply Rinv_0_lt_compat; lra|]. apply Rle_trans with (/ 1); [apply Rinv_le_contravar; lra|lra]. }
  destruct (Rle_bool_spec (B2R et) (B2R x)) as [C|C].
  - assert (Z0 : 0 <= z) by (apply Rmult_le_pos; lra). destruct (div_ok (dint 1) U F1) as (D1 & D2); [lra|rewrite V1, Rabs_pos_eq; unfold Rdiv; lra|]. unfold Rdiv in D2. rewrite V1, Rmult_1_l in D2. pose proof (rnd_err (/ B2R U)) as R2. rewrite <- D2, (Rabs_pos_eq (/ B2R U)) in R2 by lra. assert (q / 2 * / B2R U <= q / 2 * 1) by (apply Rmult_le_compat_l; lra).
    split; [exact D1|]. split; [rewrite D2; split; [apply (rnd_ge_0 53 1024 H3_64 H70_64); lra|apply (rnd_le_fmt 53 1024 H3_64 H70_64); [apply (fmt_1 53 1024 H3_64 H70_64)|lra]]|].
    replace (exp (- z)) with e by (unfold e; rewrite (Rabs_pos_eq z) by exact Z0; reflexivity). apply Rabs_le_inv in R2, IU. apply Rabs_le. lra.
  - assert (Z0 : z <= 0). { unfold z. replace ((B2R x - B2R et) / B2R th) with (- ((B2R et - B2R x) * / B2R th)) by (unfold Rdiv; ring). assert (0 <= (B2R et - B2R x) * / B2R th) by (apply Rmult_le_pos; lra). lra. }
    assert (TU : B2R T1 <= B2R U). { rewrite S2. apply (rnd_ge_fmt 53 1024 H3_64 H70_64); [apply (fmt_B2R 53 1024 H3_64 H70_64)|lra]. }
    assert (TR : 0 <= B2R T1 / B2R U <= 1). { split; [apply Rmult_le_pos; lra|]. apply Rmult_le_reg_r with (B2R U); [lra|]. unfold Rdiv. rewrite Rmult_assoc, Rinv_l by lra. lra. }
    destruct (div_ok T1 U E1) as (D1 & D2); [lra|rewrite Rabs_pos_eq; lra|]. pose proof (rnd_err (B2R T1 / B2R U)) as R2. rewrite <- D2, (Rabs_pos_eq (B2R T1 / B2R U)) in R2 by lra. assert (q / 2 * (B2R T1 / B2R U) <= q / 2 * 1) by (apply Rmult_le_compat_l; lra).
    split; [exact D1|]. split; [rewrite D2; split; [apply (rnd_ge_0 53 1024 H3_64 H70_64); lra|apply (rnd_le_fmt 53 1024 H3_64 H70_64); [apply (fmt_1 53 1024 H3_64 H70_64)|lra]]|].
    assert (EE : exp (- z) = / e). { unfold e. rewrite (Rabs_left1 z) by exact Z0. rewrite Ropp_involutive, exp_Ropp. reflexivity. }
    assert (TE : / (1 + exp (- z)) = 1 - / (1 + e)) by (rewrite EE; field; lra). rewrite TE.
    assert (TT : Rabs (B2R T1 / B2R U - (1 - / B2R U)) <= 2 * q).
    { replace (B2R T1 / B2R U - (1 - / B2R U)) with (((1 + B2R T1) - B2R U) * / B2R U) by (field; lra). rewrite Rabs_mult, (Rabs_pos_eq (/ B2R U)), Rabs_minus_sym by lra. apply Rle_trans with (2 * q * 1); [apply Rmult_le_compat; try lra; apply Rabs_pos|lra]. }
    assert (IU2 : Rabs (/ B2R U - / (1 + e)) <= 10 * q). { replace (B2R U) with (1 + (B2R U - 1)) by ring. apply Rle_trans with (1 := inv_1p (B2R U - 1) e ltac:(lra) ltac:(lra)). apply Rabs_le_inv in R1, E3. apply Rabs_le. lra. }
    apply Rabs_le_inv in R2, IU2, TT. apply Rabs_le. lra.
Qed.

(** ** extreme_value *)
Lemma exp_shift z d dl : Rabs d <= dl -> dl <= / 2 -> Rabs (exp (z + d) - exp z) <= 2 * dl * exp z.
Proof.
  intros H D. apply Rabs_le_inv in H. rewrite exp_plus. replace (exp z * exp d - exp z) with (exp z * (exp d - 1)) by ring. pose proof (exp_pos z) as P. rewrite Rabs_mult, (Rabs_pos_eq (exp z)), Rmult_comm by lra. apply Rmult_le_compat_r; [lra|].
  pose proof (exp_1m d). pose proof (exp_up dl D ltac:(lra)). pose proof (exp_le d dl ltac:(lra)). apply Rabs_le. lra.
Qed.
Lemma exp_5 z : 21 / 4 <= z -> 128 <= exp z.
Proof. intros H. replace 128 with (bpow radix2 7) by (cbn; lra). rewrite <- (exp_ln (bpow radix2 7)) by apply bpow_gt_0. apply exp_le. rewrite ln_bpow. pose proof ln2_up. lra. Qed.
Lemma z_exp z : z <= 0 -> - z * exp z <= 1.
Proof. intros H. pose proof (exp_pos z) as P. pose proof (exp_1m (- z)) as E. rewrite exp_Ropp in E. apply Rmult_le_reg_r with (/ exp z); [apply Rinv_0_lt_compat, P|]. rewrite Rmult_assoc, Rinv_r by lra. lra. Qed.
Lemma extreme_apxn th et x : scale th -> location et -> is_finite x = true -> apxn (dopp (x_exp M (ddiv (dsub x et) th))) (exp ((B2R x - B2R et) / B2R th)) (29 * q) (5 * q).
Proof.
  intros Ht He Hx. pose proof q_pos as Q. pose proof tiny_small as T. pose proof tiny_pos as T0. assert (Q2 : / 2 ^ 51 = 2 * q) by (unfold q; field). pose proof (std_ok th et x Ht He Hx) as S. cbv zeta in S. set (z := (B2R x - B2R et) / B2R th) in *. set (Z := ddiv (dsub x et) th) in *.
  assert (B80 : 1024 <= bpow radix2 900) by (change 1024 with (bpow radix2 10); apply bpow_le; lia). pose proof (exp_pos z) as EP. assert (Q100 : / 2 ^ 100 <= q / 4) by (unfold q; lra).
  destruct S as [(F & E & S1 & S2)|[(F & G)|(F & G)]].
  - pose proof (Rabs_pos z) as AZ. assert (QZ : 0 <= q * Rabs z <= / 1000000 * Rabs z) by (split; [apply Rmult_le_pos; lra|apply Rmult_le_compat_r; lra]).
    destruct (Rlt_dec 400 (B2R Z)) as [C1|C1]; [|destruct (Rlt_dec (B2R Z) (-400)) as [C2|C2]].
    + right. destruct (Rle_lt_dec z 0) as [N|N]; [specialize (S2 N); lra|]. rewrite (Rabs_pos_eq z) in * by lra. apply Rabs_le_inv in E. split; [|pose proof (exp_5 z ltac:(lra)); lra].
      destruct (ax_exp_large M HM Z F C1) as [->|(X1 & X2)]; [left; reflexivity|right]. destruct (opp_ok _ X1) as (O1 & O2). split; [exact O1|]. rewrite O2. lra.
    + left. destruct (Rle_lt_dec 0 z) as [N|N]; [specialize (S1 N); lra|]. rewrite (Rabs_left1 z) in * by lra. apply Rabs_le_inv in E. destruct (ax_exp_small M HM Z F C2) as (X1 & X2 & X3). destruct (opp_ok _ X1) as (O1 & O2). split; [exact O1|]. rewrite O2. split; [lra|].
      pose proof (exp_tail (- z) ltac:(lra)) as ET. rewrite Ropp_involutive in ET. rewrite Ropp_involutive. assert (0 <= 29 * q * exp z) by (apply Rmult_le_pos; lra). apply Rabs_le. lra.
    + destruct (ax_exp M HM Z F) as (X1 & X2); [apply Rabs_le; lra|]. rewrite Q2 in X2. destruct (opp_ok _ X1) as (O1 & O2). set (E1 := x_exp M Z) in *. set (y := B2R Z) in *. pose proof (exp_pos y) as YP.
      assert (E10 : 0 <= B2R E1) by (apply Rabs_le_inv in X2; assert (q * exp y <= / 1000 * exp y) by (apply Rmult_le_compat_r; lra); lra).
      destruct (Rle_lt_dec z 6) as [N|N].
      * left. split; [exact O1|]. rewrite O2. split; [lra|]. rewrite Ropp_involutive.
        assert (ZB : Rabs z <= 500). { destruct (Rle_lt_dec z 0) as [N0|N0]; [|rewrite Rabs_pos_eq; lra]. rewrite (Rabs_left1 z) in * by lra. apply Rabs_le_inv in E. lra. }
        set (dl := 2 * q * Rabs z + tiny) in *.
        assert (DL : dl <= / 900) by (unfold dl; lra). pose proof (exp_shift z (y - z) dl E ltac:(lra)) as SH. replace (z + (y - z)) with y in SH by ring.
        assert (DE : dl * exp z <= 13 * q * exp z + 5 / 2 * q).
        { destruct (Rle_lt_dec z 0) as [N0|N0].
          - unfold dl. rewrite (Rabs_left1 z) by exact N0. replace ((2 * q * - z + tiny) * exp z) with (2 * q * (- z * exp z) + tiny * exp z) by ring. assert (2 * q * (- z * exp z) <= 2 * q * 1) by (apply Rmult_le_compat_l; [lra|apply z_exp, N0]). assert (tiny * exp z <= q / 1024 * 1). { apply Rmult_le_compat; try lra. rewrite <- exp_0. apply exp_le, N0. } assert (0 <= 13 * q * exp z) by (apply Rmult_le_pos; lra). lra.
          - assert (dl * exp z <= 13 * q * exp z); [|lra]. apply Rmult_le_compat_r; [lra|]. unfold dl. rewrite (Rabs_pos_eq z) by lra. assert (2 * q * z <= 2 * q * 6) by (apply Rmult_le_compat_l; lra). lra. }
        replace (B2R E1 - exp z) with ((B2R E1 - exp y) + (exp y - exp z)) by ring. apply Rle_trans with (1 := Rabs_triang _ _). assert (YE : exp y <= 3 / 2 * exp z). { apply Rabs_le_inv in SH. assert (dl * exp z <= / 900 * exp z) by (apply Rmult_le_compat_r; lra). lra. }
        assert (2 * q * exp y <= 2 * q * (3 / 2 * exp z)) by (apply Rmult_le_compat_l; lra). lra.
      * right. rewrite (Rabs_pos_eq z) in * by lra. apply Rabs_le_inv in E. split; [|pose proof (exp_5 z ltac:(lra)); lra]. right. split; [exact O1|]. rewrite O2. pose proof (exp_5 y ltac:(lra)) as E5. apply Rabs_le_inv in X2. assert (q * exp y <= / 1000 * exp y) by (apply Rmult_le_compat_r; lra). lra.
  - right. rewrite F, (ax_exp_pinf M HM). split; [left; reflexivity|]. pose proof (exp_5 z ltac:(lra)). lra.
  - left. rewrite F. destruct (ax_exp_minf M HM) as (X1 & X2). destruct (opp_ok _ X1) as (O1 & O2). split; [exact O1|]. rewrite O2, X2. split; [lra|]. pose proof (exp_tail (- z) ltac:(lra)) as ET. rewrite Ropp_involutive in ET. assert (0 <= 29 * q * exp z) by (apply Rmult_le_pos; lra). apply Rabs_le. lra.
Qed.
Lemma extreme_cdf th et x : scale th -> location et -> is_finite x = true -> computes (extreme_fcdf M th et x) (F_extreme (B2R th) (B2R et) (B2R x)) (73 * q).
Proof.
  intros Ht He Hx. pose proof q_pos as Q. pose proof (extreme_apxn th et x Ht He Hx) as A. pose proof (exp_at M HM _ _ _ _ A ltac:(left; apply exp_pos) ltac:(lra) ltac:(lra)) as E. apply one_minus in E. revert E. apply computes_weaken. lra.
Qed.
End Functions.

(** ** tent *)
Lemma square_ok (n d : double) : scale d -> is_finite n = true -> Rabs (B2R n) <= B2R d -> computes (ddiv (dmul n n) (dmul (dmul (dint 2) d) d)) ((B2R n / B2R d) * (B2R n / B2R d) / 2) (2 * q).
Proof.
  intros Hd Fn Rn. pose proof q_pos as Q. pose proof tiny_small as T. pose proof tiny_pos as T0. pose proof (scale_pos d Hd) as Pd. destruct (nu2_ok d Hd) as (D1 & D2 & D3). set (E := dmul (dmul (dint 2) d) d) in *. destruct Hd as (Fd & Rd).
  set (x := B2R n) in *. set (w := B2R d) in *. assert (X2 : 0 <= x * x <= w * w). { split; [apply Rle_0_sqr|]. apply Rabs_le_inv in Rn. nra. } assert (W0 : 0 < w * w) by (apply Rmult_lt_0_compat; lra).
  assert (WB : bpow radix2 (-600) <= w * w <= bpow radix2 600) by exact (bpow_range (-300) (-300) w w 300 300 Rd Rd). assert (B6 : bpow radix2 600 <= big) by (apply bpow_le; lia). pose proof big_10 as B10.
  destruct (mul_ok n n Fn Fn) as (M1 & M2); [fold x; rewrite Rabs_pos_eq; lra|]. fold x in M2. set (N := dmul n n) in *. pose proof (rnd_err (x * x)) as E1. rewrite <- M2, (Rabs_pos_eq (x * x)) in E1 by lra.
  assert (N0 : 0 <= B2R N) by (rewrite M2; apply (rnd_ge_0 53 1024 H3_64 H70_64); lra). set (r := x / w * (x / w) / 2). assert (RE : x * x = 2 * (w * w) * r) by (unfold r; field; lra).
  assert (R0 : 0 <= r <= / 2). { split; [apply Rmult_le_reg_l with (2 * (w * w)); [lra|]; rewrite <- RE; lra|apply Rmult_le_reg_l with (2 * (w * w)); [lra|]; rewrite <- RE; lra]. }
  assert (TW : tiny <= q / 1024 * (2 * (w * w))). { unfold tiny. apply Rle_trans with (q / 1024 * bpow radix2 (-600)); [|apply Rmult_le_compat_l; lra]. replace (q / 1024) with (bpow radix2 (-62)) by (unfold q; cbn; lra). rewrite <- bpow_plus. apply bpow_le. lia. }
  destruct D2 as (E0 & _ & LE). assert (CI : lc q (2 * w * w / B2R E) 1). { split; [apply Rdiv_lt_0_compat; [nra|exact E0]|]. split; [lra|]. rewrite ln_1, Rminus_0_r. unfold Rdiv. rewrite ln_mult, ln_Rinv by (try apply Rinv_0_lt_compat; nra). rewrite <- Rabs_Ropp. replace (- (ln (2 * w * w) + - ln (B2R E))) with (ln (B2R E) - ln (2 * w * w)) by ring. exact LE. }
  pose proof (lc_abs _ _ _ CI ltac:(lra)) as K. set (c := 2 * w * w / B2R E) in *. set (m := B2R N / (2 * (w * w))).
  assert (MR : Rabs (m - r) <= q / 2 * r + q / 1024). { replace (m - r) with ((B2R N - x * x) * / (2 * (w * w))) by (unfold m; rewrite RE; field; lra). assert (I : 0 < / (2 * (w * w))) by (apply Rinv_0_lt_compat; lra). rewrite Rabs_mult, (Rabs_pos_eq (/ _)) by lra. apply Rmult_le_reg_r with (2 * (w * w)); [lra|]. rewrite Rmult_assoc, Rinv_l by lra. replace ((q / 2 * r + q / 1024) * (2 * (w * w))) with (q / 2 * (x * x) + q / 1024 * (2 * (w * w))) by (rewrite RE; ring). lra. }
  assert (VE : B2R N / B2R E = m * c) by (unfold m, c; field; lra). assert (QR : q / 2 * r <= q / 2 * / 2) by (apply Rmult_le_compat_l; lra). assert (M0 : 0 <= m <= 1). { split; [apply Rmult_le_pos; [exact N0|left; apply Rinv_0_lt_compat; lra]|]. apply Rabs_le_inv in MR. lra. }
  assert (VR : Rabs (m * c - r) <= 3 / 2 * q). { replace (m * c - r) with (m * (c - 1) + (m - r)) by ring. apply Rle_trans with (1 := Rabs_triang _ _). rewrite Rabs_mult, (Rabs_pos_eq m) by lra. assert (m <= / 2 + q) by (apply Rabs_le_inv in MR; lra). assert (m * Rabs (c - 1) <= (/ 2 + q) * (2 * q * 1)) by (apply Rmult_le_compat; try lra; apply Rabs_pos). assert (q * q <= / 1000 * q) by (apply Rmult_le_compat_r; lra). lra. }
  assert (V0 : 0 <= m * c <= 1). { split; [apply Rmult_le_pos; [lra|left; apply Rdiv_lt_0_compat; nra]|]. apply Rabs_le_inv in VR. lra. }
  destruct (div_ok N E M1) as (V1 & V2); [lra|rewrite VE, Rabs_pos_eq; lra|]. rewrite VE in V2. pose proof (rnd_err (m * c)) as E2. rewrite <- V2, (Rabs_pos_eq (m * c)) in E2 by lra.
  split; [exact V1|]. split; [rewrite V2; split; [apply (rnd_ge_0 53 1024 H3_64 H70_64); lra|apply (rnd_le_fmt 53 1024 H3_64 H70_64); [apply (fmt_1 53 1024 H3_64 H70_64)|lra]]|].
  assert (q / 2 * (m * c) <= q / 2 * (/ 2 + / 4)) by (apply Rmult_le_compat_l; [lra|]; apply Rabs_le_inv in VR; lra). apply Rabs_le_inv in E2, VR. apply Rabs_le. lra.
Qed.
Lemma tent_pieces s : (-1 < s <= 0 -> tent_F s = (1 + s) * (1 + s) / 2) /\ (0 < s <= 1 -> tent_F s = 1 - (1 - s) * (1 - s) / 2) /\ (s <= -1 -> tent_F s = 0) /\ (1 <= s -> tent_F s = 1).
Proof. unfold tent_F. repeat split; intros H; destruct (Rle_dec s (-1)); destruct (Rle_dec s 0); destruct (Rle_dec s 1); try lra. replace s with 1 by lra. field. Qed.
Lemma square_lip a b : Rabs a <= 1 -> Rabs b <= 1 -> Rabs (a * a / 2 - b * b / 2) <= Rabs (a - b).
Proof. intros A B. replace (a * a / 2 - b * b / 2) with ((a - b) * ((a + b) / 2)) by field. rewrite Rabs_mult. rewrite <- (Rmult_1_r (Rabs (a - b))) at 2. apply Rmult_le_compat_l; [apply Rabs_pos|]. apply Rabs_le_inv in A, B. apply Rabs_le. lra. Qed.
Lemma tent_cdf m d x : location m -> scale d -> is_finite x = true -> computes (tent_fcdf m d x) (F_tent (B2R m) (B2R d) (B2R x)) (5 * q).
Proof.
  intros Hm Hd Hx. pose proof q_pos as Q. pose proof (scale_pos d Hd) as Pd. assert (Id : 0 < / B2R d) by (apply Rinv_0_lt_compat, Pd). pose proof (proj1 Hd) as Fd. destruct (int_ok_ 0 ltac:(lia)) as (F0 & V0). destruct (int_ok_ 1 ltac:(lia)) as (F1 & V1).
  destruct (sub_loc x m Hx Hm) as (Y1 & _ & Y2 & Y3 & Y4). unfold tent_fcdf, F_tent. cbv zeta. set (y := dsub x m) in *. set (z := (B2R x - B2R m) / B2R d). set (s := B2R y / B2R d).
  assert (YS : B2R y = s * B2R d) by (unfold s; field; lra). assert (ZE : B2R x - B2R m = z * B2R d) by (unfold z; field; lra).
  assert (S : Rabs (s - z) <= q / 2 * Rabs z). { replace (s - z) with ((B2R y - (B2R x - B2R m)) * / B2R d) by (unfold s; rewrite ZE; field; lra). rewrite Rabs_mult, (Rabs_pos_eq (/ B2R d)) by lra. replace (q / 2 * Rabs z) with (q / 2 * Rabs (B2R x - B2R m) * / B2R d); [apply Rmult_le_compat_r; lra|]. rewrite ZE, Rabs_mult, (Rabs_pos_eq (B2R d)) by lra. field. lra. }
  pose proof (Rabs_pos z) as AZ. assert (QZ : 0 <= q * Rabs z <= / 1000 * Rabs z) by (split; [apply Rmult_le_pos; lra|apply Rmult_le_compat_r; lra]).
  assert (TS : Rabs (tent_F s - tent_F z) <= q).
  { destruct (Rle_lt_dec (Rabs z) 2) as [C|C]; [apply Rle_trans with (1 := tent_lip s z); assert (q / 2 * Rabs z <= q / 2 * 2) by (apply Rmult_le_compat_l; lra); lra|].
    destruct (Rle_lt_dec z 0) as [N|N]; [rewrite (Rabs_left1 z) in * by lra|rewrite (Rabs_pos_eq z) in * by lra]; apply Rabs_le_inv in S.
    - rewrite (proj1 (proj2 (proj2 (tent_pieces s)))), (proj1 (proj2 (proj2 (tent_pieces z)))) by lra. rewrite Rminus_0_r, Rabs_R0. lra.
    - rewrite (proj2 (proj2 (proj2 (tent_pieces s)))), (proj2 (proj2 (proj2 (tent_pieces z)))) by lra. rewrite Rminus_diag_eq, Rabs_R0 by reflexivity. lra. }
  assert (FIN : forall v e, computes v (tent_F s) e -> computes v (tent_F z) (e + q)). { intros v e (A & B & C). split; [exact A|]. split; [exact B|]. apply Rabs_le_inv in C, TS. apply Rabs_le. lra. }
  destruct (opp_ok d Fd) as (O1 & O2). rewrite (Bleb_correct _ _ y (dopp d) Y1 O1), O2. rewrite (leb_0 y Y1). rewrite (Bltb_correct _ _ y d Y1 Fd).
  assert (SD : forall c, (s <= c <-> B2R y <= c * B2R d) /\ (c <= s <-> c * B2R d <= B2R y)). { intros c. rewrite YS. split; split; intros H; try (apply Rmult_le_compat_r; lra); apply Rmult_le_reg_r with (B2R d); assumption. }
  destruct (Rle_bool_spec (B2R y) (- B2R d)) as [C1|C1]; [|destruct (Rle_bool_spec (B2R y) 0) as [C2|C2]; [|destruct (Rlt_bool_spec (B2R y) (B2R d)) as [C3|C3]]].
  - apply (computes_weaken _ _ (0 + q)); [lra|]. apply FIN. rewrite (proj1 (proj2 (proj2 (tent_pieces s)))) by (apply (proj2 (proj1 (SD (-1)))); lra). apply computes_0. lra.
  - assert (YD : Rabs (B2R y + B2R d) <= 4 * big). { rewrite Rabs_pos_eq by lra. assert (bpow radix2 300 <= big) by (apply bpow_le; lia). destruct Hd as (_ & Rd). lra. }
    destruct (add_ok y d Y1 Fd YD) as (A1 & A2). pose proof (rnd_plus (B2R y) (B2R d) (fmt_B2R 53 1024 H3_64 H70_64 y) (fmt_B2R 53 1024 H3_64 H70_64 d)) as E. rewrite <- A2, (Rabs_pos_eq (B2R y + B2R d)) in E by lra. set (n := dadd y d) in *.
    assert (N0 : 0 <= B2R n <= B2R d). { rewrite A2. split; [apply (rnd_ge_0 53 1024 H3_64 H70_64); lra|apply (rnd_le_fmt 53 1024 H3_64 H70_64); [apply (fmt_B2R 53 1024 H3_64 H70_64)|lra]]. }
    pose proof (square_ok n d Hd A1 ltac:(rewrite Rabs_pos_eq; lra)) as (K1 & K2 & K3). apply (computes_weaken _ _ (4 * q + q)); [lra|]. apply FIN. split; [exact K1|]. split; [exact K2|].
    rewrite (proj1 (tent_pieces s)) by (split; [apply Rnot_le_lt; intros H; pose proof (proj1 (proj1 (SD (-1))) H); lra|apply (proj2 (proj1 (SD 0))); lra]).
    assert (ND : Rabs (B2R n / B2R d - (1 + s)) <= q / 2). { replace (B2R n / B2R d - (1 + s)) with ((B2R n - (B2R y + B2R d)) * / B2R d) by (unfold s; field; lra). rewrite Rabs_mult, (Rabs_pos_eq (/ B2R d)) by lra. apply Rmult_le_reg_r with (B2R d); [lra|]. rewrite Rmult_assoc, Rinv_l by lra. assert (q / 2 * (B2R y + B2R d) <= q / 2 * B2R d) by (apply Rmult_le_compat_l; lra). lra. }
    pose proof (square_lip (B2R n / B2R d) (1 + s)) as SL. assert (L1 : Rabs (B2R n / B2R d) <= 1). { rewrite Rabs_pos_eq by (apply Rmult_le_pos; lra). apply Rmult_le_reg_r with (B2R d); [lra|]. unfold Rdiv. rewrite Rmult_assoc, Rinv_l by lra. lra. }
    assert (L2 : Rabs (1 + s) <= 1). { pose proof (proj2 (proj1 (SD 0)) ltac:(lra)). pose proof (proj2 (proj2 (SD (-1))) ltac:(lra)). apply Rabs_le. lra. }
    specialize (SL L1 L2). assert (SL2 : Rabs (B2R n / B2R d * (B2R n / B2R d) / 2 - (1 + s) * (1 + s) / 2) <= q) by lra. apply Rabs_le_inv in K3, SL2. apply Rabs_le. lra.
  - assert (YD : Rabs (B2R y - B2R d) <= 4 * big). { rewrite Rabs_left1 by lra. assert (bpow radix2 300 <= big) by (apply bpow_le; lia). destruct Hd as (_ & Rd). lra. }
    destruct (sub_near y d Y1 Fd YD) as (A1 & A2 & E & _ & N1). rewrite (Rabs_left1 (B2R y - B2R d)) in E by lra. specialize (N1 ltac:(lra)). set (n := dsub y d) in *.
    assert (N0 : - B2R d <= B2R n <= 0). { split; [|exact N1]. rewrite A2. apply (rnd_ge_fmt 53 1024 H3_64 H70_64); [apply generic_format_opp, (fmt_B2R 53 1024 H3_64 H70_64)|lra]. }
    pose proof (square_ok n d Hd A1 ltac:(rewrite Rabs_left1; lra)) as K. apply one_minus in K. destruct K as (K1 & K2 & K3). apply (computes_weaken _ _ (4 * q + q)); [lra|]. apply FIN. split; [exact K1|]. split; [exact K2|].
    assert (S1 : 0 < s) by (apply Rnot_le_lt; intros H; pose proof (proj1 (proj1 (SD 0)) H); lra). assert (S2 : s <= 1) by (apply (proj2 (proj1 (SD 1))); lra).
    rewrite (proj1 (proj2 (tent_pieces s))) by lra.
    assert (ND : Rabs (B2R n / B2R d - (s - 1)) <= q / 2). { replace (B2R n / B2R d - (s - 1)) with ((B2R n - (B2R y - B2R d)) * / B2R d) by (unfold s; field; lra). rewrite Rabs_mult, (Rabs_pos_eq (/ B2R d)) by lra. apply Rmult_le_reg_r with (B2R d); [lra|]. rewrite Rmult_assoc, Rinv_l by lra. assert (q / 2 * - (B2R y - B2R d) <= q / 2 * B2R d) by (apply Rmult_le_compat_l; lra). lra. }
    pose proof (square_lip (B2R n / B2R d) (s - 1)) as SL. assert (L1 : Rabs (B2R n / B2R d) <= 1). { apply Rabs_le. split; apply Rmult_le_reg_r with (B2R d); try lra; unfold Rdiv; rewrite Rmult_assoc, Rinv_l by lra; lra. }
    specialize (SL L1 ltac:(apply Rabs_le; lra)). assert (SL2 : Rabs (B2R n / B2R d * (B2R n / B2R d) / 2 - (1 - s) * (1 - s) / 2) <= q / 2) by (replace ((1 - s) * (1 - s)) with ((s - 1) * (s - 1)) by ring; lra). apply Rabs_le_inv in K3, SL2. apply Rabs_le. lra.
  - apply (computes_weaken _ _ (0 + q)); [lra|]. apply FIN. rewrite (proj2 (proj2 (proj2 (tent_pieces s)))) by (apply (proj2 (proj2 (SD 1))); lra). split; [exact F1|]. rewrite V1. split; [lra|]. rewrite Rminus_diag_eq, Rabs_R0 by reflexivity. lra.
Qed.

(** ** uniform *)
Lemma uniform_cdf a b x : position a -> position b -> B2R a < B2R b -> is_finite x = true -> computes (uniform_fcdf a b x) (F_uniform (B2R a) (B2R b) (B2R x)) (3 * q).
Proof.
  intros (Fa & Ra) (Fb & Rb) AB Fx. pose proof q_pos as Q. pose proof tiny_small as T. destruct (int_ok_ 1 ltac:(lia)) as (F1 & V1). unfold uniform_fcdf, F_uniform. rewrite (Bltb_correct _ _ x a Fx Fa), (Bleb_correct _ _ b x Fb Fx). apply Rabs_le_inv in Ra, Rb. change (bpow radix2 1000) with big in *.
  destruct (Rlt_bool_spec (B2R x) (B2R a)) as [C1|C1].
  { destruct (Rle_dec (B2R x) (B2R a)) as [_|N]; [|lra]. apply computes_0. lra. }
  destruct (Rle_bool_spec (B2R b) (B2R x)) as [C2|C2].
  { destruct (Rle_dec (B2R x) (B2R a)) as [N|_]; [lra|]. destruct (Rle_dec (B2R b) (B2R x)) as [_|N]; [|lra]. split; [exact F1|]. rewrite V1. split; [lra|]. rewrite Rminus_diag_eq, Rabs_R0 by reflexivity. lra. }
  pose proof big_10 as B10. destruct (sub_near x a Fx Fa) as (X1 & X2 & X3 & X4 & _); [apply Rabs_le; lra|]. destruct (sub_near b a Fb Fa) as (W1 & W2 & W3 & _); [apply Rabs_le; lra|]. specialize (X4 ltac:(lra)). set (n := dsub x a) in *. set (w := dsub b a) in *.
  rewrite (Rabs_pos_eq (B2R x - B2R a)) in X3 by lra. rewrite (Rabs_pos_eq (B2R b - B2R a)) in W3 by lra. set (u := B2R b - B2R a) in *. set (v := B2R x - B2R a) in *. assert (U0 : 0 < u) by (unfold u; lra). assert (V0 : 0 <= v <= u) by (unfold u, v; lra).
  assert (QU : 0 <= q * u <= / 1000 * u) by (split; [apply Rmult_le_pos; lra|apply Rmult_le_compat_r; lra]). apply Rabs_le_inv in W3. assert (W0 : u / 2 <= B2R w) by lra.
  assert (NW : B2R n <= B2R w) by (rewrite X2, W2; apply round_le; try typeclasses eauto; lra). set (r := B2R n / B2R w). set (p := v / u). assert (P0 : 0 <= p <= 1). { split; [apply Rmult_le_pos; [lra|left; apply Rinv_0_lt_compat, U0]|]. apply Rmult_le_reg_r with u; [lra|]. unfold p, Rdiv. rewrite Rmult_assoc, Rinv_l by lra. lra. }
  assert (R0 : 0 <= r <= 1). { split; [apply Rmult_le_pos; [lra|left; apply Rinv_0_lt_compat; lra]|]. apply Rmult_le_reg_r with (B2R w); [lra|]. unfold r, Rdiv. rewrite Rmult_assoc, Rinv_l by lra. lra. }
  assert (RP : Rabs (r - p) <= 2 * q).
  { assert (QV : 0 <= q / 2 * v <= q / 2 * u) by (split; [apply Rmult_le_pos; lra|apply Rmult_le_compat_l; lra]). assert (NV : Rabs (B2R n - v) <= q / 2 * u) by lra. apply Rabs_le_inv in NV.
    replace (r - p) with ((B2R n - v + p * (u - B2R w)) * / B2R w) by (unfold r, p; field; lra). rewrite Rabs_mult, (Rabs_pos_eq (/ B2R w)) by (left; apply Rinv_0_lt_compat; lra). apply Rmult_le_reg_r with (B2R w); [lra|]. rewrite Rmult_assoc, Rinv_l by lra.
    assert (PW : Rabs (p * (u - B2R w)) <= 1 * (q / 2 * u)) by (rewrite Rabs_mult, (Rabs_pos_eq p) by lra; apply Rmult_le_compat; try lra; [apply Rabs_pos|apply Rabs_le; lra]). apply Rabs_le_inv in PW. assert (2 * q * (u / 2) <= 2 * q * B2R w) by (apply Rmult_le_compat_l; lra). rewrite Rmult_1_r. apply Rabs_le. lra. }
  destruct (div_ok n w X1) as (D1 & D2); [lra|fold r; rewrite Rabs_pos_eq; lra|]. fold r in D2. pose proof (rnd_err r) as E. rewrite <- D2, (Rabs_pos_eq r) in E by lra. assert (q / 2 * r <= q / 2 * 1) by (apply Rmult_le_compat_l; lra).
  assert (CP : computes (ddiv n w) p (3 * q)). { split; [exact D1|]. split; [rewrite D2; split; [apply (rnd_ge_0 53 1024 H3_64 H70_64); lra|apply (rnd_le_fmt 53 1024 H3_64 H70_64); [apply (fmt_1 53 1024 H3_64 H70_64)|lra]]|]. apply Rabs_le_inv in E, RP. apply Rabs_le. lra. }
  destruct (Rle_dec (B2R x) (B2R a)) as [N|N]; [|destruct (Rle_dec (B2R b) (B2R x)); [lra|exact CP]]. replace 0 with p; [exact CP|]. unfold p, v. replace (B2R x) with (B2R a) by lra. unfold Rdiv. ring.
Qed.
