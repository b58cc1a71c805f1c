(** icdf in double: the distribution function at the computed quantile. *)
From Coq Require Import ZArith Bool Reals Lia Lra Psatz.
From Flocq Require Import Core IEEE754.BinarySingleNaN.
From Verif Require Import FloatFacts UniformModel UniformProofs FloatDrawModel FloatDrawSpec FloatDrawProofs FloatDrawCore FloatDrawLoc FloatDrawTrig FloatDrawLaw DiscDrawTree DiscDrawSpec FloatCdfModel FloatCdfSpec FloatCdfProofs FloatCdfCore FloatCdfPow FloatCdfLoc.
Local Open Scope R_scope.
Notation rnd := (round radix2 (SpecFloat.fexp 53 1024) ZnearestE).

Lemma one_sub (x : double) : is_finite x = true -> 0 <= B2R x <= 1 - q / 2 -> is_finite (dsub (dint 1) x) = true /\ q / 2 <= B2R (dsub (dint 1) x) <= 1 /\ Rabs (B2R (dsub (dint 1) x) - (1 - B2R x)) <= q / 2 /\ (q <= B2R x -> B2R (dsub (dint 1) x) <= 1 - q / 2).
Proof.
  intros F R. pose proof q_pos as Q. destruct (int_ok_ 1 ltac:(lia)) as (F1 & V1). pose proof big_10 as B10. destruct (sub_near (dint 1) x F1 F) as (A & B & C & _); [rewrite V1; apply Rabs_le; lra|]. rewrite V1 in *. rewrite (Rabs_pos_eq (1 - B2R x)) in C by lra.
  assert (U : B2R (dsub (dint 1) x) <= 1) by (rewrite B; apply (rnd_le_fmt 53 1024 H3_64 H70_64); [apply (fmt_1 53 1024 H3_64 H70_64)|lra]).
  split; [exact A|]. split; [split; [|exact U]|split].
  - rewrite B, <- u_eq. apply (rnd_ge_fmt 53 1024 H3_64 H70_64); [apply (fmt_bpow 53 1024 H3_64 H70_64); lia|rewrite u_eq; lra].
  - assert (q / 2 * (1 - B2R x) <= q / 2 * 1) by (apply Rmult_le_compat_l; lra). lra.
  - intros H. apply below_1. assert (q / 2 * (1 - B2R x) <= q / 2 * 1) by (apply Rmult_le_compat_l; lra). apply Rabs_le_inv in C. lra.
Qed.
(** the tests in front of the formulas *)
Lemma tests_open (x : double) : is_finite x = true -> 0 < B2R x < 1 -> Bleb x (dint 0) || Bleb (dint 1) x = false /\ Beqb x (dint 0) = false /\ Beqb x (dint 1) = false.
Proof.
  intros F R. destruct (int_ok_ 0 ltac:(lia)) as (F0 & V0). destruct (int_ok_ 1 ltac:(lia)) as (F1 & V1). rewrite !Bleb_correct, !Beqb_correct by assumption. rewrite V0, V1, !Rle_bool_false by lra. rewrite !Req_bool_false by lra. repeat split; reflexivity.
Qed.
Lemma tests_closed (x : double) : is_finite x = true -> 0 <= B2R x <= 1 -> Bltb x (dint 0) || Bltb (dint 1) x = false.
Proof. intros F R. destruct (int_ok_ 0 ltac:(lia)) as (F0 & V0). destruct (int_ok_ 1 ltac:(lia)) as (F1 & V1). rewrite !Bltb_correct by assumption. rewrite V0, V1, !Rlt_bool_false by lra. reflexivity. Qed.
Lemma test_1 (x : double) : is_finite x = true -> B2R x < 1 -> Beqb x (dint 1) = false /\ Bleb (dint 1) x = false.
Proof. intros F R. destruct (int_ok_ 1 ltac:(lia)) as (F1 & V1). rewrite Beqb_correct, Bleb_correct by assumption. rewrite V1, Req_bool_false, Rle_bool_false by lra. split; reflexivity. Qed.
Lemma flip u W x e : Rabs (u - W) <= e -> Rabs (W - (1 - x)) <= q / 2 -> Rabs (1 - u - x) <= e + q / 2.
Proof. intros A B. apply Rabs_le_inv in A, B. apply Rabs_le. lra. Qed.

Section Functions.
Variable M : libmx.
Hypothesis HM : accurate_x M.
Let L := x_base M.
Let HL : accurate L := ax_base M HM.

Lemma exponential_inv mu x : scale mu -> is_finite x = true -> 0 <= B2R x < 1 -> solves (exponential_ficdf M mu x) (F_exponential (B2R mu)) (B2R x) (21 * q).
Proof.
  intros Hm F R. pose proof q_pos as Q. pose proof (below_1 x (proj2 R)) as R1. unfold exponential_ficdf. rewrite (tests_closed x F ltac:(lra)), (proj1 (test_1 x F (proj2 R))). destruct (one_sub x F ltac:(lra)) as (W1 & W2 & W3 & _). set (W := dsub (dint 1) x) in *.
  destruct (exp_core L HL mu W Hm W1 W2) as (V1 & V2 & V3). change (x_base M) with L. set (v := dmul (dopp mu) (m_ln L W)) in *. split; [exact V1|]. pose proof (flip _ _ _ _ V3 W3) as E. unfold F_exponential. destruct (Rle_dec (B2R v) 0) as [C|C]; [|lra].
  replace (B2R v) with 0 in E by lra. unfold Rdiv in E. rewrite Rmult_0_l, Ropp_0, exp_0 in E. replace (0 - B2R x) with (1 - 1 - B2R x) by ring. lra.
Qed.
Lemma twosided_inv mu x : scale mu -> is_finite x = true -> q <= B2R x < 1 -> solves (twosided_ficdf L mu x) (F_twosided (B2R mu)) (B2R x) (12 * q).
Proof.
  intros Hm F R. pose proof q_pos as Q. pose proof (below_1 x (proj2 R)) as R1. destruct (twosided_icdf L HL mu x Hm F ltac:(lra)) as (V1 & V2). set (v := twosided_ficdf L mu x) in *. split; [exact V1|]. unfold F_twosided. destruct V2 as [(S & E & _)|(S & E & _)]; destruct (Rle_dec (B2R v) 0) as [C|C]; try lra.
  - replace (B2R v) with 0 in * by lra. unfold Rdiv in *. rewrite Rmult_0_l in *. rewrite Ropp_0 in E. rewrite exp_0 in *. apply Rabs_le_inv in E. apply Rabs_le. lra.
  - apply Rabs_le_inv in E. apply Rabs_le. lra.
Qed.
Lemma rayleigh_inv nu x : scale nu -> is_finite x = true -> q <= B2R x < 1 -> solves (rayleigh_ficdf L nu x) (F_rayleigh (B2R nu)) (B2R x) (42 * q).
Proof.
  intros Hn F R. pose proof (below_1 x (proj2 R)) as R1. destruct (rayleigh_icdf L HL nu x Hn F ltac:(lra)) as (V1 & V2 & V3). set (v := rayleigh_ficdf L nu x) in *. split; [exact V1|]. unfold F_rayleigh. destruct (Rle_dec (B2R v) 0) as [C|C]; [lra|]. apply Rabs_le_inv in V3. apply Rabs_le. lra.
Qed.
Lemma pareto_inv g th x : shape g -> scale th -> is_finite x = true -> 0 < B2R x < 1 -> solves (pareto_ficdf M g th x) (F_pareto (B2R g) (B2R th)) (B2R x) ((5 + 20 * B2R g) * q).
Proof.
  intros Hg Ht F R. pose proof q_pos as Q. pose proof (below_1 x (proj2 R)) as R1. destruct (tests_open x F R) as (T1 & T2 & T3). unfold pareto_ficdf. rewrite T1, T2, T3. destruct (one_sub x F ltac:(lra)) as (W1 & W2 & W3 & _). set (W := dsub (dint 1) x) in *.
  destruct (pareto_core L HL g th W Hg Ht W1 W2) as (V1 & V2 & V3). change (x_base M) with L. set (v := dmul _ th) in *. split; [exact V1|]. pose proof (flip _ _ _ _ V3 W3) as E. unfold F_pareto. destruct (Rle_dec (B2R v) 0) as [C|C]; [|lra].
  replace (B2R v) with 0 in E by lra. unfold Rdiv, Rpower in E. rewrite Rmult_0_l, Rplus_0_r, ln_1, Rmult_0_r, exp_0 in E. replace (0 - B2R x) with (1 - 1 - B2R x) by ring. lra.
Qed.
Lemma powerlaw_back g th X : shape g -> scale th -> is_finite X = true -> q / 2 <= B2R X <= 1 -> let v := dmul th (m_pow L X (ddiv (dint (-1)) g)) in
  is_finite v = true /\ B2R th <= B2R v /\ Rabs (Rpower (B2R v / B2R th) (- B2R g) - B2R X) <= (4 + 10 * B2R g) * q.
Proof.
  intros Hg Ht F R v. pose proof q_pos as Q. pose proof (scale_pos th Ht) as Pt. destruct (pow_core L HL g X Hg F R) as (P1 & P2 & P3 & P4).
  set (p := m_pow L X (ddiv (dint (-1)) g)) in *. set (e := - ln (B2R X)) in *. assert (XE : B2R X = exp (- e)) by (unfold e; rewrite Ropp_involutive, exp_ln; lra).
  destruct Ht as (Ft & Rt). destruct (rnd_lc 0 (B2R th * B2R p) (B2R th * B2R p)) as (B & C); [apply lc_refl, Rmult_lt_0_compat; lra|lra| |].
  { apply bpow_widen with (-300 + 0)%Z (300 + 700)%Z; [lia|lia|]. apply bpow_range; [exact Rt|]. split; [apply P2|]. apply Rle_trans with (1 := proj2 P2). apply bpow_le. lia. }
  destruct (mul_ok th p Ft P1 B) as (M1 & M2). fold v in M1, M2. split; [exact M1|]. rewrite M2. split; [apply mul_fmt_ge; lra|]. rewrite <- M2. rewrite <- M2 in C. rewrite XE. replace 10 with (8 + 2 * 1) by ring.
  apply power_back with (B2R p); try lra; [destruct C as (C & _); apply Rdiv_lt_0_compat; lra|apply Hg|].
  assert (C' : lc q (B2R v / B2R th) (B2R p)). { replace (B2R p) with (B2R th * B2R p / B2R th) by (field; lra). replace q with (0 + q + 0) by ring. apply lc_div; [exact C|apply lc_refl, Pt]. } destruct C' as (_ & _ & C'). lra.
Qed.
Lemma powerlaw_inv g th x : shape g -> scale th -> is_finite x = true -> 0 < B2R x < 1 -> solves (powerlaw_ficdf M g th x) (F_powerlaw (B2R g) (B2R th)) (B2R x) ((5 + 10 * B2R g) * q) /\ B2R th <= B2R (powerlaw_ficdf M g th x).
Proof.
  intros Hg Ht F R. pose proof q_pos as Q. pose proof (scale_pos th Ht) as Pt. pose proof (below_1 x (proj2 R)) as R1. destruct (tests_open x F R) as (T1 & T2 & T3). unfold powerlaw_ficdf. rewrite T1, T2, T3. destruct (one_sub x F ltac:(lra)) as (W1 & W2 & W3 & _). set (W := dsub (dint 1) x) in *.
  destruct (powerlaw_back g th W Hg Ht W1 W2) as (V1 & V2 & V3). change (x_base M) with L. set (v := dmul th _) in *. split; [|exact V2]. split; [exact V1|]. pose proof (flip _ _ _ _ V3 W3) as E. unfold F_powerlaw. destruct (Rle_dec (B2R v) (B2R th)) as [C|C]; [|lra].
  replace (B2R v) with (B2R th) in E by lra. unfold Rdiv, Rpower in E. rewrite Rinv_r, ln_1, Rmult_0_r, exp_0 in E by lra. replace (0 - B2R x) with (1 - 1 - B2R x) by ring. lra.
Qed.

Lemma weibull_back th be Y e : scale th -> shape be -> is_finite Y = true -> q / 2 <= e <= 40 -> lc (4 * q) (B2R Y) e -> let v := dmul th (m_pow L Y (ddiv (dint 1) be)) in
  is_finite v = true /\ 0 < B2R v /\ Rabs (exp (- Rpower (B2R v / B2R th) (B2R be)) - exp (- e)) <= (344 + 20 * B2R be) * q.
Proof.
  intros Ht Hb O1 He C v. pose proof q_pos as Q. pose proof (scale_pos th Ht) as Pt. destruct Ht as (Ft & Rt). destruct (recip_core be 1 Hb ltac:(auto)) as (G1 & h & G2 & G3 & G4 & G5). rewrite Rmult_1_l in G2. set (g := ddiv (dint 1) be) in *. destruct Hb as (_ & Rb).
  assert (LE : - 40 <= ln e <= 39). { split; [apply ln_ge_53; lra|]. pose proof (ln_up e ltac:(lra)). lra. }
  pose proof C as (Y0 & _ & LY). pose proof (Rabs_le_inv _ _ LY) as LY'. assert (YB : -41 <= ln (B2R Y) <= 41) by lra.
  assert (HY : - (333) <= h * ln (B2R Y) <= 333). { assert (- (81 / 10 * 41) <= h * ln (B2R Y) <= 81 / 10 * 41); [|lra]. split; [replace (- (81 / 10 * 41)) with (81 / 10 * -41) by ring; apply Rle_trans with (h * -41); [|apply Rmult_le_compat_l; lra]; lra|]. apply Rle_trans with (h * 41); [apply Rmult_le_compat_l; lra|lra]. }
  destruct (acc_pow L HL Y g O1 G1 Y0) as (P1 & P2); [rewrite G2; apply Rabs_le; lra|]. set (p := m_pow L Y g) in *. rewrite G2 in P2.
  assert (CP : lc (4 * q) (B2R p) (Rpower (B2R Y) h)). { replace (4 * q) with (2 * / 2 ^ 51) by (unfold q; field). apply lc_rel; [apply exp_pos|lra|exact P2]. }
  destruct (rnd_lc (4 * q) (B2R th * B2R p) (B2R th * Rpower (B2R Y) h)) as (B & CV); [replace (4 * q) with (0 + 4 * q) by ring; apply lc_mul; [apply lc_refl, Pt|exact CP]|lra| |].
  { apply bpow_widen with (-300 + - (2 * 333))%Z (300 + 2 * 333)%Z; [lia|lia|]. apply bpow_range; [exact Rt|]. unfold Rpower. apply exp_range. lra. }
  destruct (mul_ok th p Ft P1 B) as (M1 & M2). fold v in M1, M2. rewrite <- M2 in CV. split; [exact M1|]. pose proof CV as (V0 & _). split; [exact V0|].
  assert (CW : lc (5 * q) (B2R v / B2R th) (Rpower (B2R Y) h)). { replace (Rpower (B2R Y) h) with (B2R th * Rpower (B2R Y) h / B2R th) by (field; lra). replace (5 * q) with (4 * q + q + 0) by ring. apply lc_div; [exact CV|apply lc_refl, Pt]. }
  destruct CW as (W0 & _ & CW). rewrite ln_Rpower in CW.
  assert (S : lc ((5 * B2R be + 86) * q) (Rpower (B2R v / B2R th) (B2R be)) e).
  { split; [apply exp_pos|]. split; [lra|]. rewrite ln_Rpower. replace (B2R be * ln (B2R v / B2R th) - ln e) with (B2R be * (ln (B2R v / B2R th) - h * ln (B2R Y)) + ((B2R be * h - 1) * ln (B2R Y) + (ln (B2R Y) - ln e))) by ring.
    apply Rle_trans with (1 := Rabs_triang _ _). assert (A1 : Rabs (B2R be * (ln (B2R v / B2R th) - h * ln (B2R Y))) <= B2R be * (5 * q)) by (rewrite Rabs_mult, (Rabs_pos_eq (B2R be)) by lra; apply Rmult_le_compat_l; lra).
    assert (A2 : Rabs ((B2R be * h - 1) * ln (B2R Y)) <= 2 * q * 41) by (rewrite Rabs_mult; apply Rmult_le_compat; try apply Rabs_pos; [exact G5|apply Rabs_le; lra]).
    pose proof (Rabs_triang ((B2R be * h - 1) * ln (B2R Y)) (ln (B2R Y) - ln e)). lra. }
  assert (BQ : 0 <= B2R be * q <= 2 ^ 20 * q) by (split; [apply Rmult_le_pos|apply Rmult_le_compat_r]; lra). assert (K2 : (5 * B2R be + 86) * q <= / 1000) by (unfold q in *; lra).
  pose proof (lc_abs _ _ _ S ltac:(lra)) as A.
  replace ((344 + 20 * B2R be) * q) with (2 * (2 * ((5 * B2R be + 86) * q)) + 2 * 0) by ring. assert (KE : (5 * B2R be + 86) * q * e <= / 1000 * 40) by (apply Rmult_le_compat; lra). apply exp_back; lra.
Qed.
Lemma weibull_inv th be x : scale th -> shape be -> is_finite x = true -> B2R x = 0 \/ q <= B2R x < 1 -> solves (weibull_ficdf M th be x) (F_weibull (B2R th) (B2R be)) (B2R x) ((344 + 20 * B2R be) * q).
Proof.
  intros Ht Hb F R. pose proof q_pos as Q. pose proof Hb as (Fb & Rb). assert (BQ : 0 <= B2R be * q) by (apply Rmult_le_pos; lra). unfold weibull_ficdf. assert (X1 : B2R x < 1) by lra. pose proof (below_1 x X1) as X2. pose proof (tests_closed x F ltac:(lra)) as TC. apply orb_false_iff in TC. rewrite (proj1 TC), (proj2 (test_1 x F X1)). cbn [orb].
  destruct (opp_ok x F) as (O1 & O2). destruct (ax_ln1p M HM (dopp x) O1) as (N1 & N2); [rewrite O2; lra|]. rewrite O2 in N2. replace (/ 2 ^ 51) with (2 * q) in N2 by (unfold q; field). destruct (opp_ok _ N1) as (Y1 & Y2). set (Y := dopp (x_ln1p M (dopp x))) in *. change (x_base M) with L.
  destruct R as [R|R].
  - rewrite R, Ropp_0, Rplus_0_r, ln_1, Rabs_R0, Rmult_0_r, Rminus_0_r in N2. assert (Y0 : B2R Y = 0). { rewrite Y2. apply Rabs_le_inv in N2. lra. }
    destruct (recip_core be 1 Hb ltac:(auto)) as (G1 & h & G2 & _ & G4 & _). rewrite Rmult_1_l in G2. destruct (acc_pow_0 L HL _ _ Y1 G1 Y0) as (P1 & P2); [rewrite G2; lra|].
    destruct (mul_ok th _ (proj1 Ht) P1) as (M1 & M2); [rewrite P2, Rmult_0_r, Rabs_R0; pose proof (bpow_gt_0 radix2 1000); unfold big; lra|]. rewrite P2, Rmult_0_r, round_0 in M2 by typeclasses eauto. split; [exact M1|]. unfold F_weibull. rewrite M2. destruct (Rle_dec 0 0) as [_|N]; [|lra]. rewrite R, Rminus_0_r, Rabs_R0. lra.
  - set (e := - ln (1 - B2R x)). assert (He : q / 2 <= e <= 40). { split; [apply neg_ln_ge; lra|]. pose proof (ln_ge_53 (1 - B2R x) ltac:(lra)). unfold e. lra. }
    replace (1 + - B2R x) with (1 - B2R x) in N2 by ring. assert (C : lc (4 * q) (B2R Y) e). { replace (4 * q) with (2 * (2 * q)) by ring. apply lc_rel; [lra|lra|]. rewrite Y2. unfold e. replace (- B2R (x_ln1p M (dopp x)) - - ln (1 - B2R x)) with (- (B2R (x_ln1p M (dopp x)) - ln (1 - B2R x))) by ring. rewrite Rabs_Ropp. apply Rle_trans with (1 := N2). apply Req_le. f_equal. rewrite Rabs_left1; [reflexivity|]. unfold e in He. lra. }
    destruct (weibull_back th be Y e Ht Hb Y1 He C) as (V1 & V2 & V3). set (v := dmul th _) in *. split; [exact V1|]. unfold F_weibull. destruct (Rle_dec (B2R v) 0) as [N|_]; [lra|]. assert (EX : exp (- e) = 1 - B2R x) by (unfold e; rewrite Ropp_involutive, exp_ln; lra). rewrite EX in V3. apply Rabs_le_inv in V3. apply Rabs_le. lra.
Qed.

Lemma cauchy_inv th et x : scale th -> location et -> is_finite x = true -> q <= B2R x < 1 -> solves (cauchy_ficdf_ M th et x) (F_cauchy (B2R th) (B2R et)) (B2R x) ((12 + Rabs (B2R et) / B2R th) * q).
Proof.
  intros Ht He F R. pose proof q_pos as Q. destruct (tests_open x F ltac:(lra)) as (T1 & T2 & T3). unfold cauchy_ficdf_. rewrite T1, T2, T3. apply (cauchy_core L HL th et x Ht He F). lra.
Qed.
Lemma logistic_inv th et x : scale th -> location et -> is_finite x = true -> q <= B2R x < 1 -> solves (logistic_ficdf_ M th et x) (F_logistic (B2R th) (B2R et)) (B2R x) ((140 + Rabs (B2R et) / B2R th) * q).
Proof.
  intros Ht He F R. pose proof q_pos as Q. pose proof (below_1 x (proj2 R)) as R1. destruct (tests_open x F ltac:(lra)) as (_ & T2 & T3). unfold logistic_ficdf_. rewrite (tests_closed x F ltac:(lra)), T2, T3. apply (logistic_core L HL th et x Ht He F). lra.
Qed.
Lemma extreme_inv th et x : scale th -> location et -> is_finite x = true -> q <= B2R x < 1 -> solves (extreme_ficdf M th et x) (F_extreme (B2R th) (B2R et)) (B2R x) ((141 + Rabs (B2R et) / B2R th) * q).
Proof.
  intros Ht He F R. pose proof q_pos as Q. pose proof (below_1 x (proj2 R)) as R1. destruct (tests_open x F ltac:(lra)) as (T1 & T2 & T3). unfold extreme_ficdf. rewrite T1, T2, T3. destruct (one_sub x F ltac:(lra)) as (W1 & W2 & W3 & W4). specialize (W4 (proj1 R)). set (W := dsub (dint 1) x) in *.
  destruct (extreme_core L HL th et W Ht He W1 ltac:(lra)) as (V1 & V2). split; [exact V1|]. pose proof (flip _ _ _ _ V2 W3) as E. unfold F_extreme. change (x_base M) with L. lra.
Qed.
End Functions.

Lemma tent_inv m d x : location m -> scale d -> is_finite x = true -> 0 <= B2R x <= 1 -> solves (tent_ficdf_ m d x) (F_tent (B2R m) (B2R d)) (B2R x) ((5 + Rabs (B2R m) / B2R d) * q).
Proof. intros Hm Hd F R. unfold tent_ficdf_. rewrite (tests_closed x F R). destruct (tent_core m d x Hm Hd F R) as (A & _ & B). split; assumption. Qed.

Lemma uniform_clip a b v x : a < b -> 0 <= x <= 1 -> Rabs (F_uniform a b v - x) <= Rabs ((v - a) / (b - a) - x).
Proof.
  intros AB X. unfold F_uniform. assert (I : 0 < / (b - a)) by (apply Rinv_0_lt_compat; lra). destruct (Rle_dec v a) as [C|C]; [|destruct (Rle_dec b v) as [C2|C2]; [|lra]].
  - assert ((v - a) / (b - a) <= 0). { unfold Rdiv. replace ((v - a) * / (b - a)) with (- ((a - v) * / (b - a))) by ring. assert (0 <= (a - v) * / (b - a)) by (apply Rmult_le_pos; lra). lra. } rewrite !Rabs_left1; lra.
  - assert (1 <= (v - a) / (b - a)). { apply Rmult_le_reg_r with (b - a); [lra|]. unfold Rdiv. rewrite Rmult_assoc, Rinv_l by lra. lra. } rewrite !Rabs_pos_eq; lra.
Qed.
Lemma uniform_inv a b x : location a -> location b -> bpow radix2 (-300) <= B2R b - B2R a -> is_finite x = true -> 0 <= B2R x <= 1 ->
  solves (uniform_ficdf a b x) (F_uniform (B2R a) (B2R b)) (B2R x) ((3 + Rmax (Rabs (B2R a)) (Rabs (B2R b)) / (B2R b - B2R a)) * q).
Proof.
  intros (Fa & Ra) (Fb & Rb) W F R. pose proof q_pos as Q. pose proof tiny_pos as T0. pose proof (bpow_gt_0 radix2 (-300)) as P3. unfold uniform_ficdf. rewrite (tests_closed x F R). set (A := Rmax (Rabs (B2R a)) (Rabs (B2R b))). pose proof (Rmax_l (Rabs (B2R a)) (Rabs (B2R b))) as A1. pose proof (Rmax_r (Rabs (B2R a)) (Rabs (B2R b))) as A2. fold A in A1, A2.
  assert (A3 : A <= bpow radix2 300) by (apply Rmax_lub; assumption). assert (BB : bpow radix2 300 <= big) by (apply bpow_le; lia). pose proof big_10 as B10. apply Rabs_le_inv in A1, A2. set (w := B2R b - B2R a) in *. assert (W2 : w <= 2 * A) by (unfold w; lra).
  destruct (sub_near b a Fb Fa) as (D1 & _ & D2 & _); [change (B2R b - B2R a) with w; rewrite Rabs_pos_eq; lra|]. change (B2R b - B2R a) with w in D2. rewrite (Rabs_pos_eq w) in D2 by lra. set (d := dsub b a) in *. apply Rabs_le_inv in D2.
  assert (QW : 0 <= q * w <= / 1000000 * w) by (split; [apply Rmult_le_pos; lra|apply Rmult_le_compat_r; lra]). set (xv := B2R x) in *.
  assert (TW : tiny <= q / 1024 * w). { unfold tiny. apply Rle_trans with (q / 1024 * bpow radix2 (-300)); [|apply Rmult_le_compat_l; lra]. replace (q / 1024) with (bpow radix2 (-62)) by (unfold q; cbn; lra). rewrite <- bpow_plus. apply bpow_le. lia. }
  assert (XD : 0 <= xv * B2R d <= 1 * (2 * w)) by (split; [apply Rmult_le_pos; lra|apply Rmult_le_compat; lra]). destruct (mul_ok x d F D1) as (M1 & M2); [fold xv; rewrite Rabs_pos_eq; lra|]. fold xv in M2. set (P := dmul x d) in *.
  pose proof (rnd_err (xv * B2R d)) as E1. rewrite <- M2, (Rabs_pos_eq (xv * B2R d)) in E1 by lra. assert (Q1 : q / 2 * (xv * B2R d) <= q / 2 * (1001 / 1000 * w)). { apply Rmult_le_compat_l; [lra|]. apply Rle_trans with (1 * B2R d); [apply Rmult_le_compat_r; lra|lra]. }
  assert (E2 : Rabs (xv * B2R d - xv * w) <= q / 2 * w). { replace (xv * B2R d - xv * w) with (xv * (B2R d - w)) by ring. rewrite Rabs_mult, (Rabs_pos_eq xv) by lra. apply Rle_trans with (1 * (q / 2 * w)); [apply Rmult_le_compat; try lra; [apply Rabs_pos|apply Rabs_le; lra]|lra]. }
  assert (XW : 0 <= xv * w <= 1 * w) by (split; [apply Rmult_le_pos; lra|apply Rmult_le_compat_r; lra]). apply Rabs_le_inv in E1, E2.
  assert (PA : Rabs (B2R P + B2R a) <= A + 2 * q * w). { apply Rabs_le. unfold w in *. lra. } pose proof (Rabs_pos (B2R P + B2R a)) as PA0.
  destruct (add_ok P a M1 Fa) as (V1 & V2); [lra|]. pose proof (rnd_plus (B2R P) (B2R a) (fmt_B2R 53 1024 H3_64 H70_64 P) (fmt_B2R 53 1024 H3_64 H70_64 a)) as E3. rewrite <- V2 in E3. set (v := dadd P a) in *. split; [exact V1|].
  apply Rle_trans with (1 := uniform_clip (B2R a) (B2R b) (B2R v) xv ltac:(unfold w in *; lra) R). change (B2R b - B2R a) with w. assert (I : 0 < / w) by (apply Rinv_0_lt_compat; lra).
  replace ((B2R v - B2R a) / w - xv) with ((B2R v - B2R a - xv * w) * / w) by (field; lra). rewrite Rabs_mult, (Rabs_pos_eq (/ w)) by lra. apply Rmult_le_reg_r with w; [lra|]. rewrite Rmult_assoc, Rinv_l, Rmult_1_r by lra.
  replace ((3 + A / w) * q * w) with (3 * (q * w) + q * A) by (field; lra). assert (q / 2 * Rabs (B2R P + B2R a) <= q / 2 * (A + 2 * q * w)) by (apply Rmult_le_compat_l; lra). assert (q * (q * w) <= / 1000000 * (q * w)) by (apply Rmult_le_compat_r; lra). assert (0 <= q * A) by (apply Rmult_le_pos; lra). apply Rabs_le_inv in E3. apply Rabs_le. lra.
Qed.
