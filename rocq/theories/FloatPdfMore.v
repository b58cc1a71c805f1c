(** pdf in double: pareto, powerlaw, tent, uniform, cauchy. *)
From Coq Require Import ZArith Bool Reals Lia Lra Psatz.
From Flocq Require Import Core IEEE754.BinarySingleNaN.
From Verif Require Import FloatFacts UniformModel UniformProofs FloatDrawModel FloatDrawSpec FloatDrawProofs FloatDrawCore FloatDrawLoc FloatDrawTrig FloatDrawLaw DiscDrawTree FloatCdfModel FloatCdfSpec FloatCdfProofs FloatCdfCore FloatCdfLoc FloatCdfPow FloatPdfModel FloatPdfSpec FloatPdfProofs.
Local Open Scope R_scope.
Notation rnd := (round radix2 (SpecFloat.fexp 53 1024) ZnearestE).

Lemma pareto_apx1 th x : scale th -> is_finite x = true -> 0 <= B2R x -> apx1 (dadd (dint 1) (ddiv x th)) (1 + B2R x / B2R th).
Proof.
  intros Ht F H. pose proof q_pos as Q. pose proof tiny_small as T. pose proof tiny_pos as T0. pose proof (scale_pos th Ht) as Pt. destruct (int_ok_ 1 ltac:(lia)) as (F1 & V1). set (w := B2R x / B2R th). assert (W0 : 0 <= w) by (apply Rmult_le_pos; [lra|left; apply Rinv_0_lt_compat, Pt]).
  destruct (div_near x th F Pt) as [(D1 & D2 & D3 & _)|[(D1 & D2)|(D1 & D2)]].
  - fold w in D2. set (R := ddiv x th) in *. specialize (D3 ltac:(lra)). rewrite (Rabs_pos_eq w) in D2 by lra. apply Rabs_le_inv in D2. assert (QW : 0 <= q * w <= / 1000 * w) by (split; [apply Rmult_le_pos; lra|apply Rmult_le_compat_r; lra]).
    destruct (add_any (dint 1) R F1 D1 ltac:(lra)) as [(S1 & S2)|(S1 & S2)]; rewrite V1 in *.
    + left. split; [exact S1|]. rewrite S2. split; [apply (rnd_ge_fmt 53 1024 H3_64 H70_64); [apply (fmt_1 53 1024 H3_64 H70_64)|lra]|]. replace (4 * q) with (2 * (2 * q)) by ring. apply lc_rel; [lra|lra|].
      pose proof (rnd_err (1 + B2R R)) as E. rewrite (Rabs_pos_eq (1 + B2R R)) in E by lra. assert (q / 2 * (1 + B2R R) <= q / 2 * (1 + 2 * w + q)) by (apply Rmult_le_compat_l; lra). assert (q * q <= q * / 1000) by (apply Rmult_le_compat_l; lra). apply Rabs_le_inv in E. apply Rabs_le. lra.
    + right. split; [exact S2|]. rewrite Rabs_pos_eq in S1 by lra. assert (B : bpow radix2 1000 <= 2 * (1 + w)) by lra. assert (2 * bpow radix2 900 <= bpow radix2 1000); [|lra]. change 2 with (bpow radix2 1). rewrite <- bpow_plus. apply bpow_le. lia.
  - right. split; [rewrite D1; reflexivity|]. fold w in D2. pose proof (bpow_mono_900 _ D2). lra.
  - exfalso. fold w in D2. pose proof (bpow_gt_0 radix2 1000). lra.
Qed.
Lemma powerlaw_apx1 th x : scale th -> is_finite x = true -> B2R th <= B2R x -> 1 <= B2R x / B2R th /\ apx1 (ddiv x th) (B2R x / B2R th).
Proof.
  intros Ht F Hx. pose proof q_pos as Q. pose proof (scale_pos th Ht) as Pt. set (w := B2R x / B2R th). assert (WM : w * B2R th = B2R x) by (unfold w; field; lra). assert (W1 : 1 <= w) by (apply Rmult_le_reg_r with (B2R th); lra). split; [exact W1|].
  destruct (div_any x th F Pt) as [(D1 & D2)|(D1 & D2)]; change (B2R x / B2R th) with w in D1, D2.
  - left. split; [exact D1|]. rewrite D2. split; [apply (rnd_ge_fmt 53 1024 H3_64 H70_64); [apply (fmt_1 53 1024 H3_64 H70_64)|exact W1]|]. destruct (lc_rnd w) as (_ & _ & E); [apply Rle_trans with (2 := W1); change 1 with (bpow radix2 0); apply bpow_le; lia|]. lra.
  - right. rewrite D2. destruct (Rlt_dec _ 0) as [K|K]; [lra|]. split; [reflexivity|]. rewrite Rabs_pos_eq in D1 by lra. apply bpow_mono_900, D1.
Qed.

Section Functions.
Variable M : libmx.
Hypothesis HM : accurate_x M.

Lemma ratio_pos g th : shape19 g -> scale th -> 0 <= (21 + 9 * B2R g) * q * (B2R g / B2R th).
Proof. intros (_ & R) Ht. pose proof q_pos as Q. pose proof (scale_pos th Ht) as Pt. apply Rmult_le_pos; [apply Rmult_le_pos; lra|]. apply Rmult_le_pos; [lra|]. left. apply Rinv_0_lt_compat, Pt. Qed.
Lemma pareto_pdf g th x : shape19 g -> scale th -> is_finite x = true -> density (pareto_fpdf M g th x) (f_pareto (B2R g) (B2R th) (B2R x)) ((21 + 9 * B2R g) * q * (B2R g / B2R th)).
Proof.
  intros Hg Ht F. pose proof (scale_pos th Ht) as Pt. unfold pareto_fpdf, f_pareto. rewrite (ltb_0 x F). destruct (Rlt_bool_spec (B2R x) 0) as [H|H]; destruct (Rlt_dec (B2R x) 0) as [C|C]; try lra.
  - apply density_0. pose proof (ratio_pos g th Hg Ht). lra.
  - assert (W : 0 <= B2R x / B2R th) by (apply Rmult_le_pos; [lra|left; apply Rinv_0_lt_compat, Pt]). exact (pow_dens M HM g th _ (1 + B2R x / B2R th) Hg Ht ltac:(lra) (pareto_apx1 th x Ht F H)).
Qed.
Lemma powerlaw_pdf g th x : shape19 g -> scale th -> is_finite x = true -> density (powerlaw_fpdf M g th x) (f_powerlaw (B2R g) (B2R th) (B2R x)) ((21 + 9 * B2R g) * q * (B2R g / B2R th)).
Proof.
  intros Hg Ht F. unfold powerlaw_fpdf, f_powerlaw. rewrite (Bltb_correct _ _ x th F (proj1 Ht)). destruct (Rlt_bool_spec (B2R x) (B2R th)) as [H|H]; destruct (Rlt_dec (B2R x) (B2R th)) as [C|C]; try lra.
  - apply density_0. pose proof (ratio_pos g th Hg Ht). lra.
  - destruct (powerlaw_apx1 th x Ht F H) as (W & A). exact (pow_dens M HM g th _ _ Hg Ht W A).
Qed.
End Functions.

(** ** tent *)
Definition hat (z : R) : R := Rmax 0 (1 - Rabs z).
Lemma hat_lip a b : Rabs (hat a - hat b) <= Rabs (a - b).
Proof.
  assert (T : Rabs (Rabs a - Rabs b) <= Rabs (a - b)) by (apply Rabs_triang_inv2). unfold hat, Rmax. destruct (Rle_dec 0 (1 - Rabs a)); destruct (Rle_dec 0 (1 - Rabs b)); apply Rabs_le_inv in T; apply Rabs_le; lra.
Qed.
Lemma f_tent_hat m d x : 0 < d -> f_tent m d x = hat ((x - m) / d) / d.
Proof.
  intros P. unfold f_tent, hat. assert (I : 0 < / d) by (apply Rinv_0_lt_compat, P). assert (E : Rabs ((x - m) / d) = Rabs (x - m) / d) by (unfold Rdiv; rewrite Rabs_mult, (Rabs_pos_eq (/ d)) by lra; reflexivity). rewrite E.
  assert (M : Rabs (x - m) / d * d = Rabs (x - m)) by (field; lra). destruct (Rlt_dec (Rabs (x - m)) d) as [C|C].
  - rewrite Rmax_right; [reflexivity|]. assert (Rabs (x - m) / d <= 1) by (apply Rmult_le_reg_r with d; lra). lra.
  - rewrite Rmax_left; [unfold Rdiv; ring|]. assert (1 <= Rabs (x - m) / d) by (apply Rmult_le_reg_r with d; lra). lra.
Qed.
Lemma tent_pdf m d x : location m -> scale d -> is_finite x = true -> density (tent_fpdf m d x) (f_tent (B2R m) (B2R d) (B2R x)) (7 * q / B2R d).
Proof.
  intros Hm Hd Hx. pose proof q_pos as Q. pose proof tiny_small as TS. pose proof tiny_pos as T0. pose proof (scale_pos d Hd) as Pd. assert (Id : 0 < / B2R d) by (apply Rinv_0_lt_compat, Pd). pose proof (proj1 Hd) as Fd. destruct (int_ok_ 1 ltac:(lia)) as (F1 & V1). pose proof big_10 as B10.
  rewrite f_tent_hat by exact Pd. destruct (sub_loc x m Hx Hm) as (Y1 & _ & Y2 & _). unfold tent_fpdf. cbv zeta. set (y := dsub x m) in *. set (z := (B2R x - B2R m) / B2R d). set (s := B2R y / B2R d).
  assert (YS : B2R y = s * B2R d) by (unfold s; field; lra). assert (ZE : B2R x - B2R m = z * B2R d) by (unfold z; field; lra).
  assert (S : Rabs (s - z) <= q / 2 * Rabs z). { replace (s - z) with ((B2R y - (B2R x - B2R m)) * / B2R d) by (unfold s; rewrite ZE; field; lra). rewrite Rabs_mult, (Rabs_pos_eq (/ B2R d)) by lra. replace (q / 2 * Rabs z) with (q / 2 * Rabs (B2R x - B2R m) * / B2R d); [apply Rmult_le_compat_r; lra|]. rewrite ZE, Rabs_mult, (Rabs_pos_eq (B2R d)) by lra. field. lra. }
  pose proof (Rabs_pos z) as AZ. assert (QZ : 0 <= q * Rabs z <= / 1000 * Rabs z) by (split; [apply Rmult_le_pos; lra|apply Rmult_le_compat_r; lra]). assert (SZ : Rabs (Rabs s - Rabs z) <= q / 2 * Rabs z) by (apply Rle_trans with (2 := S); apply Rabs_triang_inv2). apply Rabs_le_inv in SZ.
  assert (HS : Rabs (hat s - hat z) <= q).
  { destruct (Rle_lt_dec (Rabs z) 2) as [C|C]; [apply Rle_trans with (1 := hat_lip s z); assert (q / 2 * Rabs z <= q / 2 * 2) by (apply Rmult_le_compat_l; lra); lra|]. unfold hat. rewrite !Rmax_left by lra. rewrite Rminus_0_r, Rabs_R0. lra. }
  assert (FIN : forall v, computes v (hat s) (3 * q) -> computes v (hat z) (4 * q)). { intros v (A & B & C). split; [exact A|]. split; [exact B|]. apply Rabs_le_inv in C, HS. apply Rabs_le. lra. }
  destruct (opp_ok d Fd) as (O1 & O2). rewrite (Bleb_correct _ _ y (dopp d) Y1 O1), O2. rewrite (ltb_0 y Y1). rewrite (Bleb_correct _ _ d y Fd Y1).
  assert (H0 : hat s = 0 -> density (dint 0) (hat z / B2R d) (7 * q / B2R d)).
  { intros E. rewrite E in HS. assert (0 <= hat z) by apply Rmax_l. apply Rabs_le_inv in HS. apply density_0. split; [apply Rmult_le_pos; lra|apply Rmult_le_compat_r; lra]. }
  assert (SD : Rabs (B2R y) = Rabs s * B2R d) by (rewrite YS, Rabs_mult, (Rabs_pos_eq (B2R d)) by lra; reflexivity).
  destruct (Rle_bool_spec (B2R y) (- B2R d)) as [C1|C1]; cbn [orb].
  { apply H0. unfold hat. apply Rmax_left. assert (1 <= Rabs s) by (apply Rmult_le_reg_r with (B2R d); [lra|]; rewrite <- SD, Rabs_left1 by lra; lra). lra. }
  destruct (Rle_bool_spec (B2R d) (B2R y)) as [C2|C2].
  { apply H0. unfold hat. apply Rmax_left. assert (1 <= Rabs s) by (apply Rmult_le_reg_r with (B2R d); [lra|]; rewrite <- SD, Rabs_pos_eq by lra; lra). lra. }
  assert (S1 : Rabs s <= 1). { apply Rmult_le_reg_r with (B2R d); [lra|]. rewrite <- SD, Rmult_1_l. apply Rabs_le. lra. } assert (HE : hat s = 1 - Rabs s) by (unfold hat; apply Rmax_right; lra).
  destruct (div_ok y d Y1 ltac:(lra)) as (R1 & R2); [fold s; lra|]. fold s in R2. set (r := ddiv y d) in *. pose proof (rnd_err s) as E. rewrite <- R2 in E. pose proof (fmt_1 53 1024 H3_64 H70_64) as FM1. assert (QS : q / 2 * Rabs s <= q / 2 * 1) by (apply Rmult_le_compat_l; lra).
  destruct (Rlt_bool_spec (B2R y) 0) as [C3|C3].
  - assert (SN : s <= 0). { apply Rmult_le_reg_r with (B2R d); lra. } rewrite (Rabs_left1 s) in * by exact SN.
    assert (RR : -1 <= B2R r <= 0). { rewrite R2. split; [apply (rnd_ge_fmt 53 1024 H3_64 H70_64); [apply generic_format_opp; exact FM1|lra]|apply (rnd_le_fmt 53 1024 H3_64 H70_64); [apply generic_format_0|lra]]. }
    destruct (add_ok (dint 1) r F1 R1) as (A1 & A2); [rewrite V1, Rabs_pos_eq; lra|]. rewrite V1 in A2. pose proof (rnd_err (1 + B2R r)) as E2. rewrite <- A2, (Rabs_pos_eq (1 + B2R r)) in E2 by lra. assert (q / 2 * (1 + B2R r) <= q / 2 * 1) by (apply Rmult_le_compat_l; lra).
    assert (C : computes (dadd (dint 1) r) (hat z) (4 * q)). { apply FIN. split; [exact A1|]. split; [rewrite A2; split; [apply (rnd_ge_0 53 1024 H3_64 H70_64); lra|apply (rnd_le_fmt 53 1024 H3_64 H70_64); [exact FM1|lra]]|]. rewrite HE. apply Rabs_le_inv in E, E2. apply Rabs_le. lra. }
    apply (div_scale _ _ _ _ Hd) in C. revert C. apply dens_up; [exact Pd|lra].
  - assert (SN : 0 <= s). { apply Rmult_le_reg_r with (B2R d); lra. } rewrite (Rabs_pos_eq s) in * by exact SN.
    assert (RR : 0 <= B2R r <= 1). { rewrite R2. split; [apply (rnd_ge_0 53 1024 H3_64 H70_64); lra|apply (rnd_le_fmt 53 1024 H3_64 H70_64); [exact FM1|lra]]. }
    destruct (sub_ok (dint 1) r F1 R1) as (A1 & A2); [rewrite V1, Rabs_pos_eq; lra|]. rewrite V1 in A2. pose proof (rnd_err (1 - B2R r)) as E2. rewrite <- A2, (Rabs_pos_eq (1 - B2R r)) in E2 by lra. assert (q / 2 * (1 - B2R r) <= q / 2 * 1) by (apply Rmult_le_compat_l; lra).
    assert (C : computes (dsub (dint 1) r) (hat z) (4 * q)). { apply FIN. split; [exact A1|]. split; [rewrite A2; split; [apply (rnd_ge_0 53 1024 H3_64 H70_64); lra|apply (rnd_le_fmt 53 1024 H3_64 H70_64); [exact FM1|lra]]|]. rewrite HE. apply Rabs_le_inv in E, E2. apply Rabs_le. lra. }
    apply (div_scale _ _ _ _ Hd) in C. revert C. apply dens_up; [exact Pd|lra].
Qed.

(** ** uniform *)
Lemma uniform_pdf a b x : is_finite a = true -> is_finite b = true -> is_finite x = true -> bpow radix2 (-600) <= B2R b - B2R a <= bpow radix2 600 ->
  density (uniform_fpdf a b x) (f_uniform (B2R a) (B2R b) (B2R x)) (5 * q / (B2R b - B2R a)).
Proof.
  intros Fa Fb Fx W. pose proof q_pos as Q. pose proof (bpow_gt_0 radix2 (-600)) as BP. assert (B : bpow radix2 600 <= big) by (apply bpow_le; lia). set (w := B2R b - B2R a) in *. assert (Iw : 0 < / w) by (apply Rinv_0_lt_compat; lra). unfold uniform_fpdf, f_uniform. rewrite (Bltb_correct _ _ x a Fx Fa), (Bleb_correct _ _ b x Fb Fx).
  assert (P0 : 0 <= 5 * q / w) by (apply Rmult_le_pos; lra).
  destruct (Rlt_bool_spec (B2R x) (B2R a)) as [C1|C1]; cbn [orb]; destruct (Rlt_dec (B2R x) (B2R a)) as [D1|D1]; try lra; [apply density_0; lra|].
  destruct (Rle_bool_spec (B2R b) (B2R x)) as [C2|C2]; destruct (Rlt_dec (B2R x) (B2R b)) as [D2|D2]; try lra; [apply density_0; lra|].
  destruct (sub_near b a Fb Fa) as (S1 & S2 & S3 & _); [fold w; rewrite Rabs_pos_eq; lra|]. fold w in S3. rewrite (Rabs_pos_eq w) in S3 by lra. assert (L : lc (2 * (q / 2)) (B2R (dsub b a)) w) by (apply lc_rel; lra).
  destruct (int_ok_ 1 ltac:(lia)) as (F1 & V1). assert (C : computes (dint 1) 1 0) by (split; [exact F1|]; rewrite V1; split; [lra|]; rewrite Rminus_eq_0, Rabs_R0; lra).
  pose proof (div_dens _ _ _ _ _ _ L ltac:(lra) (bpow_widen (-600) (-650) 600 650 _ ltac:(lia) ltac:(lia) W) C) as D. fold w in D |- *. replace (1 / w) with (/ w) in D by (unfold Rdiv; ring). revert D. apply dens_up; lra.
Qed.

(** ** cauchy *)
Lemma invpi_over_inf : ddiv dinvpi (B754_infinity false) = dint 0.
Proof. vm_compute. reflexivity. Qed.
Lemma computes_0' p e : 0 <= p <= e -> computes (dint 0) p e.
Proof. intros H. apply computes_0. lra. Qed.
Lemma cauchy_small y : bpow radix2 900 <= y -> 0 < / (PI * (1 + y)) <= q.
Proof.
  intros H. pose proof PI2_3_2. assert (P : 3 <= PI) by (unfold PI2 in *; lra). pose proof (bpow_gt_0 radix2 900) as B. assert (0 < 1 + y) by lra. assert (G : 2 ^ 52 <= 1 + y). { apply Rle_trans with (bpow radix2 52); [right; cbn; lra|]. apply Rle_trans with (bpow radix2 900); [apply bpow_le; lia|lra]. }
  split; [apply Rinv_0_lt_compat, Rmult_lt_0_compat; lra|]. unfold q. apply Rinv_le; [lra|]. rewrite <- (Rmult_1_l (2 ^ 52)). apply Rmult_le_compat; lra.
Qed.
Lemma cauchy_pdf th et x : scale th -> location et -> is_finite x = true -> density (cauchy_fpdf th et x) (f_cauchy (B2R th) (B2R et) (B2R x)) (8 * q / B2R th).
Proof.
  intros Ht He Hx. pose proof q_pos as Q. pose proof tiny_small as TS. pose proof tiny_pos as T0. pose proof (scale_pos th Ht) as Pt. pose proof big_10 as B10. destruct (int_ok_ 1 ltac:(lia)) as (F1 & V1). destruct dinvpi_ok as (FP & VP). pose proof dinvpi_near as NP. pose proof PI2_3_2 as PIl. assert (PI3 : 3 <= PI) by (unfold PI2 in *; lra).
  unfold cauchy_fpdf, f_cauchy. cbv zeta. pose proof (std_ok th et x Ht He Hx) as S. cbv zeta in S. set (z := (B2R x - B2R et) / B2R th) in *. set (Z := ddiv (dsub x et) th) in *. pose proof (Rle_0_sqr z) as ZZ. unfold Rsqr in ZZ.
  assert (C : computes (ddiv dinvpi (dadd (dint 1) (dmul Z Z))) (/ (PI * (1 + z * z))) (5 * q)).
  { assert (INF : dadd (dint 1) (dmul Z Z) = B754_infinity false -> bpow radix2 900 <= z * z -> computes (ddiv dinvpi (dadd (dint 1) (dmul Z Z))) (/ (PI * (1 + z * z))) (5 * q)).
    { intros E G. rewrite E, invpi_over_inf. pose proof (cauchy_small _ G). apply computes_0'. lra. }
    assert (BIG : bpow radix2 900 <= Rabs z -> bpow radix2 900 <= z * z). { intros H. apply Rle_trans with (1 := H). assert (1 <= bpow radix2 900) by (change 1 with (bpow radix2 0); apply bpow_le; lia). replace (z * z) with (Rabs z * Rabs z) by (rewrite <- Rabs_mult, Rabs_pos_eq; lra). rewrite <- (Rmult_1_r (Rabs z)) at 1. apply Rmult_le_compat_l; lra. }
    pose proof (bpow_gt_0 radix2 900) as B9.
    destruct S as [(F & E & _)|[(F & G)|(F & G)]]; [|apply INF; [rewrite F; reflexivity|apply BIG; rewrite Rabs_pos_eq; lra]|apply INF; [rewrite F; reflexivity|apply BIG; rewrite Rabs_left1; lra]].
    set (y := B2R Z) in *. pose proof (Rle_0_sqr y) as YY. unfold Rsqr in YY. pose proof (Rabs_pos z) as AZ. assert (Z2 : Rabs z * Rabs z = z * z) by (rewrite <- Rabs_mult, Rabs_pos_eq; lra).
    assert (LZ : Rabs z <= 1 + z * z) by (rewrite <- Z2; nra).
    assert (D2 : Rabs (y * y - z * z) <= 6 * q * (1 + z * z)).
    { replace (y * y - z * z) with ((y - z) * (y - z) + 2 * z * (y - z)) by ring. set (e := Rabs (y - z)) in *. apply Rle_trans with (1 := Rabs_triang _ _). rewrite !Rabs_mult. fold e. rewrite (Rabs_pos_eq 2) by lra. pose proof (Rabs_pos (y - z)) as PE. fold e in PE.
      assert (E1 : e <= 2 * q * Rabs z + q / 1024) by lra. assert (X1 : 2 * Rabs z * e <= 2 * Rabs z * (2 * q * Rabs z + q / 1024)) by (apply Rmult_le_compat_l; lra). replace (2 * Rabs z * (2 * q * Rabs z + q / 1024)) with (4 * q * (Rabs z * Rabs z) + q / 512 * Rabs z) in X1 by field. rewrite Z2 in X1.
      assert (X2 : q / 512 * Rabs z <= q / 512 * (1 + z * z)) by (apply Rmult_le_compat_l; lra).
      assert (X3 : e * e <= (2 * q * Rabs z + q / 1024) * (2 * q * Rabs z + q / 1024)) by (apply Rmult_le_compat; lra). replace ((2 * q * Rabs z + q / 1024) * (2 * q * Rabs z + q / 1024)) with (q * (4 * q * (Rabs z * Rabs z) + q / 256 * Rabs z + q / 1024 / 1024)) in X3 by field. rewrite Z2 in X3.
      assert (X4 : 4 * q * (z * z) + q / 256 * Rabs z + q / 1024 / 1024 <= 1 * (1 + z * z)).
      { assert (4 * q * (z * z) <= / 4 * (z * z)) by (apply Rmult_le_compat_r; lra). assert (q / 256 * Rabs z <= / 4 * Rabs z) by (apply Rmult_le_compat_r; lra). lra. }
      assert (X5 : q * (4 * q * (z * z) + q / 256 * Rabs z + q / 1024 / 1024) <= q * (1 * (1 + z * z))) by (apply Rmult_le_compat_l; lra). assert (0 <= q * (z * z)) by (apply Rmult_le_pos; lra). lra. }
    assert (QZ : 0 <= q * (1 + z * z) <= / 1000 * (1 + z * z)) by (split; [apply Rmult_le_pos; lra|apply Rmult_le_compat_r; lra]). pose proof (Rabs_le_inv _ _ D2) as D2'.
    assert (B10' : 10 * bpow radix2 900 <= bpow radix2 1000). { apply Rle_trans with (bpow radix2 4 * bpow radix2 900); [apply Rmult_le_compat_r; [lra|cbn; lra]|]. rewrite <- bpow_plus. apply bpow_le. lia. }
    assert (LZ1 : 1 <= bpow radix2 900) by (change 1 with (bpow radix2 0); apply bpow_le; lia).
    destruct (mul_any Z Z F F) as [(M1 & M2)|(M1 & M2)]; change (B2R Z) with y in M1, M2.
    2: { apply INF; [rewrite M2; destruct (Rlt_dec (y * y) 0) as [K|K]; [lra|reflexivity]|]. rewrite Rabs_pos_eq in M1 by lra. lra. }
    set (P := dmul Z Z) in *. pose proof (rnd_err (y * y)) as EP. rewrite <- M2, (Rabs_pos_eq (y * y)) in EP by lra. assert (P0 : 0 <= B2R P) by (rewrite M2; apply (rnd_ge_0 53 1024 H3_64 H70_64); lra). assert (QY : 0 <= q * (y * y) <= / 1000 * (y * y)) by (split; [apply Rmult_le_pos; lra|apply Rmult_le_compat_r; lra]). pose proof (Rabs_le_inv _ _ EP) as EP'.
    destruct (add_any (dint 1) P F1 M1 ltac:(lra)) as [(S1 & S2)|(S1 & S2)]; rewrite V1 in *.
    2: { apply INF; [exact S2|]. rewrite Rabs_pos_eq in S1 by lra. lra. }
    set (W := dadd (dint 1) P) in *. pose proof (rnd_err (1 + B2R P)) as EW. rewrite <- S2, (Rabs_pos_eq (1 + B2R P)) in EW by lra. assert (W1 : 1 <= B2R W) by (rewrite S2; apply (rnd_ge_fmt 53 1024 H3_64 H70_64); [apply (fmt_1 53 1024 H3_64 H70_64)|lra]).
    assert (WD : Rabs (B2R W - (1 + z * z)) <= 8 * q * (1 + z * z)).
    { assert (Y4 : q / 2 * (y * y) <= q / 2 * (2 * (1 + z * z))) by (apply Rmult_le_compat_l; lra). assert (Y5 : q / 2 * (1 + B2R P) <= q / 2 * (2 * (1 + z * z))) by (apply Rmult_le_compat_l; lra). assert (Y6 : q / 2 * (1 + B2R P) <= q / 2 * (1 + y * y + / 1000 * (y * y) + 1)) by (apply Rmult_le_compat_l; lra).
      assert (K1 : y * y <= (1 + z * z) * (1 + / 100) - 1 + / 1000 + 1) by lra. assert (Y7 : q / 2 * (y * y) <= q / 2 * ((1 + z * z) * (1 + / 10))) by (apply Rmult_le_compat_l; lra). 
      apply Rabs_le_inv in EW. assert (0 <= q * (z * z)) by (apply Rmult_le_pos; lra).
      assert (Y8 : B2R P <= (1 + z * z) * (1 + / 10)) by lra. apply Rabs_le. lra. }
    set (i := B2R dinvpi) in *. assert (I0 : 0 < i <= / 2) by (rewrite VP; lra). assert (IW : 0 < / B2R W <= 1) by (split; [apply Rinv_0_lt_compat; lra|rewrite <- Rinv_1; apply Rinv_le; lra]).
    assert (R0 : 0 <= i / B2R W <= 1) by (unfold Rdiv; split; [apply Rmult_le_pos; lra|apply Rle_trans with (1 * 1); [apply Rmult_le_compat; lra|lra]]).
    destruct (div_ok dinvpi W FP ltac:(lra)) as (V0 & V2); [fold i; rewrite Rabs_pos_eq; lra|]. fold i in V2. pose proof (rnd_err (i / B2R W)) as EV. rewrite <- V2, (Rabs_pos_eq (i / B2R W)) in EV by lra. assert (q / 2 * (i / B2R W) <= q / 2 * 1) by (apply Rmult_le_compat_l; lra).
    split; [exact V0|]. split; [rewrite V2; split; [apply (rnd_ge_0 53 1024 H3_64 H70_64); lra|apply (rnd_le_fmt 53 1024 H3_64 H70_64); [apply (fmt_1 53 1024 H3_64 H70_64)|lra]]|].
    assert (KI : Rabs (/ B2R W - / (1 + z * z)) <= 8 * q).
    { replace (/ B2R W - / (1 + z * z)) with (((1 + z * z) - B2R W) * (/ B2R W * / (1 + z * z))) by (field; lra). rewrite Rabs_mult, Rabs_minus_sym. assert (I1 : 0 < / (1 + z * z)) by (apply Rinv_0_lt_compat; lra). assert (PW : 0 < / B2R W * / (1 + z * z)) by (apply Rmult_lt_0_compat; lra). rewrite (Rabs_pos_eq (/ B2R W * / (1 + z * z))) by lra.
      apply Rle_trans with (8 * q * (1 + z * z) * (/ B2R W * / (1 + z * z))); [apply Rmult_le_compat_r; lra|]. replace (8 * q * (1 + z * z) * (/ B2R W * / (1 + z * z))) with (8 * q * / B2R W) by (field; lra). rewrite <- (Rmult_1_r (8 * q)) at 2. apply Rmult_le_compat_l; lra. }
    assert (I1 : 0 < / (1 + z * z) <= 1) by (split; [apply Rinv_0_lt_compat; lra|rewrite <- Rinv_1; apply Rinv_le; lra]).
    assert (KP : Rabs (i - / PI) <= q / 2). { replace (i - / PI) with ((i * PI - 1) * / PI) by (field; lra). rewrite Rabs_mult. assert (IP : 0 < / PI <= / 3) by (split; [apply Rinv_0_lt_compat; lra|apply Rinv_le; lra]). rewrite (Rabs_pos_eq (/ PI)) by lra. apply Rle_trans with (q * / 3); [apply Rmult_le_compat; try lra; apply Rabs_pos|lra]. }
    replace (/ (PI * (1 + z * z))) with (/ PI * / (1 + z * z)) by (field; lra).
    assert (A1 : Rabs (i * (/ B2R W - / (1 + z * z))) <= / 2 * (8 * q)) by (rewrite Rabs_mult, (Rabs_pos_eq i) by lra; apply Rmult_le_compat; try lra; apply Rabs_pos).
    assert (I3 : i <= / 3) by (rewrite VP; lra). assert (A1' : Rabs (i * (/ B2R W - / (1 + z * z))) <= / 3 * (8 * q)) by (rewrite Rabs_mult, (Rabs_pos_eq i) by lra; apply Rmult_le_compat; try lra; apply Rabs_pos).
    assert (A2 : Rabs ((i - / PI) * / (1 + z * z)) <= q / 2 * 1) by (rewrite Rabs_mult, (Rabs_pos_eq (/ (1 + z * z))) by lra; apply Rmult_le_compat; try lra; apply Rabs_pos).
    replace (B2R (ddiv dinvpi W) - / PI * / (1 + z * z)) with ((B2R (ddiv dinvpi W) - i / B2R W) + (i * (/ B2R W - / (1 + z * z)) + (i - / PI) * / (1 + z * z))) by (unfold Rdiv; ring). apply Rabs_le_inv in EV, A1', A2. apply Rabs_le. lra. }
  apply (div_scale _ _ _ _ Ht) in C. revert C. apply dens_up; [exact Pt|lra].
Qed.
