(** icdf of lognormal_dist and truncated_normal_dist in double. *)
From Coq Require Import ZArith Bool Reals Lia Lra Psatz.
From Coquelicot Require Import Coquelicot.
From Flocq Require Import Core Sterbenz IEEE754.BinarySingleNaN.
From Verif Require Import InvPhiModel InvPhiCentral InvPhiTail InvPhiProofs FloatInvReal FloatFacts UniformModel UniformProofs Prop_Uniform FloatDrawModel FloatDrawSpec FloatDrawProofs FloatDrawCore FloatDrawLoc FloatDrawTrig FloatDrawLaw FloatCdfModel FloatCdfSpec FloatCdfProofs FloatCdfCore FloatCdfLoc FloatPdfSpec FloatPdfProofs FloatNormModel FloatNormSpec NormModel NormProofs FloatNormProofs FloatTruncModel FloatTruncSpec FloatTruncProofs FloatInvModel FloatInvProofs FloatInvStep FloatInvCore Prop_FloatInv FloatIcdfModel.
Local Open Scope R_scope.
Notation rnd := (round radix2 (SpecFloat.fexp 53 1024) ZnearestE).

Lemma Phi_lip x y : Rabs (Phi y - Phi x) <= 2 / 5 * Rabs (y - x).
Proof. destruct (Phi_mvt x y) as (c & _ & E). pose proof (phi_le c). pose proof (phi_pos c). rewrite E, Rabs_mult, (Rabs_pos_eq (phi c)) by lra. apply Rmult_le_compat_r; [apply Rabs_pos|lra]. Qed.
Lemma ln_near v w d : 0 <= d <= / 100 -> Rabs (v - exp w) <= d * exp w -> 0 < v /\ Rabs (ln v - w) <= 102 / 100 * d.
Proof.
  intros D H. pose proof (exp_pos w) as E. apply Rabs_le_inv in H. assert (DE : d * exp w <= / 100 * exp w) by (apply Rmult_le_compat_r; lra). assert (V : 0 < v) by lra. split; [exact V|]. assert (U : ln v - w <= d). { apply Rplus_le_reg_r with w. replace (ln v - w + w) with (ln v) by ring. rewrite <- (ln_exp (d + w)). apply ln_le; [exact V|]. rewrite exp_plus. pose proof (exp_ineq1_le d) as X. apply Rle_trans with ((1 + d) * exp w); [lra|]. apply Rmult_le_compat_r; lra. }
  assert (W : - (102 / 100 * d) <= ln v - w). { apply Rplus_le_reg_r with w. replace (ln v - w + w) with (ln v) by ring. rewrite <- (ln_exp (- (102 / 100 * d) + w)). apply ln_le; [apply exp_pos|]. rewrite exp_plus. apply Rle_trans with ((1 - d) * exp w); [|lra]. apply Rmult_le_compat_r; [lra|].
    rewrite exp_Ropp. pose proof (exp_ineq1_le (102 / 100 * d)) as X. apply Rle_trans with (/ (1 + 102 / 100 * d)); [apply Rinv_le_contravar; lra|]. apply Rmult_le_reg_r with (1 + 102 / 100 * d); [lra|]. rewrite Rinv_l by lra. assert (d * d <= / 100 * d) by (apply Rmult_le_compat_r; lra). lra. }
  apply Rabs_le. lra.
Qed.

Lemma tiny_256 : tiny <= q / 256.
Proof. replace (q / 256) with (bpow radix2 (-60)) by (unfold q; cbn; field). apply bpow_le. lia. Qed.

Section Icdf.
Variable N : libme.
Hypothesis HN : accurate_e N.
Hypothesis HT : tail_accurate N.
Let M := e_base N.

Lemma lognormal_icdf mu sg X : is_finite mu = true -> Rabs (B2R mu) <= 100 -> is_finite sg = true -> bpow radix2 (-300) <= B2R sg <= 20 -> is_finite X = true -> q <= B2R X <= 1 - q / 2 ->
  is_finite (lognormal_ficdf N mu sg X) = true /\ 0 < B2R (lognormal_ficdf N mu sg X) /\ Rabs (F_lognormal (B2R mu) (B2R sg) (B2R (lognormal_ficdf N mu sg X)) - B2R X) <= (51 + (Rabs (B2R mu) + 1) / B2R sg) * q.
Proof.
  intros Fm Rm Fs Rs FX RX. pose proof q_pos as Q. assert (P3 : 128 <= bpow radix2 300) by (change 128 with (bpow radix2 7); apply bpow_le; lia). assert (Hm : location mu) by (split; [exact Fm|lra]). assert (Hs : scale sg) by (split; [exact Fs|lra]). pose proof (scale_pos sg Hs) as Ps.
  destruct (int_ok_ 0 ltac:(lia)) as (F0 & V0). destruct (int_ok_ 1 ltac:(lia)) as (F1 & V1).
  destruct (inv_ok N HN HT X FX RX) as (A & B & C). destruct (affine_core sg mu _ 12 Hs Hm A B ltac:(lra)) as (W1 & W2). destruct (normal_icdf N HN HT mu sg X Hm Hs FX RX) as (_ & NI). unfold normal_ficdf in NI.
  assert (LD : lognormal_ficdf N mu sg X = x_exp M (dadd (dmul (finv_Phi N X) sg) mu)). { unfold lognormal_ficdf. rewrite !Bltb_correct, !Beqb_correct, V0, V1 by assumption. rewrite !Rlt_bool_false, !Req_bool_false by lra. reflexivity. }
  rewrite LD. clear LD. set (w := dadd (dmul (finv_Phi N X) sg) mu) in *. set (m := B2R mu) in *. set (s := B2R sg) in *. set (l := B2R (finv_Phi N X)) in *. clearbody w l.
  assert (WB : Rabs (B2R w) <= 400). { replace (B2R w) with (m + s * (l + ((B2R w - m) / s - l))) by (field; lra). apply Rle_trans with (1 := Rabs_triang _ _). rewrite Rabs_mult, (Rabs_pos_eq s) by lra. pose proof (Rabs_triang l ((B2R w - m) / s - l)) as T. assert (S1 : s * Rabs (l + ((B2R w - m) / s - l)) <= s * (12 + (12 + 1 + Rabs m / s) * q)) by (apply Rmult_le_compat_l; lra). replace (s * (12 + (12 + 1 + Rabs m / s) * q)) with (12 * s + 13 * (s * q) + Rabs m * q) in S1 by (field; lra). assert (s * q <= 20 * / 1000) by (apply Rmult_le_compat; lra). assert (Rabs m * q <= 100 * / 1000) by (apply Rmult_le_compat; try apply Rabs_pos; lra). lra. }
  destruct (ax_exp M (ae_base N HN) w W1 WB) as (E1 & E2). split; [exact E1|]. destruct (ln_near (B2R (x_exp M w)) (B2R w) (/ 2 ^ 51) ltac:(lra) E2) as (V & E3). split; [exact V|]. unfold F_lognormal. destruct (Rle_dec _ 0) as [K|_]; [lra|]. unfold F_normal in NI. rewrite gauss_Phi in *. set (v := B2R (x_exp M w)) in *.
  pose proof (Phi_lip ((B2R w - m) / s) ((ln v - m) / s)) as L. replace ((ln v - m) / s - (B2R w - m) / s) with ((ln v - B2R w) * / s) in L by (field; lra). assert (I : 0 < / s) by (apply Rinv_0_lt_compat, Ps). rewrite Rabs_mult, (Rabs_pos_eq (/ s)) in L by lra. replace (/ 2 ^ 51) with (2 * q) in E3 by (unfold q; field).
  assert (L2 : Rabs (ln v - B2R w) * / s <= 102 / 100 * (2 * q) * / s) by (apply Rmult_le_compat_r; lra). assert (QS : 0 <= q * / s) by (apply Rmult_le_pos; lra).
  replace (Phi ((ln v - m) / s) - B2R X) with ((Phi ((ln v - m) / s) - Phi ((B2R w - m) / s)) + (Phi ((B2R w - m) / s) - B2R X)) by ring. apply Rle_trans with (1 := Rabs_triang _ _). replace ((51 + (Rabs m + 1) / s) * q) with ((51 + Rabs m / s) * q + q * / s) by (field; lra). lra.
Qed.

Section Truncated.
Variables mu sg : double.
Hypothesis Hm : location mu.
Hypothesis Hs : scale sg.
Lemma trunc_icdf a b X : lower_bound a -> upper_bound b -> is_finite X = true -> / 2 ^ 40 <= B2R X <= 1 - / 2 ^ 40 -> / 256 <= mass (B2R mu) (B2R sg) a b ->
  is_finite (trunc_ficdf N mu sg a b X) = true /\ Rabs (F_truncated (B2R mu) (B2R sg) a b (B2R (trunc_ficdf N mu sg a b X)) - B2R X) <= (65 + Rabs (B2R mu) / B2R sg) * q / mass (B2R mu) (B2R sg) a b.
Proof.
  intros Ha Hb FX RX Hp. pose proof (Phi_a_ok N HN mu sg Hm Hs a Ha) as CA. pose proof (Phi_b_ok N HN mu sg Hm Hs b Hb) as CB. pose proof (below_01 mu sg a) as Ra. pose proof (below_01 mu sg b) as Rb. unfold F_truncated, mass in *. unfold trunc_ficdf. set (tp := trunc_position N mu sg a b X). unfold trunc_position in tp.
  set (A := trunc_Phi_a N mu sg a) in *. set (B := trunc_Phi_b N mu sg b) in *. set (fa := F_below (B2R mu) (B2R sg) a) in *. set (fb := F_below (B2R mu) (B2R sg) b) in *. clearbody A B fa fb. destruct CA as (FA & RA & EA). destruct CB as (FB & RB & EB). set (x := B2R X) in *. pose proof q_pos as Q. pose proof tiny_256 as TQ. pose proof tiny_pos as TP. assert (Q1 : 16 * q <= / 2 ^ 40 * / 256) by (unfold q; lra).
  destruct (sub_ok B A FB FA (big_ok (B2R B - B2R A) ltac:(apply Rabs_le; lra))) as (D1 & D2). pose proof (rnd_err (B2R B - B2R A)) as DE. rewrite <- D2 in DE. assert (AB : Rabs (B2R B - B2R A) <= 1) by (apply Rabs_le; lra). assert (q / 2 * Rabs (B2R B - B2R A) <= q / 2 * 1) by (apply Rmult_le_compat_l; lra). assert (DE1 : Rabs (B2R (dsub B A) - (B2R B - B2R A)) <= q) by lra. set (d := dsub B A) in *. clearbody d.
  assert (DR : Rabs (B2R d) <= 11 / 10). { apply Rabs_le_inv in DE1. apply Rabs_le_inv in AB. apply Rabs_le. lra. } assert (XD : Rabs (x * B2R d) <= 11 / 10). { rewrite Rabs_mult, (Rabs_pos_eq x) by lra. apply Rle_trans with (1 * (11 / 10)); [apply Rmult_le_compat; try apply Rabs_pos; lra|lra]. }
  destruct (mul_ok X d FX D1 (big_ok (x * B2R d) ltac:(lra))) as (M1 & M2). fold x in M2. pose proof (rnd_err (x * B2R d)) as ME. rewrite <- M2 in ME. assert (q / 2 * Rabs (x * B2R d) <= q / 2 * (11 / 10)) by (apply Rmult_le_compat_l; lra). set (w := dmul X d) in *. clearbody w.
  assert (WA : Rabs (B2R w + B2R A) <= 24 / 10). { apply Rabs_le_inv in ME. apply Rabs_le_inv in XD. apply Rabs_le. lra. }
  destruct (add_ok w A M1 FA (big_ok (B2R w + B2R A) ltac:(lra))) as (T1 & T2). pose proof (rnd_err (B2R w + B2R A)) as TE. rewrite <- T2 in TE. fold tp in T1, T2, TE. assert (q / 2 * Rabs (B2R w + B2R A) <= q / 2 * (24 / 10)) by (apply Rmult_le_compat_l; lra). clearbody tp.
  assert (PE : Rabs (B2R tp - (fa + x * (fb - fa))) <= 14 * q).
  { assert (E1 : Rabs (x * (B2R d - (B2R B - B2R A))) <= 1 * q) by (rewrite Rabs_mult, (Rabs_pos_eq x) by lra; apply Rmult_le_compat; try apply Rabs_pos; lra).
    assert (E2 : Rabs (x * (B2R B - fb) + (1 - x) * (B2R A - fa)) <= 11 * q). { apply Rle_trans with (1 := Rabs_triang _ _). rewrite !Rabs_mult, (Rabs_pos_eq x), (Rabs_pos_eq (1 - x)) by lra. assert (x * Rabs (B2R B - fb) <= x * (11 * q)) by (apply Rmult_le_compat_l; lra). assert ((1 - x) * Rabs (B2R A - fa) <= (1 - x) * (11 * q)) by (apply Rmult_le_compat_l; lra). lra. }
    replace (B2R tp - (fa + x * (fb - fa))) with ((B2R tp - (B2R w + B2R A)) + (B2R w - x * B2R d) + x * (B2R d - (B2R B - B2R A)) + (x * (B2R B - fb) + (1 - x) * (B2R A - fa))) by ring.
    apply Rabs_le_inv in E1, E2, ME, TE. apply Rabs_le. lra. }
  assert (G1 : 16 * q <= x * (fb - fa)) by (apply Rle_trans with (1 := Q1); apply Rmult_le_compat; lra). assert (G2 : 16 * q <= (1 - x) * (fb - fa)) by (apply Rle_trans with (1 := Q1); apply Rmult_le_compat; lra). pose proof (Rabs_le_inv _ _ PE) as PE'.
  destruct (normal_icdf N HN HT mu sg tp Hm Hs T1 ltac:(lra)) as (Z1 & Z2). fold (normal_ficdf N mu sg tp). split; [exact Z1|]. set (F := F_normal _ _ _) in *.
  assert (P : 0 < fb - fa) by lra. replace ((F - fa) / (fb - fa) - x) with ((F - (fa + x * (fb - fa))) * / (fb - fa)) by (field; lra). assert (I : 0 < / (fb - fa)) by (apply Rinv_0_lt_compat, P). rewrite Rabs_mult, (Rabs_pos_eq (/ _)) by lra. apply Rmult_le_compat_r; [lra|].
  replace (F - (fa + x * (fb - fa))) with ((F - B2R tp) + (B2R tp - (fa + x * (fb - fa)))) by ring. apply Rle_trans with (1 := Rabs_triang _ _). lra.
Qed.

Lemma times_inf : dadd (dmul (dinf false) sg) mu = dinf false.
Proof. pose proof (scale_pos sg Hs) as P. destruct Hs as (F & _). destruct Hm as (G & _). destruct sg as [s|s| |s e n H]; try discriminate F; [cbn in P; lra|]. destruct s; [exfalso; revert P; apply Rle_not_lt; cbn [B2R]; apply F2R_le_0; cbn; lia|]. destruct mu as [t|t| |t e' n' H']; try discriminate G; reflexivity. Qed.
Lemma trunc_inf a X : is_finite a = true -> is_finite X = true -> B2R X = 1 - q -> 14 / 15 <= F_normal (B2R mu) (B2R sg) (B2R a) -> trunc_ficdf N mu sg a (dinf false) X = dinf false.
Proof.
  intros Fa FX VX Hp. pose proof (Phi_a_ok N HN mu sg Hm Hs a (or_introl Fa)) as (FA & RA & EA). unfold trunc_ficdf, trunc_position. change (trunc_Phi_b N mu sg (dinf false)) with (dint 1). set (A := trunc_Phi_a N mu sg a) in *. clearbody A. replace (F_below (B2R mu) (B2R sg) a) with (F_normal (B2R mu) (B2R sg) (B2R a)) in EA by (destruct a; try discriminate Fa; reflexivity). pose proof q_pos as Q. apply Rabs_le_inv in EA. assert (PA : 13 / 14 <= B2R A <= 1) by lra. pose proof tiny_over_q as TQ. pose proof tiny_small as TS. pose proof tiny_pos as TP.
  destruct (int_ok_ 1 ltac:(lia)) as (F1 & V1). pose proof (fmt_1 53 1024 H3 H70) as FM1. pose proof (generic_format_B2R 53 1024 A) as FMA.
  assert (FD : generic_format radix2 (SpecFloat.fexp 53 1024) (1 - B2R A)) by (apply sterbenz; [typeclasses eauto|typeclasses eauto|exact FM1|exact FMA|lra]).
  destruct (sub_ok (dint 1) A F1 FA) as (D1 & D2); [rewrite V1; apply big_ok; apply Rabs_le; lra|]. rewrite V1, (rnd_fmt 53 1024 H3 H70 _ FD) in D2. set (d := dsub (dint 1) A) in *. clearbody d.
  assert (XD : 0 <= B2R X * B2R d <= B2R d). { rewrite VX, D2. split; [apply Rmult_le_pos; lra|]. assert (0 <= q * (1 - B2R A)) by (apply Rmult_le_pos; lra). lra. }
  destruct (mul_ok X d FX D1 (big_ok (B2R X * B2R d) ltac:(rewrite Rabs_pos_eq; lra))) as (M1 & M2). pose proof (rnd_err (B2R X * B2R d)) as ME. rewrite <- M2 in ME. rewrite (Rabs_pos_eq (B2R X * B2R d)) in ME by lra.
  assert (WD : B2R (dmul X d) <= B2R d). { rewrite M2. rewrite <- D2 in FD. rewrite <- (rnd_fmt 53 1024 H3 H70 (B2R d) FD) at 2. apply round_le; [typeclasses eauto|typeclasses eauto|lra]. } set (w := dmul X d) in *. clearbody w.
  assert (WL : B2R d - q / 8 <= B2R w). { assert (q / 2 * (B2R X * B2R d) <= q / 2 * B2R d) by (apply Rmult_le_compat_l; lra). assert (q * B2R d <= q * / 14) by (apply Rmult_le_compat_l; lra). rewrite VX in *. apply Rabs_le_inv in ME. pose proof tiny_256 as T6. lra. }
  destruct (add_ok w A M1 FA (big_ok (B2R w + B2R A) ltac:(apply Rabs_le; lra))) as (T1 & T2). assert (T3 : B2R (dadd w A) = 1). { rewrite T2. replace (B2R w + B2R A) with (1 - (1 - (B2R w + B2R A))) by ring. apply rnd_one. lra. }
  rewrite (proj1 (proj2 (C111_inv_Phi_ends N (dadd w A) T1)) T3). apply times_inf.
Qed.
Lemma trunc_far a b X : is_finite a = true -> 13 <= (B2R a - B2R mu) / B2R sg <= 30 -> b = dinf false \/ is_finite b = true /\ 13 <= (B2R b - B2R mu) / B2R sg <= 30 -> is_finite X = true -> trunc_ficdf N mu sg a b X = dinf false.
Proof.
  intros Fa Ra Hb FX. destruct (phi_one N HN mu sg Hm Hs HT a Fa Ra) as (FA & VA). assert (PA : is_finite (trunc_Phi_a N mu sg a) = true /\ B2R (trunc_Phi_a N mu sg a) = 1).
  { unfold trunc_Phi_a. assert (E : Bltb (B754_infinity true) a = true) by (destruct a as [c|c| |c ? ? ?]; try discriminate Fa; try destruct c; reflexivity). rewrite E. split; assumption. }
  assert (PB : is_finite (trunc_Phi_b N mu sg b) = true /\ B2R (trunc_Phi_b N mu sg b) = 1).
  { destruct Hb as [-> |(Fb & Rb)]; [exact (int_ok_ 1 ltac:(lia))|]. unfold trunc_Phi_b. assert (E : Bltb b (B754_infinity false) = true) by (destruct b as [c|c| |c ? ? ?]; try discriminate Fb; try destruct c; reflexivity). rewrite E. exact (phi_one N HN mu sg Hm Hs HT b Fb Rb). }
  unfold trunc_ficdf, trunc_position. set (A := trunc_Phi_a N mu sg a) in *. set (B := trunc_Phi_b N mu sg b) in *. clearbody A B. destruct PA as (A1 & A2). destruct PB as (B1 & B2).
  destruct (sub_same B A B1 B2 A1 A2) as (c & E). rewrite E. assert (Z : exists e, dmul X (B754_zero c) = B754_zero e) by (destruct X as [e|e| |e ? ? ?]; try discriminate FX; eexists; reflexivity). destruct Z as (e & Z). rewrite Z.
  assert (T : dadd (B754_zero e) A = A) by (destruct A as [e'|e'| |e' ? ? ?]; try discriminate A1; [cbn in A2; lra|reflexivity]). rewrite T. rewrite (proj1 (proj2 (C111_inv_Phi_ends N A A1)) A2). apply times_inf.
Qed.
End Truncated.
End Icdf.
