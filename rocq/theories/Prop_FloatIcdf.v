(** C112: icdf and draws of lognormal_dist and truncated_normal_dist in double. *)
From Coq Require Import ZArith Bool Reals Lia Lra Psatz.
From Coquelicot Require Import Coquelicot.
From Flocq Require Import Core IEEE754.BinarySingleNaN.
From Verif Require Import InvPhiModel InvPhiCentral InvPhiTail InvPhiProofs FloatInvReal FloatFacts UniformModel UniformProofs Prop_Uniform FloatDrawModel FloatDrawSpec FloatDrawProofs FloatDrawCore FloatDrawLoc FloatDrawTrig FloatDrawLaw Prop_FloatDraw FloatCdfModel FloatCdfSpec FloatCdfProofs FloatCdfLoc FloatPdfSpec FloatNormModel FloatNormSpec NormModel NormProofs FloatNormProofs Prop_FloatNorm FloatTruncModel FloatTruncSpec FloatTruncProofs Prop_FloatTrunc FloatInvModel FloatInvProofs FloatInvStep FloatInvCore Prop_FloatInv FloatIcdfModel FloatIcdfProofs.
Local Open Scope R_scope.

(** ** lognormal_dist *)
Lemma proper_lognormal mu sg : 0 < sg -> proper (F_lognormal mu sg).
Proof.
  intros S. unfold F_lognormal. split.
  - intros x y H. destruct (Rle_dec x 0) as [A|A], (Rle_dec y 0) as [B|B]; try lra; rewrite ?gauss_Phi; [pose proof (Phi_range ((ln y - mu) / sg)); lra|]. apply (proj1 (Phi_le _ _)). apply div_le; [exact S|]. pose proof (ln_le x y ltac:(lra) H). lra.
  - intros x. destruct (Rle_dec x 0) as [A|A]; [lra|]. rewrite gauss_Phi. pose proof (Phi_range ((ln x - mu) / sg)). lra.
Qed.
Theorem C112_lognormal_draw : forall N mu sigma D, accurate_e N -> tail_accurate N ->
  is_finite mu = true -> Rabs (B2R mu) <= 100 -> is_finite sigma = true -> bpow radix2 (-300) <= B2R sigma <= 20 -> library_range D ->
  inverts (lognormal_fdraw N mu sigma D) D (fun r => B2R (uniformoo 53 1024 D r)) (F_lognormal (B2R mu) (B2R sigma)) ((51 + (Rabs (B2R mu) + 1) / B2R sigma) / 2 ^ 52) /\
  in_range (lognormal_fdraw N mu sigma D) D (fun v => 0 < v) /\
  samples (lognormal_fdraw N mu sigma D) D (F_lognormal (B2R mu) (B2R sigma)) ((67 + (Rabs (B2R mu) + 1) / B2R sigma) / 2 ^ 52 + 3 / (IZR D + 1)).
Proof.
  intros N mu sigma D HN HT Fm Rm Fs Rs HD. pose proof (bpow_gt_0 radix2 (-300)) as P3. assert (P : 0 < B2R sigma) by lra. assert (K : 0 <= (Rabs (B2R mu) + 1) / B2R sigma) by (apply div_ge_0; [exact P|pose proof (Rabs_pos (B2R mu)); lra]).
  assert (I : inverts (lognormal_fdraw N mu sigma D) D (fun r => B2R (uniformoo 53 1024 D r)) (F_lognormal (B2R mu) (B2R sigma)) ((51 + (Rabs (B2R mu) + 1) / B2R sigma) / 2 ^ 52)).
  { intros r Hr. destruct (oo_in D r HD Hr) as (FU & RU). destruct (lognormal_icdf N HN HT mu sigma _ Fm Rm Fs Rs FU RU) as (A & _ & C). split; [exact A|exact C]. }
  split; [exact I|]. split; [intros r Hr; destruct (oo_in D r HD Hr) as (FU & RU); apply (lognormal_icdf N HN HT mu sigma _ Fm Rm Fs Rs FU RU)|].
  apply (finish_oo D _ _ ((51 + (Rabs (B2R mu) + 1) / B2R sigma) / 2 ^ 52)); [exact HD|apply proper_lognormal, P|exact I|lra|lra].
Qed.
Print Assumptions C112_lognormal_draw.
(** the ends of the domain; nothing is assumed about the library *)
Theorem C112_lognormal_ends : forall N mu sigma x, is_finite x = true ->
  (B2R x = 0 -> B2R (lognormal_ficdf N mu sigma x) = 0 /\ is_finite (lognormal_ficdf N mu sigma x) = true) /\ (B2R x = 1 -> lognormal_ficdf N mu sigma x = dinf false) /\ (B2R x < 0 \/ 1 < B2R x -> is_nan (lognormal_ficdf N mu sigma x) = true).
Proof.
  intros N mu sigma x F. destruct (int_ok_ 0 ltac:(lia)) as (F0 & V0). destruct (int_ok_ 1 ltac:(lia)) as (F1 & V1). unfold lognormal_ficdf. rewrite !Bltb_correct, !Beqb_correct, V0, V1 by assumption. split; [|split].
  - intros E. rewrite !Rlt_bool_false by lra. cbn [orb]. rewrite Req_bool_true by lra. split; [exact V0|exact F0].
  - intros E. rewrite !Rlt_bool_false by lra. cbn [orb]. rewrite Req_bool_false by lra. rewrite Req_bool_true by lra. reflexivity.
  - intros [E|E]; [rewrite Rlt_bool_true by lra; reflexivity|]. rewrite Rlt_bool_false by lra. rewrite Rlt_bool_true by lra. reflexivity.
Qed.

(** ** truncated_normal_dist *)
Theorem C112_truncated_icdf : forall N mu sigma a b x, accurate_e N -> tail_accurate N -> location mu -> scale sigma -> lower_bound a -> upper_bound b ->
  is_finite x = true -> / 2 ^ 40 <= B2R x <= 1 - / 2 ^ 40 ->
  let p := mass (B2R mu) (B2R sigma) a b in / 256 <= p ->
  solves (trunc_ficdf N mu sigma a b x) (F_truncated (B2R mu) (B2R sigma) a b) (B2R x) ((65 + Rabs (B2R mu) / B2R sigma) / 2 ^ 52 / p).
Proof. intros N mu sigma a b x HN HT Hm Hs Ha Hb F R p Hp. exact (trunc_icdf N HN HT mu sigma Hm Hs a b x Ha Hb F R Hp). Qed.
Print Assumptions C112_truncated_icdf.
(** with no upper bound and a lower bound above about mu + 1.5 sigma, the largest output of a 64 bit engine gives infinity *)
Theorem C112_truncated_infinite : forall N mu sigma a, accurate_e N -> location mu -> scale sigma -> is_finite a = true -> 14 / 15 <= F_normal (B2R mu) (B2R sigma) (B2R a) ->
  trunc_fdraw N mu sigma a (dinf false) (2 ^ 64 - 1) (2 ^ 64 - 1) = dinf false.
Proof.
  intros N mu sigma a HN Hm Hs Fa Hp. destruct (sf_val (uniformoo 53 1024 (2 ^ 64 - 1) (2 ^ 64 - 1)) false 9007199254740990 (-53) ltac:(vm_compute; reflexivity)) as (F & V). apply (trunc_inf N HN mu sigma Hm Hs a _ Fa F); [|exact Hp]. rewrite V. unfold F2R, q. cbn. lra.
Qed.
Print Assumptions C112_truncated_infinite.
Lemma F_3 : 14 / 15 <= F_normal 0 1 3.
Proof.
  unfold F_normal. rewrite gauss_Phi. replace ((3 - 0) / 1) with 3 by field. pose proof (InvPhiTail.mills 3 ltac:(lra)) as M. rewrite Phi_opp in M. pose proof (phi_K 3) as K. pose proof s2pi_bounds as S. pose proof (exp_ineq1_le (3 * 3 * (1 / 2))) as E. pose proof (phi_pos 3) as P. set (e := exp (3 * 3 * (1 / 2))) in *.
  assert (G : 2 * 5 <= s2pi * e) by (apply Rmult_le_compat; lra). assert (phi 3 * 10 <= phi 3 * (s2pi * e)) by (apply Rmult_le_compat_l; lra). lra.
Qed.
Theorem C112_truncated_infinite_refuted : exists N mu sigma a r, accurate_e N /\ tail_accurate N /\ B2R mu = 0 /\ B2R sigma = 1 /\ B2R a = 3 /\ (0 <= r <= 2 ^ 64 - 1)%Z /\
  is_finite (trunc_fdraw N mu sigma a (dinf false) (2 ^ 64 - 1) r) = false.
Proof.
  exists nan_libme, (dint 0), (dint 1), (dint 3), (2 ^ 64 - 1)%Z. destruct (int_ok_ 0 ltac:(lia)) as (F0 & V0). destruct (int_ok_ 1 ltac:(lia)) as (F1 & V1). destruct (int_ok_ 3 ltac:(lia)) as (F3 & V3).
  split; [exact nan_accurate_e|]. split; [exact nan_tail|]. split; [exact V0|]. split; [exact V1|]. split; [exact V3|]. split; [lia|]. rewrite (C112_truncated_infinite nan_libme (dint 0) (dint 1) (dint 3) nan_accurate_e zero_ok one_scale F3); [reflexivity|]. rewrite V0, V1, V3. exact F_3.
Qed.

(** with bounds 13 to 30 sigma above mu every draw is infinite, hence above a finite upper bound *)
Theorem C112_truncated_far : forall N mu sigma a b D r, accurate_e N -> tail_accurate N -> location mu -> scale sigma ->
  let z y := (B2R y - B2R mu) / B2R sigma in
  is_finite a = true -> 13 <= z a <= 30 -> b = dinf false \/ is_finite b = true /\ 13 <= z b <= 30 -> library_range D -> (0 <= r <= D)%Z ->
  trunc_fdraw N mu sigma a b D r = dinf false.
Proof. intros N mu sigma a b D r HN HT Hm Hs z Fa Ra Hb HD Hr. exact (trunc_far N HN HT mu sigma Hm Hs a b _ Fa Ra Hb (proj1 (oo_in D r HD Hr))). Qed.
Print Assumptions C112_truncated_far.
Theorem C112_truncated_bound_refuted : exists N mu sigma a b, accurate_e N /\ tail_accurate N /\ B2R mu = 0 /\ B2R sigma = 1 /\ B2R a = 14 /\ is_finite b = true /\ B2R b = 20 /\
  forall D r, library_range D -> (0 <= r <= D)%Z -> Bltb b (trunc_fdraw N mu sigma a b D r) = true.
Proof.
  exists nan_libme, (dint 0), (dint 1), (dint 14), (dint 20). destruct (int_ok_ 0 ltac:(lia)) as (F0 & V0). destruct (int_ok_ 1 ltac:(lia)) as (F1 & V1). destruct (int_ok_ 14 ltac:(lia)) as (Fa & Va). destruct (int_ok_ 20 ltac:(lia)) as (Fb & Vb).
  split; [exact nan_accurate_e|]. split; [exact nan_tail|]. split; [exact V0|]. split; [exact V1|]. split; [exact Va|]. split; [exact Fb|]. split; [exact Vb|]. intros D r HD Hr.
  rewrite (C112_truncated_far nan_libme (dint 0) (dint 1) (dint 14) (dint 20) D r nan_accurate_e nan_tail zero_ok one_scale Fa); [reflexivity| | |exact HD|exact Hr].
  - rewrite V0, V1, Va. lra.
  - right. split; [exact Fb|]. rewrite V0, V1, Vb. lra.
Qed.

(** the hypotheses are met by ordinary parameters *)
Example C112_example_lognormal : is_finite (dint 2) = true /\ Rabs (B2R (dint 2)) <= 100 /\ bpow radix2 (-300) <= B2R (dint 1) <= 20 /\
  samples (lognormal_fdraw nan_libme (dint 2) (dint 1) (2 ^ 64 - 1)) (2 ^ 64 - 1) (F_lognormal 2 1) (70 / 2 ^ 52 + 3 / (IZR (2 ^ 64 - 1) + 1)).
Proof.
  destruct (int_ok_ 1 ltac:(lia)) as (F1 & V1). destruct (int_ok_ 2 ltac:(lia)) as (F2 & V2). assert (A : Rabs (B2R (dint 2)) <= 100) by (rewrite V2, Rabs_pos_eq; lra). assert (B : bpow radix2 (-300) <= B2R (dint 1) <= 20) by (rewrite V1; split; [change 1 with (bpow radix2 0); apply bpow_le; lia|lra]).
  split; [exact F2|]. split; [exact A|]. split; [exact B|]. assert (HD : library_range (2 ^ 64 - 1)) by (left; reflexivity). pose proof (proj2 (proj2 (C112_lognormal_draw nan_libme (dint 2) (dint 1) _ nan_accurate_e nan_tail F2 A F1 B HD))) as C. rewrite V1, V2, (Rabs_pos_eq 2) in C by lra. replace (67 + (2 + 1) / 1) with 70 in C by field. exact C.
Qed.
Example C112_example_truncated : solves (trunc_ficdf nan_libme (dint 0) (dint 1) (dint 0) (dinf false) (dlit 3 (-2))) (F_truncated 0 1 (dint 0) (dinf false)) (3 / 4) (130 / 2 ^ 52).
Proof.
  destruct (int_ok_ 0 ltac:(lia)) as (F0 & V0). destruct (int_ok_ 1 ltac:(lia)) as (F1 & V1). destruct (sf_val (dlit 3 (-2)) false 6755399441055744 (-53) ltac:(vm_compute; reflexivity)) as (A & B). assert (V : B2R (dlit 3 (-2)) = 3 / 4) by (rewrite B; unfold F2R; cbn; lra).
  assert (P : mass 0 1 (dint 0) (dinf false) = / 2). { unfold mass. change (F_below 0 1 (dinf false)) with 1. replace (F_below 0 1 (dint 0)) with (F_normal 0 1 (B2R (dint 0))) by reflexivity. rewrite V0. unfold F_normal. rewrite gauss_Phi. replace ((0 - 0) / 1) with 0 by field. rewrite Phi_erf. unfold Rdiv. rewrite Rmult_0_l, erf_0. lra. }
  pose proof (C112_truncated_icdf nan_libme (dint 0) (dint 1) (dint 0) (dinf false) (dlit 3 (-2)) nan_accurate_e nan_tail zero_ok one_scale (or_introl F0) (or_intror eq_refl) A) as C. cbv zeta in C. rewrite V in C. rewrite V0, V1 in C. rewrite P in C. replace ((65 + Rabs 0 / 1) / 2 ^ 52 / / 2) with (130 / 2 ^ 52) in C by (rewrite Rabs_R0; field). apply C; lra.
Qed.
