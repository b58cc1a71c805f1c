(** C111: inv_Phi, and icdf and the draws of the normal distribution, in double. *)
From Coq Require Import ZArith Bool Reals Lia Lra Psatz.
From Coquelicot Require Import Coquelicot.
From Flocq Require Import Core IEEE754.BinarySingleNaN.
From Verif Require Import InvPhiModel InvPhiCentral InvPhiTail InvPhiProofs FloatInvReal FloatFacts UniformModel UniformProofs Prop_Uniform FloatDrawModel FloatDrawSpec FloatDrawProofs FloatDrawCore FloatDrawLoc FloatDrawTrig FloatDrawLaw Prop_FloatDraw FloatCdfModel FloatCdfSpec FloatCdfProofs FloatCdfLoc FloatPdfSpec FloatNormModel FloatNormSpec NormModel NormProofs FloatNormProofs Prop_FloatNorm FloatInvModel FloatInvProofs FloatInvStep FloatInvCore.
Local Open Scope R_scope.

(** Phi at the number inv_Phi returns is the argument up to 45 units of 2^-52 *)
Theorem C111_inv_Phi : forall N x, accurate_e N -> tail_accurate N -> is_finite x = true -> / 2 ^ 52 <= B2R x <= 1 - / 2 ^ 53 ->
  is_finite (finv_Phi N x) = true /\ Rabs (B2R (finv_Phi N x)) <= 12 /\ Rabs (gauss_cdf (B2R (finv_Phi N x)) - B2R x) <= 45 / 2 ^ 52.
Proof. intros N x HN HT F R. rewrite gauss_Phi. destruct (inv_ok N HN HT x F ltac:(unfold q; lra)) as (A & B & C). split; [exact A|]. split; [exact B|]. unfold q in C. lra. Qed.
(** at the ends and outside of [0, 1] nothing is assumed about the library *)
Theorem C111_inv_Phi_ends : forall N x, is_finite x = true ->
  (B2R x = 0 -> finv_Phi N x = dinf true) /\ (B2R x = 1 -> finv_Phi N x = dinf false) /\ (B2R x < 0 \/ 1 < B2R x -> is_nan (finv_Phi N x) = true).
Proof.
  intros N x F. destruct (int_ok_ 0 ltac:(lia)) as (F0 & V0). destruct (int_ok_ 1 ltac:(lia)) as (F1 & V1). unfold finv_Phi, finv_approx. cbv zeta. rewrite !Bltb_correct, !Beqb_correct, V0, V1 by assumption. repeat split.
  - intros E. rewrite !Rlt_bool_false by lra. cbn [orb]. rewrite Req_bool_true by lra. reflexivity.
  - intros E. rewrite !Rlt_bool_false by lra. cbn [orb]. rewrite Req_bool_false by lra. rewrite Req_bool_true by lra. reflexivity.
  - intros [E|E]; [rewrite Rlt_bool_true by lra; reflexivity|]. rewrite Rlt_bool_false by lra. rewrite Rlt_bool_true by lra. reflexivity.
Qed.
Theorem C111_normal_icdf : forall N mu sigma x, accurate_e N -> tail_accurate N -> location mu -> scale sigma -> is_finite x = true -> / 2 ^ 52 <= B2R x <= 1 - / 2 ^ 53 ->
  is_finite (normal_ficdf N mu sigma x) = true /\ Rabs (F_normal (B2R mu) (B2R sigma) (B2R (normal_ficdf N mu sigma x)) - B2R x) <= (51 + Rabs (B2R mu) / B2R sigma) / 2 ^ 52.
Proof. intros N mu sigma x HN HT Hm Hs F R. exact (normal_icdf N HN HT mu sigma x Hm Hs F ltac:(unfold q; lra)). Qed.
Lemma proper_normal mu sg : 0 < sg -> proper (F_normal mu sg).
Proof.
  intros S. unfold F_normal. split.
  - intros x y H. rewrite !gauss_Phi. apply (proj1 (Phi_le _ _)). apply div_le; lra.
  - intros x. rewrite gauss_Phi. pose proof (Phi_range ((x - mu) / sg)). lra.
Qed.
Theorem C111_normal_draw : forall N mu sigma D, accurate_e N -> tail_accurate N -> location mu -> scale sigma -> library_range D ->
  inverts (normal_fdraw N mu sigma D) D (fun r => B2R (uniformoo 53 1024 D r)) (F_normal (B2R mu) (B2R sigma)) ((51 + Rabs (B2R mu) / B2R sigma) / 2 ^ 52) /\
  samples (normal_fdraw N mu sigma D) D (F_normal (B2R mu) (B2R sigma)) ((67 + Rabs (B2R mu) / B2R sigma) / 2 ^ 52 + 3 / (IZR D + 1)).
Proof.
  intros N mu sigma D HN HT Hm Hs HD. pose proof (scale_pos sigma Hs) as P. assert (K : 0 <= Rabs (B2R mu) / B2R sigma) by (apply div_ge_0; [exact P|apply Rabs_pos]).
  assert (I : inverts (normal_fdraw N mu sigma D) D (fun r => B2R (uniformoo 53 1024 D r)) (F_normal (B2R mu) (B2R sigma)) ((51 + Rabs (B2R mu) / B2R sigma) / 2 ^ 52)).
  { intros r Hr. destruct (oo_in D r HD Hr) as (FU & RU). exact (C111_normal_icdf N mu sigma _ HN HT Hm Hs FU ltac:(unfold q in RU; lra)). }
  split; [exact I|]. apply (finish_oo D _ _ ((51 + Rabs (B2R mu) / B2R sigma) / 2 ^ 52)); [exact HD|apply proper_normal, P|exact I|lra|lra].
Qed.

(** the hypotheses are met: a library that rounds every function correctly, and an argument in each of the three regions *)
Example C111_example : accurate_e nan_libme /\ tail_accurate nan_libme /\
  (forall x, x = dlit 1 (-40) \/ x = dlit 3 (-3) \/ x = dlit 4095 (-12) -> is_finite x = true /\ Rabs (gauss_cdf (B2R (finv_Phi nan_libme x)) - B2R x) <= 45 / 2 ^ 52).
Proof.
  split; [exact nan_accurate_e|]. split; [exact nan_tail|]. intros x Hx. assert (H : is_finite x = true /\ / 2 ^ 52 <= B2R x <= 1 - / 2 ^ 53).
  { destruct Hx as [-> | [-> | -> ] ].
    - destruct (sf_val (dlit 1 (-40)) false 4503599627370496 (-92) ltac:(vm_compute; reflexivity)) as (A & B). split; [exact A|]. rewrite B. unfold F2R. cbn. lra.
    - destruct (sf_val (dlit 3 (-3)) false 6755399441055744 (-54) ltac:(vm_compute; reflexivity)) as (A & B). split; [exact A|]. rewrite B. unfold F2R. cbn. lra.
    - destruct (sf_val (dlit 4095 (-12)) false 9005000231485440 (-53) ltac:(vm_compute; reflexivity)) as (A & B). split; [exact A|]. rewrite B. unfold F2R. cbn. lra. }
  destruct H as (F & R). split; [exact F|]. apply (C111_inv_Phi nan_libme x nan_accurate_e nan_tail F R).
Qed.
Example C111_example_draw : location (dint 7) /\ scale (dint 3) /\ samples (normal_fdraw nan_libme (dint 7) (dint 3) (2 ^ 64 - 1)) (2 ^ 64 - 1) (fun x => gauss_cdf ((x - 7) / 3)) ((67 + 7 / 3) / 2 ^ 52 + 3 / (IZR (2 ^ 64 - 1) + 1)).
Proof.
  destruct (int_ok_ 3 ltac:(lia)) as (F3 & V3). destruct (int_ok_ 7 ltac:(lia)) as (F7 & V7).
  assert (P : 8 <= bpow radix2 300) by (change 8 with (bpow radix2 3); apply bpow_le; lia). assert (N : bpow radix2 (-300) <= 1) by (change 1 with (bpow radix2 0); apply bpow_le; lia).
  assert (S : scale (dint 3)) by (split; [exact F3|rewrite V3; lra]). assert (L : location (dint 7)) by (split; [exact F7|rewrite V7, Rabs_pos_eq; lra]). split; [exact L|]. split; [exact S|].
  assert (HD : library_range (2 ^ 64 - 1)) by (left; reflexivity).
  pose proof (proj2 (C111_normal_draw nan_libme (dint 7) (dint 3) _ nan_accurate_e nan_tail L S HD)) as A. rewrite V3, V7, (Rabs_pos_eq 7) in A by lra. exact A.
Qed.
Print Assumptions C111_inv_Phi.
Print Assumptions C111_normal_draw.
