(** cdf of the distributions on the half line, in double. *)
From Coq Require Import ZArith Bool Reals Lia Lra Psatz.
From Flocq Require Import Core IEEE754.BinarySingleNaN.
From Verif Require Import FloatFacts UniformModel UniformProofs FloatDrawModel FloatDrawSpec FloatDrawProofs FloatDrawCore FloatDrawLoc FloatDrawTrig FloatDrawLaw DiscDrawTree FloatCdfModel FloatCdfSpec FloatCdfProofs.
Local Open Scope R_scope.
Notation rnd := (round radix2 (SpecFloat.fexp 53 1024) ZnearestE).

Lemma leb_0 (x : double) : is_finite x = true -> Bleb x (dint 0) = Rle_bool (B2R x) 0.
Proof. intros F. destruct (int_ok_ 0 ltac:(lia)) as (F0 & V0). rewrite Bleb_correct by assumption. rewrite V0. reflexivity. Qed.
Lemma tiny_small : tiny <= q / 1024.
Proof. replace (q / 1024) with (bpow radix2 (-62)) by (unfold q; cbn; lra). apply bpow_le. lia. Qed.

Section Functions.
Variable M : libmx.
Hypothesis HM : accurate_x M.

Lemma exp_at v t k tau : apxn v t k tau -> 0 <= t -> 0 <= k <= / 1000 -> 0 <= tau <= / 1000 -> computes (x_exp M v) (exp (- t)) (2 * k + 2 * tau + 4 * q).
Proof. intros A T K U. exact (exp_neg M HM v t k tau T K U A). Qed.
Lemma exponential_cdf mu x : scale mu -> is_finite x = true -> computes (exponential_fcdf M mu x) (F_exponential (B2R mu) (B2R x)) (8 * q).
Proof.
  intros Hm F. pose proof q_pos as Q. pose proof tiny_small as T. pose proof tiny_pos as T0. pose proof (scale_pos mu Hm) as Pm. unfold exponential_fcdf, F_exponential. rewrite (leb_0 x F). destruct (Rle_bool_spec (B2R x) 0) as [H|H]; destruct (Rle_dec (B2R x) 0) as [C|C]; try lra.
  - apply computes_0. lra.
  - destruct (opp_ok x F) as (O1 & O2). pose proof (div_apxn (dopp x) mu O1 ltac:(lra) Pm) as A. rewrite O2, Ropp_involutive in A. assert (P : 0 <= B2R x / B2R mu) by (apply Rmult_le_pos; [lra|left; apply Rinv_0_lt_compat, Pm]).
    pose proof (exp_at _ _ _ _ A P ltac:(lra) ltac:(lra)) as E. apply one_minus in E. revert E. apply computes_weaken. lra.
Qed.
Lemma twosided_cdf mu x : scale mu -> is_finite x = true -> computes (twosided_fcdf M mu x) (F_twosided (B2R mu) (B2R x)) (8 * q).
Proof.
  intros Hm F. pose proof q_pos as Q. pose proof tiny_small as T. pose proof tiny_pos as T0. pose proof (scale_pos mu Hm) as Pm. assert (Im : 0 < / B2R mu) by (apply Rinv_0_lt_compat, Pm). unfold twosided_fcdf, F_twosided. rewrite (leb_0 x F). destruct (Rle_bool_spec (B2R x) 0) as [H|H]; destruct (Rle_dec (B2R x) 0) as [C|C]; try lra.
  - pose proof (div_apxn x mu F H Pm) as A. assert (P : 0 <= - B2R x / B2R mu) by (apply Rmult_le_pos; lra).
    pose proof (exp_at _ _ _ _ A P ltac:(lra) ltac:(lra)) as E. replace (- (- B2R x / B2R mu)) with (B2R x / B2R mu) in E by (unfold Rdiv; ring). destruct (halve _ _ _ E) as (X & Y & Z). split; [exact X|]. split; [lra|]. apply Rle_trans with (1 := Z). lra.
  - destruct (opp_ok x F) as (O1 & O2). pose proof (div_apxn (dopp x) mu O1 ltac:(lra) Pm) as A. rewrite O2, Ropp_involutive in A. assert (P : 0 <= B2R x / B2R mu) by (apply Rmult_le_pos; lra).
    pose proof (exp_at _ _ _ _ A P ltac:(lra) ltac:(lra)) as E. destruct (halve _ _ _ E) as (X & Y & Z). assert (E2 : computes (ddiv (x_exp M (ddiv (dopp x) mu)) (dint 2)) (exp (- (B2R x / B2R mu)) / 2) (7 * q)) by (split; [exact X|]; split; [lra|]; apply Rle_trans with (1 := Z); lra). apply one_minus in E2. revert E2. apply computes_weaken. lra.
Qed.

(** ** rayleigh *)
Lemma nu2_ok nu : scale nu -> let d := dmul (dmul (dint 2) nu) nu in is_finite d = true /\ lc q (B2R d) (2 * B2R nu * B2R nu) /\ bpow radix2 (-600) <= B2R d <= bpow radix2 602.
Proof.
  intros Hn d. pose proof q_pos as Q. pose proof (scale_pos nu Hn) as Pn. destruct Hn as (Fn & Rn). destruct (int_ok_ 2 ltac:(lia)) as (F2 & V2).
  destruct (mul_ok (dint 2) nu F2 Fn) as (A1 & A2); [rewrite V2, Rabs_pos_eq by lra; assert (bpow radix2 300 <= big) by (apply bpow_le; lia); pose proof (bpow_gt_0 radix2 1000); unfold big in *; lra|].
  rewrite V2 in A2. rewrite (rnd_fmt 53 1024 H3_64 H70_64 _ (fmt_double _ (fmt_B2R 53 1024 H3_64 H70_64 nu))) in A2.
  assert (R : bpow radix2 (-599) <= 2 * B2R nu * B2R nu <= bpow radix2 601).
  { change (-599)%Z with (1 + -300 + -300)%Z. change 601%Z with (1 + 300 + 300)%Z. apply bpow_range; [|exact Rn]. apply bpow_range; [|exact Rn]. change (bpow radix2 1) with 2. lra. }
  destruct (mul_lc (dmul (dint 2) nu) nu 0 0 (2 * B2R nu) (B2R nu) A1 Fn) as (M1 & M2); [rewrite A2; apply lc_refl; lra|apply lc_refl, Pn|lra|apply bpow_widen with (-599)%Z 601%Z; [lia|lia|exact R]|].
  fold d in M1, M2. replace (0 + 0 + q) with q in M2 by ring. split; [exact M1|]. split; [exact M2|]. apply (lc_range (-599) 601 q _ _ M2); [lra|exact R].
Qed.
Lemma rayleigh_cdf nu x : scale nu -> is_finite x = true -> computes (rayleigh_fcdf M nu x) (F_rayleigh (B2R nu) (B2R x)) (20 * q).
Proof.
  intros Hn F. pose proof q_pos as Q. pose proof tiny_small as T. pose proof tiny_pos as T0. pose proof (scale_pos nu Hn) as Pn. unfold rayleigh_fcdf, F_rayleigh. rewrite (leb_0 x F). destruct (Rle_bool_spec (B2R x) 0) as [H|H]; destruct (Rle_dec (B2R x) 0) as [C|C]; try lra; [apply computes_0; lra|].
  destruct (nu2_ok nu Hn) as (D1 & D2 & D3). set (d := dmul (dmul (dint 2) nu) nu) in *. pose proof (bpow_gt_0 radix2 (-600)) as BP. assert (Pd : 0 < B2R d) by lra. assert (Id : 0 < / B2R d) by (apply Rinv_0_lt_compat, Pd).
  set (t := B2R x / B2R nu * (B2R x / B2R nu) / 2). assert (Et : t = B2R x * B2R x / (2 * B2R nu * B2R nu)) by (unfold t; field; lra). assert (X2 : 0 < B2R x * B2R x) by (apply Rmult_lt_0_compat; lra).
  assert (N2 : 0 < 2 * B2R nu * B2R nu) by (apply Rmult_lt_0_compat; lra). assert (Pt : 0 < t) by (rewrite Et; apply Rdiv_lt_0_compat; lra).
  assert (TD : Rabs (B2R x * B2R x / B2R d - t) <= 2 * q * t).
  { rewrite Et. apply lc_abs; [|lra]. replace q with (0 + q) by ring. apply lc_div; [apply lc_refl; lra|exact D2]. } pose proof (Rabs_le_inv _ _ TD) as TD'. assert (QT : 0 <= q * t <= / 1000 * t) by (split; [apply Rmult_le_pos; lra|apply Rmult_le_compat_r; lra]).
  destruct (opp_ok x F) as (O1 & O2).
  assert (A : apxn (ddiv (dmul (dopp x) x) d) t (5 * q) (q / 2)).
  { destruct (mul_any (dopp x) x O1 F) as [(M1 & M2)|(M1 & M2)]; rewrite O2 in *; replace (- B2R x * B2R x) with (- (B2R x * B2R x)) in * by ring.
    - set (n := dmul (dopp x) x) in *. rewrite rnd_opp in M2. pose proof (rnd_err (B2R x * B2R x)) as E. rewrite (Rabs_pos_eq (B2R x * B2R x)) in E by lra. pose proof (rnd_ge_0 53 1024 H3_64 H70_64 (B2R x * B2R x) ltac:(lra)) as N0. set (y := rnd (B2R x * B2R x)) in *.
      pose proof (div_apxn n d M1 ltac:(lra) Pd) as G. rewrite M2, Ropp_involutive in G. assert (EY : Rabs (y / B2R d - B2R x * B2R x / B2R d) <= q / 2 * (B2R x * B2R x / B2R d) + tiny / B2R d).
      { replace (y / B2R d - B2R x * B2R x / B2R d) with ((y - B2R x * B2R x) * / B2R d) by (unfold Rdiv; ring). rewrite Rabs_mult, (Rabs_pos_eq (/ B2R d)) by lra. apply Rle_trans with ((q / 2 * (B2R x * B2R x) + tiny) * / B2R d); [apply Rmult_le_compat_r; lra|]. unfold Rdiv. lra. }
      assert (TQ : tiny / B2R d <= q / 8). { apply Rmult_le_reg_r with (B2R d); [exact Pd|]. unfold Rdiv at 1. rewrite Rmult_assoc, Rinv_l, Rmult_1_r by lra. apply Rle_trans with (q / 8 * bpow radix2 (-600)); [|apply Rmult_le_compat_l; lra]. replace (q / 8) with (bpow radix2 (-55)) by (unfold q; cbn; lra). rewrite <- bpow_plus. apply bpow_le. lia. }
      assert (XD : 0 <= B2R x * B2R x / B2R d <= 2 * t) by (split; [apply Rmult_le_pos; lra|lra]). assert (q / 2 * (B2R x * B2R x / B2R d) <= q / 2 * (2 * t)) by (apply Rmult_le_compat_l; lra).
      assert (YT : Rabs (y / B2R d - t) <= 3 * q * t + q / 8) by (apply Rabs_le_inv in EY; apply Rabs_le; lra). pose proof (Rabs_le_inv _ _ YT) as YT'. assert (YP : 0 <= y / B2R d) by (apply Rmult_le_pos; lra).
      destruct G as [(G1 & G2 & G3)|(G1 & G2)].
      + left. split; [exact G1|]. split; [exact G2|]. assert (q / 2 * (y / B2R d) <= q / 2 * (2 * t + q)) by (apply Rmult_le_compat_l; lra). assert (q * q <= q * / 1000) by (apply Rmult_le_compat_l; lra). apply Rabs_le_inv in G3. apply Rabs_le. lra.
      + destruct (Rle_lt_dec 80 t) as [K|K]; [right; split; assumption|]. left. destruct G1 as [G1|(G1 & G3)].
        * exfalso. destruct (div_any n d M1 Pd) as [(Z & _)|(Z & _)]; [rewrite G1 in Z; discriminate Z|]. rewrite M2 in Z. replace (- y / B2R d) with (- (y / B2R d)) in Z by (unfold Rdiv; ring). rewrite Rabs_Ropp, Rabs_pos_eq in Z by exact YP. pose proof bpow_1000. lra.
        * split; [exact G1|]. split; [lra|]. destruct (div_any n d M1 Pd) as [(_ & Z)|(_ & Z)]; [|rewrite Z in G1; discriminate G1]. rewrite Z, M2. replace (- y / B2R d) with (- (y / B2R d)) by (unfold Rdiv; ring). rewrite rnd_opp, Ropp_involutive. pose proof (rnd_err (y / B2R d)) as E5. rewrite (Rabs_pos_eq (y / B2R d)) in E5 by exact YP.
          assert (q / 2 * (y / B2R d) <= q / 2 * (2 * t + q)) by (apply Rmult_le_compat_l; lra). assert (q * q <= q * / 1000) by (apply Rmult_le_compat_l; lra). apply Rabs_le_inv in E5. apply Rabs_le. lra.
    - right. rewrite M2. destruct (Rlt_dec _ 0) as [K|K]; [|lra]. split; [left; apply inf_div; assumption|]. rewrite Rabs_Ropp, Rabs_pos_eq in M1 by lra.
      assert (80 <= B2R x * B2R x / B2R d / 2); [|lra]. apply Rmult_le_reg_r with (2 * B2R d); [lra|]. replace (B2R x * B2R x / B2R d / 2 * (2 * B2R d)) with (B2R x * B2R x) by (field; lra). apply Rle_trans with (2 := M1). apply Rle_trans with (bpow radix2 8 * bpow radix2 602); [change (bpow radix2 8) with 256; lra|]. rewrite <- bpow_plus. apply bpow_le. lia. }
  pose proof (exp_at _ _ _ _ A (Rlt_le _ _ Pt) ltac:(lra) ltac:(lra)) as E. apply one_minus in E. revert E. apply computes_weaken. lra.
Qed.
End Functions.
