(** The draw of geometric_dist in double. *)
From Coq Require Import ZArith Bool List Reals Lia Lra.
From Flocq Require Import Core Relative IEEE754.BinarySingleNaN.
From Verif Require Import FloatFacts UniformModel UniformProofs Prop_Uniform Prop_UnifAcc FloatDrawModel FloatDrawSpec FloatDrawProofs FloatDrawCore FloatDrawLaw DiscDrawSpec DiscDrawProofs DiscDrawInt DiscDrawModel.
Import ListNotations.
Open Scope R_scope.

Section Geom.
Variable L : libm.
Hypothesis HL : accurate L.
Variable p : double.
Hypothesis Fp : is_finite p = true.
Hypothesis Hp : / 2 ^ 25 <= B2R p < 1.
Let lam := - ln (1 - B2R p).

Lemma p_up : B2R p <= 1 - q / 2.
Proof.
  assert (P : Ulp.pred radix2 (SpecFloat.fexp 53 1024) 1 = 1 - q / 2). { pose proof (pred_1 53 1024 H3_64 H70_64) as E. change (Z.opp 53) with (-53)%Z in E. rewrite u_eq in E. exact E. }
  rewrite <- P. apply pred_ge_gt; [typeclasses eauto|apply (fmt_B2R 53 1024 H3_64 H70_64)|apply (fmt_1 53 1024 H3_64 H70_64)|lra].
Qed.
Lemma log_lc (X : double) : is_finite X = true -> 0 < B2R X < 1 -> is_finite (m_ln L X) = true /\ lc (4 * q) (- B2R (m_ln L X)) (- ln (B2R X)).
Proof.
  intros F H. destruct (acc_ln L HL X F ltac:(lra)) as (A & B). split; [exact A|]. assert (N : ln (B2R X) < 0) by (rewrite <- ln_1; apply ln_increasing; lra). rewrite (Rabs_left (ln (B2R X))) in B by exact N. pose proof q_pos as Q.
  replace (4 * q) with (2 * (2 * q)) by ring. apply lc_rel; [lra|lra|]. replace (- B2R (m_ln L X) - - ln (B2R X)) with (- (B2R (m_ln L X) - ln (B2R X))) by ring. rewrite Rabs_Ropp. replace (2 * q) with (/ 2 ^ 51) by (unfold q; field). exact B.
Qed.
Lemma lam_range : B2R p <= lam <= 40.
Proof.
  pose proof p_up as U. pose proof q_pos as Q. unfold lam. pose proof (ln_up (1 - B2R p) ltac:(lra)). pose proof (ln_ge_53 (1 - B2R p) ltac:(lra)). lra.
Qed.
Definition K : R := 2 * (q / B2R p) + 10 * q.
Lemma qp : q <= q / B2R p <= / 2 ^ 27.
Proof.
  pose proof q_pos as Q. assert (I : 1 <= / B2R p <= 2 ^ 25). { split; [rewrite <- Rinv_1; apply Rinv_le_contravar; lra|]. rewrite <- (Rinv_inv (2 ^ 25)). apply Rinv_le_contravar; lra. }
  unfold Rdiv. split; [rewrite <- (Rmult_1_r q) at 1; apply Rmult_le_compat_l; lra|]. apply Rle_trans with (q * 2 ^ 25); [apply Rmult_le_compat_l; lra|unfold q; lra].
Qed.
(** the scaled logarithm *)
Lemma geom_core (X : double) : is_finite X = true -> q <= B2R X <= 1 - q / 2 ->
  let z := dmul (m_ln L X) (geometric_fool L p) in
  is_finite z = true /\ 0 < B2R z < 2000000000 /\ Rabs (exp (- (B2R z * lam)) - B2R X) <= 48 * (q / B2R p).
Proof.
  intros FX RX z. pose proof q_pos as Q. pose proof p_up as PU. pose proof lam_range as LR. pose proof qp as QP.
  destruct (int_ok_ 1 ltac:(lia)) as (O1 & O2). assert (BG : 1 <= big) by (change 1 with (bpow radix2 0); apply bpow_le; lia).
  destruct (sub_ok (dint 1) p O1 Fp) as (S1 & S2); [rewrite O2, Rabs_pos_eq by lra; lra|]. rewrite O2 in S2. fold (geometric_fq p) in S1, S2.
  set (s := geometric_fq p) in *. set (t := 1 - B2R p) in *. assert (T : q / 2 <= t <= 1 - / 2 ^ 25) by (unfold t; lra).
  assert (R : Rabs (rnd t - t) <= q / 2 * t). { pose proof (rnd_rel t) as R. rewrite (Rabs_pos_eq t) in R by lra. apply R. right. apply Rle_trans with (bpow radix2 (-53)); [apply bpow_le; lia|rewrite u_eq; lra]. }
  assert (SR : 0 < B2R s < 1). { rewrite S2. apply Rabs_le_inv in R. assert (0 <= q / 2 * t <= q / 2) by (split; [apply Rmult_le_pos; lra|rewrite <- (Rmult_1_r (q / 2)) at 2; apply Rmult_le_compat_l; lra]). assert (q / 2 * t <= / 2 * t) by (apply Rmult_le_compat_r; lra). assert (q <= / 2 ^ 26) by (unfold q; lra). lra. }
  assert (LC1 : lc q (B2R s) t) by (rewrite S2; replace q with (2 * (q / 2)) by field; apply lc_rel; [lra|lra|exact R]).
  (* the logarithm of 1 - p *)
  assert (LC2 : lc (2 * (q / B2R p)) (- ln (B2R s)) lam).
  { destruct LC1 as (_ & _ & E). apply lc_rel; [lra|unfold q in *; lra|]. unfold lam. fold t. replace (- ln (B2R s) - - ln t) with (- (ln (B2R s) - ln t)) by ring. rewrite Rabs_Ropp. apply Rle_trans with (1 := E).
    apply Rle_trans with (q / B2R p * B2R p); [unfold Rdiv; rewrite Rmult_assoc, Rinv_l by lra; lra|]. apply Rmult_le_compat_l; [lra|exact (proj1 LR)]. }
  destruct (log_lc s S1 SR) as (M1 & M2). pose proof (lc_trans _ _ _ _ _ M2 LC2) as M3. pose proof M3 as (M4 & _ & _).
  assert (K5 : 4 * q + 2 * (q / B2R p) <= / 2) by (unfold q in *; lra).
  pose proof (lc_bounds _ _ _ M3 K5) as M5. set (m := - B2R (m_ln L s)) in *.
  assert (IM : / 80 <= / m <= 2 ^ 26). { split; [apply Rinv_le_contravar; lra|]. rewrite <- (Rinv_inv (2 ^ 26)). apply Rinv_le_contravar; lra. }
  assert (B26 : 2 ^ 26 <= big) by (replace (2 ^ 26) with (bpow radix2 26) by (cbn; lra); apply bpow_le; lia).
  destruct (div_ok (dint 1) (m_ln L s) O1) as (D1 & D2); [unfold m in M4; lra| |].
  { rewrite O2. replace (1 / B2R (m_ln L s)) with (- / m) by (unfold m; field; unfold m in M4; lra). rewrite Rabs_Ropp, Rabs_pos_eq by lra. lra. }
  rewrite O2 in D2. replace (1 / B2R (m_ln L s)) with (- / m) in D2 by (unfold m; field; unfold m in M4; lra). rewrite rnd_opp in D2. change (ddiv (dint 1) (m_ln L s)) with (geometric_fool L p) in D1, D2.
  set (g := geometric_fool L p) in *.
  assert (LC3 : lc (q + (4 * q + 2 * (q / B2R p))) (rnd (/ m)) (/ lam)).
  { apply lc_trans with (/ m); [|apply lc_inv, M3]. apply lc_rnd. apply Rle_trans with (bpow radix2 (-10)); [apply bpow_le; lia|]. cbn. lra. }
  (* the logarithm of the variate *)
  destruct (log_lc X FX ltac:(lra)) as (N1 & N2). pose proof (ln_ge_53 (B2R X) ltac:(lra)) as N3. pose proof (ln_up (B2R X) ltac:(lra)) as N4. set (n := - B2R (m_ln L X)) in *. set (e := - ln (B2R X)) in *. assert (ER : q / 2 <= e <= 40) by (unfold e; lra).
  pose proof (lc_mul _ _ _ _ _ _ N2 LC3) as LC4. assert (K6 : 4 * q + (q + (4 * q + 2 * (q / B2R p))) <= / 2) by (unfold q in *; lra).
  assert (IL : / 40 <= / lam <= 2 ^ 25). { split; [apply Rinv_le_contravar; lra|]. rewrite <- (Rinv_inv (2 ^ 25)). apply Rinv_le_contravar; lra. }
  assert (V : q / 2 * / 40 <= e * / lam <= 40 * 2 ^ 25) by (split; apply Rmult_le_compat; lra).
  assert (VR : bpow radix2 (-1010) <= e * / lam <= bpow radix2 1000).
  { split; [apply Rle_trans with (bpow radix2 (-60)); [apply bpow_le; lia|]; unfold q in V; cbn; lra|apply Rle_trans with (bpow radix2 60); [cbn; lra|apply bpow_le; lia]]. }
  destruct (rnd_lc _ _ _ LC4 K6 VR) as (Z1 & Z2).
  assert (ZE : B2R (m_ln L X) * B2R g = n * rnd (/ m)) by (rewrite D2; unfold n; ring).
  destruct (mul_ok (m_ln L X) g N1 D1) as (Z3 & Z4); [rewrite ZE; exact Z1|]. fold z in Z3, Z4. rewrite ZE in Z4. rewrite <- Z4 in Z2. split; [exact Z3|].
  replace (4 * q + (q + (4 * q + 2 * (q / B2R p))) + q) with K in Z2 by (unfold K; ring).
  assert (KK : 0 <= K <= 12 * (q / B2R p)) by (unfold K; lra). assert (K27 : K <= / 2 ^ 23) by lra.
  pose proof (lc_abs _ _ _ Z2 ltac:(lra)) as ZA. pose proof Z2 as (Z0 & _ & _). apply Rabs_le_inv in ZA.
  assert (KV : 2 * K * (e * / lam) <= 2 * / 2 ^ 23 * (40 * 2 ^ 25)) by (apply Rmult_le_compat; lra).
  split; [lra|].
  assert (EX : Rabs (B2R z * lam - e) <= 2 * K * e + 0).
  { replace (B2R z * lam - e) with ((B2R z - e * / lam) * lam) by (field; lra). rewrite Rabs_mult, (Rabs_pos_eq lam) by lra. apply Rle_trans with (2 * K * (e * / lam) * lam); [apply Rmult_le_compat_r; [lra|apply Rabs_le; lra]|]. right. field. lra. }
  assert (XE : exp (- e) = B2R X) by (unfold e; rewrite Ropp_involutive; apply exp_ln; lra). rewrite <- XE.
  assert (KE : 2 * K * e <= 2 * / 2 ^ 23 * 40) by (apply Rmult_le_compat; lra).
  apply Rle_trans with (2 * (2 * K) + 2 * 0); [apply exp_back; lra|lra].
Qed.

Section Law.
Variable D : Z.
Hypothesis HD : library_range D.
Lemma lib4 : (4 <= D < 2 ^ 64)%Z.
Proof. revert HD. intros H. repeat (destruct H as [<-|H]; [lia|]). destruct H. Qed.
Lemma oo_in' r : (0 <= r <= D)%Z -> is_finite (uniformoo 53 1024 D r) = true /\ q <= B2R (uniformoo 53 1024 D r) <= 1 - q / 2.
Proof.
  intros Hr. pose proof lib4. destruct (C39_uniformoo D r HD Hr) as ((_ & U) & _). apply oo_range; [lia|exact Hr|apply max_2; lia|lra].
Qed.
Definition gdraw (r : Z) : Z := match geometric_fdraw L p D r with IntVal z => z | IntUB => -1 end.
Lemma gdraw_ok r : (0 <= r <= D)%Z -> geometric_fdraw L p D r = IntVal (gdraw r) /\ (0 <= gdraw r < 2 ^ 31)%Z /\
  (forall k, (gdraw r < k)%Z <-> B2R (dmul (m_ln L (uniformoo 53 1024 D r)) (geometric_fool L p)) < IZR k).
Proof.
  intros Hr. destruct (oo_in' r Hr) as (F & B). destruct (geom_core _ F B) as (Z1 & Z2 & _). set (z := dmul (m_ln L (uniformoo 53 1024 D r)) (geometric_fool L p)) in *.
  pose proof (trunc_lt z) as T. assert (T0 : ~ (Btrunc z < 0)%Z) by (intros C; apply (T 0%Z ltac:(lra)) in C; lra). assert (T1 : (Btrunc z < 2000000000)%Z) by (apply (T 2000000000%Z ltac:(lra)); lra).
  assert (E : geometric_fdraw L p D r = IntVal (Btrunc z)). { unfold geometric_fdraw, double_to_signed. fold z. rewrite Z1. cbv zeta. change (32 - 1)%Z with 31%Z. rewrite (proj2 (Z.leb_le _ _)) by lia. rewrite (proj2 (Z.ltb_lt _ _)) by lia. reflexivity. }
  unfold gdraw. rewrite E. split; [reflexivity|]. split; [lia|]. intros k. apply T. lra.
Qed.
Lemma tail_pow k : (0 <= k)%Z -> exp (- (IZR k * lam)) = (1 - B2R p) ^ Z.to_nat k.
Proof.
  intros Hk. unfold lam. replace (- (IZR k * - ln (1 - B2R p))) with (IZR k * ln (1 - B2R p)) by ring. rewrite <- (Z2Nat.id k) at 1 by exact Hk. rewrite <- INR_IZR_INZ. pose proof p_up. pose proof q_pos. rewrite <- ln_pow by lra. apply exp_ln. apply pow_lt. lra.
Qed.
Lemma geom_tail k : (0 <= k)%Z -> probability (fun r => (k <= gdraw r)%Z) D ((1 - B2R p) ^ Z.to_nat k) (48 * (q / B2R p) + / 2 ^ 48 + 3 / (IZR D + 1)).
Proof.
  intros Hk. pose proof lib4 as D4. pose proof qp as QP. pose proof q_pos as Q. pose proof lam_range as LR. rewrite <- tail_pow by exact Hk.
  assert (D1 : 4 <= IZR D) by (apply IZR_le; lia). assert (ID : 0 < / (IZR D + 1)) by (apply Rinv_0_lt_compat; lra). assert (K0 : 0 <= IZR k) by (apply IZR_le; lia).
  apply (prob_ext (fun r => (k <=? gdraw r)%Z = true)); [intros r _; apply Z.leb_le|].
  apply (prob_weaken _ D (exp (- (IZR k * lam))) _ (48 * (q / B2R p) + (/ 2 ^ 48 + 2 / (IZR D + 1)) + / (IZR D + 1))).
  { rewrite (Rminus_diag_eq _ _ eq_refl), Rabs_R0. lra. }
  assert (KL : 0 <= IZR k * lam) by (apply Rmult_le_pos; lra).
  apply count_pred; [lia|assert (0 < 2 / (IZR D + 1)) by (apply Rdiv_lt_0_compat; lra); lra|pose proof (exp_neg_01 _ KL); lra| |].
  - intros r Hr H. apply Z.leb_le in H. destruct (gdraw_ok r Hr) as (_ & _ & G). destruct (oo_in' r Hr) as (F & B). destruct (geom_core _ F B) as (_ & _ & A). set (z := dmul (m_ln L (uniformoo 53 1024 D r)) (geometric_fool L p)) in *.
    assert (KZ : IZR k <= B2R z) by (apply Rnot_lt_le; intros C; apply G in C; lia). pose proof (proj1 (oo_position D D4 r Hr)) as O. apply Rabs_le_inv in O. apply Rabs_le_inv in A.
    assert (exp (- (B2R z * lam)) <= exp (- (IZR k * lam))) by (apply exp_le; apply Ropp_le_contravar; apply Rmult_le_compat_r; lra). lra.
  - intros r Hr H. apply Z.leb_gt in H. destruct (gdraw_ok r Hr) as (_ & _ & G). destruct (oo_in' r Hr) as (F & B). destruct (geom_core _ F B) as (_ & _ & A). set (z := dmul (m_ln L (uniformoo 53 1024 D r)) (geometric_fool L p)) in *.
    apply G in H. pose proof (proj1 (oo_position D D4 r Hr)) as O. apply Rabs_le_inv in O. apply Rabs_le_inv in A.
    assert (exp (- (IZR k * lam)) <= exp (- (B2R z * lam))) by (apply exp_le; apply Ropp_le_contravar; apply Rmult_le_compat_r; lra). lra.
Qed.
End Law.
End Geom.
