(** Proofs about inv_Beta_I of NewtonModel: range, termination, and convergence for equal parameters >= 1. *)
From Coq Require Import Reals ZArith Lra Psatz Lia Bool.
From Coquelicot Require Import Coquelicot.
From Flocq Require Import IEEE754.BinarySingleNaN.
From Verif Require Import ContModel ContProofs GamModel SeriesModel NormModel NewtonModel Improper GammaFn BetaFn GamProofs SeriesProofs NewtonProofs.
Local Open Scope R_scope.

(** ** The initial guess *)
Lemma pow_lt_1 b e : 0 < b < 1 -> 0 < e -> 0 < Rpower b e < 1.
Proof.
  intros Hb He. split; [apply Rpower_pos|]. unfold Rpower. rewrite <- exp_0. apply exp_increasing.
  assert (ln b < 0) by (rewrite <- ln_1; apply ln_increasing; lra). nra.
Qed.
Lemma new_start_in x p q : 0 < p -> 0 < q -> 0 < x < 1 -> 0 < new_start x p q < 1.
Proof.
  intros Hp Hq Hx. unfold new_start.
  destruct (if Rle_dec 1 (2 * p) then if Rle_dec 1 (2 * q) then true else false else false) eqn:C.
  - destruct (Rle_dec 1 (2 * p)); [|discriminate C]. destruct (Rle_dec 1 (2 * q)); [|discriminate C].
    split; [apply Rdiv_lt_0_compat; lra|]. apply (Rmult_lt_reg_r (3 * p + 3 * q - 2)); [lra|]. unfold Rdiv. rewrite Rmult_assoc, Rinv_l by lra. lra.
  - clear C. cbv zeta.
    assert (H : forall p q, 0 < p -> 0 < q -> 0 < exp (p * ln (p / (p + q))) < 1).
    { clear. intros p q Hp Hq. apply (pow_lt_1 (p / (p + q)) p); [|exact Hp]. split; [apply Rdiv_lt_0_compat; lra|].
      apply (Rmult_lt_reg_r (p + q)); [lra|]. unfold Rdiv. rewrite Rmult_assoc, Rinv_l by lra. lra. }
    pose proof (H p q Hp Hq) as T. pose proof (H q p Hq Hp) as U. rewrite (Rplus_comm q p) in U.
    set (t := exp (p * ln (p / (p + q)))) in *. set (u := exp (q * ln (q / (p + q)))) in *.
    assert (T0 : 0 < t / p) by (apply Rdiv_lt_0_compat; lra). assert (U0 : 0 < u / q) by (apply Rdiv_lt_0_compat; lra).
    set (w := t / p + u / q). assert (W0 : 0 < w) by (unfold w; lra).
    assert (Ip : 0 < 1 / p) by (apply Rdiv_lt_0_compat; lra). assert (Iq : 0 < 1 / q) by (apply Rdiv_lt_0_compat; lra).
    destruct (Rlt_dec x (t / p / w)) as [L|L].
    + apply pow_lt_1; [|exact Ip]. split; [apply Rmult_lt_0_compat; [nra|lra]|].
      assert (x * w < t / p). { apply (Rmult_lt_compat_r w) in L; [|exact W0]. unfold Rdiv in L at 1. rewrite Rmult_assoc, Rinv_l in L by lra. lra. }
      replace (p * w * x) with (p * (x * w)) by ring. apply Rlt_trans with (p * (t / p)); [apply Rmult_lt_compat_l; lra|]. replace (p * (t / p)) with t by (field; lra). lra.
    + assert (0 < Rpower (q * w * (1 - x)) (1 / q) < 1); [|lra]. apply pow_lt_1; [|exact Iq]. split; [apply Rmult_lt_0_compat; [nra|lra]|].
      assert (t / p <= x * w). { apply Rnot_lt_le in L. apply (Rmult_le_compat_r w) in L; [|lra]. unfold Rdiv in L at 1. rewrite Rmult_assoc, Rinv_l in L by lra. lra. }
      assert ((1 - x) * w <= u / q) by (unfold w in *; lra).
      replace (q * w * (1 - x)) with (q * ((1 - x) * w)) by ring. apply Rle_lt_trans with (q * (u / q)); [apply Rmult_le_compat_l; lra|]. replace (q * (u / q)) with u by (field; lra). lra.
Qed.

(** ** The loop that avoids overshooting ends *)
Lemma shrink_fits fuel y dy : 0 < y - dy < 1 -> (0 < fuel)%nat -> new_shrink fuel y dy = Some dy.
Proof.
  intros H Hf. destruct fuel; [lia|]. cbn [new_shrink]. destruct (Rle_dec (y - dy) 0); [lra|]. destruct (Rle_dec 1 (y - dy)); [lra|reflexivity].
Qed.
Lemma shrink_in : forall fuel y dy d, new_shrink fuel y dy = Some d -> 0 < y - d /\ y - d < 1.
Proof.
  induction fuel as [|fuel IH]; intros y dy d E; [discriminate E|]. cbn [new_shrink] in E. destruct (Rle_dec (y - dy) 0); [exact (IH _ _ _ E)|].
  destruct (Rle_dec 1 (y - dy)); [exact (IH _ _ _ E)|]. assert (dy = d) as <- by (injection E; auto). lra.
Qed.
Lemma shrink_ends y : 0 < y < 1 -> forall n dy, Rabs dy * (3 / 4) ^ n < Rmin y (1 - y) ->
  exists dy', (forall fuel, (n < fuel)%nat -> new_shrink fuel y dy = Some dy') /\ 0 < y - dy' < 1.
Proof.
  intros Hy. assert (M : Rmin y (1 - y) <= y /\ Rmin y (1 - y) <= 1 - y) by (split; [apply Rmin_l|apply Rmin_r]).
  induction n as [|n IH]; intros dy H.
  - cbn [pow] in H. rewrite Rmult_1_r in H. assert (Rabs dy < y /\ Rabs dy < 1 - y) as (A & B) by lra. apply Rabs_def2 in A, B.
    exists dy. assert (0 < y - dy < 1) by lra. split; [|assumption]. intros fuel Hf. apply shrink_fits; [assumption|lia].
  - destruct (if Rle_dec (y - dy) 0 then true else if Rle_dec 1 (y - dy) then true else false) eqn:C.
    + destruct (IH (dy * (3 / 4))) as (dy' & A & B).
      * rewrite Rabs_mult, (Rabs_pos_eq (3 / 4)) by lra. cbn [pow] in H. lra.
      * exists dy'. split; [|exact B]. intros fuel Hf. destruct fuel; [lia|]. cbn [new_shrink]. rewrite C. apply A. lia.
    + exists dy. assert (0 < y - dy < 1). { destruct (Rle_dec (y - dy) 0); [discriminate C|]. destruct (Rle_dec 1 (y - dy)); [discriminate C|lra]. }
      split; [|assumption]. intros fuel Hf. apply shrink_fits; [assumption|lia].
Qed.
Lemma small_power d m : 0 < m -> exists n, Rabs d * (3 / 4) ^ n < m.
Proof.
  intros Hm. pose proof (Rabs_pos d) as D. destruct (pow_lt_1_zero (3 / 4) ltac:(rewrite Rabs_pos_eq; lra) (m / (Rabs d + 1))) as (n & H); [apply Rdiv_lt_0_compat; lra|].
  exists n. specialize (H n (Nat.le_refl n)). rewrite Rabs_pos_eq in H by (apply pow_le; lra).
  assert (Q : 0 <= (3 / 4) ^ n) by (apply pow_le; lra).
  apply (Rmult_lt_compat_r (Rabs d + 1)) in H; [|lra]. unfold Rdiv in H at 2. rewrite Rmult_assoc, Rinv_l in H by lra. nra.
Qed.
Lemma shrink_total y dy : 0 < y < 1 -> exists n dy', (forall fuel, (n < fuel)%nat -> new_shrink fuel y dy = Some dy') /\ 0 < y - dy' < 1.
Proof.
  intros Hy. destruct (small_power dy (Rmin y (1 - y))) as (n & H); [apply Rmin_pos; lra|]. destruct (shrink_ends y Hy n dy H) as (dy' & A). exists n, dy'. exact A.
Qed.
Lemma loop_total bi x p q w : forall k y, 0 < y < 1 -> exists n e r,
  (forall fuel, (n < fuel)%nat -> new_loop fuel k bi x p q w y = Some (e, r)) /\ 0 < r < 1 /\ e <> Zero /\ (e = Met -> Rabs ((bi r - x) / r) < 2 * epsilon).
Proof.
  induction k as [|k IH]; intros y Hy.
  - exists O, Limit, y. repeat split; try lra; discriminate.
  - destruct (Rlt_dec (Rabs ((bi y - x) / y)) (2 * epsilon)) as [L|L] eqn:E.
    + exists O, Met, y. split; [intros fuel _; cbn [new_loop]; rewrite E; reflexivity|]. split; [exact Hy|]. split; [discriminate|auto].
    + destruct (shrink_total y ((bi y - x) / new_slope p q w y) Hy) as (n1 & dy & A & B). destruct (IH (y - dy) B) as (n2 & e & r & C & D).
      exists (Nat.max n1 n2), e, r. split; [|exact D]. intros fuel Hf. cbn [new_loop]. rewrite E, A by lia. apply C. lia.
Qed.

(** ** Newton's method for a function whose logarithm is concave *)
Definition gstep (r : R) : R := r * exp (- (1 - / r)).
Lemma gstep_mono r s : 1 <= r -> r <= s -> gstep r <= gstep s.
Proof.
  intros Hr Hs. apply (mono_cc gstep (fun z => exp (- (1 - / z)) * (1 - / z)) r s Hs).
  - intros z Hz. unfold gstep. auto_derive; [lra|]. unfold Rminus. field. lra.
  - intros z Hz. apply Rmult_le_pos; [left; apply exp_pos|]. assert (/ z <= / 1) by (apply Rinv_le_contravar; lra). lra.
Qed.
Lemma exp_lower2 y : 0 <= y -> 1 + y + y * y / 2 <= exp y.
Proof.
  intros Hy. assert (exp 0 - (1 + 0 + 0 * 0 / 2) <= exp y - (1 + y + y * y / 2)); [|rewrite exp_0 in *; lra].
  apply (mono_cc (fun z => exp z - (1 + z + z * z / 2)) (fun z => exp z - (1 + z)) 0 y Hy).
  - intros z Hz. auto_derive; [exact Logic.I|]. field.
  - intros z Hz. pose proof (exp_ineq1_le z). lra.
Qed.
Lemma exp_lower8 c b : 0 <= c -> 0 < b -> / b <= (1 + c / 8 + c / 8 * (c / 8) / 2) ^ 8 -> exp (- c) <= b.
Proof.
  intros Hc Hb H. rewrite exp_Ropp. replace b with (/ / b) by (field; lra). apply Rinv_le_contravar; [apply Rinv_0_lt_compat, Hb|].
  eapply Rle_trans; [exact H|]. replace (exp c) with (exp (c / 8) ^ 8).
  - apply pow_incr. pose proof (exp_lower2 (c / 8) ltac:(lra)). nra.
  - set (h := c / 8). replace c with (h + h + (h + h) + (h + h + (h + h))) by (unfold h; field). rewrite !exp_plus. ring.
Qed.
(** a bound B above b is reduced by a factor f *)
Lemma gstep_scale b f : 1 <= b -> 0 < f -> / f <= (1 + (1 - / b) / 8 + (1 - / b) / 8 * ((1 - / b) / 8) / 2) ^ 8 -> forall B, b <= B -> gstep B <= f * B.
Proof.
  intros Hb Hf H B HB. unfold gstep. rewrite Rmult_comm. apply Rmult_le_compat_r; [lra|].
  assert (I1 : / b <= 1) by (rewrite <- Rinv_1; apply Rinv_le_contravar; lra). assert (I2 : / B <= / b) by (apply Rinv_le_contravar; lra).
  apply Rle_trans with (exp (- (1 - / b))).
  - destruct (Req_dec (/ B) (/ b)) as [->|N]; [lra|]. left. apply exp_increasing. lra.
  - apply exp_lower8; [lra|exact Hf|exact H].
Qed.
Lemma gstep_near d e : 0 <= d -> d * d <= e * (1 + d) -> 0 <= e < 1 -> gstep (1 + d) <= 1 + e / (1 - e).
Proof.
  intros Hd He H1. unfold gstep. replace (1 - / (1 + d)) with (d / (1 + d)) by (field; lra).
  assert (L : (1 + d) <= exp d) by (apply exp_ineq1_le). apply Rle_trans with (exp d * exp (- (d / (1 + d)))); [apply Rmult_le_compat_r; [left; apply exp_pos|exact L]|].
  rewrite <- exp_plus. replace (d + - (d / (1 + d))) with (d * d / (1 + d)) by (field; lra).
  assert (Z : d * d / (1 + d) <= e). { apply (Rmult_le_reg_r (1 + d)); [lra|]. unfold Rdiv. rewrite Rmult_assoc, Rinv_l by lra. lra. }
  replace (1 + e / (1 - e)) with (/ (1 - e)) by (field; lra).
  apply Rle_trans with (exp e); [destruct Z as [Z| ->]; [left; apply exp_increasing, Z|lra]|].
  replace (exp e) with (/ exp (- e)) by (rewrite exp_Ropp, Rinv_inv; reflexivity). apply Rinv_le_contravar; [lra|]. pose proof (exp_ineq1_le (- e)). lra.
Qed.
Definition giter (k : nat) : R := Nat.iter k gstep (2 ^ 52).
Lemma gstep_ge_1 r : 1 <= r -> 1 <= gstep r.
Proof.
  intros Hr. unfold gstep. pose proof (exp_ineq1_le (- (1 - / r))) as H. replace (1 + - (1 - / r)) with (/ r) in H by ring.
  replace 1 with (r * / r) at 1 by (field; lra). apply Rmult_le_compat_l; lra.
Qed.
Lemma giter_ge_1 k : 1 <= giter k.
Proof. induction k as [|k IH]; [change (giter 0) with (2 ^ 52); lra|]. apply (gstep_ge_1 _ IH). Qed.
Lemma giter_S k : giter (S k) = gstep (giter k).
Proof. reflexivity. Qed.
Lemma giter_le k B : giter k <= B -> giter (S k) <= gstep B.
Proof. intros H. rewrite giter_S. apply gstep_mono; [apply giter_ge_1|exact H]. Qed.
Lemma giter_phase b f k n B : 1 <= b -> 0 < f < 1 -> / f <= (1 + (1 - / b) / 8 + (1 - / b) / 8 * ((1 - / b) / 8) / 2) ^ 8 ->
  giter k <= B -> b <= f ^ n * B -> 0 <= B -> giter (k + S n) <= f ^ S n * B.
Proof.
  intros Hb Hf H HB. induction n as [|n IH]; intros Hn H0.
  - replace (k + 1)%nat with (S k) by lia. cbn [pow] in *. eapply Rle_trans; [apply giter_le, HB|]. rewrite Rmult_1_r. apply (gstep_scale b f); lra.
  - assert (Q : 0 < f ^ n) by (apply pow_lt; lra).
    replace (k + S (S n))%nat with (S (k + S n)) by lia. eapply Rle_trans; [apply giter_le, IH; [|exact H0]|].
    + eapply Rle_trans; [exact Hn|]. cbn [pow]. assert (0 <= f ^ n * B) by nra. nra.
    + replace (f ^ S (S n) * B) with (f * (f ^ S n * B)) by (cbn [pow]; ring). apply (gstep_scale b f); [exact Hb|lra|exact H|exact Hn].
Qed.
Lemma giter_close k d e : giter k <= 1 + d -> 0 <= d -> d * d <= e * (1 + d) -> 0 <= e < 1 -> giter (S k) <= 1 + e / (1 - e).
Proof. intros H Hd He H1. eapply Rle_trans; [apply giter_le, H|]. apply gstep_near; assumption. Qed.
Lemma giter_weaken k a b : giter k <= a -> a <= b -> giter k <= b.
Proof. lra. Qed.
Lemma giter_44 : giter 44 <= 1 + / 2 ^ 60.
Proof.
  assert (H0 : giter 0 <= 2 ^ 52) by (change (giter 0) with (2 ^ 52); lra).
  pose proof (giter_phase (2 ^ 10) (37 / 100) 0 29 (2 ^ 52) ltac:(lra) ltac:(lra) ltac:(lra) H0 ltac:(lra) ltac:(lra)) as H1. cbn [Nat.add] in H1.
  pose proof (giter_phase 16 (4 / 10) 30 3 520 ltac:(lra) ltac:(lra) ltac:(lra) ltac:(eapply giter_weaken; [exact H1|lra]) ltac:(lra) ltac:(lra)) as H2. cbn [Nat.add] in H2.
  pose proof (giter_phase 4 (48 / 100) 34 1 14 ltac:(lra) ltac:(lra) ltac:(lra) ltac:(eapply giter_weaken; [exact H2|lra]) ltac:(lra) ltac:(lra)) as H3. cbn [Nat.add] in H3.
  pose proof (giter_phase 3 (52 / 100) 36 0 3.3 ltac:(lra) ltac:(lra) ltac:(lra) ltac:(eapply giter_weaken; [exact H3|lra]) ltac:(lra) ltac:(lra)) as H4. cbn [Nat.add] in H4.
  pose proof (giter_close 37 0.72 0.302 ltac:(eapply giter_weaken; [exact H4|lra]) ltac:(lra) ltac:(lra) ltac:(lra)) as H5.
  pose proof (giter_close 38 0.44 0.135 ltac:(eapply giter_weaken; [exact H5|lra]) ltac:(lra) ltac:(lra) ltac:(lra)) as H6.
  pose proof (giter_close 39 0.16 0.0221 ltac:(eapply giter_weaken; [exact H6|lra]) ltac:(lra) ltac:(lra) ltac:(lra)) as H7.
  pose proof (giter_close 40 0.023 0.00053 ltac:(eapply giter_weaken; [exact H7|lra]) ltac:(lra) ltac:(lra) ltac:(lra)) as H8.
  pose proof (giter_close 41 (1 / 1800) (1 / 3000000) ltac:(eapply giter_weaken; [exact H8|lra]) ltac:(lra) ltac:(lra) ltac:(lra)) as H9.
  pose proof (giter_close 42 (1 / 2900000) (1 / 10 ^ 12) ltac:(eapply giter_weaken; [exact H9|lra]) ltac:(lra) ltac:(lra) ltac:(lra)) as H10.
  pose proof (giter_close 43 (2 / 10 ^ 12) (1 / 10 ^ 20) ltac:(eapply giter_weaken; [exact H10|lra]) ltac:(lra) ltac:(lra) ltac:(lra)) as H11.
  lra.
Qed.

(** [F] increases from 0 at [lo] with the increasing derivative [f]; the logarithmic derivative [c] of [f] decreases *)
Section log_concave.
Variables (lo : Rbar) (m : R) (F f c : R -> R).
Definition within_lc (z : R) : Prop := Rbar_lt lo z /\ z <= m.
Hypothesis HF : forall z, within_lc z -> is_derive F z (f z).
Hypothesis Hf : forall z, within_lc z -> is_derive f z (f z * c z).
Hypothesis Pf : forall z, within_lc z -> 0 < f z.
Hypothesis PF : forall z, within_lc z -> 0 < F z.
Hypothesis c0 : forall z, within_lc z -> 0 <= c z.
Hypothesis cdec : forall t z, within_lc t -> within_lc z -> t <= z -> c z <= c t.
Hypothesis Flim : forall y e, within_lc y -> 0 < e -> exists t, within_lc t /\ t <= y /\ F t <= e.
Hypothesis Flo : forall z, within_lc z -> Rbar_le lo (z - F z / f z).
Lemma lc_mid a b z : within_lc a -> within_lc b -> a <= z <= b -> within_lc z.
Proof. clear HF Hf Pf PF c0 cdec Flim Flo. intros (A1 & A2) (B1 & B2) H. split; [|lra]. destruct lo; cbn in *; lra || tauto. Qed.
Lemma lc_f_mono t y : within_lc t -> within_lc y -> t <= y -> f t <= f y.
Proof.
  intros Ht Hy H. apply (mono_cc f (fun z => f z * c z) t y H).
  - intros z Hz. apply Hf, (lc_mid t y); assumption.
  - intros z Hz. assert (W : within_lc z) by (apply (lc_mid t y); assumption). apply Rmult_le_pos; [left; apply Pf, W|apply c0, W].
Qed.
Lemma lc_bound y : within_lc y -> c y * F y <= f y.
Proof.
  intros Hy. apply Rnot_lt_le. intros C. pose proof (c0 y Hy) as C0.
  set (e := (c y * F y - f y) / (c y + 1)). assert (He : 0 < e) by (apply Rdiv_lt_0_compat; lra).
  destruct (Flim y e Hy He) as (t & Wt & Lt & Ft).
  assert (K : f t - c y * F t <= f y - c y * F y).
  { apply (mono_cc (fun z => f z - c y * F z) (fun z => f z * c z - c y * f z) t y Lt).
    - intros z Hz. assert (W : within_lc z) by (apply (lc_mid t y); assumption).
      apply (is_derive_minus (K := R_AbsRing) (V := R_NormedModule)); [apply Hf, W|]. apply (is_derive_scal F z (c y) (f z)), HF, W.
    - intros z Hz. assert (W : within_lc z) by (apply (lc_mid t y); assumption). pose proof (cdec z y W Hy ltac:(lra)). pose proof (Pf z W). nra. }
  pose proof (Pf t Wt) as Q. assert (c y * F t <= c y * e) by (apply Rmult_le_compat_l; lra).
  assert (e * (c y + 1) = c y * F y - f y) by (unfold e; field; lra). nra.
Qed.
Lemma lc_ratio t y : within_lc t -> within_lc y -> t <= y -> f y / F y <= f t / F t.
Proof.
  intros Ht Hy H. apply Ropp_le_cancel.
  apply (mono_cc (fun z => - (f z / F z)) (fun z => - ((f z * c z * F z - f z * f z) / F z ^ 2)) t y H).
  - intros z Hz. assert (W : within_lc z) by (apply (lc_mid t y); assumption).
    apply (is_derive_opp (K := R_AbsRing) (V := R_NormedModule)). pose proof (PF z W). apply (is_derive_div f F z); [apply Hf, W|apply HF, W|lra].
  - intros z Hz. assert (W : within_lc z) by (apply (lc_mid t y); assumption). pose proof (lc_bound z W). pose proof (Pf z W). pose proof (PF z W) as Q.
    replace (- ((f z * c z * F z - f z * f z) / F z ^ 2)) with (f z * (f z - c z * F z) / F z ^ 2) by (field; lra).
    apply Rmult_le_pos; [nra|]. left. apply Rinv_0_lt_compat, pow_lt, Q.
Qed.
(** one step of Newton's method towards the solution of F = x *)
Lemma lc_step x y : within_lc y -> 0 < x <= F y -> let y1 := y - (F y - x) / f y in
  within_lc y1 /\ y1 <= y /\ x <= F y1 /\ F y1 / x <= gstep (F y / x).
Proof.
  intros Hy Hx y1. pose proof (Pf y Hy) as P1. pose proof (PF y Hy) as P2. pose proof (Flo y Hy) as L.
  assert (D0 : 0 <= (F y - x) / f y) by (apply Rmult_le_pos; [lra|left; apply Rinv_0_lt_compat, P1]).
  assert (X0 : 0 < x / f y) by (apply Rdiv_lt_0_compat; lra).
  assert (E1 : y1 = y - F y / f y + x / f y) by (unfold y1; field; lra).
  assert (W1 : within_lc y1).
  { split; [|destruct Hy; unfold y1; lra]. destruct lo; cbn in L |- *; [lra|tauto|exact Logic.I]. }
  assert (Le : y1 <= y) by (unfold y1; lra). split; [exact W1|]. split; [exact Le|].
  assert (Mid : forall z, y1 <= z <= y -> within_lc z) by (intros z Hz; apply (lc_mid y1 y); assumption).
  split.
  - assert (K : y1 * f y - F y1 <= y * f y - F y).
    { apply (mono_cc (fun z => z * f y - F z) (fun z => f y - f z) y1 y Le).
      - intros z Hz. apply (is_derive_minus (K := R_AbsRing) (V := R_NormedModule)); [|apply HF, Mid, Hz]. auto_derive; [exact Logic.I|ring].
      - intros z Hz. pose proof (lc_f_mono z y (Mid z Hz) Hy ltac:(lra)). lra. }
    assert (y * f y - y1 * f y = F y - x) by (unfold y1; field; lra). lra.
  - assert (K : ln (F y1) - y1 * (f y / F y) <= ln (F y) - y * (f y / F y)).
    { apply (mono_cc (fun z => ln (F z) - z * (f y / F y)) (fun z => f z / F z - f y / F y) y1 y Le).
      - intros z Hz. apply (is_derive_minus (K := R_AbsRing) (V := R_NormedModule)); [|auto_derive; [exact Logic.I|ring]].
        pose proof (PF z (Mid z Hz)) as Q. unfold Rdiv. apply (is_derive_circ ln F z (/ F z) (f z)); [|apply HF, Mid, Hz]. apply is_derive_Reals, derivable_pt_lim_ln, Q.
      - intros z Hz. pose proof (lc_ratio z y (Mid z Hz) Hy ltac:(lra)). lra. }
    assert (E2 : y * (f y / F y) - y1 * (f y / F y) = 1 - x / F y) by (unfold y1; field; lra).
    pose proof (PF y1 W1) as P3. unfold gstep. replace (/ (F y / x)) with (x / F y) by (field; lra).
    replace (F y / x * exp (- (1 - x / F y))) with (F y * exp (- (1 - x / F y)) / x) by (field; lra).
    apply Rmult_le_compat_r; [left; apply Rinv_0_lt_compat; lra|].
    rewrite <- (exp_ln (F y1)) by exact P3. rewrite <- (exp_ln (F y)) at 1 by exact P2. rewrite <- exp_plus.
    assert (M : ln (F y1) <= ln (F y) + - (1 - x / F y)) by lra. destruct M as [M|M]; [left; apply exp_increasing, M|right; f_equal; exact M].
Qed.
End log_concave.

(** ** The incomplete beta function left of its mode *)
Section left_of_mode.
Variables p q m : R.
Hypothesis Hp : 1 <= p.
Hypothesis Hq : 1 <= q.
Hypothesis Hm : 0 < m < 1.
Hypothesis Mode : (q - 1) * m <= (p - 1) * (1 - m).
Definition bdens (p q t : R) : R := bterm p q t / Bet p q.
Definition bcurv (t : R) : R := (p - 1) * / t - (q - 1) * / (1 - t).
Lemma lm_w z : within_lc (Finite 0) m z <-> 0 < z <= m.
Proof. unfold within_lc. cbn. lra. Qed.
Lemma bdens_pos t : 0 < bdens p q t.
Proof. apply Rdiv_lt_0_compat; [apply bterm_pos|apply Bet_pos; lra]. Qed.
Lemma bdens_deriv t : 0 < t < 1 -> is_derive (bdens p q) t (bdens p q t * bcurv t).
Proof.
  intros Ht. unfold bdens. pose proof (Bet_pos p q ltac:(lra) ltac:(lra)) as B.
  apply is_derive_val with ((p - 1) * bterm (p - 1) q t / Bet p q - (q - 1) * bterm p (q - 1) t / Bet p q).
  - pose proof (bedge_deriv (p - 1) (q - 1) t Ht) as D. replace (p - 1 + 1) with p in D by ring. replace (q - 1 + 1) with q in D by ring.
    pose proof (is_derive_const_div _ t _ (Bet p q) D) as D2. refine (is_derive_val _ t _ _ D2 _). field. lra.
  - unfold bterm, bcurv. rewrite (Rpower_S t (p - 1)) by lra. rewrite (Rpower_S (1 - t) (q - 1)) by lra. field. lra.
Qed.
Lemma lm_F z : 0 < z < 1 -> is_derive (I p q) z (bdens p q z).
Proof. intros Hz. apply I_deriv; lra. Qed.
Lemma lm_c0 z : 0 < z <= m -> 0 <= bcurv z.
Proof.
  intros Hz. unfold bcurv. assert (A : (q - 1) * z <= (p - 1) * (1 - z)) by nra.
  replace ((p - 1) * / z - (q - 1) * / (1 - z)) with (((p - 1) * (1 - z) - (q - 1) * z) / (z * (1 - z))) by (field; lra).
  apply Rmult_le_pos; [lra|]. left. apply Rinv_0_lt_compat. nra.
Qed.
Lemma lm_cdec t z : 0 < t -> t <= z -> z <= m -> bcurv z <= bcurv t.
Proof.
  intros Ht Hz H. unfold bcurv. assert (/ z <= / t) by (apply Rinv_le_contravar; lra). assert (/ (1 - t) <= / (1 - z)) by (apply Rinv_le_contravar; lra). nra.
Qed.
Lemma lm_lim y e : 0 < y <= m -> 0 < e -> exists t, 0 < t <= m /\ t <= y /\ I p q t <= e.
Proof.
  intros Hy He. pose proof (Bet_pos p q ltac:(lra) ltac:(lra)) as B. destruct (lbet_prim p q ltac:(lra) ltac:(lra)) as (_ & L).
  destruct (L (e * Bet p q)) as (d & Dd & Ed); [nra|]. exists (Rmin d y). pose proof (Rmin_l d y). pose proof (Rmin_r d y). assert (0 < Rmin d y) by (apply Rmin_pos; lra).
  split; [lra|]. split; [lra|]. rewrite I_in by lra. specialize (Ed (Rmin d y) ltac:(lra) ltac:(lra)). apply Rabs_def2 in Ed.
  apply (Rmult_le_reg_r (Bet p q)); [exact B|]. unfold Rdiv. rewrite Rmult_assoc, Rinv_l by lra. lra.
Qed.
Lemma lm_mono t y : 0 < t -> t <= y -> y <= m -> bdens p q t <= bdens p q y.
Proof.
  intros Ht H Hy. apply (lc_f_mono (Finite 0) m (bdens p q) bcurv).
  - intros z W. apply (proj1 (lm_w z)) in W. apply bdens_deriv. lra.
  - intros z _. apply bdens_pos.
  - intros z W. apply (proj1 (lm_w z)) in W. apply lm_c0, W.
  - apply lm_w. lra.
  - apply lm_w. lra.
  - exact H.
Qed.
Lemma lm_below y : 0 < y <= m -> I p q y <= y * bdens p q y.
Proof.
  intros Hy. apply Rnot_lt_le. intros C. destruct (lm_lim y ((I p q y - y * bdens p q y) / 2) Hy ltac:(lra)) as (t & Ht & Lt & Ft).
  assert (K : t * bdens p q y - I p q t <= y * bdens p q y - I p q y).
  { apply (mono_cc (fun z => z * bdens p q y - I p q z) (fun z => bdens p q y - bdens p q z) t y Lt).
    - intros z Hz. apply (is_derive_minus (K := R_AbsRing) (V := R_NormedModule)); [|apply lm_F; lra]. auto_derive; [exact Logic.I|ring].
    - intros z Hz. pose proof (lm_mono z y ltac:(lra) ltac:(lra) ltac:(lra)). lra. }
  pose proof (bdens_pos y). nra.
Qed.
Lemma lm_le_y y : 0 < y <= m -> I p q y * m <= y.
Proof.
  intros Hy. pose proof (lm_below y Hy) as A. pose proof (I_pos p q m ltac:(lra) ltac:(lra) Hm) as Hh. pose proof (I_pos p q y ltac:(lra) ltac:(lra) ltac:(lra)) as Hh2.
  assert (K : I p q y - y * bdens p q y <= I p q m - m * bdens p q y).
  { apply (mono_cc (fun z => I p q z - z * bdens p q y) (fun z => bdens p q z - bdens p q y) y m); [lra| |].
    - intros z Hz. apply (is_derive_minus (K := R_AbsRing) (V := R_NormedModule)); [apply lm_F; lra|]. auto_derive; [exact Logic.I|ring].
    - intros z Hz. pose proof (lm_mono y z ltac:(lra) ltac:(lra) ltac:(lra)). lra. }
  set (d := bdens p q y) in *. set (a := I p q y) in *. assert (K2 : a + (m - y) * d <= 1) by lra. clear K.
  assert ((m - y) * a <= (m - y) * (y * d)) by (apply Rmult_le_compat_l; lra). nra.
Qed.
Lemma lm_step x y : 0 < y <= m -> 0 < x <= I p q y -> let y1 := y - (I p q y - x) / bdens p q y in
  0 < y1 <= y /\ x <= I p q y1 /\ I p q y1 / x <= gstep (I p q y / x).
Proof.
  intros Hy Hx y1. destruct (lc_step (Finite 0) m (I p q) (bdens p q) bcurv) with (x := x) (y := y) as (W & A & B & C).
  - intros z W. apply (proj1 (lm_w z)) in W. apply lm_F. lra.
  - intros z W. apply (proj1 (lm_w z)) in W. apply bdens_deriv. lra.
  - intros z _. apply bdens_pos.
  - intros z W. apply (proj1 (lm_w z)) in W. apply I_pos; lra.
  - intros z W. apply (proj1 (lm_w z)) in W. apply lm_c0, W.
  - intros t z W W2 H. apply (proj1 (lm_w t)) in W. apply (proj1 (lm_w z)) in W2. apply lm_cdec; lra.
  - intros z e W He. apply (proj1 (lm_w z)) in W. destruct (lm_lim z e W He) as (t & A & B & C). exists t. split; [apply lm_w, A|]. split; assumption.
  - intros z W. apply (proj1 (lm_w z)) in W. cbn. pose proof (lm_below z W). pose proof (bdens_pos z). assert (I p q z / bdens p q z <= z); [|lra].
    apply (Rmult_le_reg_r (bdens p q z)); [assumption|]. unfold Rdiv. rewrite Rmult_assoc, Rinv_l by lra. lra.
  - apply lm_w, Hy.
  - exact Hx.
  - apply (proj1 (lm_w _)) in W. split; [split; [apply W|exact A]|]. split; assumption.
Qed.
End left_of_mode.

Lemma I_reflect p q y : 0 < p -> 0 < q -> 0 < y < 1 -> I p q (1 - y) = 1 - I q p y.
Proof.
  intros Hp Hq Hy. rewrite !I_in by lra. pose proof (Bet_pos p q Hp Hq) as B. pose proof (lbet_reflect p q (1 - y) Hp Hq ltac:(lra)) as E.
  rewrite E. replace (1 - (1 - y)) with y by ring. rewrite (Bet_sym q p) by assumption. field. lra.
Qed.
Lemma bdens_reflect p q y : 0 < p -> 0 < q -> bdens p q (1 - y) = bdens q p y.
Proof. intros Hp Hq. unfold bdens, bterm. replace (1 - (1 - y)) with y by ring. rewrite (Bet_sym q p) by assumption. f_equal. ring. Qed.
Lemma new_slope_val p q y : new_slope p q (Bet p q) y = bdens p q y.
Proof. unfold new_slope, bdens, bterm. f_equal. ring. Qed.
Lemma giter_45 : giter 45 <= 1 + / 2 ^ 118.
Proof.
  pose proof (giter_close 44 (/ 2 ^ 60) (/ 2 ^ 119) giter_44 ltac:(lra) ltac:(lra) ltac:(lra)) as H. lra.
Qed.
Lemma loop_step fuel k bi x p q w y : 0 < y - (bi y - x) / new_slope p q w y < 1 -> (0 < fuel)%nat ->
  new_loop fuel (S k) bi x p q w y = Some (Met, y) \/ new_loop fuel (S k) bi x p q w y = new_loop fuel k bi x p q w (y - (bi y - x) / new_slope p q w y).
Proof.
  intros H Hf. cbn [new_loop]. destruct (Rlt_dec (Rabs ((bi y - x) / y)) (2 * epsilon)); [left; reflexivity|right]. rewrite shrink_fits by assumption. reflexivity.
Qed.
Lemma loop_hit fuel k bi x p q w y : Rabs ((bi y - x) / y) < 2 * epsilon -> new_loop fuel (S k) bi x p q w y = Some (Met, y).
Proof. intros H. cbn [new_loop]. destruct (Rlt_dec (Rabs ((bi y - x) / y)) (2 * epsilon)); [reflexivity|contradiction]. Qed.
(** the iteration moves to the left *)
Lemma loop_left fuel n p q m x : 1 <= p -> 1 <= q -> 1 / 2 <= m < 1 -> (q - 1) * m <= (p - 1) * (1 - m) -> 0 < x -> (0 < fuel)%nat ->
  forall k y, (k <= 45)%nat -> 0 < y <= m -> x <= I p q y -> I p q y / x <= giter (45 - k) ->
  exists r, new_loop fuel (S k + n) (I p q) x p q (Bet p q) y = Some (Met, r) /\ x <= I p q r /\ 0 < r <= y.
Proof.
  intros Hp Hq Hm Mo Hx Hf. induction k as [|k IH]; intros y Hk Hy L G.
  - exists y. split; [|split; lra]. apply loop_hit. pose proof giter_45 as G45. rewrite Nat.sub_0_r in G.
    pose proof (lm_le_y p q m Hp Hq ltac:(lra) Mo y Hy) as B.
    assert (A : I p q y <= x * (1 + / 2 ^ 118)).
    { assert (G2 : I p q y / x <= 1 + / 2 ^ 118) by lra. apply (Rmult_le_compat_r x) in G2; [|lra]. unfold Rdiv in G2. rewrite Rmult_assoc, Rinv_l in G2 by lra. lra. }
    unfold Rdiv. rewrite Rabs_mult, (Rabs_pos_eq (/ y)) by (left; apply Rinv_0_lt_compat; lra). rewrite Rabs_pos_eq by lra.
    apply (Rmult_lt_reg_r y); [lra|]. rewrite Rmult_assoc, Rinv_l by lra. unfold epsilon. nra.
  - pose proof (lm_step p q m Hp Hq ltac:(lra) Mo x y Hy ltac:(lra)) as S1. cbv zeta in S1. destruct S1 as (S1 & S2 & S3). rewrite <- new_slope_val in S1, S2, S3.
    destruct (loop_step fuel (S k + n) (I p q) x p q (Bet p q) y ltac:(lra) Hf) as [E|E].
    + exists y. split; [exact E|]. split; lra.
    + destruct (IH (y - (I p q y - x) / new_slope p q (Bet p q) y)) as (r & R1 & R2 & R3).
      * lia.
      * lra.
      * exact S2.
      * replace (45 - k)%nat with (S (45 - S k)) by lia. rewrite giter_S. eapply Rle_trans; [exact S3|]. apply gstep_mono; [|exact G].
        apply (Rmult_le_reg_r x); [exact Hx|]. unfold Rdiv. rewrite Rmult_assoc, Rinv_l by lra. lra.
      * exists r. split; [|split; lra]. change (S (S k) + n)%nat with (S (S k + n)). rewrite E. exact R1.
Qed.
(** the iteration moves to the right: the mirror image *)
Lemma loop_right fuel n p q m x : 1 <= p -> 1 <= q -> 0 < m <= 1 - / 2 ^ 60 -> (p - 1) * m <= (q - 1) * (1 - m) -> x < 1 -> (0 < fuel)%nat ->
  forall k z, (k <= 45)%nat -> 0 < z <= m -> 1 - x <= I q p z -> I q p z / (1 - x) <= giter (45 - k) ->
  exists r, new_loop fuel (S k + n) (I p q) x p q (Bet p q) (1 - z) = Some (Met, r) /\ I p q r <= x /\ 1 - z <= r < 1.
Proof.
  intros Hp Hq Hm Mo Hx Hf. assert (T60 : 0 < / 2 ^ 60) by lra. induction k as [|k IH]; intros z Hk Hz L G.
  - exists (1 - z). rewrite I_reflect by lra. split; [|split; lra]. apply loop_hit. rewrite I_reflect by lra. pose proof giter_45 as G45. rewrite Nat.sub_0_r in G.
    pose proof (I_pos q p z ltac:(lra) ltac:(lra) ltac:(lra)) as B.
    assert (A : I q p z <= (1 - x) * (1 + / 2 ^ 118)).
    { assert (G2 : I q p z / (1 - x) <= 1 + / 2 ^ 118) by lra. apply (Rmult_le_compat_r (1 - x)) in G2; [|lra]. unfold Rdiv in G2. rewrite Rmult_assoc, Rinv_l in G2 by lra. lra. }
    unfold Rdiv. rewrite Rabs_mult, (Rabs_pos_eq (/ (1 - z))) by (left; apply Rinv_0_lt_compat; lra). rewrite Rabs_left1 by lra.
    apply (Rmult_lt_reg_r (1 - z)); [lra|]. rewrite Rmult_assoc, Rinv_l by lra. unfold epsilon. nra.
  - pose proof (lm_step q p m Hq Hp ltac:(lra) Mo (1 - x) z Hz ltac:(lra)) as S1. cbv zeta in S1. destruct S1 as (S1 & S2 & S3).
    set (z1 := z - (I q p z - (1 - x)) / bdens q p z) in *.
    assert (E1 : 1 - z - (I p q (1 - z) - x) / new_slope p q (Bet p q) (1 - z) = 1 - z1).
    { rewrite new_slope_val, bdens_reflect, I_reflect by lra. unfold z1. pose proof (bdens_pos q p Hq Hp z). field. lra. }
    destruct (loop_step fuel (S k + n) (I p q) x p q (Bet p q) (1 - z) ltac:(rewrite E1; lra) Hf) as [E|E].
    + exists (1 - z). split; [exact E|]. rewrite I_reflect by lra. split; lra.
    + destruct (IH z1) as (r & R1 & R2 & R3).
      * lia.
      * lra.
      * exact S2.
      * replace (45 - k)%nat with (S (45 - S k)) by lia. rewrite giter_S. eapply Rle_trans; [exact S3|]. apply gstep_mono; [|exact G].
        apply (Rmult_le_reg_r (1 - x)); [lra|]. unfold Rdiv. rewrite Rmult_assoc, Rinv_l by lra. lra.
      * exists r. split; [|split; lra]. change (S (S k) + n)%nat with (S (S k + n)). rewrite E, E1. exact R1.
Qed.
(** the initial guess is left of the mode for q <= p and right of it for p <= q *)
Definition guess (p q : R) : R := (3 * p - 1) / (3 * p + 3 * q - 2).
Lemma new_start_val x p q : 1 <= p -> 1 <= q -> new_start x p q = guess p q.
Proof. intros Hp Hq. unfold new_start. destruct (Rle_dec 1 (2 * p)); [|lra]. destruct (Rle_dec 1 (2 * q)); [reflexivity|lra]. Qed.
Lemma guess_in p q : 1 <= p -> 1 <= q -> 0 < guess p q < 1 /\ guess p q * (3 * p + 3 * q - 2) = 3 * p - 1.
Proof.
  intros Hp Hq. unfold guess. split; [split; [apply Rdiv_lt_0_compat; lra|]|field; lra].
  apply (Rmult_lt_reg_r (3 * p + 3 * q - 2)); [lra|]. unfold Rdiv. rewrite Rmult_assoc, Rinv_l by lra. lra.
Qed.
Lemma guess_left p q : 1 <= q -> q <= p -> 1 / 2 <= guess p q /\ (q - 1) * guess p q <= (p - 1) * (1 - guess p q).
Proof.
  intros Hq Hp. destruct (guess_in p q ltac:(lra) Hq) as (A & B). set (g := guess p q) in *. split; [nra|].
  apply (Rmult_le_reg_r (3 * p + 3 * q - 2)); [lra|].
  replace ((q - 1) * g * (3 * p + 3 * q - 2)) with ((q - 1) * (g * (3 * p + 3 * q - 2))) by ring.
  replace ((p - 1) * (1 - g) * (3 * p + 3 * q - 2)) with ((p - 1) * ((3 * p + 3 * q - 2) - g * (3 * p + 3 * q - 2))) by ring. rewrite B. nra.
Qed.
Lemma guess_mirror p q : 1 <= p -> 1 <= q -> guess q p = 1 - guess p q.
Proof. intros Hp Hq. unfold guess. field. lra. Qed.
Lemma ratio_start F x : 0 < F < 1 -> epsilon <= x -> F / x <= giter 0.
Proof.
  intros HF Hx. change (giter 0) with (2 ^ 52). unfold epsilon in Hx. assert (0 < / 2 ^ 52) by lra.
  apply (Rmult_le_reg_r x); [lra|]. unfold Rdiv. rewrite Rmult_assoc, Rinv_l by lra. assert (2 ^ 52 * / 2 ^ 52 <= 2 ^ 52 * x) by (apply Rmult_le_compat_l; lra). lra.
Qed.
Lemma shrink_more : forall f g y dy r, (f <= g)%nat -> new_shrink f y dy = Some r -> new_shrink g y dy = Some r.
Proof.
  induction f as [|f IH]; intros g y dy r H E; [discriminate E|]. destruct g; [lia|]. cbn [new_shrink] in *.
  destruct (if Rle_dec (y - dy) 0 then true else if Rle_dec 1 (y - dy) then true else false); [|exact E]. apply IH; [lia|exact E].
Qed.
Lemma loop_more bi x p q w : forall k f g y r, (f <= g)%nat -> new_loop f k bi x p q w y = Some r -> new_loop g k bi x p q w y = Some r.
Proof.
  induction k as [|k IH]; intros f g y r H E; [exact E|]. cbn [new_loop] in *. destruct (Rlt_dec (Rabs ((bi y - x) / y)) (2 * epsilon)); [exact E|].
  destruct (new_shrink f y ((bi y - x) / new_slope p q w y)) as [dy|] eqn:S1; [|discriminate E]. rewrite (shrink_more f g y _ dy H S1). apply (IH f g); assumption.
Qed.
Lemma inv_more bi x p q w f g r : (f <= g)%nat -> inv_Beta_I_alg f bi x p q w = Some r -> inv_Beta_I_alg g bi x p q w = Some r.
Proof.
  intros H. unfold inv_Beta_I_alg. destruct (Rlt_dec x epsilon); [trivial|]. destruct (Rlt_dec (1 - x) epsilon); [trivial|]. apply loop_more, H.
Qed.
Lemma inv_loop fuel bi x p q w : epsilon <= x <= 1 - epsilon -> inv_Beta_I_alg fuel bi x p q w = new_loop fuel digits bi x p q w (new_start x p q).
Proof. intros H. unfold inv_Beta_I_alg. destruct (Rlt_dec x epsilon); [lra|]. destruct (Rlt_dec (1 - x) epsilon); [lra|reflexivity]. Qed.
Lemma eps_pos : 0 < epsilon < 1 / 4.
Proof. unfold epsilon. lra. Qed.
(** the quantiles below the guess, for q <= p *)
Lemma inv_left p q x : 1 <= q -> q <= p -> epsilon <= x <= 1 - epsilon -> x <= I p q (guess p q) ->
  exists r, new_loop 1 53 (I p q) x p q (Bet p q) (guess p q) = Some (Met, r) /\ x <= I p q r /\ 0 < r <= guess p q.
Proof.
  intros Hq Hp Hx Hg. destruct (guess_in p q ltac:(lra) Hq) as (A & _). destruct (guess_left p q Hq Hp) as (B & C).
  pose proof (I_pos p q _ ltac:(lra) ltac:(lra) A) as D. pose proof eps_pos as E0.
  destruct (loop_left 1 7 p q (guess p q) x) with (k := 45%nat) (y := guess p q) as (r & R1 & R2 & R3); try lra; try lia.
  - apply ratio_start; lra.
  - exists r. split; [exact R1|]. split; assumption.
Qed.
(** the quantiles above the guess, for p <= q *)
Lemma inv_right p q x : 1 <= p -> p <= q -> p + q <= 2 ^ 58 -> epsilon <= x <= 1 - epsilon -> I p q (guess p q) <= x ->
  exists r, new_loop 1 53 (I p q) x p q (Bet p q) (guess p q) = Some (Met, r) /\ I p q r <= x /\ guess p q <= r < 1.
Proof.
  intros Hp Hq Hb Hx Hg. destruct (guess_in q p ltac:(lra) Hp) as (A & A2). destruct (guess_left q p Hp Hq) as (B & C).
  pose proof (I_pos q p _ ltac:(lra) ltac:(lra) A) as D. pose proof eps_pos as E0.
  assert (M : guess p q = 1 - guess q p) by (apply guess_mirror; lra).
  assert (G60 : guess q p <= 1 - / 2 ^ 60).
  { assert (0 < / 2 ^ 60) by lra. apply (Rmult_le_reg_r (3 * q + 3 * p - 2)); [lra|]. rewrite A2. assert (/ 2 ^ 60 * (3 * q + 3 * p - 2) <= / 2 ^ 60 * (3 * 2 ^ 58)) by (apply Rmult_le_compat_l; lra). lra. }
  rewrite M in Hg |- *. rewrite I_reflect in Hg by lra.
  destruct (loop_right 1 7 p q (guess q p) x) with (k := 45%nat) (z := guess q p) as (r & R1 & R2 & R3); try lra; try lia.
  - apply ratio_start; lra.
  - exists r. split; [exact R1|]. split; assumption.
Qed.
Lemma loop_met fuel bi x p q w : forall k y r, 0 < y < 1 -> new_loop fuel k bi x p q w y = Some (Met, r) -> Rabs ((bi r - x) / r) < 2 * epsilon.
Proof.
  induction k as [|k IH]; intros y r Hy E; [discriminate E|]. cbn [new_loop] in E. destruct (Rlt_dec (Rabs ((bi y - x) / y)) (2 * epsilon)) as [L|L].
  - assert (y = r) as <- by (injection E; auto). exact L.
  - destruct (new_shrink fuel y ((bi y - x) / new_slope p q w y)) as [dy|] eqn:S1; [|discriminate E]. destruct (shrink_in fuel y _ dy S1) as (B1 & B2). apply (IH (y - dy) r); [lra|exact E].
Qed.
Lemma inv_converges p q x : 1 <= p -> 1 <= q -> p + q <= 2 ^ 58 -> epsilon <= x <= 1 - epsilon ->
  q <= p /\ x <= I p q (guess p q) \/ p <= q /\ I p q (guess p q) <= x ->
  exists r, (forall fuel, (0 < fuel)%nat -> inv_Beta_I_alg fuel (I p q) x p q (Bet p q) = Some (Met, r)) /\ 0 < r < 1 /\ Rabs (I p q r - x) < 2 * epsilon * r.
Proof.
  intros Hp Hq Hb Hx H. destruct (guess_in p q Hp Hq) as (G & _).
  assert (K : exists r, new_loop 1 53 (I p q) x p q (Bet p q) (guess p q) = Some (Met, r) /\ 0 < r < 1).
  { destruct H as [(H & H2)|(H & H2)].
    - destruct (inv_left p q x Hq H Hx H2) as (r & R1 & R2 & R3). exists r. split; [exact R1|lra].
    - destruct (inv_right p q x Hp H Hb Hx H2) as (r & R1 & R2 & R3). exists r. split; [exact R1|lra]. }
  destruct K as (r & R1 & R2). exists r. split; [|split; [exact R2|]].
  - intros fuel Hf. apply (inv_more _ _ _ _ _ 1 fuel); [lia|]. rewrite inv_loop by exact Hx. rewrite new_start_val by assumption. exact R1.
  - pose proof (loop_met 1 (I p q) x p q (Bet p q) 53 (guess p q) r G R1) as M. unfold Rdiv in M. rewrite Rabs_mult, (Rabs_pos_eq (/ r)) in M by (left; apply Rinv_0_lt_compat; lra).
    apply (Rmult_lt_compat_r r) in M; [|lra]. rewrite Rmult_assoc, Rinv_l in M by lra. lra.
Qed.
Lemma guess_sym p : 1 <= p -> guess p p = 1 / 2 /\ I p p (guess p p) = 1 / 2.
Proof.
  intros Hp. assert (E : guess p p = 1 / 2) by (unfold guess; field; lra). split; [exact E|]. rewrite E.
  pose proof (I_reflect p p (1 / 2) ltac:(lra) ltac:(lra) ltac:(lra)) as R1. replace (1 - 1 / 2) with (1 / 2) in R1 by field. lra.
Qed.
Lemma inv_converges_sym p x : 1 <= p -> p <= 2 ^ 57 -> epsilon <= x <= 1 - epsilon ->
  exists r, (forall fuel, (0 < fuel)%nat -> inv_Beta_I_alg fuel (I p p) x p p (Bet p p) = Some (Met, r)) /\ 0 < r < 1 /\ Rabs (I p p r - x) < 2 * epsilon * r.
Proof.
  intros Hp Hb Hx. apply inv_converges; lra.
Qed.
(** only values inside (0, 1) are used *)
Lemma loop_ext fuel bi bj x p q w : (forall y, 0 < y < 1 -> bi y = bj y) -> forall k y, 0 < y < 1 -> new_loop fuel k bi x p q w y = new_loop fuel k bj x p q w y.
Proof.
  intros E. induction k as [|k IH]; intros y Hy; [reflexivity|]. cbn [new_loop]. rewrite (E y Hy). destruct (Rlt_dec _ _); [reflexivity|].
  destruct (new_shrink fuel y ((bj y - x) / new_slope p q w y)) as [dy|] eqn:S1; [|reflexivity]. apply IH. pose proof (shrink_in _ _ _ _ S1). lra.
Qed.
Lemma norm_Bet p q : 0 < p -> 0 < q -> norm_val p q = Bet p q.
Proof. intros Hp Hq. unfold norm_val. rewrite Beta_Bet by assumption. reflexivity. Qed.
Lemma beta_val_I p q y : 0 < p -> 0 < q -> 0 < y < 1 -> beta_val p q y = I p q y.
Proof. intros Hp Hq Hy. unfold beta_val. rewrite Beta_I_I by lra. reflexivity. Qed.
Lemma alg_exact fuel p q x : 0 < p -> 0 < q -> epsilon <= x <= 1 - epsilon ->
  inv_Beta_I_alg fuel (beta_val p q) x p q (norm_val p q) = inv_Beta_I_alg fuel (I p q) x p q (Bet p q).
Proof.
  intros Hp Hq Hx. pose proof eps_pos. rewrite !inv_loop by exact Hx. rewrite norm_Bet by assumption. apply loop_ext.
  - intros y Hy. apply beta_val_I; assumption.
  - apply new_start_in; lra.
Qed.

(** ** The start value 0 *)
Lemma shrink_double_stuck fuel : new_shrink_double fuel (bf_of 0 0) (B754_zero true) = None.
Proof.
  assert (E0 : bf_of 0 0 = B754_zero false) by reflexivity. induction fuel as [|fuel IH]; [reflexivity|]. cbn [new_shrink_double].
  assert (E1 : Bmult mode_NE (B754_zero true) (bf_of 3 (-2)) = B754_zero true) by reflexivity. rewrite E1, IH.
  assert (E2 : (Bleb (Bminus mode_NE (bf_of 0 0) (B754_zero true)) (bf_of 0 0) || Bleb (bf_of 1 0) (Bminus mode_NE (bf_of 0 0) (B754_zero true)))%bool = true) by reflexivity.
  rewrite E2. reflexivity.
Qed.
Lemma first_double_stuck fuel mx ex hx mn en hn : new_first_double fuel (B754_finite false mx ex hx) (B754_finite false mn en hn) = None.
Proof.
  unfold new_first_double. cbv zeta. assert (E0 : bf_of 0 0 = B754_zero false) by reflexivity.
  assert (E1 : Bminus mode_NE (bf_of 0 0) (B754_finite false mx ex hx) = B754_finite true mx ex hx) by (rewrite E0; reflexivity). rewrite E1.
  assert (E2 : Bdiv mode_NE (Bmult mode_NE (bf_of 1 0) (B754_infinity false)) (B754_finite false mn en hn) = B754_infinity false) by reflexivity. rewrite E2.
  assert (E3 : Bdiv mode_NE (B754_finite true mx ex hx) (B754_infinity false) = B754_zero true) by reflexivity. rewrite E3.
  assert (E4 : Babs (Bdiv mode_NE (B754_finite true mx ex hx) (bf_of 0 0)) = B754_infinity false) by (rewrite E0; reflexivity). rewrite E4.
  assert (E5 : Bltb (B754_infinity false) (bf_of 1 (-51)) = false) by reflexivity. rewrite E5. rewrite shrink_double_stuck. reflexivity.
Qed.
(** (p w x)^(1/p) underflows for p = 1/1024, q = 1023/1024, x = 1/4 *)
Lemma tiny_power b : 0 < b -> b <= 1 / 3 -> Rpower b 1024 < / 2 ^ 1075.
Proof.
  intros H0 H. assert (E : / 2 ^ 1075 = exp (- (1075 * ln 2))).
  { rewrite exp_Ropp. f_equal. rewrite <- Rpower_pow by lra. unfold Rpower. f_equal. f_equal. rewrite INR_IZR_INZ. reflexivity. }
  rewrite E. unfold Rpower. apply exp_increasing.
  assert (L : ln b <= - ln 3). { rewrite <- ln_Rinv by lra. destruct (Rle_lt_or_eq_dec b (/ 3) ltac:(lra)) as [L| ->]; [left; apply ln_increasing; lra|lra]. }
  assert (L3 : 3 * ln 2 < 2 * ln 3). { assert (A : ln (2 * 2 * 2) < ln (3 * 3)) by (apply ln_increasing; lra). rewrite !ln_mult in A by lra. lra. }
  assert (L2 : 0 < ln 2) by (rewrite <- ln_1; apply ln_increasing; lra). lra.
Qed.
Lemma start_underflow : new_start_double (1 / 4) (1 / 1024) (1023 / 1024) = 0 /\ new_start (1 / 4) (1 / 1024) (1023 / 1024) < / 2 ^ 1075.
Proof.
  unfold new_start_double, new_start. destruct (Rle_dec 1 (2 * (1 / 1024))); [lra|]. cbv zeta.
  replace (1 / 1024 / (1 / 1024 + 1023 / 1024)) with (1 / 1024) by lra. replace (1023 / 1024 / (1 / 1024 + 1023 / 1024)) with (1023 / 1024) by lra.
  set (t := exp (1 / 1024 * ln (1 / 1024))). set (u := exp (1023 / 1024 * ln (1023 / 1024))).
  assert (L : forall c, 0 < c <= 1 -> ln c <= 0) by (intros c Hc; rewrite <- ln_1; destruct (Rle_lt_or_eq_dec c 1 ltac:(lra)) as [A| ->]; [left; apply ln_increasing; lra|lra]).
  assert (M : forall c, c <= 0 -> exp c <= 1) by (intros c Hc; rewrite <- exp_0; destruct Hc as [A| ->]; [left; apply exp_increasing, A|lra]).
  assert (T1 : t <= 1) by (apply M; pose proof (L (1 / 1024) ltac:(lra)); lra). assert (U1 : 0 < u <= 1) by (split; [apply exp_pos|apply M; pose proof (L (1023 / 1024) ltac:(lra)); lra]).
  assert (L2 : ln 2 <= 1). { pose proof (exp_ineq1_le 1). rewrite <- (ln_exp 1). destruct (Rle_lt_or_eq_dec 2 (exp 1) ltac:(lra)) as [A|A]; [left; apply ln_increasing; lra|rewrite A; lra]. }
  assert (LT : ln (1 / 1024) = - (10 * ln 2)). { replace (1 / 1024) with (/ 2 ^ 10) by lra. rewrite ln_Rinv by lra. rewrite ln_pow by lra. rewrite INR_IZR_INZ. reflexivity. }
  assert (T0 : 1 / 2 <= t). { unfold t. rewrite LT. pose proof (exp_ineq1_le (1 / 1024 * - (10 * ln 2))). lra. }
  set (w := t / (1 / 1024) + u / (1023 / 1024)). assert (W : w = 1024 * t + 1024 / 1023 * u) by (unfold w; field).
  assert (C : 1 / 4 < t / (1 / 1024) / w).
  { apply (Rmult_lt_reg_r w); [lra|]. replace (t / (1 / 1024) / w * w) with (1024 * t) by (field; lra). lra. }
  destruct (Rlt_dec (1 / 4) (t / (1 / 1024) / w)) as [_|N]; [|contradiction].
  replace (1 / (1 / 1024)) with 1024 by lra. assert (B : Rpower (1 / 1024 * w * (1 / 4)) 1024 < / 2 ^ 1075) by (apply tiny_power; lra).
  split; [|exact B]. unfold underflow. destruct (Rlt_dec _ _) as [_|N]; [reflexivity|contradiction].
Qed.
