(** The loop of GammaQ_cf computes convergents of the continued fraction; their distance from the integral. *)
From Coq Require Import Reals ZArith Lra Psatz Lia.
From Coquelicot Require Import Coquelicot.
From Verif Require Import Improper GammaFn GamModel GamProofs SeriesModel SeriesProofs CfModel CfFacts.
Local Open Scope R_scope.

Lemma cf_min_val : 0 < cf_min /\ cf_min <= / 2 ^ 60.
Proof.
  unfold cf_min. assert (P : 0 < 2 ^ 1022) by (apply pow_lt; lra). split; [apply Rmult_lt_0_compat; [lra|apply Rinv_0_lt_compat, P]|].
  replace (4 * / 2 ^ 1022) with (/ (2 ^ 1022 / 4)) by (field; lra).
  apply Rinv_le_contravar; [apply pow_lt; lra|]. replace 1022%nat with (62 + 960)%nat by reflexivity. rewrite pow_add.
  assert (1 <= 2 ^ 960) by (apply pow_R1_Rle; lra). assert (0 < 2 ^ 60) by (apply pow_lt; lra).
  replace (2 ^ 62) with (4 * 2 ^ 60) by (cbn; ring). nra.
Qed.

Section Fraction.
Variables a x : R.
Hypothesis (Ha : 0 < a) (Hx : a + 1 <= x).

Definition bb (n : nat) : R := x + 1 - a + 2 * INR n.
Definition al (n : nat) : R := - INR n * (INR n - a).
(** Ratios of successive denominators and numerators. *)
Fixpoint rr (n : nat) : R := match n with O => bb 0 | S m => bb (S m) + al (S m) / rr m end.
Fixpoint cc (n : nat) : R := match n with O => 1 / cf_min | S m => bb (S m) + al (S m) / cc m end.
Fixpoint hh (n : nat) : R := match n with O => 1 / rr 0 | S m => hh m * (1 / rr (S m) * cc (S m)) end.

Lemma step_ge n y : INR n + 2 <= y -> INR (S n) + 2 <= bb (S n) + al (S n) / y.
Proof.
  intros H. unfold bb, al. rewrite S_INR. pose proof (pos_INR n) as P. set (k := INR n) in *. clearbody k.
  assert (Hy : 0 < y) by lra. destruct (Rle_dec a (k + 1)) as [L|L].
  - assert (Q : (k + 1) * (k + 1 - a) / y <= k + 1). { apply Rle_div_l; [lra|]. nra. }
    replace (- (k + 1) * (k + 1 - a) / y) with (- ((k + 1) * (k + 1 - a) / y)) by (field; lra). lra.
  - assert (Q : 0 <= - (k + 1) * (k + 1 - a) / y) by (apply Rdiv_le_0_compat; [nra|lra]). lra.
Qed.
Lemma rr_ge n : INR n + 2 <= rr n.
Proof. induction n; [cbn [rr]; unfold bb; cbn [INR]; lra|]. cbn [rr]. apply step_ge, IHn. Qed.
Lemma cc_ge n : INR n + 2 <= cc n.
Proof.
  induction n; [|cbn [cc]; apply step_ge, IHn]. cbn [cc INR]. destruct cf_min_val as (P & U).
  apply Rle_div_r; [exact P|]. assert (/ 2 ^ 60 <= 1 / 4) by (cbn; lra). lra.
Qed.
Lemma guard_id y : 2 <= y -> cf_guard y = y.
Proof.
  intros H. unfold cf_guard. destruct cf_min_val as (P & U). assert (/ 2 ^ 60 <= 1) by (cbn; lra).
  rewrite Rabs_pos_eq by lra. destruct (Rlt_dec y cf_min); [lra|reflexivity].
Qed.
Lemma rr_pos n : 0 < rr n. Proof. pose proof (rr_ge n). pose proof (pos_INR n). lra. Qed.
Lemma cc_pos n : 0 < cc n. Proof. pose proof (cc_ge n). pose proof (pos_INR n). lra. Qed.
Lemma hh_pos n : 0 < hh n.
Proof.
  induction n; cbn [hh].
  - apply Rdiv_lt_0_compat; [lra|apply (rr_pos 0)].
  - apply Rmult_lt_0_compat; [exact IHn|]. apply Rmult_lt_0_compat; [apply Rdiv_lt_0_compat; [lra|apply rr_pos]|apply cc_pos].
Qed.

(** The loop: some convergent, with the condition under which it stopped before the limit. *)
Lemma loop_conv k : forall n, exists m, (n <= m <= n + k)%nat /\ (0 < k -> n < m)%nat /\
  cf_loop k a (bb n) (cc n) (1 / rr n) (hh n) (INR n) = hh m /\
  ((m < n + k)%nat -> Rabs (1 / rr m * cc m - 1) <= eps4).
Proof.
  induction k; intros n.
  - exists n. split; [lia|]. split; [lia|]. split; [reflexivity|lia].
  - cbn [cf_loop]. rewrite <- S_INR. replace (bb n + 2) with (bb (S n)) by (unfold bb; rewrite S_INR; ring).
    change (- INR (S n) * (INR (S n) - a)) with (al (S n)).
    replace (al (S n) * (1 / rr n) + bb (S n)) with (rr (S n)) by (cbn [rr]; field; pose proof (rr_pos n); lra).
    change (bb (S n) + al (S n) / cc n) with (cc (S n)).
    pose proof (rr_ge (S n)) as R1. pose proof (cc_ge (S n)) as C1. pose proof (pos_INR (S n)) as P.
    rewrite !guard_id by lra. change (hh n * (1 / rr (S n) * cc (S n))) with (hh (S n)).
    destruct (Rlt_dec eps4 (Rabs (1 / rr (S n) * cc (S n) - 1))) as [L|L].
    + destruct (IHk (S n)) as (m & M1 & M2 & M3 & M4). exists m. split; [lia|]. split; [lia|]. split; [exact M3|]. intros H. apply M4. lia.
    + exists (S n). split; [lia|]. split; [lia|]. split; [reflexivity|]. intros _. lra.
Qed.
Definition cf_value : R := cf_loop itmax a (x + 1 - a) (1 / cf_min) (1 / (x + 1 - a)) (1 / (x + 1 - a)) 0.
Lemma cf_value_conv : exists m, (1 <= m <= 53)%nat /\ cf_value = hh m /\ ((m < 53)%nat -> Rabs (1 / rr m * cc m - 1) <= eps4).
Proof.
  destruct (loop_conv itmax 0) as (m & M1 & M2 & M3 & M4). exists m. unfold itmax in *. split; [lia|]. split; [|intros H; apply M4; lia].
  rewrite <- M3. unfold cf_value, itmax. cbn [rr cc hh INR]. replace (bb 0) with (x + 1 - a) by (unfold bb; cbn [INR]; ring). reflexivity.
Qed.

(** The exact values: uu n = V n / (n! e^-x x^a). *)
Definition e0 : R := exp (- x) * Rpower x a.
Definition uu (n : nat) : R := V a x n / (INR (fact n) * e0).
Lemma Px : 0 < x. Proof. lra. Qed.
Lemma e0_pos : 0 < e0. Proof. apply Rmult_lt_0_compat; [apply exp_pos|apply Rpower_pos]. Qed.
Lemma fact_pos n : 0 < INR (fact n). Proof. apply INR_fact_lt_0. Qed.
Lemma uu_pos n : 0 < uu n.
Proof. apply Rdiv_lt_0_compat; [apply V_pos; [exact Ha|exact Px]|apply Rmult_lt_0_compat; [apply fact_pos|apply e0_pos]]. Qed.
Lemma uu_rec n : uu n = bb (S n) * uu (S n) + al (S (S n)) * uu (S (S n)).
Proof.
  unfold uu, al. pose proof (V_rec a x Ha Px (S n) ltac:(lia)) as E. cbn [pred] in E. fold (bb (S n)) in E.
  pose proof e0_pos as P. pose proof (fact_pos n) as F. pose proof (pos_INR n) as N.
  rewrite !fact_simpl, !mult_INR. rewrite (S_INR (S n)), (S_INR n) in *. set (k := INR n) in *. set (f := INR (fact n)) in *.
  replace (V a x n) with (((bb (S n)) * V a x (S n) - (k + 1 + 1 - a) * V a x (S (S n))) / (k + 1)).
  - field. lra.
  - rewrite <- E. field. lra.
Qed.
Lemma uu_rec_0 : 1 = bb 0 * uu 0 + al 1 * uu 1.
Proof.
  unfold uu, al, bb. pose proof (V_rec_0 a x Ha Px) as E. fold e0 in E. pose proof e0_pos as P.
  cbn [fact INR]. replace (INR (1 * 1)) with 1 by reflexivity. change (INR 1) with 1.
  apply (Rmult_eq_reg_r e0); [|lra]. rewrite Rmult_1_l. rewrite E at 1. field. lra.
Qed.
Lemma uu_dec n : INR (S n) * uu (S n) <= uu n.
Proof.
  unfold uu. pose proof e0_pos as P. pose proof (fact_pos n) as F. rewrite fact_simpl, mult_INR.
  assert (N : 0 < INR (S n)) by (apply lt_0_INR; lia).
  replace (INR (S n) * (V a x (S n) / (INR (S n) * INR (fact n) * e0))) with (V a x (S n) * / (INR (fact n) * e0)) by (field; lra).
  apply Rmult_le_compat_r; [left; apply Rinv_0_lt_compat, Rmult_lt_0_compat; assumption|]. apply V_dec; [exact Ha|exact Px].
Qed.
Lemma uu_0 : uu 0 = (Gam a - lgam a x) / e0.
Proof. unfold uu. rewrite V_0 by (exact Ha || exact Px). cbn [fact INR]. field. pose proof e0_pos. lra. Qed.

(** Products of the ratios. *)
Fixpoint nn (n : nat) : R := match n with O => 1 | S m => cc (S m) * nn m end.
Fixpoint dd (n : nat) : R := match n with O => rr 0 | S m => rr (S m) * dd m end.
Lemma dd_pos n : 0 < dd n.
Proof. induction n; cbn [dd]; [apply (rr_pos 0)|apply Rmult_lt_0_compat; [apply rr_pos|exact IHn]]. Qed.
Lemma nn_pos n : 0 < nn n.
Proof. induction n; cbn [nn]; [lra|apply Rmult_lt_0_compat; [apply cc_pos|exact IHn]]. Qed.
Lemma hh_quot n : hh n = nn n / dd n.
Proof.
  induction n; [reflexivity|]. cbn [hh nn dd]. rewrite IHn. pose proof (rr_pos (S n)). pose proof (dd_pos n). field. split; lra.
Qed.
Definition u0' : R := uu 0 + al 1 * cf_min * uu 1.
Lemma nn_inv n : nn n * (uu n + al (S n) * uu (S n) / cc n) = u0'.
Proof.
  induction n.
  - cbn [nn cc]. unfold u0'. destruct cf_min_val. field. lra.
  - rewrite <- IHn. rewrite (uu_rec n). pose proof (cc_pos n) as C. pose proof (cc_pos (S n)) as C'. cbn [nn].
    replace (cc (S n) * nn n * (uu (S n) + al (S (S n)) * uu (S (S n)) / cc (S n))) with (nn n * (cc (S n) * uu (S n) + al (S (S n)) * uu (S (S n)))) by (field; lra).
    cbn [cc]. field. lra.
Qed.
Lemma dd_inv n : dd n * (uu n + al (S n) * uu (S n) / rr n) = 1.
Proof.
  induction n.
  - cbn [dd]. pose proof (rr_pos 0) as P. rewrite <- (eq_sym uu_rec_0). cbn [rr] in *. field. lra.
  - rewrite <- IHn. rewrite (uu_rec n). pose proof (rr_pos n) as C. pose proof (rr_pos (S n)) as C'. cbn [dd].
    replace (rr (S n) * dd n * (uu (S n) + al (S (S n)) * uu (S (S n)) / rr (S n))) with (dd n * (rr (S n) * uu (S n) + al (S (S n)) * uu (S (S n)))) by (field; lra).
    cbn [rr]. field. lra.
Qed.

(** The error of convergent n. *)
Definition err (n : nat) : R := u0' - hh n.
Lemma err_val n : err n = nn n * al (S n) * uu (S n) * (/ cc n - / rr n).
Proof.
  unfold err. rewrite <- (nn_inv n), hh_quot. pose proof (dd_inv n) as D. pose proof (cc_pos n) as C. pose proof (rr_pos n) as P. pose proof (dd_pos n) as Q.
  replace (nn n / dd n) with (nn n * (dd n * (uu n + al (S n) * uu (S n) / rr n)) / dd n) by (rewrite D; field; lra). field. lra.
Qed.
Lemma err_0 : err 0 = al 1 * uu 1 * (cf_min - / rr 0).
Proof. rewrite err_val. cbn [nn cc]. destruct cf_min_val. pose proof (rr_pos 0). field. lra. Qed.
Lemma err_S n : err (S n) = - err n * (al (S (S n)) * uu (S (S n)) / (uu (S n) * rr (S n))).
Proof.
  rewrite !err_val. pose proof (cc_pos n) as C. pose proof (rr_pos n) as P. pose proof (cc_pos (S n)) as C'. pose proof (rr_pos (S n)) as P'. pose proof (uu_pos (S n)) as U.
  assert (E : al (S n) * (/ cc n - / rr n) = cc (S n) - rr (S n)) by (cbn [cc rr]; field; lra).
  replace (nn n * al (S n) * uu (S n) * (/ cc n - / rr n)) with (nn n * uu (S n) * (al (S n) * (/ cc n - / rr n))) by ring. rewrite E.
  cbn [nn]. field. lra.
Qed.
(** By the increment. *)
Lemma err_delta n : err (S n) = - (hh (S n) - hh n) * (al (S (S n)) * uu (S (S n)) * dd n).
Proof.
  rewrite err_val, !hh_quot. cbn [nn dd]. pose proof (cc_pos (S n)) as C'. pose proof (rr_pos (S n)) as P'. pose proof (dd_pos n) as D. field. lra.
Qed.
Lemma coef_bound n : Rabs (al (S (S n)) * uu (S (S n)) * dd n) <= INR n + 2.
Proof.
  pose proof (dd_inv (S n)) as K. pose proof (rr_ge (S n)) as RG. pose proof (rr_pos (S n)) as P. pose proof (dd_pos n) as D. pose proof (uu_pos (S n)) as U1. pose proof (uu_pos (S (S n))) as U2.
  pose proof (uu_dec (S n)) as M. pose proof (pos_INR n) as N. cbn [dd] in K.
  replace (rr (S n) * dd n * (uu (S n) + al (S (S n)) * uu (S (S n)) / rr (S n))) with (rr (S n) * dd n * uu (S n) + al (S (S n)) * uu (S (S n)) * dd n) in K by (field; lra).
  set (T := al (S (S n)) * uu (S (S n)) * dd n) in *. assert (K0 : 0 < rr (S n) * dd n * uu (S n)) by (apply Rmult_lt_0_compat; [apply Rmult_lt_0_compat; assumption|assumption]).
  destruct (Rle_dec 0 T) as [HT|HT]; [rewrite Rabs_pos_eq by exact HT; lra|]. rewrite Rabs_left by lra.
  assert (ET : - T = (INR (S (S n)) - a) * (INR (S (S n)) * uu (S (S n))) * dd n) by (unfold T, al; ring).
  assert (Na : 0 < INR (S (S n)) - a).
  { apply Rnot_le_lt. intros Q. apply HT. assert (Z0 : 0 <= INR (S (S n)) * uu (S (S n)) * dd n) by (apply Rmult_le_pos; [apply Rmult_le_pos; [apply pos_INR|lra]|lra]). unfold T, al. nra. }
  set (q := INR (S (S n))) in *. assert (Eq : q = INR n + 2) by (unfold q; rewrite !S_INR; ring).
  assert (B1 : - T <= (q - a) * (dd n * uu (S n))).
  { rewrite ET. assert ((q * uu (S (S n))) * dd n <= uu (S n) * dd n) by (apply Rmult_le_compat_r; lra). nra. }
  rewrite S_INR in RG. set (y := dd n * uu (S n)) in *. assert (Hy : 0 < y) by (apply Rmult_lt_0_compat; assumption).
  replace (rr (S n) * dd n * uu (S n)) with (rr (S n) * y) in * by (unfold y; ring).
  (* rr y = 1 - T, -T <= (q-a) y, rr >= q + 1 *)
  assert ((q + 1) * y <= 1 - T) by (assert ((q + 1) * y <= rr (S n) * y) by (apply Rmult_le_compat_r; lra); lra).
  assert ((1 + a) * y <= 1) by nra. assert (y <= 1) by nra. nra.
Qed.
Lemma stop_bound n : Rabs (1 / rr (S n) * cc (S n) - 1) <= eps4 -> (S n <= 53)%nat -> Rabs (err (S n)) <= 54 * eps4 * hh n.
Proof.
  intros H Hn. rewrite err_delta. pose proof (coef_bound n) as C. pose proof (hh_pos n) as P.
  replace (- (hh (S n) - hh n)) with (- (hh n * (1 / rr (S n) * cc (S n) - 1))) by (cbn [hh]; ring).
  rewrite Rabs_mult, Rabs_Ropp, Rabs_mult, (Rabs_pos_eq (hh n)) by lra.
  assert (N : INR n <= 52) by (replace 52 with (INR 52) by (rewrite INR_IZR_INZ; reflexivity); apply le_INR; lia).
  pose proof (Rabs_pos (1 / rr (S n) * cc (S n) - 1)) as A1. pose proof (Rabs_pos (al (S (S n)) * uu (S (S n)) * dd n)) as A2. destruct eps4_val as (Pe & _).
  set (s := Rabs (1 / rr (S n) * cc (S n) - 1)) in *. set (t := Rabs (al (S (S n)) * uu (S (S n)) * dd n)) in *. clearbody s t.
  assert (s * t <= eps4 * 54) by (apply Rmult_le_compat; lra).
  replace (hh n * s * t) with (hh n * (s * t)) by ring. replace (54 * eps4 * hh n) with (hh n * (eps4 * 54)) by ring. apply Rmult_le_compat_l; lra.
Qed.
(** Relative factors. *)
Definition qf (i : nat) : R := Rabs (al (S i)) * uu (S i) / (uu i * rr i).
Fixpoint qprod (n : nat) : R := match n with O => 1 | S m => qprod m * qf m end.
Lemma qf_pos i : 0 <= qf i.
Proof. unfold qf. apply Rdiv_le_0_compat; [apply Rmult_le_pos; [apply Rabs_pos|left; apply uu_pos]|apply Rmult_lt_0_compat; [apply uu_pos|apply rr_pos]]. Qed.
Lemma qprod_pos n : 0 <= qprod n.
Proof. induction n; cbn [qprod]; [lra|]. apply Rmult_le_pos; [exact IHn|apply qf_pos]. Qed.
Lemma err_prod n : cf_min * (x + 1) <= 1 -> Rabs (err n) <= uu 0 * qprod (S n).
Proof.
  intros HM. induction n.
  - rewrite err_0, !Rabs_mult, (Rabs_pos_eq (uu 1)) by (left; apply uu_pos). cbn [qprod]. unfold qf. rewrite Rmult_1_l.
    pose proof (uu_pos 0) as U0. pose proof (uu_pos 1) as U1. pose proof (rr_pos 0) as P. pose proof (Rabs_pos (al 1)) as A. destruct cf_min_val as (M & M1).
    replace (uu 0 * (Rabs (al 1) * uu 1 / (uu 0 * rr 0))) with (Rabs (al 1) * uu 1 * / rr 0) by (field; lra).
    apply Rmult_le_compat_l; [apply Rmult_le_pos; lra|].
    assert (0 < / rr 0) by (apply Rinv_0_lt_compat, P).
    assert (cf_min <= / rr 0).
    { apply (Rmult_le_reg_r (rr 0)); [exact P|]. rewrite Rinv_l by lra. cbn [rr]. unfold bb. cbn [INR]. nra. }
    apply Rabs_le. lra.
  - rewrite err_S, Rabs_mult, Rabs_Ropp. change (qprod (S (S n))) with (qprod (S n) * qf (S n)). rewrite <- Rmult_assoc.
    pose proof (uu_pos (S n)) as U1. pose proof (uu_pos (S (S n))) as U2. pose proof (rr_pos (S n)) as P.
    replace (Rabs (al (S (S n)) * uu (S (S n)) / (uu (S n) * rr (S n)))) with (qf (S n)).
    + apply Rmult_le_compat_r; [apply qf_pos|exact IHn].
    + unfold qf, Rdiv. rewrite !Rabs_mult, (Rabs_pos_eq (uu (S (S n)))) by lra. rewrite (Rabs_pos_eq (/ _)); [reflexivity|].
      left. apply Rinv_0_lt_compat, Rmult_lt_0_compat; assumption.
Qed.
End Fraction.
