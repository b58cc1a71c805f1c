(** Proofs about NormModel. *)
From Coq Require Import Reals Lra Psatz.
From Coquelicot Require Import Coquelicot.
From Verif Require Import ContModel ContProofs GaussInt NormModel.
Local Open Scope R_scope.

Lemma sqrt_PI_pos : 0 < sqrt PI.
Proof. apply sqrt_lt_R0, PI_RGT_0. Qed.
Lemma sqrt2_pos : 0 < sqrt 2.
Proof. apply sqrt_lt_R0. lra. Qed.
Lemma sqrt2_sq : sqrt 2 * sqrt 2 = 2.
Proof. apply sqrt_sqrt. lra. Qed.
Lemma sqrt_2PI : sqrt (2 * PI) = sqrt 2 * sqrt PI.
Proof. apply sqrt_mult; [lra|]. pose proof PI_RGT_0. lra. Qed.
Lemma sqrt_2_div_PI : sqrt (2 / PI) = sqrt 2 / sqrt PI.
Proof. apply sqrt_div_alt, PI_RGT_0. Qed.

(** ** erf *)

Lemma erf_G x : erf x = G x / Ginf.
Proof. unfold erf, Ginf. fold (G x). change (RInt _ 0 x) with (G x). field. pose proof sqrt_PI_pos. lra. Qed.
Lemma erf_odd x : erf (- x) = - erf x.
Proof. rewrite !erf_G, G_odd. field. pose proof Ginf_pos. lra. Qed.
Lemma erf_0 : erf 0 = 0.
Proof. rewrite erf_G, G_0. field. pose proof Ginf_pos. lra. Qed.
Lemma erf_bound x : - 1 < erf x < 1.
Proof.
  rewrite erf_G. pose proof (G_bound x). pose proof Ginf_pos. split.
  - apply Rmult_lt_reg_r with Ginf; [assumption|]. unfold Rdiv. rewrite Rmult_assoc, Rinv_l by lra. lra.
  - apply Rmult_lt_reg_r with Ginf; [assumption|]. unfold Rdiv. rewrite Rmult_assoc, Rinv_l by lra. lra.
Qed.
Lemma erf_increasing x y : x < y -> erf x < erf y.
Proof.
  intros H. rewrite !erf_G. apply Rmult_lt_compat_r; [apply Rinv_0_lt_compat, Ginf_pos|now apply G_increasing].
Qed.
Lemma erf_deriv x : is_derive erf x (2 / sqrt PI * exp (- (x * x))).
Proof.
  apply is_derive_ext with (fun x => 2 / sqrt PI * G x); [reflexivity|].
  apply is_derive_scal. apply G_deriv.
Qed.
Lemma erf_limit e : 0 < e -> exists x0, 0 < x0 /\ forall x, x0 <= x -> 1 - e < erf x.
Proof.
  intros He. destruct (G_limit (e * Ginf)) as (x0 & H0 & H). { apply Rmult_lt_0_compat; [auto|apply Ginf_pos]. }
  exists x0. split; [assumption|]. intros x Hx. specialize (H x Hx). rewrite erf_G. pose proof Ginf_pos.
  apply Rmult_lt_reg_r with Ginf; [assumption|]. unfold Rdiv. rewrite Rmult_assoc, Rinv_l by lra. lra.
Qed.

(** ** Phi *)

Lemma Phi_erf x : Phi x = 1 / 2 + 1 / 2 * erf (x / sqrt 2).
Proof.
  unfold Phi. replace (x * (1 / sqrt 2)) with (x / sqrt 2) by (field; pose proof sqrt2_pos; lra).
  set (y := x / sqrt 2). destruct (Rlt_dec _ _); [|destruct (Rlt_dec _ _)]; unfold erfc; rewrite ?erf_odd; lra.
Qed.
Lemma Phi_range x : 0 < Phi x < 1.
Proof. rewrite Phi_erf. pose proof (erf_bound (x / sqrt 2)). lra. Qed.
Lemma Phi_opp x : Phi (- x) = 1 - Phi x.
Proof.
  rewrite !Phi_erf. replace (- x / sqrt 2) with (- (x / sqrt 2)) by (field; pose proof sqrt2_pos; lra).
  rewrite erf_odd. lra.
Qed.
Lemma Phi_increasing x y : x < y -> Phi x < Phi y.
Proof.
  intros H. rewrite !Phi_erf. assert (erf (x / sqrt 2) < erf (y / sqrt 2)); [|lra].
  apply erf_increasing. apply Rmult_lt_compat_r; [apply Rinv_0_lt_compat, sqrt2_pos|assumption].
Qed.
Lemma Phi_le x y : x <= y <-> Phi x <= Phi y.
Proof.
  split.
  - intros [H| ->]; [left; now apply Phi_increasing|lra].
  - intros H. apply Rnot_lt_le. intros L. apply Phi_increasing in L. lra.
Qed.
Definition phi (x : R) : R := 1 / sqrt (2 * PI) * exp (- (x * x) / 2).
Lemma Phi_deriv x : is_derive Phi x (phi x).
Proof.
  apply is_derive_ext with (fun x => 1 / 2 + 1 / 2 * erf (x / sqrt 2)); [intros; now rewrite Phi_erf|].
  pose proof sqrt2_pos. pose proof sqrt_PI_pos. pose proof (erf_deriv (x / sqrt 2)) as D.
  assert (E : is_derive (fun x => erf (x / sqrt 2)) x
    (/ sqrt 2 * (2 / sqrt PI * exp (- (x / sqrt 2 * (x / sqrt 2)))))).
  { apply (is_derive_comp erf (fun x => x / sqrt 2)); [assumption|]. auto_derive; [trivial|]. field. lra. }
  replace (phi x) with (plus 0 (1 / 2 * (/ sqrt 2 * (2 / sqrt PI * exp (- (x / sqrt 2 * (x / sqrt 2))))))).
  - apply (is_derive_plus (fun _ => 1 / 2) (fun x => 1 / 2 * erf (x / sqrt 2))).
    + apply (is_derive_const (K := R_AbsRing) (V := R_NormedModule)).
    + now apply is_derive_scal.
  - unfold plus; cbn. unfold phi. rewrite sqrt_2PI.
    replace (- (x / sqrt 2 * (x / sqrt 2))) with (- (x * x) / 2).
    + field. lra.
    + rewrite <- sqrt2_sq at 1. field. lra.
Qed.
Lemma Phi_limit e : 0 < e -> exists x0, forall x, x0 <= x -> 1 - e < Phi x /\ Phi (- x) < e.
Proof.
  intros He. destruct (erf_limit e He) as (y & Hy & H). exists (y * sqrt 2). intros x Hx.
  assert (1 - e < erf (x / sqrt 2)). { apply H. apply (proj2 (le_div_iff x y (sqrt 2) sqrt2_pos)). lra. }
  rewrite Phi_opp, Phi_erf. lra.
Qed.

(** existence of the inverse *)
Lemma Phi_surjective u : 0 < u < 1 -> {x : R | Phi x = u}.
Proof.
  intros Hu.
  destruct (IVT_Rbar_incr Phi m_infty p_infty 0 1 u) as (x & _ & _ & Hx).
  - apply is_lim_spec. intros e. destruct (Phi_limit e (cond_pos e)) as (x0 & H). exists (- x0).
    intros x Hx. destruct (H (- x) ltac:(lra)) as [_ L]. rewrite Ropp_involutive in L.
    pose proof (Phi_range x). rewrite Rabs_right; lra.
  - apply is_lim_spec. intros e. destruct (Phi_limit e (cond_pos e)) as (x0 & H). exists x0.
    intros x Hx. destruct (H x ltac:(lra)) as [L _]. pose proof (Phi_range x). rewrite Rabs_left; lra.
  - intros x _ _. apply continuity_pt_filterlim. apply (ex_derive_continuous Phi). eexists. apply Phi_deriv.
  - exact I.
  - cbn. lra.
  - exists x. exact Hx.
Qed.
Definition Phi_inverse (u : R) : R :=
  match Rlt_dec 0 u, Rlt_dec u 1 with
  | left H0, left H1 => proj1_sig (Phi_surjective u (conj H0 H1))
  | _, _ => 0
  end.
Lemma Phi_inverse_ok u : 0 < u < 1 -> Phi (Phi_inverse u) = u.
Proof.
  intros Hu. unfold Phi_inverse. destruct (Rlt_dec 0 u); [|lra]. destruct (Rlt_dec u 1); [|lra].
  destruct (Phi_surjective u _) as [x Hx]. exact Hx.
Qed.

(** Phi as an integral over the half line below x *)
Lemma phi_cont x : continuous phi x.
Proof. apply (ex_derive_continuous phi). unfold phi. auto_derive. trivial. Qed.
Lemma Phi_integral a x : is_RInt phi a x (Phi x - Phi a).
Proof.
  apply (is_RInt_derive Phi phi); intros t _; [apply Phi_deriv|apply phi_cont].
Qed.

Section inverse.
Variable inv : R -> R.
Hypothesis Hinv : forall u, 0 < u < 1 -> Phi (inv u) = u.

Lemma inv_galois u x : 0 < u < 1 -> inv u <= x <-> u <= Phi x.
Proof. intros Hu. rewrite Phi_le, Hinv by assumption. reflexivity. Qed.
Lemma inv_Phi_in u : 0 < u < 1 -> inv_Phi inv u = Fin (inv u).
Proof.
  intros Hu. unfold inv_Phi. destruct (Rlt_dec u 0); [lra|]. destruct (Rlt_dec 1 u); [lra|].
  destruct (Req_EM_T u 0); [lra|]. destruct (Req_EM_T u 1); [lra|reflexivity].
Qed.

(** *** normal_dist *)
Section normal.
Variables mu sigma : R.
Hypothesis Hs : 0 < sigma.
Definition norm_q u := inv u * sigma + mu.
Lemma norm_range x : 0 <= norm_cdf mu sigma x <= 1.
Proof. unfold norm_cdf. pose proof (Phi_range ((x - mu) / sigma)). lra. Qed.
Lemma norm_galois u x : 0 < u < 1 -> norm_q u <= x <-> u <= norm_cdf mu sigma x.
Proof.
  intros Hu. unfold norm_q, norm_cdf. rewrite <- (inv_galois u ((x - mu) / sigma) Hu).
  rewrite (le_div_iff (x - mu) (inv u) sigma Hs). lra.
Qed.
Lemma norm_inv u : 0 < u < 1 -> norm_cdf mu sigma (norm_q u) = u.
Proof.
  intros Hu. unfold norm_q, norm_cdf. replace ((inv u * sigma + mu - mu) / sigma) with (inv u) by (field; lra). auto.
Qed.
Lemma norm_deriv x : derivable_pt_lim (norm_cdf mu sigma) x (norm_pdf mu sigma x).
Proof.
  apply is_derive_Reals. unfold norm_cdf.
  replace (norm_pdf mu sigma x) with (/ sigma * phi ((x - mu) / sigma)).
  - apply (is_derive_comp Phi (fun x => (x - mu) / sigma)); [apply Phi_deriv|]. auto_derive; [trivial|]. field. lra.
  - unfold norm_pdf, phi. cbv zeta.
    replace ((x - mu) * (x - mu) / (- (2) * sigma * sigma)) with (- ((x - mu) / sigma * ((x - mu) / sigma)) / 2)
      by (field; lra).
    field. pose proof PI_RGT_0. split; [apply Rgt_not_eq, sqrt_lt_R0; lra|lra].
Qed.
End normal.

(** *** lognormal_dist *)
Section lognormal.
Variables mu sigma : R.
Hypothesis Hs : 0 < sigma.
Definition logn_q u := exp (inv u * sigma + mu).
Lemma logn_cdf_norm x : 0 < x -> logn_cdf mu sigma x = norm_cdf mu sigma (ln x).
Proof.
  intros Hx. unfold logn_cdf, norm_cdf. destruct (Rle_dec x 0); [lra|]. unfold erfc. rewrite Phi_erf.
  replace (1 / sqrt 2 * (mu - ln x) / sigma) with (- ((ln x - mu) / sigma / sqrt 2))
    by (field; pose proof sqrt2_pos; lra).
  rewrite erf_odd. lra.
Qed.
Lemma logn_range x : 0 <= logn_cdf mu sigma x <= 1.
Proof.
  destruct (Rle_dec x 0) as [H|H].
  - unfold logn_cdf. destruct (Rle_dec x 0); lra.
  - rewrite logn_cdf_norm by lra. apply norm_range.
Qed.
Lemma logn_galois u x : 0 < u < 1 -> logn_q u <= x <-> u <= logn_cdf mu sigma x.
Proof.
  intros Hu. destruct (Rle_dec x 0) as [H|H].
  - unfold logn_cdf, logn_q. destruct (Rle_dec x 0); [|lra]. pose proof (exp_pos (inv u * sigma + mu)). lra.
  - rewrite logn_cdf_norm by lra. rewrite <- (norm_galois mu sigma Hs u (ln x) Hu). unfold logn_q, norm_q.
    rewrite <- (exp_ln x) at 1 by lra. rewrite exp_le_iff. reflexivity.
Qed.
Lemma logn_inv u : 0 < u < 1 -> logn_cdf mu sigma (logn_q u) = u.
Proof.
  intros Hu. unfold logn_q. rewrite logn_cdf_norm by apply exp_pos. rewrite ln_exp. now apply norm_inv.
Qed.
Lemma logn_deriv x : x <> 0 -> derivable_pt_lim (logn_cdf mu sigma) x (logn_pdf mu sigma x).
Proof.
  intros Hx. destruct (Rlt_dec x 0) as [H|H].
  - apply deriv_lt with (fun _ => 0) 0; auto.
    + intros y Hy. unfold logn_cdf. destruct (Rle_dec y 0); lra.
    + unfold logn_pdf. destruct (Rle_dec x 0); [|lra]. apply derivable_pt_lim_const.
  - apply deriv_gt with (fun x => norm_cdf mu sigma (ln x)) 0; [lra|intros y Hy; now apply logn_cdf_norm|].
    apply is_derive_Reals. unfold logn_pdf. destruct (Rle_dec x 0); [lra|]. cbv zeta.
    replace (1 / sqrt (2 * PI) / (x * sigma) * exp (- ((ln x - mu) / sigma) * ((ln x - mu) / sigma) / 2))
      with (/ x * norm_pdf mu sigma (ln x)).
    + apply (is_derive_comp (norm_cdf mu sigma) ln); [apply is_derive_Reals, norm_deriv, Hs|].
      auto_derive; [lra|]. field. lra.
    + unfold norm_pdf. cbv zeta.
      replace ((ln x - mu) * (ln x - mu) / (- (2) * sigma * sigma))
        with (- ((ln x - mu) / sigma) * ((ln x - mu) / sigma) / 2) by (field; lra).
      field. pose proof PI_RGT_0. repeat split; try lra. apply Rgt_not_eq, sqrt_lt_R0; lra.
Qed.
End lognormal.

(** *** truncated_normal_dist *)
Section truncated.
Variables (mu sigma : R) (a b : xreal).
Hypothesis Hs : 0 < sigma.
Let P := tn_make mu sigma a b.
Definition tn_ordered : Prop :=
  match a, b with
  | NInf, PInf => True
  | NInf, Fin _ => True
  | Fin _, PInf => True
  | Fin a, Fin b => a < b
  | _, _ => False
  end.
Hypothesis Hab : tn_ordered.
Lemma tn_Phi_ordered : 0 <= tn_Phi_a P < tn_Phi_b P /\ tn_Phi_b P <= 1.
Proof.
  unfold P, tn_make, Phi_at; cbn. unfold tn_ordered in Hab. destruct a as [x| | |], b as [y| | |]; try tauto; try lra.
  - pose proof (Phi_range ((x - mu) / sigma)). pose proof (Phi_range ((y - mu) / sigma)).
    assert (Phi ((x - mu) / sigma) < Phi ((y - mu) / sigma)); [|lra]. apply Phi_increasing.
    apply Rmult_lt_compat_r; [now apply Rinv_0_lt_compat|lra].
  - pose proof (Phi_range ((x - mu) / sigma)). lra.
  - pose proof (Phi_range ((y - mu) / sigma)). lra.
Qed.
Definition tn_q u := inv (u * (tn_Phi_b P - tn_Phi_a P) + tn_Phi_a P) * sigma + mu.
Lemma tn_arg u : 0 < u < 1 -> tn_Phi_a P < u * (tn_Phi_b P - tn_Phi_a P) + tn_Phi_a P < tn_Phi_b P.
Proof. intros Hu. pose proof tn_Phi_ordered. nra. Qed.
Lemma tn_icdf_in u : 0 < u < 1 -> tn_icdf inv P u = Fin (tn_q u).
Proof.
  intros Hu. unfold tn_icdf. cbv zeta. pose proof (tn_arg u Hu). pose proof tn_Phi_ordered.
  rewrite inv_Phi_in by lra. reflexivity.
Qed.
Lemma tn_galois u x : 0 < u < 1 -> tn_q u <= x <-> u <= tn_cdf P x.
Proof.
  intros Hu. unfold tn_q, tn_cdf. cbv zeta. pose proof (tn_arg u Hu). pose proof tn_Phi_ordered.
  change (tn_mu P) with mu. change (tn_sigma P) with sigma.
  rewrite (le_div_iff (Phi ((x - mu) / sigma) - tn_Phi_a P) u (tn_Phi_b P - tn_Phi_a P)) by lra.
  pose proof (inv_galois (u * (tn_Phi_b P - tn_Phi_a P) + tn_Phi_a P) ((x - mu) / sigma) ltac:(lra)) as [G1 G2].
  rewrite (le_div_iff (x - mu) _ sigma Hs) in G1, G2. split; intros L.
  - assert (u * (tn_Phi_b P - tn_Phi_a P) + tn_Phi_a P <= Phi ((x - mu) / sigma)); [apply G1|]; lra.
  - enough (inv (u * (tn_Phi_b P - tn_Phi_a P) + tn_Phi_a P) * sigma <= x - mu) by lra. apply G2. lra.
Qed.
Lemma tn_inv u : 0 < u < 1 -> tn_cdf P (tn_q u) = u.
Proof.
  intros Hu. unfold tn_q, tn_cdf. cbv zeta. change (tn_mu P) with mu. change (tn_sigma P) with sigma.
  pose proof (tn_arg u Hu). pose proof tn_Phi_ordered. set (v := u * _ + _) in *.
  replace ((inv v * sigma + mu - mu) / sigma) with (inv v) by (field; lra). rewrite Hinv by lra. unfold v. field. lra.
Qed.
Definition tn_inside (x : R) : Prop :=
  match a with Fin a => a <= x | _ => True end /\ match b with Fin b => x <= b | _ => True end.
Lemma tn_range x : tn_inside x -> 0 <= tn_cdf P x <= 1.
Proof.
  intros [Ha Hb]. unfold tn_cdf. cbv zeta. change (tn_mu P) with mu. change (tn_sigma P) with sigma.
  pose proof tn_Phi_ordered. set (y := (x - mu) / sigma).
  assert (tn_Phi_a P <= Phi y <= tn_Phi_b P).
  { pose proof (Phi_range y). unfold P, tn_make, Phi_at; cbn. unfold tn_ordered in Hab.
    assert (I : forall s t, s <= t -> (s - mu) / sigma <= (t - mu) / sigma).
    { intros s t Hst. apply Rmult_le_compat_r; [left; now apply Rinv_0_lt_compat|lra]. }
    destruct a as [s| | |], b as [t| | |]; try tauto; split; try lra; apply (proj1 (Phi_le _ _)), I; assumption. }
  split; [apply le_div_iff; lra|apply div_le_iff; lra].
Qed.
Lemma tn_q_inside u : 0 < u < 1 -> tn_inside (tn_q u).
Proof.
  intros Hu. unfold tn_q. pose proof (tn_arg u Hu) as Hv. pose proof tn_Phi_ordered. set (v := u * _ + _) in *.
  assert (E : Phi (inv v) = v) by (apply Hinv; lra).
  unfold P, tn_make, Phi_at in Hv; cbn in Hv. split.
  - destruct a as [s| | |]; auto.
    assert (L : (s - mu) / sigma <= inv v) by (apply (proj2 (Phi_le _ _)); lra). apply div_le_iff in L; [lra|assumption].
  - destruct b as [t| | |]; auto.
    assert (L : inv v <= (t - mu) / sigma) by (apply (proj2 (Phi_le _ _)); lra). apply le_div_iff in L; [lra|assumption].
Qed.
Lemma tn_deriv x : derivable_pt_lim (tn_cdf P) x (tn_pdf P x).
Proof.
  apply is_derive_Reals. pose proof tn_Phi_ordered. pose proof (norm_deriv mu sigma Hs x) as D. apply is_derive_Reals in D.
  apply is_derive_ext with (fun x => (norm_cdf mu sigma x - tn_Phi_a P) / (tn_Phi_b P - tn_Phi_a P)); [reflexivity|].
  replace (tn_pdf P x) with (norm_pdf mu sigma x / (tn_Phi_b P - tn_Phi_a P)).
  - set (w := tn_Phi_b P - tn_Phi_a P) in *. assert (Hw : w <> 0) by (unfold w; lra).
    apply is_derive_ext with (fun x => / w * norm_cdf mu sigma x + - tn_Phi_a P / w).
    { intros t. change (/ w * norm_cdf mu sigma t + - tn_Phi_a P / w = (norm_cdf mu sigma t - tn_Phi_a P) / w). field. lra. }
    replace (norm_pdf mu sigma x / w) with (plus (/ w * norm_pdf mu sigma x) 0) by (unfold plus; cbn; field; lra).
    apply (is_derive_plus (fun x => / w * norm_cdf mu sigma x) (fun _ => - tn_Phi_a P / w)).
    + now apply is_derive_scal.
    + apply (is_derive_const (K := R_AbsRing) (V := R_NormedModule)).
  - unfold tn_pdf, norm_pdf. cbv zeta. change (tn_mu P) with mu. change (tn_sigma P) with sigma.
    replace ((x - mu) * (x - mu) / (- (2) * sigma * sigma)) with (- ((x - mu) / sigma) * ((x - mu) / sigma) / 2)
      by (field; lra).
    field. pose proof PI_RGT_0. repeat split; try lra. apply Rgt_not_eq, sqrt_lt_R0; lra.
Qed.
End truncated.
End inverse.

(** *** maxwell_dist *)
Section maxwell.
Variable theta : R.
Hypothesis Ht : 0 < theta.
Lemma max_deriv x : derivable_pt_lim (max_cdf theta) x (max_pdf theta x).
Proof.
  apply is_derive_Reals. unfold max_cdf. pose proof sqrt2_pos. pose proof sqrt_PI_pos.
  set (E := exp (- (x * x) / (2 * theta * theta))).
  assert (D1 : is_derive (fun x => erf (x * (1 / sqrt 2) / theta)) x (1 / sqrt 2 / theta * (2 / sqrt PI * E))).
  { replace E with (exp (- (x * (1 / sqrt 2) / theta * (x * (1 / sqrt 2) / theta)))).
    - apply (is_derive_comp erf (fun x => x * (1 / sqrt 2) / theta)); [apply erf_deriv|].
      auto_derive; [trivial|]. field. lra.
    - unfold E. f_equal. transitivity (- (x * x) / (sqrt 2 * sqrt 2 * theta * theta)); [field; lra|rewrite sqrt2_sq; reflexivity]. }
  assert (D2 : is_derive (fun x => sqrt (2 / PI) * x * exp (- x * x / (2 * theta * theta)) / theta) x
     (sqrt (2 / PI) * E / theta - sqrt (2 / PI) * x * x * E / (theta * theta * theta))).
  { auto_derive; [trivial|]. replace (- x * x * / (2 * theta * theta)) with (- (x * x) / (2 * theta * theta)) by (field; lra).
    fold E. field. lra. }
  replace (max_pdf theta x) with (minus (1 / sqrt 2 / theta * (2 / sqrt PI * E))
     (sqrt (2 / PI) * E / theta - sqrt (2 / PI) * x * x * E / (theta * theta * theta))).
  - apply (is_derive_minus (fun x => erf (x * (1 / sqrt 2) / theta))
      (fun x => sqrt (2 / PI) * x * exp (- x * x / (2 * theta * theta)) / theta)); assumption.
  - unfold max_pdf, minus, plus, opp; cbn. replace (- (x * x) / (2 * (theta * theta))) with (- (x * x) / (2 * theta * theta)) by (field; lra).
    fold E. rewrite sqrt_2_div_PI. set (r := sqrt 2) in *.
    assert (R2 : r * r = 2) by apply sqrt2_sq. replace (2 / sqrt PI) with (r * r / sqrt PI) by (rewrite R2; reflexivity).
    field. lra.
Qed.
Lemma max_odd x : max_cdf theta (- x) = - max_cdf theta x.
Proof.
  unfold max_cdf. replace (- x * (1 / sqrt 2) / theta) with (- (x * (1 / sqrt 2) / theta)) by (field; pose proof sqrt2_pos; lra).
  rewrite erf_odd. replace (- - x * - x / (2 * theta * theta)) with (- x * x / (2 * theta * theta)) by (field; lra).
  field. lra.
Qed.
Lemma max_pdf_pos x : x <> 0 -> 0 < max_pdf theta x.
Proof.
  intros Hx. unfold max_pdf. cbv zeta. apply Rdiv_lt_0_compat.
  2:{ apply Rmult_lt_0_compat; [nra|assumption]. }
  apply Rmult_lt_0_compat; [|apply exp_pos]. apply Rmult_lt_0_compat; [|nra].
  apply sqrt_lt_R0. apply Rdiv_lt_0_compat; [lra|apply PI_RGT_0].
Qed.
Lemma max_0 : max_cdf theta 0 = 0.
Proof. unfold max_cdf. rewrite !Rmult_0_r. unfold Rdiv. rewrite !Rmult_0_l, erf_0. ring. Qed.
Lemma max_monotone x y : x <= y -> max_cdf theta x <= max_cdf theta y.
Proof.
  intros [H| ->]; [|lra]. destruct (MVT_gen (max_cdf theta) x y (max_pdf theta)) as (c & _ & Hc).
  - intros z _. apply is_derive_Reals, max_deriv.
  - intros z _. apply derivable_continuous_pt. eexists. apply max_deriv.
  - assert (0 <= max_pdf theta c).
    { destruct (Req_dec c 0) as [->|Hne]; [|left; now apply max_pdf_pos].
      unfold max_pdf. rewrite !Rmult_0_r. unfold Rdiv. rewrite !Rmult_0_l. lra. }
    nra.
Qed.
Lemma max_le_1 x : 0 <= x -> max_cdf theta x <= 1.
Proof.
  intros Hx. unfold max_cdf. pose proof (erf_bound (x * (1 / sqrt 2) / theta)).
  assert (0 <= sqrt (2 / PI) * x * exp (- x * x / (2 * theta * theta)) / theta); [|lra].
  pose proof (sqrt_pos (2 / PI)). pose proof (exp_pos (- x * x / (2 * theta * theta))).
  apply Rmult_le_pos; [|left; now apply Rinv_0_lt_compat]. apply Rmult_le_pos; [|lra]. nra.
Qed.
Lemma max_range x : 0 <= x -> 0 <= max_cdf theta x <= 1.
Proof. intros Hx. split; [|now apply max_le_1]. rewrite <- max_0. now apply max_monotone. Qed.
(** strictly increasing, by the sign of the density *)
Lemma max_strict x y : x < y -> max_cdf theta x < max_cdf theta y.
Proof.
  intros H.
  assert (S : forall x y, x < y -> (0 <= x \/ y <= 0) -> max_cdf theta x < max_cdf theta y).
  { clear x y H. intros x y H H0. set (m := (x + y) / 2).
    apply Rlt_le_trans with (max_cdf theta y); [|lra].
    destruct (MVT_gen (max_cdf theta) x y (max_pdf theta)) as (c & Hc1 & Hc).
    - intros z _. apply is_derive_Reals, max_deriv.
    - intros z _. apply derivable_continuous_pt. eexists. apply max_deriv.
    - destruct (Req_dec c 0) as [Hz|Hne]; [|pose proof (max_pdf_pos c Hne); nra].
      (* c = 0 is an end point; use an inner interval *)
      set (x' := (2 * x + y) / 3). set (y' := (x + 2 * y) / 3).
      assert (x < x' /\ x' < y' /\ y' < y) by (unfold x', y'; lra).
      destruct (MVT_gen (max_cdf theta) x' y' (max_pdf theta)) as (c' & Hc1' & Hc').
      + intros z _. apply is_derive_Reals, max_deriv.
      + intros z _. apply derivable_continuous_pt. eexists. apply max_deriv.
      + rewrite Rmin_left, Rmax_right in Hc1' by lra.
        assert (c' <> 0) by lra. pose proof (max_pdf_pos c' H2).
        pose proof (max_monotone x x' ltac:(lra)). pose proof (max_monotone y' y ltac:(lra)). nra. }
  destruct (Rle_dec 0 x); [apply S; auto|]. destruct (Rle_dec y 0); [apply S; auto|].
  apply Rlt_trans with (max_cdf theta 0); apply S; lra.
Qed.
Lemma max_limit e : 0 < e -> exists x, 0 < x /\ 1 - e < max_cdf theta x.
Proof.
  intros He. destruct (erf_limit (e / 2) ltac:(lra)) as (z & Hz & H).
  pose proof sqrt2_pos as Hr. set (c := sqrt (2 / PI)). assert (Hc : 0 <= c) by apply sqrt_pos.
  (* x = theta * s with s large: the second term is c * s * exp(-s^2/2) <= c * 2 / s *)
  set (s := 1 + z * sqrt 2 + 4 * c / e).
  assert (0 <= 4 * c / e) by (apply Rmult_le_pos; [lra|left; now apply Rinv_0_lt_compat]).
  assert (Hs : 1 < s). { unfold s. assert (0 < z * sqrt 2) by nra. lra. }
  exists (theta * s). split; [nra|]. unfold max_cdf.
  replace (theta * s * (1 / sqrt 2) / theta) with (s / sqrt 2) by (field; lra).
  replace (- (theta * s) * (theta * s) / (2 * theta * theta)) with (- (s * s / 2)) by (field; lra).
  fold c. replace (c * (theta * s) * exp (- (s * s / 2)) / theta) with (c * (s * exp (- (s * s / 2)))) by (field; lra).
  assert (1 - e / 2 < erf (s / sqrt 2)).
  { apply H. apply (proj2 (le_div_iff s z (sqrt 2) Hr)). unfold s. lra. }
  assert (B : s * exp (- (s * s / 2)) <= 2 / s).
  { rewrite exp_Ropp. pose proof (exp_ineq1_le (s * s / 2)). pose proof (exp_pos (s * s / 2)).
    assert (s * s / 2 <= exp (s * s / 2)) by lra.
    apply le_div_iff; [lra|]. replace (s * / exp (s * s / 2) * s) with (s * s / exp (s * s / 2)) by (field; lra).
    apply div_le_iff; [assumption|]. lra. }
  assert (c * (2 / s) <= e / 2).
  { replace (c * (2 / s)) with (2 * c / s) by (field; lra). apply div_le_iff; [lra|].
    assert (e / 2 * (4 * c / e) = 2 * c) by (field; lra). unfold s. assert (0 < z * sqrt 2) by nra. nra. }
  assert (c * (s * exp (- (s * s / 2))) <= c * (2 / s)) by (apply Rmult_le_compat_l; assumption). lra.
Qed.
End maxwell.
