(** The Gaussian integral. *)
From Coq Require Import Reals Lra Psatz.
From Coquelicot Require Import Coquelicot.
Local Open Scope R_scope.

Definition g2 (t : R) : R := exp (- (t * t)).
Definition G (x : R) : R := RInt g2 0 x.
Definition kf (x t : R) : R := exp (- (x * x) * (1 + t * t)) / (1 + t * t).
Definition K (x : R) : R := RInt (kf x) 0 1.

Lemma one_sq t : 0 < 1 + t * t.
Proof. nra. Qed.
Lemma g2_cont x : continuous g2 x.
Proof. apply (ex_derive_continuous g2). unfold g2. auto_derive. trivial. Qed.
Lemma g2_int a b : ex_RInt g2 a b.
Proof. apply (@ex_RInt_continuous R_CompleteNormedModule). intros. apply g2_cont. Qed.
Lemma g2_pos t : 0 < g2 t.
Proof. apply exp_pos. Qed.
Lemma G_deriv x : is_derive G x (g2 x).
Proof.
  apply (is_derive_RInt g2 G 0 x).
  - apply filter_forall. intros y. apply (@RInt_correct R_CompleteNormedModule), g2_int.
  - apply g2_cont.
Qed.
Lemma G_0 : G 0 = 0.
Proof. unfold G. rewrite RInt_point. reflexivity. Qed.

Lemma kf_int x a b : ex_RInt (kf x) a b.
Proof.
  apply (@ex_RInt_continuous R_CompleteNormedModule). intros t _. apply (ex_derive_continuous (kf x)). unfold kf. auto_derive.
  pose proof (one_sq t). lra.
Qed.
Lemma kf_deriv t x : is_derive (fun u => kf u t) x (- 2 * x * exp (- (x * x) * (1 + t * t))).
Proof. unfold kf. pose proof (one_sq t). auto_derive; [lra|]. field. lra. Qed.

Lemma K_deriv x : is_derive K x (- 2 * g2 x * G x).
Proof.
  unfold K.
  replace (- 2 * g2 x * G x) with (RInt (fun t => Derive (fun u => kf u t) x) 0 1).
  - apply is_derive_RInt_param.
    + apply filter_forall. intros y t _. eexists. apply kf_deriv.
    + intros t _. apply continuity_2d_pt_ext with (fun u v => - 2 * u * exp (- (u * u) * (1 + v * v))).
      { intros u v. symmetry. apply is_derive_unique, kf_deriv. }
      apply continuity_2d_pt_mult.
      * apply continuity_2d_pt_mult; [apply continuity_2d_pt_const|apply continuity_2d_pt_id1].
      * apply continuity_1d_2d_pt_comp with (f := exp).
        { apply derivable_continuous_pt, derivable_pt_exp. }
        apply continuity_2d_pt_mult.
        -- apply continuity_2d_pt_opp, continuity_2d_pt_mult; apply continuity_2d_pt_id1.
        -- apply continuity_2d_pt_plus; [apply continuity_2d_pt_const|].
           apply continuity_2d_pt_mult; apply continuity_2d_pt_id2.
    + apply filter_forall. intros y. apply kf_int.
  - apply is_RInt_unique.
    apply is_RInt_ext with (fun t => scal (- 2 * g2 x) (scal x (g2 (x * t + 0)))).
    + intros t _. transitivity (- 2 * x * exp (- (x * x) * (1 + t * t))); [|symmetry; apply is_derive_unique, kf_deriv].
      unfold scal; cbn. unfold mult; cbn.
      unfold g2. replace (- (x * x) * (1 + t * t)) with (- (x * x) + - ((x * t + 0) * (x * t + 0))) by ring.
      rewrite exp_plus. ring.
    + change (- 2 * g2 x * G x) with (scal (- 2 * g2 x) (G x)). apply (is_RInt_scal (V := R_NormedModule)).
      apply (is_RInt_comp_lin (V := R_NormedModule) g2 x 0 0 1 (G x)).
      rewrite Rmult_0_r, Rmult_1_r, !Rplus_0_r. apply (@RInt_correct R_CompleteNormedModule), g2_int.
Qed.

Lemma K_0 : K 0 = PI / 4.
Proof.
  unfold K. rewrite (RInt_ext _ (fun t => / (1 + t * t))).
  - apply is_RInt_unique. replace (PI / 4) with (minus (atan 1) (atan 0)).
    + apply (is_RInt_derive atan (fun t => / (1 + t * t))).
      * intros t _. auto_derive; [trivial|]. field. pose proof (one_sq t). nra.
      * intros t _. apply (ex_derive_continuous (fun t => / (1 + t * t))). auto_derive. pose proof (one_sq t). lra.
    + unfold minus, plus, opp; cbn. rewrite atan_1, atan_0. lra.
  - intros t _. change (kf 0 t = / (1 + t * t)). unfold kf. replace (- (0 * 0) * (1 + t * t)) with 0 by ring.
    rewrite exp_0. field. pose proof (one_sq t). lra.
Qed.

Lemma GK x : G x * G x + K x = PI / 4.
Proof.
  rewrite <- K_0. assert (E : forall y, is_derive (fun x => G x * G x + K x) y 0).
  { intros y. pose proof (G_deriv y) as HG. pose proof (K_deriv y) as HK.
    replace 0 with (plus (plus (mult (g2 y) (G y)) (mult (G y) (g2 y))) (- 2 * g2 y * G y))
      by (unfold plus, mult; cbn; ring).
    apply (is_derive_plus (fun x => G x * G x) K); [|assumption].
    apply (is_derive_mult G G); auto. intros; apply Rmult_comm. }
  assert (forall a b, G a * G a + K a = G b * G b + K b).
  { intros a b. destruct (Req_dec a b) as [->|Hab]; [reflexivity|].
    assert (Z : forall a b, a < b -> G a * G a + K a = G b * G b + K b).
    { clear a b Hab. intros a b Hab.
      destruct (MVT_gen (fun x => G x * G x + K x) a b (fun _ => 0)) as (c & _ & Hc).
      - intros; apply E.
      - intros y _. apply derivable_continuous_pt. exists 0. apply is_derive_Reals, E.
      - cbn beta in Hc. lra. }
    destruct (Rlt_dec a b); [now apply Z|]. symmetry. apply Z. lra. }
  rewrite (H x 0), G_0. ring.
Qed.

Lemma kf_bounds x t : 0 < kf x t <= exp (- (x * x)).
Proof.
  unfold kf. pose proof (one_sq t). pose proof (exp_pos (- (x * x) * (1 + t * t))). split.
  - apply Rdiv_lt_0_compat; auto.
  - apply Rle_trans with (exp (- (x * x) * (1 + t * t))).
    + apply Rle_div_l; auto. nra.
    + assert (- (x * x) * (1 + t * t) <= - (x * x)) as [L|L] by nra; [left; now apply exp_increasing|rewrite L; lra].
Qed.
Lemma K_pos x : 0 < K x.
Proof.
  apply RInt_gt_0; [lra|intros t _; apply kf_bounds|]. intros t _.
  apply (ex_derive_continuous (kf x)). unfold kf. auto_derive. pose proof (one_sq t). lra.
Qed.
Lemma K_le x : K x <= exp (- (x * x)).
Proof.
  unfold K. replace (exp (- (x * x))) with (RInt (fun _ => exp (- (x * x))) 0 1).
  - apply RInt_le; [lra|apply kf_int|apply ex_RInt_const|]. intros t _. apply kf_bounds.
  - rewrite RInt_const. unfold scal; cbn. unfold mult; cbn. ring.
Qed.

(** the integral over the positive half line is sqrt PI / 2 *)
Definition Ginf : R := sqrt PI / 2.
Lemma Ginf_sq : Ginf * Ginf = PI / 4.
Proof.
  unfold Ginf. replace (sqrt PI / 2 * (sqrt PI / 2)) with (sqrt PI * sqrt PI / 4) by field.
  rewrite sqrt_sqrt; [reflexivity|]. pose proof PI_RGT_0. lra.
Qed.
Lemma Ginf_pos : 0 < Ginf.
Proof. unfold Ginf. pose proof (sqrt_lt_R0 PI PI_RGT_0). lra. Qed.
Lemma G_increasing x y : x < y -> G x < G y.
Proof.
  intros H. unfold G. assert (E : RInt g2 0 y = RInt g2 0 x + RInt g2 x y).
  { symmetry. apply (@RInt_Chasles R_CompleteNormedModule g2 0 x y); apply g2_int. }
  rewrite E.
  assert (0 < RInt g2 x y).
  { apply RInt_gt_0; auto.
    - intros. apply g2_pos.
    - intros t _. apply g2_cont. }
  lra.
Qed.
Lemma G_odd x : G (- x) = - G x.
Proof.
  unfold G at 1. apply is_RInt_unique.
  apply is_RInt_ext with (fun t => scal (-1) (scal (-1) (g2 (-1 * t + 0)))).
  - intros t _. unfold scal; cbn. unfold mult; cbn. unfold g2.
    replace ((-1 * t + 0) * (-1 * t + 0)) with (t * t) by ring. ring.
  - replace (- G x) with (scal (-1) (G x)) by (unfold scal; cbn; unfold mult; cbn; ring).
    apply (is_RInt_scal (V := R_NormedModule)). apply (is_RInt_comp_lin (V := R_NormedModule) g2 (-1) 0 0 (- x) (G x)).
    rewrite Rmult_0_r, !Rplus_0_r. replace (-1 * - x) with x by lra.
    apply (@RInt_correct R_CompleteNormedModule), g2_int.
Qed.
Lemma G_bound x : - Ginf < G x < Ginf.
Proof.
  pose proof (GK x). pose proof (K_pos x). pose proof Ginf_sq. pose proof Ginf_pos.
  split; [apply Rnot_le_lt; intros L; nra|apply Rnot_le_lt; intros L; nra].
Qed.
Lemma G_limit e : 0 < e -> exists x0, 0 < x0 /\ forall x, x0 <= x -> Ginf - e < G x.
Proof.
  intros He. set (m := Ginf * e). assert (Hm : 0 < m) by (pose proof Ginf_pos; unfold m; nra).
  set (x0 := 1 + / m). assert (0 < / m) by now apply Rinv_0_lt_compat.
  exists x0. split; [unfold x0; lra|]. intros x Hx. unfold x0 in Hx.
  assert (Gp : 0 < G x) by (rewrite <- G_0; apply G_increasing; lra).
  assert (KL : K x < m).
  { apply Rle_lt_trans with (exp (- (x * x))); [apply K_le|]. rewrite exp_Ropp.
    apply Rlt_le_trans with (/ x).
    - apply Rinv_lt_contravar; [apply Rmult_lt_0_compat; [lra|apply exp_pos]|].
      pose proof (exp_ineq1 (x * x) ltac:(nra)). nra.
    - rewrite <- (Rinv_inv m). apply Rinv_le_contravar; lra. }
  pose proof (GK x). pose proof Ginf_sq. pose proof Ginf_pos.
  apply Rnot_le_lt. intros L. unfold m in KL.
  assert (Ginf * Ginf - G x * G x < Ginf * e) by lra. nra.
Qed.
