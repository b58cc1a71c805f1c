(** Proofs about the continuous distributions: for every distribution with quantile function q
    - [X_range]: 0 <= cdf x <= 1,
    - [X_galois]: q u <= x exactly when u <= cdf x, 0 < u < 1,
    - [X_inv]: cdf (q u) = u,
    - [X_deriv]: pdf is the derivative of cdf. *)
From Coq Require Import Reals Lra Psatz.
From Coquelicot Require Import Coquelicot.
From Verif Require Import ContModel.
Local Open Scope R_scope.

(** ** Tools *)

Lemma exp_le_iff a b : exp a <= exp b <-> a <= b.
Proof.
  split; intros H.
  - apply Rnot_lt_le. intros Hc. apply exp_increasing in Hc. lra.
  - destruct H as [H|H]; [left; now apply exp_increasing|right; now f_equal].
Qed.
Lemma ln_le_exp a b : 0 < a -> (ln a <= b <-> a <= exp b).
Proof. intros H. rewrite <- (exp_ln a H) at 2. now rewrite exp_le_iff. Qed.
Lemma le_ln_exp a b : 0 < a -> (b <= ln a <-> exp b <= a).
Proof. intros H. rewrite <- (exp_ln a H) at 2. now rewrite exp_le_iff. Qed.
Lemma exp_neg_lt_1 x : 0 < x -> exp (- x) < 1.
Proof. intros H. rewrite <- exp_0. apply exp_increasing. lra. Qed.
Lemma exp_le_1 x : x <= 0 -> exp x <= 1.
Proof. intros H. rewrite <- exp_0. now apply exp_le_iff. Qed.
Lemma ln_neg u : 0 < u < 1 -> ln u < 0.
Proof. intros H. rewrite <- ln_1. apply ln_increasing; lra. Qed.
Lemma div_pos a b : 0 < a -> 0 < b -> 0 < a / b.
Proof. intros. now apply Rdiv_lt_0_compat. Qed.
Lemma div_le_iff a b c : 0 < c -> (a / c <= b <-> a <= b * c).
Proof.
  intros H. split; intros H1.
  - apply Rmult_le_compat_r with (r := c) in H1; [|lra]. unfold Rdiv in H1.
    rewrite Rmult_assoc, Rinv_l, Rmult_1_r in H1; lra.
  - apply Rmult_le_reg_r with c; [exact H|]. unfold Rdiv. rewrite Rmult_assoc, Rinv_l, Rmult_1_r; lra.
Qed.
Lemma le_div_iff a b c : 0 < c -> (b <= a / c <-> b * c <= a).
Proof.
  intros H. split; intros H1.
  - apply Rmult_le_compat_r with (r := c) in H1; [|lra]. unfold Rdiv in H1.
    rewrite Rmult_assoc, Rinv_l, Rmult_1_r in H1; lra.
  - apply Rmult_le_reg_r with c; [exact H|]. unfold Rdiv. rewrite Rmult_assoc, Rinv_l, Rmult_1_r; lra.
Qed.
Lemma mult_le_iff a b c : 0 < c -> (c * a <= c * b <-> a <= b).
Proof. intros H. split; intros H1; [now apply Rmult_le_reg_l with c|apply Rmult_le_compat_l; lra]. Qed.

(** derivatives of functions defined by cases *)
Lemma deriv_lt f g c x l : x < c -> (forall y, y < c -> f y = g y) ->
  derivable_pt_lim g x l -> derivable_pt_lim f x l.
Proof.
  intros Hx He Hg. apply is_derive_Reals. apply is_derive_Reals in Hg.
  apply is_derive_ext_loc with g; [|exact Hg].
  apply (filter_imp (fun y => y < c)); [intros y Hy; symmetry; now apply He|].
  now apply (open_lt c).
Qed.
Lemma deriv_gt f g c x l : c < x -> (forall y, c < y -> f y = g y) ->
  derivable_pt_lim g x l -> derivable_pt_lim f x l.
Proof.
  intros Hx He Hg. apply is_derive_Reals. apply is_derive_Reals in Hg.
  apply is_derive_ext_loc with g; [|exact Hg].
  apply (filter_imp (fun y => c < y)); [intros y Hy; symmetry; now apply He|].
  now apply (open_gt c).
Qed.
Lemma deriv_between f g a b x l : a < x < b -> (forall y, a < y < b -> f y = g y) ->
  derivable_pt_lim g x l -> derivable_pt_lim f x l.
Proof.
  intros Hx He Hg. apply is_derive_Reals. apply is_derive_Reals in Hg.
  apply is_derive_ext_loc with g; [|exact Hg].
  apply (filter_imp (fun y => a < y /\ y < b)); [intros y Hy; symmetry; now apply He|].
  apply filter_and; [now apply (open_gt a)|now apply (open_lt b)].
Qed.
Lemma deriv_glue f g h a b x l : a < x < b -> (forall y, a < y <= x -> f y = g y) ->
  (forall y, x <= y < b -> f y = h y) ->
  derivable_pt_lim g x l -> derivable_pt_lim h x l -> derivable_pt_lim f x l.
Proof.
  intros Hx Hl Hr Hg Hh eps Heps.
  destruct (Hg eps Heps) as [d1 H1]. destruct (Hh eps Heps) as [d2 H2].
  assert (Hd : 0 < Rmin (Rmin d1 d2) (Rmin (x - a) (b - x))).
  { repeat apply Rmin_glb_lt; try apply cond_pos; lra. }
  exists (mkposreal _ Hd). intros t Ht Hb. cbn in Hb.
  pose proof (Rmin_l (Rmin d1 d2) (Rmin (x - a) (b - x))).
  pose proof (Rmin_r (Rmin d1 d2) (Rmin (x - a) (b - x))).
  pose proof (Rmin_l d1 d2). pose proof (Rmin_r d1 d2).
  pose proof (Rmin_l (x - a) (b - x)). pose proof (Rmin_r (x - a) (b - x)).
  pose proof (Rle_abs t). pose proof (Rabs_maj2 t).
  destruct (Rlt_le_dec t 0).
  - rewrite (Hl (x + t)) by lra. rewrite (Hl x) by lra. apply H1; lra.
  - rewrite (Hr (x + t)) by lra. rewrite (Hr x) by lra. apply H2; lra.
Qed.

(** monotone from the Galois property *)
Lemma galois_mono cdf (q : R -> R) : (forall u x, 0 < u < 1 -> q u <= x <-> u <= cdf x) ->
  forall x y, x <= y -> cdf x <= 1 -> 0 <= cdf y -> cdf x <= cdf y.
Proof.
  intros G x y Hxy H1 H0. apply Rnot_lt_le. intros Hc.
  set (u := (cdf x + cdf y) / 2).
  destruct (Rle_lt_dec (cdf y) 0) as [Hy|Hy].
  - assert (Hu : 0 < u < 1) by (unfold u; lra).
    assert (q u <= x) by (apply G; [exact Hu|unfold u; lra]).
    assert (u <= cdf y) by (apply G; [exact Hu|lra]). unfold u in *. lra.
  - assert (Hu : 0 < u < 1) by (unfold u; lra).
    assert (q u <= x) by (apply G; [exact Hu|unfold u; lra]).
    assert (u <= cdf y) by (apply G; [exact Hu|lra]). unfold u in *. lra.
Qed.

(** the measure of {u <= c} in (0,1) *)
Lemma is_RInt_cst (a b k l : R) : l = (b - a) * k -> is_RInt (fun _ : R => k) a b l.
Proof. intros ->. apply @is_RInt_const. Qed.
Lemma is_RInt_chasles (f : R -> R) (a b c x y : R) : is_RInt f a b x -> is_RInt f b c y -> is_RInt f a c (x + y).
Proof. intros H1 H2. exact (is_RInt_Chasles (V := R_NormedModule) f a b c x y H1 H2). Qed.
Lemma RInt_step c : 0 <= c <= 1 -> is_RInt (fun u => if Rle_dec u c then 1 else 0) 0 1 c.
Proof.
  intros Hc.
  assert (H : is_RInt (fun u => if Rle_dec u c then 1 else 0) 0 1 (c + 0)).
  { apply (is_RInt_chasles _ 0 c 1).
    - apply (is_RInt_ext (fun _ => 1)).
      + intros u. rewrite Rmin_left, Rmax_right by lra. intros Hu. destruct (Rle_dec u c); lra.
      + apply is_RInt_cst. lra.
    - apply (is_RInt_ext (fun _ => 0)).
      + intros u. rewrite Rmin_left, Rmax_right by lra. intros Hu. destruct (Rle_dec u c); lra.
      + apply is_RInt_cst. lra. }
  rewrite Rplus_0_r in H. exact H.
Qed.
Lemma RInt_step_rev c : 0 <= c <= 1 -> is_RInt (fun u => if Rle_dec (1 - u) c then 1 else 0) 0 1 c.
Proof.
  intros Hc.
  assert (H : is_RInt (fun u => if Rle_dec (1 - u) c then 1 else 0) 0 1 (0 + c)).
  { apply (is_RInt_chasles _ 0 (1 - c) 1).
    - apply (is_RInt_ext (fun _ => 0)).
      + intros u. rewrite Rmin_left, Rmax_right by lra. intros Hu. destruct (Rle_dec (1 - u) c); lra.
      + apply is_RInt_cst. lra.
    - apply (is_RInt_ext (fun _ => 1)).
      + intros u. rewrite Rmin_left, Rmax_right by lra. intros Hu. destruct (Rle_dec (1 - u) c); lra.
      + apply is_RInt_cst. lra. }
  rewrite Rplus_0_l in H. exact H.
Qed.

(** ** uniform *)
Section Uniform.
Variables a b : R.
Hypothesis Hab : a < b.
Definition uni_q u := u * (b - a) + a.
Lemma uni_range x : 0 <= uni_cdf a b x <= 1.
Proof.
  unfold uni_cdf. destruct (Rlt_dec x a); [lra|]. destruct (Rle_dec b x); [lra|].
  split; [apply le_div_iff; lra|apply div_le_iff; lra].
Qed.
Lemma uni_galois u x : 0 < u < 1 -> uni_q u <= x <-> u <= uni_cdf a b x.
Proof.
  intros Hu. unfold uni_q, uni_cdf. destruct (Rlt_dec x a); [split; intros; [nra|lra]|].
  destruct (Rle_dec b x); [split; intros; [lra|nra]|].
  rewrite le_div_iff by lra. lra.
Qed.
Lemma uni_inv u : 0 < u < 1 -> uni_cdf a b (uni_q u) = u.
Proof.
  intros Hu. unfold uni_q, uni_cdf. destruct (Rlt_dec _ a); [nra|]. destruct (Rle_dec b _); [nra|]. field. lra.
Qed.
Lemma uni_deriv x : x <> a -> x <> b -> derivable_pt_lim (uni_cdf a b) x (uni_pdf a b x).
Proof.
  intros Ha Hb. unfold uni_pdf. destruct (Rlt_dec x a).
  - apply deriv_lt with (fun _ => 0) a; [lra| |apply derivable_pt_lim_const].
    intros y Hy. unfold uni_cdf. now destruct (Rlt_dec y a).
  - destruct (Rle_dec b x).
    + apply deriv_gt with (fun _ => 1) b; [lra| |apply derivable_pt_lim_const].
      intros y Hy. unfold uni_cdf. destruct (Rlt_dec y a); [lra|]. destruct (Rle_dec b y); lra.
    + apply deriv_between with (fun y => (y - a) / (b - a)) a b; [lra| |].
      * intros y Hy. unfold uni_cdf. destruct (Rlt_dec y a); [lra|]. destruct (Rle_dec b y); lra.
      * apply is_derive_Reals. auto_derive; [lra|field; lra].
Qed.
End Uniform.

Lemma u01_cdf_eq x : u01_cdf x = uni_cdf 0 1 x.
Proof. unfold u01_cdf, uni_cdf. destruct (Rlt_dec x 0); [lra|]. destruct (Rle_dec 1 x); [lra|]. field. Qed.
Lemma u01_pdf_eq x : u01_pdf x = uni_pdf 0 1 x.
Proof. unfold u01_pdf, uni_pdf. destruct (Rlt_dec x 0); [lra|]. destruct (Rle_dec 1 x); [lra|]. field. Qed.

(** ** exponential *)
Section Exponential.
Variable mu : R.
Hypothesis Hmu : 0 < mu.
Definition expo_q u := - mu * ln (1 - u).
Lemma expo_range x : 0 <= expo_cdf mu x <= 1.
Proof.
  unfold expo_cdf. destruct (Rle_dec x 0); [lra|]. pose proof (exp_pos (- x / mu)).
  assert (exp (- x / mu) <= 1); [|lra]. apply exp_le_1. apply div_le_iff; lra.
Qed.
Lemma expo_galois u x : 0 < u < 1 -> expo_q u <= x <-> u <= expo_cdf mu x.
Proof.
  intros Hu. unfold expo_q, expo_cdf. pose proof (ln_neg (1 - u) ltac:(lra)).
  destruct (Rle_dec x 0); [split; intros; [nra|lra]|].
  transitivity (- x / mu <= ln (1 - u)).
  - rewrite div_le_iff by lra. split; intros; lra.
  - rewrite le_ln_exp by lra. lra.
Qed.
Lemma expo_inv u : 0 < u < 1 -> expo_cdf mu (expo_q u) = u.
Proof.
  intros Hu. unfold expo_q, expo_cdf. pose proof (ln_neg (1 - u) ltac:(lra)).
  destruct (Rle_dec _ 0); [nra|].
  replace (- (- mu * ln (1 - u)) / mu) with (ln (1 - u)) by (field; lra). rewrite exp_ln; lra.
Qed.
Lemma expo_deriv x : x <> 0 -> derivable_pt_lim (expo_cdf mu) x (expo_pdf mu x).
Proof.
  intros H0. unfold expo_pdf. destruct (Rlt_dec x 0).
  - apply deriv_lt with (fun _ => 0) 0; [lra| |apply derivable_pt_lim_const].
    intros y Hy. unfold expo_cdf. destruct (Rle_dec y 0); lra.
  - apply deriv_gt with (fun y => 1 - exp (- y / mu)) 0; [lra| |].
    + intros y Hy. unfold expo_cdf. destruct (Rle_dec y 0); lra.
    + apply is_derive_Reals. auto_derive; [trivial|unfold Rdiv; field; lra].
Qed.
End Exponential.

(** ** two-sided exponential *)
Section Twosided.
Variable mu : R.
Hypothesis Hmu : 0 < mu.
Definition two_q u := if Rlt_dec u (1 / 2) then mu * ln (2 * u) else - mu * ln (2 - 2 * u).
Lemma two_range x : 0 <= two_cdf mu x <= 1.
Proof.
  unfold two_cdf. destruct (Rle_dec x 0).
  - pose proof (exp_pos (x / mu)). assert (exp (x / mu) <= 1); [|lra]. apply exp_le_1. apply div_le_iff; lra.
  - pose proof (exp_pos (- x / mu)). assert (exp (- x / mu) <= 1); [|lra]. apply exp_le_1. apply div_le_iff; lra.
Qed.
Lemma two_galois u x : 0 < u < 1 -> two_q u <= x <-> u <= two_cdf mu x.
Proof.
  intros Hu. unfold two_q, two_cdf. destruct (Rlt_dec u (1 / 2)) as [H|H].
  - pose proof (ln_neg (2 * u) ltac:(lra)). destruct (Rle_dec x 0).
    + transitivity (ln (2 * u) <= x / mu).
      * rewrite le_div_iff by lra. split; intros; lra.
      * rewrite ln_le_exp by lra. lra.
    + assert (exp (- x / mu) <= 1) by (apply exp_le_1; apply div_le_iff; lra).
      split; intros; [lra|]. nra.
  - assert (Hl : ln (2 - 2 * u) <= 0).
    { destruct (Req_EM_T u (1 / 2)) as [->|Hn]; [replace (2 - 2 * (1 / 2)) with 1 by lra; rewrite ln_1; lra|].
      left. apply ln_neg. lra. }
    destruct (Rle_dec x 0) as [Hx|Hx].
    + destruct (Req_EM_T u (1 / 2)) as [->|Hn].
      * replace (2 - 2 * (1 / 2)) with 1 by lra. rewrite ln_1.
        destruct (Req_EM_T x 0) as [->|Hx0].
        -- replace (0 / mu) with 0 by (field; lra). rewrite exp_0. lra.
        -- assert (exp (x / mu) < 1).
           { rewrite <- exp_0. apply exp_increasing. apply Rmult_lt_reg_r with mu; [lra|].
             unfold Rdiv. rewrite Rmult_assoc, Rinv_l; lra. }
           split; intros; lra.
      * pose proof (ln_neg (2 - 2 * u) ltac:(lra)).
        assert (exp (x / mu) <= 1) by (apply exp_le_1; apply div_le_iff; lra).
        split; intros; [nra|lra].
    + transitivity (- x / mu <= ln (2 - 2 * u)).
      * rewrite div_le_iff by lra. split; intros; lra.
      * rewrite le_ln_exp by lra. lra.
Qed.
Lemma two_inv u : 0 < u < 1 -> two_cdf mu (two_q u) = u.
Proof.
  intros Hu. unfold two_q, two_cdf. destruct (Rlt_dec u (1 / 2)) as [H|H].
  - pose proof (ln_neg (2 * u) ltac:(lra)). destruct (Rle_dec _ 0); [|nra].
    replace (mu * ln (2 * u) / mu) with (ln (2 * u)) by (field; lra). rewrite exp_ln; lra.
  - destruct (Req_EM_T u (1 / 2)) as [->|Hn].
    + replace (2 - 2 * (1 / 2)) with 1 by lra. rewrite ln_1, Rmult_0_r.
      destruct (Rle_dec 0 0); [|lra]. replace (0 / mu) with 0 by (field; lra). rewrite exp_0. lra.
    + pose proof (ln_neg (2 - 2 * u) ltac:(lra)). destruct (Rle_dec _ 0); [nra|].
      replace (- (- mu * ln (2 - 2 * u)) / mu) with (ln (2 - 2 * u)) by (field; lra). rewrite exp_ln; lra.
Qed.
Lemma two_deriv x : derivable_pt_lim (two_cdf mu) x (two_pdf mu x).
Proof.
  assert (Dl : forall y, derivable_pt_lim (fun y => exp (y / mu) / 2) y (exp (y / mu) / (2 * mu))).
  { intros y. apply is_derive_Reals. auto_derive; [trivial|]. unfold Rdiv. field. lra. }
  assert (Dr : forall y, derivable_pt_lim (fun y => 1 - exp (- y / mu) / 2) y (exp (- y / mu) / (2 * mu))).
  { intros y. apply is_derive_Reals. auto_derive; [trivial|]. unfold Rdiv. field. lra. }
  unfold two_pdf. destruct (Rtotal_order x 0) as [H|[->|H]].
  - rewrite Rabs_left by lra. rewrite Ropp_involutive.
    apply deriv_lt with (fun y => exp (y / mu) / 2) 0; [lra| |apply Dl].
    intros y Hy. unfold two_cdf. destruct (Rle_dec y 0); lra.
  - rewrite Rabs_R0. apply deriv_glue with (fun y => exp (y / mu) / 2) (fun y => 1 - exp (- y / mu) / 2) (-1) 1.
    + lra.
    + intros y Hy. unfold two_cdf. destruct (Rle_dec y 0); lra.
    + intros y Hy. unfold two_cdf. destruct (Rle_dec y 0); [|reflexivity].
      replace y with 0 by lra. replace (- 0) with 0 by lra. replace (0 / mu) with 0 by (field; lra).
      rewrite exp_0. lra.
    + specialize (Dl 0). replace (- 0) with 0 by lra. exact Dl.
    + apply Dr.
  - rewrite Rabs_right by lra.
    apply deriv_gt with (fun y => 1 - exp (- y / mu) / 2) 0; [lra| |apply Dr].
    intros y Hy. unfold two_cdf. destruct (Rle_dec y 0); lra.
Qed.
End Twosided.

(** ** Pareto and power law *)
Lemma Rpower_pos x y : 0 < Rpower x y.
Proof. apply exp_pos. Qed.
Lemma Rpower_neg_le_1 x g : 1 <= x -> 0 < g -> Rpower x (- g) <= 1.
Proof.
  intros Hx Hg. unfold Rpower. apply exp_le_1.
  assert (0 <= ln x); [|nra]. destruct (Req_EM_T x 1) as [->|]; [rewrite ln_1; lra|].
  rewrite <- ln_1. left. apply ln_increasing; lra.
Qed.
(** (1 - u)^(-1/g) <= t  iff  u <= 1 - t^(-g) *)
Lemma Rpower_galois g u t : 0 < g -> 0 < u < 1 -> 0 < t ->
  Rpower (1 - u) (- 1 / g) <= t <-> u <= 1 - Rpower t (- g).
Proof.
  intros Hg Hu Ht. unfold Rpower.
  rewrite <- le_ln_exp by assumption.
  transitivity (- g * ln t <= ln (1 - u)).
  - replace (- 1 / g * ln (1 - u)) with ((- ln (1 - u)) / g) by (field; lra).
    rewrite div_le_iff by lra. split; intros; lra.
  - rewrite le_ln_exp by lra. lra.
Qed.
Lemma Rpower_gt_1 g u : 0 < g -> 0 < u < 1 -> 1 < Rpower (1 - u) (- 1 / g).
Proof.
  intros Hg Hu. unfold Rpower. rewrite <- exp_0 at 1. apply exp_increasing.
  pose proof (ln_neg (1 - u) ltac:(lra)).
  replace (- 1 / g * ln (1 - u)) with ((- ln (1 - u)) / g) by (field; lra). apply div_pos; lra.
Qed.
Lemma Rpower_inv g u : 0 < g -> 0 < u < 1 -> Rpower (Rpower (1 - u) (- 1 / g)) (- g) = 1 - u.
Proof.
  intros Hg Hu. rewrite Rpower_mult. replace (- 1 / g * - g) with 1 by (field; lra). apply Rpower_1. lra.
Qed.

Section Pareto.
Variables gamma theta : R.
Hypothesis Hg : 0 < gamma.
Hypothesis Ht : 0 < theta.
Definition par_q u := (Rpower (1 - u) (- 1 / gamma) - 1) * theta.
Lemma par_range x : 0 <= par_cdf gamma theta x <= 1.
Proof.
  unfold par_cdf. destruct (Rle_dec x 0); [lra|].
  pose proof (div_pos x theta ltac:(lra) Ht). pose proof (Rpower_pos (1 + x / theta) (- gamma)).
  pose proof (Rpower_neg_le_1 (1 + x / theta) gamma ltac:(lra) Hg). lra.
Qed.
Lemma par_galois u x : 0 < u < 1 -> par_q u <= x <-> u <= par_cdf gamma theta x.
Proof.
  intros Hu. unfold par_q, par_cdf. pose proof (Rpower_gt_1 gamma u Hg Hu).
  destruct (Rle_dec x 0); [split; intros; [nra|lra]|].
  pose proof (div_pos x theta ltac:(lra) Ht).
  rewrite <- Rpower_galois by (assumption || lra).
  transitivity (Rpower (1 - u) (- 1 / gamma) - 1 <= x / theta); [rewrite le_div_iff by lra; reflexivity|lra].
Qed.
Lemma par_inv u : 0 < u < 1 -> par_cdf gamma theta (par_q u) = u.
Proof.
  intros Hu. unfold par_q, par_cdf. pose proof (Rpower_gt_1 gamma u Hg Hu).
  destruct (Rle_dec _ 0); [nra|].
  replace (1 + (Rpower (1 - u) (- 1 / gamma) - 1) * theta / theta) with (Rpower (1 - u) (- 1 / gamma)) by (field; lra).
  rewrite Rpower_inv by assumption. lra.
Qed.
Lemma par_deriv x : x <> 0 -> derivable_pt_lim (par_cdf gamma theta) x (par_pdf gamma theta x).
Proof.
  intros H0. unfold par_pdf. destruct (Rlt_dec x 0).
  - apply deriv_lt with (fun _ => 0) 0; [lra| |apply derivable_pt_lim_const].
    intros y Hy. unfold par_cdf. destruct (Rle_dec y 0); lra.
  - pose proof (div_pos x theta ltac:(lra) Ht).
    apply deriv_gt with (fun y => 1 - exp (- gamma * ln (1 + y / theta))) 0; [lra| |].
    + intros y Hy. unfold par_cdf, Rpower. destruct (Rle_dec y 0); lra.
    + apply is_derive_Reals. auto_derive; [unfold Rdiv in *; lra|].
      replace (- gamma - 1) with (- gamma + - (1)) by ring.
      rewrite Rpower_plus, (Rpower_Ropp _ 1), (Rpower_1 (1 + x / theta)) by lra.
      unfold Rpower, Rdiv. field. split; [lra|]. unfold Rdiv in *. nra.
Qed.
End Pareto.

Section Powerlaw.
Variables gamma theta : R.
Hypothesis Hg : 0 < gamma.
Hypothesis Ht : 0 < theta.
Definition pow_q u := theta * Rpower (1 - u) (- 1 / gamma).
Lemma pow_range x : theta <= x -> 0 <= pow_cdf gamma theta x <= 1.
Proof.
  intros Hx. unfold pow_cdf. destruct (Rle_dec x 0); [lra|].
  assert (1 <= x / theta) by (apply le_div_iff; lra). pose proof (Rpower_pos (x / theta) (- gamma)).
  pose proof (Rpower_neg_le_1 (x / theta) gamma ltac:(lra) Hg). lra.
Qed.
Lemma pow_galois u x : 0 < u < 1 -> pow_q u <= x <-> u <= pow_cdf gamma theta x.
Proof.
  intros Hu. unfold pow_q, pow_cdf. pose proof (Rpower_gt_1 gamma u Hg Hu).
  destruct (Rle_dec x 0); [split; intros; [nra|lra]|].
  pose proof (div_pos x theta ltac:(lra) Ht).
  rewrite <- Rpower_galois by (assumption || lra).
  rewrite le_div_iff by lra. rewrite (Rmult_comm theta). reflexivity.
Qed.
Lemma pow_inv u : 0 < u < 1 -> pow_cdf gamma theta (pow_q u) = u.
Proof.
  intros Hu. unfold pow_q, pow_cdf. pose proof (Rpower_gt_1 gamma u Hg Hu).
  destruct (Rle_dec _ 0); [nra|].
  replace (theta * Rpower (1 - u) (- 1 / gamma) / theta) with (Rpower (1 - u) (- 1 / gamma)) by (field; lra).
  rewrite Rpower_inv by assumption. lra.
Qed.
Lemma pow_deriv x : theta < x -> derivable_pt_lim (pow_cdf gamma theta) x (pow_pdf gamma theta x).
Proof.
  intros H0. unfold pow_pdf. destruct (Rlt_dec x theta); [lra|].
  pose proof (div_pos x theta ltac:(lra) Ht).
  apply deriv_gt with (fun y => 1 - exp (- gamma * ln (y / theta))) 0; [lra| |].
  - intros y Hy. unfold pow_cdf, Rpower. destruct (Rle_dec y 0); lra.
  - apply is_derive_Reals. auto_derive; [unfold Rdiv in *; lra|].
    replace (- gamma - 1) with (- gamma + - (1)) by ring.
    rewrite Rpower_plus, (Rpower_Ropp _ 1), (Rpower_1 (x / theta)) by lra.
    unfold Rpower, Rdiv. field. lra.
Qed.
End Powerlaw.

(** ** logistic *)
Section Logistic.
Variables theta eta : R.
Hypothesis Ht : 0 < theta.
Definition log_q u := log_icdf_ theta eta u.
Lemma log_cdf_eq x : log_cdf theta eta x = 1 / (1 + exp (- ((x - eta) / theta))).
Proof.
  unfold log_cdf. cbv zeta. destruct (Rle_dec eta x).
  - rewrite Rabs_right; [reflexivity|]. apply Rle_ge. apply le_div_iff; lra.
  - rewrite Rabs_left.
    + rewrite Ropp_involutive. set (t := (x - eta) / theta). rewrite (exp_Ropp t).
      pose proof (exp_pos t). field. lra.
    + apply Rmult_lt_reg_r with theta; [lra|]. unfold Rdiv. rewrite Rmult_assoc, Rinv_l; lra.
Qed.
Lemma log_range x : 0 <= log_cdf theta eta x <= 1.
Proof.
  rewrite log_cdf_eq. pose proof (exp_pos (- ((x - eta) / theta))).
  split; [left; apply div_pos; lra|apply div_le_iff; lra].
Qed.
Lemma log_galois u x : 0 < u < 1 -> log_q u <= x <-> u <= log_cdf theta eta x.
Proof.
  intros Hu. unfold log_q, log_icdf_. rewrite log_cdf_eq.
  pose proof (exp_pos (- ((x - eta) / theta))).
  rewrite le_div_iff by lra.
  transitivity (- ((x - eta) / theta) <= ln ((1 - u) / u)).
  - transitivity (- ln ((1 - u) / u) <= (x - eta) / theta); [rewrite le_div_iff by lra; split; intros; lra|].
    split; intros; lra.
  - rewrite le_ln_exp by (apply div_pos; lra). rewrite le_div_iff by lra. split; intros; lra.
Qed.
Lemma log_inv u : 0 < u < 1 -> log_cdf theta eta (log_q u) = u.
Proof.
  intros Hu. rewrite log_cdf_eq. unfold log_q, log_icdf_.
  replace (- ((eta - ln ((1 - u) / u) * theta - eta) / theta)) with (ln ((1 - u) / u)) by (field; lra).
  rewrite exp_ln by (apply div_pos; lra). field. lra.
Qed.
Lemma log_deriv x : derivable_pt_lim (log_cdf theta eta) x (log_pdf theta eta x).
Proof.
  apply is_derive_Reals.
  apply is_derive_ext with (fun x => 1 / (1 + exp (- ((x - eta) / theta)))).
  { intros t. now rewrite log_cdf_eq. }
  pose proof (exp_pos (- ((x - eta) / theta))) as Hp.
  auto_derive; [unfold Rdiv, Rminus in *; lra|].
  unfold log_pdf. cbv zeta. change (x + - eta) with (x - eta). fold ((x - eta) / theta).
  set (t := (x - eta) / theta) in *.
  unfold Rabs. destruct (Rcase_abs t) as [Hc|Hc].
  - rewrite Ropp_involutive. rewrite exp_Ropp. pose proof (exp_pos t). field.
    repeat split; try lra; apply Rgt_not_eq; lra.
  - field. repeat split; lra.
Qed.
End Logistic.

(** ** tent *)
Section Tent.
Variables m d : R.
Hypothesis Hd : 0 < d.
Definition tent_q u := tent_icdf_ m d u.
Lemma tent_range x : 0 <= tent_cdf m d x <= 1.
Proof.
  unfold tent_cdf. cbv zeta. set (y := x - m). destruct (Rle_dec y (- d)); [lra|].
  assert (H2 : 0 < 2 * d * d) by nra.
  destruct (Rle_dec y 0).
  - split; [apply le_div_iff; nra|apply div_le_iff; nra].
  - destruct (Rlt_dec y d); [|lra].
    assert (0 <= (y - d) * (y - d) / (2 * d * d) <= 1); [|lra].
    split; [apply le_div_iff; nra|apply div_le_iff; nra].
Qed.
Lemma sqrt_le_iff a b : 0 <= b -> 0 <= a -> (sqrt a <= b <-> a <= b * b).
Proof.
  intros Hb Ha. split; intros H.
  - rewrite <- (sqrt_sqrt a Ha). pose proof (sqrt_pos a). nra.
  - rewrite <- (sqrt_square b Hb). now apply sqrt_le_1_alt.
Qed.
Lemma le_sqrt_iff a b : 0 <= b -> 0 <= a -> (b <= sqrt a <-> b * b <= a).
Proof.
  intros Hb Ha. split; intros H.
  - rewrite <- (sqrt_sqrt a Ha). pose proof (sqrt_pos a). nra.
  - rewrite <- (sqrt_square b Hb). now apply sqrt_le_1_alt.
Qed.
Lemma tent_galois u x : 0 < u < 1 -> tent_q u <= x <-> u <= tent_cdf m d x.
Proof.
  intros Hu. unfold tent_q, tent_icdf_, tent_cdf. cbv zeta. set (y := x - m).
  replace x with (y + m) by (unfold y; ring). clearbody y. clear x.
  assert (H2 : 0 < 2 * d * d) by nra.
  destruct (Rlt_dec u (1 / 2)) as [H|H].
  - assert (Hs : 0 < sqrt (2 * u)) by (apply sqrt_lt_R0; lra).
    assert (Hs1 : sqrt (2 * u) < 1) by (rewrite <- sqrt_1; apply sqrt_lt_1_alt; lra).
    destruct (Rle_dec y (- d)); [split; intros; [nra|lra]|].
    assert (Hyd : 0 <= (y + d) / d) by (apply le_div_iff; lra).
    destruct (Rle_dec y 0).
    + transitivity (sqrt (2 * u) <= (y + d) / d).
      { rewrite le_div_iff by lra. split; intros; lra. }
      rewrite sqrt_le_iff by lra.
      replace ((y + d) * (y + d) / (2 * d * d)) with ((y + d) / d * ((y + d) / d) / 2) by (field; lra). lra.
    + split; intros _; [|nra]. destruct (Rlt_dec y d); [|lra].
      assert ((y - d) * (y - d) / (2 * d * d) <= 1 / 2); [|lra]. apply div_le_iff; nra.
  - assert (Hs : 0 < sqrt (2 - 2 * u)) by (apply sqrt_lt_R0; lra).
    assert (Hs1 : sqrt (2 - 2 * u) <= 1) by (rewrite <- sqrt_1; apply sqrt_le_1_alt; lra).
    destruct (Rle_dec y (- d)); [split; intros; [nra|lra]|].
    destruct (Rle_dec y 0).
    + destruct (Req_EM_T u (1 / 2)) as [->|Hn].
      * replace (2 - 2 * (1 / 2)) with 1 by lra. rewrite sqrt_1.
        rewrite le_div_iff by lra. split; intros; [assert (y = 0) by nra; subst; nra|nra].
      * assert (sqrt (2 - 2 * u) < 1) by (rewrite <- sqrt_1; apply sqrt_lt_1_alt; lra).
        split; intros Hc; [nra|]. apply le_div_iff in Hc; nra.
    + destruct (Rlt_dec y d).
      * assert (Hyd : 0 <= (d - y) / d) by (apply le_div_iff; lra).
        transitivity ((d - y) / d <= sqrt (2 - 2 * u)).
        { rewrite div_le_iff by lra. split; intros; lra. }
        rewrite le_sqrt_iff by lra.
        replace ((y - d) * (y - d) / (2 * d * d)) with ((d - y) / d * ((d - y) / d) / 2) by (field; lra).
        split; intros; lra.
      * split; intros; [lra|nra].
Qed.
Lemma tent_inv u : 0 < u < 1 -> tent_cdf m d (tent_q u) = u.
Proof.
  intros Hu. unfold tent_q, tent_icdf_, tent_cdf. cbv zeta. destruct (Rlt_dec u (1 / 2)) as [H|H].
  - assert (Hs : 0 < sqrt (2 * u)) by (apply sqrt_lt_R0; lra).
    assert (Hs1 : sqrt (2 * u) < 1) by (rewrite <- sqrt_1; apply sqrt_lt_1_alt; lra).
    replace ((- 1 + sqrt (2 * u)) * d + m - m) with ((- 1 + sqrt (2 * u)) * d) by ring.
    destruct (Rle_dec _ (- d)); [nra|]. destruct (Rle_dec _ 0); [|nra].
    replace ((((- 1 + sqrt (2 * u)) * d + d) * ((- 1 + sqrt (2 * u)) * d + d)) / (2 * d * d))
      with (sqrt (2 * u) * sqrt (2 * u) / 2) by (field; lra).
    rewrite sqrt_sqrt; lra.
  - assert (Hs : 0 < sqrt (2 - 2 * u)) by (apply sqrt_lt_R0; lra).
    assert (Hs1 : sqrt (2 - 2 * u) <= 1) by (rewrite <- sqrt_1; apply sqrt_le_1_alt; lra).
    replace ((1 - sqrt (2 - 2 * u)) * d + m - m) with ((1 - sqrt (2 - 2 * u)) * d) by ring.
    destruct (Rle_dec _ (- d)); [nra|]. destruct (Rle_dec _ 0).
    + assert (E : sqrt (2 - 2 * u) = 1) by nra. rewrite E.
      pose proof (sqrt_sqrt (2 - 2 * u) ltac:(lra)) as Es. rewrite E in Es.
      replace (((1 - 1) * d + d) * ((1 - 1) * d + d) / (2 * d * d)) with (1 / 2) by (field; lra). lra.
    + destruct (Rlt_dec _ d); [|nra].
      replace (((1 - sqrt (2 - 2 * u)) * d - d) * ((1 - sqrt (2 - 2 * u)) * d - d) / (2 * d * d))
        with (sqrt (2 - 2 * u) * sqrt (2 - 2 * u) / 2) by (field; lra).
      rewrite sqrt_sqrt; lra.
Qed.
Lemma tent_deriv x : derivable_pt_lim (tent_cdf m d) x (tent_pdf m d x).
Proof.
  set (f1 := fun x => (x - m + d) * (x - m + d) / (2 * d * d)).
  set (f2 := fun x => 1 - (x - m - d) * (x - m - d) / (2 * d * d)).
  assert (D1 : forall x, derivable_pt_lim f1 x ((1 + (x - m) / d) / d)).
  { intros y. apply is_derive_Reals. unfold f1. auto_derive; [nra|field; lra]. }
  assert (D2 : forall x, derivable_pt_lim f2 x ((1 - (x - m) / d) / d)).
  { intros y. apply is_derive_Reals. unfold f2. auto_derive; [nra|field; lra]. }
  assert (E1 : forall y, m - d <= y <= m -> tent_cdf m d y = f1 y).
  { intros y Hy. unfold tent_cdf, f1. cbv zeta. destruct (Rle_dec (y - m) (- d)).
    - replace y with (m - d) by lra. field. lra.
    - destruct (Rle_dec (y - m) 0); [reflexivity|lra]. }
  assert (E2 : forall y, m <= y <= m + d -> tent_cdf m d y = f2 y).
  { intros y Hy. unfold tent_cdf, f2. cbv zeta. destruct (Rle_dec (y - m) (- d)); [lra|].
    destruct (Rle_dec (y - m) 0).
    - replace y with m by lra. field. lra.
    - destruct (Rlt_dec (y - m) d); [reflexivity|]. replace y with (m + d) by lra. field. lra. }
  assert (E0 : forall y, y <= m - d -> tent_cdf m d y = 0).
  { intros y Hy. unfold tent_cdf. cbv zeta. destruct (Rle_dec (y - m) (- d)); lra. }
  assert (E3 : forall y, m + d <= y -> tent_cdf m d y = 1).
  { intros y Hy. unfold tent_cdf. cbv zeta. destruct (Rle_dec (y - m) (- d)); [lra|].
    destruct (Rle_dec (y - m) 0); [lra|]. destruct (Rlt_dec (y - m) d); [lra|reflexivity]. }
  unfold tent_pdf. cbv zeta.
  destruct (Rle_dec (x - m) (- d)) as [H0|H0].
  - destruct (Req_EM_T x (m - d)) as [->|Hn].
    + apply deriv_glue with (fun _ => 0) f1 (m - d - 1) m; [lra|intros; apply E0; lra|intros; apply E1; lra| |].
      * apply derivable_pt_lim_const.
      * replace 0 with ((1 + (m - d - m) / d) / d) by (field; lra). apply D1.
    + apply deriv_lt with (fun _ => 0) (m - d); [lra|intros; apply E0; lra|apply derivable_pt_lim_const].
  - destruct (Rle_dec d (x - m)) as [H3|H3].
    + destruct (Req_EM_T x (m + d)) as [->|Hn].
      * apply deriv_glue with f2 (fun _ => 1) m (m + d + 1); [lra|intros; apply E2; lra|intros; apply E3; lra| |].
        -- replace 0 with ((1 - (m + d - m) / d) / d) by (field; lra). apply D2.
        -- apply derivable_pt_lim_const.
      * apply deriv_gt with (fun _ => 1) (m + d); [lra|intros; apply E3; lra|apply derivable_pt_lim_const].
    + destruct (Rlt_dec (x - m) 0).
      * apply deriv_between with f1 (m - d) m; [lra|intros; apply E1; lra|apply D1].
      * destruct (Req_EM_T x m) as [->|Hn].
        -- apply deriv_glue with f1 f2 (m - d) (m + d); [lra|intros; apply E1; lra|intros; apply E2; lra| |apply D2].
           replace ((1 - (m - m) / d) / d) with ((1 + (m - m) / d) / d) by (field; lra). apply D1.
        -- apply deriv_between with f2 m (m + d); [lra|intros; apply E2; lra|apply D2].
Qed.
End Tent.

(** ** Cauchy *)
Section Cauchy.
Variables theta eta : R.
Hypothesis Ht : 0 < theta.
Definition cau_q u := cau_icdf_ theta eta u.
Lemma cau_range x : 0 <= cau_cdf theta eta x <= 1.
Proof.
  unfold cau_cdf. cbv zeta. set (t := (x - eta) / theta). pose proof (atan_bound t). pose proof PI_RGT_0.
  assert (- (1 / 2) <= 1 / PI * atan t <= 1 / 2); [|lra].
  replace (1 / PI * atan t) with (atan t / PI) by (field; lra).
  split; [apply le_div_iff; lra|apply div_le_iff; lra].
Qed.
Lemma cau_cot u : 0 < u < 1 -> - (cos (u * PI) / sin (u * PI)) = tan (u * PI - PI / 2).
Proof.
  intros Hu. pose proof PI_RGT_0.
  assert (0 < sin (u * PI)) by (apply sin_gt_0; nra).
  unfold tan. rewrite sin_minus, cos_minus, cos_PI2, sin_PI2. field. lra.
Qed.
Lemma cau_q_eq u : 0 < u < 1 -> cau_q u = eta + theta * tan (u * PI - PI / 2).
Proof. intros Hu. rewrite <- cau_cot by assumption. unfold cau_q, cau_icdf_. cbv zeta. unfold Rdiv. ring. Qed.
Lemma cau_angle u : 0 < u < 1 -> - PI / 2 < u * PI - PI / 2 < PI / 2.
Proof. intros Hu. pose proof PI_RGT_0. nra. Qed.
Lemma atan_tan' x : - PI / 2 < x < PI / 2 -> atan (tan x) = x.
Proof. intros H. apply atan_tan. lra. Qed.
Lemma atan_le_iff x y : x <= y <-> atan x <= atan y.
Proof.
  split; intros H.
  - destruct H as [H|H]; [left; now apply atan_increasing|right; now f_equal].
  - apply Rnot_lt_le. intros Hc. apply atan_increasing in Hc. lra.
Qed.
Lemma cau_galois u x : 0 < u < 1 -> cau_q u <= x <-> u <= cau_cdf theta eta x.
Proof.
  intros Hu. rewrite cau_q_eq by assumption. unfold cau_cdf. cbv zeta. pose proof PI_RGT_0.
  transitivity (tan (u * PI - PI / 2) <= (x - eta) / theta).
  - rewrite le_div_iff by lra. split; intros; lra.
  - rewrite atan_le_iff, atan_tan' by (now apply cau_angle).
    replace (1 / PI * atan ((x - eta) / theta) + 1 / 2) with ((atan ((x - eta) / theta) + PI / 2) / PI) by (field; lra).
    rewrite le_div_iff by lra. split; intros; lra.
Qed.
Lemma cau_inv u : 0 < u < 1 -> cau_cdf theta eta (cau_q u) = u.
Proof.
  intros Hu. rewrite cau_q_eq by assumption. unfold cau_cdf. cbv zeta. pose proof PI_RGT_0.
  replace ((eta + theta * tan (u * PI - PI / 2) - eta) / theta) with (tan (u * PI - PI / 2)) by (field; lra).
  rewrite atan_tan' by (now apply cau_angle). field. lra.
Qed.
Lemma cau_deriv x : derivable_pt_lim (cau_cdf theta eta) x (cau_pdf theta eta x).
Proof.
  unfold cau_cdf, cau_pdf. cbv zeta. apply is_derive_Reals. pose proof PI_RGT_0.
  auto_derive; [trivial|]. unfold Rdiv, Rminus.
  set (t := (x + - eta) * / theta).
  assert (0 < 1 + t * t) by nra.
  field. split; [lra|]. split; [|lra]. unfold pow. unfold t in *. nra.
Qed.
End Cauchy.

(** ** Weibull *)
Section Weibull.
Variables theta beta : R.
Hypothesis Ht : 0 < theta.
Hypothesis Hb : 0 < beta.
Definition wei_q u := theta * rpow (- ln (1 + - u)) (1 / beta).
Lemma wei_range x : 0 <= wei_cdf theta beta x <= 1.
Proof.
  unfold wei_cdf. cbv zeta. destruct (Rle_dec (x / theta) 0); [lra|].
  pose proof (Rpower_pos (x / theta) beta). pose proof (exp_pos (- Rpower (x / theta) beta)).
  pose proof (exp_neg_lt_1 _ H). lra.
Qed.
Lemma wei_q_eq u : 0 < u < 1 -> wei_q u = theta * Rpower (- ln (1 - u)) (1 / beta) /\ 0 < - ln (1 - u).
Proof.
  intros Hu. unfold wei_q, rpow. change (1 + - u) with (1 - u). pose proof (ln_neg (1 - u) ltac:(lra)).
  destruct (Req_EM_T _ 0); [lra|]. split; [reflexivity|lra].
Qed.
Lemma wei_galois u x : 0 < u < 1 -> wei_q u <= x <-> u <= wei_cdf theta beta x.
Proof.
  intros Hu. destruct (wei_q_eq u Hu) as [-> Hl]. unfold wei_cdf. cbv zeta.
  pose proof (Rpower_pos (- ln (1 - u)) (1 / beta)) as Hp.
  destruct (Rle_dec (x / theta) 0) as [Hx|Hx].
  - apply div_le_iff in Hx; [|lra]. split; intros; [nra|lra].
  - set (y := x / theta) in *.
    transitivity (Rpower (- ln (1 - u)) (1 / beta) <= y).
    { unfold y. rewrite le_div_iff by lra. rewrite (Rmult_comm theta). reflexivity. }
    transitivity (- ln (1 - u) <= Rpower y beta).
    { unfold Rpower. rewrite <- le_ln_exp, <- (ln_le_exp (- ln (1 - u))) by lra.
      replace (1 / beta * ln (- ln (1 - u))) with (ln (- ln (1 - u)) / beta) by (field; lra).
      rewrite div_le_iff by lra. rewrite (Rmult_comm beta). reflexivity. }
    transitivity (- Rpower y beta <= ln (1 - u)); [split; intros; lra|].
    rewrite le_ln_exp by lra. split; intros; lra.
Qed.
Lemma wei_inv u : 0 < u < 1 -> wei_cdf theta beta (wei_q u) = u.
Proof.
  intros Hu. destruct (wei_q_eq u Hu) as [-> Hl]. unfold wei_cdf. cbv zeta.
  pose proof (Rpower_pos (- ln (1 - u)) (1 / beta)) as Hp.
  replace (theta * Rpower (- ln (1 - u)) (1 / beta) / theta) with (Rpower (- ln (1 - u)) (1 / beta)) by (field; lra).
  destruct (Rle_dec _ 0); [lra|].
  rewrite Rpower_mult. replace (1 / beta * beta) with 1 by (field; lra). rewrite Rpower_1 by lra.
  rewrite Ropp_involutive, exp_ln; lra.
Qed.
Lemma wei_deriv x : x <> 0 -> exists l, wei_pdf theta beta x = Fin l /\ derivable_pt_lim (wei_cdf theta beta) x l.
Proof.
  intros H0. unfold wei_pdf. cbv zeta. destruct (Rlt_dec x 0).
  - exists 0. split; [reflexivity|].
    apply deriv_lt with (fun _ => 0) 0; [lra| |apply derivable_pt_lim_const].
    intros y Hy. unfold wei_cdf. cbv zeta. destruct (Rle_dec (y / theta) 0) as [|Hn]; [reflexivity|].
    exfalso. apply Hn. apply div_le_iff; lra.
  - pose proof (div_pos x theta ltac:(lra) Ht) as Hx. destruct (Rlt_dec 0 (x / theta)); [|lra].
    eexists. split; [reflexivity|].
    apply deriv_gt with (fun y => - (exp (- exp (beta * ln (y / theta))) - 1)) 0; [lra| |].
    + intros y Hy. unfold wei_cdf, Rpower. cbv zeta. destruct (Rle_dec (y / theta) 0); [|reflexivity].
      pose proof (div_pos y theta Hy Ht). lra.
    + apply is_derive_Reals. auto_derive; [unfold Rdiv in *; lra|]. unfold Rpower, Rdiv. field. lra.
Qed.
End Weibull.

(** ** Rayleigh *)
Section Rayleigh.
Variable nu : R.
Hypothesis Hn : 0 < nu.
Definition ray_q u := nu * sqrt (- 2 * ln (1 - u)).
Lemma ray_exp x : - x * x / (2 * nu * nu) <= 0.
Proof. apply div_le_iff; nra. Qed.
Lemma ray_range x : 0 <= ray_cdf nu x <= 1.
Proof.
  unfold ray_cdf. destruct (Rle_dec x 0); [lra|].
  pose proof (exp_pos (- x * x / (2 * nu * nu))). pose proof (exp_le_1 _ (ray_exp x)). lra.
Qed.
Lemma ray_galois u x : 0 < u < 1 -> ray_q u <= x <-> u <= ray_cdf nu x.
Proof.
  intros Hu. unfold ray_q, ray_cdf. pose proof (ln_neg (1 - u) ltac:(lra)).
  assert (Hs : 0 < sqrt (- 2 * ln (1 - u))) by (apply sqrt_lt_R0; lra).
  destruct (Rle_dec x 0); [split; intros; [nra|lra]|].
  assert (Hx : 0 <= x / nu) by (apply le_div_iff; lra).
  transitivity (sqrt (- 2 * ln (1 - u)) <= x / nu).
  { rewrite le_div_iff by lra. rewrite (Rmult_comm nu). reflexivity. }
  rewrite sqrt_le_iff by lra.
  replace (x / nu * (x / nu)) with (- 2 * (- x * x / (2 * nu * nu))) by (field; lra).
  transitivity (- x * x / (2 * nu * nu) <= ln (1 - u)); [split; intros; lra|].
  rewrite le_ln_exp by lra. split; intros; lra.
Qed.
Lemma ray_inv u : 0 < u < 1 -> ray_cdf nu (ray_q u) = u.
Proof.
  intros Hu. unfold ray_q, ray_cdf. pose proof (ln_neg (1 - u) ltac:(lra)).
  assert (Hs : 0 < sqrt (- 2 * ln (1 - u))) by (apply sqrt_lt_R0; lra).
  destruct (Rle_dec _ 0); [nra|].
  replace (- (nu * sqrt (- 2 * ln (1 - u))) * (nu * sqrt (- 2 * ln (1 - u))) / (2 * nu * nu))
    with (- (sqrt (- 2 * ln (1 - u)) * sqrt (- 2 * ln (1 - u))) / 2) by (field; lra).
  rewrite sqrt_sqrt by lra. replace (- (- 2 * ln (1 - u)) / 2) with (ln (1 - u)) by field. rewrite exp_ln; lra.
Qed.
Lemma ray_deriv x : derivable_pt_lim (ray_cdf nu) x (ray_pdf nu x).
Proof.
  set (f := fun y => 1 - exp (- y * y / (2 * nu * nu))).
  assert (D : forall y, derivable_pt_lim f y (y / (nu * nu) * exp (- (y / (nu * nu)) * y / 2))).
  { intros y. unfold f. apply is_derive_Reals. auto_derive; [trivial|].
    replace (- (y / (nu * nu)) * y / 2) with (- y * y * / (2 * nu * nu)) by (field; lra). field. lra. }
  unfold ray_pdf. cbv zeta. destruct (Rle_dec x 0) as [H|H].
  - destruct (Req_EM_T x 0) as [->|H0].
    + apply deriv_glue with (fun _ => 0) f (-1) 1; [lra| | | |].
      * intros y Hy. unfold ray_cdf. destruct (Rle_dec y 0); lra.
      * intros y Hy. unfold ray_cdf, f. destruct (Rle_dec y 0); [|reflexivity].
        replace y with 0 by lra. replace (- 0 * 0 / (2 * nu * nu)) with 0 by (field; lra). rewrite exp_0. lra.
      * apply derivable_pt_lim_const.
      * specialize (D 0). replace (0 / (nu * nu)) with 0 in D by (field; lra). rewrite Rmult_0_l in D. exact D.
    + apply deriv_lt with (fun _ => 0) 0; [lra| |apply derivable_pt_lim_const].
      intros y Hy. unfold ray_cdf. destruct (Rle_dec y 0); lra.
  - apply deriv_gt with f 0; [lra| |apply D].
    intros y Hy. unfold ray_cdf, f. destruct (Rle_dec y 0); lra.
Qed.
End Rayleigh.

(** ** extreme value *)
Section Extreme.
Variables theta eta : R.
Hypothesis Ht : 0 < theta.
Definition ext_q u := eta + theta * ln (- ln (1 - u)).
Lemma ext_range x : 0 <= ext_cdf theta eta x <= 1.
Proof.
  unfold ext_cdf. cbv zeta. set (t := (x - eta) / theta).
  pose proof (exp_pos (- exp t)). pose proof (exp_neg_lt_1 _ (exp_pos t)). lra.
Qed.
Lemma ext_galois u x : 0 < u < 1 -> ext_q u <= x <-> u <= ext_cdf theta eta x.
Proof.
  intros Hu. unfold ext_q, ext_cdf. cbv zeta. pose proof (ln_neg (1 - u) ltac:(lra)).
  transitivity (ln (- ln (1 - u)) <= (x - eta) / theta).
  { rewrite le_div_iff by lra. split; intros; lra. }
  rewrite ln_le_exp by lra.
  transitivity (- exp ((x - eta) / theta) <= ln (1 - u)); [split; intros; lra|].
  rewrite le_ln_exp by lra. split; intros; lra.
Qed.
Lemma ext_inv u : 0 < u < 1 -> ext_cdf theta eta (ext_q u) = u.
Proof.
  intros Hu. unfold ext_q, ext_cdf. cbv zeta. pose proof (ln_neg (1 - u) ltac:(lra)).
  replace ((eta + theta * ln (- ln (1 - u)) - eta) / theta) with (ln (- ln (1 - u))) by (field; lra).
  rewrite exp_ln by lra. rewrite Ropp_involutive, exp_ln; lra.
Qed.
Lemma ext_deriv x : derivable_pt_lim (ext_cdf theta eta) x (ext_pdf theta eta x).
Proof.
  unfold ext_cdf, ext_pdf. cbv zeta. apply is_derive_Reals. auto_derive; [trivial|].
  unfold Rdiv, Rminus. rewrite exp_plus. field. lra.
Qed.
End Extreme.
