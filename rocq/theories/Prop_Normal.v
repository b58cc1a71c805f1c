(** C68-C71: the normal distribution function and the distributions built on it, in exact arithmetic. *)
From Coq Require Import Reals Lra Psatz.
From Coquelicot Require Import Coquelicot.
From Verif Require Import ContModel ContProofs Prop_Continuous GaussInt NormModel NormProofs.
Local Open Scope R_scope.

(** ** Specification *)

(** the density of the standard normal distribution *)
Definition standard_density (t : R) : R := exp (- (t * t) / 2) / sqrt (2 * PI).

(** inv is the exact inverse of Phi on (0,1); such a function exists, see [C68_inverse_exists] *)
Definition exact_inverse (inv : R -> R) : Prop := forall u, 0 < u < 1 -> Phi (inv u) = u.

(** ** C68: Phi *)

(** Phi x is the integral of the density from minus infinity to x *)
Theorem C68_integral : forall x,
  is_lim (fun a => RInt standard_density a x) m_infty (Phi x).
Proof.
  intros x.
  assert (E : forall a, RInt standard_density a x = Phi x - Phi a).
  { intros a. apply is_RInt_unique. apply is_RInt_ext with phi; [|apply Phi_integral].
    intros t _. unfold phi, standard_density. change (1 / sqrt (2 * PI) * exp (- (t * t) / 2) = exp (- (t * t) / 2) / sqrt (2 * PI)).
    field. apply Rgt_not_eq, sqrt_lt_R0. pose proof PI_RGT_0. lra. }
  apply is_lim_spec. intros e. destruct (Phi_limit e (cond_pos e)) as (x0 & H). exists (- x0). intros a Ha.
  rewrite E. destruct (H (- a) ltac:(lra)) as [_ L]. rewrite Ropp_involutive in L. pose proof (Phi_range a).
  replace (Phi x - Phi a - Phi x) with (- Phi a) by ring. rewrite Rabs_Ropp, Rabs_right; lra.
Qed.

(** and the density integrates to 1 *)
Theorem C68_total : forall e, 0 < e -> exists x0, forall a b, a <= - x0 -> x0 <= b ->
  1 - e < RInt standard_density a b < 1.
Proof.
  intros e He. destruct (Phi_limit (e / 2) ltac:(lra)) as (x0 & H). exists x0. intros a b Ha Hb.
  assert (E : RInt standard_density a b = Phi b - Phi a).
  { apply is_RInt_unique. apply is_RInt_ext with phi; [|apply Phi_integral].
    intros t _. unfold phi, standard_density. change (1 / sqrt (2 * PI) * exp (- (t * t) / 2) = exp (- (t * t) / 2) / sqrt (2 * PI)).
    field. apply Rgt_not_eq, sqrt_lt_R0. pose proof PI_RGT_0. lra. }
  rewrite E. destruct (H b Hb) as [L1 _]. destruct (H (- a) ltac:(lra)) as [_ L2]. rewrite Ropp_involutive in L2.
  pose proof (Phi_range a). pose proof (Phi_range b). lra.
Qed.

Theorem C68_derivative : forall x, derivable_pt_lim Phi x (standard_density x).
Proof.
  intros x. apply is_derive_Reals. replace (standard_density x) with (phi x); [apply Phi_deriv|].
  unfold phi, standard_density. field. apply Rgt_not_eq, sqrt_lt_R0. pose proof PI_RGT_0. lra.
Qed.

(** the three branches of the code agree: Phi is symmetric, strictly increasing and inside (0,1) *)
Theorem C68_symmetric : forall x, Phi (- x) = 1 - Phi x.
Proof. exact Phi_opp. Qed.
Theorem C68_increasing : forall x y, x < y -> 0 < Phi x < Phi y /\ Phi y < 1.
Proof. intros x y H. pose proof (Phi_range x). pose proof (Phi_range y). pose proof (Phi_increasing x y H). lra. Qed.
Theorem C68_distribution : distribution_function Phi.
Proof.
  split; [intros x; pose proof (Phi_range x); lra|]. split; [intros x y H; exact (proj1 (Phi_le x y) H)|].
  intros e He. destruct (Phi_limit e He) as (x0 & H). exists (- x0), x0. destruct (H x0 ltac:(lra)). lra.
Qed.
Theorem C68_inverse_exists : exists inv, exact_inverse inv.
Proof. exists Phi_inverse. exact Phi_inverse_ok. Qed.
Theorem C68_inverse_ends : forall inv x,
  inv_Phi inv 0 = NInf /\ inv_Phi inv 1 = PInf /\ (x < 0 \/ 1 < x -> inv_Phi inv x = NaN).
Proof.
  intros inv x. unfold inv_Phi. repeat split.
  - destruct (Rlt_dec 0 0); [lra|]. destruct (Rlt_dec 1 0); [lra|]. destruct (Req_EM_T 0 0); [reflexivity|lra].
  - destruct (Rlt_dec 1 0); [lra|]. destruct (Rlt_dec 1 1); [lra|]. destruct (Req_EM_T 1 0); [lra|].
    destruct (Req_EM_T 1 1); [reflexivity|lra].
  - intros H. destruct (Rlt_dec x 0); [reflexivity|]. destruct (Rlt_dec 1 x); [reflexivity|lra].
Qed.
Example C68_ex : Phi 0 = 1 / 2.
Proof. pose proof (C68_symmetric 0) as H. rewrite Ropp_0 in H. lra. Qed.

(** ** C69: normal_dist *)

Theorem C69_quantile : forall inv mu sigma, exact_inverse inv -> 0 < sigma ->
  quantile_function (norm_cdf mu sigma) (norm_icdf inv mu sigma).
Proof.
  intros inv mu s Hi Hs. apply quantile_from with (norm_q inv mu s); [|now apply norm_inv|now apply norm_galois].
  intros u Hu. unfold norm_icdf. rewrite inv_Phi_in by assumption. reflexivity.
Qed.
Theorem C69_derivative : forall mu sigma x, 0 < sigma ->
  derivable_pt_lim (norm_cdf mu sigma) x (norm_pdf mu sigma x).
Proof. intros mu s x Hs. now apply norm_deriv. Qed.
Theorem C69_distribution : forall mu sigma, 0 < sigma -> distribution_function (norm_cdf mu sigma).
Proof.
  intros mu s Hs. apply distribution_from with (norm_q Phi_inverse mu s); [apply norm_range| |].
  - apply norm_inv; [exact Phi_inverse_ok|assumption].
  - apply norm_galois; [exact Phi_inverse_ok|assumption].
Qed.
Theorem C69_draw : forall inv mu sigma x, exact_inverse inv -> 0 < sigma ->
  probability_at_most (norm_draw inv mu sigma) x (norm_cdf mu sigma x).
Proof.
  intros inv mu s x Hi Hs. apply probability_inc with (norm_q inv mu s); [|now apply norm_galois|apply norm_range].
  intros u Hu. unfold norm_draw, norm_icdf. rewrite inv_Phi_in by assumption. reflexivity.
Qed.
Theorem C69_ends : forall inv mu sigma, 0 < sigma -> ends (norm_icdf inv mu sigma) NInf PInf.
Proof.
  intros inv mu s Hs. destruct (C68_inverse_ends inv 0) as (E0 & E1 & _). unfold ends, norm_icdf. rewrite E0, E1.
  cbn. destruct (Rlt_dec 0 s); [auto|lra].
Qed.
Example C69_ex : norm_cdf 3 2 3 = 1 / 2.
Proof. unfold norm_cdf. replace ((3 - 3) / 2) with 0 by field. apply C68_ex. Qed.

(** ** C70: lognormal_dist *)

Theorem C70_quantile : forall inv mu sigma, exact_inverse inv -> 0 < sigma ->
  quantile_function (logn_cdf mu sigma) (logn_icdf inv mu sigma).
Proof.
  intros inv mu s Hi Hs. apply quantile_from with (logn_q inv mu s); [|now apply logn_inv|now apply logn_galois].
  intros u Hu. unfold logn_icdf. now icdf_in.
Qed.
Theorem C70_derivative : forall mu sigma x, 0 < sigma -> x <> 0 ->
  derivable_pt_lim (logn_cdf mu sigma) x (logn_pdf mu sigma x).
Proof. intros mu s x Hs. now apply logn_deriv. Qed.
Theorem C70_distribution : forall mu sigma, 0 < sigma -> distribution_function (logn_cdf mu sigma).
Proof.
  intros mu s Hs. apply distribution_from with (logn_q Phi_inverse mu s); [now apply logn_range| |].
  - apply logn_inv; [exact Phi_inverse_ok|assumption].
  - apply logn_galois; [exact Phi_inverse_ok|assumption].
Qed.
Theorem C70_draw : forall inv mu sigma x, exact_inverse inv -> 0 < sigma ->
  probability_at_most (logn_draw inv mu sigma) x (logn_cdf mu sigma x) /\
  (forall u, 0 < u < 1 -> within (Fin 0) PInf (logn_draw inv mu sigma u)).
Proof.
  intros inv mu s x Hi Hs. split.
  - apply probability_inc with (logn_q inv mu s); [|now apply logn_galois|now apply logn_range].
    intros u Hu. unfold logn_draw, logn_icdf. now icdf_in.
  - intros u Hu. unfold logn_draw, logn_icdf. icdf_in. cbn. pose proof (exp_pos (inv u * s + mu)). split; [lra|trivial].
Qed.
Theorem C70_ends : forall inv mu sigma, ends (logn_icdf inv mu sigma) (Fin 0) PInf.
Proof.
  intros inv mu s. unfold ends, logn_icdf. rewrite !dom_cc_in by lra. rewrite at_point_eq.
  rewrite (at_point_ne 0 1) by lra. rewrite at_point_eq. auto.
Qed.
Example C70_ex : logn_cdf 0 2 1 = 1 / 2.
Proof. rewrite logn_cdf_norm by lra. unfold norm_cdf. rewrite ln_1. replace ((0 - 0) / 2) with 0 by field. apply C68_ex. Qed.

(** ** C71: truncated_normal_dist *)

Theorem C71_quantile : forall inv mu sigma a b, exact_inverse inv -> 0 < sigma -> tn_ordered a b ->
  quantile_function (tn_cdf (tn_make mu sigma a b)) (tn_icdf inv (tn_make mu sigma a b)).
Proof.
  intros inv mu s a b Hi Hs Hab. apply quantile_from with (tn_q inv mu s a b); [|now apply tn_inv|now apply tn_galois].
  intros u Hu. now apply tn_icdf_in.
Qed.
Theorem C71_derivative : forall mu sigma a b x, 0 < sigma -> tn_ordered a b ->
  derivable_pt_lim (tn_cdf (tn_make mu sigma a b)) x (tn_pdf (tn_make mu sigma a b) x).
Proof. intros. now apply tn_deriv. Qed.
(** on [a,b] cdf is a distribution function *)
Theorem C71_support : forall mu sigma a b x y, 0 < sigma -> tn_ordered a b ->
  tn_inside a b x -> tn_inside a b y -> x <= y ->
  0 <= tn_cdf (tn_make mu sigma a b) x <= tn_cdf (tn_make mu sigma a b) y /\ tn_cdf (tn_make mu sigma a b) y <= 1.
Proof.
  intros mu s a b x y Hs Hab Hx Hy Hxy.
  pose proof (tn_range mu s a b Hs Hab x Hx). pose proof (tn_range mu s a b Hs Hab y Hy).
  pose proof (galois_mono _ _ (tn_galois Phi_inverse Phi_inverse_ok mu s a b Hs Hab) x y Hxy ltac:(lra) ltac:(lra)). lra.
Qed.
Theorem C71_bounds : forall mu sigma a b, 0 < sigma -> a < b ->
  tn_cdf (tn_make mu sigma (Fin a) (Fin b)) a = 0 /\ tn_cdf (tn_make mu sigma (Fin a) (Fin b)) b = 1.
Proof.
  intros mu s a b Hs Hab. pose proof (tn_Phi_ordered mu s (Fin a) (Fin b) Hs Hab) as H.
  unfold tn_cdf, tn_make, Phi_at in *; cbn in *. split; field; lra.
Qed.
(** draws lie in [a,b] and follow cdf there *)
Theorem C71_draw : forall inv mu sigma a b, exact_inverse inv -> 0 < sigma -> tn_ordered a b ->
  (forall u, 0 < u < 1 -> exists y, tn_draw inv (tn_make mu sigma a b) u = Fin y /\ tn_inside a b y) /\
  (forall x, tn_inside a b x ->
     probability_at_most (tn_draw inv (tn_make mu sigma a b)) x (tn_cdf (tn_make mu sigma a b) x)).
Proof.
  intros inv mu s a b Hi Hs Hab. split.
  - intros u Hu. exists (tn_q inv mu s a b u). split; [now apply tn_icdf_in|now apply tn_q_inside].
  - intros x Hx. apply probability_inc with (tn_q inv mu s a b);
      [intros u Hu; now apply tn_icdf_in|now apply tn_galois|now apply tn_range].
Qed.
Example C71_ex : tn_cdf (tn_make 0 1 (Fin (-1)) (Fin 1)) 0 = 1 / 2.
Proof.
  unfold tn_cdf, tn_make, Phi_at; cbn. replace ((0 - 0) / 1) with 0 by field. replace ((-1 - 0) / 1) with (- (1)) by field.
  replace ((1 - 0) / 1) with 1 by field. rewrite Phi_opp, C68_ex.
  pose proof (C68_increasing 0 1 ltac:(lra)) as H. rewrite C68_ex in H. field. lra.
Qed.

(** outside [a,b] cdf leaves [0,1] and pdf is positive *)
Theorem C71_outside_refuted : forall mu sigma a b x, 0 < sigma -> a < b ->
  (x < a -> tn_cdf (tn_make mu sigma (Fin a) (Fin b)) x < 0) /\
  (b < x -> 1 < tn_cdf (tn_make mu sigma (Fin a) (Fin b)) x) /\
  0 < tn_pdf (tn_make mu sigma (Fin a) (Fin b)) x.
Proof.
  intros mu s a b x Hs Hab. pose proof (tn_Phi_ordered mu s (Fin a) (Fin b) Hs Hab) as H.
  assert (I : forall p q, p < q -> Phi ((p - mu) / s) < Phi ((q - mu) / s)).
  { intros p q Hpq. apply Phi_increasing. apply Rmult_lt_compat_r; [now apply Rinv_0_lt_compat|lra]. }
  unfold tn_pdf, tn_cdf, tn_make, Phi_at in *; cbn in *. set (fa := Phi ((a - mu) / s)) in *. set (fb := Phi ((b - mu) / s)) in *.
  repeat split.
  - intros Hx. specialize (I x a Hx). fold fa in I. apply Rmult_lt_reg_r with (fb - fa); [lra|].
    unfold Rdiv. rewrite Rmult_assoc, Rinv_l by lra. lra.
  - intros Hx. specialize (I b x Hx). fold fb in I. apply Rmult_lt_reg_r with (fb - fa); [lra|].
    unfold Rdiv at 1. rewrite Rmult_assoc, Rinv_l by lra. lra.
  - pose proof PI_RGT_0. apply Rdiv_lt_0_compat; [|lra]. apply Rmult_lt_0_compat; [|apply exp_pos].
    apply Rdiv_lt_0_compat; [|lra]. apply Rdiv_lt_0_compat; [lra|]. apply sqrt_lt_R0. lra.
Qed.

(** ** C72: maxwell_dist *)

Theorem C72_derivative : forall theta x, 0 < theta -> derivable_pt_lim (max_cdf theta) x (max_pdf theta x).
Proof. intros t x Ht. now apply max_deriv. Qed.
(** on its support [0, inf) cdf is a distribution function, with a unique quantile for every u *)
Theorem C72_support : forall theta, 0 < theta ->
  max_cdf theta 0 = 0 /\ (forall x, 0 <= x -> 0 <= max_cdf theta x <= 1) /\
  (forall x y, 0 <= x < y -> max_cdf theta x < max_cdf theta y) /\
  (forall e, 0 < e -> exists x, 0 < x /\ 1 - e < max_cdf theta x).
Proof.
  intros t Ht. split; [now apply max_0|]. split; [intros x Hx; now apply max_range|].
  split; [intros x y H; now apply max_strict|]. intros e He. now apply max_limit.
Qed.
(** below 0, the lower end of the support, cdf is negative and pdf positive *)
Theorem C72_outside_refuted : forall theta x, 0 < theta -> x < 0 -> max_cdf theta x < 0 /\ 0 < max_pdf theta x.
Proof.
  intros t x Ht Hx. split; [|apply max_pdf_pos; lra]. rewrite <- (max_0 t). now apply max_strict.
Qed.
Example C72_ex : 0 <= max_cdf 2 3 <= 1 /\ max_cdf 2 3 < max_cdf 2 4.
Proof. destruct (C72_support 2 ltac:(lra)) as (_ & H1 & H2 & _). split; [apply H1; lra|apply H2; lra]. Qed.

Print Assumptions C68_integral.
Print Assumptions C68_total.
Print Assumptions C68_derivative.
Print Assumptions C68_symmetric.
Print Assumptions C68_increasing.
Print Assumptions C68_distribution.
Print Assumptions C68_inverse_exists.
Print Assumptions C68_inverse_ends.
Print Assumptions C69_quantile.
Print Assumptions C69_derivative.
Print Assumptions C69_distribution.
Print Assumptions C69_draw.
Print Assumptions C69_ends.
Print Assumptions C70_quantile.
Print Assumptions C70_derivative.
Print Assumptions C70_distribution.
Print Assumptions C70_draw.
Print Assumptions C70_ends.
Print Assumptions C71_quantile.
Print Assumptions C71_derivative.
Print Assumptions C71_support.
Print Assumptions C71_bounds.
Print Assumptions C71_draw.
Print Assumptions C71_outside_refuted.
Print Assumptions C72_derivative.
Print Assumptions C72_support.
Print Assumptions C72_outside_refuted.
