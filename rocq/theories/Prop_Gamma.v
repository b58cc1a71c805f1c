(** C75-C80: gamma and beta functions and the distributions built on their incomplete integrals,
    in exact arithmetic. *)
From Coq Require Import Reals ZArith Lra Psatz Lia.
From Coquelicot Require Import Coquelicot.
From Verif Require Import ContModel GamModel Improper GammaFn BetaFn GamProofs Prop_Continuous.
Local Open Scope R_scope.

(** ** Specification *)

Definition gamma_integrand (a t : R) : R := exp (- t) * Rpower t (a - 1).
Definition beta_integrand (p q t : R) : R := Rpower t (p - 1) * Rpower (1 - t) (q - 1).
(** the integral over (0, infinity), over (0, x], over (0, 1) *)
Definition over_half_line (f : R -> R) (v : R) : Prop := is_RInt_gen f (at_right 0) (Rbar_locally p_infty) v.
Definition up_to (f : R -> R) (x v : R) : Prop := is_RInt_gen f (at_right 0) (Hierarchy.at_point x) v.
Definition over_unit (f : R -> R) (v : R) : Prop := is_RInt_gen f (at_right 0) (at_left 1) v.

(** inv_GammaP and inv_Beta_I in exact arithmetic: they solve the equations they are documented to solve *)
Definition exact_inverse_gamma (inv : R -> R -> R) : Prop :=
  forall a u, 0 < a -> 0 < u < 1 -> 0 < inv a u /\
    exists v w, up_to (gamma_integrand a) (inv a u) v /\ over_half_line (gamma_integrand a) w /\ v = u * w.
Definition exact_inverse_beta (inv : R -> R -> R -> R) : Prop :=
  forall p q u, 0 < p -> 0 < q -> 0 < u < 1 -> 0 < inv p q u < 1 /\
    exists v w, up_to (beta_integrand p q) (inv p q u) v /\ over_unit (beta_integrand p q) w /\ v = u * w.

Definition value (v : xreal) : R := match v with Fin r => r | _ => 0 end.
(** icdf is the quantile function of cdf for lo <= u <= hi *)
Definition quantile_between (lo hi : R) (cdf : R -> R) (icdf : R -> xreal) : Prop :=
  forall u, lo <= u <= hi -> exists y, icdf u = Fin y /\ cdf y = u /\ forall x, y <= x <-> u <= cdf x.
(** a draw is at most x with a probability that differs from p by at most e *)
Definition probability_near (draw : R -> xreal) (x p e : R) : Prop :=
  exists p', probability_at_most draw x p' /\ Rabs (p' - p) <= e.
(** x (x+1) ... (x+n-1) *)
Fixpoint rising (x : R) (n : nat) : R := match n with O => 1 | S k => rising x k * (x + INR k) end.

(** ** Tools *)

Lemma inv_gamma inv : exact_inverse_gamma inv -> forall a u, 0 < a -> 0 < u < 1 -> 0 < inv a u /\ P a (inv a u) = u.
Proof.
  intros H a u Ha Hu. destruct (H a u Ha Hu) as (H0 & v & w & Hv & Hw & E). split; [exact H0|].
  pose proof (gen_unique _ _ _ _ Hv (lgam_gen a _ Ha H0)) as E1. pose proof (gen_unique _ _ _ _ Hw (Gam_gen a Ha)) as E2.
  rewrite P_in by assumption. rewrite <- E1, E, E2. pose proof (Gam_pos a Ha). field. lra.
Qed.
Lemma inv_beta inv : exact_inverse_beta inv -> forall p q u, 0 < p -> 0 < q -> 0 < u < 1 -> 0 < inv p q u < 1 /\ I p q (inv p q u) = u.
Proof.
  intros H p q u Hp Hq Hu. destruct (H p q u Hp Hq Hu) as (H0 & v & w & Hv & Hw & E). split; [exact H0|].
  pose proof (gen_unique _ _ _ _ Hv (lbet_gen p q _ Hp Hq H0)) as E1. pose proof (gen_unique _ _ _ _ Hw (Bet_gen p q Hp Hq)) as E2.
  rewrite I_in by assumption. rewrite <- E1, E, E2. pose proof (Bet_pos p q Hp Hq). field. lra.
Qed.
(** exact inverses exist *)
Example exact_inverse_gamma_exists : exact_inverse_gamma P_inverse.
Proof.
  intros a u Ha Hu. destruct (P_inverse_ok a u Ha Hu) as (H0 & E). split; [exact H0|].
  exists (lgam a (P_inverse a u)), (Gam a). split; [exact (lgam_gen a _ Ha H0)|]. split; [exact (Gam_gen a Ha)|].
  rewrite P_in in E by assumption. pose proof (Gam_pos a Ha). rewrite <- E at 2. field. lra.
Qed.
Example exact_inverse_beta_exists : exact_inverse_beta I_inverse.
Proof.
  intros p q u Hp Hq Hu. destruct (I_inverse_ok p q u Hp Hq Hu) as (H0 & E). split; [exact H0|].
  exists (lbet p q (I_inverse p q u)), (Bet p q). split; [exact (lbet_gen p q _ Hp Hq H0)|]. split; [exact (Bet_gen p q Hp Hq)|].
  rewrite I_in in E by assumption. pose proof (Bet_pos p q Hp Hq). rewrite <- E at 2. field. lra.
Qed.
Lemma inv_cut_lo inv u p q : u < epsilon -> inv_Beta_I inv u p q = 0.
Proof. intros H. unfold inv_Beta_I. destruct (Rlt_dec u epsilon); [reflexivity|lra]. Qed.
Lemma inv_cut_hi inv u p q : 1 - epsilon < u -> inv_Beta_I inv u p q = 1.
Proof.
  intros H. pose proof epsilon_bounds as Heps. unfold inv_Beta_I. destruct (Rlt_dec u epsilon); [lra|]. destruct (Rlt_dec (1 - u) epsilon); [reflexivity|lra].
Qed.
Lemma inv_cut_in inv u p q : epsilon <= u <= 1 - epsilon -> inv_Beta_I inv u p q = inv p q u.
Proof.
  intros H. unfold inv_Beta_I. destruct (Rlt_dec u epsilon); [lra|]. destruct (Rlt_dec (1 - u) epsilon); [lra|reflexivity].
Qed.
Lemma at_most_yes x r : r <= x -> at_most x (Fin r) = 1.
Proof. intros H. cbn. destruct (Rle_dec r x); [reflexivity|lra]. Qed.
Lemma at_most_no x r : x < r -> at_most x (Fin r) = 0.
Proof. intros H. cbn. destruct (Rle_dec r x); [lra|reflexivity]. Qed.

(** ** C75: the functions *)

Theorem C75_tgamma : forall a, 0 < a -> over_half_line (gamma_integrand a) (tgamma a).
Proof. intros a Ha. rewrite tgamma_Gam by exact Ha. exact (Gam_gen a Ha). Qed.
Theorem C75_tgamma_rec : forall a, 0 < a -> tgamma (a + 1) = a * tgamma a.
Proof. intros a Ha. rewrite !tgamma_Gam by lra. apply Gam_rec, Ha. Qed.
Theorem C75_tgamma_factorial : forall n, tgamma (INR n + 1) = INR (fact n).
Proof.
  induction n as [|n IH].
  - cbn [fact INR]. rewrite Rplus_0_l, tgamma_Gam by lra. apply Gam_1.
  - rewrite S_INR. rewrite C75_tgamma_rec by (pose proof (pos_INR n); lra). rewrite IH.
    change (fact (S n)) with (S n * fact n)%nat. rewrite mult_INR, S_INR. reflexivity.
Qed.
Theorem C75_tgamma_half : tgamma (1 / 2) = sqrt PI.
Proof. rewrite tgamma_Gam by lra. apply Gam_half. Qed.
(** the incomplete gamma functions, GammaP<double, false> and GammaP<double, true> *)
Theorem C75_inc_gamma : forall a x, 0 < a -> 0 < x -> up_to (gamma_integrand a) x (inc_gamma a x) /\ GammaP a x * tgamma a = inc_gamma a x.
Proof.
  intros a x Ha Hx. split.
  - rewrite inc_gamma_lgam by assumption. exact (lgam_gen a x Ha Hx).
  - unfold GammaP. rewrite tgamma_Gam by exact Ha. pose proof (Gam_pos a Ha). field. lra.
Qed.
(** Beta, in both branches of the code *)
Theorem C75_beta : forall x y, 0 < x -> 0 < y -> exists b, Beta x y = Fin b /\ over_unit (beta_integrand x y) b.
Proof. intros x y Hx Hy. exists (Bet x y). split; [apply Beta_Bet; assumption|exact (Bet_gen x y Hx Hy)]. Qed.
Theorem C75_beta_sym : forall x y, Beta x y = Beta y x.
Proof.
  intros x y. destruct (Rlt_dec 0 x) as [Hx|Hx], (Rlt_dec 0 y) as [Hy|Hy].
  - rewrite !Beta_Bet by assumption. f_equal. apply Bet_sym; assumption.
  - unfold Beta. destruct (Rle_dec x 0), (Rle_dec y 0); try lra; reflexivity.
  - unfold Beta. destruct (Rle_dec x 0), (Rle_dec y 0); try lra; reflexivity.
  - unfold Beta. destruct (Rle_dec x 0), (Rle_dec y 0); try lra; reflexivity.
Qed.
Theorem C75_beta_outside : forall x y, x <= 0 \/ y <= 0 -> Beta x y = NaN.
Proof. intros x y [H|H]; unfold Beta; destruct (Rle_dec x 0), (Rle_dec y 0); try lra; reflexivity. Qed.
(** Beta_I(x, p, q, Beta(p, q)) *)
Theorem C75_beta_I : forall p q x, 0 < p -> 0 < q -> 0 < x < 1 ->
  exists r v w, Beta_I (Fin x) p q (Beta p q) = Fin r /\ up_to (beta_integrand p q) x v /\ over_unit (beta_integrand p q) w /\ r * w = v.
Proof.
  intros p q x Hp Hq Hx. exists (I p q x), (lbet p q x), (Bet p q). split; [apply Beta_I_I; lra|].
  split; [exact (lbet_gen p q x Hp Hq Hx)|]. split; [exact (Bet_gen p q Hp Hq)|]. rewrite I_in by assumption.
  pose proof (Bet_pos p q Hp Hq). field. lra.
Qed.
Theorem C75_beta_I_ends : forall p q, 0 < p -> 0 < q ->
  Beta_I (Fin 0) p q (Beta p q) = Fin 0 /\ Beta_I (Fin 1) p q (Beta p q) = Fin 1 /\
  (forall x, x < 0 \/ 1 < x -> Beta_I (Fin x) p q (Beta p q) = NaN).
Proof.
  intros p q Hp Hq. split; [rewrite Beta_I_I, I_0 by lra; reflexivity|]. split; [rewrite Beta_I_I, I_1 by lra; reflexivity|].
  intros x Hx. rewrite Beta_Bet by assumption. unfold Beta_I. destruct (Rle_dec p 0); [lra|]. destruct (Rle_dec q 0); [lra|].
  destruct (Rlt_dec x 0); [reflexivity|]. destruct (Rlt_dec 1 x); [reflexivity|lra].
Qed.
Theorem C75_ln_binomial : forall n m, (m <= n)%nat -> exp (ln_binomial (INR n) (INR m)) = Binomial.C n m.
Proof.
  intros n m H. unfold ln_binomial. rewrite <- minus_INR by exact H. unfold Rminus. rewrite !exp_plus, !exp_Ropp.
  rewrite !exp_lgamma by (pose proof (pos_INR n); pose proof (pos_INR m); pose proof (pos_INR (n - m)); lra).
  rewrite <- !tgamma_Gam by (pose proof (pos_INR n); pose proof (pos_INR m); pose proof (pos_INR (n - m)); lra).
  rewrite !C75_tgamma_factorial. unfold Binomial.C. pose proof (INR_fact_neq_0 m). pose proof (INR_fact_neq_0 (n - m)). field. split; assumption.
Qed.
Theorem C75_pochhammer : forall x n, 0 < x -> Pochhammer x (INR n) = rising x n.
Proof.
  intros x n Hx. unfold Pochhammer. unfold Rminus. rewrite exp_plus, exp_Ropp, !exp_lgamma by (pose proof (pos_INR n); lra).
  pose proof (Gam_pos x Hx). induction n as [|n IH].
  - cbn [INR rising]. rewrite Rplus_0_r. field. lra.
  - rewrite S_INR. cbn [rising]. rewrite <- IH. rewrite <- Rplus_assoc. rewrite Gam_rec by (pose proof (pos_INR n); lra). ring.
Qed.
Example C75_example : Pochhammer (1 / 2) (INR 3) = 15 / 8 /\ exp (ln_binomial (INR 5) (INR 2)) = 10.
Proof.
  split.
  - rewrite C75_pochhammer by lra. cbn [rising INR]. lra.
  - rewrite C75_ln_binomial by lia. unfold Binomial.C. cbn -[INR]. rewrite !INR_IZR_INZ. cbn [Z.of_nat Pos.of_succ_nat Pos.succ]. field.
Qed.

(** ** C76: gamma_dist *)
Section gamma_dist.
Lemma gam_icdf_in inv k t u : 0 < u < 1 -> gam_icdf inv k t u = Fin (inv k u * t).
Proof. intros Hu. unfold gam_icdf, gam_icdf_. icdf_in. Qed.
Lemma gam_inv' inv k t u : exact_inverse_gamma inv -> 0 < k -> 0 < t -> 0 < u < 1 -> gam_cdf k t (inv k u * t) = u.
Proof.
  intros H Hk Ht Hu. destruct (inv_gamma inv H k u Hk Hu). apply gam_inv; try assumption. rewrite GammaP_P; assumption.
Qed.
Lemma gam_galois' inv k t u x : exact_inverse_gamma inv -> 0 < k -> 0 < t -> 0 < u < 1 -> inv k u * t <= x <-> u <= gam_cdf k t x.
Proof.
  intros H Hk Ht Hu. destruct (inv_gamma inv H k u Hk Hu). apply gam_galois; try assumption. rewrite GammaP_P; assumption.
Qed.
Theorem C76_quantile : forall inv kappa theta, exact_inverse_gamma inv -> 0 < kappa -> 0 < theta ->
  quantile_function (gam_cdf kappa theta) (gam_icdf inv kappa theta).
Proof.
  intros inv k t H Hk Ht. apply quantile_from with (fun u => inv k u * t).
  - intros u Hu. apply gam_icdf_in, Hu.
  - intros u Hu. apply gam_inv'; assumption.
  - intros u x Hu. apply gam_galois'; assumption.
Qed.
Theorem C76_distribution : forall kappa theta, 0 < kappa -> 0 < theta -> distribution_function (gam_cdf kappa theta).
Proof.
  intros k t Hk Ht. pose proof exact_inverse_gamma_exists as H. apply distribution_from with (fun u => P_inverse k u * t).
  - intros x. apply gam_range; assumption.
  - intros u Hu. apply gam_inv'; assumption.
  - intros u x Hu. apply gam_galois'; assumption.
Qed.
Theorem C76_density : forall kappa theta x, 0 < kappa -> 0 < theta -> x <> 0 ->
  exists l, gam_pdf kappa theta x = Fin l /\ derivable_pt_lim (gam_cdf kappa theta) x l.
Proof.
  intros k t x Hk Ht Hx. destruct (Rlt_dec 0 x) as [H|H].
  - exists (gterm k (x / t) / Gam k / t). split; [apply gam_pdf_val; assumption|]. apply is_derive_Reals, gam_cdf_deriv; assumption.
  - exists 0. split; [unfold gam_pdf; destruct (Rlt_dec x 0); [reflexivity|lra]|]. apply is_derive_Reals, gam_cdf_deriv_neg. lra.
Qed.
Theorem C76_draw : forall inv kappa theta x, exact_inverse_gamma inv -> 0 < kappa -> 0 < theta ->
  probability_at_most (gam_draw inv kappa theta) x (gam_cdf kappa theta x).
Proof.
  intros inv k t x H Hk Ht. apply (probability_inc (fun u => inv k u * t) (gam_cdf k t)).
  - reflexivity.
  - intros u y Hu. apply gam_galois'; assumption.
  - apply gam_range; assumption.
Qed.
Theorem C76_range : forall inv kappa theta u, exact_inverse_gamma inv -> 0 < kappa -> 0 < theta -> 0 < u < 1 ->
  within (Fin 0) PInf (gam_draw inv kappa theta u).
Proof.
  intros inv k t u H Hk Ht Hu. destruct (inv_gamma inv H k u Hk Hu). cbn. split; [|exact Logic.I]. unfold gam_icdf_. nra.
Qed.
(** kappa = 1 is the exponential distribution *)
Theorem C76_exponential : forall theta x, 0 < theta -> gam_cdf 1 theta x = expo_cdf theta x.
Proof.
  intros t x Ht. rewrite gam_cdf_P by lra. unfold P, expo_cdf. destruct (Rle_dec (x / t) 0) as [H|H].
  - destruct (Rle_dec x 0); [reflexivity|]. apply div_sign in H; lra.
  - assert (Hx : 0 < x) by (apply Rnot_le_lt; intros C; apply H, div_sign; assumption). destruct (Rle_dec x 0); [lra|].
    rewrite Gam_1. rewrite lgam_1 by (apply Rdiv_lt_0_compat; assumption). unfold Rdiv at 1. rewrite Rinv_1, Rmult_1_r. f_equal. f_equal. unfold Rdiv. ring.
Qed.
(** the density at 0 is not a number for kappa = 1, although the limit from above is 1/theta *)
Theorem C76_zero_refuted : exists kappa theta, 0 < kappa /\ 0 < theta /\ gam_pdf kappa theta 0 = NaN /\
  filterlim (fun x => value (gam_pdf kappa theta x)) (at_right 0) (locally (/ theta)).
Proof.
  exists 1, 1. split; [lra|]. split; [lra|]. split.
  - unfold gam_pdf. destruct (Rlt_dec 0 0); [lra|]. cbv zeta. unfold xln. replace (0 / 1) with 0 by field. destruct (Rlt_dec 0 0); [lra|].
    destruct (Req_EM_T 0 0); [|lra]. unfold xscale. destruct (Rlt_dec 0 (1 - 1)); [lra|]. destruct (Rlt_dec (1 - 1) 0); [lra|]. reflexivity.
  - replace (/ 1) with (exp (- 0)) by (rewrite Ropp_0, exp_0; lra).
    apply (filterlim_ext_loc (fun x => exp (- x))).
    + exists (mkposreal 1 Rlt_0_1). intros y _ Hy. rewrite gam_pdf_val by lra. cbn [value]. rewrite Gam_1. unfold gterm.
      replace (1 - 1) with 0 by ring. rewrite Rpower_O by (unfold Rdiv; lra). replace (- (y / 1)) with (- y) by field. field.
    + intros Q HQ. pose proof (ex_derive_continuous (fun x => exp (- x)) 0 ltac:(auto_derive; exact Logic.I) Q HQ) as [e He].
      exists e. intros y Hy _. apply He, Hy.
Qed.
(** otherwise it is the limit from above *)
Theorem C76_zero : forall kappa theta, 0 < theta -> (0 < kappa < 1 -> gam_pdf kappa theta 0 = PInf) /\ (1 < kappa -> gam_pdf kappa theta 0 = Fin 0).
Proof.
  intros k t Ht. unfold gam_pdf. destruct (Rlt_dec 0 0); [lra|]. cbv zeta. unfold xln. replace (0 / t) with 0 by (field; lra).
  destruct (Rlt_dec 0 0); [lra|]. destruct (Req_EM_T 0 0); [|lra]. unfold xscale. split; intros H.
  - destruct (Rlt_dec 0 (k - 1)); [lra|]. destruct (Rlt_dec (k - 1) 0); [|lra]. reflexivity.
  - destruct (Rlt_dec 0 (k - 1)); [|lra]. cbn [xshift xexp]. f_equal. field. lra.
Qed.
(** icdf(0) and icdf(1) are not numbers; the branches for them cannot be reached *)
Theorem C76_ends_refuted : exists inv kappa theta, exact_inverse_gamma inv /\ 0 < kappa /\ 0 < theta /\
  gam_icdf inv kappa theta 0 = NaN /\ gam_icdf inv kappa theta 1 = NaN.
Proof.
  exists P_inverse, 1, 1. split; [exact exact_inverse_gamma_exists|]. split; [lra|]. split; [lra|]. unfold gam_icdf, dom_oo. split.
  - destruct (Rle_dec 0 0); [reflexivity|lra].
  - destruct (Rle_dec 1 0); [lra|]. destruct (Rle_dec 1 1); [reflexivity|lra].
Qed.
End gamma_dist.

(** ** C77: chi_square_dist *)
Section chi_square_dist.
Lemma half_pos nu : (0 < nu)%Z -> 0 < IZR nu / 2.
Proof. intros H. apply IZR_lt in H. lra. Qed.
Theorem C77_quantile : forall inv nu, exact_inverse_gamma inv -> (0 < nu)%Z ->
  quantile_function (chi_cdf nu) (chi_icdf inv nu).
Proof. intros inv nu H Hn. apply (C76_quantile inv (IZR nu / 2) 2 H); [apply half_pos, Hn|lra]. Qed.
Theorem C77_distribution : forall nu, (0 < nu)%Z -> distribution_function (chi_cdf nu).
Proof. intros nu Hn. apply (C76_distribution (IZR nu / 2) 2); [apply half_pos, Hn|lra]. Qed.
Theorem C77_density : forall nu x, (0 < nu)%Z -> x <> 0 ->
  exists l, chi_pdf nu x = Fin l /\ derivable_pt_lim (chi_cdf nu) x l.
Proof.
  intros nu x Hn Hx. destruct (C76_density (IZR nu / 2) 2 x (half_pos nu Hn) ltac:(lra) Hx) as (l & E & D). exists l. split; [|exact D].
  destruct (Rlt_dec 0 x) as [H|H].
  - rewrite chi_pdf_val; assumption.
  - unfold chi_pdf. unfold gam_pdf in E. destruct (Rlt_dec x 0); [exact E|lra].
Qed.
Theorem C77_draw : forall inv nu x, exact_inverse_gamma inv -> (0 < nu)%Z ->
  probability_at_most (chi_draw inv nu) x (chi_cdf nu x).
Proof. intros inv nu x H Hn. apply (C76_draw inv (IZR nu / 2) 2 x H); [apply half_pos, Hn|lra]. Qed.
Theorem C77_range : forall inv nu u, exact_inverse_gamma inv -> (0 < nu)%Z -> 0 < u < 1 ->
  within (Fin 0) PInf (chi_draw inv nu u).
Proof. intros inv nu u H Hn Hu. apply (C76_range inv (IZR nu / 2) 2 u H); [apply half_pos, Hn|lra|exact Hu]. Qed.
(** two degrees of freedom: exponential distribution of mean 2 *)
Theorem C77_two : forall x, chi_cdf 2 x = expo_cdf 2 x.
Proof. intros x. rewrite <- C76_exponential by lra. rewrite chi_gam. replace (2 / 2) with 1 by field. reflexivity. Qed.
(** the density at 0 is the limit from above *)
Theorem C77_zero : chi_pdf 1 0 = PInf /\ chi_pdf 2 0 = Fin (1 / 2) /\ forall nu, (2 < nu)%Z -> chi_pdf nu 0 = Fin 0.
Proof.
  unfold chi_pdf. destruct (Rlt_dec 0 0); [lra|]. cbv zeta. unfold xpow. replace (0 / 2) with 0 by field. destruct (Req_EM_T 0 0); [|lra]. split; [|split].
  - destruct (Rlt_dec (1 / 2 - 1) 0); [reflexivity|lra].
  - destruct (Rlt_dec (2 / 2 - 1) 0); [lra|]. destruct (Req_EM_T (2 / 2 - 1) 0); [|lra]. f_equal. replace (2 / 2) with 1 by field.
    unfold lgamma. rewrite tgamma_Gam, Gam_1, ln_1, Rplus_0_r, exp_0 by lra. field.
  - intros nu Hn. apply IZR_lt in Hn. destruct (Rlt_dec (IZR nu / 2 - 1) 0); [lra|]. destruct (Req_EM_T (IZR nu / 2 - 1) 0); [lra|].
    f_equal. unfold Rdiv. ring.
Qed.
Theorem C77_ends_refuted : exists inv nu, exact_inverse_gamma inv /\ (0 < nu)%Z /\ chi_icdf inv nu 0 = NaN /\ chi_icdf inv nu 1 = NaN.
Proof.
  exists P_inverse, 1%Z. split; [exact exact_inverse_gamma_exists|]. split; [lia|]. unfold chi_icdf, dom_oo. split.
  - destruct (Rle_dec 0 0); [reflexivity|lra].
  - destruct (Rle_dec 1 0); [lra|]. destruct (Rle_dec 1 1); [reflexivity|lra].
Qed.
End chi_square_dist.

(** ** C78: beta_dist *)
Section beta_dist.
Lemma bet_cdf_I a b x : 0 < a -> 0 < b -> bet_cdf (bet_make a b) x = Fin (I a b x).
Proof.
  intros Ha Hb. unfold bet_cdf, bet_make. cbn [bet_alpha bet_beta bet_norm]. destruct (Rle_dec x 0); [rewrite I_0 by assumption; reflexivity|].
  destruct (Rle_dec 1 x); [rewrite I_1 by assumption; reflexivity|]. apply Beta_I_I; lra.
Qed.
Lemma bet_val a b x : 0 < a -> 0 < b -> value (bet_cdf (bet_make a b) x) = I a b x.
Proof. intros Ha Hb. rewrite bet_cdf_I by assumption. reflexivity. Qed.
Theorem C78_cdf : forall alpha beta x, 0 < alpha -> 0 < beta ->
  exists r, bet_cdf (bet_make alpha beta) x = Fin r /\ 0 <= r <= 1 /\ (x <= 0 -> r = 0) /\ (1 <= x -> r = 1).
Proof.
  intros a b x Ha Hb. exists (I a b x). split; [apply bet_cdf_I; assumption|]. split; [apply I_range; assumption|].
  split; intros; [apply I_0|apply I_1]; assumption.
Qed.
Theorem C78_distribution : forall alpha beta, 0 < alpha -> 0 < beta ->
  distribution_function (fun x => value (bet_cdf (bet_make alpha beta) x)).
Proof.
  intros a b Ha Hb. apply distribution_from with (I_inverse a b).
  - intros x. rewrite bet_val by assumption. apply I_range; assumption.
  - intros u Hu. rewrite bet_val by assumption. apply I_inverse_ok; assumption.
  - intros u x Hu. rewrite bet_val by assumption. destruct (I_inverse_ok a b u Ha Hb Hu). apply I_galois; assumption.
Qed.
Theorem C78_quantile : forall inv alpha beta, exact_inverse_beta inv -> 0 < alpha -> 0 < beta ->
  quantile_between epsilon (1 - epsilon) (fun x => value (bet_cdf (bet_make alpha beta) x)) (bet_icdf inv (bet_make alpha beta)).
Proof.
  intros inv a b H Ha Hb u Hu. pose proof epsilon_bounds as Heps. destruct (inv_beta inv H a b u Ha Hb ltac:(lra)) as (H0 & E).
  exists (inv a b u). split; [|split].
  - unfold bet_icdf. icdf_in. cbn [bet_alpha bet_beta bet_make]. rewrite inv_cut_in by exact Hu. reflexivity.
  - rewrite bet_val by assumption. exact E.
  - intros x. rewrite bet_val by assumption. apply I_galois; assumption.
Qed.
Theorem C78_density : forall alpha beta x, 0 < alpha -> 0 < beta -> x <> 0 -> x <> 1 ->
  exists l, bet_pdf (bet_make alpha beta) x = Fin l /\ derivable_pt_lim (fun t => value (bet_cdf (bet_make alpha beta) t)) x l.
Proof.
  intros a b x Ha Hb H0 H1. unfold bet_pdf. cbn [bet_alpha bet_beta bet_norm bet_make].
  destruct (Rlt_dec x 0) as [Hx|Hx].
  - exists 0. split; [reflexivity|]. apply is_derive_Reals.
    apply (is_derive_near (fun _ => 0) _ x 0 (x - 1) 0); [lra| |apply (is_derive_const (K := R_AbsRing) (V := R_NormedModule))].
    intros t Ht. rewrite bet_val, I_0 by lra. reflexivity.
  - destruct (Rlt_dec 1 x) as [Hx1|Hx1].
    + exists 0. split; [reflexivity|]. apply is_derive_Reals.
      apply (is_derive_near (fun _ => 1) _ x 0 1 (x + 1)); [lra| |apply (is_derive_const (K := R_AbsRing) (V := R_NormedModule))].
      intros t Ht. rewrite bet_val, I_1 by lra. reflexivity.
    + exists (bterm a b x / Bet a b). split.
      * destruct (Req_EM_T x 0); [lra|]. destruct (Req_EM_T x 1); [lra|]. rewrite Beta_Bet by assumption. unfold xpow.
        destruct (Req_EM_T x 0); [lra|]. destruct (Req_EM_T (1 - x) 0); [lra|]. f_equal. unfold bterm. pose proof (Bet_pos a b Ha Hb). field. lra.
      * apply is_derive_Reals. apply (is_derive_ext (I a b)); [intros t; symmetry; apply bet_val; assumption|]. apply I_deriv; lra.
Qed.
Theorem C78_draw : forall inv alpha beta x, exact_inverse_beta inv -> 0 < alpha -> 0 < beta ->
  probability_near (bet_draw inv (bet_make alpha beta)) x (value (bet_cdf (bet_make alpha beta) x)) epsilon.
Proof.
  intros inv a b x H Ha Hb. pose proof epsilon_bounds as He. rewrite bet_val by assumption. unfold probability_near, probability_at_most.
  unfold bet_draw. cbn [bet_alpha bet_beta bet_make]. destruct (Rlt_dec x 0) as [Hx|Hx].
  - exists 0. rewrite I_0 by lra. split; [|rewrite Rminus_0_r, Rabs_R0; lra]. apply probability_split; [lra|intros; lra|].
    intros u Hu. apply at_most_no. destruct (Rlt_dec u epsilon); [rewrite inv_cut_lo by assumption; exact Hx|].
    destruct (Rlt_dec (1 - epsilon) u); [rewrite inv_cut_hi by assumption; lra|]. rewrite inv_cut_in by lra.
    destruct (inv_beta inv H a b u Ha Hb ltac:(lra)). lra.
  - destruct (Rle_dec 1 x) as [Hx1|Hx1].
    + exists 1. rewrite I_1 by assumption. split; [|unfold Rminus; rewrite Rplus_opp_r, Rabs_R0; lra]. apply probability_split; [lra| |intros; lra].
      intros u Hu. apply at_most_yes. destruct (Rlt_dec u epsilon); [rewrite inv_cut_lo by assumption; lra|].
      destruct (Rlt_dec (1 - epsilon) u); [rewrite inv_cut_hi by assumption; lra|]. rewrite inv_cut_in by lra.
      destruct (inv_beta inv H a b u Ha Hb ltac:(lra)). lra.
    + apply probability_cut.
      * apply I_range; assumption.
      * intros u Hu. rewrite inv_cut_lo by lra. apply at_most_yes. lra.
      * intros u Hu. rewrite inv_cut_hi by lra. apply at_most_no. lra.
      * intros u Hu Hc. rewrite inv_cut_in by assumption. destruct (inv_beta inv H a b u Ha Hb ltac:(lra)) as (A & E).
        apply at_most_yes. apply (I_galois a b _ u); assumption.
      * intros u Hu Hc. rewrite inv_cut_in by assumption. destruct (inv_beta inv H a b u Ha Hb ltac:(lra)) as (A & E).
        apply at_most_no. apply Rnot_le_lt. intros C. apply (I_galois a b _ u) in C; try assumption. lra.
Qed.
Theorem C78_range : forall inv alpha beta u, exact_inverse_beta inv -> 0 < alpha -> 0 < beta -> 0 < u < 1 ->
  within (Fin 0) (Fin 1) (bet_draw inv (bet_make alpha beta) u).
Proof.
  intros inv a b u H Ha Hb Hu. cbn. unfold inv_Beta_I. destruct (Rlt_dec u epsilon); [lra|]. destruct (Rlt_dec (1 - u) epsilon); [lra|].
  destruct (inv_beta inv H a b u Ha Hb Hu). lra.
Qed.

(** the ends of the interval *)
Theorem C78_icdf_ends : forall inv alpha beta x, bet_icdf inv (bet_make alpha beta) 0 = Fin 0 /\ bet_icdf inv (bet_make alpha beta) 1 = Fin 1 /\
  (x < 0 \/ 1 < x -> bet_icdf inv (bet_make alpha beta) x = NaN).
Proof.
  intros inv a b x. unfold bet_icdf, dom_cc, at_point. split; [|split].
  - destruct (Rlt_dec 0 0); [lra|]. destruct (Rlt_dec 1 0); [lra|]. destruct (Req_EM_T 0 0); [reflexivity | lra].
  - destruct (Rlt_dec 1 0); [lra|]. destruct (Rlt_dec 1 1); [lra|]. destruct (Req_EM_T 1 0); [lra|]. destruct (Req_EM_T 1 1); [reflexivity | lra].
  - intros H. destruct (Rlt_dec x 0); [reflexivity|]. destruct (Rlt_dec 1 x); [reflexivity | lra].
Qed.
(** the setters recompute the normalisation *)
Theorem C78_set : forall a b a' b', bet_set_alpha (bet_make a b) a' = bet_make a' b /\ bet_set_beta (bet_make a b) b' = bet_make a b' /\
  bet_default = bet_make 1 1.
Proof. intros. repeat split. Qed.
(** u below epsilon: the quantile is 0, whose distribution function value is 0 *)
Theorem C78_quantile_refuted : exists inv alpha beta u, exact_inverse_beta inv /\ 0 < alpha /\ 0 < beta /\ 0 < u < 1 /\
  bet_icdf inv (bet_make alpha beta) u = Fin 0 /\ bet_cdf (bet_make alpha beta) 0 = Fin 0 /\
  (exists y, 0 < y /\ bet_cdf (bet_make alpha beta) y = Fin u).
Proof.
  pose proof epsilon_bounds as Heps. exists I_inverse, 1, 1, (epsilon / 2). split; [exact exact_inverse_beta_exists|]. do 3 (split; [lra|]). split; [|split].
  - unfold bet_icdf. icdf_in. rewrite inv_cut_lo by lra. reflexivity.
  - rewrite bet_cdf_I by lra. rewrite I_0 by lra. reflexivity.
  - destruct (I_inverse_ok 1 1 (epsilon / 2) ltac:(lra) ltac:(lra) ltac:(lra)) as (A & E). exists (I_inverse 1 1 (epsilon / 2)). split; [lra|].
    rewrite bet_cdf_I by lra. rewrite E. reflexivity.
Qed.
(** operator== looks at alpha only: distributions with different values compare equal *)
Theorem C78_equality_refuted : exists P Q x, bet_eqb P Q = true /\ bet_cdf P x <> bet_cdf Q x.
Proof.
  exists (bet_make 1 1), (bet_make 1 2), (1 / 2). split.
  - unfold bet_eqb. cbn. destruct (Req_EM_T 1 1); [reflexivity|lra].
  - rewrite !bet_cdf_I by lra. intros E. apply (f_equal value) in E. cbn [value] in E. rewrite !I_in in E by lra.
    rewrite (lbet_reflect 1 1), (lbet_reflect 1 2), (Bet_sym 1 2), !lbet_1, !Bet_1 in E by lra.
    replace (1 - 1 / 2) with (/ 2) in E by field. rewrite Rpower_1 in E by lra.
    replace (Rpower (/ 2) 2) with (/ 4) in E.
    2:{ replace 2 with (INR 2) at 2 by (cbn; ring). rewrite Rpower_pow by lra. field. }
    lra.
Qed.
(** it does hold of equal distributions and not of different alpha *)
Theorem C78_equality : forall a b a' b', bet_eqb (bet_make a b) (bet_make a b) = true /\ (a <> a' -> bet_eqb (bet_make a b) (bet_make a' b') = false).
Proof. intros a b a' b'. unfold bet_eqb. cbn [bet_alpha bet_make]. split; [destruct (Req_EM_T a a); [reflexivity|contradiction]|]. intros N. destruct (Req_EM_T a a'); [contradiction|reflexivity]. Qed.
(** the density at 0 and 1: the limit if that is finite, otherwise not a number *)
Lemma Beta_1 b : 0 < b -> Beta 1 b = Fin (/ b) /\ Beta b 1 = Fin (/ b).
Proof. intros Hb. rewrite !Beta_Bet, Bet_1, Bet_sym, Bet_1 by lra. split; reflexivity. Qed.
Theorem C78_density_ends : forall alpha beta, 0 < alpha -> 0 < beta ->
  (alpha < 1 -> bet_pdf (bet_make alpha beta) 0 = NaN) /\ (alpha = 1 -> bet_pdf (bet_make alpha beta) 0 = Fin beta) /\
  (1 < alpha -> bet_pdf (bet_make alpha beta) 0 = Fin 0) /\
  (beta < 1 -> bet_pdf (bet_make alpha beta) 1 = NaN) /\ (beta = 1 -> bet_pdf (bet_make alpha beta) 1 = Fin alpha) /\
  (1 < beta -> bet_pdf (bet_make alpha beta) 1 = Fin 0).
Proof.
  intros a b Ha Hb. unfold bet_pdf. cbn [bet_alpha bet_beta bet_norm bet_make].
  destruct (Rlt_dec 0 0); [lra|]. destruct (Rlt_dec 1 0); [lra|]. destruct (Rlt_dec 0 1); [|lra]. destruct (Rlt_dec 1 1); [lra|].
  destruct (Req_EM_T 0 0); [|lra]. destruct (Req_EM_T 0 1); [lra|]. destruct (Req_EM_T 1 0); [lra|]. destruct (Req_EM_T 1 1); [|lra].
  unfold xpow. replace (1 - 1) with 0 by ring. replace (1 - 0) with 1 by ring. destruct (Req_EM_T 0 0); [|lra]. destruct (Req_EM_T 1 0); [lra|].
  assert (P1 : forall y, Rpower 1 y = 1) by (intros y; unfold Rpower; rewrite ln_1, Rmult_0_r; apply exp_0).
  rewrite !P1. repeat split; intros H.
  - destruct (Rlt_dec (a - 1) 0); [reflexivity|lra].
  - subst a. destruct (Rlt_dec (1 - 1) 0); [lra|]. destruct (Req_EM_T (1 - 1) 0); [|lra]. rewrite (proj1 (Beta_1 b Hb)). f_equal. field. lra.
  - destruct (Rlt_dec (a - 1) 0); [lra|]. destruct (Req_EM_T (a - 1) 0); [lra|]. rewrite Beta_Bet by assumption. f_equal. ring.
  - destruct (Rlt_dec (b - 1) 0); [reflexivity|lra].
  - subst b. destruct (Rlt_dec (1 - 1) 0); [lra|]. destruct (Req_EM_T (1 - 1) 0); [|lra]. rewrite (proj2 (Beta_1 a Ha)). f_equal. field. lra.
  - destruct (Rlt_dec (b - 1) 0); [lra|]. destruct (Req_EM_T (b - 1) 0); [lra|]. rewrite Beta_Bet by assumption. f_equal. ring.
Qed.
(** alpha = beta = 1 is the uniform distribution *)
Theorem C78_uniform : forall x, bet_cdf (bet_make 1 1) x = Fin (u01_cdf x).
Proof.
  intros x. rewrite bet_cdf_I by lra. f_equal. rewrite ContProofs.u01_cdf_eq. unfold I, uni_cdf.
  destruct (Rle_dec x 0) as [H|H].
  - destruct (Rlt_dec x 0); [reflexivity|]. destruct (Rle_dec 1 x); [lra|]. replace x with 0 by lra. field.
  - destruct (Rlt_dec x 0); [lra|]. destruct (Rle_dec 1 x); [reflexivity|].
    rewrite (lbet_1 1), Bet_1, Rpower_1 by lra. field.
Qed.
End beta_dist.

(** ** C79: student_t_dist *)
Section student_t_dist.
Lemma stu_val nu x : (0 < nu)%Z -> value (stu_cdf nu x) = stu_F nu x.
Proof. intros H. rewrite stu_cdf_F by exact H. reflexivity. Qed.
Lemma stu_inner inv nu u : exact_inverse_beta inv -> (0 < nu)%Z -> epsilon <= u <= 1 - epsilon ->
  exists t, 0 < t < 1 /\ I (IZR nu / 2) (IZR nu / 2) t = u /\ stu_icdf_ inv nu u = Fin (stu_q nu t).
Proof.
  intros H Hn Hu. pose proof epsilon_bounds as Heps. pose proof (half_pos nu Hn) as Hp.
  destruct (inv_beta inv H (IZR nu / 2) (IZR nu / 2) u Hp Hp ltac:(lra)) as (H0 & E). eexists. split; [exact H0|]. split; [exact E|].
  unfold stu_icdf_. cbv zeta. rewrite inv_cut_in by exact Hu. apply stu_icdf_in, H0.
Qed.
Lemma stu_lo inv nu u : (0 < nu)%Z -> u < epsilon -> stu_icdf_ inv nu u = NInf.
Proof.
  intros Hn Hu. apply IZR_lt in Hn. unfold stu_icdf_. cbv zeta. rewrite inv_cut_lo by exact Hu. unfold xdiv.
  destruct (Req_EM_T (0 * (1 - 0)) 0); [|lra]. destruct (Rlt_dec 0 (IZR nu)); [|lra]. unfold xscale. destruct (Rlt_dec 0 (0 - 1 / 2)); [lra|].
  destruct (Rlt_dec (0 - 1 / 2) 0); [reflexivity|lra].
Qed.
Lemma stu_hi inv nu u : (0 < nu)%Z -> 1 - epsilon < u -> stu_icdf_ inv nu u = PInf.
Proof.
  intros Hn Hu. apply IZR_lt in Hn. unfold stu_icdf_. cbv zeta. rewrite inv_cut_hi by exact Hu. unfold xdiv.
  destruct (Req_EM_T (1 * (1 - 1)) 0); [|lra]. destruct (Rlt_dec 0 (IZR nu)); [|lra]. unfold xscale. destruct (Rlt_dec 0 (1 - 1 / 2)); [reflexivity|lra].
Qed.
Theorem C79_cdf : forall nu x, (0 < nu)%Z -> exists r, stu_cdf nu x = Fin r /\ 0 <= r <= 1.
Proof. intros nu x H. exists (stu_F nu x). split; [apply stu_cdf_F, H|apply stu_range, H]. Qed.
Theorem C79_distribution : forall nu, (0 < nu)%Z -> distribution_function (fun x => value (stu_cdf nu x)).
Proof.
  intros nu Hn. pose proof (half_pos nu Hn) as Hp. apply distribution_from with (fun u => stu_q nu (I_inverse (IZR nu / 2) (IZR nu / 2) u)).
  - intros x. rewrite stu_val by exact Hn. apply stu_range, Hn.
  - intros u Hu. rewrite stu_val by exact Hn. destruct (I_inverse_ok (IZR nu / 2) (IZR nu / 2) u Hp Hp Hu) as (A & E). rewrite stu_F_inv by assumption. exact E.
  - intros u x Hu. rewrite stu_val by exact Hn. destruct (I_inverse_ok (IZR nu / 2) (IZR nu / 2) u Hp Hp Hu) as (A & E). apply stu_galois; assumption.
Qed.
Theorem C79_quantile : forall inv nu, exact_inverse_beta inv -> (0 < nu)%Z ->
  quantile_between epsilon (1 - epsilon) (fun x => value (stu_cdf nu x)) (stu_icdf inv nu).
Proof.
  intros inv nu H Hn u Hu. pose proof epsilon_bounds as Heps. destruct (stu_inner inv nu u H Hn Hu) as (t & Ht & E & Ei). exists (stu_q nu t). split; [|split].
  - unfold stu_icdf. rewrite dom_oo_in, !at_point_ne by lra. exact Ei.
  - rewrite stu_val by exact Hn. rewrite stu_F_inv by assumption. exact E.
  - intros x. rewrite stu_val by exact Hn. apply stu_galois; assumption.
Qed.
Theorem C79_density : forall nu x, (0 < nu)%Z -> (nu + 1 < 2 ^ 31)%Z ->
  exists l, stu_pdf nu x = Some l /\ derivable_pt_lim (fun t => value (stu_cdf nu t)) x l.
Proof.
  intros nu x Hn Hm. eexists. split; [apply stu_pdf_val; assumption|]. apply is_derive_Reals.
  apply (is_derive_ext (stu_F nu)); [intros t; symmetry; apply stu_val, Hn|]. apply stu_F_deriv, Hn.
Qed.
Theorem C79_draw : forall inv nu x, exact_inverse_beta inv -> (0 < nu)%Z ->
  probability_near (stu_draw inv nu) x (value (stu_cdf nu x)) epsilon.
Proof.
  intros inv nu x H Hn. pose proof epsilon_bounds as He. rewrite stu_val by exact Hn. unfold probability_near, probability_at_most, stu_draw.
  apply probability_cut.
  - apply stu_range, Hn.
  - intros u Hu. rewrite stu_lo by (assumption || lra). reflexivity.
  - intros u Hu. rewrite stu_hi by (assumption || lra). reflexivity.
  - intros u Hu Hc. destruct (stu_inner inv nu u H Hn Hu) as (t & Ht & E & Ei). rewrite Ei. apply at_most_yes. apply (stu_galois nu Hn t u); assumption.
  - intros u Hu Hc. destruct (stu_inner inv nu u H Hn Hu) as (t & Ht & E & Ei). rewrite Ei. apply at_most_no. apply Rnot_le_lt. intros C.
    apply (stu_galois nu Hn t u) in C; try assumption. lra.
Qed.
(** the distribution is symmetric about 0 *)
Theorem C79_symmetric : forall nu x, (0 < nu)%Z -> value (stu_cdf nu (- x)) = 1 - value (stu_cdf nu x).
Proof.
  intros nu x Hn. rewrite !stu_val by exact Hn. pose proof (half_pos nu Hn) as Hp. unfold stu_F. pose proof (t2_in nu Hn x) as T.
  assert (E : t2 nu (- x) = 1 - t2 nu x).
  { unfold t2. assert (E1 : t1 nu (- x) = t1 nu x) by (unfold t1; f_equal; ring). rewrite E1. pose proof (t1_pos nu Hn x). field. lra. }
  pose proof (t2_in nu Hn (- x)) as T'. rewrite !I_in by assumption. rewrite E. rewrite (lbet_reflect _ _ (1 - t2 nu x)) by lra.
  replace (1 - (1 - t2 nu x)) with (t2 nu x) by ring. pose proof (Bet_pos _ _ Hp Hp). field. lra.
Qed.
Example C79_median : forall nu, (0 < nu)%Z -> stu_cdf nu 0 = Fin (1 / 2).
Proof.
  intros nu Hn. pose proof (C79_symmetric nu 0 Hn) as E. rewrite Ropp_0 in E. rewrite stu_val in E by exact Hn. rewrite stu_cdf_F by exact Hn. f_equal. lra.
Qed.
(** draws with u below epsilon are infinite *)
Theorem C79_infinite_refuted : exists inv nu u v, exact_inverse_beta inv /\ (0 < nu)%Z /\ 0 < u < 1 /\ 0 < v < 1 /\
  stu_draw inv nu u = NInf /\ stu_draw inv nu v = PInf.
Proof.
  pose proof epsilon_bounds as Heps. exists I_inverse, 1%Z, (epsilon / 2), (1 - epsilon / 2). split; [exact exact_inverse_beta_exists|]. split; [lia|].
  split; [lra|]. split; [lra|]. split; [apply stu_lo|apply stu_hi]; (lia || lra).
Qed.
Theorem C79_ends_refuted : exists inv nu, exact_inverse_beta inv /\ (0 < nu)%Z /\ stu_icdf inv nu 0 = NaN /\ stu_icdf inv nu 1 = NaN.
Proof.
  exists I_inverse, 1%Z. split; [exact exact_inverse_beta_exists|]. split; [lia|]. unfold stu_icdf, dom_oo. split.
  - destruct (Rle_dec 0 0); [reflexivity|lra].
  - destruct (Rle_dec 1 0); [lra|]. destruct (Rle_dec 1 1); [reflexivity|lra].
Qed.
(** nu + 1 overflows for the largest nu *)
Theorem C79_overflow_refuted : exists nu x, (0 < nu < 2 ^ 31)%Z /\ stu_pdf nu x = None.
Proof. exists (2 ^ 31 - 1)%Z, 0. split; [lia|]. unfold stu_pdf. replace (2 ^ 31 - 1 + 1 <? 2 ^ 31)%Z with false by reflexivity. reflexivity. Qed.
End student_t_dist.

(** ** C80: snedecor_f_dist *)
Section snedecor_f_dist.
(** cdf, taken as 0 below the support *)
Definition sne_cdf0 (n m : Z) (x : R) : R := if Rlt_dec x 0 then 0 else value (sne_cdf n m x).
Lemma sne_val n m x : (0 < n)%Z -> (0 < m)%Z -> sne_cdf0 n m x = sne_F n m x.
Proof.
  intros Hn Hm. unfold sne_cdf0. destruct (Rlt_dec x 0).
  - unfold sne_F. destruct (Rle_dec x 0); [reflexivity|lra].
  - rewrite sne_cdf_F by (assumption || lra). reflexivity.
Qed.
Lemma hpos n : (0 < n)%Z -> 0 < 1 / 2 * IZR n.
Proof. intros H. apply IZR_lt in H. lra. Qed.
Lemma sne_inner inv n m u : exact_inverse_beta inv -> (0 < n)%Z -> (0 < m)%Z -> epsilon <= u <= 1 - epsilon ->
  exists t, 0 < t < 1 /\ I (1 / 2 * IZR n) (1 / 2 * IZR m) t = u /\ sne_icdf_ inv n m u = Fin (sne_q n m t).
Proof.
  intros H Hn Hm Hu. pose proof epsilon_bounds as Heps.
  destruct (inv_beta inv H (1 / 2 * IZR n) (1 / 2 * IZR m) u (hpos n Hn) (hpos m Hm) ltac:(lra)) as (H0 & E). eexists. split; [exact H0|]. split; [exact E|].
  unfold sne_icdf_. cbv zeta. rewrite inv_cut_in by exact Hu. apply sne_icdf_in, H0.
Qed.
Lemma sne_lo inv n m u : u < epsilon -> sne_icdf_ inv n m u = Fin 0.
Proof.
  intros Hu. unfold sne_icdf_. cbv zeta. rewrite inv_cut_lo by exact Hu. unfold xdiv. destruct (Req_EM_T (1 - 0) 0); [lra|]. f_equal. unfold Rdiv. ring.
Qed.
Lemma sne_hi inv n m u : 1 - epsilon < u -> sne_icdf_ inv n m u = PInf.
Proof.
  intros Hu. unfold sne_icdf_. cbv zeta. rewrite inv_cut_hi by exact Hu. unfold xdiv. destruct (Req_EM_T (1 - 1) 0); [|lra].
  destruct (Rlt_dec 0 1); [reflexivity|lra].
Qed.
Theorem C80_cdf : forall n m x, (0 < n)%Z -> (0 < m)%Z -> 0 <= x -> exists r, sne_cdf n m x = Fin r /\ 0 <= r <= 1.
Proof. intros n m x Hn Hm Hx. exists (sne_F n m x). split; [apply sne_cdf_F; assumption|apply sne_range; assumption]. Qed.
Theorem C80_distribution : forall n m, (0 < n)%Z -> (0 < m)%Z -> distribution_function (sne_cdf0 n m).
Proof.
  intros n m Hn Hm. apply distribution_from with (fun u => sne_q n m (I_inverse (1 / 2 * IZR n) (1 / 2 * IZR m) u)).
  - intros x. rewrite sne_val by assumption. apply sne_range; assumption.
  - intros u Hu. rewrite sne_val by assumption. destruct (I_inverse_ok _ _ u (hpos n Hn) (hpos m Hm) Hu) as (A & E). rewrite sne_F_inv by assumption. exact E.
  - intros u x Hu. rewrite sne_val by assumption. destruct (I_inverse_ok _ _ u (hpos n Hn) (hpos m Hm) Hu) as (A & E). apply sne_galois; assumption.
Qed.
Theorem C80_quantile : forall inv n m, exact_inverse_beta inv -> (0 < n)%Z -> (0 < m)%Z ->
  quantile_between epsilon (1 - epsilon) (sne_cdf0 n m) (sne_icdf inv n m).
Proof.
  intros inv n m H Hn Hm u Hu. pose proof epsilon_bounds as Heps. destruct (sne_inner inv n m u H Hn Hm Hu) as (t & Ht & E & Ei). exists (sne_q n m t). split; [|split].
  - unfold sne_icdf. rewrite dom_oo_in, !at_point_ne by lra. exact Ei.
  - rewrite sne_val by assumption. rewrite sne_F_inv by assumption. exact E.
  - intros x. rewrite sne_val by assumption. apply sne_galois; assumption.
Qed.
Theorem C80_density : forall n m x, (0 < n)%Z -> (0 < m)%Z -> 0 < x ->
  exists l, sne_pdf n m x = Fin l /\ derivable_pt_lim (sne_cdf0 n m) x l.
Proof.
  intros n m x Hn Hm Hx. exists (sne_f n m x). split; [apply sne_pdf_val; assumption|]. apply is_derive_Reals.
  apply (is_derive_ext (sne_F n m)); [intros t; symmetry; apply sne_val; assumption|]. apply sne_F_deriv; assumption.
Qed.
Theorem C80_draw : forall inv n m x, exact_inverse_beta inv -> (0 < n)%Z -> (0 < m)%Z ->
  probability_near (sne_draw inv n m) x (sne_cdf0 n m x) epsilon.
Proof.
  intros inv n m x H Hn Hm. pose proof epsilon_bounds as He. rewrite sne_val by assumption. unfold probability_near, probability_at_most, sne_draw.
  destruct (Rlt_dec x 0) as [Hx|Hx].
  - exists 0. unfold sne_F. destruct (Rle_dec x 0); [|lra]. split; [|rewrite Rminus_0_r, Rabs_R0; lra]. apply probability_split; [lra|intros; lra|].
    intros u Hu. destruct (Rlt_dec u epsilon); [rewrite sne_lo by assumption; apply at_most_no, Hx|].
    destruct (Rlt_dec (1 - epsilon) u); [rewrite sne_hi by assumption; reflexivity|].
    destruct (sne_inner inv n m u H Hn Hm ltac:(lra)) as (t & Ht & E & Ei). rewrite Ei. apply at_most_no. pose proof (sne_q_pos n m Hn Hm t Ht). lra.
  - apply probability_cut.
    + apply sne_range; assumption.
    + intros u Hu. rewrite sne_lo by lra. apply at_most_yes. lra.
    + intros u Hu. rewrite sne_hi by lra. reflexivity.
    + intros u Hu Hc. destruct (sne_inner inv n m u H Hn Hm Hu) as (t & Ht & E & Ei). rewrite Ei. apply at_most_yes. apply (sne_galois n m Hn Hm t u); assumption.
    + intros u Hu Hc. destruct (sne_inner inv n m u H Hn Hm Hu) as (t & Ht & E & Ei). rewrite Ei. apply at_most_no. apply Rnot_le_lt. intros C.
      apply (sne_galois n m Hn Hm t u) in C; try assumption. lra.
Qed.
(** below the support neither the distribution function nor the density is a number *)
Theorem C80_below_refuted : exists n m x, (0 < n)%Z /\ (0 < m)%Z /\ x < 0 /\ sne_cdf n m x = NaN /\ sne_pdf n m x = NaN.
Proof.
  exists 1%Z, 1%Z, (-1 / 2). do 2 (split; [lia|]). split; [lra|]. split; [apply sne_cdf_below; (lia || lra)|].
  unfold sne_pdf. cbv zeta. unfold xln at 1. destruct (Rlt_dec (-1 / 2) 0); [|lra]. cbn [xscale xadd xshift xexp]. reflexivity.
Qed.
(** the density at 0 is not a number for n = 2, where the limit from above is 1 *)
Theorem C80_zero_refuted : exists n m, (0 < n)%Z /\ (0 < m)%Z /\ sne_pdf n m 0 = NaN.
Proof.
  exists 2%Z, 2%Z. do 2 (split; [lia|]). unfold sne_pdf. cbv zeta. unfold xln at 1. destruct (Rlt_dec 0 0); [lra|]. destruct (Req_EM_T 0 0); [|lra].
  unfold xscale at 1. destruct (Rlt_dec 0 (1 / 2 * 2 - 1)); [lra|]. destruct (Rlt_dec (1 / 2 * 2 - 1) 0); [lra|]. reflexivity.
Qed.
(** for other n it is the limit from above *)
Theorem C80_zero : forall n m, (0 < m)%Z -> (n = 1%Z -> sne_pdf n m 0 = PInf) /\ ((2 < n)%Z -> sne_pdf n m 0 = Fin 0).
Proof.
  intros n m Hm. apply IZR_lt in Hm. unfold sne_pdf. cbv zeta. replace (1 + IZR n * 0 / IZR m) with 1 by (field; lra).
  unfold xln at 1 3. destruct (Rlt_dec 0 0); [lra|]. destruct (Req_EM_T 0 0); [|lra].
  assert (L : xln 1 = Fin 0).
  { unfold xln. destruct (Rlt_dec 1 0); [lra|]. destruct (Req_EM_T 1 0); [lra|]. rewrite ln_1. reflexivity. }
  rewrite L. unfold xscale at 1 3. split.
  - intros ->. destruct (Rlt_dec 0 (1 / 2 * 1 - 1)); [lra|]. destruct (Rlt_dec (1 / 2 * 1 - 1) 0); [|lra]. reflexivity.
  - intros H. apply IZR_lt in H. destruct (Rlt_dec 0 (1 / 2 * IZR n - 1)); [|lra]. reflexivity.
Qed.
Theorem C80_infinite_refuted : exists inv n m u, exact_inverse_beta inv /\ (0 < n)%Z /\ (0 < m)%Z /\ 0 < u < 1 /\ sne_draw inv n m u = PInf.
Proof.
  pose proof epsilon_bounds as Heps. exists I_inverse, 1%Z, 1%Z, (1 - epsilon / 2). split; [exact exact_inverse_beta_exists|]. do 2 (split; [lia|]).
  split; [lra|]. apply sne_hi. lra.
Qed.
Theorem C80_ends_refuted : exists inv n m, exact_inverse_beta inv /\ (0 < n)%Z /\ (0 < m)%Z /\ sne_icdf inv n m 0 = NaN /\ sne_icdf inv n m 1 = NaN.
Proof.
  exists I_inverse, 1%Z, 1%Z. split; [exact exact_inverse_beta_exists|]. do 2 (split; [lia|]). unfold sne_icdf, dom_oo. split.
  - destruct (Rle_dec 0 0); [reflexivity|lra].
  - destruct (Rle_dec 1 0); [lra|]. destruct (Rle_dec 1 1); [reflexivity|lra].
Qed.
End snedecor_f_dist.

Example C76_zero_ex : gam_pdf (1 / 2) 3 0 = PInf /\ gam_pdf 2 3 0 = Fin 0.
Proof. split; [apply (proj1 (C76_zero (1 / 2) 3 ltac:(lra)))|apply (proj2 (C76_zero 2 3 ltac:(lra)))]; lra. Qed.
Example C77_zero_ex : chi_pdf 3 0 = Fin 0.
Proof. apply (proj2 (proj2 C77_zero)). lia. Qed.
Example C78_density_ends_ex : bet_pdf (bet_make 1 5) 0 = Fin 5 /\ bet_pdf (bet_make 1 5) 1 = Fin 0.
Proof.
  destruct (C78_density_ends 1 5 ltac:(lra) ltac:(lra)) as (_ & H & _ & _ & _ & H'). split; [apply H; reflexivity|apply H'; lra].
Qed.
Example C80_zero_ex : sne_pdf 1 4 0 = PInf /\ sne_pdf 3 4 0 = Fin 0.
Proof. split; [apply (proj1 (C80_zero 1 4 ltac:(lia))); reflexivity|apply (proj2 (C80_zero 3 4 ltac:(lia))); lia]. Qed.

Print Assumptions C75_tgamma.
Print Assumptions C75_tgamma_rec.
Print Assumptions C75_tgamma_factorial.
Print Assumptions C75_tgamma_half.
Print Assumptions C75_inc_gamma.
Print Assumptions C75_beta.
Print Assumptions C75_beta_sym.
Print Assumptions C75_beta_outside.
Print Assumptions C75_beta_I.
Print Assumptions C75_beta_I_ends.
Print Assumptions C75_ln_binomial.
Print Assumptions C75_pochhammer.
Print Assumptions C76_quantile.
Print Assumptions C76_distribution.
Print Assumptions C76_density.
Print Assumptions C76_draw.
Print Assumptions C76_range.
Print Assumptions C76_exponential.
Print Assumptions C76_zero_refuted.
Print Assumptions C76_ends_refuted.
Print Assumptions C77_quantile.
Print Assumptions C77_distribution.
Print Assumptions C77_density.
Print Assumptions C77_draw.
Print Assumptions C77_range.
Print Assumptions C77_two.
Print Assumptions C77_ends_refuted.
Print Assumptions C78_cdf.
Print Assumptions C78_distribution.
Print Assumptions C78_quantile.
Print Assumptions C78_density.
Print Assumptions C78_draw.
Print Assumptions C78_range.
Print Assumptions C78_set.
Print Assumptions C78_quantile_refuted.
Print Assumptions C78_equality_refuted.
Print Assumptions C78_uniform.
Print Assumptions C79_cdf.
Print Assumptions C79_distribution.
Print Assumptions C79_quantile.
Print Assumptions C79_density.
Print Assumptions C79_draw.
Print Assumptions C79_symmetric.
Print Assumptions C79_infinite_refuted.
Print Assumptions C79_ends_refuted.
Print Assumptions C79_overflow_refuted.
Print Assumptions C80_cdf.
Print Assumptions C80_distribution.
Print Assumptions C80_quantile.
Print Assumptions C80_density.
Print Assumptions C80_draw.
Print Assumptions C80_below_refuted.
Print Assumptions C80_zero_refuted.
Print Assumptions C80_infinite_refuted.
Print Assumptions C80_ends_refuted.
Print Assumptions C76_zero.
Print Assumptions C77_zero.
Print Assumptions C78_density_ends.
Print Assumptions C80_zero.
Print Assumptions C78_icdf_ends.
