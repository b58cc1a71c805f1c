(** C97: inv_Phi, inv_erf and inv_erfc as the code evaluates them, in exact arithmetic, and the
    quantile functions of the normal distributions that call them. *)
From Coq Require Import Reals Lra Psatz ZArith.
From Coquelicot Require Import Coquelicot.
From Verif Require Import ContModel ContProofs Prop_Continuous NormModel NormProofs Prop_Normal InvPhiModel InvPhiProofs.
Local Open Scope R_scope.

(** ** Specification *)

(** z is the x-quantile of the standard normal distribution *)
Definition normal_quantile (x z : R) : Prop := is_lim (fun a => RInt standard_density a z) m_infty x.
(** x is the value of the error function, of its complement, at z *)
Definition error_function (x z : R) : Prop := x = 2 / sqrt PI * RInt (fun t => exp (- (t * t))) 0 z.
Definition complementary_error_function (x z : R) : Prop :=
  is_lim (fun b => 2 / sqrt PI * RInt (fun t => exp (- (t * t))) z b) p_infty x.
(** the relative error: one Halley step in float and double, two in long double *)
Definition relative_error (wide : bool) : R := if wide then / 2 ^ 140 else / 2 ^ 54.
(** the result is the number y with |y - z| <= eps |z| *)
Definition finite_near (r : xreal) (z eps : R) : Prop := exists y, r = Fin y /\ Rabs (y - z) <= eps * Rabs z.

Lemma normal_quantile_Phi x z : normal_quantile x z <-> Phi z = x.
Proof.
  split.
  - intros H. pose proof (is_lim_unique _ _ _ H) as E1. pose proof (is_lim_unique _ _ _ (C68_integral z)) as E2. rewrite E1 in E2. now injection E2 as ->.
  - intros <-. apply C68_integral.
Qed.
Lemma erf_density_int a b : is_RInt (fun t => exp (- (t * t))) a b (RInt (fun t => exp (- (t * t))) 0 b - RInt (fun t => exp (- (t * t))) 0 a).
Proof.
  assert (C : forall u v, ex_RInt (fun t => exp (- (t * t))) u v).
  { intros u v. apply (ex_RInt_continuous (V := R_CompleteNormedModule)). intros t _. apply (ex_derive_continuous (V := R_NormedModule)). auto_derive. trivial. }
  replace (RInt (fun t => exp (- (t * t))) 0 b - RInt (fun t => exp (- (t * t))) 0 a) with (RInt (fun t => exp (- (t * t))) a b); [exact (RInt_correct (V := R_CompleteNormedModule) _ _ _ (C a b))|].
  pose proof (RInt_Chasles (fun t => exp (- (t * t))) 0 a b (C _ _) (C _ _)) as H. set (i1 := RInt _ 0 a) in *. set (i2 := RInt _ a b) in *. set (i3 := RInt _ 0 b) in *. change (i1 + i2 = i3) in H. lra.
Qed.
Lemma complementary_erf x z : complementary_error_function x z <-> erf z = 1 - x.
Proof.
  assert (L : complementary_error_function (1 - erf z) z).
  { unfold complementary_error_function. apply is_lim_spec. intros e. destruct (erf_limit e (cond_pos e)) as (x0 & _ & H). exists x0. intros b Hb.
    rewrite (is_RInt_unique _ _ _ _ (erf_density_int z b)). unfold erf in *. specialize (H b ltac:(lra)). pose proof (erf_bound b) as B. unfold erf in B.
    set (s := 2 / sqrt PI) in *. set (ib := RInt _ 0 b) in *. set (iz := RInt _ 0 z). replace (s * (ib - iz) - (1 - s * iz)) with (- (1 - s * ib)) by ring.
    rewrite Rabs_Ropp, Rabs_right; lra. }
  split.
  - intros H. pose proof (is_lim_unique _ _ _ H) as E1. pose proof (is_lim_unique _ _ _ L) as E2. rewrite E1 in E2. injection E2 as ->. ring.
  - intros H. replace x with (1 - erf z) by lra. exact L.
Qed.

(** ** The inverse functions *)

Theorem C97_quantile_exists : forall x, 0 < x < 1 -> exists z, normal_quantile x z /\ forall z', normal_quantile x z' -> z' = z.
Proof.
  intros x Hx. exists (Phi_inverse x). split; [apply normal_quantile_Phi, Phi_inverse_ok, Hx|].
  intros z' H. apply normal_quantile_Phi in H. pose proof (Phi_inverse_ok x Hx) as E. destruct (Rtotal_order z' (Phi_inverse x)) as [L|[L|L]]; [|exact L|]; apply Phi_increasing in L; lra.
Qed.
Theorem C97_inv_Phi : forall wide x z, / 2 ^ 1074 <= x <= 1 - / 2 ^ 1074 -> normal_quantile x z ->
  finite_near (inv_Phi_alg wide x) z (relative_error wide).
Proof.
  intros wide x z Hx Hz. change (/ 2 ^ 1074) with reach in *. apply normal_quantile_Phi in Hz. destruct (inv_Phi_accurate wide x z Hx Hz) as (y0 & y & _ & _ & E & B). exists y. split; assumption.
Qed.
(** the starting value, without a Halley step *)
Theorem C97_approximation : forall x z, / 2 ^ 1074 <= x <= 1 - / 2 ^ 1074 -> normal_quantile x z ->
  exists y, inv_Phi_approx x = Fin y /\ Rabs (y - z) <= 1 / 10000.
Proof.
  intros x z Hx Hz. change (/ 2 ^ 1074) with reach in *. apply normal_quantile_Phi in Hz. destruct (inv_Phi_accurate false x z Hx Hz) as (y0 & y & E & B & _). exists y0. split; assumption.
Qed.
Theorem C97_inv_erf : forall wide x z, Rabs x <= 1 - 2 * / 2 ^ 1074 -> error_function x z ->
  finite_near (inv_erf_alg wide x) z (relative_error wide).
Proof.
  intros wide x z Hx Hz. change (/ 2 ^ 1074) with reach in *. apply Rabs_le_between in Hx. pose proof sqrt2_pos as P. assert (E : Phi (z * sqrt 2) = (x + 1) / 2).
  { rewrite Phi_erf. replace (z * sqrt 2 / sqrt 2) with z by (field; lra). unfold error_function in Hz. rewrite Hz. unfold erf. field. pose proof sqrt_PI_pos. lra. }
  destruct (inv_Phi_accurate wide ((x + 1) / 2) (z * sqrt 2) ltac:(lra) E) as (y0 & y & E0 & _ & E1 & B).
  exists (y * (1 / sqrt 2)). split; [now apply inv_erf_eq with y0|].
  replace (y * (1 / sqrt 2) - z) with ((y - z * sqrt 2) * (1 / sqrt 2)) by (field; lra).
  replace z with (z * sqrt 2 * (1 / sqrt 2)) at 2 by (field; lra). rewrite (Rabs_mult (y - _)), (Rabs_mult (z * sqrt 2)), <- Rmult_assoc.
  apply Rmult_le_compat_r; [apply Rabs_pos|exact B].
Qed.
Theorem C97_inv_erfc : forall wide x z, 2 * / 2 ^ 1074 <= x <= 2 - 2 * / 2 ^ 1074 -> complementary_error_function x z ->
  finite_near (inv_erfc_alg wide x) z (relative_error wide).
Proof.
  intros wide. change (/ 2 ^ 1074) with reach in *. pose proof sqrt2_pos as P. pose proof reach_small as RS. 
  assert (M : forall x z, 2 * reach <= x <= 1 -> erf z = 1 - x -> finite_near (inv_erfc_alg wide x) z (relative_error wide)).
  { intros x z Hx Hz. assert (E : Phi (- (z * sqrt 2)) = x / 2).
    { rewrite Phi_erf. replace (- (z * sqrt 2) / sqrt 2) with (- z) by (field; lra). rewrite erf_odd. lra. }
    destruct (inv_Phi_accurate wide (x / 2) (- (z * sqrt 2)) ltac:(lra) E) as (y0 & y & E0 & _ & E1 & B).
    exists (- y * (1 / sqrt 2)). split; [apply inv_erfc_eq with y0; try assumption; lra|].
    replace (- y * (1 / sqrt 2) - z) with (- (y - - (z * sqrt 2)) * (1 / sqrt 2)) by (field; lra).
    replace z with (- - (z * sqrt 2) * (1 / sqrt 2)) at 2 by (field; lra). rewrite (Rabs_mult (- (y - _))), (Rabs_mult (- - (z * sqrt 2))), (Rabs_Ropp (y - _)), (Rabs_Ropp (- (z * sqrt 2))), <- Rmult_assoc.
    apply Rmult_le_compat_r; [apply Rabs_pos|exact B]. }
  intros x z Hx Hz. apply complementary_erf in Hz. destruct (Rle_lt_dec x 1) as [L|L]; [apply M; [lra|exact Hz]|].
  destruct (M (2 - x) (- z)) as (y & E & B); [lra|rewrite erf_odd; lra|]. exists (- y). split; [now apply inv_erfc_flip|].
  replace (- y - z) with (- (y - - z)) by ring. rewrite Rabs_Ropp. rewrite Rabs_Ropp in B. exact B.
Qed.
(** the ends of the domains and the arguments outside *)
Theorem C97_ends : forall wide x,
  (inv_Phi_alg wide 0 = NInf /\ inv_Phi_alg wide 1 = PInf /\ (x < 0 \/ 1 < x -> inv_Phi_alg wide x = NaN)) /\
  (inv_erf_alg wide (- (1)) = NInf /\ inv_erf_alg wide 1 = PInf /\ (x < - (1) \/ 1 < x -> inv_erf_alg wide x = NaN)) /\
  (inv_erfc_alg wide 0 = PInf /\ inv_erfc_alg wide 2 = NInf /\ (x < 0 \/ 2 < x -> inv_erfc_alg wide x = NaN)).
Proof.
  intros wide x. change (/ 2 ^ 1074) with reach in *. pose proof sqrt2_pos as P. assert (P1 : 0 < 1 / sqrt 2) by (apply Rdiv_lt_0_compat; lra).
  assert (A0 : inv_Phi_approx 0 = NInf).
  { unfold inv_Phi_approx. destruct (Rlt_dec 0 0); [lra|]. destruct (Rlt_dec 1 0); [lra|]. destruct (Req_EM_T 0 0); [reflexivity|lra]. }
  assert (A1 : inv_Phi_approx 1 = PInf).
  { unfold inv_Phi_approx. destruct (Rlt_dec 1 0); [lra|]. destruct (Rlt_dec 1 1); [lra|]. destruct (Req_EM_T 1 0); [lra|]. destruct (Req_EM_T 1 1); [reflexivity|lra]. }
  assert (AN : forall v, v < 0 \/ 1 < v -> inv_Phi_approx v = NaN).
  { intros v Hv. unfold inv_Phi_approx. destruct (Rlt_dec v 0); [reflexivity|]. destruct (Rlt_dec 1 v); [reflexivity|lra]. }
  repeat split.
  - unfold inv_Phi_alg. rewrite A0. now destruct wide.
  - unfold inv_Phi_alg. rewrite A1. now destruct wide.
  - intros H. unfold inv_Phi_alg. rewrite (AN x H). now destruct wide.
  - unfold inv_erf_alg. replace ((- (1) + 1) / 2) with 0 by field. rewrite A0. cbn [scale]. destruct (Rlt_dec 0 (1 / sqrt 2)); [|lra]. now destruct wide.
  - unfold inv_erf_alg. replace ((1 + 1) / 2) with 1 by field. rewrite A1. cbn [scale]. destruct (Rlt_dec 0 (1 / sqrt 2)); [|lra]. now destruct wide.
  - intros H. unfold inv_erf_alg. rewrite AN by lra. now destruct wide.
  - unfold inv_erfc_alg. destruct (Rlt_dec 1 0); [lra|]. replace (0 / 2) with 0 by field. rewrite A0. cbn [scale neg]. destruct (Rlt_dec 0 (1 / sqrt 2)); [|lra]. now destruct wide.
  - unfold inv_erfc_alg. destruct (Rlt_dec 1 2); [|lra]. replace ((- (2 - 1) + 1) / 2) with 0 by field. rewrite A0. cbn [scale neg]. destruct (Rlt_dec 0 (1 / sqrt 2)); [|lra]. now destruct wide.
  - intros H. unfold inv_erfc_alg. destruct (Rlt_dec 1 x); rewrite AN by lra; now destruct wide.
Qed.
(** the value in the middle of the domain is exact *)
Theorem C97_middle : forall wide, inv_Phi_alg wide (1 / 2) = Fin 0 /\ inv_erf_alg wide 0 = Fin 0 /\ inv_erfc_alg wide 1 = Fin 0.
Proof.
  intros wide. change (/ 2 ^ 1074) with reach in *. pose proof reach_small as RS.  pose proof reach_pos as RP. 
  assert (H : forall r, finite_near r 0 (relative_error wide) -> r = Fin 0).
  { intros r (y & -> & B). rewrite Rabs_R0, Rmult_0_r, Rminus_0_r in B. pose proof (Rabs_pos y) as Py. f_equal. destruct (Req_dec y 0) as [E|E]; [exact E|]. apply Rabs_pos_lt in E. lra. }
  repeat split; apply H.
  - apply C97_inv_Phi; [change (/ 2 ^ 1074) with reach; lra|]. apply normal_quantile_Phi. rewrite Phi_erf. replace (0 / sqrt 2) with 0 by (field; pose proof sqrt2_pos; lra). rewrite erf_0. field.
  - apply C97_inv_erf; [change (/ 2 ^ 1074) with reach; rewrite Rabs_R0; lra|]. unfold error_function. change (0 = erf 0). now rewrite erf_0.
  - apply C97_inv_erfc; [change (/ 2 ^ 1074) with reach; lra|]. apply complementary_erf. rewrite erf_0. ring.
Qed.

(** ** The distributions *)

(** icdf of normal_dist, lognormal_dist and truncated_normal_dist takes inv_Phi as a parameter in NormModel; here it is the code's *)
Definition inv_code (wide : bool) (x : R) : R := match inv_Phi_alg wide x with Fin y => y | _ => 0 end.
Lemma inv_code_spec wide x z : / 2 ^ 1074 <= x <= 1 - / 2 ^ 1074 -> Phi z = x -> Rabs (inv_code wide x - z) <= relative_error wide * Rabs z.
Proof.
  intros Hx Hz. change (/ 2 ^ 1074) with reach in *. destruct (C97_inv_Phi wide x z Hx (proj2 (normal_quantile_Phi x z) Hz)) as (y & E & B). unfold inv_code. rewrite E. exact B.
Qed.
(** the parameter agrees with the code wherever the code returns a number *)
Theorem C97_code : forall wide x, x <= 0 \/ / 2 ^ 1074 <= x <= 1 - / 2 ^ 1074 \/ 1 <= x -> inv_Phi (inv_code wide) x = inv_Phi_alg wide x.
Proof.
  intros wide x Hx. change (/ 2 ^ 1074) with reach in *. destruct (C97_ends wide x) as ((E0 & E1 & EN) & _). unfold inv_Phi.
  destruct (Rlt_dec x 0); [symmetry; apply EN; lra|]. destruct (Rlt_dec 1 x); [symmetry; apply EN; lra|].
  destruct (Req_EM_T x 0) as [->|]; [symmetry; exact E0|]. destruct (Req_EM_T x 1) as [->|]; [symmetry; exact E1|].
  assert (R : reach <= x <= 1 - reach) by lra. assert (0 < x < 1) by lra.
  destruct (C97_inv_Phi wide x (Phi_inverse x) R) as (y & E & _); [apply normal_quantile_Phi, Phi_inverse_ok; lra|]. unfold inv_code. now rewrite E.
Qed.
Theorem C97_normal : forall wide mu sigma x q, 0 < sigma -> / 2 ^ 1074 <= x <= 1 - / 2 ^ 1074 -> norm_cdf mu sigma q = x ->
  exists y, norm_icdf (inv_code wide) mu sigma x = Fin y /\ Rabs (y - q) <= relative_error wide * Rabs (q - mu).
Proof.
  intros wide mu s x q Hs Hx Hq. change (/ 2 ^ 1074) with reach in *. unfold norm_cdf in Hq. pose proof (inv_code_spec wide x _ Hx Hq) as B. pose proof reach_pos as RP. 
  exists (inv_code wide x * s + mu). split; [unfold norm_icdf; rewrite inv_Phi_in by lra; reflexivity|].
  replace (inv_code wide x * s + mu - q) with ((inv_code wide x - (q - mu) / s) * s) by (field; lra).
  replace (Rabs (q - mu)) with (Rabs ((q - mu) / s) * s) by (rewrite <- (Rabs_right s) at 2 by lra; rewrite <- Rabs_mult; f_equal; field; lra).
  rewrite Rabs_mult, (Rabs_right s), <- Rmult_assoc by lra. apply Rmult_le_compat_r; [lra|exact B].
Qed.
Theorem C97_lognormal : forall wide mu sigma x q, 0 < sigma -> / 2 ^ 1074 <= x <= 1 - / 2 ^ 1074 -> 0 < q -> logn_cdf mu sigma q = x ->
  exists y, logn_icdf (inv_code wide) mu sigma x = Fin y /\ 0 < y /\ Rabs (ln y - ln q) <= relative_error wide * Rabs (ln q - mu).
Proof.
  intros wide mu s x q Hs Hx Hq E. change (/ 2 ^ 1074) with reach in *. rewrite logn_cdf_norm in E by assumption. pose proof reach_pos as RP. 
  destruct (C97_normal wide mu s x (ln q) Hs Hx E) as (y & Ey & B). exists (exp y). unfold norm_icdf in Ey. rewrite inv_Phi_in in Ey by lra. cbn [affine] in Ey. injection Ey as <-.
  split; [|split; [apply exp_pos|rewrite ln_exp; exact B]]. unfold logn_icdf. rewrite dom_cc_in, !at_point_ne by lra. reflexivity.
Qed.
Theorem C97_truncated : forall wide mu sigma a b x q, 0 < sigma -> tn_ordered a b ->
  let P := tn_make mu sigma a b in
  / 2 ^ 1074 <= x * (tn_Phi_b P - tn_Phi_a P) + tn_Phi_a P <= 1 - / 2 ^ 1074 -> tn_cdf P q = x ->
  exists y, tn_icdf (inv_code wide) P x = Fin y /\ Rabs (y - q) <= relative_error wide * Rabs (q - mu).
Proof.
  intros wide mu s a b x q Hs Hab P Hx Hq. change (/ 2 ^ 1074) with reach in *. pose proof (tn_Phi_ordered mu s a b Hs Hab) as O. fold P in O. unfold tn_cdf in Hq. cbv zeta in Hq.
  change (tn_mu P) with mu in Hq. change (tn_sigma P) with s in Hq.
  assert (E : norm_cdf mu s q = x * (tn_Phi_b P - tn_Phi_a P) + tn_Phi_a P). { unfold norm_cdf. rewrite <- Hq. field. lra. }
  exact (C97_normal wide mu s _ q Hs Hx E).
Qed.

(** ** Examples *)

Lemma small_enough c : 1 / 1000 <= c -> / 2 ^ 1074 <= c.
Proof.
  intros H. change 1074%nat with (10 + 1064)%nat. rewrite pow_add. pose proof (pow_R1_Rle 2 1064 ltac:(lra)) as P. set (p := 2 ^ 1064) in *. clearbody p.
  apply Rle_trans with (/ 1000); [|lra]. apply Rinv_le_contravar; cbn [pow]; lra.
Qed.
(** a quantile in the lower region, one in the central and one in the upper region *)
Example C97_ex : exists y z, normal_quantile (1 / 1000) z /\ inv_Phi_alg false (1 / 1000) = Fin y /\ z < 0 /\ Rabs (y - z) <= / 2 ^ 54 * - z.
Proof.
  destruct (C97_quantile_exists (1 / 1000) ltac:(lra)) as (z & Hz & _). pose proof (small_enough (1 / 1000) ltac:(lra)) as SE. change (/ 2 ^ 1074) with reach in SE. pose proof reach_small as RS. 
  destruct (C97_inv_Phi false (1 / 1000) z ltac:(lra) Hz) as (y & E & B). exists y, z.
  assert (L : z < 0). { apply normal_quantile_Phi in Hz. apply Rnot_le_lt. intros N. apply Phi_le in N. pose proof C68_ex. lra. }
  rewrite (Rabs_left z L) in B. repeat split; assumption.
Qed.
Example C97_ex_erf : exists y z, error_function (3 / 4) z /\ inv_erf_alg true (3 / 4) = Fin y /\ 0 < z /\ Rabs (y - z) <= / 2 ^ 140 * z.
Proof.
  assert (X : 0 < 7 / 8 < 1) by lra. pose proof (Phi_inverse_ok _ X) as E. rewrite Phi_erf in E. set (z := Phi_inverse (7 / 8) / sqrt 2) in *.
  assert (Hz : error_function (3 / 4) z) by (unfold error_function; change (3 / 4 = erf z); lra). pose proof (small_enough (1 / 8) ltac:(lra)) as SE. change (/ 2 ^ 1074) with reach in SE.
  destruct (C97_inv_erf true (3 / 4) z) as (y & Ey & B); [change (/ 2 ^ 1074) with reach; rewrite Rabs_right; lra|exact Hz|]. exists y, z.
  assert (L : 0 < z). { apply Rnot_le_lt. intros [N|N]; [apply erf_increasing in N; rewrite erf_0 in N; lra|rewrite N, erf_0 in E; lra]. }
  rewrite (Rabs_right z) in B by lra. repeat split; assumption.
Qed.
Example C97_ex_normal : forall wide, norm_icdf (inv_code wide) 3 2 (1 / 2) = Fin 3.
Proof.
  intros wide. change (/ 2 ^ 1074) with reach in *. unfold norm_icdf. rewrite inv_Phi_in by lra. unfold inv_code. rewrite (proj1 (C97_middle wide)). cbn. f_equal. ring.
Qed.

Print Assumptions C97_quantile_exists.
Print Assumptions C97_inv_Phi.
Print Assumptions C97_approximation.
Print Assumptions C97_inv_erf.
Print Assumptions C97_inv_erfc.
Print Assumptions C97_ends.
Print Assumptions C97_middle.
Print Assumptions C97_code.
Print Assumptions C97_normal.
Print Assumptions C97_lognormal.
Print Assumptions C97_truncated.
