(** cdf and pdf of the normal distribution in double. *)
From Coq Require Import ZArith Bool Reals Lia Lra Psatz.
From Coquelicot Require Import Coquelicot.
From Flocq Require Import Core IEEE754.BinarySingleNaN.
From Verif Require Import FloatFacts UniformModel UniformProofs FloatDrawModel FloatDrawSpec FloatDrawProofs FloatDrawCore FloatDrawLoc FloatDrawTrig FloatDrawLaw DiscDrawTree FloatCdfModel FloatCdfSpec FloatCdfProofs FloatCdfCore FloatCdfLoc FloatPdfSpec FloatPdfProofs FloatNormModel FloatNormSpec NormModel NormProofs.
Local Open Scope R_scope.
Notation rnd := (round radix2 (SpecFloat.fexp 53 1024) ZnearestE).

(** ** The exact functions *)
Lemma erf_eq x : error_function x = erf x. Proof. reflexivity. Qed.
Lemma gauss_phi z : gauss_density z = phi z.
Proof. unfold gauss_density, phi. replace (- (z * z) / 2) with (- (z * z / 2)) by field. unfold Rdiv. ring. Qed.
Lemma gauss_cdf_erf z : gauss_cdf z = / 2 + / 2 * erf (z / sqrt 2).
Proof.
  unfold gauss_cdf. rewrite (RInt_ext gauss_density phi) by (intros; apply gauss_phi). rewrite (is_RInt_unique _ _ _ _ (Phi_integral 0 z)). rewrite (Phi_erf z), (Phi_erf 0).
  replace (0 / sqrt 2) with 0 by (unfold Rdiv; ring). rewrite erf_0. lra.
Qed.
Lemma gauss_cdf_range z : 0 < gauss_cdf z < 1.
Proof. rewrite gauss_cdf_erf. pose proof (erf_bound (z / sqrt 2)). lra. Qed.
Lemma two_sqrtPI : 1 <= 2 / sqrt PI <= 6 / 5.
Proof.
  pose proof PI_18 as P. pose proof (sqrt_sqrt PI ltac:(lra)) as S. pose proof sqrt_PI_pos as S0. assert (L : 5 / 3 <= sqrt PI) by (apply Rsqr_incr_0; [unfold Rsqr; lra|lra|lra]). assert (U : sqrt PI <= 2) by (apply Rsqr_incr_0; [unfold Rsqr; lra|lra|lra]).
  split; apply Rmult_le_reg_r with (sqrt PI); try exact S0; unfold Rdiv at 1; rewrite ?Rmult_assoc, ?Rinv_l by lra; [lra|]. replace (6 * (/ 5 * sqrt PI)) with (6 / 5 * sqrt PI) by field. lra.
Qed.
Lemma sq_exp c : 2 * Rabs c * exp (- (c * c)) <= 1.
Proof.
  rewrite exp_Ropp. pose proof (exp_pos (c * c)) as P. pose proof (exp_1m (c * c)) as E. apply Rmult_le_reg_r with (exp (c * c)); [exact P|]. rewrite Rmult_assoc, Rinv_l by lra. pose proof (Rle_0_sqr (Rabs c - 1)) as K. unfold Rsqr in K.
  assert (A : Rabs c * Rabs c = c * c) by (rewrite <- Rabs_mult; apply Rabs_pos_eq, Rle_0_sqr). lra.
Qed.
Lemma erf_mvt a b : exists c, Rmin a b <= c <= Rmax a b /\ erf b - erf a = 2 / sqrt PI * exp (- (c * c)) * (b - a).
Proof.
  destruct (MVT_gen erf a b (fun x => 2 / sqrt PI * exp (- (x * x)))) as (c & C & E).
  - intros x _. apply erf_deriv.
  - intros x _. apply derivable_continuous_pt. exists (2 / sqrt PI * exp (- (x * x))). apply is_derive_Reals, erf_deriv.
  - exists c. split; [exact C|exact E].
Qed.
Lemma erf_close z y k tau : 0 <= k <= / 4 -> 0 <= tau -> Rabs (y - z) <= k * Rabs z + tau -> Rabs (erf y - erf z) <= 6 / 5 * (k + 2 * k * tau + tau).
Proof.
  intros K T H. destruct (erf_mvt z y) as (c & C & E). rewrite E. pose proof two_sqrtPI as W. pose proof (exp_pos (- (c * c))) as P. assert (P1 : exp (- (c * c)) <= 1) by (rewrite <- exp_0; apply exp_le; pose proof (Rle_0_sqr c) as S; unfold Rsqr in S; lra).
  rewrite Rabs_mult, (Rabs_pos_eq (_ * _)) by (apply Rmult_le_pos; lra). pose proof (Rabs_pos z) as Z0. pose proof (Rabs_pos c) as C0.
  assert (ZC : Rabs z <= 2 * Rabs c + 2 * tau).
  { assert (D : Rabs (z - c) <= k * Rabs z + tau). { apply Rle_trans with (2 := H). unfold Rmin, Rmax in C. destruct (Rle_dec z y) as [L|L]; [rewrite (Rabs_left1 (z - c)) by lra; rewrite (Rabs_pos_eq (y - z)) by lra; lra|rewrite (Rabs_pos_eq (z - c)) by lra; rewrite (Rabs_left1 (y - z)) by lra; lra]. }
    pose proof (Rabs_triang (z - c) c) as S. replace (z - c + c) with z in S by ring. assert (k * Rabs z <= / 4 * Rabs z) by (apply Rmult_le_compat_r; lra). lra. }
  pose proof (sq_exp c) as SE. set (e := exp (- (c * c))) in *. apply Rle_trans with (6 / 5 * (e * (k * Rabs z + tau))).
  - rewrite Rmult_assoc. apply Rmult_le_compat; try lra; [apply Rmult_le_pos; [lra|apply Rabs_pos]|]. apply Rmult_le_compat_l; lra.
  - apply Rmult_le_compat_l; [lra|]. assert (A1 : k * (e * Rabs z) <= k * (1 + 2 * tau)). { apply Rmult_le_compat_l; [lra|]. apply Rle_trans with (e * (2 * Rabs c + 2 * tau)); [apply Rmult_le_compat_l; lra|]. assert (e * tau <= 1 * tau) by (apply Rmult_le_compat_r; lra). lra. }
    assert (e * tau <= 1 * tau) by (apply Rmult_le_compat_r; lra). lra.
Qed.
(** the tail *)
Lemma erfc_tail z : 1 <= z -> 0 < 1 - erf z <= exp (- (z * z)).
Proof.
  intros Z. pose proof (erf_bound z) as B. split; [lra|]. apply Rnot_lt_le. intros C. set (e := (1 - erf z - exp (- (z * z))) / 2). destruct (erf_limit e) as (x0 & X0 & X1); [unfold e; lra|]. set (y := Rmax x0 z). specialize (X1 y (Rmax_l _ _)). assert (ZY : z <= y) by apply Rmax_r.
  destruct (MVT_gen (fun t => exp (- (t * t)) + erf t) z y (fun t => - (2 * t) * exp (- (t * t)) + 2 / sqrt PI * exp (- (t * t)))) as (c & C1 & E).
  - intros x _. apply (is_derive_plus (fun t => exp (- (t * t))) erf); [auto_derive; [trivial|ring]|apply erf_deriv].
  - intros x _. apply derivable_continuous_pt. exists (- (2 * x) * exp (- (x * x)) + 2 / sqrt PI * exp (- (x * x))). apply is_derive_Reals. apply (is_derive_plus (fun t => exp (- (t * t))) erf); [auto_derive; [trivial|ring]|apply erf_deriv].
  - rewrite Rmin_left, Rmax_right in C1 by lra. pose proof (exp_pos (- (c * c))) as P. pose proof (exp_pos (- (y * y))) as PY. pose proof two_sqrtPI as W.
    assert (N : (- (2 * c) * exp (- (c * c)) + 2 / sqrt PI * exp (- (c * c))) * (y - z) <= 0).
    { replace ((- (2 * c) * exp (- (c * c)) + 2 / sqrt PI * exp (- (c * c))) * (y - z)) with (- ((2 * c - 2 / sqrt PI) * exp (- (c * c)) * (y - z))) by ring. assert (0 <= (2 * c - 2 / sqrt PI) * exp (- (c * c)) * (y - z)) by (apply Rmult_le_pos; [apply Rmult_le_pos; lra|lra]). lra. }
    cbv beta in E. rewrite <- E in N. unfold e in X1. pose proof (exp_pos (- (y * y))). unfold e in *.
    (* exp(-y^2) + erf y <= exp(-z^2) + erf z, and erf y > 1 - e *) lra.
Qed.
Lemma erf_far z : 8 <= z -> 1 - q <= erf z <= 1.
Proof. intros Z. pose proof (erfc_tail z ltac:(lra)) as T. pose proof q_pos. assert (8 * 8 <= z * z) by (apply Rmult_le_compat; lra). pose proof (exp_tail (z * z) ltac:(lra)). lra. Qed.

(** ** Constants *)
Lemma dinvsqrt2_ok : is_finite dinvsqrt2 = true /\ B2R dinvsqrt2 = 6369051672525773 / 9007199254740992.
Proof. assert (E : B2SF dinvsqrt2 = SpecFloat.S754_finite false 6369051672525773 (-53)) by (vm_compute; reflexivity). apply sf_val in E. destruct E as (A & B). split; [exact A|]. rewrite B. unfold F2R. cbn. lra. Qed.
Lemma dinvsqrt2pi_ok : is_finite dinvsqrt2pi = true /\ B2R dinvsqrt2pi = 7186705221432913 / 18014398509481984.
Proof. assert (E : B2SF dinvsqrt2pi = SpecFloat.S754_finite false 7186705221432913 (-54)) by (vm_compute; reflexivity). apply sf_val in E. destruct E as (A & B). split; [exact A|]. rewrite B. unfold F2R. cbn. lra. Qed.
Lemma dsqrt2overpi_ok : is_finite dsqrt2overpi = true /\ B2R dsqrt2overpi = 7186705221432913 / 9007199254740992.
Proof. assert (E : B2SF dsqrt2overpi = SpecFloat.S754_finite false 7186705221432913 (-53)) by (vm_compute; reflexivity). apply sf_val in E. destruct E as (A & B). split; [exact A|]. rewrite B. unfold F2R. cbn. lra. Qed.
Lemma lc_root c v : 0 < c -> 0 < v -> Rabs (c * c - v) <= q * v -> lc q c (sqrt v).
Proof. intros C V H. pose proof q_pos as Q. pose proof (lc_rel q (c * c) v V ltac:(lra) H) as L. apply lc_sqrt in L. rewrite sqrt_square in L by lra. replace (2 * q / 2) with q in L by field. exact L. Qed.
Lemma invsqrt2_lc : lc q (B2R dinvsqrt2) (/ sqrt 2).
Proof. rewrite <- (sqrt_inv 2), (proj2 dinvsqrt2_ok). apply lc_root; [lra|lra|]. apply Rabs_le. unfold q. lra. Qed.
Lemma invsqrt2pi_lc : lc q (B2R dinvsqrt2pi) (/ sqrt (2 * PI)).
Proof.
  pose proof PI_18 as P. rewrite <- (sqrt_inv (2 * PI)), (proj2 dinvsqrt2pi_ok). assert (V : 0 < / (2 * PI)) by (apply Rinv_0_lt_compat; lra). apply lc_root; [lra|exact V|]. set (v := / (2 * PI)) in *. assert (E : v * (2 * PI) = 1) by (unfold v; field; lra).
  set (c2 := 7186705221432913 / 18014398509481984 * (7186705221432913 / 18014398509481984)). replace (c2 - v) with ((c2 * (2 * PI) - 1) * v) by (unfold v; field; lra). rewrite Rabs_mult, (Rabs_pos_eq v) by lra. apply Rmult_le_compat_r; [lra|]. apply Rabs_le. unfold c2, q. lra.
Qed.
Lemma sqrt2overpi_lc : lc q (B2R dsqrt2overpi) (sqrt (2 / PI)).
Proof.
  pose proof PI_18 as P. rewrite (proj2 dsqrt2overpi_ok). assert (V : 0 < 2 / PI) by (apply Rdiv_lt_0_compat; lra). apply lc_root; [lra|exact V|]. set (v := 2 / PI) in *.
  set (c2 := 7186705221432913 / 9007199254740992 * (7186705221432913 / 9007199254740992)). replace (c2 - v) with ((c2 * (PI / 2) - 1) * v) by (unfold v; field; lra). rewrite Rabs_mult, (Rabs_pos_eq v) by lra. apply Rmult_le_compat_r; [lra|]. apply Rabs_le. unfold c2, q. lra.
Qed.

(** ** Arguments that are close to z, or infinite with z far out *)
Definition apx (b : R) (Z : double) (z k tau : R) : Prop :=
  (is_finite Z = true /\ Rabs (B2R Z - z) <= k * Rabs z + tau) \/ (Z = B754_infinity false /\ b <= z) \/ (Z = B754_infinity true /\ z <= - b).
Lemma apx_std th et x : scale th -> location et -> is_finite x = true -> apx 100 (ddiv (dsub x et) th) ((B2R x - B2R et) / B2R th) (2 * q) tiny.
Proof.
  intros Ht He Hx. assert (B : 100 <= bpow radix2 900) by (apply Rle_trans with (bpow radix2 7); [cbn; lra|apply bpow_le; lia]). destruct (std_ok th et x Ht He Hx) as [(A & C & _)|[(A & C)|(A & C)]]; [left; split; [exact A|exact C]|right; left; split; [exact A|lra]|right; right; split; [exact A|lra]].
Qed.
Lemma isqrt2 : 7 / 10 <= / sqrt 2 <= 71 / 100.
Proof. pose proof q_pos as Q. pose proof (lc_abs _ _ _ invsqrt2_lc ltac:(lra)) as A. rewrite (proj2 dinvsqrt2_ok) in A. assert (P : 0 < / sqrt 2) by (apply Rinv_0_lt_compat, sqrt2_pos). assert (2 * q * / sqrt 2 <= / 1000 * / sqrt 2) by (apply Rmult_le_compat_r; lra). apply Rabs_le_inv in A. lra. Qed.
Lemma mul_shrink (X C : double) : is_finite X = true -> is_finite C = true -> 0 <= B2R C <= 1 -> is_finite (dmul X C) = true /\ B2R (dmul X C) = rnd (B2R X * B2R C).
Proof.
  intros FX FC R. pose proof (Bmult_correct 53 1024 _ _ mode_NE X C) as K. change (round_mode mode_NE) with ZnearestE in K. assert (B : Rabs (rnd (B2R X * B2R C)) < bpow radix2 1024).
  { apply Rle_lt_trans with (Rabs (B2R X)); [|apply abs_B2R_lt_emax]. apply abs_round_le_generic; try typeclasses eauto; [apply generic_format_abs, (fmt_B2R 53 1024 H3_64 H70_64)|]. rewrite Rabs_mult, (Rabs_pos_eq (B2R C)) by lra. rewrite <- (Rmult_1_r (Rabs (B2R X))) at 2. apply Rmult_le_compat_l; [apply Rabs_pos|lra]. }
  rewrite Rlt_bool_true in K by exact B. destruct K as (K1 & K2 & _). split; [unfold dmul, fmul; rewrite K2, FX, FC; reflexivity|exact K1].
Qed.
Lemma mul_isqrt2 Z z k tau : apx 100 Z z k tau -> 0 <= k <= / 1000 -> 0 <= tau -> apx 50 (dmul Z dinvsqrt2) (z / sqrt 2) (k + 6 * q) (tau + tiny).
Proof.
  intros A K T. pose proof q_pos as Q. pose proof tiny_pos as TP. pose proof isqrt2 as I. destruct dinvsqrt2_ok as (FC & VC). pose proof (lc_abs _ _ _ invsqrt2_lc ltac:(lra)) as LA. set (c := B2R dinvsqrt2) in *. unfold Rdiv. set (i := / sqrt 2) in *.
  assert (C1 : 0 < c < 1) by lra. destruct A as [(F & E)|[(F & E)|(F & E)]].
  - left. destruct (mul_shrink Z dinvsqrt2 F FC ltac:(fold c; lra)) as (M1 & M2).
    split; [exact M1|]. rewrite M2. fold c. pose proof (rnd_err (B2R Z * c)) as R. rewrite Rabs_mult, (Rabs_pos_eq c) in R by lra. pose proof (Rabs_pos z) as Z0. pose proof (Rabs_pos (B2R Z)) as Y0.
      assert (YZ : Rabs (B2R Z) <= 2 * Rabs z + tau). { pose proof (Rabs_triang (B2R Z - z) z) as S. replace (B2R Z - z + z) with (B2R Z) in S by ring. assert (k * Rabs z <= / 1000 * Rabs z) by (apply Rmult_le_compat_r; lra). lra. }
      assert (E1 : Rabs ((B2R Z - z) * i) <= (k * Rabs z + tau) * i) by (rewrite Rabs_mult, (Rabs_pos_eq i) by lra; apply Rmult_le_compat_r; lra).
      assert (E2 : Rabs (B2R Z * (c - i)) <= (2 * Rabs z + tau) * (2 * q * i)). { rewrite Rabs_mult. apply Rmult_le_compat; [apply Rabs_pos|apply Rabs_pos|exact YZ|exact LA]. }
      assert (E3 : q / 2 * (Rabs (B2R Z) * c) <= q / 2 * ((2 * Rabs z + tau) * (101 / 100 * i))). { apply Rmult_le_compat_l; [lra|]. apply Rmult_le_compat; [apply Rabs_pos|lra|exact YZ|]. apply Rabs_le_inv in LA. assert (2 * q * i <= / 100 * i) by (apply Rmult_le_compat_r; lra). lra. }
      assert (AZ : Rabs (z * i) = Rabs z * i) by (rewrite Rabs_mult, (Rabs_pos_eq i) by lra; reflexivity). rewrite AZ.
      replace (rnd (B2R Z * c) - z * i) with ((rnd (B2R Z * c) - B2R Z * c) + (B2R Z * (c - i) + (B2R Z - z) * i)) by ring.
      apply Rle_trans with (1 := Rabs_triang _ _). pose proof (Rabs_triang (B2R Z * (c - i)) ((B2R Z - z) * i)) as TR.
      assert (QT : 0 <= q * tau <= / 1000 * tau) by (split; [apply Rmult_le_pos; lra|apply Rmult_le_compat_r; lra]). assert (QTI : q * tau * i <= / 1000 * tau * 1) by (apply Rmult_le_compat; lra). assert (TI : tau * i <= tau * (71 / 100)) by (apply Rmult_le_compat_l; lra).
      assert (QZ : 0 <= q * (Rabs z * i)) by (apply Rmult_le_pos; [lra|apply Rmult_le_pos; lra]).
      replace ((k + 6 * q) * (Rabs z * i) + (tau + tiny)) with (k * Rabs z * i + 6 * (q * (Rabs z * i)) + tau + tiny) by ring.
      replace ((k * Rabs z + tau) * i) with (k * Rabs z * i + tau * i) in E1 by ring. replace ((2 * Rabs z + tau) * (2 * q * i)) with (4 * (q * (Rabs z * i)) + 2 * (q * tau * i)) in E2 by ring. replace (q / 2 * ((2 * Rabs z + tau) * (101 / 100 * i))) with (101 / 100 * (q * (Rabs z * i)) + 101 / 200 * (q * tau * i)) in E3 by field. lra.
  - right. left. rewrite F. split; [vm_compute; reflexivity|]. assert (100 * (7 / 10) <= z * i) by (apply Rmult_le_compat; lra). lra.
  - right. right. rewrite F. split; [vm_compute; reflexivity|]. assert (100 * (7 / 10) <= - z * i) by (apply Rmult_le_compat; lra). lra.
Qed.

(** ** Products and quotients with both signs *)
Lemma div_opp (X Y : double) : is_nan X = false -> ddiv X (dopp Y) = ddiv (dopp X) Y.
Proof.
  intros NX. destruct X as [sx|sx| |sx mx ex Hx]; try discriminate NX; destruct Y as [sy|sy| |sy my ey Hy]; unfold ddiv, fdiv, dopp; cbn [Bopp Bdiv]; try reflexivity; try (f_equal; destruct sx, sy; reflexivity).
  apply B2SF_inj. rewrite !B2SF_SF2B. replace (xorb sx (negb sy)) with (xorb (negb sx) sy) by (destruct sx, sy; reflexivity). reflexivity.
Qed.

Lemma half_mul (E : double) : is_finite E = true -> Rabs (B2R E) <= 2 -> is_finite (dmul dhalf E) = true /\ B2R (dmul dhalf E) = rnd (/ 2 * B2R E) /\ Rabs (B2R (dmul dhalf E) - B2R E / 2) <= q.
Proof.
  intros F R. pose proof q_pos as Q. pose proof tiny_small as T. pose proof big_10 as B. destruct half_ok as (F2 & V2). fold dhalf in F2, V2. destruct (mul_ok dhalf E F2 F) as (A & V); [rewrite V2, Rabs_mult, (Rabs_pos_eq (/ 2)) by lra; lra|]. rewrite V2 in V. split; [exact A|]. split; [exact V|]. rewrite V. pose proof (rnd_err (/ 2 * B2R E)) as K. rewrite Rabs_mult, (Rabs_pos_eq (/ 2)) in K by lra.
  assert (q / 2 * (/ 2 * Rabs (B2R E)) <= q / 2 * (/ 2 * 2)) by (apply Rmult_le_compat_l; lra). replace (rnd (/ 2 * B2R E) - B2R E / 2) with (rnd (/ 2 * B2R E) - / 2 * B2R E) by field. lra.
Qed.

Section Functions.
Variable N : libme.
Hypothesis HN : accurate_e N.
Let HM := ae_base N HN.

Lemma erf_at Z z k tau : apx 8 Z z k tau -> 0 <= k <= / 4 -> 0 <= tau -> is_finite (e_erf N Z) = true /\ -1 <= B2R (e_erf N Z) <= 1 /\ Rabs (B2R (e_erf N Z) - erf z) <= 6 / 5 * (k + 2 * k * tau + tau) + 2 * q.
Proof.
  intros A K T. pose proof q_pos as Q. assert (P : 0 <= k + 2 * k * tau + tau) by (assert (0 <= 2 * k * tau) by (apply Rmult_le_pos; lra); lra). destruct A as [(F & E)|[(F & E)|(F & E)]].
  - destruct (ae_erf N HN Z F) as (A & B & C). replace (/ 2 ^ 51) with (2 * q) in C by (unfold q; field). rewrite erf_eq in C. split; [exact A|]. split; [exact B|]. pose proof (erf_close z (B2R Z) k tau K T E) as D. replace (B2R (e_erf N Z) - erf z) with ((B2R (e_erf N Z) - erf (B2R Z)) + (erf (B2R Z) - erf z)) by ring. apply Rle_trans with (1 := Rabs_triang _ _). lra.
  - rewrite F. destruct (ae_erf_inf N HN false) as (A & B). split; [exact A|]. rewrite B. split; [lra|]. pose proof (erf_far z E). apply Rabs_le. lra.
  - rewrite F. destruct (ae_erf_inf N HN true) as (A & B). split; [exact A|]. rewrite B. split; [lra|]. pose proof (erf_far (- z) ltac:(lra)) as D. rewrite erf_odd in D. apply Rabs_le. lra.
Qed.
Lemma erfc_at Z z k tau : apx 8 Z z k tau -> 0 <= k <= / 4 -> 0 <= tau -> is_finite (e_erfc N Z) = true /\ 0 <= B2R (e_erfc N Z) <= 2 /\ Rabs (B2R (e_erfc N Z) - (1 - erf z)) <= 6 / 5 * (k + 2 * k * tau + tau) + 2 * q.
Proof.
  intros A K T. pose proof q_pos as Q. assert (P : 0 <= k + 2 * k * tau + tau) by (assert (0 <= 2 * k * tau) by (apply Rmult_le_pos; lra); lra). destruct A as [(F & E)|[(F & E)|(F & E)]].
  - destruct (ae_erfc N HN Z F) as (A & B & C). replace (/ 2 ^ 51) with (2 * q) in C by (unfold q; field). rewrite erf_eq in C. split; [exact A|]. split; [exact B|]. pose proof (erf_close z (B2R Z) k tau K T E) as D. replace (B2R (e_erfc N Z) - (1 - erf z)) with ((B2R (e_erfc N Z) - (1 - erf (B2R Z))) - (erf (B2R Z) - erf z)) by ring. apply Rabs_le_inv in C, D. apply Rabs_le. lra.
  - rewrite F. destruct (ae_erfc_inf N HN false) as (A & B). split; [exact A|]. rewrite B. split; [lra|]. pose proof (erf_far z E). apply Rabs_le. lra.
  - rewrite F. destruct (ae_erfc_inf N HN true) as (A & B). split; [exact A|]. rewrite B. split; [lra|]. pose proof (erf_far (- z) ltac:(lra)) as D. rewrite erf_odd in D. apply Rabs_le. lra.
Qed.
Lemma apx_opp b Z z k tau : apx b Z z k tau -> apx b (dopp Z) (- z) k tau.
Proof.
  intros [(F & E)|[(F & E)|(F & E)]].
  - left. destruct (opp_ok Z F) as (A & B). split; [exact A|]. rewrite B, Rabs_Ropp. replace (- B2R Z - - z) with (- (B2R Z - z)) by ring. rewrite Rabs_Ropp. exact E.
  - right. right. rewrite F. split; [reflexivity|lra].
  - right. left. rewrite F. split; [reflexivity|lra].
Qed.
Lemma apx_le b b' Z z k tau : b' <= b -> apx b Z z k tau -> apx b' Z z k tau.
Proof. intros L [A|[(F & E)|(F & E)]]; [left; exact A|right; left; split; [exact F|lra]|right; right; split; [exact F|lra]]. Qed.
Lemma half_erfc E p e : is_finite E = true -> 0 <= B2R E <= 2 -> Rabs (B2R E - p) <= e -> computes (dmul dhalf E) (p / 2) (e / 2 + q).
Proof.
  intros F R A. destruct (half_mul E F ltac:(rewrite Rabs_pos_eq; lra)) as (X & V & Y). split; [exact X|]. split.
  - rewrite V. split; [apply (rnd_ge_0 53 1024 H3_64 H70_64); lra|apply (rnd_le_fmt 53 1024 H3_64 H70_64); [apply (fmt_1 53 1024 H3_64 H70_64)|lra]].
  - replace (B2R (dmul dhalf E) - p / 2) with ((B2R (dmul dhalf E) - B2R E / 2) + (B2R E - p) / 2) by field. apply Rabs_le_inv in Y, A. apply Rabs_le. lra.
Qed.
Lemma half_fmt : generic_format radix2 (SpecFloat.fexp 53 1024) (/ 2).
Proof. replace (/ 2) with (bpow radix2 (-1)) by reflexivity. apply (fmt_bpow 53 1024 H3_64 H70_64). lia. Qed.
Lemma half_erf E p e : is_finite E = true -> -1 <= B2R E <= 1 -> Rabs (B2R E - p) <= e -> computes (dadd dhalf (dmul dhalf E)) (/ 2 + p / 2) (e / 2 + 2 * q).
Proof.
  intros F R A. pose proof q_pos as Q. pose proof tiny_small as T. pose proof big_10 as B. destruct (half_mul E F ltac:(apply Rabs_le; lra)) as (X & V & Y). destruct half_ok as (F2 & V2). fold dhalf in F2, V2.
  assert (R2 : - / 2 <= B2R (dmul dhalf E) <= / 2).
  { rewrite V. split; [apply (rnd_ge_fmt 53 1024 H3_64 H70_64); [apply generic_format_opp, half_fmt|lra]|apply (rnd_le_fmt 53 1024 H3_64 H70_64); [apply half_fmt|lra]]. }
  destruct (add_ok dhalf (dmul dhalf E) F2 X) as (S1 & S2); [rewrite V2, Rabs_pos_eq by lra; lra|]. rewrite V2 in S2. split; [exact S1|]. rewrite S2. split.
  - split; [apply (rnd_ge_0 53 1024 H3_64 H70_64); lra|apply (rnd_le_fmt 53 1024 H3_64 H70_64); [apply (fmt_1 53 1024 H3_64 H70_64)|lra]].
  - pose proof (rnd_err (/ 2 + B2R (dmul dhalf E))) as K. rewrite (Rabs_pos_eq (/ 2 + _)) in K by lra. assert (q / 2 * (/ 2 + B2R (dmul dhalf E)) <= q / 2 * 1) by (apply Rmult_le_compat_l; lra). apply Rabs_le_inv in K, Y, A. apply Rabs_le. lra.
Qed.
Lemma fPhi_ok Z z k tau : apx 100 Z z k tau -> 0 <= k <= / 1000 -> 0 <= tau -> computes (fPhi N Z) (gauss_cdf z) (k + tau + 8 * q).
Proof.
  intros A K T. pose proof q_pos as Q. pose proof tiny_small as TS. pose proof tiny_pos as TP. pose proof (mul_isqrt2 Z z k tau A K ltac:(lra)) as B. apply (apx_le 50 8) in B; [|lra]. rewrite gauss_cdf_erf. unfold fPhi. cbv zeta. set (X := dmul Z dinvsqrt2) in *. set (y := z / sqrt 2) in *.
  assert (K1 : 0 <= k + 6 * q <= / 4) by lra. assert (T1 : 0 <= tau + tiny) by lra. set (e := 6 / 5 * (k + 6 * q + 2 * (k + 6 * q) * (tau + tiny) + (tau + tiny)) + 2 * q).
  assert (EB : e / 2 <= k + tau + 6 * q). { assert (Q1 : q <= / 1000000) by (unfold q; lra). assert ((k + 6 * q) * (tau + tiny) <= / 500 * (tau + tiny)) by (apply Rmult_le_compat_r; lra). unfold e. lra. }
  destruct (Bltb X _).
  - pose proof (erfc_at _ _ _ _ (apx_opp _ _ _ _ _ B) K1 T1) as (C1 & C2 & C3). rewrite erf_odd in C3. fold e in C3. pose proof (half_erfc _ _ _ C1 C2 C3) as D. replace ((1 - - erf y) / 2) with (/ 2 + / 2 * erf y) in D by field. revert D. apply computes_weaken. lra.
  - destruct (Bltb _ X).
    + pose proof (erfc_at _ _ _ _ B K1 T1) as (C1 & C2 & C3). fold e in C3. pose proof (half_erfc _ _ _ C1 C2 C3) as D. apply one_minus in D. replace (1 - (1 - erf y) / 2) with (/ 2 + / 2 * erf y) in D by field. revert D. apply computes_weaken. lra.
    + pose proof (erf_at _ _ _ _ B K1 T1) as (C1 & C2 & C3). fold e in C3. pose proof (half_erf _ _ _ C1 C2 C3) as D. replace (erf y / 2) with (/ 2 * erf y) in D by field. revert D. apply computes_weaken. lra.
Qed.
Lemma normal_cdf mu sg x : location mu -> scale sg -> is_finite x = true -> computes (normal_fcdf N mu sg x) (F_normal (B2R mu) (B2R sg) (B2R x)) (11 * q).
Proof.
  intros Hm Hs F. pose proof q_pos as Q. pose proof tiny_small as TS. pose proof tiny_pos as TP. unfold normal_fcdf, F_normal. pose proof (fPhi_ok _ _ _ _ (apx_std sg mu x Hs Hm F) ltac:(lra) ltac:(lra)) as C. revert C. apply computes_weaken. lra.
Qed.
End Functions.
