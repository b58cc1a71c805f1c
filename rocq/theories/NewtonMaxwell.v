(** Proofs about the iteration of maxwell_dist::icdf in NewtonModel. *)
From Coq Require Import Reals ZArith Lra Psatz Lia Machin.
From Coquelicot Require Import Coquelicot.
From Verif Require Import ContModel ContProofs GamModel NormModel NormProofs NewtonModel Improper GammaFn BetaFn NewtonProofs NewtonBeta.
Local Open Scope R_scope.

(** ** Numbers *)
Lemma PI_bounds : 314 / 100 < PI < 315 / 100.
Proof.
  pose proof (PI_2_3_7_ineq 2) as H. unfold PI_2_3_7_tg, Ratan_seq, tg_alt in H. cbn [sum_f_R0 Nat.mul Nat.add pow] in H.
  change (INR 1) with 1 in H. rewrite ?INR_IZR_INZ in H. cbn [Z.of_nat Pos.of_succ_nat Pos.succ] in H. lra.
Qed.
Definition mk : R := sqrt (2 / PI).
Lemma mk_sq : mk * mk = 2 / PI.
Proof. unfold mk. apply sqrt_def. pose proof PI_bounds. left. apply Rdiv_lt_0_compat; lra. Qed.
Lemma mk_s : 12698 / 10000 < 2 * (mk * mk) < 1274 / 1000.
Proof.
  rewrite mk_sq. pose proof PI_bounds as B. assert (E : 2 / PI * PI = 2) by (field; lra). set (q := 2 / PI) in *. split; nra.
Qed.
Lemma mk_bounds : 796 / 1000 < mk < 799 / 1000.
Proof. pose proof mk_s as S. assert (0 <= mk) by apply sqrt_pos. split; nra. Qed.
(** Taylor polynomials of the exponential function *)
Lemma exp_t1 u : 0 <= u -> 1 - u <= exp (- u).
Proof. intros H. pose proof (exp_ineq1_le (- u)). lra. Qed.
Lemma exp_neg_deriv u : is_derive (fun z => exp (- z)) u (- exp (- u)).
Proof. auto_derive; [exact Logic.I|ring]. Qed.
Lemma exp_t2 u : 0 <= u -> exp (- u) <= 1 - u + u ^ 2 / 2.
Proof.
  intros H. assert (K : (1 - 0 + 0 ^ 2 / 2) - exp (- 0) <= (1 - u + u ^ 2 / 2) - exp (- u)).
  { apply (mono_cc (fun z => (1 - z + z ^ 2 / 2) - exp (- z)) (fun z => - 1 + z + exp (- z)) 0 u H).
    - intros z Hz. auto_derive; [exact Logic.I|]. field.
    - intros z Hz. pose proof (exp_t1 z ltac:(lra)). lra. }
  rewrite Ropp_0, exp_0 in K. lra.
Qed.
Lemma exp_t3 u : 0 <= u -> 1 - u + u ^ 2 / 2 - u ^ 3 / 6 <= exp (- u).
Proof.
  intros H. assert (K : exp (- 0) - (1 - 0 + 0 ^ 2 / 2 - 0 ^ 3 / 6) <= exp (- u) - (1 - u + u ^ 2 / 2 - u ^ 3 / 6)).
  { apply (mono_cc (fun z => exp (- z) - (1 - z + z ^ 2 / 2 - z ^ 3 / 6)) (fun z => - exp (- z) - (- 1 + z - z ^ 2 / 2)) 0 u H).
    - intros z Hz. auto_derive; [exact Logic.I|]. field.
    - intros z Hz. pose proof (exp_t2 z ltac:(lra)). lra. }
  rewrite Ropp_0, exp_0 in K. lra.
Qed.
Lemma exp_t4 u : 0 <= u -> exp (- u) <= 1 - u + u ^ 2 / 2 - u ^ 3 / 6 + u ^ 4 / 24.
Proof.
  intros H. assert (K : (1 - 0 + 0 ^ 2 / 2 - 0 ^ 3 / 6 + 0 ^ 4 / 24) - exp (- 0) <= (1 - u + u ^ 2 / 2 - u ^ 3 / 6 + u ^ 4 / 24) - exp (- u)).
  { apply (mono_cc (fun z => (1 - z + z ^ 2 / 2 - z ^ 3 / 6 + z ^ 4 / 24) - exp (- z)) (fun z => - 1 + z - z ^ 2 / 2 + z ^ 3 / 6 + exp (- z)) 0 u H).
    - intros z Hz. auto_derive; [exact Logic.I|]. field.
    - intros z Hz. pose proof (exp_t3 z ltac:(lra)). lra. }
  rewrite Ropp_0, exp_0 in K. lra.
Qed.

(** ** The distribution for theta = 1 *)
Definition MF : R -> R := max_cdf 1.
Definition Mf (t : R) : R := mk * t ^ 2 * exp (- (t ^ 2 / 2)).
Lemma Mf_val t : max_pdf 1 t = Mf t.
Proof. unfold max_pdf, Mf, mk. cbv zeta. replace (- (t * t) / (2 * (1 * 1))) with (- (t ^ 2 / 2)) by field. field. Qed.
Lemma MF_deriv t : is_derive MF t (Mf t).
Proof. rewrite <- Mf_val. apply is_derive_Reals, max_deriv. lra. Qed.
Lemma MF_strict s t : s < t -> MF s < MF t.
Proof. apply max_strict. lra. Qed.
Lemma MF_range t : 0 <= t -> 0 <= MF t <= 1.
Proof. apply max_range. lra. Qed.
Lemma MF_0 : MF 0 = 0.
Proof. apply max_0. Qed.
Lemma MF_pos t : 0 < t -> 0 < MF t < 1.
Proof.
  intros H. rewrite <- MF_0 at 1. split; [apply MF_strict, H|]. apply Rlt_le_trans with (MF (t + 1)); [apply MF_strict; lra|apply MF_range; lra].
Qed.
Lemma Mf_pos t : t <> 0 -> 0 < Mf t.
Proof. intros H. rewrite <- Mf_val. apply max_pdf_pos; [lra|exact H]. Qed.
Definition Mc (t : R) : R := 2 / t - t.
Lemma Mf_deriv t : t <> 0 -> is_derive Mf t (Mf t * Mc t).
Proof. intros H. unfold Mf, Mc. auto_derive; [exact Logic.I|]. replace (t * (t * 1) * / 2) with (t ^ 2 / 2) by (field). field. exact H. Qed.
Lemma sqrt2_bounds : 1414 / 1000 < sqrt 2 < 1415 / 1000.
Proof. pose proof (sqrt_sqrt 2 ltac:(lra)) as S. pose proof (sqrt_pos 2). split; nra. Qed.
Lemma Mc_sign t : 0 < t -> (t <= sqrt 2 -> 0 <= Mc t) /\ (sqrt 2 <= t -> Mc t <= 0).
Proof.
  intros H. pose proof (sqrt_sqrt 2 ltac:(lra)) as S. pose proof sqrt2_bounds. unfold Mc. replace (2 / t - t) with ((2 - t * t) / t) by (field; lra). assert (0 < / t) by (apply Rinv_0_lt_compat, H). 
  split; intros L.
  - assert (0 <= 2 - t * t) by nra. apply Rmult_le_pos; lra.
  - assert (2 - t * t <= 0) by nra. unfold Rdiv. nra.
Qed.
Lemma Mc_dec s t : 0 < s -> s <= t -> Mc t <= Mc s.
Proof. intros H0 H. unfold Mc, Rdiv. assert (/ t <= / s) by (apply Rinv_le_contravar; lra). lra. Qed.

(** below the mode *)
Lemma ml_w z : within_lc (Finite 0) (sqrt 2) z <-> 0 < z <= sqrt 2.
Proof. unfold within_lc. cbn. tauto. Qed.
Lemma Mf_up s t : 0 < s -> s <= t -> t <= sqrt 2 -> Mf s <= Mf t.
Proof.
  intros Hs H Ht. apply (mono_cc Mf (fun z => Mf z * Mc z) s t H).
  - intros z Hz. apply Mf_deriv. lra.
  - intros z Hz. apply Rmult_le_pos; [left; apply Mf_pos; lra|]. apply Mc_sign; lra.
Qed.
Lemma Mf_down s t : sqrt 2 <= s -> s <= t -> Mf t <= Mf s.
Proof.
  intros Hs H. pose proof sqrt2_bounds. apply Ropp_le_cancel. apply (mono_cc (fun z => - Mf z) (fun z => - (Mf z * Mc z)) s t H).
  - intros z Hz. apply (is_derive_opp (K := R_AbsRing) (V := R_NormedModule)). apply Mf_deriv. lra.
  - intros z Hz. pose proof (Mf_pos z ltac:(lra)). pose proof (proj2 (Mc_sign z ltac:(lra)) ltac:(lra)). nra.
Qed.
Lemma MF_below y : 0 < y <= sqrt 2 -> MF y <= y * Mf y.
Proof.
  intros Hy. assert (K : 0 * Mf y - MF 0 <= y * Mf y - MF y).
  { apply (mono_cc (fun z => z * Mf y - MF z) (fun z => Mf y - Mf z) 0 y); [lra| |].
    - intros z Hz. apply (is_derive_minus (K := R_AbsRing) (V := R_NormedModule)); [|apply MF_deriv]. auto_derive; [exact Logic.I|ring].
    - intros z Hz. destruct (Req_dec z 0) as [->|N]; [|pose proof (Mf_up z y); lra]. replace (Mf 0) with 0 by (unfold Mf; cbn; ring). pose proof (Mf_pos y). lra. }
  rewrite MF_0 in K. lra.
Qed.
Lemma ml_lim y e : 0 < y <= sqrt 2 -> 0 < e -> exists t, 0 < t <= sqrt 2 /\ t <= y /\ MF t <= e.
Proof.
  intros Hy He. pose proof mk_bounds as K. pose proof sqrt2_bounds as S. set (t := Rmin (e / 3) y). assert (T : t <= e / 3 /\ t <= y) by (split; [apply Rmin_l|apply Rmin_r]).
  assert (T0 : 0 < t) by (apply Rmin_pos; lra). exists t. split; [lra|]. split; [lra|]. pose proof (MF_below t ltac:(lra)) as B.
  assert (Mf t <= 2). { unfold Mf. assert (exp (- (t ^ 2 / 2)) <= 1) by (rewrite <- exp_0; destruct (Rle_lt_or_eq_dec (- (t ^ 2 / 2)) 0 ltac:(nra)) as [L| ->]; [left; apply exp_increasing, L|lra]).
    pose proof (exp_pos (- (t ^ 2 / 2))) as Q. set (E := exp (- (t ^ 2 / 2))) in *. assert (t ^ 2 <= 2.01) by nra. assert (mk * t ^ 2 <= 2) by nra. assert (0 <= mk * t ^ 2) by nra. nra. }
  nra.
Qed.
Lemma ml_step x y : 0 < y <= sqrt 2 -> 0 < x <= MF y -> let y1 := y - (MF y - x) / Mf y in
  0 < y1 <= y /\ x <= MF y1 /\ MF y1 / x <= gstep (MF y / x).
Proof.
  intros Hy Hx y1. destruct (lc_step (Finite 0) (sqrt 2) MF Mf Mc) with (x := x) (y := y) as (W & A & B & C).
  - intros z _. apply MF_deriv.
  - intros z W. apply (proj1 (ml_w z)) in W. apply Mf_deriv. lra.
  - intros z W. apply (proj1 (ml_w z)) in W. apply Mf_pos. lra.
  - intros z W. apply (proj1 (ml_w z)) in W. apply MF_pos. lra.
  - intros z W. apply (proj1 (ml_w z)) in W. apply Mc_sign; lra.
  - intros t z W W2 H. apply (proj1 (ml_w t)) in W. apply Mc_dec; lra.
  - intros z e W He. apply (proj1 (ml_w z)) in W. destruct (ml_lim z e W He) as (t & A & B & C). exists t. split; [apply ml_w, A|]. split; assumption.
  - intros z W. apply (proj1 (ml_w z)) in W. cbn. pose proof (MF_below z W). pose proof (Mf_pos z ltac:(lra)). assert (MF z / Mf z <= z); [|lra].
    apply (Rmult_le_reg_r (Mf z)); [assumption|]. unfold Rdiv. rewrite Rmult_assoc, Rinv_l by lra. lra.
  - apply ml_w, Hy.
  - exact Hx.
  - apply (proj1 (ml_w _)) in W. split; [split; [apply W|exact A]|]. split; assumption.
Qed.

(** above the mode, in terms of s = - y *)
Lemma mu_w z : within_lc m_infty (- sqrt 2) z <-> sqrt 2 <= - z.
Proof. unfold within_lc. cbn. split; [intros (_ & H); lra|intros H; split; [exact Logic.I|lra]]. Qed.
Lemma Mf_even t : Mf (- t) = Mf t.
Proof. unfold Mf. replace ((- t) ^ 2) with (t ^ 2) by ring. reflexivity. Qed.
Lemma mu_F (z : R) : is_derive (fun s => 1 - MF (- s)) z (Mf (- z)).
Proof.
  pose proof (MF_deriv (- z)) as D. assert (D2 : is_derive (fun s => MF (- s)) z (- (1) * Mf (- z))).
  { apply (is_derive_circ MF (fun s => - s) z (Mf (- z)) (- (1)) D). auto_derive; [exact Logic.I|ring]. }
  apply is_derive_val with (minus 0 (- (1) * Mf (- z))); [|unfold minus, plus, opp; cbn; ring].
  apply (is_derive_minus (K := R_AbsRing) (V := R_NormedModule) (fun _ => 1) (fun s => MF (- s))); [apply (is_derive_const (K := R_AbsRing) (V := R_NormedModule))|exact D2].
Qed.
Lemma mu_f (z : R) : z <> 0 -> is_derive (fun s => Mf (- s)) z (Mf (- z) * - Mc (- z)).
Proof.
  intros Hz. apply is_derive_val with (- (1) * (Mf (- z) * Mc (- z))); [|ring].
  apply (is_derive_circ Mf (fun s => - s) z); [apply Mf_deriv; lra|]. auto_derive; [exact Logic.I|ring].
Qed.
Lemma mu_hyps : (forall z, within_lc m_infty (- sqrt 2) z -> is_derive (fun s => 1 - MF (- s)) z (Mf (- z))) /\
  (forall z, within_lc m_infty (- sqrt 2) z -> is_derive (fun s => Mf (- s)) z (Mf (- z) * - Mc (- z))) /\
  (forall z, within_lc m_infty (- sqrt 2) z -> 0 < Mf (- z)) /\ (forall z, within_lc m_infty (- sqrt 2) z -> 0 < 1 - MF (- z)) /\
  (forall z, within_lc m_infty (- sqrt 2) z -> 0 <= - Mc (- z)) /\
  (forall t z, within_lc m_infty (- sqrt 2) t -> within_lc m_infty (- sqrt 2) z -> t <= z -> - Mc (- z) <= - Mc (- t)) /\
  (forall y e, within_lc m_infty (- sqrt 2) y -> 0 < e -> exists t, within_lc m_infty (- sqrt 2) t /\ t <= y /\ 1 - MF (- t) <= e).
Proof.
  pose proof sqrt2_bounds as S. refine (conj _ (conj _ (conj _ (conj _ (conj _ (conj _ _)))))).
  - intros z _. apply mu_F.
  - intros z W. apply (proj1 (mu_w z)) in W. apply mu_f. lra.
  - intros z W. apply (proj1 (mu_w z)) in W. apply Mf_pos. lra.
  - intros z W. apply (proj1 (mu_w z)) in W. pose proof (MF_pos (- z)). lra.
  - intros z W. apply (proj1 (mu_w z)) in W. pose proof (proj2 (Mc_sign (- z) ltac:(lra)) W). lra.
  - intros t z W W2 H. apply (proj1 (mu_w z)) in W2. pose proof (Mc_dec (- z) (- t)). lra.
  - intros y e W He. apply (proj1 (mu_w y)) in W. destruct (max_limit 1 ltac:(lra) e He) as (x & X0 & X1). fold MF in X1.
    exists (- (Rmax x (- y))). pose proof (Rmax_l x (- y)) as R1. pose proof (Rmax_r x (- y)) as R2. split; [apply mu_w; rewrite Ropp_involutive; lra|]. split; [lra|].
    rewrite Ropp_involutive. destruct R1 as [R1|R1]; [pose proof (MF_strict _ _ R1); lra|rewrite <- R1; lra].
Qed.
Lemma mu_step x y : sqrt 2 <= y -> x < 1 -> MF y <= x -> let y1 := y - (MF y - x) / Mf y in
  y <= y1 /\ MF y1 <= x /\ (1 - MF y1) / (1 - x) <= gstep ((1 - MF y) / (1 - x)).
Proof.
  intros Hy Hx H y1. destruct mu_hyps as (H1 & H2 & H3 & H4 & H5 & H6 & H7). pose proof sqrt2_bounds as S. pose proof (Mf_pos y ltac:(lra)) as P0.
  destruct (lc_step m_infty (- sqrt 2) (fun s => 1 - MF (- s)) (fun s => Mf (- s)) (fun s => - Mc (- s)) H1 H2 H3 H4 H5 H6 H7) with (x := 1 - x) (y := - y) as (W & A & B & C).
  - intros z _. exact Logic.I.
  - apply mu_w. lra.
  - rewrite Ropp_involutive. lra.
  - rewrite !Ropp_involutive in *. assert (E : - y - (1 - MF y - (1 - x)) / Mf y = - y1) by (unfold y1; field; lra). rewrite E, Ropp_involutive in *.
    split; [lra|]. split; [lra|exact C].
Qed.
Lemma mu_ratio y : sqrt 2 <= y -> 1 - MF y <= 2 * Mf y.
Proof.
  intros Hy. destruct mu_hyps as (H1 & H2 & H3 & H4 & H5 & H6 & H7). pose proof sqrt2_bounds as S. pose proof (sqrt_sqrt 2 ltac:(lra)) as S2.
  pose proof (lc_ratio m_infty (- sqrt 2) (fun s => 1 - MF (- s)) (fun s => Mf (- s)) (fun s => - Mc (- s)) H1 H2 H3 H4 H5 H6 H7 (- y) (- sqrt 2)) as R.
  specialize (R (proj2 (mu_w (- y)) ltac:(lra)) (proj2 (mu_w (- sqrt 2)) ltac:(lra)) ltac:(lra)). cbv beta in R. rewrite !Ropp_involutive in R.
  pose proof (MF_pos (sqrt 2) ltac:(lra)) as G. pose proof (MF_pos y ltac:(lra)) as Gy. pose proof (Mf_pos y ltac:(lra)) as P0.
  assert (F2 : 1 / 2 <= Mf (sqrt 2)).
  { unfold Mf. replace (sqrt 2 ^ 2) with 2 by (cbn [pow]; lra). replace (- (2 / 2)) with (- (1)) by lra. pose proof (exp_t3 1 ltac:(lra)). pose proof mk_bounds. nra. }
  assert (D : 1 / 2 <= Mf (sqrt 2) / (1 - MF (sqrt 2))).
  { apply (Rmult_le_reg_r (1 - MF (sqrt 2))); [lra|]. replace (Mf (sqrt 2) / (1 - MF (sqrt 2)) * (1 - MF (sqrt 2))) with (Mf (sqrt 2)) by (field; lra). lra. }
  assert (D2 : 1 / 2 <= Mf y / (1 - MF y)) by lra. apply (Rmult_le_compat_r (1 - MF y)) in D2; [|lra]. replace (Mf y / (1 - MF y) * (1 - MF y)) with (Mf y) in D2 by (field; lra). lra.
Qed.

(** ** The loop *)
Lemma mx_unfold k x y : 0 < y -> mxw_loop (S k) 1 x y =
  (let y' := y - (MF y - x) / Mf y in if Rlt_dec (Rabs (y' / y - 1)) (4 * epsilon) then (Met, y') else mxw_loop k 1 x y').
Proof. intros Hy. cbn [mxw_loop]. rewrite Mf_val. destruct (Req_EM_T y 0); [lra|reflexivity]. Qed.
Lemma mx_hit k x y : 0 < y -> Rabs ((MF y - x) / (Mf y * y)) < 4 * epsilon -> mxw_loop (S k) 1 x y = (Met, y - (MF y - x) / Mf y).
Proof.
  intros Hy H. rewrite mx_unfold by exact Hy. cbv zeta. pose proof (Mf_pos y ltac:(lra)) as P0. destruct (Rlt_dec _ _) as [|N]; [reflexivity|]. exfalso. apply N.
  replace ((y - (MF y - x) / Mf y) / y - 1) with (- ((MF y - x) / (Mf y * y))) by (field; lra). rewrite Rabs_Ropp. exact H.
Qed.
Lemma mx_next k x y y' : 0 < y -> y' = y - (MF y - x) / Mf y -> mxw_loop (S k) 1 x y = (Met, y') \/ mxw_loop (S k) 1 x y = mxw_loop k 1 x y'.
Proof. intros Hy ->. rewrite mx_unfold by exact Hy. cbv zeta. destruct (Rlt_dec _ _); [left|right]; reflexivity. Qed.
Lemma small_ratio a b c : 0 < b -> 0 < c -> Rabs a <= c * (4 * epsilon * b) -> c < 1 -> Rabs (a / b) < 4 * epsilon.
Proof.
  intros Hb Hc H H1. pose proof eps_pos as E. unfold Rdiv. rewrite Rabs_mult, (Rabs_pos_eq (/ b)) by (left; apply Rinv_0_lt_compat, Hb).
  apply (Rmult_lt_reg_r b); [exact Hb|]. rewrite Rmult_assoc, Rinv_l by lra. rewrite Rmult_1_r. assert (0 < 4 * epsilon * b) by nra. assert (c * (4 * epsilon * b) < 1 * (4 * epsilon * b)) by (apply Rmult_lt_compat_r; assumption). lra.
Qed.
(** from above the solution, below the mode *)
Lemma mx_low n x : 0 < x -> forall k y, (k <= 45)%nat -> 0 < y <= sqrt 2 -> x <= MF y -> MF y / x <= giter (45 - k) ->
  exists r, mxw_loop (S k + n) 1 x y = (Met, r) /\ 0 < r <= y.
Proof.
  intros Hx. induction k as [|k IH]; intros y Hk Hy L G; pose proof (ml_step x y Hy ltac:(lra)) as S1; cbv zeta in S1; destruct S1 as (S1 & S2 & S3).
  - exists (y - (MF y - x) / Mf y). split; [|exact S1]. apply mx_hit; [lra|]. pose proof giter_45 as G45. rewrite Nat.sub_0_r in G.
    pose proof (MF_below y Hy) as B. pose proof (Mf_pos y ltac:(lra)) as P0.
    assert (A : MF y <= x * (1 + / 2 ^ 118)).
    { assert (G2 : MF y / x <= 1 + / 2 ^ 118) by lra. apply (Rmult_le_compat_r x) in G2; [|lra]. unfold Rdiv in G2. rewrite Rmult_assoc, Rinv_l in G2 by lra. lra. }
    apply (small_ratio _ _ (1 / 2)); [nra|lra| |lra]. rewrite Rabs_pos_eq by lra. unfold epsilon. assert (x <= Mf y * y) by lra. nra.
  - destruct (mx_next (S k + n) x y _ ltac:(lra) eq_refl) as [E|E].
    + exists (y - (MF y - x) / Mf y). split; [exact E|exact S1].
    + destruct (IH (y - (MF y - x) / Mf y)) as (r & R1 & R2); [lia|lra|exact S2| |].
      * replace (45 - k)%nat with (S (45 - S k)) by lia. rewrite giter_S. eapply Rle_trans; [exact S3|]. apply gstep_mono; [|exact G].
        apply (Rmult_le_reg_r x); [exact Hx|]. unfold Rdiv. rewrite Rmult_assoc, Rinv_l by lra. lra.
      * exists r. split; [|lra]. change (S (S k) + n)%nat with (S (S k + n)). rewrite E. exact R1.
Qed.
(** from below the solution, above the mode *)
Lemma mx_high n x : x < 1 -> forall k y, (k <= 45)%nat -> sqrt 2 <= y -> MF y <= x -> (1 - MF y) / (1 - x) <= giter (45 - k) ->
  exists r, mxw_loop (S k + n) 1 x y = (Met, r) /\ y <= r.
Proof.
  intros Hx. pose proof sqrt2_bounds as Sq. induction k as [|k IH]; intros y Hk Hy L G; pose proof (mu_step x y Hy Hx L) as S1; cbv zeta in S1; destruct S1 as (S1 & S2 & S3).
  - exists (y - (MF y - x) / Mf y). split; [|exact S1]. apply mx_hit; [lra|]. pose proof giter_45 as G45. rewrite Nat.sub_0_r in G.
    pose proof (mu_ratio y Hy) as B. pose proof (Mf_pos y ltac:(lra)) as P0.
    assert (A : 1 - MF y <= (1 - x) * (1 + / 2 ^ 118)).
    { assert (G2 : (1 - MF y) / (1 - x) <= 1 + / 2 ^ 118) by lra. apply (Rmult_le_compat_r (1 - x)) in G2; [|lra]. unfold Rdiv in G2. rewrite Rmult_assoc, Rinv_l in G2 by lra. lra. }
    apply (small_ratio _ _ (1 / 2)); [nra|lra| |lra]. rewrite Rabs_left1 by lra. unfold epsilon. assert (1 - x <= 2 * (Mf y * y)) by nra. nra.
  - destruct (mx_next (S k + n) x y _ ltac:(lra) eq_refl) as [E|E].
    + exists (y - (MF y - x) / Mf y). split; [exact E|exact S1].
    + destruct (IH (y - (MF y - x) / Mf y)) as (r & R1 & R2); [lia|lra|exact S2| |].
      * replace (45 - k)%nat with (S (45 - S k)) by lia. rewrite giter_S. eapply Rle_trans; [exact S3|]. apply gstep_mono; [|exact G].
        apply (Rmult_le_reg_r (1 - x)); [lra|]. unfold Rdiv. rewrite Rmult_assoc, Rinv_l by lra. lra.
      * exists r. split; [|lra]. change (S (S k) + n)%nat with (S (S k + n)). rewrite E. exact R1.
Qed.
(** one more step covers start ratios up to 2^53 *)
Lemma gstep_53 r : 1 <= r -> r <= 2 ^ 53 -> gstep r <= giter 0.
Proof.
  intros H1 H. change (giter 0) with (2 ^ 52). eapply Rle_trans; [apply (gstep_mono r (2 ^ 53) H1 H)|]. unfold gstep.
  assert (exp (- (1 - / 2 ^ 53)) <= 1 / 2); [|lra]. apply exp_lower8; lra.
Qed.
Lemma ratio_ge_1 a b : 0 < b -> b <= a -> 1 <= a / b.
Proof. intros Hb H. apply (Rmult_le_reg_r b); [exact Hb|]. unfold Rdiv. rewrite Rmult_assoc, Rinv_l by lra. lra. Qed.
Lemma ratio_53 a b : 0 < a <= 1 -> / 2 ^ 53 <= b -> a / b <= 2 ^ 53.
Proof.
  intros Ha Hb. assert (0 < / 2 ^ 53) by lra. apply (Rmult_le_reg_r b); [lra|]. unfold Rdiv. rewrite Rmult_assoc, Rinv_l by lra. assert (2 ^ 53 * / 2 ^ 53 <= 2 ^ 53 * b) by (apply Rmult_le_compat_l; lra). lra.
Qed.
Lemma mx_low' n x y : / 2 ^ 53 <= x -> 0 < y <= sqrt 2 -> x <= MF y -> exists r, mxw_loop (47 + n) 1 x y = (Met, r) /\ 0 < r <= y.
Proof.
  intros Hx Hy L. assert (X0 : 0 < / 2 ^ 53) by lra. pose proof (ml_step x y Hy ltac:(lra)) as S1. cbv zeta in S1. destruct S1 as (S1 & S2 & S3).
  change (47 + n)%nat with (S (46 + n)). destruct (mx_next (46 + n) x y _ ltac:(lra) eq_refl) as [E|E].
  - exists (y - (MF y - x) / Mf y). split; [exact E|exact S1].
  - destruct (mx_low n x ltac:(lra) 45 (y - (MF y - x) / Mf y)) as (r & R1 & R2); [lia|lra|exact S2| |].
    + eapply Rle_trans; [exact S3|]. apply gstep_53; [apply ratio_ge_1; lra|]. apply ratio_53; [|exact Hx]. pose proof (MF_pos y ltac:(lra)). lra.
    + exists r. split; [|lra]. rewrite E. exact R1.
Qed.
Lemma mx_high' n x y : x <= 1 - / 2 ^ 53 -> sqrt 2 <= y -> MF y <= x -> exists r, mxw_loop (47 + n) 1 x y = (Met, r) /\ y <= r.
Proof.
  intros Hx Hy L. pose proof sqrt2_bounds as Sq. assert (X0 : 0 < / 2 ^ 53) by lra. pose proof (mu_step x y Hy ltac:(lra) L) as S1. cbv zeta in S1. destruct S1 as (S1 & S2 & S3).
  change (47 + n)%nat with (S (46 + n)). destruct (mx_next (46 + n) x y _ ltac:(lra) eq_refl) as [E|E].
  - exists (y - (MF y - x) / Mf y). split; [exact E|exact S1].
  - destruct (mx_high n x ltac:(lra) 45 (y - (MF y - x) / Mf y)) as (r & R1 & R2); [lia|lra|exact S2| |].
    + eapply Rle_trans; [exact S3|]. apply gstep_53; [apply ratio_ge_1; lra|]. apply ratio_53; [|lra]. pose proof (MF_pos y ltac:(lra)). lra.
    + exists r. split; [|lra]. rewrite E. exact R1.
Qed.

(** ** The first step *)
Lemma MF_poly t : 0 <= t -> MF t <= mk * (t ^ 3 / 3 - t ^ 5 / 10 + t ^ 7 / 56 - t ^ 9 / 432 + t ^ 11 / 4224).
Proof.
  intros H. assert (K : mk * (0 ^ 3 / 3 - 0 ^ 5 / 10 + 0 ^ 7 / 56 - 0 ^ 9 / 432 + 0 ^ 11 / 4224) - MF 0 <= mk * (t ^ 3 / 3 - t ^ 5 / 10 + t ^ 7 / 56 - t ^ 9 / 432 + t ^ 11 / 4224) - MF t).
  { apply (mono_cc (fun z => mk * (z ^ 3 / 3 - z ^ 5 / 10 + z ^ 7 / 56 - z ^ 9 / 432 + z ^ 11 / 4224) - MF z)
      (fun z => mk * z ^ 2 * (1 - z ^ 2 / 2 + (z ^ 2 / 2) ^ 2 / 2 - (z ^ 2 / 2) ^ 3 / 6 + (z ^ 2 / 2) ^ 4 / 24) - Mf z) 0 t H).
    - intros z Hz. apply (is_derive_minus (K := R_AbsRing) (V := R_NormedModule)); [|apply MF_deriv]. auto_derive; [exact Logic.I|]. field.
    - intros z Hz. unfold Mf. pose proof (exp_t4 (z ^ 2 / 2) ltac:(nra)) as B. pose proof mk_bounds. assert (0 <= mk * z ^ 2) by nra.
      set (E := exp (- (z ^ 2 / 2))) in *. set (T := 1 - z ^ 2 / 2 + (z ^ 2 / 2) ^ 2 / 2 - (z ^ 2 / 2) ^ 3 / 6 + (z ^ 2 / 2) ^ 4 / 24) in *. clearbody E T. nra. }
  rewrite MF_0 in K. replace (mk * (0 ^ 3 / 3 - 0 ^ 5 / 10 + 0 ^ 7 / 56 - 0 ^ 9 / 432 + 0 ^ 11 / 4224) - 0) with 0 in K by (cbn [pow]; field). lra.
Qed.
Definition y0 : R := 2 * mk.
Lemma y0_bounds : 1592 / 1000 < y0 < 1598 / 1000.
Proof. unfold y0. pose proof mk_bounds. lra. Qed.
Lemma y0_f : Mf y0 = 2 * mk * (2 * (mk * mk)) * exp (- (2 * (mk * mk))).
Proof. unfold Mf, y0. replace ((2 * mk) ^ 2 / 2) with (2 * (mk * mk)) by field. ring. Qed.
Lemma exp_s s : 12698 / 10000 < s < 1274 / 1000 -> 279 / 1000 <= exp (- s).
Proof.
  intros Hs. replace (- s) with (- (s / 8) + - (s / 8) + - (s / 8) + - (s / 8) + - (s / 8) + - (s / 8) + - (s / 8) + - (s / 8)) by field. rewrite !exp_plus.
  pose proof (exp_t3 (s / 8) ltac:(lra)) as B. set (e := exp (- (s / 8))) in *. assert (L : 8527 / 10000 <= e).
  { eapply Rle_trans; [|exact B]. set (c := s / 8) in *. assert (C : 0.1587 <= c <= 0.15925) by (unfold c; lra). clearbody c. clear - C.
    assert (c ^ 2 >= 0.318 * c - 0.159 ^ 2) by (pose proof (pow2_ge_0 (c - 0.159)); lra). assert (c ^ 3 <= 0.15925 ^ 3) by (apply pow_incr; lra). lra. }
  replace (e * e * e * e * e * e * e * e) with (e ^ 8) by ring. apply Rle_trans with ((8527 / 10000) ^ 8); [lra|]. apply pow_incr. lra.
Qed.
Lemma first_step : MF y0 <= 604 / 1000 * y0 * Mf y0.
Proof.
  pose proof mk_s as S. pose proof y0_bounds as Y. eapply Rle_trans; [apply MF_poly; lra|]. rewrite y0_f. unfold y0. set (s := 2 * (mk * mk)) in *.
  assert (E : mk * ((2 * mk) ^ 3 / 3 - (2 * mk) ^ 5 / 10 + (2 * mk) ^ 7 / 56 - (2 * mk) ^ 9 / 432 + (2 * mk) ^ 11 / 4224) = 2 * (s * s) * (1 / 3 - s / 5 + s ^ 2 / 14 - s ^ 3 / 54 + s ^ 4 / 264)) by (unfold s; field).
  rewrite E. replace (604 / 1000 * (2 * mk) * (2 * mk * s * exp (- s))) with (2 * (s * s) * (604 / 1000 * exp (- s))) by (unfold s; field).
  apply Rmult_le_compat_l; [nra|]. pose proof (exp_s s S) as X. clearbody s. clear E.
  assert (s ^ 2 <= (1274 / 1000) ^ 2) by (apply pow_incr; lra). assert ((12698 / 10000) ^ 3 <= s ^ 3) by (apply pow_incr; lra). assert (s ^ 4 <= (1274 / 1000) ^ 4) by (apply pow_incr; lra). lra.
Qed.
Lemma Mf_top t : 0 < t -> Mf t <= Mf (sqrt 2).
Proof. intros H. pose proof sqrt2_bounds. destruct (Rle_dec t (sqrt 2)); [apply Mf_up; lra|apply Mf_down; lra]. Qed.
Lemma Mf_s2 : Mf (sqrt 2) = 2 * mk * exp (- (1)).
Proof. unfold Mf. pose proof (sqrt_sqrt 2 ltac:(lra)) as S. replace (sqrt 2 ^ 2) with 2 by (cbn [pow]; lra). replace (2 / 2) with 1 by lra. ring. Qed.
Lemma Mf_le t : 0 < t -> Mf t <= 6 / 10.
Proof. intros H. eapply Rle_trans; [apply Mf_top, H|]. rewrite Mf_s2. pose proof (exp_t4 1 ltac:(lra)). pose proof mk_bounds. pose proof (exp_pos (- (1))). nra. Qed.
Lemma top_gap : Mf (sqrt 2) - Mf y0 <= 451 / 10000.
Proof.
  rewrite Mf_s2, y0_f. pose proof mk_s as S. set (s := 2 * (mk * mk)) in *. pose proof mk_bounds as K. pose proof (exp_t4 1 ltac:(lra)) as T. pose proof (exp_pos (- (1))) as P0.
  replace (- s) with (- (1) + (1 - s)) by ring. rewrite exp_plus. pose proof (exp_ineq1_le (1 - s)) as L. set (e := exp (- (1))) in *. set (g := exp (1 - s)) in *. clearbody s e g.
  assert (A : (2 - s) * s <= g * s) by nra. assert (B : 1 - g * s <= 752 / 10000) by nra. assert (C : 2 * mk * e <= 6 / 10) by nra. assert (0 <= 2 * mk * e) by nra.
  replace (2 * mk * e - 2 * mk * s * (e * g)) with (2 * mk * e * (1 - g * s)) by ring. nra.
Qed.
Lemma Mf_at t b : 0 < t -> 0 <= b -> b <= 796 / 1000 * t ^ 2 * (1 - t ^ 2 / 2 + (t ^ 2 / 2) ^ 2 / 2 - (t ^ 2 / 2) ^ 3 / 6) -> b <= Mf t.
Proof.
  intros Ht Hb H. unfold Mf. pose proof (exp_t3 (t ^ 2 / 2) ltac:(nra)) as B. pose proof mk_bounds as K. pose proof (exp_pos (- (t ^ 2 / 2))) as P0.
  set (T := 1 - t ^ 2 / 2 + (t ^ 2 / 2) ^ 2 / 2 - (t ^ 2 / 2) ^ 3 / 6) in *. set (E := exp (- (t ^ 2 / 2))) in *. assert (0 < t ^ 2) by nra. set (q := t ^ 2) in *. clearbody T E q.
  eapply Rle_trans; [exact H|]. apply Rle_trans with (796 / 1000 * q * E); [apply Rmult_le_compat_l; lra|]. apply Rmult_le_compat_r; [lra|]. apply Rmult_le_compat_r; lra.
Qed.
Lemma Mf_region a b l t : 0 < a -> a <= sqrt 2 <= b -> 0 < l -> l <= Mf a -> l <= Mf b -> a <= t <= b -> l <= Mf t.
Proof.
  intros Ha Hb Hl A B Ht. destruct (Rle_dec t (sqrt 2)).
  - pose proof (Mf_up a t). lra.
  - pose proof (Mf_down t b). lra.
Qed.
Lemma Mf_inner t : 62 / 100 <= t <= 1598 / 1000 -> 252 / 1000 <= Mf t.
Proof.
  intros H. pose proof sqrt2_bounds. apply (Mf_region (62 / 100) (1598 / 1000)); try lra; apply Mf_at; lra.
Qed.
Lemma Mf_outer t : 53 / 100 <= t <= 17 / 10 -> 19 / 100 <= Mf t.
Proof.
  intros H. pose proof sqrt2_bounds. apply (Mf_region (53 / 100) (17 / 10)); try lra; apply Mf_at; lra.
Qed.
Lemma Mf_slope t : 0 < t <= 17 / 10 -> Rabs (Mf t * Mc t) <= 7 / 10.
Proof.
  intros Ht. assert (E : Mf t * Mc t = mk * (2 * t - t ^ 3) * exp (- (t ^ 2 / 2))) by (unfold Mf, Mc; field; lra). rewrite E. pose proof mk_bounds as K.
  set (u := t ^ 2 / 2). assert (U : 0 <= u) by (unfold u; nra). pose proof (exp_lower2 u U) as L. pose proof (exp_pos (- u)) as P0.
  assert (X : exp (- u) * exp u = 1) by (rewrite <- exp_plus; replace (- u + u) with 0 by ring; apply exp_0). set (e := exp (- u)) in *. set (g := exp u) in *. clearbody e g.
  assert (X1 : e * (1 + u + u * u / 2) <= 1) by nra.
  apply Rabs_le. split.
  - assert (t ^ 3 - 2 * t <= 1.52) by (cbn [pow]; nra). destruct (Rle_dec (t ^ 3) (2 * t)) as [D|D]; [assert (0 <= mk * (2 * t - t ^ 3)) by (apply Rmult_le_pos; lra); nra|].
    assert (1 <= u) by (unfold u; cbn [pow] in *; nra). assert (e <= 1 / 2) by nra. assert (- (122 / 100) <= mk * (2 * t - t ^ 3)) by nra. nra.
  - assert (D : mk * (2 * t - t ^ 3) <= 7 / 10 * (1 + u + u * u / 2)).
    { destruct (Rle_dec (2 * t - t ^ 3) 0); [nra|]. apply Rle_trans with (8 / 10 * (2 * t - t ^ 3)); [nra|]. unfold u. cbn [pow]. clear - Ht.
      assert (Q : 0 <= 0.7 + 0.35 * t ^ 2 + 0.0875 * t ^ 4 - 1.6 * t + 0.8 * t ^ 3).
      { assert (t ^ 2 >= 1.32 * t - 0.66 ^ 2) by (pose proof (pow2_ge_0 (t - 0.66)); lra).
        assert (t ^ 3 >= 3 * 0.66 ^ 2 * t - 2 * 0.66 ^ 3) by (assert (0 <= (t + 2 * 0.66) * (t - 0.66) ^ 2) by (apply Rmult_le_pos; [lra|apply pow2_ge_0]); lra).
        assert (t ^ 4 >= 4 * 0.66 ^ 3 * t - 3 * 0.66 ^ 4) by (assert (0 <= (t ^ 2 + 2 * 0.66 * t + 3 * 0.66 ^ 2) * (t - 0.66) ^ 2) by (apply Rmult_le_pos; [nra|apply pow2_ge_0]); lra).
        lra. }
      lra. }
    nra.
Qed.

(** ** Close to the solution *)
Lemma abs_in a b : Rabs a <= b -> - b <= a <= b.
Proof. intros H. split; [|pose proof (Rle_abs a); lra]. pose proof (Rle_abs (- a)). rewrite Rabs_Ropp in *. lra. Qed.
Lemma quad_bound x r y l : MF r = x -> 0 < y <= 17 / 10 -> 0 < r <= 17 / 10 -> 0 < l -> l <= Mf y ->
  Rabs (y - (MF y - x) / Mf y - r) <= 7 / 10 / l * Rabs (r - y) ^ 2.
Proof.
  intros Hr Hy Hr2 Hl Hm. pose proof (Mf_pos y ltac:(lra)) as P0.
  assert (T : Rabs (MF r - MF y - (r - y) * Mf y) <= 7 / 10 * Rabs (r - y) ^ 2).
  { apply (taylor2 MF Mf (fun z => Mf z * Mc z)).
    - intros z _. apply MF_deriv.
    - intros z Hz. apply Mf_deriv. unfold between in Hz. destruct Hz as (Hz & _). pose proof (Rmin_pos y r ltac:(lra) ltac:(lra)). lra.
    - intros z Hz. apply Mf_slope. unfold between in Hz. destruct Hz as (Hz & Hz2). pose proof (Rmin_pos y r ltac:(lra) ltac:(lra)). pose proof (Rmax_lub y r (17 / 10) ltac:(lra) ltac:(lra)). lra. }
  replace (y - (MF y - x) / Mf y - r) with ((MF r - MF y - (r - y) * Mf y) / Mf y) by (rewrite Hr; field; lra).
  unfold Rdiv at 1. rewrite Rabs_mult, (Rabs_pos_eq (/ Mf y)) by (left; apply Rinv_0_lt_compat, P0).
  set (D := Rabs (r - y) ^ 2) in *. assert (D0 : 0 <= D) by (apply pow_le, Rabs_pos).
  apply Rle_trans with (7 / 10 * D * / Mf y); [apply Rmult_le_compat_r; [left; apply Rinv_0_lt_compat, P0|exact T]|].
  replace (7 / 10 / l * D) with (7 / 10 * D * / l) by (field; lra). apply Rmult_le_compat_l; [lra|]. apply Rinv_le_contravar; lra.
Qed.
Lemma quad_step k x r y e e' : MF r = x -> 62 / 100 <= r <= 1598 / 1000 -> Rabs (r - y) <= e -> e <= 9 / 100 -> 37 / 10 * e ^ 2 <= e' ->
  exists y', (mxw_loop (S k) 1 x y = (Met, y') \/ mxw_loop (S k) 1 x y = mxw_loop k 1 x y') /\ Rabs (r - y') <= e'.
Proof.
  intros Hr R0 He E1 E2. assert (B : Rabs (r - y) <= 9 / 100) by lra. apply abs_in in B.
  exists (y - (MF y - x) / Mf y). split; [apply mx_next; [lra|reflexivity]|]. rewrite Rabs_minus_sym.
  eapply Rle_trans; [apply (quad_bound x r y (19 / 100) Hr); [lra|lra|lra|apply Mf_outer; lra]|].
  eapply Rle_trans; [|exact E2]. assert (Q : Rabs (r - y) ^ 2 <= e ^ 2) by (apply pow_incr; split; [apply Rabs_pos|exact He]).
  assert (0 <= Rabs (r - y) ^ 2) by (apply pow_le, Rabs_pos). lra.
Qed.
Lemma quad_hit k x r y : MF r = x -> 62 / 100 <= r <= 1598 / 1000 -> Rabs (r - y) <= / 10 ^ 16 ->
  exists y', mxw_loop (S k) 1 x y = (Met, y') /\ Rabs (r - y') <= 1 / 100.
Proof.
  intros Hr R0 He. assert (B : Rabs (r - y) <= 1 / 1000) by lra. apply abs_in in B. exists (y - (MF y - x) / Mf y).
  pose proof (Mf_outer y ltac:(lra)) as M. split.
  - apply mx_hit; [lra|]. apply (small_ratio _ _ (7 / 10)); [nra|lra| |lra].
    assert (L : Rabs (MF y - MF r) <= 6 / 10 * Rabs (y - r)).
    { apply (lipschitz MF Mf r y (6 / 10)).
      - intros z _. apply MF_deriv.
      - intros z Hz. unfold between in Hz. destruct Hz as (Hz & _). pose proof (Rmin_pos r y ltac:(lra) ltac:(lra)). pose proof (Mf_le z ltac:(lra)). pose proof (Mf_pos z ltac:(lra)). rewrite Rabs_pos_eq; lra. }
    rewrite Hr, (Rabs_minus_sym y r) in L. unfold epsilon. assert (1 / 10 <= Mf y * y) by nra. assert (6 / 10 * / 10 ^ 16 <= 7 / 10 * (4 * / 2 ^ 52 * (1 / 10))) by lra. nra.
  - rewrite Rabs_minus_sym. eapply Rle_trans; [apply (quad_bound x r y (19 / 100) Hr); lra|]. assert (Q : Rabs (r - y) ^ 2 <= (1 / 1000) ^ 2) by (apply pow_incr; split; [apply Rabs_pos|lra]). lra.
Qed.
Lemma quad_loop n x r y : MF r = x -> 62 / 100 <= r <= 1598 / 1000 -> Rabs (r - y) <= 86 / 1000 -> exists r', mxw_loop (6 + n) 1 x y = (Met, r') /\ 0 < r'.
Proof.
  intros Hr R0 H. assert (Fin : forall y', Rabs (r - y') <= 9 / 100 -> 0 < y') by (intros y' A; apply abs_in in A; lra).
  destruct (quad_step (5 + n) x r y (86 / 1000) (274 / 10000) Hr R0 H ltac:(lra) ltac:(lra)) as (y1 & [E|E] & H1); [exists y1; split; [exact E|apply Fin; lra]|].
  destruct (quad_step (4 + n) x r y1 (274 / 10000) (279 / 100000) Hr R0 H1 ltac:(lra) ltac:(lra)) as (y2 & [E2|E2] & H2); [exists y2; split; [|apply Fin; lra]; exact (eq_trans E E2)|].
  destruct (quad_step (3 + n) x r y2 (279 / 100000) (29 / 1000000) Hr R0 H2 ltac:(lra) ltac:(lra)) as (y3 & [E3|E3] & H3); [exists y3; split; [|apply Fin; lra]; exact (eq_trans E (eq_trans E2 E3))|].
  destruct (quad_step (2 + n) x r y3 (29 / 1000000) (32 / 10 ^ 10) Hr R0 H3 ltac:(lra) ltac:(lra)) as (y4 & [E4|E4] & H4); [exists y4; split; [|apply Fin; lra]; exact (eq_trans E (eq_trans E2 (eq_trans E3 E4)))|].
  destruct (quad_step (1 + n) x r y4 (32 / 10 ^ 10) (/ 10 ^ 16) Hr R0 H4 ltac:(lra) ltac:(lra)) as (y5 & [E5|E5] & H5); [exists y5; split; [|apply Fin; lra]; exact (eq_trans E (eq_trans E2 (eq_trans E3 (eq_trans E4 E5))))|].
  destruct (quad_hit n x r y5 Hr R0 H5) as (y6 & E6 & H6). exists y6. split; [|apply Fin; lra]. exact (eq_trans E (eq_trans E2 (eq_trans E3 (eq_trans E4 (eq_trans E5 E6))))).
Qed.

(** ** The whole iteration *)
Lemma MF_mvt s t : s < t -> exists c, s <= c <= t /\ MF t - MF s = Mf c * (t - s).
Proof.
  intros H. destruct (MVT_gen MF s t Mf) as (c & Hc & E).
  - intros z _. apply MF_deriv.
  - intros z _. apply continuity_pt_filterlim. apply (ex_derive_continuous (V := R_NormedModule)). eexists. apply MF_deriv.
  - rewrite Rmin_left, Rmax_right in Hc by lra. exists c. split; [exact Hc|exact E].
Qed.
Lemma first_cases x : 0 < x -> x < MF y0 -> let y1 := y0 - (MF y0 - x) / Mf y0 in
  62 / 100 <= y1 < y0 /\ ((sqrt 2 <= y1 /\ MF y1 <= x) \/ (y1 <= sqrt 2 /\ x <= MF y1) \/ (y1 <= sqrt 2 /\ MF y1 < x /\ x - MF y1 <= 441 / 10000)).
Proof.
  intros X0 X1 y1. pose proof y0_bounds as Y. pose proof (Mf_pos y0 ltac:(lra)) as P0. pose proof first_step as F. pose proof sqrt2_bounds as Sq.
  assert (D : (y0 - y1) * Mf y0 = MF y0 - x) by (unfold y1; field; lra). clearbody y1.
  assert (A1 : y1 < y0) by (apply Rnot_le_lt; intros N; assert ((y0 - y1) * Mf y0 <= 0) by nra; lra).
  assert (A2 : y0 - y1 <= 604 / 1000 * y0).
  { apply (Rmult_le_reg_r (Mf y0)); [exact P0|]. lra. }
  split; [lra|]. destruct (MF_mvt y1 y0 A1) as (c & Hc & E). destruct (Rle_or_lt (sqrt 2) y1) as [L|L].
  - left. split; [exact L|]. pose proof (Mf_down c y0 ltac:(lra) ltac:(lra)) as M. nra.
  - right. destruct (Rle_or_lt x (MF y1)) as [M|M]; [left; split; lra|right]. split; [lra|]. split; [exact M|].
    pose proof (Mf_top c ltac:(lra)) as T. pose proof top_gap as G. replace (x - MF y1) with ((Mf c - Mf y0) * (y0 - y1)) by lra.
    apply Rle_trans with (451 / 10000 * (y0 - y1)); [apply Rmult_le_compat_r; lra|lra].
Qed.
Lemma root_exists x s t : s < t -> MF s <= x <= MF t -> exists r, s <= r <= t /\ MF r = x.
Proof.
  intros H Hx. destruct (IVT_gen MF s t x) as (r & Hr & E).
  - intros z. apply continuity_pt_filterlim. apply (ex_derive_continuous (V := R_NormedModule)). eexists. apply MF_deriv.
  - pose proof (MF_strict s t H). rewrite Rmin_left, Rmax_right by lra. exact Hx.
  - rewrite Rmin_left, Rmax_right in Hr by lra. exists r. split; assumption.
Qed.
Lemma mx_main x : / 2 ^ 53 <= x <= 1 - / 2 ^ 53 -> exists r, mxw_loop 55 1 x y0 = (Met, r) /\ 0 < r.
Proof.
  intros Hx. pose proof y0_bounds as Y. pose proof sqrt2_bounds as Sq. assert (X0 : 0 < / 2 ^ 53) by lra. destruct (Rle_or_lt (MF y0) x) as [L|L].
  - destruct (mx_high' 8 x y0 ltac:(lra) ltac:(lra) L) as (r & E & R). exists r. split; [exact E|lra].
  - pose proof (first_cases x ltac:(lra) L) as C. cbv zeta in C. destruct (mx_next 54 x y0 _ ltac:(lra) eq_refl) as [E|E].
    + exists (y0 - (MF y0 - x) / Mf y0). split; [exact E|lra].
    + set (y1 := y0 - (MF y0 - x) / Mf y0) in *. clearbody y1. destruct C as (B & [(C1 & C2)|[(C1 & C2)|(C1 & C2 & C3)]]).
      * destruct (mx_high' 7 x y1 ltac:(lra) C1 C2) as (r & E1 & R). exists r. split; [exact (eq_trans E E1)|lra].
      * destruct (mx_low' 7 x y1 ltac:(lra) ltac:(lra) C2) as (r & E1 & R). exists r. split; [exact (eq_trans E E1)|lra].
      * destruct (root_exists x y1 y0 ltac:(lra) ltac:(lra)) as (r & R & Hr).
        assert (N1 : y1 < r) by (destruct R as ([R|R] & _); [exact R|subst r; lra]).
        destruct (MF_mvt y1 r N1) as (c & Hc & Ec). pose proof (Mf_inner c ltac:(lra)) as M.
        assert (D : r - y1 <= 175 / 1000) by nra.
        destruct (mx_next 53 x y1 _ ltac:(lra) eq_refl) as [E1|E1].
        -- exists (y1 - (MF y1 - x) / Mf y1). split; [exact (eq_trans E E1)|]. pose proof (Mf_pos y1 ltac:(lra)) as P1. assert (0 < (x - MF y1) / Mf y1) by (apply Rdiv_lt_0_compat; lra). replace (y1 - (MF y1 - x) / Mf y1) with (y1 + (x - MF y1) / Mf y1) by (field; lra). lra.
        -- pose proof (quad_bound x r y1 (252 / 1000) Hr ltac:(lra) ltac:(lra) ltac:(lra) (Mf_inner y1 ltac:(lra))) as Q. rewrite (Rabs_pos_eq (r - y1)) in Q by lra.
           assert (Q2 : (r - y1) ^ 2 <= (175 / 1000) ^ 2) by (apply pow_incr; lra).
           destruct (quad_loop 47 x r (y1 - (MF y1 - x) / Mf y1) Hr ltac:(lra)) as (r' & E2 & R2); [rewrite Rabs_minus_sym; lra|].
           exists r'. split; [exact (eq_trans E (eq_trans E1 E2))|exact R2].
Qed.

(** ** Scaling *)
Lemma max_cdf_scale th t : 0 < th -> max_cdf th (th * t) = MF t.
Proof.
  intros H. unfold MF, max_cdf. pose proof sqrt2_bounds as Sq. replace (th * t * (1 / sqrt 2) / th) with (t * (1 / sqrt 2) / 1) by (field; lra).
  replace (- (th * t) * (th * t) / (2 * th * th)) with (- t * t / (2 * 1 * 1)) by (field; lra). f_equal. field. lra.
Qed.
Lemma max_pdf_scale th t : 0 < th -> max_pdf th (th * t) = Mf t / th.
Proof.
  intros H. rewrite <- Mf_val. unfold max_pdf. cbv zeta. replace (- (th * t * (th * t)) / (2 * (th * th))) with (- (t * t) / (2 * (1 * 1))) by (field; lra). field. lra.
Qed.
Lemma mx_scale th : 0 < th -> forall k x t, mxw_loop k th x (th * t) = (let '(e, r) := mxw_loop k 1 x t in (e, th * r)).
Proof.
  intros H. induction k as [|k IH]; intros x t; cbn [mxw_loop]; [reflexivity|].
  destruct (Req_EM_T t 0) as [E|N].
  - destruct (Req_EM_T (th * t) 0) as [_|N]; [rewrite Rmult_0_r; reflexivity|]. exfalso. apply N. rewrite E. ring.
  - destruct (Req_EM_T (th * t) 0) as [E|_]; [exfalso; apply N; apply Rmult_integral in E; destruct E; lra|].
    cbv zeta. fold MF. rewrite max_cdf_scale, max_pdf_scale, Mf_val by exact H. pose proof (Mf_pos t N) as P0.
    replace (th * t - (MF t - x) / (Mf t / th)) with (th * (t - (MF t - x) / Mf t)) by (field; lra). fold (MF t).
    set (t1 := t - (MF t - x) / Mf t). replace (th * t1 / (th * t)) with (t1 / t) by (field; lra).
    destruct (Rlt_dec _ _); [reflexivity|]. apply IH.
Qed.
Lemma mx_start th : mxw_start th = th * y0.
Proof. unfold mxw_start, y0, mk. ring. Qed.
Lemma mx_icdf th x : 0 < th -> 0 < x < 1 -> mxw_icdf th x = match mxw_loop 55 1 x y0 with (Zero, _) => NaN | (_, r) => Fin (th * r) end.
Proof.
  intros H Hx. unfold mxw_icdf. destruct (Rlt_dec x 0) as [|_]; [lra|]. destruct (Rlt_dec 1 x) as [|_]; [lra|]. destruct (Req_EM_T x 1) as [|_]; [lra|]. destruct (Req_EM_T x 0) as [|_]; [lra|].
  unfold mxw_iterate. rewrite mx_start, mx_scale by exact H. destruct (mxw_loop 55 1 x y0) as ([] & r); reflexivity.
Qed.

(** ** The answer when the loop is left *)
Lemma nonneg_by_deriv (f g : R -> R) : (forall z, 0 <= z -> is_derive f z (g z)) -> f 0 = 0 -> (forall z, 0 <= z -> 0 <= g z) -> forall z, 0 <= z -> 0 <= f z.
Proof. intros D F0 P z Hz. rewrite <- F0. apply (mono_cc f g 0 z Hz); intros w Hw; [apply D|apply P]; lra. Qed.
Lemma exp_low3 u : 0 <= u -> 1 + u + u ^ 2 / 2 + u ^ 3 / 6 <= exp u.
Proof.
  intros H. assert (A1 : forall z, 0 <= z -> 0 <= exp z - 1 - z) by (intros z Hz; pose proof (exp_ineq1_le z); lra).
  assert (A2 : forall z, 0 <= z -> 0 <= exp z - 1 - z - z ^ 2 / 2).
  { apply (nonneg_by_deriv (fun z => exp z - 1 - z - z ^ 2 / 2) (fun z => exp z - 1 - z)); [|rewrite exp_0; lra|exact A1].
    intros w _. auto_derive; [exact Logic.I|]. lra. }
  assert (A3 : forall z, 0 <= z -> 0 <= exp z - 1 - z - z ^ 2 / 2 - z ^ 3 / 6).
  { apply (nonneg_by_deriv (fun z => exp z - 1 - z - z ^ 2 / 2 - z ^ 3 / 6) (fun z => exp z - 1 - z - z ^ 2 / 2)); [|rewrite exp_0; lra|exact A2].
    intros w _. auto_derive; [exact Logic.I|]. lra. }
  pose proof (A3 u H). lra.
Qed.
Lemma Mf_curv t : 0 < t -> Rabs (Mf t * Mc t) <= 10 / t ^ 2.
Proof.
  intros H. pose proof mk_bounds as K. assert (T2 : 0 < t ^ 2) by (apply pow_lt, H). apply (Rmult_le_reg_r (t ^ 2)); [exact T2|]. replace (10 / t ^ 2 * t ^ 2) with 10 by (field; lra).
  replace (Rabs (Mf t * Mc t) * t ^ 2) with (Rabs (Mf t * Mc t * t ^ 2)) by (rewrite (Rabs_mult _ (t ^ 2)), (Rabs_pos_eq (t ^ 2)) by lra; reflexivity). unfold Mf, Mc. set (u := t ^ 2 / 2). set (e := exp (- u)).
  replace (mk * t ^ 2 * e * (2 / t - t) * t ^ 2) with (mk * (2 * t ^ 3 - t ^ 5) * e) by (field; lra).
  pose proof (exp_pos (- u)) as P0. pose proof (exp_low3 u ltac:(unfold u; lra)) as L. rewrite Rabs_mult, (Rabs_pos_eq e) by (unfold e; lra).
  assert (E1 : e * exp u = 1) by (unfold e; rewrite <- exp_plus, Rplus_opp_l; apply exp_0).
  rewrite Rabs_mult, (Rabs_pos_eq mk) by lra.
  assert (A : Rabs (2 * t ^ 3 - t ^ 5) <= 2 * t ^ 3 + t ^ 5).
  { assert (0 < t ^ 3) by (apply pow_lt, H). assert (0 < t ^ 5) by (apply pow_lt, H). apply Rabs_le. lra. }
  assert (B : mk * (2 * t ^ 3 + t ^ 5) <= 10 * (1 + u + u ^ 2 / 2 + u ^ 3 / 6)).
  { unfold u. assert (0 < 2 * t ^ 3 + t ^ 5) by (assert (0 < t ^ 3) by (apply pow_lt, H); assert (0 < t ^ 5) by (apply pow_lt, H); lra).
    apply Rle_trans with (8 / 10 * (2 * t ^ 3 + t ^ 5)); [apply Rmult_le_compat_r; lra|].
    assert (Q1 : 0 <= t ^ 4 * (t / 3 - 3 / 2) ^ 2 ) by (apply Rmult_le_pos; [apply pow_le; lra|apply pow2_ge_0]).
    assert (Q2 : 0 <= t ^ 2 * (t - 2) ^ 2 ) by (apply Rmult_le_pos; [apply pow_le; lra|apply pow2_ge_0]).
    assert (Q3 : 0 <= t ^ 4 * (45 / 100 * t - 8 / 9) ^ 2 ) by (apply Rmult_le_pos; [apply pow_le; lra|apply pow2_ge_0]).
    assert (Q4 : 0 <= t ^ 2 * (68 / 100 * t - 12 / 10) ^ 2 ) by (apply Rmult_le_pos; [apply pow_le; lra|apply pow2_ge_0]).
    assert (0 <= t ^ 6) by (apply pow_le; lra). assert (0 <= t ^ 4) by (apply pow_le; lra). clear Q1 Q2. ring_simplify in Q3. ring_simplify in Q4. ring_simplify. lra. }
  assert (0 <= Rabs (2 * t ^ 3 - t ^ 5)) by apply Rabs_pos.
  apply Rle_trans with (10 * (exp u) * e); [|rewrite Rmult_assoc, (Rmult_comm (exp u)), E1; lra].
  apply Rmult_le_compat_r; [unfold e; lra|]. apply Rle_trans with (mk * (2 * t ^ 3 + t ^ 5)); [apply Rmult_le_compat_l; lra|lra].
Qed.
Lemma mx_close x y : 0 < y -> Rabs ((y - (MF y - x) / Mf y) / y - 1) < 4 * epsilon -> Rabs (MF (y - (MF y - x) / Mf y) - x) <= / 2 ^ 96.
Proof.
  intros Hy H. pose proof (Mf_pos y ltac:(lra)) as P0. set (r := y - (MF y - x) / Mf y) in *.
  assert (D : Rabs (r - y) <= 4 * epsilon * y).
  { replace (r - y) with ((r / y - 1) * y) by (field; lra). rewrite Rabs_mult, (Rabs_pos_eq y) by lra. apply Rmult_le_compat_r; lra. }
  assert (Ex : x = MF y + (r - y) * Mf y) by (unfold r; field; lra). replace (MF r - x) with (MF r - MF y - (r - y) * Mf y) by (rewrite Ex; ring).
  clearbody r. assert (D2 : Rabs (r - y) <= 1 / 1000 * y) by (unfold epsilon in D; nra). pose proof (abs_in _ _ D2) as D3.
  eapply Rle_trans; [apply (taylor2 MF Mf (fun z => Mf z * Mc z) y r (11 / y ^ 2))|].
  - intros z _. apply MF_deriv.
  - intros z Hz. apply Mf_deriv. unfold between in Hz. destruct Hz as (Hz & _). pose proof (Rmin_pos y r ltac:(lra) ltac:(lra)). lra.
  - intros z Hz. assert (Z : 999 / 1000 * y <= z).
    { unfold between in Hz. destruct Hz as (Hz & _). eapply Rle_trans; [|exact Hz]. apply Rmin_glb; lra. }
    eapply Rle_trans; [apply Mf_curv; lra|]. assert (0 < y ^ 2) by (apply pow_lt, Hy). assert (Z2 : (999 / 1000 * y) ^ 2 <= z ^ 2) by (apply pow_incr; lra). assert (0 < z ^ 2) by (apply pow_lt; lra).
    apply (Rmult_le_reg_r (z ^ 2)); [lra|]. replace (10 / z ^ 2 * z ^ 2) with 10 by (field; lra). apply (Rmult_le_reg_r (y ^ 2)); [lra|].
    replace (11 / y ^ 2 * z ^ 2 * y ^ 2) with (11 * z ^ 2) by (field; lra). replace ((999 / 1000 * y) ^ 2) with ((999 / 1000) ^ 2 * y ^ 2) in Z2 by ring. lra.
  - assert (Y2 : 0 < y ^ 2) by (apply pow_lt, Hy). assert (S : Rabs (r - y) ^ 2 <= (4 * epsilon * y) ^ 2) by (apply pow_incr; split; [apply Rabs_pos|exact D]).
    apply Rle_trans with (11 / y ^ 2 * (4 * epsilon * y) ^ 2); [apply Rmult_le_compat_l; [left; apply Rdiv_lt_0_compat; lra|exact S]|].
    replace (11 / y ^ 2 * (4 * epsilon * y) ^ 2) with (11 * (4 * epsilon) ^ 2) by (field; lra). unfold epsilon. lra.
Qed.
Lemma MF_odd t : MF (- t) = - MF t.
Proof. apply max_odd. lra. Qed.
Lemma mx_close' x y : y <> 0 -> Rabs ((y - (MF y - x) / Mf y) / y - 1) < 4 * epsilon -> Rabs (MF (y - (MF y - x) / Mf y) - x) <= / 2 ^ 96.
Proof.
  intros Hy H. destruct (Rlt_or_le 0 y) as [P0|P0]; [now apply mx_close|]. pose proof (Mf_pos y Hy) as Q.
  assert (M : Mf (- y) = Mf y) by (unfold Mf; replace ((- y) ^ 2) with (y ^ 2) by ring; reflexivity).
  assert (E : - y - (MF (- y) - - x) / Mf (- y) = - (y - (MF y - x) / Mf y)) by (rewrite MF_odd, M; field; lra).
  pose proof (mx_close (- x) (- y) ltac:(lra)) as C. rewrite E, MF_odd in C. replace (- (y - (MF y - x) / Mf y) / - y) with ((y - (MF y - x) / Mf y) / y) in C by (field; lra).
  specialize (C H). rewrite <- Rabs_Ropp. replace (- (MF (y - (MF y - x) / Mf y) - x)) with (- MF (y - (MF y - x) / Mf y) - - x) by ring. exact C.
Qed.
Lemma mx_met k : forall x y r, mxw_loop k 1 x y = (Met, r) -> Rabs (MF r - x) <= / 2 ^ 96.
Proof.
  induction k as [|k IH]; intros x y r; cbn [mxw_loop]; [discriminate 1|]. destruct (Req_EM_T y 0) as [E|N]; [discriminate 1|]. cbv zeta. rewrite Mf_val. fold (MF y).
  destruct (Rlt_dec _ _) as [L|L]; [|apply IH]. intros H. assert (R : y - (MF y - x) / Mf y = r) by (injection H; auto). rewrite <- R. apply mx_close'; assumption.
Qed.

(** ** Very small arguments: a step at most halves the value *)
Lemma zMf_deriv c z : is_derive (fun z => c * (z * Mf z) - MF z) z (mk * z ^ 2 * exp (- (z ^ 2 / 2)) * (c * (3 - z ^ 2) - 1)).
Proof.
  replace (mk * z ^ 2 * exp (- (z ^ 2 / 2)) * (c * (3 - z ^ 2) - 1)) with (mk * z ^ 2 * exp (- (z ^ 2 / 2)) * (c * (3 - z ^ 2)) - Mf z) by (unfold Mf; ring).
  apply (is_derive_minus (K := R_AbsRing) (V := R_NormedModule) (fun z => c * (z * Mf z)) MF); [|apply MF_deriv]. unfold Mf. auto_derive; [exact Logic.I|]. set (e1 := exp _). set (e2 := exp (- (z ^ 2 / 2))). replace e1 with e2 by (unfold e1, e2; f_equal; field). unfold Rminus. field.
Qed.
Lemma MF_half t : 0 <= t <= 1 -> MF t <= t * Mf t / 2.
Proof.
  intros Ht. assert (Q : / 2 * (0 * Mf 0) - MF 0 <= / 2 * (t * Mf t) - MF t); [|rewrite MF_0 in Q; lra].
  apply (mono_cc (fun z => / 2 * (z * Mf z) - MF z) (fun z => mk * z ^ 2 * exp (- (z ^ 2 / 2)) * (/ 2 * (3 - z ^ 2) - 1)) 0 t); [lra|intros z _; apply zMf_deriv|].
  intros z Hz. pose proof mk_bounds. pose proof (exp_pos (- (z ^ 2 / 2))). apply Rmult_le_pos; [apply Rmult_le_pos; [apply Rmult_le_pos; [lra|apply pow2_ge_0]|lra]|]. assert (z ^ 2 <= 1 ^ 2) by (apply pow_incr; lra). lra.
Qed.
Lemma MF_third t : 0 <= t -> t * Mf t / 3 <= MF t.
Proof.
  intros Ht. assert (Q : - (/ 3 * (0 * Mf 0) - MF 0) <= - (/ 3 * (t * Mf t) - MF t)); [|rewrite MF_0 in Q; lra].
  apply (mono_cc (fun z => - (/ 3 * (z * Mf z) - MF z)) (fun z => - (mk * z ^ 2 * exp (- (z ^ 2 / 2)) * (/ 3 * (3 - z ^ 2) - 1))) 0 t); [lra| |].
  - intros z _. apply (is_derive_opp (K := R_AbsRing) (V := R_NormedModule)). apply zMf_deriv.
  - intros z Hz. pose proof mk_bounds. pose proof (exp_pos (- (z ^ 2 / 2))).
    replace (- (mk * z ^ 2 * exp (- (z ^ 2 / 2)) * (/ 3 * (3 - z ^ 2) - 1))) with (mk * z ^ 2 * exp (- (z ^ 2 / 2)) * (z ^ 2 / 3)) by field.
    pose proof (pow2_ge_0 z). apply Rmult_le_pos; [apply Rmult_le_pos; [apply Rmult_le_pos; lra|lra]|lra].
Qed.
Lemma MF_inner t : 1 <= t <= sqrt 2 -> MF t <= (t - / 2) * Mf t.
Proof.
  intros Ht. pose proof sqrt2_bounds as Sq. assert (Q : (1 - / 2) * Mf 1 - MF 1 <= (t - / 2) * Mf t - MF t); [|pose proof (MF_half 1 ltac:(lra)); lra].
  apply (mono_cc (fun z => (z - / 2) * Mf z - MF z) (fun z => (z - / 2) * (Mf z * Mc z)) 1 t); [lra| |].
  - intros z Hz. replace ((z - / 2) * (Mf z * Mc z)) with ((1 * Mf z + (z - / 2) * (Mf z * Mc z)) - Mf z) by ring.
    apply (is_derive_minus (K := R_AbsRing) (V := R_NormedModule) (fun z => (z - / 2) * Mf z) MF); [|apply MF_deriv].
    apply (is_derive_mult (K := R_AbsRing) (fun z => z - / 2) Mf z 1 (Mf z * Mc z)); [auto_derive; [exact Logic.I|ring]|apply Mf_deriv; lra|intros; apply Rmult_comm].
  - intros z Hz. pose proof (Mf_pos z ltac:(lra)). assert (0 <= Mc z) by (apply Mc_sign; lra). apply Rmult_le_pos; [lra|]. apply Rmult_le_pos; lra.
Qed.
Lemma ml_half x y : 0 < y <= sqrt 2 -> 0 < x -> Rmin y 1 / 2 <= y - (MF y - x) / Mf y.
Proof.
  intros Hy Hx. pose proof (Mf_pos y ltac:(lra)) as P0. assert (0 < x / Mf y) by (apply Rdiv_lt_0_compat; lra).
  replace (y - (MF y - x) / Mf y) with (y - MF y / Mf y + x / Mf y) by (field; lra). destruct (Rle_or_lt y 1) as [L|L].
  - rewrite Rmin_left by lra. pose proof (MF_half y ltac:(lra)) as M. assert (MF y / Mf y <= y / 2); [|lra]. apply (Rmult_le_reg_r (Mf y)); [lra|]. replace (MF y / Mf y * Mf y) with (MF y) by (field; lra). lra.
  - rewrite Rmin_right by lra. pose proof (MF_inner y ltac:(lra)) as M. assert (MF y / Mf y <= y - / 2); [|lra]. apply (Rmult_le_reg_r (Mf y)); [lra|]. replace (MF y / Mf y * Mf y) with (MF y) by (field; lra). lra.
Qed.
Lemma mx_slow x : 0 < x -> forall k y, 0 < y <= sqrt 2 -> x <= MF y -> exists e r, mxw_loop k 1 x y = (e, r) /\ e <> Zero /\ Rmin y 1 / 2 ^ k <= r.
Proof.
  intros Hx. induction k as [|k IH]; intros y Hy L.
  - exists Limit, y. split; [reflexivity|]. split; [discriminate 1|]. pose proof (Rmin_l y 1). cbn [pow]. lra.
  - rewrite mx_unfold by lra. cbv zeta. pose proof (ml_half x y Hy Hx) as H. pose proof (ml_step x y Hy ltac:(lra)) as S1. cbv zeta in S1. destruct S1 as (S1 & S2 & _).
    set (y1 := y - (MF y - x) / Mf y) in *. assert (P2 : 1 <= 2 ^ k) by (apply pow_R1_Rle; lra). pose proof (Rmin_pos y 1 ltac:(lra) ltac:(lra)) as M0. pose proof (Rmin_r y 1) as M1.
    assert (G : Rmin y 1 / 2 ^ S k <= Rmin y1 1 / 2 ^ k).
    { replace (Rmin y 1 / 2 ^ S k) with (Rmin y 1 / 2 / 2 ^ k) by (cbn [pow]; field; lra). apply Rmult_le_compat_r; [left; apply Rinv_0_lt_compat; lra|]. apply Rmin_glb; lra. }
    destruct (Rlt_dec _ _).
    + exists Met, y1. split; [reflexivity|]. split; [discriminate 1|]. eapply Rle_trans; [exact G|]. pose proof (Rmin_pos y1 1 ltac:(lra) ltac:(lra)) as M2. pose proof (Rmin_l y1 1).
      apply Rle_trans with (Rmin y1 1 / 1); [|lra]. apply Rmult_le_compat_l; [lra|]. apply Rinv_le_contravar; lra.
    + destruct (IH y1 ltac:(lra) S2) as (e & r & E & N & R). exists e, r. split; [exact E|]. split; [exact N|]. lra.
Qed.
Lemma mx_tiny x : 0 < x <= / 2 ^ 10 -> exists e r, mxw_loop 55 1 x y0 = (e, r) /\ e <> Zero /\ / 2 ^ 55 <= r.
Proof.
  intros Hx. pose proof y0_bounds as Y. pose proof sqrt2_bounds as Sq. pose proof mk_bounds as K.
  assert (F : forall t, 62 / 100 <= t -> / 2 ^ 10 < MF t).
  { intros t Ht. pose proof (Mf_inner (62 / 100) ltac:(lra)) as M. pose proof (MF_third (62 / 100) ltac:(lra)) as T. assert (MF (62 / 100) <= MF t) by (destruct Ht as [Ht| <-]; [left; apply MF_strict, Ht|lra]). lra. }
  pose proof (F y0 ltac:(lra)) as F0. pose proof (first_cases x ltac:(lra) ltac:(lra)) as C. cbv zeta in C. destruct (mx_next 54 x y0 _ ltac:(lra) eq_refl) as [E|E].
  - exists Met, (y0 - (MF y0 - x) / Mf y0). split; [exact E|]. split; [discriminate 1|lra].
  - set (y1 := y0 - (MF y0 - x) / Mf y0) in *. clearbody y1. destruct C as (B & C). pose proof (F y1 ltac:(lra)) as F1.
    destruct C as [(C1 & C2)|[(C1 & C2)|(C1 & C2 & C3)]]; [lra| |lra].
    destruct (mx_slow x ltac:(lra) 54 y1 ltac:(lra) C2) as (e & r & E1 & N & R). exists e, r. split; [exact (eq_trans E E1)|]. split; [exact N|].
    assert (62 / 100 <= Rmin y1 1) by (apply Rmin_glb; lra). eapply Rle_trans; [|exact R]. apply (Rle_trans _ (62 / 100 / 2 ^ 54)); [lra|]. apply Rmult_le_compat_r; lra.
Qed.
Lemma mx_tiny_cdf r : / 2 ^ 55 <= r -> / 2 ^ 170 <= MF r.
Proof.
  intros H. assert (M : MF (/ 2 ^ 55) <= MF r) by (destruct H as [H| <-]; [left; apply MF_strict, H|lra]). eapply Rle_trans; [|exact M]. eapply Rle_trans; [|apply MF_third; lra].
  unfold Mf. pose proof mk_bounds as K. set (t := / 2 ^ 55). assert (T : t ^ 2 / 2 <= 1 / 10) by (unfold t; lra). pose proof (exp_ineq1_le (- (t ^ 2 / 2))) as L.
  assert (T3 : 0 < t ^ 3) by (apply pow_lt; unfold t; lra). replace (t * (mk * t ^ 2 * exp (- (t ^ 2 / 2))) / 3) with (mk * exp (- (t ^ 2 / 2)) / 3 * t ^ 3) by field.
  assert (2 / 10 <= mk * exp (- (t ^ 2 / 2)) / 3) by nra. apply Rle_trans with (2 / 10 * t ^ 3); [unfold t; lra|]. apply Rmult_le_compat_r; lra.
Qed.
