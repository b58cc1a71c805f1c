(** Euler's Gamma function and the lower incomplete Gamma function on the positive reals. *)
From Coq Require Import Reals Lra Psatz Lia.
From Coquelicot Require Import Coquelicot.
From Verif Require Import Improper GaussInt.
Local Open Scope R_scope.

(** 1 / (a (a+1) ... (a+n)) *)
Fixpoint gc (a : R) (n : nat) : R := match n with O => / a | S m => gc a m / (a + INR n) end.
Lemma gc_S a n : gc a (S n) = gc a n / (a + INR (S n)).
Proof. reflexivity. Qed.
Lemma gc_pos a n : 0 < a -> 0 < gc a n.
Proof.
  intros Ha. induction n as [|n IH]; cbn [gc]; [apply Rinv_0_lt_compat, Ha|].
  apply Rdiv_lt_0_compat; [exact IH|]. pose proof (pos_INR (S n)). lra.
Qed.
Lemma gc_radius a : 0 < a -> CV_radius (gc a) = p_infty.
Proof.
  intros Ha. apply CV_radius_infinite_DAlembert.
  - intros n. pose proof (gc_pos a n Ha). lra.
  - apply is_lim_seq_ext with (fun n => / (a + INR (S n))).
    + intros n. rewrite gc_S. pose proof (gc_pos a n Ha). pose proof (pos_INR (S n)).
      replace (gc a n / (a + INR (S n)) / gc a n) with (/ (a + INR (S n))) by (field; lra).
      rewrite Rabs_pos_eq; [reflexivity|]. apply Rlt_le, Rinv_0_lt_compat. lra.
    + replace (Finite 0) with (Rbar_inv p_infty) by reflexivity. apply is_lim_seq_inv; [|discriminate].
      apply is_lim_seq_plus with (Finite a) p_infty.
      * apply is_lim_seq_const.
      * apply (is_lim_seq_incr_1 INR), is_lim_seq_INR.
      * reflexivity.
Qed.
Lemma gc_conv a x : 0 < a -> Rbar_lt (Rabs x) (CV_radius (gc a)).
Proof. intros Ha. rewrite gc_radius by exact Ha. exact I. Qed.
Lemma gc_ode a x : 0 < a -> a * PSeries (gc a) x + x * PSeries (PS_derive (gc a)) x = 1 + x * PSeries (gc a) x.
Proof.
  intros Ha.
  assert (C1 : ex_pseries (PS_scal a (gc a)) x).
  { apply CV_radius_inside. rewrite CV_radius_scal; [apply gc_conv, Ha|lra]. }
  assert (C2 : ex_pseries (PS_incr_1 (PS_derive (gc a))) x).
  { apply CV_radius_inside. rewrite CV_radius_incr_1, CV_radius_derive. apply gc_conv, Ha. }
  rewrite <- PSeries_scal, <- (PSeries_incr_1 (PS_derive (gc a))), <- PSeries_plus by assumption.
  rewrite PSeries_decr_1 by (apply ex_pseries_plus; assumption).
  f_equal.
  - unfold PS_plus, PS_scal, PS_incr_1. cbn. unfold plus, scal, zero; cbn. unfold mult; cbn. field. lra.
  - f_equal. apply PSeries_ext. intros n. unfold PS_decr_1, PS_plus, PS_scal, PS_incr_1, PS_derive.
    unfold plus, scal; cbn [AbelianGroup.plus]. rewrite gc_S. pose proof (pos_INR (S n)).
    change (a * (gc a n / (a + INR (S n))) + INR (S n) * (gc a n / (a + INR (S n))) = gc a n). field. lra.
Qed.

(** The integrand and the incomplete function. *)
Definition gterm (a t : R) : R := exp (- t) * Rpower t (a - 1).
Definition lgam (a x : R) : R := exp (- x) * Rpower x a * PSeries (gc a) x.
Definition Gam (a : R) : R := total p_infty (lgam a).

Lemma dom_inf x : dom p_infty x <-> 0 < x.
Proof. unfold dom. cbn. tauto. Qed.
Lemma Rpower_pos x y : 0 < Rpower x y.
Proof. apply exp_pos. Qed.
Lemma gterm_pos a t : 0 < gterm a t.
Proof. apply Rmult_lt_0_compat; [apply exp_pos|apply Rpower_pos]. Qed.
Lemma Rpower_S x a : 0 < x -> Rpower x a = x * Rpower x (a - 1).
Proof. intros Hx. rewrite <- (Rpower_1 x Hx) at 2. rewrite <- Rpower_plus. f_equal. ring. Qed.
Lemma is_derive_Rpower x a : 0 < x -> is_derive (fun t => Rpower t a) x (a * Rpower x (a - 1)).
Proof. intros Hx. apply is_derive_Reals, derivable_pt_lim_power, Hx. Qed.
Lemma lgam_deriv a x : 0 < a -> 0 < x -> is_derive (lgam a) x (gterm a x).
Proof.
  intros Ha Hx. pose proof (is_derive_Rpower x a Hx) as D1.
  pose proof (is_derive_PSeries (gc a) x (gc_conv a x Ha)) as D2.
  assert (D3 : is_derive (fun t => exp (- t)) x (- exp (- x))) by (auto_derive; [trivial|ring]).
  unfold lgam. eapply is_derive_val; [exact (is_derive_mul _ _ x _ _ (is_derive_mul _ _ x _ _ D3 D1) D2)|].
  - unfold gterm. rewrite (Rpower_S x a Hx).
    pose proof (gc_ode a x Ha). set (S := PSeries (gc a) x) in *. set (S' := PSeries (PS_derive (gc a)) x) in *.
    set (P := Rpower x (a - 1)). set (E := exp (- x)).
    replace ((- E * (x * P) + E * (a * P)) * S + E * (x * P) * S') with (E * P * ((a * S + x * S') - x * S)) by ring.
    rewrite H. ring.
Qed.
Lemma Rpower_lbot a : 0 < a -> lbot (fun x => Rpower x a) 0.
Proof.
  intros Ha e He. exists (Rpower (e / 2) (/ a)). split; [apply Rpower_pos|]. intros x Hx Hd.
  rewrite Rminus_0_r, Rabs_pos_eq by apply Rlt_le, Rpower_pos.
  apply Rle_lt_trans with (Rpower (Rpower (e / 2) (/ a)) a).
  - apply Rle_Rpower_l; [lra|split; assumption].
  - rewrite Rpower_mult, Rinv_l, Rpower_1 by lra. lra.
Qed.
Lemma lbot_bounded F B M d : 0 < d -> lbot F 0 -> (forall x, 0 < x -> x <= d -> Rabs (B x) <= M) ->
  lbot (fun x => F x * B x) 0.
Proof.
  intros Hd HF HB e He. assert (HM : 0 <= M) by (eapply Rle_trans; [apply Rabs_pos|apply (HB d); lra]).
  assert (K : 0 < e / (M + 1)) by (apply Rdiv_lt_0_compat; lra).
  destruct (HF _ K) as (d' & Hd' & E). exists (Rmin d d'). split; [apply Rmin_pos; assumption|].
  intros x Hx Hxd. pose proof (Rmin_l d d'). pose proof (Rmin_r d d').
  specialize (E x Hx ltac:(lra)). specialize (HB x Hx ltac:(lra)). rewrite Rminus_0_r in *. rewrite Rabs_mult.
  apply Rle_lt_trans with (Rabs (F x) * M).
  - apply Rmult_le_compat_l; [apply Rabs_pos|exact HB].
  - assert (Rabs (F x) * (M + 1) < e).
    { apply (Rmult_lt_compat_r (M + 1)) in E; [|lra]. unfold Rdiv in E. rewrite Rmult_assoc, Rinv_l in E by lra. lra. }
    pose proof (Rabs_pos (F x)). nra.
Qed.
Lemma cont_bounded B d : (forall x, 0 <= x <= d -> continuity_pt B x) -> 0 < d ->
  exists M, forall x, 0 < x -> x <= d -> Rabs (B x) <= M.
Proof.
  intros HC Hd.
  destruct (continuity_ab_maj B 0 d ltac:(lra) HC) as (u & Hu & _).
  destruct (continuity_ab_min B 0 d ltac:(lra) HC) as (v & Hv & _).
  exists (Rmax (Rabs (B u)) (Rabs (B v))). intros x Hx Hxd.
  specialize (Hu x ltac:(lra)). specialize (Hv x ltac:(lra)).
  pose proof (Rmax_l (Rabs (B u)) (Rabs (B v))). pose proof (Rmax_r (Rabs (B u)) (Rabs (B v))).
  pose proof (Rle_abs (B u)). pose proof (Rle_abs (- B v)). rewrite Rabs_Ropp in H2.
  apply Rabs_le. lra.
Qed.
Lemma lgam_prim a : 0 < a -> prim p_infty (lgam a) (gterm a).
Proof.
  intros Ha. split.
  - intros x Dx. apply dom_inf in Dx. apply lgam_deriv; assumption.
  - destruct (cont_bounded (fun x => exp (- x) * PSeries (gc a) x) 1) as (M & HM).
    + intros x _. apply continuity_pt_mult.
      * apply continuity_pt_filterlim, (ex_derive_continuous (fun x => exp (- x))). auto_derive. trivial.
      * apply PSeries_continuity, gc_conv, Ha.
    + lra.
    + pose proof (lbot_bounded _ _ M 1 Rlt_0_1 (Rpower_lbot a Ha) HM) as H.
      intros e He. destruct (H e He) as (d & Hd & E). exists d. split; [exact Hd|]. intros x Hx Hxd.
      specialize (E x Hx Hxd). unfold lgam. replace (exp (- x) * Rpower x a * PSeries (gc a) x) with (Rpower x a * (exp (- x) * PSeries (gc a) x)) by ring.
      exact E.
Qed.

(** Boundedness: t^(a-1) is below a multiple of e^(t/2). *)
Lemma exp_pow_lb n : exists C, 0 < C /\ forall t, 0 <= t -> t ^ n <= C * exp t.
Proof.
  induction n as [|n (C & HC & IH)].
  - exists 1. split; [lra|]. intros t Ht. cbn. rewrite Rmult_1_l. destruct Ht as [Ht|<-]; [left; pose proof (exp_ineq1 t); lra|rewrite exp_0; lra].
  - exists (INR (S n) * C + 1). pose proof (pos_INR (S n)). split; [nra|]. intros t Ht.
    assert (K : (INR (S n) * C + 1) * exp 0 - 0 ^ S n <= (INR (S n) * C + 1) * exp t - t ^ S n).
    { apply (mono_cc (fun u => (INR (S n) * C + 1) * exp u - u ^ S n) (fun u => (INR (S n) * C + 1) * exp u - INR (S n) * u ^ n)).
      - exact Ht.
      - intros u _. auto_derive; [trivial|]. change (match n with 0%nat => 1 | S _ => INR n + 1 end) with (INR (S n)). ring.
      - intros u Hu. specialize (IH u ltac:(lra)). pose proof (exp_pos u).
        assert (INR (S n) * u ^ n <= INR (S n) * (C * exp u)) by (apply Rmult_le_compat_l; assumption). nra. }
    rewrite exp_0 in K. rewrite pow_i in K by lia. nra.
Qed.
Lemma Rpower_exp_bound b : exists C, 0 < C /\ forall t, 1 <= t -> Rpower t b <= C * exp (t / 2).
Proof.
  destruct (archimed b) as [U _]. set (n := Z.to_nat (up b)).
  assert (Hn : b <= INR n).
  { unfold n. destruct (Z_le_gt_dec 0 (up b)).
    - rewrite INR_IZR_INZ, Z2Nat.id by assumption. lra.
    - assert (IZR (up b) < 0) by (apply IZR_lt; lia). pose proof (pos_INR (Z.to_nat (up b))). lra. }
  destruct (exp_pow_lb n) as (C & HC & H). exists (2 ^ n * C). split; [apply Rmult_lt_0_compat; [apply pow_lt; lra|exact HC]|].
  intros t Ht. apply Rle_trans with (t ^ n).
  - rewrite <- Rpower_pow by lra. apply Rle_Rpower; assumption.
  - replace (t ^ n) with (2 ^ n * (t / 2) ^ n) by (rewrite <- Rpow_mult_distr; f_equal; field).
    rewrite Rmult_assoc. apply Rmult_le_compat_l; [apply pow_le; lra|]. apply H. lra.
Qed.
Lemma lgam_mono a : 0 < a -> forall x y, dom p_infty y -> 0 < x -> x <= y -> lgam a x <= lgam a y.
Proof. intros Ha. apply (prim_mono p_infty (lgam a) (gterm a) (lgam_prim a Ha)). intros. apply Rlt_le, gterm_pos. Qed.
Lemma lgam_bounded a : 0 < a -> exists M, forall x, dom p_infty x -> lgam a x <= M.
Proof.
  intros Ha. destruct (Rpower_exp_bound (a - 1)) as (C & HC & H).
  exists (lgam a 1 + 2 * C). intros x Dx.
  destruct (Rle_dec x 1) as [Hx|Hx].
  - assert (lgam a x <= lgam a 1) by (apply lgam_mono; [exact Ha|apply dom_inf; lra|apply Dx|exact Hx]). lra.
  - assert (K : - (lgam a 1 + 2 * C * exp (- (1 / 2))) <= - (lgam a x + 2 * C * exp (- (x / 2)))).
    { apply (mono_cc (fun u => - (lgam a u + 2 * C * exp (- (u / 2)))) (fun u => - (gterm a u - C * exp (- (u / 2))))).
      - lra.
      - intros u Hu. apply (is_derive_opp (K := R_AbsRing) (V := R_NormedModule) (fun u => lgam a u + 2 * C * exp (- (u / 2)))).
        apply (is_derive_plus (K := R_AbsRing) (V := R_NormedModule) (lgam a) (fun u => 2 * C * exp (- (u / 2))) u (gterm a u) (- (C * exp (- (u / 2))))).
        + apply lgam_deriv; lra.
        + auto_derive; [trivial|]. unfold Rdiv. field.
      - intros u Hu. unfold gterm. specialize (H u ltac:(lra)).
        assert (exp (- u) * Rpower u (a - 1) <= exp (- u) * (C * exp (u / 2))) by (apply Rmult_le_compat_l; [left; apply exp_pos|exact H]).
        replace (exp (- u) * (C * exp (u / 2))) with (C * exp (- (u / 2))) in H0; [lra|].
        replace (- (u / 2)) with (- u + u / 2) by field. rewrite exp_plus. ring. }
    assert (exp (- (1 / 2)) <= 1).
    { assert (K2 : exp (- (1 / 2)) < exp 0) by (apply exp_increasing; lra). rewrite exp_0 in K2. lra. }
    pose proof (exp_pos (- (x / 2))). nra.
Qed.
Lemma dom_inf_ex : exists b, dom p_infty b.
Proof. exists 1. apply dom_inf. lra. Qed.
Lemma Gam_lim a : 0 < a -> ltop p_infty (lgam a) (Gam a).
Proof.
  intros Ha. destruct (lgam_bounded a Ha) as (M & HM).
  apply (total_ltop p_infty (lgam a) M dom_inf_ex); [apply lgam_mono, Ha|exact HM].
Qed.
Lemma lgam_strict a : 0 < a -> forall x y, 0 < x -> x < y -> lgam a x < lgam a y.
Proof.
  intros Ha x y Hx Hxy. apply (prim_strict p_infty (lgam a) (gterm a) (lgam_prim a Ha)); [|apply dom_inf; lra|exact Hx|exact Hxy].
  intros. apply gterm_pos.
Qed.
Lemma lgam_pos a x : 0 < a -> 0 < x -> 0 < lgam a x.
Proof. intros Ha Hx. apply (prim_pos p_infty (lgam a) (gterm a) (lgam_prim a Ha)); [intros; apply gterm_pos|apply dom_inf, Hx]. Qed.
Lemma lgam_lt_Gam a x : 0 < a -> 0 < x -> lgam a x < Gam a.
Proof.
  intros Ha Hx. apply Rlt_le_trans with (lgam a (x + 1)); [apply lgam_strict; lra|].
  apply (ltop_upper p_infty (lgam a) (Gam a)); [apply lgam_mono, Ha|apply Gam_lim, Ha|apply dom_inf; lra].
Qed.
Lemma Gam_pos a : 0 < a -> 0 < Gam a.
Proof. intros Ha. apply Rlt_trans with (lgam a 1); [apply lgam_pos; lra|apply lgam_lt_Gam; lra]. Qed.

(** Recurrence. *)
Lemma edge_deriv a x : 0 < x -> is_derive (fun t => exp (- t) * Rpower t a) x (a * gterm a x - gterm (a + 1) x).
Proof.
  intros Hx. pose proof (is_derive_Rpower x a Hx) as D1.
  assert (D3 : is_derive (fun t => exp (- t)) x (- exp (- x))) by (auto_derive; [trivial|ring]).
  eapply is_derive_val; [exact (is_derive_mul _ _ x _ _ D3 D1)|].
  unfold gterm. replace (a + 1 - 1) with a by ring. ring.
Qed.
Lemma edge_prim a : 0 < a -> prim p_infty (fun t => exp (- t) * Rpower t a) (fun t => a * gterm a t + (-1) * gterm (a + 1) t).
Proof.
  intros Ha. split.
  - intros x Dx. apply dom_inf in Dx. replace (a * gterm a x + -1 * gterm (a + 1) x) with (a * gterm a x - gterm (a + 1) x) by ring.
    apply edge_deriv, Dx.
  - destruct (cont_bounded (fun x => exp (- x)) 1) as (M & HM); [|lra|].
    + intros x _. apply continuity_pt_filterlim, (ex_derive_continuous (fun x => exp (- x))). auto_derive. trivial.
    + pose proof (lbot_bounded _ _ M 1 Rlt_0_1 (Rpower_lbot a Ha) HM) as H.
      intros e He. destruct (H e He) as (d & Hd & E). exists d. split; [exact Hd|]. intros x Hx Hxd.
      rewrite (Rmult_comm (exp (- x))). exact (E x Hx Hxd).
Qed.
Lemma lgam_rec a x : 0 < a -> 0 < x -> lgam (a + 1) x = a * lgam a x - exp (- x) * Rpower x a.
Proof.
  intros Ha Hx. assert (H1 : 0 < a + 1) by lra.
  pose proof (prim_lin p_infty _ _ _ _ a (-1) (lgam_prim a Ha) (lgam_prim (a + 1) H1)) as P.
  pose proof (prim_eq p_infty _ _ _ _ P (edge_prim a Ha) ltac:(reflexivity) x (proj2 (dom_inf x) Hx)) as E. cbn in E. lra.
Qed.
Lemma edge_ltop a : ltop p_infty (fun t => exp (- t) * Rpower t a) 0.
Proof.
  destruct (Rpower_exp_bound a) as (C & HC & H). intros e He.
  exists (Rmax 1 (2 * C / e + 1)). pose proof (Rmax_l 1 (2 * C / e + 1)). pose proof (Rmax_r 1 (2 * C / e + 1)).
  split; [apply dom_inf; lra|]. intros x Dx Hx. rewrite Rminus_0_r, Rabs_pos_eq.
  2:{ apply Rlt_le, Rmult_lt_0_compat; [apply exp_pos|apply Rpower_pos]. }
  specialize (H x ltac:(lra)).
  apply Rle_lt_trans with (C * exp (- (x / 2))).
  - replace (C * exp (- (x / 2))) with (exp (- x) * (C * exp (x / 2))).
    + apply Rmult_le_compat_l; [left; apply exp_pos|exact H].
    + replace (- (x / 2)) with (- x + x / 2) by field. rewrite exp_plus. ring.
  - rewrite exp_Ropp. pose proof (exp_ineq1 (x / 2) ltac:(lra)).
    apply (Rmult_lt_reg_r (exp (x / 2))); [apply exp_pos|]. rewrite Rmult_assoc, Rinv_l by (pose proof (exp_pos (x / 2)); lra).
    assert (2 * C / e * e = 2 * C) by (field; lra). assert (0 < 2 * C / e) by (apply Rdiv_lt_0_compat; lra).
    assert (e * (C / e) = C) by (field; lra). assert (C / e < exp (x / 2)) by (unfold Rdiv in *; lra). nra.
Qed.
Lemma Gam_rec a : 0 < a -> Gam (a + 1) = a * Gam a.
Proof.
  intros Ha. apply (ltop_unique p_infty (lgam (a + 1))); [apply Gam_lim; lra|].
  pose proof (ltop_lin p_infty _ _ _ _ a (-1) (Gam_lim a Ha) (edge_ltop a)) as L.
  replace (a * Gam a + -1 * 0) with (a * Gam a) in L by ring.
  apply (ltop_ext p_infty (fun x => a * lgam a x + -1 * (exp (- x) * Rpower x a))); [|exact L].
  intros x Dx. apply dom_inf in Dx. rewrite lgam_rec by assumption. ring.
Qed.
Lemma lgam_1 x : 0 < x -> lgam 1 x = 1 - exp (- x).
Proof.
  intros Hx. apply (prim_eq p_infty (lgam 1) (gterm 1) (fun t => 1 - exp (- t)) (fun t => exp (- t))).
  - apply lgam_prim. lra.
  - split.
    + intros t _. auto_derive; [trivial|ring].
    + intros e He. exists (Rmin 1 (e / 2)). split; [apply Rmin_pos; lra|]. intros t Ht Htd.
      pose proof (Rmin_r 1 (e / 2)). pose proof (exp_ineq1 (- t) ltac:(lra)). rewrite Rminus_0_r.
      assert (exp (- t) < 1) by (rewrite <- exp_0; apply exp_increasing; lra). apply Rabs_def1; lra.
  - intros t Dt. apply dom_inf in Dt. unfold gterm. rewrite Rminus_eq_0, Rpower_O by exact Dt. ring.
  - apply dom_inf, Hx.
Qed.
Lemma exp_opp_ltop : ltop p_infty (fun t => exp (- t)) 0.
Proof.
  apply (ltop_ext p_infty (fun t => exp (- t) * Rpower t 0)); [|apply edge_ltop].
  intros t Dt. apply dom_inf in Dt. rewrite Rpower_O by exact Dt. ring.
Qed.
Lemma Gam_1 : Gam 1 = 1.
Proof.
  apply (ltop_unique p_infty (lgam 1)); [apply Gam_lim; lra|].
  pose proof (ltop_lin p_infty _ _ _ _ 1 (-1) (ltop_const p_infty 1 dom_inf_ex) exp_opp_ltop) as L.
  replace (1 * 1 + -1 * 0) with 1 in L by ring.
  eapply ltop_ext; [|exact L]. intros x Dx. apply dom_inf in Dx. cbn. rewrite lgam_1 by exact Dx. ring.
Qed.

(** Wendel's inequality. *)
Lemma power_tangent t c s : 0 < t -> 0 < c -> 0 <= s <= 1 -> Rpower t s <= Rpower c s * ((1 - s) + s / c * t).
Proof.
  intros Ht Hc Hs. set (l := ln t - ln c).
  assert (E1 : Rpower t s = Rpower c s * exp (s * l)).
  { unfold Rpower, l. rewrite <- exp_plus. f_equal. ring. }
  assert (E2 : t = c * exp l).
  { unfold l, Rminus. rewrite exp_plus, exp_Ropp, !exp_ln by assumption. field. lra. }
  rewrite E1. apply Rmult_le_compat_l; [apply Rlt_le, Rpower_pos|].
  replace (s / c * t) with (s * exp l) by (rewrite E2; field; lra).
  assert (A : forall u v, exp v * (1 + (u - v)) <= exp u).
  { intros u v. replace u with (v + (u - v)) at 2 by ring. rewrite exp_plus. apply Rmult_le_compat_l; [left; apply exp_pos|].
    destruct (Req_dec (u - v) 0) as [->|N]; [rewrite exp_0; lra|pose proof (exp_ineq1 (u - v) N); lra]. }
  pose proof (A l (s * l)). pose proof (A 0 (s * l)). rewrite exp_0 in H0.
  apply (Rmult_le_compat_l s) in H; [|lra]. apply (Rmult_le_compat_l (1 - s)) in H0; [|lra].
  replace (exp (s * l)) with (s * (exp (s * l) * (1 + (l - s * l))) + (1 - s) * (exp (s * l) * (1 + (0 - s * l)))) by ring. lra.
Qed.
Lemma Gam_wendel a s : 0 < a -> 0 <= s <= 1 -> Gam (a + s) <= Rpower a s * Gam a.
Proof.
  intros Ha Hs. assert (H1 : 0 < a + 1) by lra. assert (H2 : 0 < a + s) by lra.
  set (k := Rpower a s).
  pose proof (ltop_lin p_infty _ _ _ _ (k * (1 - s)) (k * (s / a)) (Gam_lim a Ha) (Gam_lim (a + 1) H1)) as L.
  replace (k * Gam a) with (k * (1 - s) * Gam a + k * (s / a) * Gam (a + 1)) by (rewrite Gam_rec by exact Ha; field; lra).
  eapply ltop_le; [|exact (Gam_lim (a + s) H2)|exact L].
  apply (prim_le p_infty _ _ _ _ (lgam_prim (a + s) H2)
    (prim_lin p_infty _ _ _ _ (k * (1 - s)) (k * (s / a)) (lgam_prim a Ha) (lgam_prim (a + 1) H1))).
  intros t Dt. apply dom_inf in Dt. unfold gterm.
  replace (a + s - 1) with (a - 1 + s) by ring. replace (a + 1 - 1) with (a - 1 + 1) by ring.
  rewrite !Rpower_plus, Rpower_1 by exact Dt. pose proof (power_tangent t a s Dt Ha Hs) as K. fold k in K.
  assert (0 < exp (- t) * Rpower t (a - 1)) by (apply Rmult_lt_0_compat; [apply exp_pos|apply Rpower_pos]).
  apply (Rmult_le_compat_l (exp (- t) * Rpower t (a - 1))) in K; [|lra].
  replace (exp (- t) * (Rpower t (a - 1) * Rpower t s)) with (exp (- t) * Rpower t (a - 1) * Rpower t s) by ring.
  eapply Rle_trans; [exact K|]. right. ring.
Qed.

(** Gamma(1/2). *)
Lemma lgam_half x : 0 < x -> lgam (1 / 2) x = 2 * G (sqrt x).
Proof.
  intros Hx. apply (prim_eq p_infty (lgam (1 / 2)) (gterm (1 / 2)) (fun t => 2 * G (sqrt t)) (gterm (1 / 2))).
  - apply lgam_prim. lra.
  - split.
    + intros t Dt. apply dom_inf in Dt.
      assert (D : is_derive (fun t => G (sqrt t)) t (/ (2 * sqrt t) * g2 (sqrt t))).
      { apply (is_derive_circ G sqrt); [apply G_deriv|]. auto_derive; [exact Dt|]. field. pose proof (sqrt_lt_R0 t Dt). lra. }
      eapply is_derive_val; [exact (is_derive_scal _ t 2 _ D)|].
      unfold g2, gterm. rewrite sqrt_sqrt by lra.
      replace (1 / 2 - 1) with (- / 2) by field. rewrite Rpower_Ropp, Rpower_sqrt by exact Dt. field.
      pose proof (sqrt_lt_R0 t Dt). lra.
    + intros e He.
      assert (C : continuity_pt G 0).
      { apply continuity_pt_filterlim, (ex_derive_continuous G). eexists. apply G_deriv. }
      destruct (C (e / 2) ltac:(lra)) as (d & Hd & E). exists (d * d / 4). split; [nra|].
      intros t Ht Htd. rewrite Rminus_0_r. rewrite Rabs_mult, (Rabs_pos_eq 2) by lra.
      assert (Hs : 0 < sqrt t) by (apply sqrt_lt_R0, Ht).
      assert (sqrt t <= d / 2).
      { rewrite <- (sqrt_square (d / 2)) by lra. apply sqrt_le_1_alt. lra. }
      assert (K : Rabs (G (sqrt t) - G 0) < e / 2).
      { apply E. split; [split; [exact I|lra]|]. cbn. unfold R_dist. rewrite Rminus_0_r, Rabs_pos_eq; lra. }
      rewrite G_0, Rminus_0_r in K. lra.
  - reflexivity.
  - apply dom_inf, Hx.
Qed.
Lemma Gam_half : Gam (1 / 2) = sqrt PI.
Proof.
  apply (ltop_unique p_infty (lgam (1 / 2))); [apply Gam_lim; lra|].
  intros e He. destruct (G_limit (e / 2) ltac:(lra)) as (x0 & H0 & H). exists (x0 * x0). split; [apply dom_inf; nra|].
  intros x Dx Hx. apply dom_inf in Dx. rewrite lgam_half by exact Dx.
  assert (x0 <= sqrt x) by (rewrite <- (sqrt_square x0) by lra; apply sqrt_le_1_alt; exact Hx).
  specialize (H _ H1). pose proof (G_bound (sqrt x)). unfold Ginf in *. apply Rabs_def1; lra.
Qed.
