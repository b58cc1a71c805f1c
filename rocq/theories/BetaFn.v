(** Euler's Beta function, the incomplete Beta function, and their relation to the Gamma function. *)
From Coq Require Import Reals Lra Psatz Lia.
From Coquelicot Require Import Coquelicot.
From Verif Require Import Improper GammaFn.
Local Open Scope R_scope.

(** (p+q) (p+q+1) ... (p+q+n-1) / (p (p+1) ... (p+n)) *)
Fixpoint bc (p q : R) (n : nat) : R :=
  match n with O => / p | S m => bc p q m * (p + q + INR m) / (p + INR n) end.
Lemma bc_S p q n : bc p q (S n) = bc p q n * (p + q + INR n) / (p + INR (S n)).
Proof. reflexivity. Qed.
Lemma bc_pos p q n : 0 < p -> 0 < p + q -> 0 < bc p q n.
Proof.
  intros Hp Hq. induction n as [|n IH]; cbn [bc]; [apply Rinv_0_lt_compat, Hp|].
  pose proof (pos_INR (S n)). pose proof (pos_INR n).
  apply Rdiv_lt_0_compat; [apply Rmult_lt_0_compat; [exact IH|lra]|lra].
Qed.
Lemma bc_radius p q : 0 < p -> 0 < p + q -> CV_radius (bc p q) = Finite 1.
Proof.
  intros Hp Hq. replace 1 with (/ 1) by field. apply CV_radius_finite_DAlembert; [|lra|].
  - intros n. pose proof (bc_pos p q n Hp Hq). lra.
  - apply is_lim_seq_ext with (fun n => 1 + (q - 1) * / (p + INR (S n))).
    + intros n. rewrite bc_S. pose proof (bc_pos p q n Hp Hq). pose proof (pos_INR n). pose proof (pos_INR (S n)).
      replace (bc p q n * (p + q + INR n) / (p + INR (S n)) / bc p q n) with (1 + (q - 1) * / (p + INR (S n))).
      2:{ rewrite S_INR in *. field. lra. }
      rewrite Rabs_pos_eq; [reflexivity|].
      replace (1 + (q - 1) * / (p + INR (S n))) with ((p + q + INR n) / (p + INR (S n))) by (rewrite S_INR in *; field; lra).
      apply Rlt_le, Rdiv_lt_0_compat; lra.
    + assert (L : is_lim_seq (fun n => 1 + (q - 1) * / (p + INR (S n))) (Finite (1 + (q - 1) * 0))).
      { apply is_lim_seq_plus'; [apply is_lim_seq_const|].
        change (Finite ((q - 1) * 0)) with (Rbar_mult (q - 1) 0). apply is_lim_seq_scal_l.
        replace (Finite 0) with (Rbar_inv p_infty) by reflexivity. apply is_lim_seq_inv; [|discriminate].
        apply is_lim_seq_plus with (Finite p) p_infty.
        - apply is_lim_seq_const.
        - apply (is_lim_seq_incr_1 INR), is_lim_seq_INR.
        - reflexivity. }
      replace (1 + (q - 1) * 0) with 1 in L by ring. exact L.
Qed.
Lemma bc_conv p q x : 0 < p -> 0 < p + q -> 0 <= x < 1 -> Rbar_lt (Rabs x) (CV_radius (bc p q)).
Proof. intros Hp Hq Hx. rewrite bc_radius by assumption. cbn. rewrite Rabs_pos_eq; lra. Qed.
Lemma bc_ode p q x : 0 < p -> 0 < p + q -> 0 <= x < 1 ->
  p * PSeries (bc p q) x + x * PSeries (PS_derive (bc p q)) x =
  1 + x * ((p + q) * PSeries (bc p q) x + x * PSeries (PS_derive (bc p q)) x).
Proof.
  intros Hp Hq Hx.
  assert (C1 : forall c, ex_pseries (PS_scal c (bc p q)) x).
  { intros c. apply ex_pseries_scal; [apply Rmult_comm|]. apply CV_radius_inside, bc_conv; assumption. }
  assert (C2 : ex_pseries (PS_incr_1 (PS_derive (bc p q))) x).
  { apply CV_radius_inside. rewrite CV_radius_incr_1, CV_radius_derive. apply bc_conv; assumption. }
  rewrite <- (PSeries_scal p), <- (PSeries_scal (p + q)), <- (PSeries_incr_1 (PS_derive (bc p q))), <- !PSeries_plus by auto.
  rewrite PSeries_decr_1 by (apply ex_pseries_plus; auto).
  f_equal.
  - unfold PS_plus, PS_scal, PS_incr_1. cbn. unfold plus, scal, zero; cbn. unfold mult; cbn. field. lra.
  - f_equal. apply PSeries_ext. intros n. unfold PS_decr_1, PS_plus, PS_scal, PS_incr_1, PS_derive.
    rewrite bc_S. pose proof (pos_INR (S n)). destruct n as [|n].
    + change (p * (bc p q 0 * (p + q + 0) / (p + INR 1)) + INR 1 * (bc p q 0 * (p + q + 0) / (p + INR 1)) = (p + q) * bc p q 0 + 0).
      field. lra.
    + change (p * (bc p q (S n) * (p + q + INR (S n)) / (p + INR (S (S n)))) + INR (S (S n)) * (bc p q (S n) * (p + q + INR (S n)) / (p + INR (S (S n))))
        = (p + q) * bc p q (S n) + INR (S n) * bc p q (S n)).
      field. lra.
Qed.

Definition bterm (p q t : R) : R := Rpower t (p - 1) * Rpower (1 - t) (q - 1).
Definition lbet (p q x : R) : R := Rpower x p * Rpower (1 - x) q * PSeries (bc p q) x.
Definition Bet (p q : R) : R := total (Finite 1) (lbet p q).

Lemma dom_1 x : dom (Finite 1) x <-> 0 < x < 1.
Proof. unfold dom. cbn. tauto. Qed.
Lemma dom_1_ex : exists b, dom (Finite 1) b.
Proof. exists (1 / 2). apply dom_1. lra. Qed.
Lemma bterm_pos p q t : 0 < bterm p q t.
Proof. apply Rmult_lt_0_compat; apply Rpower_pos. Qed.
Lemma is_derive_Rpower_1m x a : x < 1 -> is_derive (fun t => Rpower (1 - t) a) x (- (a * Rpower (1 - x) (a - 1))).
Proof.
  intros Hx. eapply is_derive_val.
  - apply (is_derive_circ (fun t => Rpower t a) (fun t => 1 - t) x (a * Rpower (1 - x) (a - 1)) (-1)).
    + apply is_derive_Rpower. lra.
    + auto_derive; [trivial|ring].
  - ring.
Qed.
Lemma bedge_deriv p q x : 0 < x < 1 ->
  is_derive (fun t => Rpower t p * Rpower (1 - t) q) x (p * bterm p (q + 1) x - q * bterm (p + 1) q x).
Proof.
  intros Hx. eapply is_derive_val.
  - exact (is_derive_mul _ _ x _ _ (is_derive_Rpower x p (proj1 Hx)) (is_derive_Rpower_1m x q (proj2 Hx))).
  - unfold bterm. replace (q + 1 - 1) with q by ring. replace (p + 1 - 1) with p by ring. ring.
Qed.
Lemma lbet_deriv_g p q x : 0 < p -> 0 < p + q -> 0 < x < 1 -> is_derive (lbet p q) x (bterm p q x).
Proof.
  intros Hp Hq Hx. assert (Hx' : 0 <= x < 1) by lra.
  pose proof (is_derive_PSeries (bc p q) x (bc_conv p q x Hp Hq Hx')) as D2.
  unfold lbet. eapply is_derive_val; [exact (is_derive_mul _ _ x _ _ (bedge_deriv p q x Hx) D2)|].
  unfold bterm. replace (q + 1 - 1) with q by ring. replace (p + 1 - 1) with p by ring.
  rewrite (Rpower_S x p) by lra. rewrite (Rpower_S (1 - x) q) by lra.
  pose proof (bc_ode p q x Hp Hq Hx'). set (S := PSeries (bc p q) x) in *. set (S' := PSeries (PS_derive (bc p q)) x) in *.
  set (P := Rpower x (p - 1)). set (Q := Rpower (1 - x) (q - 1)).
  replace ((p * (P * ((1 - x) * Q)) - q * (x * P * Q)) * S + x * P * ((1 - x) * Q) * S')
    with (P * Q * ((p * S + x * S') - x * ((p + q) * S + x * S'))) by ring.
  rewrite H. ring.
Qed.
Lemma lbet_deriv p q x : 0 < p -> 0 < q -> 0 < x < 1 -> is_derive (lbet p q) x (bterm p q x).
Proof. intros Hp Hq. apply lbet_deriv_g; lra. Qed.
Lemma bedge_lbot p q : 0 < p -> lbot (fun t => Rpower t p * Rpower (1 - t) q) 0.
Proof.
  intros Hp. destruct (cont_bounded (fun t => Rpower (1 - t) q) (1 / 2)) as (M & HM).
  - intros x Hx. apply continuity_pt_filterlim, (ex_derive_continuous (fun x => Rpower (1 - x) q)).
    eexists. apply is_derive_Rpower_1m. lra.
  - lra.
  - apply (lbot_bounded _ _ M (1 / 2)); [lra|apply Rpower_lbot, Hp|exact HM].
Qed.
Lemma lbet_prim_g p q : 0 < p -> 0 < p + q -> prim (Finite 1) (lbet p q) (bterm p q).
Proof.
  intros Hp Hq. split.
  - intros x Dx. apply (proj1 (dom_1 _)) in Dx. apply lbet_deriv_g; assumption.
  - destruct (cont_bounded (PSeries (bc p q)) (1 / 2)) as (M & HM).
    + intros x Hx. apply PSeries_continuity, bc_conv; [assumption|assumption|lra].
    + lra.
    + apply (lbot_bounded (fun t => Rpower t p * Rpower (1 - t) q) _ M (1 / 2)); [lra|apply bedge_lbot, Hp|exact HM].
Qed.
Lemma lbet_prim p q : 0 < p -> 0 < q -> prim (Finite 1) (lbet p q) (bterm p q).
Proof. intros Hp Hq. apply lbet_prim_g; lra. Qed.
Lemma lbet_mono p q : 0 < p -> 0 < q -> forall x y, dom (Finite 1) y -> 0 < x -> x <= y -> lbet p q x <= lbet p q y.
Proof. intros Hp Hq. apply (prim_mono _ _ _ (lbet_prim p q Hp Hq)). intros. apply Rlt_le, bterm_pos. Qed.
Lemma lbet_strict p q : 0 < p -> 0 < q -> forall x y, 0 < x -> x < y -> y < 1 -> lbet p q x < lbet p q y.
Proof.
  intros Hp Hq x y Hx Hxy Hy. apply (prim_strict _ _ _ (lbet_prim p q Hp Hq)); [|apply dom_1; lra|exact Hx|exact Hxy].
  intros. apply bterm_pos.
Qed.
Lemma lbet_pos p q x : 0 < p -> 0 < q -> 0 < x < 1 -> 0 < lbet p q x.
Proof. intros Hp Hq Hx. apply (prim_pos _ _ _ (lbet_prim p q Hp Hq)); [intros; apply bterm_pos|apply dom_1, Hx]. Qed.
Lemma lbet_bounded p q : 0 < p -> 0 < q -> exists M, forall x, dom (Finite 1) x -> lbet p q x <= M.
Proof.
  intros Hp Hq. set (C := 1 + Rpower (1 / 2) (p - 1)).
  assert (HC : 0 < C) by (unfold C; pose proof (Rpower_pos (1 / 2) (p - 1)); lra).
  assert (HB : forall u, 1 / 2 <= u < 1 -> Rpower u (p - 1) <= C).
  { intros u Hu. unfold C. destruct (Rle_dec 0 (p - 1)) as [H|H].
    - assert (Rpower u (p - 1) <= Rpower 1 (p - 1)) by (apply Rle_Rpower_l; [exact H|lra]).
      replace (Rpower 1 (p - 1)) with 1 in H0 by (unfold Rpower; rewrite ln_1, Rmult_0_r, exp_0; reflexivity).
      pose proof (Rpower_pos (1 / 2) (p - 1)). lra.
    - assert (Rpower u (p - 1) <= Rpower (1 / 2) (p - 1)); [|lra].
      replace (p - 1) with (- (1 - p)) by ring. rewrite !Rpower_Ropp. apply Rinv_le_contravar; [apply Rpower_pos|].
      apply Rle_Rpower_l; lra. }
  exists (lbet p q (1 / 2) + C / q). intros x Dx. apply (proj1 (dom_1 _)) in Dx.
  destruct (Rle_dec x (1 / 2)) as [Hx|Hx].
  - assert (lbet p q x <= lbet p q (1 / 2)) by (apply lbet_mono; [exact Hp|exact Hq|apply dom_1; lra|apply Dx|exact Hx]).
    assert (0 < C / q) by (apply Rdiv_lt_0_compat; assumption). lra.
  - assert (K : - (lbet p q (1 / 2) + C / q * Rpower (1 - 1 / 2) q) <= - (lbet p q x + C / q * Rpower (1 - x) q)).
    { apply (mono_cc (fun u => - (lbet p q u + C / q * Rpower (1 - u) q)) (fun u => - (bterm p q u - C * Rpower (1 - u) (q - 1)))).
      - lra.
      - intros u Hu. apply (is_derive_opp (K := R_AbsRing) (V := R_NormedModule) (fun u => lbet p q u + C / q * Rpower (1 - u) q)).
        apply (is_derive_plus (K := R_AbsRing) (V := R_NormedModule) (lbet p q) (fun u => C / q * Rpower (1 - u) q) u (bterm p q u) (- (C * Rpower (1 - u) (q - 1)))).
        + apply lbet_deriv; [exact Hp|exact Hq|]. lra.
        + eapply is_derive_val; [apply (is_derive_scal (fun u => Rpower (1 - u) q)), is_derive_Rpower_1m; lra|]. field. lra.
      - intros u Hu. unfold bterm. specialize (HB u ltac:(lra)). pose proof (Rpower_pos (1 - u) (q - 1)). nra. }
    assert (Rpower (1 - 1 / 2) q <= 1).
    { replace 1 with (Rpower 1 q) at 3 by (unfold Rpower; rewrite ln_1, Rmult_0_r, exp_0; reflexivity). apply Rle_Rpower_l; lra. }
    pose proof (Rpower_pos (1 - x) q). assert (0 < C / q) by (apply Rdiv_lt_0_compat; assumption). nra.
Qed.
Lemma Bet_lim p q : 0 < p -> 0 < q -> ltop (Finite 1) (lbet p q) (Bet p q).
Proof.
  intros Hp Hq. destruct (lbet_bounded p q Hp Hq) as (M & HM).
  apply (total_ltop _ _ M dom_1_ex); [apply lbet_mono; assumption|exact HM].
Qed.
Lemma lbet_lt_Bet p q x : 0 < p -> 0 < q -> 0 < x < 1 -> lbet p q x < Bet p q.
Proof.
  intros Hp Hq Hx. apply Rlt_le_trans with (lbet p q ((x + 1) / 2)); [apply lbet_strict; lra|].
  apply (ltop_upper _ _ _ (lbet_mono p q Hp Hq) (Bet_lim p q Hp Hq)). apply dom_1. lra.
Qed.
Lemma Bet_pos p q : 0 < p -> 0 < q -> 0 < Bet p q.
Proof. intros Hp Hq. apply Rlt_trans with (lbet p q (1 / 2)); [apply lbet_pos; lra|apply lbet_lt_Bet; lra]. Qed.

(** Reflection. *)
Lemma ltop_flip F L : lbot F L -> ltop (Finite 1) (fun x => F (1 - x)) L.
Proof.
  intros H e He. destruct (H e He) as (d & Hd & E). exists (1 - Rmin d (1 / 2)).
  pose proof (Rmin_l d (1 / 2)). pose proof (Rmin_r d (1 / 2)). assert (0 < Rmin d (1 / 2)) by (apply Rmin_pos; lra).
  split; [apply dom_1; lra|]. intros x Dx Hx. apply (proj1 (dom_1 _)) in Dx. apply E; lra.
Qed.
Lemma lbot_flip F L : ltop (Finite 1) F L -> lbot (fun x => F (1 - x)) L.
Proof.
  intros H e He. destruct (H e He) as (b & Hb & E). apply (proj1 (dom_1 _)) in Hb. exists (1 - b).
  split; [lra|]. intros x Hx Hxd. apply E; [apply dom_1; lra|lra].
Qed.
Lemma lbot_const c : lbot (fun _ => c) c.
Proof. intros e He. exists 1. split; [lra|]. intros. rewrite Rminus_eq_0, Rabs_R0. exact He. Qed.
Lemma lbet_reflect p q x : 0 < p -> 0 < q -> 0 < x < 1 -> lbet p q x = Bet q p - lbet q p (1 - x).
Proof.
  intros Hp Hq Hx.
  apply (prim_eq (Finite 1) (lbet p q) (bterm p q) (fun x => Bet q p - lbet q p (1 - x)) (bterm p q)).
  - apply lbet_prim; assumption.
  - split.
    + intros t Dt. apply (proj1 (dom_1 _)) in Dt. eapply is_derive_val.
      * apply (is_derive_minus (K := R_AbsRing) (V := R_NormedModule) (fun _ => Bet q p) (fun x => lbet q p (1 - x)) t 0 (-1 * bterm q p (1 - t))).
        -- apply (is_derive_const (K := R_AbsRing) (V := R_NormedModule)).
        -- apply (is_derive_circ (lbet q p) (fun x => 1 - x)); [apply lbet_deriv; lra|auto_derive; [trivial|ring]].
      * change (0 - -1 * bterm q p (1 - t) = bterm p q t). unfold bterm. replace (1 - (1 - t)) with t by ring. ring.
    + pose proof (lbot_lin _ _ _ _ 1 (-1) (lbot_const (Bet q p)) (lbot_flip _ _ (Bet_lim q p Hq Hp))) as L. cbn in L.
      replace (1 * Bet q p + -1 * Bet q p) with 0 in L by ring.
      intros e He. destruct (L e He) as (d & Hd & E). exists d. split; [exact Hd|]. intros t Ht Htd.
      replace (Bet q p - lbet q p (1 - t)) with (1 * Bet q p + -1 * lbet q p (1 - t)) by ring. exact (E t Ht Htd).
  - reflexivity.
  - apply dom_1, Hx.
Qed.
Lemma Bet_sym p q : 0 < p -> 0 < q -> Bet p q = Bet q p.
Proof.
  intros Hp Hq. apply (ltop_unique _ _ _ _ (Bet_lim p q Hp Hq)).
  pose proof (ltop_lin _ _ _ _ _ 1 (-1) (ltop_const (Finite 1) (Bet q p) dom_1_ex) (ltop_flip _ _ (proj2 (lbet_prim q p Hq Hp)))) as L.
  replace (1 * Bet q p + -1 * 0) with (Bet q p) in L by ring.
  eapply ltop_ext; [|exact L]. intros x Dx. apply (proj1 (dom_1 _)) in Dx. cbn. rewrite (lbet_reflect p q x) by assumption. ring.
Qed.

(** Recurrences. *)
Lemma bterm_split p q t : 0 < t < 1 -> bterm p q t = bterm (p + 1) q t + bterm p (q + 1) t.
Proof.
  intros Ht. unfold bterm. replace (p + 1 - 1) with p by ring. replace (q + 1 - 1) with q by ring.
  rewrite (Rpower_S t p), (Rpower_S (1 - t) q) by lra. ring.
Qed.
Lemma lbet_split p q x : 0 < p -> 0 < q -> 0 < x < 1 -> lbet p q x = lbet (p + 1) q x + lbet p (q + 1) x.
Proof.
  intros Hp Hq Hx. assert (Hp' : 0 < p + 1) by lra. assert (Hq' : 0 < q + 1) by lra.
  pose proof (prim_lin _ _ _ _ _ 1 1 (lbet_prim (p + 1) q Hp' Hq) (lbet_prim p (q + 1) Hp Hq')) as P.
  rewrite (prim_eq _ _ _ _ _ (lbet_prim p q Hp Hq) P); [ring| |apply dom_1, Hx].
  intros t Dt. apply (proj1 (dom_1 _)) in Dt. cbn. rewrite (bterm_split p q t Dt). ring.
Qed.
Lemma lbet_edge_g p q x : 0 < p -> 0 < p + (q + 1) -> 0 < x < 1 ->
  Rpower x p * Rpower (1 - x) q = p * lbet p (q + 1) x - q * lbet (p + 1) q x.
Proof.
  intros Hp Hq Hx. assert (Hp' : 0 < p + 1) by lra. assert (Hq' : 0 < p + 1 + q) by lra.
  pose proof (prim_lin _ _ _ _ _ p (- q) (lbet_prim_g p (q + 1) Hp Hq) (lbet_prim_g (p + 1) q Hp' Hq')) as P.
  pose proof (prim_eq (Finite 1) (fun t => Rpower t p * Rpower (1 - t) q) (fun t => p * bterm p (q + 1) t - q * bterm (p + 1) q t) _ _
    (conj (fun x Dx => bedge_deriv p q x (proj1 (dom_1 x) Dx)) (bedge_lbot p q Hp)) P) as E.
  rewrite E; [ring| |apply dom_1, Hx]. intros t _. cbn. ring.
Qed.
Lemma lbet_edge p q x : 0 < p -> 0 < q -> 0 < x < 1 ->
  Rpower x p * Rpower (1 - x) q = p * lbet p (q + 1) x - q * lbet (p + 1) q x.
Proof. intros Hp Hq. apply lbet_edge_g; lra. Qed.
Lemma bedge_ltop p q : 0 < q -> ltop (Finite 1) (fun t => Rpower t p * Rpower (1 - t) q) 0.
Proof.
  intros Hq. eapply ltop_ext; [|apply (ltop_flip _ _ (bedge_lbot q p Hq))]. intros x _. cbn.
  replace (1 - (1 - x)) with x by ring. ring.
Qed.
Lemma Bet_edge p q : 0 < p -> 0 < q -> p * Bet p (q + 1) = q * Bet (p + 1) q.
Proof.
  intros Hp Hq. assert (Hp' : 0 < p + 1) by lra. assert (Hq' : 0 < q + 1) by lra.
  pose proof (ltop_lin _ _ _ _ _ p (- q) (Bet_lim p (q + 1) Hp Hq') (Bet_lim (p + 1) q Hp' Hq)) as L.
  assert (E : p * Bet p (q + 1) + - q * Bet (p + 1) q = 0); [|lra].
  apply (ltop_unique _ _ _ _ L). eapply ltop_ext; [|apply (bedge_ltop p q Hq)].
  intros x Dx. apply (proj1 (dom_1 _)) in Dx. cbn. rewrite lbet_edge by assumption. ring.
Qed.
Lemma Bet_split p q : 0 < p -> 0 < q -> Bet p q = Bet (p + 1) q + Bet p (q + 1).
Proof.
  intros Hp Hq. assert (Hp' : 0 < p + 1) by lra. assert (Hq' : 0 < q + 1) by lra.
  pose proof (ltop_lin _ _ _ _ _ 1 1 (Bet_lim p (q + 1) Hp Hq') (Bet_lim (p + 1) q Hp' Hq)) as L.
  replace (Bet (p + 1) q + Bet p (q + 1)) with (1 * Bet p (q + 1) + 1 * Bet (p + 1) q) by ring.
  apply (ltop_unique _ _ _ _ (Bet_lim p q Hp Hq)). eapply ltop_ext; [|exact L].
  intros x Dx. apply (proj1 (dom_1 _)) in Dx. cbn. rewrite (lbet_split p q x) by assumption. ring.
Qed.
Lemma Bet_rec_l p q : 0 < p -> 0 < q -> Bet (p + 1) q = p / (p + q) * Bet p q.
Proof.
  intros Hp Hq. pose proof (Bet_split p q Hp Hq). pose proof (Bet_edge p q Hp Hq).
  apply (Rmult_eq_reg_l (p + q)); [|lra]. replace ((p + q) * (p / (p + q) * Bet p q)) with (p * Bet p q) by (field; lra).
  rewrite H. lra.
Qed.
Lemma Bet_rec_r p q : 0 < p -> 0 < q -> Bet p (q + 1) = q / (p + q) * Bet p q.
Proof. intros Hp Hq. pose proof (Bet_split p q Hp Hq). rewrite (Bet_rec_l p q Hp Hq) in H. 
  replace (Bet p (q + 1)) with (Bet p q - p / (p + q) * Bet p q) by lra. field. lra. Qed.
Lemma lbet_1 p x : 0 < p -> 0 < x < 1 -> lbet p 1 x = / p * Rpower x p.
Proof.
  intros Hp Hx. symmetry. pose proof (proj2 (dom_1 _) Hx) as Dx.
  apply (prim_eq (Finite 1) (fun x => / p * Rpower x p) (fun x => Rpower x (p - 1)) (lbet p 1) (bterm p 1)).
  - split.
    + intros t Dt. apply (proj1 (dom_1 _)) in Dt. eapply is_derive_val; [apply (is_derive_scal (fun t => Rpower t p)), is_derive_Rpower; lra|]. field. lra.
    + pose proof (lbot_lin _ _ _ _ (/ p) 0 (Rpower_lbot p Hp) (lbot_const 0)) as L.
        replace (/ p * 0 + 0 * 0) with 0 in L by ring. intros e He. destruct (L e He) as (d & Hd & E). exists d. split; [exact Hd|].
        intros t Ht Htd. specialize (E t Ht Htd). cbn in E. rewrite Rmult_0_l, Rplus_0_r in E. exact E.
  - apply lbet_prim; lra.
  - intros t Dt. apply (proj1 (dom_1 _)) in Dt. unfold bterm. rewrite Rminus_eq_0, Rpower_O by lra. ring.
  - exact Dx.
Qed.
Lemma Bet_1 p : 0 < p -> Bet p 1 = / p.
Proof.
  intros Hp. apply (ltop_unique _ _ _ _ (Bet_lim p 1 Hp Rlt_0_1)).
  apply (ltop_ext (Finite 1) (fun x => / p * Rpower x p)).
  - intros x Dx. symmetry. apply lbet_1; [exact Hp|]. apply (proj1 (dom_1 _)), Dx.
  - assert (C : continuity_pt (fun x => / p * Rpower x p) 1).
    { apply continuity_pt_filterlim, (ex_derive_continuous (fun x => / p * Rpower x p)). eexists.
      apply (is_derive_scal (fun t => Rpower t p)), is_derive_Rpower. lra. }
    intros e He. destruct (C e He) as (d & Hd & E). exists (1 - Rmin d (1 / 2) / 2).
    pose proof (Rmin_l d (1 / 2)). pose proof (Rmin_r d (1 / 2)). assert (0 < Rmin d (1 / 2)) by (apply Rmin_pos; lra).
    split; [apply dom_1; lra|]. intros x Dx Hx. apply (proj1 (dom_1 _)) in Dx.
    assert (K : Rabs (/ p * Rpower x p - / p * Rpower 1 p) < e).
    { apply E. split; [split; [exact I|lra]|]. cbn. unfold R_dist. apply Rabs_def1; lra. }
    replace (Rpower 1 p) with 1 in K by (unfold Rpower; rewrite ln_1, Rmult_0_r, exp_0; reflexivity).
    rewrite Rmult_1_r in K. exact K.
Qed.
Lemma Bet_wendel p q s : 0 < p -> 0 < q -> 0 <= s <= 1 -> Bet p (q + s) <= Rpower (q / (p + q)) s * Bet p q.
Proof.
  intros Hp Hq Hs. assert (H1 : 0 < q + 1) by lra. assert (H2 : 0 < q + s) by lra.
  set (c := q / (p + q)). assert (Hc : 0 < c) by (apply Rdiv_lt_0_compat; lra). set (k := Rpower c s).
  pose proof (ltop_lin _ _ _ _ _ (k * (1 - s)) (k * (s / c)) (Bet_lim p q Hp Hq) (Bet_lim p (q + 1) Hp H1)) as L.
  replace (k * Bet p q) with (k * (1 - s) * Bet p q + k * (s / c) * Bet p (q + 1)) by (rewrite Bet_rec_r by assumption; fold c; field; lra).
  eapply ltop_le; [|exact (Bet_lim p (q + s) Hp H2)|exact L].
  apply (prim_le _ _ _ _ _ (lbet_prim p (q + s) Hp H2)
    (prim_lin _ _ _ _ _ (k * (1 - s)) (k * (s / c)) (lbet_prim p q Hp Hq) (lbet_prim p (q + 1) Hp H1))).
  intros t Dt. apply (proj1 (dom_1 _)) in Dt. unfold bterm.
  replace (q + s - 1) with (q - 1 + s) by ring. replace (q + 1 - 1) with (q - 1 + 1) by ring.
  assert (Ht : 0 < 1 - t) by lra.
  rewrite !Rpower_plus, Rpower_1 by exact Ht. pose proof (power_tangent (1 - t) c s Ht Hc Hs) as K. fold k in K.
  assert (0 < Rpower t (p - 1) * Rpower (1 - t) (q - 1)) by (apply Rmult_lt_0_compat; apply Rpower_pos).
  apply (Rmult_le_compat_l (Rpower t (p - 1) * Rpower (1 - t) (q - 1))) in K; [|lra].
  rewrite <- Rmult_assoc. eapply Rle_trans; [exact K|]. right. ring.
Qed.

(** B(p,q) = Gamma(p) Gamma(q) / Gamma(p+q). *)
Definition ratio (p q : R) : R := Bet p q * Gam (p + q) / (Gam p * Gam q).
Lemma ratio_pos p q : 0 < p -> 0 < q -> 0 < ratio p q.
Proof.
  intros Hp Hq. assert (0 < p + q) by lra. apply Rdiv_lt_0_compat; apply Rmult_lt_0_compat; try apply Gam_pos; try assumption.
  apply Bet_pos; assumption.
Qed.
Lemma ratio_S p q : 0 < p -> 0 < q -> ratio p (q + 1) = ratio p q.
Proof.
  intros Hp Hq. unfold ratio. rewrite Bet_rec_r by assumption. rewrite <- Rplus_assoc, !Gam_rec by lra.
  pose proof (Gam_pos p Hp). pose proof (Gam_pos q Hq). field. lra.
Qed.
Lemma ratio_N p q n : 0 < p -> 0 < q -> ratio p (q + INR n) = ratio p q.
Proof.
  intros Hp Hq. induction n as [|n IH]; [cbn; rewrite Rplus_0_r; reflexivity|].
  rewrite S_INR, <- Rplus_assoc, ratio_S, IH; [reflexivity|exact Hp|]. pose proof (pos_INR n). lra.
Qed.
Lemma ratio_step p q s : 0 < p -> 0 < q -> 0 <= s <= 1 -> ratio p (q + s) <= ratio p q * (1 + s / q).
Proof.
  intros Hp Hq Hs. assert (Hpq : 0 < p + q) by lra. assert (Hqs : 0 < q + s) by lra.
  pose proof (Bet_wendel p q s Hp Hq Hs) as A. pose proof (Gam_wendel (p + q) s Hpq Hs) as B.
  pose proof (Gam_wendel (q + s) (1 - s) Hqs ltac:(lra)) as C. replace (q + s + (1 - s)) with (q + 1) in C by ring.
  rewrite Gam_rec in C by exact Hq.
  assert (E : Rpower (q / (p + q)) s * Rpower (p + q) s = Rpower q s).
  { rewrite Rpower_mult_distr; [|apply Rdiv_lt_0_compat; lra|lra]. f_equal. field. lra. }
  pose proof (Gam_pos p Hp) as G1. pose proof (Gam_pos q Hq) as G2. pose proof (Gam_pos (p + q) Hpq) as G3.
  pose proof (Gam_pos (q + s) Hqs) as G4. pose proof (Gam_pos (p + q + s) ltac:(lra)) as G5.
  pose proof (Bet_pos p q Hp Hq) as B1. pose proof (Bet_pos p (q + s) Hp Hqs) as B2.
  assert (D : Bet p (q + s) * Gam (p + q + s) <= Rpower q s * (Bet p q * Gam (p + q))).
  { rewrite <- E. eapply Rle_trans; [apply Rmult_le_compat; [lra|lra|exact A|exact B]|]. right. ring. }
  assert (F : Rpower (q + s) (1 - s) * Rpower q s <= q + s).
  { replace (q + s) with (Rpower (q + s) (1 - s) * Rpower (q + s) s) at 2.
    - apply Rmult_le_compat_l; [left; apply Rpower_pos|]. apply Rle_Rpower_l; lra.
    - rewrite <- Rpower_plus. replace (1 - s + s) with 1 by ring. apply Rpower_1. exact Hqs. }
  unfold ratio. rewrite <- Rplus_assoc.
  apply (Rmult_le_reg_r (Gam p * Gam (q + s) * q)); [apply Rmult_lt_0_compat; [apply Rmult_lt_0_compat|]; assumption|].
  replace (Bet p (q + s) * Gam (p + q + s) / (Gam p * Gam (q + s)) * (Gam p * Gam (q + s) * q))
    with (Bet p (q + s) * Gam (p + q + s) * q) by (field; lra).
  replace (Bet p q * Gam (p + q) / (Gam p * Gam q) * (1 + s / q) * (Gam p * Gam (q + s) * q))
    with (Bet p q * Gam (p + q) * Gam (q + s) * (q + s) / Gam q) by (field; lra).
  apply (Rmult_le_reg_r (Gam q)); [exact G2|].
  replace (Bet p q * Gam (p + q) * Gam (q + s) * (q + s) / Gam q * Gam q) with (Bet p q * Gam (p + q) * Gam (q + s) * (q + s)) by (field; lra).
  set (X := Bet p q * Gam (p + q)) in *. assert (HX : 0 < X) by (apply Rmult_lt_0_compat; assumption).
  set (Y := Bet p (q + s) * Gam (p + q + s)) in *. assert (HY : 0 < Y) by (apply Rmult_lt_0_compat; assumption).
  rewrite Rmult_assoc.
  apply Rle_trans with (Rpower q s * X * (Rpower (q + s) (1 - s) * Gam (q + s))).
  - apply Rmult_le_compat; [lra|apply Rlt_le, Rmult_lt_0_compat; assumption|exact D|exact C].
  - replace (Rpower q s * X * (Rpower (q + s) (1 - s) * Gam (q + s))) with (X * Gam (q + s) * (Rpower (q + s) (1 - s) * Rpower q s)) by ring.
    apply Rmult_le_compat_l; [apply Rlt_le, Rmult_lt_0_compat; assumption|exact F].
Qed.
Lemma INR_above x : exists n, x < INR n.
Proof.
  destruct (archimed x) as [U _]. exists (Z.to_nat (up x)). destruct (Z_le_gt_dec 0 (up x)).
  - rewrite INR_IZR_INZ, Z2Nat.id by assumption. lra.
  - assert (IZR (up x) < 0) by (apply IZR_lt; lia). pose proof (pos_INR (Z.to_nat (up x))). lra.
Qed.
Lemma ratio_down p q s : 0 < p -> 0 < q -> 0 <= s <= 1 -> ratio p (q + s) <= ratio p q.
Proof.
  intros Hp Hq Hs. apply Rnot_lt_le. intros C. pose proof (ratio_pos p q Hp Hq) as HR.
  set (e := ratio p (q + s) - ratio p q). assert (He : 0 < e) by (unfold e; lra).
  destruct (INR_above (ratio p q / e)) as (n & Hn).
  pose proof (pos_INR n). assert (Hqn : 0 < q + INR n) by lra.
  pose proof (ratio_step p (q + INR n) s Hp Hqn Hs) as K.
  replace (q + INR n + s) with (q + s + INR n) in K by ring. rewrite !ratio_N in K by lra.
  assert (e <= ratio p q * (s / (q + INR n))) by (unfold e; lra).
  assert (s / (q + INR n) <= 1 / (q + INR n)) by (apply Rmult_le_compat_r; [left; apply Rinv_0_lt_compat; lra|lra]).
  assert (e * (q + INR n) <= ratio p q).
  { apply (Rmult_le_compat_r (q + INR n)) in H0; [|lra].
    replace (ratio p q * (s / (q + INR n)) * (q + INR n)) with (ratio p q * s) in H0 by (field; lra). nra. }
  assert (ratio p q < INR n * e).
  { apply (Rmult_lt_compat_r e) in Hn; [|exact He]. unfold Rdiv in Hn. rewrite Rmult_assoc, Rinv_l in Hn by lra. lra. }
  nra.
Qed.
Lemma ratio_1 p : 0 < p -> ratio p 1 = 1.
Proof.
  intros Hp. unfold ratio. rewrite Bet_1, Gam_1, Gam_rec by exact Hp. pose proof (Gam_pos p Hp). field. lra.
Qed.
Lemma ratio_small p s : 0 < p -> 0 < s <= 1 -> ratio p s = 1.
Proof.
  intros Hp Hs. apply Rle_antisym.
  - rewrite <- (ratio_S p s Hp) by lra. replace (s + 1) with (1 + s) by ring. apply Rle_trans with (ratio p 1); [apply ratio_down; lra|rewrite (ratio_1 p Hp); lra].
  - pose proof (ratio_down p s (1 - s) Hp ltac:(lra) ltac:(lra)) as K. replace (s + (1 - s)) with 1 in K by ring.
    rewrite (ratio_1 p Hp) in K. exact K.
Qed.
Lemma ratio_one p q : 0 < p -> 0 < q -> ratio p q = 1.
Proof.
  intros Hp Hq. set (n := Z.to_nat (up q - 1)). destruct (archimed q) as [U1 U2].
  assert (Hup : (0 < up q)%Z) by (apply lt_IZR; cbn; lra).
  assert (Hn : INR n = IZR (up q) - 1) by (unfold n; rewrite INR_IZR_INZ, Z2Nat.id, minus_IZR by lia; ring).
  destruct (Req_dec q (INR n)) as [E|E].
  - clearbody n. destruct n as [|m]; [cbn in E; lra|]. rewrite E, S_INR, (Rplus_comm (INR m)). rewrite ratio_N by lra. apply ratio_1, Hp.
  - replace q with (q - INR n + INR n) by ring. rewrite ratio_N by lra. apply ratio_small; lra.
Qed.
Theorem Bet_Gam p q : 0 < p -> 0 < q -> Bet p q = Gam p * Gam q / Gam (p + q).
Proof.
  intros Hp Hq. pose proof (ratio_one p q Hp Hq) as E. unfold ratio in E.
  pose proof (Gam_pos p Hp). pose proof (Gam_pos q Hq). pose proof (Gam_pos (p + q) ltac:(lra)).
  apply (Rmult_eq_reg_r (Gam (p + q) / (Gam p * Gam q))).
  - replace (Bet p q * (Gam (p + q) / (Gam p * Gam q))) with (Bet p q * Gam (p + q) / (Gam p * Gam q)) by (field; lra).
    rewrite E. field. lra.
  - apply Rgt_not_eq, Rdiv_lt_0_compat; [assumption|apply Rmult_lt_0_compat; assumption].
Qed.

(** The duplication formula at integers. *)
Lemma Gam_dup n : (0 < n)%nat -> Gam (INR n) * sqrt PI = Rpower 2 (INR n - 1) * Gam (INR n / 2) * Gam ((INR n + 1) / 2).
Proof.
  intros Hn. induction n as [|n IH]; [lia|]. destruct n as [|n].
  - cbn [INR]. rewrite Gam_1, Rminus_eq_0, Rpower_O by lra. replace ((1 + 1) / 2) with 1 by field. rewrite Gam_1, Gam_half. ring.
  - specialize (IH ltac:(lia)). set (m := INR (S n)) in *. assert (Hm : 0 < m) by (apply lt_0_INR; lia).
    rewrite (S_INR (S n)). fold m. rewrite Gam_rec by exact Hm. replace (m + 1 - 1) with m by ring.
    replace ((m + 1 + 1) / 2) with (m / 2 + 1) by field. rewrite (Gam_rec (m / 2)) by lra.
    rewrite Rmult_assoc, IH. rewrite (Rpower_S 2 m) by lra. field.
Qed.
