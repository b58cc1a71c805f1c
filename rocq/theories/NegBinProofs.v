From Coq Require Import Reals ZArith Lra Lia Psatz List Arith Permutation.
From Coquelicot Require Import Coquelicot.
From Verif Require Import Base IntMathModel DiscreteModel Improper GammaFn BetaFn ContModel GamModel GamProofs NegBinModel.
Import ListNotations.
Local Open Scope R_scope.

(** ** Probabilities *)
Fixpoint rise (r : R) (k : nat) : R := match k with O => 1 | S k => rise r k * (r + INR k) end.
Definition nb (r p : R) (k : nat) : R := rise r k / INR (fact k) * (Rpower p r * (1 - p) ^ k).

Lemma rise_pos r k : 0 < r -> 0 < rise r k.
Proof. intros Hr. induction k as [|k IH]; cbn [rise]; [lra|]. pose proof (pos_INR k). apply Rmult_lt_0_compat; lra. Qed.
Lemma nb_nonneg r p k : 0 < r -> 0 < p <= 1 -> 0 <= nb r p k.
Proof.
  intros Hr Hp. unfold nb. pose proof (rise_pos r k Hr). pose proof (INR_fact_lt_0 k). apply Rmult_le_pos; [apply Rlt_le, Rdiv_lt_0_compat; assumption|].
  apply Rmult_le_pos; [apply Rlt_le, exp_pos|apply pow_le; lra].
Qed.
Lemma rise_Gam r k : 0 < r -> Gam (r + INR k) = rise r k * Gam r.
Proof.
  intros Hr. induction k as [|k IH]; [cbn [INR rise]; rewrite Rplus_0_r; ring|]. rewrite S_INR. replace (r + (INR k + 1)) with (r + INR k + 1) by ring.
  pose proof (pos_INR k). rewrite Gam_rec, IH by lra. cbn [rise]. ring.
Qed.
Lemma Gam_fact k : Gam (INR k + 1) = INR (fact k).
Proof.
  induction k as [|k IH]; [cbn; rewrite Rplus_0_l; apply Gam_1|]. rewrite S_INR. pose proof (pos_INR k). rewrite Gam_rec, IH by lra.
  rewrite fact_simpl, mult_INR, S_INR. ring.
Qed.
Lemma Bet_rise r k : 0 < r -> / (INR (S k) * Bet r (INR (S k))) = rise r (S k) / INR (fact (S k)).
Proof.
  intros Hr. induction k as [|k IH].
  - cbn [INR fact rise Nat.mul Nat.add]. rewrite Bet_1 by exact Hr. field. lra.
  - assert (K : 0 < INR (S k)) by (apply lt_0_INR; lia). rewrite (S_INR (S k)). rewrite Bet_rec_r by assumption. pose proof (Bet_pos r _ Hr K) as BP.
    change (rise r (S (S k))) with (rise r (S k) * (r + INR (S k))). rewrite (fact_simpl (S k)), mult_INR, (S_INR (S k)).
    transitivity (/ (INR (S k) * Bet r (INR (S k))) * (r + INR (S k)) / (INR (S k) + 1)); [field; lra|]. rewrite IH. pose proof (INR_fact_lt_0 (S k)). field. lra.
Qed.
Lemma I_step r k x : 0 < r -> 0 < x < 1 -> I r (INR (S (S k))) x = I r (INR (S k)) x + nb r x (S k).
Proof.
  intros Hr Hx. assert (K : 0 < INR (S k)) by (apply lt_0_INR; lia). rewrite (S_INR (S k)), !I_in by exact Hx.
  rewrite Bet_rec_r by assumption. pose proof (Bet_pos r _ Hr K) as BP. set (q := INR (S k)) in *.
  pose proof (lbet_edge r q x Hr K Hx) as E. pose proof (lbet_split r q x Hr K Hx) as Sp.
  assert (L : lbet r (q + 1) x = (Rpower x r * Rpower (1 - x) q + q * lbet r q x) / (r + q)) .
  { rewrite E. replace (lbet (r + 1) q x) with (lbet r q x - lbet r (q + 1) x) by lra. field. lra. }
  rewrite L. unfold nb. rewrite <- Bet_rise by exact Hr. fold q. replace ((1 - x) ^ S k) with (Rpower (1 - x) q) by (unfold q; apply Rpower_pow; lra). field. lra.
Qed.
Lemma I_first r x : 0 < r -> 0 < x < 1 -> I r (INR 1) x = nb r x 0.
Proof. intros Hr Hx. rewrite I_in by exact Hx. cbn [INR]. rewrite lbet_1, Bet_1 by assumption. unfold nb. cbn [rise fact INR pow]. field. lra. Qed.
Lemma nb_sum r x k : 0 < r -> 0 < x <= 1 -> sum_f_R0 (nb r x) k = I r (INR (S k)) x.
Proof.
  intros Hr Hx. destruct (Req_dec x 1) as [->|N].
  - rewrite I_1 by lra. assert (Z : forall j, nb r 1 (S j) = 0) by (intros j; unfold nb; rewrite Rminus_eq_0, pow_i by lia; ring).
    induction k as [|k IH]; [|cbn [sum_f_R0]; rewrite IH, Z; ring]. cbn [sum_f_R0]. unfold nb. cbn [rise fact INR pow]. unfold Rpower. rewrite ln_1, Rmult_0_r, exp_0. field.
  - induction k as [|k IH]; [cbn [sum_f_R0]; symmetry; apply I_first; lra|]. cbn [sum_f_R0]. rewrite IH. symmetry. apply I_step; lra.
Qed.

(** ** The total probability *)
Lemma I_tail r q x : 0 < r -> 0 < q -> 0 < x < 1 -> 1 - I r q x <= r / ((r + q) * x).
Proof.
  intros Hr Hq Hx. rewrite I_in by exact Hx. pose proof (Bet_pos r q Hr Hq) as BP.
  assert (M : forall y, x <= y -> y < 1 -> lbet r q y - lbet r q x <= (lbet (r + 1) q y - lbet (r + 1) q x) / x).
  { intros y Hy Hy1. pose proof (mono_cc (fun t => / x * lbet (r + 1) q t + - (1) * lbet r q t) (fun t => / x * bterm (r + 1) q t + - (1) * bterm r q t) x y Hy) as Mo. cbv beta in Mo.
    assert (G : / x * lbet (r + 1) q x + - (1) * lbet r q x <= / x * lbet (r + 1) q y + - (1) * lbet r q y).
    { apply Mo.
      - intros t Ht. apply @is_derive_plus; [apply (is_derive_scal (lbet (r + 1) q)), lbet_deriv|apply (is_derive_scal (lbet r q)), lbet_deriv]; lra.
      - intros t Ht. assert (E : bterm (r + 1) q t = t * bterm r q t).
        { unfold bterm. replace (r + 1 - 1) with (1 + (r - 1)) by ring. rewrite Rpower_plus, Rpower_1 by lra. ring. }
        rewrite E. pose proof (bterm_pos r q t) as P. replace (/ x * (t * bterm r q t) + - (1) * bterm r q t) with ((t - x) / x * bterm r q t) by (field; lra).
        apply Rmult_le_pos; [|lra]. apply Rdiv_le_0_compat; lra. }
    unfold Rdiv. lra. }
  assert (U : Bet r q - lbet r q x <= Bet (r + 1) q / x).
  { assert (Le : Bet r q <= lbet r q x + Bet (r + 1) q / x).
    { apply (ltop_le (Finite 1) (lbet r q) (fun _ => lbet r q x + Bet (r + 1) q / x) _ _); [|apply Bet_lim; assumption|apply ltop_const, dom_1_ex].
      intros y Dy. apply (proj1 (dom_1 y)) in Dy. pose proof (Bet_pos (r + 1) q ltac:(lra) Hq) as BP1. assert (X0 : 0 < Bet (r + 1) q / x) by (apply Rdiv_lt_0_compat; lra).
      destruct (Rle_lt_dec x y) as [L|L].
      - pose proof (M y L ltac:(lra)) as My. pose proof (lbet_lt_Bet (r + 1) q y ltac:(lra) Hq Dy). pose proof (lbet_pos (r + 1) q x ltac:(lra) Hq Hx).
        assert ((lbet (r + 1) q y - lbet (r + 1) q x) / x <= Bet (r + 1) q / x); [|lra]. apply Rmult_le_compat_r; [left; apply Rinv_0_lt_compat; lra|lra].
      - pose proof (lbet_strict r q Hr Hq y x ltac:(lra) L ltac:(lra)). lra. }
    lra. }
  rewrite Bet_rec_l in U by assumption. apply (Rmult_le_reg_r (Bet r q)); [exact BP|].
  replace ((1 - lbet r q x / Bet r q) * Bet r q) with (Bet r q - lbet r q x) by (field; lra). eapply Rle_trans; [exact U|]. right. field. lra.
Qed.
Lemma nb_total r x : 0 < r -> 0 < x <= 1 -> infinite_sum (nb r x) 1.
Proof.
  intros Hr Hx e He. destruct (Req_dec x 1) as [->|N].
  - exists 0%nat. intros n _. rewrite nb_sum, I_1 by lra. unfold R_dist. rewrite Rminus_eq_0, Rabs_R0. exact He.
  - destruct (INR_above (r / (e * x))) as (n0 & H0). exists n0. intros n Hn. rewrite nb_sum by lra.
    assert (K : 0 < INR (S n)) by (apply lt_0_INR; lia). assert (L : INR n0 <= INR (S n)) by (apply le_INR; lia).
    pose proof (I_pos r _ x Hr K ltac:(lra)) as (_ & I1). pose proof (I_tail r _ x Hr K ltac:(lra)) as T.
    unfold R_dist. rewrite Rabs_left by lra. eapply Rle_lt_trans with (r / ((r + INR (S n)) * x)); [lra|].
    apply Rlt_div_l; [apply Rmult_lt_0_compat; lra|]. assert (EX : 0 < e * x) by (apply Rmult_lt_0_compat; lra). apply Rlt_div_l in H0; [|exact EX].
    assert (INR n0 * (e * x) <= INR (S n) * (e * x)) by (apply Rmult_le_compat_r; lra). assert (0 < r * (e * x)) by (apply Rmult_lt_0_compat; lra). lra.
Qed.
(** Chernoff's bound by comparison with the parameter p/2 *)
Lemma nb_half r p k : 0 < r -> 0 < p <= 1 -> nb r p k = Rpower 2 r * ((1 - p) / (1 - p / 2)) ^ k * nb r (p / 2) k.
Proof.
  intros Hr Hp. unfold nb. pose proof (INR_fact_lt_0 k). assert (E1 : Rpower p r = Rpower 2 r * Rpower (p / 2) r) by (rewrite Rpower_mult_distr by lra; f_equal; field).
  assert (P1 : 0 < (1 - p / 2) ^ k) by (apply pow_lt; lra).
  assert (E2 : ((1 - p) / (1 - p / 2)) ^ k * (1 - p / 2) ^ k = (1 - p) ^ k) by (rewrite <- Rpow_mult_distr; f_equal; field; lra).
  rewrite E1, <- E2. field. lra.
Qed.
Lemma nb_tail r p n : 0 < r -> 0 < p <= 1 -> 1 - sum_f_R0 (nb r p) n <= Rpower 2 r * exp (- (p / 2) * INR (S n)).
Proof.
  intros Hr Hp. set (rho := (1 - p) / (1 - p / 2)). assert (R0 : 0 <= rho) by (apply Rdiv_le_0_compat; lra).
  assert (R1 : rho <= exp (- (p / 2))).
  { apply Rle_trans with (1 - p / 2); [|pose proof (exp_ineq1_le (- (p / 2))); lra]. unfold rho. apply Rle_div_l; [lra|]. nra. }
  assert (E : forall k, nb r p k = Rpower 2 r * rho ^ k * nb r (p / 2) k) by (intros k; apply nb_half; assumption).
  assert (Rp : 0 < Rpower 2 r) by apply exp_pos.
  assert (D : forall m, sum_f_R0 (nb r p) (n + m) - sum_f_R0 (nb r p) n <= Rpower 2 r * rho ^ S n * (sum_f_R0 (nb r (p / 2)) (n + m) - sum_f_R0 (nb r (p / 2)) n)).
  { induction m as [|m IH]; [rewrite Nat.add_0_r; lra|]. rewrite Nat.add_succ_r. cbn [sum_f_R0]. rewrite (E (S (n + m))).
    assert (P1 : rho <= 1) by (unfold rho; apply Rle_div_l; lra).
    assert (PW : rho ^ S (n + m) <= rho ^ S n). { replace (S (n + m)) with (S n + m)%nat by lia. rewrite pow_add. rewrite <- (Rmult_1_r (rho ^ S n)) at 2. apply Rmult_le_compat_l; [apply pow_le, R0|]. rewrite <- (pow1 m). apply pow_incr. lra. }
    pose proof (nb_nonneg r (p / 2) (S (n + m)) Hr ltac:(lra)) as N. assert (Rpower 2 r * rho ^ S (n + m) * nb r (p / 2) (S (n + m)) <= Rpower 2 r * rho ^ S n * nb r (p / 2) (S (n + m))); [|lra].
    apply Rmult_le_compat_r; [exact N|]. apply Rmult_le_compat_l; lra. }
  assert (B : forall m, sum_f_R0 (nb r p) (n + m) - sum_f_R0 (nb r p) n <= Rpower 2 r * exp (- (p / 2) * INR (S n))).
  { intros m. eapply Rle_trans; [apply D|]. assert (S1 : sum_f_R0 (nb r (p / 2)) (n + m) - sum_f_R0 (nb r (p / 2)) n <= 1).
    { assert (0 <= sum_f_R0 (nb r (p / 2)) n) by (apply cond_pos_sum; intros; apply nb_nonneg; lra). assert (sum_f_R0 (nb r (p / 2)) (n + m) <= 1); [|lra].
      rewrite nb_sum by lra. destruct (I_pos r (INR (S (n + m))) (p / 2) Hr) as (_ & H2); [apply lt_0_INR; lia|lra|lra]. }
    assert (PE : rho ^ S n <= exp (- (p / 2) * INR (S n))).
    { replace (exp (- (p / 2) * INR (S n))) with (exp (- (p / 2)) ^ S n); [apply pow_incr; lra|]. rewrite <- Rpower_pow by apply exp_pos. unfold Rpower. rewrite ln_exp. f_equal. ring. }
    assert (0 <= rho ^ S n) by (apply pow_le, R0). assert (0 <= Rpower 2 r * rho ^ S n) by (apply Rmult_le_pos; lra).
    apply Rle_trans with (Rpower 2 r * rho ^ S n * 1); [apply Rmult_le_compat_l; assumption|]. rewrite Rmult_1_r. apply Rmult_le_compat_l; lra. }
  apply Rnot_lt_le. intros C. set (e := 1 - sum_f_R0 (nb r p) n - Rpower 2 r * exp (- (p / 2) * INR (S n))) in *. assert (He : 0 < e) by (unfold e; lra).
  destruct (nb_total r p Hr Hp e He) as (m & H). specialize (H (n + m)%nat ltac:(lia)). specialize (B m). unfold R_dist in H. apply Rabs_def2 in H. unfold e in *. lra.
Qed.

(** ** The terms of pdf *)
Lemma insert_perm a l : Permutation (a :: l) (insert a l).
Proof. induction l as [|b l IH]; cbn; [reflexivity|]. destruct (abs_less b a); [|reflexivity]. transitivity (b :: a :: l); [constructor|now constructor]. Qed.
Lemma sort_perm l : Permutation l (sort l).
Proof. induction l as [|a l IH]; cbn; [reflexivity|]. transitivity (a :: sort l); [now constructor|apply insert_perm]. Qed.
Lemma xadd_comm a b : xadd a b = xadd b a.
Proof. destruct a, b; cbn; try reflexivity. f_equal. ring. Qed.
Lemma xadd_swap a b c : xadd (xadd a b) c = xadd (xadd a c) b.
Proof. destruct a, b, c; cbn; try reflexivity. f_equal. ring. Qed.
Lemma accumulate_perm l l' : Permutation l l' -> accumulate l = accumulate l'.
Proof.
  unfold accumulate. generalize (Fin 0). intros v H. revert v. induction H; intros v; cbn; auto.
  - now rewrite xadd_swap.
  - now rewrite IHPermutation1, IHPermutation2.
Qed.
Lemma as_int_in x : (0 <= x < int_max)%Z -> as_int (x + 1) = Some (x + 1)%Z.
Proof.
  intros Hx. unfold as_int. assert (IN : ((int_min <=? x + 1) && (x + 1 <=? int_max))%Z%bool = true) by (apply andb_true_intro; unfold int_min; split; apply Z.leb_le; lia). rewrite IN. reflexivity.
Qed.
Lemma nb_pdf_at_in p r x : 0 < p < 1 -> 0 < r -> (0 <= x)%Z -> nb_pdf_at p r x = Fin (nb r p (Z.to_nat x)).
Proof.
  intros Hp Hr Hx. unfold nb_pdf_at.
  rewrite <- (accumulate_perm _ _ (sort_perm _)). set (k := Z.to_nat x). assert (EX : IZR x = INR k) by (unfold k; rewrite INR_IZR_INZ, Z2Nat.id by lia; reflexivity).
  rewrite plus_IZR, EX. unfold nb_terms, xln. destruct (Rlt_dec p 0); [lra|]. destruct (Req_EM_T p 0); [lra|]. destruct (Rlt_dec (1 + - p) 0); [lra|]. destruct (Req_EM_T (1 + - p) 0); [lra|].
  cbn [xscale accumulate fold_left xadd xexp]. f_equal. rewrite Rplus_0_l, !exp_plus, !exp_Ropp. pose proof (pos_INR k). rewrite !exp_lgamma by lra.
  rewrite rise_Gam, Gam_fact by exact Hr. pose proof (Gam_pos r Hr). pose proof (INR_fact_lt_0 k). unfold nb. replace (1 + - p) with (1 - p) by ring.
  replace (exp (INR k * ln (1 - p))) with ((1 - p) ^ k) by (rewrite <- Rpower_pow by lra; reflexivity). change (exp (r * ln p)) with (Rpower p r). field. lra.
Qed.
Lemma nb_pdf_at_1 r x : 0 < r -> (0 < x)%Z -> nb_pdf_at 1 r x = Fin (nb r 1 (Z.to_nat x)).
Proof.
  intros Hr Hx. unfold nb_pdf_at. rewrite <- (accumulate_perm _ _ (sort_perm _)). unfold nb_terms, xln.
  destruct (Rlt_dec 1 0); [lra|]. destruct (Req_EM_T 1 0); [lra|]. destruct (Rlt_dec (1 + - (1)) 0); [lra|]. destruct (Req_EM_T (1 + - (1)) 0); [|lra].
  assert (IZR x <> 0) by (apply IZR_neq; lia). unfold xscale. destruct (Rlt_dec 0 (IZR x)) as [_|N]; [|apply IZR_lt in Hx; lra].
  cbn [accumulate fold_left xadd xexp]. f_equal. unfold nb. replace (Z.to_nat x) with (S (Z.to_nat (x - 1))) by lia. cbn [pow]. ring.
Qed.
Lemma nb_pdf_value p r x : 0 < p < 1 -> 0 < r -> (0 <= x < int_max)%Z -> nb_pdf p r x = Some (Fin (nb r p (Z.to_nat x))).
Proof. intros Hp Hr Hx. unfold nb_pdf. rewrite (proj2 (Z.ltb_ge x 0)), as_int_in by lia. cbn [option_map]. rewrite nb_pdf_at_in by (assumption || lia). reflexivity. Qed.
Lemma nb_cdf_at_in p r x : 0 < p <= 1 -> 0 < r -> (0 <= x)%Z -> nb_cdf_at p r x = Fin (sum_f_R0 (nb r p) (Z.to_nat x)).
Proof.
  intros Hp Hr Hx. unfold nb_cdf_at. assert (X0 : 0 <= IZR x) by (apply IZR_le; lia). rewrite nb_sum, plus_IZR by assumption. rewrite S_INR, INR_IZR_INZ, Z2Nat.id by lia. apply Beta_I_I; lra.
Qed.
Lemma nb_cdf_value p r x : 0 < p <= 1 -> 0 < r -> (0 <= x < int_max)%Z -> nb_cdf p r x = Some (Fin (sum_f_R0 (nb r p) (Z.to_nat x))).
Proof. intros Hp Hr Hx. unfold nb_cdf. rewrite (proj2 (Z.ltb_ge x 0)), as_int_in by lia. cbn [option_map]. rewrite nb_cdf_at_in by (assumption || lia). reflexivity. Qed.
