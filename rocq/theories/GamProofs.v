(** Proofs about the distributions of GamModel. *)
From Coq Require Import Reals ZArith Lra Psatz Lia.
From Coquelicot Require Import Coquelicot.
From Verif Require Import ContModel GamModel Improper GammaFn BetaFn.
Local Open Scope R_scope.

(** ** The model's integrals *)

Lemma RInt_prim F f hi a b : prim hi F f -> (forall x, dom hi x -> continuous f x) -> dom hi a -> dom hi b ->
  RInt f a b = F b - F a.
Proof.
  intros [HF _] HC Ha Hb. apply is_RInt_unique. apply (is_RInt_derive F f).
  - intros x Hx. apply HF. unfold dom in *. revert Hx. unfold Rmin, Rmax. destruct (Rle_dec a b); intros Hx; destruct hi; cbn in *; split; lra.
  - intros x Hx. apply HC. unfold dom in *. revert Hx. unfold Rmin, Rmax. destruct (Rle_dec a b); intros Hx; destruct hi; cbn in *; split; lra.
Qed.
Lemma gterm_cont a x : 0 < x -> continuous (gterm a) x.
Proof.
  intros Hx. apply (ex_derive_continuous (gterm a)). unfold gterm.
  eexists. apply (is_derive_mul (fun t => exp (- t)) (fun t => Rpower t (a - 1)) x (- exp (- x))).
  - auto_derive; [trivial|ring].
  - apply is_derive_Rpower, Hx.
Qed.
Lemma bterm_cont p q x : 0 < x < 1 -> continuous (bterm p q) x.
Proof.
  intros Hx. apply (ex_derive_continuous (bterm p q)). unfold bterm.
  eexists. apply (is_derive_mul (fun t => Rpower t (p - 1)) (fun t => Rpower (1 - t) (q - 1)) x).
  - apply is_derive_Rpower. lra.
  - apply is_derive_Rpower_1m. lra.
Qed.
Lemma inv_n_lim k : is_lim_seq (fun n => / (INR n + k)) 0.
Proof.
  replace (Finite 0) with (Rbar_inv p_infty) by reflexivity. apply is_lim_seq_inv; [|discriminate].
  apply is_lim_seq_plus with p_infty (Finite k); [apply is_lim_seq_INR|apply is_lim_seq_const|reflexivity].
Qed.
Lemma lbot_seq F L u : lbot F L -> (forall n, 0 < u n) -> is_lim_seq u 0 -> is_lim_seq (fun n => F (u n)) L.
Proof.
  intros HF Hu Hl. apply is_lim_seq_spec. intros e. destruct (HF e (cond_pos e)) as (d & Hd & E).
  apply is_lim_seq_spec in Hl. destruct (Hl (mkposreal d Hd)) as (N & HN). exists N. intros n Hn.
  apply E; [apply Hu|]. specialize (HN n Hn). cbn in HN. rewrite Rminus_0_r in HN. apply Rabs_def2 in HN. lra.
Qed.
Lemma ltop_seq F L : ltop p_infty F L -> is_lim_seq (fun n => F (INR n + 1)) L.
Proof.
  intros HF. apply is_lim_seq_spec. intros e. destruct (HF e (cond_pos e)) as (b & Db & E).
  destruct (INR_above b) as (N & HN). exists N. intros n Hn. apply E; [apply dom_inf; pose proof (pos_INR n); lra|].
  apply le_INR in Hn. lra.
Qed.
Lemma ltop1_seq F L u : ltop (Finite 1) F L -> (forall n, 0 < u n < 1) -> is_lim_seq u 1 -> is_lim_seq (fun n => F (u n)) L.
Proof.
  intros HF Hu Hl. apply is_lim_seq_spec. intros e. destruct (HF e (cond_pos e)) as (b & Db & E). apply (proj1 (dom_1 _)) in Db.
  apply is_lim_seq_spec in Hl. assert (H : 0 < 1 - b) by lra. destruct (Hl (mkposreal _ H)) as (N & HN). exists N. intros n Hn.
  apply E; [apply dom_1, Hu|]. specialize (HN n Hn). cbn in HN. apply Rabs_def2 in HN. lra.
Qed.
Lemma tgamma_Gam a : 0 < a -> tgamma a = Gam a.
Proof.
  intros Ha. unfold tgamma. change (fun t => exp (- t) * Rpower t (a - 1)) with (gterm a).
  rewrite (is_lim_seq_unique _ (Finite (Gam a - 0))); [cbn; ring|].
  apply is_lim_seq_ext with (fun n => lgam a (INR n + 1) - lgam a (/ (INR n + 1))).
  - intros n. pose proof (pos_INR n). symmetry. apply (RInt_prim _ _ p_infty); [apply lgam_prim, Ha| | |].
    + intros x Dx. apply gterm_cont, dom_inf, Dx.
    + apply dom_inf, Rinv_0_lt_compat. lra.
    + apply dom_inf. lra.
  - apply is_lim_seq_minus'.
    + apply ltop_seq, Gam_lim, Ha.
    + apply (lbot_seq (lgam a) 0 (fun n => / (INR n + 1))); [apply lgam_prim, Ha| |apply inv_n_lim].
      intros n. pose proof (pos_INR n). apply Rinv_0_lt_compat. lra.
Qed.
Lemma inc_gamma_lgam a x : 0 < a -> 0 < x -> inc_gamma a x = lgam a x.
Proof.
  intros Ha Hx. unfold inc_gamma. destruct (Rle_dec x 0); [lra|]. change (fun t => exp (- t) * Rpower t (a - 1)) with (gterm a).
  rewrite (is_lim_seq_unique _ (Finite (lgam a x - 0))); [cbn; ring|].
  apply is_lim_seq_ext with (fun n => lgam a x - lgam a (/ (INR n + 1))).
  - intros n'. pose proof (pos_INR n'). symmetry. apply (RInt_prim _ _ p_infty); [apply lgam_prim, Ha| | |].
    + intros y Dy. apply gterm_cont, dom_inf, Dy.
    + apply dom_inf, Rinv_0_lt_compat. lra.
    + apply dom_inf. lra.
  - apply is_lim_seq_minus'; [apply is_lim_seq_const|].
    apply (lbot_seq (lgam a) 0 (fun n => / (INR n + 1))); [apply lgam_prim, Ha| |apply inv_n_lim].
    intros n'. pose proof (pos_INR n'). apply Rinv_0_lt_compat. lra.
Qed.
Lemma small_n n : 0 < / (INR n + 2) <= 1 / 2.
Proof.
  pose proof (pos_INR n). split; [apply Rinv_0_lt_compat; lra|]. replace (1 / 2) with (/ 2) by field. apply Rinv_le_contravar; lra.
Qed.
Lemma inc_beta_gen p q x (L : R) : 0 < p -> 0 < q -> 0 < x -> is_lim_seq (fun n => lbet p q (Rmin x (1 - / (INR n + 2)))) L ->
  inc_beta p q x = L.
Proof.
  intros Hp Hq Hx HL. unfold inc_beta. destruct (Rle_dec x 0); [lra|].
  change (fun t => Rpower t (p - 1) * Rpower (1 - t) (q - 1)) with (bterm p q).
  rewrite (is_lim_seq_unique _ (Finite (L - 0))); [cbn; ring|].
  apply is_lim_seq_ext with (fun n => lbet p q (Rmin x (1 - / (INR n + 2))) - lbet p q (/ (INR n + 2))).
  - intros n'. pose proof (small_n n'). symmetry. apply (RInt_prim _ _ (Finite 1)); [apply lbet_prim; assumption| | |].
    + intros y Dy. apply bterm_cont, dom_1, Dy.
    + apply dom_1. lra.
    + apply dom_1. unfold Rmin. destruct (Rle_dec x (1 - / (INR n' + 2))); lra.
  - apply is_lim_seq_minus'; [exact HL|].
    apply (lbot_seq (lbet p q) 0 (fun n => / (INR n + 2))); [apply lbet_prim; assumption| |apply inv_n_lim].
    intros n'. apply small_n.
Qed.
Lemma inc_beta_lbet p q x : 0 < p -> 0 < q -> 0 < x < 1 -> inc_beta p q x = lbet p q x.
Proof.
  intros Hp Hq Hx. apply inc_beta_gen; try lra.
  apply is_lim_seq_spec. intros e. pose proof (inv_n_lim 2) as HL. apply is_lim_seq_spec in HL.
  assert (H : 0 < 1 - x) by lra. destruct (HL (mkposreal _ H)) as (N & HN). exists N. intros n Hn. specialize (HN n Hn). cbn in HN.
  rewrite Rminus_0_r in HN. apply Rabs_def2 in HN. rewrite Rmin_left by lra. rewrite Rminus_eq_0, Rabs_R0. apply cond_pos.
Qed.
Lemma inc_beta_1 p q x : 0 < p -> 0 < q -> 1 <= x -> inc_beta p q x = Bet p q.
Proof.
  intros Hp Hq Hx. apply inc_beta_gen; try lra.
  apply (ltop1_seq (lbet p q) (Bet p q) (fun n => Rmin x (1 - / (INR n + 2)))); [apply Bet_lim; assumption| |].
  - intros n. pose proof (small_n n). rewrite Rmin_right by lra. lra.
  - apply is_lim_seq_ext with (fun n => 1 - / (INR n + 2)).
    + intros n. pose proof (small_n n). rewrite Rmin_right by lra. reflexivity.
    + replace (Finite 1) with (Finite (1 - 0)) by (f_equal; ring). apply is_lim_seq_minus'; [apply is_lim_seq_const|apply inv_n_lim].
Qed.
Lemma inc_beta_0 p q x : x <= 0 -> inc_beta p q x = 0.
Proof. intros H. unfold inc_beta. destruct (Rle_dec x 0); [reflexivity|lra]. Qed.
Lemma inc_gamma_0 a x : x <= 0 -> inc_gamma a x = 0.
Proof. intros H. unfold inc_gamma. destruct (Rle_dec x 0); [reflexivity|lra]. Qed.

Lemma exp_lgamma a : 0 < a -> exp (lgamma a) = Gam a.
Proof. intros Ha. unfold lgamma. rewrite tgamma_Gam by exact Ha. apply exp_ln, Gam_pos, Ha. Qed.
Lemma lgamma_ln a : 0 < a -> lgamma a = ln (Gam a).
Proof. intros Ha. unfold lgamma. rewrite tgamma_Gam by exact Ha. reflexivity. Qed.
Lemma Beta_Bet x y : 0 < x -> 0 < y -> Beta x y = Fin (Bet x y).
Proof.
  intros Hx Hy. unfold Beta. destruct (Rle_dec x 0); [lra|]. destruct (Rle_dec y 0); [lra|].
  assert (Hz : 0 < x + y) by lra. rewrite (Bet_Gam x y Hx Hy).
  pose proof (Gam_pos _ Hx). pose proof (Gam_pos _ Hy). pose proof (Gam_pos _ Hz).
  destruct (Rlt_dec ln_max ((x + y) * ln (x + y) - (x + y))).
  - f_equal. unfold Rminus. rewrite !exp_plus, exp_Ropp, !exp_lgamma by assumption. reflexivity.
  - f_equal. rewrite !tgamma_Gam by assumption. field. lra.
Qed.

(** ** Regularised functions *)

Definition P (a x : R) : R := if Rle_dec x 0 then 0 else lgam a x / Gam a.
Definition I (p q x : R) : R := if Rle_dec x 0 then 0 else if Rle_dec 1 x then 1 else lbet p q x / Bet p q.

Lemma GammaP_P a x : 0 < a -> GammaP a x = P a x.
Proof.
  intros Ha. unfold GammaP, P. destruct (Rle_dec x 0).
  - rewrite inc_gamma_0 by assumption. unfold Rdiv. ring.
  - rewrite inc_gamma_lgam, tgamma_Gam by lra. reflexivity.
Qed.
Lemma P_in a x : 0 < x -> P a x = lgam a x / Gam a.
Proof. intros H. unfold P. destruct (Rle_dec x 0); [lra|reflexivity]. Qed.
Lemma I_in p q x : 0 < x < 1 -> I p q x = lbet p q x / Bet p q.
Proof. intros H. unfold I. destruct (Rle_dec x 0); [lra|]. destruct (Rle_dec 1 x); [lra|reflexivity]. Qed.
Lemma I_0 p q x : x <= 0 -> I p q x = 0.
Proof. intros H. unfold I. destruct (Rle_dec x 0); [reflexivity|lra]. Qed.
Lemma I_1 p q x : 1 <= x -> I p q x = 1.
Proof. intros H. unfold I. destruct (Rle_dec x 0); [lra|]. destruct (Rle_dec 1 x); [reflexivity|lra]. Qed.
Lemma P_0 a x : x <= 0 -> P a x = 0.
Proof. intros H. unfold P. destruct (Rle_dec x 0); [reflexivity|lra]. Qed.
Lemma Beta_I_I p q x : 0 < p -> 0 < q -> 0 <= x <= 1 -> Beta_I (Fin x) p q (Beta p q) = Fin (I p q x).
Proof.
  intros Hp Hq Hx. rewrite Beta_Bet by assumption. unfold Beta_I.
  destruct (Rle_dec p 0); [lra|]. destruct (Rle_dec q 0); [lra|]. destruct (Rlt_dec x 0); [lra|]. destruct (Rlt_dec 1 x); [lra|].
  f_equal. pose proof (Bet_pos p q Hp Hq). destruct (Req_dec x 0) as [->|N0].
  - rewrite inc_beta_0, I_0 by lra. unfold Rdiv. ring.
  - destruct (Req_dec x 1) as [->|N1].
    + rewrite inc_beta_1, I_1 by lra. field. lra.
    + rewrite inc_beta_lbet, I_in by lra. reflexivity.
Qed.

Lemma P_pos a x : 0 < a -> 0 < x -> 0 < P a x < 1.
Proof.
  intros Ha Hx. rewrite P_in by exact Hx. pose proof (lgam_pos a x Ha Hx). pose proof (lgam_lt_Gam a x Ha Hx). pose proof (Gam_pos a Ha).
  split; [apply Rdiv_lt_0_compat; assumption|]. apply (Rmult_lt_reg_r (Gam a)); [assumption|]. unfold Rdiv. rewrite Rmult_assoc, Rinv_l; lra.
Qed.
Lemma I_pos p q x : 0 < p -> 0 < q -> 0 < x < 1 -> 0 < I p q x < 1.
Proof.
  intros Hp Hq Hx. rewrite I_in by exact Hx. pose proof (lbet_pos p q x Hp Hq Hx). pose proof (lbet_lt_Bet p q x Hp Hq Hx). pose proof (Bet_pos p q Hp Hq).
  split; [apply Rdiv_lt_0_compat; assumption|]. apply (Rmult_lt_reg_r (Bet p q)); [assumption|]. unfold Rdiv. rewrite Rmult_assoc, Rinv_l; lra.
Qed.
Lemma P_range a x : 0 < a -> 0 <= P a x <= 1.
Proof. intros Ha. destruct (Rle_dec x 0); [rewrite P_0; lra|]. pose proof (P_pos a x Ha ltac:(lra)). lra. Qed.
Lemma I_range p q x : 0 < p -> 0 < q -> 0 <= I p q x <= 1.
Proof.
  intros Hp Hq. destruct (Rle_dec x 0); [rewrite I_0; lra|]. destruct (Rle_dec 1 x); [rewrite I_1; lra|].
  pose proof (I_pos p q x Hp Hq ltac:(lra)). lra.
Qed.
Lemma P_strict a x y : 0 < a -> 0 <= x -> x < y -> P a x < P a y.
Proof.
  intros Ha Hx Hxy. destruct (Req_dec x 0) as [->|N]; [rewrite P_0 by lra; apply P_pos; lra|].
  rewrite !P_in by lra. apply Rmult_lt_compat_r; [apply Rinv_0_lt_compat, Gam_pos, Ha|]. apply lgam_strict; lra.
Qed.
Lemma I_strict p q x y : 0 < p -> 0 < q -> 0 <= x -> x < y -> y <= 1 -> I p q x < I p q y.
Proof.
  intros Hp Hq Hx Hxy Hy. destruct (Req_dec x 0) as [->|N].
  - rewrite I_0 by lra. destruct (Req_dec y 1) as [->|N1]; [rewrite I_1; lra|]. apply I_pos; lra.
  - destruct (Req_dec y 1) as [->|N1]; [rewrite (I_1 p q 1) by lra; apply I_pos; lra|].
    rewrite !I_in by lra. apply Rmult_lt_compat_r; [apply Rinv_0_lt_compat, Bet_pos; assumption|]. apply lbet_strict; lra.
Qed.
Lemma P_onto a u : 0 < a -> 0 < u < 1 -> exists x, 0 < x /\ P a x = u.
Proof.
  intros Ha Hu. pose proof (Gam_pos a Ha).
  destruct (prim_onto p_infty (lgam a) (gterm a) (Gam a) (lgam_prim a Ha)) with (p := u * Gam a) as (x & Dx & E).
  - intros. apply Rlt_le, gterm_pos.
  - exact dom_inf_ex.
  - apply Gam_lim, Ha.
  - nra.
  - apply dom_inf in Dx. exists x. split; [exact Dx|]. rewrite P_in, E by exact Dx. field. lra.
Qed.
Lemma I_onto p q u : 0 < p -> 0 < q -> 0 < u < 1 -> exists x, 0 < x < 1 /\ I p q x = u.
Proof.
  intros Hp Hq Hu. pose proof (Bet_pos p q Hp Hq).
  destruct (prim_onto (Finite 1) (lbet p q) (bterm p q) (Bet p q) (lbet_prim p q Hp Hq)) with (p := u * Bet p q) as (x & Dx & E).
  - intros. apply Rlt_le, bterm_pos.
  - exact dom_1_ex.
  - apply Bet_lim; assumption.
  - nra.
  - apply (proj1 (dom_1 _)) in Dx. exists x. split; [exact Dx|]. rewrite I_in, E by exact Dx. field. lra.
Qed.
Lemma is_derive_const_div (F : R -> R) x f c : is_derive F x f -> is_derive (fun t => F t / c) x (f / c).
Proof.
  intros H. apply is_derive_ext with (fun t => / c * F t); [intros t; unfold Rdiv; apply Rmult_comm|].
  eapply is_derive_val; [apply is_derive_scal; exact H|]. unfold Rdiv. ring.
Qed.
Lemma is_derive_near (F F' : R -> R) x f lo hi : lo < x < hi -> (forall t, lo < t < hi -> F t = F' t) -> is_derive F x f -> is_derive F' x f.
Proof.
  intros Hx E H. apply (is_derive_ext_loc F); [|exact H].
  assert (K : 0 < Rmin (x - lo) (hi - x)) by (apply Rmin_pos; lra). exists (mkposreal _ K). intros y Hy.
  assert (L : Rabs (y - x) < Rmin (x - lo) (hi - x)) by exact Hy. apply Rabs_def2 in L.
  pose proof (Rmin_l (x - lo) (hi - x)). pose proof (Rmin_r (x - lo) (hi - x)). apply E. lra.
Qed.
Lemma P_deriv a x : 0 < a -> 0 < x -> is_derive (P a) x (gterm a x / Gam a).
Proof.
  intros Ha Hx. apply (is_derive_near (fun t => lgam a t / Gam a) _ x _ 0 (x + 1)); [lra| |].
  - intros t Ht. rewrite P_in by lra. reflexivity.
  - apply is_derive_const_div, lgam_deriv; assumption.
Qed.
Lemma I_deriv p q x : 0 < p -> 0 < q -> 0 < x < 1 -> is_derive (I p q) x (bterm p q x / Bet p q).
Proof.
  intros Hp Hq Hx. apply (is_derive_near (fun t => lbet p q t / Bet p q) _ x _ 0 1); [lra| |].
  - intros t Ht. rewrite I_in by lra. reflexivity.
  - apply is_derive_const_div, lbet_deriv; assumption.
Qed.

(** Exact inverses exist. *)
Definition P_inverse (a u : R) : R := real (Lub_Rbar (fun x => 0 < x /\ P a x <= u)).
Definition I_inverse (p q u : R) : R := real (Lub_Rbar (fun x => 0 < x < 1 /\ I p q x <= u)).
Lemma P_inverse_ok a u : 0 < a -> 0 < u < 1 -> 0 < P_inverse a u /\ P a (P_inverse a u) = u.
Proof.
  intros Ha Hu. destruct (P_onto a u Ha Hu) as (x & Hx & E). unfold P_inverse.
  replace (Lub_Rbar (fun x => 0 < x /\ P a x <= u)) with (Finite x); [cbn; auto|]. symmetry. apply is_lub_Rbar_unique. split.
  - intros y [Hy Hy2]. cbn. apply Rnot_lt_le. intros C. pose proof (P_strict a x y Ha ltac:(lra) C). lra.
  - intros b Hb. apply Hb. split; [exact Hx|lra].
Qed.
Lemma I_inverse_ok p q u : 0 < p -> 0 < q -> 0 < u < 1 -> 0 < I_inverse p q u < 1 /\ I p q (I_inverse p q u) = u.
Proof.
  intros Hp Hq Hu. destruct (I_onto p q u Hp Hq Hu) as (x & Hx & E). unfold I_inverse.
  replace (Lub_Rbar (fun x => 0 < x < 1 /\ I p q x <= u)) with (Finite x); [cbn; auto|]. symmetry. apply is_lub_Rbar_unique. split.
  - intros y [Hy Hy2]. cbn. apply Rnot_lt_le. intros C. pose proof (I_strict p q x y Hp Hq ltac:(lra) C ltac:(lra)). lra.
  - intros b Hb. apply Hb. split; [exact Hx|lra].
Qed.

Lemma P_galois a x0 u y : 0 < a -> 0 < x0 -> P a x0 = u -> (x0 <= y <-> u <= P a y).
Proof.
  intros Ha Hx0 E. split; intros H.
  - destruct H as [H| <-]; [|lra]. pose proof (P_strict a x0 y Ha ltac:(lra) H). lra.
  - apply Rnot_lt_le. intros C. pose proof (P_pos a x0 Ha Hx0). destruct (Rle_dec y 0).
    + rewrite P_0 in H by assumption. lra.
    + pose proof (P_strict a y x0 Ha ltac:(lra) C). lra.
Qed.
Lemma I_galois p q x0 u y : 0 < p -> 0 < q -> 0 < x0 < 1 -> I p q x0 = u -> (x0 <= y <-> u <= I p q y).
Proof.
  intros Hp Hq Hx0 E. pose proof (I_pos p q x0 Hp Hq Hx0) as HP. split; intros H.
  - destruct H as [H| <-]; [|lra]. destruct (Rle_dec 1 y).
    + rewrite I_1 by assumption. lra.
    + pose proof (I_strict p q x0 y Hp Hq ltac:(lra) H ltac:(lra)). lra.
  - apply Rnot_lt_le. intros C. destruct (Rle_dec y 0).
    + rewrite I_0 in H by assumption. lra.
    + pose proof (I_strict p q y x0 Hp Hq ltac:(lra) C ltac:(lra)). lra.
Qed.
Lemma div_sign x c : 0 < c -> (x / c <= 0 <-> x <= 0).
Proof.
  intros Hc. assert (0 < / c) by (apply Rinv_0_lt_compat; exact Hc). unfold Rdiv. split; intros; nra.
Qed.
Lemma le_scale y x c : 0 < c -> (y * c <= x <-> y <= x / c).
Proof.
  intros Hc. split; intros H.
  - apply (Rmult_le_reg_r c); [exact Hc|]. replace (x / c * c) with x by (field; lra). exact H.
  - apply (Rmult_le_compat_r c) in H; [|lra]. replace (x / c * c) with x in H by (field; lra). exact H.
Qed.

(** ** gamma_dist *)
Section gamma.
Variables kappa theta : R.
Hypothesis Hk : 0 < kappa.
Hypothesis Ht : 0 < theta.
Lemma gam_cdf_P x : gam_cdf kappa theta x = P kappa (x / theta).
Proof.
  unfold gam_cdf. destruct (Rle_dec x 0) as [H|H].
  - rewrite P_0; [reflexivity|]. apply div_sign; assumption.
  - apply GammaP_P, Hk.
Qed.
Lemma gam_galois x0 u x : 0 < x0 -> GammaP kappa x0 = u -> (x0 * theta <= x <-> u <= gam_cdf kappa theta x).
Proof.
  intros Hx0 E. rewrite GammaP_P in E by exact Hk. rewrite gam_cdf_P, le_scale by exact Ht. apply P_galois; assumption.
Qed.
Lemma gam_inv x0 u : 0 < x0 -> GammaP kappa x0 = u -> gam_cdf kappa theta (x0 * theta) = u.
Proof.
  intros Hx0 E. rewrite GammaP_P in E by exact Hk. rewrite gam_cdf_P. replace (x0 * theta / theta) with x0 by (field; lra). exact E.
Qed.
Lemma gam_range x : 0 <= gam_cdf kappa theta x <= 1.
Proof. rewrite gam_cdf_P. apply P_range, Hk. Qed.
Lemma gam_cdf_deriv x : 0 < x -> is_derive (gam_cdf kappa theta) x (gterm kappa (x / theta) / Gam kappa / theta).
Proof.
  intros Hx. apply (is_derive_ext (fun t => P kappa (t / theta))); [intros t; symmetry; apply gam_cdf_P|].
  eapply is_derive_val.
  - apply (is_derive_circ (P kappa) (fun t => t / theta) x (gterm kappa (x / theta) / Gam kappa) (1 / theta)).
    + apply P_deriv; [exact Hk|]. apply Rdiv_lt_0_compat; assumption.
    + auto_derive; [trivial|]. field. lra.
  - field. pose proof (Gam_pos kappa Hk). lra.
Qed.
Lemma gam_pdf_val x : 0 < x -> gam_pdf kappa theta x = Fin (gterm kappa (x / theta) / Gam kappa / theta).
Proof.
  intros Hx. assert (Hy : 0 < x / theta) by (apply Rdiv_lt_0_compat; assumption).
  unfold gam_pdf. destruct (Rlt_dec x 0); [lra|]. cbv zeta. unfold xln. destruct (Rlt_dec (x / theta) 0); [lra|].
  destruct (Req_EM_T (x / theta) 0); [lra|]. cbn [xscale xshift xexp]. f_equal. f_equal.
  unfold gterm, Rpower. rewrite !exp_plus, (exp_Ropp (lgamma kappa)), exp_lgamma by exact Hk. unfold Rdiv. ring.
Qed.
Lemma gam_cdf_deriv_neg x : x < 0 -> is_derive (gam_cdf kappa theta) x 0.
Proof.
  intros Hx. apply (is_derive_near (fun _ => 0) _ x 0 (x - 1) 0); [lra| |apply (is_derive_const (K := R_AbsRing) (V := R_NormedModule))].
  intros t Ht'. unfold gam_cdf. destruct (Rle_dec t 0); [reflexivity|lra].
Qed.
End gamma.

(** ** chi_square_dist: the gamma distribution with kappa = nu/2, theta = 2 *)
Lemma chi_gam nu x : chi_cdf nu x = gam_cdf (IZR nu / 2) 2 x.
Proof. reflexivity. Qed.
Lemma chi_pdf_val nu x : (0 < nu)%Z -> 0 < x -> chi_pdf nu x = gam_pdf (IZR nu / 2) 2 x.
Proof.
  intros Hn Hx. apply IZR_lt in Hn. rewrite gam_pdf_val by lra. unfold chi_pdf. destruct (Rlt_dec x 0); [lra|]. cbv zeta.
  unfold xpow. destruct (Req_EM_T (x / 2) 0); [lra|]. f_equal. unfold gterm. rewrite exp_plus, exp_lgamma by lra.
  rewrite exp_Ropp. pose proof (exp_pos (x / 2)). pose proof (Gam_pos (IZR nu / 2) ltac:(lra)). field. lra.
Qed.

(** ** student_t_dist *)
Section student.
Variable nu : Z.
Hypothesis Hnu : (0 < nu)%Z.
Definition t1 (x : R) : R := sqrt (x * x + IZR nu).
Definition t2 (x : R) : R := (x + t1 x) / (2 * t1 x).
Lemma nu_pos : 0 < IZR nu.
Proof. apply (IZR_lt 0), Hnu. Qed.
Lemma t1_sq x : t1 x * t1 x = x * x + IZR nu.
Proof. apply sqrt_sqrt. pose proof nu_pos. nra. Qed.
Lemma t1_gt x : Rabs x < t1 x.
Proof. pose proof nu_pos. rewrite <- sqrt_Rsqr_abs. apply sqrt_lt_1_alt. unfold Rsqr. nra. Qed.
Lemma t1_pos x : 0 < t1 x.
Proof. pose proof (t1_gt x). pose proof (Rabs_pos x). lra. Qed.
Lemma t2_in x : 0 < t2 x < 1.
Proof.
  pose proof (t1_pos x). pose proof (t1_gt x) as G. apply Rabs_def2 in G. unfold t2. split.
  - apply Rdiv_lt_0_compat; lra.
  - apply (Rmult_lt_reg_r (2 * t1 x)); [lra|]. replace ((x + t1 x) / (2 * t1 x) * (2 * t1 x)) with (x + t1 x) by (field; lra). lra.
Qed.
Lemma t1_deriv x : is_derive t1 x (x / t1 x).
Proof.
  unfold t1. pose proof nu_pos. pose proof (t1_pos x). unfold t1 in H0. auto_derive; [nra|]. field. lra.
Qed.
Lemma t2_deriv x : is_derive t2 x (IZR nu / (2 * (t1 x * t1 x * t1 x))).
Proof.
  pose proof (t1_pos x). pose proof (t1_sq x).
  assert (D : is_derive (fun t => / (2 * t1 t)) x (- (2 * (x / t1 x)) / (2 * t1 x) ^ 2)).
  { apply (is_derive_inv (fun t => 2 * t1 t) x (2 * (x / t1 x))); [apply is_derive_scal, t1_deriv|lra]. }
  assert (D2 : is_derive (fun t => t + t1 t) x (1 + x / t1 x)).
  { apply (is_derive_plus (K := R_AbsRing) (V := R_NormedModule)); [apply (is_derive_id (K := R_AbsRing))|apply t1_deriv]. }
  unfold t2. eapply is_derive_val; [exact (is_derive_mul _ _ x _ _ D2 D)|].
  apply (Rmult_eq_reg_r (2 * (t1 x * t1 x * t1 x))).
  2:{ apply Rgt_not_eq. apply Rmult_lt_0_compat; [lra|]. apply Rmult_lt_0_compat; [apply Rmult_lt_0_compat|]; lra. }
  replace (IZR nu) with (t1 x * t1 x - x * x) by lra. field. lra.
Qed.
Lemma t2_strict x y : x < y -> t2 x < t2 y.
Proof.
  intros H. apply (strict_cc t2 (fun t => IZR nu / (2 * (t1 t * t1 t * t1 t)))); [exact H|intros; apply t2_deriv|].
  intros t _. pose proof (t1_pos t). pose proof nu_pos. apply Rdiv_lt_0_compat; [lra|]. apply Rmult_lt_0_compat; [lra|].
  apply Rmult_lt_0_compat; [apply Rmult_lt_0_compat|]; lra.
Qed.
Lemma t2_le x y : x <= y <-> t2 x <= t2 y.
Proof.
  split; intros H.
  - destruct H as [H| ->]; [left; apply t2_strict, H|lra].
  - apply Rnot_lt_le. intros C. pose proof (t2_strict _ _ C). lra.
Qed.
Definition stu_q (t : R) : R := sqrt (IZR nu / (t * (1 - t))) * (t - 1 / 2).
Lemma t2_inv t : 0 < t < 1 -> t2 (stu_q t) = t.
Proof.
  intros H. pose proof nu_pos as Hn. assert (Hd : 0 < t * (1 - t)) by nra.
  assert (Hq : 0 < IZR nu / (t * (1 - t))) by (apply Rdiv_lt_0_compat; lra).
  set (s := sqrt (IZR nu / (t * (1 - t)))). assert (Hs : s * s = IZR nu / (t * (1 - t))) by (apply sqrt_sqrt; lra).
  assert (Hs0 : 0 < s) by (apply sqrt_lt_R0, Hq).
  assert (E : t1 (stu_q t) = s / 2).
  { unfold t1, stu_q. fold s. replace (s * (t - 1 / 2) * (s * (t - 1 / 2)) + IZR nu) with (s / 2 * (s / 2)).
    - apply sqrt_square. lra.
    - replace (IZR nu) with (s * s * (t * (1 - t))) by (rewrite Hs; field; lra). field. }
  unfold t2. rewrite E. unfold stu_q. fold s. field. lra.
Qed.
Definition stu_F (x : R) : R := I (IZR nu / 2) (IZR nu / 2) (t2 x).
Lemma stu_cdf_F x : stu_cdf nu x = Fin (stu_F x).
Proof.
  pose proof nu_pos. pose proof (t2_in x) as HT. unfold stu_cdf. cbv zeta. change ((x + sqrt (x * x + IZR nu)) / (2 * sqrt (x * x + IZR nu))) with (t2 x).
  apply Beta_I_I; lra.
Qed.
Lemma stu_range x : 0 <= stu_F x <= 1.
Proof. pose proof nu_pos. apply I_range; lra. Qed.
Lemma stu_galois t u x : 0 < t < 1 -> I (IZR nu / 2) (IZR nu / 2) t = u -> (stu_q t <= x <-> u <= stu_F x).
Proof.
  intros Ht E. pose proof nu_pos. rewrite t2_le, t2_inv by exact Ht. apply I_galois; [lra|lra|exact Ht|exact E].
Qed.
Lemma stu_F_inv t : 0 < t < 1 -> stu_F (stu_q t) = I (IZR nu / 2) (IZR nu / 2) t.
Proof. intros Ht. unfold stu_F. rewrite t2_inv by exact Ht. reflexivity. Qed.
Lemma stu_F_deriv x : is_derive stu_F x (bterm (IZR nu / 2) (IZR nu / 2) (t2 x) / Bet (IZR nu / 2) (IZR nu / 2) * (IZR nu / (2 * (t1 x * t1 x * t1 x)))).
Proof.
  pose proof nu_pos. eapply is_derive_val.
  - apply (is_derive_circ (I (IZR nu / 2) (IZR nu / 2)) t2 x).
    + apply I_deriv; [lra|lra|apply t2_in].
    + apply t2_deriv.
  - ring.
Qed.
Lemma Rpower_2 : Rpower 2 2 = 4.
Proof. replace 2 with (INR 2) at 2 by (cbn; ring). rewrite Rpower_pow by lra. ring. Qed.
Lemma stu_pdf_val x : (nu + 1 < 2 ^ 31)%Z -> stu_pdf nu x =
  Some (bterm (IZR nu / 2) (IZR nu / 2) (t2 x) / Bet (IZR nu / 2) (IZR nu / 2) * (IZR nu / (2 * (t1 x * t1 x * t1 x)))).
Proof.
  intros Hmax. unfold stu_pdf. replace (nu + 1 <? 2 ^ 31)%Z with true by (symmetry; apply Z.ltb_lt; exact Hmax). f_equal.
  cbv zeta. pose proof nu_pos as Hn. rewrite plus_IZR. set (v := IZR nu) in *.
  pose proof (t1_pos x) as H1. pose proof (t1_sq x) as H2. fold v in H2. pose proof (t2_in x) as H3.
  (* duplication *)
  assert (D : Gam v * sqrt PI = Rpower 2 (v - 1) * Gam (v / 2) * Gam ((v + 1) / 2)).
  { pose proof (Gam_dup (Z.to_nat nu) ltac:(lia)) as D. rewrite INR_IZR_INZ, Z2Nat.id in D by lia. exact D. }
  rewrite Bet_Gam by lra. replace (v / 2 + v / 2) with v by field.
  pose proof (Gam_pos (v / 2) ltac:(lra)) as G1. pose proof (Gam_pos v ltac:(lra)) as G2. pose proof (Gam_pos ((v + 1) / 2) ltac:(lra)) as G3.
  pose proof PI_RGT_0 as HP. assert (HsP : 0 < sqrt PI) by (apply sqrt_lt_R0, HP). assert (Hsv : 0 < sqrt v) by (apply sqrt_lt_R0, Hn).
  unfold Rminus at 1. rewrite exp_plus, exp_Ropp, !exp_lgamma by lra. rewrite sqrt_mult by lra.
  (* the two power factors *)
  set (L := ln v). set (T := ln (t1 x)).
  assert (Ev : v = exp L) by (unfold L; rewrite exp_ln by lra; reflexivity).
  assert (Et : t1 x = exp T) by (unfold T; rewrite exp_ln by lra; reflexivity).
  assert (Es : sqrt v = exp (L / 2)).
  { apply Rsqr_inj; [lra|left; apply exp_pos|]. unfold Rsqr. rewrite sqrt_sqrt by lra. rewrite <- exp_plus. rewrite Ev. f_equal. field. }
  assert (A : Rpower (1 + x * x / v) ((v + 1) / - (2)) = exp ((v + 1) / 2 * L - (v + 1) * T)).
  { replace (1 + x * x / v) with (t1 x * t1 x / v) by (rewrite H2; field; lra).
    unfold Rpower. f_equal. unfold Rdiv at 2. rewrite ln_mult; [|nra|apply Rinv_0_lt_compat; lra]. rewrite ln_mult, ln_Rinv by lra. fold L T. field. }
  assert (B : bterm (v / 2) (v / 2) (t2 x) = exp ((v / 2 - 1) * (L - 2 * T) - (v / 2 - 1) * ln 4)).
  { unfold bterm. rewrite Rpower_mult_distr by lra.
    replace (t2 x * (1 - t2 x)) with (v / (t1 x * t1 x * 4)).
    - unfold Rpower. f_equal. unfold Rdiv at 2. rewrite ln_mult; [|lra|apply Rinv_0_lt_compat; nra]. rewrite ln_Rinv by nra. rewrite !ln_mult by nra. fold L T. ring.
    - replace v with (t1 x * t1 x - x * x) by lra. unfold t2. field. lra. }
  assert (C : Rpower 2 (v - 1) = exp ((v / 2 - 1) * ln 4) * 2).
  { replace (ln 4) with (2 * ln 2).
    - transitivity (exp ((v / 2 - 1) * (2 * ln 2)) * exp (ln 2)); [|rewrite (exp_ln 2) by lra; reflexivity].
      unfold Rpower. rewrite <- exp_plus. f_equal. field.
    - replace 4 with (2 * 2) by ring. rewrite ln_mult by lra. ring. }
  rewrite A, B.
  assert (E1 : / (Gam (v / 2) * Gam (v / 2) / Gam v) = Rpower 2 (v - 1) * Gam ((v + 1) / 2) / (sqrt PI * Gam (v / 2))).
  { replace (Gam v) with (Rpower 2 (v - 1) * Gam (v / 2) * Gam ((v + 1) / 2) / sqrt PI) by (rewrite <- D; field; lra).
    pose proof (Rpower_pos 2 (v - 1)). field. repeat split; try lra. }
  match goal with |- context [?X / (Gam (v / 2) * Gam (v / 2) / Gam v)] =>
    change (X / (Gam (v / 2) * Gam (v / 2) / Gam v)) with (X * / (Gam (v / 2) * Gam (v / 2) / Gam v)) end.
  rewrite E1, C.
  assert (E2 : exp ((v + 1) / 2 * L - (v + 1) * T) / sqrt v = exp ((v / 2 - 1) * (L - 2 * T)) * (v / (t1 x * t1 x * t1 x))).
  { rewrite Es, Et. transitivity (exp ((v / 2 - 1) * (L - 2 * T)) * (exp L * / (exp T * exp T * exp T))).
    - change (exp ((v + 1) / 2 * L - (v + 1) * T) / exp (L / 2)) with (exp ((v + 1) / 2 * L - (v + 1) * T) * / exp (L / 2)).
      rewrite <- !exp_plus, <- !exp_Ropp, <- !exp_plus. f_equal. field.
    - rewrite <- Ev. reflexivity. }
  replace ((v / 2 - 1) * (L - 2 * T) - (v / 2 - 1) * ln 4) with ((v / 2 - 1) * (L - 2 * T) + - ((v / 2 - 1) * ln 4)) by ring.
  rewrite exp_plus, exp_Ropp. pose proof (exp_pos ((v / 2 - 1) * ln 4)).
  replace (Gam ((v + 1) / 2) * / Gam (v / 2) / (sqrt PI * sqrt v) * exp ((v + 1) / 2 * L - (v + 1) * T))
    with (Gam ((v + 1) / 2) / Gam (v / 2) / sqrt PI * (exp ((v + 1) / 2 * L - (v + 1) * T) / sqrt v)) by (field; lra).
  rewrite E2. field. repeat split; lra.
Qed.
Lemma stu_icdf_in t : 0 < t < 1 -> match xdiv (IZR nu) (t * (1 - t)) with Fin r => Fin (sqrt r * (t - 1 / 2)) | v => xscale (t - 1 / 2) v end = Fin (stu_q t).
Proof. intros Ht. unfold xdiv. destruct (Req_EM_T (t * (1 - t)) 0) as [E|E]; [nra|reflexivity]. Qed.
End student.

(** ** snedecor_f_dist *)
Section snedecor.
Variables n m : Z.
Hypothesis Hn : (0 < n)%Z.
Hypothesis Hm : (0 < m)%Z.
Lemma n_pos : 0 < IZR n. Proof. apply (IZR_lt 0), Hn. Qed.
Lemma m_pos : 0 < IZR m. Proof. apply (IZR_lt 0), Hm. Qed.
Definition tt (x : R) : R := IZR n * x / (IZR m + IZR n * x).
Definition sne_F (x : R) : R := if Rle_dec x 0 then 0 else I (1 / 2 * IZR n) (1 / 2 * IZR m) (tt x).
Definition sne_q (t : R) : R := t / (1 - t) * IZR m / IZR n.
Lemma tt_in x : 0 < x -> 0 < tt x < 1.
Proof.
  intros Hx. pose proof n_pos. pose proof m_pos. assert (0 < IZR n * x) by nra. unfold tt. split; [apply Rdiv_lt_0_compat; lra|].
  apply (Rmult_lt_reg_r (IZR m + IZR n * x)); [lra|]. unfold Rdiv. rewrite Rmult_assoc, Rinv_l by lra. lra.
Qed.
Lemma sne_cdf_F x : 0 <= x -> sne_cdf n m x = Fin (sne_F x).
Proof.
  intros Hx. pose proof n_pos. pose proof m_pos. unfold sne_cdf. cbv zeta. unfold xdiv.
  assert (0 <= IZR n * x) by nra. destruct (Req_EM_T (IZR m + IZR n * x) 0); [lra|]. fold (tt x). unfold sne_F.
  destruct (Rle_dec x 0) as [Hx0|Hx0].
  - assert (E : x = 0) by lra. unfold tt. rewrite E, Rmult_0_r. unfold Rdiv. rewrite Rmult_0_l.
    rewrite Beta_I_I by lra. rewrite I_0 by lra. reflexivity.
  - pose proof (tt_in x ltac:(lra)). apply Beta_I_I; lra.
Qed.
Lemma sne_cdf_below x : x < 0 -> sne_cdf n m x = NaN.
Proof.
  intros Hx. pose proof n_pos. pose proof m_pos. unfold sne_cdf. cbv zeta. unfold xdiv.
  assert (IZR n * x < 0) by nra. destruct (Req_EM_T (IZR m + IZR n * x) 0) as [E|E].
  - destruct (Rlt_dec 0 (IZR n * x)); [lra|]. destruct (Rlt_dec (IZR n * x) 0); [reflexivity|lra].
  - rewrite Beta_Bet by lra. unfold Beta_I. destruct (Rle_dec (1 / 2 * IZR n) 0); [lra|]. destruct (Rle_dec (1 / 2 * IZR m) 0); [lra|].
    destruct (Rlt_dec (IZR n * x / (IZR m + IZR n * x)) 0) as [A|A]; [reflexivity|].
    destruct (Rlt_dec 1 (IZR n * x / (IZR m + IZR n * x))) as [B|B]; [reflexivity|]. exfalso.
    destruct (Rlt_dec 0 (IZR m + IZR n * x)) as [C|C].
    + apply A. assert (0 < / (IZR m + IZR n * x)) by (apply Rinv_0_lt_compat, C). unfold Rdiv. nra.
    + apply B. assert (Hd : IZR m + IZR n * x < 0) by lra. assert (/ (IZR m + IZR n * x) < 0) by (apply Rinv_lt_0_compat, Hd).
      replace (IZR n * x / (IZR m + IZR n * x)) with (1 - IZR m * / (IZR m + IZR n * x)) by (field; lra). nra.
Qed.
Lemma sne_range x : 0 <= sne_F x <= 1.
Proof. pose proof n_pos. pose proof m_pos. unfold sne_F. destruct (Rle_dec x 0); [lra|]. apply I_range; lra. Qed.
Lemma sne_q_pos t : 0 < t < 1 -> 0 < sne_q t.
Proof.
  intros Ht. pose proof n_pos. pose proof m_pos. unfold sne_q. apply Rdiv_lt_0_compat; [|lra]. apply Rmult_lt_0_compat; [|lra].
  apply Rdiv_lt_0_compat; lra.
Qed.
Lemma tt_inv t : 0 < t < 1 -> tt (sne_q t) = t.
Proof. intros Ht. pose proof n_pos. pose proof m_pos. unfold tt, sne_q. field. repeat split; lra. Qed.
Lemma tt_deriv x : 0 < x -> is_derive tt x (IZR n * IZR m / ((IZR m + IZR n * x) * (IZR m + IZR n * x))).
Proof.
  intros Hx. pose proof n_pos. pose proof m_pos. assert (0 < IZR n * x) by nra. unfold tt. auto_derive; [lra|]. field. lra.
Qed.
Lemma tt_strict x y : 0 < x -> x < y -> tt x < tt y.
Proof.
  intros Hx H. apply (strict_cc tt (fun t => IZR n * IZR m / ((IZR m + IZR n * t) * (IZR m + IZR n * t)))); [exact H| |].
  - intros t Ht. apply tt_deriv. lra.
  - intros t Ht. pose proof n_pos. pose proof m_pos. assert (0 < IZR n * t) by nra.
    apply Rdiv_lt_0_compat; [nra|]. apply Rmult_lt_0_compat; lra.
Qed.
Lemma sne_galois t u x : 0 < t < 1 -> I (1 / 2 * IZR n) (1 / 2 * IZR m) t = u -> (sne_q t <= x <-> u <= sne_F x).
Proof.
  intros Ht E. pose proof n_pos. pose proof m_pos. pose proof (sne_q_pos t Ht) as Hq.
  pose proof (I_pos (1 / 2 * IZR n) (1 / 2 * IZR m) t ltac:(lra) ltac:(lra) Ht) as HI. unfold sne_F.
  destruct (Rle_dec x 0) as [Hx|Hx]; [split; intros; lra|].
  rewrite <- (I_galois _ _ t u (tt x)); [|lra|lra|exact Ht|exact E]. rewrite <- (tt_inv t Ht) at 2. split; intros A.
  - destruct A as [A| <-]; [left; apply tt_strict; assumption|lra].
  - apply Rnot_lt_le. intros C. pose proof (tt_strict x (sne_q t) ltac:(lra) C). lra.
Qed.
Lemma sne_F_inv t : 0 < t < 1 -> sne_F (sne_q t) = I (1 / 2 * IZR n) (1 / 2 * IZR m) t.
Proof. intros Ht. unfold sne_F. pose proof (sne_q_pos t Ht). destruct (Rle_dec (sne_q t) 0); [lra|]. rewrite tt_inv by exact Ht. reflexivity. Qed.
Definition sne_f (x : R) : R :=
  bterm (1 / 2 * IZR n) (1 / 2 * IZR m) (tt x) / Bet (1 / 2 * IZR n) (1 / 2 * IZR m) * (IZR n * IZR m / ((IZR m + IZR n * x) * (IZR m + IZR n * x))).
Lemma sne_F_deriv x : 0 < x -> is_derive sne_F x (sne_f x).
Proof.
  intros Hx. pose proof n_pos. pose proof m_pos.
  apply (is_derive_near (fun t => I (1 / 2 * IZR n) (1 / 2 * IZR m) (tt t)) _ x _ 0 (x + 1)); [lra| |].
  - intros t Ht. unfold sne_F. destruct (Rle_dec t 0); [lra|reflexivity].
  - eapply is_derive_val.
    + apply (is_derive_circ (I (1 / 2 * IZR n) (1 / 2 * IZR m)) tt x).
      * apply I_deriv; [lra|lra|apply tt_in, Hx].
      * apply tt_deriv, Hx.
    + unfold sne_f. ring.
Qed.
Lemma sne_pdf_val x : 0 < x -> sne_pdf n m x = Fin (sne_f x).
Proof.
  intros Hx. pose proof n_pos as Hn'. pose proof m_pos as Hm'. unfold sne_pdf. cbv zeta. unfold xln.
  set (a := IZR n) in *. set (b := IZR m) in *. assert (Hax : 0 < a * x) by nra.
  assert (H1 : 0 < 1 + a * x / b) by (assert (0 < a * x / b) by (apply Rdiv_lt_0_compat; lra); lra).
  destruct (Rlt_dec x 0); [lra|]. destruct (Req_EM_T x 0); [lra|]. destruct (Rlt_dec (1 + a * x / b) 0); [lra|].
  destruct (Req_EM_T (1 + a * x / b) 0); [lra|]. cbn [xscale xadd xshift xexp]. f_equal.
  unfold sne_f. fold a b. rewrite Bet_Gam by lra. replace (1 / 2 * a + 1 / 2 * b) with (1 / 2 * (a + b)) by ring.
  rewrite !exp_plus, (exp_Ropp (lgamma (1 / 2 * a))), (exp_Ropp (lgamma (1 / 2 * b))), !exp_lgamma by lra.
  pose proof (Gam_pos (1 / 2 * a) ltac:(lra)) as G1. pose proof (Gam_pos (1 / 2 * b) ltac:(lra)) as G2. pose proof (Gam_pos (1 / 2 * (a + b)) ltac:(lra)) as G3.
  set (A := ln a). set (B := ln b). set (X := ln x). set (M := ln (b + a * x)).
  assert (Ea : a = exp A) by (unfold A; rewrite exp_ln by lra; reflexivity).
  assert (Eb : b = exp B) by (unfold B; rewrite exp_ln by lra; reflexivity).
  assert (Ex : x = exp X) by (unfold X; rewrite exp_ln by lra; reflexivity).
  assert (Em : b + a * x = exp M) by (unfold M; rewrite exp_ln by lra; reflexivity).
  assert (Etb : bterm (1 / 2 * a) (1 / 2 * b) (tt x) = exp ((1 / 2 * a - 1) * (A + X - M) + (1 / 2 * b - 1) * (B - M))).
  { unfold bterm, Rpower. rewrite <- exp_plus. f_equal. f_equal; f_equal.
    - unfold tt. fold a b. unfold Rdiv. rewrite ln_mult; [|lra|apply Rinv_0_lt_compat; lra]. rewrite ln_mult, ln_Rinv by lra. fold A X M. ring.
    - unfold tt. fold a b. replace (1 - a * x / (b + a * x)) with (b / (b + a * x)) by (field; lra).
      unfold Rdiv. rewrite ln_mult; [|lra|apply Rinv_0_lt_compat; lra]. rewrite ln_Rinv by lra. fold B M. ring. }
  rewrite Etb, Em.
  replace (ln (a / b)) with (A - B) by (unfold Rdiv; rewrite ln_mult, ln_Rinv; [unfold A, B; ring|lra|lra|apply Rinv_0_lt_compat; lra]).
  replace (ln (1 + a * x / b)) with (M - B).
  2:{ replace (1 + a * x / b) with ((b + a * x) / b) by (field; lra). unfold Rdiv. rewrite ln_mult; [|lra|apply Rinv_0_lt_compat; lra]. rewrite ln_Rinv by lra. reflexivity. }
  assert (K : exp (1 / 2 * (A - B) * a) * exp ((1 / 2 * a - 1) * X) * exp (- (1 / 2 * (a + b)) * (M - B)) =
              exp ((1 / 2 * a - 1) * (A + X - M) + (1 / 2 * b - 1) * (B - M)) * (a * b / (exp M * exp M))).
  { transitivity (exp ((1 / 2 * a - 1) * (A + X - M) + (1 / 2 * b - 1) * (B - M)) * (exp A * exp B * / (exp M * exp M))).
    - rewrite <- !exp_plus, <- exp_Ropp, <- !exp_plus. f_equal. field.
    - rewrite <- Ea, <- Eb. reflexivity. }
  replace (exp (1 / 2 * (A - B) * a) * exp ((1 / 2 * a - 1) * X) * exp (- (1 / 2 * (a + b)) * (M - B)) * / Gam (1 / 2 * a) * / Gam (1 / 2 * b) * Gam (1 / 2 * (a + b)))
    with ((exp (1 / 2 * (A - B) * a) * exp ((1 / 2 * a - 1) * X) * exp (- (1 / 2 * (a + b)) * (M - B))) * (/ Gam (1 / 2 * a) * / Gam (1 / 2 * b) * Gam (1 / 2 * (a + b)))) by ring.
  rewrite K. pose proof (exp_pos M). field. repeat split; lra.
Qed.
Lemma sne_icdf_in t : 0 < t < 1 -> match xdiv t (1 - t) with Fin r => Fin (r * IZR m / IZR n) | v => v end = Fin (sne_q t).
Proof. intros Ht. unfold xdiv. destruct (Req_EM_T (1 - t) 0) as [E|E]; [lra|reflexivity]. Qed.
End snedecor.

(** ** The improper integrals of Coquelicot *)
Section gen.
Variables (hi : Rbar) (F f : R -> R).
Hypothesis HF : prim hi F f.
Hypothesis HC : forall x, dom hi x -> continuous f x.
Lemma is_RInt_prim a b : dom hi a -> dom hi b -> is_RInt f a b (F b - F a).
Proof.
  intros Ha Hb. destruct HF as [HF' _]. apply (is_RInt_derive F f).
  - intros x Hx. apply HF'. unfold dom in *. revert Hx. unfold Rmin, Rmax. destruct (Rle_dec a b); intros Hx; destruct hi; cbn in *; split; lra.
  - intros x Hx. apply HC. unfold dom in *. revert Hx. unfold Rmin, Rmax. destruct (Rle_dec a b); intros Hx; destruct hi; cbn in *; split; lra.
Qed.
Lemma gen_from (G : (R -> Prop) -> Prop) (L : R) : (exists b, dom hi b) ->
  (forall e, 0 < e -> G (fun b => dom hi b /\ Rabs (F b - L) < e)) -> is_RInt_gen f (at_right 0) G L.
Proof.
  intros [b0 Hb0] HG Q [e He]. destruct HF as [_ H0]. pose proof (cond_pos e) as Hp.
  destruct (H0 (e / 2) ltac:(lra)) as (d & Hd & Ed).
  apply (Filter_prod _ _ _ (fun a => 0 < a /\ a <= d /\ a <= b0) (fun b => dom hi b /\ Rabs (F b - L) < e / 2)).
  - assert (Hm : 0 < Rmin d b0) by (apply Rmin_glb_lt; [exact Hd|apply Hb0]). exists (mkposreal _ Hm). intros a Ha Ha0.
    apply Rabs_def2 in Ha. cbn in Ha. unfold minus, plus, opp in Ha. cbn in Ha. pose proof (Rmin_l d b0). pose proof (Rmin_r d b0). lra.
  - apply HG. lra.
  - intros a b (Ha & Hda & Hab) (Hb & Eb). exists (F b - F a). split.
    + apply is_RInt_prim; [apply (dom_down hi b0); assumption|exact Hb].
    + apply He. change (Rabs (F b - F a - L) < e). specialize (Ed a Ha Hda). rewrite Rminus_0_r in Ed.
      replace (F b - F a - L) with ((F b - L) + - F a) by ring. eapply Rle_lt_trans; [apply Rabs_triang|]. rewrite Rabs_Ropp. lra.
Qed.
Lemma gen_point x : dom hi x -> is_RInt_gen f (at_right 0) (Hierarchy.at_point x) (F x).
Proof.
  intros Hx. apply gen_from; [exists x; exact Hx|]. intros e He. unfold Hierarchy.at_point. split; [exact Hx|].
  replace (F x - F x) with 0 by ring. rewrite Rabs_R0. exact He.
Qed.
End gen.
Lemma gen_infty F f L : prim p_infty F f -> (forall x, dom p_infty x -> continuous f x) -> ltop p_infty F L ->
  is_RInt_gen f (at_right 0) (Rbar_locally p_infty) L.
Proof.
  intros HF HC HL. apply (gen_from p_infty F f HF HC); [exists 1; apply dom_inf; lra|]. intros e He.
  destruct (HL e He) as (b & Db & E). exists b. intros x Hx. assert (D : dom p_infty x) by (apply dom_inf in Db; apply dom_inf; lra).
  split; [exact D|]. apply E; [exact D|lra].
Qed.
Lemma gen_left F f L : prim (Finite 1) F f -> (forall x, dom (Finite 1) x -> continuous f x) -> ltop (Finite 1) F L ->
  is_RInt_gen f (at_right 0) (at_left 1) L.
Proof.
  intros HF HC HL. apply (gen_from (Finite 1) F f HF HC); [exists (1 / 2); apply dom_1; lra|]. intros e He.
  destruct (HL e He) as (b & Db & E). apply (proj1 (dom_1 _)) in Db. assert (H : 0 < 1 - b) by lra. exists (mkposreal _ H). intros x Hx Hx1.
  apply Rabs_def2 in Hx. cbn in Hx. unfold minus, plus, opp in Hx. cbn in Hx.
  assert (D : dom (Finite 1) x) by (apply dom_1; lra). split; [exact D|]. apply E; [exact D|lra].
Qed.
Lemma lgam_gen a x : 0 < a -> 0 < x -> is_RInt_gen (gterm a) (at_right 0) (Hierarchy.at_point x) (lgam a x).
Proof.
  intros Ha Hx. apply (gen_point p_infty); [apply lgam_prim, Ha| |apply dom_inf, Hx]. intros y Dy. apply gterm_cont, dom_inf, Dy.
Qed.
Lemma Gam_gen a : 0 < a -> is_RInt_gen (gterm a) (at_right 0) (Rbar_locally p_infty) (Gam a).
Proof.
  intros Ha. apply (gen_infty (lgam a)); [apply lgam_prim, Ha| |apply Gam_lim, Ha]. intros y Dy. apply gterm_cont, dom_inf, Dy.
Qed.
Lemma lbet_gen p q x : 0 < p -> 0 < q -> 0 < x < 1 -> is_RInt_gen (bterm p q) (at_right 0) (Hierarchy.at_point x) (lbet p q x).
Proof.
  intros Hp Hq Hx. apply (gen_point (Finite 1)); [apply lbet_prim; assumption| |apply dom_1, Hx]. intros y Dy. apply bterm_cont, dom_1, Dy.
Qed.
Lemma Bet_gen p q : 0 < p -> 0 < q -> is_RInt_gen (bterm p q) (at_right 0) (at_left 1) (Bet p q).
Proof.
  intros Hp Hq. apply (gen_left (lbet p q)); [apply lbet_prim; assumption| |apply Bet_lim; assumption]. intros y Dy. apply bterm_cont, dom_1, Dy.
Qed.
Lemma gen_unique (f : R -> R) G (v w : R) {FG : ProperFilter G} : is_RInt_gen f (at_right 0) G v -> is_RInt_gen f (at_right 0) G w -> v = w.
Proof.
  intros Hv Hw. rewrite <- (is_RInt_gen_unique f v Hv). rewrite <- (is_RInt_gen_unique f w Hw). reflexivity.
Qed.

(** ** Draws that are cut off at both ends *)
Lemma probability_split (g : R -> R) p : 0 <= p <= 1 -> (forall u, 0 < u < p -> g u = 1) -> (forall u, p < u < 1 -> g u = 0) ->
  is_RInt g 0 1 p.
Proof.
  intros Hp H1 H0. replace p with (plus p 0) at 1 by (unfold plus; cbn; ring). apply (is_RInt_Chasles g 0 p 1).
  - apply (is_RInt_ext (fun _ => 1)).
    + intros u. rewrite Rmin_left, Rmax_right by lra. intros Hu. symmetry. apply H1, Hu.
    + replace p with (scal (p - 0) 1) at 2 by (unfold scal; cbn; unfold mult; cbn; ring). apply (is_RInt_const (V := R_NormedModule)).
  - apply (is_RInt_ext (fun _ => 0)).
    + intros u. rewrite Rmin_left, Rmax_right by lra. intros Hu. symmetry. apply H0, Hu.
    + pose proof (is_RInt_const (V := R_NormedModule) p 1 (0 : R)) as K. unfold scal in K. cbn in K. unfold mult in K. cbn in K.
      rewrite Rmult_0_r in K. exact K.
Qed.
Lemma epsilon_bounds : 0 < epsilon < 1 / 2.
Proof. unfold epsilon. split; [apply Rinv_0_lt_compat, pow_lt; lra|]. replace (1 / 2) with (/ 2) by field. apply Rinv_lt_contravar; [|]; cbn; lra. Qed.
(** value below epsilon, between, above; c = cdf x *)
Lemma probability_cut (g : R -> R) c : 0 <= c <= 1 ->
  (forall u, 0 < u < epsilon -> g u = 1) -> (forall u, 1 - epsilon < u < 1 -> g u = 0) ->
  (forall u, epsilon <= u <= 1 - epsilon -> u <= c -> g u = 1) -> (forall u, epsilon <= u <= 1 - epsilon -> c < u -> g u = 0) ->
  exists p, is_RInt g 0 1 p /\ Rabs (p - c) <= epsilon.
Proof.
  intros Hc Hlo Hhi Hle Hgt. pose proof epsilon_bounds as He. exists (Rmax epsilon (Rmin (1 - epsilon) c)). split.
  - apply probability_split.
    + unfold Rmax, Rmin. destruct (Rle_dec (1 - epsilon) c); destruct (Rle_dec epsilon _); lra.
    + intros u Hu. destruct (Rlt_dec u epsilon); [apply Hlo; lra|]. unfold Rmax, Rmin in Hu.
      destruct (Rle_dec (1 - epsilon) c); destruct (Rle_dec epsilon _); try lra; apply Hle; lra.
    + intros u Hu. destruct (Rlt_dec (1 - epsilon) u); [apply Hhi; lra|]. unfold Rmax, Rmin in Hu.
      destruct (Rle_dec (1 - epsilon) c); destruct (Rle_dec epsilon _); try lra; apply Hgt; lra.
  - apply Rabs_le. unfold Rmax, Rmin. destruct (Rle_dec (1 - epsilon) c); destruct (Rle_dec epsilon _); lra.
Qed.
