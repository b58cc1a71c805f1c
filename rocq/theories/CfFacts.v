(** Integrals behind the continued fraction of the incomplete gamma function: V n is the integral of
    e^(-u) u^(a-1) ((u-x)/u)^n from x to infinity, and satisfies a recurrence with three terms. *)
From Coq Require Import Reals ZArith Lra Psatz Lia.
From Coquelicot Require Import Coquelicot.
From Verif Require Import Improper GammaFn.
Local Open Scope R_scope.

Section Tail.
Variables a x : R.
Hypothesis (Ha : 0 < a) (Hx : 0 < x).

Definition pp (u : R) : R := (u - x) / u.
Definition vf (n : nat) (u : R) : R := gterm a u * pp u ^ n.
Definition vw (n N : nat) : R := RInt (vf n) x (x + INR N).

Lemma pp_range u : x <= u -> 0 <= pp u <= 1.
Proof.
  intros H. unfold pp. split; [apply Rdiv_le_0_compat; lra|]. apply Rle_div_l; lra.
Qed.
Lemma gterm_deriv u : 0 < u -> is_derive (gterm a) u (- gterm a u + (a - 1) * (exp (- u) * Rpower u (a - 2))).
Proof.
  intros H. unfold gterm. assert (D1 : is_derive (fun t => exp (- t)) u (- exp (- u))) by (auto_derive; [trivial|ring]).
  eapply is_derive_val; [exact (is_derive_mul _ _ u _ _ D1 (is_derive_Rpower u (a - 1) H))|].
  replace (a - 1 - 1) with (a - 2) by ring. ring.
Qed.
Lemma pp_deriv u : 0 < u -> is_derive pp u (x / (u * u)).
Proof. intros H. unfold pp. auto_derive; [lra|]. field. lra. Qed.
Lemma pp_pow_deriv n u : 0 < u -> is_derive (fun t => pp t ^ n) u (INR n * pp u ^ pred n * (x / (u * u))).
Proof.
  intros H. pose proof (is_derive_pow pp n u _ (pp_deriv u H)) as D. eapply is_derive_val; [exact D|]. ring.
Qed.
Lemma vf_deriv n u : 0 < u -> ex_derive (vf n) u.
Proof. intros H. eexists. exact (is_derive_mul _ _ u _ _ (gterm_deriv u H) (pp_pow_deriv n u H)). Qed.
Lemma vf_cont n u : 0 < u -> continuous (vf n) u.
Proof. intros H. apply (ex_derive_continuous (vf n)). apply vf_deriv, H. Qed.
Lemma vf_int n b c : x <= b -> b <= c -> ex_RInt (vf n) b c.
Proof.
  intros Hb Hc. apply (ex_RInt_continuous (V := R_CompleteNormedModule)). intros z. rewrite Rmin_left, Rmax_right by lra.
  intros Hz. apply vf_cont. lra.
Qed.
Lemma vf_pos n u : x <= u -> 0 <= vf n u.
Proof. intros H. apply Rmult_le_pos; [left; apply gterm_pos|apply pow_le, pp_range, H]. Qed.
Lemma vf_dec n u : x <= u -> vf (S n) u <= vf n u.
Proof.
  intros H. unfold vf. apply Rmult_le_compat_l; [left; apply gterm_pos|]. cbn [pow].
  pose proof (pp_range u H) as P. assert (0 <= pp u ^ n) by (apply pow_le, P). nra.
Qed.

Lemma vw_incr n N : vw n N <= vw n (S N).
Proof.
  unfold vw. pose proof (pos_INR N) as P. rewrite S_INR.
  rewrite <- (RInt_Chasles (vf n) x (x + INR N) (x + (INR N + 1))) by (apply vf_int; lra).
  assert (0 <= RInt (vf n) (x + INR N) (x + (INR N + 1))).
  { apply RInt_ge_0; [lra|apply vf_int; lra|]. intros u Hu. apply vf_pos. lra. }
  change plus with Rplus. lra.
Qed.
Lemma vw_0_val N : vw 0 N = lgam a (x + INR N) - lgam a x.
Proof.
  unfold vw. pose proof (pos_INR N) as P. apply is_RInt_unique.
  apply (is_RInt_ext (gterm a)).
  - intros u _. unfold vf. cbn [pow]. symmetry. exact (Rmult_1_r (gterm a u)).
  - apply (is_RInt_derive (V := R_CompleteNormedModule) (lgam a) (gterm a)); intros u; rewrite Rmin_left, Rmax_right by lra; intros Hu.
    + apply lgam_deriv; lra.
    + apply (ex_derive_continuous (gterm a)). eexists. apply gterm_deriv. lra.
Qed.
Lemma vw_dec n N : vw (S n) N <= vw n N.
Proof.
  unfold vw. pose proof (pos_INR N) as P. apply RInt_le; [lra|apply vf_int; lra|apply vf_int; lra|]. intros u Hu. apply vf_dec. lra.
Qed.
Lemma vw_bound n N : vw n N <= Gam a - lgam a x.
Proof.
  assert (H : vw n N <= vw 0 N) by (induction n; [lra|]; pose proof (vw_dec n N); lra).
  rewrite vw_0_val in H. pose proof (pos_INR N). pose proof (lgam_lt_Gam a (x + INR N) Ha ltac:(lra)). lra.
Qed.
Definition V (n : nat) : R := real (Lim_seq (vw n)).
Lemma V_lim n : is_lim_seq (vw n) (V n).
Proof.
  assert (E : ex_finite_lim_seq (vw n)).
  { apply (ex_finite_lim_seq_incr _ (Gam a - lgam a x)); [apply vw_incr|apply vw_bound]. }
  apply Lim_seq_correct'. exact E.
Qed.
Lemma lim_infty F L : ltop p_infty F L -> is_lim_seq (fun N => F (x + INR N)) L.
Proof.
  intros H. apply is_lim_seq_spec. intros e. destruct (H e (cond_pos e)) as (b & D & E).
  destruct (archimed b) as [Ub _]. exists (Z.to_nat (up b)). intros N HN.
  assert (b < INR N).
  { apply Rlt_le_trans with (IZR (up b)); [exact Ub|]. rewrite INR_IZR_INZ. apply IZR_le. lia. }
  pose proof (pos_INR N). apply E; [apply dom_inf; lra|lra].
Qed.
Lemma V_0 : V 0 = Gam a - lgam a x.
Proof.
  assert (L : is_lim_seq (vw 0) (Gam a - lgam a x)).
  { apply (is_lim_seq_ext (fun N => lgam a (x + INR N) - lgam a x)); [intros N; symmetry; apply vw_0_val|].
    apply is_lim_seq_minus'; [apply lim_infty, Gam_lim, Ha|apply is_lim_seq_const]. }
  unfold V. rewrite (is_lim_seq_unique _ _ L). reflexivity.
Qed.
Lemma V_dec n : V (S n) <= V n.
Proof. exact (is_lim_seq_le _ _ (V (S n)) (V n) (vw_dec n) (V_lim (S n)) (V_lim n)). Qed.
Lemma V_pos n : 0 < V n.
Proof.
  apply Rlt_le_trans with (vw n 1).
  - unfold vw. change (INR 1) with 1. apply RInt_gt_0; [lra| |].
    + intros u Hu. apply Rmult_lt_0_compat; [apply gterm_pos|]. apply pow_lt. unfold pp. apply Rdiv_lt_0_compat; lra.
    + intros u Hu. apply vf_cont. lra.
  - apply (is_lim_seq_incr_compare (vw n)); [apply V_lim|apply vw_incr].
Qed.

(** The edge term. *)
Definition ve (n : nat) (u : R) : R := gterm a u * x * pp u ^ n.
Lemma ve_deriv n u : 0 < u -> is_derive (ve n) u (INR n * vf (pred n) u + (a - 1 - 2 * INR n - x) * vf n u + (INR n + 1 - a) * vf (S n) u).
Proof.
  intros H. unfold ve.
  assert (D : is_derive (fun t => gterm a t * x) u ((- gterm a u + (a - 1) * (exp (- u) * Rpower u (a - 2))) * x)).
  { eapply is_derive_val; [exact (is_derive_mul _ (fun _ => x) u _ 0 (gterm_deriv u H) (is_derive_const x u))|]. cbv beta. ring. }
  eapply is_derive_val; [exact (is_derive_mul _ _ u _ _ D (pp_pow_deriv n u H))|].
  unfold vf. set (e := exp (- u) * Rpower u (a - 2)).
  assert (E : gterm a u = e * u). { unfold gterm, e. rewrite (Rpower_S u (a - 1) H). replace (a - 1 - 1) with (a - 2) by ring. ring. }
  rewrite E. clearbody e. destruct n.
  - cbn [pow pred INR]. unfold pp. field. lra.
  - cbn [pred]. cbn [pow]. rewrite S_INR. set (q := pp u ^ n). set (k := INR n). clearbody q k. unfold pp. field. lra.
Qed.
Lemma ve_cont n u : 0 < u -> continuous (fun u => INR n * vf (pred n) u + (a - 1 - 2 * INR n - x) * vf n u + (INR n + 1 - a) * vf (S n) u) u.
Proof.
  intros H. apply (continuous_plus (V := R_NormedModule) (fun u => INR n * vf (pred n) u + (a - 1 - 2 * INR n - x) * vf n u)).
  - apply (continuous_plus (V := R_NormedModule) (fun u => INR n * vf (pred n) u)); apply (continuous_scal_r (V := R_NormedModule)), vf_cont, H.
  - apply (continuous_scal_r (V := R_NormedModule)), vf_cont, H.
Qed.
Lemma vw_rec n N : INR n * vw (pred n) N + (a - 1 - 2 * INR n - x) * vw n N + (INR n + 1 - a) * vw (S n) N = ve n (x + INR N) - ve n x.
Proof.
  pose proof (pos_INR N) as P. unfold vw.
  assert (I : forall m, is_RInt (vf m) x (x + INR N) (RInt (vf m) x (x + INR N))) by (intros m; apply (RInt_correct (V := R_CompleteNormedModule)), vf_int; lra).
  assert (L := is_RInt_plus (V := R_NormedModule) _ _ x (x + INR N) _ _
     (is_RInt_plus (V := R_NormedModule) _ _ x (x + INR N) _ _ (is_RInt_scal (V := R_NormedModule) _ _ _ (INR n) _ (I (pred n))) (is_RInt_scal (V := R_NormedModule) _ _ _ (a - 1 - 2 * INR n - x) _ (I n)))
     (is_RInt_scal (V := R_NormedModule) _ _ _ (INR n + 1 - a) _ (I (S n)))).
  assert (Rr : is_RInt (fun u => INR n * vf (pred n) u + (a - 1 - 2 * INR n - x) * vf n u + (INR n + 1 - a) * vf (S n) u) x (x + INR N) (ve n (x + INR N) - ve n x)).
  { apply (is_RInt_derive (V := R_CompleteNormedModule) (ve n)); intros u; rewrite Rmin_left, Rmax_right by lra; intros Hu; [apply ve_deriv; lra|apply ve_cont; lra]. }
  rewrite <- (is_RInt_unique _ _ _ _ Rr). symmetry. apply (is_RInt_unique (V := R_CompleteNormedModule)). exact L.
Qed.
Lemma ve_lim n : is_lim_seq (fun N => ve n (x + INR N)) 0.
Proof.
  assert (L : is_lim_seq (fun N => gterm a (x + INR N) * x) 0).
  { replace (Finite 0) with (Finite (0 * x)) by (f_equal; ring). apply is_lim_seq_mult'; [|apply is_lim_seq_const].
    apply (lim_infty (gterm a)). exact (edge_ltop (a - 1)). }
  apply (is_lim_seq_le_le (fun _ => 0) _ (fun N => gterm a (x + INR N) * x)); [|apply is_lim_seq_const|exact L].
  intros N. unfold ve. pose proof (pos_INR N) as P. pose proof (gterm_pos a (x + INR N)) as G. pose proof (pp_range (x + INR N) ltac:(lra)) as Q.
  assert (Q0 : 0 <= pp (x + INR N) ^ n) by (apply pow_le, Q).
  assert (Q1 : pp (x + INR N) ^ n <= 1). { rewrite <- (pow1 n). apply pow_incr, Q. }
  assert (0 < gterm a (x + INR N) * x) by (apply Rmult_lt_0_compat; assumption). nra.
Qed.
Lemma V_rec_edge n : INR n * V (pred n) + (a - 1 - 2 * INR n - x) * V n + (INR n + 1 - a) * V (S n) = - ve n x.
Proof.
  assert (L1 : is_lim_seq (fun N => INR n * vw (pred n) N + (a - 1 - 2 * INR n - x) * vw n N + (INR n + 1 - a) * vw (S n) N)
    (INR n * V (pred n) + (a - 1 - 2 * INR n - x) * V n + (INR n + 1 - a) * V (S n))).
  { apply is_lim_seq_plus'; [apply is_lim_seq_plus'|]; apply is_lim_seq_scal_l with (lu := Finite _), V_lim. }
  assert (L2 : is_lim_seq (fun N => INR n * vw (pred n) N + (a - 1 - 2 * INR n - x) * vw n N + (INR n + 1 - a) * vw (S n) N) (0 - ve n x)).
  { apply (is_lim_seq_ext (fun N => ve n (x + INR N) - ve n x)); [intros N; symmetry; apply vw_rec|].
    apply is_lim_seq_minus'; [apply ve_lim|apply is_lim_seq_const]. }
  apply is_lim_seq_unique in L1. apply is_lim_seq_unique in L2. rewrite L1 in L2. injection L2 as E. lra.
Qed.
Lemma V_rec n : (0 < n)%nat -> INR n * V (pred n) = (x + 1 - a + 2 * INR n) * V n - (INR n + 1 - a) * V (S n).
Proof.
  intros Hn. pose proof (V_rec_edge n) as E. unfold ve in E. replace (pp x) with 0 in E by (unfold pp; field; lra).
  rewrite pow_i in E by exact Hn. lra.
Qed.
Lemma V_rec_0 : exp (- x) * Rpower x a = (x + 1 - a) * V 0 - (1 - a) * V 1.
Proof.
  pose proof (V_rec_edge 0) as E. cbn [pred INR] in E. unfold ve in E. cbn [pow] in E. unfold gterm in E.
  rewrite (Rpower_S x a Hx). lra.
Qed.
End Tail.
