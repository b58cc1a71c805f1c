(** Error of the truncated asymptotic expansion of the incomplete Gamma function. *)
From Coq Require Import Reals Lra Lia Psatz ZArith List.
From Coquelicot Require Import Coquelicot.
From Verif Require Import Improper GaussInt GammaFn ContModel NormModel NormProofs AsyModel AsyFacts AsyTable.
Import ListNotations.
Local Open Scope R_scope.

(** ** The polynomial against g = s / m *)
Definition cC : R := 61 / 10 * (5 / 12) ^ 81.
Definition BB (s : R) : R := cE * s + cK * s ^ 27 + cC * s ^ 81.
Lemma cE_pos : 0 < cE.
Proof. unfold cE. apply Rdiv_lt_0_compat; [lra|apply pow_lt; lra]. Qed.
Lemma cK_pos : 0 < cK.
Proof. unfold cK. apply Rdiv_lt_0_compat; [lra|apply pow_lt; lra]. Qed.
Lemma cC_pos : 0 < cC.
Proof. unfold cC. apply Rmult_lt_0_compat; [lra|apply pow_lt; lra]. Qed.

Section near.
Variable b : bool.
Local Notation s := (ss b).
Local Notation h m := (GG (sg b * ss b m)).
Definition SS (m : R) : R := h m * h m + h m * (s m / m) + s m / m * (s m / m) + sg b * s m * (h m + s m / m).
Lemma SS_ge m : dom (side b) m -> s m <= 12 / 5 -> 1 <= SS m.
Proof.
  intros D Hs. pose proof (ss_pos b m D) as SP. pose proof (D_m b m D) as Hm. pose proof (D_u b m D) as Hu. destruct (ss_bounds b m D) as (A & B). unfold SS.
  set (g := s m / m) in *. assert (E : s m = g * m) by (unfold g; field; lra). assert (GP : 0 < g) by (apply Rdiv_lt_0_compat; lra). clearbody g. destruct b; cbn [sg] in *.
  - destruct (A eq_refl) as (_ & A2). pose proof (GG_right (ss true m) ltac:(lra)) as H. rewrite Rmult_1_l. set (H0 := GG (ss true m)) in *. clearbody H0.
    assert (K : 1 <= g * g + ss true m * g). { rewrite E in A2 |- *. assert (0 < m * m) by nra. apply (Rmult_le_reg_r (m * m)); [assumption|]. nra. }
    assert (0 <= H0 * H0 + H0 * g + ss true m * H0); [|lra]. assert (0 < H0 * g) by nra. assert (0 < ss true m * H0) by nra. nra.
  - destruct (B eq_refl) as (B1 & _). assert (G1 : 1 <= g) by (apply (Rmult_le_reg_r m); lra). replace (-1 * ss false m) with (- ss false m) by ring.
    pose proof (GG_left (ss false m) ltac:(lra)) as H. set (H0 := GG (- ss false m)) in *. clearbody H0. set (t := ss false m) in *.
    assert (M1 : m < 1) by lra. assert (TG : t <= g) by (rewrite E; nra). assert (K : 0 <= g * g - t * g) by nra.
    assert (HP : 1 <= H0) by nra. assert (L : 1 <= H0 * (H0 + 1 - t)).
    { clear - H Hs SP. assert (1 + 333 / 1000 * t + 83 / 1000 * t ^ 2 <= H0) by exact H. clear H. set (y := 1 + 333 / 1000 * t + 83 / 1000 * t ^ 2) in *.
      assert (Y : 1 <= y) by (unfold y; nra). assert (Z : 85 / 100 <= y + 1 - t) by (unfold y; nra). assert (1 <= y * (y + 1 - t)); [|nra].
      unfold y in *. destruct (Rle_dec t 1) as [C|C]; [nra|]. assert (118 / 100 <= 1 + 333 / 1000 * t + 83 / 1000 * t ^ 2) by nra. nra. }
    nra.
Qed.
(** derivative of g with respect to m *)
Definition g' (m : R) : R := (m / (s m * (1 + sg b * m)) * m - s m) / (m * m).
Lemma g_deriv m : dom (side b) m -> is_derive (fun m => s m / m) m (g' m).
Proof.
  intros D. pose proof (ss_pos b m D) as SP. pose proof (D_m b m D) as Hm. pose proof (D_u b m D) as Hu. unfold g'. eapply is_derive_val.
  - apply (is_derive_div s (fun m => m)); [apply ss_deriv, D|apply (is_derive_id (K := R_AbsRing))|lra].
  - unfold one. cbn. field. repeat split; lra.
Qed.
Lemma h_deriv m : dom (side b) m -> is_derive (fun m => h m) m (sg b * GG' (sg b * s m) * (m / (s m * (1 + sg b * m)))).
Proof.
  intros D. eapply is_derive_val.
  - apply (is_derive_circ GG (fun m => sg b * s m)); [apply GG_deriv|]. apply (is_derive_scal s m (sg b)). apply ss_deriv, D.
  - cbv beta. ring.
Qed.
(** s w' = (w (1 - S) - r) s', up to the derivative s' of s *)
Lemma w_ode m : dom (side b) m -> s m * (sg b * GG' (sg b * s m) * (m / (s m * (1 + sg b * m))) - g' m) =
  ((h m - s m / m) * (1 - SS m) - res (sg b * s m)) * (m / (s m * (1 + sg b * m))).
Proof.
  intros D. pose proof (ss_pos b m D) as SP. pose proof (D_m b m D) as Hm. pose proof (D_u b m D) as Hu. unfold SS, g', res. pose proof (sg_sq b) as Q.
  set (H := GG (sg b * s m)). set (H' := GG' (sg b * s m)). set (S := s m) in *. clearbody H H' S. set (c := sg b) in *. clearbody c.
  assert (E : c = 1 \/ c = -1) by nra. destruct E as [-> | ->]; field; repeat split; lra.
Qed.
Lemma near_deriv z : is_derive (fun y => cE * y + cK * y ^ 27) z (cE + 27 * cK * z ^ 26).
Proof. auto_derive; [trivial|]. change (pred 27) with 26%nat. replace (INR 27) with 27 by (cbn; lra). ring. Qed.
Lemma w_near t : (t = 1 \/ t = -1) -> forall m, dom (side b) m -> s m <= 12 / 5 -> t * (h m - s m / m) <= cE * s m + cK * s m ^ 27.
Proof.
  intros Ht m D Hs. pose proof cE_pos as PE. pose proof cK_pos as PK.
  assert (MON : forall x, 0 < x <= m -> dom (side b) x /\ s x <= 12 / 5).
  { intros x Hx. assert (Dx : dom (side b) x) by (apply (dom_down _ m); [exact D|lra|lra]). split; [exact Dx|]. apply Rle_trans with (s m); [|exact Hs].
    apply (mono_cc s (fun y => y / (s y * (1 + sg b * y)))); [lra| |]; intros y Hy; assert (Dy : dom (side b) y) by (apply (dom_down _ m); [exact D|lra|lra]).
    - apply ss_deriv, Dy.
    - pose proof (ss_pos b y Dy). pose proof (D_u b y Dy). pose proof (D_m b y Dy). apply Rdiv_le_0_compat; [lra|apply Rmult_lt_0_compat; lra]. }
  assert (K : (fun x => t * (h x - s x / x) - (cE * s x + cK * s x ^ 27)) m <= 0); [|cbv beta in K; lra].
  apply (barrier (fun x => t * (h x - s x / x) - (cE * s x + cK * s x ^ 27)) (fun x => t * (sg b * GG' (sg b * s x) * (x / (s x * (1 + sg b * x))) - g' x) - (cE + 27 * cK * s x ^ 26) * (x / (s x * (1 + sg b * x))))).
  - apply (D_m b m D).
  - intros x Hx. destruct (MON x Hx) as (Dx & _).
    apply (is_derive_minus (K := R_AbsRing) (V := R_NormedModule) (fun x => t * (h x - s x / x)) (fun x => cE * s x + cK * s x ^ 27)).
    + apply (is_derive_scal (fun x => h x - s x / x) x t). apply (is_derive_minus (K := R_AbsRing) (V := R_NormedModule) (fun x => h x) (fun x => s x / x)); [apply h_deriv, Dx|apply g_deriv, Dx].
    + eapply is_derive_val.
      * apply (is_derive_circ (fun y => cE * y + cK * y ^ 27) s); [apply near_deriv|apply ss_deriv, Dx].
      * ring.
  - intros x Hx F0. destruct (MON x Hx) as (Dx & Sx). pose proof (ss_pos b x Dx) as SP. pose proof (D_u b x Dx) as Hu. pose proof (D_m b x Dx) as Hm.
    pose proof (SS_ge x Dx Sx) as S1. pose proof (w_ode x Dx) as O.
    assert (RB : Rabs (res (sg b * s x)) <= cE * s x + 26 * cK * s x ^ 27).
    { pose proof (res_bound (sg b * s x)) as RB. rewrite Rabs_mult, sg_abs, Rmult_1_l, (Rabs_pos_eq (s x)) in RB by lra. exact (RB Sx). }
    apply Rabs_le_between in RB. set (d := x / (s x * (1 + sg b * x))) in *. assert (DP : 0 < d) by (apply Rdiv_lt_0_compat; [lra|apply Rmult_lt_0_compat; lra]).
    set (w' := sg b * GG' (sg b * s x) * d - g' x) in *. set (w := h x - s x / x) in *. set (S := SS x) in *. set (r := res (sg b * s x)) in *. clearbody d w' w S r.
    assert (P27 : s x ^ 27 = s x * s x ^ 26) by reflexivity. assert (P0 : 0 < s x ^ 26) by (apply pow_lt; lra). set (p := s x ^ 26) in *. clearbody p. rewrite P27 in *. set (y := s x) in *. clearbody y.
    apply (Rmult_le_reg_l y); [exact SP|]. rewrite Rmult_0_r.
    replace (y * (t * w' - (cE + 27 * cK * p) * d)) with (t * (y * w') - (cE * y + 27 * cK * (y * p)) * d) by ring. rewrite O.
    assert (YP : 0 < y * p) by nra. set (q := y * p) in *. clearbody q.
    assert (X : t * (w * (1 - S) - r) - (cE * y + 27 * cK * q) <= 0).
    { assert (T : - t * r <= cE * y + 26 * cK * q) by (destruct Ht as [-> | ->]; lra).
      assert (W : cE * y + cK * q < t * w) by lra. assert (V : t * w * (1 - S) <= (cE * y + cK * q) * (1 - S)) by (assert (0 <= S - 1) by lra; nra).
      assert (0 < cE * y) by nra. assert (0 < cK * q) by nra. replace (t * (w * (1 - S) - r)) with (t * w * (1 - S) + - t * r) by ring.
      assert ((cE * y + cK * q) * (1 - S) <= 0) by nra. lra. }
    nra.
  - pose proof (lbot_comp (fun y => GG (sg b * y)) s 1) as L1.
    assert (C1 : continuous (fun y => GG (sg b * y)) 0).
    { apply (ex_derive_continuous (fun y => GG (sg b * y))). eexists. apply (is_derive_circ GG (fun y => sg b * y)); [apply GG_deriv|]. apply (is_derive_scal (fun y => y) 0 (sg b)). apply (is_derive_id (K := R_AbsRing)). }
    specialize (L1 C1 ltac:(cbv beta; rewrite Rmult_0_r; exact GG_0) (ss_lbot b)).
    pose proof (lbot_comp (fun y => cE * y + cK * y ^ 27) s 0) as L2.
    assert (C2 : continuous (fun y => cE * y + cK * y ^ 27) 0).
    { apply (ex_derive_continuous (fun y => cE * y + cK * y ^ 27)). auto_derive. trivial. }
    specialize (L2 C2 ltac:(cbv beta; rewrite pow_i by lia; ring) (ss_lbot b)).
    pose proof (lbot_lin _ _ _ _ t (- t) L1 (gg_lbot b)) as L3. pose proof (lbot_lin _ _ _ _ 1 (-1) L3 L2) as L4. cbv beta in L4.
    intros e He. destruct (L4 e He) as (d & Hd & Ed). exists d. split; [exact Hd|]. intros x Hx Hxd. specialize (Ed x Hx Hxd).
    replace (t * (h x - s x / x) - (cE * s x + cK * s x ^ 27) - 0) with (1 * (t * h x + - t * (s x / x)) + -1 * (cE * s x + cK * s x ^ 27) - (1 * (t * 1 + - t * 1) + -1 * 0)) by ring. exact Ed.
Qed.
Lemma w_bound m : dom (side b) m -> Rabs (h m - s m / m) <= BB (s m).
Proof.
  intros D. pose proof (ss_pos b m D) as SP. pose proof cE_pos as PE. pose proof cK_pos as PK. pose proof cC_pos as PC. unfold BB.
  assert (P27 : 0 < s m ^ 27) by (apply pow_lt, SP). assert (P81 : 0 < s m ^ 81) by (apply pow_lt, SP).
  destruct (Rle_dec (s m) (12 / 5)) as [C|C].
  - pose proof (w_near 1 ltac:(lra) m D C) as A. pose proof (w_near (-1) ltac:(lra) m D C) as B.
    assert (0 <= cC * s m ^ 81) by nra. apply Rabs_le. lra.
  - assert (CC : 12 / 5 <= s m) by lra. pose proof (GG_far (sg b * s m)) as F. rewrite Rabs_mult, sg_abs, Rmult_1_l, (Rabs_pos_eq (s m)) in F by lra. specialize (F CC).
    pose proof (D_m b m D) as Hm. pose proof (D_u b m D) as Hu. destruct (ss_bounds b m D) as (A & B).
    assert (G : 0 < s m / m <= 1 + s m).
    { split; [apply Rdiv_lt_0_compat; lra|]. apply (proj2 (Rle_div_l _ _ _ Hm)). destruct b; cbn [sg] in *.
      - destruct (A eq_refl) as (A1 & _). nra.
      - destruct (B eq_refl) as (B1 & B2). set (y := ss false m) in *. clearbody y. assert (y * (1 - m) <= m); [|nra]. apply Rnot_lt_le. intros N.
        assert (m * m < y * (1 - m) * (y * (1 - m))) by nra. assert (y * y * (1 - m) * (1 - m) <= m * m * (1 - m)) by nra. nra. }
    set (q := s m / (12 / 5)) in *. assert (Q1 : 1 <= q) by (unfold q; lra). assert (Q : q <= q ^ 81) by (replace (q ^ 81) with (q * q ^ 80) by reflexivity; pose proof (pow_R1_Rle q 80 Q1); nra).
    assert (E : cC * s m ^ 81 = 61 / 10 * q ^ 81). { unfold cC, q. rewrite Rmult_assoc, <- Rpow_mult_distr. f_equal. f_equal. field. }
    rewrite E. assert (SQ : s m = 12 / 5 * q) by (unfold q; field). assert (G2 : s m / m <= 34 / 10 * q) by lra.
    assert (T : Rabs (h m - s m / m) <= Rabs (h m) + s m / m). { replace (s m / m) with (Rabs (s m / m)) at 2 by (apply Rabs_pos_eq; lra). unfold Rminus. eapply Rle_trans; [apply Rabs_triang|]. rewrite Rabs_Ropp. lra. }
    assert (0 < cE * s m) by nra. assert (0 < cK * s m ^ 27) by nra. lra.
Qed.
End near.

(** ** The array beta *)
Fixpoint th (c : R) (p : list R) (x : R) : R := match p with [] => 0 | k :: p => c * k + x * th (c + 1) p x end.
Lemma th_pder p x : forall c, c * peval p x + x * pder p x = th c p x.
Proof. induction p as [|k p IH]; intros c; cbn [peval pder th]; [ring|]. rewrite <- IH. ring. Qed.
Lemma betas_eval a x ds : a <> 0 -> forall i, peval ds x = peval (betas a i ds) x - th (i + 2) (tl (tl (betas a i ds))) x / a.
Proof.
  intros Ha. induction ds as [|d ds IH]; intros i; cbn [betas peval tl th]; [field; exact Ha|]. specialize (IH (i + 1)).
  destruct (betas a (i + 1) ds) as [|b1 [|b2 bs]]; cbn [tl peval th] in *; rewrite IH; [field; exact Ha|field; exact Ha|].
  replace (i + 1 + 2) with (i + 2 + 1) by ring. field. exact Ha.
Qed.
Lemma betas_ode a x ds : a <> 0 -> x * peval (betas a 0 ds) x - pder (betas a 0 ds) x / a = x * peval ds x - nth 1 (betas a 0 ds) 0 / a.
Proof.
  intros Ha. pose proof (betas_eval a x ds Ha 0) as E. rewrite Rplus_0_l in E.
  destruct (betas a 0 ds) as [|b0 [|b1 bs]]; cbn [tl th nth] in *.
  - rewrite E. cbn [peval pder]. field. exact Ha.
  - rewrite E. cbn [peval pder]. field. exact Ha.
  - rewrite E. cbn [pder]. pose proof (th_pder bs x 2) as T. rewrite <- T. cbn [peval]. field. exact Ha.
Qed.

Definition tends (F : R -> R) : Prop := forall e, 0 < e -> exists M, forall s, M <= s -> Rabs (F s) < e.
Lemma tends_lin F G x y : tends F -> tends G -> tends (fun s => x * F s + y * G s).
Proof.
  intros A B e He. set (k := Rabs x + Rabs y + 1). pose proof (Rabs_pos x). pose proof (Rabs_pos y). assert (Hk : 0 < k) by (unfold k; lra).
  assert (He' : 0 < e / k) by (apply Rdiv_lt_0_compat; lra). destruct (A _ He') as (M1 & H1). destruct (B _ He') as (M2 & H2).
  exists (Rmax M1 M2). intros s Hs. pose proof (Rmax_l M1 M2). pose proof (Rmax_r M1 M2). specialize (H1 s ltac:(lra)). specialize (H2 s ltac:(lra)).
  eapply Rle_lt_trans; [apply Rabs_triang|]. rewrite !Rabs_mult. assert (E : e = e / k * k) by (field; lra).
  assert (Rabs x * Rabs (F s) <= Rabs x * (e / k)) by (apply Rmult_le_compat_l; lra). assert (Rabs y * Rabs (G s) <= Rabs y * (e / k)) by (apply Rmult_le_compat_l; lra).
  unfold k in E at 2. lra.
Qed.
Lemma tends_ext F G : (forall s, F s = G s) -> tends F -> tends G.
Proof. intros E H e He. destruct (H e He) as (M & HM). exists M. intros s Hs. rewrite <- E. exact (HM s Hs). Qed.
Lemma tends_scal F x : tends F -> tends (fun s => x * F s).
Proof. intros H. apply (tends_ext (fun s => x * F s + 0 * F s)); [intros s; ring|]. apply tends_lin; exact H. Qed.
Lemma peval_scaled p c : exists q, forall x, peval p (c * x) = peval q x.
Proof.
  induction p as [|k p (q & IH)]; [exists []; reflexivity|]. exists (k :: map (Rmult c) q). intros x. cbn [peval]. rewrite IH.
  assert (E : peval (map (Rmult c) q) x = c * peval q x) by (clear; induction q as [|y q IH]; cbn [map peval]; [ring|rewrite IH; ring]). rewrite E. ring.
Qed.

Section tail.
Variable a : R.
Hypothesis Ha : 15 <= a.
Definition beta : list R := betas a 0 used.
Definition TT (e : R) : R := peval beta e.
Definition GN : R := 1 + nth 1 beta 0 / a.
Definition ca : R := / sqrt (2 * PI * a).
Definition tail (b : bool) (s : R) : R := 1 / 2 * erfc (s * sqrt (a / 2)) + sg b * TT (sg b * s) / GN * ga a s * ca.
Lemma ca_pos : 0 < ca.
Proof. apply Rinv_0_lt_compat, sqrt_lt_R0. pose proof PI_RGT_0. nra. Qed.
Lemma TT_ode e : e * TT e - pder beta e / a = GG e - GN.
Proof. unfold TT, beta. rewrite betas_ode by lra. unfold GG, GN, beta. cbn [peval]. ring. Qed.
Lemma erfc_deriv s : is_derive (fun s => 1 / 2 * erfc (s * sqrt (a / 2))) s (- (a * ca) * ga a s).
Proof.
  pose proof PI_RGT_0 as PP. pose proof sqrt_PI_pos as SP. eapply is_derive_val.
  - apply (is_derive_scal (fun s => erfc (s * sqrt (a / 2))) s (1 / 2)).
    apply (is_derive_circ erfc (fun s => s * sqrt (a / 2))).
    + unfold erfc. apply (is_derive_minus (K := R_AbsRing) (V := R_NormedModule) (fun _ => 1) erf); [apply (is_derive_const (K := R_AbsRing) (V := R_NormedModule))|apply erf_deriv].
    + apply (is_derive_ext (fun t => sqrt (a / 2) * t)); [intros t; apply Rmult_comm|]. apply (is_derive_scal (fun t => t) s (sqrt (a / 2))). apply (is_derive_id (K := R_AbsRing)).
  - change (minus zero ?u) with (0 - u). change (one : R) with 1. unfold ga, ca.
    replace (s * sqrt (a / 2) * (s * sqrt (a / 2))) with (s * s * (sqrt (a / 2) * sqrt (a / 2))) by ring. rewrite sqrt_sqrt by lra.
    replace (- (s * s * (a / 2))) with (- a * (s * s / 2)) by field. set (X := exp (- a * (s * s / 2))). clearbody X.
    replace (2 * PI * a) with (PI * (2 * 2 * (a / 2))) by field. rewrite sqrt_mult, sqrt_mult, sqrt_square by lra.
    assert (Q : sqrt (a / 2) * sqrt (a / 2) = a / 2) by (apply sqrt_sqrt; lra). assert (QP : 0 < sqrt (a / 2)) by (apply sqrt_lt_R0; lra).
    set (q := sqrt (a / 2)) in *. clearbody q. set (p := sqrt PI) in *. clearbody p.
    replace a with (2 * (q * q)) by lra. field. lra.
Qed.
Hypothesis HGN : 1 <= GN.
Lemma tail_deriv b s : is_derive (tail b) s (- (a * ca) * ga a s * (GG (sg b * s) / GN)).
Proof.
  unfold tail. eapply is_derive_val.
  - apply (is_derive_plus (K := R_AbsRing) (V := R_NormedModule) (fun s => 1 / 2 * erfc (s * sqrt (a / 2))) (fun s => sg b * TT (sg b * s) / GN * ga a s * ca)); [apply erfc_deriv|].
    apply (is_derive_ext (fun s => sg b / GN * ca * (TT (sg b * s) * ga a s))); [intros t; change (sg b / GN * ca * (TT (sg b * t) * ga a t) = sg b * TT (sg b * t) / GN * ga a t * ca); field; lra|].
    apply (is_derive_scal (fun s => TT (sg b * s) * ga a s) s (sg b / GN * ca)). apply is_derive_mul; [|apply ga_deriv].
    apply (is_derive_circ TT (fun s => sg b * s)); [apply peval_deriv|]. apply (is_derive_scal (fun s => s) s (sg b)). apply (is_derive_id (K := R_AbsRing)).
  - change (plus ?u ?v) with (u + v). change (one : R) with 1. pose proof (TT_ode (sg b * s)) as O. pose proof (sg_sq b) as Q.
    replace (GG (sg b * s)) with (sg b * s * TT (sg b * s) - pder beta (sg b * s) / a + GN) by lra.
    set (t := TT (sg b * s)). set (p := pder beta (sg b * s)). set (g := ga a s). set (n := GN) in *. set (k := ca). clearbody t p g n k.
    replace (sg b / n * k * (sg b * 1 * p * g + t * (- (a * s) * g))) with (k / n * ((sg b * sg b) * p * g - a * (sg b * s) * t * g)) by (field; lra). rewrite Q. field. lra.
Qed.
Lemma tail_tends b : tends (tail b).
Proof.
  unfold tail. destruct (peval_scaled beta (sg b)) as (q & Q).
  apply (tends_ext (fun s => 1 / 2 * erfc (s * sqrt (a / 2)) + sg b / GN * ca * (peval q s * ga a s))).
  - intros s. unfold TT. rewrite Q. field. lra.
  - apply tends_lin; [|intros e He; exact (peval_ga q a e ltac:(lra) He)]. intros e He. destruct (erfc_lim e He) as (M & H). exists (Rmax 0 M). intros s Hs. apply H.
    pose proof (Rmax_l 0 M). pose proof (Rmax_r 0 M). assert (1 <= sqrt (a / 2)) by (rewrite <- sqrt_1; apply sqrt_le_1_alt; lra). nra.
Qed.
(** ** The barrier *)
Fixpoint VV (n : nat) (s : R) : R := match n with O => 1 | S k => (s * s) ^ n + 2 * INR n / a * VV k s end.
Lemma VV_deriv n s : is_derive (fun s => ga a s * VV n s) s (- a * (s * (s * s) ^ n) * ga a s).
Proof.
  induction n as [|n IH].
  - cbn [VV pow]. apply (is_derive_ext (ga a)); [intros t; symmetry; apply Rmult_1_r|]. eapply is_derive_val; [apply ga_deriv|ring].
  - cbn [VV]. apply (is_derive_ext (fun s => ga a s * (s * s) ^ S n + 2 * INR (S n) / a * (ga a s * VV n s))).
    { intros t. change (ga a t * (t * t) ^ S n + 2 * INR (S n) / a * (ga a t * VV n t) = ga a t * ((t * t) ^ S n + 2 * INR (S n) / a * VV n t)). ring. }
    eapply is_derive_val.
    + apply (is_derive_plus (K := R_AbsRing) (V := R_NormedModule) (fun s => ga a s * (s * s) ^ S n) (fun s => 2 * INR (S n) / a * (ga a s * VV n s))).
      * apply is_derive_mul; [apply ga_deriv|]. apply (is_derive_pow (fun s => s * s) (S n)). apply is_derive_mul; apply (is_derive_id (K := R_AbsRing)).
      * apply (is_derive_scal (fun s => ga a s * VV n s) s (2 * INR (S n) / a)). exact IH.
    + change (plus ?u ?v) with (u + v). change (one : R) with 1. cbn [pred]. rewrite <- tech_pow_Rmult. field. lra.
Qed.
Lemma VV_pos n s : 0 < VV n s.
Proof.
  induction n as [|n IH]; cbn [VV]; [lra|]. assert (0 <= (s * s) ^ S n) by (apply pow_le; nra). pose proof (lt_0_INR (S n) ltac:(lia)). 
  assert (0 < 2 * INR (S n) / a) by (apply Rdiv_lt_0_compat; lra). nra.
Qed.
Lemma VV_tends n : tends (fun s => ga a s * VV n s).
Proof.
  induction n as [|n IH].
  - apply (tends_ext (fun s => s ^ 0 * ga a s)); [intros s; cbn; ring|]. intros e He. exact (ga_pow a 0 e ltac:(lra) He).
  - apply (tends_ext (fun s => 1 * (s ^ (2 * S n) * ga a s) + 2 * INR (S n) / a * (ga a s * VV n s))).
    + intros s. cbn [VV]. rewrite pow_mult. replace (s ^ 2) with (s * s) by ring. ring.
    + apply tends_lin; [|exact IH]. intros e He. exact (ga_pow a (2 * S n) e ltac:(lra) He).
Qed.
Definition YV (s : R) : R := cE * VV 0 s + cK * VV 13 s + cC * VV 40 s.
Definition YY (s : R) : R := ca * (cE * (ga a s * VV 0 s) + cK * (ga a s * VV 13 s) + cC * (ga a s * VV 40 s)).
Lemma YY_YV s : YY s = ca * ga a s * YV s.
Proof. unfold YY, YV. ring. Qed.
Lemma YY_deriv s : is_derive YY s (- (a * ca) * ga a s * BB s).
Proof.
  unfold YY. eapply is_derive_val.
  - apply (is_derive_scal (fun s => cE * (ga a s * VV 0 s) + cK * (ga a s * VV 13 s) + cC * (ga a s * VV 40 s)) s ca).
    apply (is_derive_plus (K := R_AbsRing) (V := R_NormedModule) (fun s => cE * (ga a s * VV 0 s) + cK * (ga a s * VV 13 s)) (fun s => cC * (ga a s * VV 40 s))).
    + apply (is_derive_plus (K := R_AbsRing) (V := R_NormedModule) (fun s => cE * (ga a s * VV 0 s)) (fun s => cK * (ga a s * VV 13 s))).
      * apply (is_derive_scal (fun s => ga a s * VV 0 s) s cE), VV_deriv.
      * apply (is_derive_scal (fun s => ga a s * VV 13 s) s cK), VV_deriv.
    + apply (is_derive_scal (fun s => ga a s * VV 40 s) s cC), VV_deriv.
  - repeat match goal with |- context [@plus ?G ?u ?v] => change (@plus G u v) with (Rplus u v) end. unfold BB.
    replace ((s * s) ^ 13) with (s ^ 26) by (replace (s * s) with (s ^ 2) by ring; rewrite <- pow_mult; reflexivity).
    replace ((s * s) ^ 40) with (s ^ 80) by (replace (s * s) with (s ^ 2) by ring; rewrite <- pow_mult; reflexivity).
    change (s ^ 27) with (s * s ^ 26). change (s ^ 81) with (s * s ^ 80). set (x := s ^ 26). set (y := s ^ 80). set (g := ga a s). clearbody x y g. cbn [pow]. ring.
Qed.
Lemma YY_tends : tends YY.
Proof.
  unfold YY. apply tends_scal. apply (tends_ext (fun s => 1 * (cE * (ga a s * VV 0 s) + cK * (ga a s * VV 13 s)) + cC * (ga a s * VV 40 s))); [intros s; ring|].
  apply (tends_lin (fun s => cE * (ga a s * VV 0 s) + cK * (ga a s * VV 13 s))); [|apply VV_tends]. apply tends_lin; apply VV_tends.
Qed.
(** ** The exact tails and their difference from the truncated expansion *)
Definition A0 : R := exp (- a) * Rpower a a.
Definition kap : R := a * ca / A0.
Definition EX (b : bool) (m : R) : R := if b then Gam a - lgam a (a * (1 + m)) else lgam a (a * (1 - m)).
Lemma A0_pos : 0 < A0.
Proof. apply Rmult_lt_0_compat; apply exp_pos. Qed.
Lemma kap_pos : 0 < kap.
Proof. apply Rdiv_lt_0_compat; [apply Rmult_lt_0_compat; [lra|exact ca_pos]|apply A0_pos]. Qed.
Lemma gterm_ph u : 0 < 1 + u -> gterm a (a * (1 + u)) = A0 / (a * (1 + u)) * exp (- a * ph u).
Proof.
  intros Hu. assert (P : 0 < a * (1 + u)) by nra. unfold gterm, A0, ph, Rpower. rewrite ln_mult by lra.
  replace ((a - 1) * (ln a + ln (1 + u))) with (a * ln a + a * ln (1 + u) + - (ln a + ln (1 + u))) by ring.
  rewrite exp_plus, exp_plus, (exp_Ropp (ln a + ln (1 + u))), (exp_plus (ln a)), !exp_ln by lra.
  replace (exp (- (a * (1 + u)))) with (exp (- a) * exp (- (a * u))) by (rewrite <- exp_plus; f_equal; ring).
  replace (exp (- a * (u - ln (1 + u)))) with (exp (- (a * u)) * exp (a * ln (1 + u))) by (rewrite <- exp_plus; f_equal; ring). field. lra.
Qed.
Lemma EX_deriv b m : dom (side b) m -> is_derive (fun m => kap * EX b m) m (- (a * ca) * ga a (ss b m) * / (1 + sg b * m)).
Proof.
  intros D. pose proof (D_m b m D) as Hm. pose proof (D_u b m D) as Hu. pose proof A0_pos as AP.
  assert (X : is_derive (EX b) m (- (a * gterm a (a * (1 + sg b * m))))).
  { destruct b; cbn [EX sg] in *.
    - rewrite Rmult_1_l in *. eapply is_derive_val.
      + apply (is_derive_minus (K := R_AbsRing) (V := R_NormedModule) (fun _ => Gam a) (fun m => lgam a (a * (1 + m)))); [apply (is_derive_const (K := R_AbsRing) (V := R_NormedModule))|].
        apply (is_derive_circ (lgam a) (fun m => a * (1 + m))); [apply lgam_deriv; nra|]. instantiate (1 := a). auto_derive; [trivial|ring].
      + change (0 - a * gterm a (a * (1 + m)) = - (a * gterm a (a * (1 + m)))). ring.
    - replace (1 + -1 * m) with (1 - m) in * by ring. eapply is_derive_val.
      + apply (is_derive_circ (lgam a) (fun m => a * (1 - m))); [apply lgam_deriv; nra|]. instantiate (1 := - a). auto_derive; [trivial|ring].
      + ring. }
  eapply is_derive_val; [apply (is_derive_scal (EX b) m kap), X|]. rewrite gterm_ph by exact Hu. unfold ga. rewrite (ss_sq b m D). unfold kap.
  replace (2 * ph (sg b * m) / 2) with (ph (sg b * m)) by field. set (e := exp _). clearbody e. field. repeat split; lra.
Qed.
Lemma EX_top b : ltop (side b) (fun m => kap * EX b m) 0.
Proof.
  pose proof kap_pos as KP. assert (X : ltop (side b) (EX b) 0).
  { destruct b; cbn [side EX].
    - intros e He. destruct (Gam_lim a ltac:(lra) e He) as (c & Dc & Hc). exists c. split; [exact Dc|]. intros x Dx Hx. apply dom_inf in Dx. specialize (Hc (a * (1 + x))).
      assert (C : c <= a * (1 + x)) by nra. specialize (Hc (proj2 (dom_inf (a * (1 + x))) ltac:(nra)) C). rewrite Rminus_0_r. unfold EX. rewrite Rabs_minus_sym. exact Hc.
    - intros e He. destruct (lgam_prim a ltac:(lra)) as (_ & L). destruct (L e He) as (d & Hd & Hc). set (c := Rmax (1 / 2) (1 - d / a)).
      assert (C1 : 1 / 2 <= c) by apply Rmax_l. assert (C2 : 1 - d / a <= c) by apply Rmax_r. assert (DA : 0 < d / a) by (apply Rdiv_lt_0_compat; lra). assert (C3 : c < 1) by (apply Rmax_lub_lt; lra).
      exists c. split; [split; cbn; lra|]. intros x [Dx Dx'] Hx. cbn in Dx'. apply Hc; [nra|]. assert (1 - x <= d / a) by lra. apply (proj2 (Rle_div_r (1 - x) d a ltac:(lra))) in H. lra. }
  intros e He. destruct (X (e / kap) ltac:(apply Rdiv_lt_0_compat; lra)) as (c & Dc & Hc). exists c. split; [exact Dc|]. intros x Dx Hx. specialize (Hc x Dx Hx). rewrite Rminus_0_r in *.
  rewrite Rabs_mult, (Rabs_pos_eq kap) by lra. apply (Rmult_lt_compat_l kap) in Hc; [|exact KP]. replace (kap * (e / kap)) with e in Hc by (field; lra). exact Hc.
Qed.
Definition JJ (b : bool) (m : R) : R := GN * tail b (ss b m) - kap * EX b m.
Lemma JJ_deriv b m : dom (side b) m -> is_derive (JJ b) m (- (a * ca) * ga a (ss b m) * (m / (ss b m * (1 + sg b * m))) * (GG (sg b * ss b m) - ss b m / m)).
Proof.
  intros D. pose proof (D_m b m D) as Hm. pose proof (D_u b m D) as Hu. pose proof (ss_pos b m D) as SP. unfold JJ. eapply is_derive_val.
  - apply (is_derive_minus (K := R_AbsRing) (V := R_NormedModule) (fun m => GN * tail b (ss b m)) (fun m => kap * EX b m)); [|apply EX_deriv, D].
    apply (is_derive_scal (fun m => tail b (ss b m)) m GN). apply (is_derive_circ (tail b) (ss b)); [apply tail_deriv|apply ss_deriv, D].
  - change (minus ?u ?v) with (u - v). set (S := ss b m) in *. set (g := ga a S). set (k := ca). set (n := GN) in *. set (G0 := GG (sg b * S)). clearbody S g k n G0. field. repeat split; lra.
Qed.
Lemma YS_deriv b m : dom (side b) m -> is_derive (fun m => YY (ss b m)) m (- (a * ca) * ga a (ss b m) * (m / (ss b m * (1 + sg b * m))) * BB (ss b m)).
Proof. intros D. eapply is_derive_val; [apply (is_derive_circ YY (ss b)); [apply YY_deriv|apply ss_deriv, D]|]. ring. Qed.
Lemma ltop_of_tends b F : tends F -> ltop (side b) (fun m => F (ss b m)) 0.
Proof. intros H. apply ltop_comp0; [exact H|]. intros M. apply ss_top. Qed.
Lemma JJ_bound b m : dom (side b) m -> Rabs (JJ b m) <= YY (ss b m).
Proof.
  intros D. pose proof (ltop_of_tends b YY YY_tends) as LY. pose proof (ltop_of_tends b (tail b) (tail_tends b)) as LT. pose proof (EX_top b) as LE.
  pose proof (ltop_lin _ _ _ _ _ GN (-1) LT LE) as LJ. cbv beta in LJ.
  assert (W : forall c x, dom (side b) x -> (c = 1 \/ c = -1) -> is_derive (fun m => YY (ss b m) + c * JJ b m) x
     (- (a * ca) * ga a (ss b x) * (x / (ss b x * (1 + sg b * x))) * (BB (ss b x) + c * (GG (sg b * ss b x) - ss b x / x)))).
  { intros c x Dx Hc. eapply is_derive_val.
    - apply (is_derive_plus (K := R_AbsRing) (V := R_NormedModule) (fun m => YY (ss b m)) (fun m => c * JJ b m)); [apply YS_deriv, Dx|]. apply (is_derive_scal (JJ b) x c), JJ_deriv, Dx.
    - change (plus ?u ?v) with (u + v). ring. }
  assert (Q : forall c, (c = 1 \/ c = -1) -> 0 <= YY (ss b m) + c * JJ b m).
  { intros c Hc. apply (decr_nonneg (side b) (fun m => YY (ss b m) + c * JJ b m) _ (fun x Dx => W c x Dx Hc)); [| |exact D].
    - intros x Dx. pose proof (w_bound b x Dx) as B. apply Rabs_le_between in B. pose proof (D_m b x Dx) as Hm. pose proof (D_u b x Dx) as Hu. pose proof (ss_pos b x Dx) as SP.
      assert (P1 : 0 < a * ca) by (apply Rmult_lt_0_compat; [lra|exact ca_pos]). assert (P2 : 0 < x / (ss b x * (1 + sg b * x))) by (apply Rdiv_lt_0_compat; [lra|apply Rmult_lt_0_compat; lra]).
      pose proof (ga_pos a (ss b x)) as P3. assert (P4 : 0 <= BB (ss b x) + c * (GG (sg b * ss b x) - ss b x / x)) by (destruct Hc as [-> | ->]; lra).
      assert (P5 : 0 < a * ca * ga a (ss b x) * (x / (ss b x * (1 + sg b * x)))) by (apply Rmult_lt_0_compat; [apply Rmult_lt_0_compat|]; assumption).
      set (X := x / (ss b x * (1 + sg b * x))) in *. replace (- (a * ca) * ga a (ss b x) * X) with (- (a * ca * ga a (ss b x) * X)) by ring. set (P := a * ca * ga a (ss b x) * X) in *. set (Z := BB (ss b x) + _) in *. clearbody P Z. nra.
    - pose proof (ltop_lin _ _ _ _ _ 1 c LY LJ) as LF. cbv beta in LF. replace (1 * 0 + c * (GN * 0 + -1 * 0)) with 0 in LF by ring.
      apply (ltop_ext (side b) (fun x => 1 * YY (ss b x) + c * (GN * tail b (ss b x) + -1 * (kap * EX b x)))); [|exact LF]. intros x _. unfold JJ. ring. }
  pose proof (Q 1 ltac:(lra)). pose proof (Q (-1) ltac:(lra)). apply Rabs_le. lra.
Qed.
Lemma YY_decr s : 0 <= s -> YY s <= YY 0.
Proof.
  intros Hs. assert (- YY 0 <= - YY s); [|lra]. apply (mono_cc (fun s => - YY s) (fun s => - (- (a * ca) * ga a s * BB s))); [exact Hs| |]; intros x Hx.
  - apply (is_derive_opp (K := R_AbsRing) (V := R_NormedModule) YY), YY_deriv.
  - pose proof ca_pos as CP. pose proof (ga_pos a x) as GP. assert (0 <= BB x).
    { unfold BB. pose proof cE_pos. pose proof cK_pos. pose proof cC_pos. assert (0 <= x ^ 27) by (apply pow_le; lra). assert (0 <= x ^ 81) by (apply pow_le; lra).
      assert (0 <= cE * x) by (apply Rmult_le_pos; lra). assert (0 <= cK * x ^ 27) by (apply Rmult_le_pos; lra). assert (0 <= cC * x ^ 81) by (apply Rmult_le_pos; lra). lra. }
    replace (- (- (a * ca) * ga a x * BB x)) with (a * ca * ga a x * BB x) by ring. apply Rmult_le_pos; [|assumption]. apply Rmult_le_pos; [apply Rmult_le_pos|]; lra.
Qed.
Lemma ss_0 b : ss b 0 = 0.
Proof. unfold ss. rewrite Rmult_0_r, ph_0, Rmult_0_r. apply sqrt_0. Qed.
Lemma lbot_closed F L M : lbot F L -> (exists d, 0 < d /\ forall x, 0 < x -> x <= d -> Rabs (F x) <= M) -> Rabs L <= M.
Proof.
  intros H (d & Hd & B). apply Rnot_lt_le. intros C. destruct (H (Rabs L - M) ltac:(lra)) as (c & Hc & E).
  assert (P : 0 < Rmin c d) by (apply Rmin_pos; assumption). specialize (E _ P (Rmin_l c d)). specialize (B _ P (Rmin_r c d)).
  pose proof (Rabs_triang (F (Rmin c d)) (L - F (Rmin c d))) as T. replace (F (Rmin c d) + (L - F (Rmin c d))) with L in T by ring. rewrite Rabs_minus_sym in E. lra.
Qed.
Lemma tail_cont b s : continuous (tail b) s.
Proof. apply (ex_derive_continuous (tail b)). eexists. apply tail_deriv. Qed.
Lemma lgam_cont x : 0 < x -> continuity_pt (lgam a) x.
Proof. intros Hx. apply continuity_pt_filterlim, (ex_derive_continuous (lgam a)). eexists. apply lgam_deriv; lra. Qed.
Lemma lbot_at F c k : continuity_pt F c -> lbot (fun x => F (c + k * x)) (F c).
Proof.
  intros C e He. destruct (C e He) as (d & Hd & E). exists (d / (Rabs k + 1) / 2). pose proof (Rabs_pos k) as K. assert (DP : 0 < d / (Rabs k + 1)) by (apply Rdiv_lt_0_compat; lra). split; [lra|].
  intros x Hx Hxd. destruct (Req_dec (c + k * x) c) as [Q|Q]; [rewrite Q, Rminus_eq_0, Rabs_R0; exact He|].
  apply (E (c + k * x)). split; [split; [exact Logic.I|intros Q'; apply Q; symmetry; exact Q']|]. unfold dist. cbn. unfold R_dist. replace (c + k * x - c) with (k * x) by ring.
  rewrite Rabs_mult, (Rabs_pos_eq x) by lra. apply Rle_lt_trans with ((Rabs k + 1) * (d / (Rabs k + 1) / 2)); [apply Rmult_le_compat; lra|]. replace ((Rabs k + 1) * (d / (Rabs k + 1) / 2)) with (d / 2) by (field; lra). lra.
Qed.
Lemma JJ_0 b : Rabs (JJ b 0) <= YY 0.
Proof.
  pose proof (lbot_comp (tail b) (ss b) (tail b 0) (tail_cont b 0) eq_refl (ss_lbot b)) as LT.
  assert (LE : lbot (EX b) (EX b 0)).
  { destruct b; cbn [EX].
    - pose proof (lbot_at (fun x => Gam a - lgam a x) a a) as L. replace (a * (1 + 0)) with a by ring. intros e He.
      destruct (L ltac:(apply continuity_pt_minus; [apply continuity_pt_const; intros ? ?; reflexivity|apply lgam_cont; lra]) e He) as (d & Hd & E). exists d. split; [exact Hd|]. intros x Hx Hxd. specialize (E x Hx Hxd). cbv beta in E. unfold EX. replace (a * (1 + x)) with (a + a * x) by ring. exact E.
    - pose proof (lbot_at (lgam a) a (- a) (lgam_cont a ltac:(lra))) as L. replace (a * (1 - 0)) with a by ring. intros e He.
      destruct (L e He) as (d & Hd & E). exists d. split; [exact Hd|]. intros x Hx Hxd. specialize (E x Hx Hxd). unfold EX. replace (a * (1 - x)) with (a + - a * x) by ring. exact E. }
  pose proof (lbot_lin _ _ _ _ GN (- kap) LT LE) as L. replace (JJ b 0) with (GN * tail b 0 + - kap * EX b 0) by (unfold JJ; rewrite ss_0; ring). apply (lbot_closed _ _ _ L). exists (1 / 2). split; [lra|]. intros x Hx Hxd.
  assert (D : dom (side b) x) by (apply side_dom; destruct b; cbn; lra). pose proof (JJ_bound b x D) as B. unfold JJ in B. apply Rle_trans with (YY (ss b x)); [|apply YY_decr; apply sqrt_pos].
  replace (GN * tail b (ss b x) + - kap * EX b x) with (GN * tail b (ss b x) - kap * EX b x) by ring. exact B.
Qed.
Lemma JJ_0_eq b : JJ b 0 = GN * tail b 0 - kap * EX b 0.
Proof. unfold JJ. rewrite ss_0. reflexivity. Qed.
Lemma GN_close : Rabs (GN - kap * Gam a) <= 2 * YY 0.
Proof.
  pose proof (JJ_0 true) as A. pose proof (JJ_0 false) as B. rewrite JJ_0_eq in A, B.
  assert (T : tail true 0 + tail false 0 = 1). { unfold tail. cbn [sg]. rewrite !Rmult_0_l, !Rmult_0_r. unfold erfc. rewrite erf_0. field. lra. }
  assert (E : EX true 0 + EX false 0 = Gam a) by (cbn [EX]; replace (a * (1 + 0)) with a by ring; replace (a * (1 - 0)) with a by ring; ring).
  replace (GN - kap * Gam a) with ((GN * tail true 0 - kap * EX true 0) + (GN * tail false 0 - kap * EX false 0)).
  - eapply Rle_trans; [apply Rabs_triang|]. lra.
  - rewrite <- E. replace (GN * tail true 0 - kap * EX true 0 + (GN * tail false 0 - kap * EX false 0)) with (GN * (tail true 0 + tail false 0) - kap * (EX true 0 + EX false 0)) by ring. rewrite T. ring.
Qed.
Lemma EX_range b m : 0 <= m -> 0 < 1 + sg b * m -> 0 < EX b m / Gam a < 1.
Proof.
  intros Hm Hu. pose proof (Gam_pos a ltac:(lra)) as GP. assert (R0 : 0 < EX b m < Gam a).
  { destruct b; cbn [EX sg] in *.
    - pose proof (lgam_pos a (a * (1 + m)) ltac:(lra) ltac:(nra)). pose proof (lgam_lt_Gam a (a * (1 + m)) ltac:(lra) ltac:(nra)). lra.
    - pose proof (lgam_pos a (a * (1 - m)) ltac:(lra) ltac:(nra)). pose proof (lgam_lt_Gam a (a * (1 - m)) ltac:(lra) ltac:(nra)). lra. }
  split; [apply Rdiv_lt_0_compat; lra|]. apply (proj2 (Rlt_div_l _ _ _ GP)). lra.
Qed.
Lemma tail_close b m : 0 <= m -> 0 < 1 + sg b * m -> Rabs (JJ b m) <= YY (ss b m) /\ Rabs (tail b (ss b m) - EX b m / Gam a) <= YY (ss b m) + 2 * YY 0 * (EX b m / Gam a).
Proof.
  intros Hm Hu. assert (J : Rabs (JJ b m) <= YY (ss b m)).
  { destruct Hm as [Hm|<-]; [apply JJ_bound, side_dom; split; assumption|]. rewrite ss_0. apply JJ_0. }
  split; [exact J|]. pose proof (EX_range b m Hm Hu) as ER. pose proof GN_close as GC. pose proof (Gam_pos a ltac:(lra)) as GP.
  set (x := EX b m / Gam a) in *. assert (E : EX b m = x * Gam a) by (unfold x; field; lra).
  replace (tail b (ss b m) - x) with ((JJ b m + - x * (GN - kap * Gam a)) / GN) by (unfold JJ; rewrite E; field; lra).
  unfold Rdiv. rewrite Rabs_mult, (Rabs_pos_eq (/ GN)) by (left; apply Rinv_0_lt_compat; lra).
  assert (B : Rabs (JJ b m + - x * (GN - kap * Gam a)) <= YY (ss b m) + 2 * YY 0 * x).
  { eapply Rle_trans; [apply Rabs_triang|]. rewrite Rabs_mult, Rabs_Ropp, (Rabs_pos_eq x) by lra. nra. }
  assert (I1 : / GN <= 1) by (rewrite <- Rinv_1; apply Rinv_le_contravar; lra). assert (I0 : 0 < / GN) by (apply Rinv_0_lt_compat; lra).
  pose proof (Rabs_pos (JJ b m + - x * (GN - kap * Gam a))). nra.
Qed.
(** a lower bound of the exact tail *)
Definition ZZ (s : R) : R := 15 / 17 * ca * (ga a s * / (1 + s * s)).
Lemma ZZ_deriv s : is_derive ZZ s (- (15 / 17 * ca * ga a s * (a * s / (1 + s * s) + 2 * s / ((1 + s * s) * (1 + s * s))))).
Proof.
  unfold ZZ. assert (P : 0 < 1 + s * s) by nra. eapply is_derive_val.
  - apply (is_derive_scal (fun s => ga a s * / (1 + s * s)) s (15 / 17 * ca)). apply is_derive_mul; [apply ga_deriv|].
    instantiate (1 := - (2 * s / ((1 + s * s) * (1 + s * s)))). auto_derive; [lra|field; lra].
  - cbv beta. field. lra.
Qed.
Lemma ZZ_tends : tends ZZ.
Proof.
  unfold ZZ. apply tends_scal. intros e He. destruct (ga_pow a 0 e ltac:(lra) He) as (M & H). exists M. intros s Hs. specialize (H s Hs). cbn [pow] in H. rewrite Rmult_1_l in H.
  assert (P : 0 < / (1 + s * s) <= 1). { split; [apply Rinv_0_lt_compat; nra|]. rewrite <- Rinv_1. apply Rinv_le_contravar; nra. }
  rewrite Rabs_mult, (Rabs_pos_eq (/ _)) by lra. pose proof (Rabs_pos (ga a s)). nra.
Qed.
Lemma m_le b m : dom (side b) m -> m <= 1 + ss b m * ss b m.
Proof.
  intros D. rewrite (ss_sq b m D). pose proof (D_m b m D) as Hm. pose proof (D_u b m D) as Hu. pose proof (ph_pos b m D) as PP. destruct b; cbn [sg] in *; [|lra].
  rewrite Rmult_1_l in *. unfold ph. assert (L : ln (1 + m) <= ln 2 + (1 + m) / 2 - 1).
  { replace (1 + m) with (2 * ((1 + m) / 2)) at 1 by field. rewrite ln_mult by lra. assert (ln ((1 + m) / 2) <= (1 + m) / 2 - 1); [|lra].
    rewrite <- (ln_exp ((1 + m) / 2 - 1)). apply ln_le; [lra|]. pose proof (exp_ineq1_le ((1 + m) / 2 - 1)). lra. }
  assert (ln 2 <= 1). { rewrite <- (ln_exp 1). apply ln_le; [lra|]. pose proof (exp_ineq1_le 1). lra. } lra.
Qed.
Lemma EX_lower b m : dom (side b) m -> ZZ (ss b m) <= kap * EX b m.
Proof.
  intros D. assert (0 <= kap * EX b m - ZZ (ss b m)); [|lra].
  apply (decr_nonneg (side b) (fun m => kap * EX b m - ZZ (ss b m)) (fun m => - (a * ca) * ga a (ss b m) * / (1 + sg b * m) -
     m / (ss b m * (1 + sg b * m)) * - (15 / 17 * ca * ga a (ss b m) * (a * ss b m / (1 + ss b m * ss b m) + 2 * ss b m / ((1 + ss b m * ss b m) * (1 + ss b m * ss b m)))))); [| | |exact D].
  - intros x Dx. apply (is_derive_minus (K := R_AbsRing) (V := R_NormedModule) (fun m => kap * EX b m) (fun m => ZZ (ss b m))); [apply EX_deriv, Dx|].
    apply (is_derive_circ ZZ (ss b)); [apply ZZ_deriv|apply ss_deriv, Dx].
  - intros x Dx. pose proof (D_m b x Dx) as Hm. pose proof (D_u b x Dx) as Hu. pose proof (ss_pos b x Dx) as SP. pose proof (m_le b x Dx) as ML. pose proof (ga_pos a (ss b x)) as GP. pose proof ca_pos as CP.
    set (y := ss b x) in *. set (v := 1 + sg b * x) in *. set (g := ga a y) in *. set (k := ca) in *. clearbody y v g k. assert (Q : 1 <= 1 + y * y) by nra. set (q := 1 + y * y) in *. clearbody q.
    replace (- (a * k) * g * / v - x / (y * v) * - (15 / 17 * k * g * (a * y / q + 2 * y / (q * q)))) with (- (k * g / v) * (a - 15 / 17 * x * (a / q + 2 / (q * q)))) by (field; repeat split; lra).
    assert (K : 0 < k * g / v) by (apply Rdiv_lt_0_compat; [apply Rmult_lt_0_compat|]; assumption).
    assert (W : 15 / 17 * x * (a / q + 2 / (q * q)) <= a).
    { replace (15 / 17 * x * (a / q + 2 / (q * q))) with (x / q * (15 / 17 * (a + 2 / q))) by (field; lra).
      assert (QP : 0 < q) by lra. assert (x / q <= 1) by (apply (proj2 (Rle_div_l _ _ _ QP)); lra). assert (0 < x / q) by (apply Rdiv_lt_0_compat; lra). assert (2 / q <= 2) by (apply (proj2 (Rle_div_l _ _ _ QP)); lra).
      assert (0 < 2 / q) by (apply Rdiv_lt_0_compat; lra). assert (15 / 17 * (a + 2 / q) <= a) by lra. assert (0 < 15 / 17 * (a + 2 / q)) by lra. nra. }
    nra.
  - pose proof (ltop_lin _ _ _ _ _ 1 (-1) (EX_top b) (ltop_of_tends b ZZ ZZ_tends)) as L. cbv beta in L. replace (1 * 0 + -1 * 0) with 0 in L by ring.
    apply (ltop_ext (side b) (fun x => 1 * (kap * EX b x) + -1 * ZZ (ss b x))); [intros x _; ring|exact L].
Qed.
End tail.
