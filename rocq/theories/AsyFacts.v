(** Polynomials as coefficient lists, the function u - ln(1 + u) and its square root, comparison of functions through
    their derivatives; used for the asymptotic expansion of the incomplete Gamma function. *)
From Coq Require Import Reals Lra Lia Psatz ZArith List.
From Coquelicot Require Import Coquelicot.
From Verif Require Import Improper GaussInt GammaFn ContModel NormModel NormProofs.
Import ListNotations.
Local Open Scope R_scope.

(** ** Polynomials *)
Fixpoint peval (p : list R) (x : R) : R := match p with [] => 0 | c :: p => c + x * peval p x end.
Fixpoint pder (p : list R) (x : R) : R := match p with [] => 0 | _ :: p => peval p x + x * pder p x end.
Lemma peval_deriv p x : is_derive (peval p) x (pder p x).
Proof.
  induction p as [|c p IH]; cbn [peval pder].
  - apply (is_derive_const (K := R_AbsRing) (V := R_NormedModule)).
  - eapply is_derive_val.
    + apply (is_derive_plus (K := R_AbsRing) (V := R_NormedModule) (fun _ => c) (fun t => t * peval p t)).
      * apply (is_derive_const (K := R_AbsRing) (V := R_NormedModule)).
      * apply is_derive_mul; [apply (is_derive_id (K := R_AbsRing))|exact IH].
    + unfold plus, zero, one. cbn. ring.
Qed.
Lemma peval_cont p x : continuous (peval p) x.
Proof. apply (ex_derive_continuous (peval p)). eexists. apply peval_deriv. Qed.
Lemma peval_app p q x : peval (p ++ q) x = peval p x + x ^ length p * peval q x.
Proof. induction p as [|c p IH]; cbn [app peval length pow]; [ring|]. rewrite IH. ring. Qed.
Lemma peval_split n p x : (n <= length p)%nat -> peval p x = peval (firstn n p) x + x ^ n * peval (skipn n p) x.
Proof. intros H. rewrite <- (firstn_skipn n p) at 1. rewrite peval_app, firstn_length_le by exact H. reflexivity. Qed.
Lemma peval_abs p x : Rabs (peval p x) <= peval (map Rabs p) (Rabs x).
Proof.
  induction p as [|c p IH]; cbn [peval map]; [rewrite Rabs_R0; lra|].
  eapply Rle_trans; [apply Rabs_triang|]. rewrite Rabs_mult. apply Rplus_le_compat_l, Rmult_le_compat_l; [apply Rabs_pos|exact IH].
Qed.
Lemma peval_abs_pos p x : 0 <= x -> 0 <= peval (map Rabs p) x.
Proof. intros Hx. induction p as [|c p IH]; cbn [peval map]; [lra|]. pose proof (Rabs_pos c). nra. Qed.
Lemma peval_abs_mono p x y : 0 <= x <= y -> peval (map Rabs p) x <= peval (map Rabs p) y.
Proof.
  intros H. induction p as [|c p IH]; cbn [peval map]; [lra|]. pose proof (peval_abs_pos p x (proj1 H)). nra.
Qed.
Lemma peval_growth p n E x : (length p <= S n)%nat -> 0 < E <= x -> peval (map Rabs p) x <= (x / E) ^ n * peval (map Rabs p) E.
Proof.
  intros Hl H. assert (Q : 1 <= x / E) by (apply (proj1 (Rle_div_r _ _ _ (proj1 H))); lra).
  revert n Hl. induction p as [|c p IH]; intros n Hl; cbn [peval map]; [rewrite Rmult_0_r; lra|]. cbn [length] in Hl.
  pose proof (Rabs_pos c) as C. pose proof (pow_R1_Rle (x / E) n Q) as P1. destruct n as [|n].
  - destruct p; [|cbn [length] in Hl; lia]. cbn. lra.
  - specialize (IH n ltac:(lia)). rewrite Rmult_plus_distr_l. apply Rplus_le_compat; [nra|].
    replace ((x / E) ^ S n * (E * peval (map Rabs p) E)) with (x * ((x / E) ^ n * peval (map Rabs p) E)) by (cbn [pow]; field; lra).
    apply Rmult_le_compat_l; [lra|exact IH].
Qed.

(** integer coefficients *)
Definition zr (p : list Z) : list R := map IZR p.
Fixpoint zadd (p q : list Z) : list Z :=
  match p, q with [], q => q | p, [] => p | c :: p, d :: q => (c + d)%Z :: zadd p q end.
Definition zscale (k : Z) (p : list Z) : list Z := map (Z.mul k) p.
Fixpoint zmul (p q : list Z) : list Z := match p with [] => [] | c :: p => zadd (zscale c q) (0%Z :: zmul p q) end.
Fixpoint ztheta (i : Z) (p : list Z) : list Z := match p with [] => [] | c :: p => ((1 - i) * c)%Z :: ztheta (i + 1) p end.
Lemma zadd_eval p q x : peval (zr (zadd p q)) x = peval (zr p) x + peval (zr q) x.
Proof.
  revert q. induction p as [|c p IH]; intros [|d q]; cbn [zadd zr map peval]; try ring.
  fold (zr (zadd p q)) (zr p) (zr q). rewrite IH, plus_IZR. ring.
Qed.
Lemma zscale_eval k p x : peval (zr (zscale k p)) x = IZR k * peval (zr p) x.
Proof. induction p as [|c p IH]; cbn [zscale zr map peval]; [ring|]. fold (zscale k p) (zr (zscale k p)) (zr p). rewrite IH, mult_IZR. ring. Qed.
Lemma zmul_eval p q x : peval (zr (zmul p q)) x = peval (zr p) x * peval (zr q) x.
Proof.
  induction p as [|c p IH]; cbn [zmul]; [cbn; ring|]. rewrite zadd_eval, zscale_eval. cbn [zr map peval]. fold (zr (zmul p q)) (zr p). rewrite IH. ring.
Qed.
Lemma ztheta_eval i p x : peval (zr (ztheta i p)) x = (1 - IZR i) * peval (zr p) x - x * pder (zr p) x.
Proof.
  revert i. induction p as [|c p IH]; intros i; cbn [ztheta zr map peval pder]; [ring|].
  fold (zr (ztheta (i + 1) p)) (zr p). rewrite IH, mult_IZR, minus_IZR, plus_IZR. ring.
Qed.
(** rounded-up value of the absolute polynomial at 12/5 *)
Fixpoint ub (p : list Z) : Z := match p with [] => 0 | c :: p => Z.abs c + - ((- (12 * ub p)) / 5) end.
Lemma ub_nonneg p : (0 <= ub p)%Z.
Proof.
  induction p as [|c p IH]; cbn [ub]; [lia|].
  assert ((- (12 * ub p)) / 5 <= 0)%Z by (apply Z.div_le_upper_bound; lia). lia.
Qed.
Lemma ub_eval p : peval (map Rabs (zr p)) (12 / 5) <= IZR (ub p).
Proof.
  induction p as [|c p IH]; cbn [ub zr map peval]; [lra|]. fold (zr p). rewrite plus_IZR, abs_IZR. apply Rplus_le_compat_l.
  assert (H : (12 * ub p <= 5 * - ((- (12 * ub p)) / 5))%Z). { pose proof (Z.mul_div_le (- (12 * ub p)) 5 ltac:(lia)). lia. }
  apply IZR_le in H. rewrite !mult_IZR in H. lra.
Qed.
Lemma ub_bound p x : Rabs x <= 12 / 5 -> Rabs (peval (zr p) x) <= IZR (ub p).
Proof.
  intros H. eapply Rle_trans; [apply peval_abs|]. eapply Rle_trans; [|apply ub_eval]. apply peval_abs_mono. pose proof (Rabs_pos x). lra.
Qed.

(** ** u - ln(1 + u) *)
Definition ph (u : R) : R := u - ln (1 + u).
Lemma ph_0 : ph 0 = 0.
Proof. unfold ph. rewrite Rplus_0_r, ln_1. ring. Qed.
Lemma ph_deriv u : -1 < u -> is_derive ph u (u / (1 + u)).
Proof. intros H. unfold ph. auto_derive; [lra|field; lra]. Qed.
Lemma from_zero (F f : R -> R) u : -1 < u -> F 0 = 0 -> (forall t, -1 < t -> is_derive F t (f t)) -> (forall t, -1 < t -> 0 <= f t) ->
  (0 <= u -> 0 <= F u) /\ (u <= 0 -> F u <= 0).
Proof.
  intros Hu H0 HD HF. split; intros H.
  - rewrite <- H0. apply (mono_cc F f); [exact H| |]; intros t Ht; [apply HD|apply HF]; lra.
  - rewrite <- H0. apply (mono_cc F f); [exact H| |]; intros t Ht; [apply HD|apply HF]; lra.
Qed.
Lemma ph_nonneg u : -1 < u -> 0 <= ph u.
Proof.
  intros Hu. unfold ph. assert (H : ln (1 + u) <= u). { rewrite <- (ln_exp u) at 2. apply ln_le; [lra|]. pose proof (exp_ineq1_le u). lra. } lra.
Qed.
Lemma ph_upper u : -1 < u -> (0 <= u -> 2 * ph u <= u * u) /\ (u <= 0 -> u * u <= 2 * ph u).
Proof.
  intros Hu. destruct (from_zero (fun t => t * t - 2 * ph t) (fun t => 2 * (t * t / (1 + t))) u Hu) as (A & B).
  - rewrite ph_0. ring.
  - intros t Ht. pose proof (ph_deriv t Ht) as D. eapply is_derive_val.
    + apply (is_derive_minus (K := R_AbsRing) (V := R_NormedModule) (fun t => t * t) (fun t => 2 * ph t)).
      * apply is_derive_mul; apply (is_derive_id (K := R_AbsRing)).
      * apply (is_derive_scal ph t 2 _ D).
    + unfold minus, plus, opp, one. cbn. field. lra.
  - intros t Ht. apply Rmult_le_pos; [lra|]. apply Rdiv_le_0_compat; [nra|lra].
  - split; intros H; [specialize (A H)|specialize (B H)]; lra.
Qed.
Lemma ph_lower u : -1 < u -> (0 <= u -> u * u <= 2 * ph u * (1 + u)) /\ (u <= 0 -> 2 * ph u * (1 + u) <= u * u).
Proof.
  intros Hu. destruct (from_zero (fun t => 2 * ph t * (1 + t) - t * t) (fun t => 2 * ph t) u Hu) as (A & B).
  - rewrite ph_0. ring.
  - intros t Ht. pose proof (ph_deriv t Ht) as D. eapply is_derive_val.
    + apply (is_derive_minus (K := R_AbsRing) (V := R_NormedModule) (fun t => 2 * ph t * (1 + t)) (fun t => t * t)).
      * apply is_derive_mul; [apply (is_derive_scal ph t 2 _ D)|].
        apply (is_derive_plus (K := R_AbsRing) (V := R_NormedModule) (fun _ => 1) (fun t => t)); [apply (is_derive_const (K := R_AbsRing) (V := R_NormedModule))|apply (is_derive_id (K := R_AbsRing))].
      * apply is_derive_mul; apply (is_derive_id (K := R_AbsRing)).
    + unfold minus, plus, opp, one, zero. cbn. field. lra.
  - intros t Ht. pose proof (ph_nonneg t Ht). lra.
  - split; intros H; [specialize (A H)|specialize (B H)]; lra.
Qed.

(** ** The two sides of the transition point: u = m on the right, u = -m on the left *)
Definition sg (b : bool) : R := if b then 1 else -1.
Definition side (b : bool) : Rbar := if b then p_infty else Finite 1.
Definition ss (b : bool) (m : R) : R := sqrt (2 * ph (sg b * m)).
Lemma sg_sq b : sg b * sg b = 1.
Proof. destruct b; cbn; ring. Qed.
Lemma sg_abs b : Rabs (sg b) = 1.
Proof. destruct b; cbn; [apply Rabs_R1|unfold Rabs; destruct (Rcase_abs _); lra]. Qed.
Lemma side_dom b m : dom (side b) m <-> 0 < m /\ 0 < 1 + sg b * m.
Proof. unfold dom. destruct b; cbn [side sg Rbar_lt]; [intuition lra|cbn; intuition lra]. Qed.
Lemma side_ex b : exists m, dom (side b) m.
Proof. exists (1 / 2). apply side_dom. destruct b; cbn; lra. Qed.
Section side_facts.
Variable b : bool.
Variable m : R.
Hypothesis D : dom (side b) m.
Local Notation u := (sg b * m).
Local Notation s := (ss b m).
Lemma D_m : 0 < m.
Proof. apply (proj1 (side_dom b m) D). Qed.
Lemma D_u : 0 < 1 + u.
Proof. apply (proj1 (side_dom b m) D). Qed.
Lemma uu_mm : u * u = m * m.
Proof. replace (u * u) with ((sg b * sg b) * (m * m)) by ring. rewrite sg_sq. ring. Qed.
Lemma ph_pos : 0 < ph u.
Proof.
  pose proof D_m as Hm. pose proof D_u as Hu. pose proof uu_mm as E. destruct (ph_upper u ltac:(lra)) as (_ & A). destruct (ph_lower u ltac:(lra)) as (B & _).
  destruct (Rle_dec u 0) as [C|C]; [specialize (A C); nra|]. specialize (B ltac:(lra)). assert (0 < m * m) by nra.
  apply Rnot_le_lt. intros N. nra.
Qed.
Lemma ss_pos : 0 < s.
Proof. apply sqrt_lt_R0. pose proof ph_pos. lra. Qed.
Lemma ss_sq : s * s = 2 * ph u.
Proof. apply sqrt_sqrt. pose proof ph_pos. lra. Qed.
Lemma ss_deriv : is_derive (ss b) m (m / (s * (1 + u))).
Proof.
  pose proof ph_pos as P. pose proof D_u as Hu. pose proof ss_pos as SP. eapply is_derive_val.
  - unfold ss. apply (is_derive_circ sqrt (fun t => 2 * ph (sg b * t)) m).
    + apply is_derive_Reals, derivable_pt_lim_sqrt. lra.
    + apply (is_derive_scal (fun t => ph (sg b * t)) m 2). apply (is_derive_circ ph (fun t => sg b * t)); [apply ph_deriv; lra|].
      apply (is_derive_scal (fun t => t) m (sg b)). apply (is_derive_id (K := R_AbsRing)).
  - unfold one. cbn. fold (ss b m). pose proof (sg_sq b) as Q. replace (2 * (sg b * 1 * (u / (1 + u))) * / (2 * s)) with ((sg b * sg b) * m / (s * (1 + u))) by (field; lra).
    rewrite Q. field. lra.
Qed.
Lemma ss_bounds : (b = true -> s <= m /\ m * m <= s * s * (1 + m)) /\ (b = false -> m <= s /\ s * s * (1 - m) <= m * m).
Proof.
  pose proof D_m as Hm. pose proof D_u as Hu. pose proof ss_sq as E. pose proof ss_pos as SP.
  destruct (ph_upper u ltac:(lra)) as (A1 & A2). destruct (ph_lower u ltac:(lra)) as (B1 & B2).
  split; intros ->; cbn [sg] in *.
  - specialize (A1 ltac:(lra)). specialize (B1 ltac:(lra)). split; [|nra]. apply Rnot_lt_le. intros C. nra.
  - specialize (A2 ltac:(lra)). specialize (B2 ltac:(lra)). split; [|nra]. apply Rnot_lt_le. intros C. nra.
Qed.
End side_facts.

(** ** Comparison *)
Definition sqp (y : R) : R := Rmax 0 y * Rmax 0 y.
Lemma sqp_deriv y : is_derive sqp y (2 * Rmax 0 y).
Proof.
  destruct (total_order_T y 0) as [[H|H]|H].
  - rewrite Rmax_left by lra. rewrite Rmult_0_r. apply (is_derive_ext_loc (fun _ => 0)); [|apply (is_derive_const (K := R_AbsRing) (V := R_NormedModule))].
    assert (K : 0 < - y) by lra. exists (mkposreal (- y) K). intros t Ht. assert (A : Rabs (t - y) < - y) by exact Ht. apply Rabs_def2 in A. unfold sqp. rewrite Rmax_left by lra. symmetry. exact (Rmult_0_l 0).
  - subst y. rewrite Rmax_left by lra. rewrite Rmult_0_r. apply is_derive_Reals. intros e He. exists (mkposreal e He). intros h Hh Hd. cbn in Hd.
    unfold sqp. rewrite Rplus_0_l, (Rmax_left 0 0) by lra. rewrite Rmult_0_l, !Rminus_0_r. apply Rle_lt_trans with (Rabs h); [|exact Hd].
    unfold Rdiv. rewrite !Rabs_mult, Rabs_inv. pose proof (Rabs_pos_lt h Hh) as P.
    assert (M : Rabs (Rmax 0 h) <= Rabs h). { unfold Rmax. destruct (Rle_dec 0 h); [lra|rewrite Rabs_R0; lra]. } pose proof (Rabs_pos (Rmax 0 h)).
    apply (Rmult_le_reg_r (Rabs h)); [exact P|]. rewrite Rmult_assoc, Rinv_l, Rmult_1_r by lra. nra.
  - rewrite Rmax_right by lra. apply (is_derive_ext_loc (fun t => t * t)).
    + exists (mkposreal y H). intros t Ht. assert (A : Rabs (t - y) < y) by exact Ht. apply Rabs_def2 in A. unfold sqp. rewrite Rmax_right by lra. reflexivity.
    + eapply is_derive_val; [apply is_derive_mul; apply (is_derive_id (K := R_AbsRing))|]. unfold one. cbn. ring.
Qed.
Lemma barrier (F f : R -> R) m : 0 < m -> (forall t, 0 < t <= m -> is_derive F t (f t)) -> (forall t, 0 < t <= m -> 0 < F t -> f t <= 0) -> lbot F 0 -> F m <= 0.
Proof.
  intros Hm HD HF L. apply Rnot_lt_le. intros C. destruct (L (F m) C) as (d & Hd & Ed).
  set (t := Rmin d m). assert (Ht : 0 < t) by (apply Rmin_pos; assumption). pose proof (Rmin_l d m) as Td. pose proof (Rmin_r d m) as Tm. fold t in Td, Tm.
  specialize (Ed t Ht Td). rewrite Rminus_0_r in Ed. apply Rabs_def2 in Ed.
  assert (K : - sqp (F t) <= - sqp (F m)).
  { apply (mono_cc (fun x => - sqp (F x)) (fun x => - (f x * (2 * Rmax 0 (F x))))); [exact Tm| |].
    - intros x Hx. apply (is_derive_opp (K := R_AbsRing) (V := R_NormedModule) (fun x => sqp (F x))). apply (is_derive_circ sqp F); [apply sqp_deriv|apply HD; lra].
    - intros x Hx. destruct (Rle_dec (F x) 0) as [N|N]; [rewrite (Rmax_left 0 (F x)) by lra; lra|]. specialize (HF x ltac:(lra) ltac:(lra)). rewrite Rmax_right by lra. nra. }
  unfold sqp in K. rewrite (Rmax_right 0 (F m)) in K by lra. assert (Rmax 0 (F t) < F m) by (unfold Rmax; destruct (Rle_dec 0 (F t)); lra).
  pose proof (Rmax_l 0 (F t)). nra.
Qed.
(** a function that does not increase and tends to 0 at the end is not negative *)
Lemma decr_nonneg hi (F f : R -> R) : (forall t, dom hi t -> is_derive F t (f t)) -> (forall t, dom hi t -> f t <= 0) -> ltop hi F 0 -> forall m, dom hi m -> 0 <= F m.
Proof.
  intros HD HF HL m Dm. pose proof (ltop_upper hi (fun t => - F t) 0) as U. cbv beta in U. assert (- F m <= 0); [|lra]. apply U; [| |exact Dm].
  - intros x y Dy Hx Hxy. apply (mono_cc (fun t => - F t) (fun t => - f t)); [exact Hxy| |]; intros t Ht; assert (Dt : dom hi t) by (apply (dom_down hi y); [exact Dy|lra|lra]).
    + apply (is_derive_opp (K := R_AbsRing) (V := R_NormedModule) F), HD, Dt.
    + specialize (HF t Dt). lra.
  - intros e He. destruct (HL e He) as (bb & Db & Hb). exists bb. split; [exact Db|]. intros x Dx Hx. specialize (Hb x Dx Hx). rewrite Rminus_0_r in *. rewrite Rabs_Ropp. exact Hb.
Qed.
Lemma ltop_comp0 hi (F : R -> R) (t : R -> R) : (forall e, 0 < e -> exists M, forall x, M <= x -> Rabs (F x) < e) ->
  (forall M, exists c, dom hi c /\ forall x, dom hi x -> c <= x -> M <= t x) -> ltop hi (fun x => F (t x)) 0.
Proof.
  intros HF HT e He. destruct (HF e He) as (M & HM). destruct (HT M) as (c & Dc & Hc). exists c. split; [exact Dc|]. intros x Dx Hx. rewrite Rminus_0_r. apply HM, Hc; assumption.
Qed.
Lemma lbot_comp (F : R -> R) (t : R -> R) L : continuous F 0 -> F 0 = L -> lbot t 0 -> lbot (fun x => F (t x)) L.
Proof.
  intros C <- T e He. assert (C' : continuity_pt F 0) by (apply continuity_pt_filterlim; exact C).
  destruct (C' e He) as (d & Hd & Ed). destruct (T d Hd) as (c & Hc & Ec). exists c. split; [exact Hc|]. intros x Hx Hxc. specialize (Ec x Hx Hxc). rewrite Rminus_0_r in Ec.
  destruct (Req_dec (t x) 0) as [->|N]; [rewrite Rminus_eq_0, Rabs_R0; exact He|].
  apply (Ed (t x)). split; [split; [exact Logic.I|intros E; apply N; symmetry; exact E]|]. unfold dist. cbn. unfold R_dist. rewrite Rminus_0_r. exact Ec.
Qed.
(** ** s at the two ends *)
Lemma ss_small b m : 0 < m <= 1 / 2 -> ss b m <= 2 * m.
Proof.
  intros H. assert (D : dom (side b) m) by (apply side_dom; destruct b; cbn; lra). destruct (ss_bounds b m D) as (A & B). pose proof (ss_pos b m D) as P. destruct b.
  - destruct (A eq_refl). lra.
  - destruct (B eq_refl) as (_ & B2). apply Rnot_lt_le. intros C. assert (2 * m * (2 * m) < ss false m * ss false m) by nra. nra.
Qed.
Lemma ss_lbot b : lbot (ss b) 0.
Proof.
  intros e He. exists (Rmin (1 / 2) (e / 4)). split; [apply Rmin_pos; lra|]. intros x Hx Hd. pose proof (Rmin_l (1 / 2) (e / 4)). pose proof (Rmin_r (1 / 2) (e / 4)).
  rewrite Rminus_0_r. pose proof (ss_small b x ltac:(lra)). assert (0 <= ss b x) by apply sqrt_pos. rewrite Rabs_pos_eq by assumption. lra.
Qed.
Lemma gg_small b m : 0 < m <= 1 / 2 -> Rabs (ss b m / m - 1) <= 2 * m.
Proof.
  intros H. assert (D : dom (side b) m) by (apply side_dom; destruct b; cbn; lra). destruct (ss_bounds b m D) as (A & B). pose proof (ss_pos b m D) as P.
  set (g := ss b m / m). assert (E : ss b m = g * m) by (unfold g; field; lra). assert (G0 : 0 < g) by (apply Rdiv_lt_0_compat; lra). rewrite E in A, B. clearbody g. destruct b.
  - destruct (A eq_refl) as (A1 & A2). assert (g <= 1) by nra. assert (1 <= g * g * (1 + m)) by (assert (0 < m * m) by nra; apply (Rmult_le_reg_r (m * m)); nra).
    apply Rabs_le. split; [|lra]. apply Rnot_lt_le. intros C. nra.
  - destruct (B eq_refl) as (B1 & B2). assert (1 <= g) by nra. assert (g * g * (1 - m) <= 1) by (assert (0 < m * m) by nra; apply (Rmult_le_reg_r (m * m)); nra).
    apply Rabs_le. split; [lra|]. apply Rnot_lt_le. intros C. assert ((1 + 2 * m) * (1 + 2 * m) < g * g) by nra. nra.
Qed.
Lemma gg_lbot b : lbot (fun m => ss b m / m) 1.
Proof.
  intros e He. exists (Rmin (1 / 2) (e / 4)). split; [apply Rmin_pos; lra|]. intros x Hx Hd. pose proof (Rmin_l (1 / 2) (e / 4)). pose proof (Rmin_r (1 / 2) (e / 4)).
  pose proof (gg_small b x ltac:(lra)). lra.
Qed.
Lemma ss_top b M : exists c, dom (side b) c /\ forall x, dom (side b) x -> c <= x -> M <= ss b x.
Proof.
  set (N := Rmax 1 M). assert (N1 : 1 <= N) by apply Rmax_l. assert (N2 : M <= N) by apply Rmax_r.
  assert (K : forall x, dom (side b) x -> N * N <= 2 * ph (sg b * x) -> M <= ss b x).
  { intros x Dx H. apply Rle_trans with N; [exact N2|]. rewrite <- (sqrt_square N) by lra. apply sqrt_le_1_alt, H. }
  destruct b.
  - exists (N * N + 2). split; [apply side_dom; cbn; nra|]. intros x Dx Hx. apply K; [exact Dx|]. cbn [sg]. rewrite Rmult_1_l. unfold ph.
    assert (L : ln (1 + x) <= ln 2 + (1 + x) / 2 - 1).
    { replace (1 + x) with (2 * ((1 + x) / 2)) at 1 by field. rewrite ln_mult by nra. assert (ln ((1 + x) / 2) <= (1 + x) / 2 - 1); [|lra].
      rewrite <- (ln_exp ((1 + x) / 2 - 1)). apply ln_le; [nra|]. pose proof (exp_ineq1_le ((1 + x) / 2 - 1)). lra. }
    assert (ln 2 <= 1). { rewrite <- (ln_exp 1). apply ln_le; [lra|]. pose proof (exp_ineq1_le 1). lra. } lra.
  - set (c := 1 - exp (- (N * N + 1))). assert (E1 : exp (- (N * N + 1)) < 1) by (apply Rlt_le_trans with (exp 0); [apply exp_increasing; nra|rewrite exp_0; lra]). pose proof (exp_pos (- (N * N + 1))) as E0.
    exists c. split; [apply side_dom; cbn; unfold c; lra|]. intros x Dx Hx. apply K; [exact Dx|]. apply side_dom in Dx. cbn [sg] in *. unfold ph.
    assert (L : ln (1 + -1 * x) <= - (N * N + 1)). { rewrite <- (ln_exp (- (N * N + 1))). apply ln_le; [lra|]. unfold c in Hx. lra. } nra.
Qed.
(** ** Gaussian factors *)
Definition ga (a s : R) : R := exp (- a * (s * s / 2)).
Lemma ga_deriv a s : is_derive (ga a) s (- (a * s) * ga a s).
Proof. unfold ga. auto_derive; [trivial|]. unfold Rdiv. set (e := exp _). field. Qed.
Lemma ga_pos a s : 0 < ga a s.
Proof. apply exp_pos. Qed.
Lemma ga_pow a n e : 0 < a -> 0 < e -> exists M, forall s, M <= s -> Rabs (s ^ n * ga a s) < e.
Proof.
  intros Ha He. destruct (exp_pow_lb (S n)) as (C & HC & H). exists (Rmax 1 (C * (2 / a) ^ S n / e + 1)). intros s Hs.
  pose proof (Rmax_l 1 (C * (2 / a) ^ S n / e + 1)) as L1. pose proof (Rmax_r 1 (C * (2 / a) ^ S n / e + 1)) as L2.
  assert (S1 : 1 <= s) by lra. assert (P : 0 < s ^ n) by (apply pow_lt; lra).
  rewrite Rabs_pos_eq by (apply Rmult_le_pos; [lra|left; apply ga_pos]).
  specialize (H (a * s * s / 2) ltac:(nra)). unfold ga. replace (- a * (s * s / 2)) with (- (a * s * s / 2)) by field. rewrite exp_Ropp. set (X := exp (a * s * s / 2)) in *.
  assert (XP : 0 < X) by apply exp_pos. apply (Rmult_lt_reg_r X); [exact XP|]. rewrite Rmult_assoc, Rinv_l, Rmult_1_r by lra.
  assert (Q : 0 < (2 / a) ^ S n) by (apply pow_lt, Rdiv_lt_0_compat; lra).
  assert (B : s ^ n * s * s ^ S n <= C * (2 / a) ^ S n * X).
  { replace (s ^ n * s * s ^ S n) with ((2 / a) ^ S n * (a * s * s / 2) ^ S n).
    - replace (C * (2 / a) ^ S n * X) with ((2 / a) ^ S n * (C * X)) by ring. apply Rmult_le_compat_l; lra.
    - rewrite <- Rpow_mult_distr. replace (2 / a * (a * s * s / 2)) with (s * s) by (field; lra). rewrite Rpow_mult_distr. cbn [pow]. ring. }
  assert (S2 : 1 <= s ^ S n) by (apply pow_R1_Rle, S1). set (T := C * (2 / a) ^ S n) in *. assert (TP : 0 < T) by (apply Rmult_lt_0_compat; assumption).
  assert (T2 : T < e * s). { assert (T / e < s) by lra. apply (proj1 (Rlt_div_l _ _ _ He)) in H0. lra. }
  assert (B2 : s ^ n * s <= T * X). { apply Rle_trans with (s ^ n * s * s ^ S n); [|exact B]. assert (0 < s ^ n * s) by nra. nra. }
  assert (s ^ n * s < e * X * s); [|apply (Rmult_lt_reg_r s); lra]. apply Rle_lt_trans with (T * X); [exact B2|]. nra.
Qed.
Lemma peval_ga p a e : 0 < a -> 0 < e -> exists M, forall s, M <= s -> Rabs (peval p s * ga a s) < e.
Proof.
  intros Ha. revert e. assert (G : forall k e, 0 < e -> exists M, forall s, M <= s -> Rabs (s ^ k * peval p s * ga a s) < e).
  { induction p as [|c p IH]; intros k e He.
    - exists 0. intros s _. cbn. rewrite Rmult_0_r, Rmult_0_l, Rabs_R0. exact He.
    - destruct (IH (S k) (e / 2) ltac:(lra)) as (M1 & H1). destruct (ga_pow a k (e / 2 / (Rabs c + 1)) Ha) as (M2 & H2).
      { pose proof (Rabs_pos c). apply Rdiv_lt_0_compat; lra. }
      exists (Rmax M1 M2). intros s Hs. pose proof (Rmax_l M1 M2). pose proof (Rmax_r M1 M2). specialize (H1 s ltac:(lra)). specialize (H2 s ltac:(lra)).
      replace (s ^ k * peval (c :: p) s * ga a s) with (c * (s ^ k * ga a s) + s ^ S k * peval p s * ga a s) by (cbn [peval pow]; ring).
      eapply Rle_lt_trans; [apply Rabs_triang|]. rewrite (Rabs_mult c). pose proof (Rabs_pos c) as C. pose proof (Rabs_pos (s ^ k * ga a s)) as C'.
      assert (Rabs c * Rabs (s ^ k * ga a s) <= e / 2); [|lra].
      apply Rle_trans with ((Rabs c + 1) * (e / 2 / (Rabs c + 1))); [apply Rmult_le_compat; lra|]. right. field. lra. }
  intros e He. destruct (G 0%nat e He) as (M & H). exists M. intros s Hs. specialize (H s Hs). cbn [pow] in H. rewrite Rmult_1_l in H. exact H.
Qed.
Lemma erfc_lim e : 0 < e -> exists M, forall s, M <= s -> Rabs (erfc s) < e.
Proof.
  intros He. destruct (erf_limit e He) as (M & _ & H). exists M. intros s Hs. specialize (H s Hs). pose proof (erf_bound s). unfold erfc. apply Rabs_def1; lra.
Qed.
