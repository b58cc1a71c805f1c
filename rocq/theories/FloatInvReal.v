(** Facts about the real numbers behind inv_Phi in double: how one Halley step behaves when the residual
    is only known approximately, and how good the starting values are. *)
From Coq Require Import Reals Lra Lia Psatz ZArith List Bool.
From Coquelicot Require Import Coquelicot.
From Verif Require Import Improper GaussInt GammaFn ContModel ContProofs NormModel NormProofs AsyFacts AsyValue InvPhiPoly InvPhiModel InvPhiCentral InvPhiTail InvPhiHalley InvPhiProofs.
Import ListNotations.
Local Open Scope R_scope.

Lemma Phi_mvt a b : exists c, Rmin a b <= c <= Rmax a b /\ Phi b - Phi a = phi c * (b - a).
Proof.
  apply (MVT_gen Phi a b phi); [intros x _; apply Phi_deriv|]. intros x _. apply derivable_continuous_pt. exists (phi x). apply is_derive_Reals, Phi_deriv.
Qed.
Lemma phi_K y : phi y * (s2pi * exp (y * y * (1 / 2))) = 1.
Proof.
  unfold phi, s2pi. pose proof s2pi_pos as P. unfold s2pi in P. replace (1 / sqrt (2 * PI) * exp (- (y * y) / 2) * (sqrt (2 * PI) * exp (y * y * (1 / 2)))) with (exp (- (y * y) / 2) * exp (y * y * (1 / 2))) by (field; lra).
  rewrite <- exp_plus. replace (- (y * y) / 2 + y * y * (1 / 2)) with 0 by field. apply exp_0.
Qed.
Lemma phi_le y : phi y <= 2 / 5.
Proof.
  pose proof s2pi_bounds as B. unfold phi. fold s2pi. assert (E : exp (- (y * y) / 2) <= 1) by (rewrite <- exp_0; apply (proj2 (exp_le_iff _ _)); pose proof (Rle_0_sqr y) as S; unfold Rsqr in S; lra).
  assert (I : 1 / s2pi <= 2 / 5). { apply Rmult_le_reg_r with s2pi; [lra|]. replace (1 / s2pi * s2pi) with 1 by (field; lra). lra. } assert (I0 : 0 <= 1 / s2pi) by (apply Rlt_le, Rdiv_lt_0_compat; lra). pose proof (exp_pos (- (y * y) / 2)) as X.
  apply Rle_trans with (2 / 5 * 1); [apply Rmult_le_compat; lra|lra].
Qed.
Lemma phi_ratio y c d : Rabs (c - y) <= d -> phi c <= phi y * exp (Rabs y * d).
Proof.
  intros H. unfold phi. fold s2pi. pose proof s2pi_pos as P. rewrite Rmult_assoc. apply Rmult_le_compat_l; [apply Rlt_le, Rdiv_lt_0_compat; lra|]. rewrite <- exp_plus. apply (proj2 (exp_le_iff _ _)).
  pose proof (Rle_0_sqr (c - y)) as S. unfold Rsqr in S. assert (A : - (y * (c - y)) <= Rabs y * d). { apply Rle_trans with (Rabs (- (y * (c - y)))); [apply Rle_abs|]. rewrite Rabs_Ropp, Rabs_mult. apply Rmult_le_compat_l; [apply Rabs_pos|exact H]. }
  replace (- (c * c) / 2) with (- (y * y) / 2 + - (y * (c - y)) - (c - y) * (c - y) / 2) by field. lra.
Qed.
Lemma exp_q : exp (75 / 100) <= 256 / 100.
Proof.
  pose proof (exp_ineq1_le (- (375 / 1000))) as L. replace (75 / 100) with (375 / 1000 + 375 / 1000) by field. rewrite exp_plus. rewrite exp_Ropp in L. pose proof (exp_pos (375 / 1000)) as P. set (e := exp (375 / 1000)) in *.
  assert (E : e <= 16 / 10). { apply Rmult_le_reg_r with (/ e); [apply Rinv_0_lt_compat, P|]. rewrite Rinv_r by lra. lra. } apply Rle_trans with (16 / 10 * (16 / 10)); [apply Rmult_le_compat; lra|lra].
Qed.
Lemma between_abs a b c y d : Rmin a b <= c <= Rmax a b -> Rabs (a - y) <= d -> Rabs (b - y) <= d -> Rabs (c - y) <= d.
Proof. intros H A B. apply Rabs_le_between in A, B. apply Rabs_le. unfold Rmin, Rmax in H. destruct (Rle_dec a b); lra. Qed.

(** ** One step with an approximate correction [uh] *)
Lemma halley_real x y a w W d uh yh : 0 < x < 1 -> Rabs ((Phi y - x) * s2pi * exp (y * y * (1 / 2))) <= a -> Rabs y <= 10 -> a <= 1 / 100000 -> 0 <= d <= 1 / 1000000000 -> (2 / 10 + y * y / 10) * (a * a * a) <= d ->
  Rabs (uh - (Phi y - x) * s2pi * exp (y * y * (1 / 2))) <= w -> Rabs y * w <= 54 / 100 -> w * phi y <= W -> Rabs (yh - (y - uh / (1 + y * uh / 2))) <= 20 * d ->
  7 / 10 <= 1 + y * uh / 2 <= 13 / 10 /\ Rabs (Phi yh - x) <= 36 / 10 * W + 9 * d.
Proof.
  intros Hx HU Hy Ha Hd H3 Hu Hw HW Hyh. destruct (Phi_surjective x Hx) as (z & Hz). pose proof (Rabs_pos y) as Py. set (U := (Phi y - x) * s2pi * exp (y * y * (1 / 2))) in *.
  assert (a0 : 0 <= a) by (pose proof (Rabs_pos U); lra). assert (w0 : 0 <= w) by (pose proof (Rabs_pos (uh - U)); lra). assert (YA : Rabs y * a <= 10 * (1 / 100000)) by (apply Rmult_le_compat; lra).
  destruct (halley_error x y z a Hz HU ltac:(lra)) as (_ & y1 & E1 & B1).
  assert (YU : Rabs (y * U) <= 1 / 10000) by (rewrite Rabs_mult; apply Rle_trans with (Rabs y * a); [apply Rmult_le_compat_l; lra|lra]).
  assert (YUh : Rabs (y * uh) <= 541 / 1000). { replace (y * uh) with (y * U + y * (uh - U)) by ring. apply Rle_trans with (1 := Rabs_triang _ _). rewrite (Rabs_mult y (uh - U)). assert (Rabs y * Rabs (uh - U) <= Rabs y * w) by (apply Rmult_le_compat_l; lra). lra. }
  apply Rabs_le_between in YU, YUh. set (Dh := 1 + y * uh / 2) in *. assert (RDh : 729 / 1000 <= Dh <= 13 / 10) by (unfold Dh; lra). split; [lra|].
  assert (V1 : y1 = y - U / (1 + y * U / 2)).
  { unfold halley_Phi in E1. cbv zeta in E1. fold s2pi in E1. fold U in E1. unfold minus_quotient, quotient in E1. destruct (Req_EM_T (1 + y * U * (1 / 2)) 0) as [Z|Z]; [exfalso; lra|]. injection E1 as <-. f_equal. f_equal. f_equal. field. }
  set (D1 := 1 + y * U / 2) in *. assert (RD1 : 9998 / 10000 <= D1) by (unfold D1; lra).
  assert (I1 : 0 < / D1 <= 10003 / 10000). { split; [apply Rinv_0_lt_compat; lra|]. apply Rmult_le_reg_r with D1; [lra|]. rewrite Rinv_l by lra. lra. }
  assert (Ih : 0 < / Dh <= 1372 / 1000). { split; [apply Rinv_0_lt_compat; lra|]. apply Rmult_le_reg_r with Dh; [lra|]. rewrite Rinv_l by lra. lra. }
  assert (DU : Rabs (U / D1) <= 10003 / 10000 * a). { unfold Rdiv. rewrite Rabs_mult, (Rabs_pos_eq (/ D1)) by lra. rewrite Rmult_comm. apply Rmult_le_compat; try lra. apply Rabs_pos. }
  assert (DD : Rabs (uh / Dh - U / D1) <= 1373 / 1000 * w).
  { replace (uh / Dh - U / D1) with ((uh - U) * (/ Dh * / D1)) by (unfold Dh, D1 in *; field; lra). rewrite Rabs_mult, (Rabs_pos_eq (/ Dh * / D1)) by (apply Rmult_le_pos; lra). rewrite Rmult_comm. apply Rmult_le_compat; [apply Rmult_le_pos; lra|apply Rabs_pos| |exact Hu]. apply Rle_trans with (1372 / 1000 * (10003 / 10000)); [apply Rmult_le_compat; lra|lra]. }
  assert (YY : Rabs (yh - y1) <= 1373 / 1000 * w + 20 * d). { replace (yh - y1) with ((yh - (y - uh / Dh)) - (uh / Dh - U / D1)) by (rewrite V1; ring). unfold Rminus at 1. apply Rle_trans with (1 := Rabs_triang _ _). rewrite Rabs_Ropp. lra. }
  set (dd := 1001 / 1000 * a + (1373 / 1000 * w + 20 * d)). assert (A1 : Rabs (y1 - y) <= dd). { rewrite V1. replace (y - U / D1 - y) with (- (U / D1)) by ring. rewrite Rabs_Ropp. unfold dd. lra. }
  assert (A2 : Rabs (yh - y) <= dd). { replace (yh - y) with ((yh - y1) + (y1 - y)) by ring. apply Rle_trans with (1 := Rabs_triang _ _). rewrite V1 at 2. replace (y - U / D1 - y) with (- (U / D1)) by ring. rewrite Rabs_Ropp. unfold dd. lra. }
  destruct (Phi_mvt y1 yh) as (c & Hc & Ec). pose proof (between_abs _ _ _ _ _ Hc A1 A2) as Cy. pose proof (phi_ratio y c dd Cy) as R.
  assert (YD : Rabs y * dd <= 75 / 100). { unfold dd. assert (Rabs y * d <= 10 * (1 / 1000000000)) by (apply Rmult_le_compat; lra). replace (Rabs y * (1001 / 1000 * a + (1373 / 1000 * w + 20 * d))) with (1001 / 1000 * (Rabs y * a) + 1373 / 1000 * (Rabs y * w) + 20 * (Rabs y * d)) by ring. lra. }
  pose proof (phi_pos y) as Py0. pose proof (phi_pos c) as Pc0. pose proof (phi_le c) as Pc. assert (R' : phi c <= phi y * (256 / 100)). { apply Rle_trans with (1 := R). apply Rmult_le_compat_l; [lra|]. apply Rle_trans with (exp (75 / 100)); [apply (proj2 (exp_le_iff _ _)); exact YD|apply exp_q]. }
  assert (P1 : Rabs (Phi yh - Phi y1) <= 3515 / 1000 * W + 8 * d).
  { rewrite Ec, Rabs_mult, (Rabs_pos_eq (phi c)) by lra. apply Rle_trans with (phi c * (1373 / 1000 * w + 20 * d)); [apply Rmult_le_compat_l; lra|]. rewrite Rmult_plus_distr_l. assert (X1 : phi c * w <= 256 / 100 * W). { apply Rle_trans with (phi y * (256 / 100) * w); [apply Rmult_le_compat_r; lra|]. replace (phi y * (256 / 100) * w) with (256 / 100 * (w * phi y)) by ring. apply Rmult_le_compat_l; lra. }
    assert (X2 : phi c * d <= 2 / 5 * d) by (apply Rmult_le_compat_r; lra). replace (phi c * (1373 / 1000 * w)) with (1373 / 1000 * (phi c * w)) by ring. replace (phi c * (20 * d)) with (20 * (phi c * d)) by ring. assert (0 <= W). { apply Rle_trans with (2 := HW). apply Rmult_le_pos; lra. } lra. }
  destruct (Phi_mvt z y1) as (c2 & _ & Ec2). rewrite Hz in Ec2. assert (P2 : Rabs (Phi y1 - x) <= 2 / 5 * d). { rewrite Ec2, Rabs_mult, (Rabs_pos_eq (phi c2)) by (left; apply phi_pos). pose proof (phi_le c2). pose proof (phi_pos c2). apply Rmult_le_compat; try lra. apply Rabs_pos. }
  replace (Phi yh - x) with ((Phi yh - Phi y1) + (Phi y1 - x)) by ring. apply Rle_trans with (1 := Rabs_triang _ _). assert (0 <= W). { apply Rle_trans with (2 := HW). apply Rmult_le_pos; lra. } lra.
Qed.

(** ** The starting value in the tails *)
Lemma gt_9 : - (9) <= gt 9.
Proof.
  pose proof (gD_pos 9 ltac:(lra)) as P. unfold gt. apply Rmult_le_reg_r with (gD 9); [exact P|]. replace (gN 9 / gD 9 * gD 9) with (gN 9) by (field; lra). unfold gN, gD, cz, dz. cbn [inv_c inv_d rev app zr map peval]. lra.
Qed.
Lemma gt_range t : 43 / 16 <= t <= 9 -> - (9) <= gt t <= - (192 / 100).
Proof.
  intros H. pose proof gt_9. pose proof anchor_g. pose proof (gt_decr t 9 ltac:(lra) ltac:(lra) ltac:(lra)). pose proof (gt_decr (43 / 16) t ltac:(lra) ltac:(lra) ltac:(lra)). lra.
Qed.
Lemma tail_U t x y : 43 / 16 <= t <= 9 -> 0 < x -> Rabs (et t - x) <= 1 / 1000000000 * x -> Rabs (y - gt t) <= 1 / 10000000000 ->
  - (901 / 100) <= y <= - (19 / 10) /\ Rabs ((Phi y - x) * s2pi * exp (y * y * (1 / 2))) <= 1 / 1000000.
Proof.
  intros Ht Hx He Hy. pose proof (gt_range t Ht) as G. pose proof (tail_error_1 t ltac:(lra)) as T. apply Rabs_le_between in He. pose proof (proj1 (Rabs_le_between _ _) Hy) as Hy'. split; [lra|].
  set (g := gt t) in *. assert (E1 : Rabs (Phi g - x) <= 142 / 100000000 * Phi g). { apply Rabs_le_between in T. apply Rabs_le. lra. }
  pose proof (mills (- g) ltac:(lra)) as M. rewrite phi_even, Ropp_involutive in M. pose proof (Phi_range g) as Pg. pose proof (phi_pos g) as pg. assert (M' : Phi g <= 100 / 192 * phi g). { assert (192 / 100 * Phi g <= - g * Phi g) by (apply Rmult_le_compat_r; lra). lra. }
  destruct (Phi_mvt g y) as (c & Hc & Ec). set (h := 1 / 10000000000) in *. assert (Rg : forall v, Rabs (v - y) <= h -> phi v <= phi y * (10001 / 10000)).
  { intros v Hv. apply Rle_trans with (1 := phi_ratio y v h Hv). pose proof (phi_pos y). apply Rmult_le_compat_l; [lra|]. assert (Rabs y <= 10) by (apply Rabs_le; unfold h in *; lra). assert (B : 0 <= Rabs y * h <= 1 / 100000). { split; [apply Rmult_le_pos; [apply Rabs_pos|unfold h; lra]|]. apply Rle_trans with (10 * h); [apply Rmult_le_compat_r; unfold h; lra|unfold h; lra]. }
    pose proof (exp_near (Rabs y * h) (1 / 100000) ltac:(lra) ltac:(rewrite Rabs_pos_eq; lra)) as X. lra. }
  pose proof (Rg g ltac:(rewrite <- Rabs_Ropp; replace (- (g - y)) with (y - g) by ring; exact Hy)) as R1.
  assert (R2 : phi c <= phi y * (10001 / 10000)). { apply Rg. apply (between_abs g y c y h Hc); [rewrite <- Rabs_Ropp; replace (- (g - y)) with (y - g) by ring; exact Hy|unfold Rminus; rewrite Rplus_opp_r, Rabs_R0; unfold h; lra]. }
  pose proof (phi_pos c) as pc. pose proof (phi_pos y) as py. assert (E2 : Rabs (Phi y - Phi g) <= 10001 / 10000 * h * phi y). { rewrite Ec, Rabs_mult, (Rabs_pos_eq (phi c)) by lra. replace (10001 / 10000 * h * phi y) with (phi y * (10001 / 10000) * h) by ring. apply Rmult_le_compat; try lra. apply Rabs_pos. }
  assert (E : Rabs (Phi y - x) <= 1 / 1000000 * phi y). { replace (Phi y - x) with ((Phi y - Phi g) + (Phi g - x)) by ring. apply Rle_trans with (1 := Rabs_triang _ _). unfold h in E2. lra. }
  pose proof (phi_K y) as K. set (k := s2pi * exp (y * y * (1 / 2))) in *. assert (k0 : 0 < k) by (unfold k; apply Rmult_lt_0_compat; [apply s2pi_pos|apply exp_pos]). rewrite Rmult_assoc. fold k. rewrite Rabs_mult, (Rabs_pos_eq k) by lra. apply Rle_trans with (1 / 1000000 * phi y * k); [apply Rmult_le_compat_r; lra|]. rewrite Rmult_assoc, K. lra.
Qed.

(** ** and in the centre *)
Lemma central_any q : 0 <= q <= 475755 / 1000000 -> Rabs (Phi (gc q) - (1 / 2 + q)) <= 24 / 100000000.
Proof.
  intros Hq. assert (Iq : inside q) by (split; [lra|nra]). destruct (Rle_lt_dec (1100 * (q * q)) 212) as [L|L].
  - pose proof (central_1_error q (proj1 Hq) L) as B. lra.
  - set (q1 := sqrt (212 / 1100)). assert (E1 : q1 * q1 = 212 / 1100) by (apply sqrt_sqrt; lra).
    assert (P1 : 0 <= q1) by apply sqrt_pos. assert (L1 : 439 / 1000 <= q1 <= 4391 / 10000) by (split; nra). assert (Lq : q1 <= q) by nra.
    pose proof (central_1_error q1 P1 ltac:(lra)) as B1.
    assert (B2 : Rabs (Phi (gc q) - q - (Phi (gc q1) - q1)) <= 2345 / 1000000000 * (q - q1)).
    { apply (error_step (2345 / 1000000000) q1 q ltac:(lra) Iq). intros t Ht. assert (It : inside t) by (destruct Iq; split; [lra|nra]). rewrite (jc_exp t It).
      pose proof (exp_near _ (2340 / 1000000000) ltac:(lra) (hc_close_2 t It)) as X. apply Rabs_le. lra. }
    replace (Phi (gc q) - (1 / 2 + q)) with ((Phi (gc q) - q - (Phi (gc q1) - q1)) + (Phi (gc q1) - (1 / 2 + q1))) by ring.
    eapply Rle_trans; [apply Rabs_triang|]. lra.
Qed.
Lemma gc_opp q : gc (- q) = - gc q.
Proof. unfold gc, fN, fA, fB. replace (- q * - q) with (q * q) by ring. unfold Rdiv. ring. Qed.
Lemma gc_abs q : Rabs q <= 475755 / 1000000 -> Rabs (gc q) <= 19792 / 10000 /\ Rabs (Phi (gc q) - (1 / 2 + q)) <= 24 / 100000000 /\ 1 / 1000 <= fB q / 1000000000000000.
Proof.
  assert (P : forall q, 0 <= q <= 475755 / 1000000 -> Rabs (gc q) <= 19792 / 10000 /\ Rabs (Phi (gc q) - (1 / 2 + q)) <= 24 / 100000000 /\ 1 / 1000 <= fB q / 1000000000000000).
  { intros s Hs. assert (I : inside s) by (split; [lra|nra]). pose proof (gc_bounds s I) as G. split; [apply Rabs_le; lra|]. split; [apply central_any; exact Hs|].
    pose proof (covered_at _ _ (s * s) bz_ok (in_cover_b _ (inside_range s I))) as B. rewrite zadd_eval in B. cbn [zr map peval] in B. fold (zr bz) in B. fold (fB s) in B. lra. }
  intros H. destruct (Rle_lt_dec 0 q) as [L|L]; [apply P; rewrite Rabs_pos_eq in H; lra|]. rewrite Rabs_left in H by lra. destruct (P (- q) ltac:(lra)) as (A & B & C). rewrite gc_opp in A, B. rewrite Rabs_Ropp in A. rewrite Phi_opp in B. split; [exact A|]. split.
  - rewrite <- Rabs_Ropp. replace (- (Phi (gc q) - (1 / 2 + q))) with (1 - Phi (gc q) - (1 / 2 + - q)) by field. exact B.
  - unfold fB in *. replace (- q * - q) with (q * q) in C by ring. exact C.
Qed.
Lemma central_U q x y : Rabs q <= 475755 / 1000000 -> Rabs (x - (1 / 2 + q)) <= 1 / 1000000000000 -> Rabs (y - gc q) <= 1 / 1000000000 ->
  Rabs y <= 198 / 100 /\ Rabs (Phi y - x) <= 25 / 100000000 /\ Rabs ((Phi y - x) * s2pi * exp (y * y * (1 / 2))) <= 5 / 1000000.
Proof.
  intros Hq Hx Hy. destruct (gc_abs q Hq) as (G & E & _). assert (Y : Rabs y <= 198 / 100). { replace y with ((y - gc q) + gc q) by ring. apply Rle_trans with (1 := Rabs_triang _ _). lra. } split; [exact Y|].
  assert (EE : Rabs (Phi y - x) <= 25 / 100000000).
  { destruct (Phi_mvt (gc q) y) as (c & _ & Ec). pose proof (phi_le c). pose proof (phi_pos c). assert (B : Rabs (Phi y - Phi (gc q)) <= 2 / 5 * (1 / 1000000000)) by (rewrite Ec, Rabs_mult, (Rabs_pos_eq (phi c)) by lra; apply Rmult_le_compat; try lra; apply Rabs_pos).
    replace (Phi y - x) with ((Phi y - Phi (gc q)) + (Phi (gc q) - (1 / 2 + q)) - (x - (1 / 2 + q))) by ring. unfold Rminus at 1. apply Rle_trans with (1 := Rabs_triang _ _). rewrite Rabs_Ropp. pose proof (Rabs_triang (Phi y - Phi (gc q)) (Phi (gc q) - (1 / 2 + q))). lra. }
  split; [exact EE|]. assert (YY : y * y <= 198 / 100 * (198 / 100)). { replace (y * y) with (Rabs y * Rabs y) by (rewrite <- Rabs_mult; apply Rabs_pos_eq; pose proof (Rle_0_sqr y) as S; exact S). pose proof (Rabs_pos y). apply Rmult_le_compat; lra. }
  assert (X : exp (y * y * (1 / 2)) <= 73 / 10). { apply Rle_trans with (exp (2 * (98 / 100) + 2 / 1000)); [apply (proj2 (exp_le_iff _ _)); lra|]. rewrite exp_plus. pose proof exp_16 as X. pose proof (exp_near (2 / 1000) (2 / 1000) ltac:(lra) ltac:(rewrite Rabs_pos_eq; lra)) as N. pose proof (exp_pos (2 * (98 / 100))). apply Rle_trans with (711 / 100 * (1003 / 1000)); [apply Rmult_le_compat; lra|lra]. }
  rewrite !Rabs_mult. pose proof s2pi_bounds as S. pose proof (exp_pos (y * y * (1 / 2))) as XP. rewrite (Rabs_pos_eq s2pi), (Rabs_pos_eq (exp _)) by lra. apply Rle_trans with (25 / 100000000 * (25067 / 10000) * (73 / 10)); [|lra].
  apply Rmult_le_compat; try lra; [apply Rmult_le_pos; [apply Rabs_pos|lra]|]. apply Rmult_le_compat; try lra. apply Rabs_pos.
Qed.
Lemma central_polys q : central_num (q * q) = fA q / 1000000000000000 /\ central_den (q * q) = fB q / 1000000000000000.
Proof.
  split; [unfold central_num, ca, coeff15, fA, az; cbn [nth inv_a rev app zr map peval]; field|unfold central_den, cb, coeff15, fB, bz; cbn [nth inv_b rev app zr map peval]; field].
Qed.
