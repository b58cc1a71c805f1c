(** The accuracy of inv_Phi, inv_erf and inv_erfc. *)
From Coq Require Import Reals Lra Lia Psatz ZArith List Bool.
From Coquelicot Require Import Coquelicot.
From Verif Require Import Improper GaussInt GammaFn ContModel ContProofs NormModel NormProofs AsyFacts AsyValue InvPhiPoly InvPhiModel InvPhiCentral InvPhiTail InvPhiHalley.
Import ListNotations.
Local Open Scope R_scope.

(** ** Numbers *)
Lemma ln2_upper : ln 2 <= 6935 / 10000.
Proof.
  apply (proj1 (exp_le_iff _ _)). rewrite exp_ln by lra. eapply Rle_trans; [|apply (exp_lower 6); lra].
  cbn [taylor pow fact Nat.mul Nat.add]. rewrite ?INR_IZR_INZ. cbn [Z.of_nat Pos.of_succ_nat Pos.succ]. lra.
Qed.
Lemma exp_16 : exp (2 * (98 / 100)) <= 711 / 100.
Proof.
  pose proof (exp_upper 6 (98 / 100) ltac:(lra)) as H. cbn [taylor pow fact Nat.mul Nat.add] in H. rewrite ?INR_IZR_INZ in H. cbn [Z.of_nat Pos.of_succ_nat Pos.succ] in H.
  replace (2 * (98 / 100)) with (98 / 100 + 98 / 100) by ring. rewrite exp_plus. pose proof (exp_pos (98 / 100)). set (e := exp (98 / 100)) in *.
  assert (e <= 2666 / 1000) by lra. nra.
Qed.
Lemma exp_125 : exp (125 / 100) <= 351 / 100.
Proof.
  pose proof (exp_upper 6 (125 / 200) ltac:(lra)) as H. cbn [taylor pow fact Nat.mul Nat.add] in H. rewrite ?INR_IZR_INZ in H. cbn [Z.of_nat Pos.of_succ_nat Pos.succ] in H.
  replace (125 / 100) with (125 / 200 + 125 / 200) by lra. rewrite exp_plus. pose proof (exp_pos (125 / 200)). set (e := exp (125 / 200)) in *.
  assert (e <= 18690 / 10000) by lra. nra.
Qed.
Lemma exp_362 : exp (362 / 100) <= 40.
Proof.
  pose proof (exp_upper 6 (905 / 1000) ltac:(lra)) as H. cbn [taylor pow fact Nat.mul Nat.add] in H. rewrite ?INR_IZR_INZ in H. cbn [Z.of_nat Pos.of_succ_nat Pos.succ] in H.
  replace (362 / 100) with ((905 / 1000 + 905 / 1000) + (905 / 1000 + 905 / 1000)) by lra. rewrite !exp_plus. pose proof (exp_pos (905 / 1000)). set (e := exp (905 / 1000)) in *.
  assert (e <= 2473 / 1000) by lra. assert (e * e <= 6116 / 1000) by nra. nra.
Qed.
Lemma eps54 : / 2 ^ 54 = 1 / 18014398509481984.
Proof. replace (2 ^ 54) with 18014398509481984 by (cbn [pow]; lra). field. Qed.

(** ** The first step *)
Definition close (x y : R) : Prop := forall z, Phi z = x ->
  Rabs z <= 40 /\ Rabs (y - z) <= 1 / 10000 /\ exists y1, halley_Phi x y = Fin y1 /\ Rabs (y1 - z) <= / 2 ^ 54 * Rabs z.
Lemma halley_opp x y : halley_Phi (1 - x) (- y) = neg (halley_Phi x y).
Proof.
  unfold halley_Phi, minus_quotient, quotient. rewrite Phi_opp. replace (- y * - y) with (y * y) by ring. fold s2pi.
  set (E := exp (y * y * (1 / 2))). replace ((1 - Phi y - (1 - x)) * s2pi * E) with (- ((Phi y - x) * s2pi * E)) by ring.
  set (u := (Phi y - x) * s2pi * E). replace (- y * - u * (1 / 2)) with (y * u * (1 / 2)) by ring.
  destruct (Req_EM_T (1 + y * u * (1 / 2)) 0) as [Z|Z]; cbn [neg]; [reflexivity|]. f_equal. field. lra.
Qed.
Lemma close_opp x y : close x y -> close (1 - x) (- y).
Proof.
  intros H z Hz. destruct (H (- z)) as (B & D & y1 & E & A). { rewrite Phi_opp, Hz. ring. }
  rewrite Rabs_Ropp in B, A. split; [exact B|]. split; [replace (- y - z) with (- (y - - z)) by ring; rewrite Rabs_Ropp; exact D|].
  exists (- y1). split; [rewrite halley_opp, E; reflexivity|].
  replace (- y1 - z) with (- (y1 - - z)) by ring. rewrite Rabs_Ropp. exact A.
Qed.
Lemma close_tail t : 43 / 16 <= t <= 386 / 10 -> close (et t) (gt t).
Proof.
  intros Ht z Hz. pose proof s2pi_pos as SP.
  pose proof (gt_decr (43 / 16) t ltac:(lra) ltac:(lra) ltac:(lra)) as G1. pose proof (gt_decr t 40 ltac:(lra) ltac:(lra) ltac:(lra)) as G2.
  assert (G40 : - (399 / 10) <= gt 40).
  { pose proof (gD_pos 40 ltac:(lra)) as P. apply (proj1 (Rle_div_r _ _ _ P)). unfold gN, gD, cz, dz. cbn [rev app inv_c inv_d zr map peval]. lra. }
  pose proof anchor_g as AG.
  assert (Gm : 10 <= t -> gt t <= - (9)) by (intros L; eapply Rle_trans; [apply (gt_decr 10 t); lra|apply gt_10]).
  (* the size of the argument of the step *)
  assert (U : forall c, 0 <= c <= 1 / 1000 -> Rabs (Phi (gt t) - et t) <= c * et t ->
    Rabs ((Phi (gt t) - et t) * s2pi * exp (gt t * gt t * (1 / 2))) <= 1002 / 1000 * c / - gt t).
  { intros c Hc B. assert (Pe : 0 < et t) by apply exp_pos. pose proof (exp_pos (gt t * gt t * (1 / 2))) as PE.
    rewrite !Rabs_mult, (Rabs_right s2pi), (Rabs_right (exp _)) by lra. set (E := exp (gt t * gt t * (1 / 2))) in *.
    assert (M : - gt t * Phi (gt t) <= phi (gt t)). { pose proof (mills (- gt t) ltac:(lra)) as M. rewrite Ropp_involutive, phi_even in M. exact M. }
    assert (F : phi (gt t) * (s2pi * E) = 1).
    { unfold phi, E. fold s2pi. replace (1 / s2pi * exp (- (gt t * gt t) / 2) * (s2pi * exp (gt t * gt t * (1 / 2)))) with (exp (- (gt t * gt t) / 2) * exp (gt t * gt t * (1 / 2))) by (field; lra).
      rewrite <- exp_plus. replace (- (gt t * gt t) / 2 + gt t * gt t * (1 / 2)) with 0 by field. apply exp_0. }
    apply (proj1 (Rle_div_r _ _ (- gt t) ltac:(lra))). pose proof (Phi_range (gt t)) as PR.
    assert (L : et t * (999 / 1000) <= Phi (gt t)) by (apply Rabs_le_between in B; nra).
    assert (SE : 0 < s2pi * E) by (apply Rmult_lt_0_compat; assumption).
    apply Rle_trans with (c * et t * (s2pi * E) * - gt t).
    - rewrite (Rmult_assoc (Rabs (Phi (gt t) - et t)) s2pi E). apply Rmult_le_compat_r; [lra|]. apply Rmult_le_compat_r; [lra|exact B].
    - assert (K : et t * (s2pi * E) * - gt t <= 1002 / 1000). { assert (- gt t * Phi (gt t) * (s2pi * E) <= 1) by (rewrite <- F; apply Rmult_le_compat_r; lra).
        assert (et t * - gt t * (s2pi * E) * (999 / 1000) <= - gt t * Phi (gt t) * (s2pi * E)).
        { replace (et t * - gt t * (s2pi * E) * (999 / 1000)) with (et t * (999 / 1000) * (- gt t * (s2pi * E))) by ring.
          replace (- gt t * Phi (gt t) * (s2pi * E)) with (Phi (gt t) * (- gt t * (s2pi * E))) by ring. apply Rmult_le_compat_r; [|exact L]. apply Rmult_le_pos; lra. }
        lra. }
      replace (c * et t * (s2pi * E) * - gt t) with (c * (et t * (s2pi * E) * - gt t)) by ring. nra. }
  set (g := - gt t) in *. assert (Hg : 1926580873 / 1000000000 <= g <= 399 / 10) by (unfold g; lra).
  assert (Ag : Rabs (gt t) = g) by (rewrite Rabs_left; unfold g; lra). assert (Eg : gt t * gt t = g * g) by (unfold g; ring).
  (* both stages *)
  assert (FIN : forall c, 0 <= c -> 1002 / 1000 * c * (g + 1) <= 9 / 1000 * g -> 1002 / 1000 * c <= 8 / 100000 * g ->
     Rabs ((Phi (gt t) - et t) * s2pi * exp (gt t * gt t * (1 / 2))) <= 1002 / 1000 * c / g ->
     (2 / 10 + g * g / 10) * (1002 / 1000 * c * (1002 / 1000 * c) * (1002 / 1000 * c)) <= / 2 ^ 55 * (g * g * g * g) ->
     Rabs z <= 40 /\ Rabs (gt t - z) <= 1 / 10000 /\ exists y1, halley_Phi (et t) (gt t) = Fin y1 /\ Rabs (y1 - z) <= / 2 ^ 54 * Rabs z).
  { intros c Hc C1 C3 HU C2. set (a := 1002 / 1000 * c / g) in *.
    assert (Ea : a * g = 1002 / 1000 * c) by (unfold a; field; lra). assert (a0 : 0 <= a) by (apply Rdiv_le_0_compat; lra).
    destruct (halley_error (et t) (gt t) z a Hz HU) as (Dz & y1 & Ey & B). { rewrite Ag. apply Rmult_le_reg_r with g; [lra|]. nra. }
    rewrite Eg in B.
    assert (Sa : a <= 8 / 100000) by (apply Rmult_le_reg_r with g; [lra|]; nra).
    assert (Zr : g / 2 <= Rabs z <= 40).
    { apply Rabs_le_between in Dz. assert (Zn : z < 0) by (unfold g in *; lra). rewrite (Rabs_left z Zn). unfold g in *. lra. }
    split; [apply Zr|]. split; [lra|]. exists y1. split; [exact Ey|]. eapply Rle_trans; [exact B|].
    apply Rle_trans with (/ 2 ^ 54 * (g / 2)); [|apply Rmult_le_compat_l; [left; apply Rinv_0_lt_compat, pow_lt; lra|lra]].
    assert (P3 : 0 < g * g * g) by (repeat apply Rmult_lt_0_compat; lra). apply Rmult_le_reg_r with (g * g * g); [exact P3|].
    replace ((2 / 10 + g * g / 10) * (a * a * a) * (g * g * g)) with ((2 / 10 + g * g / 10) * ((a * g) * (a * g) * (a * g))) by ring. rewrite Ea.
    replace (/ 2 ^ 54 * (g / 2) * (g * g * g)) with (/ 2 ^ 55 * (g * g * g * g)); [exact C2|].
    change (2 ^ 55) with (2 * 2 ^ 54). assert (2 ^ 54 <> 0) by (apply pow_nonzero; lra). set (P := 2 ^ 54) in *. clearbody P. field. assumption. }
  assert (E55 : / 2 ^ 55 = 1 / 36028797018963968) by (replace (2 ^ 55) with 36028797018963968 by (cbn [pow]; lra); field).
  rewrite E55 in FIN. assert (Q2 : 3 <= g * g) by nra.
  destruct (Rle_lt_dec t 10) as [L|L].
  - apply (FIN (1400 / 1000000000)); try lra; [apply U; [lra|]; apply tail_error_1; lra|]. assert (G4 : 3 * (g * g) <= g * g * g * g) by nra. nra.
  - specialize (Gm ltac:(lra)). assert (Hg9 : 9 <= g) by (unfold g; lra).
    apply (FIN (22200 / 1000000000)); try lra; [apply U; [lra|]; apply tail_error_2; lra|]. assert (81 <= g * g) by nra. assert (G4 : 81 * (g * g) <= g * g * g * g) by nra. nra.
Qed.
Lemma central_finish x q y z a : 0 <= q -> 5 / 2 * q <= y <= 2 -> y <= 5 * q -> Phi z = x ->
  Rabs ((Phi y - x) * s2pi * exp (y * y * (1 / 2))) <= a -> a <= 5 / 1000000 -> a <= q ->
  (2 / 10 + y * y / 10) * (a * a * a) <= 1 / 18014398509481984 * (24999 / 10000 * q) -> a <= 9 / 100000 * q ->
  Rabs z <= 40 /\ Rabs (y - z) <= 1 / 10000 /\ exists y1, halley_Phi x y = Fin y1 /\ Rabs (y1 - z) <= / 2 ^ 54 * Rabs z.
Proof.
  intros Hq Hy Hy' Hz HU Ha Haq HE Hs. assert (a0 : 0 <= a) by (eapply Rle_trans; [apply Rabs_pos|exact HU]).
  assert (Ay : Rabs y = y) by (apply Rabs_right; lra).
  destruct (halley_error x y z a Hz HU ltac:(rewrite Ay; nra)) as (Dz & y1 & Ey & B).
  apply Rabs_le_between in Dz. assert (Zl : 24999 / 10000 * q <= z) by lra.
  rewrite (Rabs_right z) by lra. split; [lra|]. split; [apply Rabs_le; lra|]. exists y1. split; [exact Ey|].
  rewrite eps54. eapply Rle_trans; [exact B|]. eapply Rle_trans; [exact HE|]. apply Rmult_le_compat_l; lra.
Qed.
Lemma close_central q : 0 <= q <= 47575 / 100000 -> close (1 / 2 + q) (gc q).
Proof.
  intros Hq z Hz. assert (I : inside q) by (split; [lra|nra]). pose proof (gc_bounds q I) as G. pose proof s2pi_bounds as SB.
  set (y := gc q) in *. pose proof (exp_pos (y * y * (1 / 2))) as PE.
  destruct (Rle_lt_dec (1100 * (q * q)) 212) as [L|L].
  - pose proof (central_1_error q ltac:(lra) L) as Er. pose proof (gc_bound_1 q ltac:(lra) L) as G1. fold y in Er, G1.
    assert (Yy : y * y * (1 / 2) <= 125 / 100) by nra.
    assert (EE : exp (y * y * (1 / 2)) <= 351 / 100) by (eapply Rle_trans; [exact (proj2 (exp_le_iff _ _) Yy)|apply exp_125]).
    assert (q44 : q <= 44 / 100) by (apply Rnot_lt_le; intros N; assert (44 / 100 * (44 / 100) <= q * q) by (apply Rmult_le_compat; lra); lra).
    apply (central_finish (1 / 2 + q) q y z (27 / 10000000 * q)); try lra.
    + rewrite !Rabs_mult, (Rabs_right s2pi), (Rabs_right (exp _)) by lra.
      replace (27 / 10000000 * q) with (27 / 10000000 * q * 1) by ring.
      apply Rle_trans with (305 / 1000000000 * q * (25066284 / 10000000) * (351 / 100)); [|nra].
      assert (0 <= Rabs (Phi y - (1 / 2 + q))) by apply Rabs_pos.
      apply Rmult_le_compat; [apply Rmult_le_pos; lra|lra| |exact EE]. apply Rmult_le_compat; lra.
    + set (c := 27 / 10000000 * q * (27 / 10000000 * q) * (27 / 10000000 * q)).
      assert (C : c <= 1 / 10000000000000000 * (1 / 5) * q). { unfold c. assert (q * q <= 44 / 100 * (44 / 100)) by nra. nra. }
      assert (0 <= c) by (unfold c; repeat apply Rmult_le_pos; lra). assert (Y4 : 2 / 10 + y * y / 10 <= 6 / 10) by nra.
      apply Rle_trans with (6 / 10 * (1 / 10000000000000000 * (1 / 5) * q)); [apply Rmult_le_compat; nra|lra].
  - pose proof (central_2_error q ltac:(lra) Hq) as Er. fold y in Er.
    assert (q43 : 439 / 1000 <= q) by (apply Rnot_lt_le; intros N; assert (q * q <= 439 / 1000 * (439 / 1000)) by (apply Rmult_le_compat; lra); lra). assert (Yb : y <= 19792 / 10000) by lra.
    assert (Yy : y * y * (1 / 2) <= 2 * (98 / 100)) by nra.
    assert (EE : exp (y * y * (1 / 2)) <= 711 / 100) by (eapply Rle_trans; [exact (proj2 (exp_le_iff _ _) Yy)|apply exp_16]).
    apply (central_finish (1 / 2 + q) q y z (41 / 10000000)); try lra.
    rewrite !Rabs_mult, (Rabs_right s2pi), (Rabs_right (exp _)) by lra.
      apply Rle_trans with (23 / 100000000 * (25066284 / 10000000) * (711 / 100)); [|lra].
      assert (0 <= Rabs (Phi y - (1 / 2 + q))) by apply Rabs_pos.
      apply Rmult_le_compat; [apply Rmult_le_pos; lra|lra| |exact EE]. apply Rmult_le_compat; lra.
Qed.

(** ** The approximation of the code *)
Lemma tail_value t : 0 <= t -> quotient (tail_num t) (tail_den t) = Fin (gt t) /\ quotient (- tail_num t) (tail_den t) = Fin (- gt t).
Proof.
  intros Ht. pose proof (gD_pos t Ht) as P.
  assert (EN : tail_num t = gN t / 1000000000000000000).
  { unfold tail_num, cc, coeff18, gN, cz. cbn [nth inv_c rev app zr map peval]. field. }
  assert (ED : tail_den t = gD t / 1000000000000000000).
  { unfold tail_den, cd, coeff18, gD, dz. cbn [nth inv_d rev app zr map peval]. field. }
  unfold quotient. rewrite EN, ED. destruct (Req_EM_T (gD t / 1000000000000000000) 0) as [Z|Z]; [exfalso; lra|].
  unfold gt. split; f_equal; field; lra.
Qed.
Lemma central_value q : - (47575 / 100000) <= q <= 47575 / 100000 ->
  quotient (central_num (q * q) * q) (central_den (q * q)) = Fin (gc q) /\ gc (- q) = - gc q.
Proof.
  intros Hq. assert (P : 0 < fB q).
  { destruct (Rle_lt_dec 0 q) as [L|L]; [apply fB_pos; split; [exact L|nra]|].
    assert (I : inside (- q)) by (split; [lra|nra]). pose proof (fB_pos _ I) as B. unfold fB in *. replace (- q * - q) with (q * q) in B by ring. exact B. }
  assert (EN : central_num (q * q) = fA q / 1000000000000000).
  { unfold central_num, ca, coeff15, fA, az. cbn [nth inv_a rev app zr map peval]. field. }
  assert (ED : central_den (q * q) = fB q / 1000000000000000).
  { unfold central_den, cb, coeff15, fB, bz. cbn [nth inv_b rev app zr map peval]. field. }
  split.
  - unfold quotient. rewrite EN, ED. destruct (Req_EM_T (fB q / 1000000000000000) 0) as [Z|Z]; [exfalso; lra|].
    unfold gc, fN. f_equal. field. lra.
  - unfold gc, fN, fA, fB in *. replace (- q * - q) with (q * q) by ring. field. lra.
Qed.
Definition reach : R := / 2 ^ 1074.
Lemma reach_pos : 0 < reach.
Proof. apply Rinv_0_lt_compat, pow_lt. lra. Qed.
Lemma reach_small : reach < 1 / 4.
Proof.
  unfold reach. change 1074%nat with (3 + 1071)%nat. rewrite pow_add. pose proof (pow_R1_Rle 2 1071 ltac:(lra)) as P. set (p := 2 ^ 1071) in *. clearbody p.
  replace (1 / 4) with (/ 4) by lra. apply Rinv_lt_contravar; cbn [pow]; nra.
Qed.
Lemma tail_arg x : reach <= x <= x_low -> 43 / 16 <= sqrt (- (2) * ln x) <= 386 / 10 /\ et (sqrt (- (2) * ln x)) = x.
Proof.
  intros Hx. unfold x_low in Hx. pose proof reach_pos as RP.
  assert (U : ln x <= - (362 / 100)).
  { apply (proj1 (exp_le_iff _ _)). rewrite exp_ln, exp_Ropp by lra. pose proof exp_362. pose proof (exp_pos (362 / 100)). eapply Rle_trans; [apply Hx|].
    apply Rle_trans with (/ 40); [lra|]. apply Rinv_le_contravar; assumption. }
  assert (Lo : - (7449 / 10) <= ln x).
  { apply Rle_trans with (ln reach); [|apply ln_le; [exact RP|apply Hx]]. unfold reach. rewrite ln_Rinv by (apply pow_lt; lra). rewrite ln_pow by lra.
    rewrite INR_IZR_INZ. change (Z.of_nat 1074) with 1074%Z. pose proof ln2_upper. lra. }
  assert (E : sqrt (- (2) * ln x) * sqrt (- (2) * ln x) = - (2) * ln x) by (apply sqrt_sqrt; lra). pose proof (sqrt_pos (- (2) * ln x)) as P.
  set (t := sqrt (- (2) * ln x)) in *. split.
  { split; apply Rnot_lt_le; intros N.
    - assert (t * t <= 43 / 16 * (43 / 16)) by (apply Rmult_le_compat; lra). lra.
    - assert (386 / 10 * (386 / 10) <= t * t) by (apply Rmult_le_compat; lra). lra. }
  unfold et. rewrite E. replace (- (- (2) * ln x) / 2) with (ln x) by field. apply exp_ln. lra.
Qed.
Lemma approx_close x : reach <= x <= 1 - reach -> exists y, inv_Phi_approx x = Fin y /\ close x y.
Proof.
  intros Hx. pose proof reach_pos as RP. pose proof reach_small as RS. unfold inv_Phi_approx.
  destruct (Rlt_dec x 0); [lra|]. destruct (Rlt_dec 1 x); [lra|]. destruct (Req_EM_T x 0); [lra|]. destruct (Req_EM_T x 1); [lra|].
  destruct (Rlt_dec x x_low) as [L|L].
  - destruct (tail_arg x ltac:(lra)) as (T & E). set (t := sqrt (- (2) * ln x)) in *. cbv zeta. rewrite (proj1 (tail_value t ltac:(lra))).
    exists (gt t). split; [reflexivity|]. rewrite <- E. apply close_tail. exact T.
  - destruct (Rlt_dec x x_high) as [H|H].
    + unfold x_low, x_high in *. cbv zeta. set (q := x - 1 / 2). destruct (central_value q ltac:(unfold q; lra)) as (E & O). rewrite E. exists (gc q). split; [reflexivity|].
      destruct (Rle_lt_dec 0 q) as [Q|Q].
      * replace x with (1 / 2 + q) by (unfold q; ring). apply close_central. unfold q in *. lra.
      * replace x with (1 - (1 / 2 + - q)) by (unfold q; field). replace (gc q) with (- gc (- q)) by (rewrite O; ring). apply close_opp, close_central. unfold q in *. lra.
    + unfold x_high in H. destruct (tail_arg (1 + - x) ltac:(unfold x_low; lra)) as (T & E). set (t := sqrt (- (2) * ln (1 + - x))) in *. cbv zeta.
      rewrite (proj2 (tail_value t ltac:(lra))). exists (- gt t). split; [reflexivity|]. replace x with (1 - et t) by lra. apply close_opp, close_tail. exact T.
Qed.
Lemma second_step x y1 z : Phi z = x -> Rabs z <= 40 -> Rabs (y1 - z) <= / 2 ^ 54 * Rabs z ->
  exists y2, halley_Phi x y1 = Fin y2 /\ Rabs (y2 - z) <= / 2 ^ 140 * Rabs z.
Proof.
  intros Hz Bz H. rewrite eps54 in H. set (d := 1 / 18014398509481984 * Rabs z) in *. pose proof (Rabs_pos z) as Pz.
  assert (d0 : 0 <= d) by (unfold d; lra). assert (d1 : d <= 1 / 100000) by (unfold d; lra).
  assert (Y : Rabs y1 <= 41). { replace y1 with (z + (y1 - z)) by ring. eapply Rle_trans; [apply Rabs_triang|]. lra. }
  pose proof (Rabs_pos y1) as Py.
  assert (C1 : (Rabs y1 + 1) * d <= 9 / 1000) by nra.
  pose proof (step_size x y1 z d Hz H C1) as Sz.
  destruct (halley_error x y1 z (102 / 100 * d) Hz Sz) as (_ & y2 & E & B). { nra. }
  exists y2. split; [exact E|]. eapply Rle_trans; [exact B|].
  assert (Yy : y1 * y1 <= 1681). { replace (y1 * y1) with (Rabs y1 * Rabs y1) by (rewrite <- Rabs_mult, Rabs_right; nra). nra. }
  assert (D3 : 102 / 100 * d * (102 / 100 * d) * (102 / 100 * d) <= 2 * (1 / 18014398509481984 * (1 / 18014398509481984) * (1 / 18014398509481984)) * (1600 * Rabs z)).
  { unfold d. set (e := 1 / 18014398509481984) in *. assert (0 <= e) by (unfold e; lra). clearbody e. assert (0 <= e * e * e) by (repeat apply Rmult_le_pos; assumption).
    replace (102 / 100 * (e * Rabs z) * (102 / 100 * (e * Rabs z)) * (102 / 100 * (e * Rabs z))) with (1061208 / 1000000 * (e * e * e) * (Rabs z * Rabs z * Rabs z)) by field.
    assert (Rabs z * Rabs z * Rabs z <= 1600 * Rabs z) by nra. apply Rmult_le_compat; nra. }
  assert (D0 : 0 <= 102 / 100 * d * (102 / 100 * d) * (102 / 100 * d)) by (repeat apply Rmult_le_pos; lra).
  apply Rle_trans with (169 * (2 * (1 / 18014398509481984 * (1 / 18014398509481984) * (1 / 18014398509481984)) * (1600 * Rabs z))).
  - apply Rmult_le_compat; [nra|exact D0|lra|exact D3].
  - assert (E140 : / 2 ^ 140 = 1 / 1393796574908163946345982392040522594123776) by (replace (2 ^ 140) with 1393796574908163946345982392040522594123776 by (cbn [pow]; lra); field).
    rewrite E140. lra.
Qed.
Definition accuracy (wide : bool) : R := if wide then / 2 ^ 140 else / 2 ^ 54.
Lemma inv_Phi_accurate wide x z : reach <= x <= 1 - reach -> Phi z = x ->
  exists y0 y, inv_Phi_approx x = Fin y0 /\ Rabs (y0 - z) <= 1 / 10000 /\ inv_Phi_alg wide x = Fin y /\ Rabs (y - z) <= accuracy wide * Rabs z.
Proof.
  intros Hx Hz. destruct (approx_close x Hx) as (y0 & E & C). destruct (C z Hz) as (Bz & D & y1 & E1 & B1). exists y0.
  unfold inv_Phi_alg. rewrite E. cbn [if_finite]. rewrite E1. destruct wide.
  - destruct (second_step x y1 z Hz Bz B1) as (y2 & E2 & B2). exists y2. cbn [if_finite]. rewrite E2. repeat split; assumption.
  - exists y1. repeat split; assumption.
Qed.

(** ** inv_erf and inv_erfc *)
Lemma halley_erf_Phi X Y : halley_erf (2 * X - 1) (Y * (1 / sqrt 2)) = scale (halley_Phi X Y) (1 / sqrt 2).
Proof.
  pose proof sqrt2_pos as P2. pose proof sqrt_PI_pos as PP. pose proof sqrt2_sq as S2.
  unfold halley_erf, halley_Phi, minus_quotient, quotient. rewrite sqrt_2PI.
  assert (EP : erf (Y * (1 / sqrt 2)) = 2 * Phi Y - 1). { rewrite Phi_erf. unfold Rdiv. rewrite Rmult_1_l. lra. }
  rewrite EP. assert (EE : Y * (1 / sqrt 2) * (Y * (1 / sqrt 2)) = Y * Y * (1 / 2)). { transitivity (Y * Y / (sqrt 2 * sqrt 2)); [field; lra|]. rewrite S2. field. }
  rewrite EE. set (E := exp (Y * Y * (1 / 2))). set (u := (Phi Y - X) * (sqrt 2 * sqrt PI) * E).
  assert (Eu : (2 * Phi Y - 1 - (2 * X - 1)) * (sqrt PI / 2) * E = u * (1 / sqrt 2)) by (unfold u; field; lra).
  rewrite Eu. assert (Ey : Y * (1 / sqrt 2) * (u * (1 / sqrt 2)) = Y * u * (1 / 2)). { transitivity (Y * u / (sqrt 2 * sqrt 2)); [field; lra|]. rewrite S2. field. }
  rewrite Ey. destruct (Req_EM_T (1 + Y * u * (1 / 2)) 0) as [Z|Z]; cbn [scale]; [reflexivity|]. f_equal. field. lra.
Qed.
Lemma inv_erf_eq wide x y0 y : inv_Phi_approx ((x + 1) / 2) = Fin y0 -> inv_Phi_alg wide ((x + 1) / 2) = Fin y -> inv_erf_alg wide x = Fin (y * (1 / sqrt 2)).
Proof.
  intros E0 E. unfold inv_erf_alg, inv_Phi_alg in *. rewrite E0 in *. cbn [if_finite scale] in *.
  assert (H : forall Y, halley_erf x (Y * (1 / sqrt 2)) = scale (halley_Phi ((x + 1) / 2) Y) (1 / sqrt 2)).
  { intros Y. rewrite <- halley_erf_Phi. f_equal. field. }
  rewrite H. destruct (halley_Phi ((x + 1) / 2) y0) as [y1| | |]; try (destruct wide; cbn [if_finite] in E; discriminate E).
  cbn [scale]. destruct wide; cbn [if_finite] in *.
  - rewrite H, E. reflexivity.
  - injection E as ->. reflexivity.
Qed.
Lemma halley_erfc_Phi X Y : halley_erfc (2 * X) (- Y * (1 / sqrt 2)) = scale (neg (halley_Phi X Y)) (1 / sqrt 2).
Proof.
  pose proof (halley_erf_Phi X Y) as H. unfold halley_erfc. unfold halley_erf, minus_quotient, quotient in *.
  replace (- Y * (1 / sqrt 2)) with (- (Y * (1 / sqrt 2))) by ring. set (w := Y * (1 / sqrt 2)) in *.
  unfold erfc. rewrite erf_odd. replace (- w * - w) with (w * w) by ring. set (E := exp (w * w)) in *.
  replace (- (1 - - erf w - 2 * X) * (sqrt PI / 2) * E) with (- ((erf w - (2 * X - 1)) * (sqrt PI / 2) * E)) by ring.
  set (u := (erf w - (2 * X - 1)) * (sqrt PI / 2) * E) in *. replace (- w * - u) with (w * u) by ring.
  destruct (Req_EM_T (1 + w * u) 0) as [Z|Z].
  - destruct (halley_Phi X Y); cbn [scale neg] in *; try discriminate; try reflexivity; destruct (Rlt_dec 0 (1 / sqrt 2)); discriminate.
  - destruct (halley_Phi X Y) as [v| | |]; cbn [scale neg] in *; try discriminate; try (destruct (Rlt_dec 0 (1 / sqrt 2)); discriminate).
    injection H as H. f_equal. replace (- v * (1 / sqrt 2)) with (- (v * (1 / sqrt 2))) by ring. rewrite <- H. field. exact Z.
Qed.
Lemma inv_erfc_eq wide x y0 y : x <= 1 -> inv_Phi_approx (x / 2) = Fin y0 -> inv_Phi_alg wide (x / 2) = Fin y -> inv_erfc_alg wide x = Fin (- y * (1 / sqrt 2)).
Proof.
  intros Hx E0 E. unfold inv_erfc_alg, inv_Phi_alg in *. destruct (Rlt_dec 1 x); [lra|]. rewrite E0 in *. cbn [if_finite scale neg] in *.
  assert (H : forall Y, halley_erfc x (- Y * (1 / sqrt 2)) = scale (neg (halley_Phi (x / 2) Y)) (1 / sqrt 2)).
  { intros Y. rewrite <- halley_erfc_Phi. f_equal. field. }
  rewrite H. destruct (halley_Phi (x / 2) y0) as [y1| | |]; try (destruct wide; cbn [if_finite] in E; discriminate E).
  cbn [scale neg]. destruct wide; cbn [if_finite] in *.
  - rewrite H, E. reflexivity.
  - injection E as ->. reflexivity.
Qed.
Lemma inv_erfc_flip wide x y : 1 < x -> inv_erfc_alg wide (2 - x) = Fin y -> inv_erfc_alg wide x = Fin (- y).
Proof.
  intros Hx H. unfold inv_erfc_alg in *. destruct (Rlt_dec 1 x); [|lra]. destruct (Rlt_dec 1 (2 - x)); [lra|].
  replace (- (x - 1) + 1) with (2 - x) by ring. cbv zeta in *. rewrite H. reflexivity.
Qed.
