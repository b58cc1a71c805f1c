(** The loop of GammaPQ_asympt_R at a zero of beta[15]: the remaining terms are dropped. *)
From Coq Require Import Reals Ranalysis5 Lra Lia Psatz ZArith List.
From Coquelicot Require Import Coquelicot.
From Verif Require Import Improper GammaFn ContModel NormModel NormProofs SeriesModel SeriesProofs AsyModel AsyFacts AsyTable AsyProofs AsyBounds AsyValue.
From Verif Require NewtonMaxwell.
Import ListNotations.
Local Open Scope R_scope.

Lemma betas_nth a i d ds k : nth k (betas a i (d :: ds)) 0 = match k with O => nth 1 (betas a (i + 1) ds) 0 * (i + 2) / a + d | S k => nth k (betas a (i + 1) ds) 0 end.
Proof.
  cbn [betas]. destruct (betas a (i + 1) ds) as [|b1 [|b2 bs]]; destruct k as [|k]; cbn [nth]; try reflexivity; unfold Rdiv; ring.
Qed.
Lemma betas_cont ds a : a <> 0 -> forall i k, continuous (fun a => nth k (betas a i ds) 0) a.
Proof.
  intros Ha. induction ds as [|d ds IH]; intros i k.
  - apply (continuous_ext (fun _ => 0)); [intros y; cbn [betas]; destruct k; reflexivity|apply continuous_const].
  - apply (continuous_ext (fun a => match k with O => nth 1 (betas a (i + 1) ds) 0 * (i + 2) / a + d | S k => nth k (betas a (i + 1) ds) 0 end)); [intros y; symmetry; apply betas_nth|].
    destruct k as [|k]; [|apply IH]. apply (continuous_plus (V := R_NormedModule) (fun a => nth 1 (betas a (i + 1) ds) 0 * (i + 2) / a) (fun _ => d)); [|apply continuous_const].
    apply (continuous_mult (K := R_AbsRing) (fun a => nth 1 (betas a (i + 1) ds) 0 * (i + 2)) Rinv); [|apply continuous_Rinv, Ha].
    apply (continuous_mult (K := R_AbsRing) (fun a => nth 1 (betas a (i + 1) ds) 0) (fun _ => i + 2)); [apply IH|apply continuous_const].
Qed.
Lemma beta_sign a p q k : (0 < p)%Z -> a = IZR p / 100 -> nth k (ibetas 100 100 p 0 zd) (0, 0)%Z = q -> (k < length (ibetas 100 100 p 0 zd))%nat -> inside (nth k (beta a) 0) q.
Proof.
  intros Hp Ea <- Hk. apply IZR_lt in Hp as Hp'. assert (IA : IZR 100 / IZR p <= / a <= IZR 100 / IZR p) by (rewrite Ea; replace (/ (IZR p / 100)) with (100 / IZR p) by (field; lra); lra).
  assert (A0 : 0 < a) by (rewrite Ea; lra). pose proof (beta_inside a 100 100 p ltac:(lia) Hp A0 IA) as F. fold (beta a) in F. exact (Forall2_nth _ _ k F Hk).
Qed.
Lemma beta_cont y k : y <> 0 -> continuous (fun a => nth k (beta a) 0) y.
Proof. intros Hy. unfold beta. generalize used. intros l. exact (betas_cont l y Hy 0 k). Qed.
Lemma zero_15 : exists a, 1617 / 100 <= a <= 1618 / 100 /\ nth 15 (beta a) 0 = 0.
Proof.
  assert (C : forall y, 1617 / 100 <= y <= 1618 / 100 -> continuity_pt (fun a => - nth 15 (beta a) 0) y).
  { intros y Hy. apply (continuity_pt_opp (fun a => nth 15 (beta a) 0)). apply continuity_pt_filterlim. exact (beta_cont y 15 ltac:(lra)). }
  pose proof S0_pos as SP.
  assert (L : 0 < nth 15 (beta (1617 / 100)) 0).
  { assert (P : (0 < fst (nth 15 (ibetas 100 100 1617 0 zd) (0, 0)%Z))%Z) by (vm_compute; reflexivity). apply IZR_lt in P.
    assert (LN : (15 < length (ibetas 100 100 1617 0 zd))%nat) by (vm_compute; lia). destruct (beta_sign (1617 / 100) 1617 _ 15 ltac:(lia) eq_refl eq_refl LN) as (A & _). apply Rnot_le_lt. intros N. nra. }
  assert (U : nth 15 (beta (1618 / 100)) 0 < 0).
  { assert (P : (snd (nth 15 (ibetas 100 100 1618 0 zd) (0, 0)%Z) < 0)%Z) by (vm_compute; reflexivity). apply IZR_lt in P.
    assert (LN : (15 < length (ibetas 100 100 1618 0 zd))%nat) by (vm_compute; lia). destruct (beta_sign (1618 / 100) 1618 _ 15 ltac:(lia) eq_refl eq_refl LN) as (_ & A). apply Rnot_le_lt. intros N. nra. }
  destruct (IVT_interv (fun a => - nth 15 (beta a) 0) (1617 / 100) (1618 / 100) C ltac:(lra) ltac:(cbv beta; lra) ltac:(cbv beta; lra)) as (z & Hz & Ez). exists z. split; [exact Hz|lra].
Qed.
Lemma Forall2_skip (bs : list R) (cs : list (Z * Z)) n : Forall2 inside bs cs -> Forall2 inside (skipn n bs) (skipn n cs).
Proof. intros F. revert n. induction F; intros n; destruct n; cbn [skipn]; try constructor; auto. Qed.
Lemma beta_rest a e : 15 <= a -> -102 / 100 <= e <= - (1) -> peval (skipn 16 (beta a)) e <= - (75 / 10 ^ 12).
Proof.
  intros Ha He. pose proof S0_pos as SP. assert (IA : IZR 0 / IZR 15 <= / a <= IZR 1 / IZR 15) by (split; [unfold Rdiv; rewrite Rmult_0_l; left; apply Rinv_0_lt_compat; lra|unfold Rdiv; rewrite Rmult_1_l; apply Rinv_le_contravar; lra]).
  pose proof (beta_inside a 0 1 15 ltac:(lia) ltac:(lia) ltac:(lra) IA) as F. fold (beta a) in F. assert (LN : length (ibetas 0 1 15 0 zd) = 26%nat) by (vm_compute; reflexivity).
  pose proof (Forall2_nth _ _ 16 F ltac:(rewrite LN; lia)) as (_ & U16). pose proof (Forall2_nth _ _ 17 F ltac:(rewrite LN; lia)) as (L17 & _).
  pose proof (peval_inside _ _ (102 / 100) (Forall2_skip _ _ 18 F) ltac:(lra)) as B.
  assert (Z16 : (snd (nth 16 (ibetas 0 1 15 0 zd) (0, 0)%Z) * 10 ^ 12 <= - 58 * S0)%Z) by (vm_compute; discriminate).
  assert (Z17 : (24 * S0 <= fst (nth 17 (ibetas 0 1 15 0 zd) (0, 0)%Z) * 10 ^ 12)%Z) by (vm_compute; discriminate).
  apply IZR_le in Z16. apply IZR_le in Z17. rewrite !mult_IZR in Z16, Z17. rewrite (zpow 10 12 12) in Z16, Z17 by reflexivity.
  assert (B16 : nth 16 (beta a) 0 <= - (58 / 10 ^ 12)) by (apply (Rmult_le_reg_r (IZR S0)); [exact SP|]; cbn [pow] in *; lra).
  assert (B17 : 24 / 10 ^ 12 <= nth 17 (beta a) 0) by (apply (Rmult_le_reg_r (IZR S0)); [exact SP|]; cbn [pow] in *; lra).
  assert (B18 : peval (map Rabs (skipn 18 (beta a))) (102 / 100) <= 6 / 10 ^ 12).
  { assert (E : map (fun c => Z.max (Z.abs (fst c)) (Z.abs (snd c))) (skipn 18 (ibetas 0 1 15 0 zd)) =
    [50276692801141755890905498592574436550000; 1100439203195613477083741744972934113000; 3790275038237681212485880186969483353054;
     1400268693897334010601818508460407376818; 285348938070474432039669099052828298900; 8360090093598362937794615342037978867; 19752288294349442835396240158071091220; 8099521156704561334071156687025752553]%Z) by (vm_compute; reflexivity).
    rewrite E in B. cbn [zr map peval] in B. change (IZR S0) with 10000000000000000000000000000000000000000000000000000 in B. set (X := peval _ _) in *. clearbody X. cbn [pow]. lra. }
  assert (SK : skipn 16 (beta a) = nth 16 (beta a) 0 :: nth 17 (beta a) 0 :: skipn 18 (beta a)).
  { pose proof (beta_26 a) as LB. generalize dependent (beta a). intros l _ _ _ _ _ _ _ LB. do 18 (destruct l as [|? l]; [cbn in LB; lia|]). reflexivity. }
  rewrite SK. cbn [peval]. pose proof (peval_abs (skipn 18 (beta a)) e) as PA. assert (AE : Rabs e <= 102 / 100) by (apply Rabs_le; lra). pose proof (peval_abs_mono (skipn 18 (beta a)) (Rabs e) (102 / 100) (conj (Rabs_pos e) AE)) as PM.
  assert (PB : Rabs (peval (skipn 18 (beta a)) e) <= 6 / 10 ^ 12) by lra. apply Rabs_le_between in PB. set (x := peval (skipn 18 (beta a)) e) in *. set (b6 := nth 16 (beta a) 0) in *. set (b7 := nth 17 (beta a) 0) in *. clearbody x b6 b7.
  assert (X1 : -102 / 100 * (6 / 10 ^ 12) <= e * x <= 102 / 100 * (6 / 10 ^ 12)) by (cbn [pow] in *; nra).
  cbn [pow] in *. nra.
Qed.
Lemma exp_ratio (p q : Z) (n : nat) : (0 < q < p)%Z -> exp (INR n * (1 - IZR q / IZR p)) <= IZR (p ^ Z.of_nat n) / IZR (q ^ Z.of_nat n).
Proof.
  intros (Hq & Hp). apply IZR_lt in Hq as Q. apply IZR_lt in Hp as P. rewrite <- exp_nth, <- !pow_IZR. unfold Rdiv at 2. rewrite <- pow_inv, <- Rpow_mult_distr by lra.
  set (y := 1 - IZR q / IZR p). assert (Y : 1 + - y = IZR q / IZR p) by (unfold y; ring). apply pow_incr. split; [left; apply exp_pos|].
  pose proof (exp_ineq1_le (- y)) as X. rewrite exp_Ropp, Y in X. rewrite <- (Rinv_inv (exp y)). replace (IZR p * / IZR q) with (/ (IZR q / IZR p)) by (field; lra). apply Rinv_le_contravar; [apply Rdiv_lt_0_compat; lra|exact X].
Qed.
Lemma exp_12 : 300 / 1000 < exp (- (6 / 5)) <= 304 / 1000.
Proof.
  pose proof (exp_pos (6 / 5)) as EP. rewrite exp_Ropp. split.
  - replace (300 / 1000) with (/ (10 / 3)) by field. apply Rinv_lt_contravar; [apply Rmult_lt_0_compat; lra|]. pose proof (exp_ratio 1280 1274 256 ltac:(lia)) as X.
    replace (INR 256 * (1 - 1274 / 1280)) with (6 / 5) in X by (rewrite INR_IZR_INZ; change (Z.of_nat 256) with 256%Z; field). eapply Rle_lt_trans; [exact X|].
    assert (P : (0 < 1274 ^ Z.of_nat 256)%Z) by (apply Z.pow_pos_nonneg; lia). apply IZR_lt in P as P'. apply (proj2 (Rlt_div_l _ _ _ P')).
    assert (Q : (3 * 1280 ^ Z.of_nat 256 < 10 * 1274 ^ Z.of_nat 256)%Z) by (vm_compute; reflexivity). apply IZR_lt in Q. rewrite !mult_IZR in Q. lra.
  - replace (304 / 1000) with (/ (1000 / 304)) by field. apply Rinv_le_contravar; [lra|].
    assert (E : exp (6 / 5) = exp (6 / 1280) ^ 256) by (rewrite exp_nth; f_equal; rewrite INR_IZR_INZ; change (Z.of_nat 256) with 256%Z; field). rewrite E. apply Rle_trans with ((1 + 6 / 1280) ^ 256); [|apply pow_incr; split; [lra|apply exp_ineq1_le]].
    replace (1 + 6 / 1280) with (IZR 1286 / IZR 1280) by field. unfold Rdiv at 2. rewrite Rpow_mult_distr, pow_inv by lra. rewrite !pow_IZR. assert (P : (0 < 1280 ^ Z.of_nat 256)%Z) by (apply Z.pow_pos_nonneg; lia). apply IZR_lt in P as P'. apply (proj1 (Rle_div_r _ _ _ P')).
    assert (Q : (1000 * 1280 ^ Z.of_nat 256 <= 304 * 1286 ^ Z.of_nat 256)%Z) by (vm_compute; discriminate). apply IZR_le in Q. rewrite !mult_IZR in Q. lra.
Qed.
Lemma exp_8 : / 3840 <= exp (- (8171 / 1000)).
Proof.
  rewrite exp_Ropp. apply Rinv_le_contravar; [apply exp_pos|]. replace (8171 / 1000) with (INR 8 * 1 + 171 / 1000) by (cbn; lra). rewrite exp_plus, <- exp_nth.
  assert (A : exp 1 <= 27399 / 10000).
  { pose proof (exp_ratio 64 63 64 ltac:(lia)) as X. replace (INR 64 * (1 - 63 / 64)) with 1 in X by (rewrite INR_IZR_INZ; change (Z.of_nat 64) with 64%Z; field). eapply Rle_trans; [exact X|].
    assert (P : (0 < 63 ^ Z.of_nat 64)%Z) by (apply Z.pow_pos_nonneg; lia). apply IZR_lt in P as P'. apply (proj2 (Rle_div_l _ _ _ P')).
    assert (Q : (10000 * 64 ^ Z.of_nat 64 <= 27399 * 63 ^ Z.of_nat 64)%Z) by (vm_compute; discriminate). apply IZR_le in Q. rewrite !mult_IZR in Q. lra. }
  assert (B : exp (171 / 1000) <= 1000 / 829). { pose proof (exp_ratio 1000 829 1 ltac:(lia)) as X. replace (INR 1 * (1 - 829 / 1000)) with (171 / 1000) in X by (cbn; lra). change (1000 ^ Z.of_nat 1)%Z with 1000%Z in X. change (829 ^ Z.of_nat 1)%Z with 829%Z in X. exact X. }
  apply Rle_trans with ((27399 / 10000) ^ 8 * (1000 / 829)); [|cbn [pow]; lra]. apply Rmult_le_compat; [apply pow_le; left; apply exp_pos|left; apply exp_pos| |exact B]. apply pow_incr. split; [left; apply exp_pos|exact A].
Qed.
Lemma break_dropped a m : 1617 / 100 <= a <= 1618 / 100 -> nth 15 (beta a) 0 = 0 -> m = 1 - exp (- (6 / 5)) ->
  region false m /\ tailx a false (s' false m) < EX a false m / Gam a - / 2 ^ 49.
Proof.
  intros Ha0 H15 Hm. assert (Ha : 15 <= a) by lra. destruct exp_12 as (E1 & E2). assert (RG : region false m) by (split; lra). split; [exact RG|].
  destruct (tail_perturb a false m Ha RG) as (_ & _ & _ & TE). specialize (TE ltac:(lra)). rewrite TE. destruct (region_ss false m RG) as (S0 & SE & SB).
  assert (PH : ph (sg false * m) = exp (- (6 / 5)) + 1 / 5). { unfold ph. cbn [sg]. replace (1 + -1 * m) with (exp (- (6 / 5))) by (rewrite Hm; ring). rewrite ln_exp, Hm. field. }
  set (s := ss false m) in *. assert (SL : 1 <= s) by nra. assert (SU : s <= 102 / 100) by nra.
  destruct (GN_range a Ha) as (G1 & G2). assert (M1 : 0 < 1 + sg false * m) by (cbn [sg]; lra). pose proof (EX_range a Ha false m ltac:(lra) M1) as ER.
  destruct (tail_close a Ha G1 false m ltac:(lra) M1) as (_ & TC). destruct (YY_0_num a Ha) as (Y0 & Y1). pose proof (YY_decr a Ha s S0) as YD. fold s in TC. set (E := EX a false m / Gam a) in *.
  assert (A2 : 2 * YY a 0 * E <= 2 * YY a 0) by nra. assert (A : Rabs (tail a false s - E) <= 3 * (203 / 10 ^ 20)) by lra. apply Rabs_le_between in A.
  destruct (beta_sum_stop (beta a) (sg false * s) 1 0) as (j & H1 & H2 & H3 & H4).
  assert (J : j = 16%nat).
  { assert (J1 : (j <= 16)%nat) by (destruct (Nat.le_gt_cases j 16) as [C|C]; [exact C|]; exfalso; apply (H4 15%nat); [lia|exact H15]).
    destruct H3 as [H3|(i & -> & H5 & H6)]; [rewrite beta_26 in H3; lia|]. assert (E0 : nth i (beta a) 0 = 0) by (assert ((sg false * s) ^ i <> 0) by (apply pow_nonzero; cbn [sg]; lra); nra).
    destruct (Nat.lt_ge_cases i 15) as [C|C]; [|lia]. exfalso. exact (beta_low a i Ha C E0). }
  assert (PR : peval (skipn 16 (beta a)) (sg false * s) <= - (75 / 10 ^ 12)) by (apply beta_rest; [exact Ha|cbn [sg]; lra]).
  unfold tailx, tail in *. rewrite H2, J. unfold TT in A. rewrite (peval_split 16 (beta a) (sg false * s)) in A by (rewrite beta_26; lia).
  set (p1 := peval (firstn 16 (beta a)) (sg false * s)) in *. set (p2 := peval (skipn 16 (beta a)) (sg false * s)) in *. clearbody p1 p2. cbn [sg] in *.
  assert (P16 : 1 <= (-1 * s) ^ 16) by (replace ((-1 * s) ^ 16) with (s ^ 16) by ring; apply pow_R1_Rle, SL). set (s16 := (-1 * s) ^ 16) in *. clearbody s16.
  assert (GA : / 3840 <= ga a s). { eapply Rle_trans; [exact exp_8|]. unfold ga. assert (X : - (8171 / 1000) <= - a * (s * s / 2)) by (rewrite SE, PH; nra). destruct X as [X|X]; [left; apply exp_increasing, X|right; f_equal; exact X]. }
  assert (CA : 99 / 1000 <= ca a). { unfold ca. replace (99 / 1000) with (/ (1000 / 99)) by field. pose proof NewtonMaxwell.PI_bounds as PB. apply Rinv_le_contravar; [apply sqrt_lt_R0; nra|]. rewrite <- (sqrt_square (1000 / 99)) by lra. apply sqrt_le_1_alt. nra. }
  assert (IG : 100 / 101 <= / GN a) by (replace (100 / 101) with (/ (101 / 100)) by field; apply Rinv_le_contravar; lra).
  assert (W : / 3840 * (99 / 1000 * (100 / 101)) <= ga a s * (ca a * / GN a)) by (apply Rmult_le_compat; [lra|lra|exact GA|apply Rmult_le_compat; lra]).
  assert (D : s16 * p2 <= - (75 / 10 ^ 12)) by nra. set (w := ga a s * (ca a * / GN a)) in *.
  assert (DW : s16 * p2 * w <= - (75 / 10 ^ 12) * (/ 3840 * (99 / 1000 * (100 / 101)))) by (cbn [pow] in *; nra).
  set (er := 1 / 2 * erfc (s * sqrt (a / 2))) in *.
  replace (er + -1 * (p1 + s16 * p2) / GN a * ga a s * ca a) with (er - p1 * w - s16 * p2 * w) in A by (unfold w, Rdiv; ring).
  replace (er + -1 * (0 + 1 * p1) / GN a * ga a s * ca a) with (er - p1 * w) by (unfold w, Rdiv; ring). cbn [pow] in *. lra.
Qed.
