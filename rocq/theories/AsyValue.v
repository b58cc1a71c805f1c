(** GammaP_asympt and GammaQ_asympt against the tail integrals. *)
From Coq Require Import Reals Lra Lia Psatz ZArith List.
From Coquelicot Require Import Coquelicot.
From Verif Require Import Improper GammaFn ContModel NormModel NormProofs SeriesModel SeriesProofs AsyModel AsyFacts AsyTable AsyProofs AsyBounds.
Import ListNotations.
Local Open Scope R_scope.

(** ** The region 3/10 a < x < 235/100 a *)
Lemma exp_nth (n : nat) x : exp x ^ n = exp (INR n * x).
Proof. induction n as [|n IH]; [cbn [pow INR]; rewrite Rmult_0_l, exp_0; reflexivity|]. rewrite <- tech_pow_Rmult, IH, <- exp_plus, S_INR. f_equal. ring. Qed.
Lemma exp_121 : 10 / 3 <= exp (121 / 100).
Proof.
  assert (E : exp (121 / 100) = exp (121 / 25600) ^ 256). { rewrite exp_nth. f_equal. rewrite INR_IZR_INZ. change (Z.of_nat 256) with 256%Z. lra. }
  rewrite E. apply Rle_trans with ((1 + 121 / 25600) ^ 256).
  - replace (1 + 121 / 25600) with (IZR 25721 / IZR 25600) by lra. unfold Rdiv. rewrite Rpow_mult_distr, pow_inv by lra. rewrite !pow_IZR. fold (IZR (25721 ^ Z.of_nat 256) / IZR (25600 ^ Z.of_nat 256)).
    assert (P : (0 < 25600 ^ Z.of_nat 256)%Z) by (apply Z.pow_pos_nonneg; lia). apply IZR_lt in P as P'. apply (proj1 (Rle_div_r _ _ _ P')).
    assert (Q : (10 * 25600 ^ Z.of_nat 256 <= 3 * 25721 ^ Z.of_nat 256)%Z) by (vm_compute; discriminate). apply IZR_le in Q. rewrite !mult_IZR in Q. lra.
  - apply pow_incr. split; [lra|]. apply exp_ineq1_le.
Qed.
Lemma exp_84 : exp (84 / 100) <= 235 / 100.
Proof.
  assert (E : exp (84 / 100) = exp (84 / 6400) ^ 64). { rewrite exp_nth. f_equal. rewrite INR_IZR_INZ. change (Z.of_nat 64) with 64%Z. lra. }
  rewrite E. assert (B : exp (84 / 6400) <= 6400 / 6316).
  { pose proof (exp_ineq1_le (- (84 / 6400))) as X. rewrite exp_Ropp in X. pose proof (exp_pos (84 / 6400)) as P. replace (6400 / 6316) with (/ (1 + - (84 / 6400))) by field. rewrite <- (Rinv_inv (exp _)). apply Rinv_le_contravar; lra. }
  apply Rle_trans with ((6400 / 6316) ^ 64); [apply pow_incr; split; [left; apply exp_pos|exact B]|].
  replace (6400 / 6316) with (IZR 6400 / IZR 6316) by lra. unfold Rdiv. rewrite Rpow_mult_distr, pow_inv by lra. rewrite !pow_IZR. fold (IZR (6400 ^ Z.of_nat 64) / IZR (6316 ^ Z.of_nat 64)).
  assert (P : (0 < 6316 ^ Z.of_nat 64)%Z) by (apply Z.pow_pos_nonneg; lia). apply IZR_lt in P as P'. apply (proj2 (Rle_div_l _ _ _ P')).
  assert (Q : (100 * 6400 ^ Z.of_nat 64 <= 235 * 6316 ^ Z.of_nat 64)%Z) by (vm_compute; discriminate). apply IZR_le in Q. rewrite !mult_IZR in Q. lra.
Qed.
Lemma ph_ends : ph (-7 / 10) <= 51 / 100 /\ ph (135 / 100) <= 51 / 100.
Proof.
  unfold ph. split.
  - assert (L : - (121 / 100) <= ln (1 + -7 / 10)); [|lra]. replace (1 + -7 / 10) with (/ (10 / 3)) by field. rewrite ln_Rinv by lra. apply Ropp_le_contravar. rewrite <- (ln_exp (121 / 100)). apply ln_le; [lra|apply exp_121].
  - assert (L : 84 / 100 <= ln (1 + 135 / 100)); [|lra]. rewrite <- (ln_exp (84 / 100)). apply ln_le; [apply exp_pos|]. pose proof exp_84. lra.
Qed.
Definition region (b : bool) (m : R) : Prop := 0 <= m /\ if b then m < 135 / 100 else m < 7 / 10.
Lemma region_dom b m : region b m -> 0 < m -> dom (side b) m.
Proof. intros (H1 & H2) Hm. apply side_dom. split; [exact Hm|]. destruct b; cbn [sg]; lra. Qed.
Lemma region_ph b m : region b m -> ph (sg b * m) <= 51 / 100.
Proof.
  intros (H1 & H2). set (M := if b then 135 / 100 else 7 / 10). assert (HM : m <= M) by (unfold M; destruct b; lra).
  assert (HD : forall x, m <= x <= M -> is_derive (fun x => ph (sg b * x)) x (sg b * (sg b * x / (1 + sg b * x)))).
  { intros x Hx. apply (is_derive_circ ph (fun x => sg b * x)); [apply ph_deriv; unfold M in Hx; destruct b; cbn; lra|]. eapply is_derive_val; [apply (is_derive_scal (fun x => x) x (sg b)), (is_derive_id (K := R_AbsRing))|]. change (one : R) with 1. ring. }
  pose proof (mono_cc _ _ m M HM HD) as MO. cbv beta in MO. apply Rle_trans with (ph (sg b * M)).
  - apply MO. intros x Hx. replace (sg b * (sg b * x / (1 + sg b * x))) with (sg b * sg b * (x / (1 + sg b * x))) by (unfold Rdiv; ring). rewrite sg_sq, Rmult_1_l. apply Rdiv_le_0_compat; [lra|]. unfold M in Hx. destruct b; cbn; lra.
  - destruct ph_ends as (A & B). unfold M. destruct b; cbn [sg]; [replace (1 * (135 / 100)) with (135 / 100) by ring; exact B|replace (-1 * (7 / 10)) with (-7 / 10) by lra; exact A].
Qed.
Lemma region_ss b m : region b m -> 0 <= ss b m /\ ss b m * ss b m = 2 * ph (sg b * m) /\ ss b m * ss b m <= 102 / 100.
Proof.
  intros H. pose proof (region_ph b m H). assert (P : 0 <= ph (sg b * m)) by (apply ph_nonneg; destruct H as (H1 & H2); destruct b; cbn; lra).
  assert (E : ss b m * ss b m = 2 * ph (sg b * m)) by (apply sqrt_sqrt; lra). split; [apply sqrt_pos|]. split; [exact E|lra].
Qed.

(** ** The error of mln1p, carried to the tail *)
Definition s' (b : bool) (m : R) : R := sqrt (2 * mln1p (sg b * m)).
Lemma GG_small e : Rabs e <= 1 / 25 -> Rabs (GG e) <= 102 / 100.
Proof.
  intros He. destruct (GG_head e) as (q & -> & Q). specialize (Q ltac:(lra)). apply Rabs_le_between in Q. apply Rabs_le_between in He.
  destruct head_coeffs as (C1 & C2 & C3). set (c1 := IZR (nth 1 zg 0%Z) / IZR S0) in *. set (c2 := IZR (nth 2 zg 0%Z) / IZR S0) in *. set (c3 := IZR (nth 3 zg 0%Z) / IZR S0) in *. clearbody c1 c2 c3.
  assert (T1 : -14 / 1000 <= c1 * e <= 14 / 1000) by nra. assert (E2 : 0 <= e ^ 2 <= 16 / 10000) by nra. assert (E3 : -1 / 10000 <= e ^ 3 <= 1 / 10000) by (replace (e ^ 3) with (e * e ^ 2) by ring; nra).
  assert (T2 : -1 / 1000 <= c2 * e ^ 2 <= 1 / 1000) by nra. assert (T3 : -1 / 1000 <= c3 * e ^ 3 <= 1 / 1000) by nra. assert (EQ : -1 / 1000 <= e * q <= 1 / 1000) by nra. assert (T4 : -1 / 1000 <= e ^ 3 * (e * q) <= 1 / 1000) by nra. apply Rabs_le. lra.
Qed.
Lemma peak a c : 15 <= a -> 0 <= c -> a * ca a * ga a c * c <= 3 / 10.
Proof.
  intros Ha Hc. pose proof (ca_pos a Ha) as CP. pose proof (ga_pos a c) as GP. pose proof PI2_3_2 as PI3.
  assert (SQ : (a * ca a * ga a c * c) * (a * ca a * ga a c * c) <= 1 / 12).
  { set (v := a * (c * c)). assert (V : 0 <= v) by (unfold v; apply Rmult_le_pos; nra).
    assert (G2 : ga a c * ga a c = / exp v). { unfold ga. rewrite <- exp_plus, <- exp_Ropp. f_equal. unfold v. field. }
    assert (C2 : ca a * ca a = / (2 * PI * a)). { unfold ca. rewrite <- Rinv_mult, sqrt_sqrt; [reflexivity|]. apply Rmult_le_pos; lra. }
    replace (a * ca a * ga a c * c * (a * ca a * ga a c * c)) with ((ca a * ca a) * a * ((ga a c * ga a c) * v)) by (unfold v; ring). rewrite G2, C2.
    replace (/ (2 * PI * a) * a) with (/ (2 * PI)) by (field; lra).
    assert (X : 2 * v <= exp v). { replace v with (v / 2 + v / 2) at 2 by field. rewrite exp_plus. pose proof (exp_ineq1_le (v / 2)) as Y. apply Rle_trans with ((1 + v / 2) * (1 + v / 2)); [clearbody v; pose proof (Rle_0_sqr (1 - v / 2)) as Q; unfold Rsqr in Q; nra|]. apply Rmult_le_compat; lra. }
    pose proof (exp_pos v) as EP. assert (Z : / exp v * v <= 1 / 2). { rewrite Rmult_comm. apply (proj2 (Rle_div_l _ _ _ EP)). lra. }
    assert (W : / (2 * PI) <= / 6) by (apply Rinv_le_contravar; lra). assert (0 < / (2 * PI)) by (apply Rinv_0_lt_compat; lra). assert (0 < / exp v) by (apply Rinv_0_lt_compat, EP). assert (0 <= / exp v * v) by (apply Rmult_le_pos; lra). nra. }
  apply Rnot_lt_le. intros C. nra.
Qed.
Lemma tail_perturb a b m : 15 <= a -> region b m -> Rabs (tail a b (s' b m) - tail a b (ss b m)) <= 5 / 10 ^ 18 /\ 0 <= mln1p (sg b * m) /\ (s' b m * s' b m <= 10201 / 10000) /\ (1 / 32 <= m -> s' b m = ss b m).
Proof.
  intros Ha R. destruct (region_ss b m R) as (SP & SE & SB). assert (U : -1 < sg b * m) by (destruct R as (H1 & H2); destruct b; cbn; lra).
  pose proof (ph_nonneg _ U) as HP. destruct (mln1p_close _ U) as (HC & HX). destruct eps4_val as (EP & EV). set (d := eps4 / 30) in *.
  assert (D : 0 < d < 1 / 10 ^ 10) by (unfold d; rewrite EV; cbn; lra). set (u := sg b * m) in *. apply Rabs_le_between in HC.
  assert (MP : 0 <= mln1p u) by nra. assert (S' : s' b m * s' b m = 2 * mln1p u) by (apply sqrt_sqrt; lra). assert (SP' : 0 <= s' b m) by apply sqrt_pos.
  assert (AB : Rabs u = m) by (unfold u; rewrite Rabs_mult, sg_abs, Rmult_1_l; apply Rabs_pos_eq, R). rewrite AB in HX.
  split; [|split; [exact MP|split; [nra|intros H; unfold s', ss; fold u; rewrite (HX H); reflexivity]]].
  destruct (Rle_dec (1 / 32) m) as [C|C]; [unfold s', ss; fold u; rewrite (HX C), Rminus_eq_0, Rabs_R0; apply Rdiv_le_0_compat; [lra|apply pow_lt; lra]|].
  set (s := ss b m) in *. set (t := s' b m) in *. assert (SM : s <= 1 / 26).
  { destruct (proj1 R) as [Hm|Hm]; [|unfold s; rewrite <- Hm, ss_0; lra]. pose proof (ss_bounds b m (region_dom b m R Hm)) as (B1 & B2). fold s in B1, B2. destruct b; [specialize (B1 eq_refl); lra|]. specialize (B2 eq_refl). nra. }
  assert (TL : (1 - d) * s <= t). { apply Rsqr_incr_0_var; [|exact SP']. unfold Rsqr. rewrite S'. replace ((1 - d) * s * ((1 - d) * s)) with ((1 - d) * (1 - d) * (s * s)) by ring. rewrite SE. nra. }
  assert (TU : t <= (1 + d) * s). { apply Rsqr_incr_0_var; [|nra]. unfold Rsqr. rewrite S'. replace ((1 + d) * s * ((1 + d) * s)) with ((1 + d) * (1 + d) * (s * s)) by ring. rewrite SE. nra. }
  assert (DI : Rabs (t - s) <= 51 / 100 * d * s).
  { destruct SP as [SP|SP]; [|apply Rabs_le; nra]. assert (Q : Rabs ((t - s) * (t + s)) <= d * (s * s)). { replace ((t - s) * (t + s)) with (t * t - s * s) by ring. rewrite S', SE. apply Rabs_le. nra. }
    rewrite Rabs_mult, (Rabs_pos_eq (t + s)) in Q by lra. pose proof (Rabs_pos (t - s)) as AP. apply (Rmult_le_reg_r (199 / 100 * s)); [lra|]. apply Rle_trans with (Rabs (t - s) * (t + s)); [apply Rmult_le_compat_l; nra|]. nra. }
  assert (HG : forall z, (1 - d) * s <= z <= (1 + d) * s -> Rabs (- (a * ca a) * ga a z * (GG (sg b * z) / GN a)) * z <= 306 / 1000).
  { intros z Hz. destruct (GN_range a Ha) as (G1 & G2). assert (Z0 : 0 <= z) by nra. assert (Z1 : Rabs (sg b * z) <= 1 / 25) by (rewrite Rabs_mult, sg_abs, Rmult_1_l, Rabs_pos_eq by exact Z0; nra).
    pose proof (GG_small _ Z1) as GS. pose proof (peak a z Ha Z0) as PK. pose proof (ca_pos a Ha) as CP. pose proof (ga_pos a z) as GP.
    unfold Rdiv. rewrite !Rabs_mult, Rabs_Ropp, Rabs_mult, (Rabs_pos_eq a), (Rabs_pos_eq (ca a)), (Rabs_pos_eq (ga a z)), (Rabs_pos_eq (/ GN a)) by (lra || (left; apply Rinv_0_lt_compat; lra)).
    assert (IG : 0 < / GN a <= 1) by (split; [apply Rinv_0_lt_compat; lra|rewrite <- Rinv_1; apply Rinv_le_contravar; lra]). pose proof (Rabs_pos (GG (sg b * z))) as GA.
    replace (a * ca a * ga a z * (Rabs (GG (sg b * z)) * / GN a) * z) with (a * ca a * ga a z * z * (Rabs (GG (sg b * z)) * / GN a)) by ring.
    assert (0 <= a * ca a * ga a z * z) by (repeat apply Rmult_le_pos; lra). assert (0 <= Rabs (GG (sg b * z)) * / GN a <= 102 / 100) by (split; [apply Rmult_le_pos; lra|nra]).
    apply Rle_trans with (3 / 10 * (102 / 100)); [apply Rmult_le_compat; lra|lra]. }
  destruct (MVT_gen (tail a b) s t (fun z => - (a * ca a) * ga a z * (GG (sg b * z) / GN a))) as (z & Hz & E).
  - intros z _. apply tail_deriv; [exact Ha|]. apply GN_range, Ha.
  - intros z _. apply continuity_pt_filterlim. apply (tail_cont a Ha). apply GN_range, Ha.
  - assert (Z : (1 - d) * s <= z <= (1 + d) * s). { unfold Rmin, Rmax in Hz. destruct (Rle_dec s t); split; nra. } specialize (HG z Z). rewrite E, Rabs_mult.
    set (w := Rabs (- (a * ca a) * ga a z * (GG (sg b * z) / GN a))) in *. assert (W : 0 <= w) by apply Rabs_pos. clearbody w. pose proof (Rabs_pos (t - s)) as AP.
    apply Rle_trans with (w * (51 / 100 * d * s)); [apply Rmult_le_compat_l; assumption|]. apply Rle_trans with (52 / 100 * d * (w * z)).
    + replace (w * (51 / 100 * d * s)) with (d * w * (51 / 100 * s)) by ring. replace (52 / 100 * d * (w * z)) with (d * w * (52 / 100 * z)) by ring. apply Rmult_le_compat_l; [apply Rmult_le_pos; lra|]. nra.
    + assert (0 <= w * z) by (apply Rmult_le_pos; [exact W|nra]). apply Rle_trans with (52 / 100 * d * (306 / 1000)); [apply Rmult_le_compat_l; [lra|exact HG]|]. unfold d. rewrite EV. cbn. lra.
Qed.

(** ** The summation loop *)
Lemma beta_sum_stop bs e : forall k y, exists j, (j <= length bs)%nat /\ beta_sum bs e k y = y + k * peval (firstn j bs) e /\
  (j = length bs \/ exists i, j = S i /\ (i < length bs)%nat /\ nth i bs 0 * (k * e ^ i) = 0) /\ (forall i, (S i < j)%nat -> nth i bs 0 <> 0).
Proof.
  induction bs as [|b bs IH]; intros k y; cbn [beta_sum].
  - exists 0%nat. split; [lia|]. split; [cbn [firstn peval]; ring|]. split; [left; reflexivity|]. intros i Hi. lia.
  - destruct (Req_EM_T (y + b * k) y) as [C|C].
    + exists 1%nat. split; [cbn [length]; lia|]. split; [cbn [firstn peval]; ring|]. split; [|intros i Hi; lia]. right. exists 0%nat. split; [reflexivity|]. split; [cbn [length]; lia|]. cbn [nth pow]. lra.
    + destruct (IH (k * e) (y + b * k)) as (j & H1 & H2 & H3 & H6). exists (S j). split; [cbn [length]; lia|]. split; [rewrite H2; cbn [firstn peval]; ring|].
      split; [|intros i Hi; destruct i as [|i]; cbn [nth]; [intros ->; apply C; ring|apply H6; lia]].
      destruct H3 as [->|(i & -> & H4 & H5)]; [left; reflexivity|]. right. exists (S i). split; [reflexivity|]. split; [cbn [length]; lia|]. cbn [nth pow]. etransitivity; [|exact H5]. ring.
Qed.
Lemma betas_length a ds : forall i, length (betas a i ds) = length ds.
Proof. induction ds as [|d ds IH]; intros i; cbn [betas]; [reflexivity|]. specialize (IH (i + 1)). destruct (betas a (i + 1) ds) as [|b1 [|b2 bs]]; cbn [length] in *; lia. Qed.
Lemma beta_26 a : length (beta a) = 26%nat.
Proof. unfold beta. rewrite betas_length. reflexivity. Qed.
Lemma beta_sum_0 a : beta_sum (beta a) 0 1 0 = TT a 0.
Proof.
  unfold TT. destruct (beta a) as [|b [|b1 bs]]; cbn [beta_sum peval]; [reflexivity|destruct (Req_EM_T _ _); ring|]. destruct (Req_EM_T _ _) as [C|C]; [ring|]. destruct (Req_EM_T _ _) as [D|D]; [ring|]. exfalso. apply D. ring.
Qed.
Lemma beta_sum_regular a e : regular a -> beta_sum (beta a) e 1 0 = TT a e.
Proof.
  intros HR. destruct (Req_dec e 0) as [->|He]; [apply beta_sum_0|]. destruct (beta_sum_stop (beta a) e 1 0) as (j & H1 & H2 & H3 & _).
  assert (J : j = length (beta a)). { destruct H3 as [H3|(i & -> & H4 & H5)]; [exact H3|]. exfalso. rewrite beta_26 in H4. apply (HR i H4). fold (beta a). assert (e ^ i <> 0) by (apply pow_nonzero, He). nra. }
  rewrite H2, J, firstn_all. unfold TT. ring.
Qed.
Lemma peval_skip_abs p e : forall n, Rabs (e ^ n * peval (skipn n p) e) <= peval (map Rabs p) (Rabs e).
Proof.
  induction p as [|c p IH]; intros n.
  - rewrite skipn_nil. cbn [peval map]. rewrite Rmult_0_r, Rabs_R0. lra.
  - destruct n as [|n]; [cbn [skipn pow]; rewrite Rmult_1_l; apply peval_abs|]. cbn [skipn pow map peval]. rewrite Rmult_assoc, Rabs_mult. pose proof (Rabs_pos c). pose proof (Rmult_le_compat_l (Rabs e) _ _ (Rabs_pos e) (IH n)). lra.
Qed.
Lemma peval_inside bs cs x : Forall2 inside bs cs -> 0 <= x -> peval (map Rabs bs) x * IZR S0 <= peval (zr (map (fun c => Z.max (Z.abs (fst c)) (Z.abs (snd c))) cs)) x.
Proof.
  intros H Hx. pose proof S0_pos as SP. induction H as [|b c bs cs (L & U) HF IH]; [cbn; lra|]. cbn [map zr peval]. fold zr.
  assert (B : Rabs b * IZR S0 <= IZR (Z.max (Z.abs (fst c)) (Z.abs (snd c)))).
  { replace (Rabs b * IZR S0) with (Rabs (b * IZR S0)) by (rewrite Rabs_mult, (Rabs_pos_eq (IZR S0)) by lra; reflexivity). set (M := Z.max _ _). assert (M1 : IZR (snd c) <= IZR M) by (apply IZR_le; unfold M; lia). assert (M2 : - IZR M <= IZR (fst c)) by (rewrite <- opp_IZR; apply IZR_le; unfold M; lia). apply Rabs_le. lra. }
  unfold zr in IH. nra.
Qed.
Lemma beta_tail_sum a : 15 <= a -> peval (map Rabs (skipn 16 (beta a))) (101 / 100) <= 97 / 10 ^ 12.
Proof.
  intros Ha. pose proof S0_pos as SP. assert (IA : IZR 0 / IZR 15 <= / a <= IZR 1 / IZR 15) by (split; [unfold Rdiv; rewrite Rmult_0_l; left; apply Rinv_0_lt_compat; lra|unfold Rdiv; rewrite Rmult_1_l; apply Rinv_le_contravar; lra]).
  pose proof (beta_inside a 0 1 15 ltac:(lia) ltac:(lia) ltac:(lra) IA) as F. fold (beta a) in F.
  assert (F' : Forall2 inside (skipn 16 (beta a)) (skipn 16 (ibetas 0 1 15 0 zd))).
  { clear -F. revert F. generalize (ibetas 0 1 15 0 zd) (beta a) 16%nat. intros cs bs n F. revert n. induction F; intros n; destruct n; cbn [skipn]; try constructor; auto. }
  pose proof (peval_inside _ _ (101 / 100) F' ltac:(lra)) as B.
  assert (E : map (fun c => Z.max (Z.abs (fst c)) (Z.abs (snd c))) (skipn 16 (ibetas 0 1 15 0 zd)) =
    [643409244616412613815495543351125121360000; 245013369864055272841246769584755659443134; 50276692801141755890905498592574436550000; 1100439203195613477083741744972934113000; 3790275038237681212485880186969483353054;
     1400268693897334010601818508460407376818; 285348938070474432039669099052828298900; 8360090093598362937794615342037978867; 19752288294349442835396240158071091220; 8099521156704561334071156687025752553]%Z) by (vm_compute; reflexivity).
  rewrite E in B. cbn [zr map peval] in B. change (IZR S0) with 10000000000000000000000000000000000000000000000000000 in B. set (X := peval _ _) in *. clearbody X. cbn [pow]. lra.
Qed.
Lemma ga_16 a s : 15 <= a -> 0 <= s -> s ^ 16 * ga a s <= 62 / 10 ^ 5.
Proof.
  intros Ha Hs. assert (E1 : 269 / 100 <= exp 1).
  { assert (E : exp 1 = exp (1 / 64) ^ 64) by (rewrite exp_nth; f_equal; rewrite INR_IZR_INZ; change (Z.of_nat 64) with 64%Z; lra). rewrite E. apply Rle_trans with ((1 + 1 / 64) ^ 64); [|apply pow_incr; split; [lra|apply exp_ineq1_le]].
    replace (1 + 1 / 64) with (IZR 65 / IZR 64) by lra. unfold Rdiv. rewrite Rpow_mult_distr, pow_inv by lra. rewrite !pow_IZR. assert (P : (0 < 64 ^ Z.of_nat 64)%Z) by (apply Z.pow_pos_nonneg; lia). apply IZR_lt in P as P'. apply (proj1 (Rle_div_r _ _ _ P')).
    assert (Q : (269 * 64 ^ Z.of_nat 64 <= 100 * 65 ^ Z.of_nat 64)%Z) by (vm_compute; discriminate). apply IZR_le in Q. rewrite !mult_IZR in Q. lra. }
  set (z := 15 / 16 * (s * s)). assert (Z0 : 0 <= z) by (unfold z; nra).
  assert (G : ga a s <= exp (- z) ^ 8). { rewrite exp_nth. unfold ga. assert (X : - a * (s * s / 2) <= INR 8 * - z). { rewrite INR_IZR_INZ. change (Z.of_nat 8) with 8%Z. unfold z. nra. } destruct X as [X|X]; [left; apply exp_increasing, X|right; f_equal; exact X]. }
  assert (B : 0 <= s * s * exp (- z) <= 39661 / 100000).
  { pose proof (exp_pos (- z)) as EP. split; [apply Rmult_le_pos; nra|]. pose proof (exp_ineq1_le (z - 1)) as X. assert (Y : exp z = exp 1 * exp (z - 1)) by (rewrite <- exp_plus; f_equal; ring). pose proof (exp_pos z) as EZ. rewrite exp_Ropp.
    apply (proj2 (Rle_div_l _ _ _ EZ)). rewrite Y. replace (s * s) with (16 / 15 * z) by (unfold z; field). pose proof (exp_pos (z - 1)). clearbody z. assert (269 / 100 * z <= exp 1 * exp (z - 1)) by (apply Rmult_le_compat; lra). lra. }
  apply Rle_trans with ((s * s * exp (- z)) ^ 8).
  - rewrite (Rpow_mult_distr (s * s)). replace (s ^ 16) with ((s * s) ^ 8) by ring. apply Rmult_le_compat_l; [apply pow_le; nra|exact G].
  - apply Rle_trans with ((39661 / 100000) ^ 8); [apply pow_incr, B|]. cbn [pow]. lra.
Qed.
Lemma nth_firstn_In {A : Type} (l : list A) (d : A) : forall n i, (i < n)%nat -> (i < length l)%nat -> In (nth i l d) (firstn n l).
Proof. induction l as [|x l IH]; intros n i Hn Hl; cbn [length] in Hl; [lia|]. destruct n; [lia|]. destruct i; cbn [nth firstn]; [left; reflexivity|right; apply IH; lia]. Qed.
Lemma skip_skip {A : Type} (l : list A) n k : skipn (n + k) l = skipn k (skipn n l).
Proof. revert l. induction n as [|n IH]; intros l; [reflexivity|]. destruct l as [|x l]; cbn [Nat.add skipn]; [rewrite skipn_nil; reflexivity|apply IH]. Qed.
Lemma beta_low a i : 15 <= a -> (i < 15)%nat -> nth i (beta a) 0 <> 0.
Proof.
  intros Ha C E0.
  assert (IA : IZR 0 / IZR 15 <= / a <= IZR 1 / IZR 15) by (split; [unfold Rdiv; rewrite Rmult_0_l; left; apply Rinv_0_lt_compat; lra|unfold Rdiv; rewrite Rmult_1_l; apply Rinv_le_contravar; lra]).
  pose proof (beta_inside a 0 1 15 ltac:(lia) ltac:(lia) ltac:(lra) IA) as F. fold (beta a) in F.
  assert (NZ : forallb nonzero (firstn 15 (ibetas 0 1 15 0 zd)) = true) by (vm_compute; reflexivity). assert (LN : length (ibetas 0 1 15 0 zd) = 26%nat) by (vm_compute; reflexivity).
  destruct (Forall2_nth _ _ i F ltac:(rewrite LN; lia)) as (L & U).
  assert (N : nonzero (nth i (ibetas 0 1 15 0 zd) (0, 0)%Z) = true).
  { apply (proj1 (forallb_forall _ _) NZ). apply nth_firstn_In; [exact C|rewrite LN; lia]. }
  rewrite E0, Rmult_0_l in L, U. apply Bool.orb_true_iff in N. destruct N as [N|N]; apply Z.ltb_lt in N; apply IZR_lt in N; lra.
Qed.
Lemma beta_sum_any a e : 15 <= a -> e * e <= 10201 / 10000 -> Rabs (beta_sum (beta a) e 1 0 - TT a e) * ga a e <= 602 / 10 ^ 16.
Proof.
  intros Ha He. pose proof (ga_pos a e) as GP. destruct (Req_dec e 0) as [->|Hn]; [rewrite beta_sum_0, Rminus_eq_0, Rabs_R0, Rmult_0_l; apply Rdiv_le_0_compat; [lra|apply pow_lt; lra]|].
  destruct (beta_sum_stop (beta a) e 1 0) as (j & H1 & H2 & H3 & _).
  assert (J : (16 <= j)%nat).
  { destruct H3 as [H3|(i & -> & H4 & H5)]; [rewrite beta_26 in H3; lia|]. assert (E0 : nth i (beta a) 0 = 0) by (assert (e ^ i <> 0) by (apply pow_nonzero, Hn); nra).
    destruct (Nat.lt_ge_cases i 15) as [C|C]; [|lia]. exfalso. exact (beta_low a i Ha C E0). }
  rewrite H2. unfold TT. rewrite (peval_split j (beta a) e H1). replace (0 + 1 * peval (firstn j (beta a)) e - (peval (firstn j (beta a)) e + e ^ j * peval (skipn j (beta a)) e)) with (- (e ^ j * peval (skipn j (beta a)) e)) by ring.
  rewrite Rabs_Ropp. replace j with (16 + (j - 16))%nat by lia. rewrite pow_add, Rmult_assoc, Rabs_mult, <- RPow_abs.
  replace (skipn (16 + (j - 16)) (beta a)) with (skipn (j - 16) (skipn 16 (beta a))) by (symmetry; apply skip_skip).
  pose proof (peval_skip_abs (skipn 16 (beta a)) e (j - 16)) as B. set (t := Rabs e) in *. assert (T : 0 <= t) by apply Rabs_pos. assert (TE : t * t = e * e) by (unfold t; rewrite <- Rabs_mult; apply Rabs_pos_eq; nra).
  assert (T1 : t <= 101 / 100) by nra. pose proof (peval_abs_mono (skipn 16 (beta a)) t (101 / 100) (conj T T1)) as M. pose proof (beta_tail_sum a Ha) as S16.
  assert (GA : ga a e = ga a t) by (unfold ga; rewrite TE; reflexivity). rewrite GA. pose proof (ga_16 a t Ha T) as G16. pose proof (pow_le t 16 T) as P16. pose proof (ga_pos a t) as GT.
  set (X := Rabs (e ^ (j - 16) * _)) in *. assert (XP : 0 <= X) by apply Rabs_pos. assert (XB : X <= 97 / 10 ^ 12) by lra.
  replace (t ^ 16 * X * ga a t) with (X * (t ^ 16 * ga a t)) by ring. apply Rle_trans with (97 / 10 ^ 12 * (62 / 10 ^ 5)); [apply Rmult_le_compat; [exact XP|apply Rmult_le_pos; lra|exact XB|exact G16]|]. lra.
Qed.

(** ** The two functions *)
Definition tailx (a : R) (b : bool) (s : R) : R := 1 / 2 * erfc (s * sqrt (a / 2)) + sg b * beta_sum (beta a) (sg b * s) 1 0 / GN a * ga a s * ca a.
Lemma asympt_R_eq a e h : 15 <= a -> e * e = 2 * h -> asympt_R a e h = beta_sum (beta a) e 1 0 / GN a * ga a e * ca a.
Proof.
  intros Ha E. unfold asympt_R. cbv zeta. fold (beta a). fold (GN a). unfold ga, ca. pose proof PI_RGT_0 as PP. rewrite E. replace (- a * (2 * h / 2)) with (- a * h) by field.
  rewrite (sqrt_mult (2 * PI) a) by lra. assert (0 < sqrt (2 * PI)) by (apply sqrt_lt_R0; lra). assert (0 < sqrt a) by (apply sqrt_lt_R0; lra). destruct (GN_range a Ha). set (g := GN a) in *. set (q1 := sqrt (2 * PI)) in *. set (q2 := sqrt a) in *. set (B := beta_sum _ _ _ _). set (e1 := exp _). clearbody g q1 q2 B e1. field. repeat split; lra.
Qed.
Lemma ga_even a s : ga a (- s) = ga a s.
Proof. unfold ga. f_equal. field. Qed.
Lemma asy_value a x : 15 <= a -> 3 / 10 * a < x -> x < 235 / 100 * a ->
  exists b m, region b m /\ x = a * (1 + sg b * m) /\ m = Rabs (x - a) / a /\ (a <= x -> b = true) /\ (x < a -> b = false) /\ (if b then GammaQ_asympt a x else GammaP_asympt a x) = tailx a b (s' b m) /\
    (if b then GammaP_asympt a x else GammaQ_asympt a x) = 1 - tailx a b (s' b m).
Proof.
  intros Ha H1 H2. set (mu := (x - a) / a). assert (MX : x = a * (1 + mu)) by (unfold mu; field; lra).
  set (b := if Rlt_dec mu 0 then false else true). set (m := Rabs mu). exists b, m.
  assert (MU : sg b * m = mu). { unfold b, m. destruct (Rlt_dec mu 0); cbn [sg]; [rewrite Rabs_left by lra|rewrite Rabs_pos_eq by lra]; ring. }
  assert (R1 : -7 / 10 < mu) by nra. assert (R2 : mu < 135 / 100) by nra.
  assert (RG : region b m). { split; [apply Rabs_pos|]. unfold b, m in *. destruct (Rlt_dec mu 0); cbn [sg] in MU; lra. }
  split; [exact RG|]. split; [rewrite MU; exact MX|].
  split; [unfold m, mu, Rdiv; rewrite Rabs_mult, (Rabs_pos_eq (/ a)) by (left; apply Rinv_0_lt_compat; lra); reflexivity|].
  split; [intros Hx; unfold b; destruct (Rlt_dec mu 0); [nra|reflexivity]|].
  split; [intros Hx; unfold b; destruct (Rlt_dec mu 0); [reflexivity|nra]|].
  destruct (tail_perturb a b m Ha RG) as (_ & MP & _ & _). assert (SE : s' b m * s' b m = 2 * mln1p mu) by (unfold s'; rewrite MU; apply sqrt_sqrt; rewrite MU in MP; lra).
  assert (SP : 0 <= s' b m) by apply sqrt_pos. assert (CS : copysign (sqrt (2 * mln1p mu)) mu = sg b * s' b m).
  { unfold copysign, s'. rewrite MU. rewrite Rabs_pos_eq by apply sqrt_pos. unfold b. destruct (Rlt_dec mu 0); cbn [sg]; ring. }
  assert (AR : asympt_R a (sg b * s' b m) (mln1p mu) = beta_sum (beta a) (sg b * s' b m) 1 0 / GN a * ga a (s' b m) * ca a).
  { rewrite asympt_R_eq; [|exact Ha|rewrite <- SE; replace (sg b * s' b m * (sg b * s' b m)) with (sg b * sg b * (s' b m * s' b m)) by ring; rewrite sg_sq; ring]. replace (ga a (sg b * s' b m)) with (ga a (s' b m)); [reflexivity|]. destruct b; cbn [sg]; [f_equal; ring|]. rewrite <- ga_even. f_equal. ring. }
  unfold GammaP_asympt, GammaQ_asympt, tailx. cbv zeta. fold mu. rewrite CS, AR. set (B := beta_sum (beta a) (sg b * s' b m) 1 0). clearbody B. set (s := s' b m) in *. clearbody s.
  assert (OD : forall y, erfc (- y) = 2 - erfc y) by (intros y; unfold erfc; rewrite erf_odd; ring).
  destruct b; cbn [sg].
  - split; [replace (1 * s) with s by ring; field; pose proof (GN_range a Ha); lra|]. replace (- (1 * s) * sqrt (a / 2)) with (- (s * sqrt (a / 2))) by ring. rewrite OD. field. pose proof (GN_range a Ha). lra.
  - split; [replace (- (-1 * s) * sqrt (a / 2)) with (s * sqrt (a / 2)) by ring; field; pose proof (GN_range a Ha); lra|]. replace (-1 * s * sqrt (a / 2)) with (- (s * sqrt (a / 2))) by ring. rewrite OD. field. pose proof (GN_range a Ha). lra.
Qed.
Lemma tailx_any a b m : 15 <= a -> region b m -> Rabs (tailx a b (s' b m) - tail a b (s' b m)) <= 641 / 10 ^ 17 /\ (regular a -> tailx a b (s' b m) = tail a b (s' b m)).
Proof.
  intros Ha R. split.
  - destruct (tail_perturb a b m Ha R) as (_ & _ & SB & _). set (s := s' b m) in *. clearbody s. pose proof (beta_sum_any a (sg b * s) Ha) as B.
    assert (E : sg b * s * (sg b * s) = s * s) by (replace (sg b * s * (sg b * s)) with (sg b * sg b * (s * s)) by ring; rewrite sg_sq; ring). rewrite E in B. specialize (B SB).
    assert (G : ga a (sg b * s) = ga a s) by (unfold ga; rewrite E; reflexivity). rewrite G in B. unfold tailx, tail. set (X := beta_sum _ _ _ _) in *. set (T := TT a (sg b * s)) in *.
    replace (1 / 2 * erfc (s * sqrt (a / 2)) + sg b * X / GN a * ga a s * ca a - (1 / 2 * erfc (s * sqrt (a / 2)) + sg b * T / GN a * ga a s * ca a)) with (sg b * ((X - T) * (ga a s * (/ GN a * ca a)))) by (unfold Rdiv; ring).
    pose proof (ca_pos a Ha) as CP. pose proof (ca_le a Ha) as CL. destruct (GN_range a Ha) as (G1 & _). assert (IG : 0 < / GN a <= 1) by (split; [apply Rinv_0_lt_compat; lra|rewrite <- Rinv_1; apply Rinv_le_contravar; lra]). pose proof (ga_pos a s) as GP.
    rewrite !Rabs_mult, sg_abs, Rmult_1_l, (Rabs_pos_eq (ga a s)), (Rabs_pos_eq (/ GN a)), (Rabs_pos_eq (ca a)) by lra. rewrite <- Rmult_assoc.
    assert (Y : 0 <= / GN a * ca a <= 10 / 94) by (split; [apply Rmult_le_pos; lra|nra]). assert (0 <= Rabs (X - T) * ga a s) by (apply Rmult_le_pos; [apply Rabs_pos|lra]).
    apply Rle_trans with (602 / 10 ^ 16 * (10 / 94)); [apply Rmult_le_compat; lra|lra].
  - intros HR. unfold tailx, tail. rewrite beta_sum_regular by exact HR. reflexivity.
Qed.
Lemma tail_total a b m : 15 <= a -> region b m -> let E := EX a b m / Gam a in
  0 < E < 1 /\ Rabs (tailx a b (s' b m) - E) <= / 2 ^ 47 /\
  (regular a -> Rabs (tailx a b (s' b m) - E) <= / 2 ^ 56) /\ (regular a -> 1 / 32 <= m -> Rabs (tailx a b (s' b m) - E) <= / 2 ^ 43 * E).
Proof.
  intros Ha R E. destruct (GN_range a Ha) as (G1 & G2). assert (M0 : 0 <= m) by apply R. assert (M1 : 0 < 1 + sg b * m) by (destruct R as (H1 & H2); destruct b; cbn; lra).
  pose proof (EX_range a Ha b m M0 M1) as ER. fold E in ER. destruct (tail_close a Ha G1 b m M0 M1) as (_ & TC). fold E in TC.
  destruct (tail_perturb a b m Ha R) as (TP & _ & _ & TE). destruct (tailx_any a b m Ha R) as (TX & TXE). destruct (YY_0_num a Ha) as (Y0 & Y1). destruct (region_ss b m R) as (S0 & _ & S2).
  pose proof (YY_decr a Ha (ss b m) S0) as YD. set (t := tail a b (ss b m)) in *. set (t' := tail a b (s' b m)) in *. set (tx := tailx a b (s' b m)) in *.
  split; [exact ER|]. apply Rabs_le_between in TP. apply Rabs_le_between in TX. assert (A2 : 2 * YY a 0 * E <= 2 * YY a 0) by nra. assert (A : Rabs (t - E) <= 3 * (203 / 10 ^ 20)) by lra. apply Rabs_le_between in A.
  split; [apply Rabs_le; cbn [pow] in *; lra|]. split; [intros HR; rewrite (TXE HR); apply Rabs_le; cbn [pow] in *; lra|].
  intros HR Hm. rewrite (TXE HR). unfold t'. rewrite (TE Hm). fold t. eapply Rle_trans; [exact TC|].
  pose proof (YY_rel a (ss b m) Ha S2) as YR. pose proof (EX_lower a Ha b m (region_dom b m R ltac:(lra))) as EL. pose proof (GN_close a Ha G1) as GC. apply Rabs_le_between in GC.
  pose proof (Gam_pos a ltac:(lra)) as GP. assert (KE : kap a * EX a b m = kap a * Gam a * E) by (unfold E; field; lra). rewrite KE in EL.
  assert (KG : kap a * Gam a <= 102 / 100) by (cbn [pow] in *; lra). assert (KB : kap a * Gam a * E <= 102 / 100 * E) by (apply Rmult_le_compat_r; lra).
  assert (YB : YY a (ss b m) <= 91 / 10 ^ 15 * (102 / 100 * E)) by (eapply Rle_trans; [exact YR|]; apply Rmult_le_compat_l; [cbn [pow]; lra|lra]).
  assert (A3 : 2 * YY a 0 * E <= 2 * (203 / 10 ^ 20) * E) by (apply Rmult_le_compat_r; lra). cbn [pow] in *. lra.
Qed.
