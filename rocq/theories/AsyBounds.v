(** Numerical bounds of the error terms, the function mln1p, and the value of the two asympt functions. *)
From Coq Require Import Reals Lra Lia Psatz ZArith List.
From Coquelicot Require Import Coquelicot.
From Verif Require Import Improper GammaFn ContModel NormModel NormProofs SeriesModel SeriesProofs AsyModel AsyFacts AsyTable AsyProofs.
Import ListNotations.
Local Open Scope R_scope.

(** ** The barrier in numbers: VV for s^2 <= c/100 and a >= 15, scaled by 10^12 *)
Definition W0 : Z := Eval vm_compute in (10 ^ 12)%Z.
Fixpoint wz (c : Z) (n : nat) : Z :=
  match n with O => W0 | S k => (cd (W0 * c ^ Z.of_nat n) (100 ^ Z.of_nat n) + cd (2 * Z.of_nat n * wz c k) 15)%Z end.
Lemma cd_ge x y : (0 < y)%Z -> IZR x / IZR y <= IZR (cd x y).
Proof.
  intros Hy. apply IZR_lt in Hy as Hy'. apply (proj2 (Rle_div_l _ _ _ Hy')). unfold cd. rewrite <- mult_IZR. apply IZR_le.
  pose proof (Z.mul_div_le (- x) y Hy). lia.
Qed.
Lemma VV_num a c n s : 15 <= a -> s * s <= IZR c / 100 -> VV a n s <= IZR (wz c n) / IZR W0.
Proof.
  intros Ha Hs. assert (WP : 0 < IZR W0) by (apply IZR_lt; reflexivity). induction n as [|n IH]; [cbn [VV wz]; right; field; lra|].
  cbn [VV wz]. rewrite plus_IZR. set (k := Z.of_nat (S n)). pose proof (cd_ge (W0 * c ^ k) (100 ^ k) ltac:(apply Z.pow_pos_nonneg; lia)) as A.
  pose proof (cd_ge (2 * k * wz c n) 15 ltac:(lia)) as B. rewrite mult_IZR in A. rewrite !mult_IZR in B.
  assert (K : IZR k = INR (S n)) by (unfold k; symmetry; apply INR_IZR_INZ). rewrite K in B.
  assert (P : (s * s) ^ S n <= IZR (c ^ k) / IZR (100 ^ k)).
  { eapply Rle_trans; [apply pow_incr; split; [nra|exact Hs]|]. unfold k. rewrite <- !pow_IZR. unfold Rdiv. rewrite Rpow_mult_distr, pow_inv by lra. right. reflexivity. }
  assert (P100 : 0 < IZR (100 ^ k)) by (apply IZR_lt, Z.pow_pos_nonneg; lia).
  assert (Q : 2 * INR (S n) / a * VV a n s <= 2 * INR (S n) / 15 * (IZR (wz c n) / IZR W0)).
  { pose proof (lt_0_INR (S n) ltac:(lia)) as N. pose proof (VV_pos a Ha n s) as V. apply Rmult_le_compat; [left; apply Rdiv_lt_0_compat; lra|lra| |exact IH].
    unfold Rdiv. apply Rmult_le_compat_l; [lra|]. apply Rinv_le_contravar; lra. }
  apply (proj1 (Rle_div_r _ _ _ WP)).
  assert (A' : (s * s) ^ S n * IZR W0 <= IZR (cd (W0 * c ^ k) (100 ^ k))).
  { eapply Rle_trans; [|exact A]. apply Rle_trans with (IZR (c ^ k) / IZR (100 ^ k) * IZR W0); [apply Rmult_le_compat_r; lra|]. right. field. lra. }
  assert (B' : 2 * INR (S n) / a * VV a n s * IZR W0 <= IZR (cd (2 * k * wz c n) 15)).
  { eapply Rle_trans; [|exact B]. apply Rle_trans with (2 * INR (S n) / 15 * (IZR (wz c n) / IZR W0) * IZR W0); [apply Rmult_le_compat_r; lra|]. right. field. lra. }
  lra.
Qed.
Lemma zpow c k n : Z.of_nat n = k -> IZR (c ^ k) = IZR c ^ n.
Proof. intros <-. symmetry. apply pow_IZR. Qed.
Lemma YV_alg t37 t17 t20 t36 t12 t5 w1 w2 w k M : 0 < t17 -> 0 < t20 -> 0 < t36 -> 0 < t12 -> 0 < w -> 0 < k -> t37 = t17 * t20 -> t37 = 10 * t36 ->
  k * (6 * w * t12 + 42 * t20 * w1 * t12 + 61 * t5 * t36 * w2) <= M * (t37 * w * t12) -> 6 / t37 * 1 + 42 / t17 * (w1 / w) + 61 / 10 * (t5 / t12) * (w2 / w) <= M / k.
Proof.
  intros P17 P20 P36 P12 WP Hk' E37 E36 H. assert (P37 : 0 < t37) by lra. apply (proj1 (Rle_div_r _ _ _ Hk')).
  assert (D : 0 < t37 * w * t12) by (apply Rmult_lt_0_compat; [apply Rmult_lt_0_compat|]; assumption).
  apply (Rmult_le_reg_r (t37 * w * t12)); [exact D|]. eapply Rle_trans; [|exact H]. right.
  assert (F1 : 42 / t17 = 42 * t20 / t37) by (rewrite E37; field; lra). assert (F2 : 61 / 10 * (t5 / t12) = 61 * t36 * t5 / t12 / t37) by (rewrite E36; field; lra). rewrite F1, F2. field. lra.
Qed.
Lemma cC_eq : cC = 61 / 10 * (5 ^ 81 / 12 ^ 81).
Proof. unfold cC, Rdiv. rewrite Rpow_mult_distr, pow_inv by lra. reflexivity. Qed.
Lemma YV_num a s c (M k : Z) : 15 <= a -> s * s <= IZR c / 100 -> (0 < k)%Z ->
  (k * (6 * W0 * 12 ^ 81 + 42 * 10 ^ 20 * wz c 13 * 12 ^ 81 + 61 * 5 ^ 81 * 10 ^ 36 * wz c 40) <= M * (10 ^ 37 * W0 * 12 ^ 81))%Z ->
  YV a s <= IZR M / IZR k.
Proof.
  intros Ha Hs Hk H. pose proof (VV_num a c 13 s Ha Hs) as V1. pose proof (VV_num a c 40 s Ha Hs) as V2. pose proof cE_pos. pose proof cK_pos. pose proof cC_pos.
  assert (WP : 0 < IZR W0) by (apply IZR_lt; reflexivity). apply IZR_lt in Hk as Hk'.
  unfold YV. apply Rle_trans with (cE * 1 + cK * (IZR (wz c 13) / IZR W0) + cC * (IZR (wz c 40) / IZR W0)).
  - apply Rplus_le_compat; [apply Rplus_le_compat|]; (apply Rmult_le_compat_l; [lra|]); [right; reflexivity|exact V1|exact V2].
  - apply IZR_le in H. rewrite cC_eq. apply (YV_alg (10 ^ 37) (10 ^ 17) (10 ^ 20) (10 ^ 36) (12 ^ 81) (5 ^ 81)); try (apply pow_lt; lra); try assumption; [apply (pow_add 10 17 20)|symmetry; apply tech_pow_Rmult|].
    rewrite !mult_IZR, !plus_IZR, !mult_IZR, (zpow 12 81 81), (zpow 5 81 81), (zpow 10 37 37), (zpow 10 20 20), (zpow 10 36 36) in H by reflexivity. exact H.
Qed.
Lemma ca_le a : 15 <= a -> ca a <= 10 / 94.
Proof.
  intros Ha. unfold ca. replace (10 / 94) with (/ (94 / 10)) by field. apply Rinv_le_contravar; [lra|]. rewrite <- (sqrt_square (94 / 10)) by lra. apply sqrt_le_1_alt. pose proof PI2_3_2. nra.
Qed.
Lemma YY_0_num a : 15 <= a -> 0 < YY a 0 <= 203 / 10 ^ 20.
Proof.
  intros Ha. rewrite YY_YV. assert (G : ga a 0 = 1) by (unfold ga; replace (- a * (0 * 0 / 2)) with 0 by field; apply exp_0). rewrite G, Rmult_1_r.
  pose proof (ca_pos a Ha) as CP. pose proof (ca_le a Ha) as CL.
  assert (Y : YV a 0 <= IZR 190 / IZR (10 ^ 19)) by (apply (YV_num a 0 0); [exact Ha|lra|reflexivity|vm_compute; discriminate]).
  assert (YP : 0 < YV a 0). { unfold YV. pose proof (VV_pos a Ha 0 0). pose proof (VV_pos a Ha 13 0). pose proof (VV_pos a Ha 40 0). pose proof cE_pos. pose proof cK_pos. pose proof cC_pos.
    assert (0 < cE * VV a 0 0) by (apply Rmult_lt_0_compat; assumption). assert (0 < cK * VV a 13 0) by (apply Rmult_lt_0_compat; assumption). assert (0 < cC * VV a 40 0) by (apply Rmult_lt_0_compat; assumption). lra. }
  split; [apply Rmult_lt_0_compat; assumption|]. apply Rle_trans with (10 / 94 * (IZR 190 / IZR (10 ^ 19))); [apply Rmult_le_compat; lra|]. change (10 ^ 19)%Z with 10000000000000000000%Z. lra.
Qed.
Lemma YY_rel a s : 15 <= a -> s * s <= 102 / 100 -> YY a s <= 91 / 10 ^ 15 * ZZ a s.
Proof.
  intros Ha Hs. assert (Y : YV a s <= IZR 392 / IZR (10 ^ 16)) by (apply (YV_num a s 102); [exact Ha|exact Hs|reflexivity|vm_compute; discriminate]).
  rewrite YY_YV. unfold ZZ. pose proof (ca_pos a Ha) as CP. pose proof (ga_pos a s) as GP. assert (P : 0 < ca a * ga a s) by (apply Rmult_lt_0_compat; assumption).
  replace (91 / 10 ^ 15 * (15 / 17 * ca a * (ga a s * / (1 + s * s)))) with (ca a * ga a s * (91 / 10 ^ 15 * (15 / 17) * / (1 + s * s))) by ring. apply Rmult_le_compat_l; [lra|].
  assert (I1 : / (202 / 100) <= / (1 + s * s)) by (apply Rinv_le_contravar; nra). change (10 ^ 16)%Z with 10000000000000000%Z in Y. lra.
Qed.
Lemma GN_range a : 15 <= a -> 1 <= GN a <= 101 / 100.
Proof.
  intros Ha. unfold GN, beta. pose proof (beta1_nonneg a Ha) as B. assert (IA : 0 < / a <= / 15) by (split; [apply Rinv_0_lt_compat; lra|apply Rinv_le_contravar; lra]).
  assert (U : nth 1 (betas a 0 used) 0 <= 9 / 100).
  { assert (F : Forall2 inside (betas a 0 used) (ibetas 0 1 15 0 zd)) by (apply beta_inside; [lia|lia|lra|lra]).
    pose proof (Forall2_nth _ _ 1 F ltac:(vm_compute; lia)) as (_ & U). pose proof S0_pos as SP.
    assert (P : (100 * snd (nth 1 (ibetas 0 1 15 0 zd) (0, 0)%Z) <= 9 * S0)%Z) by (vm_compute; discriminate). apply IZR_le in P. rewrite !mult_IZR in P.
    apply (Rmult_le_reg_r (IZR S0)); [exact SP|]. lra. }
  unfold Rdiv. set (x := nth 1 (betas a 0 used) 0) in *. clearbody x. nra.
Qed.

(** ** mln1p *)
Fixpoint ys (j : nat) (x : R) : R := match j with O => 0 | S i => ys i x + (-1) ^ i * x ^ (i + 2) / INR (i + 2) end.
Lemma ys_deriv j x : -1 < x -> is_derive (ys j) x (x * (1 - (- x) ^ j) / (1 + x)).
Proof.
  intros Hx. induction j as [|j IH].
  - cbn [ys pow]. eapply is_derive_val; [apply (is_derive_const (K := R_AbsRing) (V := R_NormedModule))|]. change (zero : R) with 0. field. lra.
  - cbn [ys]. eapply is_derive_val.
    + apply (is_derive_plus (K := R_AbsRing) (V := R_NormedModule) (ys j) (fun x => (-1) ^ j * x ^ (j + 2) / INR (j + 2))); [exact IH|].
      apply (is_derive_ext (fun x => (-1) ^ j / INR (j + 2) * x ^ (j + 2))); [intros t; change ((-1) ^ j / INR (j + 2) * t ^ (j + 2) = (-1) ^ j * t ^ (j + 2) / INR (j + 2)); unfold Rdiv; ring|].
      apply (is_derive_scal (fun x => x ^ (j + 2)) x ((-1) ^ j / INR (j + 2))). apply (is_derive_pow (fun x => x)). apply (is_derive_id (K := R_AbsRing)).
    + change (plus ?u ?v) with (u + v). change (one : R) with 1. replace (j + 2)%nat with (S (S j)) by lia. cbn [pred].
      assert (E : (- x) ^ j = (-1) ^ j * x ^ j) by (rewrite <- Rpow_mult_distr; f_equal; ring). rewrite <- !tech_pow_Rmult, E. pose proof (lt_0_INR (S (S j)) ltac:(lia)). field. lra.
Qed.
Lemma ys_0 j : ys j 0 = 0.
Proof. induction j as [|j IH]; cbn [ys]; [reflexivity|]. rewrite IH, pow_i by lia. unfold Rdiv. ring. Qed.
Lemma ys_error j x : Rabs x <= 1 / 32 -> Rabs (ph x - ys j x) <= 32 / 31 * (Rabs x ^ (j + 2) / INR (j + 2)).
Proof.
  intros Hx. pose proof (Rabs_pos x) as XP. remember (Rabs x) as t eqn:ET.
  assert (X : exists b, x = sg b * t). { rewrite ET. destruct (Rle_dec 0 x); [exists true; cbn; rewrite Rabs_pos_eq by lra; ring|exists false; cbn; rewrite Rabs_left by lra; ring]. }
  destruct X as (b & ->). clear ET. pose proof (lt_0_INR (j + 2) ltac:(lia)) as N.
  assert (U : forall c y, (c = 1 \/ c = -1) -> 0 <= y <= t -> is_derive (fun y => 32 / 31 * (y ^ (j + 2) / INR (j + 2)) + c * (ph (sg b * y) - ys j (sg b * y))) y
     (32 / 31 * y ^ (j + 1) + c * (sg b * (sg b * y * (- (sg b * y)) ^ j / (1 + sg b * y))))).
  { intros c y Hc Hy. assert (V : -1 < sg b * y) by (destruct b; cbn; lra). eapply is_derive_val.
    - apply (is_derive_plus (K := R_AbsRing) (V := R_NormedModule) (fun y => 32 / 31 * (y ^ (j + 2) / INR (j + 2))) (fun y => c * (ph (sg b * y) - ys j (sg b * y)))).
      + apply (is_derive_ext (fun y => 32 / 31 / INR (j + 2) * y ^ (j + 2))); [intros z; change (32 / 31 / INR (j + 2) * z ^ (j + 2) = 32 / 31 * (z ^ (j + 2) / INR (j + 2))); unfold Rdiv; ring|].
        apply (is_derive_scal (fun y => y ^ (j + 2)) y (32 / 31 / INR (j + 2))). apply (is_derive_pow (fun y => y)). apply (is_derive_id (K := R_AbsRing)).
      + apply (is_derive_scal (fun y => ph (sg b * y) - ys j (sg b * y)) y c).
        apply (is_derive_circ (fun z => ph z - ys j z) (fun y => sg b * y)).
        * apply (is_derive_minus (K := R_AbsRing) (V := R_NormedModule) ph (ys j)); [apply ph_deriv, V|apply ys_deriv, V].
        * apply (is_derive_scal (fun y => y) y (sg b)). apply (is_derive_id (K := R_AbsRing)).
    - change (plus ?u ?v) with (u + v). change (minus ?u ?v) with (u - v). change (one : R) with 1. replace (j + 2)%nat with (S (S j)) by lia. replace (j + 1)%nat with (S j) by lia. cbn [pred].
      replace (j + 2)%nat with (S (S j)) in N by lia. field. lra. }
  assert (Q : forall c, (c = 1 \/ c = -1) -> 0 <= 32 / 31 * (t ^ (j + 2) / INR (j + 2)) + c * (ph (sg b * t) - ys j (sg b * t))).
  { intros c Hc. pose proof (mono_cc (fun y => 32 / 31 * (y ^ (j + 2) / INR (j + 2)) + c * (ph (sg b * y) - ys j (sg b * y))) _ 0 t XP (fun y Hy => U c y Hc Hy)) as M.
    cbv beta in M. rewrite pow_i, Rmult_0_r, ph_0, ys_0 in M by lia. replace (32 / 31 * (0 / INR (j + 2)) + c * (0 - 0)) with 0 in M by (field; lra). apply M.
    intros y Hy. assert (V : 31 / 32 <= 1 + sg b * y) by (destruct b; cbn; lra). set (v := 1 + sg b * y) in *.
    assert (Z : Rabs (c * (sg b * (sg b * y * (- (sg b * y)) ^ j / v))) <= 32 / 31 * y ^ (j + 1)).
    { unfold Rdiv. rewrite !Rabs_mult, <- RPow_abs, Rabs_Ropp, Rabs_mult, sg_abs, !Rmult_1_l, (Rabs_pos_eq y) by lra. rewrite (Rabs_pos_eq (/ v)) by (left; apply Rinv_0_lt_compat; lra).
      replace (Rabs c) with 1 by (destruct Hc as [-> | ->]; unfold Rabs; destruct (Rcase_abs _); lra). replace (j + 1)%nat with (S j) by lia. rewrite <- tech_pow_Rmult.
      assert (/ v <= 32 / 31) by (replace (32 / 31) with (/ (31 / 32)) by field; apply Rinv_le_contravar; lra). assert (0 <= y * y ^ j) by (apply Rmult_le_pos; [lra|apply pow_le; lra]).
      assert (0 < / v) by (apply Rinv_0_lt_compat; lra). nra. }
    apply Rabs_le_between in Z. lra. }
  pose proof (Q 1 ltac:(lra)). pose proof (Q (-1) ltac:(lra)). apply Rabs_le. lra.
Qed.
Lemma mln1p_loop_spec x k j : exists i, mln1p_loop k (INR (j + 2)) x (x ^ (j + 2)) ((-1) ^ j) (ys j x) = ys i x /\ (j <= i)%nat /\ (k = 0%nat \/ j < i)%nat /\
  ((i = j + k)%nat \/ exists i', i = S i' /\ Rabs ((-1) ^ i' * x ^ (i' + 2) / INR (i' + 2)) < eps4 * ys i x).
Proof.
  revert j. induction k as [|k IH]; intros j; cbn [mln1p_loop].
  - exists j. split; [reflexivity|]. split; [lia|]. split; [left; reflexivity|]. left. lia.
  - change (ys j x + (-1) ^ j * x ^ (j + 2) / INR (j + 2)) with (ys (S j) x). destruct (Rlt_dec _ _) as [C|C].
    + exists (S j). split; [reflexivity|]. split; [lia|]. split; [right; lia|]. right. exists j. split; [reflexivity|exact C].
    + destruct (IH (S j)) as (i & E & H1 & H2 & H3). exists i. split; [|split; [lia|split; [right; lia|]]].
      * rewrite <- E. f_equal; [change (S j + 2)%nat with (S (j + 2)); rewrite S_INR; ring|cbn [Nat.add pow]; ring|cbn [pow]; ring].
      * destruct H3 as [->|H3]; [left; lia|right; exact H3].
Qed.
Lemma mln1p_close u : -1 < u -> Rabs (mln1p u - ph u) <= eps4 / 30 * ph u /\ (1 / 32 <= Rabs u -> mln1p u = ph u).
Proof.
  intros Hu. destruct eps4_val as (EP & EV). pose proof (ph_nonneg u Hu) as PN. unfold mln1p. destruct (Rle_dec (1 / 32) (Rabs u)) as [C|C].
  - split; [|reflexivity]. fold (ph u). rewrite Rminus_eq_0, Rabs_R0. apply Rmult_le_pos; lra.
  - split; [|lra]. assert (Hx : Rabs u <= 1 / 32) by lra. pose proof (Rabs_pos u) as UP.
    destruct (mln1p_loop_spec u 51 0) as (i & E & _ & H2 & H3). cbn [Nat.add ys] in E. replace (INR 2) with 2 in E by (cbn; lra). replace (u ^ 2) with (u * u) in E by ring. change ((-1) ^ 0) with 1 in E. rewrite E.
    pose proof (ys_error i u Hx) as ER. rewrite Rabs_minus_sym. set (t := Rabs u) in *.
    assert (UU : u * u = t * t) by (unfold t; rewrite <- Rabs_mult; symmetry; apply Rabs_pos_eq; nra).
    assert (PH : 48 / 100 * (t * t) <= ph u).
    { destruct (ph_upper u Hu) as (_ & A). destruct (ph_lower u Hu) as (B & _). rewrite <- UU. destruct (Rle_dec u 0) as [N|N]; [specialize (A N); nra|]. specialize (B ltac:(lra)). assert (1 + u <= 33 / 32) by (pose proof (Rle_abs u); unfold t in Hx; lra). nra. }
    destruct H3 as [->|(i' & -> & H3)].
    + change (0 + 51)%nat with 51%nat in *. eapply Rle_trans; [exact ER|]. change (51 + 2)%nat with (51 + 2)%nat. rewrite pow_add. replace (t ^ 2) with (t * t) by ring.
      assert (T : t ^ 51 <= / 2 ^ 255). { replace (/ 2 ^ 255) with ((1 / 32) ^ 51). - apply pow_incr. lra. - replace (1 / 32) with (/ 2 ^ 5) by (cbn; field). rewrite pow_inv, <- pow_mult by (apply pow_nonzero; lra). reflexivity. }
      assert (T2 : / 2 ^ 255 <= eps4 / 100). { rewrite EV. replace (2 ^ 255) with (2 ^ 50 * 2 ^ 205) by (rewrite <- pow_add; reflexivity). rewrite Rinv_mult. assert (I50 : 0 < / 2 ^ 50) by (apply Rinv_0_lt_compat, pow_lt; lra).
        assert (/ 2 ^ 205 <= / 100); [|nra]. apply Rinv_le_contravar; [lra|]. replace (2 ^ 205) with (2 ^ 7 * 2 ^ 198) by (rewrite <- pow_add; reflexivity). assert (1 <= 2 ^ 198) by (apply pow_R1_Rle; lra). cbn [pow]. lra. }
      replace (INR (51 + 2)) with 53 by (cbn; lra). assert (0 <= t ^ 51) by (apply pow_le; lra). assert (0 <= t * t) by nra. set (q := t ^ 51) in *. set (tt := t * t) in *. clearbody q tt.
      assert (q * tt <= eps4 / 100 * tt) by (apply Rmult_le_compat_r; lra). assert (eps4 / 100 * tt <= eps4 / 48 * ph u) by (replace (eps4 / 48 * ph u) with (eps4 / 100 * (100 / 48 * ph u)) by field; apply Rmult_le_compat_l; lra). nra.
    + set (T := Rabs ((-1) ^ i' * u ^ (i' + 2) / INR (i' + 2))) in *. pose proof (lt_0_INR (i' + 2) ltac:(lia)) as N. pose proof (lt_0_INR (S i' + 2) ltac:(lia)) as N'.
      assert (TE : T = t ^ (i' + 2) / INR (i' + 2)). { unfold T, Rdiv. rewrite !Rabs_mult, <- !RPow_abs. replace (Rabs (-1)) with 1 by (unfold Rabs; destruct (Rcase_abs _); lra). rewrite pow1, Rmult_1_l. f_equal. apply Rabs_pos_eq. left. apply Rinv_0_lt_compat, N. }
      assert (K : 32 / 31 * (t ^ (S i' + 2) / INR (S i' + 2)) <= 1 / 31 * T).
      { rewrite TE. change (S i' + 2)%nat with (S (i' + 2)). rewrite <- tech_pow_Rmult. assert (0 <= t ^ (i' + 2)) by (apply pow_le; lra). change (S (i' + 2)) with (S i' + 2)%nat.
        assert (I1 : / INR (S i' + 2) <= / INR (i' + 2)) by (apply Rinv_le_contravar; [exact N|apply le_INR; lia]). assert (I0 : 0 < / INR (S i' + 2)) by (apply Rinv_0_lt_compat, N'). unfold Rdiv.
        set (p := t ^ (i' + 2)) in *. set (y := / INR (S i' + 2)) in *. set (z := / INR (i' + 2)) in *. clearbody p y z. assert (p * y <= p * z) by (apply Rmult_le_compat_l; lra). assert (0 <= p * y) by (apply Rmult_le_pos; lra).
        replace (32 * / 31 * (t * p * y)) with (t * (32 / 31 * (p * y))) by field. replace (1 * / 31 * (p * z)) with (1 / 32 * (32 / 31 * (p * z))) by field. apply Rmult_le_compat; lra. }
      set (Y := ys (S i') u) in *. clearbody Y. apply Rabs_le_between in ER. assert (E31 : 0 < eps4 < 1 / 100) by (rewrite EV; split; [apply Rinv_0_lt_compat, pow_lt; lra|]; cbn; lra).
      assert (B : Rabs (ph u - Y) <= 1 / 31 * (eps4 * Y)) by (apply Rabs_le; lra). apply Rabs_le_between in B. apply Rabs_le. assert (Y <= 1001 / 1000 * ph u) by nra. nra.
Qed.
