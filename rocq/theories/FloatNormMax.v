(** cdf and pdf of the Maxwell distribution in double. *)
From Coq Require Import ZArith Bool Reals Lia Lra Psatz.
From Coquelicot Require Import Coquelicot.
From Flocq Require Import Core IEEE754.BinarySingleNaN.
From Verif Require Import FloatFacts UniformModel UniformProofs FloatDrawModel FloatDrawSpec FloatDrawProofs FloatDrawCore FloatDrawLoc FloatDrawTrig FloatDrawLaw FloatDrawLibm DiscDrawTree FloatCdfModel FloatCdfSpec FloatCdfProofs FloatCdfCore FloatCdfLoc FloatPdfSpec FloatPdfProofs FloatPdfTail FloatPdfNan FloatNormModel FloatNormSpec NormModel NormProofs FloatNormProofs FloatNormPdf FloatNormLog.
Local Open Scope R_scope.
Notation rnd := (round radix2 (SpecFloat.fexp 53 1024) ZnearestE).

(** ** Exponentials against polynomial weights *)
Lemma weight_1 s : 0 <= s -> (1 + 2 * s) * exp (- s) <= 2 /\ (1 + 2 * s) * s * exp (- s) <= 9.
Proof.
  intros S. rewrite exp_Ropp. pose proof (exp_pos s) as P. pose proof (exp_1m s) as E1. pose proof (exp_sq s S) as E2. assert (RI : / exp s * exp s = 1) by (apply Rinv_l; lra).
  split; apply Rmult_le_reg_r with (exp s); try exact P; rewrite Rmult_assoc, RI; lra.
Qed.
Lemma exp_tail2 x : 80 <= x -> exp (- x) <= q / 2 * (q / 2).
Proof. intros H. replace (- x) with (- (x / 2) + - (x / 2)) by field. rewrite exp_plus. pose proof (exp_tail (x / 2) ltac:(lra)). apply Rmult_le_compat; try (left; apply exp_pos); lra. Qed.
Lemma weight_far s : 80 <= s -> (1 + 2 * s) * exp (- s) <= 2 * q.
Proof.
  intros H. replace (- s) with (- (s / 2) + - (s / 2)) by field. rewrite exp_plus. pose proof (exp_tail (s / 2) ltac:(lra)) as T. pose proof q_pos as Q. destruct (weight_1 (s / 2) ltac:(lra)) as (A & _). pose proof (exp_pos (- (s / 2))) as P.
  assert (B : (1 + 2 * s) * exp (- (s / 2)) <= 4). { assert ((1 + 2 * s) * exp (- (s / 2)) <= 2 * (1 + 2 * (s / 2)) * exp (- (s / 2))) by (apply Rmult_le_compat_r; lra). lra. }
  rewrite <- Rmult_assoc. apply Rle_trans with (4 * (q / 2)); [|lra]. apply Rmult_le_compat; try lra. apply Rmult_le_pos; lra.
Qed.

Definition C2 : R := sqrt (2 / PI).
Lemma C2_ok : 7 / 10 <= C2 <= 8 / 10 /\ Rabs (B2R dsqrt2overpi - C2) <= 2 * q * C2 /\ 7 / 10 <= B2R dsqrt2overpi <= 8 / 10.
Proof. pose proof q_pos as Q. pose proof (lc_abs _ _ _ sqrt2overpi_lc ltac:(lra)) as A. destruct sqrt2overpi_lc as (_ & P & _). fold C2 in A, P. pose proof A as A'. rewrite (proj2 dsqrt2overpi_ok) in A' |- *. assert (2 * q * C2 <= / 10000 * C2) by (apply Rmult_le_compat_r; lra). apply Rabs_le_inv in A'. split; [lra|]. split; [rewrite <- (proj2 dsqrt2overpi_ok); exact A|lra]. Qed.
Lemma exact_maxwell theta x : 0 < theta -> F_maxwell theta x = erf (x / theta / sqrt 2) - C2 * (x / theta) * exp (- (x / theta * (x / theta) / 2)).
Proof.
  intros T. pose proof (sqrt_lt_R0 2 ltac:(lra)) as S2. pose proof sqrt2_pos as S2'. assert (D : forall y, is_derive (max_cdf theta) y (max_pdf theta y)) by (intros y; apply is_derive_Reals, max_deriv, T).
  assert (PE : forall y, max_pdf theta y = f_maxwell theta y). { intros y. unfold max_pdf, f_maxwell. cbv zeta. replace (- (y * y) / (2 * (theta * theta))) with (- ((y / theta) ^ 2 / 2)) by (field; lra). field. lra. }
  assert (I : is_RInt (f_maxwell theta) 0 x (minus (max_cdf theta x) (max_cdf theta 0))).
  { apply is_RInt_ext with (max_pdf theta); [intros y _; apply PE|]. apply (is_RInt_derive (max_cdf theta)); [intros y _; apply D|]. intros y _. apply (ex_derive_continuous (max_pdf theta)). unfold max_pdf. auto_derive. repeat split; try lra; try (apply Rmult_integral_contrapositive; split; try apply Rmult_integral_contrapositive; try split; lra). }
  unfold F_maxwell. rewrite (is_RInt_unique _ _ _ _ I), (max_0 theta). unfold minus, plus, opp. cbn. unfold max_cdf, C2. replace (x * (1 / sqrt 2) / theta) with (x / theta / sqrt 2) by (field; lra). replace (- x * x / (2 * theta * theta)) with (- (x / theta * (x / theta) / 2)) by (field; lra). field. lra.
Qed.
Lemma prod_chain (P1 E : double) U w s : is_finite P1 = true -> 0 <= B2R P1 -> is_finite E = true -> 0 <= B2R E <= 1 -> 0 < U -> tiny / U <= q / 32 -> 0 <= w <= 1 + 2 * s -> Rabs (B2R P1 / U - C2 * w) <= 4 * q * w + q / 8 -> (1 + 2 * s) * Rabs (B2R E - exp (- s)) <= 120 * q -> w * exp (- s) <= 2 ->
  is_finite (dmul P1 E) = true /\ 0 <= B2R (dmul P1 E) / U <= 2 /\ 0 <= B2R (dmul P1 E) /\ Rabs (B2R (dmul P1 E) / U - C2 * w * exp (- s)) <= 110 * q.
Proof.
  intros F1 P0 FE RE HU TU W H1 HE Hw. pose proof q_pos as Q. destruct C2_ok as (C & _ & _). destruct (mul_shrink P1 E F1 FE RE) as (A & B). set (a1 := B2R P1 / U) in *. set (e := B2R E) in *. pose proof (exp_pos (- s)) as PS.
  assert (WE : w * Rabs (e - exp (- s)) <= 120 * q) by (apply Rle_trans with (2 := HE); apply Rmult_le_compat_r; [apply Rabs_pos|lra]). assert (WE2 : 0 <= w * e <= 2 + 120 * q). { split; [apply Rmult_le_pos; lra|]. replace (w * e) with (w * exp (- s) + w * (e - exp (- s))) by ring. assert (w * (e - exp (- s)) <= w * Rabs (e - exp (- s))) by (apply Rmult_le_compat_l; [lra|apply Rle_abs]). lra. }
  assert (Q6 : q <= / 1000000) by (unfold q; lra). assert (QW : q * (w * e) <= q * (2 + 120 * / 1000000)) by (apply Rmult_le_compat_l; lra). assert (QE : q * e <= q * 1) by (apply Rmult_le_compat_l; lra).
  assert (X : Rabs (a1 * e - C2 * w * exp (- s)) <= 105 * q).
  { replace (a1 * e - C2 * w * exp (- s)) with ((a1 - C2 * w) * e + C2 * (w * (e - exp (- s)))) by ring. apply Rle_trans with (1 := Rabs_triang _ _). rewrite !Rabs_mult, (Rabs_pos_eq e), (Rabs_pos_eq C2), (Rabs_pos_eq w) by lra. assert (Rabs (a1 - C2 * w) * e <= (4 * q * w + q / 8) * e) by (apply Rmult_le_compat_r; lra). assert (C2 * (w * Rabs (e - exp (- s))) <= 8 / 10 * (120 * q)) by (apply Rmult_le_compat; try lra; apply Rmult_le_pos; [lra|apply Rabs_pos]). lra. }
  assert (CW : 0 <= C2 * w * exp (- s) <= 16 / 10). { split; [apply Rmult_le_pos; [apply Rmult_le_pos; lra|lra]|]. rewrite Rmult_assoc. apply Rle_trans with (8 / 10 * 2); [apply Rmult_le_compat; try lra; apply Rmult_le_pos; lra|lra]. }
  assert (IU : 0 < / U) by (apply Rinv_0_lt_compat, HU). pose proof (Rabs_le_inv _ _ X) as X'. assert (PE : 0 <= B2R P1 * e) by (apply Rmult_le_pos; lra). pose proof (rnd_err (B2R P1 * e)) as R. fold e in B. rewrite <- B in R. rewrite (Rabs_pos_eq (B2R P1 * e)) in R by exact PE.
  assert (Y : Rabs (B2R (dmul P1 E) / U - a1 * e) <= q / 2 * (a1 * e) + tiny / U). { replace (B2R (dmul P1 E) / U - a1 * e) with ((B2R (dmul P1 E) - B2R P1 * e) * / U) by (unfold a1, Rdiv; ring). rewrite Rabs_mult, (Rabs_pos_eq (/ U)) by lra. replace (q / 2 * (a1 * e) + tiny / U) with ((q / 2 * (B2R P1 * e) + tiny) * / U) by (unfold a1, Rdiv; ring). apply Rmult_le_compat_r; lra. }
  assert (q / 2 * (a1 * e) <= q / 2 * 2) by (apply Rmult_le_compat_l; lra). assert (G0 : 0 <= B2R (dmul P1 E)) by (rewrite B; apply (rnd_ge_0 53 1024 H3_64 H70_64); exact PE). apply Rabs_le_inv in Y. split; [exact A|]. split; [split; [apply Rmult_le_pos; lra|lra]|]. split; [exact G0|]. apply Rabs_le. lra.
Qed.
(** a multiplication by the constant *)
Lemma const_mul (X : double) x U w : is_finite X = true -> 0 <= B2R X -> 0 < U -> tiny / U <= q / 32 -> 0 <= w -> x = w * U -> Rabs (B2R X - x) <= q / 2 * x + tiny -> is_finite (dmul dsqrt2overpi X) = true /\ 0 <= B2R (dmul dsqrt2overpi X) /\ Rabs (B2R (dmul dsqrt2overpi X) / U - C2 * w) <= 4 * q * w + q / 8.
Proof.
  intros F X0 HU TU W EX H. pose proof q_pos as Q. pose proof tiny_pos as TP. destruct C2_ok as (C & CC & CB). destruct (mul_shrink_l X dsqrt2overpi F (proj1 dsqrt2overpi_ok) ltac:(lra)) as (A & B). set (c := B2R dsqrt2overpi) in *. split; [exact A|]. assert (P : 0 <= B2R X * c) by (apply Rmult_le_pos; lra). split; [rewrite B; apply (rnd_ge_0 53 1024 H3_64 H70_64); exact P|].
  pose proof (rnd_err (B2R X * c)) as R. rewrite <- B in R. rewrite (Rabs_pos_eq _ P) in R. assert (x0 : 0 <= x) by (rewrite EX; apply Rmult_le_pos; lra). assert (QX : 0 <= q * x <= / 1000 * x) by (split; [apply Rmult_le_pos; lra|apply Rmult_le_compat_r; lra]). pose proof (Rabs_le_inv _ _ H) as H'.
  assert (D : Rabs (B2R X * c - C2 * x) <= 2 * (q * x) + tiny). { replace (B2R X * c - C2 * x) with ((B2R X - x) * c + x * (c - C2)) by ring. apply Rle_trans with (1 := Rabs_triang _ _). rewrite !Rabs_mult, (Rabs_pos_eq c), (Rabs_pos_eq x) by lra. assert (Rabs (B2R X - x) * c <= (q / 2 * x + tiny) * (8 / 10)) by (apply Rmult_le_compat; try lra; apply Rabs_pos). assert (x * Rabs (c - C2) <= x * (2 * q * (8 / 10))) by (apply Rmult_le_compat_l; [lra|]; apply Rle_trans with (1 := CC); apply Rmult_le_compat_l; lra). lra. }
  assert (XC : B2R X * c <= (2 * x + tiny) * 1) by (apply Rmult_le_compat; lra). assert (q / 2 * (B2R X * c) <= q / 2 * ((2 * x + tiny) * 1)) by (apply Rmult_le_compat_l; lra). assert (q / 2 * tiny <= / 2 * tiny) by (apply Rmult_le_compat_r; lra).
  assert (D2 : Rabs (B2R (dmul dsqrt2overpi X) - C2 * x) <= 4 * q * x + 3 * tiny). { replace (B2R (dmul dsqrt2overpi X) - C2 * x) with ((B2R (dmul dsqrt2overpi X) - B2R X * c) + (B2R X * c - C2 * x)) by ring. apply Rle_trans with (1 := Rabs_triang _ _). lra. }
  assert (IU : 0 < / U) by (apply Rinv_0_lt_compat, HU). replace (B2R (dmul dsqrt2overpi X) / U - C2 * w) with ((B2R (dmul dsqrt2overpi X) - C2 * x) * / U) by (rewrite EX; field; lra). rewrite Rabs_mult, (Rabs_pos_eq (/ U)) by lra. apply Rle_trans with ((4 * q * x + 3 * tiny) * / U); [apply Rmult_le_compat_r; lra|]. replace ((4 * q * x + 3 * tiny) * / U) with (4 * q * w + 3 * (tiny / U)) by (rewrite EX; field; lra). lra.
Qed.

Section Functions.
Variable N : libme.
Hypothesis HN : accurate_e N.
Let M := e_base N.
Let HM : accurate_x M := ae_base N HN.
Hypothesis HE : ends M.

Lemma exp_weight V s k : apxi V s k (q / 2) -> 0 <= s -> 0 <= k <= 6 * q -> is_finite (x_exp M V) = true /\ 0 <= B2R (x_exp M V) <= 1 /\ (1 + 2 * s) * Rabs (B2R (x_exp M V) - exp (- s)) <= 120 * q.
Proof.
  intros A S K. pose proof q_pos as Q. assert (Q6 : q <= / 1000000) by (unfold q; lra). assert (W0 : 0 <= 1 + 2 * s) by lra.
  assert (ZERO : 80 <= s -> (1 + 2 * s) * Rabs (0 - exp (- s)) <= 120 * q). { intros H. rewrite Rabs_left1 by (pose proof (exp_pos (- s)); lra). pose proof (weight_far s H). replace (- (0 - exp (- s))) with (exp (- s)) by ring. lra. }
  destruct A as [(F & NP & E)|(F & E)].
  - assert (KS : 0 <= k * s <= / 1000 * s) by (split; [apply Rmult_le_pos; lra|apply Rmult_le_compat_r; lra]). pose proof (Rabs_le_inv _ _ E) as E'. destruct (Rle_lt_dec s 300) as [C|C].
    + destruct (ax_exp M HM V F) as (X1 & X2); [rewrite Rabs_left1; lra|]. replace (/ 2 ^ 51) with (2 * q) in X2 by (unfold q; field). split; [exact X1|]. set (e := B2R (x_exp M V)) in *. pose proof (exp_pos (B2R V)) as PV. assert (QV : 0 <= q * exp (B2R V) <= / 2 * exp (B2R V)) by (split; [apply Rmult_le_pos; lra|apply Rmult_le_compat_r; lra]). pose proof (Rabs_le_inv _ _ X2) as X2'.
      assert (e <= 1) by (apply (ax_exp_1 M HM V F NP)). split; [lra|]. set (d := B2R V + s). assert (KB : k * s <= 6 * q * 300) by (apply Rmult_le_compat; lra). assert (DB : Rabs d <= k * s + q / 2) by (unfold d; replace (B2R V + s) with (- (- B2R V - s)) by ring; rewrite Rabs_Ropp; exact E). assert (D4 : Rabs d <= / 4) by lra.
      assert (EV : exp (B2R V) = exp (- s) * exp d) by (rewrite <- exp_plus; f_equal; unfold d; ring). pose proof (exp_pos (- s)) as PS.
      assert (ED : Rabs (exp d - 1) <= 2 * Rabs d). { apply Rabs_le_inv in D4. pose proof (exp_1m d). destruct (Rle_lt_dec 0 d) as [G|G]; [pose proof (exp_up d ltac:(lra) G); rewrite !Rabs_pos_eq by lra; lra|]. assert (exp d <= 1) by (rewrite <- exp_0; apply exp_le; lra). rewrite Rabs_left1 by lra. rewrite Rabs_left by lra. lra. }
      assert (D2 : Rabs (exp (B2R V) - exp (- s)) <= exp (- s) * (2 * (k * s + q / 2))). { rewrite EV. replace (exp (- s) * exp d - exp (- s)) with (exp (- s) * (exp d - 1)) by ring. rewrite Rabs_mult, (Rabs_pos_eq (exp (- s))) by lra. apply Rmult_le_compat_l; lra. }
      assert (V2 : exp (B2R V) <= 2 * exp (- s)). { rewrite EV, Rmult_comm. apply Rmult_le_compat_r; [lra|]. apply Rabs_le_inv in ED. lra. } assert (q * exp (B2R V) <= q * (2 * exp (- s))) by (apply Rmult_le_compat_l; lra).
      assert (D3 : Rabs (e - exp (- s)) <= exp (- s) * (2 * (k * s + q / 2) + 4 * q)). { replace (e - exp (- s)) with ((e - exp (B2R V)) + (exp (B2R V) - exp (- s))) by ring. apply Rle_trans with (1 := Rabs_triang _ _). lra. }
      apply Rle_trans with ((1 + 2 * s) * (exp (- s) * (2 * (k * s + q / 2) + 4 * q))); [apply Rmult_le_compat_l; lra|]. destruct (weight_1 s S) as (W1 & W2). replace ((1 + 2 * s) * (exp (- s) * (2 * (k * s + q / 2) + 4 * q))) with (2 * k * ((1 + 2 * s) * s * exp (- s)) + 5 * q * ((1 + 2 * s) * exp (- s))) by field.
      assert (2 * k * ((1 + 2 * s) * s * exp (- s)) <= 2 * (6 * q) * 9). { apply Rmult_le_compat; try lra. apply Rmult_le_pos; [apply Rmult_le_pos; lra|lra]. } assert (5 * q * ((1 + 2 * s) * exp (- s)) <= 5 * q * 2) by (apply Rmult_le_compat_l; lra). lra.
    + destruct (Rle_lt_dec s 770) as [D|D].
      * assert (SM : is_finite (x_exp M V) = true /\ 0 <= B2R (x_exp M V) <= 16 * (q * q)).
        { destruct (Rlt_le_dec (B2R V) (-400)) as [G|G].
          - destruct (ax_exp_small M HM V F G) as (X1 & X2). split; [exact X1|]. replace (/ 2 ^ 100) with (16 * (q * q)) in X2 by (unfold q; field). exact X2.
          - destruct (ax_exp M HM V F) as (X1 & X2); [rewrite Rabs_left1; lra|]. replace (/ 2 ^ 51) with (2 * q) in X2 by (unfold q; field). split; [exact X1|]. pose proof (exp_pos (B2R V)) as PV. assert (QV : 0 <= q * exp (B2R V) <= / 2 * exp (B2R V)) by (split; [apply Rmult_le_pos; lra|apply Rmult_le_compat_r; lra]). apply Rabs_le_inv in X2. pose proof (exp_tail2 (- B2R V) ltac:(lra)) as T. rewrite Ropp_involutive in T. assert (0 < q * q) by (apply Rmult_lt_0_compat; lra). lra. }
        destruct SM as (X1 & X2). assert (QQ : 0 < q * q) by (apply Rmult_lt_0_compat; lra). assert (Q3 : 1600 * (16 * (q * q)) <= q). { replace (1600 * (16 * (q * q))) with (q * (25600 * q)) by ring. rewrite <- (Rmult_1_r q) at 3. apply Rmult_le_compat_l; lra. } split; [exact X1|]. split; [lra|].
        pose proof (weight_far s ltac:(lra)) as WF. set (e := B2R (x_exp M V)) in *. assert ((1 + 2 * s) * e <= 1600 * (16 * (q * q))) by (apply Rmult_le_compat; lra). apply Rle_trans with ((1 + 2 * s) * (e + exp (- s))); [|lra]. apply Rmult_le_compat_l; [lra|]. pose proof (exp_pos (- s)). apply Rabs_le. lra.
      * destruct (proj1 HE V F ltac:(lra)) as (X1 & X2). split; [exact X1|]. rewrite X2. split; [lra|]. apply ZERO. lra.
  - rewrite F. destruct (ax_exp_minf M HM) as (X1 & X2). split; [exact X1|]. rewrite X2. split; [lra|]. apply ZERO, E.
Qed.

Lemma maxwell_cdf th x : scale th -> is_finite x = true -> 0 <= B2R x -> near (maxwell_fcdf N th x) (F_maxwell (B2R th) (B2R x)) (130 * q).
Proof.
  intros Ht F X0. pose proof q_pos as Q. pose proof tiny_small as TS. pose proof tiny_pos as TP. pose proof big_10 as BB. pose proof (scale_pos th Ht) as Pt. assert (It : 0 < / B2R th) by (apply Rinv_0_lt_compat, Pt). pose proof (tiny_over th Ht) as TO. rewrite (exact_maxwell _ _ Pt). set (r := B2R x / B2R th). assert (R0 : 0 <= r) by (apply Rmult_le_pos; lra). set (s := r * r / 2). assert (S0 : 0 <= s) by (unfold s; pose proof (Rle_0_sqr r) as K; unfold Rsqr in K; lra).
  unfold maxwell_fcdf.
  (* the error function *)
  assert (AX : apx 100 x (B2R x) 0 0) by (left; split; [exact F|unfold Rminus; rewrite Rplus_opp_r, Rabs_R0; lra]). pose proof (mul_isqrt2 _ _ _ _ AX ltac:(lra) ltac:(lra)) as AP. pose proof isqrt2 as I. destruct dinvsqrt2_ok as (FC & VC). destruct (mul_shrink x dinvsqrt2 F FC ltac:(lra)) as (P1 & _). set (P := dmul x dinvsqrt2) in *.
  destruct AP as [(_ & EP)|[(EP & _)|(EP & _)]]; [|rewrite EP in P1; discriminate P1|rewrite EP in P1; discriminate P1]. pose proof (div_sig P th _ _ _ P1 Ht EP ltac:(lra) ltac:(lra)) as AZ. apply (apx_le 100 8) in AZ; [|lra].
  assert (TAU : 0 <= 2 * ((0 + tiny) / B2R th) + tiny <= q / 8). { rewrite Rplus_0_l. assert (0 <= tiny / B2R th) by (apply Rmult_le_pos; lra). lra. } set (tau := 2 * ((0 + tiny) / B2R th) + tiny) in *. destruct (erf_at N HN _ _ _ _ AZ ltac:(lra) (proj1 TAU)) as (E1 & E2 & E3). replace (B2R x / sqrt 2 / B2R th) with (r / sqrt 2) in E3 by (unfold r; pose proof (sqrt_lt_R0 2 ltac:(lra)); field; lra). assert (QTAU : q * tau <= / 1000 * tau) by (apply Rmult_le_compat_r; lra).
  set (e1 := e_erf N _) in *.
  (* the other term *)
  destruct (nu2_ok th Ht) as (D1 & D2 & D3). set (d := dmul (dmul (dint 2) th) th) in *. pose proof (sq_apxi _ _ _ _ _ (neg_sq_sqn x F) ltac:(lra) ltac:(apply Rle_0_sqr) D1 D2 D3) as AV. replace (B2R x * B2R x / (2 * B2R th * B2R th)) with s in AV by (unfold s, r; field; lra). set (V := ddiv (dmul (dopp x) x) d) in *.
  destruct (exp_weight V s _ AV S0 ltac:(lra)) as (W1 & W2 & W3). fold M. set (E := x_exp M V) in *.
  destruct (const_mul x (B2R x) (B2R th) r F X0 Pt TO R0 ltac:(unfold r; field; lra)) as (G1 & G2 & G3); [unfold Rminus; rewrite Rplus_opp_r, Rabs_R0; assert (0 <= q / 2 * B2R x) by (apply Rmult_le_pos; lra); lra|]. set (G := dmul dsqrt2overpi x) in *.
  assert (RS : r <= 1 + 2 * s) by (unfold s; pose proof (Rle_0_sqr (r - 1)) as K; unfold Rsqr in K; lra). destruct (r_exp r R0) as (RE & _). fold s in RE.
  destruct (prod_chain G E (B2R th) r s G1 G2 W1 W2 Pt TO (conj R0 RS) G3 W3 ltac:(lra)) as (H1 & H2 & H3 & H4). set (H := dmul G E) in *.
  destruct (div_ok H th H1 ltac:(lra)) as (K1 & K2); [rewrite Rabs_pos_eq by lra; lra|]. pose proof (rnd_err (B2R H / B2R th)) as KE. rewrite <- K2 in KE. rewrite (Rabs_pos_eq (B2R H / B2R th)) in KE by lra. assert (q / 2 * (B2R H / B2R th) <= q / 2 * 2) by (apply Rmult_le_compat_l; lra). set (K := ddiv H th) in *.
  assert (KB : Rabs (B2R K - C2 * r * exp (- s)) <= 112 * q) by (apply Rabs_le_inv in KE, H4; apply Rabs_le; lra). assert (K3 : -1 <= B2R K <= 3) by (apply Rabs_le_inv in KE; lra).
  destruct (sub_ok e1 K E1 K1) as (L1 & L2); [apply Rabs_le; lra|]. split; [exact L1|]. rewrite L2. pose proof (rnd_err (B2R e1 - B2R K)) as LE. assert (B4 : Rabs (B2R e1 - B2R K) <= 4) by (apply Rabs_le; lra). assert (q / 2 * Rabs (B2R e1 - B2R K) <= q / 2 * 4) by (apply Rmult_le_compat_l; lra). apply Rabs_le_inv in LE, KB, E3. apply Rabs_le. lra.
Qed.

Lemma tiny_over2 th : scale th -> tiny / (B2R th * B2R th) <= q / 32.
Proof.
  intros Ht. pose proof (scale_pos th Ht) as Pt. pose proof (bpow_range (-300) (-300) (B2R th) (B2R th) 300 300 (proj2 Ht) (proj2 Ht)) as (R & _). assert (P : 0 < B2R th * B2R th) by (apply Rmult_lt_0_compat; lra). apply Rmult_le_reg_r with (B2R th * B2R th); [exact P|]. unfold Rdiv at 1. rewrite Rmult_assoc, Rinv_l, Rmult_1_r by lra. apply Rle_trans with (q / 32 * bpow radix2 (-300 + -300)); [|apply Rmult_le_compat_l; [pose proof q_pos; lra|exact R]]. replace (q / 32) with (bpow radix2 (-57)) by (unfold q; cbn; lra). unfold tiny. rewrite <- bpow_plus. apply bpow_le. lia.
Qed.
Lemma maxwell_pdf th x : scale th -> is_finite x = true -> Rabs (B2R x) <= bpow radix2 500 -> density (maxwell_fpdf N th x) (f_maxwell (B2R th) (B2R x)) (130 * q / B2R th).
Proof.
  intros Ht F XB. pose proof q_pos as Q. pose proof tiny_small as TS. pose proof tiny_pos as TP. pose proof big_10 as BB. pose proof (scale_pos th Ht) as Pt. assert (It : 0 < / B2R th) by (apply Rinv_0_lt_compat, Pt). pose proof (tiny_over2 th Ht) as TO. set (U := B2R th * B2R th) in *. assert (PU : 0 < U) by (apply Rmult_lt_0_compat; lra).
  set (r := B2R x / B2R th). set (w := r * r). assert (W0 : 0 <= w) by apply Rle_0_sqr. set (s := w / 2). assert (S0 : 0 <= s) by (unfold s; lra). assert (XW : B2R x * B2R x = w * U) by (unfold w, r, U; field; lra). assert (X0 : 0 <= B2R x * B2R x) by apply Rle_0_sqr.
  unfold maxwell_fpdf. cbv zeta. destruct (mul_ok x x F F) as (A1 & A2). { rewrite Rabs_mult. apply Rle_trans with (bpow radix2 500 * bpow radix2 500); [apply Rmult_le_compat; try apply Rabs_pos; exact XB|]. rewrite <- bpow_plus. apply Rle_trans with big; [apply bpow_le; lia|lra]. }
  set (x2 := dmul x x) in *. pose proof (rnd_err (B2R x * B2R x)) as XE. rewrite <- A2 in XE. rewrite (Rabs_pos_eq _ X0) in XE. assert (X2 : 0 <= B2R x2) by (rewrite A2; apply (rnd_ge_0 53 1024 H3_64 H70_64); exact X0).
  (* the scale squared, doubled and cubed *)
  pose proof (bpow_range (-300) (-300) (B2R th) (B2R th) 300 300 (proj2 Ht) (proj2 Ht)) as RU. fold U in RU. change (-300 + -300)%Z with (-600)%Z in RU. change (300 + 300)%Z with 600%Z in RU. destruct (mul_lc th th 0 0 (B2R th) (B2R th) (proj1 Ht) (proj1 Ht) (lc_refl _ Pt) (lc_refl _ Pt) ltac:(lra) (bpow_widen _ _ _ _ _ (ltac:(lia) : (-1010 <= -600)%Z) (ltac:(lia) : (600 <= 1000)%Z) RU)) as (T1 & T2). set (t2 := dmul th th) in *. fold U in T2. replace (0 + 0 + q) with q in T2 by ring.
  pose proof (lc_range _ _ _ _ _ T2 ltac:(lra) RU) as RT. destruct (int_ok_ 2 ltac:(lia)) as (F2 & V2). assert (PT : 0 < B2R t2) by apply T2. assert (B6 : bpow radix2 601 <= big) by (apply bpow_le; lia).
  destruct (mul_ok (dint 2) t2 F2 T1) as (D1 & D2); [rewrite V2, Rabs_pos_eq by lra; change (600 + 1)%Z with 601%Z in RT; lra|]. rewrite V2 in D2. rewrite (rnd_fmt 53 1024 H3_64 H70_64 _ (fmt_double _ (fmt_B2R 53 1024 H3_64 H70_64 t2))) in D2. set (d := dmul (dint 2) t2) in *.
  assert (LD : lc q (B2R d) (2 * U)) by (rewrite D2; replace q with (0 + q) by ring; apply lc_mul; [apply lc_refl; lra|exact T2]). assert (RD : bpow radix2 (-600) <= B2R d <= bpow radix2 602).
  { rewrite D2. change (-600)%Z with (1 + (-600 - 1))%Z. change 602%Z with (1 + (600 + 1))%Z. rewrite !bpow_plus with (e1 := 1%Z). change (bpow radix2 1) with 2. lra. }
  destruct (mul_lc t2 th q 0 U (B2R th) T1 (proj1 Ht) T2 (lc_refl _ Pt) ltac:(lra)) as (Y1 & Y2); [apply (bpow_widen (-600 + -300) (-1010) (600 + 300) 1000); [lia|lia|apply bpow_range; [exact RU|apply (proj2 Ht)]]|]. set (y := dmul t2 th) in *.
  (* the exponential *)
  assert (SN : sqn (dopp x2) (B2R x * B2R x) q). { left. destruct (opp_ok _ A1) as (O1 & O2). split; [exact O1|]. rewrite O2, Ropp_involutive. split; [lra|]. assert (0 <= q * (B2R x * B2R x)) by (apply Rmult_le_pos; lra). lra. }
  pose proof (sq_apxi _ _ _ _ _ SN ltac:(lra) X0 D1 LD RD) as AV. replace (B2R x * B2R x / (2 * U)) with s in AV by (rewrite XW; unfold s; field; lra). set (V := ddiv (dopp x2) d) in *. destruct (exp_weight V s _ AV S0 ltac:(lra)) as (W1 & W2 & W3). fold M. set (E := x_exp M V) in *.
  destruct (const_mul x2 (B2R x * B2R x) U w A1 X2 PU TO W0 XW XE) as (G1 & G2 & G3). set (G := dmul dsqrt2overpi x2) in *.
  destruct (weight_1 s S0) as (WE & _). pose proof (exp_pos (- s)) as PS. assert (WE' : w * exp (- s) <= 2) by (replace ((1 + 2 * s) * exp (- s)) with (w * exp (- s) + exp (- s)) in WE by (unfold s; field); lra).
  destruct (prod_chain G E U w s G1 G2 W1 W2 PU TO ltac:(unfold s; lra) G3 W3 WE') as (H1 & H2 & H3 & H4). set (H := dmul G E) in *. set (a := B2R H / U) in *.
  (* the quotient *)
  pose proof (lc_inv _ _ _ Y2) as YI. pose proof (lc_abs _ _ _ YI ltac:(lra)) as YA. pose proof Y2 as (PY & PUT & _). set (g := B2R H / B2R y). set (h := a / B2R th).
  assert (HH : h = B2R H * / (U * B2R th)) by (unfold h, a; field; lra). assert (H0 : 0 <= h) by (apply Rmult_le_pos; lra). assert (GH : Rabs (g - h) <= 4 * q * h + 0). { rewrite HH. unfold g, Rdiv. replace (B2R H * / B2R y - B2R H * / (U * B2R th)) with (B2R H * (/ B2R y - / (U * B2R th))) by ring. rewrite Rabs_mult, (Rabs_pos_eq (B2R H)) by exact H3. apply Rle_trans with (B2R H * (2 * (q + 0 + q) * / (U * B2R th))); [apply Rmult_le_compat_l; assumption|]. right. ring. }
  assert (HB : h <= 2 * / B2R th) by (apply Rmult_le_compat_r; lra). assert (QH : 0 <= q * h <= q * (2 * / B2R th)) by (split; [apply Rmult_le_pos; lra|apply Rmult_le_compat_l; lra]). assert (QH2 : q * h <= / 1000 * h) by (apply Rmult_le_compat_r; lra). apply Rabs_le_inv in GH. assert (g0 : 0 <= g) by (apply Rmult_le_pos; [lra|left; apply Rinv_0_lt_compat, PY]).
  assert (BI : / B2R th <= bpow radix2 300) by (change 300%Z with (- (-300))%Z; rewrite bpow_opp; apply Rinv_le; [apply bpow_gt_0|apply (proj2 Ht)]). assert (BG : bpow radix2 300 <= big) by (apply bpow_le; lia).
  destruct (div_ok H y H1 ltac:(lra)) as (Z1 & Z2); [fold g; rewrite Rabs_pos_eq by exact g0; lra|]. fold g in Z2. split; [exact Z1|]. rewrite Z2. split; [apply (rnd_ge_0 53 1024 H3_64 H70_64); exact g0|]. pose proof (rnd_err g) as GE. rewrite (Rabs_pos_eq _ g0) in GE.
  assert (q / 2 * g <= q / 2 * (2 * h)) by (apply Rmult_le_compat_l; lra). pose proof (tiny_scale' th Ht) as TT.
  replace (f_maxwell (B2R th) (B2R x)) with (C2 * w * exp (- s) * / B2R th) by (unfold f_maxwell; fold r; replace (r ^ 2) with w by (unfold w; ring); reflexivity).
  assert (AH : Rabs (h - C2 * w * exp (- s) * / B2R th) <= 110 * q * / B2R th). { unfold h, Rdiv. rewrite <- Rmult_minus_distr_r, Rabs_mult, (Rabs_pos_eq (/ B2R th)) by lra. apply Rmult_le_compat_r; lra. }
  apply Rabs_le_inv in GE, AH. unfold Rdiv. apply Rabs_le. lra.
Qed.

(** for arguments with an infinite square, infinity is multiplied by zero *)
Lemma maxwell_nan th x : scale th -> is_finite x = true -> bpow radix2 512 <= Rabs (B2R x) -> maxwell_fpdf N th x = dnan.
Proof.
  intros Ht F XB. pose proof q_pos as Q. pose proof (scale_pos th Ht) as Pt. set (U := B2R th * B2R th) in *. assert (X : bpow radix2 1024 <= B2R x * B2R x). { replace (B2R x * B2R x) with (Rabs (B2R x) * Rabs (B2R x)) by (rewrite <- Rabs_mult; apply Rabs_pos_eq, Rle_0_sqr). replace (bpow radix2 1024) with (bpow radix2 512 * bpow radix2 512) by (rewrite <- bpow_plus; reflexivity). pose proof (bpow_gt_0 radix2 512). apply Rmult_le_compat; lra. } pose proof (bpow_gt_0 radix2 1024) as B.
  unfold maxwell_fpdf. cbv zeta. assert (O : dmul x x = B754_infinity false).
  { destruct (mul_any x x F F) as [(D1 & D2)|(D1 & D2)].
    - exfalso. pose proof (abs_B2R_lt_emax 53 1024 (dmul x x)) as R. assert (G : bpow radix2 1024 <= B2R (dmul x x)).
      { rewrite D2. rewrite <- (round_generic radix2 (SpecFloat.fexp 53 1024) ZnearestE (bpow radix2 1024)); [apply round_le; try typeclasses eauto; exact X|]. apply generic_format_bpow'; [typeclasses eauto|]. vm_compute. discriminate. }
      rewrite Rabs_pos_eq in R by lra. lra.
    - rewrite D2. destruct (Rlt_dec _ 0) as [K|K]; [lra|reflexivity]. }
  rewrite O. destruct C2_ok as (_ & _ & C). rewrite (mul_pinf dsqrt2overpi (proj1 dsqrt2overpi_ok) ltac:(lra)). change (dopp (B754_infinity false)) with (B754_infinity true : double).
  pose proof (bpow_range (-300) (-300) (B2R th) (B2R th) 300 300 (proj2 Ht) (proj2 Ht)) as RU. destruct (mul_lc th th 0 0 (B2R th) (B2R th) (proj1 Ht) (proj1 Ht) (lc_refl _ Pt) (lc_refl _ Pt) ltac:(lra) (bpow_widen _ _ _ _ _ (ltac:(lia) : (-1010 <= -300 + -300)%Z) (ltac:(lia) : (300 + 300 <= 1000)%Z) RU)) as (T1 & T2).
  destruct (int_ok_ 2 ltac:(lia)) as (F2 & V2). assert (L2 : lc 0 (B2R (dint 2)) 2) by (rewrite V2; apply lc_refl; lra). destruct (mul_lc (dint 2) (dmul th th) 0 (0 + 0 + q) 2 (B2R th * B2R th) F2 T1 L2 T2 ltac:(lra)) as (D1 & D2). { apply (bpow_widen (1 + (-300 + -300)) (-1010) (1 + (300 + 300)) 1000); [lia|lia|]. apply bpow_range; [change (bpow radix2 1) with 2; lra|exact RU]. }
  rewrite (inf_div true _ D1 (proj1 D2)). destruct (ax_exp_minf M HM) as (E1 & E2). fold M. rewrite (inf_times_0 _ E1 E2). reflexivity.
Qed.
End Functions.
