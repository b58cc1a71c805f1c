(** inv_Phi and the draws of the normal distribution in double. *)
From Coq Require Import ZArith Bool Reals Lia Lra Psatz.
From Coquelicot Require Import Coquelicot.
From Flocq Require Import Core IEEE754.BinarySingleNaN.
From Verif Require Import InvPhiModel InvPhiCentral InvPhiTail InvPhiProofs FloatInvReal FloatFacts UniformModel UniformProofs FloatDrawModel FloatDrawSpec FloatDrawProofs FloatDrawCore FloatDrawLoc FloatDrawTrig FloatDrawLaw DiscDrawTree FloatCdfModel FloatCdfSpec FloatCdfProofs FloatCdfCore FloatCdfLoc FloatPdfSpec FloatPdfProofs FloatNormModel FloatNormSpec NormModel NormProofs FloatNormProofs FloatNormTail FloatInvModel.
Local Open Scope R_scope.
Notation rnd := (round radix2 (SpecFloat.fexp 53 1024) ZnearestE).

(** ** One step of Horner's scheme *)
Lemma big_ok v : Rabs v <= 1000000 -> Rabs v <= 4 * big.
Proof. intros H. assert (bpow radix2 20 <= big) by (apply bpow_le; lia). change (bpow radix2 20) with 1048576 in *. lra. Qed.
Lemma hstep P X C p x c e dx k B T B' e' : near P p e -> Rabs p <= B -> near X x dx -> Rabs x <= T -> near C c k -> B * T + Rabs c <= B' -> e <= / 1000 -> dx <= / 1000 -> k <= / 1000 -> B <= 1000 -> T <= 10 -> B' <= 10000 ->
  e * (T + dx) + B * dx + k + q * ((B + 1) * (T + 1) * 2 + B' + 2) <= e' -> near (axpb P X C) (p * x + c) e' /\ Rabs (p * x + c) <= B'.
Proof.
  intros (FP & EP) HB (FX & EX) HT (FC & EC) HB' He Hdx Hk B1 T1 KB H. pose proof q_pos as Q. pose proof tiny_small as TS. pose proof tiny_pos as TP. pose proof (Rabs_pos p) as p0. pose proof (Rabs_pos x) as x0. pose proof (Rabs_pos c) as c0. pose proof (Rabs_pos (B2R P - p)) as e0. pose proof (Rabs_pos (B2R X - x)) as dx0. pose proof (Rabs_pos (B2R C - c)) as k0.
  assert (AP : Rabs (B2R P) <= B + 1). { replace (B2R P) with ((B2R P - p) + p) by ring. apply Rle_trans with (1 := Rabs_triang _ _). lra. }
  assert (AX : Rabs (B2R X) <= T + dx). { replace (B2R X) with ((B2R X - x) + x) by ring. apply Rle_trans with (1 := Rabs_triang _ _). lra. }
  assert (AC : Rabs (B2R C) <= Rabs c + 1). { replace (B2R C) with ((B2R C - c) + c) by ring. apply Rle_trans with (1 := Rabs_triang _ _). lra. }
  assert (BT : 0 <= B * T) by (apply Rmult_le_pos; lra). assert (BT1 : B * T <= 1000 * 10) by (apply Rmult_le_compat; lra). set (S := (B + 1) * (T + 1)) in *. assert (S1 : 0 <= S <= 1001 * 11) by (split; [apply Rmult_le_pos|apply Rmult_le_compat]; lra).
  assert (VA : Rabs (B2R P * B2R X) <= S). { rewrite Rabs_mult. apply Rmult_le_compat; try apply Rabs_pos; lra. }
  assert (PX : Rabs (p * x) <= B * T) by (rewrite Rabs_mult; apply Rmult_le_compat; lra).
  assert (R2 : Rabs (p * x + c) <= B'). { apply Rle_trans with (1 := Rabs_triang _ _). lra. } split; [|exact R2].
  assert (VE : Rabs (B2R P * B2R X - p * x) <= e * (T + dx) + B * dx). { replace (B2R P * B2R X - p * x) with ((B2R P - p) * B2R X + p * (B2R X - x)) by ring. apply Rle_trans with (1 := Rabs_triang _ _). rewrite !Rabs_mult. apply Rplus_le_compat; apply Rmult_le_compat; try apply Rabs_pos; lra. }
  destruct (mul_ok P X FP FX (big_ok (B2R P * B2R X) ltac:(lra))) as (M1 & M2). pose proof (rnd_err (B2R P * B2R X)) as E1. rewrite <- M2 in E1. assert (E1' : q / 2 * Rabs (B2R P * B2R X) <= q / 2 * S) by (apply Rmult_le_compat_l; lra). assert (QS : q / 2 * S <= / 1000000 * (1001 * 11)) by (apply Rmult_le_compat; lra).
  assert (Kc : Rabs c <= B') by lra.
  assert (MA : Rabs (B2R (dmul P X)) <= S + 1). { replace (B2R (dmul P X)) with ((B2R (dmul P X) - B2R P * B2R X) + B2R P * B2R X) by ring. apply Rle_trans with (1 := Rabs_triang _ _). lra. }
  assert (SA : Rabs (B2R (dmul P X) + B2R C) <= S + B' + 2). { apply Rle_trans with (1 := Rabs_triang _ _). lra. }
  destruct (add_ok (dmul P X) C M1 FC (big_ok (B2R (dmul P X) + B2R C) ltac:(lra))) as (A1 & A2). pose proof (rnd_err (B2R (dmul P X) + B2R C)) as E2. rewrite <- A2 in E2. assert (E2' : q / 2 * Rabs (B2R (dmul P X) + B2R C) <= q / 2 * (S + B' + 2)) by (apply Rmult_le_compat_l; lra).
  split; [exact A1|]. unfold axpb. replace (B2R (dadd (dmul P X) C) - (p * x + c)) with ((B2R (dadd (dmul P X) C) - (B2R (dmul P X) + B2R C)) + ((B2R (dmul P X) - B2R P * B2R X) + ((B2R P * B2R X - p * x) + (B2R C - c)))) by ring.
  apply Rle_trans with (1 := Rabs_triang _ _). eapply Rle_trans; [apply Rplus_le_compat_l, Rabs_triang|]. pose proof (Rabs_triang (B2R P * B2R X - p * x) (B2R C - c)).
  assert (QB : q * (S * 2 + B' + 2) = q / 2 * S + q / 2 * (S + B' + 2) + (q * S + q / 2 * B' + q)) by field. assert (0 <= q * S) by (apply Rmult_le_pos; lra). assert (0 <= q / 2 * B') by (apply Rmult_le_pos; lra). lra.
Qed.

Ltac literal s m e := match goal with |- near ?x _ _ => destruct (sf_val x s m e ltac:(vm_compute; reflexivity)) as (F & V); split; [exact F|]; rewrite V; unfold F2R, ca, cb, cc, cd, coeff15, coeff18; cbn [List.nth inv_a inv_b inv_c inv_d cond_Zopp Fnum Fexp]; cbn; apply Rabs_le; lra end.
Lemma fa0_ok : near fa0 (ca 0) (3 / 100000000000000). Proof. literal true 5586832190211365%positive (-47)%Z. Qed.
Lemma fa1_ok : near fa1 (ca 1) (3 / 100000000000000). Proof. literal false 7773849738544027%positive (-45)%Z. Qed.
Lemma fa2_ok : near fa2 (ca 2) (3 / 100000000000000). Proof. literal true 4854185690741657%positive (-44)%Z. Qed.
Lemma fa3_ok : near fa3 (ca 3) (3 / 100000000000000). Proof. literal false 4868030623072283%positive (-45)%Z. Qed.
Lemma fa4_ok : near fa4 (ca 4) (3 / 100000000000000). Proof. literal true 8631373321505741%positive (-48)%Z. Qed.
Lemma fa5_ok : near fa5 (ca 5) (3 / 100000000000000). Proof. literal false 5644425088160889%positive (-51)%Z. Qed.
Lemma fb0_ok : near fb0 (cb 0) (3 / 100000000000000). Proof. literal true 7666829320258756%positive (-47)%Z. Qed.
Lemma fb1_ok : near fb1 (cb 1) (3 / 100000000000000). Proof. literal false 5685296208298615%positive (-45)%Z. Qed.
Lemma fb2_ok : near fb2 (cb 2) (3 / 100000000000000). Proof. literal true 5478170841241810%positive (-45)%Z. Qed.
Lemma fb3_ok : near fb3 (cb 3) (3 / 100000000000000). Proof. literal false 4700724426959294%positive (-46)%Z. Qed.
Lemma fb4_ok : near fb4 (cb 4) (3 / 100000000000000). Proof. literal true 7476359061600294%positive (-49)%Z. Qed.
Lemma fc0_ok : near fc0 (cc 0) (1 / 1000000000000000). Proof. literal true 8975371706486752%positive (-60)%Z. Qed.
Lemma fc1_ok : near fc1 (cc 1) (1 / 1000000000000000). Proof. literal true 5807778273198520%positive (-54)%Z. Qed.
Lemma fc2_ok : near fc2 (cc 2) (1 / 1000000000000000). Proof. literal true 5406027041216344%positive (-51)%Z. Qed.
Lemma fc3_ok : near fc3 (cc 3) (1 / 1000000000000000). Proof. literal true 5741487257041434%positive (-51)%Z. Qed.
Lemma fc4_ok : near fc4 (cc 4) (1 / 1000000000000000). Proof. literal false 4925433949343175%positive (-50)%Z. Qed.
Lemma fc5_ok : near fc5 (cc 5) (1 / 1000000000000000). Proof. literal false 6616157108817826%positive (-51)%Z. Qed.
Lemma fd0_ok : near fd0 (cd 0) (1 / 1000000000000000). Proof. literal false 8975143089774548%positive (-60)%Z. Qed.
Lemma fd1_ok : near fd1 (cd 1) (1 / 1000000000000000). Proof. literal false 5809051369276260%positive (-54)%Z. Qed.
Lemma fd2_ok : near fd2 (cd 2) (1 / 1000000000000000). Proof. literal false 5505952594454038%positive (-51)%Z. Qed.
Lemma fd3_ok : near fd3 (cd 3) (1 / 1000000000000000). Proof. literal false 8454176725381401%positive (-51)%Z. Qed.
Lemma one_near : near (dint 1) 1 0.
Proof. destruct (int_ok_ 1 ltac:(lia)) as (A & B). split; [exact A|]. rewrite B. unfold Rminus. rewrite Rplus_opp_r, Rabs_R0. lra. Qed.
Lemma fx_low_ok : is_finite fx_low = true /\ 242499999 / 10000000000 <= B2R fx_low <= / 40.
Proof. destruct (sf_val fx_low false 6989586621679010 (-58) ltac:(vm_compute; reflexivity)) as (F & V). split; [exact F|]. rewrite V. unfold F2R. cbn. lra. Qed.
Lemma fx_high_ok : is_finite fx_high = true /\ 975 / 1000 <= B2R fx_high <= 9757500001 / 10000000000.
Proof. destruct (sf_val fx_high false 8788774672813523 (-53) ltac:(vm_compute; reflexivity)) as (F & V). split; [exact F|]. rewrite V. unfold F2R. cbn. lra. Qed.
Lemma dsqrt2pi_ok : is_finite dsqrt2pi = true /\ 25066282 / 10000000 <= B2R dsqrt2pi <= 25066283 / 10000000 /\ Rabs (B2R dsqrt2pi - s2pi) <= / 10000000000.
Proof.
  destruct (sf_val dsqrt2pi false 5644425081792262 (-51) ltac:(vm_compute; reflexivity)) as (F & V). split; [exact F|]. assert (R : 25066282 / 10000000 <= B2R dsqrt2pi <= 25066283 / 10000000) by (rewrite V; unfold F2R; cbn; lra). split; [exact R|].
  assert (S : Rabs (B2R dsqrt2pi * B2R dsqrt2pi - 2 * PI) <= 5 / 10000000000) by (pose proof InvPhiPoly.PI_fine; rewrite V; unfold F2R; cbn; apply Rabs_le; lra). rewrite <- s2pi_sq in S. set (c := B2R dsqrt2pi) in *. pose proof s2pi_bounds as B. replace (c * c - s2pi * s2pi) with ((c + s2pi) * (c - s2pi)) in S by ring. rewrite Rabs_mult, (Rabs_pos_eq (c + s2pi)) in S by lra.
  pose proof (Rabs_pos (c - s2pi)). assert (5 * Rabs (c - s2pi) <= (c + s2pi) * Rabs (c - s2pi)) by (apply Rmult_le_compat_r; lra). lra.
Qed.

(** ** The rational functions *)
Ltac coef := unfold ca, cb, cc, cd, coeff15, coeff18; cbn [List.nth inv_a inv_b inv_c inv_d]; apply Rabs_le; lra.
Lemma bound_c c b BT B' : Rabs c <= b -> BT + b <= B' -> BT + Rabs c <= B'. Proof. lra. Qed.
Lemma tail_poly T : is_finite T = true -> 43 / 16 <= B2R T <= 9 -> near (tail_fnum T) (tail_num (B2R T)) (2 / 10000000000) /\ near (tail_fden T) (tail_den (B2R T)) (2 / 100000000000).
Proof.
  intros FT RT. pose proof q_pos as Q. assert (NT : near T (B2R T) 0) by (split; [exact FT|unfold Rminus; rewrite Rplus_opp_r, Rabs_R0; lra]). assert (AT : Rabs (B2R T) <= 9) by (rewrite Rabs_pos_eq; lra). set (t := B2R T) in *. unfold q in Q. split.
  - assert (B0 : Rabs (cc 0) <= 79 / 10000) by coef.
    destruct (hstep fc0 T fc1 _ t _ _ _ _ _ 9 (3936 / 10000) (2 / 100000000000000) fc0_ok B0 NT AT fc1_ok ltac:(apply bound_c with (3225 / 10000); [coef|lra]) ltac:(lra) ltac:(lra) ltac:(lra) ltac:(lra) ltac:(lra) ltac:(lra) ltac:(unfold q; lra)) as (N1 & B1).
    destruct (hstep _ T fc2 _ t _ _ _ _ _ 9 (595 / 100) (2 / 10000000000000) N1 B1 NT AT fc2_ok ltac:(apply bound_c with (2401 / 1000); [coef|lra]) ltac:(lra) ltac:(lra) ltac:(lra) ltac:(lra) ltac:(lra) ltac:(lra) ltac:(unfold q; lra)) as (N2 & B2).
    destruct (hstep _ T fc3 _ t _ _ _ _ _ 9 (562 / 10) (2 / 1000000000000) N2 B2 NT AT fc3_ok ltac:(apply bound_c with (255 / 100); [coef|lra]) ltac:(lra) ltac:(lra) ltac:(lra) ltac:(lra) ltac:(lra) ltac:(lra) ltac:(unfold q; lra)) as (N3 & B3).
    destruct (hstep _ T fc4 _ t _ _ _ _ _ 9 511 (2 / 100000000000) N3 B3 NT AT fc4_ok ltac:(apply bound_c with (438 / 100); [coef|lra]) ltac:(lra) ltac:(lra) ltac:(lra) ltac:(lra) ltac:(lra) ltac:(lra) ltac:(unfold q; lra)) as (N4 & B4).
    exact (proj1 (hstep _ T fc5 _ t _ _ _ _ _ 9 4700 (2 / 10000000000) N4 B4 NT AT fc5_ok ltac:(apply bound_c with (294 / 100); [coef|lra]) ltac:(lra) ltac:(lra) ltac:(lra) ltac:(lra) ltac:(lra) ltac:(lra) ltac:(unfold q; lra))).
  - assert (B0 : Rabs (cd 0) <= 79 / 10000) by coef.
    destruct (hstep fd0 T fd1 _ t _ _ _ _ _ 9 (3936 / 10000) (2 / 100000000000000) fd0_ok B0 NT AT fd1_ok ltac:(apply bound_c with (3225 / 10000); [coef|lra]) ltac:(lra) ltac:(lra) ltac:(lra) ltac:(lra) ltac:(lra) ltac:(lra) ltac:(unfold q; lra)) as (N1 & B1).
    destruct (hstep _ T fd2 _ t _ _ _ _ _ 9 6 (2 / 10000000000000) N1 B1 NT AT fd2_ok ltac:(apply bound_c with (2446 / 1000); [coef|lra]) ltac:(lra) ltac:(lra) ltac:(lra) ltac:(lra) ltac:(lra) ltac:(lra) ltac:(unfold q; lra)) as (N2 & B2).
    destruct (hstep _ T fd3 _ t _ _ _ _ _ 9 58 (2 / 1000000000000) N2 B2 NT AT fd3_ok ltac:(apply bound_c with (376 / 100); [coef|lra]) ltac:(lra) ltac:(lra) ltac:(lra) ltac:(lra) ltac:(lra) ltac:(lra) ltac:(unfold q; lra)) as (N3 & B3).
    exact (proj1 (hstep _ T (dint 1) _ t _ _ _ _ _ 9 524 (2 / 100000000000) N3 B3 NT AT one_near ltac:(apply bound_c with 1; [rewrite Rabs_R1; lra|lra]) ltac:(lra) ltac:(lra) ltac:(lra) ltac:(lra) ltac:(lra) ltac:(lra) ltac:(unfold q; lra))).
Qed.
Lemma central_poly R r : near R r q -> Rabs r <= 2264 / 10000 -> near (central_fnum R) (central_num r) (2 / 10000000000000) /\ Rabs (central_num r) <= 21 /\ near (central_fden R) (central_den r) (2 / 10000000000000).
Proof.
  intros NT AT. pose proof q_pos as Q. unfold q in Q. assert (X : near (central_fnum R) (central_num r) (2 / 10000000000000) /\ Rabs (central_num r) <= 21).
  - assert (B0 : Rabs (ca 0) <= 397 / 10) by coef.
    destruct (hstep fa0 R fa1 _ r _ _ _ _ _ (2264 / 10000) 230 (2 / 10000000000000) fa0_ok B0 NT AT fa1_ok ltac:(apply bound_c with (22095 / 100); [coef|lra]) ltac:(lra) ltac:(unfold q; lra) ltac:(lra) ltac:(lra) ltac:(lra) ltac:(lra) ltac:(unfold q; lra)) as (N1 & B1).
    destruct (hstep _ R fa2 _ r _ _ _ _ _ (2264 / 10000) (3281 / 10) (4 / 10000000000000) N1 B1 NT AT fa2_ok ltac:(apply bound_c with (27593 / 100); [coef|lra]) ltac:(lra) ltac:(unfold q; lra) ltac:(lra) ltac:(lra) ltac:(lra) ltac:(lra) ltac:(unfold q; lra)) as (N2 & B2).
    destruct (hstep _ R fa3 _ r _ _ _ _ _ (2264 / 10000) 213 (5 / 10000000000000) N2 B2 NT AT fa3_ok ltac:(apply bound_c with (1384 / 10); [coef|lra]) ltac:(lra) ltac:(unfold q; lra) ltac:(lra) ltac:(lra) ltac:(lra) ltac:(lra) ltac:(unfold q; lra)) as (N3 & B3).
    destruct (hstep _ R fa4 _ r _ _ _ _ _ (2264 / 10000) 79 (4 / 10000000000000) N3 B3 NT AT fa4_ok ltac:(apply bound_c with (307 / 10); [coef|lra]) ltac:(lra) ltac:(unfold q; lra) ltac:(lra) ltac:(lra) ltac:(lra) ltac:(lra) ltac:(unfold q; lra)) as (N4 & B4).
    exact (hstep _ R fa5 _ r _ _ _ _ _ (2264 / 10000) 21 (2 / 10000000000000) N4 B4 NT AT fa5_ok ltac:(apply bound_c with (2507 / 1000); [coef|lra]) ltac:(lra) ltac:(unfold q; lra) ltac:(lra) ltac:(lra) ltac:(lra) ltac:(lra) ltac:(unfold q; lra)).
  - split; [apply X|]. split; [apply X|]. clear X. assert (B0 : Rabs (cb 0) <= 545 / 10) by coef.
    destruct (hstep fb0 R fb1 _ r _ _ _ _ _ (2264 / 10000) 174 (2 / 10000000000000) fb0_ok B0 NT AT fb1_ok ltac:(apply bound_c with (1616 / 10); [coef|lra]) ltac:(lra) ltac:(unfold q; lra) ltac:(lra) ltac:(lra) ltac:(lra) ltac:(lra) ltac:(unfold q; lra)) as (N1 & B1).
    destruct (hstep _ R fb2 _ r _ _ _ _ _ (2264 / 10000) (1952 / 10) (3 / 10000000000000) N1 B1 NT AT fb2_ok ltac:(apply bound_c with (1557 / 10); [coef|lra]) ltac:(lra) ltac:(unfold q; lra) ltac:(lra) ltac:(lra) ltac:(lra) ltac:(lra) ltac:(unfold q; lra)) as (N2 & B2).
    destruct (hstep _ R fb3 _ r _ _ _ _ _ (2264 / 10000) (1111 / 10) (3 / 10000000000000) N2 B2 NT AT fb3_ok ltac:(apply bound_c with (6681 / 100); [coef|lra]) ltac:(lra) ltac:(unfold q; lra) ltac:(lra) ltac:(lra) ltac:(lra) ltac:(lra) ltac:(unfold q; lra)) as (N3 & B3).
    destruct (hstep _ R fb4 _ r _ _ _ _ _ (2264 / 10000) (385 / 10) (3 / 10000000000000) N3 B3 NT AT fb4_ok ltac:(apply bound_c with (133 / 10); [coef|lra]) ltac:(lra) ltac:(unfold q; lra) ltac:(lra) ltac:(lra) ltac:(lra) ltac:(lra) ltac:(unfold q; lra)) as (N4 & B4).
    exact (proj1 (hstep _ R (dint 1) _ r _ _ _ _ _ (2264 / 10000) 10 (2 / 10000000000000) N4 B4 NT AT one_near ltac:(apply bound_c with 1; [rewrite Rabs_R1; lra|lra]) ltac:(lra) ltac:(unfold q; lra) ltac:(lra) ltac:(lra) ltac:(lra) ltac:(lra) ltac:(unfold q; lra))).
Qed.

(** ** Quotients *)
Lemma near_div Nn Dd n d en ed m G : near Nn n en -> near Dd d ed -> 0 < m <= d -> ed <= m / 100 -> Rabs (n / d) <= G -> 1 <= G <= 100 -> (en + G * ed) * (102 / 100) / m <= / 1000 -> near (ddiv Nn Dd) (n / d) ((en + G * ed) * (102 / 100) / m + 2 * G * q).
Proof.
  intros (FN & EN) (FD & ED) Hm He HG G1 Hs. pose proof q_pos as Q. pose proof tiny_small as TS. pose proof tiny_pos as TP. pose proof (Rabs_le_inv _ _ ED) as ED'. assert (DD : 99 / 100 * m <= B2R Dd) by lra. assert (D0 : 0 < B2R Dd) by lra.
  pose proof (Rabs_pos (B2R Nn - n)) as n0. pose proof (Rabs_pos (B2R Dd - d)) as d0. pose proof (Rabs_pos (n / d)) as g0. set (s := (en + G * ed) * (102 / 100) / m) in *.
  assert (E : Rabs (B2R Nn / B2R Dd - n / d) <= s).
  { replace (B2R Nn / B2R Dd - n / d) with (((B2R Nn - n) - n / d * (B2R Dd - d)) * / B2R Dd) by (field; lra). rewrite Rabs_mult, (Rabs_pos_eq (/ B2R Dd)) by (left; apply Rinv_0_lt_compat, D0). unfold s. replace ((en + G * ed) * (102 / 100) / m) with ((en + G * ed) * (102 / 100 / m)) by (field; lra).
    apply Rmult_le_compat; [apply Rabs_pos|left; apply Rinv_0_lt_compat, D0| |].
    - unfold Rminus at 1. apply Rle_trans with (1 := Rabs_triang _ _). rewrite Rabs_Ropp, Rabs_mult. apply Rplus_le_compat; [exact EN|]. apply Rmult_le_compat; lra.
    - apply Rle_trans with (/ (99 / 100 * m)); [apply Rinv_le_contravar; lra|]. replace (/ (99 / 100 * m)) with (100 / 99 * / m) by (field; lra). unfold Rdiv at 3. apply Rmult_le_compat_r; [left; apply Rinv_0_lt_compat; lra|lra]. }
  assert (A : Rabs (B2R Nn / B2R Dd) <= G + / 1000). { replace (B2R Nn / B2R Dd) with ((B2R Nn / B2R Dd - n / d) + n / d) by ring. apply Rle_trans with (1 := Rabs_triang _ _). lra. }
  destruct (div_ok Nn Dd FN ltac:(lra) (big_ok (B2R Nn / B2R Dd) ltac:(lra))) as (V1 & V2). split; [exact V1|]. pose proof (rnd_err (B2R Nn / B2R Dd)) as R. rewrite <- V2 in R. assert (q / 2 * Rabs (B2R Nn / B2R Dd) <= q / 2 * (G + / 1000)) by (apply Rmult_le_compat_l; lra). assert (q * 1 <= q * G) by (apply Rmult_le_compat_l; lra).
  replace (B2R (ddiv Nn Dd) - n / d) with ((B2R (ddiv Nn Dd) - B2R Nn / B2R Dd) + (B2R Nn / B2R Dd - n / d)) by ring. apply Rle_trans with (1 := Rabs_triang _ _). lra.
Qed.
Lemma tail_quot t : 43 / 16 <= t -> 30 <= tail_den t /\ tail_num t / tail_den t = gt t.
Proof.
  intros Ht. split.
  - unfold tail_den. set (s := cd 0 * t + cd 1). assert (S1 : 3 / 10 <= s) by (unfold s, cd, coeff18; cbn [List.nth inv_d]; lra). assert (S2 : 3 / 10 * (43 / 16) <= s * t) by (apply Rmult_le_compat; lra). set (s2 := s * t + cd 2). assert (S3 : 32 / 10 <= s2) by (unfold s2, cd, coeff18; cbn [List.nth inv_d]; lra). assert (S4 : 32 / 10 * (43 / 16) <= s2 * t) by (apply Rmult_le_compat; lra).
    set (s3 := s2 * t + cd 3). assert (S5 : 12 <= s3) by (unfold s3, cd, coeff18; cbn [List.nth inv_d]; lra). assert (S6 : 12 * (43 / 16) <= s3 * t) by (apply Rmult_le_compat; lra). lra.
  - pose proof (proj1 (tail_value t ltac:(lra))) as V. unfold quotient in V. destruct (Req_EM_T (tail_den t) 0) as [Z|Z]; [discriminate V|]. injection V as V. exact V.
Qed.
Lemma tail_gen nf df t : 43 / 16 <= t <= 9 -> near nf (tail_num t) (2 / 10000000000) -> near df (tail_den t) (2 / 100000000000) -> near (ddiv nf df) (gt t) (/ 10000000000) /\ near (ddiv (dopp nf) df) (- gt t) (/ 10000000000).
Proof.
  intros RT NN ND. destruct (tail_quot t (proj1 RT)) as (D30 & E). pose proof (gt_range _ RT) as G. set (g := gt t) in *. set (n := tail_num t) in *. set (d := tail_den t) in *. clearbody g n d. split.
  - destruct (near_div nf df n d _ _ 30 10 NN ND ltac:(lra) ltac:(lra) ltac:(rewrite E; apply Rabs_le; lra) ltac:(lra) ltac:(lra)) as (A & B). split; [exact A|]. rewrite E in B. apply Rle_trans with (1 := B). unfold q. lra.
  - assert (NO : near (dopp nf) (- n) (2 / 10000000000)). { destruct NN as (A & B). destruct (opp_ok _ A) as (C & V). split; [exact C|]. rewrite V. replace (- B2R nf - - n) with (- (B2R nf - n)) by ring. rewrite Rabs_Ropp. exact B. }
    assert (E' : - n / d = - g) by (rewrite <- E; unfold Rdiv; ring). destruct (near_div (dopp nf) df (- n) d _ _ 30 10 NO ND ltac:(lra) ltac:(lra) ltac:(rewrite E', Rabs_Ropp; apply Rabs_le; lra) ltac:(lra) ltac:(lra)) as (A & B). split; [exact A|]. rewrite E' in B. apply Rle_trans with (1 := B). unfold q. lra.
Qed.
Lemma tail_start T : is_finite T = true -> 43 / 16 <= B2R T <= 9 -> near (ddiv (tail_fnum T) (tail_fden T)) (gt (B2R T)) (/ 10000000000) /\ near (ddiv (dopp (tail_fnum T)) (tail_fden T)) (- gt (B2R T)) (/ 10000000000).
Proof. intros FT RT. exact (tail_gen (tail_fnum T) (tail_fden T) (B2R T) RT (proj1 (tail_poly T FT RT)) (proj2 (tail_poly T FT RT))). Qed.
Lemma central_gen nf df Qf : is_finite Qf = true -> Rabs (B2R Qf) <= 475755 / 1000000 -> near nf (central_num (B2R Qf * B2R Qf)) (2 / 10000000000000) -> Rabs (central_num (B2R Qf * B2R Qf)) <= 21 -> near df (central_den (B2R Qf * B2R Qf)) (2 / 10000000000000) ->
  near (ddiv (dmul nf Qf) df) (gc (B2R Qf)) (/ 1000000000).
Proof.
  intros FQ RQ NN B ND. pose proof q_pos as Q. pose proof tiny_small as TS. pose proof tiny_pos as TP. destruct (gc_abs _ RQ) as (G & _ & FB). destruct (central_polys (B2R Qf)) as (En & ED).
  assert (EG : central_num (B2R Qf * B2R Qf) * B2R Qf / central_den (B2R Qf * B2R Qf) = gc (B2R Qf)). { rewrite En, ED. unfold gc, fN. field. lra. }
  assert (M3 : / 1000 <= central_den (B2R Qf * B2R Qf)) by lra. clear En ED FB. set (p := B2R Qf) in *. set (n := central_num (p * p)) in *. set (d := central_den (p * p)) in *. set (g := gc p) in *. clearbody g n d. destruct NN as (FN & EN). pose proof (Rabs_pos p) as p0.
  assert (NM : near (dmul nf Qf) (n * p) (/ 10000000000000)).
  { assert (AN : Rabs (B2R nf) <= 22). { replace (B2R nf) with ((B2R nf - n) + n) by ring. apply Rle_trans with (1 := Rabs_triang _ _). lra. }
    assert (AP : Rabs (B2R nf * p) <= 22 * (475755 / 1000000)) by (rewrite Rabs_mult; apply Rmult_le_compat; try lra; apply Rabs_pos).
    destruct (mul_ok nf Qf FN FQ (big_ok (B2R nf * p) ltac:(lra))) as (A & V). split; [exact A|]. rewrite V. fold p. pose proof (rnd_err (B2R nf * p)) as E. assert (q / 2 * Rabs (B2R nf * p) <= q / 2 * 11) by (apply Rmult_le_compat_l; lra).
    replace (rnd (B2R nf * p) - n * p) with ((rnd (B2R nf * p) - B2R nf * p) + (B2R nf - n) * p) by ring. apply Rle_trans with (1 := Rabs_triang _ _). rewrite (Rabs_mult (B2R nf - n)). assert (Rabs (B2R nf - n) * Rabs p <= 2 / 10000000000000 * (475755 / 1000000)) by (apply Rmult_le_compat; try lra; apply Rabs_pos). unfold q in *. lra. }
  destruct (near_div (dmul nf Qf) df (n * p) d _ _ (/ 1000) 2 NM ND ltac:(lra) ltac:(lra) ltac:(rewrite EG; lra) ltac:(lra) ltac:(lra)) as (A & E). split; [exact A|]. rewrite EG in E. apply Rle_trans with (1 := E). unfold q. lra.
Qed.
Lemma sq_near Qf : is_finite Qf = true -> Rabs (B2R Qf) <= 475755 / 1000000 -> near (dmul Qf Qf) (B2R Qf * B2R Qf) q /\ Rabs (B2R Qf * B2R Qf) <= 2264 / 10000.
Proof.
  intros FQ RQ. pose proof q_pos as Q. pose proof tiny_small as TS. pose proof tiny_pos as TP. set (p := B2R Qf) in *. pose proof (Rabs_pos p) as p0.
  assert (RR : Rabs (p * p) <= 22635 / 100000). { rewrite Rabs_mult. apply Rle_trans with (475755 / 1000000 * (475755 / 1000000)); [apply Rmult_le_compat; lra|lra]. } split; [|lra].
  destruct (mul_ok Qf Qf FQ FQ (big_ok (p * p) ltac:(lra))) as (A & V). split; [exact A|]. rewrite V. fold p. apply Rle_trans with (1 := rnd_err (p * p)). assert (q / 2 * Rabs (p * p) <= q / 2 * 1) by (apply Rmult_le_compat_l; lra). lra.
Qed.
Lemma central_start Qf : is_finite Qf = true -> Rabs (B2R Qf) <= 475755 / 1000000 -> near (ddiv (dmul (central_fnum (dmul Qf Qf)) Qf) (central_fden (dmul Qf Qf))) (gc (B2R Qf)) (/ 1000000000).
Proof.
  intros FQ RQ. destruct (sq_near Qf FQ RQ) as (NR & RR). destruct (central_poly _ _ NR RR) as (NN & B & ND). exact (central_gen _ _ Qf FQ RQ NN B ND).
Qed.

(** ** The argument of the tail approximation *)
Lemma tail_sqrt Lv l : is_finite Lv = true -> Rabs (B2R Lv - l) <= 2 * q * Rabs l -> -40 <= l <= - (362 / 100) -> let T := dsqrt (dmul (dint (-2)) Lv) in
  is_finite T = true /\ 43 / 16 <= B2R T <= 9 /\ Rabs (et (B2R T) - exp l) <= / 1000000000 * exp l.
Proof.
  intros FL EL Rl. cbv zeta. pose proof q_pos as Q. destruct int_m2 as (F2 & V2). set (e := - l). assert (He : 362 / 100 <= e <= 40) by (unfold e; lra).
  assert (C : lc (4 * q) (- B2R Lv) e). { replace (4 * q) with (2 * (2 * q)) by ring. apply lc_rel; [lra|lra|]. unfold e. replace (- B2R Lv - - l) with (- (B2R Lv - l)) by ring. rewrite Rabs_Ropp. rewrite (Rabs_left l) in EL by lra. exact EL. }
  assert (Re : bpow radix2 1 <= e <= bpow radix2 6) by (change (bpow radix2 1) with 2; change (bpow radix2 6) with 64; lra).
  destruct (rnd_lc (4 * q) (2 * - B2R Lv) (2 * e)) as (M & C2); [replace (4 * q) with (0 + 4 * q) by ring; apply lc_mul; [apply lc_refl; lra|exact C]|lra| |].
  { apply bpow_widen with (1 + 1)%Z (1 + 6)%Z; [lia|lia|]. apply bpow_range; [change (bpow radix2 1) with 2; lra|exact Re]. }
  destruct (mul_ok (dint (-2)) Lv F2 FL) as (M1 & M2); [rewrite V2; replace (-2 * B2R Lv) with (2 * - B2R Lv) by ring; exact M|]. rewrite V2 in M2. replace (-2 * B2R Lv) with (2 * - B2R Lv) in M2 by ring. rewrite <- M2 in C2.
  set (S := dmul (dint (-2)) Lv) in *. pose proof C2 as (T0 & _). destruct (sqrt_ok S M1 ltac:(lra)) as (Q1 & Q2). set (s := sqrt (2 * e)) in *. assert (SS : s * s = 2 * e) by (apply sqrt_sqrt; lra). pose proof (sqrt_pos (2 * e)) as s0. fold s in s0.
  assert (SR : 26904 / 10000 <= s <= 8945 / 1000) by (split; apply Rnot_lt_le; intros Z; [assert (s * s <= 26904 / 10000 * (26904 / 10000)) by (apply Rmult_le_compat; lra)|assert (8945 / 1000 * (8945 / 1000) <= s * s) by (apply Rmult_le_compat; lra)]; lra).
  destruct (rnd_lc ((4 * q + q) / 2) (sqrt (B2R S)) s) as (M3 & C3); [apply lc_sqrt, C2|lra|apply bpow_widen with 1%Z 4%Z; [lia|lia|change (bpow radix2 1) with 2; change (bpow radix2 4) with 16; lra]|]. rewrite <- Q2 in C3.
  assert (C4 : lc (4 * q) (B2R (dsqrt S)) s) by (apply lc_weaken with (2 := C3); lra). set (t := B2R (dsqrt S)) in *. pose proof (lc_abs _ _ _ C4 ltac:(lra)) as A4. assert (B4 : 2 * (4 * q) * s <= / 100000 * 9) by (apply Rmult_le_compat; lra). pose proof (Rabs_le_inv _ _ A4) as A4'. split; [exact Q1|]. split; [lra|].
  assert (C6 : lc (8 * q) (t * t / 2) e). { replace e with (s * s / 2) by (rewrite SS; field). replace (8 * q) with (4 * q + 4 * q + 0) by ring. apply lc_div; [apply lc_mul; exact C4|apply lc_refl; lra]. }
  pose proof (lc_abs _ _ _ C6 ltac:(lra)) as A6. assert (B6 : 2 * (8 * q) * e <= 16 * / 1000000000000000 * 40) by (apply Rmult_le_compat; lra). unfold et. replace (- (t * t) / 2) with (l + - (t * t / 2 - e)) by (unfold e; field). rewrite exp_plus. set (h := - (t * t / 2 - e)). pose proof (exp_near h (/ 10000000000) ltac:(lra) ltac:(unfold h; rewrite Rabs_Ropp; lra)) as X. pose proof (exp_pos l) as P.
  replace (exp l * exp h - exp l) with ((exp h - 1) * exp l) by ring. rewrite Rabs_mult, (Rabs_pos_eq (exp l)) by lra. apply Rmult_le_compat_r; [lra|]. apply Rabs_le. lra.
Qed.
