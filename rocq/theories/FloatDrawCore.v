(** Backward errors of the draws of exponential, twosided_exponential, powerlaw, pareto, weibull and rayleigh_dist. *)
From Coq Require Import ZArith Bool List Reals Lia Lra Psatz.
From Flocq Require Import Core IEEE754.BinarySingleNaN.
From Verif Require Import FloatFacts UniformModel UniformProofs UnifAccProofs FloatDrawModel FloatDrawSpec FloatDrawProofs.
Open Scope R_scope.

Lemma rnd_opp x : rnd (- x) = - rnd x. Proof. apply round_NE_opp. Qed.
Lemma tiny_q : tiny <= q / 2. Proof. rewrite <- u_eq. apply bpow_le. lia. Qed.
Lemma tiny_scale x : scale x -> tiny / B2R x <= q / 1024.
Proof.
  intros H. pose proof (scale_pos x H) as P. destruct H as (_ & R). apply Rmult_le_reg_r with (B2R x); [exact P|]. unfold Rdiv at 1. rewrite Rmult_assoc, Rinv_l by lra. rewrite Rmult_1_r.
  replace (q / 1024) with (bpow radix2 (-62)) by (unfold q; cbn; lra). apply Rle_trans with (bpow radix2 (-62) * bpow radix2 (-300)); [|apply Rmult_le_compat_l; [apply bpow_ge_0|lra]]. rewrite <- bpow_plus. apply bpow_le. lia.
Qed.
Lemma ln_Rpower x y : ln (Rpower x y) = y * ln x. Proof. unfold Rpower. apply ln_exp. Qed.
Lemma mul_fmt_ge (a : double) x : 0 < B2R a -> 1 <= x -> B2R a <= rnd (B2R a * x).
Proof. intros A X. apply (rnd_ge_fmt 53 1024 H3 H70); [apply (fmt_B2R 53 1024 H3 H70)|]. rewrite <- (Rmult_1_r (B2R a)) at 1. apply Rmult_le_compat_l; lra. Qed.

Section Draws.
Variable L : libm.
Hypothesis HL : accurate L.

(** ** exponential, twosided exponential *)
Lemma exponential_core mu D r : scale mu -> (1 <= D < 2 ^ 64)%Z -> (0 <= r <= D)%Z -> let v := exponential_fdraw L mu D r in
  is_finite v = true /\ 0 <= B2R v /\ Rabs (exp (- (B2R v / B2R mu)) - B2R (uniformoc 53 1024 D r)) <= 20 * q.
Proof. intros Hm HD Hr v. destruct (oc_range D r HD Hr) as (F & R). exact (exp_core L HL mu _ Hm F R). Qed.

Lemma mul_opp (a b : double) : is_finite (dmul (dopp a) b) = true -> is_finite (dmul a b) = true /\ B2R (dmul a b) = - B2R (dmul (dopp a) b).
Proof.
  intros F. assert (E : B2R (dmul (dopp a) b) = - B2R (dmul a b) /\ is_finite (dmul a b) = is_finite (dmul (dopp a) b)).
  { pose proof (Bmult_correct 53 1024 _ _ mode_NE a b) as C. pose proof (Bmult_correct 53 1024 _ _ mode_NE (dopp a) b) as C'. change (round_mode mode_NE) with ZnearestE in C, C'.
    unfold dopp in C'. rewrite B2R_Bopp, is_finite_Bopp in C'. replace (- B2R a * B2R b) with (- (B2R a * B2R b)) in C' by ring. rewrite rnd_opp, Rabs_Ropp in C'. unfold dmul, fmul, dopp in *.
    destruct (Rlt_bool (Rabs (rnd (B2R a * B2R b))) (bpow radix2 1024)).
    - destruct C as (C1 & C2 & _). destruct C' as (C1' & C2' & _). rewrite C1, C1', C2, C2'. split; reflexivity.
    - exfalso. rewrite <- is_finite_SF_B2SF, C' in F. unfold binary_overflow in F. cbn in F. discriminate F. }
  destruct E as (E1 & E2). rewrite E2, E1, F. split; [reflexivity|ring].
Qed.

Lemma twosided_icdf mu X : scale mu -> is_finite X = true -> q <= B2R X <= 1 - q / 2 -> is_finite (twosided_ficdf L mu X) = true /\
  ((B2R (twosided_ficdf L mu X) <= 0 /\ Rabs (exp (B2R (twosided_ficdf L mu X) / B2R mu) / 2 - B2R X) <= 12 * q /\ B2R X < / 2) \/
   (0 <= B2R (twosided_ficdf L mu X) /\ Rabs (exp (- (B2R (twosided_ficdf L mu X) / B2R mu)) / 2 - (1 - B2R X)) <= 12 * q /\ / 2 <= B2R X)).
Proof.
  intros Hm F R. pose proof q_pos as Q. pose proof (scale_pos mu Hm) as Pm. destruct (int_ok_ 0 ltac:(lia)) as (F0 & V0). destruct (int_ok_ 1 ltac:(lia)) as (F1 & V1). destruct (int_ok_ 2 ltac:(lia)) as (F2 & V2). destruct half_ok as (Fh & Vh).
  unfold twosided_ficdf. remember (B2R X) as x eqn:Ex.
  assert (B4 : 4 <= 4 * big) by (assert (bpow radix2 0 <= big) by (apply bpow_le; lia); change (bpow radix2 0) with 1 in *; lra).
  destruct (mul_ok (dint 2) X F2 F) as (D1 & D2); [rewrite V2, <- Ex; rewrite Rabs_pos_eq; lra|]. rewrite V2, <- Ex in D2.
  assert (RD : Rabs (rnd (2 * x) - 2 * x) <= q). { pose proof (rnd_err (2 * x)) as E. rewrite (Rabs_pos_eq (2 * x)) in E by lra. pose proof tiny_q. assert (q / 2 * (2 * x) <= q / 2 * 1 \/ q / 2 * (2 * x) <= q / 2 * 2) by (right; apply Rmult_le_compat_l; lra).
    destruct (rnd_rel (2 * x)) as [E'|E']; [right; rewrite Rabs_pos_eq by lra; apply Rle_trans with (bpow radix2 (-52)); [apply bpow_le; lia|unfold q in *; cbn; lra]| |]; rewrite (Rabs_pos_eq (2 * x)) in * by lra; lra. }
  assert (C1 : Bltb X (dint 0) || Bltb (dint 1) X = false).
  { rewrite !Bltb_correct by assumption. rewrite V0, V1, <- Ex. rewrite !Rlt_bool_false by lra. reflexivity. }
  assert (C2 : Beqb X (dint 1) = false) by (rewrite Beqb_correct by assumption; rewrite V1, <- Ex; apply Req_bool_false; lra).
  assert (C3 : Beqb X (dint 0) = false) by (rewrite Beqb_correct by assumption; rewrite V0, <- Ex; apply Req_bool_false; lra).
  assert (C4 : Bltb X (ddiv (dint 1) (dint 2)) = Rlt_bool x (/ 2)) by (rewrite Bltb_correct by assumption; rewrite Vh, <- Ex; reflexivity).
  rewrite C1, C2, C3, C4. apply Rabs_le_inv in RD. destruct (Rlt_bool_spec x (/ 2)) as [Hx|Hx].
  - set (Y := dmul (dint 2) X) in *. assert (RY : q / 2 <= B2R Y <= 1). { rewrite D2. split; [lra|]. apply (rnd_le_fmt 53 1024 H3 H70); [apply (fmt_1 53 1024 H3 H70)|lra]. }
    destruct (exp_core L HL mu Y Hm D1 RY) as (E1 & E2 & E3). destruct (mul_opp mu (m_ln L Y) E1) as (M1 & M2). split; [exact M1|]. left. rewrite M2. split; [lra|]. split; [|exact Hx].
    replace (- B2R (dmul (dopp mu) (m_ln L Y)) / B2R mu) with (- (B2R (dmul (dopp mu) (m_ln L Y)) / B2R mu)) by (field; lra). apply Rabs_le_inv in E3. apply Rabs_le. rewrite D2 in E3. lra.
  - set (Y := dmul (dint 2) X) in *. assert (RY : 1 <= B2R Y <= 2 - q). { rewrite D2. split; [apply (rnd_ge_fmt 53 1024 H3 H70); [apply (fmt_1 53 1024 H3 H70)|lra]|]. apply (rnd_le_fmt 53 1024 H3 H70); [|lra].
      replace (2 - q) with (F2R (Float radix2 (2 ^ 53 - 1) (-52))) by (unfold F2R, q; cbn; lra). apply generic_format_FLT. exists (Float radix2 (2 ^ 53 - 1) (-52)); [reflexivity|cbn; lia|cbn; lia]. }
    destruct (sub_ok (dint 2) Y F2 D1) as (S1 & S2); [rewrite V2, Rabs_pos_eq; lra|]. rewrite V2 in S2. set (W := dsub (dint 2) Y) in *.
    assert (RW : q / 2 <= B2R W <= 1). { rewrite S2. split; [|apply (rnd_le_fmt 53 1024 H3 H70); [apply (fmt_1 53 1024 H3 H70)|lra]]. rewrite <- u_eq. apply (rnd_ge_fmt 53 1024 H3 H70); [apply (fmt_bpow 53 1024 H3 H70); lia|]. rewrite u_eq. lra. }
    destruct (exp_core L HL mu W Hm S1 RW) as (E1 & E2 & E3). split; [exact E1|]. right. split; [exact E2|]. split; [|exact Hx].
    assert (RS : Rabs (rnd (2 - B2R Y) - (2 - B2R Y)) <= q / 2 + q / 2). { pose proof (rnd_err (2 - B2R Y)) as E. rewrite (Rabs_pos_eq (2 - B2R Y)) in E by lra. pose proof tiny_q. assert (q / 2 * (2 - B2R Y) <= q / 2 * 1) by (apply Rmult_le_compat_l; lra). lra. }
    apply Rabs_le_inv in RS. apply Rabs_le_inv in E3. apply Rabs_le. rewrite S2 in E3. rewrite D2 in *. lra.
Qed.

(** ** powerlaw, pareto *)
Lemma recip_core g n : shape g -> (n = 1 \/ n = -1)%Z -> is_finite (ddiv (dint n) g) = true /\ exists h, B2R (ddiv (dint n) g) = IZR n * h /\ lc q h (/ B2R g) /\ / 2 ^ 21 <= h <= 81 / 10 /\ Rabs (B2R g * h - 1) <= 2 * q.
Proof.
  intros (Fg & Rg) Hn. pose proof q_pos as Q. assert (Fn : is_finite (dint n) = true /\ B2R (dint n) = IZR n) by (destruct Hn as [-> | ->]; [apply int_ok_; lia|apply int_m1]). destruct Fn as (Fn & Vn).
  assert (I : / 2 ^ 20 <= / B2R g <= 8). { split; [apply Rinv_le_contravar; lra|]. replace 8 with (/ / 8) by field. apply Rinv_le_contravar; lra. }
  assert (E : rnd (IZR n / B2R g) = IZR n * rnd (/ B2R g)). { unfold Rdiv. destruct Hn as [-> | ->]; [rewrite !Rmult_1_l; reflexivity|]. replace (-1 * / B2R g) with (- (/ B2R g)) by ring. rewrite rnd_opp. ring. }
  assert (B : 8 <= 4 * big) by (assert (bpow radix2 3 <= big) by (apply bpow_le; lia); change (bpow radix2 3) with 8 in *; lra).
  destruct (div_ok (dint n) g Fn) as (D1 & D2); [lra| |].
  - rewrite Vn. unfold Rdiv. rewrite Rabs_mult. replace (Rabs (IZR n)) with 1 by (destruct Hn as [-> | ->]; [rewrite Rabs_pos_eq|rewrite Rabs_left1]; lra). rewrite Rmult_1_l, Rabs_pos_eq; lra.
  - split; [exact D1|]. exists (rnd (/ B2R g)). rewrite D2, Vn, E. split; [reflexivity|]. assert (C : lc q (rnd (/ B2R g)) (/ B2R g)) by (apply lc_rnd; apply Rle_trans with (2 := proj1 I); apply Rle_trans with (bpow radix2 (-20)); [apply bpow_le; lia|cbn; lra]).
    split; [exact C|]. pose proof (lc_abs _ _ _ C ltac:(lra)) as A. assert (QI : 2 * q * / B2R g <= 2 * q * 8) by (apply Rmult_le_compat_l; lra). pose proof (lc_bounds _ _ _ C ltac:(lra)) as Bd. apply Rabs_le_inv in A. split; [split; lra|].
    replace (B2R g * rnd (/ B2R g) - 1) with (B2R g * (rnd (/ B2R g) - / B2R g)) by (field; lra). rewrite Rabs_mult, (Rabs_pos_eq (B2R g)) by lra. pose proof (lc_abs _ _ _ C ltac:(lra)) as A'.
    apply Rle_trans with (B2R g * (2 * q * / B2R g)); [apply Rmult_le_compat_l; lra|]. right. field. lra.
Qed.
Lemma pow_core g X : shape g -> is_finite X = true -> q / 2 <= B2R X <= 1 -> let p := m_pow L X (ddiv (dint (-1)) g) in let e := - ln (B2R X) in
  is_finite p = true /\ 1 <= B2R p <= bpow radix2 650 /\ 0 <= e <= 40 /\ Rabs (B2R g * ln (B2R p) - e) <= 2 * q * e + 4 * B2R g * q.
Proof.
  intros Hg FX RX p e. pose proof q_pos as Q. assert (He : 0 <= e <= 40). { pose proof (ln_ge_53 _ (proj1 RX)). unfold e. pose proof (ln_up (B2R X) ltac:(lra)). lra. }
  destruct (recip_core g (-1) Hg ltac:(auto)) as (F1 & h & H1 & H2 & H3' & H4). destruct Hg as (_ & Rg).
  assert (P : 0 <= B2R (ddiv (dint (-1)) g) * ln (B2R X) <= 324). { rewrite H1. replace (-1 * h * ln (B2R X)) with (h * e) by (unfold e; ring). assert (h * e <= 81 / 10 * 40) by (apply Rmult_le_compat; lra). assert (0 <= h * e) by (apply Rmult_le_pos; lra). lra. }
  assert (X0 : 0 < B2R X) by lra. destruct (acc_pow L HL X _ FX F1 X0 ltac:(rewrite Rabs_pos_eq; lra)) as (A1 & A2). pose proof (acc_pow_1 L HL X _ FX F1 X0 ltac:(lra)) as A3. fold p in A1, A2, A3.
  split; [exact A1|]. assert (C : lc (4 * q) (B2R p) (Rpower (B2R X) (B2R (ddiv (dint (-1)) g)))). { replace (4 * q) with (2 * / 2 ^ 51) by (unfold q; field). apply lc_rel; [apply exp_pos|lra|exact A2]. }
  destruct C as (C1 & _ & C3). rewrite ln_Rpower in C3. pose proof (Rabs_le_inv _ _ C3) as C4. split; [split; [exact A3|]|split; [exact He|]].
  - rewrite <- (exp_ln (B2R p)) by exact C1. apply (exp_bpow (ln (B2R p)) 325). split; [rewrite <- ln_1; apply ln_le; lra|lra].
  - rewrite H1 in C3. replace (-1 * h * ln (B2R X)) with (h * e) in C3 by (unfold e; ring).
    replace (B2R g * ln (B2R p) - e) with (B2R g * (ln (B2R p) - h * e) + (B2R g * h - 1) * e) by ring. apply Rle_trans with (1 := Rabs_triang _ _). rewrite !Rabs_mult, (Rabs_pos_eq (B2R g)), (Rabs_pos_eq e) by lra.
    assert (B2R g * Rabs (ln (B2R p) - h * e) <= B2R g * (4 * q)) by (apply Rmult_le_compat_l; lra). assert (Rabs (B2R g * h - 1) * e <= 2 * q * e) by (apply Rmult_le_compat_r; lra). lra.
Qed.
(** from the logarithm of a power to the power *)
Lemma power_back g e w (p : R) k : 0 < w -> 0 < p -> / 8 <= g <= 2 ^ 20 -> 0 <= e <= 40 -> 0 <= k <= 10 -> Rabs (g * ln p - e) <= 2 * q * e + 4 * g * q -> Rabs (ln w - ln p) <= k * q -> Rabs (Rpower w (- g) - exp (- e)) <= (4 + (8 + 2 * k) * g) * q.
Proof.
  intros W P G E K A B. pose proof q_pos as Q. replace (Rpower w (- g)) with (exp (- (g * ln w))) by (unfold Rpower; f_equal; ring).
  replace ((4 + (8 + 2 * k) * g) * q) with (2 * (2 * q) + 2 * ((4 + k) * g * q)) by ring. assert (GQ : 0 <= g * q <= 2 ^ 20 * q) by (split; [apply Rmult_le_pos; lra|apply Rmult_le_compat_r; lra]).
  assert (QE : 0 <= q * e <= q * 40) by (split; [apply Rmult_le_pos|apply Rmult_le_compat_l]; lra). assert (KG : 0 <= (4 + k) * (g * q) <= 14 * (2 ^ 20 * q)) by (split; [apply Rmult_le_pos|apply Rmult_le_compat]; lra). unfold q in *.
  apply exp_back; try lra.
  replace (g * ln w - e) with ((g * ln p - e) + g * (ln w - ln p)) by ring. apply Rle_trans with (1 := Rabs_triang _ _). rewrite (Rabs_mult g), (Rabs_pos_eq g) by lra.
  assert (g * Rabs (ln w - ln p) <= g * (k * / 2 ^ 52)) by (apply Rmult_le_compat_l; lra). lra.
Qed.
Lemma powerlaw_core g th D r : shape g -> scale th -> (1 <= D < 2 ^ 64)%Z -> (0 <= r <= D)%Z -> let v := powerlaw_fdraw L g th D r in
  is_finite v = true /\ B2R th <= B2R v /\ Rabs (Rpower (B2R v / B2R th) (- B2R g) - B2R (uniformoc 53 1024 D r)) <= (4 + 10 * B2R g) * q.
Proof.
  intros Hg Ht HD Hr v. destruct (oc_range D r HD Hr) as (F & R). pose proof q_pos as Q. pose proof (scale_pos th Ht) as Pt. destruct (pow_core g _ Hg F R) as (P1 & P2 & P3 & P4). unfold powerlaw_fdraw in v.
  set (p := m_pow L (uniformoc 53 1024 D r) (ddiv (dint (-1)) g)) in *. set (e := - ln (B2R (uniformoc 53 1024 D r))) in *. assert (X : B2R (uniformoc 53 1024 D r) = exp (- e)) by (unfold e; rewrite Ropp_involutive, exp_ln; lra).
  destruct Ht as (Ft & Rt). destruct (rnd_lc 0 (B2R th * B2R p) (B2R th * B2R p)) as (M & C); [apply lc_refl, Rmult_lt_0_compat; lra|lra| |].
  { apply bpow_widen with (-300 + 0)%Z (300 + 700)%Z; [lia|lia|]. apply bpow_range; [exact Rt|]. split; [apply P2|]. apply Rle_trans with (1 := proj2 P2). apply bpow_le. lia. }
  destruct (mul_ok th p Ft P1 M) as (M1 & M2). fold v in M1, M2. split; [exact M1|]. rewrite M2. split; [apply mul_fmt_ge; lra|]. rewrite <- M2. rewrite <- M2 in C. rewrite X. replace 10 with (8 + 2 * 1) by ring.
  apply power_back with (B2R p); try lra; [destruct C as (C & _); apply Rdiv_lt_0_compat; lra|apply Hg|].
  assert (C' : lc q (B2R v / B2R th) (B2R p)). { replace (B2R p) with (B2R th * B2R p / B2R th) by (field; lra). replace q with (0 + q + 0) by ring. apply lc_div; [exact C|apply lc_refl, Pt]. } destruct C' as (_ & _ & C'). lra.
Qed.
Lemma pareto_core g th X : shape g -> scale th -> is_finite X = true -> q / 2 <= B2R X <= 1 -> let v := dmul (dsub (m_pow L X (ddiv (dint (-1)) g)) (dint 1)) th in
  is_finite v = true /\ 0 <= B2R v /\ Rabs (Rpower (1 + B2R v / B2R th) (- B2R g) - B2R X) <= (4 + 20 * B2R g) * q.
Proof.
  intros Hg Ht F R v. pose proof q_pos as Q. pose proof (scale_pos th Ht) as Pt. pose proof (tiny_scale th Ht) as TS. pose proof tiny_q as TQ. pose proof tiny_pos as T0. destruct (pow_core g X Hg F R) as (P1 & P2 & P3 & P4).
  set (p := m_pow L X (ddiv (dint (-1)) g)) in *. set (e := - ln (B2R X)) in *. assert (X0 : B2R X = exp (- e)) by (unfold e; rewrite Ropp_involutive, exp_ln; lra).
  destruct Ht as (Ft & Rt). destruct (int_ok_ 1 ltac:(lia)) as (F1 & V1). assert (PB : bpow radix2 650 <= big) by (apply bpow_le; lia).
  destruct (sub_ok p (dint 1) P1 F1) as (S1 & S2); [rewrite V1, Rabs_pos_eq; lra|]. rewrite V1 in S2. set (B := dsub p (dint 1)) in *.
  pose proof (rnd_err (B2R p - 1)) as E1. rewrite <- S2, (Rabs_pos_eq (B2R p - 1)) in E1 by lra. assert (B0 : 0 <= B2R B) by (rewrite S2; apply (rnd_ge_0 53 1024 H3 H70); lra).
  assert (BU : B2R B <= 2 * B2R p). { apply Rabs_le_inv in E1. assert (q / 2 * (B2R p - 1) <= / 4 * (B2R p - 1)) by (apply Rmult_le_compat_r; lra). lra. }
  assert (MR : Rabs (B2R B * B2R th) <= 4 * big).
  { rewrite Rabs_pos_eq by (apply Rmult_le_pos; lra). apply Rle_trans with (2 * bpow radix2 650 * bpow radix2 300); [apply Rmult_le_compat; lra|]. replace (2 * bpow radix2 650 * bpow radix2 300) with (bpow radix2 1 * bpow radix2 650 * bpow radix2 300) by reflexivity. rewrite <- !bpow_plus.
    assert (bpow radix2 (1 + 650 + 300) <= big) by (apply bpow_le; lia). pose proof (bpow_gt_0 radix2 1000). unfold big in *. lra. }
  destruct (mul_ok B th S1 Ft MR) as (M1 & M2). fold v in M1, M2. split; [exact M1|]. assert (V0 : 0 <= B2R v) by (rewrite M2; apply (rnd_ge_0 53 1024 H3 H70), Rmult_le_pos; lra). split; [exact V0|].
  pose proof (rnd_err (B2R B * B2R th)) as E2. rewrite <- M2, (Rabs_pos_eq (B2R B * B2R th)) in E2 by (apply Rmult_le_pos; lra).
  assert (E3 : Rabs (B2R v / B2R th - B2R B) <= q / 2 * B2R B + q / 1024).
  { replace (B2R v / B2R th - B2R B) with ((B2R v - B2R B * B2R th) * / B2R th) by (field; lra). assert (I : 0 < / B2R th) by (apply Rinv_0_lt_compat, Pt). rewrite Rabs_mult, (Rabs_pos_eq (/ B2R th)) by lra.
    apply Rle_trans with ((q / 2 * (B2R B * B2R th) + tiny) * / B2R th); [apply Rmult_le_compat_r; lra|]. replace ((q / 2 * (B2R B * B2R th) + tiny) * / B2R th) with (q / 2 * B2R B + tiny / B2R th) by (field; lra). lra. }
  assert (E4 : Rabs (1 + B2R v / B2R th - B2R p) <= 3 * q * B2R p).
  { replace (1 + B2R v / B2R th - B2R p) with ((B2R v / B2R th - B2R B) + (B2R B - (B2R p - 1))) by ring. apply Rle_trans with (1 := Rabs_triang _ _). assert (q / 2 * B2R B <= q / 2 * (2 * B2R p)) by (apply Rmult_le_compat_l; lra). assert (q * 1 <= q * B2R p) by (apply Rmult_le_compat_l; lra). lra. }
  rewrite X0. replace 20 with (8 + 2 * 6) by ring. apply power_back with (B2R p); try lra; [|apply Hg|].
  - assert (0 <= B2R v / B2R th) by (apply Rmult_le_pos; [exact V0|left; apply Rinv_0_lt_compat, Pt]). lra.
  - assert (C : lc (2 * (3 * q)) (1 + B2R v / B2R th) (B2R p)) by (apply lc_rel; lra). destruct C as (_ & _ & C). lra.
Qed.

(** ** weibull *)
Lemma weibull_core th be D r : scale th -> shape be -> (1 <= D < 2 ^ 64)%Z -> (0 <= r <= D)%Z -> let v := weibull_fdraw L th be D r in let x := B2R (uniformoc 53 1024 D r) in
  is_finite v = true /\ ((B2R v = 0 /\ x = 1) \/ (0 < B2R v /\ Rabs (exp (- Rpower (B2R v / B2R th) (B2R be)) - x) <= (344 + 20 * B2R be) * q)).
Proof.
  intros Ht Hb HD Hr v x. destruct (oc_range D r HD Hr) as (F & R). pose proof q_pos as Q. pose proof (scale_pos th Ht) as Pt. destruct Ht as (Ft & Rt). unfold weibull_fdraw in v. set (X := uniformoc 53 1024 D r) in *.
  destruct (recip_core be 1 Hb ltac:(auto)) as (G1 & h & G2 & G3 & G4 & G5). rewrite Rmult_1_l in G2. set (g := ddiv (dint 1) be) in *. destruct Hb as (_ & Rb). fold x in R.
  destruct (ln_core L HL X F ltac:(fold x; lra)) as (FL & [(E & Z)|(U & G & C)]).
  - destruct (opp_ok _ FL) as (O1 & O2). rewrite Z, Ropp_0 in O2. destruct (acc_pow_0 L HL _ g O1 G1 O2) as (P1 & P2); [rewrite G2; lra|]. fold x in E.
    destruct (mul_ok th _ Ft P1) as (M1 & M2); [rewrite P2, Rmult_0_r, Rabs_R0; pose proof (bpow_gt_0 radix2 1000); unfold big; lra|]. fold v in M1, M2. rewrite P2, Rmult_0_r, round_0 in M2 by typeclasses eauto. split; [exact M1|]. left. split; assumption.
  - pose proof (ln_ge_53 (B2R X) (proj1 R)) as L40. set (e := - ln (B2R X)) in *. assert (He : q / 2 <= e <= 40) by (unfold e in *; lra). destruct (opp_ok _ FL) as (O1 & O2). rewrite <- O2 in C. set (Y := dopp (m_ln L X)) in *. clear O2 FL.
    assert (LE : - 40 <= ln e <= 39). { split; [apply ln_ge_53; lra|]. pose proof (ln_up e ltac:(lra)). lra. }
    pose proof C as (Y0 & _ & LY). pose proof (Rabs_le_inv _ _ LY) as LY'. assert (YB : -41 <= ln (B2R Y) <= 41) by lra.
    assert (HY : - (333) <= h * ln (B2R Y) <= 333). { assert (- (81 / 10 * 41) <= h * ln (B2R Y) <= 81 / 10 * 41); [|lra]. split; [replace (- (81 / 10 * 41)) with (81 / 10 * -41) by ring; apply Rle_trans with (h * -41); [|apply Rmult_le_compat_l; lra]; lra|]. apply Rle_trans with (h * 41); [apply Rmult_le_compat_l; lra|lra]. }
    destruct (acc_pow L HL Y g O1 G1 Y0) as (P1 & P2); [rewrite G2; apply Rabs_le; lra|]. set (p := m_pow L Y g) in *. rewrite G2 in P2.
    assert (CP : lc (4 * q) (B2R p) (Rpower (B2R Y) h)). { replace (4 * q) with (2 * / 2 ^ 51) by (unfold q; field). apply lc_rel; [apply exp_pos|lra|exact P2]. }
    destruct (rnd_lc (4 * q) (B2R th * B2R p) (B2R th * Rpower (B2R Y) h)) as (M & CV); [replace (4 * q) with (0 + 4 * q) by ring; apply lc_mul; [apply lc_refl, Pt|exact CP]|lra| |].
    { apply bpow_widen with (-300 + - (2 * 333))%Z (300 + 2 * 333)%Z; [lia|lia|]. apply bpow_range; [exact Rt|]. unfold Rpower. apply exp_range. lra. }
    destruct (mul_ok th p Ft P1 M) as (M1 & M2). fold v in M1, M2. rewrite <- M2 in CV. split; [exact M1|]. right. pose proof CV as (V0 & _). split; [exact V0|].
    assert (CW : lc (5 * q) (B2R v / B2R th) (Rpower (B2R Y) h)). { replace (Rpower (B2R Y) h) with (B2R th * Rpower (B2R Y) h / B2R th) by (field; lra). replace (5 * q) with (4 * q + q + 0) by ring. apply lc_div; [exact CV|apply lc_refl, Pt]. }
    destruct CW as (W0 & _ & CW). rewrite ln_Rpower in CW.
    assert (S : lc ((5 * B2R be + 86) * q) (Rpower (B2R v / B2R th) (B2R be)) e).
    { split; [apply exp_pos|]. split; [lra|]. rewrite ln_Rpower. replace (B2R be * ln (B2R v / B2R th) - ln e) with (B2R be * (ln (B2R v / B2R th) - h * ln (B2R Y)) + ((B2R be * h - 1) * ln (B2R Y) + (ln (B2R Y) - ln e))) by ring.
      apply Rle_trans with (1 := Rabs_triang _ _). assert (A1 : Rabs (B2R be * (ln (B2R v / B2R th) - h * ln (B2R Y))) <= B2R be * (5 * q)) by (rewrite Rabs_mult, (Rabs_pos_eq (B2R be)) by lra; apply Rmult_le_compat_l; lra).
      assert (A2 : Rabs ((B2R be * h - 1) * ln (B2R Y)) <= 2 * q * 41) by (rewrite Rabs_mult; apply Rmult_le_compat; try apply Rabs_pos; [exact G5|apply Rabs_le; lra]).
      pose proof (Rabs_triang ((B2R be * h - 1) * ln (B2R Y)) (ln (B2R Y) - ln e)). lra. }
    assert (BQ : 0 <= B2R be * q <= 2 ^ 20 * q) by (split; [apply Rmult_le_pos|apply Rmult_le_compat_r]; lra). assert (K2 : (5 * B2R be + 86) * q <= / 1000) by (unfold q in *; lra).
    pose proof (lc_abs _ _ _ S ltac:(lra)) as A. replace x with (exp (- e)) by (unfold e, x; rewrite Ropp_involutive; apply exp_ln; fold x; lra).
    replace ((344 + 20 * B2R be) * q) with (2 * (2 * ((5 * B2R be + 86) * q)) + 2 * 0) by ring. assert (KE : (5 * B2R be + 86) * q * e <= / 1000 * 40) by (apply Rmult_le_compat; lra). apply exp_back; lra.
Qed.

(** ** rayleigh *)
Lemma rayleigh_icdf nu X : scale nu -> is_finite X = true -> q <= B2R X <= 1 - q / 2 -> is_finite (rayleigh_ficdf L nu X) = true /\ 0 < B2R (rayleigh_ficdf L nu X) /\
  Rabs (exp (- ((B2R (rayleigh_ficdf L nu X) / B2R nu) * (B2R (rayleigh_ficdf L nu X) / B2R nu) / 2)) - (1 - B2R X)) <= 42 * q.
Proof.
  intros Hn F R. pose proof q_pos as Q. pose proof (scale_pos nu Hn) as Pn. destruct Hn as (Fn & Rn). destruct (int_ok_ 0 ltac:(lia)) as (F0 & V0). destruct (int_ok_ 1 ltac:(lia)) as (F1 & V1). destruct int_m2 as (F2 & V2).
  unfold rayleigh_ficdf. remember (B2R X) as x eqn:Ex.
  assert (C1 : Bltb X (dint 0) || Bltb (dint 1) X = false).
  { rewrite !Bltb_correct by assumption. rewrite V0, V1, <- Ex. rewrite !Rlt_bool_false by lra. reflexivity. }
  rewrite C1. clear C1. assert (B4 : 1000 <= big) by (apply Rle_trans with (bpow radix2 10); [cbn; lra|apply bpow_le; lia]).
  destruct (sub_ok (dint 1) X F1 F) as (S1 & S2); [rewrite V1, <- Ex, Rabs_pos_eq; lra|]. rewrite V1, <- Ex in S2. set (W := dsub (dint 1) X) in *.
  assert (RW : q / 2 <= B2R W <= 1 - q / 2).
  { rewrite S2. split; [rewrite <- u_eq; apply (rnd_ge_fmt 53 1024 H3 H70); [apply (fmt_bpow 53 1024 H3 H70); lia|rewrite u_eq; lra]|].
    rewrite <- u_eq. change (bpow radix2 (-53)) with (bpow radix2 (- (53))). rewrite <- (pred_1 53 1024 H3 H70). apply (rnd_le_fmt 53 1024 H3 H70); [apply generic_format_pred; [typeclasses eauto|apply (fmt_1 53 1024 H3 H70)]|].
    rewrite (pred_1 53 1024 H3 H70). change (bpow radix2 (- (53))) with (bpow radix2 (-53)). rewrite u_eq. lra. }
  assert (RS : Rabs (B2R W - (1 - x)) <= q). { rewrite S2. pose proof (rnd_err (1 - x)) as E. rewrite (Rabs_pos_eq (1 - x)) in E by lra. pose proof tiny_q. assert (q / 2 * (1 - x) <= q / 2 * 1) by (apply Rmult_le_compat_l; lra). lra. }
  destruct (ln_core L HL W S1 ltac:(lra)) as (FL & [(E & _)|(_ & G & C)]); [lra|]. pose proof (ln_ge_53 (B2R W) (proj1 RW)) as L40. set (e := - ln (B2R W)) in *. assert (He : q / 2 <= e <= 40) by (unfold e in *; lra). pose proof (e_range e He) as Re.
  destruct (rnd_lc (4 * q) (2 * - B2R (m_ln L W)) (2 * e)) as (M & C2); [replace (4 * q) with (0 + 4 * q) by ring; apply lc_mul; [apply lc_refl; lra|exact C]|lra| |].
  { apply bpow_widen with (1 + -53)%Z (1 + 6)%Z; [lia|lia|]. apply bpow_range; [change (bpow radix2 1) with 2; lra|exact Re]. }
  destruct (mul_ok (dint (-2)) (m_ln L W) F2 FL) as (M1 & M2); [rewrite V2; replace (-2 * B2R (m_ln L W)) with (2 * - B2R (m_ln L W)) by ring; exact M|]. rewrite V2 in M2. replace (-2 * B2R (m_ln L W)) with (2 * - B2R (m_ln L W)) in M2 by ring. rewrite <- M2 in C2.
  set (T := dmul (dint (-2)) (m_ln L W)) in *. pose proof C2 as (T0 & _). destruct (sqrt_ok T M1 ltac:(lra)) as (Q1 & Q2).
  assert (E2 : q <= 2 * e <= 80) by lra. assert (SR : bpow radix2 (-26) <= sqrt (2 * e) <= bpow radix2 4).
  { split; [apply Rsqr_incr_0_var; [|apply sqrt_pos]|apply Rsqr_incr_0_var; [|apply bpow_ge_0]]; rewrite Rsqr_sqrt by lra; unfold Rsqr; rewrite <- bpow_plus; [apply Rle_trans with q; [unfold q; cbn; lra|lra]|change (bpow radix2 (4 + 4)) with 256; lra]. }
  destruct (rnd_lc ((4 * q + q) / 2) (sqrt (B2R T)) (sqrt (2 * e))) as (M3 & C3); [apply lc_sqrt, C2|lra|apply bpow_widen with (-26)%Z 4%Z; [lia|lia|exact SR]|]. rewrite <- Q2 in C3. 
  assert (C4 : lc (4 * q) (B2R (dsqrt T)) (sqrt (2 * e))) by (apply lc_weaken with (2 := C3); lra).
  destruct (mul_lc nu (dsqrt T) 0 (4 * q) (B2R nu) (sqrt (2 * e)) Fn Q1 (lc_refl _ Pn) C4) as (N1 & N2); [lra| |].
  { apply bpow_widen with (-300 + -26)%Z (300 + 4)%Z; [lia|lia|]. apply bpow_range; [exact Rn|exact SR]. }
  set (v := dmul nu (dsqrt T)) in *. split; [exact N1|]. split; [apply N2|].
  assert (C5 : lc (5 * q) (B2R v / B2R nu) (sqrt (2 * e))). { replace (sqrt (2 * e)) with (B2R nu * sqrt (2 * e) / B2R nu) by (field; lra). replace (5 * q) with (0 + 4 * q + q + 0) by ring. apply lc_div; [exact N2|apply lc_refl, Pn]. }
  assert (C6 : lc (10 * q) (B2R v / B2R nu * (B2R v / B2R nu) / 2) e).
  { replace e with (sqrt (2 * e) * sqrt (2 * e) / 2) by (rewrite sqrt_sqrt by lra; field). replace (10 * q) with (5 * q + 5 * q + 0) by ring. apply lc_div; [apply lc_mul; exact C5|apply lc_refl; lra]. }
  pose proof (lc_abs _ _ _ C6 ltac:(lra)) as A. assert (XW : exp (- e) = B2R W) by (unfold e; rewrite Ropp_involutive; apply exp_ln; lra).
  assert (QE : q * e <= q * 40) by (apply Rmult_le_compat_l; lra). pose proof (exp_back (B2R v / B2R nu * (B2R v / B2R nu) / 2) e (20 * q) 0 ltac:(lra) ltac:(lra) ltac:(lra)) as EB.
  assert (QE' : 0 <= q * e) by (apply Rmult_le_pos; lra). specialize (EB ltac:(lra) ltac:(lra)). rewrite XW in EB. apply Rabs_le_inv in EB. apply Rabs_le_inv in RS. apply Rabs_le. lra.
Qed.
End Draws.
