(** cdf in double: operations that may overflow, exp and pow of approximate arguments. *)
From Coq Require Import ZArith Bool Reals Lia Lra Psatz.
From Flocq Require Import Core IEEE754.BinarySingleNaN.
From Verif Require Import FloatFacts UniformModel UniformProofs FloatDrawModel FloatDrawSpec FloatDrawProofs FloatDrawCore FloatDrawLoc FloatDrawTrig FloatDrawLaw DiscDrawTree FloatCdfModel FloatCdfSpec.
Local Open Scope R_scope.
Notation rnd := (round radix2 (SpecFloat.fexp 53 1024) ZnearestE).

(** ** Overflow *)
Lemma sign_pos (X : double) : 0 < B2R X -> Bsign X = false.
Proof. destruct X as [s|s| |s m e H]; cbn [B2R Bsign]; intros P; try lra. destruct s; [|reflexivity]. exfalso. assert (F2R (Float radix2 (cond_Zopp true (Z.pos m)) e) <= 0) by (apply F2R_le_0; cbn; lia). lra. Qed.
Lemma sign_neg (X : double) : B2R X < 0 -> Bsign X = true.
Proof. destruct X as [s|s| |s m e H]; cbn [B2R Bsign]; intros P; try lra. destruct s; [reflexivity|]. exfalso. assert (0 <= F2R (Float radix2 (cond_Zopp false (Z.pos m)) e)) by (apply F2R_ge_0; cbn; lia). lra. Qed.
Lemma is_inf (v : double) s : B2SF v = binary_overflow 53 1024 mode_NE s -> v = B754_infinity s.
Proof. unfold binary_overflow. cbn. destruct v; cbn [B2SF]; intros E; try discriminate E. injection E as ->. reflexivity. Qed.
Lemma rnd_far x : bpow radix2 1024 <= Rabs (rnd x) -> bpow radix2 1000 <= Rabs x.
Proof.
  intros H. destruct (Rle_lt_dec (bpow radix2 1000) (Rabs x)) as [C|C]; [exact C|exfalso]. pose proof (rnd_err x) as E. pose proof q_pos as Q. pose proof tiny_q as T.
  assert (q / 2 * Rabs x <= / 2 * Rabs x) by (apply Rmult_le_compat_r; [apply Rabs_pos|lra]). pose proof (Rabs_triang (rnd x - x) x) as R. replace (rnd x - x + x) with (rnd x) in R by ring.
  assert (bpow radix2 0 <= bpow radix2 1000) by (apply bpow_le; lia). change (bpow radix2 0) with 1 in *. assert (4 * bpow radix2 1000 <= bpow radix2 1024). { change 4 with (bpow radix2 2). rewrite <- bpow_plus. apply bpow_le. lia. } lra.
Qed.
Lemma mul_any (X Y : double) : is_finite X = true -> is_finite Y = true ->
  (is_finite (dmul X Y) = true /\ B2R (dmul X Y) = rnd (B2R X * B2R Y)) \/
  (bpow radix2 1000 <= Rabs (B2R X * B2R Y) /\ dmul X Y = B754_infinity (if Rlt_dec (B2R X * B2R Y) 0 then true else false)).
Proof.
  intros FX FY. pose proof (Bmult_correct 53 1024 _ _ mode_NE X Y) as C. change (round_mode mode_NE) with ZnearestE in C. destruct (Rlt_bool_spec (Rabs (rnd (B2R X * B2R Y))) (bpow radix2 1024)) as [H|H].
  - left. destruct C as (C1 & C2 & _). split; [unfold dmul, fmul; rewrite C2, FX, FY; reflexivity|exact C1].
  - right. pose proof (rnd_far _ H) as G. split; [exact G|]. apply is_inf in C. unfold dmul, fmul. rewrite C. f_equal. pose proof (bpow_gt_0 radix2 1000) as P.
    destruct (Rtotal_order (B2R X) 0) as [A|[A|A]]; [|rewrite A, Rmult_0_l, Rabs_R0 in G; lra|]; destruct (Rtotal_order (B2R Y) 0) as [B|[B|B]]; try (rewrite B, Rmult_0_r, Rabs_R0 in G; lra).
    + rewrite (sign_neg X A), (sign_neg Y B). destruct (Rlt_dec _ 0) as [K|K]; [|reflexivity]. pose proof (Rmult_le_pos (- B2R X) (- B2R Y) ltac:(lra) ltac:(lra)). lra.
    + rewrite (sign_neg X A), (sign_pos Y B). destruct (Rlt_dec _ 0) as [K|K]; [reflexivity|]. exfalso. apply K. pose proof (Rmult_lt_0_compat (- B2R X) (B2R Y) ltac:(lra) ltac:(lra)). lra.
    + rewrite (sign_pos X A), (sign_neg Y B). destruct (Rlt_dec _ 0) as [K|K]; [reflexivity|]. exfalso. apply K. pose proof (Rmult_lt_0_compat (B2R X) (- B2R Y) ltac:(lra) ltac:(lra)). lra.
    + rewrite (sign_pos X A), (sign_pos Y B). destruct (Rlt_dec _ 0) as [K|K]; [|reflexivity]. pose proof (Rmult_le_pos (B2R X) (B2R Y) ltac:(lra) ltac:(lra)). lra.
Qed.
Lemma div_any (X Y : double) : is_finite X = true -> 0 < B2R Y ->
  (is_finite (ddiv X Y) = true /\ B2R (ddiv X Y) = rnd (B2R X / B2R Y)) \/
  (bpow radix2 1000 <= Rabs (B2R X / B2R Y) /\ ddiv X Y = B754_infinity (if Rlt_dec (B2R X) 0 then true else false)).
Proof.
  intros FX PY. pose proof (Bdiv_correct 53 1024 _ _ mode_NE X Y ltac:(lra)) as C. change (round_mode mode_NE) with ZnearestE in C. destruct (Rlt_bool_spec (Rabs (rnd (B2R X / B2R Y))) (bpow radix2 1024)) as [H|H].
  - left. destruct C as (C1 & C2 & _). split; [unfold ddiv, fdiv; rewrite C2; exact FX|exact C1].
  - right. pose proof (rnd_far _ H) as G. split; [exact G|]. apply is_inf in C. unfold ddiv, fdiv. rewrite C. f_equal. pose proof (bpow_gt_0 radix2 1000) as P. rewrite (sign_pos Y PY).
    destruct (Rtotal_order (B2R X) 0) as [A|[A|A]]; [rewrite (sign_neg X A)|rewrite A in G; unfold Rdiv in G; rewrite Rmult_0_l, Rabs_R0 in G; lra|rewrite (sign_pos X A)]; destruct (Rlt_dec _ 0); try reflexivity; lra.
Qed.
Lemma inf_div (s : bool) (Y : double) : is_finite Y = true -> 0 < B2R Y -> ddiv (B754_infinity s) Y = B754_infinity s.
Proof. intros F P. pose proof (sign_pos Y P) as S. destruct Y as [t|t| |t m e H]; try discriminate F; cbn [B2R] in P; [lra|]. cbn [Bsign] in S. subst t. unfold ddiv, fdiv. cbn. destruct s; reflexivity. Qed.

(** ** Small exponentials *)
Lemma exp_tail x : 40 <= x -> exp (- x) <= q / 2.
Proof.
  intros H. rewrite <- (exp_ln (q / 2)) by (pose proof q_pos; lra). apply exp_le. rewrite <- u_eq, ln_bpow. pose proof ln2_up. lra.
Qed.
(** [v] is close to - t, or both are far below zero *)
Definition apxn (v : double) (t k tau : R) : Prop :=
  (is_finite v = true /\ B2R v <= 0 /\ Rabs (- B2R v - t) <= k * t + tau) \/
  ((v = B754_infinity true \/ is_finite v = true /\ B2R v <= -80) /\ 80 <= t).
Lemma apxn_weaken v t k k' tau tau' : 0 <= t -> k <= k' -> tau <= tau' -> apxn v t k tau -> apxn v t k' tau'.
Proof. intros Ht Hk Htau [(A & B & C)|H]; [left|right; exact H]. split; [exact A|]. split; [exact B|]. assert (k * t <= k' * t) by (apply Rmult_le_compat_r; lra). lra. Qed.
Lemma far_back s t k tau : 0 <= t -> 0 <= s -> 0 <= k <= / 1000 -> 0 <= tau <= / 1000 -> Rabs (s - t) <= k * t + tau -> Rabs (exp (- s) - exp (- t)) <= 2 * k + 2 * tau + q.
Proof.
  intros Ht Hs Hk Htau H. pose proof q_pos as Q. destruct (Rle_lt_dec t 400) as [C|C].
  - assert (k * t <= / 1000 * 400) by (apply Rmult_le_compat; lra). pose proof (exp_back s t k tau Ht ltac:(lra) ltac:(lra) H ltac:(lra)). lra.
  - assert (k * t <= / 1000 * t) by (apply Rmult_le_compat_r; lra). apply Rabs_le_inv in H. pose proof (exp_tail t ltac:(lra)). pose proof (exp_tail s ltac:(lra)). pose proof (exp_pos (- s)). pose proof (exp_pos (- t)). apply Rabs_le. lra.
Qed.
Lemma div_apxn (X Y : double) : is_finite X = true -> B2R X <= 0 -> 0 < B2R Y -> apxn (ddiv X Y) (- B2R X / B2R Y) (q / 2) tiny.
Proof.
  intros FX HX PY. assert (T : 0 <= - B2R X / B2R Y) by (apply Rmult_le_pos; [lra|left; apply Rinv_0_lt_compat, PY]). replace (B2R X / B2R Y) with (- (- B2R X / B2R Y)) by (field; lra).
  destruct (div_any X Y FX PY) as [(A & B)|(A & B)]; replace (B2R X / B2R Y) with (- (- B2R X / B2R Y)) in * by (field; lra).
  - left. split; [exact A|]. rewrite B, rnd_opp. pose proof (rnd_err (- B2R X / B2R Y)) as E. rewrite (Rabs_pos_eq (- B2R X / B2R Y)) in E by exact T. split; [|rewrite Ropp_involutive; exact E].
    pose proof (rnd_ge_0 53 1024 H3_64 H70_64 _ T). lra.
  - right. rewrite Rabs_Ropp, Rabs_pos_eq in A by exact T. assert (bpow radix2 10 <= bpow radix2 1000) by (apply bpow_le; lia). change (bpow radix2 10) with 1024 in *. split; [|lra]. left. rewrite B. destruct (Rlt_dec _ 0) as [K|K]; [reflexivity|].
    exfalso. replace (B2R X) with 0 in * by lra. unfold Rdiv in A. rewrite Ropp_0, Rmult_0_l in A. lra.
Qed.
Lemma bpow_1000 : 1024 <= bpow radix2 1000.
Proof. change 1024 with (bpow radix2 10). apply bpow_le. lia. Qed.
Lemma div_near (X Y : double) : is_finite X = true -> 0 < B2R Y ->
  (is_finite (ddiv X Y) = true /\ Rabs (B2R (ddiv X Y) - B2R X / B2R Y) <= q / 2 * Rabs (B2R X / B2R Y) + tiny /\ (0 <= B2R X -> 0 <= B2R (ddiv X Y)) /\ (B2R X <= 0 -> B2R (ddiv X Y) <= 0)) \/
  (ddiv X Y = B754_infinity false /\ bpow radix2 1000 <= B2R X / B2R Y) \/ (ddiv X Y = B754_infinity true /\ B2R X / B2R Y <= - bpow radix2 1000).
Proof.
  intros FX PY. assert (IY : 0 < / B2R Y) by (apply Rinv_0_lt_compat, PY). destruct (div_any X Y FX PY) as [(A & B)|(A & B)].
  - left. split; [exact A|]. rewrite B. split; [apply rnd_err|]. split; intros H.
    + apply (rnd_ge_0 53 1024 H3_64 H70_64). apply Rmult_le_pos; lra.
    + replace (B2R X / B2R Y) with (- (- B2R X * / B2R Y)) by (unfold Rdiv; ring). rewrite rnd_opp. pose proof (rnd_ge_0 53 1024 H3_64 H70_64 (- B2R X * / B2R Y) ltac:(apply Rmult_le_pos; lra)). lra.
  - right. rewrite B. pose proof bpow_1000. destruct (Rlt_dec (B2R X) 0) as [K|K].
    + right. split; [reflexivity|]. assert (0 < - B2R X * / B2R Y) by (apply Rmult_lt_0_compat; lra). rewrite Rabs_left1 in A by (unfold Rdiv; lra). lra.
    + left. split; [reflexivity|]. assert (0 <= B2R X * / B2R Y) by (apply Rmult_le_pos; lra). rewrite Rabs_pos_eq in A by (unfold Rdiv; lra). exact A.
Qed.

(** ** The steps that end a cdf *)
Lemma half_q x : q / 2 * x = x * (q / 2). Proof. ring. Qed.
Lemma one_minus (E : double) p e : computes E p e -> computes (dsub (dint 1) E) (1 - p) (e + q).
Proof.
  intros (F & R & A). pose proof q_pos as Q. pose proof tiny_q as T. destruct (int_ok_ 1 ltac:(lia)) as (F1 & V1). pose proof big_10 as B. destruct (sub_ok (dint 1) E F1 F) as (S1 & S2); [rewrite V1, Rabs_pos_eq; lra|]. rewrite V1 in S2. split; [exact S1|]. rewrite S2.
  split; [split; [apply (rnd_ge_0 53 1024 H3_64 H70_64); lra|apply (rnd_le_fmt 53 1024 H3_64 H70_64); [apply (fmt_1 53 1024 H3_64 H70_64)|lra]]|].
  pose proof (rnd_err (1 - B2R E)) as X. rewrite (Rabs_pos_eq (1 - B2R E)) in X by lra. assert (q / 2 * (1 - B2R E) <= q / 2 * 1) by (apply Rmult_le_compat_l; lra). apply Rabs_le_inv in X. apply Rabs_le_inv in A. apply Rabs_le. lra.
Qed.
Lemma halve (E : double) p e : computes E p e -> is_finite (ddiv E (dint 2)) = true /\ 0 <= B2R (ddiv E (dint 2)) <= / 2 /\ Rabs (B2R (ddiv E (dint 2)) - p / 2) <= e / 2 + q.
Proof.
  intros (F & R & A). pose proof q_pos as Q. pose proof tiny_q as T. destruct (int_ok_ 2 ltac:(lia)) as (F2 & V2). pose proof big_10 as B. destruct (div_ok E (dint 2) F) as (S1 & S2); [rewrite V2; lra|rewrite V2, Rabs_pos_eq; lra|]. rewrite V2 in S2. split; [exact S1|]. rewrite S2.
  assert (fmt (/ 2)) by (replace (/ 2) with (bpow radix2 (-1)) by (cbn; lra); apply (fmt_bpow 53 1024 H3_64 H70_64); lia).
  split; [split; [apply (rnd_ge_0 53 1024 H3_64 H70_64); lra|apply (rnd_le_fmt 53 1024 H3_64 H70_64); [assumption|lra]]|].
  pose proof (rnd_err (B2R E / 2)) as X. rewrite (Rabs_pos_eq (B2R E / 2)) in X by lra. assert (q / 2 * (B2R E / 2) <= q / 2 * 1) by (apply Rmult_le_compat_l; lra). apply Rabs_le_inv in X. apply Rabs_le_inv in A. apply Rabs_le. lra.
Qed.
Lemma computes_weaken v p e e' : e <= e' -> computes v p e -> computes v p e'.
Proof. intros H (A & B & C). repeat split; try assumption; try apply B. lra. Qed.
Lemma computes_0 p e : 0 <= p <= e -> computes (dint 0) p e.
Proof. intros H. destruct (int_ok_ 0 ltac:(lia)) as (F & V). split; [exact F|]. rewrite V. split; [lra|]. apply Rabs_le. lra. Qed.

Section Functions.
Variable M : libmx.
Hypothesis HM : accurate_x M.

Lemma exp_neg v t k tau : 0 <= t -> 0 <= k <= / 1000 -> 0 <= tau <= / 1000 -> apxn v t k tau -> computes (x_exp M v) (exp (- t)) (2 * k + 2 * tau + 4 * q).
Proof.
  intros Ht Hk Htau H. pose proof q_pos as Q. pose proof (exp_pos (- t)) as Et. destruct H as [(F & N & A)|([-> |(F & N)] & C)].
  - assert (B : Rabs (exp (B2R v) - exp (- t)) <= 2 * k + 2 * tau + q) by (rewrite <- (Ropp_involutive (B2R v)); apply far_back; try assumption; lra). apply Rabs_le_inv in B.
    pose proof (ax_exp_1 M HM v F N) as U. destruct (Rle_lt_dec (-400) (B2R v)) as [G|G].
    + destruct (ax_exp M HM v F ltac:(apply Rabs_le; lra)) as (X & Y). replace (/ 2 ^ 51) with (2 * q) in Y by (unfold q; field). pose proof (exp_pos (B2R v)) as P. assert (EL : exp (B2R v) <= 1) by (rewrite <- exp_0; apply exp_le; exact N). assert (2 * q * exp (B2R v) <= 2 * q * 1) by (apply Rmult_le_compat_l; lra).
      assert (2 * q * exp (B2R v) <= 1 * exp (B2R v)) by (apply Rmult_le_compat_r; lra). apply Rabs_le_inv in Y. split; [exact X|]. split; [lra|]. apply Rabs_le. lra.
    + destruct (ax_exp_small M HM v F G) as (X & Y). split; [exact X|]. split; [lra|]. pose proof (exp_tail (- B2R v) ltac:(lra)) as Z. rewrite Ropp_involutive in Z. pose proof (exp_pos (B2R v)). assert (/ 2 ^ 100 <= q) by (unfold q; lra). apply Rabs_le. lra.
  - destruct (ax_exp_minf M HM) as (X & Y). split; [exact X|]. rewrite Y. split; [lra|]. pose proof (exp_tail t ltac:(lra)). apply Rabs_le. lra.
  - pose proof (exp_tail t ltac:(lra)) as TT. destruct (Rle_lt_dec (-400) (B2R v)) as [G|G].
    + destruct (ax_exp M HM v F ltac:(apply Rabs_le; lra)) as (X & Y). pose proof (exp_tail (- B2R v) ltac:(lra)) as Z. rewrite Ropp_involutive in Z. pose proof (exp_pos (B2R v)). replace (/ 2 ^ 51) with (2 * q) in Y by (unfold q; field). assert (2 * q * exp (B2R v) <= 1 * exp (B2R v)) by (apply Rmult_le_compat_r; lra). apply Rabs_le_inv in Y. split; [exact X|]. split; [lra|]. apply Rabs_le. lra.
    + destruct (ax_exp_small M HM v F G) as (X & Y). split; [exact X|]. assert (/ 2 ^ 100 <= q) by (unfold q; lra). split; [lra|]. apply Rabs_le. lra.
Qed.
(** - expm1 (v) *)
Lemma expm1_neg v t k tau : 0 <= t -> 0 <= k <= / 1000 -> 0 <= tau <= / 1000 -> apxn v t k tau -> computes (dopp (x_expm1 M v)) (1 - exp (- t)) (2 * k + 2 * tau + 4 * q).
Proof.
  intros Ht Hk Htau H. pose proof q_pos as Q. pose proof (exp_pos (- t)) as Et.
  assert (K : forall v, is_finite v = true -> B2R v <= 0 -> Rabs (exp (B2R v) - exp (- t)) <= 2 * k + 2 * tau + q -> computes (dopp (x_expm1 M v)) (1 - exp (- t)) (2 * k + 2 * tau + 4 * q)).
  { clear v H. intros v F N B. destruct (ax_expm1 M HM v F N) as (X & Y & Z). destruct (opp_ok _ X) as (O1 & O2). split; [exact O1|]. rewrite O2. split; [lra|]. replace (/ 2 ^ 51) with (2 * q) in Z by (unfold q; field). pose proof (exp_pos (B2R v)).
    assert (2 * q * (1 - exp (B2R v)) <= 2 * q * 1) by (apply Rmult_le_compat_l; lra). apply Rabs_le_inv in B. apply Rabs_le_inv in Z. apply Rabs_le. lra. }
  destruct H as [(F & N & A)|([-> |(F & N)] & C)].
  - apply K; [exact F|exact N|]. rewrite <- (Ropp_involutive (B2R v)). apply far_back; try assumption; lra.
  - destruct (ax_expm1_minf M HM) as (X & Y). destruct (opp_ok _ X) as (O1 & O2). split; [exact O1|]. rewrite O2, Y. pose proof (exp_tail t ltac:(lra)). split; [lra|]. apply Rabs_le. lra.
  - apply K; [exact F|lra|]. pose proof (exp_tail t ltac:(lra)). pose proof (exp_tail (- B2R v) ltac:(lra)) as Z. rewrite Ropp_involutive in Z. pose proof (exp_pos (B2R v)). apply Rabs_le. lra.
Qed.
(** pow (S, - g) for S close to w >= 1 *)
Definition apx1 (S : double) (w : R) : Prop := (is_finite S = true /\ 1 <= B2R S /\ Rabs (ln (B2R S) - ln w) <= 4 * q) \/ (S = B754_infinity false /\ bpow radix2 900 <= w).
Lemma pow_neg (g S : double) w : shape g -> 1 <= w -> apx1 S w -> computes (m_pow (x_base M) S (dopp g)) (Rpower w (- B2R g)) ((5 + 8 * B2R g) * q).
Proof.
  intros (Fg & Rg) Hw H. pose proof q_pos as Q. destruct (opp_ok g Fg) as (O1 & O2). assert (LW : 0 <= ln w) by (rewrite <- ln_1; apply ln_le; lra). assert (GW : 0 <= B2R g * ln w) by (apply Rmult_le_pos; lra).
  assert (GQ : 0 <= B2R g * q <= 2 ^ 20 * q) by (split; [apply Rmult_le_pos|apply Rmult_le_compat_r]; lra). assert (EW : Rpower w (- B2R g) = exp (- (B2R g * ln w))) by (unfold Rpower; f_equal; ring). rewrite EW. pose proof (exp_pos (- (B2R g * ln w))) as EP.
  destruct H as [(F & S1 & A)|(-> & W)].
  - assert (LS : 0 <= ln (B2R S)) by (rewrite <- ln_1; apply ln_le; lra). assert (GS : 0 <= B2R g * ln (B2R S)) by (apply Rmult_le_pos; lra).
    assert (B : Rabs (B2R g * ln (B2R S) - B2R g * ln w) <= 4 * (B2R g * q)). { rewrite <- Rmult_minus_distr_l, Rabs_mult, (Rabs_pos_eq (B2R g)) by lra. assert (B2R g * Rabs (ln (B2R S) - ln w) <= B2R g * (4 * q)) by (apply Rmult_le_compat_l; lra). lra. }
    assert (C : Rabs (exp (- (B2R g * ln (B2R S))) - exp (- (B2R g * ln w))) <= 8 * (B2R g * q) + q). { replace (8 * (B2R g * q) + q) with (2 * 0 + 2 * (4 * (B2R g * q)) + q) by ring. apply far_back; unfold q in *; lra. } apply Rabs_le_inv in C.
    pose proof (ax_pow_le1 M HM S (dopp g) F O1 S1 ltac:(lra)) as U. destruct (Rle_lt_dec (B2R g * ln (B2R S)) 400) as [G|G].
    + destruct (acc_pow (x_base M) (ax_base M HM) S (dopp g) F O1 ltac:(lra)) as (X & Y); [rewrite O2; apply Rabs_le; lra|]. unfold Rpower in Y. rewrite O2 in Y. replace (- B2R g * ln (B2R S)) with (- (B2R g * ln (B2R S))) in Y by ring. set (z := exp (- (B2R g * ln (B2R S)))) in *.
      assert (Z0 : 0 < z) by apply exp_pos. assert (Z1 : z <= 1) by (unfold z; rewrite <- exp_0; apply exp_le; lra). replace (/ 2 ^ 51) with (2 * q) in Y by (unfold q; field). assert (2 * q * z <= 2 * q * 1) by (apply Rmult_le_compat_l; lra). assert (2 * q * z <= 1 * z) by (apply Rmult_le_compat_r; lra). apply Rabs_le_inv in Y.
      split; [exact X|]. split; [lra|]. apply Rabs_le. lra.
    + destruct (ax_pow_small M HM S (dopp g) F O1 ltac:(lra)) as (X & Y); [rewrite O2; lra|]. assert (/ 2 ^ 100 <= q) by (unfold q; lra). split; [exact X|]. split; [lra|]. pose proof (exp_tail (B2R g * ln (B2R S)) ltac:(lra)). pose proof (exp_pos (- (B2R g * ln (B2R S)))). apply Rabs_le. lra.
  - destruct (ax_pow_inf_neg M HM (dopp g) O1 ltac:(lra)) as (X & Y). split; [exact X|]. rewrite Y. split; [lra|].
    assert (T : 40 <= B2R g * ln w). { assert (LB : 900 * / 2 <= ln w). { apply Rle_trans with (ln (bpow radix2 900)); [|apply ln_le; [apply bpow_gt_0|exact W]]. rewrite ln_bpow. pose proof (ln_lo 2 ltac:(lra)). lra. } apply Rle_trans with (/ 8 * (900 * / 2)); [lra|]. apply Rmult_le_compat; lra. }
    pose proof (exp_tail _ T). apply Rabs_le. lra.
Qed.
End Functions.
