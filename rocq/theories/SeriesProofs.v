(** Proofs about the series algorithms of SeriesModel. *)
From Coq Require Import Reals ZArith Lra Psatz Lia.
From Coquelicot Require Import Coquelicot.
From Verif Require Import ContModel ContProofs GamModel SeriesModel Improper GammaFn BetaFn GamProofs.
Local Open Scope R_scope.

Lemma eps4_val : 0 < eps4 /\ eps4 = / 2 ^ 50.
Proof. unfold eps4, epsilon. split; [apply Rmult_lt_0_compat; [lra|apply Rinv_0_lt_compat, pow_lt; lra]|]. replace (2 ^ 52) with (4 * 2 ^ 50) by ring. field. Qed.

Lemma sum_S (t : nat -> R) n : sum_n t (S n) = sum_n t n + t (S n).
Proof. rewrite sum_Sn. reflexivity. Qed.
Lemma sum_0 (t : nat -> R) : sum_n t 0 = t O.
Proof. rewrite sum_O. reflexivity. Qed.

Lemma sum_scal (t : nat -> R) c n : @eq R (sum_n (fun j => c * t j) n) (c * sum_n t n).
Proof. induction n as [|n IH]; [rewrite !sum_0; reflexivity|]. rewrite !sum_S, IH. match goal with |- @eq _ ?a ?b => change (@eq R a b) end. ring. Qed.

(** ** Tails bounded by a geometric series *)
Lemma tail_bound t rho k (L : R) : 0 <= rho < 1 -> (forall j, (k <= j)%nat -> 0 <= t j) -> (forall j, (k <= j)%nat -> t (S j) <= rho * t j) ->
  is_lim_seq (sum_n t) L -> 0 <= L - sum_n t k <= t k * (rho / (1 - rho)).
Proof.
  intros Hr Hp Hd HL.
  assert (A : forall m, sum_n t k <= sum_n t (k + m) /\ sum_n t (k + m) + t (k + m)%nat * (rho / (1 - rho)) <= sum_n t k + t k * (rho / (1 - rho))).
  { induction m as [|m [IH1 IH2]].
    - rewrite Nat.add_0_r. lra.
    - rewrite Nat.add_succ_r. rewrite sum_S. pose proof (Hp (S (k + m)) ltac:(lia)) as P1. pose proof (Hd (k + m)%nat ltac:(lia)) as D1. split; [lra|].
      assert (E : t (S (k + m)) + t (S (k + m)) * (rho / (1 - rho)) = t (S (k + m)) / (1 - rho)) by (field; lra).
      assert (B : t (S (k + m)) / (1 - rho) <= t (k + m)%nat * (rho / (1 - rho))).
      { replace (t (k + m)%nat * (rho / (1 - rho))) with (rho * t (k + m)%nat / (1 - rho)) by (field; lra). apply Rmult_le_compat_r; [|exact D1].
        left. apply Rinv_0_lt_compat. lra. }
      lra. }
  apply (is_lim_seq_incr_n _ k) in HL.
  assert (P : forall m, 0 <= t (k + m)%nat * (rho / (1 - rho))).
  { intros m. apply Rmult_le_pos; [apply Hp; lia|]. apply Rmult_le_pos; [lra|]. left. apply Rinv_0_lt_compat. lra. }
  split.
  - assert (Rbar_le (sum_n t k) L); [|cbn in *; lra].
    apply (is_lim_seq_le (fun _ => sum_n t k) (fun n => sum_n t (n + k))); [|apply is_lim_seq_const|exact HL].
    intros n. rewrite Nat.add_comm. apply A.
  - assert (Rbar_le L (sum_n t k + t k * (rho / (1 - rho)))); [|cbn in *; lra].
    apply (is_lim_seq_le (fun n => sum_n t (n + k)) (fun _ => sum_n t k + t k * (rho / (1 - rho)))); [|exact HL|apply is_lim_seq_const].
    intros n. rewrite Nat.add_comm. specialize (A n). specialize (P n). lra.
Qed.
Lemma pseries_lim (c : nat -> R) x : Rbar_lt (Rabs x) (CV_radius c) -> is_lim_seq (sum_n (fun n => c n * x ^ n)) (PSeries c x).
Proof.
  intros H. apply CV_radius_inside in H. apply PSeries_correct in H. apply is_pseries_R in H. exact H.
Qed.

(** ** GammaP_ser *)
Definition gt (a x : R) (n : nat) : R := gc a n * x ^ n.
Lemma gt_S a x n : 0 < a -> gt a x (S n) = gt a x n * (x / (a + INR (S n))).
Proof. intros Ha. unfold gt. rewrite gc_S. cbn [pow]. pose proof (pos_INR (S n)). field. lra. Qed.
Lemma gt_pos a x n : 0 < a -> 0 < x -> 0 < gt a x n.
Proof. intros Ha Hx. apply Rmult_lt_0_compat; [apply gc_pos, Ha|apply pow_lt, Hx]. Qed.
Lemma gsum_pos a x n : 0 < a -> 0 < x -> gt a x 0 <= sum_n (gt a x) n.
Proof.
  intros Ha Hx. induction n as [|n IH]; [rewrite sum_0; lra|]. rewrite sum_S. pose proof (gt_pos a x (S n) Ha Hx). lra.
Qed.
Lemma gser_loop_spec a x : 0 < a -> 0 < x -> forall k i, exists j, (i <= j <= i + k)%nat /\ (0 < k -> i < j)%nat /\
  gser_loop k x (gt a x i) (a + INR i) (sum_n (gt a x) i) = sum_n (gt a x) j /\
  (j = (i + k)%nat \/ gt a x j <= eps4 * sum_n (gt a x) j).
Proof.
  intros Ha Hx. induction k as [|k IH]; intros i.
  - exists i. split; [lia|]. split; [lia|]. split; [reflexivity|]. left. lia.
  - cbn [gser_loop]. cbv zeta. replace (a + INR i + 1) with (a + INR (S i)) by (rewrite S_INR; ring). rewrite <- gt_S by exact Ha. rewrite <- sum_S.
    pose proof (gt_pos a x (S i) Ha Hx) as P1. pose proof (gsum_pos a x (S i) Ha Hx) as P2. pose proof (gt_pos a x 0 Ha Hx) as P3.
    rewrite !Rabs_pos_eq by lra. destruct (Rlt_dec (eps4 * sum_n (gt a x) (S i)) (gt a x (S i))) as [H|H].
    + destruct (IH (S i)) as (j & Hj & _ & E & T). exists j. split; [lia|]. split; [lia|]. split; [exact E|].
      destruct T as [T|T]; [left; lia|right; exact T].
    + exists (S i). split; [lia|]. split; [lia|]. split; [reflexivity|]. right. lra.
Qed.
Definition gser_sum (a x : R) : R := gser_loop itmax x (1 / a) a (1 / a).
Lemma gser_sum_spec a x : 0 < a -> 0 < x -> exists j, (1 <= j <= 53)%nat /\ gser_sum a x = sum_n (gt a x) j /\
  (j = 53%nat \/ gt a x j <= eps4 * sum_n (gt a x) j).
Proof.
  intros Ha Hx. destruct (gser_loop_spec a x Ha Hx 53 0) as (j & Hj & Hj' & E & T). exists j. split; [lia|]. split; [|exact T].
  rewrite <- E. unfold gser_sum, itmax. rewrite sum_0. unfold gt. cbn [gc pow]. rewrite Rmult_1_r, Rplus_0_r. replace (1 / a) with (/ a) by (field; lra). reflexivity.
Qed.
Lemma lgam_lim a x : 0 < a -> is_lim_seq (sum_n (gt a x)) (PSeries (gc a) x).
Proof. intros Ha. apply (pseries_lim (gc a) x), gc_conv, Ha. Qed.
(** the remainder after j terms *)
Lemma gser_tail a x j : 0 < a -> 0 < x -> x < a + INR (S j) ->
  0 <= PSeries (gc a) x - sum_n (gt a x) j <= gt a x j * (x / (a + INR (S j) - x)).
Proof.
  intros Ha Hx Hj. pose proof (pos_INR (S j)) as PJ.
  replace (x / (a + INR (S j) - x)) with (x / (a + INR (S j)) / (1 - x / (a + INR (S j)))) by (field; lra).
  apply tail_bound.
  - split; [apply Rlt_le, Rdiv_lt_0_compat; lra|]. apply (Rmult_lt_reg_r (a + INR (S j))); [lra|]. unfold Rdiv. rewrite Rmult_assoc, Rinv_l by lra. lra.
  - intros n _. apply Rlt_le, gt_pos; assumption.
  - intros n Hn. rewrite gt_S by exact Ha. rewrite Rmult_comm. apply Rmult_le_compat_r; [apply Rlt_le, gt_pos; assumption|].
    apply le_n_S, le_INR in Hn. unfold Rdiv. apply Rmult_le_compat_l; [lra|]. apply Rinv_le_contravar; lra.
  - apply lgam_lim, Ha.
Qed.
Lemma gt_dec a x n : 0 < a -> 0 < x -> forall m, (forall i, (n < i <= n + m)%nat -> x <= a + INR i) -> gt a x (n + m) <= gt a x n.
Proof.
  intros Ha Hx. induction m as [|m IH]; intros H; [rewrite Nat.add_0_r; lra|].
  rewrite Nat.add_succ_r, gt_S by exact Ha. specialize (IH ltac:(intros i Hi; apply H; lia)).
  pose proof (H (S (n + m)) ltac:(lia)) as B. pose proof (gt_pos a x (n + m) Ha Hx). pose proof (pos_INR (S (n + m))).
  assert (x / (a + INR (S (n + m))) <= 1); [|nra]. apply (Rmult_le_reg_r (a + INR (S (n + m)))); [lra|]. unfold Rdiv. rewrite Rmult_assoc, Rinv_l by lra. lra.
Qed.
Lemma gt_geo a x r n : 0 < a -> 0 < x -> 0 <= r -> (forall i, (n < i)%nat -> x <= r * (a + INR i)) -> forall m, gt a x (n + m) <= r ^ m * gt a x n.
Proof.
  intros Ha Hx Hr H. induction m as [|m IH]; [rewrite Nat.add_0_r; cbn [pow]; lra|].
  rewrite Nat.add_succ_r, gt_S by exact Ha. pose proof (H (S (n + m)) ltac:(lia)) as B. pose proof (gt_pos a x (n + m) Ha Hx). pose proof (pos_INR (S (n + m))).
  assert (R1 : x / (a + INR (S (n + m))) <= r). { apply (Rmult_le_reg_r (a + INR (S (n + m)))); [lra|]. unfold Rdiv. rewrite Rmult_assoc, Rinv_l by lra. lra. }
  cbn [pow]. apply Rle_trans with (gt a x (n + m) * r); [apply Rmult_le_compat_l; lra|].
  replace (r * r ^ m * gt a x n) with (r ^ m * gt a x n * r) by ring. apply Rmult_le_compat_r; lra.
Qed.
Lemma gt_0 a x : gt a x 0 = / a.
Proof. unfold gt. cbn [gc pow]. ring. Qed.
(** outside the range of the asymptotic expansion the loop stops by its tolerance *)
Definition series_range (a x : R) : Prop := 0 < a /\ 0 < x /\ x < a + 1 /\ (a <= 15 \/ x <= 3 / 10 * a).
Lemma gt_53 a x : series_range a x -> gt a x 53 <= eps4 * gt a x 0.
Proof.
  intros (Ha & Hx & Hx1 & C). destruct eps4_val as (_ & E). rewrite E.
  pose proof (gt_pos a x 0 Ha Hx) as P0. destruct C as [C|C].
  - assert (D : forall (n k : nat) r, 0 <= r -> 16 <= r * (16 + INR n) -> r <= 1 -> gt a x (n + k) <= r ^ k * gt a x n).
    { intros n k r Hr Hn Hr1. apply gt_geo; try assumption. intros i Hi. apply le_INR in Hi. rewrite S_INR in Hi.
      assert (r * (a + INR i) >= r * (a + (INR n + 1))) by (apply Rle_ge, Rmult_le_compat_l; lra).
      assert (a + 1 <= r * (a + (INR n + 1))) by nra. lra. }
    assert (B1 : gt a x 16 <= gt a x 0). { pose proof (D 0%nat 16%nat 1 ltac:(lra) ltac:(cbn [INR]; lra) ltac:(lra)) as K. rewrite pow1 in K. cbn [Nat.add] in K. lra. }
    pose proof (D 16%nat 16%nat (1 / 2) ltac:(lra) ltac:(rewrite INR_IZR_INZ; cbn; lra) ltac:(lra)) as B2.
    pose proof (D 32%nat 16%nat (1 / 3) ltac:(lra) ltac:(rewrite INR_IZR_INZ; cbn; lra) ltac:(lra)) as B3.
    pose proof (D 48%nat 5%nat (1 / 4) ltac:(lra) ltac:(rewrite INR_IZR_INZ; cbn; lra) ltac:(lra)) as B4.
    cbn [Nat.add] in *. pose proof (gt_pos a x 16 Ha Hx). lra.
  - pose proof (gt_geo a x (1 / 2) 0 Ha Hx ltac:(lra) ltac:(intros i _; pose proof (pos_INR i); lra) 53) as B. cbn [Nat.add] in B. lra.
Qed.
Lemma gser_range a x : series_range a x -> 0 <= PSeries (gc a) x - gser_sum a x <= 16 * eps4 * gser_sum a x /\ 0 < gser_sum a x.
Proof.
  intros S0. pose proof S0 as (Ha & Hx & Hx1 & C). pose proof (gt_pos a x 0 Ha Hx) as P0. destruct eps4_val as (Pe & _).
  destruct (gser_sum_spec a x Ha Hx) as (j & Hj & E & T). rewrite E. pose proof (gsum_pos a x j Ha Hx) as PS.
  assert (T1 : gt a x j <= eps4 * sum_n (gt a x) j).
  { destruct T as [->|T]; [|exact T]. apply Rle_trans with (1 := gt_53 a x S0). apply Rmult_le_compat_l; lra. }
  assert (J1 : 1 <= INR j). { change 1 with (INR 1). apply le_INR. lia. }
  assert (B : x / (a + INR (S j) - x) <= 16).
  { rewrite S_INR. apply (Rmult_le_reg_r (a + (INR j + 1) - x)); [lra|]. unfold Rdiv. rewrite Rmult_assoc, Rinv_l by lra. destruct C as [C|C]; nra. }
  pose proof (gser_tail a x j Ha Hx ltac:(rewrite S_INR; lra)) as (L & U). split; [|lra]. split; [exact L|].
  apply Rle_trans with (1 := U). pose proof (gt_pos a x j Ha Hx).
  apply Rle_trans with (gt a x j * 16); [apply Rmult_le_compat_l; lra|]. lra.
Qed.
Lemma pref_lgam a x : 0 < x -> exp (- x + a * ln x) = exp (- x) * Rpower x a.
Proof. intros Hx. rewrite exp_plus. reflexivity. Qed.
Lemma pref_P a x : 0 < a -> 0 < x -> exp (- x + a * ln x - lgamma a) = exp (- x) * Rpower x a / Gam a.
Proof.
  intros Ha Hx. unfold Rminus. rewrite exp_plus, exp_Ropp, exp_lgamma, pref_lgam by assumption. reflexivity.
Qed.
Lemma Gam_2 : Gam 2 = 1.
Proof. replace 2 with (1 + 1) by ring. rewrite Gam_rec, Gam_1 by lra. ring. Qed.
Lemma Gam_ge_1 a : 1 <= a -> 1 <= Gam (a + 1).
Proof.
  intros Ha. assert (H : forall n, a <= 2 + INR n -> 1 <= Gam (a + 1)).
  { intros n. revert a Ha. induction n as [|n IH]; intros a Ha Hn.
    - cbn [INR] in Hn. set (s := a - 1). assert (Hs : 0 <= s <= 1) by (unfold s; lra). replace a with (1 + s) by (unfold s; ring).
      pose proof (Gam_wendel (1 + s) (1 - s) ltac:(lra) ltac:(lra)) as W. replace (1 + s + (1 - s)) with 2 in W by ring. rewrite Gam_2 in W.
      assert (R1 : Rpower (1 + s) (1 - s) <= 1 + s).
      { rewrite <- (Rpower_1 (1 + s)) at 2 by lra. apply Rle_Rpower; lra. }
      rewrite Gam_rec by lra. pose proof (Gam_pos (1 + s) ltac:(lra)). nra.
    - destruct (Rle_dec a 2) as [H2|H2].
      + apply IH; [exact Ha|]. pose proof (pos_INR n). lra.
      + rewrite S_INR in Hn. rewrite Gam_rec by lra. specialize (IH (a - 1) ltac:(lra) ltac:(lra)). replace (a - 1 + 1) with a in IH by ring. nra. }
  destruct (nfloor_ex a ltac:(lra)) as (n & Hn). apply (H n). lra.
Qed.
Lemma Gam_le_1 a : 0 <= a <= 1 -> Gam (a + 1) <= 1.
Proof.
  intros Ha. pose proof (Gam_wendel 1 a ltac:(lra) Ha) as W. rewrite Gam_1 in W. replace (Rpower 1 a) with 1 in W by (unfold Rpower; rewrite ln_1, Rmult_0_r, exp_0; reflexivity).
  rewrite (Rplus_comm a 1). lra.
Qed.
(** the first term below, the exponential series above *)
Lemma lgam_lower a x : 0 < a -> 0 < x -> exp (- x) * Rpower x a / a <= lgam a x.
Proof.
  intros Ha Hx. unfold lgam, Rdiv. apply Rmult_le_compat_l; [apply Rlt_le, Rmult_lt_0_compat; [apply exp_pos|apply Rpower_pos]|].
  assert (K : Rbar_le (/ a) (PSeries (gc a) x)); [|exact K].
  apply (is_lim_seq_le (fun _ => / a) (sum_n (gt a x))); [|apply is_lim_seq_const|apply lgam_lim, Ha].
  intros n. pose proof (gsum_pos a x n Ha Hx). rewrite gt_0 in H. exact H.
Qed.
Lemma lgam_upper a x : 0 < a -> 0 < x <= 1 / 2 -> lgam a x <= 2 * (Rpower x a / a).
Proof.
  intros Ha Hx. unfold lgam. pose proof (gser_tail a x 0 Ha ltac:(lra) ltac:(cbn [INR]; lra)) as (_ & U). rewrite sum_0, gt_0 in U. cbn [INR] in U.
  assert (B : x / (a + 1 - x) <= 1). { apply (Rmult_le_reg_r (a + 1 - x)); [lra|]. unfold Rdiv. rewrite Rmult_assoc, Rinv_l by lra. lra. }
  pose proof (Rinv_0_lt_compat a Ha). assert (S1 : PSeries (gc a) x <= 2 * / a) by nra.
  assert (E1 : exp (- x) <= 1). { rewrite <- exp_0. left. apply exp_increasing. lra. }
  pose proof (Rpower_pos x a) as RP. pose proof (exp_pos (- x)) as EP.
  apply Rle_trans with (exp (- x) * Rpower x a * (2 * / a)); [apply Rmult_le_compat_l; [apply Rlt_le, Rmult_lt_0_compat; assumption|exact S1]|].
  unfold Rdiv. replace (exp (- x) * Rpower x a * (2 * / a)) with (exp (- x) * (2 * (Rpower x a * / a))) by ring.
  rewrite <- (Rmult_1_l (2 * (Rpower x a * / a))) at 2. apply Rmult_le_compat_r; [|exact E1]. pose proof (Rmult_lt_0_compat _ _ RP H). lra.
Qed.
Lemma P_small a x : 1 <= a -> 0 <= x <= 1 / 2 -> 0 <= P a x <= 2 * x.
Proof.
  intros Ha Hx. destruct (Req_dec x 0) as [->|Hx0]; [rewrite P_0 by lra; lra|].
  split; [apply P_range; lra|]. rewrite P_in by lra. pose proof (Gam_ge_1 a Ha) as G. rewrite Gam_rec in G by lra. pose proof (Gam_pos a ltac:(lra)) as GP.
  pose proof (lgam_upper a x ltac:(lra) ltac:(lra)) as U.
  assert (X : Rpower x a <= x).
  { replace x with (Rpower x 1) at 2 by (apply Rpower_1; lra). unfold Rpower. pose proof (ln_neg x ltac:(lra)) as L. destruct (Req_dec a 1) as [->|]; [lra|]. left. apply exp_increasing. nra. }
  apply (Rmult_le_reg_r (Gam a)); [exact GP|]. unfold Rdiv. rewrite Rmult_assoc, Rinv_l, Rmult_1_r by lra.
  apply Rle_trans with (1 := U).
  assert (2 * (Rpower x a / a) <= 2 * (x / a)). { apply Rmult_le_compat_l; [lra|]. apply Rmult_le_compat_r; [|exact X]. apply Rlt_le, Rinv_0_lt_compat. lra. }
  apply Rle_trans with (1 := H). apply (Rmult_le_reg_r a); [lra|]. replace (2 * (x / a) * a) with (2 * x) by (field; lra).
  replace (2 * x * Gam a * a) with (2 * x * (a * Gam a)) by ring. nra.
Qed.

(** ** Beta_I *)

(** 1 = P (1-x) G(P,Q) - (Q-1) x G(P+1,Q-1) *)
Lemma G_rec P Q x : 0 < P -> 0 < P + Q -> 0 < x < 1 ->
  P * (1 - x) * PSeries (bc P Q) x = 1 + (Q - 1) * x * PSeries (bc (P + 1) (Q - 1)) x.
Proof.
  intros HP HQ Hx. pose proof (lbet_edge_g P (Q - 1) x HP ltac:(lra) Hx) as E. replace (Q - 1 + 1) with Q in E by ring. unfold lbet in E.
  rewrite Rpower_plus, Rpower_1 in E by lra. replace Q with (Q - 1 + 1) in E at 2 by ring. rewrite (Rpower_plus (Q - 1) 1 (1 - x)), Rpower_1 in E by lra.
  set (A := Rpower x P) in *. set (B := Rpower (1 - x) (Q - 1)) in *.
  assert (HA : 0 < A) by apply Rpower_pos. assert (HB : 0 < B) by apply Rpower_pos. pose proof (Rmult_lt_0_compat _ _ HA HB).
  apply (Rmult_eq_reg_l (A * B)); [|lra]. replace (A * B * (1 + (Q - 1) * x * PSeries (bc (P + 1) (Q - 1)) x)) with (A * B + (Q - 1) * (A * x * B * PSeries (bc (P + 1) (Q - 1)) x)) by ring.
  rewrite E at 2. ring.
Qed.
Section AS63.
Variables p q x : R.
Variable s : nat.
Hypothesis Hp : 0 < p.
Hypothesis Hq : 0 < q.
Hypothesis Hx : 0 < x < 1.
Hypothesis Hflag : (p + q) * x <= p.
Hypothesis Hs1 : INR s <= q + (1 - x) * (p + q).
Hypothesis Hs2 : q + (1 - x) * (p + q) < INR s + 1.

Definition bnum (k : nat) : R := if Nat.leb k (S s) then q - INR k else p + q + INR (k - S (S s)).
Definition bfac (k : nat) : R := if Nat.leb k s then x / (1 - x) else x.
Definition bpsq (k : nat) : R := p + q + INR (k - S s).
Definition br (k : nat) : R := bnum k * bfac k / (p + INR k).
Fixpoint bt (k : nat) : R := match k with O => 1 | S j => bt j * br k end.

Lemma bt_S k : bt (S k) = bt k * br (S k).
Proof. reflexivity. Qed.
Lemma s_large : 2 * q < INR s + 1.
Proof. nra. Qed.
Lemma odds : x / (1 - x) <= p / q.
Proof. apply (Rmult_le_reg_r ((1 - x) * q)); [nra|]. replace (x / (1 - x) * ((1 - x) * q)) with (x * q) by (field; lra). replace (p / q * ((1 - x) * q)) with (p * (1 - x)) by (field; lra). lra. Qed.
Lemma br_le_s k : (1 <= k <= s)%nat -> br k = (q - INR k) / (p + INR k) * (x / (1 - x)).
Proof.
  intros Hk. unfold br, bnum, bfac. rewrite (proj2 (Nat.leb_le k (S s))), (proj2 (Nat.leb_le k s)) by lia. pose proof (pos_INR k). field. lra.
Qed.
Lemma br_S_s : br (S s) = (q - INR (S s)) / (p + INR (S s)) * x.
Proof.
  unfold br, bnum, bfac. rewrite (proj2 (Nat.leb_le (S s) (S s))), (proj2 (Nat.leb_gt (S s) s)) by lia. pose proof (pos_INR (S s)). field. lra.
Qed.
Lemma br_gt_s n : br (S (S s) + n) = (p + q + INR n) / (p + INR (S (S s) + n)) * x.
Proof.
  unfold br, bnum, bfac. rewrite (proj2 (Nat.leb_gt (S (S s) + n) (S s))), (proj2 (Nat.leb_gt (S (S s) + n) s)) by lia.
  replace (S (S s) + n - S (S s))%nat with n by lia. pose proof (pos_INR (S (S s) + n)). field. lra.
Qed.

(** the exact value of the sum and the remainder after k <= s terms *)
Definition bL : R := p * (1 - x) * PSeries (bc p q) x.
Lemma bL_split k : (k <= s)%nat ->
  bL = sum_n bt k + bt k * ((q - INR k - 1) * x * PSeries (bc (p + INR k + 1) (q - INR k - 1)) x).
Proof.
  induction k as [|k IH]; intros Hk.
  - rewrite sum_0. cbn [bt INR]. unfold bL. rewrite G_rec by lra. replace (p + 0 + 1) with (p + 1) by ring. replace (q - 0 - 1) with (q - 1) by ring. ring.
  - rewrite IH by lia. rewrite sum_S, bt_S, br_le_s by lia. pose proof (pos_INR k) as PK.
    pose proof (G_rec (p + INR k + 1) (q - INR k - 1) x ltac:(lra) ltac:(lra) Hx) as E.
    rewrite S_INR. replace (p + (INR k + 1) + 1) with (p + INR k + 1 + 1) by ring. replace (q - (INR k + 1) - 1) with (q - INR k - 1 - 1) by ring.
    set (A := PSeries (bc (p + INR k + 1) (q - INR k - 1)) x) in *. set (B := PSeries (bc (p + INR k + 1 + 1) (q - INR k - 1 - 1)) x) in *.
    assert (EA : A = (1 + (q - INR k - 1 - 1) * x * B) / ((p + INR k + 1) * (1 - x))) by (rewrite <- E; field; lra).
    rewrite EA. field. lra.
Qed.
Definition bhead : R := bt s * ((q - INR s - 1) * x).
Lemma bt_tail n : bt (S s + n) = bhead * (bc (p + INR s + 1) (q - INR s - 1) n * x ^ n).
Proof.
  pose proof (pos_INR s) as PS. induction n as [|n IH].
  - rewrite Nat.add_0_r, bt_S, br_S_s. unfold bhead. cbn [bc pow]. rewrite S_INR. field. lra.
  - replace (S s + S n)%nat with (S (S s + n)) by lia. rewrite bt_S, IH. change (S (S s + n)) with (S (S s) + n)%nat. rewrite br_gt_s, bc_S. cbn [pow].
    pose proof (pos_INR n). replace (INR (S (S s) + n)) with (INR s + INR n + 2) by (rewrite plus_INR, !S_INR; ring). rewrite S_INR.
    replace (p + INR s + 1 + (q - INR s - 1) + INR n) with (p + q + INR n) by ring. field. lra.
Qed.
Lemma sum_shift (t u : nat -> R) c k n : (forall j, t (S k + j)%nat = c * u j) -> sum_n t (S k + n) = sum_n t k + c * sum_n u n.
Proof.
  intros H. induction n as [|n IH].
  - rewrite Nat.add_0_r, sum_S, sum_0, <- H, Nat.add_0_r. reflexivity.
  - rewrite Nat.add_succ_r, (sum_S t (S k + n)), (sum_S u n), IH, <- Nat.add_succ_r, H. match goal with |- @eq _ ?a ?b => change (@eq R a b) end. ring.
Qed.
Lemma bL_lim : is_lim_seq (sum_n bt) bL.
Proof.
  pose proof (pos_INR s) as PS.
  apply (is_lim_seq_incr_n _ (S s)).
  apply is_lim_seq_ext with (fun n => sum_n bt s + bhead * sum_n (fun j => bc (p + INR s + 1) (q - INR s - 1) j * x ^ j) n).
  { intros n. rewrite Nat.add_comm. symmetry. apply sum_shift, bt_tail. }
  rewrite (bL_split s) by lia.
  replace (bt s * ((q - INR s - 1) * x * PSeries (bc (p + INR s + 1) (q - INR s - 1)) x)) with (bhead * PSeries (bc (p + INR s + 1) (q - INR s - 1)) x) by (unfold bhead; ring).
  apply is_lim_seq_plus'; [apply is_lim_seq_const|].
  apply (is_lim_seq_scal_l _ bhead (PSeries (bc (p + INR s + 1) (q - INR s - 1)) x)).
  apply pseries_lim, bc_conv; lra.
Qed.

(** ratios are at most 1 in absolute value, and at most x after the first s *)
Lemma br_abs k : (1 <= k <= s)%nat -> Rabs (br k) <= 1.
Proof.
  intros Hk. rewrite br_le_s by exact Hk. assert (K1 : 1 <= INR k) by (change 1 with (INR 1); apply le_INR; lia).
  assert (KS : INR k <= INR s) by (apply le_INR; lia).
  pose proof odds as O. assert (0 < x / (1 - x)) by (apply Rdiv_lt_0_compat; lra).
  rewrite Rabs_mult, (Rabs_pos_eq (x / (1 - x))) by lra. unfold Rdiv at 1. rewrite Rabs_mult, (Rabs_pos_eq (/ _)) by (left; apply Rinv_0_lt_compat; lra).
  apply (Rmult_le_reg_r ((p + INR k) * (1 - x))); [nra|].
  replace (Rabs (q - INR k) * / (p + INR k) * (x / (1 - x)) * ((p + INR k) * (1 - x))) with (Rabs (q - INR k) * x) by (field; lra).
  unfold Rabs. destruct (Rcase_abs (q - INR k)) as [C|C]; nra.
Qed.
Lemma br_tail n : 0 <= (if Nat.eqb n 0 then - 1 else 1) * br (S s + n) <= x.
Proof.
  pose proof (pos_INR s) as PS. pose proof s_large as SL. destruct n as [|n]; cbn [Nat.eqb].
  - rewrite Nat.add_0_r, br_S_s, S_INR.
    replace (-1 * ((q - (INR s + 1)) / (p + (INR s + 1)) * x)) with ((INR s + 1 - q) / (p + (INR s + 1)) * x) by (field; lra).
    assert (0 <= (INR s + 1 - q) / (p + (INR s + 1)) <= 1); [|nra].
    split; [apply Rlt_le, Rdiv_lt_0_compat; lra|]. apply (Rmult_le_reg_r (p + (INR s + 1))); [lra|]. unfold Rdiv. rewrite Rmult_assoc, Rinv_l by lra. lra.
  - replace (S s + S n)%nat with (S (S s) + n)%nat by lia. rewrite br_gt_s. pose proof (pos_INR n).
    replace (INR (S (S s) + n)) with (INR s + INR n + 2) by (rewrite plus_INR, !S_INR; ring).
    assert (0 <= (p + q + INR n) / (p + (INR s + INR n + 2)) <= 1); [|nra].
    split; [apply Rlt_le, Rdiv_lt_0_compat; lra|]. apply (Rmult_le_reg_r (p + (INR s + INR n + 2))); [lra|]. unfold Rdiv. rewrite Rmult_assoc, Rinv_l by lra. lra.
Qed.
Lemma br_tail_abs n : Rabs (br (S s + n)) <= x.
Proof.
  pose proof (br_tail n) as B. destruct (Nat.eqb n 0).
  - rewrite Rabs_left1; lra.
  - rewrite Rabs_pos_eq; lra.
Qed.
Lemma bt_le_s k : (k <= s)%nat -> Rabs (bt k) <= 1.
Proof.
  induction k as [|k IH]; intros Hk; [cbn [bt]; rewrite Rabs_R1; lra|]. rewrite bt_S, Rabs_mult. specialize (IH ltac:(lia)). pose proof (br_abs (S k) ltac:(lia)).
  pose proof (Rabs_pos (bt k)). pose proof (Rabs_pos (br (S k))). nra.
Qed.
Lemma bt_gt_s n : Rabs (bt (s + n)) <= x ^ n.
Proof.
  induction n as [|n IH]; [rewrite Nat.add_0_r; cbn [pow]; apply bt_le_s; lia|].
  rewrite Nat.add_succ_r, bt_S, Rabs_mult. cbn [pow]. pose proof (br_tail_abs n) as B. replace (S s + n)%nat with (S (s + n)) in B by lia.
  pose proof (Rabs_pos (bt (s + n))). pose proof (Rabs_pos (br (S (s + n)))). pose proof (pow_lt x n ltac:(lra)). nra.
Qed.

(** the remainder in terms of the last term *)
Definition bK : R := 1 + q + p / q.
Lemma G_bound P Q : 0 < P -> 0 < P + Q -> 0 < PSeries (bc P Q) x.
Proof.
  intros HP HQ. assert (K : Rbar_le (/ P) (PSeries (bc P Q) x)).
  { apply (is_lim_seq_le (fun _ => / P) (sum_n (fun n => bc P Q n * x ^ n))); [|apply is_lim_seq_const|apply pseries_lim, bc_conv; lra].
    induction n as [|n IH]; [rewrite sum_0; cbn [bc pow]; lra|]. rewrite sum_S. pose proof (bc_pos P Q (S n) HP HQ). pose proof (pow_lt x (S n) ltac:(lra)). nra. }
  cbn in K. pose proof (Rinv_0_lt_compat P HP). lra.
Qed.
Lemma G_upper P Q rho : 0 < P -> 0 < P + Q -> 0 <= rho < 1 -> (forall n, (P + Q + INR n) * x <= rho * (P + INR n + 1)) ->
  PSeries (bc P Q) x <= / P / (1 - rho).
Proof.
  intros HP HQ Hr H.
  pose proof (tail_bound (fun n => bc P Q n * x ^ n) rho 0 (PSeries (bc P Q) x) Hr) as T.
  destruct T as (_ & T).
  - intros j _. apply Rlt_le, Rmult_lt_0_compat; [apply bc_pos; assumption|apply pow_lt; lra].
  - intros j _. rewrite bc_S. cbn [pow]. pose proof (H j) as Hj. pose proof (bc_pos P Q j HP HQ) as B. pose proof (pow_lt x j ltac:(lra)) as X. pose proof (pos_INR j).
    rewrite S_INR. replace (bc P Q j * (P + Q + INR j) / (P + (INR j + 1)) * (x * x ^ j)) with (bc P Q j * x ^ j * ((P + Q + INR j) * x / (P + (INR j + 1)))) by (field; lra).
    rewrite (Rmult_comm rho). apply Rmult_le_compat_l; [apply Rlt_le, Rmult_lt_0_compat; assumption|].
    apply (Rmult_le_reg_r (P + (INR j + 1))); [lra|]. unfold Rdiv. rewrite Rmult_assoc, Rinv_l by lra. lra.
  - apply pseries_lim, bc_conv; lra.
  - rewrite sum_0 in T. cbn [bc pow] in T. replace (/ P / (1 - rho)) with (/ P * 1 + / P * 1 * (rho / (1 - rho))) by (field; lra). lra.
Qed.
Lemma brem_s k : (k <= s)%nat -> Rabs ((q - INR k - 1) * x * PSeries (bc (p + INR k + 1) (q - INR k - 1)) x) <= bK.
Proof.
  intros Hk. pose proof (pos_INR k) as PK. assert (KS : INR k <= INR s) by (apply le_INR; lia).
  set (Pk := p + INR k + 1). assert (HP : 0 < Pk) by (unfold Pk; lra). assert (HPQ : Pk + (q - INR k - 1) = p + q) by (unfold Pk; ring).
  pose proof (G_bound Pk (q - INR k - 1) HP ltac:(lra)) as G0. set (G := PSeries (bc Pk (q - INR k - 1)) x) in *.
  pose proof odds as O. assert (O0 : 0 < x / (1 - x)) by (apply Rdiv_lt_0_compat; lra).
  rewrite !Rabs_mult, (Rabs_pos_eq x), (Rabs_pos_eq G) by lra.
  assert (Q1 : 0 < / q) by (apply Rinv_0_lt_compat, Hq).
  assert (KQ : bK = 1 + q + p / q) by reflexivity.
  assert (PQ : 0 < p / q) by (apply Rdiv_lt_0_compat; lra).
  destruct (Rle_dec q (INR k + 2)) as [C|C].
  - assert (GU : G <= / Pk / (1 - x)).
    { apply G_upper; try lra. intros n. rewrite HPQ. pose proof (pos_INR n). unfold Pk. nra. }
    assert (A : Rabs (q - INR k - 1) <= 1 + (1 - x) * (p + q)) by (unfold Rabs; destruct (Rcase_abs (q - INR k - 1)); nra).
    apply Rle_trans with ((1 + (1 - x) * (p + q)) * x * (/ Pk / (1 - x))).
    { apply Rmult_le_compat; [apply Rmult_le_pos; [apply Rabs_pos|lra]|lra|apply Rmult_le_compat_r; lra|exact GU]. }
    replace ((1 + (1 - x) * (p + q)) * x * (/ Pk / (1 - x))) with (x / (1 - x) * / Pk + (p + q) * x * / Pk) by (field; lra).
    assert (B1 : p * / Pk <= 1). { apply (Rmult_le_reg_r Pk); [exact HP|]. rewrite Rmult_assoc, Rinv_l by lra. unfold Pk. lra. }
    assert (IP : 0 < / Pk) by (apply Rinv_0_lt_compat, HP).
    assert (B2 : x / (1 - x) * / Pk <= p / q).
    { apply Rle_trans with (p / q * / Pk); [apply Rmult_le_compat_r; lra|]. assert (/ Pk <= 1); [|nra].
      rewrite <- Rinv_1. apply Rinv_le_contravar; unfold Pk; lra. }
    assert (B3 : (p + q) * x * / Pk <= 1). { apply Rle_trans with (p * / Pk); [apply Rmult_le_compat_r; lra|exact B1]. }
    lra.
  - assert (R0 : 0 <= p / (Pk + 1) < 1).
    { split; [apply Rlt_le, Rdiv_lt_0_compat; lra|]. apply (Rmult_lt_reg_r (Pk + 1)); [lra|]. unfold Rdiv. rewrite Rmult_assoc, Rinv_l by lra. unfold Pk. lra. }
    assert (GU : G <= / Pk / (1 - p / (Pk + 1))).
    { apply G_upper; try lra. intros n. rewrite HPQ. pose proof (pos_INR n).
      apply (Rmult_le_reg_r (Pk + 1)); [lra|]. replace (p / (Pk + 1) * (Pk + INR n + 1) * (Pk + 1)) with (p * (Pk + INR n + 1)) by (field; lra).
      apply Rle_trans with ((p + q) * x * (Pk + 1) + INR n * x * (Pk + 1)); [lra|].
      assert (x * (Pk + 1) <= p); [|nra].
      assert (Pk + 1 <= p + q) by (unfold Pk; lra). nra. }
    rewrite Rabs_pos_eq by lra. apply Rle_trans with (q * x * (/ Pk / (1 - p / (Pk + 1)))).
    { apply Rmult_le_compat; [apply Rmult_le_pos; lra|lra|apply Rmult_le_compat_r; lra|exact GU]. }
    replace (q * x * (/ Pk / (1 - p / (Pk + 1)))) with (q * x * ((Pk + 1) / (Pk * (Pk + 1 - p)))) by (field; unfold Pk in *; lra).
    assert (F : (Pk + 1) / (Pk * (Pk + 1 - p)) <= 1).
    { assert (0 < Pk * (Pk + 1 - p)) by (unfold Pk; nra). apply (Rmult_le_reg_r (Pk * (Pk + 1 - p))); [assumption|]. unfold Rdiv. rewrite Rmult_assoc, Rinv_l by lra. unfold Pk. nra. }
    assert (0 < q * x) by nra. nra.
Qed.
Lemma bt_sign n : exists sg, (sg = 1 \/ sg = -1) /\ forall j, (n <= j)%nat -> 0 <= sg * bt (S s + j).
Proof.
  assert (Hh : bhead = Rabs bhead * (if Rcase_abs bhead then -1 else 1)).
  { unfold Rabs. destruct (Rcase_abs bhead); ring. }
  exists (if Rcase_abs bhead then -1 else 1). split; [destruct (Rcase_abs bhead); auto|]. intros j _. rewrite bt_tail. pose proof (pos_INR s).
  pose proof (bc_pos (p + INR s + 1) (q - INR s - 1) j ltac:(lra) ltac:(lra)). pose proof (pow_lt x j ltac:(lra)). pose proof (Rmult_lt_0_compat _ _ H0 H1).
  destruct (Rcase_abs bhead); nra.
Qed.
Lemma brem k : Rabs (bL - sum_n bt k) <= Rabs (bt k) * bK.
Proof.
  destruct (le_lt_dec k s) as [Hk|Hk].
  - rewrite (bL_split k) at 1 by exact Hk. replace (sum_n bt k + bt k * ((q - INR k - 1) * x * PSeries (bc (p + INR k + 1) (q - INR k - 1)) x) - sum_n bt k) with (bt k * ((q - INR k - 1) * x * PSeries (bc (p + INR k + 1) (q - INR k - 1)) x)) by ring.
    rewrite Rabs_mult. apply Rmult_le_compat_l; [apply Rabs_pos|]. apply brem_s, Hk.
  - destruct (bt_sign 0) as (sg & Hsg & Hpos).
    assert (Q1 : 0 < / q) by (apply Rinv_0_lt_compat, Hq). pose proof odds as O.
    assert (KQ : x / (1 - x) <= bK). { unfold bK. lra. }
    assert (SP : forall j, (k <= j)%nat -> 0 <= sg * bt j).
    { intros j Hj. replace j with (S s + (j - S s))%nat by lia. apply Hpos. lia. }
    pose proof (tail_bound (fun j => sg * bt j) x k (sg * bL) ltac:(lra) SP) as T.
    destruct T as (T1 & T2).
    + intros j Hj. rewrite bt_S. pose proof (br_tail (j - s)) as B. replace (S s + (j - s))%nat with (S j) in B by lia.
      destruct (Nat.eqb_spec (j - s) 0) as [Z|Z]; [lia|]. pose proof (SP j Hj). nra.
    + apply is_lim_seq_ext with (fun n => sg * sum_n bt n).
      * intros n. symmetry. apply sum_scal.
      * apply (is_lim_seq_scal_l _ sg bL), bL_lim.
    + rewrite sum_scal in T1, T2. replace (sg * bL - sg * sum_n bt k) with (sg * (bL - sum_n bt k)) in T1, T2 by ring.
      assert (AB : forall z, 0 <= sg * z -> Rabs z = sg * z). { intros z Hz. destruct Hsg as [-> | ->]; [rewrite Rabs_pos_eq; lra|rewrite Rabs_left1; lra]. }
      rewrite (AB _ T1), (AB _ (SP k ltac:(lia))). apply Rle_trans with (1 := T2). apply Rmult_le_compat_l; [apply SP; lia|exact KQ].
Qed.
Lemma bL_pos : 1 - x <= bL.
Proof.
  unfold bL. assert (K : Rbar_le (/ p) (PSeries (bc p q) x)).
  { apply (is_lim_seq_le (fun _ => / p) (sum_n (fun n => bc p q n * x ^ n))); [|apply is_lim_seq_const|apply pseries_lim, bc_conv; lra].
    induction n as [|n IH]; [rewrite sum_0; cbn [bc pow]; lra|]. rewrite sum_S. pose proof (bc_pos p q (S n) Hp ltac:(lra)). pose proof (pow_lt x (S n) ltac:(lra)). nra. }
  cbn in K. apply Rle_trans with (p * (1 - x) * / p); [right; field; lra|]. apply Rmult_le_compat_l; [nra|exact K].
Qed.

(** the loop *)
Definition stop (n : nat) : Prop := Rabs (bt n) <= eps4 /\ Rabs (bt n) <= eps4 * sum_n bt n.
Definition loop_at (fuel k : nat) : bres :=
  beta_loop fuel x p q (bt k) (INR (S k)) (sum_n bt k) (bfac (S k)) (bnum (S k)) (Z.of_nat s - Z.of_nat k) (bpsq (S k)).
Lemma loop_step fuel k :
  (if Z.leb 0 (Z.of_nat s - Z.of_nat k - 1)
   then beta_loop fuel x p q (bt (S k)) (INR (S k) + 1) (sum_n bt (S k)) (if Z.eqb (Z.of_nat s - Z.of_nat k - 1) 0 then x else bfac (S k))
          (q - (INR (S k) + 1)) (Z.of_nat s - Z.of_nat k - 1) (bpsq (S k))
   else beta_loop fuel x p q (bt (S k)) (INR (S k) + 1) (sum_n bt (S k)) (bfac (S k)) (bpsq (S k)) (Z.of_nat s - Z.of_nat k - 1) (bpsq (S k) + 1))
  = loop_at fuel (S k).
Proof.
  unfold loop_at. rewrite <- (S_INR (S k)). replace (Z.of_nat s - Z.of_nat k - 1)%Z with (Z.of_nat s - Z.of_nat (S k))%Z by lia.
  destruct (Z.leb_spec 0 (Z.of_nat s - Z.of_nat (S k))) as [L|L].
  - assert (E1 : (if (Z.of_nat s - Z.of_nat (S k) =? 0)%Z then x else bfac (S k)) = bfac (S (S k))).
    { unfold bfac. destruct (Z.eqb_spec (Z.of_nat s - Z.of_nat (S k)) 0) as [Z0|Z0].
      - rewrite (proj2 (Nat.leb_gt (S (S k)) s)) by lia. reflexivity.
      - rewrite (proj2 (Nat.leb_le (S k) s)), (proj2 (Nat.leb_le (S (S k)) s)) by lia. reflexivity. }
    assert (E2 : bnum (S (S k)) = q - INR (S (S k))).
    { unfold bnum. rewrite (proj2 (Nat.leb_le (S (S k)) (S s))) by lia. reflexivity. }
    assert (E3 : bpsq (S k) = bpsq (S (S k))).
    { unfold bpsq. replace (S (S k) - S s)%nat with 0%nat by lia. replace (S k - S s)%nat with 0%nat by lia. reflexivity. }
    rewrite E1, E2, E3. reflexivity.
  - assert (E1 : bfac (S (S k)) = bfac (S k)).
    { unfold bfac. rewrite (proj2 (Nat.leb_gt (S k) s)), (proj2 (Nat.leb_gt (S (S k)) s)) by lia. reflexivity. }
    assert (E2 : bnum (S (S k)) = bpsq (S k)).
    { unfold bnum. rewrite (proj2 (Nat.leb_gt (S (S k)) (S s))) by lia. reflexivity. }
    assert (E3 : bpsq (S (S k)) = bpsq (S k) + 1).
    { unfold bpsq. replace (S (S k) - S s)%nat with (S (S k - S s)) by lia. rewrite S_INR. ring. }
    rewrite E1, E2, E3. reflexivity.
Qed.
Lemma loop_spec fuel : forall k, (Z.of_nat k <= Z.of_nat s + 2 ^ 31)%Z ->
  (exists n, (k < n <= k + fuel)%nat /\ stop n /\ (forall j, (k < j < n)%nat -> ~ stop j) /\ (Z.of_nat n <= Z.of_nat s + 2 ^ 31 + 1)%Z /\ loop_at fuel k = BVal (sum_n bt n)) \/
  (loop_at fuel k = BFuel /\ (forall j, (k < j <= k + fuel)%nat -> ~ stop j) /\ (Z.of_nat (k + fuel) <= Z.of_nat s + 2 ^ 31)%Z) \/
  (loop_at fuel k = BUndefined /\ forall j, (k < j)%nat -> (Z.of_nat j <= Z.of_nat s + 2 ^ 31 + 1)%Z -> ~ stop j).
Proof.
  induction fuel as [|fuel IH]; intros k Hk.
  - right. left. split; [reflexivity|]. split; [intros j Hj; lia|]. rewrite Nat.add_0_r. exact Hk.
  - unfold loop_at. cbn [beta_loop]. cbv zeta.
    change (bt k * (bnum (S k) * bfac (S k) / (p + INR (S k)))) with (bt (S k)). rewrite <- (sum_S bt k).
    destruct (Rle_dec (Rabs (bt (S k))) eps4) as [T1|T1].
    1: destruct (Rle_dec (Rabs (bt (S k))) (eps4 * sum_n bt (S k))) as [T2|T2].
    { left. exists (S k). split; [lia|]. split; [split; assumption|]. split; [intros j Hj; lia|]. split; [lia|reflexivity]. }
    all: assert (NS : ~ stop (S k)) by (intros [A B]; contradiction).
    all: destruct (Z.eqb_spec (Z.of_nat s - Z.of_nat k) (- 2 ^ 31)) as [Z1|Z1].
    1, 3: right; right; split; [reflexivity|]; intros j Hj1 Hj2; replace j with (S k) by lia; exact NS.
    all: rewrite loop_step; destruct (IH (S k) ltac:(lia)) as [(n & H1 & H2 & H3 & H4 & H5)|[(H1 & H2 & H3)|(H1 & H2)]].
    1, 4: left; exists n; split; [lia|]; split; [exact H2|]; split; [intros j Hj; destruct (Nat.eq_dec j (S k)) as [->|]; [exact NS|apply H3; lia]|]; split; [exact H4|exact H5].
    1, 3: right; left; split; [exact H1|]; split; [intros j Hj; destruct (Nat.eq_dec j (S k)) as [->|]; [exact NS|apply H2; lia]|lia].
    all: right; right; split; [exact H1|]; intros j Hj1 Hj2; destruct (Nat.eq_dec j (S k)) as [->|]; [exact NS|apply H2; lia].
Qed.
Lemma loop_start fuel : loop_at fuel 0 = beta_loop fuel x p q 1 1 1 (if Z.eqb (Z.of_nat s) 0 then x else x / (1 - x)) (q - 1) (Z.of_nat s) (p + q).
Proof.
  unfold loop_at. rewrite sum_0. cbn [bt INR]. change (Z.of_nat 0) with 0%Z. rewrite Z.sub_0_r. f_equal.
  - unfold bfac. destruct (Z.eqb_spec (Z.of_nat s) 0) as [Z0|Z0]; [rewrite (proj2 (Nat.leb_gt 1 s)) by lia; reflexivity|rewrite (proj2 (Nat.leb_le 1 s)) by lia; reflexivity].
  - unfold bpsq. replace (1 - S s)%nat with 0%nat by lia. cbn [INR]. ring.
Qed.
End AS63.
Lemma floor_nat r : 0 <= r -> exists s, Int_part r = Z.of_nat s /\ INR s <= r /\ r < INR s + 1.
Proof.
  intros Hr. destruct (base_Int_part r) as [B1 B2].
  assert (H : (0 <= Int_part r)%Z). { assert (IZR (-1) < IZR (Int_part r)) by (cbn; lra). apply lt_IZR in H. lia. }
  exists (Z.to_nat (Int_part r)). rewrite INR_IZR_INZ, Z2Nat.id by exact H. split; [reflexivity|]. lra.
Qed.
Lemma pref_beta p q x w : 0 < p -> 0 < x < 1 -> 0 < w ->
  exp (p * ln x + (q - 1) * ln (1 - x)) / p / w * bL p q x = lbet p q x / w /\ 0 < exp (p * ln x + (q - 1) * ln (1 - x)) / p / w.
Proof.
  intros Hp Hx Hw. split; [|apply Rdiv_lt_0_compat; [apply Rdiv_lt_0_compat; [apply exp_pos|exact Hp]|exact Hw]].
  unfold bL, lbet. rewrite exp_plus. fold (Rpower x p). fold (Rpower (1 - x) (q - 1)).
  replace q with (q - 1 + 1) at 3 by ring. rewrite (Rpower_plus (q - 1) 1 (1 - x)), Rpower_1 by lra. field. lra.
Qed.
(** beta_core in terms of the loop *)
Lemma core_loop fuel x p q w : 0 < p -> 0 < q -> 0 < x < 1 -> exists s, INR s <= q + (1 - x) * (p + q) /\ q + (1 - x) * (p + q) < INR s + 1 /\
  beta_core fuel x (1 - x) p q w =
  if Z.leb (2 ^ 31) (Z.of_nat s) then BUndefined
  else match loop_at p q x s fuel 0 with BVal y => BVal (y * (exp (p * ln x + (q - 1) * ln (1 - x)) / p / w)) | r => r end.
Proof.
  intros Hp Hq Hx. destruct (floor_nat (q + (1 - x) * (p + q)) ltac:(nra)) as (s & E & L & U). exists s. split; [exact L|]. split; [exact U|].
  unfold beta_core. rewrite E, loop_start. cbv zeta. destruct (Z.leb (2 ^ 31) (Z.of_nat s)); [reflexivity|].
  destruct (beta_loop fuel x p q 1 1 1 _ (q - 1) (Z.of_nat s) (p + q)); try reflexivity. destruct (Req_EM_T x 0); [lra|reflexivity].
Qed.
Lemma core_value fuel x p q w r : 0 < p -> 0 < q -> 0 < x < 1 -> (p + q) * x <= p -> 0 < w ->
  beta_core fuel x (1 - x) p q w = BVal r -> Rabs (lbet p q x / w - r) <= eps4 * bK p q * r.
Proof.
  intros Hp Hq Hx Hf Hw H. destruct (core_loop fuel x p q w Hp Hq Hx) as (s & L & U & E). rewrite E in H.
  destruct (Z.leb (2 ^ 31) (Z.of_nat s)); [discriminate H|].
  destruct (loop_spec p q x s fuel 0 ltac:(lia)) as [(n & _ & ST & _ & _ & EL)|[(EL & _)|(EL & _)]]; rewrite EL in H; [|discriminate H|discriminate H].
  destruct (pref_beta p q x w Hp Hx Hw) as (E1 & P1). set (c := exp (p * ln x + (q - 1) * ln (1 - x)) / p / w) in *.
  assert (Er : r = sum_n (bt p q x s) n * c) by (injection H; auto). rewrite <- E1, Er.
  pose proof (brem p q x s Hp Hq Hx Hf L U n) as B. destruct ST as (_ & ST).
  replace (c * bL p q x - sum_n (bt p q x s) n * c) with (c * (bL p q x - sum_n (bt p q x s) n)) by ring.
  rewrite Rabs_mult, (Rabs_pos_eq c) by lra.
  assert (K0 : 0 <= bK p q). { unfold bK. assert (0 < p / q) by (apply Rdiv_lt_0_compat; lra). lra. }
  apply Rle_trans with (c * (eps4 * sum_n (bt p q x s) n * bK p q)); [|right; ring].
  apply Rmult_le_compat_l; [lra|]. apply Rle_trans with (1 := B). apply Rmult_le_compat_r; [exact K0|exact ST].
Qed.
Lemma bernoulli h n : 0 <= h <= 1 -> 1 - INR n * h <= (1 - h) ^ n.
Proof.
  intros Hh. induction n as [|n IH]; [cbn [INR pow]; lra|]. rewrite S_INR. cbn [pow]. pose proof (pos_INR n).
  assert ((1 - h) * (1 - INR n * h) <= (1 - h) * (1 - h) ^ n) by (apply Rmult_le_compat_l; lra). assert (0 <= INR n * h * h) by (apply Rmult_le_pos; [apply Rmult_le_pos|]; lra). lra.
Qed.
Lemma pow_small h n : 0 < h < 1 -> 1 <= INR n * h -> (1 - h) ^ n <= 1 / 2.
Proof.
  intros Hh Hn. pose proof (poly n h ltac:(lra)) as B.
  assert (Q : (1 - h) ^ n * (1 + h) ^ n <= 1). { rewrite <- Rpow_mult_distr. apply Rle_trans with (1 ^ n); [apply pow_incr; split; nra|rewrite pow1; lra]. }
  pose proof (pow_lt (1 - h) n ltac:(lra)). nra.
Qed.
Lemma stop_exists p q x s : 0 < p -> 0 < q -> 0 < x < 1 -> (p + q) * x <= p -> INR s <= q + (1 - x) * (p + q) -> q + (1 - x) * (p + q) < INR s + 1 ->
  p + q <= 2 ^ 30 -> p + q <= 2 ^ 20 * q -> exists n, (Z.of_nat n <= Z.of_nat s + 2 ^ 31)%Z /\ (0 < n)%nat /\ stop p q x s n.
Proof.
  intros Hp Hq Hx Hf L U H1 H2. destruct eps4_val as (Pe & Ee).
  assert (HN : exists N, Z.of_nat N = (2 ^ 20)%Z) by (exists (Z.to_nat (2 ^ 20)); apply Z2Nat.id; lia). destruct HN as (N & HN).
  assert (X1 : x <= 1 - / 2 ^ 20).
  { apply (Rmult_le_reg_l (p + q)); [lra|]. apply Rle_trans with (1 := Hf). replace ((p + q) * (1 - / 2 ^ 20)) with (p + (q - (p + q) / 2 ^ 20)) by (field; lra).
    assert ((p + q) / 2 ^ 20 <= q); [|lra]. apply (Rmult_le_reg_r (2 ^ 20)); [lra|]. unfold Rdiv. rewrite Rmult_assoc, Rinv_l by lra. lra. }
  assert (XN : x ^ (N * 200) <= (1 / 2) ^ 200).
  { rewrite pow_mult. apply pow_incr. split; [apply pow_le; lra|]. apply Rle_trans with ((1 - / 2 ^ 20) ^ N); [apply pow_incr; lra|].
    apply pow_small; [lra|]. rewrite INR_IZR_INZ, HN. cbn. lra. }
  exists (s + N * 200)%nat. split; [lia|]. split; [lia|].
  pose proof (bt_gt_s p q x s Hp Hq Hx Hf L U (N * 200)) as B. set (n := (s + N * 200)%nat) in *.
  pose proof (brem p q x s Hp Hq Hx Hf L U n) as R0. pose proof (bL_pos p q x Hp Hq Hx) as LP.
  pose proof (Rabs_pos (bt p q x s n)) as AP.
  assert (K1 : 0 <= bK p q <= 2 ^ 32).
  { unfold bK. assert (0 < p / q) by (apply Rdiv_lt_0_compat; lra).
    assert (p / q <= 2 ^ 20); [|lra]. apply (Rmult_le_reg_r q); [lra|]. unfold Rdiv. rewrite Rmult_assoc, Rinv_l by lra. lra. }
  assert (T : Rabs (bt p q x s n) <= (1 / 2) ^ 200) by lra.
  assert (YL : (1 - x) / 2 <= sum_n (bt p q x s) n).
  { assert (Rabs (bt p q x s n) * bK p q <= (1 / 2) ^ 200 * 2 ^ 32) by (apply Rmult_le_compat; lra).
    assert (Rabs (bL p q x - sum_n (bt p q x s) n) <= (1 - x) / 2) by lra. apply Rabs_le_between in H0. lra. }
  split; [rewrite Ee; lra|]. apply Rle_trans with (eps4 * ((1 - x) / 2)); [rewrite Ee; lra|]. apply Rmult_le_compat_l; lra.
Qed.
Lemma loop_defined p q x s : 0 < p -> 0 < q -> 0 < x < 1 -> (p + q) * x <= p -> INR s <= q + (1 - x) * (p + q) -> q + (1 - x) * (p + q) < INR s + 1 ->
  p + q <= 2 ^ 30 -> p + q <= 2 ^ 20 * q -> exists fuel y, forall f, (fuel <= f)%nat -> loop_at p q x s f 0 = BVal y.
Proof.
  intros Hp Hq Hx Hf L U H1 H2. destruct (stop_exists p q x s Hp Hq Hx Hf L U H1 H2) as (N & HN & N0 & ST).
  assert (A : forall f, (N <= f)%nat -> exists n, (0 < n <= f)%nat /\ stop p q x s n /\ (forall j, (0 < j < n)%nat -> ~ stop p q x s j) /\ loop_at p q x s f 0 = BVal (sum_n (bt p q x s) n)).
  { intros f Hn. destruct (loop_spec p q x s f 0 ltac:(lia)) as [(n & n1 & n2 & n3 & n4 & n5)|[(n1 & n2 & n3)|(n1 & n2)]].
    - exists n. split; [lia|]. auto.
    - exfalso. apply (n2 N); [lia|exact ST].
    - exfalso. apply (n2 N); [lia|lia|exact ST]. }
  destruct (A N (Nat.le_refl N)) as (n & a1 & a2 & a3 & a4). exists N, (sum_n (bt p q x s) n). intros f Hn.
  destruct (A f Hn) as (m & b1 & b2 & b3 & b4). rewrite b4.
  destruct (Nat.lt_trichotomy n m) as [C|[->|C]]; [exfalso; apply (b3 n); [lia|exact a2]|reflexivity|exfalso; apply (a3 m); [lia|exact b2]].
Qed.
Lemma core_defined p q x w : 0 < p -> 0 < q -> 0 < x < 1 -> (p + q) * x <= p -> p + q <= 2 ^ 30 -> p + q <= 2 ^ 20 * q ->
  exists fuel y, forall f, (fuel <= f)%nat -> beta_core f x (1 - x) p q w = BVal y.
Proof.
  intros Hp Hq Hx Hf H1 H2. destruct (core_loop 0 x p q w Hp Hq Hx) as (s & L & U & _).
  destruct (loop_defined p q x s Hp Hq Hx Hf L U H1 H2) as (fuel & y & A).
  exists fuel, (y * (exp (p * ln x + (q - 1) * ln (1 - x)) / p / w)). intros f Hn.
  destruct (core_loop f x p q w Hp Hq Hx) as (s' & L' & U' & E).
  assert (ES : s' = s).
  { assert (INR s' < INR (S s)) by (rewrite S_INR; lra). assert (INR s < INR (S s')) by (rewrite S_INR; lra). apply INR_lt in H. apply INR_lt in H0. lia. }
  subst s'. rewrite E, (A f Hn). destruct (Z.leb_spec (2 ^ 31) (Z.of_nat s)) as [C|C]; [|reflexivity].
  exfalso. apply IZR_le in C. rewrite <- INR_IZR_INZ in C. cbn in C. nra.
Qed.
(** the ends *)
Lemma core_0 fuel p q w : 0 < p -> 0 < q -> 2 * q + p < 2 ^ 31 -> beta_core (S fuel) 0 1 p q w = BVal 0.
Proof.
  intros Hp Hq H. destruct (floor_nat (q + 1 * (p + q)) ltac:(lra)) as (s & E & L & U). unfold beta_core. rewrite E. cbv zeta.
  destruct (Z.leb_spec (2 ^ 31) (Z.of_nat s)) as [C|C].
  { exfalso. apply IZR_le in C. rewrite <- INR_IZR_INZ in C. cbn in C. lra. }
  assert (R0 : (if Z.eqb (Z.of_nat s) 0 then 0 else 0 / 1) = 0) by (destruct (Z.eqb (Z.of_nat s) 0); [reflexivity|field]). rewrite R0.
  cbn [beta_loop]. cbv zeta. replace (1 * ((q - 1) * 0 / (p + 1))) with 0 by (field; lra). rewrite Rabs_R0, Rplus_0_r.
  destruct eps4_val as (Pe & _). destruct (Rle_dec 0 eps4); [|lra]. destruct (Rle_dec 0 (eps4 * 1)); [|lra]. destruct (Req_EM_T 0 0); [reflexivity|lra].
Qed.
(** p = 2^29, q = 1/2, x = 1 - 2^-30: after 2^31 steps the terms are still larger than the tolerance *)
Definition p29 : R := 2 ^ 29.
Definition x30 : R := 1 - / 2 ^ 30.
Notation b29 := (bt p29 (1 / 2) x30 1).
Lemma b29_1 : - 1 <= b29 1 <= - (99 / 100).
Proof.
  rewrite bt_S. cbn [bt]. rewrite br_le_s; [|unfold p29; lra|unfold x30; lra|lia]. cbn [INR]. unfold p29, x30. 
  replace (1 * ((1 / 2 - 1) / (2 ^ 29 + 1) * ((1 - / 2 ^ 30) / (1 - (1 - / 2 ^ 30))))) with (- (1 / 2) * (2 ^ 30 - 1) / (2 ^ 29 + 1)) by (field; lra). lra.
Qed.
Lemma b29_2 : / 2 ^ 29 <= b29 2.
Proof.
  pose proof b29_1 as B. rewrite (bt_S _ _ _ _ 1). change 2%nat with (S 1). rewrite br_S_s by (unfold p29, x30; lra). rewrite S_INR. cbn [INR]. unfold x30, p29 in *.
  set (b := bt (2 ^ 29) (1 / 2) (1 - / 2 ^ 30) 1 1) in *.
  assert (K : (1 / 2 - (1 + 1)) / (2 ^ 29 + (1 + 1)) * (1 - / 2 ^ 30) <= - (11 / 10) / 2 ^ 29) by lra. set (c := (1 / 2 - (1 + 1)) / (2 ^ 29 + (1 + 1)) * (1 - / 2 ^ 30)) in *.
  nra.
Qed.
Lemma b29_slow n : b29 2 * (p29 * (p29 + 1) * (p29 + 2)) * x30 ^ n <= b29 (2 + n) * ((p29 + INR n) * (p29 + INR n + 1) * (p29 + INR n + 2)) /\ 0 < b29 (2 + n).
Proof.
  induction n as [|n [IH P0]].
  - cbn [pow INR Nat.add]. pose proof b29_2. split; [|lra]. right. ring.
  - rewrite Nat.add_succ_r, (bt_S _ _ _ _ (2 + n)). change (S (2 + n)) with (3 + n)%nat. pose proof (br_gt_s p29 (1 / 2) x30 1 ltac:(unfold p29; lra) n) as EB. change (S (S 1) + n)%nat with (3 + n)%nat in EB. rewrite EB. cbn [pow].
    pose proof (pos_INR n) as PN. assert (P1 : 0 < p29) by (unfold p29; lra). assert (X1 : 0 < x30) by (unfold x30; lra).
    rewrite S_INR. replace (INR (3 + n)) with (INR n + 3) by (rewrite plus_INR; cbn [INR]; ring).
    split.
    + replace (b29 2 * (p29 * (p29 + 1) * (p29 + 2)) * (x30 * x30 ^ n)) with (b29 2 * (p29 * (p29 + 1) * (p29 + 2)) * x30 ^ n * x30) by ring.
      replace (b29 (2 + n) * ((p29 + 1 / 2 + INR n) / (p29 + (INR n + 3)) * x30) * ((p29 + (INR n + 1)) * (p29 + (INR n + 1) + 1) * (p29 + (INR n + 1) + 2)))
        with (b29 (2 + n) * ((p29 + 1 / 2 + INR n) * (p29 + INR n + 1) * (p29 + INR n + 2)) * x30) by (field; lra).
      apply Rmult_le_compat_r; [lra|]. apply Rle_trans with (1 := IH). apply Rmult_le_compat_l; [lra|].
      apply Rmult_le_compat_r; [lra|]. apply Rmult_le_compat_r; lra.
    + apply Rmult_lt_0_compat; [exact P0|]. apply Rmult_lt_0_compat; [apply Rdiv_lt_0_compat; lra|exact X1].
Qed.
Lemma b29_large n : (Z.of_nat n <= 2 ^ 31 + 1)%Z -> eps4 < b29 (2 + n).
Proof.
  intros Hn. assert (HN : exists N, Z.of_nat N = (2 ^ 29)%Z) by (exists (Z.to_nat (2 ^ 29)); apply Z2Nat.id; lia). destruct HN as (N & HN).
  assert (XN : (1 / 2) ^ 5 <= x30 ^ n).
  { apply Rle_trans with (x30 ^ (N * 5)).
    - rewrite pow_mult. apply pow_incr. split; [lra|]. unfold x30.
      pose proof (bernoulli (/ 2 ^ 30) N ltac:(lra)) as K.
      rewrite INR_IZR_INZ, HN in K. change (IZR (2 ^ 29)) with 536870912 in K. lra.
    - assert (ME : exists d, (N * 5 = n + d)%nat) by (exists (N * 5 - n)%nat; lia). destruct ME as (d & ->). rewrite pow_add.
      assert (x30 ^ d <= 1). { apply Rle_trans with (1 ^ d); [apply pow_incr; unfold x30; lra|rewrite pow1; lra]. }
      pose proof (pow_lt x30 n ltac:(unfold x30; lra)). nra. }
  destruct (b29_slow n) as (B & B0). destruct eps4_val as (_ & Ee). rewrite Ee. pose proof b29_2 as B2. pose proof (pos_INR n) as PN.
  assert (IN : INR n <= 4 * 2 ^ 29 + 1). { apply IZR_le in Hn. rewrite <- INR_IZR_INZ in Hn. cbn in Hn. lra. }
  assert (D : (p29 + INR n) * (p29 + INR n + 1) * (p29 + INR n + 2) <= (6 * p29) * (6 * p29) * (6 * p29)).
  { unfold p29 in *. apply Rmult_le_compat; [nra|lra| |lra]. apply Rmult_le_compat; lra. }
  assert (L1 : / 2 ^ 29 * (p29 * p29 * p29) * (1 / 2) ^ 5 <= b29 2 * (p29 * (p29 + 1) * (p29 + 2)) * x30 ^ n).
  { assert (P1 : 0 < p29) by (unfold p29; lra).
    assert (Q1 : p29 * p29 * p29 <= p29 * (p29 + 1) * (p29 + 2)). { apply Rmult_le_compat; [nra|lra| |lra]. apply Rmult_le_compat; lra. }
    apply Rmult_le_compat; [apply Rmult_le_pos; [lra|]|lra| |exact XN].
    - apply Rmult_le_pos; [apply Rmult_le_pos|]; lra.
    - apply Rmult_le_compat; [lra| |exact B2|exact Q1]. apply Rmult_le_pos; [apply Rmult_le_pos|]; lra. }
  assert (B3 : / 2 ^ 29 * (p29 * p29 * p29) * (1 / 2) ^ 5 <= b29 (2 + n) * (6 * p29 * (6 * p29) * (6 * p29))).
  { apply Rle_trans with (1 := L1). apply Rle_trans with (1 := B). apply Rmult_le_compat_l; lra. }
  set (b := b29 (2 + n)) in *. unfold p29 in B3. lra.
Qed.
Lemma b29_never j : (0 < j)%nat -> (Z.of_nat j <= 1 + 2 ^ 31 + 1)%Z -> ~ stop p29 (1 / 2) x30 1 j.
Proof.
  intros J0 J1 (S1 & _). destruct eps4_val as (_ & Ee). destruct j as [|[|n]]; [lia| |].
  - pose proof b29_1. rewrite Rabs_left1 in S1 by lra. rewrite Ee in S1. lra.
  - change (S (S n)) with (2 + n)%nat in S1. pose proof (b29_large n ltac:(lia)) as B. rewrite Rabs_pos_eq in S1; [lra|]. pose proof eps4_val. lra.
Qed.
Lemma b29_overflow : exists fuel, forall f w, (fuel <= f)%nat -> beta_core f x30 (1 - x30) p29 (1 / 2) w = BUndefined.
Proof.
  assert (HN : exists N, Z.of_nat N = (2 ^ 31 + 2)%Z) by (exists (Z.to_nat (2 ^ 31 + 2)); apply Z2Nat.id; lia). destruct HN as (N & HN).
  exists N. intros f w Hf. destruct (core_loop f x30 p29 (1 / 2) w) as (s & L & U & E); [unfold p29; lra|lra|unfold x30; lra|].
  assert (s = 1)%nat as ->.
  { unfold x30, p29 in *. destruct s as [|[|s]]; [cbn [INR] in U; lra|reflexivity|]. exfalso. rewrite !S_INR in L. pose proof (pos_INR s). lra. }
  rewrite E. change (2 ^ 31 <=? Z.of_nat 1)%Z with false. cbv iota.
  destruct (loop_spec p29 (1 / 2) x30 1 f 0 ltac:(lia)) as [(n & n1 & n2 & _ & n4 & _)|[(_ & _ & n3)|(n1 & _)]].
  - exfalso. apply (b29_never n); [lia|lia|exact n2].
  - exfalso. lia.
  - rewrite n1. reflexivity.
Qed.

(** ** The iteration limit of GammaP_ser *)
Lemma gt_geo_lower a x r n : 0 < a -> 0 < x -> 0 <= r -> forall m, (forall i, (n < i <= n + m)%nat -> r * (a + INR i) <= x) -> r ^ m * gt a x n <= gt a x (n + m).
Proof.
  intros Ha Hx Hr. induction m as [|m IH]; intros H; [rewrite Nat.add_0_r; cbn [pow]; lra|].
  specialize (IH ltac:(intros i Hi; apply H; lia)). rewrite Nat.add_succ_r, gt_S by exact Ha. pose proof (H (S (n + m)) ltac:(lia)) as B. pose proof (gt_pos a x n Ha Hx). pose proof (pos_INR (S (n + m))).
  assert (R1 : r <= x / (a + INR (S (n + m)))). { apply (Rmult_le_reg_r (a + INR (S (n + m)))); [lra|]. unfold Rdiv. rewrite Rmult_assoc, Rinv_l by lra. lra. }
  cbn [pow]. replace (r * r ^ m * gt a x n) with (r ^ m * gt a x n * r) by ring. apply Rmult_le_compat; [|exact Hr|exact IH|exact R1].
  apply Rmult_le_pos; [apply pow_le, Hr|lra].
Qed.
Lemma gsum_mono a x m : 0 < a -> 0 < x -> forall n, (m <= n)%nat -> sum_n (gt a x) m <= sum_n (gt a x) n.
Proof.
  intros Ha Hx n Hn. induction Hn as [|n Hn IH]; [lra|]. rewrite sum_S. pose proof (gt_pos a x (S n) Ha Hx). lra.
Qed.
Lemma gsum_count a x n : 0 < a -> 0 < x -> x <= a -> sum_n (gt a x) n <= INR (S n) * / a.
Proof.
  intros Ha Hx Hxa. induction n as [|n IH].
  - rewrite sum_0, gt_0. cbn [INR]. lra.
  - rewrite sum_S, (S_INR (S n)). pose proof (gt_dec a x 0 Ha Hx (S n) ltac:(intros i _; pose proof (pos_INR i); lra)) as D. rewrite gt_0 in D. cbn [Nat.add] in D. lra.
Qed.
Lemma gt_54 : 1 / 100000 * / 170 <= gt 170 170 54.
Proof.
  pose proof (gt_geo_lower 170 170 (170 / 197) 0 ltac:(lra) ltac:(lra) ltac:(lra) 27) as B1.
  pose proof (gt_geo_lower 170 170 (170 / 224) 27 ltac:(lra) ltac:(lra) ltac:(lra) 27) as B2.
  assert (C1 : (170 / 197) ^ 27 * gt 170 170 0 <= gt 170 170 (0 + 27)).
  { apply B1. intros i [_ Hi]. apply le_INR in Hi. rewrite (INR_IZR_INZ (0 + 27)) in Hi. cbn in Hi. lra. }
  assert (C2 : (170 / 224) ^ 27 * gt 170 170 27 <= gt 170 170 (27 + 27)).
  { apply B2. intros i [_ Hi]. apply le_INR in Hi. rewrite (INR_IZR_INZ (27 + 27)) in Hi. cbn in Hi. lra. }
  rewrite gt_0 in C1. cbn [Nat.add] in C1, C2. apply Rle_trans with (2 := C2). 
  apply Rle_trans with ((170 / 224) ^ 27 * ((170 / 197) ^ 27 * / 170)); [lra|]. apply Rmult_le_compat_l; [lra|exact C1].
Qed.
Lemma gser_short : gser_sum 170 170 * (1 + 1 / 10000000) < PSeries (gc 170) 170.
Proof.
  destruct (gser_sum_spec 170 170 ltac:(lra) ltac:(lra)) as (j & Hj & E & _). rewrite E.
  pose proof (gsum_mono 170 170 j ltac:(lra) ltac:(lra) 53 ltac:(lia)) as M. pose proof (gsum_count 170 170 53 ltac:(lra) ltac:(lra) ltac:(lra)) as C.
  rewrite (INR_IZR_INZ 54) in C. change (IZR (Z.of_nat 54)) with 54 in C. pose proof gt_54 as G.
  assert (L : sum_n (gt 170 170) 54 <= PSeries (gc 170) 170).
  { destruct (gser_tail 170 170 54 ltac:(lra) ltac:(lra) ltac:(pose proof (pos_INR 55); rewrite (INR_IZR_INZ 55); cbn; lra)) as (T & _). lra. }
  rewrite sum_S in L. lra.
Qed.
