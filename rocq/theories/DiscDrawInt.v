(** Integers, Bernoulli variables and table look-ups drawn with uniformco. *)
From Coq Require Import ZArith Bool List Reals Lia Lra.
From Flocq Require Import Core IEEE754.BinarySingleNaN.
From Verif Require Import FloatFacts UniformModel UniformProofs UnifAccProofs Prop_Uniform Prop_UnifAcc FloatDrawModel FloatDrawSpec FloatDrawProofs DiscDrawSpec DiscDrawProofs.
Import ListNotations.
Open Scope R_scope.

Section Co.
Variable D : Z.
Hypothesis HD : (1 <= D < 2 ^ 64)%Z.
Definition co_err : R := / 2 ^ 48 + / (IZR D + 1).
Lemma co_ok r : (0 <= r <= D)%Z -> is_finite (uniformco 53 1024 D r) = true /\ 0 <= B2R (uniformco 53 1024 D r) <= 1 - q / 2 /\ Rabs (B2R (uniformco 53 1024 D r) - IZR r / (IZR D + 1)) <= co_err.
Proof.
  intros Hr. destruct (uniformco_ok 53 1024 fmt53 D r HD Hr) as (U1 & U2). change (Z.opp 53) with (-53)%Z in U2. rewrite u_eq in U2. split; [exact U1|]. split; [exact U2|].
  destruct (C99_uniformco D HD) as ((A & _) & _). specialize (A r Hr). cbv beta in A. apply Rle_trans with (1 := A). unfold co_err. apply Rplus_le_compat_l.
  assert (1 <= IZR D) by (apply IZR_le; lia). apply Rinv_le_contravar; [lra|]. rewrite <- (Rmult_1_l (IZR D + 1)) at 1. apply Rmult_le_compat_r; lra.
Qed.
Lemma iD_pos : 0 < / (IZR D + 1). Proof. apply Rinv_0_lt_compat. assert (1 <= IZR D) by (apply IZR_le; lia). lra. Qed.
Lemma co_err_pos : 0 < co_err. Proof. unfold co_err. pose proof iD_pos. lra. Qed.

(** an event decided by the variate up to [E] *)
Lemma count_co (P : Z -> bool) T E : 0 <= E -> 0 <= T <= 1 ->
  (forall r, (0 <= r <= D)%Z -> P r = true -> B2R (uniformco 53 1024 D r) <= T + E) ->
  (forall r, (0 <= r <= D)%Z -> P r = false -> T - E <= B2R (uniformco 53 1024 D r)) ->
  probability (fun r => P r = true) D T (E + / 2 ^ 48 + 2 / (IZR D + 1)).
Proof.
  intros HE HT Hy Hn. pose proof co_err_pos as C. apply (prob_weaken _ D T T (E + co_err + / (IZR D + 1))).
  { rewrite (Rminus_diag_eq _ _ eq_refl), Rabs_R0. unfold co_err. unfold Rdiv. lra. }
  apply count_pred; [lia|lra|exact HT| |].
  - intros r Hr H. destruct (co_ok r Hr) as (_ & _ & A). apply Rabs_le_inv in A. specialize (Hy r Hr H). lra.
  - intros r Hr H. destruct (co_ok r Hr) as (_ & _ & A). apply Rabs_le_inv in A. specialize (Hn r Hr H). lra.
Qed.
End Co.

(** ** Scaled variates *)
Lemma scaled_err n (t : double) (m : double) : (1 <= n <= 2 ^ 63)%Z -> is_finite t = true -> 0 <= B2R t <= 1 ->
  m = fmul 53 1024 (of_int 53 1024 n) t \/ m = fmul 53 1024 t (of_int 53 1024 n) ->
  is_finite m = true /\ Rabs (B2R m - IZR n * B2R t) <= 3 * q * IZR n /\ 0 <= B2R m.
Proof.
  intros Hn Ft Ht Hm. pose proof q_pos as Q. pose proof tiny_pos as TP.
  assert (N : 1 <= IZR n <= 2 ^ 63). { split; [apply IZR_le; lia|]. change 2 with (IZR 2). rewrite pow_IZR. apply IZR_le. cbn. lia. }
  assert (B64 : 2 ^ 64 <= 4 * big). { unfold big. replace (2 ^ 64) with (bpow radix2 64) by (cbn; lra). assert (bpow radix2 64 <= bpow radix2 1000) by (apply bpow_le; lia). pose proof (bpow_gt_0 radix2 64). lra. }
  assert (TI : tiny <= q / 8). { unfold tiny. apply Rle_trans with (bpow radix2 (-55)); [apply bpow_le; lia|]. unfold q. cbn. lra. }
  destruct (of_int_ok 53 1024 H3_64 H70_64 n) as (O1 & O2); [apply inr; rewrite Rabs_pos_eq by lra; lra|].
  assert (NI : Rabs (rnd (IZR n) - IZR n) <= q / 2 * IZR n).
  { pose proof (rnd_rel (IZR n)) as R. rewrite (Rabs_pos_eq (IZR n)) in R by lra. apply R. right. apply Rle_trans with (bpow radix2 0); [apply bpow_le; lia|cbn; lra]. }
  apply Rabs_le_inv in NI. assert (q / 2 * IZR n <= 1 * IZR n) by (apply Rmult_le_compat_r; lra).
  set (N' := rnd (IZR n)) in *. assert (N0 : 0 <= N') by lra. assert (N1 : N' <= 2 * IZR n) by lra.
  assert (P0 : 0 <= N' * B2R t) by (apply Rmult_le_pos; lra). assert (P1 : N' * B2R t <= N' * 1) by (apply Rmult_le_compat_l; lra).
  assert (C : Rabs (N' * B2R t) <= 4 * big) by (rewrite Rabs_pos_eq by exact P0; lra).
  assert (M : is_finite m = true /\ B2R m = rnd (N' * B2R t)).
  { destruct Hm as [-> | ->].
    - destruct (mul_ok (of_int 53 1024 n) t O1 Ft) as (A & B); [rewrite O2; exact C|]. rewrite O2 in B. split; assumption.
    - destruct (mul_ok t (of_int 53 1024 n) Ft O1) as (A & B); [rewrite O2, Rmult_comm; exact C|]. rewrite O2, Rmult_comm in B. split; assumption. }
  destruct M as (M1 & M2). split; [exact M1|]. rewrite M2. split; [|apply (rnd_ge_0 53 1024 H3_64 H70_64); exact P0].
  pose proof (rnd_err (N' * B2R t)) as R. rewrite (Rabs_pos_eq (N' * B2R t)) in R by exact P0. apply Rabs_le_inv in R.
  assert (R1 : q / 2 * (N' * B2R t) <= q / 2 * (2 * IZR n)) by (apply Rmult_le_compat_l; lra).
  assert (R2 : q / 8 <= q / 8 * IZR n) by (rewrite <- (Rmult_1_r (q / 8)) at 1; apply Rmult_le_compat_l; lra).
  assert (R3 : Rabs (N' * B2R t - IZR n * B2R t) <= q / 2 * IZR n).
  { rewrite <- Rmult_minus_distr_r, Rabs_mult, (Rabs_pos_eq (B2R t)) by lra. rewrite <- (Rmult_1_r (q / 2 * IZR n)). apply Rmult_le_compat; [apply Rabs_pos|lra|apply Rabs_le; lra|lra]. }
  apply Rabs_le_inv in R3. apply Rabs_le. assert (0 <= q * IZR n) by (apply Rmult_le_pos; lra). lra.
Qed.
Lemma trunc_lt (x : double) j : 0 <= B2R x -> (Btrunc x < j)%Z <-> B2R x < IZR j.
Proof.
  intros H. assert (E : IZR (Btrunc x) = IZR (Zfloor (B2R x))).
  { rewrite Btrunc_correct by easy. unfold round, scaled_mantissa, cexp, FIX_exp, F2R. cbn [Fnum Fexp]. simpl bpow. rewrite !Rmult_1_r. rewrite Ztrunc_floor by exact H. reflexivity. }
  apply eq_IZR in E. rewrite E. split; intros G.
  - apply Rnot_le_lt. intros C. apply Zfloor_lub in C. lia.
  - apply lt_IZR. apply Rle_lt_trans with (B2R x); [apply Zfloor_lb|exact G].
Qed.
(** numbers below j among trunc (n * u) *)
Lemma count_trunc D n (z : Z -> Z) (j : Z) : (1 <= D < 2 ^ 64)%Z -> (1 <= n <= 2 ^ 63)%Z -> (0 <= j <= n)%Z ->
  (forall r, (0 <= r <= D)%Z -> exists m, (m = fmul 53 1024 (of_int 53 1024 n) (uniformco 53 1024 D r) \/ m = fmul 53 1024 (uniformco 53 1024 D r) (of_int 53 1024 n)) /\ z r = Btrunc m) ->
  probability (fun r => (z r < j)%Z) D (IZR j / IZR n) (/ 2 ^ 47 + 2 / (IZR D + 1)).
Proof.
  intros HD Hn Hj Hz. assert (N : 1 <= IZR n) by (apply IZR_le; lia). assert (J : 0 <= IZR j <= IZR n) by (split; apply IZR_le; lia). pose proof q_pos as Q.
  apply (prob_ext (fun r => (z r <? j)%Z = true)); [intros r _; apply Z.ltb_lt|].
  assert (IN : 0 < / IZR n) by (apply Rinv_0_lt_compat; lra).
  apply (prob_weaken _ D (IZR j / IZR n) (IZR j / IZR n) (3 * q + / 2 ^ 48 + 2 / (IZR D + 1))).
  { rewrite (Rminus_diag_eq _ _ eq_refl), Rabs_R0. assert (3 * q + / 2 ^ 48 <= / 2 ^ 47) by (unfold q; lra). lra. }
  assert (K : forall r, (0 <= r <= D)%Z -> Rabs (B2R (uniformco 53 1024 D r) * IZR n - B2R (uniformco 53 1024 D r) * IZR n) = 0) by (intros; rewrite (Rminus_diag_eq _ _ eq_refl), Rabs_R0; reflexivity).
  apply count_co; [exact HD|lra|split; [apply Rmult_le_pos; lra|apply Rmult_le_reg_r with (IZR n); [lra|]; unfold Rdiv; rewrite Rmult_assoc, Rinv_l; lra]| |].
  - intros r Hr H. destruct (Hz r Hr) as (m & Hm & E). destruct (co_ok D HD r Hr) as (F & B & _). destruct (scaled_err n _ m Hn F ltac:(lra) Hm) as (_ & S & P).
    rewrite E in H. apply Z.ltb_lt in H. apply (trunc_lt m j P) in H. apply Rabs_le_inv in S. apply Rmult_le_reg_r with (IZR n); [lra|]. unfold Rdiv. rewrite Rmult_plus_distr_r, Rmult_assoc, Rinv_l by lra. lra.
  - intros r Hr H. destruct (Hz r Hr) as (m & Hm & E). destruct (co_ok D HD r Hr) as (F & B & _). destruct (scaled_err n _ m Hn F ltac:(lra) Hm) as (_ & S & P).
    rewrite E in H. apply Z.ltb_ge in H. assert (G : IZR j <= B2R m) by (apply Rnot_lt_le; intros C; apply (trunc_lt m j P) in C; lia). apply Rabs_le_inv in S.
    apply Rmult_le_reg_r with (IZR n); [lra|]. unfold Rdiv. rewrite Rmult_minus_distr_r, Rmult_assoc, Rinv_l by lra. lra.
Qed.
(** one value *)
Lemma count_value D n (z : Z -> Z) (j : Z) : (1 <= D < 2 ^ 64)%Z -> (1 <= n <= 2 ^ 63)%Z -> (0 <= j < n)%Z ->
  (forall r, (0 <= r <= D)%Z -> exists m, (m = fmul 53 1024 (of_int 53 1024 n) (uniformco 53 1024 D r) \/ m = fmul 53 1024 (uniformco 53 1024 D r) (of_int 53 1024 n)) /\ z r = Btrunc m) ->
  probability (fun r => z r = j) D (/ IZR n) (/ 2 ^ 46 + 4 / (IZR D + 1)).
Proof.
  intros HD Hn Hj Hz. pose proof (count_trunc D n z j HD Hn ltac:(lia) Hz) as A. pose proof (count_trunc D n z (j + 1) HD Hn ltac:(lia) Hz) as B.
  assert (N : 1 <= IZR n) by (apply IZR_le; lia).
  pose proof (prob_diff _ _ D _ _ _ _ ltac:(lia) (fun r _ (H : (z r < j)%Z) => (ltac:(lia) : (z r < j + 1)%Z)) A B) as C.
  apply (prob_ext _ (fun r => z r = j)) in C; [|intros r _; lia]. revert C. apply prob_weaken. rewrite plus_IZR. replace ((IZR j + 1) / IZR n - IZR j / IZR n - / IZR n) with 0 by (field; lra). rewrite Rabs_R0. unfold Rdiv. lra.
Qed.
