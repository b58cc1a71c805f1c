(** C99: the canonical uniform variates are distributed as they should be. *)
From Coq Require Import ZArith Bool List Reals Lia Lra Psatz.
From Flocq Require Import Core IEEE754.BinarySingleNaN.
From Verif Require Import FloatFacts UniformModel UniformProofs Prop_Uniform UnifAccProofs Base Spec Lcg64Model MinstdModel Prop_Lcg64 Prop_Minstd.
Import ListNotations.
Local Open Scope R_scope.

(** [f], a function of the output [r] of an engine with D + 1 values, follows [ideal] up to [e] *)
Definition follows {p m : Z} (f : Z -> binary_float p m) (D : Z) (ideal : R -> R) (e : R) : Prop :=
  forall r, (0 <= r <= D)%Z -> Rabs (B2R (f r) - ideal (IZR r)) <= e.
Definition nondecreasing {p m : Z} (f : Z -> binary_float p m) (D : Z) : Prop :=
  forall r s, (0 <= r <= s)%Z -> (s <= D)%Z -> B2R (f r) <= B2R (f s).
(** the outputs with a variate of at most [t] are a fraction of about [t] of all outputs *)
Definition fraction {p m : Z} (f : Z -> binary_float p m) (D : Z) (t e : R) : Prop :=
  exists k, (0 <= k <= D + 1)%Z /\ (forall r, (0 <= r <= D)%Z -> B2R (f r) <= t <-> (r < k)%Z) /\ Rabs (IZR k / (IZR D + 1) - t) <= e.

Lemma u53 : bpow radix2 (- (53)) = / 2 ^ 53. Proof. cbn. lra. Qed.
Lemma u24 : bpow radix2 (- (24)) = / 2 ^ 24. Proof. cbn. lra. Qed.
Lemma weaken {p m : Z} (f : Z -> binary_float p m) D ideal e e' : follows f D ideal e -> e <= e' -> follows f D ideal e'.
Proof. intros H He r Hr. apply Rle_trans with (2 := He). apply H, Hr. Qed.

(** ** The four functions *)
Theorem C99_uniformcc : forall D, (1 <= D < 2 ^ 64)%Z ->
  (follows (uniformcc 53 1024 D) D (fun r => r / IZR D) (/ 2 ^ 49) /\ nondecreasing (uniformcc 53 1024 D) D) /\
  (follows (uniformcc 24 128 D) D (fun r => r / IZR D) (/ 2 ^ 20) /\ nondecreasing (uniformcc 24 128 D) D).
Proof.
  intros D HD. split; split.
  - intros r Hr. apply Rle_trans with (1 := cc_acc 53 1024 fmt53 D HD r Hr). rewrite u53. lra.
  - intros r s Hr Hs. exact (cc_mono 53 1024 fmt53 D HD r s Hr Hs).
  - intros r Hr. apply Rle_trans with (1 := cc_acc 24 128 fmt24 D HD r Hr). rewrite u24. lra.
  - intros r s Hr Hs. exact (cc_mono 24 128 fmt24 D HD r s Hr Hs).
Qed.
Theorem C99_uniformco : forall D, (1 <= D < 2 ^ 64)%Z ->
  (follows (uniformco 53 1024 D) D (fun r => r / (IZR D + 1)) (/ 2 ^ 48 + / (IZR D * (IZR D + 1))) /\ nondecreasing (uniformco 53 1024 D) D) /\
  (follows (uniformco 24 128 D) D (fun r => r / (IZR D + 1)) (/ 2 ^ 19 + / (IZR D * (IZR D + 1))) /\ nondecreasing (uniformco 24 128 D) D).
Proof.
  intros D HD. split; split.
  - intros r Hr. apply Rle_trans with (1 := co_acc 53 1024 fmt53 D HD r Hr). rewrite u53. apply Rplus_le_compat_r. lra.
  - intros r s Hr Hs. exact (co_mono 53 1024 fmt53 D HD r s Hr Hs).
  - intros r Hr. apply Rle_trans with (1 := co_acc 24 128 fmt24 D HD r Hr). rewrite u24. apply Rplus_le_compat_r. lra.
  - intros r s Hr Hs. exact (co_mono 24 128 fmt24 D HD r s Hr Hs).
Qed.
Theorem C99_uniformoc : forall D, (1 <= D < 2 ^ 64)%Z ->
  (follows (uniformoc 53 1024 D) D (fun r => 1 - r / (IZR D + 1)) (/ 2 ^ 48 + / (IZR D * (IZR D + 1))) /\
   forall r s, (0 <= r <= s)%Z -> (s <= D)%Z -> B2R (uniformoc 53 1024 D s) <= B2R (uniformoc 53 1024 D r)) /\
  (follows (uniformoc 24 128 D) D (fun r => 1 - r / (IZR D + 1)) (/ 2 ^ 19 + / (IZR D * (IZR D + 1))) /\
   forall r s, (0 <= r <= s)%Z -> (s <= D)%Z -> B2R (uniformoc 24 128 D s) <= B2R (uniformoc 24 128 D r)).
Proof.
  intros D HD. split; split.
  - intros r Hr. apply Rle_trans with (1 := oc_acc 53 1024 fmt53 D HD r Hr). rewrite u53. apply Rplus_le_compat_r. lra.
  - intros r s Hr Hs. exact (oc_mono 53 1024 fmt53 D HD r s Hr Hs).
  - intros r Hr. apply Rle_trans with (1 := oc_acc 24 128 fmt24 D HD r Hr). rewrite u24. apply Rplus_le_compat_r. lra.
  - intros r s Hr Hs. exact (oc_mono 24 128 fmt24 D HD r s Hr Hs).
Qed.
Lemma max_2 p D : (2 <= D < 2 ^ 64)%Z -> (2 <= domain_max p D 1)%Z.
Proof.
  intros HD. unfold domain_max. destruct (use_ll_of_shifted p D 1) eqn:E; [|lia]. unfold use_ll_of_shifted in E. apply andb_true_iff in E. destruct E as (E & _). apply andb_true_iff in E. destruct E as (_ & E). apply Z.eqb_eq in E. rewrite E. apply Z.leb_le. vm_compute. reflexivity.
Qed.
Theorem C99_uniformoo : forall D, (2 <= D < 2 ^ 64)%Z ->
  (follows (uniformoo 53 1024 D) D (fun r => (r + 1) / (IZR D + 2)) (/ 2 ^ 48 + 2 / (IZR D * IZR D)) /\ nondecreasing (uniformoo 53 1024 D) D) /\
  (follows (uniformoo 24 128 D) D (fun r => (r + 1) / (IZR D + 2)) (/ 2 ^ 19 + 2 / (IZR D * IZR D)) /\ nondecreasing (uniformoo 24 128 D) D).
Proof.
  intros D HD. assert (HD1 : (1 <= D < 2 ^ 64)%Z) by lia. split; split.
  - intros r Hr. apply Rle_trans with (1 := oo_acc 53 1024 fmt53 D HD1 (max_2 53 D HD) r Hr). rewrite u53. apply Rplus_le_compat_r. lra.
  - intros r s Hr Hs. exact (oo_mono 53 1024 fmt53 D HD1 (max_2 53 D HD) r s Hr Hs).
  - intros r Hr. apply Rle_trans with (1 := oo_acc 24 128 fmt24 D HD1 (max_2 24 D HD) r Hr). rewrite u24. apply Rplus_le_compat_r. lra.
  - intros r s Hr Hs. exact (oo_mono 24 128 fmt24 D HD1 (max_2 24 D HD) r s Hr Hs).
Qed.
Example C99_example : (2 <= 2147483646 < 2 ^ 64)%Z /\ (0 <= 1073741823 <= 1073741824)%Z /\ (1073741824 <= 2147483646)%Z /\
  B2SF (uniformco 53 1024 2147483646 1073741824) = SpecFloat.S754_finite false 4503599629467648 (-53) /\
  B2SF (uniformoo 53 1024 2147483646 0) = SpecFloat.S754_finite false 4503599631564800 (-83).
Proof. split; [lia|]. split; [lia|]. split; [lia|]. vm_compute. auto. Qed.

(** an engine with only two values: uniformco is 0 for both, uniformoo returns the ends 1 and 0 *)
Theorem C99_two_values_refuted : exists D, (1 <= D < 2 ^ 64)%Z /\ (forall r, (0 <= r <= D)%Z -> B2R (uniformco 53 1024 D r) = 0) /\
  B2R (uniformoo 53 1024 D 0) = 1 /\ B2R (uniformoo 53 1024 D 1) = 0.
Proof.
  exists 1%Z. split; [lia|]. split; [|split].
  - intros r Hr. assert (C : r = 0%Z \/ r = 1%Z) by lia. assert (Z0 : B2R (of_int 53 1024 0) = 0) by reflexivity.
    assert (E : uniformco 53 1024 1 r = of_int 53 1024 0) by (destruct C as [-> | ->]; apply B2SF_inj; vm_compute; reflexivity). rewrite E. exact Z0.
  - assert (E : uniformoo 53 1024 1 0 = of_int 53 1024 1) by (apply B2SF_inj; vm_compute; reflexivity). rewrite E. apply (proj2 (of_int_1 53 1024 fmt53)).
  - assert (E : uniformoo 53 1024 1 1 = of_int 53 1024 0) by (apply B2SF_inj; vm_compute; reflexivity). rewrite E. reflexivity.
Qed.

(** ** The distribution of the variates *)
Theorem C99_distribution : forall D t, (1 <= D < 2 ^ 64)%Z -> 0 <= t <= 1 ->
  fraction (uniformco 53 1024 D) D t (/ 2 ^ 48 + 2 / (IZR D + 1)) /\
  fraction (uniformcc 53 1024 D) D t (/ 2 ^ 48 + 2 / (IZR D + 1)) /\
  ((2 <= D)%Z -> fraction (uniformoo 53 1024 D) D t (/ 2 ^ 48 + 4 / (IZR D + 1))).
Proof.
  intros D t HD Ht. assert (D1 : 1 <= IZR D) by (apply IZR_le; lia). assert (I0 : 0 < / (IZR D + 1)) by (apply Rinv_0_lt_compat; lra).
  assert (ID : 0 < / IZR D <= 1) by (split; [apply Rinv_0_lt_compat; lra|rewrite <- Rinv_1; apply Rinv_le_contravar; lra]).
  assert (T : forall f : Z -> double, nondecreasing f D -> forall e e', 0 <= e -> follows f D (fun r => r / (IZR D + 1)) e -> e + / (IZR D + 1) <= e' -> fraction f D t e').
  { intros f M e e' He A L. destruct (threshold (fun r => B2R (f r)) D t e ltac:(lia) M He A Ht) as (k & K1 & K2 & K3). exists k. split; [exact K1|]. split; [exact K2|]. lra. }
  assert (IDD : / (IZR D * (IZR D + 1)) <= / (IZR D + 1)). { rewrite Rinv_mult. rewrite <- (Rmult_1_l (/ (IZR D + 1))) at 2. apply Rmult_le_compat_r; lra. }
  assert (ID2 : 0 < / (IZR D * (IZR D + 1))) by (rewrite Rinv_mult; apply Rmult_lt_0_compat; lra).
  destruct (C99_uniformco D HD) as ((A1 & M1) & _). destruct (C99_uniformcc D HD) as ((A2 & M2) & _). split; [|split].
  - apply (T _ M1 (/ 2 ^ 48 + / (IZR D * (IZR D + 1)))); [lra|exact A1|lra].
  - apply (T _ M2 (/ 2 ^ 49 + / (IZR D + 1))); [lra| |lra]. intros r Hr. specialize (A2 r Hr). cbv beta in A2.
    assert (RD : 0 <= IZR r <= IZR D) by (split; apply IZR_le; lia).
    assert (Q : 0 <= IZR r / IZR D <= 1). { unfold Rdiv. split; [apply Rmult_le_pos; lra|]. apply Rle_trans with (IZR D * / IZR D); [apply Rmult_le_compat_r; lra|rewrite Rinv_r; lra]. }
    assert (Q2 : 0 <= IZR r / IZR D - IZR r / (IZR D + 1) <= / (IZR D + 1)).
    { replace (IZR r / IZR D - IZR r / (IZR D + 1)) with (IZR r / IZR D * / (IZR D + 1)) by (field; lra). split; [apply Rmult_le_pos; lra|]. apply Rle_trans with (1 * / (IZR D + 1)); [apply Rmult_le_compat_r; lra|lra]. }
    apply Rabs_le_inv in A2. apply Rabs_le. lra.
  - intros H2. destruct (C99_uniformoo D ltac:(lia)) as ((A3 & M3) & _). assert (D2 : 2 <= IZR D) by (apply IZR_le; lia).
    assert (S2 : 2 / (IZR D * IZR D) <= 3 / (IZR D + 1) - / (IZR D + 2)).
    { assert (IA : 0 < IZR D * IZR D * (IZR D + 1) * (IZR D + 2)) by (repeat apply Rmult_lt_0_compat; lra).
      apply Rmult_le_reg_r with (1 := IA). 
      replace (2 / (IZR D * IZR D) * (IZR D * IZR D * (IZR D + 1) * (IZR D + 2))) with (2 * (IZR D + 1) * (IZR D + 2)) by (field; lra).
      replace ((3 / (IZR D + 1) - / (IZR D + 2)) * (IZR D * IZR D * (IZR D + 1) * (IZR D + 2))) with (IZR D * IZR D * (2 * IZR D + 5)) by (field; lra).
      assert (4 <= IZR D * IZR D) by (replace 4 with (2 * 2) by ring; apply Rmult_le_compat; lra).
      assert (2 * (IZR D * IZR D) <= IZR D * (IZR D * IZR D)) by (apply Rmult_le_compat_r; lra). nra. }
    assert (P2 : 0 < 2 / (IZR D * IZR D)) by (apply Rdiv_lt_0_compat; [lra|apply Rmult_lt_0_compat; lra]).
    assert (I2 : 0 < / (IZR D + 2)) by (apply Rinv_0_lt_compat; lra).
    apply (T _ M3 (/ 2 ^ 48 + 2 / (IZR D * IZR D) + / (IZR D + 2))); [lra| |lra]. intros r Hr. specialize (A3 r Hr). cbv beta in A3.
    assert (RD : 0 <= IZR r <= IZR D) by (split; apply IZR_le; lia).
    assert (Q2 : 0 <= (IZR r + 1) / (IZR D + 2) - IZR r / (IZR D + 1) <= / (IZR D + 2)).
    { assert (Q : 0 <= IZR r / (IZR D + 1) <= 1). { unfold Rdiv. split; [apply Rmult_le_pos; lra|]. apply Rle_trans with ((IZR D + 1) * / (IZR D + 1)); [apply Rmult_le_compat_r; lra|rewrite Rinv_r; lra]. }
      replace ((IZR r + 1) / (IZR D + 2) - IZR r / (IZR D + 1)) with ((1 - IZR r / (IZR D + 1)) * / (IZR D + 2)) by (field; lra). split; [apply Rmult_le_pos; lra|]. apply Rle_trans with (1 * / (IZR D + 2)); [apply Rmult_le_compat_r; lra|lra]. }
    apply Rabs_le_inv in A3. apply Rabs_le. lra.
Qed.

(** ** Over a period *)
(** the positions of a period whose variate is at most t, as a list without repetition *)
Definition positions {E} (next : E -> Z * E) (g : E) (lo n : Z) (f : Z -> double) (t : R) (l : list nat) : Prop :=
  NoDup l /\ forall i, In i l <-> (i < Z.to_nat n)%nat /\ (B2R (f (draw next g i - lo)%Z) <= t)%R.
Lemma pick (d : nat -> Z) (n : nat) : (forall v, (0 <= v < Z.of_nat n)%Z -> exists! k, (k < n)%nat /\ d k = v) -> forall k, (k <= n)%nat ->
  exists l, NoDup l /\ length l = k /\ forall i, In i l <-> (i < n)%nat /\ (0 <= d i < Z.of_nat k)%Z.
Proof.
  intros H k. induction k as [|k IH]; intros Hk; [exists []; split; [constructor|split; [reflexivity|intros i; split; [intros []|lia]]]|].
  destruct (IH ltac:(lia)) as (l & L1 & L2 & L3). destruct (H (Z.of_nat k) ltac:(lia)) as (j & (J1 & J2) & U). exists (j :: l). split; [|split].
  - constructor; [|exact L1]. intros C. apply L3 in C. lia.
  - cbn. lia.
  - intros i. cbn [In]. rewrite L3. split.
    + intros [<-|(A & B)]; [split; [exact J1|lia]|split; [exact A|lia]].
    + intros (A & B). destruct (Z.eq_dec (d i) (Z.of_nat k)) as [E|N]; [left; apply U; auto|right; split; [exact A|lia]].
Qed.
Theorem C99_period : forall E (next : E -> Z * E) g lo D t, (1 <= D < 2 ^ 64)%Z -> full_cycle_stream next g lo (lo + D + 1) -> 0 <= t <= 1 ->
  exists l, positions next g lo (D + 1) (uniformco 53 1024 D) t l /\ Rabs (INR (length l) / (IZR D + 1) - t) <= / 2 ^ 48 + 2 / (IZR D + 1).
Proof.
  intros E next g lo D t HD (C1 & C2 & _) Ht. destruct (C99_distribution D t HD Ht) as ((k & K1 & K2 & K3) & _). replace (lo + D + 1 - lo)%Z with (D + 1)%Z in C2 by lia.
  destruct (pick (fun i => (draw next g i - lo)%Z) (Z.to_nat (D + 1))) with (k := Z.to_nat k) as (l & L1 & L2 & L3); [|lia|].
  - intros v Hv. destruct (C2 (v + lo)%Z ltac:(lia)) as (j & (J1 & J2) & U). exists j. split; [split; [exact J1|lia]|]. intros i (I1 & I2). apply U. split; [exact I1|lia].
  - exists l. split; [|rewrite L2, INR_IZR_INZ, Z2Nat.id by lia; exact K3]. split; [exact L1|]. intros i. rewrite L3. specialize (C1 i). rewrite (K2 (draw next g i - lo)%Z ltac:(lia)). lia.
Qed.
(** lcg64, lcg64_shift and minstd *)
Theorem C99_engines : forall t, 0 <= t <= 1 ->
  (forall a b r, In (a, b) lcg64_params -> word 64 r -> exists l, positions lcg64_next (Lcg64 a b r) 0 (2 ^ 64) (uniformco 53 1024 (2 ^ 64 - 1)) t l /\ Rabs (INR (length l) / 2 ^ 64 - t) <= / 2 ^ 47) /\
  (forall r, (1 <= r <= 2147483646)%Z -> exists l, positions minstd_next r 1 2147483646 (uniformco 53 1024 2147483645) t l /\ Rabs (INR (length l) / 2147483646 - t) <= / 2 ^ 29).
Proof.
  intros t Ht. split.
  - intros a b r Hin Hr. destruct (C99_period _ lcg64_next (Lcg64 a b r) 0 (2 ^ 64 - 1) t ltac:(lia) (C04_lcg64_predefined a b r Hin Hr) Ht) as (l & L1 & L2).
    exists l. split; [exact L1|]. replace (IZR (2 ^ 64 - 1) + 1) with (2 ^ 64) in L2 by (change (2 ^ 64 - 1)%Z with 18446744073709551615%Z; lra). lra.
  - intros r Hr. destruct (C99_period _ minstd_next r 1 2147483645 t ltac:(lia) (C11_minstd_full_period r ltac:(lia)) Ht) as (l & L1 & L2).
    exists l. split; [exact L1|]. replace (2147483645 + 1) with 2147483646 in L2 by lra. lra.
Qed.
Example C99_engines_example : In (18145460002477866997, 1)%Z lcg64_params /\ word 64 1 /\ 0 <= / 3 <= 1.
Proof. split; [vm_compute; auto|]. split; [split; [discriminate|reflexivity]|lra]. Qed.

Print Assumptions C99_uniformcc.
Print Assumptions C99_uniformco.
Print Assumptions C99_uniformoc.
Print Assumptions C99_uniformoo.
Print Assumptions C99_two_values_refuted.
Print Assumptions C99_distribution.
Print Assumptions C99_period.
Print Assumptions C99_engines.
