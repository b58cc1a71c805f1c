(** The step and backward functions of the mrg classes against their mathematical description. *)
From Coq Require Import ZArith Znumtheory List Bool Arith Lia.
From Verif Require Import Base BaseFacts Cong Sums IntMathModel IntMathProofs GaussModel GaussProofs MrgModel Pratt.
Import ListNotations.
Open Scope Z_scope.

(** A list of [k] values in [0,m). *)
Definition inr (m : Z) (k : nat) (l : list Z) : Prop :=
  length l = k /\ forall i, (i < k)%nat -> 0 <= nth i l 0 < m.

Definition dot (a r : list Z) : Z := sum (length a) (fun j => nth j a 0 * nth j r 0).

Definition step_ok (cl : mrg_class) : Prop := forall a r,
  inr (mc_modulus cl) (mc_order cl) a -> inr (mc_modulus cl) (mc_order cl) r ->
  mc_step cl (mc_modulus cl) a r = dot a r mod mc_modulus cl :: removelast r.

(** With coefficients zero from [e] on and a_(e-1) nonzero, backward appends the value t that makes the
    recurrence of order [e] true for the oldest e+1 values. *)
Definition back_ok (cl : mrg_class) (e : nat) : Prop := forall a r,
  let m := mc_modulus cl in let k := mc_order cl in
  inr m k a -> inr m k r ->
  (forall j, (e <= j < k)%nat -> nth j a 0 = 0) -> (forall e', e = S e' -> nth e' a 0 <> 0) ->
  exists t, mc_backward cl m a r = Val (tl r ++ [t]) /\ 0 <= t < m /\ (e = 0%nat -> t = 0) /\
    forall e', e = S e' ->
      cong m (nth e' a 0 * t) (nth (k - e) r 0 - sum e' (fun i => nth i a 0 * nth (k - e' + i) r 0)).

Section Step.
Variable m : Z.
Hypothesis Hp : prime m.
Hypothesis Hm31 : m < 2 ^ 31.

Lemma m2 : 2 <= m. Proof. apply prime_ge_2, Hp. Qed.

Lemma prod_bound a r : 0 <= a < m -> 0 <= r < m -> 0 <= a * r <= (m - 1) ^ 2.
Proof.
  intros Ha Hr. split; [apply Z.mul_nonneg_nonneg; lia|].
  rewrite Z.pow_2_r. apply Z.mul_le_mono_nonneg; lia.
Qed.

Lemma sq_bound : (m - 1) ^ 2 < 2 ^ 62.
Proof.
  assert (H := m2). assert (E : (m - 1) ^ 2 <= (2 ^ 31 - 2) ^ 2) by (apply Z.pow_le_mono_l; lia).
  assert (E2 : (2 ^ 31 - 2) ^ 2 < 2 ^ 62) by reflexivity. lia.
Qed.

Lemma umul_ok a r : 0 <= a < m -> 0 <= r < m -> umul a r = a * r.
Proof.
  intros Ha Hr. assert (B := prod_bound a r Ha Hr). assert (S := sq_bound).
  unfold umul. rewrite (wrap64_small a) by lia. rewrite (wrap64_small r) by lia.
  apply wrap64_small. lia.
Qed.

Lemma uadd_ok x y : 0 <= x -> 0 <= y -> x + y < 2 ^ 64 -> uadd x y = x + y.
Proof. intros. unfold uadd. apply wrap64_small. lia. Qed.

Lemma mrg2_step_ok a r : inr m 2 a -> inr m 2 r -> mrg2_step m a r = dot a r mod m :: removelast r.
Proof.
  intros (La & Ha) (Lr & Hr). destruct a as [|a0 [|a1 [|]]]; try discriminate La.
  destruct r as [|r0 [|r1 [|]]]; try discriminate Lr.
  assert (A0 := Ha 0%nat ltac:(lia)). assert (A1 := Ha 1%nat ltac:(lia)).
  assert (R0 := Hr 0%nat ltac:(lia)). assert (R1 := Hr 1%nat ltac:(lia)).
  cbn [nth] in *. assert (S := sq_bound). assert (G := m2).
  assert (P0 := prod_bound a0 r0 A0 R0). assert (P1 := prod_bound a1 r1 A1 R1).
  cbn [mrg2_step removelast]. f_equal. rewrite !umul_ok by assumption. rewrite uadd_ok by lia.
  rewrite modulo_spec by lia. f_equal.
Qed.

Lemma mrg3_step_ok a r : inr m 3 a -> inr m 3 r -> mrg3_step m a r = dot a r mod m :: removelast r.
Proof.
  intros (La & Ha) (Lr & Hr). destruct a as [|a0 [|a1 [|a2 [|]]]]; try discriminate La.
  destruct r as [|r0 [|r1 [|r2 [|]]]]; try discriminate Lr.
  assert (A0 := Ha 0%nat ltac:(lia)). assert (A1 := Ha 1%nat ltac:(lia)). assert (A2 := Ha 2%nat ltac:(lia)).
  assert (R0 := Hr 0%nat ltac:(lia)). assert (R1 := Hr 1%nat ltac:(lia)). assert (R2 := Hr 2%nat ltac:(lia)).
  cbn [nth] in *. assert (S := sq_bound). assert (G := m2).
  assert (P0 := prod_bound a0 r0 A0 R0). assert (P1 := prod_bound a1 r1 A1 R1). assert (P2 := prod_bound a2 r2 A2 R2).
  cbn [mrg3_step removelast]. f_equal. rewrite !umul_ok by assumption. rewrite (uadd_ok (a0 * r0)) by lia.
  rewrite uadd_ok by lia. rewrite modulo_spec by lia. f_equal.
Qed.

Lemma mrg4_step_ok a r : inr m 4 a -> inr m 4 r -> mrg4_step m a r = dot a r mod m :: removelast r.
Proof.
  intros (La & Ha) (Lr & Hr). destruct a as [|a0 [|a1 [|a2 [|a3 [|]]]]]; try discriminate La.
  destruct r as [|r0 [|r1 [|r2 [|r3 [|]]]]]; try discriminate Lr.
  assert (A0 := Ha 0%nat ltac:(lia)). assert (A1 := Ha 1%nat ltac:(lia)). assert (A2 := Ha 2%nat ltac:(lia)).
  assert (A3 := Ha 3%nat ltac:(lia)).
  assert (R0 := Hr 0%nat ltac:(lia)). assert (R1 := Hr 1%nat ltac:(lia)). assert (R2 := Hr 2%nat ltac:(lia)).
  assert (R3 := Hr 3%nat ltac:(lia)).
  cbn [nth] in *. assert (S := sq_bound). assert (G := m2).
  assert (P0 := prod_bound a0 r0 A0 R0). assert (P1 := prod_bound a1 r1 A1 R1). assert (P2 := prod_bound a2 r2 A2 R2).
  assert (P3 := prod_bound a3 r3 A3 R3).
  cbn [mrg4_step removelast]. f_equal. rewrite !umul_ok by assumption. rewrite (uadd_ok (a0 * r0)) by lia.
  rewrite (uadd_ok (_ + _) (a2 * r2)) by lia.
  rewrite uadd_ok by lia. rewrite modulo_spec by lia. f_equal.
Qed.

(** m >= 13 makes 3 m^2 - 1 <= 5 (m-1)^2. *)
Lemma mrg5_step_ok a r : 13 <= m -> inr m 5 a -> inr m 5 r -> mrg5_step m a r = dot a r mod m :: removelast r.
Proof.
  intros G13 (La & Ha) (Lr & Hr). destruct a as [|a0 [|a1 [|a2 [|a3 [|a4 [|]]]]]]; try discriminate La.
  destruct r as [|r0 [|r1 [|r2 [|r3 [|r4 [|]]]]]]; try discriminate Lr.
  assert (A0 := Ha 0%nat ltac:(lia)). assert (A1 := Ha 1%nat ltac:(lia)). assert (A2 := Ha 2%nat ltac:(lia)).
  assert (A3 := Ha 3%nat ltac:(lia)). assert (A4 := Ha 4%nat ltac:(lia)).
  assert (R0 := Hr 0%nat ltac:(lia)). assert (R1 := Hr 1%nat ltac:(lia)). assert (R2 := Hr 2%nat ltac:(lia)).
  assert (R3 := Hr 3%nat ltac:(lia)). assert (R4 := Hr 4%nat ltac:(lia)).
  cbn [nth] in *. assert (S := sq_bound). assert (G := m2).
  assert (P0 := prod_bound a0 r0 A0 R0). assert (P1 := prod_bound a1 r1 A1 R1). assert (P2 := prod_bound a2 r2 A2 R2).
  assert (P3 := prod_bound a3 r3 A3 R3). assert (P4 := prod_bound a4 r4 A4 R4).
  assert (M2 : (m - 1) ^ 2 = m * m - 2 * m + 1) by ring.
  assert (M3 : 13 * m <= m * m) by (apply Z.mul_le_mono_nonneg_r; lia).
  cbn [mrg5_step removelast]. cbv zeta. f_equal. rewrite (umul_ok a0), (umul_ok a1), (umul_ok a2), (umul_ok a3), (umul_ok a4) by assumption.
  assert (E2 : umul (umul 2 m) m = 2 * (m * m)).
  { unfold umul. rewrite (wrap64_small 2), (wrap64_small m) by lia.
    rewrite (wrap64_small (2 * m)) by lia. rewrite (wrap64_small (2 * m)) by lia.
    rewrite wrap64_small by lia. ring. }
  rewrite E2. rewrite (uadd_ok (a0 * r0)) by lia.
  rewrite (uadd_ok (_ + _) (a2 * r2)) by lia. rewrite (uadd_ok (_ + _) (a3 * r3)) by lia.
  unfold dot. cbn [length sum nth].
  destruct (Z.geb_spec (a0 * r0 + a1 * r1 + a2 * r2 + a3 * r3) (2 * (m * m))).
  - rewrite wrap64_small by lia. rewrite uadd_ok by lia. rewrite modulo_spec by lia.
    apply mod_cong; [lia|]. exists (-2 * m). ring.
  - rewrite uadd_ok by lia. rewrite modulo_spec by lia. f_equal.
Qed.

(** ** backward *)
Lemma back_term_ok t a r : 0 <= t < m -> 0 <= a < m -> 0 <= r < m ->
  0 <= back_term m t a r < m /\ cong m (back_term m t a r) (t - a * r).
Proof.
  intros Ht Ha Hr. unfold back_term. destruct (rem_range m Hp a r Ha Hr) as (B & C).
  destruct (subm_ok m t (Z.rem (a * r) m) Ht B) as (B' & C'). split; [exact B'|].
  rewrite C', C. reflexivity.
Qed.

Lemma back_div_ok t a : 0 <= t < m -> 0 < a < m ->
  exists x, back_div m t a = Val x /\ 0 <= x < m /\ cong m (a * x) t.
Proof.
  intros Ht Ha. unfold back_div. destruct (inverse_ok m Hp Hm31 a Ha) as (i & E & B & I). rewrite E.
  destruct (rem_range m Hp t i Ht B) as (B' & C'). exists (Z.rem (t * i) m). split; [reflexivity|].
  split; [exact B'|]. rewrite C'. replace (a * (t * i)) with (a * i * t) by ring. rewrite I. exists 0. ring.
Qed.

(** The value computed by a chain of back_term, then divided. *)
Lemma back_chain t a x : 0 <= t < m -> 0 <= a < m -> a <> 0 -> cong m t x ->
  exists y, back_div m t a = Val y /\ 0 <= y < m /\ cong m (a * y) x.
Proof.
  intros Ht Ha Na C. destruct (back_div_ok t a Ht ltac:(lia)) as (y & E & B & D).
  exists y. rewrite D. auto.
Qed.

Fixpoint back_terms (t : Z) (l : list (Z * Z)) : Z :=
  match l with [] => t | (a, r) :: l' => back_terms (back_term m t a r) l' end.
Fixpoint sum_terms (l : list (Z * Z)) : Z :=
  match l with [] => 0 | (a, r) :: l' => a * r + sum_terms l' end.

Lemma back_terms_ok l : forall t, 0 <= t < m -> (forall a r, In (a, r) l -> 0 <= a < m /\ 0 <= r < m) ->
  0 <= back_terms t l < m /\ cong m (back_terms t l) (t - sum_terms l).
Proof.
  induction l as [|(a, r) l IH]; intros t Ht H; cbn [back_terms sum_terms].
  - split; [exact Ht|]. exists 0. ring.
  - destruct (H a r (or_introl eq_refl)) as (Ha & Hr). destruct (back_term_ok t a r Ht Ha Hr) as (B & C).
    destruct (IH _ B) as (B' & C'); [intros; apply H; right; assumption|].
    split; [exact B'|]. rewrite C', C. exists 0. ring.
Qed.

Lemma back_full t l a : 0 <= t < m -> (forall a r, In (a, r) l -> 0 <= a < m /\ 0 <= r < m) ->
  0 <= a < m -> a <> 0 ->
  exists y, back_div m (back_terms t l) a = Val y /\ 0 <= y < m /\ cong m (a * y) (t - sum_terms l).
Proof.
  intros Ht H Ha Na. destruct (back_terms_ok l t Ht H) as (B & C).
  apply back_chain; assumption.
Qed.

(** One case of a backward function: [l] are the terms subtracted from [t], [a] the divisor. *)
Ltac back_case t l a :=
  destruct (back_full t l a) as (y & E & B & C); [lia | | lia | assumption |
    cbn [back_terms] in E; exists y; rewrite E; split; [reflexivity|]; split; [exact B|];
    split; [intros; discriminate|]; intros e' Ee; injection Ee as <-; cbn [nth sum_terms sum Nat.sub Nat.add] in *;
    match goal with C : cong _ ?x ?u |- cong _ ?x ?v => replace v with u by ring; exact C end];
  cbn [In]; intros ? ? Hin; repeat destruct Hin as [Hin|Hin]; try contradiction; injection Hin as <- <-; lia.

Lemma mrg2_back_ok cl e : mc_modulus cl = m -> mc_order cl = 2%nat -> mc_backward cl = mrg2_backward ->
  (e <= 2)%nat -> back_ok cl e.
Proof.
  intros Em Ek Eb He a r. cbv zeta. rewrite Em, Ek, Eb. clear Em Ek Eb cl. intros (La & Ha) (Lr & Hr) Z0 N0.
  destruct a as [|a0 [|a1 [|]]]; try discriminate La. destruct r as [|r0 [|r1 [|]]]; try discriminate Lr.
  assert (A0 := Ha 0%nat ltac:(lia)). assert (A1 := Ha 1%nat ltac:(lia)).
  assert (R0 := Hr 0%nat ltac:(lia)). assert (R1 := Hr 1%nat ltac:(lia)). assert (G := m2).
  destruct e as [|e']; [|assert (N := N0 e' eq_refl); destruct e' as [|[|]]; [| |lia]];
    try (assert (Z1 := Z0 1%nat ltac:(lia))); try (assert (Z00 := Z0 0%nat ltac:(lia)));
    clear Ha Hr Z0 N0; cbn [nth] in *; subst; cbn [mrg2_backward tl app]; cbn [Z.eqb negb].
  - exists 0. split; [reflexivity|]. split; [lia|]. split; [reflexivity|]. intros; discriminate.
  - destruct (Z.eqb_spec a0 0) as [|_]; [contradiction|]. cbn [negb]. back_case r1 (@nil (Z * Z)) a0.
  - destruct (Z.eqb_spec a1 0) as [|_]; [contradiction|]. cbn [negb]. back_case r0 [(a0, r1)] a1.
Qed.

Lemma mrg3_back_ok cl e : mc_modulus cl = m -> mc_order cl = 3%nat -> mc_backward cl = mrg3_backward ->
  (e <= 3)%nat -> back_ok cl e.
Proof.
  intros Em Ek Eb He a r. cbv zeta. rewrite Em, Ek, Eb. clear Em Ek Eb cl. intros (La & Ha) (Lr & Hr) Z0 N0.
  destruct a as [|a0 [|a1 [|a2 [|]]]]; try discriminate La. destruct r as [|r0 [|r1 [|r2 [|]]]]; try discriminate Lr.
  assert (A0 := Ha 0%nat ltac:(lia)). assert (A1 := Ha 1%nat ltac:(lia)). assert (A2 := Ha 2%nat ltac:(lia)).
  assert (R0 := Hr 0%nat ltac:(lia)). assert (R1 := Hr 1%nat ltac:(lia)). assert (R2 := Hr 2%nat ltac:(lia)).
  assert (G := m2).
  destruct e as [|e']; [|assert (N := N0 e' eq_refl); destruct e' as [|[|[|]]]; [| | |lia]];
    try (assert (Z2 := Z0 2%nat ltac:(lia)));
    try (assert (Z1 := Z0 1%nat ltac:(lia))); try (assert (Z00 := Z0 0%nat ltac:(lia)));
    clear Ha Hr Z0 N0; cbn [nth] in *; subst; cbn [mrg3_backward tl app]; cbn [Z.eqb negb].
  - exists 0. split; [reflexivity|]. split; [lia|]. split; [reflexivity|]. intros; discriminate.
  - destruct (Z.eqb_spec a0 0) as [|_]; [contradiction|]. cbn [negb]. back_case r2 (@nil (Z * Z)) a0.
  - destruct (Z.eqb_spec a1 0) as [|_]; [contradiction|]. cbn [negb]. back_case r1 [(a0, r2)] a1.
  - destruct (Z.eqb_spec a2 0) as [|_]; [contradiction|]. cbn [negb]. back_case r0 [(a0, r1); (a1, r2)] a2.
Qed.

Lemma mrg4_back_ok cl e : mc_modulus cl = m -> mc_order cl = 4%nat -> mc_backward cl = mrg4_backward ->
  (e <= 4)%nat -> back_ok cl e.
Proof.
  intros Em Ek Eb He a r. cbv zeta. rewrite Em, Ek, Eb. clear Em Ek Eb cl. intros (La & Ha) (Lr & Hr) Z0 N0.
  destruct a as [|a0 [|a1 [|a2 [|a3 [|]]]]]; try discriminate La.
  destruct r as [|r0 [|r1 [|r2 [|r3 [|]]]]]; try discriminate Lr.
  assert (A0 := Ha 0%nat ltac:(lia)). assert (A1 := Ha 1%nat ltac:(lia)). assert (A2 := Ha 2%nat ltac:(lia)).
  assert (A3 := Ha 3%nat ltac:(lia)).
  assert (R0 := Hr 0%nat ltac:(lia)). assert (R1 := Hr 1%nat ltac:(lia)). assert (R2 := Hr 2%nat ltac:(lia)).
  assert (R3 := Hr 3%nat ltac:(lia)). assert (G := m2).
  destruct e as [|e']; [|assert (N := N0 e' eq_refl); destruct e' as [|[|[|[|]]]]; [| | | |lia]];
    try (assert (Z3 := Z0 3%nat ltac:(lia))); try (assert (Z2 := Z0 2%nat ltac:(lia)));
    try (assert (Z1 := Z0 1%nat ltac:(lia))); try (assert (Z00 := Z0 0%nat ltac:(lia)));
    clear Ha Hr Z0 N0; cbn [nth] in *; subst; cbn [mrg4_backward tl app]; cbn [Z.eqb negb].
  - exists 0. split; [reflexivity|]. split; [lia|]. split; [reflexivity|]. intros; discriminate.
  - destruct (Z.eqb_spec a0 0) as [|_]; [contradiction|]. cbn [negb]. back_case r3 (@nil (Z * Z)) a0.
  - destruct (Z.eqb_spec a1 0) as [|_]; [contradiction|]. cbn [negb]. back_case r2 [(a0, r3)] a1.
  - destruct (Z.eqb_spec a2 0) as [|_]; [contradiction|]. cbn [negb]. back_case r1 [(a0, r2); (a1, r3)] a2.
  - destruct (Z.eqb_spec a3 0) as [|_]; [contradiction|]. cbn [negb]. back_case r0 [(a0, r1); (a1, r2); (a2, r3)] a3.
Qed.

(** Only the full order is right. *)
Lemma mrg5_back_ok cl e : mc_modulus cl = m -> mc_order cl = 5%nat -> mc_backward cl = mrg5_backward ->
  e = 5%nat \/ e = 0%nat -> back_ok cl e.
Proof.
  intros Em Ek Eb He a r. cbv zeta. rewrite Em, Ek, Eb. clear Em Ek Eb cl. intros (La & Ha) (Lr & Hr) Z0 N0.
  destruct a as [|a0 [|a1 [|a2 [|a3 [|a4 [|]]]]]]; try discriminate La.
  destruct r as [|r0 [|r1 [|r2 [|r3 [|r4 [|]]]]]]; try discriminate Lr.
  assert (A0 := Ha 0%nat ltac:(lia)). assert (A1 := Ha 1%nat ltac:(lia)). assert (A2 := Ha 2%nat ltac:(lia)).
  assert (A3 := Ha 3%nat ltac:(lia)). assert (A4 := Ha 4%nat ltac:(lia)).
  assert (R0 := Hr 0%nat ltac:(lia)). assert (R1 := Hr 1%nat ltac:(lia)). assert (R2 := Hr 2%nat ltac:(lia)).
  assert (R3 := Hr 3%nat ltac:(lia)). assert (R4 := Hr 4%nat ltac:(lia)). assert (G := m2).
  destruct He as [-> | ->].
  - assert (N := N0 4%nat eq_refl). clear Ha Hr Z0 N0; cbn [nth] in *; cbn [mrg5_backward tl app].
    destruct (Z.eqb_spec a4 0) as [|_]; [contradiction|]. cbn [negb].
    back_case r0 [(a0, r1); (a1, r2); (a2, r3); (a3, r4)] a4.
  - assert (Z4 := Z0 4%nat ltac:(lia)). assert (Z3 := Z0 3%nat ltac:(lia)). assert (Z2 := Z0 2%nat ltac:(lia)).
    assert (Z1 := Z0 1%nat ltac:(lia)). assert (Z00 := Z0 0%nat ltac:(lia)).
    clear Ha Hr Z0 N0; cbn [nth] in *; subst. cbn [mrg5_backward tl app Z.eqb negb].
    exists 0. split; [reflexivity|]. split; [lia|]. split; [reflexivity|]. intros; discriminate.
Qed.
End Step.

(** ** The six classes *)
Lemma prime_p31 : prime 2147483647. Proof. apply primroot_yarn. Qed.
Lemma prime_3s : prime 2147462579. Proof. apply primroot_yarn3s. Qed.
Lemma prime_5s : prime 2147461007. Proof. apply primroot_yarn5s. Qed.

Lemma class_prime cl : In cl mrg_classes -> prime (mc_modulus cl).
Proof.
  cbn [mrg_classes In]. intros H.
  repeat destruct H as [<-|H]; cbn [mc_modulus mrg2_class mrg3_class mrg3s_class mrg4_class mrg5_class mrg5s_class];
    first [exact prime_p31 | exact prime_3s | exact prime_5s | contradiction].
Qed.
Lemma class_m31 cl : In cl mrg_classes -> mc_modulus cl < 2 ^ 31.
Proof. cbn [mrg_classes In]. intros H. repeat destruct H as [<-|H]; try reflexivity. contradiction. Qed.
Lemma class_order cl : In cl mrg_classes -> (1 <= mc_order cl <= 5)%nat.
Proof. cbn [mrg_classes In]. intros H. repeat destruct H as [<-|H]; cbn; try lia. Qed.

Lemma class_step cl : In cl mrg_classes -> step_ok cl.
Proof.
  cbn [mrg_classes In]. intros H.
  repeat destruct H as [<-|H]; try contradiction; intros a r;
    cbn [mc_modulus mc_order mc_step mrg2_class mrg3_class mrg3s_class mrg4_class mrg5_class mrg5s_class];
    intros Ha Hr.
  - apply mrg2_step_ok; [exact prime_p31 | reflexivity | exact Ha | exact Hr].
  - apply mrg3_step_ok; [exact prime_p31 | reflexivity | exact Ha | exact Hr].
  - apply mrg3_step_ok; [exact prime_3s | reflexivity | exact Ha | exact Hr].
  - apply mrg4_step_ok; [exact prime_p31 | reflexivity | exact Ha | exact Hr].
  - apply mrg5_step_ok; [exact prime_p31 | reflexivity | lia | exact Ha | exact Hr].
  - apply mrg5_step_ok; [exact prime_5s | reflexivity | lia | exact Ha | exact Hr].
Qed.

(** All effective orders for mrg2, mrg3, mrg3s, mrg4; only full order (and the zero recurrence) for mrg5, mrg5s. *)
Lemma class_back cl e : In cl mrg_classes -> (e <= mc_order cl)%nat ->
  e = mc_order cl \/ e = 0%nat \/ (mc_order cl < 5)%nat -> back_ok cl e.
Proof.
  cbn [mrg_classes In]. intros H He Hc.
  repeat destruct H as [<-|H]; try contradiction; cbn [mc_order mrg2_class mrg3_class mrg3s_class mrg4_class mrg5_class mrg5s_class] in *.
  - eapply mrg2_back_ok; [exact prime_p31 | reflexivity.. | exact He].
  - eapply mrg3_back_ok; [exact prime_p31 | reflexivity.. | exact He].
  - eapply mrg3_back_ok; [exact prime_3s | reflexivity.. | exact He].
  - eapply mrg4_back_ok; [exact prime_p31 | reflexivity.. | exact He].
  - eapply mrg5_back_ok; [exact prime_p31 | reflexivity.. | lia].
  - eapply mrg5_back_ok; [exact prime_5s | reflexivity.. | lia].
Qed.
