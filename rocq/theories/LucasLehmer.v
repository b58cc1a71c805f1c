(** Primes of the form 2^p - 1: the test of Lucas and Lehmer, with the intermediate values given as literals. *)
From Coq Require Import ZArith Znumtheory List Bool Arith Lia.
From Verif Require Import Base BaseFacts Cong Spec SpecFacts.
Import ListNotations.
Open Scope Z_scope.

Lemma cong_refl m x : cong m x x. Proof. reflexivity. Qed.
Lemma cong_sym m x y : cong m x y -> cong m y x. Proof. intros H. symmetry. exact H. Qed.
Lemma cong_trans m x y z : cong m x y -> cong m y z -> cong m x z. Proof. intros H H'. etransitivity; eassumption. Qed.
Lemma cong_add m x x' y y' : cong m x x' -> cong m y y' -> cong m (x + y) (x' + y').
Proof. intros H H'. rewrite H, H'. reflexivity. Qed.
Lemma cong_sub m x x' y y' : cong m x x' -> cong m y y' -> cong m (x - y) (x' - y').
Proof. intros H H'. rewrite H, H'. reflexivity. Qed.
Lemma cong_mul m x x' y y' : cong m x x' -> cong m y y' -> cong m (x * y) (x' * y').
Proof. intros H H'. rewrite H, H'. reflexivity. Qed.

(** ** Arithmetic *)

(** Squares. *)
Fixpoint sqp (x : positive) : positive :=
  match x with xH => xH | xO q => xO (xO (sqp q)) | xI q => xI (xO (sqp q + q)) end.
(** The lowest n bits and the rest. *)
Fixpoint low (n : nat) (x : positive) : N * N :=
  match n with
  | O => (0%N, Npos x)
  | S n' =>
    match x with
    | xH => (1%N, 0%N)
    | xO q => let '(l, h) := low n' q in (N.double l, h)
    | xI q => let '(l, h) := low n' q in (N.succ_double l, h)
    end
  end.
(** r is s s - 2 modulo M = 2^n - 1 *)
Definition ll_step (n : nat) (M s r : positive) : bool :=
  let '(l, h) := low n (sqp s) in
  let v := (l + h)%N in N.eqb v (Npos (r + 2)) || N.eqb v (Npos (r + 2 + M)).
Fixpoint ll_chain (n : nat) (M s : positive) (l : list positive) : bool :=
  match l with [] => Pos.eqb s M | r :: l' => if ll_step n M s r then ll_chain n M r l' else false end.

Lemma sqp_eq x : sqp x = (x * x)%positive.
Proof. induction x as [q IH|q IH|]; cbn [sqp]; [| |reflexivity]; rewrite IH; lia. Qed.
Lemma low_eq n : forall x l h, low n x = (l, h) -> Z.pos x = Z.of_N l + 2 ^ Z.of_nat n * Z.of_N h.
Proof.
  induction n as [|n IH]; intros x l h E; cbn [low] in E.
  - injection E as <- <-. change (2 ^ Z.of_nat 0) with 1. lia.
  - rewrite Nat2Z.inj_succ, Z.pow_succ_r by lia. destruct x as [q|q|].
    + destruct (low n q) as (l1 & h1) eqn:E1. injection E as <- <-. specialize (IH _ _ _ E1).
      replace (Z.of_N (N.succ_double l1)) with (2 * Z.of_N l1 + 1) by lia. lia.
    + destruct (low n q) as (l1 & h1) eqn:E1. injection E as <- <-. specialize (IH _ _ _ E1).
      replace (Z.of_N (N.double l1)) with (2 * Z.of_N l1) by lia. lia.
    + injection E as <- <-. lia.
Qed.
Lemma ll_step_ok n M s r : Z.pos M = 2 ^ Z.of_nat n - 1 -> ll_step n M s r = true -> cong (Z.pos M) (Z.pos r) (Z.pos s * Z.pos s - 2).
Proof.
  intros HM E. unfold ll_step in E. destruct (low n (sqp s)) as (l & h) eqn:L. apply low_eq in L. rewrite sqp_eq, Pos2Z.inj_mul in L.
  assert (V : Z.of_N l + Z.of_N h = Z.pos r + 2 \/ Z.of_N l + Z.of_N h = Z.pos r + 2 + Z.pos M).
  { apply orb_prop in E. destruct E as [E|E]; apply N.eqb_eq in E; [left | right]; lia. }
  unfold cong. rewrite L. replace (2 ^ Z.of_nat n) with (Z.pos M + 1) by lia.
  destruct V as [V|V]; [exists (- Z.of_N h) | exists (- Z.of_N h - 1)]; lia.
Qed.

(** ** Powers of 2 + sqrt 3 *)
Fixpoint AB (n : nat) : Z * Z := match n with O => (1, 0) | S n' => let '(a, b) := AB n' in (2 * a + 3 * b, a + 2 * b) end.
Definition A n := fst (AB n).
Definition B n := snd (AB n).
Lemma A_S n : A (S n) = 2 * A n + 3 * B n. Proof. unfold A, B. cbn [AB]. destruct (AB n). reflexivity. Qed.
Lemma B_S n : B (S n) = A n + 2 * B n. Proof. unfold A, B. cbn [AB]. destruct (AB n). reflexivity. Qed.
Lemma AB_add m n : A (m + n) = A m * A n + 3 * B m * B n /\ B (m + n) = A m * B n + B m * A n.
Proof.
  induction m as [|m (IA & IB)].
  - cbn [Nat.add]. change (A 0) with 1. change (B 0) with 0. lia.
  - cbn [Nat.add]. rewrite !A_S, !B_S, IA, IB. split; ring.
Qed.
Lemma AB_norm n : A n * A n - 3 * (B n * B n) = 1.
Proof. induction n as [|n IH]; [reflexivity|]. rewrite A_S, B_S. rewrite <- IH. ring. Qed.
Lemma A_twice n : A (n + n) = 2 * (A n * A n) - 1.
Proof. rewrite (proj1 (AB_add n n)). assert (H := AB_norm n). lia. Qed.
Lemma AB_diff i d : A d = A (i + d) * A i - 3 * (B (i + d) * B i) /\ B d = B (i + d) * A i - A (i + d) * B i.
Proof.
  destruct (AB_add i d) as (E1 & E2). assert (H := AB_norm i). rewrite E1, E2. split.
  - transitivity (A d * (A i * A i - 3 * (B i * B i))); [rewrite H; ring | ring].
  - transitivity (B d * (A i * A i - 3 * (B i * B i))); [rewrite H; ring | ring].
Qed.

Lemma chain_ok p M : Z.pos M = 2 ^ Z.of_nat p - 1 -> forall l s n, ll_chain p M s l = true -> cong (Z.pos M) (Z.pos s) (2 * A n) ->
  exists h, Z.of_nat h = 2 ^ Z.of_nat (length l) * Z.of_nat n /\ cong (Z.pos M) (2 * A h) 0.
Proof.
  intros HM. induction l as [|r l IH]; intros s n E C; cbn [ll_chain] in E.
  - apply Pos.eqb_eq in E. subst s. exists n. split; [cbn [length]; change (2 ^ Z.of_nat 0) with 1; lia|].
    apply cong_sym in C. apply (cong_trans _ _ (Z.pos M)); [exact C|]. exists 1. lia.
  - destruct (ll_step p M s r) eqn:St; [|discriminate E]. apply (ll_step_ok p M s r HM) in St.
    destruct (IH r (n + n)%nat E) as (h & Hh & Ch).
    + apply (cong_trans _ _ (Z.pos s * Z.pos s - 2)); [exact St|].
      apply (cong_trans _ _ (2 * A n * (2 * A n) - 2)).
      * apply cong_sub; [apply cong_mul; exact C | apply cong_refl].
      * rewrite A_twice. exists 0. ring.
    + exists h. split; [|exact Ch]. rewrite Hh. cbn [length]. rewrite Nat2Z.inj_succ, Z.pow_succ_r, Nat2Z.inj_add by lia. ring.
Qed.

(** ** The test *)
Section Test.
Variables (p : nat) (q : Z) (h : nat).
Hypothesis Hp : (2 <= p)%nat.
Hypothesis Hh : Z.of_nat h = 2 ^ (Z.of_nat p - 2).
Hypothesis Hq : 2 < q.
Hypothesis Hodd : Z.gcd q 2 = 1.
Hypothesis Hz : cong q (2 * A h) 0.

Lemma half x : cong q (2 * x) 0 -> cong q x 0.
Proof. unfold cong. rewrite !Z.sub_0_r. intros D. apply Gauss in D; [exact D|]. apply Zgcd_1_rel_prime, Hodd. Qed.
Lemma at_half : cong q (A (h + h)) (-1) /\ cong q (B (h + h)) 0.
Proof.
  assert (Z0 := half _ Hz). destruct Z0 as [c Hc]. rewrite Z.sub_0_r in Hc. split.
  - rewrite A_twice, Hc. exists (2 * c * (c * q)). ring.
  - rewrite (proj2 (AB_add h h)), Hc. exists (2 * c * B h). ring.
Qed.
Lemma times n a : cong q (A n) a -> a * a = 1 -> cong q (B n) 0 ->
  forall m, cong q (A (m * n)) (if Nat.even m then 1 else a) /\ cong q (B (m * n)) 0.
Proof.
  intros HA Ha HB. induction m as [|m (IA & IB)]; [split; [exists 0; reflexivity | exists 0; reflexivity]|].
  destruct (AB_add n (m * n)) as (E1 & E2). cbn [Nat.mul]. rewrite E1, E2. rewrite Nat.even_succ, <- Nat.negb_even. split.
  - apply (cong_trans _ _ (a * (if Nat.even m then 1 else a) + 3 * 0 * 0)).
    + apply cong_add; [apply cong_mul; assumption|]. apply cong_mul; [|exact IB]. apply cong_mul; [apply cong_refl | exact HB].
    + destruct (Nat.even m); cbn [negb]; rewrite ?Ha; exists 0; ring.
  - apply (cong_trans _ _ (a * 0 + 0 * (if Nat.even m then 1 else a))).
    + apply cong_add; apply cong_mul; assumption.
    + exists 0. ring.
Qed.
Lemma split2 d : (0 < d)%nat -> exists a m, d = (2 ^ a * m)%nat /\ Nat.even m = false.
Proof.
  revert d. apply (well_founded_induction Wf_nat.lt_wf (fun d => (0 < d)%nat -> exists a m, d = (2 ^ a * m)%nat /\ Nat.even m = false)).
  intros d IH Hd. destruct (Nat.even d) eqn:E.
  - apply Nat.even_spec in E. destruct E as [d' ->]. destruct (IH d') as (a & m & E & O); [lia | lia|].
    exists (S a), m. split; [|exact O]. rewrite Nat.pow_succ_r'. lia.
  - exists 0%nat, d. split; [cbn; lia | exact E].
Qed.
(** No power below 2^p is one. *)
Lemma no_return d : (0 < d)%nat -> Z.of_nat d < 2 ^ Z.of_nat p -> cong q (A d) 1 -> cong q (B d) 0 -> False.
Proof.
  intros Hd Lt HA HB. destruct (split2 d Hd) as (a & m & Ed & Om).
  assert (Ha : (a < p)%nat).
  { destruct (Nat.lt_ge_cases a p) as [L|L]; [exact L|]. exfalso.
    assert (P1 : 2 ^ Z.of_nat p <= 2 ^ Z.of_nat a) by (apply Z.pow_le_mono_r; lia).
    assert (P2 : Z.of_nat d = 2 ^ Z.of_nat a * Z.of_nat m) by (rewrite Ed, Nat2Z.inj_mul, Nat2Z.inj_pow; reflexivity).
    assert (1 <= Z.of_nat m) by (destruct m; [discriminate Om | lia]). nia. }
  destruct at_half as (HA2 & HB2).
  destruct (times (h + h) (-1) HA2 eq_refl HB2 m) as (T1 & _). rewrite Om in T1.
  destruct (times d 1 HA eq_refl HB (2 ^ (p - 1 - a))) as (T2 & _).
  assert (E : (m * (h + h) = 2 ^ (p - 1 - a) * d)%nat).
  { apply Nat2Z.inj. rewrite Ed, !Nat2Z.inj_mul, Nat2Z.inj_add, !Nat2Z.inj_pow, Hh. change (Z.of_nat 2) with 2.
    rewrite !Nat2Z.inj_sub by lia. change (Z.of_nat 1) with 1.
    rewrite Z.mul_assoc, <- Z.pow_add_r by lia. replace (Z.of_nat p - 1 - Z.of_nat a + Z.of_nat a) with (Z.succ (Z.of_nat p - 2)) by lia.
    rewrite Z.pow_succ_r by lia. ring. }
  rewrite E in T1. assert (C : cong q (-1) 1).
  { apply (cong_trans _ _ (A (2 ^ (p - 1 - a) * d))); [apply cong_sym, T1|]. destruct (Nat.even (2 ^ (p - 1 - a))); exact T2. }
  destruct C as [c Hc]. assert (H2 : q * - c = 2) by lia. assert (0 < - c) by nia. nia.
Qed.
Lemma big : 2 ^ Z.of_nat p <= q * q.
Proof.
  destruct (Z_le_gt_dec (2 ^ Z.of_nat p) (q * q)) as [L|G]; [exact L | exfalso].
  assert (R : forall n, 0 <= A n mod q < q /\ 0 <= B n mod q < q) by (intros n; split; apply Z.mod_pos_bound; lia).
  destruct (inj_surj_Z (2 ^ Z.of_nat p) (fun n => q * (A (Z.to_nat n) mod q) + B (Z.to_nat n) mod q)) with (v := q * q) as (x & Hx & E).
  - intros x Hx. destruct (R (Z.to_nat x)). nia.
  - assert (W : forall x y, 0 <= x < y -> y < 2 ^ Z.of_nat p ->
      q * (A (Z.to_nat x) mod q) + B (Z.to_nat x) mod q = q * (A (Z.to_nat y) mod q) + B (Z.to_nat y) mod q -> False).
    { intros x y Hx Hy E. destruct (R (Z.to_nat x)) as (R1 & R2). destruct (R (Z.to_nat y)) as (R3 & R4).
      assert (EA : A (Z.to_nat x) mod q = A (Z.to_nat y) mod q) by nia.
      assert (EB : B (Z.to_nat x) mod q = B (Z.to_nat y) mod q) by nia.
      assert (CA : cong q (A (Z.to_nat y)) (A (Z.to_nat x))) by (apply cong_iff; [lia | congruence]).
      assert (CB : cong q (B (Z.to_nat y)) (B (Z.to_nat x))) by (apply cong_iff; [lia | congruence]).
      set (i := Z.to_nat x) in *. set (d := Z.to_nat (y - x)).
      assert (Ey : Z.to_nat y = (i + d)%nat) by lia. rewrite Ey in CA, CB. destruct (AB_diff i d) as (D1 & D2). assert (N1 := AB_norm i).
      apply (no_return d); [lia | lia | |].
      - rewrite D1. rewrite <- N1. apply cong_sub; [apply cong_mul; [exact CA | apply cong_refl]|].
        apply cong_mul; [apply cong_refl|]. apply cong_mul; [exact CB | apply cong_refl].
      - rewrite D2. apply (cong_trans _ _ (B i * A i - A i * B i)); [|exists 0; ring].
        apply cong_sub; apply cong_mul; try apply cong_refl; assumption. }
    intros x y Hx Hy E. destruct (Z.lt_trichotomy x y) as [L|[L|L]]; [exfalso; apply (W x y); lia | exact L | exfalso; apply (W y x); lia].
  - nia.
  - destruct (R (Z.to_nat x)). nia.
Qed.
End Test.

Lemma prime_below N : 1 < N -> ~ prime N -> exists q, prime q /\ (q | N) /\ q * q <= N.
Proof.
  intros HN No. destruct (not_prime_divide N HN No) as (d & Hd & [e He]). assert (E2 : 1 < e < N) by nia.
  assert (PF : forall z, 1 < z -> exists p, prime p /\ (p | z)).
  { intros z Hz. assert (Z0 : 0 <= z) by lia. revert Hz. pattern z. apply Z_lt_induction; [|exact Z0]. clear z Z0. intros z IH Hz.
    destruct (prime_dec z) as [Y|No']; [exists z; split; [exact Y | apply Z.divide_refl]|].
    destruct (not_prime_divide z Hz No') as (y & Hy & Dy). destruct (IH y) as (p & Pp & Dp); [lia | lia |].
    exists p. split; [exact Pp | apply Z.divide_trans with y; assumption]. }
  assert (W : forall a b, 1 < a <= b -> N = a * b -> exists q, prime q /\ (q | N) /\ q * q <= N).
  { intros a b Hab E. destruct (PF a ltac:(lia)) as (q & Pq & Dq). exists q. split; [exact Pq|].
    assert (L := Z.divide_pos_le q a ltac:(lia) Dq). assert (G := prime_ge_2 q Pq).
    split; [apply Z.divide_trans with a; [exact Dq | exists b; lia] | nia]. }
  destruct (Z_le_gt_dec d e) as [L|L]; [apply (W d e); lia | apply (W e d); lia].
Qed.

Theorem lucas_lehmer p M l : (3 <= p)%nat -> Z.pos M = 2 ^ Z.of_nat p - 1 -> Z.of_nat (length l) = Z.of_nat p - 2 -> ll_chain p M 4 l = true ->
  prime (Z.pos M).
Proof.
  intros Hp HM Hl Ch. destruct (chain_ok p M HM l 4 1 Ch) as (h & Hh & Cz); [exists 0; reflexivity|].
  rewrite Hl in Hh. change (Z.of_nat 1) with 1 in Hh. rewrite Z.mul_1_r in Hh.
  assert (P8 : 2 ^ 3 <= 2 ^ Z.of_nat p) by (apply Z.pow_le_mono_r; lia). change (2 ^ 3) with 8 in P8.
  destruct (prime_dec (Z.pos M)) as [Y|No]; [exact Y | exfalso].
  destruct (prime_below (Z.pos M)) as (q & Pq & [c Hc] & Lq); [lia | exact No|].
  assert (G2 := prime_ge_2 q Pq).
  assert (Podd : Z.pos M mod 2 = 1).
  { rewrite HM. replace (Z.of_nat p) with (Z.succ (Z.of_nat p - 1)) by lia. rewrite Z.pow_succ_r by lia.
    replace (2 * 2 ^ (Z.of_nat p - 1) - 1) with (1 + (2 ^ (Z.of_nat p - 1) - 1) * 2) by ring. rewrite Z_mod_plus_full. reflexivity. }
  assert (N2 : q <> 2) by (intros ->; rewrite Hc, Z_mod_mult in Podd; discriminate Podd).
  assert (Go : Z.gcd q 2 = 1).
  { apply Zgcd_1_rel_prime, rel_prime_sym. apply prime_rel_prime; [exact prime_2|]. intros D.
    assert (2 = q) by (apply prime_div_prime; [exact prime_2 | exact Pq | exact D]). congruence. }
  assert (K : 2 ^ Z.of_nat p <= q * q).
  { apply (big p q h); [lia | exact Hh | lia | exact Go|]. unfold cong in *. apply Z.divide_trans with (Z.pos M); [exists c; exact Hc | exact Cz]. }
  lia.
Qed.
