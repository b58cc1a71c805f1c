(** Primitive roots: a certificate for primality of N and for g generating the units modulo N. *)
From Coq Require Import ZArith Znumtheory Zpow_facts List Bool Lia Arith Setoid Morphisms.
From Verif Require Import Base BaseFacts Cong.
Open Scope Z_scope.

Definition primroot (N g : Z) : Prop :=
  1 < N /\ prime N /\
  (forall k, 0 < k < N - 1 -> g ^ k mod N <> 1) /\
  g ^ (N - 1) mod N = 1 /\
  (forall x, 1 <= x < N -> exists k, 0 <= k < N - 1 /\ g ^ k mod N = x).

Definition prod (l : list Z) : Z := fold_right Z.mul 1 l.

Lemma prime_factor_in_list c l : 1 < c -> (forall q, In q l -> prime q) -> (c | prod l) ->
  exists q, In q l /\ (q | c).
Proof.
  intros Hc. induction l as [|q l IH]; intros Hp D; cbn [prod fold_right] in D.
  - apply Z.divide_1_r_nonneg in D; lia.
  - destruct (Zdivide_dec q c) as [Y|N].
    + exists q. split; [left; reflexivity | exact Y].
    + assert (RP : rel_prime c q).
      { apply rel_prime_sym, prime_rel_prime; [apply Hp; left; reflexivity | exact N]. }
      apply Gauss in D; [|exact RP].
      destruct IH as (q' & Hin & Hd); [intros; apply Hp; right; assumption | exact D |].
      exists q'. split; [right; exact Hin | exact Hd].
Qed.

Section Pratt.
Variables (N g : Z) (l : list Z).
Hypothesis HN : 1 < N.
Hypothesis Hl : forall q, In q l -> prime q.
Hypothesis Hprod : prod l = N - 1.
Hypothesis H1 : g ^ (N - 1) mod N = 1.
Hypothesis Hq : forall q, In q l -> g ^ ((N - 1) / q) mod N <> 1.

Local Notation "x == y" := (cong N x y) (at level 70).

Lemma one_mod : 1 mod N = 1. Proof. apply Z.mod_small. lia. Qed.
Lemma iff1 x : x mod N = 1 <-> x == 1.
Proof. rewrite cong_iff by lia. rewrite one_mod. reflexivity. Qed.

Lemma pow_mult_one e k : 0 <= e -> 0 <= k -> g ^ e == 1 -> g ^ (e * k) == 1.
Proof.
  intros He Hk E. rewrite Z.pow_mul_r by lia. rewrite E. rewrite Z.pow_1_l by lia. reflexivity.
Qed.

Lemma order_exact k : 0 < k < N - 1 -> g ^ k mod N <> 1.
Proof.
  intros Hk E. apply (proj1 (iff1 _)) in E. assert (E1 := proj1 (iff1 _) H1).
  set (e := Z.gcd k (N - 1)).
  assert (He : 0 < e).
  { assert (e <> 0); [|assert (0 <= e) by apply Z.gcd_nonneg; lia].
    intros Z0. apply Z.gcd_eq_0_l in Z0. lia. }
  destruct (Z.gcd_divide_l k (N - 1)) as [k' Hk']. fold e in Hk'.
  destruct (Z.gcd_divide_r k (N - 1)) as [c Hc]. fold e in Hc.
  assert (Hek : e <= k) by (apply Z.divide_pos_le; [lia | exists k'; exact Hk']).
  assert (c1 : 1 < c) by nia.
  assert (Ee : g ^ e == 1).
  { destruct (Z.gcd_bezout k (N - 1) e eq_refl) as (u & v & B).
    set (u' := u mod (N - 1)).
    assert (Hu' : 0 <= u') by (apply Z.mod_pos_bound; lia).
    assert (D := Z.div_mod u (N - 1) ltac:(lia)). fold u' in D.
    set (w := - v - (u / (N - 1)) * k).
    assert (W : u' * k = e + w * (N - 1)) by (unfold w; nia).
    assert (Hw : 0 <= w).
    { assert (P0 : 0 <= u' * k) by (apply Z.mul_nonneg_nonneg; lia).
      destruct (Z.lt_ge_cases w 0) as [L|]; [exfalso | assumption].
      assert (w * (N - 1) <= (-1) * (N - 1)) by (apply Z.mul_le_mono_nonneg_r; lia). lia. }
    clearbody w u'.
    assert (A : g ^ (u' * k) == 1) by (rewrite Z.mul_comm; apply pow_mult_one; lia || assumption).
    rewrite W, Z.pow_add_r in A by (try apply Z.mul_nonneg_nonneg; lia).
    rewrite (Z.mul_comm w), pow_mult_one, Z.mul_1_r in A by (lia || assumption). exact A. }
  destruct (prime_factor_in_list c l c1 Hl) as (q & Hin & [d Hd]).
  { rewrite Hprod, Hc. exists e. ring. }
  apply (Hq q Hin). apply iff1.
  assert (Hq0 : 0 < q) by (assert (P := prime_ge_2 q (Hl q Hin)); lia).
  replace ((N - 1) / q) with (e * d).
  - apply pow_mult_one; [lia | nia | exact Ee].
  - rewrite Hc, Hd. replace (d * q * e) with (e * d * q) by ring. rewrite Z.div_mul by lia. reflexivity.
Qed.

Lemma pow_inv i : 0 <= i <= N - 1 -> g ^ i * g ^ (N - 1 - i) == 1.
Proof.
  intros Hi. rewrite <- Z.pow_add_r by lia. replace (i + (N - 1 - i)) with (N - 1) by lia.
  apply iff1, H1.
Qed.

Lemma pow_distinct i j : 0 <= i < j -> j < N - 1 -> g ^ i mod N <> g ^ j mod N.
Proof.
  intros Hi Hj E. apply (proj2 (cong_iff N _ _ ltac:(lia))) in E.
  apply (order_exact (j - i)); [lia|]. apply iff1.
  replace j with (i + (j - i)) in E by lia. rewrite Z.pow_add_r in E by lia.
  rewrite <- (Z.mul_1_l (g ^ (j - i))). rewrite <- (pow_inv i) by lia.
  replace (g ^ i * g ^ (N - 1 - i) * g ^ (j - i)) with (g ^ (N - 1 - i) * (g ^ i * g ^ (j - i))) by ring.
  rewrite <- E. rewrite Z.mul_comm. reflexivity.
Qed.

Lemma pow_nonzero i : 0 <= i < N - 1 -> 1 <= g ^ i mod N < N.
Proof.
  intros Hi. assert (B := Z.mod_pos_bound (g ^ i) N ltac:(lia)).
  assert (g ^ i mod N <> 0); [|lia]. intros Z0.
  assert (A := pow_inv i ltac:(lia)). rewrite <- (cong_mod N (g ^ i)), Z0, Z.mul_0_l in A.
  apply (proj2 (iff1 _)) in A. rewrite Z.mod_0_l in A by lia. discriminate.
Qed.

Lemma pow_onto x : 1 <= x < N -> exists k, 0 <= k < N - 1 /\ g ^ k mod N = x.
Proof.
  intros Hx. destruct (inj_surj_Z (N - 1) (fun k => g ^ k mod N - 1)) with (v := x - 1) as (k & Hk & E).
  - intros k Hk. assert (B := pow_nonzero k Hk). lia.
  - intros i j Hi Hj E. destruct (Z.lt_trichotomy i j) as [L|[->|L]]; [|reflexivity|]; exfalso.
    + apply (pow_distinct i j); lia.
    + apply (pow_distinct j i); lia.
  - lia.
  - exists k. split; [exact Hk | lia].
Qed.

Lemma pratt_prime : prime N.
Proof.
  apply prime_intro; [exact HN|]. intros x Hx.
  destruct (pow_onto x Hx) as (k & Hk & E).
  assert (A := pow_inv k ltac:(lia)). rewrite <- (cong_mod N (g ^ k)), E in A.
  destruct A as [q A]. apply bezout_rel_prime.
  apply Bezout_intro with (u := g ^ (N - 1 - k)) (v := - q). lia.
Qed.

Theorem pratt : primroot N g.
Proof.
  split; [exact HN|]. split; [exact pratt_prime|]. split; [exact order_exact|].
  split; [exact H1 | exact pow_onto].
Qed.
End Pratt.

(** Executable certificate check (the factors of N-1 must be known primes). *)
Definition pratt_check (N g : Z) (l : list Z) : bool :=
  (1 <? N) && (prod l =? N - 1) && (Zpow_mod g (N - 1) N =? 1)
  && forallb (fun q => negb (Zpow_mod g ((N - 1) / q) N =? 1)) l.

Lemma pratt_ok N g l : (forall q, In q l -> prime q) -> pratt_check N g l = true -> primroot N g.
Proof.
  intros Hl H. unfold pratt_check in H. rewrite !andb_true_iff in H.
  destruct H as [[[HN Hp] H1] Hq]. apply Z.ltb_lt in HN. apply Z.eqb_eq in Hp, H1.
  rewrite Zpow_mod_correct in H1 by lia. rewrite forallb_forall in Hq.
  apply pratt with l; try assumption.
  intros q Hin E. specialize (Hq q Hin). rewrite Zpow_mod_correct in Hq by lia.
  rewrite E in Hq. discriminate.
Qed.

(** Small primes by trial division. *)
Definition prime_check (p : Z) : bool :=
  (1 <? p) && forallb (fun d => Z.gcd (Z.of_nat d) p =? 1) (seq 1 (Z.to_nat p - 1)).
Lemma prime_check_ok p : prime_check p = true -> prime p.
Proof.
  unfold prime_check. rewrite andb_true_iff, forallb_forall. intros [H1 H]. apply Z.ltb_lt in H1.
  apply prime_intro; [exact H1|]. intros n Hn. apply Zgcd_1_rel_prime.
  specialize (H (Z.to_nat n)). rewrite Z2Nat.id in H by lia.
  apply Z.eqb_eq, H, in_seq. lia.
Qed.

Lemma prime_of_pratt N g l : (forall q, In q l -> prime q) -> pratt_check N g l = true -> prime N.
Proof. intros Hl H. apply (pratt_ok N g l Hl H). Qed.

Ltac in_cases := cbn [In]; intros ? Hin;
  repeat destruct Hin as [<-|Hin]; [.. | destruct Hin].

(** The prime factors needed for the moduli of the library. *)
Lemma small_primes q : In q (2 :: 3 :: 5 :: 7 :: 11 :: 13 :: 17 :: 23 :: 31 ::
  41 :: 67 :: 131 :: 151 :: 331 :: nil) -> prime q.
Proof.
  intros Hin. apply prime_check_ok. revert q Hin. apply Forall_forall.
  repeat constructor; vm_compute; reflexivity.
Qed.

Lemma prime_5503 : prime 5503.
Proof.
  apply prime_of_pratt with (g := 3) (l := 2 :: 3 :: 7 :: 131 :: nil).
  - in_cases; first [ apply small_primes; cbn [In]; tauto ].
  - vm_compute. reflexivity.
Qed.

Lemma prime_22013 : prime 22013.
Proof.
  apply prime_of_pratt with (g := 2) (l := 2 :: 2 :: 5503 :: nil).
  - in_cases; first [ apply small_primes; cbn [In]; tauto | exact prime_5503 ].
  - vm_compute. reflexivity.
Qed.

Lemma prime_44027 : prime 44027.
Proof.
  apply prime_of_pratt with (g := 2) (l := 2 :: 22013 :: nil).
  - in_cases; first [ apply small_primes; cbn [In]; tauto | exact prime_22013 ].
  - vm_compute. reflexivity.
Qed.

Lemma prime_27509 : prime 27509.
Proof.
  apply prime_of_pratt with (g := 2) (l := 2 :: 2 :: 13 :: 23 :: 23 :: nil).
  - in_cases; first [ apply small_primes; cbn [In]; tauto ].
  - vm_compute. reflexivity.
Qed.

Lemma prime_41297327 : prime 41297327.
Proof.
  apply prime_of_pratt with (g := 5) (l := 2 :: 7 :: 67 :: 44027 :: nil).
  - in_cases; first [ apply small_primes; cbn [In]; tauto | exact prime_44027 ].
  - vm_compute. reflexivity.
Qed.

Lemma prime_1073731289 : prime 1073731289.
Proof.
  apply prime_of_pratt with (g := 3) (l := 2 :: 2 :: 2 :: 7 :: 17 :: 41 :: 27509 :: nil).
  - in_cases; first [ apply small_primes; cbn [In]; tauto | exact prime_27509 ].
  - vm_compute. reflexivity.
Qed.

Lemma prime_1073730503 : prime 1073730503.
Proof.
  apply prime_of_pratt with (g := 5) (l := 2 :: 13 :: 41297327 :: nil).
  - in_cases; first [ apply small_primes; cbn [In]; tauto | exact prime_41297327 ].
  - vm_compute. reflexivity.
Qed.

Lemma primroot_minstd : primroot 2147483647 16807.
Proof.
  apply pratt_ok with (l := 2 :: 3 :: 3 :: 7 :: 11 :: 31 :: 151 :: 331 :: nil).
  - in_cases; first [ apply small_primes; cbn [In]; tauto ].
  - vm_compute. reflexivity.
Qed.

Lemma primroot_yarn : primroot 2147483647 123567893.
Proof.
  apply pratt_ok with (l := 2 :: 3 :: 3 :: 7 :: 11 :: 31 :: 151 :: 331 :: nil).
  - in_cases; first [ apply small_primes; cbn [In]; tauto ].
  - vm_compute. reflexivity.
Qed.

Lemma primroot_yarn3s : primroot 2147462579 1616076847.
Proof.
  apply pratt_ok with (l := 2 :: 1073731289 :: nil).
  - in_cases; first [ apply small_primes; cbn [In]; tauto | exact prime_1073731289 ].
  - vm_compute. reflexivity.
Qed.

Lemma primroot_yarn5s : primroot 2147461007 889744251.
Proof.
  apply pratt_ok with (l := 2 :: 1073730503 :: nil).
  - in_cases; first [ apply small_primes; cbn [In]; tauto | exact prime_1073730503 ].
  - vm_compute. reflexivity.
Qed.

