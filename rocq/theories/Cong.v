(** Congruence modulo m as a rewritable relation, geometric sums and affine iteration. *)
From Coq Require Import ZArith Znumtheory Lia Setoid Morphisms.
From Verif Require Import Base BaseFacts.
Open Scope Z_scope.

Definition cong (m x y : Z) : Prop := (m | x - y).

Global Instance cong_equiv m : Equivalence (cong m).
Proof.
  split.
  - intros x. exists 0. lia.
  - intros x y [k H]. exists (- k). lia.
  - intros x y z [k H] [l H']. exists (k + l). lia.
Qed.
Global Instance cong_add m : Proper (cong m ==> cong m ==> cong m) Z.add.
Proof. intros x y [k H] x' y' [l H']. exists (k + l). lia. Qed.
Global Instance cong_sub m : Proper (cong m ==> cong m ==> cong m) Z.sub.
Proof. intros x y [k H] x' y' [l H']. exists (k - l). lia. Qed.
Global Instance cong_opp m : Proper (cong m ==> cong m) Z.opp.
Proof. intros x y [k H]. exists (- k). lia. Qed.
Global Instance cong_mul m : Proper (cong m ==> cong m ==> cong m) Z.mul.
Proof.
  intros x y [k H] x' y' [l H']. exists (k * x' + y * l).
  replace (x * x' - y * y') with ((x - y) * x' + y * (x' - y')) by ring. rewrite H, H'. ring.
Qed.

Lemma cong_mod m x : cong m (x mod m) x.
Proof.
  destruct (Z.eq_dec m 0) as [->|N]; [rewrite Zmod_0_r; reflexivity|].
  exists (- (x / m)). rewrite (Z.div_mod x m) at 2 by exact N. ring.
Qed.

Lemma cong_iff m x y : m <> 0 -> cong m x y <-> x mod m = y mod m.
Proof.
  intros N. split.
  - intros [k H]. replace x with (y + k * m) by lia. apply Z.mod_add. exact N.
  - intros E. rewrite <- (cong_mod m x), E. apply cong_mod.
Qed.

Lemma cong_eq m x y : 0 <= x < m -> 0 <= y < m -> cong m x y -> x = y.
Proof.
  intros Hx Hy E. apply cong_iff in E; [|lia]. rewrite !Z.mod_small in E by assumption. exact E.
Qed.

Lemma mod_cong m x y : m <> 0 -> cong m x y -> x mod m = y mod m.
Proof. intros N E. apply cong_iff; assumption. Qed.

Lemma cong_pow m x y n : cong m x y -> cong m (x ^ n) (y ^ n).
Proof.
  intros E. destruct (Z.lt_ge_cases n 0).
  - rewrite !Z.pow_neg_r by lia. reflexivity.
  - revert n H. apply natlike_ind; [reflexivity|].
    intros k Hk IH. rewrite !Z.pow_succ_r by lia. rewrite IH, E. reflexivity.
Qed.
Global Instance cong_pow_proper m : Proper (cong m ==> eq ==> cong m) Z.pow.
Proof. intros x y E n ? <-. apply cong_pow, E. Qed.

Lemma cong_0 m x : cong m x 0 <-> (m | x).
Proof. unfold cong. rewrite Z.sub_0_r. reflexivity. Qed.

(** ** Geometric sums and affine iteration over Z *)

Fixpoint geo (a : Z) (n : nat) : Z :=
  match n with O => 0 | S k => 1 + a * geo a k end.

Lemma geo_add a m n : geo a (m + n) = geo a m + a ^ Z.of_nat m * geo a n.
Proof.
  induction m.
  - cbn [Nat.add geo Z.of_nat]. rewrite Z.pow_0_r. lia.
  - cbn [Nat.add geo]. rewrite IHm, Nat2Z.inj_succ, Z.pow_succ_r by lia. ring.
Qed.

Lemma geo_pow a n : (a - 1) * geo a n = a ^ Z.of_nat n - 1.
Proof.
  induction n; cbn [geo]; [simpl; lia|].
  rewrite Nat2Z.inj_succ, Z.pow_succ_r by lia.
  replace ((a - 1) * (1 + a * geo a n)) with (a - 1 + a * ((a - 1) * geo a n)) by ring.
  rewrite IHn. ring.
Qed.

Lemma geo_mul a m n : geo a (m * n) = geo a n * geo (a ^ Z.of_nat n) m.
Proof.
  induction m; cbn [Nat.mul geo]; [ring|].
  rewrite geo_add, IHm. ring.
Qed.

Lemma geo_cong m x y n : cong m x y -> cong m (geo x n) (geo y n).
Proof. intros E; induction n; cbn [geo]; [reflexivity|]. rewrite IHn, E. reflexivity. Qed.

Definition aff (a b r : Z) : Z := a * r + b.

Lemma aff_iter a b n r : Nat.iter n (aff a b) r = a ^ Z.of_nat n * r + geo a n * b.
Proof.
  induction n; cbn [Nat.iter nat_rect geo]; [cbn [Z.of_nat]; rewrite Z.pow_0_r; lia|].
  unfold Nat.iter in IHn. rewrite IHn, Nat2Z.inj_succ, Z.pow_succ_r by lia. unfold aff. ring.
Qed.
