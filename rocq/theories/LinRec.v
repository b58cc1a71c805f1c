(** Linear recurrences modulo a prime: decimation, Hankel systems, periodicity.
    Everything is about functions nat -> Z up to congruence. *)
From Coq Require Import ZArith Znumtheory List Bool Arith Lia.
From Verif Require Import Base BaseFacts Cong Sums IntMathModel GaussModel GaussProofs.
Import ListNotations.
Open Scope Z_scope.

(** ** Pigeonhole for an infinite sequence with finitely many values *)
Lemma repeat_or_distinct (f : nat -> Z) n :
  (exists i j, (i < j < n)%nat /\ f i = f j) \/ (forall i j, (i < j < n)%nat -> f i <> f j).
Proof.
  induction n; [right; intros; lia|]. destruct IHn as [(i & j & H & E) | D].
  { left. exists i, j. split; [lia | exact E]. }
  assert (K : forall k, (k <= n)%nat -> (exists i, (i < k)%nat /\ f i = f n) \/ (forall i, (i < k)%nat -> f i <> f n)).
  { induction k; intros Hk; [right; intros; lia|]. destruct IHk as [(i & H & E) | D']; [lia| |].
    - left. exists i. split; [lia | exact E].
    - destruct (Z.eq_dec (f k) (f n)) as [E|N]; [left; exists k; split; [lia | exact E]|].
      right. intros i Hi. destruct (Nat.eq_dec i k) as [->|Ni]; [exact N | apply D'; lia]. }
  destruct (K n (le_n n)) as [(i & H & E) | D'].
  - left. exists i, n. split; [lia | exact E].
  - right. intros i j Hij. destruct (Nat.eq_dec j n) as [->|Nj]; [apply D'; lia | apply D; lia].
Qed.

Lemma pigeonhole (N : nat) (f : nat -> Z) : (forall i, 0 <= f i < Z.of_nat N) ->
  exists i j, (i < j)%nat /\ f i = f j.
Proof.
  intros R. destruct (repeat_or_distinct f N) as [(i & j & H & E) | D].
  - exists i, j. split; [lia | exact E].
  - destruct (inj_surj N f (fun i _ => R i) D (f N) (R N)) as (i & Hi & E). exists i, N. split; assumption.
Qed.

Section LinRec.
Variables (p : Z).
Hypothesis Hp : prime p.
Hypothesis Hp31 : p < 2 ^ 31.

Notation "x == y" := (cong p x y) (at level 70).

Lemma p_gt : 1 < p. Proof. assert (H := prime_ge_2 p Hp). lia. Qed.

Lemma cancel c x y : ~ c == 0 -> c * x == c * y -> x == y.
Proof.
  intros N E. unfold cong in E. replace (c * x - c * y) with (c * (x - y)) in E by ring.
  destruct (prime_mult p Hp _ _ E) as [D|D]; [|exact D]. elim N. apply cong_0. exact D.
Qed.

Lemma one_not_0 : ~ 1 == 0.
Proof.
  intros H. apply cong_0 in H. assert (G := p_gt). apply Z.divide_1_r_nonneg in H; lia.
Qed.

Lemma cong_dec x y : {x == y} + {~ x == y}.
Proof. apply Zdivide_dec. Qed.

(** u(i+k) = c_0 u(i+k-1) + ... + c_(k-1) u(i) *)
Definition isrec (k : nat) (c : nat -> Z) (u : nat -> Z) : Prop :=
  forall i, u (i + k)%nat == sum k (fun j => c j * u (i + (k - 1 - j))%nat).

Lemma isrec_zero k c z : isrec k c z -> (forall i, (i < k)%nat -> z i == 0) -> forall i, z i == 0.
Proof.
  intros R I i. induction i as [i IH] using lt_wf_ind.
  destruct (lt_dec i k) as [L|L]; [apply I; exact L|].
  replace i with ((i - k) + k)%nat by lia. rewrite (R (i - k)%nat). apply sum_cong_0. intros j Hj.
  rewrite IH by lia. rewrite Z.mul_0_r. reflexivity.
Qed.

Lemma isrec_comb k c u L e (f : nat -> nat) : isrec k c u ->
  isrec k c (fun i => sum L (fun l => e l * u (i + f l)%nat)).
Proof.
  intros R i. cbv beta.
  rewrite (sum_cong p L _ (fun l => sum k (fun j => e l * (c j * u (i + f l + (k - 1 - j))%nat)))).
  2:{ intros l Hl. replace (i + k + f l)%nat with (i + f l + k)%nat by lia. rewrite (R (i + f l)%nat).
      rewrite sum_mul_l. reflexivity. }
  rewrite sum_swap. apply sum_cong. intros j Hj. rewrite <- sum_mul_l. apply sum_cong. intros l Hl.
  replace (i + f l + (k - 1 - j))%nat with (i + (k - 1 - j) + f l)%nat by lia. exists 0. ring.
Qed.

(** Sequences with the same recurrence and the same start agree. *)
Lemma isrec_agree k c u v : isrec k c u -> isrec k c v -> (forall i, (i < k)%nat -> u i == v i) ->
  forall i, u i == v i.
Proof.
  intros U V I i. induction i as [i IH] using lt_wf_ind.
  destruct (lt_dec i k) as [L|L]; [apply I; exact L|].
  replace i with ((i - k) + k)%nat by lia. rewrite (U (i - k)%nat), (V (i - k)%nat).
  apply sum_cong. intros j Hj. rewrite IH by lia. reflexivity.
Qed.

(** ** u(i+t) is a fixed linear combination of u(i), ..., u(i+k-1) *)
Definition adv (k : nat) (c h : nat -> Z) : nat -> Z :=
  fun j => (match j with O => 0 | S j' => h j' end) + h (k - 1)%nat * c (k - 1 - j)%nat.
Definition coef (k : nat) (c : nat -> Z) (t : nat) : nat -> Z :=
  Nat.iter t (adv k c) (fun j => match j with O => 1 | S _ => 0 end).

Lemma coef_spec k c u : (1 <= k)%nat -> isrec k c u -> forall t i,
  u (i + t)%nat == sum k (fun j => coef k c t j * u (i + j)%nat).
Proof.
  intros Hk R t. induction t; intros i.
  - rewrite (sum_single k 0); [|lia|].
    + change (coef k c 0 0) with 1. rewrite Z.mul_1_l. reflexivity.
    + intros j Hj Nj. destruct j; [lia|]. reflexivity.
  - replace (i + S t)%nat with (S i + t)%nat by lia. rewrite (IHt (S i)).
    change (coef k c (S t)) with (adv k c (coef k c t)). generalize (coef k c t). intros h.
    unfold adv. destruct k as [|k]; [lia|]. replace (S k - 1)%nat with k by lia.
    rewrite (sum_ext (S k) (fun j => (match j with O => 0 | S j' => h j' end + h k * c (k - j)%nat) * u (i + j)%nat)
      (fun j => (match j with O => 0 | S j' => h j' end) * u (i + j)%nat + h k * (c (k - j)%nat * u (i + j)%nat)))
      by (intros; ring).
    rewrite sum_add, sum_mul_l, (sum_shift k (fun j => match j with O => 0 | S j' => h j' end * u (i + j)%nat)).
    cbn [sum]. rewrite Z.mul_0_l, Z.add_0_l.
    rewrite (sum_ext k (fun i0 => h i0 * u (S i + i0)%nat) (fun j => h j * u (i + S j)%nat))
      by (intros; do 2 f_equal; lia).
    replace (S i + k)%nat with (i + S k)%nat by lia. rewrite (R i).
    rewrite (sum_rev (S k)). cbn [sum].
    rewrite (sum_ext k (fun i0 => c (S k - 1 - i0)%nat * u (i + (S k - 1 - (S k - 1 - i0)))%nat)
                       (fun j => c (k - j)%nat * u (i + j)%nat))
      by (intros j Hj; do 2 f_equal; lia).
    replace (S k - 1 - k)%nat with (k - k)%nat by lia. replace (i + (S k - 1 - (k - k)))%nat with (i + k)%nat by lia.
    reflexivity.
Qed.

(** ** Every s-th element satisfies a recurrence of the same order *)
Lemma decimate k c u s n0 : (1 <= k)%nat -> isrec k c u ->
  exists c', isrec k c' (fun i => u (n0 + i * s)%nat).
Proof.
  intros Hk R. assert (G := p_gt).
  pose (A := map (fun r => map (fun j => coef k c (j * s) r mod p) (seq 0 k)) (seq 0 k)).
  pose (B := map (fun r => coef k c (k * s) r mod p) (seq 0 k)).
  assert (EA : forall r j, (r < k)%nat -> (j < k)%nat -> ent A r j = coef k c (j * s) r mod p).
  { intros r j Hr Hj. unfold ent, A. rewrite (nth_map_seq _ k r) by exact Hr.
    rewrite (nth_map_seq _ k j) by exact Hj. reflexivity. }
  assert (EB : forall r, (r < k)%nat -> nth r B 0 = coef k c (k * s) r mod p).
  { intros r Hr. unfold B. rewrite (nth_map_seq _ k r) by exact Hr. reflexivity. }
  assert (Sys : in_range_system k p A B).
  { split; [unfold A; rewrite map_length, seq_length; reflexivity|].
    split; [unfold B; rewrite map_length, seq_length; reflexivity|].
    split; [intros r j Hr Hj; rewrite EA by assumption | intros r Hr; rewrite EB by assumption];
      apply Z.mod_pos_bound; lia. }
  (* a linear relation between the coefficient vectors is a relation of the sequence *)
  assert (Rel : forall x, forall i, sum k (fun j => x j * u (n0 + (i + j) * s)%nat) ==
                 sum k (fun r => row_sum k (matf A) x r * u (n0 + i * s + r)%nat)).
  { intros x i.
    rewrite (sum_cong p k (fun j => x j * u (n0 + (i + j) * s)%nat)
              (fun j => sum k (fun r => matf A r j * x j * u (n0 + i * s + r)%nat))).
    2:{ intros j Hj. replace (n0 + (i + j) * s)%nat with (n0 + i * s + j * s)%nat by lia.
        rewrite (coef_spec k c u Hk R (j * s)). rewrite <- sum_mul_l. apply sum_cong. intros r Hr.
        unfold matf. rewrite EA by assumption. rewrite (cong_mod p (coef k c (j * s) r)). exists 0. ring. }
    rewrite sum_swap. apply sum_cong. intros r Hr. unfold row_sum. rewrite sum_mul_r. reflexivity. }
  destruct (gauss_cases k p Hp Hp31 A B Sys) as [(x & _ & _ & _ & X) | (_ & i0 & Hi0 & (x & X1 & X2 & X3) & _)].
  - exists (fun j => vecf x (k - 1 - j)). intros i. cbv beta.
    replace (n0 + (i + k) * s)%nat with (n0 + i * s + k * s)%nat by lia.
    rewrite (coef_spec k c u Hk R (k * s)).
    rewrite (sum_cong p k _ (fun r => row_sum k (matf A) (vecf x) r * u (n0 + i * s + r)%nat)).
    2:{ intros r Hr. rewrite (X r Hr), EB by exact Hr. rewrite (cong_mod p (coef k c (k * s) r)). reflexivity. }
    rewrite <- Rel, sum_rev. reflexivity.
  - exists (fun l => if (l <? i0)%nat then - x (i0 - 1 - l)%nat else 0). intros i. cbv beta.
    assert (Z0 := Rel x (i + k - i0)%nat).
    rewrite (sum_cong_0 p k (fun r => row_sum k (matf A) x r * _)) in Z0
      by (intros r Hr; rewrite (X3 r Hr), Z.mul_0_l; reflexivity).
    rewrite (sum_split k (S i0)) in Z0 by lia.
    rewrite (sum_0 (k - S i0)) in Z0 by (intros j Hj; rewrite X2 by lia; ring).
    cbn [sum] in Z0. rewrite X1 in Z0. replace (i + k - i0 + i0)%nat with (i + k)%nat in Z0 by lia.
    rewrite (sum_split k i0) by lia.
    rewrite (sum_0 (k - i0)).
    2:{ intros j Hj. destruct (Nat.ltb_spec (i0 + j) i0); [lia | ring]. }
    rewrite (sum_rev i0).
    rewrite (sum_ext i0 _ (fun j => - 1 * (x j * u (n0 + (i + k - i0 + j) * s)%nat))).
    2:{ intros j Hj. destruct (Nat.ltb_spec (i0 - 1 - j) i0); [|lia].
        replace (i0 - 1 - (i0 - 1 - j))%nat with j by lia.
        replace (i + (k - 1 - (i0 - 1 - j)))%nat with (i + k - i0 + j)%nat by lia. ring. }
    rewrite sum_mul_l. unfold cong in *. destruct Z0 as [q Hq]. exists q. lia.
Qed.

(** ** The Hankel system solved by split *)
Definition hankel (k : nat) (y : nat -> Z) : list (list Z) :=
  map (fun i => map (fun j => y (k - 1 + i - j)%nat) (seq 0 k)) (seq 0 k).
Definition hankel_rhs (k : nat) (y : nat -> Z) : list Z := map (fun i => y (k + i)%nat) (seq 0 k).

Lemma hankel_solved k c y : (1 <= k)%nat -> isrec k c y -> (forall i, 0 <= y i < p) ->
  exists x, gauss k p (hankel k y) (hankel_rhs k y) = Val x /\ length x = k /\
    (forall i, (i < k)%nat -> 0 <= nth i x 0 < p) /\ isrec k (fun j => nth j x 0) y.
Proof.
  intros Hk R Ry. assert (G := p_gt).
  assert (EA : forall r j, (r < k)%nat -> (j < k)%nat -> ent (hankel k y) r j = y (k - 1 + r - j)%nat).
  { intros r j Hr Hj. unfold ent, hankel. rewrite (nth_map_seq _ k r) by exact Hr.
    rewrite (nth_map_seq _ k j) by exact Hj. reflexivity. }
  assert (EB : forall r, (r < k)%nat -> nth r (hankel_rhs k y) 0 = y (k + r)%nat).
  { intros r Hr. unfold hankel_rhs. rewrite (nth_map_seq _ k r) by exact Hr. reflexivity. }
  assert (Sys : in_range_system k p (hankel k y) (hankel_rhs k y)).
  { split; [unfold hankel; rewrite map_length, seq_length; reflexivity|].
    split; [unfold hankel_rhs; rewrite map_length, seq_length; reflexivity|].
    split; [intros r j Hr Hj; rewrite EA by assumption | intros r Hr; rewrite EB by assumption]; apply Ry. }
  assert (Row : forall x r, (r < k)%nat ->
    row_sum k (matf (hankel k y)) x r == sum k (fun j => x j * y (r + (k - 1 - j))%nat)).
  { intros x r Hr. unfold row_sum. apply sum_cong. intros j Hj. unfold matf. rewrite EA by assumption.
    replace (k - 1 + r - j)%nat with (r + (k - 1 - j))%nat by lia. exists 0. ring. }
  (* relations between columns extend to the whole sequence *)
  assert (Ext0 : forall x, (forall r, (r < k)%nat -> row_sum k (matf (hankel k y)) x r == 0) ->
                  forall i, sum k (fun j => x j * y (i + (k - 1 - j))%nat) == 0).
  { intros x X. apply (isrec_zero k c (fun i => sum k (fun j => x j * y (i + (k - 1 - j))%nat))).
    - apply (isrec_comb k c y k x (fun j => (k - 1 - j)%nat) R).
    - intros i Hi. cbv beta. rewrite <- Row by exact Hi. apply X, Hi. }
  destruct (gauss_cases k p Hp Hp31 _ _ Sys) as [(x & E & L & Rx & X) | (_ & i0 & Hi0 & (x & X1 & X2 & X3) & Ind & NS)].
  - exists x. split; [exact E|]. split; [exact L|]. split; [exact Rx|]. intros i.
    pose (e := fun l => match l with O => 1 | S j => - nth j x 0 end).
    pose (f := fun l => match l with O => k | S j => (k - 1 - j)%nat end).
    assert (Zr := isrec_comb k c y (S k) e f R).
    assert (Sh : forall i, sum (S k) (fun l => e l * y (i + f l)%nat) =
                 y (i + k)%nat - sum k (fun j => nth j x 0 * y (i + (k - 1 - j))%nat)).
    { intros i1. rewrite sum_shift. cbn [e f].
      rewrite (sum_ext k (fun i2 => - nth i2 x 0 * y (i1 + (k - 1 - i2))%nat)
                 (fun i2 => - 1 * (nth i2 x 0 * y (i1 + (k - 1 - i2))%nat))) by (intros; ring).
      rewrite sum_mul_l. ring. }
    assert (Z0 := isrec_zero k c _ Zr). cbv beta in Z0.
    assert (Zi : sum (S k) (fun l => e l * y (i + f l)%nat) == 0).
    { apply Z0. intros i1 Hi1. rewrite Sh. specialize (X i1 Hi1). rewrite Row, EB in X by exact Hi1.
      unfold vecf in X. rewrite X. replace (i1 + k)%nat with (k + i1)%nat by lia. exists 0. ring. }
    rewrite Sh in Zi. destruct Zi as [q Hq]. exists q. lia.
  - exfalso. assert (Ex := Ext0 x X3).
    assert (Ex' : forall i, sum i0 (fun j => x (S j) * y (i + (k - 1 - j))%nat) == - (x 0%nat * y (i + k)%nat)).
    { intros i. specialize (Ex (S i)). rewrite (sum_split k (S i0)) in Ex by lia.
      rewrite (sum_0 (k - S i0)) in Ex by (intros j Hj; rewrite X2 by lia; ring).
      rewrite sum_shift in Ex. replace (S i + (k - 1 - 0))%nat with (i + k)%nat in Ex by lia.
      rewrite (sum_ext i0 (fun i1 => x (S i1) * y (S i + (k - 1 - S i1))%nat)
                          (fun j => x (S j) * y (i + (k - 1 - j))%nat)) in Ex.
      2:{ intros j Hj. do 2 f_equal. lia. }
      destruct Ex as [q Hq]. exists q. lia. }
    destruct (cong_dec (x 0%nat) 0) as [Z0|N0].
    + (* the columns before i0 are dependent *)
      destruct i0 as [|i0]; [rewrite X1 in Z0; exact (one_not_0 Z0)|].
      pose (x' := fun j => if (j <=? i0)%nat then x (S j) else 0).
      assert (D := Ind x').
      assert (X' : x' i0 == 0).
      { apply D; [| |lia].
        - intros j Hj. unfold x'. destruct (Nat.leb_spec j i0); [lia | reflexivity].
        - intros r Hr. rewrite Row by exact Hr.
          rewrite (sum_split k (S i0)) by lia.
          rewrite (sum_0 (k - S i0)).
          2:{ intros j Hj. unfold x'. destruct (Nat.leb_spec (S i0 + j) i0); [lia | ring]. }
          rewrite (sum_ext (S i0) _ (fun j => x (S j) * y (r + (k - 1 - j))%nat)).
          2:{ intros j Hj. unfold x'. destruct (Nat.leb_spec j i0); [reflexivity | lia]. }
          rewrite (Ex' r), Z0. exists 0. ring. }
      unfold x' in X'. rewrite Nat.leb_refl, X1 in X'. exact (one_not_0 X').
    + (* the right-hand side is in the span *)
      assert (Pu : 0 < x 0%nat mod p < p).
      { assert (B := Z.mod_pos_bound (x 0%nat) p ltac:(lia)).
        assert (x 0%nat mod p <> 0); [|lia]. intros E. apply N0. apply cong_iff; [lia|].
        rewrite E, Z.mod_0_l by lia. reflexivity. }
      destruct (inverse_ok p Hp Hp31 _ Pu) as (t & _ & _ & Ht). rewrite (cong_mod p (x 0%nat)) in Ht.
      apply (NS (fun j => if (j <? i0)%nat then - t * x (S j) else 0)).
      * intros j Hj. destruct (Nat.ltb_spec j i0); [lia | reflexivity].
      * intros r Hr. rewrite Row, EB by exact Hr. rewrite (sum_split k i0) by lia.
        rewrite (sum_0 (k - i0)).
        2:{ intros j Hj. destruct (Nat.ltb_spec (i0 + j) i0); [lia | ring]. }
        rewrite (sum_ext i0 _ (fun j => - t * (x (S j) * y (r + (k - 1 - j))%nat))).
        2:{ intros j Hj. destruct (Nat.ltb_spec j i0); [ring | lia]. }
        rewrite sum_mul_l, (Ex' r).
        replace (- t * - (x 0%nat * y (r + k)%nat) + 0) with (x 0%nat * t * y (r + k)%nat) by ring.
        rewrite Ht. replace (k + r)%nat with (r + k)%nat by lia. exists 0. ring.
Qed.

(** ** Periodicity *)

(** the window u(i), ..., u(i+k-1) as a number *)
Definition code (k : nat) (u : nat -> Z) (i : nat) : Z := sum k (fun l => (u (i + l)%nat mod p) * p ^ Z.of_nat l).

Lemma code_range k u i : 0 <= code k u i < p ^ Z.of_nat k.
Proof.
  assert (G := p_gt). unfold code. induction k; cbn [sum]; [split; [lia | reflexivity]|].
  rewrite Nat2Z.inj_succ, Z.pow_succ_r by lia.
  assert (B := Z.mod_pos_bound (u (i + k)%nat) p ltac:(lia)).
  assert (0 < p ^ Z.of_nat k) by (apply Z.pow_pos_nonneg; lia). nia.
Qed.

Lemma code_inj k u i j : code k u i = code k u j -> forall l, (l < k)%nat -> u (i + l)%nat == u (j + l)%nat.
Proof.
  assert (G := p_gt). induction k; intros E l Hl; [lia|].
  assert (Ri := code_range k u i). assert (Rj := code_range k u j).
  unfold code in E. cbn [sum] in E. fold (code k u i) in E. fold (code k u j) in E.
  assert (Pp : 0 < p ^ Z.of_nat k) by (apply Z.pow_pos_nonneg; lia).
  assert (Ek : u (i + k)%nat mod p = u (j + k)%nat mod p).
  { apply (Z.div_mod_unique (p ^ Z.of_nat k) _ _ (code k u i) (code k u j)); [left; lia | left; lia |].
    rewrite (Z.mul_comm _ (u (i + k)%nat mod p)), (Z.mul_comm _ (u (j + k)%nat mod p)). lia. }
  destruct (Nat.eq_dec l k) as [->|N].
  - apply cong_iff; [lia | exact Ek].
  - apply IHk; [rewrite Ek in E; lia | lia].
Qed.

Lemma isrec_shift k c u t : isrec k c u -> isrec k c (fun i => u (i + t)%nat).
Proof.
  intros R i. cbv beta. replace (i + k + t)%nat with (i + t + k)%nat by lia. rewrite (R (i + t)%nat).
  apply sum_cong. intros j Hj. replace (i + t + (k - 1 - j))%nat with (i + (k - 1 - j) + t)%nat by lia. reflexivity.
Qed.

(** The last coefficient is a unit: one can go back. *)
Lemma isrec_back k c u v : (1 <= k)%nat -> ~ c (k - 1)%nat == 0 -> isrec k c u -> isrec k c v ->
  (forall l, (l < k)%nat -> u (S l) == v (S l)) -> u 0%nat == v 0%nat.
Proof.
  intros Hk N U V E. destruct k as [|k]; [lia|]. replace (S k - 1)%nat with k in N by lia.
  assert (Ru := U 0%nat). assert (Rv := V 0%nat). cbn [sum] in Ru, Rv.
  replace (0 + (S k - 1 - k))%nat with 0%nat in Ru, Rv by lia.
  apply (cancel (c k) _ _ N).
  assert (Es : sum k (fun j => c j * u (0 + (S k - 1 - j))%nat) == sum k (fun j => c j * v (0 + (S k - 1 - j))%nat)).
  { apply sum_cong. intros j Hj. replace (0 + (S k - 1 - j))%nat with (S (k - 1 - j)) by lia.
    rewrite (E (k - 1 - j)%nat) by lia. reflexivity. }
  assert (E0 : u (0 + S k)%nat == v (0 + S k)%nat) by (apply (E k); lia).
  rewrite Ru, Rv, Es in E0. destruct E0 as [q Hq]. exists q. lia.
Qed.

Lemma isrec_periodic k c u : (1 <= k)%nat -> ~ c (k - 1)%nat == 0 -> isrec k c u ->
  exists T, (1 <= T)%nat /\ forall i, u (i + T)%nat == u i.
Proof.
  intros Hk N R. assert (G := p_gt).
  destruct (pigeonhole (Z.to_nat (p ^ Z.of_nat k)) (code k u)) as (i & j & Hij & E).
  { intros i. rewrite Z2Nat.id by (apply Z.pow_nonneg; lia). apply code_range. }
  exists (j - i)%nat. split; [lia|].
  (* windows agree at i; go back to 0 *)
  assert (K : forall d, (d <= i)%nat -> forall l, u (i - d + l + (j - i))%nat == u (i - d + l)%nat).
  { induction d; intros Hd.
    - assert (A := isrec_agree k c (fun l => u (l + j)%nat) (fun l => u (l + i)%nat)
                    (isrec_shift k c u j R) (isrec_shift k c u i R)).
      intros l. replace (i - 0 + l + (j - i))%nat with (l + j)%nat by lia.
      replace (i - 0 + l)%nat with (l + i)%nat by lia. apply A. intros l' Hl'. cbv beta.
      rewrite (Nat.add_comm l' j), (Nat.add_comm l' i). symmetry. apply (code_inj k u i j E). exact Hl'.
    - intros l. destruct l as [|l].
      + assert (B := isrec_back k c (fun l => u (l + (i - S d + (j - i)))%nat) (fun l => u (l + (i - S d))%nat) Hk N
                 (isrec_shift k c u _ R) (isrec_shift k c u _ R)). cbv beta in B.
        replace (i - S d + 0 + (j - i))%nat with (0 + (i - S d + (j - i)))%nat by lia.
        replace (i - S d + 0)%nat with (0 + (i - S d))%nat by lia. apply B.
        intros l Hl. specialize (IHd ltac:(lia) l).
        replace (S l + (i - S d + (j - i)))%nat with (i - d + l + (j - i))%nat by lia.
        replace (S l + (i - S d))%nat with (i - d + l)%nat by lia. exact IHd.
      + specialize (IHd ltac:(lia) l).
        replace (i - S d + S l + (j - i))%nat with (i - d + l + (j - i))%nat by lia.
        replace (i - S d + S l)%nat with (i - d + l)%nat by lia. exact IHd. }
  intros l. specialize (K i (le_n i) l). replace (i - i + l + (j - i))%nat with (l + (j - i))%nat in K by lia.
  replace (i - i + l)%nat with l in K by lia. exact K.
Qed.

(** The effective order: coefficients from [e] on vanish, the one before does not. *)
Definition eff_order (k : nat) (c : nat -> Z) (e : nat) : Prop :=
  (e <= k)%nat /\ (forall j, (e <= j < k)%nat -> c j == 0) /\ (forall e', e = S e' -> ~ c e' == 0).

Lemma eff_order_exists k c : exists e, eff_order k c e.
Proof.
  induction k as [|k (e & H1 & H2 & H3)].
  - exists 0%nat. split; [lia|]. split; intros; lia.
  - destruct (cong_dec (c k) 0) as [Z0|N].
    + exists e. split; [lia|]. split; [|exact H3]. intros j Hj.
      destruct (Nat.eq_dec j k) as [->|Nj]; [exact Z0 | apply H2; lia].
    + exists (S k). split; [lia|]. split; [intros; lia|]. intros e' E. injection E as <-. exact N.
Qed.

Lemma isrec_eff k c u e : isrec k c u -> eff_order k c e -> isrec e c (fun i => u (i + (k - e))%nat).
Proof.
  intros R (H1 & H2 & _) i. cbv beta. replace (i + e + (k - e))%nat with (i + k)%nat by lia. rewrite (R i).
  rewrite (sum_split k e) by lia. rewrite (sum_cong_0 p (k - e)).
  2:{ intros j Hj. rewrite (H2 (e + j)%nat) by lia. rewrite Z.mul_0_l. reflexivity. }
  rewrite Z.add_0_r. apply sum_cong. intros j Hj.
  replace (i + (k - 1 - j))%nat with (i + (e - 1 - j) + (k - e))%nat by lia. reflexivity.
Qed.

(** From index k on, the sequence is purely periodic, whatever the coefficients. *)
Lemma isrec_tail_periodic k c u : isrec k c u ->
  exists T, (1 <= T)%nat /\ forall i, (k <= i)%nat -> u (i + T)%nat == u i.
Proof.
  intros R. destruct (eff_order_exists k c) as (e & He). assert (R' := isrec_eff k c u e R He).
  destruct He as (H1 & H2 & H3). destruct e as [|e].
  - exists 1%nat. split; [lia|]. intros i Hi. assert (A := R' (i - k)%nat). assert (B := R' (i + 1 - k)%nat).
    cbn [sum] in A, B. replace (i - k + 0 + (k - 0))%nat with i in A by lia.
    replace (i + 1 - k + 0 + (k - 0))%nat with (i + 1)%nat in B by lia. rewrite A, B. reflexivity.
  - destruct (isrec_periodic (S e) c _ ltac:(lia) ltac:(replace (S e - 1)%nat with e by lia; apply H3; reflexivity) R')
      as (T & HT & P).
    exists T. split; [exact HT|]. intros i Hi. specialize (P (i - (k - S e))%nat). cbv beta in P.
    replace (i - (k - S e) + T + (k - S e))%nat with (i + T)%nat in P by lia.
    replace (i - (k - S e) + (k - S e))%nat with i in P by lia. exact P.
Qed.

Lemma periodic_mul (y : nat -> Z) T q : (forall i, y (i + T)%nat == y i) -> forall i, y (i + q * T)%nat == y i.
Proof.
  intros P. induction q; intros i; [replace (i + 0 * T)%nat with i by lia; reflexivity|].
  replace (i + S q * T)%nat with (i + q * T + T)%nat by lia. rewrite P. apply IHq.
Qed.

End LinRec.
