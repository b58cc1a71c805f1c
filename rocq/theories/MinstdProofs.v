(** Proofs about the minstd model. *)
From Coq Require Import ZArith Znumtheory List Bool Lia Arith Setoid Morphisms.
From Verif Require Import Base BaseFacts Cong Spec SpecFacts Pratt MinstdModel.
Open Scope Z_scope.

Definition p31 : Z := 2147483647.
Lemma p31_eq : p31 = 2 ^ 31 - 1. Proof. reflexivity. Qed.

Lemma p31_gt : 16807 < p31. Proof. reflexivity. Qed.

Lemma minstd_step_spec r : 0 <= r < p31 -> minstd_step r = (16807 * r) mod p31.
Proof.
  intros Hr. assert (E := p31_eq). change p31 with 2147483647 in *.
  unfold minstd_step, wrap64, wrap32. cbv zeta.
  assert (L : forall t, Z.land t 2147483647 = t mod 2 ^ 31) by (intros; apply (Z.land_ones t 31); lia).
  rewrite (Z.mod_small (r * 16807)) by lia.
  rewrite L, Z.shiftr_div_pow2 by lia.
  assert (D := Z.div_mod (r * 16807) (2 ^ 31) ltac:(lia)).
  assert (B := Z.mod_pos_bound (r * 16807) (2 ^ 31) ltac:(lia)).
  set (q := r * 16807 / 2 ^ 31) in *. set (l := (r * 16807) mod 2 ^ 31) in *.
  assert (Hq : 0 <= q <= 16807) by lia.
  assert (Hu : l + q < 2 * 2147483647 ) by lia.
  rewrite (Z.mod_small (l + q)) by lia.
  destruct (Z.geb_spec (l + q) 2147483647).
  - rewrite (Z.mod_small (l + q - 2147483647)) by lia. apply Z.mod_unique with (q := q + 1); lia.
  - rewrite (Z.mod_small (l + q)) by lia. apply Z.mod_unique with (q := q); lia.
Qed.

Lemma p31_prime : prime p31. Proof. apply primroot_minstd. Qed.

Lemma mod_nonzero a r : prime p31 -> 0 < a < p31 -> 0 < r < p31 -> 1 <= (a * r) mod p31 < p31.
Proof.
  intros P Ha Hr. assert (B := Z.mod_pos_bound (a * r) p31 ltac:(reflexivity)).
  assert ((a * r) mod p31 <> 0); [|lia]. intros E.
  apply Z.mod_divide in E; [|lia]. apply prime_mult in E; [|exact P].
  destruct E as [E|E]; apply Z.divide_pos_le in E; lia.
Qed.

Lemma minstd_step_range r : 1 <= r < p31 -> 1 <= minstd_step r < p31.
Proof.
  intros Hr. rewrite minstd_step_spec by lia. apply mod_nonzero; [exact p31_prime | split; reflexivity | lia].
Qed.

Lemma minstd_iter_range n r : 1 <= r < p31 -> 1 <= Nat.iter n minstd_step r < p31.
Proof. intros H. apply (iter_inv (fun r => 1 <= r < p31)); [apply minstd_step_range | exact H]. Qed.

Lemma minstd_iter n r : 1 <= r < p31 -> Nat.iter n minstd_step r = (16807 ^ Z.of_nat n * r) mod p31.
Proof.
  intros Hr. induction n.
  - change (16807 ^ Z.of_nat 0) with 1. rewrite Z.mul_1_l. symmetry. apply Z.mod_small. cbn. lia.
  - assert (B := minstd_iter_range n r Hr). cbn [Nat.iter nat_rect]. unfold Nat.iter in *.
    rewrite minstd_step_spec by lia. rewrite IHn, Nat2Z.inj_succ, Z.pow_succ_r by lia.
    rewrite Z.mul_mod_idemp_r by discriminate. f_equal. ring.
Qed.

Lemma minstd_cycle_distinct n r : 1 <= r < p31 -> 0 < Z.of_nat n < p31 - 1 ->
  Nat.iter n minstd_step r <> r.
Proof.
  intros Hr Hn E. rewrite minstd_iter in E by exact Hr.
  destruct primroot_minstd as (_ & P & O & _). apply (O (Z.of_nat n)); [exact Hn|].
  assert (D : (p31 | (16807 ^ Z.of_nat n - 1) * r)).
  { assert (C : cong p31 (16807 ^ Z.of_nat n * r) r).
    { apply cong_iff; [discriminate|]. rewrite E. symmetry. apply Z.mod_small. lia. }
    destruct C as [k C]. exists k. rewrite <- C. ring. }
  apply prime_mult in D; [|exact P]. destruct D as [D|D].
  - change 2147483647 with p31. rewrite <- (Z.mod_small 1 p31) by (assert (G := p31_gt); lia).
    apply mod_cong; [discriminate|]. exact D.
  - apply Z.divide_pos_le in D; lia.
Qed.

Lemma minstd_full n r : 1 <= r < p31 -> Z.of_nat n = p31 - 1 -> Nat.iter n minstd_step r = r.
Proof.
  intros Hr Hn. rewrite minstd_iter, Hn by exact Hr.
  destruct primroot_minstd as (_ & _ & _ & F & _).
  change (2147483647 - 1) with (p31 - 1) in F. change 2147483647 with p31 in F.
  rewrite <- Z.mul_mod_idemp_l, F, Z.mul_1_l by discriminate. apply Z.mod_small. lia.
Qed.

Lemma minstd_step_inj x y : 1 <= x < p31 -> 1 <= y < p31 -> minstd_step x = minstd_step y -> x = y.
Proof.
  intros Hx Hy E. assert (G := p31_gt).
  assert (exists k, Z.of_nat (S k) = p31 - 1) as (k & Hk) by (exists (Z.to_nat (p31 - 2)); lia).
  rewrite <- (minstd_full _ x Hx Hk), <- (minstd_full _ y Hy Hk).
  rewrite !iter_S_r, E. reflexivity.
Qed.

Lemma minstd_iter_inj n x y : 1 <= x < p31 -> 1 <= y < p31 ->
  Nat.iter n minstd_step x = Nat.iter n minstd_step y -> x = y.
Proof.
  revert x y. induction n; intros x y Hx Hy E; [exact E|].
  rewrite !iter_S_r in E. apply IHn in E; try apply minstd_step_range; try assumption.
  apply minstd_step_inj; assumption.
Qed.

Lemma minstd_distinct r i j : 1 <= r < p31 -> (i < j)%nat -> Z.of_nat (j - i) < p31 - 1 ->
  Nat.iter i minstd_step r <> Nat.iter j minstd_step r.
Proof.
  intros Hr Hij Hd E. replace j with (i + (j - i))%nat in E by lia. rewrite iter_add in E.
  apply minstd_iter_inj in E; [|exact Hr | apply minstd_iter_range, Hr].
  symmetry in E. apply minstd_cycle_distinct in E; [exact E | exact Hr | lia].
Qed.
