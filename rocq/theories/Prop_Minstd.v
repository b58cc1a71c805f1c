(** Properties C10-C12 and the minstd part of C09. *)
From Coq Require Import ZArith List Bool Lia.
From Verif Require Import Base BaseFacts Cong Spec SpecFacts Pratt MinstdModel MinstdProofs.
Open Scope Z_scope.

Lemma after_minstd n r : after minstd_next n r = Nat.iter n minstd_step r.
Proof. apply after_step. reflexivity. Qed.
Lemma draw_minstd r k : draw minstd_next r k = Nat.iter (S k) minstd_step r.
Proof. unfold draw. rewrite after_minstd. reflexivity. Qed.

(** ** C10: the draw is 16807*r mod 2^31-1 (the product fits in 64 bits), and the state stays legal. *)
Theorem C10_minstd_step : forall r, 1 <= r <= 2 ^ 31 - 2 ->
  minstd_next r = ((16807 * r) mod (2 ^ 31 - 1), (16807 * r) mod (2 ^ 31 - 1)) /\
  1 <= (16807 * r) mod (2 ^ 31 - 1) <= 2 ^ 31 - 2 /\ 16807 * r < 2 ^ 64.
Proof.
  intros r Hr. assert (Hp : 1 <= r < p31) by (rewrite p31_eq; lia).
  assert (R := minstd_step_range r Hp). unfold minstd_next. rewrite minstd_step_spec in * by lia.
  rewrite p31_eq in *. split; [reflexivity|]. lia.
Qed.
Print Assumptions C10_minstd_step.

Example C10_case : minstd_next 2147483646 = (2147466840, 2147466840).
Proof. vm_compute. reflexivity. Qed.

(** ** C11 *)
Theorem C11_minstd_full_period : forall r, 1 <= r <= 2 ^ 31 - 2 ->
  full_cycle_stream minstd_next r 1 (2 ^ 31 - 1).
Proof.
  intros r Hr. assert (Hp : 1 <= r < p31) by (rewrite p31_eq; lia).
  assert (E : 2 ^ 31 - 1 - 1 = p31 - 1) by reflexivity.
  apply full_cycle_stream_intro; rewrite ?E.
  - intros k. rewrite draw_minstd, <- p31_eq. apply minstd_iter_range, Hp.
  - intros j k Hjk Hk. rewrite !draw_minstd. apply minstd_distinct; [exact Hp | lia | lia].
  - intros k. assert (Hn : Z.of_nat (Z.to_nat (p31 - 1)) = p31 - 1) by (apply Z2Nat.id; discriminate).
    revert Hn. generalize (Z.to_nat (p31 - 1)). intros n Hn. rewrite !draw_minstd.
    change (S (k + n)) with (S k + n)%nat. rewrite iter_add, (minstd_full n r) by assumption. reflexivity.
Qed.
Print Assumptions C11_minstd_full_period.

Example C11_case : draw minstd_next 1 2 = 1622650073 /\ 1 <= 1 <= 2 ^ 31 - 2.
Proof. split; [vm_compute; reflexivity | lia]. Qed.

(** ** C12 *)
Theorem C12_minstd_discard : forall r n, 0 <= n < 2147483645 ->
  minstd_discard r n = after minstd_next (Z.to_nat n) r.
Proof.
  intros r n Hn. rewrite after_minstd. unfold minstd_discard.
  change (minstd_max - minstd_min) with 2147483645. rewrite Z.mod_small by exact Hn. reflexivity.
Qed.
Print Assumptions C12_minstd_discard.

(** discard(2147483645) does nothing, although the period is one more: from every legal state the
    result differs from that of drawing. *)
Theorem C12_minstd_discard_refuted : exists n, word 64 n /\
  forall r, 1 <= r <= 2 ^ 31 - 2 -> minstd_discard r n <> after minstd_next (Z.to_nat n) r.
Proof.
  exists 2147483645. split; [unfold word; lia|]. intros r Hr.
  assert (E0 : minstd_discard r 2147483645 = r) by reflexivity. rewrite E0, after_minstd.
  assert (Hn : Z.of_nat (Z.to_nat 2147483645) = p31 - 2) by (apply Z2Nat.id; discriminate).
  revert Hn. generalize (Z.to_nat 2147483645). intros n Hn E.
  assert (1 <= r < p31 /\ 0 < Z.of_nat n < p31 - 1) as (H1 & H2) by (rewrite p31_eq in *; lia).
  exact (minstd_cycle_distinct n r H1 H2 (eq_sym E)).
Qed.
Print Assumptions C12_minstd_discard_refuted.

Example C12_case : minstd_discard 1 3 = after minstd_next 3 1.
Proof. vm_compute. reflexivity. Qed.

(** ** C09 *)
Theorem C09_minstd_equal : forall r1 r2, minstd_eqb r1 r2 = true ->
  forall k, draw minstd_next r1 k = draw minstd_next r2 k.
Proof. intros r1 r2 E k. apply Z.eqb_eq in E. subst. reflexivity. Qed.
Print Assumptions C09_minstd_equal.

(** ** C59 *)
Theorem C59_minstd_seed : forall s, 0 <= s ->
  1 <= minstd_seed s <= 2 ^ 31 - 2 /\
  (forall k, minstd_min <= draw minstd_next (minstd_seed s) k <= minstd_max).
Proof.
  intros s Hs. assert (B : 1 <= minstd_seed s < p31).
  { unfold minstd_seed, wrap32. assert (B := Z.mod_pos_bound s 2147483647 ltac:(reflexivity)).
    rewrite (Z.mod_small (s mod 2147483647)) by lia.
    destruct (Z.eqb_spec (s mod 2147483647) 0); [split; [lia | reflexivity]|].
    change p31 with 2147483647. lia. }
  split; [rewrite p31_eq in B; lia|]. intros k. rewrite draw_minstd.
  assert (R := minstd_iter_range (S k) _ B). change minstd_min with 1.
  change minstd_max with (p31 - 1). lia.
Qed.
Print Assumptions C59_minstd_seed.

Example C59_minstd_case : minstd_seed 2147483647 = 1 /\ minstd_seed 2147483650 = 3.
Proof. split; reflexivity. Qed.
