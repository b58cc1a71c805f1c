(** Proofs about the count128_lcg_shift model. *)
From Coq Require Import ZArith Znumtheory List Bool Lia Arith Setoid Morphisms.
From Verif Require Import Base BaseFacts Cong Spec SpecFacts Lcg64Model Lcg64Proofs Count128Model.
Open Scope Z_scope.

Lemma M128_pos : 0 < 2 ^ 128. Proof. reflexivity. Qed.
Lemma wrap128_range x : word 128 (wrap128 x).
Proof. apply Z.mod_pos_bound. exact M128_pos. Qed.
Lemma wrap128_small x : word 128 x -> wrap128 x = x.
Proof. apply Z.mod_small. Qed.
Lemma wrap128_cong x : cong (2 ^ 128) (wrap128 x) x.
Proof. apply cong_mod. Qed.
Lemma wrap128_eq x y : cong (2 ^ 128) x y -> wrap128 x = wrap128 y.
Proof. apply mod_cong. discriminate. Qed.
Lemma wrap128_id r x : word 128 r -> cong (2 ^ 128) x r -> wrap128 x = r.
Proof. intros Hr H. rewrite (wrap128_eq _ _ H). apply wrap128_small, Hr. Qed.

Lemma c128_iter n R : word 128 (c_r R) ->
  Nat.iter n c128_step R = c128_set R (wrap128 (c_r R + Z.of_nat n * c_inc R)).
Proof.
  intros Hr. induction n; cbn [Nat.iter nat_rect].
  - change (Z.of_nat 0) with 0. rewrite Z.mul_0_l, Z.add_0_r, wrap128_small by exact Hr.
    destruct R; reflexivity.
  - unfold Nat.iter in IHn. rewrite IHn. unfold c128_step, c128_set. cbn [c_inc c_a c_b c_r].
    f_equal. apply wrap128_eq. rewrite wrap128_cong, Nat2Z.inj_succ.
    replace (c_r R + Z.succ (Z.of_nat n) * c_inc R) with (c_r R + Z.of_nat n * c_inc R + c_inc R) by ring.
    reflexivity.
Qed.

Lemma after_c128 hi n R : after (c128_next hi) n R = Nat.iter n c128_step R.
Proof. apply after_step. reflexivity. Qed.

Lemma c128_jump_steps R s : word 128 (c_r R) -> 0 <= s ->
  c128_jump R s = Nat.iter (Z.to_nat s) c128_step R.
Proof.
  intros Hr Hs. rewrite c128_iter, Z2Nat.id by assumption. unfold c128_jump. f_equal.
  apply wrap128_eq. rewrite wrap128_cong. reflexivity.
Qed.

Lemma c128_jump2_steps R s : word 128 (c_r R) -> 0 <= s < 128 ->
  c128_jump2 R s = Nat.iter (Z.to_nat (2 ^ s)) c128_step R.
Proof.
  intros Hr Hs. rewrite c128_iter, Z2Nat.id by (try apply Z.pow_nonneg; lia || assumption).
  unfold c128_jump2. rewrite Z.mod_small, Z.shiftl_1_l by lia. f_equal.
  apply wrap128_eq. rewrite !wrap128_cong. reflexivity.
Qed.

(** Draw k as a function of the counter value. *)
Lemma c128_draw hi R k : word 128 (c_r R) ->
  let r := wrap128 (c_r R + Z.of_nat (S k) * c_inc R) in
  draw (c128_next hi) R k = c128_mix (c_a R) (c_b R) (Z.lxor (lo64 r) (hi r)).
Proof.
  intros Hr r. unfold draw. rewrite after_c128. unfold c128_next. cbn zeta.
  change (c128_step (Nat.iter k c128_step R)) with (Nat.iter (S k) c128_step R).
  rewrite c128_iter by exact Hr. reflexivity.
Qed.

Lemma c128_split_leapfrog hi R s n : c128_ok R -> 1 <= s < 2 ^ 32 -> 0 <= n < s ->
  exists R', c128_split R s n = Returns R' /\ leapfrog (c128_next hi) R R' s n.
Proof.
  intros (Hi & Ha & Hb & Hr) Hs Hn. unfold c128_split.
  destruct (Z.ltb_spec s 1); [lia|]. destruct (Z.geb_spec n s); [lia|]. cbn [orb].
  destruct (Z.gtb_spec s 1).
  2:{ exists R; split; [reflexivity|]. intros k. f_equal. replace s with 1 by lia. lia. }
  eexists; split; [reflexivity|]. intros k.
  rewrite !c128_draw by (try apply wrap128_range; assumption). cbn zeta. cbn [c_inc c_a c_b c_r].
  assert (E : wrap128 (wrap128 (wrap128 (wrap128 (c_r R + wrap128 (n * c_inc R)) + c_inc R)
                 - wrap128 (c_inc R * s)) + Z.of_nat (S k) * wrap128 (c_inc R * s))
            = wrap128 (c_r R + Z.of_nat (S (k * Z.to_nat s + Z.to_nat n)) * c_inc R)).
  { apply wrap128_eq. rewrite !wrap128_cong.
    replace (Z.of_nat (S (k * Z.to_nat s + Z.to_nat n))) with (Z.of_nat k * s + n + 1) by lia.
    replace (Z.of_nat (S k)) with (Z.of_nat k + 1) by lia.
    replace (c_r R + n * c_inc R + c_inc R - c_inc R * s + (Z.of_nat k + 1) * (c_inc R * s))
       with (c_r R + (Z.of_nat k * s + n + 1) * c_inc R) by ring. reflexivity. }
  rewrite E. reflexivity.
Qed.

(** ** Output *)
Lemma c128_scramble_range t : word 64 t -> word 64 (c128_scramble t).
Proof. intros H. unfold c128_scramble. apply xorshr_range; [lia|]. apply xorshl64_range, xorshr_range; [lia|assumption]. Qed.

Lemma c128_scramble_inj x y : word 64 x -> word 64 y -> c128_scramble x = c128_scramble y -> x = y.
Proof.
  intros Hx Hy E. unfold c128_scramble in E.
  apply (xorshr_inj 64 18) in E; try lia; try (apply xorshl64_range, xorshr_range; [lia|assumption]).
  apply (xorshl_inj 64 41) in E; try lia; try (apply xorshr_range; [lia|assumption]).
  apply (xorshr_inj 64 23) in E; try lia; assumption.
Qed.

Lemma c128_mix_inj a b x y : Z.odd a = true -> word 64 x -> word 64 y ->
  c128_mix a b x = c128_mix a b y -> x = y.
Proof.
  intros Ho Hx Hy E. unfold c128_mix in E. apply c128_scramble_inj in E; try apply wrap64_range.
  apply (lcg_aff_inj a b); try assumption. unfold lcg_aff. rewrite (Z.mul_comm a x), (Z.mul_comm a y). exact E.
Qed.

Lemma c128_mix_range a b x : word 64 (c128_mix a b x).
Proof. apply c128_scramble_range, wrap64_range. Qed.

(** With the portable hi() the word that is scrambled is always 0. *)
Lemma portable_word r : Z.lxor (lo64 r) (hi_portable r) = 0.
Proof. apply Z.lxor_nilpotent. Qed.

(** ** State period *)
Lemma c128_state_period R n : c128_ok R -> Z.odd (c_inc R) = true -> (0 < n)%nat ->
  Nat.iter n c128_step R = R <-> (2 ^ 128 | Z.of_nat n).
Proof.
  intros (Hi & Ha & Hb & Hr) Ho Hn. rewrite c128_iter by exact Hr. split.
  - intros E. apply (f_equal c_r) in E. cbn [c128_set c_r] in E.
    assert (D : cong (2 ^ 128) (Z.of_nat n * c_inc R) 0).
    { rewrite <- (wrap128_small (c_r R)) in E at 2 by exact Hr.
      apply (proj2 (cong_iff (2 ^ 128) _ _ ltac:(discriminate))) in E. destruct E as [q E]. exists q. lia. }
    apply (proj1 (cong_0 _ _)) in D. apply (odd_div_pow2 128) in D; [exact D | exact Ho].
  - intros [q E]. rewrite E. replace (c_r R + q * 2 ^ 128 * c_inc R) with (c_r R + (q * c_inc R) * 2 ^ 128) by ring.
    rewrite (wrap128_id (c_r R)); [destruct R; reflexivity | exact Hr |]. exists (q * c_inc R). ring.
Qed.
