(** Properties C05-C09, C17, C60-C63 for lcg64_count_shift and count128_lcg_shift. *)
From Coq Require Import ZArith List Bool Lia.
From Verif Require Import Base BaseFacts Cong Spec SpecFacts Lcg64Model Lcg64Proofs
  CountShiftModel CountShiftProofs Count128Model Count128Proofs.
Open Scope Z_scope.

(** A concrete lcg64_count_shift engine (LEcuyer1 parameters) and a count128_lcg_shift engine. *)
Definition lcs_ex : lcs := Lcs (Lcg64 2862933555777941757 1 81985529216486895) 1425089352415399810 12345.
Example lcs_ex_ok : lcs_ok lcs_ex /\ Z.odd (lcg_a (cs_lcg lcs_ex)) = true.
Proof.
  split; [|reflexivity]. split; [unfold lcg64_ok, word; cbn; lia|].
  cbn. rewrite m_val. lia.
Qed.
Definition c128_ex : c128 := C128 c128_default_inc 2862933555777941757 1 81985529216486895.
Example c128_ex_ok : c128_ok c128_ex /\ Z.odd (c_inc c128_ex) = true.
Proof. split; [|reflexivity]. repeat split; (discriminate || reflexivity). Qed.

(** ** C05 *)
Theorem C05_lcg64_count_shift_permutation :
  forall count, permutes_words 64 (fun r => cs_out r count).
Proof.
  intros c. apply permutes_words_inj.
  - intros t _. apply lcg64_shift_out_range, wrap64_range.
  - intros x y Hx Hy. apply cs_out_inj; assumption.
Qed.
Print Assumptions C05_lcg64_count_shift_permutation.

(** The shifts of count128_lcg_shift alone, and with the multiplication by an odd a and the addition. *)
Theorem C05_count128_permutation :
  permutes_words 64 c128_scramble /\
  (forall a b, Z.odd a = true -> permutes_words 64 (c128_mix a b)).
Proof.
  split; [exact (permutes_words_inj 64 _ c128_scramble_range c128_scramble_inj)|].
  intros a b Ho. apply permutes_words_inj; [intros; apply c128_mix_range|].
  intros x y Hx Hy. apply c128_mix_inj; assumption.
Qed.
Print Assumptions C05_count128_permutation.

Example C05_count128_case : c128_mix 2862933555777941757 1 5 <> c128_mix 2862933555777941757 1 6.
Proof. intros E. apply c128_mix_inj in E; [discriminate | reflexivity | |]; unfold word; lia. Qed.

(** ** C06 *)
Lemma after_cs n R : after cs_next n R = Nat.iter n cs_step R.
Proof. apply after_step. reflexivity. Qed.

Theorem C06_count_shift_jump : forall R s, lcs_ok R -> 0 <= s < 2 ^ 61 - 1 ->
  cs_jump R s = Some (after cs_next (Z.to_nat s) R) /\
  cs_discard R s = Some (after cs_next (Z.to_nat s) R).
Proof.
  intros R s HR Hs. rewrite after_cs. unfold cs_discard.
  rewrite cs_jump_steps by (rewrite ?m_val; assumption). tauto.
Qed.
Print Assumptions C06_count_shift_jump.

Theorem C06_count_shift_jump2 : forall R s, lcs_ok R -> 0 <= s ->
  (s <= 63 -> cs_jump2 R s = Some (after cs_next (Z.to_nat (2 ^ s)) R)) /\
  (64 <= s -> cs_jump2 R s = None).
Proof.
  intros R s HR Hs. rewrite after_cs. split; intros L.
  - apply cs_jump2_steps; [exact HR | lia].
  - unfold cs_jump2, lcg64_jump2. destruct (Z.ltb_spec s 64); [lia | reflexivity].
Qed.
Print Assumptions C06_count_shift_jump2.

Example C06_case : lcs_ok lcs_ex /\ 0 <= 1000000 < 2 ^ 61 - 1.
Proof. split; [apply lcs_ex_ok | lia]. Qed.

(** For jumps of 2^61-1 and more the operand of the modular product is not reduced:
    jump(s) is not s draws. *)
Theorem C06_large_jump_refuted : exists R s R', lcs_ok R /\ word 64 s /\
  cs_jump R s = Some R' /\ draw cs_next R' 0 <> draw cs_next R (Z.to_nat s).
Proof.
  destruct cs_jump_4m as (R' & E & D).
  exists (Lcs (Lcg64 1 0 0) 1 0), (4 * cs_modulus), R'.
  split; [|split; [|split; [exact E | exact D]]].
  - repeat split; try (cbn; lia); rewrite m_val; cbn; lia.
  - rewrite m_val. unfold word. lia.
Qed.
Print Assumptions C06_large_jump_refuted.

(** ** C07 *)
Theorem C07_count_shift_leapfrog : forall R s n, lcs_ok R -> Z.odd (lcg_a (cs_lcg R)) = true ->
  1 <= s < 2 ^ 32 -> 0 <= n < s ->
  exists R', cs_split R s n = Returns R' /\ leapfrog cs_next R R' s n.
Proof. exact cs_split_leapfrog. Qed.
Print Assumptions C07_count_shift_leapfrog.

Theorem C07_count_shift_split_invalid : forall R s n, s < 1 \/ n >= s -> cs_split R s n = Throws.
Proof.
  intros R s n H. unfold cs_split.
  destruct (Z.ltb_spec s 1); [reflexivity|]. destruct (Z.geb_spec n s); [reflexivity | lia].
Qed.
Print Assumptions C07_count_shift_split_invalid.

Example C07_case : exists R', cs_split lcs_ex 5 3 = Returns R' /\
  draw cs_next R' 1 = draw cs_next lcs_ex 8.
Proof.
  destruct (C07_count_shift_leapfrog lcs_ex 5 3) as (R' & E & L); try lia; try apply lcs_ex_ok.
  exists R'. split; [exact E | exact (L 1%nat)].
Qed.

(** ** C08 (for every reading [hi] of the upper half) *)
Theorem C08_count128_jump : forall hi R s, c128_ok R -> word 64 s ->
  c128_jump R s = after (c128_next hi) (Z.to_nat s) R /\
  c128_discard R s = after (c128_next hi) (Z.to_nat s) R.
Proof.
  intros hi R s HR Hs. rewrite after_c128. unfold c128_discard.
  rewrite c128_jump_steps by (try apply HR; apply Hs). tauto.
Qed.
Print Assumptions C08_count128_jump.

Theorem C08_count128_jump2 : forall hi R s, c128_ok R -> 0 <= s < 128 ->
  c128_jump2 R s = after (c128_next hi) (Z.to_nat (2 ^ s)) R.
Proof. intros hi R s HR Hs. rewrite after_c128. apply c128_jump2_steps; [apply HR | exact Hs]. Qed.
Print Assumptions C08_count128_jump2.

Theorem C08_count128_leapfrog : forall hi R s n, c128_ok R -> 1 <= s < 2 ^ 32 -> 0 <= n < s ->
  exists R', c128_split R s n = Returns R' /\ leapfrog (c128_next hi) R R' s n.
Proof. exact c128_split_leapfrog. Qed.
Print Assumptions C08_count128_leapfrog.

Theorem C08_count128_split_invalid : forall R s n, s < 1 \/ n >= s -> c128_split R s n = Throws.
Proof.
  intros R s n H. unfold c128_split.
  destruct (Z.ltb_spec s 1); [reflexivity|]. destruct (Z.geb_spec n s); [reflexivity | lia].
Qed.
Print Assumptions C08_count128_split_invalid.

Example C08_case : c128_jump c128_ex 7 = after (c128_next hi_native) 7 c128_ex /\
  c128_jump2 c128_ex 3 = after (c128_next hi_native) 8 c128_ex.
Proof. split; vm_compute; reflexivity. Qed.

(** From s = 128 on jump2(s) reduces s modulo 128 and is not 2^s draws. *)
Theorem C08_count128_jump2_large_refuted : exists R, c128_ok R /\
  c128_jump2 R 128 <> after (c128_next hi_native) (Z.to_nat (2 ^ 128)) R.
Proof.
  exists (C128 1 1 0 0). assert (OK : c128_ok (C128 1 1 0 0)) by (unfold c128_ok, word; cbn; lia).
  split; [exact OK|]. rewrite after_c128, c128_iter, Z2Nat.id by (try apply OK; lia).
  intros E. apply (f_equal c_r) in E. vm_compute in E. discriminate E.
Qed.
Print Assumptions C08_count128_jump2_large_refuted.

(** ** C09 *)
Theorem C09_count_shift_equal : forall R1 R2, lcs_eqb R1 R2 = true ->
  forall k, draw cs_next R1 k = draw cs_next R2 k.
Proof. intros R1 R2 E k. rewrite (lcs_eqb_eq _ _ E). reflexivity. Qed.
Print Assumptions C09_count_shift_equal.

(** ** C59 *)
Theorem C59_count_shift_seed : forall R s, lcs_ok R -> word 64 s ->
  cs_count (cs_seed R s) = s mod (2 ^ 61 - 1) /\ 0 <= cs_count (cs_seed R s) < 2 ^ 61 - 1 /\
  (forall k, lcs_ok (after cs_next k (cs_seed R s)) /\ word 64 (draw cs_next (cs_seed R s) k)).
Proof.
  intros R s ((Ha & Hb & Hr) & Hi & Hc) Hs.
  assert (E : cs_count (cs_seed R s) = s mod (2 ^ 61 - 1)).
  { unfold cs_seed. cbn [cs_count]. unfold wrap64. rewrite (Z.mod_small s) by exact Hs. reflexivity. }
  assert (B : 0 <= cs_count (cs_seed R s) < 2 ^ 61 - 1) by (rewrite E; apply Z.mod_pos_bound; lia).
  split; [exact E|]. split; [exact B|].
  assert (K : lcs_ok (cs_seed R s)).
  { split; [|split; [exact Hi | exact B]]. split; [exact Ha|]. split; [exact Hb|]. apply wrap64_range. }
  intros k. split; [exact (cs_iter_ok k _ K)|]. unfold draw, cs_next. cbn [fst]. unfold cs_out.
  apply lcg64_shift_out_range, wrap64_range.
Qed.
Print Assumptions C59_count_shift_seed.
Example C59_count_shift_case : cs_count (cs_seed (Lcs (Lcg64 18145460002477866997 1 0) 1425089352415399810 0) (2 ^ 61 + 5)) = 6.
Proof. vm_compute. reflexivity. Qed.

(** Equality of count128_lcg_shift ignores the increment. *)
Theorem C09_count128_equal_refuted : exists R1 R2, c128_ok R1 /\ c128_ok R2 /\
  c128_eqb R1 R2 = true /\ draw (c128_next hi_native) R1 0 <> draw (c128_next hi_native) R2 0.
Proof.
  exists (C128 1 1 0 0), (C128 2 1 0 0).
  assert (c128_ok (C128 1 1 0 0)) by (unfold c128_ok, word; cbn; lia).
  assert (c128_ok (C128 2 1 0 0)) by (unfold c128_ok, word; cbn; lia).
  split; [assumption|]. split; [assumption|]. split; [reflexivity|].
  intros E. unfold draw, c128_next in E. cbn [fst] in E. apply c128_mix_inj in E; try reflexivity.
  - vm_compute in E. discriminate E.
  - vm_compute. split; [discriminate | reflexivity].
  - vm_compute. split; [discriminate | reflexivity].
Qed.
Print Assumptions C09_count128_equal_refuted.

(** With equal increments (e.g. all predefined parameter sets) equality is sound. *)
Theorem C09_count128_equal_same_increment : forall hi R1 R2, c128_eqb R1 R2 = true ->
  c_inc R1 = c_inc R2 -> forall k, draw (c128_next hi) R1 k = draw (c128_next hi) R2 k.
Proof.
  intros hi [i a b r] [i' a' b' r'] E Hi k. unfold c128_eqb in E. cbn [c_inc c_a c_b c_r] in *.
  rewrite !andb_true_iff, !Z.eqb_eq in E. destruct E as [[-> ->] ->]. subst. reflexivity.
Qed.
Print Assumptions C09_count128_equal_same_increment.

(** ** C17 *)
Theorem C17_count_shift_tiles : forall R s, lcs_ok R -> Z.odd (lcg_a (cs_lcg R)) = true ->
  1 <= s < 2 ^ 32 ->
  exists streams, (forall n, 0 <= n < s -> cs_split R s n = Returns (streams (Z.to_nat n))) /\
    tiles cs_next R (Z.to_nat s) streams.
Proof.
  intros R s H Ho Hs. apply tiles_of_split; [lia|]. intros n Hn. apply cs_split_leapfrog; assumption.
Qed.
Print Assumptions C17_count_shift_tiles.

Theorem C17_count128_tiles : forall hi R s, c128_ok R -> 1 <= s < 2 ^ 32 ->
  exists streams, (forall n, 0 <= n < s -> c128_split R s n = Returns (streams (Z.to_nat n))) /\
    tiles (c128_next hi) R (Z.to_nat s) streams.
Proof.
  intros hi R s H Hs. apply tiles_of_split; [lia|]. intros n Hn. apply c128_split_leapfrog; assumption.
Qed.
Print Assumptions C17_count128_tiles.

(** ** C60 *)
Theorem C60_count_shift_jumps_compose : forall R s t, lcs_ok R -> 0 <= s -> 0 <= t ->
  s + t < 2 ^ 61 - 1 ->
  exists R1 R2, cs_jump R s = Some R1 /\ cs_jump R1 t = Some R2 /\ cs_jump R (s + t) = Some R2 /\
    cs_jump (snd (cs_next R)) s = Some (snd (cs_next R1)).
Proof.
  intros R s t HR Hs Ht Hst.
  exists (Nat.iter (Z.to_nat s) cs_step R), (Nat.iter (Z.to_nat (s + t)) cs_step R).
  assert (HR1 := cs_iter_ok (Z.to_nat s) R HR).
  split; [apply cs_jump_steps; [assumption | rewrite m_val; lia]|].
  split; [rewrite cs_jump_steps by (rewrite ?m_val; assumption || lia); f_equal; rewrite <- iter_add; f_equal; lia|].
  split; [apply cs_jump_steps; [assumption | rewrite m_val; lia]|].
  change (snd (cs_next R)) with (cs_step R).
  rewrite cs_jump_steps; [|apply cs_step_ok, HR | rewrite m_val; lia].
  f_equal. symmetry. apply (iter_S_r cs_step).
Qed.
Print Assumptions C60_count_shift_jumps_compose.

Theorem C60_count_shift_jump2_jump : forall R k, lcs_ok R -> 0 <= k <= 60 ->
  cs_jump2 R k = cs_jump R (2 ^ k).
Proof.
  intros R k HR Hk. rewrite cs_jump2_steps, cs_jump_steps; try assumption; try lia.
  - reflexivity.
  - rewrite m_val. assert (2 ^ k <= 2 ^ 60) by (apply Z.pow_le_mono_r; lia).
    assert (0 < 2 ^ k) by (apply Z.pow_pos_nonneg; lia). lia.
Qed.
Print Assumptions C60_count_shift_jump2_jump.

Theorem C60_count128_jumps_compose : forall hi R s t, c128_ok R -> 0 <= s -> 0 <= t ->
  s + t < 2 ^ 64 ->
  c128_jump (c128_jump R s) t = c128_jump R (s + t) /\
  c128_jump (snd (c128_next hi R)) s = snd (c128_next hi (c128_jump R s)).
Proof.
  intros hi R s t (Hi & Ha & Hb & Hr) Hs Ht Hst.
  rewrite !(c128_jump_steps R) by (assumption || lia). rewrite !c128_jump_steps; try lia.
  - split.
    + rewrite <- iter_add. f_equal. lia.
    + symmetry. apply (iter_S_r c128_step).
  - apply wrap128_range.
  - rewrite c128_iter by exact Hr. apply wrap128_range.
Qed.
Print Assumptions C60_count128_jumps_compose.

Theorem C60_count128_jump2_jump : forall R k, c128_ok R -> 0 <= k < 64 ->
  c128_jump2 R k = c128_jump R (2 ^ k).
Proof.
  intros R k HR Hk. rewrite c128_jump2_steps, c128_jump_steps; try apply HR; try lia.
  reflexivity.
Qed.
Print Assumptions C60_count128_jump2_jump.

(** ** C61: the two uint128 implementations give different engines. *)
Theorem C61_portable_constant : forall R j k, c128_ok R ->
  draw (c128_next hi_portable) R j = draw (c128_next hi_portable) R k.
Proof.
  intros R j k (_ & _ & _ & Hr). rewrite !c128_draw by exact Hr. cbn zeta.
  rewrite !portable_word. reflexivity.
Qed.
Print Assumptions C61_portable_constant.

Theorem C61_same_stream_refuted : exists R, c128_ok R /\
  (exists k, draw (c128_next hi_native) R k <> draw (c128_next hi_portable) R k).
Proof.
  exists (C128 1 1 0 0). split; [unfold c128_ok, word; cbn; lia|]. exists 0%nat.
  intros E. unfold draw, c128_next in E. cbn [fst] in E. apply c128_mix_inj in E; try reflexivity.
  - vm_compute in E. discriminate E.
  - vm_compute. split; [discriminate | reflexivity].
  - vm_compute. split; [discriminate | reflexivity].
Qed.
Print Assumptions C61_same_stream_refuted.

(** ** C62, C63: state periods *)
Theorem C62_count128_state_period : forall hi R n, c128_ok R -> Z.odd (c_inc R) = true ->
  (0 < n)%nat -> after (c128_next hi) n R = R <-> (2 ^ 128 | Z.of_nat n).
Proof. intros hi R n. rewrite after_c128. apply c128_state_period. Qed.
Print Assumptions C62_count128_state_period.

Theorem C63_count_shift_state_period : forall R n, lcs_ok R -> lcg_a (cs_lcg R) mod 4 = 1 ->
  Z.odd (lcg_b (cs_lcg R)) = true -> Z.gcd (cs_inc R) (2 ^ 61 - 1) = 1 ->
  after cs_next n R = R <-> (2 ^ 64 * (2 ^ 61 - 1) | Z.of_nat n).
Proof. intros R n. rewrite after_cs. rewrite <- m_val. apply cs_state_period. Qed.
Print Assumptions C63_count_shift_state_period.

Theorem C63_count_shift_predefined : forall a b inc r count n, In (a, b, inc) cs_params ->
  word 64 r -> 0 <= count < 2 ^ 61 - 1 ->
  let R := Lcs (Lcg64 a b r) inc count in
  after cs_next n R = R <-> (2 ^ 64 * (2 ^ 61 - 1) | Z.of_nat n).
Proof.
  intros a b inc r count n Hin Hr Hc R.
  assert (P : word 64 a /\ word 64 b /\ 0 <= inc < cs_modulus /\
              a mod 4 = 1 /\ Z.odd b = true /\ Z.gcd inc (2 ^ 61 - 1) = 1).
  { repeat destruct Hin as [E|Hin];
      try (injection E as <- <- <-; repeat split; (discriminate || reflexivity)). destruct Hin. }
  rewrite <- m_val in Hc.
  apply C63_count_shift_state_period; try apply P. split; [|split; [apply P | exact Hc]].
  split; [apply P | split; [apply P | exact Hr]].
Qed.
Print Assumptions C63_count_shift_predefined.

Example C63_case : In (2862933555777941757, 1, 1425089352415399810) cs_params.
Proof. right; left; reflexivity. Qed.
