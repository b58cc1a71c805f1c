(** Properties C01-C05, C09, C17, C60 for lcg64 and lcg64_shift. *)
From Coq Require Import ZArith List Bool Lia.
From Verif Require Import Base BaseFacts Spec SpecFacts Lcg64Model Lcg64Proofs.
Open Scope Z_scope.

Lemma after_lcg64 n R : after lcg64_next n R = Nat.iter n lcg64_step R.
Proof. apply after_step. reflexivity. Qed.
Lemma after_lcg64_shift n R : after lcg64_shift_next n R = Nat.iter n lcg64_step R.
Proof. apply after_step. reflexivity. Qed.

(** A concrete engine: LEcuyer1 parameters, some state. *)
Definition lcg64_ex : lcg64 := Lcg64 2862933555777941757 1 81985529216486895.
Example lcg64_ex_ok : lcg64_ok lcg64_ex /\ Z.odd (lcg_a lcg64_ex) = true.
Proof. unfold lcg64_ok, word. cbn. lia. Qed.

(** ** C01 *)
Theorem C01_lcg64_jump : forall R s, lcg64_ok R -> word 64 s ->
  lcg64_jump R s = Some (after lcg64_next (Z.to_nat s) R) /\
  lcg64_discard R s = Some (after lcg64_next (Z.to_nat s) R).
Proof. intros R s H Hs. rewrite after_lcg64. unfold lcg64_discard.
  rewrite (lcg64_jump_steps R s) by (try exact Hs; apply H). tauto. Qed.
Print Assumptions C01_lcg64_jump.

Theorem C01_lcg64_shift_jump : forall R s, lcg64_ok R -> word 64 s ->
  lcg64_jump R s = Some (after lcg64_shift_next (Z.to_nat s) R) /\
  lcg64_discard R s = Some (after lcg64_shift_next (Z.to_nat s) R).
Proof. intros R s. rewrite after_lcg64_shift, <- after_lcg64. apply C01_lcg64_jump. Qed.
Print Assumptions C01_lcg64_shift_jump.

Example C01_case : lcg64_jump lcg64_ex 37 = Some (after lcg64_next 37 lcg64_ex).
Proof. vm_compute. reflexivity. Qed.

(** ** C02 *)
Theorem C02_lcg64_jump2 : forall R s, lcg64_ok R -> 0 <= s ->
  (s <= 63 -> lcg64_jump2 R s = Some (after lcg64_next (Z.to_nat (2 ^ s)) R) /\
              lcg64_jump2 R s = Some (after lcg64_shift_next (Z.to_nat (2 ^ s)) R)) /\
  (64 <= s -> lcg64_jump2 R s = None).
Proof.
  intros R s H Hs. rewrite after_lcg64, after_lcg64_shift. split; intros L.
  - rewrite lcg64_jump2_steps by (try lia; apply H). tauto.
  - unfold lcg64_jump2. destruct (Z.ltb_spec s 64); [lia | reflexivity].
Qed.
Print Assumptions C02_lcg64_jump2.

Example C02_case : lcg64_jump2 lcg64_ex 5 = Some (after lcg64_next 32 lcg64_ex).
Proof. vm_compute. reflexivity. Qed.

(** ** C03 *)
Theorem C03_lcg64_leapfrog : forall R s n, lcg64_ok R -> Z.odd (lcg_a R) = true ->
  1 <= s < 2 ^ 32 -> 0 <= n < s ->
  exists R', lcg64_split R s n = Returns R' /\
    leapfrog lcg64_next R R' s n /\ leapfrog lcg64_shift_next R R' s n.
Proof.
  intros R s n H Ho Hs Hn.
  destruct (lcg64_split_stream R s n H Ho Hs Hn) as (R' & E & L).
  exists R'. split; [exact E|]. split; intros k; unfold draw; rewrite ?after_lcg64, ?after_lcg64_shift.
  - exact (L k).
  - cbn [lcg64_shift_next fst]. f_equal. exact (L k).
Qed.
Print Assumptions C03_lcg64_leapfrog.

Theorem C03_lcg64_split_invalid : forall R s n, s < 1 \/ n >= s -> lcg64_split R s n = Throws.
Proof.
  intros R s n H. unfold lcg64_split.
  destruct (Z.ltb_spec s 1); [reflexivity|]. destruct (Z.geb_spec n s); [reflexivity | lia].
Qed.
Print Assumptions C03_lcg64_split_invalid.

Example C03_case : exists R', lcg64_split lcg64_ex 5 3 = Returns R' /\
  draw lcg64_next R' 2 = 15540677363608236313.
Proof.
  destruct (C03_lcg64_leapfrog lcg64_ex 5 3) as (R' & E & L & _); try lia; try apply lcg64_ex_ok.
  exists R'. split; [exact E|]. rewrite (L 2%nat). vm_compute. reflexivity.
Qed.

Lemma even_jump : lcg64_jump (Lcg64 2 1 4) (wrap64 (0 + 1)) = Some (Lcg64 2 1 9). Proof. vm_compute; reflexivity. Qed.
Lemma even_f : wrap64 (1 * lcg64_f 2 2) = 3. Proof. vm_compute; reflexivity. Qed.
Lemma even_pow : lcg64_pow 2 2 = 4. Proof. (vm_compute; reflexivity). Qed.
Lemma even_split : lcg64_split (Lcg64 2 1 4) 2 0 = Returns (lcg64_backward (Lcg64 4 3 9)).
Proof. unfold lcg64_split. rewrite even_jump.
cbn [Z.ltb Z.geb Z.gtb Z.compare Pos.compare Pos.compare_cont orb lcg_a lcg_b lcg_r].
rewrite even_f, even_pow. reflexivity. Qed.
Lemma backward_params R : word 64 (lcg_r R) -> exists x, lcg64_backward R = Lcg64 (lcg_a R) (lcg_b R) x.
Proof. intros H. rewrite lcg64_backward_steps, step_set by exact H. eexists. reflexivity. Qed.
Lemma even_draw x : fst (lcg64_next (Lcg64 4 3 x)) <> 9.
Proof. unfold lcg64_next, lcg64_step. cbn [fst set_r lcg_a lcg_b lcg_r].
  unfold wrap64. intros L.
  assert (D1 := Z.div_mod (4 * x) (2 ^ 64) ltac:(lia)).
  assert (D2 := Z.div_mod ((4 * x) mod 2 ^ 64 + 3) (2 ^ 64) ltac:(lia)).
  rewrite L in D2. replace (2 ^ 64) with (4 * 2 ^ 62) in D1, D2 by reflexivity. lia.
Qed.

(** For an even multiplier the leapfrog statement is false. *)
Theorem C03_even_multiplier_refuted : exists R s n, lcg64_ok R /\ 1 <= s < 2 ^ 32 /\ 0 <= n < s /\
  forall R', lcg64_split R s n = Returns R' -> ~ leapfrog lcg64_next R R' s n.
Proof.
  exists (Lcg64 2 1 4), 2, 0. split; [unfold lcg64_ok, word; cbn; lia|].
  split; [lia|]. split; [lia|]. intros R' E L. rewrite even_split in E. injection E as E.
  destruct (backward_params (Lcg64 4 3 9)) as (x & Ex); [unfold word; cbn; lia|].
  rewrite Ex in E. subst R'. exact (even_draw x (L 0%nat)).
Qed.
Print Assumptions C03_even_multiplier_refuted.

(** ** C04 *)
Theorem C04_lcg64_full_period : forall R, lcg64_ok R -> lcg_a R mod 4 = 1 -> Z.odd (lcg_b R) = true ->
  full_cycle_stream lcg64_next R 0 (2 ^ 64).
Proof.
  intros R H Ha Hb. destruct (lcg64_full_period R H Ha Hb) as (_ & D & P).
  apply full_cycle_stream_intro; rewrite ?Z.sub_0_r.
  - intros k. unfold draw. apply step_r_range.
  - intros j k Hjk Hk. apply D; lia.
  - exact P.
Qed.
Print Assumptions C04_lcg64_full_period.

Theorem C04_lcg64_predefined : forall a b r, In (a, b) lcg64_params -> word 64 r ->
  full_cycle_stream lcg64_next (Lcg64 a b r) 0 (2 ^ 64).
Proof.
  intros a b r Hin Hr.
  assert (P : word 64 a /\ word 64 b /\ a mod 4 = 1 /\ Z.odd b = true).
  { unfold word. repeat destruct Hin as [E|Hin]; try (injection E as <- <-; cbn; lia). destruct Hin. }
  apply C04_lcg64_full_period; [repeat split; try apply P; apply Hr | apply P | apply P].
Qed.
Print Assumptions C04_lcg64_predefined.

(** lcg64_shift: full period as well (scrambled by a permutation). *)
Theorem C04_lcg64_shift_full_period : forall R, lcg64_ok R -> lcg_a R mod 4 = 1 ->
  Z.odd (lcg_b R) = true -> full_cycle_stream lcg64_shift_next R 0 (2 ^ 64).
Proof.
  intros R H Ha Hb. destruct (lcg64_full_period R H Ha Hb) as (_ & D & P).
  assert (DS : forall k, draw lcg64_shift_next R k = lcg64_shift_out (draw lcg64_next R k)).
  { intros k. unfold draw. rewrite after_lcg64, after_lcg64_shift. reflexivity. }
  assert (RG : forall k, word 64 (draw lcg64_next R k)) by (intros k; unfold draw; apply step_r_range).
  apply full_cycle_stream_intro; rewrite ?Z.sub_0_r.
  - intros k. rewrite DS. apply lcg64_shift_out_range, RG.
  - intros j k Hjk Hk E. rewrite !DS in E. apply lcg64_shift_out_inj in E; try apply RG.
    revert E. apply D; lia.
  - intros k. rewrite !DS, P. reflexivity.
Qed.
Print Assumptions C04_lcg64_shift_full_period.

Example C04_case : lcg64_ok lcg64_ex /\ lcg_a lcg64_ex mod 4 = 1 /\ Z.odd (lcg_b lcg64_ex) = true.
Proof. unfold lcg64_ok, word. cbn. lia. Qed.

(** ** C05 *)
Theorem C05_lcg64_shift_permutation : permutes_words 64 lcg64_shift_out.
Proof. exact (permutes_words_inj 64 _ lcg64_shift_out_range lcg64_shift_out_inj). Qed.
Print Assumptions C05_lcg64_shift_permutation.

Example C05_case : lcg64_shift_out 81985529216486895 = 1494049566636577075.
Proof. vm_compute. reflexivity. Qed.

(** ** C09 *)
Theorem C09_lcg64_equal : forall R1 R2, lcg64_eqb R1 R2 = true ->
  forall k, draw lcg64_next R1 k = draw lcg64_next R2 k /\
            draw lcg64_shift_next R1 k = draw lcg64_shift_next R2 k.
Proof.
  intros [a b r] [a' b' r'] E. unfold lcg64_eqb in E. cbn [lcg_a lcg_b lcg_r] in E.
  rewrite !andb_true_iff, !Z.eqb_eq in E. destruct E as [[-> ->] ->]. tauto.
Qed.
Print Assumptions C09_lcg64_equal.

(** ** C17 *)
Theorem C17_lcg64_tiles : forall R s, lcg64_ok R -> Z.odd (lcg_a R) = true -> 1 <= s < 2 ^ 32 ->
  exists streams, (forall n, 0 <= n < s -> lcg64_split R s n = Returns (streams (Z.to_nat n))) /\
    tiles lcg64_next R (Z.to_nat s) streams /\ tiles lcg64_shift_next R (Z.to_nat s) streams.
Proof.
  intros R s H Ho Hs.
  destruct (tiles_of_split lcg64_next R s (lcg64_split R s)) as (st & E & T); [lia | |].
  - intros n Hn. destruct (C03_lcg64_leapfrog R s n H Ho Hs Hn) as (R' & E & L & _). eauto.
  - exists st. split; [exact E|]. split; [exact T|]. apply tiles_intro; [lia|].
    intros n Hn. destruct (C03_lcg64_leapfrog R s n H Ho Hs Hn) as (R' & E' & _ & L).
    rewrite E in E' by exact Hn. injection E' as ->. exact L.
Qed.
Print Assumptions C17_lcg64_tiles.

(** ** C60 *)
Theorem C60_lcg64_jumps_compose : forall R s t, lcg64_ok R -> word 64 s -> word 64 t ->
  s + t < 2 ^ 64 ->
  exists R1 R2, lcg64_jump R s = Some R1 /\ lcg64_jump R1 t = Some R2 /\
    lcg64_jump R (s + t) = Some R2 /\
    lcg64_jump (snd (lcg64_next R)) s = Some (snd (lcg64_next R1)).
Proof.
  unfold word. intros R s t (Ha & Hb & Hr) Hs Ht Hst.
  exists (Nat.iter (Z.to_nat s) lcg64_step R), (Nat.iter (Z.to_nat (s + t)) lcg64_step R).
  assert (Hr1 := iter_r_range (Z.to_nat s) R Hr).
  split; [apply lcg64_jump_steps; assumption|].
  split; [rewrite lcg64_jump_steps by assumption; f_equal; rewrite <- iter_add; f_equal; lia|].
  split; [apply lcg64_jump_steps; unfold word; try assumption; lia|].
  change (snd (lcg64_next R)) with (lcg64_step R).
  rewrite lcg64_jump_steps; [|apply step_r_range | exact Hs].
  f_equal. symmetry. apply (iter_S_r lcg64_step).
Qed.
Print Assumptions C60_lcg64_jumps_compose.

Theorem C60_lcg64_jump2_jump : forall R k, lcg64_ok R -> 0 <= k < 64 ->
  lcg64_jump2 R k = lcg64_jump R (2 ^ k).
Proof.
  intros R k (Ha & Hb & Hr) Hk. rewrite lcg64_jump2_steps, lcg64_jump_steps; try assumption; try lia.
  - reflexivity.
  - split; [apply Z.pow_nonneg; lia | apply Z.pow_lt_mono_r; lia].
Qed.
Print Assumptions C60_lcg64_jump2_jump.
