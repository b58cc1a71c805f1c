(** xoshiro256plus: C29, C30, and its part of C09 and C60. *)
From Coq Require Import ZArith List Bool Lia.
From Verif Require Import Base BaseFacts MinstdModel LagfibModel XoshiroModel XoshiroProofs.
Import ListNotations.
Open Scope Z_scope.

(** A state is four 64-bit words. *)
Definition xstate (S : xoshiro) : Prop := word 64 (xr0 S) /\ word 64 (xr1 S) /\ word 64 (xr2 S) /\ word 64 (xr3 S).
Definition all_zero (S : xoshiro) : Prop := xr0 S = 0 /\ xr1 S = 0 /\ xr2 S = 0 /\ xr3 S = 0.

Lemma after_steps k S : after xo_next k S = Nat.iter k xo_step S.
Proof. reflexivity. Qed.
Lemma pow_nat s : 0 <= s -> Z.to_nat (2 ^ s) = (2 ^ Z.to_nat s)%nat.
Proof. intros Hs. apply Nat2Z.inj. rewrite Nat2Z.inj_pow, !Z2Nat.id by (try exact Hs; apply Z.pow_nonneg; lia). reflexivity. Qed.

(** ** C29 *)
Theorem C29_jump : forall s S, xstate S -> 0 <= s < 2 ^ 64 -> xo_jump s S = after xo_next (Z.to_nat s) S.
Proof. intros s S K Hs. rewrite after_steps. apply xo_jump_eq; assumption. Qed.
Print Assumptions C29_jump.
Theorem C29_jump2 : forall s S, xstate S -> 0 <= s < 2 ^ 32 -> xo_jump2 s S = after xo_next (Z.to_nat (2 ^ s)) S.
Proof. intros s S K Hs. rewrite after_steps, pow_nat by lia. apply xo_jump2_eq; assumption. Qed.
Print Assumptions C29_jump2.
Theorem C29_discard : forall s S, xstate S -> 0 <= s < 2 ^ 64 -> xo_discard s S = after xo_next (Z.to_nat s) S.
Proof. exact C29_jump. Qed.
Print Assumptions C29_discard.

(** ** C30 *)
(** Every state has exactly one predecessor. *)
Theorem C30_bijection : forall S', xstate S' -> exists! S, xstate S /\ snd (xo_next S) = S'.
Proof.
  intros S' K. exists (xo_back S'). split.
  - split; [apply back_ok, K | apply step_back, K].
  - intros S (KS & E). change (xo_step S = S') in E. rewrite <- E. apply back_step, KS.
Qed.
Print Assumptions C30_bijection.

Theorem C30_never_zero : forall S k, xstate S -> ~ all_zero S ->
  xstate (after xo_next k S) /\ ~ all_zero (after xo_next k S) /\ word 64 (draw xo_next S k).
Proof.
  intros S k K N. rewrite after_steps.
  assert (H : xok (Nat.iter k xo_step S) /\ ~ all_zero (Nat.iter k xo_step S)).
  { apply (iter_inv (fun S => xok S /\ ~ all_zero S)); [|split; assumption].
    intros Y (KY & NY). split; [apply step_ok, KY|]. intros Z. apply NY.
    assert (E : xo_step Y = xo0) by (destruct (xo_step Y), Z as (Z0 & Z1 & Z2 & Z3); cbn in Z0, Z1, Z2, Z3; subst; reflexivity).
    rewrite <- (back_step Y KY), E. repeat split. }
  destruct H as (A & B). split; [exact A|]. split; [exact B|]. apply Z.mod_pos_bound. lia.
Qed.
Print Assumptions C30_never_zero.

Lemma fix_ok S : xstate S -> xstate (xo_fix S) /\ ~ all_zero (xo_fix S).
Proof.
  intros (H0 & H1 & H2 & H3). unfold xo_fix. destruct (_ && _) eqn:E.
  - apply andb_prop in E. destruct E as (E & E3). apply andb_prop in E. destruct E as (E & E2). apply andb_prop in E. destruct E as (E0 & E1).
    apply Z.eqb_eq in E0, E1, E2, E3. rewrite E0. split; [|intros (Z & _); discriminate Z].
    split; [split; [cbn; lia | reflexivity]|]. cbn [xr0 xr1 xr2 xr3]. auto.
  - split; [unfold xstate; auto|]. intros (Z0 & Z1 & Z2 & Z3). rewrite Z0, Z1, Z2, Z3 in E. discriminate E.
Qed.
Lemma gen_word_word g s : word 64 (fst (xo_gen_word g s)).
Proof. unfold xo_gen_word. destruct (g_next g s) as [a s']. destruct (g_next g s') as [b s'']. apply Z.mod_pos_bound. lia. Qed.

(** Whatever the seed or the seed source, seeding gives a legal state that is not all zero. *)
Theorem C30_seed : forall s g gs s0 s1 s2 s3, word 64 s0 -> word 64 s1 -> word 64 s2 -> word 64 s3 ->
  Forall (fun S => xstate S /\ ~ all_zero S) [xo_default; xo_seed s; xo_seed_gen g gs; xo_seed4 s0 s1 s2 s3].
Proof.
  assert (G : forall g gs, xstate (xo_seed_gen g gs) /\ ~ all_zero (xo_seed_gen g gs)).
  { intros g gs. unfold xo_seed_gen.
    assert (A := gen_word_word g gs). destruct (xo_gen_word g gs) as [r0 t0].
    assert (B := gen_word_word g t0). destruct (xo_gen_word g t0) as [r1 t1].
    assert (C := gen_word_word g t1). destruct (xo_gen_word g t1) as [r2 t2].
    assert (D := gen_word_word g t2). destruct (xo_gen_word g t2) as [r3 t3].
    apply fix_ok. split; [exact A|]. split; [exact B|]. split; [exact C | exact D]. }
  intros s g gs s0 s1 s2 s3 H0 H1 H2 H3. repeat apply Forall_cons; [| | | |apply Forall_nil].
  - split; [repeat split; cbn; lia | intros (Z & _); discriminate Z].
  - apply G.
  - apply G.
  - apply fix_ok. split; [exact H0|]. split; [exact H1|]. split; [exact H2 | exact H3].
Qed.
Print Assumptions C30_seed.

(** ** C60 *)
Theorem C60_xoshiro_jumps_compose : forall s t S, xstate S -> 0 <= s -> 0 <= t -> s + t < 2 ^ 64 ->
  xo_jump t (xo_jump s S) = xo_jump (s + t) S.
Proof.
  intros s t S K Hs Ht Hst. rewrite (xo_jump_eq s S), (xo_jump_eq (s + t) S) by (try assumption; lia).
  rewrite xo_jump_eq by (try lia; apply iter_ok, K). rewrite <- iter_add, <- Z2Nat.inj_add by lia. do 2 f_equal. lia.
Qed.
Print Assumptions C60_xoshiro_jumps_compose.
Theorem C60_xoshiro_jump_draw : forall s S, xstate S -> 0 <= s < 2 ^ 64 ->
  xo_jump s (snd (xo_next S)) = snd (xo_next (xo_jump s S)).
Proof.
  intros s S K Hs. change (snd (xo_next ?X)) with (xo_step X). rewrite !xo_jump_eq by (try assumption; apply step_ok, K).
  rewrite <- (iter_S_r xo_step). reflexivity.
Qed.
Print Assumptions C60_xoshiro_jump_draw.
Theorem C60_xoshiro_jump2 : forall k S, xstate S -> 0 <= k < 64 -> xo_jump2 k S = xo_jump (2 ^ k) S.
Proof.
  intros k S K Hk. rewrite C29_jump2 by (try assumption; lia). symmetry. apply C29_jump; [exact K|].
  split; [apply Z.pow_nonneg; lia | apply Z.pow_lt_mono_r; lia].
Qed.
Print Assumptions C60_xoshiro_jump2.

(** ** C09 *)
Theorem C09_xoshiro_equal : forall S1 S2, xo_eqb S1 S2 = true -> forall k, draw xo_next S1 k = draw xo_next S2 k.
Proof.
  intros [a b c d] [a' b' c' d'] E k. unfold xo_eqb in E. cbn [xr0 xr1 xr2 xr3] in E. rewrite !andb_true_iff, !Z.eqb_eq in E.
  destruct E as (((-> & ->) & ->) & ->). reflexivity.
Qed.
Print Assumptions C09_xoshiro_equal.

(** ** Examples *)
Definition x1 : xoshiro := Xo 1 2 3 (2 ^ 64 - 4).
Example x1_state : xstate x1 /\ ~ all_zero x1.
Proof. split; [repeat split; cbn; lia | intros (Z & _); discriminate Z]. Qed.
Example C29_case : xstate x1 /\ (0 <= 2 ^ 40 < 2 ^ 64) /\  map (draw xo_next x1) [0; 1; 2]%nat = [18446708889337462782; 35184304979967; 9223477590038413442].
Proof. split; [apply x1_state|]. split; [lia|]. vm_compute; reflexivity. Qed.
Example C30_case : xo_seed4 0 0 0 0 = xo_default /\ word 64 7 /\ xo_seed 0 <> xo_seed 2.
Proof. split; [reflexivity|]. split; [split; [lia | reflexivity]|]. vm_compute. intros H. discriminate H. Qed.
