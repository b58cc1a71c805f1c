(** Lagged Fibonacci engines: C25 - C28, and their part of C09. *)
From Coq Require Import ZArith List Bool Lia.
From Verif Require Import Prop_Mrg Base BaseFacts Cong IntMathModel GaussModel MrgModel LagfibModel LagfibProofs.
Import ListNotations.
Open Scope Z_scope.

(** ** Specification *)

(** One term of the sequence described by the lags: xor, or sum modulo 2^w, of x(k-A), x(k-B), ... *)
Definition fib_term (c : lf_class) (x : Z -> Z) (k : Z) : Z :=
  let v := map (fun l => x (k - l)) (lf_lags c) in
  match lf_oper c with
  | OpXor => fold_right Z.lxor 0 v
  | OpPlus => fold_right Z.add 0 v mod 2 ^ lf_w c
  end.
(** The states the engine can be in: a buffer whose size is the smallest power of two that holds
    the largest lag, filled with words, and an index into it. *)
Definition valid (c : lf_class) (S : lf) : Prop :=
  Z.of_nat (length (lf_r S)) = 2 ^ Z.log2_up (lf_last c) /\
  0 <= lf_index S < Z.of_nat (length (lf_r S)) /\ Forall (word (lf_w c)) (lf_r S).
(** The value i places before the index, cyclically. *)
Definition recent (S : lf) (i : Z) : Z :=
  nth (Z.to_nat ((lf_index S - i) mod Z.of_nat (length (lf_r S)))) (lf_r S) 0.

Lemma valid_ok c S : class_ok c -> valid c S <-> st_ok c S.
Proof.
  intros Hc. assert (P := sz_pos c Hc). unfold valid, st_ok. split; intros (L & I & F); (split; [lia|]); split; try exact F; lia.
Qed.
Lemma recent_win c S i : class_ok c -> valid c S -> recent S i = win c S i.
Proof. intros Hc (L & _). unfold recent, win, slot. rewrite L. reflexivity. Qed.
Lemma fold_xor a v : fold_left Z.lxor v a = Z.lxor a (fold_right Z.lxor 0 v).
Proof.
  revert a. induction v as [|y v IH]; intros a; cbn [fold_left fold_right]; [symmetry; apply Z.lxor_0_r|].
  rewrite IH. apply Z.lxor_assoc.
Qed.
Lemma fold_plus m a v : m <> 0 -> v <> [] -> fold_left (fun s y => (s + y) mod m) v a = (a + fold_right Z.add 0 v) mod m.
Proof.
  intros Hm. revert a. induction v as [|y v IH]; intros a N; [contradiction|]. cbn [fold_left fold_right].
  destruct v as [|z v].
  - cbn [fold_left fold_right]. f_equal. lia.
  - rewrite IH by discriminate. rewrite Z.add_mod_idemp_l by exact Hm. f_equal. ring.
Qed.
Lemma fold_left_map {A B C} (f : C -> B -> C) (g : A -> B) l : forall a, fold_left (fun s y => f s (g y)) l a = fold_left f (map g l) a.
Proof. induction l; intros; cbn; [reflexivity | apply IHl]. Qed.
Lemma fib_term_eq c x k : class_ok c -> fib_term c x k = lf_term c x k.
Proof.
  intros (Hw & HL & _). unfold fib_term, lf_term, lf_combine.
  assert (P : 2 ^ lf_w c <> 0) by (apply Z.pow_nonzero; lia).
  destruct (lf_lags c) as [|l ls]; [cbn in HL; lia|]. cbn [map].
  destruct (lf_oper c); cbn [fold_right].
  - rewrite (fold_left_map Z.lxor (fun l => x (k - l))), fold_xor. reflexivity.
  - rewrite (fold_left_map (fun s y => (s + y) mod 2 ^ lf_w c) (fun l => x (k - l))), fold_plus; [reflexivity | exact P|].
    destruct ls; [cbn in HL; lia | discriminate].
Qed.
Lemma fib_follows c x : class_ok c -> (forall k, 1 <= k -> x k = fib_term c x k) <-> follows c x.
Proof. intros Hc. split; intros H k Hk; [rewrite <- fib_term_eq by exact Hc | rewrite fib_term_eq by exact Hc]; apply H, Hk. Qed.

(** ** C25 *)

(** Every sequence that extends the engine's window by the recurrence is what the engine draws. *)
Theorem C25_recurrence c S x : class_ok c -> valid c S ->
  (forall i, 0 <= i < lf_last c -> x (- i) = recent S i) ->
  (forall k, 1 <= k -> x k = fib_term c x k) ->
  forall k, draw (lf_next c) (Some S) k = Some (x (Z.of_nat k + 1)).
Proof.
  intros Hc V W F k. apply (draw_follows c Hc); [apply valid_ok; assumption | apply fib_follows; assumption|].
  intros i Hi. rewrite <- recent_win by assumption. rewrite <- W by exact Hi. reflexivity.
Qed.
(** Such a sequence exists, so the draws themselves obey the recurrence. *)
Theorem C25_stream c S : class_ok c -> valid c S ->
  exists x, (forall i, 0 <= i < lf_last c -> x (- i) = recent S i) /\
    (forall k, 1 <= k -> x k = fib_term c x k) /\ (forall k, word (lf_w c) (x k)) /\
    forall k, draw (lf_next c) (Some S) k = Some (x (Z.of_nat k + 1)).
Proof.
  intros Hc V. assert (K := proj1 (valid_ok c S Hc) V). exists (seqx c S).
  assert (W : forall i, 0 <= i < lf_last c -> seqx c S (- i) = recent S i).
  { intros i Hi. rewrite (recent_win c) by assumption. symmetry.
    apply (seqx_describes c Hc S 0 K). assert (H := sz_bounds c Hc). lia. }
  assert (F : forall k, 1 <= k -> seqx c S k = fib_term c (seqx c S) k) by (apply fib_follows; [exact Hc | apply seqx_follows; assumption]).
  split; [exact W|]. split; [exact F|]. split; [intros k; apply seqx_word; assumption|].
  intros k. apply C25_recurrence; assumption.
Qed.
(** The window after seeding: bit j (from the top) of the i-th seeded word tells whether draw i*w+j of
    the seed source lies in the upper half of its range. *)
Theorem C25_seeded c g s S : class_ok c -> valid c S ->
  exists S', lf_seed_gen c g s S = Some S' /\ valid c S' /\
    forall i j, (Z.of_nat i < lf_last c) -> (Z.of_nat j < lf_w c) ->
      Z.testbit (recent S' (lf_last c - 1 - Z.of_nat i)) (lf_w c - 1 - Z.of_nat j) =
      (draw (g_next g) s (i * Z.to_nat (lf_w c) + j) - g_min g >? Z.quot (g_max g) 2).
Proof.
  intros Hc V. assert (K := proj1 (valid_ok c S Hc) V). destruct K as (L & I & F).
  destruct (seed_gen_eq c Hc g s S L) as (S' & E & _ & _ & W & OK). exists S'. split; [exact E|].
  assert (V' : valid c S') by (apply valid_ok; [exact Hc | apply OK, F]). split; [exact V'|].
  intros i j Hi Hj. rewrite (recent_win c) by assumption. rewrite W by lia.
  replace (Z.to_nat (lf_last c - 1 - (lf_last c - 1 - Z.of_nat i))) with i by lia.
  destruct (Hc) as (Hw & _). apply seed_list_bit; lia.
Qed.

(** ** C26 *)
Theorem C26_discard c S n : class_ok c -> NoDup (lf_lags c) -> lf_last c <= 2 ^ 19 -> valid c S ->
  0 <= n < 2 ^ 64 -> n <> 1 -> lf_discard c n S = after (lf_next c) (Z.to_nat n) (Some S).
Proof.
  intros Hc ND HB V Hn N1. assert (K := proj1 (valid_ok c S Hc) V).
  rewrite (discard_eq c Hc S n ND HB K Hn), after_eq by assumption.
  destruct (Z.eqb_spec n 1); [contradiction|]. reflexivity.
Qed.
(** discard(1) is one draw for no engine whose window has a non-zero value (xor) or an odd value (plus). *)
Theorem C26_discard_one_wrong c S i : class_ok c -> NoDup (lf_lags c) -> lf_last c <= 2 ^ 19 -> valid c S ->
  0 <= i < lf_last c ->
  match lf_oper c with OpXor => recent S i <> 0 | OpPlus => recent S i mod 2 = 1 end ->
  lf_discard c 1 S <> after (lf_next c) 1 (Some S).
Proof.
  intros Hc ND HB V Hi H. assert (K := proj1 (valid_ok c S Hc) V).
  change (after (lf_next c) 1 (Some S)) with (lf_step c S). rewrite (recent_win c) in H by assumption.
  destruct (lf_oper c) eqn:E.
  - destruct (Z.eq_dec (win c S i) 0) as [Z0|_]; [contradiction|].
    assert (T : exists t, Z.testbit (win c S i) t = true).
    { destruct (Z.eq_dec (win c S i) 0) as [|N]; [contradiction|].
      assert (0 <= win c S i).
      { destruct K as (L & _ & F). unfold win, slot. rewrite Forall_forall in F. apply F, nth_In.
        apply slot_bound; assumption. }
      exists (Z.log2 (win c S i)). apply Z.bit_log2. lia. }
    destruct T as (t & T). apply (discard1_wrong c Hc S _ ND HB K (interp_xor c t E)).
    exists i. split; [exact Hi|]. rewrite T. intros (q & Q). cbn [Z.b2z] in Q. lia.
  - apply (discard1_wrong c Hc S _ ND HB K (interp_plus2 c Hc E)). exists i. split; [exact Hi|].
    intros (q & Q). rewrite Z.sub_0_r in Q. rewrite Q, Z.mod_mul in H by lia. lia.
Qed.

Lemma between_pow2 b k : 0 <= k -> 2 ^ k < b < 2 ^ (k + 1) -> forall j, 0 <= j -> b <> 2 ^ j.
Proof.
  intros Hk Hb j Hj E. subst b. destruct Hb as (H1 & H2).
  apply Z.pow_lt_mono_r_iff in H1; [|lia|lia]. apply Z.pow_lt_mono_r_iff in H2; [|lia|lia]. lia.
Qed.
Definition class_okb (c : lf_class) : bool :=
  (1 <=? lf_w c) && ((length (lf_lags c) =? 2)%nat || (length (lf_lags c) =? 4)%nat) &&
  forallb (fun l => (1 <=? l) && (l <=? lf_last c)) (lf_lags c) && (lf_last c <=? 2 ^ 19) &&
  (2 ^ Z.log2 (lf_last c) <? lf_last c) && (lf_last c <? 2 ^ (Z.log2 (lf_last c) + 1)).
Lemma class_okb_ok c : class_okb c = true -> class_ok c /\ lf_last c <= 2 ^ 19.
Proof.
  unfold class_okb. rewrite !andb_true_iff. intros (((((H1 & H2) & H3) & H4) & H5) & H6).
  apply Z.leb_le in H1, H4. apply Z.ltb_lt in H5, H6. split; [|exact H4].
  split; [exact H1|]. split; [apply orb_prop in H2; destruct H2 as [H2|H2]; apply Nat.eqb_eq in H2; tauto|].
  split.
  - rewrite forallb_forall in H3. apply Forall_forall. intros l Hl. specialize (H3 l Hl).
    apply andb_prop in H3. destruct H3 as (A & B). apply Z.leb_le in A, B. lia.
  - split; [lia|]. apply (between_pow2 _ (Z.log2 (lf_last c))); [apply Z.log2_nonneg | lia].
Qed.
Fixpoint nodupb (l : list Z) : bool := match l with [] => true | x :: l => negb (existsb (Z.eqb x) l) && nodupb l end.
Lemma nodupb_ok l : nodupb l = true -> NoDup l.
Proof.
  induction l as [|x l IH]; cbn [nodupb]; intros H; constructor; apply andb_prop in H; destruct H as (A & B); [|auto].
  intros I. apply negb_true_iff in A. assert (existsb (Z.eqb x) l = true) by (apply existsb_exists; exists x; split; [exact I | apply Z.eqb_refl]). congruence.
Qed.

(** The hypotheses on the class hold for every engine the library defines. *)
Theorem C25_predefined c : In c lf_predefined -> class_ok c /\ NoDup (lf_lags c) /\ lf_last c <= 2 ^ 19.
Proof.
  intros H. assert (F : forallb (fun c => class_okb c && nodupb (lf_lags c)) lf_predefined = true) by (vm_compute; reflexivity).
  rewrite forallb_forall in F. specialize (F c H). apply andb_prop in F. destruct F as (F1 & F2).
  apply class_okb_ok in F1. apply nodupb_ok in F2. tauto.
Qed.

(** lagfib2xor_32_250: an engine in a state with a single non-zero value. *)
Definition r250 : lf_class := LfClass 32 [103; 250] OpXor.
Definition s250 : lf := Lf (repeat 0 10 ++ [1] ++ repeat 0 245) 15.
Lemma r250_ok : class_ok r250 /\ NoDup (lf_lags r250) /\ lf_last r250 <= 2 ^ 19.
Proof. apply C25_predefined. left. reflexivity. Qed.
Lemma forallb_word w r : forallb (fun x => (0 <=? x) && (x <? 2 ^ w)) r = true -> Forall (word w) r.
Proof.
  intros H. rewrite forallb_forall in H. apply Forall_forall. intros x Hx. specialize (H x Hx).
  apply andb_prop in H. destruct H as (A & B). apply Z.leb_le in A. apply Z.ltb_lt in B. split; assumption.
Qed.
Lemma s250_valid : valid r250 s250.
Proof.
  split; [vm_compute; reflexivity|]. split; [vm_compute; split; [discriminate | reflexivity]|].
  apply forallb_word. vm_compute. reflexivity.
Qed.
Theorem C26_discard_one_refuted : exists c S, In c lf_predefined /\ valid c S /\
  lf_discard c 1 S <> after (lf_next c) 1 (Some S).
Proof.
  exists r250, s250. split; [left; reflexivity|]. split; [exact s250_valid|].
  destruct r250_ok as (A & B & C). apply (C26_discard_one_wrong r250 s250 5 A B C s250_valid); [vm_compute; split; congruence|].
  vm_compute. discriminate.
Qed.

(** ** C27: array accesses *)
Theorem C27_in_bounds c S : class_ok c -> valid c S -> forall k, draw (lf_next c) (Some S) k <> None /\
  exists S', after (lf_next c) k (Some S) = Some S' /\ valid c S'.
Proof.
  intros Hc V k. assert (K := proj1 (valid_ok c S Hc) V). split.
  - destruct (C25_stream c S Hc V) as (x & _ & _ & _ & D). rewrite D. discriminate.
  - exists (stn c S k). rewrite after_eq by assumption. split; [reflexivity|]. apply valid_ok; [exact Hc|]. apply stn_ok; assumption.
Qed.
(** Constructors and seed(gen) stay inside the buffer as well. *)
Lemma fresh_valid c : class_ok c -> valid c (lf_fresh c).
Proof.
  intros Hc. assert (P := sz_pos c Hc). assert (E := size_eq c Hc). destruct (Hc) as (Hw & _).
  assert (0 < 2 ^ lf_w c) by (apply Z.pow_pos_nonneg; lia).
  unfold valid, lf_fresh. cbn [lf_r lf_index]. rewrite repeat_length, E, Z2Nat.id by lia.
  split; [reflexivity|]. split; [lia|]. apply Forall_forall. intros x Hx. apply repeat_spec in Hx. subst x. split; lia.
Qed.
Theorem C27_construct c s : class_ok c -> exists S, lf_construct c s = Some S /\ valid c S.
Proof.
  intros Hc. destruct (C25_seeded c minstd_gen (MinstdModel.minstd_seed s) (lf_fresh c) Hc (fresh_valid c Hc)) as (S & E & V & _).
  exists S. split; assumption.
Qed.
(** If the largest lag is a power of two, the first draw after construction writes outside the buffer. *)
Theorem C27_power_of_two_wrong c k s : 0 <= k <= 30 -> lf_last c = 2 ^ k ->
  draw (lf_next c) (lf_construct c s) 0 = None.
Proof.
  intros Hk E. unfold draw, after. cbn [Nat.iter nat_rect]. unfold lf_next. cbv zeta.
  unfold lf_construct, lf_seed. rewrite (pow2_first c k) by (try assumption; unfold lf_fresh; cbn [lf_r]; apply repeat_length).
  reflexivity.
Qed.
Theorem C27_power_of_two_refuted : exists c s, lf_lags c = [103; 256] /\ draw (lf_next c) (lf_construct c s) 0 = None.
Proof.
  exists (LfClass 32 [103; 256] OpXor), 0. split; [reflexivity|].
  apply (C27_power_of_two_wrong _ 8); [lia | reflexivity].
Qed.

(** ** C28: reseeding *)
Theorem C28_reseed_gen c g s S k : class_ok c -> valid c S ->
  draw (lf_next c) (lf_seed_gen c g s S) k = draw (lf_next c) (lf_seed_gen c g s (lf_fresh c)) k.
Proof.
  intros Hc V. assert (K := proj1 (valid_ok c S Hc) V). assert (K0 := proj1 (valid_ok c _ Hc) (fresh_valid c Hc)).
  destruct K as (L & _ & F), K0 as (L0 & _ & F0).
  destruct (seed_gen_eq c Hc g s S L) as (S1 & E1 & _ & _ & W1 & O1).
  destruct (seed_gen_eq c Hc g s _ L0) as (S2 & E2 & _ & _ & W2 & O2).
  rewrite E1, E2. apply same_draws; [exact Hc | apply O1, F | apply O2, F0|].
  intros i Hi. rewrite W1, W2 by exact Hi. reflexivity.
Qed.
Theorem C28_reseed c s S k : class_ok c -> valid c S ->
  draw (lf_next c) (lf_seed c s S) k = draw (lf_next c) (lf_construct c s) k.
Proof. apply (C28_reseed_gen c minstd_gen (MinstdModel.minstd_seed s) S k). Qed.
(** operator== tells the reseeded engine from the fresh one: draw once from lagfib2xor<.., 1, 3>, then reseed. *)
Theorem C28_equal_refuted : exists c s S S1 S2, class_ok c /\ lf_construct c s = Some S2 /\
  after (lf_next c) 1 (lf_construct c s) = Some S /\ lf_seed c s S = Some S1 /\ lf_eqb S1 S2 = false.
Proof.
  exists (LfClass 32 [1; 3] OpXor), 0.
  set (c := LfClass 32 [1; 3] OpXor).
  destruct (lf_construct c 0) as [S2|] eqn:E2; [|vm_compute in E2; discriminate].
  destruct (after (lf_next c) 1 (Some S2)) as [S|] eqn:E; [|revert E; vm_compute in E2; injection E2 as <-; vm_compute; discriminate].
  destruct (lf_seed c 0 S) as [S1|] eqn:E1.
  - exists S, S1, S2. split; [apply (class_okb_ok c); vm_compute; reflexivity|]. split; [reflexivity|]. split; [reflexivity|]. split; [exact E1|].
    vm_compute in E2. injection E2 as <-. vm_compute in E. injection E as <-. vm_compute in E1. injection E1 as <-. vm_compute. reflexivity.
  - exfalso. vm_compute in E2. injection E2 as <-. vm_compute in E. injection E as <-. vm_compute in E1. discriminate.
Qed.

(** ** C09 *)
Theorem C09_lagfib c S1 S2 k : lf_eqb S1 S2 = true -> draw (lf_next c) (Some S1) k = draw (lf_next c) (Some S2) k.
Proof.
  unfold lf_eqb. intros H. apply andb_prop in H. destruct H as (A & B). apply Z.eqb_eq in A. apply list_eqb_eq in B.
  destruct S1, S2. cbn in A, B. subst. reflexivity.
Qed.

(** ** Examples *)
Example C25_example : map (draw (lf_next (LfClass 32 [1; 3] OpXor)) (Some (Lf [5; 6; 12; 0] 2))) [0; 1; 2; 3; 4]%nat
  = [Some 9; Some 15; Some 3; Some 10; Some 5].
Proof. vm_compute. reflexivity. Qed.
Example C26_example : class_ok r250 /\ NoDup (lf_lags r250) /\ lf_last r250 <= 2 ^ 19 /\ valid r250 s250 /\
  (123456789 >? lf_pivot r250 123456789) = false /\ (12345678901 >? lf_pivot r250 12345678901) = true.
Proof. destruct r250_ok as (A & B & C). split; [exact A|]. split; [exact B|]. split; [exact C|]. split; [exact s250_valid|]. split; vm_compute; reflexivity. Qed.
Example C28_example : class_ok r250 /\ valid r250 s250 /\ s250 <> lf_fresh r250.
Proof. split; [apply r250_ok|]. split; [apply s250_valid|]. intros H. vm_compute in H. congruence. Qed.

Print Assumptions C25_recurrence.
Print Assumptions C25_stream.
Print Assumptions C25_seeded.
Print Assumptions C25_predefined.
Print Assumptions C26_discard.
Print Assumptions C26_discard_one_wrong.
Print Assumptions C26_discard_one_refuted.
Print Assumptions C27_in_bounds.
Print Assumptions C27_construct.
Print Assumptions C27_power_of_two_wrong.
Print Assumptions C27_power_of_two_refuted.
Print Assumptions C28_reseed_gen.
Print Assumptions C28_reseed.
Print Assumptions C28_equal_refuted.
Print Assumptions C09_lagfib.
