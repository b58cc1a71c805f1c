(** Mersenne twisters: C31, C32, and their part of C09. *)
From Coq Require Import ZArith List Bool Lia Arith.
From Verif Require Import Base BaseFacts Cong Sums Spec SpecFacts IntMathModel GaussModel MrgModel Prop_Mrg LagfibModel MtModel MtProofs.
Import ListNotations.
Open Scope Z_scope.

(** ** Specification: mersenne_twister_engine<w,n,m,r,a,u,d,s,b,t,c,l,f> of the C++ standard, [rand.eng.mers] *)
Record mersenne := Mersenne { me_w : Z; me_n : nat; me_m : nat; me_r : Z; me_a : Z;
  me_u : Z; me_d : Z; me_s : Z; me_b : Z; me_t : Z; me_c : Z; me_l : Z; me_f : Z }.
Definition std_mt19937 := Mersenne 32 624 397 31 0x9908b0df 11 0xffffffff 7 0x9d2c5680 15 0xefc60000 18 1812433253.
Definition std_mt19937_64 := Mersenne 64 312 156 31 0xb5026f5aa96619e9 29 0x5555555555555555 17 0x71d67fffeda60000
  37 0xfff7eee000000000 43 6364136223846793005.

(** Upper w-r bits of [a] joined with the lower r bits of [b]; then the twist. *)
Definition next_term (P : mersenne) (a b x : Z) : Z :=
  let y := a / 2 ^ me_r P * 2 ^ me_r P + b mod 2 ^ me_r P in
  Z.lxor x (Z.lxor (y / 2) (if Z.odd y then me_a P else 0)).
Definition tempered (P : mersenne) (z : Z) : Z :=
  let z := Z.lxor z (Z.land (z / 2 ^ me_u P) (me_d P)) in
  let z := Z.lxor z (Z.land (z * 2 ^ me_s P mod 2 ^ me_w P) (me_b P)) in
  let z := Z.lxor z (Z.land (z * 2 ^ me_t P mod 2 ^ me_w P) (me_c P)) in
  Z.lxor z (z / 2 ^ me_l P).
Fixpoint seeded_term (P : mersenne) (s : Z) (i : nat) : Z :=
  match i with
  | O => s mod 2 ^ me_w P
  | S j => let x := seeded_term P s j in
           (me_f P * Z.lxor x (x / 2 ^ (me_w P - 2)) + Z.of_nat i) mod 2 ^ me_w P
  end.
Definition mt_sequence (P : mersenne) (x : nat -> Z) : Prop :=
  forall k, x (k + me_n P)%nat = next_term P (x k) (x (k + 1)%nat) (x (k + me_m P)%nat).

(** Which standard engine each class is meant to be. *)
Definition mt_engines : list (mt_class * mersenne) := [(mt32_class, std_mt19937); (mt64_class, std_mt19937_64)].
(** States: n words and an index not beyond the block. *)
Definition mt_valid (P : mersenne) (S : mt) : Prop :=
  0 <= mt_i S <= Z.of_nat (me_n P) /\ length (mt_v S) = me_n P /\ Forall (word (me_w P)) (mt_v S).

(** ** The model computes these terms *)
Lemma join_bits q b k : 0 <= k -> forall t, 0 <= t ->
  Z.testbit (q * 2 ^ k + b mod 2 ^ k) t = if t <? k then Z.testbit b t else Z.testbit q (t - k).
Proof.
  intros Hk t Ht. assert (P : 0 < 2 ^ k) by (apply Z.pow_pos_nonneg; lia). assert (B := Z.mod_pos_bound b _ P).
  destruct (Z.ltb_spec t k).
  - rewrite <- (Z.mod_pow2_bits_low (q * 2 ^ k + b mod 2 ^ k) k t) by lia.
    rewrite Z.add_comm, Z.mod_add, Z.mod_mod by lia. apply Z.mod_pow2_bits_low. lia.
  - replace t with (t - k + k) at 1 by lia. rewrite <- Z.div_pow2_bits by lia.
    rewrite Z.div_add_l, (Z.div_small (b mod 2 ^ k)) by lia. f_equal. lia.
Qed.
Lemma join_eq w a b um : 31 <= w -> word w a -> um = Z.shiftl (Z.ones (w - 31)) 31 ->
  Z.lor (Z.land a um) (Z.land b 0x7FFFFFFF) = a / 2 ^ 31 * 2 ^ 31 + b mod 2 ^ 31.
Proof.
  intros Hw Ha ->. apply Z.bits_inj'. intros t Ht. rewrite join_bits by lia.
  rewrite Z.lor_spec, !Z.land_spec, Z.shiftl_spec by lia. change 0x7FFFFFFF with (Z.ones 31).
  destruct (Z.ltb_spec t 31).
  - rewrite (Z.testbit_neg_r _ (t - 31)) by lia. rewrite (Z.ones_spec_low 31 t) by lia. rewrite andb_false_r, andb_true_r. reflexivity.
  - rewrite (Z.ones_spec_high 31 t) by lia. rewrite andb_false_r, orb_false_r. rewrite Z.div_pow2_bits by lia.
    replace (t - 31 + 31) with t by lia. destruct (Z_lt_le_dec t w).
    + rewrite Z.ones_spec_low by lia. apply andb_true_r.
    + rewrite (word_testbit_w w a) by (try assumption; lia). reflexivity.
Qed.
Lemma odd_land y : (Z.land y 1 =? 1) = Z.odd y.
Proof. change 1 with (Z.ones 1) at 1. rewrite Z.land_ones by lia. change (2 ^ 1) with 2. rewrite Zmod_odd. destruct (Z.odd y); reflexivity. Qed.
Lemma mix_eq c P a b x : In (c, P) mt_engines -> word (me_w P) a -> mt_mix c a b x = next_term P a b x.
Proof.
  intros H Ha. unfold mt_mix, next_term. cbv zeta. rewrite odd_land, Z.lxor_assoc, Z.shiftr_div_pow2 by lia. change (2 ^ 1) with 2.
  assert (E : Z.lor (Z.land a (mt_UM c)) (Z.land b (mt_LM c)) = a / 2 ^ me_r P * 2 ^ me_r P + b mod 2 ^ me_r P).
  { cbn [mt_engines In] in H. destruct H as [H|[H|[]]]; injection H as <- <-;
      [apply (join_eq 32) | apply (join_eq 64)]; try assumption; try lia; reflexivity. }
  rewrite E. f_equal. f_equal. cbn [mt_engines In] in H. destruct H as [H|[H|[]]]; injection H as <- <-; reflexivity.
Qed.
Lemma shl_mul x k : 0 <= k -> Z.shiftl x k = x * 2 ^ k. Proof. apply Z.shiftl_mul_pow2. Qed.
Lemma temper_eq c P x : In (c, P) mt_engines -> word (me_w P) x -> mt_temper c x = tempered P x.
Proof.
  cbn [mt_engines In]. intros [H|[H|[]]] Hx; injection H as <- <-; cbn [me_w] in Hx; unfold tempered;
    cbn [mt_temper mt32_class mt64_class me_w me_u me_d me_s me_b me_t me_c me_l std_mt19937 std_mt19937_64].
  - unfold temper32, wrap32. rewrite !Z.shiftr_div_pow2, !Z.shiftl_mul_pow2 by lia. cbv zeta.
    replace (Z.land (x / 2 ^ 11) 0xffffffff) with (x / 2 ^ 11); [reflexivity|].
    change 0xffffffff with (Z.ones 32). rewrite Z.land_ones by lia. symmetry. apply Z.mod_small.
    rewrite <- Z.shiftr_div_pow2 by lia. apply (shr_word 32); try lia. exact Hx.
  - unfold temper64, wrap64. rewrite !Z.shiftr_div_pow2, !Z.shiftl_mul_pow2 by lia. reflexivity.
Qed.
Lemma engine_size c P : In (c, P) mt_engines ->
  mt_N c = me_n P /\ mt_M c = me_m P /\ (0 < mt_M c < mt_N c)%nat /\ 32 <= me_w P <= 64 /\ me_r P = 31 /\ word (me_w P) (me_a P).
Proof.
  cbn [mt_engines In]. intros [H|[H|[]]]; injection H as <- <-; (split; [reflexivity|]); (split; [reflexivity|]);
    cbn [mt_M mt_N mt32_class mt64_class me_w me_r me_a std_mt19937 std_mt19937_64];
    (split; [lia|]); (split; [lia|]); (split; [reflexivity|]); split; (lia || reflexivity).
Qed.
Lemma next_term_word c P a b x : In (c, P) mt_engines -> word (me_w P) a -> word (me_w P) x -> word (me_w P) (next_term P a b x).
Proof.
  intros H Ha Hx. destruct (engine_size c P H) as (_ & _ & _ & Hw & Hr & HA). unfold next_term. cbv zeta. rewrite Hr.
  assert (Y : word (me_w P) (a / 2 ^ 31 * 2 ^ 31 + b mod 2 ^ 31)).
  { apply word_of_bits; [lia | |].
    - assert (0 <= a / 2 ^ 31) by (apply Z.div_pos; [apply Ha | lia]). assert (B := Z.mod_pos_bound b (2 ^ 31) ltac:(lia)). lia.
    - intros t Ht. rewrite join_bits by lia. destruct (Z.ltb_spec t 31); [lia|]. rewrite Z.div_pow2_bits by lia.
      apply (word_testbit_w (me_w P)); try assumption; lia. }
  set (y := a / 2 ^ 31 * 2 ^ 31 + b mod 2 ^ 31) in *.
  apply lxor_range; [lia | exact Hx|]. apply lxor_range; [lia | |].
  - change 2 with (2 ^ 1). rewrite <- Z.shiftr_div_pow2 by lia. apply shr_word; try lia. exact Y.
  - destruct (Z.odd y); [exact HA|]. split; [lia|]. apply Z.pow_pos_nonneg; lia.
Qed.
Lemma sequence_words c P x : In (c, P) mt_engines -> (forall q, (q < me_n P)%nat -> word (me_w P) (x q)) ->
  mt_sequence P x -> forall k, word (me_w P) (x k).
Proof.
  intros H H0 Hx k. destruct (engine_size c P H) as (EN & EM & HM & _). rewrite EN, EM in HM.
  induction k as [k IH] using lt_wf_ind. destruct (Nat.lt_ge_cases k (me_n P)) as [L|L]; [apply H0, L|].
  replace k with (k - me_n P + me_n P)%nat by lia. rewrite Hx. apply (next_term_word c); [exact H | |]; apply IH; lia.
Qed.
Lemma sequence_rec c P x : In (c, P) mt_engines -> (forall k, word (me_w P) (x k)) -> mt_sequence P x <-> mt_rec c x.
Proof.
  intros H W. destruct (engine_size c P H) as (EN & EM & _). unfold mt_sequence, mt_rec. rewrite EN, EM.
  split; intros E k; [rewrite (mix_eq c P) by (try assumption; apply W) | rewrite <- (mix_eq c P) by (try assumption; apply W)]; apply E.
Qed.

(** ** C31 *)
(** Every draw is the tempered next term of the sequence that continues the state. *)
Theorem C31_draws : forall c P S x, In (c, P) mt_engines -> mt_valid P S ->
  (forall q, (q < me_n P)%nat -> x q = nth q (mt_v S) 0) -> mt_sequence P x ->
  forall k, draw (mt_next c) (Some S) k = Some (tempered P (x (Z.to_nat (mt_i S) + k)%nat)).
Proof.
  intros c P S x H (Hi & L & F) H0 Hx k. destruct (engine_size c P H) as (EN & EM & HM & Hw & _).
  assert (W : forall k, word (me_w P) (x k)).
  { apply (sequence_words c); [exact H | | exact Hx]. intros q Hq. rewrite H0 by exact Hq. rewrite Forall_forall in F. apply F, nth_In. lia. }
  rewrite (draw_at c HM x (Z.to_nat (mt_i S))).
  - rewrite (temper_eq c P) by (try assumption; apply W). reflexivity.
  - apply (sequence_rec c P); assumption.
  - exists 0%nat, (Z.to_nat (mt_i S)). split; [lia|]. split; [lia|]. split; [reflexivity|]. split; [lia|].
    intros q Hq. rewrite <- H0 by lia. f_equal. destruct (Nat.ltb_spec q 0); lia.
Qed.
Print Assumptions C31_draws.

(** Such a sequence exists, its terms are words, and no draw leaves the array. *)
Theorem C31_stream : forall c P S, In (c, P) mt_engines -> mt_valid P S ->
  exists x, (forall q, (q < me_n P)%nat -> x q = nth q (mt_v S) 0) /\ mt_sequence P x /\ (forall k, word (me_w P) (x k)) /\
    forall k, draw (mt_next c) (Some S) k = Some (tempered P (x (Z.to_nat (mt_i S) + k)%nat)).
Proof.
  intros c P S H V. assert (V' := V). destruct V as (Hi & L & F). destruct (engine_size c P H) as (EN & EM & HM & Hw & _).
  exists (xseq c (mt_v S)).
  assert (R := xseq_rec c HM (mt_v S) ltac:(lia)).
  assert (H0 : forall q, (q < me_n P)%nat -> xseq c (mt_v S) q = nth q (mt_v S) 0) by (intros; apply xseq_start; lia).
  assert (W : forall k, word (me_w P) (xseq c (mt_v S) k)).
  { intros k. induction k as [k IH] using lt_wf_ind. destruct (Nat.lt_ge_cases k (mt_N c)) as [Lk|Lk].
    - rewrite H0 by lia. rewrite Forall_forall in F. apply F, nth_In. lia.
    - replace k with (k - mt_N c + mt_N c)%nat by lia. rewrite R. rewrite (mix_eq c P) by (try assumption; apply IH; lia).
      apply (next_term_word c); [exact H | |]; apply IH; lia. }
  assert (Q : mt_sequence P (xseq c (mt_v S))) by (apply (sequence_rec c P); assumption).
  split; [exact H0|]. split; [exact Q|]. split; [exact W|]. apply C31_draws; assumption.
Qed.
Print Assumptions C31_stream.

(** Valid states step to valid states; the block is renewed exactly when it is used up. *)
Theorem C31_valid : forall c P S, In (c, P) mt_engines -> mt_valid P S ->
  exists S', after (mt_next c) 1 (Some S) = Some S' /\ mt_valid P S' /\
    mt_i S' = (if mt_i S =? Z.of_nat (me_n P) then 1 else mt_i S + 1).
Proof.
  intros c P S H V. destruct (C31_stream c P S H V) as (x & H0 & Hx & W & _). destruct V as (Hi & L & F).
  destruct (engine_size c P H) as (EN & EM & HM & Hw & _). assert (R := proj1 (sequence_rec c P x H W) Hx).
  unfold after. cbn [Nat.iter nat_rect]. unfold mt_next, mt_step. rewrite EN. cbn [bind].
  assert (Mx : mixed c x 0 0 (mt_v S)).
  { split; [lia|]. intros q Hq. rewrite <- H0 by lia. f_equal. destruct (Nat.ltb_spec q 0); lia. }
  destruct (Z.eqb_spec (mt_i S) (Z.of_nat (me_n P))) as [E|E].
  - replace (mt_i S >=? Z.of_nat (me_n P)) with true by lia.
    destruct (regenerate_mixed c HM x 0 (mt_v S) R Mx) as (r & Er & Lr & Nr). rewrite Er. cbn [bind mt_v mt_i].
    assert (Rd := rd_nth r 0 ltac:(lia)). change (Z.of_nat 0) with 0 in Rd. rewrite Rd. cbn [bind snd].
    eexists. split; [reflexivity|]. split; [|reflexivity]. unfold mt_valid. cbn [mt_v mt_i].
    split; [lia|]. split; [lia|]. apply Forall_forall. intros y Hy. apply (In_nth _ _ 0) in Hy.
    destruct Hy as (q & Hq & <-). rewrite Nr by lia. apply W.
  - replace (mt_i S >=? Z.of_nat (me_n P)) with false by lia. cbn [bind].
    assert (Rd := rd_nth (mt_v S) (Z.to_nat (mt_i S)) ltac:(lia)). rewrite Z2Nat.id in Rd by lia. rewrite Rd. cbn [bind snd].
    eexists. split; [reflexivity|]. split; [|reflexivity]. unfold mt_valid. cbn [mt_v mt_i]. split; [lia|]. split; assumption.
Qed.
Print Assumptions C31_valid.

(** Seeding: the block of seeded terms, whatever the engine held before. *)
Lemma seed_term_eq c P s q : In (c, P) mt_engines -> word 64 s -> seed_term c s q = seeded_term P s q /\ word (me_w P) (seeded_term P s q).
Proof.
  intros H Hs. induction q as [|q (E & W)]; cbn [seed_term seeded_term]; cbv zeta.
  - split; [|apply mod_word; destruct (engine_size c P H); lia].
    cbn [mt_engines In] in H. destruct H as [H|[H|[]]]; injection H as <- <-;
      cbn [mt_seed0 mt32_class mt64_class me_w std_mt19937 std_mt19937_64].
    + change 0xffffffff with (Z.ones 32). apply Z.land_ones. lia.
    + symmetry. apply Z.mod_small, Hs.
  - split; [|apply mod_word; destruct (engine_size c P H); lia]. rewrite E.
    cbn [mt_engines In] in H. destruct H as [H|[H|[]]]; injection H as <- <-;
      cbn [mt_seed_step mt32_class mt64_class me_w me_f std_mt19937 std_mt19937_64].
    + unfold seed_step32, wrap32. change 0xffffffff with (Z.ones 32). rewrite Z.land_ones, Z.mod_mod, Z.shiftr_div_pow2 by lia.
      rewrite Z.add_mod_idemp_l by lia. reflexivity.
    + unfold seed_step64, wrap64. rewrite Z.shiftr_div_pow2, Z.add_mod_idemp_l by lia. reflexivity.
Qed.
Theorem C31_seed : forall c P S s, In (c, P) mt_engines -> length (mt_v S) = me_n P -> word 64 s ->
  mt_seed c s S = Some (Mt (Z.of_nat (me_n P)) (map (seeded_term P s) (seq 0 (me_n P)))) /\
  mt_valid P (Mt (Z.of_nat (me_n P)) (map (seeded_term P s) (seq 0 (me_n P)))).
Proof.
  intros c P S s H L Hs. destruct (engine_size c P H) as (EN & EM & HM & Hw & _).
  destruct (seed_eq c HM s S ltac:(lia)) as (S' & E & Ei & L' & N'). split.
  - rewrite E. f_equal. destruct S' as [i r]. cbn [mt_i mt_v] in *. rewrite EN in Ei. subst i. f_equal.
    apply (nth_ext_len _ _ (me_n P) 0); [lia | rewrite map_length, seq_length; reflexivity|].
    intros q Hq. rewrite nth_map_seq by exact Hq. rewrite N' by lia. apply (seed_term_eq c P); assumption.
  - split; [cbn [mt_i]; lia|]. split; [cbn [mt_v]; rewrite map_length, seq_length; reflexivity|]. cbn [mt_v].
    apply Forall_forall. intros y Hy. apply in_map_iff in Hy. destruct Hy as (q & <- & _). apply (seed_term_eq c P); assumption.
Qed.
Print Assumptions C31_seed.

(** The engine constructed from a seed draws what the standard engine of the same parameters draws. *)
Theorem C31_standard : forall c P s x, In (c, P) mt_engines -> word 64 s ->
  (forall q, (q < me_n P)%nat -> x q = seeded_term P s q) -> mt_sequence P x ->
  forall k, draw (mt_next c) (mt_construct c s) k = Some (tempered P (x (me_n P + k)%nat)).
Proof.
  intros c P s x H Hs H0 Hx k. destruct (engine_size c P H) as (EN & _).
  destruct (C31_seed c P (mt_blank c) s H ltac:(unfold mt_blank; cbn [mt_v]; rewrite repeat_length; exact EN) Hs) as (E & V).
  unfold mt_construct. rewrite E. rewrite (C31_draws c P _ x H V); [|cbn [mt_v] | exact Hx].
  - cbn [mt_i]. rewrite Nat2Z.id. reflexivity.
  - intros q Hq. rewrite nth_map_seq by exact Hq. apply H0, Hq.
Qed.
Print Assumptions C31_standard.

(** Draws stay in range: w-bit words. *)
Lemma tempered_word P x c : In (c, P) mt_engines -> word (me_w P) x -> word (me_w P) (tempered P x).
Proof.
  intros H Hx. destruct (engine_size c P H) as (_ & _ & _ & Hw & _).
  assert (Hu : 0 <= me_u P /\ 0 <= me_l P) by (cbn [mt_engines In] in H; destruct H as [H|[H|[]]]; injection H as <- <-; cbn; lia).
  unfold tempered. cbv zeta. rewrite <- !Z.shiftr_div_pow2 by lia.
  set (z1 := Z.lxor x _). assert (W1 : word (me_w P) z1) by (apply xor_land_word; [lia | exact Hx | apply shr_word; try lia; exact Hx]).
  set (z2 := Z.lxor z1 _). assert (W2 : word (me_w P) z2) by (apply xor_land_word; [lia | exact W1 | apply mod_word; lia]).
  set (z3 := Z.lxor z2 _). assert (W3 : word (me_w P) z3) by (apply xor_land_word; [lia | exact W2 | apply mod_word; lia]).
  apply lxor_range; [lia | exact W3 | apply shr_word; try lia; exact W3].
Qed.
Theorem C31_range : forall c P S k, In (c, P) mt_engines -> mt_valid P S ->
  exists v, draw (mt_next c) (Some S) k = Some v /\ word (me_w P) v.
Proof.
  intros c P S k H V. destruct (C31_stream c P S H V) as (x & _ & _ & W & D). rewrite D. eexists. split; [reflexivity|].
  apply (tempered_word _ _ c); [exact H | apply W].
Qed.
Print Assumptions C31_range.

(** ** C32 *)
Lemma temper_inj c P x y : In (c, P) mt_engines -> word (me_w P) x -> word (me_w P) y ->
  tempered P x = tempered P y -> x = y.
Proof.
  intros H Hx Hy E. destruct (engine_size c P H) as (_ & _ & _ & Hw & _).
  assert (Hu : 0 < me_u P /\ 0 < me_s P /\ 0 < me_t P /\ 0 < me_l P) by (cbn [mt_engines In] in H; destruct H as [H|[H|[]]]; injection H as <- <-; cbn; lia).
  unfold tempered in E. cbv zeta in E. rewrite <- !Z.shiftr_div_pow2, <- !Z.shiftl_mul_pow2 in E by lia.
  assert (W1 : forall x, word (me_w P) x -> word (me_w P) (Z.lxor x (Z.land (Z.shiftr x (me_u P)) (me_d P))))
    by (intros z Hz; apply xor_land_word; [lia | exact Hz | apply shr_word; try lia; exact Hz]).
  assert (W2 : forall x k m, word (me_w P) x -> word (me_w P) (Z.lxor x (Z.land (Z.shiftl x k mod 2 ^ me_w P) m)))
    by (intros z k m Hz; apply xor_land_word; [lia | exact Hz | apply mod_word; lia]).
  assert (X1 := W1 x Hx). assert (Y1 := W1 y Hy).
  assert (X2 := W2 _ (me_s P) (me_b P) X1). assert (Y2 := W2 _ (me_s P) (me_b P) Y1).
  assert (X3 := W2 _ (me_t P) (me_c P) X2). assert (Y3 := W2 _ (me_t P) (me_c P) Y2).
  apply (xorshr_inj (me_w P)) in E; try assumption; try lia.
  apply (xor_shiftl_inj (me_w P) (me_t P) (me_c P)) in E; try assumption; try lia.
  apply (xor_shiftl_inj (me_w P) (me_s P) (me_b P)) in E; try assumption; try lia.
  apply (xor_shiftr_inj (me_w P) (me_u P) (me_d P)) in E; try assumption; lia.
Qed.
Theorem C32_tempering : forall c P, In (c, P) mt_engines -> permutes_words (me_w P) (mt_temper c).
Proof.
  intros c P H. apply permutes_words_inj.
  - intros x Hx. rewrite (temper_eq c P) by assumption. apply (tempered_word _ _ c); assumption.
  - intros x y Hx Hy E. rewrite !(temper_eq c P) in E by assumption. apply (temper_inj c P); assumption.
Qed.
Print Assumptions C32_tempering.

(** ** C09: operator== of the Mersenne twisters compares the arrays only *)
(** Equal arrays at equal positions draw alike... *)
Theorem C09_mt_equal_same_position : forall c S1 S2, mt_eqb S1 S2 = true -> mt_i S1 = mt_i S2 ->
  forall k, draw (mt_next c) (Some S1) k = draw (mt_next c) (Some S2) k.
Proof.
  intros c [i1 r1] [i2 r2] E I k. cbn [mt_i] in I. subst i2. unfold mt_eqb in E. cbn [mt_v] in E.
  apply list_eqb_eq in E. subst r2. reflexivity.
Qed.
Print Assumptions C09_mt_equal_same_position.
(** ... but within a block every draw leaves an engine that compares equal to the one before, *)
Theorem C09_mt_equal_after_draw : forall c P S, In (c, P) mt_engines -> mt_valid P S -> mt_i S < Z.of_nat (me_n P) ->
  exists S', after (mt_next c) 1 (Some S) = Some S' /\ mt_eqb S S' = true /\ mt_i S' = mt_i S + 1.
Proof.
  intros c P [i r] H (Hi & L & F) Lt. destruct (engine_size c P H) as (EN & _). cbn [mt_i mt_v] in *.
  exists (Mt (i + 1) r). split; [|split; [apply list_eqb_eq|]; reflexivity].
  unfold after. cbn [Nat.iter nat_rect]. unfold mt_next, mt_step. cbn [mt_i mt_v bind]. rewrite EN.
  replace (i >=? Z.of_nat (me_n P)) with false by lia. cbn [mt_i mt_v bind].
  assert (R := rd_nth r (Z.to_nat i) ltac:(lia)). rewrite Z2Nat.id in R by lia. rewrite R. reflexivity.
Qed.
Print Assumptions C09_mt_equal_after_draw.

(** so engines that compare equal can draw different numbers: one and two draws after default construction. *)
Lemma seeded_draw c P s k : In (c, P) mt_engines -> word 64 s -> (k + 1 < me_n P - me_m P)%nat ->
  draw (mt_next c) (mt_construct c s) k =
    Some (tempered P (next_term P (seeded_term P s k) (seeded_term P s (k + 1)) (seeded_term P s (k + me_m P)))).
Proof.
  intros H Hs Hk. destruct (engine_size c P H) as (EN & EM & HM & _).
  destruct (C31_seed c P (mt_blank c) s H ltac:(unfold mt_blank; cbn [mt_v]; rewrite repeat_length; exact EN) Hs) as (E & V).
  destruct (C31_stream c P _ H V) as (x & H0 & Hx & W & D). cbn [mt_v mt_i] in *. rewrite Nat2Z.id in D.
  unfold mt_construct. rewrite E, D, (Nat.add_comm (me_n P)), Hx.
  rewrite !H0, !nth_map_seq by lia. reflexivity.
Qed.
Example C31_second_draw : draw (mt_next mt32_class) (mt_default mt32_class) 1 = Some 581869302.
Proof. unfold mt_default. rewrite (seeded_draw _ std_mt19937); [vm_compute; reflexivity | left; reflexivity | split; lia | cbn; lia]. Qed.
Example C31_third_draw : draw (mt_next mt32_class) (mt_default mt32_class) 2 = Some 3890346734.
Proof. unfold mt_default. rewrite (seeded_draw _ std_mt19937); [vm_compute; reflexivity | left; reflexivity | split; lia | cbn; lia]. Qed.
Example C31_first_draw_64 : draw (mt_next mt64_class) (mt_default mt64_class) 0 = Some 14514284786278117030.
Proof. unfold mt_default. rewrite (seeded_draw _ std_mt19937_64); [vm_compute; reflexivity | right; left; reflexivity | split; lia | cbn; lia]. Qed.

Lemma equal_block c P S0 : In (c, P) mt_engines -> mt_valid P S0 -> mt_i S0 = Z.of_nat (me_n P) ->
  exists S1 S2, after (mt_next c) 1 (Some S0) = Some S1 /\ after (mt_next c) 2 (Some S0) = Some S2 /\ mt_eqb S1 S2 = true.
Proof.
  intros H V I0. destruct (C31_valid _ _ _ H V) as (S1 & A1 & V1 & I1). destruct (engine_size c P H) as (EN & _ & HM & _).
  rewrite I0, Z.eqb_refl in I1.
  destruct (C09_mt_equal_after_draw _ _ S1 H V1 ltac:(lia)) as (S2 & A2 & Q & _).
  exists S1, S2. split; [exact A1|]. split; [|exact Q].
  unfold after in *. cbn [Nat.iter nat_rect] in *. rewrite A1. exact A2.
Qed.
Lemma equal_block_seeded c P s : In (c, P) mt_engines -> word 64 s ->
  exists S1 S2, after (mt_next c) 1 (mt_construct c s) = Some S1 /\ after (mt_next c) 2 (mt_construct c s) = Some S2 /\
    mt_eqb S1 S2 = true /\ draw (mt_next c) (Some S1) 0 = draw (mt_next c) (mt_construct c s) 1 /\
    draw (mt_next c) (Some S2) 0 = draw (mt_next c) (mt_construct c s) 2.
Proof.
  intros H Hs. destruct (engine_size c P H) as (EN & _).
  destruct (C31_seed c P (mt_blank c) s H ltac:(unfold mt_blank; cbn [mt_v]; rewrite repeat_length; exact EN) Hs) as (E & V).
  destruct (equal_block c P _ H V eq_refl) as (S1 & S2 & A1 & A2 & Q). unfold mt_construct. rewrite E.
  exists S1, S2. split; [exact A1|]. split; [exact A2|]. split; [exact Q|]. unfold draw. rewrite A1, A2. split; reflexivity.
Qed.
Theorem C09_mt_equal_refuted : exists S1 S2,
  after (mt_next mt32_class) 1 (mt_default mt32_class) = Some S1 /\
  after (mt_next mt32_class) 2 (mt_default mt32_class) = Some S2 /\
  mt_eqb S1 S2 = true /\
  draw (mt_next mt32_class) (Some S1) 0 = Some 581869302 /\ draw (mt_next mt32_class) (Some S2) 0 = Some 3890346734.
Proof.
  destruct (equal_block_seeded mt32_class std_mt19937 5489) as (S1 & S2 & A1 & A2 & Q & D1 & D2); [left; reflexivity | split; lia|].
  exists S1, S2. split; [exact A1|]. split; [exact A2|]. split; [exact Q|]. split; [rewrite D1 | rewrite D2].
  - exact C31_second_draw.
  - exact C31_third_draw.
Qed.
Print Assumptions C09_mt_equal_refuted.

(** The hypotheses can be met: a valid state in the middle of a block. *)
Example mt_valid_example : mt_valid std_mt19937 (Mt 7 (repeat 5 624)).
Proof.
  split; [cbn; lia|]. split; [apply repeat_length|]. apply Forall_forall. intros x Hx. apply repeat_spec in Hx. subst x.
  split; cbn; lia.
Qed.
