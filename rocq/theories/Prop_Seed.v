(** Properties C87 and C88: the streams of seeded engines in closed form, seeding from a generator. *)
From Coq Require Import ZArith Znumtheory List Bool Arith Lia.
From Verif Require Import Base BaseFacts Cong Sums Spec SpecFacts Lcg64Model Lcg64Proofs CountShiftModel CountShiftProofs
  Count128Model Count128Proofs MinstdModel MinstdProofs IntMathModel GaussModel LinRec MrgModel MrgStepProofs MrgProofs
  Prop_Mrg Prop_Yarn LagfibModel XoshiroModel XoshiroProofs Prop_Xoshiro SeedModel MtModel Prop_Mt.
Import ListNotations.
Open Scope Z_scope.

(** ** Specification vocabulary *)

(** Bit i of [u] is the exclusive or of bits i and i+k of [t]. *)
Definition folded_down (k t u : Z) : Prop :=
  word 64 u /\ forall i, 0 <= i -> Z.testbit u i = xorb (Z.testbit t i) (Z.testbit t (i + k)).
(** Bit i of [u] is the exclusive or of bits i and i-k of [t]; bits below 0 are zero. *)
Definition folded_up (k t u : Z) : Prop :=
  word 64 u /\ forall i, 0 <= i < 64 -> Z.testbit u i = xorb (Z.testbit t i) ((k <=? i) && Z.testbit t (i - k)).
Definition scrambled (d1 up d2 t u : Z) : Prop :=
  exists v w, folded_down d1 t v /\ folded_up up v w /\ folded_down d2 w u.

(** Term n of the linear congruential sequence that starts with s. *)
Definition lcg_term (a b s : Z) (n : nat) : Z :=
  (a ^ Z.of_nat n * s + b * sum n (fun i => a ^ Z.of_nat i)) mod 2 ^ 64.

(** An engine whose successive draws are given by [f]. *)
Definition stream_is {E O} (next : E -> O * E) (R : E) (f : nat -> O) : Prop := forall n, draw next R n = f n.

Lemma down_intro k t : 0 <= k -> word 64 t -> folded_down k t (xorshr k t).
Proof.
  intros Hk Ht. split; [apply xorshr_range; assumption|]. intros i Hi.
  unfold xorshr. rewrite Z.lxor_spec, Z.shiftr_spec by exact Hi. reflexivity.
Qed.
Lemma up_intro k t : 0 <= k -> word 64 t -> folded_up k t (xorshl64 k t).
Proof.
  intros Hk Ht. split; [apply xorshl64_range; assumption|]. intros i Hi.
  unfold xorshl64, wrap64. rewrite Z.lxor_spec. f_equal. rewrite Z.mod_pow2_bits_low by lia.
  rewrite Z.shiftl_spec by lia. destruct (Z.leb_spec k i); [reflexivity|].
  rewrite Z.testbit_neg_r by lia. reflexivity.
Qed.
Lemma scrambled_intro d1 up d2 t : 0 <= d1 -> 0 <= up -> 0 <= d2 -> word 64 t ->
  scrambled d1 up d2 t (xorshr d2 (xorshl64 up (xorshr d1 t))).
Proof.
  intros H1 H2 H3 Ht. exists (xorshr d1 t), (xorshl64 up (xorshr d1 t)).
  assert (A := xorshr_range d1 t H1 Ht). assert (B := xorshl64_range up _ A).
  repeat split; try (apply down_intro; assumption); try (apply up_intro; assumption).
Qed.

(** The relation determines the scrambled word. *)
Lemma bits_eq64 u v : word 64 u -> word 64 v -> (forall i, 0 <= i < 64 -> Z.testbit u i = Z.testbit v i) -> u = v.
Proof.
  intros Hu Hv E. apply Z.bits_inj'. intros i Hi. destruct (Z.lt_ge_cases i 64) as [L|L]; [apply E; lia|].
  rewrite (proj2 (proj1 (word_bits 64 u ltac:(lia)) Hu) i L), (proj2 (proj1 (word_bits 64 v ltac:(lia)) Hv) i L). reflexivity.
Qed.
Lemma scrambled_unique d1 up d2 t u u' : scrambled d1 up d2 t u -> scrambled d1 up d2 t u' -> u = u'.
Proof.
  intros (v & w & (A1 & A2) & (B1 & B2) & C1 & C2) (v' & w' & (A1' & A2') & (B1' & B2') & C1' & C2').
  assert (Ev : v = v') by (apply bits_eq64; try assumption; intros i Hi; rewrite A2, A2' by lia; reflexivity). subst v'.
  assert (Ew : w = w') by (apply bits_eq64; try assumption; intros i Hi; rewrite B2, B2' by lia; reflexivity). subst w'.
  apply bits_eq64; try assumption; intros i Hi; rewrite C2, C2' by lia; reflexivity.
Qed.

Lemma geo_sum a n : geo a n = sum n (fun i => a ^ Z.of_nat i).
Proof.
  induction n; [reflexivity|]. rewrite sum_shift. cbn [geo]. change (Z.of_nat 0) with 0. rewrite Z.pow_0_r. f_equal.
  rewrite IHn, <- sum_mul_l. apply sum_ext. intros i _. rewrite Nat2Z.inj_succ, Z.pow_succ_r by lia. reflexivity.
Qed.
Lemma lcg_state a b r n : word 64 r -> lcg_r (Nat.iter n lcg64_step (Lcg64 a b r)) = lcg_term a b r n.
Proof.
  intros Hr. rewrite step_set. cbn [set_r lcg_r lcg_a lcg_b]. apply eqm_eq.
  - apply lcg_aff_iter_range, Hr.
  - unfold lcg_term. apply Z.mod_pos_bound. reflexivity.
  - rewrite lcg_aff_iter, geo_sum. unfold lcg_term. rewrite cong_mod. rewrite (Z.mul_comm b). reflexivity.
Qed.

(** ** C87: closed forms *)

Theorem C87_lcg64 : forall R s, word 64 s ->
  stream_is lcg64_next (lcg64_seed R s) (fun n => lcg_term (lcg_a R) (lcg_b R) s (S n)).
Proof.
  intros [a b r] s Hs n. unfold draw. rewrite (after_step lcg64_next lcg64_step) by reflexivity.
  unfold lcg64_seed, set_r. cbn [lcg_a lcg_b]. rewrite wrap64_small by exact Hs.
  change (fst (lcg64_next (Nat.iter n lcg64_step (Lcg64 a b s)))) with (lcg_r (Nat.iter (S n) lcg64_step (Lcg64 a b s))).
  apply lcg_state, Hs.
Qed.
Print Assumptions C87_lcg64.

Theorem C87_lcg64_shift : forall R s n, word 64 s ->
  scrambled 17 31 8 (lcg_term (lcg_a R) (lcg_b R) s (S n)) (draw lcg64_shift_next (lcg64_seed R s) n).
Proof.
  intros [a b r] s n Hs. unfold draw. rewrite (after_step lcg64_shift_next lcg64_step) by reflexivity.
  unfold lcg64_seed, set_r. cbn [lcg_a lcg_b]. rewrite wrap64_small by exact Hs.
  change (fst (lcg64_shift_next (Nat.iter n lcg64_step (Lcg64 a b s))))
    with (lcg64_shift_out (lcg_r (Nat.iter (S n) lcg64_step (Lcg64 a b s)))).
  rewrite lcg_state by exact Hs. apply scrambled_intro; try lia. apply Z.mod_pos_bound. reflexivity.
Qed.
Print Assumptions C87_lcg64_shift.

Theorem C87_count_shift : forall R s n, lcs_ok R -> word 64 s ->
  let r := lcg_term (lcg_a (cs_lcg R)) (lcg_b (cs_lcg R)) s (S n) in
  let count := (s + Z.of_nat (S n) * cs_inc R) mod (2 ^ 61 - 1) in
  scrambled 17 31 8 ((r + count) mod 2 ^ 64) (draw cs_next (cs_seed R s) n).
Proof.
  intros [[a b r] inc c] s n (_ & Hi & _) Hs. cbn [cs_lcg cs_inc lcg_a lcg_b] in *. cbv zeta. rewrite cs_draw.
  unfold cs_seed, lcg64_seed, set_r. cbn [cs_lcg cs_inc cs_count lcg_a lcg_b]. rewrite wrap64_small by exact Hs.
  rewrite lcg_state by exact Hs. rewrite iter_addmod by (try exact Hi; apply Z.mod_pos_bound; reflexivity).
  unfold cs_out. rewrite <- m_val. unfold cnt. rewrite Z.add_mod_idemp_l by discriminate.
  apply scrambled_intro; try lia. apply wrap64_range.
Qed.
Print Assumptions C87_count_shift.

Theorem C87_count128 : forall R s n, c128_ok R -> word 64 s ->
  let v := (s * 2 ^ 64 + s + Z.of_nat (S n) * c_inc R) mod 2 ^ 128 in
  exists x, (forall i, 0 <= i < 64 -> Z.testbit x i = xorb (Z.testbit v i) (Z.testbit v (64 + i))) /\ word 64 x /\
    scrambled 23 41 18 ((x * c_a R + c_b R) mod 2 ^ 64) (draw (c128_next hi_native) (c128_seed R s) n).
Proof.
  intros R s n (Hi & _) Hs. cbv zeta.
  assert (Hr : word 128 (wrap64 s * 2 ^ 64 + wrap64 s)).
  { rewrite wrap64_small by exact Hs. unfold word in *. change (2 ^ 128) with (2 ^ 64 * 2 ^ 64). nia. }
  assert (D := c128_draw hi_native (c128_seed R s) n Hr). cbv zeta in D. rewrite D. clear D.
  unfold c128_seed, c128_set. cbn [c_r c_inc c_a c_b]. rewrite (wrap64_small s Hs). unfold wrap128.
  set (v := (s * 2 ^ 64 + s + Z.of_nat (S n) * c_inc R) mod 2 ^ 128).
  assert (Hv : 0 <= v < 2 ^ 128) by (apply Z.mod_pos_bound; reflexivity).
  assert (Hh : word 64 (hi_native v)).
  { unfold hi_native. split; [apply Z.div_pos; lia|]. apply Z.div_lt_upper_bound; [lia|]. change (2 ^ 64 * 2 ^ 64) with (2 ^ 128). lia. }
  assert (Hl : word 64 (lo64 v)) by (apply Z.mod_pos_bound; reflexivity).
  exists (Z.lxor (lo64 v) (hi_native v)). split; [|split].
  - intros i Hi'. rewrite Z.lxor_spec. unfold lo64, hi_native. rewrite Z.mod_pow2_bits_low by lia.
    rewrite Z.div_pow2_bits by lia. rewrite (Z.add_comm i). reflexivity.
  - apply lxor_range; [lia | exact Hl | exact Hh].
  - unfold c128_mix, wrap64. rewrite Z.add_mod_idemp_l by discriminate. apply scrambled_intro; try lia.
    apply Z.mod_pos_bound. reflexivity.
Qed.
Print Assumptions C87_count128.

Theorem C87_minstd : forall s, 0 <= s ->
  stream_is minstd_next (minstd_seed s)
    (fun n => (16807 ^ Z.of_nat (S n) * (if s mod (2 ^ 31 - 1) =? 0 then 1 else s)) mod (2 ^ 31 - 1)).
Proof.
  intros s Hs n. unfold draw. rewrite (after_step minstd_next minstd_step) by reflexivity.
  assert (B := Z.mod_pos_bound s (2 ^ 31 - 1) ltac:(reflexivity)).
  assert (E : minstd_seed s = if s mod (2 ^ 31 - 1) =? 0 then 1 else s mod (2 ^ 31 - 1)).
  { unfold minstd_seed, wrap32. change 2147483647 with (2 ^ 31 - 1). rewrite (Z.mod_small (s mod _)); [reflexivity|].
    change (2 ^ 31 - 1) with 2147483647 in *. change (2 ^ 32) with 4294967296. lia. }
  rewrite E. change (fst (minstd_next (Nat.iter n minstd_step ?r))) with (Nat.iter (S n) minstd_step r).
  change (2 ^ 31 - 1) with p31 in *. destruct (Z.eqb_spec (s mod p31) 0) as [Z|N].
  - apply minstd_iter. split; [lia | reflexivity].
  - rewrite minstd_iter by lia. rewrite Z.mul_mod_idemp_r by discriminate. reflexivity.
Qed.
Print Assumptions C87_minstd.

(** The sequence of an mrg engine: the state is the window of the last k terms, the most recent first. *)
Definition recurrence_from (m : Z) (a window : list Z) (x : nat -> Z) : Prop :=
  (forall i, (i < length window)%nat -> x (length window - 1 - i)%nat = nth i window 0) /\
  forall n, x (n + length window)%nat = sum (length a) (fun i => nth i a 0 * x (n + length window - 1 - i)%nat) mod m.

Theorem C87_mrg : forall cl R s, In cl mrg_classes -> mrg_legal cl R -> word 64 s ->
  let k := mc_order cl in
  let m := mc_modulus cl in
  let start := (if s <? 2 ^ 63 then s else s - 2 ^ 64) mod m in
  exists x, recurrence_from m (mrg_a R) (start :: repeat 1 (k - 1)) x /\
    (stream_is (mrg_next cl) (mrg_seed cl R s) (fun n => x (n + k)%nat)) /\
    forall y, recurrence_from m (mrg_a R) (start :: repeat 1 (k - 1)) y -> forall n, y n = x n.
Proof.
  intros cl R s Hcl L Hs. cbv zeta. assert (G := m_pos cl Hcl). assert (Ko := class_order cl Hcl).
  set (k := mc_order cl) in *. set (m := mc_modulus cl) in *.
  assert (L' := C59_mrg_seed cl R s Hcl L Hs). destruct L' as (L' & _). 
  assert (O := proj1 (legal_ok _ _) L'). exists (useq cl (mrg_seed cl R s)).
  assert (Es : mrg_r (mrg_seed cl R s) = (if s <? 2 ^ 63 then s else s - 2 ^ 64) mod m :: repeat 1 (k - 1)).
  { unfold mrg_seed. cbn [mrg_r]. f_equal. fold m. change (to_int64 s) with (if s <? 2 ^ 63 then s else s - 2 ^ 64).
    set (t := if s <? 2 ^ 63 then s else s - 2 ^ 64).
    destruct (Z.le_gt_cases 0 t) as [P|P].
    - rewrite Z.rem_mod_nonneg by lia. assert (B := Z.mod_pos_bound t m ltac:(lia)).
      destruct (Z.ltb_spec (t mod m) 0); [lia | reflexivity].
    - assert (B := Z.rem_bound_pos (- t) m ltac:(lia) ltac:(lia)). rewrite Z.rem_opp_l in B by lia. assert (E := Z.quot_rem' t m).
      destruct (Z.ltb_spec (Z.rem t m) 0) as [N|N].
      + apply (Z.mod_unique t m (Z.quot t m - 1)); [left; lia | lia].
      + apply (Z.mod_unique t m (Z.quot t m)); [left; lia | lia]. }
  assert (Ll : length (mrg_r (mrg_seed cl R s)) = k) by apply O.
  assert (La : length (mrg_a R) = k) by apply L.
  assert (Rec : recurrence_from m (mrg_a R) (mrg_r (mrg_seed cl R s)) (useq cl (mrg_seed cl R s))).
  { split; rewrite Ll.
    - intros i Hi. symmetry. exact (state_nth cl Hcl (mrg_seed cl R s) 0 i O Hi).
    - intros n. rewrite La. apply (cong_eq m); [apply (useq_range cl Hcl), O | apply Z.mod_pos_bound; lia|].
      rewrite cong_mod. assert (U := useq_rec cl Hcl _ O n). fold k m in U. rewrite U.
      change (mrg_a (mrg_seed cl R s)) with (mrg_a R). apply sum_cong. intros i Hi.
      replace (n + k - 1 - i)%nat with (n + (k - 1 - i))%nat by lia. reflexivity. }
  rewrite <- Es. split; [exact Rec|]. split.
  - intros n. apply (draw_useq cl Hcl), O.
  - intros y Hy. destruct Rec as (R1 & R2), Hy as (Y1 & Y2). rewrite Ll in *. rewrite La in *.
    intros n. induction n as [n IH] using lt_wf_ind. destruct (Nat.lt_ge_cases n k) as [Hn|Hn].
    + replace n with (k - 1 - (k - 1 - n))%nat by lia. rewrite R1, Y1 by lia. reflexivity.
    + replace n with (n - k + k)%nat by lia. rewrite R2, Y2. f_equal. apply sum_ext. intros i Hi. f_equal. apply IH. lia.
Qed.
Print Assumptions C87_mrg.

Theorem C87_yarn : forall y R s, In y yarn_classes -> mrg_legal (yc_mrg y) R -> word 64 s ->
  let k := mc_order (yc_mrg y) in
  let m := mc_modulus (yc_mrg y) in
  let start := (if s <? 2 ^ 63 then s else s - 2 ^ 64) mod m in
  exists x, recurrence_from m (mrg_a R) (start :: repeat 1 (k - 1)) x /\
    stream_is (yarn_next y) (mrg_seed (yc_mrg y) R s)
      (fun n => Some (if x (n + k)%nat =? 0 then 0 else yc_gen y ^ x (n + k)%nat mod m)).
Proof.
  intros y R s Hy L Hs. assert (Hcl := yarn_mrg y Hy). cbv zeta.
  destruct (C87_mrg (yc_mrg y) R s Hcl L Hs) as (x & Rx & Dx & _). exists x. split; [exact Rx|].
  intros n. rewrite <- (Dx n). assert (L' := proj1 (C59_mrg_seed _ R s Hcl L Hs)).
  assert (O := proj1 (legal_ok _ _) L'). unfold draw.
  rewrite (after_step (yarn_next y) (mrg_step (yc_mrg y))) by reflexivity.
  rewrite (after_step (mrg_next (yc_mrg y)) (mrg_step (yc_mrg y))) by reflexivity.
  unfold yarn_next, mrg_next. cbv zeta. cbn [fst].
  rewrite yarn_out_map; [reflexivity | exact Hy|].
  assert (O2 := st_ok (yc_mrg y) Hcl (S n) _ O). apply O2. assert (Ko := class_order _ Hcl). lia.
Qed.
Print Assumptions C87_yarn.

(** One step of xoshiro256+ bit by bit; rotation is on 64 bits. *)
Definition xoshiro_bits (s t : xoshiro) : Prop :=
  xstate t /\ forall i, 0 <= i < 64 ->
  Z.testbit (xr0 t) i = xorb (xorb (Z.testbit (xr0 s) i) (Z.testbit (xr1 s) i)) (Z.testbit (xr3 s) i) /\
  Z.testbit (xr1 t) i = xorb (xorb (Z.testbit (xr0 s) i) (Z.testbit (xr1 s) i)) (Z.testbit (xr2 s) i) /\
  Z.testbit (xr2 t) i = xorb (xorb (Z.testbit (xr0 s) i) (Z.testbit (xr2 s) i)) ((17 <=? i) && Z.testbit (xr1 s) (i - 17)) /\
  Z.testbit (xr3 t) i = xorb (Z.testbit (xr1 s) ((i - 45) mod 64)) (Z.testbit (xr3 s) ((i - 45) mod 64)).

Theorem C87_xoshiro : forall S, xstate S ->
  exists st : nat -> xoshiro, st 0%nat = S /\ (forall n, xoshiro_bits (st n) (st (Datatypes.S n))) /\
    stream_is xo_next S (fun n => (xr0 (st (Datatypes.S n)) + xr3 (st (Datatypes.S n))) mod 2 ^ 64).
Proof.
  intros S K. exists (fun n => Nat.iter n xo_step S). split; [reflexivity|]. split; [|intros n; reflexivity].
  intros n. assert (Kn : xok (Nat.iter n xo_step S)) by (apply iter_inv; [exact step_ok | exact K]).
  change (Nat.iter (Datatypes.S n) xo_step S) with (xo_step (Nat.iter n xo_step S)).
  generalize dependent (Nat.iter n xo_step S). intros T KT. split; [apply step_ok, KT|]. intros i Hi.
  destruct T as [a b c d]. destruct KT as (Ka & Kb & Kc & Kd). cbn [xr0 xr1 xr2 xr3] in *.
  unfold xo_step. cbn [xr0 xr1 xr2 xr3]. change (Z.lor (shl64 ?x 45) (Z.shiftr ?x (64 - 45))) with (rot x 45).
  rewrite rot_bit by (try lia; apply lxor_word; assumption). rewrite !Z.lxor_spec, shl_bit by lia.
  replace (i <? 64) with true by (symmetry; apply Z.ltb_lt; lia).
  repeat split.
  - destruct (Z.testbit a i), (Z.testbit b i), (Z.testbit d i); reflexivity.
  - destruct (Z.testbit a i), (Z.testbit b i), (Z.testbit c i); reflexivity.
  - destruct (Z.leb_spec 17 i); cbn [andb].
    + destruct (Z.testbit a i), (Z.testbit c i); reflexivity.
    + rewrite (Z.testbit_neg_r b) by lia. destruct (Z.testbit a i), (Z.testbit c i); reflexivity.
  - destruct (Z.ltb_spec i 45).
    + replace ((i - 45) mod 64) with (i + 64 - 45); [apply xorb_comm|].
      apply (Z.mod_unique (i - 45) 64 (-1)); [left|]; lia.
    + rewrite Z.mod_small by lia. apply xorb_comm.
Qed.
Print Assumptions C87_xoshiro.

(** ** C88: seeding from a generator *)

(** Value i of the source [g] in state [s]. *)
Definition value (g : gen) (s : g_state g) (i : nat) : Z := draw (g_next g) s i.

Lemma shift_in_S wrap g n r s : shift_in wrap g (S n) r s
  = shift_in wrap g n (wrap (wrap (Z.shiftl r 32) + fst (g_next g s))) (snd (g_next g s)).
Proof. cbn [shift_in]. destruct (g_next g s). reflexivity. Qed.
Lemma after_next {g : gen} n (s : g_state g) : after (g_next g) n (snd (g_next g s)) = after (g_next g) (S n) s.
Proof. unfold after. rewrite <- (iter_S_r (fun R => snd (g_next g R))). reflexivity. Qed.
Lemma value_next (g : gen) s i : value g (snd (g_next g s)) i = value g s (S i).
Proof. unfold value, draw. rewrite after_next. reflexivity. Qed.

Lemma shift_in_2 g s :
  shift_in wrap64 g 2 0 s = ((value g s 0 * 2 ^ 32 + value g s 1) mod 2 ^ 64, after (g_next g) 2 s).
Proof.
  rewrite !shift_in_S. cbn [shift_in]. f_equal.
  change (fst (g_next g s)) with (value g s 0). change (fst (g_next g (snd (g_next g s)))) with (value g s 1).
  unfold wrap64. rewrite !Z.shiftl_mul_pow2 by lia.
  change ((0 * 2 ^ 32) mod 2 ^ 64) with 0. rewrite Z.add_0_l.
  rewrite Z.mul_mod_idemp_l, Z.add_mod_idemp_l by discriminate. reflexivity.
Qed.
Lemma shift_in_4 g s : shift_in wrap128 g 4 0 s =
  ((value g s 0 * 2 ^ 96 + value g s 1 * 2 ^ 64 + value g s 2 * 2 ^ 32 + value g s 3) mod 2 ^ 128, after (g_next g) 4 s).
Proof.
  rewrite !shift_in_S. cbn [shift_in]. f_equal.
  change (fst (g_next g s)) with (value g s 0). change (fst (g_next g (snd (g_next g s)))) with (value g s 1).
  change (fst (g_next g (snd (g_next g (snd (g_next g s)))))) with (value g s 2).
  change (fst (g_next g (snd (g_next g (snd (g_next g (snd (g_next g s)))))))) with (value g s 3).
  unfold wrap128. rewrite !Z.shiftl_mul_pow2 by lia.
  apply mod_cong; [discriminate|]. rewrite !cong_mod.
  match goal with |- cong _ ?a ?b => replace a with b by ring end. reflexivity.
Qed.

Theorem C88_lcg64 : forall R g s, lcg64_seed_gen R g s =
  (Lcg64 (lcg_a R) (lcg_b R) ((value g s 0 * 2 ^ 32 + value g s 1) mod 2 ^ 64), after (g_next g) 2 s).
Proof. intros R g s. unfold lcg64_seed_gen. rewrite shift_in_2. reflexivity. Qed.
Print Assumptions C88_lcg64.

Theorem C88_count_shift : forall R g s, cs_seed_gen R g s =
  (Lcs (Lcg64 (lcg_a (cs_lcg R)) (lcg_b (cs_lcg R)) ((value g s 0 * 2 ^ 32 + value g s 1) mod 2 ^ 64)) (cs_inc R)
     (((value g s 2 * 2 ^ 32 + value g s 3) mod 2 ^ 64) mod (2 ^ 61 - 1)),
   after (g_next g) 4 s).
Proof.
  intros R g s. unfold cs_seed_gen. rewrite shift_in_2, shift_in_2. reflexivity.
Qed.
Print Assumptions C88_count_shift.

Theorem C88_count128 : forall R g s, c128_seed_gen R g s =
  (C128 (c_inc R) (c_a R) (c_b R)
     ((value g s 0 * 2 ^ 96 + value g s 1 * 2 ^ 64 + value g s 2 * 2 ^ 32 + value g s 3) mod 2 ^ 128),
   after (g_next g) 4 s).
Proof. intros R g s. unfold c128_seed_gen. rewrite shift_in_4. reflexivity. Qed.
Print Assumptions C88_count128.

(** With a 32-bit source different values give different engines. *)
Theorem C88_injective : forall R R' (g g' : gen) s s',
  (forall i, (i < 4)%nat -> word 32 (value g s i) /\ word 32 (value g' s' i)) ->
  (fst (lcg64_seed_gen R g s) = fst (lcg64_seed_gen R g' s') ->
   forall i, (i < 2)%nat -> value g s i = value g' s' i) /\
  (fst (c128_seed_gen R' g s) = fst (c128_seed_gen R' g' s') ->
   forall i, (i < 4)%nat -> value g s i = value g' s' i).
Proof.
  intros R R' g g' s s' H.
  assert (H0 := H 0%nat ltac:(lia)). assert (H1 := H 1%nat ltac:(lia)).
  assert (H2 := H 2%nat ltac:(lia)). assert (H3 := H 3%nat ltac:(lia)). clear H. unfold word in *. split.
  - rewrite !C88_lcg64. cbn [fst]. intros E. apply (f_equal lcg_r) in E. cbn [lcg_r] in E.
    change (2 ^ 64) with 18446744073709551616 in E. change (2 ^ 32) with 4294967296 in *.
    rewrite !Z.mod_small in E by lia. intros i Hi. destruct i as [|[|i]]; lia.
  - rewrite !C88_count128. cbn [fst]. intros E. apply (f_equal c_r) in E. cbn [c_r] in E.
    change (2 ^ 128) with 340282366920938463463374607431768211456 in E.
    change (2 ^ 96) with 79228162514264337593543950336 in E.
    change (2 ^ 64) with 18446744073709551616 in E. change (2 ^ 32) with 4294967296 in *.
    rewrite !Z.mod_small in E by lia. intros i Hi. destruct i as [|[|[|[|i]]]]; lia.
Qed.
Print Assumptions C88_injective.

(** minstd takes the first value that is not a multiple of 2^31-1. *)
Theorem C88_minstd : forall (g : gen) s n, (forall i, 0 <= value g s i) ->
  (forall i, (i < n)%nat -> value g s i mod (2 ^ 31 - 1) = 0) -> value g s n mod (2 ^ 31 - 1) <> 0 ->
  (forall fuel, (n < fuel)%nat ->
     minstd_seed_gen fuel g s = Some (value g s n mod (2 ^ 31 - 1), after (g_next g) (S n) s)) /\
  1 <= value g s n mod (2 ^ 31 - 1) <= 2 ^ 31 - 2.
Proof.
  intros g s n Hp Hz Hn. assert (B := Z.mod_pos_bound (value g s n) (2 ^ 31 - 1) ltac:(reflexivity)). split; [|lia]. clear B.
  change (2 ^ 31 - 1) with 2147483647 in *.
  revert s Hp Hz Hn. induction n; intros s Hp Hz Hn fuel Hf; (destruct fuel as [|fuel]; [lia|]); cbn [minstd_seed_gen];
    rewrite (surjective_pairing (g_next g s)); change (fst (g_next g s)) with (value g s 0);
    rewrite Z.rem_mod_nonneg by (try apply Hp; reflexivity);
    assert (B := Z.mod_pos_bound (value g s 0) 2147483647 ltac:(reflexivity));
    unfold wrap32; rewrite (Z.mod_small (_ mod _)) by (change (2 ^ 32) with 4294967296; lia).
  - destruct (Z.eqb_spec (value g s 0 mod 2147483647) 0); [contradiction | reflexivity].
  - rewrite (Hz 0%nat) by lia. cbn [Z.eqb]. rewrite <- (value_next g s n) in *. rewrite <- (after_next (S n) s).
    apply IHn; [| | exact Hn | lia].
    + intros i. rewrite value_next. apply Hp.
    + intros i Hi. rewrite value_next. apply Hz. lia.
Qed.
Print Assumptions C88_minstd.

(** ... and does not return if there is none: seeding from a source is not total. *)
Theorem C88_minstd_endless : forall (g : gen) s, (forall i, 0 <= value g s i) ->
  ((forall fuel, minstd_seed_gen fuel g s = None) <-> (forall i, value g s i mod (2 ^ 31 - 1) = 0)).
Proof.
  intros g s Hp. split.
  - intros N n. induction n as [n IH] using lt_wf_ind.
    destruct (Z.eq_dec (value g s n mod (2 ^ 31 - 1)) 0) as [E|E]; [exact E|]. exfalso.
    assert (H := proj1 (C88_minstd g s n Hp IH E) (S n) ltac:(lia)). rewrite N in H. discriminate H.
  - intros Hz fuel. change (2 ^ 31 - 1) with 2147483647 in *. revert s Hp Hz. induction fuel; intros s Hp Hz; [reflexivity|].
    cbn [minstd_seed_gen]. rewrite (surjective_pairing (g_next g s)). change (fst (g_next g s)) with (value g s 0).
    rewrite Z.rem_mod_nonneg by (try apply Hp; reflexivity). rewrite Hz. change (wrap32 0 =? 0) with true. cbv iota.
    apply IHfuel; intros i; rewrite value_next; [apply Hp | apply Hz].
Qed.
Print Assumptions C88_minstd_endless.

Definition zero_source : gen := Gen unit (fun u => (0, u)) 0 1.
Theorem C88_minstd_terminates_refuted : exists (g : gen) s, (forall i, word 32 (value g s i)) /\
  forall fuel, minstd_seed_gen fuel g s = None.
Proof.
  exists zero_source, tt. assert (V : forall i, value zero_source tt i = 0) by (intros i; reflexivity).
  split; [intros i; rewrite V; split; [lia | reflexivity]|].
  apply C88_minstd_endless; intros i; rewrite V; [lia | reflexivity].
Qed.
Print Assumptions C88_minstd_terminates_refuted.

(** Eight values of the source are the words of xoshiro256plus. *)
Theorem C88_xoshiro : forall (g : gen) s,
  let w i := (value g s (2 * i) * 2 ^ 32 + value g s (2 * i + 1)) mod 2 ^ 64 in
  xo_seed_gen g s = (if (w 0%nat =? 0) && (w 1%nat =? 0) && (w 2%nat =? 0) && (w 3%nat =? 0)
                     then Xo (2 ^ 63) 0 0 0 else Xo (w 0%nat) (w 1%nat) (w 2%nat) (w 3%nat)).
Proof.
  intros g s. cbv zeta.
  assert (W : forall t, xo_gen_word g t = ((value g t 0 * 2 ^ 32 + value g t 1) mod 2 ^ 64, after (g_next g) 2 t)).
  { intros t. rewrite <- shift_in_2. unfold xo_gen_word. rewrite !shift_in_S. cbn [shift_in].
    rewrite (surjective_pairing (g_next g t)).
    rewrite (surjective_pairing (g_next g (snd (g_next g t)))). reflexivity. }
  unfold xo_seed_gen. rewrite !W. unfold xo_fix. cbn [xr0 xr1 xr2 xr3].
  assert (V : forall j i, value g (after (g_next g) j s) i = value g s (i + j)) by (intros; apply draw_after).
  assert (A : forall i j t, after (g_next g) i (after (g_next g) j t) = after (g_next g) (i + j) t)
    by (intros; unfold after; rewrite <- iter_add; reflexivity).
  rewrite !A, !V. cbn [Nat.add Nat.mul].
  set (a := (value g s 0 * 2 ^ 32 + value g s 1) mod 2 ^ 64). set (b := (value g s 2 * 2 ^ 32 + value g s 3) mod 2 ^ 64).
  set (c := (value g s 4 * 2 ^ 32 + value g s 5) mod 2 ^ 64). set (d := (value g s 6 * 2 ^ 32 + value g s 7) mod 2 ^ 64).
  destruct (Z.eqb_spec a 0) as [->|], (Z.eqb_spec b 0) as [->|], (Z.eqb_spec c 0) as [->|], (Z.eqb_spec d 0) as [->|]; reflexivity.
Qed.
Print Assumptions C88_xoshiro.

(** The Mersenne twisters take one value (32 bits) or two values (64 bits) as the seed of the standard. *)
Theorem C88_mersenne : forall (g : gen) s S, length (mt_v S) = me_n std_mt19937 ->
  (forall S64, length (mt_v S64) = me_n std_mt19937_64 ->
    mt64_seed_gen g s S64 = Some (Mt 312 (map (seeded_term std_mt19937_64 ((value g s 0 * 2 ^ 32 + value g s 1) mod 2 ^ 64)) (seq 0 312)))) /\
  mt32_seed_gen g s S = Some (Mt 624 (map (seeded_term std_mt19937 (value g s 0 mod 2 ^ 64)) (seq 0 624))).
Proof.
  intros g s S L. split.
  - intros S64 L64. assert (E := shift_in_2 g s). rewrite !shift_in_S in E. cbn [shift_in] in E. apply (f_equal (fun q => fst q)) in E. cbv beta in E.
    set (v := (value g s 0 * 2 ^ 32 + value g s 1) mod 2 ^ 64) in *. cbn [fst] in E. unfold mt64_seed_gen.
    rewrite (surjective_pairing (g_next g s)). rewrite (surjective_pairing (g_next g (snd (g_next g s)))). rewrite E.
    apply (C31_seed mt64_class std_mt19937_64); [right; left; reflexivity | exact L64 | apply Z.mod_pos_bound; lia].
  - unfold mt32_seed_gen. apply (C31_seed mt32_class std_mt19937); [left; reflexivity | exact L | apply Z.mod_pos_bound; lia].
Qed.
Print Assumptions C88_mersenne.
Example C88_mersenne_case : let g := Gen Z (fun n => (n, n + 1)) 0 (2 ^ 32 - 1) in
  mt64_seed_gen g 7 (Mt 0 (repeat 0 312)) = Some (Mt 312 (map (seeded_term std_mt19937_64 (7 * 2 ^ 32 + 8)) (seq 0 312))).
Proof. intros g. apply (proj1 (C88_mersenne g 7 (Mt 0 (repeat 0 624)) eq_refl) (Mt 0 (repeat 0 312)) eq_refl). Qed.

(** ** mrg and yarn engines seeded with multiples of the modulus only *)

Lemma zero_stuck cl R : In cl mrg_classes -> mrg_legal cl R -> (forall i, nth i (mrg_r R) 0 = 0) ->
  stream_is (mrg_next cl) R (fun _ => 0).
Proof.
  intros Hcl L Z n. assert (O := proj1 (legal_ok _ _) L). assert (G := m_pos cl Hcl). assert (Ko := class_order cl Hcl).
  rewrite (draw_useq cl Hcl) by exact O.
  assert (U : forall j, useq cl R j = 0).
  { intros j. induction j as [j IH] using lt_wf_ind. destruct (Nat.lt_ge_cases j (mc_order cl)) as [Hj|Hj].
    - assert (S0 := state_nth cl Hcl R 0 (mc_order cl - 1 - j) O ltac:(lia)).
      change (Nat.iter 0 (mrg_step cl) R) with R in S0. rewrite Z in S0.
      replace (0 + (mc_order cl - 1 - (mc_order cl - 1 - j)))%nat with j in S0 by lia. symmetry. exact S0.
    - assert (Q := useq_rec cl Hcl R O (j - mc_order cl)%nat). replace (j - mc_order cl + mc_order cl)%nat with j in Q by lia.
      rewrite sum_0 in Q; [|intros i Hi; rewrite IH by lia; ring].
      apply (cong_eq (mc_modulus cl)); [apply (useq_range cl Hcl), O | lia | exact Q]. }
  apply U.
Qed.

Theorem C88_mrg_dead : forall cl R l, In cl mrg_classes -> mrg_legal cl R -> length l = mc_order cl ->
  Forall (fun v => (mc_modulus cl | v mod 2 ^ 32)) l ->
  stream_is (mrg_next cl) (mrg_seed_gen cl R l) (fun _ => 0).
Proof.
  intros cl R l Hcl L Hl D. assert (G := m_pos cl Hcl).
  apply zero_stuck; [exact Hcl | apply C59_mrg_seed_gen; assumption|].
  intros i. unfold mrg_seed_gen. cbn [mrg_r]. destruct (Nat.lt_ge_cases i (length l)) as [Hi|Hi].
  - rewrite (nth_indep _ 0 (wrap32 0 mod mc_modulus cl)) by (rewrite map_length; exact Hi).
    rewrite (map_nth (fun v => wrap32 v mod mc_modulus cl)).
    rewrite Forall_forall in D. apply Z.mod_divide; [lia|]. apply D, nth_In, Hi.
  - apply nth_overflow. rewrite map_length. exact Hi.
Qed.
Print Assumptions C88_mrg_dead.

Theorem C88_yarn_dead : forall y R l, In y yarn_classes -> mrg_legal (yc_mrg y) R -> length l = mc_order (yc_mrg y) ->
  Forall (fun v => (mc_modulus (yc_mrg y) | v mod 2 ^ 32)) l ->
  stream_is (yarn_next y) (mrg_seed_gen (yc_mrg y) R l) (fun _ => Some 0).
Proof.
  intros y R l Hy L Hl D n. assert (E := C88_mrg_dead (yc_mrg y) R l (yarn_mrg y Hy) L Hl D n). cbv beta in E. unfold draw in *.
  rewrite (after_step (yarn_next y) (mrg_step (yc_mrg y))) by reflexivity.
  rewrite (after_step (mrg_next (yc_mrg y)) (mrg_step (yc_mrg y))) in E by reflexivity.
  unfold yarn_next, mrg_next in *. cbv zeta in *. cbn [fst] in *. rewrite E. reflexivity.
Qed.
Print Assumptions C88_yarn_dead.

Theorem C88_mrg_alive_refuted : exists cl R l, In cl mrg_classes /\ mrg_legal cl R /\ length l = mc_order cl /\
  Forall (word 32) l /\ stream_is (mrg_next cl) (mrg_seed_gen cl R l) (fun _ => 0).
Proof.
  exists mrg2_class, (Mrg [1498809829; 1160990996] [0; 1]), [0; 2147483647].
  assert (I2 : In mrg2_class mrg_classes) by (left; reflexivity).
  assert (L : mrg_legal mrg2_class (Mrg [1498809829; 1160990996] [0; 1])).
  { split; (split; [reflexivity|]); repeat constructor; cbn; lia. }
  split; [exact I2|]. split; [exact L|]. split; [reflexivity|]. split.
  - repeat constructor; cbn; lia.
  - apply C88_mrg_dead; [exact I2 | exact L | reflexivity|].
    constructor; [exists 0; reflexivity|]. constructor; [exists 1; reflexivity | constructor].
Qed.
Print Assumptions C88_mrg_alive_refuted.

(** If one state value and the last coefficient are not zero, every k consecutive draws contain a value
    other than zero. *)
Theorem C88_mrg_alive : forall cl R, In cl mrg_classes -> mrg_legal cl R -> last (mrg_a R) 0 <> 0 ->
  (exists x, In x (mrg_r R) /\ x <> 0) ->
  forall n, exists i, (i < mc_order cl)%nat /\ draw (mrg_next cl) R (n + i) <> 0.
Proof.
  intros cl R Hcl L Ha (x & Hx & Nx) n.
  assert (O := proj1 (legal_ok _ _) L). assert (G := m_pos cl Hcl). assert (Ko := class_order cl Hcl).
  assert (P := class_prime cl Hcl). set (k := mc_order cl) in *.
  assert (La : length (mrg_a R) = k) by apply L. assert (Lr : length (mrg_r R) = k) by apply L.
  assert (Ea : nth (k - 1) (mrg_a R) 0 <> 0).
  { intros E. apply Ha. rewrite <- E. rewrite <- La. clear - La Ko. revert La Ko. generalize (mrg_a R) k. clear.
    intros l k L K. destruct l as [|y l] using rev_ind; [reflexivity|].
    rewrite last_last, app_length, Nat.add_sub. cbn [length]. rewrite app_nth2, Nat.sub_diag by lia. reflexivity. }
  assert (Ra : 0 <= nth (k - 1) (mrg_a R) 0 < mc_modulus cl) by (apply O; fold k; lia).
  (* a window of zeros would go back to the start *)
  assert (W : forall j, (forall i, (i < k)%nat -> useq cl R (j + i) = 0) -> forall i, (i < k)%nat -> useq cl R i = 0).
  { induction j; intros Hj; [exact Hj|]. apply IHj. intros i Hi. destruct i as [|i].
    - rewrite Nat.add_0_r. assert (Q := useq_rec cl Hcl R O j). fold k in Q.
      replace (j + k)%nat with (S j + (k - 1))%nat in Q by lia. rewrite Hj in Q by lia.
      replace k with (S (k - 1)) in Q at 1 by lia. cbn [sum] in Q. rewrite sum_0 in Q.
      + rewrite Z.add_0_l in Q. replace (j + (k - 1 - (k - 1)))%nat with j in Q by lia.
        assert (B := useq_range cl Hcl R j O). symmetry in Q. destruct Q as [q Q]. rewrite Z.sub_0_r in Q.
        destruct (prime_mult _ P (nth (k - 1) (mrg_a R) 0) (useq cl R j)) as [D|D]; [exists q; lia | |].
        * apply Z.divide_pos_le in D; lia.
        * destruct (Z.eq_dec (useq cl R j) 0) as [E|E]; [exact E|]. apply Z.divide_pos_le in D; lia.
      + intros i Hi'. replace (j + (k - 1 - i))%nat with (S j + (k - 2 - i))%nat by lia. rewrite Hj by lia. ring.
    - replace (j + S i)%nat with (S j + i)%nat by lia. apply Hj. lia. }
  destruct (forallb (fun i => draw (mrg_next cl) R (n + i) =? 0) (seq 0 k)) eqn:F.
  - exfalso. rewrite forallb_forall in F. apply Nx. destruct (In_nth _ _ 0 Hx) as (i & Hi & <-).
    assert (S0 := state_nth cl Hcl R 0 i O ltac:(fold k; lia)).
    change (Nat.iter 0 (mrg_step cl) R) with R in S0. rewrite S0. cbn [Nat.add]. fold k.
    apply (W (n + k)%nat); [|lia]. intros d Hd. assert (E := F d ltac:(apply in_seq; lia)). apply Z.eqb_eq in E.
    rewrite (draw_useq cl Hcl) in E by exact O. fold k in E. rewrite <- E. f_equal. lia.
  - assert (T : exists i, In i (seq 0 k) /\ (draw (mrg_next cl) R (n + i) =? 0) = false).
    { revert F. generalize (seq 0 k). intros l. induction l as [|y l IH]; intros F; [discriminate F|].
      cbn [forallb] in F. destruct (draw (mrg_next cl) R (n + y) =? 0) eqn:E.
      - destruct (IH F) as (i & Hi & Ei). exists i. split; [right; exact Hi | exact Ei].
      - exists y. split; [left; reflexivity | exact E]. }
    destruct T as (i & Hi & Ei). apply in_seq in Hi. apply Z.eqb_neq in Ei. exists i. split; [lia | exact Ei].
Qed.
Print Assumptions C88_mrg_alive.

(** ** Examples *)
Definition count_source : gen := Gen Z (fun s => (s, s + 1)) 0 (2 ^ 32 - 1).

Example C87_lcg64_example : draw lcg64_next (lcg64_seed (Lcg64 3 5 0) 7) 1 = 83.
Proof. rewrite C87_lcg64 by (split; [discriminate | reflexivity]). reflexivity. Qed.
Example C87_minstd_example : draw minstd_next (minstd_seed 2147483647) 0 = 16807.
Proof. rewrite C87_minstd by discriminate. reflexivity. Qed.
Example C87_scrambled_example : scrambled 17 31 8 1 (1 + 2 ^ 31 + 2 ^ 23).
Proof. exact (scrambled_intro 17 31 8 1 ltac:(discriminate) ltac:(discriminate) ltac:(discriminate) ltac:(split; [discriminate | reflexivity])). Qed.
Example C87_mrg_example : exists x, recurrence_from 2147483647 [2; 3] [10; 1] x /\
  draw (mrg_next mrg2_class) (mrg_seed mrg2_class (Mrg [2; 3] [0; 0]) 10) 0 = x 2%nat.
Proof.
  destruct (C87_mrg mrg2_class (Mrg [2; 3] [0; 0]) 10 ltac:(left; reflexivity)) as (x & Rx & Dx & _).
  - split; (split; [reflexivity|]); repeat constructor; cbn; lia.
  - split; [discriminate | reflexivity].
  - exists x. split; [exact Rx | apply (Dx 0%nat)].
Qed.
Example C88_lcg64_example : fst (lcg64_seed_gen (Lcg64 3 5 0) count_source 6) = Lcg64 3 5 (6 * 2 ^ 32 + 7).
Proof. rewrite C88_lcg64. reflexivity. Qed.
Example C88_dead_example : draw (yarn_next yarn3s_class) (mrg_seed_gen mrg3s_class (Mrg [1; 2; 3] [4; 5; 6]) [0; 2147462579; 0]) 3 = Some 0.
Proof.
  apply (C88_yarn_dead yarn3s_class); [right; right; left; reflexivity | | reflexivity|].
  - split; (split; [reflexivity|]); repeat constructor; cbn; lia.
  - constructor; [exists 0; reflexivity|]. constructor; [exists 1; reflexivity|]. constructor; [exists 0; reflexivity | constructor].
Qed.
Example C88_minstd_example : minstd_seed_gen 2 count_source 0 = Some (1, 2).
Proof.
  assert (V : forall i, value count_source 0 i = Z.of_nat i).
  { intros i. unfold value, draw. change (fst (g_next count_source ?t)) with t. unfold after. induction i; [reflexivity|].
    cbn [Nat.iter nat_rect]. change (snd (g_next count_source ?t)) with (t + 1). unfold Nat.iter in IHi. rewrite IHi. lia. }
  rewrite (proj1 (C88_minstd count_source 0 1 ltac:(intros; rewrite V; lia)
    ltac:(intros i Hi; rewrite V; replace i with 0%nat by lia; reflexivity) ltac:(rewrite V; discriminate))) by lia.
  reflexivity.
Qed.
Example C88_mrg_alive_example : forall n, exists i, (i < 2)%nat /\
  draw (mrg_next mrg2_class) (Mrg [1498809829; 1160990996] [0; 1]) (n + i) <> 0.
Proof.
  apply (C88_mrg_alive mrg2_class); [left; reflexivity | | discriminate | exists 1; split; [right; left; reflexivity | discriminate]].
  split; (split; [reflexivity|]); repeat constructor; cbn; lia.
Qed.
