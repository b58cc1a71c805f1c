(** Proofs about the lcg64 / lcg64_shift model. *)
From Coq Require Import ZArith Znumtheory List Bool Lia Arith Setoid Morphisms.
From Verif Require Import Base BaseFacts Cong Lcg64Model.
Open Scope Z_scope.

Notation M64 := (2 ^ 64).

(** ** Congruence modulo 2^64 *)

Local Notation "x == y" := (cong M64 x y) (at level 70).

Lemma wrap64_eqm x : wrap64 x == x.
Proof. apply cong_mod. Qed.

Lemma eqm_eq x y : word 64 x -> word 64 y -> x == y -> x = y.
Proof. apply cong_eq. Qed.

(** ** pow *)

Lemma land1_pos n : 0 <= n -> (Z.land n 1 >? 0) = Z.odd n.
Proof.
  intros Hn. change 1 with (Z.ones 1). rewrite Z.land_ones by lia.
  change (2 ^ 1) with 2. rewrite Zmod_odd. destruct (Z.odd n); reflexivity.
Qed.

Lemma pow_loop_eqm fuel : forall res x n,
  0 <= n < 2 ^ Z.of_nat fuel -> pow_loop fuel res x n == res * x ^ n.
Proof.
  induction fuel; intros res x n Hn.
  - replace n with 0 by (simpl in Hn; lia). simpl. rewrite Z.mul_1_r. reflexivity.
  - cbn [pow_loop]. destruct (Z.gtb_spec n 0) as [H|H].
    + rewrite land1_pos by lia.
      rewrite Nat2Z.inj_succ, Z.pow_succ_r in Hn by lia.
      rewrite Z.shiftr_div_pow2 by lia. change (2 ^ 1) with 2.
      assert (Hd := Z.div_mod n 2 ltac:(lia)). rewrite Zmod_odd in Hd.
      rewrite IHfuel by (destruct (Z.odd n); lia).
      assert (Hq : 0 <= n / 2) by (apply Z.div_pos; lia).
      assert (E : (wrap64 (x * x)) ^ (n / 2) == x ^ (2 * (n / 2))).
      { rewrite wrap64_eqm.
        rewrite Z.pow_mul_r by lia. rewrite Z.pow_2_r. reflexivity. }
      rewrite E. destruct (Z.odd n).
      * rewrite wrap64_eqm. rewrite Hd at 2. rewrite Z.pow_add_r by lia.
        rewrite Z.pow_1_r.
        replace (res * x * x ^ (2 * (n / 2))) with (res * (x ^ (2 * (n / 2)) * x)) by ring.
        reflexivity.
      * rewrite Hd at 2. rewrite Z.add_0_r. reflexivity.
    + replace n with 0 by lia. simpl. rewrite Z.mul_1_r. reflexivity.
Qed.

Lemma pow_loop_range fuel : forall res x n, word 64 res -> word 64 (pow_loop fuel res x n).
Proof.
  induction fuel; intros; cbn [pow_loop]; [assumption|].
  destruct (n >? 0); [|assumption]. apply IHfuel.
  destruct (Z.land n 1 >? 0); [apply wrap64_range | assumption].
Qed.

Lemma lcg64_pow_eqm x n : word 64 n -> lcg64_pow x n == x ^ n.
Proof.
  intros Hn. unfold lcg64_pow. rewrite pow_loop_eqm; [|exact Hn].
  rewrite Z.mul_1_l. reflexivity.
Qed.
Lemma lcg64_pow_range x n : word 64 (lcg64_pow x n).
Proof. apply pow_loop_range. split; [lia | reflexivity]. Qed.

(** ** log2_floor *)

Lemma log2_floor_loop_spec fuel : forall x y,
  0 < x < 2 ^ Z.of_nat fuel -> 0 <= y -> y + Z.of_nat fuel < 2 ^ 32 ->
  log2_floor_loop fuel x y = y + Z.log2 x + 1.
Proof.
  induction fuel; intros x y Hx Hy Hb.
  - simpl in Hx. lia.
  - cbn [log2_floor_loop]. replace (x >? 0) with true by (symmetry; apply Z.gtb_lt; lia).
    rewrite Nat2Z.inj_succ, Z.pow_succ_r in Hx by lia.
    unfold wrap32. rewrite Z.mod_small by lia.
    destruct (Z.eq_dec x 1) as [->|N1].
    + destruct fuel; simpl; lia.
    + rewrite Z.shiftr_div_pow2 by lia. change (2 ^ 1) with 2.
      rewrite IHfuel; try lia.
      * assert (E : Z.log2 x = Z.log2 (x / 2) + 1); [|lia].
        rewrite <- Z.div2_div. rewrite Z.div2_spec. rewrite Z.log2_shiftr by lia.
        assert (1 <= Z.log2 x) by (apply Z.log2_le_pow2; lia). lia.
      * split; [|apply Z.div_lt_upper_bound; lia].
        apply Z.div_str_pos. lia.
Qed.

Lemma lcg64_log2_floor_spec x : 0 < x < M64 -> lcg64_log2_floor x = Z.log2 x.
Proof.
  intros H. unfold lcg64_log2_floor. rewrite log2_floor_loop_spec; try (simpl; lia).
  unfold wrap32. replace (0 + Z.log2 x + 1 - 1) with (Z.log2 x) by lia.
  apply Z.mod_small. split; [apply Z.log2_nonneg|].
  assert (Z.log2 x < 64) by (apply Z.log2_lt_pow2; lia).
  lia.
Qed.

(** ** g and f *)

Lemma geo_2pow_S a l :
  geo a (2 ^ S l) = geo a (2 ^ l) * (1 + a ^ 2 ^ Z.of_nat l).
Proof.
  rewrite Nat.pow_succ_r', geo_mul. cbn [geo].
  replace (Z.of_nat (2 ^ l)) with (2 ^ Z.of_nat l) by (rewrite Nat2Z.inj_pow; reflexivity). ring.
Qed.

Lemma g_loop_eqm l : forall i p res a,
  p == a ^ 2 ^ Z.of_nat i -> res == geo a (2 ^ i) ->
  g_loop l p res == geo a (2 ^ (i + l)).
Proof.
  induction l; intros i p res a Hp Hres; cbn [g_loop].
  - rewrite Nat.add_0_r. exact Hres.
  - replace (i + S l)%nat with (S i + l)%nat by lia. apply IHl.
    + rewrite wrap64_eqm, Hp. rewrite <- Z.pow_add_r by (apply Z.pow_nonneg; lia).
      rewrite Nat2Z.inj_succ, Z.pow_succ_r by lia.
      replace (2 ^ Z.of_nat i + 2 ^ Z.of_nat i) with (2 * 2 ^ Z.of_nat i) by lia. reflexivity.
    + rewrite !wrap64_eqm, geo_2pow_S, Hres, Hp. reflexivity.
Qed.

Lemma lcg64_g_eqm l a : 0 <= l -> lcg64_g l a == geo a (2 ^ Z.to_nat l).
Proof.
  intros Hl. unfold lcg64_g. rewrite (g_loop_eqm _ 0 a 1 a).
  - reflexivity.
  - change (a ^ 2 ^ Z.of_nat 0) with (a ^ 1). rewrite Z.pow_1_r. reflexivity.
  - change (geo a (2 ^ 0)) with (1 + a * 0). rewrite Z.mul_0_r. reflexivity.
Qed.

Lemma bit_test l s : 0 <= l -> 0 <= s -> (Z.land (Z.shiftl 1 l) s >? 0) = Z.testbit s l.
Proof.
  intros Hl Hs. rewrite Z.shiftl_1_l.
  destruct (Z.testbit s l) eqn:E.
  - apply Z.gtb_lt.
    assert (Z.land (2 ^ l) s <> 0).
    { intro H. assert (T : Z.testbit (Z.land (2 ^ l) s) l = false) by (rewrite H; apply Z.testbit_0_l).
      rewrite Z.land_spec, E, Z.pow2_bits_true in T by lia. discriminate. }
    assert (0 <= Z.land (2 ^ l) s) by (apply Z.land_nonneg; left; apply Z.pow_nonneg; lia). lia.
  - replace (Z.land (2 ^ l) s) with 0; [reflexivity|].
    symmetry. apply Z.bits_inj'. intros i Hi. rewrite Z.land_spec, Z.testbit_0_l.
    destruct (Z.eq_dec i l) as [->|N]; [rewrite E; apply andb_false_r|].
    rewrite Z.pow2_bits_false by lia. reflexivity.
Qed.

Lemma mod_pow2_S s l : 0 <= l -> 0 <= s ->
  s mod 2 ^ (l + 1) = (if Z.testbit s l then 2 ^ l else 0) + s mod 2 ^ l.
Proof.
  intros Hl Hs.
  rewrite Z.pow_add_r, Z.pow_1_r by lia.
  rewrite Z.rem_mul_r by (try (apply Z.pow_nonzero; lia); lia).
  assert (E : (s / 2 ^ l) mod 2 = if Z.testbit s l then 1 else 0).
  { rewrite Zmod_odd, <- Z.bit0_odd. rewrite <- Z.shiftr_div_pow2 by lia.
    rewrite Z.shiftr_spec by lia. simpl. reflexivity. }
  rewrite E. destruct (Z.testbit s l); ring.
Qed.

Lemma f_loop_eqm cnt : forall l s a y p,
  0 <= l -> 0 <= s ->
  y == geo a (Z.to_nat (s mod 2 ^ l)) ->
  p == a ^ 2 ^ l ->
  f_loop cnt l s a y p == geo a (Z.to_nat (s mod 2 ^ (l + Z.of_nat cnt))).
Proof.
  induction cnt; intros l s a y p Hl Hs Hy Hp.
  - simpl. rewrite Z.add_0_r. exact Hy.
  - cbn [f_loop]. replace (l + Z.of_nat (S cnt)) with (l + 1 + Z.of_nat cnt) by lia.
    apply IHcnt; try lia.
    + rewrite bit_test by lia. rewrite mod_pow2_S by lia.
      assert (Hm : 0 <= s mod 2 ^ l < 2 ^ l) by (apply Z.mod_pos_bound; apply Z.pow_pos_nonneg; lia).
      destruct (Z.testbit s l).
      * rewrite Z2Nat.inj_add by lia. rewrite geo_add.
        rewrite !wrap64_eqm, lcg64_g_eqm, Hy, Hp by lia.
        rewrite Z2Nat.id by lia.
        replace (2 ^ Z.to_nat l)%nat with (Z.to_nat (2 ^ l)).
        -- reflexivity.
        -- rewrite Z2Nat.inj_pow by lia. reflexivity.
      * rewrite Z.add_0_l. exact Hy.
    + rewrite wrap64_eqm, Hp, <- Z.pow_add_r by (apply Z.pow_nonneg; lia).
      rewrite (Z.pow_add_r 2 l 1) by lia.
      replace (2 ^ l + 2 ^ l) with (2 ^ l * 2 ^ 1) by lia. reflexivity.
Qed.

Lemma lcg64_f_eqm s a : word 64 s -> lcg64_f s a == geo a (Z.to_nat s).
Proof.
  unfold word. intros Hs. unfold lcg64_f. destruct (Z.eqb_spec s 0) as [->|N]; [reflexivity|].
  rewrite lcg64_log2_floor_spec by lia.
  rewrite f_loop_eqm; try lia.
  - rewrite Z2Nat.id by (assert (H := Z.log2_nonneg s); lia).
    rewrite Z.mod_small; [reflexivity|]. split; [lia|].
    rewrite Z.add_0_l, Z.add_1_r. apply Z.log2_spec. lia.
  - simpl. rewrite Z.mod_1_r. reflexivity.
  - change (a ^ 2 ^ 0) with (a ^ 1). rewrite Z.pow_1_r. reflexivity.
Qed.

Lemma f_loop_range cnt : forall l s a y p, word 64 y -> word 64 (f_loop cnt l s a y p).
Proof.
  induction cnt; intros; cbn [f_loop]; [assumption|]. apply IHcnt.
  destruct (_ >? 0); [apply wrap64_range | assumption].
Qed.

(** ** step *)

Definition lcg_aff (a b r : Z) : Z := wrap64 (wrap64 (a * r) + b).

Lemma lcg_aff_eqm a b r : lcg_aff a b r == aff a b r.
Proof. unfold lcg_aff, aff. rewrite !wrap64_eqm. reflexivity. Qed.

Lemma lcg_aff_iter a b n r : Nat.iter n (lcg_aff a b) r == a ^ Z.of_nat n * r + geo a n * b.
Proof.
  rewrite <- aff_iter. induction n; cbn [Nat.iter nat_rect]; [reflexivity|].
  unfold Nat.iter in IHn. rewrite lcg_aff_eqm. unfold aff at 1 3. rewrite IHn. reflexivity.
Qed.

Lemma lcg_aff_iter_range a b n r : word 64 r -> word 64 (Nat.iter n (lcg_aff a b) r).
Proof. intros H. apply iter_inv; [|exact H]. intros. apply wrap64_range. Qed.

Lemma step_set n : forall R, Nat.iter n lcg64_step R
  = set_r R (Nat.iter n (lcg_aff (lcg_a R) (lcg_b R)) (lcg_r R)).
Proof.
  induction n; intros [a b r]; [reflexivity|].
  cbn [Nat.iter nat_rect]. unfold Nat.iter in IHn. rewrite IHn. reflexivity.
Qed.

(** The unique characterisation of "n steps": same parameters, congruent state, in range. *)
Lemma steps_char R n r : word 64 (lcg_r R) -> word 64 r ->
  r == lcg_a R ^ Z.of_nat n * lcg_r R + geo (lcg_a R) n * lcg_b R ->
  set_r R r = Nat.iter n lcg64_step R.
Proof.
  intros Hr Hr' E. rewrite step_set. f_equal. apply eqm_eq; [exact Hr' | |].
  - apply lcg_aff_iter_range. exact Hr.
  - rewrite lcg_aff_iter. exact E.
Qed.

(** ** jump2 *)

Lemma lcg64_jump2_r_steps R s : word 64 (lcg_r R) -> 0 <= s < 64 ->
  lcg64_jump2_r R s = Nat.iter (Z.to_nat (2 ^ s)) lcg64_step R.
Proof.
  intros Hr Hs. unfold lcg64_jump2_r. apply steps_char; [exact Hr | apply wrap64_range |].
  assert (H2 : 0 < 2 ^ s < M64).
  { split; [apply Z.pow_pos_nonneg; lia|]. apply Z.pow_lt_mono_r; lia. }
  rewrite !wrap64_eqm, Z.shiftl_1_l, lcg64_f_eqm, lcg64_pow_eqm by (unfold word; lia).
  rewrite Z2Nat.id by lia.
  rewrite (Z.mul_comm (lcg_r R)). reflexivity.
Qed.

Lemma step_r_range R : word 64 (lcg_r (lcg64_step R)).
Proof. apply wrap64_range. Qed.

Lemma iter_r_range n R : word 64 (lcg_r R) -> word 64 (lcg_r (Nat.iter n lcg64_step R)).
Proof. intros H. apply (iter_inv (fun R => word 64 (lcg_r R))); [|exact H]. intros; apply step_r_range. Qed.

Theorem lcg64_jump2_steps R s : word 64 (lcg_r R) -> 0 <= s < 64 ->
  lcg64_jump2 R s = Some (Nat.iter (Z.to_nat (2 ^ s)) lcg64_step R).
Proof.
  intros Hr Hs. unfold lcg64_jump2. destruct (Z.ltb_spec s 64); [|lia].
  rewrite lcg64_jump2_r_steps by assumption. reflexivity.
Qed.

(** ** jump *)

Lemma jump_loop_steps fuel : forall i s R,
  word 64 (lcg_r R) -> 0 <= i -> 0 <= s < 2 ^ Z.of_nat fuel -> i + Z.of_nat fuel <= 64 ->
  jump_loop fuel i s R = Some (Nat.iter (Z.to_nat (s * 2 ^ i)) lcg64_step R).
Proof.
  induction fuel; intros i s R Hr Hi Hs Hf.
  - replace s with 0 by (simpl in Hs; lia). reflexivity.
  - cbn [jump_loop]. destruct (Z.gtb_spec s 0) as [P|P].
    + rewrite Nat2Z.inj_succ, Z.pow_succ_r in Hs by lia.
      rewrite Z.shiftr_div_pow2 by lia. change (2 ^ 1) with 2.
      assert (Hd := Z.div_mod s 2 ltac:(lia)).
      assert (Hm := Z.mod_pos_bound s 2 ltac:(lia)).
      assert (Hq : 0 <= s / 2) by (apply Z.div_pos; lia).
      assert (H2 : 0 < 2 ^ i) by (apply Z.pow_pos_nonneg; lia).
      destruct (Z.eqb_spec (s mod 2) 1) as [E|E].
      * rewrite lcg64_jump2_steps by (try assumption; lia).
        rewrite IHfuel; try lia; [|apply iter_r_range; assumption].
        rewrite <- iter_add. f_equal. f_equal.
        rewrite Z.pow_add_r, Z.pow_1_r by lia.
        rewrite <- Z2Nat.inj_add by (try apply Z.mul_nonneg_nonneg; lia).
        f_equal. rewrite Hd at 2. rewrite E. ring.
      * rewrite IHfuel; try lia; [|assumption].
        f_equal. f_equal. f_equal. rewrite Z.pow_add_r, Z.pow_1_r by lia.
        rewrite Hd at 2. replace (s mod 2) with 0 by lia. ring.
    + replace s with 0 by lia. reflexivity.
Qed.

Theorem lcg64_jump_steps R s : word 64 (lcg_r R) -> word 64 s ->
  lcg64_jump R s = Some (Nat.iter (Z.to_nat s) lcg64_step R).
Proof.
  unfold word. intros Hr Hs. unfold lcg64_jump. destruct (s <? 16); [reflexivity|].
  rewrite jump_loop_steps; try assumption; try (simpl; lia).
  rewrite Z.mul_1_r. reflexivity.
Qed.

(** ** backward *)

Lemma geo_2pow_div a l : Z.odd a = true -> (2 ^ Z.of_nat l | geo a (2 ^ l)).
Proof.
  intros Ho. induction l.
  - exists (geo a 1). rewrite Z.mul_1_r. reflexivity.
  - rewrite geo_2pow_S, Nat2Z.inj_succ, Z.pow_succ_r by lia.
    assert (E : (2 | 1 + a ^ 2 ^ Z.of_nat l)).
    { apply Z.mod_divide; [lia|]. rewrite Zmod_odd.
      rewrite Z.odd_add, Z.odd_pow by (apply Z.pow_pos_nonneg; lia). rewrite Ho. reflexivity. }
    destruct IHl as [x Hx], E as [y Hy]. exists (x * y). rewrite Hx, Hy. ring.
Qed.

Lemma full_cycle a b r : Z.odd a = true -> word 64 r ->
  Nat.iter (Z.to_nat M64) (lcg_aff a b) r = r.
Proof.
  intros Ho Hr.
  assert (D : (M64 | geo a (Z.to_nat M64))).
  { replace (Z.to_nat M64) with (2 ^ 64)%nat; [apply (geo_2pow_div a 64 Ho)|].
    symmetry. apply (Z2Nat.inj_pow 2 64); lia. }
  generalize dependent (Z.to_nat M64). intros N D.
  assert (G : geo a N == 0) by (apply cong_0; exact D).
  assert (P : a ^ Z.of_nat N == 1).
  { assert (E := geo_pow a N).
    replace (a ^ Z.of_nat N) with ((a - 1) * geo a N + 1) by lia.
    rewrite G. rewrite Z.mul_0_r. reflexivity. }
  apply eqm_eq; [apply lcg_aff_iter_range; exact Hr | exact Hr |].
  rewrite lcg_aff_iter, G, P. rewrite Z.mul_1_l, Z.mul_0_l, Z.add_0_r. reflexivity.
Qed.

Lemma lcg64_backward_steps R : word 64 (lcg_r R) ->
  lcg64_backward R = Nat.iter (Z.to_nat (M64 - 1)) lcg64_step R.
Proof.
  intros Hr. unfold lcg64_backward.
  assert (H : forall n, (n <= 64)%nat ->
    fold_left (fun R i => lcg64_jump2_r R (Z.of_nat i)) (seq 0 n) R
    = Nat.iter (Z.to_nat (2 ^ Z.of_nat n - 1)) lcg64_step R).
  { induction n; intros Hn; [reflexivity|].
    rewrite seq_S, fold_left_app, IHn by lia. cbn [fold_left].
    rewrite Nat.add_0_l, lcg64_jump2_r_steps by (try (apply iter_r_range; assumption); lia).
    rewrite <- iter_add. f_equal.
    assert (0 < 2 ^ Z.of_nat n) by (apply Z.pow_pos_nonneg; lia).
    rewrite Nat2Z.inj_succ, Z.pow_succ_r by lia. lia. }
  apply (H 64%nat). lia.
Qed.

Lemma lcg64_backward_step R : Z.odd (lcg_a R) = true -> word 64 (lcg_r R) ->
  lcg64_step (lcg64_backward R) = R.
Proof.
  intros Ho Hr. rewrite lcg64_backward_steps by exact Hr.
  change (lcg64_step (Nat.iter (Z.to_nat (M64 - 1)) lcg64_step R))
    with (Nat.iter (S (Z.to_nat (M64 - 1))) lcg64_step R).
  replace (S (Z.to_nat (M64 - 1))) with (Z.to_nat M64) by lia.
  rewrite step_set, full_cycle by assumption. destruct R; reflexivity.
Qed.

(** ** split *)

Lemma steps_of_split R s : word 64 (lcg_r R) -> word 64 s ->
  forall k, lcg_r (Nat.iter k lcg64_step
      (Lcg64 (lcg64_pow (lcg_a R) s) (wrap64 (lcg_b R * lcg64_f s (lcg_a R))) (lcg_r R)))
    = lcg_r (Nat.iter (k * Z.to_nat s) lcg64_step R).
Proof.
  intros Hr Hs k. rewrite !step_set. destruct R as [a b r]. cbn [lcg_a lcg_b lcg_r set_r] in *.
  apply eqm_eq; try (apply lcg_aff_iter_range; assumption).
  rewrite !lcg_aff_iter. unfold word in Hs.
  rewrite wrap64_eqm, lcg64_f_eqm by assumption.
  rewrite (geo_cong _ _ (a ^ s)), (lcg64_pow_eqm a s); try (apply lcg64_pow_eqm); try assumption.
  rewrite geo_mul, Z2Nat.id, Nat2Z.inj_mul, Z2Nat.id by lia.
  rewrite <- Z.pow_mul_r, (Z.mul_comm s) by lia.
  replace (geo (a ^ s) k * (b * geo a (Z.to_nat s))) with (geo a (Z.to_nat s) * geo (a ^ s) k * b) by ring.
  reflexivity.
Qed.

Lemma odd_eqm x y : x == y -> Z.odd x = Z.odd y.
Proof.
  intros [k E]. replace x with (y + k * M64) by lia.
  rewrite Z.odd_add, Z.odd_mul, andb_false_r, xorb_false_r. reflexivity.
Qed.

Lemma lcg64_pow_odd a s : Z.odd a = true -> word 64 s -> 0 < s -> Z.odd (lcg64_pow a s) = true.
Proof.
  intros Ho Hs Hp. rewrite (odd_eqm _ (a ^ s)) by (apply lcg64_pow_eqm; exact Hs).
  rewrite Z.odd_pow by lia. exact Ho.
Qed.

Theorem lcg64_split_stream R s n : lcg64_ok R -> Z.odd (lcg_a R) = true ->
  1 <= s < 2 ^ 32 -> 0 <= n < s ->
  exists R', lcg64_split R s n = Returns R' /\
    forall k, lcg_r (Nat.iter (S k) lcg64_step R')
            = lcg_r (Nat.iter (S (k * Z.to_nat s + Z.to_nat n)) lcg64_step R).
Proof.
  intros (Ha & Hb & Hr) Ho Hs Hn. unfold lcg64_split.
  destruct (Z.ltb_spec s 1); [lia|]. destruct (Z.geb_spec n s); [lia|]. cbn [orb].
  destruct (Z.gtb_spec s 1).
  - rewrite (wrap64_small (n + 1)) by lia.
    rewrite lcg64_jump_steps by (unfold word; try assumption; lia).
    set (R1 := Nat.iter (Z.to_nat (n + 1)) lcg64_step R).
    assert (Hr1 : word 64 (lcg_r R1)) by (apply iter_r_range; assumption).
    assert (Ea : lcg_a R1 = lcg_a R) by (unfold R1; rewrite step_set; reflexivity).
    eexists; split; [reflexivity|]. intros k.
    rewrite iter_S_r. rewrite lcg64_backward_step; cycle 1.
    + cbn [lcg_a]. rewrite Ea. apply lcg64_pow_odd; [assumption | unfold word; lia | lia].
    + exact Hr1.
    + rewrite steps_of_split by (unfold word; try assumption; lia).
      unfold R1. rewrite <- iter_add. f_equal. f_equal. lia.
  - exists R; split; [reflexivity|]. intros k. f_equal. f_equal.
    replace s with 1 by lia. lia.
Qed.

(** ** Full period *)

Lemma geo_odd a n : Z.odd a = true -> Nat.odd n = true -> Z.odd (geo a n) = true.
Proof.
  intros Ha. assert (H : Z.odd (geo a n) = Nat.odd n).
  { induction n; [reflexivity|]. cbn [geo]. rewrite Z.odd_add, Z.odd_mul, Ha, IHn.
    rewrite Nat.odd_succ, <- Nat.negb_odd. destruct (Nat.odd n); reflexivity. }
  congruence.
Qed.

(** For a = 1 mod 4, geo a (2^l) is 2^l times an odd number. *)
Lemma geo_2pow_exact a l : a mod 4 = 1 ->
  exists q, geo a (2 ^ l) = 2 ^ Z.of_nat l * q /\ Z.odd q = true.
Proof.
  intros Ha. induction l.
  - exists 1. split; [cbn [geo Nat.pow]; change (2 ^ Z.of_nat 0) with 1; ring | reflexivity].
  - destruct IHl as (q & E & Hq). rewrite geo_2pow_S, E.
    assert (P : (a ^ 2 ^ Z.of_nat l) mod 4 = 1).
    { assert (G : forall k, (a ^ Z.of_nat k) mod 4 = 1).
      { induction k; [reflexivity|]. rewrite Nat2Z.inj_succ, Z.pow_succ_r by lia.
        rewrite Z.mul_mod, IHk, Ha by lia. reflexivity. }
      specialize (G (2 ^ l)%nat). rewrite Nat2Z.inj_pow in G. exact G. }
    set (c := a ^ 2 ^ Z.of_nat l) in *.
    exists (q * (1 + 2 * (c / 4))). split.
    + rewrite Nat2Z.inj_succ, Z.pow_succ_r by lia.
      assert (D := Z.div_mod c 4 ltac:(lia)). rewrite P in D.
      replace (1 + c) with (2 * (1 + 2 * (c / 4))) by lia. ring.
    + rewrite Z.odd_mul, Hq, Z.odd_add, Z.odd_mul. reflexivity.
Qed.

Lemma nat_2adic n : (0 < n)%nat -> exists k m, (n = m * 2 ^ k)%nat /\ Nat.odd m = true.
Proof.
  induction n as [n IH] using (well_founded_induction lt_wf). intros Hn.
  destruct (Nat.odd n) eqn:O.
  - exists 0%nat, n. simpl. split; [lia | exact O].
  - assert (E : Nat.even n = true) by (rewrite <- Nat.negb_odd, O; reflexivity).
    apply Nat.even_spec in E. destruct E as (h & ->).
    destruct (IH h) as (k & m & -> & Hm); [lia | lia |].
    exists (S k), m. split; [simpl; lia | exact Hm].
Qed.

Lemma odd_div_pow2 l x y : Z.odd y = true -> (2 ^ Z.of_nat l | x * y) -> (2 ^ Z.of_nat l | x).
Proof.
  intros Hy H. rewrite Z.mul_comm in H. apply Z.gauss in H; [exact H|].
  apply Zgcd_1_rel_prime. apply rel_prime_sym.
  assert (R2 : rel_prime y 2).
  { apply rel_prime_sym. apply prime_rel_prime; [apply prime_2|].
    intros D. apply Z.mod_divide in D; [|lia]. rewrite Zmod_odd, Hy in D. discriminate. }
  clear H. induction l; [apply rel_prime_1 || (apply rel_prime_sym; apply rel_prime_1)|].
  rewrite Nat2Z.inj_succ, Z.pow_succ_r by lia. apply rel_prime_mult; assumption.
Qed.

Lemma geo_div_iff a n : a mod 4 = 1 -> (M64 | geo a n) -> (2 ^ 64 <= n)%nat \/ n = 0%nat.
Proof.
  intros Ha D. destruct (Nat.eq_dec n 0) as [|N0]; [right; assumption|left].
  destruct (nat_2adic n) as (k & m & -> & Hm); [lia|].
  rewrite geo_mul in D.
  assert (Oa : Z.odd a = true).
  { rewrite (Z.div_mod a 4), Ha, Z.odd_add, Z.odd_mul by lia. reflexivity. }
  apply (odd_div_pow2 64) in D.
  - destruct (geo_2pow_exact a k Ha) as (q & E & Hq). rewrite E in D.
    apply (odd_div_pow2 64) in D; [|exact Hq].
    destruct (Nat.le_gt_cases 64 k) as [L|G].
    + assert (2 ^ 64 <= 2 ^ k)%nat by (apply Nat.pow_le_mono_r; lia).
      assert (1 <= m)%nat by (destruct m; [discriminate | lia]).
      apply Nat.le_trans with (1 * 2 ^ k)%nat; [lia|]. apply Nat.mul_le_mono_r; assumption.
    + exfalso. apply Z.divide_pos_le in D; [|apply Z.pow_pos_nonneg; lia].
      assert (2 ^ Z.of_nat k < 2 ^ Z.of_nat 64) by (apply Z.pow_lt_mono_r; lia). lia.
  - apply geo_odd; [|exact Hm].
    destruct (Z.eq_dec (Z.of_nat (2 ^ k)) 0) as [E0|N1].
    + exfalso. assert (2 ^ k <> 0)%nat by (apply Nat.pow_nonzero; lia). lia.
    + rewrite Z.odd_pow by lia. exact Oa.
Qed.

Lemma lcg_no_short_cycle a b r n : a mod 4 = 1 -> Z.odd b = true -> word 64 r ->
  (0 < n < Z.to_nat M64)%nat -> Nat.iter n (lcg_aff a b) r <> r.
Proof.
  intros Ha Hb Hr Hn E.
  assert (C : geo a n * ((a - 1) * r + b) == 0).
  { replace (geo a n * ((a - 1) * r + b)) with (((a - 1) * geo a n) * r + geo a n * b) by ring.
    rewrite geo_pow.
    replace ((a ^ Z.of_nat n - 1) * r + geo a n * b)
      with (a ^ Z.of_nat n * r + geo a n * b - r) by ring.
    rewrite <- lcg_aff_iter, E. rewrite Z.sub_diag. reflexivity. }
  apply (proj1 (cong_0 _ _)) in C. apply (odd_div_pow2 64) in C.
  - apply geo_div_iff in C; [|exact Ha].
    replace (Z.to_nat M64) with (2 ^ 64)%nat in Hn by (symmetry; apply (Z2Nat.inj_pow 2 64); lia).
    lia.
  - assert (D := Z.div_mod a 4 ltac:(lia)). rewrite Ha in D.
    replace (a - 1) with (4 * (a / 4)) by lia.
    rewrite Z.odd_add, !Z.odd_mul, Hb. reflexivity.
Qed.

Lemma lcg_aff_inj a b x y : Z.odd a = true -> word 64 x -> word 64 y ->
  lcg_aff a b x = lcg_aff a b y -> x = y.
Proof.
  intros Ho Hx Hy E.
  rewrite <- (full_cycle a b x Ho Hx), <- (full_cycle a b y Ho Hy).
  replace (Z.to_nat M64) with (S (Z.to_nat (M64 - 1))) by lia.
  rewrite !iter_S_r, E. reflexivity.
Qed.

Lemma lcg_iter_inj a b n x y : Z.odd a = true -> word 64 x -> word 64 y ->
  Nat.iter n (lcg_aff a b) x = Nat.iter n (lcg_aff a b) y -> x = y.
Proof.
  intros Ho. revert x y. induction n; intros x y Hx Hy E; [exact E|].
  rewrite !iter_S_r in E. apply IHn in E; try apply wrap64_range.
  apply lcg_aff_inj in E; assumption.
Qed.

Lemma lcg_states_distinct a b r i j : a mod 4 = 1 -> Z.odd b = true -> word 64 r ->
  (i < j)%nat -> (j - i < Z.to_nat M64)%nat ->
  Nat.iter i (lcg_aff a b) r <> Nat.iter j (lcg_aff a b) r.
Proof.
  intros Ha Hb Hr Hij Hd E.
  assert (Oa : Z.odd a = true).
  { rewrite (Z.div_mod a 4), Ha, Z.odd_add, Z.odd_mul by lia. reflexivity. }
  replace j with (i + (j - i))%nat in E by lia. rewrite iter_add in E.
  apply lcg_iter_inj in E; try assumption; [|apply lcg_aff_iter_range; assumption].
  symmetry in E. apply lcg_no_short_cycle in E; try assumption. lia.
Qed.

Theorem lcg64_full_period R : lcg64_ok R -> lcg_a R mod 4 = 1 -> Z.odd (lcg_b R) = true ->
  (forall v, word 64 v -> exists k, (k < Z.to_nat M64)%nat /\ draw lcg64_next R k = v) /\
  (forall j k, (j < k)%nat -> (k - j < Z.to_nat M64)%nat ->
     draw lcg64_next R j <> draw lcg64_next R k) /\
  (forall k, draw lcg64_next R (k + Z.to_nat M64) = draw lcg64_next R k).
Proof.
  intros (_ & _ & Hr) Ha Hb.
  assert (D : forall k, draw lcg64_next R k = Nat.iter (S k) (lcg_aff (lcg_a R) (lcg_b R)) (lcg_r R)).
  { intros k. unfold draw, after.
    rewrite (iter_ext _ lcg64_step) by (intros; reflexivity). rewrite step_set. reflexivity. }
  assert (Oa : Z.odd (lcg_a R) = true).
  { rewrite (Z.div_mod (lcg_a R) 4), Ha, Z.odd_add, Z.odd_mul by lia. reflexivity. }
  assert (DD : forall j k, (j < k)%nat -> (k - j < Z.to_nat M64)%nat ->
     draw lcg64_next R j <> draw lcg64_next R k).
  { intros j k Hjk Hd. rewrite !D. apply lcg_states_distinct; try assumption; lia. }
  split; [|split].
  - intros v Hv. apply inj_surj.
    + intros i Hi. rewrite D, Z2Nat.id by lia. apply lcg_aff_iter_range. exact Hr.
    + intros i j Hij. apply DD; lia.
    + unfold word in Hv. rewrite Z2Nat.id; lia.
  - exact DD.
  - intros k. rewrite !D. replace (S (k + Z.to_nat M64)) with (S k + Z.to_nat M64)%nat by lia.
    rewrite iter_add, full_cycle by assumption. reflexivity.
Qed.

(** ** Output permutation *)

Lemma lcg64_shift_out_range t : word 64 t -> word 64 (lcg64_shift_out t).
Proof.
  intros H. unfold lcg64_shift_out, xorshr, xorshl64.
  repeat (apply lxor_range; [lia | | ]); repeat (apply shiftr_range; [lia|lia|]); try apply wrap64_range;
  repeat (apply lxor_range; [lia | | ]); repeat (apply shiftr_range; [lia|lia|]); try apply wrap64_range;
  repeat (apply lxor_range; [lia | | ]); repeat (apply shiftr_range; [lia|lia|]); try apply wrap64_range;
  assumption.
Qed.

Lemma xorshr_range k t : 0 <= k -> word 64 t -> word 64 (xorshr k t).
Proof. intros Hk H. apply lxor_range; [lia | assumption |]. apply shiftr_range; [lia | lia | assumption]. Qed.
Lemma xorshl64_range k t : word 64 t -> word 64 (xorshl64 k t).
Proof. intros H. apply lxor_range; [lia | assumption |]. apply wrap64_range. Qed.

Lemma lcg64_shift_out_inj x y : word 64 x -> word 64 y ->
  lcg64_shift_out x = lcg64_shift_out y -> x = y.
Proof.
  intros Hx Hy E. unfold lcg64_shift_out in E.
  apply (xorshr_inj 64 8) in E; try lia; try (apply xorshl64_range, xorshr_range; [lia|assumption]).
  apply (xorshl_inj 64 31) in E; try lia; try (apply xorshr_range; [lia|assumption]).
  apply (xorshr_inj 64 17) in E; try lia; assumption.
Qed.
