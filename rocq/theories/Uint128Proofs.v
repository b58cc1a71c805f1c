(** Lemmas about the portable 128-bit integer. *)
From Coq Require Import ZArith List Bool Lia.
From Verif Require Import Base BaseFacts Cong IntMathModel Uint128Model.
Open Scope Z_scope.

(** The number an object stands for. *)
Definition uval (a : u128) : Z := u_hi a * 2 ^ 64 + u_lo a.
Definition uok (a : u128) : Prop := word 64 (u_hi a) /\ word 64 (u_lo a).

Lemma w64 x : word 64 (wrap64 x). Proof. apply Z.mod_pos_bound. reflexivity. Qed.
Lemma uval_range a : uok a -> 0 <= uval a < 2 ^ 128.
Proof. intros [(A & B) (C & D)]. unfold uval. change (2 ^ 128) with (2 ^ 64 * 2 ^ 64). change (2 ^ 64) with 18446744073709551616 in *. lia. Qed.
(** A congruence modulo 2^128 determines the value. *)
Lemma uval_eq a x : uok a -> cong (2 ^ 128) (uval a) x -> uval a = x mod 2 ^ 128.
Proof.
  intros H C. rewrite <- (Z.mod_small (uval a) (2 ^ 128)) by (apply uval_range, H).
  apply mod_cong; [discriminate | exact C].
Qed.
Lemma wrap_witness x : exists q, wrap64 x = x - q * 2 ^ 64.
Proof. exists (x / 2 ^ 64). unfold wrap64. rewrite Z.mod_eq by discriminate. lia. Qed.

Lemma u_add_ok a b : uok a -> uok b -> uok (u_add a b). Proof. split; apply w64. Qed.
Lemma u_sub_ok a b : uok a -> uok b -> uok (u_sub a b). Proof. split; apply w64. Qed.

Lemma u_add_val a b : uok a -> uok b -> uval (u_add a b) = (uval a + uval b) mod 2 ^ 128.
Proof.
  intros Ha Hb. apply uval_eq; [apply u_add_ok; assumption|].
  destruct Ha as [_ Ha], Hb as [_ Hb]. unfold uval, u_add. cbv zeta. cbn [u_hi u_lo].
  destruct (wrap_witness (u_hi a + b2z (wrap64 (u_lo a + u_lo b) <? u_lo b))) as (q1 & E1).
  destruct (wrap_witness (wrap64 (u_hi a + b2z (wrap64 (u_lo a + u_lo b) <? u_lo b)) + u_hi b)) as (q2 & E2).
  rewrite E2, E1. unfold wrap64. destruct Ha as [A1 A2], Hb as [B1 B2].
  destruct (Z_lt_le_dec (u_lo a + u_lo b) (2 ^ 64)).
  - rewrite Z.mod_small by lia. replace (u_lo a + u_lo b <? u_lo b) with false by lia. cbn [b2z].
    exists (- (q1 + q2)). change (2 ^ 128) with (2 ^ 64 * 2 ^ 64). ring.
  - replace ((u_lo a + u_lo b) mod 2 ^ 64) with (u_lo a + u_lo b - 2 ^ 64)
      by (symmetry; rewrite <- (Z.mod_add _ (-1)) by discriminate; apply Z.mod_small; lia).
    replace (u_lo a + u_lo b - 2 ^ 64 <? u_lo b) with true by lia. cbn [b2z].
    exists (- (q1 + q2)). change (2 ^ 128) with (2 ^ 64 * 2 ^ 64). ring.
Qed.
Lemma u_sub_val a b : uok a -> uok b -> uval (u_sub a b) = (uval a - uval b) mod 2 ^ 128.
Proof.
  intros Ha Hb. apply uval_eq; [apply u_sub_ok; assumption|].
  destruct Ha as [_ Ha], Hb as [_ Hb]. unfold uval, u_sub. cbv zeta. cbn [u_hi u_lo].
  destruct (wrap_witness (u_hi a - b2z (wrap64 (u_lo a - u_lo b) >? u_lo a))) as (q1 & E1).
  destruct (wrap_witness (wrap64 (u_hi a - b2z (wrap64 (u_lo a - u_lo b) >? u_lo a)) - u_hi b)) as (q2 & E2).
  rewrite E2, E1. unfold wrap64. destruct Ha as [A1 A2], Hb as [B1 B2].
  destruct (Z_le_gt_dec (u_lo b) (u_lo a)).
  - rewrite Z.mod_small by lia. replace (u_lo a - u_lo b >? u_lo a) with false by lia. cbn [b2z].
    exists (- (q1 + q2)). change (2 ^ 128) with (2 ^ 64 * 2 ^ 64). ring.
  - replace ((u_lo a - u_lo b) mod 2 ^ 64) with (u_lo a - u_lo b + 2 ^ 64)
      by (symmetry; rewrite <- (Z.mod_add _ 1) by discriminate; apply Z.mod_small; lia).
    replace (u_lo a - u_lo b + 2 ^ 64 >? u_lo a) with true by lia. cbn [b2z].
    exists (- (q1 + q2)). change (2 ^ 128) with (2 ^ 64 * 2 ^ 64). ring.
Qed.

Lemma u_not_val a : uok a -> uok (u_not a) /\ uval (u_not a) = 2 ^ 128 - 1 - uval a.
Proof.
  intros [(A & B) (C & D)]. unfold u_not, uok, uval, word, not64. cbn [u_hi u_lo]. change (2 ^ 128) with (2 ^ 64 * 2 ^ 64).
  split; [lia|]. ring.
Qed.
Lemma u_inc_val a : uok a -> uok (u_inc a) /\ uval (u_inc a) = (uval a + 1) mod 2 ^ 128.
Proof.
  intros (H & L). assert (K : uok (u_inc a)).
  { split; unfold u_inc; cbv zeta; cbn [u_hi u_lo]; [destruct (_ =? 0); [apply w64 | exact H] | apply w64]. }
  split; [exact K|]. apply uval_eq; [exact K|]. unfold uval, u_inc. cbv zeta. cbn [u_hi u_lo].
  destruct (Z.eqb_spec (wrap64 (u_lo a + 1)) 0) as [E|E].
  - rewrite E. destruct (wrap_witness (u_hi a + 1)) as (q & ->).
    assert (u_lo a = 2 ^ 64 - 1).
    { unfold wrap64 in E. destruct L as [L1 L2]. destruct (Z.eq_dec (u_lo a) (2 ^ 64 - 1)); [assumption|].
      rewrite Z.mod_small in E by lia. lia. }
    rewrite H0. exists (- q). change (2 ^ 128) with (2 ^ 64 * 2 ^ 64). ring.
  - unfold wrap64 in *. destruct L as [L1 L2]. destruct (Z.eq_dec (u_lo a) (2 ^ 64 - 1)) as [D|D].
    + rewrite D in E. exfalso. apply E. reflexivity.
    + rewrite Z.mod_small by lia. exists 0. ring.
Qed.
Lemma u_dec_val a : uok a -> uok (u_dec a) /\ uval (u_dec a) = (uval a - 1) mod 2 ^ 128.
Proof.
  intros (H & L). assert (K : uok (u_dec a)).
  { split; unfold u_dec; cbv zeta; cbn [u_hi u_lo]; [destruct (_ =? 0); [apply w64 | exact H] | apply w64]. }
  split; [exact K|]. apply uval_eq; [exact K|]. unfold uval, u_dec. cbv zeta. cbn [u_hi u_lo].
  destruct (Z.eqb_spec (u_lo a) 0) as [E|E].
  - rewrite E. destruct (wrap_witness (u_hi a - 1)) as (q & ->). change (wrap64 (0 - 1)) with (2 ^ 64 - 1).
    exists (- q). change (2 ^ 128) with (2 ^ 64 * 2 ^ 64). ring.
  - unfold wrap64. destruct L as [L1 L2]. rewrite Z.mod_small by lia. exists 0. ring.
Qed.
Lemma u_neg_val a : uok a -> uok (u_neg a) /\ uval (u_neg a) = (- uval a) mod 2 ^ 128.
Proof.
  intros H. destruct (u_not_val a H) as (K & E). destruct (u_inc_val _ K) as (K' & E'). split; [exact K'|].
  unfold u_neg. rewrite E', E. rewrite <- (Z.mod_add (- uval a) 1) by discriminate. f_equal. lia.
Qed.

(** ** Multiplication *)
Lemma lo32_mod x : lo32 x = x mod 2 ^ 32. Proof. unfold lo32. change 0xffffffff with (Z.ones 32). apply Z.land_ones. lia. Qed.
Lemma hi32_div x : hi32 x = x / 2 ^ 32. Proof. apply Z.shiftr_div_pow2. lia. Qed.
Lemma split32 x : word 64 x -> x = hi32 x * 2 ^ 32 + lo32 x /\ word 32 (hi32 x) /\ word 32 (lo32 x).
Proof.
  intros (A & B). rewrite lo32_mod, hi32_div. split; [rewrite (Z.div_mod x (2 ^ 32)) at 1 by discriminate; ring|]. split.
  - split; [apply Z.div_pos; lia|]. apply Z.div_lt_upper_bound; [lia|]. exact B.
  - apply Z.mod_pos_bound. lia.
Qed.
Lemma mul32 x y : word 32 x -> word 32 y -> mul64 x y = x * y /\ word 64 (x * y).
Proof.
  intros (A & B) (C & D). assert (W : word 64 (x * y)) by (split; [|change (2 ^ 64) with (2 ^ 32 * 2 ^ 32)]; nia).
  split; [apply Z.mod_small, W | exact W].
Qed.
Lemma u_add_hi_val a m x : uok a -> cong (2 ^ 128) (uval a) x ->
  uok (u_add_hi a m) /\ cong (2 ^ 128) (uval (u_add_hi a m)) (x + m * 2 ^ 64).
Proof.
  intros (H & L) C. split; [split; [apply w64 | exact L]|]. rewrite <- C. unfold uval, u_add_hi. cbn [u_hi u_lo].
  destruct (wrap_witness (u_hi a + m)) as (q & ->). exists (- q). change (2 ^ 128) with (2 ^ 64 * 2 ^ 64). ring.
Qed.
Lemma shl32_cong x : exists q, shl32 x = x * 2 ^ 32 - q * 2 ^ 64.
Proof. unfold shl32. rewrite Z.shiftl_mul_pow2 by lia. apply wrap_witness. Qed.
Lemma u_pair_val p : word 64 p -> uok (U128 (Z.shiftr p 32) (shl32 p)) /\ uval (U128 (Z.shiftr p 32) (shl32 p)) = p * 2 ^ 32.
Proof.
  intros (A & B). rewrite Z.shiftr_div_pow2 by lia. unfold shl32. rewrite Z.shiftl_mul_pow2 by lia.
  split.
  - split; [|apply w64]. cbn [u_hi]. split; [apply Z.div_pos; lia|]. apply Z.div_lt_upper_bound; [lia|]. change (2 ^ 32 * 2 ^ 64) with (2 ^ 96). lia.
  - unfold uval, wrap64. cbn [u_hi u_lo]. change (2 ^ 64) with (2 ^ 32 * 2 ^ 32). rewrite Z.mul_mod_distr_r by discriminate.
    rewrite (Z.div_mod p (2 ^ 32)) at 3 by discriminate. ring.
Qed.
Lemma u_add_step t p x : uok t -> word 64 p -> cong (2 ^ 128) (uval t) x ->
  let t' := u_add t (U128 (Z.shiftr p 32) (shl32 p)) in uok t' /\ cong (2 ^ 128) (uval t') (x + p * 2 ^ 32).
Proof.
  intros K W C. cbv zeta. destruct (u_pair_val p W) as (K1 & E1). split; [apply u_add_ok; assumption|].
  rewrite u_add_val, E1 by assumption. rewrite cong_mod, C. reflexivity.
Qed.
Lemma u_mul_val a b : uok a -> uok b -> uok (u_mul a b) /\ uval (u_mul a b) = (uval a * uval b) mod 2 ^ 128.
Proof.
  intros (HA & LA) (HB & LB). unfold u_mul. cbv zeta.
  destruct (split32 _ HA) as (EHA & A3 & A2). destruct (split32 _ LA) as (ELA & A1 & A0).
  destruct (split32 _ HB) as (EHB & B3 & B2). destruct (split32 _ LB) as (ELB & B1 & B0).
  set (lo0 := lo32 (u_lo a)) in *. set (lo1 := hi32 (u_lo a)) in *. set (hi0 := lo32 (u_hi a)) in *. set (hi1 := hi32 (u_hi a)) in *.
  set (olo0 := lo32 (u_lo b)) in *. set (olo1 := hi32 (u_lo b)) in *. set (ohi0 := lo32 (u_hi b)) in *. set (ohi1 := hi32 (u_hi b)) in *.
  destruct (mul32 lo0 olo0 A0 B0) as (-> & W00). destruct (mul32 lo1 olo0 A1 B0) as (-> & W10). destruct (mul32 lo0 olo1 A0 B1) as (-> & W01).
  destruct (mul32 hi0 olo0 A2 B0) as (-> & W20). destruct (mul32 lo0 ohi0 A0 B2) as (-> & W02). destruct (mul32 lo1 olo1 A1 B1) as (-> & W11).
  destruct (mul32 hi1 olo0 A3 B0) as (-> & W30). destruct (mul32 lo0 ohi1 A0 B3) as (-> & W03).
  destruct (mul32 hi0 olo1 A2 B1) as (-> & W21). destruct (mul32 lo1 ohi0 A1 B2) as (-> & W12).
  set (t0 := U128 0 (lo0 * olo0)).
  assert (K0 : uok t0) by (split; [exact (w64 0) | exact W00]).
  assert (C0 : cong (2 ^ 128) (uval t0) (lo0 * olo0)) by (unfold uval, t0; cbn [u_hi u_lo]; exists 0; ring).
  destruct (u_add_step t0 (lo1 * olo0) _ K0 W10 C0) as (K1 & C1). set (t1 := u_add t0 _) in *. clearbody t1.
  destruct (u_add_step t1 (lo0 * olo1) _ K1 W01 C1) as (K2 & C2). set (t2 := u_add t1 _) in *. clearbody t2.
  destruct (u_add_hi_val t2 (hi0 * olo0) _ K2 C2) as (K3 & C3). set (t3 := u_add_hi t2 _) in *. clearbody t3.
  destruct (u_add_hi_val t3 (lo0 * ohi0) _ K3 C3) as (K4 & C4). set (t4 := u_add_hi t3 _) in *. clearbody t4.
  destruct (u_add_hi_val t4 (lo1 * olo1) _ K4 C4) as (K5 & C5). set (t5 := u_add_hi t4 _) in *. clearbody t5.
  destruct (u_add_hi_val t5 (shl32 (hi1 * olo0)) _ K5 C5) as (K6 & C6). set (t6 := u_add_hi t5 _) in *. clearbody t6.
  destruct (u_add_hi_val t6 (shl32 (lo0 * ohi1)) _ K6 C6) as (K7 & C7). set (t7 := u_add_hi t6 _) in *. clearbody t7.
  destruct (u_add_hi_val t7 (shl32 (hi0 * olo1)) _ K7 C7) as (K8 & C8). set (t8 := u_add_hi t7 _) in *. clearbody t8.
  destruct (u_add_hi_val t8 (shl32 (lo1 * ohi0)) _ K8 C8) as (K9 & C9). set (t9 := u_add_hi t8 _) in *. clearbody t9.
  split; [exact K9|]. apply uval_eq; [exact K9|]. rewrite C9. unfold uval.
  destruct (shl32_cong (hi1 * olo0)) as (q1 & ->). destruct (shl32_cong (lo0 * ohi1)) as (q2 & ->).
  destruct (shl32_cong (hi0 * olo1)) as (q3 & ->). destruct (shl32_cong (lo1 * ohi0)) as (q4 & ->).
  rewrite EHA, ELA, EHB, ELB.
  exists (- (q1 + q2 + q3 + q4) - (hi1 * olo1 + lo1 * ohi1 + hi0 * ohi0) - (hi1 * ohi0 + hi0 * ohi1) * 2 ^ 32 - hi1 * ohi1 * 2 ^ 64).
  change (2 ^ 128) with (2 ^ 32 * 2 ^ 32 * 2 ^ 32 * 2 ^ 32). change (2 ^ 64) with (2 ^ 32 * 2 ^ 32). ring.
Qed.

(** ** Comparisons *)
Lemma uval_inj a b : uok a -> uok b -> uval a = uval b -> a = b.
Proof.
  destruct a as [h l], b as [h' l']. intros (_ & A & B) (_ & C & D) E. unfold uval in E. cbn [u_hi u_lo] in *.
  assert (h = h') by (change (2 ^ 64) with 18446744073709551616 in *; lia). subst h'. f_equal. lia.
Qed.
Lemma u_cmp a b : uok a -> uok b ->
  u_eqb a b = (uval a =? uval b) /\ u_neb a b = negb (uval a =? uval b) /\ u_ltb a b = (uval a <? uval b) /\
  u_leb a b = (uval a <=? uval b) /\ u_gtb a b = (uval a >? uval b) /\ u_geb a b = (uval a >=? uval b).
Proof.
  intros ((A & B) & (C & D)) ((E & F) & (G & H)).
  unfold u_eqb, u_neb, u_ltb, u_leb, u_gtb, u_geb, uval. change (2 ^ 64) with 18446744073709551616 in *.
  repeat split; lia.
Qed.

(** ** Bits *)
Lemma uval_bit a t : uok a -> 0 <= t -> Z.testbit (uval a) t = if t <? 64 then Z.testbit (u_lo a) t else Z.testbit (u_hi a) (t - 64).
Proof.
  intros (_ & L) Ht. unfold uval. destruct (Z.ltb_spec t 64).
  - rewrite <- (Z.mod_pow2_bits_low _ 64 t) by lia. rewrite Z.add_comm, Z.mod_add by discriminate. apply Z.mod_pow2_bits_low. lia.
  - replace t with (t - 64 + 64) at 1 by lia. rewrite <- Z.div_pow2_bits by lia.
    rewrite Z.div_add_l, (Z.div_small (u_lo a)) by (try exact L; discriminate). f_equal. lia.
Qed.
Lemma word_bit w x t : 0 <= w -> word w x -> w <= t -> Z.testbit x t = false.
Proof. intros Hw H Ht. apply (proj1 (word_bits w x Hw)) in H. apply H, Ht. Qed.
Lemma word_of w x : 0 <= w -> 0 <= x -> (forall t, w <= t -> Z.testbit x t = false) -> word w x.
Proof. intros Hw Hx H. apply word_bits; [exact Hw|]. split; assumption. Qed.
Lemma lor_word w x y : 0 <= w -> word w x -> word w y -> word w (Z.lor x y).
Proof.
  intros Hw Hx Hy. apply word_of; [exact Hw | apply Z.lor_nonneg; split; [apply Hx | apply Hy]|].
  intros t Ht. rewrite Z.lor_spec, (word_bit w x), (word_bit w y) by assumption. reflexivity.
Qed.
Lemma land_word w x y : 0 <= w -> word w x -> word w y -> word w (Z.land x y).
Proof.
  intros Hw Hx Hy. apply word_of; [exact Hw | apply Z.land_nonneg; left; apply Hx|].
  intros t Ht. rewrite Z.land_spec, (word_bit w x) by assumption. reflexivity.
Qed.
Lemma u_bitwise a b : uok a -> uok b ->
  (uok (u_or a b) /\ uval (u_or a b) = Z.lor (uval a) (uval b)) /\
  (uok (u_and a b) /\ uval (u_and a b) = Z.land (uval a) (uval b)) /\
  (uok (u_xor a b) /\ uval (u_xor a b) = Z.lxor (uval a) (uval b)).
Proof.
  intros Ha Hb. assert (Ha' := Ha). assert (Hb' := Hb). destruct Ha' as (HA & LA), Hb' as (HB & LB).
  assert (O1 : uok (u_or a b)) by (split; apply lor_word; assumption || lia).
  assert (O2 : uok (u_and a b)) by (split; apply land_word; assumption || lia).
  assert (O3 : uok (u_xor a b)) by (split; apply lxor_range; assumption || lia).
  split; [|split]; (split; [assumption|]); apply Z.bits_inj'; intros t Ht;
    rewrite ?Z.lor_spec, ?Z.land_spec, ?Z.lxor_spec, !uval_bit by assumption; cbn [u_or u_and u_xor u_hi u_lo];
    destruct (t <? 64); rewrite ?Z.lor_spec, ?Z.land_spec, ?Z.lxor_spec; reflexivity.
Qed.

(** ** Shifts *)
Lemma shr_w x s : word 64 x -> 0 <= s -> word 64 (Z.shiftr x s).
Proof. intros H Hs. apply (shiftr_range 64); try lia; exact H. Qed.
Lemma sh64r_ok x s : 0 <= s < 64 -> sh64r x s = Some (Z.shiftr x s).
Proof. intros H. unfold sh64r. replace ((0 <=? s) && (s <? 64)) with true by lia. reflexivity. Qed.
Lemma sh64l_ok x s : 0 <= s < 64 -> sh64l x s = Some (wrap64 (Z.shiftl x s)).
Proof. intros H. unfold sh64l. replace ((0 <=? s) && (s <? 64)) with true by lia. reflexivity. Qed.
Lemma u_shr_val a s : uok a -> 0 <= s < 128 -> exists b, u_shr_nonneg a s = Some b /\ uok b /\ uval b = uval a / 2 ^ s.
Proof.
  intros Ha Hs. assert (Ha' := Ha). destruct Ha' as (H & L). unfold u_shr_nonneg.
  destruct (Z.eqb_spec s 0) as [->|N].
  { exists a. split; [reflexivity|]. split; [exact Ha|]. rewrite Z.div_1_r. reflexivity. }
  destruct (Z.ltb_spec s 64).
  - rewrite !sh64r_ok, !sh64l_ok by lia. cbn [bind].
    eexists. split; [reflexivity|].
    assert (K : uok (U128 (Z.shiftr (u_hi a) s) (Z.lor (Z.shiftr (u_lo a) s) (wrap64 (Z.shiftl (u_hi a) (64 - s)))))).
    { split; cbn [u_hi u_lo]; [apply shr_w; [exact H | lia]|]. apply lor_word; [lia | apply shr_w; [exact L | lia] | apply w64]. }
    split; [exact K|]. apply Z.bits_inj'. intros t Ht. rewrite uval_bit by assumption. cbn [u_hi u_lo].
    rewrite Z.div_pow2_bits, uval_bit by (try assumption; lia). unfold wrap64.
    destruct (Z.ltb_spec t 64).
    + rewrite Z.lor_spec, Z.shiftr_spec, Z.mod_pow2_bits_low, Z.shiftl_spec by lia.
      destruct (Z.ltb_spec (t + s) 64).
      * rewrite (Z.testbit_neg_r (u_hi a)) by lia. apply orb_false_r.
      * rewrite (word_bit 64 (u_lo a)) by (try assumption; lia). cbn [orb]. f_equal. lia.
    + replace (t + s <? 64) with false by lia. rewrite Z.shiftr_spec by lia. f_equal. lia.
  - rewrite ?sh64r_ok, ?sh64l_ok by lia. cbn [bind]. eexists. split; [reflexivity|].
    assert (K : uok (U128 0 (Z.shiftr (u_hi a) (s - 64)))) by (split; [exact (w64 0) | cbn [u_lo]; apply shr_w; [exact H | lia]]).
    split; [exact K|]. apply Z.bits_inj'. intros t Ht. rewrite uval_bit by assumption. cbn [u_hi u_lo].
    rewrite Z.div_pow2_bits, uval_bit by (try assumption; lia). replace (t + s <? 64) with false by lia.
    destruct (Z.ltb_spec t 64).
    + rewrite Z.shiftr_spec by lia. f_equal. lia.
    + rewrite Z.bits_0. symmetry. apply (word_bit 64); [lia | exact H | lia].
Qed.
Lemma u_shl_val a s : uok a -> 0 <= s < 128 -> exists b, u_shl_nonneg a s = Some b /\ uok b /\ uval b = (uval a * 2 ^ s) mod 2 ^ 128.
Proof.
  intros Ha Hs. assert (Ha' := Ha). destruct Ha' as (H & L). unfold u_shl_nonneg.
  destruct (Z.eqb_spec s 0) as [->|N].
  { exists a. split; [reflexivity|]. split; [exact Ha|]. rewrite Z.mul_1_r, Z.mod_small by (apply uval_range, Ha). reflexivity. }
  rewrite <- Z.shiftl_mul_pow2 by lia. destruct (Z.ltb_spec s 64).
  - rewrite !sh64r_ok, !sh64l_ok by lia. cbn [bind].
    eexists. split; [reflexivity|].
    assert (K : uok (U128 (Z.lor (wrap64 (Z.shiftl (u_hi a) s)) (Z.shiftr (u_lo a) (64 - s))) (wrap64 (Z.shiftl (u_lo a) s)))).
    { split; cbn [u_hi u_lo]; [|apply w64]. apply lor_word; [lia | apply w64 | apply shr_w; [exact L | lia]]. }
    split; [exact K|]. apply Z.bits_inj'. intros t Ht. rewrite uval_bit by assumption. cbn [u_hi u_lo]. unfold wrap64.
    destruct (Z.ltb_spec t 64).
    + rewrite !Z.mod_pow2_bits_low, !Z.shiftl_spec by lia. destruct (Z_lt_le_dec t s).
      * rewrite !Z.testbit_neg_r by lia. reflexivity.
      * rewrite uval_bit by (try assumption; lia). replace (t - s <? 64) with true by lia. reflexivity.
    + destruct (Z_lt_le_dec t 128).
      * rewrite Z.lor_spec, Z.shiftr_spec, !Z.mod_pow2_bits_low, !Z.shiftl_spec by lia.
        rewrite uval_bit by (try assumption; lia). destruct (Z.ltb_spec (t - s) 64).
        -- rewrite (Z.testbit_neg_r (u_hi a)) by lia. cbn [orb]. f_equal. lia.
        -- rewrite (word_bit 64 (u_lo a)) by (try assumption; lia). rewrite orb_false_r. f_equal. lia.
      * rewrite Z.mod_pow2_bits_high, Z.lor_spec, Z.shiftr_spec, Z.mod_pow2_bits_high, (word_bit 64 (u_lo a)) by (try assumption; lia). reflexivity.
  - rewrite ?sh64r_ok, ?sh64l_ok by lia. cbn [bind]. eexists. split; [reflexivity|].
    assert (K : uok (U128 (wrap64 (Z.shiftl (u_lo a) (s - 64))) 0)) by (split; [apply w64 | exact (w64 0)]).
    split; [exact K|]. apply Z.bits_inj'. intros t Ht. rewrite uval_bit by assumption. cbn [u_hi u_lo]. unfold wrap64.
    destruct (Z.ltb_spec t 64).
    + rewrite Z.bits_0, Z.mod_pow2_bits_low, Z.shiftl_spec, Z.testbit_neg_r by lia. reflexivity.
    + destruct (Z_lt_le_dec t 128).
      * rewrite !Z.mod_pow2_bits_low, !Z.shiftl_spec by lia. destruct (Z_lt_le_dec t s).
        -- rewrite !Z.testbit_neg_r by lia. reflexivity.
        -- rewrite uval_bit by (try assumption; lia). replace (t - s <? 64) with true by lia. f_equal. lia.
      * rewrite !Z.mod_pow2_bits_high by lia. reflexivity.
Qed.

(** ** Division *)
Lemma lor_add q k i : 0 <= i -> q = k * 2 ^ (i + 1) -> Z.lor q (2 ^ i) = q + 2 ^ i.
Proof.
  intros Hi ->. rewrite <- Z.lxor_lor, <- Z.add_nocarry_lxor; try reflexivity;
  (apply Z.bits_inj'; intros t Ht; rewrite Z.land_spec, Z.bits_0, Z.pow2_bits_eqb by lia;
   destruct (Z.eqb_spec i t) as [<-|]; [rewrite Z.mul_pow2_bits_low by lia; reflexivity | apply andb_false_r]).
Qed.
Lemma bit_mod x i : 0 <= i -> 0 <= x -> x mod 2 ^ (i + 1) = b2z (Z.testbit x i) * 2 ^ i + x mod 2 ^ i.
Proof.
  intros Hi Hx. replace (i + 1) with (i + 1) by lia. rewrite Z.pow_add_r by lia.
  rewrite Z.rem_mul_r by (try apply Z.pow_nonzero; lia). rewrite Z.testbit_odd, Z.shiftr_div_pow2 by lia.
  change (2 ^ 1) with 2. rewrite Zmod_odd. unfold b2z. destruct (Z.odd (x / 2 ^ i)); lia.
Qed.
Lemma test_land w i : 0 <= i < 64 -> word 64 w -> (Z.land w (wrap64 (Z.shiftl 1 i)) >? 0) = Z.testbit w i.
Proof.
  intros Hi (A & B). rewrite Z.shiftl_1_l. unfold wrap64.
  assert (2 ^ i < 2 ^ 64) by (apply Z.pow_lt_mono_r; lia). assert (0 < 2 ^ i) by (apply Z.pow_pos_nonneg; lia).
  rewrite Z.mod_small by lia.
  assert (E : Z.land w (2 ^ i) = if Z.testbit w i then 2 ^ i else 0).
  { apply Z.bits_inj'. intros t Ht. rewrite Z.land_spec, Z.pow2_bits_eqb by lia. destruct (Z.eqb_spec i t) as [<-|N].
    - rewrite andb_true_r. destruct (Z.testbit w i); [rewrite Z.pow2_bits_eqb, Z.eqb_refl by lia | rewrite Z.bits_0]; reflexivity.
    - rewrite andb_false_r. destruct (Z.testbit w i); [rewrite Z.pow2_bits_eqb by lia; symmetry; apply Z.eqb_neq, N | rewrite Z.bits_0; reflexivity]. }
  rewrite E. destruct (Z.testbit w i); lia.
Qed.
Lemma div_round_val other w i q r : uok other -> uok r -> word 64 w -> 0 <= i < 64 ->
  2 * uval r + 1 < 2 ^ 128 \/ (2 * uval r + b2z (Z.testbit w i) < 2 ^ 128) ->
  exists r', div_round other w i q r =
    (if 2 * uval r + b2z (Z.testbit w i) >=? uval other then Z.lor q (2 ^ i) else q, r') /\ uok r' /\
    uval r' = (if 2 * uval r + b2z (Z.testbit w i) >=? uval other then 2 * uval r + b2z (Z.testbit w i) - uval other
               else 2 * uval r + b2z (Z.testbit w i)).
Proof.
  intros Ho Hr Hw Hi Hb. unfold div_round, u_shl1, u_shl. change (1 <? 0) with false. cbv iota.
  destruct (u_shl_val r 1 Hr ltac:(lia)) as (r1 & E1 & K1 & V1). rewrite E1. cbv zeta. rewrite test_land by assumption.
  assert (B0 : 0 <= b2z (Z.testbit w i) <= 1) by (destruct (Z.testbit w i); cbn; lia).
  assert (R0 := uval_range r Hr). change (2 ^ 1) with 2 in V1. rewrite Z.mod_small in V1 by lia.
  assert (EL : Z.lor (u_lo r1) (if Z.testbit w i then 1 else 0) = u_lo r1 + b2z (Z.testbit w i)).
  { destruct (Z.testbit w i); cbn [b2z]; [|rewrite Z.lor_0_r, Z.add_0_r; reflexivity].
    change 1 with (2 ^ 0). apply (lor_add _ (u_lo r1 / 2)); [lia|]. change (2 ^ (0 + 1)) with 2.
    assert (u_lo r1 mod 2 = 0).
    { unfold uval in V1 at 1. replace (u_lo r1) with (uval r * 2 + (- (u_hi r1 * 2 ^ 63)) * 2) by (change (2 ^ 64) with (2 ^ 63 * 2) in V1; lia).
      rewrite Z.mod_add, Z.mod_mul by discriminate. reflexivity. }
    rewrite Z.mul_comm. rewrite (Z.div_mod (u_lo r1) 2) at 1 by discriminate. lia. }
  assert (K2 : uok (U128 (u_hi r1) (Z.lor (u_lo r1) (if Z.testbit w i then 1 else 0)))).
  { split; [apply K1|]. cbn [u_lo]. apply lor_word; [lia | apply K1|]. destruct (Z.testbit w i); split; lia. }
  assert (V2 : uval (U128 (u_hi r1) (Z.lor (u_lo r1) (if Z.testbit w i then 1 else 0))) = 2 * uval r + b2z (Z.testbit w i)).
  { rewrite EL. unfold uval at 1. cbn [u_hi u_lo]. unfold uval in V1 at 1. lia. }
  set (r2 := U128 _ _) in *. clearbody r2.
  destruct (u_cmp r2 other K2 Ho) as (_ & _ & _ & _ & _ & ->). rewrite V2.
  replace (wrap64 (Z.shiftl 1 i)) with (2 ^ i).
  2:{ rewrite Z.shiftl_1_l. symmetry. apply Z.mod_small. split; [apply Z.pow_nonneg; lia | apply Z.pow_lt_mono_r; lia]. }
  assert (O0 := uval_range other Ho).
  destruct (2 * uval r + b2z (Z.testbit w i) >=? uval other) eqn:G.
  - eexists. split; [reflexivity|]. split; [apply u_sub_ok; assumption|]. rewrite u_sub_val, V2 by assumption. apply Z.mod_small. lia.
  - eexists. split; [reflexivity|]. split; [exact K2 | exact V2].
Qed.
Lemma div_loop_val other w : uok other -> 0 < uval other -> word 64 w -> forall n q r, (n <= 64)%nat -> uok r -> uval r < uval other ->
  uval r * 2 ^ Z.of_nat n + w mod 2 ^ Z.of_nat n < 2 ^ 128 -> (2 ^ Z.of_nat n | q) ->
  exists r', div_loop other w n q r = (q + (uval r * 2 ^ Z.of_nat n + w mod 2 ^ Z.of_nat n) / uval other, r') /\ uok r' /\
    uval r' = (uval r * 2 ^ Z.of_nat n + w mod 2 ^ Z.of_nat n) mod uval other.
Proof.
  intros Ho Po Hw. induction n as [|i IH]; intros q r Hn Hr Lt Hb Hq.
  - exists r. cbn [div_loop]. change (2 ^ Z.of_nat 0) with 1. rewrite Z.mod_1_r, Z.mul_1_r, Z.add_0_r.
    assert (R0 := uval_range r Hr). rewrite Z.div_small, Z.mod_small by lia. split; [f_equal; lia|]. split; [exact Hr | reflexivity].
  - cbn [div_loop]. replace (Z.of_nat (S i)) with (Z.of_nat i + 1) in * by lia. set (j := Z.of_nat i) in *.
    assert (Pj : 0 < 2 ^ j) by (apply Z.pow_pos_nonneg; lia). assert (R0 := uval_range r Hr). assert (M := Z.mod_pos_bound w (2 ^ j) Pj).
    rewrite bit_mod in * by (try apply Hw; lia). rewrite Z.pow_add_r in * by lia. change (2 ^ 1) with 2 in *.
    assert (B0 : 0 <= b2z (Z.testbit w j) <= 1) by (destruct (Z.testbit w j); cbn; lia).
    set (b := b2z (Z.testbit w j)) in *.
    replace (uval r * (2 ^ j * 2) + (b * 2 ^ j + w mod 2 ^ j)) with ((2 * uval r + b) * 2 ^ j + w mod 2 ^ j) in * by ring.
    destruct (div_round_val other w j q r Ho Hr Hw ltac:(lia)) as (r' & E & K & V); [right; fold b; nia|]. fold b in E, V. rewrite E.
    destruct (2 * uval r + b >=? uval other) eqn:G.
    + destruct Hq as [k Hq]. assert (EL : Z.lor q (2 ^ j) = q + 2 ^ j) by (apply (lor_add q k); [lia|]; rewrite Z.pow_add_r by lia; exact Hq).
      destruct (IH (Z.lor q (2 ^ j)) r') as (r'' & E2 & K2 & V2); try assumption; try lia; try nia.
      { exists (2 * k + 1). rewrite EL, Hq. ring. }
      exists r''. rewrite E2, V2, V, EL. split; [|split; [exact K2|]].
      * f_equal. replace ((2 * uval r + b) * 2 ^ j + w mod 2 ^ j) with ((2 * uval r + b - uval other) * 2 ^ j + w mod 2 ^ j + 2 ^ j * uval other) by ring.
        rewrite Z.div_add by lia. ring.
      * replace ((2 * uval r + b) * 2 ^ j + w mod 2 ^ j) with ((2 * uval r + b - uval other) * 2 ^ j + w mod 2 ^ j + 2 ^ j * uval other) by ring.
        rewrite Z.mod_add by lia. reflexivity.
    + destruct (IH q r') as (r'' & E2 & K2 & V2); try assumption; try lia.
      { destruct Hq as [k ->]. exists (2 * k). ring. }
      exists r''. rewrite E2, V2, V. split; [reflexivity|]. split; [exact K2 | reflexivity].
Qed.
Lemma u_divmod_val a b : uok a -> uok b -> uval b <> 0 ->
  uok (u_div a b) /\ uval (u_div a b) = uval a / uval b /\ uok (u_mod a b) /\ uval (u_mod a b) = uval a mod uval b.
Proof.
  intros Ha Hb N. assert (Ha' := Ha). destruct Ha' as (H & L). assert (B0 := uval_range b Hb). assert (A0 := uval_range a Ha).
  assert (Z0 : uok (U128 0 0)) by (split; exact (w64 0)).
  unfold u_div, u_mod, u_divmod.
  destruct (div_loop_val b (u_hi a) Hb ltac:(lia) H 64 0 (U128 0 0)) as (r1 & E1 & K1 & V1); try assumption; try lia.
  { change (uval (U128 0 0)) with 0. lia. }
  { change (uval (U128 0 0)) with 0. destruct H. change (Z.of_nat 64) with 64. rewrite Z.mod_small by lia. lia. }
  { apply Z.divide_0_r. }
  rewrite E1. change (uval (U128 0 0)) with 0 in *. change (Z.of_nat 64) with 64 in *.
  rewrite (Z.mod_small (u_hi a)) in * by exact H. rewrite Z.mul_0_l, !Z.add_0_l in *.
  assert (M := Z.mod_pos_bound (u_hi a) (uval b) ltac:(lia)).
  assert (D := Z.div_mod (u_hi a) (uval b) N). assert (Q0 : 0 <= u_hi a / uval b) by (apply Z.div_pos; [apply H | lia]).
  destruct (div_loop_val b (u_lo a) Hb ltac:(lia) L 64 0 r1) as (r2 & E2 & K2 & V2); try assumption; try lia.
  { change (Z.of_nat 64) with 64. rewrite (Z.mod_small (u_lo a)) by exact L. rewrite V1. unfold uval in A0.
    destruct L. assert (u_hi a mod uval b <= u_hi a) by (apply Z.mod_le; [apply H | lia]). nia. }
  { apply Z.divide_0_r. }
  rewrite E2. change (Z.of_nat 64) with 64 in *. rewrite (Z.mod_small (u_lo a)) in * by exact L. rewrite V1 in *. cbn [fst snd].
  rewrite Z.add_0_l in *.
  assert (EA : uval a = (u_hi a mod uval b * 2 ^ 64 + u_lo a) + (u_hi a / uval b * 2 ^ 64) * uval b) by (unfold uval at 1; rewrite D at 1; ring).
  assert (EQ : uval (U128 (u_hi a / uval b) ((u_hi a mod uval b * 2 ^ 64 + u_lo a) / uval b)) = uval a / uval b).
  { rewrite EA. rewrite Z.div_add by lia. unfold uval. cbn [u_hi u_lo]. ring. }
  split; [|split; [exact EQ | split; [exact K2|]]].
  - split; cbn [u_hi u_lo].
    + split; [exact Q0|]. apply Z.le_lt_trans with (u_hi a); [|apply H]. apply Z.div_le_upper_bound; [lia|]. destruct H. nia.
    + destruct L. split; [apply Z.div_pos; nia|]. apply Z.div_lt_upper_bound; nia.
  - rewrite V2, EA, Z.mod_add by lia. reflexivity.
Qed.
