(** Proofs about int_math (integer helpers, modulo_inverse, modulo, power). *)
From Coq Require Import ZArith Znumtheory List Bool Lia.
From Verif Require Import Base BaseFacts Cong IntMathModel.
Open Scope Z_scope.

(** ** log2_floor, log2_ceil, ceil2, mask *)

(** What the loops need from a type: results in [0,max] are exact. *)
Definition exact_type (T : inttype) : Prop :=
  0 < t_max T /\ forall x, 0 <= x <= t_max T -> t_norm T x = Some x.

Lemma exact_uint w : 0 < w -> exact_type (uint_t w).
Proof.
  intros Hw. assert (2 ^ 1 <= 2 ^ w) by (apply Z.pow_le_mono_r; lia).
  split; cbn [uint_t t_max t_norm]; [lia|]. intros x Hx. rewrite Z.mod_small by lia. reflexivity.
Qed.

Lemma exact_sint w : 1 < w -> exact_type (sint_t w).
Proof.
  intros Hw. assert (2 ^ 1 <= 2 ^ (w - 1)) by (apply Z.pow_le_mono_r; lia).
  split; cbn [sint_t t_max t_norm]; [lia|]. intros x Hx.
  replace (- 2 ^ (w - 1) <=? x) with true by (symmetry; apply Z.leb_le; lia).
  replace (x <? 2 ^ (w - 1)) with true by (symmetry; apply Z.ltb_lt; lia). reflexivity.
Qed.

Lemma log2_floor_rec_eq T n : exact_type T -> forall x, 0 <= x <= t_max T -> x < 2 ^ Z.of_nat n ->
  (1 <= n)%nat -> log2_floor_rec T n x = Some (Z.log2 x).
Proof.
  intros (_ & N). induction n; intros x Hx Hb Hn; [lia|]. cbn [log2_floor_rec].
  destruct (Z.leb_spec x 1) as [L|G].
  - assert (x = 0 \/ x = 1) as [-> | ->] by lia; reflexivity.
  - rewrite Z.quot_div_nonneg by lia.
    assert (Q : 0 < x / 2 <= x) by (split; [apply Z.div_str_pos; lia | apply Z.div_le_upper_bound; lia]).
    destruct n; [cbn in Hb; lia|].
    rewrite IHn; [| lia | | lia].
    + cbn [bind]. assert (E : Z.log2 x = 1 + Z.log2 (x / 2)).
      { assert (D := Z.div_mod x 2 ltac:(lia)). assert (M := Z.mod_pos_bound x 2 ltac:(lia)).
        assert (x mod 2 = 0 \/ x mod 2 = 1) as [M0|M1] by lia.
        - rewrite D at 1. rewrite M0, Z.add_0_r, Z.log2_double by lia. lia.
        - rewrite D at 1. rewrite M1, Z.log2_succ_double by lia. lia. }
      rewrite E. apply N. rewrite <- E. assert (0 <= Z.log2 x) by apply Z.log2_nonneg.
      assert (Z.log2 x < x) by (apply Z.log2_lt_lin; lia). lia.
    + rewrite Nat2Z.inj_succ, Z.pow_succ_r in Hb by lia. apply Z.div_lt_upper_bound; lia.
Qed.

Lemma log2_floor_eq T x : exact_type T -> t_max T < 2 ^ 65 -> 0 <= x <= t_max T ->
  log2_floor T x = Some (Z.log2 x).
Proof.
  intros HT Hm Hx. apply log2_floor_rec_eq; [exact HT | exact Hx | | lia].
  change (Z.of_nat 65) with 65. lia.
Qed.

Lemma pow2_log2 T x : exact_type T -> t_max T < 2 ^ t_width T -> 1 <= x <= t_max T ->
  pow2 T (Z.log2 x) = Some (2 ^ Z.log2 x).
Proof.
  intros (_ & N) W Hx. unfold pow2. assert (S := Z.log2_spec x ltac:(lia)).
  assert (L := Z.log2_nonneg x).
  assert (Z.log2 x < t_width T).
  { apply (Z.pow_lt_mono_r_iff 2); [lia | | lia].
    destruct (Z.lt_ge_cases (t_width T) 0); [|assumption]. rewrite (Z.pow_neg_r 2) in W by lia. lia. }
  replace (0 <=? Z.log2 x) with true by (symmetry; apply Z.leb_le; lia).
  replace (Z.log2 x <? t_width T) with true by (symmetry; apply Z.ltb_lt; lia).
  apply N. assert (0 < 2 ^ Z.log2 x) by (apply Z.pow_pos_nonneg; lia). lia.
Qed.

Lemma log2_ceil_eq T x : exact_type T -> t_max T < 2 ^ t_width T -> t_max T < 2 ^ 65 ->
  1 <= x <= t_max T -> log2_ceil T x = Some (Z.log2_up x).
Proof.
  intros HT W Hm Hx. unfold log2_ceil.
  rewrite log2_floor_eq by (assumption || lia). cbn [bind]. rewrite pow2_log2 by assumption. cbn [bind].
  assert (S := Z.log2_spec x ltac:(lia)). assert (L0 := Z.log2_nonneg x).
  destruct (Z.eq_dec x 1) as [-> | Hne]; [reflexivity|].
  assert (U := Z.log2_up_spec x ltac:(lia)).
  destruct (Z.ltb_spec (2 ^ Z.log2 x) x) as [L|G].
  - assert (E : Z.log2_up x = Z.log2 x + 1) by (apply Z.log2_up_unique; [lia|];
      replace (Z.pred (Z.log2 x + 1)) with (Z.log2 x) by lia; lia).
    rewrite E. apply HT.
    assert (Z.log2 x < x) by (apply Z.log2_lt_lin; lia). lia.
  - f_equal. assert (x = 2 ^ Z.log2 x) as E by lia. rewrite E at 2. rewrite Z.log2_up_pow2 by lia. reflexivity.
Qed.

Lemma log2_up_half x : 1 < x -> Z.log2_up x = 1 + Z.log2_up ((x + 1) / 2).
Proof.
  intros Hx. assert (D := Z.div_mod (x + 1) 2 ltac:(lia)). assert (M := Z.mod_pos_bound (x + 1) 2 ltac:(lia)).
  destruct (Z.eq_dec x 2) as [-> | Hne]; [reflexivity|].
  assert (Q : 1 < (x + 1) / 2) by lia.
  assert (U := Z.log2_up_spec _ Q). assert (P := Z.log2_up_pos _ Q).
  set (h := (x + 1) / 2) in *. set (l := Z.log2_up h) in *.
  apply Z.log2_up_unique; [lia|].
  replace (Z.pred (1 + l)) with (Z.succ (Z.pred l)) by lia. rewrite Z.pow_succ_r by lia.
  replace (1 + l) with (Z.succ l) by lia. rewrite Z.pow_succ_r by lia. lia.
Qed.

Lemma ceil2_rec_eq T n : exact_type T -> forall x, 0 < x < t_max T -> x <= 2 ^ (Z.of_nat n - 1) ->
  2 ^ Z.log2_up x <= t_max T -> (1 <= n)%nat -> ceil2_rec T n x = Some (2 ^ Z.log2_up x).
Proof.
  intros (_ & N). induction n; intros x Hx Hb Hp Hn; [lia|]. cbn [ceil2_rec].
  destruct (Z.leb_spec x 1) as [L|G].
  - assert (x = 1) as -> by lia. reflexivity.
  - rewrite N by lia. cbn [bind]. rewrite Z.quot_div_nonneg by lia.
    assert (D := Z.div_mod (x + 1) 2 ltac:(lia)). assert (M := Z.mod_pos_bound (x + 1) 2 ltac:(lia)).
    assert (U := log2_up_half x G). rewrite U in Hp |- *.
    assert (L0 := Z.log2_up_nonneg ((x + 1) / 2)).
    assert (0 < 2 ^ Z.log2_up ((x + 1) / 2)) by (apply Z.pow_pos_nonneg; lia).
    replace (1 + Z.log2_up ((x + 1) / 2)) with (Z.succ (Z.log2_up ((x + 1) / 2))) in Hp |- * by lia.
    rewrite Z.pow_succ_r in Hp |- * by lia.
    destruct n; [cbn in Hb; lia|].
    rewrite IHn; [| lia | | lia | lia].
    + cbn [bind]. apply N. lia.
    + replace (Z.of_nat (S (S n)) - 1) with (Z.succ (Z.of_nat (S n) - 1)) in Hb by lia.
      rewrite Z.pow_succ_r in Hb by lia. lia.
Qed.

Lemma ceil2_eq T x : exact_type T -> t_max T < 2 ^ 64 -> 0 < x < t_max T ->
  2 ^ Z.log2_up x <= t_max T -> ceil2 T x = Some (2 ^ Z.log2_up x).
Proof.
  intros HT Hm Hx Hp. apply ceil2_rec_eq; try assumption; [|lia].
  change (Z.of_nat 65 - 1) with 64. lia.
Qed.


Lemma log2_up_top w x : 0 < w -> 2 ^ (w - 1) < x < 2 ^ w -> Z.log2_up x = w.
Proof. intros Hw Hx. apply Z.log2_up_unique; [lia|]. replace (Z.pred w) with (w - 1) by lia. lia. Qed.

Lemma ceil2_top w x : 1 < w <= 64 -> 2 ^ (w - 1) < x < 2 ^ w -> ceil2 (uint_t w) x = Some 0.
Proof.
  intros Hw Hx. assert (HT := exact_uint w ltac:(lia)).
  assert (P : 2 ^ w = 2 * 2 ^ (w - 1)) by (rewrite <- Z.pow_succ_r by lia; f_equal; lia).
  assert (2 ^ 1 <= 2 ^ (w - 1)) by (apply Z.pow_le_mono_r; lia).
  unfold ceil2. remember 64%nat as k eqn:Ek. cbn [ceil2_rec].
  replace (x <=? 1) with false by (symmetry; apply Z.leb_gt; lia).
  destruct (Z.eq_dec x (2 ^ w - 1)) as [-> | Hne].
  - cbn [uint_t t_norm]. replace (2 ^ w - 1 + 1) with (1 * 2 ^ w) by lia. rewrite Z.mod_mul by lia.
    cbn [bind]. change (Z.quot 0 2) with 0. subst k. reflexivity.
  - rewrite (proj2 HT) by (cbn [uint_t t_max]; lia). cbn [bind]. rewrite Z.quot_div_nonneg by lia.
    assert (D := Z.div_mod (x + 1) 2 ltac:(lia)). assert (M := Z.mod_pos_bound (x + 1) 2 ltac:(lia)).
    assert (U := log2_up_half x ltac:(lia)). rewrite (log2_up_top w x) in U by lia.
    assert (E : Z.log2_up ((x + 1) / 2) = w - 1) by lia.
    rewrite ceil2_rec_eq; [| exact HT | cbn [uint_t t_max]; lia | | rewrite E; cbn [uint_t t_max]; lia | lia].
    + rewrite E. cbn [bind uint_t t_norm]. rewrite <- P, Z.mod_same by lia. reflexivity.
    + subst k. change (Z.of_nat 64 - 1) with 63.
      assert (2 ^ (w - 1) <= 2 ^ 63) by (apply Z.pow_le_mono_r; lia). lia.
Qed.

Lemma mask_uint_eq w x : 1 < w <= 64 -> 0 <= x < 2 ^ w -> mask (uint_t w) x = Some (2 ^ Z.log2_up (x + 1) - 1).
Proof.
  intros Hw Hx. assert (HT := exact_uint w ltac:(lia)).
  assert (P : 2 ^ w = 2 * 2 ^ (w - 1)) by (rewrite <- Z.pow_succ_r by lia; f_equal; lia).
  assert (2 ^ 1 <= 2 ^ (w - 1)) by (apply Z.pow_le_mono_r; lia).
  assert (2 ^ w <= 2 ^ 64) by (apply Z.pow_le_mono_r; lia).
  unfold mask. destruct (Z.eqb_spec x (t_max (uint_t w))) as [-> | Hne].
  - cbn [uint_t t_max]. replace (2 ^ w - 1 + 1) with (2 ^ w) by lia. rewrite Z.log2_up_pow2 by lia. reflexivity.
  - cbn [uint_t t_max] in Hne. rewrite (proj2 HT) by (cbn [uint_t t_max]; lia). cbn [bind].
    destruct (Z.le_gt_cases (x + 1) (2 ^ (w - 1))) as [L|G].
    + assert (U : Z.log2_up (x + 1) <= w - 1) by (apply Z.log2_up_le_pow2; lia).
      assert (0 <= Z.log2_up (x + 1)) by apply Z.log2_up_nonneg.
      assert (2 ^ Z.log2_up (x + 1) <= 2 ^ (w - 1)) by (apply Z.pow_le_mono_r; lia).
      assert (0 < 2 ^ Z.log2_up (x + 1)) by (apply Z.pow_pos_nonneg; lia).
      rewrite ceil2_eq; [| exact HT | cbn [uint_t t_max]; lia | cbn [uint_t t_max]; lia | cbn [uint_t t_max]; lia].
      cbn [bind]. apply HT. cbn [uint_t t_max]. lia.
    + rewrite ceil2_top by lia. rewrite (log2_up_top w) by lia. cbn [bind uint_t t_norm].
      f_equal. rewrite <- (Z.mod_add (0 - 1) 1) by lia.
      replace (0 - 1 + 1 * 2 ^ w) with (2 ^ w - 1) by lia. apply Z.mod_small. lia.
Qed.

Lemma mask_sint_eq w x : 2 < w <= 64 -> 0 <= x < 2 ^ (w - 2) ->
  mask (sint_t w) x = Some (2 ^ Z.log2_up (x + 1) - 1).
Proof.
  intros Hw Hx. assert (HT := exact_sint w ltac:(lia)).
  assert (P : 2 ^ (w - 1) = 2 * 2 ^ (w - 2)) by (rewrite <- Z.pow_succ_r by lia; f_equal; lia).
  assert (2 ^ 1 <= 2 ^ (w - 2)) by (apply Z.pow_le_mono_r; lia).
  assert (2 ^ (w - 1) <= 2 ^ 63) by (apply Z.pow_le_mono_r; lia).
  unfold mask. destruct (Z.eqb_spec x (t_max (sint_t w))) as [-> | Hne]; [cbn [sint_t t_max] in Hx; lia|].
  cbn [sint_t t_max] in Hne. rewrite (proj2 HT) by (cbn [sint_t t_max]; lia). cbn [bind].
  assert (U : Z.log2_up (x + 1) <= w - 2) by (apply Z.log2_up_le_pow2; lia).
  assert (0 <= Z.log2_up (x + 1)) by apply Z.log2_up_nonneg.
  assert (2 ^ Z.log2_up (x + 1) <= 2 ^ (w - 2)) by (apply Z.pow_le_mono_r; lia).
  assert (0 < 2 ^ Z.log2_up (x + 1)) by (apply Z.pow_pos_nonneg; lia).
  rewrite ceil2_eq; [| exact HT | cbn [sint_t t_max]; lia | cbn [sint_t t_max]; lia | cbn [sint_t t_max]; lia].
  cbn [bind]. apply HT. cbn [sint_t t_max]. lia.
Qed.

(** ** modulo_inverse *)

(** Loop invariant: a0*f = a, a0*flast = m1 (mod m), the magnitudes satisfy |f|*m1 + |flast|*a = m and the
    signs of f and flast alternate. *)
Record inv_inv (a0 m a m1 f fl : Z) : Prop := InvInv {
  ii_a : 0 <= a; ii_m1 : 1 <= m1;
  ii_f : cong m (a0 * f) a; ii_fl : cong m (a0 * fl) m1;
  ii_gcd : Z.gcd a m1 = Z.gcd a0 m;
  ii_sum : Z.abs f * m1 + Z.abs fl * a = m;
  ii_sgn : (0 <= f /\ fl <= 0) \/ (f <= 0 /\ 0 <= fl)
}.

Lemma inv_step a0 m a m1 f fl : inv_inv a0 m a m1 f fl -> 1 < a ->
  let q := m1 / a in
  inv_inv a0 m (m1 mod a) a (fl - q * f) f /\ Z.abs (q * f) <= m /\ Z.abs (fl - q * f) <= m /\
  2 * Z.abs (fl - q * f) <= m.
Proof.
  intros [Ha Hm1 Hf Hfl Hg Hs Hsg] Ha1 q.
  assert (D := Z.div_mod m1 a ltac:(lia)). assert (M := Z.mod_pos_bound m1 a ltac:(lia)).
  assert (Q : 0 <= q) by (apply Z.div_pos; lia). fold q in D.
  set (t := m1 mod a) in *.
  assert (A : Z.abs (q * f) = q * Z.abs f) by (rewrite Z.abs_mul, (Z.abs_eq q) by lia; reflexivity).
  assert (A2 : Z.abs (fl - q * f) = Z.abs fl + q * Z.abs f).
  { destruct Hsg as [(S1 & S2) | (S1 & S2)].
    - assert (0 <= q * f) by (apply Z.mul_nonneg_nonneg; lia).
      rewrite (Z.abs_eq f), (Z.abs_neq fl), Z.abs_neq by lia. ring.
    - assert (q * f <= 0) by (apply Z.mul_nonneg_nonpos; lia).
      rewrite (Z.abs_neq f), (Z.abs_eq fl), Z.abs_eq by lia. ring. }
  assert (Sum : Z.abs (fl - q * f) * a + Z.abs f * t = m).
  { rewrite A2, <- Hs. rewrite D at 1. ring. }
  assert (F0 := Z.abs_nonneg f). assert (F1 := Z.abs_nonneg fl).
  assert (0 <= q * Z.abs f) by (apply Z.mul_nonneg_nonneg; lia).
  assert (0 <= Z.abs f * t) by (apply Z.mul_nonneg_nonneg; lia).
  assert (B : 2 * Z.abs (fl - q * f) <= m).
  { assert (Z.abs (fl - q * f) * 2 <= Z.abs (fl - q * f) * a); [|lia].
    apply Z.mul_le_mono_nonneg_l; lia. }
  split; [|split; [|split]]; [constructor | lia | lia | exact B].
  - lia.
  - lia.
  - rewrite Z.mul_sub_distr_l, Hfl. replace (a0 * (q * f)) with (q * (a0 * f)) by ring. rewrite Hf.
    replace t with (m1 - q * a) by lia. reflexivity.
  - exact Hf.
  - rewrite <- Hg. unfold t. rewrite Z.gcd_mod by lia. reflexivity.
  - exact Sum.
  - destruct Hsg as [(S1 & S2) | (S1 & S2)].
    + right. assert (0 <= q * f) by (apply Z.mul_nonneg_nonneg; lia). lia.
    + left. assert (q * f <= 0) by (apply Z.mul_nonneg_nonpos; lia). lia.
Qed.

Lemma loop_spec n : forall a0 m a m1 f fl, m < 2 ^ 31 -> inv_inv a0 m a m1 f fl -> 1 < m1 ->
  Z.abs f < m -> a <= m1 -> a * m1 < 2 ^ Z.of_nat n ->
  exists a' m1' f' fl', modulo_inverse_loop (S n) a m1 f fl = Val (a', f') /\
    inv_inv a0 m a' m1' f' fl' /\ a' <= 1 /\ 1 < m1' /\ Z.abs f' < m.
Proof.
  induction n; intros a0 m a m1 f fl Hm I H1 Hf Hle Hp.
  - change (2 ^ Z.of_nat 0) with 1 in Hp. assert (a = 0).
    { destruct I. destruct (Z.eq_dec a 0); [assumption|].
      assert (1 * 1 <= a * m1) by (apply Z.mul_le_mono_nonneg; lia). lia. }
    subst a. exists 0, m1, f, fl. repeat split; try assumption; try reflexivity; lia || apply I.
  - set (k := S n). cbn [modulo_inverse_loop]. destruct (Z.gtb_spec a 1) as [G|L].
    2:{ exists a, m1, f, fl. repeat split; try assumption; try reflexivity; lia || apply I. }
    assert (J := I). destruct J as [Ha Hm1 _ _ _ _ _].
    rewrite Z.rem_mod_nonneg, Z.quot_div_nonneg by lia.
    destruct (inv_step _ _ _ _ _ _ I G) as (I' & B1 & B2 & B3).
    assert (int32 (m1 / a * f) = true) as ->.
    { unfold int32. apply andb_true_iff. split; [apply Z.leb_le | apply Z.ltb_lt]; lia. }
    assert (int32 (fl - m1 / a * f) = true) as ->.
    { unfold int32. apply andb_true_iff. split; [apply Z.leb_le | apply Z.ltb_lt]; lia. }
    cbn [andb]. unfold k. assert (M := Z.mod_pos_bound m1 a ltac:(lia)).
    assert (Z.abs (fl - m1 / a * f) < m) by lia.
    apply (IHn a0 m _ _ _ _ Hm I'); [lia | assumption | lia |].
    assert (D := Z.div_mod m1 a ltac:(lia)). assert (1 <= m1 / a) by (apply Z.div_le_lower_bound; lia).
    assert (a * 1 <= a * (m1 / a)) by (apply Z.mul_le_mono_nonneg_l; lia).
    assert (2 * (m1 mod a) <= m1) by lia.
    rewrite Nat2Z.inj_succ, Z.pow_succ_r in Hp by lia.
    assert (2 * (m1 mod a) * a <= m1 * a) by (apply Z.mul_le_mono_nonneg_r; lia). lia.
Qed.

Lemma inv_init a m : 0 < a -> 1 < m -> inv_inv a m a m 1 0.
Proof.
  intros Ha Hm. constructor; try lia.
  - rewrite Z.mul_1_r. reflexivity.
  - rewrite Z.mul_0_r. exists (-1). ring.
Qed.

(** First iteration when a > m. *)
Lemma loop_first k a m : 1 < m < a -> modulo_inverse_loop (S k) a m 1 0 = modulo_inverse_loop k m a 0 1.
Proof.
  intros H. cbn [modulo_inverse_loop]. replace (a >? 1) with true by (symmetry; apply Z.gtb_lt; lia).
  rewrite Z.rem_mod_nonneg, Z.quot_div_nonneg, Z.mod_small, Z.div_small by lia. reflexivity.
Qed.

Lemma loop_start k a m : 0 < a < 2 ^ 31 -> 1 < m < 2 ^ 31 -> a * m < 2 ^ Z.of_nat k ->
  exists a' m1' f' fl', modulo_inverse_loop (S (S k)) a m 1 0 = Val (a', f') /\
    inv_inv a m a' m1' f' fl' /\ a' <= 1 /\ 1 < m1' /\ Z.abs f' < m.
Proof.
  intros Ha Hm Hk. assert (I := inv_init a m ltac:(lia) ltac:(lia)).
  destruct (Z.le_gt_cases a m) as [L|G].
  - apply (loop_spec (S k) a m a m 1 0); try assumption; try lia.
    rewrite Nat2Z.inj_succ, Z.pow_succ_r by lia. assert (0 < 2 ^ Z.of_nat k) by (apply Z.pow_pos_nonneg; lia). lia.
  - assert (G1 : 1 < a) by lia.
    destruct (inv_step _ _ _ _ _ _ I G1) as (I' & _).
    rewrite Z.mod_small, Z.div_small in I' by lia.
    rewrite loop_first by lia. change (0 - 0 * 1) with 0 in I'.
    apply (loop_spec k a m _ _ _ _ (proj2 Hm) I'); lia.
Qed.

Lemma mul31 a m : 0 < a < 2 ^ 31 -> 1 < m < 2 ^ 31 -> a * m < 2 ^ Z.of_nat 63.
Proof.
  intros Ha Hm. change (2 ^ Z.of_nat 63) with (2 ^ 63). assert (a * m < 2 ^ 31 * 2 ^ 31); [|lia].
  apply Z.mul_lt_mono_nonneg; lia.
Qed.

Lemma modulo_inverse_spec a m : 0 < a < 2 ^ 31 -> 1 < m < 2 ^ 31 ->
  (Z.gcd a m = 1 -> exists x, modulo_inverse a m = Val x /\ 0 <= x < m /\ (a * x) mod m = 1) /\
  (Z.gcd a m <> 1 -> modulo_inverse a m = RuntimeError).
Proof.
  intros Ha Hm. destruct (loop_start 63 a m Ha Hm (mul31 a m Ha Hm)) as (a' & m1 & f & fl & E & I & L & M1 & F).
  destruct I as [I0 I1 I2 I3 I4 I5 I6]. unfold modulo_inverse.
  replace (a <=? 0) with false by (symmetry; apply Z.leb_gt; lia).
  replace (m <=? 1) with false by (symmetry; apply Z.leb_gt; lia). cbn [orb]. change 65%nat with (S (S 63)). rewrite E.
  assert (a' = 0 \/ a' = 1) as [-> | ->] by lia; split; intros G.
  - exfalso. rewrite Z.gcd_0_l in I4. lia.
  - reflexivity.
  - change (1 =? 0) with false. cbv iota. destruct (Z.geb_spec f 0) as [H0|H0].
    + exists f. split; [reflexivity|]. split; [lia|].
      rewrite <- (Z.mod_small 1 m) by lia. apply mod_cong; [lia | exact I2].
    + exists (f + m). split; [reflexivity|]. split; [lia|].
      rewrite <- (Z.mod_small 1 m) by lia. apply mod_cong; [lia|].
      rewrite <- I2. exists a. ring.
  - exfalso. rewrite Z.gcd_1_l in I4. lia.
Qed.

(** ** modulo *)

Lemma mod_e_spec m : 0 < m < 2 ^ 31 -> 0 <= mod_e m <= 31 /\ m <= 2 ^ mod_e m /\ (1 < m -> 2 ^ mod_e m < 2 * m).
Proof.
  intros Hm. unfold mod_e. rewrite log2_ceil_eq; cycle 1.
  { apply exact_sint; lia. } { cbn [sint_t t_max t_width]; lia. } { cbn [sint_t t_max]; lia. }
  { cbn [sint_t t_max]; lia. }
  split; [split; [apply Z.log2_up_nonneg | apply Z.log2_up_le_pow2; lia]|].
  destruct (Z.eq_dec m 1) as [-> | Hne]; [cbn; lia|].
  assert (U := Z.log2_up_spec m ltac:(lia)). assert (P := Z.log2_up_pos m ltac:(lia)).
  split; [lia|]. intros _. replace (Z.log2_up m) with (Z.succ (Z.pred (Z.log2_up m))) by lia.
  rewrite Z.pow_succ_r by lia. lia.
Qed.

Lemma land_mod_mask m x : 0 < m < 2 ^ 31 -> Z.land x (mod_mask m) = x mod 2 ^ mod_e m.
Proof.
  intros Hm. destruct (mod_e_spec m Hm) as (E & _). unfold mod_mask.
  rewrite <- Z.land_ones by lia. rewrite Z.ones_equiv. reflexivity.
Qed.

Lemma csub_mod m c y : 0 < m -> csub (c * m) y mod m = y mod m.
Proof.
  intros Hm. unfold csub. destruct (Z.geb_spec y (c * m)); [|reflexivity].
  replace (y - c * m) with (y + - c * m) by ring. apply Z.mod_add. lia.
Qed.

Lemma csub_range c y : 0 <= y < 2 * c -> 0 <= csub c y < c.
Proof. intros H. unfold csub. destruct (Z.geb_spec y c); lia. Qed.

(** One folding step preserves the residue; [b] bounds the quotient. *)
Lemma fold_step m x b : 0 < m < 2 ^ 31 -> 0 <= x -> x / 2 ^ mod_e m <= b -> 0 <= b < 2 ^ 34 ->
  0 <= mod_k m < 2 ^ 16 ->
  fold_k m x = x mod 2 ^ mod_e m + x / 2 ^ mod_e m * mod_k m /\ fold_k m x mod m = x mod m /\
  0 <= fold_k m x <= 2 ^ mod_e m - 1 + b * mod_k m.
Proof.
  intros Hm Hx Hb Hb2 Hk. destruct (mod_e_spec m Hm) as (E & G & _).
  assert (P : 0 < 2 ^ mod_e m) by (apply Z.pow_pos_nonneg; lia).
  assert (P2 : 2 ^ mod_e m <= 2 ^ 31) by (apply Z.pow_le_mono_r; lia).
  assert (D := Z.div_mod x (2 ^ mod_e m) ltac:(lia)). assert (M := Z.mod_pos_bound x (2 ^ mod_e m) P).
  assert (Q : 0 <= x / 2 ^ mod_e m) by (apply Z.div_pos; lia).
  unfold fold_k. rewrite land_mod_mask, Z.shiftr_div_pow2 by lia.
  set (h := x / 2 ^ mod_e m) in *. set (l := x mod 2 ^ mod_e m) in *.
  assert (B : 0 <= h * mod_k m <= b * mod_k m).
  { split; [apply Z.mul_nonneg_nonneg; lia | apply Z.mul_le_mono_nonneg_r; lia]. }
  assert (b * mod_k m <= 2 ^ 34 * 2 ^ 16) by (apply Z.mul_le_mono_nonneg; lia).
  rewrite (wrap64_small (h * mod_k m)) by lia. rewrite wrap64_small by lia.
  split; [reflexivity|]. split; [|lia].
  apply mod_cong; [lia|]. rewrite D. unfold mod_k. exists (-h). ring.
Qed.

(** The partially reduced value lies below (r+1)*m. *)
Lemma fold_twice m r x : 0 < m < 2 ^ 31 -> 1 <= r <= 7 -> 0 <= x <= r * (m - 1) ^ 2 ->
  mod_k m * (mod_k m + 2) <= m ->
  0 <= fold_k m (fold_k m x) < (r + 1) * m /\ fold_k m (fold_k m x) mod m = x mod m.
Proof.
  intros Hm Hr Hx Hkm. destruct (mod_e_spec m Hm) as (E & G & _).
  assert (P : 0 < 2 ^ mod_e m) by (apply Z.pow_pos_nonneg; lia).
  assert (P2 : 2 ^ mod_e m <= 2 ^ 31) by (apply Z.pow_le_mono_r; lia).
  assert (Kd : mod_k m = 2 ^ mod_e m - m) by reflexivity.
  set (k := mod_k m) in *. assert (K0 : 0 <= k) by lia.
  assert (K1 : k < 2 ^ 16).
  { destruct (Z.lt_ge_cases k (2 ^ 16)) as [|C]; [assumption|].
    assert (2 ^ 16 * (2 ^ 16) <= k * (k + 2)) by (apply Z.mul_le_mono_nonneg; lia). lia. }
  assert (R1 : 0 <= r * (m - 1)) by (apply Z.mul_nonneg_nonneg; lia).
  assert (R2 : r * (m - 1) <= 7 * (m - 1)) by (apply Z.mul_le_mono_nonneg_r; lia).
  assert (H1 : x / 2 ^ mod_e m <= r * (m - 1)).
  { apply Z.div_le_upper_bound; [lia|].
    assert (r * (m - 1) ^ 2 <= 2 ^ mod_e m * (r * (m - 1))); [|lia].
    replace (r * (m - 1) ^ 2) with ((m - 1) * (r * (m - 1))) by ring.
    apply Z.mul_le_mono_nonneg_r; lia. }
  destruct (fold_step m x (r * (m - 1)) Hm ltac:(lia) H1 ltac:(lia) ltac:(fold k; lia)) as (_ & M1 & B1).
  fold k in B1. set (x1 := fold_k m x) in *.
  assert (RK : 0 <= r * k) by (apply Z.mul_nonneg_nonneg; lia).
  assert (RK2 : r * k <= 7 * k) by (apply Z.mul_le_mono_nonneg_r; lia).
  assert (H2 : x1 / 2 ^ mod_e m <= r * k).
  { apply Z.lt_succ_r. apply Z.div_lt_upper_bound; [lia|].
    assert (r * (m - 1) * k <= r * k * (2 ^ mod_e m)); [|lia].
    replace (r * (m - 1) * k) with (r * k * (m - 1)) by ring. apply Z.mul_le_mono_nonneg_l; lia. }
  destruct (fold_step m x1 (r * k) Hm ltac:(lia) H2 ltac:(lia) ltac:(fold k; lia)) as (_ & M2 & B2).
  fold k in B2. split; [|congruence]. split; [lia|].
  assert (KK : k * k <= m - 2 * k) by lia.
  assert (r * (k * k) <= r * (m - 2 * k)) by (apply Z.mul_le_mono_nonneg_l; lia).
  replace (r * k * k) with (r * (k * k)) in B2 by ring.
  replace (r * (m - 2 * k)) with (r * m - 2 * (r * k)) in * by ring.
  assert (1 * k <= r * k) by (apply Z.mul_le_mono_nonneg_r; lia). lia.
Qed.

Lemma fold_mersenne m r x : 0 < m < 2 ^ 31 -> 1 <= r <= 7 -> 0 <= x <= r * (m - 1) ^ 2 -> mod_mask m = m ->
  let y := Z.land x (mod_mask m) + Z.shiftr x (mod_e m) in
  0 <= y < (r + 1) * m /\ y mod m = x mod m.
Proof.
  intros Hm Hr Hx Hmask y. destruct (mod_e_spec m Hm) as (E & G & _).
  assert (P : 0 < 2 ^ mod_e m) by (apply Z.pow_pos_nonneg; lia).
  unfold y. rewrite land_mod_mask, Z.shiftr_div_pow2 by lia. clear y.
  unfold mod_mask in Hmask. assert (P2 : 2 ^ mod_e m = m + 1) by lia. rewrite P2 in *.
  assert (D := Z.div_mod x (m + 1) ltac:(lia)). assert (M := Z.mod_pos_bound x (m + 1) ltac:(lia)).
  assert (Q : 0 <= x / (m + 1)) by (apply Z.div_pos; lia).
  set (h := x / (m + 1)) in *. set (l := x mod (m + 1)) in *.
  assert (H1 : h <= r * (m - 1)).
  { apply Z.div_le_upper_bound; [lia|].
    assert (r * (m - 1) ^ 2 <= (m + 1) * (r * (m - 1))); [|lia].
    replace (r * (m - 1) ^ 2) with ((m - 1) * (r * (m - 1))) by ring.
    apply Z.mul_le_mono_nonneg_r; [apply Z.mul_nonneg_nonneg; lia | lia]. }
  split; [replace ((r + 1) * m) with (m + r * (m - 1) + r) by ring; lia|].
  apply mod_cong; [lia|]. rewrite D. exists (-h). ring.
Qed.

Lemma csub1 m y : 0 < m -> 0 <= y < 2 * m -> csub m y = y mod m.
Proof.
  intros Hm Hy. rewrite <- (csub_mod m 1 y) by lia. rewrite Z.mul_1_l. symmetry. apply Z.mod_small, csub_range. lia.
Qed.
Lemma csub2 m y : 0 < m -> 0 <= y < 4 * m -> csub m (csub (2 * m) y) = y mod m.
Proof.
  intros Hm Hy. rewrite csub1; [apply csub_mod; lia | lia | apply csub_range; lia].
Qed.
Lemma csub3 m y : 0 < m -> 0 <= y < 8 * m -> csub m (csub (2 * m) (csub (4 * m) y)) = y mod m.
Proof.
  intros Hm Hy. rewrite csub2; [apply csub_mod; lia | lia |].
  assert (H := csub_range (4 * m) y ltac:(lia)). lia.
Qed.

Lemma modulo_spec m r x : 0 < m < 2 ^ 31 -> 1 <= r <= 7 -> 0 <= x <= r * (m - 1) ^ 2 ->
  modulo m r x = x mod m.
Proof.
  intros Hm Hr Hx. unfold modulo. transitivity (to_int32 (x mod m)).
  2: { unfold to_int32. assert (B := Z.mod_pos_bound x m ltac:(lia)). rewrite (Z.mod_small (x mod m)) by lia.
       replace (x mod m >=? 2 ^ 31) with false by lia. reflexivity. }
  f_equal.
  assert (Hrm : r < 2 -> (r + 1) * m <= 2 * m) by (intros; apply Z.mul_le_mono_nonneg_r; lia).
  assert (Hrm2 : r < 4 -> (r + 1) * m <= 4 * m) by (intros; apply Z.mul_le_mono_nonneg_r; lia).
  assert (Hrm3 : (r + 1) * m <= 8 * m) by (intros; apply Z.mul_le_mono_nonneg_r; lia).
  destruct (Z.ltb_spec r 2) as [L2|G2]; [|destruct (Z.ltb_spec r 4) as [L4|G4]].
  - unfold modulo_0. destruct (Z.eqb_spec (mod_mask m) m) as [E|_].
    + destruct (fold_mersenne m r x Hm Hr Hx E) as (B & C). cbv zeta in B, C.
      unfold wrap32. rewrite Z.mod_small by lia. rewrite <- C. apply csub1; lia.
    + destruct (Z.leb_spec (mod_k m * (mod_k m + 2)) m) as [L|_]; [|reflexivity].
      destruct (fold_twice m r x Hm Hr Hx L) as (B & C). rewrite <- C. apply csub1; lia.
  - unfold modulo_1. destruct (Z.eqb_spec (mod_mask m) m) as [E|_].
    + destruct (fold_mersenne m r x Hm Hr Hx E) as (B & C). cbv zeta in B, C.
      rewrite wrap64_small by lia. rewrite <- C. apply csub2; lia.
    + destruct (Z.leb_spec (mod_k m * (mod_k m + 2)) m) as [L|_]; [|reflexivity].
      destruct (fold_twice m r x Hm Hr Hx L) as (B & C). rewrite <- C. apply csub2; lia.
  - unfold modulo_2. destruct (Z.eqb_spec (mod_mask m) m) as [E|_].
    + destruct (fold_mersenne m r x Hm Hr Hx E) as (B & C). cbv zeta in B, C.
      rewrite wrap64_small by lia. rewrite <- C. apply csub3; lia.
    + destruct (Z.leb_spec (mod_k m * (mod_k m + 2)) m) as [L|_]; [|reflexivity].
      destruct (fold_twice m r x Hm Hr Hx L) as (B & C). rewrite <- C. apply csub3; lia.
Qed.

Lemma modulo1_mul m x y : 1 < m < 2 ^ 31 -> 0 <= x < m -> 0 <= y < m -> modulo m 1 (x * y) = (x * y) mod m.
Proof.
  intros Hm Hx Hy. apply modulo_spec; [lia | lia |]. split; [apply Z.mul_nonneg_nonneg; lia|].
  rewrite Z.mul_1_l, Z.pow_2_r. apply Z.mul_le_mono_nonneg; lia.
Qed.

(** ** power *)
Lemma power_loop_spec fuel : forall m p t n, 1 < m < 2 ^ 31 -> 0 <= p < m -> 0 <= t < m ->
  0 <= n < 2 ^ Z.of_nat fuel -> power_loop fuel m p t n = (p * t ^ n) mod m.
Proof.
  induction fuel; intros m p t n Hm Hp Ht Hn.
  - change (2 ^ Z.of_nat 0) with 1 in Hn. replace n with 0 by lia. cbn [power_loop].
    rewrite Z.pow_0_r, Z.mul_1_r. symmetry. apply Z.mod_small. lia.
  - cbn [power_loop]. destruct (Z.gtb_spec n 0) as [G|L].
    2:{ replace n with 0 by lia. rewrite Z.pow_0_r, Z.mul_1_r. symmetry. apply Z.mod_small. lia. }
    rewrite Z.quot_div_nonneg by lia.
    assert (D := Z.div_mod n 2 ltac:(lia)). assert (M := Z.mod_pos_bound n 2 ltac:(lia)).
    rewrite Nat2Z.inj_succ, Z.pow_succ_r in Hn by lia.
    change (Z.land n 1) with (Z.land n (Z.ones 1)). rewrite Z.land_ones by lia. change (2 ^ 1) with 2.
    rewrite (modulo1_mul m t t) by lia. assert (0 <= n / 2) by (apply Z.div_pos; lia).
    assert (B := Z.mod_pos_bound (t * t) m ltac:(lia)).
    assert (SQ : cong m (((t * t) mod m) ^ (n / 2)) (t ^ (2 * (n / 2)))).
    { rewrite cong_mod. rewrite <- Z.pow_2_r, <- Z.pow_mul_r by lia. reflexivity. }
    destruct (Z.eqb_spec (n mod 2) 1) as [O|Ev].
    + rewrite (modulo1_mul m p t) by lia. assert (B2 := Z.mod_pos_bound (p * t) m ltac:(lia)).
      rewrite IHfuel by lia. apply mod_cong; [lia|]. rewrite SQ, cong_mod, <- Z.mul_assoc.
      rewrite <- Z.pow_succ_r by lia. replace (Z.succ (2 * (n / 2))) with n by lia. reflexivity.
    + rewrite IHfuel by lia. apply mod_cong; [lia|]. rewrite SQ.
      replace (2 * (n / 2)) with n by lia. reflexivity.
Qed.

Lemma power_pow_spec m b n : 1 < m < 2 ^ 31 -> 0 <= b < m -> 0 <= n < 2 ^ 31 -> power_pow m b n = b ^ n mod m.
Proof.
  intros Hm Hb Hn. unfold power_pow. rewrite power_loop_spec; [f_equal; lia | lia | lia | lia |].
  change (Z.of_nat 32) with 32. lia.
Qed.

Lemma power_spec m b n : 1 < m < 2 ^ 31 -> 0 <= b < m -> 0 <= n < 2 ^ 31 -> power m b n = Some (b ^ n mod m).
Proof.
  intros Hm Hb Hn. unfold power. cbv zeta.
  rewrite Z.shiftr_div_pow2 by lia. change (Z.land n 65535) with (Z.land n (Z.ones 16)).
  rewrite Z.land_ones by lia. change (2 ^ 16) with 65536.
  assert (D := Z.div_mod n 65536 ltac:(lia)). assert (M := Z.mod_pos_bound n 65536 ltac:(lia)).
  assert (0 <= n / 65536 < 32768) by (split; [apply Z.div_pos | apply Z.div_lt_upper_bound]; lia).
  replace (0 <=? n / 65536) with true by (symmetry; apply Z.leb_le; lia).
  replace (n / 65536 <? 32768) with true by (symmetry; apply Z.ltb_lt; lia). cbn [andb].
  rewrite !power_pow_spec by lia.
  assert (B1 := Z.mod_pos_bound (b ^ (n / 65536 * 65536)) m ltac:(lia)).
  assert (B2 := Z.mod_pos_bound (b ^ (n mod 65536)) m ltac:(lia)).
  rewrite modulo1_mul by lia. f_equal. rewrite <- Z.mul_mod, <- Z.pow_add_r by lia. f_equal. f_equal. lia.
Qed.
