(** Properties C21, C23, C24, C58: the integer helpers of trng/int_math.hpp. *)
From Coq Require Import ZArith Znumtheory List Bool Lia.
From Verif Require Import Base BaseFacts IntMathModel IntMathProofs.
Open Scope Z_scope.

(** ** C21: modulo_inverse on all int32_t arguments *)
Theorem C21_modulo_inverse : forall a m, - 2 ^ 31 <= a < 2 ^ 31 -> - 2 ^ 31 <= m < 2 ^ 31 ->
  (a <= 0 \/ m <= 1 -> modulo_inverse a m = InvalidArgument) /\
  (0 < a -> 1 < m -> Z.gcd a m = 1 ->
     exists x, modulo_inverse a m = Val x /\ 0 <= x < m /\ (a * x) mod m = 1) /\
  (0 < a -> 1 < m -> Z.gcd a m <> 1 -> modulo_inverse a m = RuntimeError).
Proof.
  intros a m Ha Hm. split; [|split].
  - intros H. unfold modulo_inverse. destruct H.
    + replace (a <=? 0) with true by (symmetry; apply Z.leb_le; lia). reflexivity.
    + replace (m <=? 1) with true by (symmetry; apply Z.leb_le; lia). rewrite orb_true_r. reflexivity.
  - intros A M. apply modulo_inverse_spec; lia.
  - intros A M. apply modulo_inverse_spec; lia.
Qed.
Print Assumptions C21_modulo_inverse.

(** In particular every nonzero residue of a prime modulus has its inverse returned. *)
Theorem C21_modulo_inverse_prime : forall a m, prime m -> m < 2 ^ 31 -> 0 < a < m ->
  exists x, modulo_inverse a m = Val x /\ 0 < x < m /\ (a * x) mod m = 1.
Proof.
  intros a m P Hm Ha. assert (H2 := prime_ge_2 m P).
  destruct (proj1 (modulo_inverse_spec a m ltac:(lia) ltac:(lia))) as (x & E & B & I).
  { apply Zgcd_1_rel_prime. apply rel_prime_le_prime; [exact P | lia]. }
  exists x. split; [exact E|]. split; [|exact I].
  assert (x <> 0); [|lia]. intros ->. rewrite Z.mul_0_r, Z.mod_0_l in I by lia. discriminate I.
Qed.
Print Assumptions C21_modulo_inverse_prime.

Example C21_case : modulo_inverse 1234567 2147483647 = Val 934930065 /\
  modulo_inverse 6 4 = RuntimeError /\ modulo_inverse 7 5 = Val 3 /\ modulo_inverse 0 5 = InvalidArgument.
Proof. repeat split; vm_compute; reflexivity. Qed.

(** ** C23: modulo<m,r>(x) for every modulus and every class that exists (r = 1..7) *)
Theorem C23_modulo : forall m r x, 0 < m < 2 ^ 31 -> 1 <= r <= 7 -> word 64 x -> x <= r * (m - 1) ^ 2 ->
  modulo m r x = x mod m.
Proof. intros m r x Hm Hr Hw Hx. apply modulo_spec; [exact Hm | exact Hr |]. unfold word in Hw. lia. Qed.
Print Assumptions C23_modulo.

Example C23_case : modulo 2147462579 3 13834000000000000000 = 13834000000000000000 mod 2147462579 /\
  13834000000000000000 <= 3 * (2147462579 - 1) ^ 2 /\ mod_k 2147462579 = 21069.
Proof. repeat split; vm_compute; congruence. Qed.

(** The bound matters: modulo_helper<m,0> on a larger x can return a value that is not reduced. *)
Theorem C23_modulo_range_refuted : exists m x, 0 < m < 2 ^ 31 /\ word 64 x /\ modulo m 1 x <> x mod m /\ ~ 0 <= modulo m 1 x < m.
Proof.
  exists 2147483647, ((2 ^ 32 - 1) * 2 ^ 31). unfold word.
  assert (E : modulo 2147483647 1 ((2 ^ 32 - 1) * 2 ^ 31) = - 2147483648) by (vm_compute; reflexivity). rewrite E.
  assert (P := Z.mod_pos_bound ((2 ^ 32 - 1) * 2 ^ 31) 2147483647 ltac:(lia)). repeat split; lia.
Qed.
Print Assumptions C23_modulo_range_refuted.

(** ** C24: the power tables *)
Theorem C24_power : forall m b n, 1 < m < 2 ^ 31 -> 0 <= b < m -> 0 <= n < 2 ^ 31 ->
  power m b n = Some (b ^ n mod m).
Proof. exact power_spec. Qed.
Print Assumptions C24_power.

Example C24_case : power 2147483647 123567893 70000 = Some (power_pow 2147483647 123567893 70000) /\
  power 2147483647 123567893 3 = Some (123567893 ^ 3 mod 2147483647).
Proof. split; vm_compute; reflexivity. Qed.

(** ** C58: helpers on unsigned types of 2..64 bits and on the nonnegative values of signed types *)

Definition least (P : Z -> Prop) (v : Z) : Prop := P v /\ forall u, P u -> v <= u.
Definition power_of_two (v : Z) : Prop := exists k, 0 <= k /\ v = 2 ^ k.

(** The types of the statement. *)
Definition helper_type (T : inttype) : Prop :=
  (exists w, 2 <= w <= 64 /\ T = uint_t w) \/ (exists w, 3 <= w <= 64 /\ T = sint_t w).

Lemma helper_type_props T : helper_type T ->
  exact_type T /\ t_max T < 2 ^ t_width T /\ t_max T < 2 ^ 64.
Proof.
  intros [(w & Hw & ->) | (w & Hw & ->)].
  - assert (2 ^ w <= 2 ^ 64) by (apply Z.pow_le_mono_r; lia).
    split; [apply exact_uint; lia|]. cbn [uint_t t_max t_width]. lia.
  - assert (2 ^ (w - 1) <= 2 ^ w) by (apply Z.pow_le_mono_r; lia).
    assert (2 ^ w <= 2 ^ 64) by (apply Z.pow_le_mono_r; lia).
    split; [apply exact_sint; lia|]. cbn [sint_t t_max t_width]. lia.
Qed.

Theorem C58_log2_floor : forall T x, helper_type T -> 1 <= x <= t_max T ->
  exists k, log2_floor T x = Some k /\ 0 <= k /\ 2 ^ k <= x < 2 ^ (k + 1).
Proof.
  intros T x HT Hx. destruct (helper_type_props T HT) as (E & W & M). exists (Z.log2 x).
  split; [apply log2_floor_eq; [exact E | lia | lia]|].
  split; [apply Z.log2_nonneg|]. replace (Z.log2 x + 1) with (Z.succ (Z.log2 x)) by lia.
  apply Z.log2_spec. lia.
Qed.
Print Assumptions C58_log2_floor.

Lemma log2_up_least x : 1 <= x -> least (fun k => 0 <= k /\ x <= 2 ^ k) (Z.log2_up x).
Proof.
  intros Hx. split.
  - split; [apply Z.log2_up_nonneg|]. destruct (Z.eq_dec x 1) as [-> | N]; [cbn; lia|].
    apply Z.log2_up_spec. lia.
  - intros u (U & L). apply Z.log2_up_le_pow2; lia.
Qed.

Lemma log2_up_least_pow x : 1 <= x -> least (fun v => power_of_two v /\ x <= v) (2 ^ Z.log2_up x).
Proof.
  intros Hx. destruct (log2_up_least x Hx) as ((P0 & P1) & L). split.
  - split; [exists (Z.log2_up x); split; [exact P0 | reflexivity] | exact P1].
  - intros u ((k & Hk & ->) & G). apply Z.pow_le_mono_r; [lia|]. apply L. split; assumption.
Qed.

Theorem C58_log2_ceil : forall T x, helper_type T -> 1 <= x <= t_max T ->
  exists k, log2_ceil T x = Some k /\ least (fun k => 0 <= k /\ x <= 2 ^ k) k.
Proof.
  intros T x HT Hx. destruct (helper_type_props T HT) as (E & W & M). exists (Z.log2_up x).
  split; [apply log2_ceil_eq; [exact E | exact W | lia | lia] | apply log2_up_least; lia].
Qed.
Print Assumptions C58_log2_ceil.

(** ceil2, whenever the result is representable (any representable power of two at or above x suffices). *)
Theorem C58_ceil2 : forall T x v, helper_type T -> 1 <= x -> power_of_two v -> x <= v <= t_max T ->
  exists r, ceil2 T x = Some r /\ least (fun v => power_of_two v /\ x <= v) r.
Proof.
  intros T x v HT Hx Hp Hv. destruct (helper_type_props T HT) as (E & W & M).
  assert (L := log2_up_least_pow x ltac:(lia)). exists (2 ^ Z.log2_up x). split; [|exact L].
  assert (B : 2 ^ Z.log2_up x <= v) by (apply (proj2 L); split; [exact Hp | lia]).
  assert (O : exists w, 2 <= w /\ t_max T = 2 ^ w - 1).
  { destruct HT as [(w & ? & ->) | (w & ? & ->)]; [exists w | exists (w - 1)]; split; (lia || reflexivity). }
  destruct O as (w & Hw & O).
  assert (x < t_max T).
  { destruct (Z.eq_dec x (t_max T)) as [Ex|]; [exfalso | lia].
    destruct Hp as (k & Hk & ->). assert (Q : 2 ^ k = 2 ^ w - 1) by lia.
    assert (2 ^ 2 <= 2 ^ w) by (apply Z.pow_le_mono_r; lia).
    assert (1 <= k) by (destruct (Z.eq_dec k 0) as [-> |]; [cbn in Q; lia | lia]).
    replace k with (Z.succ (k - 1)) in Q by lia. replace w with (Z.succ (w - 1)) in Q by lia.
    rewrite !Z.pow_succ_r in Q by lia. lia. }
  apply ceil2_eq; [exact E | lia | lia | lia].
Qed.
Print Assumptions C58_ceil2.

(** mask on unsigned types: for every value, including those for which ceil2(x+1) wraps. *)
Theorem C58_mask : forall w x, 2 <= w <= 64 -> word w x ->
  exists r, mask (uint_t w) x = Some r /\
            least (fun r => exists k, 0 <= k /\ r = 2 ^ k - 1 /\ x <= r) r.
Proof.
  intros w x Hw Hx. unfold word in Hx. exists (2 ^ Z.log2_up (x + 1) - 1).
  split; [apply mask_uint_eq; lia|]. destruct (log2_up_least (x + 1) ltac:(lia)) as ((P0 & P1) & L).
  split; [exists (Z.log2_up (x + 1)); repeat split; lia|].
  intros u (k & Hk & -> & G).
  assert (2 ^ Z.log2_up (x + 1) <= 2 ^ k); [|lia]. apply Z.pow_le_mono_r; [lia|]. apply L. lia.
Qed.
Print Assumptions C58_mask.

(** On a signed type mask is only defined below 2^(w-2). *)
Theorem C58_mask_signed : forall w x, 3 <= w <= 64 -> 0 <= x < 2 ^ (w - 2) ->
  exists r, mask (sint_t w) x = Some r /\
            least (fun r => exists k, 0 <= k /\ r = 2 ^ k - 1 /\ x <= r) r.
Proof.
  intros w x Hw Hx. exists (2 ^ Z.log2_up (x + 1) - 1).
  split; [apply mask_sint_eq; lia|]. destruct (log2_up_least (x + 1) ltac:(lia)) as ((P0 & P1) & L).
  split; [exists (Z.log2_up (x + 1)); repeat split; lia|].
  intros u (k & Hk & -> & G).
  assert (2 ^ Z.log2_up (x + 1) <= 2 ^ k); [|lia]. apply Z.pow_le_mono_r; [lia|]. apply L. lia.
Qed.
Print Assumptions C58_mask_signed.

(** mask<int>(2^30) overflows although the answer 2^31-1 is representable. *)
Theorem C58_mask_signed_refuted : exists x, 0 <= x <= t_max (sint_t 32) /\ mask (sint_t 32) x = None.
Proof. exists (2 ^ 30). split; [cbn; lia | vm_compute; reflexivity]. Qed.
Print Assumptions C58_mask_signed_refuted.

Example C58_case : log2_floor (uint_t 64) 1000 = Some 9 /\ log2_ceil (sint_t 32) 2147462579 = Some 31 /\
  ceil2 (uint_t 32) 1000 = Some 1024 /\ mask (uint_t 64) (2 ^ 63 + 5) = Some (2 ^ 64 - 1) /\
  mask (uint_t 32) 9689 = Some 16383 /\ helper_type (uint_t 64).
Proof.
  do 5 (split; [vm_compute; reflexivity|]). left. exists 64. split; [lia | reflexivity].
Qed.
