(** 128-bit integers: arithmetic of the portable class (C33, C34) and text (C35). *)
From Coq Require Import String ZArith List Bool Lia.
From Verif Require Import Base BaseFacts Cong IntMathModel Uint128Model Uint128Proofs StreamModel StreamProofs.
Import ListNotations.
Open Scope Z_scope.

(** [uval a] = hi * 2^64 + lo is the number an object stands for, [uok a] says both halves are 64-bit words. *)

(** ** C33 *)
Theorem C33_add_sub_mul : forall a b, uok a -> uok b ->
  (uok (u_add a b) /\ uval (u_add a b) = (uval a + uval b) mod 2 ^ 128) /\
  (uok (u_sub a b) /\ uval (u_sub a b) = (uval a - uval b) mod 2 ^ 128) /\
  (uok (u_mul a b) /\ uval (u_mul a b) = (uval a * uval b) mod 2 ^ 128).
Proof.
  intros a b Ha Hb. split; [|split].
  - split; [apply u_add_ok | apply u_add_val]; assumption.
  - split; [apply u_sub_ok | apply u_sub_val]; assumption.
  - apply u_mul_val; assumption.
Qed.
Print Assumptions C33_add_sub_mul.

Theorem C33_unary : forall a, uok a ->
  (uok (u_inc a) /\ uval (u_inc a) = (uval a + 1) mod 2 ^ 128) /\
  (uok (u_dec a) /\ uval (u_dec a) = (uval a - 1) mod 2 ^ 128) /\
  (uok (u_neg a) /\ uval (u_neg a) = (- uval a) mod 2 ^ 128) /\
  (uok (u_not a) /\ uval (u_not a) = 2 ^ 128 - 1 - uval a).
Proof. intros a Ha. repeat split; try apply u_inc_val; try apply u_dec_val; try apply u_neg_val; try apply u_not_val; assumption. Qed.
Print Assumptions C33_unary.

Theorem C33_bitwise : forall a b, uok a -> uok b ->
  (uok (u_or a b) /\ uval (u_or a b) = Z.lor (uval a) (uval b)) /\
  (uok (u_and a b) /\ uval (u_and a b) = Z.land (uval a) (uval b)) /\
  (uok (u_xor a b) /\ uval (u_xor a b) = Z.lxor (uval a) (uval b)).
Proof. exact u_bitwise. Qed.
Print Assumptions C33_bitwise.

Theorem C33_compare : forall a b, uok a -> uok b ->
  u_eqb a b = (uval a =? uval b) /\ u_neb a b = negb (uval a =? uval b) /\ u_ltb a b = (uval a <? uval b) /\
  u_leb a b = (uval a <=? uval b) /\ u_gtb a b = (uval a >? uval b) /\ u_geb a b = (uval a >=? uval b).
Proof. exact u_cmp. Qed.
Print Assumptions C33_compare.

(** Shifts by less than 128 in either direction; a negative count shifts the other way. *)
Theorem C33_shift : forall a s, uok a -> -128 < s < 128 ->
  (exists b, u_shl a s = Some b /\ uok b /\
     uval b = if s <? 0 then uval a / 2 ^ (- s) else (uval a * 2 ^ s) mod 2 ^ 128) /\
  (exists b, u_shr a s = Some b /\ uok b /\
     uval b = if s <? 0 then (uval a * 2 ^ (- s)) mod 2 ^ 128 else uval a / 2 ^ s).
Proof.
  intros a s Ha Hs. unfold u_shl, u_shr. destruct (Z.ltb_spec s 0).
  - split; [apply u_shr_val | apply u_shl_val]; try assumption; lia.
  - split; [apply u_shl_val | apply u_shr_val]; try assumption; lia.
Qed.
Print Assumptions C33_shift.
(** From 128 on the shift is undefined behaviour, not zero. *)
Theorem C33_shift_128_refuted : exists a, uok a /\ u_shl a 128 = None /\ u_shr a 128 = None.
Proof. exists (U128 1 1). split; [split; split; cbn; lia|]. split; reflexivity. Qed.
Print Assumptions C33_shift_128_refuted.

Theorem C33_conversion : forall a, uok a -> u_to64 a = uval a mod 2 ^ 64 /\ u_get_lo a = uval a mod 2 ^ 64 /\
  forall x, word 64 x -> uok (u_of64 x) /\ uval (u_of64 x) = x.
Proof.
  intros a (_ & L). unfold u_to64, u_get_lo, uval. rewrite Z.add_comm, Z.mod_add, Z.mod_small by (try exact L; discriminate).
  split; [reflexivity|]. split; [reflexivity|]. intros x Hx. split; [split; [exact (w64 0) | exact Hx] | reflexivity].
Qed.
Print Assumptions C33_conversion.
(** hi() is the upper half only when the halves are equal. *)
Theorem C33_hi_wrong : forall a, uok a -> u_get_hi a = uval a / 2 ^ 64 <-> u_hi a = u_lo a.
Proof.
  intros a (_ & L). unfold u_get_hi, uval. rewrite Z.div_add_l, (Z.div_small (u_lo a)), Z.add_0_r by (try exact L; discriminate).
  split; intros E; symmetry; exact E.
Qed.
Print Assumptions C33_hi_wrong.
Theorem C33_hi_refuted : exists a, uok a /\ uval a = 2 ^ 64 /\ u_get_hi a = 0.
Proof. exists (U128 1 0). split; [split; split; cbn; lia|]. split; reflexivity. Qed.
Print Assumptions C33_hi_refuted.

Example C33_example : uok (U128 5 (2 ^ 64 - 1)) /\ u_mul (U128 5 (2 ^ 64 - 1)) (U128 0 2) = U128 11 (2 ^ 64 - 2).
Proof. split; [split; split; cbn; lia | vm_compute; reflexivity]. Qed.

(** ** C34 *)
Theorem C34_division : forall a b, uok a -> uok b -> uval b <> 0 ->
  uok (u_div a b) /\ uval (u_div a b) = uval a / uval b /\ uok (u_mod a b) /\ uval (u_mod a b) = uval a mod uval b.
Proof. exact u_divmod_val. Qed.
Print Assumptions C34_division.

(** A zero divisor is answered: all ones and the dividend (the native type: undefined behaviour). *)
Lemma div_loop_zero other w : uok other -> uval other = 0 -> word 64 w -> forall n q r, (n <= 64)%nat -> uok r ->
  uval r * 2 ^ Z.of_nat n + w mod 2 ^ Z.of_nat n < 2 ^ 128 -> (2 ^ Z.of_nat n | q) ->
  exists r', div_loop other w n q r = (q + (2 ^ Z.of_nat n - 1), r') /\ uok r' /\
    uval r' = uval r * 2 ^ Z.of_nat n + w mod 2 ^ Z.of_nat n.
Proof.
  intros Ho E0 Hw. induction n as [|i IH]; intros q r Hn Hr Hb Hq.
  - exists r. cbn [div_loop]. change (2 ^ Z.of_nat 0) with 1. rewrite Z.mod_1_r. split; [f_equal; lia|]. split; [exact Hr | lia].
  - cbn [div_loop]. replace (Z.of_nat (S i)) with (Z.of_nat i + 1) in * by lia. set (j := Z.of_nat i) in *.
    assert (Pj : 0 < 2 ^ j) by (apply Z.pow_pos_nonneg; lia). assert (R0 := uval_range r Hr). assert (M := Z.mod_pos_bound w (2 ^ j) Pj).
    rewrite bit_mod in * by (try apply Hw; lia). rewrite Z.pow_add_r in * by lia. change (2 ^ 1) with 2 in *.
    assert (B0 : 0 <= b2z (Z.testbit w j) <= 1) by (destruct (Z.testbit w j); cbn; lia).
    set (b := b2z (Z.testbit w j)) in *.
    replace (uval r * (2 ^ j * 2) + (b * 2 ^ j + w mod 2 ^ j)) with ((2 * uval r + b) * 2 ^ j + w mod 2 ^ j) in * by ring.
    destruct (div_round_val other w j q r Ho Hr Hw ltac:(lia)) as (r' & E & K & V); [right; fold b; nia|]. fold b in E, V. rewrite E, E0 in *.
    replace (2 * uval r + b >=? 0) with true in * by lia.
    destruct Hq as [k Hq]. assert (EL : Z.lor q (2 ^ j) = q + 2 ^ j) by (apply (lor_add q k); [lia|]; rewrite Z.pow_add_r by lia; exact Hq).
    destruct (IH (Z.lor q (2 ^ j)) r') as (r'' & E2 & K2 & V2); try assumption; try lia.
    { exists (2 * k + 1). rewrite EL, Hq. ring. }
    exists r''. rewrite E2, V2, V, EL. split; [f_equal; ring|]. split; [exact K2 | ring].
Qed.
Theorem C34_zero_divisor : forall a, uok a -> uval (u_div a (U128 0 0)) = 2 ^ 128 - 1 /\ u_mod a (U128 0 0) = a.
Proof.
  intros a Ha. assert (Ha' := Ha). destruct Ha' as (H & L). assert (Z0 : uok (U128 0 0)) by (split; exact (w64 0)). assert (A0 := uval_range a Ha).
  unfold u_div, u_mod, u_divmod.
  destruct (div_loop_zero (U128 0 0) (u_hi a) Z0 eq_refl H 64 0 (U128 0 0)) as (r1 & E1 & K1 & V1); try assumption; try lia.
  { change (uval (U128 0 0)) with 0. destruct H. change (Z.of_nat 64) with 64. rewrite Z.mod_small by lia. lia. }
  { apply Z.divide_0_r. }
  rewrite E1. change (uval (U128 0 0)) with 0 in *. change (Z.of_nat 64) with 64 in *.
  rewrite (Z.mod_small (u_hi a)) in * by exact H. rewrite Z.mul_0_l, !Z.add_0_l in *.
  destruct (div_loop_zero (U128 0 0) (u_lo a) Z0 eq_refl L 64 0 r1) as (r2 & E2 & K2 & V2); try assumption; try lia.
  { change (Z.of_nat 64) with 64. rewrite (Z.mod_small (u_lo a)), V1 by exact L. exact (proj2 A0). }
  { apply Z.divide_0_r. }
  rewrite E2. change (Z.of_nat 64) with 64 in *. rewrite (Z.mod_small (u_lo a)), V1 in V2 by exact L. cbn [fst snd]. split.
  - reflexivity.
  - apply uval_inj; [exact K2 | exact Ha | exact V2].
Qed.
Print Assumptions C34_zero_divisor.
Example C34_example : u_div (U128 7 3) (U128 1 1) = U128 0 6 /\ u_mod (U128 7 3) (U128 1 1) = U128 0 18446744073709551613.
Proof. vm_compute. split; reflexivity. Qed.

(** ** C35 *)
(** Specification: the value of a character as a digit, and of a numeral. *)
Definition digit_value (c : Z) : option Z :=
  if (48 <=? c) && (c <=? 57) then Some (c - 48)
  else if (97 <=? c) && (c <=? 102) then Some (c - 87)
  else if (65 <=? c) && (c <=? 70) then Some (c - 55) else None.
Definition is_digit (radix c : Z) : bool := match digit_value c with Some d => d <? radix | None => false end.
Fixpoint numeral (radix v : Z) (ds : list Z) : option Z :=
  match ds with
  | [] => Some v
  | c :: ds => match digit_value c with
               | Some d => if d <? radix then numeral radix (radix * v + d) ds else None
               | None => None
               end
  end.
Definition radix (b : basefield) : Z := match b with Oct => 8 | Dec => 10 | Hex => 16 end.
Definition blank (c : Z) : Prop := c = 32 \/ 9 <= c <= 13.
Definition is_x (c : Z) : Prop := c = 120 \/ c = 88.
(** What may follow the numeral: no further digit; in hexadecimal a lone digit must not be the last
    character of the stream nor be followed by x. *)
Definition delimited (b : basefield) (ds rest : list Z) : Prop :=
  match rest with
  | [] => b = Hex -> (2 <= length ds)%nat
  | c :: _ => is_digit (radix b) c = false /\ (b = Hex -> length ds = 1%nat -> ~ is_x c)
  end.

Definition model_digit (b : basefield) := match b with Oct => is_oct_digit | Dec => is_dec_digit | Hex => is_hex_digit end.
Definition model_value (b : basefield) := match b with Oct => (fun c => c - 48) | Dec => (fun c => c - 48) | Hex => hex_value end.
Lemma model_digit_eq b c : model_digit b c = is_digit (radix b) c.
Proof.
  unfold is_digit, digit_value. destruct b; cbn [model_digit radix]; unfold is_oct_digit, is_hex_digit, is_dec_digit;
    destruct ((48 <=? c) && (c <=? 57)) eqn:E; try destruct ((97 <=? c) && (c <=? 102)) eqn:F;
    try destruct ((65 <=? c) && (c <=? 70)) eqn:G; cbn [orb]; lia.
Qed.
Lemma model_value_eq b c : is_digit (radix b) c = true -> digit_value c = Some (model_value b c).
Proof.
  unfold is_digit, digit_value. destruct b; cbn [model_value radix]; unfold hex_value, is_dec_digit;
    destruct ((48 <=? c) && (c <=? 57)) eqn:E; try reflexivity; destruct ((97 <=? c) && (c <=? 102)) eqn:F;
    try destruct ((65 <=? c) && (c <=? 70)) eqn:G; intros H; try f_equal; try lia; try discriminate H.
Qed.
Lemma numeral_model b ds : forall r n, numeral (radix b) r ds = Some n <->
  Forall (fun c => model_digit b c = true) ds /\ n = numeral_from (radix b) (model_value b) r ds.
Proof.
  induction ds as [|c ds IH]; intros r n; cbn [numeral].
  - unfold numeral_from. cbn [fold_left]. split; [intros E; injection E as <-; split; [constructor | reflexivity] | intros [_ ->]; reflexivity].
  - change (numeral_from (radix b) (model_value b) r (c :: ds)) with (numeral_from (radix b) (model_value b) (radix b * r + model_value b c) ds).
    destruct (is_digit (radix b) c) eqn:D.
    + rewrite (model_value_eq b c D). assert (D' := D). unfold is_digit in D'. rewrite (model_value_eq b c D) in D'. rewrite D', IH.
      split; intros [F E]; (split; [|exact E]); [constructor; [rewrite model_digit_eq; exact D | exact F] | inversion F; assumption].
    + split.
      * unfold is_digit in D. destruct (digit_value c); [rewrite D|]; discriminate.
      * intros [F _]. inversion F as [|? ? H _]. rewrite model_digit_eq, D in H. discriminate H.
Qed.
Lemma blank_space c : blank c -> is_space c = true. Proof. unfold blank, is_space. lia. Qed.
Lemma digit_not_space b c : model_digit b c = true -> is_space c = false.
Proof. unfold is_space. destruct b; cbn [model_digit]; unfold is_oct_digit, is_hex_digit, is_dec_digit; lia. Qed.
Lemma x_char c : is_hex_basechar c = true <-> is_x c. Proof. unfold is_x, is_hex_basechar. lia. Qed.

(** The digit loops from the first digit on. *)
Lemma loop_reads b ds rest n : ds <> [] -> numeral (radix b) 0 ds = Some n -> delimited b ds rest -> forall k, (length ds < k)%nat ->
  reads (match b with Oct => oct_loop k 0 | Dec => dec_loop k 0 | Hex => hex_loop k 0 0 end (of_text (ds ++ rest))) n rest.
Proof.
  intros N V D k Hk. apply numeral_model in V. destruct V as [F ->].
  assert (St : stops (model_digit b) rest) by (destruct rest; [exact I | cbn [stops]; rewrite model_digit_eq; apply D]).
  destruct b; cbn [radix model_value model_digit] in *; unfold of_text.
  - apply oct_loop_reads; [exact St | exact F | exact Hk | lia].
  - apply dec_loop_reads; [exact St | exact F | exact Hk | lia].
  - destruct ds as [|c ds]; [contradiction N; reflexivity|]. inversion F as [|? ? Hc F']; subst. assert (Vc := hex_digit_val c Hc).
    destruct k as [|k]; [lia|]. cbn [app]. rewrite hex_first by exact Hc.
    change (numeral_from 16 hex_value 0 (c :: ds)) with (numeral_from 16 hex_value (hex_value c) ds).
    destruct ds as [|c2 ds].
    + destruct rest as [|c' rest]; [cbn [delimited length] in D; specialize (D eq_refl); lia|].
      destruct D as [D1 D2]. specialize (D2 eq_refl eq_refl). destruct k as [|k]; [cbn [length] in Hk; lia|]. cbn [app].
      rewrite hex_one; [|exact St | destruct (is_hex_basechar c') eqn:X; [apply x_char in X; contradiction | reflexivity]].
      unfold reads, numeral_from. cbn [fold_left]. replace (hex_value c <? 2 ^ 128) with true by lia. reflexivity.
    + inversion F' as [|? ? Hc2 F'']; subst. destruct k as [|k]; [cbn [length] in Hk; lia|]. cbn [app]. rewrite hex_second by (try exact Hc2; lia).
      assert (Vc2 := hex_digit_val c2 Hc2).
      apply (hex_loop_reads rest St ds k 2 (16 * hex_value c + hex_value c2)); [exact F'' | cbn [length] in Hk; lia | lia | lia].
Qed.

(** Reading a numeral: its value if it is below 2^128, otherwise failbit and the target is unchanged. *)
Theorem C35_read : forall b sp ds rest old n, Forall blank sp -> ds <> [] -> numeral (radix b) 0 ds = Some n -> delimited b ds rest ->
  (n < 2 ^ 128 -> u128_get b (of_text (sp ++ ds ++ rest)) old = (Istr rest (ended rest) false, n)) /\
  (2 ^ 128 <= n -> i_fail (fst (u128_get b (of_text (sp ++ ds ++ rest)) old)) = true /\ snd (u128_get b (of_text (sp ++ ds ++ rest)) old) = old).
Proof.
  intros b sp ds rest old n Hsp N V D.
  assert (R := loop_reads b ds rest n N V D (S (length (ds ++ rest))) ltac:(rewrite app_length; lia)).
  apply numeral_model in V. destruct V as [F _]. destruct ds as [|c ds]; [contradiction N; reflexivity|]. inversion F as [|? ? Hc _]; subst.
  assert (E : u128_get b (of_text (sp ++ (c :: ds) ++ rest)) old =
    let '(s, r) := match b with Oct => oct_loop (S (length ((c :: ds) ++ rest))) 0 | Dec => dec_loop (S (length ((c :: ds) ++ rest))) 0
                   | Hex => hex_loop (S (length ((c :: ds) ++ rest))) 0 0 end (of_text ((c :: ds) ++ rest)) in
    (s, match r with Some v => v | None => old end)).
  { unfold u128_get. cbn [app]. rewrite ws_text by first [eapply digit_not_space; exact Hc | eapply Forall_impl; [|exact Hsp]; exact blank_space].
    cbv zeta. unfold of_text. rewrite peek_is_cons. cbn [i_chars]. destruct b; cbn [model_digit] in Hc; rewrite Hc; reflexivity. }
  set (out := match b with Oct => _ | Dec => _ | Hex => _ end (of_text ((c :: ds) ++ rest))) in *. rewrite E. unfold reads in R. split; intros Hn.
  - replace (n <? 2 ^ 128) with true in R by lia. rewrite R. reflexivity.
  - replace (n <? 2 ^ 128) with false in R by lia. destruct out as [s r]. destruct R as [R1 R2]. cbn [fst snd] in *. subst r. split; [exact R1 | reflexivity].
Qed.
Print Assumptions C35_read.
(** The same with the prefix 0x (or 0X) in hexadecimal. *)
Theorem C35_read_prefix : forall sp x ds rest old n, Forall blank sp -> is_x x -> numeral 16 0 ds = Some n ->
  match rest with [] => True | c :: _ => is_digit 16 c = false end ->
  (n < 2 ^ 128 -> u128_get Hex (of_text (sp ++ 48 :: x :: ds ++ rest)) old = (Istr rest (ended rest) false, n)) /\
  (2 ^ 128 <= n -> i_fail (fst (u128_get Hex (of_text (sp ++ 48 :: x :: ds ++ rest)) old)) = true /\
                   snd (u128_get Hex (of_text (sp ++ 48 :: x :: ds ++ rest)) old) = old).
Proof.
  intros sp x ds rest old n Hsp Hx V D. apply (numeral_model Hex) in V. cbn [model_digit radix model_value] in V. destruct V as [F EV].
  assert (St : stops is_hex_digit rest) by (destruct rest; [exact I | cbn [stops]; rewrite (model_digit_eq Hex); exact D]).
  assert (E : u128_get Hex (of_text (sp ++ 48 :: x :: ds ++ rest)) old =
    let '(s, r) := hex_loop (S (length (ds ++ rest))) 2 0 (of_text (ds ++ rest)) in (s, match r with Some v => v | None => old end)).
  { unfold u128_get. rewrite ws_text by first [reflexivity | eapply Forall_impl; [|exact Hsp]; exact blank_space].
    cbv zeta. unfold of_text. rewrite peek_is_cons. cbn [i_chars length]. change (is_hex_digit 48) with true. cbv iota.
    rewrite hex_first by reflexivity. rewrite hex_prefix by (apply x_char, Hx). reflexivity. }
  assert (R := hex_loop_reads rest St ds (S (length (ds ++ rest))) 2 0 F ltac:(rewrite app_length; lia) ltac:(lia) ltac:(lia)).
  rewrite <- EV in R. unfold of_text in E at 2. rewrite E. set (out := hex_loop _ _ _ _) in *. unfold reads in R. split; intros Hn.
  - replace (n <? 2 ^ 128) with true in R by lia. rewrite R. reflexivity.
  - replace (n <? 2 ^ 128) with false in R by lia. destruct out as [s r]. destruct R as [R1 R2]. cbn [fst snd] in *. subst r. split; [exact R1 | reflexivity].
Qed.
Print Assumptions C35_read_prefix.

(** Writing: the numeral of the value, without leading zeros. *)
Lemma digits_head base tc : 1 < base -> forall fuel n acc, 0 < n < base ^ Z.of_nat fuel ->
  exists d, 0 < d < base /\ hd 0 (digits_rec base tc fuel n acc) = tc d.
Proof.
  intros Hb. induction fuel as [|k IH]; intros n acc Hn; [change (base ^ Z.of_nat 0) with 1 in Hn; lia|].
  cbn [digits_rec]. replace (n >? 0) with true by lia. assert (Q := Z.div_pos n base ltac:(lia) ltac:(lia)).
  destruct (Z.eq_dec (n / base) 0) as [E|E].
  - exists (n mod base). assert (M := Z.mod_pos_bound n base ltac:(lia)). assert (DM := Z.div_mod n base ltac:(lia)). rewrite E in DM.
    split; [lia|]. rewrite E. destruct k; reflexivity.
  - apply IH. split; [lia|]. apply Z.div_lt_upper_bound; [lia|]. rewrite <- Z.pow_succ_r by lia.
    replace (Z.succ (Z.of_nat k)) with (Z.of_nat (S k)) by lia. lia.
Qed.
Lemma digits_spec b upper v : 0 <= v < 2 ^ 128 ->
  numeral (radix b) 0 (u128_digits b upper v) = Some v /\ u128_digits b upper v <> [] /\
  (v <> 0 -> hd 0 (u128_digits b upper v) <> 48) /\ (radix b <= v -> (2 <= length (u128_digits b upper v))%nat).
Proof.
  intros Hv. unfold u128_digits. destruct (Z.eqb_spec v 0) as [->|N].
  { split; [destruct b; reflexivity|]. split; [discriminate|]. split; [intros H; contradiction H; reflexivity|]. destruct b; cbn; lia. }
  assert (T : forall d, 0 <= d < 16 -> model_digit Hex (to_hex upper d) = true /\ hex_value (to_hex upper d) = d).
  { intros d Hd. unfold to_hex. destruct (Z.ltb_spec d 10); cbn [model_digit]; unfold is_hex_digit, hex_value, is_dec_digit; [|destruct upper].
    - replace ((48 <=? 48 + d) && (48 + d <=? 57)) with true by lia. split; [reflexivity | lia].
    - replace ((48 <=? 65 + d - 10) && (65 + d - 10 <=? 57)) with false by lia. replace ((97 <=? 65 + d - 10) && (65 + d - 10 <=? 102)) with false by lia. split; lia.
    - replace ((48 <=? 97 + d - 10) && (97 + d - 10 <=? 57)) with false by lia. replace ((97 <=? 97 + d - 10) && (97 + d - 10 <=? 102)) with true by lia. split; lia. }
  assert (T8 : forall d, 0 <= d < 8 -> model_digit Oct (to_hex upper d) = true /\ to_hex upper d - 48 = d).
  { intros d Hd. unfold to_hex. replace (d <? 10) with true by lia. cbn [model_digit]. unfold is_oct_digit. split; lia. }
  assert (T10 : forall d, 0 <= d < 10 -> model_digit Dec (d + 48) = true /\ d + 48 - 48 = d).
  { intros d Hd. cbn [model_digit]. unfold is_dec_digit. split; lia. }
  assert (P8 : 2 ^ 128 < 8 ^ Z.of_nat 128) by (vm_compute; reflexivity).
  assert (P10 : 2 ^ 128 < 10 ^ Z.of_nat 128) by (vm_compute; reflexivity).
  assert (P16 : 2 ^ 128 < 16 ^ Z.of_nat 128) by (vm_compute; reflexivity).
  destruct b; cbn [radix].
  - split; [apply (numeral_model Oct); cbn [model_value radix]; split; [apply digits_forall; [lia | intros d Hd; apply T8, Hd | constructor] |
      rewrite (digits_numeral 8 (to_hex upper) (fun c => c - 48)); [reflexivity | lia | intros d Hd; apply T8, Hd | lia]]|].
    split; [intros E; assert (L := digits_nonempty 8 (to_hex upper) 127 v ltac:(lia)); rewrite E in L; cbn in L; lia|]. split.
    + intros _. destruct (digits_head 8 (to_hex upper) ltac:(lia) 128 v [] ltac:(lia)) as (d & Hd & ->). unfold to_hex. destruct (d <? 10) eqn:?, upper; lia.
    + intros H. apply (digits_two 8 (to_hex upper) 126); lia.
  - split; [apply (numeral_model Dec); cbn [model_value radix]; split; [apply digits_forall; [lia | intros d Hd; apply T10, Hd | constructor] |
      rewrite (digits_numeral 10 (fun d => d + 48) (fun c => c - 48)); [reflexivity | lia | intros d Hd; apply T10, Hd | lia]]|].
    split; [intros E; assert (L := digits_nonempty 10 (fun d => d + 48) 127 v ltac:(lia)); rewrite E in L; cbn in L; lia|]. split.
    + intros _. destruct (digits_head 10 (fun d => d + 48) ltac:(lia) 128 v [] ltac:(lia)) as (d & Hd & ->). lia.
    + intros H. apply (digits_two 10 (fun d => d + 48) 126); lia.
  - split; [apply (numeral_model Hex); cbn [model_value radix]; split; [apply digits_forall; [lia | intros d Hd; apply T, Hd | constructor] |
      rewrite (digits_numeral 16 (to_hex upper) hex_value); [reflexivity | lia | intros d Hd; apply T, Hd | lia]]|].
    split; [intros E; assert (L := digits_nonempty 16 (to_hex upper) 127 v ltac:(lia)); rewrite E in L; cbn in L; lia|]. split.
    + intros _. destruct (digits_head 16 (to_hex upper) ltac:(lia) 128 v [] ltac:(lia)) as (d & Hd & ->). unfold to_hex. destruct (d <? 10) eqn:?, upper; lia.
    + intros H. apply (digits_two 16 (to_hex upper) 126); lia.
Qed.
Theorem C35_write : forall b upper v, 0 <= v < 2 ^ 128 ->
  numeral (radix b) 0 (u128_digits b upper v) = Some v /\ u128_digits b upper v <> [] /\
  (v <> 0 -> hd 0 (u128_digits b upper v) <> 48).
Proof. intros b upper v Hv. destruct (digits_spec b upper v Hv) as (A & B & C & _). split; [exact A|]. split; assumption. Qed.
Print Assumptions C35_write.

(** Round trip, with or without showbase and uppercase, padded with blanks on either side. *)
Lemma numeral_cons0 r ds : 0 < r -> numeral r 0 (48 :: ds) = numeral r 0 ds.
Proof. intros Hr. cbn [numeral]. change (digit_value 48) with (Some 0). cbv iota. replace (0 <? r) with true by lia. replace (r * 0 + 0) with 0 by lia. reflexivity. Qed.
Lemma repeat_blank n : Forall blank (repeat 32 n).
Proof. apply Forall_forall. intros c Hc. apply repeat_spec in Hc. left. exact Hc. Qed.
Lemma read_unpadded b upper showbase v sp rest old : 0 <= v < 2 ^ 128 -> Forall blank sp ->
  match rest with
  | [] => b = Hex -> showbase = false -> 16 <= v
  | c :: _ => is_digit (radix b) c = false /\ (b = Hex -> showbase = false -> v < 16 -> ~ is_x c)
  end ->
  u128_get b (of_text (sp ++ u128_base b upper showbase ++ u128_digits b upper v ++ rest)) old = (Istr rest (ended rest) false, v).
Proof.
  intros Hv Hsp D. destruct (digits_spec b upper v Hv) as (V & N & _ & L2). unfold u128_base. destruct showbase.
  - destruct b; cbn [radix app] in *.
    + change (48 :: u128_digits Oct upper v ++ rest) with ((48 :: u128_digits Oct upper v) ++ rest).
      apply (C35_read Oct); [exact Hsp | discriminate | cbn [radix]; rewrite numeral_cons0 by lia; exact V | | lia].
      destruct rest; [intros E; discriminate E | split; [apply D | intros E; discriminate E]].
    + apply (C35_read Dec); [exact Hsp | exact N | exact V | | lia].
      destruct rest; [intros E; discriminate E | split; [apply D | intros E; discriminate E]].
    + apply (C35_read_prefix sp (if upper then 88 else 120)); [exact Hsp | destruct upper; [right | left]; reflexivity | exact V | | lia].
      destruct rest; [exact I | apply D].
  - cbn [app]. apply C35_read; [exact Hsp | exact N | exact V | | lia].
    destruct rest as [|c rest].
    + cbn [delimited]. intros ->. apply L2. cbn [radix]. apply D; reflexivity.
    + destruct D as [D1 D2]. split; [exact D1|]. intros -> L1. apply D2; try reflexivity.
      destruct (Z_lt_le_dec v 16); [assumption|]. cbn [radix] in L2. specialize (L2 ltac:(lia)). lia.
Qed.
Theorem C35_roundtrip : forall b upper showbase adj width v rest old, 0 <= v < 2 ^ 128 ->
  (adj <> AInternal \/ showbase = false \/ b = Dec) ->
  match rest with
  | [] => b = Hex -> showbase = false -> 16 <= v
  | c :: _ => is_digit (radix b) c = false /\ ~ is_x c
  end ->
  exists pad, u128_get b (of_text (u128_put b upper showbase adj width 32 v ++ rest)) old = (Istr (pad ++ rest) (ended (pad ++ rest)) false, v) /\
    Forall blank pad.
Proof.
  intros b upper showbase adj width v rest old Hv A D. unfold u128_put. cbv zeta.
  set (pad := if _ <? width then _ else []). assert (P : Forall blank pad) by (unfold pad; destruct (_ <? width); [apply repeat_blank | constructor]).
  clearbody pad.
  assert (G : forall sp rest', Forall blank sp -> Forall blank rest' ->
    u128_get b (of_text (sp ++ u128_base b upper showbase ++ u128_digits b upper v ++ rest' ++ rest)) old = (Istr (rest' ++ rest) (ended (rest' ++ rest)) false, v)).
  { intros sp rest' Hsp Hr. apply read_unpadded; [exact Hv | exact Hsp|]. destruct Hr as [|c rest' Hc Hr]; cbn [app].
    - destruct rest as [|c rest]; [exact D|]. destruct D as [D1 D2]. split; [exact D1 | intros _ _ _; exact D2].
    - split.
      + rewrite <- model_digit_eq. destruct (model_digit b c) eqn:M; [|reflexivity]. apply digit_not_space in M. rewrite (blank_space c Hc) in M. discriminate M.
      + intros _ _ _ X. unfold blank, is_x in *. lia. }
  destruct adj.
  - exists pad. split; [|exact P]. rewrite <- !app_assoc. exact (G [] pad ltac:(constructor) P).
  - exists []. split; [|constructor]. rewrite <- !app_assoc.
    assert (B : u128_base b upper showbase = []) by (destruct A as [A|[->| ->]]; [contradiction A; reflexivity | reflexivity | destruct showbase; reflexivity]).
    specialize (G pad [] P ltac:(constructor)). rewrite B in *. cbn [app] in *. exact G.
  - exists []. split; [|constructor]. rewrite <- !app_assoc. exact (G pad [] P ltac:(constructor)).
Qed.
Print Assumptions C35_roundtrip.
Example C35_example : u128_get Hex (of_text (u128_put Hex true true ALeft 0 32 (2 ^ 128 - 1))) 7 = (Istr [] true false, 2 ^ 128 - 1)
  /\ u128_get Dec (of_text (chars "340282366920938463463374607431768211456"%string)) 7 = (Istr [] false true, 7).
Proof. vm_compute. split; reflexivity. Qed.

(** The width of the stream: a shorter text is filled up to the width, on the side given by the adjustment
    (between the base prefix and the digits for internal). *)
Theorem C35_width : forall b upper showbase adj width fill v,
  let t0 := u128_put b upper showbase adj 0 fill v in
  let t := u128_put b upper showbase adj width fill v in
  Z.of_nat (length t) = Z.max width (Z.of_nat (length t0)) /\
  exists pad x y, Forall (eq fill) pad /\ t0 = x ++ y /\ t = x ++ pad ++ y /\
    match adj with
    | ALeft => y = []
    | ARight => x = []
    | AInternal => x = (if showbase then match b with Oct => [48] | Dec => [] | Hex => [48; if upper then 88 else 120] end else [])
    end.
Proof.
  intros b upper showbase adj width fill v. cbv zeta. unfold u128_put. cbv zeta.
  set (ds := u128_digits b upper v). set (bs := u128_base b upper showbase).
  destruct (Z.ltb_spec (Z.of_nat (length bs + length ds)) 0); [lia|].
  set (pad := if Z.of_nat (length bs + length ds) <? width then repeat fill (Z.to_nat (width - Z.of_nat (length bs + length ds))) else []).
  assert (P : Forall (eq fill) pad).
  { unfold pad. destruct (_ <? width); [|constructor]. apply Forall_forall. intros c Hc. symmetry. apply (repeat_spec _ _ _ Hc). }
  assert (L : Z.of_nat (length bs + (length ds + length pad)) = Z.max width (Z.of_nat (length bs + length ds))).
  { unfold pad. destruct (Z.ltb_spec (Z.of_nat (length bs + length ds)) width); [rewrite repeat_length | cbn [length]]; lia. }
  destruct adj; rewrite ?app_length, ?app_nil_r; cbn [app length]; rewrite ?app_length.
  - split; [rewrite Nat.add_0_r; exact L|]. exists pad, (bs ++ ds), []. rewrite !app_nil_r, <- app_assoc. auto.
  - split; [lia|]. exists pad, bs, ds. auto.
  - split; [lia|]. exists pad, [], (bs ++ ds). auto.
Qed.
Print Assumptions C35_width.
Example C35_width_example : u128_put Hex false true AInternal 8 42 255 = chars "0x****ff"%string.
Proof. reflexivity. Qed.

(** A one-digit hexadecimal number at the end of the stream is stored but reported as a failure. *)
Theorem C35_hex_one_digit_refuted : forall v old, 0 <= v < 16 ->
  u128_get Hex (of_text (u128_put Hex false false ALeft 0 32 v)) old = (Istr [] true true, v).
Proof.
  intros v old Hv. assert (H : In v (map Z.of_nat (seq 0 16))) by (rewrite <- (Z2Nat.id v) by lia; apply in_map, in_seq; lia).
  cbn [seq map In] in H.
  repeat match goal with H : _ \/ _ |- _ => destruct H as [<-|H]; [reflexivity|] end. contradiction.
Qed.
Print Assumptions C35_hex_one_digit_refuted.
(** A text that is no hexadecimal numeral is accepted: 1x2 as 18. *)
Theorem C35_hex_prefix_refuted : exists t n, numeral 16 0 t = None /\ u128_get Hex (of_text t) 0 = (Istr [] true false, n) /\ n = 18.
Proof. exists (chars "1x2"%string), 18. vm_compute. split; [reflexivity|]. split; reflexivity. Qed.
Print Assumptions C35_hex_prefix_refuted.
(** Internal padding destroys the round trip in octal and hexadecimal with showbase. *)
Theorem C35_internal_refuted : exists v, 0 <= v < 2 ^ 128 /\
  snd (u128_get Hex (of_text (u128_put Hex false true AInternal 8 32 v)) 7) <> v.
Proof. exists 255. split; [lia|]. vm_compute. discriminate. Qed.
Print Assumptions C35_internal_refuted.
