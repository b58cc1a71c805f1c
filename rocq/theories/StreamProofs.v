(** Lemmas about the stream model. *)
From Coq Require Import ZArith Bool List Lia.
From Verif Require Import Base BaseFacts StreamModel.
Import ListNotations.
Open Scope Z_scope.

(** The value of a digit string. *)
Definition numeral_from (base : Z) (val : Z -> Z) (r : Z) (ds : list Z) : Z :=
  fold_left (fun v c => base * v + val c) ds r.

Lemma numeral_ge base val ds : 1 <= base -> Forall (fun c => 0 <= val c) ds -> forall r, 0 <= r -> r <= numeral_from base val r ds.
Proof.
  intros Hb. induction 1 as [|c ds Hc _ IH]; intros r Hr; cbn [numeral_from fold_left]; [reflexivity|].
  specialize (IH (base * r + val c) ltac:(nia)). unfold numeral_from in IH. nia.
Qed.

(** Output of digits. *)
Lemma digits_numeral base tc val : 1 < base -> (forall d, 0 <= d < base -> val (tc d) = d) ->
  forall fuel n acc, 0 <= n < base ^ Z.of_nat fuel ->
  numeral_from base val 0 (digits_rec base tc fuel n acc) = numeral_from base val n acc.
Proof.
  intros Hb Hv. induction fuel as [|k IH]; intros n acc Hn; cbn [digits_rec].
  - change (base ^ Z.of_nat 0) with 1 in Hn. replace n with 0 by lia. reflexivity.
  - destruct (Z.gtb_spec n 0); [|replace n with 0 by lia; reflexivity].
    rewrite IH.
    + unfold numeral_from. cbn [fold_left]. f_equal. rewrite Hv by (apply Z.mod_pos_bound; lia). rewrite <- Z.div_mod by lia. reflexivity.
    + split; [apply Z.div_pos; lia|]. apply Z.div_lt_upper_bound; [lia|]. rewrite <- Z.pow_succ_r by lia.
      replace (Z.succ (Z.of_nat k)) with (Z.of_nat (S k)) by lia. lia.
Qed.
Lemma digits_forall base tc (P : Z -> Prop) : 1 < base -> (forall d, 0 <= d < base -> P (tc d)) ->
  forall fuel n acc, Forall P acc -> Forall P (digits_rec base tc fuel n acc).
Proof.
  intros Hb Hv. induction fuel as [|k IH]; intros n acc Ha; cbn [digits_rec]; [exact Ha|].
  destruct (n >? 0); [|exact Ha]. apply IH. constructor; [apply Hv, Z.mod_pos_bound; lia | exact Ha].
Qed.
Lemma digits_grow base tc fuel : forall n acc, (length acc <= length (digits_rec base tc fuel n acc))%nat.
Proof.
  induction fuel as [|k IH]; intros n acc; cbn [digits_rec]; [lia|]. destruct (n >? 0); [|lia].
  specialize (IH (n / base) (tc (n mod base) :: acc)). cbn [length] in IH. lia.
Qed.
Lemma digits_nonempty base tc k n : 0 < n -> (1 <= length (digits_rec base tc (S k) n []))%nat.
Proof.
  intros Hn. cbn [digits_rec]. replace (n >? 0) with true by lia.
  assert (G := digits_grow base tc k (n / base) [tc (n mod base)]). exact G.
Qed.
Lemma digits_two base tc k n : 1 < base -> base <= n -> (2 <= length (digits_rec base tc (S (S k)) n []))%nat.
Proof.
  intros Hb Hn. cbn [digits_rec]. replace (n >? 0) with true by lia.
  assert (1 <= n / base) by (apply Z.div_le_lower_bound; lia). replace (n / base >? 0) with true by lia.
  assert (G := digits_grow base tc k (n / base / base) [tc ((n / base) mod base); tc (n mod base)]). exact G.
Qed.

(** ** Reading the three bases *)
Lemma good_text t : i_good (Istr t false false) = true. Proof. reflexivity. Qed.
Definition ended (rest : list Z) : bool := match rest with [] => true | _ => false end.
Definition stops (p : Z -> bool) (rest : list Z) : Prop := match rest with [] => True | c :: _ => p c = false end.

Lemma peek_is_cons p c t : peek_is p (Istr (c :: t) false false) = (p c, Istr (c :: t) false false).
Proof. reflexivity. Qed.
Lemma peek_is_stop p rest : stops p rest -> peek_is p (Istr rest false false) = (false, Istr rest (ended rest) false).
Proof. destruct rest as [|c t]; [reflexivity|]. intros H. unfold peek_is. cbn. rewrite H. reflexivity. Qed.
Lemma get_val_cons v c t : get_val v (Istr (c :: t) false false) = (v c, Istr t false false).
Proof. reflexivity. Qed.

Lemma dec_digit_val c : is_dec_digit c = true -> 0 <= c - 48 < 10. Proof. unfold is_dec_digit. lia. Qed.
Lemma oct_digit_val c : is_oct_digit c = true -> 0 <= c - 48 < 8. Proof. unfold is_oct_digit. lia. Qed.
Lemma hex_digit_val c : is_hex_digit c = true -> 0 <= hex_value c < 16.
Proof. unfold is_hex_digit, hex_value, is_dec_digit. destruct ((48 <=? c) && (c <=? 57)) eqn:E; [lia|]. destruct ((97 <=? c) && (c <=? 102)) eqn:F; lia. Qed.

(** What a loop returns: the value if it fits, otherwise failbit and no value. *)
Definition reads (out : istr * option Z) (v : Z) (rest : list Z) : Prop :=
  if v <? 2 ^ 128 then out = (Istr rest (ended rest) false, Some v) else i_fail (fst out) = true /\ snd out = None.

Lemma oct_loop_reads rest : stops is_oct_digit rest -> forall ds fuel r, Forall (fun c => is_oct_digit c = true) ds ->
  (length ds < fuel)%nat -> 0 <= r < 2 ^ 128 ->
  reads (oct_loop fuel r (Istr (ds ++ rest) false false)) (numeral_from 8 (fun c => c - 48) r ds) rest.
Proof.
  intros Hs. induction ds as [|c ds IH]; intros fuel r Hd Hf Hr; (destruct fuel as [|k]; [cbn [length] in Hf; lia|]); cbn [oct_loop app].
  - rewrite peek_is_stop by exact Hs. unfold reads, numeral_from. cbn [fold_left]. replace (r <? 2 ^ 128) with true by lia. reflexivity.
  - rewrite peek_is_cons. inversion Hd as [|? ? Hc Hd']; subst. rewrite Hc. assert (V := oct_digit_val c Hc).
    change (numeral_from 8 (fun c => c - 48) r (c :: ds)) with (numeral_from 8 (fun c => c - 48) (8 * r + (c - 48)) ds).
    destruct (Z.geb_spec r (2 ^ 125)).
    + assert (G := numeral_ge 8 (fun c => c - 48) ds ltac:(lia)
        (Forall_impl (fun c => 0 <= c - 48) (fun a H => proj1 (oct_digit_val a H)) Hd') (8 * r + (c - 48)) ltac:(lia)).
      unfold reads. replace (_ <? 2 ^ 128) with false by (change (2 ^ 128) with (8 * 2 ^ 125); lia). split; reflexivity.
    + rewrite get_val_cons. unfold wrap128. rewrite (Z.mod_small (r * 8)) by (change (2 ^ 128) with (8 * 2 ^ 125); lia).
      rewrite Z.mod_small by (change (2 ^ 128) with (8 * 2 ^ 125); lia).
      replace (r * 8 + (c - 48)) with (8 * r + (c - 48)) by ring.
      apply IH; [exact Hd' | cbn [length] in Hf; lia | change (2 ^ 128) with (8 * 2 ^ 125); lia].
Qed.
Lemma dec_loop_reads rest : stops is_dec_digit rest -> forall ds fuel r, Forall (fun c => is_dec_digit c = true) ds ->
  (length ds < fuel)%nat -> 0 <= r < 2 ^ 128 ->
  reads (dec_loop fuel r (Istr (ds ++ rest) false false)) (numeral_from 10 (fun c => c - 48) r ds) rest.
Proof.
  intros Hs. induction ds as [|c ds IH]; intros fuel r Hd Hf Hr; (destruct fuel as [|k]; [cbn [length] in Hf; lia|]); cbn [dec_loop app].
  - rewrite peek_is_stop by exact Hs. unfold reads, numeral_from. cbn [fold_left]. replace (r <? 2 ^ 128) with true by lia. reflexivity.
  - rewrite peek_is_cons. inversion Hd as [|? ? Hc Hd']; subst. rewrite Hc. assert (V := dec_digit_val c Hc).
    change (numeral_from 10 (fun c => c - 48) r (c :: ds)) with (numeral_from 10 (fun c => c - 48) (10 * r + (c - 48)) ds).
    assert (G := numeral_ge 10 (fun c => c - 48) ds ltac:(lia)
        (Forall_impl (fun c => 0 <= c - 48) (fun a H => proj1 (dec_digit_val a H)) Hd') (10 * r + (c - 48)) ltac:(lia)).
    destruct (Z.geb_spec r 0x1999999999999999999999999999999a).
    + unfold reads. replace (_ <? 2 ^ 128) with false by lia. split; reflexivity.
    + cbv zeta. rewrite get_val_cons. unfold wrap128. rewrite (Z.mod_small (r * 10)) by lia.
      rewrite (Z.mod_small (2 ^ 128 - 1 - r * 10)) by lia.
      destruct (Z.gtb_spec (c - 48) (2 ^ 128 - 1 - r * 10)).
      * unfold reads. replace (_ <? 2 ^ 128) with false by lia. split; reflexivity.
      * rewrite Z.mod_small by lia. replace (r * 10 + (c - 48)) with (10 * r + (c - 48)) by ring.
        apply IH; [exact Hd' | cbn [length] in Hf; lia | lia].
Qed.
(** Hexadecimal, once the position where a prefix may stand is passed. *)
Lemma hex_loop_reads rest : stops is_hex_digit rest -> forall ds fuel pos r, Forall (fun c => is_hex_digit c = true) ds ->
  (length ds < fuel)%nat -> 1 < pos -> 0 <= r < 2 ^ 128 ->
  reads (hex_loop fuel pos r (Istr (ds ++ rest) false false)) (numeral_from 16 hex_value r ds) rest.
Proof.
  intros Hs. induction ds as [|c ds IH]; intros fuel pos r Hd Hf Hp Hr; (destruct fuel as [|k]; [cbn [length] in Hf; lia|]); cbn [hex_loop app].
  - rewrite peek_is_stop by exact Hs. replace (pos =? 1) with false by lia. unfold reads, numeral_from. cbn [fold_left].
    replace (r <? 2 ^ 128) with true by lia. reflexivity.
  - rewrite peek_is_cons. inversion Hd as [|? ? Hc Hd']; subst. rewrite Hc. assert (V := hex_digit_val c Hc).
    replace (pos =? 1) with false by lia.
    change (numeral_from 16 hex_value r (c :: ds)) with (numeral_from 16 hex_value (16 * r + hex_value c) ds).
    destruct (Z.geb_spec r (2 ^ 124)).
    + assert (G := numeral_ge 16 hex_value ds ltac:(lia)
        (Forall_impl (fun c => 0 <= hex_value c) (fun a H => proj1 (hex_digit_val a H)) Hd') (16 * r + hex_value c) ltac:(lia)).
      unfold reads. replace (_ <? 2 ^ 128) with false by (change (2 ^ 128) with (16 * 2 ^ 124); lia). split; reflexivity.
    + rewrite get_val_cons. unfold wrap128. rewrite (Z.mod_small (r * 16)) by (change (2 ^ 128) with (16 * 2 ^ 124); lia).
      rewrite Z.mod_small by (change (2 ^ 128) with (16 * 2 ^ 124); lia).
      replace (r * 16 + hex_value c) with (16 * r + hex_value c) by ring.
      apply IH; [exact Hd' | cbn [length] in Hf; lia | lia | change (2 ^ 128) with (16 * 2 ^ 124); lia].
Qed.
(** The first two positions. *)
Lemma hex_first k c t : is_hex_digit c = true ->
  hex_loop (S k) 0 0 (Istr (c :: t) false false) = hex_loop k 1 (hex_value c) (Istr t false false).
Proof.
  intros Hc. assert (V := hex_digit_val c Hc). cbn [hex_loop]. rewrite peek_is_cons, Hc. change (0 =? 1) with false. cbv iota.
  change (0 >=? 2 ^ 124) with false. cbv iota. rewrite get_val_cons. f_equal. unfold wrap128. rewrite Z.mul_0_l, Z.mod_0_l, Z.add_0_l by discriminate.
  apply Z.mod_small. lia.
Qed.
Lemma hex_second k c t r : is_hex_digit c = true -> 0 <= r < 16 ->
  hex_loop (S k) 1 r (Istr (c :: t) false false) = hex_loop k 2 (16 * r + hex_value c) (Istr t false false).
Proof.
  intros Hc Hr. assert (V := hex_digit_val c Hc). cbn [hex_loop]. rewrite !peek_is_cons, Hc. change (1 =? 1) with true. cbv iota.
  rewrite !peek_is_cons.
  replace (is_hex_basechar c) with false by (unfold is_hex_digit, is_dec_digit, is_hex_basechar in *; lia).
  replace (r >=? 2 ^ 124) with false by lia. rewrite get_val_cons. f_equal. unfold wrap128.
  rewrite (Z.mod_small (r * 16)), Z.mod_small by lia. lia.
Qed.
Lemma hex_prefix k c t r : is_hex_basechar c = true ->
  hex_loop (S k) 1 r (Istr (c :: t) false false) = hex_loop k 2 r (Istr t false false).
Proof.
  intros Hc. cbn [hex_loop]. rewrite !peek_is_cons. 
  replace (is_hex_digit c) with false by (unfold is_hex_digit, is_dec_digit, is_hex_basechar in *; lia).
  change (1 =? 1) with true. cbv iota. rewrite ?peek_is_cons, Hc. cbv iota. rewrite ?peek_is_cons, ?Hc. reflexivity.
Qed.
Lemma hex_one k r c t : is_hex_digit c = false -> is_hex_basechar c = false ->
  hex_loop (S k) 1 r (Istr (c :: t) false false) = (Istr (c :: t) false false, Some r).
Proof.
  intros Hc Hx. cbn [hex_loop]. rewrite !peek_is_cons, Hc. change (1 =? 1) with true. cbv iota. rewrite ?peek_is_cons, Hx. reflexivity.
Qed.
Lemma hex_one_end k r : hex_loop (S k) 1 r (Istr [] false false) = (Istr [] true true, Some r).
Proof. reflexivity. Qed.

(** White space in front. *)
Lemma skip_space_app sp t : Forall (fun c => is_space c = true) sp -> stops is_space t -> skip_space (sp ++ t) = t.
Proof.
  intros H Ht. induction H as [|c sp Hc _ IH]; cbn [app skip_space].
  - destruct t as [|c t]; [reflexivity|]. cbn [skip_space]. cbn [stops] in Ht. rewrite Ht. reflexivity.
  - rewrite Hc. exact IH.
Qed.
Lemma ws_text sp c t : Forall (fun c => is_space c = true) sp -> is_space c = false -> ws (of_text (sp ++ c :: t)) = of_text (c :: t).
Proof. intros H Hc. unfold ws, of_text. rewrite good_text. cbn [i_chars i_fail]. rewrite skip_space_app by (try assumption; exact Hc). reflexivity. Qed.
