(** Lemmas about the xoshiro256plus model. *)
From Coq Require Import ZArith List Bool Lia Arith.
From Verif Require Import Base BaseFacts Cong Sums GaussModel LinAlgModel LinAlgProofs MinstdModel LagfibModel XoshiroModel.
Import ListNotations.
Open Scope Z_scope.

Opaque mat_power mat_mult mat_vec mmake.

Definition xok (S : xoshiro) : Prop := word 64 (xr0 S) /\ word 64 (xr1 S) /\ word 64 (xr2 S) /\ word 64 (xr3 S).

(** ** Shifts *)
Lemma shl_bit x k t : 0 <= k -> 0 <= t -> Z.testbit (shl64 x k) t = (t <? 64) && Z.testbit x (t - k).
Proof.
  intros Hk Ht. unfold shl64, wrap64. destruct (Z.ltb_spec t 64).
  - rewrite Z.mod_pow2_bits_low, Z.shiftl_spec by lia. reflexivity.
  - rewrite Z.mod_pow2_bits_high by lia. reflexivity.
Qed.
Lemma shl_word x k : word 64 (shl64 x k).
Proof. apply Z.mod_pos_bound. lia. Qed.
Lemma shl_lxor x y k : 0 <= k -> shl64 (Z.lxor x y) k = Z.lxor (shl64 x k) (shl64 y k).
Proof.
  intros Hk. apply Z.bits_inj'. intros t Ht. rewrite Z.lxor_spec, !shl_bit, Z.lxor_spec by lia.
  destruct (t <? 64); [reflexivity | reflexivity].
Qed.
Lemma shl_shl x j k : 0 <= j -> 0 <= k -> shl64 (shl64 x j) k = shl64 x (j + k).
Proof.
  intros Hj Hk. apply Z.bits_inj'. intros t Ht. rewrite (shl_bit (shl64 x j) k), (shl_bit x (j + k)) by lia. destruct (Z.ltb_spec t 64); [|reflexivity]. cbn [andb].
  destruct (Z.ltb_spec (t - k) 0).
  - rewrite !Z.testbit_neg_r by lia. reflexivity.
  - rewrite shl_bit by lia. destruct (Z.ltb_spec (t - k) 64); [|lia]. cbn [andb]. f_equal. lia.
Qed.
Lemma shl_big x k : 64 <= k -> shl64 x k = 0.
Proof.
  intros Hk. apply Z.bits_inj'. intros t Ht. rewrite shl_bit, Z.testbit_0_l by lia.
  destruct (Z.ltb_spec t 64); [|reflexivity]. rewrite Z.testbit_neg_r by lia. reflexivity.
Qed.
Lemma shl_0 x k : word 64 x -> k = 0 -> shl64 x k = x.
Proof. intros Hx ->. unfold shl64, wrap64. rewrite Z.shiftl_0_r. apply Z.mod_small, Hx. Qed.
Lemma word_testbit x t : word 64 x -> 64 <= t -> Z.testbit x t = false.
Proof. intros Hx Ht. apply (proj1 (word_bits 64 x ltac:(lia)) Hx). exact Ht. Qed.
Lemma lxor_word x y : word 64 x -> word 64 y -> word 64 (Z.lxor x y).
Proof. apply lxor_range. lia. Qed.

(** The rotation by 45 places. *)
Definition rot (x k : Z) : Z := Z.lor (shl64 x k) (Z.shiftr x (64 - k)).
Lemma rot_lxor_form x k : word 64 x -> 0 <= k <= 64 -> rot x k = Z.lxor (shl64 x k) (Z.shiftr x (64 - k)).
Proof.
  intros Hx Hk. apply Z.bits_inj'. intros t Ht. unfold rot. rewrite Z.lor_spec, Z.lxor_spec, shl_bit, Z.shiftr_spec by lia.
  destruct (Z.ltb_spec t k).
  - rewrite (Z.testbit_neg_r x (t - k)) by lia. rewrite andb_false_r. destruct (Z.testbit x _); reflexivity.
  - rewrite (word_testbit x (t + (64 - k))) by (try exact Hx; lia). destruct (_ && _); reflexivity.
Qed.
Lemma rot_word x k : word 64 x -> 0 <= k <= 64 -> word 64 (rot x k).
Proof.
  intros Hx Hk. rewrite rot_lxor_form by assumption. apply lxor_word; [apply shl_word|]. apply shiftr_range; try lia. exact Hx.
Qed.
Lemma rot_lxor x y k : word 64 x -> word 64 y -> 0 <= k <= 64 -> rot (Z.lxor x y) k = Z.lxor (rot x k) (rot y k).
Proof.
  intros Hx Hy Hk. rewrite !rot_lxor_form by (try apply lxor_word; assumption). rewrite shl_lxor by lia. rewrite Z.shiftr_lxor.
  apply Z.bits_inj'. intros t Ht. rewrite !Z.lxor_spec.
  destruct (Z.testbit (shl64 x k) t), (Z.testbit (shl64 y k) t), (Z.testbit (Z.shiftr x (64 - k)) t), (Z.testbit (Z.shiftr y (64 - k)) t); reflexivity.
Qed.
Lemma rot_bit x k t : word 64 x -> 0 <= k <= 64 -> 0 <= t < 64 ->
  Z.testbit (rot x k) t = if t <? k then Z.testbit x (t + 64 - k) else Z.testbit x (t - k).
Proof.
  intros Hx Hk Ht. unfold rot. rewrite Z.lor_spec, shl_bit, Z.shiftr_spec by lia.
  destruct (Z.ltb_spec t 64); [|lia]. cbn [andb]. destruct (Z.ltb_spec t k).
  - rewrite (Z.testbit_neg_r x (t - k)) by lia. cbn [orb]. f_equal. lia.
  - rewrite (word_testbit x (t + (64 - k))) by (try exact Hx; lia). apply orb_false_r.
Qed.
Lemma word_ext x y : word 64 x -> word 64 y -> (forall t, 0 <= t < 64 -> Z.testbit x t = Z.testbit y t) -> x = y.
Proof.
  intros Hx Hy H. apply Z.bits_inj'. intros t Ht. destruct (Z_lt_le_dec t 64); [apply H; lia|].
  rewrite !word_testbit by assumption. reflexivity.
Qed.
Lemma rot_rot x k : word 64 x -> 0 <= k <= 64 -> rot (rot x k) (64 - k) = x.
Proof.
  intros Hx Hk. apply word_ext; [apply rot_word; [apply rot_word; assumption | lia] | exact Hx|].
  intros t Ht. rewrite rot_bit by (try apply rot_word; try assumption; lia).
  destruct (Z.ltb_spec t (64 - k)); rewrite rot_bit by (try assumption; lia).
  - destruct (Z.ltb_spec (t + 64 - (64 - k)) k); [lia|]. f_equal. lia.
  - destruct (Z.ltb_spec (t - (64 - k)) k); [|lia]. f_equal. lia.
Qed.

(** ** One step *)
Definition xadd (S S' : xoshiro) : xoshiro :=
  Xo (Z.lxor (xr0 S) (xr0 S')) (Z.lxor (xr1 S) (xr1 S')) (Z.lxor (xr2 S) (xr2 S')) (Z.lxor (xr3 S) (xr3 S')).
Lemma step_form S : xo_step S =
  Xo (Z.lxor (xr0 S) (Z.lxor (xr3 S) (xr1 S))) (Z.lxor (xr1 S) (Z.lxor (xr2 S) (xr0 S)))
     (Z.lxor (Z.lxor (xr2 S) (xr0 S)) (shl64 (xr1 S) 17)) (rot (Z.lxor (xr3 S) (xr1 S)) 45).
Proof. destruct S. reflexivity. Qed.
Lemma step_ok S : xok S -> xok (xo_step S).
Proof.
  intros (H0 & H1 & H2 & H3). rewrite step_form. unfold xok. cbn [xr0 xr1 xr2 xr3].
  assert (HR := rot_word _ 45 (lxor_word _ _ H3 H1) ltac:(lia)).
  repeat match goal with |- _ /\ _ => split end; repeat (apply lxor_word || assumption || apply shl_word).
Qed.
Ltac bits := apply Z.bits_inj'; intros t Ht; rewrite ?Z.lxor_spec, ?Z.testbit_0_l;
  repeat match goal with |- context [Z.testbit ?x ?y] => is_var x; destruct (Z.testbit x y) end; try reflexivity.
Lemma lxor4 a b c d : Z.lxor (Z.lxor a b) (Z.lxor c d) = Z.lxor (Z.lxor a c) (Z.lxor b d).
Proof. bits. Qed.
Lemma step_add S S' : xok S -> xok S' -> xo_step (xadd S S') = xadd (xo_step S) (xo_step S').
Proof.
  intros (H0 & H1 & H2 & H3) (H0' & H1' & H2' & H3'). rewrite !step_form. unfold xadd. cbn [xr0 xr1 xr2 xr3]. f_equal.
  - rewrite (lxor4 (xr3 S)), lxor4. reflexivity.
  - rewrite (lxor4 (xr2 S)), lxor4. reflexivity.
  - rewrite (lxor4 (xr2 S)), shl_lxor, lxor4 by lia. reflexivity.
  - rewrite (lxor4 (xr3 S)), rot_lxor by (try apply lxor_word; try assumption; lia). reflexivity.
Qed.

(** The inverse step. *)
Definition xo_back (S : xoshiro) : xoshiro :=
  let d := rot (xr3 S) 19 in
  let a := Z.lxor (xr0 S) d in
  let y := Z.lxor (xr1 S) (xr2 S) in
  let b := Z.lxor (Z.lxor y (shl64 y 17)) (shl64 (Z.lxor y (shl64 y 17)) 34) in
  Xo a b (Z.lxor (Z.lxor b (xr1 S)) a) (Z.lxor d b).
Lemma unshift b : word 64 b -> let y := Z.lxor b (shl64 b 17) in
  Z.lxor (Z.lxor y (shl64 y 17)) (shl64 (Z.lxor y (shl64 y 17)) 34) = b.
Proof.
  intros Hb. cbv zeta. rewrite !shl_lxor, !shl_shl by lia.
  rewrite (shl_big b (17 + 17 + 34)) by lia. change (17 + 17) with 34. change (17 + 34) with 51.
  generalize (shl64 b 17) (shl64 b 34) (shl64 b 51). intros x y z. bits.
Qed.
Lemma lxor_cancel a b : Z.lxor (Z.lxor a b) b = a.
Proof. rewrite Z.lxor_assoc, Z.lxor_nilpotent. apply Z.lxor_0_r. Qed.
Lemma back_step S : xok S -> xo_back (xo_step S) = S.
Proof.
  intros (H0 & H1 & H2 & H3). rewrite step_form. destruct S as [a b c d]. cbn [xr0 xr1 xr2 xr3] in *. unfold xo_back. cbn [xr0 xr1 xr2 xr3].
  rewrite (rot_rot _ 45) by (try apply lxor_word; try assumption; lia).
  replace (Z.lxor (Z.lxor b (Z.lxor c a)) (Z.lxor (Z.lxor c a) (shl64 b 17))) with (Z.lxor b (shl64 b 17))
    by (generalize (shl64 b 17); intros; bits).
  rewrite (unshift b H1). f_equal.
  - apply lxor_cancel.
  - bits.
  - apply lxor_cancel.
Qed.
Lemma back_ok S : xok S -> xok (xo_back S).
Proof.
  intros (H0 & H1 & H2 & H3). unfold xok, xo_back. cbv zeta. cbn [xr0 xr1 xr2 xr3].
  assert (HR := rot_word _ 19 H3 ltac:(lia)).
  repeat match goal with |- _ /\ _ => split end; repeat (apply lxor_word || assumption || apply shl_word).
Qed.
Lemma step_back S : xok S -> xo_step (xo_back S) = S.
Proof.
  intros (H0 & H1 & H2 & H3). destruct S as [a b c d]. cbn [xr0 xr1 xr2 xr3] in *.
  rewrite step_form. unfold xo_back. cbn [xr0 xr1 xr2 xr3].
  set (y := Z.lxor b c). set (q := Z.lxor (Z.lxor y (shl64 y 17)) (shl64 (Z.lxor y (shl64 y 17)) 34)). set (r := rot d 19).
  assert (Hy : word 64 y) by (apply lxor_word; assumption).
  assert (Eq : Z.lxor q (shl64 q 17) = y).
  { unfold q. rewrite !shl_lxor, !shl_shl by lia. rewrite (shl_big y (17 + 34 + 17)) by lia.
    change (17 + 17) with 34. change (34 + 17) with 51. change (17 + 34) with 51.
    generalize (shl64 y 17) (shl64 y 34) (shl64 y 51). clear q. intros u v w. bits. }
  assert (Er : rot r 45 = d) by (apply (rot_rot d 19); [assumption | lia]).
  assert (Eqs : shl64 q 17 = Z.lxor q y) by (rewrite <- Eq; generalize (shl64 q 17); intros; bits).
  f_equal.
  - clearbody q r. bits.
  - clearbody q r. bits.
  - rewrite Eqs. unfold y. clearbody q r. bits.
  - etransitivity; [|exact Er]. f_equal. apply lxor_cancel.
Qed.

(** ** Bits of the state *)
Definition xw (S : xoshiro) (q : nat) : Z := match q with 0%nat => xr0 S | 1%nat => xr1 S | 2%nat => xr2 S | _ => xr3 S end.
Definition xbit (S : xoshiro) (i : nat) : bool := Z.testbit (xw S (i / 64)) (63 - Z.of_nat (i mod 64)).
Lemma split64 i : (i < 256)%nat -> exists q r, (q < 4)%nat /\ (r < 64)%nat /\ i = (r + q * 64)%nat.
Proof.
  intros Hi. exists (i / 64)%nat, (i mod 64)%nat. assert (D := Nat.div_mod i 64 ltac:(lia)).
  assert (M := Nat.mod_upper_bound i 64 ltac:(lia)). repeat split; lia.
Qed.
Lemma xbit_split S q r : (r < 64)%nat -> xbit S (r + q * 64) = Z.testbit (xw S q) (63 - Z.of_nat r).
Proof.
  intros Hr. unfold xbit. rewrite Nat.div_add, Nat.mod_add, (Nat.div_small r), (Nat.mod_small r) by lia. reflexivity.
Qed.
Lemma xw_word S q : xok S -> word 64 (xw S q).
Proof. intros (H0 & H1 & H2 & H3). destruct q as [|[|[|q]]]; assumption. Qed.
Lemma xbit_ext S S' : xok S -> xok S' -> (forall i, (i < 256)%nat -> xbit S i = xbit S' i) -> S = S'.
Proof.
  intros K K' H.
  assert (W : forall q, (q < 4)%nat -> xw S q = xw S' q).
  { intros q Hq. apply word_ext; try (apply xw_word; assumption). intros t Ht.
    assert (E := H (Z.to_nat (63 - t) + q * 64)%nat ltac:(lia)). rewrite !xbit_split in E by lia.
    replace (63 - Z.of_nat (Z.to_nat (63 - t))) with t in E by lia. exact E. }
  destruct S, S'. f_equal; [apply (W 0%nat) | apply (W 1%nat) | apply (W 2%nat) | apply (W 3%nat)]; lia.
Qed.

Lemma land_top x : (Z.land x (2 ^ 63) >? 0) = Z.testbit x 63.
Proof.
  assert (E : Z.land x (2 ^ 63) = Z.shiftl (Z.b2z (Z.testbit x 63)) 63).
  { apply Z.bits_inj'. intros t Ht. rewrite Z.land_spec, Z.pow2_bits_eqb, Z.shiftl_spec by lia.
    destruct (Z.eqb_spec 63 t) as [<-|N].
    - rewrite andb_true_r. change (63 - 63) with 0. rewrite Z.b2z_bit0. reflexivity.
    - rewrite andb_false_r. symmetry. destruct (Z_lt_le_dec t 63); [apply Z.testbit_neg_r; lia|].
      destruct (Z.testbit x 63); [|apply Z.testbit_0_l]. cbn [Z.b2z]. apply Z.bits_above_log2; [lia|]. cbn [Z.log2]. lia. }
  rewrite E. destruct (Z.testbit x 63); reflexivity.
Qed.
Lemma bits_nth r i : (i < 64)%nat -> nth i (xo_bits r) false = Z.testbit r (63 - Z.of_nat i).
Proof.
  intros Hi. unfold xo_bits. rewrite nth_map_seq by exact Hi. rewrite land_top, shl_bit by lia. reflexivity.
Qed.
Lemma bits_length r : length (xo_bits r) = 64%nat.
Proof. unfold xo_bits. rewrite map_length, seq_length. reflexivity. Qed.
Lemma vector_bit S i : (i < 256)%nat -> vget gf2_scalar (xo_vector S) i = xbit S i.
Proof.
  intros Hi. destruct (split64 i Hi) as (q & r & Hq & Hr & ->). rewrite xbit_split by exact Hr.
  unfold vget, xo_vector. cbn [s_zero gf2_scalar].
  destruct q as [|[|[|[|q]]]]; [| | | | lia]; cbn [xw].
  - rewrite app_nth1 by (rewrite bits_length; lia). rewrite <- bits_nth by lia. f_equal. lia.
  - rewrite app_nth2, app_nth1 by (rewrite ?bits_length; lia). rewrite bits_length, <- bits_nth by lia. f_equal. lia.
  - rewrite !app_nth2, app_nth1 by (rewrite ?bits_length; lia). rewrite !bits_length, <- bits_nth by lia. f_equal. lia.
  - rewrite !app_nth2 by (rewrite ?bits_length; lia). rewrite !bits_length, <- bits_nth by lia. f_equal. lia.
Qed.

(** Reading the words back. *)
Lemma fold_word (b : nat -> bool) n : (n <= 64)%nat ->
  let x := fold_left (fun r i => let r := shl64 r 1 in if b i then Z.lor r 1 else r) (seq 0 n) 0 in
  word 64 x /\ forall t, 0 <= t < 64 -> Z.testbit x t = (t <? Z.of_nat n) && b (n - 1 - Z.to_nat t)%nat.
Proof.
  induction n as [|n IH]; intros Hn; cbv zeta.
  - cbn [seq fold_left]. split; [split; [lia | reflexivity]|]. intros t Ht. rewrite Z.testbit_0_l.
    destruct (Z.ltb_spec t (Z.of_nat 0)); [lia | reflexivity].
  - rewrite seq_S, fold_left_app. cbn [fold_left]. destruct IH as (IH1 & IH2); [lia|]. cbv zeta in *.
    cbn [Nat.add] in *. set (x := fold_left _ (seq 0 n) 0) in *. clearbody x. split.
    + destruct (b n); [|apply shl_word]. apply word_bits; [lia|]. split.
      * apply Z.lor_nonneg. assert (H := shl_word x 1). unfold word in H. lia.
      * intros t Ht. rewrite Z.lor_spec, shl_bit by lia. destruct (Z.ltb_spec t 64); [lia|]. cbn [andb orb].
        apply Z.bits_above_log2; cbn [Z.log2]; lia.
    + intros t Ht. destruct (Z.eq_dec t 0) as [->|N].
      * destruct (Z.ltb_spec 0 (Z.of_nat (S n))); [|lia]. replace (S n - 1 - Z.to_nat 0)%nat with n by lia. cbn [andb].
        assert (E : Z.testbit (shl64 x 1) 0 = false) by (rewrite shl_bit, Z.testbit_neg_r by lia; apply andb_false_r).
        destruct (b n); [rewrite Z.lor_spec|]; rewrite E; reflexivity.
      * assert (E : Z.testbit (if b n then Z.lor (shl64 x 1) 1 else shl64 x 1) t = Z.testbit (shl64 x 1) t).
        { destruct (b n); [|reflexivity]. rewrite Z.lor_spec, (Z.bits_above_log2 1 t) by (cbn [Z.log2]; lia). apply orb_false_r. }
        rewrite E, shl_bit by lia. destruct (Z.ltb_spec t 64); [|lia]. cbn [andb]. rewrite IH2 by lia.
        destruct (Z.ltb_spec (t - 1) (Z.of_nat n)), (Z.ltb_spec t (Z.of_nat (S n))); try lia.
        f_equal. f_equal. lia.
Qed.
Lemma word_back v j : word 64 (xo_word v j) /\
  forall r, (r < 64)%nat -> Z.testbit (xo_word v j) (63 - Z.of_nat r) = vget gf2_scalar v (r + j * 64).
Proof.
  destruct (fold_word (fun i => vget gf2_scalar v (i + 64 * j)) 64 (le_n _)) as (A & B).
  split; [exact A|]. intros r Hr. unfold xo_word. rewrite B by lia.
  destruct (Z.ltb_spec (63 - Z.of_nat r) (Z.of_nat 64)); [|lia]. cbn [andb]. f_equal. lia.
Qed.
Lemma of_vector_ok v : xok (xo_of_vector v).
Proof. unfold xo_of_vector. repeat split; cbn [xr0 xr1 xr2 xr3]; apply word_back. Qed.
Lemma of_vector_bit v i : (i < 256)%nat -> xbit (xo_of_vector v) i = vget gf2_scalar v i.
Proof.
  intros Hi. destruct (split64 i Hi) as (q & r & Hq & Hr & ->). rewrite xbit_split by exact Hr.
  destruct q as [|[|[|[|q]]]]; [| | | | lia]; apply word_back; exact Hr.
Qed.

(** ** The matrix of the step *)
Lemma shiftr_top i : 0 <= i < 64 -> Z.shiftr (2 ^ 63) i = 2 ^ (63 - i).
Proof.
  intros Hi. rewrite Z.shiftr_div_pow2 by lia. replace 63 with (63 - i + i) at 1 by lia.
  rewrite Z.pow_add_r by lia. apply Z.div_mul. apply Z.pow_nonzero; lia.
Qed.
Lemma eye_form q r : (q < 4)%nat -> (r < 64)%nat -> xok (xo_eye (r + q * 64)) /\
  forall q', (q' < 4)%nat -> xw (xo_eye (r + q * 64)) q' = if Nat.eqb q q' then 2 ^ (63 - Z.of_nat r) else 0.
Proof.
  intros Hq Hr.
  assert (E : xo_eye (r + q * 64) = let x := 2 ^ (63 - Z.of_nat r) in
    match q with 0%nat => Xo x 0 0 0 | 1%nat => Xo 0 x 0 0 | 2%nat => Xo 0 0 x 0 | _ => Xo 0 0 0 x end).
  { unfold xo_eye. cbv zeta. rewrite Nat2Z.inj_add, Nat2Z.inj_mul.
    destruct q as [|[|[|[|q]]]]; [| | | | lia]; change (Z.of_nat 64) with 64;
      cbn [Z.of_nat Pos.of_succ_nat Pos.succ];
      repeat match goal with |- context [?a <? ?b] => destruct (Z.ltb_spec a b); try lia end;
      rewrite shiftr_top by lia; repeat f_equal; lia. }
  assert (W : word 64 (2 ^ (63 - Z.of_nat r))).
  { split; [apply Z.pow_nonneg; lia | apply Z.pow_lt_mono_r; lia]. }
  assert (W0 : word 64 0) by (split; [lia | reflexivity]).
  cbv zeta in E. rewrite E. split.
  - destruct q as [|[|[|[|q]]]]; [| | | | lia]; (repeat split; cbn [xr0 xr1 xr2 xr3]; try apply W; try apply W0).
  - intros q' Hq'. destruct q as [|[|[|[|q]]]]; [| | | | lia]; (destruct q' as [|[|[|[|q']]]]; [| | | | lia]); reflexivity.
Qed.
Lemma eye_ok i : (i < 256)%nat -> xok (xo_eye i).
Proof. intros Hi. destruct (split64 i Hi) as (q & r & Hq & Hr & ->). apply eye_form; assumption. Qed.
Lemma eye_bit i j : (i < 256)%nat -> (j < 256)%nat -> xbit (xo_eye i) j = Nat.eqb i j.
Proof.
  intros Hi Hj. destruct (split64 i Hi) as (q & r & Hq & Hr & ->). destruct (split64 j Hj) as (q' & r' & Hq' & Hr' & ->).
  rewrite xbit_split by exact Hr'. rewrite (proj2 (eye_form q r Hq Hr)) by exact Hq'.
  destruct (Nat.eqb_spec q q') as [<-|N].
  - rewrite Z.pow2_bits_eqb by lia. destruct (Z.eqb_spec (63 - Z.of_nat r) (63 - Z.of_nat r')), (Nat.eqb_spec (r + q * 64) (r' + q * 64)); lia || reflexivity.
  - rewrite Z.testbit_0_l. destruct (Nat.eqb_spec (r + q * 64) (r' + q' * 64)); [lia | reflexivity].
Qed.
Lemma xbit_add S S' i : xbit (xadd S S') i = xorb (xbit S i) (xbit S' i).
Proof. unfold xbit, xadd. destruct (i / 64)%nat as [|[|[|q]]]; cbn [xw xr0 xr1 xr2 xr3]; apply Z.lxor_spec. Qed.
Lemma xadd_ok S S' : xok S -> xok S' -> xok (xadd S S').
Proof. intros (H0 & H1 & H2 & H3) (H0' & H1' & H2' & H3'). repeat split; cbn [xr0 xr1 xr2 xr3 xadd]; apply lxor_word; assumption. Qed.

Definition xo0 : xoshiro := Xo 0 0 0 0.
Lemma xo0_ok : xok xo0. Proof. repeat split; cbn; lia. Qed.
Lemma step_xo0 : xo_step xo0 = xo0. Proof. reflexivity. Qed.
Lemma xbit_xo0 i : xbit xo0 i = false.
Proof. unfold xbit. destruct (i / 64)%nat as [|[|[|q]]]; apply Z.testbit_0_l. Qed.

Fixpoint part (S : xoshiro) (n : nat) : xoshiro :=
  match n with O => xo0 | Datatypes.S n => if xbit S n then xadd (part S n) (xo_eye n) else part S n end.
Lemma part_ok S n : (n <= 256)%nat -> xok (part S n).
Proof.
  induction n; intros H; cbn [part]; [apply xo0_ok|]. destruct (xbit S n); [|apply IHn; lia].
  apply xadd_ok; [apply IHn; lia | apply eye_ok; lia].
Qed.
Lemma part_bit S n i : (n <= 256)%nat -> (i < 256)%nat -> xbit (part S n) i = (i <? n)%nat && xbit S i.
Proof.
  intros H Hi. induction n; cbn [part]; [apply xbit_xo0|].
  destruct (xbit S n) eqn:E; [rewrite xbit_add, eye_bit by lia|]; rewrite IHn by lia;
    destruct (Nat.ltb_spec i n), (Nat.ltb_spec i (Datatypes.S n)); try lia; cbn [andb].
  all: try (destruct (Nat.eqb_spec n i); [lia|]); rewrite ?xorb_false_r; try reflexivity.
  all: replace i with n by lia; rewrite ?Nat.eqb_refl, ?E; reflexivity.
Qed.
Lemma part_all S : xok S -> part S 256 = S.
Proof.
  intros K. apply xbit_ext; [apply part_ok; lia | exact K|]. intros i Hi. rewrite part_bit by lia.
  destruct (Nat.ltb_spec i 256); [reflexivity | lia].
Qed.

Definition xA (j i : nat) : Z := Z.b2z (xbit (xo_step (xo_eye i)) j).
Definition xv (S : xoshiro) (i : nat) : Z := Z.b2z (xbit S i).
Lemma step_part S n j : (n <= 256)%nat -> cong 2 (xv (xo_step (part S n)) j) (sum n (fun i => xA j i * xv S i)).
Proof.
  induction n; intros H; cbn [part sum].
  - rewrite step_xo0. unfold xv. rewrite xbit_xo0. reflexivity.
  - rewrite <- IHn by lia. destruct (xbit S n) eqn:E.
    + rewrite step_add by (try apply part_ok; try apply eye_ok; lia). unfold xv at 1. rewrite xbit_add, b2z_cong2.
      unfold xv at 2. rewrite E. cbn [Z.b2z]. unfold xA. rewrite Z.mul_1_r. reflexivity.
    + unfold xv at 3. rewrite E. cbn [Z.b2z]. rewrite Z.mul_0_r, Z.add_0_r. reflexivity.
Qed.
Lemma step_mv S j : xok S -> cong 2 (xv (xo_step S) j) (mv 256 xA (xv S) j).
Proof. intros K. rewrite <- (part_all S K) at 1. apply (step_part S 256 j). lia. Qed.
Lemma iter_ok k S : xok S -> xok (Nat.iter k xo_step S).
Proof. intros K. apply iter_inv; [apply step_ok | exact K]. Qed.
Lemma steps_mv k S j : (j < 256)%nat -> xok S -> cong 2 (xv (Nat.iter k xo_step S) j) (Nat.iter k (mv 256 xA) (xv S) j).
Proof.
  revert j. induction k; intros j Hj K; [reflexivity|]. cbn [Nat.iter nat_rect].
  rewrite step_mv by (apply iter_ok, K). apply mv_cong.
  - intros; reflexivity.
  - intros i Hi. apply IHk; assumption.
  - exact Hj.
Qed.

Lemma gf2_laws : cong 2 (Z.b2z (s_zero gf2_scalar)) 0 /\ cong 2 (Z.b2z (s_one gf2_scalar)) 1 /\
  (forall x y, cong 2 (Z.b2z (s_add gf2_scalar x y)) (Z.b2z x + Z.b2z y)) /\
  (forall x y, cong 2 (Z.b2z (s_mul gf2_scalar x y)) (Z.b2z x * Z.b2z y)).
Proof.
  split; [reflexivity|]. split; [reflexivity|]. split; [exact b2z_cong2|].
  intros x y. cbn [s_mul gf2_scalar]. rewrite b2z_mul. reflexivity.
Qed.
Lemma matrix_den i j : (i < 256)%nat -> (j < 256)%nat -> mden gf2_scalar Z.b2z 256 xo_matrix i j = xA i j.
Proof. intros Hi Hj. unfold mden, xo_matrix, xA. rewrite mget_make by assumption. rewrite vector_bit by assumption. reflexivity. Qed.
Lemma b2z_cong_eq x y : cong 2 (Z.b2z x) (Z.b2z y) -> x = y.
Proof. intros (k & E). destruct x, y; cbn [Z.b2z] in E; lia || reflexivity. Qed.

(** Multiplying by a matrix that is the k-th power gives the state k steps ahead. *)
Lemma jump_eq M k S : xok S ->
  (forall i j, (i < 256)%nat -> (j < 256)%nat -> cong 2 (mden gf2_scalar Z.b2z 256 M i j) (mpow 256 xA k i j)) ->
  xo_of_vector (mat_vec gf2_scalar 256 M (xo_vector S)) = Nat.iter k xo_step S.
Proof.
  intros K HM. apply xbit_ext; [apply of_vector_ok | apply iter_ok, K|]. intros i Hi. rewrite of_vector_bit by exact Hi.
  destruct gf2_laws as (L0 & L1 & L2 & L3). apply b2z_cong_eq.
  assert (E := mat_vec_den gf2_scalar 2 Z.b2z L0 L2 L3 256 M (xo_vector S) i Hi). unfold vden at 1 in E.
  rewrite E. fold (xv (Nat.iter k xo_step S) i). rewrite steps_mv by assumption. rewrite <- mv_mpow by exact Hi.
  apply mv_cong.
  - intros a b Ha Hb. apply HM; assumption.
  - intros b Hb. unfold vden, xv. rewrite vector_bit by exact Hb. reflexivity.
  - exact Hi.
Qed.
Lemma xo_jump_eq s S : xok S -> 0 <= s < 2 ^ 64 -> xo_jump s S = Nat.iter (Z.to_nat s) xo_step S.
Proof.
  intros K Hs. unfold xo_jump. destruct (s <? 16); [reflexivity|]. apply jump_eq; [exact K|].
  destruct gf2_laws as (L0 & L1 & L2 & L3). intros i j Hi Hj.
  assert (E := mat_power_den gf2_scalar 2 Z.b2z L0 L1 L2 L3 256 xo_matrix s i j Hs Hi Hj). rewrite E.
  apply mpow_cong; try assumption. intros a b Ha Hb. rewrite matrix_den by assumption. reflexivity.
Qed.
Lemma jump2_matrix k : forall i j, (i < 256)%nat -> (j < 256)%nat ->
  cong 2 (mden gf2_scalar Z.b2z 256 (Nat.iter k (fun M => mat_power gf2_scalar 256 M 2) xo_matrix) i j) (mpow 256 xA (2 ^ k) i j).
Proof.
  destruct gf2_laws as (L0 & L1 & L2 & L3).
  induction k; intros i j Hi Hj.
  - change (2 ^ 0)%nat with 1%nat. cbn [Nat.iter nat_rect mpow]. rewrite matrix_den by assumption.
    rewrite mm_unit_l by exact Hi. reflexivity.
  - cbn [Nat.iter nat_rect]. set (M := nat_rect _ _ _ k) in *.
    assert (E := mat_power_den gf2_scalar 2 Z.b2z L0 L1 L2 L3 256 M 2 i j ltac:(lia) Hi Hj). rewrite E.
    rewrite (mpow_cong 2 256 _ (mpow 256 xA (2 ^ k)) (Z.to_nat 2) i j) by (try assumption).
    change (Z.to_nat 2) with 2%nat. replace (2 ^ Datatypes.S k)%nat with (2 ^ k + 2 ^ k)%nat by (cbn [Nat.pow]; lia). rewrite (mpow_add 256 xA) by assumption.
    change (mpow 256 ?A 2) with (mm 256 (mm 256 (fun i j => if Nat.eqb i j then 1 else 0) A) A). rewrite (mm_ext 256 _ (mpow 256 xA (2 ^ k)) _ (mpow 256 xA (2 ^ k)) i j); try assumption; try reflexivity.
    intros a b Ha Hb. apply mm_unit_l. exact Ha.
Qed.
Lemma xo_jump2_eq s S : xok S -> xo_jump2 s S = Nat.iter (2 ^ Z.to_nat s) xo_step S.
Proof. intros K. unfold xo_jump2. cbv zeta. apply jump_eq; [exact K|]. intros. apply jump2_matrix; assumption. Qed.
