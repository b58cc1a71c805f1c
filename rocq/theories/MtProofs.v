(** Lemmas about the Mersenne twister model. *)
From Coq Require Import ZArith List Bool Lia Arith.
From Verif Require Import Base BaseFacts Cong Sums IntMathModel GaussModel GaussProofs LagfibModel MtModel.
Import ListNotations.
Open Scope Z_scope.

(** The new word computed from x[k], x[k+1], x[k+M], as the code does. *)
Definition mt_mix (c : mt_class) (a b m : Z) : Z :=
  let x := Z.lor (Z.land a (mt_UM c)) (Z.land b (mt_LM c)) in
  Z.lxor (Z.lxor m (Z.shiftr x 1)) (if Z.land x 1 =? 1 then mt_A c else 0).

Lemma rd_nth r q : (q < length r)%nat -> rd r (Z.of_nat q) = Some (nth q r 0).
Proof.
  intros H. unfold rd. destruct (Z.ltb_spec (Z.of_nat q) 0); [lia|]. rewrite Nat2Z.id. apply nth_error_nth'. exact H.
Qed.
Lemma wr_upd r q v : (q < length r)%nat -> wr r (Z.of_nat q) v = Some (upd r q v).
Proof.
  intros H. unfold wr. destruct (Z.leb_spec 0 (Z.of_nat q)); [|lia].
  destruct (Z.ltb_spec (Z.of_nat q) (Z.of_nat (length r))); [|lia]. cbn [andb]. rewrite Nat2Z.id. reflexivity.
Qed.

Section Mt.
Variable c : mt_class.
Notation N := (mt_N c).
Notation M := (mt_M c).
Hypothesis HM : (0 < M < N)%nat.

Definition mt_rec (x : nat -> Z) : Prop := forall k, x (k + N)%nat = mt_mix c (x k) (x (k + 1)%nat) (x (k + M)%nat).

(** The first i words of the block already hold the terms N places further on. *)
Definition mixed (x : nat -> Z) (b i : nat) (r : list Z) : Prop :=
  length r = N /\ forall q, (q < N)%nat -> nth q r 0 = x (b + q + if (q <? i)%nat then N else 0)%nat.

Lemma set_mixed x b i r (k j : nat) : mt_rec x -> mixed x b i r -> (i < N)%nat ->
  k = ((i + 1) mod N)%nat -> j = ((i + M) mod N)%nat ->
  exists r', mt_set c r (Z.of_nat i) (Z.of_nat k) (Z.of_nat j) = Some r' /\ mixed x b (S i) r'.
Proof.
  intros Hx (L & H) Hi Ek Ej.
  assert (Hk : (k < N)%nat) by (subst k; apply Nat.mod_upper_bound; lia).
  assert (Hj : (j < N)%nat) by (subst j; apply Nat.mod_upper_bound; lia).
  unfold mt_set. rewrite !rd_nth by lia. cbn [bind]. cbv zeta. rewrite wr_upd by lia. eexists. split; [reflexivity|].
  split; [rewrite upd_length; exact L|]. intros q Hq. rewrite nth_upd by lia.
  destruct (Nat.eqb_spec q i) as [->|Ne].
  - destruct (Nat.ltb_spec i (S i)); [|lia]. rewrite Hx. unfold mt_mix.
    assert (Ea : nth i r 0 = x (b + i)%nat).
    { rewrite H by exact Hi. destruct (Nat.ltb_spec i i); [lia|]. f_equal. lia. }
    assert (Eb : nth k r 0 = x (b + i + 1)%nat).
    { rewrite H by exact Hk. f_equal. destruct (Nat.eq_dec (i + 1) N) as [E|E].
      - rewrite E, Nat.mod_same in Ek by lia. subst k. destruct (Nat.ltb_spec 0 i); lia.
      - rewrite Nat.mod_small in Ek by lia. subst k. destruct (Nat.ltb_spec (i + 1) i); lia. }
    assert (Em : nth j r 0 = x (b + i + M)%nat).
    { rewrite H by exact Hj. f_equal. destruct (Nat.lt_ge_cases (i + M) N) as [E|E].
      - rewrite Nat.mod_small in Ej by lia. subst j. destruct (Nat.ltb_spec (i + M) i); lia.
      - replace (i + M)%nat with (i + M - N + 1 * N)%nat in Ej by lia. rewrite Nat.mod_add, Nat.mod_small in Ej by lia.
        subst j. destruct (Nat.ltb_spec (i + M - N) i); lia. }
    rewrite Ea, Eb, Em. reflexivity.
  - rewrite H by exact Hq. f_equal. f_equal. destruct (Nat.ltb_spec q i), (Nat.ltb_spec q (S i)); lia.
Qed.

Lemma loop_mixed x b off : mt_rec x -> forall cnt i r, mixed x b i r -> (i + cnt < N)%nat ->
  (forall q, (i <= q < i + cnt)%nat -> Z.of_nat q + off = Z.of_nat ((q + M) mod N)) ->
  exists r', mt_loop c cnt (Z.of_nat i) off r = Some r' /\ mixed x b (i + cnt) r'.
Proof.
  intros Hx. induction cnt; intros i r Hr Hi Hoff.
  - exists r. split; [reflexivity|]. rewrite Nat.add_0_r. exact Hr.
  - cbn [mt_loop]. rewrite (Hoff i) by lia.
    replace (Z.of_nat i + 1) with (Z.of_nat (S i)) by lia.
    destruct (set_mixed x b i r (S i) ((i + M) mod N) Hx Hr ltac:(lia)) as (r1 & E1 & M1).
    + rewrite Nat.mod_small; lia.
    + reflexivity.
    + rewrite E1. cbn [bind]. replace (i + S cnt)%nat with (S i + cnt)%nat by lia. apply IHcnt; [exact M1 | lia|].
      intros q Hq. apply Hoff. lia.
Qed.

Lemma regenerate_mixed x b r : mt_rec x -> mixed x b 0 r ->
  exists r', mt_regenerate c r = Some r' /\ mixed x (b + N) 0 r'.
Proof.
  intros Hx Hr. unfold mt_regenerate. cbv zeta.
  destruct (loop_mixed x b (Z.of_nat M) Hx (N - M) 0 r Hr ltac:(lia)) as (r1 & E1 & M1).
  { intros q Hq. rewrite Nat.mod_small; lia. }
  change (Z.of_nat 0) with 0 in E1. rewrite E1. cbn [bind].
  destruct (loop_mixed x b (Z.of_nat M - Z.of_nat N) Hx (M - 1) (N - M) r1 M1 ltac:(lia)) as (r2 & E2 & M2).
  { intros q Hq. replace (q + M)%nat with (q + M - N + 1 * N)%nat by lia. rewrite Nat.mod_add, Nat.mod_small; lia. }
  replace (Z.of_nat N - Z.of_nat M) with (Z.of_nat (N - M)) by lia. rewrite E2. cbn [bind].
  replace (N - M + (M - 1))%nat with (N - 1)%nat in M2 by lia.
  destruct (set_mixed x b (N - 1) r2 0 (M - 1) Hx M2 ltac:(lia)) as (r3 & E3 & M3).
  { replace (N - 1 + 1)%nat with N by lia. rewrite Nat.mod_same; lia. }
  { replace (N - 1 + M)%nat with (M - 1 + 1 * N)%nat by lia. rewrite Nat.mod_add, Nat.mod_small; lia. }
  replace (Z.of_nat N - 1) with (Z.of_nat (N - 1)) by lia. replace (Z.of_nat M - 1) with (Z.of_nat (M - 1)) by lia.
  change 0 with (Z.of_nat 0) at 1. rewrite E3. exists r3. split; [reflexivity|]. destruct M3 as (L & H). split; [exact L|].
  intros q Hq. rewrite H by exact Hq. f_equal. destruct (Nat.ltb_spec q (S (N - 1))), (Nat.ltb_spec q 0); lia.
Qed.

(** The engine stands at term t of x. *)
Definition at_term (x : nat -> Z) (t : nat) (S : mt) : Prop :=
  exists b p : nat, (p <= N)%nat /\ mt_i S = Z.of_nat p /\ t = (b + p)%nat /\ mixed x b 0 (mt_v S).
Lemma step_at x t S : mt_rec x -> at_term x t S ->
  exists S', mt_step c S = Some (mt_temper c (x t), S') /\ at_term x (t + 1) S'.
Proof.
  intros Hx (b & p & Hp & Ei & Et & Hm). unfold mt_step. cbv zeta. rewrite Ei, Z.geb_leb.
  destruct (Z.leb_spec (Z.of_nat N) (Z.of_nat p)).
  - destruct (regenerate_mixed x b (mt_v S) Hx Hm) as (r' & E & Hm'). rewrite E. cbn [bind mt_v mt_i].
    change 0 with (Z.of_nat 0). destruct Hm' as (L & H'). rewrite rd_nth by lia. cbn [bind]. eexists. split.
    + rewrite H' by lia. destruct (Nat.ltb_spec 0 0); [lia|]. replace (b + N + 0 + 0)%nat with t by lia. reflexivity.
    + exists (b + N)%nat, 1%nat. cbn [mt_i mt_v]. split; [lia|]. split; [reflexivity|]. split; [lia|]. split; assumption.
  - cbn [bind]. rewrite Ei. destruct Hm as (L & H'). rewrite rd_nth by lia. cbn [bind]. eexists. split.
    + rewrite H' by lia. destruct (Nat.ltb_spec p 0); [lia|]. replace (b + p + 0)%nat with t by lia. reflexivity.
    + exists b, (p + 1)%nat. cbn [mt_i mt_v]. split; [lia|]. split; [lia|]. split; [lia|]. split; assumption.
Qed.
Lemma after_at x t S k : mt_rec x -> at_term x t S ->
  exists S', after (mt_next c) k (Some S) = Some S' /\ at_term x (t + k) S'.
Proof.
  intros Hx. unfold after. induction k; intros H.
  - exists S. split; [reflexivity|]. rewrite Nat.add_0_r. exact H.
  - destruct (IHk H) as (S1 & E1 & A1). cbn [Nat.iter nat_rect]. unfold Nat.iter in E1. rewrite E1.
    destruct (step_at x _ S1 Hx A1) as (S2 & E2 & A2). unfold mt_next. cbn [bind]. rewrite E2. exists S2.
    split; [reflexivity|]. replace (t + Datatypes.S k)%nat with (t + k + 1)%nat by lia. exact A2.
Qed.
Lemma draw_at x t S k : mt_rec x -> at_term x t S -> draw (mt_next c) (Some S) k = Some (mt_temper c (x (t + k)%nat)).
Proof.
  intros Hx H. unfold draw. destruct (after_at x t S k Hx H) as (S1 & E1 & A1). rewrite E1.
  destruct (step_at x _ S1 Hx A1) as (S2 & E2 & _). unfold mt_next. cbn [bind]. rewrite E2. reflexivity.
Qed.

(** Every start block extends to a solution of the recurrence: the regenerated blocks. *)
Fixpoint xs (r : list Z) (k : nat) : list Z :=
  match k with O => r | S k => let v := xs r k in v ++ [mt_mix c (nth k v 0) (nth (k + 1) v 0) (nth (k + M) v 0)] end.
Definition xseq (r : list Z) (k : nat) : Z := nth k (xs r k) 0.
Lemma xs_length r k : length (xs r k) = (length r + k)%nat.
Proof. induction k; cbn [xs]; [lia|]. cbv zeta. rewrite app_length, IHk. cbn [length]. lia. Qed.
Lemma xs_nth r k j q : (q < length r + k)%nat -> nth q (xs r (k + j)) 0 = nth q (xs r k) 0.
Proof.
  intros Hq. induction j; [rewrite Nat.add_0_r; reflexivity|]. rewrite Nat.add_succ_r. cbn [xs]. cbv zeta.
  rewrite app_nth1 by (rewrite xs_length; lia). exact IHj.
Qed.
Lemma xseq_nth r k q : length r = N -> (q < N + k)%nat -> nth q (xs r k) 0 = xseq r q.
Proof.
  intros L Hq. unfold xseq. destruct (Nat.le_ge_cases k q).
  - replace q with (k + (q - k))%nat at 3 by lia. symmetry. apply xs_nth. lia.
  - replace k with (q + (k - q))%nat by lia. apply xs_nth. lia.
Qed.
Lemma xseq_rec r : length r = N -> mt_rec (xseq r).
Proof.
  intros L k. rewrite <- (xseq_nth r (S k) (k + N)) by lia. cbn [xs]. cbv zeta.
  rewrite app_nth2 by (rewrite xs_length; lia). rewrite xs_length. replace (k + N - (length r + k))%nat with 0%nat by lia. cbn [nth].
  rewrite !xseq_nth by lia. reflexivity.
Qed.
Lemma xseq_start r q : length r = N -> (q < N)%nat -> xseq r q = nth q r 0.
Proof. intros L Hq. rewrite <- (xseq_nth r 0) by lia. reflexivity. Qed.

(** ** Seeding *)
Fixpoint seed_term (c : mt_class) (s : Z) (q : nat) : Z :=
  match q with O => mt_seed0 c s | S q' => mt_seed_step c (seed_term c s q') (Z.of_nat q) end.
Lemma seed_loop_eq s cnt : forall i r, (0 < i)%nat -> (i + cnt = N)%nat -> length r = N ->
  (forall q, (q < i)%nat -> nth q r 0 = seed_term c s q) ->
  exists r', mt_seed_loop c cnt (Z.of_nat i) r = Some r' /\ length r' = N /\ forall q, (q < N)%nat -> nth q r' 0 = seed_term c s q.
Proof.
  induction cnt; intros i r Hi Hc L H.
  - exists r. split; [reflexivity|]. split; [exact L|]. intros q Hq. apply H. lia.
  - cbn [mt_seed_loop]. replace (Z.of_nat i - 1) with (Z.of_nat (i - 1)) by lia. rewrite rd_nth by lia. cbn [bind].
    rewrite wr_upd by lia. cbn [bind]. replace (Z.of_nat i + 1) with (Z.of_nat (S i)) by lia.
    apply IHcnt; [lia | lia | rewrite upd_length; exact L|]. intros q Hq. rewrite nth_upd by lia.
    destruct (Nat.eqb_spec q i) as [->|]; [|apply H; lia]. rewrite H by lia.
    destruct i as [|i]; [lia|]. cbn [seed_term]. replace (S i - 1)%nat with i by lia. reflexivity.
Qed.
Lemma seed_eq s S : length (mt_v S) = N ->
  exists S', mt_seed c s S = Some S' /\ mt_i S' = Z.of_nat N /\ length (mt_v S') = N /\
    forall q, (q < N)%nat -> nth q (mt_v S') 0 = seed_term c s q.
Proof.
  intros L. unfold mt_seed. change 0 with (Z.of_nat 0) at 1. rewrite wr_upd by lia. cbn [bind].
  destruct (seed_loop_eq s (N - 1) 1 (upd (mt_v S) 0 (mt_seed0 c s))) as (r' & E & Lr & Hr); [lia | lia | rewrite upd_length; exact L | |].
  - intros q Hq. rewrite nth_upd by lia. replace q with 0%nat by lia. reflexivity.
  - change (Z.of_nat 1) with 1 in E. rewrite E. cbn [bind]. eexists. split; [reflexivity|]. cbn [mt_i mt_v]. split; [reflexivity|]. split; assumption.
Qed.
End Mt.

(** ** Words and bits *)
Lemma word_testbit_w w x t : 0 <= w -> word w x -> w <= t -> Z.testbit x t = false.
Proof. intros Hw Hx Ht. apply (proj1 (word_bits w x Hw) Hx). exact Ht. Qed.
Lemma word_of_bits w x : 0 <= w -> 0 <= x -> (forall t, w <= t -> Z.testbit x t = false) -> word w x.
Proof. intros Hw Hx H. apply word_bits; [exact Hw|]. split; assumption. Qed.

(** x ^ ((x >> k) & m) and x ^ ((x << k) & m) are one-to-one on words. *)
Lemma xor_shiftr_inj w k m x y : 0 < k -> 0 <= w -> word w x -> word w y ->
  Z.lxor x (Z.land (Z.shiftr x k) m) = Z.lxor y (Z.land (Z.shiftr y k) m) -> x = y.
Proof.
  intros Hk Hw Hx Hy E.
  assert (H : forall n i, w - Z.of_nat n <= i -> 0 <= i -> Z.testbit x i = Z.testbit y i).
  { induction n; intros i Hi Hi0.
    - rewrite !(word_testbit_w w) by (try assumption; lia). reflexivity.
    - assert (T : Z.testbit (Z.lxor x (Z.land (Z.shiftr x k) m)) i = Z.testbit (Z.lxor y (Z.land (Z.shiftr y k) m)) i) by now rewrite E.
      rewrite !Z.lxor_spec, !Z.land_spec, !Z.shiftr_spec, (IHn (i + k)) in T by lia.
      destruct (Z.testbit x i), (Z.testbit y i), (Z.testbit y (i + k)), (Z.testbit m i); simpl in T; congruence. }
  apply Z.bits_inj'. intros i Hi. apply (H (Z.to_nat w)); lia.
Qed.
Lemma xor_shiftl_inj w k m x y : 0 < k -> 0 <= w -> word w x -> word w y ->
  Z.lxor x (Z.land (Z.shiftl x k mod 2 ^ w) m) = Z.lxor y (Z.land (Z.shiftl y k mod 2 ^ w) m) -> x = y.
Proof.
  intros Hk Hw Hx Hy E.
  assert (H : forall n i, i < Z.of_nat n -> 0 <= i < w -> Z.testbit x i = Z.testbit y i).
  { induction n; intros i Hi Hi0; [lia|].
    assert (T : Z.testbit (Z.lxor x (Z.land (Z.shiftl x k mod 2 ^ w) m)) i = Z.testbit (Z.lxor y (Z.land (Z.shiftl y k mod 2 ^ w) m)) i) by now rewrite E.
    rewrite !Z.lxor_spec, !Z.land_spec, !Z.mod_pow2_bits_low, !Z.shiftl_spec in T by lia.
    destruct (Z_lt_le_dec i k).
    - rewrite !(Z.testbit_neg_r _ (i - k)) in T by lia.
      destruct (Z.testbit x i), (Z.testbit y i); simpl in T; congruence.
    - rewrite (IHn (i - k)) in T by lia.
      destruct (Z.testbit x i), (Z.testbit y i), (Z.testbit y (i - k)), (Z.testbit m i); simpl in T; congruence. }
  apply Z.bits_inj'. intros i Hi. destruct (Z_lt_le_dec i w); [apply (H (Z.to_nat w)); lia|].
  rewrite !(word_testbit_w w) by (try assumption; lia). reflexivity.
Qed.
Lemma xor_land_word w x y m : 0 <= w -> word w x -> word w y -> word w (Z.lxor x (Z.land y m)).
Proof.
  intros Hw Hx Hy. apply lxor_range; [exact Hw | exact Hx|]. apply word_of_bits; [exact Hw | apply Z.land_nonneg; left; apply Hy|].
  intros t Ht. rewrite Z.land_spec, (word_testbit_w w y) by assumption. reflexivity.
Qed.
Lemma shr_word w x k : 0 <= w -> 0 <= k -> word w x -> word w (Z.shiftr x k).
Proof. intros. apply shiftr_range; assumption. Qed.
Lemma mod_word w x : 0 <= w -> word w (x mod 2 ^ w).
Proof. intros. apply Z.mod_pos_bound, Z.pow_pos_nonneg; lia. Qed.
