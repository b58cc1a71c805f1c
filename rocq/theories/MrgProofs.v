(** Proofs about the mrg model: step, jump2, jump, split. *)
From Coq Require Import ZArith Znumtheory List Bool Arith Lia.
From Verif Require Import Base BaseFacts Cong Sums Spec SpecFacts IntMathModel IntMathProofs GaussModel GaussProofs
  LinRec MrgModel MrgStepProofs.
Import ListNotations.
Open Scope Z_scope.

Lemma nth_removelast {A} (l : list A) d : forall j, (S j < length l)%nat -> nth j (removelast l) d = nth j l d.
Proof.
  induction l as [|x l IH]; intros j Hj; [cbn in Hj; lia|].
  destruct l as [|y l]; [cbn in Hj; lia|].
  change (removelast (x :: y :: l)) with (x :: removelast (y :: l)).
  destruct j; [reflexivity|]. cbn [nth]. apply IH. cbn [length] in *. lia.
Qed.
Lemma removelast_length {A} (l : list A) : length (removelast l) = (length l - 1)%nat.
Proof.
  induction l as [|x l IH]; [reflexivity|]. destruct l as [|y l]; [reflexivity|].
  change (removelast (x :: y :: l)) with (x :: removelast (y :: l)). cbn [length] in *. rewrite IH. lia.
Qed.

Section Mrg.
Variable cl : mrg_class.
Hypothesis Hcl : In cl mrg_classes.
Notation m := (mc_modulus cl).
Notation k := (mc_order cl).
Notation "x == y" := (cong m x y) (at level 70).

Let Hprime : prime m := class_prime cl Hcl.
Let Hm31 : m < 2 ^ 31 := class_m31 cl Hcl.
Let Hk : (1 <= k <= 5)%nat := class_order cl Hcl.
Lemma m_pos : 1 < m. Proof. assert (H := prime_ge_2 m Hprime). lia. Qed.

Definition mrg_ok (R : mrg) : Prop := inr m k (mrg_a R) /\ inr m k (mrg_r R).
Notation step := (mrg_step cl).
Notation st R n := (Nat.iter n step R).

Lemma step_eq R : mrg_ok R ->
  mrg_r (step R) = dot (mrg_a R) (mrg_r R) mod m :: removelast (mrg_r R).
Proof. intros (Ha & Hr). cbn [mrg_step mrg_r]. apply (class_step cl Hcl); assumption. Qed.

Lemma step_a R : mrg_a (step R) = mrg_a R. Proof. reflexivity. Qed.
Lemma st_a n R : mrg_a (st R n) = mrg_a R.
Proof. induction n; [reflexivity|]. cbn [Nat.iter nat_rect]. exact IHn. Qed.

Lemma step_nth0 R : mrg_ok R -> nth 0 (mrg_r (step R)) 0 = dot (mrg_a R) (mrg_r R) mod m.
Proof. intros H. rewrite step_eq by exact H. reflexivity. Qed.
Lemma step_nthS R j : mrg_ok R -> (S j < k)%nat -> nth (S j) (mrg_r (step R)) 0 = nth j (mrg_r R) 0.
Proof.
  intros H Hj. rewrite step_eq by exact H. cbn [nth]. apply nth_removelast.
  destruct H as (_ & L & _). rewrite L. exact Hj.
Qed.

Lemma step_okR R : mrg_ok R -> mrg_ok (step R).
Proof.
  intros H. assert (G := m_pos). split; [apply H|]. split.
  - rewrite step_eq by exact H. cbn [length]. rewrite removelast_length. destruct H as (_ & L & _). rewrite L. lia.
  - intros [|i] Hi; [rewrite step_nth0 by exact H; apply Z.mod_pos_bound; lia|].
    rewrite step_nthS by assumption. apply H. lia.
Qed.
Lemma st_ok n R : mrg_ok R -> mrg_ok (st R n).
Proof. intros H. apply iter_inv; [exact step_okR | exact H]. Qed.

Lemma mrg_ext R R' : mrg_ok R -> mrg_ok R' -> mrg_a R = mrg_a R' ->
  (forall i, (i < k)%nat -> nth i (mrg_r R) 0 == nth i (mrg_r R') 0) -> R = R'.
Proof.
  intros (_ & L & B) (_ & L' & B') Ea E. destruct R as [a r], R' as [a' r']. cbn [mrg_a mrg_r] in *. subst a'.
  f_equal. apply (nth_ext_len _ _ k 0 L L'). intros i Hi. apply (cong_eq m); [apply B, Hi | apply B', Hi | apply E, Hi].
Qed.

(** ** The sequence behind the states *)
Definition useq (R : mrg) (n : nat) : Z := nth (k - 1) (mrg_r (st R n)) 0.

Lemma useq_range R n : mrg_ok R -> 0 <= useq R n < m.
Proof. intros H. apply (st_ok n R H). lia. Qed.

Lemma state_useq R d : mrg_ok R -> forall n, (d < k)%nat -> nth (k - 1 - d) (mrg_r (st R n)) 0 = useq R (n + d).
Proof.
  intros H. induction d; intros n Hd.
  - unfold useq. replace (k - 1 - 0)%nat with (k - 1)%nat by lia. replace (n + 0)%nat with n by lia. reflexivity.
  - replace (n + S d)%nat with (S n + d)%nat by lia. rewrite <- IHd by lia.
    change (st R (S n)) with (step (st R n)). replace (k - 1 - d)%nat with (S (k - 1 - S d)) by lia.
    rewrite step_nthS; [reflexivity | apply st_ok, H | lia].
Qed.

Lemma state_nth R n j : mrg_ok R -> (j < k)%nat -> nth j (mrg_r (st R n)) 0 = useq R (n + (k - 1 - j)).
Proof.
  intros H Hj. rewrite <- state_useq by (try exact H; lia). f_equal. lia.
Qed.

Lemma useq_rec R : mrg_ok R -> isrec m k (fun j => nth j (mrg_a R) 0) (useq R).
Proof.
  intros H i. assert (E : useq R (i + k) = nth 0 (mrg_r (st R (S i))) 0).
  { rewrite state_nth by (try exact H; lia). f_equal. lia. }
  rewrite E. change (st R (S i)) with (step (st R i)). rewrite step_nth0 by (apply st_ok, H).
  rewrite cong_mod. unfold dot. rewrite st_a. destruct H as (Ha & Hr). rewrite (proj1 Ha).
  apply sum_cong. intros j Hj. rewrite state_nth by (try split; assumption). reflexivity.
Qed.

Lemma after_mrg R n : after (mrg_next cl) n R = st R n.
Proof. apply after_step. reflexivity. Qed.

Lemma draw_useq R n : mrg_ok R -> draw (mrg_next cl) R n = useq R (n + k).
Proof.
  intros H. unfold draw. rewrite after_mrg. cbn [mrg_next fst].
  change (step (st R n)) with (st R (S n)). rewrite state_nth by (try exact H; lia). f_equal. lia.
Qed.

(** ** Matrices *)
Definition wfM (B : list (list Z)) : Prop :=
  length B = k /\ forall r, (r < k)%nat -> inr m k (nth r B []).

Lemma mac_ok t x y : 0 <= t < m -> 0 <= x < m -> 0 <= y < m ->
  0 <= mac m t x y < m /\ mac m t x y == t + x * y.
Proof.
  intros Ht Hx Hy. unfold mac. cbv zeta. destruct (rem_range m Hprime x y Hx Hy) as (B & C).
  destruct (Z.geb_spec (t + Z.rem (x * y) m) m); (split; [lia|]).
  - destruct C as [z Hz]. exists (z - 1). lia.
  - rewrite C. reflexivity.
Qed.

Lemma dot_loop_ok n : forall a b t, inr m n a -> inr m n b -> 0 <= t < m ->
  0 <= dot_loop m t a b < m /\ dot_loop m t a b == t + sum n (fun i => nth i a 0 * nth i b 0).
Proof.
  induction n; intros a b t (La & Ha) (Lb & Hb) Ht.
  - destruct a; [|discriminate La]. destruct b; [|discriminate Lb]. cbn [dot_loop sum]. split; [exact Ht|].
    exists 0. ring.
  - destruct a as [|x a]; [discriminate La|]. destruct b as [|y b]; [discriminate Lb|]. cbn [dot_loop].
    assert (Hx := Ha 0%nat ltac:(lia)). assert (Hy := Hb 0%nat ltac:(lia)). cbn [nth] in Hx, Hy.
    destruct (mac_ok t x y Ht Hx Hy) as (B & C).
    destruct (IHn a b (mac m t x y)) as (B' & C').
    + split; [injection La; auto|]. intros i Hi. apply (Ha (S i)). lia.
    + split; [injection Lb; auto|]. intros i Hi. apply (Hb (S i)). lia.
    + exact B.
    + split; [exact B'|]. rewrite C', C, sum_shift. cbn [nth]. exists 0. ring.
Qed.

Lemma column_ok B i : wfM B -> (i < k)%nat -> inr m k (column B i) /\ forall r, (r < k)%nat -> nth r (column B i) 0 = matf B r i.
Proof.
  intros (L & W) Hi.
  assert (E : forall r, (r < k)%nat -> nth r (column B i) 0 = matf B r i).
  { intros r Hr. unfold column, matf, ent.
    rewrite (nth_indep _ 0 ((fun row => nth i row 0) [])) by (rewrite map_length, L; exact Hr).
    rewrite (map_nth (fun row => nth i row 0)). reflexivity. }
  split; [|exact E]. split; [unfold column; rewrite map_length; exact L|].
  intros r Hr. rewrite E by exact Hr. apply (W r Hr). exact Hi.
Qed.

Lemma matrix_mult_ok A B : wfM A -> wfM B -> wfM (matrix_mult k m A B) /\
  forall i j, (i < k)%nat -> (j < k)%nat -> matf (matrix_mult k m A B) i j == mm k (matf A) (matf B) i j.
Proof.
  intros WA WB. assert (G := m_pos). assert (LA := proj1 WA).
  assert (Row : forall r, (r < k)%nat -> nth r (matrix_mult k m A B) [] =
            map (fun i => dot_loop m 0 (nth r A []) (column B i)) (seq 0 k)).
  { intros r Hr. unfold matrix_mult.
    rewrite (nth_indep _ [] ((fun row => map (fun i => dot_loop m 0 row (column B i)) (seq 0 k)) []))
      by (rewrite map_length, LA; exact Hr).
    rewrite (map_nth (fun row => map (fun i => dot_loop m 0 row (column B i)) (seq 0 k))). reflexivity. }
  assert (Ent : forall r c, (r < k)%nat -> (c < k)%nat ->
            nth c (nth r (matrix_mult k m A B) []) 0 = dot_loop m 0 (nth r A []) (column B c)).
  { intros r c Hr Hc. rewrite Row by exact Hr. rewrite (nth_map_seq _ k c) by exact Hc. reflexivity. }
  split.
  - split; [unfold matrix_mult; rewrite map_length; exact LA|]. intros r Hr. split.
    + rewrite Row by exact Hr. rewrite map_length, seq_length. reflexivity.
    + intros c Hc. rewrite Ent by assumption.
      apply (dot_loop_ok k); [apply WA, Hr | apply column_ok; assumption | lia].
  - intros i j Hi Hj. unfold matf at 1, ent. rewrite Ent by assumption.
    destruct (column_ok B j WB Hj) as (Cj & Ej).
    destruct (dot_loop_ok k (nth i A []) (column B j) 0 (proj2 WA i Hi) Cj ltac:(lia)) as (_ & C).
    rewrite C. unfold mm. rewrite Z.add_0_l. apply sum_cong. intros l Hl. rewrite Ej by exact Hl. reflexivity.
Qed.

(** [B] acts like [t] steps of the companion matrix [C]. *)
Definition reps (C : nat -> nat -> Z) (B : list (list Z)) (t : nat) : Prop :=
  wfM B /\ forall v i, (i < k)%nat -> mv k (matf B) v i == Nat.iter t (mv k C) v i.

Lemma iter_mv_cong C t : forall v v', (forall j, (j < k)%nat -> v j == v' j) ->
  forall i, (i < k)%nat -> Nat.iter t (mv k C) v i == Nat.iter t (mv k C) v' i.
Proof.
  induction t; intros v v' E i Hi; [apply E, Hi|]. cbn [Nat.iter nat_rect].
  apply mv_cong; [reflexivity | | exact Hi]. intros j Hj. apply (IHt v v' E j Hj).
Qed.

Lemma reps_mult C A B s t : reps C A s -> reps C B t -> reps C (matrix_mult k m A B) (s + t).
Proof.
  intros (WA & RA) (WB & RB). destruct (matrix_mult_ok A B WA WB) as (W & E). split; [exact W|].
  intros v i Hi. rewrite (mv_cong m k _ (mm k (matf A) (matf B)) v v i E ltac:(reflexivity) Hi).
  rewrite mv_mm, RA by exact Hi. rewrite iter_add.
  apply iter_mv_cong; [|exact Hi]. intros j Hj. apply RB, Hj.
Qed.

Lemma jump2_loop_ok C s : forall b c t, reps C b t ->
  let (b', c') := jump2_loop k m s b c in reps C (if Nat.even s then b' else c') (2 ^ s * t).
Proof.
  assert (Two : forall s, (forall b c t, reps C b t ->
              let (b', c') := jump2_loop k m s b c in reps C (if Nat.even s then b' else c') (2 ^ s * t)) /\
            (forall b c t, reps C b t ->
              let (b', c') := jump2_loop k m (S s) b c in reps C (if Nat.even (S s) then b' else c') (2 ^ S s * t))).
  { clear s. induction s as [|s (IH0 & IH1)].
    - split; intros b c t H; cbn [jump2_loop Nat.even Nat.pow].
      + replace (1 * t)%nat with t by lia. exact H.
      + replace (2 * 1 * t)%nat with (t + t)%nat by lia. apply reps_mult; exact H.
    - split; [exact IH1|]. intros b c t H. cbn [jump2_loop Nat.even]. cbv zeta.
      assert (H1 := reps_mult C b b t t H H). assert (H2 := reps_mult C _ _ _ _ H1 H1).
      specialize (IH0 _ (matrix_mult k m b b) _ H2).
      replace (2 ^ S (S s) * t)%nat with (2 ^ s * (t + t + (t + t)))%nat by (cbn [Nat.pow]; lia).
      exact IH0. }
  apply (Two s).
Qed.

Lemma companion_rows a i : length a = k -> (i < k)%nat -> nth i (companion a) [] =
  match i with O => a | S i' => map (fun j => if (j =? i')%nat then 1 else 0) (seq 0 k) end.
Proof.
  intros L Hi. unfold companion. rewrite L. rewrite (nth_map_seq _ k i) by exact Hi. reflexivity.
Qed.

Lemma companion_ok a : inr m k a -> reps (matf (companion a)) (companion a) 1.
Proof.
  intros (L & H). assert (G := m_pos). split; [|intros v i Hi; reflexivity]. split.
  - unfold companion. rewrite map_length, seq_length. exact L.
  - intros r Hr. rewrite (companion_rows a r L Hr). destruct r as [|r]; [split; assumption|].
    split; [rewrite map_length, seq_length; reflexivity|]. intros i Hi.
    rewrite (nth_map_seq _ k i) by exact Hi. destruct (i =? r)%nat; lia.
Qed.

Lemma companion_step R i : mrg_ok R -> (i < k)%nat ->
  mv k (matf (companion (mrg_a R))) (vecf (mrg_r R)) i == nth i (mrg_r (step R)) 0.
Proof.
  intros H Hi. assert (La := proj1 (proj1 H)). unfold mv, matf, ent. rewrite (companion_rows _ i La Hi).
  destruct i as [|i].
  - rewrite step_nth0 by exact H. rewrite cong_mod. unfold dot. rewrite La. reflexivity.
  - rewrite step_nthS by assumption. rewrite (sum_single k i).
    + rewrite (nth_map_seq _ k i) by lia. rewrite Nat.eqb_refl. unfold vecf. exists 0. ring.
    + lia.
    + intros j Hj Nj. rewrite (nth_map_seq _ k j) by exact Hj. destruct (Nat.eqb_spec j i); [contradiction | ring].
Qed.

Lemma companion_steps R t : mrg_ok R -> forall i, (i < k)%nat ->
  Nat.iter t (mv k (matf (companion (mrg_a R)))) (vecf (mrg_r R)) i == nth i (mrg_r (st R t)) 0.
Proof.
  intros H. induction t; intros i Hi; [reflexivity|].
  change (st R (S t)) with (step (st R t)). rewrite <- companion_step by (try apply st_ok; assumption).
  rewrite st_a. cbn [Nat.iter nat_rect]. apply mv_cong; [reflexivity | | exact Hi].
  intros j Hj. apply (IHt j Hj).
Qed.

Lemma jump2_nat R s : mrg_ok R -> 0 <= s -> mrg_jump2 cl R s = st R (2 ^ Z.to_nat s).
Proof.
  intros H Hs. assert (G := m_pos). unfold mrg_jump2. cbv zeta.
  assert (J := jump2_loop_ok _ (Z.to_nat s) (companion (mrg_a R)) [] 1 (companion_ok _ (proj1 H))).
  destruct (jump2_loop k m (Z.to_nat s) (companion (mrg_a R)) []) as (b, c).
  replace (Z.land s 1 =? 0) with (Nat.even (Z.to_nat s)).
  2:{ change 1 with (Z.ones 1) at 1. rewrite Z.land_ones by lia. change (2 ^ 1) with 2.
      rewrite Zmod_even. rewrite <- (Z2Nat.id s) at 2 by exact Hs.
      generalize (Z.to_nat s). intros n. destruct (Nat.even n) eqn:E.
      - apply Nat.even_spec in E. destruct E as [q ->]. rewrite Nat2Z.inj_mul, Z.even_mul. reflexivity.
      - assert (O : Nat.odd n = true) by (unfold Nat.odd; rewrite E; reflexivity).
        apply Nat.odd_spec in O. destruct O as [q ->]. rewrite Nat2Z.inj_add, Nat2Z.inj_mul, Z.even_add, Z.even_mul.
        reflexivity. }
  replace (2 ^ Z.to_nat s * 1)%nat with (2 ^ Z.to_nat s)%nat in J by lia.
  set (B := if Nat.even (Z.to_nat s) then b else c) in *. clearbody B. clear b c.
  revert J. generalize (2 ^ Z.to_nat s)%nat. intros t (W & J).
  assert (Ent : forall i, (i < k)%nat -> nth i (matrix_vec_mult m B (mrg_r R)) 0 = dot_loop m 0 (nth i B []) (mrg_r R)).
  { intros i Hi. unfold matrix_vec_mult.
    rewrite (nth_indep _ 0 ((fun row => dot_loop m 0 row (mrg_r R)) [])) by (rewrite map_length, (proj1 W); exact Hi).
    rewrite (map_nth (fun row => dot_loop m 0 row (mrg_r R))). reflexivity. }
  assert (D : forall i, (i < k)%nat -> 0 <= nth i (matrix_vec_mult m B (mrg_r R)) 0 < m /\
                nth i (matrix_vec_mult m B (mrg_r R)) 0 == mv k (matf B) (vecf (mrg_r R)) i).
  { intros i Hi. rewrite Ent by exact Hi.
    destruct (dot_loop_ok k (nth i B []) (mrg_r R) 0 (proj2 W i Hi) (proj2 H) ltac:(lia)) as (B0 & C).
    split; [exact B0|]. rewrite C, Z.add_0_l. reflexivity. }
  apply mrg_ext.
  - split; [apply H|]. split.
    + cbn [mrg_r]. unfold matrix_vec_mult. rewrite map_length. apply W.
    + intros i Hi. apply D, Hi.
  - apply st_ok, H.
  - rewrite st_a. reflexivity.
  - intros i Hi. cbn [mrg_r]. rewrite (proj2 (D i Hi)), J by exact Hi. apply companion_steps; assumption.
Qed.

Lemma jump2_steps R s : mrg_ok R -> 0 <= s -> mrg_jump2 cl R s = st R (Z.to_nat (2 ^ s)).
Proof.
  intros H Hs. rewrite jump2_nat by assumption. f_equal. symmetry.
  rewrite Z2Nat.inj_pow by lia. reflexivity.
Qed.

Lemma jump_loop_steps fuel : forall i s R, mrg_ok R -> 0 <= i -> 0 <= s < 2 ^ Z.of_nat fuel ->
  mrg_jump_loop cl fuel i s R = st R (Z.to_nat (s * 2 ^ i)).
Proof.
  induction fuel; intros i s R H Hi Hs.
  - replace s with 0 by (simpl in Hs; lia). reflexivity.
  - cbn [mrg_jump_loop]. destruct (Z.gtb_spec s 0) as [P|P]; [|replace s with 0 by lia; reflexivity].
    rewrite Nat2Z.inj_succ, Z.pow_succ_r in Hs by lia.
    rewrite Z.shiftr_div_pow2 by lia. change (2 ^ 1) with 2.
    assert (Hd := Z.div_mod s 2 ltac:(lia)). assert (Hm := Z.mod_pos_bound s 2 ltac:(lia)).
    assert (Hq : 0 <= s / 2) by (apply Z.div_pos; lia).
    assert (H2 : 0 < 2 ^ i) by (apply Z.pow_pos_nonneg; lia).
    destruct (Z.eqb_spec (s mod 2) 1) as [E|E].
    + rewrite jump2_steps by assumption. rewrite IHfuel; [|apply st_ok, H | lia | lia].
      rewrite <- iter_add. f_equal. rewrite Z.pow_add_r, Z.pow_1_r by lia.
      rewrite <- Z2Nat.inj_add by (try apply Z.mul_nonneg_nonneg; lia).
      f_equal. rewrite Hd at 2. rewrite E. ring.
    + rewrite IHfuel by (try assumption; lia). f_equal. f_equal. rewrite Z.pow_add_r, Z.pow_1_r by lia.
      rewrite Hd at 2. replace (s mod 2) with 0 by lia. ring.
Qed.

Lemma jump_steps R s : mrg_ok R -> 0 <= s < 2 ^ 64 -> mrg_jump cl R s = st R (Z.to_nat s).
Proof.
  intros H Hs. unfold mrg_jump. destruct (s <? 16); [reflexivity|].
  rewrite jump_loop_steps; [|exact H | lia | exact Hs]. rewrite Z.mul_1_r. reflexivity.
Qed.

(** ** split *)
Lemma split_q_nth s : 0 <= s < 2 ^ 64 -> forall count R i, mrg_ok R -> (i < count)%nat ->
  nth i (split_q cl s count R) 0 = nth 0 (mrg_r (st R (i * Z.to_nat s))) 0.
Proof.
  intros Hs. induction count as [|count IH]; intros R i H Hi; [lia|].
  assert (E : nth i (split_q cl s (S count) R) 0 =
              nth i (nth 0 (mrg_r R) 0 :: split_q cl s count (mrg_jump cl R s)) 0).
  { destruct count; reflexivity. }
  rewrite E. destruct i as [|i]; [reflexivity|]. cbn [nth].
  rewrite jump_steps by assumption. rewrite IH; [|apply st_ok, H | lia].
  rewrite <- iter_add. do 2 f_equal. f_equal. lia.
Qed.

Lemma split_systems q y : (forall i, (i < 2 * k)%nat -> nth i q 0 = y i) ->
  split_matrix k q = hankel k y /\ split_rhs k q = hankel_rhs k y /\
  split_state k q = map (fun i => y (k - 1 - i)%nat) (seq 0 k).
Proof.
  intros E. unfold split_matrix, split_rhs, split_state, hankel, hankel_rhs.
  split; [|split]; apply map_ext_in; intros i Hi; apply in_seq in Hi.
  - apply map_ext_in. intros j Hj. apply in_seq in Hj. apply E. lia.
  - apply E. lia.
  - apply E. lia.
Qed.

Lemma nth_tl_app (r : list Z) t l : length r = k -> (l < k)%nat ->
  nth l (tl r ++ [t]) 0 = if (l =? k - 1)%nat then t else nth (S l) r 0.
Proof.
  intros L Hl. destruct r as [|x r]; [cbn in L; lia|]. cbn [tl length] in *.
  destruct (Nat.eqb_spec l (k - 1)) as [->|N].
  - rewrite app_nth2 by lia. replace (k - 1 - length r)%nat with 0%nat by lia. reflexivity.
  - rewrite app_nth1 by lia. reflexivity.
Qed.
Lemma tl_app_length (r : list Z) t : length r = k -> length (tl r ++ [t]) = k.
Proof. intros L. rewrite app_length. destruct r; cbn in *; lia. Qed.

Lemma backwards_ok e a y : back_ok cl e -> inr m k a -> (e <= k)%nat ->
  (forall j, (e <= j < k)%nat -> nth j a 0 = 0) -> (forall e', e = S e' -> nth e' a 0 <> 0) ->
  isrec m k (fun j => nth j a 0) y -> (forall i, 0 <= y i < m) ->
  forall cnt N r, inr m k r -> (k <= N)%nat ->
  (forall l, (l < k)%nat -> nth l r 0 = y (N + cnt + (k - 1 - l))%nat) ->
  exists r', backwards cl cnt a r = Val r' /\ inr m k r' /\
             forall l, (l < k)%nat -> nth l r' 0 = y (N + (k - 1 - l))%nat.
Proof.
  intros Bk Ha He Z0 N0 R Ry. assert (G := m_pos).
  induction cnt as [|cnt IH]; intros N r Hr HN Er.
  - exists r. split; [reflexivity|]. split; [exact Hr|]. intros l Hl. rewrite Er by exact Hl. f_equal. lia.
  - destruct (Bk a r Ha Hr Z0 N0) as (t & E & Bt & T0 & T1).
    assert (Et : t = y (N + cnt)%nat).
    { assert (Rec := R (N + cnt + e - k)%nat). replace (N + cnt + e - k + k)%nat with (N + cnt + e)%nat in Rec by lia.
      rewrite (sum_split k e) in Rec by exact He.
      rewrite (sum_0 (k - e)) in Rec by (intros j Hj; rewrite Z0 by lia; ring).
      rewrite Z.add_0_r in Rec.
      apply (cong_eq m); [exact Bt | apply Ry|]. destruct e as [|e'].
      - rewrite (T0 eq_refl). cbn [sum] in Rec. replace (N + cnt + 0)%nat with (N + cnt)%nat in Rec by lia.
        symmetry. exact Rec.
      - specialize (T1 e' eq_refl). cbn [sum] in Rec.
        replace (N + cnt + S e' - k + (k - 1 - e'))%nat with (N + cnt)%nat in Rec by lia.
        apply (cancel m Hprime (nth e' a 0)).
        + intros C. apply (N0 e' eq_refl). apply (cong_eq m); [apply Ha; lia | lia | exact C].
        + rewrite T1. rewrite (Er (k - S e')%nat) by lia.
          replace (N + S cnt + (k - 1 - (k - S e')))%nat with (N + cnt + S e')%nat by lia. rewrite Rec.
          rewrite (sum_ext e' (fun i => nth i a 0 * nth (k - e' + i) r 0)
                     (fun j => nth j a 0 * y (N + cnt + S e' - k + (k - 1 - j))%nat)).
          2:{ intros j Hj. rewrite Er by lia. do 2 f_equal. lia. }
          exists 0. ring. }
    cbn [backwards]. rewrite E.
    apply IH; [| exact HN |].
    + split; [apply tl_app_length, Hr|]. intros l Hl. rewrite nth_tl_app by (try apply Hr; exact Hl).
      destruct (Nat.eqb_spec l (k - 1)); [exact Bt | apply Hr; lia].
    + intros l Hl. rewrite nth_tl_app by (try apply Hr; exact Hl).
      destruct (Nat.eqb_spec l (k - 1)) as [->|Nl].
      * rewrite Et. f_equal. lia.
      * rewrite Er by lia. f_equal. lia.
Qed.

(** The decimated sequence. *)
Definition yseq (R : mrg) (s n : Z) (i : nat) : Z := useq R (Z.to_nat n + k + i * Z.to_nat s).

Lemma yseq_draw R s n i : mrg_ok R -> yseq R s n i = draw (mrg_next cl) R (i * Z.to_nat s + Z.to_nat n).
Proof. intros H. rewrite draw_useq by exact H. unfold yseq. f_equal. lia. Qed.

Lemma yseq_periodic R s n : mrg_ok R -> exists T, (1 <= T)%nat /\ forall i, yseq R s n (i + T) = yseq R s n i.
Proof.
  intros H. destruct (isrec_tail_periodic m Hprime k _ _ (useq_rec R H)) as (T & HT & P).
  exists T. split; [exact HT|]. intros i. unfold yseq.
  assert (Q : forall q j, (k <= j)%nat -> useq R (j + q * T) == useq R j).
  { induction q; intros j Hj; [replace (j + 0 * T)%nat with j by lia; reflexivity|].
    replace (j + S q * T)%nat with (j + q * T + T)%nat by lia. rewrite P by lia. apply IHq, Hj. }
  apply (cong_eq m); [apply useq_range, H | apply useq_range, H|].
  replace (Z.to_nat n + k + (i + T) * Z.to_nat s)%nat with (Z.to_nat n + k + i * Z.to_nat s + Z.to_nat s * T)%nat by lia.
  apply Q. lia.
Qed.

(** What split computes: new coefficients, for which the decimated sequence satisfies the recurrence. *)
Lemma split_unfold R s n : mrg_ok R -> 1 < s < 2 ^ 32 -> 0 <= n < s ->
  exists a', inr m k a' /\ isrec m k (fun j => nth j a' 0) (yseq R s n) /\
    mrg_split cl R s n =
      match backwards cl k a' (map (fun i => yseq R s n (k - 1 - i)) (seq 0 k)) with
      | Val r' => Returns (Mrg a' r') | _ => Undefined end.
Proof.
  intros H Hs Hn.
  assert (Ew : wrap64 (n + 1) = n + 1) by (apply wrap64_small; lia).
  pose (q := split_q cl s (2 * k) (mrg_jump cl R (wrap64 (n + 1)))).
  assert (Eq : forall i, (i < 2 * k)%nat -> nth i q 0 = yseq R s n i).
  { intros i Hi. unfold q. rewrite Ew, jump_steps by (try exact H; lia).
    rewrite split_q_nth by (try apply st_ok; try exact H; lia).
    rewrite <- iter_add, state_nth by (try exact H; lia). unfold yseq. f_equal.
    rewrite Z2Nat.inj_add by lia. lia. }
  destruct (split_systems q _ Eq) as (E1 & E2 & E3).
  destruct (decimate m Hprime Hm31 k _ (useq R) (Z.to_nat s) (Z.to_nat n + k) ltac:(lia) (useq_rec R H)) as (c' & Rc).
  destruct (hankel_solved m Hprime Hm31 k c' (yseq R s n) ltac:(lia) Rc) as (a' & Eg & La & Ba & Ra).
  { intros i. apply useq_range, H. }
  exists a'. split; [split; assumption|]. split; [exact Ra|].
  unfold mrg_split. destruct (Z.ltb_spec s 1); [lia|]. destruct (Z.geb_spec n s); [lia|]. cbn [orb].
  destruct (Z.gtb_spec s 1); [|lia]. cbv zeta. fold q. rewrite E1, E2, E3, Eg. reflexivity.
Qed.

Lemma leapfrog_of_backwards R s n a' r' N : mrg_ok R -> inr m k a' -> inr m k r' ->
  isrec m k (fun j => nth j a' 0) (yseq R s n) ->
  (forall l, (l < k)%nat -> nth l r' 0 = yseq R s n (N + (k - 1 - l))%nat) ->
  (forall i, yseq R s n (N + k + i) = yseq R s n i) ->
  leapfrog (mrg_next cl) R (Mrg a' r') s n.
Proof.
  intros H Ha Hr Ra Er P j. assert (H' : mrg_ok (Mrg a' r')) by (split; assumption).
  rewrite <- yseq_draw by exact H. rewrite draw_useq by exact H'. rewrite <- P.
  apply (cong_eq m); [apply useq_range, H' | apply useq_range, H|].
  assert (A := isrec_agree m k _ (useq (Mrg a' r')) (fun i => yseq R s n (i + N)) (useq_rec _ H')
                 (isrec_shift m k _ _ N Ra)). cbv beta in A.
  replace (N + k + j)%nat with (j + k + N)%nat by lia. apply A.
  intros i Hi. assert (E := Er (k - 1 - i)%nat ltac:(lia)).
  replace (N + (k - 1 - (k - 1 - i)))%nat with (i + N)%nat in E by lia. rewrite <- E.
  change (nth (k - 1 - i) r' 0) with (nth (k - 1 - i) (mrg_r (st (Mrg a' r') 0)) 0).
  rewrite state_useq by (try exact H'; exact Hi). reflexivity.
Qed.

Lemma split_leapfrog_at R s n a' : mrg_ok R -> 1 < s < 2 ^ 32 -> 0 <= n < s ->
  inr m k a' -> isrec m k (fun j => nth j a' 0) (yseq R s n) ->
  (k < 5)%nat \/ nth (k - 1) a' 0 <> 0 ->
  exists r', backwards cl k a' (map (fun i => yseq R s n (k - 1 - i)) (seq 0 k)) = Val r' /\
    inr m k r' /\ leapfrog (mrg_next cl) R (Mrg a' r') s n.
Proof.
  intros H Hs Hn Ha Ra Hc. assert (G := m_pos).
destruct (eff_order_exists m k (fun j => nth j a' 0)) as (e & He & Z0 & N0).
  destruct (yseq_periodic R s n H) as (T & HT & P).
  assert (PQ : forall q i, yseq R s n (i + q * T) = yseq R s n i).
  { induction q; intros i; [f_equal; lia|]. replace (i + S q * T)%nat with (i + q * T + T)%nat by lia.
    rewrite P. apply IHq. }
  assert (Ry : forall i, 0 <= yseq R s n i < m) by (intros i; apply useq_range, H).
  destruct (backwards_ok e a' (yseq R s n)) with (cnt := k) (N := (2 * k * T - k)%nat)
    (r := map (fun i => yseq R s n (k - 1 - i)) (seq 0 k)) as (r' & Eb & Hr' & Er').
  - apply (class_back cl e Hcl He). destruct (Nat.eq_dec e k) as [->|Ne]; [left; reflexivity|].
    destruct Hc as [Hc|Hc]; [right; right; exact Hc|]. exfalso. apply Hc.
    apply (cong_eq m); [apply Ha; lia | lia | apply Z0; lia].
  - exact Ha.
  - exact He.
  - intros j Hj. apply (cong_eq m); [apply Ha; lia | lia | apply Z0, Hj].
  - intros e' Ee E0. apply (N0 e' Ee). rewrite E0. reflexivity.
  - exact Ra.
  - exact Ry.
  - split; [rewrite map_length, seq_length; reflexivity|]. intros i Hi. rewrite (nth_map_seq _ k i) by exact Hi. apply Ry.
  - nia.
  - intros l Hl. rewrite (nth_map_seq _ k l) by exact Hl. rewrite <- (PQ (2 * k)%nat). f_equal. nia.
  - exists r'. split; [exact Eb|]. split; [exact Hr'|].
    apply (leapfrog_of_backwards R s n a' r' (2 * k * T - k)); try assumption.
    intros i. rewrite <- (PQ (2 * k)%nat i). f_equal. nia.
Qed.

(** If the decimated draws satisfy no shorter recurrence, the last coefficient is nonzero. *)
Lemma last_coefficient R s n a' : mrg_ok R -> inr m k a' -> isrec m k (fun j => nth j a' 0) (yseq R s n) ->
  (forall d : nat -> Z, (forall i, sum k (fun j => d j * yseq R s n (i + j)) == 0) -> forall j, (j < k)%nat -> d j == 0) ->
  nth (k - 1) a' 0 <> 0.
Proof.
  intros H Ha Ra Ind E0. assert (G := m_pos).
  destruct (yseq_periodic R s n H) as (T & HT & P).
  (* y(i+k-1) = a'_0 y(i+k-2) + ... + a'_(k-2) y(i), for all i *)
  assert (Sh : forall i, yseq R s n (i + (k - 1)) == sum (k - 1) (fun j => nth j a' 0 * yseq R s n (i + (k - 2 - j)))).
  { intros i. rewrite <- P. replace (i + (k - 1) + T)%nat with (i + T - 1 + k)%nat by lia. rewrite (Ra (i + T - 1)%nat).
    rewrite (sum_split k (k - 1)) by lia. replace (k - (k - 1))%nat with 1%nat by lia. cbn [sum].
    replace (k - 1 + 0)%nat with (k - 1)%nat by lia. rewrite E0, Z.mul_0_l, !Z.add_0_r.
    apply sum_cong. intros j Hj. replace (i + T - 1 + (k - 1 - j))%nat with (i + (k - 2 - j) + T)%nat by lia.
    rewrite P. reflexivity. }
  pose (d := fun j => if (j =? k - 1)%nat then 1 else - nth (k - 2 - j) a' 0).
  apply (one_not_0 m Hprime). assert (D := Ind d).
  assert (D0 : forall i, sum k (fun j => d j * yseq R s n (i + j)) == 0).
  { intros i. rewrite (sum_split k (k - 1)) by lia. replace (k - (k - 1))%nat with 1%nat by lia. cbn [sum].
    replace (k - 1 + 0)%nat with (k - 1)%nat by lia. unfold d at 2. rewrite Nat.eqb_refl.
    rewrite (Sh i). rewrite (sum_rev (k - 1) (fun j => nth j a' 0 * _)).
    rewrite (sum_ext (k - 1) (fun j => d j * yseq R s n (i + j))
              (fun j => - 1 * (nth (k - 1 - 1 - j) a' 0 * yseq R s n (i + (k - 2 - (k - 1 - 1 - j)))))).
    2:{ intros j Hj. unfold d. destruct (Nat.eqb_spec j (k - 1)); [lia|].
        replace (k - 1 - 1 - j)%nat with (k - 2 - j)%nat by lia.
        replace (i + (k - 2 - (k - 2 - j)))%nat with (i + j)%nat by lia. ring. }
    rewrite sum_mul_l. exists 0. ring. }
  specialize (D D0 (k - 1)%nat ltac:(lia)). unfold d in D. rewrite Nat.eqb_refl in D. exact D.
Qed.
End Mrg.
