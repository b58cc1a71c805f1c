(** Proofs about int_math::gauss. *)
From Coq Require Import ZArith Znumtheory List Bool Arith Lia Setoid Morphisms.
From Verif Require Import Base Cong Sums IntMathModel IntMathProofs GaussModel.
Import ListNotations.
Open Scope Z_scope.

(** ** List update *)
Lemma upd_length {A} (l : list A) i v : length (upd l i v) = length l.
Proof. revert i. induction l; intros [|i]; cbn; auto. Qed.

Lemma nth_upd {A} (l : list A) i j v d : (i < length l)%nat ->
  nth j (upd l i v) d = if Nat.eqb j i then v else nth j l d.
Proof.
  revert i j. induction l; intros i j Hi; [cbn in Hi; lia|].
  destruct i, j; cbn; try reflexivity. apply IHl. cbn in Hi. lia.
Qed.

Section Gauss.
Variables (n : nat) (m : Z).
Hypothesis Hprime : prime m.
Hypothesis Hm31 : m < 2 ^ 31.

Lemma m_gt : 1 < m. Proof. assert (H := prime_ge_2 m Hprime). lia. Qed.

Definition unit_mod (t : Z) : Prop := exists t', cong m (t' * t) 1.

(** ** Systems of equations: A x = l * B (mod m), row by row *)
Definition row_sum (A : nat -> nat -> Z) (x : nat -> Z) (r : nat) : Z := sum n (fun c => A r c * x c).
Definition sols (A : nat -> nat -> Z) (B : nat -> Z) (x : nat -> Z) (l : Z) : Prop :=
  forall r, (r < n)%nat -> cong m (row_sum A x r) (l * B r).
Definition same_sols A B A' B' : Prop := forall x l, sols A B x l <-> sols A' B' x l.

Lemma same_refl A B : same_sols A B A B. Proof. intros x l. reflexivity. Qed.
Lemma same_trans A B A' B' A2 B2 : same_sols A B A' B' -> same_sols A' B' A2 B2 -> same_sols A B A2 B2.
Proof. intros H H' x l. rewrite (H x l). apply H'. Qed.

(** Row operation: row j becomes t * row j + s * row i. *)
Lemma row_op A B A' B' i j t s : (i < n)%nat -> (j < n)%nat -> i <> j -> unit_mod t ->
  (forall r c, (r < n)%nat -> (c < n)%nat -> r <> j -> A' r c = A r c) ->
  (forall r, (r < n)%nat -> r <> j -> B' r = B r) ->
  (forall c, (c < n)%nat -> cong m (A' j c) (t * A j c + s * A i c)) ->
  cong m (B' j) (t * B j + s * B i) ->
  same_sols A B A' B'.
Proof.
  intros Hi Hj Nij (t' & Ht) HA HB HAj HBj x l.
  assert (RS : forall r, (r < n)%nat -> r <> j -> row_sum A' x r = row_sum A x r).
  { intros r Hr N. apply sum_ext. intros c Hc. rewrite HA by assumption. reflexivity. }
  assert (RJ : cong m (row_sum A' x j) (t * row_sum A x j + s * row_sum A x i)).
  { unfold row_sum. rewrite <- !sum_mul_l, <- sum_add. apply sum_cong. intros c Hc.
    rewrite (HAj c Hc). replace (t * (A j c * x c) + s * (A i c * x c)) with ((t * A j c + s * A i c) * x c) by ring.
    reflexivity. }
  split; intros H r Hr.
  - destruct (Nat.eq_dec r j) as [-> | N].
    + rewrite RJ, HBj, (H j Hj), (H i Hi). replace (t * (l * B j) + s * (l * B i)) with (l * (t * B j + s * B i)) by ring.
      reflexivity.
    + rewrite RS, HB by assumption. apply H, Hr.
  - destruct (Nat.eq_dec r j) as [-> | N].
    + assert (E := H j Hj). rewrite RJ, HBj in E.
      assert (Ei := H i Hi). rewrite RS, HB in Ei by assumption. rewrite Ei in E.
      assert (E2 : cong m (t * row_sum A x j) (l * (t * B j))).
      { replace (t * row_sum A x j) with (t * row_sum A x j + s * (l * B i) - s * (l * B i)) by ring.
        rewrite E. replace (l * (t * B j + s * B i) - s * (l * B i)) with (l * (t * B j)) by ring. reflexivity. }
      rewrite <- (Z.mul_1_l (row_sum A x j)), <- Ht, <- Z.mul_assoc, E2.
      replace (t' * (l * (t * B j))) with (t' * t * (l * B j)) by ring. rewrite Ht, Z.mul_1_l. reflexivity.
    + rewrite <- RS, <- HB by assumption. apply H, Hr.
Qed.

Lemma scale_op A B A' B' j t : (j < n)%nat -> unit_mod t ->
  (forall r c, (r < n)%nat -> (c < n)%nat -> r <> j -> A' r c = A r c) ->
  (forall r, (r < n)%nat -> r <> j -> B' r = B r) ->
  (forall c, (c < n)%nat -> cong m (A' j c) (t * A j c)) ->
  cong m (B' j) (t * B j) ->
  same_sols A B A' B'.
Proof.
  intros Hj (t' & Ht) HA HB HAj HBj x l.
  assert (RS : forall r, (r < n)%nat -> r <> j -> row_sum A' x r = row_sum A x r).
  { intros r Hr N. apply sum_ext. intros c Hc. rewrite HA by assumption. reflexivity. }
  assert (RJ : cong m (row_sum A' x j) (t * row_sum A x j)).
  { unfold row_sum. rewrite <- !sum_mul_l. apply sum_cong. intros c Hc.
    rewrite (HAj c Hc), Z.mul_assoc. reflexivity. }
  split; intros H r Hr.
  - destruct (Nat.eq_dec r j) as [-> | N].
    + rewrite RJ, HBj, (H j Hj). replace (t * (l * B j)) with (l * (t * B j)) by ring. reflexivity.
    + rewrite RS, HB by assumption. apply H, Hr.
  - destruct (Nat.eq_dec r j) as [-> | N].
    + assert (E := H j Hj). rewrite RJ, HBj in E.
      rewrite <- (Z.mul_1_l (row_sum A x j)), <- Ht, <- Z.mul_assoc, E.
      replace (t' * (l * (t * B j))) with (t' * t * (l * B j)) by ring. rewrite Ht, Z.mul_1_l. reflexivity.
    + rewrite <- RS, <- HB by assumption. apply H, Hr.
Qed.

(** ** The data structure *)
Record wf (a : list (list Z)) (b : list Z) (p : list nat) : Prop := Wf {
  wf_a : length a = n; wf_b : length b = n; wf_p : length p = n;
  wf_prange : forall i, (i < n)%nat -> (prow p i < n)%nat;
  wf_pinj : forall i j, (i < n)%nat -> (j < n)%nat -> prow p i = prow p j -> i = j;
  wf_ea : forall r c, (r < n)%nat -> (c < n)%nat -> 0 <= ent a r c < m;
  wf_eb : forall r, (r < n)%nat -> 0 <= nth r b 0 < m
}.

(** The system as the algorithm sees it: rows in the order given by p. *)
Definition VA (a : list (list Z)) (p : list nat) : nat -> nat -> Z := fun r c => ent a (prow p r) c.
Definition VB (b : list Z) (p : list nat) : nat -> Z := fun r => nth (prow p r) b 0.

(** First i columns are eliminated. *)
Definition tri (i : nat) (A : nat -> nat -> Z) : Prop :=
  (forall r, (r < i)%nat -> A r r = 1) /\
  (forall r c, (r < n)%nat -> (c < i)%nat -> (c < r)%nat -> A r c = 0).

Lemma inverse_ok v : 0 < v < m -> exists t, modulo_inverse v m = Val t /\ 0 <= t < m /\ cong m (v * t) 1.
Proof.
  intros Hv. assert (G := m_gt).
  destruct (proj1 (modulo_inverse_spec v m ltac:(lia) ltac:(lia))) as (t & E & B & I).
  { apply Zgcd_1_rel_prime. apply rel_prime_le_prime; [exact Hprime | lia]. }
  exists t. split; [exact E|]. split; [exact B|].
  apply cong_iff; [lia|]. rewrite I. symmetry. apply Z.mod_small. lia.
Qed.

Lemma rem_range x y : 0 <= x < m -> 0 <= y < m -> 0 <= Z.rem (x * y) m < m /\ cong m (Z.rem (x * y) m) (x * y).
Proof.
  intros Hx Hy. assert (G := m_gt). assert (0 <= x * y) by (apply Z.mul_nonneg_nonneg; lia).
  rewrite Z.rem_mod_nonneg by lia. split; [apply Z.mod_pos_bound; lia | apply cong_mod].
Qed.

Lemma subm_ok x y : 0 <= x < m -> 0 <= y < m -> 0 <= subm m x y < m /\ cong m (subm m x y) (x - y).
Proof.
  intros Hx Hy. unfold subm. cbv zeta. destruct (Z.ltb_spec (x - y) 0); (split; [lia|]).
  - exists 1. ring.
  - reflexivity.
Qed.

(** ** Pivot search *)
Lemma find_row_spec a p i k : forall j, let r := find_row a p i j k in
  (j <= r <= j + k)%nat /\ (forall q, (j <= q < r)%nat -> ent a (prow p q) i = 0) /\
  ((r < j + k)%nat -> ent a (prow p r) i <> 0).
Proof.
  induction k; intros j; cbn [find_row].
  - split; [lia|]. split; intros; lia.
  - destruct (Z.eqb_spec (ent a (prow p j) i) 0) as [E|N].
    + destruct (IHk (S j)) as (B & Zr & Nz). split; [lia|]. split; [|intros; apply Nz; lia].
      intros q Hq. destruct (Nat.eq_dec q j) as [-> |]; [exact E | apply Zr; lia].
    + split; [lia|]. split; [intros; lia | intros; exact N].
Qed.

Definition transp (i j r : nat) : nat := if Nat.eqb r i then j else if Nat.eqb r j then i else r.

Lemma swap_prow p i j r : length p = n -> (i < n)%nat -> (j < n)%nat -> i <> j ->
  prow (upd (upd p i (prow p j)) j (prow p i)) r = prow p (transp i j r).
Proof.
  intros L Hi Hj N. unfold prow at 1. rewrite nth_upd by (rewrite upd_length; lia).
  unfold transp. destruct (Nat.eqb_spec r j) as [-> | Nj].
  - replace (Nat.eqb j i) with false by (symmetry; apply Nat.eqb_neq; lia). reflexivity.
  - rewrite nth_upd by lia. destruct (Nat.eqb_spec r i); reflexivity.
Qed.

Lemma transp_lt i j r : (i < n)%nat -> (j < n)%nat -> (r < n)%nat -> (transp i j r < n)%nat.
Proof. intros. unfold transp. destruct (Nat.eqb r i); [lia|]. destruct (Nat.eqb r j); lia. Qed.

Lemma transp_inv i j r : i <> j -> transp i j (transp i j r) = r.
Proof.
  intros N. unfold transp. destruct (Nat.eqb_spec r i) as [-> | Ni].
  - rewrite Nat.eqb_refl. destruct (Nat.eqb_spec j i); [lia | reflexivity].
  - destruct (Nat.eqb_spec r j) as [-> | Nj].
    + rewrite Nat.eqb_refl. reflexivity.
    + destruct (Nat.eqb_spec r i); [lia|]. destruct (Nat.eqb_spec r j); [lia | reflexivity].
Qed.

Lemma pivot_spec a b p i : wf a b p -> (i < n)%nat -> tri i (VA a p) ->
  let p' := pivot n a p i in
  wf a b p' /\ tri i (VA a p') /\ same_sols (VA a p) (VB b p) (VA a p') (VB b p') /\
  (VA a p' i i = 0 -> forall r, (i <= r < n)%nat -> VA a p' r i = 0).
Proof.
  intros W Hi T. cbv zeta. unfold pivot. destruct (Z.eqb_spec (ent a (prow p i) i) 0) as [E|N].
  2:{ split; [exact W|]. split; [exact T|]. split; [apply same_refl|]. intros H. exfalso. apply N, H. }
  destruct (find_row_spec a p i (n - S i) (S i)) as (B & Zr & Nz). cbv zeta.
  set (j := find_row a p i (S i) (n - S i)) in *.
  destruct (Nat.ltb_spec j n) as [L|G].
  - assert (SW : forall r, prow (upd (upd p i (prow p j)) j (prow p i)) r = prow p (transp i j r)).
    { intros r. apply swap_prow; [apply (wf_p _ _ _ W) | exact Hi | exact L | lia]. }
    set (p' := upd (upd p i (prow p j)) j (prow p i)) in *.
    destruct W as [W1 W2 W3 W4 W5 W6 W7].
    split; [|split; [|split]].
    + constructor; try assumption.
      * unfold p'. rewrite !upd_length. exact W3.
      * intros r Hr. rewrite SW. apply W4, transp_lt; lia.
      * intros r r' Hr Hr' Er. rewrite !SW in Er. apply W5 in Er; try (apply transp_lt; lia).
        rewrite <- (transp_inv i j r), <- (transp_inv i j r') by lia. congruence.
    + destruct T as (T1 & T2). split.
      * intros r Hr. unfold VA. rewrite SW. unfold transp.
        replace (Nat.eqb r i) with false by (symmetry; apply Nat.eqb_neq; lia).
        replace (Nat.eqb r j) with false by (symmetry; apply Nat.eqb_neq; lia). apply T1, Hr.
      * intros r c Hr Hc Hcr. unfold VA. rewrite SW. apply (T2 (transp i j r) c); [apply transp_lt; lia | lia |].
        unfold transp. destruct (Nat.eqb_spec r i); [lia|]. destruct (Nat.eqb_spec r j); lia.
    + intros x l. split; intros H r Hr.
      * assert (Q := H (transp i j r) (transp_lt i j r Hi L Hr)).
        unfold row_sum, VA, VB in *. rewrite SW. exact Q.
      * assert (Q := H (transp i j r) (transp_lt i j r Hi L Hr)).
        unfold row_sum, VA, VB in *. rewrite SW, transp_inv in Q by lia. exact Q.
    + intros Ei. exfalso. unfold VA in Ei. rewrite SW in Ei. unfold transp in Ei. rewrite Nat.eqb_refl in Ei.
      apply Nz in Ei; [exact Ei | lia].
  - split; [exact W|]. split; [exact T|]. split; [apply same_refl|].
    intros _ r Hr. destruct (Nat.eq_dec r i) as [-> |]; [exact E|]. apply Zr. lia.
Qed.

(** ** Row updates seen through p *)
Lemma view_upd_a a b p j row c r : wf a b p -> (j < n)%nat -> (r < n)%nat ->
  ent (upd a (prow p j) row) (prow p r) c = if Nat.eqb r j then nth c row 0 else ent a (prow p r) c.
Proof.
  intros W Hj Hr. unfold ent. rewrite nth_upd by (rewrite (wf_a _ _ _ W); apply (wf_prange _ _ _ W), Hj).
  destruct (Nat.eqb_spec r j) as [-> | N]; [rewrite Nat.eqb_refl; reflexivity|].
  destruct (Nat.eqb_spec (prow p r) (prow p j)) as [E|_]; [|reflexivity].
  exfalso. apply N. apply (wf_pinj _ _ _ W); assumption.
Qed.

Lemma view_upd_b a b p j v r : wf a b p -> (j < n)%nat -> (r < n)%nat ->
  nth (prow p r) (upd b (prow p j) v) 0 = if Nat.eqb r j then v else nth (prow p r) b 0.
Proof.
  intros W Hj Hr. rewrite nth_upd by (rewrite (wf_b _ _ _ W); apply (wf_prange _ _ _ W), Hj).
  destruct (Nat.eqb_spec r j) as [-> | N]; [rewrite Nat.eqb_refl; reflexivity|].
  destruct (Nat.eqb_spec (prow p r) (prow p j)) as [E|_]; [|reflexivity].
  exfalso. apply N. apply (wf_pinj _ _ _ W); assumption.
Qed.

Lemma wf_upd a b p j row v : wf a b p -> (j < n)%nat ->
  (forall c, (c < n)%nat -> 0 <= nth c row 0 < m) -> 0 <= v < m ->
  wf (upd a (prow p j) row) (upd b (prow p j) v) p.
Proof.
  intros W Hj Hrow Hv. assert (W' := W). destruct W as [W1 W2 W3 W4 W5 W6 W7].
  constructor; try assumption; try (rewrite upd_length; assumption).
  - intros r c Hr Hc. unfold ent. rewrite nth_upd by (rewrite W1; apply W4, Hj).
    destruct (Nat.eqb r (prow p j)); [apply Hrow, Hc | apply W6; assumption].
  - intros r Hr. rewrite nth_upd by (rewrite W2; apply W4, Hj).
    destruct (Nat.eqb r (prow p j)); [exact Hv | apply W7, Hr].
Qed.

Definition scaled a b p i t :=
  (upd a (prow p i) (scale_row n m i t (nth (prow p i) a [])), upd b (prow p i) (Z.rem (nth (prow p i) b 0 * t) m)).

Lemma scale_spec a b p i t : wf a b p -> (i < n)%nat -> tri i (VA a p) -> 0 <= t < m ->
  cong m (VA a p i i * t) 1 ->
  let (a1, b1) := scaled a b p i t in
  wf a1 b1 p /\ tri i (VA a1 p) /\ VA a1 p i i = 1 /\ same_sols (VA a p) (VB b p) (VA a1 p) (VB b1 p).
Proof.
  intros W Hi T Ht Hu. unfold scaled. assert (G := m_gt).
  assert (Pi := wf_prange _ _ _ W i Hi).
  assert (RW : forall c, (c < n)%nat -> nth c (scale_row n m i t (nth (prow p i) a [])) 0
     = if (c <? i)%nat then ent a (prow p i) c else Z.rem (ent a (prow p i) c * t) m)
    by (intros c Hc; unfold scale_row; rewrite nth_map_seq by exact Hc; reflexivity).
  assert (RB := fun c Hc => rem_range (ent a (prow p i) c) t (wf_ea _ _ _ W _ c Pi Hc) Ht).
  assert (RBb := rem_range (nth (prow p i) b 0) t (wf_eb _ _ _ W _ Pi) Ht).
  assert (W' : wf (upd a (prow p i) (scale_row n m i t (nth (prow p i) a [])))
                  (upd b (prow p i) (Z.rem (nth (prow p i) b 0 * t) m)) p).
  { apply wf_upd; [exact W | exact Hi | | apply RBb]. intros c Hc. rewrite RW by exact Hc.
    destruct (c <? i)%nat; [apply (wf_ea _ _ _ W); assumption | apply RB, Hc]. }
  assert (VW : forall r c, (r < n)%nat -> (c < n)%nat ->
     VA (upd a (prow p i) (scale_row n m i t (nth (prow p i) a []))) p r c =
     if Nat.eqb r i then (if (c <? i)%nat then VA a p r c else Z.rem (VA a p r c * t) m) else VA a p r c).
  { intros r c Hr Hc. unfold VA. rewrite (view_upd_a a b p) by assumption.
    destruct (Nat.eqb_spec r i) as [-> |]; [apply RW, Hc | reflexivity]. }
  split; [exact W'|]. destruct T as (T1 & T2). split; [|split].
  - split.
    + intros r Hr. rewrite VW by lia. replace (Nat.eqb r i) with false by (symmetry; apply Nat.eqb_neq; lia).
      apply T1, Hr.
    + intros r c Hr Hc Hcr. rewrite VW by lia. destruct (Nat.eqb r i); [|apply T2; assumption].
      replace (c <? i)%nat with true by (symmetry; apply Nat.ltb_lt; lia). apply T2; assumption.
  - rewrite VW by lia. rewrite Nat.eqb_refl, Nat.ltb_irrefl.
    apply (cong_eq m); [apply RB, Hi | lia |]. unfold VA in *. rewrite (proj2 (RB i Hi)). exact Hu.
  - apply scale_op with (j := i) (t := t); [exact Hi | | | | |].
    + exists (VA a p i i). exact Hu.
    + intros r c Hr Hc N. rewrite VW by assumption.
      replace (Nat.eqb r i) with false by (symmetry; apply Nat.eqb_neq; exact N). reflexivity.
    + intros r Hr N. unfold VB. rewrite (view_upd_b a b p) by assumption.
      replace (Nat.eqb r i) with false by (symmetry; apply Nat.eqb_neq; exact N). reflexivity.
    + intros c Hc. rewrite VW by assumption. rewrite Nat.eqb_refl.
      destruct (Nat.ltb_spec c i) as [L|L].
      * rewrite (T2 i c Hi L L), Z.mul_0_r. reflexivity.
      * unfold VA. rewrite (proj2 (RB c Hc)), Z.mul_comm. reflexivity.
    + unfold VB. rewrite (view_upd_b a b p) by assumption. rewrite Nat.eqb_refl.
      rewrite (proj2 RBb), Z.mul_comm. reflexivity.
Qed.

(** State during the loop over j: rows below i that are already done have a zero in column i. *)
Definition mid (i : nat) (A : nat -> nat -> Z) (done : nat -> Prop) : Prop :=
  tri i A /\ A i i = 1 /\ forall r, (i < r < n)%nat -> done r -> A r i = 0.

Lemma elim_row_spec a b p i j done : wf a b p -> (i < j < n)%nat -> mid i (VA a p) done ->
  exists a1 b1, elim_row n m p i j (a, b) = Val (a1, b1) /\ wf a1 b1 p /\
    mid i (VA a1 p) (fun r => done r \/ r = j) /\ same_sols (VA a p) (VB b p) (VA a1 p) (VB b1 p).
Proof.
  intros W Hij (T & D & Dn). assert (Hi : (i < n)%nat) by lia. assert (Hj : (j < n)%nat) by lia.
  assert (G := m_gt). unfold elim_row. cbv zeta.
  destruct (Z.eqb_spec (ent a (prow p j) i) 0) as [E|N].
  { exists a, b. split; [reflexivity|]. split; [exact W|]. split; [|apply same_refl].
    split; [exact T|]. split; [exact D|]. intros r Hr [H| ->]; [apply Dn; assumption | exact E]. }
  assert (Pi := wf_prange _ _ _ W i Hi). assert (Pj := wf_prange _ _ _ W j Hj).
  assert (Rng := wf_ea _ _ _ W _ i Pj Hi).
  destruct (inverse_ok (ent a (prow p j) i)) as (t & Et & Ht & Hu); [lia|]. rewrite Et.
  set (row := sub_row n m i t (nth (prow p j) a []) (nth (prow p i) a [])).
  set (bv := subm m (Z.rem (nth (prow p j) b 0 * t) m) (nth (prow p i) b 0)).
  assert (RB := fun c Hc => rem_range (ent a (prow p j) c) t (wf_ea _ _ _ W _ c Pj Hc) Ht).
  assert (SB := fun c Hc => subm_ok _ (ent a (prow p i) c) (proj1 (RB c Hc)) (wf_ea _ _ _ W _ c Pi Hc)).
  assert (RBb := rem_range (nth (prow p j) b 0) t (wf_eb _ _ _ W _ Pj) Ht).
  assert (SBb := subm_ok _ (nth (prow p i) b 0) (proj1 RBb) (wf_eb _ _ _ W _ Pi)). fold bv in SBb.
  assert (RW : forall c, (c < n)%nat -> nth c row 0
     = if (c <? i)%nat then ent a (prow p j) c
       else subm m (Z.rem (ent a (prow p j) c * t) m) (ent a (prow p i) c))
    by (intros c Hc; unfold row, sub_row; rewrite nth_map_seq by exact Hc; reflexivity).
  assert (VW : forall r c, (r < n)%nat -> (c < n)%nat ->
     VA (upd a (prow p j) row) p r c =
     if Nat.eqb r j then (if (c <? i)%nat then VA a p j c else subm m (Z.rem (VA a p j c * t) m) (VA a p i c))
     else VA a p r c).
  { intros r c Hr Hc. unfold VA. rewrite (view_upd_a a b p) by assumption.
    destruct (Nat.eqb_spec r j) as [-> |]; [apply RW, Hc | reflexivity]. }
  exists (upd a (prow p j) row), (upd b (prow p j) bv). split; [reflexivity|]. destruct T as (T1 & T2).
  split; [|split; [split; [split|split]|]].
  - apply wf_upd; [exact W | exact Hj | | apply SBb]. intros c Hc. rewrite RW by exact Hc.
    destruct (c <? i)%nat; [apply (wf_ea _ _ _ W); assumption | apply SB, Hc].
  - intros r Hr. rewrite VW by lia. replace (Nat.eqb r j) with false by (symmetry; apply Nat.eqb_neq; lia).
    apply T1, Hr.
  - intros r c Hr Hc Hcr. rewrite VW by lia. destruct (Nat.eqb r j); [|apply T2; assumption].
    replace (c <? i)%nat with true by (symmetry; apply Nat.ltb_lt; lia). apply T2; lia.
  - rewrite VW by lia. replace (Nat.eqb i j) with false by (symmetry; apply Nat.eqb_neq; lia). exact D.
  - intros r Hr Hd. rewrite VW by lia. destruct (Nat.eqb_spec r j) as [-> | Nr].
    + rewrite Nat.ltb_irrefl. apply (cong_eq m); [apply SB, Hi | lia |].
      unfold VA in *. rewrite (proj2 (SB i Hi)), (proj2 (RB i Hi)), Hu, D. reflexivity.
    + apply Dn; [exact Hr|]. destruct Hd; [assumption | lia].
  - apply row_op with (i := i) (j := j) (t := t) (s := -1); [exact Hi | exact Hj | lia | | | | |].
    + exists (ent a (prow p j) i). exact Hu.
    + intros r c Hr Hc Nr. rewrite VW by assumption.
      replace (Nat.eqb r j) with false by (symmetry; apply Nat.eqb_neq; exact Nr). reflexivity.
    + intros r Hr Nr. unfold VB. rewrite (view_upd_b a b p) by assumption.
      replace (Nat.eqb r j) with false by (symmetry; apply Nat.eqb_neq; exact Nr). reflexivity.
    + intros c Hc. rewrite VW by assumption. rewrite Nat.eqb_refl.
      destruct (Nat.ltb_spec c i) as [L|L].
      * rewrite (T2 j c) by lia. rewrite (T2 i c) by lia. rewrite Z.mul_0_r. reflexivity.
      * unfold VA. rewrite (proj2 (SB c Hc)), (proj2 (RB c Hc)).
        replace (ent a (prow p j) c * t - ent a (prow p i) c) with (t * ent a (prow p j) c + -1 * ent a (prow p i) c) by ring.
        reflexivity.
    + unfold VB. rewrite (view_upd_b a b p) by assumption. rewrite Nat.eqb_refl.
      rewrite (proj2 SBb), (proj2 RBb).
      replace (nth (prow p j) b 0 * t - nth (prow p i) b 0)
        with (t * nth (prow p j) b 0 + -1 * nth (prow p i) b 0) by ring. reflexivity.
Qed.

Lemma elim_rows_spec p i js : forall a b done, wf a b p -> (forall j, In j js -> (i < j < n)%nat) ->
  mid i (VA a p) done ->
  exists a1 b1, elim_rows n m p i js (a, b) = Val (a1, b1) /\ wf a1 b1 p /\
    mid i (VA a1 p) (fun r => done r \/ In r js) /\ same_sols (VA a p) (VB b p) (VA a1 p) (VB b1 p).
Proof.
  induction js as [|j js IH]; intros a b done W Hjs M; cbn [elim_rows].
  - exists a, b. split; [reflexivity|]. split; [exact W|]. split; [|apply same_refl].
    destruct M as (T & D & Dn). split; [exact T|]. split; [exact D|].
    intros r Hr [H|[]]. apply Dn; assumption.
  - destruct (elim_row_spec a b p i j done W (Hjs j (or_introl eq_refl)) M) as (a1 & b1 & E & W1 & M1 & S1).
    rewrite E. destruct (IH a1 b1 _ W1 (fun q H => Hjs q (or_intror H)) M1) as (a2 & b2 & E2 & W2 & M2 & S2).
    exists a2, b2. split; [exact E2|]. split; [exact W2|]. split; [|apply (same_trans _ _ _ _ _ _ S1 S2)].
    destruct M2 as (T & D & Dn). split; [exact T|]. split; [exact D|].
    intros r Hr H. apply Dn; [exact Hr|]. destruct H as [H|[->|H]]; [left; left; exact H | left; right; reflexivity | right; exact H].
Qed.

(** ** Triangulation *)
Lemma triangulate_spec k : forall i a b p, (k + i = n)%nat -> wf a b p -> tri i (VA a p) ->
  exists rank a1 b1 p1, triangulate n m k i a b p = Val (rank, a1, b1, p1) /\ wf a1 b1 p1 /\
    (rank <= n)%nat /\ tri rank (VA a1 p1) /\ same_sols (VA a p) (VB b p) (VA a1 p1) (VB b1 p1) /\
    ((rank < n)%nat -> forall r, (rank <= r < n)%nat -> VA a1 p1 r rank = 0).
Proof.
  induction k; intros i a b p Hk W T; cbn [triangulate].
  - exists i, a, b, p. split; [reflexivity|]. split; [exact W|]. split; [lia|]. split; [exact T|].
    split; [apply same_refl|]. intros; lia.
  - assert (Hi : (i < n)%nat) by lia. destruct (pivot_spec a b p i W Hi T) as (W0 & T0 & S0 & Z0).
    set (p0 := pivot n a p i) in *. cbv zeta.
    destruct (Z.eqb_spec (ent a (prow p0 i) i) 0) as [E|N].
    { exists i, a, b, p0. split; [reflexivity|]. split; [exact W0|]. split; [lia|]. split; [exact T0|].
      split; [exact S0|]. intros _. apply Z0, E. }
    assert (Pi := wf_prange _ _ _ W0 i Hi). assert (Rng := wf_ea _ _ _ W0 _ i Pi Hi).
    destruct (inverse_ok (ent a (prow p0 i) i)) as (t & Et & Ht & Hu); [lia|]. rewrite Et.
    assert (SC := scale_spec a b p0 i t W0 Hi T0 Ht Hu). unfold scaled in SC.
    destruct SC as (W1 & T1 & D1 & S1).
    set (a1 := upd a (prow p0 i) (scale_row n m i t (nth (prow p0 i) a []))) in *.
    set (b1 := upd b (prow p0 i) (Z.rem (nth (prow p0 i) b 0 * t) m)) in *.
    destruct (elim_rows_spec p0 i (seq (S i) (n - S i)) a1 b1 (fun _ => False) W1) as (a2 & b2 & E2 & W2 & M2 & S2).
    { intros j Hj. apply in_seq in Hj. lia. }
    { split; [exact T1|]. split; [exact D1|]. intros r Hr []. }
    rewrite E2. destruct M2 as (T2 & D2 & Dn2).
    assert (T3 : tri (S i) (VA a2 p0)).
    { destruct T2 as (Ta & Tb). split.
      - intros r Hr. destruct (Nat.eq_dec r i) as [-> |]; [exact D2 | apply Ta; lia].
      - intros r c Hr Hc Hcr. destruct (Nat.eq_dec c i) as [-> |]; [|apply Tb; lia].
        apply Dn2; [lia|]. right. apply in_seq. lia. }
    destruct (IHk (S i) a2 b2 p0 ltac:(lia) W2 T3) as (rank & a3 & b3 & p3 & E3 & W3 & R3 & T4 & S3 & Z3).
    exists rank, a3, b3, p3. split; [exact E3|]. split; [exact W3|]. split; [exact R3|]. split; [exact T4|].
    split; [|exact Z3]. apply (same_trans _ _ _ _ _ _ S0). apply (same_trans _ _ _ _ _ _ S1).
    apply (same_trans _ _ _ _ _ _ S2 S3).
Qed.

(** ** Back substitution *)
Lemma fold_subm (f : nat -> Z) (g : nat -> Z) js : (forall j, In j js -> 0 <= f j < m /\ cong m (f j) (g j)) -> forall t,
  0 <= t < m ->
  0 <= fold_left (fun t j => subm m t (f j)) js t < m /\
  cong m (fold_left (fun t j => subm m t (f j)) js t) (t - fold_right (fun j s => g j + s) 0 js).
Proof.
  induction js as [|j js IH]; intros H t Ht; cbn [fold_left fold_right].
  - split; [exact Ht|]. rewrite Z.sub_0_r. reflexivity.
  - destruct (H j (or_introl eq_refl)) as (F & C). destruct (subm_ok t (f j) Ht F) as (S1 & S2).
    destruct (IH (fun q Hq => H q (or_intror Hq)) (subm m t (f j)) S1) as (B & E). split; [exact B|].
    rewrite E, S2, C. replace (t - g j - fold_right (fun j0 s => g j0 + s) 0 js)
      with (t - (g j + fold_right (fun j0 s => g j0 + s) 0 js)) by ring. reflexivity.
Qed.

Lemma fold_right_seq (g : nat -> Z) k : forall s, fold_right (fun j a => g j + a) 0 (seq s k) = sum k (fun i => g (s + i)%nat).
Proof.
  induction k; intros s; [reflexivity|]. cbn [seq fold_right]. rewrite IHk, sum_shift, Nat.add_0_r.
  f_equal. apply sum_ext. intros i Hi. f_equal. lia.
Qed.

Definition tail_sum (A : nat -> nat -> Z) (x : nat -> Z) (i : nat) : Z :=
  sum (n - S i) (fun j => A i (S i + j)%nat * x (S i + j)%nat).

Lemma back_sub_spec a p b0 k : forall b, wf a b p -> (k <= n - 1)%nat ->
  (forall r, (r < k)%nat -> VB b p r = VB b0 p r) ->
  (forall r, (k <= r < n)%nat -> cong m (VB b p r + tail_sum (VA a p) (VB b p) r) (VB b0 p r)) ->
  let b' := back_sub n m a p k b in
  wf a b' p /\ (forall r, (r < n)%nat -> cong m (VB b' p r + tail_sum (VA a p) (VB b' p) r) (VB b0 p r)) /\
  (forall r, (k <= r < n)%nat -> VB b' p r = VB b p r).
Proof.
  induction k; intros b W Hk H1 H2; cbn [back_sub]; cbv zeta.
  - split; [exact W|]. split; [intros r Hr; apply H2; lia | reflexivity].
  - set (v := fold_left _ _ _).
    assert (Kn : (k < n)%nat) by lia. assert (Pk := wf_prange _ _ _ W k Kn).
    assert (F : 0 <= v < m /\ cong m v (VB b p k - tail_sum (VA a p) (VB b p) k)).
    { unfold v, tail_sum. rewrite <- (fold_right_seq (fun j => VA a p k j * VB b p j)).
      apply (fold_subm (fun j => Z.rem (ent a (prow p k) j * nth (prow p j) b 0) m)).
      - intros j Hj. apply in_seq in Hj. apply rem_range.
        + apply (wf_ea _ _ _ W); [exact Pk | lia].
        + apply (wf_eb _ _ _ W), (wf_prange _ _ _ W). lia.
      - apply (wf_eb _ _ _ W), Pk. }
    assert (W' : wf a (upd b (prow p k) v) p).
    { destruct W as [W1 W2 W3 W4 W5 W6 W7]. constructor; try assumption.
      - rewrite upd_length. exact W2.
      - intros r Hr. rewrite nth_upd by (rewrite W2; exact Pk). destruct (Nat.eqb r (prow p k)); [apply F | apply W7, Hr]. }
    assert (VV : forall r, (r < n)%nat -> VB (upd b (prow p k) v) p r = if Nat.eqb r k then v else VB b p r)
      by (intros r Hr; unfold VB; apply (view_upd_b a b p); assumption).
    assert (TS : forall r, (k <= r < n)%nat ->
              tail_sum (VA a p) (VB (upd b (prow p k) v) p) r = tail_sum (VA a p) (VB b p) r).
    { intros r Hr. apply sum_ext. intros i Hi. rewrite VV by lia.
      replace (Nat.eqb (S r + i) k) with false by (symmetry; apply Nat.eqb_neq; lia). reflexivity. }
    destruct (IHk (upd b (prow p k) v) W') as (R1 & R2 & R3); [lia | | |].
    + intros r Hr. rewrite VV by lia. replace (Nat.eqb r k) with false by (symmetry; apply Nat.eqb_neq; lia).
      apply H1. lia.
    + intros r Hr. rewrite TS, VV by lia. destruct (Nat.eqb_spec r k) as [-> | N].
      * rewrite (proj2 F). rewrite <- (H1 k) by lia. exists 0. ring.
      * apply H2. lia.
    + split; [exact R1|]. split; [exact R2|]. intros r Hr. rewrite R3 by lia. rewrite VV by lia.
      replace (Nat.eqb r k) with false by (symmetry; apply Nat.eqb_neq; lia). reflexivity.
Qed.

(** Rows whose right-hand side is zero keep it when the later unknowns are zero. *)
Lemma fold_subm_0 (f : nat -> Z) js : (forall j, In j js -> f j = 0) ->
  fold_left (fun t j => subm m t (f j)) js 0 = 0.
Proof.
  induction js as [|j js IH]; intros H; cbn [fold_left]; [reflexivity|].
  rewrite (H j (or_introl eq_refl)). change (subm m 0 0) with 0. apply IH. intros q Hq. apply H. right. exact Hq.
Qed.

Lemma back_sub_zero a p rank k : forall b, wf a b p -> (k <= n - 1)%nat ->
  (forall r, (rank <= r < n)%nat -> VB b p r = 0) ->
  forall r, (rank <= r < n)%nat -> VB (back_sub n m a p k b) p r = 0.
Proof.
  induction k; intros b W Hk H r Hr; cbn [back_sub]; cbv zeta; [apply H, Hr|].
  set (v := fold_left _ _ _).
  assert (Kn : (k < n)%nat) by lia. assert (Pk := wf_prange _ _ _ W k Kn).
  assert (F : 0 <= v < m).
  { unfold v. apply (fold_subm (fun j => Z.rem (ent a (prow p k) j * nth (prow p j) b 0) m)
        (fun j => ent a (prow p k) j * nth (prow p j) b 0)).
    - intros j Hj. apply in_seq in Hj. apply rem_range.
      + apply (wf_ea _ _ _ W); [exact Pk | lia].
      + apply (wf_eb _ _ _ W), (wf_prange _ _ _ W). lia.
    - apply (wf_eb _ _ _ W), Pk. }
  apply IHk; [| lia | | exact Hr].
  - destruct W as [W1 W2 W3 W4 W5 W6 W7]. constructor; try assumption.
    + rewrite upd_length. exact W2.
    + intros q Hq. rewrite nth_upd by (rewrite W2; exact Pk). destruct (Nat.eqb q (prow p k)); [exact F | apply W7, Hq].
  - intros q Hq. unfold VB. rewrite (view_upd_b a b p) by (assumption || lia).
    destruct (Nat.eqb_spec q k) as [-> |]; [|apply H, Hq].
    unfold v. assert (E : nth (prow p k) b 0 = 0) by (apply H; lia). rewrite E.
    apply (fold_subm_0 (fun j => Z.rem (ent a (prow p k) j * nth (prow p j) b 0) m)).
    intros j Hj. apply in_seq in Hj. assert (E2 : nth (prow p j) b 0 = 0) by (apply H; lia).
    rewrite E2, Z.mul_0_r. apply Z.rem_0_l. assert (G := m_gt). lia.
Qed.

(** ** Sums of triangular rows *)
Lemma tri_row_sum i A x r : tri i A -> (r < i)%nat -> (r < n)%nat ->
  row_sum A x r = x r + tail_sum A x r.
Proof.
  intros (T1 & T2) Hr Hn. unfold row_sum, tail_sum.
  rewrite (sum_split n (S r)) by lia. cbn [sum]. rewrite (sum_0 r), (T1 r Hr); [ring|].
  intros c Hc. rewrite T2 by lia. ring.
Qed.

(** Below the rank, rows only see the columns from the rank on. *)
Lemma tri_row_low i A x r : tri i A -> (i <= r < n)%nat -> (forall c, (i <= c < n)%nat -> x c = 0) ->
  row_sum A x r = 0.
Proof.
  intros (T1 & T2) Hr Hx. apply sum_0. intros c Hc. destruct (Nat.lt_ge_cases c i).
  - rewrite T2 by lia. ring.
  - rewrite Hx by lia. ring.
Qed.

(** ** The statement about the whole function *)
Definition matf (a : list (list Z)) : nat -> nat -> Z := fun r c => ent a r c.
Definition vecf (b : list Z) : nat -> Z := fun r => nth r b 0.

(** A(x) with x zero from column i on. *)
Definition supp (i : nat) (x : nat -> Z) : Prop := forall c, (i <= c < n)%nat -> x c = 0.

Definition in_range_system (a : list (list Z)) (b : list Z) : Prop :=
  length a = n /\ length b = n /\
  (forall r c, (r < n)%nat -> (c < n)%nat -> 0 <= ent a r c < m) /\
  (forall r, (r < n)%nat -> 0 <= nth r b 0 < m).

Lemma wf_init a b : in_range_system a b -> wf a b (seq 0 n).
Proof.
  intros (La & Lb & Ra & Rb). constructor; try assumption.
  - apply seq_length.
  - intros i Hi. unfold prow. rewrite seq_nth by exact Hi. lia.
  - intros i j Hi Hj. unfold prow. rewrite !seq_nth by assumption. lia.
Qed.

Lemma view_init a b x l : sols (VA a (seq 0 n)) (VB b (seq 0 n)) x l <-> sols (matf a) (vecf b) x l.
Proof.
  assert (P : forall r, (r < n)%nat -> prow (seq 0 n) r = r) by (intros; unfold prow; rewrite seq_nth by assumption; lia).
  unfold sols, row_sum, VA, VB, matf, vecf. split; intros H r Hr; specialize (H r Hr); rewrite P in * by exact Hr; exact H.
Qed.

(** Solve a unit upper triangular system for the first i unknowns. *)
Lemma tri_solve i A (rhs : nat -> Z) (x0 : nat -> Z) : tri i A -> (i <= n)%nat -> forall k, (k <= i)%nat ->
  exists x, (forall c, (i <= c)%nat -> x c = x0 c) /\
            forall r, (i - k <= r < i)%nat -> row_sum A x r = rhs r.
Proof.
  intros T Hi. induction k; intros Hk.
  - exists x0. split; [reflexivity|]. intros; lia.
  - destruct IHk as (x & X1 & X2); [lia|]. set (q := (i - S k)%nat).
    exists (fun c => if Nat.eqb c q then rhs q - tail_sum A x q else x c). split.
    + intros c Hc. replace (Nat.eqb c q) with false by (symmetry; apply Nat.eqb_neq; lia). apply X1, Hc.
    + intros r Hr. assert (TS : forall x', (forall c, (r < c)%nat -> x' c = x c) -> tail_sum A x' r = tail_sum A x r).
      { intros x' Hx. apply sum_ext. intros j Hj. rewrite Hx by lia. reflexivity. }
      rewrite (tri_row_sum i) by (try assumption; lia). rewrite TS.
      * destruct (Nat.eqb_spec r q) as [-> | N]; [ring|].
        rewrite <- (X2 r) by lia. rewrite (tri_row_sum i) by (try assumption; lia). reflexivity.
      * intros c Hc. replace (Nat.eqb c q) with false by (symmetry; apply Nat.eqb_neq; lia). reflexivity.
Qed.

Lemma gauss_cases a b : in_range_system a b ->
  (exists x, gauss n m a b = Val x /\ length x = n /\ (forall i, (i < n)%nat -> 0 <= nth i x 0 < m) /\
             forall r, (r < n)%nat -> cong m (row_sum (matf a) (vecf x) r) (nth r b 0)) \/
  (gauss n m a b = RuntimeError /\ exists i, (i < n)%nat /\
     (* column i depends on the columns before it *)
     (exists x, x i = 1 /\ supp (S i) x /\ forall r, (r < n)%nat -> cong m (row_sum (matf a) x r) 0) /\
     (* these are independent *)
     (forall x, supp i x -> (forall r, (r < n)%nat -> cong m (row_sum (matf a) x r) 0) ->
        forall c, (c < i)%nat -> cong m (x c) 0) /\
     (* and the right-hand side is not in their span *)
     (forall x, supp i x -> ~ forall r, (r < n)%nat -> cong m (row_sum (matf a) x r) (nth r b 0))).
Proof.
  intros R. assert (W := wf_init a b R). assert (G := m_gt).
  destruct (triangulate_spec n 0 a b (seq 0 n) ltac:(lia) W) as (rank & a1 & b1 & p & E & W1 & Rk & T & S & Zc).
  { split; intros; lia. }
  assert (SS : same_sols (matf a) (vecf b) (VA a1 p) (VB b1 p)) by (intros x l; rewrite <- view_init; apply S).
  unfold gauss. rewrite E. clear E S.
  destruct (existsb _ _) eqn:Ex.
  - right. split; [reflexivity|]. apply existsb_exists in Ex. destruct Ex as (q & Hq & Nq).
    apply in_seq in Hq. assert (Hlt : (rank < n)%nat) by lia. specialize (Zc Hlt).
    exists rank. split; [exact Hlt|]. split; [|split].
    + destruct (tri_solve rank (VA a1 p) (fun _ => 0) (fun c => if Nat.eqb c rank then 1 else 0) T ltac:(lia) rank ltac:(lia))
        as (x & X1 & X2).
      exists x. assert (Xr : x rank = 1) by (rewrite X1 by lia; rewrite Nat.eqb_refl; reflexivity).
      assert (Xs : supp (Datatypes.S rank) x).
      { intros c Hc. rewrite X1 by lia. replace (Nat.eqb c rank) with false by (symmetry; apply Nat.eqb_neq; lia). reflexivity. }
      split; [exact Xr|]. split; [exact Xs|].
      assert (So : sols (VA a1 p) (VB b1 p) x 0).
      { intros r Hr. rewrite Z.mul_0_l. destruct (Nat.lt_ge_cases r rank).
        - rewrite X2 by lia. reflexivity.
        - unfold row_sum. rewrite sum_0; [reflexivity|]. intros c Hc.
          destruct (Nat.lt_trichotomy c rank) as [L|[->|L]].
          + rewrite (proj2 T) by lia. ring.
          + rewrite Zc by lia. ring.
          + rewrite Xs by lia. ring. }
      apply SS in So. intros r Hr. specialize (So r Hr). rewrite Z.mul_0_l in So. exact So.
    + intros x Hx Hz.
      assert (So : sols (matf a) (vecf b) x 0) by (intros r Hr; rewrite Z.mul_0_l; apply Hz, Hr).
      apply SS in So.
      assert (K : forall k c, (k <= rank)%nat -> (rank - k <= c < n)%nat -> cong m (x c) 0).
      { induction k; intros c Hk Hc; [rewrite Hx by lia; reflexivity|].
        destruct (Nat.eq_dec c (rank - Datatypes.S k)) as [Ec|]; [|apply IHk; lia].
        assert (Q := So c ltac:(lia)). rewrite Z.mul_0_l, (tri_row_sum rank) in Q by (try assumption; lia).
        rewrite <- Q. rewrite <- (Z.add_0_r (x c)) at 1. apply cong_add; [reflexivity|].
        symmetry. apply sum_cong_0. intros j Hj. rewrite (IHk (Datatypes.S c + j)%nat) by lia. rewrite Z.mul_0_r. reflexivity. }
      intros c Hc. apply (K rank c); lia.
    + intros x Hx Hb.
      assert (So : sols (matf a) (vecf b) x 1) by (intros r Hr; rewrite Z.mul_1_l; apply Hb, Hr).
      apply SS in So. specialize (So q ltac:(lia)). rewrite Z.mul_1_l in So.
      rewrite (tri_row_low rank) in So by (try assumption; lia).
      apply negb_true_iff, Z.eqb_neq in Nq. apply Nq. symmetry. apply (cong_eq m); [lia | | exact So].
      apply (wf_eb _ _ _ W1), (wf_prange _ _ _ W1). lia.
  - left. assert (Z0 : forall r, (rank <= r < n)%nat -> VB b1 p r = 0).
    { intros r Hr. destruct (Z.eqb_spec (nth (prow p r) b1 0) 0) as [|N]; [assumption|]. exfalso.
      assert (X : existsb (fun i => negb (nth (prow p i) b1 0 =? 0)) (seq rank (n - rank)) = true).
      { apply existsb_exists. exists r. split; [apply in_seq; lia|]. apply negb_true_iff, Z.eqb_neq, N. }
      congruence. }
    set (b2 := back_sub n m a1 p (n - 1) b1).
    assert (BZ := back_sub_zero a1 p rank (n - 1) b1 W1 ltac:(lia) Z0). fold b2 in BZ.
    destruct (back_sub_spec a1 p b1 (n - 1) b1 W1 ltac:(lia)) as (W2 & Eq & _).
    { reflexivity. }
    { intros r Hr. replace (tail_sum (VA a1 p) (VB b1 p) r) with 0; [rewrite Z.add_0_r; reflexivity|].
      unfold tail_sum. replace (n - Datatypes.S r)%nat with 0%nat by lia. reflexivity. }
    fold b2 in W2, Eq.
    eexists. split; [reflexivity|]. split; [rewrite map_length, seq_length; reflexivity|].
    assert (Nx : forall i, (i < n)%nat -> nth i (map (fun i => nth (prow p i) b2 0) (seq 0 n)) 0 = VB b2 p i)
      by (intros i Hi; rewrite nth_map_seq by exact Hi; reflexivity).
    split; [intros i Hi; rewrite Nx by exact Hi; apply (wf_eb _ _ _ W2), (wf_prange _ _ _ W2), Hi|].
    assert (So : sols (VA a1 p) (VB b1 p) (VB b2 p) 1).
    { intros r Hr. rewrite Z.mul_1_l. destruct (Nat.lt_ge_cases r rank).
      - rewrite (tri_row_sum rank) by assumption. apply Eq, Hr.
      - rewrite (tri_row_low rank) by (try assumption; lia). rewrite Z0 by lia. reflexivity. }
    apply SS in So. intros r Hr. specialize (So r Hr). rewrite Z.mul_1_l in So. rewrite <- So.
    unfold row_sum. apply sum_cong. intros c Hc. unfold vecf. rewrite Nx by exact Hc. reflexivity.
Qed.

End Gauss.
