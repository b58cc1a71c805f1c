(** Finite sums over Z, matrices and vectors as functions. *)
From Coq Require Import ZArith List Lia Arith Setoid Morphisms.
From Verif Require Import Base Cong.
Open Scope Z_scope.

Fixpoint sum (n : nat) (f : nat -> Z) : Z :=
  match n with O => 0 | S k => sum k f + f k end.

Lemma sum_ext n f g : (forall i, (i < n)%nat -> f i = g i) -> sum n f = sum n g.
Proof. induction n; intros H; cbn [sum]; [reflexivity|]. rewrite IHn, H by auto with arith. reflexivity. Qed.

Lemma sum_add n f g : sum n (fun i => f i + g i) = sum n f + sum n g.
Proof. induction n; cbn [sum]; [reflexivity|]. rewrite IHn. ring. Qed.

Lemma sum_mul_l n c f : sum n (fun i => c * f i) = c * sum n f.
Proof. induction n; cbn [sum]; [ring|]. rewrite IHn. ring. Qed.

Lemma sum_mul_r n c f : sum n (fun i => f i * c) = sum n f * c.
Proof. induction n; cbn [sum]; [ring|]. rewrite IHn. ring. Qed.

Lemma sum_sub n f g : sum n (fun i => f i - g i) = sum n f - sum n g.
Proof. induction n; cbn [sum]; [reflexivity|]. rewrite IHn. ring. Qed.

Lemma sum_0 n f : (forall i, (i < n)%nat -> f i = 0) -> sum n f = 0.
Proof. intros H. rewrite (sum_ext n f (fun _ => 0) H). clear. induction n; cbn [sum]; lia. Qed.

Lemma sum_swap n m f : sum n (fun i => sum m (fun j => f i j)) = sum m (fun j => sum n (fun i => f i j)).
Proof.
  induction n; cbn [sum].
  - symmetry. apply sum_0. reflexivity.
  - rewrite IHn, <- sum_add. reflexivity.
Qed.

Lemma sum_cong m n f g : (forall i, (i < n)%nat -> cong m (f i) (g i)) -> cong m (sum n f) (sum n g).
Proof.
  induction n; intros H; cbn [sum]; [reflexivity|].
  rewrite IHn by auto with arith. rewrite (H n) by auto with arith. reflexivity.
Qed.

Lemma sum_cong_0 m n f : (forall i, (i < n)%nat -> cong m (f i) 0) -> cong m (sum n f) 0.
Proof. intros H. rewrite (sum_cong m n f (fun _ => 0) H). rewrite sum_0; reflexivity. Qed.

Lemma sum_split n k f : (k <= n)%nat -> sum n f = sum k f + sum (n - k) (fun i => f (k + i)%nat).
Proof.
  intros H. replace n with (k + (n - k))%nat at 1 by lia. generalize (n - k)%nat. intros j.
  induction j; cbn [sum].
  - rewrite Nat.add_0_r. ring.
  - replace (k + S j)%nat with (S (k + j)) by lia. cbn [sum]. rewrite IHj. ring.
Qed.

Lemma sum_shift n f : sum (S n) f = f 0%nat + sum n (fun i => f (S i)).
Proof. rewrite (sum_split (S n) 1) by lia. cbn [sum]. replace (S n - 1)%nat with n by lia. reflexivity. Qed.

(** One term singled out. *)
Lemma sum_single n k f : (k < n)%nat -> (forall i, (i < n)%nat -> i <> k -> f i = 0) -> sum n f = f k.
Proof.
  intros Hk H. induction n; [lia|]. cbn [sum]. destruct (Nat.eq_dec k n) as [-> | N].
  - rewrite sum_0; [ring|]. intros i Hi. apply H; lia.
  - rewrite IHn by (try lia; intros; apply H; lia). rewrite (H n) by lia. ring.
Qed.

Lemma sum_single_cong m n k f : (k < n)%nat -> (forall i, (i < n)%nat -> i <> k -> cong m (f i) 0) ->
  cong m (sum n f) (f k).
Proof.
  intros Hk H.
  rewrite (sum_cong m n f (fun i => if Nat.eqb i k then f i else 0)).
  - rewrite (sum_single n k); [rewrite Nat.eqb_refl; reflexivity | exact Hk |].
    intros i Hi N. apply Nat.eqb_neq in N. rewrite N. reflexivity.
  - intros i Hi. destruct (Nat.eqb_spec i k); [reflexivity | apply H; assumption].
Qed.

Lemma sum_range n f lo hi : (forall i, (i < n)%nat -> lo <= f i <= hi) ->
  Z.of_nat n * lo <= sum n f <= Z.of_nat n * hi.
Proof.
  induction n; intros H; cbn [sum]; [lia|].
  assert (B := IHn (fun i Hi => H i (Nat.lt_lt_succ_r _ _ Hi))). assert (C := H n ltac:(lia)).
  rewrite Nat2Z.inj_succ. lia.
Qed.

Lemma sum_rev n f : sum n f = sum n (fun i => f (n - 1 - i)%nat).
Proof.
  induction n; [reflexivity|]. rewrite (sum_shift n (fun i => f (S n - 1 - i)%nat)). cbn [sum].
  rewrite Z.add_comm, IHn. replace (f (S n - 1 - 0)%nat) with (f n) by (f_equal; lia).
  f_equal. apply sum_ext. intros i Hi. f_equal. lia.
Qed.

(** ** Lists *)
Lemma nth_map_seq {A} (f : nat -> A) n i d : (i < n)%nat -> nth i (map f (seq 0 n)) d = f i.
Proof.
  intros H. rewrite nth_indep with (d' := f 0%nat) by (rewrite map_length, seq_length; exact H).
  rewrite map_nth, seq_nth by exact H. reflexivity.
Qed.

Lemma map_seq_nth {A} (l : list A) d : map (fun i => nth i l d) (seq 0 (length l)) = l.
Proof.
  apply (nth_ext _ _ d d); [rewrite map_length, seq_length; reflexivity|].
  rewrite map_length, seq_length. intros n Hn. apply (nth_map_seq (fun i => nth i l d)). exact Hn.
Qed.

Lemma nth_ext_len {A} (l l' : list A) n d : length l = n -> length l' = n ->
  (forall i, (i < n)%nat -> nth i l d = nth i l' d) -> l = l'.
Proof. intros E E' H. apply (nth_ext _ _ d d); [congruence|]. rewrite E. exact H. Qed.

(** ** Matrix-vector products over Z, matrices as functions row -> column -> entry *)
Definition mv (n : nat) (A : nat -> nat -> Z) (v : nat -> Z) : nat -> Z :=
  fun i => sum n (fun j => A i j * v j).
Definition mm (n : nat) (A B : nat -> nat -> Z) : nat -> nat -> Z :=
  fun i j => sum n (fun k => A i k * B k j).

Lemma mv_mm n A B v i : mv n (mm n A B) v i = mv n A (mv n B v) i.
Proof.
  unfold mv, mm.
  rewrite (sum_ext n _ (fun j => sum n (fun k => A i k * B k j * v j)))
    by (intros; rewrite <- sum_mul_r; reflexivity).
  rewrite sum_swap. apply sum_ext. intros k _. rewrite <- sum_mul_l.
  apply sum_ext. intros j _. ring.
Qed.

Lemma mv_cong m n A A' v v' i : (forall i j, (i < n)%nat -> (j < n)%nat -> cong m (A i j) (A' i j)) ->
  (forall j, (j < n)%nat -> cong m (v j) (v' j)) -> (i < n)%nat -> cong m (mv n A v i) (mv n A' v' i).
Proof. intros HA Hv Hi. apply sum_cong. intros j Hj. rewrite (HA i j Hi Hj), (Hv j Hj). reflexivity. Qed.

Lemma mm_cong m n A A' B B' i j :
  (forall i j, (i < n)%nat -> (j < n)%nat -> cong m (A i j) (A' i j)) ->
  (forall i j, (i < n)%nat -> (j < n)%nat -> cong m (B i j) (B' i j)) ->
  (i < n)%nat -> (j < n)%nat -> cong m (mm n A B i j) (mm n A' B' i j).
Proof. intros HA HB Hi Hj. apply sum_cong. intros k Hk. rewrite (HA i k Hi Hk), (HB k j Hk Hj). reflexivity. Qed.
