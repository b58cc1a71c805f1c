(** Proofs about the linear_algebra model. *)
From Coq Require Import ZArith List Bool Lia Arith Setoid Morphisms.
From Verif Require Import Base BaseFacts Cong Sums GaussModel GaussProofs LinAlgModel.
Import ListNotations.
Open Scope Z_scope.

(** ** Loops that update distinct cells *)
Lemma fold_upd {A X} (d : A) (p : X -> nat) (f : X -> A -> A) (xs : list X) : forall l,
  NoDup (map p xs) -> (forall x, In x xs -> (p x < length l)%nat) ->
  let l' := fold_left (fun l x => upd l (p x) (f x (nth (p x) l d))) xs l in
  length l' = length l /\
  (forall x, In x xs -> nth (p x) l' d = f x (nth (p x) l d)) /\
  (forall q, ~ In q (map p xs) -> nth q l' d = nth q l d).
Proof.
  induction xs as [|x xs IH]; intros l ND B; cbn [fold_left].
  - cbv zeta. split; [reflexivity|]. split; [intros x []|reflexivity].
  - cbn [map] in ND. inversion ND as [|y ys N ND']; subst.
    set (l1 := upd l (p x) (f x (nth (p x) l d))).
    assert (L1 : length l1 = length l) by apply upd_length.
    specialize (IH l1 ND'). cbv zeta in *. destruct IH as (E1 & E2 & E3).
    { intros y Hy. rewrite L1. apply B. right. exact Hy. }
    assert (Bx : (p x < length l)%nat) by (apply B; left; reflexivity).
    split; [congruence|]. split.
    + intros y [<-|Hy].
      * rewrite E3 by exact N. unfold l1. rewrite nth_upd by exact Bx. rewrite Nat.eqb_refl. reflexivity.
      * rewrite E2 by exact Hy. unfold l1. rewrite nth_upd by exact Bx.
        destruct (Nat.eqb_spec (p y) (p x)) as [E|_]; [|reflexivity].
        exfalso. apply N. rewrite <- E. apply in_map, Hy.
    + intros q Hq. cbn [map In] in Hq. rewrite E3 by tauto. unfold l1. rewrite nth_upd by exact Bx.
      destruct (Nat.eqb_spec q (p x)) as [E|_]; [|reflexivity]. exfalso. apply Hq. left. congruence.
Qed.

(** ** Blocks *)
Lemma blk_in n x0 j : In j (blk n x0) <-> (x0 <= j < n /\ j < x0 + block_step)%nat.
Proof. unfold blk. rewrite in_seq. lia. Qed.

Lemma blocks_in n x0 : In x0 (blocks n) <-> exists q, x0 = (q * block_step)%nat /\ (q < (n + 31) / block_step)%nat.
Proof.
  unfold blocks. rewrite in_map_iff. split.
  - intros (q & <- & H). apply in_seq in H. exists q. split; [reflexivity|]. cbn [block_step] in *. simpl Nat.sub in H. lia.
  - intros (q & -> & H). exists q. split; [reflexivity|]. apply in_seq. cbn [block_step]. simpl Nat.sub. cbn [block_step] in H. lia.
Qed.

(** Every index below n is in exactly one block. *)
Lemma block_of n j : (j < n)%nat -> In (j / block_step * block_step)%nat (blocks n) /\ In j (blk n (j / block_step * block_step)).
Proof.
  intros H. assert (D := Nat.div_mod j block_step ltac:(discriminate)).
  assert (M := Nat.mod_upper_bound j block_step ltac:(discriminate)).
  split.
  - apply blocks_in. exists (j / block_step)%nat. split; [reflexivity|].
    apply (Nat.lt_le_trans _ (S (j / block_step))); [lia|].
    replace (n + 31)%nat with ((n - 1) + 1 * block_step)%nat by (unfold block_step; lia).
    rewrite Nat.div_add by discriminate. assert (j / block_step <= (n - 1) / block_step)%nat by (apply Nat.div_le_mono; [discriminate | lia]). lia.
  - apply blk_in. lia.
Qed.
Lemma block_unique n j x0 : In x0 (blocks n) -> In j (blk n x0) -> x0 = (j / block_step * block_step)%nat.
Proof.
  intros H1 H2. apply blocks_in in H1. destruct H1 as (q & -> & _). apply blk_in in H2. f_equal.
  apply Nat.div_unique with (r := (j - q * block_step)%nat); lia.
Qed.
Lemma blocks_nodup n : NoDup (blocks n).
Proof.
  unfold blocks. generalize (seq_NoDup ((n + (block_step - 1)) / block_step) 0).
  generalize (seq 0 ((n + (block_step - 1)) / block_step)). intros l.
  induction 1 as [|x l N ND IH]; cbn [map]; constructor; [|exact IH].
  rewrite in_map_iff. intros (y & E & Hy). apply N. replace x with y; [exact Hy|]. unfold block_step in E. lia.
Qed.

Lemma cells_in n j0 i j : In (i, j) (cells n j0) <-> (i < n)%nat /\ In j (blk n j0).
Proof.
  unfold cells. rewrite in_flat_map. split.
  - intros (i' & Hi & H). apply in_map_iff in H. destruct H as (j' & E & Hj). injection E as -> ->.
    apply in_seq in Hi. split; [lia | exact Hj].
  - intros (Hi & Hj). exists i. split; [apply in_seq; lia|]. apply in_map_iff. exists j. split; [reflexivity | exact Hj].
Qed.

Lemma cell_inj n i j i' j' : (j < n)%nat -> (j' < n)%nat -> (j + i * n = j' + i' * n)%nat -> i = i' /\ j = j'.
Proof. intros H H' E. assert (i = i') by nia. subst. split; [reflexivity | lia]. Qed.

Definition cpos (n : nat) (ij : nat * nat) : nat := (snd ij + fst ij * n)%nat.

Lemma map_nodup {A B} (f : A -> B) l : (forall x y, In x l -> In y l -> f x = f y -> x = y) -> NoDup l -> NoDup (map f l).
Proof.
  intros I. induction 1 as [|x l N ND IH]; cbn [map]; constructor.
  - rewrite in_map_iff. intros (y & E & Hy). apply N. rewrite (I x y); [exact Hy | left; reflexivity | right; exact Hy | congruence].
  - apply IH. intros. apply I; try right; assumption.
Qed.
Lemma nodup_app {A} (l l' : list A) : NoDup l -> NoDup l' -> (forall x, In x l -> ~ In x l') -> NoDup (l ++ l').
Proof.
  induction 1 as [|x l N ND IH]; intros H' D; cbn [app]; [exact H'|]. constructor.
  - rewrite in_app_iff. intros [H|H]; [exact (N H)|]. apply (D x); [left; reflexivity | exact H].
  - apply IH; [exact H'|]. intros y Hy. apply D. right. exact Hy.
Qed.
Lemma cells_nodup n j0 : NoDup (map (cpos n) (cells n j0)).
Proof.
  apply map_nodup.
  - intros [i j] [i' j'] H H' E. apply cells_in in H, H'. destruct H as (Hi & Hj), H' as (Hi' & Hj').
    apply blk_in in Hj, Hj'. unfold cpos in E. cbn [fst snd] in E.
    destruct (cell_inj n i j i' j') as (-> & ->); try lia. reflexivity.
  - unfold cells. generalize (seq_NoDup n 0). generalize (seq 0 n). intros l.
    induction 1 as [|x l N ND IH]; cbn [flat_map]; [constructor|].
    apply nodup_app; [| exact IH |].
    + apply map_nodup; [intros a b _ _ E; congruence | apply seq_NoDup].
    + intros [i j] H H'. apply in_map_iff in H. destruct H as (j' & E & _). injection E as <- <-.
      apply in_flat_map in H'. destruct H' as (i' & Hi & H'). apply in_map_iff in H'.
      destruct H' as (j2 & E & _). injection E as -> _. exact (N Hi).
Qed.
Lemma cells_bound n j0 ij : In ij (cells n j0) -> (cpos n ij < n * n)%nat.
Proof. destruct ij as [i j]. intros H. apply cells_in in H. destruct H as (Hi & Hj). apply blk_in in Hj. unfold cpos. cbn [fst snd]. nia. Qed.

(** Sums over blocks. *)
Definition lsum (f : nat -> Z) (l : list nat) : Z := fold_right (fun k s => f k + s) 0 l.
Lemma lsum_app f l l' : lsum f (l ++ l') = lsum f l + lsum f l'.
Proof. induction l; cbn [app lsum fold_right] in *; [reflexivity|]. unfold lsum in *. rewrite IHl. ring. Qed.
Lemma lsum_seq f a n : lsum f (seq a n) = sum n (fun i => f (a + i)%nat).
Proof.
  revert a. induction n; intros a; [reflexivity|]. rewrite seq_S, lsum_app, IHn. cbn [lsum fold_right sum]. ring.
Qed.
Lemma blocks_sum n f : lsum (fun x0 => lsum f (blk n x0)) (blocks n) = sum n f.
Proof.
  unfold blocks. assert (G : forall q, lsum (fun x0 => lsum f (blk n x0)) (map (fun q => (q * block_step)%nat) (seq 0 q)) = sum (Nat.min n (q * block_step)) f).
  { induction q as [|q IH].
    - cbn. rewrite Nat.min_0_r. reflexivity.
    - rewrite seq_S, map_app, lsum_app, IH. cbn [map lsum fold_right Nat.add]. unfold blk. fold (lsum f (seq (q * block_step) (Nat.min n (q * block_step + block_step) - q * block_step))).
      rewrite lsum_seq.
      replace (S q * block_step)%nat with (q * block_step + block_step)%nat by lia.
      destruct (Nat.le_gt_cases n (q * block_step)) as [L|L].
      + rewrite (Nat.min_l n (q * block_step)) by lia. rewrite (Nat.min_l n) by lia.
        replace (n - q * block_step)%nat with 0%nat by lia. cbn [sum]. ring.
      + rewrite (Nat.min_r n (q * block_step)) by lia.
        rewrite (sum_split (Nat.min n (q * block_step + block_step)) (q * block_step)) by lia. ring. }
  rewrite G. f_equal. apply Nat.min_l.
  assert (D := Nat.div_mod (n + (block_step - 1)) block_step ltac:(discriminate)).
  assert (M := Nat.mod_upper_bound (n + (block_step - 1)) block_step ltac:(discriminate)).
  unfold block_step in *. lia.
Qed.

Section Den.
Variable T : scalar.
Notation t := (sc T).
Variable m : Z.
Variable den : t -> Z.
Hypothesis den0 : cong m (den (s_zero T)) 0.
Hypothesis den1 : cong m (den (s_one T)) 1.
Hypothesis den_add : forall x y, cong m (den (s_add T x y)) (den x + den y).
Hypothesis den_mul : forall x y, cong m (den (s_mul T x y)) (den x * den y).

Lemma fold_add_den (f : nat -> t) l : forall z,
  cong m (den (fold_left (fun s k => s_add T s (f k)) l z)) (den z + lsum (fun k => den (f k)) l).
Proof.
  induction l as [|k l IH]; intros z; cbn [fold_left].
  - cbn [lsum fold_right]. rewrite Z.add_0_r. reflexivity.
  - rewrite IH, den_add. cbn [lsum fold_right]. rewrite Z.add_assoc. reflexivity.
Qed.
Lemma lsum_cong f g l : (forall k, In k l -> cong m (f k) (g k)) -> cong m (lsum f l) (lsum g l).
Proof.
  induction l as [|k l IH]; intros H; cbn [lsum fold_right]; [reflexivity|].
  fold (lsum f l) (lsum g l). rewrite (H k) by (left; reflexivity). rewrite IH; [reflexivity|]. intros. apply H. right. assumption.
Qed.

Definition mden (n : nat) (a : list t) (i j : nat) : Z := den (mget T n a i j).
Definition vden (v : list t) (i : nat) : Z := den (vget T v i).

Lemma vget_make n f i : (i < n)%nat -> vget T (vmake T n f) i = f i.
Proof. intros H. apply nth_map_seq, H. Qed.
Lemma vmake_length n f : length (vmake T n f) = n.
Proof. unfold vmake. rewrite map_length. apply seq_length. Qed.

Lemma mat_vec_length n a b : length (mat_vec T n a b) = n.
Proof. apply vmake_length. Qed.
Lemma mat_vec_den n a b i : (i < n)%nat -> cong m (vden (mat_vec T n a b) i) (mv n (mden n a) (vden b) i).
Proof.
  intros H. unfold vden at 1, mat_vec. rewrite vget_make by exact H. rewrite fold_add_den, den0, Z.add_0_l.
  rewrite (lsum_seq _ 0 n). cbn [Nat.add]. apply sum_cong. intros k Hk. apply den_mul.
Qed.

Lemma block_sum_den n a b i j k0 :
  cong m (den (block_sum T n a b i j k0)) (lsum (fun k => mden n a i k * mden n b k j) (blk n k0)).
Proof.
  unfold block_sum. rewrite fold_add_den, den0, Z.add_0_l. apply lsum_cong. intros k _. apply den_mul.
Qed.

Lemma mget_fold n f (xs : list (nat * nat)) l :
  NoDup (map (cpos n) xs) -> length l = (n * n)%nat -> (forall x, In x xs -> (cpos n x < n * n)%nat) ->
  let l' := fold_left (fun res ij => mset T n res (fst ij) (snd ij) (f ij (mget T n res (fst ij) (snd ij)))) xs l in
  length l' = (n * n)%nat /\
  (forall i j, In (i, j) xs -> mget T n l' i j = f (i, j) (mget T n l i j)) /\
  (forall i j, ~ In (cpos n (i, j)) (map (cpos n) xs) -> mget T n l' i j = mget T n l i j).
Proof.
  intros ND L B. destruct (fold_upd (s_zero T) (cpos n) f xs l ND) as (E1 & E2 & E3).
  { intros x Hx. rewrite L. apply B, Hx. }
  cbv zeta. split; [rewrite <- L; exact E1|]. split; [intros i j H; apply (E2 (i, j) H) | intros i j H; apply (E3 _ H)].
Qed.

Lemma not_in_cells n j0 i j : (j < n)%nat -> ~ In j (blk n j0) -> ~ In (cpos n (i, j)) (map (cpos n) (cells n j0)).
Proof.
  intros Hj N H. apply in_map_iff in H. destruct H as ([i' j'] & E & H). apply cells_in in H. destruct H as (_ & H).
  assert (H' := H). apply blk_in in H'. unfold cpos in E. cbn [fst snd] in E.
  destruct (cell_inj n i' j' i j) as (_ & ->); try lia. exact (N H).
Qed.

Definition mm_round (n : nat) (a b res : list t) (j0 : nat) : list t :=
  let res := fold_left (fun res (ij : nat * nat) => mset T n res (fst ij) (snd ij) (s_zero T)) (cells n j0) res in
  fold_left (fun res k0 =>
      fold_left (fun res (ij : nat * nat) =>
          mset T n res (fst ij) (snd ij) (s_add T (mget T n res (fst ij) (snd ij)) (block_sum T n a b (fst ij) (snd ij) k0)))
        (cells n j0) res)
    (blocks n) res.

(** One round of the j0 loop: the entry at (i,j), for j in the block, becomes the folded value. *)
Lemma mm_round_entry n a b j0 res : length res = (n * n)%nat ->
  length (mm_round n a b res j0) = (n * n)%nat /\
  (forall i j, (i < n)%nat -> In j (blk n j0) -> mget T n (mm_round n a b res j0) i j =
     fold_left (fun s k0 => s_add T s (block_sum T n a b i j k0)) (blocks n) (s_zero T)) /\
  (forall i j, (j < n)%nat -> ~ In j (blk n j0) -> mget T n (mm_round n a b res j0) i j = mget T n res i j).
Proof.
  intros L. unfold mm_round. cbv zeta.
  destruct (mget_fold n (fun _ _ => s_zero T) (cells n j0) res (cells_nodup n j0) L (cells_bound n j0)) as (L0 & Z1 & Z2).
  cbv beta zeta in *.
  set (res0 := fold_left _ (cells n j0) res) in *.
  assert (Z1' : forall i j, (i < n)%nat -> In j (blk n j0) -> mget T n res0 i j = s_zero T).
  { intros i j Hi Hj. apply Z1. apply cells_in. split; assumption. }
  assert (Z2' : forall i j, (j < n)%nat -> ~ In j (blk n j0) -> mget T n res0 i j = mget T n res i j).
  { intros i j Hj N. apply Z2, not_in_cells; assumption. }
  clear Z1 Z2. 
  assert (G : forall ks r0 z, length r0 = (n * n)%nat ->
     (forall i j, (i < n)%nat -> In j (blk n j0) -> mget T n r0 i j = z i j) ->
     let r1 := fold_left (fun res k0 =>
      fold_left (fun res (ij : nat * nat) =>
          mset T n res (fst ij) (snd ij) (s_add T (mget T n res (fst ij) (snd ij)) (block_sum T n a b (fst ij) (snd ij) k0)))
        (cells n j0) res) ks r0 in
     length r1 = (n * n)%nat /\
     (forall i j, (i < n)%nat -> In j (blk n j0) -> mget T n r1 i j =
         fold_left (fun s k0 => s_add T s (block_sum T n a b i j k0)) ks (z i j)) /\
     (forall i j, (j < n)%nat -> ~ In j (blk n j0) -> mget T n r1 i j = mget T n r0 i j)).
  { induction ks as [|k0 ks IH]; intros r0 z Lr Hz; cbn [fold_left].
    - cbv zeta. split; [exact Lr|]. split; [exact Hz | reflexivity].
    - destruct (mget_fold n (fun ij x => s_add T x (block_sum T n a b (fst ij) (snd ij) k0)) (cells n j0) r0 (cells_nodup n j0) Lr (cells_bound n j0)) as (L1 & A1 & A2).
      cbv beta zeta in *. set (r1 := fold_left _ (cells n j0) r0) in *.
      destruct (IH r1 (fun i j => s_add T (z i j) (block_sum T n a b i j k0)) L1) as (L2 & B1 & B2).
      { intros i j Hi Hj. rewrite A1 by (apply cells_in; split; assumption). cbn [fst snd]. rewrite Hz by assumption. reflexivity. }
      cbv beta in B1. split; [exact L2|]. split; [exact B1|].
      intros i j Hj N. rewrite B2 by assumption. apply A2, not_in_cells; assumption. }
  destruct (G (blocks n) res0 (fun _ _ => s_zero T) L0 Z1') as (L1 & A1 & A2). cbv zeta in *.
  split; [exact L1|]. split; [exact A1|]. intros i j Hj N. rewrite A2 by assumption. apply Z2'; assumption.
Qed.

Lemma mat_mult_entry n a b : length (mat_mult T n a b) = (n * n)%nat /\
  forall i j, (i < n)%nat -> (j < n)%nat -> mget T n (mat_mult T n a b) i j =
    fold_left (fun s k0 => s_add T s (block_sum T n a b i j k0)) (blocks n) (s_zero T).
Proof.
  assert (E : mat_mult T n a b = fold_left (mm_round n a b) (blocks n) (repeat (s_zero T) (n * n))) by reflexivity.
  rewrite E. clear E.
  assert (G : forall js res, length res = (n * n)%nat -> NoDup js -> (forall x, In x js -> In x (blocks n)) ->
    length (fold_left (mm_round n a b) js res) = (n * n)%nat /\
    forall i j, (i < n)%nat -> (j < n)%nat ->
      (In (j / block_step * block_step)%nat js -> mget T n (fold_left (mm_round n a b) js res) i j =
         fold_left (fun s k0 => s_add T s (block_sum T n a b i j k0)) (blocks n) (s_zero T)) /\
      (~ In (j / block_step * block_step)%nat js -> mget T n (fold_left (mm_round n a b) js res) i j = mget T n res i j)).
  { induction js as [|j0 js IH]; intros res L ND Sub; cbn [fold_left].
    - split; [exact L|]. intros i j Hi Hj. split; [intros [] | reflexivity].
    - inversion ND as [|y ys N ND']; subst. destruct (mm_round_entry n a b j0 res L) as (L1 & A1 & A2).
      destruct (IH _ L1 ND' (fun x H => Sub x (or_intror H))) as (L2 & B). split; [exact L2|].
      intros i j Hi Hj. destruct (B i j Hi Hj) as (B1 & B2). destruct (block_of n j Hj) as (C1 & C2).
      split.
      + intros [->|H]; [|apply B1, H]. rewrite B2 by exact N. apply A1; assumption.
      + intros H. cbn [In] in H. rewrite B2 by tauto. apply A2; [exact Hj|]. intros H2.
        apply H. left. apply (block_unique n); [apply Sub; left; reflexivity | exact H2]. }
  destruct (G (blocks n) (repeat (s_zero T) (n * n)) (repeat_length _ _) (blocks_nodup n) (fun x H => H)) as (L & A).
  split; [exact L|]. intros i j Hi Hj. apply (A i j Hi Hj). apply (block_of n j Hj).
Qed.

Lemma mat_mult_den n a b i j : (i < n)%nat -> (j < n)%nat ->
  cong m (mden n (mat_mult T n a b) i j) (mm n (mden n a) (mden n b) i j).
Proof.
  intros Hi Hj. unfold mden at 1. rewrite (proj2 (mat_mult_entry n a b)) by assumption.
  rewrite fold_add_den, den0, Z.add_0_l.
  rewrite (lsum_cong _ (fun k0 => lsum (fun k => mden n a i k * mden n b k j) (blk n k0)))
    by (intros; apply block_sum_den).
  rewrite blocks_sum. reflexivity.
Qed.

Lemma mget_make n f i j : (i < n)%nat -> (j < n)%nat -> mget T n (mmake T n f) i j = f i j.
Proof.
  intros Hi Hj. unfold mget, mmake.
  assert (G : forall c a, (a <= i < a + c)%nat ->
    nth (j + (i - a) * n) (flat_map (fun i => map (fun j => f i j) (seq 0 n)) (seq a c)) (s_zero T) = f i j).
  { induction c; intros a H; [lia|]. cbn [seq flat_map].
    destruct (Nat.eq_dec i a) as [->|N].
    - rewrite Nat.sub_diag, Nat.mul_0_l, Nat.add_0_r. rewrite app_nth1 by (rewrite map_length, seq_length; exact Hj).
      apply nth_map_seq, Hj.
    - rewrite app_nth2 by (rewrite map_length, seq_length; nia). rewrite map_length, seq_length.
      rewrite <- (IHc (S a)) by lia. f_equal. nia. }
  specialize (G n 0%nat ltac:(lia)). rewrite Nat.sub_0_r in G. exact G.
Qed.
Lemma mmake_length n f : length (mmake T n f) = (n * n)%nat.
Proof.
  unfold mmake. assert (G : forall c a, length (flat_map (fun i => map (fun j => f i j) (seq 0 n)) (seq a c)) = (c * n)%nat).
  { induction c; intros a; [reflexivity|]. cbn [seq flat_map]. rewrite app_length, map_length, seq_length, IHc. reflexivity. }
  apply G.
Qed.
End Den.

(** ** Powers over Z *)
Fixpoint mpow (n : nat) (A : nat -> nat -> Z) (k : nat) : nat -> nat -> Z :=
  match k with O => fun i j => if Nat.eqb i j then 1 else 0 | S k => mm n (mpow n A k) A end.

Lemma mm_assoc n A B C i j : mm n (mm n A B) C i j = mm n A (mm n B C) i j.
Proof. exact (mv_mm n A B (fun k => C k j) i). Qed.
Lemma mm_ext n A A' B B' i j :
  (forall i j, (i < n)%nat -> (j < n)%nat -> A i j = A' i j) ->
  (forall i j, (i < n)%nat -> (j < n)%nat -> B i j = B' i j) ->
  (i < n)%nat -> (j < n)%nat -> mm n A B i j = mm n A' B' i j.
Proof. intros HA HB Hi Hj. apply sum_ext. intros k Hk. rewrite HA, HB by assumption. reflexivity. Qed.
Lemma mm_unit_l n A i j : (i < n)%nat -> mm n (fun i j => if Nat.eqb i j then 1 else 0) A i j = A i j.
Proof.
  intros Hi. unfold mm. rewrite (sum_single n i) by (try exact Hi; intros k _ N; apply Nat.neq_sym, Nat.eqb_neq in N; rewrite N; ring).
  rewrite Nat.eqb_refl. ring.
Qed.
Lemma mm_unit_r n A i j : (j < n)%nat -> mm n A (fun i j => if Nat.eqb i j then 1 else 0) i j = A i j.
Proof.
  intros Hj. unfold mm. rewrite (sum_single n j) by (try exact Hj; intros k _ N; apply Nat.eqb_neq in N; rewrite N; ring).
  rewrite Nat.eqb_refl. ring.
Qed.
Lemma mpow_add n A k l i j : (i < n)%nat -> (j < n)%nat -> mpow n A (k + l) i j = mm n (mpow n A k) (mpow n A l) i j.
Proof.
  revert i j. induction l; intros i j Hi Hj.
  - rewrite Nat.add_0_r. cbn [mpow]. rewrite mm_unit_r by exact Hj. reflexivity.
  - rewrite Nat.add_succ_r. cbn [mpow]. rewrite <- mm_assoc. apply mm_ext; try assumption; reflexivity.
Qed.
Lemma mpow_double n A k i j : (i < n)%nat -> (j < n)%nat ->
  mpow n (mm n A A) k i j = mpow n A (k + k) i j.
Proof.
  revert i j. induction k; intros i j Hi Hj; [reflexivity|].
  replace (S k + S k)%nat with (S (S (k + k))) by lia. cbn [mpow]. rewrite mm_assoc.
  apply mm_ext; try assumption; reflexivity.
Qed.
Lemma mpow_cong m n A B k i j : (forall i j, (i < n)%nat -> (j < n)%nat -> cong m (A i j) (B i j)) ->
  (i < n)%nat -> (j < n)%nat -> cong m (mpow n A k i j) (mpow n B k i j).
Proof.
  intros H. revert i j. induction k; intros i j Hi Hj; [reflexivity|]. cbn [mpow]. apply mm_cong; assumption.
Qed.
Lemma mv_mpow n A k v i : (i < n)%nat -> mv n (mpow n A k) v i = Nat.iter k (mv n A) v i.
Proof.
  revert v i. induction k; intros v i Hi.
  - change (Nat.iter 0 (mv n A) v i) with (v i). cbn [mpow]. unfold mv.
    rewrite (sum_single n i) by (try exact Hi; intros j _ N; apply Nat.neq_sym, Nat.eqb_neq in N; rewrite N; ring).
    rewrite Nat.eqb_refl. ring.
  - cbn [mpow]. rewrite mv_mm. rewrite IHk by exact Hi. change (mv n A v) with (Nat.iter 1 (mv n A) v). rewrite <- iter_add, Nat.add_comm. reflexivity.
Qed.

Section Den2.
Variable T : scalar.
Notation t := (sc T).
Variable m : Z.
Variable den : t -> Z.
Hypothesis den0 : cong m (den (s_zero T)) 0.
Hypothesis den1 : cong m (den (s_one T)) 1.
Hypothesis den_add : forall x y, cong m (den (s_add T x y)) (den x + den y).
Hypothesis den_mul : forall x y, cong m (den (s_mul T x y)) (den x * den y).
Notation md := (mden T den).

Lemma power_rounds_den n fuel : forall e res pw i j, 0 <= e < 2 ^ Z.of_nat fuel -> (i < n)%nat -> (j < n)%nat ->
  cong m (md n (power_rounds T n fuel e res pw) i j) (mm n (md n res) (mpow n (md n pw) (Z.to_nat e)) i j).
Proof.
  induction fuel; intros e res pw i j He Hi Hj.
  - replace e with 0 by (simpl in He; lia). cbn [power_rounds Z.to_nat mpow]. rewrite mm_unit_r by exact Hj. reflexivity.
  - cbn [power_rounds]. destruct (Z.gtb_spec e 0) as [P|P].
    2:{ replace e with 0 by lia. cbn [Z.to_nat mpow]. rewrite mm_unit_r by exact Hj. reflexivity. }
    rewrite Nat2Z.inj_succ, Z.pow_succ_r in He by lia.
    rewrite Z.shiftr_div_pow2 by lia. change (2 ^ 1) with 2.
    assert (EL : Z.land e 1 = e mod 2) by exact (Z.land_ones e 1 ltac:(lia)). rewrite EL.
    assert (Hd := Z.div_mod e 2 ltac:(lia)). assert (Hm := Z.mod_pos_bound e 2 ltac:(lia)).
    assert (Hq : 0 <= e / 2) by (apply Z.div_pos; lia).
    set (res1 := if e mod 2 =? 1 then _ else _).
    assert (R1 : forall i j, (i < n)%nat -> (j < n)%nat ->
        cong m (md n res1 i j) (mm n (md n res) (mpow n (md n pw) (Z.to_nat (e mod 2))) i j)).
    { intros i' j' Hi' Hj'. unfold res1. destruct (Z.eqb_spec (e mod 2) 1) as [E|E].
      - rewrite E. rewrite (mat_mult_den T m den den0 den_add den_mul) by assumption.
        change (Z.to_nat 1) with 1%nat. cbn [mpow]. apply mm_cong; try assumption; [reflexivity|].
        intros a b Ha Hb. rewrite mm_unit_l by exact Ha. reflexivity.
      - replace (e mod 2) with 0 by lia. cbn [Z.to_nat mpow]. rewrite mm_unit_r by exact Hj'. reflexivity. }
    assert (EN : Z.to_nat e = (Z.to_nat (e mod 2) + (Z.to_nat (e / 2) + Z.to_nat (e / 2)))%nat).
    { rewrite <- !Z2Nat.inj_add by lia. f_equal. lia. }
    assert (G : forall X, (forall i j, (i < n)%nat -> (j < n)%nat -> cong m (X i j) (mpow n (md n pw) (Z.to_nat (e / 2) + Z.to_nat (e / 2)) i j)) ->
       cong m (mm n (md n res1) X i j) (mm n (md n res) (mpow n (md n pw) (Z.to_nat e)) i j)).
    { intros X HX. rewrite EN.
      rewrite (mm_cong m n (md n res1) (mm n (md n res) (mpow n (md n pw) (Z.to_nat (e mod 2)))) X (mpow n (md n pw) (Z.to_nat (e / 2) + Z.to_nat (e / 2)))) by assumption.
      rewrite mm_assoc. apply mm_cong; try assumption; [reflexivity|].
      intros a b Ha Hb. rewrite mpow_add by assumption. reflexivity. }
    destruct (Z.eqb_spec (e / 2) 0) as [E0|E0].
    + rewrite <- (G (fun i j => if Nat.eqb i j then 1 else 0)).
      * rewrite mm_unit_r by exact Hj. reflexivity.
      * intros a b Ha Hb. rewrite E0. reflexivity.
    + rewrite IHfuel by (try assumption; lia). apply G. intros a b Ha Hb.
      rewrite <- mpow_double by assumption. apply mpow_cong; try assumption.
      intros c d Hc Hd'. apply (mat_mult_den T m den den0 den_add den_mul); assumption.
Qed.

Lemma mat_power_den n a e i j : 0 <= e < 2 ^ 64 -> (i < n)%nat -> (j < n)%nat ->
  cong m (md n (mat_power T n a e) i j) (mpow n (md n a) (Z.to_nat e) i j).
Proof.
  intros He Hi Hj. unfold mat_power. rewrite power_rounds_den by assumption.
  rewrite (mm_cong m n _ (fun i j => if Nat.eqb i j then 1 else 0) _ (mpow n (md n a) (Z.to_nat e))); try assumption.
  - rewrite mm_unit_l by exact Hi. reflexivity.
  - intros x y Hx Hy. unfold mden, unit_matrix. rewrite mget_make by assumption.
    destruct (Nat.eqb x y); [exact den1 | exact den0].
  - reflexivity.
Qed.
End Den2.

(** ** The scalars used *)
Lemma b2z_cong2 x y : cong 2 (Z.b2z (xorb x y)) (Z.b2z x + Z.b2z y).
Proof. destruct x, y; cbn; try reflexivity. exists (-1). reflexivity. Qed.
Lemma b2z_mul x y : Z.b2z (andb x y) = Z.b2z x * Z.b2z y.
Proof. destruct x, y; reflexivity. Qed.

Section Ok.
Variable T : scalar.
Variable P : sc T -> Prop.
Hypothesis P0 : P (s_zero T).
Hypothesis P1 : P (s_one T).
Hypothesis Padd : forall x y, P (s_add T x y).

Lemma fold_ok {X} (f : X -> sc T) l z : P z -> P (fold_left (fun s k => s_add T s (f k)) l z).
Proof. revert z. induction l; intros z Hz; cbn [fold_left]; [exact Hz | apply IHl, Padd]. Qed.
Lemma mat_mult_ok n a b i j : (i < n)%nat -> (j < n)%nat -> P (mget T n (mat_mult T n a b) i j).
Proof. intros Hi Hj. rewrite (proj2 (mat_mult_entry T n a b)) by assumption. apply fold_ok, P0. Qed.
Lemma mat_vec_ok n a b i : (i < n)%nat -> P (vget T (mat_vec T n a b) i).
Proof. intros Hi. unfold mat_vec. rewrite vget_make by exact Hi. apply fold_ok, P0. Qed.
Lemma power_rounds_ok n fuel : forall e res pw, (forall i j, (i < n)%nat -> (j < n)%nat -> P (mget T n res i j)) ->
  forall i j, (i < n)%nat -> (j < n)%nat -> P (mget T n (power_rounds T n fuel e res pw) i j).
Proof.
  induction fuel; intros e res pw H i j Hi Hj; cbn [power_rounds]; [apply H; assumption|].
  assert (H1 : forall i j, (i < n)%nat -> (j < n)%nat -> P (mget T n (if Z.land e 1 =? 1 then mat_mult T n res pw else res) i j)).
  { intros i' j' Hi' Hj'. destruct (Z.land e 1 =? 1); [apply mat_mult_ok | apply H]; assumption. }
  destruct (e >? 0); [|apply H; assumption].
  destruct (Z.shiftr e 1 =? 0); [apply H1 | apply IHfuel]; assumption.
Qed.
Lemma mat_power_ok n a e i j : (i < n)%nat -> (j < n)%nat -> P (mget T n (mat_power T n a e) i j).
Proof.
  apply power_rounds_ok. intros i' j' Hi Hj. unfold unit_matrix. rewrite mget_make by assumption.
  destruct (Nat.eqb i' j'); assumption.
Qed.
End Ok.

Lemma uint_den w : cong (2 ^ w) (s_zero (uint_scalar w)) 0 /\ cong (2 ^ w) (s_one (uint_scalar w)) 1 /\
  (forall x y, cong (2 ^ w) (s_add (uint_scalar w) x y) (x + y)) /\
  (forall x y, cong (2 ^ w) (s_mul (uint_scalar w) x y) (x * y)).
Proof. repeat split; try reflexivity; intros x y; cbn [s_add s_mul uint_scalar]; apply cong_mod. Qed.
Lemma uint_ok w : 1 <= w -> word w (s_zero (uint_scalar w)) /\ word w (s_one (uint_scalar w)) /\
  (forall x y, word w (s_add (uint_scalar w) x y)).
Proof.
  intros Hw. unfold word. cbn [s_zero s_one s_add uint_scalar].
  assert (0 < 2 ^ w) by (apply Z.pow_pos_nonneg; lia).
  assert (2 ^ 1 <= 2 ^ w) by (apply Z.pow_le_mono_r; lia). change (2 ^ 1) with 2 in *.
  repeat split; try lia; apply Z.mod_pos_bound; assumption.
Qed.
