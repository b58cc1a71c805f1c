(** Proofs about CorrModel: the Cholesky factorization. *)
From Coq Require Import Reals List Arith Lia Lra Psatz.
From Verif Require Import CorrModel.
Import ListNotations.
Local Open Scope R_scope.

(** ** Specification *)

(** sum of f 0 ... f (n-1) *)
Fixpoint rsum (n : nat) (f : nat -> R) : R :=
  match n with O => 0 | S n => rsum n f + f n end.

(** entry (i,j) of a d by d matrix stored row by row *)
Definition entry (d : nat) (A : list R) (i j : nat) : R := nth (i * d + j) A 0.

Definition symmetric (d : nat) (A : list R) : Prop :=
  forall i j, (i < d)%nat -> (j < d)%nat -> entry d A i j = entry d A j i.

Definition quadratic_form (d : nat) (A : list R) (x : nat -> R) : R :=
  rsum d (fun i => rsum d (fun j => x i * entry d A i j * x j)).

Definition positive_definite (d : nat) (A : list R) : Prop :=
  forall x, (exists i, (i < d)%nat /\ x i <> 0) -> 0 < quadratic_form d A x.

Definition lower_triangular (d : nat) (H : list R) : Prop :=
  forall i j, (i < j < d)%nat -> entry d H i j = 0.

(** H times its transpose is A *)
Definition factors (d : nat) (H A : list R) : Prop :=
  forall i j, (i < d)%nat -> (j < d)%nat ->
  rsum d (fun k => entry d H i k * entry d H j k) = entry d A i j.

(** ** Sums *)

Lemma rsum_ext n f g : (forall i, (i < n)%nat -> f i = g i) -> rsum n f = rsum n g.
Proof. induction n; cbn; intros H; auto. rewrite IHn, H; auto. Qed.
Lemma rsum_0 n : rsum n (fun _ => 0) = 0.
Proof. induction n; cbn; lra. Qed.
Lemma rsum_zero n f : (forall i, (i < n)%nat -> f i = 0) -> rsum n f = 0.
Proof. intros H. rewrite (rsum_ext n f (fun _ => 0)); auto using rsum_0. Qed.
Lemma rsum_plus n f g : rsum n (fun i => f i + g i) = rsum n f + rsum n g.
Proof. induction n; cbn; lra. Qed.
Lemma rsum_scal n c f : rsum n (fun i => c * f i) = c * rsum n f.
Proof. induction n; cbn; lra. Qed.
Lemma rsum_scal_r n c f : rsum n (fun i => f i * c) = rsum n f * c.
Proof. induction n; cbn; lra. Qed.
Lemma rsum_swap n m f : rsum n (fun i => rsum m (fun j => f i j)) = rsum m (fun j => rsum n (fun i => f i j)).
Proof.
  induction n; cbn.
  - now rewrite rsum_0.
  - rewrite IHn, <- rsum_plus. reflexivity.
Qed.
(** trailing zero terms *)
Lemma rsum_cut n m f : (n <= m)%nat -> (forall i, (n <= i < m)%nat -> f i = 0) -> rsum m f = rsum n f.
Proof.
  induction 1 as [|m Hm IH]; intros Hz; auto. cbn. rewrite IH, Hz; [lra|lia|]. intros i Hi. apply Hz. lia.
Qed.
Lemma rsum_nonneg n f : (forall i, (i < n)%nat -> 0 <= f i) -> 0 <= rsum n f.
Proof. induction n; cbn; intros H; [lra|]. pose proof (H n ltac:(lia)). assert (0 <= rsum n f) by auto. lra. Qed.
Lemma rsum_nonneg_zero n f : (forall i, (i < n)%nat -> 0 <= f i) -> rsum n f = 0 ->
  forall i, (i < n)%nat -> f i = 0.
Proof.
  induction n; cbn; intros H E i Hi; [lia|].
  assert (0 <= rsum n f) by (apply rsum_nonneg; auto). pose proof (H n ltac:(lia)).
  destruct (Nat.eq_dec i n) as [->|]; [lra|]. apply IHn; auto; [lra|lia].
Qed.

(** ** Outcomes *)

Definition sat {A} (allow : Prop) (Q : A -> Prop) (r : result A) : Prop :=
  match r with Value a => Q a | NotReal => allow | OutOfBounds => False end.
Lemma sat_bind {A B} al (Q : A -> Prop) (Q' : B -> Prop) r f :
  sat al Q r -> (forall a, Q a -> sat al Q' (f a)) -> sat al Q' (bind r f).
Proof. destruct r; cbn; auto. Qed.
Lemma sat_for {S} al (I : nat -> S -> Prop) body : forall n first s,
  I first s -> (forall i s, (first <= i < first + n)%nat -> I i s -> sat al (I (Datatypes.S i)) (body i s)) ->
  sat al (I (first + n)%nat) (for_ first n body s).
Proof.
  induction n as [|n IH]; intros first s H0 Hb; cbn.
  - now rewrite Nat.add_0_r.
  - apply sat_bind with (I (Datatypes.S first)).
    + apply Hb; [lia|assumption].
    + intros s' Hs'. replace (first + Datatypes.S n)%nat with (Datatypes.S first + n)%nat by lia.
      apply IH; auto. intros i s'' Hi. apply Hb. lia.
Qed.
Lemma sat_impl {A} al (Q Q' : A -> Prop) r : (forall a, Q a -> Q' a) -> sat al Q r -> sat al Q' r.
Proof. destruct r; cbn; auto. Qed.

Lemma rd_ok H p : (p < length H)%nat -> rd H p = Value (nth p H 0).
Proof.
  intros Hp. unfold rd. destruct (nth_error H p) eqn:E.
  - now rewrite (nth_error_nth _ _ _ E).
  - apply nth_error_None in E. lia.
Qed.
Lemma wr_ok : forall H p v, (p < length H)%nat -> exists H', wr H p v = Value H' /\ length H' = length H /\
  forall q, nth q H' 0 = if Nat.eqb q p then v else nth q H 0.
Proof.
  induction H as [|x H IH]; intros p v Hp; cbn in Hp; [lia|]. destruct p as [|p]; cbn [wr].
  - exists (v :: H). split; [reflexivity|]. split; [reflexivity|]. now intros [|q].
  - destruct (IH p v ltac:(lia)) as (H' & -> & Hl & Hn). exists (x :: H'). cbn [bind].
    split; [reflexivity|]. split; [cbn; lia|]. intros [|q]; cbn; auto.
Qed.
(** writing entry (i,k) *)
Lemma wr_entry al d H i k v (Q : list R -> Prop) : length H = (d * d)%nat -> (i < d)%nat -> (k < d)%nat ->
  (forall H', length H' = (d * d)%nat -> entry d H' i k = v ->
     (forall a b, (b < d)%nat -> (a <> i \/ b <> k) -> entry d H' a b = entry d H a b) -> Q H') ->
  sat al Q (wr H (i * d + k) v).
Proof.
  intros Hl Hi Hk HQ. destruct (wr_ok H (i * d + k) v) as (H' & -> & Hl' & Hn); [nia|]. cbn. apply HQ.
  - lia.
  - unfold entry. rewrite Hn, Nat.eqb_refl. reflexivity.
  - intros a b Hb Hne. unfold entry. rewrite Hn. destruct (Nat.eqb_spec (a * d + b) (i * d + k)) as [E|]; auto.
    exfalso. assert (a = i) by nia. subst. lia.
Qed.
Lemma rd_entry d H i k : length H = (d * d)%nat -> (i < d)%nat -> (k < d)%nat ->
  rd H (i * d + k) = Value (entry d H i k).
Proof. intros. apply rd_ok. nia. Qed.

Lemma dot_ok d H i k : length H = (d * d)%nat -> (i < d)%nat -> (k < d)%nat -> forall n, (n <= d)%nat ->
  dot d H i k n = Value (rsum n (fun j => entry d H i j * entry d H k j)).
Proof.
  intros Hl Hi Hk n Hn. set (f := fun j => entry d H i j * entry d H k j). unfold dot.
  assert (G : forall m first, (first + m <= d)%nat ->
    for_ first m (fun j t => bind (rd H (i * d + j)) (fun x => bind (rd H (k * d + j)) (fun y =>
      Value (t + x * y)))) (rsum first f) = Value (rsum (first + m) f)).
  { induction m as [|m IH]; intros first Hm; cbn [for_].
    - now rewrite Nat.add_0_r.
    - rewrite !rd_entry by (auto; lia). cbn [bind].
      change (rsum first f + entry d H i first * entry d H k first) with (rsum (S first) f).
      rewrite IH by lia. do 2 f_equal. lia. }
  apply (G n 0%nat). lia.
Qed.

(** ** The pivots of a positive definite matrix *)

(** a triangular system with non-zero diagonal has a solution *)
Lemma back_substitution (L : nat -> nat -> R) : forall n c, (forall a, (a < n)%nat -> L a a <> 0) ->
  (forall a b, (a < b)%nat -> L a b = 0) ->
  exists x, forall a, (a < n)%nat -> rsum n (fun b => L b a * x b) = c a.
Proof.
  induction n as [|n IH]; intros c Hd Hz.
  - exists (fun _ => 0). intros a Ha. lia.
  - set (xn := c n / L n n). destruct (IH (fun a => c a - L n a * xn)) as [x Hx]; auto.
    exists (fun b => if Nat.eqb b n then xn else x b). intros a Ha. cbn. rewrite Nat.eqb_refl.
    rewrite (rsum_ext n _ (fun b => L b a * x b)).
    2:{ intros b Hb. destruct (Nat.eqb_spec b n); [lia|reflexivity]. }
    destruct (Nat.eq_dec a n) as [->|Hne].
    + rewrite rsum_zero.
      * unfold xn. field. apply Hd. lia.
      * intros b Hb. rewrite Hz by auto. ring.
    + rewrite Hx by lia. ring.
Qed.

Lemma gram_form n m (B : nat -> nat -> R) x :
  rsum n (fun p => rsum n (fun q => x p * rsum m (fun a => B p a * B q a) * x q)) =
  rsum m (fun a => rsum n (fun p => B p a * x p) * rsum n (fun p => B p a * x p)).
Proof.
  rewrite (rsum_ext n _ (fun p => rsum m (fun a => (B p a * x p) * rsum n (fun q => B q a * x q)))).
  - rewrite rsum_swap. apply rsum_ext. intros a Ha. now rewrite rsum_scal_r.
  - intros p Hp. rewrite (rsum_ext n _ (fun q => rsum m (fun a => x p * B p a * (B q a * x q)))).
    + rewrite rsum_swap. apply rsum_ext. intros a Ha. rewrite rsum_scal. ring.
    + intros q Hq. rewrite <- rsum_scal, <- rsum_scal_r. apply rsum_ext. intros a Ha. ring.
Qed.

Lemma pivot_positive d A (L : nat -> nat -> R) i : (i < d)%nat -> symmetric d A -> positive_definite d A ->
  (forall a, (a < i)%nat -> L a a <> 0) ->
  (forall a b, (b < a <= i)%nat \/ (b <= a < i)%nat ->
     rsum (S b) (fun j => L a j * L b j) = entry d A a b) ->
  0 < entry d A i i - rsum i (fun j => L i j * L i j).
Proof.
  intros Hi Hs Hp Hd HL. set (s := entry d A i i - _).
  set (B := fun p a => if Nat.leb a p then L p a else 0).
  destruct (back_substitution B i (fun a => - L i a)) as [x0 Hx0].
  { intros a Ha. unfold B. rewrite Nat.leb_refl. auto. }
  { intros a b Hab. unfold B. destruct (Nat.leb_spec b a); [lia|reflexivity]. }
  set (x := fun b => if Nat.ltb b i then x0 b else if Nat.eqb b i then 1 else 0).
  assert (Hxi : x i = 1). { unfold x. rewrite Nat.ltb_irrefl, Nat.eqb_refl. reflexivity. }
  assert (Hxl : forall b, (b < i)%nat -> x b = x0 b).
  { intros b Hb. unfold x. destruct (Nat.ltb_spec b i); [reflexivity|lia]. }
  assert (Hxg : forall b, (i < b)%nat -> x b = 0).
  { intros b Hb. unfold x. destruct (Nat.ltb_spec b i); [lia|]. destruct (Nat.eqb_spec b i); [lia|reflexivity]. }
  assert (Q : quadratic_form d A x = s).
  2:{ rewrite <- Q. apply Hp. exists i. split; [assumption|rewrite Hxi; lra]. }
  (* the entries of A in terms of B *)
  set (g := fun p q => rsum i (fun a => B p a * B q a)).
  assert (Hg : forall p q, (q <= p <= i)%nat -> entry d A p q = g p q + (if Nat.eqb q i then s else 0)).
  { intros p q Hpq. unfold g. destruct (Nat.eqb_spec q i) as [->|Hq].
    - assert (p = i) by lia. subst p. unfold s.
      rewrite (rsum_ext i (fun a => B i a * B i a) (fun j => L i j * L i j)); [ring|].
      intros a Ha. unfold B. destruct (Nat.leb_spec a i); [reflexivity|lia].
    - rewrite <- HL by lia. rewrite Rplus_0_r. symmetry. rewrite (rsum_cut (S q) i); [|lia|].
      + apply rsum_ext. intros a Ha. unfold B.
        destruct (Nat.leb_spec a p); [|lia]. destruct (Nat.leb_spec a q); [reflexivity|lia].
      + intros a Ha. unfold B. destruct (Nat.leb_spec a q); [lia|ring]. }
  assert (Hgs : forall p q, g p q = g q p) by (intros; apply rsum_ext; intros; ring).
  unfold quadratic_form.
  rewrite (rsum_cut (S i) d); [|lia|intros p Hpp; apply rsum_zero; intros q Hq; rewrite (Hxg p) by lia; ring].
  rewrite (rsum_ext (S i) _ (fun p => rsum (S i) (fun q => x p * g p q * x q) + (if Nat.eqb p i then s else 0))).
  - rewrite rsum_plus. unfold g. rewrite gram_form. rewrite rsum_zero.
    + cbn [rsum]. rewrite Nat.eqb_refl, rsum_zero; [ring|]. intros p Hpi. destruct (Nat.eqb_spec p i); [lia|reflexivity].
    + intros a Ha. cbn [rsum]. rewrite (rsum_ext i _ (fun b => B b a * x0 b)) by (intros b Hb; now rewrite Hxl).
      rewrite Hx0 by assumption. rewrite Hxi. unfold B. destruct (Nat.leb_spec a i); [ring|lia].
  - intros p Hpp. rewrite (rsum_cut (S i) d); [|lia|intros q Hq; rewrite (Hxg q) by lia; ring].
    assert (E : forall q, (q < S i)%nat -> x p * entry d A p q * x q =
              x p * g p q * x q + (if Nat.eqb p i then if Nat.eqb q i then s else 0 else 0)).
    { intros q Hq. destruct (Nat.le_gt_cases q p) as [Hle|Hgt].
      - rewrite Hg by lia. destruct (Nat.eqb_spec q i) as [->|].
        + assert (p = i) by lia. subst p. rewrite Nat.eqb_refl, Hxi. ring.
        + destruct (Nat.eqb p i); ring.
      - rewrite Hs by lia. rewrite Hg, (Hgs q p) by lia.
        destruct (Nat.eqb_spec p i); [lia|]. ring. }
    rewrite (rsum_ext (S i) _ _ E), rsum_plus. f_equal. destruct (Nat.eqb_spec p i).
    + cbn. rewrite Nat.eqb_refl, rsum_zero; [ring|]. intros q Hq. destruct (Nat.eqb_spec q i); [lia|reflexivity].
    + apply rsum_0.
Qed.

(** ** The factorization *)

Section cholesky.
Variables (d : nat) (A : list R).
Hypothesis HA : length A = (d * d)%nat.
Hypothesis Hsym : symmetric d A.

(** rows below i are factored, the others are still those of A *)
Definition rows_done (i : nat) (H : list R) : Prop :=
  length H = (d * d)%nat /\
  (forall a b, (a < i)%nat -> (a < b < d)%nat -> entry d H a b = 0) /\
  (forall a b, (b <= a < i)%nat -> rsum (S b) (fun j => entry d H a j * entry d H b j) = entry d A a b) /\
  (forall a, (a < i)%nat -> 0 <= entry d H a a) /\
  (forall a, (S a < i)%nat -> entry d H a a <> 0) /\
  (positive_definite d A -> forall a, (a < i)%nat -> 0 < entry d H a a) /\
  (forall a b, (i <= a < d)%nat -> (b < d)%nat -> entry d H a b = entry d A a b).

(** within row i, columns below k are factored *)
Definition entries_done (i : nat) (H0 : list R) (k : nat) (H : list R) : Prop :=
  length H = (d * d)%nat /\
  (forall a b, a <> i -> (b < d)%nat -> entry d H a b = entry d H0 a b) /\
  (forall b, (b < k)%nat -> rsum (S b) (fun j => entry d H i j * entry d H b j) = entry d A i b) /\
  (forall b, (b < k)%nat -> entry d H b b <> 0) /\
  (forall b, (k <= b < d)%nat -> entry d H i b = entry d A i b).

Let not_pd := ~ positive_definite d A.

Lemma chol_entry_ok i H0 k H : (k < i < d)%nat -> rows_done i H0 -> entries_done i H0 k H ->
  sat not_pd (entries_done i H0 (S k)) (chol_entry d i k H).
Proof.
  intros Hk HR (Hl & Ho & Hf & Hn & Hr). unfold chol_entry.
  rewrite dot_ok by lia. cbn [bind]. rewrite !rd_entry by lia. cbn [bind]. unfold rdiv.
  destruct (Req_EM_T (entry d H k k) 0) as [E|E]; cbn [bind sat].
  - intros P. destruct HR as (_ & _ & _ & _ & _ & HP & _). specialize (HP P k ltac:(lia)).
    rewrite Ho in E by lia. lra.
  - apply wr_entry; [assumption|lia|lia|]. intros H' Hl' Hv Ho'.
    assert (Hs : forall b m, b <> i -> (m <= k)%nat ->
      rsum m (fun j => entry d H' i j * entry d H' b j) = rsum m (fun j => entry d H i j * entry d H b j)).
    { intros b m Hb Hm. apply rsum_ext. intros j Hj. rewrite !Ho' by lia. reflexivity. }
    split; [assumption|]. split; [|split; [|split]].
    + intros a b Ha Hb. rewrite Ho' by auto. auto.
    + intros b Hb. destruct (Nat.eq_dec b k) as [->|Hne].
      * cbn [rsum]. rewrite Hs, Hv, (Ho' k k) by lia. rewrite (Hr k) by lia. field. assumption.
      * rewrite Hs by lia. apply Hf. lia.
    + intros b Hb. rewrite Ho' by lia. destruct (Nat.eq_dec b k) as [->|]; auto. apply Hn. lia.
    + intros b Hb. rewrite Ho' by lia. apply Hr. lia.
Qed.

Lemma chol_row_ok i H0 : (i < d)%nat -> rows_done i H0 -> sat not_pd (rows_done (S i)) (chol_row d i H0).
Proof.
  intros Hi HR. unfold chol_row. apply sat_bind with (entries_done i H0 i).
  { replace i with (0 + i)%nat at 2 by lia. apply sat_for.
    - destruct HR as (Hl & _ & _ & _ & _ & _ & Hu). split; [assumption|]. split; [auto|].
      split; [intros; lia|]. split; [intros; lia|]. intros b Hb. apply Hu; lia.
    - intros k H Hk. apply chol_entry_ok; [lia|assumption]. }
  intros H (Hl & Ho & Hf & Hn & Hr). rewrite dot_ok by lia. cbn [bind]. rewrite rd_entry by lia. cbn [bind].
  set (t := rsum i _). destruct HR as (Hl0 & Hz0 & Hf0 & Hp0 & Hn0 & HP0 & Hu0).
  assert (Hf' : forall a b, (b < a <= i)%nat \/ (b <= a < i)%nat ->
     rsum (S b) (fun j => entry d H a j * entry d H b j) = entry d A a b).
  { intros a b Hab. destruct (Nat.eq_dec a i) as [->|Ha]; [apply Hf; lia|].
    rewrite <- Hf0 by lia. apply rsum_ext. intros j Hj. rewrite !Ho by lia. reflexivity. }
  assert (Hpiv : positive_definite d A -> 0 < entry d H i i - t).
  { intros P. rewrite Hr by lia. now apply pivot_positive with (L := entry d H). }
  unfold rsqrt. destruct (Rlt_dec (entry d H i i - t) 0) as [Hneg|Hpos]; cbn [bind sat].
  { intros P. specialize (Hpiv P). lra. }
  set (v := sqrt (entry d H i i - t)).
  assert (Hv : v * v = entry d H i i - t) by (apply sqrt_sqrt; lra).
  assert (Hv0 : 0 <= v) by apply sqrt_pos.
  assert (HvP : positive_definite d A -> 0 < v) by (intros P; apply sqrt_lt_R0; auto).
  set (J := fun k H' => length H' = (d * d)%nat /\
     (forall a b, (b < d)%nat -> a <> i \/ (b < i)%nat -> entry d H' a b = entry d H a b) /\
     entry d H' i i = v /\ (forall b, (i < b < k)%nat -> entry d H' i b = 0)).
  apply sat_bind with (J (S i)).
  { apply wr_entry; [assumption|lia|lia|]. intros H' Hl' Hv' Ho'. split; [assumption|]. split.
    - intros a b Hb Hab. apply Ho'; lia.
    - split; [assumption|]. intros b Hb. lia. }
  intros H1 HJ1. apply sat_impl with (J d).
  - intros H2 (Hl2 & Ho2 & Hv2 & Hz2). split; [assumption|]. split; [|split; [|split; [|split; [|split]]]].
    + intros a b Ha Hb. destruct (Nat.eq_dec a i) as [->|]; [apply Hz2; lia|].
      rewrite Ho2, Ho by lia. apply Hz0; lia.
    + intros a b Hab. destruct (Nat.eq_dec a i) as [->|].
      * destruct (Nat.eq_dec b i) as [->|].
        -- cbn [rsum]. rewrite Hv2, Hv, (rsum_ext i _ (fun j => entry d H i j * entry d H i j)).
           ++ fold t. rewrite Hr by lia. ring.
           ++ intros j Hj. rewrite !Ho2 by lia. reflexivity.
        -- rewrite <- Hf by lia. apply rsum_ext. intros j Hj. rewrite !Ho2 by lia. reflexivity.
      * rewrite <- Hf' by lia. apply rsum_ext. intros j Hj. rewrite !Ho2 by lia. reflexivity.
    + intros a Ha. destruct (Nat.eq_dec a i) as [->|]; [lra|]. rewrite Ho2, Ho by lia. apply Hp0. lia.
    + intros a Ha. rewrite Ho2 by lia. apply Hn. lia.
    + intros P a Ha. destruct (Nat.eq_dec a i) as [->|]; [rewrite Hv2; auto|]. rewrite Ho2, Ho by lia. apply HP0; auto. lia.
    + intros a b Ha Hb. rewrite Ho2, Ho by lia. apply Hu0; lia.
  - replace d with (S i + (d - S i))%nat at 1 by lia. apply sat_for; [assumption|].
    intros k H2 Hk (Hl2 & Ho2 & Hv2 & Hz2). apply wr_entry; [assumption|lia|lia|].
    intros H3 Hl3 Hv3 Ho3. split; [assumption|]. split; [|split].
    + intros a b Hb Hab. rewrite Ho3 by lia. auto.
    + rewrite Ho3 by lia. assumption.
    + intros b Hb. destruct (Nat.eq_dec b k) as [->|]; auto. rewrite Ho3 by lia. apply Hz2. lia.
Qed.

Lemma cholesky_ok : sat not_pd (rows_done d) (cholesky d A).
Proof.
  unfold cholesky. replace d with (0 + d)%nat at 1 by lia. apply sat_for.
  - split; [assumption|]. repeat split; intros; try lia.
  - intros i H Hi. apply chol_row_ok. lia.
Qed.

Lemma rows_done_factors H : rows_done d H -> lower_triangular d H /\ factors d H A.
Proof.
  intros (Hl & Hz & Hf & _). assert (HL : lower_triangular d H) by (intros i j Hij; apply Hz; lia).
  split; [assumption|].
  assert (G : forall i j, (j <= i < d)%nat -> rsum d (fun k => entry d H i k * entry d H j k) = entry d A i j).
  { intros i j Hij. rewrite (rsum_cut (S j) d); [apply Hf; lia|lia|]. intros k Hk. rewrite (HL j k) by lia. ring. }
  intros i j Hi Hj. destruct (Nat.le_gt_cases j i); [apply G; lia|].
  rewrite Hsym by lia. rewrite <- G by lia. apply rsum_ext. intros; ring.
Qed.

(** a factor with positive diagonal makes A positive definite *)
Lemma factor_definite H : lower_triangular d H -> factors d H A -> (forall a, (a < d)%nat -> 0 < entry d H a a) ->
  positive_definite d A.
Proof.
  intros HL HF Hd x [m [Hm Hx]].
  assert (Q : quadratic_form d A x =
    rsum d (fun a => rsum d (fun p => entry d H p a * x p) * rsum d (fun p => entry d H p a * x p))).
  { rewrite <- gram_form. unfold quadratic_form. apply rsum_ext. intros p Hp. apply rsum_ext. intros q Hq.
    rewrite HF by assumption. reflexivity. }
  rewrite Q. set (w := fun a => rsum d (fun p => entry d H p a * x p)).
  change (0 < rsum d (fun a => w a * w a)).
  assert (Hnn : forall a, (a < d)%nat -> 0 <= w a * w a) by (intros; nra).
  destruct (Rle_lt_or_eq_dec _ _ (rsum_nonneg d _ Hnn)) as [|E]; [assumption|exfalso].
  symmetry in E. pose proof (rsum_nonneg_zero d _ Hnn E) as Hw.
  (* then x vanishes, from the last index down *)
  assert (Hx0 : forall n, (n <= d)%nat -> forall p, (d - n <= p < d)%nat -> x p = 0).
  { induction n as [|n IH]; intros Hn p Hp; [lia|].
    destruct (Nat.eq_dec p (d - S n)) as [->|]; [|apply IH; lia]. set (a := (d - S n)%nat) in *.
    assert (Ha : w a = 0) by (specialize (Hw a ltac:(lia)); cbn beta in Hw; nra).
    unfold w in Ha. rewrite (rsum_cut (S a) d) in Ha; [|lia|].
    - cbn in Ha. rewrite rsum_zero in Ha.
      + specialize (Hd a ltac:(lia)). nra.
      + intros p' Hp'. rewrite HL by lia. ring.
    - intros p' Hp'. rewrite (IH ltac:(lia) p') by lia. ring. }
  apply Hx. apply (Hx0 d); lia.
Qed.
End cholesky.
