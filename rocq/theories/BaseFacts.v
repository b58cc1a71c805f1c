(** Elementary facts used by several proof files. *)
From Coq Require Import ZArith List Lia Arith.
From Verif Require Import Base.
Open Scope Z_scope.

Lemma iter_add {A} (f : A -> A) (m n : nat) (x : A) :
  Nat.iter (m + n) f x = Nat.iter m f (Nat.iter n f x).
Proof. induction m; simpl; congruence. Qed.

Lemma iter_S_r {A} (f : A -> A) (n : nat) (x : A) :
  Nat.iter (S n) f x = Nat.iter n f (f x).
Proof. replace (S n) with (n + 1)%nat by lia. rewrite iter_add. reflexivity. Qed.

Lemma iter_mul {A} (f : A -> A) (m n : nat) (x : A) :
  Nat.iter (m * n) f x = Nat.iter m (Nat.iter n f) x.
Proof.
  induction m; simpl; [reflexivity|]. rewrite iter_add, IHm. reflexivity.
Qed.

Lemma iter_ext {A} (f g : A -> A) (n : nat) (x : A) :
  (forall y, f y = g y) -> Nat.iter n f x = Nat.iter n g x.
Proof. intros H; induction n; simpl; [reflexivity|]. rewrite IHn, H. reflexivity. Qed.

Lemma iter_inv {A} (P : A -> Prop) (f : A -> A) (n : nat) (x : A) :
  (forall y, P y -> P (f y)) -> P x -> P (Nat.iter n f x).
Proof. intros H Hx; induction n; simpl; auto. Qed.

(** Transport of iteration along a map that commutes with the step. *)
Lemma iter_morph {A B} (h : A -> B) (f : A -> A) (g : B -> B) (n : nat) (x : A) :
  (forall y, h (f y) = g (h y)) -> h (Nat.iter n f x) = Nat.iter n g (h x).
Proof. intros H; induction n; simpl; [reflexivity|]. rewrite H, IHn. reflexivity. Qed.

Lemma iter_morph_inv {A B} (P : A -> Prop) (h : A -> B) (f : A -> A) (g : B -> B) (n : nat) (x : A) :
  (forall y, P y -> P (f y)) -> (forall y, P y -> h (f y) = g (h y)) -> P x ->
  h (Nat.iter n f x) = Nat.iter n g (h x).
Proof.
  intros HP H Hx; induction n; simpl; [reflexivity|].
  rewrite H, IHn; [reflexivity|]. apply iter_inv; auto.
Qed.

Lemma wrap64_range x : 0 <= wrap64 x < 2 ^ 64.
Proof. apply Z.mod_pos_bound. reflexivity. Qed.
Lemma wrap64_small x : 0 <= x < 2 ^ 64 -> wrap64 x = x.
Proof. apply Z.mod_small. Qed.

(** Pigeonhole: an injection of [0,N) into [0,N) is onto. *)
Lemma inj_surj (N : nat) (f : nat -> Z) :
  (forall i, (i < N)%nat -> 0 <= f i < Z.of_nat N) ->
  (forall i j, (i < j < N)%nat -> f i <> f j) ->
  forall v, 0 <= v < Z.of_nat N -> exists i, (i < N)%nat /\ f i = v.
Proof.
  intros Hr Hi v Hv.
  assert (ND : NoDup (map f (seq 0 N))).
  { assert (forall k s, (s + k <= N)%nat -> NoDup (map f (seq s k))) as H.
    { induction k; intros s Hs; simpl; constructor.
      - intro Hin. apply in_map_iff in Hin. destruct Hin as (j & Hj & Hin).
        apply in_seq in Hin. apply (Hi s j); [lia | congruence].
      - apply IHk. lia. }
    apply H. lia. }
  assert (IN : incl (map Z.of_nat (seq 0 N)) (map f (seq 0 N))).
  { apply NoDup_length_incl; [exact ND | rewrite !map_length; lia |].
    intros x Hx. apply in_map_iff in Hx. destruct Hx as (i & <- & Hin).
    apply in_seq in Hin. specialize (Hr i ltac:(lia)).
    apply in_map_iff. exists (Z.to_nat (f i)). split; [lia|]. apply in_seq. lia. }
  assert (In v (map f (seq 0 N))) as H.
  { apply IN. apply in_map_iff. exists (Z.to_nat v). split; [lia|]. apply in_seq. lia. }
  apply in_map_iff in H. destruct H as (i & E & Hin). apply in_seq in Hin.
  exists i. split; [lia | exact E].
Qed.

Lemma inj_surj_Z (N : Z) (f : Z -> Z) :
  (forall x, 0 <= x < N -> 0 <= f x < N) ->
  (forall x y, 0 <= x < N -> 0 <= y < N -> f x = f y -> x = y) ->
  forall v, 0 <= v < N -> exists x, 0 <= x < N /\ f x = v.
Proof.
  intros Hr Hi v Hv.
  destruct (inj_surj (Z.to_nat N) (fun i => f (Z.of_nat i))) with (v := v) as (i & Hi' & E).
  - intros i Hlt. specialize (Hr (Z.of_nat i)). lia.
  - intros i j Hij E. apply Hi in E; lia.
  - lia.
  - exists (Z.of_nat i). split; [lia | exact E].
Qed.

(** Words and bits. *)
Lemma word_bits w x : 0 <= w -> 0 <= x < 2 ^ w <-> (0 <= x /\ forall i, w <= i -> Z.testbit x i = false).
Proof.
  intros Hw; split.
  - intros [H0 H1]; split; [lia|]. intros i Hi.
    destruct (Z.eq_dec x 0) as [->|]; [apply Z.testbit_0_l|].
    apply Z.bits_above_log2; [lia|]. apply Z.log2_lt_pow2 in H1; lia.
  - intros [H0 H]. split; [lia|].
    destruct (Z.eq_dec x 0) as [->|]; [apply Z.pow_pos_nonneg; lia|].
    apply Z.log2_lt_pow2; [lia|].
    destruct (Z.lt_ge_cases (Z.log2 x) w) as [|Hge]; [assumption|].
    specialize (H _ Hge). rewrite Z.bit_log2 in H by lia. discriminate.
Qed.

Lemma lxor_range w x y : 0 <= w -> 0 <= x < 2 ^ w -> 0 <= y < 2 ^ w -> 0 <= Z.lxor x y < 2 ^ w.
Proof.
  intros Hw Hx Hy. apply word_bits in Hx, Hy; try lia. destruct Hx as [Hx0 Hx], Hy as [Hy0 Hy].
  apply word_bits; [lia|]. split; [apply Z.lxor_nonneg; tauto|].
  intros i Hi. rewrite Z.lxor_spec, Hx, Hy by lia. reflexivity.
Qed.

Lemma land_range w x y : 0 <= w -> 0 <= x < 2 ^ w -> 0 <= y -> 0 <= Z.land x y < 2 ^ w.
Proof.
  intros Hw Hx Hy. apply word_bits in Hx; try lia. destruct Hx as [Hx0 Hx].
  apply word_bits; [lia|]. split; [apply Z.land_nonneg; tauto|].
  intros i Hi. rewrite Z.land_spec, Hx by lia. reflexivity.
Qed.

Lemma lor_range w x y : 0 <= w -> 0 <= x < 2 ^ w -> 0 <= y < 2 ^ w -> 0 <= Z.lor x y < 2 ^ w.
Proof.
  intros Hw Hx Hy. apply word_bits in Hx, Hy; try lia. destruct Hx as [Hx0 Hx], Hy as [Hy0 Hy].
  apply word_bits; [lia|]. split; [apply Z.lor_nonneg; tauto|].
  intros i Hi. rewrite Z.lor_spec, Hx, Hy by lia. reflexivity.
Qed.

Lemma shiftr_range w x k : 0 <= w -> 0 <= k -> 0 <= x < 2 ^ w -> 0 <= Z.shiftr x k < 2 ^ w.
Proof.
  intros Hw Hk Hx. apply word_bits in Hx; try lia. destruct Hx as [Hx0 Hx].
  apply word_bits; [lia|]. split; [apply Z.shiftr_nonneg; tauto|].
  intros i Hi. rewrite Z.shiftr_spec, Hx by lia. reflexivity.
Qed.

(** [t ^= t >> k] and [t ^= t << k] are injective on words. *)
Lemma xorshr_inj w k x y : 0 <= w -> 0 < k -> 0 <= x < 2 ^ w -> 0 <= y < 2 ^ w ->
  Z.lxor x (Z.shiftr x k) = Z.lxor y (Z.shiftr y k) -> x = y.
Proof.
  intros Hw Hk Hx Hy E. apply word_bits in Hx, Hy; try lia.
  destruct Hx as [Hx0 Hx], Hy as [Hy0 Hy].
  assert (H : forall n i, w - Z.of_nat n <= i -> 0 <= i -> Z.testbit x i = Z.testbit y i).
  { induction n; intros i Hi H0.
    - rewrite Hx, Hy by lia. reflexivity.
    - assert (T : Z.testbit (Z.lxor x (Z.shiftr x k)) i = Z.testbit (Z.lxor y (Z.shiftr y k)) i)
        by now rewrite E.
      rewrite !Z.lxor_spec, !Z.shiftr_spec, (IHn (i + k)) in T by lia.
      destruct (Z.testbit x i), (Z.testbit y i), (Z.testbit y (i + k)); simpl in T; congruence. }
  apply Z.bits_inj'. intros i Hi. apply (H (Z.to_nat w)); lia.
Qed.

Lemma xorshl_inj w k x y : 0 <= w -> 0 < k -> 0 <= x < 2 ^ w -> 0 <= y < 2 ^ w ->
  Z.lxor x (Z.shiftl x k mod 2 ^ w) = Z.lxor y (Z.shiftl y k mod 2 ^ w) -> x = y.
Proof.
  intros Hw Hk Hx Hy E. apply word_bits in Hx, Hy; try lia.
  destruct Hx as [Hx0 Hx], Hy as [Hy0 Hy].
  assert (H : forall n i, i < Z.of_nat n -> 0 <= i < w -> Z.testbit x i = Z.testbit y i).
  { induction n; intros i Hi H0; [lia|].
    assert (T : Z.testbit (Z.lxor x (Z.shiftl x k mod 2 ^ w)) i
                = Z.testbit (Z.lxor y (Z.shiftl y k mod 2 ^ w)) i) by now rewrite E.
    rewrite !Z.lxor_spec, !Z.mod_pow2_bits_low, !Z.shiftl_spec in T by lia.
    destruct (Z.lt_ge_cases i k) as [L|G].
    - rewrite !(Z.testbit_neg_r _ (i - k)) in T by lia.
      destruct (Z.testbit x i), (Z.testbit y i); simpl in T; congruence.
    - rewrite (IHn (i - k)) in T by lia.
      destruct (Z.testbit x i), (Z.testbit y i), (Z.testbit y (i - k)); simpl in T; congruence. }
  apply Z.bits_inj'. intros i Hi.
  destruct (Z.lt_ge_cases i w) as [L|G].
  - apply (H (Z.to_nat w)); lia.
  - rewrite Hx, Hy by lia. reflexivity.
Qed.
