(** Proofs about the example programs: loops, sums over processes, and the points every process looks at. *)
From Coq Require Import ZArith List Bool Arith Lia.
From Verif Require Import Base BaseFacts Spec SpecFacts Sums IntMathModel CudaModel ExamplesModel.
Import ListNotations.
Open Scope Z_scope.

(** ** Loops *)
Lemma for_loop_steps {S} ok (st : nat -> S) body : forall n fuel i stop step, (n < fuel)%nat -> 0 < step ->
  (forall k, (k < n)%nat -> i + Z.of_nat k * step < stop) -> stop <= i + Z.of_nat n * step ->
  (forall k, (k < n)%nat -> body (i + Z.of_nat k * step) (st k) = Val (st (Datatypes.S k))) ->
  (forall k, (k < n)%nat -> ok (i + Z.of_nat (Datatypes.S k) * step) = true) ->
  for_loop ok fuel i stop step body (st 0%nat) = Val (st n).
Proof.
  intros n. revert st. induction n as [|n IH]; intros st fuel i stop step Hf Hs Hlt Hstop Hb Hok; (destruct fuel as [|fuel]; [lia|]); cbn [for_loop].
  - destruct (Z.ltb_spec i stop); [lia | reflexivity].
  - assert (H0 := Hlt 0%nat ltac:(lia)). destruct (Z.ltb_spec i stop); [|lia].
    assert (B := Hb 0%nat ltac:(lia)). change (Z.of_nat 0) with 0 in B. rewrite Z.mul_0_l, Z.add_0_r in B. rewrite B.
    cbn [rbind]. assert (O := Hok 0%nat ltac:(lia)). change (Z.of_nat 1) with 1 in O. rewrite Z.mul_1_l in O.
    unfold checked. rewrite O. cbn [rbind].
    apply (IH (fun k => st (Datatypes.S k))); try lia.
    + intros k Hk. specialize (Hlt (Datatypes.S k) ltac:(lia)). lia.
    + intros k Hk. specialize (Hb (Datatypes.S k) ltac:(lia)). cbv beta in *.
      replace (i + step + Z.of_nat k * step) with (i + Z.of_nat (Datatypes.S k) * step) by lia. exact Hb.
    + intros k Hk. specialize (Hok (Datatypes.S k) ltac:(lia)).
      replace (i + step + Z.of_nat (Datatypes.S k) * step) with (i + Z.of_nat (Datatypes.S (Datatypes.S k)) * step) by lia. exact Hok.
Qed.

Lemma int64_ok x : 0 <= x < 2 ^ 63 -> int64 x = true.
Proof. intros H. unfold int64. apply andb_true_iff. split; [apply Z.leb_le | apply Z.ltb_lt]; lia. Qed.
Lemma int32_ok x : 0 <= x < 2 ^ 31 -> int32 x = true.
Proof. intros H. unfold int32. apply andb_true_iff. split; [apply Z.leb_le | apply Z.ltb_lt]; lia. Qed.

Lemma total_sum (f : nat -> result Z) g : forall n a, (forall k, (a <= k < a + n)%nat -> f k = Val (g k)) ->
  total (map f (seq a n)) = Val (sum n (fun k => g (a + k)%nat)).
Proof.
  induction n as [|n IH]; intros a H; [reflexivity|]. cbn [seq map total]. rewrite H by lia. cbn [rbind].
  rewrite IH by (intros; apply H; lia). cbn [rbind]. rewrite sum_shift. f_equal. f_equal; [f_equal; lia|].
  apply sum_ext. intros i _. f_equal. lia.
Qed.
Lemma total_ranks size (f : Z -> result Z) g : (forall k, (k < Z.to_nat size)%nat -> f (Z.of_nat k) = Val (g k)) ->
  total (all_ranks size f) = Val (sum (Z.to_nat size) g).
Proof. intros H. unfold all_ranks. rewrite (total_sum _ g) by (intros; apply H; lia). reflexivity. Qed.

(** ** Strides: the numbers r, r + s, r + 2s, ... below S *)
Definition cnt (S s r : nat) : nat := ((S + (s - 1 - r)) / s)%nat.

Lemma cnt_step S s r : (r < s)%nat ->
  cnt (Datatypes.S S) s r = (cnt S s r + (if Nat.eqb r (S mod s) then 1 else 0))%nat /\
  (r = (S mod s)%nat -> cnt S s r = (S / s)%nat).
Proof.
  intros Hr. unfold cnt. assert (N : s <> 0%nat) by lia.
  assert (D := Nat.div_mod S s N). assert (M := Nat.mod_upper_bound S s N).
  set (q := (S / s)%nat) in *. set (t := (S mod s)%nat) in *.
  assert (Q : forall c, (S + c = t + c + q * s)%nat) by (intros; lia).
  split.
  - rewrite Q. replace (Datatypes.S S + (s - 1 - r))%nat with (t + (s - r) + q * s)%nat by lia.
    rewrite !Nat.div_add by exact N. destruct (Nat.eqb_spec r t) as [->|Ne].
    + replace (t + (s - t))%nat with (0 + 1 * s)%nat by lia. rewrite Nat.div_add by exact N.
      rewrite Nat.div_small by lia. rewrite (Nat.div_small (t + (s - 1 - t))) by lia. lia.
    + destruct (Nat.lt_ge_cases t r).
      * rewrite !Nat.div_small by lia. lia.
      * replace (t + (s - r))%nat with (t - r + 1 * s)%nat by lia.
        replace (t + (s - 1 - r))%nat with (t - r - 1 + 1 * s)%nat by lia.
        rewrite !Nat.div_add by exact N. rewrite !Nat.div_small by lia. lia.
  - intros ->. rewrite Q. rewrite Nat.div_add by exact N. rewrite Nat.div_small by lia. lia.
Qed.

Lemma strides s (h : nat -> Z) : (0 < s)%nat -> forall S,
  sum s (fun r => sum (cnt S s r) (fun j => h (j * s + r)%nat)) = sum S h.
Proof.
  intros Hs. induction S as [|S IH].
  - cbn [sum]. apply sum_0. intros r Hr. unfold cnt. rewrite Nat.div_small by lia. reflexivity.
  - cbn [sum]. rewrite <- IH.
    assert (M := Nat.mod_upper_bound S s ltac:(lia)). assert (D := Nat.div_mod S s ltac:(lia)).
    transitivity (sum s (fun r => sum (cnt S s r) (fun j => h (j * s + r)%nat) + (if Nat.eqb r (S mod s) then h S else 0))).
    + apply sum_ext. intros r Hr. destruct (cnt_step S s r Hr) as (C1 & C2). rewrite C1.
      destruct (Nat.eqb_spec r (S mod s)) as [E|E].
      * rewrite Nat.add_1_r. cbn [sum]. f_equal. f_equal. rewrite (C2 E). lia.
      * rewrite Nat.add_0_r. lia.
    + rewrite sum_add. f_equal. rewrite (sum_single s (S mod s)); [rewrite Nat.eqb_refl; reflexivity | exact M |].
      intros i _ Ne. apply Nat.eqb_neq in Ne. rewrite Ne. reflexivity.
Qed.

Lemma filter_strides s r : (r < s)%nat -> forall S,
  filter (fun i => Nat.eqb (i mod s) r) (seq 0 S) = map (fun k => (k * s + r)%nat) (seq 0 (cnt S s r)).
Proof.
  intros Hr. induction S as [|S IH]; [unfold cnt; rewrite Nat.div_small by lia; reflexivity|].
  rewrite seq_S, filter_app, IH. destruct (cnt_step S s r Hr) as (C1 & C2). rewrite C1. cbn [filter Nat.add].
  rewrite (Nat.eqb_sym r). destruct (Nat.eqb_spec (S mod s) r) as [E|E].
  - rewrite Nat.add_1_r, seq_S, map_app. cbn [map Nat.add]. f_equal. f_equal. rewrite (C2 (eq_sym E)).
    assert (D := Nat.div_mod S s ltac:(lia)). lia.
  - rewrite Nat.add_0_r, app_nil_r. reflexivity.
Qed.

(** cnt is the number of rounds of the loop that starts at r. *)
Lemma cnt_loop S s r : (r < s)%nat -> (forall k, (k < cnt S s r)%nat -> (r + k * s < S)%nat) /\ (S <= r + cnt S s r * s)%nat.
Proof.
  intros Hr. unfold cnt. assert (N : s <> 0%nat) by lia.
  assert (D := Nat.div_mod (S + (s - 1 - r)) s N). assert (M := Nat.mod_upper_bound (S + (s - 1 - r)) s N).
  set (q := ((S + (s - 1 - r)) / s)%nat) in *. split; [|lia].
  intros k Hk. assert ((k + 1) * s <= q * s)%nat by (apply Nat.mul_le_mono_r; lia). lia.
Qed.
Lemma cnt_le S s r : (r < s)%nat -> (cnt S s r <= S)%nat.
Proof.
  intros Hr. destruct (cnt_loop S s r Hr) as (A & _). destruct (cnt S s r) as [|c]; [lia|].
  specialize (A c ltac:(lia)). assert (c * 1 <= c * s)%nat by (apply Nat.mul_le_mono_l; lia). lia.
Qed.
Lemma cnt_exact q s r : (r < s)%nat -> cnt (q * s) s r = q.
Proof. intros Hr. unfold cnt. rewrite Nat.add_comm, Nat.div_add by lia. rewrite Nat.div_small by lia. lia. Qed.

Lemma map_seq_shift' {A} (f : nat -> A) a n : map f (seq a n) = map (fun t => f (a + t)%nat) (seq 0 n).
Proof.
  revert f a. induction n as [|n IH]; intros f a; [reflexivity|]. cbn [seq map]. rewrite Nat.add_0_r. f_equal.
  rewrite (IH f (S a)), (IH (fun t => f (a + t)%nat) 1%nat). apply map_ext. intros t. f_equal. lia.
Qed.

(** ** Points *)
Section Engine.
Context {E O V : Type} (next : E -> O * E) (legal : E -> Prop) (f : O -> V).
Context (u : E -> result (V * E)) (jump : E -> Z -> E) (split : E -> Z -> Z -> outcome E) (hit : V -> V -> bool).
Hypothesis legal_next : forall R, legal R -> legal (snd (next R)).
Hypothesis u_next : forall R, legal R -> u R = Val (f (fst (next R)), snd (next R)).
Hypothesis jump_after : forall R s, legal R -> word 64 s -> jump R s = after next (Z.to_nat s) R.

(** The value of draw k, and whether point i (draws 2i and 2i + 1) is a hit. *)
Definition val (R : E) (k : nat) : V := f (draw next R k).
Definition pt (R : E) (i : nat) : Z := if hit (val R (2 * i)) (val R (2 * i + 1)) then 1 else 0.

Lemma legal_after R k : legal R -> legal (after next k R).
Proof. intros H. induction k as [|k IH]; [exact H | apply (legal_next _ IH)]. Qed.
Lemma u_after R k : legal R -> u (after next k R) = Val (val R k, after next (S k) R).
Proof. intros H. rewrite (u_next _ (legal_after R k H)). reflexivity. Qed.
Lemma jump_more R j n : legal R -> 0 <= n < 2 ^ 64 -> jump (after next j R) (wrap64 n) = after next (j + Z.to_nat n) R.
Proof.
  intros H Hn. unfold wrap64. rewrite Z.mod_small by exact Hn. rewrite jump_after; [|apply legal_after, H | exact Hn].
  unfold after. rewrite Nat.add_comm. symmetry. apply iter_add.
Qed.

Lemma point_after R i j c : legal R -> point u hit i (after next (2 * j) R, c) = Val (after next (2 * S j) R, c + pt R j).
Proof.
  intros H. unfold point. cbn [fst snd]. rewrite (u_after R _ H). cbn [rbind fst snd]. rewrite (u_after R _ H). cbn [rbind fst snd].
  unfold pt. replace (2 * j + 1)%nat with (S (2 * j)) by lia. replace (2 * S j)%nat with (S (S (2 * j))) by lia.
  destruct (hit _ _); repeat f_equal; lia.
Qed.

(** The loop over a block of points. *)
Lemma block_loop R fuel first n c : legal R -> (n < fuel)%nat -> 0 <= first -> first + Z.of_nat n < 2 ^ 63 ->
  for_loop int64 fuel first (first + Z.of_nat n) 1 (point u hit) (after next (2 * Z.to_nat first) R, c) =
  Val (after next (2 * (Z.to_nat first + n)) R, c + sum n (fun k => pt R (Z.to_nat first + k))).
Proof.
  intros H Hf H0 H63.
  assert (L := for_loop_steps int64 (fun k => (after next (2 * (Z.to_nat first + k)) R, c + sum k (fun k => pt R (Z.to_nat first + k))))
    (point u hit) n fuel first (first + Z.of_nat n) 1).
  cbv beta in L. cbn [sum] in L. rewrite Nat.add_0_r, Z.add_0_r in L. apply L; try lia; clear L.
  - intros k Hk. rewrite point_after by exact H. f_equal. f_equal; [f_equal; lia | lia].
  - intros k Hk. apply int64_ok. lia.
Qed.

Lemma serial_ok R samples : legal R -> 0 <= samples < 2 ^ 63 -> pi_serial u hit R samples = Val (sum (Z.to_nat samples) (pt R)).
Proof.
  intros H Hs. unfold pi_serial.
  assert (L := block_loop R (S (Z.to_nat samples)) 0 (Z.to_nat samples) 0 H ltac:(lia) ltac:(lia) ltac:(lia)).
  rewrite Z2Nat.id in L by lia. change (after next (2 * Z.to_nat 0) R) with R in L. rewrite Z.add_0_l in L. rewrite L.
  cbn [rbind snd]. rewrite Z.add_0_l. reflexivity.
Qed.

(** ** Blocks *)
Definition first_of (samples size r : Z) : Z := r * samples / size.

Lemma block_start_ok samples size r : 0 <= samples -> 1 <= size -> size * samples < 2 ^ 63 -> 0 <= r <= size ->
  block_start samples size r = Val (first_of samples size r) /\ 0 <= first_of samples size r <= samples.
Proof.
  intros H0 H1 H2 Hr. assert (A : 0 <= r * samples <= size * samples) by (split; [apply Z.mul_nonneg_nonneg | apply Z.mul_le_mono_nonneg_r]; lia).
  unfold block_start, checked. rewrite int64_ok by lia. cbn [rbind]. rewrite Z.quot_div_nonneg by lia.
  split; [reflexivity|]. unfold first_of. split; [apply Z.div_pos; lia|]. apply Z.div_le_upper_bound; lia.
Qed.
Lemma first_mono samples size r : 0 <= samples -> 1 <= size -> first_of samples size r <= first_of samples size (r + 1).
Proof. intros H0 H1. apply Z.div_le_mono; lia. Qed.

Lemma block_ok R samples size r : legal R -> 0 <= samples -> 1 <= size -> size * samples < 2 ^ 63 -> 0 <= r < size ->
  pi_block u jump hit R samples size r =
  Val (sum (Z.to_nat (first_of samples size (r + 1)) - Z.to_nat (first_of samples size r))
           (fun k => pt R (Z.to_nat (first_of samples size r) + k))).
Proof.
  intros H H0 H1 H2 Hr. unfold pi_block.
  destruct (block_start_ok samples size r H0 H1 H2 ltac:(lia)) as (E1 & B1).
  destruct (block_start_ok samples size (r + 1) H0 H1 H2 ltac:(lia)) as (E2 & B2).
  assert (M := first_mono samples size r H0 H1). rewrite E1, E2. cbn [rbind].
  set (a := first_of samples size r) in *. set (b := first_of samples size (r + 1)) in *.
  assert (A : 2 * a < 2 ^ 63).
  { destruct (Z.eq_dec size 1) as [S1|S1].
    - assert (r = 0) by lia. subst r. unfold a, first_of. rewrite Z.mul_0_l, Z.div_0_l by lia. lia.
    - assert (2 * samples <= size * samples) by (apply Z.mul_le_mono_nonneg_r; lia). lia. }
  assert (SS : samples < 2 ^ 63).
  { assert (1 * samples <= size * samples) by (apply Z.mul_le_mono_nonneg_r; lia). lia. }
  unfold checked. rewrite int64_ok by lia. cbn [rbind].
  assert (J := jump_more R 0 (2 * a) H ltac:(lia)). change (after next 0 R) with R in J. rewrite J. clear J.
  replace (0 + Z.to_nat (2 * a))%nat with (2 * Z.to_nat a)%nat by lia.
  assert (L := block_loop R (S (Z.to_nat samples)) a (Z.to_nat b - Z.to_nat a) 0 H ltac:(lia) ltac:(lia) ltac:(lia)).
  replace (a + Z.of_nat (Z.to_nat b - Z.to_nat a)) with b in L by lia. rewrite L. reflexivity.
Qed.

Lemma blocks_total R samples size : legal R -> 0 <= samples -> 1 <= size -> size * samples < 2 ^ 63 ->
  total (all_ranks size (pi_block u jump hit R samples size)) = Val (sum (Z.to_nat samples) (pt R)).
Proof.
  intros H H0 H1 H2.
  rewrite (total_ranks _ _ (fun k => sum (Z.to_nat (first_of samples size (Z.of_nat k + 1)) - Z.to_nat (first_of samples size (Z.of_nat k)))
           (fun j => pt R (Z.to_nat (first_of samples size (Z.of_nat k)) + j)))).
  2:{ intros k Hk. apply block_ok; try assumption. lia. }
  f_equal.
  assert (T : forall n, (n <= Z.to_nat size)%nat ->
    sum n (fun k => sum (Z.to_nat (first_of samples size (Z.of_nat k + 1)) - Z.to_nat (first_of samples size (Z.of_nat k)))
           (fun j => pt R (Z.to_nat (first_of samples size (Z.of_nat k)) + j))) =
    sum (Z.to_nat (first_of samples size (Z.of_nat n))) (pt R)).
  { induction n as [|n IH]; intros Hn.
    - change (Z.of_nat 0) with 0. unfold first_of. rewrite Z.mul_0_l, Z.div_0_l by lia. reflexivity.
    - cbn [sum]. rewrite IH by lia. replace (Z.of_nat (S n)) with (Z.of_nat n + 1) by lia.
      assert (M := first_mono samples size (Z.of_nat n) H0 H1).
      destruct (block_start_ok samples size (Z.of_nat n) H0 H1 H2 ltac:(lia)) as (_ & B1).
      rewrite (sum_split (Z.to_nat (first_of samples size (Z.of_nat n + 1))) (Z.to_nat (first_of samples size (Z.of_nat n)))) by lia.
      reflexivity. }
  rewrite T by lia. rewrite Z2Nat.id by lia. unfold first_of. rewrite Z.mul_comm, Z.div_mul by lia. reflexivity.
Qed.

(** ** TBB *)
Fixpoint schedule_ok (t : schedule) (begin stop : Z) : Prop :=
  match t with
  | Run => begin <= stop
  | Split m _ l r => schedule_ok l begin m /\ schedule_ok r m stop
  end.
Lemma schedule_le t : forall a b, schedule_ok t a b -> a <= b.
Proof. induction t as [|m o l IHl r IHr]; intros a b H; [exact H|]. destruct H as (H1 & H2). apply IHl in H1. apply IHr in H2. lia. Qed.

Lemma tbb_ok R t : legal R -> forall a b c, 0 <= a -> b < 2 ^ 62 -> schedule_ok t a b ->
  tbb_reduce u jump hit R t a b c = Val (c + sum (Z.to_nat b - Z.to_nat a) (fun k => pt R (Z.to_nat a + k))).
Proof.
  intros H. induction t as [|m o l IHl r IHr]; intros a b c Ha Hb S.
  - cbn [tbb_reduce schedule_ok] in *. unfold tbb_apply, checked. rewrite int64_ok by lia. cbn [rbind].
    assert (J := jump_more R 0 (2 * a) H ltac:(lia)). change (after next 0 R) with R in J. rewrite J. clear J.
    replace (0 + Z.to_nat (2 * a))%nat with (2 * Z.to_nat a)%nat by lia.
    assert (L := block_loop R (Datatypes.S (Z.to_nat (b - a))) a (Z.to_nat b - Z.to_nat a) c H ltac:(lia) ltac:(lia) ltac:(lia)).
    replace (a + Z.of_nat (Z.to_nat b - Z.to_nat a)) with b in L by lia. rewrite L. reflexivity.
  - cbn [tbb_reduce schedule_ok] in *. destruct S as (S1 & S2). assert (L1 := schedule_le _ _ _ S1). assert (L2 := schedule_le _ _ _ S2).
    rewrite (IHl a m c) by (try assumption; lia). cbn [rbind].
    assert (SP : sum (Z.to_nat b - Z.to_nat a) (fun k => pt R (Z.to_nat a + k)) =
      sum (Z.to_nat m - Z.to_nat a) (fun k => pt R (Z.to_nat a + k)) + sum (Z.to_nat b - Z.to_nat m) (fun k => pt R (Z.to_nat m + k))).
    { rewrite (sum_split (Z.to_nat b - Z.to_nat a) (Z.to_nat m - Z.to_nat a)) by lia. f_equal.
      replace (Z.to_nat b - Z.to_nat a - (Z.to_nat m - Z.to_nat a))%nat with (Z.to_nat b - Z.to_nat m)%nat by lia.
      apply sum_ext. intros i _. f_equal. lia. }
    rewrite SP. destruct o.
    + rewrite (IHr m b 0) by (try assumption; lia). cbn [rbind]. f_equal. lia.
    + rewrite (IHr m b) by (try assumption; lia). f_equal. lia.
Qed.

(** ** Leapfrog *)
Hypothesis split_leap : forall R s n, legal R -> 1 <= s < 2 ^ 32 -> 0 <= n < s ->
  exists R', split R s n = Returns R' /\ legal R' /\ leapfrog next R R' s n.

Lemma leap_engine_ok R k size r : legal R -> 0 <= k < 2 -> 1 <= size < 2 ^ 32 -> 0 <= r < size ->
  exists R', leap_engine split R k size r = Val R' /\ legal R' /\
    forall j, val R' j = val R (2 * (j * Z.to_nat size + Z.to_nat r) + Z.to_nat k).
Proof.
  intros H Hk Hs Hr. destruct (split_leap R 2 k H ltac:(lia) Hk) as (R1 & E1 & O1 & L1).
  destruct (split_leap R1 size r O1 Hs Hr) as (R2 & E2 & O2 & L2). exists R2. unfold leap_engine. rewrite E1. cbn [as_result rbind].
  rewrite E2. split; [reflexivity|]. split; [exact O2|]. intros j. unfold val. rewrite L2, L1. f_equal. f_equal.
  change (Z.to_nat 2) with 2%nat. lia.
Qed.

Lemma point2_after R rx ry size r i k c : legal rx -> legal ry ->
  (forall j, val rx j = val R (2 * (j * size + r) + 0)) -> (forall j, val ry j = val R (2 * (j * size + r) + 1)) ->
  point2 u hit i (after next k rx, after next k ry, c) =
  Val (after next (S k) rx, after next (S k) ry, c + pt R (k * size + r)).
Proof.
  intros Hx Hy Ex Ey. unfold point2. rewrite (u_after rx _ Hx), (u_after ry _ Hy). cbn [rbind fst snd].
  rewrite Ex, Ey. rewrite Nat.add_0_r. unfold pt. destruct (hit _ _); repeat f_equal; lia.
Qed.

Lemma leap_ok R samples size r : legal R -> 0 <= samples -> 1 <= size < 2 ^ 32 -> samples + size <= 2 ^ 63 -> 0 <= r < size ->
  pi_leap u split hit R samples size r =
  Val (sum (cnt (Z.to_nat samples) (Z.to_nat size) (Z.to_nat r)) (fun j => pt R (j * Z.to_nat size + Z.to_nat r))).
Proof.
  intros H H0 Hs H2 Hr. unfold pi_leap.
  destruct (leap_engine_ok R 0 size r H ltac:(lia) Hs Hr) as (rx & -> & Lx & Ex).
  destruct (leap_engine_ok R 1 size r H ltac:(lia) Hs Hr) as (ry & -> & Ly & Ey). cbn [rbind].
  set (s := Z.to_nat size) in *. set (q := Z.to_nat r) in *. assert (Hq : (q < s)%nat) by (unfold q, s; lia).
  destruct (cnt_loop (Z.to_nat samples) s q Hq) as (C1 & C2). assert (C3 := cnt_le (Z.to_nat samples) s q Hq).
  assert (Es : size = Z.of_nat s) by (unfold s; lia). assert (Er : r = Z.of_nat q) by (unfold q; lia).
  assert (L := for_loop_steps int64 (fun k => (after next k rx, after next k ry, sum k (fun j => pt R (j * s + q)%nat)))
    (point2 u hit) (cnt (Z.to_nat samples) s q) (S (Z.to_nat samples)) r samples size).
  cbv beta in L. change (after next 0 rx) with rx in L. change (after next 0 ry) with ry in L. cbn [sum] in L.
  rewrite L; clear L; [reflexivity | lia | lia | | | |].
  - intros k Hk. specialize (C1 k Hk). rewrite Es, Er, <- Nat2Z.inj_mul. lia.
  - rewrite Es, Er, <- Nat2Z.inj_mul. lia.
  - intros k Hk. rewrite (point2_after R rx ry s q) by assumption. reflexivity.
  - intros k Hk. specialize (C1 k Hk). apply int64_ok. rewrite Es, Er, <- Nat2Z.inj_mul. cbn [Nat.mul]. lia.
Qed.
Lemma leaps_total R samples size : legal R -> 0 <= samples -> 1 <= size < 2 ^ 32 -> samples + size <= 2 ^ 63 ->
  total (all_ranks size (pi_leap u split hit R samples size)) = Val (sum (Z.to_nat samples) (pt R)).
Proof.
  intros H H0 Hs H2.
  rewrite (total_ranks _ _ (fun k => sum (cnt (Z.to_nat samples) (Z.to_nat size) k) (fun j => pt R (j * Z.to_nat size + k)))).
  2:{ intros k Hk. rewrite leap_ok by (try assumption; lia). rewrite Nat2Z.id. reflexivity. }
  rewrite strides by lia. reflexivity.
Qed.

(** pi_leap_cuda: as many points as pi_block, but those of pi_leap *)
Lemma leap_cuda_ok R samples size r : legal R -> 0 <= samples -> 1 <= size < 2 ^ 32 -> size * samples < 2 ^ 63 -> 0 <= r < size ->
  pi_leap_cuda u split hit R samples size r =
  Val (sum (Z.to_nat (first_of samples size (r + 1)) - Z.to_nat (first_of samples size r)) (fun j => pt R (j * Z.to_nat size + Z.to_nat r))).
Proof.
  intros H H0 Hs H2 Hr. unfold pi_leap_cuda.
  destruct (leap_engine_ok R 0 size r H ltac:(lia) Hs Hr) as (rx & -> & Lx & Ex).
  destruct (leap_engine_ok R 1 size r H ltac:(lia) Hs Hr) as (ry & -> & Ly & Ey). cbn [rbind].
  destruct (block_start_ok samples size r H0 ltac:(lia) H2 ltac:(lia)) as (E1 & B1).
  destruct (block_start_ok samples size (r + 1) H0 ltac:(lia) H2 ltac:(lia)) as (E2 & B2).
  assert (M := first_mono samples size r H0 ltac:(lia)).
  rewrite E1, E2. cbn [rbind]. set (a := first_of samples size r) in *. set (b := first_of samples size (r + 1)) in *.
  assert (Q2 : 1 * samples <= size * samples) by (apply Z.mul_le_mono_nonneg_r; lia).
  assert (L := for_loop_steps int64 (fun k => (after next k rx, after next k ry, sum k (fun j => pt R (j * Z.to_nat size + Z.to_nat r)%nat)))
    (point2 u hit) (Z.to_nat b - Z.to_nat a) (S (Z.to_nat samples)) a b 1).
  cbv beta in L. change (after next 0 rx) with rx in L. change (after next 0 ry) with ry in L. cbn [sum] in L.
  rewrite L; clear L; [reflexivity | lia | lia | intros; lia | lia | |].
  - intros k Hk. rewrite (point2_after R rx ry (Z.to_nat size) (Z.to_nat r)) by assumption. reflexivity.
  - intros k Hk. apply int64_ok. lia.
Qed.
Lemma leaps_cuda_total R q size : legal R -> 0 <= q -> 1 <= size < 2 ^ 32 -> size * (q * size) < 2 ^ 63 ->
  total (all_ranks size (pi_leap_cuda u split hit R (q * size) size)) = Val (sum (Z.to_nat (q * size)) (pt R)).
Proof.
  intros H H0 Hs H2.
  rewrite (total_ranks _ _ (fun k => sum (cnt (Z.to_nat q * Z.to_nat size) (Z.to_nat size) k) (fun j => pt R (j * Z.to_nat size + k)))).
  2:{ intros k Hk. rewrite leap_cuda_ok by (try assumption; try lia; apply Z.mul_nonneg_nonneg; lia). rewrite cnt_exact by lia. rewrite Nat2Z.id.
      unfold first_of. rewrite !Z.mul_assoc, !Z.div_mul by lia. rewrite Z.mul_add_distr_r, Z.mul_1_l.
      replace (Z.to_nat (Z.of_nat k * q + q) - Z.to_nat (Z.of_nat k * q))%nat with (Z.to_nat q) by lia. reflexivity. }
  rewrite strides by lia. rewrite Z2Nat.inj_mul by lia. reflexivity.
Qed.

(** ** Percolation *)
Context (occupied : V -> bool).
(** n sites from draw j on *)
Definition sites (R : E) (j n : nat) : list bool := map (fun t => occupied (val R (j + t))) (seq 0 n).

Lemma sites_app R j n m : sites R j n ++ sites R (j + n) m = sites R j (n + m).
Proof.
  unfold sites. rewrite seq_app, map_app. f_equal. rewrite Nat.add_0_l. rewrite (map_seq_shift' _ n m). apply map_ext. intros t. f_equal. f_equal. lia.
Qed.
Lemma set_site_after R i j acc : legal R -> set_site u occupied i (after next j R, acc) = Val (after next (S j) R, acc ++ sites R j 1).
Proof. intros H. unfold set_site. cbn [fst snd]. rewrite (u_after R _ H). cbn [rbind fst snd]. unfold sites. cbn [seq map]. rewrite Nat.add_0_r. reflexivity. Qed.

(** A loop over sites. *)
Lemma row_loop R fuel a n j acc : legal R -> (n < fuel)%nat -> 0 <= a -> a + Z.of_nat n < 2 ^ 31 ->
  for_loop int32 fuel a (a + Z.of_nat n) 1 (set_site u occupied) (after next j R, acc) = Val (after next (j + n) R, acc ++ sites R j n).
Proof.
  intros H Hf H0 H31.
  assert (L := for_loop_steps int32 (fun k => (after next (j + k) R, acc ++ sites R j k)) (set_site u occupied) n fuel a (a + Z.of_nat n) 1).
  cbv beta in L. change (sites R j 0) with (@nil bool) in L. rewrite Nat.add_0_r, app_nil_r in L. apply L; try lia; clear L.
  - intros k Hk. rewrite set_site_after by exact H. rewrite <- app_assoc, sites_app. rewrite Nat.add_1_r, <- plus_n_Sm. reflexivity.
  - intros k Hk. apply int32_ok. lia.
Qed.

Lemma fill_ok R j nx ny : legal R -> Z.of_nat nx < 2 ^ 31 -> Z.of_nat ny < 2 ^ 31 ->
  fill u occupied (Z.of_nat nx) (Z.of_nat ny) (after next j R) = Val (after next (j + nx * ny) R, sites R j (nx * ny)).
Proof.
  intros H Hx Hy. unfold fill. rewrite !Nat2Z.id.
  assert (L := for_loop_steps int32 (fun k => (after next (j + k * ny) R, sites R j (k * ny)))
    (fun _ s => for_loop int32 (S ny) 0 (Z.of_nat ny) 1 (set_site u occupied) s) nx (S nx) 0 (Z.of_nat nx) 1).
  cbv beta in L. cbn [Nat.mul] in L. rewrite Nat.add_0_r in L. change (sites R j 0) with (@nil bool) in L. apply L; try lia; clear L.
  - intros k Hk. assert (B := row_loop R (S ny) 0 ny (j + k * ny) (sites R j (k * ny)) H ltac:(lia) ltac:(lia) ltac:(lia)).
    rewrite Z.add_0_l in B. rewrite B. rewrite sites_app. f_equal. f_equal; f_equal; lia.
  - intros k Hk. apply int32_ok. lia.
Qed.

Definition lattices (R : E) (sweep : nat) (l : list nat) : list (Z * list bool) :=
  map (fun i => (Z.of_nat i, sites R (i * sweep) sweep)) l.

Lemma embarrassing_ok R realizations nx ny size r : legal R -> Z.of_nat nx < 2 ^ 31 -> Z.of_nat ny < 2 ^ 31 ->
  (r < size)%nat -> Z.of_nat realizations + Z.of_nat size <= 2 ^ 31 -> Z.of_nat size * (Z.of_nat nx * Z.of_nat ny) < 2 ^ 31 ->
  perc_embarrassing u jump occupied R (Z.of_nat realizations) (Z.of_nat nx) (Z.of_nat ny) (Z.of_nat size) (Z.of_nat r) =
  Val (lattices R (nx * ny) (filter (fun i => Nat.eqb (i mod size) r) (seq 0 realizations))).
Proof.
  intros H Hx Hy Hr H1 H2. unfold perc_embarrassing.
  assert (A : 0 <= Z.of_nat nx * Z.of_nat ny) by (apply Z.mul_nonneg_nonneg; lia).
  set (N := Z.of_nat nx * Z.of_nat ny) in *.
  assert (A1 : 1 * N <= Z.of_nat size * N) by (apply Z.mul_le_mono_nonneg_r; lia).
  assert (A2 : Z.of_nat r * N <= Z.of_nat size * N) by (apply Z.mul_le_mono_nonneg_r; lia).
  assert (A3 : (Z.of_nat size - 1) * N <= Z.of_nat size * N) by (apply Z.mul_le_mono_nonneg_r; lia).
  assert (A4 : 0 <= Z.of_nat r * N) by (apply Z.mul_nonneg_nonneg; lia).
  assert (A5 : 0 <= (Z.of_nat size - 1) * N) by (apply Z.mul_nonneg_nonneg; lia).
  unfold checked. rewrite (int32_ok N) by lia. cbn [rbind]. rewrite (int32_ok (Z.of_nat r * N)) by lia. cbn [rbind].
  rewrite (int32_ok ((Z.of_nat size - 1) * N)) by lia. cbn [rbind].
  assert (J := jump_more R 0 (Z.of_nat r * N) H ltac:(lia)). change (after next 0 R) with R in J. rewrite J. clear J.
  rewrite filter_strides by exact Hr. unfold lattices. rewrite map_map.
  destruct (cnt_loop realizations size r Hr) as (C1 & C2). assert (C3 := cnt_le realizations size r Hr).
  set (n := (nx * ny)%nat) in *. assert (EN : N = Z.of_nat n) by (unfold N, n; lia).
  match goal with |- context [for_loop int32 _ _ _ _ ?b _] => set (body := b) end.
  pose (st := fun k => (after next ((k * size + r) * n) R,
      map (fun k => (Z.of_nat (k * size + r), sites R ((k * size + r) * n) n)) (seq 0 k))).
  assert (L := for_loop_steps int32 st body
    (cnt realizations size r) (S (Z.to_nat (Z.of_nat realizations))) (Z.of_nat r) (Z.of_nat realizations) (Z.of_nat size)).
  change (st 0%nat) with (after next (r * n) R, @nil (Z * list bool)) in L.
  replace (0 + Z.to_nat (Z.of_nat r * N))%nat with (r * n)%nat by (rewrite EN, <- Nat2Z.inj_mul, Nat2Z.id; reflexivity).
  rewrite L; clear L; [reflexivity | lia | lia | | | |].
  - intros k Hk. specialize (C1 k Hk). rewrite <- Nat2Z.inj_mul. lia.
  - rewrite <- Nat2Z.inj_mul. lia.
  - intros k Hk. unfold body, st. cbn [fst snd]. rewrite fill_ok by assumption. cbn [rbind fst snd].
    rewrite jump_more by (try exact H; lia). fold n. f_equal. f_equal.
    + f_equal. rewrite EN. replace (Z.of_nat size - 1) with (Z.of_nat (size - 1)) by lia. rewrite <- Nat2Z.inj_mul, Nat2Z.id.
      destruct size as [|s]; [lia|]. cbn [Nat.sub]. rewrite Nat.sub_0_r. lia.
    + rewrite seq_S, map_app. cbn [map Nat.add]. f_equal. f_equal. f_equal. lia.
  - intros k Hk. specialize (C1 k Hk). apply int32_ok. rewrite <- Nat2Z.inj_mul. cbn [Nat.mul]. lia.
Qed.

(** *** A lattice cut into sections *)
Definition section_rows (R : E) (nx x0 x1 j y n : nat) : list bool :=
  flat_map (fun t => sites R (j + nx * (y + t) + x0) (x1 - x0)) (seq 0 n).

Lemma fine_row_ok R nx x0 x1 i j acc : legal R -> (x0 <= x1 <= nx)%nat -> Z.of_nat nx < 2 ^ 31 ->
  (fun _ : Z => fine_row u jump occupied (Z.of_nat nx) (Z.of_nat x0) (Z.of_nat x1)) i (after next (j + x0) R, acc) =
  Val (after next (j + nx + x0) R, acc ++ sites R (j + x0) (x1 - x0)).
Proof.
  intros H Hx Hn. unfold fine_row. rewrite Nat2Z.id.
  assert (B := row_loop R (S nx) (Z.of_nat x0) (x1 - x0) (j + x0) acc H ltac:(lia) ltac:(lia) ltac:(lia)).
  replace (Z.of_nat x0 + Z.of_nat (x1 - x0)) with (Z.of_nat x1) in B by lia. rewrite B. cbn [rbind fst snd].
  rewrite jump_more by (try exact H; lia). f_equal. f_equal. f_equal. lia.
Qed.

Lemma fine_sweep_ok R nx ny x0 x1 y0 y1 i : legal R -> (x0 <= x1 <= nx)%nat -> (y0 <= y1 <= ny)%nat ->
  Z.of_nat nx < 2 ^ 31 -> Z.of_nat ny < 2 ^ 31 -> Z.of_nat nx * Z.of_nat ny < 2 ^ 31 ->
  fine_sweep u jump occupied (Z.of_nat nx) (Z.of_nat ny) (Z.of_nat x0) (Z.of_nat x1) (Z.of_nat y0) (Z.of_nat y1)
    (after next (i * (nx * ny) + (nx * y0 + x0)) R) =
  Val (after next (S i * (nx * ny) + (nx * y0 + x0)) R, section_rows R nx x0 x1 (i * (nx * ny)) y0 (y1 - y0)).
Proof.
  intros H Hx Hy Hnx Hny HN. unfold fine_sweep. rewrite Nat2Z.id.
  set (j := (i * (nx * ny))%nat).
  assert (L := for_loop_steps int32 (fun k => (after next (j + nx * (y0 + k) + x0) R, section_rows R nx x0 x1 j y0 k))
    (fun _ : Z => fine_row u jump occupied (Z.of_nat nx) (Z.of_nat x0) (Z.of_nat x1)) (y1 - y0) (S ny) (Z.of_nat y0) (Z.of_nat y1) 1).
  cbv beta in L. change (section_rows R nx x0 x1 j y0 0) with (@nil bool) in L.
  replace (j + nx * (y0 + 0) + x0)%nat with (j + (nx * y0 + x0))%nat in L by lia.
  rewrite L; clear L; [| lia | lia | intros; lia | lia | |].
  - cbn [rbind fst snd]. assert (B0 : 0 <= Z.of_nat nx * (Z.of_nat ny - (Z.of_nat y1 - Z.of_nat y0))) by (apply Z.mul_nonneg_nonneg; lia).
    assert (B1 : Z.of_nat nx * (Z.of_nat ny - (Z.of_nat y1 - Z.of_nat y0)) <= Z.of_nat nx * Z.of_nat ny) by (apply Z.mul_le_mono_nonneg_l; lia).
    unfold checked. rewrite int32_ok by lia. cbn [rbind]. rewrite jump_more by (try exact H; lia). f_equal. f_equal. f_equal.
    replace (Z.of_nat nx * (Z.of_nat ny - (Z.of_nat y1 - Z.of_nat y0))) with (Z.of_nat (nx * (ny - (y1 - y0)))) by (rewrite Nat2Z.inj_mul; f_equal; lia).
    rewrite Nat2Z.id. unfold j. rewrite Nat.mul_sub_distr_l, Nat.mul_add_distr_l, Nat.mul_sub_distr_l.
    assert (nx * y0 <= nx * y1)%nat by (apply Nat.mul_le_mono_l; lia). assert (nx * y1 <= nx * ny)%nat by (apply Nat.mul_le_mono_l; lia). lia.
  - intros k Hk. rewrite (fine_row_ok R nx x0 x1 0 (j + nx * (y0 + k))) by assumption. f_equal. f_equal; [f_equal; lia|].
    unfold section_rows. rewrite seq_S, flat_map_app. cbn [flat_map Nat.add]. rewrite app_nil_r. reflexivity.
  - intros k Hk. apply int32_ok. lia.
Qed.

Definition cut (N dims c : nat) : nat := (c * N / dims)%nat.
Lemma cut_ok N dims c : (c <= dims)%nat -> (0 < dims)%nat -> Z.of_nat dims * Z.of_nat N < 2 ^ 31 ->
  section_start (Z.of_nat N) (Z.of_nat dims) (Z.of_nat c) = Val (Z.of_nat (cut N dims c)) /\ (cut N dims c <= N)%nat.
Proof.
  intros Hc Hd HN. assert (A : 0 <= Z.of_nat c * Z.of_nat N <= Z.of_nat dims * Z.of_nat N)
    by (split; [apply Z.mul_nonneg_nonneg | apply Z.mul_le_mono_nonneg_r]; lia).
  unfold section_start, checked. rewrite int32_ok by lia. cbn [rbind]. rewrite Z.quot_div_nonneg by lia.
  unfold cut. split; [f_equal; rewrite <- Nat2Z.inj_mul, <- Nat2Z.inj_div by lia; reflexivity|].
  apply Nat.div_le_upper_bound; [lia|]. apply Nat.mul_le_mono_r. exact Hc.
Qed.
Lemma cut_mono N dims c : (0 < dims)%nat -> (cut N dims c <= cut N dims (c + 1))%nat.
Proof. intros H. apply Nat.div_le_mono; lia. Qed.

Lemma fine_ok R realizations nx ny dx dy cx cy : legal R -> (cx < dx)%nat -> (cy < dy)%nat -> Z.of_nat realizations < 2 ^ 31 ->
  Z.of_nat dx * Z.of_nat nx < 2 ^ 31 -> Z.of_nat dy * Z.of_nat ny < 2 ^ 31 -> Z.of_nat nx * Z.of_nat ny < 2 ^ 31 ->
  perc_fine u jump occupied R (Z.of_nat realizations) (Z.of_nat nx) (Z.of_nat ny) (Z.of_nat dx) (Z.of_nat dy) (Z.of_nat cx) (Z.of_nat cy) =
  Val (map (fun i => section_rows R nx (cut nx dx cx) (cut nx dx (cx + 1)) (i * (nx * ny)) (cut ny dy cy) (cut ny dy (cy + 1) - cut ny dy cy))
           (seq 0 realizations)).
Proof.
  intros H Hcx Hcy Hr Hx Hy HN. unfold perc_fine.
  replace (Z.of_nat cx + 1) with (Z.of_nat (cx + 1)) by lia. replace (Z.of_nat cy + 1) with (Z.of_nat (cy + 1)) by lia.
  destruct (cut_ok nx dx cx ltac:(lia) ltac:(lia) Hx) as (E1 & B1). destruct (cut_ok nx dx (cx + 1) ltac:(lia) ltac:(lia) Hx) as (E2 & B2).
  destruct (cut_ok ny dy cy ltac:(lia) ltac:(lia) Hy) as (E3 & B3). destruct (cut_ok ny dy (cy + 1) ltac:(lia) ltac:(lia) Hy) as (E4 & B4).
  assert (M1 := cut_mono nx dx cx ltac:(lia)). assert (M2 := cut_mono ny dy cy ltac:(lia)).
  rewrite E1, E2, E3, E4. cbn [rbind]. clear E1 E2 E3 E4.
  assert (Hnx : Z.of_nat nx < 2 ^ 31) by (assert (1 * Z.of_nat nx <= Z.of_nat dx * Z.of_nat nx) by (apply Z.mul_le_mono_nonneg_r; lia); lia).
  assert (Hny : Z.of_nat ny < 2 ^ 31) by (assert (1 * Z.of_nat ny <= Z.of_nat dy * Z.of_nat ny) by (apply Z.mul_le_mono_nonneg_r; lia); lia).
  assert (Y : (cut ny dy cy < ny \/ ny = 0)%nat).
  { destruct ny as [|m]; [right; reflexivity | left]. unfold cut. apply Nat.div_lt_upper_bound; [lia|]. apply Nat.mul_lt_mono_pos_r; lia. }
  clear Hx Hy. set (x0 := cut nx dx cx) in *. set (x1 := cut nx dx (cx + 1)) in *. set (y0 := cut ny dy cy) in *. set (y1 := cut ny dy (cy + 1)) in *.
  assert (A : 0 <= Z.of_nat nx * Z.of_nat y0 <= Z.of_nat nx * Z.of_nat ny) by (split; [apply Z.mul_nonneg_nonneg | apply Z.mul_le_mono_nonneg_l]; lia).
  assert (A' : Z.of_nat nx * Z.of_nat y0 + Z.of_nat x0 < 2 ^ 31).
  { destruct Y as [Y|Y].
    - assert (Z.of_nat nx * (Z.of_nat y0 + 1) <= Z.of_nat nx * Z.of_nat ny) by (apply Z.mul_le_mono_nonneg_l; lia). lia.
    - rewrite Y in A. lia. }
  unfold checked. rewrite int32_ok by lia. cbn [rbind]. rewrite int32_ok by lia. cbn [rbind].
  assert (J := jump_more R 0 (Z.of_nat nx * Z.of_nat y0 + Z.of_nat x0) H ltac:(lia)). change (after next 0 R) with R in J. rewrite J. clear J.
  replace (0 + Z.to_nat (Z.of_nat nx * Z.of_nat y0 + Z.of_nat x0))%nat with (0 * (nx * ny) + (nx * y0 + x0))%nat
    by (rewrite <- Nat2Z.inj_mul, <- Nat2Z.inj_add, Nat2Z.id; reflexivity).
  rewrite Nat2Z.id.
  match goal with |- context [for_loop int32 _ _ _ _ ?b _] => set (body := b) end.
  pose (st := fun k => (after next (k * (nx * ny) + (nx * y0 + x0)) R,
      map (fun i => section_rows R nx x0 x1 (i * (nx * ny)) y0 (y1 - y0)) (seq 0 k))).
  assert (L := for_loop_steps int32 st body realizations (S realizations) 0 (Z.of_nat realizations) 1).
  change (st 0%nat) with (after next (0 * (nx * ny) + (nx * y0 + x0)) R, @nil (list bool)) in L.
  rewrite L; clear L; [reflexivity | lia | lia | intros; lia | lia | |].
  - intros k Hk. unfold body, st. cbn [fst snd]. rewrite fine_sweep_ok by (try assumption; lia). cbn [rbind fst snd]. f_equal. f_equal.
    rewrite seq_S, map_app. reflexivity.
  - intros k Hk. apply int32_ok. lia.
Qed.

Lemma sites_section R nx j : forall n, section_rows R nx 0 nx j 0 n = sites R j (nx * n).
Proof.
  induction n as [|n IH]; [rewrite Nat.mul_0_r; reflexivity|]. unfold section_rows in *. rewrite seq_S, flat_map_app, IH.
  cbn [flat_map Nat.add]. rewrite app_nil_r, Nat.add_0_r, Nat.sub_0_r, sites_app. f_equal. lia.
Qed.
Lemma sites_nth R j n t : (t < n)%nat -> nth t (sites R j n) false = occupied (val R (j + t)).
Proof.
  intros H. unfold sites. rewrite (nth_indep _ false (occupied (val R (j + 0)))) by (rewrite map_length, seq_length; exact H).
  rewrite (map_nth (fun t => occupied (val R (j + t)))). rewrite seq_nth by exact H. reflexivity.
Qed.
Lemma sites_length R j n : length (sites R j n) = n.
Proof. unfold sites. rewrite map_length, seq_length. reflexivity. Qed.
Lemma section_nth R nx x0 x1 j y x t : forall n, (y < n)%nat -> (x < x1 - x0)%nat ->
  t = (y * (x1 - x0) + x)%nat -> forall y0, nth t (section_rows R nx x0 x1 j y0 n) false = occupied (val R (j + nx * (y0 + y) + x0 + x)) /\
  length (section_rows R nx x0 x1 j y0 n) = (n * (x1 - x0))%nat.
Proof.
  induction n as [|n IH]; intros Hy Hx Ht y0; [lia|]. unfold section_rows in *. rewrite seq_S, flat_map_app. cbn [flat_map Nat.add]. rewrite app_nil_r.
  assert (Len : forall n, length (flat_map (fun t => sites R (j + nx * (y0 + t) + x0) (x1 - x0)) (seq 0 n)) = (n * (x1 - x0))%nat).
  { clear. induction n as [|n IH]; [reflexivity|]. rewrite seq_S, flat_map_app, app_length, IH. cbn [flat_map]. rewrite app_nil_r, sites_length. lia. }
  rewrite app_length, Len, sites_length. split; [|lia].
  destruct (Nat.eq_dec y n) as [->|Ne].
  - rewrite app_nth2 by (rewrite Len; lia). rewrite Len, Ht. replace (n * (x1 - x0) + x - n * (x1 - x0))%nat with x by lia.
    apply sites_nth. exact Hx.
  - rewrite app_nth1; [apply IH; [lia | exact Hx | exact Ht]|]. rewrite Len, Ht.
    assert ((y + 1) * (x1 - x0) <= n * (x1 - x0))%nat by (apply Nat.mul_le_mono_r; lia). lia.
Qed.
End Engine.

Lemma sum_filter (p : nat -> bool) n : sum n (fun i => if p i then 1 else 0) = Z.of_nat (length (filter p (seq 0 n))).
Proof.
  induction n as [|n IH]; [reflexivity|]. rewrite seq_S, filter_app, app_length. cbn [sum filter Nat.add]. rewrite IH.
  destruct (p n); cbn [length]; lia.
Qed.
