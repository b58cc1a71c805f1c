(** C42-C45, C56, C57: the inversion search, discrete_dist, fast_discrete_dist, bernoulli_dist and
    the probabilities of uniform_int_dist. *)
From Coq Require Import ZArith List Bool Reals Lra Lia Arith.
From Flocq Require Import Core.Raux Core.Defs IEEE754.BinarySingleNaN.
From Verif Require Import Base IntMathModel UniformModel ArithModel DiscreteModel DiscreteProofs DiscreteReal.
Import ListNotations.
Local Open Scope R_scope.

(** A double given by mantissa and exponent. *)
Definition dbl (m e : Z) : double := binary_normalize 53 1024 _ _ mode_NE m e false.

Lemma dbl_pos (x : double) : is_finite x = true -> Bltb (dbl 0 0) x = true ->
  is_finite x = true /\ 0 < B2R x.
Proof.
  intros Hf H. split; [exact Hf|]. rewrite (Bltb_correct 53 1024 (dbl 0 0) x eq_refl Hf) in H.
  destruct (Rlt_bool_spec (B2R (dbl 0 0)) (B2R x)) as [H'|H']; [|easy]. exact H'.
Qed.
Lemma dbl_nonneg (x : double) : is_finite x = true -> Bleb (dbl 0 0) x = true ->
  is_finite x = true /\ 0 <= B2R x.
Proof.
  intros Hf H. split; [exact Hf|]. rewrite (Bleb_correct 53 1024 (dbl 0 0) x eq_refl Hf) in H.
  destruct (Rle_bool_spec (B2R (dbl 0 0)) (B2R x)) as [H'|H']; [|easy]. exact H'.
Qed.

(** ** C42 *)

Definition ascending (c : list R) : Prop :=
  forall i j, (i <= j < length c)%nat -> nth i c 0 <= nth j c 0.

(** k is 0 if x lies below the first entry, otherwise the least index from 1 on (from 0 on, if there is
    only one entry) whose entry is at least x *)
Definition inverts (c : list R) (x : R) (k : nat) : Prop :=
  (k < length c)%nat /\ x <= nth k c 0 /\
  (x < nth 0 c 0 -> k = 0%nat) /\
  (nth 0 c 0 <= x -> (Nat.min 1 (length c - 1) <= k)%nat /\
                     forall j, (Nat.min 1 (length c - 1) <= j < k)%nat -> nth j c 0 < x).

(** an arithmetic whose comparisons are those of the values *)
Definition compares (A : arith) (val : num A -> R) (ok : num A -> Prop) : Prop :=
  forall a b, ok a -> ok b ->
    ltb A a b = Rlt_bool (val a) (val b) /\ leb A a b = Rle_bool (val a) (val b).

Lemma real_compares : compares real_arith (fun x => x) (fun _ => True).
Proof. intros a b _ _. split; reflexivity. Qed.
Lemma double_compares : compares double_arith (B2R (prec := 53) (emax := 1024))
  (fun x => is_finite x = true).
Proof.
  intros a b Ha Hb. split.
  - exact (Bltb_correct 53 1024 a b Ha Hb).
  - exact (Bleb_correct 53 1024 a b Ha Hb).
Qed.

Lemma discrete_inverts A val ok c x : compares A val ok -> Forall ok c -> ok x -> c <> [] ->
  ascending (map val c) -> val x <= nth (length c - 1) (map val c) 0 ->
  exists k, discrete A x c = Some k /\ inverts (map val c) (val x) k.
Proof.
  intros HC Hok Hx Hne Hasc Hlast.
  assert (Hnth : forall i y, nth_error c i = Some y -> nth i (map val c) 0 = val y /\ ok y).
  { intros i y E. split.
    - apply nth_error_nth. now apply map_nth_error.
    - rewrite Forall_forall in Hok. apply Hok. now apply nth_error_In with i. }
  destruct c as [|c0 c']; [easy|]. clear Hne.
  destruct (Hnth 0%nat c0 eq_refl) as [E0 O0].
  destruct (HC x c0 Hx O0) as [Hlt0 _].
  destruct (ltb A x c0) eqn:El.
  - exists 0%nat. split; [unfold discrete; now rewrite El|].
    symmetry in Hlt0. destruct (Rlt_bool_spec (val x) (val c0)); [|easy].
    unfold inverts. rewrite map_length. cbn [length]. rewrite E0. repeat split; try lia; lra.
  - assert (Hge : val c0 <= val x).
    { symmetry in Hlt0. now destruct (Rlt_bool_spec (val x) (val c0)). }
    destruct c' as [|c1 c''].
    + exists 0%nat. split; [unfold discrete; rewrite El; reflexivity|].
      unfold inverts. cbn in *. repeat split; try lia; lra.
    + set (c := c0 :: c1 :: c'') in *.
      destruct (discrete_search A c x (fun i => val x <= nth i (map val c) 0))
        with (c0 := c0) as (k & Ek & Hk & Hq & Hmin).
      * intros i y Hy. destruct (Hnth i y Hy) as [Ey Oy]. rewrite Ey.
        destruct (HC x y Hx Oy) as [_ ->].
        destruct (Rle_bool_spec (val x) (val y)); split; intros; try easy; lra.
      * intros i j Hij Hj Hi. apply Rle_trans with (1 := Hi). apply Hasc.
        rewrite map_length. lia.
      * unfold c; cbn [length]; lia.
      * exact Hlast.
      * reflexivity.
      * exact El.
      * exists k. split; [exact Ek|]. unfold inverts. rewrite map_length.
        assert (2 <= length c)%nat by (unfold c; cbn [length]; lia).
        rewrite Nat.min_l by lia.
        split; [lia|]. split; [exact Hq|]. split.
        -- intros Hc. rewrite E0 in Hc. lra.
        -- intros _. split; [lia|]. intros j Hj. apply Rnot_le_lt. now apply Hmin.
Qed.

(** every nondecreasing table of finite doubles; only comparisons, hence no rounding *)
Theorem C42_doubles : forall (c : list double) (x : double),
  Forall (fun y => is_finite y = true) c -> is_finite x = true -> c <> [] ->
  ascending (map B2R c) -> B2R x <= nth (length c - 1) (map B2R c) 0 ->
  exists k, discrete double_arith x c = Some k /\ inverts (map B2R c) (B2R x) k.
Proof. intros c x H1 H2. exact (discrete_inverts double_arith _ _ c x double_compares H1 H2). Qed.

(** ... and of real numbers *)
Theorem C42_reals : forall (c : list R) (x : R), c <> [] -> ascending c ->
  x <= nth (length c - 1) c 0 -> exists k, discrete real_arith x c = Some k /\ inverts c x k.
Proof.
  intros c x H1 H2 H3.
  pose proof (discrete_inverts real_arith (fun y => y) _ c x real_compares) as H. cbn beta in H.
  assert (E : forall l : list (num real_arith), map (fun y => y) l = l) by apply map_id.
  rewrite E in H. apply H; auto. apply Forall_forall. auto.
Qed.

(** away from the first entry this is the quantile: the result is at most j exactly when x <= c[j] *)
Theorem C42_quantile : forall (c : list R) (x : R), ascending c -> x <= nth (length c - 1) c 0 ->
  c <> [] -> x <> nth 0 c 0 ->
  exists k, discrete real_arith x c = Some k /\
    forall j, (j < length c)%nat -> (k <= j)%nat <-> x <= nth j c 0.
Proof.
  intros c x Ha Hl Hne Hx. destruct (C42_reals c x Hne Ha Hl) as (k & Ek & Hk & Hxk & H0 & H1).
  exists k. split; [exact Ek|]. intros j Hj. split.
  - intros Hkj. apply Rle_trans with (1 := Hxk). apply Ha. lia.
  - intros Hxj. destruct (Nat.le_gt_cases k j) as [|Hgt]; [assumption|].
    destruct (Rle_lt_dec (nth 0 c 0) x) as [Hge|Hlt]; [|rewrite (H0 Hlt) in Hgt; lia].
    destruct (H1 Hge) as [_ Hmin]. destruct j as [|j].
    + lra.
    + assert (nth (S j) c 0 < x) by (apply Hmin; lia). lra.
Qed.

(** whatever the values (NaNs, descending tables): the result is an index of the table, and only an
    empty table is undefined behaviour *)
Theorem C42_in_range : forall (A : arith) (c : list (num A)) (x : num A),
  (c <> [] -> exists k, discrete A x c = Some k /\ (k < length c)%nat) /\
  (discrete A x c = None <-> c = []).
Proof.
  intros A c x. split; [intros H; now apply discrete_range|].
  split.
  - intros H. destruct c; [reflexivity|]. destruct (discrete_range A (n :: c) x) as (k & E & _); [easy|].
    congruence.
  - intros ->. reflexivity.
Qed.

(** at x = c[0] the least index with x <= c[i] is 0, but 1 is returned *)
Theorem C42_least_index_refuted : exists (c : list double) (x : double) (k : nat),
  Forall (fun y => is_finite y = true) c /\ ascending (map B2R c) /\
  discrete double_arith x c = Some k /\ (0 < k)%nat /\ B2R x <= nth 0 (map B2R c) 0.
Proof.
  exists [dbl 1 (-1); dbl 1 0], (dbl 1 (-1)), 1%nat.
  split; [repeat constructor|]. split.
  - intros i j Hij. cbn [length map] in Hij.
    assert (Hv : B2R (dbl 1 (-1)) <= B2R (dbl 1 0)).
    { destruct (Rle_bool_spec (B2R (dbl 1 (-1))) (B2R (dbl 1 0))) as [H|H]; [exact H|].
      apply Rle_bool_false in H.
      rewrite <- (Bleb_correct 53 1024 (dbl 1 (-1)) (dbl 1 0) eq_refl eq_refl) in H.
      vm_compute in H. easy. }
    destruct i as [|[|i]], j as [|[|j]]; try lia; cbn [nth map]; try lra; exact Hv.
  - split; [reflexivity|]. split; [lia|]. cbn [nth map]. lra.
Qed.

Example C42_ex : exists k, discrete real_arith 0.6 [0.2; 0.5; 0.7; 1] = Some k /\
  forall j, (j < 4)%nat -> (k <= j)%nat <-> 0.6 <= nth j [0.2; 0.5; 0.7; 1] 0.
Proof.
  apply C42_quantile.
  - intros i j Hij. cbn [length] in Hij.
    destruct i as [|[|[|[|i]]]], j as [|[|[|[|j]]]]; try lia; cbn [nth]; lra.
  - cbn. lra.
  - discriminate.
  - cbn. lra.
Qed.

(** ** C43 *)

Definition total (w : list R) : R := prefix w (length w).

(** Exact arithmetic: outcome k is drawn exactly for v*W in [w0+..+w(k-1), w0+..+wk). *)
Theorem C43_draw : forall (w : list R), Forall (fun x => 0 <= x) w -> 0 < total w ->
  (Z.of_nat (length w) < 2 ^ 31)%Z ->
  exists d, ddist_make real_arith w = Some d /\
    ddist_min real_arith d = 0%Z /\ ddist_max real_arith d = (Z.of_nat (length w) - 1)%Z /\
    forall v, 0 <= v < 1 ->
      (exists k, (k < length w)%nat /\ ddist_draw real_arith d v = Some (Z.of_nat k)) /\
      forall k, (k < length w)%nat ->
        ddist_draw real_arith d v = Some (Z.of_nat k) <->
        prefix w k <= v * total w < prefix w (S k).
Proof.
  intros w Hw HW Hlen.
  destruct (ddist_make_ok real_arith w) as (d & Ed & HT); [change (num real_arith) with R; lia|].
  exists d. split; [exact Ed|]. split; [reflexivity|]. split.
  - unfold ddist_max. rewrite (N_eq w d HT). apply size_to_int_small.
    assert (1 <= length w)%nat. { destruct w; [cbn in HW; unfold total in HW; cbn in HW; lra|cbn; lia]. }
    lia.
  - intros v Hv.
    destruct (ddist_draw_ok w d HT v ltac:(lia) HW Hv) as (k & Ek & Hk & Hk2).
    split; [exists k; auto|].
    intros j Hj. split.
    + intros E. rewrite Ek in E. injection E as E. apply Nat2Z.inj in E. subst j. exact Hk2.
    + intros Hj2. rewrite Ek. f_equal. f_equal. unfold total in Hj2.
      destruct (Nat.lt_trichotomy k j) as [H|[H|H]]; [|exact H|].
      * assert (prefix w (S k) <= prefix w j) by (apply prefix_mono; [assumption|lia]). lra.
      * assert (prefix w (S j) <= prefix w k) by (apply prefix_mono; [assumption|lia]). lra.
Qed.

(** hence outcome k is drawn for an interval of variates of length w[k]/W = pdf(k) ... *)
Theorem C43_probability : forall (w : list R), Forall (fun x => 0 <= x) w -> 0 < total w ->
  (Z.of_nat (length w) < 2 ^ 31)%Z ->
  exists d, ddist_make real_arith w = Some d /\ forall k, (k < length w)%nat ->
    exists lo, 0 <= lo /\ lo + nth k w 0 / total w <= 1 /\
      ddist_pdf real_arith d (Z.of_nat k) = Some (nth k w 0 / total w) /\
      ddist_cdf real_arith d (Z.of_nat k) = Some (lo + nth k w 0 / total w) /\
      forall v, 0 <= v < 1 ->
        ddist_draw real_arith d v = Some (Z.of_nat k) <-> lo <= v < lo + nth k w 0 / total w.
Proof.
  intros w Hw HW Hlen. destruct (C43_draw w Hw HW Hlen) as (d & Ed & _ & _ & H).
  exists d. split; [exact Ed|]. intros k Hk.
  destruct (ddist_make_ok real_arith w) as (d' & Ed' & HT); [change (num real_arith) with R; lia|].
  assert (d' = d) by congruence. subst d'.
  exists (prefix w k / total w).
  assert (E : prefix w k / total w + nth k w 0 / total w = prefix w (S k) / total w).
  { rewrite prefix_S. field. lra. }
  rewrite E.
  split; [|split; [|split; [|split]]].
  - apply Rmult_le_pos; [|left; now apply Rinv_0_lt_compat].
    rewrite <- (prefix_0 w). apply prefix_mono; [assumption|lia].
  - apply Rmult_le_reg_r with (total w); [exact HW|].
    unfold Rdiv. rewrite Rmult_assoc, Rinv_l, Rmult_1_r, Rmult_1_l by lra.
    apply prefix_mono; [assumption|lia].
  - exact (ddist_pdf_ok w d HT k Hlen Hk).
  - exact (ddist_cdf_ok w d HT k Hlen Hk).
  - intros v Hv. destruct (H v Hv) as [_ Hi]. rewrite (Hi k Hk).
    assert (Ha : forall a, a <= v * total w <-> a / total w <= v).
    { intros a. split; intros Hq.
      - apply Rmult_le_reg_r with (total w); [exact HW|].
        unfold Rdiv. rewrite Rmult_assoc, Rinv_l, Rmult_1_r by lra. exact Hq.
      - apply Rmult_le_compat_r with (r := total w) in Hq; [|lra].
        unfold Rdiv in Hq. rewrite Rmult_assoc, Rinv_l, Rmult_1_r in Hq by lra. exact Hq. }
    split; intros [H1 H2]; split.
    + now apply Ha.
    + apply Rnot_le_lt. intros Hc. apply Ha in Hc. lra.
    + now apply Ha.
    + apply Rnot_le_lt. intros Hc. apply Ha in Hc. lra.
Qed.

(** ... pdf and cdf outside the outcomes ... *)
Theorem C43_outside : forall (w : list R), (1 <= length w)%nat -> (Z.of_nat (length w) < 2 ^ 31)%Z ->
  exists d, ddist_make real_arith w = Some d /\ forall x,
    ((x < 0)%Z -> ddist_pdf real_arith d x = Some 0 /\ ddist_cdf real_arith d x = Some 0) /\
    ((Z.of_nat (length w) <= x)%Z -> ddist_pdf real_arith d x = Some 0 /\ ddist_cdf real_arith d x = Some 1).
Proof.
  intros w Hl Hw. destruct (ddist_make_ok real_arith w) as (d & Ed & HT); [change (num real_arith) with R; lia|].
  exists d. split; [exact Ed|]. intros x. unfold ddist_pdf, ddist_cdf. rewrite (N_eq w d HT), size_to_int_small by lia. split; intros Hx.
  - rewrite (proj2 (Z.ltb_lt x 0)) by exact Hx. split; reflexivity.
  - rewrite (proj2 (Z.ltb_ge x 0)), (proj2 (Z.leb_le _ x)), (proj2 (Z.ltb_ge x _)) by lia. split; reflexivity.
Qed.

Example C43_outside_ex : exists d, ddist_make real_arith [1; 3; 2] = Some d /\
  ddist_pdf real_arith d (-4) = Some 0 /\ ddist_pdf real_arith d 3 = Some 0 /\ ddist_cdf real_arith d 7 = Some 1.
Proof.
  destruct (C43_outside [1; 3; 2]) as (d & Ed & H); [cbn; lia|cbn; lia|]. exists d. split; [exact Ed|].
  split; [apply (proj1 (H (-4)%Z)); lia|]. split; [apply (proj2 (H 3%Z)); cbn; lia|apply (proj2 (H 7%Z)); cbn; lia].
Qed.

(** ... and an outcome of weight zero never *)
Theorem C43_zero_weight : forall (w : list R), Forall (fun x => 0 <= x) w -> 0 < total w ->
  (Z.of_nat (length w) < 2 ^ 31)%Z ->
  exists d, ddist_make real_arith w = Some d /\ forall k v, (k < length w)%nat -> nth k w 0 = 0 ->
    0 <= v < 1 -> ddist_draw real_arith d v <> Some (Z.of_nat k).
Proof.
  intros w Hw HW Hlen. destruct (C43_draw w Hw HW Hlen) as (d & Ed & _ & _ & H).
  exists d. split; [exact Ed|]. intros k v Hk H0 Hv E.
  destruct (H v Hv) as [_ Hi]. apply (Hi k Hk) in E. rewrite prefix_S, H0 in E. lra.
Qed.

(** Any arithmetic, in particular doubles: if the number of outcomes is a power of two the result is one
    of them. *)
Theorem C43_power_of_two : forall (A : arith) (w : list (num A)) (L : nat),
  length w = (2 ^ L)%nat -> (L <= 31)%nat ->
  exists d, ddist_make A w = Some d /\ forall v, exists k,
    ddist_draw A d v = Some (Z.of_nat k) /\ (k < length w)%nat.
Proof.
  intros A w L Hw HL. destruct (ddist_make_ok A w) as (d & Ed & HT).
  { rewrite Hw, Nat2Z.inj_pow. change (Z.of_nat 2) with 2%Z. apply Z.pow_le_mono_r; lia. }
  exists d. split; [exact Ed|]. intros v. now apply (ddist_draw_pow A w d v L).
Qed.

(** In double arithmetic the range claim is false: three positive weights, the largest value of
    uniformco with a 64-bit engine, result 3 > max(). *)
Theorem C43_double_range_refuted : exists (w : list double) (d : ddist double_arith) (r : Z),
  Forall (fun x => is_finite x = true /\ 0 < B2R x) w /\ (0 <= r <= 2 ^ 64 - 1)%Z /\
  ddist_make double_arith w = Some d /\
  exists k, ddist_draw double_arith d (uniformco 53 1024 (2 ^ 64 - 1) r) = Some k /\
            (ddist_max double_arith d < k)%Z.
Proof.
  set (w := [dbl 1 (-52); dbl 1 (-53); dbl 5 (-2)]).
  assert (E : option_map (fun d => (ddist_draw double_arith d (uniformco 53 1024 (2 ^ 64 - 1) (2 ^ 64 - 1)),
                                    ddist_max double_arith d)) (ddist_make double_arith w)
              = Some (Some 3%Z, 2%Z)) by (vm_compute; reflexivity).
  exists w.
  destruct (ddist_make double_arith w) as [d|]; [|discriminate E].
  exists d, (2 ^ 64 - 1)%Z. split; [|split; [lia|split; [reflexivity|]]].
  - unfold w. repeat (apply Forall_cons; [apply dbl_pos; vm_compute; reflexivity|]). apply Forall_nil.
  - exists 3%Z. cbn [option_map] in E. injection E as E1 E2. split; [exact E1|]. rewrite E2. lia.
Qed.

(** With zero weights the search can even leave the vector. *)
Theorem C43_double_out_of_bounds_refuted : exists (w : list double) (d : ddist double_arith) (r : Z),
  Forall (fun x => is_finite x = true /\ 0 <= B2R x) w /\ (0 <= r <= 2 ^ 64 - 1)%Z /\
  ddist_make double_arith w = Some d /\
  ddist_draw double_arith d (uniformco 53 1024 (2 ^ 64 - 1) r) = None.
Proof.
  set (w := [dbl 1 (-52); dbl 1 (-53); dbl 0 0; dbl 0 0; dbl 5 (-2)]).
  assert (E : option_map (fun d => ddist_draw double_arith d (uniformco 53 1024 (2 ^ 64 - 1) (2 ^ 64 - 1)))
                (ddist_make double_arith w) = Some None) by (vm_compute; reflexivity).
  exists w.
  destruct (ddist_make double_arith w) as [d|]; [|discriminate E].
  exists d, (2 ^ 64 - 1)%Z. split; [|split; [lia|split; [reflexivity|]]].
  - unfold w. repeat (apply Forall_cons; [apply dbl_nonneg; vm_compute; reflexivity|]). apply Forall_nil.
  - cbn [option_map] in E. injection E as E1. exact E1.
Qed.

Example C43_ex : exists d, ddist_make real_arith [0.5; 0; 2; 1; 0.5] = Some d /\
  ddist_draw real_arith d 0.25 = Some 2%Z.
Proof.
  destruct (C43_draw [0.5; 0; 2; 1; 0.5]) as (d & Ed & _ & _ & H).
  - repeat constructor; lra.
  - unfold total, prefix. cbn. lra.
  - cbn. lia.
  - exists d. split; [exact Ed|]. destruct (H 0.25 ltac:(lra)) as [_ Hi].
    apply (Hi 2%nat); [cbn; lia|]. unfold total, prefix. cbn. lra.
Qed.

(** ** C44 *)

(** any arithmetic: param(x, p) gives the distribution constructed from the changed list *)
Theorem C44_update : forall (A : arith) (w : list (num A)) (x : nat) (p : num A),
  (Z.of_nat (length w) <= 2 ^ 30)%Z -> (x < length w)%nat ->
  (Nat.Odd x \/ (S x < length w)%nat \/ length w = 1%nat) ->
  exists d d', ddist_make A w = Some d /\
    ddist_make A (firstn x w ++ p :: skipn (S x) w) = Some d' /\
    ddist_update A d (Z.of_nat x) p = Some d'.
Proof.
  intros A w x p Hw Hx Hsib.
  assert (E : firstn x w ++ p :: skipn (S x) w = vput w x p).
  { clear -Hx. revert x Hx. induction w as [|a w IH]; intros [|x] Hx; cbn [length] in Hx; try lia; auto.
    cbn [firstn app vput]. f_equal. rewrite <- IH by lia. reflexivity. }
  rewrite E.
  destruct (ddist_make_ok A w) as (d & Ed & HT); [lia|].
  destruct (ddist_make_ok A (vput w x p)) as (d' & Ed' & HT'); [rewrite vput_length; lia|].
  destruct (ddist_update_ok A w d x p Hw HT Hx Hsib) as (d'' & Eu & HT'').
  exists d, d'. split; [exact Ed|]. split; [exact Ed'|]. rewrite Eu. f_equal.
  exact (tree_of_unique A _ _ _ HT'' HT').
Qed.

(** the last outcome of a list of odd length at least 3 has no sibling: undefined behaviour *)
Theorem C44_last_outcome : forall (A : arith) (w : list (num A)) (p : num A),
  (Z.of_nat (length w) <= 2 ^ 30)%Z -> Nat.Odd (length w) -> (3 <= length w)%nat ->
  exists d, ddist_make A w = Some d /\ ddist_update A d (Z.of_nat (length w - 1)) p = None.
Proof.
  intros A w p Hw Ho H3. destruct (ddist_make_ok A w) as (d & Ed & HT); [lia|].
  exists d. split; [exact Ed|]. now apply (ddist_update_oob A w d p).
Qed.

Theorem C44_all_outcomes_refuted : exists (w : list double) (x : nat) (p : double) d,
  (x < length w)%nat /\ ddist_make double_arith w = Some d /\
  ddist_update double_arith d (Z.of_nat x) p = None.
Proof.
  destruct (C44_last_outcome double_arith [dbl 1 0; dbl 1 0; dbl 1 0] (dbl 1 1)) as (d & Ed & E).
  - cbn. lia.
  - exists 1%nat. reflexivity.
  - cbn. lia.
  - exists [dbl 1 0; dbl 1 0; dbl 1 0], 2%nat, (dbl 1 1), d. split; [cbn; lia|]. split; [exact Ed|exact E].
Qed.

Example C44_ex : exists d d', ddist_make double_arith [dbl 1 0; dbl 3 0; dbl 5 0] = Some d /\
  ddist_make double_arith [dbl 1 0; dbl 1 (-1); dbl 5 0] = Some d' /\
  ddist_update double_arith d 1 (dbl 1 (-1)) = Some d'.
Proof.
  apply (C44_update double_arith [dbl 1 0; dbl 3 0; dbl 5 0] 1 (dbl 1 (-1))).
  - cbn. lia.
  - cbn. lia.
  - left. exists 0%nat. reflexivity.
Qed.

(** ** C45 *)

(** static_cast<int> of a double *)
Definition double_to_int (x : double) : option Z :=
  match double_to_signed 32 x with IntVal z => Some z | IntUB => None end.

(** No fast_discrete_dist can be used: max() is -1 and every draw reads outside the (empty) tables. *)
Theorem C45_every_draw_undefined : forall (w : list double),
  exists d, fdist_make double_arith w = Some d /\ fdist_max double_arith d = (-1)%Z /\
    forall u, fdist_draw double_arith double_to_int d u = None.
Proof.
  intros w. eexists. split; [reflexivity|]. split; [reflexivity|].
  intros u. unfold fdist_draw. cbn [fd_N fd_F fd_L].
  destruct (double_to_int _) as [I|]; [|reflexivity]. cbn [bind].
  destruct (I <? 0)%Z; [reflexivity|]. unfold vget.
  cbn [moved_from length repeat]. now destruct (Z.to_nat I).
Qed.

Theorem C45_usable_refuted : exists (w : list double) (r : Z),
  w <> [] /\ Forall (fun x => is_finite x = true /\ 0 < B2R x) w /\ (0 <= r <= 2 ^ 64 - 1)%Z /\
  ~ (exists d, fdist_make double_arith w = Some d /\
      fdist_max double_arith d = (Z.of_nat (length w) - 1)%Z) /\
  ~ (exists d k, fdist_make double_arith w = Some d /\
      fdist_draw double_arith double_to_int d (uniformco 53 1024 (2 ^ 64 - 1) r) = Some k /\
      (fdist_min double_arith d <= k <= fdist_max double_arith d)%Z).
Proof.
  exists [dbl 1 0; dbl 1 0], 12345%Z.
  destruct (C45_every_draw_undefined [dbl 1 0; dbl 1 0]) as (d & Ed & Em & H).
  split; [easy|]. split; [|split; [lia|split]].
  - repeat (apply Forall_cons; [apply dbl_pos; vm_compute; reflexivity|]). apply Forall_nil.
  - intros (d' & E & E'). assert (d' = d) by congruence. subst d'. rewrite Em in E'. cbn in E'. easy.
  - intros (d' & k & E & E' & _). assert (d' = d) by congruence. subst d'. rewrite H in E'. easy.
Qed.

(** ** C56 *)

(** Doubles: head exactly when the variate is below p; the result lies in [min(), max()]. *)
Theorem C56_draw : forall (b : bernoulli double_arith) (u : double),
  is_finite u = true -> is_finite (bn_p b : double) = true ->
  (bernoulli_draw double_arith b u = bn_head b <->
     bn_head b = bn_tail b \/ B2R u < B2R (bn_p b : double)) /\
  (B2R (bn_p b : double) <= B2R u -> bernoulli_draw double_arith b u = bn_tail b) /\
  (bernoulli_min double_arith b <= bernoulli_draw double_arith b u <= bernoulli_max double_arith b)%Z.
Proof.
  intros [p h t] u Hu Hp. cbn [bn_p bn_head bn_tail] in *.
  unfold bernoulli_draw, bernoulli_min, bernoulli_max. cbn [bn_p bn_head bn_tail].
  destruct (double_compares u p Hu Hp) as [-> _].
  split; [|split].
  - destruct (Rlt_bool_spec (B2R (u : double)) (B2R (p : double))) as [H|H]; split; intros; auto.
    destruct H0; [auto|]. exfalso. exact (Rlt_not_le _ _ H0 H).
  - intros H. rewrite Rlt_bool_false by exact H. reflexivity.
  - rewrite Z.gtb_ltb. destruct (Rlt_bool _ _), (Z.ltb_spec h t), (Z.ltb_spec t h); lia.
Qed.

(** Exact arithmetic: the variates giving head form an interval of length p; pdf is a probability
    function on {head, tail}, cdf its cumulative sum. *)
Theorem C56_probabilities : forall (p : R) (h t : Z), 0 <= p <= 1 -> h <> t ->
  let b := Bernoulli (A := real_arith) p h t in
  let pdf := bernoulli_pdf real_arith b in
  (forall u, bernoulli_draw real_arith b u = h <-> u < p) /\
  (forall u, bernoulli_draw real_arith b u = t <-> p <= u) /\
  pdf h = p /\ pdf h + pdf t = 1 /\ (forall x, 0 <= pdf x) /\
  (forall x, x <> h -> x <> t -> pdf x = 0) /\
  (forall x, bernoulli_cdf real_arith b x =
     (if (h <=? x)%Z then pdf h else 0) + (if (t <=? x)%Z then pdf t else 0)) /\
  bernoulli_min real_arith b = Z.min h t /\ bernoulli_max real_arith b = Z.max h t.
Proof.
  intros p h t Hp Hht b pdf.
  assert (Eh : pdf h = p) by (unfold pdf, bernoulli_pdf, b; cbn [bn_head bn_p]; now rewrite Z.eqb_refl).
  assert (Et : pdf t = 1 - p).
  { unfold pdf, bernoulli_pdf, b; cbn [bn_head bn_p bn_tail].
    rewrite (proj2 (Z.eqb_neq t h)) by auto. now rewrite Z.eqb_refl. }
  split; [|split; [|split; [|split; [|split; [|split; [|split]]]]]].
  - intros u. unfold bernoulli_draw, b. cbn [bn_head bn_p bn_tail ltb real_arith].
    destruct (Rlt_bool_spec u p); split; intros; auto; try lra. congruence.
  - intros u. unfold bernoulli_draw, b. cbn [bn_head bn_p bn_tail ltb real_arith].
    destruct (Rlt_bool_spec u p); split; intros; auto; try lra. congruence.
  - exact Eh.
  - rewrite Eh, Et. lra.
  - intros x. unfold pdf, bernoulli_pdf, b. cbn [bn_head bn_p bn_tail sub one zero real_arith].
    destruct (x =? h)%Z; [lra|]. destruct (x =? t)%Z; lra.
  - intros x H1 H2. unfold pdf, bernoulli_pdf, b. cbn [bn_head bn_p bn_tail].
    rewrite (proj2 (Z.eqb_neq x h)), (proj2 (Z.eqb_neq x t)) by auto. reflexivity.
  - intros x. rewrite Eh, Et. unfold bernoulli_cdf, b. cbn [bn_head bn_p bn_tail sub one zero real_arith].
    destruct (Z.ltb_spec h t), (Z.ltb_spec x h), (Z.ltb_spec x t), (Z.leb_spec h x), (Z.leb_spec t x);
      try lia; lra.
  - unfold bernoulli_min, bernoulli_max, b. cbn [bn_head bn_p bn_tail].
    rewrite Z.gtb_ltb. destruct (Z.ltb_spec h t), (Z.ltb_spec t h); lia.
Qed.

(** with head = tail the probability function sums to p only *)
Theorem C56_equal_outcomes_refuted : exists (p : R) (h : Z), 0 <= p <= 1 /\
  forall x, bernoulli_pdf real_arith (Bernoulli (A := real_arith) p h h) x <> 1.
Proof.
  exists 0.5, 0%Z. split; [lra|]. intros x. unfold bernoulli_pdf.
  cbn [bn_head bn_p bn_tail sub one zero real_arith].
  destruct (x =? 0)%Z; lra.
Qed.

Example C56_ex : bernoulli_draw real_arith (Bernoulli (A := real_arith) 0.25 7 (-2)) 0.3 = (-2)%Z.
Proof. apply (C56_probabilities 0.25 7 (-2)); [lra|lia|lra]. Qed.

(** ** C57 *)

(** sum of f over lo, lo+1, .., lo+n-1 *)
Fixpoint zsum (f : Z -> R) (lo : Z) (n : nat) : R :=
  match n with O => 0 | S k => zsum f lo k + f (lo + Z.of_nat k)%Z end.

Theorem C57_uniform_int : forall (a b : Z) (P : uniform_int), (a < b)%Z -> (- 2 ^ 31 <= a)%Z -> (b < 2 ^ 31)%Z ->
  uniform_int_make a b = UIVal P ->
  let pdf := uniform_int_pdf real_arith (ui_a P) (ui_b P) (ui_d P) in
  let cdf := uniform_int_cdf real_arith (ui_a P) (ui_b P) (ui_d P) in
  uniform_int_min P = IntVal a /\ uniform_int_max P = IntVal (b - 1) /\
  (forall x, (x < a)%Z -> cdf x = 0) /\ (forall x, (b - 1 <= x)%Z -> cdf x = 1) /\
  (forall x, (x < a \/ b <= x)%Z -> pdf x = 0) /\
  (forall x, (a <= x < b)%Z -> pdf x = 1 / IZR (b - a)) /\
  (forall lo x, (lo <= a)%Z -> (lo <= x + 1)%Z -> cdf x = zsum pdf lo (Z.to_nat (x - lo + 1))).
Proof.
  intros a b P Hab Ha Hb HP pdf cdf.
  unfold uniform_int_make, int_sub in HP.
  destruct ((- 2 ^ 31 <=? b - a) && (b - a <? 2 ^ 31))%Z eqn:E; [|easy].
  injection HP as <-. cbn [ui_a ui_b ui_d] in *.
  assert (Hd : 0 < IZR (b - a)) by (apply IZR_lt; lia).
  assert (H1 : forall x, (x < a)%Z -> cdf x = 0).
  { intros x Hx. unfold cdf, uniform_int_cdf. rewrite (proj2 (Z.ltb_lt x a)) by lia. reflexivity. }
  assert (H2 : forall x, (b - 1 <= x)%Z -> cdf x = 1).
  { intros x Hx. unfold cdf, uniform_int_cdf. rewrite (proj2 (Z.ltb_ge x a)) by lia.
    destruct (Z.leb_spec b x); [reflexivity|].
    assert (x = b - 1)%Z by lia. subst x. cbn [div ofz real_arith].
    replace (b - 1 - a + 1)%Z with (b - a)%Z by lia. change (IZR (b - a) / IZR (b - a) = 1). field. lra. }
  assert (H3 : forall x, (x < a \/ b <= x)%Z -> pdf x = 0).
  { intros x Hx. unfold pdf, uniform_int_pdf.
    destruct (Z.ltb_spec x a), (Z.leb_spec b x); try lia; reflexivity. }
  assert (H4 : forall x, (a <= x < b)%Z -> pdf x = 1 / IZR (b - a)).
  { intros x Hx. unfold pdf, uniform_int_pdf.
    destruct (Z.ltb_spec x a), (Z.leb_spec b x); try lia; reflexivity. }
  split; [reflexivity|]. split.
  { unfold uniform_int_max, int_sub. cbn [ui_b].
    rewrite (proj2 (Z.leb_le (- 2 ^ 31) _)), (proj2 (Z.ltb_lt _ (2 ^ 31))) by lia. reflexivity. }
  repeat split; auto.
  intros lo x Hlo Hx.
  assert (Hs : forall n, zsum pdf lo n = cdf (lo + Z.of_nat n - 1)%Z).
  { induction n.
    - cbn [zsum]. symmetry. apply H1. lia.
    - cbn [zsum]. rewrite IHn.
      replace (lo + Z.of_nat (S n) - 1)%Z with (lo + Z.of_nat n)%Z by lia.
      set (y := (lo + Z.of_nat n)%Z).
      destruct (Z.lt_ge_cases y a).
      + rewrite !H1, H3 by lia. lra.
      + destruct (Z.lt_ge_cases y b).
        * rewrite H4 by lia. unfold cdf, uniform_int_cdf. cbn [div ofz zero real_arith].
          rewrite (proj2 (Z.ltb_ge y a)) by lia. rewrite (proj2 (Z.leb_gt b y)) by lia.
          rewrite (proj2 (Z.leb_gt b (y - 1))) by lia.
          destruct (Z.ltb_spec (y - 1) a).
          -- replace (y - a + 1)%Z with 1%Z by lia. lra.
          -- replace (y - a + 1)%Z with (y - 1 - a + 1 + 1)%Z by lia. rewrite (plus_IZR (y - 1 - a + 1) 1). unfold Rdiv. lra.
        * rewrite !H2, H3 by lia. lra. }
  rewrite Hs. f_equal. lia.
Qed.

Example C57_ex : exists P, uniform_int_make (-3) 5 = UIVal P /\
  uniform_int_cdf real_arith (ui_a P) (ui_b P) (ui_d P) 0 =
  zsum (uniform_int_pdf real_arith (ui_a P) (ui_b P) (ui_d P)) (-10) 11.
Proof.
  eexists; split; [reflexivity|].
  apply (C57_uniform_int (-3) 5); [lia|lia|lia|reflexivity|lia|lia].
Qed.

Print Assumptions C42_doubles.
Print Assumptions C42_reals.
Print Assumptions C42_quantile.
Print Assumptions C42_in_range.
Print Assumptions C42_least_index_refuted.
Print Assumptions C43_draw.
Print Assumptions C43_probability.
Print Assumptions C43_outside.
Print Assumptions C43_zero_weight.
Print Assumptions C43_power_of_two.
Print Assumptions C43_double_range_refuted.
Print Assumptions C43_double_out_of_bounds_refuted.
Print Assumptions C44_update.
Print Assumptions C44_last_outcome.
Print Assumptions C44_all_outcomes_refuted.
Print Assumptions C45_every_draw_undefined.
Print Assumptions C45_usable_refuted.
Print Assumptions C56_draw.
Print Assumptions C56_probabilities.
Print Assumptions C56_equal_outcomes_refuted.
Print Assumptions C57_uniform_int.
