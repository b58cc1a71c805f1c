(** Proofs about utility::discrete and discrete_dist over an arbitrary arithmetic. *)
From Coq Require Import ZArith List Bool Reals Lia Arith.
From Verif Require Import Base IntMathModel IntMathProofs ArithModel DiscreteModel.
Import ListNotations.
Local Open Scope nat_scope.

(** ** Vectors *)
Lemma vput_length {T} (l : list T) i v : length (vput l i v) = length l.
Proof. revert i; induction l; intros [|i]; simpl; auto. Qed.
Lemma vput_same {T} (l : list T) i v : i < length l -> nth_error (vput l i v) i = Some v.
Proof. revert i; induction l; intros [|i] H; simpl in *; auto; try lia; try (apply IHl; lia). Qed.
Lemma vput_other {T} (l : list T) i j v : i <> j -> nth_error (vput l i v) j = nth_error l j.
Proof.
  revert i j; induction l; intros [|i] [|j] H; simpl in *; auto; try lia; try (apply IHl; lia).
Qed.
Lemma vset_ok {T} (l : list T) i v : i < length l -> vset l i v = Some (vput l i v).
Proof. intros H. unfold vset. now rewrite (proj2 (Nat.ltb_lt _ _) H). Qed.
Lemma vset_oob {T} (l : list T) i v : length l <= i -> vset l i v = None.
Proof. intros H. unfold vset. now rewrite (proj2 (Nat.ltb_ge _ _) H). Qed.
Lemma vget_some {T} (l : list T) i : i < length l -> exists v, vget l i = Some v.
Proof.
  intros H. unfold vget. destruct (nth_error l i) eqn:E; eauto. apply nth_error_None in E; lia.
Qed.
Lemma vput_nth_error {T} (l : list T) i j v :
  nth_error (vput l i v) j = if (i =? j) && (i <? length l) then Some v else nth_error l j.
Proof.
  destruct (Nat.eqb_spec i j) as [->|Hn]; simpl.
  - destruct (Nat.ltb_spec j (length l)).
    + now apply vput_same.
    + rewrite (proj2 (nth_error_None _ _)), (proj2 (nth_error_None l _)); auto.
      now rewrite vput_length.
  - now apply vput_other.
Qed.
Lemma nth_error_ext {T} (l l' : list T) : (forall i, nth_error l i = nth_error l' i) -> l = l'.
Proof.
  revert l'; induction l; intros [|b l'] H; auto.
  - specialize (H 0); easy.
  - specialize (H 0); easy.
  - f_equal.
    + specialize (H 0). simpl in H. congruence.
    + apply IHl. intros i. apply (H (S i)).
Qed.

(** ** size_t arithmetic *)
Lemma size_pow2_ok n : n < 64 -> size_pow2 n = Some (2 ^ n).
Proof.
  intros H. unfold size_pow2, pow2, uint_t. cbn [t_width t_norm].
  rewrite (proj2 (Z.leb_le 0 (Z.of_nat n))) by lia.
  rewrite (proj2 (Z.ltb_lt (Z.of_nat n) 64)) by lia. cbn [andb option_map].
  f_equal. rewrite Z.mod_small.
  - apply Nat2Z.inj. rewrite Z2Nat.id by (apply Z.pow_nonneg; lia).
    rewrite Nat2Z.inj_pow. reflexivity.
  - split. apply Z.pow_nonneg; lia. apply Z.pow_lt_mono_r; lia.
Qed.

Definition layers (n : nat) : nat := Z.to_nat (Z.log2_up (Z.of_nat n)).

Lemma layers_spec n : 2 <= n -> 2 ^ (layers n - 1) < n <= 2 ^ layers n /\ 1 <= layers n.
Proof.
  intros H. unfold layers.
  destruct (Z.log2_up_spec (Z.of_nat n)) as [H1 H2]; [lia|].
  assert (Hp : (1 <= Z.log2_up (Z.of_nat n))%Z).
  { change 1%Z with (Z.log2_up 2). apply Z.log2_up_le_mono; lia. }
  split; [|lia].
  split.
  - apply Nat2Z.inj_lt. rewrite Nat2Z.inj_pow.
    rewrite Nat2Z.inj_sub by lia. rewrite Z2Nat.id by lia. exact H1.
  - apply Nat2Z.inj_le. rewrite Nat2Z.inj_pow. rewrite Z2Nat.id by lia. exact H2.
Qed.
Lemma layers_bound n : (Z.of_nat n <= 2 ^ 31)%Z -> layers n <= 31.
Proof.
  intros H. unfold layers.
  assert (Z.log2_up (Z.of_nat n) <= 31)%Z.
  { change 31%Z with (Z.log2_up (2 ^ 31)). now apply Z.log2_up_le_mono. }
  lia.
Qed.
Lemma layers_01 n : n <= 1 -> layers n = 0.
Proof. intros H. destruct n as [|[|n]]; [reflexivity|reflexivity|lia]. Qed.
Lemma size_log2_ceil_ok n : (Z.of_nat n <= 2 ^ 31)%Z -> size_log2_ceil n = Some (layers n).
Proof.
  intros H. unfold size_log2_ceil, layers. destruct (Nat.eq_dec n 0) as [->|Hn].
  - reflexivity.
  - rewrite log2_ceil_eq; [reflexivity| | | |].
    + now apply exact_uint.
    + cbn [uint_t t_max t_width]. lia.
    + cbn [uint_t t_max]. reflexivity.
    + cbn [uint_t t_max]. lia.
Qed.

(** ** utility::discrete *)
Section Discrete.
Variable A : arith.

Lemma discrete_loop_range c x : forall fuel i1 i2, i1 <= i2 -> i2 < length c -> i2 - i1 <= fuel ->
  exists k, discrete_loop A fuel x c i1 i2 = Some k /\ i1 <= k <= i2.
Proof.
  induction fuel; intros i1 i2 H1 H2 Hf.
  - simpl. replace (i2 - i1) with 0 by lia. cbn. exists i2; split; [reflexivity|lia].
  - cbn [discrete_loop]. destruct (Nat.ltb_spec 1 (i2 - i1)); [|exists i2; split; [reflexivity|lia]].
    assert (Hm : i1 < (i2 + i1) / 2 < i2).
    { split.
      - apply Nat.lt_le_trans with (S i1); [lia|]. apply Nat.div_le_lower_bound; lia.
      - apply Nat.div_lt_upper_bound; lia. }
    set (i3 := (i2 + i1) / 2) in *.
    destruct (vget_some c i3) as [y Hy]; [lia|]. rewrite Hy.
    destruct (leb A x y).
    + destruct (IHfuel i1 i3) as (k & E & Hk); try lia. exists k; split; [exact E|lia].
    + destruct (IHfuel i3 i2) as (k & E & Hk); try lia. exists k; split; [exact E|lia].
Qed.

Lemma discrete_range c x : c <> [] -> exists k, discrete A x c = Some k /\ k < length c.
Proof.
  intros Hc. unfold discrete. destruct c as [|c0 c']; [easy|].
  destruct (ltb A x c0); [exists 0; simpl; split; [reflexivity|lia]|].
  set (c := c0 :: c') in *.
  destruct (discrete_loop_range c x (length c) 0 (length c - 1)) as (k & E & Hk);
    subst c; cbn [length] in *; try lia.
  exists k; split; [exact E|lia].
Qed.

(** [q i]: the table entry i is at least x *)
Lemma discrete_loop_search c x (q : nat -> Prop) :
  (forall i y, nth_error c i = Some y -> leb A x y = true <-> q i) ->
  (forall i j, i <= j -> j < length c -> q i -> q j) ->
  forall fuel i1 i2, i1 < i2 -> i2 < length c -> i2 - i1 <= fuel -> q i2 ->
    (forall j, 1 <= j <= i1 -> ~ q j) ->
    exists k, discrete_loop A fuel x c i1 i2 = Some k /\ 1 <= k < length c /\ q k /\
              forall j, 1 <= j < k -> ~ q j.
Proof.
  intros Hq Hmono. induction fuel; intros i1 i2 H1 H2 Hf Hi2 Hlow.
  - lia.
  - cbn [discrete_loop]. destruct (Nat.ltb_spec 1 (i2 - i1)).
    + assert (Hm : i1 < (i2 + i1) / 2 < i2).
      { split.
        - apply Nat.lt_le_trans with (S i1); [lia|]. apply Nat.div_le_lower_bound; lia.
        - apply Nat.div_lt_upper_bound; lia. }
      set (i3 := (i2 + i1) / 2) in *.
      destruct (vget_some c i3) as [y Hy]; [lia|]. rewrite Hy.
      destruct (leb A x y) eqn:El.
      * apply IHfuel; try lia. now apply (Hq i3 y Hy). assumption.
      * apply IHfuel; try lia. assumption.
        intros j Hj Hqj. assert (q i3) by (apply (Hmono j i3); [lia|lia|exact Hqj]).
        apply (Hq i3 y Hy) in H0. congruence.
    + exists i2. repeat split; try lia; auto.
      intros j Hj. apply Hlow. lia.
Qed.

Lemma discrete_search c x (q : nat -> Prop) :
  (forall i y, nth_error c i = Some y -> leb A x y = true <-> q i) ->
  (forall i j, i <= j -> j < length c -> q i -> q j) ->
  2 <= length c -> q (length c - 1) ->
  forall c0, nth_error c 0 = Some c0 -> ltb A x c0 = false ->
  exists k, discrete A x c = Some k /\ 1 <= k < length c /\ q k /\ forall j, 1 <= j < k -> ~ q j.
Proof.
  intros Hq Hmono Hlen Hlast c0 H0 Hlt. unfold discrete.
  destruct c as [|c0' c']; [simpl in Hlen; lia|].
  cbn in H0. injection H0 as ->. rewrite Hlt.
  apply (discrete_loop_search (c0 :: c') x q Hq Hmono); try lia.
  exact Hlast.
Qed.

(** ** The tree of discrete_dist *)

(** what node x of a tree with n nodes must hold *)
Definition node (P : list (num A)) (x : nat) : option (num A) :=
  match nth_error P (2 * x + 1), nth_error P (2 * x + 2) with
  | Some a, Some b => Some (add A a b)
  | Some a, None => Some a
  | None, _ => Some (zero A)
  end.
(** inner nodes [lo, hi) hold what they must *)
Definition nodes_ok (P : list (num A)) (lo hi : nat) : Prop :=
  forall x, lo <= x < hi -> nth_error P x = node P x.

(** the leaves and the node equations determine the tree *)
Lemma tree_unique P Q o : length P = length Q -> o <= length P ->
  nodes_ok P 0 o -> nodes_ok Q 0 o ->
  (forall i, o <= i -> nth_error P i = nth_error Q i) -> P = Q.
Proof.
  intros Hl Ho HP HQ Hleaf. apply nth_error_ext.
  assert (H : forall k i, o - i <= k -> nth_error P i = nth_error Q i).
  { induction k; intros i Hk.
    - apply Hleaf; lia.
    - destruct (Nat.le_gt_cases o i); [now apply Hleaf|].
      rewrite HP, HQ by lia. unfold node.
      rewrite (IHk (2 * i + 1)), (IHk (2 * i + 2)) by lia. reflexivity. }
  intros i. apply (H o). lia.
Qed.

Lemma update_layer_loop_ok : forall fuel P a last, last <= length P -> last - (2 * a + 1) <= fuel ->
  exists P', update_layer_loop A fuel P (2 * a + 1) last = Some P' /\ length P' = length P /\
    forall x, nth_error P' x =
      if (a <=? x) && (2 * x + 1 <? last)
      then (if 2 * x + 2 <? last then node P x else nth_error P (2 * x + 1))
      else nth_error P x.
Proof.
  induction fuel; intros P a last Hl Hf.
  - exists P. split; [|split; [reflexivity|]].
    + cbn [update_layer_loop]. rewrite (proj2 (Nat.ltb_ge _ _)) by lia. reflexivity.
    + intros x. destruct (Nat.leb_spec a x); [|reflexivity].
      rewrite (proj2 (Nat.ltb_ge (2 * x + 1) last)) by lia. reflexivity.
  - cbn [update_layer_loop]. destruct (Nat.ltb_spec (2 * a + 1) last) as [H|H].
    2:{ exists P. split; [reflexivity|split; [reflexivity|]].
        intros x. destruct (Nat.leb_spec a x); [|reflexivity].
        rewrite (proj2 (Nat.ltb_ge (2 * x + 1) last)) by lia. reflexivity. }
    replace (2 * a + 1 + 1) with (2 * a + 2) by lia.
    replace ((2 * a + 1 - 1) / 2) with a
      by (rewrite Nat.add_sub, (Nat.mul_comm 2 a); symmetry; apply Nat.div_mul; lia).
    replace (2 * a + 1 + 2) with (2 * (a + 1) + 1) by lia.
    destruct (vget_some P (2 * a + 1)) as [p1 E1]; [lia|].
    set (v := if 2 * a + 2 <? last then _ else _).
    assert (Ev : exists w, v = Some w /\
       (if 2 * a + 2 <? last then node P a else nth_error P (2 * a + 1)) = Some w).
    { subst v. destruct (Nat.ltb_spec (2 * a + 2) last).
      - destruct (vget_some P (2 * a + 2)) as [p2 E2]; [lia|].
        rewrite E1, E2. cbn. eexists; split; [reflexivity|].
        unfold node. unfold vget in *. now rewrite E1, E2.
      - exists p1. split; exact E1. }
    destruct Ev as (w & -> & Ew). cbn [bind]. rewrite vset_ok by lia. cbn [bind].
    destruct (IHfuel (vput P a w) (a + 1) last) as (P' & E & HL & HP').
    + rewrite vput_length; lia.
    + lia.
    + exists P'. split; [exact E|split; [now rewrite HL, vput_length|]].
      intros x. rewrite HP'. unfold node.
      destruct (Nat.leb_spec (a + 1) x) as [Hx|Hx]; cbn [andb].
      * rewrite (proj2 (Nat.leb_le a x)) by lia. cbn [andb].
        rewrite !vput_other by lia. reflexivity.
      * destruct (Nat.leb_spec a x) as [Hx2|Hx2]; cbn [andb].
        -- assert (x = a) by lia. subst x. rewrite (proj2 (Nat.ltb_lt _ _) H).
           rewrite vput_same by lia. symmetry. exact Ew.
        -- apply vput_other; lia.
Qed.

Lemma two_pow_pos n : 1 <= 2 ^ n.
Proof. induction n; simpl; lia. Qed.
Lemma pow_odd n : exists a, 2 ^ S n - 1 = 2 * a + 1 /\ a = 2 ^ n - 1.
Proof. exists (2 ^ n - 1). pose proof (two_pow_pos n). simpl. lia. Qed.

Lemma update_layer_ok P k n : S k < 64 -> 2 ^ S k - 1 + n <= length P ->
  exists P', update_layer A P (S k) n = Some P' /\ length P' = length P /\
    forall x, nth_error P' x =
      if (2 ^ k - 1 <=? x) && (2 * x + 1 <? 2 ^ S k - 1 + n)
      then (if 2 * x + 2 <? 2 ^ S k - 1 + n then node P x else nth_error P (2 * x + 1))
      else nth_error P x.
Proof.
  intros Hk Hn. unfold update_layer. rewrite size_pow2_ok by assumption. cbn [bind].
  destruct (pow_odd k) as (a & Ha & Ea). rewrite Ha in *. subst a.
  apply update_layer_loop_ok; lia.
Qed.

Lemma update_upper_ok : forall k P o, k < 63 -> 2 ^ S k - 1 <= o -> o <= length P ->
  nodes_ok P (2 ^ k - 1) o ->
  exists P', update_upper_layers A k P = Some P' /\ length P' = length P /\
    nodes_ok P' 0 o /\ forall i, 2 ^ k - 1 <= i -> nth_error P' i = nth_error P i.
Proof.
  induction k; intros P o Hk Ho Hl HP.
  - exists P. repeat split; auto.
  - cbn [update_upper_layers]. rewrite size_pow2_ok by lia. cbn [bind].
    pose proof (two_pow_pos k) as Hpos.
    assert (Hs : 2 ^ S k = 2 ^ k + 2 ^ k) by (simpl; lia).
    assert (Hss : 2 ^ S (S k) = 2 ^ S k + 2 ^ S k) by (simpl; lia).
    destruct (update_layer_ok P k (2 ^ S k)) as (P1 & E1 & L1 & H1); [lia|lia|].
    rewrite E1. cbn [bind].
    set (p := 2 ^ k) in *. set (pp := 2 ^ S k) in *.
    assert (Hhi : forall i, pp - 1 <= i -> nth_error P1 i = nth_error P i).
    { intros i Hi. rewrite H1. rewrite (proj2 (Nat.ltb_ge (2 * i + 1) _)) by lia.
      now rewrite andb_false_r. }
    destruct (IHk P1 o) as (P2 & E2 & L2 & H2 & H3).
    + lia.
    + lia.
    + lia.
    + intros x Hx. destruct (Nat.le_gt_cases (pp - 1) x) as [Hge|Hlt].
      * rewrite Hhi by lia. rewrite HP by lia. unfold node.
        rewrite !Hhi by lia. reflexivity.
      * rewrite H1. rewrite (proj2 (Nat.leb_le (p - 1) x)) by lia.
        rewrite (proj2 (Nat.ltb_lt (2 * x + 1) _)) by lia.
        rewrite (proj2 (Nat.ltb_lt (2 * x + 2) _)) by lia. cbn [andb].
        unfold node. rewrite !Hhi by lia. reflexivity.
    + exists P2. repeat split; auto; try lia.
      intros i Hi. rewrite H3 by lia. apply Hhi. lia.
Qed.

(** whatever the comparisons say, the search ends at a leaf position *)
Lemma ddist_loop_leaf d L : dd_offset d = 2 ^ L - 1 -> length (dd_P d) = 2 ^ S L - 1 ->
  forall h fuel l j u, l + h = L -> j < 2 ^ l -> h <= fuel ->
  exists k, ddist_loop A fuel d u (2 ^ l - 1 + j) = Some (dd_offset d + k) /\ k < 2 ^ L.
Proof.
  intros Ho Hl. induction h; intros fuel l j u Hlh Hj Hf.
  - assert (l = L) by lia. subst l. rewrite <- Ho. exists j. split; [|exact Hj].
    destruct fuel; cbn [ddist_loop]; rewrite (proj2 (Nat.ltb_ge _ _)) by lia; reflexivity.
  - destruct fuel as [|fuel]; [lia|]. cbn [ddist_loop].
    pose proof (two_pow_pos l) as Hp.
    assert (Hs : 2 ^ S l = 2 ^ l + 2 ^ l) by (simpl; lia).
    assert (Hlt : 2 ^ S l <= 2 ^ L) by (apply Nat.pow_le_mono_r; lia).
    rewrite (proj2 (Nat.ltb_lt _ _)) by lia.
    assert (E1 : 2 * (2 ^ l - 1 + j) + 1 = 2 ^ S l - 1 + 2 * j) by lia.
    assert (E2 : 2 * (2 ^ l - 1 + j) + 2 = 2 ^ S l - 1 + (2 * j + 1)) by lia.
    rewrite E1, E2.
    destruct (vget_some (dd_P d) (2 ^ S l - 1 + 2 * j)) as [p Ep].
    { rewrite Hl. simpl (2 ^ S L). lia. }
    rewrite Ep. destruct (ltb A u p); apply IHh; lia.
Qed.

(** what a constructed discrete_dist is *)
Definition tree_of (w : list (num A)) (d : ddist A) : Prop :=
  dd_N d = length w /\ dd_layers d = layers (length w) /\ dd_offset d = 2 ^ layers (length w) - 1 /\
  length (dd_P d) = dd_offset d + length w /\
  nodes_ok (dd_P d) 0 (dd_offset d) /\
  (forall i, nth_error (dd_P d) (dd_offset d + i) = nth_error w i).

Lemma ddist_make_ok w : (Z.of_nat (length w) <= 2 ^ 31)%Z ->
  exists d, ddist_make A w = Some d /\ tree_of w d.
Proof.
  intros Hw. unfold ddist_make. rewrite size_log2_ceil_ok by assumption. cbn [bind].
  pose proof (layers_bound _ Hw) as HL.
  rewrite size_pow2_ok by lia. cbn [bind].
  unfold update_all_layers. cbn [dd_layers dd_P dd_N dd_offset].
  unfold tree_of.
  pose proof (layers_spec (length w)) as Hspec.
  pose proof (layers_01 (length w)) as H01.
  destruct (layers (length w)) as [|k] eqn:Ek.
  - eexists; split; [reflexivity|]. cbn [dd_layers dd_P dd_N dd_offset].
    split; [reflexivity|]. split; [reflexivity|]. split; [reflexivity|]. cbn.
    split; [reflexivity|]. split; [intros x Hx; lia|]. reflexivity.
  - assert (2 <= length w). { destruct (Nat.le_gt_cases 2 (length w)); auto. specialize (H01 ltac:(lia)). lia. }
    destruct (Hspec H) as [[H1 H2] _]. clear Hspec H01.
    replace (S k - 1) with k in H1 by lia.
    pose proof (two_pow_pos k) as Hpos.
    assert (Hs : 2 ^ S k = 2 ^ k + 2 ^ k) by (simpl; lia).
    set (P0 := repeat (zero A) (2 ^ S k - 1) ++ w).
    assert (L0 : length P0 = 2 ^ S k - 1 + length w).
    { unfold P0. now rewrite app_length, repeat_length. }
    destruct (update_layer_ok P0 k (length w)) as (P1 & E1 & L1 & N1); [lia|lia|].
    rewrite E1. cbn [bind].
    assert (Hhi : forall i, 2 ^ S k - 1 <= i -> nth_error P1 i = nth_error P0 i).
    { intros i Hi. rewrite N1. destruct (Nat.ltb_spec (2 * i + 1) (2 ^ S k - 1 + length w)).
      - lia.
      - now rewrite andb_false_r. }
    destruct (update_upper_ok k P1 (2 ^ S k - 1)) as (P2 & E2 & L2 & N2 & K2).
    + lia.
    + lia.
    + lia.
    + intros x Hx. rewrite N1. rewrite (proj2 (Nat.leb_le (2 ^ k - 1) x)) by lia. cbn [andb].
      unfold node.
      rewrite !Hhi by lia.
      destruct (Nat.ltb_spec (2 * x + 1) (2 ^ S k - 1 + length w)) as [Ha|Ha].
      * destruct (vget_some P0 (2 * x + 1)) as [p1 F1]; [lia|]. unfold vget in F1. rewrite F1.
        destruct (Nat.ltb_spec (2 * x + 2) (2 ^ S k - 1 + length w)) as [Hb|Hb].
        -- reflexivity.
        -- rewrite (proj2 (nth_error_None P0 (2 * x + 2))) by lia. reflexivity.
      * rewrite (proj2 (nth_error_None P0 (2 * x + 1))) by lia.
        unfold P0. rewrite nth_error_app1 by (rewrite repeat_length; lia).
        rewrite nth_error_repeat by lia. reflexivity.
    + rewrite E2. eexists; split; [reflexivity|]. cbn [dd_layers dd_P dd_N dd_offset].
      split; [reflexivity|]. split; [reflexivity|]. split; [reflexivity|].
      split; [lia|]. split; [exact N2|].
      intros i. rewrite K2 by lia. rewrite Hhi by lia. unfold P0.
      rewrite nth_error_app2 by (rewrite repeat_length; lia).
      rewrite repeat_length. f_equal. lia.
Qed.

Lemma tree_of_unique w d d' : tree_of w d -> tree_of w d' -> d = d'.
Proof.
  intros (N & L & O & S & T & F) (N' & L' & O' & S' & T' & F').
  destruct d as [P n l o], d' as [P' n' l' o']. cbn [dd_layers dd_P dd_N dd_offset] in *.
  subst n l n' l'. rewrite <- O' in O. subst o'.
  f_equal.
  apply (tree_unique P P' o); try lia; auto.
  intros i Hi. replace i with (o + (i - o)) by lia. now rewrite F, F'.
Qed.

(** *** param(x, p) *)
Lemma parent_lt x : 0 < x -> (x - 1) / 2 < x.
Proof. intros H. apply Nat.div_lt_upper_bound; lia. Qed.
Lemma parent_spec x y : 0 < y -> (2 * x + 1 = y \/ 2 * x + 2 = y) <-> x = (y - 1) / 2.
Proof.
  intros H. pose proof (Nat.div_mod (y - 1) 2 ltac:(lia)).
  pose proof (Nat.mod_upper_bound (y - 1) 2 ltac:(lia)). lia.
Qed.

Lemma ddist_update_loop_ok o : forall fuel P y, o <= length P -> 0 < y -> y <= fuel ->
  (y - 1) / 2 < o -> 2 * ((y - 1) / 2) + 2 < length P ->
  (forall x, x < o -> x <> (y - 1) / 2 -> nth_error P x = node P x) ->
  exists P', ddist_update_loop A fuel P y = Some P' /\ length P' = length P /\
    nodes_ok P' 0 o /\ (forall i, o <= i -> nth_error P' i = nth_error P i).
Proof.
  induction fuel; intros P y Hl Hy Hf Hpo Hsib HP; [lia|].
  cbn [ddist_update_loop].
  pose proof (parent_lt y Hy) as Hlt.
  set (x := (y - 1) / 2) in *.
  destruct (vget_some P (2 * x + 1)) as [a Ea]; [lia|].
  destruct (vget_some P (2 * x + 2)) as [b Eb]; [lia|].
  rewrite Ea, Eb. cbn [bind]. rewrite vset_ok by lia. cbn [bind].
  set (P1 := vput P x (add A a b)).
  assert (L1 : length P1 = length P) by apply vput_length.
  assert (Hx : nth_error P1 x = node P1 x).
  { unfold P1, node. rewrite vput_same by lia. rewrite !vput_other by lia.
    unfold vget in *. now rewrite Ea, Eb. }
  assert (Hoth : forall z, z < o -> 2 * z + 1 <> x -> 2 * z + 2 <> x -> nth_error P1 z = node P1 z).
  { intros z Hz H1 H2. destruct (Nat.eq_dec z x) as [->|Hne]; [exact Hx|].
    unfold P1, node. rewrite !vput_other by lia. now apply HP. }
  destruct (Nat.ltb_spec 0 x) as [Hpos|Hz].
  - destruct (IHfuel P1 x) as (P2 & E2 & L2 & N2 & K2).
    + lia.
    + lia.
    + lia.
    + pose proof (parent_lt x Hpos). lia.
    + pose proof (parent_lt x Hpos) as Hpl. rewrite L1.
      assert (2 * ((x - 1) / 2) + 2 <= x + 1).
      { pose proof (Nat.div_mod (x - 1) 2 ltac:(lia)). lia. }
      lia.
    + intros z Hz Hne. apply Hoth; [exact Hz| |].
      * intros E. apply Hne. apply (parent_spec z x Hpos). lia.
      * intros E. apply Hne. apply (parent_spec z x Hpos). lia.
    + exists P2. split; [exact E2|]. split; [lia|]. split; [exact N2|].
      intros i Hi. rewrite K2 by lia. apply vput_other. lia.
  - exists P1. split; [reflexivity|]. split; [exact L1|]. split.
    + intros z Hz2. apply Hoth; lia.
    + intros i Hi. apply vput_other. lia.
Qed.

Lemma size_to_int_small z : (0 <= z < 2 ^ 31)%Z -> size_to_int z = z.
Proof. intros H. unfold size_to_int. rewrite Z.mod_small; lia. Qed.

Lemma layers_bound30 n : (Z.of_nat n <= 2 ^ 30)%Z -> layers n <= 30.
Proof.
  intros H. unfold layers.
  assert (Z.log2_up (Z.of_nat n) <= 30)%Z.
  { change 30%Z with (Z.log2_up (2 ^ 30)). now apply Z.log2_up_le_mono. }
  lia.
Qed.

Lemma offset_bound k n : k <= n -> (Z.of_nat (2 ^ k - 1) < 2 ^ Z.of_nat n)%Z.
Proof.
  intros H. pose proof (two_pow_pos k).
  rewrite Nat2Z.inj_sub by lia. rewrite Nat2Z.inj_pow.
  assert (Z.of_nat 2 ^ Z.of_nat k <= 2 ^ Z.of_nat n)%Z by (apply Z.pow_le_mono_r; lia). lia.
Qed.

Lemma ddist_update_ok w d x p : (Z.of_nat (length w) <= 2 ^ 30)%Z -> tree_of w d ->
  x < length w -> (Nat.Odd x \/ S x < length w \/ length w = 1) ->
  exists d', ddist_update A d (Z.of_nat x) p = Some d' /\ tree_of (vput w x p) d'.
Proof.
  intros Hw (N & L & O & S0 & T & F) Hx Hsib.
  destruct d as [P n l o]. cbn [dd_layers dd_P dd_N dd_offset] in *.
  pose proof (layers_bound30 _ Hw) as HL.
  pose proof (offset_bound _ 30 HL) as Hob. rewrite <- O in Hob. change (2 ^ Z.of_nat 30)%Z with 1073741824%Z in Hob.
  unfold ddist_update. cbn [dd_layers dd_P dd_N dd_offset].
  rewrite size_to_int_small by lia.
  unfold as_int, int_min, int_max.
  rewrite (proj2 (Z.leb_le (- 2 ^ 31) _)) by lia.
  rewrite (proj2 (Z.leb_le _ (2 ^ 31 - 1))) by lia. cbn [andb bind].
  rewrite (proj2 (Z.ltb_ge _ 0)) by lia.
  replace (Z.to_nat (Z.of_nat x + Z.of_nat o)) with (o + x) by lia.
  rewrite vset_ok by lia. cbn [bind].
  set (P1 := vput P (o + x) p).
  assert (L1 : length P1 = length P) by apply vput_length.
  assert (Fin : forall P', length P' = length P1 -> nodes_ok P' 0 o ->
     (forall i, o <= i -> nth_error P' i = nth_error P1 i) ->
     tree_of (vput w x p) (DDist P' n l o)).
  { intros P' H1 H2 H3. unfold tree_of. cbn [dd_layers dd_P dd_N dd_offset].
    rewrite vput_length. split; [exact N|]. split; [exact L|]. split; [exact O|].
    split; [lia|]. split; [exact H2|].
    intros i. rewrite H3 by lia. unfold P1. rewrite !vput_nth_error.
    replace (o + x =? o + i) with (x =? i).
    2:{ destruct (Nat.eqb_spec x i), (Nat.eqb_spec (o + x) (o + i)); auto; lia. }
    rewrite F. rewrite (proj2 (Nat.ltb_lt (o + x) _)) by lia.
    rewrite (proj2 (Nat.ltb_lt x _)) by lia. reflexivity. }
  destruct (Nat.ltb_spec 0 (o + x)) as [Hpos|Hz].
  - assert (Ho : 1 <= o /\ exists k, o = 2 * k + 1 /\ o < 2 * length w + 1).
    { pose proof (layers_spec (length w)) as Hs. rewrite O in *.
      destruct (Nat.le_gt_cases 2 (length w)) as [H2|H2].
      - destruct (Hs H2) as [[Ha Hb] Hc].
        destruct (layers (length w)) as [|k] eqn:Ek; [lia|].
        replace (Datatypes.S k - 1) with k in Ha by lia.
        destruct (pow_odd k) as (a & E1 & E2). pose proof (two_pow_pos k).
        split; [lia|]. exists a. split; [exact E1|]. lia.
      - rewrite layers_01 in * by lia. cbn in Hpos. lia. }
    destruct Ho as (Ho1 & k & Hodd & Hon).
    pose proof (parent_lt (o + x) Hpos) as Hpl.
    assert (Hpar : (o + x - 1) / 2 < o).
    { apply Nat.div_lt_upper_bound; [lia|].
      (* x < length w <= 2^L = o + 1 *)
      assert (length w <= o + 1).
      { rewrite O. pose proof (layers_spec (length w)) as Hs.
        destruct (Nat.le_gt_cases 2 (length w)) as [H2|H2].
        - destruct (Hs H2) as [[Ha Hb] Hc]. lia.
        - lia. }
      lia. }
    destruct (ddist_update_loop_ok o (o + x) P1 (o + x)) as (P2 & E2 & L2 & N2 & K2); try lia.
    + rewrite L1, S0. destruct Hsib as [[j Hj]|[Hs|Hs]].
      * subst x. replace (o + (2 * j + 1) - 1) with ((k + j) * 2 + 1) by lia.
        rewrite Nat.div_add_l by lia. cbn [Nat.div Nat.divmod fst]. cbn. lia.
      * pose proof (Nat.div_mod (o + x - 1) 2 ltac:(lia)). lia.
      * exfalso. rewrite Hs in O. cbn in O. lia.
    + intros z Hz Hne. unfold P1, node.
      assert (2 * z + 1 <> o + x /\ 2 * z + 2 <> o + x).
      { split; intros E; apply Hne; apply (parent_spec z (o + x) Hpos); lia. }
      rewrite !vput_other by lia. apply T. lia.
    + rewrite E2. cbn [option_map]. eexists; split; [reflexivity|]. apply Fin; auto.
  - cbn [option_map]. eexists; split; [reflexivity|]. apply Fin; auto.
    intros z Hz2. lia.
Qed.

(** without a sibling the update reads past the end of the vector *)
Lemma ddist_update_oob w d p : (Z.of_nat (length w) <= 2 ^ 30)%Z -> tree_of w d ->
  Nat.Odd (length w) -> 3 <= length w ->
  ddist_update A d (Z.of_nat (length w - 1)) p = None.
Proof.
  intros Hw (N & L & O & S0 & T & F) Hodd H3.
  destruct d as [P n l o]. cbn [dd_layers dd_P dd_N dd_offset] in *.
  pose proof (layers_bound30 _ Hw) as HL.
  pose proof (offset_bound _ 30 HL) as Hob. rewrite <- O in Hob. change (2 ^ Z.of_nat 30)%Z with 1073741824%Z in Hob.
  unfold ddist_update. cbn [dd_layers dd_P dd_N dd_offset].
  rewrite size_to_int_small by lia.
  unfold as_int, int_min, int_max.
  rewrite (proj2 (Z.leb_le (- 2 ^ 31) _)) by lia.
  rewrite (proj2 (Z.leb_le _ (2 ^ 31 - 1))) by lia. cbn [andb bind].
  rewrite (proj2 (Z.ltb_ge _ 0)) by lia.
  replace (Z.to_nat (Z.of_nat (length w - 1) + Z.of_nat o)) with (o + (length w - 1)) by lia.
  rewrite vset_ok by lia. cbn [bind].
  rewrite (proj2 (Nat.ltb_lt 0 _)) by lia.
  destruct (layers_spec (length w)) as [[Ha Hb] Hc]; [lia|].
  destruct (layers (length w)) as [|k] eqn:Ek; [lia|].
  destruct (pow_odd k) as (a & E1 & E2). rewrite E1 in O.
  destruct Hodd as [j Hj].
  set (P1 := vput _ _ _).
  assert (L1 : length P1 = length P) by apply vput_length.
  replace (o + (length w - 1)) with (S (2 * (a + j))) by lia.
  cbn [ddist_update_loop].
  replace ((S (2 * (a + j)) - 1) / 2) with (a + j).
  2:{ replace (S (2 * (a + j)) - 1) with ((a + j) * 2) by lia. symmetry. apply Nat.div_mul. lia. }
  destruct (vget_some P1 (2 * (a + j) + 1)) as [v Ev]; [lia|].
  rewrite Ev. cbn [bind]. unfold vget. rewrite (proj2 (nth_error_None P1 (2 * (a + j) + 2))) by lia.
  reflexivity.
Qed.

Lemma layers_pow L : layers (2 ^ L) = L.
Proof.
  unfold layers. rewrite Nat2Z.inj_pow. change (Z.of_nat 2) with 2%Z.
  rewrite Z.log2_up_pow2 by lia. lia.
Qed.

Lemma ddist_draw_pow w d u L : length w = 2 ^ L -> L <= 31 -> tree_of w d ->
  exists k, ddist_draw A d u = Some (Z.of_nat k) /\ k < length w.
Proof.
  intros Hw HL (N & Ll & O & S0 & T & F). rewrite Hw, layers_pow in *.
  pose proof (two_pow_pos L) as Hp.
  unfold ddist_draw. rewrite N. rewrite (proj2 (Nat.eqb_neq _ _)) by lia.
  assert (Hlen : length (dd_P d) = 2 ^ S L - 1) by (simpl (2 ^ S L); lia).
  destruct (vget_some (dd_P d) 0) as [W EW]; [simpl (2 ^ S L) in Hlen; lia|].
  rewrite EW. cbn [bind].
  destruct (ddist_loop_leaf d L O Hlen L (S (dd_offset d)) 0 0 (mul A u W)) as (k & Ek & Hk).
  - lia.
  - cbn. lia.
  - rewrite O. pose proof (Nat.pow_gt_lin_r 2 L). lia.
  - cbn [Nat.pow Nat.sub Nat.add] in Ek. rewrite Ek. cbn [bind]. exists k. split; [|exact Hk].
    f_equal. replace (dd_offset d + k - dd_offset d) with k by lia. apply size_to_int_small.
    assert (Z.of_nat (2 ^ L) <= 2 ^ 31)%Z.
    { rewrite Nat2Z.inj_pow. change (Z.of_nat 2) with 2%Z. apply Z.pow_le_mono_r; lia. }
    lia.
Qed.

End Discrete.
