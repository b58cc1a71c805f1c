(** discrete_dist in exact arithmetic. *)
From Coq Require Import ZArith List Bool Reals Lra Lia Arith.
From Flocq Require Import Core.Raux.
From Verif Require Import Base IntMathModel ArithModel DiscreteModel DiscreteProofs.
Import ListNotations.
Local Open Scope R_scope.

(** sum of the first i entries *)
Definition prefix (w : list R) (i : nat) : R := fold_right Rplus 0 (firstn i w).

Lemma prefix_S w i : prefix w (S i) = prefix w i + nth i w 0.
Proof.
  unfold prefix. revert i. induction w as [|a w IH]; intros i.
  - rewrite !firstn_nil. destruct i; cbn; lra.
  - destruct i.
    + cbn. lra.
    + change (firstn (S (S i)) (a :: w)) with (a :: firstn (S i) w).
      change (firstn (S i) (a :: w)) with (a :: firstn i w).
      cbn [fold_right nth]. rewrite IH. lra.
Qed.
Lemma prefix_0 w : prefix w 0 = 0.
Proof. reflexivity. Qed.
Lemma prefix_all w i : (length w <= i)%nat -> prefix w i = fold_right Rplus 0 w.
Proof. intros H. unfold prefix. now rewrite firstn_all2. Qed.
Lemma prefix_mono w i j : Forall (fun x => 0 <= x) w -> (i <= j)%nat -> prefix w i <= prefix w j.
Proof.
  intros Hw H. induction H; [lra|]. rewrite prefix_S.
  assert (0 <= nth m w 0); [|lra].
  destruct (Nat.lt_ge_cases m (length w)).
  - rewrite Forall_forall in Hw. apply Hw. now apply nth_In.
  - rewrite nth_overflow by lia. lra.
Qed.

Section Tree.
Variables (w : list R) (d : ddist real_arith).
Hypothesis HT : tree_of real_arith w d.
Let o := dd_offset d.
Let L := layers (length w).
Let P : list R := dd_P d.
Let e (x : nat) : R := nth x P 0.

Lemma leaf_eq i : nth_error P (o + i) = nth_error w i.
Proof. destruct HT as (_ & _ & _ & _ & _ & F). exact (F i). Qed.
Lemma node_eq x : (x < o)%nat -> nth_error P x =
  match nth_error P (2 * x + 1), nth_error P (2 * x + 2) with
  | Some a, Some b => Some (a + b)
  | Some a, None => Some a
  | None, _ => Some 0
  end.
Proof. intros Hx. destruct HT as (_ & _ & _ & _ & T & _). exact (T x (conj (Nat.le_0_l x) Hx)). Qed.

Lemma P_length : length P = (o + length w)%nat.
Proof. destruct HT as (_ & _ & _ & S0 & _). exact S0. Qed.
Lemma N_eq : dd_N d = length w.
Proof. destruct HT as (H & _). exact H. Qed.

Lemma e_nth x v : nth_error P x = Some v -> e x = v.
Proof. intros H. unfold e. now apply nth_error_nth. Qed.
Lemma e_none x : nth_error P x = None -> e x = 0.
Proof. intros H. unfold e. apply nth_overflow. now apply nth_error_None. Qed.

Lemma e_leaf i : e (o + i) = nth i w 0.
Proof.
  pose proof (leaf_eq i) as F. destruct (nth_error w i) eqn:E.
  - rewrite (e_nth _ _ F). symmetry. now apply nth_error_nth.
  - rewrite (e_none _ F). symmetry. apply nth_overflow. now apply nth_error_None.
Qed.
Lemma e_node x : (x < o)%nat -> e x = e (2 * x + 1) + e (2 * x + 2).
Proof.
  intros Hx. pose proof (node_eq x Hx) as T.
  destruct (nth_error P (2 * x + 1)) as [a|] eqn:E1.
  - rewrite (e_nth _ _ E1).
    destruct (nth_error P (2 * x + 2)) as [b|] eqn:E2.
    + rewrite (e_nth _ _ E2). exact (e_nth _ _ T).
    + rewrite (e_none _ E2). rewrite (e_nth _ _ T). lra.
  - assert (E2 : nth_error P (2 * x + 2) = None).
    { apply nth_error_None in E1. apply nth_error_None. lia. }
    rewrite (e_none _ E1), (e_none _ E2), (e_nth _ _ T). lra.
Qed.

Lemma o_eq : o = (2 ^ L - 1)%nat.
Proof. now destruct HT as (_ & _ & O & _). Qed.
Lemma N_le : (length w <= 2 ^ L)%nat.
Proof.
  unfold L. destruct (Nat.le_gt_cases 2 (length w)) as [H|H].
  - now destruct (layers_spec _ H) as [[_ H2] _].
  - pose proof (two_pow_pos (layers (length w))). lia.
Qed.

(** a node holds the sum of the leaves below it *)
Lemma node_sum : forall h l j, (l + h = L)%nat -> (j < 2 ^ l)%nat ->
  e (2 ^ l - 1 + j) = prefix w ((j + 1) * 2 ^ h) - prefix w (j * 2 ^ h).
Proof.
  induction h; intros l j Hl Hj.
  - assert (l = L) by lia. subst l. rewrite <- o_eq, e_leaf.
    change (2 ^ 0)%nat with 1%nat. rewrite !Nat.mul_1_r, Nat.add_1_r, prefix_S. lra.
  - pose proof (two_pow_pos l) as Hp.
    assert (Hs : (2 ^ S l = 2 ^ l + 2 ^ l)%nat) by (simpl; lia).
    assert (Hlt : (2 ^ S l <= 2 ^ L)%nat) by (apply Nat.pow_le_mono_r; lia).
    rewrite e_node by (rewrite o_eq; lia).
    replace (2 * (2 ^ l - 1 + j) + 1)%nat with (2 ^ S l - 1 + 2 * j)%nat by lia.
    replace (2 * (2 ^ l - 1 + j) + 2)%nat with (2 ^ S l - 1 + (2 * j + 1))%nat by lia.
    rewrite !IHh by lia.
    replace ((2 * j + 1) * 2 ^ h)%nat with ((2 * j + 1) * 2 ^ h)%nat by lia.
    replace (2 * j * 2 ^ h)%nat with (j * 2 ^ S h)%nat by (simpl; lia).
    replace ((2 * j + 1 + 1) * 2 ^ h)%nat with ((j + 1) * 2 ^ S h)%nat by (simpl; lia).
    lra.
Qed.

Lemma root_sum : e 0 = prefix w (length w).
Proof.
  pose proof (node_sum L 0 0) as H. cbn [Nat.pow Nat.sub Nat.add] in H.
  rewrite H by lia. rewrite Nat.mul_1_l, prefix_0, (prefix_all w (2 ^ L)) by apply N_le.
  rewrite prefix_all by lia. lra.
Qed.

Lemma ddist_loop_ok : forall h fuel l j u, (l + h = L)%nat -> (j < 2 ^ l)%nat -> (h <= fuel)%nat ->
  0 <= u < e (2 ^ l - 1 + j) ->
  exists k, ddist_loop real_arith fuel d u (2 ^ l - 1 + j) = Some (o + k)%nat /\ (k < length w)%nat /\
    prefix w k <= prefix w (j * 2 ^ h) + u < prefix w (S k).
Proof.
  induction h; intros fuel l j u Hl Hj Hf Hu.
  - assert (l = L) by lia. subst l. rewrite <- o_eq in *. exists j.
    split; [|split].
    + destruct fuel; cbn [ddist_loop]; fold o; rewrite (proj2 (Nat.ltb_ge _ _)) by lia; reflexivity.
    + destruct (Nat.lt_ge_cases j (length w)); auto.
      rewrite e_leaf, nth_overflow in Hu by lia. lra.
    + rewrite e_leaf in Hu. change (2 ^ 0)%nat with 1%nat. rewrite Nat.mul_1_r, prefix_S. lra.
  - destruct fuel as [|fuel]; [lia|]. cbn [ddist_loop]. fold o.
    pose proof (two_pow_pos l) as Hp.
    assert (Hs : (2 ^ S l = 2 ^ l + 2 ^ l)%nat) by (simpl; lia).
    assert (Hlt : (2 ^ S l <= 2 ^ L)%nat) by (apply Nat.pow_le_mono_r; lia).
    rewrite (proj2 (Nat.ltb_lt _ _)) by (rewrite o_eq; lia).
    rewrite e_node in Hu by (rewrite o_eq; lia).
    assert (E1 : (2 * (2 ^ l - 1 + j) + 1)%nat = (2 ^ S l - 1 + 2 * j)%nat) by lia.
    assert (E2 : (2 * (2 ^ l - 1 + j) + 2)%nat = (2 ^ S l - 1 + (2 * j + 1))%nat) by lia.
    rewrite E1, E2 in *.
    destruct (vget (dd_P d) (2 ^ S l - 1 + 2 * j)) as [p|] eqn:Ep.
    2:{ exfalso. unfold vget in Ep. change (nth_error P (2 ^ S l - 1 + 2 * j) = None) in Ep. rewrite (e_none _ Ep) in Hu.
        rewrite e_none in Hu; [lra|]. apply nth_error_None in Ep. apply nth_error_None. lia. }
    pose proof (e_nth _ _ Ep) as Ee.
    cbn [ltb sub real_arith].
    destruct (Rlt_bool_spec u p) as [Hup|Hup].
    + destruct (IHh fuel (S l) (2 * j)%nat u) as (k & Ek & Hk & Hk2); try lia; [lra|].
      exists k. split; [exact Ek|]. split; [exact Hk|].
      replace (2 * j * 2 ^ h)%nat with (j * 2 ^ S h)%nat in Hk2 by (simpl; lia). exact Hk2.
    + destruct (IHh fuel (S l) (2 * j + 1)%nat (u - p)) as (k & Ek & Hk & Hk2); try lia; [lra|].
      exists k. split; [exact Ek|]. split; [exact Hk|].
      pose proof (node_sum h (S l) (2 * j)) as Hn. rewrite Ee in Hn.
      rewrite Hn in Hk2 by lia.
      replace (2 * j * 2 ^ h)%nat with (j * 2 ^ S h)%nat in Hk2 by (simpl; lia).
      lra.
Qed.

Lemma L_le_o : (L <= o)%nat.
Proof. rewrite o_eq. pose proof (Nat.pow_gt_lin_r 2 L). lia. Qed.

Lemma P_root : (1 <= length w)%nat -> vget (dd_P d) 0 = Some (prefix w (length w)).
Proof.
  intros H. change (vget P 0 = Some (prefix w (length w))).
  destruct (vget_some P 0) as [v E]; [rewrite P_length; lia|].
  rewrite E. f_equal. rewrite <- root_sum. symmetry. now apply e_nth.
Qed.

Lemma ddist_draw_ok v : (Z.of_nat (length w) <= 2 ^ 31)%Z -> 0 < prefix w (length w) -> 0 <= v < 1 ->
  exists k, ddist_draw real_arith d v = Some (Z.of_nat k) /\ (k < length w)%nat /\
    prefix w k <= v * prefix w (length w) < prefix w (S k).
Proof.
  intros Hw HW Hv. unfold ddist_draw.
  pose proof N_eq as HN.
  assert (Hn1 : (1 <= length w)%nat). { destruct w; [cbn in HW; lra|cbn; lia]. }
  rewrite HN. rewrite (proj2 (Nat.eqb_neq _ _)) by lia.
  rewrite P_root by assumption. cbn [bind].
  set (u := mul real_arith v _).
  assert (Hu : 0 <= u < e 0).
  { rewrite root_sum. subst u. cbn [mul real_arith].
    split; [apply Rmult_le_pos; lra|].
    rewrite <- (Rmult_1_l (prefix w (length w))) at 2. apply Rmult_lt_compat_r; lra. }
  destruct (ddist_loop_ok L (S o) 0 0 u) as (k & Ek & Hk & Hk2).
  - lia.
  - cbn. lia.
  - pose proof L_le_o. lia.
  - exact Hu.
  - cbn [Nat.pow Nat.sub Nat.add] in Ek. fold o. rewrite Ek. cbn [bind].
    exists k. split; [|split; [exact Hk|]].
    + f_equal. replace (o + k - o)%nat with k by lia. apply size_to_int_small. lia.
    + rewrite Nat.mul_0_l, prefix_0 in Hk2. unfold u in Hk2. cbn [mul real_arith] in Hk2. lra.
Qed.

Lemma leaves_eq : skipn o P = w.
Proof.
  apply nth_error_ext. intros i. rewrite <- leaf_eq.
  generalize o as n. generalize P as l. induction l; intros [|n]; auto.
  - now destruct i.
  - apply IHl.
Qed.

Lemma accumulate_eq l : accumulate real_arith l = fold_right Rplus 0 l.
Proof.
  unfold accumulate. change (zero real_arith) with 0. rewrite <- fold_symmetric; try reflexivity.
  - intros; cbn; lra.
  - intros; cbn; lra.
Qed.

Lemma ddist_pdf_ok k : (Z.of_nat (length w) < 2 ^ 31)%Z -> (k < length w)%nat ->
  ddist_pdf real_arith d (Z.of_nat k) = Some (nth k w 0 / prefix w (length w)).
Proof.
  intros Hw Hk. unfold ddist_pdf.
  pose proof N_eq as HN.
  rewrite HN, size_to_int_small by lia.
  rewrite (proj2 (Z.ltb_ge _ 0)), (proj2 (Z.leb_gt _ _)) by lia. cbn [orb].
  rewrite Nat2Z.id. fold o. rewrite Nat.add_comm. unfold vget at 1.
  pose proof (leaf_eq k) as F. rewrite (nth_error_nth' w 0 Hk) in F. unfold P in F.
  replace (nth_error (dd_P d) (o + k)) with (Some (nth k w 0)) by (symmetry; exact F). cbn [bind].
  rewrite P_root by lia. reflexivity.
Qed.

Lemma ddist_cdf_ok k : (Z.of_nat (length w) < 2 ^ 31)%Z -> (k < length w)%nat ->
  ddist_cdf real_arith d (Z.of_nat k) = Some (prefix w (S k) / prefix w (length w)).
Proof.
  intros Hw Hk. unfold ddist_cdf.
  pose proof N_eq as HN.
  rewrite HN, size_to_int_small by lia.
  rewrite (proj2 (Z.ltb_ge _ 0)), (proj2 (Z.ltb_lt _ _)) by lia.
  rewrite Nat2Z.id. fold o.
  pose proof P_length as Hl. change (length (dd_P d)) with (length P).
  rewrite (proj2 (Nat.ltb_ge _ _)) by lia.
  rewrite P_root by lia. cbn [bind]. change (num real_arith) with R. fold P. rewrite leaves_eq, accumulate_eq.
  unfold prefix at 1. rewrite Nat.add_1_r. reflexivity.
Qed.
End Tree.
