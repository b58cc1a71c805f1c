(** The tree of discrete_dist in double. *)
From Coq Require Import ZArith Bool List Reals Lia Lra.
From Flocq Require Import Core Plus_error Relative IEEE754.BinarySingleNaN.
From Verif Require Import Base FloatFacts UniformModel UniformProofs IntMathModel ArithModel DiscreteModel DiscreteProofs DiscreteReal Prop_Discrete FloatDrawModel FloatDrawSpec FloatDrawProofs DiscDrawSpec DiscDrawProofs DiscDrawInt.
Import ListNotations.
Open Scope R_scope.

(** sums have a relative error, even when they are subnormal *)
Lemma rnd_plus x y : fmt x -> fmt y -> Rabs (rnd (x + y) - (x + y)) <= q / 2 * Rabs (x + y).
Proof.
  intros Fx Fy. destruct (FLT_plus_error_N_ex radix2 (-1074) 53 (fun z => negb (Z.even z)) x y Fx Fy) as (e & He & E). change (FLT_exp (-1074) 53) with (SpecFloat.fexp 53 1024) in E. fold ZnearestE in E. rewrite E.
  replace ((x + y) * (1 + e) - (x + y)) with (e * (x + y)) by ring. rewrite Rabs_mult. apply Rmult_le_compat_r; [apply Rabs_pos|]. apply Rle_trans with (1 := He).
  assert (U : u_ro radix2 53 = q / 2) by (unfold u_ro, q; cbn; lra). rewrite U. pose proof q_pos as Q. apply Rmult_le_reg_r with (1 + q / 2); [lra|]. unfold Rdiv at 1. rewrite Rmult_assoc, Rinv_l by lra. assert (0 <= q / 2 * (q / 2)) by (apply Rmult_le_pos; lra). lra.
Qed.

Section Tree.
Variables (w : list double) (d : ddist double_arith).
Hypothesis HT : tree_of double_arith w d.
Hypothesis HF : List.Forall (fun x : double => is_finite x = true /\ 0 <= B2R x) w.
Hypothesis HN : (1 <= Z.of_nat (length w) < 2 ^ 31)%Z.
Let o := dd_offset d.
Let L := layers (length w).
Let P : list double := dd_P d.
Let rw := map (B2R (prec := 53) (emax := 1024)) w.
Let W := prefix rw (length rw).
Hypothesis HW : bpow radix2 (-900) <= W <= big.
Let Sm (h j : nat) : R := prefix rw ((j + 1) * 2 ^ h) - prefix rw (j * 2 ^ h).

Lemma rw_pos : List.Forall (fun x => 0 <= x) rw.
Proof. unfold rw. apply Forall_forall. intros x Hx. apply in_map_iff in Hx. destruct Hx as (y & <- & Hy). rewrite Forall_forall in HF. exact (proj2 (HF y Hy)). Qed.
Lemma rw_len : length rw = length w. Proof. apply map_length. Qed.
Lemma W_pos : 0 < W. Proof. pose proof (bpow_gt_0 radix2 (-900)). lra. Qed.
Lemma pf_range i : 0 <= prefix rw i <= W.
Proof.
  split; [rewrite <- (prefix_0 rw); apply prefix_mono; [exact rw_pos|lia]|]. destruct (Nat.le_ge_cases i (length rw)) as [C|C]; [apply prefix_mono; [exact rw_pos|exact C]|].
  unfold W. rewrite (prefix_all rw i C), (prefix_all rw (length rw)) by lia. lra.
Qed.
Lemma Sm_range h j : 0 <= Sm h j <= W.
Proof.
  unfold Sm. pose proof (pf_range ((j + 1) * 2 ^ h)). pose proof (pf_range (j * 2 ^ h)). assert (prefix rw (j * 2 ^ h) <= prefix rw ((j + 1) * 2 ^ h)) by (apply prefix_mono; [exact rw_pos|apply Nat.mul_le_mono_r; lia]). lra.
Qed.
Lemma Sm_split h j : Sm (S h) j = Sm h (2 * j) + Sm h (2 * j + 1).
Proof.
  unfold Sm. replace (2 * j * 2 ^ h)%nat with (j * 2 ^ S h)%nat by (simpl; lia). replace ((2 * j + 1 + 1) * 2 ^ h)%nat with ((j + 1) * 2 ^ S h)%nat by (simpl; lia). lra.
Qed.
Lemma Sm_none h j : (length w <= j * 2 ^ h)%nat -> Sm h j = 0.
Proof. intros H. unfold Sm. rewrite !prefix_all; rewrite ?rw_len; try lia. lra. Qed.

Lemma tleaf i : nth_error P (o + i) = nth_error w i.
Proof. destruct HT as (_ & _ & _ & _ & _ & F). exact (F i). Qed.
Lemma tnode x : (x < o)%nat -> nth_error P x =
  match nth_error P (2 * x + 1), nth_error P (2 * x + 2) with
  | Some a, Some b => Some (fadd 53 1024 a b)
  | Some a, None => Some a
  | None, _ => Some (of_int 53 1024 0)
  end.
Proof. intros Hx. destruct HT as (_ & _ & _ & _ & T & _). exact (T x (conj (Nat.le_0_l x) Hx)). Qed.
Lemma to_eq : o = (2 ^ L - 1)%nat.
Proof. now destruct HT as (_ & _ & O & _). Qed.
Lemma tlen : length P = (o + length w)%nat.
Proof. destruct HT as (_ & _ & _ & S0 & _). exact S0. Qed.
Lemma tN_le : (length w <= 2 ^ L)%nat.
Proof.
  unfold L. destruct (Nat.le_gt_cases 2 (length w)) as [H|H].
  - now destruct (layers_spec _ H) as [[_ H2] _].
  - pose proof (two_pow_pos (layers (length w))). lia.
Qed.
Lemma L31 : (L <= 31)%nat. Proof. apply layers_bound. lia. Qed.

Definition good_node (h j : nat) (v : option double) : Prop :=
  match v with
  | Some a => is_finite a = true /\ 0 <= B2R a /\ Rabs (B2R a - Sm h j) <= INR h * q * Sm h j
  | None => (length w <= j * 2 ^ h)%nat
  end.
Lemma coef h : (h <= 31)%nat -> 0 <= INR h <= 31 /\ 0 <= INR h * q <= / 1000.
Proof.
  intros H. assert (A : 0 <= INR h <= 31) by (split; [apply pos_INR|rewrite INR_IZR_INZ; apply IZR_le; lia]). split; [exact A|]. pose proof q_pos as Q. split; [apply Rmult_le_pos; lra|].
  apply Rle_trans with (31 * / 1000000000000000); [apply Rmult_le_compat; lra|lra].
Qed.

Lemma node_ok : forall h l j, (l + h = L)%nat -> (j < 2 ^ l)%nat -> good_node h j (nth_error P (2 ^ l - 1 + j)).
Proof.
  pose proof q_pos as Q. pose proof L31 as LL.
  induction h as [|h IH]; intros l j Hl Hj.
  - assert (l = L) by lia. subst l. rewrite <- to_eq, tleaf. destruct (nth_error w j) as [a|] eqn:E.
    + cbn [good_node]. rewrite Forall_forall in HF. destruct (HF a (nth_error_In _ _ E)) as (F1 & F2). split; [exact F1|]. split; [exact F2|].
      assert (EA : Sm 0 j = B2R a). { unfold Sm. change (2 ^ 0)%nat with 1%nat. rewrite !Nat.mul_1_r, Nat.add_1_r, prefix_S. assert (N : nth j rw 0 = B2R a) by (apply nth_error_nth; unfold rw; apply map_nth_error; exact E). rewrite N. lra. }
      rewrite EA, (Rminus_diag_eq _ _ eq_refl), Rabs_R0. cbn [INR]. lra.
    + cbn [good_node]. apply nth_error_None in E. cbn [Nat.pow]. lia.
  - pose proof (two_pow_pos l) as Hp. assert (Hs : (2 ^ S l = 2 ^ l + 2 ^ l)%nat) by (simpl; lia). assert (Hlt : (2 ^ S l <= 2 ^ L)%nat) by (apply Nat.pow_le_mono_r; lia).
    rewrite tnode by (rewrite to_eq; lia).
    replace (2 * (2 ^ l - 1 + j) + 1)%nat with (2 ^ S l - 1 + 2 * j)%nat by lia. replace (2 * (2 ^ l - 1 + j) + 2)%nat with (2 ^ S l - 1 + (2 * j + 1))%nat by lia.
    pose proof (IH (S l) (2 * j)%nat ltac:(lia) ltac:(lia)) as A. pose proof (IH (S l) (2 * j + 1)%nat ltac:(lia) ltac:(lia)) as B.
    pose proof (Sm_split h j) as E. pose proof (Sm_range h (2 * j)) as RA. pose proof (Sm_range h (2 * j + 1)) as RB. pose proof (Sm_range (S h) j) as RS. destruct (coef h ltac:(lia)) as (C1 & C2).
    assert (SI : INR (S h) = INR h + 1) by apply S_INR.
    destruct (nth_error P (2 ^ S l - 1 + 2 * j)) as [a|].
    2: { cbn [good_node] in A. cbn [good_node]. assert (Z0 : Sm (S h) j = 0). { apply Sm_none. replace (j * 2 ^ S h)%nat with (2 * j * 2 ^ h)%nat by (simpl; lia). exact A. }
      destruct (of_int_ok 53 1024 H3_64 H70_64 0) as (O1 & O2); [apply inr; rewrite Rabs_R0; pose proof (bpow_gt_0 radix2 1000); unfold big; lra|]. rewrite round_0 in O2 by typeclasses eauto. split; [exact O1|]. rewrite O2, Z0. split; [lra|]. rewrite Rminus_0_r, Rabs_R0. lra. }
    destruct A as (A1 & A2 & A3). apply Rabs_le_inv in A3.
    assert (GA : INR h * q * Sm h (2 * j) <= / 1000 * Sm h (2 * j)) by (apply Rmult_le_compat_r; lra). assert (GB : INR h * q * Sm h (2 * j + 1) <= / 1000 * Sm h (2 * j + 1)) by (apply Rmult_le_compat_r; lra).
    assert (QS : 0 <= q * Sm (S h) j) by (apply Rmult_le_pos; lra).
    destruct (nth_error P (2 ^ S l - 1 + (2 * j + 1))) as [b|].
    + destruct B as (B1 & B2 & B3). apply Rabs_le_inv in B3. cbn [good_node].
      assert (AB : 0 <= B2R a + B2R b <= 2 * W) by lra.
      destruct (fadd_ok 53 1024 H3_64 H70_64 a b A1 B1) as (D1 & D2); [apply inr; rewrite Rabs_pos_eq by lra; pose proof (bpow_gt_0 radix2 1000); unfold big in *; lra|].
      split; [exact D1|]. rewrite D2. split; [apply (rnd_ge_0 53 1024 H3_64 H70_64); lra|].
      pose proof (rnd_plus (B2R a) (B2R b) (fmt_B2R 53 1024 H3_64 H70_64 a) (fmt_B2R 53 1024 H3_64 H70_64 b)) as R. rewrite (Rabs_pos_eq (B2R a + B2R b)) in R by lra. apply Rabs_le_inv in R.
      assert (R1 : q / 2 * (B2R a + B2R b) <= q / 2 * (2 * Sm (S h) j)) by (apply Rmult_le_compat_l; lra).
      rewrite SI. rewrite E in *. apply Rabs_le. lra.
    + cbn [good_node] in B. cbn [good_node]. assert (Z0 : Sm h (2 * j + 1) = 0) by (apply Sm_none; exact B). split; [exact A1|]. split; [exact A2|]. rewrite SI. rewrite E, Z0 in *. rewrite Rplus_0_r in *. apply Rabs_le. lra.
Qed.

Definition Er (h j : nat) : R := INR h * q * W + INR h * q * Sm h j.
Definition cap : R := 31 * q * W.

Lemma loop_ok : forall h fuel l j (u : double) F, (l + h = L)%nat -> (j < 2 ^ l)%nat -> (h <= fuel)%nat ->
  is_finite u = true -> 0 <= B2R u <= 2 * W -> 0 <= F -> B2R u <= Sm h j + F ->
  let res := ddist_loop double_arith fuel d u (2 ^ l - 1 + j) in
  (exists k, res = Some (o + k)%nat /\ (k < length w)%nat /\
     prefix rw k - prefix rw (j * 2 ^ h) - Er h j <= B2R u <= prefix rw (S k) - prefix rw (j * 2 ^ h) + Rmax F cap + 2 * Er h j) \/
  ((length w <= (j + 1) * 2 ^ h)%nat /\ (res = None \/ exists k, res = Some (o + k)%nat /\ (length w <= k < 2 ^ L)%nat) /\ Sm h j - Er h j <= B2R u).
Proof.
  pose proof q_pos as Q. pose proof L31 as LL. pose proof W_pos as WP. assert (QW : 0 < q * W) by (apply Rmult_lt_0_compat; lra).
  induction h as [|h IH]; intros fuel l j u F Hl Hj Hf Fu Hu HF0 HuF; cbv zeta.
  - assert (l = L) by lia. subst l. rewrite <- to_eq in *. assert (E : ddist_loop double_arith fuel d u (o + j) = Some (o + j)%nat) by (destruct fuel; cbn [ddist_loop]; fold o; rewrite (proj2 (Nat.ltb_ge _ _)) by lia; reflexivity).
    unfold Er. cbn [INR]. destruct (Nat.lt_ge_cases j (length w)) as [C|C].
    + left. exists j. split; [exact E|]. split; [exact C|]. unfold Sm in HuF. change (2 ^ 0)%nat with 1%nat in *. rewrite !Nat.mul_1_r, Nat.add_1_r in *. pose proof (Rmax_l F cap). lra.
    + right. assert (Z0 : Sm 0 j = 0) by (apply Sm_none; cbn [Nat.pow]; lia). split; [cbn [Nat.pow]; lia|]. split; [right; exists j; split; [exact E|split; [exact C|exact Hj]]|]. rewrite Z0. lra.
  - destruct fuel as [|fuel]; [lia|]. cbn [ddist_loop]. fold o. pose proof (two_pow_pos l) as Hp. assert (Hs : (2 ^ S l = 2 ^ l + 2 ^ l)%nat) by (simpl; lia). assert (Hlt : (2 ^ S l <= 2 ^ L)%nat) by (apply Nat.pow_le_mono_r; lia).
    rewrite (proj2 (Nat.ltb_lt _ _)) by (rewrite to_eq; lia).
    assert (E1 : (2 * (2 ^ l - 1 + j) + 1)%nat = (2 ^ S l - 1 + 2 * j)%nat) by lia. assert (E2 : (2 * (2 ^ l - 1 + j) + 2)%nat = (2 ^ S l - 1 + (2 * j + 1))%nat) by lia. rewrite E1, E2.
    pose proof (node_ok h (S l) (2 * j)%nat ltac:(lia) ltac:(lia)) as A. pose proof (Sm_split h j) as E. pose proof (Sm_range h (2 * j)) as RA. pose proof (Sm_range h (2 * j + 1)) as RB. pose proof (Sm_range (S h) j) as RS. destruct (coef h ltac:(lia)) as (C1 & C2).
    assert (PM : prefix rw ((2 * j + 1) * 2 ^ h) = prefix rw (j * 2 ^ S h) + Sm h (2 * j)). { unfold Sm. replace (2 * j * 2 ^ h)%nat with (j * 2 ^ S h)%nat by (simpl; lia). lra. }
    assert (PE : prefix rw (2 * j * 2 ^ h) = prefix rw (j * 2 ^ S h)) by (f_equal; simpl; lia).
    set (a := INR h) in *. assert (aQ : 0 <= a * q) by lra. assert (T1 : 0 <= a * q * Sm h (2 * j)) by (apply Rmult_le_pos; lra). assert (T2 : 0 <= a * q * Sm h (2 * j + 1)) by (apply Rmult_le_pos; lra).
    assert (T3 : a * q * Sm h (2 * j) <= 31 * q * W). { apply Rmult_le_compat; try lra. apply Rmult_le_compat_r; lra. }
    assert (T4 : 0 <= q * Sm h (2 * j)) by (apply Rmult_le_pos; lra). assert (T5 : 0 <= q * Sm h (2 * j + 1)) by (apply Rmult_le_pos; lra). assert (T6 : 0 <= a * q * W) by (apply Rmult_le_pos; lra).
    assert (EE : Er (S h) j = Er h (2 * j) + (a * q + q) * Sm h (2 * j + 1) + q * Sm h (2 * j) + q * W). { unfold Er. rewrite S_INR, E. fold a. ring. }
    assert (EE' : Er (S h) j = Er h (2 * j + 1) + (a * q * Sm h (2 * j) + q * W) + q * Sm h (2 * j) + q * Sm h (2 * j + 1)). { unfold Er. rewrite S_INR, E. fold a. ring. }
    change (good_node h (2 * j) (vget (dd_P d) (2 ^ S l - 1 + 2 * j))) in A. destruct (vget (dd_P d) (2 ^ S l - 1 + 2 * j)) as [p|].
    2: { cbn [good_node] in A. assert (Z1 : Sm h (2 * j) = 0) by (apply Sm_none; exact A). assert (Z2 : Sm h (2 * j + 1) = 0) by (apply Sm_none; apply Nat.le_trans with (1 := A); apply Nat.mul_le_mono_r; lia). right.
      split; [apply Nat.le_trans with (1 := A); simpl; lia|]. split; [left; reflexivity|]. rewrite E, Z1, Z2. unfold Er. rewrite S_INR. fold a. rewrite E, Z1, Z2. lra. }
    destruct A as (P1 & P2 & P3). fold a in P3. apply Rabs_le_inv in P3. change (ltb double_arith u p) with (Bltb (prec := 53) (emax := 1024) u p). rewrite (Bltb_correct 53 1024 u p Fu P1).
    destruct (Rlt_bool_spec (B2R u) (B2R p)) as [C|C].
    + destruct (IH fuel (S l) (2 * j)%nat u (a * q * Sm h (2 * j)) ltac:(lia) ltac:(lia) ltac:(lia) Fu Hu T1 ltac:(lra)) as [(k & K1 & K2 & K3)|(G1 & G2 & G3)].
      * left. exists k. split; [exact K1|]. split; [exact K2|]. rewrite PE in K3. rewrite Rmax_right in K3 by exact T3. pose proof (Rmax_r F cap). assert (0 <= (a * q + q) * Sm h (2 * j + 1)) by (apply Rmult_le_pos; lra). lra.
      * right. assert (Z2 : Sm h (2 * j + 1) = 0) by (apply Sm_none; exact G1). split; [apply Nat.le_trans with (1 := G1); simpl; lia|]. split; [exact G2|]. rewrite Z2 in *. lra.
    + set (v := sub double_arith u p). destruct (fsub_ok 53 1024 H3_64 H70_64 u p Fu P1) as (V1 & V2); [apply inr; rewrite Rabs_pos_eq by lra; pose proof (bpow_gt_0 radix2 1000); unfold big in *; lra|].
      change (fsub 53 1024 u p) with v in V1, V2.
      assert (V3 : Rabs (B2R v - (B2R u - B2R p)) <= q / 2 * (B2R u - B2R p)).
      { rewrite V2. pose proof (rnd_plus (B2R u) (- B2R p) (fmt_B2R 53 1024 H3_64 H70_64 u) (generic_format_opp _ _ _ (fmt_B2R 53 1024 H3_64 H70_64 p))) as R. change (B2R u + - B2R p) with (B2R u - B2R p) in R. rewrite (Rabs_pos_eq (B2R u - B2R p)) in R by lra. exact R. }
      assert (V4 : 0 <= B2R v <= 2 * W). { rewrite V2. split; [apply (rnd_ge_0 53 1024 H3_64 H70_64); lra|]. apply Rle_trans with (B2R u); [|lra]. apply (rnd_le_fmt 53 1024 H3_64 H70_64); [apply (fmt_B2R 53 1024 H3_64 H70_64)|lra]. }
      apply Rabs_le_inv in V3. assert (V5 : q / 2 * (B2R u - B2R p) <= q / 2 * (2 * W)) by (apply Rmult_le_compat_l; lra).
      set (ep := a * q * Sm h (2 * j) + q * W) in *. assert (V6 : - ep <= B2R v - (B2R u - Sm h (2 * j)) <= ep) by (unfold ep; lra). assert (ep0 : 0 <= ep) by (unfold ep; lra).
      destruct (IH fuel (S l) (2 * j + 1)%nat v (F + ep) ltac:(lia) ltac:(lia) ltac:(lia) V1 V4 ltac:(lra) ltac:(lra)) as [(k & K1 & K2 & K3)|(G1 & G2 & G3)].
      * left. exists k. split; [exact K1|]. split; [exact K2|]. rewrite PM in K3. assert (MX : Rmax (F + ep) cap <= Rmax F cap + ep). { apply Rmax_lub; [pose proof (Rmax_l F cap); lra|pose proof (Rmax_r F cap); lra]. } lra.
      * right. split; [apply Nat.le_trans with (1 := G1); simpl; lia|]. split; [exact G2|]. rewrite E. lra.
Qed.

Lemma Sm_root : Sm L 0 = W.
Proof. unfold Sm, W. rewrite Nat.mul_0_l, prefix_0. pose proof tN_le. rewrite (prefix_all rw ((0 + 1) * 2 ^ L)) by (rewrite rw_len; lia). rewrite (prefix_all rw (length rw)) by lia. lra. Qed.

Definition draws (U : double) (k : nat) : Prop := ddist_draw double_arith d U = Some (Z.of_nat k).
Lemma draw_ok (U : double) : is_finite U = true -> 0 <= B2R U <= 1 ->
  (exists k, draws U k /\ (k < length w)%nat /\ prefix rw k - 300 * q * W <= B2R U * W <= prefix rw (S k) + 300 * q * W) \/
  ((ddist_draw double_arith d U = None \/ exists k, draws U k /\ (length w <= k)%nat) /\ W - 300 * q * W <= B2R U * W).
Proof.
  intros FU HU. pose proof q_pos as Q. pose proof L31 as LL. pose proof W_pos as WP. assert (QW : 0 < q * W) by (apply Rmult_lt_0_compat; lra).
  assert (QW1 : q * W <= / 1000000000000000 * W) by (apply Rmult_le_compat_r; lra).
  pose proof (node_ok L 0 0 ltac:(lia) ltac:(cbn; lia)) as A. cbn [Nat.pow Nat.sub Nat.add] in A. unfold draws, ddist_draw.
  assert (EN : dd_N d = length w) by (destruct HT as (E & _); exact E). rewrite EN. rewrite (proj2 (Nat.eqb_neq _ _)) by lia.
  change (good_node L 0 (vget (dd_P d) 0)) in A. destruct (vget (dd_P d) 0) as [p|].
  2: { cbn [good_node] in A. lia. }
  destruct A as (P1 & P2 & P3). rewrite Sm_root in P3. destruct (coef L LL) as (C1 & C2). assert (C3 : INR L * q * W <= 31 * q * W) by (apply Rmult_le_compat_r; [lra|]; apply Rmult_le_compat_r; lra). apply Rabs_le_inv in P3. cbn [bind].
  set (u := mul double_arith U p). assert (UP : 0 <= B2R U * B2R p <= B2R p). { split; [apply Rmult_le_pos; lra|]. rewrite <- (Rmult_1_l (B2R p)) at 2. apply Rmult_le_compat_r; lra. }
  destruct (mul_ok U p FU P1) as (U1 & U2); [rewrite Rabs_pos_eq by lra; lra|]. change (dmul U p) with u in U1, U2.
  assert (U3 : 0 <= B2R u <= B2R p). { rewrite U2. split; [apply (rnd_ge_0 53 1024 H3_64 H70_64); lra|apply (rnd_le_fmt 53 1024 H3_64 H70_64); [apply (fmt_B2R 53 1024 H3_64 H70_64)|lra]]. }
  assert (TI : tiny <= q * W). { unfold tiny. apply Rle_trans with (q * bpow radix2 (-900)); [|apply Rmult_le_compat_l; lra]. replace q with (bpow radix2 (-52)) by (unfold q; cbn; lra). rewrite <- bpow_plus. apply bpow_le. lia. }
  assert (U4 : Rabs (B2R u - B2R U * W) <= 34 * q * W).
  { pose proof (rnd_err (B2R U * B2R p)) as R. rewrite <- U2, (Rabs_pos_eq (B2R U * B2R p)) in R by lra. apply Rabs_le_inv in R. assert (q / 2 * (B2R U * B2R p) <= q / 2 * (2 * W)) by (apply Rmult_le_compat_l; lra).
    assert (G : Rabs (B2R U * B2R p - B2R U * W) <= 31 * q * W). { rewrite <- Rmult_minus_distr_l, Rabs_mult, (Rabs_pos_eq (B2R U)) by lra. rewrite <- (Rmult_1_l (31 * q * W)). apply Rmult_le_compat; [lra|apply Rabs_pos|lra|apply Rabs_le; lra]. }
    apply Rabs_le_inv in G. apply Rabs_le. lra. }
  apply Rabs_le_inv in U4.
  assert (LO : (L <= S o)%nat) by (rewrite to_eq; pose proof (Nat.pow_gt_lin_r 2 L); lia).
  assert (B31 : (Z.of_nat (2 ^ L) <= 2 ^ 31)%Z). { rewrite Nat2Z.inj_pow. change (Z.of_nat 2) with 2%Z. apply Z.pow_le_mono_r; lia. }
  assert (ER : Er L 0 <= 62 * q * W). { unfold Er. rewrite Sm_root. lra. }
  pose proof (loop_ok L (S o) 0 0 u cap ltac:(lia) ltac:(cbn; lia) LO U1 ltac:(lra) ltac:(unfold cap; lra) ltac:(rewrite Sm_root; unfold cap; lra)) as R. cbv zeta in R. cbn [Nat.pow Nat.sub Nat.add] in R. fold o.
  rewrite Nat.mul_0_l, prefix_0, Sm_root in R. rewrite Rmax_left in R by lra. unfold cap in R.
  destruct R as [(k & K1 & K2 & K3)|(G1 & G2 & G3)].
  - left. exists k. rewrite K1. cbn [bind]. replace (o + k - o)%nat with k by lia. pose proof tN_le. rewrite size_to_int_small by lia. split; [reflexivity|]. split; [exact K2|]. lra.
  - right. split; [|lra]. destruct G2 as [->|(k & -> & Hk)]; [left; reflexivity|right]. exists k. cbn [bind]. replace (o + k - o)%nat with k by lia. rewrite size_to_int_small by lia. split; [reflexivity|lia].
Qed.
End Tree.
