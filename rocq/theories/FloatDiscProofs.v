(** Sums and quotients of weights in double. *)
From Coq Require Import ZArith Bool List Reals Lia Lra.
From Flocq Require Import Core IEEE754.BinarySingleNaN.
From Verif Require Import Base FloatFacts UniformModel UniformProofs IntMathModel ArithModel DiscreteModel DiscreteProofs DiscreteReal Prop_Discrete FloatDrawModel FloatDrawSpec FloatDrawProofs DiscDrawSpec DiscDrawProofs DiscDrawInt DiscDrawTree.
Import ListNotations.
Open Scope R_scope.

Lemma sum_pos (l : list double) : List.Forall (fun x : double => is_finite x = true /\ 0 <= B2R x) l -> 0 <= whole (map B2R l).
Proof. induction 1 as [|x l H _ IH]; cbn; [lra|]. unfold whole in IH. lra. Qed.
Lemma acc_ok : forall (l : list double) (s : double) (S n : R), List.Forall (fun x : double => is_finite x = true /\ 0 <= B2R x) l ->
  is_finite s = true -> 0 <= B2R s -> 0 <= S -> 0 <= n -> n + INR (length l) <= 2 ^ 31 -> Rabs (B2R s - S) <= n * q * S -> S + whole (map B2R l) <= big ->
  let r := fold_left (fadd 53 1024) l s in is_finite r = true /\ 0 <= B2R r /\ Rabs (B2R r - (S + whole (map B2R l))) <= (n + INR (length l)) * q * (S + whole (map B2R l)).
Proof.
  pose proof q_pos as Q.
  induction l as [|x l IH]; intros s S n HF Fs Ps PS Pn Hn HE HB; cbv zeta.
  - cbn [fold_left map length INR] in *. unfold whole in *. cbn [fold_right] in *. rewrite !Rplus_0_r. auto.
  - inversion HF as [|x' l' (Fx & Px) HF' EE]; subst. cbn [fold_left map] in *. replace (whole (B2R x :: map B2R l)) with (B2R x + whole (map B2R l)) in * by reflexivity.
    change (length (x :: l)) with (Datatypes.S (length l)) in *. rewrite S_INR in *. pose proof (pos_INR (length l)) as PL. pose proof (sum_pos l HF') as PP.
    assert (NQ : n * q <= / 1000). { apply Rle_trans with (2 ^ 31 * / 1000000000000000); [apply Rmult_le_compat; lra|lra]. }
    assert (NS : n * q * S <= / 1000 * S) by (apply Rmult_le_compat_r; lra). apply Rabs_le_inv in HE.
    destruct (fadd_ok 53 1024 H3_64 H70_64 s x Fs Fx) as (D1 & D2); [apply inr; rewrite Rabs_pos_eq by lra; pose proof (bpow_gt_0 radix2 1000); unfold big in *; lra|].
    pose proof (rnd_plus (B2R s) (B2R x) (fmt_B2R 53 1024 H3_64 H70_64 s) (fmt_B2R 53 1024 H3_64 H70_64 x)) as R. rewrite (Rabs_pos_eq (B2R s + B2R x)) in R by lra. rewrite <- D2 in R. apply Rabs_le_inv in R.
    assert (R1 : q / 2 * (B2R s + B2R x) <= q / 2 * (2 * (S + B2R x))) by (apply Rmult_le_compat_l; lra).
    assert (NX : 0 <= n * q * B2R x) by (apply Rmult_le_pos; [apply Rmult_le_pos; lra|lra]).
    destruct (IH (fadd 53 1024 s x) (S + B2R x) (n + 1) HF' D1 ltac:(rewrite D2; apply (rnd_ge_0 53 1024 H3_64 H70_64); lra) ltac:(lra) ltac:(lra) ltac:(lra)) as (G1 & G2 & G3); [apply Rabs_le; lra|lra|].
    split; [exact G1|]. split; [exact G2|]. replace (S + (B2R x + whole (map B2R l))) with (S + B2R x + whole (map B2R l)) by ring. replace (n + (INR (length l) + 1)) with (n + 1 + INR (length l)) by ring. exact G3.
Qed.

Lemma quot_ok (a A r W n : R) : 0 <= A <= W -> 0 < W -> 0 <= n <= 2 ^ 31 -> Rabs (a - A) <= n * q * A -> Rabs (r - W) <= 31 * q * W ->
  0 < r /\ 0 <= a / r <= 2 /\ Rabs (rnd (a / r) - A / W) <= (n + 34) * q * (A / W) + tiny.
Proof.
  intros HA HW Hn Ha Hr. pose proof q_pos as Q. set (c := A / W). assert (EA : A = c * W) by (unfold c; field; lra). assert (Hc : 0 <= c <= 1). { unfold c. split; apply Rmult_le_reg_r with W; try lra; replace (A / W * W) with A by (field; lra); lra. }
  assert (NQ : 0 <= n * q <= / 100000). { split; [apply Rmult_le_pos; lra|]. apply Rle_trans with (2 ^ 31 * / 1000000000000000); [apply Rmult_le_compat; lra|lra]. }
  assert (QW : 31 * q * W <= / 100000 * W) by (apply Rmult_le_compat_r; lra). apply Rabs_le_inv in Ha. apply Rabs_le_inv in Hr. assert (RP : 0 < r) by lra. split; [exact RP|].
  assert (NA : n * q * A <= / 100000 * A) by (apply Rmult_le_compat_r; lra).
  set (t := a / r). assert (Et : a = t * r) by (unfold t; field; lra). assert (Pt : 0 <= t) by (unfold t; apply Rmult_le_pos; [lra|left; apply Rinv_0_lt_compat; lra]).
  assert (U : t <= c * (1 + (n + 33) * q)).
  { apply Rmult_le_reg_r with r; [exact RP|]. rewrite <- Et. apply Rle_trans with (A * (1 + n * q)); [lra|]. rewrite EA. apply Rle_trans with (c * (1 + (n + 33) * q) * (W * (1 - 31 * q))).
    - replace (c * W * (1 + n * q)) with (c * W * (1 + n * q) + 0) by ring. replace (c * (1 + (n + 33) * q) * (W * (1 - 31 * q))) with (c * W * (1 + n * q) + c * W * (q * (2 - 31 * (n * q) - 31 * 33 * q))) by ring. apply Rplus_le_compat_l. apply Rmult_le_pos; [apply Rmult_le_pos; lra|]. apply Rmult_le_pos; lra.
    - apply Rmult_le_compat_l; [apply Rmult_le_pos; [lra|]|lra]. rewrite Rmult_plus_distr_r. lra. }
  assert (B : c * (1 - (n + 33) * q) <= t).
  { apply Rmult_le_reg_r with r; [exact RP|]. rewrite <- Et. apply Rle_trans with (A * (1 - n * q)); [|lra]. rewrite EA. apply Rle_trans with (c * (1 - (n + 33) * q) * (W * (1 + 31 * q))).
    - apply Rmult_le_compat_l; [apply Rmult_le_pos; [lra|]|lra]. rewrite Rmult_plus_distr_r. lra.
    - replace (c * (1 - (n + 33) * q) * (W * (1 + 31 * q))) with (c * W * (1 - n * q) - c * W * (q * (2 + 31 * (n * q) + 31 * 33 * q))) by ring. assert (0 <= c * W * (q * (2 + 31 * (n * q) + 31 * 33 * q))) by (apply Rmult_le_pos; [apply Rmult_le_pos; lra|apply Rmult_le_pos; lra]). lra. }
  assert (NC : (n + 33) * q * c <= 1 * c) by (apply Rmult_le_compat_r; [lra|rewrite Rmult_plus_distr_r; lra]).
  split; [lra|]. pose proof (rnd_err t) as R. rewrite (Rabs_pos_eq t) in R by exact Pt. assert (T2 : q / 2 * t <= q / 2 * (2 * c)) by (apply Rmult_le_compat_l; lra). apply Rabs_le_inv in R. apply Rabs_le. lra.
Qed.

Section Tree.
Variables (w : list double) (d : ddist double_arith).
Hypothesis HT : tree_of double_arith w d.
Hypothesis HF : List.Forall (fun x : double => is_finite x = true /\ 0 <= B2R x) w.
Hypothesis HN : (1 <= Z.of_nat (length w) < 2 ^ 31)%Z.
Let rw := map (B2R (prec := 53) (emax := 1024)) w.
Hypothesis HW : bpow radix2 (-900) <= whole rw <= big.
Lemma whole_prefix : whole rw = prefix rw (length rw).
Proof. unfold whole, prefix. rewrite firstn_all. reflexivity. Qed.
Lemma root_ok : exists r : double, vget (dd_P d) 0 = Some r /\ is_finite r = true /\ Rabs (B2R r - whole rw) <= 31 * q * whole rw.
Proof.
  pose proof HW as HW'. rewrite whole_prefix in HW'. pose proof (node_ok w d HT HF HN HW' (layers (length w)) 0 0 ltac:(lia) ltac:(cbn; lia)) as A. cbn [Nat.pow Nat.sub Nat.add] in A. change (nth_error (dd_P d) 0) with (vget (dd_P d) 0) in A. destruct (vget (dd_P d) 0) as [r|].
  2: { cbn [good_node] in A. lia. }
  destruct A as (A1 & A2 & A3). exists r. split; [reflexivity|]. split; [exact A1|]. pose proof (Sm_root w d) as SR. cbv beta zeta in SR, A3. fold rw in SR, A3. rewrite SR in A3. rewrite whole_prefix. pose proof (coef w d (layers (length w)) (L31 w d HN)) as (C1 & C2). pose proof (bpow_gt_0 radix2 (-900)). pose proof q_pos as Q. apply Rle_trans with (1 := A3). apply Rmult_le_compat_r; [lra|]. apply Rmult_le_compat_r; lra.
Qed.
Lemma firstn_forall k : List.Forall (fun x : double => is_finite x = true /\ 0 <= B2R x) (firstn k w).
Proof. apply Forall_forall. intros x Hx. rewrite Forall_forall in HF. apply HF. rewrite <- (firstn_skipn k w). apply in_or_app. left. exact Hx. Qed.
Lemma leaves : skipn (dd_offset d) (dd_P d) = w.
Proof.
  destruct HT as (_ & _ & _ & LE & _ & F). apply nth_error_ext. intros i. rewrite <- F. clear. generalize (dd_offset d) as o. intros o. revert i. generalize (dd_P d) as P. change (num double_arith) with double. induction o as [|o IH]; intros P i; [reflexivity|]. destruct P as [|x P]; cbn [skipn]; [destruct i; reflexivity|]. apply IH.
Qed.
End Tree.
