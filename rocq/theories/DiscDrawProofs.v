(** Counting engine outputs. *)
From Coq Require Import ZArith Bool List Reals Lia Lra FinFun.
From Flocq Require Import Core IEEE754.BinarySingleNaN.
From Verif Require Import UniformModel FloatDrawLaw DiscDrawSpec.
Import ListNotations.
Open Scope R_scope.

Lemma count_pred (P : Z -> bool) D T E : (0 <= D)%Z -> 0 <= E -> 0 <= T <= 1 ->
  (forall r, (0 <= r <= D)%Z -> P r = true -> IZR r / (IZR D + 1) <= T + E) ->
  (forall r, (0 <= r <= D)%Z -> P r = false -> T - E <= IZR r / (IZR D + 1)) ->
  probability (fun r => P r = true) D T (E + / (IZR D + 1)).
Proof.
  intros HD HE HT Hy Hn. set (l := filter P (zseq (D + 1))). assert (D0 : 0 <= IZR D) by (apply IZR_le; lia). assert (I0 : 0 < / (IZR D + 1)) by (apply Rinv_0_lt_compat; lra).
  assert (IN : forall r, In r l <-> (0 <= r <= D)%Z /\ P r = true). { intros r. unfold l. rewrite filter_In, zseq_in. split; intros (A & C); split; try lia; assumption. }
  assert (ND : NoDup l) by (apply NoDup_filter, zseq_nodup). exists l. split; [exact ND|]. split; [exact IN|].
  set (n := IZR D + 1) in *. assert (N1 : 1 <= n) by (unfold n; lra).
  assert (U : INR (length l) <= n * (T + E) + 1).
  { set (c := n * (T + E)). assert (C0 : 0 <= c) by (apply Rmult_le_pos; lra). assert (L : (length l <= length (zseq (Zfloor c + 1)))%nat).
    { apply NoDup_incl_length; [exact ND|]. intros r Hr. apply IN in Hr. destruct Hr as (Hr & Hv). apply zseq_in. split; [lia|]. assert (ZF : (r <= Zfloor c)%Z); [|lia]. apply Zfloor_lub. pose proof (Hy r Hr Hv) as H.
      apply Rmult_le_reg_r with (/ n); [exact I0|]. unfold c. replace (n * (T + E) * / n) with (T + E) by (field; lra). exact H. }
    rewrite zseq_length in L. apply le_INR in L. pose proof (Zfloor_lub 0 c C0) as Z0. rewrite (INR_IZR_INZ (Z.to_nat _)), Z2Nat.id, plus_IZR in L by lia. pose proof (Zfloor_lb c). lra. }
  assert (Lo : n * (T - E) <= INR (length l)).
  { set (a := n * (T - E)). destruct (Rle_dec a 0) as [A|A]; [pose proof (pos_INR (length l)); lra|]. assert (AD : (Zceil a <= D + 1)%Z). { apply Zceil_glb. rewrite plus_IZR. fold n. unfold a. replace n with (n * 1) at 2 by ring. apply Rmult_le_compat_l; lra. }
    assert (L : (length (zseq (Zceil a)) <= length l)%nat).
    { apply NoDup_incl_length; [apply zseq_nodup|]. intros r Hr. apply zseq_in in Hr. apply IN. split; [lia|]. destruct (P r) eqn:Y; [reflexivity|exfalso]. assert (Hr' : (0 <= r <= D)%Z) by lia. pose proof (Hn r Hr' Y) as G.
      assert (a <= IZR r). { unfold a. apply Rmult_le_reg_r with (/ n); [exact I0|]. replace (n * (T - E) * / n) with (T - E) by (field; lra). exact G. } pose proof (Zceil_glb r a H). lia. }
    rewrite zseq_length in L. apply le_INR in L. assert (0 <= Zceil a)%Z. { apply le_IZR. pose proof (Zceil_ub a). lra. } rewrite (INR_IZR_INZ (Z.to_nat _)), Z2Nat.id in L by lia. pose proof (Zceil_ub a). lra. }
  apply Rabs_le. unfold Rdiv. split.
  - assert (n * (T - E) * / n <= INR (length l) * / n) by (apply Rmult_le_compat_r; lra). replace (n * (T - E) * / n) with (T - E) in H by (field; lra). lra.
  - assert (INR (length l) * / n <= (n * (T + E) + 1) * / n) by (apply Rmult_le_compat_r; lra). replace ((n * (T + E) + 1) * / n) with (T + E + / n) in H by (field; lra). lra.
Qed.

Lemma prob_ext (A B : Z -> Prop) D p e : (forall r, (0 <= r <= D)%Z -> A r <-> B r) -> probability A D p e -> probability B D p e.
Proof. intros H (l & L1 & L2 & L3). exists l. split; [exact L1|]. split; [|exact L3]. intros r. rewrite L2. split; intros (X & Y); (split; [exact X|]); apply (H r X); exact Y. Qed.
Lemma prob_weaken A D p p' e e' : Rabs (p - p') + e <= e' -> probability A D p e -> probability A D p' e'.
Proof. intros H (l & L1 & L2 & L3). exists l. split; [exact L1|]. split; [exact L2|]. replace (INR (length l) / (IZR D + 1) - p') with ((INR (length l) / (IZR D + 1) - p) + (p - p')) by ring. apply Rle_trans with (1 := Rabs_triang _ _). lra. Qed.
Lemma filter_split {T} (f : T -> bool) l : (length (filter f l) + length (filter (fun x => negb (f x)) l) = length l)%nat.
Proof. induction l as [|a l IH]; [reflexivity|]. cbn. destruct (f a); cbn; lia. Qed.
Lemma prob_diff (A B : Z -> Prop) D p p' e e' : (0 <= D)%Z -> (forall r, (0 <= r <= D)%Z -> A r -> B r) -> probability A D p e -> probability B D p' e' ->
  probability (fun r => B r /\ ~ A r) D (p' - p) (e + e').
Proof.
  intros HD S (l & L1 & L2 & L3) (m & M1 & M2 & M3). set (f := fun r => if in_dec Z.eq_dec r l then true else false).
  exists (filter (fun r => negb (f r)) m). split; [apply NoDup_filter, M1|]. split.
  - intros r. rewrite filter_In, M2. unfold f. destruct (in_dec Z.eq_dec r l) as [I|I]; split.
    + intros (_ & C). discriminate C.
    + intros (R & X & Y). exfalso. apply Y. apply L2 in I. tauto.
    + intros ((R & X) & _). split; [exact R|]. split; [exact X|]. intros Y. apply I. apply L2. auto.
    + intros (R & X & Y). split; [split; assumption|reflexivity].
  - assert (E : length (filter f m) = length l).
    { apply Nat.le_antisymm; apply NoDup_incl_length; try (apply NoDup_filter, M1); try exact L1.
      - intros r Hr. apply filter_In in Hr. destruct Hr as (_ & C). unfold f in C. destruct (in_dec Z.eq_dec r l); [assumption|discriminate C].
      - intros r Hr. apply filter_In. split; [|unfold f; destruct (in_dec Z.eq_dec r l); [reflexivity|contradiction]]. apply M2. apply L2 in Hr. split; [tauto|]. apply S; tauto. }
    pose proof (filter_split f m) as Q. rewrite E in Q. apply (f_equal INR) in Q. rewrite plus_INR in Q.
    assert (I0 : 0 < / (IZR D + 1)) by (apply Rinv_0_lt_compat; assert (0 <= IZR D) by (apply IZR_le; lia); lra).
    apply Rabs_le_inv in L3. apply Rabs_le_inv in M3. apply Rabs_le. unfold Rdiv in *. replace (INR (length (filter (fun x : Z => negb (f x)) m))) with (INR (length m) - INR (length l)) by lra. lra.
Qed.
