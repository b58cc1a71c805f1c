(** Property C93: the periods of the lagged Fibonacci engines with lags up to 607. *)
From Coq Require Import ZArith NArith Znumtheory List Bool Arith Lia.
From Verif Require Import Base BaseFacts Cong Spec SpecFacts MinstdModel LagfibModel LagfibProofs Prop_Lagfib PolyAct Prop_Period Gf2Act LucasLehmer SparseAct PlusLift LagCerts.
Import ListNotations.
Open Scope Z_scope.

(** ** The sequence of an engine *)
Definition bs_of (lags : list Z) : list nat := rev (map (fun l => Z.to_nat (last lags 0 - l)) lags).

Lemma xsum_app l l' : xsum (l ++ l') = Z.lxor (xsum l) (xsum l').
Proof. induction l as [|a l IH]; [reflexivity|]. cbn [app]. unfold xsum in *. cbn [fold_right]. rewrite IH. symmetry. apply Z.lxor_assoc. Qed.
Lemma xsum_rev l : xsum (rev l) = xsum l.
Proof.
  induction l as [|a l IH]; [reflexivity|]. cbn [rev]. rewrite xsum_app, IH. change (xsum [a]) with (Z.lxor a 0). rewrite Z.lxor_0_r. apply Z.lxor_comm.
Qed.
Lemma sh_rev l s i : sh (rev l) s i = sh l s i.
Proof. induction l as [|a l IH]; [reflexivity|]. cbn [rev]. rewrite sh_app, IH, !sh_cons. change (sh [] s i) with 0. ring. Qed.

Section Engine.
Variables (c : lf_class) (S : lf).
Hypothesis Hc : class_ok c.
Hypothesis V : valid c S.
Notation B := (lf_last c).
Notation k := (Z.to_nat B).
Notation bs := (bs_of (lf_lags c)).
Notation T := (2 ^ B - 1).

Lemma B3 : 3 <= B. Proof. apply (B_pos c Hc). Qed.
Lemma T_big : B <= T.
Proof. assert (H := Z.pow_gt_lin_r 2 B ltac:(lia)). assert (H3 := B3). lia. Qed.
Definition wseq (x : Z -> Z) (i : nat) : Z := x (Z.of_nat i + 1 - B).

Lemma taps_xor x i : xsum (map (fun b => wseq x (i + b)) bs) = fold_right Z.lxor 0 (map (fun l => x (Z.of_nat i + 1 - l)) (lf_lags c)).
Proof.
  unfold bs_of. rewrite <- (map_rev (fun l => Z.to_nat (last (lf_lags c) 0 - l))), map_map, (map_rev (fun l => _)), xsum_rev. unfold xsum. f_equal.
  apply map_ext_in. intros l Hl. assert (R := lag_range c Hc l Hl). unfold wseq. change (last (lf_lags c) 0) with B. f_equal. lia.
Qed.
Lemma taps_plus x i : sh bs (wseq x) i = fold_right Z.add 0 (map (fun l => x (Z.of_nat i + 1 - l)) (lf_lags c)).
Proof.
  unfold bs_of. rewrite sh_rev. change (last (lf_lags c) 0) with B.
  assert (G : forall ls, incl ls (lf_lags c) -> sh (map (fun l => Z.to_nat (B - l)) ls) (wseq x) i = fold_right Z.add 0 (map (fun l => x (Z.of_nat i + 1 - l)) ls)).
  { induction ls as [|l ls IH]; intros I; [reflexivity|]. cbn [map fold_right]. rewrite sh_cons, IH by (intros y Hy; apply I; right; exact Hy). f_equal.
    assert (R := lag_range c Hc l (I l (or_introl eq_refl))). unfold wseq. f_equal. lia. }
  apply G, incl_refl.
Qed.
Lemma wseq_next x i : wseq x (i + k) = x (Z.of_nat i + 1).
Proof. assert (H := B3). unfold wseq. f_equal. lia. Qed.
Lemma wseq_first x i : 0 <= i < B -> wseq x (Z.to_nat (B - 1 - i)) = x (- i).
Proof. intros H. unfold wseq. f_equal. lia. Qed.
Lemma draws_shift x n : (forall j, draw (lf_next c) (Some S) j = Some (x (Z.of_nat j + 1))) ->
  (forall i, draw (lf_next c) (Some S) (i + n) = draw (lf_next c) (Some S) i) <-> (forall i, wseq x (i + n + k) = wseq x (i + k)).
Proof.
  intros D. split; intros H i.
  - rewrite !wseq_next. specialize (H i). rewrite !D in H. congruence.
  - specialize (H i). rewrite !wseq_next in H. rewrite !D. congruence.
Qed.

Theorem xor_period : lf_oper c = OpXor -> exact k bs T -> (exists i, 0 <= i < B /\ recent S i <> 0) -> draw_period (lf_next c) (Some S) T.
Proof.
  intros Op Ex (i0 & Hi0 & NZ). assert (H3 := B3). assert (HT := T_big). destruct (C25_stream c S Hc V) as (x & W & F & _ & D).
  assert (R : srec k bs (wseq x)).
  { intros i. rewrite wseq_next, taps_xor. rewrite (F (Z.of_nat i + 1)) by lia. unfold fib_term. cbv zeta. rewrite Op. reflexivity. }
  intros n. rewrite (draws_shift x n D).
  assert (X := proj2 Ex (fun i => wseq x (i + k)) (srec_shift k bs (wseq x) k R)).
  assert (NZu : exists i, wseq x (i + k) <> 0).
  { destruct (proj1 Ex (wseq x) R) as (_ & P). specialize (P (Z.to_nat (B - 1 - i0))). exists (Z.to_nat (B - 1 - i0) + (Z.to_nat T - k))%nat.
    replace (Z.to_nat (B - 1 - i0) + (Z.to_nat T - k) + k)%nat with (Z.to_nat (B - 1 - i0) + Z.to_nat T)%nat by lia.
    rewrite P, wseq_first by lia. rewrite W by exact Hi0. exact NZ. }
  specialize (X NZu (Z.of_nat n)). unfold bper in X. rewrite Nat2Z.id in X. split.
  - intros E. apply X. split; [lia | exact E].
  - intros Dv. apply X. split; [lia | exact Dv].
Qed.

Variables g1 g2 : N.
Theorem plus_period : lf_oper c = OpPlus -> 3 <= lf_w c -> prime T -> exact k bs T ->
  inverse_ok k bs g1 (npoly (pairs bs)) = true -> inverse_ok k bs g2 (npoly (pairs bs ++ dbl (other k bs))) = true ->
  (exists i, 0 <= i < B /\ Z.odd (recent S i) = true) -> draw_period (lf_next c) (Some S) (2 ^ (lf_w c - 1) * T).
Proof.
  intros Op Hw PT Ex G1 G2 (i0 & Hi0 & NZ). assert (H3 := B3). assert (HT := T_big). destruct (C25_stream c S Hc V) as (x & W & F & Wd & D).
  assert (Ez : Z.of_nat k = B) by lia.
  assert (R : prec k bs (lf_w c) (wseq x)).
  { intros i. rewrite wseq_next, taps_plus. rewrite (F (Z.of_nat i + 1)) by lia. unfold fib_term. cbv zeta. rewrite Op. apply cong_mod. }
  intros n. rewrite (draws_shift x n D).
  assert (Hk : (2 <= k)%nat) by lia.
  assert (Od : odd_some (fun i => wseq x (i + k)%nat)).
  { intros Ev. assert (P := period2 k bs). rewrite Ez in P. specialize (P Hk Ex (lf_w c) (wseq x) (Z.to_nat (B - 1 - i0)) ltac:(lia) R).
    specialize (Ev (Z.to_nat (B - 1 - i0) + (Z.to_nat T - k))%nat).
    replace (Z.to_nat (B - 1 - i0) + (Z.to_nat T - k) + k)%nat with (Z.to_nat (B - 1 - i0) + Z.to_nat T)%nat in Ev by lia.
    assert (Q : cong 2 (wseq x (Z.to_nat (B - 1 - i0))) 0) by (etransitivity; [symmetry; exact P | exact Ev]).
    rewrite wseq_first in Q by lia. rewrite W in Q by exact Hi0. apply even_cong in Q. rewrite Zmod_odd, NZ in Q. discriminate Q. }
  assert (X := plus_exact k bs Hk). rewrite Ez in X.
  specialize (X Ex g1 g2 G1 G2 (lf_w c) (fun i => wseq x (i + k)%nat) PT Hw (prec_shift k bs Hk (lf_w c) (wseq x) k R) Od (Z.of_nat n)).
  unfold per in X. rewrite Nat2Z.id in X. split.
  - intros E. apply X. split; [lia|]. intros i. rewrite E. reflexivity.
  - intros Dv i. destruct (proj2 X (conj (Nat2Z.is_nonneg n) Dv)) as (_ & P). specialize (P i).
    apply (cong_eq (2 ^ lf_w c)); [apply Wd | apply Wd | exact P].
Qed.
End Engine.

(** ** The classes *)
Lemma small_classes c : In c lf_predefined -> lf_last c <= 607 ->
  (lf_lags c = [103; 250] /\ lf_oper c = OpXor) \/ lf_lags c = [168; 521] \/ lf_lags c = [168; 205; 242; 521] \/
  lf_lags c = [273; 607] \/ lf_lags c = [147; 239; 515; 607].
Proof.
  intros H L. cbn [lf_predefined flat_map lf2_lags lf4_lags app] in H.
  repeat (destruct H as [<-|H]; [cbn in L |- *; try lia; tauto|]). destruct H.
Qed.
Lemma width c : In c lf_predefined -> 3 <= lf_w c.
Proof.
  intros H. cbn [lf_predefined flat_map lf2_lags lf4_lags app] in H. repeat (destruct H as [<-|H]; [cbn; lia|]). destruct H.
Qed.
Lemma exact_of k bs : mersenne_ok k bs = true -> prime (2 ^ Z.of_nat k - 1) -> exact k bs (2 ^ Z.of_nat k - 1).
Proof. apply mersenne_exact. Qed.
Lemma small_exact c : In c lf_predefined -> lf_last c <= 607 -> exact (Z.to_nat (lf_last c)) (bs_of (lf_lags c)) (2 ^ lf_last c - 1).
Proof.
  intros H L. destruct (small_classes c H L) as [(E & _)|[E|[E|[E|E]]]]; unfold lf_last; rewrite E.
  - exact (sp_exact sc_r250 sc_r250_shape sc_r250_algebra).
  - exact (mersenne_exact 521 bs_2_521 mersenne_2_521 prime_521).
  - exact (mersenne_exact 521 bs_4_521 mersenne_4_521 prime_521).
  - exact (mersenne_exact 607 bs_2_607 mersenne_2_607 prime_607).
  - exact (mersenne_exact 607 bs_4_607 mersenne_4_607 prime_607).
Qed.

(** ** C93 *)

(** r250 and the engines lagfib2xor_521, _607, lagfib4xor_521, _607: from every state in which not all of the last B words are
    zero, the sequence of draws has the period 2^B - 1 and no smaller one. *)
Theorem C93_xor_period : forall c S, In c lf_predefined -> lf_oper c = OpXor -> lf_last c <= 607 -> valid c S ->
  (exists i, 0 <= i < lf_last c /\ recent S i <> 0) -> draw_period (lf_next c) (Some S) (2 ^ lf_last c - 1).
Proof.
  intros c S H Op L V NZ. destruct (C25_predefined c H) as (Hc & _). apply xor_period; [exact Hc | exact V | exact Op | apply small_exact; assumption | exact NZ].
Qed.
Print Assumptions C93_xor_period.

(** lagfib2plus_521, _607, lagfib4plus_521, _607: if one of the last B words is odd, the period is 2^(w-1) (2^B - 1). *)
Theorem C93_plus_period : forall c S, In c lf_predefined -> lf_oper c = OpPlus -> lf_last c <= 607 -> valid c S ->
  (exists i, 0 <= i < lf_last c /\ Z.odd (recent S i) = true) -> draw_period (lf_next c) (Some S) (2 ^ (lf_w c - 1) * (2 ^ lf_last c - 1)).
Proof.
  intros c S H Op L V NZ. destruct (C25_predefined c H) as (Hc & _). assert (Ex := small_exact c H L). assert (Hw := width c H).
  destruct (small_classes c H L) as [(E & Op')|[E|[E|[E|E]]]]; [congruence | | | |];
    (assert (K := plus_period c S Hc V)); unfold lf_last in K, Ex |- *; rewrite E in K, Ex |- *.
  - refine (K _ _ Op Hw prime_521 Ex pairs_2_521 other_2_521 _). unfold lf_last in NZ. rewrite E in NZ. exact NZ.
  - refine (K _ _ Op Hw prime_521 Ex pairs_4_521 other_4_521 _). unfold lf_last in NZ. rewrite E in NZ. exact NZ.
  - refine (K _ _ Op Hw prime_607 Ex pairs_2_607 other_2_607 _). unfold lf_last in NZ. rewrite E in NZ. exact NZ.
  - refine (K _ _ Op Hw prime_607 Ex pairs_4_607 other_4_607 _). unfold lf_last in NZ. rewrite E in NZ. exact NZ.
Qed.
Print Assumptions C93_plus_period.

(** The freshly constructed engines satisfy the hypotheses. *)
Definition p521 : lf_class := LfClass 32 [168; 521] OpPlus.
Example C93_case_xor : In r250 lf_predefined /\ lf_oper r250 = OpXor /\ lf_last r250 <= 607 /\ valid r250 s250 /\
  (exists i, 0 <= i < lf_last r250 /\ recent s250 i <> 0) /\
  draw (lf_next r250) (Some s250) 97 <> draw (lf_next r250) (Some s250) 98.
Proof.
  split; [left; reflexivity|]. split; [reflexivity|]. split; [vm_compute; discriminate|]. split; [exact s250_valid|].
  split; [exists 5; split; [vm_compute; split; congruence | vm_compute; discriminate]|]. vm_compute. discriminate.
Qed.
Example C93_case_plus : In p521 lf_predefined /\ lf_oper p521 = OpPlus /\ lf_last p521 <= 607 /\
  exists S, lf_construct p521 0 = Some S /\ valid p521 S /\ exists i, 0 <= i < lf_last p521 /\ Z.odd (recent S i) = true.
Proof.
  split; [right; right; right; left; reflexivity|]. split; [reflexivity|]. split; [vm_compute; discriminate|].
  assert (Hc : class_ok p521) by (apply C25_predefined; right; right; right; left; reflexivity).
  destruct (C27_construct p521 0 Hc) as (S & E & V). exists S. split; [exact E|]. split; [exact V|].
  exists 1. split; [vm_compute; split; congruence|].
  assert (Q : match lf_construct p521 0 with Some X => Z.odd (recent X 1) | None => false end = true) by (vm_compute; reflexivity).
  rewrite E in Q. exact Q.
Qed.
