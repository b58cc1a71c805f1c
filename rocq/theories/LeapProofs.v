(** Decimated sequences of the engines of order five with the predefined parameter sets: Frobenius check and arithmetic. *)
From Coq Require Import ZArith Znumtheory List Bool Arith Lia Setoid Morphisms.
From Verif Require Import Base BaseFacts Cong Sums LinRec Pratt Primes PolyAct FieldAct PeriodCerts
  MrgModel MrgStepProofs MrgProofs PeriodProofs.
Import ListNotations.
Open Scope Z_scope.

(** ** The map x -> x^p leaves the recurrence polynomial zero *)
Definition addc (p x : Z) (c : list Z) : list Z := match c with [] => [] | z :: c' => (x + z) mod p :: c' end.
Fixpoint peval (p : Z) (f y c : list Z) : list Z :=
  match c with [] => map (fun _ => 0) f | x :: c' => addc p x (pmul p f y (peval p f y c')) end.
Definition frob_ok (p : positive) (f : list Z) : bool :=
  let y := ppow (Z.pos p) f (pvar f) p in leqb (ppow (Z.pos p) f y (Pos.of_nat (length f))) (peval (Z.pos p) f y f).

Section Frob.
Variables (p : positive) (f : list Z).
Hypothesis Hk : (2 <= length f)%nat.
Notation P := (Z.pos p).
Local Notation "x == y" := (cong P x y) (at level 70).
Let y := ppow P f (pvar f) p.

Lemma addc_ev x c w i : c <> [] -> ev (addc P x c) w i == x * w i + ev c w i.
Proof.
  destruct c as [|z c]; [congruence|]. intros _. cbn [addc ev].
  exists (- ((x + z) / P) * w i). rewrite Z.mod_eq by discriminate. ring.
Qed.
Lemma y_length : length y = length f.
Proof. unfold y. apply ppow_length; [lia|]. apply pvar_length; lia. Qed.
Lemma peval_length c : length (peval P f y c) = length f.
Proof.
  induction c as [|x c IH]; cbn [peval]; [apply map_length|].
  assert (L := pmul_length P f ltac:(lia) y (peval P f y c) IH). destruct (pmul P f y (peval P f y c)); cbn [addc length] in *; exact L.
Qed.
Lemma peval_ev c : forall w i, frec P f w -> ev (peval P f y c) w i == ev c (fun j => w (i + Pos.to_nat p * j)%nat) 0.
Proof.
  induction c as [|x c IH]; intros w i Hw; cbn [peval].
  - rewrite ev_zeros. reflexivity.
  - rewrite addc_ev.
    2:{ intros E. assert (L := pmul_length P f ltac:(lia) y (peval P f y c) (peval_length c)). rewrite E in L. cbn in L. lia. }
    rewrite (pmul_ev P f ltac:(lia) y (peval P f y c) w (peval_length c) Hw i).
    unfold y at 1. rewrite (ppow_var P f ltac:(lia) Hk p _ i) by (apply frec_ev; exact Hw).
    rewrite (IH w _ Hw). cbn [ev].
    replace (i + Pos.to_nat p * 0)%nat with i by lia.
    assert (E := ev_shift c (fun j => w (i + Pos.to_nat p * j)%nat) 0 1). cbn [Nat.add] in E. rewrite <- E.
    assert (E2 : ev c (fun j => w (i + Pos.to_nat p + Pos.to_nat p * j)%nat) 0 == ev c (fun j => w (i + Pos.to_nat p * (j + 1))%nat) 0).
    { apply ev_cong. intros j. replace (i + Pos.to_nat p * (j + 1))%nat with (i + Pos.to_nat p + Pos.to_nat p * j)%nat by lia. reflexivity. }
    rewrite E2. reflexivity.
Qed.

Lemma frob w : frob_ok p f = true -> frec P f w -> forall t, frec P f (fun i => w (Z.to_nat P * i + t)%nat).
Proof.
  intros H Hw t i. unfold frob_ok in H. cbv zeta in H. fold y in H. apply leqb_eq in H.
  change (Z.to_nat P) with (Pos.to_nat p).
  assert (A := ppow_two P f Hk p (Pos.of_nat (length f)) w (Pos.to_nat p * i + t)%nat Hw). fold y in A. rewrite H in A.
  rewrite (peval_ev f w _ Hw) in A.
  replace (Pos.to_nat p * i + t + Z.to_nat (P * Z.pos (Pos.of_nat (length f))))%nat with (Pos.to_nat p * (i + length f) + t)%nat in A.
  2:{ rewrite Z2Nat.inj_mul by lia. change (Z.to_nat P) with (Pos.to_nat p). rewrite Z2Nat.inj_pos, Nat2Pos.id by lia. lia. }
  rewrite <- A. 
  assert (E := ev_shift f (fun i => w (Pos.to_nat p * i + t)%nat) 0 i). cbn [Nat.add] in E. rewrite <- E.
  apply ev_cong. intros j. replace (Pos.to_nat p * (j + i) + t)%nat with (Pos.to_nat p * i + t + Pos.to_nat p * j)%nat by lia. reflexivity.
Qed.
End Frob.

Lemma frob_mrg5_1 : frob_ok 2147483647 (rev (pe_a pe_mrg5_1)) = true. Proof. vm_compute. reflexivity. Qed.
Lemma frob_mrg5s_0 : frob_ok 2147461007 (rev (pe_a pe_mrg5s_0)) = true. Proof. vm_compute. reflexivity. Qed.
Lemma frob_mrg5s_1 : frob_ok 2147461007 (rev (pe_a pe_mrg5s_1)) = true. Proof. vm_compute. reflexivity. Qed.

(** ** Arithmetic *)
Lemma strip_power M m S : forall a X, (forall z, (M | S * (m * z)) -> (M | S * z)) -> (M | S * (m ^ Z.of_nat a * X)) -> (M | S * X).
Proof.
  induction a as [|a IH]; intros X H D; [change (m ^ Z.of_nat 0) with 1 in D; rewrite Z.mul_1_l in D; exact D|].
  rewrite Nat2Z.inj_succ, Z.pow_succ_r in D by lia. rewrite <- Z.mul_assoc in D. apply IH; [exact H|]. apply H, D.
Qed.

Lemma powers_apart m h N S : 2 ^ 30 < m -> 1 <= h <= 2 -> N * h = m ^ 5 - 1 -> 1 <= S < 2 ^ 64 ->
  forall a b : nat, (a < b < 5)%nat -> ~ (N | S * (m ^ Z.of_nat b - m ^ Z.of_nat a)).
Proof.
  intros Hm Hh HN HS a b Hab D.
  set (M := m ^ 5 - 1) in *.
  assert (D1 : (M | (h * S) * (m ^ Z.of_nat a * (m ^ Z.of_nat (b - a) - 1)))).
  { destruct D as [q Hq]. exists q. rewrite <- HN. 
    assert (E : m ^ Z.of_nat b = m ^ Z.of_nat a * m ^ Z.of_nat (b - a)).
    { rewrite <- Z.pow_add_r by lia. f_equal. lia. }
    rewrite E in Hq. transitivity (h * (S * (m ^ Z.of_nat a * m ^ Z.of_nat (b - a) - m ^ Z.of_nat a))); [ring | rewrite Hq; ring]. }
  apply strip_power in D1.
  2:{ intros z Hz. assert (E : h * S * z = m ^ 4 * (h * S * (m * z)) - (h * S * z) * M) by (unfold M; ring).
      rewrite E. apply Z.divide_sub_r; [apply Z.divide_mul_r; exact Hz | apply Z.divide_factor_r]. }
  set (T := h * S) in *. assert (HT : 1 <= T < 2 ^ 65) by (unfold T; change (2 ^ 65) with (2 * 2 ^ 64); nia). clearbody T.
  assert (Hc : exists e, (e = 1 \/ e = 2) /\ (M | T * (m ^ e - 1))).
  { assert (C : (b - a = 1 \/ b - a = 2 \/ b - a = 3 \/ b - a = 4)%nat) by lia.
    destruct C as [C|[C|[C|C]]]; rewrite C in D1.
    - exists 1. split; [left; reflexivity | exact D1].
    - exists 2. split; [right; reflexivity | exact D1].
    - exists 2. split; [right; reflexivity|]. 
      replace (T * (m ^ 2 - 1)) with (T * M - m ^ 2 * (T * (m ^ Z.of_nat 3 - 1))) by (unfold M; change (Z.of_nat 3) with 3; ring).
      apply Z.divide_sub_r; [apply Z.divide_factor_r | apply Z.divide_mul_r; exact D1].
    - exists 1. split; [left; reflexivity|].
      replace (T * (m ^ 1 - 1)) with (T * M - m * (T * (m ^ Z.of_nat 4 - 1))) by (unfold M; change (Z.of_nat 4) with 4; ring).
      apply Z.divide_sub_r; [apply Z.divide_factor_r | apply Z.divide_mul_r; exact D1]. }
  destruct Hc as (e & He & D2).
  assert (B : 0 < m ^ e - 1 <= m ^ 2 - 1) by (destruct He as [->| ->]; nia).
  apply Z.divide_pos_le in D2; [|nia].
  assert (L : T * (m ^ e - 1) < 2 ^ 65 * m ^ 2) by nia.
  assert (G : 2 ^ 65 * m ^ 2 + 1 <= m ^ 5).
  { replace (m ^ 5) with (m ^ 3 * m ^ 2) by ring.
    assert (m ^ 3 >= 2 ^ 65 + 1).
    { assert (2 ^ 60 < m ^ 2) by nia. assert (2 ^ 90 < m ^ 3) by (replace (m ^ 3) with (m * m ^ 2) by ring; nia). lia. }
    assert (1 <= m ^ 2) by nia. nia. }
  unfold M in D2. lia.
Qed.
Lemma room m h N : 2 ^ 30 < m -> 1 <= h <= 2 -> N * h = m ^ 5 - 1 -> m ^ 5 < m * (N + 1).
Proof.
  intros Hm Hh HN. assert (0 < m ^ 5) by (apply Z.pow_pos_nonneg; lia). assert (H2 : m ^ 5 - 1 <= 2 * N) by nia. nia.
Qed.
