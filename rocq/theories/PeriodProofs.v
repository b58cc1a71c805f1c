(** Periods of the mrg engines: proofs. *)
From Coq Require Import ZArith Znumtheory List Bool Arith Lia Setoid Morphisms.
From Verif Require Import Base BaseFacts Cong Sums Spec SpecFacts LinRec MrgModel MrgStepProofs MrgProofs Pratt PolyAct.
Import ListNotations.
Open Scope Z_scope.

Lemma ev_rev a : forall w i, ev (rev a) w i = sum (length a) (fun j => nth j a 0 * w (i + (length a - 1 - j))%nat).
Proof.
  induction a as [|x a IH]; intros w i; [reflexivity|].
  cbn [rev length]. rewrite ev_snoc, sum_shift, rev_length, IH. cbn [nth].
  replace (i + (S (length a) - 1 - 0))%nat with (i + length a)%nat by lia.
  rewrite (sum_ext (length a) (fun j => nth j a 0 * w (i + (S (length a) - 1 - S j))%nat)
                   (fun j => nth j a 0 * w (i + (length a - 1 - j))%nat)); [ring|].
  intros j Hj. do 2 f_equal. lia.
Qed.

Lemma frec_shift p f w n : frec p f w -> frec p f (fun i => w (i + n)%nat).
Proof.
  intros H i. rewrite (ev_shift f w i n). replace (i + length f + n)%nat with (i + n + length f)%nat by lia. apply H.
Qed.

Section Period.
Variable cl : mrg_class.
Hypothesis Hcl : In cl mrg_classes.
Notation m := (mc_modulus cl).
Notation k := (mc_order cl).
Notation "x == y" := (cong m x y) (at level 70).
Notation st R n := (Nat.iter n (mrg_step cl) R).
Variable R : mrg.
Hypothesis HR : mrg_ok cl R.
Notation u := (useq cl R).

Lemma frec_useq : frec m (rev (mrg_a R)) u.
Proof.
  intros i. rewrite ev_rev, rev_length. assert (L := proj1 (proj1 HR)). rewrite L.
  apply (useq_rec cl Hcl R HR i).
Qed.

Lemma u_eq i j : u i == u j <-> u i = u j.
Proof.
  split; [|intros ->; reflexivity]. intros H. apply (cong_eq m); [apply (useq_range cl Hcl R i HR) | apply (useq_range cl Hcl R j HR) | exact H].
Qed.

Lemma st_useq n n' : st R n = st R n' <-> forall i, u (i + n)%nat = u (i + n')%nat.
Proof.
  split.
  - intros E i. unfold useq. rewrite !iter_add, E. reflexivity.
  - intros E. apply (mrg_ext cl); [apply (st_ok cl Hcl), HR | apply (st_ok cl Hcl), HR | rewrite !st_a; reflexivity|].
    intros i Hi. rewrite !(state_nth cl Hcl) by assumption.
    replace (n + (k - 1 - i))%nat with ((k - 1 - i) + n)%nat by lia.
    replace (n' + (k - 1 - i))%nat with ((k - 1 - i) + n')%nat by lia. rewrite E. reflexivity.
Qed.

Hypothesis Hnz : exists i, (i < k)%nat /\ nth i (mrg_r R) 0 <> 0.
Lemma u_nonzero : nonzero m u.
Proof.
  destruct Hnz as (i & Hi & N). exists (k - 1 - i)%nat. intros C. apply N.
  assert (E := state_nth cl Hcl R 0 i HR Hi). cbn [Nat.iter nat_rect Nat.add] in E. rewrite E.
  assert (B := useq_range cl Hcl R (k - 1 - i) HR). apply (cong_eq m); [exact B | assert (G := m_pos cl Hcl); lia | exact C].
Qed.

Variable N : Z.
Hypothesis HN : 0 < N.
Hypothesis HX : forall w, frec m (rev (mrg_a R)) w -> nonzero m w -> forall n, per m w n <-> 0 <= n /\ (N | n).

Lemma u_period_mul i n : (N | Z.of_nat n) -> u (i + n)%nat = u i.
Proof.
  intros D. apply u_eq. assert (P : per m u (Z.of_nat n)) by (apply HX; [apply frec_useq | apply u_nonzero | split; [lia | exact D]]).
  destruct P as (_ & P). specialize (P i). rewrite Nat2Z.id in P. exact P.
Qed.

Lemma tail_nonzero n : nonzero m (fun i => u (i + n)%nat).
Proof.
  destruct u_nonzero as (i & Hi). exists (i + n * (Z.to_nat N - 1))%nat. intros C. apply Hi. rewrite <- C.
  replace (i + n * (Z.to_nat N - 1) + n)%nat with (i + n * Z.to_nat N)%nat by nia.
  rewrite u_period_mul; [reflexivity|]. exists (Z.of_nat n). lia.
Qed.

Lemma u_period_le a b : (a <= b)%nat -> (forall i, u (i + a)%nat = u (i + b)%nat) <-> (N | Z.of_nat b - Z.of_nat a).
Proof.
  intros L. split.
  - intros E. assert (P : per m (fun i => u (i + a)%nat) (Z.of_nat b - Z.of_nat a)).
    { split; [lia|]. intros i. replace (i + Z.to_nat (Z.of_nat b - Z.of_nat a) + a)%nat with (i + b)%nat by lia. rewrite E. reflexivity. }
    apply HX in P; [apply P | apply frec_shift, frec_useq | apply tail_nonzero].
  - intros D i. replace (i + b)%nat with (i + a + (b - a))%nat by lia. symmetry. apply u_period_mul.
    replace (Z.of_nat (b - a)) with (Z.of_nat b - Z.of_nat a) by lia. exact D.
Qed.
Lemma u_period a b : (forall i, u (i + a)%nat = u (i + b)%nat) <-> (N | Z.of_nat b - Z.of_nat a).
Proof.
  destruct (Nat.le_gt_cases a b) as [L|L]; [apply u_period_le, L|].
  rewrite <- Z.divide_opp_r. replace (- (Z.of_nat b - Z.of_nat a)) with (Z.of_nat a - Z.of_nat b) by lia.
  rewrite <- u_period_le by lia. split; intros E i; symmetry; apply E.
Qed.

Lemma same_index x y j : 0 <= x < N -> 0 <= y < N -> (N | Z.of_nat (Z.to_nat y + j) - Z.of_nat (Z.to_nat x + j)) -> x = y.
Proof.
  intros Hx Hy [c Hc]. assert (E : y - x = c * N) by lia. clear Hc. assert (c = 0); [|lia].
  destruct (Z.lt_trichotomy c 0) as [L|[L|L]]; [|exact L|]; exfalso; clear - L E Hx Hy; nia.
Qed.

Lemma state_period n n' : after (mrg_next cl) n R = after (mrg_next cl) n' R <-> (N | Z.of_nat n' - Z.of_nat n).
Proof. rewrite !(after_mrg cl), st_useq. apply u_period. Qed.

Lemma draw_period n : (forall i, draw (mrg_next cl) R (i + n) = draw (mrg_next cl) R i) <-> (N | Z.of_nat n).
Proof.
  assert (T : (forall i, u (i + (n + k))%nat = u (i + k)%nat) <-> (N | Z.of_nat n)).
  { rewrite u_period. replace (Z.of_nat k - Z.of_nat (n + k)) with (- Z.of_nat n) by lia. apply Z.divide_opp_r. }
  rewrite <- T. split; intros E i; specialize (E i).
  - rewrite !(draw_useq cl Hcl) in E by exact HR. replace (i + (n + k))%nat with (i + n + k)%nat by lia. exact E.
  - rewrite !(draw_useq cl Hcl) by exact HR. replace (i + n + k)%nat with (i + (n + k))%nat by lia. exact E.
Qed.

(** ** Equidistribution of k-tuples when N = m^k - 1 *)
Fixpoint enc (j : nat) (n : nat) : Z := match j with O => 0 | S j' => u (n + j')%nat + m * enc j' n end.
Lemma enc_range j n : 0 <= enc j n < m ^ Z.of_nat j.
Proof.
  assert (G := m_pos cl Hcl). induction j; [cbn; lia|]. cbn [enc]. assert (B := useq_range cl Hcl R (n + j) HR).
  rewrite Nat2Z.inj_succ, Z.pow_succ_r by lia. nia.
Qed.
Lemma enc_inj j n n' : enc j n = enc j n' -> forall i, (i < j)%nat -> u (n + i)%nat = u (n' + i)%nat.
Proof.
  assert (G := m_pos cl Hcl). induction j; intros E i Hi; [lia|]. cbn [enc] in E.
  assert (B := useq_range cl Hcl R (n + j) HR). assert (B' := useq_range cl Hcl R (n' + j) HR).
  assert (Q : u (n + j)%nat = u (n' + j)%nat /\ enc j n = enc j n').
  { assert (E2 : enc j n = enc j n').
    { apply (f_equal (fun z => z / m)) in E. rewrite !(Z.mul_comm m), !Z.div_add, !Z.div_small in E by lia. lia. }
    split; [lia | exact E2]. }
  destruct (Nat.eq_dec i j) as [->|]; [apply Q | apply IHj; [apply Q | lia]].
Qed.
Definition enc_list (t : list Z) : Z := fold_left (fun z x => x + m * z) t 0.
Lemma enc_tuple t : Forall (fun x => 0 <= x < m) t -> forall n, enc (length t) n = enc_list t -> forall i, (i < length t)%nat -> u (n + i)%nat = nth i t 0.
Proof.
  assert (G := m_pos cl Hcl). unfold enc_list. induction t as [|x t IH] using rev_ind; intros F n E i Hi; [cbn in Hi; lia|].
  rewrite app_length in *. cbn [length] in *. replace (length t + 1)%nat with (S (length t)) in * by lia.
  rewrite fold_left_app in E. cbn [fold_left enc] in E.
  apply Forall_app in F. destruct F as (F & Fx). inversion Fx as [|? ? Bx _]; subst.
  assert (B := useq_range cl Hcl R (n + length t) HR).
  assert (E2 : enc (length t) n = fold_left (fun z x => x + m * z) t 0).
  { apply (f_equal (fun z => z / m)) in E. rewrite !(Z.mul_comm m), !Z.div_add, !Z.div_small in E by lia. lia. }
  destruct (Nat.eq_dec i (length t)) as [->|Ni].
  - rewrite app_nth2, Nat.sub_diag by lia. cbn [nth]. lia.
  - rewrite app_nth1 by lia. apply IH; [exact F | exact E2 | lia].
Qed.
Lemma enc_list_bound t : Forall (fun x => 0 <= x < m) t -> 0 <= enc_list t < m ^ Z.of_nat (length t) /\
  (enc_list t = 0 -> Forall (fun x => x = 0) t).
Proof.
  assert (G := m_pos cl Hcl). unfold enc_list. induction t as [|x t IH] using rev_ind; intros F; [cbn; split; [lia | constructor]|].
  rewrite app_length, fold_left_app. cbn [fold_left length]. apply Forall_app in F. destruct F as (F & Fx). inversion Fx as [|? ? Bx _]; subst.
  destruct (IH F) as (B & Z0). replace (Z.of_nat (length t + 1)) with (Z.succ (Z.of_nat (length t))) by lia.
  rewrite Z.pow_succ_r by lia. set (z := fold_left _ t 0) in *. split; [nia|].
  intros E. apply Forall_app. split; [apply Z0; nia|]. constructor; [nia | constructor].
Qed.

Hypothesis Hmax : N = m ^ Z.of_nat k - 1.
Lemma tuples t : length t = k -> Forall (fun x => 0 <= x < m) t -> ~ Forall (fun x => x = 0) t ->
  exists n, 0 <= n < N /\ forall i, (i < k)%nat -> draw (mrg_next cl) R (Z.to_nat n + i) = nth i t 0.
Proof.
  intros L F NZ. assert (G := m_pos cl Hcl).
  assert (E0 : forall n, enc k n <> 0).
  { intros n E. assert (ZZ : forall i, (i < k)%nat -> u (n + i)%nat = 0).
    { assert (Q : forall j, enc j n = 0 -> forall i, (i < j)%nat -> u (n + i)%nat = 0).
      { induction j; intros Ej i Hi; [lia|]. cbn [enc] in Ej. assert (B := useq_range cl Hcl R (n + j) HR).
        assert (B2 := enc_range j n). destruct (Nat.eq_dec i j) as [->|]; [nia | apply IHj; [nia | lia]]. }
      apply Q, E. }
    destruct (tail_nonzero n) as (i & Hi). apply Hi.
    assert (K1 := class_order cl Hcl).
    assert (FZ : forall i, (u (i + n)%nat) == 0).
    { apply (isrec_zero m k (fun j => nth j (mrg_a R) 0) (fun i => u (i + n)%nat)).
      - intros j. replace (j + k + n)%nat with (j + n + k)%nat by lia. rewrite (useq_rec cl Hcl R HR (j + n)%nat).
        apply sum_cong. intros l Hl. replace (j + (k - 1 - l) + n)%nat with (j + n + (k - 1 - l))%nat by lia. reflexivity.
      - intros j Hj. replace (j + n)%nat with (n + j)%nat by lia. rewrite ZZ by exact Hj. reflexivity. }
    apply FZ. }
  destruct (inj_surj_Z N (fun z => enc k (Z.to_nat z + k) - 1)) with (v := enc_list t - 1) as (n & Hn & E).
  - intros x Hx. assert (B := enc_range k (Z.to_nat x + k)). assert (Q := E0 (Z.to_nat x + k)%nat). lia.
  - intros x y Hx Hy E. assert (E1 : enc k (Z.to_nat x + k) = enc k (Z.to_nat y + k)) by lia.
    assert (Eu := enc_inj k _ _ E1).
    assert (S1 : st R (Z.to_nat x + k) = st R (Z.to_nat y + k)).
    { apply (mrg_ext cl); [apply (st_ok cl Hcl), HR | apply (st_ok cl Hcl), HR | rewrite !st_a; reflexivity|].
      intros i Hi. rewrite !(state_nth cl Hcl) by assumption. rewrite Eu by lia. reflexivity. }
    rewrite st_useq in S1. apply u_period in S1. apply (same_index x y k Hx Hy S1).
  - destruct (enc_list_bound t F) as (B & Z0). rewrite L in B. assert (enc_list t <> 0); [|lia]. intros Q. apply NZ, Z0, Q.
  - exists n. split; [exact Hn|]. intros i Hi. rewrite (draw_useq cl Hcl) by exact HR.
    replace (Z.to_nat n + i + k)%nat with (Z.to_nat n + k + i)%nat by lia. apply enc_tuple; [exact F | rewrite L; lia | rewrite L; exact Hi].
Qed.
Lemma tuples_unique n n' : 0 <= n < N -> 0 <= n' < N ->
  (forall i, (i < k)%nat -> draw (mrg_next cl) R (Z.to_nat n + i) = draw (mrg_next cl) R (Z.to_nat n' + i)) -> n = n'.
Proof.
  intros H H' E. assert (S1 : st R (Z.to_nat n + k) = st R (Z.to_nat n' + k)).
  { apply (mrg_ext cl); [apply (st_ok cl Hcl), HR | apply (st_ok cl Hcl), HR | rewrite !st_a; reflexivity|].
    intros i Hi. rewrite !(state_nth cl Hcl) by assumption. specialize (E (k - 1 - i)%nat ltac:(lia)).
    rewrite !(draw_useq cl Hcl) in E by exact HR.
    replace (Z.to_nat n + k + (k - 1 - i))%nat with (Z.to_nat n + (k - 1 - i) + k)%nat by lia.
    replace (Z.to_nat n' + k + (k - 1 - i))%nat with (Z.to_nat n' + (k - 1 - i) + k)%nat by lia. rewrite E. reflexivity. }
  rewrite st_useq in S1. apply u_period in S1. apply (same_index n n' k H H' S1).
Qed.
End Period.
