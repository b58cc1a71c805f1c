(** Sequences of words with a recurrence w(i + k) = xor of w(i + b) over a short list of places b: polynomials over the field
    of two elements as binary numbers, acting on sequences; exact periods. *)
From Coq Require Import ZArith NArith Znumtheory List Bool Arith Lia.
From Verif Require Import Base BaseFacts Cong Pratt Primes PolyAct Gf2Act LucasLehmer.
Import ListNotations.
Open Scope Z_scope.

(** ** Arithmetic *)
Fixpoint up (n : nat) (x : positive) : positive := match n with O => x | S n' => xO (up n' x) end.
(** h times the sum of the places *)
Fixpoint spread (bs : list nat) (h : positive) (acc : N) : N :=
  match bs with [] => acc | b :: bs' => spread bs' h (N.lxor acc (Npos (up b h))) end.
(** Reduction: everything from place k on is replaced. None if the fuel does not suffice. *)
Fixpoint reduce (fuel : nat) (k : nat) (bs : list nat) (x : N) : option N :=
  match x with
  | N0 => Some N0
  | Npos p =>
      let '(l, h) := low k p in
      match h with
      | N0 => Some l
      | Npos q => match fuel with O => None | S fuel' => reduce fuel' k bs (spread bs q l) end
      end
  end.
Fixpoint psq (x : positive) : positive := match x with xH => xH | xO q => xO (xO (psq q)) | xI q => xI (xO (psq q)) end.
Definition nsq (x : N) : N := match x with N0 => N0 | Npos p => Npos (psq p) end.
Fixpoint pmulx (x : positive) (y : N) : N :=
  match x with xH => y | xO q => N.double (pmulx q y) | xI q => N.lxor y (N.double (pmulx q y)) end.
Definition nmulx (x y : N) : N := match x with N0 => N0 | Npos p => pmulx p y end.

(** ** Meaning *)
Fixpoint pact (c : positive) (w : nat -> Z) (i : nat) : Z :=
  match c with xH => w i | xO q => pact q w (S i) | xI q => Z.lxor (w i) (pact q w (S i)) end.
Definition nact (c : N) (w : nat -> Z) (i : nat) : Z := match c with N0 => 0 | Npos p => pact p w i end.

Lemma pact_ext c : forall w w' i, (forall j, w j = w' j) -> pact c w i = pact c w' i.
Proof. induction c as [c IH|c IH|]; intros w w' i H; cbn [pact]; rewrite ?H, ?(IH w w' _ H); reflexivity. Qed.
Lemma nact_ext c w w' i : (forall j, w j = w' j) -> nact c w i = nact c w' i.
Proof. intros H. destruct c; [reflexivity | apply pact_ext, H]. Qed.
Lemma pact_shift c w n : forall i, pact c (fun j => w (j + n)%nat) i = pact c w (i + n).
Proof. induction c as [c IH|c IH|]; intros i; cbn [pact]; rewrite ?IH; reflexivity. Qed.
Lemma nact_shift c w n i : nact c (fun j => w (j + n)%nat) i = nact c w (i + n).
Proof. destruct c; [reflexivity | apply pact_shift]. Qed.
Lemma pact_0 c w : forall i, (forall j, w j = 0) -> pact c w i = 0.
Proof. induction c as [c IH|c IH|]; intros i H; cbn [pact]; rewrite ?IH, ?H by exact H; reflexivity. Qed.
Lemma nact_0 c w i : (forall j, w j = 0) -> nact c w i = 0.
Proof. intros H. destruct c; [reflexivity | apply pact_0, H]. Qed.
Lemma pact_lxor c w w' : forall i, pact c (fun j => Z.lxor (w j) (w' j)) i = Z.lxor (pact c w i) (pact c w' i).
Proof. induction c as [c IH|c IH|]; intros i; cbn [pact]; rewrite ?IH; [lx | reflexivity | reflexivity]. Qed.
Lemma nact_lxor c w w' i : nact c (fun j => Z.lxor (w j) (w' j)) i = Z.lxor (nact c w i) (nact c w' i).
Proof. destruct c; [reflexivity | apply pact_lxor]. Qed.
Lemma double_act c w i : nact (N.double c) w i = nact c w (S i).
Proof. destruct c; reflexivity. Qed.
Lemma succ_double_act c w i : nact (N.succ_double c) w i = Z.lxor (w i) (nact c w (S i)).
Proof. destruct c; cbn; [symmetry; apply Z.lxor_0_r | reflexivity]. Qed.
Lemma poslxor_act a w : forall b i, nact (Pos.lxor a b) w i = Z.lxor (pact a w i) (pact b w i).
Proof.
  induction a as [a IH|a IH|]; intros [b|b|] i; cbn [Pos.lxor pact nact];
    rewrite ?(double_act (Pos.lxor a b)), ?(succ_double_act (Pos.lxor a b)), ?IH; try lx.
Qed.
Lemma lxor_act a b w i : nact (N.lxor a b) w i = Z.lxor (nact a w i) (nact b w i).
Proof.
  destruct a as [|a], b as [|b]; cbn [N.lxor nact]; rewrite ?Z.lxor_0_l, ?Z.lxor_0_r; try reflexivity. apply poslxor_act.
Qed.
Lemma up_act n c w : forall i, pact (up n c) w i = pact c w (i + n).
Proof. induction n as [|n IH]; intros i; cbn [up pact]; [f_equal; lia|]. rewrite IH. f_equal. lia. Qed.
Lemma low_act n w : forall x i l h, low n x = (l, h) -> pact x w i = Z.lxor (nact l w i) (nact h w (i + n)).
Proof.
  induction n as [|n IH]; intros x i l h E; cbn [low] in E.
  - injection E as <- <-. cbn [nact]. rewrite Z.lxor_0_l. f_equal. lia.
  - destruct x as [q|q|].
    + destruct (low n q) as (l1 & h1) eqn:E1. injection E as <- <-. cbn [pact]. rewrite (IH _ _ _ _ E1), succ_double_act.
      replace (S i + n)%nat with (i + S n)%nat by lia. lx.
    + destruct (low n q) as (l1 & h1) eqn:E1. injection E as <- <-. cbn [pact]. rewrite (IH _ _ _ _ E1), double_act.
      replace (S i + n)%nat with (i + S n)%nat by lia. reflexivity.
    + injection E as <- <-. cbn [pact nact]. symmetry. apply Z.lxor_0_r.
Qed.

(** The square of the operator. *)
Fixpoint pact2 (c : positive) (w : nat -> Z) (i : nat) : Z :=
  match c with xH => w i | xO q => pact2 q w (S (S i)) | xI q => Z.lxor (w i) (pact2 q w (S (S i))) end.
Lemma psq_act c w : forall i, pact (psq c) w i = pact2 c w i.
Proof. induction c as [c IH|c IH|]; intros i; cbn [psq pact pact2]; rewrite ?IH; reflexivity. Qed.
Lemma pact_square c w : forall i, pact c (pact c w) i = pact2 c w i.
Proof.
  induction c as [c IH|c IH|]; intros i; cbn [pact pact2]; [| |reflexivity].
  - change (pact (xI c) w) with (fun j => Z.lxor (w j) (pact c w (S j))).
    assert (E : pact c (fun j => Z.lxor (w j) (pact c w (S j))) (S i) = Z.lxor (pact c w (S i)) (pact2 c w (S (S i)))).
    { rewrite (pact_lxor c w (fun j => pact c w (S j))). f_equal. rewrite <- IH.
      rewrite (pact_ext c (fun j => pact c w (S j)) (fun j => pact c w (j + 1)%nat)) by (intros j; f_equal; lia).
      rewrite (pact_shift c (pact c w) 1). f_equal. lia. }
    rewrite E. lx.
  - change (pact (xO c) w) with (fun j => pact c w (S j)). rewrite <- IH.
    rewrite (pact_ext c (fun j => pact c w (S j)) (fun j => pact c w (j + 1)%nat)) by (intros j; f_equal; lia).
    rewrite (pact_shift c (pact c w) 1). f_equal. lia.
Qed.
Lemma nsq_act c w i : nact (nsq c) w i = nact c (nact c w) i.
Proof. destruct c as [|c]; [reflexivity|]. cbn [nsq nact]. rewrite psq_act. symmetry. exact (pact_square c w i). Qed.
Lemma pmulx_act c d w : forall i, nact (pmulx c d) w i = pact c (nact d w) i.
Proof.
  induction c as [c IH|c IH|]; intros i; cbn [pmulx pact]; [| |reflexivity].
  - rewrite lxor_act, double_act, IH. reflexivity.
  - rewrite double_act, IH. reflexivity.
Qed.
Lemma nmulx_act c d w i : nact (nmulx c d) w i = nact c (nact d w) i.
Proof. destruct c as [|c]; [reflexivity | apply pmulx_act]. Qed.

Section Recurrence.
Variables (k : nat) (bs : list nat).
Definition xsum (l : list Z) : Z := fold_right Z.lxor 0 l.
Definition srec (w : nat -> Z) : Prop := forall i, w (i + k)%nat = xsum (map (fun b => w (i + b)%nat) bs).

Lemma pact_sum c (l : list nat) w : forall i,
  pact c (fun j => xsum (map (fun b => w (j + b)%nat) l)) i = xsum (map (fun b => pact c w (i + b)) l).
Proof.
  induction l as [|b l IH]; intros i; cbn [map xsum fold_right]; [apply pact_0; reflexivity|].
  rewrite (pact_lxor c (fun j => w (j + b)%nat) (fun j => xsum (map (fun b => w (j + b)%nat) l))). rewrite IH, pact_shift. reflexivity.
Qed.
Lemma pact_srec c w : srec w -> srec (pact c w).
Proof.
  intros H i. rewrite <- pact_sum, <- (pact_shift c w k). apply pact_ext. intros j. apply H.
Qed.
Lemma nact_srec c w : srec w -> srec (nact c w).
Proof.
  intros H. destruct c; [|apply pact_srec, H]. intros i. cbn [nact]. clear H. induction bs as [|b l IH]; [reflexivity|]. exact IH.
Qed.
Lemma srec_shift w n : srec w -> srec (fun i => w (i + n)%nat).
Proof.
  intros H i. replace (i + k + n)%nat with (i + n + k)%nat by lia. rewrite (H (i + n)%nat). f_equal. apply map_ext. intros b. f_equal. lia.
Qed.
Lemma spread_act h w i l : forall acc, nact (spread l h acc) w i = Z.lxor (nact acc w i) (xsum (map (fun b => pact h w (i + b)) l)).
Proof.
  induction l as [|b l IH]; intros acc; cbn [spread map xsum fold_right]; [symmetry; apply Z.lxor_0_r|].
  rewrite IH, lxor_act. cbn [nact]. rewrite up_act. fold (xsum (map (fun b => pact h w (i + b)) l)). lx.
Qed.
Lemma reduce_act fuel w i : srec w -> forall x y, reduce fuel k bs x = Some y -> nact y w i = nact x w i.
Proof.
  intros H. induction fuel as [|fuel IH]; intros x y E; (destruct x as [|p]; [injection E as <-; reflexivity|]); cbn [reduce] in E;
    destruct (low k p) as (l & h) eqn:L; cbn [nact]; rewrite (low_act k w p i l h L); (destruct h as [|q]; [injection E as <-; symmetry; apply Z.lxor_0_r|]).
  - discriminate E.
  - rewrite (IH _ _ E), spread_act. cbn [nact]. f_equal. symmetry. apply pact_srec, H.
Qed.

(** ** Checked chains of powers *)
Definition fuel0 : nat := 20.
Fixpoint sqn (n : nat) (e : Z) (c : N) : option (Z * N) :=
  match n with
  | O => Some (e, c)
  | S n' => match reduce fuel0 k bs (nsq c) with Some y => if N.eqb y y then sqn n' (2 * e) y else None | None => None end
  end.
Inductive sstep := SSq (i n : nat) | SMul (i j : nat).
Fixpoint srun (regs : list (Z * N)) (steps : list sstep) : option (list (Z * N)) :=
  match steps with
  | [] => Some regs
  | SSq i n :: steps' =>
      let '(e, c) := nth i regs (0, 1%N) in
      match sqn n e c with Some r => srun (r :: regs) steps' | None => None end
  | SMul i j :: steps' =>
      let '(e, c) := nth i regs (0, 1%N) in
      let '(e', c') := nth j regs (0, 1%N) in
      match reduce fuel0 k bs (nmulx c c') with Some y => if N.eqb y y then srun ((e + e', y) :: regs) steps' else None | None => None end
  end.

Definition spower (r : Z * N) : Prop := 0 <= fst r /\ forall w i, srec w -> nact (snd r) w i = w (i + Z.to_nat (fst r))%nat.
Lemma spower_one : spower (0, 1%N).
Proof. split; [cbn; lia|]. intros w i _. cbn. f_equal. lia. Qed.
Lemma spower_var : spower (1, 2%N).
Proof. split; [cbn; lia|]. intros w i _. change (w (S i) = w (i + Z.to_nat 1)%nat). f_equal. change (Z.to_nat 1) with 1%nat. lia. Qed.
Lemma spower_nth regs i : Forall spower regs -> spower (nth i regs (0, 1%N)).
Proof.
  intros H. destruct (Nat.lt_ge_cases i (length regs)) as [Hi|Hi].
  - rewrite Forall_forall in H. apply H, nth_In, Hi.
  - rewrite nth_overflow by exact Hi. apply spower_one.
Qed.
Lemma spower_mul e c e' c' y : spower (e, c) -> spower (e', c') -> (forall w i, srec w -> nact y w i = nact c (nact c' w) i) -> spower (e + e', y).
Proof.
  intros (P0 & P) (P0' & P') H. cbn [fst snd] in *. split; [cbn; lia|]. intros w i Hw. cbn [fst snd]. rewrite (H w i Hw).
  rewrite (nact_ext c _ (fun j => w (j + Z.to_nat e')%nat)) by (intros j; apply P', Hw). rewrite nact_shift, P by exact Hw. f_equal. lia.
Qed.
Lemma sqn_power n : forall e c r, spower (e, c) -> sqn n e c = Some r -> spower r.
Proof.
  induction n as [|n IH]; intros e c r H E; cbn [sqn] in E; [injection E as <-; exact H|].
  destruct (reduce fuel0 k bs (nsq c)) as [y|] eqn:R; [|discriminate E]. rewrite N.eqb_refl in E. apply (IH _ _ _) in E; [exact E|].
  replace (2 * e) with (e + e) by ring. apply (spower_mul e c e c y H H). intros w i Hw. rewrite (reduce_act _ w i Hw _ _ R). apply nsq_act.
Qed.
Lemma srun_power steps : forall regs regs', Forall spower regs -> srun regs steps = Some regs' -> Forall spower regs'.
Proof.
  induction steps as [|s steps IH]; intros regs regs' H E; cbn [srun] in E; [injection E as <-; exact H|].
  destruct s as [i n | i j].
  - assert (P := spower_nth regs i H). destruct (nth i regs (0, 1%N)) as (e & c).
    destruct (sqn n e c) as [r|] eqn:Q; [|discriminate E]. apply (IH _ _) in E; [exact E|]. constructor; [|exact H]. apply (sqn_power n e c r P Q).
  - assert (P := spower_nth regs i H). destruct (nth i regs (0, 1%N)) as (e & c).
    assert (P' := spower_nth regs j H). destruct (nth j regs (0, 1%N)) as (e' & c').
    destruct (reduce fuel0 k bs (nmulx c c')) as [y|] eqn:R; [|discriminate E]. rewrite N.eqb_refl in E.
    apply (IH _ _) in E; [exact E|]. constructor; [|exact H]. apply (spower_mul e c e' c' y P P').
    intros w t Hw. rewrite (reduce_act _ w t Hw _ _ R). apply nmulx_act.
Qed.
(** An invertible polynomial does not annihilate. *)
Definition inverse_ok (g h : N) : bool := match reduce fuel0 k bs (nmulx g h) with Some 1%N => true | _ => false end.
Lemma inverse_some g h w : inverse_ok g h = true -> srec w -> (forall i, nact h w i = 0) -> forall i, w i = 0.
Proof.
  unfold inverse_ok. intros E Hw Z0 i. destruct (reduce fuel0 k bs (nmulx g h)) as [y|] eqn:R; [|discriminate E].
  assert (Y : y = 1%N) by (destruct y as [|[y|y|]]; try discriminate E; reflexivity). subst y.
  change (w i) with (nact 1 w i). rewrite (reduce_act _ w i Hw _ _ R), nmulx_act. apply nact_0, Z0.
Qed.
End Recurrence.

(** ** The exact period, with the factors of the period *)
Record sp_cert := SpCert {
  sc_k : nat;
  sc_bs : list nat;
  sc_n : positive;                         (* the period *)
  sc_primes : list Z;
  sc_steps : list sstep;
  sc_return : nat;                         (* register of the power sc_n *)
  sc_tests : list (Z * (nat * N))          (* q, register of the power sc_n / q, inverse of it minus 1 *)
}.
Definition stest_ok (k : nat) (bs : list nat) (n : Z) (regs : list (Z * N)) (t : Z * (nat * N)) : bool :=
  let '(q, (i, g)) := t in
  let '(e, c) := nth i regs (0, 1%N) in
  (e * q =? n) && inverse_ok k bs g (N.lxor c 1).
Definition sc_algebra (e : sp_cert) : bool :=
  match srun (sc_k e) (sc_bs e) [(1, 2%N)] (sc_steps e) with
  | Some regs =>
      let '(n, c) := nth (sc_return e) regs (0, 1%N) in
      (n =? Z.pos (sc_n e)) && N.eqb c 1 && forallb (stest_ok (sc_k e) (sc_bs e) (Z.pos (sc_n e)) regs) (sc_tests e)
  | None => false
  end.
Definition sc_shape (e : sp_cert) : bool :=
  forallb (fun q => mem q known_primes) (sc_primes e) && (prod (sc_primes e) mod Z.pos (sc_n e) =? 0)
  && forallb (fun q => mem q (map fst (sc_tests e))) (sc_primes e).

Definition exact (k : nat) (bs : list nat) (n : Z) : Prop :=
  (forall w, srec k bs w -> bper w n) /\
  (forall w, srec k bs w -> (exists i, w i <> 0) -> forall m, bper w m <-> 0 <= m /\ (n | m)).

Theorem sp_exact e : sc_shape e = true -> sc_algebra e = true -> exact (sc_k e) (sc_bs e) (Z.pos (sc_n e)).
Proof.
  intros Sh Al. set (k := sc_k e) in *. set (bs := sc_bs e) in *. set (n := Z.pos (sc_n e)) in *.
  unfold sc_shape in Sh. apply andb_prop in Sh. destruct Sh as (Sh & S3). apply andb_prop in Sh. destruct Sh as (S1 & S2).
  unfold sc_algebra in Al. fold k bs n in Al.
  destruct (srun k bs [(1, 2%N)] (sc_steps e)) as [regs|] eqn:G; [|discriminate Al].
  assert (Pr : Forall (spower k bs) regs).
  { apply (srun_power k bs (sc_steps e) _ regs) in G; [exact G|]. constructor; [apply spower_var | constructor]. }
  clear G. assert (P0 := spower_nth k bs regs (sc_return e) Pr). destruct (nth (sc_return e) regs (0, 1%N)) as (n0 & c0).
  apply andb_prop in Al. destruct Al as (Al & Ts). apply andb_prop in Al. destruct Al as (E1 & E2). apply Z.eqb_eq in E1. apply N.eqb_eq in E2. subst n0 c0.
  assert (R : forall w, srec k bs w -> bper w n).
  { intros w Hw. split; [discriminate|]. intros i. destruct P0 as (_ & A). cbn [fst snd] in A. symmetry. exact (A w i Hw). }
  split; [exact R|]. intros w Hw (i0 & NZ) m. rewrite bper_per.
  apply (per_exact 0 w n (sc_primes e)); [reflexivity | | | |].
  - intros q Hq. rewrite forallb_forall in S1. specialize (S1 q Hq). apply known_prime. exact S1.
  - apply Z.mod_divide; [discriminate|]. apply Z.eqb_eq, S2.
  - apply bper_per, R, Hw.
  - intros q Hq _ Pq. rewrite forallb_forall in S3. specialize (S3 q Hq).
    assert (T : exists t, In t (sc_tests e) /\ fst t = q).
    { clear -S3. unfold mem in S3. apply existsb_exists in S3. destruct S3 as (x & Hx & E). apply Z.eqb_eq in E. subst x.
      apply in_map_iff in Hx. destruct Hx as (t & E & Ht). exists t. split; assumption. }
    destruct T as ((q' & (j & g)) & Ht & Eq). cbn [fst] in Eq. subst q'.
    rewrite forallb_forall in Ts. specialize (Ts _ Ht). unfold stest_ok in Ts.
    assert (Pj := spower_nth k bs regs j Pr). destruct (nth j regs (0, 1%N)) as (ex & c). destruct Pj as (X0 & A). cbn [fst snd] in *.
    apply andb_prop in Ts. destruct Ts as (T1 & T2). apply Z.eqb_eq in T1.
    assert (Q0 : q <> 0) by (intros ->; unfold n in *; lia).
    assert (Ex : n / q = ex) by (rewrite <- T1; apply Z.div_mul, Q0). rewrite Ex in Pq. destruct Pq as (_ & Pq).
    apply NZ. apply (inverse_some k bs g (N.lxor c 1) w T2 Hw). intros i. rewrite lxor_act, (A w i Hw). cbn [nact pact].
    specialize (Pq i). apply (proj1 (cong_zero _ _)) in Pq. rewrite Pq. apply Z.lxor_nilpotent.
Qed.

(** ** The exact period, if it is prime *)
Definition mersenne_ok (k : nat) (bs : list nat) : bool :=
  (2 <=? k)%nat && Nat.even (length bs) &&
  match bs with b0 :: bs' => Nat.eqb b0 0 && forallb (fun b => (1 <=? b)%nat) bs' | [] => false end &&
  match sqn k bs k 1 2%N with Some (_, 2%N) => true | _ => false end.
Lemma sqn_fst k bs n : forall e c r, sqn k bs n e c = Some r -> fst r = 2 ^ Z.of_nat n * e.
Proof.
  induction n as [|n IH]; intros e c r E; cbn [sqn] in E.
  - injection E as <-. change (2 ^ Z.of_nat 0) with 1. cbn [fst]. lia.
  - destruct (reduce fuel0 k bs (nsq c)) as [y|]; [|discriminate E]. destruct (N.eqb y y); [|discriminate E].
    rewrite (IH _ _ _ E), Nat2Z.inj_succ, Z.pow_succ_r by lia. ring.
Qed.
Lemma xsum_const (x : Z) (l : list nat) : xsum (map (fun _ => x) l) = if Nat.even (length l) then 0 else x.
Proof.
  induction l as [|b l IH]; [reflexivity|]. cbn [map length]. unfold xsum in *. cbn [fold_right]. rewrite IH, Nat.even_succ, <- Nat.negb_even.
  destruct (Nat.even (length l)); cbn [negb]; [apply Z.lxor_0_r | apply Z.lxor_nilpotent].
Qed.
Theorem mersenne_exact k bs : mersenne_ok k bs = true -> prime (2 ^ Z.of_nat k - 1) -> exact k bs (2 ^ Z.of_nat k - 1).
Proof.
  intros M Pn. unfold mersenne_ok in M. apply andb_prop in M. destruct M as (M & Sq). apply andb_prop in M. destruct M as (M & Tp).
  apply andb_prop in M. destruct M as (Hk & Ev). apply Nat.leb_le in Hk.
  destruct bs as [|b0 bs']; [discriminate Tp|]. apply andb_prop in Tp. destruct Tp as (B0 & Bp). apply Nat.eqb_eq in B0. subst b0.
  set (bs := 0%nat :: bs') in *. set (n := 2 ^ Z.of_nat k - 1).
  assert (Hn : 0 < n) by (assert (H := Z.pow_le_mono_r 2 2 (Z.of_nat k) ltac:(lia) ltac:(lia)); change (2 ^ 2) with 4 in H; unfold n; lia).
  destruct (sqn k bs k 1 2%N) as [(e & c)|] eqn:S; [|discriminate Sq]. assert (Fe := sqn_fst k bs k 1 2%N _ S). cbn [fst] in Fe.
  apply (sqn_power k bs k 1 2%N) in S; [|apply spower_var].
  assert (C2 : c = 2%N) by (destruct c as [|[c|[c|c|]|]]; try discriminate Sq; reflexivity). subst c.
  destruct S as (_ & A). cbn [fst snd] in A. rewrite Fe, Z.mul_1_r in A.
  assert (R1 : forall w, srec k bs w -> forall i, w (S i + Z.to_nat n)%nat = w (S i)).
  { intros w Hw i. specialize (A w i Hw). replace (nact 2 w i) with (w (S i)) in A by reflexivity. rewrite A. f_equal. unfold n in *. lia. }
  assert (R : forall w, srec k bs w -> bper w n).
  { intros w Hw. split; [lia|]. intros [|i]; [|apply R1, Hw].
    assert (E1 := Hw 0%nat). assert (E2 := Hw (0 + Z.to_nat n)%nat).
    assert (Ek : w (0 + Z.to_nat n + k)%nat = w (0 + k)%nat).
    { destruct k as [|k']; [lia|]. replace (0 + Z.to_nat n + S k')%nat with (S k' + Z.to_nat n)%nat by lia. apply R1, Hw. }
    assert (Es : xsum (map (fun b => w (0 + Z.to_nat n + b)%nat) bs') = xsum (map (fun b => w (0 + b)%nat) bs')).
    { f_equal. apply map_ext_in. intros b Hb. rewrite forallb_forall in Bp. specialize (Bp b Hb). apply Nat.leb_le in Bp.
      destruct b as [|b]; [lia|]. replace (0 + Z.to_nat n + S b)%nat with (S b + Z.to_nat n)%nat by lia. apply R1, Hw. }
    unfold bs in E1, E2. cbn [map xsum fold_right] in E1, E2.
    change (fold_right Z.lxor 0 (map (fun b => w (0 + b)%nat) bs')) with (xsum (map (fun b => w (0 + b)%nat) bs')) in E1.
    change (fold_right Z.lxor 0 (map (fun b => w (0 + Z.to_nat n + b)%nat) bs')) with (xsum (map (fun b => w (0 + Z.to_nat n + b)%nat) bs')) in E2.
    rewrite Ek, Es, E1, !Nat.add_0_r in E2. apply Z.lxor_eq_0_iff. 
    assert (X := f_equal (fun z => Z.lxor z (xsum (map (fun b => w (0 + b)%nat) bs'))) E2). cbv beta in X.
    rewrite !Z.lxor_assoc, Z.lxor_nilpotent, !Z.lxor_0_r in X. rewrite X. apply Z.lxor_nilpotent. }
  split; [exact R|]. intros w Hw (i0 & NZ) m. rewrite bper_per.
  apply (per_exact 0 w n [n]); [exact Hn | | | |].
  - intros q [<-|[]]. exact Pn.
  - cbn [prod fold_right]. exists 1. lia.
  - apply bper_per, R, Hw.
  - intros q [<-|[]] _ (_ & P1). rewrite Z.div_same in P1 by lia. change (Z.to_nat 1) with 1%nat in P1.
    assert (Cn : forall i, w i = w 0%nat).
    { induction i as [|i IH]; [reflexivity|]. rewrite <- IH. specialize (P1 i). apply (proj1 (cong_zero _ _)) in P1. rewrite <- P1. f_equal. lia. }
    apply NZ. rewrite Cn, <- (Cn (0 + k)%nat), Hw. rewrite (map_ext _ (fun _ => w 0%nat)) by (intros b; apply Cn). rewrite xsum_const, Ev. reflexivity.
Qed.
