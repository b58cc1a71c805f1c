(** Polynomials modulo p and modulo x^k - f acting on sequences with the recurrence of f, and the exact
    period of such sequences. *)
From Coq Require Import ZArith Znumtheory List Bool Arith Lia Setoid Morphisms.
From Verif Require Import Base BaseFacts Cong Pratt.
Import ListNotations.
Open Scope Z_scope.

(** c_0 w(i) + c_1 w(i+1) + ... *)
Fixpoint ev (c : list Z) (w : nat -> Z) (i : nat) : Z :=
  match c with [] => 0 | x :: c' => x * w i + ev c' w (S i) end.

(** x d + (multiplication of acc by the variable): the variable to the power k is f *)
Fixpoint map3 (g : Z -> Z -> Z -> Z) (a b c : list Z) : list Z :=
  match a, b, c with x :: a', y :: b', z :: c' => g x y z :: map3 g a' b' c' | _, _, _ => [] end.
Definition hstep (p : Z) (f : list Z) (x : Z) (d acc : list Z) : list Z :=
  let t := last acc 0 in map3 (fun dj sj fj => (x * dj + sj + t * fj) mod p) d (0 :: removelast acc) f.
Fixpoint pmul (p : Z) (f : list Z) (c d : list Z) : list Z :=
  match c with [] => map (fun _ => 0) f | x :: c' => hstep p f x d (pmul p f c' d) end.
Fixpoint ppow (p : Z) (f : list Z) (t : list Z) (n : positive) : list Z :=
  match n with
  | xH => t
  | xO n' => let s := ppow p f t n' in pmul p f s s
  | xI n' => let s := ppow p f t n' in pmul p f t (pmul p f s s)
  end.
Definition pone (f : list Z) : list Z := match f with [] => [] | _ :: f' => 1 :: map (fun _ => 0) f' end.
Definition pvar (f : list Z) : list Z := match f with _ :: _ :: f' => 0 :: 1 :: map (fun _ => 0) f' | _ => f end.
(** c - 1 *)
Definition pminus1 (c : list Z) : list Z := match c with [] => [] | x :: c' => (x - 1) :: c' end.

Lemma map3_length g a : forall b c, length b = length a -> length c = length a -> length (map3 g a b c) = length a.
Proof. induction a; intros [|] [|] H H'; try discriminate; [reflexivity|]. cbn [map3 length] in *. rewrite IHa; congruence. Qed.

(** ** Exact periods *)
Section Per.
Variable p : Z.
Notation "x == y" := (cong p x y) (at level 70).
Definition per (w : nat -> Z) (n : Z) : Prop := 0 <= n /\ forall i, w (i + Z.to_nat n)%nat == w i.

Lemma per_add w a b : per w a -> per w b -> per w (a + b).
Proof.
  intros (Ha & A) (Hb & B). split; [lia|]. intros i. replace (i + Z.to_nat (a + b))%nat with (i + Z.to_nat a + Z.to_nat b)%nat by lia.
  rewrite B, A. reflexivity.
Qed.
Lemma per_sub w a b : per w a -> per w b -> 0 <= a - b -> per w (a - b).
Proof.
  intros (Ha & A) (Hb & B) H. split; [exact H|]. intros i. rewrite <- (B (i + _)%nat).
  replace (i + Z.to_nat (a - b) + Z.to_nat b)%nat with (i + Z.to_nat a)%nat by lia. apply A.
Qed.
Lemma per_0 w : per w 0.
Proof. split; [lia|]. intros i. replace (i + Z.to_nat 0)%nat with i by lia. reflexivity. Qed.
Lemma per_mul w a n : per w a -> 0 <= n -> per w (n * a).
Proof.
  intros A Hn. revert n Hn. apply natlike_ind; [apply per_0|]. intros n Hn IH. rewrite Z.mul_succ_l. apply per_add; assumption.
Qed.
Lemma per_gcd w : forall fuel a b, (Z.to_nat b < fuel)%nat -> per w a -> per w b -> per w (Z.gcd a b).
Proof.
  induction fuel as [|fuel IH]; intros a b Hf A B; [lia|]. pose proof (proj1 A) as HA. pose proof (proj1 B) as HB.
  destruct (Z.eq_dec b 0) as [->|N].
  - rewrite Z.gcd_0_r, Z.abs_eq by exact HA. exact A.
  - rewrite Z.gcd_comm, <- Z.gcd_mod by exact N. rewrite Z.gcd_comm.
    assert (M := Z.mod_pos_bound a b ltac:(lia)). apply IH; [lia | exact B |].
    rewrite Z.mod_eq by exact N. rewrite Z.mul_comm. apply per_sub; [exact A | |].
    + apply per_mul; [exact B|]. apply Z.div_pos; lia.
    + rewrite Z.mul_comm, <- Z.mod_eq by exact N. lia.
Qed.

(** If n is a period, the listed primes contain every prime factor of N and no N/q is a period, then N divides every period. *)
Lemma per_exact w N l : 0 < N -> (forall q, In q l -> prime q) -> (N | prod l) -> per w N ->
  (forall q, In q l -> (q | N) -> ~ per w (N / q)) -> forall n, per w n <-> 0 <= n /\ (N | n).
Proof.
  intros HN Hl HP PN Hq n. split.
  - intros Pn. split; [apply Pn|].
    set (g := Z.gcd n N). assert (Pg : per w g) by (apply (per_gcd w (S (Z.to_nat N))); [lia | exact Pn | exact PN]).
    destruct (Z.gcd_divide_r n N) as [c Hc]. fold g in Hc.
    assert (G0 : 0 < g). { assert (0 <= g) by apply Z.gcd_nonneg. assert (g <> 0); [|lia]. intros E. rewrite E in Hc. lia. }
    assert (C0 : 0 < c) by nia.
    destruct (Z.eq_dec c 1) as [->|C1].
    + replace N with g by lia. apply Z.gcd_divide_l.
    + exfalso. destruct (prime_factor_in_list c l) as (q & Hin & [d Hd]); [lia | exact Hl | |].
      { apply Z.divide_trans with N; [exists g; lia | exact HP]. }
      assert (Q2 := prime_ge_2 q (Hl q Hin)).
      apply (Hq q Hin); [exists (d * g); rewrite Hc, Hd; ring|].
      replace (N / q) with (d * g); [apply per_mul; [exact Pg|nia]|].
      rewrite Hc, Hd. replace (d * q * g) with (d * g * q) by ring. rewrite Z.div_mul by lia. reflexivity.
  - intros (H & [c Hc]). rewrite Hc. apply per_mul; [exact PN|]. nia.
Qed.
End Per.

Definition nonzero (p : Z) (w : nat -> Z) : Prop := exists i, ~ cong p (w i) 0.

Section Act.
Variables (p : Z) (f : list Z).
Notation k := (length f).
Notation "x == y" := (cong p x y) (at level 70).
Hypothesis Hk : (1 <= k)%nat.

Definition frec (w : nat -> Z) : Prop := forall i, w (i + k)%nat == ev f w i.

Lemma ev_zeros (l : list Z) w i : ev (map (fun _ => 0) l) w i = 0.
Proof. revert i. induction l; intros i; cbn [map ev]; [reflexivity|]. rewrite IHl. ring. Qed.
Lemma ev_cong c : forall w w' i, (forall j, w j == w' j) -> ev c w i == ev c w' i.
Proof. induction c; intros w w' i H; cbn [ev]; [reflexivity|]. rewrite (H i), (IHc w w' (S i) H). reflexivity. Qed.
Lemma ev_shift c : forall w i n, ev c (fun j => w (j + n)%nat) i = ev c w (i + n)%nat.
Proof. induction c; intros w i n; cbn [ev]; [reflexivity|]. rewrite IHc. reflexivity. Qed.
Lemma ev_lin c : forall w w' x i, ev c (fun j => w j + x * w' j) i = ev c w i + x * ev c w' i.
Proof. induction c; intros w w' x i; cbn [ev]; [ring|]. rewrite IHc. ring. Qed.
Lemma ev_ev c d : forall w i, ev c (ev d w) i = ev d (ev c w) i.
Proof.
  induction c as [|x c IH]; intros w i; cbn [ev].
  - revert i. induction d as [|y d IHd]; intros i; cbn [ev]; [reflexivity|]. rewrite <- IHd. ring.
  - rewrite IH.
    assert (E : forall i, ev d (fun j => x * w j + ev c w (S j)) i = x * ev d w i + ev d (ev c w) (S i)).
    { clear IH i. induction d as [|y d IHd]; intros i; cbn [ev]; [ring|]. rewrite IHd. ring. }
    symmetry. apply E.
Qed.

Lemma ev_snoc c x : forall w i, ev (c ++ [x]) w i = ev c w i + x * w (i + length c)%nat.
Proof. clear Hk.
  induction c as [|y c IH]; intros w i; cbn [app ev length].
  - replace (i + 0)%nat with i by lia. ring.
  - rewrite IH. replace (S i + length c)%nat with (i + S (length c))%nat by lia. ring.
Qed.
Lemma removelast_len (l : list Z) : length (removelast l) = (length l - 1)%nat.
Proof.
  induction l as [|x l IH]; [reflexivity|]. destruct l as [|y l]; [reflexivity|].
  change (removelast (x :: y :: l)) with (x :: removelast (y :: l)). cbn [length] in *. rewrite IH. lia.
Qed.
Lemma ev_last c w i : c <> [] -> ev c w i = ev (removelast c) w i + last c 0 * w (i + (length c - 1))%nat.
Proof.
  intros H. rewrite (app_removelast_last 0 H) at 1. rewrite ev_snoc, removelast_len. reflexivity.
Qed.

Lemma ev_map3 x t d : forall s g w i, length s = length d -> length g = length d ->
  ev (map3 (fun dj sj fj => (x * dj + sj + t * fj) mod p) d s g) w i == x * ev d w i + ev s w i + t * ev g w i.
Proof.
  induction d as [|dj d IH]; intros [|sj s] [|gj g] w i H H'; try discriminate.
  - cbn [map3 ev]. exists 0. ring.
  - cbn [map3 ev]. rewrite IH by (cbn [length] in *; congruence). rewrite cong_mod. exists 0. ring.
Qed.

Lemma hstep_length x d acc : length d = k -> length acc = k -> length (hstep p f x d acc) = k.
Proof.
  intros Hd Ha. unfold hstep. rewrite map3_length; [exact Hd| |congruence].
  cbn [length]. rewrite removelast_len. lia.
Qed.
Lemma pmul_length c d : length d = k -> length (pmul p f c d) = k.
Proof. intros Hd. induction c; cbn [pmul]; [apply map_length|]. apply hstep_length; assumption. Qed.

Lemma pmul_ev c d w : length d = k -> frec w -> forall i, ev (pmul p f c d) w i == ev c (ev d w) i.
Proof.
  intros Hd Hw. induction c as [|x c IH]; intros i; cbn [pmul ev].
  - rewrite ev_zeros. reflexivity.
  - set (acc := pmul p f c d) in *. assert (La : length acc = k) by (apply pmul_length, Hd).
    unfold hstep. rewrite ev_map3; [| cbn [length]; rewrite removelast_len; lia | congruence].
    cbn [ev]. rewrite <- (IH (S i)). rewrite <- (Hw i).
    rewrite (ev_last acc w (S i)) by (intros E; rewrite E in La; cbn in La; lia).
    replace (S i + (length acc - 1))%nat with (i + k)%nat by lia. exists 0. ring.
Qed.

Lemma frec_ev c w : frec w -> frec (ev c w).
Proof.
  intros H i. rewrite ev_ev. rewrite <- (ev_shift c w i k).
  apply ev_cong. intros j. exact (H j).
Qed.

(** powers act by iteration *)
Lemma iter_frec t n w : frec w -> frec (Nat.iter n (ev t) w).
Proof. intros H. induction n; [exact H|]. cbn [Nat.iter nat_rect]. apply frec_ev, IHn. Qed.
Lemma iter_cong t n : forall w w', (forall j, w j == w' j) -> forall j, Nat.iter n (ev t) w j == Nat.iter n (ev t) w' j.
Proof. induction n; intros w w' H j; [apply H|]. cbn [Nat.iter nat_rect]. apply ev_cong. intros i. apply IHn, H. Qed.
Lemma iter_add {A} (g : A -> A) a b x : Nat.iter (a + b) g x = Nat.iter a g (Nat.iter b g x).
Proof. induction a; [reflexivity|]. cbn [Nat.add Nat.iter nat_rect]. f_equal. exact IHa. Qed.
Lemma ppow_length t n : length t = k -> length (ppow p f t n) = k.
Proof. intros H. induction n; cbn [ppow]; [apply pmul_length, pmul_length, IHn | apply pmul_length, IHn | exact H]. Qed.
Lemma ppow_ev t n : length t = k -> forall w, frec w -> forall i, ev (ppow p f t n) w i == Nat.iter (Pos.to_nat n) (ev t) w i.
Proof.
  intros Ht. induction n as [n IH|n IH|]; intros w Hw i; cbn [ppow].
  - assert (L := ppow_length t n Ht).
    assert (Sq : forall i, ev (pmul p f (ppow p f t n) (ppow p f t n)) w i == Nat.iter (Pos.to_nat n + Pos.to_nat n) (ev t) w i).
    { intros j. rewrite pmul_ev by assumption. rewrite iter_add. rewrite IH by (apply frec_ev, Hw).
      apply iter_cong. intros l. apply IH, Hw. }
    rewrite pmul_ev by (try apply pmul_length; assumption). replace (Pos.to_nat n~1) with (S (Pos.to_nat n + Pos.to_nat n)) by lia.
    cbn [Nat.iter nat_rect]. apply ev_cong. exact Sq.
  - assert (L := ppow_length t n Ht). rewrite pmul_ev by assumption. replace (Pos.to_nat n~0) with (Pos.to_nat n + Pos.to_nat n)%nat by lia.
    rewrite iter_add. rewrite IH by (apply frec_ev, Hw). apply iter_cong. intros l. apply IH, Hw.
  - reflexivity.
Qed.

Lemma pone_ev w i : ev (pone f) w i = w i.
Proof. destruct f; [cbn in Hk; lia|]. cbn [pone ev]. rewrite ev_zeros. ring. Qed.
Lemma pone_length : length (pone f) = k.
Proof. destruct f; [reflexivity|]. cbn [pone length]. rewrite map_length. reflexivity. Qed.
Lemma pminus1_ev c w i : c <> [] -> ev (pminus1 c) w i = ev c w i - w i.
Proof. destruct c; [congruence|]. intros _. cbn [pminus1 ev]. ring. Qed.
Lemma pminus1_length c : length (pminus1 c) = length c.
Proof. destruct c; reflexivity. Qed.

Hypothesis Hk2 : (2 <= k)%nat.
Lemma pvar_ev w i : ev (pvar f) w i = w (S i).
Proof. destruct f as [|? [|? ?]]; cbn in Hk2; try lia. cbn [pvar ev]. rewrite ev_zeros. ring. Qed.
Lemma pvar_length : length (pvar f) = k.
Proof. destruct f as [|? [|? ?]]; cbn in Hk2; try lia. cbn [pvar length]. rewrite map_length. reflexivity. Qed.
Lemma iter_pvar n w i : Nat.iter n (ev (pvar f)) w i = w (i + n)%nat.
Proof.
  revert i. induction n; intros i; [cbn [Nat.iter nat_rect]; f_equal; lia|].
  change (Nat.iter (S n) (ev (pvar f)) w) with (ev (pvar f) (Nat.iter n (ev (pvar f)) w)). rewrite pvar_ev, IHn. f_equal. lia.
Qed.
Lemma ppow_var n w i : frec w -> ev (ppow p f (pvar f) n) w i == w (i + Pos.to_nat n)%nat.
Proof. intros H. rewrite ppow_ev by (try exact H; apply pvar_length). rewrite iter_pvar. reflexivity. Qed.


(** A power of the variable that differs from 1 by a unit is not a period of any sequence but zero. *)
Lemma unit_not_per w n g c : frec w -> nonzero p w -> c <> [] -> (forall i, ev c w i == w (i + Z.to_nat n)%nat) ->
  length (pminus1 c) = k -> pmul p f g (pminus1 c) = pone f -> ~ per p w n.
Proof.
  intros Hw (i & Hi) Hc Ec Lc Hg (_ & P). apply Hi. rewrite <- (pone_ev w i), <- Hg, pmul_ev by assumption.
  assert (Z0 : forall j, ev (pminus1 c) w j == 0).
  { intros j. rewrite pminus1_ev by exact Hc. rewrite (Ec j), (P j). exists 0. ring. }
  rewrite (ev_cong g _ (fun _ => 0) i Z0). clear. revert i. induction g; intros i; cbn [ev]; [reflexivity|].
  rewrite IHg. exists 0. ring.
Qed.
End Act.

(** Certificate: for a prime q the exponent N/q is written as u * v, the power of the variable computed in two steps,
    and an inverse of that power minus one is given. *)
Fixpoint leqb (l l' : list Z) : bool :=
  match l, l' with [], [] => true | x :: t, y :: t' => (x =? y) && leqb t t' | _, _ => false end.
Lemma leqb_eq l : forall l', leqb l l' = true -> l = l'.
Proof.
  induction l; intros [|] H; try discriminate H; [reflexivity|]. cbn [leqb] in H. apply andb_prop in H. destruct H as (E & H).
  apply Z.eqb_eq in E. f_equal; [exact E | apply IHl, H].
Qed.

(** [u] a partial exponent with its power; the quotients N/q = u*v with the inverses *)
Record pcert := PCert { pc_u : positive; pc_tests : list (Z * (positive * list Z)) }.
Definition test_ok (p : Z) (f : list Z) (N : Z) (u : positive) (y : list Z) (e : Z * (positive * list Z)) : bool :=
  let '(q, (v, g)) := e in
  (q * (Z.pos u * Z.pos v) =? N) && leqb (pmul p f g (pminus1 (ppow p f y v))) (pone f).
Definition cert_ok (p : Z) (f : list Z) (N : Z) (c : pcert) : bool :=
  let y := ppow p f (pvar f) (pc_u c) in forallb (test_ok p f N (pc_u c) y) (pc_tests c).
Definition returns_ok (p : Z) (f : list Z) (N : positive) : bool := leqb (ppow p f (pvar f) N) (pone f).

Section Check.
Variables (p : Z) (f : list Z).
Hypothesis Hk : (2 <= length f)%nat.
Notation "x == y" := (cong p x y) (at level 70).

Lemma ppow_two u v w i : frec p f w -> ev (ppow p f (ppow p f (pvar f) u) v) w i == w (i + Z.to_nat (Z.pos u * Z.pos v))%nat.
Proof.
  intros Hw. assert (K1 : (1 <= length f)%nat) by lia.
  rewrite ppow_ev; [| exact K1 | apply ppow_length, pvar_length; assumption | exact Hw].
  assert (E : forall n i, Nat.iter n (ev (ppow p f (pvar f) u)) w i == w (i + n * Pos.to_nat u)%nat).
  { induction n; intros j; cbn [Nat.iter nat_rect]; [replace (j + 0 * Pos.to_nat u)%nat with j by lia; reflexivity|].
    rewrite (ev_cong p _ _ (fun i => w (i + n * Pos.to_nat u)%nat)) by exact IHn.
    rewrite (ev_shift (ppow p f (pvar f) u) w j (n * Pos.to_nat u)). rewrite ppow_var by (try exact Hw; exact Hk || exact K1).
    replace (j + n * Pos.to_nat u + Pos.to_nat u)%nat with (j + S n * Pos.to_nat u)%nat by lia. reflexivity. }
  rewrite E. replace (Z.to_nat (Z.pos u * Z.pos v)) with (Pos.to_nat v * Pos.to_nat u)%nat by lia. reflexivity.
Qed.

Lemma returns_per N w : returns_ok p f N = true -> frec p f w -> per p w (Z.pos N).
Proof.
  intros H Hw. split; [lia|]. intros i. apply leqb_eq in H. rewrite Z2Nat.inj_pos.
  rewrite <- (ppow_var p f ltac:(lia) Hk N w i Hw). rewrite H. rewrite pone_ev by lia. reflexivity.
Qed.

Theorem period_exact N l certs w : (forall q, In q l -> prime q) -> (Z.pos N | prod l) -> returns_ok p f N = true ->
  forallb (cert_ok p f (Z.pos N)) certs = true ->
  (forall q, In q l -> (q | Z.pos N) -> In q (flat_map (fun c => map fst (pc_tests c)) certs)) ->
  frec p f w -> nonzero p w -> forall n, per p w n <-> 0 <= n /\ (Z.pos N | n).
Proof.
  intros Hl HP HR HC Hcov Hw Hnz. assert (PN : per p w (Z.pos N)) by (apply returns_per; assumption).
  apply (per_exact p) with l; [lia | exact Hl | exact HP | exact PN |].
  intros q Hq Hd Pq. specialize (Hcov q Hq Hd). apply in_flat_map in Hcov. destruct Hcov as (c & Hc & Hin).
  rewrite forallb_forall in HC. specialize (HC c Hc). unfold cert_ok in HC. cbv zeta in HC. rewrite forallb_forall in HC.
  apply in_map_iff in Hin. destruct Hin as ((q' & v & g) & E & Hin). cbn [fst] in E. subst q'.
  specialize (HC _ Hin). unfold test_ok in HC. apply andb_prop in HC. destruct HC as (E & HG). apply Z.eqb_eq in E. apply leqb_eq in HG.
  assert (Q2 := prime_ge_2 q (Hl q Hq)).
  assert (Eq : Z.pos N / q = Z.pos (pc_u c) * Z.pos v).
  { rewrite <- E. rewrite Z.mul_comm, Z.div_mul by lia. reflexivity. }
  rewrite Eq in Pq. revert Pq.
  assert (L : length (ppow p f (ppow p f (pvar f) (pc_u c)) v) = length f) by (apply ppow_length, ppow_length, pvar_length; lia).
  apply unit_not_per with (f := f) (g := g) (c := ppow p f (ppow p f (pvar f) (pc_u c)) v); try assumption.
  - lia.
  - intros E0. rewrite E0 in L. cbn in L. lia.
  - intros i. apply ppow_two, Hw.
  - rewrite pminus1_length. exact L.
Qed.
End Check.
