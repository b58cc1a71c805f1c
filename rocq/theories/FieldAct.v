(** Sequences with an irreducible recurrence: decimated sequences keep the order of the recurrence. *)
From Coq Require Import ZArith Znumtheory List Bool Arith Lia Setoid Morphisms Ring.
From Verif Require Import Base BaseFacts Cong Sums LinRec Pratt PolyAct.
Import ListNotations.
Open Scope Z_scope.

(** ** Polynomials over the integers, acting on sequences *)
Fixpoint padd (c d : list Z) : list Z :=
  match c, d with [], _ => d | _, [] => c | x :: c', y :: d' => (x + y) :: padd c' d' end.
Definition pscale (x : Z) (d : list Z) : list Z := map (Z.mul x) d.
Fixpoint conv (c d : list Z) : list Z := match c with [] => [] | x :: c' => padd (pscale x d) (0 :: conv c' d) end.
Definition popp (d : list Z) : list Z := pscale (-1) d.
Definition psub (c d : list Z) : list Z := padd c (popp d).
Definition shiftop (n : nat) : list Z := repeat 0 n ++ [1].

Lemma ev_padd c : forall d w i, ev (padd c d) w i = ev c w i + ev d w i.
Proof. induction c as [|x c IH]; intros [|y d] w i; cbn [padd ev]; try ring. rewrite IH. ring. Qed.
Lemma ev_pscale x d w i : ev (pscale x d) w i = x * ev d w i.
Proof. revert i. unfold pscale. induction d as [|y d IH]; intros i; cbn [map ev]; [ring|]. rewrite IH. ring. Qed.
Lemma ev_conv c d : forall w i, ev (conv c d) w i = ev c (ev d w) i.
Proof.
  induction c as [|x c IH]; intros w i; cbn [conv ev]; [reflexivity|].
  rewrite ev_padd, ev_pscale. cbn [ev]. rewrite IH. ring.
Qed.
Lemma ev_popp d w i : ev (popp d) w i = - ev d w i.
Proof. unfold popp. rewrite ev_pscale. ring. Qed.
Lemma ev_psub c d w i : ev (psub c d) w i = ev c w i - ev d w i.
Proof. unfold psub. rewrite ev_padd, ev_popp. ring. Qed.
Lemma ev_shiftop n : forall w i, ev (shiftop n) w i = w (i + n)%nat.
Proof.
  unfold shiftop. induction n; intros w i; cbn [repeat app ev]; [replace (i + 0)%nat with i by lia; ring|].
  rewrite IHn. replace (S i + n)%nat with (i + S n)%nat by lia. ring.
Qed.

Lemma pigeon_Z (N M : Z) (g : Z -> Z) : 0 <= M < N -> (forall x, 0 <= x < N -> 0 <= g x < M) ->
  (forall x y, 0 <= x < N -> 0 <= y < N -> g x = g y -> x = y) -> False.
Proof.
  intros H B Inj. destruct (inj_surj_Z N g) with (v := M) as (x & Hx & E).
  - intros x Hx. specialize (B x Hx). lia.
  - exact Inj.
  - lia.
  - specialize (B x Hx). lia.
Qed.

Section Field.
Variables (p : Z) (f : list Z).
Hypothesis Hp : prime p.
Notation k := (length f).
Hypothesis Hk : (2 <= k)%nat.
Notation "x == y" := (cong p x y) (at level 70).
Notation V := (frec p f).
Let P2 : 2 <= p := prime_ge_2 p Hp.

(** Equality as operators on the sequences with the recurrence. *)
Definition oeq (c d : list Z) : Prop := forall w, V w -> forall i, ev c w i == ev d w i.
Notation "c =o d" := (oeq c d) (at level 70).

Global Instance oeq_equiv : Equivalence oeq.
Proof.
  split.
  - intros c w _ i. reflexivity.
  - intros c d H w Hw i. symmetry. apply H, Hw.
  - intros c d e H H' w Hw i. rewrite (H w Hw i). apply H', Hw.
Qed.
Global Instance padd_oeq : Proper (oeq ==> oeq ==> oeq) padd.
Proof. intros c c' H d d' H' w Hw i. rewrite !ev_padd, (H w Hw i), (H' w Hw i). reflexivity. Qed.
Global Instance conv_oeq : Proper (oeq ==> oeq ==> oeq) conv.
Proof.
  intros c c' H d d' H' w Hw i. rewrite !ev_conv. rewrite (ev_cong p c _ (ev d' w)) by (intros j; apply H', Hw).
  apply H, frec_ev, Hw.
Qed.
Global Instance popp_oeq : Proper (oeq ==> oeq) popp.
Proof. intros c c' H w Hw i. rewrite !ev_popp, (H w Hw i). reflexivity. Qed.

Global Instance psub_oeq : Proper (oeq ==> oeq ==> oeq) psub.
Proof. intros c c' H d d' H' w Hw i. rewrite !ev_psub, (H w Hw i), (H' w Hw i). reflexivity. Qed.

Lemma oeq_ring : ring_theory [] [1] padd conv psub popp oeq.
Proof.
  assert (E : forall x y, x = y -> x == y) by (intros x y ->; reflexivity).
  split; intros; intros w Hw i; apply E; repeat (rewrite ?ev_padd, ?ev_psub, ?ev_popp, ?ev_conv); cbn [ev]; try ring.
  - apply ev_ev.
  - clear. revert i. induction x as [|a x IH]; intros i; cbn [ev]; [reflexivity|]. rewrite ev_conv, IH. reflexivity.
Qed.
Lemma oeq_ring_ext : ring_eq_ext padd conv popp oeq.
Proof. split; [exact padd_oeq | exact conv_oeq | exact popp_oeq]. Qed.
Add Ring OpRing : oeq_ring (setoid oeq_equiv oeq_ring_ext).

Lemma oeq_0 c : c =o [] <-> forall w, V w -> forall i, ev c w i == 0.
Proof. reflexivity. Qed.

(** ** A polynomial of degree below n with n roots whose differences are regular is zero *)
Fixpoint heval (q : list (list Z)) (a : list Z) : list Z :=
  match q with [] => [] | c :: q' => padd c (conv a (heval q' a)) end.
Fixpoint quot (a : list Z) (q : list (list Z)) : list (list Z) :=
  match q with [] => [] | c :: q' => match q' with [] => [] | _ => heval q' a :: quot a q' end end.
Lemma quot_length a q : length (quot a q) = (length q - 1)%nat.
Proof.
  induction q as [|c q IH]; [reflexivity|]. cbn [quot]. destruct q as [|c' q]; [reflexivity|].
  cbn [length] in *. rewrite IH. lia.
Qed.
Lemma quot_identity a b q : conv (psub b a) (heval (quot a q) b) =o psub (heval q b) (heval q a).
Proof.
  induction q as [|c q IH]; cbn [quot heval]; [ring|]. destruct q as [|c' q].
  - cbn [heval]. ring.
  - set (q1 := c' :: q) in *. cbn [heval]. change (match q1 with [] => [] | c0 :: q' => padd c0 (conv a (heval q' a)) end) with (heval q1 a).
    transitivity (padd (conv (psub b a) (heval q1 a)) (conv b (conv (psub b a) (heval (quot a q1) b)))); [ring|].
    rewrite IH. ring.
Qed.
Definition regular (c : list Z) : Prop := forall d, conv c d =o [] -> d =o [].
Lemma roots_zero A : forall q, (length q <= length A)%nat ->
  ForallOrdPairs (fun a b => regular (psub b a)) A ->
  (forall a, In a A -> heval q a =o []) -> forall c, In c q -> c =o [].
Proof.
  induction A as [|a A IH]; intros q L O H c Hc.
  - destruct q; [contradiction | cbn in L; lia].
  - inversion O as [|? ? O1 O2]; subst. rewrite Forall_forall in O1.
    assert (Q : forall r, In r (quot a q) -> r =o []).
    { apply IH; [rewrite quot_length; cbn [length] in L; lia | exact O2|].
      intros b Hb. apply (O1 b Hb). rewrite quot_identity, (H a) by (left; reflexivity). rewrite (H b) by (right; exact Hb). ring. }
    clear IH L O O1 O2. assert (Ha := H a (or_introl eq_refl)). clear H. revert Ha Q c Hc.
    induction q as [|c0 q IHq]; intros Ha Q c Hc; [contradiction|]. cbn [heval] in Ha.
    assert (Hq : heval q a =o []).
    { destruct q as [|c1 q]; [reflexivity|]. apply Q. left. reflexivity. }
    destruct Hc as [<-|Hc].
    + transitivity (psub (padd c0 (conv a (heval q a))) (conv a (heval q a))); [ring|]. rewrite Ha, Hq. ring.
    + apply IHq; [exact Hq | | exact Hc]. intros r Hr. apply Q. cbn [quot]. destruct q as [|c1 q]; [contradiction | right; exact Hr].
Qed.

(** ** Decimation *)
Variable N : Z.
Hypothesis HN : 0 < N.
Hypothesis HX : forall w, V w -> nonzero p w -> forall n, per p w n <-> 0 <= n /\ (N | n).
(** the p-th power of the variable satisfies the recurrence *)
Hypothesis Frob : forall w, V w -> forall t, V (fun i => w (Z.to_nat p * i + t)%nat).

Lemma V_shift w n : V w -> V (fun i => w (i + n)%nat).
Proof. intros H i. rewrite (ev_shift f w i n). replace (i + k + n)%nat with (i + n + k)%nat by lia. apply H. Qed.
Lemma V_zero w : V w -> (forall i, (i < k)%nat -> w i == 0) -> forall i, w i == 0.
Proof.
  intros H H0 i. induction i as [i IH] using lt_wf_ind. destruct (Nat.lt_ge_cases i k) as [L|L]; [apply H0, L|].
  replace i with (i - k + k)%nat by lia. rewrite (H (i - k)%nat).
  assert (E : forall c j, (j + length c <= i)%nat -> ev c w j == 0).
  { induction c as [|x c IHc]; intros j Hj; cbn [ev length] in *; [reflexivity|]. rewrite IHc by lia. rewrite IH by lia. exists 0. ring. }
  apply E. lia.
Qed.
Lemma V_add w w' x : V w -> V w' -> V (fun i => w i + x * w' i).
Proof. intros H H' i. rewrite ev_lin, <- (H i), <- (H' i). reflexivity. Qed.
Lemma ev_scale_seq c x w i : ev c (fun j => x * w j) i = x * ev c w i.
Proof. revert i. induction c as [|y c IH]; intros i; cbn [ev]; [ring|]. rewrite IH. ring. Qed.

Lemma nonzero_dec w : V w -> nonzero p w \/ forall i, w i == 0.
Proof.
  intros H. destruct (forallb (fun i => w i mod p =? 0) (seq 0 k)) eqn:E.
  - right. apply V_zero; [exact H|]. intros i Hi. rewrite forallb_forall in E. specialize (E i ltac:(apply in_seq; lia)).
    apply Z.eqb_eq in E. apply cong_iff; [lia|]. rewrite E, Z.mod_0_l by lia. reflexivity.
  - left. assert (X : exists i, In i (seq 0 k) /\ (w i mod p =? 0) = false).
    { clear -E. induction (seq 0 k) as [|a l IH]; [discriminate|]. cbn [forallb] in E. apply andb_false_iff in E.
      destruct E as [E|E]; [exists a; split; [left; reflexivity | exact E]|]. destruct (IH E) as (i & Hi & Ei). exists i. split; [right; exact Hi | exact Ei]. }
    destruct X as (i & _ & Ei). exists i. intros C. apply Z.eqb_neq in Ei. apply Ei. apply cong_iff in C; [|lia]. rewrite C. apply Z.mod_0_l. lia.
Qed.

(** k values in base p *)
Fixpoint code (j : nat) (w : nat -> Z) : Z := match j with O => 0 | S j' => w j' mod p + p * code j' w end.
Lemma code_range j w : 0 <= code j w < p ^ Z.of_nat j.
Proof.
  induction j; [cbn; lia|]. cbn [code]. assert (B := Z.mod_pos_bound (w j) p ltac:(lia)).
  rewrite Nat2Z.inj_succ, Z.pow_succ_r by lia. nia.
Qed.
Lemma code_inj j w w' : code j w = code j w' -> forall i, (i < j)%nat -> w i == w' i.
Proof.
  induction j; intros E i Hi; [lia|]. cbn [code] in E.
  assert (B := Z.mod_pos_bound (w j) p ltac:(lia)). assert (B' := Z.mod_pos_bound (w' j) p ltac:(lia)).
  assert (E2 : code j w = code j w').
  { apply (f_equal (fun z => z / p)) in E. rewrite !(Z.mul_comm p), !Z.div_add, !Z.div_small in E by lia. lia. }
  destruct (Nat.eq_dec i j) as [->|]; [|apply IHj; [exact E2 | lia]]. apply cong_iff; [lia|]. nia.
Qed.

Lemma units x : ~ x == 0 -> exists y, y * x == 1.
Proof.
  intros H. assert (RP : rel_prime p x).
  { apply prime_rel_prime; [exact Hp|]. intros D. apply H. unfold cong. rewrite Z.sub_0_r. exact D. }
  destruct (rel_prime_bezout _ _ RP) as [u v E]. exists v. exists (- u). rewrite <- E. ring.
Qed.

(** The orbit of a sequence is so large that an operator that annihilates one sequence annihilates all. *)
Hypothesis Hbig : p ^ Z.of_nat k < p * (N + 1).
Lemma kill_all c u : V u -> nonzero p u -> (forall i, ev c u i == 0) -> c =o [].
Proof.
  intros Hu Nu Ku w Hw. cbn [ev]. assert (Vc : V (ev c w)) by (apply frec_ev, Hw).
  destruct (nonzero_dec (ev c w) Vc) as [NZ|]; [exfalso | assumption].
  set (el := fun z : Z => let i := z mod (N + 1) in fun j => (if i =? 0 then 0 else u (j + Z.to_nat i)%nat) + z / (N + 1) * w j).
  assert (Vel : forall z, V (el z)).
  { intros z. unfold el. destruct (z mod (N + 1) =? 0).
    - apply (V_add (fun _ => 0)); [|exact Hw]. intros i. clear. assert (E : forall g, ev g (fun _ => 0) i = 0).
      { intros g. revert i. induction g as [|y g IH]; intros i; cbn [ev]; [reflexivity|]. rewrite IH. ring. } rewrite E. reflexivity.
    - apply V_add; [apply V_shift, Hu | exact Hw]. }
  apply (pigeon_Z (p * (N + 1)) (p ^ Z.of_nat k) (fun z => code k (el z))).
  - split; [apply Z.pow_nonneg; lia | exact Hbig].
  - intros z _. apply code_range.
  - intros y z Hy Hz E.
    assert (EE : forall j, el y j == el z j).
    { assert (Vd : V (fun j => el y j + -1 * el z j)) by (apply V_add; apply Vel).
      assert (Z0 := V_zero _ Vd). cbv beta in Z0. intros j.
      specialize (fun H => Z0 H j). assert (D : el y j + -1 * el z j == 0).
      { apply Z0. intros i Hi. rewrite (code_inj k _ _ E i Hi). exists 0. ring. }
      unfold cong in *. replace (el y j - el z j) with (el y j + -1 * el z j - 0) by ring. exact D. }
    assert (By := Z.mod_pos_bound y (N + 1) ltac:(lia)). assert (Bz := Z.mod_pos_bound z (N + 1) ltac:(lia)).
    assert (Dy := Z.div_mod y (N + 1) ltac:(lia)). assert (Dz := Z.div_mod z (N + 1) ltac:(lia)).
    assert (Qy : 0 <= y / (N + 1) < p) by (split; [apply Z.div_pos; lia | apply Z.div_lt_upper_bound; lia]).
    assert (Qz : 0 <= z / (N + 1) < p) by (split; [apply Z.div_pos; lia | apply Z.div_lt_upper_bound; lia]).
    set (i := y mod (N + 1)) in *. set (i' := z mod (N + 1)) in *. set (a := y / (N + 1)) in *. set (a' := z / (N + 1)) in *.
    set (part := fun (i : Z) (j : nat) => if i =? 0 then 0 else u (j + Z.to_nat i)%nat).
    assert (Kp : forall i j, ev c (part i) j == 0).
    { intros i0 j. unfold part. destruct (i0 =? 0).
      - assert (E0 : forall g l, ev g (fun _ => 0) l = 0) by (induction g as [|b g IH]; intros l; cbn [ev]; [reflexivity | rewrite IH; ring]).
        rewrite E0. reflexivity.
      - rewrite (ev_shift c u j (Z.to_nat i0)). apply Ku. }
    assert (Eel : forall j, part i j + a * w j == part i' j + a' * w j) by exact EE.
    assert (Ea : a = a').
    { apply (cong_eq p); [lia | lia |]. destruct (Z.eq_dec ((a - a') mod p) 0) as [M|M].
      - unfold cong. apply Z.mod_divide in M; [exact M | lia].
      - exfalso. destruct NZ as (j & Hj). apply Hj.
        assert (T : (a - a') * ev c w j == 0).
        { assert (C := ev_cong p c _ _ j Eel). rewrite !ev_lin, !Kp in C. unfold cong in *.
          replace ((a - a') * ev c w j - 0) with (0 + a * ev c w j - (0 + a' * ev c w j)) by ring. exact C. }
        destruct (units (a - a')) as (b & Hb).
        { intros C. apply M. apply cong_iff in C; [|lia]. rewrite C. apply Z.mod_0_l. lia. }
        transitivity (b * (a - a') * ev c w j); [rewrite Hb; exists 0; ring|]. rewrite <- Z.mul_assoc, T. exists 0. ring. }
    assert (Ei : i = i').
    { assert (Ep : forall j, part i j == part i' j).
      { intros j. specialize (Eel j). rewrite Ea in Eel. unfold cong in *.
        replace (part i j - part i' j) with (part i j + a' * w j - (part i' j + a' * w j)) by ring. exact Eel. }
      unfold part in Ep.
      assert (Nz : forall l, 0 < l -> ~ forall j, u (j + Z.to_nat l)%nat == 0).
      { intros l Hl Z0. destruct Nu as (j & Hj). apply Hj.
        assert (Pr : per p u (l * N)) by (apply HX; [exact Hu | exists j; exact Hj | split; [nia | exists l; ring]]).
        destruct Pr as (_ & Pr). rewrite <- (Pr j).
        replace (j + Z.to_nat (l * N))%nat with (j + (Z.to_nat l * (Z.to_nat N - 1)) + Z.to_nat l)%nat by nia. apply Z0. }
      destruct (Z.eqb_spec i 0) as [E1|N1], (Z.eqb_spec i' 0) as [E2|N2].
      - lia.
      - exfalso. apply (Nz i'); [lia|]. intros j. symmetry. apply Ep.
      - exfalso. apply (Nz i); [lia|]. apply Ep.
      - assert (W : forall x y, 0 < x <= N -> 0 < y <= N -> x <= y -> (forall j, u (j + Z.to_nat x)%nat == u (j + Z.to_nat y)%nat) -> x = y).
        { intros x y' Hx Hy' L Exy. assert (Pr : per p (fun j => u (j + Z.to_nat x)%nat) (y' - x)).
          { split; [lia|]. intros j. replace (j + Z.to_nat (y' - x) + Z.to_nat x)%nat with (j + Z.to_nat y')%nat by lia. symmetry. apply Exy. }
          apply HX in Pr; [|apply V_shift, Hu |].
          - destruct Pr as (_ & [q Hq]). assert (q = 0) by nia. lia.
          - destruct (nonzero_dec _ (V_shift u (Z.to_nat x) Hu)) as [Y|Y]; [exact Y | elim (Nz x ltac:(lia) Y)]. }
        destruct (Z.le_ge_cases i i') as [L|L]; [apply W; try lia; exact Ep | symmetry; apply W; try lia; intros j; symmetry; apply Ep]. }
    rewrite Dy, Dz, Ea, Ei. reflexivity.
Qed.

(** The decimation. *)
Variable s : nat.
Hypothesis Hs : forall a b : nat, (a < b < k)%nat -> ~ (N | Z.of_nat s * (p ^ Z.of_nat b - p ^ Z.of_nat a)).
Notation e r := (s * Z.to_nat (p ^ Z.of_nat r))%nat.

Lemma regular_diff a b : (a < b < k)%nat -> regular (psub (shiftop (e b)) (shiftop (e a))).
Proof.
  intros Hab d H w Hw. cbn [ev]. destruct (nonzero_dec (ev d w) (frec_ev p f d w Hw)) as [NZ|]; [exfalso | assumption].
  assert (D : 0 < p ^ Z.of_nat a <= p ^ Z.of_nat b) by (split; [apply Z.pow_pos_nonneg; lia | apply Z.pow_le_mono_r; lia]).
  set (x := p ^ Z.of_nat a) in *. set (y := p ^ Z.of_nat b) in *.
  assert (K : forall i, ev d w (i + s * Z.to_nat y)%nat == ev d w (i + s * Z.to_nat x)%nat).
  { intros i. specialize (H w Hw i). rewrite ev_conv, ev_psub, !ev_shiftop in H. unfold cong in *. rewrite Z.sub_0_r in H. exact H. }
  set (v := fun i => ev d w (i + s * Z.to_nat x)%nat).
  assert (Vv : V v) by (apply (V_shift (ev d w)), frec_ev, Hw).
  assert (Nv : nonzero p v).
  { destruct (nonzero_dec v Vv) as [Y|Z0]; [exact Y|exfalso]. destruct NZ as (j & Hj). apply Hj.
    assert (Pr : per p (ev d w) (Z.of_nat (s * Z.to_nat x) * N)) by (apply HX; [apply frec_ev, Hw | exists j; exact Hj | split; [nia | exists (Z.of_nat (s * Z.to_nat x)); ring]]).
    destruct Pr as (_ & Pr). rewrite <- (Pr j). set (l := (s * Z.to_nat x)%nat) in *.
    replace (j + Z.to_nat (Z.of_nat l * N))%nat with (j + l * (Z.to_nat N - 1) + l)%nat by nia. apply Z0. }
  apply (Hs a b Hab). fold x y.
  assert (Pr : per p v (Z.of_nat s * (y - x))); [|apply HX in Pr; [apply Pr | exact Vv | exact Nv]].
  split; [nia|]. intros i. unfold v.
  replace (i + Z.to_nat (Z.of_nat s * (y - x)) + s * Z.to_nat x)%nat with (i + s * Z.to_nat y)%nat by nia. apply K.
Qed.

Definition comb (d : nat -> Z) (n : nat) (w : nat -> Z) (t : nat) : Z := sum k (fun j => d j * w (t + n * j)%nat).
Lemma heval_comb d n l : forall o w t, ev (heval (map (fun j => [d j]) (seq o l)) (shiftop n)) w t = sum l (fun j => d (o + j)%nat * w (t + n * j)%nat).
Proof.
  induction l as [|l IH]; intros o w t; [reflexivity|]. cbn [seq map heval]. rewrite ev_padd, ev_conv, ev_shiftop, IH, sum_shift. cbn [ev].
  replace (o + 0)%nat with o by lia. replace (t + n * 0)%nat with t by lia.
  rewrite (sum_ext l (fun j => d (S o + j)%nat * w (t + n + n * j)%nat) (fun j => d (o + S j)%nat * w (t + n * S j)%nat)); [ring|].
  intros j _. f_equal; f_equal; lia.
Qed.

Lemma independent d u : V u -> nonzero p u -> (forall t, comb d s u t == 0) -> forall j, (j < k)%nat -> d j == 0.
Proof.
  intros Hu Nu H.
  assert (D0 : forall w, V w -> forall t, comb d s w t == 0).
  { assert (K := kill_all (heval (map (fun j => [d j]) (seq 0 k)) (shiftop s)) u Hu Nu).
    assert (E : forall w t, ev (heval (map (fun j => [d j]) (seq 0 k)) (shiftop s)) w t = comb d s w t) by (intros w t; apply (heval_comb d s k 0 w t)).
    intros w Hw t. rewrite <- E. apply K; [intros i; rewrite E; apply H | exact Hw]. }
  assert (Dr : forall r w, V w -> forall t, comb d (e r) w t == 0).
  { induction r; intros w Hw t.
    - replace (e 0) with s; [apply D0, Hw|]. change (p ^ Z.of_nat 0) with 1. change (Z.to_nat 1) with 1%nat. lia.
    - specialize (IHr _ (Frob w Hw t) 0%nat). unfold comb in *. rewrite <- IHr. apply sum_cong. intros j _.
      replace (t + e (S r) * j)%nat with (Z.to_nat p * (0 + e r * j) + t)%nat; [reflexivity|].
      rewrite Nat2Z.inj_succ, Z.pow_succ_r by lia. rewrite Z2Nat.inj_mul by (try apply Z.pow_nonneg; lia). nia. }
  assert (R : forall c, In c (map (fun j => [d j]) (seq 0 k)) -> c =o []).
  { apply roots_zero with (A := map (fun r => shiftop (e r)) (seq 0 k)).
    - rewrite !map_length. lia.
    - assert (G : forall l o, (o + l <= k)%nat -> ForallOrdPairs (fun a b => regular (psub b a)) (map (fun r => shiftop (e r)) (seq o l))).
      { induction l as [|l IH]; intros o L; cbn [seq map]; constructor; [|apply IH; lia].
        apply Forall_forall. intros x Hx. apply in_map_iff in Hx. destruct Hx as (r & <- & Hr). apply in_seq in Hr. apply regular_diff. lia. }
      apply G. lia.
    - intros a Ha. apply in_map_iff in Ha. destruct Ha as (r & <- & _). intros w Hw t. rewrite (heval_comb d (e r) k 0 w t). apply (Dr r w Hw t). }
  intros j Hj. specialize (R [d j] ltac:(apply (in_map (fun j => [d j])), in_seq; lia)).
  destruct Nu as (i & Hi). specialize (R u Hu i). cbn [ev] in R.
  unfold cong in *. replace (d j * u i + 0 - 0) with (d j * u i) in R by ring. rewrite Z.sub_0_r.
  destruct (prime_mult p Hp _ _ R) as [D|D]; [exact D|]. elim Hi. unfold cong. rewrite Z.sub_0_r. exact D.
Qed.

(** digits in base p *)
Definition digit (z : Z) (j : nat) : Z := z / p ^ Z.of_nat j mod p.
Lemma digit_inj z z' j : 0 <= z < p ^ Z.of_nat j -> 0 <= z' < p ^ Z.of_nat j -> (forall i, (i < j)%nat -> digit z i == digit z' i) -> z = z'.
Proof.
  revert z z'. induction j; intros z z' Hz Hz' E; [cbn in Hz, Hz'; lia|].
  rewrite Nat2Z.inj_succ, Z.pow_succ_r in Hz, Hz' by lia.
  assert (E0 : z mod p = z' mod p).
  { specialize (E 0%nat ltac:(lia)). unfold digit in E. change (p ^ Z.of_nat 0) with 1 in E. rewrite !Z.div_1_r in E.
    apply cong_iff in E; [|lia]. rewrite !Z.mod_mod in E by lia. exact E. }
  assert (Q : z / p = z' / p).
  { apply IHj; [split; [apply Z.div_pos; lia | apply Z.div_lt_upper_bound; lia] | split; [apply Z.div_pos; lia | apply Z.div_lt_upper_bound; lia]|].
    intros i Hi. specialize (E (S i) ltac:(lia)). unfold digit in *.
    rewrite Nat2Z.inj_succ, Z.pow_succ_r in E by lia. rewrite <- !Z.div_div in E by (try apply Z.pow_pos_nonneg; lia). exact E. }
  rewrite (Z.div_mod z p), (Z.div_mod z' p) by lia. rewrite Q, E0. reflexivity.
Qed.

Lemma comb_V d n w : V w -> V (comb d n w).
Proof.
  intros Hw i. assert (E : forall t, comb d n w t = ev (heval (map (fun j => [d j]) (seq 0 k)) (shiftop n)) w t) by (intros t; symmetry; apply (heval_comb d n k 0 w t)).
  rewrite E. rewrite (frec_ev p f _ w Hw i). apply ev_cong. intros t. rewrite E. reflexivity.
Qed.
Lemma comb_sub d d' n w t : comb (fun j => d j - d' j) n w t = comb d n w t - comb d' n w t.
Proof.
  unfold comb. rewrite <- sum_sub. apply sum_ext. intros j _. ring.
Qed.

(** The variable is a polynomial in its power s. *)
Lemma generate u : V u -> nonzero p u -> exists d, forall t, comb d s u t == u (t + 1)%nat.
Proof.
  intros Hu Nu. assert (PB : 0 < p ^ Z.of_nat k) by (apply Z.pow_pos_nonneg; lia).
  destruct (inj_surj_Z (p ^ Z.of_nat k) (fun z => code k (comb (digit z) s u))) with (v := code k (fun i => u (i + 1)%nat)) as (z & Hz & E).
  - intros z _. apply code_range.
  - intros z z' Hz Hz' E. apply (digit_inj z z' k Hz Hz'). intros j Hj.
    assert (D : digit z j - digit z' j == 0); [|unfold cong in *; rewrite Z.sub_0_r in D; exact D].
    apply (independent (fun j => digit z j - digit z' j) u Hu Nu); [|exact Hj].
    intros t. rewrite comb_sub. revert t.
    assert (Vd : V (fun t => comb (digit z) s u t + -1 * comb (digit z') s u t)) by (apply V_add; apply comb_V, Hu).
    assert (Z0 := V_zero _ Vd). cbv beta in Z0. intros t.
    replace (comb (digit z) s u t - comb (digit z') s u t) with (comb (digit z) s u t + -1 * comb (digit z') s u t) by ring.
    apply Z0. intros i Hi. rewrite (code_inj k _ _ E i Hi). exists 0. ring.
  - apply code_range.
  - exists (digit z). intros t.
    assert (Vd : V (fun t => comb (digit z) s u t + -1 * u (t + 1)%nat)) by (apply V_add; [apply comb_V, Hu | apply V_shift, Hu]).
    assert (D := V_zero _ Vd). cbv beta in D. specialize (fun H => D H t).
    assert (D' : comb (digit z) s u t + -1 * u (t + 1)%nat == 0).
    { apply D. intros i Hi. rewrite (code_inj k _ _ E i Hi). exists 0. ring. }
    unfold cong in *. replace (comb (digit z) s u t - u (t + 1)%nat) with (comb (digit z) s u t + -1 * u (t + 1)%nat - 0) by ring. exact D'.
Qed.

(** No shorter recurrence of the decimated sequence. *)
Theorem decimated_order d u : V u -> nonzero p u -> (forall i, comb d s u (s * i) == 0) -> forall j, (j < k)%nat -> d j == 0.
Proof.
  intros Hu Nu H. destruct (generate u Hu Nu) as (g & Hg). apply (independent d u Hu Nu).
  set (op := heval (map (fun j => [d j]) (seq 0 k)) (shiftop s)).
  assert (Eop : forall w t, ev op w t = comb d s w t) by (intros w t; apply (heval_comb d s k 0 w t)).
  assert (Egp : forall w t, ev (heval (map (fun j => [g j]) (seq 0 k)) (shiftop s)) w t = comb g s w t) by (intros w t; apply (heval_comb g s k 0 w t)).
  assert (Step : forall t, comb d s u (t + 1) == comb g s (comb d s u) t).
  { intros t. rewrite <- Egp. rewrite (ev_cong p _ (comb d s u) (ev op u)) by (intros j; rewrite Eop; reflexivity).
    rewrite ev_ev. rewrite (ev_cong p op _ (fun i => u (i + 1)%nat)) by (intros j; rewrite Egp; apply Hg).
    rewrite (ev_shift op u t 1), Eop. reflexivity. }
  assert (All : forall t i, comb d s u (t + s * i) == 0).
  { induction t; intros i; [apply H|]. replace (S t + s * i)%nat with (t + s * i + 1)%nat by lia. rewrite Step. unfold comb at 1.
    apply sum_cong_0. intros j _. replace (t + s * i + s * j)%nat with (t + s * (i + j))%nat by lia. rewrite IHt. exists 0. ring. }
  intros t. specialize (All t 0%nat). replace (t + s * 0)%nat with t in All by lia. exact All.
Qed.
End Field.
