(** Sequences of words with a linear recurrence over the field of two elements: polynomials as lists of bits, most significant
    bit first, acting on sequences; exact periods from checked chains of powers. *)
From Coq Require Import ZArith Znumtheory List Bool Arith Lia.
From Verif Require Import Base BaseFacts Cong Pratt Primes PolyAct.
Import ListNotations.
Open Scope Z_scope.

(** ** Arithmetic *)
Fixpoint bxor (a b : list bool) : list bool :=
  match a, b with x :: a', y :: b' => (if x then negb y else y) :: bxor a' b' | [], _ => b | _, [] => a end.
(** [shx c f] is c shifted up by one place plus f, for one bit more in f. *)
Fixpoint shx (c f : list bool) : list bool :=
  match c, f with x :: c', y :: f' => (if x then negb y else y) :: shx c' f' | _, _ => f end.
(** Multiplication by the variable, modulo the polynomial with low coefficients f. *)
Definition xtime (f c : list bool) : list bool :=
  match c with [] => [] | true :: c' => shx c' f | false :: c' => c' ++ [false] end.
Fixpoint mulb (f y z acc : list bool) : list bool :=
  match y with [] => acc | b :: y' => mulb f y' z (if b then bxor (xtime f acc) z else xtime f acc) end.
Definition zeros (f : list bool) : list bool := map (fun _ => false) f.
Fixpoint bone (f : list bool) : list bool := match f with [] => [] | [_] => [true] | _ :: f' => false :: bone f' end.
Definition bmul (f y z : list bool) : list bool := mulb f y z (zeros f).

(** Squares by tables of sums of even powers. *)
Inductive tree := Leaf (v : list bool) | Node (a b : tree).
Fixpoint mktree (n : nat) (acc : list bool) (ps : list (list bool)) : tree :=
  match n, ps with
  | S n', p :: ps' => Node (mktree n' acc ps') (mktree n' (bxor acc p) ps')
  | _, _ => Leaf acc
  end.
Fixpoint look (t : tree) (y : list bool) : list bool * list bool :=
  match t with
  | Leaf v => (v, y)
  | Node a b => match y with true :: y' => look b y' | false :: y' => look a y' | [] => ([], []) end
  end.
Fixpoint mktbl (f : list bool) (ns : list nat) (ps : list (list bool)) : list tree :=
  match ns with [] => [] | n :: ns' => mktree n (zeros f) ps :: mktbl f ns' (skipn n ps) end.
Fixpoint sqt (tbl : list tree) (y acc : list bool) : list bool :=
  match tbl with [] => acc | t :: tbl' => let '(v, y') := look t y in sqt tbl' y' (bxor acc v) end.
(** x^(2(n-1)), ..., x^2, 1 *)
Fixpoint evens (f : list bool) (n : nat) (p : list bool) (acc : list (list bool)) : list (list bool) :=
  match n with O => acc | S n' => evens f n' (xtime f (xtime f p)) (p :: acc) end.
Fixpoint groups (fuel n : nat) : list nat :=
  match fuel with O => [] | S k => if (n <=? 4)%nat then [n] else 4%nat :: groups k (n - 4) end.
Definition sqtbl (f : list bool) : list tree := mktbl f (groups (length f) (length f)) (evens f (length f) (bone f) []).

(** ** Checked chains of powers *)

(** Literals carry an extra leading bit. *)
Fixpoint pbits (p : positive) (acc : list bool) : list bool :=
  match p with xO q => pbits q (false :: acc) | xI q => pbits q (true :: acc) | xH => acc end.
Definition lit (p : positive) : list bool := pbits p [].
Fixpoint beqb (a b : list bool) : bool :=
  match a, b with [], [] => true | x :: a', y :: b' => (if x then y else negb y) && beqb a' b' | _, _ => false end.

Inductive gstep := GSq (i : nat) (l : list positive) | GMul (i j : nat) (p : positive).
Fixpoint sqs (f : list bool) (tbl : list tree) (e : Z) (c : list bool) (l : list positive) : option (Z * list bool) :=
  match l with
  | [] => Some (e, c)
  | p :: l' => if beqb (sqt tbl c (zeros f)) (lit p) then sqs f tbl (2 * e) (lit p) l' else None
  end.
Fixpoint grun (f : list bool) (tbl : list tree) (regs : list (Z * list bool)) (steps : list gstep) : option (list (Z * list bool)) :=
  match steps with
  | [] => Some regs
  | GSq i l :: steps' =>
      let '(e, c) := nth i regs (0, bone f) in
      match sqs f tbl e c l with Some r => grun f tbl (r :: regs) steps' | None => None end
  | GMul i j p :: steps' =>
      let '(e, c) := nth i regs (0, bone f) in
      let '(e', c') := nth j regs (0, bone f) in
      if beqb (bmul f c c') (lit p) then grun f tbl ((e + e', lit p) :: regs) steps' else None
  end.

Record gf2_cert := Gf2Cert {
  gc_poly : positive;                          (* the polynomial, leading bit included *)
  gc_n : positive;                             (* the period *)
  gc_primes : list Z;
  gc_steps : list gstep;
  gc_return : nat;                             (* register of the power gc_n *)
  gc_tests : list (Z * (nat * positive))       (* q, register of the power gc_n / q, inverse of it minus 1 *)
}.
Definition gc_f (e : gf2_cert) : list bool := lit (gc_poly e).
Definition gtest_ok (f : list bool) (N : Z) (regs : list (Z * list bool)) (t : Z * (nat * positive)) : bool :=
  let '(q, (i, g)) := t in
  let '(e, c) := nth i regs (0, bone f) in
  (e * q =? N) && beqb (bmul f (lit g) (bxor c (bone f))) (bone f).
Definition gc_algebra (e : gf2_cert) : bool :=
  let f := gc_f e in
  match grun f (sqtbl f) [(1, xtime f (bone f))] (gc_steps e) with
  | Some regs =>
      let '(n, c) := nth (gc_return e) regs (0, bone f) in
      (n =? Z.pos (gc_n e)) && beqb c (bone f) && forallb (gtest_ok f (Z.pos (gc_n e)) regs) (gc_tests e)
  | None => false
  end.
Definition gc_shape (e : gf2_cert) : bool :=
  forallb (fun q => mem q known_primes) (gc_primes e) && (prod (gc_primes e) mod Z.pos (gc_n e) =? 0)
  && forallb (fun q => mem q (map fst (gc_tests e))) (gc_primes e) && (2 <=? length (gc_f e))%nat.

(** ** Meaning *)
Fixpoint act (c : list bool) (w : nat -> Z) (i : nat) : Z :=
  match c with [] => 0 | b :: c' => Z.lxor (if b then w (i + length c')%nat else 0) (act c' w i) end.
Fixpoint act2 (c : list bool) (w : nat -> Z) (i : nat) : Z :=
  match c with [] => 0 | b :: c' => Z.lxor (if b then w (i + 2 * length c')%nat else 0) (act2 c' w i) end.

(** Sums of words are compared bit by bit. *)
Ltac bits := apply Z.bits_inj'; intros ?t ?Ht; rewrite ?Z.lxor_spec, ?Z.bits_0.
Ltac lx := bits; repeat match goal with |- context [Z.testbit ?a ?b] => destruct (Z.testbit a b) end; reflexivity.

Lemma if_lxor (b : bool) x y : (if b then Z.lxor x y else 0) = Z.lxor (if b then x else 0) (if b then y else 0).
Proof. destruct b; reflexivity. Qed.
Lemma act_ext c : forall w w' i, (forall j, w j = w' j) -> act c w i = act c w' i.
Proof. induction c as [|b c IH]; intros w w' i H; cbn [act]; [reflexivity|]. rewrite H, (IH w w' i H). reflexivity. Qed.
Lemma act_shift c w n : forall i, act c (fun j => w (j + n)%nat) i = act c w (i + n).
Proof.
  induction c as [|b c IH]; intros i; cbn [act]; [reflexivity|]. rewrite IH. f_equal.
  replace (i + length c + n)%nat with (i + n + length c)%nat by lia. reflexivity.
Qed.
Lemma act_0 c w i : (forall j, w j = 0) -> act c w i = 0.
Proof. intros H. induction c as [|b c IH]; cbn [act]; [reflexivity|]. rewrite IH, H. destruct b; reflexivity. Qed.
Lemma act_lxor c w w' : forall i, act c (fun j => Z.lxor (w j) (w' j)) i = Z.lxor (act c w i) (act c w' i).
Proof. induction c as [|b c IH]; intros i; cbn [act]; [reflexivity|]. rewrite IH, if_lxor. lx. Qed.
Lemma act_if c (b : bool) w : forall i, act c (fun j => if b then w j else 0) i = if b then act c w i else 0.
Proof. intros i. destruct b; [reflexivity|]. apply act_0. reflexivity. Qed.

Lemma bxor_length a : forall b, length b = length a -> length (bxor a b) = length a.
Proof. induction a as [|x a IH]; intros [|y b] L; cbn [bxor length] in *; try lia. rewrite IH; lia. Qed.
Lemma bxor_act a w i : forall b, length b = length a -> act (bxor a b) w i = Z.lxor (act a w i) (act b w i).
Proof.
  induction a as [|x a IH]; intros [|y b] L; cbn [bxor act length] in *; try lia; [reflexivity|].
  rewrite IH, bxor_length by lia. replace (length b) with (length a) by lia. destruct x, y; cbn [negb]; lx.
Qed.
Lemma zeros_length f : length (zeros f) = length f. Proof. apply map_length. Qed.
Lemma zeros_act f w i : act (zeros f) w i = 0.
Proof. induction f as [|x f IH]; cbn [zeros map act]; [reflexivity|]. fold (zeros f). rewrite IH. reflexivity. Qed.
Lemma bone_length f : length (bone f) = length f.
Proof. induction f as [|x [|y f] IH]; cbn [bone length] in *; [reflexivity | reflexivity | rewrite IH; reflexivity]. Qed.
Lemma bone_act f w i : f <> [] -> act (bone f) w i = w i.
Proof.
  induction f as [|x [|y f] IH]; intros H; [congruence | |].
  - cbn [bone act length]. rewrite Z.lxor_0_r. f_equal. lia.
  - change (bone (x :: y :: f)) with (false :: bone (y :: f)). cbn [act]. rewrite IH by discriminate. reflexivity.
Qed.
Lemma snoc_act c w : forall i, act (c ++ [false]) w i = act c w (S i).
Proof.
  induction c as [|b c IH]; intros i; cbn [app act length]; [reflexivity|]. rewrite IH, app_length. cbn [length].
  replace (i + (length c + 1))%nat with (S i + length c)%nat by lia. reflexivity.
Qed.
Lemma shx_length c : forall f, length f = S (length c) -> length (shx c f) = length f.
Proof. induction c as [|x c IH]; intros [|y f] L; cbn [shx length] in *; try lia. rewrite IH; lia. Qed.
Lemma shx_act c w i : forall f, length f = S (length c) -> act (shx c f) w i = Z.lxor (act c w (S i)) (act f w i).
Proof.
  induction c as [|x c IH]; intros [|y f] L; cbn [shx length] in *; try lia; [reflexivity|].
  cbn [act]. rewrite IH, shx_length by lia. replace (length f) with (S (length c)) by lia.
  replace (i + S (length c))%nat with (S i + length c)%nat by lia. destruct x, y; cbn [negb]; lx.
Qed.
Lemma beqb_eq a : forall b, beqb a b = true -> a = b.
Proof.
  induction a as [|x a IH]; intros [|y b] H; cbn [beqb] in H; try discriminate H; [reflexivity|].
  apply andb_prop in H. destruct H as (H & H'). rewrite (IH b H'). destruct x, y; try discriminate H; reflexivity.
Qed.

Section Recurrence.
Variable f : list bool.
Notation k := (length f).
Hypothesis Hk : (2 <= k)%nat.
Definition frec2 (w : nat -> Z) : Prop := forall i, w (i + k)%nat = act f w i.

Lemma act_frec c w : frec2 w -> frec2 (act c w).
Proof.
  intros H i. induction c as [|b c IH].
  - cbn [act]. symmetry. apply act_0. reflexivity.
  - change (act (b :: c) w) with (fun j => Z.lxor (if b then w (j + length c)%nat else 0) (act c w j)).
    rewrite act_lxor. cbv beta. rewrite IH. f_equal.
    rewrite (act_if f b (fun j => w (j + length c)%nat)). destruct b; [|reflexivity].
    rewrite act_shift. replace (i + k + length c)%nat with (i + length c + k)%nat by lia. apply H.
Qed.
Lemma xtime_length c : length c = k -> length (xtime f c) = k.
Proof.
  destruct c as [|[] c]; intros L; cbn [xtime length] in *; [exact L | apply shx_length; lia | rewrite app_length; cbn [length]; lia].
Qed.
Lemma xtime_act c w i : length c = k -> frec2 w -> act (xtime f c) w i = act c w (S i).
Proof.
  intros L H. destruct c as [|[] c]; cbn [xtime length] in *; [reflexivity | |].
  - rewrite shx_act by lia. cbn [act]. replace (S i + length c)%nat with (i + k)%nat by lia. rewrite H. lx.
  - rewrite snoc_act. reflexivity.
Qed.
Lemma mulb_length y z : length z = k -> forall acc, length acc = k -> length (mulb f y z acc) = k.
Proof.
  intros Lz. induction y as [|b y IH]; intros acc L; cbn [mulb]; [exact L|]. apply IH.
  assert (X := xtime_length acc L). destruct b; [rewrite bxor_length; lia | exact X].
Qed.
Lemma mulb_act y z w : length z = k -> frec2 w -> forall acc i, length acc = k ->
  act (mulb f y z acc) w i = Z.lxor (act acc w (i + length y)) (act y (act z w) i).
Proof.
  intros Lz H. induction y as [|b y IH]; intros acc i L; cbn [mulb act length].
  - rewrite Z.lxor_0_r. f_equal. lia.
  - assert (X := xtime_length acc L).
    rewrite IH by (destruct b; [rewrite bxor_length; lia | exact X]).
    replace (i + S (length y))%nat with (S (i + length y)) by lia. rewrite <- (xtime_act acc w (i + length y) L H).
    destruct b; [rewrite bxor_act by lia; lx | lx].
Qed.
Lemma bmul_length y z : length z = k -> length (bmul f y z) = k.
Proof. intros Lz. apply mulb_length; [exact Lz | apply zeros_length]. Qed.
Lemma bmul_act y z w i : length z = k -> frec2 w -> act (bmul f y z) w i = act y (act z w) i.
Proof. intros Lz H. unfold bmul. rewrite mulb_act; [|exact Lz | exact H | apply zeros_length]. rewrite zeros_act. apply Z.lxor_0_l. Qed.

(** Squares *)
Lemma act_square y w : forall i, act y (act y w) i = act2 y w i.
Proof.
  induction y as [|b y IH]; intros i; [reflexivity|].
  change (act (b :: y) w) with (fun j => Z.lxor (if b then w (j + length y)%nat else 0) (act y w j)).
  rewrite act_lxor. cbn [act act2]. rewrite IH.
  rewrite (act_if y b (fun j => w (j + length y)%nat)), act_shift.
  replace (i + length y + length y)%nat with (i + 2 * length y)%nat by lia. destruct b; lx.
Qed.
Definition pows_ok (ps : list (list bool)) : Prop :=
  forall j, (j < length ps)%nat -> length (nth j ps []) = k /\
    forall w i, frec2 w -> act (nth j ps []) w i = w (i + 2 * (length ps - 1 - j))%nat.
Lemma pows_tl p ps : pows_ok (p :: ps) -> pows_ok ps.
Proof.
  intros H j Hj. destruct (H (S j) ltac:(cbn; lia)) as (A & B). cbn [nth] in A, B. split; [exact A|]. intros w i Hw. rewrite (B w i Hw).
  f_equal. cbn [length]. lia.
Qed.
Lemma pows_skip n : forall ps, pows_ok ps -> pows_ok (skipn n ps).
Proof. induction n as [|n IH]; intros ps H; [exact H|]. destruct ps as [|p ps]; [exact H|]. apply IH, (pows_tl p), H. Qed.
Lemma look_act n w i : frec2 w -> forall acc ps y, length acc = k -> pows_ok ps -> length ps = length y -> (n <= length y)%nat ->
  exists v, look (mktree n acc ps) y = (v, skipn n y) /\ length v = k /\
    Z.lxor (act v w i) (act2 (skipn n y) w i) = Z.lxor (act acc w i) (act2 y w i).
Proof.
  intros Hw. induction n as [|n IH]; intros acc ps y La Hp Lp Hn.
  - exists acc. split; [destruct ps; reflexivity|]. split; [exact La | reflexivity].
  - destruct y as [|b y]; [cbn in Hn; lia|]. destruct ps as [|p ps]; [discriminate Lp|]. cbn [length] in Lp, Hn.
    assert (Hp' := pows_tl p ps Hp). destruct (Hp 0%nat ltac:(cbn; lia)) as (L0 & A0). cbn [nth length] in L0, A0.
    specialize (A0 w i Hw). replace (S (length ps) - 1 - 0)%nat with (length y) in A0 by lia.
    cbn [mktree look skipn]. destruct b.
    + destruct (IH (bxor acc p) ps y) as (v & E & Lv & A); [rewrite bxor_length; lia | exact Hp' | lia | lia|].
      exists v. split; [exact E|]. split; [exact Lv|]. rewrite A, bxor_act by lia. cbn [act2]. rewrite A0. lx.
    + destruct (IH acc ps y) as (v & E & Lv & A); [exact La | exact Hp' | lia | lia|].
      exists v. split; [exact E|]. split; [exact Lv|]. rewrite A. cbn [act2]. lx.
Qed.
Definition total (ns : list nat) : nat := fold_right Nat.add 0%nat ns.
Lemma sqt_act w i : frec2 w -> forall ns ps y acc, length acc = k -> pows_ok ps -> length ps = length y -> total ns = length y ->
  length (sqt (mktbl f ns ps) y acc) = k /\ act (sqt (mktbl f ns ps) y acc) w i = Z.lxor (act acc w i) (act2 y w i).
Proof.
  intros Hw. induction ns as [|n ns IH]; intros ps y acc La Hp Lp T.
  - destruct y; [|discriminate T]. cbn [mktbl sqt act2]. split; [exact La | symmetry; apply Z.lxor_0_r].
  - cbn [total fold_right] in T. cbn [mktbl sqt].
    destruct (look_act n w i Hw (zeros f) ps y (zeros_length f) Hp Lp ltac:(lia)) as (v & E & Lv & A). rewrite E.
    rewrite zeros_act, Z.lxor_0_l in A.
    destruct (IH (skipn n ps) (skipn n y) (bxor acc v)) as (L2 & A2);
      [rewrite bxor_length; lia | apply pows_skip, Hp | rewrite !skipn_length; lia | rewrite skipn_length; unfold total; lia|].
    split; [exact L2|]. rewrite A2, bxor_act by lia. rewrite <- A. lx.
Qed.
Lemma evens_ok n : forall p acc, length p = k -> (forall w i, frec2 w -> act p w i = w (i + 2 * length acc)%nat) -> pows_ok acc ->
  pows_ok (evens f n p acc) /\ length (evens f n p acc) = (n + length acc)%nat.
Proof.
  induction n as [|n IH]; intros p acc Lp Ap Ha; cbn [evens]; [split; [exact Ha | reflexivity]|].
  assert (L1 := xtime_length p Lp). assert (L2 := xtime_length _ L1).
  destruct (IH (xtime f (xtime f p)) (p :: acc)) as (A & B).
  - exact L2.
  - intros w i Hw. rewrite (xtime_act _ w i L1 Hw), (xtime_act _ w _ Lp Hw), (Ap w _ Hw). f_equal. cbn [length]. lia.
  - intros j Hj. destruct j as [|j].
    + cbn [nth length]. split; [exact Lp|]. intros w i Hw. rewrite (Ap w i Hw). f_equal. lia.
    + cbn [length] in Hj. destruct (Ha j ltac:(lia)) as (C & D). cbn [nth length]. split; [exact C|]. intros w i Hw. rewrite (D w i Hw). f_equal. lia.
  - split; [exact A|]. rewrite B. cbn [length]. lia.
Qed.
Lemma groups_total fuel : forall n, (n <= fuel)%nat -> (1 <= n)%nat -> total (groups fuel n) = n.
Proof.
  induction fuel as [|fuel IH]; intros n H H1; [lia|]. cbn [groups]. destruct (Nat.leb_spec n 4); cbn [total fold_right]; [lia|].
  fold (total (groups fuel (n - 4))). rewrite IH by lia. lia.
Qed.
Lemma square_act y w i : length y = k -> frec2 w ->
  length (sqt (sqtbl f) y (zeros f)) = k /\ act (sqt (sqtbl f) y (zeros f)) w i = act y (act y w) i.
Proof.
  intros Ly Hw. unfold sqtbl.
  destruct (evens_ok k (bone f) [] (bone_length f)) as (A & B).
  - intros w' j _. rewrite bone_act by (intros E; rewrite E in Hk; cbn in Hk; lia). f_equal. cbn [length]. lia.
  - intros j Hj. cbn in Hj. lia.
  - cbn [length] in B. rewrite Nat.add_0_r in B.
    destruct (sqt_act w i Hw (groups k k) (evens f k (bone f) []) y (zeros f)) as (C & D);
      [apply zeros_length | exact A | rewrite B; lia | rewrite Ly; apply groups_total; lia|].
    split; [exact C|]. rewrite D, zeros_act, act_square. apply Z.lxor_0_l.
Qed.

(** Registers hold powers of the variable. *)
Definition power (r : Z * list bool) : Prop :=
  0 <= fst r /\ length (snd r) = k /\ forall w i, frec2 w -> act (snd r) w i = w (i + Z.to_nat (fst r))%nat.
Lemma power_one : power (0, bone f).
Proof.
  split; [cbn; lia|]. split; [apply bone_length|]. intros w i _. cbn [fst snd]. rewrite bone_act by (intros E; rewrite E in Hk; cbn in Hk; lia).
  f_equal. change (Z.to_nat 0) with 0%nat. lia.
Qed.
Lemma power_var : power (1, xtime f (bone f)).
Proof.
  split; [cbn; lia|]. split; [apply xtime_length, bone_length|]. intros w i Hw. cbn [fst snd].
  rewrite xtime_act by (try apply bone_length; exact Hw). rewrite bone_act by (intros E; rewrite E in Hk; cbn in Hk; lia).
  f_equal. change (Z.to_nat 1) with 1%nat. lia.
Qed.
Lemma power_nth regs i : Forall power regs -> power (nth i regs (0, bone f)).
Proof.
  intros H. destruct (Nat.lt_ge_cases i (length regs)) as [Hi|Hi].
  - rewrite Forall_forall in H. apply H, nth_In, Hi.
  - rewrite nth_overflow by exact Hi. apply power_one.
Qed.
Lemma act_power r w i c : power r -> frec2 w -> act c (act (snd r) w) i = act c w (i + Z.to_nat (fst r)).
Proof.
  intros (_ & _ & A) Hw. rewrite <- (act_shift c w (Z.to_nat (fst r)) i). apply act_ext. intros j. apply A, Hw.
Qed.
Lemma sqs_power l : forall e c r, power (e, c) -> sqs f (sqtbl f) e c l = Some r -> power r.
Proof.
  induction l as [|p l IH]; intros e c r H E; cbn [sqs] in E; [injection E as <-; exact H|].
  destruct (beqb (sqt (sqtbl f) c (zeros f)) (lit p)) eqn:B; [|discriminate E]. apply beqb_eq in B. apply (IH _ _ _) in E; [exact E|].
  destruct H as (He & Lc & A). cbn [fst snd] in He, Lc, A. rewrite <- B. split; [cbn [fst]; lia|]. cbn [fst snd].
  split.
  - apply (square_act c (fun _ => 0) 0 Lc). intros i. symmetry. apply act_0. reflexivity.
  - intros w i Hw. rewrite (proj2 (square_act c w i Lc Hw)).
    assert (Q := act_power (e, c) w i c (conj He (conj Lc A)) Hw). cbn [fst snd] in Q. rewrite Q. rewrite (A w _ Hw). f_equal. lia.
Qed.
Lemma grun_power steps : forall regs regs', Forall power regs -> grun f (sqtbl f) regs steps = Some regs' -> Forall power regs'.
Proof.
  induction steps as [|s steps IH]; intros regs regs' H E; cbn [grun] in E; [injection E as <-; exact H|].
  destruct s as [i l | i j p].
  - assert (P := power_nth regs i H). destruct (nth i regs (0, bone f)) as (e & c).
    destruct (sqs f (sqtbl f) e c l) as [r|] eqn:Q; [|discriminate E]. apply (IH _ _) in E; [exact E|]. constructor; [|exact H].
    apply (sqs_power l e c r P Q).
  - assert (P := power_nth regs i H). destruct (nth i regs (0, bone f)) as (e & c).
    assert (P' := power_nth regs j H). destruct (nth j regs (0, bone f)) as (e' & c').
    destruct (beqb (bmul f c c') (lit p)) eqn:B; [|discriminate E]. apply beqb_eq in B. apply (IH _ _) in E; [exact E|]. constructor; [|exact H].
    rewrite <- B. destruct P as (He & Lc & A). destruct P' as (He' & Lc' & A'). cbn [fst snd] in *.
    split; [cbn [fst]; lia|]. cbn [fst snd]. split; [apply bmul_length, Lc'|]. intros w t Hw. rewrite bmul_act by assumption.
    assert (Q := act_power (e', c') w t c (conj He' (conj Lc' A')) Hw). cbn [fst snd] in Q. rewrite Q. rewrite (A w _ Hw). f_equal. lia.
Qed.
End Recurrence.

(** ** The exact period *)
Lemma cong_zero x y : cong 0 x y <-> x = y.
Proof. unfold cong. split; [intros [q Hq]; lia | intros ->; exists 0; lia]. Qed.

Definition bper (w : nat -> Z) (n : Z) : Prop := 0 <= n /\ forall i, w (i + Z.to_nat n)%nat = w i.
Lemma bper_per w n : bper w n <-> per 0 w n.
Proof. unfold bper, per. split; intros (A & B); (split; [exact A|]); intros i; apply cong_zero, B. Qed.

Theorem gf2_returns e w : gc_shape e = true -> gc_algebra e = true -> frec2 (gc_f e) w -> bper w (Z.pos (gc_n e)).
Proof.
  intros Sh Al Hw. set (f := gc_f e) in *.
  unfold gc_shape in Sh. apply andb_prop in Sh. destruct Sh as (_ & Hk). apply Nat.leb_le in Hk. fold f in Hk.
  unfold gc_algebra in Al. cbv zeta in Al. fold f in Al.
  destruct (grun f (sqtbl f) [(1, xtime f (bone f))] (gc_steps e)) as [regs|] eqn:G; [|discriminate Al].
  assert (Pr : Forall (power f) regs).
  { apply (grun_power f Hk (gc_steps e) _ regs) in G; [exact G|]. constructor; [apply power_var, Hk | constructor]. }
  clear G. assert (P0 := power_nth f Hk regs (gc_return e) Pr). destruct (nth (gc_return e) regs (0, bone f)) as (n0 & c0).
  apply andb_prop in Al. destruct Al as (Al & _). apply andb_prop in Al. destruct Al as (E1 & E2). apply Z.eqb_eq in E1. apply beqb_eq in E2. subst n0 c0.
  split; [discriminate|]. intros i. destruct P0 as (_ & _ & A). cbn [fst snd] in A.
  transitivity (act (bone f) w i); [symmetry; exact (A w i Hw) | apply bone_act]. intros E. rewrite E in Hk. cbn in Hk. lia.
Qed.

Theorem gf2_exact e w : gc_shape e = true -> gc_algebra e = true -> frec2 (gc_f e) w -> (exists i, w i <> 0) ->
  forall n, bper w n <-> 0 <= n /\ (Z.pos (gc_n e) | n).
Proof.
  intros Sh Al Hw (i0 & NZ) n. rewrite bper_per. set (f := gc_f e) in *. set (N := Z.pos (gc_n e)).
  unfold gc_shape in Sh. apply andb_prop in Sh. destruct Sh as (Sh & Hk). apply andb_prop in Sh. destruct Sh as (Sh & S3).
  apply andb_prop in Sh. destruct Sh as (S1 & S2). apply Nat.leb_le in Hk. fold f in Hk.
  unfold gc_algebra in Al. cbv zeta in Al. fold f in Al.
  destruct (grun f (sqtbl f) [(1, xtime f (bone f))] (gc_steps e)) as [regs|] eqn:G; [|discriminate Al].
  assert (Pr : Forall (power f) regs).
  { apply (grun_power f Hk (gc_steps e) _ regs) in G; [exact G|]. constructor; [apply power_var, Hk | constructor]. }
  clear G. assert (P0 := power_nth f Hk regs (gc_return e) Pr). destruct (nth (gc_return e) regs (0, bone f)) as (n0 & c0).
  apply andb_prop in Al. destruct Al as (Al & Ts). apply andb_prop in Al. destruct Al as (E1 & E2). apply Z.eqb_eq in E1. apply beqb_eq in E2. subst n0 c0.
  assert (NE : f <> []) by (intros E; rewrite E in Hk; cbn in Hk; lia).
  apply (per_exact 0 w N (gc_primes e)); [reflexivity | | | |].
  - intros q Hq. rewrite forallb_forall in S1. specialize (S1 q Hq). apply known_prime. exact S1.
  - apply Z.mod_divide; [discriminate|]. apply Z.eqb_eq, S2.
  - split; [discriminate|]. intros i. apply cong_zero. destruct P0 as (_ & _ & A). cbn [fst snd] in A. transitivity (act (bone f) w i); [symmetry; exact (A w i Hw) | apply bone_act, NE].
  - intros q Hq _ Pq. rewrite forallb_forall in S3. specialize (S3 q Hq).
    assert (T : exists t, In t (gc_tests e) /\ fst t = q).
    { clear -S3. unfold mem in S3. apply existsb_exists in S3. destruct S3 as (x & Hx & E). apply Z.eqb_eq in E. subst x.
      apply in_map_iff in Hx. destruct Hx as (t & E & Ht). exists t. split; assumption. }
    destruct T as ((q' & (j & g)) & Ht & Eq). cbn [fst] in Eq. subst q'.
    rewrite forallb_forall in Ts. specialize (Ts _ Ht). unfold gtest_ok in Ts.
    assert (Pj := power_nth f Hk regs j Pr). destruct (nth j regs (0, bone f)) as (ex & c). destruct Pj as (X0 & Lc & A). cbn [fst snd] in *.
    apply andb_prop in Ts. destruct Ts as (T1 & T2). apply Z.eqb_eq in T1. apply beqb_eq in T2.
    assert (Q0 : q <> 0) by (intros ->; unfold N in *; lia).
    assert (Ex : N / q = ex) by (unfold N; rewrite <- T1; apply Z.div_mul, Q0). rewrite Ex in Pq. destruct Pq as (_ & Pq).
    assert (LB : length (bxor c (bone f)) = length f) by (rewrite bxor_length; [exact Lc | rewrite bone_length; lia]).
    assert (Z0 : forall i, act (bxor c (bone f)) w i = 0).
    { intros i. rewrite bxor_act by (rewrite bone_length; lia). rewrite (A w i Hw), bone_act by exact NE.
      specialize (Pq i). apply (proj1 (cong_zero _ _)) in Pq. rewrite Pq. apply Z.lxor_nilpotent. }
    apply NZ. rewrite <- (bone_act f w i0 NE), <- T2. rewrite bmul_act by assumption. apply act_0, Z0.
Qed.

(** Two tails of a sequence agree exactly when their starts are a multiple of the period apart. *)
Section Tails.
Variables (f : list bool) (N : Z) (w : nat -> Z).
Hypothesis HN : 0 < N.
Hypothesis Hw : frec2 f w.
Hypothesis HR : forall u, frec2 f u -> bper u N.
Hypothesis HX : forall u, frec2 f u -> (exists i, u i <> 0) -> forall n, bper u n <-> 0 <= n /\ (N | n).
Lemma frec2_shift u n : frec2 f u -> frec2 f (fun i => u (i + n)%nat).
Proof. intros H i. rewrite act_shift. replace (i + length f + n)%nat with (i + n + length f)%nat by lia. apply H. Qed.
Lemma tail_back i n : (N | Z.of_nat n) -> w (i + n)%nat = w i.
Proof.
  intros [c Hc]. assert (C0 : 0 <= c) by nia.
  assert (P : per 0 w (c * N)) by (apply per_mul; [apply bper_per, HR, Hw | exact C0]). apply bper_per in P. destruct P as (_ & P).
  rewrite <- Hc, Nat2Z.id in P. apply P.
Qed.
Lemma tail_some n : (exists i, w i <> 0) -> exists i, w (i + n)%nat <> 0.
Proof.
  intros (i & Hi). exists (i + n * (Z.to_nat N - 1))%nat. intros C. apply Hi. rewrite <- C. symmetry.
  replace (i + n * (Z.to_nat N - 1) + n)%nat with (i + n * Z.to_nat N)%nat by nia. apply tail_back. exists (Z.of_nat n). lia.
Qed.
Lemma tails_le a b : (exists i, w i <> 0) -> (a <= b)%nat -> (forall i, w (i + a)%nat = w (i + b)%nat) -> (N | Z.of_nat b - Z.of_nat a).
Proof.
  intros NZ L E. assert (P : bper (fun i => w (i + a)%nat) (Z.of_nat b - Z.of_nat a)).
  { split; [lia|]. intros i. replace (i + Z.to_nat (Z.of_nat b - Z.of_nat a) + a)%nat with (i + b)%nat by lia. symmetry. apply E. }
  apply HX in P; [apply P | apply frec2_shift, Hw | apply tail_some, NZ].
Qed.
Lemma tails_period a b : (exists i, w i <> 0) -> (forall i, w (i + a)%nat = w (i + b)%nat) -> (N | Z.of_nat b - Z.of_nat a).
Proof.
  intros NZ E. destruct (Nat.le_gt_cases a b) as [L|L]; [apply tails_le; assumption|].
  rewrite <- Z.divide_opp_r. replace (- (Z.of_nat b - Z.of_nat a)) with (Z.of_nat a - Z.of_nat b) by lia.
  apply tails_le; [exact NZ | lia|]. intros i. symmetry. apply E.
Qed.
Lemma tails_back a b : (N | Z.of_nat b - Z.of_nat a) -> forall i, w (i + a)%nat = w (i + b)%nat.
Proof.
  intros D i. destruct (Nat.le_gt_cases a b) as [L|L].
  - replace (i + b)%nat with (i + a + (b - a))%nat by lia. symmetry. apply tail_back. replace (Z.of_nat (b - a)) with (Z.of_nat b - Z.of_nat a) by lia. exact D.
  - replace (i + a)%nat with (i + b + (a - b))%nat by lia. apply tail_back. apply Z.divide_opp_r.
    replace (- Z.of_nat (a - b)) with (Z.of_nat b - Z.of_nat a) by lia. exact D.
Qed.
End Tails.
