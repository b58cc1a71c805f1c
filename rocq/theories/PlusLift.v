(** Sequences with a recurrence s(i + k) = sum of s(i + b) modulo 2^m over the places b: the period modulo 2^m from the period of
    the lowest bit. *)
From Coq Require Import ZArith NArith Znumtheory List Bool Arith Lia.
From Verif Require Import Base BaseFacts Cong Pratt Primes PolyAct Gf2Act LucasLehmer SparseAct.
Import ListNotations.
Open Scope Z_scope.

(** ** Sums of shifted sequences *)
Definition sh (l : list nat) (s : nat -> Z) (i : nat) : Z := fold_right (fun e t => s (i + e)%nat + t) 0 l.
Lemma sh_cons a l s i : sh (a :: l) s i = s (i + a)%nat + sh l s i. Proof. reflexivity. Qed.
Lemma sh_ext l s s' i : (forall j, s j = s' j) -> sh l s i = sh l s' i.
Proof. intros H. induction l as [|a l IH]; [reflexivity|]. rewrite !sh_cons, H, IH. reflexivity. Qed.
Lemma sh_cong m l s s' i : (forall j, cong m (s j) (s' j)) -> cong m (sh l s i) (sh l s' i).
Proof. intros H. induction l as [|a l IH]; [apply cong_refl|]. rewrite !sh_cons. apply cong_add; [apply H | exact IH]. Qed.
Lemma sh_app l l' s i : sh (l ++ l') s i = sh l s i + sh l' s i.
Proof. induction l as [|a l IH]; [reflexivity|]. cbn [app]. rewrite !sh_cons, IH. ring. Qed.
Lemma sh_shift l s n i : sh l (fun j => s (j + n)%nat) i = sh l s (i + n).
Proof. induction l as [|a l IH]; [reflexivity|]. rewrite !sh_cons, IH. replace (i + a + n)%nat with (i + n + a)%nat by lia. reflexivity. Qed.
Lemma sh_map_add l s a i : sh (map (Nat.add a) l) s i = sh l s (i + a).
Proof. induction l as [|b l IH]; [reflexivity|]. cbn [map]. rewrite !sh_cons, IH. replace (i + (a + b))%nat with (i + a + b)%nat by lia. reflexivity. Qed.
Lemma sh_lin l s s' x i : sh l (fun j => s j + x * s' j) i = sh l s i + x * sh l s' i.
Proof. induction l as [|a l IH]; [cbn; ring|]. rewrite !sh_cons, IH. ring. Qed.
Lemma sh_comm l l' s i : sh l (sh l' s) i = sh l' (sh l s) i.
Proof.
  revert i. induction l as [|a l IH]; intros i.
  - change (sh [] (sh l' s) i) with 0. induction l' as [|b l' IH']; [reflexivity|]. rewrite sh_cons, <- IH'. reflexivity.
  - rewrite sh_cons, IH, <- (sh_shift l' s a i).
    transitivity (sh l' (fun j => s (j + a)%nat + 1 * sh l s j) i); [rewrite sh_lin; ring|]. apply sh_ext. intros j. rewrite sh_cons. ring.
Qed.
Definition dbl (l : list nat) : list nat := map (fun e => e + e)%nat l.
Fixpoint pairs (l : list nat) : list nat := match l with [] => [] | a :: l' => map (Nat.add a) l' ++ pairs l' end.
Lemma sh_square l s i : sh l (sh l s) i = sh (dbl l) s i + 2 * sh (pairs l) s i.
Proof.
  revert i. induction l as [|a l IH]; intros i; [reflexivity|]. cbn [dbl map pairs]. rewrite sh_app, sh_map_add.
  rewrite (sh_cons a l (sh (a :: l) s)), (sh_cons a l s (i + a)), sh_cons.
  rewrite (sh_ext l (sh (a :: l) s) (fun j => s (j + a)%nat + 1 * sh l s j)) by (intros j; rewrite sh_cons; ring).
  rewrite sh_lin, IH, sh_shift. fold (dbl l). replace (i + (a + a))%nat with (i + a + a)%nat by lia. ring.
Qed.

(** Bits *)
Definition bit (s : nat -> Z) (i : nat) : Z := s i mod 2.
Lemma lxor_mod2 x y : Z.lxor (x mod 2) (y mod 2) = (x + y) mod 2.
Proof.
  rewrite (Zplus_mod x y). assert (X := Z.mod_pos_bound x 2 ltac:(lia)). assert (Y := Z.mod_pos_bound y 2 ltac:(lia)).
  assert (x mod 2 = 0 \/ x mod 2 = 1) as [-> | ->] by lia; assert (y mod 2 = 0 \/ y mod 2 = 1) as [-> | ->] by lia; reflexivity.
Qed.
Lemma xsum_bits l s i : xsum (map (fun b => bit s (i + b)) l) = sh l s i mod 2.
Proof. induction l as [|b l IH]; [reflexivity|]. cbn [map]. unfold xsum in *. cbn [fold_right]. rewrite IH, sh_cons. apply lxor_mod2. Qed.
Lemma even_cong x : cong 2 x 0 <-> x mod 2 = 0.
Proof. rewrite cong_iff by lia. rewrite Z.mod_0_l by lia. reflexivity. Qed.

(** Polynomials with the places of a list. *)
Fixpoint npoly (l : list nat) : N := match l with [] => 0%N | e :: l' => N.lxor (Npos (up e 1)) (npoly l') end.
Lemma npoly_act l w i : nact (npoly l) w i = xsum (map (fun e => w (i + e)%nat) l).
Proof. induction l as [|e l IH]; [reflexivity|]. cbn [npoly map]. rewrite lxor_act, IH. cbn [nact]. rewrite up_act. reflexivity. Qed.

Section Lift.
Variables (k : nat) (bs : list nat).
Let T : Z := 2 ^ Z.of_nat k - 1.
Hypothesis Hk : (2 <= k)%nat.
Hypothesis Ex : exact k bs T.
(** Inverses of the sum of the products of two terms, without and with the squares of the terms of the other parity. *)
Variables g1 g2 : N.
Definition other : list nat := filter (fun b => negb (Bool.eqb (Nat.even b) (Nat.even k))) bs.
Hypothesis G1 : inverse_ok k bs g1 (npoly (pairs bs)) = true.
Hypothesis G2 : inverse_ok k bs g2 (npoly (pairs bs ++ dbl other)) = true.

Definition prec (m : Z) (s : nat -> Z) : Prop := forall i, cong (2 ^ m) (s (i + k)%nat) (sh bs s i).
Definition odd_some (s : nat -> Z) : Prop := ~ (forall i, cong 2 (s i) 0).

Lemma T_pos : 2 <= T.
Proof. assert (H := Z.pow_le_mono_r 2 2 (Z.of_nat k) ltac:(lia) ltac:(lia)). change (2 ^ 2) with 4 in H. unfold T. lia. Qed.
Lemma prec_le m n s : 0 <= n <= m -> prec m s -> prec n s.
Proof.
  intros H P i. apply (Z.divide_trans _ (2 ^ m)); [|apply P]. exists (2 ^ (m - n)). rewrite <- Z.pow_add_r by lia. f_equal. lia.
Qed.
Lemma prec_bit m s : 1 <= m -> prec m s -> srec k bs (bit s).
Proof.
  intros Hm P i. rewrite xsum_bits. unfold bit. apply cong_iff; [lia|]. apply (prec_le m 1 s ltac:(lia) P i).
Qed.
Lemma prec_shift m s n : prec m s -> prec m (fun i => s (i + n)%nat).
Proof. intros P i. rewrite sh_shift. replace (i + k + n)%nat with (i + n + k)%nat by lia. apply P. Qed.
Lemma prec_lin m s s' x : prec m s -> prec m s' -> prec m (fun i => s i + x * s' i).
Proof. intros P P' i. rewrite sh_lin. apply cong_add; [apply P | apply cong_mul; [apply cong_refl | apply P']]. Qed.
Lemma sh_scale l c s i : sh l (fun j => c * s j) i = c * sh l s i.
Proof. induction l as [|a l IH]; [cbn; ring|]. rewrite !sh_cons, IH. ring. Qed.
Lemma prec_div m a s s' : 0 <= a <= m -> prec m s -> (forall i, s i = 2 ^ a * s' i) -> prec (m - a) s'.
Proof.
  intros Ha P E i. specialize (P i). rewrite (sh_ext bs s (fun j => 2 ^ a * s' j) i E), sh_scale, E in P.
  replace (2 ^ m) with (2 ^ a * 2 ^ (m - a)) in P by (rewrite <- Z.pow_add_r by lia; f_equal; lia).
  destruct P as [c Hc]. exists c. assert (0 < 2 ^ a) by (apply Z.pow_pos_nonneg; lia).
  apply (Z.mul_reg_l _ _ (2 ^ a)); [lia|]. rewrite Z.mul_sub_distr_l, Hc. ring.
Qed.
(** Periods of the lowest bit. *)
Lemma period2 m s i : 1 <= m -> prec m s -> cong 2 (s (i + Z.to_nat T)%nat) (s i).
Proof.
  intros Hm P. destruct (proj1 Ex (bit s) (prec_bit m s Hm P)) as (_ & B). apply cong_iff; [lia | apply B].
Qed.
Lemma period2_mul m s i c : 1 <= m -> prec m s -> cong 2 (s (i + c * Z.to_nat T)%nat) (s i).
Proof.
  intros Hm P. induction c as [|c IH]; [replace (i + 0 * Z.to_nat T)%nat with i by lia; apply cong_refl|].
  replace (i + S c * Z.to_nat T)%nat with (i + c * Z.to_nat T + Z.to_nat T)%nat by lia.
  apply (cong_trans _ _ (s (i + c * Z.to_nat T)%nat)); [apply (period2 m), P; exact Hm | exact IH].
Qed.
Lemma pow_T e : (e * 2 ^ k = e + e * Z.to_nat T)%nat.
Proof. assert (H := T_pos). apply Nat2Z.inj. rewrite Nat2Z.inj_add, !Nat2Z.inj_mul, Nat2Z.inj_pow, Z2Nat.id by lia. unfold T. change (Z.of_nat 2) with 2. ring. Qed.
Lemma period2_pow m s i e : 1 <= m -> prec m s -> cong 2 (s (i + e * 2 ^ k)%nat) (s (i + e)%nat).
Proof. intros Hm P. rewrite pow_T, Nat.add_assoc. apply (period2_mul m); assumption. Qed.

(** The powers of the variable, modulo 4 *)
Definition scale (n : nat) (l : list nat) : list nat := map (fun b => b * 2 ^ n)%nat l.
Lemma dbl_scale n l : dbl (scale n l) = scale (S n) l.
Proof. unfold dbl, scale. rewrite map_map. apply map_ext. intros b. rewrite Nat.pow_succ_r'. lia. Qed.
Lemma pairs_scale n l : pairs (scale n l) = scale n (pairs l).
Proof.
  induction l as [|a l IH]; [reflexivity|]. unfold scale in *. cbn [pairs map]. rewrite IH, map_app, !map_map. f_equal. apply map_ext. intros b. lia.
Qed.
Lemma square4 a L Q : (forall s, prec 2 s -> forall i, cong 4 (s (i + a)%nat) (sh L s i + 2 * sh Q s i)) ->
  forall s, prec 2 s -> forall i, cong 4 (s (i + (a + a))%nat) (sh (dbl L) s i + 2 * sh (pairs L) s i).
Proof.
  intros H s P i. replace (i + (a + a))%nat with (i + a + a)%nat by lia.
  apply (cong_trans _ _ (sh L (fun j => s (j + a)%nat) i + 2 * sh Q (fun j => s (j + a)%nat) i)).
  - rewrite !sh_shift. apply (H s P).
  - apply (cong_trans _ _ (sh L (fun j => sh L s j + 2 * sh Q s j) i + 2 * sh Q (fun j => sh L s j + 2 * sh Q s j) i)).
    + apply cong_add; [apply sh_cong; intros j; apply (H s P) | apply cong_mul; [apply cong_refl | apply sh_cong; intros j; apply (H s P)]].
    + rewrite !sh_lin, sh_square, (sh_comm Q L). exists (sh L (sh Q s) i + sh Q (sh Q s) i). ring.
Qed.
Lemma scale_0 l : scale 0 l = l.
Proof. unfold scale. rewrite <- (map_id l) at 2. apply map_ext. intros b. cbn. lia. Qed.
Lemma power4 n : forall s, prec 2 s -> forall i, cong 4 (s (i + k * 2 ^ S n)%nat) (sh (scale (S n) bs) s i + 2 * sh (scale n (pairs bs)) s i).
Proof.
  induction n as [|n IH]; intros s P i.
  - assert (R := square4 k bs []). rewrite <- (dbl_scale 0), !scale_0. replace (k * 2 ^ 1)%nat with (k + k)%nat by (cbn; lia).
    apply R; [|exact P]. intros s' P' j. change (sh [] s' j) with 0. rewrite Z.mul_0_r, Z.add_0_r. exact (P' j).
  - assert (R := square4 _ _ _ IH s P i). rewrite dbl_scale, pairs_scale in R.
    replace (k * 2 ^ S (S n))%nat with (k * 2 ^ S n + k * 2 ^ S n)%nat by (rewrite (Nat.pow_succ_r' 2 (S n)); lia). exact R.
Qed.

(** T is not a period modulo 4, and the sequence does not change its sign after T places. *)
Definition sgn (eps : Z) (e : nat) : Z := if Nat.even e then 1 else eps.
Definition oth (eps : Z) : list nat := if eps =? 1 then [] else other.
Lemma sgn_pow eps s i e : (eps = 1 \/ eps = -1) -> (forall i, cong 4 (s (i + Z.to_nat T)%nat) (eps * s i)) -> cong 4 (s (i + e * 2 ^ k)%nat) (sgn eps e * s (i + e)%nat).
Proof.
  intros He H. rewrite pow_T, Nat.add_assoc. generalize (i + e)%nat. intros j. clear i.
  induction e as [|e IH]; [replace (j + 0 * Z.to_nat T)%nat with j by lia; change (sgn eps 0) with 1; exists 0; ring|].
  replace (j + S e * Z.to_nat T)%nat with (j + e * Z.to_nat T + Z.to_nat T)%nat by lia.
  apply (cong_trans _ _ (eps * s (j + e * Z.to_nat T)%nat)); [apply H|].
  apply (cong_trans _ _ (eps * (sgn eps e * s j))); [apply cong_mul; [apply cong_refl | exact IH]|].
  unfold sgn. rewrite Nat.even_succ, <- Nat.negb_even. destruct (Nat.even e); cbn [negb]; [exists 0; ring|].
  exists 0. destruct He as [-> | ->]; ring.
Qed.
Lemma sgn_sum eps s i l : (eps = 1 \/ eps = -1) -> (forall i, cong 4 (s (i + Z.to_nat T)%nat) (eps * s i)) ->
  cong 4 (sgn eps k * sh l s i - sh (scale k l) s i)
    (2 * sh (if eps =? 1 then [] else filter (fun b => negb (Bool.eqb (Nat.even b) (Nat.even k))) l) s i).
Proof.
  intros He H. induction l as [|b l IH].
  - destruct (eps =? 1); exists 0; cbn; ring.
  - unfold scale. cbn [map]. fold (scale k l). rewrite !sh_cons. cbn [filter].
    assert (B := sgn_pow eps s i b He H).
    replace (sgn eps k * (s (i + b)%nat + sh l s i) - (s (i + b * 2 ^ k)%nat + sh (scale k l) s i))
      with ((sgn eps k * s (i + b)%nat - s (i + b * 2 ^ k)%nat) + (sgn eps k * sh l s i - sh (scale k l) s i)) by ring.
    apply (cong_trans _ _ ((sgn eps k * s (i + b)%nat - sgn eps b * s (i + b)%nat) +
      2 * sh (if eps =? 1 then [] else filter (fun b => negb (Bool.eqb (Nat.even b) (Nat.even k))) l) s i)).
    + apply cong_add; [apply cong_sub; [apply cong_refl | exact B] | exact IH].
    + destruct He as [-> | ->].
      * change (1 =? 1) with true. cbn [sh fold_right]. exists 0. unfold sgn. destruct (Nat.even k), (Nat.even b); ring.
      * change (-1 =? 1) with false. cbv iota. unfold sgn. destruct (Nat.even k), (Nat.even b); cbn [Bool.eqb negb]; rewrite ?sh_cons;
          [exists 0; ring | exists 0; ring | exists (- s (i + b)%nat); ring | exists 0; ring].
Qed.
Lemma even_square L s : (forall i, cong 2 (sh L s i) 0) -> forall i, cong 2 (sh (dbl L) s i) 0.
Proof.
  intros H i. apply (cong_trans _ _ (sh L (sh L s) i)).
  - rewrite sh_square. exists (- sh (pairs L) s i). ring.
  - apply (cong_trans _ _ (sh L (fun _ => 0) i)); [apply sh_cong, H|]. clear H. induction L as [|a L IH]; [apply cong_refl|]. rewrite sh_cons. exact IH.
Qed.
Lemma no_sign eps m s : (eps = 1 \/ eps = -1) -> 2 <= m -> prec m s -> odd_some s -> ~ (forall i, cong 4 (s (i + Z.to_nat T)%nat) (eps * s i)).
Proof.
  intros He Hm P O H. assert (P2 := prec_le m 2 s ltac:(lia) P).
  assert (Hs : forall i, cong 2 (sh (scale (k - 1) (pairs bs) ++ oth eps) s i) 0).
  { intros i. assert (A := power4 (k - 1) s P2 i). replace (S (k - 1)) with k in A by lia.
    assert (B := sgn_pow eps s i k He H). assert (C := sgn_sum eps s i bs He H). change (if eps =? 1 then [] else filter (fun b => negb (Bool.eqb (Nat.even b) (Nat.even k))) bs) with (oth eps) in C.
    assert (D : cong 4 (s (i + k)%nat) (sh bs s i)) by exact (P2 i).
    assert (E : cong 4 (sgn eps k * sh bs s i) (sh (scale k bs) s i + 2 * sh (scale (k - 1) (pairs bs)) s i)).
    { apply (cong_trans _ _ (s (i + k * 2 ^ k)%nat)); [|exact A]. apply cong_sym. apply (cong_trans _ _ (sgn eps k * s (i + k)%nat)); [exact B|].
      apply cong_mul; [apply cong_refl | exact D]. }
    rewrite sh_app. unfold cong in *. destruct C as [c Hc]. destruct E as [e He']. exists (e - c + sh (scale (k - 1) (pairs bs)) s i). lia. }
  assert (Hd := even_square _ s Hs).
  assert (Hp : forall i, cong 2 (sh (pairs bs ++ dbl (oth eps)) s i) 0).
  { intros i. specialize (Hd i). unfold dbl in Hd. rewrite map_app in Hd. fold (dbl (scale (k - 1) (pairs bs))) (dbl (oth eps)) in Hd.
    rewrite dbl_scale in Hd. replace (S (k - 1)) with k in Hd by lia. rewrite sh_app in *.
    apply (cong_trans _ _ (sh (scale k (pairs bs)) s i + sh (dbl (oth eps)) s i)); [|exact Hd]. apply cong_add; [|apply cong_refl].
    apply cong_sym. generalize (pairs bs). intros l. induction l as [|b l IH]; [apply cong_refl|]. unfold scale. cbn [map]. fold (scale k l). rewrite !sh_cons.
    apply cong_add; [apply (period2_pow m); [lia | exact P] | exact IH]. }
  assert (Z0 : forall i, nact (npoly (pairs bs ++ dbl (oth eps))) (bit s) i = 0).
  { intros i. rewrite npoly_act, xsum_bits. apply even_cong, Hp. }
  assert (Sb := prec_bit m s ltac:(lia) P). apply O. intros i. apply even_cong. change (s i mod 2) with (bit s i).
  unfold oth in Z0. destruct (eps =? 1).
  - cbn [dbl map] in Z0. rewrite app_nil_r in Z0. exact (inverse_some k bs g1 _ (bit s) G1 Sb Z0 i).
  - exact (inverse_some k bs g2 _ (bit s) G2 Sb Z0 i).
Qed.

(** ** Periods modulo powers of two *)
Notation TT j := (2 ^ j * Z.to_nat T)%nat.
Lemma TT_S j : TT (S j) = (TT j + TT j)%nat. Proof. rewrite Nat.pow_succ_r'. lia. Qed.
Lemma lift_period j : forall m s i, Z.of_nat j + 1 <= m -> prec m s -> cong (2 ^ (Z.of_nat j + 1)) (s (i + TT j)%nat) (s i).
Proof.
  induction j as [|j IH]; intros m s i Hm P.
  - change (2 ^ (Z.of_nat 0 + 1)) with 2. replace (TT 0) with (Z.to_nat T) by (cbn [Nat.pow]; lia). apply (period2 m); [lia | exact P].
  - rewrite Nat2Z.inj_succ in *. rewrite TT_S.
    set (u := fun i => (s (i + TT j)%nat - s i) / 2 ^ (Z.of_nat j + 1)).
    assert (Eu : forall i, s (i + TT j)%nat + -1 * s i = 2 ^ (Z.of_nat j + 1) * u i).
    { intros t. unfold u. assert (C := IH m s t ltac:(lia) P). replace (s (t + TT j)%nat + -1 * s t) with (s (t + TT j)%nat - s t) by ring.
      apply Z_div_exact_full_2; [apply Z.pow_nonzero; lia|]. apply Zdivide_mod. exact C. }
    assert (Pu : prec (m - (Z.of_nat j + 1)) u).
    { apply (prec_div m (Z.of_nat j + 1) (fun i => s (i + TT j)%nat + -1 * s i)); [lia | | exact Eu].
      apply prec_lin; [apply prec_shift, P | exact P]. }
    assert (C2 : cong 2 (u (i + TT j)%nat) (u i)) by (apply (period2_mul (m - (Z.of_nat j + 1))); [lia | exact Pu]).
    assert (E1 := Eu i). assert (E2 := Eu (i + TT j)%nat). rewrite <- Nat.add_assoc in E2. destruct C2 as [c Hc].
    exists (c + u i). replace (2 ^ (Z.succ (Z.of_nat j) + 1)) with (2 * 2 ^ (Z.of_nat j + 1)) by (rewrite <- Z.pow_succ_r by lia; f_equal; lia).
    replace (s (i + (TT j + TT j))%nat - s i) with ((s (i + (TT j + TT j))%nat + -1 * s (i + TT j)%nat) + (s (i + TT j)%nat + -1 * s i)) by ring.
    rewrite E1, E2. replace (u (i + TT j)%nat) with (c * 2 + u i) by lia. ring.
Qed.
(** The difference after 2^j T places, divided by 2^(j+1), is not always even. *)
Lemma lift_odd j : forall m s, Z.of_nat j + 2 <= m -> prec m s -> odd_some s ->
  exists u, (forall i, s (i + TT j)%nat - s i = 2 ^ (Z.of_nat j + 1) * u i) /\ odd_some u.
Proof.
  intros m s Hm P O.
  assert (Div : forall j, Z.of_nat j + 1 <= m -> exists u, (forall i, s (i + TT j)%nat - s i = 2 ^ (Z.of_nat j + 1) * u i) /\ prec (m - (Z.of_nat j + 1)) u).
  { clear j Hm. intros j Hm. exists (fun i => (s (i + TT j)%nat - s i) / 2 ^ (Z.of_nat j + 1)).
    assert (E : forall i, s (i + TT j)%nat - s i = 2 ^ (Z.of_nat j + 1) * ((s (i + TT j)%nat - s i) / 2 ^ (Z.of_nat j + 1))).
    { intros i. apply Z_div_exact_full_2; [apply Z.pow_nonzero; lia|]. apply Zdivide_mod. exact (lift_period j m s i ltac:(lia) P). }
    split; [exact E|]. apply (prec_div m (Z.of_nat j + 1) (fun i => s (i + TT j)%nat + -1 * s i)); [lia | apply prec_lin; [apply prec_shift, P | exact P]|].
    intros i. rewrite <- E. ring. }
  (* j = 0: otherwise T is a period modulo 4 *)
  assert (J0 : exists u, (forall i, s (i + TT 0)%nat - s i = 2 ^ (Z.of_nat 0 + 1) * u i) /\ prec (m - 1) u /\ odd_some u).
  { destruct (Div 0%nat ltac:(lia)) as (u & Eu & Pu). exists u. split; [exact Eu|]. split; [exact Pu|]. intros Ev.
    apply (no_sign 1 m s); [left; reflexivity | lia | exact P | exact O|]. intros i. specialize (Eu i). specialize (Ev i).
    change (2 ^ (Z.of_nat 0 + 1)) with 2 in Eu. replace (TT 0) with (Z.to_nat T) in Eu by (cbn [Nat.pow]; lia).
    destruct Ev as [c Hc]. exists c. lia. }
  induction j as [|j IH]; [destruct J0 as (u & A & _ & B); exists u; split; assumption|].
  destruct (Div (S j) ltac:(lia)) as (v & Ev & Pv). exists v. split; [exact Ev|]. intros Even.
  destruct j as [|j].
  - (* otherwise the difference after T places changes its sign after T places, modulo 4 *)
    destruct J0 as (u & Eu & Pu & Ou). apply (no_sign (-1) (m - 1) u); [right; reflexivity | lia | exact Pu | exact Ou|]. intros i.
    assert (E1 := Eu i). assert (E2 := Eu (i + TT 0)%nat). specialize (Ev i). specialize (Even i). rewrite TT_S, Nat.add_assoc in Ev.
    change (2 ^ (Z.of_nat 0 + 1)) with 2 in E1, E2. change (2 ^ (Z.of_nat 1 + 1)) with 4 in Ev. replace (TT 0) with (Z.to_nat T) in * by (cbn [Nat.pow]; lia).
    destruct Even as [c Hc]. exists c. lia.
  - destruct (IH ltac:(lia)) as (u & Eu & Ou). clear IH. destruct (Div (S j) ltac:(lia)) as (u' & Eu' & Pu).
    assert (Pw : 0 < 2 ^ (Z.of_nat (S j) + 1)) by (apply Z.pow_pos_nonneg; lia).
    assert (U : forall i, u' i = u i) by (intros i; apply (Z.mul_reg_l _ _ (2 ^ (Z.of_nat (S j) + 1))); [lia | rewrite <- Eu, <- Eu'; reflexivity]).
    apply Ou. intros i. rewrite <- U. assert (E1 := Eu' i). assert (E2 := Eu' (i + TT (S j))%nat). specialize (Ev i). specialize (Even i).
    rewrite TT_S, Nat.add_assoc in Ev.
    assert (C4 : cong 4 (u' (i + TT (S j))%nat) (u' i)).
    { apply (Z.divide_trans _ (2 ^ (Z.of_nat 1 + 1))); [exists 1; reflexivity|].
      assert (Q := lift_period 1 (m - (Z.of_nat (S j) + 1)) u').
      assert (M : forall c i, cong (2 ^ (Z.of_nat 1 + 1)) (u' (i + c * TT 1)%nat) (u' i)).
      { induction c as [|c IHc]; intros t; [replace (t + 0 * TT 1)%nat with t by lia; apply cong_refl|].
        replace (t + S c * TT 1)%nat with (t + c * TT 1 + TT 1)%nat by lia.
        apply (cong_trans _ _ (u' (t + c * TT 1)%nat)); [apply Q; [lia | exact Pu] | apply IHc]. }
      replace (TT (S j)) with (2 ^ j * TT 1)%nat by (rewrite (Nat.pow_succ_r' 2 j); cbn [Nat.pow]; lia). apply M. }
    replace (Z.of_nat (S (S j)) + 1) with (Z.succ (Z.of_nat (S j) + 1)) in Ev by lia. rewrite Z.pow_succ_r in Ev by lia.
    set (W := 2 ^ (Z.of_nat (S j) + 1)) in *.
    assert (Sum : W * (u' (i + TT (S j))%nat + u' i) = W * (2 * v i)).
    { rewrite Z.mul_add_distr_l, <- E1, <- E2. replace (W * (2 * v i)) with (2 * W * v i) by ring. rewrite <- Ev. ring. }
    apply Z.mul_reg_l in Sum; [|lia]. destruct C4 as [c Hc]. destruct Even as [d Hd]. exists (d - c). lia.
Qed.

(** ** The exact period *)
Theorem plus_exact m s : prime T -> 3 <= m -> prec m s -> odd_some s ->
  forall n, per (2 ^ m) s n <-> 0 <= n /\ (2 ^ (m - 1) * T | n).
Proof.
  intros PT Hm P O n. assert (HT := T_pos). assert (Pm : 0 < 2 ^ (m - 1)) by (apply Z.pow_pos_nonneg; lia).
  assert (Ob : exists i, bit s i <> 0).
  { assert (Sr : forall N, (exists i, bit s i <> 0) \/ (forall i, (i < N)%nat -> bit s i = 0)).
    { induction N as [|N [Y|No]]; [right; intros i Hi; lia | left; exact Y|]. destruct (Z.eq_dec (bit s N) 0) as [E|E]; [|left; exists N; exact E].
      right. intros i Hi. destruct (Nat.eq_dec i N) as [->|]; [exact E | apply No; lia]. }
    destruct (Sr (Z.to_nat T)) as [Y|No]; [exact Y | exfalso]. apply O. intros i.
    rewrite (Nat.div_mod i (Z.to_nat T)) by lia. rewrite (Nat.mul_comm (Z.to_nat T)), Nat.add_comm.
    apply (cong_trans _ _ (s (i mod Z.to_nat T)%nat)); [apply (period2_mul m); [lia | exact P]|]. apply even_cong. apply No.
    apply Nat.mod_upper_bound. lia. }
  assert (Low : forall n, per (2 ^ m) s n -> (T | n)).
  { intros n' (H0 & H). apply (proj2 Ex (bit s) (prec_bit m s ltac:(lia) P) Ob n'). split; [exact H0|]. intros i.
    apply cong_iff; [lia|]. apply (Z.divide_trans _ (2 ^ m)); [|apply H]. exists (2 ^ (m - 1)). rewrite <- (Z.pow_1_r 2) at 3. rewrite <- Z.pow_add_r by lia. f_equal. lia. }
  assert (Ej : forall j, Z.to_nat (2 ^ Z.of_nat j * T) = TT j).
  { intros j. apply Nat2Z.inj. rewrite Nat2Z.inj_mul, Nat2Z.inj_pow, !Z2Nat.id by (try apply Z.mul_nonneg_nonneg; try apply Z.pow_nonneg; lia). reflexivity. }
  assert (R : per (2 ^ m) s (2 ^ (m - 1) * T)).
  { split; [nia|]. intros i. replace (m - 1) with (Z.of_nat (Z.to_nat (m - 1))) by lia. rewrite Ej.
    assert (L := lift_period (Z.to_nat (m - 1)) m s i ltac:(lia) P). replace (Z.of_nat (Z.to_nat (m - 1)) + 1) with m in L by lia. exact L. }
  apply (per_exact (2 ^ m) s (2 ^ (m - 1) * T) (repeat 2 (Z.to_nat (m - 1)) ++ [T])); [nia | | | exact R |].
  - intros q Hq. apply in_app_or in Hq. destruct Hq as [Hq|[<-|[]]]; [apply repeat_spec in Hq; subst q; exact prime_2 | exact PT].
  - assert (Pr : forall a, prod (repeat 2 a ++ [T]) = 2 ^ Z.of_nat a * T).
    { induction a as [|a IH]; [cbn [repeat app prod fold_right]; change (2 ^ Z.of_nat 0) with 1; ring|].
      rewrite Nat2Z.inj_succ, Z.pow_succ_r by lia. cbn [repeat app]. unfold prod in *. cbn [fold_right]. rewrite IH. ring. }
    rewrite Pr, Z2Nat.id by lia. apply Z.divide_refl.
  - intros q Hq _ Pq. apply in_app_or in Hq. destruct Hq as [Hq|[<-|[]]].
    + apply repeat_spec in Hq. subst q.
      assert (E : 2 ^ (m - 1) * T / 2 = 2 ^ (m - 2) * T).
      { replace (m - 1) with (Z.succ (m - 2)) by lia. rewrite Z.pow_succ_r by lia. replace (2 * 2 ^ (m - 2) * T) with (2 ^ (m - 2) * T * 2) by ring. apply Z.div_mul. lia. }
      rewrite E in Pq. destruct (lift_odd (Z.to_nat (m - 2)) m s ltac:(lia) P O) as (u & Eu & Ou). apply Ou. intros i.
      destruct Pq as (_ & Pq). specialize (Pq i). replace (m - 2) with (Z.of_nat (Z.to_nat (m - 2))) in Pq by lia. rewrite Ej in Pq.
      destruct Pq as [c Hc]. rewrite Eu in Hc. replace (Z.of_nat (Z.to_nat (m - 2)) + 1) with (m - 1) in Hc by lia.
      exists c. rewrite Z.sub_0_r. apply (Z.mul_reg_l _ _ (2 ^ (m - 1))); [lia|]. rewrite Hc.
      replace (2 ^ m) with (2 * 2 ^ (m - 1)) by (rewrite <- Z.pow_succ_r by lia; f_equal; lia). ring.
    + rewrite Z.div_mul in Pq by lia. apply Low in Pq.
      assert (D2 : forall a, (T | 2 ^ Z.of_nat a) -> (T | 1)).
      { induction a as [|a IH]; [intros D'; exact D'|]. rewrite Nat2Z.inj_succ, Z.pow_succ_r by lia. intros D'.
        apply prime_mult in D'; [|exact PT]. destruct D' as [D'|D']; [|apply IH, D'].
        exfalso. apply Z.divide_pos_le in D'; [|lia]. assert (Hp := Z.pow_le_mono_r 2 2 (Z.of_nat k) ltac:(lia) ltac:(lia)).
        change (2 ^ 2) with 4 in Hp. unfold T in D'. lia. }
      replace (m - 1) with (Z.of_nat (Z.to_nat (m - 1))) in Pq by lia. apply D2 in Pq. apply Z.divide_1_r_nonneg in Pq; lia.
Qed.
End Lift.
