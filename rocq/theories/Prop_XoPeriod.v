(** Property C92: the period of xoshiro256plus. *)
From Coq Require Import ZArith Znumtheory List Bool Arith Lia.
From Verif Require Import Base BaseFacts Cong Spec SpecFacts MinstdModel LagfibModel XoshiroModel XoshiroProofs Prop_Xoshiro Primes PolyAct Prop_Period Gf2Act Gf2Certs.
Import ListNotations.
Open Scope Z_scope.

(** ** The recurrence of the state words *)
Notation F := (gc_f gc_xoshiro).
Definition xseq (S : xoshiro) (q : nat) (i : nat) : Z := xw (Nat.iter i xo_step S) q.
Fixpoint xsum (c : list bool) (S acc : xoshiro) : xoshiro * xoshiro :=
  match c with [] => (acc, S) | b :: c' => xsum c' (xo_step S) (if b then xadd acc S else acc) end.

Lemma iter_r {A} (g : A -> A) n x : Nat.iter n g (g x) = Nat.iter (S n) g x.
Proof. symmetry. apply iter_S_r. Qed.
Lemma act_snoc c b w : forall i, act (c ++ [b]) w i = Z.lxor (act c w (S i)) (if b then w i else 0).
Proof.
  induction c as [|x c IH]; intros i; cbn [app act length].
  - rewrite Nat.add_0_r, Z.lxor_0_r. reflexivity.
  - rewrite IH, app_length. cbn [length]. replace (i + (length c + 1))%nat with (S i + length c)%nat by lia. symmetry. apply Z.lxor_assoc.
Qed.
Lemma xw_add S S' q : xw (xadd S S') q = Z.lxor (xw S q) (xw S' q).
Proof. destruct q as [|[|[|q]]]; reflexivity. Qed.
Lemma act_step c S q i : act c (xseq (xo_step S) q) i = act c (xseq S q) (Datatypes.S i).
Proof.
  replace (Datatypes.S i) with (i + 1)%nat by lia. rewrite <- act_shift. apply act_ext. intros j. unfold xseq.
  rewrite Nat.add_1_r. f_equal. exact (iter_r xo_step j S).
Qed.
Lemma xsum_act c q : forall S acc, xw (fst (xsum c S acc)) q = Z.lxor (xw acc q) (act (rev c) (xseq S q) 0).
Proof.
  induction c as [|b c IH]; intros S acc; cbn [xsum rev act fst]; [symmetry; apply Z.lxor_0_r|].
  rewrite IH, act_snoc, act_step. change (xseq S q 0) with (xw S q).
  destruct b; [rewrite xw_add|]; lx.
Qed.
Lemma xsum_state c : forall S acc, snd (xsum c S acc) = Nat.iter (length c) xo_step S.
Proof. induction c as [|b c IH]; intros S acc; cbn [xsum length snd]; [reflexivity|]. rewrite IH. exact (iter_r xo_step (length c) S). Qed.

Lemma relation : fst (xsum (rev F) xo_default (Xo 0 0 0 0)) = snd (xsum (rev F) xo_default (Xo 0 0 0 0)).
Proof. vm_compute. reflexivity. Qed.

(** The combination of the words of the states, and its successor. *)
Definition xcomb (c : list bool) (i : nat) : xoshiro :=
  Xo (act c (xseq xo_default 0) i) (act c (xseq xo_default 1) i) (act c (xseq xo_default 2) i) (act c (xseq xo_default 3) i).
Lemma iter_ok S i : xok S -> xok (Nat.iter i xo_step S).
Proof. intros H. apply (iter_inv xok); [intros Y; apply step_ok | exact H]. Qed.
Lemma default_ok : xok xo_default.
Proof. unfold xok, word. cbn [xr0 xr1 xr2 xr3 xo_default]. lia. Qed.
Lemma xcomb_step c i : xok (xcomb c i) /\ xo_step (xcomb c i) = xcomb c (S i).
Proof.
  induction c as [|b c (K & E)]; [split; [unfold xok, word; cbn; lia | reflexivity]|].
  assert (D : xcomb (b :: c) i = if b then xadd (Nat.iter (i + length c) xo_step xo_default) (xcomb c i) else xcomb c i) by (destruct b; reflexivity).
  assert (D' : xcomb (b :: c) (S i) = if b then xadd (Nat.iter (S i + length c) xo_step xo_default) (xcomb c (S i)) else xcomb c (S i)) by (destruct b; reflexivity).
  rewrite D, D'. destruct b; [|split; assumption]. assert (K2 := iter_ok _ (i + length c) default_ok). split.
  - destruct K2 as (A0 & A1 & A2 & A3). destruct K as (B0 & B1 & B2 & B3). unfold xok, xadd. cbn [xr0 xr1 xr2 xr3].
    split; [apply lxor_word; assumption|]. split; [apply lxor_word; assumption|]. split; apply lxor_word; assumption.
  - rewrite step_add by assumption. rewrite E. reflexivity.
Qed.
Lemma xo_words S S' : (forall q, (q < 4)%nat -> xw S q = xw S' q) -> S = S'.
Proof.
  intros H. destruct S, S'. assert (H0 := H 0%nat ltac:(lia)). assert (H1 := H 1%nat ltac:(lia)). assert (H2 := H 2%nat ltac:(lia)). assert (H3 := H 3%nat ltac:(lia)).
  cbn in H0, H1, H2, H3. subst. reflexivity.
Qed.
Lemma relation_gen f : fst (xsum (rev f) xo_default (Xo 0 0 0 0)) = snd (xsum (rev f) xo_default (Xo 0 0 0 0)) ->
  xcomb f 0 = Nat.iter (length f) xo_step xo_default.
Proof.
  intros R. rewrite xsum_state, rev_length in R. rewrite <- R. apply xo_words. intros q Hq. rewrite xsum_act, rev_involutive.
  assert (Z0 : xw (Xo 0 0 0 0) q = 0) by (destruct q as [|[|[|q]]]; reflexivity). rewrite Z0, Z.lxor_0_l.
  destruct q as [|[|[|[|q]]]]; [reflexivity | reflexivity | reflexivity | reflexivity | lia].
Qed.
Lemma relation_i f : xcomb f 0 = Nat.iter (length f) xo_step xo_default -> forall i, xcomb f i = Nat.iter (i + length f) xo_step xo_default.
Proof.
  intros R. induction i as [|i IH]; [exact R|]. rewrite <- (proj2 (xcomb_step f i)), IH. reflexivity.
Qed.
Lemma frec_gen f q : xcomb f 0 = Nat.iter (length f) xo_step xo_default -> (q < 4)%nat -> frec2 f (xseq xo_default q).
Proof.
  intros R Hq i. unfold xseq at 1. rewrite <- (relation_i f R).
  destruct q as [|[|[|[|q]]]]; [reflexivity | reflexivity | reflexivity | reflexivity | lia].
Qed.

Lemma default_frec q : (q < 4)%nat -> frec2 F (xseq xo_default q).
Proof. exact (frec_gen F q (relation_gen F relation)). Qed.

(** ** The orbit of the default state *)
Definition N256 : Z := Z.pos (gc_n gc_xoshiro).
Lemma N256_eq : N256 = 2 ^ 256 - 1. Proof. reflexivity. Qed.
Lemma HR : forall u, frec2 F u -> bper u N256.
Proof. intros u. apply gf2_returns; [exact gc_xoshiro_shape | exact gc_xoshiro_algebra]. Qed.
Lemma HX : forall u, frec2 F u -> (exists i, u i <> 0) -> forall n, bper u n <-> 0 <= n /\ (N256 | n).
Proof. intros u. apply gf2_exact; [exact gc_xoshiro_shape | exact gc_xoshiro_algebra]. Qed.
Lemma HN : 0 < N256. Proof. reflexivity. Qed.

Notation st i := (Nat.iter i xo_step xo_default).
Lemma orbit_eq a b : st a = st b <-> (N256 | Z.of_nat b - Z.of_nat a).
Proof.
  split.
  - intros E. apply (tails_period F N256 (xseq xo_default 0)); [exact HN | apply default_frec; lia | exact HR | exact HX | |].
    + exists 0%nat. discriminate.
    + intros i. unfold xseq. rewrite !iter_add, E. reflexivity.
  - intros D. apply xo_words. intros q Hq. exact (tails_back F N256 (xseq xo_default q) HN (default_frec q Hq) HR a b D 0).
Qed.

Definition xpack (S : xoshiro) : Z := xr0 S + 2 ^ 64 * (xr1 S + 2 ^ 64 * (xr2 S + 2 ^ 64 * xr3 S)).
Lemma digit64 a b c d : 0 <= a < 2 ^ 64 -> 0 <= c < 2 ^ 64 -> a + 2 ^ 64 * b = c + 2 ^ 64 * d -> a = c /\ b = d.
Proof. lia. Qed.
Lemma xpack_inj S S' : xok S -> xok S' -> xpack S = xpack S' -> S = S'.
Proof.
  intros (A0 & A1 & A2 & A3) (B0 & B1 & B2 & B3) E. unfold xpack, word in *.
  apply digit64 in E; [|assumption|assumption]. destruct E as (E0 & E). apply digit64 in E; [|assumption|assumption]. destruct E as (E1 & E).
  apply digit64 in E; [|assumption|assumption]. destruct E as (E2 & E3). destruct S, S'. cbn in *. subst. reflexivity.
Qed.
Lemma xpack_range S : xok S -> 0 <= xpack S <= N256 /\ (~ all_zero S -> 1 <= xpack S).
Proof.
  intros (A0 & A1 & A2 & A3). unfold xpack, word, all_zero in *. rewrite N256_eq.
  change (2 ^ 256) with (2 ^ 64 * (2 ^ 64 * (2 ^ 64 * 2 ^ 64))). split; lia.
Qed.
Lemma st_some i : xok (st i) /\ ~ all_zero (st i).
Proof.
  destruct (C30_never_zero xo_default i default_ok) as (A & B & _); [intros (Z0 & _); discriminate Z0|]. split; assumption.
Qed.
Lemma orbit_all S : xok S -> ~ all_zero S -> exists c, 0 <= c < N256 /\ st (Z.to_nat c) = S.
Proof.
  intros K NZ. destruct (xpack_range S K) as (R1 & R2). specialize (R2 NZ).
  destruct (inj_surj_Z N256 (fun c => xpack (st (Z.to_nat c)) - 1)) with (v := xpack S - 1) as (c & Hc & E).
  - intros x Hx. destruct (st_some (Z.to_nat x)) as (K' & NZ'). destruct (xpack_range _ K') as (Q1 & Q2). specialize (Q2 NZ'). lia.
  - intros x y Hx Hy E. assert (E' : st (Z.to_nat x) = st (Z.to_nat y)) by (apply xpack_inj; [apply st_some | apply st_some | lia]).
    apply orbit_eq in E'. rewrite !Z2Nat.id in E' by lia. destruct E' as [m Hm]. assert (HN' := HN). assert (m = 0) by nia. subst m. lia.
  - lia.
  - exists c. split; [exact Hc|]. apply xpack_inj; [apply st_some | exact K | lia].
Qed.

(** ** C92 *)

(** Every state except zero lies on one cycle of length 2^256 - 1; the sequence of draws has no shorter period. *)
Theorem C92_xoshiro_period : forall S, xstate S -> ~ all_zero S ->
  state_period xo_next S (2 ^ 256 - 1) /\ draw_period xo_next S (2 ^ 256 - 1).
Proof.
  intros S K NZ. rewrite <- N256_eq. destruct (orbit_all S K NZ) as (c & Hc & Ec).
  assert (A : forall i, after xo_next i S = st (i + Z.to_nat c)) by (intros i; rewrite after_steps, <- Ec, <- iter_add; reflexivity).
  assert (SP : state_period xo_next S N256).
  { intros i j. rewrite !A, orbit_eq. replace (Z.of_nat (j + Z.to_nat c) - Z.of_nat (i + Z.to_nat c)) with (Z.of_nat j - Z.of_nat i) by lia. reflexivity. }
  split; [exact SP|]. intros n. split.
  - intros E.
    (* the lowest bit of the draws is linear in the state *)
    set (z := fun i => Z.land (Z.lxor (xseq xo_default 0 i) (xseq xo_default 3 i)) 1).
    assert (Hz : frec2 F z).
    { intros i. unfold z at 1. rewrite (default_frec 0 ltac:(lia) i), (default_frec 3 ltac:(lia) i).
      rewrite <- act_lxor. generalize F. clear. intros f. induction f as [|b f IH]; cbn [act]; [reflexivity|].
      rewrite <- IH. unfold z. destruct b; bits; rewrite ?Z.land_spec, ?Z.lxor_spec, ?Z.land_spec, ?Z.lxor_spec, ?Z.bits_0;
        repeat match goal with |- context [Z.testbit ?a ?b] => destruct (Z.testbit a b) end; reflexivity. }
    assert (NZz : exists i, z i <> 0).
    { destruct (orbit_all (Xo 1 0 0 0)) as (d & _ & Ed); [unfold xok, word; cbn; lia | intros (Z0 & _); discriminate Z0|].
      exists (Z.to_nat d). unfold z, xseq. rewrite Ed. discriminate. }
    assert (Ez : forall i, z (i + (n + Z.to_nat c + 1))%nat = z (i + (Z.to_nat c + 1))%nat).
    { intros i. specialize (E i). unfold draw in E. rewrite !A in E.
      unfold z, xseq. replace (i + (n + Z.to_nat c + 1))%nat with (Datatypes.S (i + n + Z.to_nat c)%nat) by lia.
      replace (i + (Z.to_nat c + 1))%nat with (Datatypes.S (i + Z.to_nat c)%nat) by lia.
      unfold xo_next in E. cbv zeta in E. cbn [fst] in E.
      change (Nat.iter (Datatypes.S (i + n + Z.to_nat c)) xo_step xo_default) with (xo_step (st (i + n + Z.to_nat c))).
      change (Nat.iter (Datatypes.S (i + Z.to_nat c)) xo_step xo_default) with (xo_step (st (i + Z.to_nat c))).
      set (X := xo_step (st (i + n + Z.to_nat c))) in *. set (Y := xo_step (st (i + Z.to_nat c))) in *. clearbody X Y. clear - E.
      assert (P : forall S, Z.land (Z.lxor (xw S 0) (xw S 3)) 1 = wrap64 (xr0 S + xr3 S) mod 2).
      { intros S. cbn [xw]. rewrite (Z.land_ones _ 1) by lia. change (2 ^ 1) with 2. unfold wrap64.
        assert (M : (xr0 S + xr3 S) mod 2 ^ 64 mod 2 = (xr0 S + xr3 S) mod 2).
        { rewrite (Z.mod_eq (xr0 S + xr3 S) (2 ^ 64)) by discriminate.
          replace (xr0 S + xr3 S - 2 ^ 64 * ((xr0 S + xr3 S) / 2 ^ 64)) with (xr0 S + xr3 S + (- (2 ^ 63) * ((xr0 S + xr3 S) / 2 ^ 64)) * 2)
            by (change (2 ^ 64) with (2 * 2 ^ 63); ring). apply Z_mod_plus_full. }
        rewrite M. rewrite <- !Z.bit0_mod, Z.add_bit0, Z.lxor_spec. reflexivity. }
      rewrite (P X), (P Y), E. reflexivity. }
    assert (D := tails_period F N256 z HN Hz HR HX _ _ NZz Ez).
    replace (Z.of_nat (Z.to_nat c + 1) - Z.of_nat (n + Z.to_nat c + 1)) with (- Z.of_nat n) in D by lia. apply Z.divide_opp_r, D.
  - intros D i. unfold draw. f_equal. f_equal. apply SP.
    replace (Z.of_nat i - Z.of_nat (i + n)) with (- Z.of_nat n) by lia. apply Z.divide_opp_r, D.
Qed.
Print Assumptions C92_xoshiro_period.

(** From every state but zero every state but zero is reached, after exactly one number of draws below 2^256 - 1. *)
Theorem C92_xoshiro_all_states : forall S S', xstate S -> ~ all_zero S -> xstate S' -> ~ all_zero S' ->
  exists! n, 0 <= n < 2 ^ 256 - 1 /\ after xo_next (Z.to_nat n) S = S'.
Proof.
  intros S S' K NZ K' NZ'. destruct (C92_xoshiro_period S K NZ) as (SP & _). rewrite <- N256_eq in *.
  destruct (orbit_all S K NZ) as (c & Hc & Ec). destruct (orbit_all S' K' NZ') as (c' & Hc' & Ec').
  assert (HN' := HN).
  exists ((c' - c) mod N256). assert (B := Z.mod_pos_bound (c' - c) N256 HN). split.
  - split; [exact B|]. rewrite after_steps, <- Ec, <- iter_add, <- Ec'. apply orbit_eq.
    rewrite Nat2Z.inj_add, !Z2Nat.id by lia. rewrite Z.mod_eq by lia. exists ((c' - c) / N256). ring.
  - intros n (Hn & E). assert (E2 : after xo_next (Z.to_nat ((c' - c) mod N256)) S = after xo_next (Z.to_nat n) S).
    { rewrite E. rewrite after_steps, <- Ec, <- iter_add, <- Ec'. apply orbit_eq.
      rewrite Nat2Z.inj_add, !Z2Nat.id by lia. rewrite Z.mod_eq by lia. exists ((c' - c) / N256). ring. }
    apply SP in E2. rewrite !Z2Nat.id in E2 by lia. destruct E2 as [m Hm]. assert (m = 0) by nia. subst m. lia.
Qed.
Print Assumptions C92_xoshiro_all_states.

(** In one period every value y is drawn with every combination of three state words exactly once, so 2^192 times,
    and zero 2^192 - 1 times. *)
Theorem C92_xoshiro_equidistribution : forall S y r0 r1 r2, xstate S -> ~ all_zero S -> word 64 y -> word 64 r0 -> word 64 r1 -> word 64 r2 ->
  ~ (y = 0 /\ r0 = 0 /\ r1 = 0 /\ r2 = 0) ->
  exists! n, 0 <= n < 2 ^ 256 - 1 /\ draw xo_next S (Z.to_nat n) = y /\
    xr0 (after xo_next (Z.to_nat n + 1) S) = r0 /\ xr1 (after xo_next (Z.to_nat n + 1) S) = r1 /\ xr2 (after xo_next (Z.to_nat n + 1) S) = r2.
Proof.
  intros S y r0 r1 r2 K NZ Hy H0 H1 H2 NE. set (X := Xo r0 r1 r2 (wrap64 (y - r0))).
  assert (W3 : word 64 (wrap64 (y - r0))) by (apply Z.mod_pos_bound; reflexivity).
  assert (KX : xok X) by (unfold xok; cbn [X xr0 xr1 xr2 xr3]; tauto).
  assert (NX : ~ all_zero X).
  { intros (Z0 & Z1 & Z2 & Z3). cbn [X xr0 xr1 xr2 xr3] in *. apply NE. rewrite Z0, Z.sub_0_r in Z3.
    unfold wrap64 in Z3. rewrite Z.mod_small in Z3 by exact Hy. tauto. }
  assert (KB := back_ok X KX). assert (SB := step_back X KX).
  assert (NB : ~ all_zero (xo_back X)).
  { intros Z. apply NX. rewrite <- SB. destruct (xo_back X) as [a b c d], Z as (Z0 & Z1 & Z2 & Z3). cbn in Z0, Z1, Z2, Z3. subst. repeat split. }
  assert (Step : forall n, after xo_next (n + 1) S = xo_step (after xo_next n S)) by (intros n; rewrite Nat.add_1_r; reflexivity).
  assert (Dr : forall n, draw xo_next S n = wrap64 (xr0 (after xo_next (n + 1) S) + xr3 (after xo_next (n + 1) S))).
  { intros n. rewrite Step. reflexivity. }
  destruct (C92_xoshiro_all_states S (xo_back X) K NZ KB NB) as (n & (Hn & E) & U). exists n. split.
  - split; [exact Hn|]. rewrite Dr, Step, E, SB. cbn [X xr0 xr1 xr2 xr3]. split; [|split; [reflexivity | split; reflexivity]].
    unfold wrap64. rewrite Zplus_mod_idemp_r. replace (r0 + (y - r0)) with y by ring. apply Z.mod_small, Hy.
  - intros n' (Hn' & D & E0 & E1 & E2). apply U. split; [exact Hn'|].
    destruct (C30_never_zero S (Z.to_nat n') K NZ) as (KA & _ & _).
    rewrite <- (back_step _ KA), <- Step. f_equal. assert (KS := step_ok _ KA). rewrite <- Step in KS.
    rewrite Dr in D. destruct KS as (_ & _ & _ & W). unfold X. destruct (after xo_next (Z.to_nat n' + 1) S) as [a b c d].
    cbn [xr0 xr1 xr2 xr3] in *. subst a b c. f_equal. rewrite <- D. unfold wrap64. rewrite Zminus_mod_idemp_l.
    replace (r0 + d - r0) with d by ring. symmetry. apply Z.mod_small, W.
Qed.
Print Assumptions C92_xoshiro_equidistribution.

(** Hypotheses hold for the default state and every seeded engine (C30_seed). *)
Example C92_case : xstate xo_default /\ ~ all_zero xo_default /\ xstate (xo_seed 1) /\ ~ all_zero (xo_seed 1) /\
  after xo_next 3 xo_default <> xo_default /\ draw xo_next (xo_seed 1) 2 <> draw xo_next (xo_seed 1) 3.
Proof.
  split; [exact default_ok|]. split; [intros (Z0 & _); discriminate Z0|].
  assert (A := C30_seed 1 minstd_gen (minstd_seed 1) 0 0 0 0 ltac:(unfold word; lia) ltac:(unfold word; lia) ltac:(unfold word; lia) ltac:(unfold word; lia)).
  apply Forall_inv_tail, Forall_inv in A.
  split; [apply A|]. split; [apply A|]. split; vm_compute; discriminate.
Qed.
