(** Proofs about the canonical uniform variates. *)
From Coq Require Import ZArith Bool List Reals Lia Lra.
From Flocq Require Import Core IEEE754.BinarySingleNaN.
From Verif Require Import UniformModel FloatFacts.
Import ListNotations.
Open Scope R_scope.

(** ** Number of bits *)

Lemma bits_of_spec fuel : forall top count, (0 <= top < 2 ^ Z.of_nat fuel)%Z ->
  exists b, (0 <= b <= Z.of_nat fuel /\ bits_of fuel top count = count + b /\ top < 2 ^ b
             /\ (0 < top -> 2 ^ (b - 1) <= top /\ 1 <= b))%Z.
Proof.
  induction fuel as [|k IH]; intros top count H.
  - exists 0%Z. cbn [bits_of]. change (2 ^ Z.of_nat 0)%Z with 1%Z in H. change (2 ^ 0)%Z with 1%Z. lia.
  - cbn [bits_of]. destruct (Z.eqb_spec top 0) as [->|N].
    + exists 0%Z. change (2 ^ 0)%Z with 1%Z. lia.
    + assert (H2 : (0 <= top / 2 < 2 ^ Z.of_nat k)%Z).
      { rewrite Nat2Z.inj_succ, Z.pow_succ_r in H by lia. split; [apply Z.div_pos; lia|].
        apply Z.div_lt_upper_bound; lia. }
      destruct (IH (top / 2)%Z (count + 1)%Z H2) as (b & B1 & B2 & B3 & B4).
      exists (b + 1)%Z. repeat split; try lia.
      * rewrite Z.pow_add_r by lia. change (2 ^ 1)%Z with 2%Z. pose proof (Z.div_mod top 2 ltac:(lia)).
        pose proof (Z.mod_pos_bound top 2 ltac:(lia)). lia.
      * replace (b + 1 - 1)%Z with b by lia.
        destruct (Z.eq_dec (top / 2) 0) as [E|E].
        { assert (b <= 0)%Z; [|replace b with 0%Z by lia; change (2 ^ 0)%Z with 1%Z; lia].
          destruct (Z_le_gt_dec b 0) as [L|G]; [exact L|exfalso].
          assert (bits_of k 0 (count + 1) = count + 1)%Z by (destruct k; reflexivity).
          rewrite E in B2. lia. }
        { destruct B4 as (B4 & B5); [lia|].
          replace b with (b - 1 + 1)%Z by lia. rewrite Z.pow_add_r by lia. change (2 ^ 1)%Z with 2%Z.
          pose proof (Z.div_mod top 2 ltac:(lia)). pose proof (Z.mod_pos_bound top 2 ltac:(lia)). lia. }
Qed.

Lemma domain_bits_spec D : (1 <= D < 2 ^ 64)%Z ->
  (1 <= domain_bits D <= 64 /\ 2 ^ (domain_bits D - 1) <= D < 2 ^ domain_bits D)%Z.
Proof.
  intros H. unfold domain_bits. destruct (bits_of_spec 64 D 0) as (b & B1 & -> & B3 & B4); [lia|].
  rewrite Z.add_0_l. destruct B4 as (B4 & B5); [lia|]. change (Z.of_nat 64) with 64%Z in B1. lia.
Qed.

Lemma holes_mono fuel : forall top count, (count <= holes_of fuel top count)%Z.
Proof.
  induction fuel as [|k IH]; intros top count; cbn [holes_of]; [lia|].
  destruct (top =? 0)%Z; [lia|]. specialize (IH (top / 2)%Z (count + (if Z.even top then 1 else 0))%Z).
  destruct (Z.even top); lia.
Qed.

Lemma domain_full_bits_spec D : (1 <= D < 2 ^ 64)%Z ->
  (1 <= domain_full_bits D /\ domain_bits D - 1 <= domain_full_bits D <= domain_bits D)%Z.
Proof.
  intros H. pose proof (domain_bits_spec D H) as (B1 & B2). unfold domain_full_bits.
  destruct (Z.gtb_spec (holes_of 64 D 0) 0) as [G|G]; [|lia].
  assert (2 <= domain_bits D)%Z; [|lia].
  destruct (Z.eq_dec (domain_bits D) 1) as [E|E]; [exfalso|lia].
  rewrite E in B2. change (2 ^ (1 - 1))%Z with 1%Z in B2. change (2 ^ 1)%Z with 2%Z in B2.
  assert (D = 1)%Z by lia. subst D. vm_compute in G. discriminate.
Qed.

(** ** One format *)

Section Format.
Context (prec emax : Z) {prec_gt_0_ : Prec_gt_0 prec} {prec_lt_emax_ : Prec_lt_emax prec emax}.
Hypothesis Hf : (prec = 24 /\ emax = 128 \/ prec = 53 /\ emax = 1024)%Z.

Notation F := (binary_float prec emax).
Notation fexp := (SpecFloat.fexp prec emax).
Notation rnd := (round radix2 fexp ZnearestE).
Notation fmt := (generic_format radix2 fexp).
Notation inrange := (inrange emax).
Notation u := (bpow radix2 (- prec)).

Lemma Hp3 : (3 <= prec)%Z. Proof. lia. Qed.
Lemma Hem70 : (70 <= emax)%Z. Proof. lia. Qed.
Hint Resolve Hp3 Hem70 : core.

Lemma want_bits_spec req : (1 <= want_bits prec req <= prec)%Z.
Proof.
  unfold want_bits. destruct (Z.ltb_spec req prec); cbv zeta;
  match goal with |- context [(?a <? 1)%Z] => destruct (Z.ltb_spec a 1) end; lia.
Qed.

(** The calls never take the sum out of the exponent range. *)
Definition calls_fit (p e : Z) : bool :=
  forallb (fun db => forallb (fun fb => forallb (fun bits =>
    let calls := bits / fb + (if bits mod fb =? 0 then 0 else 1) in
    (1 <=? calls) && (db + (calls - 1) * (db + 2) <=? e - 4))%Z
    (map Z.of_nat (seq 1 (Z.to_nat p)))) [Z.max 1 (db - 1); db])%Z (map Z.of_nat (seq 1 64)).

Lemma calls_fit_ok : calls_fit 24 128 && calls_fit 53 1024 = true.
Proof. vm_compute. reflexivity. Qed.

Lemma in_range_seq n k : (1 <= n <= Z.of_nat k)%Z -> In n (map Z.of_nat (seq 1 k)).
Proof.
  intros H. apply in_map_iff. exists (Z.to_nat n). split; [lia|]. apply in_seq. lia.
Qed.

Lemma calls_spec D req : (1 <= D < 2 ^ 64)%Z ->
  (1 <= calls_needed prec D req /\
   domain_bits D + (calls_needed prec D req - 1) * (domain_bits D + 2) <= emax - 4)%Z.
Proof.
  intros H. pose proof (domain_bits_spec D H) as (B1 & _). pose proof (domain_full_bits_spec D H) as B2.
  pose proof (want_bits_spec req) as W.
  assert (C : calls_fit prec emax = true).
  { pose proof calls_fit_ok as C. apply andb_true_iff in C. destruct C as (C1 & C2).
    destruct Hf as [(-> & ->)|(-> & ->)]; assumption. }
  unfold calls_fit in C. rewrite forallb_forall in C.
  assert (I1 : In (domain_bits D) (map Z.of_nat (seq 1 64))) by (apply in_range_seq; lia).
  apply C in I1. clear C. rewrite forallb_forall in I1.
  assert (I2 : In (domain_full_bits D) [Z.max 1 (domain_bits D - 1); domain_bits D]).
  { destruct (Z.eq_dec (domain_full_bits D) (domain_bits D)) as [->|N]; [right; now left|left; lia]. }
  apply I1 in I2. clear I1. rewrite forallb_forall in I2. rename I2 into C.
  assert (I : In (want_bits prec req) (map Z.of_nat (seq 1 (Z.to_nat prec)))) by (apply in_range_seq; lia).
  apply C in I. fold (calls_needed prec D req) in I. apply andb_true_iff in I.
  destruct I as (I1 & I2). apply Z.leb_le in I1. apply Z.leb_le in I2. auto.
Qed.

(** ** The variate and its maximum *)

Lemma domain_max_spec D req : (1 <= D < 2 ^ 64)%Z -> (1 <= domain_max prec D req <= D)%Z.
Proof.
  intros H. unfold domain_max, use_ll_of_shifted.
  destruct (negb (long_long_ok D) && (D / 2 =? (2 ^ 64 - 1) / 2)%Z &&
            (want_bits prec req <? domain_bits D)%Z) eqn:E; [|lia].
  apply andb_true_iff in E. destruct E as (E & _). apply andb_true_iff in E. destruct E as (_ & E2).
  apply Z.eqb_eq in E2. change ((2 ^ 64 - 1) / 2)%Z with 9223372036854775807%Z in E2.
  pose proof (Z.div_mod D 2 ltac:(lia)) as DM. pose proof (Z.mod_pos_bound D 2 ltac:(lia)). lia.
Qed.

Lemma signed_cast_id w x : (1 <= w -> 0 <= x < 2 ^ (w - 1) -> signed_cast w x = x)%Z.
Proof.
  intros W H. unfold signed_cast.
  assert (E : (2 ^ w = 2 * 2 ^ (w - 1))%Z).
  { replace w with (w - 1 + 1)%Z at 1 by lia. rewrite Z.pow_add_r by lia. change (2 ^ 1)%Z with 2%Z. lia. }
  rewrite Z.mod_small by lia. destruct (Z.ltb_spec x (2 ^ (w - 1))); lia.
Qed.

Lemma addin_eq D req x : (1 <= D < 2 ^ 64)%Z -> (0 <= x <= D)%Z ->
  exists z, (0 <= z <= domain_max prec D req)%Z /\ addin prec emax D req x = of_int prec emax z
            /\ (x = D -> z = domain_max prec D req).
Proof.
  intros H Hx. pose proof (domain_bits_spec D H) as (B1 & B2). unfold addin, domain_max.
  assert (LL : (long_long_ok D = true -> use_ll_of_shifted prec D req = false)%Z).
  { intros E. unfold use_ll_of_shifted. now rewrite E. }
  assert (K : forall w, (1 <= w)%Z -> (domain_bits D < w)%Z -> signed_cast w x = x).
  { intros w W L. apply signed_cast_id; [exact W|].
    assert (2 ^ domain_bits D <= 2 ^ (w - 1))%Z by (apply Z.pow_le_mono_r; lia). lia. }
  unfold int_ok, long_ok, long_long_ok in *.
  destruct (Z.ltb_spec (domain_bits D) 32) as [L|L].
  - rewrite LL by (apply Z.ltb_lt; lia). exists x. rewrite K by lia. repeat split; lia.
  - destruct (Z.ltb_spec (domain_bits D) 64) as [L2|L2].
    + rewrite LL by reflexivity. exists x. rewrite K by lia. repeat split; lia.
    + destruct (use_ll_of_shifted prec D req).
      * exists (x / 2)%Z. rewrite signed_cast_id.
        -- repeat split; try (apply Z.div_pos; lia); [apply Z.div_le_mono; lia|now intros ->].
        -- lia.
        -- split; [apply Z.div_pos; lia|]. apply Z.div_lt_upper_bound; [lia|].
           change (2 * 2 ^ (64 - 1))%Z with (2 ^ 64)%Z. lia.
      * exists x. repeat split; lia.
Qed.

Lemma inrange_Z z : (0 <= z <= 2 ^ 64)%Z -> inrange (IZR z).
Proof.
  intros H. apply (inrange_le prec emax Hp3 Hem70) with (bpow radix2 64).
  - split; [apply IZR_le; lia|]. rewrite <- (IZR_Zpower radix2) by lia. apply IZR_le. simpl radix_val. lia.
  - apply (inrange_bpow prec emax Hp3 Hem70). lia.
Qed.

Lemma of_int_0_64 z : (0 <= z <= 2 ^ 64)%Z ->
  is_finite (of_int prec emax z) = true /\ B2R (of_int prec emax z) = rnd (IZR z).
Proof. intros H. apply (of_int_ok prec emax Hp3 Hem70); auto. now apply inrange_Z. Qed.

Lemma of_int_1 : is_finite (of_int prec emax 1) = true /\ B2R (of_int prec emax 1) = 1.
Proof.
  destruct (of_int_0_64 1 ltac:(lia)) as (A & B). split; [exact A|]. rewrite B. apply (rnd_fmt prec emax Hp3 Hem70), (fmt_1 prec emax Hp3 Hem70); auto.
Qed.

Lemma of_int_2 : is_finite (of_int prec emax 2) = true /\ B2R (of_int prec emax 2) = 2.
Proof.
  destruct (of_int_0_64 2 ltac:(lia)) as (A & B). split; [exact A|]. rewrite B. apply (rnd_fmt prec emax Hp3 Hem70).
  change 2 with (bpow radix2 1). apply (fmt_bpow prec emax Hp3 Hem70); auto. lia.
Qed.

Section Range.
Variable D : Z.
Variable req : Z.
Hypothesis HD : (1 <= D < 2 ^ 64)%Z.

Notation M := (IZR (domain_max prec D req)).
Notation db := (domain_bits D).

Lemma M_bounds : 1 <= M <= bpow radix2 db.
Proof.
  pose proof (domain_max_spec D req HD) as A. pose proof (domain_bits_spec D HD) as (B1 & B2).
  split; [apply IZR_le; lia|]. rewrite <- (IZR_Zpower radix2) by lia. apply IZR_le. simpl radix_val. lia.
Qed.

Lemma rM_bounds : 1 <= rnd M <= bpow radix2 db.
Proof.
  pose proof M_bounds. pose proof (domain_bits_spec D HD) as (B1 & B2).
  split; [apply (rnd_ge_fmt prec emax Hp3 Hem70); [apply (fmt_1 prec emax Hp3 Hem70); auto|lra]|].
  apply (rnd_le_fmt prec emax Hp3 Hem70); [apply (fmt_bpow prec emax Hp3 Hem70); auto; lia|lra].
Qed.

Lemma max_addin_ok : is_finite (of_int prec emax (domain_max prec D req)) = true /\
                     B2R (of_int prec emax (domain_max prec D req)) = rnd M.
Proof. pose proof (domain_max_spec D req HD) as A. apply of_int_0_64. lia. Qed.

Lemma addin_ok x : (0 <= x <= D)%Z ->
  is_finite (addin prec emax D req x) = true /\ 0 <= B2R (addin prec emax D req x) <= rnd M.
Proof.
  intros Hx. destruct (addin_eq D req x HD Hx) as (z & Hz & -> & _).
  pose proof (domain_max_spec D req HD) as A.
  destruct (of_int_0_64 z ltac:(lia)) as (B & ->). split; [exact B|]. split.
  - apply (rnd_ge_0 prec emax Hp3 Hem70). apply IZR_le. lia.
  - apply (rnd_le prec emax Hp3 Hem70). apply IZR_le. lia.
Qed.

Lemma scale_ok : is_finite (scale_per_step prec emax D req) = true /\
                 1 <= B2R (scale_per_step prec emax D req) <= bpow radix2 (db + 1).
Proof.
  unfold scale_per_step. destruct max_addin_ok as (A1 & A2). destruct of_int_1 as (O1 & O2).
  pose proof rM_bounds as RM. pose proof (domain_bits_spec D HD) as (B1 & B2).
  assert (E : bpow radix2 (db + 1) = bpow radix2 db + bpow radix2 db).
  { rewrite bpow_plus. simpl. lra. }
  assert (1 <= bpow radix2 db) by lra.
  destruct (fadd_ok prec emax Hp3 Hem70 _ _ A1 O1) as (S1 & S2).
  - rewrite A2, O2. apply (inrange_le prec emax Hp3 Hem70) with (bpow radix2 (db + 1)); [lra|]. apply (inrange_bpow prec emax Hp3 Hem70). lia.
  - split; [exact S1|]. rewrite S2, A2, O2. split.
    + apply (rnd_ge_fmt prec emax Hp3 Hem70); [apply (fmt_1 prec emax Hp3 Hem70); auto|lra].
    + apply (rnd_le_fmt prec emax Hp3 Hem70); [apply (fmt_bpow prec emax Hp3 Hem70); auto; lia|lra].
Qed.

Definition step (add : F) (ret : F) : F := fadd prec emax (fmul prec emax ret (scale_per_step prec emax D req)) add.

Lemma step_ok k (a b x y : F) : (0 <= k)%Z -> (k + db + 2 <= emax - 1)%Z ->
  is_finite a = true -> is_finite b = true -> is_finite x = true -> is_finite y = true ->
  0 <= B2R x <= B2R y -> B2R y <= bpow radix2 k -> 0 <= B2R a <= B2R b -> B2R b <= bpow radix2 db ->
  is_finite (step a x) = true /\ is_finite (step b y) = true /\
  0 <= B2R (step a x) <= B2R (step b y) /\ B2R (step b y) <= bpow radix2 (k + db + 2) /\
  B2R b <= B2R (step b y).
Proof.
  intros K0 K1 Fa Fb Fx Fy Hxy Hy Hab Hb. destruct scale_ok as (S1 & S2).
  pose proof (domain_bits_spec D HD) as (B1 & B2).
  set (s := scale_per_step prec emax D req) in *.
  assert (E1 : B2R y * B2R s <= bpow radix2 (k + db + 1)).
  { rewrite <- Z.add_assoc, bpow_plus. apply Rmult_le_compat; lra. }
  assert (E2 : 0 <= B2R x * B2R s <= B2R y * B2R s).
  { split; [apply Rmult_le_pos; lra|apply Rmult_le_compat_r; lra]. }
  assert (R1 : inrange (bpow radix2 (k + db + 1))) by (apply (inrange_bpow prec emax Hp3 Hem70); lia).
  destruct (fmul_ok prec emax Hp3 Hem70 y s Fy S1) as (P1 & P2); [apply (inrange_le prec emax Hp3 Hem70) with (2 := R1); lra|].
  destruct (fmul_ok prec emax Hp3 Hem70 x s Fx S1) as (Q1 & Q2); [apply (inrange_le prec emax Hp3 Hem70) with (2 := R1); lra|].
  assert (P3 : B2R (fmul prec emax y s) <= bpow radix2 (k + db + 1)).
  { rewrite P2. apply (rnd_le_fmt prec emax Hp3 Hem70); [apply (fmt_bpow prec emax Hp3 Hem70); auto; lia|lra]. }
  assert (Q3 : 0 <= B2R (fmul prec emax x s) <= B2R (fmul prec emax y s)).
  { rewrite Q2, P2. split; [apply (rnd_ge_0 prec emax Hp3 Hem70); lra|apply (rnd_le prec emax Hp3 Hem70); lra]. }
  assert (E3 : bpow radix2 (k + db + 2) = bpow radix2 (k + db + 1) + bpow radix2 (k + db + 1)).
  { replace (k + db + 2)%Z with (k + db + 1 + 1)%Z by lia. rewrite bpow_plus. simpl. lra. }
  assert (E4 : bpow radix2 db <= bpow radix2 (k + db + 1)) by (apply bpow_le; lia).
  assert (R2 : inrange (bpow radix2 (k + db + 2))) by (apply (inrange_bpow prec emax Hp3 Hem70); lia).
  unfold step. fold s.
  destruct (fadd_ok prec emax Hp3 Hem70 (fmul prec emax y s) b P1 Fb) as (U1 & U2);
    [apply (inrange_le prec emax Hp3 Hem70) with (2 := R2); lra|].
  destruct (fadd_ok prec emax Hp3 Hem70 (fmul prec emax x s) a Q1 Fa) as (V1 & V2);
    [apply (inrange_le prec emax Hp3 Hem70) with (2 := R2); lra|].
  rewrite U2, V2. repeat split; try assumption.
  - apply (rnd_ge_0 prec emax Hp3 Hem70); lra.
  - apply (rnd_le prec emax Hp3 Hem70); lra.
  - apply (rnd_le_fmt prec emax Hp3 Hem70); [apply (fmt_bpow prec emax Hp3 Hem70); auto; lia|lra].
  - apply (rnd_ge_fmt prec emax Hp3 Hem70); [apply (fmt_B2R prec emax Hp3 Hem70)|lra].
Qed.

Lemma variate_steps xs : forall x, (0 <= x <= D)%Z -> Forall (fun x => (0 <= x <= D)%Z) xs ->
  (db + Z.of_nat (length xs) * (db + 2) <= emax - 4)%Z ->
  let V := Nat.iter (length xs) (step (of_int prec emax (domain_max prec D req)))
             (of_int prec emax (domain_max prec D req)) in
  is_finite (variate prec emax D req x xs) = true /\ is_finite V = true /\
  0 <= B2R (variate prec emax D req x xs) <= B2R V /\ 1 <= B2R V /\
  B2R V <= bpow radix2 (db + Z.of_nat (length xs) * (db + 2)).
Proof.
  induction xs as [|y xs IH] using rev_ind; intros x Hx Hxs HL.
  - cbv zeta. cbn [length Nat.iter nat_rect variate fold_left]. unfold variate. cbn [fold_left].
    destruct (addin_ok x Hx) as (A1 & A2). destruct max_addin_ok as (B1 & B2).
    pose proof rM_bounds as RM. rewrite B2, Z.mul_0_l, Z.add_0_r. repeat split; try assumption; lra.
  - apply Forall_app in Hxs. destruct Hxs as (H1 & H2). inversion H2 as [|? ? Hy _]; subst.
    rewrite app_length in *. cbn [length] in *. replace (length xs + 1)%nat with (S (length xs)) in * by lia.
    pose proof (domain_bits_spec D HD) as (DB & _).
    specialize (IH x Hx H1 ltac:(lia)). cbv zeta in *. cbn [Nat.iter nat_rect].
    match goal with |- context [nat_rect ?P ?a ?b ?c] => change (nat_rect P a b c) with
      (Nat.iter (length xs) (step (of_int prec emax (domain_max prec D req)))
             (of_int prec emax (domain_max prec D req))) end.
    set (V := Nat.iter _ _ _) in *. destruct IH as (I1 & I2 & I3 & I4 & I5).
    destruct (addin_ok y Hy) as (A1 & A2). destruct max_addin_ok as (B1 & B2). pose proof rM_bounds as RM.
    assert (EV : variate prec emax D req x (xs ++ [y]) =
                 step (addin prec emax D req y) (variate prec emax D req x xs)).
    { unfold variate. now rewrite fold_left_app. }
    rewrite EV.
    destruct (step_ok (db + Z.of_nat (length xs) * (db + 2)) (addin prec emax D req y)
                (of_int prec emax (domain_max prec D req)) (variate prec emax D req x xs) V)
      as (S1 & S2 & S3 & S4 & S5); try assumption; try lia; try (rewrite B2; lra).
    repeat split; try assumption; try lra; try (rewrite B2 in S5; lra).
    replace (db + Z.of_nat (S (length xs)) * (db + 2))%Z
      with (db + Z.of_nat (length xs) * (db + 2) + db + 2)%Z by lia. exact S4.
Qed.

Variable x : Z.
Variable xs : list Z.
Hypothesis Hx : (0 <= x <= D)%Z.
Hypothesis Hxs : Forall (fun x => (0 <= x <= D)%Z) xs.
Hypothesis Hlen : (Z.of_nat (S (length xs)) = calls_needed prec D req)%Z.

Notation V := (variate_max prec emax D req).
Notation W := (variate prec emax D req x xs).

Lemma variate_ok : is_finite W = true /\ is_finite V = true /\ 0 <= B2R W <= B2R V /\
  1 <= B2R V <= bpow radix2 (emax - 4).
Proof.
  destruct (calls_spec D req HD) as (C1 & C2).
  destruct (variate_steps xs x Hx Hxs) as (A & B & C & E & G).
  { replace (Z.of_nat (length xs)) with (calls_needed prec D req - 1)%Z by lia. exact C2. }
  assert (EV : V = Nat.iter (length xs) (step (of_int prec emax (domain_max prec D req)))
             (of_int prec emax (domain_max prec D req))).
  { unfold variate_max. cbv zeta.
    replace (Z.to_nat (calls_needed prec D req) - 1)%nat with (length xs) by lia. reflexivity. }
  rewrite EV. repeat split; try assumption; try lra.
  apply Rle_trans with (1 := G). apply bpow_le. lia.
Qed.

(** ** eps and the norms *)

Lemma native_eps_ok : is_finite (native_eps prec emax) = true /\ B2R (native_eps prec emax) = 2 * u.
Proof.
  unfold native_eps.
  pose proof (binary_normalize_correct prec emax _ _ mode_NE 1 (1 - prec) false) as C.
  cbv zeta in C. change (round_mode mode_NE) with ZnearestE in C.
  replace (F2R {| Fnum := 1; Fexp := 1 - prec |}) with (bpow radix2 (1 - prec)) in C
    by (unfold F2R; cbn [Fnum Fexp]; now rewrite Rmult_1_l).
  rewrite (inrange_lt prec emax Hp3 Hem70) in C; [|apply (inrange_bpow prec emax Hp3 Hem70); lia].
  destruct C as (C1 & C2 & _). split; [exact C2|]. rewrite C1, (rnd_fmt prec emax Hp3 Hem70).
  - apply (two_u prec emax Hp3 Hem70).
  - apply (fmt_bpow prec emax Hp3 Hem70); auto. lia.
Qed.

Lemma eps_ok : is_finite (eps prec emax D req) = true /\ 2 * u <= B2R (eps prec emax D req) <= 1.
Proof.
  unfold eps. cbv zeta. destruct native_eps_ok as (N1 & N2). destruct of_int_1 as (O1 & O2).
  destruct max_addin_ok as (A1 & A2). pose proof rM_bounds as RM.
  pose proof (u_small prec emax Hp3 Hem70). pose proof (u_pos prec emax Hp3 Hem70).
  assert (Q : 0 <= 1 / rnd M <= 1).
  { split; [apply Rlt_le, Rdiv_lt_0_compat; lra|]. apply Rmult_le_reg_r with (rnd M); [lra|].
    unfold Rdiv. rewrite Rmult_assoc, Rinv_l by lra. lra. }
  destruct (fdiv_ok prec emax Hp3 Hem70 (of_int prec emax 1) (of_int prec emax (domain_max prec D req)))
    as (D1 & D2); [exact O1|rewrite A2; lra|rewrite O2, A2; apply (inrange_0_1 prec emax Hp3 Hem70); auto|].
  rewrite O2, A2 in D2.
  rewrite Bleb_correct by assumption.
  destruct (Rle_bool_spec (B2R (fdiv prec emax (of_int prec emax 1) (of_int prec emax (domain_max prec D req))))
              (B2R (native_eps prec emax))) as [L|L]; cbn [orb].
  - rewrite N2. split; [exact N1|lra].
  - destruct (negb (req =? 1)%Z).
    + rewrite N2. split; [exact N1|lra].
    + split; [exact D1|]. rewrite N2 in L. split; [lra|]. rewrite D2.
      apply (rnd_le_fmt prec emax Hp3 Hem70); [apply (fmt_1 prec emax Hp3 Hem70); auto|lra].
Qed.

Lemma cc_norm_ok : is_finite (cc_norm prec emax D req) = true /\
  B2R (cc_norm prec emax D req) = rnd (1 / B2R V) /\ 0 <= B2R (cc_norm prec emax D req) <= 1.
Proof.
  destruct variate_ok as (_ & _ & _ & V1). destruct of_int_1 as (O1 & O2).
  assert (Q : 0 <= 1 / B2R V <= 1).
  { split; [apply Rlt_le, Rdiv_lt_0_compat; lra|]. apply Rmult_le_reg_r with (B2R V); [lra|].
    unfold Rdiv. rewrite Rmult_assoc, Rinv_l by lra. lra. }
  unfold cc_norm. destruct (fdiv_ok prec emax Hp3 Hem70 (of_int prec emax 1) V) as (D1 & D2);
    [exact O1|lra|rewrite O2; apply (inrange_0_1 prec emax Hp3 Hem70); auto|].
  rewrite O2 in D2. repeat split; try assumption; rewrite D2.
  - apply (rnd_ge_0 prec emax Hp3 Hem70); lra.
  - apply (rnd_le_fmt prec emax Hp3 Hem70); [apply (fmt_1 prec emax Hp3 Hem70); auto|lra].
Qed.

Lemma co_norm_ok : exists t, is_finite (co_norm prec emax D req) = true /\
  B2R (co_norm prec emax D req) = rnd (rnd (1 / B2R V) * t) /\ 0 <= t <= 1 - 2 * u /\
  0 <= B2R (co_norm prec emax D req) <= 1.
Proof.
  destruct of_int_1 as (O1 & O2). destruct eps_ok as (E1 & E2). destruct cc_norm_ok as (C1 & C2 & C3).
  pose proof (u_small prec emax Hp3 Hem70). pose proof (u_pos prec emax Hp3 Hem70).
  destruct (fsub_ok prec emax Hp3 Hem70 _ _ O1 E1) as (S1 & S2);
    [rewrite O2; apply (inrange_0_1 prec emax Hp3 Hem70); auto; lra|].
  rewrite O2 in S2.
  exists (rnd (1 - B2R (eps prec emax D req))).
  assert (T : 0 <= rnd (1 - B2R (eps prec emax D req)) <= 1 - 2 * u).
  { split; [apply (rnd_ge_0 prec emax Hp3 Hem70); lra|]. apply (rnd_le_fmt prec emax Hp3 Hem70); [|lra].
    apply (fmt_1_ku prec emax Hp3 Hem70 2). split; [lia|].
    apply Z.le_trans with (2 ^ 3)%Z; [lia|apply Z.pow_le_mono_r; lia]. }
  assert (P : 0 <= B2R (cc_norm prec emax D req) * rnd (1 - B2R (eps prec emax D req)) <= 1).
  { split; [apply Rmult_le_pos; lra|]. apply Rle_trans with (1 * 1); [apply Rmult_le_compat; lra|lra]. }
  unfold co_norm. destruct (fmul_ok prec emax Hp3 Hem70 _ _ C1 S1) as (M1 & M2);
    [rewrite S2; apply (inrange_0_1 prec emax Hp3 Hem70); auto|].
  rewrite S2 in M2. split; [exact M1|]. split; [rewrite M2, C2; reflexivity|]. split; [exact T|].
  rewrite M2. split; [apply (rnd_ge_0 prec emax Hp3 Hem70); lra|apply (rnd_le_fmt prec emax Hp3 Hem70); [apply (fmt_1 prec emax Hp3 Hem70); auto|lra]].
Qed.

Theorem co_ok : is_finite (u01_co prec emax D req x xs) = true /\
  0 <= B2R (u01_co prec emax D req x xs) <= 1 - u.
Proof.
  destruct variate_ok as (W1 & V1 & WV & V2). destruct co_norm_ok as (t & N1 & N2 & T & N3).
  assert (FV : fmt (B2R V)) by apply (fmt_B2R prec emax Hp3 Hem70).
  assert (V3 : 1 <= B2R V <= bpow radix2 (emax - 2)).
  { split; [lra|]. apply Rle_trans with (bpow radix2 (emax - 4)); [lra|apply bpow_le; lia]. }
  pose proof (reciprocal_scaling prec emax Hp3 Hem70 (B2R V) t FV V3 ltac:(lra)) as RS.
  assert (P : 0 <= B2R W * B2R (co_norm prec emax D req) <= B2R V * B2R (co_norm prec emax D req)).
  { split; [apply Rmult_le_pos; lra|apply Rmult_le_compat_r; lra]. }
  unfold u01_co. destruct (fmul_ok prec emax Hp3 Hem70 _ _ W1 N1) as (M1 & M2).
  - apply (inrange_le prec emax Hp3 Hem70) with (bpow radix2 (emax - 4)).
    + split; [lra|]. apply Rle_trans with (B2R V * 1); [|lra].
      apply Rle_trans with (1 := proj2 P). apply Rmult_le_compat_l; lra.
    + apply (inrange_bpow prec emax Hp3 Hem70). lia.
  - split; [exact M1|]. rewrite M2. split; [apply (rnd_ge_0 prec emax Hp3 Hem70); lra|].
    apply Rle_trans with (2 := RS). rewrite <- N2. apply (rnd_le prec emax Hp3 Hem70). lra.
Qed.

Theorem oc_ok : is_finite (u01_oc prec emax D req x xs) = true /\
  0 < B2R (u01_oc prec emax D req x xs) <= 1.
Proof.
  destruct co_ok as (C1 & C2). destruct of_int_1 as (O1 & O2). pose proof (u_pos prec emax Hp3 Hem70).
  unfold u01_oc. destruct (fsub_ok prec emax Hp3 Hem70 _ _ O1 C1) as (S1 & S2);
    [rewrite O2; apply (inrange_0_1 prec emax Hp3 Hem70); auto; lra|].
  rewrite O2 in S2. split; [exact S1|]. rewrite S2. split.
  - apply Rlt_le_trans with u; [lra|]. apply (rnd_ge_fmt prec emax Hp3 Hem70); [apply (fmt_bpow prec emax Hp3 Hem70); auto; lia|lra].
  - apply (rnd_le_fmt prec emax Hp3 Hem70); [apply (fmt_1 prec emax Hp3 Hem70); auto|lra].
Qed.

Theorem cc_ok : is_finite (u01_cc prec emax D req x xs) = true /\
  0 <= B2R (u01_cc prec emax D req x xs) <= 1.
Proof.
  destruct variate_ok as (W1 & V1 & WV & V2). destruct cc_norm_ok as (N1 & N2 & N3).
  destruct of_int_1 as (O1 & O2).
  assert (R1 : inrange (bpow radix2 (emax - 4))) by (apply (inrange_bpow prec emax Hp3 Hem70); lia).
  assert (P : 0 <= B2R W * B2R (cc_norm prec emax D req) <= B2R V * B2R (cc_norm prec emax D req)).
  { split; [apply Rmult_le_pos; lra|apply Rmult_le_compat_r; lra]. }
  assert (P2 : B2R V * B2R (cc_norm prec emax D req) <= bpow radix2 (emax - 4)).
  { apply Rle_trans with (B2R V * 1); [apply Rmult_le_compat_l; lra|lra]. }
  destruct (fmul_ok prec emax Hp3 Hem70 _ _ V1 N1) as (A1 & A2);
    [apply (inrange_le prec emax Hp3 Hem70) with (2 := R1); lra|].
  destruct (fmul_ok prec emax Hp3 Hem70 _ _ W1 N1) as (B1 & B2);
    [apply (inrange_le prec emax Hp3 Hem70) with (2 := R1); lra|].
  unfold u01_cc. rewrite Beqb_correct by assumption. rewrite O2.
  destruct (Req_bool_spec (B2R (fmul prec emax V (cc_norm prec emax D req))) 1) as [E|E]; cbn [negb].
  - split; [exact B1|]. rewrite B2. split; [apply (rnd_ge_0 prec emax Hp3 Hem70); lra|].
    rewrite <- E, A2. apply (rnd_le prec emax Hp3 Hem70). lra.
  - assert (Q : 0 <= B2R W / B2R V <= 1).
    { split; [apply Rmult_le_pos; [lra|]; apply Rlt_le, Rinv_0_lt_compat; lra|].
      apply Rmult_le_reg_r with (B2R V); [lra|]. unfold Rdiv. rewrite Rmult_assoc, Rinv_l by lra. lra. }
    destruct (fdiv_ok prec emax Hp3 Hem70 W V W1) as (G1 & G2); [lra|apply (inrange_0_1 prec emax Hp3 Hem70); auto|].
    split; [exact G1|]. rewrite G2.
    split; [apply (rnd_ge_0 prec emax Hp3 Hem70); lra|apply (rnd_le_fmt prec emax Hp3 Hem70); [apply (fmt_1 prec emax Hp3 Hem70); auto|lra]].
Qed.

(** oo: reduced to the largest value of the variate. *)
Theorem oo_ok :
  is_finite (oo_norm prec emax D req) = true -> 0 <= B2R (oo_norm prec emax D req) <= 1 ->
  rnd (rnd (B2R V * B2R (oo_norm prec emax D req)) + B2R (eps prec emax D req)) < 1 ->
  is_finite (u01_oo prec emax D req x xs) = true /\ 0 < B2R (u01_oo prec emax D req x xs) < 1.
Proof.
  intros N1 N2 TOP. destruct variate_ok as (W1 & V1 & WV & V2). destruct eps_ok as (E1 & E2).
  pose proof (u_pos prec emax Hp3 Hem70).
  assert (R1 : inrange (bpow radix2 (emax - 4))) by (apply (inrange_bpow prec emax Hp3 Hem70); lia).
  assert (P : 0 <= B2R W * B2R (oo_norm prec emax D req) <= B2R V * B2R (oo_norm prec emax D req)).
  { split; [apply Rmult_le_pos; lra|apply Rmult_le_compat_r; lra]. }
  assert (P2 : B2R V * B2R (oo_norm prec emax D req) <= bpow radix2 (emax - 4)).
  { apply Rle_trans with (B2R V * 1); [apply Rmult_le_compat_l; lra|lra]. }
  destruct (fmul_ok prec emax Hp3 Hem70 _ _ W1 N1) as (B1 & B2);
    [apply (inrange_le prec emax Hp3 Hem70) with (2 := R1); lra|].
  assert (Q : 0 <= rnd (B2R W * B2R (oo_norm prec emax D req)) <= bpow radix2 (emax - 4)).
  { split; [apply (rnd_ge_0 prec emax Hp3 Hem70); lra|]. apply (rnd_le_fmt prec emax Hp3 Hem70); [apply (fmt_bpow prec emax Hp3 Hem70); auto; lia|lra]. }
  unfold u01_oo. destruct (fadd_ok prec emax Hp3 Hem70 _ _ B1 E1) as (G1 & G2).
  - rewrite B2. apply (inrange_le prec emax Hp3 Hem70) with (bpow radix2 (emax - 3)).
    + replace (emax - 3)%Z with (emax - 4 + 1)%Z by lia. rewrite bpow_plus. simpl (bpow radix2 1).
      assert (1 <= bpow radix2 (emax - 4)); [|lra].
      change 1 with (bpow radix2 0). apply bpow_le. lia.
    + apply (inrange_bpow prec emax Hp3 Hem70). lia.
  - split; [exact G1|]. rewrite G2, B2. split.
    + apply Rlt_le_trans with (B2R (eps prec emax D req)); [lra|].
      apply (rnd_ge_fmt prec emax Hp3 Hem70); [apply (fmt_B2R prec emax Hp3 Hem70)|lra].
    + apply Rle_lt_trans with (2 := TOP). apply (rnd_le prec emax Hp3 Hem70). apply Rplus_le_compat_r. apply (rnd_le prec emax Hp3 Hem70). lra.
Qed.

End Range.
End Format.

(** ** uniform??: one call *)

Section One.
Context (prec emax : Z) {prec_gt_0_ : Prec_gt_0 prec} {prec_lt_emax_ : Prec_lt_emax prec emax}.
Hypothesis Hf : (prec = 24 /\ emax = 128 \/ prec = 53 /\ emax = 1024)%Z.
Notation u := (bpow radix2 (- prec)).

Lemma one_call D : (1 <= D < 2 ^ 64)%Z -> Z.of_nat (S (length (@nil Z))) = calls_needed prec D 1.
Proof.
  intros H. pose proof (domain_full_bits_spec D H) as (B & _). unfold calls_needed.
  assert (W : want_bits prec 1 = 1%Z).
  { unfold want_bits. destruct (Z.ltb_spec 1 prec); [reflexivity|lia]. }
  rewrite W. cbn [length]. destruct (Z.eq_dec (domain_full_bits D) 1) as [->|N].
  - reflexivity.
  - rewrite Z.div_small, Z.mod_small by lia. reflexivity.
Qed.

Lemma uniformco_ok D r : (1 <= D < 2 ^ 64)%Z -> (0 <= r <= D)%Z ->
  is_finite (uniformco prec emax D r) = true /\ 0 <= B2R (uniformco prec emax D r) <= 1 - u.
Proof.
  intros HD Hr. apply co_ok; auto. now apply one_call.
Qed.

Lemma u_gt_0 : 0 < u. Proof. apply bpow_gt_0. Qed.

Lemma uniformco_lt_1 D r : (1 <= D < 2 ^ 64)%Z -> (0 <= r <= D)%Z ->
  is_finite (uniformco prec emax D r) = true /\ 0 <= B2R (uniformco prec emax D r) < 1.
Proof.
  intros HD Hr. destruct (uniformco_ok D r HD Hr) as (A & B). split; [exact A|]. pose proof u_gt_0. lra.
Qed.

Lemma uniformoc_ok D r : (1 <= D < 2 ^ 64)%Z -> (0 <= r <= D)%Z ->
  is_finite (uniformoc prec emax D r) = true /\ 0 < B2R (uniformoc prec emax D r) <= 1.
Proof.
  intros HD Hr. apply oc_ok; auto. now apply one_call.
Qed.

Lemma uniformcc_ok D r : (1 <= D < 2 ^ 64)%Z -> (0 <= r <= D)%Z ->
  is_finite (uniformcc prec emax D r) = true /\ 0 <= B2R (uniformcc prec emax D r) <= 1.
Proof.
  intros HD Hr. apply cc_ok; auto. now apply one_call.
Qed.

(** The check that the largest variate stays below 1 in oo. *)
Definition oo_check (D : Z) : bool :=
  is_finite (oo_norm prec emax D 1)
  && Bleb (of_int prec emax 0) (oo_norm prec emax D 1)
  && Bleb (oo_norm prec emax D 1) (of_int prec emax 1)
  && Bltb (fadd prec emax (fmul prec emax (variate_max prec emax D 1) (oo_norm prec emax D 1))
                          (eps prec emax D 1)) (of_int prec emax 1).

Lemma uniformoo_ok D r : (1 <= D < 2 ^ 64)%Z -> (0 <= r <= D)%Z -> oo_check D = true ->
  is_finite (uniformoo prec emax D r) = true /\ 0 < B2R (uniformoo prec emax D r) < 1.
Proof.
  intros HD Hr C. unfold oo_check in C.
  apply andb_true_iff in C. destruct C as (C & C4). apply andb_true_iff in C. destruct C as (C & C3).
  apply andb_true_iff in C. destruct C as (C1 & C2).
  pose proof (one_call D HD) as OC.
  destruct (of_int_1 prec emax Hf) as (O1 & O2).
  destruct (of_int_0_64 prec emax Hf 0 ltac:(lia)) as (Z1 & Z2).
  rewrite (rnd_0 prec emax (Hp3 _ _ Hf) (Hem70 _ _ Hf)) in Z2.
  rewrite Bleb_correct in C2 by assumption. rewrite Bleb_correct in C3 by assumption.
  rewrite Z2 in C2. rewrite O2 in C3.
  destruct (Rle_bool_spec 0 (B2R (oo_norm prec emax D 1))) as [N1|]; [|discriminate C2].
  destruct (Rle_bool_spec (B2R (oo_norm prec emax D 1)) 1) as [N2|]; [|discriminate C3].
  destruct (variate_ok prec emax Hf D 1 HD r [] Hr (Forall_nil _) OC) as (_ & V1 & _ & V2).
  destruct (eps_ok prec emax Hf D 1 HD [] OC) as (E1 & E2).
  pose proof (Hp3 _ _ Hf) as H3. pose proof (Hem70 _ _ Hf) as H70.
  destruct (fmul_ok prec emax H3 H70 _ _ V1 C1) as (M1 & M2).
  { apply (inrange_le prec emax H3 H70) with (bpow radix2 (emax - 4)).
    - split; [apply Rmult_le_pos; lra|].
      apply Rle_trans with (B2R (variate_max prec emax D 1) * 1); [apply Rmult_le_compat_l; lra|lra].
    - apply (inrange_bpow prec emax H3 H70). lia. }
  assert (Q : 0 <= B2R (fmul prec emax (variate_max prec emax D 1) (oo_norm prec emax D 1)) <= bpow radix2 (emax - 4)).
  { rewrite M2. split; [apply (rnd_ge_0 prec emax H3 H70), Rmult_le_pos; lra|].
    apply (rnd_le_fmt prec emax H3 H70); [apply (fmt_bpow prec emax H3 H70); lia|].
    apply Rle_trans with (B2R (variate_max prec emax D 1) * 1); [apply Rmult_le_compat_l; lra|lra]. }
  destruct (fadd_ok prec emax H3 H70 _ _ M1 E1) as (A1 & A2).
  { apply (inrange_le prec emax H3 H70) with (bpow radix2 (emax - 3)).
    - replace (emax - 3)%Z with (emax - 4 + 1)%Z by lia. rewrite bpow_plus. simpl (bpow radix2 1).
      pose proof u_gt_0.
      assert (1 <= bpow radix2 (emax - 4)); [|lra].
      change 1 with (bpow radix2 0). apply bpow_le. lia.
    - apply (inrange_bpow prec emax H3 H70). lia. }
  rewrite Bltb_correct in C4 by assumption. rewrite A2, M2, O2 in C4.
  apply oo_ok; auto.
  match type of C4 with Rlt_bool ?a ?b = true => destruct (Rlt_bool_spec a b) as [L|]; [exact L|discriminate C4] end.
Qed.

End One.

(** ** Bounded integers *)

Lemma fmt53 : (53 = 24 /\ 1024 = 128 \/ 53 = 53 /\ 1024 = 1024)%Z. Proof. now right. Qed.
Lemma fmt24 : (24 = 24 /\ 128 = 128 \/ 24 = 53 /\ 128 = 1024)%Z. Proof. now left. Qed.

Notation rnd64 := (round radix2 (SpecFloat.fexp 53 1024) ZnearestE).

Lemma H3_64 : (3 <= 53)%Z. Proof. lia. Qed.
Lemma H70_64 : (70 <= 1024)%Z. Proof. lia. Qed.

(** An integer bound times a variate below 1, rounded, truncated. *)
Lemma scaled_trunc (t : double) x y : is_finite t = true -> 0 <= B2R t <= 1 - bpow radix2 (-53) ->
  (1 <= x <= 2 ^ 63)%Z -> (y = fmul 53 1024 t (of_int 53 1024 x) \/ y = fmul 53 1024 (of_int 53 1024 x) t) ->
  is_finite y = true /\ (0 <= Btrunc y <= x - 1)%Z.
Proof.
  intros Ft Ht Hx Hy. destruct (of_int_0_64 53 1024 fmt53 x ltac:(lia)) as (X1 & X2).
  pose proof H3_64 as H3. pose proof H70_64 as H70.
  assert (XB : 1 <= rnd64 (IZR x) <= bpow radix2 64).
  { split.
    - apply (rnd_ge_fmt 53 1024 H3 H70); [apply (fmt_1 53 1024 H3 H70)|apply IZR_le; lia].
    - apply (rnd_le_fmt 53 1024 H3 H70); [apply (fmt_bpow 53 1024 H3 H70); lia|].
      rewrite <- (IZR_Zpower radix2) by lia. apply IZR_le. simpl radix_val. lia. }
  pose proof (bpow_gt_0 radix2 (-53)) as U.
  assert (P : 0 <= B2R t * rnd64 (IZR x) <= bpow radix2 64).
  { split; [apply Rmult_le_pos; lra|]. apply Rle_trans with (1 * rnd64 (IZR x)); [apply Rmult_le_compat_r; lra|lra]. }
  assert (R : inrange 1024 (B2R t * rnd64 (IZR x))).
  { apply (inrange_le 53 1024 H3 H70) with (1 := P). apply (inrange_bpow 53 1024 H3 H70). lia. }
  assert (Y : is_finite y = true /\ B2R y = rnd64 (B2R t * rnd64 (IZR x))).
  { destruct Hy as [->| ->].
    - destruct (fmul_ok 53 1024 H3 H70 _ _ Ft X1) as (A & B); [rewrite X2; exact R|]. rewrite X2 in B. auto.
    - rewrite Rmult_comm in R. rewrite (Rmult_comm (B2R t)).
      destruct (fmul_ok 53 1024 H3 H70 _ _ X1 Ft) as (A & B); [rewrite X2; exact R|]. rewrite X2 in B. auto. }
  destruct Y as (Y1 & Y2). split; [exact Y1|].
  assert (L : B2R y < IZR x).
  { rewrite Y2. apply Rle_lt_trans with (Ulp.pred radix2 (SpecFloat.fexp 53 1024) (rnd64 (IZR x))).
    - apply (rnd_mul_lt 53 1024 H3 H70); [apply (fmt_rnd 53 1024 H3 H70)| |exact Ht].
      apply Rle_trans with (2 := proj1 XB). change 1 with (bpow radix2 0). apply bpow_le. lia.
    - apply (pred_rnd_lt 53 1024 H3 H70). lra. }
  assert (N : 0 <= B2R y) by (rewrite Y2; apply (rnd_ge_0 53 1024 H3 H70); lra).
  assert (T : Btrunc y = Ztrunc (B2R y)).
  { apply eq_IZR. rewrite Btrunc_correct by easy. apply round_FIX_IZR || (unfold round, F2R, scaled_mantissa, cexp, FIX_exp; cbn [Fnum Fexp]; rewrite Rmult_1_r; simpl bpow; now rewrite !Rmult_1_r). }
  rewrite T, Ztrunc_floor by exact N. split; [apply Zfloor_lub; exact N|].
  assert (Zfloor (B2R y) < x)%Z; [|lia]. apply lt_IZR. apply Rle_lt_trans with (2 := L). apply Zfloor_lb.
Qed.

Lemma engine_bounded_ok D r x : (1 <= D < 2 ^ 64)%Z -> (0 <= r <= D)%Z -> (1 <= x < 2 ^ 63)%Z ->
  exists z, engine_bounded D r x = IntVal z /\ (0 <= z <= x - 1)%Z.
Proof.
  intros HD Hr Hx. destruct (uniformco_ok 53 1024 fmt53 D r HD Hr) as (U1 & U2).
  destruct (scaled_trunc _ x _ U1 U2 ltac:(lia) (or_introl eq_refl)) as (A & B).
  unfold engine_bounded, double_to_signed. rewrite A. cbv zeta.
  exists (Btrunc (fmul 53 1024 (uniformco 53 1024 D r) (of_int 53 1024 x))).
  split; [|exact B]. change (64 - 1)%Z with 63%Z.
  rewrite (proj2 (Z.leb_le _ _)) by lia. rewrite (proj2 (Z.ltb_lt _ _)) by lia. reflexivity.
Qed.

Lemma uniform_int_ok a b D r : (1 <= D < 2 ^ 64)%Z -> (0 <= r <= D)%Z ->
  (- 2 ^ 31 <= a)%Z -> (a < b)%Z -> (b < 2 ^ 31)%Z -> (b - a < 2 ^ 31)%Z ->
  exists z, uniform_int_draw (UniformInt a b (b - a)) D r = IntVal z /\ (a <= z <= b - 1)%Z.
Proof.
  intros HD Hr Ha Hab Hb Hd. destruct (uniformco_ok 53 1024 fmt53 D r HD Hr) as (U1 & U2).
  destruct (scaled_trunc _ (b - a) _ U1 U2 ltac:(lia) (or_intror eq_refl)) as (A & B).
  unfold uniform_int_draw, double_to_signed. cbn [ui_d ui_a]. rewrite A. cbv zeta.
  change (32 - 1)%Z with 31%Z.
  rewrite (proj2 (Z.leb_le _ _)) by lia. rewrite (proj2 (Z.ltb_lt _ _)) by lia. cbn [andb int_bind].
  unfold int_add. rewrite (proj2 (Z.leb_le _ _)) by lia. rewrite (proj2 (Z.ltb_lt _ _)) by lia. cbn [andb].
  eexists. split; [reflexivity|]. lia.
Qed.

(** ** uniform_dist<double> *)

Lemma finite_fsub (x y : double) : is_finite x = true -> is_finite y = true -> is_finite (fsub 53 1024 x y) = true ->
  B2R (fsub 53 1024 x y) = rnd64 (B2R x - B2R y).
Proof.
  intros Fx Fy F. pose proof (Bminus_correct 53 1024 _ _ mode_NE x y Fx Fy) as C.
  change (round_mode mode_NE) with ZnearestE in C.
  destruct (Rlt_bool (Rabs (rnd64 (B2R x - B2R y))) (bpow radix2 1024)).
  - now destruct C.
  - destruct C as (C & _). exfalso. unfold fsub in F. rewrite <- is_finite_SF_B2SF in F. rewrite C in F.
    destruct (Bsign x); discriminate F.
Qed.

Lemma uniform_draw_ok (a b : double) D r : (1 <= D < 2 ^ 64)%Z -> (0 <= r <= D)%Z ->
  is_finite a = true -> is_finite b = true -> is_finite (fsub 53 1024 b a) = true ->
  B2R a <= B2R b ->
  is_finite (uniform_draw a b D r) = true /\ B2R a <= B2R (uniform_draw a b D r) <= B2R b.
Proof.
  intros HD Hr Fa Fb Fd Hab. destruct (uniformco_ok 53 1024 fmt53 D r HD Hr) as (U1 & U2).
  pose proof H3_64 as H3. pose proof H70_64 as H70.
  pose proof (finite_fsub b a Fb Fa Fd) as D1. set (d := fsub 53 1024 b a) in *.
  set (t := uniformco 53 1024 D r) in *.
  change (0 <= B2R t <= 1 - bpow radix2 (-53)) in U2.
  assert (D0 : 0 <= B2R d) by (rewrite D1; apply (rnd_ge_0 53 1024 H3 H70); lra).
  pose proof (bpow_gt_0 radix2 (-53)) as UP.
  assert (P : 0 <= B2R d * B2R t <= B2R d).
  { split; [apply Rmult_le_pos; lra|]. apply Rle_trans with (B2R d * 1); [apply Rmult_le_compat_l; lra|lra]. }
  assert (PR : 0 <= rnd64 (B2R d * B2R t) <= B2R d).
  { split; [apply (rnd_ge_0 53 1024 H3 H70); lra|]. apply (rnd_le_fmt 53 1024 H3 H70); [apply (fmt_B2R 53 1024 H3 H70)|lra]. }
  pose proof (abs_B2R_lt_emax 53 1024 d) as DL. rewrite Rabs_pos_eq in DL by exact D0.
  assert (M : is_finite (fmul 53 1024 d t) = true /\ B2R (fmul 53 1024 d t) = rnd64 (B2R d * B2R t)).
  { pose proof (Bmult_correct 53 1024 _ _ mode_NE d t) as C. change (round_mode mode_NE) with ZnearestE in C.
    rewrite Rlt_bool_true in C by (rewrite Rabs_pos_eq; lra). destruct C as (C1 & C2 & _).
    unfold fmul. rewrite C2, Fd, U1. auto. }
  destruct M as (M1 & M2).
  assert (K : rnd64 (B2R d * B2R t) <= B2R b - B2R a).
  { destruct (Rle_or_lt (B2R b - B2R a) (bpow radix2 (3 - 1024))) as [S|S].
    - assert (E : B2R d = B2R b - B2R a); [|lra].
      rewrite D1. apply (rnd_fmt 53 1024 H3 H70). apply (small_minus_exact 53 1024 H3 H70); try apply (fmt_B2R 53 1024 H3 H70).
      rewrite Rabs_pos_eq by lra. exact S.
    - apply Rlt_le. apply Rle_lt_trans with (Ulp.pred radix2 (SpecFloat.fexp 53 1024) (B2R d)).
      + rewrite Rmult_comm. apply (rnd_mul_lt 53 1024 H3 H70); [apply (fmt_B2R 53 1024 H3 H70)| |exact U2].
        rewrite D1. apply (rnd_ge_fmt 53 1024 H3 H70); [apply (fmt_bpow 53 1024 H3 H70); lia|lra].
      + rewrite D1. apply (pred_rnd_lt 53 1024 H3 H70).
        apply Rlt_le_trans with (bpow radix2 (3 - 1024)); [apply bpow_gt_0|].
        apply (rnd_ge_fmt 53 1024 H3 H70); [apply (fmt_bpow 53 1024 H3 H70); lia|lra]. }
  assert (LO : B2R a <= rnd64 (B2R (fmul 53 1024 d t) + B2R a)).
  { rewrite M2. apply (rnd_ge_fmt 53 1024 H3 H70); [apply (fmt_B2R 53 1024 H3 H70)|lra]. }
  assert (HI : rnd64 (B2R (fmul 53 1024 d t) + B2R a) <= B2R b).
  { rewrite M2. apply (rnd_le_fmt 53 1024 H3 H70); [apply (fmt_B2R 53 1024 H3 H70)|lra]. }
  unfold uniform_draw. fold d t.
  pose proof (Bplus_correct 53 1024 _ _ mode_NE (fmul 53 1024 d t) a M1 Fa) as C.
  change (round_mode mode_NE) with ZnearestE in C.
  rewrite Rlt_bool_true in C.
  - destruct C as (C1 & C2 & _). unfold fadd. rewrite C1. auto.
  - pose proof (abs_B2R_lt_emax 53 1024 a) as AL. pose proof (abs_B2R_lt_emax 53 1024 b) as BL.
    apply Rabs_def2 in AL. apply Rabs_def2 in BL. apply Rabs_def1; lra.
Qed.
