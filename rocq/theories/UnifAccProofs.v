(** Rounding errors of the canonical uniform variates. *)
From Coq Require Import ZArith Bool List Reals Lia Lra Psatz.
From Flocq Require Import Core Relative IEEE754.BinarySingleNaN.
From Verif Require Import FloatFacts UniformModel UniformProofs.
Import ListNotations.
Open Scope R_scope.

(** ** Relative errors counted in units of u *)
Section Near.
Variable u : R.
Hypothesis Hu : 0 < u <= / 2 ^ 20.
Definition near (a x y : R) : Prop := y * (1 - a * u) <= x <= y * (1 + a * u).

Lemma near_weaken a b x y : a <= b -> 0 <= y -> near a x y -> near b x y.
Proof. intros Hab Hy (H1 & H2). split; [apply Rle_trans with (2 := H1)|apply Rle_trans with (1 := H2)]; apply Rmult_le_compat_l; try lra; assert (a * u <= b * u) by (apply Rmult_le_compat_r; lra); lra. Qed.
Lemma au a : 0 <= a <= 100 -> 0 <= a * u <= / 2 ^ 13.
Proof. intros Ha. split; [apply Rmult_le_pos; lra|]. apply Rle_trans with (100 * / 2 ^ 20); [apply Rmult_le_compat; lra|lra]. Qed.
Lemma near_mul a b x1 y1 x2 y2 : 0 <= a <= 100 -> 0 <= b <= 100 -> 0 <= y1 -> 0 <= y2 -> near a x1 y1 -> near b x2 y2 -> near (a + b + 1) (x1 * x2) (y1 * y2).
Proof.
  intros Ha Hb Y1 Y2 (L1 & U1) (L2 & U2). pose proof (au a Ha) as A. pose proof (au b Hb) as B. pose proof (Rmult_le_pos _ _ Y1 Y2) as Y.
  assert (AB : a * u * (b * u) <= u).
  { apply Rle_trans with (/ 2 ^ 13 * (100 * u)); [apply Rmult_le_compat; try lra; apply Rmult_le_compat_r; lra|lra]. }
  assert (P1 : 0 <= y1 * (1 - a * u)) by (apply Rmult_le_pos; lra). assert (P2 : 0 <= y2 * (1 - b * u)) by (apply Rmult_le_pos; lra).
  split.
  - apply Rle_trans with (y1 * (1 - a * u) * (y2 * (1 - b * u))); [|apply Rmult_le_compat; lra].
    replace (y1 * (1 - a * u) * (y2 * (1 - b * u))) with (y1 * y2 * (1 - a * u - b * u + a * u * (b * u))) by ring. apply Rmult_le_compat_l; [exact Y|].
    assert (0 <= a * u * (b * u)) by (apply Rmult_le_pos; lra). lra.
  - apply Rle_trans with (y1 * (1 + a * u) * (y2 * (1 + b * u))); [apply Rmult_le_compat; lra|].
    replace (y1 * (1 + a * u) * (y2 * (1 + b * u))) with (y1 * y2 * (1 + a * u + b * u + a * u * (b * u))) by ring. apply Rmult_le_compat_l; [exact Y|]. lra.
Qed.
Lemma near_inv a x y : 0 <= a <= 100 -> 0 < y -> near a x y -> near (a + 1) (/ x) (/ y).
Proof.
  intros Ha Y (L & U). pose proof (au a Ha) as A. assert (P : 0 < y * (1 - a * u)) by (apply Rmult_lt_0_compat; lra). assert (X : 0 < x) by lra.
  assert (Y' : 0 < / y) by (apply Rinv_0_lt_compat, Y). split.
  - apply Rle_trans with (/ (y * (1 + a * u))); [|apply Rinv_le_contravar; lra]. rewrite Rinv_mult. apply Rmult_le_compat_l; [lra|].
    apply Rmult_le_reg_r with (1 + a * u); [lra|]. rewrite Rinv_l by lra. assert (0 <= a * u * (a * u)) by (apply Rmult_le_pos; lra).
    assert (0 <= u * (a * u)) by (apply Rmult_le_pos; lra). lra.
  - apply Rle_trans with (/ (y * (1 - a * u))); [apply Rinv_le_contravar; lra|]. rewrite Rinv_mult. apply Rmult_le_compat_l; [lra|].
    apply Rmult_le_reg_r with (1 - a * u); [lra|]. rewrite Rinv_l by lra.
    assert (a * u * (a * u) <= / 2 ^ 13 * (100 * u)) by (apply Rmult_le_compat; try lra; apply Rmult_le_compat_r; lra).
    assert (u * (a * u) <= u * / 2 ^ 13) by (apply Rmult_le_compat_l; lra). lra.
Qed.
Lemma near_abs a x y : 0 <= a -> 0 <= y <= 1 -> near a x y -> Rabs (x - y) <= a * u.
Proof.
  intros Ha Hy (L & U). assert (0 <= a * u) by (apply Rmult_le_pos; lra). assert (y * (a * u) <= 1 * (a * u)) by (apply Rmult_le_compat_r; lra). apply Rabs_le. lra.
Qed.
End Near.

(** ** One format *)
Section Format.
Context (prec emax : Z) {prec_gt_0_ : Prec_gt_0 prec} {prec_lt_emax_ : Prec_lt_emax prec emax}.
Hypothesis Hf : (prec = 24 /\ emax = 128 \/ prec = 53 /\ emax = 1024)%Z.
Notation F := (binary_float prec emax).
Notation fexp := (SpecFloat.fexp prec emax).
Notation rnd := (round radix2 fexp ZnearestE).
Notation fmt := (generic_format radix2 fexp).
Notation inrange := (inrange emax).
Notation u := (bpow radix2 (- prec)).
Notation near := (near u).
Notation H3 := (Hp3 prec emax Hf).
Notation H70 := (Hem70 prec emax Hf).

Lemma u_lo : / 2 ^ 53 <= u.
Proof. replace (/ 2 ^ 53) with (bpow radix2 (-53)) by (cbn; lra). apply bpow_le. lia. Qed.
Lemma u_hi : 0 < u <= / 2 ^ 20.
Proof. split; [apply bpow_gt_0|]. apply Rle_trans with (bpow radix2 (-20)); [apply bpow_le; lia|]. cbn. lra. Qed.
Lemma rel x : 0 <= x -> x = 0 \/ / 2 ^ 100 <= x -> Rabs (rnd x - x) <= u * x.
Proof.
  intros Hx [->|H]; [rewrite (rnd_0 prec emax H3 H70), Rminus_0_r, Rabs_R0; lra|].
  assert (E : u * x = / 2 * bpow radix2 (- prec + 1) * Rabs x).
  { rewrite Rabs_pos_eq by exact Hx. rewrite bpow_plus. cbn -[bpow]. change (bpow radix2 1) with 2. field. }
  rewrite E. apply (relative_error_N_FLT radix2 (3 - emax - prec) prec prec_gt_0_ (fun z => negb (Z.even z)) x). rewrite Rabs_pos_eq by exact Hx.
  apply Rle_trans with (bpow radix2 (-100)); [apply bpow_le; lia|]. apply Rle_trans with (2 := H). cbn. lra.
Qed.
Lemma near_rnd a x y : 0 <= a <= 90 -> y = 0 \/ / 2 ^ 90 <= y -> near a x y -> near (a + 2) (rnd x) y.
Proof.
  intros Ha Hy N. pose proof u_hi as U. pose proof (au u U a ltac:(lra)) as A. destruct N as (L & R).
  assert (A1 : 0 <= (1 - a * u)) by lra. destruct Hy as [->|Hy].
  - rewrite Rmult_0_l in L, R. assert (E : x = 0) by lra. rewrite E, (rnd_0 prec emax H3 H70). split; rewrite Rmult_0_l; lra.
  - assert (X : / 2 ^ 100 <= x). { apply Rle_trans with (2 := L). apply Rle_trans with (/ 2 ^ 90 * (1 - a * u)); [lra|]. apply Rmult_le_compat_r; lra. }
    pose proof (rel x ltac:(lra) (or_intror X)) as RE. apply Rabs_le_inv in RE.
    assert (Y : 0 <= y) by lra. assert (ux : u * x <= u * (y * (1 + a * u))) by (apply Rmult_le_compat_l; lra).
    assert (uau : u * (a * u) <= u * / 2 ^ 13) by (apply Rmult_le_compat_l; lra).
    assert (yuau : y * (u * (a * u)) <= y * u). { apply Rmult_le_compat_l; [exact Y|]. lra. }
    split; lra.
Qed.

Section Range.
Variable D : Z.
Hypothesis HD : (1 <= D < 2 ^ 64)%Z.
Notation MZ := (domain_max prec D 1).
Notation M := (IZR MZ).
Notation V := (variate_max prec emax D 1).

Lemma M_range : 1 <= M <= 2 ^ 64.
Proof. pose proof (domain_max_spec prec D 1 HD) as A. split; [apply IZR_le; lia|]. change 2 with (IZR 2). rewrite pow_IZR. apply IZR_le. cbn. lia. Qed.
Lemma iM_range : / 2 ^ 64 <= / M <= 1.
Proof. pose proof M_range. split; [apply Rinv_le_contravar; lra|]. rewrite <- Rinv_1. apply Rinv_le_contravar; lra. Qed.
Lemma near_refl x : 0 <= x -> near 0 x x.
Proof. intros Hx. split; lra. Qed.
Lemma V_eq : V = of_int prec emax MZ.
Proof. unfold variate_max. cbv zeta. rewrite <- (one_call prec emax Hf D HD). reflexivity. Qed.
Lemma V_ok : is_finite V = true /\ B2R V = rnd M /\ near 2 (B2R V) M /\ 1 <= B2R V.
Proof.
  rewrite V_eq. destruct (max_addin_ok prec emax Hf D 1 HD) as (A & B). pose proof M_range as MR. split; [exact A|]. split; [exact B|]. rewrite B. split.
  - replace 2 with (0 + 2) by ring. apply near_rnd; [lra|right; lra|apply near_refl; lra].
  - apply (rnd_ge_fmt prec emax H3 H70); [apply (fmt_1 prec emax H3 H70)|lra].
Qed.
(** the integer behind the variate *)
Definition zval (r : Z) : Z := if use_ll_of_shifted prec D 1 then (r / 2)%Z else r.
Lemma shifted_ll : use_ll_of_shifted prec D 1 = true -> long_long_ok D = false /\ (D / 2 = 2 ^ 63 - 1)%Z.
Proof.
  unfold use_ll_of_shifted. intros E. apply andb_true_iff in E. destruct E as (E & _). apply andb_true_iff in E. destruct E as (E1 & E2).
  split; [destruct (long_long_ok D); [discriminate E1|reflexivity]|]. apply Z.eqb_eq in E2. rewrite E2. reflexivity.
Qed.
Lemma addin_val r : (0 <= r <= D)%Z -> addin prec emax D 1 r = of_int prec emax (zval r) /\ (0 <= zval r <= MZ)%Z.
Proof.
  intros Hr. pose proof (domain_bits_spec D HD) as (B1 & B2). unfold addin, domain_max, zval.
  assert (LL : long_long_ok D = true -> use_ll_of_shifted prec D 1 = false) by (intros E; unfold use_ll_of_shifted; now rewrite E).
  assert (K : forall w, (1 <= w)%Z -> (domain_bits D < w)%Z -> signed_cast w r = r).
  { intros w W L. apply signed_cast_id; [exact W|]. assert (2 ^ domain_bits D <= 2 ^ (w - 1))%Z by (apply Z.pow_le_mono_r; lia). lia. }
  unfold int_ok, long_ok, long_long_ok in *.
  destruct (Z.ltb_spec (domain_bits D) 32) as [L|L].
  - rewrite LL by (apply Z.ltb_lt; lia). rewrite K by lia. split; [reflexivity|lia].
  - destruct (Z.ltb_spec (domain_bits D) 64) as [L2|L2].
    + rewrite LL by reflexivity. rewrite K by lia. split; [reflexivity|lia].
    + destruct (use_ll_of_shifted prec D 1); [|split; [reflexivity|lia]]. rewrite signed_cast_id.
      * split; [reflexivity|]. split; [apply Z.div_pos; lia|apply Z.div_le_mono; lia].
      * lia.
      * split; [apply Z.div_pos; lia|]. apply Z.div_lt_upper_bound; [lia|]. change (2 * 2 ^ (64 - 1))%Z with (2 ^ 64)%Z. lia.
Qed.
Lemma zval_mono r s : (r <= s)%Z -> (zval r <= zval s)%Z.
Proof. intros H. unfold zval. destruct (use_ll_of_shifted prec D 1); [apply Z.div_le_mono; lia|exact H]. Qed.
(** the ratio is the one of the engine up to 2^-63; exact unless the lowest bit is dropped *)
Lemma zval_ratio r : (0 <= r <= D)%Z -> (zval r = r /\ MZ = D) \/ (Rabs (IZR (zval r) / M - IZR r / IZR D) <= / 2 ^ 62 /\ / M <= / 2 ^ 62 /\ / IZR D <= / 2 ^ 62).
Proof.
  intros Hr. unfold zval, domain_max. destruct (use_ll_of_shifted prec D 1) eqn:E; [right|left; auto]. destruct (shifted_ll E) as (_ & E2).
  rewrite E2. pose proof (Z.div_mod r 2 ltac:(lia)) as D1. pose proof (Z.mod_pos_bound r 2 ltac:(lia)) as D2. pose proof (Z.div_mod D 2 ltac:(lia)) as D3. pose proof (Z.mod_pos_bound D 2 ltac:(lia)) as D4.
  set (z := (r / 2)%Z) in *. change (2 ^ 63 - 1)%Z with 9223372036854775807%Z in *.
  assert (R1 : 0 <= IZR z <= 9223372036854775807) by (split; apply IZR_le; lia). assert (R2 : 18446744073709551614 <= IZR D <= 18446744073709551615) by (split; apply IZR_le; lia).
  assert (R3 : 2 * IZR z <= IZR r <= 2 * IZR z + 1). { replace (2 * IZR z) with (IZR (2 * z)) by (rewrite mult_IZR; reflexivity). replace (IZR (2 * z) + 1) with (IZR (2 * z + 1)) by (rewrite plus_IZR; reflexivity). split; apply IZR_le; lia. }
  split; [|split].
  - assert (Q : Rabs (IZR z * IZR D - IZR r * 9223372036854775807) <= IZR D).
    { apply Rabs_le. assert (0 <= IZR z * (IZR D - 18446744073709551614) <= IZR z * 1) by (split; [apply Rmult_le_pos; lra|apply Rmult_le_compat_l; lra]). lra. }
    replace (IZR z / 9223372036854775807 - IZR r / IZR D) with ((IZR z * IZR D - IZR r * 9223372036854775807) * / (9223372036854775807 * IZR D)) by (field; lra).
    rewrite Rabs_mult, (Rabs_pos_eq (/ _)) by (apply Rlt_le, Rinv_0_lt_compat; lra).
    apply Rle_trans with (IZR D * / (9223372036854775807 * IZR D)); [apply Rmult_le_compat_r; [apply Rlt_le, Rinv_0_lt_compat; lra|exact Q]|].
    replace (IZR D * / (9223372036854775807 * IZR D)) with (/ 9223372036854775807) by (field; lra). apply Rinv_le_contravar; lra.
  - apply Rinv_le_contravar; lra.
  - apply Rinv_le_contravar; lra.
Qed.
Lemma shift_u : / 2 ^ 62 <= u / 500.
Proof. pose proof u_lo. lra. Qed.

Lemma W_ok r : (0 <= r <= D)%Z -> let W := variate prec emax D 1 r [] in
  is_finite W = true /\ B2R W = rnd (IZR (zval r)) /\ near 2 (B2R W) (IZR (zval r)) /\ 0 <= IZR (zval r) <= M /\ (IZR (zval r) = 0 \/ 1 <= IZR (zval r)).
Proof.
  intros Hr. cbv zeta. unfold variate. cbn [fold_left]. destruct (addin_val r Hr) as (E & Z0). rewrite E.
  pose proof (domain_max_spec prec D 1 HD) as A. destruct (of_int_0_64 prec emax Hf (zval r) ltac:(lia)) as (B1 & B2).
  assert (C : IZR (zval r) = 0 \/ 1 <= IZR (zval r)) by (destruct (Z.eq_dec (zval r) 0) as [->|]; [left; reflexivity|right; apply IZR_le; lia]).
  split; [exact B1|]. split; [exact B2|]. rewrite B2. split; [|split; [split; apply IZR_le; lia|exact C]].
  replace 2 with (0 + 2) by ring. apply near_rnd; [lra|destruct C; [left; assumption|right; lra]|apply near_refl; apply IZR_le; lia].
Qed.
Lemma W_mono r s : (0 <= r <= s)%Z -> (s <= D)%Z -> 0 <= B2R (variate prec emax D 1 r []) <= B2R (variate prec emax D 1 s []).
Proof.
  intros Hr Hs. destruct (W_ok r ltac:(lia)) as (_ & E1 & _ & E3 & _). destruct (W_ok s ltac:(lia)) as (_ & E2 & _). rewrite E1, E2. split; [apply (rnd_ge_0 prec emax H3 H70); lra|].
  apply (rnd_le prec emax H3 H70). apply IZR_le, zval_mono; lia.
Qed.
Lemma cc_norm_near : is_finite (cc_norm prec emax D 1) = true /\ near 5 (B2R (cc_norm prec emax D 1)) (/ M) /\ 0 <= B2R (cc_norm prec emax D 1) <= 1.
Proof.
  destruct (cc_norm_ok prec emax Hf D 1 HD 0%Z [] ltac:(lia) (List.Forall_nil _) (one_call prec emax Hf D HD)) as (A & B & C).
  destruct V_ok as (_ & _ & V2 & _). pose proof M_range. pose proof iM_range. split; [exact A|]. split; [|exact C]. rewrite B.
  replace 5 with (2 + 1 + 2) by ring. apply near_rnd; [lra|right; lra|]. unfold Rdiv. rewrite Rmult_1_l. apply near_inv; [exact u_hi|lra|lra|exact V2].
Qed.

(** ** cc *)
Lemma cc_acc r : (0 <= r <= D)%Z -> Rabs (B2R (uniformcc prec emax D r) - IZR r / IZR D) <= 11 * u.
Proof.
  intros Hr. destruct (W_ok r Hr) as (W1 & W2 & W3 & W4 & W5). destruct V_ok as (V1 & V2 & V3 & V4). destruct cc_norm_near as (N1 & N2 & N3).
  pose proof M_range as MR. pose proof iM_range as IM. pose proof u_hi as U. pose proof u_lo as UL.
  set (z := IZR (zval r)) in *. assert (ZM : 0 <= z * / M <= 1).
  { split; [apply Rmult_le_pos; lra|]. replace 1 with (M * / M) by (field; lra). apply Rmult_le_compat_r; lra. }
  assert (ZZ : z * / M = 0 \/ / 2 ^ 90 <= z * / M). { destruct W5 as [->|W5]; [left; ring|right]. apply Rle_trans with (1 * / 2 ^ 64); [lra|]. apply Rmult_le_compat; lra. }
  assert (CC : near 10 (B2R (uniformcc prec emax D r)) (z * / M)).
  { unfold uniformcc, u01_cc. set (W := variate prec emax D 1 r []) in *.
    assert (P1 : near 8 (B2R W * B2R (cc_norm prec emax D 1)) (z * / M)) by (replace 8 with (2 + 5 + 1) by ring; apply near_mul; try assumption; lra).
    assert (B1 : 0 <= B2R W * B2R (cc_norm prec emax D 1) <= 2).
    { destruct P1 as (L & R). pose proof (au u U 8 ltac:(lra)). split; [apply Rle_trans with (2 := L); apply Rmult_le_pos; lra|].
      apply Rle_trans with (1 := R). apply Rle_trans with (1 * (1 + 8 * u)); [apply Rmult_le_compat_r; lra|lra]. }
    assert (R2 : inrange 2) by (change 2 with (bpow radix2 1); apply (inrange_bpow prec emax H3 H70); lia).
    destruct (negb _).
    - assert (P2 : near 6 (B2R W / B2R V) (z * / M)). { unfold Rdiv. replace 6 with (2 + (2 + 1) + 1) by ring. apply near_mul; try assumption; try lra. apply near_inv; try assumption; lra. }
      assert (B2 : 0 <= B2R W / B2R V <= 2).
      { destruct P2 as (L & R). pose proof (au u U 6 ltac:(lra)). split; [apply Rle_trans with (2 := L); apply Rmult_le_pos; lra|].
        apply Rle_trans with (1 := R). apply Rle_trans with (1 * (1 + 6 * u)); [apply Rmult_le_compat_r; lra|lra]. }
      assert (V0 : B2R V <> 0) by lra. destruct (fdiv_ok prec emax H3 H70 W V W1 V0) as (_ & E); [apply (inrange_le prec emax H3 H70) with 2; assumption|]. rewrite E.
      apply (near_weaken u U 8 10); [lra|lra|]. replace 8 with (6 + 2) by ring. apply near_rnd; [lra|exact ZZ|exact P2].
    - destruct (fmul_ok prec emax H3 H70 W (cc_norm prec emax D 1) W1 N1) as (_ & E); [apply (inrange_le prec emax H3 H70) with 2; assumption|]. rewrite E.
      replace 10 with (8 + 2) by ring. apply near_rnd; [lra|exact ZZ|exact P1]. }
  pose proof (near_abs u U 10 _ _ ltac:(lra) ZM CC) as A. pose proof shift_u as SU.
  destruct (zval_ratio r Hr) as [(E1 & E2)|(E1 & _)].
  - unfold z in A. rewrite E1, E2 in A. change (IZR r * / IZR D) with (IZR r / IZR D) in A. lra.
  - fold z in E1. change (z / M) with (z * / M) in E1. apply Rabs_le_inv in A. apply Rabs_le_inv in E1. apply Rabs_le. lra.
Qed.
Lemma cc_mono r s : (0 <= r <= s)%Z -> (s <= D)%Z -> B2R (uniformcc prec emax D r) <= B2R (uniformcc prec emax D s).
Proof.
  intros Hr Hs. destruct (W_mono r s Hr Hs) as (M0 & M1). destruct (W_ok r ltac:(lia)) as (W1 & _ & W3 & W4 & _). destruct (W_ok s ltac:(lia)) as (X1 & _ & X3 & X4 & _).
  destruct V_ok as (V1 & V2 & V3 & V4). destruct cc_norm_near as (N1 & N2 & N3).
  assert (R1 : inrange (bpow radix2 65)) by (apply (inrange_bpow prec emax H3 H70); lia). pose proof M_range as MR. pose proof u_hi as U. pose proof (au u U 2 ltac:(lra)) as A2.
  assert (XB : B2R (variate prec emax D 1 s []) <= bpow radix2 65).
  { destruct X3 as (_ & R). apply Rle_trans with (1 := R). apply Rle_trans with (2 ^ 64 * (1 + 2 * u)); [apply Rmult_le_compat_r; lra|]. change (bpow radix2 65) with 36893488147419103232. lra. }
  unfold uniformcc, u01_cc. set (W := variate prec emax D 1 r []) in *. set (X := variate prec emax D 1 s []) in *. clearbody W X. destruct (negb _).
  - assert (V0 : B2R V <> 0) by lra. assert (IV : 0 <= / B2R V <= 1) by (split; [apply Rlt_le, Rinv_0_lt_compat; lra|rewrite <- Rinv_1; apply Rinv_le_contravar; lra]).
    assert (Q : 0 <= B2R W / B2R V <= B2R X / B2R V) by (split; [apply Rmult_le_pos; lra|apply Rmult_le_compat_r; lra]).
    assert (Q2 : B2R X / B2R V <= B2R X * 1) by (apply Rmult_le_compat_l; lra).
    destruct (fdiv_ok prec emax H3 H70 W V W1 V0) as (_ & E); [apply (inrange_le prec emax H3 H70) with (2 := R1); lra|].
    destruct (fdiv_ok prec emax H3 H70 X V X1 V0) as (_ & E'); [apply (inrange_le prec emax H3 H70) with (2 := R1); lra|].
    rewrite E, E'. apply (rnd_le prec emax H3 H70). lra.
  - set (n := cc_norm prec emax D 1) in *. assert (Q : 0 <= B2R W * B2R n <= B2R X * B2R n) by (split; [apply Rmult_le_pos; lra|apply Rmult_le_compat_r; lra]).
    assert (Q2 : B2R X * B2R n <= B2R X * 1) by (apply Rmult_le_compat_l; lra).
    destruct (fmul_ok prec emax H3 H70 W n W1 N1) as (_ & E); [apply (inrange_le prec emax H3 H70) with (2 := R1); lra|].
    destruct (fmul_ok prec emax H3 H70 X n X1 N1) as (_ & E'); [apply (inrange_le prec emax H3 H70) with (2 := R1); lra|].
    rewrite E, E'. apply (rnd_le prec emax H3 H70). lra.
Qed.

(** ** eps *)
Lemma eps_near : is_finite (eps prec emax D 1) = true /\ Rabs (B2R (eps prec emax D 1) - / M) <= 5 * u /\ 0 <= B2R (eps prec emax D 1) <= 1 /\
  (MZ = 1%Z -> B2R (eps prec emax D 1) = 1) /\ (MZ = 2%Z -> B2R (eps prec emax D 1) = / 2).
Proof.
  destruct (eps_ok prec emax Hf D 1 HD [] (one_call prec emax Hf D HD)) as (E1 & E2). split; [exact E1|].
  pose proof u_hi as U. pose proof M_range as MR. pose proof iM_range as IM. destruct V_ok as (V1 & V2 & V3 & V4). destruct (of_int_1 prec emax Hf) as (O1 & O2). destruct (native_eps_ok prec emax Hf D 1 [] (one_call prec emax Hf D HD)) as (N1 & N2).
  assert (V0 : B2R V <> 0) by lra. assert (IV : 0 <= 1 / B2R V <= 1) by (unfold Rdiv; rewrite Rmult_1_l; split; [apply Rlt_le, Rinv_0_lt_compat; lra|rewrite <- Rinv_1; apply Rinv_le_contravar; lra]).
  destruct (fdiv_ok prec emax H3 H70 (of_int prec emax 1) V O1 V0) as (D1 & D2); [rewrite O2; apply (inrange_0_1 prec emax H3 H70); exact IV|]. rewrite O2 in D2.
  assert (NE : near 5 (rnd (1 / B2R V)) (/ M)). { replace 5 with (2 + 1 + 2) by ring. apply near_rnd; [lra|right; lra|]. unfold Rdiv. rewrite Rmult_1_l. apply near_inv; [exact U|lra|lra|exact V3]. }
  assert (NA : Rabs (rnd (1 / B2R V) - / M) <= 5 * u) by (apply near_abs; [exact U|lra|lra|exact NE]). pose proof (au u U 5 ltac:(lra)) as A5. unfold eps in *. cbv zeta in *. rewrite V_eq in D1, D2, NE, NA.
  rewrite Bleb_correct in * by assumption. rewrite D2, N2 in *. destruct (Rle_bool_spec (rnd (1 / B2R (of_int prec emax MZ))) (2 * u)) as [L|L]; cbn [orb negb Z.eqb] in *.
  - destruct NE as (L1 & L2). assert (I2 : / M <= 4 * u).
    { assert (/ M * (1 - 5 * u) <= 2 * u) by lra. assert (/ M * / 2 <= / M * (1 - 5 * u)) by (apply Rmult_le_compat_l; lra). lra. }
    split; [apply Rabs_le; lra|]. split; [lra|]. split; intros E; exfalso; rewrite E in I2; lra.
  - change (negb (1 =? 1)%positive) with false. cbv iota. rewrite D2. split; [exact NA|]. split; [split; [apply (rnd_ge_0 prec emax H3 H70); rewrite V_eq in IV; lra|]; rewrite V_eq in IV; apply (rnd_le_fmt prec emax H3 H70); [apply (fmt_1 prec emax H3 H70)|lra]|].
    destruct (of_int_2 prec emax Hf) as (_ & T2).
    split; intros E; rewrite E; [rewrite O2|rewrite T2]; [replace (1 / 1) with 1 by field; apply (rnd_fmt prec emax H3 H70), (fmt_1 prec emax H3 H70)|].
    replace (1 / 2) with (bpow radix2 (-1)) by (cbn; lra). rewrite (rnd_fmt prec emax H3 H70) by (apply (fmt_bpow prec emax H3 H70); lia). cbn. lra.
Qed.
Lemma M_cases : MZ = 1%Z \/ MZ = 2%Z \/ 3 <= M.
Proof. pose proof (domain_max_spec prec D 1 HD). destruct (Z.eq_dec MZ 1); [auto|]. destruct (Z.eq_dec MZ 2); [auto|]. right. right. apply IZR_le. lia. Qed.
Lemma rnd_abs x : Rabs x <= 1 -> Rabs (rnd x - x) <= u.
Proof.
  intros Hx. pose proof (bpow_gt_0 radix2 (- prec)) as U.
  apply Rle_trans with (/ 2 * ulp radix2 fexp x); [apply error_le_half_ulp; typeclasses eauto|].
  apply Rle_trans with (/ 2 * ulp radix2 fexp 1).
  - apply Rmult_le_compat_l; [lra|]. rewrite <- (ulp_abs _ _ x). apply ulp_le; try typeclasses eauto. rewrite Rabs_Rabsolu, Rabs_R1. exact Hx.
  - change 1 with (bpow radix2 0). rewrite ulp_bpow. rewrite (fexp_eq prec emax H3 H70). rewrite Z.max_l by lia. replace (0 + 1 - prec)%Z with (- prec + 1)%Z by lia. rewrite bpow_plus. change (bpow radix2 1) with 2. lra.
Qed.
(** scaling a variate by a factor close to [t] / M *)
Lemma scaled_near r (n : F) t : (0 <= r <= D)%Z -> is_finite n = true -> near 7 (B2R n) (/ M * t) -> 0 <= t <= 1 -> t = 0 \/ / 8 <= t ->
  is_finite (fmul prec emax (variate prec emax D 1 r []) n) = true /\ B2R (fmul prec emax (variate prec emax D 1 r []) n) = rnd (B2R (variate prec emax D 1 r []) * B2R n) /\
  Rabs (B2R (fmul prec emax (variate prec emax D 1 r []) n) - IZR (zval r) / M * t) <= 12 * u.
Proof.
  intros Hr Fn Nn Ht Ht'. destruct (W_ok r Hr) as (W1 & W2 & W3 & W4 & W5). set (W := variate prec emax D 1 r []) in *. set (z := IZR (zval r)) in *. clearbody W z.
  pose proof M_range as MR. pose proof iM_range as IM. pose proof u_hi as U.
  assert (ZM : 0 <= z * / M <= 1).
  { split; [apply Rmult_le_pos; lra|]. replace 1 with (M * / M) by (field; lra). apply Rmult_le_compat_r; lra. }
  assert (ZT : 0 <= z * (/ M * t) <= 1). { replace (z * (/ M * t)) with (z * / M * t) by ring. split; [apply Rmult_le_pos; lra|]. replace 1 with (1 * 1) by ring. apply Rmult_le_compat; lra. }
  assert (ZZ : z * (/ M * t) = 0 \/ / 2 ^ 90 <= z * (/ M * t)).
  { destruct W5 as [->|W5]; [left; ring|]. destruct Ht' as [->|Ht']; [left; ring|right]. apply Rle_trans with (1 * (/ 2 ^ 64 * / 8)); [lra|].
    apply Rmult_le_compat; try lra. apply Rmult_le_compat; lra. }
  assert (P : near 10 (B2R W * B2R n) (z * (/ M * t))). { replace 10 with (2 + 7 + 1) by ring. apply near_mul; try assumption; try lra. apply Rmult_le_pos; lra. }
  assert (B1 : 0 <= B2R W * B2R n <= 2).
  { destruct P as (L & R). pose proof (au u U 10 ltac:(lra)). split; [apply Rle_trans with (2 := L); apply Rmult_le_pos; lra|].
    apply Rle_trans with (1 := R). apply Rle_trans with (1 * (1 + 10 * u)); [apply Rmult_le_compat_r; lra|lra]. }
  assert (R2 : inrange 2) by (change 2 with (bpow radix2 1); apply (inrange_bpow prec emax H3 H70); lia).
  destruct (fmul_ok prec emax H3 H70 W n W1 Fn) as (G1 & G2); [apply (inrange_le prec emax H3 H70) with 2; assumption|].
  split; [exact G1|]. split; [exact G2|]. rewrite G2. replace (z / M * t) with (z * (/ M * t)) by (field; lra). apply near_abs; [exact U|lra|exact ZT|]. replace 12 with (10 + 2) by ring. apply near_rnd; [lra|exact ZZ|exact P].
Qed.
Lemma norm_near (t : F) : is_finite t = true -> 0 <= B2R t <= 1 -> B2R t = 0 \/ / 8 <= B2R t ->
  is_finite (fmul prec emax (cc_norm prec emax D 1) t) = true /\ near 7 (B2R (fmul prec emax (cc_norm prec emax D 1) t)) (/ M * B2R t).
Proof.
  intros Ft Ht Ht'. destruct cc_norm_near as (N1 & N2 & N3). pose proof iM_range as IM. pose proof u_hi as U.
  destruct (fmul_ok prec emax H3 H70 _ t N1 Ft) as (G1 & G2). { apply (inrange_0_1 prec emax H3 H70). split; [apply Rmult_le_pos; lra|]. replace 1 with (1 * 1) by ring. apply Rmult_le_compat; lra. }
  split; [exact G1|]. rewrite G2. replace 7 with (5 + 2) by ring. apply near_rnd; [lra| |].
  - destruct Ht' as [->|Ht']; [left; ring|right]. apply Rle_trans with (/ 2 ^ 64 * / 8); [lra|]. apply Rmult_le_compat; lra.
  - destruct N2 as (L & R). split; [replace (/ M * B2R t * (1 - 5 * u)) with (/ M * (1 - 5 * u) * B2R t) by ring|replace (/ M * B2R t * (1 + 5 * u)) with (/ M * (1 + 5 * u) * B2R t) by ring]; apply Rmult_le_compat_r; lra.
Qed.

(** ** co *)
Lemma co_factor : exists t : F, fsub prec emax (of_int prec emax 1) (eps prec emax D 1) = t /\ is_finite t = true /\ 0 <= B2R t <= 1 /\ (B2R t = 0 \/ / 8 <= B2R t) /\ Rabs (B2R t - (1 - / M)) <= 6 * u.
Proof.
  eexists. split; [reflexivity|]. destruct eps_near as (E1 & E2 & E3 & E4 & E5). destruct (of_int_1 prec emax Hf) as (O1 & O2). pose proof u_hi as U. pose proof iM_range as IM.
  destruct (fsub_ok prec emax H3 H70 _ _ O1 E1) as (S1 & S2); [rewrite O2; apply (inrange_0_1 prec emax H3 H70); lra|]. rewrite O2 in S2. split; [exact S1|]. rewrite S2.
  assert (RA : Rabs (rnd (1 - B2R (eps prec emax D 1)) - (1 - B2R (eps prec emax D 1))) <= u) by (apply rnd_abs, Rabs_le; lra).
  split; [split; [apply (rnd_ge_0 prec emax H3 H70); lra|apply (rnd_le_fmt prec emax H3 H70); [apply (fmt_1 prec emax H3 H70)|lra]]|].
  apply Rabs_le_inv in RA. apply Rabs_le_inv in E2. split; [|apply Rabs_le; lra].
  destruct M_cases as [C|[C|C]]; [left; rewrite (E4 C), Rminus_eq_0; apply (rnd_0 prec emax H3 H70)|right|right].
  - rewrite (E5 C) in *. lra.
  - assert (/ M <= / 3) by (apply Rinv_le_contravar; lra). lra.
Qed.
Lemma co_acc_z r : (0 <= r <= D)%Z -> Rabs (B2R (uniformco prec emax D r) - IZR (zval r) / M * (1 - / M)) <= 18 * u.
Proof.
  intros Hr. destruct co_factor as (t & Et & T1 & T2 & T3 & T4). destruct (norm_near t T1 T2 T3) as (N1 & N2). unfold uniformco, u01_co, co_norm. rewrite Et.
  destruct (scaled_near r _ (B2R t) Hr N1 N2 T2 T3) as (_ & _ & A). destruct (W_ok r Hr) as (_ & _ & _ & W4 & _). pose proof M_range as MR. pose proof iM_range as IM.
  assert (ZM : 0 <= IZR (zval r) / M <= 1). { unfold Rdiv. split; [apply Rmult_le_pos; lra|]. replace 1 with (M * / M) by (field; lra). apply Rmult_le_compat_r; lra. }
  assert (B : Rabs (IZR (zval r) / M * B2R t - IZR (zval r) / M * (1 - / M)) <= 6 * u).
  { rewrite <- Rmult_minus_distr_l, Rabs_mult, (Rabs_pos_eq (IZR (zval r) / M)) by lra. apply Rle_trans with (1 * Rabs (B2R t - (1 - / M))); [apply Rmult_le_compat_r; [apply Rabs_pos|lra]|lra]. }
  apply Rabs_le_inv in A. apply Rabs_le_inv in B. apply Rabs_le. lra.
Qed.
Lemma co_mono r s : (0 <= r <= s)%Z -> (s <= D)%Z -> B2R (uniformco prec emax D r) <= B2R (uniformco prec emax D s).
Proof.
  intros Hr Hs. destruct co_factor as (t & Et & T1 & T2 & T3 & T4). destruct (norm_near t T1 T2 T3) as (N1 & N2). unfold uniformco, u01_co, co_norm. rewrite Et.
  destruct (scaled_near r _ (B2R t) ltac:(lia) N1 N2 T2 T3) as (_ & E & _). destruct (scaled_near s _ (B2R t) ltac:(lia) N1 N2 T2 T3) as (_ & E' & _). rewrite E, E'.
  apply (rnd_le prec emax H3 H70). destruct (W_mono r s Hr Hs) as (M0 & M1). apply Rmult_le_compat_r; [|exact M1]. destruct N2 as (L & _). apply Rle_trans with (2 := L).
  pose proof iM_range. pose proof (au u u_hi 7 ltac:(lra)). apply Rmult_le_pos; [apply Rmult_le_pos; lra|lra].
Qed.
Lemma co_acc r : (0 <= r <= D)%Z -> Rabs (B2R (uniformco prec emax D r) - IZR r / (IZR D + 1)) <= 19 * u + / (IZR D * (IZR D + 1)).
Proof.
  intros Hr. pose proof (co_acc_z r Hr) as A. pose proof shift_u as SU. assert (D1 : 1 <= IZR D) by (apply IZR_le; lia). assert (RD : 0 <= IZR r <= IZR D) by (split; apply IZR_le; lia).
  assert (ID : 0 < / (IZR D * (IZR D + 1))) by (apply Rinv_0_lt_compat, Rmult_lt_0_compat; lra). pose proof u_hi as U.
  destruct (zval_ratio r Hr) as [(E1 & E2)|(E1 & E2 & E3)].
  - rewrite E1, E2 in A.
    assert (B : Rabs (IZR r / IZR D * (1 - / IZR D) - IZR r / (IZR D + 1)) <= / (IZR D * (IZR D + 1))).
    { replace (IZR r / IZR D * (1 - / IZR D) - IZR r / (IZR D + 1)) with (- (IZR r / IZR D * / (IZR D * (IZR D + 1)))) by (field; lra). rewrite Rabs_Ropp, Rabs_mult, (Rabs_pos_eq (/ _)) by lra.
      assert (Q : 0 <= IZR r / IZR D <= 1). { unfold Rdiv. assert (0 < / IZR D) by (apply Rinv_0_lt_compat; lra). split; [apply Rmult_le_pos; lra|]. replace 1 with (IZR D * / IZR D) by (field; lra). apply Rmult_le_compat_r; lra. }
      rewrite Rabs_pos_eq by lra. rewrite <- (Rmult_1_l (/ (IZR D * (IZR D + 1)))) at 2. apply Rmult_le_compat_r; lra. }
    apply Rabs_le_inv in A. apply Rabs_le_inv in B. apply Rabs_le. lra.
  - destruct (W_ok r Hr) as (_ & _ & _ & W4 & _). pose proof M_range as MR. pose proof iM_range as IM.
    assert (ZM : 0 <= IZR (zval r) / M <= 1). { unfold Rdiv. split; [apply Rmult_le_pos; lra|]. replace 1 with (M * / M) by (field; lra). apply Rmult_le_compat_r; lra. }
    assert (Q1 : 0 <= IZR (zval r) / M * / M <= 1 * / M) by (split; [apply Rmult_le_pos; lra|apply Rmult_le_compat_r; lra]).
    assert (Q2 : 0 <= IZR r / IZR D - IZR r / (IZR D + 1) <= / IZR D).
    { assert (Q : 0 <= IZR r / IZR D <= 1). { unfold Rdiv. assert (0 < / IZR D) by (apply Rinv_0_lt_compat; lra). split; [apply Rmult_le_pos; lra|]. replace 1 with (IZR D * / IZR D) by (field; lra). apply Rmult_le_compat_r; lra. }
      replace (IZR r / IZR D - IZR r / (IZR D + 1)) with (IZR r / IZR D * / (IZR D + 1)) by (field; lra). assert (0 < / (IZR D + 1)) by (apply Rinv_0_lt_compat; lra). assert (/ (IZR D + 1) <= / IZR D) by (apply Rinv_le_contravar; lra).
      split; [apply Rmult_le_pos; lra|]. apply Rle_trans with (1 * / (IZR D + 1)); [apply Rmult_le_compat_r; lra|lra]. }
    rewrite Rmult_minus_distr_l, Rmult_1_r in A. apply Rabs_le_inv in A. apply Rabs_le_inv in E1. apply Rabs_le. lra.
Qed.
(** ** oc *)
Lemma oc_val r : (0 <= r <= D)%Z -> B2R (uniformoc prec emax D r) = rnd (1 - B2R (uniformco prec emax D r)) /\ 0 <= B2R (uniformco prec emax D r) <= 1 - u.
Proof.
  intros Hr. destruct (uniformco_ok prec emax Hf D r HD Hr) as (C1 & C2). split; [|exact C2]. destruct (of_int_1 prec emax Hf) as (O1 & O2). pose proof u_hi.
  unfold uniformoc, u01_oc. fold (uniformco prec emax D r). destruct (fsub_ok prec emax H3 H70 _ _ O1 C1) as (_ & S2); [rewrite O2; apply (inrange_0_1 prec emax H3 H70); lra|]. rewrite O2 in S2. exact S2.
Qed.
Lemma oc_acc r : (0 <= r <= D)%Z -> Rabs (B2R (uniformoc prec emax D r) - (1 - IZR r / (IZR D + 1))) <= 20 * u + / (IZR D * (IZR D + 1)).
Proof.
  intros Hr. destruct (oc_val r Hr) as (E & B). pose proof (co_acc r Hr) as A. pose proof u_hi as U. rewrite E. assert (RA : Rabs (rnd (1 - B2R (uniformco prec emax D r)) - (1 - B2R (uniformco prec emax D r))) <= u) by (apply rnd_abs, Rabs_le; lra).
  apply Rabs_le_inv in A. apply Rabs_le_inv in RA. apply Rabs_le. lra.
Qed.
Lemma oc_mono r s : (0 <= r <= s)%Z -> (s <= D)%Z -> B2R (uniformoc prec emax D s) <= B2R (uniformoc prec emax D r).
Proof. intros Hr Hs. destruct (oc_val r ltac:(lia)) as (E & _). destruct (oc_val s ltac:(lia)) as (E' & _). rewrite E, E'. apply (rnd_le prec emax H3 H70). pose proof (co_mono r s Hr Hs). lra. Qed.

(** ** oo *)
Hypothesis HM : (2 <= MZ)%Z.
Lemma oo_factor : exists t : F, fsub prec emax (of_int prec emax 1) (fmul prec emax (of_int prec emax 2) (eps prec emax D 1)) = t /\ is_finite t = true /\ 0 <= B2R t <= 1 /\ (B2R t = 0 \/ / 8 <= B2R t) /\
  Rabs (B2R t - (1 - 2 * / M)) <= 12 * u.
Proof.
  eexists. split; [reflexivity|]. destruct eps_near as (E1 & E2 & E3 & E4 & E5). destruct (of_int_1 prec emax Hf) as (O1 & O2). destruct (of_int_2 prec emax Hf) as (T1 & T2). pose proof u_hi as U. pose proof iM_range as IM.
  apply Rabs_le_inv in E2. assert (EH : B2R (eps prec emax D 1) <= / 2).
  { destruct M_cases as [C|[C|C]]; [lia|rewrite (E5 C); lra|]. assert (/ M <= / 3) by (apply Rinv_le_contravar; lra). lra. }
  destruct (fmul_ok prec emax H3 H70 _ _ T1 E1) as (G1 & G2); [rewrite T2; apply (inrange_0_1 prec emax H3 H70); lra|]. rewrite T2 in G2.
  assert (RG : Rabs (rnd (2 * B2R (eps prec emax D 1)) - 2 * B2R (eps prec emax D 1)) <= u) by (apply rnd_abs, Rabs_le; lra). apply Rabs_le_inv in RG.
  assert (G3 : 0 <= rnd (2 * B2R (eps prec emax D 1)) <= 1) by (split; [apply (rnd_ge_0 prec emax H3 H70); lra|apply (rnd_le_fmt prec emax H3 H70); [apply (fmt_1 prec emax H3 H70)|lra]]).
  destruct (fsub_ok prec emax H3 H70 _ _ O1 G1) as (S1 & S2); [rewrite O2, G2; apply (inrange_0_1 prec emax H3 H70); lra|]. rewrite O2, G2 in S2. split; [exact S1|]. rewrite S2.
  set (g := rnd (2 * B2R (eps prec emax D 1))) in *.
  assert (RA : Rabs (rnd (1 - g) - (1 - g)) <= u) by (apply rnd_abs, Rabs_le; lra).
  split; [split; [apply (rnd_ge_0 prec emax H3 H70); lra|apply (rnd_le_fmt prec emax H3 H70); [apply (fmt_1 prec emax H3 H70)|lra]]|].
  apply Rabs_le_inv in RA. split; [|apply Rabs_le; lra].
  destruct M_cases as [C|[C|C]]; [lia|left|right].
  - unfold g. rewrite (E5 C). replace (2 * / 2) with 1 by field. rewrite (rnd_fmt prec emax H3 H70 1) by apply (fmt_1 prec emax H3 H70). rewrite Rminus_eq_0. apply (rnd_0 prec emax H3 H70).
  - assert (/ M <= / 3) by (apply Rinv_le_contravar; lra). lra.
Qed.
Lemma oo_val r : (0 <= r <= D)%Z -> exists w, B2R (uniformoo prec emax D r) = rnd (w + B2R (eps prec emax D 1)) /\ is_finite (uniformoo prec emax D r) = true /\ 0 <= w /\ Rabs (w - IZR (zval r) / M * (1 - 2 * / M)) <= 24 * u /\
  w = rnd (B2R (variate prec emax D 1 r []) * B2R (oo_norm prec emax D 1)) /\ 0 <= B2R (oo_norm prec emax D 1).
Proof.
  intros Hr. destruct oo_factor as (t & Et & T1 & T2 & T3 & T4). destruct (norm_near t T1 T2 T3) as (N1 & N2). destruct eps_near as (E1 & E2 & E3 & _).
  unfold uniformoo, u01_oo, oo_norm. rewrite Et. destruct (scaled_near r _ (B2R t) Hr N1 N2 T2 T3) as (F1 & E & A). destruct (W_ok r Hr) as (_ & _ & _ & W4 & _). pose proof M_range as MR. pose proof iM_range as IM. pose proof u_hi as U.
  assert (ZM : 0 <= IZR (zval r) / M <= 1). { unfold Rdiv. split; [apply Rmult_le_pos; lra|]. replace 1 with (M * / M) by (field; lra). apply Rmult_le_compat_r; lra. }
  assert (B : Rabs (IZR (zval r) / M * B2R t - IZR (zval r) / M * (1 - 2 * / M)) <= 12 * u).
  { rewrite <- Rmult_minus_distr_l, Rabs_mult, (Rabs_pos_eq (IZR (zval r) / M)) by lra. apply Rle_trans with (1 * Rabs (B2R t - (1 - 2 * / M))); [apply Rmult_le_compat_r; [apply Rabs_pos|lra]|lra]. }
  assert (ZT : 0 <= IZR (zval r) / M * B2R t <= 1). { split; [apply Rmult_le_pos; lra|]. replace 1 with (1 * 1) by ring. apply Rmult_le_compat; lra. }
  assert (N0 : 0 <= B2R (fmul prec emax (cc_norm prec emax D 1) t)). { destruct N2 as (L & _). apply Rle_trans with (2 := L). pose proof (au u U 7 ltac:(lra)). apply Rmult_le_pos; [apply Rmult_le_pos; lra|lra]. }
  assert (W0 : 0 <= B2R (fmul prec emax (variate prec emax D 1 r []) (fmul prec emax (cc_norm prec emax D 1) t))).
  { rewrite E. apply (rnd_ge_0 prec emax H3 H70). apply Rmult_le_pos; [destruct (W_mono r r ltac:(lia) ltac:(lia)); lra|exact N0]. }
  assert (R2 : inrange 4) by (change 4 with (bpow radix2 2); apply (inrange_bpow prec emax H3 H70); lia). pose proof (Rabs_le_inv _ _ A) as A'. pose proof (au u U 12 ltac:(lra)).
  destruct (fadd_ok prec emax H3 H70 _ _ F1 E1) as (G1 & G2); [apply (inrange_le prec emax H3 H70) with 4; [lra|exact R2]|].
  exists (B2R (fmul prec emax (variate prec emax D 1 r []) (fmul prec emax (cc_norm prec emax D 1) t))). split; [exact G2|]. split; [exact G1|]. split; [exact W0|]. split; [|split; [exact E|exact N0]].
  apply Rabs_le_inv in B. apply Rabs_le. lra.
Qed.
Lemma oo_mono r s : (0 <= r <= s)%Z -> (s <= D)%Z -> B2R (uniformoo prec emax D r) <= B2R (uniformoo prec emax D s).
Proof.
  intros Hr Hs. destruct (oo_val r ltac:(lia)) as (w & E & _ & _ & _ & Ew & N0). destruct (oo_val s ltac:(lia)) as (w' & E' & _ & _ & _ & Ew' & _). rewrite E, E'. apply (rnd_le prec emax H3 H70). apply Rplus_le_compat_r.
  rewrite Ew, Ew'. apply (rnd_le prec emax H3 H70). apply Rmult_le_compat_r; [exact N0|]. apply W_mono; assumption.
Qed.
Lemma oo_acc r : (0 <= r <= D)%Z -> Rabs (B2R (uniformoo prec emax D r) - (IZR r + 1) / (IZR D + 2)) <= 32 * u + 2 / (IZR D * IZR D).
Proof.
  intros Hr. destruct (oo_val r Hr) as (w & E & _ & W0 & A & _). destruct eps_near as (E1 & E2 & E3 & _). apply Rabs_le_inv in E2. pose proof u_hi as U. pose proof M_range as MR. pose proof iM_range as IM. pose proof shift_u as SU.
  destruct (W_ok r Hr) as (_ & _ & _ & W4 & _).
  assert (ZM : 0 <= IZR (zval r) / M <= 1). { unfold Rdiv. split; [apply Rmult_le_pos; lra|]. replace 1 with (M * / M) by (field; lra). apply Rmult_le_compat_r; lra. }
  assert (IM2 : / M <= / 2) by (apply Rinv_le_contravar; [lra|apply IZR_le; lia]).
  assert (ID : 0 <= IZR (zval r) / M * (1 - 2 * / M) + / M <= 1).
  { assert (0 <= IZR (zval r) / M * (1 - 2 * / M) <= 1 * (1 - 2 * / M)) by (split; [apply Rmult_le_pos; lra|apply Rmult_le_compat_r; lra]). lra. }
  apply Rabs_le_inv in A. rewrite E. set (e := B2R (eps prec emax D 1)) in *.
  assert (RA : Rabs (rnd (w + e) - (w + e)) <= 2 * u).
  { assert (S : w + e = 0 \/ / 2 ^ 100 <= w + e). { right. destruct (eps_ok prec emax Hf D 1 HD [] (one_call prec emax Hf D HD)) as (_ & Q). fold e in Q. pose proof u_lo. lra. }
    pose proof (rel (w + e) ltac:(lra) S) as RE. apply Rle_trans with (1 := RE). rewrite (Rmult_comm 2). apply Rmult_le_compat_l; [lra|]. pose proof (au u U 30 ltac:(lra)). lra. }
  apply Rabs_le_inv in RA.
  assert (D1 : 2 <= IZR D). { pose proof (domain_max_spec prec D 1 HD). apply IZR_le. lia. } assert (RD : 0 <= IZR r <= IZR D) by (split; apply IZR_le; lia).
  set (d := IZR D) in *. set (x := IZR r) in *. assert (DD : 0 < / d <= / 2) by (split; [apply Rinv_0_lt_compat; lra|apply Rinv_le_contravar; lra]).
  assert (XD : 0 <= x / d <= 1). { unfold Rdiv. split; [apply Rmult_le_pos; lra|]. replace 1 with (d * / d) by (field; lra). apply Rmult_le_compat_r; lra. }
  assert (P2 : 0 < 2 / (d * d)) by (apply Rdiv_lt_0_compat; [lra|apply Rmult_lt_0_compat; lra]).
  assert (IDL : Rabs (IZR (zval r) / M * (1 - 2 * / M) + / M - (x + 1) / (d + 2)) <= u + 2 / (d * d)).
  { destruct (zval_ratio r Hr) as [(Q1 & Q2)|(Q1 & Q2 & Q3)].
    - rewrite Q1, Q2. fold x d. replace (x / d * (1 - 2 * / d) + / d - (x + 1) / (d + 2)) with (2 / (d * d) * (1 - 2 * ((x + 1) / (d + 2)))) by (field; lra).
      rewrite Rabs_mult, (Rabs_pos_eq (2 / (d * d))) by lra. assert (Y : 0 <= (x + 1) / (d + 2) <= 1). { unfold Rdiv. assert (0 < / (d + 2)) by (apply Rinv_0_lt_compat; lra). split; [apply Rmult_le_pos; lra|]. apply Rle_trans with ((d + 2) * / (d + 2)); [apply Rmult_le_compat_r; lra|rewrite Rinv_r; lra]. }
      assert (Rabs (1 - 2 * ((x + 1) / (d + 2))) <= 1) by (apply Rabs_le; lra). apply Rle_trans with (2 / (d * d) * 1); [apply Rmult_le_compat_l; lra|lra].
    - fold x d in Q1, Q3. apply Rabs_le_inv in Q1.
      assert (Y : Rabs (x / d - (x + 1) / (d + 2)) <= / d).
      { replace (x / d - (x + 1) / (d + 2)) with ((2 * (x / d) - 1) * / (d + 2)) by (field; lra). rewrite Rabs_mult, (Rabs_pos_eq (/ (d + 2))) by (apply Rlt_le, Rinv_0_lt_compat; lra).
        assert (Rabs (2 * (x / d) - 1) <= 1) by (apply Rabs_le; lra). assert (0 < / (d + 2)) by (apply Rinv_0_lt_compat; lra). assert (/ (d + 2) <= / d) by (apply Rinv_le_contravar; lra).
        apply Rle_trans with (1 * / (d + 2)); [apply Rmult_le_compat_r; lra|lra]. }
      apply Rabs_le_inv in Y. assert (0 <= IZR (zval r) / M * (2 * / M) <= 1 * (2 * / M)) by (split; [apply Rmult_le_pos; lra|apply Rmult_le_compat_r; lra]). apply Rabs_le.
      rewrite Rmult_minus_distr_l, Rmult_1_r. lra. }
  apply Rabs_le_inv in IDL. apply Rabs_le. lra.
Qed.
End Range.
End Format.

(** ** Thresholds *)
Lemma nat_threshold (P : nat -> Prop) n : (forall i, (i < n)%nat -> {P i} + {~ P i}) -> (forall i j, (i <= j < n)%nat -> P j -> P i) -> exists k, (k <= n)%nat /\ forall i, (i < n)%nat -> P i <-> (i < k)%nat.
Proof.
  induction n as [|n IH]; intros dec mono; [exists O; split; [lia|intros i Hi; lia]|]. destruct (dec n (Nat.lt_succ_diag_r n)) as [Y|N].
  - exists (S n). split; [lia|]. intros i Hi. split; [lia|intros _]. apply (mono i n); [lia|exact Y].
  - destruct IH as (k & Hk & H); [intros i Hi; apply dec; lia|intros i j Hij; apply mono; lia|]. exists k. split; [lia|]. intros i Hi. destruct (Nat.eq_dec i n) as [->|Ni]; [split; [contradiction|lia]|apply H; lia].
Qed.
Lemma threshold (f : Z -> R) D t e : (1 <= D)%Z -> (forall r s, (0 <= r <= s)%Z -> (s <= D)%Z -> f r <= f s) -> 0 <= e ->
  (forall r, (0 <= r <= D)%Z -> Rabs (f r - IZR r / (IZR D + 1)) <= e) -> 0 <= t <= 1 ->
  exists k, (0 <= k <= D + 1)%Z /\ (forall r, (0 <= r <= D)%Z -> f r <= t <-> (r < k)%Z) /\ Rabs (IZR k / (IZR D + 1) - t) <= e + / (IZR D + 1).
Proof.
  intros HD mono He acc Ht.
  destruct (nat_threshold (fun i => f (Z.of_nat i) <= t) (Z.to_nat (D + 1))) as (k & Hk & H).
  - intros i _. destruct (Rle_dec (f (Z.of_nat i)) t); [left|right]; assumption.
  - intros i j Hij Hj. apply Rle_trans with (2 := Hj). apply mono; lia.
  - exists (Z.of_nat k). assert (D0 : 1 <= IZR D) by (apply IZR_le; lia). assert (I0 : 0 < / (IZR D + 1)) by (apply Rinv_0_lt_compat; lra).
    assert (HH : forall r, (0 <= r <= D)%Z -> f r <= t <-> (r < Z.of_nat k)%Z). { intros r Hr. rewrite <- (Z2Nat.id r) at 1 by lia. rewrite (H (Z.to_nat r) ltac:(lia)). lia. }
    split; [lia|]. split; [exact HH|]. apply Rabs_le. unfold Rdiv. split.
    + destruct (Z.eq_dec (Z.of_nat k) (D + 1)) as [E|N]; [rewrite E, plus_IZR, Rinv_r by lra; lra|].
      pose proof (acc (Z.of_nat k) ltac:(lia)) as A. apply Rabs_le_inv in A. unfold Rdiv in A. destruct (Rle_dec (f (Z.of_nat k)) t) as [C|C]; [apply (HH (Z.of_nat k)) in C; lia|]. lra.
    + destruct (Z.eq_dec (Z.of_nat k) 0) as [E|N]; [rewrite E, Rmult_0_l; lra|].
      pose proof (acc (Z.of_nat k - 1)%Z ltac:(lia)) as A. apply Rabs_le_inv in A. assert (C : f (Z.of_nat k - 1)%Z <= t) by (apply HH; lia). rewrite minus_IZR in A. unfold Rdiv in A. lra.
Qed.
