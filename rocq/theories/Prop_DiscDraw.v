(** C101: the discrete draws in double have the probabilities they should have. *)
From Coq Require Import ZArith Bool List Reals Lia Lra.
From Flocq Require Import Core IEEE754.BinarySingleNaN.
From Verif Require Import Base Spec FloatFacts UniformModel UniformProofs ArithModel DiscreteModel DiscreteProofs DiscreteReal Prop_Uniform Prop_Discrete Prop_UnifAcc.
From Verif Require Import Lcg64Model MinstdModel Prop_Lcg64 Prop_Minstd FloatDrawModel FloatDrawSpec FloatDrawProofs FloatDrawCore FloatDrawLaw FloatDrawLibm Prop_FloatDraw.
From Verif Require Import DiscDrawSpec DiscDrawProofs DiscDrawInt DiscDrawTree DiscDrawModel DiscDrawGeom.
Import ListNotations.
Local Open Scope R_scope.

(** ** Equally likely integers *)
Theorem C101_uniform_int : forall a b D, int_range a -> int_range b -> (a < b)%Z -> (b - a < 2 ^ 31)%Z -> (1 <= D < 2 ^ 64)%Z ->
  exists P, uniform_int_make a b = UIVal P /\ forall k, (a <= k < b)%Z ->
    probability (fun r => uniform_int_draw P D r = IntVal k) D (/ IZR (b - a)) (/ 2 ^ 46 + 4 / (IZR D + 1)).
Proof.
  intros a b D Ha Hb Hab Hd HD. destruct (C40_uniform_int a b Ha Hb Hab Hd) as (P & EP & _ & _ & R). exists P. split; [exact EP|]. intros k Hk.
  assert (PE : P = UniformInt a b (b - a)). { unfold uniform_int_make in EP. destruct (int_sub b a) eqn:E; [|discriminate EP]. injection EP as <-. unfold int_sub in E. destruct (_ && _)%bool; [injection E as <-; reflexivity|discriminate E]. }
  pose proof (count_value D (b - a) (fun r => Btrunc (fmul 53 1024 (of_int 53 1024 (b - a)) (uniformco 53 1024 D r))) (k - a) HD ltac:(lia) ltac:(lia)) as C.
  apply (prob_ext (fun r => Btrunc (fmul 53 1024 (of_int 53 1024 (b - a)) (uniformco 53 1024 D r)) = (k - a)%Z)); [|apply C; intros r Hr; eexists; split; [left; reflexivity|reflexivity]].
  intros r Hr. destruct (R D r HD Hr) as (z & Ez & Hz). rewrite Ez. subst P. revert Ez. unfold uniform_int_draw, int_bind, double_to_signed. cbn [ui_a ui_d].
  destruct (is_finite _); [|intros E; discriminate E]. cbv zeta. destruct (_ && _)%bool; [|intros E; discriminate E]. unfold int_add. destruct (_ && _)%bool; [|intros E; discriminate E]. intros E. injection E as E. split; [intros H; f_equal; lia|intros H; injection H; lia].
Qed.
(** long operator()(long n) of every engine *)
Theorem C101_bounded : forall n k D, (1 <= n < 2 ^ 63)%Z -> (0 <= k < n)%Z -> (1 <= D < 2 ^ 64)%Z ->
  probability (fun r => engine_bounded D r n = IntVal k) D (/ IZR n) (/ 2 ^ 46 + 4 / (IZR D + 1)).
Proof.
  intros n k D Hn Hk HD. pose proof (count_value D n (fun r => Btrunc (fmul 53 1024 (uniformco 53 1024 D r) (of_int 53 1024 n))) k HD ltac:(lia) Hk) as C.
  apply (prob_ext (fun r => Btrunc (fmul 53 1024 (uniformco 53 1024 D r) (of_int 53 1024 n)) = k)); [|apply C; intros r Hr; eexists; split; [right; reflexivity|reflexivity]].
  intros r Hr. destruct (C41_engine_bounded D r n HD Hr Hn) as (z & Ez & Hz). rewrite Ez. revert Ez. unfold engine_bounded, double_to_signed.
  destruct (is_finite _); [|intros E; discriminate E]. cbv zeta. destruct (_ && _)%bool; [|intros E; discriminate E]. intros E. injection E as E. split; [intros H; f_equal; lia|intros H; injection H; lia].
Qed.

(** ** Uniform numbers in an interval *)
Theorem C101_uniform_dist : forall (a b : double) D, location a -> location b -> bpow radix2 (-300) <= B2R b - B2R a -> (1 <= D < 2 ^ 64)%Z ->
  samples (uniform_draw a b D) D (F_uniform (B2R a) (B2R b)) (9 / 2 ^ 52 * (Rmax (Rabs (B2R a)) (Rabs (B2R b)) / (B2R b - B2R a)) + / 2 ^ 48 + 2 / (IZR D + 1)).
Proof.
  intros a b D (Fa & Ha) (Fb & Hb) Hab HD. pose proof q_pos as Q. set (M := Rmax (Rabs (B2R a)) (Rabs (B2R b))). set (w := B2R b - B2R a) in *.
  assert (B3 : bpow radix2 300 <= big) by (apply bpow_le; lia). assert (B0 : 0 < bpow radix2 (-300)) by apply bpow_gt_0. assert (BP : 0 < bpow radix2 300) by apply bpow_gt_0.
  pose proof (Rmax_l (Rabs (B2R a)) (Rabs (B2R b))) as M1. pose proof (Rmax_r (Rabs (B2R a)) (Rabs (B2R b))) as M2. fold M in M1, M2. assert (M3 : M <= bpow radix2 300) by (apply Rmax_lub; assumption).
  apply Rabs_le_inv in Ha. apply Rabs_le_inv in Hb. pose proof (Rabs_le_inv _ _ M1) as A1. pose proof (Rabs_le_inv _ _ M2) as A2. assert (W2 : 0 < w <= 2 * M) by (unfold w in *; lra).
  destruct (sub_ok b a Fb Fa) as (S1 & S2). { apply Rabs_le. unfold w in *. lra. }
  assert (S3 : Rabs (B2R (dsub b a) - w) <= q / 2 * w). { rewrite S2. pose proof (rnd_plus (B2R b) (- B2R a) (fmt_B2R 53 1024 H3_64 H70_64 b) (generic_format_opp _ _ _ (fmt_B2R 53 1024 H3_64 H70_64 a))) as R. change (B2R b + - B2R a) with w in R. change (B2R b - B2R a) with w. rewrite (Rabs_pos_eq w) in R by lra. exact R. }
  apply Rabs_le_inv in S3. assert (QW : 0 <= q * w <= / 1000000000000000 * w) by (split; [apply Rmult_le_pos; lra|apply Rmult_le_compat_r; lra]).
  assert (TI : tiny <= q / 4 * w). { unfold tiny. apply Rle_trans with (q / 4 * bpow radix2 (-300)); [|apply Rmult_le_compat_l; lra]. replace (q / 4) with (bpow radix2 (-54)) by (unfold q; cbn; lra). rewrite <- bpow_plus. apply bpow_le. lia. }
  assert (QM : q * w <= 2 * (q * M)) by (replace (2 * (q * M)) with (q * (2 * M)) by ring; apply Rmult_le_compat_l; lra).
  assert (QM1 : q * M <= / 1000000000000000 * M) by (apply Rmult_le_compat_r; lra).
  assert (K : forall r, (0 <= r <= D)%Z -> B2R a <= B2R (uniform_draw a b D r) <= B2R b /\ Rabs (B2R (uniform_draw a b D r) - (B2R a + w * B2R (uniformco 53 1024 D r))) <= 9 * (q * M)).
  { intros r Hr. destruct (C53_closed_interval a b D r HD Hr Fa Fb S1 ltac:(unfold w in *; lra)) as (D1 & D2). split; [exact D2|].
    destruct (co_ok D HD r Hr) as (U1 & U2 & _). set (U := uniformco 53 1024 D r) in *. set (d := dsub b a) in *.
    assert (P0 : 0 <= B2R d * B2R U <= B2R d). { split; [apply Rmult_le_pos; lra|]. rewrite <- (Rmult_1_r (B2R d)) at 2. apply Rmult_le_compat_l; lra. }
    destruct (mul_ok d U S1 U1) as (P1 & P2); [rewrite Rabs_pos_eq by lra; lra|].
    pose proof (rnd_err (B2R d * B2R U)) as R. rewrite <- P2, (Rabs_pos_eq (B2R d * B2R U)) in R by lra. apply Rabs_le_inv in R. assert (R1 : q / 2 * (B2R d * B2R U) <= q / 2 * (2 * w)) by (apply Rmult_le_compat_l; lra).
    assert (R2 : Rabs (B2R d * B2R U - w * B2R U) <= q / 2 * w). { rewrite <- Rmult_minus_distr_r, Rabs_mult, (Rabs_pos_eq (B2R U)) by lra. rewrite <- (Rmult_1_r (q / 2 * w)). apply Rmult_le_compat; [apply Rabs_pos|lra|apply Rabs_le; lra|lra]. } apply Rabs_le_inv in R2.
    assert (WU : 0 <= w * B2R U <= w). { split; [apply Rmult_le_pos; lra|]. rewrite <- (Rmult_1_r w) at 2. apply Rmult_le_compat_l; lra. }
    assert (Y : Rabs (B2R (dmul d U) + B2R a) <= 3 / 2 * M) by (unfold w in *; apply Rabs_le; lra).
    destruct (add_ok (dmul d U) a P1 Fa) as (_ & Z2); [lra|]. change (dadd (dmul d U) a) with (uniform_draw a b D r) in Z2. rewrite Z2.
    pose proof (rnd_plus _ _ (fmt_B2R 53 1024 H3_64 H70_64 (dmul d U)) (fmt_B2R 53 1024 H3_64 H70_64 a)) as Z. assert (Z' : q / 2 * Rabs (B2R (dmul d U) + B2R a) <= q / 2 * (3 / 2 * M)) by (apply Rmult_le_compat_l; lra). apply Rabs_le_inv in Z. apply Rabs_le. lra. }
  intros t. set (E := 9 / 2 ^ 52 * (M / w)). set (T := F_uniform (B2R a) (B2R b) t).
  assert (EW : E * w = 9 * (q * M)) by (unfold E, q; field; lra). assert (E0 : 0 <= E). { unfold E. apply Rmult_le_pos; [lra|]. apply Rmult_le_pos; [lra|]. left. apply Rinv_0_lt_compat. lra. }
  assert (TT : 0 <= T <= 1 /\ (B2R a <= t <= B2R b -> T * w = t - B2R a) /\ (t < B2R a -> T = 0) /\ (B2R b < t -> T = 1)).
  { unfold T, F_uniform. fold w. destruct (Rle_dec t (B2R a)) as [C|C]; [|destruct (Rle_dec (B2R b) t) as [G|G]].
    - repeat split; try lra. unfold w in *. intros. lra.
    - repeat split; try lra; unfold w in *; intros; lra.
    - assert (H : (t - B2R a) / w * w = t - B2R a) by (field; lra). split; [|repeat split; try lra].
      split; apply Rmult_le_reg_r with w; try lra; rewrite H; unfold w in *; lra. }
  destruct TT as (T0 & T1 & T2 & T3).
  pose proof (count_co D HD (fun r => if Rle_dec (B2R (uniform_draw a b D r)) t then true else false) T E E0 T0) as C.
  assert (G : probability (fun r => B2R (uniform_draw a b D r) <= t) D T (E + / 2 ^ 48 + 2 / (IZR D + 1))); [|exact G].
  apply (prob_ext (fun r => (if Rle_dec (B2R (uniform_draw a b D r)) t then true else false) = true)); [intros r _; destruct (Rle_dec _ t); split; intros; try assumption; try reflexivity; try discriminate; contradiction|].
  apply C.
  - intros r Hr H. destruct (Rle_dec _ t) as [Y|Y]; [|discriminate H]. destruct (K r Hr) as (K1 & K2). apply Rabs_le_inv in K2. destruct (co_ok D HD r Hr) as (_ & U2 & _). destruct (Rle_dec t (B2R b)) as [B|B]; [|rewrite T3 by lra; lra].
    specialize (T1 ltac:(lra)). apply Rmult_le_reg_r with w; [lra|]. rewrite Rmult_plus_distr_r. lra.
  - intros r Hr H. destruct (Rle_dec _ t) as [Y|Y]; [discriminate H|]. destruct (K r Hr) as (K1 & K2). apply Rabs_le_inv in K2. destruct (co_ok D HD r Hr) as (_ & U2 & _). destruct (Rle_dec (B2R a) t) as [B|B]; [|rewrite T2 by lra; lra].
    specialize (T1 ltac:(lra)). apply Rmult_le_reg_r with w; [lra|]. rewrite Rmult_minus_distr_r. lra.
Qed.

(** ** bernoulli_dist *)
Theorem C101_bernoulli : forall (p : double) (h t D : Z), is_finite p = true -> 0 <= B2R p <= 1 -> h <> t -> (1 <= D < 2 ^ 64)%Z ->
  probability (fun r => bernoulli_draw double_arith (Bernoulli (A := double_arith) p h t) (uniformco 53 1024 D r) = h) D (B2R p) (/ 2 ^ 48 + 2 / (IZR D + 1)).
Proof.
  intros p h t D Fp Hp Hht HD. set (b := Bernoulli (A := double_arith) p h t).
  assert (E : forall r, (0 <= r <= D)%Z -> (bernoulli_draw double_arith b (uniformco 53 1024 D r) = h <-> B2R (uniformco 53 1024 D r) < B2R p)).
  { intros r Hr. destruct (co_ok D HD r Hr) as (U1 & _). destruct (C56_draw b (uniformco 53 1024 D r) U1 Fp) as (A & _). unfold b in A at 2 3 4. cbn [bn_head bn_tail bn_p] in A. rewrite A. split; [intros [C|C]; [contradiction|exact C]|auto]. }
  apply (prob_ext (fun r => (if Rlt_dec (B2R (uniformco 53 1024 D r)) (B2R p) then true else false) = true)); [intros r Hr; rewrite (E r Hr); destruct (Rlt_dec _ _); split; intros; try assumption; try reflexivity; try discriminate; contradiction|].
  replace (/ 2 ^ 48 + 2 / (IZR D + 1)) with (0 + / 2 ^ 48 + 2 / (IZR D + 1)) by ring. apply count_co; [exact HD|lra|exact Hp| |].
  - intros r Hr H. destruct (Rlt_dec _ _) as [C|C]; [lra|discriminate H].
  - intros r Hr H. destruct (Rlt_dec _ _) as [C|C]; [discriminate H|lra].
Qed.

(** ** Tables of distribution functions (binomial_dist, hypergeometric_dist; the table of poisson_dist
    and its relatives) *)
Lemma table_below (c : list double) (x : double) k : List.Forall (fun y => is_finite y = true) c -> is_finite x = true -> c <> [] -> ascending (map B2R c) -> B2R x <= nth (length c - 1) (map B2R c) 0 -> (k < length c)%nat ->
  exists j, discrete double_arith x c = Some j /\ (j < length c)%nat /\ ((j <= k)%nat -> B2R x <= nth k (map B2R c) 0) /\ ((k < j)%nat -> nth k (map B2R c) 0 <= B2R x).
Proof.
  intros HF Fx Hc As Hl Hk. destruct (C42_doubles c x HF Fx Hc As Hl) as (j & Ej & J1 & J2 & J3 & J4). rewrite map_length in J1. exists j. split; [exact Ej|]. split; [exact J1|]. split.
  - intros H. apply Rle_trans with (1 := J2). apply As. rewrite map_length. lia.
  - intros H. destruct (Rlt_le_dec (B2R x) (nth 0 (map B2R c) 0)) as [C|C]; [specialize (J3 C); lia|]. destruct (J4 C) as (J5 & J6). rewrite map_length in *. destruct k as [|k]; [exact C|]. left. apply J6. split; [apply Nat.le_trans with 1%nat; [apply Nat.le_min_l|lia]|exact H].
Qed.
Theorem C101_table : forall (c : list double) (D : Z) (k : nat), c <> [] -> List.Forall (fun y => is_finite y = true /\ 0 <= B2R y) c -> ascending (map B2R c) -> nth (length c - 1) (map B2R c) 0 = 1 ->
  (k < length c)%nat -> library_range D ->
  probability (fun r => exists j, discrete double_arith (uniformoo 53 1024 D r) c = Some j /\ (j <= k)%nat) D (nth k (map B2R c) 0) (/ 2 ^ 48 + 3 / (IZR D + 1)) /\
  probability (fun r => exists j, discrete double_arith (uniformco 53 1024 D r) c = Some j /\ (j <= k)%nat) D (nth k (map B2R c) 0) (/ 2 ^ 48 + 2 / (IZR D + 1)).
Proof.
  intros c D k Hc HF As HL Hk HD. pose proof (lib4 D HD) as D4. assert (D1 : 4 <= IZR D) by (apply IZR_le; lia). assert (ID : 0 < / (IZR D + 1)) by (apply Rinv_0_lt_compat; lra).
  assert (HF' : List.Forall (fun y : double => is_finite y = true) c) by (apply Forall_impl with (2 := HF); intros y (A & _); exact A).
  assert (CK : 0 <= nth k (map B2R c) 0 <= 1).
  { split; [|rewrite <- HL; apply As; rewrite map_length; lia]. rewrite Forall_forall in HF. destruct (nth_error c k) as [y|] eqn:E; [|apply nth_error_None in E; lia]. rewrite (nth_error_nth _ _ _ (map_nth_error B2R _ _ E)). apply (HF y). now apply nth_error_In with k. }
  set (P := fun (u : double) => match discrete double_arith u c with Some j => (j <=? k)%nat | None => false end).
  assert (EP : forall u, P u = true <-> exists j, discrete double_arith u c = Some j /\ (j <= k)%nat).
  { intros u. unfold P. destruct (discrete double_arith u c) as [j|]; split.
    - intros H. exists j. split; [reflexivity|apply Nat.leb_le, H].
    - intros (i & E & H). injection E as ->. apply Nat.leb_le, H.
    - intros H. discriminate H.
    - intros (i & E & _). discriminate E. }
  assert (PT : forall u : double, is_finite u = true -> 0 <= B2R u <= 1 -> (P u = true -> B2R u <= nth k (map B2R c) 0) /\ (P u = false -> nth k (map B2R c) 0 <= B2R u)).
  { intros u Fu Hu. destruct (table_below c u k HF' Fu Hc As ltac:(rewrite HL; lra) Hk) as (j & E & J1 & J2 & J3). unfold P. rewrite E. split; intros H; [apply J2, Nat.leb_le, H|apply J3; apply Nat.leb_gt, H]. }
  split.
  - apply (prob_ext (fun r => P (uniformoo 53 1024 D r) = true)); [intros r _; apply EP|].
    apply (prob_weaken _ D (nth k (map B2R c) 0) _ ((/ 2 ^ 48 + 2 / (IZR D + 1)) + / (IZR D + 1))); [rewrite (Rminus_diag_eq _ _ eq_refl), Rabs_R0; lra|].
    assert (0 < 2 / (IZR D + 1)) by (apply Rdiv_lt_0_compat; lra). pose proof q_pos as Q.
    apply count_pred; [lia|lra|exact CK| |]; intros r Hr H0; destruct (oo_in D r HD Hr) as (F & B); destruct (PT _ F ltac:(lra)) as (G1 & G2); pose proof (proj1 (oo_position D D4 r Hr)) as O; apply Rabs_le_inv in O; [specialize (G1 H0)|specialize (G2 H0)]; lra.
  - assert (HD1 : (1 <= D < 2 ^ 64)%Z) by lia. apply (prob_ext (fun r => P (uniformco 53 1024 D r) = true)); [intros r _; apply EP|]. pose proof q_pos as Q.
    replace (/ 2 ^ 48 + 2 / (IZR D + 1)) with (0 + / 2 ^ 48 + 2 / (IZR D + 1)) by ring. apply count_co; [exact HD1|lra|exact CK| |]; intros r Hr H0; destruct (co_ok D HD1 r Hr) as (F & B & _); destruct (PT _ F ltac:(lra)) as (G1 & G2); [specialize (G1 H0)|specialize (G2 H0)]; lra.
Qed.

(** ** geometric_dist *)
Theorem C101_geometric : forall L (p : double) (D k : Z), accurate L -> is_finite p = true -> / 2 ^ 25 <= B2R p < 1 -> library_range D -> (0 <= k)%Z ->
  (forall r, (0 <= r <= D)%Z -> exists z, geometric_fdraw L p D r = IntVal z /\ (0 <= z < 2 ^ 31)%Z) /\
  probability (fun r => geometric_fdraw L p D r = IntVal k) D (B2R p * (1 - B2R p) ^ Z.to_nat k) (/ 2 ^ 45 / B2R p + 6 / (IZR D + 1)).
Proof.
  intros L p D k HL Fp Hp HD Hk. pose proof (lib4 D HD) as D4. split.
  - intros r Hr. destruct (gdraw_ok L HL p Fp Hp D HD r Hr) as (A & B & _). exists (gdraw L p D r). split; assumption.
  - pose proof (geom_tail L HL p Fp Hp D HD k Hk) as A. pose proof (geom_tail L HL p Fp Hp D HD (k + 1) ltac:(lia)) as B.
    pose proof (prob_diff _ _ D _ _ _ _ ltac:(lia) (fun r _ (H : (k + 1 <= gdraw L p D r)%Z) => (ltac:(lia) : (k <= gdraw L p D r)%Z)) B A) as C.
    apply (prob_ext _ (fun r => geometric_fdraw L p D r = IntVal k)) in C.
    2: { intros r Hr. destruct (gdraw_ok L HL p Fp Hp D HD r Hr) as (E & _). rewrite E. split; [intros H; f_equal; lia|intros H; injection H; lia]. }
    revert C. apply prob_weaken. replace (Z.to_nat (k + 1)) with (S (Z.to_nat k)) by lia. cbn [pow].
    replace ((1 - B2R p) ^ Z.to_nat k - (1 - B2R p) * (1 - B2R p) ^ Z.to_nat k - B2R p * (1 - B2R p) ^ Z.to_nat k) with 0 by ring. rewrite Rabs_R0.
    assert (IP : 1 <= / B2R p) by (rewrite <- Rinv_1; apply Rinv_le_contravar; lra). unfold Rdiv, q. lra.
Qed.

(** ** discrete_dist *)
Theorem C101_discrete : forall (w : list double) D, (1 <= Z.of_nat (length w) < 2 ^ 31)%Z -> List.Forall (fun x => is_finite x = true /\ 0 <= B2R x) w ->
  bpow radix2 (-900) <= whole (map B2R w) <= bpow radix2 1000 -> (1 <= D < 2 ^ 64)%Z ->
  exists d, ddist_make double_arith w = Some d /\
    (forall k, (k < length w)%nat -> probability (fun r => ddist_draw double_arith d (uniformco 53 1024 D r) = Some (Z.of_nat k)) D (nth k (map B2R w) 0 / whole (map B2R w)) (/ 2 ^ 42 + 4 / (IZR D + 1))) /\
    probability (fun r => exists k, (k < length w)%nat /\ ddist_draw double_arith d (uniformco 53 1024 D r) = Some (Z.of_nat k)) D 1 (/ 2 ^ 43 + 2 / (IZR D + 1)).
Proof.
  intros w D HN HF HW HD. destruct (ddist_make_ok double_arith w) as (d & Ed & HT); [change (num double_arith) with double; lia|]. exists d. split; [exact Ed|].
  set (rw := map B2R w) in *. assert (LE : length rw = length w) by apply map_length.
  assert (WE : whole rw = prefix rw (length rw)) by (unfold whole, prefix; rewrite firstn_all; reflexivity). rewrite WE in *. set (W := prefix rw (length rw)) in *. pose proof q_pos as Q.
  assert (WP : 0 < W) by (pose proof (bpow_gt_0 radix2 (-900)); lra).
  assert (PK := draw_ok w d HT HF HN HW). fold rw in PK. fold W in PK.
  set (below := fun (k : nat) (u : double) => match ddist_draw double_arith d u with Some z => (z <? Z.of_nat k)%Z | None => false end).
  assert (RP : List.Forall (fun x => 0 <= x) rw) by (apply (rw_pos w HF)).
  assert (CUM : forall k, (k <= length w)%nat -> probability (fun r => below k (uniformco 53 1024 D r) = true) D (prefix rw k / W) (/ 2 ^ 43 + 2 / (IZR D + 1))).
  { intros k Hk. assert (P01 : 0 <= prefix rw k <= W) by (split; [rewrite <- (prefix_0 rw)|unfold W]; apply prefix_mono; try exact RP; lia).
    assert (TW : prefix rw k / W * W = prefix rw k) by (field; lra).
    apply (prob_weaken _ D (prefix rw k / W) _ (300 * q + / 2 ^ 48 + 2 / (IZR D + 1))); [rewrite (Rminus_diag_eq _ _ eq_refl), Rabs_R0; unfold q; lra|].
    apply count_co; [exact HD|lra|split; apply Rmult_le_reg_r with W; lra| |]; intros r Hr H; destruct (co_ok D HD r Hr) as (U1 & U2 & _); set (U := uniformco 53 1024 D r) in *; apply Rmult_le_reg_r with W; try exact WP; rewrite ?Rmult_plus_distr_r, ?Rmult_minus_distr_r, TW;
      unfold below in H; destruct (PK U U1 ltac:(lra)) as [(j & J1 & J2 & J3)|([J|(j & J1 & J2)] & J3)]; unfold draws in *.
    - rewrite J1 in H. apply Z.ltb_lt in H. assert (prefix rw (S j) <= prefix rw k) by (apply prefix_mono; [exact RP|lia]). lra.
    - rewrite J in H. discriminate H.
    - rewrite J1 in H. apply Z.ltb_lt in H. lia.
    - rewrite J1 in H. apply Z.ltb_ge in H. assert (prefix rw k <= prefix rw j) by (apply prefix_mono; [exact RP|lia]). lra.
    - lra.
    - lra. }
  assert (BK : forall k u z, below k u = true -> ddist_draw double_arith d u = Some z -> (z < Z.of_nat k)%Z) by (intros k u z H E; unfold below in H; rewrite E in H; apply Z.ltb_lt, H).
  split.
  - intros k Hk. pose proof (CUM k ltac:(lia)) as A. pose proof (CUM (S k) ltac:(lia)) as B.
    assert (I : forall r, (0 <= r <= D)%Z -> below k (uniformco 53 1024 D r) = true -> below (S k) (uniformco 53 1024 D r) = true).
    { intros r _. unfold below. destruct (ddist_draw double_arith d _); [|auto]. intros H. apply Z.ltb_lt. apply Z.ltb_lt in H. lia. }
    pose proof (prob_diff _ _ D _ _ _ _ ltac:(lia) I A B) as C.
    apply (prob_ext _ (fun r => ddist_draw double_arith d (uniformco 53 1024 D r) = Some (Z.of_nat k))) in C.
    2: { intros r Hr. unfold below. destruct (ddist_draw double_arith d (uniformco 53 1024 D r)) as [z|]; split.
      - intros (X & Y). apply Z.ltb_lt in X. f_equal. destruct (Z.ltb_spec z (Z.of_nat k)); [exfalso; apply Y; reflexivity|lia].
      - intros E. injection E as ->. split; [apply Z.ltb_lt; lia|]. rewrite Z.ltb_irrefl. discriminate.
      - intros (X & _). discriminate X.
      - intros E. discriminate E. }
    revert C. apply prob_weaken. rewrite prefix_S. replace ((prefix rw k + nth k rw 0) / W - prefix rw k / W - nth k rw 0 / W) with 0 by (field; lra). rewrite Rabs_R0. lra.
  - pose proof (CUM (length w) ltac:(lia)) as A. replace (prefix rw (length w) / W) with 1 in A by (rewrite <- LE; fold W; field; lra). revert A. apply prob_ext. intros r Hr. split.
    + intros H. destruct (co_ok D HD r Hr) as (U1 & U2 & _). destruct (PK _ U1 ltac:(lra)) as [(j & J1 & J2 & J3)|([J|(j & J1 & J2)] & J3)]; unfold draws in *.
      * exists j. auto.
      * unfold below in H. rewrite J in H. discriminate H.
      * pose proof (BK _ _ _ H J1). lia.
    + intros (k & K1 & K2). unfold below. rewrite K2. apply Z.ltb_lt. lia.
Qed.

(** ** Over a period *)
(** the positions of a period where an event happens *)
Definition occurs {E} (next : E -> Z * E) (g : E) (lo n : Z) (A : Z -> Prop) (l : list nat) : Prop :=
  NoDup l /\ forall i, In i l <-> (i < Z.to_nat n)%nat /\ A (draw next g i - lo)%Z.
Theorem C101_period : forall E (next : E -> Z * E) g lo D A p e, (1 <= D)%Z -> full_cycle_stream next g lo (lo + D + 1) -> probability A D p e ->
  exists l, occurs next g lo (D + 1) A l /\ Rabs (INR (length l) / (IZR D + 1) - p) <= e.
Proof.
  intros E next g lo D A p e HD (C1 & C2 & _) (l & L1 & L2 & L3). replace (lo + D + 1 - lo)%Z with (D + 1)%Z in C2 by lia.
  destruct (choose (fun i => (draw next g i - lo)%Z) (Z.to_nat (D + 1))) with (l := l) as (l' & K1 & K2 & K3).
  - intros v Hv. destruct (C2 (v + lo)%Z ltac:(lia)) as (j & (J1 & J2) & U). exists j. split; [split; [exact J1|lia]|]. intros i (I1 & I2). apply U. split; [exact I1|lia].
  - exact L1.
  - intros v Hv. apply L2 in Hv. lia.
  - exists l'. split; [|rewrite K2; exact L3]. split; [exact K1|]. intros i. rewrite K3, L2. specialize (C1 i). split; intros (X & B); [destruct B as (_ & B)|]; repeat split; try assumption; lia.
Qed.
(** a die thrown with lcg64 and with minstd *)
Theorem C101_engines : forall k, (1 <= k < 7)%Z -> exists P, uniform_int_make 1 7 = UIVal P /\
  (forall a b r, In (a, b) lcg64_params -> word 64 r -> exists l, occurs lcg64_next (Lcg64 a b r) 0 (2 ^ 64) (fun x => uniform_int_draw P (2 ^ 64 - 1) x = IntVal k) l /\ Rabs (INR (length l) / 2 ^ 64 - / 6) <= / 2 ^ 45) /\
  (forall r, (1 <= r <= 2147483646)%Z -> exists l, occurs minstd_next r 1 2147483646 (fun x => uniform_int_draw P 2147483645 x = IntVal k) l /\ Rabs (INR (length l) / 2147483646 - / 6) <= / 2 ^ 28).
Proof.
  intros k Hk. assert (R1 : int_range 1) by (unfold int_range; lia). assert (R7 : int_range 7) by (unfold int_range; lia).
  destruct (C101_uniform_int 1 7 (2 ^ 64 - 1) R1 R7 ltac:(lia) ltac:(lia) ltac:(lia)) as (P & EP & H). destruct (C101_uniform_int 1 7 2147483645 R1 R7 ltac:(lia) ltac:(lia) ltac:(lia)) as (P' & EP' & H'). rewrite EP in EP'. injection EP' as <-.
  exists P. split; [exact EP|]. specialize (H k Hk). specialize (H' k Hk). change (7 - 1)%Z with 6%Z in H, H'. split.
  - intros a b r Hin Hr. destruct (C101_period _ lcg64_next (Lcg64 a b r) 0 (2 ^ 64 - 1) _ _ _ ltac:(lia) (C04_lcg64_predefined a b r Hin Hr) H) as (l & L1 & L2).
    exists l. split; [exact L1|]. replace (IZR (2 ^ 64 - 1) + 1) with (2 ^ 64) in L2 by (change (2 ^ 64 - 1)%Z with 18446744073709551615%Z; lra). lra.
  - intros r Hr. destruct (C101_period _ minstd_next r 1 2147483645 _ _ _ ltac:(lia) (C11_minstd_full_period r ltac:(lia)) H') as (l & L1 & L2).
    exists l. split; [exact L1|]. replace (2147483645 + 1) with 2147483646 in L2 by lra. lra.
Qed.

(** parameters that meet the hypotheses *)
Example C101_example : let w := [dbl 1 (-1); dbl 0 0; dbl 3 0] in
  (exists L, accurate L) /\ is_finite (dbl 1 (-10)) = true /\ / 2 ^ 25 <= B2R (dbl 1 (-10)) < 1 /\ List.Forall (fun x => is_finite x = true /\ 0 <= B2R x) w /\ whole (map B2R w) = 7 / 2 /\
  bpow radix2 (-900) <= whole (map B2R w) <= bpow radix2 1000 /\
  option_map (fun d => map (fun r => ddist_draw double_arith d (uniformco 53 1024 (2 ^ 64 - 1) r)) [0; 2 ^ 61; 2 ^ 62; 2 ^ 64 - 1]%Z) (ddist_make double_arith w) = Some [Some 0; Some 0; Some 2; Some 2]%Z /\
  library_range (2 ^ 64 - 1).
Proof.
  cbv zeta. split; [exists rounded_libm; exact rounded_accurate|]. split; [reflexivity|].
  assert (E1 : B2R (dbl 1 (-10)) = / 1024) by (rewrite <- SF2R_B2SF; replace (B2SF (dbl 1 (-10))) with (SpecFloat.S754_finite false 4503599627370496 (-62)) by (vm_compute; reflexivity); unfold SF2R, F2R; cbn; lra).
  assert (E2 : B2R (dbl 1 (-1)) = / 2) by (rewrite <- SF2R_B2SF; replace (B2SF (dbl 1 (-1))) with (SpecFloat.S754_finite false 4503599627370496 (-53)) by (vm_compute; reflexivity); unfold SF2R, F2R; cbn; lra).
  assert (E3 : B2R (dbl 3 0) = 3) by (rewrite <- SF2R_B2SF; replace (B2SF (dbl 3 0)) with (SpecFloat.S754_finite false 6755399441055744 (-51)) by (vm_compute; reflexivity); unfold SF2R, F2R; cbn; lra).
  assert (E4 : B2R (dbl 0 0) = 0) by reflexivity.
  split; [rewrite E1; lra|]. split; [repeat constructor; try reflexivity; rewrite ?E2, ?E3, ?E4; lra|].
  assert (WE : whole (map B2R [dbl 1 (-1); dbl 0 0; dbl 3 0]) = 7 / 2) by (unfold whole; cbn [map fold_right]; rewrite E2, E3, E4; lra).
  split; [exact WE|]. rewrite WE. split; [split; [apply Rle_trans with (bpow radix2 0); [apply bpow_le; lia|cbn; lra]|apply Rle_trans with (bpow radix2 2); [cbn; lra|apply bpow_le; lia]]|].
  split; [vm_compute; reflexivity|]. left. reflexivity.
Qed.

Print Assumptions C101_uniform_int.
Print Assumptions C101_bounded.
Print Assumptions C101_uniform_dist.
Print Assumptions C101_bernoulli.
Print Assumptions C101_table.
Print Assumptions C101_geometric.
Print Assumptions C101_discrete.
Print Assumptions C101_period.
Print Assumptions C101_engines.
