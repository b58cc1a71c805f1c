(** C39, C40, C41, C53: canonical uniform variates, bounded integers and
    uniform_dist in IEEE double and float arithmetic. *)
From Coq Require Import ZArith Bool List Reals Lia Lra.
From Flocq Require Import Core IEEE754.BinarySingleNaN.
From Verif Require Import FloatFacts UniformModel UniformProofs.
Import ListNotations.
Open Scope Z_scope.

(** The values of max() - min() that occur in the library. *)
Definition library_range (D : Z) : Prop :=
  In D [2 ^ 64 - 1;     (* lcg64*, count128*, mt19937_64, xoshiro256plus, lagfib with 64 bits *)
        2 ^ 32 - 1;     (* mt19937, lagfib with 32 bits *)
        2147483646;     (* mrg2, mrg3, mrg4, mrg5, yarn2, yarn3, yarn4, yarn5 *)
        2147483645;     (* minstd *)
        2147462578;     (* mrg3s, yarn3s *)
        2147461006].    (* mrg5s, yarn5s *)

Lemma library_range_64 D : library_range D -> 1 <= D < 2 ^ 64.
Proof. intros H. repeat (destruct H as [<-|H]; [lia|]). destruct H. Qed.

(** A finite floating-point number whose value satisfies [P]. *)
Definition float_in {p e : Z} (P : R -> Prop) (x : binary_float p e) : Prop :=
  is_finite x = true /\ P (B2R x).

(** ** C39 *)

(** uniformco: any range below 2^64, double and float. *)
Theorem C39_uniformco : forall D r, 1 <= D < 2 ^ 64 -> 0 <= r <= D ->
  float_in (fun v => 0 <= v < 1)%R (uniformco 53 1024 D r) /\
  float_in (fun v => 0 <= v < 1)%R (uniformco 24 128 D r).
Proof.
  intros D r HD Hr. split.
  - exact (uniformco_lt_1 53 1024 fmt53 D r HD Hr).
  - exact (uniformco_lt_1 24 128 fmt24 D r HD Hr).
Qed.

Theorem C39_uniformoc : forall D r, 1 <= D < 2 ^ 64 -> 0 <= r <= D ->
  float_in (fun v => 0 < v <= 1)%R (uniformoc 53 1024 D r) /\
  float_in (fun v => 0 < v <= 1)%R (uniformoc 24 128 D r).
Proof.
  intros D r HD Hr. split.
  - exact (uniformoc_ok 53 1024 fmt53 D r HD Hr).
  - exact (uniformoc_ok 24 128 fmt24 D r HD Hr).
Qed.

Theorem C39_uniformcc : forall D r, 1 <= D < 2 ^ 64 -> 0 <= r <= D ->
  float_in (fun v => 0 <= v <= 1)%R (uniformcc 53 1024 D r) /\
  float_in (fun v => 0 <= v <= 1)%R (uniformcc 24 128 D r).
Proof.
  intros D r HD Hr. split.
  - exact (uniformcc_ok 53 1024 fmt53 D r HD Hr).
  - exact (uniformcc_ok 24 128 fmt24 D r HD Hr).
Qed.

(** uniformoo: every engine of the library. *)
Theorem C39_uniformoo : forall D r, library_range D -> 0 <= r <= D ->
  float_in (fun v => 0 < v < 1)%R (uniformoo 53 1024 D r) /\
  float_in (fun v => 0 < v < 1)%R (uniformoo 24 128 D r).
Proof.
  intros D r HL Hr. pose proof (library_range_64 D HL) as HD.
  assert (C : oo_check 53 1024 D && oo_check 24 128 D = true).
  { clear HD Hr. repeat (destruct HL as [<-|HL]; [vm_compute; reflexivity|]). destruct HL. }
  apply andb_true_iff in C. destruct C as (C1 & C2). split.
  - exact (uniformoo_ok 53 1024 fmt53 D r HD Hr C1).
  - exact (uniformoo_ok 24 128 fmt24 D r HD Hr C2).
Qed.

(** utility::generate_canonical<double or float, bits>: any number of requested
    bits, the values [r :: rs] of as many calls as the template makes. *)
Theorem C39_generate_canonical : forall D req r rs, 1 <= D < 2 ^ 64 ->
  Forall (fun r => 0 <= r <= D) (r :: rs) ->
  (Z.of_nat (length (r :: rs)) = calls_needed 53 D req ->
   float_in (fun v => 0 <= v < 1)%R (u01_co 53 1024 D req r rs)) /\
  (Z.of_nat (length (r :: rs)) = calls_needed 24 D req ->
   float_in (fun v => 0 <= v < 1)%R (u01_co 24 128 D req r rs)).
Proof.
  intros D req r rs HD HF. inversion HF as [|? ? Hr Hrs]; subst. split; intros HL.
  - destruct (co_ok 53 1024 fmt53 D req HD r rs Hr Hrs HL) as (A & B). split; [exact A|].
    pose proof (u_gt_0 53) as U. lra.
  - destruct (co_ok 24 128 fmt24 D req HD r rs Hr Hrs HL) as (A & B). split; [exact A|].
    pose proof (u_gt_0 24) as U. lra.
Qed.

(** 53 bits from a 31-bit engine take two calls. *)
Example C39_generate_canonical_example :
  calls_needed 53 2147483646 53 = 2 /\
  B2SF (u01_co 53 1024 2147483646 53 2147483646 [2147483646]) = SpecFloat.S754_finite false 9007199254740990 (-53).
Proof. vm_compute. auto. Qed.

Example C39_example :
  (* largest output of a 64-bit engine *)
  B2SF (uniformco 53 1024 (2 ^ 64 - 1) (2 ^ 64 - 1)) = SpecFloat.S754_finite false 9007199254740990 (-53) /\
  B2SF (uniformoo 53 1024 (2 ^ 64 - 1) 0) = SpecFloat.S754_finite false 4503599627370496 (-104) /\
  B2SF (uniformoc 53 1024 (2 ^ 64 - 1) 0) = SpecFloat.S754_finite false 4503599627370496 (-52) /\
  B2SF (uniformcc 24 128 2147483646 2147483646) = SpecFloat.S754_finite false 8388608 (-23).
Proof. vm_compute. auto. Qed.

(** The open interval is not guaranteed for an engine with another range: an
    engine with 7282585388579757 values reaches 1 exactly, and one with two
    values never leaves {0, 1}. *)
Theorem C39_uniformoo_any_range_refuted :
  exists D r, 1 <= D < 2 ^ 64 /\ 0 <= r <= D /\ B2R (uniformoo 53 1024 D r) = 1%R.
Proof.
  exists 7282585388579756, 7282585388579756. split; [lia|]. split; [lia|].
  assert (E : uniformoo 53 1024 7282585388579756 7282585388579756 = of_int 53 1024 1).
  { apply B2SF_inj. vm_compute. reflexivity. }
  rewrite E. apply (proj2 (of_int_1 53 1024 fmt53)).
Qed.

(** ** C41 *)

Theorem C41_engine_bounded : forall D r x, 1 <= D < 2 ^ 64 -> 0 <= r <= D -> 1 <= x < 2 ^ 63 ->
  exists z, engine_bounded D r x = IntVal z /\ 0 <= z <= x - 1.
Proof. exact engine_bounded_ok. Qed.

Example C41_example :
  engine_bounded (2 ^ 64 - 1) (2 ^ 64 - 1) (2 ^ 63 - 1) = IntVal 9223372036854773760 /\
  engine_bounded 2147483646 2147483646 (2 ^ 53 + 3) = IntVal 9007199250546692 /\
  engine_bounded (2 ^ 64 - 1) (2 ^ 63) 6 = IntVal 2.
Proof. vm_compute. auto. Qed.

(** A bound that is not positive: the values are those of the opposite bound with the sign changed, so they lie in (x, 0]. *)
Lemma scaled_opp (t : double) x : is_finite t = true -> (0 <= B2R t <= 1)%R -> 0 <= x <= 2 ^ 63 ->
  is_finite (fmul 53 1024 t (of_int 53 1024 (- x))) = true /\
  Btrunc (fmul 53 1024 t (of_int 53 1024 (- x))) = - Btrunc (fmul 53 1024 t (of_int 53 1024 x)).
Proof.
  intros Ft Ht Hx. pose proof H3_64 as H3. pose proof H70_64 as H70.
  assert (XR : inrange 1024 (IZR x)).
  { apply (inrange_le 53 1024 H3 H70) with (bpow radix2 64); [|apply (inrange_bpow 53 1024 H3 H70); lia].
    split; [apply IZR_le; lia|]. rewrite <- (IZR_Zpower radix2) by lia. apply IZR_le. simpl radix_val. lia. }
  destruct (of_int_ok 53 1024 H3 H70 x XR) as (X1 & X2).
  assert (XN : inrange 1024 (IZR (- x))) by (unfold inrange in *; rewrite opp_IZR, Rabs_Ropp; exact XR).
  destruct (of_int_ok 53 1024 H3 H70 (- x) XN) as (Y1 & Y2).
  rewrite opp_IZR, round_NE_opp in Y2.
  assert (XB : (0 <= round radix2 (SpecFloat.fexp 53 1024) ZnearestE (IZR x) <= bpow radix2 64)%R).
  { split.
    - apply (rnd_ge_0 53 1024 H3 H70). apply IZR_le. lia.
    - apply (rnd_le_fmt 53 1024 H3 H70); [apply (fmt_bpow 53 1024 H3 H70); lia|].
      rewrite <- (IZR_Zpower radix2) by lia. apply IZR_le. simpl radix_val. lia. }
  assert (P : inrange 1024 (B2R t * B2R (of_int 53 1024 x))).
  { rewrite X2. apply (inrange_le 53 1024 H3 H70) with (bpow radix2 64); [|apply (inrange_bpow 53 1024 H3 H70); lia].
    split; [apply Rmult_le_pos; lra|]. rewrite <- (Rmult_1_l (bpow radix2 64)). apply Rmult_le_compat; lra. }
  destruct (fmul_ok 53 1024 H3 H70 _ _ Ft X1 P) as (_ & M2).
  assert (E : (B2R t * B2R (of_int 53 1024 (- x)) = - (B2R t * B2R (of_int 53 1024 x)))%R) by (rewrite X2, Y2; ring).
  assert (PN : inrange 1024 (B2R t * B2R (of_int 53 1024 (- x)))) by (unfold inrange in *; rewrite E, Rabs_Ropp; exact P).
  destruct (fmul_ok 53 1024 H3 H70 _ _ Ft Y1 PN) as (N1 & N2). split; [exact N1|].
  rewrite E, round_NE_opp, <- M2 in N2. apply eq_IZR. rewrite opp_IZR, !Btrunc_correct by easy. rewrite N2.
  unfold round, scaled_mantissa, cexp, FIX_exp, F2R. cbn [Fnum Fexp]. simpl bpow. rewrite !Rmult_1_r. now rewrite Ztrunc_opp, opp_IZR.
Qed.

Theorem C41_negative : forall D r x, 1 <= D < 2 ^ 64 -> 0 <= r <= D -> - 2 ^ 63 < x <= 0 ->
  exists z, engine_bounded D r x = IntVal z /\ x < z + Z.b2z (x =? 0) /\ z <= 0 /\ engine_bounded D r (- x) = IntVal (- z).
Proof.
  intros D r x HD Hr Hx. destruct (uniformco_ok 53 1024 fmt53 D r HD Hr) as (U1 & U2). assert (U3 : (0 <= B2R (uniformco 53 1024 D r) <= 1)%R) by (pose proof (bpow_gt_0 radix2 (Z.opp 53)); lra).
  assert (B : exists z, engine_bounded D r (- x) = IntVal z /\ 0 <= z /\ z < - x + Z.b2z (x =? 0)).
  { destruct (Z.eqb_spec x 0) as [->|N].
    - pose proof (scaled_opp _ 0 U1 U3 ltac:(lia)) as (A & E). change (- 0) with 0 in *. exists 0.
      assert (T : Btrunc (fmul 53 1024 (uniformco 53 1024 D r) (of_int 53 1024 0)) = 0) by lia.
      unfold engine_bounded, double_to_signed. rewrite A, T. split; [reflexivity|]. cbn [Z.b2z]. lia.
    - destruct (engine_bounded_ok D r (- x) HD Hr ltac:(lia)) as (z & E & Hz). exists z. split; [exact E|]. cbn [Z.b2z]. lia. }
  destruct B as (z & E & Z1 & Z2). exists (- z).
  destruct (scaled_opp _ (- x) U1 U3 ltac:(lia)) as (A & T). rewrite Z.opp_involutive in A, T.
  assert (T' : Btrunc (fmul 53 1024 (uniformco 53 1024 D r) (of_int 53 1024 (- x))) = z).
  { revert E. unfold engine_bounded, double_to_signed. cbv zeta. do 2 (match goal with |- (if ?b then _ else _) = _ -> _ => destruct b end; [|intros E; discriminate E]). intros E. congruence. }
  rewrite T' in T. unfold engine_bounded at 1. unfold double_to_signed. rewrite A. cbv zeta. rewrite T.
  rewrite Z.opp_involutive. change (64 - 1) with 63.
  assert (z <= - x) by (destruct (x =? 0); cbn [Z.b2z] in Z2; lia).
  rewrite (proj2 (Z.leb_le _ _)) by lia. rewrite (proj2 (Z.ltb_lt _ _)) by lia. split; [reflexivity|]. split; [lia|]. split; [lia|exact E].
Qed.

(** the least long *)
Theorem C41_least : forall D r, 1 <= D < 2 ^ 64 -> 0 <= r <= D ->
  exists z, engine_bounded D r (- 2 ^ 63) = IntVal z /\ - 2 ^ 63 < z <= 0.
Proof.
  intros D r HD Hr. destruct (uniformco_ok 53 1024 fmt53 D r HD Hr) as (U1 & U2). assert (U3 : (0 <= B2R (uniformco 53 1024 D r) <= 1)%R) by (pose proof (bpow_gt_0 radix2 (Z.opp 53)); lra).
  destruct (scaled_trunc _ (2 ^ 63) _ U1 U2 ltac:(lia) (or_introl eq_refl)) as (A & B).
  destruct (scaled_opp _ (2 ^ 63) U1 U3 ltac:(lia)) as (A' & T).
  unfold engine_bounded, double_to_signed. rewrite A'. cbv zeta. rewrite T. change (64 - 1) with 63.
  rewrite (proj2 (Z.leb_le _ _)) by lia. rewrite (proj2 (Z.ltb_lt _ _)) by lia. eexists. split; [reflexivity|]. lia.
Qed.

Example C41_negative_example :
  engine_bounded (2 ^ 64 - 1) (2 ^ 64 - 1) (- 2 ^ 63) = IntVal (-9223372036854773760) /\
  engine_bounded (2 ^ 64 - 1) (2 ^ 63) (-6) = IntVal (-2) /\ engine_bounded (2 ^ 64 - 1) (2 ^ 63) 0 = IntVal 0.
Proof. vm_compute. auto. Qed.

(** ** C40 *)

Definition int_range (x : Z) : Prop := - 2 ^ 31 <= x < 2 ^ 31.

Theorem C40_uniform_int : forall a b, int_range a -> int_range b -> a < b -> b - a < 2 ^ 31 ->
  exists P, uniform_int_make a b = UIVal P /\
    uniform_int_min P = IntVal a /\ uniform_int_max P = IntVal (b - 1) /\
    forall D r, 1 <= D < 2 ^ 64 -> 0 <= r <= D ->
      exists z, uniform_int_draw P D r = IntVal z /\ a <= z <= b - 1.
Proof.
  intros a b Ha Hb Hab Hd. unfold int_range in *. exists (UniformInt a b (b - a)).
  repeat split.
  - unfold uniform_int_make, int_sub. rewrite (proj2 (Z.leb_le _ _)) by lia.
    rewrite (proj2 (Z.ltb_lt _ _)) by lia. reflexivity.
  - unfold uniform_int_max, int_sub. cbn [ui_b]. rewrite (proj2 (Z.leb_le _ _)) by lia.
    rewrite (proj2 (Z.ltb_lt _ _)) by lia. reflexivity.
  - intros D r HD Hr. apply uniform_int_ok; lia.
Qed.

(** Changing a or b gives the distribution constructed from the new pair. *)
Theorem C40_setters : forall a b a' P, uniform_int_make a b = UIVal P ->
  uniform_int_set_a P a' = uniform_int_make a' b /\ uniform_int_set_b P a' = uniform_int_make a a'.
Proof.
  intros a b a' P. unfold uniform_int_make at 1. destruct (int_sub b a); [|discriminate].
  intros E. injection E as <-. split; reflexivity.
Qed.

(** If the difference is not an int, constructing the distribution is undefined. *)
Theorem C40_overflow : forall a b, 2 ^ 31 <= b - a -> uniform_int_make a b = UIUB.
Proof.
  intros a b H. unfold uniform_int_make, int_sub. destruct (Z.leb_spec (- 2 ^ 31) (b - a)).
  - destruct (Z.ltb_spec (b - a) (2 ^ 31)); [lia|reflexivity].
  - reflexivity.
Qed.

(** So the full range of int cannot be requested. *)
Theorem C40_full_range_refuted : exists a b, int_range a /\ int_range b /\ a < b /\ uniform_int_make a b = UIUB.
Proof.
  exists (- 2 ^ 31), (2 ^ 31 - 1). unfold int_range. repeat split; try lia. 
Qed.

Example C40_example :
  exists P, uniform_int_make (-10) 11 = UIVal P /\ uniform_int_draw P (2 ^ 64 - 1) (2 ^ 64 - 1) = IntVal 10
         /\ uniform_int_draw P (2 ^ 64 - 1) 0 = IntVal (-10).
Proof. eexists. split; [reflexivity|]. vm_compute. auto. Qed.

(** ** C53 *)

(** In double arithmetic: finite, at least a, at most b. *)
Theorem C53_closed_interval : forall (a b : double) D r, 1 <= D < 2 ^ 64 -> 0 <= r <= D ->
  is_finite a = true -> is_finite b = true -> is_finite (fsub 53 1024 b a) = true ->
  (B2R a <= B2R b)%R ->
  float_in (fun v => B2R a <= v <= B2R b)%R (uniform_draw a b D r).
Proof. exact uniform_draw_ok. Qed.

Definition dbl (m e : Z) : double := binary_normalize 53 1024 _ _ mode_NE m e false.

Example C53_example : B2SF (uniform_draw (dbl (-1) 0) (dbl 3 0) (2 ^ 64 - 1) (2 ^ 63)) = B2SF (dbl 9007199254740988 (-53)).
Proof. vm_compute. reflexivity. Qed.

(** The upper bound b is reached: uniform_dist(1, 1 + 2^-52) and the largest
    output of a 64-bit engine. *)
Theorem C53_upper_bound_refuted : exists (a b : double) D r, library_range D /\ 0 <= r <= D /\
  is_finite a = true /\ is_finite b = true /\ is_finite (fsub 53 1024 b a) = true /\
  (B2R a < B2R b)%R /\ uniform_draw a b D r = b.
Proof.
  exists (dbl 1 0), (dbl 4503599627370497 (-52)), (2 ^ 64 - 1), (2 ^ 64 - 1).
  split; [now left|]. split; [lia|].
  split; [vm_compute; reflexivity|]. split; [vm_compute; reflexivity|]. split; [vm_compute; reflexivity|].
  split.
  - assert (H : Bltb (dbl 1 0) (dbl 4503599627370497 (-52)) = true) by (vm_compute; reflexivity).
    rewrite Bltb_correct in H by (vm_compute; reflexivity).
    destruct (Rlt_bool_spec (B2R (dbl 1 0)) (B2R (dbl 4503599627370497 (-52)))) as [L|]; [exact L|discriminate H].
  - apply B2SF_inj. vm_compute. reflexivity.
Qed.

(** An interval wider than the largest double gives NaN. *)
Theorem C53_wide_interval_refuted : exists (a b : double) D r, library_range D /\ 0 <= r <= D /\
  is_finite a = true /\ is_finite b = true /\ is_nan (uniform_draw a b D r) = true.
Proof.
  exists (dbl (-9007199254740991) 971), (dbl 9007199254740991 971), (2 ^ 64 - 1), 0.
  split; [now left|]. split; [lia|]. vm_compute. auto.
Qed.

Print Assumptions C39_uniformco.
Print Assumptions C39_uniformoc.
Print Assumptions C39_uniformcc.
Print Assumptions C39_uniformoo.
Print Assumptions C39_generate_canonical.
Print Assumptions C39_uniformoo_any_range_refuted.
Print Assumptions C41_engine_bounded.
Print Assumptions C41_negative.
Print Assumptions C41_least.
Print Assumptions C40_uniform_int.
Print Assumptions C40_setters.
Print Assumptions C40_overflow.
Print Assumptions C40_full_range_refuted.
Print Assumptions C53_closed_interval.
Print Assumptions C53_upper_bound_refuted.
Print Assumptions C53_wide_interval_refuted.
