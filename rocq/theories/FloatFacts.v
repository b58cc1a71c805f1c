(** Facts about rounding to nearest even used by the floating-point proofs. *)
From Coq Require Import ZArith Bool List Reals Lia Lra.
From Flocq Require Import Core IEEE754.BinarySingleNaN.
From Verif Require Import UniformModel.
Import ListNotations.
Open Scope R_scope.

Section Format.
Context (prec emax : Z) {prec_gt_0_ : Prec_gt_0 prec} {prec_lt_emax_ : Prec_lt_emax prec emax}.
Hypothesis Hp : (3 <= prec)%Z.
Hypothesis Hem : (70 <= emax)%Z.

Set Default Proof Using "All".
Notation F := (binary_float prec emax).
Notation fexp := (SpecFloat.fexp prec emax).
Notation rnd := (round radix2 fexp ZnearestE).
Notation fmt := (generic_format radix2 fexp).

Lemma pos_prec : (0 < prec)%Z.
Proof. apply prec_gt_0_. Qed.
Lemma prec_emax : (prec < emax)%Z.
Proof. exact prec_lt_emax_. Qed.

Lemma fexp_eq e : fexp e = Z.max (e - prec) (3 - emax - prec).
Proof. reflexivity. Qed.

Lemma fmt_bpow k : (3 - emax - prec <= k)%Z -> fmt (bpow radix2 k).
Proof.
  intros H. apply generic_format_bpow. rewrite fexp_eq. pose proof pos_prec. lia.
Qed.

Lemma rnd_le x y : x <= y -> rnd x <= rnd y.
Proof. apply round_le; typeclasses eauto. Qed.

Lemma rnd_fmt x : fmt x -> rnd x = x.
Proof. apply round_generic; typeclasses eauto. Qed.

Lemma fmt_rnd x : fmt (rnd x).
Proof. apply generic_format_round; typeclasses eauto. Qed.

Lemma fmt_0 : fmt 0.
Proof. apply generic_format_0. Qed.

Lemma rnd_0 : rnd 0 = 0.
Proof. apply rnd_fmt, fmt_0. Qed.

Lemma rnd_ge_0 x : 0 <= x -> 0 <= rnd x.
Proof. intros H. rewrite <- rnd_0. now apply rnd_le. Qed.

Lemma rnd_le_fmt x y : fmt y -> x <= y -> rnd x <= y.
Proof. intros Fy H. rewrite <- (rnd_fmt y Fy). now apply rnd_le. Qed.

Lemma rnd_ge_fmt x y : fmt y -> y <= x -> y <= rnd x.
Proof. intros Fy H. rewrite <- (rnd_fmt y Fy). now apply rnd_le. Qed.

Lemma fmt_1 : fmt 1.
Proof. change 1 with (bpow radix2 0). apply fmt_bpow. pose proof prec_emax. pose proof pos_prec. lia. Qed.

Lemma fmt_B2R (x : F) : fmt (B2R x).
Proof. apply generic_format_B2R. Qed.

(** No overflow as long as the exact result is at most 2^(emax-1). *)
Definition inrange (x : R) : Prop := Rabs x <= bpow radix2 (emax - 1).

Lemma inrange_lt x : inrange x -> Rlt_bool (Rabs (rnd x)) (bpow radix2 emax) = true.
Proof.
  intros H. apply Rlt_bool_true. apply Rle_lt_trans with (bpow radix2 (emax - 1)).
  - apply abs_round_le_generic; try typeclasses eauto; [|exact H].
    apply fmt_bpow. pose proof pos_prec. lia.
  - apply bpow_lt. lia.
Qed.

Lemma of_int_ok z : inrange (IZR z) ->
  is_finite (of_int prec emax z) = true /\ B2R (of_int prec emax z) = rnd (IZR z).
Proof.
  intros H. unfold of_int.
  pose proof (binary_normalize_correct prec emax _ _ mode_NE z 0 false) as C.
  cbv zeta in C. change (round_mode mode_NE) with ZnearestE in C.
  replace (F2R {| Fnum := z; Fexp := 0 |}) with (IZR z) in C
    by (unfold F2R; simpl; now rewrite Rmult_1_r).
  rewrite inrange_lt in C by exact H. tauto.
Qed.

Lemma fmul_ok (x y : F) : is_finite x = true -> is_finite y = true -> inrange (B2R x * B2R y) ->
  is_finite (fmul prec emax x y) = true /\ B2R (fmul prec emax x y) = rnd (B2R x * B2R y).
Proof.
  intros Fx Fy H. pose proof (Bmult_correct prec emax _ _ mode_NE x y) as C.
  change (round_mode mode_NE) with ZnearestE in C.
  rewrite inrange_lt in C by exact H. destruct C as (A & B & _).
  unfold fmul. rewrite B, Fx, Fy. auto.
Qed.

Lemma fadd_ok (x y : F) : is_finite x = true -> is_finite y = true -> inrange (B2R x + B2R y) ->
  is_finite (fadd prec emax x y) = true /\ B2R (fadd prec emax x y) = rnd (B2R x + B2R y).
Proof.
  intros Fx Fy H. pose proof (Bplus_correct prec emax _ _ mode_NE x y Fx Fy) as C.
  change (round_mode mode_NE) with ZnearestE in C.
  rewrite inrange_lt in C by exact H. destruct C as (A & B & _). auto.
Qed.

Lemma fsub_ok (x y : F) : is_finite x = true -> is_finite y = true -> inrange (B2R x - B2R y) ->
  is_finite (fsub prec emax x y) = true /\ B2R (fsub prec emax x y) = rnd (B2R x - B2R y).
Proof.
  intros Fx Fy H. pose proof (Bminus_correct prec emax _ _ mode_NE x y Fx Fy) as C.
  change (round_mode mode_NE) with ZnearestE in C.
  rewrite inrange_lt in C by exact H. destruct C as (A & B & _). auto.
Qed.

Lemma fdiv_ok (x y : F) : is_finite x = true -> B2R y <> 0 -> inrange (B2R x / B2R y) ->
  is_finite (fdiv prec emax x y) = true /\ B2R (fdiv prec emax x y) = rnd (B2R x / B2R y).
Proof.
  intros Fx Ny H. pose proof (Bdiv_correct prec emax _ _ mode_NE x y Ny) as C.
  change (round_mode mode_NE) with ZnearestE in C.
  rewrite inrange_lt in C by exact H. destruct C as (A & B & _).
  unfold fdiv. rewrite B. auto.
Qed.

Lemma inrange_le x y : 0 <= x <= y -> inrange y -> inrange x.
Proof.
  unfold inrange. intros H1 H2. rewrite Rabs_pos_eq by lra. rewrite Rabs_pos_eq in H2 by lra. lra.
Qed.

Lemma inrange_bpow k : (k <= emax - 1)%Z -> inrange (bpow radix2 k).
Proof.
  intros H. unfold inrange. rewrite Rabs_pos_eq by apply bpow_ge_0. now apply bpow_le.
Qed.

Lemma inrange_0_1 x : 0 <= x <= 1 -> inrange x.
Proof.
  intros H. apply inrange_le with 1; [exact H|]. change 1 with (bpow radix2 0).
  apply inrange_bpow. pose proof prec_emax. pose proof pos_prec. lia.
Qed.

(** The unit roundoff. *)
Notation u := (bpow radix2 (- prec)).

Lemma u_pos : 0 < u. Proof. apply bpow_gt_0. Qed.
Lemma u_small : 8 * u <= 1.
Proof.
  change 8 with (bpow radix2 3). change 1 with (bpow radix2 0). rewrite <- bpow_plus.
  apply bpow_le. lia.
Qed.
Lemma two_u : bpow radix2 (1 - prec) = 2 * u.
Proof. unfold Z.sub. rewrite bpow_plus. reflexivity. Qed.

Lemma pred_1 : Ulp.pred radix2 fexp 1 = 1 - u.
Proof.
  change 1 with (bpow radix2 0). rewrite pred_bpow. rewrite fexp_eq.
  rewrite Z.max_l by (pose proof prec_emax; lia). now rewrite Z.sub_0_l.
Qed.

Lemma fmt_1_u : fmt (1 - u).
Proof.
  rewrite <- pred_1. apply generic_format_pred; try typeclasses eauto. apply fmt_1.
Qed.

(** Every value below the midpoint of 1-u and 1 rounds to at most 1-u. *)
Lemma rnd_lt_1 x : x < 1 - u / 2 -> rnd x <= 1 - u.
Proof.
  intros H. apply round_N_le_midp; try typeclasses eauto; [apply fmt_1_u|].
  rewrite <- pred_1 at 2. rewrite succ_pred by (try typeclasses eauto; apply fmt_1). lra.
Qed.

(** 1 - k u is representable for small k. *)
Lemma fmt_1_ku k : (1 <= k <= 2 ^ prec)%Z -> fmt (1 - IZR k * u).
Proof.
  intros H.
  assert (E : 1 - IZR k * u = F2R (Float radix2 (2 ^ prec - k) (- prec))).
  { unfold F2R. cbn [Fnum Fexp]. rewrite minus_IZR, (IZR_Zpower radix2) by lia.
    rewrite Rmult_minus_distr_r, <- bpow_plus. replace (prec + - prec)%Z with 0%Z by lia. reflexivity. }
  rewrite E. apply generic_format_F2R. intros NZ. unfold cexp. rewrite fexp_eq.
  assert (M : (mag radix2 (F2R (Float radix2 (2 ^ prec - k) (- prec))) <= 0)%Z).
  { apply mag_le_bpow.
    - intros Z0. apply NZ. apply (eq_0_F2R _ _ _ Z0).
    - rewrite <- E. pose proof u_pos.
      assert (1 * u <= IZR k * u) by (apply Rmult_le_compat_r; [lra|apply IZR_le; lia]).
      assert (IZR k * u <= 1).
      { apply Rle_trans with (IZR (2 ^ prec) * u).
        - apply Rmult_le_compat_r; [lra|]. apply IZR_le. lia.
        - rewrite (IZR_Zpower radix2) by lia. rewrite <- bpow_plus.
          replace (prec + - prec)%Z with 0%Z by lia. simpl. lra. }
      rewrite Rabs_pos_eq by lra. simpl. lra. }
  pose proof prec_emax. lia.
Qed.

(** Normal numbers. *)
Definition normal (x : R) : Prop := bpow radix2 (2 - emax) <= x.

Lemma normal_cexp x : normal x -> cexp radix2 fexp x = (mag radix2 x - prec)%Z.
Proof.
  intros H. unfold cexp. rewrite fexp_eq. apply Z.max_l.
  assert (2 - emax < mag radix2 x)%Z.
  { apply mag_gt_bpow. unfold normal in H. rewrite Rabs_pos_eq; [exact H|].
    apply Rle_trans with (2 := H). apply bpow_ge_0. }
  lia.
Qed.

Lemma normal_pos x : normal x -> 0 < x.
Proof. unfold normal. pose proof (bpow_gt_0 radix2 (2 - emax)). lra. Qed.

Lemma normal_ulp x : normal x -> ulp radix2 fexp x = bpow radix2 (mag radix2 x - prec).
Proof.
  intros H. rewrite ulp_neq_0 by (apply normal_pos in H; lra). now rewrite normal_cexp.
Qed.

Lemma mag_bounds x : 0 < x -> bpow radix2 (mag radix2 x - 1) <= x < bpow radix2 (mag radix2 x).
Proof.
  intros H. destruct (mag radix2 x) as (e & He). cbn [mag_val].
  specialize (He ltac:(lra)). now rewrite Rabs_pos_eq in He by lra.
Qed.

(** For a normal format number c, c - ulp c is representable. *)
Lemma fmt_minus_ulp c : fmt c -> normal c -> fmt (c - ulp radix2 fexp c).
Proof.
  intros Fc N. rewrite normal_ulp by exact N.
  pose proof (normal_cexp c N) as C. unfold generic_format in Fc. rewrite C in Fc.
  set (m := Ztrunc (scaled_mantissa radix2 fexp c)) in *.
  assert (E : c - bpow radix2 (mag radix2 c - prec) = F2R (Float radix2 (m - 1) (mag radix2 c - prec))).
  { rewrite Fc at 1. unfold F2R. cbn [Fnum Fexp]. rewrite minus_IZR. ring. }
  pose proof (normal_pos c N) as P. pose proof (mag_bounds c P) as M.
  pose proof (bpow_gt_0 radix2 (mag radix2 c - prec)).
  assert (bpow radix2 (mag radix2 c - prec) < bpow radix2 (mag radix2 c - 1)) by (apply bpow_lt; lia).
  rewrite E. apply generic_format_F2R. intros NZ. rewrite <- E. unfold cexp. rewrite fexp_eq.
  assert (mag radix2 (c - bpow radix2 (mag radix2 c - prec)) <= mag radix2 c)%Z.
  { apply mag_le; lra. }
  assert (2 - emax < mag radix2 c)%Z.
  { apply mag_gt_bpow. unfold normal in N. rewrite Rabs_pos_eq by lra. exact N. }
  lia.
Qed.

(** Multiplying a normal c by at most 1-2u loses at least one ulp. *)
Lemma rnd_mul_1_2u c t : fmt c -> normal c -> t <= 1 - 2 * u -> rnd (c * t) <= c - ulp radix2 fexp c.
Proof.
  intros Fc N T. apply rnd_le_fmt; [now apply fmt_minus_ulp|].
  rewrite normal_ulp by exact N. pose proof (normal_pos c N) as P. pose proof (mag_bounds c P) as M.
  assert (bpow radix2 (mag radix2 c - prec) = bpow radix2 (mag radix2 c - 1) * (2 * u)) as ->.
  { rewrite <- two_u, <- bpow_plus. f_equal. lia. }
  apply Rle_trans with (c * (1 - 2 * u)); [apply Rmult_le_compat_l; lra|].
  pose proof u_pos.
  assert (bpow radix2 (mag radix2 c - 1) * (2 * u) <= c * (2 * u)); [|lra].
  apply Rmult_le_compat_r; lra.
Qed.

(** The scaling used by uniformco: with c the rounded reciprocal of V and the
    factor rounded, V never reaches 1. *)
Lemma reciprocal_scaling V t : fmt V -> 1 <= V <= bpow radix2 (emax - 2) -> t <= 1 - 2 * u ->
  rnd (V * rnd (rnd (1 / V) * t)) <= 1 - u.
Proof.
  intros FV HV T. apply rnd_lt_1. set (y := 1 / V). set (c := rnd y).
  assert (Vy : V * y = 1) by (unfold y; field; lra).
  assert (Py : 0 < y) by (unfold y; apply Rdiv_lt_0_compat; lra).
  assert (Ny : normal y).
  { unfold normal, y. replace (2 - emax)%Z with (- (emax - 2))%Z by lia. rewrite bpow_opp.
    unfold Rdiv. rewrite Rmult_1_l. apply Rinv_le; lra. }
  assert (Nc : normal c).
  { apply rnd_ge_fmt; [apply fmt_bpow; lia|exact Ny]. }
  pose proof (normal_pos c Nc) as Pc.
  pose proof (rnd_mul_1_2u c t (fmt_rnd y) Nc T) as H1.
  pose proof (normal_ulp c Nc) as U.
  assert (H2 : c - y <= / 2 * ulp radix2 fexp c).
  { pose proof (error_le_half_ulp_round radix2 fexp (fun x => negb (Z.even x)) y) as E.
    apply Rabs_def2_le in E || (apply Rabs_le_inv in E). fold c in E. lra. }
  assert (H3 : y < bpow radix2 (mag radix2 c)).
  { destruct (Rlt_or_le y (bpow radix2 (mag radix2 c))) as [L|L]; [exact L|exfalso].
    apply (rnd_ge_fmt y) in L.
    - fold c in L. pose proof (mag_bounds c Pc). lra.
    - apply fmt_bpow. assert (2 - emax < mag radix2 c)%Z; [|lia].
      apply mag_gt_bpow. rewrite Rabs_pos_eq by lra. exact Nc. }
  assert (H4 : u < V * ulp radix2 fexp c).
  { rewrite U. unfold Z.sub. rewrite bpow_plus, <- Rmult_assoc.
    rewrite <- (Rmult_1_l u) at 1. apply Rmult_lt_compat_r; [apply u_pos|].
    rewrite <- Vy. apply Rmult_lt_compat_l; lra. }
  apply Rle_lt_trans with (V * (c - ulp radix2 fexp c)); [apply Rmult_le_compat_l; lra|].
  apply Rle_lt_trans with (V * (y - / 2 * ulp radix2 fexp c)); [apply Rmult_le_compat_l; lra|].
  rewrite Rmult_minus_distr_l, Vy. lra.
Qed.

Lemma normal_1 x : 1 <= x -> normal x.
Proof.
  intros H. unfold normal. apply Rle_trans with (2 := H). change 1 with (bpow radix2 0).
  apply bpow_le. lia.
Qed.

(** Rounded product of a number well inside the normal range with a number below 1. *)
Lemma rnd_mul_lt X t : fmt X -> bpow radix2 (3 - emax) <= X -> 0 <= t <= 1 - u ->
  rnd (t * X) <= Ulp.pred radix2 fexp X.
Proof.
  intros FX X1 T.
  assert (N : normal X).
  { unfold normal. apply Rle_trans with (2 := X1). apply bpow_le. lia. }
  pose proof (normal_pos X N) as P. pose proof (mag_bounds X P) as M. pose proof u_pos.
  destruct (Req_dec X (bpow radix2 (mag radix2 X - 1))) as [E|E].
  - rewrite E at 2. rewrite pred_bpow. rewrite fexp_eq.
    assert (3 - emax < mag radix2 X)%Z.
    { apply mag_gt_bpow. rewrite Rabs_pos_eq by lra. exact X1. }
    apply rnd_le_fmt.
    + replace (Z.max (mag radix2 X - 1 - prec) (3 - emax - prec)) with (fexp (mag radix2 X - 1))
        by (rewrite fexp_eq; reflexivity).
      rewrite <- pred_bpow. apply generic_format_pred; try typeclasses eauto. rewrite <- E. exact FX.
    + rewrite Z.max_l by lia. unfold Z.sub at 2. rewrite bpow_plus. rewrite <- E.
      replace (X - X * u) with ((1 - u) * X) by ring. apply Rmult_le_compat_r; lra.
  - apply round_N_le_midp; try typeclasses eauto.
    + apply generic_format_pred; try typeclasses eauto. exact FX.
    + rewrite succ_pred by (try typeclasses eauto; exact FX).
      assert (PE : Ulp.pred radix2 fexp X = X - ulp radix2 fexp X).
      { rewrite pred_eq_pos by lra. unfold pred_pos. rewrite Req_bool_false by exact E. reflexivity. }
      rewrite PE, normal_ulp by exact N.
      unfold Z.sub. rewrite bpow_plus.
      assert (X * u > bpow radix2 (mag radix2 X - 1) * u) by (apply Rmult_lt_compat_r; lra).
      assert (bpow radix2 (mag radix2 X) = 2 * bpow radix2 (mag radix2 X - 1)).
      { unfold Z.sub. rewrite bpow_plus. simpl. lra. }
      assert (t * X <= (1 - u) * X) by (apply Rmult_le_compat_r; lra). nra.
Qed.

Lemma pred_rnd_lt x : 0 < rnd x -> Ulp.pred radix2 fexp (rnd x) < x.
Proof.
  intros P. destruct (Rlt_or_le (Ulp.pred radix2 fexp (rnd x)) x) as [L|L]; [exact L|exfalso].
  apply rnd_le_fmt in L.
  - pose proof (pred_lt_id radix2 fexp (rnd x) ltac:(lra)). lra.
  - apply generic_format_pred; try typeclasses eauto. apply fmt_rnd.
Qed.

(** Small differences of format numbers are exact. *)
Lemma small_minus_exact x y : fmt x -> fmt y -> Rabs (x - y) <= bpow radix2 (3 - emax) -> fmt (x - y).
Proof.
  intros Fx Fy H.
  assert (K : forall z, fmt z -> exists k, z = IZR k * bpow radix2 (3 - emax - prec)).
  { intros z Fz. assert (G : generic_format radix2 (FIX_exp (3 - emax - prec)) z).
    { apply (generic_format_FIX_FLT radix2 (3 - emax - prec) prec). exact Fz. }
    unfold generic_format in G. eexists. exact G. }
  destruct (K x Fx) as (kx & Ex). destruct (K y Fy) as (ky & Ey).
  destruct (Rle_lt_or_eq_dec _ _ H) as [L|L].
  - assert (E : x - y = F2R (Float radix2 (kx - ky) (3 - emax - prec))).
    { unfold F2R. cbn [Fnum Fexp]. rewrite minus_IZR, Ex, Ey. ring. }
    rewrite E. apply generic_format_F2R. intros NZ. unfold cexp. rewrite fexp_eq.
    rewrite <- E. assert (mag radix2 (x - y) <= 3 - emax)%Z; [|lia].
    apply mag_le_bpow; [|exact L]. rewrite E. intros Z0. apply NZ. apply (eq_0_F2R _ _ _ Z0).
  - destruct (Rle_or_lt 0 (x - y)) as [Q|Q].
    + rewrite Rabs_pos_eq in L by exact Q. rewrite L. apply fmt_bpow. lia.
    + rewrite Rabs_left in L by exact Q. replace (x - y) with (- (- (x - y))) by ring.
      rewrite L. apply generic_format_opp. apply fmt_bpow. lia.
Qed.

End Format.
