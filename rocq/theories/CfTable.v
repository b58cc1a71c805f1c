(** Bounds of the factors of the error of GammaQ_cf, by integer arithmetic with 20 binary places, for shapes between
    two successive integers. *)
From Coq Require Import Reals ZArith Lra Psatz Lia List Bool.
From Coquelicot Require Import Coquelicot.
From Verif Require Import Improper GammaFn GamModel GamProofs SeriesModel SeriesProofs CfModel CfFacts CfProofs.
Import ListNotations.
Local Open Scope R_scope.

Local Open Scope Z_scope.
Definition D : Z := 2 ^ 20.
Definition cdiv (x y : Z) : Z := - ((- x) / y).
(** [2+2n - max(0, n(n-k)) / y] rounded down *)
Definition low (n k y : Z) : Z := (2 + 2 * n) * D - cdiv (Z.max 0 (n * (n - k)) * (D * D)) y.
(** the same with the numerator of the next index *)
Definition low' (n k y : Z) : Z := (2 + 2 * n) * D - cdiv (Z.max 0 ((n + 1) * (n + 1 - k)) * (D * D)) y.
Fixpoint zback (n : nat) (k y : Z) (l : list Z) : list Z :=
  match n with O => l | S n' => let z := low' (Z.of_nat n) k y in if 0 <? z then zback n' k z (z :: l) else [] end.
Fixpoint zrun (l : list Z) (k i y acc : Z) : option Z :=
  match l with
  | [] => Some acc
  | s :: l =>
      if (0 <? s) && (0 <? y)
      then zrun l k (i + 1) (low (i + 1) k y) (cdiv (acc * Z.max ((i + 1) * Z.abs (k + 1 - (i + 1))) ((i + 1) * Z.abs (i + 1 - k)) * (D * D)) (s * y))
      else None
  end.
Definition ztable (n : nat) (k : Z) : list Z := firstn 54 (zback n k (D * (Z.of_nat n + 1)) []).
Definition zcheck (n : nat) (k b : Z) : bool :=
  (length (ztable n k) =? 54)%nat &&
  match zrun (ztable n k) k 0 (2 * D) (2 ^ 64) with Some z => z <=? b | None => false end.
Local Close Scope Z_scope.

Lemma D_pos : 0 < IZR D. Proof. apply IZR_lt. reflexivity. Qed.
Lemma cdiv_ge x y : (0 < y)%Z -> IZR x / IZR y <= IZR (cdiv x y).
Proof.
  intros H. assert (Hy : 0 < IZR y) by (apply IZR_lt, H). apply (proj2 (Rle_div_l _ _ _ Hy)). rewrite <- mult_IZR. apply IZR_le. unfold cdiv.
  pose proof (Z.div_mod (- x) y ltac:(lia)). pose proof (Z.mod_pos_bound (- x) y H). nia.
Qed.

Section Shape.
Variables a x : R.
Hypothesis (Ha : 0 < a) (Hx : a + 1 <= x).
Variable k : Z.
Hypothesis (Hk : IZR k <= a <= IZR k + 1).

Definition ss (n : nat) : R := uu a x n / uu a x (S n).
Lemma ss_pos n : 0 < ss n.
Proof. apply Rdiv_lt_0_compat; apply uu_pos; assumption. Qed.
Lemma ss_ge n : INR n + 1 <= ss n.
Proof. rewrite <- S_INR. apply (proj1 (Rle_div_r _ _ _ (uu_pos a x Ha Hx (S n)))). apply uu_dec; assumption. Qed.
Lemma ss_rec n : ss n = bb a x (S n) + al a (S (S n)) / ss (S n).
Proof.
  unfold ss. rewrite (uu_rec a x Ha Hx n) at 1. pose proof (uu_pos a x Ha Hx (S n)). pose proof (uu_pos a x Ha Hx (S (S n))). field. lra.
Qed.
Lemma al_lower (n : nat) : - IZR (Z.max 0 (Z.of_nat n * (Z.of_nat n - k))) <= al a n.
Proof.
  unfold al. rewrite INR_IZR_INZ. set (m := Z.of_nat n). assert (0 <= IZR m) by (apply (IZR_le 0); lia).
  assert (M1 := IZR_le _ _ (Z.le_max_l 0 (m * (m - k)))). assert (M2 := IZR_le _ _ (Z.le_max_r 0 (m * (m - k)))).
  rewrite mult_IZR, minus_IZR in M2. set (M := IZR (Z.max 0 (m * (m - k)))) in *. clearbody M. nra.
Qed.
(** a lower bound of b + al/y from a lower bound of y *)
Lemma low_gen (n : nat) (m : nat) y (z : Z) : (0 < z)%Z -> IZR z <= IZR D * y ->
  IZR ((2 + 2 * Z.of_nat n) * D - cdiv (Z.max 0 (Z.of_nat m * (Z.of_nat m - k)) * (D * D)) z) <= IZR D * (bb a x n + al a m / y).
Proof.
  intros Hz Hy. assert (Pz : 0 < IZR z) by (apply IZR_lt, Hz). pose proof D_pos as Pd. assert (Py : 0 < y) by (apply (Rmult_lt_reg_l (IZR D)); lra).
  pose proof (al_lower m) as L. set (M := Z.max 0 (Z.of_nat m * (Z.of_nat m - k))) in *. assert (M0 : 0 <= IZR M) by (apply (IZR_le 0); unfold M; lia).
  pose proof (cdiv_ge (M * (D * D)) z Hz) as C. rewrite minus_IZR, mult_IZR, plus_IZR, mult_IZR, <- INR_IZR_INZ. rewrite !mult_IZR in C.
  assert (B : 2 + 2 * INR n <= bb a x n) by (unfold bb; lra).
  assert (Q : - (IZR M / y) <= al a m / y). { unfold Rdiv. rewrite <- Ropp_mult_distr_l_reverse. apply Rmult_le_compat_r; [left; apply Rinv_0_lt_compat, Py|lra]. }
  assert (Q' : IZR D * (IZR M / y) <= IZR M * (IZR D * IZR D) / IZR z).
  { apply (proj1 (Rle_div_r _ _ _ Pz)). replace (IZR D * (IZR M / y) * IZR z) with (IZR M * IZR D * / y * IZR z) by (field; lra).
    apply Rle_trans with (IZR M * IZR D * / y * (IZR D * y)); [|right; field; lra]. apply Rmult_le_compat_l; [|exact Hy].
    apply Rmult_le_pos; [apply Rmult_le_pos; lra|left; apply Rinv_0_lt_compat, Py]. }
  assert (IZR D * (2 + 2 * INR n) <= IZR D * bb a x n) by (apply Rmult_le_compat_l; lra).
  assert (IZR D * - (IZR M / y) <= IZR D * (al a m / y)) by (apply Rmult_le_compat_l; lra). lra.
Qed.
Lemma zback_ok n : forall y l, (0 < y)%Z -> IZR y <= IZR D * ss n ->
  (forall j z, nth_error l j = Some z -> IZR z <= IZR D * ss (n + j)) ->
  forall j z, nth_error (zback n k y l) j = Some z -> IZR z <= IZR D * ss j.
Proof.
  induction n; intros y l Hy Y L j z E; [exact (L j z E)|]. cbn [zback] in E. cbv zeta in E.
  destruct (0 <? low' (Z.of_nat (S n)) k y)%Z eqn:P; [|destruct j; discriminate E]. apply Z.ltb_lt in P.
  assert (B : IZR (low' (Z.of_nat (S n)) k y) <= IZR D * ss n).
  { rewrite (ss_rec n). unfold low'. replace (Z.of_nat (S n) + 1)%Z with (Z.of_nat (S (S n))) by lia. apply low_gen; assumption. }
  apply (IHn _ _ P B) in E; [exact E|]. intros i w W. destruct i; [injection W as <-; rewrite Nat.add_0_r; exact B|].
  replace (n + S i)%nat with (S n + i)%nat by lia. exact (L i w W).
Qed.
Lemma al_upper (i : nat) : Rabs (al a (S i)) <= IZR (Z.max ((Z.of_nat i + 1) * Z.abs (k + 1 - (Z.of_nat i + 1))) ((Z.of_nat i + 1) * Z.abs (Z.of_nat i + 1 - k))).
Proof.
  unfold al. rewrite INR_IZR_INZ. replace (Z.of_nat i + 1)%Z with (Z.of_nat (S i)) by lia. set (m := Z.of_nat (S i)). assert (Pm : 0 <= IZR m) by (apply (IZR_le 0); lia).
  assert (M1 := IZR_le _ _ (Z.le_max_l (m * Z.abs (k + 1 - m)) (m * Z.abs (m - k)))). assert (M2 := IZR_le _ _ (Z.le_max_r (m * Z.abs (k + 1 - m)) (m * Z.abs (m - k)))).
  rewrite mult_IZR, abs_IZR, minus_IZR, plus_IZR in M1. rewrite mult_IZR, abs_IZR, minus_IZR in M2.
  set (M := IZR (Z.max (m * Z.abs (k + 1 - m)) (m * Z.abs (m - k)))) in *. clearbody M.
  pose proof (Rle_abs (IZR k + 1 - IZR m)) as A1. pose proof (Rle_abs (IZR m - IZR k)) as A2. apply Rabs_le. split.
  - assert (IZR m * (IZR m - a) <= M); [|lra]. apply Rle_trans with (IZR m * Rabs (IZR m - IZR k)); [|exact M2]. apply Rmult_le_compat_l; lra.
  - assert (IZR m * (a - IZR m) <= M); [|lra]. apply Rle_trans with (IZR m * Rabs (IZR k + 1 - IZR m)); [|exact M1]. apply Rmult_le_compat_l; lra.
Qed.
Lemma zrun_ok c l : 0 <= c -> forall i y acc r, (forall j z, nth_error l j = Some z -> IZR z <= IZR D * ss (i + j)) ->
  IZR y <= IZR D * rr a x i -> c * qprod a x i <= IZR acc -> zrun l k (Z.of_nat i) y acc = Some r -> c * qprod a x (i + length l) <= IZR r.
Proof.
  intros Hc. induction l as [|s l IH]; intros i y acc r L Y A E.
  - injection E as <-. cbn [length]. rewrite Nat.add_0_r. exact A.
  - cbn [zrun] in E. destruct ((0 <? s) && (0 <? y))%Z eqn:P; [|discriminate E]. apply andb_prop in P. destruct P as (Ps & Py). apply Z.ltb_lt in Ps, Py.
    cbn [length]. replace (i + S (length l))%nat with (S i + length l)%nat by lia.
    replace (Z.of_nat i + 1)%Z with (Z.of_nat (S i)) in E by lia.
    refine (IH (S i) _ _ r _ _ _ E).
    + intros j z Hz. replace (S i + j)%nat with (i + S j)%nat by lia. exact (L (S j) z Hz).
    + unfold low. cbn [rr]. apply low_gen; [exact Py|exact Y].
    + assert (Ls := L O s eq_refl). rewrite Nat.add_0_r in Ls. pose proof (al_upper i) as U. replace (Z.of_nat i + 1)%Z with (Z.of_nat (S i)) in U by lia.
      set (M := Z.max (Z.of_nat (S i) * Z.abs (k + 1 - Z.of_nat (S i))) (Z.of_nat (S i) * Z.abs (Z.of_nat (S i) - k))) in *.
      eapply Rle_trans; [|apply cdiv_ge; lia]. cbn [qprod]. rewrite !mult_IZR.
      assert (Is : 0 < IZR s) by (apply IZR_lt, Ps). assert (Iy : 0 < IZR y) by (apply IZR_lt, Py). pose proof D_pos as Pd. pose proof (ss_pos i) as S1. pose proof (rr_pos a x Ha Hx i) as R1.
      pose proof (qprod_pos a x Ha Hx i) as Q1. pose proof (uu_pos a x Ha Hx i) as U1. pose proof (uu_pos a x Ha Hx (S i)) as U2. pose proof (Rabs_pos (al a (S i))) as Pa.
      assert (Eq : qf a x i = Rabs (al a (S i)) / (ss i * rr a x i)) by (unfold qf, ss; field; lra). rewrite Eq.
      apply (proj1 (Rle_div_r _ _ _ (Rmult_lt_0_compat _ _ Is Iy))).
      assert (W : IZR s * IZR y <= IZR D * ss i * (IZR D * rr a x i)) by (apply Rmult_le_compat; lra).
      assert (T0 : 0 <= Rabs (al a (S i)) / (ss i * rr a x i)) by (apply Rdiv_le_0_compat; [exact Pa|apply Rmult_lt_0_compat; assumption]).
      apply Rle_trans with (c * (qprod a x i * (Rabs (al a (S i)) / (ss i * rr a x i))) * (IZR D * ss i * (IZR D * rr a x i))).
      { apply Rmult_le_compat_l; [|exact W]. apply Rmult_le_pos; [exact Hc|]. apply Rmult_le_pos; assumption. }
      replace (c * (qprod a x i * (Rabs (al a (S i)) / (ss i * rr a x i))) * (IZR D * ss i * (IZR D * rr a x i)))
        with (c * qprod a x i * Rabs (al a (S i)) * (IZR D * IZR D)) by (field; lra).
      apply Rmult_le_compat_r; [apply Rmult_le_pos; lra|]. apply Rmult_le_compat; [|exact Pa|exact A|exact U]. apply Rmult_le_pos; assumption.
Qed.
Lemma nth_firstn {A} (l : list A) n : forall j z, nth_error (firstn n l) j = Some z -> nth_error l j = Some z.
Proof.
  revert n. induction l as [|h t IH]; intros n j z E; [rewrite firstn_nil in E; exact E|]. destruct n; [destruct j; discriminate E|].
  destruct j; [exact E|]. cbn in E |- *. exact (IH n j z E).
Qed.
Lemma zcheck_ok n b : zcheck n k b = true -> 2 ^ 64 * qprod a x 54 <= IZR b.
Proof.
  intros C. unfold zcheck in C. apply andb_prop in C. destruct C as (C1 & C2). apply Nat.eqb_eq in C1.
  destruct (zrun (ztable n k) k 0 (2 * D) (2 ^ 64)) as [r|] eqn:E; [|discriminate C2]. apply Z.leb_le, IZR_le in C2.
  assert (P : 0 < 2 ^ 64) by (apply pow_lt; lra).
  assert (B : 2 ^ 64 * qprod a x (0 + length (ztable n k)) <= IZR r).
  { apply (zrun_ok (2 ^ 64) (ztable n k) ltac:(lra) 0 (2 * D) (2 ^ 64)); [|..|exact E].
    - intros j z Hz. apply nth_firstn in Hz. cbn [Nat.add]. apply (zback_ok n (D * (Z.of_nat n + 1)) []); [unfold D; lia| | |exact Hz].
      + rewrite mult_IZR, plus_IZR, <- INR_IZR_INZ. apply Rmult_le_compat_l; [left; apply D_pos|]. apply ss_ge.
      + intros i w W. destruct i; discriminate W.
    - rewrite mult_IZR. rewrite Rmult_comm. apply Rmult_le_compat_l; [left; apply D_pos|]. pose proof (rr_ge a x Ha Hx 0) as R0. cbn [INR] in R0. lra.
    - cbn [qprod]. rewrite Rmult_1_r. right. exact (pow_IZR 2 64). }
  rewrite C1 in B. cbn [Nat.add] in B. exact (Rle_trans _ _ _ B C2).
Qed.
End Shape.

Definition zlim (k : Z) : Z := if (k =? 0)%Z then (2 ^ 27 - 2 ^ 20)%Z else (2 ^ 19)%Z.
Lemma ztables_true : forallb (fun j => zcheck (60 + j) (Z.of_nat j) (zlim (Z.of_nat j))) (seq 0 64) = true. Proof. vm_compute. reflexivity. Qed.
Lemma ztables_at j : (j < 64)%nat -> zcheck (60 + j) (Z.of_nat j) (zlim (Z.of_nat j)) = true.
Proof.
  intros H. exact (proj1 (forallb_forall (fun j => zcheck (60 + j) (Z.of_nat j) (zlim (Z.of_nat j))) (seq 0 64)) ztables_true j (proj2 (in_seq 64 0 j) ltac:(lia))).
Qed.
Lemma zlim_0 : zlim 0 = (2 ^ 27 - 2 ^ 20)%Z. Proof. reflexivity. Qed.
Lemma zlim_pos k : (0 < k)%Z -> zlim k = (2 ^ 19)%Z.
Proof. intros H. unfold zlim. destruct (k =? 0)%Z eqn:E; [apply Z.eqb_eq in E; lia|reflexivity]. Qed.
Lemma qprod_table a x j : 0 < a -> a + 1 <= x -> (j < 64)%nat -> IZR (Z.of_nat j) <= a <= IZR (Z.of_nat j) + 1 ->
  2 ^ 64 * qprod a x 54 <= IZR (zlim (Z.of_nat j)).
Proof.
  intros Ha Hx Hj Hk. exact (zcheck_ok a x Ha Hx (Z.of_nat j) Hk (60 + j) _ (ztables_at j Hj)).
Qed.
Lemma shape_floor a : 0 < a <= 64 -> exists j, (j < 64)%nat /\ IZR (Z.of_nat j) <= a <= IZR (Z.of_nat j) + 1 /\ (1 <= a -> (0 < j)%nat).
Proof.
  intros Ha. destruct (floor_nat a ltac:(lra)) as (s & _ & S1 & S2). rewrite INR_IZR_INZ in S1, S2. destruct (Nat.lt_ge_cases s 64) as [N|N].
  - exists s. split; [exact N|]. split; [lra|]. intros H1. destruct s; [cbn in S2; lra|lia].
  - assert (L := IZR_le 64 (Z.of_nat s) ltac:(lia)). exists 63%nat. change (IZR (Z.of_nat 63)) with 63. split; [lia|]. split; [lra|lia].
Qed.
(** products of 54 factors for shapes up to 64 *)
Lemma qprod_small a x : 0 < a <= 64 -> a + 1 <= x -> qprod a x 54 <= / 2 ^ 37 - / 2 ^ 44 /\ (1 <= a -> qprod a x 54 <= / 2 ^ 45).
Proof.
  intros Ha Hx. destruct (shape_floor a Ha) as (j & J1 & J2 & J3). pose proof (qprod_table a x j (proj1 Ha) Hx J1 J2) as Q.
  destruct j as [|j].
  - change (Z.of_nat 0) with 0%Z in Q. rewrite zlim_0 in Q. change (IZR (2 ^ 27 - 2 ^ 20)) with (IZR 133169152) in Q. split; [lra|]. intros H1. specialize (J3 H1). lia.
  - rewrite zlim_pos in Q by lia. change (IZR (2 ^ 19)) with (IZR 524288) in Q. split; [|intros _]; lra.
Qed.

(** ** Large shapes, arguments above 2.35 a *)
Section Large.
Variables a x : R.
Hypothesis (Ha : 15 < a) (Hx : 235 / 100 * a <= x).
Lemma La : 0 < a. Proof. lra. Qed.
Lemma Lx : a + 1 <= x. Proof. lra. Qed.
Lemma rr_big n : x - a + 1 + INR n <= rr a x n.
Proof.
  induction n; [cbn [rr]; unfold bb; cbn [INR]; lra|]. cbn [rr]. unfold bb, al. pose proof (rr_pos a x La Lx n) as P. pose proof (pos_INR n) as N.
  rewrite S_INR. set (k := INR n) in *. set (y := rr a x n) in *. clearbody k y. destruct (Rle_dec a (k + 1)) as [L|L].
  - assert (Q : (k + 1) * (k + 1 - a) / y <= k + 1 - a). { apply (proj2 (Rle_div_l _ _ _ P)). nra. }
    replace (- (k + 1) * (k + 1 - a) / y) with (- ((k + 1) * (k + 1 - a) / y)) by (field; lra). lra.
  - assert (Q : 0 <= - (k + 1) * (k + 1 - a) / y) by (apply Rdiv_le_0_compat; [nra|lra]). lra.
Qed.
Lemma ss_big n : x - a + 1 + INR n <= ss a x n.
Proof.
  rewrite (ss_rec a x La Lx n). unfold bb, al. pose proof (ss_ge a x La Lx (S n)) as P. pose proof (pos_INR n) as N. rewrite S_INR in P.
  rewrite !S_INR. set (k := INR n) in *. set (y := ss a x (S n)) in *. clearbody k y. destruct (Rle_dec a (k + 1 + 1)) as [L|L].
  - assert (Py : 0 < y) by lra. assert (Q : (k + 1 + 1) * (k + 1 + 1 - a) / y <= k + 1 + 1 - a). { apply (proj2 (Rle_div_l _ _ _ Py)). nra. }
    replace (- (k + 1 + 1) * (k + 1 + 1 - a) / y) with (- ((k + 1 + 1) * (k + 1 + 1 - a) / y)) by (field; lra). lra.
  - assert (Q : 0 <= - (k + 1 + 1) * (k + 1 + 1 - a) / y) by (apply Rdiv_le_0_compat; [nra|lra]). lra.
Qed.
Lemma qf_half i : (i < 54)%nat -> qf a x i <= / 2.
Proof.
  intros Hi. pose proof (uu_pos a x La Lx i) as U1. pose proof (uu_pos a x La Lx (S i)) as U2. pose proof (rr_pos a x La Lx i) as R1. pose proof (ss_pos a x La Lx i) as S1.
  assert (Eq : qf a x i = Rabs (al a (S i)) / (ss a x i * rr a x i)) by (unfold qf, ss; field; lra). rewrite Eq.
  apply (proj2 (Rle_div_l _ _ _ (Rmult_lt_0_compat _ _ S1 R1))). pose proof (rr_big i) as B1. pose proof (ss_big i) as B2.
  assert (I54 : INR i + 1 <= 54). { rewrite <- S_INR. replace 54 with (INR 54) by (rewrite INR_IZR_INZ; reflexivity). apply le_INR. lia. }
  pose proof (pos_INR i) as N. unfold al. rewrite S_INR. set (m := INR i + 1) in *.
  assert (W : (x - a + m) * (x - a + m) <= ss a x i * rr a x i) by (apply Rmult_le_compat; unfold m; lra).
  assert (G : Rabs (- m * (m - a)) <= / 2 * ((x - a + m) * (x - a + m))); [|lra]. assert (M1 : 1 <= m) by (unfold m; lra). clearbody m. clear - Ha Hx M1 I54.
  assert (T : 135 / 100 * a <= x - a) by lra. set (t := x - a) in *. replace x with (t + a) in Hx by (unfold t; ring). clearbody t.
  apply Rabs_le. split; nra.
Qed.
Lemma qprod_half n : (n <= 54)%nat -> qprod a x n <= / 2 ^ n.
Proof.
  induction n; intros H; [cbn; lra|]. cbn [qprod]. specialize (IHn ltac:(lia)). pose proof (qf_half n ltac:(lia)) as Q. pose proof (qf_pos a x La Lx n) as P. pose proof (qprod_pos a x La Lx n) as PP.
  replace (/ 2 ^ S n) with (/ 2 ^ n * / 2); [apply Rmult_le_compat; assumption|]. cbn [pow]. rewrite Rinv_mult. ring.
Qed.
Lemma al1_big : Rabs (al a 1) * uu a x 1 <= uu a x 0.
Proof.
  pose proof (ss_big 0) as S0. unfold ss in S0. pose proof (uu_pos a x La Lx 1) as U1. apply (proj2 (Rle_div_r _ _ _ U1)) in S0. cbn [INR] in S0.
  unfold al. cbn [INR]. rewrite Rabs_pos_eq by lra. nra.
Qed.
End Large.

(** ** The value of the loop against u_0 *)
Definition cf_arg (a x : R) : Prop := 0 < a /\ a + 1 <= x /\ x <= 2 ^ 1000 /\ (a <= 64 \/ 235 / 100 * a <= x).
Lemma al1_small a x : cf_arg a x -> Rabs (al a 1) * uu a x 1 <= 64 * uu a x 0.
Proof.
  intros (Ha & Hx & _ & D). pose proof (uu_pos a x Ha Hx 0) as U0. pose proof (uu_pos a x Ha Hx 1) as U1. destruct (Rle_dec a 64) as [L|L].
  - pose proof (uu_dec a x Ha Hx 0) as U. cbn [INR] in U. assert (A : Rabs (al a 1) <= 64) by (unfold al; cbn [INR]; apply Rabs_le; lra).
    apply Rmult_le_compat; [apply Rabs_pos|lra|exact A|lra].
  - pose proof (al1_big a x ltac:(lra) ltac:(lra)). lra.
Qed.
Lemma cf_min_1000 x : x <= 2 ^ 1000 -> cf_min * (x + 1) <= 1.
Proof.
  intros H. destruct cf_min_val as (P & _). assert (T : 1 <= 2 ^ 1000) by (apply pow_R1_Rle; lra).
  assert (E : cf_min * 2 ^ 1000 = / 2 ^ 20).
  { unfold cf_min. change 1022%nat with (22 + 1000)%nat. rewrite (pow_add 2 22 1000). assert (N : 2 ^ 1000 <> 0) by lra. set (Y := 2 ^ 1000) in *. clearbody Y.
    rewrite Rinv_mult. replace (4 * (/ 2 ^ 22 * / Y) * Y) with (4 * / 2 ^ 22 * (/ Y * Y)) by ring. rewrite Rinv_l by exact N. cbn. lra. }
  assert (/ 2 ^ 20 <= 1 / 4) by (cbn; lra). set (Y := 2 ^ 1000) in *. clearbody Y. nra.
Qed.
Lemma cf_value_close a x : cf_arg a x -> Rabs (cf_value a x - uu a x 0) <= / 2 ^ 37 * uu a x 0 /\ (1 <= a -> Rabs (cf_value a x - uu a x 0) <= / 2 ^ 44 * uu a x 0).
Proof.
  intros H. pose proof (al1_small a x H) as A1. destruct H as (Ha & Hx & H2 & D). pose proof (uu_pos a x Ha Hx 0) as U0. pose proof (uu_pos a x Ha Hx 1) as U1.
  destruct cf_min_val as (P & PM). destruct eps4_val as (_ & Ee).
  assert (B0 : Rabs (u0' a x - uu a x 0) <= / 2 ^ 54 * uu a x 0).
  { unfold u0'. replace (uu a x 0 + al a 1 * cf_min * uu a x 1 - uu a x 0) with (cf_min * (al a 1 * uu a x 1)) by ring.
    rewrite Rabs_mult, Rabs_mult, (Rabs_pos_eq cf_min), (Rabs_pos_eq (uu a x 1)) by lra.
    apply Rle_trans with (/ 2 ^ 60 * (64 * uu a x 0)); [|lra]. apply Rmult_le_compat; [lra|apply Rmult_le_pos; [apply Rabs_pos|lra]|exact PM|exact A1]. }
  destruct (cf_value_conv a x Ha Hx) as (m & M1 & -> & M2).
  assert (E : Rabs (hh a x m - uu a x 0) <= Rabs (err a x m) + Rabs (u0' a x - uu a x 0)).
  { replace (hh a x m - uu a x 0) with (- err a x m + (u0' a x - uu a x 0)) by (unfold err; ring). eapply Rle_trans; [apply Rabs_triang|]. rewrite Rabs_Ropp. lra. }
  destruct (Nat.eq_dec m 53) as [->|N].
  - pose proof (err_prod a x Ha Hx 53 (cf_min_1000 x H2)) as EP.
    assert (Q : qprod a x 54 <= / 2 ^ 37 - / 2 ^ 44 /\ (1 <= a -> qprod a x 54 <= / 2 ^ 45)).
    { destruct (Rle_dec a 64) as [L|L]; [apply qprod_small; lra|]. pose proof (qprod_half a x ltac:(lra) ltac:(lra) 54 ltac:(lia)). split; [|intros _]; lra. }
    destruct Q as (Q1 & Q2). set (q := qprod a x 54) in *. set (e := Rabs (err a x 53)) in *. set (u := uu a x 0) in *.
    assert (V1 : u * q <= u * (/ 2 ^ 37 - / 2 ^ 44)) by (apply Rmult_le_compat_l; lra).
    split; [lra|]. intros H1. specialize (Q2 H1). assert (V2 : u * q <= u * / 2 ^ 45) by (apply Rmult_le_compat_l; lra). lra.
  - specialize (M2 ltac:(lia)). destruct m as [|n]; [lia|]. pose proof (stop_bound a x Ha Hx n M2 ltac:(lia)) as SB. rewrite Ee in *.
    assert (Hn : hh a x n <= hh a x (S n) * (1 + / 2 ^ 49)).
    { cbn [hh]. pose proof (hh_pos a x Ha Hx n) as Hp. set (d := 1 / rr a x (S n) * cc a x (S n)) in *. apply Rabs_def2b in M2 || (apply Rabs_le_between in M2). rewrite Rmult_assoc.
      rewrite <- (Rmult_1_r (hh a x n)) at 1. apply Rmult_le_compat_l; [lra|]. assert (1 - / 2 ^ 50 <= d) by lra. clear - H. nra. }
    pose proof (hh_pos a x Ha Hx (S n)) as Hp. set (h := hh a x (S n)) in *. set (h' := hh a x n) in *. set (u := uu a x 0) in *.
    assert (HE : Rabs (h - u) <= / 2 ^ 44 * u).
    { set (d := Rabs (h - u)) in *. assert (h <= u + d) by (unfold d; pose proof (Rle_abs (h - u)); lra). clearbody d h h' u. clear - E SB Hn B0 U0 Hp H. lra. }
    split; [|intros _; exact HE]. lra.
Qed.

(** ** Shapes below 1: the convergents increase; a case that runs into the limit *)
Section Below.
Variables a x : R.
Hypothesis (Ha : 0 < a < 1) (Hx : a + 1 <= x) (Hm : cf_min * (x + 1) < 1).
Lemma Ba : 0 < a. Proof. lra. Qed.
Lemma al_neg n : al a (S n) < 0.
Proof. unfold al. rewrite S_INR. pose proof (pos_INR n). nra. Qed.
Lemma err_pos n : 0 < err a x n.
Proof.
  induction n.
  - rewrite err_0 by (exact Ba || exact Hx). pose proof (al_neg 0) as A. pose proof (uu_pos a x Ba Hx 1) as U. pose proof (rr_pos a x Ba Hx 0) as P.
    assert (M : cf_min < / rr a x 0). { apply (Rmult_lt_reg_r (rr a x 0)); [exact P|]. rewrite Rinv_l by lra. destruct cf_min_val. cbn [rr]. unfold bb. cbn [INR]. nra. }
    assert (al a 1 * uu a x 1 < 0) by nra. nra.
  - rewrite err_S by (exact Ba || exact Hx). pose proof (al_neg (S n)) as A. pose proof (uu_pos a x Ba Hx (S n)) as U1. pose proof (uu_pos a x Ba Hx (S (S n))) as U2. pose proof (rr_pos a x Ba Hx (S n)) as P.
    replace (- err a x n * (al a (S (S n)) * uu a x (S (S n)) / (uu a x (S n) * rr a x (S n)))) with (err a x n * (- al a (S (S n)) * uu a x (S (S n)) / (uu a x (S n) * rr a x (S n)))) by (field; lra).
    apply Rmult_lt_0_compat; [exact IHn|]. apply Rdiv_lt_0_compat; apply Rmult_lt_0_compat; lra.
Qed.
Lemma hh_incr n : hh a x n < hh a x (S n).
Proof.
  pose proof (err_pos (S n)) as E. rewrite err_delta in E by (exact Ba || exact Hx). pose proof (al_neg (S n)) as A. pose proof (uu_pos a x Ba Hx (S (S n))) as U2. pose proof (dd_pos a x Ba Hx n) as P.
  assert (0 < - al a (S (S n)) * uu a x (S (S n)) * dd a x n) by (apply Rmult_lt_0_compat; [apply Rmult_lt_0_compat; lra|exact P]).
  set (w := - al a (S (S n)) * uu a x (S (S n)) * dd a x n) in *. replace (al a (S (S n)) * uu a x (S (S n)) * dd a x n) with (- w) in E by (unfold w; ring). nra.
Qed.
Lemma hh_mono n : forall m, (m <= n)%nat -> hh a x m <= hh a x n.
Proof.
  induction n; intros m H; [replace m with O by lia; lra|]. destruct (Nat.eq_dec m (S n)) as [->|N]; [lra|]. pose proof (IHn m ltac:(lia)). pose proof (hh_incr n). lra.
Qed.
Lemma value_below : cf_value a x * (cc a x 54 / rr a x 54) < uu a x 0.
Proof.
  destruct (cf_value_conv a x Ba Hx) as (m & M1 & -> & _). pose proof (hh_mono 53 m ltac:(lia)) as M. pose proof (err_pos 54) as E. unfold err, u0' in E.
  pose proof (al_neg 0) as A. pose proof (uu_pos a x Ba Hx 1) as U. destruct cf_min_val as (P & _). assert (N0 : 0 < - al a 1 * cf_min * uu a x 1) by (apply Rmult_lt_0_compat; [apply Rmult_lt_0_compat; lra|exact U]).
  change (hh a x 54) with (hh a x 53 * (1 / rr a x 54 * cc a x 54)) in E. pose proof (rr_pos a x Ba Hx 54) as R1. pose proof (cc_pos a x Ba Hx 54) as C1.
  replace (1 / rr a x 54 * cc a x 54) with (cc a x 54 / rr a x 54) in E by (field; lra).
  assert (0 < cc a x 54 / rr a x 54) by (apply Rdiv_lt_0_compat; assumption). nra.
Qed.
End Below.

(** the shape 1/1024 at 1025/1024, with 80 binary places *)
Definition U80 : Z := (2 ^ 80)%Z.
Fixpoint zlow (n : nat) : Z := match n with
  | O => (2 ^ 1000)%Z
  | S m => let k := Z.of_nat n in let y := zlow m in if (0 <? y)%Z then ((2 + 2 * k) * U80 - cdiv (k * (1024 * k - 1) * (2 ^ 70 * U80)) y)%Z else 0%Z end.
Fixpoint zup (n : nat) : Z := match n with
  | O => (2 * U80)%Z
  | S m => let k := Z.of_nat n in ((2 + 2 * k) * U80 - k * (1024 * k - 1) * (2 ^ 70 * U80) / zup m)%Z end.
Lemma U80_pos : 0 < IZR U80. Proof. apply IZR_lt. reflexivity. Qed.
Lemma U80_70 : IZR (2 ^ 70 * U80) * 1024 = IZR U80 * IZR U80. Proof. rewrite <- !mult_IZR. reflexivity. Qed.
Lemma fdiv_le x y : (0 < y)%Z -> IZR (x / y) <= IZR x / IZR y.
Proof. intros H. assert (Hy : 0 < IZR y) by (apply IZR_lt, H). apply (proj1 (Rle_div_r _ _ _ Hy)). rewrite <- mult_IZR. apply IZR_le. pose proof (Z.mul_div_le x y H). lia. Qed.
Lemma arg_1024 : 0 < 1 / 1024 < 1 /\ 1 / 1024 + 1 <= 1025 / 1024. Proof. lra. Qed.
Lemma num_1024 n : IZR (Z.of_nat (S n) * (1024 * Z.of_nat (S n) - 1)) = - al (1 / 1024) (S n) * 1024.
Proof. unfold al. rewrite mult_IZR, minus_IZR, mult_IZR, <- INR_IZR_INZ. field. Qed.
Lemma den_1024 n : IZR ((2 + 2 * Z.of_nat n) * U80) = IZR U80 * bb (1 / 1024) (1025 / 1024) n.
Proof. unfold bb. rewrite mult_IZR, plus_IZR, mult_IZR, <- INR_IZR_INZ. field. Qed.
Lemma zlow_ok n : (0 < zlow n)%Z -> IZR (zlow n) <= IZR U80 * cc (1 / 1024) (1025 / 1024) n.
Proof.
  destruct arg_1024 as (Ha & Hx). pose proof U80_pos as PU. induction n; intros H.
  - change (zlow 0) with (2 ^ Z.of_nat 1000)%Z. rewrite <- pow_IZR. cbn [cc]. destruct cf_min_val as (P & _). pose proof (cf_min_1000 (2 ^ 1000) ltac:(lra)) as M.
    assert (T : 0 < 2 ^ 1000) by (apply pow_lt; lra). assert (G : 2 ^ 1000 <= 1 / cf_min). { apply (proj1 (Rle_div_r _ _ _ P)). nra. }
    assert (U1 : 1 <= IZR U80) by (apply (IZR_le 1); unfold U80; lia). set (Y := 2 ^ 1000) in *. clearbody Y. set (W := 1 / cf_min) in *. clearbody W. nra.
  - cbn [zlow] in H |- *. cbv zeta in *. destruct (0 <? zlow n)%Z eqn:E; [|lia]. apply Z.ltb_lt in E. specialize (IHn E). assert (Pz : 0 < IZR (zlow n)) by (apply IZR_lt, E).
    pose proof (cdiv_ge (Z.of_nat (S n) * (1024 * Z.of_nat (S n) - 1) * (2 ^ 70 * U80)) (zlow n) E) as C. rewrite minus_IZR, den_1024. rewrite mult_IZR, num_1024 in C.
    cbn [cc]. pose proof (cc_pos _ _ (proj1 Ha) Hx n) as CP. pose proof (al_neg _ Ha n) as AN. set (z := IZR (zlow n)) in *. set (A := al (1 / 1024) (S n)) in *. set (y := cc (1 / 1024) (1025 / 1024) n) in *.
    replace (- A * 1024 * IZR (2 ^ 70 * U80)) with (- A * (IZR U80 * IZR U80)) in C by (rewrite <- U80_70; ring).
    assert (Q : IZR U80 * (- A / y) <= - A * (IZR U80 * IZR U80) / z).
    { apply (proj1 (Rle_div_r _ _ _ Pz)). apply Rle_trans with (IZR U80 * (- A / y) * (IZR U80 * y)); [|right; field; lra].
      apply Rmult_le_compat_l; [|exact IHn]. apply Rmult_le_pos; [lra|]. apply Rdiv_le_0_compat; lra. }
    replace (IZR U80 * (bb (1 / 1024) (1025 / 1024) (S n) + A / y)) with (IZR U80 * bb (1 / 1024) (1025 / 1024) (S n) - IZR U80 * (- A / y)) by (field; lra). lra.
Qed.
Lemma zup_ok n : IZR U80 * rr (1 / 1024) (1025 / 1024) n <= IZR (zup n).
Proof.
  destruct arg_1024 as (Ha & Hx). pose proof U80_pos as PU. induction n.
  - cbn [zup rr]. unfold bb. rewrite mult_IZR. cbn [INR]. lra.
  - cbn [zup]. cbv zeta. pose proof (rr_pos _ _ (proj1 Ha) Hx n) as RP. pose proof (al_neg _ Ha n) as AN.
    assert (Pz : 0 < IZR (zup n)) by (pose proof (Rmult_lt_0_compat _ _ PU RP); lra). assert (E : (0 < zup n)%Z) by (apply lt_IZR, Pz).
    pose proof (fdiv_le (Z.of_nat (S n) * (1024 * Z.of_nat (S n) - 1) * (2 ^ 70 * U80)) (zup n) E) as C. rewrite minus_IZR, den_1024. rewrite mult_IZR, num_1024 in C.
    cbn [rr]. set (z := IZR (zup n)) in *. set (A := al (1 / 1024) (S n)) in *. set (y := rr (1 / 1024) (1025 / 1024) n) in *.
    replace (- A * 1024 * IZR (2 ^ 70 * U80)) with (- A * (IZR U80 * IZR U80)) in C by (rewrite <- U80_70; ring).
    assert (Q : - A * (IZR U80 * IZR U80) / z <= IZR U80 * (- A / y)).
    { apply (proj2 (Rle_div_l _ _ _ Pz)). apply Rle_trans with (IZR U80 * (- A / y) * (IZR U80 * y)); [right; field; lra|].
      apply Rmult_le_compat_l; [|exact IHn]. apply Rmult_le_pos; [lra|]. apply Rdiv_le_0_compat; lra. }
    replace (IZR U80 * (bb (1 / 1024) (1025 / 1024) (S n) + A / y)) with (IZR U80 * bb (1 / 1024) (1025 / 1024) (S n) - IZR U80 * (- A / y)) by (field; lra). lra.
Qed.
Lemma z_1024 : ((0 <? zlow 54) && (zup 54 * (2 ^ 40 + 1) <? zlow 54 * 2 ^ 40))%Z = true. Proof. vm_compute. reflexivity. Qed.
Lemma short_1024 : cf_value (1 / 1024) (1025 / 1024) * (1 + / 2 ^ 40) < uu (1 / 1024) (1025 / 1024) 0.
Proof.
  destruct arg_1024 as (Ha & Hx). pose proof U80_pos as PU. pose proof (cf_min_1000 (2 ^ 1000) ltac:(lra)) as M. destruct cf_min_val as (P & _).
  assert (T : 4 <= 2 ^ 1000). { change 1000%nat with (2 + 998)%nat. rewrite pow_add. assert (1 <= 2 ^ 998) by (apply pow_R1_Rle; lra). set (Y := 2 ^ 998) in *. clearbody Y. cbn. lra. }
  assert (Hm : cf_min * (1025 / 1024 + 1) < 1) by (set (Y := 2 ^ 1000) in *; clearbody Y; nra).
  pose proof (value_below _ _ Ha Hx Hm) as VB. eapply Rle_lt_trans; [|exact VB]. apply Rmult_le_compat_l.
  { destruct (cf_value_conv _ _ (proj1 Ha) Hx) as (m & _ & -> & _). left. apply hh_pos; [exact (proj1 Ha)|exact Hx]. }
  pose proof z_1024 as Z. apply andb_prop in Z. destruct Z as (Z1 & Z2). apply Z.ltb_lt in Z1, Z2. apply zlow_ok in Z1. pose proof (zup_ok 54) as Z3.
  apply IZR_lt in Z2. rewrite !mult_IZR, plus_IZR in Z2. change (IZR (2 ^ 40)) with (IZR 1099511627776) in Z2.
  pose proof (rr_pos _ _ (proj1 Ha) Hx 54) as RP. apply (proj1 (Rle_div_r _ _ _ RP)).
  set (r := rr (1 / 1024) (1025 / 1024) 54) in *. set (c := cc (1 / 1024) (1025 / 1024) 54) in *. set (zu := IZR (zup 54)) in *. set (zl := IZR (zlow 54)) in *. set (u := IZR U80) in *.
  clearbody r c zu zl u. clear - PU Z1 Z2 Z3. apply (Rmult_le_reg_l u); [exact PU|]. replace (u * ((1 + / 2 ^ 40) * r)) with (u * r * (1 + / 2 ^ 40)) by ring. lra.
Qed.
