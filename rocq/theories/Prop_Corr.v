(** C51, C52: correlated_normal_dist. *)
From Coq Require Import Reals List Arith Lia Lra Psatz.
From Verif Require Import CorrModel CorrProofs.
Import ListNotations.
Local Open Scope R_scope.

(** ** C51: the stored matrix is the Cholesky factor of the covariance matrix *)

Lemma make_square d A : length A = (d * d)%nat ->
  cn_param_make A = bind (cholesky d A) (fun H => Value (CnParam H d)).
Proof.
  intros HA. unfold cn_param_make. rewrite HA, Nat.sqrt_square. rewrite <- HA at 1. now rewrite firstn_all.
Qed.

Theorem C51_factorization : forall d A P, length A = (d * d)%nat -> symmetric d A ->
  cn_param_make A = Value P ->
  cn_d P = d /\ length (cn_H P) = (d * d)%nat /\ lower_triangular d (cn_H P) /\ factors d (cn_H P) A.
Proof.
  intros d A P HA HS HP. rewrite (make_square d A HA) in HP. pose proof (cholesky_ok d A HA HS) as G.
  destruct (cholesky d A) as [H| |]; cbn in HP; try discriminate HP. injection HP as <-. cbn in G |- *.
  split; [reflexivity|]. split; [apply G|]. now apply rows_done_factors.
Qed.

(** the factorization succeeds with positive pivots exactly for the positive definite matrices *)
Theorem C51_positive_definite : forall d A, length A = (d * d)%nat -> symmetric d A ->
  positive_definite d A <->
  exists P, cn_param_make A = Value P /\ forall i, (i < d)%nat -> 0 < entry d (cn_H P) i i.
Proof.
  intros d A HA HS. split.
  - intros PD. rewrite (make_square d A HA). pose proof (cholesky_ok d A HA HS) as G.
    destruct (cholesky d A) as [H| |]; cbn in G; [|tauto|tauto]. exists (CnParam H d). split; [reflexivity|].
    destruct G as (_ & _ & _ & _ & _ & G & _). now apply G.
  - intros (P & HP & Hd). destruct (C51_factorization d A P HA HS HP) as (_ & _ & HL & HF).
    now apply factor_definite with (cn_H P).
Qed.

(** no access outside a vector, for any argument range *)
Lemma chol_in_bounds d : forall A, length A = (d * d)%nat ->
  sat True (fun H => length H = (d * d)%nat) (cholesky d A).
Proof.
  intros A HA. unfold cholesky. change (fun H : list R => length H = (d * d)%nat)
    with ((fun (_ : nat) (H : list R) => length H = (d * d)%nat) (0 + d)%nat).
  apply sat_for; [assumption|]. intros i H Hi HL. unfold chol_row.
  apply sat_bind with (fun H => length H = (d * d)%nat).
  - change (fun H : list R => length H = (d * d)%nat)
      with ((fun (_ : nat) (H : list R) => length H = (d * d)%nat) (0 + i)%nat).
    apply sat_for; [assumption|]. intros k H' Hk HL'. unfold chol_entry. rewrite dot_ok by lia. cbn [bind].
    rewrite !rd_entry by lia. cbn [bind]. unfold rdiv. destruct (Req_EM_T _ 0); cbn [bind sat]; [exact I|].
    apply wr_entry; auto; lia.
  - intros H' HL'. rewrite dot_ok by lia. cbn [bind]. rewrite rd_entry by lia. cbn [bind]. unfold rsqrt.
    destruct (Rlt_dec _ 0); cbn [bind sat]; [exact I|]. apply sat_bind with (fun H => length H = (d * d)%nat).
    + apply wr_entry; auto; lia.
    + intros H2 HL2. change (fun H : list R => length H = (d * d)%nat)
        with ((fun (_ : nat) (H : list R) => length H = (d * d)%nat) (S i + (d - S i))%nat).
      apply sat_for; [assumption|]. intros k H3 Hk HL3. apply wr_entry; auto; lia.
Qed.

Theorem C51_in_bounds : forall A, cn_param_make A <> OutOfBounds /\
  forall P, cn_param_make A = Value P -> length (cn_H P) = (cn_d P * cn_d P)%nat /\
    (cn_d P * cn_d P <= length A < S (cn_d P) * S (cn_d P))%nat.
Proof.
  intros A. unfold cn_param_make. set (d := Nat.sqrt (length A)).
  pose proof (Nat.sqrt_spec (length A) ltac:(lia)) as Hs. fold d in Hs.
  pose proof (chol_in_bounds d (firstn (d * d) A) ltac:(rewrite firstn_length; lia)) as G.
  destruct (cholesky d _) as [H| |]; cbn in G |- *; try tauto.
  - split; [discriminate|]. intros P [= <-]. cbn. lia.
  - split; [discriminate|]. intros P [=].
Qed.

(** ** C51: d draws are H times the vector of d normal variates *)

(** parameters whose matrix has the right size *)
Definition well_formed (P : cn_param) : Prop :=
  (0 < cn_d P)%nat /\ length (cn_H P) = (cn_d P * cn_d P)%nat.

(** row i of the matrix times the vector zs *)
Definition row_times (P : cn_param) (zs : list R) (i : nat) : R :=
  rsum (cn_d P) (fun j => entry (cn_d P) (cn_H P) i j * nth j zs 0).

Lemma H_times_ok P zs : well_formed P -> (0 < length zs <= cn_d P)%nat ->
  H_times P zs = Value (rsum (length zs) (fun j => entry (cn_d P) (cn_H P) (length zs - 1) j * nth j zs 0)).
Proof.
  intros [Hd HH] Hz. unfold H_times. set (f := fun j => entry _ _ _ j * nth j zs 0).
  assert (G : forall m first, (first + m <= length zs)%nat ->
    for_ first m (fun j y => bind (rd (cn_H P) ((length zs - 1) * cn_d P + j)) (fun h => bind (rd zs j) (fun z =>
      Value (y + h * z)))) (rsum first f) = Value (rsum (first + m) f)).
  { induction m as [|m IH]; intros first Hm; cbn [for_].
    - now rewrite Nat.add_0_r.
    - rewrite rd_entry by lia. cbn [bind]. rewrite (rd_ok zs first) by lia. cbn [bind].
      change (rsum first f + _) with (rsum (S first) f). rewrite IH by lia. do 2 f_equal. lia. }
  apply (G (length zs) 0%nat). lia.
Qed.

(** draws within a block: pending variates pre, next variates zs *)
Lemma draws_pending P : well_formed P -> lower_triangular (cn_d P) (cn_H P) -> forall zs pre,
  (length pre + length zs = cn_d P)%nat -> (0 < length zs)%nat ->
  cn_draws (CnDist P pre) zs =
  Value (map (row_times P (pre ++ zs)) (seq (length pre) (length zs)), cn_make P).
Proof.
  intros Hw HL. induction zs as [|z zs IH]; intros pre Hl H0; [cbn in H0; lia|]. cbn [length] in Hl.
  cbn [cn_draws cn_draw cn_P cn_normal]. unfold cn_draw. cbn [cn_P cn_normal].
  rewrite H_times_ok by (auto; rewrite app_length; cbn; lia). cbn [bind].
  assert (Hy : rsum (length (pre ++ [z])) (fun j => entry (cn_d P) (cn_H P) (length (pre ++ [z]) - 1) j * nth j (pre ++ [z]) 0)
               = row_times P (pre ++ z :: zs) (length pre)).
  { unfold row_times. rewrite app_length. cbn [length]. replace (length pre + 1 - 1)%nat with (length pre) by lia.
    rewrite (rsum_cut (length pre + 1) (cn_d P)); [|lia|].
    - apply rsum_ext. intros j Hj. f_equal. change (z :: zs) with ([z] ++ zs). rewrite app_assoc.
      rewrite (app_nth1 (pre ++ [z])); [reflexivity|rewrite app_length; cbn; lia].
    - intros j Hj. rewrite HL by lia. ring. }
  rewrite Hy. rewrite app_length. cbn [length]. cbn [seq map].
  destruct (Nat.eqb_spec (length pre + 1) (cn_d P)) as [E|E].
  - assert (zs = []) by (destruct zs; [reflexivity|cbn in *; lia]). subst zs. reflexivity.
  - specialize (IH (pre ++ [z])). rewrite app_length in IH. cbn [length] in IH.
    rewrite IH by (try lia; destruct zs; cbn in *; lia). cbn [bind]. rewrite <- app_assoc. cbn [app].
    replace (length pre + 1)%nat with (S (length pre)) by lia. reflexivity.
Qed.

Theorem C51_draws : forall A P zs, cn_param_make A = Value P -> length zs = cn_d P ->
  symmetric (cn_d P) A -> length A = (cn_d P * cn_d P)%nat -> (0 < cn_d P)%nat ->
  exists ys, cn_draws (cn_make P) zs = Value (ys, cn_make P) /\ length ys = cn_d P /\
    forall i, (i < cn_d P)%nat -> nth i ys 0 = rsum (cn_d P) (fun j => entry (cn_d P) (cn_H P) i j * nth j zs 0).
Proof.
  intros A P zs HP Hz HS HA H0. destruct (C51_factorization (cn_d P) A P HA HS HP) as (_ & HH & HL & _).
  exists (map (row_times P zs) (seq 0 (length zs))). split; [|split].
  - unfold cn_make at 1. apply (draws_pending P); [split; assumption|assumption|cbn; lia|lia].
  - rewrite map_length, seq_length. assumption.
  - intros i Hi. rewrite (nth_indep _ 0 (row_times P zs 0)) by (rewrite map_length, seq_length; lia).
    rewrite (map_nth (row_times P zs)), seq_nth by lia. reflexivity.
Qed.

(** draws never read outside the matrix while the parameters stay the same *)
Theorem C52_same_parameters : forall P zs, well_formed P ->
  exists ys g, cn_draws (cn_make P) zs = Value (ys, g) /\ length ys = length zs /\ cn_P g = P.
Proof.
  intros P zs Hw.
  assert (G : forall zs pre, (length pre < cn_d P)%nat ->
    exists ys g, cn_draws (CnDist P pre) zs = Value (ys, g) /\ length ys = length zs /\ cn_P g = P).
  { clear zs. induction zs as [|z zs IH]; intros pre Hp.
    - exists [], (CnDist P pre). auto.
    - cbn [cn_draws]. unfold cn_draw. cbn [cn_P cn_normal].
      rewrite H_times_ok by (auto; rewrite app_length; cbn; lia). cbn [bind].
      set (nx := if Nat.eqb _ _ then _ else _).
      assert (Hn : (length nx < cn_d P)%nat).
      { unfold nx. destruct (Nat.eqb_spec (length (pre ++ [z])) (cn_d P)) as [E|E]; [cbn; destruct Hw; lia|].
        rewrite app_length in *. cbn in *. lia. }
      destruct (IH nx Hn) as (ys & g & -> & Hl & Hg). cbn [bind]. eexists _, g. split; [reflexivity|]. cbn. auto. }
  apply G. destruct Hw. cbn. lia.
Qed.

(** reset() drops the pending variates, so that new parameters are safe after it *)
Theorem C52_reset : forall g P zs, well_formed P ->
  exists ys g', cn_draws (cn_set_param (cn_reset g) P) zs = Value (ys, g') /\ length ys = length zs.
Proof.
  intros g P zs Hw. destruct (C52_same_parameters P zs Hw) as (ys & g' & H & Hl & _). exists ys, g'. split; assumption.
Qed.

(** ** Examples *)

(** covariance [[4,2],[2,5]] has the factor [[2,0],[1,2]] *)
Lemma sqrt_4 : sqrt (4 - 0) = 2.
Proof. replace (4 - 0) with (2 * 2) by ring. apply sqrt_square. lra. Qed.
Example C51_ex : cn_param_make [4; 2; 2; 5] = Value (CnParam [2; 0; 1; 2] 2).
Proof.
  rewrite (make_square 2) by reflexivity. unfold cholesky. cbn [for_ Nat.mul Nat.add].
  unfold chol_row, chol_entry, dot. cbn -[sqrt Req_EM_T Rlt_dec]. unfold rsqrt.
  destruct (Rlt_dec (4 - 0) 0); [lra|]. rewrite sqrt_4. cbn -[sqrt Req_EM_T Rlt_dec]. unfold rdiv.
  destruct (Req_EM_T 2 0); [lra|]. cbn -[sqrt Req_EM_T Rlt_dec]. unfold rsqrt.
  replace ((2 - 0) / 2) with 1 by field. replace (5 - (0 + 1 * 1)) with (2 * 2) by ring.
  destruct (Rlt_dec (2 * 2) 0); [lra|]. rewrite sqrt_square by lra. reflexivity.
Qed.
Example C51_ex_draws : exists ys, cn_draws (cn_make (CnParam [2; 0; 1; 2] 2)) [1; 3] = Value (ys, cn_make (CnParam [2; 0; 1; 2] 2))
  /\ nth 0 ys 0 = 2 /\ nth 1 ys 0 = 7.
Proof.
  destruct (C51_draws [4; 2; 2; 5] (CnParam [2; 0; 1; 2] 2) [1; 3]) as (ys & H & _ & Hy).
  - apply C51_ex.
  - reflexivity.
  - intros [|[|i]] [|[|j]] Hi Hj; cbn in *; try lia; reflexivity.
  - reflexivity.
  - cbn. lia.
  - exists ys. split; [exact H|]. rewrite (Hy 0%nat), (Hy 1%nat) by (cbn; lia). cbn. lra.
Qed.

(** ** Refutations *)

(** a parameter change that shrinks the dimension while variates are pending: out of bounds *)
Theorem C52_parameter_change_refuted : exists P1 P2 z1 z2 z3 g y1 y2, well_formed P1 /\ well_formed P2 /\
  cn_draws (cn_make P1) [z1; z2] = Value ([y1; y2], g) /\
  cn_draw (cn_set_param g P2) z3 = OutOfBounds.
Proof.
  exists (CnParam [1; 0; 0; 0; 1; 0; 0; 0; 1] 3), (CnParam [1] 1), 0, 0, 0.
  do 3 eexists. split; [split; cbn; lia|]. split; [split; cbn; lia|]. split; [reflexivity|]. reflexivity.
Qed.

(** growing the dimension while variates are pending mixes old variates into the first draws *)
Theorem C52_stale_variates_refuted : exists P1 P2 z1 z2 g y1, well_formed P1 /\ well_formed P2 /\
  cn_draws (cn_make P1) [z1] = Value ([y1], g) /\
  exists y y' g1 g2, cn_draw (cn_set_param g P2) z2 = Value (y, g1) /\
    cn_draw (cn_make P2) z2 = Value (y', g2) /\ y <> y'.
Proof.
  exists (CnParam [1; 0; 0; 1] 2), (CnParam [1; 0; 0; 0; 2; 0; 0; 0; 1] 3), 0, 1.
  do 2 eexists. split; [split; cbn; lia|]. split; [split; cbn; lia|]. split; [reflexivity|].
  do 4 eexists. split; [reflexivity|]. split; [reflexivity|]. cbn. lra.
Qed.

(** default parameters: the first draw reads outside the empty matrix *)
Theorem C52_default_parameters_undefined : forall z, cn_draw (cn_make cn_param_default) z = OutOfBounds.
Proof. reflexivity. Qed.

(** operator== ignores the pending variates: equal distributions, same variate, different draws *)
Theorem C52_equality_refuted : exists P z1 z2 g y1, well_formed P /\
  cn_draws (cn_make P) [z1] = Value ([y1], g) /\ cn_eq g (cn_make P) /\
  exists y y' g1 g2, cn_draw g z2 = Value (y, g1) /\ cn_draw (cn_make P) z2 = Value (y', g2) /\ y <> y'.
Proof.
  exists (CnParam [1; 0; 0; 2] 2), 0, 1. do 2 eexists. split; [split; cbn; lia|]. split; [reflexivity|].
  split; [reflexivity|]. do 4 eexists. split; [reflexivity|]. split; [reflexivity|]. cbn. lra.
Qed.

(** the overload with explicit parameters only ever returns the first component: two calls give
    H(0,0) z1 and H(0,0) z2, so that their correlation is lost *)
Theorem C51_explicit_parameters_refuted : exists P z y g ys, well_formed P /\
  cn_draw_with P z = Value y /\ cn_draws (cn_make P) [z; z] = Value (ys, g) /\ nth 1 ys 0 <> y.
Proof.
  exists (CnParam [1; 0; 1; 2] 2), 1. do 3 eexists. split; [split; cbn; lia|]. split; [reflexivity|].
  split; [reflexivity|]. cbn. lra.
Qed.

Print Assumptions C51_factorization.
Print Assumptions C51_positive_definite.
Print Assumptions C51_in_bounds.
Print Assumptions C51_draws.
Print Assumptions C52_same_parameters.
Print Assumptions C52_reset.
Print Assumptions C52_parameter_change_refuted.
Print Assumptions C52_stale_variates_refuted.
Print Assumptions C52_default_parameters_undefined.
Print Assumptions C52_equality_refuted.
Print Assumptions C51_explicit_parameters_refuted.
