(** One Halley step towards the inverse of Phi. *)
From Coq Require Import Reals Lra Lia Psatz ZArith List Bool.
From Coquelicot Require Import Coquelicot.
From Verif Require Import Improper GaussInt GammaFn ContModel ContProofs NormModel NormProofs AsyFacts InvPhiPoly InvPhiModel InvPhiCentral InvPhiTail.
Local Open Scope R_scope.

Definition uu (y v : R) : R := (Phi y - Phi (y - v)) * s2pi * exp (y * y * (1 / 2)).
Definition uu' (y v : R) : R := exp (y * v - v * v / 2).
Lemma uu_0 y : uu y 0 = 0.
Proof. unfold uu. rewrite Rminus_0_r. ring. Qed.
Lemma uu_opp y v : uu (- y) (- v) = - uu y v.
Proof.
  unfold uu. replace (- y - - v) with (- (y - v)) by ring. rewrite !Phi_opp. replace (- y * - y) with (y * y) by ring. ring.
Qed.
Lemma uu_deriv y v : is_derive (uu y) v (uu' y v).
Proof.
  unfold uu. pose proof s2pi_pos as P.
  apply is_derive_ext with (fun v => s2pi * exp (y * y * (1 / 2)) * (Phi y - Phi (y - v))); [intros t; match goal with |- ?a = ?b => change (@eq R a b) end; ring|].
  eapply is_derive_val.
  - apply is_derive_scal. apply (is_derive_minus (K := R_AbsRing) (V := R_NormedModule) (fun _ => Phi y) (fun v => Phi (y - v))).
    + apply (is_derive_const (K := R_AbsRing) (V := R_NormedModule)).
    + apply (is_derive_circ Phi (fun v => y - v) v (phi (y - v)) (-1)); [apply Phi_deriv|]. auto_derive; [trivial|ring].
  - change (minus ?a ?b) with (a - b). change (zero : R) with 0. unfold phi, uu'. fold s2pi.
    replace (y * v - v * v / 2) with (y * y * (1 / 2) + - ((y - v) * (y - v)) / 2) by field. rewrite exp_plus. field. lra.
Qed.
Lemma uu'_deriv y v : is_derive (uu' y) v ((y - v) * uu' y v).
Proof. unfold uu'. auto_derive; [trivial|]. unfold Rdiv. set (e := exp _). field. Qed.

Definition mm (y v : R) : R := v + v * y * uu y v / 2 - uu y v.
Definition mm' (y v : R) : R := 1 + y * uu y v / 2 + v * y * uu' y v / 2 - uu' y v.
Definition mm'' (y v : R) : R := uu' y v * v * (1 + (y - v) * y / 2).
Lemma mm_deriv y v : is_derive (mm y) v (mm' y v).
Proof.
  unfold mm. pose proof (uu_deriv y v) as D. auto_derive; [repeat split; eexists; exact D|].
  change (Derive (fun x => uu y x) v) with (Derive (uu y) v). rewrite (is_derive_unique _ _ _ D). unfold mm'. field.
Qed.
Lemma mm'_deriv y v : is_derive (mm' y) v (mm'' y v).
Proof.
  unfold mm'. pose proof (uu_deriv y v) as D. pose proof (uu'_deriv y v) as D'. auto_derive; [repeat split; eexists; first [exact D|exact D']|].
  change (Derive (fun x => uu y x) v) with (Derive (uu y) v). change (Derive (fun x => uu' y x) v) with (Derive (uu' y) v).
  rewrite (is_derive_unique _ _ _ D), (is_derive_unique _ _ _ D'). unfold mm''. field.
Qed.
Lemma uu'_near y v d : Rabs v <= d -> Rabs y * d + d * d / 2 <= 1 / 100 -> 99 / 100 <= uu' y v <= 10102 / 10000.
Proof.
  intros Hv Hd. unfold uu'.
  assert (A : Rabs (y * v - v * v / 2) <= 1 / 100).
  { eapply Rle_trans; [apply Rabs_triang|]. rewrite Rabs_Ropp, Rabs_mult. rewrite (Rabs_right (v * v / 2)) by nra.
    assert (v * v <= d * d). { rewrite <- (Rabs_pos_eq (v * v)) by nra. rewrite Rabs_mult. apply Rmult_le_compat; try apply Rabs_pos; exact Hv. }
    pose proof (Rabs_pos y). nra. }
  pose proof (exp_near _ (1 / 100) ltac:(lra) A). lra.
Qed.
(** the increase of uu *)
Lemma uu_lower y d : 0 <= d -> Rabs y * d + d * d / 2 <= 1 / 100 -> 99 / 100 * d <= uu y d <= 10102 / 10000 * d.
Proof.
  intros Hd H. assert (N : forall t, 0 <= t <= d -> 99 / 100 <= uu' y t <= 10102 / 10000).
  { intros t Ht. apply (uu'_near y t d); [rewrite Rabs_right; lra|exact H]. }
  split.
  - pose proof (mono_cc (fun t => uu y t - 99 / 100 * t) (fun t => uu' y t - 99 / 100) 0 d Hd) as M. cbv beta in M. rewrite uu_0 in M.
    enough (0 - 99 / 100 * 0 <= uu y d - 99 / 100 * d) by lra. apply M; intros t Ht; [|specialize (N t Ht); lra].
    eapply is_derive_val; [apply (is_derive_minus (K := R_AbsRing) (V := R_NormedModule) (uu y) (fun t => 99 / 100 * t)); [apply uu_deriv|apply is_derive_scal; apply (is_derive_id (K := R_AbsRing))]|].
    unfold minus, plus, opp, one. cbn. ring.
  - pose proof (mono_cc (fun t => 10102 / 10000 * t - uu y t) (fun t => 10102 / 10000 - uu' y t) 0 d Hd) as M. cbv beta in M. rewrite uu_0 in M.
    enough (10102 / 10000 * 0 - 0 <= 10102 / 10000 * d - uu y d) by lra. apply M; intros t Ht; [|specialize (N t Ht); lra].
    eapply is_derive_val; [apply (is_derive_minus (K := R_AbsRing) (V := R_NormedModule) (fun t => 10102 / 10000 * t) (uu y)); [apply is_derive_scal; apply (is_derive_id (K := R_AbsRing))|apply uu_deriv]|].
    unfold minus, plus, opp, one. cbn. ring.
Qed.
Lemma uu_mono y v w : v <= w -> uu y v <= uu y w.
Proof.
  intros H. apply (mono_cc (uu y) (uu' y) v w H); intros t _; [apply uu_deriv|left; apply exp_pos].
Qed.
Lemma delta_pos y v a : 0 <= v -> 0 <= a -> uu y v <= a -> (Rabs y + 1) * a <= 9 / 1000 -> v <= 102 / 100 * a.
Proof.
  intros Hv Ha Hu H. apply Rnot_lt_le. intros L. pose proof (Rabs_pos y) as Py. pose proof (uu_lower y (102 / 100 * a) ltac:(lra) ltac:(nra)) as B.
  pose proof (uu_mono y (102 / 100 * a) v ltac:(lra)) as Mo.
  assert (a = 0) by lra. subst a. (* a = 0 *)
  set (w := Rmin v (1 / (1000 * (Rabs y + 1)))). assert (Pw : 0 < w). { apply Rmin_glb_lt; [lra|]. apply Rdiv_lt_0_compat; lra. }
  assert (w <= v) by apply Rmin_l. assert (Hw : w * (1000 * (Rabs y + 1)) <= 1). { apply (proj2 (Rle_div_r w 1 (1000 * (Rabs y + 1)) ltac:(lra))). apply Rmin_r. }
  pose proof (uu_lower y w ltac:(lra) ltac:(nra)) as B'. pose proof (uu_mono y w v ltac:(lra)). lra.
Qed.
Lemma mm_bound_pos y v : 0 <= v -> (Rabs y + 1) * v <= 92 / 10000 -> Rabs (mm y v) <= 10102 / 10000 * (1005 / 1000 + y * y / 2) * (v * v * v) / 6.
Proof.
  intros Hv H. pose proof (Rabs_pos y) as Py. set (C := 10102 / 10000 * (1005 / 1000 + y * y / 2)).
  assert (Yy : y * y = Rabs y * Rabs y) by (rewrite <- Rabs_mult, Rabs_right; nra).
  assert (B2 : forall t, 0 <= t <= v -> Rabs (mm'' y t) <= C * t).
  { intros t Ht. unfold mm''. rewrite !Rabs_mult, (Rabs_right t) by lra.
    assert (U : Rabs (uu' y t) <= 10102 / 10000). { pose proof (uu'_near y t v ltac:(rewrite Rabs_right; lra) ltac:(nra)). rewrite Rabs_right; lra. }
    assert (K : Rabs (1 + (y - t) * y / 2) <= 1005 / 1000 + y * y / 2).
    { replace (1 + (y - t) * y / 2) with (1 + y * y / 2 + - (t * y / 2)) by field. eapply Rle_trans; [apply Rabs_triang|]. rewrite Rabs_Ropp.
      rewrite (Rabs_right (1 + y * y / 2)) by nra. unfold Rdiv at 2. rewrite !Rabs_mult, (Rabs_right t), (Rabs_right (/ 2)) by lra. nra. }
    unfold C. replace (10102 / 10000 * (1005 / 1000 + y * y / 2) * t) with (10102 / 10000 * t * (1005 / 1000 + y * y / 2)) by ring.
    pose proof (Rabs_pos (uu' y t)). pose proof (Rabs_pos (1 + (y - t) * y / 2)).
    apply Rmult_le_compat; [nra|lra| |exact K]. apply Rmult_le_compat_r; lra. }
  assert (G : forall (F F' : R -> R) (p p' : R -> R), F 0 = 0 -> p 0 = 0 -> (forall t, is_derive F t (F' t)) -> (forall t, is_derive p t (p' t)) ->
    forall w, 0 <= w <= v -> (forall t, 0 <= t <= w -> Rabs (F' t) <= p' t) -> Rabs (F w) <= p w).
  { intros F F' p p' F0 p0 DF Dp w Hw HB.
    assert (D : forall s t, is_derive (fun t => p t + s * F t) t (p' t + s * F' t)).
    { intros s t. apply (is_derive_plus (K := R_AbsRing) (V := R_NormedModule) p (fun t => s * F t)); [apply Dp|apply is_derive_scal; apply DF]. }
    apply Rabs_le. split.
    - pose proof (mono_cc _ _ 0 w ltac:(lra) (fun t _ => D 1 t) ltac:(intros t Ht; specialize (HB t Ht); apply Rabs_le_between in HB; lra)) as Q. cbv beta in Q. rewrite F0, p0 in Q. lra.
    - pose proof (mono_cc _ _ 0 w ltac:(lra) (fun t _ => D (-1) t) ltac:(intros t Ht; specialize (HB t Ht); apply Rabs_le_between in HB; lra)) as Q. cbv beta in Q. rewrite F0, p0 in Q. lra. }
  assert (B1 : forall w, 0 <= w <= v -> Rabs (mm' y w) <= C * (w * w) / 2).
  { intros w Hw. apply (G (mm' y) (mm'' y) (fun w => C * (w * w) / 2) (fun w => C * w)); try exact Hw.
    - unfold mm', uu'. rewrite uu_0. replace (y * 0 - 0 * 0 / 2) with 0 by field. rewrite exp_0. field.
    - field.
    - apply mm'_deriv.
    - intros t. auto_derive; [trivial|field].
    - intros t Ht. apply B2. lra. }
  replace (C * (v * v * v) / 6) with ((fun w => C * (w * w * w) / 6) v) by reflexivity.
  apply (G (mm y) (mm' y) (fun w => C * (w * w * w) / 6) (fun w => C * (w * w) / 2)); try lra.
  - unfold mm. rewrite uu_0. field.
  - apply mm_deriv.
  - intros t. auto_derive; [trivial|field].
  - intros t Ht. apply B1. lra.
Qed.
Lemma mm_opp y v : mm (- y) (- v) = - mm y v.
Proof. unfold mm. rewrite uu_opp. field. Qed.
(** both signs *)
Lemma delta_bound y v a : Rabs (uu y v) <= a -> (Rabs y + 1) * a <= 9 / 1000 -> Rabs v <= 102 / 100 * a.
Proof.
  intros Hu H. assert (Ha : 0 <= a) by (pose proof (Rabs_pos (uu y v)); lra). destruct (Rle_lt_dec 0 v) as [L|L].
  - rewrite Rabs_right by lra. apply (delta_pos y v a L Ha); [|exact H]. apply Rabs_le_between in Hu. lra.
  - rewrite Rabs_left by exact L. apply (delta_pos (- y) (- v) a ltac:(lra) Ha); [|rewrite Rabs_Ropp; exact H]. rewrite uu_opp. apply Rabs_le_between in Hu. lra.
Qed.
Lemma mm_bound y v a : Rabs v <= a -> (Rabs y + 1) * a <= 92 / 10000 -> Rabs (mm y v) <= 10102 / 10000 * (1005 / 1000 + y * y / 2) * (a * a * a) / 6.
Proof.
  intros Hv H. pose proof (Rabs_pos y). pose proof (Rabs_pos v).
  assert (B : Rabs (mm y v) <= 10102 / 10000 * (1005 / 1000 + y * y / 2) * (Rabs v * Rabs v * Rabs v) / 6).
  { destruct (Rle_lt_dec 0 v) as [L|L].
    - rewrite (Rabs_right v) by lra. apply mm_bound_pos; [exact L|]. rewrite Rabs_right in Hv by lra. nra.
    - rewrite <- (Rabs_Ropp (mm y v)), <- mm_opp, (Rabs_left v) by exact L. replace (y * y) with (- y * - y) by ring. apply mm_bound_pos; [lra|].
      rewrite Rabs_Ropp. rewrite Rabs_left in Hv by exact L. nra. }
  eapply Rle_trans; [exact B|]. assert (C : Rabs v * Rabs v * Rabs v <= a * a * a) by (repeat apply Rmult_le_compat; try nra).
  assert (0 <= y * y) by nra. nra.
Qed.
(** the step *)
Lemma halley_error x y z a : Phi z = x -> Rabs ((Phi y - x) * s2pi * exp (y * y * (1 / 2))) <= a -> (Rabs y + 1) * a <= 9 / 1000 ->
  Rabs (y - z) <= 102 / 100 * a /\
  exists y1, halley_Phi x y = Fin y1 /\ Rabs (y1 - z) <= (2 / 10 + y * y / 10) * (a * a * a).
Proof.
  intros Hz Hu H. pose proof (Rabs_pos y) as Py.
  assert (E : (Phi y - x) * s2pi * exp (y * y * (1 / 2)) = uu y (y - z)). { unfold uu. replace (y - (y - z)) with z by ring. rewrite Hz. reflexivity. }
  rewrite E in Hu. assert (Ha : 0 <= a) by (pose proof (Rabs_pos (uu y (y - z))); lra).
  pose proof (delta_bound y (y - z) a Hu H) as Dl. split; [exact Dl|].
  pose proof (mm_bound y (y - z) (102 / 100 * a) Dl ltac:(nra)) as Mb.
  unfold halley_Phi. fold s2pi. rewrite E. unfold minus_quotient, quotient.
  set (u := uu y (y - z)) in *. assert (Yu : Rabs (y * u) <= 9 / 1000). { rewrite Rabs_mult. pose proof (Rabs_pos u). nra. }
  apply Rabs_le_between in Yu. destruct (Req_EM_T (1 + y * u * (1 / 2)) 0) as [Z|Z]; [exfalso; lra|].
  eexists. split; [reflexivity|].
  assert (Em : y - u / (1 + y * u * (1 / 2)) - z = mm y (y - z) / (1 + y * u * (1 / 2))). { unfold mm. fold u. field. lra. }
  rewrite Em. unfold Rdiv at 1. rewrite Rabs_mult, Rabs_inv. rewrite (Rabs_right (1 + y * u * (1 / 2))) by lra.
  apply (proj2 (Rle_div_l (Rabs (mm y (y - z))) _ (1 + y * u * (1 / 2)) ltac:(lra))).
  eapply Rle_trans; [exact Mb|]. set (c := a * a * a). replace (102 / 100 * a * (102 / 100 * a) * (102 / 100 * a)) with (1061208 / 1000000 * c) by (unfold c; field).
  assert (0 <= c) by (unfold c; repeat apply Rmult_le_pos; exact Ha). assert (0 <= y * y) by nra.
  assert (W : 99 / 100 <= 1 + y * u * (1 / 2)) by lra.
  apply Rle_trans with ((2 / 10 + y * y / 10) * c * (99 / 100)); [|apply Rmult_le_compat_l; [nra|exact W]]. nra.
Qed.
(** the size of the argument of the step in terms of the distance *)
Lemma step_size x y z d : Phi z = x -> Rabs (y - z) <= d -> (Rabs y + 1) * d <= 9 / 1000 -> Rabs ((Phi y - x) * s2pi * exp (y * y * (1 / 2))) <= 102 / 100 * d.
Proof.
  intros Hz Hd H. pose proof (Rabs_pos y). assert (0 <= d) by (pose proof (Rabs_pos (y - z)); lra).
  replace ((Phi y - x) * s2pi * exp (y * y * (1 / 2))) with (uu y (y - z)). 2:{ unfold uu. replace (y - (y - z)) with z by ring. rewrite Hz. reflexivity. }
  apply Rabs_le_between in Hd. assert (B : uu y d <= 102 / 100 * d) by (pose proof (uu_lower y d ltac:(lra) ltac:(nra)); lra).
  assert (B' : uu (- y) d <= 102 / 100 * d). { pose proof (uu_lower (- y) d ltac:(lra) ltac:(rewrite Rabs_Ropp; nra)). lra. }
  pose proof (uu_mono y (y - z) d ltac:(lra)). pose proof (uu_mono y (- d) (y - z) ltac:(lra)).
  pose proof (uu_opp (- y) d) as O. rewrite Ropp_involutive in O. apply Rabs_le. lra.
Qed.
