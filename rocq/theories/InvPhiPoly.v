(** Sign of integer polynomials on intervals, accumulated bounds of a function from bounds of its derivative on
    consecutive intervals, and numerical bounds of exp and PI; used for the rational approximation in inv_Phi. *)
From Coq Require Import Reals Lra Lia Psatz ZArith List Bool Machin.
From Coquelicot Require Import Coquelicot.
From Verif Require Import Improper GaussInt GammaFn ContProofs AsyFacts.
Import ListNotations.
Local Open Scope R_scope.

(** ** Integer polynomials *)
Fixpoint zder (p : list Z) : list Z := match p with [] => [] | _ :: p => zadd p (0%Z :: zder p) end.
Lemma zder_eval p x : peval (zr (zder p)) x = pder (zr p) x.
Proof.
  induction p as [|c p IH]; cbn [zder zr map pder]; [reflexivity|]. rewrite zadd_eval. cbn [zr map peval].
  fold (zr (zder p)) (zr p). rewrite IH. ring.
Qed.
(** p (x + a) *)
Fixpoint zshift (a : Z) (p : list Z) : list Z :=
  match p with [] => [] | c :: p => let q := zshift a p in zadd [c] (zadd (0%Z :: q) (zscale a q)) end.
Lemma zshift_eval a p x : peval (zr (zshift a p)) x = peval (zr p) (x + IZR a).
Proof.
  induction p as [|c p IH]; cbn [zshift]; [reflexivity|]. rewrite !zadd_eval, zscale_eval. cbn [zr map peval].
  fold (zr (zshift a p)) (zr p). rewrite IH. ring.
Qed.
(** lower bound on [0, m] *)
Fixpoint zlow (m : Z) (p : list Z) : Z := match p with [] => 0 | c :: p => c + Z.min 0 (m * zlow m p) end.
Lemma zlow_bound m p x : 0 <= x <= IZR m -> IZR (zlow m p) <= peval (zr p) x.
Proof.
  intros H. induction p as [|c p IH]; cbn [zlow zr map peval]; [lra|]. fold (zr p). rewrite plus_IZR. apply Rplus_le_compat_l.
  destruct (Z.le_gt_cases 0 (zlow m p)) as [L|L].
  - rewrite Z.min_l by (apply Z.mul_nonneg_nonneg; [apply le_IZR; lra|lia]). apply IZR_le in L. nra.
  - assert (0 <= m)%Z by (apply le_IZR; lra). rewrite Z.min_r by nia. rewrite mult_IZR. apply IZR_lt in L. nra.
Qed.
(** M^(length p - 1) p (x / M) *)
Fixpoint zhom (M : Z) (p : list Z) : list Z * Z :=
  match p with [] => ([], 1%Z) | c :: p => let (q, m) := zhom M p in ((c * m)%Z :: q, (m * M)%Z) end.
Lemma zhom_eval M p x : (0 < M)%Z -> (0 < snd (zhom M p))%Z /\
  IZR M * peval (zr (fst (zhom M p))) (IZR M * x) = IZR (snd (zhom M p)) * peval (zr p) x.
Proof.
  intros HM. induction p as [|c p IH]; cbn [zhom]; [cbn; split; [lia|ring]|].
  destruct (zhom M p) as (q, m). cbn [fst snd zr map peval] in *. fold (zr q) (zr p) in *. destruct IH as (P & E).
  split; [nia|]. rewrite !mult_IZR.
  replace (IZR M * (IZR c * IZR m + IZR M * x * peval (zr q) (IZR M * x)))
    with (IZR M * (IZR c * IZR m + x * (IZR M * peval (zr q) (IZR M * x)))) by ring.
  rewrite E. ring.
Qed.
Definition nonneg_on (M : Z) (p : list Z) (a b : Z) : bool := (0 <=? zlow (b - a) (zshift a (fst (zhom M p))))%Z.
Lemma nonneg_on_ok M p a b x : (0 < M)%Z -> nonneg_on M p a b = true -> IZR a <= IZR M * x <= IZR b -> 0 <= peval (zr p) x.
Proof.
  unfold nonneg_on. intros HM H Hx. apply Z.leb_le in H. apply IZR_le in H.
  pose proof (zlow_bound (b - a) (zshift a (fst (zhom M p))) (IZR M * x - IZR a)) as L. rewrite minus_IZR in L. specialize (L ltac:(lra)).
  rewrite zshift_eval in L. replace (IZR M * x - IZR a + IZR a) with (IZR M * x) in L by ring.
  destruct (zhom_eval M p x HM) as (P & E). apply IZR_lt in P. apply IZR_lt in HM.
  apply Rmult_le_reg_l with (IZR (snd (zhom M p))); [exact P|]. rewrite Rmult_0_r, <- E. apply Rmult_le_pos; lra.
Qed.
(** ** Accumulated bounds *)
Fixpoint chain (a : Z) (l : list (Z * Z * Z)) (e : Z) : bool :=
  match l with [] => (a =? e)%Z | (a', b, k) :: l => (a =? a')%Z && (a <=? b)%Z && (0 <=? k)%Z && chain b l e end.
Fixpoint total (l : list (Z * Z * Z)) : Z := match l with [] => 0 | (a, b, k) :: l => k * (b - a) + total l end.
Lemma total_nonneg l : forall a e, chain a l e = true -> (0 <= total l)%Z.
Proof.
  induction l as [|((a', b), k) l IH]; intros a e H; cbn [total chain] in *; [lia|].
  apply andb_true_iff in H. destruct H as (H & H4). apply andb_true_iff in H. destruct H as (H & H3). apply andb_true_iff in H. destruct H as (H1 & H2).
  specialize (IH _ _ H4). apply Z.eqb_eq in H1. subst a'. apply Z.leb_le in H2, H3. nia.
Qed.
Lemma chain_le l : forall a e, chain a l e = true -> (a <= e)%Z.
Proof.
  induction l as [|((a', b), k) l IH]; intros a e H; cbn [chain] in H; [apply Z.eqb_eq in H; lia|].
  apply andb_true_iff in H. destruct H as (H & H4). apply andb_true_iff in H. destruct H as (H & H3). apply andb_true_iff in H. destruct H as (H1 & H2).
  apply Z.leb_le in H2. specialize (IH _ _ H4). lia.
Qed.
Lemma chain_in l : forall a e a' b k, chain a l e = true -> In (a', b, k) l -> (a <= a')%Z /\ (b <= e)%Z.
Proof.
  induction l as [|((a1, b1), k1) l IH]; intros a e a' b k H HI; [destruct HI|]. cbn [chain] in H.
  apply andb_true_iff in H. destruct H as (H & H4). apply andb_true_iff in H. destruct H as (H & H3). apply andb_true_iff in H. destruct H as (H1 & H2).
  apply Z.eqb_eq in H1. apply Z.leb_le in H2. destruct HI as [HI|HI].
  - injection HI as <- <- <-. pose proof (chain_le _ _ _ H4). lia.
  - destruct (IH _ _ _ _ _ H4 HI). lia.
Qed.
(** on consecutive intervals [a,b] with a bound k / U: |T| <= k / U * Q; the polynomials are shifted from interval to interval *)
Fixpoint run (U : Z) (Q T : list Z) (l : list (Z * Z * Z)) : bool :=
  match l with
  | [] => true
  | (a, b, k) :: l =>
      let kQ := zscale k Q in
      (0 <=? zlow (b - a) (zadd kQ (zscale U T)))%Z && (0 <=? zlow (b - a) (zadd kQ (zscale (- U) T)))%Z &&
      run U (zshift (b - a) Q) (zshift (b - a) T) l
  end.
Lemma run_ok U (f g : R -> R) l : (0 < U)%Z -> forall a e Q T, chain a l e = true -> run U Q T l = true ->
  (forall x, peval (zr Q) x = f (x + IZR a)) -> (forall x, peval (zr T) x = g (x + IZR a)) ->
  forall a' b' k', In (a', b', k') l -> forall x, IZR a' <= x <= IZR b' -> Rabs (g x) <= IZR k' / IZR U * f x.
Proof.
  intros HU. assert (PU : 0 < IZR U) by (apply IZR_lt; exact HU).
  induction l as [|((a1, b), k) l IH]; intros a e Q T HC HR HQ HT a' b' k' HI x Hx; [destruct HI|].
  cbn [chain run] in HC, HR. apply andb_true_iff in HC. destruct HC as (HC & C4). apply andb_true_iff in HC. destruct HC as (HC & C3).
  apply andb_true_iff in HC. destruct HC as (C1 & C2). apply Z.eqb_eq in C1. subst a1.
  apply andb_true_iff in HR. destruct HR as (HR & R3). apply andb_true_iff in HR. destruct HR as (R1 & R2). apply Z.leb_le in R1, R2.
  destruct HI as [HI|HI].
  - injection HI as <- <- <-.
    assert (Hx' : 0 <= x - IZR a <= IZR (b - a)) by (rewrite minus_IZR; lra).
    apply IZR_le in R1. apply IZR_le in R2.
    pose proof (zlow_bound _ (zadd (zscale k Q) (zscale U T)) _ Hx') as L1.
    pose proof (zlow_bound _ (zadd (zscale k Q) (zscale (- U) T)) _ Hx') as L2.
    rewrite zadd_eval, !zscale_eval, HQ, HT in L1, L2. rewrite opp_IZR in L2.
    replace (x - IZR a + IZR a) with x in L1, L2 by ring.
    apply Rmult_le_reg_l with (IZR U); [exact PU|]. rewrite <- (Rabs_right (IZR U)) at 1 by lra. rewrite <- Rabs_mult.
    replace (IZR U * (IZR k / IZR U * f x)) with (IZR k * f x) by (field; lra).
    apply Rabs_le. lra.
  - apply (IH b e (zshift (b - a) Q) (zshift (b - a) T) C4 R3) with a' b'; try assumption.
    + intros y. rewrite zshift_eval, HQ, minus_IZR. f_equal. ring.
    + intros y. rewrite zshift_eval, HT, minus_IZR. f_equal. ring.
Qed.
(** without trailing zeros *)
Fixpoint trim (p : list Z) : list Z :=
  match p with [] => [] | c :: p => match trim p with [] => if (c =? 0)%Z then [] else [c] | q => c :: q end end.
Lemma trim_eval p x : peval (zr (trim p)) x = peval (zr p) x.
Proof.
  induction p as [|c p IH]; [reflexivity|]. cbn [trim]. destruct (trim p) as [|d q] eqn:E.
  - cbn [zr map peval] in *. fold (zr p). rewrite <- IH. destruct (Z.eqb_spec c 0) as [->|_]; unfold zr; cbn [map peval]; ring.
  - cbn [zr map peval] in *. fold (zr q) (zr p) in *. rewrite IH. reflexivity.
Qed.
Definition same_length (T Q : list Z) : list Z := zadd (trim T) (zscale 0 Q).
Lemma same_length_eval T Q x : peval (zr (same_length T Q)) x = peval (zr T) x.
Proof. unfold same_length. rewrite zadd_eval, zscale_eval, trim_eval. ring. Qed.
Definition pieces_eq_ok (M U : Z) (Q T : list Z) (a : Z) (l : list (Z * Z * Z)) : bool :=
  let (q, m) := zhom M Q in let (t, m') := zhom M T in (m =? m')%Z && run U (zshift a q) (zshift a t) l.
Lemma pieces_eq_bound M U Q T a e l : (0 < M)%Z -> (0 < U)%Z -> chain a l e = true -> pieces_eq_ok M U Q T a l = true ->
  forall a' b' k', In (a', b', k') l -> forall x, IZR a' <= IZR M * x <= IZR b' -> Rabs (peval (zr T) x) <= IZR k' / IZR U * peval (zr Q) x.
Proof.
  intros HM HU HC H a' b' k' HI x Hx. unfold pieces_eq_ok in H.
  assert (EQ : forall y, IZR M * peval (zr (fst (zhom M Q))) y = IZR (snd (zhom M Q)) * peval (zr Q) (y / IZR M)).
  { intros y. destruct (zhom_eval M Q (y / IZR M) HM) as (_ & E). rewrite <- E. f_equal. f_equal. field. apply Rgt_not_eq, IZR_lt, HM. }
  assert (ET : forall y, IZR M * peval (zr (fst (zhom M T))) y = IZR (snd (zhom M T)) * peval (zr T) (y / IZR M)).
  { intros y. destruct (zhom_eval M T (y / IZR M) HM) as (_ & E). rewrite <- E. f_equal. f_equal. field. apply Rgt_not_eq, IZR_lt, HM. }
  destruct (zhom_eval M Q 0 HM) as (P & _).
  destruct (zhom M Q) as (q, m). destruct (zhom M T) as (t, m'). cbn [fst snd] in *. apply andb_true_iff in H. destruct H as (E & H).
  apply Z.eqb_eq in E. subst m'. apply IZR_lt in HM. apply IZR_lt in P.
  pose proof (run_ok U (fun y => IZR m / IZR M * peval (zr Q) (y / IZR M)) (fun y => IZR m / IZR M * peval (zr T) (y / IZR M)) l HU a e _ _ HC H) as B.
  cbv beta in B. specialize (fun A1 A2 => B A1 A2 a' b' k' HI (IZR M * x) Hx).
  replace (IZR M * x / IZR M) with x in B by (field; lra).
  assert (B' : Rabs (IZR m / IZR M * peval (zr T) x) <= IZR k' / IZR U * (IZR m / IZR M * peval (zr Q) x)).
  { apply B; intros y; rewrite zshift_eval; apply Rmult_eq_reg_l with (IZR M); try lra; [rewrite EQ|rewrite ET]; field; lra. }
  assert (Pm : 0 < IZR m / IZR M) by (apply Rdiv_lt_0_compat; lra).
  rewrite Rabs_mult, (Rabs_right (IZR m / IZR M)) in B' by lra.
  apply Rmult_le_reg_l with (IZR m / IZR M); [exact Pm|]. lra.
Qed.
Definition pieces_ok (M U : Z) (Q T : list Z) (a : Z) (l : list (Z * Z * Z)) : bool :=
  let Q := trim Q in let T := trim T in pieces_eq_ok M U (same_length Q T) (same_length T Q) a l.
Lemma pieces_ok_bound M U Q T a e l : (0 < M)%Z -> (0 < U)%Z -> chain a l e = true -> pieces_ok M U Q T a l = true ->
  forall a' b' k', In (a', b', k') l -> forall x, IZR a' <= IZR M * x <= IZR b' -> Rabs (peval (zr T) x) <= IZR k' / IZR U * peval (zr Q) x.
Proof.
  intros HM HU HC H a' b' k' HI x Hx. pose proof (pieces_eq_bound _ _ _ _ _ _ _ HM HU HC H a' b' k' HI x Hx) as B.
  rewrite !same_length_eval, !trim_eval in B. exact B.
Qed.
Section accumulate.
Variables (M U : Z) (w w' winv h h' : R -> R) (top : R).
Hypothesis HM : (0 < M)%Z.
Hypothesis HU : (0 < U)%Z.
Hypothesis Hw : forall x, 0 <= x -> is_derive w x (w' x).
Hypothesis Hw' : forall x, 0 <= x -> 0 <= w' x.
Hypothesis Hinv : forall v, 0 <= v -> 0 <= winv v /\ w (winv v) = v.
Hypothesis Hmono : forall x y, 0 <= x -> 0 <= y -> w x <= w y -> x <= y.
Lemma accumulate l : forall a e, (0 <= a)%Z -> chain a l e = true ->
  (forall x, 0 <= x -> IZR a <= IZR M * w x <= IZR e -> is_derive h x (h' x)) ->
  (forall a b k, In (a, b, k) l -> forall x, 0 <= x -> IZR a <= IZR M * w x <= IZR b -> Rabs (h' x) <= IZR k / IZR U * w' x) ->
  forall x, 0 <= x -> IZR a <= IZR M * w x <= IZR e -> Rabs (h x - h (winv (IZR a / IZR M))) <= IZR (total l) / (IZR U * IZR M).
Proof.
  assert (PM : 0 < IZR M) by (apply IZR_lt; exact HM). assert (PU : 0 < IZR U) by (apply IZR_lt; exact HU).
  assert (wm : forall x y, 0 <= x <= y -> w x <= w y).
  { intros x y H. apply (mono_cc w w'); [lra| |]; intros t Ht; [apply Hw|apply Hw']; lra. }
  assert (WI : forall a, 0 <= a -> 0 <= winv (a / IZR M) /\ IZR M * w (winv (a / IZR M)) = a).
  { intros a Ha. destruct (Hinv (a / IZR M)) as (P & E). { apply Rdiv_le_0_compat; lra. } split; [exact P|]. rewrite E. field. lra. }
  induction l as [|((a', b), k) l IH]; intros a e Ha HC HD HB x Hx Hr.
  - cbn [chain] in HC. apply Z.eqb_eq in HC. subst e. cbn [total].
    assert (Ha' : 0 <= IZR a) by (apply IZR_le; exact Ha). destruct (WI (IZR a) Ha') as (P & E).
    assert (x = winv (IZR a / IZR M)) as <-. { apply Rle_antisym; apply Hmono; try assumption; apply Rmult_le_reg_l with (IZR M); lra. }
    rewrite Rminus_eq_0, Rabs_R0. unfold Rdiv. lra.
  - cbn [chain] in HC. apply andb_true_iff in HC. destruct HC as (HC & H4). apply andb_true_iff in HC. destruct HC as (HC & H3).
    apply andb_true_iff in HC. destruct HC as (H1 & H2). apply Z.eqb_eq in H1. subst a'. apply Z.leb_le in H2, H3.
    assert (Ha' : 0 <= IZR a) by (apply IZR_le; exact Ha). destruct (WI (IZR a) Ha') as (P & E).
    assert (Hb' : 0 <= IZR b) by (apply IZR_le; lia). destruct (WI (IZR b) Hb') as (Pb & Eb).
    assert (Hk : 0 <= IZR k) by (apply IZR_le; exact H3). assert (Hab : IZR a <= IZR b) by (apply IZR_le; exact H2).
    cbn [total]. rewrite plus_IZR, mult_IZR, minus_IZR. set (xa := winv (IZR a / IZR M)) in *. set (xb := winv (IZR b / IZR M)) in *.
    assert (be : IZR b <= IZR e).
    { clear -H4. revert b H4. induction l as [|((a', b'), k') l IH]; intros b H; cbn [chain] in H.
      - apply Z.eqb_eq in H. subst. lra.
      - apply andb_true_iff in H. destruct H as (H & H4). apply andb_true_iff in H. destruct H as (H & H3).
        apply andb_true_iff in H. destruct H as (H1 & H2). apply Z.leb_le in H2. apply IZR_le in H2. specialize (IH _ H4). lra. }
    assert (T0 : 0 <= IZR (total l)) by (apply IZR_le; exact (total_nonneg l b e H4)).
    (* inside the first interval *)
    assert (IN : forall y, 0 <= y -> IZR a <= IZR M * w y <= IZR b -> Rabs (h y - h xa) <= IZR k / IZR U * (w y - w xa)).
    { intros y Hy Ry. assert (xay : xa <= y). { apply Hmono; try assumption. apply Rmult_le_reg_l with (IZR M); lra. }
      assert (RR : forall t, xa <= t <= y -> IZR a <= IZR M * w t <= IZR b).
      { intros t Ht. pose proof (wm xa t ltac:(lra)). pose proof (wm t y ltac:(lra)). nra. }
      assert (D : forall s t, xa <= t <= y -> is_derive (fun t => IZR k / IZR U * w t + s * h t) t (IZR k / IZR U * w' t + s * h' t)).
      { intros s t Ht. apply (is_derive_plus (K := R_AbsRing) (V := R_NormedModule) (fun t => IZR k / IZR U * w t) (fun t => s * h t)).
        - apply is_derive_scal. apply Hw. lra.
        - apply is_derive_scal. apply HD; [lra|]. pose proof (RR t Ht). lra. }
      assert (Bd : forall t, xa <= t <= y -> Rabs (h' t) <= IZR k / IZR U * w' t).
      { intros t Ht. apply (HB a b k); [left; reflexivity|lra|]. apply RR, Ht. }
      apply Rabs_le. split.
      - pose proof (mono_cc _ _ _ _ xay (fun t Ht => D 1 t Ht) ltac:(intros t Ht; cbv beta; specialize (Bd t Ht); apply Rabs_le_between in Bd; lra)) as Q.
        cbv beta in Q. lra.
      - pose proof (mono_cc _ _ _ _ xay (fun t Ht => D (-1) t Ht) ltac:(intros t Ht; cbv beta; specialize (Bd t Ht); apply Rabs_le_between in Bd; lra)) as Q.
        cbv beta in Q. lra. }
    assert (ST : forall v, v <= IZR b -> IZR k / IZR U * (v / IZR M - IZR a / IZR M) <= IZR k * (IZR b - IZR a) / (IZR U * IZR M)).
    { intros v Hv. replace (IZR k / IZR U * (v / IZR M - IZR a / IZR M)) with (IZR k * (v - IZR a) / (IZR U * IZR M)) by (field; lra).
      apply Rmult_le_compat_r; [left; apply Rinv_0_lt_compat; nra|]. nra. }
    assert (Ew : forall y, w y = IZR M * w y / IZR M) by (intros; field; lra).
    replace ((IZR k * (IZR b - IZR a) + IZR (total l)) / (IZR U * IZR M)) with (IZR k * (IZR b - IZR a) / (IZR U * IZR M) + IZR (total l) / (IZR U * IZR M)) by (field; lra).
    assert (T1 : 0 <= IZR (total l) / (IZR U * IZR M)) by (apply Rdiv_le_0_compat; nra).
    destruct (Rle_lt_dec (IZR M * w x) (IZR b)) as [L|L].
    + eapply Rle_trans; [apply IN; [exact Hx|lra]|]. rewrite (Ew x), (Ew xa), E. specialize (ST (IZR M * w x) L). lra.
    + replace (h x - h xa) with ((h xb - h xa) + (h x - h xb)) by ring. eapply Rle_trans; [apply Rabs_triang|]. apply Rplus_le_compat.
      * eapply Rle_trans; [apply IN; [exact Pb|lra]|]. rewrite (Ew xb), (Ew xa), E, Eb. apply ST. lra.
      * apply (IH b e); [lia|exact H4| |  |exact Hx|lra].
        -- intros y Hy Ry. apply HD; [exact Hy|lra].
        -- intros a0 b0 k0 I0. apply HB. right. exact I0.
Qed.
End accumulate.

(** ** The logarithm of a transformed normal density *)
Lemma log_deriv (N D V N' D' V' : R -> R) s x : is_derive N x (N' x) -> is_derive D x (D' x) -> is_derive V x (V' x) ->
  N' x * D x - N x * D' x = s * V x -> 0 < D x -> 0 < V x ->
  is_derive (fun t => - (N t / D t * (N t / D t)) / 2 + ln (V t / (D t * D t))) x
    (((V' x * D x - 2 * V x * D' x) * (D x * D x) - s * (N x * (V x * V x))) / (V x * (D x * D x * D x))).
Proof.
  intros DN DD DV E PD PV. auto_derive.
  - repeat split; try (eexists; eassumption); try nra.
    apply Rdiv_lt_0_compat; nra.
  - change (Derive (fun x0 => N x0) x) with (Derive N x). change (Derive (fun x0 => D x0) x) with (Derive D x). change (Derive (fun x0 => V x0) x) with (Derive V x).
    rewrite (is_derive_unique _ _ _ DN), (is_derive_unique _ _ _ DD), (is_derive_unique _ _ _ DV).
    assert (EN : N' x = (s * V x + N x * D' x) / D x) by (field_simplify_eq; [lra|lra]).
    rewrite EN. field. lra.
Qed.

(** ** exp *)
Lemma term_deriv n x : is_derive (fun t => t ^ S n / INR (fact (S n))) x (x ^ n / INR (fact n)).
Proof.
  pose proof (INR_fact_neq_0 n) as F. assert (F' : INR (S n) <> 0) by (apply not_0_INR; lia).
  apply is_derive_ext with (fun t => / INR (fact (S n)) * t ^ S n); [intros t; unfold Rdiv; apply Rmult_comm|].
  eapply is_derive_val; [apply is_derive_scal; apply (is_derive_pow (fun t => t) (S n) x 1); apply (is_derive_id (K := R_AbsRing))|].
  rewrite fact_simpl, mult_INR. cbn [Nat.pred]. field. split; assumption.
Qed.
Fixpoint taylor (n : nat) (x : R) : R := match n with O => 1 | S n => taylor n x + x ^ S n / INR (fact (S n)) end.
Lemma taylor_deriv n x : is_derive (taylor n) x (taylor n x - x ^ n / INR (fact n)).
Proof.
  induction n as [|n IH]; cbn [taylor].
  - replace (1 - x ^ 0 / INR (fact 0)) with 0 by (cbn; field). apply (is_derive_const (K := R_AbsRing) (V := R_NormedModule)).
  - replace (taylor n x + x ^ S n / INR (fact (S n)) - x ^ S n / INR (fact (S n)))
      with (plus (taylor n x - x ^ n / INR (fact n)) (x ^ n / INR (fact n))) by (unfold plus; cbn; ring).
    apply (is_derive_plus (K := R_AbsRing) (V := R_NormedModule)); [exact IH|].
    apply term_deriv.
Qed.

Lemma taylor_bounds n x : 0 <= x -> 1 - x ^ S n / INR (fact (S n)) <= taylor n x * exp (- x) <= 1.
Proof.
  intros Hx. pose proof (INR_fact_lt_0 n) as F.
  assert (D : forall t, is_derive (fun t => taylor n t * exp (- t)) t (- (t ^ n / INR (fact n) * exp (- t)))).
  { intros t. eapply is_derive_val.
    - apply (is_derive_mul (taylor n) (fun t => exp (- t)) t (taylor n t - t ^ n / INR (fact n)) (- exp (- t))); [apply taylor_deriv|]. auto_derive; [trivial|ring].
    - cbv beta. ring. }
  assert (E0 : taylor n 0 * exp (- 0) = 1).
  { rewrite Ropp_0, exp_0, Rmult_1_r. clear. induction n as [|n IH]; cbn [taylor]; [reflexivity|]. rewrite IH, pow_i by lia. unfold Rdiv. ring. }
  assert (Q : forall t, 0 <= t -> 0 <= t ^ n / INR (fact n)).
  { intros t Ht. apply Rdiv_le_0_compat; [apply pow_le; exact Ht|exact F]. }
  split.
  - assert (D2 : forall t, is_derive (fun t => t ^ S n / INR (fact (S n))) t (t ^ n / INR (fact n))).
    { intros t. apply term_deriv. }
    pose proof (mono_cc (fun t => taylor n t * exp (- t) + t ^ S n / INR (fact (S n)))
      (fun t => - (t ^ n / INR (fact n) * exp (- t)) + t ^ n / INR (fact n)) 0 x Hx) as P.
    cbv beta in P. rewrite E0, pow_i in P by lia. replace (0 / INR (fact (S n))) with 0 in P by (unfold Rdiv; ring). enough (1 + 0 <= taylor n x * exp (- x) + x ^ S n / INR (fact (S n))) by lra. apply P.
    + intros t Ht. apply (is_derive_plus (K := R_AbsRing) (V := R_NormedModule) (fun t => taylor n t * exp (- t)) (fun t => t ^ S n / INR (fact (S n)))); [apply D|apply D2].
    + intros t Ht. assert (exp (- t) <= 1) by (apply ContProofs.exp_le_1; lra). pose proof (exp_pos (- t)). specialize (Q t ltac:(lra)). nra.
  - pose proof (mono_cc (fun t => - (taylor n t * exp (- t))) (fun t => t ^ n / INR (fact n) * exp (- t)) 0 x Hx) as P.
    cbv beta in P. rewrite E0 in P. enough (- (1) <= - (taylor n x * exp (- x))) by lra. apply P.
    + intros t Ht. eapply is_derive_val; [apply (is_derive_opp (K := R_AbsRing) (V := R_NormedModule)); apply D|]. unfold opp; cbn. ring.
    + intros t Ht. apply Rmult_le_pos; [apply Q; lra|left; apply exp_pos].
Qed.
Lemma exp_lower n x : 0 <= x -> taylor n x <= exp x.
Proof.
  intros Hx. pose proof (proj2 (taylor_bounds n x Hx)) as H. rewrite exp_Ropp in H. pose proof (exp_pos x).
  apply Rmult_le_reg_r with (/ exp x); [apply Rinv_0_lt_compat; lra|]. rewrite Rinv_r by lra. exact H.
Qed.
Lemma exp_upper n x : 0 <= x -> exp x * (1 - x ^ S n / INR (fact (S n))) <= taylor n x.
Proof.
  intros Hx. pose proof (proj1 (taylor_bounds n x Hx)) as H. rewrite exp_Ropp in H. pose proof (exp_pos x).
  apply Rmult_le_compat_l with (r := exp x) in H; [|lra]. replace (exp x * (taylor n x * / exp x)) with (taylor n x) in H by (field; lra). exact H.
Qed.

(** ** PI *)
Lemma PI_fine : 31415926535 / 10000000000 < PI < 31415926536 / 10000000000.
Proof.
  pose proof (PI_2_3_7_ineq 6) as H. unfold PI_2_3_7_tg, Ratan_seq, tg_alt in H. cbn [sum_f_R0 Nat.mul Nat.add pow] in H.
  change (INR 1) with 1 in H. rewrite ?INR_IZR_INZ in H. cbn [Z.of_nat Pos.of_succ_nat Pos.succ] in H. lra.
Qed.
