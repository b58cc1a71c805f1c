(** The rational approximation of the tails: how close Phi of it comes to the argument. *)
From Coq Require Import Reals Lra Lia Psatz ZArith List Bool.
From Coquelicot Require Import Coquelicot.
From Verif Require Import Improper GaussInt GammaFn ContModel ContProofs NormModel NormProofs AsyFacts InvPhiPoly AsyValue InvPhiModel InvPhiCentral.
Import ListNotations.
Local Open Scope R_scope.

Definition cz : list Z := rev inv_c.
Definition dz : list Z := 1000000000000000000%Z :: rev inv_d.
(** minus the numerator of the derivative of C(t) / D(t) *)
Definition vz : list Z := zadd (zmul cz (zder dz)) (zscale (-1) (zmul (zder cz) dz)).
Definition xvd3 : list Z := zmul xz (zmul vz (zmul dz (zmul dz dz))).
Definition uz : list Z :=
  zadd (zmul xz (zadd (zmul (zadd (zmul (zder vz) dz) (zscale (-2) (zmul vz (zder dz)))) (zmul dz dz)) (zmul cz (zmul vz vz))))
       (zmul [-1; 0; 1]%Z (zmul vz (zmul dz (zmul dz dz)))).
(** bounds k 10^-12 of the derivative of the logarithm below on consecutive intervals [a,b] of 64 t *)
Definition tail_1 : list (Z * Z * Z) := [(172,193,1568000); (193,202,152000); (202,227,110000); (227,255,81000); (255,286,50000); (286,321,63000); (321,361,53000); (361,406,49500); (406,456,71000); (456,513,60000); (513,577,60000); (577,649,93000); (649,730,86000); (730,821,52000)]%Z.
Definition tail_2 : list (Z * Z * Z) := [(821,923,126000); (923,1038,136000); (1038,1167,106000); (1167,1312,160000); (1312,1476,228000); (1476,1660,204000); (1660,1867,300000); (1867,2100,448000); (2100,2362,1056000); (2362,2560,3776000)]%Z.
Lemma tail_chain_1 : chain 172 tail_1 821 = true.
Proof. vm_compute. reflexivity. Qed.
Lemma tail_chain_12 : chain 172 (tail_1 ++ tail_2) 2560 = true.
Proof. vm_compute. reflexivity. Qed.
Lemma tail_ok : pieces_ok 64 1000000000000 xvd3 uz 172 (tail_1 ++ tail_2) = true.
Proof. vm_compute. reflexivity. Qed.
Lemma tail_total_1 : total tail_1 = 76620500%Z.
Proof. vm_compute. reflexivity. Qed.
Lemma tail_total_12 : total (tail_1 ++ tail_2) = 1407718500%Z.
Proof. vm_compute. reflexivity. Qed.
Lemma vz_ok : nonneg_on 64 (zadd vz [-1]%Z) 172 300 && nonneg_on 64 (zadd vz [-1]%Z) 300 2560 = true.
Proof. vm_compute. reflexivity. Qed.

(** ** The approximation as a function of t *)
Definition gN (t : R) : R := peval (zr cz) t.
Definition gD (t : R) : R := peval (zr dz) t.
Definition gV (t : R) : R := peval (zr vz) t.
Definition gt (t : R) : R := gN t / gD t.
Definition tail_range (t : R) : Prop := 172 <= 64 * t <= 2560.
Lemma gD_pos t : 0 <= t -> 0 < gD t.
Proof.
  intros H. unfold gD, dz. cbn [rev app inv_d zr map peval].
  assert (0 <= t * (3754408661907416000 + t * (2445134137142996000 + t * (322467129070039800 + t * (7784695709041462 + t * 0))))); [|lra].
  apply Rmult_le_pos; [exact H|]. apply Rplus_le_le_0_compat; [lra|]. apply Rmult_le_pos; [exact H|]. nra.
Qed.
Lemma gV_pos t : tail_range t -> 0 < gV t.
Proof.
  intros H. pose proof vz_ok as P. apply andb_true_iff in P. destruct P as (P1 & P2).
  assert (P : 0 <= peval (zr (zadd vz [-1]%Z)) t).
  { destruct (Rle_lt_dec (64 * t) 300) as [L|L]; [apply (nonneg_on_ok 64 _ 172 300 t ltac:(lia) P1)|apply (nonneg_on_ok 64 _ 300 2560 t ltac:(lia) P2)]; unfold tail_range in H; lra. }
  rewrite zadd_eval in P. cbn [zr map peval] in P. fold (zr vz) in P. unfold gV. lra.
Qed.
Lemma poly_deriv p t : is_derive (peval (zr p)) t (peval (zr (zder p)) t).
Proof. rewrite zder_eval. apply peval_deriv. Qed.
Lemma gV_eq t : peval (zr (zder cz)) t * gD t - gN t * peval (zr (zder dz)) t = (-1) * gV t.
Proof. unfold gV, vz. rewrite zadd_eval, zscale_eval, !zmul_eval. unfold gN, gD. ring. Qed.
Definition ht (t : R) : R := (- (gt t * gt t) / 2 + ln (gV t / (gD t * gD t))) + (t * t / 2 - ln t).
Definition ht' (t : R) : R := peval (zr uz) t / peval (zr xvd3) t.
Lemma xvd3_eq t : peval (zr xvd3) t = t * (gV t * (gD t * gD t * gD t)).
Proof. unfold xvd3. rewrite !zmul_eval. unfold gV, gD, xz. cbn [zr map peval]. ring. Qed.
Lemma ht_deriv t : tail_range t -> is_derive ht t (ht' t).
Proof.
  intros H. assert (Pt : 0 < t) by (destruct H; lra). pose proof (gD_pos t ltac:(lra)) as B. pose proof (gV_pos t H) as W.
  eapply is_derive_val.
  - apply (is_derive_plus (K := R_AbsRing) (V := R_NormedModule) (fun t => - (gt t * gt t) / 2 + ln (gV t / (gD t * gD t))) (fun t => t * t / 2 - ln t)).
    + apply (log_deriv gN gD gV (peval (zr (zder cz))) (peval (zr (zder dz))) (peval (zr (zder vz))) (-1) t); [apply poly_deriv|apply poly_deriv|apply poly_deriv|apply gV_eq|exact B|exact W].
    + instantiate (1 := t - / t). auto_derive; [lra|]. field. lra.
  - change (plus ?u ?v) with (u + v). unfold ht'. rewrite xvd3_eq. unfold uz, xz. rewrite zadd_eval, !zmul_eval, zadd_eval, !zmul_eval, zadd_eval, !zscale_eval, !zmul_eval.
    unfold gN, gD, gV in *. cbn [zr map peval]. field. lra.
Qed.
Lemma gt_deriv t : 0 <= t -> is_derive gt t (- (gV t / (gD t * gD t))).
Proof.
  intros H. pose proof (gD_pos t H) as B. unfold gt. eapply is_derive_val.
  - apply (is_derive_div gN gD t); [apply poly_deriv|apply poly_deriv|lra].
  - replace (gV t) with (- ((-1) * gV t)) by ring. rewrite <- gV_eq. cbn [pow]. field. lra.
Qed.

(** ** The value of the logarithm at t = 43/16 *)
Lemma anchor_g : - 1926580874 / 1000000000 <= gt (43 / 16) <= - 1926580873 / 1000000000.
Proof.
  assert (P : 0 < gD (43 / 16)) by (apply gD_pos; lra). unfold gt.
  split; [apply (proj1 (Rle_div_r _ _ _ P))|apply (proj2 (Rle_div_l _ _ _ P))];
    unfold gN, gD, cz, dz; cbn [rev app inv_c inv_d zr map peval]; lra.
Qed.
Lemma anchor_rho : 4332099509 / 10000000000 <= gV (43 / 16) / (gD (43 / 16) * gD (43 / 16)) / (43 / 16) <= 4332099510 / 10000000000.
Proof.
  assert (P : 0 < gD (43 / 16)) by (apply gD_pos; lra).
  assert (EV : gV (43 / 16) = gN (43 / 16) * peval (zr (zder dz)) (43 / 16) - peval (zr (zder cz)) (43 / 16) * gD (43 / 16)).
  { pose proof (gV_eq (43 / 16)). lra. }
  assert (P2 : 0 < gD (43 / 16) * gD (43 / 16)) by (apply Rmult_lt_0_compat; exact P).
  replace (gV (43 / 16) / (gD (43 / 16) * gD (43 / 16)) / (43 / 16)) with (16 / 43 * gV (43 / 16) / (gD (43 / 16) * gD (43 / 16))) by (field; lra).
  rewrite EV. let l := eval vm_compute in (zder cz) in change (zder cz) with l. let l := eval vm_compute in (zder dz) in change (zder dz) with l.
  split; [apply (proj1 (Rle_div_r _ _ _ P2))|apply (proj2 (Rle_div_l _ _ _ P2))];
    unfold gN, gD, cz, dz; cbn [rev app inv_c inv_d zr map peval]; lra.
Qed.
Lemma exp_anchor : 10563910980 / 10000000000 <= exp (17554711933 / 320000000000) <= 10563910983 / 10000000000.
Proof.
  split.
  - eapply Rle_trans; [|apply (exp_lower 5); lra]. cbn [taylor pow fact Nat.mul Nat.add]. rewrite ?INR_IZR_INZ. cbn [Z.of_nat Pos.of_succ_nat Pos.succ]. lra.
  - pose proof (exp_upper 5 (17554711933 / 320000000000) ltac:(lra)) as H. cbn [taylor pow fact Nat.mul Nat.add] in H. rewrite ?INR_IZR_INZ in H. cbn [Z.of_nat Pos.of_succ_nat Pos.succ] in H.
    set (e := exp (17554711933 / 320000000000)) in *. lra.
Qed.
Lemma pow32 a b x : 0 <= a -> a <= x <= b -> a ^ 32 <= x ^ 32 <= b ^ 32.
Proof. intros Ha H. split; apply pow_incr; lra. Qed.
Lemma ht_anchor : Rabs (ht (43 / 16) - ln s2pi) <= 160 / 1000000000.
Proof.
  pose proof anchor_g as G. pose proof anchor_rho as Rh. pose proof exp_anchor as X. pose proof s2pi_sq as S2. pose proof s2pi_pos as SP. pose proof PI_fine as PF.
  assert (HV : 0 < gV (43 / 16)) by (apply gV_pos; unfold tail_range; lra). assert (HD : 0 < gD (43 / 16)) by (apply gD_pos; lra).
  assert (PQ : 0 < gV (43 / 16) / (gD (43 / 16) * gD (43 / 16))) by (apply Rdiv_lt_0_compat; nra).
  set (rho := gV (43 / 16) / (gD (43 / 16) * gD (43 / 16)) / (43 / 16)) in *.
  assert (E : ht (43 / 16) = (43 / 16 * (43 / 16) - gt (43 / 16) * gt (43 / 16)) / 2 + ln rho).
  { assert (ER : rho = gV (43 / 16) / (gD (43 / 16) * gD (43 / 16)) * / (43 / 16)) by reflexivity. clearbody rho.
    rewrite ER, ln_mult, ln_Rinv by (try exact PQ; lra). unfold ht. field. }
  set (B := (43 / 16 * (43 / 16) - gt (43 / 16) * gt (43 / 16)) / 2) in *.
  assert (HB : 17554711933 / 10000000000 - 2 / 1000000000 <= B <= 17554711933 / 10000000000 + 2 / 1000000000) by (unfold B; nra).
  pose proof (pow32 (10563910980 / 10000000000) (10563910983 / 10000000000) _ ltac:(lra) X) as X32. rewrite AsyValue.exp_nth in X32.
  replace (INR 32 * (17554711933 / 320000000000)) with (17554711933 / 10000000000) in X32 by (rewrite INR_IZR_INZ; cbn [Z.of_nat Pos.of_succ_nat Pos.succ]; lra).
  assert (L32 : 57861734 / 10000000 <= (10563910980 / 10000000000) ^ 32) by (cbn [pow]; lra).
  assert (U32 : (10563910983 / 10000000000) ^ 32 <= 57861737 / 10000000) by (cbn [pow]; lra).
  set (C := 17554711933 / 10000000000) in *.
  assert (LX : ln (57861734 / 10000000) <= C <= ln (57861737 / 10000000)).
  { split; apply (proj1 (exp_le_iff _ _)); rewrite exp_ln by lra; lra. }
  assert (Rp : 0 < rho) by lra.
  rewrite E.
  assert (U1 : ln (57861737 / 10000000) + ln rho <= ln s2pi).
  { rewrite <- ln_mult by lra. apply ln_le; [nra|]. assert (250662825 / 100000000 <= s2pi) by nra. nra. }
  assert (L1 : ln s2pi <= ln (57861734 / 10000000) + ln rho + 155 / 1000000000).
  { pose proof (ph_nonneg (155 / 1000000000) ltac:(lra)) as Q. unfold ph in Q.
    apply Rle_trans with (ln (57861734 / 10000000) + ln rho + ln (1 + 155 / 1000000000)); [|lra]. rewrite <- !ln_mult by nra.
    apply ln_le; [exact SP|]. assert (s2pi <= 25066282747 / 10000000000) by nra. nra. }
  apply Rabs_le. lra.
Qed.
Lemma ht_close l e : chain 172 l e = true -> (e <= 2560)%Z -> (forall p, In p l -> In p (tail_1 ++ tail_2)) ->
  forall t, 172 <= 64 * t <= IZR e -> Rabs (ht t - ht (43 / 16)) <= IZR (total l) / (IZR 1000000000000 * IZR 64).
Proof.
  intros HC He HI t Ht. apply IZR_le in He.
  pose proof (accumulate 64 1000000000000 (fun t => t) (fun _ => 1) (fun t => t) ht ht' ltac:(lia) ltac:(lia)
    (fun x _ => is_derive_id (K := R_AbsRing) x) ltac:(intros x Hx; cbv beta; lra)) as A. cbv beta in A.
  specialize (A ltac:(intros v Hv; split; [exact Hv|reflexivity]) ltac:(intros x y _ _ Hxy; exact Hxy) l 172%Z e ltac:(lia) HC).
  replace (172 / 64) with (43 / 16) in A by lra. apply A; [| |lra|exact Ht].
  - intros x Hx Hr'. apply ht_deriv. unfold tail_range. lra.
  - intros a b k Hk x Hx Hr'.
    pose proof (pieces_ok_bound 64 1000000000000 xvd3 uz 172 2560 _ ltac:(lia) ltac:(lia) tail_chain_12 tail_ok a b k (HI _ Hk) x Hr') as B.
    destruct (chain_in _ _ _ _ _ _ HC Hk) as (Ka & Kb). apply IZR_le in Ka. apply IZR_le in Kb.
    assert (Hin : tail_range x) by (unfold tail_range; lra).
    pose proof (gD_pos x Hx) as PD. pose proof (gV_pos x Hin) as PV.
    assert (PQ : 0 < peval (zr xvd3) x). { rewrite xvd3_eq. repeat apply Rmult_lt_0_compat; try assumption. unfold tail_range in Hin. lra. }
    unfold ht'. unfold Rdiv at 1. rewrite !Rabs_mult, Rabs_inv, (Rabs_right (peval (zr xvd3) x)) by lra.
    apply (proj2 (Rle_div_l (Rabs (peval (zr uz) x)) (IZR k / 1000000000000 * 1) _ PQ)). rewrite Rmult_1_r. exact B.
Qed.
Lemma ht_close_1 t : 172 <= 64 * t <= 821 -> Rabs (ht t - ln s2pi) <= 1360 / 1000000000.
Proof.
  intros H. pose proof (ht_close tail_1 821 tail_chain_1 ltac:(lia) ltac:(intros p Hp; apply in_or_app; left; exact Hp) t H) as A.
  rewrite tail_total_1 in A. pose proof ht_anchor as B. apply Rabs_le_between in A. apply Rabs_le_between in B. apply Rabs_le. lra.
Qed.
Lemma ht_close_2 t : tail_range t -> Rabs (ht t - ln s2pi) <= 22160 / 1000000000.
Proof.
  intros H. pose proof (ht_close _ 2560 tail_chain_12 ltac:(lia) ltac:(intros p Hp; exact Hp) t H) as A.
  rewrite tail_total_12 in A. pose proof ht_anchor as B. apply Rabs_le_between in A. apply Rabs_le_between in B. apply Rabs_le. lra.
Qed.

(** ** Mills' bound *)
Lemma phi_pos x : 0 < phi x.
Proof. unfold phi. apply Rmult_lt_0_compat; [|apply exp_pos]. fold s2pi. pose proof s2pi_pos. apply Rdiv_lt_0_compat; lra. Qed.
Lemma phi_even x : phi (- x) = phi x.
Proof. unfold phi. replace (- x * - x) with (x * x) by ring. reflexivity. Qed.
Lemma phi_le_1 x : phi x <= 1.
Proof.
  unfold phi. fold s2pi. pose proof s2pi_bounds. assert (exp (- (x * x) / 2) <= 1) by (apply exp_le_1; nra). pose proof (exp_pos (- (x * x) / 2)).
  assert (0 < 1 / s2pi <= 1). { split; [apply Rdiv_lt_0_compat; lra|]. apply (proj2 (Rle_div_l 1 1 s2pi ltac:(lra))). lra. } nra.
Qed.
Lemma phi_deriv x : is_derive phi x (- x * phi x).
Proof. unfold phi. auto_derive; [trivial|]. unfold Rdiv. set (e := exp _). field. apply Rgt_not_eq. exact s2pi_pos. Qed.
Lemma mills x : 0 < x -> x * Phi (- x) <= phi x.
Proof.
  intros Hx.
  assert (D : forall t, dom p_infty t -> is_derive (fun t => phi t / t - Phi (- t)) t (- (phi t / (t * t)))).
  { intros t (Ht & _). eapply is_derive_val.
    - apply (is_derive_minus (K := R_AbsRing) (V := R_NormedModule) (fun t => phi t / t) (fun t => Phi (- t))).
      + apply (is_derive_div phi (fun t => t) t); [apply phi_deriv|apply (is_derive_id (K := R_AbsRing))|lra].
      + apply (is_derive_circ Phi (fun t => - t) t (phi (- t)) (-1)); [apply Phi_deriv|]. auto_derive; [trivial|ring].
    - change (minus ?u ?v) with (u - v). change (one : R) with 1. cbn [pow]. rewrite phi_even. field. lra. }
  assert (N : 0 <= phi x / x - Phi (- x)).
  { apply (decr_nonneg p_infty (fun t => phi t / t - Phi (- t)) (fun t => - (phi t / (t * t))) D).
    - intros t (Ht & _). pose proof (phi_pos t). assert (0 < phi t / (t * t)) by (apply Rdiv_lt_0_compat; nra). lra.
    - intros e He. destruct (Phi_limit (e / 2) ltac:(lra)) as (x0 & H). exists (Rmax x0 (2 / e + 1)). split.
      + split; [|exact Logic.I]. pose proof (Rmax_r x0 (2 / e + 1)). assert (0 < 2 / e) by (apply Rdiv_lt_0_compat; lra). lra.
      + intros t (Ht & _) Hb. pose proof (Rmax_r x0 (2 / e + 1)). pose proof (Rmax_l x0 (2 / e + 1)).
        destruct (H t ltac:(lra)) as (_ & L). pose proof (Phi_range (- t)). pose proof (phi_le_1 t). pose proof (phi_pos t).
        assert (B : phi t / t < e / 2). { apply (proj2 (Rlt_div_l (phi t) (e / 2) t Ht)). assert (E : e / 2 * (2 / e) = 1) by (field; lra). nra. }
        assert (0 < phi t / t) by (apply Rdiv_lt_0_compat; lra). rewrite Rminus_0_r. apply Rabs_def1; lra.
    - split; [exact Hx|exact Logic.I]. }
  assert (E : phi x / x * x = phi x) by (field; lra). nra.
Qed.

(** ** The density of Phi (gt t) *)
Definition et (t : R) : R := exp (- (t * t) / 2).
Lemma et_deriv t : is_derive et t (- t * et t).
Proof. unfold et. auto_derive; [trivial|]. unfold Rdiv. set (e := exp _). field. Qed.
Lemma Phi_gt_deriv t : tail_range t -> is_derive (fun t => Phi (gt t)) t (- (t * et t * exp (ht t - ln s2pi))).
Proof.
  intros H. assert (Pt : 0 < t) by (unfold tail_range in H; lra). pose proof (gD_pos t ltac:(lra)) as PD. pose proof (gV_pos t H) as PV. pose proof s2pi_pos as P.
  eapply is_derive_val; [apply (is_derive_circ Phi gt t (phi (gt t)) (- (gV t / (gD t * gD t)))); [apply Phi_deriv|apply gt_deriv; lra]|].
  assert (PW : 0 < gV t / (gD t * gD t)) by (apply Rdiv_lt_0_compat; nra). unfold ht, et, phi. fold s2pi.
  replace (- (gt t * gt t) / 2 + ln (gV t / (gD t * gD t)) + (t * t / 2 - ln t) - ln s2pi)
    with (- (gt t * gt t) / 2 + ln (gV t / (gD t * gD t)) + (t * t / 2 + ln (/ t) + ln (/ s2pi))) by (rewrite !ln_Rinv by lra; ring).
  rewrite !exp_plus, !exp_ln; [|apply Rinv_0_lt_compat; exact P|apply Rinv_0_lt_compat; exact Pt|exact PW].
  replace (- (t * t) / 2) with (- (t * t / 2)) by field. rewrite (exp_Ropp (t * t / 2)). pose proof (exp_pos (t * t / 2)). field. lra.
Qed.
Lemma gt_decr a b : 172 <= 64 * a -> a <= b -> 64 * b <= 2560 -> gt b <= gt a.
Proof.
  intros Ha Hab Hb. pose proof (mono_cc (fun t => - gt t) (fun t => gV t / (gD t * gD t)) a b Hab) as M. cbv beta in M.
  enough (- gt a <= - gt b) by lra. apply M.
  - intros t Ht. eapply is_derive_val; [apply (is_derive_opp (K := R_AbsRing) (V := R_NormedModule)); apply gt_deriv; lra|]. match goal with |- opp ?x = ?y => change (- x = y) end. ring.
  - intros t Ht. pose proof (gD_pos t ltac:(lra)). pose proof (gV_pos t ltac:(unfold tail_range; lra)). apply Rdiv_le_0_compat; nra.
Qed.
(** Phi (gt t) compared with exp (- t^2 / 2): the relative deviation of the densities and the remainder at the end b *)
Lemma tail_compare c a b : 172 <= 64 * a -> a <= b -> 64 * b <= 2560 -> (forall t, a <= t <= b -> Rabs (exp (ht t - ln s2pi) - 1) <= c) ->
  Rabs (Phi (gt a) - et a) <= c * et a + (Phi (gt b) + et b).
Proof.
  intros Ha Hab Hb HJ.
  assert (D : forall s t, a <= t <= b -> is_derive (fun t => - (c * et t) + s * (Phi (gt t) - et t)) t (t * et t * (c - s * (exp (ht t - ln s2pi) - 1)))).
  { intros s t Ht. pose proof (Phi_gt_deriv t ltac:(unfold tail_range; lra)) as P. pose proof (et_deriv t) as De. eapply is_derive_val.
    - apply (is_derive_plus (K := R_AbsRing) (V := R_NormedModule) (fun t => - (c * et t)) (fun t => s * (Phi (gt t) - et t))).
      + apply (is_derive_opp (K := R_AbsRing) (V := R_NormedModule)). apply is_derive_scal. exact De.
      + apply is_derive_scal. apply (is_derive_minus (K := R_AbsRing) (V := R_NormedModule) (fun t => Phi (gt t)) et); [exact P|exact De].
    - unfold plus, minus, opp. cbn. ring. }
  assert (Pe : forall t, 0 < et t) by (intros t; apply exp_pos).
  assert (c0 : 0 <= c). { specialize (HJ a ltac:(lra)). pose proof (Rabs_pos (exp (ht a - ln s2pi) - 1)). lra. }
  pose proof (Phi_range (gt b)) as PB. pose proof (Pe b) as Eb.
  assert (cb : 0 <= c * et b) by nra.
  assert (Q : forall s, s = 1 \/ s = -1 -> - (c * et a) + s * (Phi (gt a) - et a) <= - (c * et b) + s * (Phi (gt b) - et b)).
  { intros s Hs. apply (mono_cc _ _ a b Hab (fun t Ht => D s t Ht)). intros t Ht. specialize (HJ t Ht). apply Rabs_le_between in HJ.
    apply Rmult_le_pos; [apply Rmult_le_pos; [lra|left; apply Pe]|]. destruct Hs as [-> | ->]; lra. }
  pose proof (Q 1 (or_introl eq_refl)) as Q1. pose proof (Q (-1) (or_intror eq_refl)) as Q2. apply Rabs_le. lra.
Qed.
Lemma gt_num a v : 0 <= a -> gN a <= v * gD a -> gt a <= v.
Proof. intros Ha H. pose proof (gD_pos a Ha) as P. apply (proj2 (Rle_div_l _ _ _ P)). exact H. Qed.
Lemma gt_10 : gt 10 <= - (9).
Proof. apply gt_num; [lra|]. unfold gN, gD, cz, dz. cbn [rev app inv_c inv_d zr map peval]. lra. Qed.
Lemma gt_b1 : gt (821 / 64) <= - (125 / 10).
Proof. apply gt_num; [lra|]. unfold gN, gD, cz, dz. cbn [rev app inv_c inv_d zr map peval]. lra. Qed.
Lemma gt_b2 : gt 40 <= - (398 / 10).
Proof. apply gt_num; [lra|]. unfold gN, gD, cz, dz. cbn [rev app inv_c inv_d zr map peval]. lra. Qed.
Lemma Phi_upper a g : 1 <= a -> g <= - a -> Phi g <= et a.
Proof.
  intros Ha Hg. pose proof (proj1 (Phi_le g (- a)) Hg) as L. pose proof (mills a ltac:(lra)) as M. pose proof (Phi_range (- a)).
  assert (phi a <= et a). { unfold phi, et. fold s2pi. pose proof s2pi_bounds. pose proof (exp_pos (- (a * a) / 2)).
    assert (1 / s2pi <= 1) by (apply (proj2 (Rle_div_l 1 1 s2pi ltac:(lra))); lra). nra. }
  nra.
Qed.
Lemma et_le a b d : 0 <= a -> a * a / 2 + INR d <= b * b / 2 -> et b <= / 2 ^ d * et a.
Proof.
  intros Ha H. unfold et. assert (L : exp (- (b * b) / 2) <= exp (- INR d + - (a * a) / 2)) by (apply (proj2 (exp_le_iff _ _)); lra).
  rewrite exp_plus in L. eapply Rle_trans; [exact L|]. apply Rmult_le_compat_r; [left; apply exp_pos|].
  rewrite exp_Ropp. apply Rinv_le_contravar; [apply pow_lt; lra|]. replace (exp (INR d)) with (exp 1 ^ d) by (rewrite exp_nth; f_equal; ring).
  apply pow_incr. pose proof (exp_ineq1_le 1). lra.
Qed.
Lemma tail_error_1 t : 43 / 16 <= t <= 10 -> Rabs (Phi (gt t) - et t) <= 1400 / 1000000000 * et t.
Proof.
  intros H. eapply Rle_trans; [apply (tail_compare (1361 / 1000000000) t (821 / 64)); try lra|].
  - intros s Hs. pose proof (exp_near _ (1360 / 1000000000) ltac:(lra) (ht_close_1 s ltac:(lra))) as X. apply Rabs_le. lra.
  - pose proof (Phi_upper (125 / 10) _ ltac:(lra) gt_b1) as P.
    assert (E28 : INR 28 = 28) by (rewrite INR_IZR_INZ; reflexivity).
    pose proof (et_le t (125 / 10) 28 ltac:(lra) ltac:(rewrite E28; nra)) as L1. pose proof (et_le t (821 / 64) 28 ltac:(lra) ltac:(rewrite E28; nra)) as L2.
    assert (C : / 2 ^ 28 <= 5 / 1000000000). { replace (/ 2 ^ 28) with (1 / 2 ^ 28) by (unfold Rdiv; ring). apply (proj2 (Rle_div_l 1 (5 / 1000000000) (2 ^ 28) ltac:(apply pow_lt; lra))). cbn [pow]. lra. }
    assert (0 < et t) by apply exp_pos. nra.
Qed.
Lemma tail_error_2 t : 10 <= t <= 386 / 10 -> Rabs (Phi (gt t) - et t) <= 22200 / 1000000000 * et t.
Proof.
  intros H. eapply Rle_trans; [apply (tail_compare (22162 / 1000000000) t 40); try lra|].
  - intros s Hs. pose proof (exp_near _ (22160 / 1000000000) ltac:(lra) (ht_close_2 s ltac:(unfold tail_range; lra))) as X. apply Rabs_le. lra.
  - pose proof (Phi_upper (398 / 10) _ ltac:(lra) gt_b2) as P.
    assert (E28 : INR 28 = 28) by (rewrite INR_IZR_INZ; reflexivity).
    pose proof (et_le t (398 / 10) 28 ltac:(lra) ltac:(rewrite E28; nra)) as L1. pose proof (et_le t 40 28 ltac:(lra) ltac:(rewrite E28; nra)) as L2.
    assert (C : / 2 ^ 28 <= 5 / 1000000000). { replace (/ 2 ^ 28) with (1 / 2 ^ 28) by (unfold Rdiv; ring). apply (proj2 (Rle_div_l 1 (5 / 1000000000) (2 ^ 28) ltac:(apply pow_lt; lra))). cbn [pow]. lra. }
    assert (0 < et t) by apply exp_pos. nra.
Qed.
