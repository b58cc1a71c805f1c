(** The rational approximation of the central region: how close Phi of it comes to the argument. *)
From Coq Require Import Reals Lra Lia Psatz ZArith List Bool.
From Coquelicot Require Import Coquelicot.
From Verif Require Import Improper GaussInt GammaFn ContModel ContProofs NormModel NormProofs AsyFacts InvPhiPoly InvPhiModel.
Import ListNotations.
Local Open Scope R_scope.

Definition az : list Z := rev inv_a.
Definition bz : list Z := 1000000000000000%Z :: rev inv_b.
Definition xz : list Z := [0; 1]%Z.
(** the numerator of the derivative of q A(q^2) / B(q^2), a polynomial of q^2 *)
Definition wz : list Z := zadd (zmul (zadd az (zscale 2 (zmul xz (zder az)))) bz) (zscale (-2) (zmul xz (zmul az (zder bz)))).
Definition wb3 : list Z := zmul wz (zmul bz (zmul bz bz)).
Definition tz : list Z := zadd (zscale 2 (zmul (zadd (zmul (zder wz) bz) (zscale (-2) (zmul wz (zder bz)))) (zmul bz bz))) (zscale (-1) (zmul az (zmul wz wz))).
(** bounds k 10^-12 of the derivative of the logarithm below on consecutive intervals [a,b] of 1100 q^2 *)
Definition central_1 : list (Z * Z * Z) := [(0,7,3712000); (7,10,944000); (10,14,1472000); (14,21,1792000); (21,33,1440000); (33,38,896000); (38,45,1824000); (45,53,2048000); (53,67,1312000); (67,74,816000); (74,79,1088000); (79,85,1920000); (85,92,2560000); (92,101,2816000); (101,111,1696000); (111,117,832000); (117,121,1104000); (121,126,2304000); (126,132,3648000); (132,138,3904000); (138,146,3712000); (146,154,3200000); (154,158,1088000); (158,162,2624000); (162,166,4096000); (166,171,6528000); (171,176,6656000); (176,183,4736000); (183,188,3392000); (188,190,1008000); (190,193,4288000); (193,196,6912000); (196,199,8960000); (199,203,12544000); (203,208,10240000); (208,212,6656000)]%Z.
Definition central_2 : list (Z * Z * Z) := [(212,213,1584000); (213,215,5696000); (215,217,10368000); (217,220,21760000); (220,223,24064000); (223,228,20480000); (228,230,8704000); (230,232,25344000); (232,234,40960000); (234,236,48128000); (236,240,43008000); (240,241,32768000); (241,242,64512000); (242,243,94208000); (243,244,114688000); (244,247,196608000); (247,249,1441792000)]%Z.
Lemma chain_1 : chain 0 central_1 212 = true.
Proof. vm_compute. reflexivity. Qed.
Lemma chain_12 : chain 0 (central_1 ++ central_2) 249 = true.
Proof. vm_compute. reflexivity. Qed.
Lemma central_ok : pieces_ok 1100 1000000000000 wb3 tz 0 (central_1 ++ central_2) = true.
Proof. vm_compute. reflexivity. Qed.
Lemma total_1 : total central_1 = 658720000%Z.
Proof. vm_compute. reflexivity. Qed.
Lemma total_12 : total (central_1 ++ central_2) = 5130192000%Z.
Proof. vm_compute. reflexivity. Qed.
Definition cover_b : list (Z * Z) := [(0, 78); (78, 132); (132, 180); (180, 208); (208, 230); (230, 244); (244, 249)]%Z.
Definition cover_w : list (Z * Z) := [(0, 43); (43, 79); (79, 108); (108, 140); (140, 164); (164, 183); (183, 203); (203, 221); (221, 236); (236, 245); (245, 249)]%Z.
Definition cover_1 : list (Z * Z) := [(0, 66); (66, 111); (111, 153); (153, 177); (177, 196); (196, 208); (208, 212)]%Z.
Definition cover_2 : list (Z * Z) := [(0, 58); (58, 118); (118, 158); (158, 186); (186, 212); (212, 227); (227, 239); (239, 246); (246, 248); (248, 249)]%Z.
Definition covered (p : list Z) (l : list (Z * Z)) : bool := forallb (fun s => nonneg_on 1100 p (fst s) (snd s)) l.
Lemma bz_ok : covered (zadd bz [-1000000000000]%Z) cover_b = true.
Proof. vm_compute. reflexivity. Qed.
Lemma wz_ok : covered (zadd wz [-1]%Z) cover_w = true.
Proof. vm_compute. reflexivity. Qed.
Lemma slope_low : covered (zadd (zscale 2 az) (zscale (-5) bz)) cover_w = true.
Proof. vm_compute. reflexivity. Qed.
Lemma slope_1 : covered (zadd (zscale 360 bz) (zscale (-100) az)) cover_1 = true.
Proof. vm_compute. reflexivity. Qed.
Lemma slope_2 : covered (zadd (zscale 416 bz) (zscale (-100) az)) cover_2 = true.
Proof. vm_compute. reflexivity. Qed.
Lemma covered_at p l x : covered p l = true -> (exists s, In s l /\ IZR (fst s) <= 1100 * x <= IZR (snd s)) -> 0 <= peval (zr p) x.
Proof.
  intros H (s & I & Hs). unfold covered in H. rewrite forallb_forall in H. specialize (H s I).
  apply (nonneg_on_ok 1100 p (fst s) (snd s) x); [lia|exact H|exact Hs].
Qed.
Ltac locate x := match goal with
  | |- exists s, In s [] /\ _ => exfalso; cbn [fst snd] in *; lra
  | |- exists s, In s (?h :: _) /\ _ =>
      destruct (Rle_lt_dec (1100 * x) (IZR (snd h))) as [?|?];
      [exists h; split; [left; reflexivity|cbn [fst snd] in *; lra] |
       match goal with |- exists s, In s (_ :: ?t) /\ _ =>
         cut (exists s, In s t /\ IZR (fst s) <= 1100 * x <= IZR (snd s)); [intros (s & ? & ?); exists s; split; [right; assumption|assumption]|locate x] end]
  end.
Lemma in_cover_b x : 0 <= 1100 * x <= 249 -> exists s, In s cover_b /\ IZR (fst s) <= 1100 * x <= IZR (snd s).
Proof. intros H. unfold cover_b. locate x. Qed.
Lemma in_cover_w x : 0 <= 1100 * x <= 249 -> exists s, In s cover_w /\ IZR (fst s) <= 1100 * x <= IZR (snd s).
Proof. intros H. unfold cover_w. locate x. Qed.
Lemma in_cover_1 x : 0 <= 1100 * x <= 212 -> exists s, In s cover_1 /\ IZR (fst s) <= 1100 * x <= IZR (snd s).
Proof. intros H. unfold cover_1. locate x. Qed.
Lemma in_cover_2 x : 0 <= 1100 * x <= 249 -> exists s, In s cover_2 /\ IZR (fst s) <= 1100 * x <= IZR (snd s).
Proof. intros H. unfold cover_2. locate x. Qed.

(** ** The approximation as a function of q *)
Definition fA (q : R) : R := peval (zr az) (q * q).
Definition fB (q : R) : R := peval (zr bz) (q * q).
Definition fW (q : R) : R := peval (zr wz) (q * q).
Definition fN (q : R) : R := q * fA q.
Definition gc (q : R) : R := fN q / fB q.
Definition inside (q : R) : Prop := 0 <= q /\ 1100 * (q * q) <= 249.
Lemma inside_range q : inside q -> 0 <= 1100 * (q * q) <= 249.
Proof. intros (H1 & H2). split; [nra|exact H2]. Qed.
Lemma fB_pos q : inside q -> 0 < fB q.
Proof.
  intros H. pose proof (covered_at _ _ (q * q) bz_ok (in_cover_b _ (inside_range q H))) as P. rewrite zadd_eval in P. cbn [zr map peval] in P.
  unfold fB. fold (zr bz) in P. lra.
Qed.
Lemma fW_pos q : inside q -> 0 < fW q.
Proof.
  intros H. pose proof (covered_at _ _ (q * q) wz_ok (in_cover_w _ (inside_range q H))) as P. rewrite zadd_eval in P. cbn [zr map peval] in P.
  unfold fW. fold (zr wz) in P. lra.
Qed.
Lemma slope_bounds q : inside q -> 5 / 2 * fB q <= fA q <= 416 / 100 * fB q.
Proof.
  intros H. pose proof (covered_at _ _ (q * q) slope_low (in_cover_w _ (inside_range q H))) as P.
  pose proof (covered_at _ _ (q * q) slope_2 (in_cover_2 _ (inside_range q H))) as P'. rewrite zadd_eval, !zscale_eval in P, P'.
  unfold fA, fB. lra.
Qed.
Lemma slope_bound_1 q : 0 <= q -> 1100 * (q * q) <= 212 -> fA q <= 360 / 100 * fB q.
Proof.
  intros H0 H. pose proof (covered_at _ _ (q * q) slope_1 (in_cover_1 (q * q) ltac:(split; [nra|exact H]))) as P'. rewrite zadd_eval, !zscale_eval in P'.
  unfold fA, fB. lra.
Qed.
Lemma gc_bounds q : inside q -> 5 / 2 * q <= gc q <= 416 / 100 * q.
Proof.
  intros H. pose proof (fB_pos q H) as B. pose proof (slope_bounds q H) as S. destruct H as (H0 & _). unfold gc, fN.
  split; [apply (proj1 (Rle_div_r _ _ _ B))|apply (proj2 (Rle_div_l _ _ _ B))]; nra.
Qed.
Lemma gc_bound_1 q : 0 <= q -> 1100 * (q * q) <= 212 -> gc q <= 360 / 100 * q.
Proof.
  intros H0 H. assert (I : inside q) by (split; [exact H0|lra]). pose proof (fB_pos q I) as B. pose proof (slope_bound_1 q H0 H) as S. unfold gc, fN.
  apply (proj2 (Rle_div_l _ _ _ B)). nra.
Qed.
(** derivatives *)
Lemma even_deriv p q : is_derive (fun q => peval (zr p) (q * q)) q (2 * q * peval (zr (zder p)) (q * q)).
Proof.
  eapply is_derive_val; [apply (is_derive_circ (peval (zr p)) (fun q => q * q) q (pder (zr p) (q * q)) (2 * q)); [apply peval_deriv|]|].
  - auto_derive; [trivial|ring].
  - rewrite zder_eval. reflexivity.
Qed.
Lemma fN_deriv q : is_derive fN q (fA q + 2 * (q * q) * peval (zr (zder az)) (q * q)).
Proof.
  unfold fN. eapply is_derive_val; [apply (is_derive_mul (fun q => q) fA q 1); [apply (is_derive_id (K := R_AbsRing))|apply even_deriv]|].
  cbv beta. unfold fA. ring.
Qed.
Lemma fW_eq q : (fA q + 2 * (q * q) * peval (zr (zder az)) (q * q)) * fB q - fN q * (2 * q * peval (zr (zder bz)) (q * q)) = 1 * fW q.
Proof.
  unfold fW, wz. rewrite zadd_eval, !zmul_eval, !zscale_eval, zadd_eval, !zscale_eval, !zmul_eval. unfold fN, fA, fB, xz. cbn [zr map peval]. ring.
Qed.
Definition hc (q : R) : R := - (gc q * gc q) / 2 + ln (fW q / (fB q * fB q)).
Definition hc' (q : R) : R := q * peval (zr tz) (q * q) / peval (zr wb3) (q * q).
Lemma wb3_eq q : peval (zr wb3) (q * q) = fW q * (fB q * fB q * fB q).
Proof. unfold wb3. rewrite !zmul_eval. unfold fW, fB. ring. Qed.
Lemma hc_deriv q : inside q -> is_derive hc q (hc' q).
Proof.
  intros H. pose proof (fB_pos q H) as B. pose proof (fW_pos q H) as W.
  eapply is_derive_val.
  - apply (log_deriv fN fB fW (fun q => fA q + 2 * (q * q) * peval (zr (zder az)) (q * q)) (fun q => 2 * q * peval (zr (zder bz)) (q * q))
      (fun q => 2 * q * peval (zr (zder wz)) (q * q)) 1 q); [apply fN_deriv|apply even_deriv|apply even_deriv|apply fW_eq|exact B|exact W].
  - cbv beta. unfold hc'. rewrite wb3_eq. f_equal. unfold tz. rewrite zadd_eval, !zscale_eval, !zmul_eval, zadd_eval, !zscale_eval, !zmul_eval.
    unfold fN, fA, fB, fW. ring.
Qed.
Lemma gc_deriv q : inside q -> is_derive gc q (fW q / (fB q * fB q)).
Proof.
  intros H. pose proof (fB_pos q H) as B. unfold gc. eapply is_derive_val.
  - apply (is_derive_div fN fB q); [apply fN_deriv|apply even_deriv|lra].
  - change (zr (zder bz)) with (zr (zder bz)). rewrite <- (Rmult_1_l (fW q)), <- fW_eq. cbn [pow]. field. lra.
Qed.

(** ** The density of Phi (gc q) *)
Definition s2pi : R := sqrt (2 * PI).
Lemma s2pi_sq : s2pi * s2pi = 2 * PI.
Proof. unfold s2pi. apply sqrt_sqrt. pose proof PI_RGT_0. lra. Qed.
Lemma s2pi_pos : 0 < s2pi.
Proof. unfold s2pi. apply sqrt_lt_R0. pose proof PI_RGT_0. lra. Qed.
Lemma s2pi_bounds : 2506628 / 1000000 < s2pi < 25066284 / 10000000.
Proof. pose proof s2pi_sq as E. pose proof s2pi_pos. pose proof PI_fine. split; nra. Qed.
Lemma hc_0 : hc 0 = ln (2506628277459239 / 1000000000000000).
Proof.
  unfold hc. assert (EG : gc 0 = 0) by (unfold gc, fN, Rdiv; ring). rewrite EG.
  assert (EW : fW 0 = 2506628277459239 * 1000000000000000).
  { rewrite <- (Rmult_1_l (fW 0)), <- fW_eq. unfold fN, fA, fB, az, bz. cbn [rev app inv_a inv_b zr map peval]. ring. }
  rewrite EW. assert (EB : fB 0 = 1000000000000000). { unfold fB, bz. cbn [zr map peval]. ring. }
  rewrite EB. replace (- (0 * 0) / 2) with 0 by lra. rewrite Rplus_0_l. f_equal. field.
Qed.
Lemma hc_0_close : 0 <= hc 0 - ln s2pi <= 4 / 1000000000.
Proof.
  rewrite hc_0. pose proof s2pi_sq as E. pose proof s2pi_pos as P. pose proof PI_fine as F.
  set (c := 2506628277459239 / 1000000000000000). assert (L : s2pi <= c) by (unfold c; nra).
  assert (U : c <= s2pi * (1 + 4 / 1000000000)) by (unfold c; nra). assert (Pc : 0 < c) by (unfold c; lra).
  split.
  - apply (ln_le s2pi c P) in L. lra.
  - apply (ln_le c _ Pc) in U. rewrite ln_mult in U by lra. pose proof (ph_nonneg (4 / 1000000000) ltac:(lra)) as Q. unfold ph in Q. lra.
Qed.
Lemma square_deriv x : is_derive (fun q => q * q) x (2 * x).
Proof. auto_derive; [trivial|ring]. Qed.
Lemma hc_close l e : chain 0 l e = true -> (e <= 249)%Z -> (forall p, In p l -> In p (central_1 ++ central_2)) ->
  forall q, 0 <= q -> 1100 * (q * q) <= IZR e -> Rabs (hc q - hc 0) <= IZR (total l) / (IZR 2000000000000 * IZR 1100).
Proof.
  intros HC He HI q Hq Hr. apply IZR_le in He.
  pose proof (accumulate 1100 2000000000000 (fun q => q * q) (fun q => 2 * q) sqrt hc hc' ltac:(lia) ltac:(lia)
    (fun x _ => square_deriv x) ltac:(intros x Hx; cbv beta; lra)) as A. cbv beta in A.
  specialize (A ltac:(intros v Hv; split; [apply sqrt_pos|apply sqrt_sqrt; exact Hv]) ltac:(intros x y Hx Hy Hxy; nra) l 0%Z e ltac:(lia) HC).
  assert (E0 : sqrt (0 / 1100) = 0) by (replace (0 / 1100) with 0 by lra; apply sqrt_0). rewrite E0 in A. apply A; [| |exact Hq|split; [nra|exact Hr]].
  - intros x Hx Hr'. apply hc_deriv. split; [exact Hx|lra].
  - intros a b k Hk x Hx Hr'.
    pose proof (pieces_ok_bound 1100 1000000000000 wb3 tz 0 249 _ ltac:(lia) ltac:(lia) chain_12 central_ok a b k (HI _ Hk) (x * x) Hr') as B.
    assert (Hin : inside x \/ 249 < 1100 * (x * x)). { unfold inside. destruct (Rle_lt_dec (1100 * (x * x)) 249); [left; split; assumption|right; assumption]. }
    assert (Hb : (b <= e)%Z).
    { apply (chain_in _ _ _ _ _ _ HC Hk). }
    apply IZR_le in Hb. destruct Hin as [Hin|Hin]; [|lra].
    pose proof (fB_pos x Hin) as PB. pose proof (fW_pos x Hin) as PW.
    assert (PQ : 0 < peval (zr wb3) (x * x)). { rewrite wb3_eq. repeat apply Rmult_lt_0_compat; assumption. }
    unfold hc'. unfold Rdiv at 1. rewrite !Rabs_mult, Rabs_inv, (Rabs_right x), (Rabs_right (peval (zr wb3) (x * x))) by lra.
    set (Q := peval (zr wb3) (x * x)) in *. set (T := Rabs (peval (zr tz) (x * x))) in *.
    apply (proj2 (Rle_div_l (x * T) (IZR k / 2000000000000 * (2 * x)) Q PQ)).
    replace (IZR k / 2000000000000 * (2 * x) * Q) with (x * (IZR k / 1000000000000 * Q)) by field. apply Rmult_le_compat_l; assumption.
Qed.
Lemma hc_close_1 q : 0 <= q -> 1100 * (q * q) <= 212 -> Rabs (hc q - ln s2pi) <= 304 / 1000000000.
Proof.
  intros Hq Hr. pose proof (hc_close central_1 212 chain_1 ltac:(lia) ltac:(intros p Hp; apply in_or_app; left; exact Hp) q Hq Hr) as A.
  rewrite total_1 in A. pose proof hc_0_close as B. apply Rabs_le_between in A. apply Rabs_le. lra.
Qed.
Lemma hc_close_2 q : inside q -> Rabs (hc q - ln s2pi) <= 2340 / 1000000000.
Proof.
  intros (Hq & Hr). pose proof (hc_close _ 249 chain_12 ltac:(lia) ltac:(intros p Hp; exact Hp) q Hq Hr) as A.
  rewrite total_12 in A. pose proof hc_0_close as B. apply Rabs_le_between in A. apply Rabs_le. lra.
Qed.
Lemma exp_near h e : 0 <= e <= 1 / 100 -> Rabs h <= e -> 1 - e <= exp h <= 1 + e + 2 * (e * e).
Proof.
  intros He Hh. apply Rabs_le_between in Hh. split.
  - pose proof (exp_ineq1_le h). lra.
  - assert (L : exp h <= exp e) by (apply (proj2 (exp_le_iff h e)); lra). pose proof (exp_ineq1_le (- e)) as Q. rewrite exp_Ropp in Q. pose proof (exp_pos e) as P.
    assert (M : exp e * (1 - e) <= 1). { replace 1 with (exp e * / exp e) at 2 by (field; lra). apply Rmult_le_compat_l; lra. }
    eapply Rle_trans; [exact L|]. nra.
Qed.
Definition jc (q : R) : R := phi (gc q) * (fW q / (fB q * fB q)).
Lemma jc_exp q : inside q -> jc q = exp (hc q - ln s2pi).
Proof.
  intros H. pose proof (fB_pos q H) as B. pose proof (fW_pos q H) as W. pose proof s2pi_pos as P.
  unfold jc, phi, hc. fold s2pi. assert (PW : 0 < fW q / (fB q * fB q)) by (apply Rdiv_lt_0_compat; nra).
  replace (- (gc q * gc q) / 2 + ln (fW q / (fB q * fB q)) - ln s2pi) with (- (gc q * gc q) / 2 + ln (fW q / (fB q * fB q)) + ln (/ s2pi)) by (rewrite ln_Rinv by exact P; ring).
  rewrite !exp_plus, !exp_ln; [field; lra|apply Rinv_0_lt_compat; exact P|exact PW].
Qed.
Lemma Phi_gc_deriv q : inside q -> is_derive (fun q => Phi (gc q)) q (jc q).
Proof.
  intros H. eapply is_derive_val; [apply (is_derive_circ Phi gc q (phi (gc q)) (fW q / (fB q * fB q))); [apply Phi_deriv|apply gc_deriv; exact H]|].
  unfold jc. ring.
Qed.
(** a step: the error of Phi (gc q) - q grows by at most c per unit *)
Lemma error_step c a b : 0 <= a <= b -> inside b -> (forall t, a <= t <= b -> Rabs (jc t - 1) <= c) ->
  Rabs ((Phi (gc b) - b) - (Phi (gc a) - a)) <= c * (b - a).
Proof.
  intros Hab Hb HJ.
  assert (I : forall t, a <= t <= b -> inside t). { intros t Ht. destruct Hb as (_ & Hb). split; [lra|nra]. }
  assert (D : forall s t, a <= t <= b -> is_derive (fun t => c * t + s * (Phi (gc t) - t)) t (c + s * (jc t - 1))).
  { intros s t Ht. pose proof (Phi_gc_deriv t (I t Ht)) as P. eapply is_derive_val.
    - apply (is_derive_plus (K := R_AbsRing) (V := R_NormedModule) (fun t => c * t) (fun t => s * (Phi (gc t) - t))).
      + apply is_derive_scal. apply (is_derive_id (K := R_AbsRing)).
      + apply is_derive_scal. apply (is_derive_minus (K := R_AbsRing) (V := R_NormedModule) (fun t => Phi (gc t)) (fun t => t)); [exact P|apply (is_derive_id (K := R_AbsRing))].
    - unfold plus, minus, opp, one. cbn. ring. }
  apply Rabs_le. split.
  - pose proof (mono_cc _ _ a b ltac:(lra) (fun t Ht => D 1 t Ht) ltac:(intros t Ht; specialize (HJ t Ht); apply Rabs_le_between in HJ; lra)) as Q. cbv beta in Q. lra.
  - pose proof (mono_cc _ _ a b ltac:(lra) (fun t Ht => D (-1) t Ht) ltac:(intros t Ht; specialize (HJ t Ht); apply Rabs_le_between in HJ; lra)) as Q. cbv beta in Q. lra.
Qed.
Lemma central_1_error q : 0 <= q -> 1100 * (q * q) <= 212 -> Rabs (Phi (gc q) - (1 / 2 + q)) <= 305 / 1000000000 * q.
Proof.
  intros Hq Hr. assert (I0 : inside 0) by (split; lra). assert (Iq : inside q) by (split; lra).
  pose proof (error_step (305 / 1000000000) 0 q ltac:(lra) Iq) as E.
  assert (P0 : Phi (gc 0) = 1 / 2). { replace (gc 0) with 0 by (unfold gc, fN; unfold Rdiv; ring). pose proof (Phi_opp 0) as O. rewrite Ropp_0 in O. lra. }
  rewrite P0 in E. replace (Phi (gc q) - (1 / 2 + q)) with (Phi (gc q) - q - (1 / 2 - 0)) by ring. replace (305 / 1000000000 * q) with (305 / 1000000000 * (q - 0)) by ring. apply E.
  intros t Ht. assert (It : inside t) by (split; [lra|nra]). rewrite (jc_exp t It).
  pose proof (hc_close_1 t ltac:(lra) ltac:(nra)) as B. pose proof (exp_near _ (304 / 1000000000) ltac:(lra) B) as X. apply Rabs_le. lra.
Qed.
Lemma central_2_error q : 212 <= 1100 * (q * q) -> 0 <= q <= 47575 / 100000 -> Rabs (Phi (gc q) - (1 / 2 + q)) <= 23 / 100000000.
Proof.
  intros Hr Hq. set (q1 := sqrt (212 / 1100)). assert (E1 : q1 * q1 = 212 / 1100) by (apply sqrt_sqrt; lra).
  assert (P1 : 0 <= q1) by apply sqrt_pos. assert (L1 : 439 / 1000 <= q1 <= 4391 / 10000) by (split; nra). assert (L : q1 <= q) by nra.
  pose proof (central_1_error q1 P1 ltac:(lra)) as B1. assert (Iq : inside q) by (split; [lra|nra]).
  pose proof (error_step (2345 / 1000000000) q1 q ltac:(lra) Iq) as E2.
  assert (B2 : Rabs (Phi (gc q) - q - (Phi (gc q1) - q1)) <= 2345 / 1000000000 * (q - q1)).
  { apply E2. intros t Ht. assert (It : inside t) by (destruct Iq; split; [lra|nra]). rewrite (jc_exp t It).
    pose proof (exp_near _ (2340 / 1000000000) ltac:(lra) (hc_close_2 t It)) as X. apply Rabs_le. lra. }
  replace (Phi (gc q) - (1 / 2 + q)) with ((Phi (gc q) - q - (Phi (gc q1) - q1)) + (Phi (gc q1) - (1 / 2 + q1))) by ring.
  eapply Rle_trans; [apply Rabs_triang|]. lra.
Qed.
