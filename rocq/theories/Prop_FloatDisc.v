(** C110: pdf and cdf of discrete_dist, uniform_int_dist and bernoulli_dist in double. *)
From Coq Require Import ZArith Bool List Reals Lia Lra.
From Flocq Require Import Core Relative IEEE754.BinarySingleNaN.
From Verif Require Import Base FloatFacts UniformModel UniformProofs IntMathModel ArithModel DiscreteModel DiscreteProofs DiscreteReal Prop_Discrete FloatDrawModel FloatDrawSpec FloatDrawProofs FloatDrawTrig DiscDrawSpec DiscDrawProofs DiscDrawInt DiscDrawTree FloatCdfModel FloatCdfSpec FloatPdfSpec FloatDiscSpec FloatDiscProofs.
Import ListNotations.
Open Scope R_scope.

(** ** discrete_dist *)
Theorem C110_discrete : forall (w : list double), (1 <= Z.of_nat (length w) < 2 ^ 31)%Z -> List.Forall (fun x => is_finite x = true /\ 0 <= B2R x) w ->
  bpow radix2 (-900) <= whole (map B2R w) <= bpow radix2 1000 ->
  exists d, ddist_make double_arith w = Some d /\ forall k, (k < length w)%nat ->
    (exists y, ddist_pdf double_arith d (Z.of_nat k) = Some y /\
       let p := nth k (map B2R w) 0 / whole (map B2R w) in density y p (34 / 2 ^ 52 * p + bpow radix2 (-1075))) /\
    (exists y, ddist_cdf double_arith d (Z.of_nat k) = Some y /\
       let p := upto (map B2R w) (S k) / whole (map B2R w) in density y p ((INR k + 35) / 2 ^ 52 * p + bpow radix2 (-1075))) /\
    (forall j y z, (j <= k)%nat -> ddist_cdf double_arith d (Z.of_nat j) = Some y -> ddist_cdf double_arith d (Z.of_nat k) = Some z -> B2R (y : double) <= B2R (z : double)).
Proof.
  intros w HN HF HW. destruct (ddist_make_ok double_arith w) as (d & Ed & HT); [change (num double_arith) with double; lia|]. exists d. split; [exact Ed|]. intros k Hk.
  destruct (root_ok w d HT HF HN HW) as (r & R1 & R2 & R3). pose proof q_pos as Q. pose proof big_10 as BB. set (rw := map B2R w) in *. set (W := whole rw) in *. assert (WP : 0 < W) by (pose proof (bpow_gt_0 radix2 (-900)); lra).
  assert (LE : length rw = length w) by apply map_length. assert (EN : dd_N d = length w) by (destruct HT as (E & _); exact E).
  assert (RP : List.Forall (fun x => 0 <= x) rw) by (apply (rw_pos w HF)).
  assert (EW : W = prefix rw (length rw)) by apply whole_prefix.
  assert (PR : forall i, (i <= length w)%nat -> 0 <= upto rw i <= W). { intros i Hi. change (upto rw i) with (prefix rw i). rewrite EW. split; [rewrite <- (prefix_0 rw)|]; apply prefix_mono; try exact RP; lia. }
  assert (ACC : forall i, (i <= length w)%nat -> let a := fold_left (fadd 53 1024) (firstn i w) (of_int 53 1024 0) in is_finite a = true /\ 0 <= B2R a /\ Rabs (B2R a - upto rw i) <= INR i * q * upto rw i).
  { intros i Hi. cbv zeta. destruct (int_ok_ 0 ltac:(lia)) as (O1 & O2). assert (LF : length (firstn i w) = i) by (apply firstn_length_le; exact Hi). assert (UE : upto rw i = whole (map B2R (firstn i w))) by (unfold upto, whole, rw; rewrite firstn_map; reflexivity).
    pose proof (PR i Hi) as PI. destruct (acc_ok (firstn i w) (of_int 53 1024 0) 0 0 (firstn_forall w HF i)) as (A1 & A2 & A3); try lra; try exact O1.
    - change (of_int 53 1024 0) with (dint 0). rewrite O2. lra.
    - rewrite LF, Rplus_0_l, INR_IZR_INZ. replace (2 ^ 31) with (IZR (2 ^ 31)) by (change (IZR (2 ^ 31)) with 2147483648; lra). apply IZR_le. lia.
    - change (of_int 53 1024 0) with (dint 0). rewrite O2, Rminus_0_r, Rabs_R0. lra.
    - rewrite <- UE, Rplus_0_l. unfold big. lra.
    - rewrite LF, <- UE, !Rplus_0_l in A3. split; [exact A1|]. split; [exact A2|exact A3]. }
  assert (CDF : forall i, (i < length w)%nat -> ddist_cdf double_arith d (Z.of_nat i) = Some (ddiv (fold_left (fadd 53 1024) (firstn (S i) w) (of_int 53 1024 0)) r)).
  { intros i Hi. unfold ddist_cdf. rewrite EN, size_to_int_small by lia. rewrite (proj2 (Z.ltb_ge _ 0)), (proj2 (Z.ltb_lt _ _)) by lia. rewrite Nat2Z.id. pose proof (tlen w d HT) as TL. change (num double_arith) with double in *. rewrite (proj2 (Nat.ltb_ge _ _)) by lia. rewrite R1. cbn [bind]. pose proof (leaves w d HT) as LV. change (num double_arith) with double in LV. rewrite LV, Nat.add_1_r. reflexivity. }
  assert (QT : forall i, (i < length w)%nat -> let y := ddiv (fold_left (fadd 53 1024) (firstn (S i) w) (of_int 53 1024 0)) r in is_finite y = true /\ B2R y = rnd (B2R (fold_left (fadd 53 1024) (firstn (S i) w) (of_int 53 1024 0)) / B2R r) /\ density y (upto rw (S i) / W) ((INR i + 35) / 2 ^ 52 * (upto rw (S i) / W) + bpow radix2 (-1075))).
  { intros i Hi. cbv zeta. destruct (ACC (S i) ltac:(lia)) as (A1 & A2 & A3). set (a := fold_left _ _ _) in *. destruct (quot_ok (B2R a) (upto rw (S i)) (B2R r) W (INR (S i)) (PR (S i) ltac:(lia)) WP) as (G1 & G2 & G3); [|exact A3|exact R3|].
    - split; [apply pos_INR|]. rewrite INR_IZR_INZ. replace (2 ^ 31) with (IZR (2 ^ 31)) by (change (IZR (2 ^ 31)) with 2147483648; lra). apply IZR_le. lia.
    - destruct (div_ok a r A1 ltac:(lra)) as (D1 & D2); [rewrite Rabs_pos_eq by lra; lra|]. split; [exact D1|]. split; [exact D2|]. split; [exact D1|]. rewrite D2. split; [apply (rnd_ge_0 53 1024 H3_64 H70_64); lra|]. rewrite S_INR in G3. unfold Rdiv at 4. fold q. fold tiny. replace (INR i + 35) with (INR i + 1 + 34) by ring. exact G3. }
  split; [|split].
  - assert (EK : exists x, nth_error w k = Some x) by (destruct (nth_error w k) as [x|] eqn:E; [exists x; reflexivity|apply nth_error_None in E; lia]). destruct EK as (x & EK). assert (NX : nth k rw 0 = B2R x) by (apply nth_error_nth; unfold rw; apply map_nth_error; exact EK).
    exists (ddiv x r). split.
    + unfold ddist_pdf. rewrite EN, size_to_int_small by lia. rewrite (proj2 (Z.ltb_ge _ 0)), (proj2 (Z.leb_gt _ _)) by lia. cbn [orb]. rewrite Nat2Z.id, Nat.add_comm. pose proof (tleaf w d HT k) as TL. unfold vget at 1. change (num double_arith) with double in *. rewrite TL, EK. cbn [bind]. rewrite R1. reflexivity.
    + cbv zeta. rewrite NX. pose proof HF as HF'. rewrite Forall_forall in HF'. destruct (HF' x (nth_error_In _ _ EK)) as (X1 & X2).
      assert (XW : B2R x <= W). { pose proof (prefix_S rw k) as PS. rewrite NX in PS. pose proof (PR (S k) ltac:(lia)) as U1. pose proof (PR k ltac:(lia)) as U2. change (upto rw) with (prefix rw) in *. lra. }
      destruct (quot_ok (B2R x) (B2R x) (B2R r) W 0 ltac:(lra) WP ltac:(lra)) as (G1 & G2 & G3); [rewrite Rminus_diag_eq by reflexivity; rewrite Rabs_R0; lra|exact R3|].
      destruct (div_ok x r X1 ltac:(lra)) as (D1 & D2); [rewrite Rabs_pos_eq by lra; lra|]. split; [exact D1|]. rewrite D2. split; [apply (rnd_ge_0 53 1024 H3_64 H70_64); lra|]. rewrite Rplus_0_l in G3. unfold Rdiv at 3. fold q. exact G3.
  - eexists. split; [exact (CDF k Hk)|]. cbv zeta. exact (proj2 (proj2 (QT k Hk))).
  - intros j y z Hj Ey Ez. rewrite (CDF j ltac:(lia)) in Ey. rewrite (CDF k Hk) in Ez. destruct (QT j ltac:(lia)) as (_ & VJ & _). destruct (QT k Hk) as (_ & VK & _). rewrite (f_equal (fun o => match o with Some v => B2R (v : double) | None => 0 end) Ey) in VJ. rewrite (f_equal (fun o => match o with Some v => B2R (v : double) | None => 0 end) Ez) in VK. rewrite VJ, VK.
    apply (rnd_le 53 1024 H3_64 H70_64). destruct (quot_ok 0 0 (B2R r) W 0 ltac:(lra) WP ltac:(lra)) as (G1 & _ & _); [rewrite Rminus_diag_eq by reflexivity; rewrite Rabs_R0; lra|exact R3|].
    apply Rmult_le_compat_r; [left; apply Rinv_0_lt_compat; exact G1|]. clear - ACC HF HW HN Hk Hj BB PR Q. revert Hk. induction Hj as [|k Hj IH]; intros Hk; [lra|]. apply Rle_trans with (1 := IH ltac:(lia)).
    destruct (ACC (S k) ltac:(lia)) as (A1 & A2 & A3). destruct (ACC (S (S k)) ltac:(lia)) as (B1 & B2 & B3). assert (EK : exists x, nth_error w (S k) = Some x) by (destruct (nth_error w (S k)) as [x|] eqn:E; [exists x; reflexivity|apply nth_error_None in E; lia]). destruct EK as (x & EK).
    assert (FS : firstn (S (S k)) w = firstn (S k) w ++ [x]). { clear - EK. revert w EK. generalize (S k) as n. induction n as [|n IH]; intros [|a w] E; try discriminate E; cbn in *; [injection E as ->; reflexivity|]. rewrite <- (IH w E). reflexivity. }
    rewrite FS, fold_left_app. cbn [fold_left]. set (a := fold_left (fadd 53 1024) (firstn (S k) w) (of_int 53 1024 0)) in *. rewrite Forall_forall in HF. destruct (HF x (nth_error_In _ _ EK)) as (X1 & X2).
    pose proof (PR (S k) ltac:(lia)) as U1. pose proof (PR (S (S k)) ltac:(lia)) as U2. assert (XL : B2R x <= whole rw). { assert (NX : nth (S k) rw 0 = B2R x) by (apply nth_error_nth; unfold rw; apply map_nth_error; exact EK). pose proof (prefix_S rw (S k)) as PS. rewrite NX in PS. change (upto rw) with (prefix rw) in *. unfold W in *. lra. }
    assert (NQ : INR (S k) * q <= / 1000). { apply Rle_trans with (2 ^ 31 * / 1000000000000000); [|lra]. apply Rmult_le_compat; try lra; try apply pos_INR. rewrite INR_IZR_INZ. replace (2 ^ 31) with (IZR (2 ^ 31)) by (change (IZR (2 ^ 31)) with 2147483648; lra). apply IZR_le. lia. }
    assert (NS : INR (S k) * q * upto rw (S k) <= / 1000 * upto rw (S k)) by (apply Rmult_le_compat_r; lra). apply Rabs_le_inv in A3.
    destruct (fadd_ok 53 1024 H3_64 H70_64 a x A1 X1) as (D1 & D2); [apply inr; rewrite Rabs_pos_eq by lra; unfold big, W in *; lra|]. rewrite D2. apply (rnd_ge_fmt 53 1024 H3_64 H70_64); [apply (fmt_B2R 53 1024 H3_64 H70_64)|lra].
Qed.
Print Assumptions C110_discrete.
(** cdf adds from the left and divides by the sum of the tree, so that it exceeds 1 at max() *)
Theorem C110_discrete_above_one_refuted : exists (w : list double) (d : ddist double_arith) (y z : double),
  Forall (fun x => is_finite x = true /\ 0 < B2R x) w /\ ddist_make double_arith w = Some d /\ ddist_max double_arith d = 3%Z /\
  ddist_cdf double_arith d 3 = Some y /\ ddist_cdf double_arith d 4 = Some z /\ B2R z = 1 /\ 1 < B2R y.
Proof.
  set (w := [dbl 1 (-53); dbl 1 (-53); dbl 1 0; dbl 1 (-53)]).
  assert (E : option_map (fun d => (ddist_max double_arith d, option_map (fun y : double => (is_finite y, Bltb (dbl 1 0) y)) (ddist_cdf double_arith d 3), option_map B2SF (ddist_cdf double_arith d 4))) (ddist_make double_arith w)
    = Some (3%Z, Some (true, true), Some (B2SF (dint 1)))) by (vm_compute; reflexivity).
  destruct (ddist_make double_arith w) as [d|] eqn:M; [|discriminate E]. cbn [option_map] in E.
  destruct (ddist_cdf double_arith d 3) as [y|] eqn:Y; [|discriminate E]. destruct (ddist_cdf double_arith d 4) as [z|] eqn:Z0; [|discriminate E]. cbn [option_map] in E. apply (f_equal (fun o => match o with Some t => t | None => (0%Z, None, None) end)) in E.
  pose proof (f_equal (fun t => fst (fst t)) E) as E1. pose proof (f_equal (fun t => snd (fst t)) E) as E2. pose proof (f_equal (fun t => snd t) E) as E3. cbn [fst snd] in E1, E2, E3.
  exists w, d, y, z. split; [unfold w; repeat (apply Forall_cons; [apply dbl_pos; vm_compute; reflexivity|]); apply Forall_nil|]. split; [exact M|]. split; [exact E1|]. split; [exact Y|]. split; [exact Z0|].
  destruct (int_ok_ 1 ltac:(lia)) as (F1 & V1). split.
  - assert (EZ : z = dint 1). { apply B2SF_inj. injection E3. auto. } rewrite EZ. exact V1.
  - assert (Y1 : is_finite y = true) by (injection E2; auto). assert (Y2 : Bltb (dbl 1 0) y = true) by (injection E2; auto). assert (F1' : is_finite (dbl 1 0) = true) by (vm_compute; reflexivity). rewrite (Bltb_correct 53 1024 (dbl 1 0) y F1' Y1) in Y2. destruct (Rlt_bool_spec (B2R (dbl 1 0)) (B2R y)) as [H|H]; [|discriminate Y2]. assert (D1 : dbl 1 0 = dint 1) by (apply B2SF_inj; vm_compute; reflexivity). rewrite D1, V1 in H. exact H.
Qed.
Print Assumptions C110_discrete_above_one_refuted.

(** ** uniform_int_dist *)
Lemma int_quot m n : (0 < m <= n)%Z -> (n < 2 ^ 31)%Z -> is_finite (ddiv (dint m) (dint n)) = true /\ B2R (ddiv (dint m) (dint n)) = rnd (IZR m / IZR n) /\ 0 < IZR m / IZR n <= 1 /\ Rabs (rnd (IZR m / IZR n) - IZR m / IZR n) <= / 2 ^ 53 * (IZR m / IZR n).
Proof.
  intros Hm Hn. pose proof big_10 as BB. destruct (int_ok_ m ltac:(lia)) as (M1 & M2). destruct (int_ok_ n ltac:(lia)) as (N1 & N2). assert (MP : 1 <= IZR m) by (apply IZR_le; lia). assert (NM : IZR m <= IZR n) by (apply IZR_le; lia). assert (N31 : IZR n <= 2147483648) by (apply IZR_le; lia).
  assert (R : / 2147483648 <= IZR m / IZR n <= 1). { split; apply Rmult_le_reg_r with (IZR n); try lra; unfold Rdiv; rewrite ?Rmult_assoc, ?Rinv_l by lra; lra. }
  destruct (div_ok (dint m) (dint n) M1 ltac:(lra)) as (D1 & D2); [rewrite M2, N2, Rabs_pos_eq by lra; lra|]. rewrite M2, N2 in D2. split; [exact D1|]. split; [exact D2|]. split; [lra|].
  pose proof (relative_error_N_FLT radix2 (-1074) 53 ltac:(lia) (fun z => negb (Z.even z)) (IZR m / IZR n)) as E. change (FLT_exp (-1074) 53) with (SpecFloat.fexp 53 1024) in E. fold ZnearestE in E. rewrite (Rabs_pos_eq (IZR m / IZR n)) in E by lra.
  apply Rle_trans with (1 := E ltac:(apply Rle_trans with (2 := proj1 R); apply Rle_trans with (bpow radix2 (-31)); [apply bpow_le; lia|cbn; lra])). apply Rmult_le_compat_r; [lra|]. cbn. lra.
Qed.
Theorem C110_uniform_int : forall (a b : Z) (P : uniform_int), (a < b)%Z -> (- 2 ^ 31 <= a)%Z -> (b < 2 ^ 31)%Z -> uniform_int_make a b = UIVal P ->
  let pdf x : double := uniform_int_pdf double_arith (ui_a P) (ui_b P) (ui_d P) x in
  let cdf x : double := uniform_int_cdf double_arith (ui_a P) (ui_b P) (ui_d P) x in
  (forall x, density (pdf x) (f_uniform_int a b x) (/ 2 ^ 53 * f_uniform_int a b x) /\ density (cdf x) (F_uniform_int a b x) (/ 2 ^ 53 * F_uniform_int a b x)) /\
  B2R (cdf (a - 1)%Z) = 0 /\ B2R (cdf (b - 1)%Z) = 1 /\ (forall x, (a - 1 <= x < b - 1)%Z -> B2R (cdf x) < B2R (cdf (x + 1)%Z)).
Proof.
  intros a b P Hab Ha Hb HP pdf cdf. unfold uniform_int_make, int_sub in HP. assert (EP : P = UniformInt a b (b - a) /\ (b - a < 2 ^ 31)%Z).
  { destruct ((- 2 ^ 31 <=? b - a) && (b - a <? 2 ^ 31))%Z eqn:K; [|discriminate HP]. injection HP as <-. split; [reflexivity|lia]. }
  destruct EP as (-> & Hd). cbn [ui_a ui_b ui_d] in *. destruct (int_ok_ 0 ltac:(lia)) as (F0 & V0). destruct (int_ok_ 1 ltac:(lia)) as (F1 & V1).
  assert (CL : forall x, (x < a)%Z -> cdf x = dint 0) by (intros x Hx; unfold cdf, uniform_int_cdf; rewrite (proj2 (Z.ltb_lt x a)) by lia; reflexivity).
  assert (CR : forall x, (b <= x)%Z -> cdf x = dint 1) by (intros x Hx; unfold cdf, uniform_int_cdf; rewrite (proj2 (Z.ltb_ge x a)), (proj2 (Z.leb_le b x)) by lia; reflexivity).
  assert (CM : forall x, (a <= x < b)%Z -> cdf x = ddiv (dint (x - a + 1)) (dint (b - a))) by (intros x Hx; unfold cdf, uniform_int_cdf; rewrite (proj2 (Z.ltb_ge x a)), (proj2 (Z.leb_gt b x)) by lia; reflexivity).
  assert (LAST : B2R (cdf (b - 1)%Z) = 1). { rewrite CM by lia. destruct (int_quot (b - 1 - a + 1) (b - a) ltac:(lia) Hd) as (_ & A2 & _). rewrite A2. replace (b - 1 - a + 1)%Z with (b - a)%Z by lia. assert (1 <= IZR (b - a)) by (apply IZR_le; lia). unfold Rdiv. rewrite Rinv_r by lra. apply round_generic; [typeclasses eauto|]. exact (fmt_1 53 1024 H3_64 H70_64). }
  split; [|split; [rewrite CL by lia; exact V0|split; [exact LAST|]]].
  - intros x. split.
    + unfold f_uniform_int, pdf, uniform_int_pdf. destruct (Z.ltb_spec x a) as [A|A]; [|destruct (Z.leb_spec b x) as [B|B]]; cbn [orb].
      * rewrite (proj2 (Z.leb_gt a x)) by lia. cbn [andb]. split; [exact F0|]. change (zero double_arith) with (dint 0). rewrite V0, Rminus_0_r, Rabs_R0. lra.
      * rewrite (proj2 (Z.ltb_ge x b)), andb_false_r by lia. split; [exact F0|]. change (zero double_arith) with (dint 0). rewrite V0, Rminus_0_r, Rabs_R0. lra.
      * rewrite (proj2 (Z.leb_le a x)), (proj2 (Z.ltb_lt x b)) by lia. cbn [andb]. destruct (int_quot 1 (b - a) ltac:(lia) Hd) as (A1 & A2 & A3 & A4). change (div double_arith (one double_arith) (ofz double_arith (b - a))) with (ddiv (dint 1) (dint (b - a))). split; [exact A1|]. rewrite A2. split; [apply (rnd_ge_0 53 1024 H3_64 H70_64); lra|exact A4].
    + unfold F_uniform_int. destruct (Z.ltb_spec x a) as [A|A]; [|destruct (Z.ltb_spec x b) as [B|B]].
      * rewrite CL by exact A. split; [exact F0|]. rewrite V0, Rminus_0_r, Rabs_R0. lra.
      * rewrite CM by lia. destruct (int_quot (x - a + 1) (b - a) ltac:(lia) Hd) as (A1 & A2 & A3 & A4). split; [exact A1|]. rewrite A2. split; [apply (rnd_ge_0 53 1024 H3_64 H70_64); lra|exact A4].
      * rewrite CR by exact B. split; [exact F1|]. rewrite V1, Rminus_diag_eq by reflexivity. rewrite Rabs_R0. lra.
  - intros x Hx. rewrite (CM (x + 1)%Z) by lia. destruct (int_quot (x + 1 - a + 1) (b - a) ltac:(lia) Hd) as (_ & A2 & A3 & A4). rewrite A2. apply Rabs_le_inv in A4. destruct (Z.eq_dec x (a - 1)) as [E|E].
    + rewrite CL, V0 by lia. lra.
    + rewrite CM by lia. destruct (int_quot (x - a + 1) (b - a) ltac:(lia) Hd) as (_ & B2 & B3 & B4). rewrite B2. apply Rabs_le_inv in B4.
      assert (ST : IZR (x + 1 - a + 1) / IZR (b - a) = IZR (x - a + 1) / IZR (b - a) + / IZR (b - a)). { replace (x + 1 - a + 1)%Z with (x - a + 1 + 1)%Z by lia. rewrite plus_IZR. unfold Rdiv. ring. } assert (1 <= IZR (b - a) <= 2147483648) by (split; apply IZR_le; lia). assert (/ 2147483648 <= / IZR (b - a)) by (apply Rinv_le_contravar; lra). lra.
Qed.
Print Assumptions C110_uniform_int.

(** ** bernoulli_dist *)
Theorem C110_bernoulli : forall (p : double) (h t : Z), is_finite p = true -> 0 <= B2R p <= 1 -> h <> t ->
  let b := Bernoulli (A := double_arith) p h t in
  let pdf x : double := bernoulli_pdf double_arith b x in
  let cdf x : double := bernoulli_cdf double_arith b x in
  (forall x, density (pdf x) (f_bernoulli (B2R p) h t x) (/ 2 ^ 53 * (1 - B2R p)) /\ density (cdf x) (F_bernoulli (B2R p) h t x) (/ 2 ^ 53 * (1 - B2R p))) /\
  (forall x y, (x <= y)%Z -> B2R (cdf x) <= B2R (cdf y)) /\ B2R (cdf (Z.min h t - 1)%Z) = 0 /\ B2R (cdf (Z.max h t)) = 1.
Proof.
  intros p h t Fp Hp Hht b pdf cdf. destruct (int_ok_ 0 ltac:(lia)) as (F0 & V0). destruct (int_ok_ 1 ltac:(lia)) as (F1 & V1). pose proof big_10 as BB.
  destruct (sub_ok (dint 1) p F1 Fp) as (S1 & S2); [rewrite V1, Rabs_pos_eq by lra; lra|]. rewrite V1 in S2. set (s := dsub (dint 1) p) in *.
  assert (SR : Rabs (B2R s - (1 - B2R p)) <= / 2 ^ 53 * (1 - B2R p)).
  { rewrite S2. pose proof (generic_format_B2R 53 1024 (dint 1)) as G. rewrite V1 in G. pose proof (rnd_plus 1 (- B2R p) G (generic_format_opp _ _ _ (fmt_B2R 53 1024 H3_64 H70_64 p))) as R. change (1 + - B2R p) with (1 - B2R p) in R. rewrite (Rabs_pos_eq (1 - B2R p)) in R by lra. unfold q in R. lra. }
  assert (S3 : 0 <= B2R s <= 1). { rewrite S2. split; [apply (rnd_ge_0 53 1024 H3_64 H70_64); lra|apply (rnd_le_fmt 53 1024 H3_64 H70_64); [apply (fmt_1 53 1024 H3_64 H70_64)|lra]]. }
  assert (CE : forall x, cdf x = if (h <=? x)%Z then (if (t <=? x)%Z then dint 1 else p) else (if (t <=? x)%Z then s else dint 0)).
  { intros x. unfold cdf, b, bernoulli_cdf. cbn [bn_p bn_head bn_tail]. change (sub double_arith (one double_arith) p) with s. change (zero double_arith) with (dint 0). change (one double_arith) with (dint 1).
    destruct (Z.ltb_spec h t), (Z.ltb_spec x h), (Z.ltb_spec x t), (Z.leb_spec h x), (Z.leb_spec t x); try lia; reflexivity. }
  split; [|split; [|split]].
  - intros x. split.
    + unfold pdf, b, bernoulli_pdf, f_bernoulli. cbn [bn_p bn_head bn_tail]. change (sub double_arith (one double_arith) p) with s. change (zero double_arith) with (dint 0). destruct (Z.eqb_spec x h) as [E|E], (Z.eqb_spec x t) as [E'|E']; try lia.
      * rewrite Rplus_0_r. split; [exact Fp|]. rewrite (Rminus_diag_eq (B2R p)) by reflexivity. rewrite Rabs_R0. lra.
      * rewrite Rplus_0_l. split; [exact S1|]. split; [lra|exact SR].
      * rewrite Rplus_0_r. split; [exact F0|]. rewrite V0, Rminus_0_r, Rabs_R0. lra.
    + rewrite CE. unfold F_bernoulli. destruct (Z.leb_spec h x), (Z.leb_spec t x).
      * split; [exact F1|]. rewrite V1. replace (1 - (B2R p + (1 - B2R p))) with 0 by ring. rewrite Rabs_R0. lra.
      * rewrite Rplus_0_r. split; [exact Fp|]. rewrite (Rminus_diag_eq (B2R p)) by reflexivity. rewrite Rabs_R0. lra.
      * rewrite Rplus_0_l. split; [exact S1|]. split; [lra|exact SR].
      * rewrite Rplus_0_r. split; [exact F0|]. rewrite V0, Rminus_0_r, Rabs_R0. lra.
  - intros x y Hxy. rewrite !CE. destruct (Z.leb_spec h x), (Z.leb_spec t x), (Z.leb_spec h y), (Z.leb_spec t y); try lia; rewrite ?V0, ?V1; lra.
  - rewrite CE, (proj2 (Z.leb_gt h _)), (proj2 (Z.leb_gt t _)) by lia. exact V0.
  - rewrite CE, (proj2 (Z.leb_le h _)), (proj2 (Z.leb_le t _)) by lia. exact V1.
Qed.
Print Assumptions C110_bernoulli.

(** ** Examples *)
Example C110_dice : exists P, uniform_int_make 1 7 = UIVal P /\ density (uniform_int_cdf double_arith (ui_a P) (ui_b P) (ui_d P) 3) (3 / 6) (/ 2 ^ 53 * (3 / 6)).
Proof. eexists. split; [reflexivity|]. exact (proj2 (proj1 (C110_uniform_int 1 7 _ ltac:(lia) ltac:(lia) ltac:(lia) eq_refl) 3%Z)). Qed.
Example C110_coin : density (bernoulli_pdf double_arith (Bernoulli (A := double_arith) (dbl 1 (-2)) 7 (-2)) (-2)) (3 / 4) (/ 2 ^ 53 * (3 / 4)).
Proof.
  assert (V : B2R (dbl 1 (-2)) = / 4) by (replace (dbl 1 (-2)) with (ddiv (dint 1) (dint 4)) by (apply B2SF_inj; vm_compute; reflexivity); destruct (int_quot 1 4 ltac:(lia) ltac:(lia)) as (_ & A & _); rewrite A; replace (1 / 4) with (bpow radix2 (-2)) by (cbn; lra); rewrite round_generic; [cbn; lra|typeclasses eauto|apply generic_format_bpow; cbn; lia]).
  destruct (C110_bernoulli (dbl 1 (-2)) 7 (-2) ltac:(vm_compute; reflexivity) ltac:(lra) ltac:(lia)) as (A & _). specialize (proj1 (A (-2)%Z)) as B. unfold f_bernoulli in B. rewrite V in B. cbn [Z.eqb Pos.eqb] in B. replace (0 + (1 - / 4)) with (3 / 4) in B by lra. replace (1 - / 4) with (3 / 4) in B by lra. exact B.
Qed.
Example C110_weights : exists d, ddist_make double_arith [dint 1; dint 2; dint 5] = Some d /\
  exists y, ddist_cdf double_arith d 1 = Some y /\ density y (3 / 8) (36 / 2 ^ 52 * (3 / 8) + bpow radix2 (-1075)).
Proof.
  destruct (int_ok_ 1 ltac:(lia)) as (F1 & V1). destruct (int_ok_ 2 ltac:(lia)) as (F2 & V2). destruct (int_ok_ 5 ltac:(lia)) as (F5 & V5).
  assert (W8 : whole (map B2R [dint 1; dint 2; dint 5]) = 8) by (unfold whole; cbn [map fold_right]; rewrite V1, V2, V5; lra).
  destruct (C110_discrete [dint 1; dint 2; dint 5] ltac:(cbn; lia)) as (d & D1 & D2).
  - repeat (apply Forall_cons; [split; [assumption|lra]|]). apply Forall_nil.
  - rewrite W8. split; [apply Rle_trans with (bpow radix2 0); [apply bpow_le; lia|cbn; lra]|apply Rle_trans with (bpow radix2 3); [cbn; lra|apply bpow_le; lia]].
  - exists d. split; [exact D1|]. destruct (D2 1%nat ltac:(cbn; lia)) as (_ & (y & Y1 & Y2) & _). exists y. split; [exact Y1|]. cbv zeta in Y2. rewrite W8 in Y2. unfold upto in Y2. cbn [map firstn fold_right] in Y2. rewrite V1, V2 in Y2. replace (1 + (2 + 0)) with 3 in Y2 by ring. change (INR 1) with 1 in Y2. replace (1 + 35) with 36 in Y2 by ring. exact Y2.
Qed.
