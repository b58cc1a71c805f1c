(** Counting the outputs with a draw of at most t, and a correctly rounded mathematical library. *)
From Coq Require Import ZArith Bool List Reals Lia Lra Psatz FinFun.
From Flocq Require Import Core IEEE754.BinarySingleNaN.
From Verif Require Import FloatFacts UniformModel UniformProofs UnifAccProofs Prop_Uniform Prop_UnifAcc FloatDrawModel FloatDrawSpec FloatDrawProofs FloatDrawCore FloatDrawLoc FloatDrawTrig.
Local Open Scope R_scope.

(** ** Counting *)
Definition zseq (n : Z) : list Z := map Z.of_nat (seq 0 (Z.to_nat n)).
Lemma zseq_in n r : In r (zseq n) <-> (0 <= r < n)%Z.
Proof.
  unfold zseq. rewrite in_map_iff. split.
  - intros (k & <- & H). apply in_seq in H. lia.
  - intros H. exists (Z.to_nat r). split; [lia|]. apply in_seq. lia.
Qed.
Lemma zseq_nodup n : NoDup (zseq n).
Proof. unfold zseq. apply FinFun.Injective_map_NoDup; [intros a b E; lia|apply seq_NoDup]. Qed.
Lemma zseq_length n : length (zseq n) = Z.to_nat n.
Proof. unfold zseq. rewrite map_length, seq_length. reflexivity. Qed.

Lemma count_up (v : Z -> R) D (F : R -> R) e t : (0 <= D)%Z -> 0 <= e -> (forall x y, x <= y -> F x <= F y) -> (forall x, 0 <= F x <= 1) ->
  (forall r, (0 <= r <= D)%Z -> Rabs (F (v r) - IZR r / (IZR D + 1)) <= e) ->
  exists l, NoDup l /\ (forall r, In r l <-> (0 <= r <= D)%Z /\ v r <= t) /\ Rabs (INR (length l) / (IZR D + 1) - F t) <= e + / (IZR D + 1).
Proof.
  intros HD He mono B acc. set (l := filter (fun r => if Rle_dec (v r) t then true else false) (zseq (D + 1))). assert (D0 : 0 <= IZR D) by (apply IZR_le; lia). assert (I0 : 0 < / (IZR D + 1)) by (apply Rinv_0_lt_compat; lra). specialize (B t).
  assert (IN : forall r, In r l <-> (0 <= r <= D)%Z /\ v r <= t). { intros r. unfold l. rewrite filter_In, zseq_in. destruct (Rle_dec (v r) t); split; intros (A & C); split; try lia; try assumption; try discriminate; contradiction. }
  assert (ND : NoDup l) by (apply NoDup_filter, zseq_nodup). exists l. split; [exact ND|]. split; [exact IN|].
  set (n := IZR D + 1) in *. assert (N1 : 1 <= n) by (unfold n; lra).
  assert (U : INR (length l) <= n * (F t + e) + 1).
  { set (c := n * (F t + e)). assert (C0 : 0 <= c) by (apply Rmult_le_pos; lra). assert (L : (length l <= length (zseq (Zfloor c + 1)))%nat).
    { apply NoDup_incl_length; [exact ND|]. intros r Hr. apply IN in Hr. destruct Hr as (Hr & Hv). apply zseq_in. split; [lia|]. assert (ZF : (r <= Zfloor c)%Z); [|lia]. apply Zfloor_lub. specialize (acc r Hr). apply Rabs_le_inv in acc. pose proof (mono _ _ Hv) as M. assert (IZR r / n <= F t + e) by lra. apply Rmult_le_reg_r with (/ n); [exact I0|]. unfold c. replace (n * (F t + e) * / n) with (F t + e) by (field; lra). exact H. }
    rewrite zseq_length in L. apply le_INR in L. pose proof (Zfloor_lub 0 c C0) as Z0. rewrite (INR_IZR_INZ (Z.to_nat _)), Z2Nat.id, plus_IZR in L by lia. pose proof (Zfloor_lb c). lra. }
  assert (Lo : n * (F t - e) <= INR (length l)).
  { set (a := n * (F t - e)). destruct (Rle_dec a 0) as [A|A]; [pose proof (pos_INR (length l)); lra|]. assert (AD : (Zceil a <= D + 1)%Z). { apply Zceil_glb. rewrite plus_IZR. fold n. unfold a. replace n with (n * 1) at 2 by ring. apply Rmult_le_compat_l; lra. }
    assert (L : (length (zseq (Zceil a)) <= length l)%nat).
    { apply NoDup_incl_length; [apply zseq_nodup|]. intros r Hr. apply zseq_in in Hr. apply IN. split; [lia|]. destruct (Rle_dec (v r) t) as [Y|Y]; [exact Y|exfalso]. assert (Hr' : (0 <= r <= D)%Z) by lia. specialize (acc r Hr'). apply Rabs_le_inv in acc. pose proof (mono t (v r) ltac:(lra)) as M.
      assert (G : F t - e <= IZR r / n) by lra. assert (a <= IZR r). { unfold a. apply Rmult_le_reg_r with (/ n); [exact I0|]. replace (n * (F t - e) * / n) with (F t - e) by (field; lra). exact G. } pose proof (Zceil_glb r a H). lia. }
    rewrite zseq_length in L. apply le_INR in L. assert (0 <= Zceil a)%Z. { apply le_IZR. pose proof (Zceil_ub a). lra. } rewrite (INR_IZR_INZ (Z.to_nat _)), Z2Nat.id in L by lia. pose proof (Zceil_ub a). lra. }
  apply Rabs_le. unfold Rdiv. split.
  - assert (n * (F t - e) * / n <= INR (length l) * / n) by (apply Rmult_le_compat_r; lra). replace (n * (F t - e) * / n) with (F t - e) in H by (field; lra). lra.
  - assert (INR (length l) * / n <= (n * (F t + e) + 1) * / n) by (apply Rmult_le_compat_r; lra). replace ((n * (F t + e) + 1) * / n) with (F t + e + / n) in H by (field; lra). lra.
Qed.
Lemma count_down (v : Z -> R) D (F : R -> R) e t : (0 <= D)%Z -> 0 <= e -> (forall x y, x <= y -> F x <= F y) -> (forall x, 0 <= F x <= 1) ->
  (forall r, (0 <= r <= D)%Z -> Rabs (F (v r) - IZR (D - r) / (IZR D + 1)) <= e) ->
  exists l, NoDup l /\ (forall r, In r l <-> (0 <= r <= D)%Z /\ v r <= t) /\ Rabs (INR (length l) / (IZR D + 1) - F t) <= e + / (IZR D + 1).
Proof.
  intros HD He mono B acc. destruct (count_up (fun r => v (D - r)%Z) D F e t HD He mono B) as (l & L1 & L2 & L3).
  - intros r Hr. specialize (acc (D - r)%Z ltac:(lia)). replace (D - (D - r))%Z with r in acc by lia. exact acc.
  - exists (map (fun r => (D - r)%Z) l). split; [apply FinFun.Injective_map_NoDup; [intros a b E; lia|exact L1]|]. split; [|rewrite map_length; exact L3].
    intros r. rewrite in_map_iff. split.
    + intros (s & <- & Hs). apply L2 in Hs. destruct Hs as (Hs & Hv). split; [lia|exact Hv].
    + intros (Hr & Hv). exists (D - r)%Z. split; [lia|]. apply L2. split; [lia|]. replace (D - (D - r))%Z with r by lia. exact Hv.
Qed.

(** from the accuracy of the variates to the distribution of the draws *)
Section Law.
Variable (D : Z) (F : R -> R) (draw : Z -> double) (e : R).
Hypothesis HD : (4 <= D < 2 ^ 64)%Z.
Hypothesis He : 0 <= e.
Hypothesis mono : forall x y, x <= y -> F x <= F y.
Hypothesis B : forall x, 0 <= F x <= 1.

Let d : R := IZR D.
Lemma d_ge : 4 <= d. Proof. unfold d. apply IZR_le. lia. Qed.
Lemma law_oc : inverts draw D (fun r => 1 - B2R (uniformoc 53 1024 D r)) F e -> samples draw D F (e + / 2 ^ 48 + 3 / (IZR D + 1)).
Proof.
  intros H t. pose proof d_ge as DG. fold d. assert (I : 0 < / (d + 1)) by (apply Rinv_0_lt_compat; lra). assert (I2 : 0 < / (d * (d + 1)) <= / (d + 1)). { rewrite Rinv_mult. assert (0 < / d <= 1) by (split; [apply Rinv_0_lt_compat; lra|rewrite <- Rinv_1; apply Rinv_le_contravar; lra]). split; [apply Rmult_lt_0_compat; lra|]. assert (/ d * / (d + 1) <= 1 * / (d + 1)) by (apply Rmult_le_compat_r; lra). lra. }
  destruct (count_up (fun r => B2R (draw r)) D F (e + / 2 ^ 48 + / (d + 1)) t) as (l & L1 & L2 & L3); [lia|lra|exact mono|exact B| |exists l; split; [exact L1|]; split; [exact L2|]; fold d in L3; lra].
  intros r Hr. destruct (H r Hr) as (_ & A). destruct (C99_uniformoc D ltac:(lia)) as ((U & _) & _). specialize (U r Hr). cbv beta in U. fold d in U. fold d. apply Rabs_le_inv in A. apply Rabs_le_inv in U. apply Rabs_le. lra.
Qed.
Lemma law_cc : inverts draw D (fun r => B2R (uniformcc 53 1024 D r)) F e -> samples draw D F (e + / 2 ^ 48 + 3 / (IZR D + 1)).
Proof.
  intros H t. pose proof d_ge as DG. fold d. assert (I : 0 < / (d + 1)) by (apply Rinv_0_lt_compat; lra).
  destruct (count_up (fun r => B2R (draw r)) D F (e + / 2 ^ 48 + / (d + 1)) t) as (l & L1 & L2 & L3); [lia|lra|exact mono|exact B| |exists l; split; [exact L1|]; split; [exact L2|]; fold d in L3; lra].
  intros r Hr. destruct (H r Hr) as (_ & A). destruct (C99_uniformcc D ltac:(lia)) as ((U & _) & _). specialize (U r Hr). cbv beta in U. fold d in U. fold d. assert (RD : 0 <= IZR r <= d) by (split; apply IZR_le; lia). assert (ID : 0 < / d) by (apply Rinv_0_lt_compat; lra).
  assert (Q2 : 0 <= IZR r / d - IZR r / (d + 1) <= / (d + 1)).
  { assert (Q : 0 <= IZR r / d <= 1). { unfold Rdiv. split; [apply Rmult_le_pos; lra|]. apply Rle_trans with (d * / d); [apply Rmult_le_compat_r; lra|rewrite Rinv_r; lra]. } replace (IZR r / d - IZR r / (d + 1)) with (IZR r / d * / (d + 1)) by (field; lra). split; [apply Rmult_le_pos; lra|]. apply Rle_trans with (1 * / (d + 1)); [apply Rmult_le_compat_r; lra|lra]. }
  apply Rabs_le_inv in A. apply Rabs_le_inv in U. apply Rabs_le. lra.
Qed.
Lemma oo_position r : (0 <= r <= D)%Z -> Rabs (B2R (uniformoo 53 1024 D r) - IZR r / (d + 1)) <= / 2 ^ 48 + 2 / (d + 1) /\ Rabs (1 - B2R (uniformoo 53 1024 D r) - IZR (D - r) / (d + 1)) <= / 2 ^ 48 + 2 / (d + 1).
Proof.
  intros Hr. pose proof d_ge as DG. destruct (C99_uniformoo D ltac:(lia)) as ((U & _) & _). specialize (U r Hr). cbv beta in U. fold d in U. rewrite minus_IZR. fold d. assert (RD : 0 <= IZR r <= d) by (split; apply IZR_le; lia). set (x := IZR r) in *. set (y := B2R (uniformoo 53 1024 D r)) in *.
  assert (I : 0 < / (d + 1)) by (apply Rinv_0_lt_compat; lra). assert (I2 : 0 < / (d + 2) <= / (d + 1)) by (split; [apply Rinv_0_lt_compat; lra|apply Rinv_le_contravar; lra]).
  assert (S : 2 / (d * d) <= / (d + 1)). { apply Rmult_le_reg_r with (d * d * (d + 1)); [repeat apply Rmult_lt_0_compat; lra|]. replace (2 / (d * d) * (d * d * (d + 1))) with (2 * (d + 1)) by (field; lra). replace (/ (d + 1) * (d * d * (d + 1))) with (d * d) by (field; lra). assert (4 * d <= d * d) by (apply Rmult_le_compat_r; lra). lra. }
  assert (Q : 0 <= x / (d + 1) <= 1). { unfold Rdiv. split; [apply Rmult_le_pos; lra|]. apply Rle_trans with ((d + 1) * / (d + 1)); [apply Rmult_le_compat_r; lra|rewrite Rinv_r; lra]. }
  assert (Q2 : 0 <= (x + 1) / (d + 2) - x / (d + 1) <= / (d + 2)). { replace ((x + 1) / (d + 2) - x / (d + 1)) with ((1 - x / (d + 1)) * / (d + 2)) by (field; lra). split; [apply Rmult_le_pos; lra|]. apply Rle_trans with (1 * / (d + 2)); [apply Rmult_le_compat_r; lra|lra]. }
  assert (E : (d - x) / (d + 1) = 1 - x / (d + 1) - / (d + 1)) by (field; lra). rewrite E. apply Rabs_le_inv in U. split; apply Rabs_le; lra.
Qed.
Lemma law_oo : inverts draw D (fun r => B2R (uniformoo 53 1024 D r)) F e -> samples draw D F (e + / 2 ^ 48 + 3 / (IZR D + 1)).
Proof.
  intros H t. pose proof d_ge as DG. fold d. assert (I : 0 < / (d + 1)) by (apply Rinv_0_lt_compat; lra).
  destruct (count_up (fun r => B2R (draw r)) D F (e + / 2 ^ 48 + 2 / (d + 1)) t) as (l & L1 & L2 & L3); [lia|lra|exact mono|exact B| |exists l; split; [exact L1|]; split; [exact L2|]; fold d in L3; lra].
  intros r Hr. destruct (H r Hr) as (_ & A). destruct (oo_position r Hr) as (U & _). fold d. apply Rabs_le_inv in A. apply Rabs_le_inv in U. apply Rabs_le. lra.
Qed.
Lemma law_oo_down : inverts draw D (fun r => 1 - B2R (uniformoo 53 1024 D r)) F e -> samples draw D F (e + / 2 ^ 48 + 3 / (IZR D + 1)).
Proof.
  intros H t. pose proof d_ge as DG. fold d. assert (I : 0 < / (d + 1)) by (apply Rinv_0_lt_compat; lra).
  destruct (count_down (fun r => B2R (draw r)) D F (e + / 2 ^ 48 + 2 / (d + 1)) t) as (l & L1 & L2 & L3); [lia|lra|exact mono|exact B| |exists l; split; [exact L1|]; split; [exact L2|]; fold d in L3; lra].
  intros r Hr. destruct (H r Hr) as (_ & A). destruct (oo_position r Hr) as (_ & U). fold d. apply Rabs_le_inv in A. apply Rabs_le_inv in U. apply Rabs_le. lra.
Qed.
End Law.

(** ** The distribution functions are monotone, between 0 and 1 *)
Lemma exp_neg_01 x : 0 <= x -> 0 < exp (- x) <= 1. Proof. intros H. split; [apply exp_pos|]. rewrite <- exp_0. destruct (Req_dec x 0) as [->|N]; [rewrite Ropp_0; lra|left; apply exp_increasing; lra]. Qed.
Lemma exp_le x y : x <= y -> exp x <= exp y. Proof. intros [H| ->]; [left; apply exp_increasing, H|lra]. Qed.
Lemma div_le a x y : 0 < a -> x <= y -> x / a <= y / a. Proof. intros A H. apply Rmult_le_compat_r; [left; apply Rinv_0_lt_compat, A|exact H]. Qed.
Lemma div_ge_0 a x : 0 < a -> 0 <= x -> 0 <= x / a. Proof. intros A H. apply Rmult_le_pos; [exact H|left; apply Rinv_0_lt_compat, A]. Qed.
Lemma div_gt_0 a x : 0 < a -> 0 < x -> 0 < x / a. Proof. intros A H. apply Rmult_lt_0_compat; [exact H|apply Rinv_0_lt_compat, A]. Qed.

Definition proper (F : R -> R) : Prop := (forall x y, x <= y -> F x <= F y) /\ forall x, 0 <= F x <= 1.
(** a distribution on the numbers above [a] given by its tail *)
Lemma proper_tail (a : R) (G : R -> R) : (forall x, a < x -> 0 <= G x <= 1) -> (forall x y, a < x -> x <= y -> G y <= G x) -> proper (fun x => if Rle_dec x a then 0 else 1 - G x).
Proof.
  intros G1 G2. split.
  - intros x y H. destruct (Rle_dec x a), (Rle_dec y a); try lra; [specialize (G1 y ltac:(lra)); lra|specialize (G2 x y ltac:(lra) H); lra].
  - intros x. destruct (Rle_dec x a); [lra|]. specialize (G1 x ltac:(lra)). lra.
Qed.
Lemma proper_exponential mu : 0 < mu -> proper (F_exponential mu).
Proof.
  intros M. apply (proper_tail 0 (fun x => exp (- (x / mu)))).
  - intros x Hx. pose proof (exp_neg_01 (x / mu) (div_ge_0 mu x M ltac:(lra))). lra.
  - intros x y Hx H. apply exp_le. pose proof (div_le mu x y M H). lra.
Qed.
Lemma proper_twosided mu : 0 < mu -> proper (F_twosided mu).
Proof.
  intros M. assert (P : forall x, 0 <= x -> 0 < exp (- (x / mu)) <= 1) by (intros x Hx; apply exp_neg_01, div_ge_0; assumption).
  assert (N : forall x, x <= 0 -> 0 < exp (x / mu) <= 1). { intros x Hx. specialize (P (- x) ltac:(lra)). replace (- (- x / mu)) with (x / mu) in P by (field; lra). exact P. }
  split.
  - intros x y H. unfold F_twosided. destruct (Rle_dec x 0) as [X|X], (Rle_dec y 0) as [Y|Y]; try lra.
    + pose proof (exp_le _ _ (div_le mu x y M H)). lra.
    + specialize (N x X). specialize (P y ltac:(lra)). lra.
    + pose proof (exp_le (- (y / mu)) (- (x / mu)) ltac:(pose proof (div_le mu x y M H); lra)). lra.
  - intros x. unfold F_twosided. destruct (Rle_dec x 0) as [X|X]; [specialize (N x X); lra|specialize (P x ltac:(lra)); lra].
Qed.
Lemma proper_tent m d : 0 < d -> proper (F_tent m d).
Proof.
  intros Hd. split.
  - intros x y H. unfold F_tent. pose proof (tent_mono_lip ((x - m) / d) ((y - m) / d) (div_le d (x - m) (y - m) Hd ltac:(lra))). lra.
  - intros x. unfold F_tent, tent_F. set (z := (x - m) / d). destruct (Rle_dec z (-1)); [lra|]. destruct (Rle_dec z 0); [|destruct (Rle_dec z 1); [|lra]].
    + assert (0 <= (1 + z) * (1 + z) <= 1 * 1) by (split; [apply Rmult_le_pos; lra|apply Rmult_le_compat; lra]). lra.
    + assert (0 <= (1 - z) * (1 - z) <= 1 * 1) by (split; [apply Rmult_le_pos; lra|apply Rmult_le_compat; lra]). lra.
Qed.
Lemma Rpower_le_base x y p : 0 < x -> x <= y -> 0 <= p -> Rpower x p <= Rpower y p.
Proof. intros X H P. unfold Rpower. apply exp_le, Rmult_le_compat_l; [exact P|]. apply ln_le; assumption. Qed.
Lemma proper_weibull th be : 0 < th -> 0 < be -> proper (F_weibull th be).
Proof.
  intros T Hb. apply (proper_tail 0 (fun x => exp (- Rpower (x / th) be))).
  - intros x Hx. pose proof (exp_neg_01 (Rpower (x / th) be) ltac:(left; apply exp_pos)). lra.
  - intros x y Hx H. apply exp_le, Ropp_le_contravar, Rpower_le_base; [apply div_gt_0; lra|apply div_le; assumption|lra].
Qed.
Lemma proper_rayleigh nu : 0 < nu -> proper (F_rayleigh nu).
Proof.
  intros T. apply (proper_tail 0 (fun x => exp (- ((x / nu) * (x / nu) / 2)))).
  - intros x Hx. pose proof (div_ge_0 nu x T ltac:(lra)). pose proof (exp_neg_01 ((x / nu) * (x / nu) / 2) ltac:(assert (0 <= x / nu * (x / nu)) by (apply Rmult_le_pos; assumption); lra)). lra.
  - intros x y Hx H. apply exp_le, Ropp_le_contravar. pose proof (div_ge_0 nu x T ltac:(lra)). pose proof (div_le nu x y T H). assert (x / nu * (x / nu) <= y / nu * (y / nu)) by (apply Rmult_le_compat; assumption). lra.
Qed.
Lemma power_tail g w : 0 < g -> 1 <= w -> 0 <= Rpower w (- g) <= 1.
Proof. intros G W. split; [left; apply exp_pos|]. unfold Rpower. rewrite <- exp_0. apply exp_le. assert (0 <= ln w) by (rewrite <- ln_1; apply ln_le; lra). nra. Qed.
Lemma power_tail_mono g w z : 0 < g -> 1 <= w -> w <= z -> Rpower z (- g) <= Rpower w (- g).
Proof. intros G W Z. unfold Rpower. apply exp_le. pose proof (ln_le w z ltac:(lra) Z). nra. Qed.
Lemma proper_pareto g th : 0 < g -> 0 < th -> proper (F_pareto g th).
Proof.
  intros G T. apply (proper_tail 0 (fun x => Rpower (1 + x / th) (- g))).
  - intros x Hx. apply power_tail; [exact G|]. pose proof (div_ge_0 th x T ltac:(lra)). lra.
  - intros x y Hx H. apply power_tail_mono; [exact G| |]. { pose proof (div_ge_0 th x T ltac:(lra)). lra. } pose proof (div_le th x y T H). lra.
Qed.
Lemma div_ge_1 a x : 0 < a -> a <= x -> 1 <= x / a. Proof. intros A H. replace 1 with (a / a) by (field; lra). apply div_le; assumption. Qed.
Lemma proper_powerlaw g th : 0 < g -> 0 < th -> proper (F_powerlaw g th).
Proof.
  intros G T. apply (proper_tail th (fun x => Rpower (x / th) (- g))).
  - intros x Hx. apply power_tail; [exact G|apply div_ge_1; lra].
  - intros x y Hx H. apply power_tail_mono; [exact G|apply div_ge_1; lra|apply div_le; assumption].
Qed.
Lemma proper_cauchy th et : 0 < th -> proper (F_cauchy th et).
Proof.
  intros T. unfold F_cauchy. pose proof PI_RGT_0 as P. split.
  - intros x y H. apply Rplus_le_compat_l, div_le; [exact P|]. destruct (div_le th (x - et) (y - et) T ltac:(lra)) as [L| ->]; [left; apply atan_increasing, L|lra].
  - intros x. pose proof (atan_bound ((x - et) / th)) as A. set (w := atan ((x - et) / th)) in *. assert (- / 2 <= w / PI <= / 2); [|lra]. replace (- / 2) with (- (PI / 2) / PI) by (field; lra). replace (/ 2) with (PI / 2 / PI) by (field; lra). split; apply div_le; lra.
Qed.
Lemma proper_logistic th et : 0 < th -> proper (F_logistic th et).
Proof.
  intros T. unfold F_logistic. split.
  - intros x y H. pose proof (div_le th (x - et) (y - et) T ltac:(lra)). pose proof (exp_le (- ((y - et) / th)) (- ((x - et) / th)) ltac:(lra)). pose proof (exp_pos (- ((y - et) / th))). apply Rinv_le_contravar; lra.
  - intros x. pose proof (exp_pos (- ((x - et) / th))). split; [left; apply Rinv_0_lt_compat; lra|]. rewrite <- Rinv_1. apply Rinv_le_contravar; lra.
Qed.
Lemma proper_extreme th et : 0 < th -> proper (F_extreme th et).
Proof.
  intros T. unfold F_extreme. split.
  - intros x y H. pose proof (div_le th (x - et) (y - et) T ltac:(lra)) as E. apply exp_le in E. pose proof (exp_le (- exp ((y - et) / th)) (- exp ((x - et) / th)) ltac:(lra)). lra.
  - intros x. pose proof (exp_neg_01 (exp ((x - et) / th)) ltac:(left; apply exp_pos)). lra.
Qed.
