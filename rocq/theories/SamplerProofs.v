(** The samplers with a cumulative table, in exact arithmetic. *)
From Coq Require Import ZArith List Bool Reals Lra Lia Arith.
From Flocq Require Import Core.Raux.
From Verif Require Import Base IntMathModel ArithModel DiscreteModel DiscreteProofs DiscreteReal Prop_Discrete.
Import ListNotations.
Local Open Scope R_scope.

(** ** Cumulative tables *)
Lemma cumulate_from_nth (l : list R) : forall (acc : R) i, (i < length l)%nat ->
  nth i (cumulate_from real_arith acc l) 0 = acc + prefix l (S i).
Proof.
  induction l as [|a l IH]; intros acc i Hi; [cbn in Hi; lia|].
  cbn [cumulate_from]. destruct i as [|i].
  - unfold prefix. cbn. lra.
  - cbn [nth]. rewrite IH by (cbn in Hi; lia).
    change (add real_arith a acc) with (a + acc).
    unfold prefix. change (firstn (S (S i)) (a :: l)) with (a :: firstn (S i) l). cbn [fold_right]. lra.
Qed.
Lemma cumulate_from_length (l : list R) : forall acc : R, length (cumulate_from real_arith acc l) = length l.
Proof. induction l; intros; cbn; auto. Qed.
Lemma cumulate_length (l : list R) : length (cumulate real_arith l) = length l.
Proof. destruct l; cbn; auto. now rewrite cumulate_from_length. Qed.
Lemma cumulate_nth (l : list R) i : (i < length l)%nat -> nth i (cumulate real_arith l) 0 = prefix l (S i).
Proof.
  destruct l as [|a l]; intros Hi; [cbn in Hi; lia|].
  cbn [cumulate]. destruct i as [|i].
  - unfold prefix. cbn. lra.
  - cbn [nth]. rewrite cumulate_from_nth by (cbn in Hi; lia).
    unfold prefix. change (firstn (S (S i)) (a :: l)) with (a :: firstn (S i) l). cbn [fold_right]. lra.
Qed.

Section Table.
Variable ws : list R.
Hypothesis Hne : ws <> [].
Let tot := prefix ws (length ws).
Let T : list R := normalise real_arith (cumulate real_arith ws).

Lemma ws_len : (1 <= length ws)%nat.
Proof. destruct ws; [easy|cbn; lia]. Qed.
Lemma table_length : length T = length ws.
Proof. unfold T, normalise. rewrite map_length. apply cumulate_length. Qed.
Lemma last_nth (l : list R) : last l 0 = nth (length l - 1) l 0.
Proof.
  induction l as [|a l IH]; [reflexivity|]. destruct l as [|b l]; [reflexivity|].
  change (last (a :: b :: l) 0) with (last (b :: l) 0). rewrite IH. cbn [length].
  replace (S (S (length l)) - 1)%nat with (S (length l)) by lia.
  replace (S (length l) - 1)%nat with (length l) by lia. reflexivity.
Qed.
Lemma table_last : last (cumulate real_arith ws) 0 = tot.
Proof.
  rewrite last_nth, cumulate_length. rewrite cumulate_nth by (pose proof ws_len; lia).
  unfold tot. f_equal. pose proof ws_len. lia.
Qed.
Lemma table_nth_error i : (i < length ws)%nat -> nth_error T i = Some (prefix ws (S i) / tot).
Proof.
  intros Hi. unfold T, normalise.
  rewrite map_nth_error with (d := prefix ws (S i)).
  - change (zero real_arith) with 0. rewrite table_last. reflexivity.
  - rewrite <- cumulate_nth by exact Hi. apply nth_error_nth'. now rewrite cumulate_length.
Qed.
Lemma table_nth i : (i < length ws)%nat -> nth i T 0 = prefix ws (S i) / tot.
Proof. intros Hi. apply nth_error_nth. now apply table_nth_error. Qed.

Lemma table_pdf_ok lo hi x : (hi - lo + 1)%Z = Z.of_nat (length ws) -> (lo <= x <= hi)%Z ->
  table_pdf real_arith lo hi T x = Some (nth (Z.to_nat (x - lo)) ws 0 / tot).
Proof.
  intros Hl Hx. unfold table_pdf.
  rewrite (proj2 (Z.ltb_ge x lo)), (proj2 (Z.ltb_ge hi x)) by lia. cbn [orb].
  set (i := Z.to_nat (x - lo)). assert (Hi : (i < length ws)%nat) by lia.
  destruct (Nat.eqb_spec i 0) as [E|E].
  - unfold vget. rewrite E in *. pose proof (table_nth_error 0 Hi) as H.
    change (num real_arith) with R. rewrite H. f_equal. f_equal.
    rewrite prefix_S, prefix_0. lra.
  - unfold vget. pose proof (table_nth_error i Hi) as H. pose proof (table_nth_error (i - 1)) as H'.
    change (num real_arith) with R. rewrite H, H' by lia. cbn [bind].
    f_equal. change (sub real_arith) with Rminus.
    replace (S (i - 1)) with i by lia. rewrite prefix_S. unfold Rdiv. lra.
Qed.
Lemma table_cdf_ok lo hi x : (hi - lo + 1)%Z = Z.of_nat (length ws) -> (lo <= x <= hi)%Z ->
  table_cdf real_arith lo hi T x = Some (prefix ws (S (Z.to_nat (x - lo))) / tot).
Proof.
  intros Hl Hx. unfold table_cdf.
  rewrite (proj2 (Z.ltb_ge x lo)), (proj2 (Z.ltb_ge hi x)) by lia.
  apply table_nth_error. lia.
Qed.

Hypothesis Hw : Forall (fun x => 0 <= x) ws.
Hypothesis Htot : 0 < tot.
Lemma table_ascending : ascending T.
Proof.
  intros i j Hij. rewrite table_length in Hij. rewrite !table_nth by lia.
  apply Rmult_le_compat_r; [left; now apply Rinv_0_lt_compat|]. apply prefix_mono; [assumption|lia].
Qed.
Lemma table_top : nth (length T - 1) T 0 = 1.
Proof.
  rewrite table_length. rewrite table_nth by (pose proof ws_len; lia).
  replace (S (length ws - 1)) with (length ws) by (pose proof ws_len; lia). fold tot. field. lra.
Qed.
Lemma table_draw u : u <= 1 -> u <> nth 0 T 0 ->
  exists k, discrete real_arith u T = Some k /\ (k < length ws)%nat /\
    forall j, (j < length ws)%nat -> (k <= j)%nat <-> u <= prefix ws (S j) / tot.
Proof.
  intros Hu H0.
  assert (HT : T <> []).
  { intros E. pose proof table_length as H. rewrite E in H. cbn in H. pose proof ws_len. lia. }
  destruct (C42_quantile T u table_ascending) as (k & Ek & Hk); auto.
  { rewrite table_top. exact Hu. }
  exists k. split; [exact Ek|]. split.
  - assert (k <= length ws - 1)%nat; [|pose proof ws_len; lia].
    apply Hk; [rewrite table_length; pose proof ws_len; lia|].
    rewrite <- table_length, table_top. exact Hu.
  - intros j Hj. rewrite Hk by (rewrite table_length; exact Hj). now rewrite table_nth.
Qed.
End Table.

(** ** The samplers with an unbounded tail *)
Section Sampler.
Variables pdf cdf : Z -> R.
Hypothesis Hstep : forall x, (0 <= x)%Z -> cdf (x + 1)%Z = cdf x + pdf (x + 1)%Z.
Hypothesis Hpos : forall x, (1 <= x)%Z -> 0 <= pdf x.
Hypothesis Hone : forall x, (0 <= x)%Z -> cdf x <= 1.

Lemma cdf_mono x y : (0 <= x <= y)%Z -> cdf x <= cdf y.
Proof.
  intros H. replace y with (x + Z.of_nat (Z.to_nat (y - x)))%Z by lia.
  generalize (Z.to_nat (y - x)). induction n.
  - rewrite Z.add_0_r. lra.
  - replace (x + Z.of_nat (S n))%Z with (x + Z.of_nat n + 1)%Z by lia.
    rewrite Hstep by lia. assert (0 <= pdf (x + Z.of_nat n + 1)%Z) by (apply Hpos; lia). lra.
Qed.

Lemma tail_loop_ok u : forall n fuel x, (n <= fuel)%nat -> (0 <= x)%Z ->
  (x + Z.of_nat n <= int_max)%Z -> u <= cdf (x + Z.of_nat n)%Z ->
  exists x', tail_loop real_arith fuel pdf (u - cdf x) x = Some x' /\ (x <= x')%Z /\ u <= cdf x' /\
    forall y, (x <= y < x')%Z -> cdf y < u.
Proof.
  induction n; intros fuel x Hf Hx Hmax Hu.
  - exists x. rewrite Z.add_0_r in Hu. repeat split; try lia; auto.
    destruct fuel; cbn [tail_loop ltb zero real_arith]; rewrite Rlt_bool_false by lra; reflexivity.
  - destruct fuel as [|fuel]; [lia|]. cbn [tail_loop ltb zero real_arith].
    destruct (Rlt_bool_spec 0 (u - cdf x)) as [Hlt|Hge].
    + unfold as_int, int_min. rewrite (proj2 (Z.leb_le _ (x + 1))) by lia.
      rewrite (proj2 (Z.leb_le (x + 1) int_max)) by lia. cbn [andb bind].
      change (sub real_arith (u - cdf x) (pdf (x + 1)%Z)) with (u - cdf x - pdf (x + 1)%Z).
      replace (u - cdf x - pdf (x + 1)%Z) with (u - cdf (x + 1)%Z) by (rewrite Hstep by lia; lra).
      destruct (IHn fuel (x + 1)%Z) as (x' & E & H1 & H2 & H3); try lia.
      { replace (x + 1 + Z.of_nat n)%Z with (x + Z.of_nat (S n))%Z by lia. exact Hu. }
      exists x'. split; [exact E|]. split; [lia|]. split; [exact H2|].
      intros y Hy. destruct (Z.eq_dec y x) as [->|]; [lra|]. apply H3. lia.
    + exists x. repeat split; try lia; lra.
Qed.

(** the table: cdf(0), .., cdf(K-1), 1 *)
Definition sampler_table (K : nat) : list R := map (fun i => cdf (Z.of_nat i)) (seq 0 K) ++ [1].

Lemma sampler_table_length K : length (sampler_table K) = S K.
Proof. unfold sampler_table. rewrite app_length, map_length, seq_length. cbn. lia. Qed.
Lemma sampler_table_lt K i : (i < K)%nat -> nth i (sampler_table K) 0 = cdf (Z.of_nat i).
Proof.
  intros H. unfold sampler_table. rewrite app_nth1 by (rewrite map_length, seq_length; lia).
  rewrite nth_indep with (d' := cdf (Z.of_nat 0)) by (rewrite map_length, seq_length; lia).
  rewrite (map_nth (fun i => cdf (Z.of_nat i))). rewrite seq_nth by lia. reflexivity.
Qed.
Lemma sampler_table_last K : nth K (sampler_table K) 0 = 1.
Proof.
  unfold sampler_table. rewrite app_nth2 by (rewrite map_length, seq_length; lia).
  rewrite map_length, seq_length, Nat.sub_diag. reflexivity.
Qed.
Lemma sampler_table_ascending K : ascending (sampler_table K).
Proof.
  intros i j Hij. rewrite sampler_table_length in Hij.
  destruct (Nat.eq_dec j K) as [->|Hj].
  - rewrite sampler_table_last. destruct (Nat.eq_dec i K) as [->|Hi].
    + rewrite sampler_table_last. lra.
    + rewrite sampler_table_lt by lia. apply Hone. lia.
  - rewrite !sampler_table_lt by lia. apply cdf_mono. lia.
Qed.

Lemma sampler_ok K u X : (1 <= K)%nat -> (Z.of_nat K <= X <= int_max)%Z -> u <= 1 -> u <= cdf X ->
  exists x, (forall fuel, (Z.to_nat X <= fuel)%nat ->
      sampler_draw real_arith fuel pdf cdf (sampler_table K) u = Some x) /\ (0 <= x)%Z /\
    (u < cdf 0%Z -> x = 0%Z) /\
    (cdf 0%Z <= u -> (1 <= x)%Z /\ forall y, (1 <= y)%Z -> (x <= y)%Z <-> u <= cdf y).
Proof.
  intros HK HX Hu1 HuX.
  destruct (C42_reals (sampler_table K) u) as (k & Ek & Hk & Hk2 & Hk3 & Hk4).
  - unfold sampler_table. destruct (map _ _); easy.
  - apply sampler_table_ascending.
  - rewrite sampler_table_length. replace (S K - 1)%nat with K by lia. now rewrite sampler_table_last.
  - rewrite sampler_table_length in Hk, Hk4. rewrite Nat.min_l in Hk4 by lia.
    rewrite (sampler_table_lt K 0) in Hk3, Hk4 by lia. change (Z.of_nat 0) with 0%Z in *.
    unfold sampler_draw. change (num real_arith) with R. rewrite Ek. cbn [bind].
    assert (Hks : size_to_int (Z.of_nat k) = Z.of_nat k).
    { apply size_to_int_small. unfold int_max in HX. lia. }
    rewrite Hks, sampler_table_length.
    destruct (Nat.eqb_spec (k + 1) (S K)) as [Hlast|Hin].
    + assert (k = K) by lia. subst k.
      destruct (tail_loop_ok u (Z.to_nat X - K) (Z.to_nat X - K) (Z.of_nat K)) as (x & _ & _).
      { lia. } { lia. } { lia. } { replace (Z.of_nat K + _)%Z with X by lia. exact HuX. }
      clear x.
      assert (Hall : forall fuel, (Z.to_nat X <= fuel)%nat -> exists x',
        tail_loop real_arith fuel pdf (u - cdf (Z.of_nat K)) (Z.of_nat K) = Some x' /\
        (Z.of_nat K <= x')%Z /\ u <= cdf x' /\ forall y, (Z.of_nat K <= y < x')%Z -> cdf y < u).
      { intros fuel Hf. apply (tail_loop_ok u (Z.to_nat X - K)); try lia.
        replace (Z.of_nat K + _)%Z with X by lia. exact HuX. }
      destruct (Hall (Z.to_nat X) (le_n _)) as (x & Ex & Hx1 & Hx2 & Hx3).
      exists x. split; [|split; [lia|split]].
      * intros fuel Hf. destruct (Hall fuel Hf) as (x2 & Ex2 & Hy1 & Hy2 & Hy3).
        change (sub real_arith u (cdf (Z.of_nat K))) with (u - cdf (Z.of_nat K)). rewrite Ex2. f_equal.
        destruct (Z.lt_trichotomy x2 x) as [H|[H|H]]; [|exact H|].
        -- assert (cdf x2 < u) by (apply Hx3; lia). lra.
        -- assert (cdf x < u) by (apply Hy3; lia). lra.
      * intros Hlt. exfalso. specialize (Hk3 Hlt). lia.
      * intros Hge. destruct (Hk4 Hge) as [_ Hmin]. split; [lia|].
        intros y Hy. split.
        -- intros Hxy. apply Rle_trans with (1 := Hx2). apply cdf_mono. lia.
        -- intros Huy. destruct (Z.le_gt_cases x y) as [|Hgt]; [assumption|exfalso].
           destruct (Z.lt_ge_cases y (Z.of_nat K)) as [HyK|HyK].
           ++ assert (nth (Z.to_nat y) (sampler_table K) 0 < u) by (apply Hmin; lia).
              rewrite sampler_table_lt in H by lia. rewrite Z2Nat.id in H by lia. lra.
           ++ assert (cdf y < u) by (apply Hx3; lia). lra.
    + rewrite sampler_table_lt in Hk2 by lia.
      exists (Z.of_nat k). split; [intros; reflexivity|]. split; [lia|]. split.
      * intros Hlt. now rewrite (Hk3 Hlt).
      * intros Hge. destruct (Hk4 Hge) as [Hk1 Hmin]. split; [lia|].
        intros y Hy. split.
        -- intros Hxy. apply Rle_trans with (1 := Hk2). apply cdf_mono. lia.
        -- intros Huy. destruct (Z.le_gt_cases (Z.of_nat k) y) as [|Hgt]; [assumption|exfalso].
           assert (nth (Z.to_nat y) (sampler_table K) 0 < u) by (apply Hmin; lia).
           rewrite sampler_table_lt in H by lia. rewrite Z2Nat.id in H by lia. lra.
Qed.

(** building the tables *)
Lemma cdf_table_ok (go : Z -> bool) K : forall n fuel x, (n <= fuel)%nat ->
  (forall y, (x <= y < x + Z.of_nat n)%Z -> go y = true) -> go (x + Z.of_nat n)%Z = false ->
  K = n -> 
  cdf_table real_arith fuel go cdf x = Some (map (fun i => cdf (x + Z.of_nat i)%Z) (seq 0 K) ++ [1]).
Proof.
  intros n. revert K. induction n; intros K fuel x Hf Hgo Hstop ->.
  - rewrite Z.add_0_r in Hstop. destruct fuel; cbn [cdf_table]; rewrite Hstop; reflexivity.
  - destruct fuel as [|fuel]; [lia|]. cbn [cdf_table]. rewrite Hgo by lia.
    rewrite (IHn n fuel (x + 1)%Z) by
      (try lia; try (intros y Hy; apply Hgo; lia); auto;
       replace (x + 1 + Z.of_nat n)%Z with (x + Z.of_nat (S n))%Z by lia; exact Hstop).
    cbn [option_map]. f_equal. cbn [seq map app]. rewrite Z.add_0_r. f_equal. f_equal.
    rewrite <- seq_shift, map_map. apply map_ext. intros i. f_equal. lia.
Qed.

Lemma negbin_loop_ok : forall n x p, p < 1 - 1 / 4096 -> (exists m, (m <= n)%nat /\ 1 - 1 / 4096 <= cdf (x + Z.of_nat m)%Z) ->
  exists K, (1 <= K <= S n)%nat /\ forall fuel, (K <= fuel)%nat ->
    negbin_loop real_arith fuel cdf p x = Some (map (fun i => cdf (x + Z.of_nat i)%Z) (seq 0 K) ++ [1]).
Proof.
  induction n; intros x p Hp (m & Hm & Hc).
  - assert (m = 0%nat) by lia. subst m. rewrite Z.add_0_r in Hc. exists 1%nat. split; [lia|].
    intros [|fuel] Hf; [lia|]. cbn [negbin_loop ltb sub one div ofz real_arith].
    rewrite Rlt_bool_true by exact Hp.
    assert (E : negbin_loop real_arith fuel cdf (cdf x) (x + 1) = Some [1]).
    { destruct fuel; cbn [negbin_loop ltb sub one div ofz real_arith]; rewrite Rlt_bool_false by exact Hc; reflexivity. }
    rewrite E. cbn. rewrite Z.add_0_r. reflexivity.
  - destruct (Rlt_le_dec (cdf x) (1 - 1 / 4096)) as [Hlt|Hge].
    + destruct (IHn (x + 1)%Z (cdf x) Hlt) as (K & HK & E).
      { exists (m - 1)%nat. split; [lia|].
        destruct m as [|m]; [rewrite Z.add_0_r in Hc; lra|].
        replace (x + 1 + Z.of_nat (S m - 1))%Z with (x + Z.of_nat (S m))%Z by lia. exact Hc. }
      exists (S K). split; [lia|]. intros [|fuel] Hf; [lia|].
      cbn [negbin_loop ltb sub one div ofz real_arith]. rewrite Rlt_bool_true by exact Hp.
      rewrite E by lia. cbn [option_map seq map app]. rewrite Z.add_0_r. f_equal. f_equal. f_equal.
      rewrite <- seq_shift, map_map. apply map_ext. intros i. f_equal. lia.
    + exists 1%nat. split; [lia|]. intros [|fuel] Hf; [lia|].
      cbn [negbin_loop ltb sub one div ofz real_arith]. rewrite Rlt_bool_true by exact Hp.
      assert (E : negbin_loop real_arith fuel cdf (cdf x) (x + 1) = Some [1]).
      { destruct fuel; cbn [negbin_loop ltb sub one div ofz real_arith]; rewrite Rlt_bool_false by exact Hge; reflexivity. }
      rewrite E. cbn. rewrite Z.add_0_r. reflexivity.
Qed.
End Sampler.
