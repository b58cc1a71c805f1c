(** Proofs about the code compiled when TRNG_CUDA is defined: what the host functions return, these return. *)
From Coq Require Import ZArith Znumtheory Zpow_facts List Bool Arith Lia.
From Verif Require Import Base BaseFacts Cong Sums Spec SpecFacts IntMathModel IntMathProofs GaussModel GaussProofs
  MrgModel MrgStepProofs MrgProofs MrgSplitProofs Prop_Mrg Prop_Yarn Lcg64Model Lcg64Proofs Prop_Lcg64
  CountShiftModel CountShiftProofs Count128Model Count128Proofs Prop_CountShift CudaModel.
Import ListNotations.
Open Scope Z_scope.

(** ** yarn *)
Lemma mulm_cuda_ok m x y : 1 < m < 2 ^ 31 -> 0 <= x < m -> 0 <= y < m -> mulm_cuda m x y = Val ((x * y) mod m).
Proof.
  intros Hm Hx Hy. unfold mulm_cuda.
  assert (B : 0 <= x * y <= (m - 1) ^ 2) by (rewrite Z.pow_2_r; split; [apply Z.mul_nonneg_nonneg | apply Z.mul_le_mono_nonneg]; lia).
  assert (C : (m - 1) ^ 2 < 2 ^ 62).
  { change (2 ^ 62) with ((2 ^ 31) ^ 2). apply Z.pow_lt_mono_l; lia. }
  replace (int64 (x * y)) with true.
  2:{ symmetry. unfold int64. apply andb_true_iff. split; [apply Z.leb_le | apply Z.ltb_lt]; lia. }
  unfold wrap64. rewrite (Z.mod_small (x * y)) by lia. rewrite modulo_spec by lia. reflexivity.
Qed.

Lemma yarn_loop_ok m : 1 < m < 2 ^ 31 -> forall fuel n p t, 0 <= n < 2 ^ (Z.of_nat fuel) -> 0 <= p < m -> 0 <= t < m ->
  yarn_loop_cuda (S fuel) m n p t = Val ((p * t ^ n) mod m).
Proof.
  intros Hm. induction fuel as [|k IH]; intros n p t Hn Hp Ht.
  - change (2 ^ Z.of_nat 0) with 1 in Hn. replace n with 0 by lia. cbn [yarn_loop_cuda Z.gtb Z.compare].
    rewrite Z.pow_0_r, Z.mul_1_r, Z.mod_small by lia. reflexivity.
  - rewrite Nat2Z.inj_succ, Z.pow_succ_r in Hn by lia.
    remember (S k) as k1 eqn:Ek. cbn [yarn_loop_cuda]. destruct (Z.gtb_spec n 0) as [P|P].
    + rewrite Z.quot_div_nonneg by lia. assert (D := Z.div_mod n 2 ltac:(lia)). assert (M := Z.mod_pos_bound n 2 ltac:(lia)).
      assert (Q : 0 <= n / 2 < 2 ^ Z.of_nat k) by (split; [apply Z.div_pos | apply Z.div_lt_upper_bound]; lia).
      rewrite (mulm_cuda_ok m t t Hm Ht Ht).
      assert (Et : forall q, (q * ((t * t) mod m) ^ (n / 2)) mod m = (q * t ^ (2 * (n / 2))) mod m).
      { intros q. rewrite (Z.mul_mod q) by lia. rewrite <- Zpower_mod by lia. rewrite <- Z.mul_mod by lia. rewrite Z.pow_mul_r by lia.
        rewrite Z.pow_2_r. reflexivity. }
      change 1 with (Z.ones 1) at 1. rewrite Z.land_ones by lia. change (2 ^ 1) with 2.
      destruct (Z.eqb_spec (n mod 2) 1) as [O|O].
      * rewrite (mulm_cuda_ok m p t Hm Hp Ht). subst k1. rewrite IH; [|lia | apply Z.mod_pos_bound; lia | apply Z.mod_pos_bound; lia].
        rewrite Et. rewrite Z.mul_mod_idemp_l by lia. f_equal. f_equal.
        replace n with (1 + 2 * (n / 2)) at 2 by lia. rewrite Z.pow_add_r, Z.pow_1_r by lia. ring.
      * subst k1. rewrite IH; [|lia | lia | apply Z.mod_pos_bound; lia]. rewrite Et.
        replace (2 * (n / 2)) with n by lia. reflexivity.
    + replace n with 0 by lia. rewrite Z.pow_0_r, Z.mul_1_r, Z.mod_small by lia. reflexivity.
Qed.

Lemma yarn_out_cuda_ok y r : In y yarn_classes -> 0 <= r < mc_modulus (yc_mrg y) -> yarn_out_cuda y r = Val (yarn_map y r).
Proof.
  intros Hy Hr. unfold yarn_out_cuda, yarn_map. destruct (r =? 0); [reflexivity|].
  assert (G := m_pos _ (yarn_mrg y Hy)). assert (M := class_m31 _ (yarn_mrg y Hy)). assert (Y := yarn_gen y Hy).
  rewrite yarn_loop_ok; [|lia | change (2 ^ Z.of_nat 31) with (2 ^ 31); lia | lia | lia]. cbn [map_result].
  rewrite Z.mul_1_l. f_equal. assert (B := Z.mod_pos_bound (yc_gen y ^ r) (mc_modulus (yc_mrg y)) ltac:(lia)).
  unfold IntMathModel.to_int32. rewrite (Z.mod_small (yc_gen y ^ r mod _)) by lia.
  destruct (Z.geb_spec (yc_gen y ^ r mod mc_modulus (yc_mrg y)) (2 ^ 31)); [lia | reflexivity].
Qed.

(** ** modulo_inverse *)
Lemma loop_int32 fuel : forall a m1 f fl a' f', int32 f = true ->
  modulo_inverse_loop fuel a m1 f fl = Val (a', f') -> int32 f' = true.
Proof.
  induction fuel as [|k IH]; intros a m1 f fl a' f' H E; cbn [modulo_inverse_loop] in E; [discriminate E|].
  destruct (a >? 1); [|injection E as <- <-; exact H].
  destruct (int32 (Z.quot m1 a * f) && int32 (fl - Z.quot m1 a * f)) eqn:C; [|discriminate E].
  apply andb_true_iff in C. apply (IH _ _ _ _ _ _ (proj2 C) E).
Qed.

Lemma loop_small k a m1 f fl : a <= 1 -> modulo_inverse_loop (S k) a m1 f fl = Val (a, f).
Proof. intros H. cbn [modulo_inverse_loop]. destruct (Z.gtb_spec a 1); [lia | reflexivity]. Qed.

Lemma inverse_cuda_val a m x : m < 2 ^ 31 -> modulo_inverse a m = Val x -> modulo_inverse_cuda a m = Val x.
Proof.
  intros Hm E. unfold modulo_inverse in E. unfold modulo_inverse_cuda.
  destruct ((a <=? 0) || (m <=? 1)) eqn:C; [discriminate E|]. apply orb_false_iff in C. destruct C as (Ca & Cm).
  apply Z.leb_gt in Cm.
  destruct (modulo_inverse_loop 65 a m 1 0) as [(a' & f') | | | |] eqn:L; try discriminate E.
  assert (F := loop_int32 65 a m 1 0 a' f' eq_refl L). unfold int32 in F. apply andb_true_iff in F. destruct F as (F1 & F2).
  apply Z.leb_le in F1. apply Z.ltb_lt in F2.
  destruct (a' =? 0); [discriminate E|]. destruct (Z.geb_spec f' 0); [exact E|].
  replace (int32 (f' + m)) with true; [exact E|]. symmetry. unfold int32.
  apply andb_true_iff. split; [apply Z.leb_le | apply Z.ltb_lt]; lia.
Qed.

(** No inverse exists or the argument is not positive: a value is returned all the same. *)
Lemma inverse_cuda_total a m : 0 < a < 2 ^ 31 -> 1 < m < 2 ^ 31 ->
  exists x, modulo_inverse_cuda a m = Val x /\ 0 <= x < m.
Proof.
  intros Ha Hm. unfold modulo_inverse_cuda.
  destruct (loop_start 63 a m) as (a' & m1' & f' & fl' & R & _ & _ & _ & F); [lia | lia | |].
  { assert (a * m < 2 ^ 31 * 2 ^ 31) by (apply Z.mul_lt_mono_nonneg; lia). change (2 ^ Z.of_nat 63) with (2 ^ 63). lia. }
  rewrite R. destruct (Z.geb_spec f' 0) as [G|G]; [exists f'; split; [reflexivity | lia]|].
  replace (int32 (f' + m)) with true; [exists (f' + m); split; [reflexivity | lia]|]. symmetry. unfold int32.
  apply andb_true_iff. split; [apply Z.leb_le | apply Z.ltb_lt]; lia.
Qed.

(** ** gauss *)
Section Gauss.
Variables (n : nat) (m : Z).
Hypothesis (Hm31 : m < 2 ^ 31).

Lemma elim_row_cuda_val p i j ab r : elim_row n m p i j ab = Val r -> elim_row_cuda n m p i j ab = Val r.
Proof.
  destruct ab as (a & b). unfold elim_row, elim_row_cuda. cbv zeta. intros E.
  destruct (ent a (prow p j) i =? 0); [exact E|].
  destruct (modulo_inverse (ent a (prow p j) i) m) as [t | | | |] eqn:I; try discriminate E.
  rewrite (inverse_cuda_val _ _ _ Hm31 I). exact E.
Qed.
Lemma elim_rows_cuda_val p i js : forall ab r, elim_rows n m p i js ab = Val r -> elim_rows_cuda n m p i js ab = Val r.
Proof.
  induction js as [|j js IH]; intros ab r E; cbn [elim_rows elim_rows_cuda] in *; [exact E|].
  destruct (elim_row n m p i j ab) as [ab' | | | |] eqn:R; try discriminate E.
  rewrite (elim_row_cuda_val _ _ _ _ _ R). apply IH, E.
Qed.
Lemma triangulate_cuda_val k : forall i a b p r, triangulate n m k i a b p = Val r -> triangulate_cuda n m k i a b p = Val r.
Proof.
  induction k as [|k IH]; intros i a b p r E; cbn [triangulate triangulate_cuda] in *; [exact E|]. cbv zeta in *.
  destruct (ent a (prow (pivot n a p i) i) i =? 0); [exact E|].
  destruct (modulo_inverse (ent a (prow (pivot n a p i) i) i) m) as [t | | | |] eqn:I; try discriminate E.
  rewrite (inverse_cuda_val _ _ _ Hm31 I).
  match type of E with match ?X with _ => _ end = _ => destruct X as [(a2 & b2) | | | |] eqn:R; try discriminate E end.
  rewrite (elim_rows_cuda_val _ _ _ _ _ R). apply IH, E.
Qed.
Lemma gauss_cuda_val a b x : gauss n m a b = Val x -> gauss_cuda n m a b = Val x.
Proof.
  unfold gauss, gauss_cuda. intros E.
  destruct (triangulate n m n 0 a b (seq 0 n)) as [(((rank & a1) & b1) & p) | | | |] eqn:T; try discriminate E.
  rewrite (triangulate_cuda_val _ _ _ _ _ _ T). destruct (existsb _ _); [discriminate E | exact E].
Qed.
Lemma gauss_cuda_total a b : prime m -> in_range_system n m a b ->
  exists x, gauss_cuda n m a b = Val x /\ length x = n /\ forall i, (i < n)%nat -> 0 <= nth i x 0 < m.
Proof.
  intros P R. assert (W := wf_init n m a b R).
  destruct (triangulate_spec n m P Hm31 n 0 a b (seq 0 n) ltac:(lia) W) as (rank & a1 & b1 & p & E & W1 & _).
  { split; intros; lia. }
  unfold gauss_cuda. rewrite (triangulate_cuda_val _ _ _ _ _ _ E). cbv zeta. eexists. split; [reflexivity|].
  split; [rewrite map_length, seq_length; reflexivity|]. intros i Hi. rewrite (nth_map_seq _ n i) by exact Hi.
  assert (W2 : wf n m a1 (back_sub n m a1 p (n - 1) b1) p).
  { apply (back_sub_spec n m P a1 p b1 (n - 1) b1 W1 (le_n _)); [reflexivity|]. intros r Hr.
    unfold tail_sum. replace (n - S r)%nat with 0%nat by lia. cbn [sum]. rewrite Z.add_0_r. reflexivity. }
  apply (wf_eb _ _ _ _ _ W2). apply (wf_prange _ _ _ _ _ W1), Hi.
Qed.
End Gauss.

(** ** backward and split of the multiple recursive engines *)
Lemma back_div_cuda_val m t a x : m < 2 ^ 31 -> back_div m t a = Val x -> back_div_cuda m t a = Val x.
Proof.
  unfold back_div, back_div_cuda. intros H E. destruct (modulo_inverse a m) as [i | | | |] eqn:I; try discriminate E.
  rewrite (inverse_cuda_val _ _ _ H I). exact E.
Qed.
Lemma map_result_val {A B} (f : A -> B) x y x' : (forall v, x = Val v -> x' = Val v) ->
  map_result f x = Val y -> map_result f x' = Val y.
Proof. intros H E. destruct x as [v | | | |]; try discriminate E. rewrite (H v eq_refl). exact E. Qed.

Lemma backward_cuda_val cl a r r' : In cl mrg_classes ->
  mc_backward cl (mc_modulus cl) a r = Val r' -> mrg_backward_cuda cl (mc_modulus cl) a r = Val r'.
Proof.
  intros H. assert (M := class_m31 _ H). set (m := mc_modulus cl) in *. clearbody m. revert M.
  cbn [mrg_classes In] in H. repeat destruct H as [<-|H]; try contradiction H;
    cbn [mc_backward mrg2_class mrg3_class mrg3s_class mrg4_class mrg5_class mrg5s_class mrg_backward_cuda mc_order];
    intros M E.
  all: repeat (destruct a as [|? a]; try discriminate E).
  all: repeat (destruct r as [|? r]; try discriminate E).
  all: cbn [mrg2_backward mrg3_backward mrg4_backward mrg5_backward
            mrg2_backward_cuda mrg3_backward_cuda mrg4_backward_cuda mrg5_backward_cuda] in *.
  all: revert E; apply map_result_val; intros v E.
  all: repeat match goal with |- context [if ?c then _ else _] => destruct c end.
  all: first [exact E | apply back_div_cuda_val; [lia | exact E]].
Qed.
Lemma backwards_cuda_val cl k : In cl mrg_classes -> forall a r r',
  backwards cl k a r = Val r' -> backwards_cuda cl k a r = Val r'.
Proof.
  intros H. induction k as [|k IH]; intros a r r' E; cbn [backwards backwards_cuda] in *; [exact E|].
  destruct (mc_backward cl (mc_modulus cl) a r) as [r1 | | | |] eqn:B; try discriminate E.
  rewrite (backward_cuda_val cl a r r1 H B). apply IH, E.
Qed.
Lemma mrg_split_cuda_val cl R s n R' : In cl mrg_classes ->
  mrg_split cl R s n = Returns R' -> mrg_split_cuda cl R s n = Returns R'.
Proof.
  intros H. unfold mrg_split, mrg_split_cuda. intros E.
  destruct ((s <? 1) || (n >=? s)); [discriminate E|]. destruct (s >? 1); [|exact E]. cbv zeta in *.
  destruct (gauss _ _ _ _) as [a' | | | |] eqn:G; try discriminate E.
  assert (M : mc_modulus cl < 2 ^ 31) by (assert (M := class_m31 _ H); lia). rewrite (gauss_cuda_val _ _ M _ _ _ G).
  destruct (backwards _ _ _ _) as [r' | | | |] eqn:B; try discriminate E.
  rewrite (backwards_cuda_val _ _ H _ _ _ B). exact E.
Qed.

Lemma wrap64_32 n : 0 <= n < 2 ^ 32 -> wrap64 (n + 1) = n + 1.
Proof. intros H. apply Z.mod_small. lia. Qed.
Lemma after_1 {E O} (next : E -> O * E) n R : 0 <= n ->
  after next (Z.to_nat (n + 1)) R = after next (Z.to_nat (0 + 1)) (after next (Z.to_nat n) R).
Proof.
  intros H. rewrite (Z2Nat.inj_add n 1) by lia. change (Z.to_nat (0 + 1)) with 1%nat. change (Z.to_nat 1) with 1%nat.
  unfold after. rewrite Nat.add_1_r. reflexivity.
Qed.
(** A leapfrog stream of the engine n draws on is one of the engine itself. *)
Lemma leapfrog_after {E O} (next : E -> O * E) R R' s n :
  leapfrog next (after next (Z.to_nat n) R) R' s 0 -> leapfrog next R R' s n.
Proof.
  intros L k. rewrite L, draw_after. f_equal. change (Z.to_nat 0) with 0%nat. lia.
Qed.

Lemma mrg_split_cuda_shift cl R s n : In cl mrg_classes -> mrg_legal cl R -> 1 < s -> 0 <= n < 2 ^ 32 ->
  mrg_split_cuda cl R s n = mrg_split_cuda cl (after (mrg_next cl) (Z.to_nat n) R) s 0 /\
  mrg_legal cl (after (mrg_next cl) (Z.to_nat n) R).
Proof.
  intros H L Hs Hn. destruct (C14_mrg_jump cl R n H L) as (E & _ & L1); [split; lia|]. rewrite E in L1.
  split; [|exact L1]. unfold mrg_split_cuda. destruct (Z.gtb_spec s 1); [|lia]. cbv zeta.
  rewrite !wrap64_32 by lia.
  rewrite (proj1 (C14_mrg_jump cl R (n + 1) H L ltac:(split; lia))).
  rewrite (proj1 (C14_mrg_jump cl _ (0 + 1) H L1 ltac:(split; lia))).
  rewrite (after_1 (mrg_next cl) n R) by lia. reflexivity.
Qed.

(** ** split of the linear congruential engines *)
Lemma lcg_after_ok R n : lcg64_ok R -> Z.odd (lcg_a R) = true ->
  lcg64_ok (after lcg64_next n R) /\ Z.odd (lcg_a (after lcg64_next n R)) = true.
Proof.
  intros H O. rewrite after_lcg64. induction n as [|n IH]; cbn [Nat.iter]; [split; assumption|].
  destruct IH as ((I1 & I2 & I3) & I4). unfold lcg64_step, set_r. cbn [lcg_a lcg_b lcg_r].
  split; [|exact I4]. split; [exact I1|]. split; [exact I2|]. apply wrap64_range.
Qed.
Lemma lcg64_split_cuda_shift R s n : lcg64_ok R -> 1 < s -> 0 <= n < 2 ^ 32 -> Z.odd (lcg_a R) = true ->
  lcg64_split_cuda R s n = lcg64_split (after lcg64_next (Z.to_nat n) R) s 0.
Proof.
  intros H Hs Hn O. assert (L1 := proj1 (lcg_after_ok R (Z.to_nat n) H O)). unfold lcg64_split_cuda, lcg64_split.
  destruct (Z.gtb_spec s 1); [|lia]. destruct (Z.ltb_spec s 1); [lia|]. destruct (Z.geb_spec 0 s); [lia|]. cbn [orb].
  rewrite !wrap64_32 by lia. rewrite (proj1 (C01_lcg64_jump R (n + 1) H ltac:(split; lia))).
  rewrite (proj1 (C01_lcg64_jump _ (0 + 1) L1 ltac:(split; lia))).
  rewrite (after_1 lcg64_next n R) by lia. reflexivity.
Qed.

Lemma cs_after_ok R n : lcs_ok R -> Z.odd (lcg_a (cs_lcg R)) = true ->
  lcs_ok (after cs_next n R) /\ Z.odd (lcg_a (cs_lcg (after cs_next n R))) = true.
Proof.
  intros H O. rewrite after_cs. split; [apply cs_iter_ok, H|].
  induction n as [|n IH]; cbn [Nat.iter]; [exact O | exact IH].
Qed.
Lemma cs_split_cuda_shift R s n : lcs_ok R -> 1 < s -> 0 <= n < 2 ^ 32 -> Z.odd (lcg_a (cs_lcg R)) = true ->
  cs_split_cuda R s n = cs_split (after cs_next (Z.to_nat n) R) s 0.
Proof.
  intros H Hs Hn O. assert (L1 := proj1 (cs_after_ok R (Z.to_nat n) H O)). unfold cs_split_cuda, cs_split.
  destruct (Z.gtb_spec s 1); [|lia]. destruct (Z.ltb_spec s 1); [lia|]. destruct (Z.geb_spec 0 s); [lia|]. cbn [orb].
  rewrite !wrap64_32 by lia. rewrite (proj1 (C06_count_shift_jump R (n + 1) H ltac:(lia))).
  rewrite (proj1 (C06_count_shift_jump _ (0 + 1) L1 ltac:(lia))).
  rewrite (after_1 cs_next n R) by lia. reflexivity.
Qed.

Lemma c128_split_cuda_shift hi R s n : c128_ok R -> 1 < s -> 0 <= n < 2 ^ 32 ->
  c128_split_cuda R s n = c128_split (after (c128_next hi) (Z.to_nat n) R) s 0 /\
  c128_ok (after (c128_next hi) (Z.to_nat n) R).
Proof.
  intros H Hs Hn. rewrite <- (proj1 (C08_count128_jump hi R n H ltac:(split; lia))).
  unfold c128_split_cuda, c128_split, c128_jump, c128_set. cbn [c_r c_inc c_a c_b].
  destruct (Z.gtb_spec s 1); [|lia]. destruct (Z.ltb_spec s 1); [lia|]. destruct (Z.geb_spec 0 s); [lia|]. cbn [orb].
  split.
  - rewrite Z.mul_0_l. unfold wrap128. rewrite (Z.mod_0_l (2 ^ 128)), Z.add_0_r, Z.mod_mod by lia. reflexivity.
  - destruct H as (K1 & K2 & K3 & K4). repeat split; try apply K1; try apply K2; try apply K3; cbn [c_r];
      apply Z.mod_pos_bound; lia.
Qed.

Lemma split_cuda_val_lcg R s n R' : lcg64_split R s n = Returns R' -> lcg64_split_cuda R s n = Returns R'.
Proof. unfold lcg64_split, lcg64_split_cuda. destruct (_ || _); [discriminate | exact id]. Qed.
Lemma split_cuda_val_cs R s n R' : cs_split R s n = Returns R' -> cs_split_cuda R s n = Returns R'.
Proof. unfold cs_split, cs_split_cuda. destruct (_ || _); [discriminate | exact id]. Qed.
Lemma split_cuda_val_c128 R s n R' : c128_split R s n = Returns R' -> c128_split_cuda R s n = Returns R'.
Proof. unfold c128_split, c128_split_cuda. destruct (_ || _); [discriminate | exact id]. Qed.
