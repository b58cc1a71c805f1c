(** Property C94: periods and equidistribution of the draws of lcg64_count_shift and count128_lcg_shift. *)
From Coq Require Import ZArith Znumtheory Zpow_facts List Bool Lia.
From Verif Require Import Base BaseFacts Cong Spec SpecFacts Lcg64Model Lcg64Proofs
  CountShiftModel CountShiftProofs Count128Model Count128Proofs Prop_Lcg64 Prop_CountShift Prop_Period.
Import ListNotations.
Open Scope Z_scope.

(** ** count128_lcg_shift *)

(** The word that is scrambled: exclusive or of the halves of the counter. *)
Definition fold128 (x : Z) : Z := Z.lxor (lo64 x) (hi_native x).
Lemma fold_word x : word 128 x -> word 64 (fold128 x).
Proof.
  intros H. unfold fold128, lo64, hi_native, word in *. apply lxor_range; [lia | apply Z.mod_pos_bound; reflexivity |].
  split; [apply Z.div_pos; lia|]. apply Z.div_lt_upper_bound; [reflexivity|]. change (2 ^ 64 * 2 ^ 64) with (2 ^ 128). apply H.
Qed.
Lemma fold_join h l : 0 <= h -> 0 <= l < 2 ^ 64 -> fold128 (h * 2 ^ 64 + l) = Z.lxor l h.
Proof.
  intros Hh Hl. unfold fold128, lo64, hi_native. rewrite Z.div_add_l by lia. rewrite (Z.div_small l) by lia.
  rewrite (Z.add_comm (h * 2 ^ 64)), Z.mod_add, Z.mod_small by lia. rewrite Z.add_0_r. reflexivity.
Qed.

(** Only the zero shift of the counter leaves the folded word unchanged everywhere. *)
Lemma fold_shift d : word 128 d -> (forall x, word 128 x -> fold128 (wrap128 (x + d)) = fold128 x) -> d = 0.
Proof.
  intros Hd H. assert (W : 2 ^ 128 = 2 ^ 64 * 2 ^ 64) by reflexivity. unfold word in Hd.
  set (e := d / 2 ^ 64). set (l := d mod 2 ^ 64).
  assert (Ed : d = e * 2 ^ 64 + l) by (unfold e, l; rewrite (Z.mul_comm (d / 2 ^ 64)); apply Z.div_mod; discriminate).
  assert (Bl : 0 <= l < 2 ^ 64) by (apply Z.mod_pos_bound; reflexivity).
  assert (Be : 0 <= e < 2 ^ 64) by (split; [apply Z.div_pos; lia | apply Z.div_lt_upper_bound; lia]).
  clearbody e l.
  assert (H0 := H 0 ltac:(unfold word; lia)). rewrite Z.add_0_l, wrap128_small in H0 by exact Hd.
  rewrite Ed, fold_join in H0 by lia. change (fold128 0) with 0 in H0. apply Z.lxor_eq in H0. subst l.
  destruct (Z.eq_dec e 0) as [->|E0]; [rewrite Ed; reflexivity|]. exfalso.
  assert (H1 := H (2 ^ 64 - e) ltac:(unfold word; lia)).
  replace (2 ^ 64 - e) with (0 * 2 ^ 64 + (2 ^ 64 - e)) in H1 at 2 by lia.
  rewrite (fold_join 0 (2 ^ 64 - e)), Z.lxor_0_r in H1 by lia.
  replace (2 ^ 64 - e + d) with ((e + 1) * 2 ^ 64 + 0) in H1 by lia.
  destruct (Z.eq_dec (e + 1) (2 ^ 64)) as [F|F].
  - rewrite F in H1. change (fold128 (wrap128 (2 ^ 64 * 2 ^ 64 + 0))) with 0 in H1. lia.
  - rewrite wrap128_small in H1 by (unfold word; lia). rewrite fold_join, Z.lxor_0_l in H1 by lia. lia.
Qed.

(** With an odd increment the counter takes every value, at exactly one position of a period. *)
Lemma counter_at R x : c128_ok R -> Z.odd (c_inc R) = true -> word 128 x ->
  exists! n, 0 <= n < 2 ^ 128 /\ wrap128 (c_r R + (n + 1) * c_inc R) = x.
Proof.
  intros K O Hx. assert (G : rel_prime (c_inc R) (2 ^ 128)).
  { apply Zpow_facts.rel_prime_Zpower_r; [lia|]. apply rel_prime_sym, prime_rel_prime; [exact prime_2|].
    intros D. apply Zdivide_mod in D. rewrite Zmod_odd, O in D. discriminate D. }
  destruct (rel_prime_bezout _ _ G) as [u v E].
  assert (P : 0 < 2 ^ 128) by reflexivity.
  exists ((u * (x - c_r R) - 1) mod 2 ^ 128). split.
  - split; [apply Z.mod_pos_bound; exact P|]. apply wrap128_id; [exact Hx|].
    assert (C := cong_mod (2 ^ 128) (u * (x - c_r R) - 1)). destruct C as [q C].
    exists (q * c_inc R - v * (x - c_r R)). nia.
  - intros n (Hn & En). rewrite <- (Z.mod_small n (2 ^ 128)) by exact Hn.
    apply (proj1 (cong_iff (2 ^ 128) _ _ ltac:(discriminate))).
    assert (C := wrap128_cong (c_r R + (n + 1) * c_inc R)). rewrite En in C. destruct C as [q C].
    exists (u * q - v * (n + 1)). nia.
Qed.

Lemma c128_draw_fold R k : word 128 (c_r R) ->
  draw (c128_next hi_native) R k = c128_mix (c_a R) (c_b R) (fold128 (wrap128 (c_r R + (Z.of_nat k + 1) * c_inc R))).
Proof. intros H. rewrite c128_draw by exact H. cbn zeta. rewrite Nat2Z.inj_succ. reflexivity. Qed.

(** The draws have exactly the period of the counter. *)
Theorem C94_count128_draw_period : forall R, c128_ok R -> Z.odd (c_inc R) = true -> Z.odd (c_a R) = true ->
  draw_period (c128_next hi_native) R (2 ^ 128).
Proof.
  intros R K O A n. assert (Kr : word 128 (c_r R)) by apply K. split.
  - intros H. set (d := wrap128 (Z.of_nat n * c_inc R)).
    assert (D : d = 0).
    { apply fold_shift; [apply wrap128_range|]. intros x Hx.
      destruct (counter_at R x K O Hx) as (i & (Hi & Ei) & _). specialize (H (Z.to_nat i)).
      rewrite !c128_draw_fold in H by exact Kr. apply c128_mix_inj in H; [|exact A|apply fold_word, wrap128_range|apply fold_word, wrap128_range].
      rewrite Nat2Z.inj_add, Z2Nat.id in H by lia. rewrite Ei in H. rewrite <- H. f_equal.
      apply wrap128_eq. unfold d. rewrite <- Ei, !wrap128_cong.
      replace (c_r R + (i + Z.of_nat n + 1) * c_inc R) with (c_r R + (i + 1) * c_inc R + Z.of_nat n * c_inc R) by ring. reflexivity. }
    unfold d, wrap128 in D. apply Zmod_divide in D; [|discriminate]. apply (odd_div_pow2 128) in D; [exact D | exact O].
  - intros [q E] i. rewrite !c128_draw_fold by exact Kr. do 2 f_equal. apply wrap128_eq.
    exists (q * c_inc R). rewrite Nat2Z.inj_add, E. ring.
Qed.
Print Assumptions C94_count128_draw_period.

(** In a period every 64-bit value is drawn exactly once with every high word of the counter. *)
Theorem C94_count128_equidistribution : forall R y h, c128_ok R -> Z.odd (c_inc R) = true -> Z.odd (c_a R) = true ->
  word 64 y -> word 64 h ->
  exists! n, 0 <= n < 2 ^ 128 /\ draw (c128_next hi_native) R (Z.to_nat n) = y /\
    c_r (after (c128_next hi_native) (Z.to_nat n + 1) R) / 2 ^ 64 = h.
Proof.
  intros R y h K O A Hy Hh. assert (Kr : word 128 (c_r R)) by apply K.
  destruct (proj2 (proj2 C05_count128_permutation (c_a R) (c_b R) A) y Hy) as (t & (Ht & Et) & Ut).
  assert (L : word 64 (Z.lxor t h)) by (apply lxor_range; [lia | exact Ht | exact Hh]).
  assert (X : word 128 (h * 2 ^ 64 + Z.lxor t h)).
  { unfold word in *. change (2 ^ 128) with (2 ^ 64 * 2 ^ 64). nia. }
  assert (C : forall n, 0 <= n -> c_r (after (c128_next hi_native) (Z.to_nat n + 1) R) = wrap128 (c_r R + (n + 1) * c_inc R)).
  { intros n Hn. rewrite after_c128, c128_iter by exact Kr. cbn [c128_set c_r]. rewrite Nat2Z.inj_add, Z2Nat.id by exact Hn. reflexivity. }
  destruct (counter_at R _ K O X) as (n & (Hn & En) & U). exists n. split.
  - split; [exact Hn|]. rewrite C by apply Hn. rewrite c128_draw_fold, Z2Nat.id, En by (apply Hn || exact Kr). unfold word in *. split.
    + rewrite fold_join by lia. rewrite Z.lxor_assoc, Z.lxor_nilpotent, Z.lxor_0_r. exact Et.
    + rewrite Z.div_add_l by lia. rewrite Z.div_small by lia. lia.
  - intros n' (Hn' & D & Q). apply U. split; [exact Hn'|].
    rewrite C in Q by apply Hn'. rewrite c128_draw_fold, Z2Nat.id in D by (apply Hn' || exact Kr).
    set (x := wrap128 (c_r R + (n' + 1) * c_inc R)) in *. assert (Wx : word 128 x) by apply wrap128_range.
    assert (T := Ut _ (conj (fold_word x Wx) D)).
    rewrite (Z.div_mod x (2 ^ 64)) by discriminate. rewrite Q. unfold fold128, hi_native, lo64 in T. rewrite Q in T. rewrite T.
    rewrite Z.lxor_assoc, Z.lxor_nilpotent, Z.lxor_0_r. ring.
Qed.
Print Assumptions C94_count128_equidistribution.

(** All predefined parameter sets satisfy the conditions. *)
Theorem C94_count128_predefined : forall inc a b r, In (inc, a, b) c128_params -> word 128 r ->
  draw_period (c128_next hi_native) (C128 inc a b r) (2 ^ 128).
Proof.
  intros inc a b r H Hr. assert (P : word 128 inc /\ word 64 a /\ word 64 b /\ Z.odd inc = true /\ Z.odd a = true).
  { repeat destruct H as [E|H]; try (injection E as <- <- <-; repeat split; (discriminate || reflexivity)). destruct H. }
  apply C94_count128_draw_period; cbn [c_inc c_a]; try apply P. split; [apply P|]. split; [apply P|]. split; [apply P | exact Hr].
Qed.
Print Assumptions C94_count128_predefined.

(** ** lcg64_count_shift *)

Lemma cs_draw_sum R k : lcs_ok R -> draw cs_next R k =
  cs_out (Nat.iter (S k) (lcg_aff (lcg_a (cs_lcg R)) (lcg_b (cs_lcg R))) (lcg_r (cs_lcg R)))
         ((cs_count R + (Z.of_nat k + 1) * cs_inc R) mod cs_modulus).
Proof.
  intros (Hl & Hi & Hc). rewrite cs_draw, iter_addmod by assumption. rewrite step_set. rewrite Nat2Z.inj_succ. reflexivity.
Qed.

Section Sum.
Variables (R : lcs).
Hypothesis (K : lcs_ok R) (A4 : lcg_a (cs_lcg R) mod 4 = 1) (Bo : Z.odd (lcg_b (cs_lcg R)) = true)
  (G : Z.gcd (cs_inc R) (2 ^ 61 - 1) = 1).
Let a := lcg_a (cs_lcg R).
Let b := lcg_b (cs_lcg R).
Let W := 2 ^ 64.
Let mm := 2 ^ 61 - 1.
(** The two parts of the state at position k. *)
Let lp (k : nat) : Z := Nat.iter (S k) (lcg_aff a b) (lcg_r (cs_lcg R)).
Let cp (k : Z) : Z := (cs_count R + (k + 1) * cs_inc R) mod mm.

Lemma lp_word k : word 64 (lp k). Proof. apply lcg_aff_iter_range. apply K. Qed.
Lemma cp_range k : 0 <= cp k < mm. Proof. apply Z.mod_pos_bound. reflexivity. Qed.
Lemma a_odd : Z.odd a = true.
Proof. unfold a. rewrite (Z.div_mod (lcg_a (cs_lcg R)) 4), A4, Z.odd_add, Z.odd_mul by lia. reflexivity. Qed.
Lemma lp_add k n : lp (k + n) = Nat.iter n (lcg_aff a b) (lp k).
Proof. unfold lp. rewrite <- iter_add. f_equal. lia. Qed.
Lemma lp_shift k n : lp (k + n) = lp k <-> (W | Z.of_nat n).
Proof.
  rewrite lp_add. split.
  - intros E. apply (lcg_iter_fix a b (lp k)); [exact A4 | exact Bo | apply lp_word | exact E].
  - intros [q E]. assert (En : n = (Z.to_nat q * Z.to_nat (2 ^ 64))%nat) by (unfold W in E; nia).
    rewrite En. apply lcg_iter_fix_conv; [exact a_odd | apply lp_word].
Qed.
Lemma cp_shift k n : cp (k + n) = cp k <-> (mm | n).
Proof.
  unfold cp. split.
  - intros E. apply (proj2 (cong_iff mm _ _ ltac:(discriminate))) in E. destruct E as [q E].
    apply Z.gauss with (cs_inc R); [exists q; nia|]. rewrite Z.gcd_comm. exact G.
  - intros [q E]. apply (proj1 (cong_iff mm _ _ ltac:(discriminate))). exists (q * cs_inc R). rewrite E. ring.
Qed.
Lemma sum_draw k : draw cs_next R k = lcg64_shift_out (wrap64 (lp k + cp (Z.of_nat k))).
Proof. rewrite cs_draw_sum by exact K. reflexivity. Qed.

Lemma coprime_Wm : rel_prime W mm. Proof. exact rel_prime_64_m. Qed.

Lemma sum_period : draw_period cs_next R (W * mm).
Proof.
  intros n. split.
  - intros H.
    assert (P : forall q k, wrap64 (lp (k + q * n) + cp (Z.of_nat (k + q * n))) = wrap64 (lp k + cp (Z.of_nat k))).
    { induction q; intros k; [rewrite Nat.mul_0_l, Nat.add_0_r; reflexivity|].
      rewrite <- (IHq k). replace (k + S q * n)%nat with ((k + q * n) + n)%nat by lia.
      specialize (H (k + q * n)%nat). rewrite !sum_draw in H. apply lcg64_shift_out_inj in H; [exact H | apply wrap64_range | apply wrap64_range]. }
    assert (Dw : (W | Z.of_nat n)).
    { assert (E := P (Z.to_nat mm) 0%nat). rewrite Nat.add_0_l in E.
      replace (Z.of_nat (Z.to_nat mm * n)) with (0 + mm * Z.of_nat n) in E by (rewrite Nat2Z.inj_mul, Z2Nat.id by discriminate; lia).
      rewrite (proj2 (cp_shift 0 (mm * Z.of_nat n))) in E by (apply Z.divide_factor_l).
      change (Z.of_nat 0) with 0 in E.
      assert (E' : lp (0 + Z.to_nat mm * n) = lp 0).
      { rewrite Nat.add_0_l. apply (cong_eq W); [apply lp_word | apply lp_word |].
        apply (proj2 (cong_iff W _ _ ltac:(discriminate))) in E. destruct E as [q E]. exists q. lia. }
      apply (proj1 (lp_shift _ _)) in E'. rewrite Nat2Z.inj_mul, Z2Nat.id in E' by discriminate.
      apply Gauss in E'; [exact E' | exact coprime_Wm]. }
    assert (Dm : (mm | Z.of_nat n)).
    { assert (E := P 1%nat 0%nat). rewrite Nat.mul_1_l in E. rewrite (proj2 (lp_shift 0 n) Dw) in E. rewrite Nat2Z.inj_add in E.
      apply (proj1 (cp_shift (Z.of_nat 0) (Z.of_nat n))).
      assert (B1 := cp_range (Z.of_nat 0 + Z.of_nat n)). assert (B2 := cp_range (Z.of_nat 0)).
      apply (cong_eq W); [unfold W, mm in *; lia | unfold W, mm in *; lia |].
      apply (proj2 (cong_iff W _ _ ltac:(discriminate))) in E. destruct E as [q E]. exists q. lia. }
    destruct Dw as [q E]. rewrite E in Dm |- *. rewrite Z.mul_comm in Dm. apply Gauss in Dm; [|apply rel_prime_sym, coprime_Wm].
    rewrite (Z.mul_comm q). apply Z.mul_divide_mono_l. exact Dm.
  - intros D k. rewrite !sum_draw. rewrite (proj2 (lp_shift k n)) by (apply Z.divide_trans with (W * mm); [apply Z.divide_factor_l | exact D]).
    rewrite Nat2Z.inj_add, (proj2 (cp_shift (Z.of_nat k) (Z.of_nat n))) by (apply Z.divide_trans with (W * mm); [apply Z.divide_factor_r | exact D]).
    reflexivity.
Qed.

Lemma lp_at v : word 64 v -> exists k, lp k = v.
Proof.
  intros Hv. destruct (proj1 (proj2 (C04_lcg64_full_period (cs_lcg R) (proj1 K) A4 Bo)) v) as (k & (_ & E) & _); [exact Hv|].
  exists k. rewrite <- E. unfold draw. rewrite (after_step lcg64_next lcg64_step) by reflexivity.
  unfold lp. change (fst (lcg64_next (Nat.iter k lcg64_step (cs_lcg R)))) with (lcg_r (Nat.iter (S k) lcg64_step (cs_lcg R))).
  rewrite step_set. reflexivity.
Qed.
Lemma cp_at c : 0 <= c < mm -> exists k, cp k = c.
Proof.
  intros Hc. destruct (Zis_gcd_bezout (cs_inc R) mm 1) as [u v E].
  { rewrite <- G. apply Zgcd_is_gcd. }
  exists (u * (c - cs_count R) - 1). unfold cp. apply (cong_eq mm); [apply Z.mod_pos_bound; reflexivity | exact Hc |].
  rewrite cong_mod. exists (- v * (c - cs_count R)). nia.
Qed.
Lemma both_at v c : word 64 v -> 0 <= c < mm -> exists! n, 0 <= n < W * mm /\ lp (Z.to_nat n) = v /\ cp n = c.
Proof.
  intros Hv Hc. destruct (lp_at v Hv) as (k & Ek). destruct (cp_at c Hc) as (j & Ej).
  destruct (rel_prime_bezout _ _ coprime_Wm) as [u w E].
  assert (HP : 0 < W * mm) by reflexivity.
  set (n := (Z.of_nat k * (w * mm) + j * (u * W)) mod (W * mm)).
  assert (Hn : 0 <= n < W * mm) by (apply Z.mod_pos_bound; exact HP).
  assert (Cn : exists q, n = Z.of_nat k * (w * mm) + j * (u * W) + q * (W * mm)).
  { exists (- ((Z.of_nat k * (w * mm) + j * (u * W)) / (W * mm))). unfold n. rewrite Z.mod_eq by lia. ring. }
  destruct Cn as (q & Cn). clearbody n.
  assert (LP : forall x y : nat, (W | Z.of_nat y - Z.of_nat x) -> lp x = lp y).
  { intros x y D. destruct (Nat.le_ge_cases x y) as [L|L].
    - replace y with (x + (y - x))%nat by lia. symmetry. apply lp_shift. rewrite Nat2Z.inj_sub by exact L. exact D.
    - replace x with (y + (x - y))%nat by lia. apply lp_shift. rewrite Nat2Z.inj_sub by exact L. destruct D as [z D]. exists (- z). lia. }
  assert (LP' : forall x y : nat, lp x = lp y -> (W | Z.of_nat y - Z.of_nat x)).
  { intros x y D. destruct (Nat.le_ge_cases x y) as [L|L].
    - replace y with (x + (y - x))%nat in D by lia. symmetry in D. apply (proj1 (lp_shift _ _)) in D. rewrite Nat2Z.inj_sub in D by exact L. exact D.
    - replace x with (y + (x - y))%nat in D by lia. apply (proj1 (lp_shift _ _)) in D. rewrite Nat2Z.inj_sub in D by exact L. destruct D as [z D]. exists (- z). lia. }
  exists n. split; [split; [exact Hn|split]|].
  - rewrite <- Ek. apply LP. rewrite Z2Nat.id by apply Hn. exists (Z.of_nat k * u - j * u - q * mm). rewrite Cn.
    replace (w * mm) with (1 - u * W) by lia. ring.
  - rewrite <- Ej. replace n with (j + (n - j)) by lia. apply cp_shift. exists (Z.of_nat k * w - j * w + q * W). rewrite Cn.
    replace (u * W) with (1 - w * mm) by lia. ring.
  - intros n' (Hn' & L' & C').
    assert (D1 : (W | n' - n)).
    { assert (X := LP' (Z.to_nat n) (Z.to_nat n')). rewrite !Z2Nat.id in X by lia. apply X. rewrite L', <- Ek.
      symmetry. apply LP. rewrite Z2Nat.id by apply Hn. exists (j * u + q * mm - Z.of_nat k * u). rewrite Cn.
      replace (w * mm) with (1 - u * W) by lia. ring. }
    assert (D2 : (mm | n' - n)).
    { apply (proj1 (cp_shift n (n' - n))). replace (n + (n' - n)) with n' by lia. rewrite C', <- Ej.
      replace n with (j + (n - j)) by lia. symmetry. apply cp_shift. exists (Z.of_nat k * w - j * w + q * W). rewrite Cn.
      replace (u * W) with (1 - w * mm) by lia. ring. }
    destruct D1 as [z D1]. rewrite D1, Z.mul_comm in D2. apply Gauss in D2; [|apply rel_prime_sym, coprime_Wm].
    destruct D2 as [t D2]. assert (t = 0); [|subst t; lia]. subst z. clear - D1 Hn Hn' HP. nia.
Qed.
End Sum.

(** The draws have exactly the period of the state. *)
Theorem C94_count_shift_draw_period : forall R, lcs_ok R -> lcg_a (cs_lcg R) mod 4 = 1 ->
  Z.odd (lcg_b (cs_lcg R)) = true -> Z.gcd (cs_inc R) (2 ^ 61 - 1) = 1 ->
  draw_period cs_next R (2 ^ 64 * (2 ^ 61 - 1)).
Proof. intros R K A B G. exact (sum_period R K A B G). Qed.
Print Assumptions C94_count_shift_draw_period.

(** In a period every 64-bit value is drawn exactly once with every value of the counter. *)
Theorem C94_count_shift_equidistribution : forall R y c, lcs_ok R -> lcg_a (cs_lcg R) mod 4 = 1 ->
  Z.odd (lcg_b (cs_lcg R)) = true -> Z.gcd (cs_inc R) (2 ^ 61 - 1) = 1 -> word 64 y -> 0 <= c < 2 ^ 61 - 1 ->
  exists! n, 0 <= n < 2 ^ 64 * (2 ^ 61 - 1) /\ draw cs_next R (Z.to_nat n) = y /\
    cs_count (after cs_next (Z.to_nat n + 1) R) = c.
Proof.
  intros R y c K A B G Hy Hc.
  destruct (proj2 (C05_lcg64_count_shift_permutation c) y Hy) as (v & (Hv & Ev) & Uv).
  destruct (both_at R K A B G v c Hv Hc) as (n & (Hn & L & C) & U).
  assert (CC : forall n, 0 <= n -> cs_count (after cs_next (Z.to_nat n + 1) R) = (cs_count R + (n + 1) * cs_inc R) mod (2 ^ 61 - 1)).
  { intros i Hi. rewrite after_cs, cs_iter. cbn [cs_count]. rewrite iter_addmod by apply K. unfold cnt.
    rewrite Nat2Z.inj_add, Z2Nat.id by exact Hi. reflexivity. }
  exists n. split.
  - split; [exact Hn|]. rewrite CC, cs_draw_sum, Z2Nat.id by (exact K || apply Hn).
    split; [|exact C]. rewrite L. change cs_modulus with (2 ^ 61 - 1). rewrite C. exact Ev.
  - intros n' (Hn' & D & Q). apply U. rewrite CC in Q by apply Hn'. split; [exact Hn'|]. split; [|exact Q].
    rewrite cs_draw_sum, Z2Nat.id in D by (exact K || apply Hn'). change cs_modulus with (2 ^ 61 - 1) in D. rewrite Q in D.
    symmetry. apply Uv. split; [apply lcg_aff_iter_range, K | exact D].
Qed.
Print Assumptions C94_count_shift_equidistribution.

Theorem C94_count_shift_predefined : forall a b inc r count, In (a, b, inc) cs_params ->
  word 64 r -> 0 <= count < 2 ^ 61 - 1 ->
  draw_period cs_next (Lcs (Lcg64 a b r) inc count) (2 ^ 64 * (2 ^ 61 - 1)).
Proof.
  intros a b inc r count Hin Hr Hc.
  assert (P : word 64 a /\ word 64 b /\ 0 <= inc < cs_modulus /\ a mod 4 = 1 /\ Z.odd b = true /\ Z.gcd inc (2 ^ 61 - 1) = 1).
  { repeat destruct Hin as [E|Hin]; try (injection E as <- <- <-; repeat split; (discriminate || reflexivity)). destruct Hin. }
  apply C94_count_shift_draw_period; try apply P. split; [|split; [apply P | exact Hc]]. split; [apply P | split; [apply P | exact Hr]].
Qed.
Print Assumptions C94_count_shift_predefined.

(** The hypotheses hold for the example engines of Prop_CountShift, whose draws are not constant. *)
Example C94_case : c128_ok c128_ex /\ Z.odd (c_inc c128_ex) = true /\ Z.odd (c_a c128_ex) = true /\
  lcs_ok lcs_ex /\ lcg_a (cs_lcg lcs_ex) mod 4 = 1 /\ Z.odd (lcg_b (cs_lcg lcs_ex)) = true /\ Z.gcd (cs_inc lcs_ex) (2 ^ 61 - 1) = 1 /\
  draw (c128_next hi_native) c128_ex 0 <> draw (c128_next hi_native) c128_ex 1 /\ draw cs_next lcs_ex 0 <> draw cs_next lcs_ex 1.
Proof.
  split; [apply c128_ex_ok|]. split; [reflexivity|]. split; [reflexivity|]. split; [apply lcs_ex_ok|].
  repeat (split; [reflexivity|]). split; vm_compute; discriminate.
Qed.
