(** Proofs about the lcg64_count_shift model. *)
From Coq Require Import ZArith Znumtheory List Bool Lia Arith Setoid Morphisms.
From Verif Require Import Base BaseFacts Cong Spec SpecFacts Lcg64Model Lcg64Proofs CountShiftModel.
Open Scope Z_scope.

Local Notation m := cs_modulus.
Local Notation "x == y" := (cong m x y) (at level 70).

Lemma m_val : m = 2 ^ 61 - 1. Proof. reflexivity. Qed.
Lemma m_bounds : 2 < m /\ 8 * m < 2 ^ 64. Proof. split; reflexivity. Qed.
Global Opaque cs_modulus.

Lemma cs_addmod_spec x y : 0 <= x < m -> 0 <= y < m -> cs_addmod x y = (x + y) mod m.
Proof.
  intros Hx Hy. assert (B := m_bounds). unfold cs_addmod.
  rewrite wrap64_small by lia. destruct (Z.geb_spec (x + y) m) as [G|L].
  - rewrite wrap64_small by lia. apply Z.mod_unique with (q := 1); lia.
  - symmetry. apply Z.mod_small. lia.
Qed.

Lemma cs_addmod_range x y : 0 <= x < m -> 0 <= y < m -> 0 <= cs_addmod x y < m.
Proof.
  intros Hx Hy. rewrite cs_addmod_spec by assumption. apply Z.mod_pos_bound. apply (Z.lt_trans _ 2); [lia | apply m_bounds].
Qed.
Lemma cs_addmod_cong x y : 0 <= x < m -> 0 <= y < m -> cs_addmod x y == x + y.
Proof. intros. rewrite cs_addmod_spec by assumption. apply cong_mod. Qed.

(** ** mult_modulo *)
Lemma mult_modulo_loop_spec fuel : forall a x result,
  0 <= a < 2 ^ Z.of_nat fuel -> 0 <= x < m -> 0 <= result < m ->
  0 <= mult_modulo_loop fuel a x result < m /\ mult_modulo_loop fuel a x result == result + a * x.
Proof.
  induction fuel; intros a x result Ha Hx Hr.
  - replace a with 0 by (simpl in Ha; lia). cbn [mult_modulo_loop]. split; [lia|].
    rewrite Z.mul_0_l, Z.add_0_r. reflexivity.
  - cbn [mult_modulo_loop]. destruct (Z.gtb_spec a 0) as [P|P].
    + rewrite Nat2Z.inj_succ, Z.pow_succ_r in Ha by lia.
      assert (Hd := Z.div_mod a 2 ltac:(lia)).
      change (Z.land a 1) with (Z.land a (Z.ones 1)). rewrite Z.land_ones by lia.
      change (2 ^ 1) with 2. rewrite Z.shiftr_div_pow2 by lia. change (2 ^ 1) with 2.
      assert (Hm := Z.mod_pos_bound a 2 ltac:(lia)).
      destruct (IHfuel (a / 2) (cs_addmod x x)
        (if a mod 2 =? 1 then cs_addmod result x else result)) as [R1 R2].
      * lia.
      * apply cs_addmod_range; assumption.
      * destruct (a mod 2 =? 1); [apply cs_addmod_range|]; assumption.
      * split; [exact R1|]. rewrite R2, (cs_addmod_cong x x) by assumption.
        destruct (Z.eqb_spec (a mod 2) 1) as [E|E].
        -- rewrite cs_addmod_cong by assumption. rewrite Hd at 2. rewrite E.
           replace (result + x + a / 2 * (x + x)) with (result + (2 * (a / 2) + 1) * x) by ring.
           reflexivity.
        -- rewrite Hd at 2. replace (a mod 2) with 0 by lia.
           replace (result + a / 2 * (x + x)) with (result + (2 * (a / 2) + 0) * x) by ring.
           reflexivity.
    + replace a with 0 by lia. split; [lia|]. rewrite Z.mul_0_l, Z.add_0_r. reflexivity.
Qed.

Lemma mult_modulo_spec a b : 0 <= a < m -> 0 <= b < m -> mult_modulo a b = (a * b) mod m.
Proof.
  intros Ha Hb. assert (B := m_bounds).
  assert (E : 0 <= mult_modulo a b < m /\ mult_modulo a b == a * b).
  { unfold mult_modulo. destruct (a >? b).
    - destruct (mult_modulo_loop_spec 64 b a 0) as [R1 R2]; try lia.
      split; [exact R1|]. rewrite R2, Z.mul_comm. reflexivity.
    - destruct (mult_modulo_loop_spec 64 a b 0) as [R1 R2]; try lia.
      split; [exact R1|]. rewrite R2. reflexivity. }
  apply (cong_eq m); [apply E | apply Z.mod_pos_bound; lia |].
  destruct E as [_ ->]. symmetry. apply cong_mod.
Qed.

(** ** Counting part *)
Definition cnt (inc n c : Z) : Z := (c + n * inc) mod m.

Lemma iter_addmod inc n c : 0 <= inc < m -> 0 <= c < m ->
  Nat.iter n (fun c => cs_addmod c inc) c = cnt inc (Z.of_nat n) c.
Proof.
  intros Hi Hc. assert (B := m_bounds).
  assert (H : 0 <= Nat.iter n (fun c => cs_addmod c inc) c < m /\
              Nat.iter n (fun c => cs_addmod c inc) c == c + Z.of_nat n * inc).
  { induction n; cbn [Nat.iter nat_rect].
    - split; [exact Hc|]. rewrite Z.mul_0_l, Z.add_0_r. reflexivity.
    - unfold Nat.iter in IHn. destruct IHn as [R E]. split; [apply cs_addmod_range; assumption|].
      rewrite cs_addmod_cong, E by assumption. rewrite Nat2Z.inj_succ.
      replace (c + Z.of_nat n * inc + inc) with (c + Z.succ (Z.of_nat n) * inc) by ring. reflexivity. }
  apply (cong_eq m); [apply H | apply Z.mod_pos_bound; lia |].
  destruct H as [_ ->]. symmetry. apply cong_mod.
Qed.

Lemma cs_iter n R :
  Nat.iter n cs_step R = Lcs (Nat.iter n lcg64_step (cs_lcg R)) (cs_inc R)
                             (Nat.iter n (fun c => cs_addmod c (cs_inc R)) (cs_count R)).
Proof.
  induction n; cbn [Nat.iter nat_rect]; [destruct R; reflexivity|].
  unfold Nat.iter in IHn. rewrite IHn. reflexivity.
Qed.

Lemma cs_steps_char R n L c : lcs_ok R ->
  L = Nat.iter n lcg64_step (cs_lcg R) -> c = cnt (cs_inc R) (Z.of_nat n) (cs_count R) ->
  Lcs L (cs_inc R) c = Nat.iter n cs_step R.
Proof. intros (_ & Hi & Hc) -> ->. rewrite cs_iter, iter_addmod by assumption. reflexivity. Qed.

Lemma cs_step_ok R : lcs_ok R -> lcs_ok (cs_step R).
Proof.
  intros ((Ha & Hb & Hr) & Hi & Hc). split; [|split; [exact Hi | apply cs_addmod_range; assumption]].
  split; [exact Ha|]. split; [exact Hb | apply step_r_range].
Qed.

Lemma cs_iter_ok n R : lcs_ok R -> lcs_ok (Nat.iter n cs_step R).
Proof. intros H. apply iter_inv; [apply cs_step_ok | exact H]. Qed.

Lemma addmod_mult inc n c : 0 <= inc < m -> 0 <= c < m -> 0 <= n ->
  cs_addmod c ((n * inc) mod m) = cnt inc n c.
Proof.
  intros Hi Hc Hn. assert (B := m_bounds).
  rewrite cs_addmod_spec by (try assumption; apply Z.mod_pos_bound; lia).
  apply mod_cong; [lia|]. rewrite cong_mod. reflexivity.
Qed.

(** ** jump, jump2 *)
Lemma cs_jump_steps R s : lcs_ok R -> 0 <= s < m ->
  cs_jump R s = Some (Nat.iter (Z.to_nat s) cs_step R).
Proof.
  intros HR Hs. assert (B := m_bounds). unfold cs_jump. destruct (s <? 16); [reflexivity|].
  assert (HR' := HR). destruct HR' as ((Ha & Hb & Hr) & Hi & Hc).
  rewrite jump_loop_steps; try assumption; try lia.
  f_equal. apply cs_steps_char.
  - exact HR.
  - rewrite Z.mul_1_r. reflexivity.
  - rewrite mult_modulo_spec, Z.mul_comm, Z2Nat.id by lia. apply addmod_mult; lia.
Qed.

Lemma iter_double n : Nat.iter n (mult_modulo 2) 1 = 2 ^ Z.of_nat n mod m.
Proof.
  assert (B := m_bounds). induction n; [symmetry; apply Z.mod_small; cbn; lia|].
  cbn [Nat.iter nat_rect]. unfold Nat.iter in IHn. rewrite IHn.
  rewrite mult_modulo_spec by (try apply Z.mod_pos_bound; lia).
  rewrite Z.mul_mod_idemp_r, Nat2Z.inj_succ, Z.pow_succ_r by lia. reflexivity.
Qed.

Lemma cs_jump2_steps R s : lcs_ok R -> 0 <= s < 64 ->
  cs_jump2 R s = Some (Nat.iter (Z.to_nat (2 ^ s)) cs_step R).
Proof.
  intros HR Hs. assert (B := m_bounds). unfold cs_jump2.
  assert (HR' := HR). destruct HR' as ((Ha & Hb & Hr) & Hi & Hc).
  rewrite lcg64_jump2_steps by assumption. f_equal.
  apply cs_steps_char; [exact HR | reflexivity |].
  assert (0 <= 2 ^ s) by (apply Z.pow_nonneg; lia).
  rewrite iter_double, !Z2Nat.id by lia.
  rewrite mult_modulo_spec, Z.mul_mod_idemp_l by (try apply Z.mod_pos_bound; lia).
  apply addmod_mult; lia.
Qed.

(** ** split *)
Lemma addmod_back inc c : 0 <= inc < m -> 0 <= c < m ->
  cs_addmod (cs_addmod c (wrap64 (m - inc))) inc = c.
Proof.
  intros Hi Hc. assert (B := m_bounds). rewrite wrap64_small by lia.
  assert (E : cs_addmod c (m - inc) = (c - inc) mod m).
  { destruct (Z.eq_dec inc 0) as [->|N].
    - unfold cs_addmod. rewrite !Z.sub_0_r, (wrap64_small (c + m)) by lia.
      destruct (Z.geb_spec (c + m) m); [|lia].
      rewrite wrap64_small by lia. replace (c + m - m) with c by lia. symmetry. apply Z.mod_small. lia.
    - rewrite cs_addmod_spec by lia. apply mod_cong; [lia|]. exists 1. lia. }
  rewrite E, cs_addmod_spec by (try apply Z.mod_pos_bound; lia).
  rewrite Z.add_mod_idemp_l by lia. replace (c - inc + inc) with c by lia. apply Z.mod_small. lia.
Qed.

Lemma cs_out_inj r r' c : word 64 r -> word 64 r' -> cs_out r c = cs_out r' c -> r = r'.
Proof.
  intros Hr Hr' E. unfold cs_out in E. apply lcg64_shift_out_inj in E; try apply wrap64_range.
  apply (cong_eq (2 ^ 64)); try assumption.
  apply cong_iff in E; [|lia]. destruct E as [k E]. exists k. lia.
Qed.

(** Draw k of an engine in terms of the two parts. *)
Lemma cs_draw R k : draw cs_next R k =
  cs_out (lcg_r (Nat.iter (S k) lcg64_step (cs_lcg R)))
         (Nat.iter (S k) (fun c => cs_addmod c (cs_inc R)) (cs_count R)).
Proof.
  unfold draw. rewrite (after_step cs_next cs_step) by reflexivity. rewrite cs_iter. reflexivity.
Qed.

Lemma cs_split_leapfrog R s n : lcs_ok R -> Z.odd (lcg_a (cs_lcg R)) = true ->
  1 <= s < 2 ^ 32 -> 0 <= n < s ->
  exists R', cs_split R s n = Returns R' /\ leapfrog cs_next R R' s n.
Proof.
  intros HR Ho Hs Hn. assert (B := m_bounds). assert (Mb : 2 ^ 33 < m) by reflexivity.
  unfold cs_split.
  destruct (Z.ltb_spec s 1); [lia|]. destruct (Z.geb_spec n s); [lia|]. cbn [orb].
  destruct (Z.gtb_spec s 1).
  2:{ exists R; split; [reflexivity|]. intros k. f_equal. replace s with 1 by lia. lia. }
  rewrite (wrap64_small (n + 1)) by lia. rewrite cs_jump_steps by (try assumption; lia).
  set (R1 := Nat.iter (Z.to_nat (n + 1)) cs_step R).
  eexists; split; [reflexivity|]. intros k. rewrite !cs_draw.
  assert (HR1 : lcs_ok R1) by (apply cs_iter_ok; exact HR).
  assert (E1 : cs_lcg R1 = Nat.iter (Z.to_nat (n + 1)) lcg64_step (cs_lcg R)) by (unfold R1; rewrite cs_iter; reflexivity).
  assert (E2 : cs_inc R1 = cs_inc R) by (unfold R1; rewrite cs_iter; reflexivity).
  assert (E3 : cs_count R1 = cnt (cs_inc R) (n + 1) (cs_count R)).
  { unfold R1. rewrite cs_iter. cbn [cs_count]. rewrite iter_addmod, Z2Nat.id by (try apply HR; lia). reflexivity. }
  assert (Ea : lcg_a (cs_lcg R1) = lcg_a (cs_lcg R)) by (rewrite E1, step_set; reflexivity).
  unfold cs_backward. cbn [cs_lcg cs_inc cs_count]. f_equal.
  - (* LCG part *)
    rewrite iter_S_r, lcg64_backward_step; cycle 1.
    { cbn [lcg_a]. rewrite Ea. apply lcg64_pow_odd; [assumption | unfold word; lia | lia]. }
    { apply HR1. }
    rewrite steps_of_split by (unfold word; try apply HR1; lia).
    rewrite E1, <- iter_add. f_equal. f_equal. lia.
  - (* counting part *)
    destruct HR as (_ & Hi & Hc). destruct HR1 as (_ & Hi1 & Hc1). rewrite E2 in *.
    assert (Hi' : 0 <= mult_modulo s (cs_inc R) < m).
    { rewrite mult_modulo_spec by lia. apply Z.mod_pos_bound; lia. }
    rewrite iter_S_r, addmod_back by assumption.
    rewrite !iter_addmod by assumption. rewrite E3, mult_modulo_spec by lia.
    unfold cnt. apply mod_cong; [lia|]. rewrite !cong_mod.
    replace (Z.of_nat (S (k * Z.to_nat s + Z.to_nat n))) with (Z.of_nat k * s + n + 1) by lia.
    replace (cs_count R + (n + 1) * cs_inc R + Z.of_nat k * (s * cs_inc R))
       with (cs_count R + (Z.of_nat k * s + n + 1) * cs_inc R) by ring.
    reflexivity.
Qed.

(** ** Large jumps are wrong *)
Lemma cs_jump_4m_count : cs_addmod 0 (mult_modulo 1 (4 * m)) = 2 * m.
Proof. vm_compute. reflexivity. Qed.
Lemma m_16 : (4 * m <? 16) = false. Proof. vm_compute. reflexivity. Qed.
Lemma cnt_2m : cs_addmod (2 * m) 1 = m + 1. Proof. vm_compute. reflexivity. Qed.
Lemma cnt_1 : cnt 1 (4 * m + 1) 0 = 1. Proof. vm_compute. reflexivity. Qed.

Lemma cs_jump_4m : exists R', cs_jump (Lcs (Lcg64 1 0 0) 1 0) (4 * m) = Some R' /\
  draw cs_next R' 0 <> draw cs_next (Lcs (Lcg64 1 0 0) 1 0) (Z.to_nat (4 * m)).
Proof.
  assert (B := m_bounds). unfold cs_jump. rewrite m_16. cbn [cs_lcg cs_inc cs_count].
  rewrite jump_loop_steps; try lia; [|split; [reflexivity|reflexivity]].
  rewrite cs_jump_4m_count, Z.mul_1_r.
  assert (HN : Z.of_nat (Z.to_nat (4 * m)) = 4 * m) by lia.
  generalize dependent (Z.to_nat (4 * m)). intros N HN.
  eexists; split; [reflexivity|].
  rewrite !cs_draw. cbn [cs_lcg cs_inc cs_count].
  rewrite (iter_addmod 1 (S N)) by lia.
  change (Nat.iter 1 (fun c => cs_addmod c 1) (2 * m)) with (cs_addmod (2 * m) 1). rewrite cnt_2m.
  replace (Z.of_nat (S N)) with (4 * m + 1) by lia. rewrite cnt_1.
  rewrite <- iter_add. change (1 + N)%nat with (S N).
  set (x := lcg_r _). assert (Hx : word 64 x) by (apply iter_r_range; split; reflexivity). clearbody x.
  intros E. unfold cs_out in E. apply lcg64_shift_out_inj in E; try apply wrap64_range.
  apply cong_iff in E; [|lia]. destruct E as [k E]. nia.
Qed.

(** ** Equality, output *)
Lemma lcs_eqb_eq R1 R2 : lcs_eqb R1 R2 = true -> R1 = R2.
Proof.
  destruct R1 as [[a b r] i c], R2 as [[a' b' r'] i' c']. unfold lcs_eqb, lcg64_eqb.
  cbn [cs_lcg cs_inc cs_count lcg_a lcg_b lcg_r]. rewrite !andb_true_iff, !Z.eqb_eq.
  intros [[[[-> ->] ->] ->] ->]. reflexivity.
Qed.

(** ** State period *)
Lemma geo_div_exact a n : a mod 4 = 1 -> (2 ^ 64 | geo a n) -> (2 ^ 64 | Z.of_nat n).
Proof.
  intros Ha D. destruct (Nat.eq_dec n 0) as [->|N0]; [exists 0; reflexivity|].
  destruct (nat_2adic n) as (k & q & -> & Hq); [lia|].
  rewrite geo_mul in D.
  assert (Oa : Z.odd a = true).
  { rewrite (Z.div_mod a 4), Ha, Z.odd_add, Z.odd_mul by lia. reflexivity. }
  apply (odd_div_pow2 64) in D.
  - destruct (geo_2pow_exact a k Ha) as (t & E & Ht). rewrite E in D.
    apply (odd_div_pow2 64) in D; [|exact Ht].
    rewrite Nat2Z.inj_mul, Nat2Z.inj_pow. apply Z.divide_mul_r. exact D.
  - apply geo_odd; [|exact Hq].
    assert (2 ^ k <> 0)%nat by (apply Nat.pow_nonzero; lia).
    rewrite Z.odd_pow by lia. exact Oa.
Qed.

Lemma lcg_iter_fix a b r n : a mod 4 = 1 -> Z.odd b = true -> word 64 r ->
  Nat.iter n (lcg_aff a b) r = r -> (2 ^ 64 | Z.of_nat n).
Proof.
  intros Ha Hb Hr E. apply (geo_div_exact a); [exact Ha|].
  assert (C : cong (2 ^ 64) (geo a n * ((a - 1) * r + b)) 0).
  { replace (geo a n * ((a - 1) * r + b)) with (((a - 1) * geo a n) * r + geo a n * b) by ring.
    rewrite geo_pow.
    replace ((a ^ Z.of_nat n - 1) * r + geo a n * b)
      with (a ^ Z.of_nat n * r + geo a n * b - r) by ring.
    rewrite <- lcg_aff_iter, E. rewrite Z.sub_diag. reflexivity. }
  apply (proj1 (cong_0 _ _)) in C. apply (odd_div_pow2 64) in C; [exact C|].
  assert (D := Z.div_mod a 4 ltac:(lia)). rewrite Ha in D.
  replace (a - 1) with (4 * (a / 4)) by lia.
  rewrite Z.odd_add, !Z.odd_mul, Hb. reflexivity.
Qed.

Lemma lcg_iter_fix_conv a b r q : Z.odd a = true -> word 64 r ->
  Nat.iter (q * Z.to_nat (2 ^ 64)) (lcg_aff a b) r = r.
Proof.
  intros Ha Hr. rewrite iter_mul. apply (iter_inv (fun x => x = r)); [|reflexivity].
  intros y ->. apply full_cycle; assumption.
Qed.

Lemma rel_prime_64_m : rel_prime (2 ^ 64) m.
Proof. apply Zgcd_1_rel_prime. vm_compute. reflexivity. Qed.

Lemma cs_state_period R n : lcs_ok R -> lcg_a (cs_lcg R) mod 4 = 1 ->
  Z.odd (lcg_b (cs_lcg R)) = true -> Z.gcd (cs_inc R) m = 1 ->
  Nat.iter n cs_step R = R <-> (2 ^ 64 * m | Z.of_nat n).
Proof.
  intros ((Ha & Hb & Hr) & Hi & Hc) Ha4 Hbo G. assert (B := m_bounds).
  rewrite cs_iter, iter_addmod, step_set by assumption. split.
  - intros E. assert (E1 := f_equal (fun R => lcg_r (cs_lcg R)) E). cbn in E1.
    assert (E2 := f_equal cs_count E). cbn in E2. clear E.
    apply lcg_iter_fix in E1; try assumption.
    assert (E3 : (m | Z.of_nat n)).
    { rewrite <- (Z.mod_small (cs_count R) m) in E2 at 2 by assumption. unfold cnt in E2.
      apply (proj2 (cong_iff m _ _ ltac:(lia))) in E2. destruct E2 as [q E2].
      apply Z.gauss with (cs_inc R); [exists q; lia|]. rewrite Z.gcd_comm. exact G. }
    destruct E1 as [q E1]. rewrite E1 in E3 |- *. rewrite Z.mul_comm in E3.
    apply Gauss in E3; [|apply rel_prime_sym, rel_prime_64_m].
    rewrite (Z.mul_comm q). apply Z.mul_divide_mono_l. exact E3.
  - intros [q E].
    assert (Oa : Z.odd (lcg_a (cs_lcg R)) = true).
    { rewrite (Z.div_mod (lcg_a (cs_lcg R)) 4), Ha4, Z.odd_add, Z.odd_mul by lia. reflexivity. }
    assert (En : n = (Z.to_nat (q * m) * Z.to_nat (2 ^ 64))%nat) by nia.
    assert (Ec : cnt (cs_inc R) (Z.of_nat n) (cs_count R) = cs_count R).
    { unfold cnt. rewrite E. replace (cs_count R + q * (2 ^ 64 * m) * cs_inc R)
        with (cs_count R + (q * 2 ^ 64 * cs_inc R) * m) by ring.
      rewrite Z.mod_add by lia. apply Z.mod_small. exact Hc. }
    rewrite Ec, En, lcg_iter_fix_conv by assumption. destruct R as [[? ? ?] ? ?]; reflexivity.
Qed.
