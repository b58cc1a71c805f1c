(** Properties C13-C16 and the mrg parts of C09, C17, C59, C60. *)
From Coq Require Import ZArith Znumtheory List Bool Arith Lia.
From Verif Require Import Base BaseFacts Cong Sums Spec SpecFacts IntMathModel GaussModel GaussProofs
  LinRec MrgModel MrgStepProofs MrgProofs MrgSplitProofs.
Import ListNotations.
Open Scope Z_scope.

(** ** Specification vocabulary *)

(** An engine of class [cl]: as many coefficients and state values as its order, all in [0,m). *)
Definition values_below (m : Z) (k : nat) (l : list Z) : Prop :=
  length l = k /\ Forall (fun x => 0 <= x < m) l.
Definition mrg_legal (cl : mrg_class) (R : mrg) : Prop :=
  values_below (mc_modulus cl) (mc_order cl) (mrg_a R) /\ values_below (mc_modulus cl) (mc_order cl) (mrg_r R).

(** a1*r1 + ... + ak*rk *)
Fixpoint sum_of_products (a r : list Z) : Z :=
  match a, r with x :: a', y :: r' => x * y + sum_of_products a' r' | _, _ => 0 end.

(** The draws n, n+s, n+2s, ... satisfy no linear relation of fewer than k+1 terms modulo m. *)
Definition no_shorter_recurrence (cl : mrg_class) (R : mrg) (s n : Z) : Prop :=
  forall d : nat -> Z,
    (forall i, sum (mc_order cl) (fun j => d j * draw (mrg_next cl) R ((i + j) * Z.to_nat s + Z.to_nat n)) mod mc_modulus cl = 0) ->
    forall j, (j < mc_order cl)%nat -> d j mod mc_modulus cl = 0.

Lemma values_inr m k l : values_below m k l <-> inr m k l.
Proof.
  unfold values_below, inr. split; intros (L & H); (split; [exact L|]).
  - intros i Hi. rewrite Forall_forall in H. apply H, nth_In. lia.
  - apply Forall_forall. intros x Hx. apply (In_nth _ _ 0) in Hx. destruct Hx as (i & Hi & <-). apply H. lia.
Qed.
Lemma legal_ok cl R : mrg_legal cl R <-> mrg_ok cl R.
Proof. unfold mrg_legal, mrg_ok. rewrite !values_inr. reflexivity. Qed.

Lemma sum_of_products_dot a : forall r, length r = length a -> sum_of_products a r = dot a r.
Proof.
  unfold dot. induction a as [|x a IH]; intros [|y r] L; try discriminate L; [reflexivity|].
  cbn [sum_of_products length]. rewrite sum_shift. cbn [nth]. rewrite IH by (injection L; auto). reflexivity.
Qed.

(** ** C13: one draw *)
Theorem C13_mrg_step : forall cl R, In cl mrg_classes -> mrg_legal cl R ->
  let x := sum_of_products (mrg_a R) (mrg_r R) mod mc_modulus cl in
  mrg_next cl R = (x, Mrg (mrg_a R) (x :: removelast (mrg_r R))) /\
  0 <= x <= mc_modulus cl - 1 /\ mrg_legal cl (snd (mrg_next cl R)).
Proof.
  intros cl R Hcl L. apply legal_ok in L. cbv zeta. assert (G := m_pos cl Hcl).
  assert (E : sum_of_products (mrg_a R) (mrg_r R) = dot (mrg_a R) (mrg_r R)).
  { apply sum_of_products_dot. destruct L as ((L1 & _) & (L2 & _)). congruence. }
  rewrite E. split; [|split].
  - unfold mrg_next. cbv zeta. rewrite (step_nth0 cl Hcl R L). f_equal.
    assert (Es := step_eq cl Hcl R L). destruct (mrg_step cl R) as [a' r'] eqn:ER.
    assert (Ea : mrg_a (mrg_step cl R) = mrg_a R) by reflexivity. rewrite ER in Ea. cbn [mrg_a mrg_r] in *.
    rewrite Ea, Es. reflexivity.
  - assert (B := Z.mod_pos_bound (dot (mrg_a R) (mrg_r R)) (mc_modulus cl) ltac:(lia)). lia.
  - apply legal_ok. apply (step_okR cl Hcl R L).
Qed.
Print Assumptions C13_mrg_step.

(** The intermediate values fit in uint64_t: sums of up to four products for orders 2, 3, 4, and for
    order 5 also the sum completed after the conditional subtraction of 2m^2. *)
Theorem C13_mrg_no_overflow : forall cl R, In cl mrg_classes -> mrg_legal cl R ->
  (forall i, (i <= 4)%nat -> 0 <= sum_of_products (firstn i (mrg_a R)) (firstn i (mrg_r R)) < 2 ^ 64) /\
  (forall a4 r4, 0 <= a4 < mc_modulus cl -> 0 <= r4 < mc_modulus cl ->
    let t := sum_of_products (firstn 4 (mrg_a R)) (firstn 4 (mrg_r R)) in
    let m2 := 2 * mc_modulus cl * mc_modulus cl in
    (t >= m2 -> 0 <= t - m2 + a4 * r4 < 2 ^ 64) /\ (t < m2 -> t + a4 * r4 < 2 ^ 64)).
Proof.
  intros cl R Hcl ((La & Ha) & (Lr & Hr)). assert (Hp := class_prime cl Hcl). assert (H31 := class_m31 cl Hcl).
  assert (G := m_pos cl Hcl).
  assert (S62 := sq_bound (mc_modulus cl) Hp H31). assert (PB := prod_bound (mc_modulus cl)).
  set (q := (mc_modulus cl - 1) ^ 2) in *.
  assert (K : forall i a r, Forall (fun x => 0 <= x < mc_modulus cl) a -> Forall (fun x => 0 <= x < mc_modulus cl) r ->
             0 <= sum_of_products (firstn i a) (firstn i r) <= Z.of_nat i * q).
  { assert (Q0 : 0 <= q) by (unfold q; apply Z.pow_nonneg; lia).
    induction i; intros a r Fa Fr; [cbn; lia|]. rewrite Nat2Z.inj_succ, Z.mul_succ_l.
    assert (I0 : 0 <= Z.of_nat i * q) by (apply Z.mul_nonneg_nonneg; lia).
    destruct Fa as [|x a Hx Fa]; [cbn [firstn sum_of_products]; lia|].
    destruct Fr as [|y r Hy Fr]; [cbn [firstn sum_of_products]; lia|].
    cbn [firstn sum_of_products]. assert (P := PB x y Hx Hy). specialize (IHi a r Fa Fr). lia. }
  split.
  - intros i Hi. specialize (K i _ _ Ha Hr). assert (Z.of_nat i * q <= 4 * q); [|lia].
    apply Z.mul_le_mono_nonneg_r; [unfold q; apply Z.pow_nonneg; lia | lia].
  - intros a4 r4 A4 R4. cbv zeta. specialize (K 4%nat _ _ Ha Hr). assert (P := PB a4 r4 A4 R4).
    assert (Eq : q = mc_modulus cl * mc_modulus cl - 2 * mc_modulus cl + 1) by (unfold q; ring).
    set (t := sum_of_products _ _) in *. replace (2 * mc_modulus cl * mc_modulus cl) with (2 * (mc_modulus cl * mc_modulus cl)) by ring.
    split; lia.
Qed.
Print Assumptions C13_mrg_no_overflow.

Example C13_case : mrg_next mrg5_class (Mrg [2147483646;2147483646;2147483646;2147483646;2147483646]
                                            [2147483646;2147483646;2147483646;2147483646;2147483646]) =
  (5, Mrg [2147483646;2147483646;2147483646;2147483646;2147483646] [5;2147483646;2147483646;2147483646;2147483646]).
Proof. vm_compute. reflexivity. Qed.

(** ** C14 *)
Theorem C14_mrg_jump : forall cl R s, In cl mrg_classes -> mrg_legal cl R -> word 64 s ->
  mrg_jump cl R s = after (mrg_next cl) (Z.to_nat s) R /\
  mrg_discard cl R s = after (mrg_next cl) (Z.to_nat s) R /\ mrg_legal cl (mrg_jump cl R s).
Proof.
  intros cl R s Hcl L Hs. apply legal_ok in L. unfold mrg_discard. rewrite (after_mrg cl).
  rewrite (jump_steps cl Hcl R s L Hs). split; [reflexivity|]. split; [reflexivity|].
  apply legal_ok, (st_ok cl Hcl), L.
Qed.
Print Assumptions C14_mrg_jump.

Definition mrg3_ex : mrg := Mrg [2021422057; 1826992351; 1977753457] [123456; 2147483646; 0].
Lemma mrg3_ex_legal : mrg_legal mrg3_class mrg3_ex.
Proof. split; (split; [reflexivity|]); repeat constructor; cbn; lia. Qed.

Example C14_case : mrg_legal mrg3_class mrg3_ex /\ mrg_jump mrg3_class mrg3_ex 21 = after (mrg_next mrg3_class) 21 mrg3_ex.
Proof. split; [exact mrg3_ex_legal | vm_compute; reflexivity]. Qed.

(** ** C15 *)
Theorem C15_mrg_jump2 : forall cl R s, In cl mrg_classes -> mrg_legal cl R -> word 32 s ->
  mrg_jump2 cl R s = after (mrg_next cl) (Z.to_nat (2 ^ s)) R /\ mrg_legal cl (mrg_jump2 cl R s).
Proof.
  intros cl R s Hcl L Hs. apply legal_ok in L. rewrite (after_mrg cl).
  rewrite (jump2_steps cl Hcl R s L ltac:(unfold word in Hs; lia)). split; [reflexivity|].
  apply legal_ok, (st_ok cl Hcl), L.
Qed.
Print Assumptions C15_mrg_jump2.

Example C15_case : mrg_jump2 mrg3_class mrg3_ex 5 = after (mrg_next mrg3_class) 32 mrg3_ex.
Proof. vm_compute; reflexivity. Qed.

(** ** C16 *)

(** Orders 2, 3 and 4: all legal coefficients (zero or not), all legal states. *)
Theorem C16_mrg_leapfrog : forall cl R s n, In cl [mrg2_class; mrg3_class; mrg3s_class; mrg4_class] ->
  mrg_legal cl R -> 1 <= s < 2 ^ 32 -> 0 <= n < s ->
  exists R', mrg_split cl R s n = Returns R' /\ mrg_legal cl R' /\ leapfrog (mrg_next cl) R R' s n.
Proof.
  intros cl R s n Hc L Hs Hn. apply legal_ok in L.
  assert (Hcl : In cl mrg_classes) by (cbn [In mrg_classes] in *; tauto).
  assert (K : (mc_order cl < 5)%nat).
  { cbn [In] in Hc. repeat destruct Hc as [<-|Hc]; try contradiction; cbn; lia. }
  destruct (split_full cl R s n Hcl L Hs Hn) as (R' & E & O & F & _). exists R'.
  split; [exact E|]. split; [apply legal_ok, O | apply F; left; exact K].
Qed.
Print Assumptions C16_mrg_leapfrog.

(** All orders: split returns a legal engine, and it leapfrogs if its last coefficient is not zero. *)
Theorem C16_mrg_leapfrog_coefficient : forall cl R s n, In cl mrg_classes ->
  mrg_legal cl R -> 1 <= s < 2 ^ 32 -> 0 <= n < s ->
  exists R', mrg_split cl R s n = Returns R' /\ mrg_legal cl R' /\
    (last (mrg_a R') 0 <> 0 -> leapfrog (mrg_next cl) R R' s n).
Proof.
  intros cl R s n Hcl L Hs Hn. apply legal_ok in L.
  destruct (split_full cl R s n Hcl L Hs Hn) as (R' & E & O & F & _). exists R'.
  split; [exact E|]. split; [apply legal_ok, O|]. intros N. apply F. right. left.
  assert (LR := proj1 (proj1 O)). rewrite <- LR.
  destruct (mrg_a R') as [|x l] eqn:El; [exact N|]. clear -N. revert N. revert x.
  induction l as [|y l IH]; intros x N; [exact N|].
  replace (length (x :: y :: l) - 1)%nat with (S (length (y :: l) - 1)) by (cbn; lia).
  cbn [nth]. apply IH. exact N.
Qed.
Print Assumptions C16_mrg_leapfrog_coefficient.

(** All orders: split is right whenever the decimated draws satisfy no shorter recurrence. *)
Theorem C16_mrg_leapfrog_full_order : forall cl R s n, In cl mrg_classes ->
  mrg_legal cl R -> 1 <= s < 2 ^ 32 -> 0 <= n < s -> no_shorter_recurrence cl R s n ->
  exists R', mrg_split cl R s n = Returns R' /\ mrg_legal cl R' /\ leapfrog (mrg_next cl) R R' s n.
Proof.
  intros cl R s n Hcl L Hs Hn NS. apply legal_ok in L. assert (G := m_pos cl Hcl).
  destruct (split_full cl R s n Hcl L Hs Hn) as (R' & E & O & F & Rc). exists R'.
  split; [exact E|]. split; [apply legal_ok, O|]. apply F. right.
  destruct Rc as [->|Rc]; [right; reflexivity|]. left.
  apply (last_coefficient cl Hcl R s n (mrg_a R') L (proj1 O) Rc).
  intros d Hd j Hj. apply cong_iff; [lia|]. rewrite Z.mod_0_l by lia. apply (NS d); [|exact Hj].
  intros i. specialize (Hd i). apply cong_iff in Hd; [|lia]. rewrite Z.mod_0_l in Hd by lia. rewrite <- Hd.
  f_equal. apply sum_ext. intros l Hl. rewrite (yseq_draw cl Hcl R s n (i + l) L). reflexivity.
Qed.
Print Assumptions C16_mrg_leapfrog_full_order.

(** Without a condition mrg5 and mrg5s are wrong: backward() shifts by one position when the last
    coefficient is zero. *)
Definition mrg5_bad (cl : mrg_class) : mrg := Mrg [0; 1; 1; 0; mc_modulus cl - 1] [1; 2; 1; 2; 1].
Theorem C16_mrg5_leapfrog_refuted : forall cl, In cl [mrg5_class; mrg5s_class] ->
  exists R s n R', mrg_legal cl R /\ last (mrg_a R) 0 <> 0 /\ 1 <= s < 2 ^ 32 /\ 0 <= n < s /\
    mrg_split cl R s n = Returns R' /\ ~ leapfrog (mrg_next cl) R R' s n.
Proof.
  intros cl Hc. exists (mrg5_bad cl), 3, 0, (Mrg [0; 1; 0; 0; 0] [2; 1; 2; 2; 1]).
  cbn [In] in Hc. destruct Hc as [<-|[<-|[]]].
  - split; [split; (split; [reflexivity|]); repeat constructor; cbn; lia|].
    split; [discriminate|]. split; [lia|]. split; [lia|]. split; [vm_compute; reflexivity|].
    intros H. specialize (H 0%nat). vm_compute in H. discriminate H.
  - split; [split; (split; [reflexivity|]); repeat constructor; cbn; lia|].
    split; [discriminate|]. split; [lia|]. split; [lia|]. split; [vm_compute; reflexivity|].
    intros H. specialize (H 0%nat). vm_compute in H. discriminate H.
Qed.
Print Assumptions C16_mrg5_leapfrog_refuted.

Theorem C16_mrg_split_throws : forall cl R s n, word 32 s -> word 32 n ->
  (mrg_split cl R s n = Throws <-> s < 1 \/ n >= s).
Proof.
  intros cl R s n Hs Hn. unfold mrg_split.
  destruct (Z.ltb_spec s 1); cbn [orb]; [split; [intros; lia | reflexivity]|].
  destruct (Z.geb_spec n s); cbn [orb]; [split; [intros; lia | reflexivity]|].
  split; [|lia]. destruct (Z.gtb s 1); [|discriminate]. cbv zeta.
  destruct (gauss _ _ _ _); try discriminate. destruct (backwards _ _ _ _); discriminate.
Qed.
Print Assumptions C16_mrg_split_throws.

(** Coefficients (0,1): not invertible-looking, still right. *)
Example C16_case : let R := Mrg [0; 1] [7; 9] in
  mrg_legal mrg2_class R /\ mrg_split mrg2_class R 2 1 = Returns (Mrg [1; 0] [7; 7]) /\
  draw (mrg_next mrg2_class) (Mrg [1; 0] [7; 7]) 5 = draw (mrg_next mrg2_class) R 11.
Proof.
  split; [split; (split; [reflexivity|]); repeat constructor; cbn; lia|].
  split; vm_compute; reflexivity.
Qed.
Example C16_case_mrg5 : let R := Mrg [107374182; 0; 0; 0; 104480] [1; 2; 3; 4; 5] in
  match mrg_split mrg5_class R 4 2 with
  | Returns R' => last (mrg_a R') 0 <> 0 /\ draw (mrg_next mrg5_class) R' 3 = draw (mrg_next mrg5_class) R 14
  | _ => False
  end.
Proof. vm_compute. split; [discriminate | reflexivity]. Qed.

(** ** C17 *)
Theorem C17_mrg_tiles : forall cl R s, In cl [mrg2_class; mrg3_class; mrg3s_class; mrg4_class] ->
  mrg_legal cl R -> 1 <= s < 2 ^ 32 ->
  exists streams, (forall n, 0 <= n < s -> mrg_split cl R s n = Returns (streams (Z.to_nat n))) /\
                  tiles (mrg_next cl) R (Z.to_nat s) streams.
Proof.
  intros cl R s Hc L Hs. apply (tiles_of_split (mrg_next cl) R s (mrg_split cl R s)); [lia|].
  intros n Hn. destruct (C16_mrg_leapfrog cl R s n Hc L Hs Hn) as (R' & E & _ & F). exists R'. split; assumption.
Qed.
Print Assumptions C17_mrg_tiles.

Theorem C17_mrg_tiles_full_order : forall cl R s, In cl mrg_classes ->
  mrg_legal cl R -> 1 <= s < 2 ^ 32 -> (forall n, 0 <= n < s -> no_shorter_recurrence cl R s n) ->
  exists streams, (forall n, 0 <= n < s -> mrg_split cl R s n = Returns (streams (Z.to_nat n))) /\
                  tiles (mrg_next cl) R (Z.to_nat s) streams.
Proof.
  intros cl R s Hc L Hs NS. apply (tiles_of_split (mrg_next cl) R s (mrg_split cl R s)); [lia|].
  intros n Hn. destruct (C16_mrg_leapfrog_full_order cl R s n Hc L Hs Hn (NS n Hn)) as (R' & E & _ & F).
  exists R'. split; assumption.
Qed.
Print Assumptions C17_mrg_tiles_full_order.

(** ** C60 *)
Theorem C60_mrg_jumps_compose : forall cl R s t, In cl mrg_classes -> mrg_legal cl R ->
  word 64 s -> word 64 t ->
  mrg_jump cl (mrg_jump cl R s) t = after (mrg_next cl) (Z.to_nat (s + t)) R /\
  (s + t < 2 ^ 64 -> mrg_jump cl (mrg_jump cl R s) t = mrg_jump cl R (s + t)).
Proof.
  intros cl R s t Hcl L Hs Ht. unfold word in *.
  assert (L1 := C14_mrg_jump cl R s Hcl L Hs). destruct L1 as (E1 & _ & L1).
  destruct (C14_mrg_jump cl _ t Hcl L1 Ht) as (E2 & _ & _).
  assert (E : mrg_jump cl (mrg_jump cl R s) t = after (mrg_next cl) (Z.to_nat (s + t)) R).
  { rewrite E2, E1, !(after_mrg cl), <- iter_add, Z2Nat.inj_add by lia. f_equal. lia. }
  split; [exact E|]. intros B. rewrite E. symmetry. apply (C14_mrg_jump cl R (s + t) Hcl L). unfold word. lia.
Qed.
Print Assumptions C60_mrg_jumps_compose.
Theorem C60_mrg_jump_draw : forall cl R s, In cl mrg_classes -> mrg_legal cl R -> word 64 s ->
  mrg_jump cl (snd (mrg_next cl R)) s = snd (mrg_next cl (mrg_jump cl R s)).
Proof.
  intros cl R s Hcl L Hs. assert (L1 : mrg_legal cl (snd (mrg_next cl R))) by (apply (C13_mrg_step cl R Hcl L)).
  rewrite (proj1 (C14_mrg_jump cl _ s Hcl L1 Hs)), (proj1 (C14_mrg_jump cl R s Hcl L Hs)).
  unfold after. rewrite <- (iter_S_r (fun R => snd (mrg_next cl R))). reflexivity.
Qed.
Print Assumptions C60_mrg_jump_draw.
Theorem C60_mrg_jump2_jump : forall cl R k, In cl mrg_classes -> mrg_legal cl R -> 0 <= k < 64 ->
  mrg_jump2 cl R k = mrg_jump cl R (2 ^ k).
Proof.
  intros cl R k Hcl L Hk. rewrite (proj1 (C15_mrg_jump2 cl R k Hcl L ltac:(unfold word; lia))).
  symmetry. apply (C14_mrg_jump cl R (2 ^ k) Hcl L).
  split; [apply Z.pow_nonneg; lia | apply Z.pow_lt_mono_r; lia].
Qed.
Print Assumptions C60_mrg_jump2_jump.

(** ** C09 *)
Lemma list_eqb_eq l : forall l', list_eqb l l' = true <-> l = l'.
Proof.
  induction l as [|x l IH]; intros [|y l']; cbn [list_eqb]; try (split; (reflexivity || discriminate)).
  rewrite andb_true_iff, Z.eqb_eq, IH. split; [intros (-> & ->); reflexivity | intros E; injection E as -> ->; tauto].
Qed.
Theorem C09_mrg_equal : forall cl R1 R2, mrg_eqb R1 R2 = true ->
  forall k, draw (mrg_next cl) R1 k = draw (mrg_next cl) R2 k.
Proof.
  intros cl [a1 r1] [a2 r2] E k. unfold mrg_eqb in E. cbn [mrg_a mrg_r] in E.
  rewrite andb_true_iff, !list_eqb_eq in E. destruct E as (-> & ->). reflexivity.
Qed.
Print Assumptions C09_mrg_equal.

(** Copies and engines advanced equally stay equal; engines in different states are unequal. *)
Theorem C09_mrg_eqb_iff : forall R1 R2, mrg_eqb R1 R2 = true <-> R1 = R2.
Proof.
  intros [a1 r1] [a2 r2]. unfold mrg_eqb. cbn [mrg_a mrg_r]. rewrite andb_true_iff, !list_eqb_eq.
  split; [intros (-> & ->); reflexivity | intros E; injection E as -> ->; tauto].
Qed.
Print Assumptions C09_mrg_eqb_iff.

(** ** C59 *)
Lemma rem_fix m s : 0 < m -> 0 <= (if Z.rem s m <? 0 then Z.rem s m + m else Z.rem s m) < m /\
  (if Z.rem s m <? 0 then Z.rem s m + m else Z.rem s m) = s mod m.
Proof.
  intros Hm.
  assert (Hb : - m < Z.rem s m < m).
  { destruct (Z.lt_ge_cases s 0).
    - assert (B := Z.rem_bound_neg_pos s m ltac:(lia) ltac:(lia)) || assert (B := Z.rem_bound_pos_neg s m).
      assert (E := Z.rem_opp_l s m ltac:(lia)). assert (B2 := Z.rem_bound_pos (- s) m ltac:(lia) Hm). lia.
    - assert (B2 := Z.rem_bound_pos s m ltac:(lia) Hm). lia. }
  assert (Q := Z.quot_rem s m ltac:(lia)).
  assert (Hr : 0 <= (if Z.rem s m <? 0 then Z.rem s m + m else Z.rem s m) < m)
    by (destruct (Z.ltb_spec (Z.rem s m) 0); lia).
  split; [exact Hr|]. apply (cong_eq m); [exact Hr | apply Z.mod_pos_bound; lia|].
  rewrite cong_mod. destruct (Z.ltb_spec (Z.rem s m) 0).
  - exists (1 - Z.quot s m). lia.
  - exists (- Z.quot s m). lia.
Qed.

Lemma legal_draws cl R : In cl mrg_classes -> mrg_legal cl R ->
  forall k, 0 <= draw (mrg_next cl) R k <= mc_modulus cl - 1.
Proof.
  intros Hcl L k. apply legal_ok in L. rewrite (draw_useq cl Hcl R k L). assert (B := useq_range cl Hcl R (k + mc_order cl) L). lia.
Qed.

Theorem C59_mrg_seed : forall cl R s, In cl mrg_classes -> mrg_legal cl R -> word 64 s ->
  mrg_legal cl (mrg_seed cl R s) /\ (exists x, In x (mrg_r (mrg_seed cl R s)) /\ x <> 0) /\
  (forall k, 0 <= draw (mrg_next cl) (mrg_seed cl R s) k <= mc_modulus cl - 1).
Proof.
  intros cl R s Hcl L Hs. assert (G := m_pos cl Hcl). assert (K := class_order cl Hcl).
  assert (L' : mrg_legal cl (mrg_seed cl R s)).
  { split; [apply L|]. unfold mrg_seed. cbv zeta. cbn [mrg_r]. split.
    - cbn [length]. rewrite repeat_length. lia.
    - constructor; [apply rem_fix; lia|]. apply Forall_forall. intros x Hx. apply repeat_spec in Hx. lia. }
  split; [exact L'|]. split; [|apply legal_draws; assumption].
  exists 1. split; [|lia]. unfold mrg_seed. cbv zeta. cbn [mrg_r]. right.
  cbn [mrg_classes In] in Hcl. repeat destruct Hcl as [<-|Hcl]; try (left; reflexivity). destruct Hcl.
Qed.
Print Assumptions C59_mrg_seed.

Theorem C59_mrg_seed_values : forall cl R l, In cl mrg_classes -> mrg_legal cl R -> length l = mc_order cl ->
  mrg_legal cl (mrg_seed_values cl R l) /\
  mrg_r (mrg_seed_values cl R l) = map (fun s => s mod mc_modulus cl) l /\
  (forall k, 0 <= draw (mrg_next cl) (mrg_seed_values cl R l) k <= mc_modulus cl - 1).
Proof.
  intros cl R l Hcl L Ll. assert (G := m_pos cl Hcl).
  assert (E : mrg_r (mrg_seed_values cl R l) = map (fun s => s mod mc_modulus cl) l).
  { unfold mrg_seed_values. cbn [mrg_r]. apply map_ext. intros s. apply rem_fix. lia. }
  assert (L' : mrg_legal cl (mrg_seed_values cl R l)).
  { split; [apply L|]. rewrite E. split; [rewrite map_length; exact Ll|].
    apply Forall_forall. intros x Hx. apply in_map_iff in Hx. destruct Hx as (s & <- & _). apply Z.mod_pos_bound. lia. }
  split; [exact L'|]. split; [exact E|]. apply legal_draws; assumption.
Qed.
Print Assumptions C59_mrg_seed_values.

Theorem C59_mrg_seed_gen : forall cl R l, In cl mrg_classes -> mrg_legal cl R -> length l = mc_order cl ->
  mrg_legal cl (mrg_seed_gen cl R l) /\
  (forall k, 0 <= draw (mrg_next cl) (mrg_seed_gen cl R l) k <= mc_modulus cl - 1).
Proof.
  intros cl R l Hcl L Ll. assert (G := m_pos cl Hcl).
  assert (L' : mrg_legal cl (mrg_seed_gen cl R l)).
  { split; [apply L|]. unfold mrg_seed_gen. cbn [mrg_r]. split; [rewrite map_length; exact Ll|].
    apply Forall_forall. intros x Hx. apply in_map_iff in Hx. destruct Hx as (s & <- & _). apply Z.mod_pos_bound. lia. }
  split; [exact L'|]. apply legal_draws; assumption.
Qed.
Print Assumptions C59_mrg_seed_gen.

(** The predefined parameters are legal. *)
Theorem C59_mrg_params_legal : forall cl a, In (cl, a) mrg_params -> values_below (mc_modulus cl) (mc_order cl) a.
Proof.
  intros cl a H. cbn [mrg_params In] in H.
  repeat destruct H as [H|H]; try contradiction; injection H as <- <-;
    (split; [reflexivity|]; repeat constructor; cbn; lia).
Qed.
Print Assumptions C59_mrg_params_legal.

Example C59_mrg_case : mrg_seed mrg2_class (Mrg [46325; 1084587] [0; 1]) (2 ^ 64 - 1) =
  Mrg [46325; 1084587] [2147483646; 1].
Proof. vm_compute. reflexivity. Qed.
