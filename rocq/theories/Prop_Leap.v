(** Leapfrog and tiling of the mrg and yarn engines with the predefined parameter sets (C16, C17, C20), without conditions on
    the state or the split. *)
From Coq Require Import ZArith Znumtheory List Bool Arith Lia.
From Verif Require Import Base BaseFacts Cong Sums Spec SpecFacts IntMathModel GaussModel MrgModel MrgStepProofs MrgProofs MrgSplitProofs
  Prop_Mrg Prop_Yarn Pratt Primes PolyAct FieldAct PeriodCerts PeriodProofs LeapProofs Prop_Period.
Import ListNotations.
Open Scope Z_scope.

(** ** Streams of zeros *)
Definition zero5 : list Z := [0; 0; 0; 0; 0].
Lemma back_zero cl a r' : (mc_order cl = 5)%nat -> In cl mrg_classes -> mc_backward cl (mc_modulus cl) a zero5 = Val r' -> r' = zero5.
Proof.
  intros K Hcl. assert (G := m_pos cl Hcl).
  assert (B : mc_backward cl = mrg5_backward).
  { cbn [mrg_classes In] in Hcl. repeat (destruct Hcl as [<-|Hcl]; [try discriminate K; reflexivity|]). contradiction. }
  rewrite B. clear B K Hcl. intros H. destruct a as [|a0 [|a1 [|a2 [|a3 [|a4 [|]]]]]]; try discriminate H.
  cbn [mrg5_backward zero5] in H.
  assert (T : forall x, back_term (mc_modulus cl) 0 x 0 = 0).
  { intros x. unfold back_term, subm. rewrite Z.mul_0_r, Z.rem_0_l by lia. reflexivity. }
  rewrite !T in H.
  assert (D : forall x z, back_div (mc_modulus cl) 0 x = Val z -> z = 0).
  { intros x z. unfold back_div. destruct (modulo_inverse x (mc_modulus cl)); try discriminate. intros E. injection E as <-. apply Z.rem_0_l. lia. }
  assert (Q : forall x, map_result (fun t : Z => [0; 0; 0; 0; t]) x = Val r' -> (forall z, x = Val z -> z = 0) -> r' = zero5).
  { intros x E Hx. destruct x; try discriminate E. injection E as <-. rewrite (Hx _ eq_refl). reflexivity. }
  apply (Q _ H). intros z.
  destruct (negb (a4 =? 0)); [apply D|]. destruct (negb (a3 =? 0)); [apply D|]. destruct (negb (a2 =? 0)); [apply D|].
  destruct (negb (a1 =? 0)); [apply D|]. destruct (negb (a0 =? 0)); [apply D|]. intros E. injection E as <-. reflexivity.
Qed.
Lemma backs_zero cl a : (mc_order cl = 5)%nat -> In cl mrg_classes -> forall c r', backwards cl c a zero5 = Val r' -> r' = zero5.
Proof.
  intros K Hcl. induction c as [|c IH]; intros r' H; cbn [backwards] in H; [injection H as <-; reflexivity|].
  destruct (mc_backward cl (mc_modulus cl) a zero5) as [r| | | |] eqn:E; try discriminate H.
  apply (back_zero cl a r K Hcl) in E. subst r. apply IH, H.
Qed.

Lemma zero_state cl R : In cl mrg_classes -> mrg_ok cl R -> (forall i, nth i (mrg_r R) 0 = 0) -> forall n, draw (mrg_next cl) R n = 0.
Proof.
  intros Hcl O Z n. assert (G := m_pos cl Hcl). assert (Ko := class_order cl Hcl).
  rewrite (draw_useq cl Hcl) by exact O. generalize (n + mc_order cl)%nat. clear n. intros j.
  induction j as [j IH] using lt_wf_ind. destruct (Nat.lt_ge_cases j (mc_order cl)) as [Hj|Hj].
  - assert (S0 := state_nth cl Hcl R 0 (mc_order cl - 1 - j) O ltac:(lia)).
    change (Nat.iter 0 (mrg_step cl) R) with R in S0. rewrite Z in S0.
    replace (0 + (mc_order cl - 1 - (mc_order cl - 1 - j)))%nat with j in S0 by lia. symmetry. exact S0.
  - assert (Q := useq_rec cl Hcl R O (j - mc_order cl)%nat). replace (j - mc_order cl + mc_order cl)%nat with j in Q by lia.
    rewrite sum_0 in Q; [|intros i Hi; rewrite IH by lia; ring].
    apply (cong_eq (mc_modulus cl)); [apply (useq_range cl Hcl), O | lia | exact Q].
Qed.

(** split of an engine that returns zeros only. *)
Lemma zero_split cl R s n : (mc_order cl = 5)%nat -> In cl mrg_classes -> mrg_legal cl R -> 1 <= s < 2 ^ 32 -> 0 <= n < s ->
  (forall i, draw (mrg_next cl) R i = 0) ->
  exists R', mrg_split cl R s n = Returns R' /\ mrg_legal cl R' /\ leapfrog (mrg_next cl) R R' s n.
Proof.
  intros K Hcl L Hs Hn Z. apply legal_ok in L.
  destruct (split_full cl R s n Hcl L Hs Hn) as (R' & E & O & F & _). exists R'. split; [exact E|]. split; [apply legal_ok, O|].
  destruct (Z.eq_dec s 1) as [E1|E1]; [apply F; right; right; exact E1|].
  destruct (split_unfold cl Hcl R s n L ltac:(lia) Hn) as (a' & _ & _ & E').
  assert (Y : map (fun i => yseq cl R s n (mc_order cl - 1 - i)) (seq 0 (mc_order cl)) = zero5).
  { rewrite K. cbn [seq map]. rewrite !(yseq_draw cl Hcl R s n _ L), !Z. reflexivity. }
  rewrite Y in E'. destruct (backwards cl (mc_order cl) a' zero5) as [r| | | |] eqn:B; rewrite E in E'; try discriminate E'.
  injection E' as ->. apply (backs_zero cl a' K Hcl) in B. subst r. intros i. rewrite Z.
  apply (zero_state cl _ Hcl O). intros j. cbn [mrg_r zero5]. do 6 (destruct j as [|j]; [reflexivity|]). reflexivity.
Qed.

(** ** Decimated draws of order five *)
Lemma five cl a : In (cl, a) mrg_params -> (mc_order cl = 5)%nat -> In cl mrg_classes /\
  exists e h q, In e period_certs /\ pe_m e = mc_modulus cl /\ pe_a e = a /\ 1 <= h <= 2 /\ Z.pos (pe_n e) * h = mc_modulus cl ^ 5 - 1 /\
    mc_modulus cl = Z.pos q /\ frob_ok q (rev a) = true.
Proof.
  intros H K. cbn [mrg_params In] in H.
  do 9 (destruct H as [E|H]; [injection E as <- <-; discriminate K|]).
  destruct H as [E|H]; [injection E as <- <-|].
  { split; [cbn [mrg_classes In]; tauto|]. exists pe_mrg5_1, 1, 2147483647%positive. split; [cbn [period_certs In]; tauto|].
    split; [reflexivity|]. split; [reflexivity|]. split; [lia|]. split; [vm_compute; reflexivity|]. split; [reflexivity | exact frob_mrg5_1]. }
  destruct H as [E|H]; [injection E as <- <-|].
  { split; [cbn [mrg_classes In]; tauto|]. exists pe_mrg5s_0, 2, 2147461007%positive. split; [cbn [period_certs In]; tauto|].
    split; [reflexivity|]. split; [reflexivity|]. split; [lia|]. split; [vm_compute; reflexivity|]. split; [reflexivity | exact frob_mrg5s_0]. }
  destruct H as [E|H]; [injection E as <- <-|contradiction].
  split; [cbn [mrg_classes In]; tauto|]. exists pe_mrg5s_1, 1, 2147461007%positive. split; [cbn [period_certs In]; tauto|].
  split; [reflexivity|]. split; [reflexivity|]. split; [lia|]. split; [vm_compute; reflexivity|]. split; [reflexivity | exact frob_mrg5s_1].
Qed.
Lemma large_modulus cl : In cl mrg_classes -> 2 ^ 30 < mc_modulus cl.
Proof. intros H. cbn [mrg_classes In] in H. repeat (destruct H as [<-|H]; [vm_compute; reflexivity|]). contradiction. Qed.

Lemma decimated cl a r S o R s n : In (cl, a) mrg_params -> (mc_order cl = 5)%nat -> some_state cl r ->
  leapfrog (mrg_next cl) (Mrg a r) R S o -> 1 <= S -> 1 <= s -> S * s < 2 ^ 64 -> no_shorter_recurrence cl R s n.
Proof.
  intros Hp K Hr LF H1 H2 H3.
  destruct (five cl a Hp K) as (Hcl & e & h & q & He & Em & Ea & Hh & HN & Eq & Fr).
  destruct (state_ok cl a r Hp Hr) as (L & NZ). apply legal_ok in L.
  assert (X : forall w, frec (mc_modulus cl) (rev (mrg_a (Mrg a r))) w -> nonzero (mc_modulus cl) w ->
              forall n, per (mc_modulus cl) w n <-> 0 <= n /\ (Z.pos (pe_n e) | n)).
  { cbn [mrg_a]. intros w. rewrite <- Em, <- Ea. apply period_certs_exact, He. }
  assert (La : length (rev a) = 5%nat) by (rewrite rev_length, (proj1 (params_below cl a Hp)); exact K).
  assert (G := m_pos cl Hcl). assert (Big := large_modulus cl Hcl).
  set (c := (Z.to_nat n * Z.to_nat S + Z.to_nat o + mc_order cl)%nat).
  intros d Hd j Hj.
  assert (D := decimated_order (mc_modulus cl) (rev a) (class_prime cl Hcl) ltac:(lia) (Z.pos (pe_n e)) (Pos2Z.is_pos _) X).
  specialize (D ltac:(intros w Hw; rewrite Eq in *; apply frob; [lia | exact Fr | exact Hw])).
  rewrite La in D. change (Z.of_nat 5) with 5 in D.
  specialize (D (room _ h _ Big Hh HN) (Z.to_nat (S * s))).
  rewrite Z2Nat.id in D by nia.
  specialize (D (powers_apart _ h _ (S * s) Big Hh HN ltac:(nia)) d (fun i => useq cl (Mrg a r) (i + c))).
  assert (Q : cong (mc_modulus cl) (d j) 0).
  { apply D.
    - apply V_shift; [lia|]. apply (frec_useq cl Hcl _ L).
    - apply (tail_nonzero cl Hcl _ L NZ _ (Pos2Z.is_pos _) X).
    - intros i. unfold comb. rewrite La. specialize (Hd i). rewrite K in Hd.
      apply cong_iff; [lia|]. rewrite Z.mod_0_l by lia. rewrite <- Hd at 1. f_equal. apply sum_ext. intros l Hl. f_equal.
      rewrite (LF ((i + l) * Z.to_nat s + Z.to_nat n)%nat), (draw_useq cl Hcl) by exact L. f_equal. unfold c. rewrite Z2Nat.inj_mul by lia. ring.
    - lia. }
  apply cong_iff in Q; [|lia]. rewrite Z.mod_0_l in Q by lia. exact Q.
Qed.

Lemma zero_or_some cl r : values_below (mc_modulus cl) (mc_order cl) r -> some_state cl r \/ forall i, nth i r 0 = 0.
Proof.
  intros V. destruct (Exists_dec (fun x => x <> 0) r) as [E|E].
  - intros x. destruct (Z.eq_dec x 0) as [->|N]; [right; intros H; apply H; reflexivity | left; exact N].
  - left. split; assumption.
  - right. intros i. destruct (Nat.lt_ge_cases i (length r)) as [Hi|Hi]; [|apply nth_overflow, Hi].
    destruct (Z.eq_dec (nth i r 0) 0) as [Z0|Z0]; [exact Z0|]. elim E. apply Exists_exists. exists (nth i r 0). split; [apply nth_In, Hi | exact Z0].
Qed.
Lemma low_or_five cl : In cl mrg_classes -> In cl [mrg2_class; mrg3_class; mrg3s_class; mrg4_class] \/ mc_order cl = 5%nat.
Proof. intros H. cbn [mrg_classes In] in *. repeat (destruct H as [<-|H]; [cbn [mc_order mrg5_class mrg5s_class]; tauto|]). contradiction. Qed.
Lemma params_class cl a : In (cl, a) mrg_params -> In cl mrg_classes.
Proof. intros H. cbn [mrg_params In] in H. repeat (destruct H as [E|H]; [injection E as <- _; cbn [mrg_classes In]; tauto|]). contradiction. Qed.

(** ** C16 *)

(** A stream of a predefined engine may be split again, as long as the product of the factors fits 64 bits. *)
Theorem C16_mrg_leapfrog_nested : forall cl a r R S o s n, In (cl, a) mrg_params -> values_below (mc_modulus cl) (mc_order cl) r ->
  mrg_legal cl R -> leapfrog (mrg_next cl) (Mrg a r) R S o -> 1 <= S -> 0 <= o -> 1 <= s < 2 ^ 32 -> 0 <= n < s -> S * s < 2 ^ 64 ->
  exists R', mrg_split cl R s n = Returns R' /\ mrg_legal cl R' /\ leapfrog (mrg_next cl) R R' s n /\
    leapfrog (mrg_next cl) (Mrg a r) R' (S * s) (S * n + o).
Proof.
  intros cl a r R S o s n Hp V L LF HS Ho Hs Hn HSs. assert (Hcl := params_class cl a Hp).
  assert (X : exists R', mrg_split cl R s n = Returns R' /\ mrg_legal cl R' /\ leapfrog (mrg_next cl) R R' s n).
  { destruct (low_or_five cl Hcl) as [Low|K]; [apply C16_mrg_leapfrog; assumption|].
    destruct (zero_or_some cl r V) as [Hr|Z].
    - apply C16_mrg_leapfrog_full_order; try assumption. apply (decimated cl a r S o); try assumption. lia.
    - apply zero_split; try assumption. intros i. rewrite (LF i).
      apply (zero_state cl (Mrg a r) Hcl); [|exact Z]. apply legal_ok. split; [apply params_below, Hp | exact V]. }
  destruct X as (R' & E & L' & F). exists R'. split; [exact E|]. split; [exact L'|]. split; [exact F|].
  intros i. rewrite (F i), (LF _). f_equal. rewrite Z2Nat.inj_add, !Z2Nat.inj_mul by lia. ring.
Qed.
Print Assumptions C16_mrg_leapfrog_nested.

(** All six classes, predefined parameters, every state: split is the leapfrog. *)
Theorem C16_mrg_leapfrog_predefined : forall cl a r s n, In (cl, a) mrg_params -> values_below (mc_modulus cl) (mc_order cl) r ->
  1 <= s < 2 ^ 32 -> 0 <= n < s ->
  exists R', mrg_split cl (Mrg a r) s n = Returns R' /\ mrg_legal cl R' /\ leapfrog (mrg_next cl) (Mrg a r) R' s n.
Proof.
  intros cl a r s n Hp V Hs Hn.
  destruct (C16_mrg_leapfrog_nested cl a r (Mrg a r) 1 0 s n Hp V) as (R' & E & L' & F & _); try lia.
  - split; [apply params_below, Hp | exact V].
  - intros i. f_equal. change (Z.to_nat 1) with 1%nat. change (Z.to_nat 0) with 0%nat. lia.
  - exists R'. split; [exact E|]. split; [exact L' | exact F].
Qed.
Print Assumptions C16_mrg_leapfrog_predefined.

Example C16_predefined_case : In (mrg5s_class, [1053223373; 1530818118; 1612122482; 133497989; 573245311]) mrg_params /\
  match mrg_split mrg5s_class (Mrg [1053223373; 1530818118; 1612122482; 133497989; 573245311] [0; 0; 1; 0; 9]) 7 3 with
  | Returns R' => draw (mrg_next mrg5s_class) R' 4 = draw (mrg_next mrg5s_class) (Mrg [1053223373; 1530818118; 1612122482; 133497989; 573245311] [0; 0; 1; 0; 9]) 31
      /\ match mrg_split mrg5s_class R' 5 1 with
         | Returns R2 => draw (mrg_next mrg5s_class) R2 2 = draw (mrg_next mrg5s_class) (Mrg [1053223373; 1530818118; 1612122482; 133497989; 573245311] [0; 0; 1; 0; 9]) 80
         | _ => False
         end
  | _ => False
  end.
Proof. split; [cbn [mrg_params In]; tauto|]. vm_compute. split; reflexivity. Qed.

(** ** C17 *)
Theorem C17_mrg_tiles_predefined : forall cl a r s, In (cl, a) mrg_params -> values_below (mc_modulus cl) (mc_order cl) r -> 1 <= s < 2 ^ 32 ->
  exists streams, (forall n, 0 <= n < s -> mrg_split cl (Mrg a r) s n = Returns (streams (Z.to_nat n))) /\
                  tiles (mrg_next cl) (Mrg a r) (Z.to_nat s) streams.
Proof.
  intros cl a r s Hp V Hs. apply (tiles_of_split (mrg_next cl) (Mrg a r) s (mrg_split cl (Mrg a r) s)); [lia|].
  intros n Hn. destruct (C16_mrg_leapfrog_predefined cl a r s n Hp V Hs Hn) as (R' & E & _ & F). exists R'. split; assumption.
Qed.
Print Assumptions C17_mrg_tiles_predefined.

(** ** C20 *)
Theorem C20_yarn_leapfrog_predefined : forall y a r s n, In y yarn_classes -> In (yc_mrg y, a) mrg_params ->
  values_below (mc_modulus (yc_mrg y)) (mc_order (yc_mrg y)) r -> 1 <= s < 2 ^ 32 -> 0 <= n < s ->
  exists R', mrg_split (yc_mrg y) (Mrg a r) s n = Returns R' /\ mrg_legal (yc_mrg y) R' /\ leapfrog (yarn_next y) (Mrg a r) R' s n.
Proof.
  intros y a r s n Hy Hp V Hs Hn. destruct (C16_mrg_leapfrog_predefined (yc_mrg y) a r s n Hp V Hs Hn) as (R' & E & L' & F).
  exists R'. split; [exact E|]. split; [exact L' | apply leapfrog_yarn, F].
Qed.
Print Assumptions C20_yarn_leapfrog_predefined.

Theorem C17_yarn_tiles_predefined : forall y a r s, In y yarn_classes -> In (yc_mrg y, a) mrg_params ->
  values_below (mc_modulus (yc_mrg y)) (mc_order (yc_mrg y)) r -> 1 <= s < 2 ^ 32 ->
  exists streams, (forall n, 0 <= n < s -> mrg_split (yc_mrg y) (Mrg a r) s n = Returns (streams (Z.to_nat n))) /\
                  tiles (yarn_next y) (Mrg a r) (Z.to_nat s) streams.
Proof.
  intros y a r s Hy Hp V Hs. apply (tiles_of_split (yarn_next y) (Mrg a r) s (mrg_split (yc_mrg y) (Mrg a r) s)); [lia|].
  intros n Hn. destruct (C20_yarn_leapfrog_predefined y a r s n Hy Hp V Hs Hn) as (R' & E & _ & F). exists R'. split; assumption.
Qed.
Print Assumptions C17_yarn_tiles_predefined.

Example C20_predefined_case : In yarn5_class yarn_classes /\ In (yc_mrg yarn5_class, [107374182; 0; 0; 0; 104480]) mrg_params /\
  match mrg_split mrg5_class (Mrg [107374182; 0; 0; 0; 104480] [0; 1; 0; 0; 0]) 4 3 with
  | Returns R' => draw (yarn_next yarn5_class) R' 6 = draw (yarn_next yarn5_class) (Mrg [107374182; 0; 0; 0; 104480] [0; 1; 0; 0; 0]) 27
  | _ => False
  end.
Proof. split; [cbn [yarn_classes In]; tauto|]. split; [cbn [yc_mrg yarn5_class mrg_params In]; tauto|]. vm_compute. reflexivity. Qed.
