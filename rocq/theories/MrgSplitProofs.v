(** split always returns a legal engine; tiling; refutation witness for mrg5. *)
From Coq Require Import ZArith Znumtheory List Bool Arith Lia.
From Verif Require Import Base BaseFacts Cong Sums Spec SpecFacts IntMathModel IntMathProofs GaussModel GaussProofs
  LinRec MrgModel MrgStepProofs MrgProofs.
Import ListNotations.
Open Scope Z_scope.

Definition back_total (cl : mrg_class) : Prop := forall a r,
  inr (mc_modulus cl) (mc_order cl) a -> inr (mc_modulus cl) (mc_order cl) r ->
  exists t, mc_backward cl (mc_modulus cl) a r = Val (tl r ++ [t]) /\ 0 <= t < mc_modulus cl.

Lemma back_total_mrg5 m cl : prime m -> m < 2 ^ 31 ->
  mc_modulus cl = m -> mc_order cl = 5%nat -> mc_backward cl = mrg5_backward -> back_total cl.
Proof.
  intros Hp H31 Em Ek Eb a r. rewrite Em, Ek, Eb. clear Em Ek Eb cl. intros (La & Ha) (Lr & Hr).
  destruct a as [|a0 [|a1 [|a2 [|a3 [|a4 [|]]]]]]; try discriminate La.
  destruct r as [|r0 [|r1 [|r2 [|r3 [|r4 [|]]]]]]; try discriminate Lr.
  assert (A0 := Ha 0%nat ltac:(lia)). assert (A1 := Ha 1%nat ltac:(lia)). assert (A2 := Ha 2%nat ltac:(lia)).
  assert (A3 := Ha 3%nat ltac:(lia)). assert (A4 := Ha 4%nat ltac:(lia)).
  assert (R0 := Hr 0%nat ltac:(lia)). assert (R1 := Hr 1%nat ltac:(lia)). assert (R2 := Hr 2%nat ltac:(lia)).
  assert (R3 := Hr 3%nat ltac:(lia)). assert (R4 := Hr 4%nat ltac:(lia)).
  clear Ha Hr La Lr. cbn [nth] in *. cbn [mrg5_backward tl app].
  assert (D : forall t a, 0 <= t < m -> 0 <= a < m -> a <> 0 ->
            exists x, map_result (fun t => [r1; r2; r3; r4; t]) (back_div m t a) = Val [r1; r2; r3; r4; x] /\ 0 <= x < m).
  { intros t a Ht Ha Na. destruct (back_div_ok m Hp H31 t a Ht ltac:(lia)) as (x & E & B & _).
    exists x. rewrite E. split; [reflexivity | exact B]. }
  assert (T : forall t a r, 0 <= t < m -> 0 <= a < m -> 0 <= r < m -> 0 <= back_term m t a r < m)
    by (intros; apply back_term_ok; assumption).
  destruct (Z.eqb_spec a4 0) as [E4|N4]; cbn [negb]; [|apply D; auto].
  destruct (Z.eqb_spec a3 0) as [E3|N3]; cbn [negb]; [|apply D; auto].
  destruct (Z.eqb_spec a2 0) as [E2|N2]; cbn [negb]; [|apply D; auto].
  destruct (Z.eqb_spec a1 0) as [E1|N1]; cbn [negb]; [|apply D; auto].
  destruct (Z.eqb_spec a0 0) as [E0|N0]; cbn [negb]; [|apply D; auto].
  exists 0. split; [reflexivity | lia].
Qed.

Lemma class_back_total cl : In cl mrg_classes -> back_total cl.
Proof.
  intros H. destruct (Nat.eq_dec (mc_order cl) 5) as [E5|N5].
  - apply (back_total_mrg5 (mc_modulus cl)); [apply class_prime, H | apply class_m31, H | reflexivity | exact E5 |].
    revert H E5. cbn [mrg_classes In]. intros H.
    repeat destruct H as [<-|H]; try contradiction; intros E5; try discriminate E5; reflexivity.
  - intros a r Ha Hr. assert (K := class_order cl H). assert (G := m_pos cl H).
    destruct (eff_order_exists (mc_modulus cl) (mc_order cl) (fun j => nth j a 0)) as (e & He & Z0 & N0).
    assert (Hb : back_ok cl e) by (apply class_back; [exact H | exact He | right; right; lia]).
    destruct (Hb a r Ha Hr) as (t & E & B & _).
    + intros j Hj. apply (cong_eq (mc_modulus cl)); [apply Ha; lia | lia | apply Z0, Hj].
    + intros e' Ee E0. apply (N0 e' Ee). rewrite E0. reflexivity.
    + exists t. split; assumption.
Qed.

Lemma backwards_total cl : In cl mrg_classes -> forall cnt a r,
  inr (mc_modulus cl) (mc_order cl) a -> inr (mc_modulus cl) (mc_order cl) r ->
  exists r', backwards cl cnt a r = Val r' /\ inr (mc_modulus cl) (mc_order cl) r'.
Proof.
  intros H. induction cnt; intros a r Ha Hr; [exists r; split; [reflexivity | exact Hr]|].
  cbn [backwards]. destruct (class_back_total cl H a r Ha Hr) as (t & E & B). rewrite E.
  apply IHcnt; [exact Ha|]. split; [apply (tl_app_length cl H), Hr|].
  intros l Hl. rewrite (nth_tl_app cl H) by (try apply Hr; exact Hl).
  destruct (Nat.eqb_spec l (mc_order cl - 1)); [exact B | apply Hr; lia].
Qed.

(** split in one statement: it returns a legal engine whose coefficients describe the decimated draws;
    it is the leapfrog engine if the order is below 5 or the new last coefficient is not zero. *)
Lemma split_full cl R s n : In cl mrg_classes -> mrg_ok cl R -> 1 <= s < 2 ^ 32 -> 0 <= n < s ->
  exists R', mrg_split cl R s n = Returns R' /\ mrg_ok cl R' /\
    ((mc_order cl < 5)%nat \/ nth (mc_order cl - 1) (mrg_a R') 0 <> 0 \/ s = 1 -> leapfrog (mrg_next cl) R R' s n) /\
    (s = 1 \/ isrec (mc_modulus cl) (mc_order cl) (fun j => nth j (mrg_a R') 0) (yseq cl R s n)).
Proof.
  intros H Ok Hs Hn. destruct (Z.eq_dec s 1) as [->|N].
  - exists R. unfold mrg_split. destruct (Z.ltb_spec 1 1); [lia|]. destruct (Z.geb_spec n 1); [lia|].
    cbn [orb Z.gtb Z.compare Pos.compare Pos.compare_cont]. split; [reflexivity|]. split; [exact Ok|]. split; [|left; reflexivity].
    intros _ j. replace n with 0 by lia. f_equal. change (Z.to_nat 1) with 1%nat. change (Z.to_nat 0) with 0%nat. lia.
  - destruct (split_unfold cl H R s n Ok ltac:(lia) Hn) as (a' & Ha & Ra & E).
    destruct (backwards_total cl H (mc_order cl) a'
                (map (fun i => yseq cl R s n (mc_order cl - 1 - i)) (seq 0 (mc_order cl))) Ha) as (r' & Eb & Hr').
    { split; [rewrite map_length, seq_length; reflexivity|]. intros i Hi.
      rewrite (nth_map_seq _ (mc_order cl) i) by exact Hi. apply (useq_range cl H), Ok. }
    rewrite Eb in E. exists (Mrg a' r'). split; [exact E|]. split; [split; assumption|]. split; [|right; exact Ra].
    intros Hc. 
    assert (Hc' : (mc_order cl < 5)%nat \/ nth (mc_order cl - 1) a' 0 <> 0) by (cbn [mrg_a] in Hc; lia).
    destruct (split_leapfrog_at cl H R s n a' Ok ltac:(lia) Hn Ha Ra Hc') as (r2 & E2 & _ & L2).
    rewrite Eb in E2. injection E2 as <-. exact L2.
Qed.
