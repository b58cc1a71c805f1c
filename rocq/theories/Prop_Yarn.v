(** Properties C18-C20 and the yarn parts of C09, C17, C59, C60.
    The yarn engines share every member function with the mrg engine of the same order except operator();
    the engine operations of the mrg model are therefore used as those of the yarn engines. *)
From Coq Require Import ZArith Znumtheory List Bool Arith Lia.
From Verif Require Import Base BaseFacts Cong Sums Spec SpecFacts IntMathModel IntMathProofs Pratt GaussModel
  MrgModel MrgStepProofs MrgProofs MrgSplitProofs Prop_Mrg.
Import ListNotations.
Open Scope Z_scope.

(** The intended output map. *)
Definition yarn_map (y : yarn_class) (r : Z) : Z :=
  if r =? 0 then 0 else yc_gen y ^ r mod mc_modulus (yc_mrg y).

Lemma yarn_mrg y : In y yarn_classes -> In (yc_mrg y) mrg_classes.
Proof. cbn [yarn_classes mrg_classes In]. intros H. repeat destruct H as [<-|H]; cbn [yc_mrg yarn2_class yarn3_class yarn3s_class yarn4_class yarn5_class yarn5s_class]; tauto. Qed.
Lemma yarn_primroot y : In y yarn_classes -> primroot (mc_modulus (yc_mrg y)) (yc_gen y).
Proof.
  cbn [yarn_classes In]. intros H. repeat destruct H as [<-|H]; try contradiction;
  first [exact primroot_yarn | exact primroot_yarn3s | exact primroot_yarn5s].
Qed.
Lemma yarn_gen y : In y yarn_classes -> 0 <= yc_gen y < mc_modulus (yc_mrg y).
Proof. cbn [yarn_classes In]. intros H. repeat destruct H as [<-|H]; try contradiction; split; (reflexivity || discriminate). Qed.

Lemma yarn_out_map y r : In y yarn_classes -> 0 <= r < mc_modulus (yc_mrg y) -> yarn_out y r = Some (yarn_map y r).
Proof.
  intros Hy Hr. unfold yarn_out, yarn_map. destruct (r =? 0); [reflexivity|].
  assert (G := m_pos _ (yarn_mrg y Hy)). assert (M := class_m31 _ (yarn_mrg y Hy)).
  apply power_spec; [lia | apply yarn_gen, Hy | lia].
Qed.

(** ** C19 *)
Theorem C19_yarn_permutes : forall y, In y yarn_classes ->
  permutes_below (mc_modulus (yc_mrg y)) (yarn_map y) /\
  forall r, 0 <= r < mc_modulus (yc_mrg y) -> yarn_out y r = Some (yarn_map y r).
Proof.
  intros y Hy. split; [|intros r Hr; apply yarn_out_map; assumption].
  destruct (yarn_primroot y Hy) as (H1 & Hp & Ord & Full & _).
  set (m := mc_modulus (yc_mrg y)) in *. set (g := yc_gen y) in *.
  assert (NZ : forall r, 0 < r < m -> 0 < g ^ r mod m < m).
  { intros r Hr. assert (B := Z.mod_pos_bound (g ^ r) m ltac:(lia)).
    assert (g ^ r mod m <> 0); [|lia]. intros E.
    assert (E2 : g ^ (m - 1) mod m = 0); [|rewrite Full in E2; discriminate E2].
    replace (m - 1) with (r + (m - 1 - r)) by lia. rewrite Z.pow_add_r by lia.
    rewrite Z.mul_mod, E by lia. apply Z.mod_0_l. lia. }
  assert (Inj : forall i j, 0 < i -> i < j -> j < m -> g ^ i mod m <> g ^ j mod m).
  { intros i j Hi Hij Hj E. apply (proj2 (cong_iff m _ _ ltac:(lia))) in E.
    apply (Ord (j - i)); [lia|]. rewrite <- (Z.mod_small 1 m) by lia. apply mod_cong; [lia|].
    (* multiply by g^(m-1-i) *)
    assert (F : cong m (g ^ (m - 1)) 1) by (apply cong_iff; [lia|]; rewrite Full, Z.mod_small by lia; reflexivity).
    rewrite <- F.
    replace (g ^ (m - 1)) with (g ^ i * g ^ (m - 1 - i)) by (rewrite <- Z.pow_add_r by lia; f_equal; lia).
    rewrite E. rewrite <- Z.pow_add_r by lia. replace (j + (m - 1 - i)) with ((j - i) + (m - 1)) by lia.
    rewrite Z.pow_add_r by lia. rewrite F. exists 0. ring. }
  apply permutes_below_inj.
  - intros r Hr. unfold yarn_map. fold m g. destruct (Z.eqb_spec r 0); [lia|]. assert (H := NZ r ltac:(lia)). lia.
  - intros i j Hi Hj. unfold yarn_map. fold m g.
    destruct (Z.eqb_spec i 0) as [->|Ni], (Z.eqb_spec j 0) as [->|Nj]; intros E; try reflexivity.
    + assert (H := NZ j ltac:(lia)). lia.
    + assert (H := NZ i ltac:(lia)). lia.
    + destruct (Z.lt_trichotomy i j) as [L|[L|L]]; [|exact L|]; exfalso.
      * exact (Inj i j ltac:(lia) L ltac:(lia) E).
      * exact (Inj j i ltac:(lia) L ltac:(lia) (eq_sym E)).
Qed.
Print Assumptions C19_yarn_permutes.

Example C19_case : yarn_map yarn3s_class 2 = 1616076847 ^ 2 mod 2147462579 /\ yarn_out yarn3s_class 2 = Some (1616076847 ^ 2 mod 2147462579).
Proof. split; vm_compute; reflexivity. Qed.

(** ** C18 *)
Theorem C18_yarn_output : forall y R, In y yarn_classes -> mrg_legal (yc_mrg y) R ->
  fst (yarn_next y R) = Some (yarn_map y (fst (mrg_next (yc_mrg y) R))) /\
  snd (yarn_next y R) = snd (mrg_next (yc_mrg y) R) /\
  0 <= yarn_map y (fst (mrg_next (yc_mrg y) R)) <= mc_modulus (yc_mrg y) - 1.
Proof.
  intros y R Hy L. destruct (C13_mrg_step (yc_mrg y) R (yarn_mrg y Hy) L) as (E & B & _). cbv zeta in E, B.
  set (x := sum_of_products _ _ mod _) in *. rewrite E. unfold fst at 2 3, snd at 2.
  assert (Ey : yarn_next y R = (yarn_out y (fst (mrg_next (yc_mrg y) R)), snd (mrg_next (yc_mrg y) R))) by reflexivity.
  rewrite Ey, E. unfold fst, snd. split; [apply yarn_out_map; [exact Hy | lia]|]. split; [reflexivity|].
  assert (P := proj1 (proj1 (C19_yarn_permutes y Hy)) x ltac:(lia)). lia.
Qed.
Print Assumptions C18_yarn_output.

Example C18_case : mrg_legal mrg3_class mrg3_ex /\ fst (yarn_next yarn3_class mrg3_ex) = Some 1089261460.
Proof. split; [exact mrg3_ex_legal | vm_compute; reflexivity]. Qed.

(** ** C20 *)
Lemma after_yarn y n R : after (yarn_next y) n R = after (mrg_next (yc_mrg y)) n R.
Proof. unfold after. apply iter_ext. reflexivity. Qed.
Lemma draw_yarn y R k : draw (yarn_next y) R k = yarn_out y (draw (mrg_next (yc_mrg y)) R k).
Proof. unfold draw. rewrite after_yarn. reflexivity. Qed.
Lemma leapfrog_yarn y R R' s n : leapfrog (mrg_next (yc_mrg y)) R R' s n -> leapfrog (yarn_next y) R R' s n.
Proof. intros H k. rewrite !draw_yarn, H. reflexivity. Qed.

Theorem C20_yarn_jump : forall y R s, In y yarn_classes -> mrg_legal (yc_mrg y) R -> word 64 s ->
  mrg_jump (yc_mrg y) R s = after (yarn_next y) (Z.to_nat s) R /\
  mrg_discard (yc_mrg y) R s = after (yarn_next y) (Z.to_nat s) R /\ mrg_legal (yc_mrg y) (mrg_jump (yc_mrg y) R s).
Proof. intros y R s Hy. rewrite after_yarn. apply C14_mrg_jump, yarn_mrg, Hy. Qed.
Print Assumptions C20_yarn_jump.

Theorem C20_yarn_jump2 : forall y R s, In y yarn_classes -> mrg_legal (yc_mrg y) R -> word 32 s ->
  mrg_jump2 (yc_mrg y) R s = after (yarn_next y) (Z.to_nat (2 ^ s)) R /\ mrg_legal (yc_mrg y) (mrg_jump2 (yc_mrg y) R s).
Proof. intros y R s Hy. rewrite after_yarn. apply C15_mrg_jump2, yarn_mrg, Hy. Qed.
Print Assumptions C20_yarn_jump2.

Theorem C20_yarn_leapfrog : forall y R s n, In y [yarn2_class; yarn3_class; yarn3s_class; yarn4_class] ->
  mrg_legal (yc_mrg y) R -> 1 <= s < 2 ^ 32 -> 0 <= n < s ->
  exists R', mrg_split (yc_mrg y) R s n = Returns R' /\ mrg_legal (yc_mrg y) R' /\ leapfrog (yarn_next y) R R' s n.
Proof.
  intros y R s n Hy L Hs Hn. destruct (C16_mrg_leapfrog (yc_mrg y) R s n) as (R' & E & L' & F); try assumption.
  { cbn [In] in *. repeat destruct Hy as [<-|Hy]; cbn [yc_mrg yarn2_class yarn3_class yarn3s_class yarn4_class]; tauto. }
  exists R'. split; [exact E|]. split; [exact L' | apply leapfrog_yarn, F].
Qed.
Print Assumptions C20_yarn_leapfrog.

Theorem C20_yarn_leapfrog_full_order : forall y R s n, In y yarn_classes ->
  mrg_legal (yc_mrg y) R -> 1 <= s < 2 ^ 32 -> 0 <= n < s -> no_shorter_recurrence (yc_mrg y) R s n ->
  exists R', mrg_split (yc_mrg y) R s n = Returns R' /\ mrg_legal (yc_mrg y) R' /\ leapfrog (yarn_next y) R R' s n.
Proof.
  intros y R s n Hy L Hs Hn NS.
  destruct (C16_mrg_leapfrog_full_order (yc_mrg y) R s n (yarn_mrg y Hy) L Hs Hn NS) as (R' & E & L' & F).
  exists R'. split; [exact E|]. split; [exact L' | apply leapfrog_yarn, F].
Qed.
Print Assumptions C20_yarn_leapfrog_full_order.

Theorem C20_yarn5_leapfrog_refuted : forall y, In y [yarn5_class; yarn5s_class] ->
  exists R s n R', mrg_legal (yc_mrg y) R /\ last (mrg_a R) 0 <> 0 /\ 1 <= s < 2 ^ 32 /\ 0 <= n < s /\
    mrg_split (yc_mrg y) R s n = Returns R' /\ ~ leapfrog (yarn_next y) R R' s n.
Proof.
  intros y Hy.
  assert (Hc : In (yc_mrg y) [mrg5_class; mrg5s_class]) by (cbn [In] in *; destruct Hy as [<-|[<-|[]]]; cbn; tauto).
  assert (Hy' : In y yarn_classes) by (cbn [In yarn_classes] in *; tauto).
  destruct (C16_mrg5_leapfrog_refuted _ Hc) as (R & s & n & R' & L & N & Hs & Hn & E & F).
  exists R, s, n, R'. repeat (split; [assumption|]). intros LF. apply F. intros k. specialize (LF k).
  rewrite !draw_yarn in LF.
  assert (Hcl := yarn_mrg y Hy').
  assert (L' : mrg_legal (yc_mrg y) R').
  { destruct (C16_mrg_leapfrog_coefficient _ R s n Hcl L Hs Hn) as (R2 & E2 & L2 & _). congruence. }
  assert (B1 := legal_draws _ R Hcl L (k * Z.to_nat s + Z.to_nat n)). assert (B2 := legal_draws _ R' Hcl L' k).
  rewrite !yarn_out_map in LF by (try exact Hy'; lia). injection LF as LF.
  destruct (C19_yarn_permutes y Hy') as ((P1 & P2) & _).
  assert (G := m_pos _ Hcl).
  remember (draw (mrg_next (yc_mrg y)) R' k) as x eqn:Ex. remember (draw (mrg_next (yc_mrg y)) R (k * Z.to_nat s + Z.to_nat n)) as z eqn:Ez.
  assert (Bx : 0 <= yarn_map y x < mc_modulus (yc_mrg y)) by (apply P1; lia).
  destruct (P2 _ Bx) as (t & _ & U).
  transitivity t; [symmetry|]; apply U; (split; [lia|]); [reflexivity | symmetry; exact LF].
Qed.
Print Assumptions C20_yarn5_leapfrog_refuted.

Example C20_case : match mrg_split mrg3_class mrg3_ex 3 1 with
  | Returns R' => draw (yarn_next yarn3_class) R' 2 = draw (yarn_next yarn3_class) mrg3_ex 7
  | _ => False end.
Proof. vm_compute. reflexivity. Qed.

(** ** C17, C60, C09 *)
Theorem C17_yarn_tiles : forall y R s, In y [yarn2_class; yarn3_class; yarn3s_class; yarn4_class] ->
  mrg_legal (yc_mrg y) R -> 1 <= s < 2 ^ 32 ->
  exists streams, (forall n, 0 <= n < s -> mrg_split (yc_mrg y) R s n = Returns (streams (Z.to_nat n))) /\
                  tiles (yarn_next y) R (Z.to_nat s) streams.
Proof.
  intros y R s Hy L Hs. apply (tiles_of_split (yarn_next y) R s (mrg_split (yc_mrg y) R s)); [lia|].
  intros n Hn. destruct (C20_yarn_leapfrog y R s n Hy L Hs Hn) as (R' & E & _ & F). exists R'. split; assumption.
Qed.
Print Assumptions C17_yarn_tiles.

Theorem C17_yarn_tiles_full_order : forall y R s, In y yarn_classes ->
  mrg_legal (yc_mrg y) R -> 1 <= s < 2 ^ 32 -> (forall n, 0 <= n < s -> no_shorter_recurrence (yc_mrg y) R s n) ->
  exists streams, (forall n, 0 <= n < s -> mrg_split (yc_mrg y) R s n = Returns (streams (Z.to_nat n))) /\
                  tiles (yarn_next y) R (Z.to_nat s) streams.
Proof.
  intros y R s Hy L Hs NS. apply (tiles_of_split (yarn_next y) R s (mrg_split (yc_mrg y) R s)); [lia|].
  intros n Hn. destruct (C20_yarn_leapfrog_full_order y R s n Hy L Hs Hn (NS n Hn)) as (R' & E & _ & F).
  exists R'. split; assumption.
Qed.
Print Assumptions C17_yarn_tiles_full_order.

Theorem C60_yarn_jumps_compose : forall y R s t, In y yarn_classes -> mrg_legal (yc_mrg y) R ->
  word 64 s -> word 64 t ->
  mrg_jump (yc_mrg y) (mrg_jump (yc_mrg y) R s) t = after (yarn_next y) (Z.to_nat (s + t)) R /\
  (s + t < 2 ^ 64 -> mrg_jump (yc_mrg y) (mrg_jump (yc_mrg y) R s) t = mrg_jump (yc_mrg y) R (s + t)).
Proof. intros y R s t Hy. rewrite after_yarn. apply C60_mrg_jumps_compose, yarn_mrg, Hy. Qed.
Print Assumptions C60_yarn_jumps_compose.
Theorem C60_yarn_jump_draw : forall y R s, In y yarn_classes -> mrg_legal (yc_mrg y) R -> word 64 s ->
  mrg_jump (yc_mrg y) (snd (yarn_next y R)) s = snd (yarn_next y (mrg_jump (yc_mrg y) R s)).
Proof. intros y R s Hy. exact (C60_mrg_jump_draw (yc_mrg y) R s (yarn_mrg y Hy)). Qed.
Print Assumptions C60_yarn_jump_draw.
Theorem C60_yarn_jump2_jump : forall y R k, In y yarn_classes -> mrg_legal (yc_mrg y) R -> 0 <= k < 64 ->
  mrg_jump2 (yc_mrg y) R k = mrg_jump (yc_mrg y) R (2 ^ k).
Proof. intros y R k Hy. exact (C60_mrg_jump2_jump (yc_mrg y) R k (yarn_mrg y Hy)). Qed.
Print Assumptions C60_yarn_jump2_jump.

Theorem C09_yarn_equal : forall y R1 R2, mrg_eqb R1 R2 = true ->
  forall k, draw (yarn_next y) R1 k = draw (yarn_next y) R2 k.
Proof. intros y R1 R2 E k. rewrite !draw_yarn, (C09_mrg_equal _ R1 R2 E). reflexivity. Qed.
Print Assumptions C09_yarn_equal.

(** ** C59 *)
Lemma yarn_legal_draws y R : In y yarn_classes -> mrg_legal (yc_mrg y) R ->
  forall k, exists v, draw (yarn_next y) R k = Some v /\ 0 <= v <= mc_modulus (yc_mrg y) - 1.
Proof.
  intros Hy L k. assert (B := legal_draws _ R (yarn_mrg y Hy) L k). rewrite draw_yarn.
  rewrite yarn_out_map by (try exact Hy; lia). eexists. split; [reflexivity|].
  assert (P := proj1 (proj1 (C19_yarn_permutes y Hy)) _ (ltac:(lia) : 0 <= draw (mrg_next (yc_mrg y)) R k < mc_modulus (yc_mrg y))). lia.
Qed.

Theorem C59_yarn_seed : forall y R s l, In y yarn_classes -> mrg_legal (yc_mrg y) R -> word 64 s ->
  length l = mc_order (yc_mrg y) ->
  (forall k, exists v, draw (yarn_next y) (mrg_seed (yc_mrg y) R s) k = Some v /\ 0 <= v <= mc_modulus (yc_mrg y) - 1) /\
  (forall k, exists v, draw (yarn_next y) (mrg_seed_values (yc_mrg y) R l) k = Some v /\ 0 <= v <= mc_modulus (yc_mrg y) - 1) /\
  (In y [yarn2_class; yarn3_class; yarn3s_class; yarn4_class; yarn5_class] ->
   forall k, exists v, draw (yarn_next y) (mrg_seed_gen (yc_mrg y) R l) k = Some v /\ 0 <= v <= mc_modulus (yc_mrg y) - 1).
Proof.
  intros y R s l Hy L Hs Hl. assert (Hc := yarn_mrg y Hy).
  split; [|split; [|intros _]]; apply yarn_legal_draws; try exact Hy.
  - apply C59_mrg_seed; assumption.
  - apply C59_mrg_seed_values; assumption.
  - apply C59_mrg_seed_gen; assumption.
Qed.
Print Assumptions C59_yarn_seed.

(** yarn5s::seed(gen) keeps the sign of the remainder: a 32-bit generator returning 2^31 leaves a negative
    state value, and the next draw is not the one of the recurrence. *)
Theorem C59_yarn5s_seed_gen_refuted : exists a l, In (mrg5s_class, a) mrg_params /\ Forall (word 32) l /\ length l = 5%nat /\
  let R := yarn5s_seed_gen (Mrg a [0; 1; 1; 1; 1]) l in
  ~ mrg_legal mrg5s_class R /\
  fst (mrg_next mrg5s_class R) <> sum_of_products (mrg_a R) (mrg_r R) mod 2147461007.
Proof.
  exists [1053223373; 1530818118; 1612122482; 133497989; 573245311], [2 ^ 31; 0; 0; 0; 0].
  split; [cbn [mrg_params In]; tauto|]. split; [repeat constructor; discriminate|]. split; [reflexivity|].
  cbv zeta. split.
  - intros (_ & (_ & F)). unfold yarn5s_seed_gen, mrg_r, mrg_a in F. cbn [map] in F.
    apply Forall_inv in F. destruct F as [F _]. revert F. vm_compute. intros F. apply F. reflexivity.
  - vm_compute. discriminate.
Qed.
Print Assumptions C59_yarn5s_seed_gen_refuted.
(** what it does leave: outputs below 2^31 give legal values, the others values in (-m, 0], each congruent to the
    output read as a signed 32-bit number *)
Theorem C59_yarn5s_seed_gen_values : forall R l, Forall (word 32) l ->
  mrg_a (yarn5s_seed_gen R l) = mrg_a R /\
  Forall2 (fun g v => (if g <? 2 ^ 31 then 0 <= v < 2147461007 /\ (g - v) mod 2147461007 = 0
                       else -2147461007 < v <= 0 /\ (g - 2 ^ 32 - v) mod 2147461007 = 0)) l (mrg_r (yarn5s_seed_gen R l)).
Proof.
  intros R l H. split; [reflexivity|]. unfold yarn5s_seed_gen. cbn [mrg_r]. induction H as [|g l Hg H IH]; cbn [map]; constructor; [|exact IH].
  change (mc_modulus mrg5s_class) with 2147461007. unfold word in Hg. unfold to_int32, wrap32. rewrite Z.mod_small by exact Hg. cbv zeta.
  assert (D : forall z, (z - Z.rem z 2147461007) mod 2147461007 = 0).
  { intros z. rewrite (Z.rem_eq z 2147461007) by lia. replace (z - (z - 2147461007 * Z.quot z 2147461007)) with (Z.quot z 2147461007 * 2147461007) by ring. apply Z.mod_mul. lia. }
  destruct (Z.ltb_spec g (2 ^ 31)) as [K|K].
  - split; [apply Z.rem_bound_pos; lia|apply D].
  - split; [|apply D]. pose proof (Z.rem_bound_pos (2 ^ 32 - g) 2147461007 ltac:(lia) ltac:(lia)) as B. replace (2 ^ 32 - g) with (- (g - 2 ^ 32)) in B by ring. rewrite Z.rem_opp_l in B by lia. lia.
Qed.
Print Assumptions C59_yarn5s_seed_gen_values.
Example C59_yarn5s_seed_gen_case : mrg_r (yarn5s_seed_gen (Mrg [] []) [2 ^ 32 - 1; 5; 2 ^ 31; 2147461008; 0]) = [-1; 5; -22641; 1; 0].
Proof. reflexivity. Qed.
