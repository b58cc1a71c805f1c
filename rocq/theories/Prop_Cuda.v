(** Property C103: what the code compiled with TRNG_CUDA computes, compared with the host code. *)
From Coq Require Import ZArith Znumtheory List Bool Arith Lia.
From Verif Require Import Base BaseFacts Spec SpecFacts IntMathModel Pratt GaussModel MrgModel MrgStepProofs Lcg64Model CountShiftModel
  Count128Model Prop_IntMath Prop_Gauss Prop_Mrg Prop_Yarn Prop_Lcg64 Prop_CountShift CudaModel CudaProofs.
Import ListNotations.
Open Scope Z_scope.

(** ** The yarn engines: every draw is the draw of the host engine; no product leaves int64_t. *)
Theorem C103_yarn : forall y R k, In y yarn_classes -> mrg_legal (yc_mrg y) R ->
  after (yarn_next_cuda y) k R = after (yarn_next y) k R /\
  exists v, draw (yarn_next y) R k = Some v /\ draw (yarn_next_cuda y) R k = Val v /\
    0 <= v <= mc_modulus (yc_mrg y) - 1.
Proof.
  intros y R k Hy L.
  assert (A : after (yarn_next_cuda y) k R = after (yarn_next y) k R) by (unfold after; apply iter_ext; reflexivity).
  split; [exact A|]. unfold draw. rewrite A, after_yarn.
  assert (L1 : mrg_legal (yc_mrg y) (after (mrg_next (yc_mrg y)) k R)).
  { clear A. induction k as [|k IH]; [exact L|]. apply C13_mrg_step; [apply yarn_mrg, Hy | exact IH]. }
  set (R1 := after _ k R) in *. destruct (C18_yarn_output y R1 Hy L1) as (E & _ & B).
  exists (yarn_map y (fst (mrg_next (yc_mrg y) R1))). split; [exact E|]. split; [|exact B].
  apply yarn_out_cuda_ok; [exact Hy|].
  destruct (C13_mrg_step (yc_mrg y) R1 (yarn_mrg y Hy) L1) as (E1 & B1 & _). cbv zeta in E1, B1.
  change (nth 0 (mrg_r (mrg_step (yc_mrg y) R1)) 0) with (fst (mrg_next (yc_mrg y) R1)). rewrite E1. cbn [fst]. lia.
Qed.
Print Assumptions C103_yarn.

Example C103_yarn_case : mrg_legal mrg3_class mrg3_ex /\ draw (yarn_next_cuda yarn3_class) mrg3_ex 0 = Val 1089261460.
Proof. split; [exact mrg3_ex_legal | vm_compute; reflexivity]. Qed.

(** ** modulo_inverse: the inverse where there is one; otherwise, where the host throws, some other number. *)
Theorem C103_modulo_inverse : forall a m, - 2 ^ 31 <= a < 2 ^ 31 -> - 2 ^ 31 <= m < 2 ^ 31 ->
  (0 < a -> 1 < m -> Z.gcd a m = 1 ->
     exists x, modulo_inverse_cuda a m = Val x /\ modulo_inverse a m = Val x /\ (a * x) mod m = 1) /\
  (0 < a -> 1 < m -> Z.gcd a m <> 1 ->
     exists x, modulo_inverse_cuda a m = Val x /\ 0 <= x < m /\ (a * x) mod m <> 1) /\
  (a <= 0 -> modulo_inverse_cuda a m = Val 1).
Proof.
  intros a m Ha Hm. destruct (C21_modulo_inverse a m Ha Hm) as (_ & H1 & _). split; [|split].
  - intros A M G. destruct (H1 A M G) as (x & E & _ & I). exists x. split; [|split; assumption].
    apply inverse_cuda_val; [lia | exact E].
  - intros A M G. destruct (inverse_cuda_total a m ltac:(lia) ltac:(lia)) as (x & E & B).
    exists x. split; [exact E|]. split; [exact B|]. intros I. apply G.
    apply Zgcd_1_rel_prime, bezout_rel_prime. apply Bezout_intro with (u := x) (v := - ((a * x) / m)).
    assert (D := Z.div_mod (a * x) m ltac:(lia)). lia.
  - intros A. unfold modulo_inverse_cuda. rewrite loop_small by lia. reflexivity.
Qed.
Print Assumptions C103_modulo_inverse.

Example C103_inverse_case : modulo_inverse_cuda 6 9 = Val 3 /\ modulo_inverse 6 9 = RuntimeError /\ modulo_inverse_cuda 7 9 = Val 4.
Proof. repeat split; vm_compute; reflexivity. Qed.

(** ** gauss: always a vector with entries in [0,m); the solution of the host whenever the host finds one. *)
Theorem C103_gauss : forall n m a b, prime m -> m < 2 ^ 31 -> legal_system n m a b ->
  exists x, gauss_cuda n m a b = Val x /\ length x = n /\ (forall i, (i < n)%nat -> 0 <= vec x i < m) /\
    (gauss n m a b = Val x /\ solves n m a (vec x) (vec b) \/ gauss n m a b = RuntimeError).
Proof.
  intros n m a b P M L. destruct (gauss_cuda_total n m M a b P L) as (x & E & Lx & B).
  exists x. split; [exact E|]. split; [exact Lx|]. split; [exact B|].
  destruct (C22_gauss_sound n m a b P M L) as [F | (x' & F & _ & _ & S)]; [right; exact F|]. left.
  assert (F' := gauss_cuda_val n m M a b x' F). rewrite F' in E. injection E as ->. split; assumption.
Qed.
Print Assumptions C103_gauss.

(** Where the host throws, the vector need not solve the system. *)
Theorem C103_gauss_refuted : exists n m a b x, prime m /\ m < 2 ^ 31 /\ legal_system n m a b /\
  gauss_cuda n m a b = Val x /\ gauss n m a b = RuntimeError /\ ~ solves n m a (vec x) (vec b).
Proof.
  exists 2%nat, 2147483647, [[1; 2]; [2; 4]], [1; 1]. eexists.
  split; [exact prime_p31|]. split; [lia|]. split; [|split; [vm_compute; reflexivity|]].
  - repeat split; try reflexivity; intros; repeat (destruct r as [|r]; try lia); repeat (destruct c as [|c]; try lia); cbn; lia.
  - split; [vm_compute; reflexivity|]. intros S. specialize (S 1%nat ltac:(lia)). vm_compute in S. discriminate S.
Qed.
Print Assumptions C103_gauss_refuted.

(** ** split *)

(** Legal arguments: the same engine as on the host. *)
Theorem C103_split_same : forall s n, 1 <= s < 2 ^ 32 -> 0 <= n < s ->
  (forall cl R, In cl mrg_classes -> mrg_legal cl R -> exists R', mrg_split cl R s n = Returns R' /\ mrg_split_cuda cl R s n = Returns R') /\
  (forall R, lcg64_ok R -> exists R', lcg64_split R s n = Returns R' /\ lcg64_split_cuda R s n = Returns R') /\
  (forall R, lcs_ok R -> exists R', cs_split R s n = Returns R' /\ cs_split_cuda R s n = Returns R') /\
  (forall R, c128_ok R -> exists R', c128_split R s n = Returns R' /\ c128_split_cuda R s n = Returns R').
Proof.
  intros s n Hs Hn. split; [|split; [|split]].
  - intros cl R H L. destruct (C16_mrg_leapfrog_coefficient cl R s n H L Hs Hn) as (R' & E & _).
    exists R'. split; [exact E | apply mrg_split_cuda_val; [exact H | exact E]].
  - intros R H. assert (X : exists R', lcg64_split R s n = Returns R').
    { unfold lcg64_split. destruct (Z.ltb_spec s 1); [lia|]. destruct (Z.geb_spec n s); [lia|]. cbn [orb].
      destruct (s >? 1); [|exists R; reflexivity]. rewrite wrap64_32 by lia.
      rewrite (proj1 (C01_lcg64_jump R (n + 1) H ltac:(split; lia))). eexists. reflexivity. }
    destruct X as (R' & E). exists R'. split; [exact E | apply split_cuda_val_lcg, E].
  - intros R H. assert (X : exists R', cs_split R s n = Returns R').
    { unfold cs_split. destruct (Z.ltb_spec s 1); [lia|]. destruct (Z.geb_spec n s); [lia|]. cbn [orb].
      destruct (s >? 1); [|exists R; reflexivity]. rewrite wrap64_32 by lia.
      rewrite (proj1 (C06_count_shift_jump R (n + 1) H ltac:(lia))). eexists. reflexivity. }
    destruct X as (R' & E). exists R'. split; [exact E | apply split_cuda_val_cs, E].
  - intros R H. destruct (C08_count128_leapfrog hi_native R s n H Hs Hn) as (R' & E & _).
    exists R'. split; [exact E | apply split_cuda_val_c128, E].
Qed.
Print Assumptions C103_split_same.

(** The arguments are not tested: for two streams or more any n is accepted and is the offset of the stream ... *)
Theorem C103_split_any_offset : forall s n, 2 <= s < 2 ^ 32 -> 0 <= n < 2 ^ 32 ->
  (forall cl R, In cl [mrg2_class; mrg3_class; mrg3s_class; mrg4_class] -> mrg_legal cl R ->
     exists R', mrg_split_cuda cl R s n = Returns R' /\ mrg_legal cl R' /\ leapfrog (mrg_next cl) R R' s n) /\
  (forall R, lcg64_ok R -> Z.odd (lcg_a R) = true ->
     exists R', lcg64_split_cuda R s n = Returns R' /\ leapfrog lcg64_next R R' s n /\ leapfrog lcg64_shift_next R R' s n) /\
  (forall R, lcs_ok R -> Z.odd (lcg_a (cs_lcg R)) = true ->
     exists R', cs_split_cuda R s n = Returns R' /\ leapfrog cs_next R R' s n) /\
  (forall hi R, c128_ok R -> exists R', c128_split_cuda R s n = Returns R' /\ leapfrog (c128_next hi) R R' s n).
Proof.
  intros s n Hs Hn. split; [|split; [|split]].
  - intros cl R Hc L. assert (H : In cl mrg_classes) by (cbn [In mrg_classes] in *; tauto).
    destruct (mrg_split_cuda_shift cl R s n H L ltac:(lia) Hn) as (E & L1). rewrite E.
    destruct (C16_mrg_leapfrog cl _ s 0 Hc L1 ltac:(lia) ltac:(lia)) as (R' & F & L' & LF).
    exists R'. split; [apply mrg_split_cuda_val; assumption|]. split; [exact L' | apply leapfrog_after, LF].
  - intros R H O. rewrite (lcg64_split_cuda_shift R s n H ltac:(lia) Hn O).
    destruct (lcg_after_ok R (Z.to_nat n) H O) as (H1 & O1).
    destruct (C03_lcg64_leapfrog _ s 0 H1 O1 ltac:(lia) ltac:(lia)) as (R' & F & L1 & L2).
    exists R'. split; [exact F|]. split; [apply leapfrog_after, L1|]. apply leapfrog_after.
    rewrite after_lcg64_shift, <- after_lcg64. exact L2.
  - intros R H O. rewrite (cs_split_cuda_shift R s n H ltac:(lia) Hn O).
    destruct (cs_after_ok R (Z.to_nat n) H O) as (H1 & O1).
    destruct (C07_count_shift_leapfrog _ s 0 H1 O1 ltac:(lia) ltac:(lia)) as (R' & F & L1).
    exists R'. split; [exact F | apply leapfrog_after, L1].
  - intros hi R H. destruct (c128_split_cuda_shift hi R s n H ltac:(lia) Hn) as (E & H1). rewrite E.
    destruct (C08_count128_leapfrog hi _ s 0 H1 ltac:(lia) ltac:(lia)) as (R' & F & L1).
    exists R'. split; [exact F | apply leapfrog_after, L1].
Qed.
Print Assumptions C103_split_any_offset.

(** ... but for no or one stream the engine is left as it is, so an offset other than 0 is ignored. *)
Theorem C103_split_ignored_refuted : exists R n R', lcg64_ok R /\ Z.odd (lcg_a R) = true /\ 0 <= n < 2 ^ 32 /\
  lcg64_split R 1 n = Throws /\ lcg64_split_cuda R 1 n = Returns R' /\ ~ leapfrog lcg64_next R R' 1 n.
Proof.
  exists lcg64_ex, 1, lcg64_ex. split; [apply lcg64_ex_ok|]. split; [apply lcg64_ex_ok|]. split; [lia|].
  split; [reflexivity|]. split; [reflexivity|]. intros L. specialize (L 0%nat). vm_compute in L. discriminate L.
Qed.
Print Assumptions C103_split_ignored_refuted.

Example C103_split_case : exists R', lcg64_split_cuda lcg64_ex 3 7 = Returns R' /\ lcg64_split lcg64_ex 3 7 = Throws /\
  draw lcg64_next R' 2 = draw lcg64_next lcg64_ex 13.
Proof.
  destruct (C103_split_any_offset 3 7) as (_ & H & _); [lia | lia |].
  destruct (H lcg64_ex) as (R' & E & L & _); [apply lcg64_ex_ok | apply lcg64_ex_ok |].
  exists R'. split; [exact E|]. split; [reflexivity | exact (L 2%nat)].
Qed.
