(** Properties C90 and C91: the periods of the mrg and yarn engines with the predefined parameter sets. *)
From Coq Require Import ZArith Znumtheory List Bool Arith Lia.
From Verif Require Import Base BaseFacts Cong Spec SpecFacts MrgModel MrgStepProofs MrgProofs Prop_Mrg Prop_Yarn
  Pratt Primes PolyAct PeriodCerts PeriodProofs.
Import ListNotations.
Open Scope Z_scope.

(** ** Specification vocabulary *)

(** Two positions of the sequence of states are equal exactly when they are a multiple of N apart. *)
Definition state_period {S X : Type} (next : S -> X * S) (R : S) (N : Z) : Prop :=
  forall i j : nat, after next i R = after next j R <-> (N | Z.of_nat j - Z.of_nat i).
(** The sequence of draws is unchanged by a shift exactly when the shift is a multiple of N. *)
Definition draw_period {S X : Type} (next : S -> X * S) (R : S) (N : Z) : Prop :=
  forall n : nat, (forall i, draw next R (i + n) = draw next R i) <-> (N | Z.of_nat n).
(** The period that the documentation (doc/trng.pdf) gives for all mrgn and yarnn classes: m^n - 1. *)
Definition documented_period (cl : mrg_class) : Z := mc_modulus cl ^ Z.of_nat (mc_order cl) - 1.
(** A state of the class that is not zero. *)
Definition some_state (cl : mrg_class) (r : list Z) : Prop :=
  values_below (mc_modulus cl) (mc_order cl) r /\ Exists (fun x => x <> 0) r.

(** The parameter sets with a shorter period: mrg3s::trng0, mrg5s::trng0 (the defaults of these classes) and mrg4::LEcuyer2. *)
Definition half_sets : list (mrg_class * list Z) :=
  [(mrg3s_class, [2025213985; 1112953677; 2038969601]); (mrg5s_class, [1053223373; 1530818118; 1612122482; 133497989; 573245311])].
Definition short_set : mrg_class * list Z := (mrg4_class, [64886; 0; 0; 64322]).

(** ** The certificates cover the parameter sets *)
Lemma cert_full cl a : In (cl, a) mrg_params -> ~ In (cl, a) (short_set :: half_sets) ->
  In cl mrg_classes /\ exists e, In e period_certs /\ pe_m e = mc_modulus cl /\ pe_a e = a /\ Z.pos (pe_n e) = documented_period cl.
Proof.
  intros H Hn. cbn [mrg_params In] in H.
  destruct H as [E|H]; [injection E as <- <-; split; [cbn [mrg_classes In]; tauto|]; exists pe_mrg2_1; (split; [cbn [period_certs In]; tauto | split; [reflexivity | split; [reflexivity | vm_compute; reflexivity]]])|].
  destruct H as [E|H]; [injection E as <- <-; split; [cbn [mrg_classes In]; tauto|]; exists pe_mrg2_2; (split; [cbn [period_certs In]; tauto | split; [reflexivity | split; [reflexivity | vm_compute; reflexivity]]])|].
  destruct H as [E|H]; [injection E as <- <-; split; [cbn [mrg_classes In]; tauto|]; exists pe_mrg3_1; (split; [cbn [period_certs In]; tauto | split; [reflexivity | split; [reflexivity | vm_compute; reflexivity]]])|].
  destruct H as [E|H]; [injection E as <- <-; split; [cbn [mrg_classes In]; tauto|]; exists pe_mrg3_2; (split; [cbn [period_certs In]; tauto | split; [reflexivity | split; [reflexivity | vm_compute; reflexivity]]])|].
  destruct H as [E|H]; [injection E as <- <-; split; [cbn [mrg_classes In]; tauto|]; exists pe_mrg3_3; (split; [cbn [period_certs In]; tauto | split; [reflexivity | split; [reflexivity | vm_compute; reflexivity]]])|].
  destruct H as [E|H]; [elim Hn; injection E as <- <-; cbn [half_sets In]; tauto|].
  destruct H as [E|H]; [injection E as <- <-; split; [cbn [mrg_classes In]; tauto|]; exists pe_mrg3s_1; (split; [cbn [period_certs In]; tauto | split; [reflexivity | split; [reflexivity | vm_compute; reflexivity]]])|].
  destruct H as [E|H]; [injection E as <- <-; split; [cbn [mrg_classes In]; tauto|]; exists pe_mrg4_1; (split; [cbn [period_certs In]; tauto | split; [reflexivity | split; [reflexivity | vm_compute; reflexivity]]])|].
  destruct H as [E|H]; [elim Hn; injection E as <- <-; left; reflexivity|].
  destruct H as [E|H]; [injection E as <- <-; split; [cbn [mrg_classes In]; tauto|]; exists pe_mrg5_1; (split; [cbn [period_certs In]; tauto | split; [reflexivity | split; [reflexivity | vm_compute; reflexivity]]])|].
  destruct H as [E|H]; [elim Hn; injection E as <- <-; cbn [half_sets In]; tauto|].
  destruct H as [E|H]; [injection E as <- <-; split; [cbn [mrg_classes In]; tauto|]; exists pe_mrg5s_1; (split; [cbn [period_certs In]; tauto | split; [reflexivity | split; [reflexivity | vm_compute; reflexivity]]])|].
  contradiction.
Qed.
Lemma cert_half cl a : In (cl, a) half_sets ->
  In (cl, a) mrg_params /\ In cl mrg_classes /\
  exists e, In e period_certs /\ pe_m e = mc_modulus cl /\ pe_a e = a /\ Z.pos (pe_n e) = documented_period cl / 2.
Proof.
  intros H. cbn [half_sets In] in H.
  destruct H as [E|[E|[]]]; injection E as <- <-; (split; [cbn [mrg_params In]; tauto|]); (split; [cbn [mrg_classes In]; tauto|]).
  - exists pe_mrg3s_0. (split; [cbn [period_certs In]; tauto | split; [reflexivity | split; [reflexivity | vm_compute; reflexivity]]]).
  - exists pe_mrg5s_0. (split; [cbn [period_certs In]; tauto | split; [reflexivity | split; [reflexivity | vm_compute; reflexivity]]]).
Qed.

Lemma params_below cl a : In (cl, a) mrg_params -> values_below (mc_modulus cl) (mc_order cl) a.
Proof.
  intros H. cbn [mrg_params In] in H.
  repeat (destruct H as [E|H]; [injection E as <- <-; split; [reflexivity | repeat constructor; cbn; lia]|]). contradiction.
Qed.
Lemma state_ok cl a r : In (cl, a) mrg_params -> some_state cl r -> mrg_legal cl (Mrg a r) /\
  exists i, (i < mc_order cl)%nat /\ nth i (mrg_r (Mrg a r)) 0 <> 0.
Proof.
  intros H (V & X). split; [split; [apply params_below, H | exact V]|]. cbn [mrg_r].
  apply Exists_exists in X. destruct X as (x & Hin & Hx). apply (In_nth _ _ 0) in Hin. destruct Hin as (i & Hi & E).
  exists i. split; [destruct V; lia | rewrite E; exact Hx].
Qed.

Lemma cert_period cl a r e : In (cl, a) mrg_params -> In cl mrg_classes -> some_state cl r ->
  In e period_certs -> pe_m e = mc_modulus cl -> pe_a e = a ->
  state_period (mrg_next cl) (Mrg a r) (Z.pos (pe_n e)) /\ draw_period (mrg_next cl) (Mrg a r) (Z.pos (pe_n e)).
Proof.
  intros Hp Hcl Hr He Em Ea. destruct (state_ok cl a r Hp Hr) as (L & NZ). apply legal_ok in L.
  assert (X : forall w, frec (mc_modulus cl) (rev (mrg_a (Mrg a r))) w -> nonzero (mc_modulus cl) w ->
              forall n, per (mc_modulus cl) w n <-> 0 <= n /\ (Z.pos (pe_n e) | n)).
  { cbn [mrg_a]. intros w. rewrite <- Em, <- Ea. apply period_certs_exact, He. }
  split.
  - intros i j. apply (PeriodProofs.state_period cl Hcl _ L NZ (Z.pos (pe_n e)) (Pos2Z.is_pos _) X).
  - intros n. apply (PeriodProofs.draw_period cl Hcl _ L NZ (Z.pos (pe_n e)) (Pos2Z.is_pos _) X).
Qed.

(** ** C90 *)

(** mrg2, mrg3, mrg4::LEcuyer1, mrg5, mrg3s::trng1, mrg5s::trng1: the documented period, from every state but zero. *)
Theorem C90_mrg_period : forall cl a r, In (cl, a) mrg_params -> ~ In (cl, a) (short_set :: half_sets) -> some_state cl r ->
  state_period (mrg_next cl) (Mrg a r) (documented_period cl) /\ draw_period (mrg_next cl) (Mrg a r) (documented_period cl).
Proof.
  intros cl a r Hp Hn Hr. destruct (cert_full cl a Hp Hn) as (Hcl & e & He & Em & Ea & <-). apply cert_period; assumption.
Qed.
Print Assumptions C90_mrg_period.

(** mrg3s::trng0 and mrg5s::trng0: half of it, from every state but zero. *)
Theorem C90_mrg_trng0_period : forall cl a r, In (cl, a) half_sets -> some_state cl r ->
  In (cl, a) mrg_params /\
  state_period (mrg_next cl) (Mrg a r) (documented_period cl / 2) /\ draw_period (mrg_next cl) (Mrg a r) (documented_period cl / 2).
Proof.
  intros cl a r Hh Hr. destruct (cert_half cl a Hh) as (Hp & Hcl & e & He & Em & Ea & <-). split; [exact Hp|]. apply cert_period; assumption.
Qed.
Print Assumptions C90_mrg_trng0_period.

(** mrg4::LEcuyer2: every state recurs after m^2 - 1 draws. *)
Theorem C90_mrg4_lecuyer2_returns : forall r n, values_below (mc_modulus mrg4_class) 4 r ->
  (mc_modulus mrg4_class ^ 2 - 1 | Z.of_nat n) ->
  In short_set mrg_params /\ after (mrg_next (fst short_set)) n (Mrg (snd short_set) r) = Mrg (snd short_set) r.
Proof.
  intros r n V D. assert (Hp : In short_set mrg_params) by (unfold short_set; cbn [mrg_params In]; tauto). split; [exact Hp|].
  assert (Hcl : In mrg4_class mrg_classes) by (cbn [mrg_classes In]; tauto).
  cbn [short_set fst snd].
  assert (L : mrg_ok mrg4_class (Mrg [64886; 0; 0; 64322] r)).
  { apply legal_ok. split; [exact (params_below _ _ Hp) | exact V]. }
  assert (P := returns_per 2147483647 (rev [64886; 0; 0; 64322]) ltac:(cbn; lia) (2147483647 ^ 2 - 1) _ mrg4_2_returns
                 (frec_useq mrg4_class Hcl _ L)).
  destruct D as [c Hc]. change (mc_modulus mrg4_class ^ 2 - 1) with (Z.pos (2147483647 ^ 2 - 1)) in Hc.
  assert (C0 : 0 <= c) by (clear - Hc; lia).
  apply (per_mul _ _ _ c) in P; [|exact C0]. rewrite <- Hc in P. destruct P as (_ & P). rewrite Nat2Z.id in P.
  rewrite after_mrg. change (Mrg [64886; 0; 0; 64322] r) with (Nat.iter 0 (mrg_step mrg4_class) (Mrg [64886; 0; 0; 64322] r)) at 2.
  apply (st_useq mrg4_class Hcl _ L). intros i. replace (i + 0)%nat with i by lia. apply (u_eq mrg4_class Hcl _ L). apply P.
Qed.
Print Assumptions C90_mrg4_lecuyer2_returns.

(** The documented period fails for these three sets: all states recur earlier. *)
Theorem C90_documented_period_refuted : exists cl a, In (cl, a) mrg_params /\
  forall r, some_state cl r -> ~ state_period (mrg_next cl) (Mrg a r) (documented_period cl) /\ ~ draw_period (mrg_next cl) (Mrg a r) (documented_period cl).
Proof.
  exists mrg3s_class, [2025213985; 1112953677; 2038969601].
  assert (Hh : In (mrg3s_class, [2025213985; 1112953677; 2038969601]) half_sets) by (left; reflexivity).
  split; [apply cert_half, Hh|]. intros r Hr. destruct (C90_mrg_trng0_period _ _ r Hh Hr) as (_ & HS & HD).
  set (N := documented_period mrg3s_class) in *. assert (B : 0 < N / 2 < N) by (vm_compute; split; reflexivity).
  assert (Q : ~ (N | N / 2)) by (intros Q; apply Z.divide_pos_le in Q; lia). clearbody N. split; intros H.
  - apply Q. assert (E := proj1 (H 0%nat (Z.to_nat (N / 2)))). rewrite Z2Nat.id, Z.sub_0_r in E by lia. apply E.
    apply (HS 0%nat (Z.to_nat (N / 2))). rewrite Z2Nat.id, Z.sub_0_r by lia. apply Z.divide_refl.
  - apply Q. assert (E := proj1 (H (Z.to_nat (N / 2)))). rewrite Z2Nat.id in E by lia. apply E.
    apply (HD (Z.to_nat (N / 2))). rewrite Z2Nat.id by lia. apply Z.divide_refl.
Qed.
Print Assumptions C90_documented_period_refuted.

(** Each of the three sets fails it from every state. *)
Theorem C90_early_return : forall cl a r, In (cl, a) (short_set :: half_sets) -> some_state cl r ->
  exists n, (0 < n)%nat /\ Z.of_nat n < documented_period cl /\ after (mrg_next cl) n (Mrg a r) = Mrg a r.
Proof.
  intros cl a r [E|Hh] Hr.
  - injection E as <- <-. exists (Z.to_nat (mc_modulus mrg4_class ^ 2 - 1)).
    assert (B : 0 < mc_modulus mrg4_class ^ 2 - 1 < documented_period mrg4_class) by (vm_compute; split; reflexivity).
    set (N := mc_modulus mrg4_class ^ 2 - 1) in *. split; [lia|]. split; [lia|].
    apply C90_mrg4_lecuyer2_returns; [exact (proj1 Hr)|]. fold N. rewrite Z2Nat.id by lia. apply Z.divide_refl.
  - destruct (C90_mrg_trng0_period cl a r Hh Hr) as (_ & HS & _).
    assert (B : 0 < documented_period cl / 2 < documented_period cl).
    { cbn [half_sets In] in Hh. destruct Hh as [E|[E|[]]]; injection E as <- <-; vm_compute; split; reflexivity. }
    set (N := documented_period cl) in *. clearbody N. exists (Z.to_nat (N / 2)). split; [lia|]. split; [lia|].
    symmetry. apply (HS 0%nat (Z.to_nat (N / 2))). rewrite Z2Nat.id, Z.sub_0_r by lia. apply Z.divide_refl.
Qed.
Print Assumptions C90_early_return.

(** The yarn engine of the same order with the same coefficients has the same periods. *)
Theorem C90_yarn_period : forall y a r N, In y yarn_classes -> In (yc_mrg y, a) mrg_params -> some_state (yc_mrg y) r ->
  (state_period (mrg_next (yc_mrg y)) (Mrg a r) N -> state_period (yarn_next y) (Mrg a r) N) /\
  (draw_period (mrg_next (yc_mrg y)) (Mrg a r) N -> draw_period (yarn_next y) (Mrg a r) N).
Proof.
  intros y a r N Hy Hp Hr. destruct (state_ok _ a r Hp Hr) as (L & _). assert (Hcl := yarn_mrg y Hy). apply legal_ok in L. split.
  - intros H i j. rewrite !after_yarn. apply H.
  - intros H n. rewrite <- (H n). split; intros E i; specialize (E i); [|rewrite !draw_yarn, E; reflexivity].
    rewrite !draw_yarn in E. rewrite !(draw_useq _ Hcl _ _ L) in *.
    assert (B := fun i => useq_range _ Hcl _ i L). rewrite !(yarn_out_map y) in E by (try exact Hy; apply B).
    assert (E' : yarn_map y (useq (yc_mrg y) (Mrg a r) (i + n + mc_order (yc_mrg y))) = yarn_map y (useq (yc_mrg y) (Mrg a r) (i + mc_order (yc_mrg y)))) by congruence.
    destruct (C19_yarn_permutes y Hy) as ((P1 & P2) & _).
    destruct (P2 _ (P1 _ (B (i + mc_order (yc_mrg y))%nat))) as (t & _ & U).
    rewrite <- (U _ (conj (B (i + n + mc_order (yc_mrg y))%nat) E')). apply U. split; [apply B | reflexivity].
Qed.
Print Assumptions C90_yarn_period.

Example C90_mrg5 : documented_period mrg5_class = 2147483647 ^ 5 - 1 /\
  state_period (mrg_next mrg5_class) (Mrg [107374182; 0; 0; 0; 104480] [0; 1; 1; 1; 1]) (documented_period mrg5_class).
Proof.
  split; [vm_compute; reflexivity|].
  apply (C90_mrg_period mrg5_class [107374182; 0; 0; 0; 104480] [0; 1; 1; 1; 1]).
  - cbn [mrg_params In]. do 9 right. left. reflexivity.
  - intros [E|[E|[E|[]]]]; injection E; discriminate.
  - split; [split; [reflexivity | repeat constructor; cbn; lia] | right; left; lia].
Qed.
Example C90_yarn3s_default : draw_period (yarn_next yarn3s_class) (Mrg [2025213985; 1112953677; 2038969601] [0; 1; 1]) (documented_period mrg3s_class / 2).
Proof.
  assert (Hr : some_state mrg3s_class [0; 1; 1]) by (split; [split; [reflexivity | repeat constructor; cbn; lia] | right; left; lia]).
  apply C90_yarn_period; [cbn [yarn_classes In]; tauto | cbn [mrg_params In]; tauto | exact Hr |].
  apply C90_mrg_trng0_period; [left; reflexivity | exact Hr].
Qed.

(** ** C91 *)

(** Every tuple of k values, not all zero, occurs at exactly one position of a period. *)
Theorem C91_mrg_equidistribution : forall cl a r t, In (cl, a) mrg_params -> ~ In (cl, a) (short_set :: half_sets) ->
  some_state cl r -> some_state cl t ->
  exists! n, 0 <= n < documented_period cl /\
    forall i, (i < mc_order cl)%nat -> draw (mrg_next cl) (Mrg a r) (Z.to_nat n + i) = nth i t 0.
Proof.
  intros cl a r t Hp Hn Hr Ht. destruct (state_ok cl a r Hp Hr) as (L & NZ). apply legal_ok in L.
  destruct (cert_full cl a Hp Hn) as (Hcl & e & He & Em & Ea & En).
  assert (X : forall w, frec (mc_modulus cl) (rev (mrg_a (Mrg a r))) w -> nonzero (mc_modulus cl) w ->
              forall n, per (mc_modulus cl) w n <-> 0 <= n /\ (documented_period cl | n)).
  { cbn [mrg_a]. intros w. rewrite <- Em, <- Ea, <- En. apply period_certs_exact, He. }
  assert (N0 : 0 < documented_period cl) by (rewrite <- En; reflexivity).
  destruct Ht as ((Lt & Ft) & Xt).
  destruct (tuples cl Hcl _ L NZ _ N0 X eq_refl t Lt Ft) as (n & Hn' & E).
  { intros F0. apply Exists_exists in Xt. destruct Xt as (x & Hx & Nx). rewrite Forall_forall in F0. apply Nx, F0, Hx. }
  exists n. split; [split; assumption|]. intros n' (Hn2 & E2).
  apply (tuples_unique cl Hcl _ L NZ _ N0 X n n' Hn' Hn2). intros i Hi. rewrite E, E2 by exact Hi. reflexivity.
Qed.
Print Assumptions C91_mrg_equidistribution.

(** The same for the yarn engines, whose output map permutes the values and keeps 0. *)
Theorem C91_yarn_equidistribution : forall y a r t, In y yarn_classes -> In (yc_mrg y, a) mrg_params ->
  ~ In (yc_mrg y, a) (short_set :: half_sets) -> some_state (yc_mrg y) r -> some_state (yc_mrg y) t ->
  exists! n, 0 <= n < documented_period (yc_mrg y) /\
    forall i, (i < mc_order (yc_mrg y))%nat -> draw (yarn_next y) (Mrg a r) (Z.to_nat n + i) = Some (nth i t 0).
Proof.
  intros y a r t Hy Hp Hn Hr Ht. set (cl := yc_mrg y) in *. assert (Hcl := yarn_mrg y Hy). fold cl in Hcl.
  destruct (state_ok cl a r Hp Hr) as (L & _). apply legal_ok in L. assert (G := m_pos cl Hcl).
  destruct (C19_yarn_permutes y Hy) as ((P1 & P2) & _). fold cl in P1, P2.
  assert (M0 : yarn_map y 0 = 0) by reflexivity.
  assert (Inv : forall l, Forall (fun x => 0 <= x < mc_modulus cl) l -> exists l', length l' = length l /\
     Forall (fun x => 0 <= x < mc_modulus cl) l' /\ map (yarn_map y) l' = l).
  { induction l as [|x l IH]; intros F; [exists []; repeat split; constructor|]. inversion F as [|? ? Bx F']; subst.
    destruct (IH F') as (l' & E1 & E2 & E3). destruct (P2 x Bx) as (x' & (B' & Ex) & _).
    exists (x' :: l'). cbn [length map]. rewrite E1, E3, Ex. repeat split; constructor; assumption. }
  destruct Ht as ((Lt & Ft) & Xt). destruct (Inv t Ft) as (t' & Lt' & Ft' & Et).
  assert (D : forall k, draw (yarn_next y) (Mrg a r) k = Some (yarn_map y (draw (mrg_next cl) (Mrg a r) k)) /\
                        0 <= draw (mrg_next cl) (Mrg a r) k < mc_modulus cl).
  { intros k. rewrite draw_yarn. fold cl. rewrite (draw_useq _ Hcl _ _ L).
    assert (B := useq_range _ Hcl _ (k + mc_order cl) L). split; [apply yarn_out_map; assumption | exact B]. }
  assert (Hinj : forall u v, 0 <= u < mc_modulus cl -> 0 <= v < mc_modulus cl -> yarn_map y u = yarn_map y v -> u = v).
  { intros u v Bu Bv E. destruct (P2 _ (P1 v Bv)) as (z & _ & U). rewrite <- (U u (conj Bu E)). apply U. split; [exact Bv | reflexivity]. }
  assert (St : some_state cl t').
  { split; [split; [congruence | exact Ft']|]. clear - Xt Et M0. subst t. induction t' as [|x t' IH]; cbn [map] in Xt; [inversion Xt|].
    inversion Xt as [? ? H|? ? H]; subst; [left; intros ->; apply H, M0 | right; apply IH, H]. }
  assert (Nt : forall i, (i < mc_order cl)%nat -> nth i t 0 = yarn_map y (nth i t' 0) /\ 0 <= nth i t' 0 < mc_modulus cl).
  { intros i Hi. split; [rewrite <- Et, <- M0 at 1; apply map_nth|]. rewrite Forall_forall in Ft'. apply Ft', nth_In. congruence || lia. }
  destruct (C91_mrg_equidistribution cl a r t' Hp Hn Hr St) as (n & (Hn1 & Hn2) & U).
  exists n. split.
  - split; [exact Hn1|]. intros i Hi. rewrite (proj1 (D _)), Hn2 by exact Hi. rewrite (proj1 (Nt i Hi)). reflexivity.
  - intros n' (B' & E'). apply U. split; [exact B'|]. intros i Hi. specialize (E' i Hi). rewrite (proj1 (D _)) in E'.
    apply Hinj; [apply D | apply Nt, Hi |]. rewrite <- (proj1 (Nt i Hi)). congruence.
Qed.
Print Assumptions C91_yarn_equidistribution.

Example C91_case : exists! n, 0 <= n < 2147483647 ^ 2 - 1 /\
  forall i, (i < 2)%nat -> draw (mrg_next mrg2_class) (Mrg [1498809829; 1160990996] [0; 1]) (Z.to_nat n + i) = nth i [0; 5] 0.
Proof.
  apply (C91_mrg_equidistribution mrg2_class [1498809829; 1160990996] [0; 1] [0; 5]).
  - left. reflexivity.
  - intros [E|[E|[E|[]]]]; injection E; discriminate.
  - split; [split; [reflexivity | repeat constructor; cbn; lia] | right; left; lia].
  - split; [split; [reflexivity | repeat constructor; cbn; lia] | right; left; lia].
Qed.
