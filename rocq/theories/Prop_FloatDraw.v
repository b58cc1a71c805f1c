(** C100: the draws of the continuous distributions with closed formulas, in double. *)
From Coq Require Import ZArith Bool List Reals Lia Lra Psatz.
From Flocq Require Import Core IEEE754.BinarySingleNaN.
From Verif Require Import FloatFacts UniformModel UniformProofs Prop_Uniform UnifAccProofs Prop_UnifAcc Base Spec Lcg64Model MinstdModel Prop_Lcg64 Prop_Minstd.
From Verif Require Import FloatDrawModel FloatDrawSpec FloatDrawProofs FloatDrawCore FloatDrawLoc FloatDrawTrig FloatDrawLaw FloatDrawLibm.
Import ListNotations.
Local Open Scope R_scope.

Lemma range_4 D : library_range D -> (4 <= D < 2 ^ 64)%Z.
Proof. intros H. repeat (destruct H as [<-|H]; [lia|]). destruct H. Qed.
Lemma oo_in D r : library_range D -> (0 <= r <= D)%Z -> is_finite (uniformoo 53 1024 D r) = true /\ q <= B2R (uniformoo 53 1024 D r) <= 1 - q / 2.
Proof.
  intros HD Hr. pose proof (range_4 D HD). destruct (C39_uniformoo D r HD Hr) as ((_ & U) & _). apply oo_range; [lia|exact Hr|apply max_2; lia|lra].
Qed.
Lemma cc_in D r : library_range D -> (0 <= r <= D)%Z -> is_finite (uniformcc 53 1024 D r) = true /\ 0 <= B2R (uniformcc 53 1024 D r) <= 1.
Proof. intros HD Hr. pose proof (range_4 D HD). destruct (C39_uniformcc D r ltac:(lia) Hr) as ((F & U) & _). split; assumption. Qed.

Lemma widen draw D F e e' : samples draw D F e -> e <= e' -> samples draw D F e'.
Proof. intros H He t. destruct (H t) as (l & L1 & L2 & L3). exists l. split; [exact L1|]. split; [exact L2|]. lra. Qed.
Lemma finish_oc D F draw e e' : library_range D -> proper F -> inverts draw D (fun r => 1 - B2R (uniformoc 53 1024 D r)) F e -> 0 <= e -> e + / 2 ^ 48 <= e' -> samples draw D F (e' + 3 / (IZR D + 1)).
Proof. intros HD (P1 & P2) I He H. apply widen with (e + / 2 ^ 48 + 3 / (IZR D + 1)); [apply (law_oc D F draw e (range_4 D HD) He P1 P2 I)|lra]. Qed.
Lemma finish_cc D F draw e e' : library_range D -> proper F -> inverts draw D (fun r => B2R (uniformcc 53 1024 D r)) F e -> 0 <= e -> e + / 2 ^ 48 <= e' -> samples draw D F (e' + 3 / (IZR D + 1)).
Proof. intros HD (P1 & P2) I He H. apply widen with (e + / 2 ^ 48 + 3 / (IZR D + 1)); [apply (law_cc D F draw e (range_4 D HD) He P1 P2 I)|lra]. Qed.
Lemma finish_oo D F draw e e' : library_range D -> proper F -> inverts draw D (fun r => B2R (uniformoo 53 1024 D r)) F e -> 0 <= e -> e + / 2 ^ 48 <= e' -> samples draw D F (e' + 3 / (IZR D + 1)).
Proof. intros HD (P1 & P2) I He H. apply widen with (e + / 2 ^ 48 + 3 / (IZR D + 1)); [apply (law_oo D F draw e (range_4 D HD) He P1 P2 I)|lra]. Qed.
Lemma finish_down D F draw e e' : library_range D -> proper F -> inverts draw D (fun r => 1 - B2R (uniformoo 53 1024 D r)) F e -> 0 <= e -> e + / 2 ^ 48 <= e' -> samples draw D F (e' + 3 / (IZR D + 1)).
Proof. intros HD (P1 & P2) I He H. apply widen with (e + / 2 ^ 48 + 3 / (IZR D + 1)); [apply (law_oo_down D F draw e (range_4 D HD) He P1 P2 I)|lra]. Qed.

(** ** Distributions with a scale *)
Theorem C100_exponential : forall L mu D, accurate L -> scale mu -> library_range D ->
  inverts (exponential_fdraw L mu D) D (fun r => 1 - B2R (uniformoc 53 1024 D r)) (F_exponential (B2R mu)) (20 / 2 ^ 52) /\
  in_range (exponential_fdraw L mu D) D (fun x => 0 <= x) /\
  samples (exponential_fdraw L mu D) D (F_exponential (B2R mu)) (36 / 2 ^ 52 + 3 / (IZR D + 1)).
Proof.
  intros L mu D HL H0 HD. pose proof (range_4 D HD) as R4. pose proof (scale_pos mu H0) as P.
  assert (I : inverts (exponential_fdraw L mu D) D (fun r => 1 - B2R (uniformoc 53 1024 D r)) (F_exponential (B2R mu)) (20 / 2 ^ 52)).
  { intros r Hr. destruct (exponential_core L HL mu D r H0 ltac:(lia) Hr) as (A & V & E). split; [exact A|]. unfold q in E. apply Rabs_le_inv in E. unfold F_exponential. destruct (Rle_dec _ 0) as [C|C].
    - replace (B2R (exponential_fdraw L mu D r)) with 0 in E by lra. unfold Rdiv in E. rewrite Rmult_0_l, Ropp_0, exp_0 in E. apply Rabs_le. lra.
    - apply Rabs_le. lra. }
  split; [exact I|]. split; [intros r Hr; apply (exponential_core L HL mu D r H0 ltac:(lia) Hr)|]. apply (finish_oc D _ _ (20 / 2 ^ 52)); [exact HD|apply proper_exponential, P|exact I|lra|lra].
Qed.
Theorem C100_twosided_exponential : forall L mu D, accurate L -> scale mu -> library_range D ->
  inverts (twosided_fdraw L mu D) D (fun r => B2R (uniformoo 53 1024 D r)) (F_twosided (B2R mu)) (12 / 2 ^ 52) /\
  samples (twosided_fdraw L mu D) D (F_twosided (B2R mu)) (28 / 2 ^ 52 + 3 / (IZR D + 1)).
Proof.
  intros L mu D HL H0 HD. pose proof (range_4 D HD) as R4. pose proof (scale_pos mu H0) as P.
  assert (I : inverts (twosided_fdraw L mu D) D (fun r => B2R (uniformoo 53 1024 D r)) (F_twosided (B2R mu)) (12 / 2 ^ 52)).
  { intros r Hr. destruct (oo_in D r HD Hr) as (FU & RU). destruct (twosided_icdf L HL mu _ H0 FU RU) as (A & C). fold (twosided_fdraw L mu D r) in A, C. split; [exact A|]. unfold F_twosided. set (v := B2R (twosided_fdraw L mu D r)) in *. unfold q in C. destruct C as [(V & E & _)|(V & E & _)]; apply Rabs_le_inv in E; destruct (Rle_dec v 0) as [Z|Z]; try lra; try (apply Rabs_le; lra).
    assert (V0 : v = 0) by lra. rewrite V0 in *. unfold Rdiv in *. rewrite Rmult_0_l in *. rewrite Ropp_0 in E. rewrite exp_0 in *. apply Rabs_le. lra. }
  split; [exact I|]. apply (finish_oo D _ _ (12 / 2 ^ 52)); [exact HD|apply proper_twosided, P|exact I|lra|lra].
Qed.
Theorem C100_rayleigh : forall L nu D, accurate L -> scale nu -> library_range D ->
  inverts (rayleigh_fdraw L nu D) D (fun r => B2R (uniformoo 53 1024 D r)) (F_rayleigh (B2R nu)) (42 / 2 ^ 52) /\
  in_range (rayleigh_fdraw L nu D) D (fun x => 0 < x) /\
  samples (rayleigh_fdraw L nu D) D (F_rayleigh (B2R nu)) (58 / 2 ^ 52 + 3 / (IZR D + 1)).
Proof.
  intros L nu D HL H0 HD. pose proof (range_4 D HD) as R4. pose proof (scale_pos nu H0) as P.
  assert (I : inverts (rayleigh_fdraw L nu D) D (fun r => B2R (uniformoo 53 1024 D r)) (F_rayleigh (B2R nu)) (42 / 2 ^ 52)).
  { intros r Hr. destruct (oo_in D r HD Hr) as (FU & RU). destruct (rayleigh_icdf L HL nu _ H0 FU RU) as (A & V & E). fold (rayleigh_fdraw L nu D r) in A, V, E. split; [exact A|]. unfold F_rayleigh. set (v := B2R (rayleigh_fdraw L nu D r)) in *. unfold q in E. apply Rabs_le_inv in E. destruct (Rle_dec v 0) as [Z|Z]; [lra|]. apply Rabs_le. lra. }
  split; [exact I|]. split; [intros r Hr; destruct (oo_in D r HD Hr) as (FU & RU); apply (rayleigh_icdf L HL nu _ H0 FU RU)|]. apply (finish_oo D _ _ (42 / 2 ^ 52)); [exact HD|apply proper_rayleigh, P|exact I|lra|lra].
Qed.

(** ** Distributions with a scale and a shape *)
Theorem C100_weibull : forall L theta beta D, accurate L -> scale theta -> shape beta -> library_range D ->
  inverts (weibull_fdraw L theta beta D) D (fun r => 1 - B2R (uniformoc 53 1024 D r)) (F_weibull (B2R theta) (B2R beta)) ((344 + 20 * B2R beta) / 2 ^ 52) /\
  in_range (weibull_fdraw L theta beta D) D (fun x => 0 <= x) /\
  samples (weibull_fdraw L theta beta D) D (F_weibull (B2R theta) (B2R beta)) ((360 + 20 * B2R beta) / 2 ^ 52 + 3 / (IZR D + 1)).
Proof.
  intros L theta beta D HL H0 H1 HD. pose proof (range_4 D HD) as R4. pose proof (scale_pos theta H0) as P. pose proof (proj2 H1) as G.
  assert (I : inverts (weibull_fdraw L theta beta D) D (fun r => 1 - B2R (uniformoc 53 1024 D r)) (F_weibull (B2R theta) (B2R beta)) ((344 + 20 * B2R beta) / 2 ^ 52)).
  { intros r Hr. destruct (weibull_core L HL theta beta D r H0 H1 ltac:(lia) Hr) as (A & C). split; [exact A|]. unfold F_weibull. set (v := B2R (weibull_fdraw L theta beta D r)) in *. destruct C as [(V & E)|(V & E)].
    - rewrite V, E. destruct (Rle_dec 0 0) as [Z|Z]; [|lra]. rewrite !(Rminus_diag_eq _ _ eq_refl), Rabs_R0. lra.
    - unfold q in E. apply Rabs_le_inv in E. destruct (Rle_dec v 0) as [Z|Z]; [lra|]. apply Rabs_le. unfold Rdiv. lra. }
  split; [exact I|]. split; [intros r Hr; destruct (weibull_core L HL theta beta D r H0 H1 ltac:(lia) Hr) as (_ & [(V & _)|(V & _)]); lra|]. apply (finish_oc D _ _ ((344 + 20 * B2R beta) / 2 ^ 52)); [exact HD|apply proper_weibull; [exact P|lra]|exact I|lra|lra].
Qed.
Theorem C100_pareto : forall L gamma theta D, accurate L -> shape gamma -> scale theta -> library_range D ->
  inverts (pareto_fdraw L gamma theta D) D (fun r => 1 - B2R (uniformoo 53 1024 D r)) (F_pareto (B2R gamma) (B2R theta)) ((4 + 20 * B2R gamma) / 2 ^ 52) /\
  in_range (pareto_fdraw L gamma theta D) D (fun x => 0 <= x) /\
  samples (pareto_fdraw L gamma theta D) D (F_pareto (B2R gamma) (B2R theta)) ((20 + 20 * B2R gamma) / 2 ^ 52 + 3 / (IZR D + 1)).
Proof.
  intros L gamma theta D HL H0 H1 HD. pose proof (range_4 D HD) as R4. pose proof (scale_pos theta H1) as P. pose proof (proj2 H0) as G. pose proof q_pos as Q.
  assert (I : inverts (pareto_fdraw L gamma theta D) D (fun r => 1 - B2R (uniformoo 53 1024 D r)) (F_pareto (B2R gamma) (B2R theta)) ((4 + 20 * B2R gamma) / 2 ^ 52)).
  { intros r Hr. destruct (oo_in D r HD Hr) as (FU & RU). destruct (pareto_core L HL gamma theta _ H0 H1 FU ltac:(lra)) as (A & V & E). fold (pareto_fdraw L gamma theta D r) in A, V, E. split; [exact A|]. unfold F_pareto. set (v := B2R (pareto_fdraw L gamma theta D r)) in *. unfold q in E. apply Rabs_le_inv in E. destruct (Rle_dec v 0) as [Z|Z]; [|apply Rabs_le; unfold Rdiv; lra].
    replace v with 0 in E by lra. replace (1 + 0 / B2R theta) with 1 in E by (field; lra). unfold Rpower in E. rewrite ln_1, Rmult_0_r, exp_0 in E. apply Rabs_le. unfold Rdiv. lra. }
  split; [exact I|]. split; [intros r Hr; destruct (oo_in D r HD Hr) as (FU & RU); apply (pareto_core L HL gamma theta _ H0 H1 FU ltac:(lra))|]. apply (finish_down D _ _ ((4 + 20 * B2R gamma) / 2 ^ 52)); [exact HD|apply proper_pareto; [lra|exact P]|exact I|lra|lra].
Qed.
Theorem C100_powerlaw : forall L gamma theta D, accurate L -> shape gamma -> scale theta -> library_range D ->
  inverts (powerlaw_fdraw L gamma theta D) D (fun r => 1 - B2R (uniformoc 53 1024 D r)) (F_powerlaw (B2R gamma) (B2R theta)) ((4 + 10 * B2R gamma) / 2 ^ 52) /\
  in_range (powerlaw_fdraw L gamma theta D) D (fun x => B2R theta <= x) /\
  samples (powerlaw_fdraw L gamma theta D) D (F_powerlaw (B2R gamma) (B2R theta)) ((20 + 10 * B2R gamma) / 2 ^ 52 + 3 / (IZR D + 1)).
Proof.
  intros L gamma theta D HL H0 H1 HD. pose proof (range_4 D HD) as R4. pose proof (scale_pos theta H1) as P. pose proof (proj2 H0) as G.
  assert (I : inverts (powerlaw_fdraw L gamma theta D) D (fun r => 1 - B2R (uniformoc 53 1024 D r)) (F_powerlaw (B2R gamma) (B2R theta)) ((4 + 10 * B2R gamma) / 2 ^ 52)).
  { intros r Hr. destruct (powerlaw_core L HL gamma theta D r H0 H1 ltac:(lia) Hr) as (A & V & E). split; [exact A|]. unfold F_powerlaw. set (v := B2R (powerlaw_fdraw L gamma theta D r)) in *. unfold q in E. apply Rabs_le_inv in E. destruct (Rle_dec v (B2R theta)) as [Z|Z]; [|apply Rabs_le; unfold Rdiv; lra].
    replace (v / B2R theta) with 1 in E by (replace v with (B2R theta) by lra; field; lra). unfold Rpower in E. rewrite ln_1, Rmult_0_r, exp_0 in E. apply Rabs_le. unfold Rdiv. lra. }
  split; [exact I|]. split; [intros r Hr; apply (powerlaw_core L HL gamma theta D r H0 H1 ltac:(lia) Hr)|]. apply (finish_oc D _ _ ((4 + 10 * B2R gamma) / 2 ^ 52)); [exact HD|apply proper_powerlaw; [lra|exact P]|exact I|lra|lra].
Qed.

(** ** Distributions with a location and a scale *)
Theorem C100_cauchy : forall L theta eta D, accurate L -> scale theta -> location eta -> library_range D ->
  inverts (cauchy_fdraw L theta eta D) D (fun r => B2R (uniformoo 53 1024 D r)) (F_cauchy (B2R theta) (B2R eta)) ((12 + Rabs (B2R eta) / B2R theta) / 2 ^ 52) /\
  samples (cauchy_fdraw L theta eta D) D (F_cauchy (B2R theta) (B2R eta)) ((28 + Rabs (B2R eta) / B2R theta) / 2 ^ 52 + 3 / (IZR D + 1)).
Proof.
  intros L theta eta D HL H0 H1 HD. pose proof (range_4 D HD) as R4. pose proof (scale_pos theta H0) as P. assert (K : 0 <= Rabs (B2R eta) / B2R theta) by (apply div_ge_0; [exact P|apply Rabs_pos]). pose proof q_pos as Q.
  assert (I : inverts (cauchy_fdraw L theta eta D) D (fun r => B2R (uniformoo 53 1024 D r)) (F_cauchy (B2R theta) (B2R eta)) ((12 + Rabs (B2R eta) / B2R theta) / 2 ^ 52)).
  { intros r Hr. destruct (oo_in D r HD Hr) as (FU & RU). destruct (cauchy_core L HL theta eta _ H0 H1 FU ltac:(lra)) as (A & E). fold (cauchy_fdraw L theta eta D r) in A, E. split; [exact A|]. unfold F_cauchy. unfold q in E. exact E. }
  split; [exact I|]. apply (finish_oo D _ _ ((12 + Rabs (B2R eta) / B2R theta) / 2 ^ 52)); [exact HD|apply proper_cauchy, P|exact I|lra|lra].
Qed.
Theorem C100_logistic : forall L theta eta D, accurate L -> scale theta -> location eta -> library_range D ->
  inverts (logistic_fdraw L theta eta D) D (fun r => B2R (uniformoo 53 1024 D r)) (F_logistic (B2R theta) (B2R eta)) ((140 + Rabs (B2R eta) / B2R theta) / 2 ^ 52) /\
  samples (logistic_fdraw L theta eta D) D (F_logistic (B2R theta) (B2R eta)) ((156 + Rabs (B2R eta) / B2R theta) / 2 ^ 52 + 3 / (IZR D + 1)).
Proof.
  intros L theta eta D HL H0 H1 HD. pose proof (range_4 D HD) as R4. pose proof (scale_pos theta H0) as P. assert (K : 0 <= Rabs (B2R eta) / B2R theta) by (apply div_ge_0; [exact P|apply Rabs_pos]). pose proof q_pos as Q.
  assert (I : inverts (logistic_fdraw L theta eta D) D (fun r => B2R (uniformoo 53 1024 D r)) (F_logistic (B2R theta) (B2R eta)) ((140 + Rabs (B2R eta) / B2R theta) / 2 ^ 52)).
  { intros r Hr. destruct (oo_in D r HD Hr) as (FU & RU). destruct (logistic_core L HL theta eta _ H0 H1 FU ltac:(lra)) as (A & E). fold (logistic_fdraw L theta eta D r) in A, E. split; [exact A|]. unfold F_logistic. unfold q in E. exact E. }
  split; [exact I|]. apply (finish_oo D _ _ ((140 + Rabs (B2R eta) / B2R theta) / 2 ^ 52)); [exact HD|apply proper_logistic, P|exact I|lra|lra].
Qed.
Theorem C100_extreme_value : forall L theta eta D, accurate L -> scale theta -> location eta -> library_range D ->
  inverts (extreme_fdraw L theta eta D) D (fun r => 1 - B2R (uniformoo 53 1024 D r)) (F_extreme (B2R theta) (B2R eta)) ((140 + Rabs (B2R eta) / B2R theta) / 2 ^ 52) /\
  samples (extreme_fdraw L theta eta D) D (F_extreme (B2R theta) (B2R eta)) ((156 + Rabs (B2R eta) / B2R theta) / 2 ^ 52 + 3 / (IZR D + 1)).
Proof.
  intros L theta eta D HL H0 H1 HD. pose proof (range_4 D HD) as R4. pose proof (scale_pos theta H0) as P. assert (K : 0 <= Rabs (B2R eta) / B2R theta) by (apply div_ge_0; [exact P|apply Rabs_pos]). pose proof q_pos as Q.
  assert (I : inverts (extreme_fdraw L theta eta D) D (fun r => 1 - B2R (uniformoo 53 1024 D r)) (F_extreme (B2R theta) (B2R eta)) ((140 + Rabs (B2R eta) / B2R theta) / 2 ^ 52)).
  { intros r Hr. destruct (oo_in D r HD Hr) as (FU & RU). destruct (extreme_core L HL theta eta _ H0 H1 FU ltac:(lra)) as (A & E). fold (extreme_fdraw L theta eta D r) in A, E. split; [exact A|]. unfold F_extreme. unfold q in E. rewrite <- Rabs_Ropp in E. match type of E with Rabs ?a <= _ => match goal with |- Rabs ?b <= _ => replace b with a by ring end end. exact E. }
  split; [exact I|]. apply (finish_down D _ _ ((140 + Rabs (B2R eta) / B2R theta) / 2 ^ 52)); [exact HD|apply proper_extreme, P|exact I|lra|lra].
Qed.
Theorem C100_tent : forall m d D, location m -> scale d -> library_range D ->
  inverts (tent_fdraw m d D) D (fun r => B2R (uniformcc 53 1024 D r)) (F_tent (B2R m) (B2R d)) ((5 + Rabs (B2R m) / B2R d) / 2 ^ 52) /\
  in_range (tent_fdraw m d D) D (fun x => B2R (dsub m d) <= x <= B2R (dadd m d)) /\
  samples (tent_fdraw m d D) D (F_tent (B2R m) (B2R d)) ((21 + Rabs (B2R m) / B2R d) / 2 ^ 52 + 3 / (IZR D + 1)).
Proof.
  intros m d D H0 H1 HD. pose proof (range_4 D HD) as R4. pose proof (scale_pos d H1) as P. assert (K : 0 <= Rabs (B2R m) / B2R d) by (apply div_ge_0; [exact P|apply Rabs_pos]).
  assert (I : inverts (tent_fdraw m d D) D (fun r => B2R (uniformcc 53 1024 D r)) (F_tent (B2R m) (B2R d)) ((5 + Rabs (B2R m) / B2R d) / 2 ^ 52)).
  { intros r Hr. destruct (cc_in D r HD Hr) as (FU & RU). destruct (tent_core m d _ H0 H1 FU RU) as (A & _ & E). split; [exact A|exact E]. }
  split; [exact I|]. split; [intros r Hr; destruct (cc_in D r HD Hr) as (FU & RU); apply (tent_core m d _ H0 H1 FU RU)|]. apply (finish_cc D _ _ ((5 + Rabs (B2R m) / B2R d) / 2 ^ 52)); [exact HD|apply proper_tent, P|exact I|lra|lra].
Qed.

(** the assumptions can be met: a library that rounds correctly, and ordinary parameters *)
Example C100_example : (exists L, accurate L) /\ scale (dint 3) /\ shape (dint 2) /\ location (dopp (dint 7)) /\ library_range (2 ^ 64 - 1).
Proof.
  split; [exists rounded_libm; exact rounded_accurate|]. destruct (int_ok_ 3 ltac:(lia)) as (A3 & B3). destruct (int_ok_ 2 ltac:(lia)) as (A2 & B2). destruct (int_ok_ 7 ltac:(lia)) as (A7 & B7). destruct (opp_ok _ A7) as (A8 & B8).
  assert (P : 8 <= bpow radix2 300) by (change 8 with (bpow radix2 3); apply bpow_le; lia). assert (N : bpow radix2 (-300) <= 1) by (change 1 with (bpow radix2 0); apply bpow_le; lia).
  split; [split; [exact A3|rewrite B3; lra]|]. split; [split; [exact A2|rewrite B2; lra]|]. split; [split; [exact A8|rewrite B8, B7, Rabs_Ropp, Rabs_pos_eq; lra]|]. left. reflexivity.
Qed.

(** ** Over a period *)
Lemma choose (d : nat -> Z) (n : nat) : (forall v, (0 <= v < Z.of_nat n)%Z -> exists! k, (k < n)%nat /\ d k = v) -> forall l, NoDup l -> (forall v, In v l -> (0 <= v < Z.of_nat n)%Z) ->
  exists l', NoDup l' /\ length l' = length l /\ forall i, In i l' <-> (i < n)%nat /\ In (d i) l.
Proof.
  intros H l. induction l as [|v l IH]; intros N R; [exists []; split; [constructor|split; [reflexivity|intros i; split; [intros []|intros (_ & [])]]]|].
  inversion N as [|? ? N1 N2]; subst. destruct (IH N2 ltac:(intros w Hw; apply R; right; exact Hw)) as (l' & L1 & L2 & L3). destruct (H v (R v (or_introl eq_refl))) as (j & (J1 & J2) & U). exists (j :: l'). split; [|split].
  - constructor; [|exact L1]. intros C. apply L3 in C. destruct C as (_ & C). rewrite J2 in C. contradiction.
  - cbn. lia.
  - intros i. cbn [In]. rewrite L3. split.
    + intros [<-|(A & B)]; [split; [exact J1|left; auto]|split; [exact A|right; exact B]].
    + intros (A & [B|B]); [left; apply U; auto|right; auto].
Qed.
(** draws that sample F do so over every period of an engine that visits all its outputs once *)
Theorem C100_period : forall E (next : E -> Z * E) g lo D t f F e, (1 <= D)%Z -> full_cycle_stream next g lo (lo + D + 1) -> samples f D F e ->
  exists l, positions next g lo (D + 1) f t l /\ Rabs (INR (length l) / (IZR D + 1) - F t) <= e.
Proof.
  intros E next g lo D t f F e HD (C1 & C2 & _) S. destruct (S t) as (l & L1 & L2 & L3). replace (lo + D + 1 - lo)%Z with (D + 1)%Z in C2 by lia.
  destruct (choose (fun i => (draw next g i - lo)%Z) (Z.to_nat (D + 1))) with (l := l) as (l' & K1 & K2 & K3).
  - intros v Hv. destruct (C2 (v + lo)%Z ltac:(lia)) as (j & (J1 & J2) & U). exists j. split; [split; [exact J1|lia]|]. intros i (I1 & I2). apply U. split; [exact I1|lia].
  - exact L1.
  - intros v Hv. apply L2 in Hv. lia.
  - exists l'. split; [|rewrite K2; exact L3]. split; [exact K1|]. intros i. rewrite K3, L2. specialize (C1 i). split; intros (A & B); [destruct B as (_ & B)|]; repeat split; try assumption; lia.
Qed.
(** lcg64 and minstd with exponential_dist *)
Theorem C100_engines : forall L mu t, accurate L -> scale mu ->
  (forall a b r, In (a, b) lcg64_params -> word 64 r -> exists l, positions lcg64_next (Lcg64 a b r) 0 (2 ^ 64) (exponential_fdraw L mu (2 ^ 64 - 1)) t l /\
    Rabs (INR (length l) / 2 ^ 64 - F_exponential (B2R mu) t) <= / 2 ^ 46) /\
  (forall r, (1 <= r <= 2147483646)%Z -> exists l, positions minstd_next r 1 2147483646 (exponential_fdraw L mu 2147483645) t l /\
    Rabs (INR (length l) / 2147483646 - F_exponential (B2R mu) t) <= / 2 ^ 29).
Proof.
  intros L mu t HL Hm. split.
  - intros a b r Hin Hr. assert (HD : library_range (2 ^ 64 - 1)) by (left; reflexivity). destruct (C100_exponential L mu _ HL Hm HD) as (_ & _ & S).
    destruct (C100_period _ lcg64_next (Lcg64 a b r) 0 (2 ^ 64 - 1) t _ _ _ ltac:(lia) (C04_lcg64_predefined a b r Hin Hr) S) as (l & L1 & L2).
    exists l. split; [exact L1|]. replace (IZR (2 ^ 64 - 1) + 1) with (2 ^ 64) in L2 by (change (2 ^ 64 - 1)%Z with 18446744073709551615%Z; lra). lra.
  - intros r Hr. assert (HD : library_range 2147483645) by (right; right; right; left; reflexivity). destruct (C100_exponential L mu _ HL Hm HD) as (_ & _ & S).
    destruct (C100_period _ minstd_next r 1 2147483645 t _ _ _ ltac:(lia) (C11_minstd_full_period r ltac:(lia)) S) as (l & L1 & L2).
    exists l. split; [exact L1|]. replace (2147483645 + 1) with 2147483646 in L2 by lra. lra.
Qed.

Print Assumptions C100_exponential.
Print Assumptions C100_twosided_exponential.
Print Assumptions C100_rayleigh.
Print Assumptions C100_weibull.
Print Assumptions C100_pareto.
Print Assumptions C100_powerlaw.
Print Assumptions C100_cauchy.
Print Assumptions C100_logistic.
Print Assumptions C100_extreme_value.
Print Assumptions C100_tent.
Print Assumptions C100_period.
Print Assumptions C100_engines.
