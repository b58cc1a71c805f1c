(** Integrals over an open interval (0, hi), hi finite or infinite, through primitives. *)
From Coq Require Import Reals Lra Psatz Ranalysis5.
From Coquelicot Require Import Coquelicot.
Local Open Scope R_scope.

Lemma mono_cc F f a b : a <= b -> (forall x, a <= x <= b -> is_derive F x (f x)) ->
  (forall x, a <= x <= b -> 0 <= f x) -> F a <= F b.
Proof.
  intros Hab HD Hf.
  destruct (MVT_gen F a b f) as (c & Hc & E).
  - intros x. rewrite Rmin_left, Rmax_right by lra. intros H. apply HD. lra.
  - intros x. rewrite Rmin_left, Rmax_right by lra. intros H.
    apply continuity_pt_filterlim, (ex_derive_continuous F). eexists. apply HD. lra.
  - rewrite Rmin_left, Rmax_right in Hc by lra. assert (0 <= f c) by (apply Hf; lra). nra.
Qed.
Lemma strict_cc F f a b : a < b -> (forall x, a <= x <= b -> is_derive F x (f x)) ->
  (forall x, a <= x <= b -> 0 < f x) -> F a < F b.
Proof.
  intros Hab HD Hf.
  destruct (MVT_gen F a b f) as (c & Hc & E).
  - intros x. rewrite Rmin_left, Rmax_right by lra. intros H. apply HD. lra.
  - intros x. rewrite Rmin_left, Rmax_right by lra. intros H.
    apply continuity_pt_filterlim, (ex_derive_continuous F). eexists. apply HD. lra.
  - rewrite Rmin_left, Rmax_right in Hc by lra. assert (0 < f c) by (apply Hf; lra). nra.
Qed.

Lemma is_derive_val (F : R -> R) (x l l' : R) : is_derive F x l -> l = l' -> is_derive F x l'.
Proof. intros H <-. exact H. Qed.
Lemma is_derive_mul (F G : R -> R) (x f g : R) : is_derive F x f -> is_derive G x g -> is_derive (fun t => F t * G t) x (f * G x + F x * g).
Proof. intros HF HG. exact (is_derive_mult (K := R_AbsRing) F G x f g HF HG Rmult_comm). Qed.
Lemma is_derive_circ (F G : R -> R) (x f g : R) : is_derive F (G x) f -> is_derive G x g -> is_derive (fun t => F (G t)) x (g * f).
Proof. intros HF HG. exact (is_derive_comp F G x f g HF HG). Qed.

(** The interval (0, hi), limits at its two ends. *)
Definition dom (hi : Rbar) (x : R) : Prop := 0 < x /\ Rbar_lt (Finite x) hi.
Definition lbot (F : R -> R) (L : R) : Prop :=
  forall e, 0 < e -> exists d, 0 < d /\ forall x, 0 < x -> x <= d -> Rabs (F x - L) < e.
Definition ltop (hi : Rbar) (F : R -> R) (L : R) : Prop :=
  forall e, 0 < e -> exists b, dom hi b /\ forall x, dom hi x -> b <= x -> Rabs (F x - L) < e.

Lemma dom_down hi x y : dom hi x -> 0 < y -> y <= x -> dom hi y.
Proof. intros [A B] C D. split; [exact C|]. destruct hi; cbn in *; lra. Qed.
Lemma dom_max hi x y : dom hi x -> dom hi y -> dom hi (Rmax x y).
Proof. intros A B. unfold Rmax. destruct (Rle_dec x y); assumption. Qed.

Lemma lbot_unique F L M : lbot F L -> lbot F M -> L = M.
Proof.
  intros A B. apply cond_eq. intros e He.
  destruct (A (e / 2)) as (d1 & D1 & E1); [lra|]. destruct (B (e / 2)) as (d2 & D2 & E2); [lra|].
  assert (H : 0 < Rmin d1 d2) by (apply Rmin_pos; assumption).
  pose proof (Rmin_l d1 d2). pose proof (Rmin_r d1 d2).
  specialize (E1 (Rmin d1 d2) H H0). specialize (E2 (Rmin d1 d2) H H1).
  apply Rabs_def2 in E1, E2. apply Rabs_def1; lra.
Qed.
Lemma ltop_unique hi F L M : ltop hi F L -> ltop hi F M -> L = M.
Proof.
  intros A B. apply cond_eq. intros e He.
  destruct (A (e / 2)) as (d1 & D1 & E1); [lra|]. destruct (B (e / 2)) as (d2 & D2 & E2); [lra|].
  assert (H : dom hi (Rmax d1 d2)) by (apply dom_max; assumption).
  pose proof (Rmax_l d1 d2). pose proof (Rmax_r d1 d2).
  specialize (E1 _ H H0). specialize (E2 _ H H1).
  apply Rabs_def2 in E1, E2. apply Rabs_def1; lra.
Qed.

Lemma ltop_ext hi F F' L : (forall x, dom hi x -> F x = F' x) -> ltop hi F L -> ltop hi F' L.
Proof.
  intros E A e He. destruct (A e He) as (b & D & H). exists b. split; [exact D|].
  intros x Dx Hx. rewrite <- E by exact Dx. exact (H x Dx Hx).
Qed.
Lemma ltop_lin hi F F' L L' a b : ltop hi F L -> ltop hi F' L' -> ltop hi (fun x => a * F x + b * F' x) (a * L + b * L').
Proof.
  intros A B e He. set (k := Rabs a + Rabs b + 1).
  assert (Hk : 0 < k) by (unfold k; pose proof (Rabs_pos a); pose proof (Rabs_pos b); lra).
  assert (He' : 0 < e / k) by (apply Rdiv_lt_0_compat; lra).
  destruct (A _ He') as (d1 & D1 & E1). destruct (B _ He') as (d2 & D2 & E2).
  exists (Rmax d1 d2). split; [apply dom_max; assumption|]. intros x Dx Hx.
  pose proof (Rmax_l d1 d2). pose proof (Rmax_r d1 d2).
  specialize (E1 x Dx ltac:(lra)). specialize (E2 x Dx ltac:(lra)).
  replace (a * F x + b * F' x - (a * L + b * L')) with (a * (F x - L) + b * (F' x - L')) by ring.
  eapply Rle_lt_trans; [apply Rabs_triang|]. rewrite !Rabs_mult.
  assert (E : e = (e / k) * k) by (field; lra).
  assert (Rabs a * Rabs (F x - L) <= Rabs a * (e / k)) by (apply Rmult_le_compat_l; [apply Rabs_pos|lra]).
  assert (Rabs b * Rabs (F' x - L') <= Rabs b * (e / k)) by (apply Rmult_le_compat_l; [apply Rabs_pos|lra]).
  unfold k in E at 2. lra.
Qed.
Lemma lbot_lin F F' L L' a b : lbot F L -> lbot F' L' -> lbot (fun x => a * F x + b * F' x) (a * L + b * L').
Proof.
  intros A B e He. set (k := Rabs a + Rabs b + 1).
  assert (Hk : 0 < k) by (unfold k; pose proof (Rabs_pos a); pose proof (Rabs_pos b); lra).
  assert (He' : 0 < e / k) by (apply Rdiv_lt_0_compat; lra).
  destruct (A _ He') as (d1 & D1 & E1). destruct (B _ He') as (d2 & D2 & E2).
  exists (Rmin d1 d2). split; [apply Rmin_pos; assumption|]. intros x Dx Hx.
  pose proof (Rmin_l d1 d2). pose proof (Rmin_r d1 d2).
  specialize (E1 x Dx ltac:(lra)). specialize (E2 x Dx ltac:(lra)).
  replace (a * F x + b * F' x - (a * L + b * L')) with (a * (F x - L) + b * (F' x - L')) by ring.
  eapply Rle_lt_trans; [apply Rabs_triang|]. rewrite !Rabs_mult.
  assert (E : e = (e / k) * k) by (field; lra).
  assert (Rabs a * Rabs (F x - L) <= Rabs a * (e / k)) by (apply Rmult_le_compat_l; [apply Rabs_pos|lra]).
  assert (Rabs b * Rabs (F' x - L') <= Rabs b * (e / k)) by (apply Rmult_le_compat_l; [apply Rabs_pos|lra]).
  unfold k in E at 2. lra.
Qed.
Lemma ltop_le hi F F' L L' : (forall x, dom hi x -> F x <= F' x) -> ltop hi F L -> ltop hi F' L' -> L <= L'.
Proof.
  intros E A B. apply Rnot_lt_le. intros C.
  destruct (A ((L - L') / 2)) as (d1 & D1 & E1); [lra|]. destruct (B ((L - L') / 2)) as (d2 & D2 & E2); [lra|].
  assert (H : dom hi (Rmax d1 d2)) by (apply dom_max; assumption).
  pose proof (Rmax_l d1 d2). pose proof (Rmax_r d1 d2).
  specialize (E1 _ H H0). specialize (E2 _ H H1). specialize (E _ H).
  apply Rabs_def2 in E1, E2. lra.
Qed.
Lemma ltop_const hi c : (exists b, dom hi b) -> ltop hi (fun _ => c) c.
Proof. intros [b D] e He. exists b. split; [exact D|]. intros. rewrite Rminus_eq_0, Rabs_R0. exact He. Qed.
Lemma ltop_infty F L : ltop p_infty F L -> is_lim F p_infty L.
Proof.
  intros H. apply is_lim_spec. intros e. destruct (H e (cond_pos e)) as (b & [D _] & E).
  exists b. intros x Hx. apply E; [split; [lra|exact I]|lra].
Qed.
Lemma ltop_of_infty F L : is_lim F p_infty (Finite L) -> ltop p_infty F L.
Proof.
  intros H e He. apply is_lim_spec in H. destruct (H (mkposreal e He)) as (b & E).
  exists (Rmax 1 (b + 1)). pose proof (Rmax_l 1 (b + 1)). pose proof (Rmax_r 1 (b + 1)).
  split; [split; [lra|exact I]|]. intros x _ Hx. apply E. lra.
Qed.
Lemma ltop_left (h : R) F L : ltop (Finite h) F L -> filterlim F (at_left h) (locally L).
Proof.
  intros H. apply filterlim_locally. intros e. destruct (H e (cond_pos e)) as (b & [D D'] & E). cbn in D'.
  assert (Hb : 0 < h - b) by lra. exists (mkposreal (h - b) Hb). intros x Hx Hlt.
  assert (K : Rabs (x - h) < h - b) by exact Hx. apply Rabs_def2 in K. apply E; [split; cbn; lra|lra].
Qed.
Lemma lbot_right F L : lbot F L -> filterlim F (at_right 0) (locally L).
Proof.
  intros H. apply filterlim_locally. intros e. destruct (H e (cond_pos e)) as (b & D & E).
  exists (mkposreal b D). intros x Hx Hlt. apply E; [exact Hlt|].
  assert (K : Rabs (x - 0) < b) by exact Hx. apply Rabs_def2 in K. lra.
Qed.

(** [F] is the integral of [f] from 0. *)
Definition prim (hi : Rbar) (F f : R -> R) : Prop :=
  (forall x, dom hi x -> is_derive F x (f x)) /\ lbot F 0.

Lemma prim_le hi F f G g : prim hi F f -> prim hi G g -> (forall x, dom hi x -> f x <= g x) ->
  forall x, dom hi x -> F x <= G x.
Proof.
  intros [HF LF] [HG LG] E x Dx.
  apply Rnot_lt_le. intros C.
  pose proof (lbot_lin F G 0 0 1 (-1) LF LG) as L.
  destruct (L (F x - G x)) as (d & Dd & Ed); [lra|].
  set (y := Rmin d x). assert (0 < y) by (apply Rmin_pos; [exact Dd|apply Dx]).
  pose proof (Rmin_l d x). pose proof (Rmin_r d x). fold y in H0, H1.
  specialize (Ed y H H0). apply Rabs_def2 in Ed.
  assert (K : G y - F y <= G x - F x).
  { apply (mono_cc (fun t => G t - F t) (fun t => g t - f t)); [exact H1| |].
    - intros z Hz. assert (dom hi z) by (apply (dom_down hi x); [exact Dx|lra|lra]).
      apply (is_derive_minus (K := R_AbsRing) (V := R_NormedModule)); [apply HG|apply HF]; assumption.
    - intros z Hz. assert (dom hi z) by (apply (dom_down hi x); [exact Dx|lra|lra]).
      specialize (E z H2). lra. }
  lra.
Qed.
Lemma prim_eq hi F f G g : prim hi F f -> prim hi G g -> (forall x, dom hi x -> f x = g x) ->
  forall x, dom hi x -> F x = G x.
Proof.
  intros HF HG E x Dx. apply Rle_antisym.
  - apply (prim_le hi F f G g); try assumption. intros; rewrite E by assumption; apply Rle_refl.
  - apply (prim_le hi G g F f); try assumption. intros; rewrite E by assumption; apply Rle_refl.
Qed.
Lemma prim_lin hi F f G g a b : prim hi F f -> prim hi G g ->
  prim hi (fun x => a * F x + b * G x) (fun x => a * f x + b * g x).
Proof.
  intros [HF LF] [HG LG]. split.
  - intros x Dx. apply (is_derive_plus (K := R_AbsRing) (V := R_NormedModule)).
    + apply (is_derive_scal F x a (f x)). apply HF, Dx.
    + apply (is_derive_scal G x b (g x)). apply HG, Dx.
  - pose proof (lbot_lin F G 0 0 a b LF LG) as L. replace (a * 0 + b * 0) with 0 in L by ring. exact L.
Qed.
Lemma prim_mono hi F f : prim hi F f -> (forall x, dom hi x -> 0 <= f x) ->
  forall x y, dom hi y -> 0 < x -> x <= y -> F x <= F y.
Proof.
  intros [HF _] P x y Dy Hx Hxy. apply (mono_cc F f); [exact Hxy| |]; intros z Hz; [apply HF|apply P];
    (apply (dom_down hi y); [exact Dy|lra|lra]).
Qed.
Lemma prim_strict hi F f : prim hi F f -> (forall x, dom hi x -> 0 < f x) ->
  forall x y, dom hi y -> 0 < x -> x < y -> F x < F y.
Proof.
  intros [HF _] P x y Dy Hx Hxy. apply (strict_cc F f); [exact Hxy| |]; intros z Hz; [apply HF|apply P];
    (apply (dom_down hi y); [exact Dy|lra|lra]).
Qed.
Lemma prim_zero hi : prim hi (fun _ => 0) (fun _ => 0).
Proof.
  split.
  - intros x _. apply (is_derive_const (K := R_AbsRing) (V := R_NormedModule)).
  - intros e He. exists 1. split; [lra|]. intros. rewrite Rminus_0_r, Rabs_R0. exact He.
Qed.
Lemma prim_nonneg hi F f : prim hi F f -> (forall x, dom hi x -> 0 <= f x) -> forall x, dom hi x -> 0 <= F x.
Proof. intros H P. apply (prim_le hi (fun _ => 0) (fun _ => 0) F f); [apply prim_zero|exact H|exact P]. Qed.
Lemma prim_pos hi F f : prim hi F f -> (forall x, dom hi x -> 0 < f x) -> forall x, dom hi x -> 0 < F x.
Proof.
  intros H P x Dx. assert (dom hi (x / 2)) by (apply (dom_down hi x); [exact Dx|destruct Dx; lra|destruct Dx; lra]).
  apply Rle_lt_trans with (F (x / 2)).
  - apply (prim_nonneg hi F f H); [intros; apply Rlt_le, P; assumption|assumption].
  - apply (prim_strict hi F f H P); destruct Dx; try lra. split; assumption.
Qed.

(** The value at the upper end: the least upper bound. *)
Definition total (hi : Rbar) (F : R -> R) : R := real (Lub_Rbar (fun y => exists x, dom hi x /\ y = F x)).
Lemma total_ltop hi F M : (exists b, dom hi b) -> (forall x y, dom hi y -> 0 < x -> x <= y -> F x <= F y) ->
  (forall x, dom hi x -> F x <= M) -> ltop hi F (total hi F).
Proof.
  intros [b0 D0] HF HM. unfold total. set (E := fun y => exists x, dom hi x /\ y = F x).
  destruct (Lub_Rbar_correct E) as [U1 U2].
  assert (HB : is_ub_Rbar E (Finite M)) by (intros y (x & Dx & ->); apply HM, Dx).
  destruct (Lub_Rbar E) as [L| |] eqn:EL.
  - cbn [real]. intros e He.
    assert (exists b, dom hi b /\ L - e < F b) as (b & Db & Hb).
    { destruct (Classical_Prop.classic (exists b, dom hi b /\ L - e < F b)) as [?|N]; [assumption|exfalso].
      assert (is_ub_Rbar E (Finite (L - e))).
      { intros y (x & Dx & ->). cbn. apply Rnot_lt_le. intros C. apply N. exists x. split; assumption. }
      specialize (U2 _ H). cbn in U2. lra. }
    exists b. split; [exact Db|]. intros x Dx Hx.
    assert (F b <= F x) by (apply HF; [exact Dx|apply Db|exact Hx]).
    assert (F x <= L) by (specialize (U1 (F x) (ex_intro _ x (conj Dx eq_refl))); exact U1).
    apply Rabs_def1; lra.
  - exfalso. specialize (U2 _ HB). exact U2.
  - exfalso. specialize (U1 (F b0) (ex_intro _ b0 (conj D0 eq_refl))). exact U1.
Qed.
Lemma ltop_upper hi F L : (forall x y, dom hi y -> 0 < x -> x <= y -> F x <= F y) -> ltop hi F L ->
  forall x, dom hi x -> F x <= L.
Proof.
  intros HF HL x Dx. apply Rnot_lt_le. intros C. destruct (HL (F x - L)) as (b & Db & Hb); [lra|].
  pose proof (Rmax_l b x). pose proof (Rmax_r b x).
  assert (DM : dom hi (Rmax b x)) by (apply dom_max; assumption).
  specialize (Hb _ DM H). apply Rabs_def2 in Hb.
  assert (F x <= F (Rmax b x)) by (apply HF; [exact DM|apply Dx|exact H0]). lra.
Qed.
Lemma ltop_upper_strict hi F L : (forall x y, dom hi y -> 0 < x -> x < y -> F x < F y) -> (forall x, dom hi x -> exists y, dom hi y /\ x < y) ->
  ltop hi F L -> forall x, dom hi x -> F x < L.
Proof.
  intros HF HY HL x Dx. destruct (HY x Dx) as (y & Dy & Hy). apply Rlt_le_trans with (F y).
  - apply HF; [exact Dy|apply Dx|exact Hy].
  - apply (ltop_upper hi F L); [|exact HL|exact Dy]. intros u v Dv Hu [Huv| ->]; [left; apply HF; assumption|right; reflexivity].
Qed.
(** Intermediate values between the two ends. *)
Lemma prim_onto hi F f L : prim hi F f -> (forall x, dom hi x -> 0 <= f x) -> (exists b, dom hi b) -> ltop hi F L -> forall p, 0 < p < L ->
  exists x, dom hi x /\ F x = p.
Proof.
  intros HP P0 [b0 D0] HL p [Hp0 HpL].
  destruct (HL (L - p)) as (b & Db & Hb); [lra|]. specialize (Hb b Db (Rle_refl b)). apply Rabs_def2 in Hb.
  destruct HP as [HD HB]. destruct (HB p Hp0) as (d & Hd & Ed).
  set (a := Rmin d b). assert (Ha : 0 < a) by (apply Rmin_pos; [exact Hd|apply Db]).
  pose proof (Rmin_l d b). pose proof (Rmin_r d b). fold a in H, H0.
  specialize (Ed a Ha H). apply Rabs_def2 in Ed.
  assert (Hab : a < b).
  { destruct H0 as [?|E]; [assumption|]. rewrite E in Ed. lra. }
  destruct (IVT_interv (fun x => F x - p) a b) as (x & Hx & E).
  - intros x Hx. apply continuity_pt_minus; [|apply continuity_pt_const; intros ? ?; reflexivity].
    apply continuity_pt_filterlim, (ex_derive_continuous F). eexists. apply HD.
    apply (dom_down hi b); [exact Db|lra|lra].
  - exact Hab.
  - lra.
  - lra.
  - exists x. split; [apply (dom_down hi b); [exact Db|lra|lra]|lra].
Qed.
Lemma prim_ext F F' f hi : (forall x, F x = F' x) -> prim hi F f -> prim hi F' f.
Proof.
  intros E [HD HB]. split.
  - intros x Dx. apply (is_derive_ext F); [exact E|apply HD, Dx].
  - intros e He. destruct (HB e He) as (d & Hd & Ed). exists d. split; [exact Hd|]. intros. rewrite <- E. apply Ed; assumption.
Qed.
