(** Proofs about the iterations of NewtonModel. *)
From Coq Require Import Reals ZArith Lra Psatz Lia Bool.
From Coquelicot Require Import Coquelicot.
From Verif Require Import ContModel ContProofs GamModel SeriesModel NormModel NewtonModel Improper GammaFn BetaFn GamProofs SeriesProofs.
Local Open Scope R_scope.

(** ** Taylor's formula by repeated use of the mean value theorem *)
Definition between (x y z : R) : Prop := Rmin x y <= z <= Rmax x y.
Lemma between_abs x y z : between x y z -> Rabs (z - x) <= Rabs (y - x).
Proof.
  unfold between, Rmin, Rmax. destruct (Rle_dec x y); intros H.
  - rewrite !Rabs_pos_eq by lra. lra.
  - rewrite !Rabs_left1 by lra. lra.
Qed.
Lemma between_sub x y z u : between x y z -> between x z u -> between x y u.
Proof. unfold between, Rmin, Rmax. destruct (Rle_dec x y), (Rle_dec x z); lra. Qed.
Lemma between_l x y : between x y x.
Proof. unfold between. pose proof (Rmin_l x y). pose proof (Rmax_l x y). lra. Qed.
Lemma between_r x y : between x y y.
Proof. unfold between. pose proof (Rmin_r x y). pose proof (Rmax_r x y). lra. Qed.
Lemma lipschitz (F f : R -> R) x y K : (forall z, between x y z -> is_derive F z (f z)) -> (forall z, between x y z -> Rabs (f z) <= K) ->
  Rabs (F y - F x) <= K * Rabs (y - x).
Proof.
  intros HD HB. destruct (MVT_gen F x y f) as (c & Hc & E).
  - intros z Hz. apply HD. unfold between. lra.
  - intros z Hz. apply continuity_pt_filterlim, (ex_derive_continuous F). eexists. apply HD. exact Hz.
  - rewrite E, Rabs_mult. apply Rmult_le_compat_r; [apply Rabs_pos|]. apply HB. exact Hc.
Qed.
Lemma taylor2 (F f g : R -> R) x y M : (forall z, between x y z -> is_derive F z (f z)) -> (forall z, between x y z -> is_derive f z (g z)) ->
  (forall z, between x y z -> Rabs (g z) <= M) -> Rabs (F y - F x - (y - x) * f x) <= M * Rabs (y - x) ^ 2.
Proof.
  intros HF Hf Hg. assert (M0 : 0 <= M) by (pose proof (Hg x (between_l x y)); pose proof (Rabs_pos (g x)); lra).
  replace (F y - F x - (y - x) * f x) with ((F y - (y - x) * f x) - (F x - (x - x) * f x)) by ring.
  replace (M * Rabs (y - x) ^ 2) with (M * Rabs (y - x) * Rabs (y - x)) by ring.
  apply (lipschitz (fun z => F z - (z - x) * f x) (fun z => f z - f x)).
  - intros z Hz. assert (D : is_derive (fun z => (z - x) * f x) z (f x)) by (auto_derive; [exact Logic.I|ring]).
    apply is_derive_val with (minus (f z) (f x)); [|reflexivity]. exact (is_derive_minus F _ z _ _ (HF z Hz) D).
  - intros z Hz. apply Rle_trans with (M * Rabs (z - x)).
    + apply (lipschitz f g); intros u Hu; [apply Hf|apply Hg]; exact (between_sub x y z u Hz Hu).
    + apply Rmult_le_compat_l; [exact M0|apply between_abs, Hz].
Qed.
Lemma taylor3 (F f g h : R -> R) x y M : (forall z, between x y z -> is_derive F z (f z)) -> (forall z, between x y z -> is_derive f z (g z)) ->
  (forall z, between x y z -> is_derive g z (h z)) -> (forall z, between x y z -> Rabs (h z) <= M) ->
  Rabs (F y - F x - (y - x) * f x - (y - x) ^ 2 * (g x / 2)) <= M * Rabs (y - x) ^ 3.
Proof.
  intros HF Hf Hg Hh. assert (M0 : 0 <= M) by (pose proof (Hh x (between_l x y)); pose proof (Rabs_pos (h x)); lra).
  replace (F y - F x - (y - x) * f x - (y - x) ^ 2 * (g x / 2)) with ((F y - (y - x) * f x - (y - x) ^ 2 * (g x / 2)) - (F x - (x - x) * f x - (x - x) ^ 2 * (g x / 2))) by ring.
  replace (M * Rabs (y - x) ^ 3) with (M * Rabs (y - x) ^ 2 * Rabs (y - x)) by ring.
  apply (lipschitz (fun z => F z - (z - x) * f x - (z - x) ^ 2 * (g x / 2)) (fun z => f z - f x - (z - x) * g x)).
  - intros z Hz. assert (D : is_derive (fun z => (z - x) * f x + (z - x) ^ 2 * (g x / 2)) z (f x + (z - x) * g x)) by (auto_derive; [exact Logic.I|field]).
    apply is_derive_ext with (fun z => minus (F z) ((z - x) * f x + (z - x) ^ 2 * (g x / 2))).
    { intros u. unfold minus, plus, opp. cbn. ring. }
    apply is_derive_val with (minus (f z) (f x + (z - x) * g x)); [exact (is_derive_minus F _ z _ _ (HF z Hz) D)|].
    unfold minus, plus, opp. cbn. ring.
  - intros z Hz. apply Rle_trans with (M * Rabs (z - x) ^ 2).
    + apply (taylor2 f g h); intros u Hu; [apply Hf|apply Hg|apply Hh]; exact (between_sub x y z u Hz Hu).
    + apply Rmult_le_compat_l; [exact M0|]. apply pow_incr. split; [apply Rabs_pos|apply between_abs, Hz].
Qed.

(** ** inv_GammaP *)
Definition dens (a x : R) : R := gterm a x / Gam a.
Lemma dens_pos a x : 0 < a -> 0 < dens a x.
Proof. intros Ha. apply Rdiv_lt_0_compat; [apply gterm_pos|apply Gam_pos, Ha]. Qed.
Lemma hal_density_val a x : 0 < a -> 0 < x -> hal_density a x = dens a x.
Proof.
  intros Ha Hx. unfold hal_density, dens, gterm. cbv zeta. pose proof (Gam_pos a Ha) as GP. rewrite lgamma_ln by exact Ha.
  assert (E : exp (- x + (a - 1) * ln x - ln (Gam a)) = exp (- x) * Rpower x (a - 1) / Gam a).
  { unfold Rminus at 1. rewrite !exp_plus, (exp_Ropp (ln (Gam a))), (exp_ln (Gam a)) by exact GP. reflexivity. }
  destruct (Rlt_dec 1 a); [|exact E]. rewrite <- exp_plus, <- E. f_equal. ring.
Qed.
(** x times the density is at most a *)
Lemma dens_edge a x : 0 < a -> 0 < x -> x * dens a x = exp (- x) * Rpower x a / Gam a.
Proof. intros Ha Hx. unfold dens, gterm. rewrite (Rpower_S x a Hx). field. pose proof (Gam_pos a Ha). lra. Qed.
Lemma dens_bound a x : 0 < a -> 0 < x -> x * dens a x <= a.
Proof.
  intros Ha Hx. rewrite dens_edge by assumption. pose proof (Gam_pos a Ha) as GP. pose proof (lgam_rec a x Ha Hx) as E.
  pose proof (lgam_pos (a + 1) x ltac:(lra) Hx) as L1. pose proof (lgam_lt_Gam a x Ha Hx) as L2.
  apply (Rmult_le_reg_r (Gam a)); [exact GP|]. unfold Rdiv. rewrite Rmult_assoc, Rinv_l, Rmult_1_r by lra. nra.
Qed.
Definition curv (a x : R) : R := (a - 1) / x - 1.
Lemma gterm_deriv a x : 0 < x -> is_derive (gterm a) x (gterm a x * curv a x).
Proof.
  intros Hx. pose proof (edge_deriv (a - 1) x Hx) as D. refine (is_derive_val (gterm a) x _ _ D _).
  unfold curv. assert (E1 : gterm (a - 1) x = gterm a x / x).
  { unfold gterm. rewrite (Rpower_S x (a - 1) Hx). field. lra. }
  rewrite E1. replace (a - 1 + 1) with a by ring. field. lra.
Qed.
Lemma dens_deriv a x : 0 < a -> 0 < x -> is_derive (dens a) x (dens a x * curv a x).
Proof.
  intros Ha Hx. unfold dens. apply is_derive_val with (gterm a x * curv a x / Gam a); [|field; pose proof (Gam_pos a Ha); lra].
  apply is_derive_const_div, gterm_deriv, Hx.
Qed.
Lemma curv_deriv a x : 0 < x -> is_derive (curv a) x (- ((a - 1) / x ^ 2)).
Proof. intros Hx. unfold curv. auto_derive; [lra|]. field. lra. Qed.
Lemma dens_deriv2 a x : 0 < a -> 0 < x -> is_derive (fun z => dens a z * curv a z) x (dens a x * (curv a x ^ 2 - (a - 1) / x ^ 2)).
Proof.
  intros Ha Hx. apply is_derive_val with (dens a x * curv a x * curv a x + dens a x * (- ((a - 1) / x ^ 2))); [|ring].
  apply is_derive_mul; [apply dens_deriv|apply curv_deriv]; assumption.
Qed.

Lemma hal_eps_val : hal_eps = / 2 ^ 26.
Proof.
  unfold hal_eps, epsilon. replace (/ 2 ^ 52) with (Rsqr (/ 2 ^ 26)); [apply sqrt_Rsqr; lra|]. unfold Rsqr. rewrite <- Rinv_mult. f_equal. ring.
Qed.
Definition hal_div (a u x : R) : R := 1 - Rmin 1 (u * ((a - 1) / x - 1)) / 2.
Lemma hal_div_pos a u x : 1 / 2 <= hal_div a u x.
Proof. unfold hal_div. pose proof (Rmin_l 1 (u * ((a - 1) / x - 1))). lra. Qed.
Lemma hal_step_val gp a p x : 0 < a -> 0 < x -> let u := (gp x - p) / dens a x in
  hal_step gp a p x = (u / hal_div a u x, if Rle_dec (x - u / hal_div a u x) 0 then x / 2 else x - u / hal_div a u x).
Proof.
  intros Ha Hx u. unfold hal_step. cbv zeta. rewrite hal_density_val by assumption. fold u. fold (hal_div a u x).
  replace (x - u / hal_div a u x + u / hal_div a u x) with x by ring. reflexivity.
Qed.
Lemma hal_step_pos gp a p x : 0 < a -> 0 < x -> 0 < snd (hal_step gp a p x).
Proof. intros Ha Hx. rewrite hal_step_val by assumption. cbv zeta. cbn [snd]. destruct (Rle_dec _ 0); lra. Qed.
Lemma hal_fixed gp a p x : 0 < a -> 0 < x -> (snd (hal_step gp a p x) = x <-> gp x = p).
Proof.
  intros Ha Hx. rewrite hal_step_val by assumption. cbv zeta. cbn [snd]. set (u := (gp x - p) / dens a x). pose proof (hal_div_pos a u x) as D. pose proof (dens_pos a x Ha) as Pd.
  split; intros E.
  - destruct (Rle_dec (x - u / hal_div a u x) 0) as [L|L]; [lra|].
    assert (U : u / hal_div a u x = 0) by lra. assert (U0 : u = 0).
    { replace u with (u / hal_div a u x * hal_div a u x) by (field; lra). rewrite U. ring. }
    unfold u in U0. assert (gp x - p = 0); [|lra]. replace (gp x - p) with ((gp x - p) / dens a x * dens a x) by (field; lra). rewrite U0. ring.
  - assert (U0 : u = 0) by (unfold u; rewrite E; unfold Rdiv; ring). assert (Z0 : forall c, 0 / c = 0) by (intros; unfold Rdiv; ring). rewrite U0, !Z0. destruct (Rle_dec (x - 0) 0); lra.
Qed.
Lemma hal_loop_pos gp a p : 0 < a -> forall k x, 0 < x -> fst (hal_loop k gp a p x) <> Zero /\ 0 < snd (hal_loop k gp a p x).
Proof.
  intros Ha. induction k as [|k IH]; intros x Hx; cbn [hal_loop]; [cbn; split; [discriminate|exact Hx]|].
  destruct (Rle_dec x 0); [lra|]. pose proof (hal_step_pos gp a p x Ha Hx) as S. destruct (hal_step gp a p x) as [t x']. cbn [snd] in S.
  destruct (Rlt_dec (Rabs t) (hal_eps * x')); [cbn; split; [discriminate|exact S]|apply IH, S].
Qed.
(** a loop that met its tolerance ends with a short step *)
Lemma hal_loop_met gp a p : 0 < a -> forall k x r, 0 < x -> hal_loop k gp a p x = (Met, r) ->
  exists z t, 0 < z /\ 0 < r /\ hal_step gp a p z = (t, r) /\ Rabs t < hal_eps * r.
Proof.
  intros Ha. induction k as [|k IH]; intros x r Hx H; cbn [hal_loop] in H; [discriminate H|].
  destruct (Rle_dec x 0); [discriminate H|]. pose proof (hal_step_pos gp a p x Ha Hx) as S. destruct (hal_step gp a p x) as [t x'] eqn:E. cbn [snd] in S.
  destruct (Rlt_dec (Rabs t) (hal_eps * x')) as [L|L]; [|exact (IH x' r S H)].
  assert (Er : x' = r) by (injection H; auto). subst x'. exists x, t. repeat split; assumption.
Qed.
Lemma hal_start_pos a p : 0 < a -> 0 < p < 1 -> 0 < hal_start a p.
Proof.
  intros Ha Hp. unfold hal_start. destruct (Rlt_dec 1 a) as [A|A].
  - cbv zeta. eapply Rlt_le_trans; [|apply Rmax_l]. lra.
  - cbv zeta. set (t := 1 - a * (253 / 1000 + a * (12 / 100))). assert (T : 0 < t < 1) by (unfold t; nra).
    destruct (Rlt_dec p t) as [B|B]; [apply Rpower_pos|].
    assert (L : ln (1 + - (p - t) / (1 - t)) <= 0); [|lra]. rewrite <- ln_1. apply ln_le.
    + replace (1 + - (p - t) / (1 - t)) with ((1 - p) / (1 - t)) by (field; lra). apply Rdiv_lt_0_compat; lra.
    + assert (0 <= (p - t) / (1 - t)) by (apply Rmult_le_pos; [lra|]; left; apply Rinv_0_lt_compat; lra).
      replace (- (p - t) / (1 - t)) with (- ((p - t) / (1 - t))) by (field; lra). lra.
Qed.

(** the residual after a short step of Halley's method is of third order *)
Lemma hal_cubic a p g x t r : 0 < a -> 0 < x -> 0 < r -> hal_step (fun _ => g) a p x = (t, r) -> Rabs t < hal_eps * r -> a + 1 + r <= 2 ^ 25 ->
  Rabs (P a r - P a x + (g - p)) <= / 2 ^ 76 * a * (a + 1 + r) ^ 2.
Proof.
  intros Ha Hx Hr H Ht HB. rewrite hal_step_val in H by assumption. cbv zeta in H. rewrite hal_eps_val in Ht. set (u := (g - p) / dens a x) in *.
  assert (Et : u / hal_div a u x = t) by (injection H; auto). rewrite Et in H.
  assert (Er : (if Rle_dec (x - t) 0 then x / 2 else x - t) = r) by (injection H; auto). clear H.
  set (e := / 2 ^ 26) in *. assert (He : 0 < e <= / 2 ^ 26) by (unfold e; lra).
  apply Rabs_def2 in Ht. assert (Er2 : r = x - t). { destruct (Rle_dec (x - t) 0); [exfalso; nra|lra]. } clear Er.
  pose proof (dens_pos a x Ha) as Pd. pose proof (hal_div_pos a u x) as Dp.
  assert (Err : g - p = t * hal_div a u x * dens a x). { replace (t * hal_div a u x) with u by (rewrite <- Et; field; lra). unfold u. field. lra. }
  set (M := a + 1 + r * (1 + e)). assert (M1 : 1 <= M) by (unfold M; nra). assert (MM : M <= M ^ 2) by (clear - M1; nra). assert (MP : 0 <= M ^ 2) by lra.
  assert (Z : forall z, between x r z -> r * (1 - e) <= z <= r * (1 + e) /\ 0 < z).
  { intros z. unfold between, Rmin, Rmax. destruct (Rle_dec x r); nra. }
  assert (C : forall z, between x r z -> Rabs (curv a z) <= M / z).
  { intros z Hz. destruct (Z z Hz) as ((Z1 & Z2) & Z0). unfold curv. replace ((a - 1) / z - 1) with ((a - 1 - z) / z) by (field; lra).
    unfold Rdiv at 1. rewrite Rabs_mult, (Rabs_pos_eq (/ z)) by (left; apply Rinv_0_lt_compat; lra). apply Rmult_le_compat_r; [left; apply Rinv_0_lt_compat; lra|].
    unfold M. apply Rabs_le. lra. }
  set (s := r * (1 - e)). assert (S0 : 0 < s) by (unfold s; nra).
  assert (Hd : forall z, between x r z -> Rabs (dens a z * (curv a z ^ 2 - (a - 1) / z ^ 2)) <= 2 * a * M ^ 2 / s ^ 3).
  { intros z Hz. destruct (Z z Hz) as ((Z1 & Z2) & Z0). pose proof (C z Hz) as Cz. pose proof (dens_bound a z Ha Z0) as Db. pose proof (dens_pos a z Ha) as Dz.
    rewrite Rabs_mult, (Rabs_pos_eq (dens a z)) by lra.
    assert (Q : Rabs (curv a z ^ 2 - (a - 1) / z ^ 2) <= 2 * M ^ 2 / z ^ 2).
    { assert (Iz : 0 < / z ^ 2) by (apply Rinv_0_lt_compat, pow_lt; lra).
      assert (Q1 : Rabs (curv a z ^ 2) <= M ^ 2 / z ^ 2).
      { rewrite <- RPow_abs. replace (M ^ 2 / z ^ 2) with ((M / z) ^ 2) by (field; lra). apply pow_incr. split; [apply Rabs_pos|exact Cz]. }
      assert (Q2 : Rabs ((a - 1) / z ^ 2) <= M ^ 2 / z ^ 2).
      { unfold Rdiv. rewrite Rabs_mult, (Rabs_pos_eq (/ z ^ 2)) by lra. apply Rmult_le_compat_r; [lra|]. apply Rle_trans with M; [|exact MM]. unfold M. apply Rabs_le. assert (RE : 0 <= r * (1 + e)) by (clear - Hr He; nra). split; lra. }
      replace (2 * M ^ 2 / z ^ 2) with (M ^ 2 / z ^ 2 + M ^ 2 / z ^ 2) by (field; lra). replace (curv a z ^ 2 - (a - 1) / z ^ 2) with (curv a z ^ 2 + - ((a - 1) / z ^ 2)) by ring. eapply Rle_trans; [apply Rabs_triang|]. rewrite Rabs_Ropp. lra. }
    assert (Iz : 0 < / z ^ 3) by (apply Rinv_0_lt_compat, pow_lt; lra).
    apply Rle_trans with (2 * a * M ^ 2 / z ^ 3).
    - apply Rle_trans with (dens a z * (2 * M ^ 2 / z ^ 2)); [apply Rmult_le_compat_l; lra|].
      replace (dens a z * (2 * M ^ 2 / z ^ 2)) with (z * dens a z * (2 * M ^ 2 / z ^ 3)) by (field; lra).
      replace (2 * a * M ^ 2 / z ^ 3) with (a * (2 * M ^ 2 / z ^ 3)) by (field; lra). apply Rmult_le_compat_r; [|exact Db].
      apply Rmult_le_pos; [nra|lra].
    - unfold Rdiv. apply Rmult_le_compat_l; [nra|]. apply Rinv_le_contravar; [apply pow_lt, S0|]. apply pow_incr. split; [lra|exact Z1]. }
  pose proof (taylor3 (P a) (dens a) (fun z => dens a z * curv a z) (fun z => dens a z * (curv a z ^ 2 - (a - 1) / z ^ 2)) x r (2 * a * M ^ 2 / s ^ 3)
    (fun z Hz => P_deriv a z Ha (proj2 (Z z Hz))) (fun z Hz => dens_deriv a z Ha (proj2 (Z z Hz))) (fun z Hz => dens_deriv2 a z Ha (proj2 (Z z Hz))) Hd) as T3.
  replace (r - x) with (- t) in T3 by lra. rewrite Rabs_Ropp in T3.
  assert (At : Rabs t <= e * r) by (apply Rabs_le; lra).
  assert (q1 : e * r / s <= 10000001 / 10000000 * / 2 ^ 26).
  { unfold s. replace (e * r / (r * (1 - e))) with (e / (1 - e)) by (field; lra). apply (Rmult_le_reg_r (1 - e)); [lra|]. unfold Rdiv. rewrite Rmult_assoc, Rinv_l by lra. unfold e. lra. }
  assert (Cx : Rabs (curv a x) <= M / x) by (apply C, between_l).
  assert (Sx : s <= x) by (apply (Z x (between_l x r))).
  assert (tc : Rabs (t * curv a x) <= 1).
  { rewrite Rabs_mult. apply Rle_trans with (e * r * (M / s)).
    - apply Rmult_le_compat; try apply Rabs_pos; [exact At|]. eapply Rle_trans; [exact Cx|]. unfold Rdiv. apply Rmult_le_compat_l; [lra|]. apply Rinv_le_contravar; lra.
    - replace (e * r * (M / s)) with (e * r / s * M) by (unfold Rdiv; ring).
      assert (M <= (a + 1 + r) * (1 + / 2 ^ 26)) by (unfold M, e; nra). assert (0 <= e * r / s) by (apply Rmult_le_pos; [nra|left; apply Rinv_0_lt_compat, S0]).
      apply Rle_trans with (10000001 / 10000000 * / 2 ^ 26 * M); [apply Rmult_le_compat_r; lra|]. nra. }
  apply Rabs_le_between in tc.
  assert (Ed : hal_div a u x = 1 / (1 + t * curv a x / 2)).
  { fold (curv a x) in *. unfold hal_div in *. fold (curv a x) in *.
    assert (Eu : u = t * (1 - Rmin 1 (u * curv a x) / 2)) by (rewrite <- Et at 1; field; lra).
    unfold Rmin in *. destruct (Rle_dec 1 (u * curv a x)) as [L|L].
    - exfalso. assert (u = t / 2) by lra. nra.
    - assert (Q : (1 - u * curv a x / 2) * (1 + t * curv a x / 2) = 1).
      { replace ((1 - u * curv a x / 2) * (1 + t * curv a x / 2)) with (1 - curv a x / 2 * (u - t * (1 - u * curv a x / 2))) by field. rewrite <- Eu. field. }
      apply (Rmult_eq_reg_r (1 + t * curv a x / 2)); [|lra]. rewrite Q. field. lra. }
  set (c := curv a x) in *. rewrite Err, Ed.
  (* exact part of the residual *)
  assert (E1 : P a r - P a x + t * (1 / (1 + t * c / 2)) * dens a x =
    (P a r - P a x - - t * dens a x - (- t) ^ 2 * (dens a x * c / 2)) + t ^ 3 * (dens a x * c ^ 2) * (1 / (4 * (1 + t * c / 2)))) by (field; lra).
  rewrite E1. eapply Rle_trans; [apply Rabs_triang|].
  assert (T0 : 0 <= Rabs t) by apply Rabs_pos.
  assert (B1 : 2 * a * M ^ 2 / s ^ 3 * Rabs t ^ 3 <= 2 * a * M ^ 2 * (e * r / s) ^ 3).
  { replace (2 * a * M ^ 2 / s ^ 3 * Rabs t ^ 3) with (2 * a * M ^ 2 * (Rabs t / s) ^ 3) by (field; lra). apply Rmult_le_compat_l; [nra|]. apply pow_incr.
    split; [apply Rmult_le_pos; [exact T0|left; apply Rinv_0_lt_compat, S0]|]. unfold Rdiv. apply Rmult_le_compat_r; [left; apply Rinv_0_lt_compat, S0|exact At]. }
  assert (B2 : Rabs (t ^ 3 * (dens a x * c ^ 2) * (1 / (4 * (1 + t * c / 2)))) <= a * M ^ 2 / 2 * (e * r / s) ^ 3).
  { rewrite !Rabs_mult, <- !RPow_abs, (Rabs_pos_eq (dens a x)) by lra.
    assert (I4 : Rabs (1 / (4 * (1 + t * c / 2))) <= 1 / 2).
    { rewrite Rabs_pos_eq by (left; apply Rdiv_lt_0_compat; lra). unfold Rdiv. rewrite Rmult_1_l. rewrite Rmult_1_l. apply Rinv_le_contravar; lra. }
    assert (I2 : dens a x * Rabs c ^ 2 <= a * M ^ 2 / s ^ 3).
    { pose proof (dens_bound a x Ha Hx) as Db. apply Rle_trans with (dens a x * (M / x) ^ 2).
      - apply Rmult_le_compat_l; [lra|]. apply pow_incr. split; [apply Rabs_pos|exact Cx].
      - replace (dens a x * (M / x) ^ 2) with (x * dens a x * (M ^ 2 / x ^ 3)) by (field; lra). replace (a * M ^ 2 / s ^ 3) with (a * (M ^ 2 / s ^ 3)) by (field; lra).
        assert (0 < / x ^ 3) by (apply Rinv_0_lt_compat, pow_lt; lra). apply Rmult_le_compat; [nra|apply Rmult_le_pos; nra|exact Db|]. unfold Rdiv. apply Rmult_le_compat_l; [nra|].
        apply Rinv_le_contravar; [apply pow_lt, S0|]. apply pow_incr. lra. }
    apply Rle_trans with (Rabs t ^ 3 * (a * M ^ 2 / s ^ 3) * (1 / 2)).
    - apply Rmult_le_compat; [|apply Rabs_pos| |exact I4].
      + apply Rmult_le_pos; [apply pow_le, T0|]. apply Rmult_le_pos; [lra|apply pow_le, Rabs_pos].
      + apply Rmult_le_compat_l; [apply pow_le, T0|exact I2].
    - replace (Rabs t ^ 3 * (a * M ^ 2 / s ^ 3) * (1 / 2)) with (a * M ^ 2 / 2 * (Rabs t / s) ^ 3) by (field; lra). apply Rmult_le_compat_l; [nra|]. apply pow_incr.
      split; [apply Rmult_le_pos; [exact T0|left; apply Rinv_0_lt_compat, S0]|]. unfold Rdiv. apply Rmult_le_compat_r; [left; apply Rinv_0_lt_compat, S0|exact At]. }
  assert (q0 : 0 <= e * r / s) by (apply Rmult_le_pos; [nra|left; apply Rinv_0_lt_compat, S0]).
  assert (q3 : (e * r / s) ^ 3 <= 11 / 10 * / 2 ^ 78).
  { apply Rle_trans with ((10000001 / 10000000 * / 2 ^ 26) ^ 3); [apply pow_incr; lra|]. lra. }
  assert (BM : M ^ 2 <= 11 / 10 * (a + 1 + r) ^ 2).
  { assert (M <= (a + 1 + r) * (1 + / 2 ^ 26)) by (unfold M, e; nra). apply Rle_trans with (((a + 1 + r) * (1 + / 2 ^ 26)) ^ 2); [apply pow_incr; lra|]. rewrite Rpow_mult_distr. nra. }
  apply Rle_trans with (2 * a * M ^ 2 * (e * r / s) ^ 3 + a * M ^ 2 / 2 * (e * r / s) ^ 3); [apply Rplus_le_compat; [eapply Rle_trans; [exact T3|exact B1]|exact B2]|].
  assert (q4 : 0 <= (e * r / s) ^ 3) by (apply pow_le, q0). set (Q := (e * r / s) ^ 3) in *.
  replace (2 * a * M ^ 2 * Q + a * M ^ 2 / 2 * Q) with (5 / 2 * a * (M ^ 2 * Q)) by field.
  assert (K : M ^ 2 * Q <= 11 / 10 * (a + 1 + r) ^ 2 * (11 / 10 * / 2 ^ 78)) by (apply Rmult_le_compat; assumption).
  apply Rle_trans with (5 / 2 * a * (11 / 10 * (a + 1 + r) ^ 2 * (11 / 10 * / 2 ^ 78))); [apply Rmult_le_compat_l; lra|].
  replace (/ 2 ^ 78) with (/ 2 ^ 76 * / 4) by lra. set (W := (a + 1 + r) ^ 2) in *. assert (0 <= / 2 ^ 76 * (a * W)) by (apply Rmult_le_pos; [lra|]; apply Rmult_le_pos; [lra|apply pow_le; lra]). lra.
Qed.

(** *** Small shape: the series returns 0 below its tolerance and the iteration cannot get there *)
Section small_shape.
Let a : R := 1 / 128.
Variable cf : bool -> R -> R -> R.
Variable asyP : R -> R -> R.
Let gp := gp_series cf asyP a.
Lemma ss_Gam : 128 / 129 <= Gam (a + 1) <= 1.
Proof.
  split; [|apply Gam_le_1; unfold a; lra]. pose proof (Gam_wendel (a + 1) (1 - a) ltac:(unfold a; lra) ltac:(unfold a; lra)) as W.
  replace (a + 1 + (1 - a)) with 2 in W by ring. rewrite Gam_2 in W. pose proof (Gam_pos (a + 1) ltac:(unfold a; lra)) as GP.
  assert (R1 : Rpower (a + 1) (1 - a) <= 129 / 128).
  { apply Rle_trans with (Rpower (a + 1) 1); [apply Rle_Rpower; unfold a; lra|]. rewrite Rpower_1 by (unfold a; lra). unfold a. lra. }
  assert (1 <= 129 / 128 * Gam (a + 1)); [|lra]. eapply Rle_trans; [exact W|]. apply Rmult_le_compat_r; lra.
Qed.
Lemma ss_edge x : 0 < x -> x * dens a x = a * (exp (- x) * Rpower x a) / Gam (a + 1).
Proof.
  intros Hx. assert (Ha : 0 < a) by (unfold a; lra). rewrite dens_edge, Gam_rec by assumption. pose proof (Gam_pos a Ha). field. split; [lra|]. unfold a. lra.
Qed.
Lemma ss_pow x k : 0 < x -> / 2 ^ k <= x -> INR k <= 64 -> 7 / 10 <= Rpower x a.
Proof.
  intros Hx Hk HK. assert (P2 : 0 < 2 ^ k) by (apply pow_lt; lra). apply Rle_trans with (Rpower (/ 2 ^ k) a).
  - unfold Rpower. rewrite ln_Rinv, (ln_pow 2) by lra.
    assert (L2 : 0 < ln 2) by (rewrite <- ln_1; apply ln_increasing; lra).
    apply Rle_trans with (exp (- (/ 2 * ln 2))).
    + rewrite exp_Ropp. fold (Rpower 2 (/ 2)). rewrite Rpower_sqrt by lra.
      assert (S2 : sqrt 2 <= 10 / 7). { rewrite <- (sqrt_Rsqr (10 / 7)) by lra. apply sqrt_le_1_alt. unfold Rsqr. lra. }
      pose proof (sqrt_lt_R0 2 ltac:(lra)). replace (7 / 10) with (/ (10 / 7)) by field. apply Rinv_le_contravar; lra.
    + assert (K : - (/ 2 * ln 2) <= a * - (INR k * ln 2)) by (unfold a; nra). destruct K as [K|K]; [left; apply exp_increasing, K|right; f_equal; exact K].
  - apply Rle_Rpower_l; [unfold a; lra|]. split; [apply Rinv_0_lt_compat, P2|exact Hk].
Qed.
Lemma ss_exp x : 0 < x <= 1 / 2 ^ 30 -> 99 / 100 <= exp (- x) <= 1.
Proof.
  intros Hx. pose proof (exp_ineq1_le (- x)). split; [lra|]. rewrite <- exp_0. left. apply exp_increasing. lra.
Qed.
Lemma ss_dens_le x : 0 < x <= 1 / 2 ^ 30 -> x * dens a x <= 1 / 126.
Proof.
  intros Hx. rewrite ss_edge by lra. pose proof ss_Gam as G. pose proof (ss_exp x Hx) as E.
  assert (X : 0 < Rpower x a <= 1).
  { split; [apply Rpower_pos|]. unfold Rpower. rewrite <- exp_0. assert (L : ln x < 0) by (rewrite <- ln_1; apply ln_increasing; lra).
    left. apply exp_increasing. unfold a. lra. }
  assert (E1 : exp (- x) * Rpower x a <= 1) by nra. assert (E0 : 0 < exp (- x) * Rpower x a) by nra.
  apply (Rmult_le_reg_r (Gam (a + 1))); [lra|]. unfold Rdiv at 1. rewrite Rmult_assoc, Rinv_l by lra. unfold a in *. lra.
Qed.
(** below the tolerance: a long step to the right *)
Lemma ss_low x : 0 < x < eps4 -> exists t x', hal_step gp a (1 / 2) x = (t, x') /\ 64 * x <= x' <= / 2 ^ 40 /\ hal_eps * x' <= Rabs t.
Proof.
  intros Hx. destruct eps4_val as (_ & E4). rewrite E4 in Hx. assert (Ha : 0 < a) by (unfold a; lra).
  assert (G0 : gp x = 0).
  { unfold gp, gp_series, GammaP_alg. destruct (Rlt_dec x 0); [lra|]. destruct (Rle_dec a 0); [lra|]. unfold in_asympt. destruct (Rlt_dec 15 a); [unfold a in *; lra|].
    destruct (Rlt_dec x (a + 1)); [|unfold a in *; lra]. unfold GammaP_ser. rewrite E4. destruct (Rlt_dec x (/ 2 ^ 50)); [reflexivity|lra]. }
  pose proof (hal_step_val gp a (1 / 2) x Ha ltac:(lra)) as E. cbv zeta in E. rewrite G0 in E. set (f := dens a x) in *. pose proof (dens_pos a x Ha) as Pf. fold f in Pf.
  pose proof (ss_dens_le x ltac:(lra)) as D. fold f in D. set (u := (0 - 1 / 2) / f) in *.
  assert (Df : hal_div a u x = 1 / 2).
  { unfold hal_div. rewrite Rmin_left; [field|]. unfold u. replace ((0 - 1 / 2) / f * ((a - 1) / x - 1)) with ((1 - a + x) / (2 * (x * f))) by (field; lra).
    assert (XF : 0 < x * f) by nra. apply (Rmult_le_reg_r (2 * (x * f))); [lra|]. unfold Rdiv at 1. rewrite Rmult_assoc, Rinv_l by lra. unfold a. lra. }
  rewrite Df in E. assert (T : u / (1 / 2) = - / f) by (unfold u; field; lra). rewrite T in E.
  assert (If : 126 * x <= / f).
  { apply (Rmult_le_reg_r f); [exact Pf|]. rewrite Rinv_l by lra. lra. }
  destruct (Rle_dec (x - - / f) 0); [lra|]. eexists. eexists. split; [exact E|]. split; [split; [lra|]|].
  - (* upper bound *)
    assert (U : / f <= / 2 ^ 41); [|lra].
    assert (F : / f = 128 * Gam (a + 1) * exp x * Rpower x (1 - a)).
    { unfold f. replace (dens a x) with (x * dens a x / x) by (field; lra). rewrite ss_edge by lra. pose proof ss_Gam.
      replace (Rpower x (1 - a)) with (x * / Rpower x a).
      - rewrite exp_Ropp. pose proof (exp_pos x). pose proof (Rpower_pos x a). unfold a at 1. field. repeat split; lra.
      - unfold Rminus. rewrite Rpower_plus, Rpower_Ropp, Rpower_1 by lra. reflexivity. }
    rewrite F. pose proof ss_Gam as G.
    assert (Ex : exp x <= 102 / 100). { replace (exp x) with (/ exp (- x)) by (rewrite exp_Ropp, Rinv_inv; reflexivity). pose proof (ss_exp x ltac:(lra)). 
      apply Rle_trans with (/ (99 / 100)); [apply Rinv_le_contravar; lra|lra]. }
    assert (X : Rpower x (1 - a) <= / 2 ^ 50 * (10 / 7)).
    { apply Rle_trans with (Rpower (/ 2 ^ 50) (1 - a)); [apply Rle_Rpower_l; unfold a; lra|].
      unfold Rminus. rewrite Rpower_plus, Rpower_Ropp, Rpower_1 by lra. apply Rmult_le_compat_l; [lra|].
      pose proof (ss_pow (/ 2 ^ 50) 50 ltac:(lra) ltac:(lra) ltac:(rewrite INR_IZR_INZ; change (IZR (Z.of_nat 50)) with 50; lra)) as K.
      apply Rle_trans with (/ (7 / 10)); [apply Rinv_le_contravar; lra|lra]. }
    pose proof (exp_pos x) as P1. pose proof (Rpower_pos x (1 - a)) as P2.
    apply Rle_trans with (128 * 1 * (102 / 100) * (/ 2 ^ 50 * (10 / 7))); [|lra].
    apply Rmult_le_compat; [nra|lra| |exact X]. apply Rmult_le_compat; [lra|lra|lra|exact Ex].
  - rewrite hal_eps_val. rewrite Rabs_left by (pose proof (Rinv_0_lt_compat f Pf); lra). lra.
Qed.
(** above the tolerance: bisection towards 0 *)
Lemma ss_P x : 0 < x -> / 2 ^ 51 <= x <= / 2 ^ 40 -> 69 / 100 <= P a x.
Proof.
  intros Hx H. rewrite P_in by exact Hx. assert (Ha : 0 < a) by (unfold a; lra). pose proof (lgam_lower a x Ha Hx) as L. pose proof (Gam_pos a Ha) as GP. pose proof ss_Gam as (_ & G). rewrite Gam_rec in G by exact Ha.
  pose proof (ss_pow x 51 Hx ltac:(lra) ltac:(rewrite INR_IZR_INZ; change (IZR (Z.of_nat 51)) with 51; lra)) as X. pose proof (ss_exp x ltac:(lra)) as E.
  assert (M : 69 / 100 <= exp (- x) * Rpower x a) by nra.
  apply (Rmult_le_reg_r (Gam a)); [exact GP|]. replace (lgam a x / Gam a * Gam a) with (lgam a x) by (field; lra). 
  assert (exp (- x) * Rpower x a / a = 128 * (exp (- x) * Rpower x a)) by (unfold a; field). unfold a in *. lra.
Qed.
Lemma ss_high x : eps4 <= x <= / 2 ^ 40 -> exists t, hal_step gp a (1 / 2) x = (t, x / 2) /\ hal_eps * (x / 2) <= Rabs t.
Proof.
  intros Hx. destruct eps4_val as (_ & E4). rewrite E4 in Hx. assert (Ha : 0 < a) by (unfold a; lra).
  assert (Hx0 : 0 < x) by lra. pose proof (ss_P x Hx0 ltac:(lra)) as PX.
  assert (G0 : 68 / 100 <= gp x).
  { assert (SR : series_range a x) by (unfold series_range, a; lra). destruct (gser_range a x SR) as ((L & U) & Q). rewrite E4 in U.
    unfold gp, gp_series, GammaP_alg. destruct (Rlt_dec x 0); [lra|]. destruct (Rle_dec a 0); [lra|]. unfold in_asympt. destruct (Rlt_dec 15 a); [unfold a in *; lra|].
    destruct (Rlt_dec x (a + 1)); [|unfold a in *; lra]. unfold GammaP_ser. rewrite E4. destruct (Rlt_dec x (/ 2 ^ 50)); [lra|].
    fold (gser_sum a x). rewrite pref_P by assumption. rewrite P_in in PX by exact Hx0. unfold lgam in PX. pose proof (Gam_pos a Ha) as GP.
    assert (C : 0 < exp (- x) * Rpower x a / Gam a) by (apply Rdiv_lt_0_compat; [apply Rmult_lt_0_compat; [apply exp_pos|apply Rpower_pos]|exact GP]).
    replace (exp (- x) * Rpower x a * PSeries (gc a) x / Gam a) with (exp (- x) * Rpower x a / Gam a * PSeries (gc a) x) in PX by (field; lra).
    set (c := exp (- x) * Rpower x a / Gam a) in *. assert (PSeries (gc a) x <= gser_sum a x * (1 + 1 / 100)) by lra. nra. }
  pose proof (hal_step_val gp a (1 / 2) x Ha Hx0) as E. cbv zeta in E. set (g := gp x) in *. set (f := dens a x) in *. pose proof (dens_pos a x Ha) as Pf. fold f in Pf.
  pose proof (ss_dens_le x ltac:(lra)) as D. fold f in D. set (u := (g - 1 / 2) / f) in *.
  assert (U : 2 * x <= u). { apply (Rmult_le_reg_r f); [exact Pf|]. replace (u * f) with (g - 1 / 2) by (unfold u; field; lra). lra. }
  assert (Df : hal_div a u x = 1 + u * (1 - a + x) / (2 * x)).
  { unfold hal_div. rewrite Rmin_right; [field; lra|]. replace (u * ((a - 1) / x - 1)) with (- (u * (1 - a + x) / x)) by (field; lra).
    assert (0 < u * (1 - a + x) / x) by (apply Rdiv_lt_0_compat; [apply Rmult_lt_0_compat; unfold a; lra|lra]). lra. }
  assert (Dp : 0 < hal_div a u x) by (pose proof (hal_div_pos a u x); lra).
  assert (T : x <= u / hal_div a u x).
  { apply (Rmult_le_reg_r (hal_div a u x)); [exact Dp|]. unfold Rdiv. rewrite Rmult_assoc, Rinv_l, Rmult_1_r by lra. rewrite Df.
    replace (x * (1 + u * (1 - a + x) / (2 * x))) with (x + u * (1 - a + x) / 2) by (field; lra). unfold a. nra. }
  destruct (Rle_dec (x - u / hal_div a u x) 0); [|lra]. eexists. split; [exact E|]. rewrite hal_eps_val, Rabs_pos_eq by lra. lra.
Qed.
Lemma ss_loop : forall k x, 0 < x <= / 2 ^ 40 -> exists r, hal_loop k gp a (1 / 2) x = (Limit, r) /\ 0 < r <= / 2 ^ 40 /\ Rmin (64 ^ k * x) (/ 2 ^ 51) <= r.
Proof.
  destruct eps4_val as (_ & E4). induction k as [|k IH]; intros x Hx; cbn [hal_loop].
  - exists x. split; [reflexivity|]. split; [exact Hx|]. cbn [pow]. rewrite Rmult_1_l. apply Rmin_l.
  - destruct (Rle_dec x 0); [lra|]. assert (P64 : 1 <= 64 ^ k) by (apply pow_R1_Rle; lra).
    destruct (Rlt_dec x eps4) as [L|L].
    + destruct (ss_low x ltac:(lra)) as (t & x' & E & B & T). rewrite E. destruct (Rlt_dec (Rabs t) (hal_eps * x')); [lra|].
      destruct (IH x' ltac:(lra)) as (q & Eq & Bq & Mq). exists q. split; [exact Eq|]. split; [exact Bq|].
      eapply Rle_trans; [|exact Mq]. apply Rle_min_compat_r. cbn [pow]. replace (64 * 64 ^ k * x) with (64 ^ k * (64 * x)) by ring. apply Rmult_le_compat_l; lra.
    + destruct (ss_high x ltac:(lra)) as (t & E & T). rewrite E. destruct (Rlt_dec (Rabs t) (hal_eps * (x / 2))); [lra|].
      destruct (IH (x / 2) ltac:(lra)) as (q & Eq & Bq & Mq). exists q. split; [exact Eq|]. split; [exact Bq|].
      eapply Rle_trans; [|exact Mq]. rewrite E4 in L. apply Rmin_glb; [|apply Rmin_r]. eapply Rle_trans; [apply Rmin_r|]. nra.
Qed.
Lemma ss_start : / 2 ^ 128 <= hal_start a (1 / 2) <= / 2 ^ 40.
Proof.
  unfold hal_start. destruct (Rlt_dec 1 a); [unfold a in *; lra|]. cbv zeta. set (t := 1 - a * (253 / 1000 + a * (12 / 100))). assert (T : 99 / 100 < t < 1) by (unfold t, a; lra).
  destruct (Rlt_dec (1 / 2) t); [|lra]. replace (1 / a) with (INR 128) by (rewrite INR_IZR_INZ; change (IZR (Z.of_nat 128)) with 128; unfold a; field).
  assert (I1 : 1 / 2 <= 1 / 2 / t). { apply (Rmult_le_reg_r t); [lra|]. unfold Rdiv at 2. rewrite Rmult_assoc, Rinv_l by lra. lra. }
  assert (I2 : 1 / 2 / t <= 51 / 100). { apply (Rmult_le_reg_r t); [lra|]. unfold Rdiv at 1. rewrite Rmult_assoc, Rinv_l by lra. lra. }
  rewrite Rpower_pow by lra. split.
  - rewrite <- (Rfunctions.pow_inv 2). apply pow_incr. lra.
  - apply Rle_trans with ((51 / 100) ^ 128); [apply pow_incr; lra|]. lra.
Qed.
Lemma ss_result : exists r, inv_GammaP_alg gp a (1 / 2) = (Limit, r) /\ / 2 ^ 51 <= r <= / 2 ^ 40.
Proof.
  pose proof ss_start as S0. assert (P0 : 0 < / 2 ^ 128) by lra. destruct (ss_loop digits (hal_start a (1 / 2)) ltac:(lra)) as (r & E & B & M). exists r. split; [exact E|]. split; [|lra].
  eapply Rle_trans; [|exact M]. apply Rmin_glb; [|lra]. apply Rle_trans with (64 ^ digits * / 2 ^ 128); [|apply Rmult_le_compat_l; [apply pow_le; lra|lra]].
  unfold digits. lra.
Qed.
End small_shape.
