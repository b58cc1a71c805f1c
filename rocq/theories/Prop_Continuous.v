(** C47-C50, C53, C67: continuous distributions with closed formulas, in exact arithmetic. *)
From Coq Require Import Reals Lra Psatz.
From Coquelicot Require Import Coquelicot.
From Verif Require Import ContModel ContProofs.
Local Open Scope R_scope.

(** ** Specification *)

(** icdf is the quantile function of cdf on (0,1) *)
Definition quantile_function (cdf : R -> R) (icdf : R -> xreal) : Prop :=
  forall u, 0 < u < 1 -> exists y, icdf u = Fin y /\ cdf y = u /\ forall x, y <= x <-> u <= cdf x.

(** a cumulative distribution function: monotone from 0 to 1 *)
Definition distribution_function (cdf : R -> R) : Prop :=
  (forall x, 0 <= cdf x <= 1) /\ (forall x y, x <= y -> cdf x <= cdf y) /\
  (forall e, 0 < e -> exists x y, cdf x < e /\ 1 - e < cdf y).

(** 1 if the value is at most x *)
Definition at_most (x : R) (v : xreal) : R :=
  match v with Fin r => if Rle_dec r x then 1 else 0 | NInf => 1 | _ => 0 end.

(** for u uniform on (0,1) the value draw u is at most x with probability p *)
Definition probability_at_most (draw : R -> xreal) (x p : R) : Prop :=
  is_RInt (fun u => at_most x (draw u)) 0 1 p.

Definition within (lo hi : xreal) (v : xreal) : Prop :=
  match v with
  | Fin r => (match lo with Fin a => a <= r | NInf => True | _ => False end) /\
             (match hi with Fin b => r <= b | PInf => True | _ => False end)
  | _ => False
  end.

(** ** Tools *)

Lemma quantile_from q cdf icdf : (forall u, 0 < u < 1 -> icdf u = Fin (q u)) ->
  (forall u, 0 < u < 1 -> cdf (q u) = u) -> (forall u x, 0 < u < 1 -> q u <= x <-> u <= cdf x) ->
  quantile_function cdf icdf.
Proof. intros Hi Hv G u Hu. exists (q u). repeat split; auto; apply G; auto. Qed.

Lemma distribution_from q cdf : (forall x, 0 <= cdf x <= 1) ->
  (forall u, 0 < u < 1 -> cdf (q u) = u) -> (forall u x, 0 < u < 1 -> q u <= x <-> u <= cdf x) ->
  distribution_function cdf.
Proof.
  intros Hr Hv G. split; [exact Hr|]. split.
  - intros x y Hxy. apply (galois_mono cdf q G); auto; apply Hr.
  - intros e He. set (t := Rmin (e / 2) (1 / 2)).
    assert (Ht : 0 < t <= 1 / 2) by (unfold t; split; [apply Rmin_glb_lt; lra|apply Rmin_r]).
    assert (t <= e / 2) by apply Rmin_l.
    exists (q t), (q (1 - t)). rewrite !Hv by lra. lra.
Qed.

Lemma probability_inc q cdf draw : (forall u, 0 < u < 1 -> draw u = Fin (q u)) ->
  (forall u x, 0 < u < 1 -> q u <= x <-> u <= cdf x) ->
  forall x, 0 <= cdf x <= 1 -> probability_at_most draw x (cdf x).
Proof.
  intros Hd G x Hr. unfold probability_at_most.
  apply (is_RInt_ext (fun u => if Rle_dec u (cdf x) then 1 else 0)); [|now apply RInt_step].
  intros u. rewrite Rmin_left, Rmax_right by lra. intros Hu. rewrite Hd by lra. cbn.
  destruct (Rle_dec u (cdf x)) as [H|H], (Rle_dec (q u) x) as [H'|H']; auto; exfalso.
  - apply H'. now apply G.
  - apply H. now apply G.
Qed.
Lemma probability_dec q cdf draw : (forall u, 0 < u < 1 -> draw u = Fin (q (1 - u))) ->
  (forall u x, 0 < u < 1 -> q u <= x <-> u <= cdf x) ->
  forall x, 0 <= cdf x <= 1 -> probability_at_most draw x (cdf x).
Proof.
  intros Hd G x Hr. unfold probability_at_most.
  apply (is_RInt_ext (fun u => if Rle_dec (1 - u) (cdf x) then 1 else 0)); [|now apply RInt_step_rev].
  intros u. rewrite Rmin_left, Rmax_right by lra. intros Hu. rewrite Hd by lra. cbn.
  destruct (Rle_dec (1 - u) (cdf x)) as [H|H], (Rle_dec (q (1 - u)) x) as [H'|H']; auto; exfalso.
  - apply H'. apply G; [lra|exact H].
  - apply H. apply G; [lra|exact H'].
Qed.

Lemma dom_cc_in x v : 0 <= x <= 1 -> dom_cc x v = v.
Proof. intros H. unfold dom_cc. destruct (Rlt_dec x 0); [lra|]. destruct (Rlt_dec 1 x); [lra|reflexivity]. Qed.
Lemma dom_oo_in x v : 0 < x < 1 -> dom_oo x v = v.
Proof. intros H. unfold dom_oo. destruct (Rle_dec x 0); [lra|]. destruct (Rle_dec 1 x); [lra|reflexivity]. Qed.
Lemma dom_co_in x v : 0 <= x < 1 -> dom_co x v = v.
Proof. intros H. unfold dom_co. destruct (Rlt_dec x 0); [lra|]. destruct (Rle_dec 1 x); [lra|reflexivity]. Qed.
Lemma at_point_ne a x v w : x <> a -> at_point a x v w = w.
Proof. intros H. unfold at_point. now destruct (Req_EM_T x a). Qed.
Lemma at_point_eq a v w : at_point a a v w = v.
Proof. unfold at_point. now destruct (Req_EM_T a a). Qed.
Lemma dom_cc_out x v : x < 0 \/ 1 < x -> dom_cc x v = NaN.
Proof. intros H. unfold dom_cc. destruct (Rlt_dec x 0); auto. destruct (Rlt_dec 1 x); auto. lra. Qed.
Ltac icdf_in := rewrite ?dom_cc_in, ?dom_co_in, ?dom_oo_in, ?at_point_ne by lra; try reflexivity.

(** ** C47: icdf is the quantile function of cdf *)

Theorem C47_uniform01 : quantile_function u01_cdf u01_icdf.
Proof.
  apply quantile_from with (uni_q 0 1).
  - intros u Hu. unfold u01_icdf, uni_q. icdf_in. f_equal. ring.
  - intros u Hu. rewrite u01_cdf_eq. apply uni_inv; lra.
  - intros u x Hu. rewrite u01_cdf_eq. apply uni_galois; lra.
Qed.
Theorem C47_uniform : forall a b, a < b -> quantile_function (uni_cdf a b) (uni_icdf a b).
Proof.
  intros a b H. apply quantile_from with (uni_q a b); [|now apply uni_inv|now apply uni_galois].
  intros u Hu. unfold uni_icdf. now icdf_in.
Qed.
Theorem C47_exponential : forall mu, 0 < mu -> quantile_function (expo_cdf mu) (expo_icdf mu).
Proof.
  intros mu H. apply quantile_from with (expo_q mu); [|now apply expo_inv|now apply expo_galois].
  intros u Hu. unfold expo_icdf. now icdf_in.
Qed.
Theorem C47_twosided_exponential : forall mu, 0 < mu -> quantile_function (two_cdf mu) (two_icdf mu).
Proof.
  intros mu H. apply quantile_from with (two_q mu); [|now apply two_inv|now apply two_galois].
  intros u Hu. unfold two_icdf. now icdf_in.
Qed.
Theorem C47_pareto : forall gamma theta, 0 < gamma -> 0 < theta ->
  quantile_function (par_cdf gamma theta) (par_icdf gamma theta).
Proof.
  intros g t Hg Ht. apply quantile_from with (par_q g t); [|now apply par_inv|now apply par_galois].
  intros u Hu. unfold par_icdf. now icdf_in.
Qed.
Theorem C47_powerlaw : forall gamma theta, 0 < gamma -> 0 < theta ->
  quantile_function (pow_cdf gamma theta) (pow_icdf gamma theta).
Proof.
  intros g t Hg Ht. apply quantile_from with (pow_q g t); [|now apply pow_inv|now apply pow_galois].
  intros u Hu. unfold pow_icdf. now icdf_in.
Qed.
Theorem C47_logistic : forall theta eta, 0 < theta ->
  quantile_function (log_cdf theta eta) (log_icdf theta eta).
Proof.
  intros t e Ht. apply quantile_from with (log_q t e); [|now apply log_inv|now apply log_galois].
  intros u Hu. unfold log_icdf. now icdf_in.
Qed.
Theorem C47_tent : forall m d, 0 < d -> quantile_function (tent_cdf m d) (tent_icdf m d).
Proof.
  intros m d Hd. apply quantile_from with (tent_q m d); [|now apply tent_inv|now apply tent_galois].
  intros u Hu. unfold tent_icdf. now icdf_in.
Qed.
Theorem C47_cauchy : forall theta eta, 0 < theta ->
  quantile_function (cau_cdf theta eta) (cau_icdf theta eta).
Proof.
  intros t e Ht. apply quantile_from with (cau_q t e); [|now apply cau_inv|now apply cau_galois].
  intros u Hu. unfold cau_icdf. now icdf_in.
Qed.
Theorem C47_weibull : forall theta beta, 0 < theta -> 0 < beta ->
  quantile_function (wei_cdf theta beta) (wei_icdf theta beta).
Proof.
  intros t b Ht Hb. apply quantile_from with (wei_q t b); [|now apply wei_inv|now apply wei_galois].
  intros u Hu. unfold wei_icdf. now icdf_in.
Qed.
Theorem C47_rayleigh : forall nu, 0 < nu -> quantile_function (ray_cdf nu) (ray_icdf nu).
Proof.
  intros nu H. apply quantile_from with (ray_q nu); [|now apply ray_inv|now apply ray_galois].
  intros u Hu. unfold ray_icdf. now icdf_in.
Qed.
Theorem C47_extreme_value : forall theta eta, 0 < theta ->
  quantile_function (ext_cdf theta eta) (ext_icdf theta eta).
Proof.
  intros t e Ht. apply quantile_from with (ext_q t e); [|now apply ext_inv|now apply ext_galois].
  intros u Hu. unfold ext_icdf. now icdf_in.
Qed.

Example C47_ex : exists y, expo_icdf 2 (1 / 2) = Fin y /\ expo_cdf 2 y = 1 / 2.
Proof. destruct (C47_exponential 2 ltac:(lra) (1 / 2) ltac:(lra)) as (y & H1 & H2 & _). eauto. Qed.

(** ** C48: pdf is the derivative of cdf *)

Theorem C48_uniform01 : forall x, x <> 0 -> x <> 1 -> derivable_pt_lim u01_cdf x (u01_pdf x).
Proof.
  intros x H0 H1. rewrite u01_pdf_eq. apply is_derive_Reals.
  apply is_derive_ext with (uni_cdf 0 1); [intros; now rewrite u01_cdf_eq|].
  apply is_derive_Reals. apply uni_deriv; lra.
Qed.
Theorem C48_uniform : forall a b x, a < b -> x <> a -> x <> b ->
  derivable_pt_lim (uni_cdf a b) x (uni_pdf a b x).
Proof. intros a b x H. now apply uni_deriv. Qed.
Theorem C48_exponential : forall mu x, 0 < mu -> x <> 0 ->
  derivable_pt_lim (expo_cdf mu) x (expo_pdf mu x).
Proof. intros mu x H. now apply expo_deriv. Qed.
Theorem C48_twosided_exponential : forall mu x, 0 < mu -> derivable_pt_lim (two_cdf mu) x (two_pdf mu x).
Proof. intros mu x H. now apply two_deriv. Qed.
Theorem C48_pareto : forall gamma theta x, 0 < gamma -> 0 < theta -> x <> 0 ->
  derivable_pt_lim (par_cdf gamma theta) x (par_pdf gamma theta x).
Proof. intros g t x Hg Ht. now apply par_deriv. Qed.
Theorem C48_powerlaw : forall gamma theta x, 0 < gamma -> 0 < theta -> theta < x ->
  derivable_pt_lim (pow_cdf gamma theta) x (pow_pdf gamma theta x).
Proof. intros g t x Hg Ht. now apply pow_deriv. Qed.
Theorem C48_logistic : forall theta eta x, 0 < theta ->
  derivable_pt_lim (log_cdf theta eta) x (log_pdf theta eta x).
Proof. intros t e x H. now apply log_deriv. Qed.
Theorem C48_tent : forall m d x, 0 < d -> derivable_pt_lim (tent_cdf m d) x (tent_pdf m d x).
Proof. intros m d x H. now apply tent_deriv. Qed.
Theorem C48_cauchy : forall theta eta x, 0 < theta ->
  derivable_pt_lim (cau_cdf theta eta) x (cau_pdf theta eta x).
Proof. intros t e x H. now apply cau_deriv. Qed.
Theorem C48_weibull : forall theta beta x, 0 < theta -> 0 < beta -> x <> 0 ->
  exists l, wei_pdf theta beta x = Fin l /\ derivable_pt_lim (wei_cdf theta beta) x l.
Proof. intros t b x Ht Hb. now apply wei_deriv. Qed.
Theorem C48_rayleigh : forall nu x, 0 < nu -> derivable_pt_lim (ray_cdf nu) x (ray_pdf nu x).
Proof. intros nu x H. now apply ray_deriv. Qed.
Theorem C48_extreme_value : forall theta eta x, 0 < theta ->
  derivable_pt_lim (ext_cdf theta eta) x (ext_pdf theta eta x).
Proof. intros t e x H. now apply ext_deriv. Qed.

(** powerlaw_dist below its support: pdf is 0 but cdf is strictly increasing there *)
Theorem C48_powerlaw_refuted : exists gamma theta x l, 0 < gamma /\ 0 < theta /\ 0 < x < theta /\
  derivable_pt_lim (pow_cdf gamma theta) x l /\ l <> pow_pdf gamma theta x.
Proof.
  exists 1, 2, 1, 2. do 3 (split; [lra|]). split.
  - apply deriv_gt with (fun y => 1 - exp (- (1) * ln (y / 2))) 0; [lra| |].
    + intros y Hy. unfold pow_cdf, Rpower. destruct (Rle_dec y 0); lra.
    + apply is_derive_Reals. auto_derive; [lra|].
      replace (- (1) * ln (1 * / 2)) with (ln 2).
      * rewrite exp_ln by lra. field.
      * rewrite Rmult_1_l, ln_Rinv by lra. ring.
  - unfold pow_pdf. destruct (Rlt_dec 1 2); lra.
Qed.

Example C48_ex : derivable_pt_lim (tent_cdf 3 2) 4 (1 / 4).
Proof.
  replace (1 / 4) with (tent_pdf 3 2 4); [apply C48_tent; lra|].
  unfold tent_pdf. cbv zeta. destruct (Rle_dec (4 - 3) (- (2))); [lra|]. destruct (Rle_dec 2 (4 - 3)); [lra|].
  destruct (Rlt_dec (4 - 3) 0); [lra|field].
Qed.

(** ** C49: cdf is a distribution function *)

Theorem C49_uniform01 : distribution_function u01_cdf.
Proof.
  apply distribution_from with (uni_q 0 1); intros; rewrite u01_cdf_eq.
  - apply uni_range; lra.
  - apply uni_inv; lra.
  - apply uni_galois; lra.
Qed.
Theorem C49_uniform : forall a b, a < b -> distribution_function (uni_cdf a b).
Proof. intros a b H. apply distribution_from with (uni_q a b); [now apply uni_range|now apply uni_inv|now apply uni_galois]. Qed.
Theorem C49_exponential : forall mu, 0 < mu -> distribution_function (expo_cdf mu).
Proof. intros mu H. apply distribution_from with (expo_q mu); [now apply expo_range|now apply expo_inv|now apply expo_galois]. Qed.
Theorem C49_twosided_exponential : forall mu, 0 < mu -> distribution_function (two_cdf mu).
Proof. intros mu H. apply distribution_from with (two_q mu); [now apply two_range|now apply two_inv|now apply two_galois]. Qed.
Theorem C49_pareto : forall gamma theta, 0 < gamma -> 0 < theta -> distribution_function (par_cdf gamma theta).
Proof. intros g t Hg Ht. apply distribution_from with (par_q g t); [now apply par_range|now apply par_inv|now apply par_galois]. Qed.
Theorem C49_logistic : forall theta eta, 0 < theta -> distribution_function (log_cdf theta eta).
Proof. intros t e H. apply distribution_from with (log_q t e); [now apply log_range|now apply log_inv|now apply log_galois]. Qed.
Theorem C49_tent : forall m d, 0 < d -> distribution_function (tent_cdf m d).
Proof. intros m d H. apply distribution_from with (tent_q m d); [now apply tent_range|now apply tent_inv|now apply tent_galois]. Qed.
Theorem C49_cauchy : forall theta eta, 0 < theta -> distribution_function (cau_cdf theta eta).
Proof. intros t e H. apply distribution_from with (cau_q t e); [now apply cau_range|now apply cau_inv|now apply cau_galois]. Qed.
Theorem C49_weibull : forall theta beta, 0 < theta -> 0 < beta -> distribution_function (wei_cdf theta beta).
Proof. intros t b Ht Hb. apply distribution_from with (wei_q t b); [now apply wei_range|now apply wei_inv|now apply wei_galois]. Qed.
Theorem C49_rayleigh : forall nu, 0 < nu -> distribution_function (ray_cdf nu).
Proof. intros nu H. apply distribution_from with (ray_q nu); [now apply ray_range|now apply ray_inv|now apply ray_galois]. Qed.
Theorem C49_extreme_value : forall theta eta, 0 < theta -> distribution_function (ext_cdf theta eta).
Proof. intros t e H. apply distribution_from with (ext_q t e); [now apply ext_range|now apply ext_inv|now apply ext_galois]. Qed.

(** powerlaw_dist: on its support [theta, inf) only *)
Theorem C49_powerlaw_support : forall gamma theta x y, 0 < gamma -> 0 < theta -> theta <= x -> x <= y ->
  0 <= pow_cdf gamma theta x /\ pow_cdf gamma theta x <= pow_cdf gamma theta y /\ pow_cdf gamma theta y <= 1.
Proof.
  intros g t x y Hg Ht Hx Hxy. pose proof (pow_range g t Hg Ht x Hx). pose proof (pow_range g t Hg Ht y ltac:(lra)).
  repeat split; try lra. apply (galois_mono (pow_cdf g t) (pow_q g t)); try lra. now apply pow_galois.
Qed.
Theorem C49_powerlaw_refuted : exists gamma theta x, 0 < gamma /\ 0 < theta /\ pow_cdf gamma theta x < 0.
Proof.
  exists 1, 2, 1. do 2 (split; [lra|]). unfold pow_cdf. destruct (Rle_dec 1 0); [lra|].
  rewrite Rpower_Ropp, Rpower_1 by lra. lra.
Qed.

Example C49_ex : 0 <= wei_cdf 2 3 1 <= 1 /\ wei_cdf 2 3 1 <= wei_cdf 2 3 2.
Proof. destruct (C49_weibull 2 3 ltac:(lra) ltac:(lra)) as (H1 & H2 & _). split; [apply H1|apply H2; lra]. Qed.

(** ** C50: a draw is at most x with probability cdf x *)

Theorem C50_uniform01 : forall x, probability_at_most (fun u => Fin (u01_draw u)) x (u01_cdf x).
Proof.
  intros x. rewrite u01_cdf_eq. apply probability_inc with (uni_q 0 1).
  - intros u Hu. unfold u01_draw, uni_q. f_equal. ring.
  - apply uni_galois; lra.
  - apply uni_range; lra.
Qed.
Theorem C50_uniform : forall a b x, a < b -> probability_at_most (fun u => Fin (uni_draw a b u)) x (uni_cdf a b x).
Proof.
  intros a b x H. apply probability_inc with (uni_q a b); [|now apply uni_galois|now apply uni_range].
  intros u Hu. unfold uni_draw, uni_q. f_equal. ring.
Qed.
Theorem C50_exponential : forall mu x, 0 < mu ->
  probability_at_most (fun u => Fin (expo_draw mu u)) x (expo_cdf mu x).
Proof.
  intros mu x H. apply probability_dec with (expo_q mu); [|now apply expo_galois|now apply expo_range].
  intros u Hu. unfold expo_draw, expo_q. do 3 f_equal. ring.
Qed.
Theorem C50_twosided_exponential : forall mu x, 0 < mu -> probability_at_most (two_draw mu) x (two_cdf mu x).
Proof.
  intros mu x H. apply probability_inc with (two_q mu); [|now apply two_galois|now apply two_range].
  intros u Hu. unfold two_draw, two_icdf. now icdf_in.
Qed.
Theorem C50_pareto : forall gamma theta x, 0 < gamma -> 0 < theta ->
  probability_at_most (fun u => Fin (par_draw gamma theta u)) x (par_cdf gamma theta x).
Proof.
  intros g t x Hg Ht. apply probability_dec with (par_q g t); [|now apply par_galois|now apply par_range].
  intros u Hu. unfold par_draw, par_q. do 4 f_equal. ring.
Qed.
Theorem C50_powerlaw : forall gamma theta x, 0 < gamma -> 0 < theta -> theta <= x ->
  probability_at_most (fun u => Fin (pow_draw gamma theta u)) x (pow_cdf gamma theta x).
Proof.
  intros g t x Hg Ht Hx. apply probability_dec with (pow_q g t); [|now apply pow_galois|now apply pow_range].
  intros u Hu. unfold pow_draw, pow_q. do 3 f_equal. ring.
Qed.
Theorem C50_logistic : forall theta eta x, 0 < theta ->
  probability_at_most (fun u => Fin (log_draw theta eta u)) x (log_cdf theta eta x).
Proof.
  intros t e x H. apply probability_inc with (log_q t e); [reflexivity|now apply log_galois|now apply log_range].
Qed.
Theorem C50_tent : forall m d x, 0 < d -> probability_at_most (fun u => Fin (tent_draw m d u)) x (tent_cdf m d x).
Proof.
  intros m d x H. apply probability_inc with (tent_q m d); [reflexivity|now apply tent_galois|now apply tent_range].
Qed.
Theorem C50_cauchy : forall theta eta x, 0 < theta ->
  probability_at_most (fun u => Fin (cau_draw theta eta u)) x (cau_cdf theta eta x).
Proof.
  intros t e x H. apply probability_inc with (cau_q t e); [reflexivity|now apply cau_galois|now apply cau_range].
Qed.
Theorem C50_weibull : forall theta beta x, 0 < theta -> 0 < beta ->
  probability_at_most (fun u => Fin (wei_draw theta beta u)) x (wei_cdf theta beta x).
Proof.
  intros t b x Ht Hb. apply probability_dec with (wei_q t b); [|now apply wei_galois|now apply wei_range].
  intros u Hu. unfold wei_draw, wei_q. do 5 f_equal. ring.
Qed.
Theorem C50_rayleigh : forall nu x, 0 < nu -> probability_at_most (ray_draw nu) x (ray_cdf nu x).
Proof.
  intros nu x H. apply probability_inc with (ray_q nu); [|now apply ray_galois|now apply ray_range].
  intros u Hu. unfold ray_draw, ray_icdf. now icdf_in.
Qed.
Theorem C50_extreme_value : forall theta eta x, 0 < theta ->
  probability_at_most (fun u => Fin (ext_draw theta eta u)) x (ext_cdf theta eta x).
Proof.
  intros t e x H. apply probability_dec with (ext_q t e); [|now apply ext_galois|now apply ext_range].
  intros u Hu. unfold ext_draw, ext_q. replace (1 - (1 - u)) with u by ring. reflexivity.
Qed.

Example C50_ex : probability_at_most (fun u => Fin (cau_draw 1 0 u)) 1 (3 / 4).
Proof.
  replace (3 / 4) with (cau_cdf 1 0 1); [apply C50_cauchy; lra|].
  unfold cau_cdf. replace ((1 - 0) / 1) with 1 by field. rewrite atan_1. pose proof PI_RGT_0. field. lra.
Qed.

(** Every draw lies in [min(), max()], for all variates its uniform source can produce. *)
Lemma ln_le_0 u : 0 < u <= 1 -> ln u <= 0.
Proof. intros H. destruct (Req_EM_T u 1) as [->|]; [rewrite ln_1; lra|]. left. apply ln_neg. lra. Qed.
Lemma Rpower_ge_1 g u : 0 < g -> 0 < u <= 1 -> 1 <= Rpower u (- 1 / g).
Proof.
  intros Hg Hu. unfold Rpower. rewrite <- exp_0 at 1. apply exp_le_iff. pose proof (ln_le_0 u Hu).
  replace (- 1 / g * ln u) with ((- ln u) / g) by (field; lra). apply le_div_iff; lra.
Qed.

Theorem C53_exact : forall a b u, a < b -> 0 <= u < 1 -> a <= uni_draw a b u < b.
Proof. intros a b u H Hu. unfold uni_draw. nra. Qed.
Theorem C50_draw_in_range :
  (forall u, 0 <= u < 1 -> within (Fin 0) (Fin 1) (Fin (u01_draw u))) /\
  (forall a b u, a < b -> 0 <= u < 1 -> within (Fin a) (Fin b) (Fin (uni_draw a b u))) /\
  (forall mu u, 0 < mu -> 0 < u <= 1 -> within (Fin 0) PInf (Fin (expo_draw mu u))) /\
  (forall mu u, 0 < mu -> 0 < u < 1 -> within NInf PInf (two_draw mu u)) /\
  (forall gamma theta u, 0 < gamma -> 0 < theta -> 0 < u < 1 ->
     within (Fin 0) PInf (Fin (par_draw gamma theta u))) /\
  (forall gamma theta u, 0 < gamma -> 0 < theta -> 0 < u <= 1 ->
     within (Fin theta) PInf (Fin (pow_draw gamma theta u))) /\
  (forall m d u, 0 < d -> 0 <= u <= 1 -> within (Fin (m - d)) (Fin (m + d)) (Fin (tent_draw m d u))) /\
  (forall theta beta u, 0 < theta -> 0 < beta -> 0 < u <= 1 ->
     within (Fin 0) PInf (Fin (wei_draw theta beta u))) /\
  (forall nu u, 0 < nu -> 0 < u < 1 -> within (Fin 0) PInf (ray_draw nu u)).
Proof.
  repeat match goal with |- _ /\ _ => split end.
  - intros u Hu. cbn. unfold u01_draw. lra.
  - intros a b u H Hu. pose proof (C53_exact a b u H Hu). cbn. lra.
  - intros mu u H Hu. cbn. split; [|trivial]. unfold expo_draw. pose proof (ln_le_0 u Hu). nra.
  - intros mu u H Hu. unfold two_draw, two_icdf. icdf_in. cbn. tauto.
  - intros g t u Hg Ht Hu. cbn. split; [|trivial]. unfold par_draw. pose proof (Rpower_ge_1 g u Hg ltac:(lra)). nra.
  - intros g t u Hg Ht Hu. cbn. split; [|trivial]. unfold pow_draw. pose proof (Rpower_ge_1 g u Hg ltac:(lra)). nra.
  - intros m d u Hd Hu. cbn. unfold tent_draw, tent_icdf_. destruct (Rlt_dec u (1 / 2)).
    + pose proof (sqrt_pos (2 * u)).
      assert (sqrt (2 * u) <= 1) by (rewrite <- sqrt_1; apply sqrt_le_1_alt; lra). nra.
    + pose proof (sqrt_pos (2 - 2 * u)).
      assert (sqrt (2 - 2 * u) <= 1) by (rewrite <- sqrt_1; apply sqrt_le_1_alt; lra). nra.
  - intros t b u Ht Hb Hu. cbn. split; [|trivial]. unfold wei_draw, rpow. destruct (Req_EM_T _ 0); [lra|].
    pose proof (Rpower_pos (- ln u) (1 / b)). nra.
  - intros nu u H Hu. unfold ray_draw, ray_icdf. icdf_in. cbn. split; [|trivial].
    pose proof (sqrt_pos (- 2 * ln (1 - u))). nra.
Qed.

(** ** C67: icdf at the ends of [0,1] and outside *)

(** icdf 0 is min() and icdf 1 is max() *)
Definition ends (icdf : R -> xreal) (lo hi : xreal) : Prop := icdf 0 = lo /\ icdf 1 = hi.

Theorem C67_ends :
  ends u01_icdf (Fin 0) (Fin 1) /\
  (forall a b, ends (uni_icdf a b) (Fin a) (Fin b)) /\
  (forall mu, ends (expo_icdf mu) (Fin 0) PInf) /\
  (forall mu, ends (two_icdf mu) NInf PInf) /\
  (forall theta eta, ends (log_icdf theta eta) NInf PInf) /\
  (forall m d, ends (tent_icdf m d) (Fin (m - d)) (Fin (m + d))) /\
  (forall nu, ends (ray_icdf nu) (Fin 0) PInf).
Proof.
  repeat match goal with |- _ /\ _ => split | |- forall _, _ => intros end.
  - unfold ends, u01_icdf. icdf_in. auto.
  - unfold ends, uni_icdf. icdf_in. split; f_equal; ring.
  - unfold ends, expo_icdf. icdf_in. split; [|apply at_point_eq]. rewrite Rminus_0_r, ln_1. f_equal. ring.
  - unfold ends, two_icdf. rewrite !dom_cc_in by lra. split.
    + rewrite at_point_ne by lra. apply at_point_eq.
    + apply at_point_eq.
  - unfold ends, log_icdf. rewrite !dom_cc_in by lra. split; [apply at_point_eq|].
    rewrite at_point_ne by lra. apply at_point_eq.
  - unfold ends, tent_icdf. rewrite !dom_cc_in by lra. unfold tent_icdf_. split.
    + destruct (Rlt_dec 0 (1 / 2)); [|lra]. rewrite Rmult_0_r, sqrt_0. f_equal. ring.
    + destruct (Rlt_dec 1 (1 / 2)); [lra|]. replace (2 - 2 * 1) with 0 by ring. rewrite sqrt_0. f_equal. ring.
  - unfold ends, ray_icdf. rewrite !dom_cc_in by lra. split; [|apply at_point_eq].
    rewrite at_point_ne by lra. rewrite Rminus_0_r, ln_1, Rmult_0_r, sqrt_0. f_equal. ring.
Qed.

Theorem C67_outside : forall x, x < 0 \/ 1 < x ->
  u01_icdf x = NaN /\ (forall a b, uni_icdf a b x = NaN) /\ (forall mu, expo_icdf mu x = NaN) /\
  (forall mu, two_icdf mu x = NaN) /\ (forall g t, par_icdf g t x = NaN) /\ (forall g t, pow_icdf g t x = NaN) /\
  (forall t e, log_icdf t e x = NaN) /\ (forall m d, tent_icdf m d x = NaN) /\ (forall t e, cau_icdf t e x = NaN) /\
  (forall t b, wei_icdf t b x = NaN) /\ (forall nu, ray_icdf nu x = NaN) /\ (forall t e, ext_icdf t e x = NaN).
Proof.
  intros x H.
  assert (Ho : forall v, dom_oo x v = NaN).
  { intros v. unfold dom_oo. destruct (Rle_dec x 0); auto. destruct (Rle_dec 1 x); auto. lra. }
  assert (Hc : forall v, dom_co x v = NaN).
  { intros v. unfold dom_co. destruct (Rlt_dec x 0); auto. destruct (Rle_dec 1 x); auto. lra. }
  repeat match goal with |- _ /\ _ => split end; intros; solve [now apply dom_cc_out|apply Ho|apply Hc].
Qed.

(** pareto, powerlaw, cauchy and extreme_value test x <= 0 and x >= 1 first, so the lines that return
    the end points are never reached; weibull tests x >= 1. *)
Theorem C67_ends_refuted : exists gamma theta eta beta, 0 < gamma /\ 0 < theta /\ 0 < beta /\
  par_icdf gamma theta 0 = NaN /\ par_icdf gamma theta 1 = NaN /\
  pow_icdf gamma theta 0 = NaN /\ pow_icdf gamma theta 1 = NaN /\
  cau_icdf theta eta 0 = NaN /\ cau_icdf theta eta 1 = NaN /\
  ext_icdf theta eta 0 = NaN /\ ext_icdf theta eta 1 = NaN /\
  wei_icdf theta beta 0 = Fin 0 /\ wei_icdf theta beta 1 = NaN.
Proof.
  exists 1, 1, 0, 1. do 3 (split; [lra|]).
  assert (H0 : forall v, dom_oo 0 v = NaN) by (intros v; unfold dom_oo; destruct (Rle_dec 0 0); auto; lra).
  assert (H1 : forall v, dom_oo 1 v = NaN).
  { intros v; unfold dom_oo. destruct (Rle_dec 1 0); auto. destruct (Rle_dec 1 1); auto. lra. }
  repeat match goal with |- _ /\ _ => split end; try solve [apply H0|apply H1].
  - unfold wei_icdf. rewrite dom_co_in by lra. replace (1 + - 0) with 1 by ring. rewrite ln_1.
    unfold rpow. destruct (Req_EM_T (- 0) 0); [|lra]. f_equal. ring.
  - unfold wei_icdf, dom_co. destruct (Rlt_dec 1 0); auto. destruct (Rle_dec 1 1); auto. lra.
Qed.

(** weibull_dist: pdf(0) is NaN when beta < 1 (the density is unbounded at 0) *)
Theorem C48_weibull_at_zero_refuted : exists theta beta, 0 < theta /\ 0 < beta /\ wei_pdf theta beta 0 = NaN.
Proof.
  exists 1, (1 / 2). do 2 (split; [lra|]). unfold wei_pdf. destruct (Rlt_dec 0 0); [lra|]. cbv zeta.
  destruct (Rlt_dec 0 (0 / 1)); [unfold Rdiv in *; lra|]. destruct (Req_EM_T (1 / 2) 1); [lra|].
  destruct (Rlt_dec 1 (1 / 2)); [lra|reflexivity].
Qed.

Print Assumptions C47_uniform01.
Print Assumptions C47_uniform.
Print Assumptions C47_exponential.
Print Assumptions C47_twosided_exponential.
Print Assumptions C47_pareto.
Print Assumptions C47_powerlaw.
Print Assumptions C47_logistic.
Print Assumptions C47_tent.
Print Assumptions C47_cauchy.
Print Assumptions C47_weibull.
Print Assumptions C47_rayleigh.
Print Assumptions C47_extreme_value.
Print Assumptions C48_uniform01.
Print Assumptions C48_uniform.
Print Assumptions C48_exponential.
Print Assumptions C48_twosided_exponential.
Print Assumptions C48_pareto.
Print Assumptions C48_powerlaw.
Print Assumptions C48_logistic.
Print Assumptions C48_tent.
Print Assumptions C48_cauchy.
Print Assumptions C48_weibull.
Print Assumptions C48_rayleigh.
Print Assumptions C48_extreme_value.
Print Assumptions C48_powerlaw_refuted.
Print Assumptions C49_uniform01.
Print Assumptions C49_uniform.
Print Assumptions C49_exponential.
Print Assumptions C49_twosided_exponential.
Print Assumptions C49_pareto.
Print Assumptions C49_logistic.
Print Assumptions C49_tent.
Print Assumptions C49_cauchy.
Print Assumptions C49_weibull.
Print Assumptions C49_rayleigh.
Print Assumptions C49_extreme_value.
Print Assumptions C49_powerlaw_support.
Print Assumptions C49_powerlaw_refuted.
Print Assumptions C50_uniform01.
Print Assumptions C50_uniform.
Print Assumptions C50_exponential.
Print Assumptions C50_twosided_exponential.
Print Assumptions C50_pareto.
Print Assumptions C50_powerlaw.
Print Assumptions C50_logistic.
Print Assumptions C50_tent.
Print Assumptions C50_cauchy.
Print Assumptions C50_weibull.
Print Assumptions C50_rayleigh.
Print Assumptions C50_extreme_value.
Print Assumptions C53_exact.
Print Assumptions C50_draw_in_range.
Print Assumptions C67_ends.
Print Assumptions C67_outside.
Print Assumptions C67_ends_refuted.
Print Assumptions C48_weibull_at_zero_refuted.
