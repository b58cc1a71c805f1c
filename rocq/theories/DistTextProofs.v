(** Lemmas about the text of doubles. *)
From Coq Require Import ZArith Reals Bool List Lia Lra.
From Flocq Require Import Core.
From Verif Require Import ContModel BaseFacts StreamModel StreamProofs EngineTextModel EngineTextProofs DistTextModel.
Import ListNotations.
Open Scope Z_scope.

Notation digit := (fun c => is_dec_digit c = true).
Notation num10 := (numeral_from 10 (fun c => c - 48)).

(** ** Output *)
Lemma put_decimal_ok n : 0 <= n -> put_decimal n <> [] /\ Forall digit (put_decimal n) /\ num10 0 (put_decimal n) = n.
Proof.
  intros Hn. unfold put_decimal. destruct (Z.eqb_spec n 0) as [->|N].
  - split; [discriminate|]. split; [constructor; [reflexivity|constructor]|reflexivity].
  - split; [|split].
    + assert (L := digits_nonempty 10 (fun d => 48 + d) (Z.to_nat (Z.log2 n)) n ltac:(lia)). intros E. rewrite E in L. cbn in L. lia.
    + apply digits_forall; [lia | intros d Hd; unfold is_dec_digit; lia | constructor].
    + rewrite (digits_numeral 10 (fun d => 48 + d) (fun c => c - 48)); [reflexivity | lia | intros; lia |].
      split; [exact Hn|]. destruct (Z.log2_spec n ltac:(lia)) as [_ H].
      replace (Z.of_nat (S (Z.to_nat (Z.log2 n)))) with (Z.succ (Z.log2 n)) by (pose proof (Z.log2_nonneg n); lia).
      apply Z.lt_le_trans with (1 := H). apply Z.pow_le_mono_l. lia.
Qed.

Lemma put_last_ok k : forall n acc, Forall digit acc ->
  Forall digit (put_last k n acc) /\ length (put_last k n acc) = (k + length acc)%nat /\
  forall r, num10 r (put_last k n acc) = num10 (r * 10 ^ Z.of_nat k + n mod 10 ^ Z.of_nat k) acc.
Proof.
  induction k as [|k IH]; intros n acc Ha; cbn [put_last].
  - split; [exact Ha|]. split; [reflexivity|]. intros r. f_equal. cbn [Z.of_nat]. rewrite Z.pow_0_r, Z.mod_1_r. lia.
  - destruct (IH (n / 10) (48 + n mod 10 :: acc)) as (A & L & V).
    { constructor; [|exact Ha]. pose proof (Z.mod_pos_bound n 10 ltac:(lia)). unfold is_dec_digit. lia. }
    split; [exact A|]. split; [rewrite L; cbn [length]; lia|]. intros r. rewrite V.
    unfold numeral_from at 1. cbn [fold_left]. unfold numeral_from. f_equal.
    rewrite Nat2Z.inj_succ, Z.pow_succ_r by lia. set (B := 10 ^ Z.of_nat k). assert (0 < B) by (apply Z.pow_pos_nonneg; lia).
    rewrite Z.rem_mul_r by lia. lia.
Qed.

(** the decimal number written for r *)
Definition printed (p : Z) (r : R) : R :=
  let v := (IZR (ZnearestE (Rabs r * IZR (10 ^ p))) / IZR (10 ^ p))%R in if Rlt_dec r 0 then (- v)%R else v.

Lemma nearest_nonneg x : (0 <= x)%R -> 0 <= ZnearestE x.
Proof. intros H. rewrite <- (Znearest_imp (fun x => negb (Z.even x)) 0%R 0) by (rewrite Rminus_0_r, Rabs_R0; lra). apply Zrnd_le; [apply valid_rnd_N|assumption]. Qed.
Lemma pow10_pos p : 0 <= p -> (0 < IZR (10 ^ p))%R.
Proof. intros H. apply IZR_lt, Z.pow_pos_nonneg; lia. Qed.

(** ** Input *)
(** what may follow a number: no digit, no exponent *)
Definition follows (rest : list Z) : Prop :=
  match rest with [] => True | c :: _ => is_dec_digit c = false /\ c <> 101 /\ c <> 69 /\ c <> 46 end.

Lemma first_digit ds t : Forall digit ds -> ds <> [] -> take_sign (ds ++ t) = (false, ds ++ t).
Proof.
  intros H N. destruct ds as [|c ds]; [congruence|]. inversion_clear H as [|? ? Hc _]. cbn [app take_sign].
  unfold is_dec_digit in Hc. replace (c =? 45) with false by lia. replace (c =? 43) with false by lia. reflexivity.
Qed.

Lemma get_real_split neg ds fs rest old : Forall digit ds -> ds <> [] -> Forall digit fs -> follows rest ->
  let v := to_double (decimal_value neg (num10 (num10 0 ds) fs) (- Z.of_nat (length fs))) in
  get_real (Istr ((if neg then [45] else []) ++ ds ++ 46 :: fs ++ rest) false false) old =
  (Istr rest (ended rest) (if Rlt_dec (Rabs v) (IZR (2 ^ 1024)) then false else true), Fin v).
Proof.
  intros Hd Nd Hf Hr v. assert (Sr : stops is_dec_digit rest) by (destruct rest; [exact Logic.I|apply Hr]). unfold get_real. cbn [i_good i_eof i_fail negb andb i_chars].
  assert (T : take_sign ((if neg then [45] else []) ++ ds ++ 46 :: fs ++ rest) = (neg, ds ++ 46 :: fs ++ rest)).
  { destruct neg; cbn [app]; [reflexivity|now apply first_digit]. }
  rewrite T. rewrite (take_digits_app ds (46 :: fs ++ rest)) by (auto; reflexivity). cbv beta iota zeta.
  rewrite Z.eqb_refl. rewrite (take_digits_app fs rest)  by auto.
  cbv beta iota zeta.
  assert (Nf : Z.of_nat (length (fs ++ rest)) - Z.of_nat (length rest) = Z.of_nat (length fs)) by (rewrite app_length; lia).
  assert (Ni : Z.of_nat (length (ds ++ 46 :: fs ++ rest)) - Z.of_nat (length (46 :: fs ++ rest)) = Z.of_nat (length ds)) by (rewrite app_length; lia).
  assert (Pi : 1 <= Z.of_nat (length ds)) by (destruct ds; [congruence|cbn [length]; lia]).
  rewrite Nf, Ni.
  assert (X : match rest with
      | c :: t => if ((c =? 101) || (c =? 69)) && (0 <? Z.of_nat (length ds) + Z.of_nat (length fs))
                  then let (eneg, u) := take_sign t in
                       let (e, u') := take_digits u 0 in
                       (if eneg then - e else e, Z.of_nat (length u) =? Z.of_nat (length u'), u')
                  else (0, false, rest)
      | [] => (0, false, rest)
      end = (0, false, rest)).
  { destruct rest as [|c t]; [reflexivity|]. destruct Hr as (_ & E1 & E2 & _).
    replace (c =? 101) with false by lia. replace (c =? 69) with false by lia. reflexivity. }
  rewrite X. cbv beta iota zeta. replace (Z.of_nat (length ds) + Z.of_nat (length fs) =? 0) with false by lia. cbn [orb].
  replace (0 - Z.of_nat (length fs)) with (- Z.of_nat (length fs)) by lia. fold v.
  destruct (Rlt_dec (Rabs v) (IZR (2 ^ 1024))); reflexivity.
Qed.

Lemma get_real_put p r rest old : 0 < p -> follows rest ->
  let v := to_double (printed p r) in
  get_real (Istr (put_real p (Fin r) ++ rest) false false) old =
  (Istr rest (ended rest) (if Rlt_dec (Rabs v) (IZR (2 ^ 1024)) then false else true), Fin v).
Proof.
  intros Hp Hr v. cbn [put_real]. unfold put_fixed. set (n := ZnearestE (Rabs r * IZR (10 ^ p))).
  assert (Hn : 0 <= n). { apply nearest_nonneg. apply Rmult_le_pos; [apply Rabs_pos|]. pose proof (pow10_pos p ltac:(lia)). lra. }
  assert (HB : 0 < 10 ^ p) by (apply Z.pow_pos_nonneg; lia).
  replace (p =? 0) with false by lia.
  destruct (put_decimal_ok (n / 10 ^ p) ltac:(apply Z.div_pos; lia)) as (N & D & V).
  destruct (put_last_ok (Z.to_nat p) n [] ltac:(constructor)) as (D' & L & V').
  rewrite <- !app_assoc. cbn [app].
  pose proof (get_real_split (if Rlt_dec r 0 then true else false) (put_decimal (n / 10 ^ p)) (put_last (Z.to_nat p) n []) rest old D N D' Hr) as S.
  cbv zeta in S. rewrite V, V', L in S. cbn [length] in S. rewrite Nat.add_0_r in S. rewrite Z2Nat.id in S by lia.
  replace (num10 (n / 10 ^ p * 10 ^ p + n mod 10 ^ p) []) with n in S.
  2:{ unfold numeral_from. cbn [fold_left]. pose proof (Z.div_mod n (10 ^ p) ltac:(lia)). lia. }
  replace (decimal_value (if Rlt_dec r 0 then true else false) n (- p)) with (printed p r) in S.
  - fold v in S. rewrite <- S. destruct (Rlt_dec r 0); reflexivity.
  - unfold decimal_value, printed. replace (- p >=? 0) with false by lia. rewrite Z.opp_involutive. fold n.
    destruct (Rlt_dec r 0); reflexivity.
Qed.

(** ** Rounding *)
Notation dexp := (FLT_exp (-1074) 53).
Notation dformat := (generic_format radix2 dexp).
Local Instance prec53 : Prec_gt_0 53. Proof. reflexivity. Qed.

Lemma to_double_id r : dformat r -> to_double r = r.
Proof. intros H. apply round_generic; [apply valid_rnd_N|exact H]. Qed.
Lemma to_double_opp r : to_double (- r) = (- to_double r)%R.
Proof. apply round_NE_opp. Qed.

Lemma half_format : dformat (1 / 2)%R.
Proof. replace (1 / 2)%R with (bpow radix2 (-1)) by (cbn; lra). apply generic_format_bpow. unfold FLT_exp. lia. Qed.

Lemma ulp_half : ulp radix2 dexp (1 / 2) = bpow radix2 (-53).
Proof. replace (1 / 2)%R with (bpow radix2 (-1)) by (cbn; lra). rewrite ulp_bpow. reflexivity. Qed.

Lemma ulp_ge_half r : (1 / 2 <= r)%R -> (bpow radix2 (-53) <= ulp radix2 dexp r)%R.
Proof. intros H. rewrite <- ulp_half. apply ulp_le_pos; [apply FLT_exp_valid; reflexivity|apply FLT_exp_monotone|lra|exact H]. Qed.

Lemma near_rounds r v : dformat r -> (1 / 2 < r)%R -> (Rabs (v - r) <= 1 / 2 / IZR (10 ^ 16))%R -> to_double v = r.
Proof.
  intros F Hr Hv.
  assert (E : (1 / 2 / IZR (10 ^ 16) < bpow radix2 (-53) / 2)%R).
  { cbn [bpow]. change (IZR (10 ^ 16)) with (IZR 10000000000000000). change (Z.pow_pos radix2 53) with 9007199254740992. lra. }
  assert (V : Valid_exp dexp) by (apply FLT_exp_valid; reflexivity).
  assert (S : (r + bpow radix2 (-53) <= succ radix2 dexp r)%R).
  { rewrite succ_eq_pos by lra. pose proof (ulp_ge_half r ltac:(lra)). lra. }
  assert (P : (pred radix2 dexp r <= r - bpow radix2 (-53))%R).
  { assert (H : (1 / 2 <= pred radix2 dexp r)%R) by (apply pred_ge_gt; [exact V|exact half_format|exact F|exact Hr]).
    pose proof (succ_pred radix2 dexp r F) as Q. rewrite succ_eq_pos in Q by lra.
    pose proof (ulp_ge_half _ H). lra. }
  apply Rabs_le_inv in Hv. apply Rle_antisym.
  - apply round_N_le_midp; [exact V|exact F|]. lra.
  - apply round_N_ge_midp; [exact V|exact F|]. lra.
Qed.

(** the number written is within half a unit of the last place *)
Lemma printed_near p r : 0 <= p -> (Rabs (printed p r - r) <= 1 / 2 / IZR (10 ^ p))%R.
Proof.
  intros Hp. pose proof (pow10_pos p Hp) as HB. set (B := IZR (10 ^ p)) in *. unfold printed. fold B. cbv zeta.
  set (n := ZnearestE (Rabs r * B)).
  assert (H : (Rabs (IZR n / B - Rabs r) <= 1 / 2 / B)%R).
  { pose proof (Znearest_half (fun x => negb (Z.even x)) (Rabs r * B)) as N. fold n in N.
    replace (IZR n / B - Rabs r)%R with (- ((Rabs r * B - IZR n) / B))%R by (field; lra).
    rewrite Rabs_Ropp. unfold Rdiv. rewrite Rabs_mult, (Rabs_right (/ B)).
    - apply Rmult_le_compat_r; [left; now apply Rinv_0_lt_compat|lra].
    - left. now apply Rinv_0_lt_compat. }
  destruct (Rlt_dec r 0).
  - rewrite (Rabs_left r) in H by assumption.
    replace (- (IZR n / B) - r)%R with (- (IZR n / B - - r))%R by ring. rewrite Rabs_Ropp. exact H.
  - rewrite (Rabs_right r) in H by lra. exact H.
Qed.
Lemma printed_exact p r k : 0 <= p -> (r * IZR (10 ^ p) = IZR k)%R -> printed p r = r.
Proof.
  intros Hp E. pose proof (pow10_pos p Hp) as HB. set (B := IZR (10 ^ p)) in *. unfold printed. fold B. cbv zeta.
  assert (A : (Rabs r * B = IZR (Z.abs k))%R). { rewrite abs_IZR, <- E, Rabs_mult, (Rabs_right B) by lra. reflexivity. }
  rewrite A, (Zrnd_IZR ZnearestE), <- A. destruct (Rlt_dec r 0).
  - rewrite Rabs_left by assumption. field. lra.
  - rewrite Rabs_right by lra. field. lra.
Qed.
Lemma printed_opp p r : r <> 0%R -> printed p (- r) = (- printed p r)%R.
Proof.
  intros N. unfold printed. rewrite Rabs_Ropp. destruct (Rlt_dec (- r) 0), (Rlt_dec r 0); try lra; ring.
Qed.

(** doubles that are restored from their text with p decimals *)
Lemma survives p r : 0 <= p -> dformat r ->
  ((exists k, (r * IZR (10 ^ p))%R = IZR k) \/ (16 <= p /\ (1 / 2 <= Rabs r)%R)) -> to_double (printed p r) = r.
Proof.
  intros Hp F [(k & E)|(H16 & Hr)].
  - rewrite (printed_exact p r k Hp E). now apply to_double_id.
  - destruct (Req_dec (Rabs r) (1 / 2)) as [Eq|Ne].
    + rewrite (printed_exact p r (if Rlt_dec r 0 then - (5 * 10 ^ (p - 1)) else 5 * 10 ^ (p - 1)) Hp); [now apply to_double_id|].
      replace p with (Z.succ (p - 1)) at 1 by lia. rewrite Z.pow_succ_r by lia.
      destruct (Rlt_dec r 0).
      * rewrite Rabs_left in Eq by assumption. rewrite opp_IZR, !mult_IZR. replace r with (- (1 / 2))%R by lra. field.
      * rewrite Rabs_right in Eq by lra. rewrite !mult_IZR. rewrite Eq. field.
    + assert (B16 : (1 / 2 / IZR (10 ^ p) <= 1 / 2 / IZR (10 ^ 16))%R).
      { apply Rmult_le_compat_l; [lra|]. apply Rinv_le; [apply pow10_pos; lia|]. apply IZR_le, Z.pow_le_mono_r; lia. }
      destruct (Rlt_dec r 0) as [L|L].
      * rewrite Rabs_left in * by assumption. rewrite <- (Ropp_involutive r) at 1. rewrite printed_opp, to_double_opp by lra.
        rewrite (near_rounds (- r)); [ring|now apply generic_format_opp|lra|].
        apply Rle_trans with (2 := B16). now apply printed_near.
      * rewrite Rabs_right in * by lra. apply near_rounds; [assumption|lra|].
        apply Rle_trans with (2 := B16). now apply printed_near.
Qed.

(** below half a unit nothing is left *)
Lemma vanishes p r : 0 <= p -> (Rabs r < 1 / 2 / IZR (10 ^ p))%R -> to_double (printed p r) = 0%R.
Proof.
  intros Hp H. pose proof (pow10_pos p Hp) as HB. unfold printed.
  assert (E : (Rabs r * IZR (10 ^ p) < 1 / 2)%R).
  { apply Rmult_lt_reg_r with (/ IZR (10 ^ p))%R; [now apply Rinv_0_lt_compat|]. rewrite Rmult_assoc, Rinv_r by lra. lra. }
  rewrite (Znearest_imp _ _ 0).
  - replace (if Rlt_dec r 0 then - (IZR 0 / IZR (10 ^ p)) else IZR 0 / IZR (10 ^ p))%R with 0%R by (destruct (Rlt_dec r 0); field; lra).
    apply to_double_id, generic_format_0.
  - rewrite Rminus_0_r, Rabs_mult, Rabs_Rabsolu, (Rabs_right (IZR _)) by lra. lra.
Qed.
