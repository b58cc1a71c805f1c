(** C54, C73, C74: text of the distributions. *)
From Coq Require Import ZArith Reals Bool String List Lia Lra.
From Flocq Require Import Core.
From Verif Require Import ContModel BaseFacts StreamModel StreamProofs EngineTextModel EngineTextProofs DistTextModel DistTextProofs.
Import ListNotations.
Open Scope Z_scope.

(** ** Specification *)

(** a double that text with p decimals restores: it has at most p decimals, or p is at least 16 and it is at
    least 1/2 in absolute value *)
Definition restorable_real (p : Z) (r : R) : Prop :=
  is_double r /\ ((exists k, (r * IZR (10 ^ p))%R = IZR k) \/ (16 <= p /\ (1 / 2 <= Rabs r)%R)).
Definition restorable (p : Z) (F : field) (v : value) : Prop :=
  match F, v with
  | FReal, VReal (Fin r) => restorable_real p r
  | FNum T, VInt n => fits T n
  | _, _ => False
  end.
(** the precision the parameters are written with *)
Definition precision (c : dist_class) (stream : Z) : Z := match dc_prec c with Some p => p | None => stream end.
(** the text of a distribution written to a stream with the given precision *)
Definition text_of (c : dist_class) (vs : list value) (stream : Z) : list Z := o_text (write_dist c vs (Ostr 0 stream [])).

Definition restored_classes : list dist_class :=
  bernoulli_text :: exponential_text :: normal_text :: truncated_normal_text :: other_texts.

(** ** Tools *)

Definition field_ok (F : field) : Prop := match F with FReal => True | FNum T => type_max T /\ T <> NUint128 end.

Lemma get_int_put T n rest old : type_max T -> T <> NUint128 -> fits T n -> stops is_dec_digit rest ->
  get_int T (Istr (put_int n ++ rest) false false) old = (Istr rest (ended rest) false, n).
Proof.
  intros HT N HF Hr.
  assert (B : forall w, 0 <= w <= 64 -> 2 ^ w < 10 ^ 64).
  { intros w Hw. apply Z.le_lt_trans with (2 ^ 64); [apply Z.pow_le_mono_r; lia | reflexivity]. }
  assert (D : forall m, 0 <= m < 10 ^ 64 -> exists c ds, put_digits m = c :: ds /\ Forall digit (c :: ds) /\ num10 0 (c :: ds) = m).
  { intros m Hm. destruct (put_digits_decimal m Hm) as [X Y]. apply decimal_forall in Y. destruct Y as [Y1 Y2].
    destruct (put_digits m) as [|c ds]; [congruence|]. exists c, ds. auto. }
  destruct T as [w|w|]; cbn [type_max fits] in *; [| |congruence].
  - specialize (B w HT). destruct (D n ltac:(lia)) as (c & ds & E & F & V). unfold put_int. replace (n <? 0) with false by lia. rewrite E.
    change ((c :: ds) ++ rest) with (sign_chars SNone ++ (c :: ds) ++ rest).
    rewrite (get_int_split (NUnsigned w) SNone (c :: ds) rest old F Hr) by (intros _ X; discriminate X).
    rewrite V. cbn [sign_neg num_value]. replace (n <? 2 ^ w) with true by lia. reflexivity.
  - specialize (B (w - 1) ltac:(lia)). unfold put_int. destruct (Z.ltb_spec n 0).
    + destruct (D (- n) ltac:(lia)) as (c & ds & E & F & V). rewrite E. change ((45 :: c :: ds) ++ rest) with (sign_chars SMinus ++ (c :: ds) ++ rest).
      rewrite (get_int_split (NSigned w) SMinus (c :: ds) rest old F Hr) by (intros X; discriminate X).
      rewrite V. cbn [sign_neg num_value]. rewrite Z.opp_involutive.
      replace ((- 2 ^ (w - 1) <=? n) && (n <? 2 ^ (w - 1))) with true by lia. reflexivity.
    + destruct (D n ltac:(lia)) as (c & ds & E & F & V). rewrite E.
      change ((c :: ds) ++ rest) with (sign_chars SNone ++ (c :: ds) ++ rest).
      rewrite (get_int_split (NSigned w) SNone (c :: ds) rest old F Hr) by (intros _ X; discriminate X).
      rewrite V. cbn [sign_neg num_value]. replace ((- 2 ^ (w - 1) <=? n) && (n <? 2 ^ (w - 1))) with true by lia. reflexivity.
Qed.

Lemma follows_stops rest : follows rest -> stops is_dec_digit rest.
Proof. destruct rest; [reflexivity|intros H; apply H]. Qed.

Lemma get_value_put p F v rest : 0 < p -> field_ok F -> restorable p F v -> follows rest ->
  get_value F (Istr (put_value p v ++ rest) false false) = (Istr rest (ended rest) false, v).
Proof.
  intros Hp HF Hv Hr. destruct F as [|T], v as [[r| | |]|n]; cbn [restorable] in Hv; try tauto.
  - cbn [get_value put_value]. rewrite get_real_put by assumption.
    destruct Hv as [[F L] C]. rewrite survives by (auto; lia).
    destruct (Rlt_dec (Rabs r) (IZR (2 ^ 1024))); [reflexivity|contradiction].
  - cbn [get_value put_value]. rewrite get_int_put; [reflexivity|apply HF|apply HF|exact Hv|now apply follows_stops].
Qed.

Lemma get_values_put p Fs vs : 0 < p -> Forall field_ok Fs -> Forall2 (restorable p) Fs vs -> forall rest, follows rest -> rest <> [] ->
  get_values Fs (Istr (put_values p vs ++ rest) false false) = (Istr rest false false, vs).
Proof.
  intros Hp Ho H. induction H as [|F v Fs vs Hv Hvs IH]; intros rest Hr Nr; [reflexivity|].
  inversion_clear Ho as [|? ? HF HFs]. cbn [get_values put_values].
  assert (N : ended rest = false) by (destruct rest; [congruence|reflexivity]).
  destruct Hvs as [|F' v' Fs' vs' Hv' Hvs'].
  - rewrite app_nil_r. rewrite get_value_put by assumption. rewrite N. reflexivity.
  - rewrite <- app_assoc. cbn [app]. rewrite get_value_put by (auto; cbn; repeat split; lia).
    cbn [ended]. rewrite delim_c_ok.
    specialize (IH HFs rest Hr Nr). cbn [app put_values] in IH. cbn [put_values]. rewrite IH. reflexivity.
Qed.

Lemma write_param_text c vs s : write_param c vs s =
  Ostr (o_flags s) (precision c (o_prec s)) (o_text s ++ 40 :: put_values (precision c (o_prec s)) vs ++ [41]).
Proof.
  unfold write_param, saving_flags, precision, set_flags, o_put, set_prec. destruct (dc_prec c); cbn [o_flags o_prec o_text];
    rewrite <- !app_assoc; reflexivity.
Qed.
Lemma write_dist_text c vs s : write_dist c vs s =
  Ostr (o_flags s) (precision c (o_prec s)) (o_text s ++ dc_written c ++ 40 :: put_values (precision c (o_prec s)) vs ++ [41; 93]).
Proof.
  unfold write_dist, saving_flags. rewrite write_param_text. unfold set_flags, o_put. cbn [o_flags o_prec o_text].
  rewrite <- !app_assoc. cbn [app]. rewrite <- !app_assoc. reflexivity.
Qed.

Lemma open_dist c sp u old : hd 0 (dc_expected c) = 91 -> Forall gap sp ->
  read_dist c (of_text (sp ++ dc_expected c ++ 40 :: u)) old =
    let (s, vs) := get_values (dc_fields c) (of_text u) in
    let s1 := delim_c 41 s in
    let s2 := delim_c 93 s1 in
    (s2, if i_fail s2 then old else if i_fail s1 then no_values else vs).
Proof.
  intros Hh Hsp. unfold read_dist, read_param.
  assert (E : exists t, dc_expected c = 91 :: t) by (destruct (dc_expected c) as [|h t]; [discriminate Hh|exists t; cbn in Hh; congruence]).
  rewrite ignore_spaces_text; [|destruct E as (t & ->); reflexivity|exact Hsp].
  replace (ended (dc_expected c ++ 40 :: u)) with false by (destruct E as (t & ->); reflexivity).
  rewrite delim_str_ok, delim_c_ok. fold (of_text u). destruct (get_values (dc_fields c) (of_text u)) as [s vs]. reflexivity.
Qed.
Lemma text_shape c vs stream : text_of c vs stream = dc_written c ++ 40 :: put_values (precision c stream) vs ++ [41; 93].
Proof. unfold text_of. rewrite write_dist_text. reflexivity. Qed.

(** ** C54: round trip *)

Theorem C54_round_trip : forall c vs stream sp rest old,
  In c restored_classes -> 0 < stream -> Forall2 (restorable (precision c stream)) (dc_fields c) vs -> Forall gap sp ->
  read_dist c (of_text (sp ++ text_of c vs stream ++ rest)) old = (of_text rest, vs).
Proof.
  intros c vs stream sp rest old Hc Hs Hv Hsp. rewrite text_shape.
  assert (K : dc_written c = dc_expected c /\ hd 0 (dc_expected c) = 91 /\ Forall field_ok (dc_fields c) /\ 0 < precision c stream).
  { unfold restored_classes, other_texts in Hc. cbn [In] in Hc.
    repeat (destruct Hc as [<-|Hc]; [split; [reflexivity|split; [reflexivity|split; [repeat constructor; cbn; try lia; discriminate|cbn; lia]]]|]).
    contradiction. }
  destruct K as (-> & Hh & Hf & Hp). rewrite <- !app_assoc. cbn [app]. rewrite <- !app_assoc. cbn [app].
  rewrite open_dist by assumption. unfold of_text.
  rewrite (get_values_put _ _ _ Hp Hf Hv (41 :: 93 :: rest)) by (cbn; repeat split; lia || discriminate).
  rewrite delim_c_ok. cbv zeta. rewrite delim_c_ok. reflexivity.
Qed.

Lemma small_double (m e : Z) : (Z.abs m < 2 ^ 53)%Z -> (-1074 <= e <= 900)%Z -> is_double (IZR m * bpow radix2 e).
Proof.
  intros Hm He. split.
  - apply generic_format_FLT. exists (Float radix2 m e); [reflexivity|exact Hm|apply He].
  - rewrite Rabs_mult, (Rabs_right (bpow _ _)) by (apply Rle_ge, bpow_ge_0). rewrite <- abs_IZR.
    apply Rle_lt_trans with (IZR (2 ^ 53) * bpow radix2 900)%R.
    + apply Rmult_le_compat; [apply IZR_le; lia|apply bpow_ge_0|apply IZR_le; lia|apply bpow_le; lia].
    + change (IZR (2 ^ 53)) with (IZR (Zpower radix2 53)). rewrite IZR_Zpower by lia. rewrite <- bpow_plus.
      change (IZR (2 ^ 1024)) with (IZR (Zpower radix2 1024)). rewrite IZR_Zpower by lia. apply bpow_lt. lia.
Qed.
Lemma double_pow e : (-1074 <= e <= 900)%Z -> is_double (bpow radix2 e).
Proof. intros H. rewrite <- (Rmult_1_l (bpow _ _)). apply (small_double 1 e); lia. Qed.

(** a normal distribution with mean -3/4 and standard deviation 10^6 *)
Example C54_ex : restorable 16 FReal (VReal (Fin (-(3 / 4)))) /\ restorable 16 FReal (VReal (Fin 1000000)) /\
  read_dist normal_text (of_text (text_of normal_text [VReal (Fin (-(3 / 4))); VReal (Fin 1000000)] 6)) [] =
    (of_text [], [VReal (Fin (-(3 / 4))); VReal (Fin 1000000)]).
Proof.
  assert (A : restorable 16 FReal (VReal (Fin (-(3 / 4))))).
  { cbn. split; [|right; split; [lia|rewrite Rabs_left; lra]].
    replace (-(3 / 4))%R with (IZR (-3) * bpow radix2 (-2))%R by (cbn; lra). apply small_double; lia. }
  assert (B : restorable 16 FReal (VReal (Fin 1000000))).
  { cbn. split; [|left; exists (1000000 * 10 ^ 16); rewrite mult_IZR; reflexivity].
    replace 1000000%R with (IZR 1000000 * bpow radix2 0)%R by (cbn; lra). apply small_double; lia. }
  split; [exact A|]. split; [exact B|].
  rewrite <- (app_nil_l (text_of _ _ _)), <- (app_nil_r (text_of _ _ _)).
  apply C54_round_trip; [right; right; left; reflexivity|lia|constructor; [exact A|constructor; [exact B|constructor]]|constructor].
Qed.

(** *** What is not restored *)

(** reading back one real parameter gives the double nearest to the decimal number written *)
Lemma one_real c r stream rest old : dc_fields c = [FReal] -> dc_written c = dc_expected c -> hd 0 (dc_expected c) = 91 ->
  0 < precision c stream -> (Rabs (to_double (printed (precision c stream) r)) < IZR (2 ^ 1024))%R ->
  read_dist c (of_text (text_of c [VReal (Fin r)] stream ++ rest)) old =
    (of_text rest, [VReal (Fin (to_double (printed (precision c stream) r)))]).
Proof.
  intros Hf Hw Hh Hp Hl. rewrite text_shape, Hw. rewrite <- !app_assoc. cbn [app]. rewrite <- !app_assoc. cbn [app].
  rewrite <- (app_nil_l (dc_expected c ++ _)). rewrite open_dist by (auto; constructor). rewrite Hf.
  unfold of_text. cbn [get_values put_values put_value get_value]. rewrite app_nil_r.
  rewrite get_real_put by (auto; cbn; repeat split; lia). destruct (Rlt_dec _ _); [|contradiction]. cbn [ended].
  rewrite delim_c_ok. cbv zeta. rewrite delim_c_ok. reflexivity.
Qed.

(** every parameter below 10^-16 / 2 becomes 0: an exponential distribution with mean 10^-17 comes back with
    mean 0, and two different parameters have the same text *)
Theorem C54_small_refuted : forall r stream rest old, (Rabs r < 1 / 2 / IZR (10 ^ 16))%R ->
  read_dist exponential_text (of_text (text_of exponential_text [VReal (Fin r)] stream ++ rest)) old = (of_text rest, [VReal (Fin 0)]).
Proof.
  intros r stream rest old H. rewrite one_real; try reflexivity; cbn [precision dc_prec exponential_text precise same_text].
  - rewrite vanishes; [reflexivity|lia|exact H].
  - rewrite vanishes; [rewrite Rabs_R0; apply IZR_lt; lia|lia|exact H].
Qed.
Theorem C54_same_text_refuted : exists r r', is_double r /\ is_double r' /\ r <> r' /\
  forall stream, text_of exponential_text [VReal (Fin r)] stream = text_of exponential_text [VReal (Fin r')] stream.
Proof.
  exists (bpow radix2 (-60)), (bpow radix2 (-61)). split; [apply double_pow; lia|]. split; [apply double_pow; lia|].
  split; [apply Rgt_not_eq, bpow_lt; lia|].
  intros stream. unfold text_of. rewrite !write_dist_text. cbn [precision dc_prec exponential_text precise same_text put_values put_value put_real].
  assert (Z : forall e, (-61 <= e <= -60)%Z -> ZnearestE (Rabs (bpow radix2 e) * IZR (10 ^ 16)) = 0).
  { intros e He. apply Znearest_imp. rewrite Rminus_0_r, Rabs_mult, Rabs_Rabsolu, (Rabs_right (IZR _)) by (apply Rle_ge, IZR_le; lia).
    rewrite Rabs_right by (apply Rle_ge, bpow_ge_0). apply Rle_lt_trans with (bpow radix2 (-60) * IZR (10 ^ 16))%R.
    - apply Rmult_le_compat_r; [apply IZR_le; lia|apply bpow_le; lia].
    - cbn [bpow]. change (IZR (10 ^ 16)) with 10000000000000000%R. change (Z.pow_pos radix2 60) with 1152921504606846976. lra. }
  rewrite !Z by lia.
  destruct (Rlt_dec (bpow radix2 (-60)) 0) as [L|_]; [pose proof (bpow_ge_0 radix2 (-60)); lra|].
  destruct (Rlt_dec (bpow radix2 (-61)) 0) as [L|_]; [pose proof (bpow_ge_0 radix2 (-61)); lra|]. reflexivity.
Qed.

(** the nearest double is at least as near as any other *)
Lemma to_double_near v g : dformat g -> (Rabs (to_double v - v) <= Rabs (g - v))%R.
Proof.
  intros H. assert (V : Valid_exp dexp) by (apply FLT_exp_valid; reflexivity).
  destruct (round_N_pt radix2 dexp (fun x => negb (Z.even x)) v) as [_ N]. apply (N g H).
Qed.

(** the double after 0.1 comes back as 0.1 *)
Theorem C54_tenth_refuted : exists r, is_double r /\ (1 / 10 < r < 1 / 5)%R /\
  forall stream rest old, exists r', r' <> r /\
    read_dist exponential_text (of_text (text_of exponential_text [VReal (Fin r)] stream ++ rest)) old = (of_text rest, [VReal (Fin r')]).
Proof.
  set (r := (IZR 7205759403792795 * bpow radix2 (-56))%R).
  assert (Er : r = (7205759403792795 / 72057594037927936)%R).
  { unfold r. cbn [bpow]. change (Z.pow_pos radix2 56) with 72057594037927936. lra. }
  exists r. split; [apply small_double; lia|]. split; [rewrite Er; lra|]. intros stream rest old.
  assert (P : printed 16 r = (1 / 10)%R).
  { unfold printed. rewrite Rabs_right by (rewrite Er; lra). destruct (Rlt_dec r 0); [rewrite Er in *; lra|].
    rewrite (Znearest_imp _ _ 1000000000000000); [change (IZR (10 ^ 16)) with 10000000000000000%R; lra|].
    rewrite Er. change (IZR (10 ^ 16)) with 10000000000000000%R. apply Rabs_def1; lra. }
  set (g := (IZR 7205759403792794 * bpow radix2 (-56))%R).
  assert (Eg : g = (7205759403792794 / 72057594037927936)%R).
  { unfold g. cbn [bpow]. change (Z.pow_pos radix2 56) with 72057594037927936. lra. }
  assert (N : (Rabs (to_double (1 / 10) - 1 / 10) <= Rabs (g - 1 / 10))%R).
  { apply to_double_near. apply (small_double 7205759403792794 (-56)); lia. }
  rewrite (Rabs_right (g - 1 / 10)) in N by (rewrite Eg; lra).
  exists (to_double (1 / 10)). split.
  - intros E. rewrite E in N. rewrite Rabs_right in N by (rewrite Er; lra). rewrite Er, Eg in N. lra.
  - rewrite one_real; try reflexivity; cbn [precision dc_prec exponential_text precise same_text]; rewrite P; [reflexivity|].
    apply Rle_lt_trans with 1%R; [|apply IZR_lt; lia]. apply Rabs_le_inv in N. rewrite Eg in N. apply Rabs_le. lra.
Qed.

(** bernoulli_dist sets no precision: on a stream with the default precision 6 the double nearest to 1/3 comes
    back as 0.333333 *)
Theorem C54_bernoulli_refuted : exists r, is_double r /\
  forall head tail rest old, fits i32 head -> fits i32 tail -> exists r', r' <> r /\
    read_dist bernoulli_text (of_text (text_of bernoulli_text [VReal (Fin r); VInt head; VInt tail] 6 ++ rest)) old =
      (of_text rest, [VReal (Fin r'); VInt head; VInt tail]).
Proof.
  set (r := (IZR 6004799503160661 * bpow radix2 (-54))%R).
  assert (Er : r = (6004799503160661 / 18014398509481984)%R).
  { unfold r. cbn [bpow]. change (Z.pow_pos radix2 54) with 18014398509481984. lra. }
  exists r. split; [apply small_double; lia|]. intros head tail rest old Hh Ht.
  assert (P : printed 6 r = (333333 / 1000000)%R).
  { unfold printed. rewrite Rabs_right by (rewrite Er; lra). destruct (Rlt_dec r 0); [rewrite Er in *; lra|].
    rewrite (Znearest_imp _ _ 333333); [change (IZR (10 ^ 6)) with 1000000%R; lra|].
    rewrite Er. change (IZR (10 ^ 6)) with 1000000%R. apply Rabs_def1; lra. }
  set (g := (IZR 5592400 * bpow radix2 (-24))%R).
  assert (Eg : g = (5592400 / 16777216)%R). { unfold g. cbn [bpow]. change (Z.pow_pos radix2 24) with 16777216. lra. }
  assert (N : (Rabs (to_double (333333 / 1000000) - 333333 / 1000000) <= Rabs (g - 333333 / 1000000))%R).
  { apply to_double_near. apply (small_double 5592400 (-24)); lia. }
  rewrite (Rabs_right (g - _)) in N by (rewrite Eg; lra).
  exists (to_double (333333 / 1000000)). split.
  - intros E. rewrite E in N. rewrite Rabs_right in N by (rewrite Er; lra). rewrite Er, Eg in N. lra.
  - rewrite text_shape. cbn [precision dc_prec bernoulli_text same_text].
    change (dc_written bernoulli_text) with (dc_expected bernoulli_text). rewrite <- !app_assoc. cbn [app]. rewrite <- !app_assoc. cbn [app].
    rewrite <- (app_nil_l (dc_expected _ ++ _)). rewrite open_dist by (reflexivity || constructor). unfold of_text.
    cbn [dc_fields bernoulli_text same_text get_values put_values put_value get_value].
    rewrite <- !app_assoc. cbn [app]. rewrite get_real_put by (lia || (cbn; repeat split; lia)).
    rewrite P. destruct (Rlt_dec _ _) as [_|L].
    2:{ exfalso. apply L. apply Rle_lt_trans with 1%R; [|apply IZR_lt; lia]. apply Rabs_le_inv in N. rewrite Eg in N. apply Rabs_le. lra. }
    cbn [ended]. rewrite delim_c_ok, <- !app_assoc. cbn [app]. unfold I. cbn [get_value].
    rewrite get_int_put by (discriminate || (cbn; lia) || assumption || reflexivity). cbn [ended]. rewrite delim_c_ok, app_nil_r.
    rewrite get_int_put by (discriminate || (cbn; lia) || assumption || reflexivity). cbn [ended]. rewrite delim_c_ok. cbv zeta. rewrite delim_c_ok. reflexivity.
Qed.

(** a twosided_exponential_dist is never read back: it is written as "[exponential (...)]", its own operator>>
    rejects that and an exponential_dist accepts it *)
Theorem C54_twosided_exponential_refuted : forall v stream rest old,
  (exists s, read_dist twosided_exponential_text (of_text (text_of twosided_exponential_text [v] stream ++ rest)) old = (s, old) /\ i_fail s = true) /\
  text_of twosided_exponential_text [v] stream = text_of exponential_text [v] stream.
Proof.
  intros v stream rest old. split; [|unfold text_of; rewrite !write_dist_text; reflexivity].
  unfold text_of. rewrite write_dist_text. cbn [o_flags o_prec o_text app].
  unfold read_dist. set (u := (_ ++ rest)). set (s0 := delim_str (dc_expected twosided_exponential_text) (ignore_spaces (of_text u))).
  assert (F : i_fail s0 = true).
  { unfold s0, u. rewrite <- app_assoc. rewrite <- (app_nil_l (dc_written _ ++ _)). rewrite ignore_spaces_text; [|reflexivity|constructor]. reflexivity. }
  clearbody s0. unfold read_param.
  assert (F1 : i_fail (delim_c 40 s0) = true) by (apply delim_c_sticky, F).
  destruct (delim_c 40 s0) as [t e f]. cbn in F1. subst f. cbn [dc_fields twosided_exponential_text get_values get_value].
  unfold get_real, i_good. cbn [i_eof i_fail negb]. rewrite andb_false_r. unfold set_fail. cbn [i_chars i_eof].
  assert (F2 : i_fail (delim_c 41 (Istr t e true)) = true) by (apply delim_c_sticky; reflexivity).
  rewrite F2. assert (F3 : i_fail (delim_c 93 (delim_c 41 (Istr t e true))) = true) by (apply delim_c_sticky, F2).
  rewrite F3. eexists. split; [reflexivity|exact F3].
Qed.

Lemma get_real_minus_inf t old : get_real (Istr (chars "-inf" ++ t) false false) old = (Istr (chars "inf" ++ t) false true, Fin 0).
Proof.
  unfold get_real. cbn [i_good i_eof i_fail negb andb i_chars].
  change (take_sign (chars "-inf" ++ t)) with (true, chars "inf" ++ t). cbv beta iota.
  change (take_digits (chars "inf" ++ t) 0) with (0, chars "inf" ++ t). cbv beta iota.
  rewrite Z.sub_diag. reflexivity.
Qed.

(** a truncated_normal_dist without a lower bound (the default) is not read back *)
Theorem C54_infinite_refuted : forall mu sigma b stream rest old, restorable_real 16 mu -> restorable_real 16 sigma -> exists s,
  read_dist truncated_normal_text
    (of_text (text_of truncated_normal_text [VReal (Fin mu); VReal (Fin sigma); VReal NInf; b] stream ++ rest)) old = (s, old) /\
  i_fail s = true.
Proof.
  intros mu sigma b stream rest old Hm Hs. rewrite text_shape. cbn [precision dc_prec truncated_normal_text precise same_text].
  change (dc_written truncated_normal_text) with (dc_expected truncated_normal_text). rewrite <- !app_assoc. cbn [app]. rewrite <- !app_assoc. cbn [app].
  rewrite <- (app_nil_l (dc_expected _ ++ _)). rewrite open_dist by (reflexivity || constructor). unfold of_text.
  cbn [dc_fields truncated_normal_text precise same_text put_values].
  assert (V : forall r t, restorable_real 16 r -> get_value FReal (Istr (put_value 16 (VReal (Fin r)) ++ 32 :: t) false false) = (Istr (32 :: t) false false, VReal (Fin r))).
  { intros r t Hr. apply get_value_put; [lia|exact Logic.I|exact Hr|cbn; repeat split; lia]. }
  cbn [get_values]. rewrite <- !app_assoc. cbn [app]. rewrite V, delim_c_ok by assumption. rewrite <- !app_assoc. cbn [app]. rewrite V, delim_c_ok by assumption.
  rewrite <- !app_assoc. cbn [app put_value put_real]. set (t := 32 :: _ ++ _).
  cbn [get_value]. rewrite get_real_minus_inf.
  cbv beta iota zeta. cbn [delim_c get i_good i_eof i_fail negb andb set_fail i_chars get_value get_real].
  eexists. split; reflexivity.
Qed.

(** ** C73: distributions with a variable number of parameters *)

Definition restorable_list (ws : list xreal) : Prop := Forall (fun x => exists r, x = Fin r /\ restorable_real 16 r) ws.
Definition discrete_text (name : list Z) (ws : list xreal) (stream : Z) : list Z := o_text (write_discrete name ws (Ostr 0 stream [])).
Definition correlated_text (d : Z) (H : list xreal) (stream : Z) : list Z := o_text (write_correlated d H (Ostr 0 stream [])).
Definition discrete_names : list (list Z) := [discrete_name; fast_discrete_name].

Ltac flat := repeat (progress (rewrite <- ?app_assoc; cbn [app])).
Lemma discrete_shape name ws stream : discrete_text name ws stream =
  name ++ 40 :: put_int (Z.of_nat (length ws)) ++ 32 :: put_values 16 (map VReal ws) ++ [41; 93].
Proof.
  unfold discrete_text, write_discrete, write_weights, saving_flags, set_flags, set_prec, o_put. destruct ws as [|x ws]; cbn [o_flags o_prec o_text].
  - flat. reflexivity.
  - flat. reflexivity.
Qed.
Lemma correlated_shape d H stream : correlated_text d H stream =
  correlated_name ++ 40 :: put_int d ++ flat_map (fun x => 32 :: put_real 16 x) H ++ [41; 93].
Proof.
  unfold correlated_text, write_correlated, write_matrix, saving_flags, set_flags, set_prec, o_put. cbn [o_flags o_prec o_text].
  flat. reflexivity.
Qed.
Lemma open_name name t sp u : name = 91 :: t -> Forall gap sp ->
  delim_c 40 (delim_str name (ignore_spaces (of_text (sp ++ name ++ 40 :: u)))) = of_text u.
Proof.
  intros -> Hsp. rewrite ignore_spaces_text; [|reflexivity|exact Hsp].
  replace (ended ((91 :: t) ++ 40 :: u)) with false by reflexivity. rewrite delim_str_ok, delim_c_ok. reflexivity.
Qed.

Theorem C73_discrete_round_trip : forall name ws stream sp rest old, In name discrete_names ->
  restorable_list ws -> Z.of_nat (length ws) < 2 ^ 64 -> Forall gap sp ->
  read_discrete name (of_text (sp ++ discrete_text name ws stream ++ rest)) old = ReadAs (of_text rest) (map VReal ws).
Proof.
  intros name ws stream sp rest old Hn Hw Hl Hsp. rewrite discrete_shape.
  assert (N : exists t, name = 91 :: t). { destruct Hn as [<-|[<-|[]]]; eexists; reflexivity. }
  destruct N as (t & N). flat.
  unfold read_discrete. rewrite (open_name name t) by assumption. unfold of_text. cbn [i_good i_eof i_fail negb andb].
  rewrite get_int_put by (discriminate || (cbn; lia) || reflexivity). cbn [ended].
  replace (Z.of_nat (length ws) <? 0) with false by lia. rewrite delim_c_ok. cbv zeta. cbn [i_good i_eof i_fail negb andb].
  rewrite andb_false_r, Nat2Z.id.
  rewrite (get_values_put 16 (repeat FReal (length ws)) (map VReal ws)); try lia; try discriminate.
  - rewrite delim_c_ok, delim_c_ok. reflexivity.
  - apply Forall_forall. intros F HF. apply repeat_spec in HF. subst F. exact Logic.I.
  - clear - Hw. induction Hw as [|x ws (r & -> & Hr) _ IH]; [constructor|]. cbn [length repeat map]. constructor; [exact Hr|exact IH].
  - cbn. repeat split; lia.
Qed.

Theorem C73_correlated_round_trip : forall d H stream sp rest old, restorable_list H ->
  0 <= d < 65536 -> Z.of_nat (length H) = d * d -> Forall gap sp ->
  read_correlated (of_text (sp ++ correlated_text d H stream ++ rest)) old = ReadAs (of_text rest) (VInt d :: map VReal H).
Proof.
  intros d H stream sp rest old HH Hd Hl Hsp. rewrite correlated_shape. flat.
  unfold read_correlated. rewrite (open_name correlated_name (tl correlated_name)) by (reflexivity || assumption).
  unfold of_text. cbn [i_good i_eof i_fail negb andb].
  rewrite get_int_put; [|cbn; lia|discriminate|cbn; lia|destruct H; reflexivity].
  rewrite Z.mod_small by nia. rewrite <- Hl, Nat2Z.id. clear Hl.
  replace (ended (flat_map (fun x => 32 :: put_real 16 x) H ++ 41 :: 93 :: rest)) with false by (destruct H; reflexivity).
  assert (G : get_elements (length H) (Istr (flat_map (fun x => 32 :: put_real 16 x) H ++ 41 :: 93 :: rest) false false) =
              (Istr (41 :: 93 :: rest) false false, map VReal H)).
  { clear - HH. induction HH as [|x H (r & -> & Hr) _ IH]; [reflexivity|]. cbn [length get_elements flat_map app map].
    rewrite delim_c_ok, <- app_assoc. rewrite (get_value_put 16 FReal (VReal (Fin r))); [|lia|exact Logic.I|exact Hr|].
    - replace (ended _) with false by (destruct H; reflexivity). rewrite IH. reflexivity.
    - destruct H; cbn; repeat split; lia. }
  rewrite G, delim_c_ok, delim_c_ok. reflexivity.
Qed.
Example C73_ex : exists t, read_discrete discrete_name (of_text t) [] = ReadAs (of_text []) [VReal (Fin 1); VReal (Fin 3); VReal (Fin (1 / 4))].
Proof.
  exists (discrete_text discrete_name [Fin 1; Fin 3; Fin (1 / 4)] 6 ++ []). rewrite <- (app_nil_l (_ ++ [])).
  apply C73_discrete_round_trip; [left; reflexivity| |cbn; lia|constructor].
  repeat constructor; eexists; (split; [reflexivity|]); (split; [|left]).
  - rewrite <- (Rmult_1_r 1). apply (small_double 1 0); lia.
  - exists (10 ^ 16). rewrite Rmult_1_l. reflexivity.
  - rewrite <- (Rmult_1_r 3). apply (small_double 3 0); lia.
  - exists (3 * 10 ^ 16). rewrite mult_IZR. reflexivity.
  - replace (1 / 4)%R with (bpow radix2 (-2)) by (cbn; lra). apply double_pow. lia.
  - exists 2500000000000000. change (IZR (10 ^ 16)) with 10000000000000000%R. lra.
Qed.

(** any text that does not begin with the expected name and bracket makes operator>> use an uninitialised
    variable *)
Theorem C73_uninitialised_refuted : forall t old,
  (forall name, In name discrete_names -> (forall sp u, Forall gap sp -> t <> sp ++ name ++ 40 :: u) ->
     read_discrete name (of_text t) old = Uninitialised) /\
  ((forall sp u, Forall gap sp -> t <> sp ++ correlated_name ++ 40 :: u) -> read_correlated (of_text t) old = Uninitialised).
Proof.
  intros t old.
  assert (K : forall name n, name = 91 :: n -> (forall sp u, Forall gap sp -> t <> sp ++ name ++ 40 :: u) ->
    i_good (delim_c 40 (delim_str name (ignore_spaces (of_text t)))) = false).
  { intros name n En H. destruct (i_good _) eqn:G; [|reflexivity]. exfalso.
    assert (F : i_fail (delim_c 40 (delim_str name (ignore_spaces (of_text t)))) = false).
    { unfold i_good in G. apply andb_prop in G. destruct G as [_ G]. now apply negb_true_iff in G. }
    destruct (delim_c_inv _ _ F) as (u & E & _).
    destruct (span (fun c => (c =? 32) || (c =? 9) || (c =? 10)) t) as (sp & r & -> & Hs & Hr).
    assert (Hg : Forall gap sp) by (eapply Forall_impl; [|exact Hs]; intros c Hc; now apply gap_char).
    rewrite ignore_spaces_text in E by assumption.
    destruct r as [|c r].
    - cbn [ended] in E. rewrite En in E. cbn in E. unfold set_fail in E. cbn in E. assert (X : i_fail (delim_str n (Istr [] true true)) = true) by (apply delim_str_sticky; reflexivity).
      rewrite E in X. discriminate X.
    - cbn [ended] in E. destruct (delim_str_inv name (Istr (c :: r) false false) eq_refl) as (w & E1 & E2).
      { rewrite E. reflexivity. }
      rewrite E in E2. injection E2 as E2. injection E1 as E1. apply (H sp u Hg). rewrite E1, <- E2. reflexivity. }
  split.
  - intros name Hn H. unfold read_discrete. rewrite (K name (tl name)); [reflexivity| |exact H]. destruct Hn as [<-|[<-|[]]]; reflexivity.
  - intros H. unfold read_correlated. rewrite (K correlated_name (tl correlated_name)); [reflexivity|reflexivity|exact H].
Qed.
Example C73_uninitialised_ex : read_discrete discrete_name (of_text (chars "hello")) [] = Uninitialised /\
  read_correlated (of_text (chars "")) [] = Uninitialised.
Proof. split; reflexivity. Qed.

(** d * d wraps: a dimension of 65536 is accepted without any matrix element *)
Theorem C73_wrap_refuted : forall rest old,
  read_correlated (of_text (chars "[correlated_normal (65536)]" ++ rest)) old = ReadAs (of_text rest) [VInt 65536].
Proof.
  intros rest old. change (chars "[correlated_normal (65536)]" ++ rest) with ([] ++ correlated_name ++ 40 :: put_int 65536 ++ 41 :: 93 :: rest).
  unfold read_correlated. rewrite (open_name correlated_name (tl correlated_name)) by (reflexivity || constructor).
  unfold of_text. cbn [i_good i_eof i_fail negb andb]. rewrite get_int_put by (discriminate || (cbn; lia) || reflexivity). cbn [ended].
  change (Z.to_nat ((65536 * 65536) mod 2 ^ 32)) with O. cbn [get_elements]. rewrite delim_c_ok, delim_c_ok. reflexivity.
Qed.

(** ** C74: the state of the stream *)

(** writing restores the flags of the stream ... *)
Theorem C74_flags : forall c vs s, o_flags (write_dist c vs s) = o_flags s.
Proof. intros c vs s. rewrite write_dist_text. reflexivity. Qed.
(** ... but not its precision: every class that writes a real parameter, except bernoulli_dist, leaves it at 16 *)
Theorem C74_precision_refuted : forall c vs s, In c restored_classes -> In FReal (dc_fields c) -> c <> bernoulli_text ->
  o_prec (write_dist c vs s) = 16.
Proof.
  intros c vs s Hc Hf Hb. rewrite write_dist_text. cbn [o_prec]. unfold restored_classes, other_texts in Hc. cbn [In] in Hc.
  destruct Hc as [<-|Hc]; [congruence|].
  repeat (destruct Hc as [<-|Hc]; [first [reflexivity | exfalso; cbn in Hf; unfold I in Hf; repeat (destruct Hf as [Hf|Hf]; [discriminate Hf|]); contradiction]|]).
  contradiction.
Qed.
(** so what a bernoulli_dist writes depends on what was written before *)
Theorem C74_history_refuted : exists r, is_double r /\ forall c vs f, In c restored_classes -> In FReal (dc_fields c) -> c <> bernoulli_text ->
  let first := Ostr f 6 [] in
  let later := Ostr f (o_prec (write_dist c vs first)) [] in
  o_text (write_dist bernoulli_text [VReal (Fin r); VInt 0; VInt 1] first) <>
  o_text (write_dist bernoulli_text [VReal (Fin r); VInt 0; VInt 1] later).
Proof.
  exists (1 / 2)%R. split; [replace (1 / 2)%R with (bpow radix2 (-1)) by (cbn; lra); apply double_pow; lia|].
  intros c vs f Hc Hf Hb first later. unfold later. rewrite C74_precision_refuted by assumption. unfold first. clear first later. rewrite !write_dist_text.
  cbn [o_prec o_text app precision dc_prec bernoulli_text same_text put_values put_value put_real].
  destruct (Rlt_dec (1 / 2) 0); [lra|]. rewrite Rabs_right by lra.
  replace (1 / 2 * IZR (10 ^ 6))%R with (IZR 500000) by (change (IZR (10 ^ 6)) with 1000000%R; lra).
  replace (1 / 2 * IZR (10 ^ 16))%R with (IZR 5000000000000000) by (change (IZR (10 ^ 16)) with 10000000000000000%R; lra).
  rewrite !(Zrnd_IZR ZnearestE). intros E. apply (f_equal (@length Z)) in E. vm_compute in E. discriminate E.
Qed.
Example C74_ex : o_prec (write_dist exponential_text [VReal (Fin 1)] (Ostr 5 6 [])) = 16 /\
  o_flags (write_dist exponential_text [VReal (Fin 1)] (Ostr 5 6 [])) = 5.
Proof.
  split; [apply C74_precision_refuted; [right; left; reflexivity|left; reflexivity|discriminate]|apply C74_flags].
Qed.

Print Assumptions C54_round_trip.
Print Assumptions C54_small_refuted.
Print Assumptions C54_same_text_refuted.
Print Assumptions C54_tenth_refuted.
Print Assumptions C54_bernoulli_refuted.
Print Assumptions C54_twosided_exponential_refuted.
Print Assumptions C54_infinite_refuted.
Print Assumptions C73_discrete_round_trip.
Print Assumptions C73_correlated_round_trip.
Print Assumptions C73_uninitialised_refuted.
Print Assumptions C73_wrap_refuted.
Print Assumptions C74_flags.
Print Assumptions C74_precision_refuted.
Print Assumptions C74_history_refuted.
