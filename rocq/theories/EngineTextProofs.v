(** What the engine readers accept, and what the writers produce. *)
From Coq Require Import ZArith Bool List Lia.
From Verif Require Import Base BaseFacts StreamModel StreamProofs Prop_Uint128 EngineTextModel.
Import ListNotations.
Open Scope Z_scope.

(** ** Specification: the texts of numbers, lists, groups and engines.
    A number is an optional sign and decimal digits; a sign before an unsigned number negates modulo 2^w;
    a 128-bit number has no sign but may have leading white space. *)
Definition decimal (ds : list Z) (n : Z) : Prop := ds <> [] /\ numeral 10 0 ds = Some n.
Inductive signed_text : list Z -> Z -> Prop :=
| st_plain ds n : decimal ds n -> signed_text ds n
| st_plus ds n : decimal ds n -> signed_text (43 :: ds) n
| st_minus ds n : decimal ds n -> signed_text (45 :: ds) (- n).
Inductive num_text : num_type -> list Z -> Z -> Prop :=
| nt_unsigned w t n : signed_text t n -> Z.abs n < 2 ^ w -> num_text (NUnsigned w) t (n mod 2 ^ w)
| nt_signed w t n : signed_text t n -> - 2 ^ (w - 1) <= n < 2 ^ (w - 1) -> num_text (NSigned w) t n
| nt_uint128 sp ds n : Forall blank sp -> decimal ds n -> n < 2 ^ 128 -> num_text NUint128 (sp ++ ds) n.
Inductive list_text : list num_type -> list Z -> list Z -> Prop :=
| lt_nil : list_text [] [] []
| lt_one T t v : num_text T t v -> list_text [T] t [v]
| lt_more T t v T' Ts u vs : num_text T t v -> list_text (T' :: Ts) u vs -> list_text (T :: T' :: Ts) (t ++ 32 :: u) (v :: vs).
Inductive groups_text : list group -> list Z -> list (list Z) -> Prop :=
| gt_nil : groups_text [] [] []
| gt_cons g t vs gs u vss : list_text (group_types g) t vs -> groups_text gs u vss ->
    groups_text (g :: gs) (32 :: 40 :: t ++ 41 :: u) (vs :: vss).
(** white space before an engine: blanks, tabs, newlines *)
Definition gap (c : Z) : Prop := c = 32 \/ c = 9 \/ c = 10.
Definition engine_text (c : text_class) (t : list Z) (vss : list (list Z)) : Prop :=
  exists u, groups_text (tc_groups c) u vss /\ t = 91 :: tc_name c ++ u ++ [93].

(** ** Splitting texts *)
Lemma span (p : Z -> bool) t : exists a b, t = a ++ b /\ Forall (fun c => p c = true) a /\ stops p b.
Proof.
  induction t as [|c t (a & b & E & F & S)].
  - exists [], []. repeat split; constructor.
  - destruct (p c) eqn:P.
    + exists (c :: a), b. split; [cbn; rewrite E; reflexivity|]. split; [constructor; assumption | exact S].
    + exists [], (c :: t). repeat split; [constructor | exact P].
Qed.

(** ** Delimiters *)
Lemma delim_c_ok d t : delim_c d (Istr (d :: t) false false) = Istr t false false.
Proof. unfold delim_c. cbn. rewrite Z.eqb_refl. reflexivity. Qed.
Lemma delim_c_inv d s : i_fail (delim_c d s) = false -> exists t, s = Istr (d :: t) false false /\ delim_c d s = Istr t false false.
Proof.
  destruct s as [t e f]. unfold delim_c, get. destruct e, f; cbn; try discriminate. destruct t as [|c t]; cbn; [discriminate|].
  destruct (Z.eqb_spec c d) as [->|]; [|discriminate]. intros _. exists t. split; reflexivity.
Qed.
Lemma delim_str_ok d : forall t, delim_str d (Istr (d ++ t) false false) = Istr t false false.
Proof. induction d as [|x d IH]; intros t; [reflexivity|]. cbn. rewrite Z.eqb_refl. apply IH. Qed.
Lemma delim_str_sticky d : forall s, i_fail s = true -> i_fail (delim_str d s) = true.
Proof.
  induction d as [|x d IH]; intros [t e f] H; [exact H|]. cbn in H. subst f. cbn. unfold get, i_good. rewrite andb_false_r.
  apply IH. reflexivity.
Qed.
Lemma delim_str_inv d : forall s, i_good s = true -> i_fail (delim_str d s) = false ->
  exists t, s = Istr (d ++ t) false false /\ delim_str d s = Istr t false false.
Proof.
  induction d as [|x d IH]; intros [t e f] G H.
  - unfold i_good in G. destruct e, f; try discriminate G. exists t. split; reflexivity.
  - unfold i_good in G. destruct e, f; try discriminate G. cbn in *. destruct t as [|c t].
    + cbn in H. rewrite delim_str_sticky in H by reflexivity. discriminate H.
    + cbn in *. destruct (Z.eqb_spec c x) as [->|]; [|discriminate H].
      destruct (IH (Istr t false false) eq_refl H) as (u & E & E2). injection E as E. subst t. exists u. split; [reflexivity | exact E2].
Qed.
Lemma delim_one d s : delim_str [d] s = delim_c d s.
Proof.
  destruct s as [t e f]. unfold delim_str, delim_c, get. destruct e, f; cbn; try reflexivity. destruct t as [|c t]; cbn; [reflexivity|].
  destruct (c =? d); reflexivity.
Qed.

(** ** Spaces before an engine *)
Lemma gap_char c : ((c =? 32) || (c =? 9) || (c =? 10)) = true <-> gap c. Proof. unfold gap. lia. Qed.
Lemma ignore_loop sp rest : stops (fun c => (c =? 32) || (c =? 9) || (c =? 10)) rest -> Forall gap sp -> forall k, (length sp < k)%nat ->
  ignore_spaces_loop k (of_text (sp ++ rest)) = Istr rest (ended rest) false.
Proof.
  intros Hr. induction 1 as [|c sp Hc _ IH]; intros k Hk; (destruct k as [|k]; [cbn in Hk; lia|]); cbn [app].
  - destruct rest as [|c t]; [reflexivity|]. cbn. cbn [stops] in Hr. rewrite Hr. reflexivity.
  - cbn. rewrite (proj2 (gap_char c) Hc). apply IH. cbn in Hk. lia.
Qed.
Lemma ignore_spaces_text sp rest : stops (fun c => (c =? 32) || (c =? 9) || (c =? 10)) rest -> Forall gap sp ->
  ignore_spaces (of_text (sp ++ rest)) = Istr rest (ended rest) false.
Proof. intros Hr Hs. apply ignore_loop; [exact Hr | exact Hs |]. cbn. rewrite app_length. lia. Qed.
Lemma ignore_spaces_bad s : i_good s = false -> ignore_spaces s = s.
Proof. intros H. unfold ignore_spaces. cbn [ignore_spaces_loop]. rewrite H. reflexivity. Qed.

(** ** Numbers *)
Lemma decimal_forall ds n : numeral 10 0 ds = Some n <-> Forall (fun c => is_dec_digit c = true) ds /\ n = numeral_from 10 (fun c => c - 48) 0 ds.
Proof. exact (numeral_model Dec ds 0 n). Qed.
Lemma take_digits_app ds rest : Forall (fun c => is_dec_digit c = true) ds -> stops is_dec_digit rest -> forall r,
  take_digits (ds ++ rest) r = (numeral_from 10 (fun c => c - 48) r ds, rest).
Proof.
  intros H Hr. induction H as [|c ds Hc _ IH]; intros r; cbn [app].
  - destruct rest as [|c t]; [reflexivity|]. cbn [take_digits stops] in *. rewrite Hr. reflexivity.
  - cbn [take_digits]. rewrite Hc, IH. reflexivity.
Qed.
Lemma numeral_nonneg ds : Forall (fun c => is_dec_digit c = true) ds -> 0 <= numeral_from 10 (fun c => c - 48) 0 ds.
Proof.
  intros H. apply (numeral_ge 10 (fun c => c - 48) ds ltac:(lia)); [|lia].
  eapply Forall_impl; [|exact H]. intros c Hc. apply (dec_digit_val c Hc).
Qed.

(** get_int on a text split into sign, digits and rest. *)
Inductive sign := SNone | SPlus | SMinus.
Definition sign_chars (g : sign) : list Z := match g with SNone => [] | SPlus => [43] | SMinus => [45] end.
Definition sign_neg (g : sign) : bool := match g with SMinus => true | _ => false end.
Lemma get_int_split T g ds rest old : Forall (fun c => is_dec_digit c = true) ds -> stops is_dec_digit rest ->
  (g = SNone -> ds = [] -> match rest with c :: _ => c <> 45 /\ c <> 43 | [] => True end) ->
  get_int T (Istr (sign_chars g ++ ds ++ rest) false false) old =
    match ds with
    | [] => (Istr rest (ended rest) true, 0)
    | _ => match num_value T (sign_neg g) (numeral_from 10 (fun c => c - 48) 0 ds) with
           | Some x => (Istr rest (ended rest) false, x)
           | None => (Istr rest (ended rest) true, old)
           end
    end.
Proof.
  intros Hd Hr Hn. unfold get_int. cbn [i_good i_eof i_fail i_chars negb andb].
  assert (M : match sign_chars g ++ ds ++ rest with
              | c :: t => if c =? 45 then (true, t) else if c =? 43 then (false, t) else (false, sign_chars g ++ ds ++ rest)
              | [] => (false, []) end = (sign_neg g, ds ++ rest)).
  { destruct g; cbn [sign_chars app sign_neg]; [|reflexivity|reflexivity]. destruct ds as [|c ds]; cbn [app].
    - destruct rest as [|c t]; [reflexivity|]. destruct (Hn eq_refl eq_refl). replace (c =? 45) with false by lia.
      replace (c =? 43) with false by lia. reflexivity.
    - inversion Hd as [|? ? Hc _]; subst. assert (V := dec_digit_val c Hc). replace (c =? 45) with false by lia.
      replace (c =? 43) with false by lia. reflexivity. }
  rewrite M, take_digits_app by assumption.
  rewrite app_length. fold (ended rest). destruct ds as [|c ds].
  - cbn [length Nat.add]. rewrite Z.eqb_refl. reflexivity.
  - destruct (Z.eqb_spec (Z.of_nat (length (c :: ds) + length rest)) (Z.of_nat (length rest))) as [X|_]; [cbn [length] in X; lia | reflexivity].
Qed.
(** Every text can be split that way. *)
Lemma split_int t : exists g ds rest, t = sign_chars g ++ ds ++ rest /\ Forall (fun c => is_dec_digit c = true) ds /\ stops is_dec_digit rest /\
  (g = SNone -> ds = [] -> match rest with c :: _ => c <> 45 /\ c <> 43 | [] => True end).
Proof.
  destruct t as [|c t]; [exists SNone, [], []; repeat split; try constructor; reflexivity|].
  destruct (Z.eq_dec c 45) as [->|N45]; [|destruct (Z.eq_dec c 43) as [->|N43]].
  - destruct (span is_dec_digit t) as (a & b & -> & F & S). exists SMinus, a, b. repeat split; try assumption. intros H; discriminate H.
  - destruct (span is_dec_digit t) as (a & b & -> & F & S). exists SPlus, a, b. repeat split; try assumption. intros H; discriminate H.
  - destruct (span is_dec_digit (c :: t)) as (a & b & E & F & S). exists SNone, a, b. split; [exact E|]. split; [exact F|]. split; [exact S|].
    intros _ ->. cbn [app] in E. subst b. split; assumption.
Qed.

Lemma signed_split g ds n : decimal ds n -> signed_text (sign_chars g ++ ds) (if sign_neg g then - n else n).
Proof. intros H. destruct g; cbn; [apply st_plain | apply st_plus | apply st_minus]; exact H. Qed.

(** Success of a number read, as an equivalence. *)
Lemma get_num_iff T s s' v : (match T with NUnsigned w => 0 <= w | NSigned w => 1 <= w | NUint128 => True end) ->
  (get_num T s = (s', v) /\ i_fail s' = false <->
   exists t rest, s = Istr (t ++ rest) false false /\ s' = Istr rest (ended rest) false /\ num_text T t v /\ stops is_dec_digit rest).
Proof.
  intros HT.
  assert (I : T <> NUint128 -> (get_int T s 0 = (s', v) /\ i_fail s' = false <->
     exists g ds rest n, s = Istr (sign_chars g ++ ds ++ rest) false false /\ s' = Istr rest (ended rest) false /\ decimal ds n /\
       stops is_dec_digit rest /\ num_value T (sign_neg g) n = Some v)).
  { intros _. split.
    - intros [E F]. destruct s as [t e f]. destruct e, f; try (unfold get_int in E; cbn in E; injection E as <- _; discriminate F).
      destruct (split_int t) as (g & ds & rest & -> & Hd & Hs & Hn). rewrite (get_int_split T g ds rest 0 Hd Hs Hn) in E.
      destruct ds as [|c ds]; [injection E as <- _; discriminate F|].
      destruct (num_value T _ _) as [x|] eqn:V; injection E as <- E2; [|discriminate F]. subst x.
      exists g, (c :: ds), rest, (numeral_from 10 (fun c => c - 48) 0 (c :: ds)).
      split; [reflexivity|]. split; [reflexivity|]. split; [|split; assumption].
      split; [discriminate|]. apply decimal_forall. split; [exact Hd | reflexivity].
    - intros (g & ds & rest & n & -> & -> & [N D] & Hs & V). apply decimal_forall in D. destruct D as [Hd ->].
      rewrite (get_int_split T g ds rest 0 Hd Hs) by (intros _ ->; contradiction N; reflexivity).
      destruct ds as [|c ds]; [contradiction N; reflexivity|]. rewrite V. split; reflexivity. }
  assert (NN : forall ds n, decimal ds n -> 0 <= n).
  { intros ds n [_ D]. apply decimal_forall in D. destruct D as [Hd ->]. apply numeral_nonneg, Hd. }
  destruct T as [w|w|]; cbn [get_num].
  - rewrite (I ltac:(discriminate)). split.
    + intros (g & ds & rest & n & -> & -> & D & Hs & V). exists (sign_chars g ++ ds), rest. rewrite <- app_assoc.
      split; [reflexivity|]. split; [reflexivity|]. split; [|exact Hs]. cbn [num_value] in V. assert (0 <= n) by apply (NN _ _ D).
      destruct (Z.ltb_spec n (2 ^ w)); [|discriminate V]. injection V as <-.
      assert (X := nt_unsigned w _ _ (signed_split g ds n D)). destruct (sign_neg g); [apply X; lia|]. rewrite Z.mod_small in X by lia. apply X; lia.
    + intros (t & rest & -> & -> & NT & Hs). inversion NT as [w' t' n ST B| |]; subst.
      assert (exists g ds m, t = sign_chars g ++ ds /\ decimal ds m /\ n = if sign_neg g then - m else m) as (g & ds & m & -> & D & ->).
      { destruct ST as [ds n D|ds n D|ds n D]; [exists SNone | exists SPlus | exists SMinus]; exists ds, n; repeat split; assumption || apply D. }
      exists g, ds, rest, m. rewrite <- app_assoc. split; [reflexivity|]. split; [reflexivity|]. split; [exact D|]. split; [exact Hs|].
      assert (0 <= m) by apply (NN _ _ D). cbn [num_value]. replace (m <? 2 ^ w) with true by (destruct (sign_neg g); lia).
      f_equal. destruct (sign_neg g); [reflexivity | rewrite Z.mod_small by lia; reflexivity].
  - rewrite (I ltac:(discriminate)). split.
    + intros (g & ds & rest & n & -> & -> & D & Hs & V). exists (sign_chars g ++ ds), rest. rewrite <- app_assoc.
      split; [reflexivity|]. split; [reflexivity|]. split; [|exact Hs]. cbn [num_value] in V.
      destruct ((_ <=? _) && _) eqn:B in V; [|discriminate V]. injection V as <-.
      apply nt_signed; [apply signed_split, D | lia].
    + intros (t & rest & -> & -> & NT & Hs). inversion NT as [|w' t' n ST B|]; subst.
      assert (exists g ds m, t = sign_chars g ++ ds /\ decimal ds m /\ v = if sign_neg g then - m else m) as (g & ds & m & -> & D & ->).
      { destruct ST as [ds n D|ds n D|ds n D]; [exists SNone | exists SPlus | exists SMinus]; exists ds, n; repeat split; assumption || apply D. }
      exists g, ds, rest, m. rewrite <- app_assoc. split; [reflexivity|]. split; [reflexivity|]. split; [exact D|]. split; [exact Hs|].
      cbn [num_value]. match goal with |- (if ?b then _ else _) = _ => replace b with true by lia end. reflexivity.
  - split.
    + intros [E F]. destruct s as [t e f].
      destruct e, f; try (unfold u128_get, ws, peek_is, peek, i_good in E; cbn in E; injection E as <- _; discriminate F).
      destruct (span is_space t) as (sp & t' & -> & Fs & Ss).
      destruct (span is_dec_digit t') as (ds & rest & -> & Fd & Sd).
      destruct ds as [|c ds].
      * exfalso. cbn [app] in *. unfold u128_get, ws in E. cbn [i_good i_eof i_fail negb andb i_chars] in E.
        rewrite skip_space_app in E by assumption. destruct rest as [|c rest].
        -- cbn in E. injection E as <- _. discriminate F.
        -- cbn [stops] in Sd. cbn [length ended] in E. rewrite peek_is_cons, Sd in E. injection E as <- _. discriminate F.
      * assert (Dc : decimal (c :: ds) (numeral_from 10 (fun c => c - 48) 0 (c :: ds))) by (split; [discriminate | apply decimal_forall; split; [exact Fd | reflexivity]]).
        assert (Bl : Forall blank sp) by (eapply Forall_impl; [|exact Fs]; intros x Hx; unfold is_space in Hx; unfold blank; lia).
        destruct (C35_read Dec sp (c :: ds) rest 0 _ Bl ltac:(discriminate) (proj2 Dc)) as [R1 R2].
        { destruct rest as [|x rest]; [intros H; discriminate H|]. split; [rewrite <- model_digit_eq; exact Sd | intros H; discriminate H]. }
        unfold of_text in *. destruct (Z_lt_le_dec (numeral_from 10 (fun c => c - 48) 0 (c :: ds)) (2 ^ 128)) as [L|L].
        -- rewrite (R1 L) in E. injection E as <- <-. exists (sp ++ c :: ds), rest. rewrite <- app_assoc.
           split; [reflexivity|]. split; [reflexivity|]. split; [|exact Sd]. apply nt_uint128; assumption.
        -- destruct (R2 L) as [R2' _]. rewrite E in R2'. cbn [fst] in R2'. rewrite F in R2'. discriminate R2'.
    + intros (t & rest & -> & -> & NT & Hs). inversion NT as [| |sp ds n Bl D L]; subst. rewrite <- app_assoc.
      destruct (C35_read Dec sp ds rest 0 v Bl (proj1 D) (proj2 D)) as [R1 _].
      { destruct rest as [|x rest]; [intros H; discriminate H|]. split; [rewrite <- model_digit_eq; exact Hs | intros H; discriminate H]. }
      unfold of_text in R1. rewrite (R1 L). split; reflexivity.
Qed.
Definition type_ok (T : num_type) : Prop := match T with NUnsigned w => 0 <= w | NSigned w => 1 <= w | NUint128 => True end.
Lemma get_num_sticky T s : i_fail s = true -> i_fail (fst (get_num T s)) = true.
Proof.
  destruct s as [t e f]. cbn [i_fail]. intros ->. destruct T; cbn [get_num]; unfold get_int, u128_get, ws, peek_is, peek, i_good;
    destruct e; reflexivity.
Qed.

(** ** Lists *)
Lemma get_list_sound Ts : Forall type_ok Ts -> forall t s' vs, get_list Ts (Istr t false false) = (s', vs) -> i_fail s' = false ->
  exists u rest, t = u ++ rest /\ i_chars s' = rest /\ list_text Ts u vs /\ (Ts = [] -> s' = Istr t false false).
Proof.
  induction 1 as [|T Ts HT HTs IH]; intros t s' vs E F; cbn [get_list] in E.
  - injection E as <- <-. exists [], t. repeat split. constructor.
  - destruct (get_num T (Istr t false false)) as [s1 v] eqn:E1. destruct Ts as [|T' Ts].
    + injection E as -> <-. destruct (proj1 (get_num_iff T _ _ _ HT) (conj E1 F)) as (u & rest & E2 & -> & NT & Hs).
      injection E2 as ->. exists u, rest. split; [reflexivity|]. split; [reflexivity|]. split; [constructor; exact NT | discriminate].
    + destruct (get_list (T' :: Ts) (delim_c 32 s1)) as [s2 vs'] eqn:E2. injection E as -> <-.
      assert (F1 : i_fail (delim_c 32 s1) = false).
      { destruct (i_fail (delim_c 32 s1)) eqn:F1; [|reflexivity]. exfalso.
        assert (G : i_fail (fst (get_list (T' :: Ts) (delim_c 32 s1))) = true).
        { clear - F1. revert F1. generalize (delim_c 32 s1). generalize (T' :: Ts). clear. induction l as [|T l IH]; intros s H; [exact H|].
          cbn [get_list]. assert (A := get_num_sticky T s H). destruct (get_num T s) as [s1 v]. cbn [fst] in A. destruct l as [|T1 l]; [exact A|].
          specialize (IH (delim_c 32 s1)). destruct (get_list (T1 :: l) (delim_c 32 s1)) as [s2 vs]. apply IH.
          destruct s1 as [t e f]. cbn in A. subst f. unfold delim_c, get, i_good. rewrite andb_false_r. reflexivity. }
        rewrite E2 in G. cbn [fst] in G. rewrite F in G. discriminate G. }
      destruct (delim_c_inv 32 s1 F1) as (t1 & -> & E3). rewrite E3 in E2.
      destruct (IH t1 s' vs' E2 F) as (u & rest & -> & ER & LT & _).
      destruct (proj1 (get_num_iff T _ _ _ HT) (conj E1 eq_refl)) as (u0 & rest0 & E4 & E5 & NT & _).
      injection E4 as ->. injection E5 as E5 _. subst rest0. exists (u0 ++ 32 :: u), rest. split; [rewrite <- app_assoc; reflexivity|].
      split; [exact ER|]. split; [constructor; assumption | discriminate].
Qed.
Lemma get_list_complete Ts t vs : Forall type_ok Ts -> list_text Ts t vs -> forall rest, stops is_dec_digit rest -> Ts <> [] ->
  get_list Ts (Istr (t ++ rest) false false) = (Istr rest (ended rest) false, vs).
Proof.
  intros H LT. induction LT as [|T t v NT|T t v T' Ts u vs NT LT IH]; intros rest Hs N; [contradiction N; reflexivity| |].
  - cbn [get_list]. inversion H as [|? ? HT _]; subst.
    destruct (proj2 (get_num_iff T (Istr (t ++ rest) false false) (Istr rest (ended rest) false) v HT)) as [E _].
    { exists t, rest. repeat split; assumption. }
    rewrite E. reflexivity.
  - inversion H as [|? ? HT H']; subst. rewrite <- app_assoc. change ((32 :: u) ++ rest) with (32 :: u ++ rest).
    destruct (proj2 (get_num_iff T (Istr (t ++ 32 :: u ++ rest) false false) (Istr (32 :: u ++ rest) false false) v HT)) as [E _].
    { exists t, (32 :: u ++ rest). repeat split; assumption. }
    change (get_list (T :: T' :: Ts) ?s) with
      (let (s1, v) := get_num T s in let (s2, vs) := get_list (T' :: Ts) (delim_c 32 s1) in (s2, v :: vs)).
    rewrite E, delim_c_ok, (IH H' rest Hs ltac:(discriminate)). reflexivity.
Qed.
(** The io_range form succeeds in the same cases. *)
Lemma get_list_sticky Ts : forall s, i_fail s = true -> i_fail (fst (get_list Ts s)) = true.
Proof.
  induction Ts as [|T l IH]; intros s H; [exact H|].
  cbn [get_list]. assert (A := get_num_sticky T s H). destruct (get_num T s) as [s1 v]. cbn [fst] in A. destruct l as [|T1 l]; [exact A|].
  specialize (IH (delim_c 32 s1)). destruct (get_list (T1 :: l) (delim_c 32 s1)) as [s2 vs]. apply IH.
  destruct s1 as [t e f]. cbn in A. subst f. unfold delim_c, get, i_good. rewrite andb_false_r. reflexivity.
Qed.
Lemma get_range_list Ts : forall s, i_fail (fst (get_range Ts s)) = i_fail (fst (get_list Ts s)) /\
  (i_fail (fst (get_list Ts s)) = false -> get_range Ts s = get_list Ts s).
Proof.
  induction Ts as [|T l IH]; intros s; [split; reflexivity|].
  cbn [get_range]. destruct (i_fail s) eqn:F.
  - assert (G := get_list_sticky (T :: l) s F). cbn [fst]. rewrite G. split; [exact F | discriminate].
  - cbn [get_list]. destruct (get_num T s) as [s1 v]. destruct l as [|T1 l]; [split; reflexivity|].
    rewrite delim_one. destruct (IH (delim_c 32 s1)) as [A B].
    destruct (get_range (T1 :: l) (delim_c 32 s1)) as [s2 vs]. destruct (get_list (T1 :: l) (delim_c 32 s1)) as [s3 vs3].
    cbn [fst] in *. split; [exact A|]. intros H. specialize (B H). injection B as -> ->. reflexivity.
Qed.

(** ** Groups and engines *)
Definition group_ok (g : group) : Prop :=
  Forall type_ok (group_types g) /\ match g with GList _ => True | GRange _ Ts => Ts <> [] end.
Lemma delim_c_sticky d s : i_fail s = true -> i_fail (delim_c d s) = true.
Proof. intros H. destruct s as [t e f]. cbn in H. subst f. unfold delim_c, get, i_good. rewrite andb_false_r. reflexivity. Qed.
(** reading the inside of the brackets *)
Definition get_inside (g : group) (s : istr) : istr * list Z :=
  match g with
  | GList Ts => get_list Ts s
  | GRange T Ts => let (s, v) := get_num T s in let (s, vs) := get_range Ts (delim_c 32 s) in (s, v :: vs)
  end.
Lemma get_inside_list g s : group_ok g -> i_fail (fst (get_inside g s)) = i_fail (fst (get_list (group_types g) s)) /\
  (i_fail (fst (get_list (group_types g) s)) = false -> get_inside g s = get_list (group_types g) s).
Proof.
  intros [_ G]. destruct g as [Ts|T Ts]; cbn [get_inside group_types]; [split; reflexivity|].
  cbn [get_list]. destruct (get_num T s) as [s1 v]. destruct Ts as [|T1 l]; [contradiction G; reflexivity|].
  destruct (get_range_list (T1 :: l) (delim_c 32 s1)) as [A B].
  destruct (get_range (T1 :: l) (delim_c 32 s1)) as [s2 vs]. destruct (get_list (T1 :: l) (delim_c 32 s1)) as [s3 vs3].
  cbn [fst] in *. split; [exact A|]. intros H. specialize (B H). injection B as -> ->. reflexivity.
Qed.
Lemma get_group_inside g old s : get_group g old s =
  let (s, vs) := get_inside g (delim_c 40 s) in let s := delim_c 41 s in (s, if i_fail s then old else vs).
Proof. reflexivity. Qed.
Lemma get_group_iff g old s s' vs : group_ok g ->
  (get_group g old s = (s', vs) /\ i_fail s' = false <->
   exists t rest, s = Istr (40 :: t ++ 41 :: rest) false false /\ s' = Istr rest false false /\ list_text (group_types g) t vs).
Proof.
  intros G. rewrite get_group_inside. split.
  - intros [E F]. destruct (get_inside g (delim_c 40 s)) as [s1 vs1] eqn:E1. cbv zeta in E. injection E as E2 E3.
    assert (F2 : i_fail (delim_c 41 s1) = false) by (rewrite E2; exact F). rewrite F2 in E3. subst vs1.
    destruct (delim_c_inv 41 s1 F2) as (rest & -> & E4). rewrite E4 in E2. subst s'.
    destruct (get_inside_list g (delim_c 40 s) G) as [A B]. rewrite E1 in A. cbn [fst i_fail] in A. symmetry in A. specialize (B A). rewrite E1 in B.
    assert (F0 : i_fail (delim_c 40 s) = false).
    { destruct (i_fail (delim_c 40 s)) eqn:F0; [|reflexivity]. rewrite (get_list_sticky _ _ F0) in A. discriminate A. }
    destruct (delim_c_inv 40 s F0) as (t & -> & E5). rewrite E5 in B.
    destruct (get_list_sound (group_types g) (proj1 G) t _ _ (eq_sym B) eq_refl) as (u & rest' & -> & ER & LT & _). cbn [i_chars] in ER. subst rest'.
    exists u, rest. repeat split. exact LT.
  - intros (t & rest & -> & -> & LT). rewrite delim_c_ok.
    assert (C : get_list (group_types g) (Istr (t ++ 41 :: rest) false false) = (Istr (41 :: rest) false false, vs)).
    { destruct (group_types g) as [|T Ts] eqn:ET.
      - inversion LT; subst. reflexivity.
      - rewrite (get_list_complete (T :: Ts) t vs); [reflexivity | rewrite <- ET; apply G | exact LT | reflexivity | discriminate]. }
    destruct (get_inside_list g (Istr (t ++ 41 :: rest) false false) G) as [_ B]. rewrite C in B. rewrite (B eq_refl). cbv zeta.
    rewrite delim_c_ok. split; reflexivity.
Qed.
Lemma get_group_sticky g old s : i_fail s = true -> group_ok g -> i_fail (fst (get_group g old s)) = true.
Proof.
  intros F G. rewrite get_group_inside. destruct (get_inside_list g (delim_c 40 s) G) as [A _].
  rewrite (get_list_sticky _ _ (delim_c_sticky 40 s F)) in A. destruct (get_inside g (delim_c 40 s)) as [s1 vs]. cbv zeta. cbn [fst] in *.
  apply delim_c_sticky, A.
Qed.
Lemma get_groups_sticky gs : Forall group_ok gs -> forall s, i_fail s = true -> i_fail (fst (get_groups gs s)) = true.
Proof.
  induction 1 as [|g gs G _ IH]; intros s F; [exact F|]. cbn [get_groups].
  assert (A := get_group_sticky g (map (fun _ => 0) (group_types g)) (delim_c 32 s) (delim_c_sticky 32 s F) G).
  destruct (get_group g _ _) as [s1 vs]. cbn [fst] in A. specialize (IH s1 A). destruct (get_groups gs s1) as [s2 vss]. exact IH.
Qed.
Lemma get_groups_iff gs : Forall group_ok gs -> forall t s' vss,
  (get_groups gs (Istr t false false) = (s', vss) /\ i_fail s' = false <->
   exists u rest, t = u ++ rest /\ s' = Istr rest false false /\ groups_text gs u vss).
Proof.
  induction 1 as [|g gs G HG IH]; intros t s' vss; cbn [get_groups].
  - split.
    + intros [E _]. injection E as <- <-. exists [], t. repeat split. constructor.
    + intros (u & rest & -> & -> & GT). inversion GT; subst. split; reflexivity.
  - split.
    + intros [E F]. destruct (get_group g _ (delim_c 32 _)) as [s1 vs] eqn:E1. destruct (get_groups gs s1) as [s2 vss'] eqn:E2. injection E as -> <-.
      assert (F1 : i_fail s1 = false).
      { destruct (i_fail s1) eqn:F1; [|reflexivity]. assert (X := get_groups_sticky gs HG s1 F1). rewrite E2 in X. cbn [fst] in X. rewrite F in X. discriminate X. }
      destruct (proj1 (get_group_iff g _ _ _ _ G) (conj E1 F1)) as (u & r1 & E3 & -> & LT).
      assert (F0 : i_fail (delim_c 32 (Istr t false false)) = false) by (rewrite E3; reflexivity).
      destruct (delim_c_inv 32 _ F0) as (t1 & E4 & E5). injection E4 as ->. rewrite E5 in E3. injection E3 as ->.
      destruct (proj1 (IH r1 s' vss') (conj E2 F)) as (u2 & rest & -> & -> & GT).
      exists (32 :: 40 :: u ++ 41 :: u2), rest. split; [cbn [app]; rewrite <- app_assoc; reflexivity|]. split; [reflexivity|]. constructor; assumption.
    + intros (u & rest & -> & -> & GT). inversion GT as [|g' t1 vs gs' u1 vss' LT GT']; subst. cbn [app]. rewrite <- app_assoc. cbn [app].
      rewrite delim_c_ok.
      destruct (proj2 (get_group_iff g (map (fun _ => 0) (group_types g)) (Istr (40 :: t1 ++ 41 :: u1 ++ rest) false false) (Istr (u1 ++ rest) false false) vs G)) as [E _].
      { exists t1, (u1 ++ rest). repeat split. exact LT. }
      rewrite E. destruct (proj2 (IH (u1 ++ rest) (Istr rest false false) vss')) as [E2 _].
      { exists u1, rest. repeat split. exact GT'. }
      rewrite E2. split; reflexivity.
Qed.

(** The reader accepts exactly the engine texts. *)
Lemma read_engine_iff c t s' vss old : Forall group_ok (tc_groups c) ->
  (read_engine c (of_text t) old = (s', vss) /\ i_fail s' = false <->
   exists sp u rest, t = sp ++ u ++ rest /\ Forall gap sp /\ engine_text c u vss /\ s' = Istr rest false false).
Proof.
  intros G. unfold read_engine. split.
  - intros [E F]. destruct (get_groups (tc_groups c) _) as [s1 vss1] eqn:E1. cbv zeta in E. injection E as E2 E3.
    assert (F2 : i_fail (delim_c 93 s1) = false) by (rewrite E2; exact F). rewrite F2 in E3. subst vss1.
    destruct (delim_c_inv 93 s1 F2) as (rest & -> & E4). rewrite E4 in E2. subst s'.
    destruct (span (fun c => (c =? 32) || (c =? 9) || (c =? 10)) t) as (sp & t1 & -> & Fs & Ss).
    assert (Gp : Forall gap sp) by (eapply Forall_impl; [|exact Fs]; intros x; apply gap_char).
    rewrite ignore_spaces_text in E1 by assumption.
    assert (F0 : i_fail (delim_str (tc_name c) (delim_c 91 (Istr t1 (ended t1) false))) = false).
    { destruct (i_fail (delim_str _ _)) eqn:X; [|reflexivity]. assert (Y := get_groups_sticky _ G _ X). rewrite E1 in Y. discriminate Y. }
    assert (F1 : i_fail (delim_c 91 (Istr t1 (ended t1) false)) = false).
    { destruct (i_fail (delim_c 91 _)) eqn:X; [|reflexivity]. rewrite (delim_str_sticky _ _ X) in F0. discriminate F0. }
    destruct (delim_c_inv 91 _ F1) as (t2 & E5 & E6). injection E5 as -> _. cbn [ended] in *. rewrite E6 in *.
    destruct (delim_str_inv (tc_name c) (Istr t2 false false) eq_refl F0) as (t3 & E7 & E8). injection E7 as ->. rewrite E8 in E1.
    destruct (proj1 (get_groups_iff _ G t3 _ _) (conj E1 eq_refl)) as (u & rest' & -> & E9 & GT). injection E9 as <-.
    exists sp, (91 :: tc_name c ++ u ++ [93]), rest. split; [cbn [app]; rewrite <- !app_assoc; reflexivity|].
    split; [exact Gp|]. split; [exists u; split; [exact GT | reflexivity] | reflexivity].
  - intros (sp & u & rest & -> & Gp & (v & GT & ->) & ->).
    cbn [app]. rewrite ignore_spaces_text by (try assumption; reflexivity). cbn [ended]. rewrite delim_c_ok, <- !app_assoc, delim_str_ok.
    destruct (proj2 (get_groups_iff _ G (v ++ [93] ++ rest) (Istr ([93] ++ rest) false false) vss)) as [E _].
    { exists v, ([93] ++ rest). repeat split. exact GT. }
    rewrite E. cbv zeta. cbn [app]. rewrite delim_c_ok. split; reflexivity.
Qed.

(** ** Writing *)
Definition fits (T : num_type) (v : Z) : Prop :=
  match T with
  | NUnsigned w => 0 <= v < 2 ^ w
  | NSigned w => - 2 ^ (w - 1) <= v < 2 ^ (w - 1)
  | NUint128 => 0 <= v < 2 ^ 128
  end.
(** every number of at most 64 decimal digits is written *)
Definition type_max (T : num_type) : Prop := match T with NUnsigned w => 0 <= w <= 64 | NSigned w => 1 <= w <= 64 | NUint128 => True end.
Lemma put_digits_decimal n : 0 <= n < 10 ^ 64 -> decimal (put_digits n) n.
Proof.
  intros Hn. unfold put_digits. destruct (Z.eqb_spec n 0) as [->|N]; [split; [discriminate | reflexivity]|].
  split.
  - assert (L := digits_nonempty 10 (fun d => 48 + d) 63 n ltac:(lia)). intros E. rewrite E in L. cbn in L. lia.
  - apply decimal_forall. split.
    + apply digits_forall; [lia | intros d Hd; unfold is_dec_digit; lia | constructor].
    + rewrite (digits_numeral 10 (fun d => 48 + d) (fun c => c - 48)); [reflexivity | lia | intros; lia | exact Hn].
Qed.
Lemma put_num_text T v : type_max T -> fits T v -> num_text T (put_num T v) v.
Proof.
  intros HT HF. assert (B : forall w, 0 <= w <= 64 -> 2 ^ w < 10 ^ 64).
  { intros w Hw. apply Z.le_lt_trans with (2 ^ 64); [apply Z.pow_le_mono_r; lia | reflexivity]. }
  destruct T as [w|w|]; cbn [put_num fits type_max] in *.
  - rewrite <- (Z.mod_small v (2 ^ w)) at 2 by lia. apply nt_unsigned; [|lia]. unfold put_int. replace (v <? 0) with false by lia.
    apply st_plain, put_digits_decimal. specialize (B w HT). lia.
  - apply nt_signed; [|lia]. specialize (B (w - 1) ltac:(lia)). unfold put_int. destruct (Z.ltb_spec v 0).
    + rewrite <- (Z.opp_involutive v) at 2. apply st_minus, put_digits_decimal. lia.
    + apply st_plain, put_digits_decimal. lia.
  - destruct (C35_write Dec false v HF) as (A & N & _).
    unfold u128_put. change (u128_base Dec false false) with (@nil Z). cbn [app length plus]. cbv zeta.
    match goal with |- context [?a <? 0] => destruct (Z.ltb_spec a 0) as [X|_] end; [lia|]. rewrite app_nil_r.
    apply (nt_uint128 []); [constructor | split; [exact N | exact A] | lia].
Qed.
Lemma put_list_text Ts : forall vs, Forall type_max Ts -> Forall2 fits Ts vs -> list_text Ts (put_list Ts vs) vs.
Proof.
  induction Ts as [|T Ts IH]; intros vs HT HF; inversion HF as [|? v ? vs' Hv HF']; subst; [constructor|].
  inversion HT as [|? ? HT1 HT2]; subst. cbn [put_list]. destruct Ts as [|T' Ts].
  - inversion HF'; subst. rewrite app_nil_r. constructor. apply put_num_text; assumption.
  - constructor; [apply put_num_text; assumption | apply IH; assumption].
Qed.
Lemma put_groups_text gs : forall vss, Forall (fun g => Forall type_max (group_types g)) gs ->
  Forall2 (fun g vs => Forall2 fits (group_types g) vs) gs vss -> groups_text gs (put_groups gs vss) vss.
Proof.
  induction gs as [|g gs IH]; intros vss HT HF; inversion HF as [|? vs ? vss' Hv HF']; subst; [constructor|].
  inversion HT as [|? ? HT1 HT2]; subst. cbn [put_groups]. unfold put_group. cbn [app]. rewrite <- app_assoc. cbn [app].
  constructor; [apply put_list_text; assumption | apply IH; assumption].
Qed.
