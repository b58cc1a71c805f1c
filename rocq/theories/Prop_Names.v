(** Property C89: engine names tell the classes apart, and an engine does not read the text of another class. *)
From Coq Require Import String ZArith List Bool Lia.
From Verif Require Import Base BaseFacts Spec IntMathModel Lcg64Model CountShiftModel Count128Model MinstdModel MrgModel LagfibModel XoshiroModel MtModel
  StreamModel StreamProofs Prop_Uint128 EngineTextModel EngineTextProofs Prop_Text.
Import ListNotations.
Open Scope Z_scope.

(** The lags are unsigned int. *)
Definition lags_ok (e : text_engine) : Prop :=
  forall c, te_class e = lf_text c -> Forall (word 32) (lf_lags c).

(** Decimal texts separated by underscores. *)
Inductive joined : list Z -> list Z -> Prop :=
| j_one ds n : decimal ds n -> joined ds [n]
| j_more ds n t ns : decimal ds n -> joined t ns -> joined (ds ++ 95 :: t) (n :: ns).

(** ** Supporting lemmas *)
Lemma decimal_inj ds n n' : decimal ds n -> decimal ds n' -> n = n'.
Proof. intros (_ & E) (_ & E'). rewrite E in E'. injection E'. auto. Qed.
Lemma decimal_digits ds n : decimal ds n -> Forall (fun c => is_dec_digit c = true) ds.
Proof. intros (_ & E). apply decimal_forall in E. apply E. Qed.

(** Two texts that continue with a character outside [p] split at the same place. *)
Lemma split_same (p : Z -> bool) : forall a b x y s t, Forall (fun c => p c = true) a -> Forall (fun c => p c = true) b ->
  p x = false -> p y = false -> a ++ x :: s = b ++ y :: t -> a = b /\ x = y /\ s = t.
Proof.
  induction a as [|c a IH]; intros [|d b] x y s t Ha Hb Hx Hy E; cbn [app] in E.
  - injection E as <- <-. auto.
  - injection E as -> _. inversion Hb; subst. congruence.
  - injection E as <- _. inversion Ha; subst. congruence.
  - injection E as <- E. inversion Ha; inversion Hb; subst.
    destruct (IH b x y s t) as (-> & -> & ->); auto.
Qed.

Lemma joined_end t ns : joined t ns -> Forall (fun c => is_dec_digit c = true \/ c = 95) t.
Proof.
  induction 1 as [ds n D|ds n t ns D J IH]; [|apply Forall_app; split; [|constructor; [right; reflexivity | exact IH]]];
  (eapply Forall_impl; [|exact (decimal_digits _ _ D)]; intros c Hc; left; exact Hc).
Qed.
Lemma joined_inv t ns : joined t ns -> (exists n, ns = [n] /\ decimal t n) \/
  exists ds n t' ns', t = ds ++ 95 :: t' /\ ns = n :: ns' /\ decimal ds n /\ joined t' ns'.
Proof. destruct 1 as [ds n D|ds n t ns D J]; [left; exists n; auto | right; exists ds, n, t, ns; auto]. Qed.
Lemma not_digits ds t n : ~ decimal (ds ++ 95 :: t) n.
Proof.
  intros D. assert (F := decimal_digits _ _ D). apply Forall_app in F. destruct F as (_ & F). inversion F as [|? ? H]; subst. discriminate H.
Qed.
Lemma joined_inj t : forall ns ns', joined t ns -> joined t ns' -> ns = ns'.
Proof.
  intros ns ns' J. revert ns'. induction J as [ds n D|ds n t ns D J IH]; intros ns' J';
    destruct (joined_inv _ _ J') as [(n' & -> & D')|(ds' & n' & t' & ns'' & E & -> & D' & J'')].
  - f_equal. eapply decimal_inj; eassumption.
  - subst ds. exfalso. eapply not_digits; eassumption.
  - exfalso. eapply not_digits; eassumption.
  - destruct (split_same is_dec_digit ds ds' 95 95 t t' (decimal_digits _ _ D) (decimal_digits _ _ D') eq_refl eq_refl E) as (-> & _ & <-).
    f_equal; [eapply decimal_inj; eassumption | apply IH, J''].
Qed.

Lemma put_int_decimal n : 0 <= n < 2 ^ 64 -> decimal (put_int n) n.
Proof.
  intros H. unfold put_int. destruct (Z.ltb_spec n 0); [lia|]. apply put_digits_decimal.
  split; [lia|]. apply Z.lt_trans with (2 ^ 64); [lia | reflexivity].
Qed.
Lemma tail_joined w lags : 0 <= w < 2 ^ 64 -> Forall (word 32) lags ->
  joined (put_int w ++ flat_map (fun l => 95 :: put_int l) lags) (w :: lags).
Proof.
  intros Hw H. revert w Hw. induction H as [|l lags Hl H IH]; intros w Hw; cbn [flat_map].
  - rewrite app_nil_r. constructor. apply put_int_decimal, Hw.
  - cbn [app]. constructor; [apply put_int_decimal, Hw|]. apply IH.
    unfold word in Hl. change (2 ^ 32) with 4294967296 in Hl. change (2 ^ 64) with 18446744073709551616. lia.
Qed.

(** ** Names of the lagged Fibonacci engines *)
Theorem C89_lagfib_name : forall c, 0 < lf_w c <= 64 -> Forall (word 32) (lf_lags c) ->
  exists t, joined t (lf_w c :: lf_lags c) /\
    lf_name c = chars "lagfib" ++ [if (length (lf_lags c) =? 2)%nat then 50 else 52] ++
                chars (match lf_oper c with OpXor => "xor" | OpPlus => "plus" end) ++ 95 :: t.
Proof.
  intros c Hw Hl. exists (put_int (lf_w c) ++ flat_map (fun l => 95 :: put_int l) (lf_lags c)). split.
  - apply tail_joined; [change (2 ^ 64) with 18446744073709551616; lia | exact Hl].
  - unfold lf_name. destruct (lf_oper c), (lf_lags c) as [|a [|b [|d l]]]; reflexivity.
Qed.
Print Assumptions C89_lagfib_name.

(** ** Names are different *)
Definition fixed_classes : list text_class :=
  [lcg64_text; lcg64_shift_text; lcs_text; c128_text; minstd_text; xo_text; mt_text "mt19937" mt32_class; mt_text "mt19937_64" mt64_class]
  ++ map mrg_text mrg_names.
Lemma class_cases e : engine_class e -> In (te_class e) fixed_classes \/ exists c, te_class e = lf_text c /\ 0 < lf_w c <= 64.
Proof.
  unfold fixed_classes. destruct 1; cbn [te_class]; try (left; apply in_or_app; left; cbn [In]; tauto).
  - left. apply in_or_app. right. apply in_map. assumption.
  - right. exists c. split; [reflexivity | assumption].
Qed.

(** Characters of names: letters, digits, underscore. *)
Definition name_char (c : Z) : bool := is_dec_digit c || ((97 <=? c) && (c <=? 122)) || (c =? 95).
Fixpoint text_eqb (a b : list Z) : bool :=
  match a, b with [], [] => true | x :: a, y :: b => (x =? y) && text_eqb a b | _, _ => false end.
Lemma text_eqb_refl a : text_eqb a a = true.
Proof. induction a as [|x a IH]; [reflexivity|]. cbn [text_eqb]. rewrite Z.eqb_refl. exact IH. Qed.
Fixpoint all_different (l : list (list Z)) : bool :=
  match l with [] => true | x :: l => forallb (fun y => negb (text_eqb x y)) l && all_different l end.
Lemma all_different_in (l : list text_class) : all_different (map tc_name l) = true ->
  forall c c', In c l -> In c' l -> tc_name c = tc_name c' -> c = c'.
Proof.
  induction l as [|x l IH]; intros H c c' Hc Hc' E; [destruct Hc|]. cbn [map all_different] in H. apply andb_prop in H. destruct H as (F & D).
  rewrite forallb_forall in F. destruct Hc as [<-|Hc], Hc' as [<-|Hc']; [reflexivity | | |].
  - assert (G := F (tc_name c') (in_map _ _ _ Hc')). rewrite E, text_eqb_refl in G. discriminate G.
  - assert (G := F (tc_name c) (in_map _ _ _ Hc)). rewrite <- E, text_eqb_refl in G. discriminate G.
  - apply IH; assumption.
Qed.
Lemma fixed_different : all_different (map tc_name fixed_classes) = true. Proof. vm_compute. reflexivity. Qed.
Lemma fixed_second : forallb (fun n => negb ((nth 0 n 0 =? 108) && (nth 1 n 0 =? 97))) (map tc_name fixed_classes) = true. Proof. vm_compute. reflexivity. Qed.
Lemma fixed_chars : forallb (forallb name_char) (map tc_name fixed_classes) = true. Proof. vm_compute. reflexivity. Qed.

Lemma lf_not_fixed c x : In x fixed_classes -> tc_name x <> lf_name c.
Proof.
  intros H E. assert (F := fixed_second). rewrite forallb_forall in F. specialize (F _ (in_map tc_name _ _ H)). rewrite E in F.
  unfold lf_name in F. destruct (lf_oper c), (length (lf_lags c)) as [|[|[|n]]]; discriminate F.
Qed.
Lemma lf_name_inj c c' : 0 < lf_w c <= 64 -> 0 < lf_w c' <= 64 -> Forall (word 32) (lf_lags c) -> Forall (word 32) (lf_lags c') ->
  lf_name c = lf_name c' -> c = c'.
Proof.
  intros Hw Hw' Hl Hl' E. destruct (C89_lagfib_name c Hw Hl) as (t & J & N). destruct (C89_lagfib_name c' Hw' Hl') as (t' & J' & N').
  rewrite N, N' in E. destruct c as [w l o], c' as [w' l' o']. cbn [lf_w lf_lags lf_oper] in *.
  assert (X : o = o' /\ t = t').
  { destruct o, o'; cbn in E; injection E; intros; try discriminate; split; auto. }
  destruct X as (-> & ->). assert (Y := joined_inj t' _ _ J J'). injection Y as -> ->. reflexivity.
Qed.

Theorem C89_names : forall e e', engine_class e -> engine_class e' -> lags_ok e -> lags_ok e' ->
  tc_name (te_class e) = tc_name (te_class e') -> te_class e = te_class e'.
Proof.
  intros e e' He He' Le Le' E. destruct (class_cases e He) as [F|(c & F & Hw)], (class_cases e' He') as [F'|(c' & F' & Hw')].
  - apply (all_different_in fixed_classes fixed_different); assumption.
  - exfalso. rewrite F' in E. exact (lf_not_fixed c' _ F E).
  - exfalso. rewrite F in E. exact (lf_not_fixed c _ F' (eq_sym E)).
  - rewrite F, F' in *. f_equal. apply lf_name_inj; try assumption; [apply Le, F | apply Le', F'].
Qed.
Print Assumptions C89_names.

Lemma names_chars e : engine_class e -> lags_ok e -> Forall (fun c => name_char c = true) (tc_name (te_class e)).
Proof.
  intros He Le. destruct (class_cases e He) as [F|(c & F & Hw)].
  - assert (G := fixed_chars). rewrite forallb_forall in G. specialize (G _ (in_map tc_name _ _ F)). apply Forall_forall. rewrite forallb_forall in G. exact G.
  - rewrite F. cbn [tc_name lf_text]. destruct (C89_lagfib_name c Hw (Le c F)) as (t & J & ->).
    apply joined_end in J. apply Forall_app. split; [repeat constructor|]. apply Forall_app. split; [destruct (_ =? _)%nat; repeat constructor|].
    apply Forall_app. split; [destruct (lf_oper c); repeat constructor|]. constructor; [reflexivity|].
    eapply Forall_impl; [|exact J]. intros x [Hx| ->]; [unfold name_char; rewrite Hx; reflexivity | reflexivity].
Qed.

(** What follows the name is a blank or the closing bracket. *)
Lemma groups_head gs u vss rest : groups_text gs u vss -> exists x t, u ++ 93 :: rest = x :: t /\ name_char x = false.
Proof. destruct 1; cbn [app]; [exists 93 | exists 32]; eexists; split; reflexivity. Qed.

(** ** A text of another class is refused and the engine keeps its state *)
Theorem C89_foreign : forall e e', engine_class e -> engine_class e' -> lags_ok e -> lags_ok e' -> te_class e <> te_class e' ->
  forall R R' sp rest, representable e R -> Forall gap sp ->
  i_fail (fst (get e' (of_text (sp ++ put e R ++ rest)) R')) = true /\
  snd (get e' (of_text (sp ++ put e R ++ rest)) R') = R'.
Proof.
  intros e e' He He' Le Le' N R R' sp rest HR Hsp.
  assert (F : i_fail (fst (get e' (of_text (sp ++ put e R ++ rest)) R')) = true).
  { destruct (i_fail (fst (get e' (of_text (sp ++ put e R ++ rest)) R'))) eqn:Fl; [reflexivity|]. exfalso. apply N.
    apply C89_names; try assumption.
    destruct (get e' (of_text (sp ++ put e R ++ rest)) R') as [s2 R2] eqn:G. cbn [fst] in Fl.
    destruct (proj1 (C37_accepts e' He' _ R' s2 R2) (conj G Fl)) as (sp' & u' & rest' & Et & Hsp' & (v' & GT' & ->) & _).
    destruct (class_types e He) as [HT HG]. assert (GT := put_groups_text _ _ HT HR).
    unfold put, put_engine, write_engine in Et. rewrite <- !app_comm_cons, <- !app_assoc in Et.
    assert (Q : forall l, Forall gap l -> Forall (fun c => (fun c => (c =? 32) || (c =? 9) || (c =? 10)) c = true) l).
    { intros l Hl. eapply Forall_impl; [|exact Hl]. intros c Hc. apply gap_char, Hc. }
    destruct (split_same (fun c => (c =? 32) || (c =? 9) || (c =? 10)) sp sp' 91 91 _ _ (Q _ Hsp) (Q _ Hsp') eq_refl eq_refl Et) as (_ & _ & E2).
    cbn [app] in E2. destruct (groups_head _ _ _ rest GT) as (x & t & Ex & Hx). destruct (groups_head _ _ _ rest' GT') as (y & t' & Ey & Hy).
    rewrite Ex, Ey in E2.
    destruct (split_same name_char _ _ _ _ _ _ (names_chars e He Le) (names_chars e' He' Le') Hx Hy E2) as (E & _). exact E. }
  split; [exact F|]. apply C37_failed; assumption.
Qed.
Print Assumptions C89_foreign.

(** ** Examples *)
Definition e_lcg64 := TextEngine lcg64 lcg64_text lcg64_fields lcg64_of.
Definition e_lcg64_shift := TextEngine lcg64 lcg64_shift_text lcg64_fields lcg64_of.
Example C89_lagfib_name_example : lf_name (LfClass 32 [103; 250] OpXor) = chars "lagfib2xor_32_103_250".
Proof. vm_compute. reflexivity. Qed.
Lemma no_lags_lcg e c : In (te_class e) fixed_classes -> te_class e = lf_text c -> Forall (word 32) (lf_lags c).
Proof. intros H E. exfalso. apply (lf_not_fixed c _ H). rewrite E. reflexivity. Qed.
Example C89_foreign_example :
  i_fail (fst (get e_lcg64 (of_text (put e_lcg64_shift (Lcg64 5 1 9))) (Lcg64 3 1 7))) = true /\
  snd (get e_lcg64 (of_text (put e_lcg64_shift (Lcg64 5 1 9))) (Lcg64 3 1 7)) = Lcg64 3 1 7.
Proof.
  assert (E := C89_foreign e_lcg64_shift e_lcg64 ec_lcg64_shift ec_lcg64). 
  assert (A : lags_ok e_lcg64_shift) by (intros c; apply no_lags_lcg; right; left; reflexivity).
  assert (B : lags_ok e_lcg64) by (intros c; apply no_lags_lcg; left; reflexivity).
  specialize (E A B ltac:(discriminate) (Lcg64 5 1 9) (Lcg64 3 1 7) [] []). cbn [app] in E. rewrite app_nil_r in E. apply E; [|constructor].
  unfold representable. cbn. repeat constructor; cbn; lia.
Qed.
