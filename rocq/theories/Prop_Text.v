(** Engines as text: round trip (C36), failed input (C37), what can be read (C64). *)
From Coq Require Import String ZArith List Bool Lia.
From Verif Require Import Base BaseFacts Spec IntMathModel Lcg64Model CountShiftModel Count128Model MinstdModel MrgModel LagfibModel XoshiroModel MtModel
  StreamModel StreamProofs Prop_Uint128 EngineTextModel EngineTextProofs LagfibProofs Prop_Lagfib Prop_Mt Prop_Mrg Prop_Xoshiro.
Import ListNotations.
Open Scope Z_scope.

(** The engine classes with operator<< and operator>>. *)
Record text_engine := TextEngine { te_type : Type; te_class : text_class; te_fields : te_type -> list (list Z);
                                   te_of : te_type -> list (list Z) -> te_type }.
Definition put (e : text_engine) (R : te_type e) : list Z := put_engine (te_class e) (te_fields e) R.
Definition get (e : text_engine) (s : istr) (R : te_type e) : istr * te_type e := get_engine (te_class e) (te_fields e) (te_of e) s R.
Inductive engine_class : text_engine -> Prop :=
| ec_lcg64 : engine_class (TextEngine lcg64 lcg64_text lcg64_fields lcg64_of)
| ec_lcg64_shift : engine_class (TextEngine lcg64 lcg64_shift_text lcg64_fields lcg64_of)
| ec_lcs : engine_class (TextEngine lcs lcs_text lcs_fields lcs_of)
| ec_c128 : engine_class (TextEngine c128 c128_text c128_fields c128_of)
| ec_minstd : engine_class (TextEngine Z minstd_text minstd_fields minstd_of)
| ec_mrg n : In n mrg_names -> engine_class (TextEngine mrg (mrg_text n) mrg_fields mrg_of)
| ec_lf c : 0 < lf_w c <= 64 -> engine_class (TextEngine lf (lf_text c) lf_fields lf_of)
| ec_xo : engine_class (TextEngine xoshiro xo_text xo_fields xo_of)
| ec_mt32 : engine_class (TextEngine mt (mt_text "mt19937" mt32_class) mt_fields mt_of)
| ec_mt64 : engine_class (TextEngine mt (mt_text "mt19937_64" mt64_class) mt_fields mt_of).

(** Every field of the object is a value of its C++ type. *)
Definition representable (e : text_engine) (R : te_type e) : Prop :=
  Forall2 (fun g vs => Forall2 fits (group_types g) vs) (tc_groups (te_class e)) (te_fields e R).

(** ** Supporting lemmas *)
Lemma repeat_all {A} (P : A -> Prop) x n : P x -> Forall P (repeat x n).
Proof. intros H. apply Forall_forall. intros y Hy. apply repeat_spec in Hy. subst y. exact H. Qed.
Lemma class_types e : engine_class e -> Forall (fun g => Forall type_max (group_types g)) (tc_groups (te_class e)) /\ Forall group_ok (tc_groups (te_class e)).
Proof.
  assert (X : forall e, Forall (fun g => Forall type_max (group_types g)) (tc_groups (te_class e)) ->
    Forall (fun g => match g with GList _ => True | GRange _ Ts => Ts <> [] end) (tc_groups (te_class e)) -> 
    Forall (fun g => Forall type_max (group_types g)) (tc_groups (te_class e)) /\ Forall group_ok (tc_groups (te_class e))).
  { intros e0 A B. split; [exact A|]. apply Forall_forall. intros g Hg. rewrite Forall_forall in A, B. split; [|apply B, Hg].
    eapply Forall_impl; [|apply A, Hg]. intros T HT. destruct T; cbn in *; lia || exact I. }
  destruct 1; apply X; cbn [te_class tc_groups lcg64_text lcg64_shift_text lcs_text c128_text minstd_text mrg_text lf_text xo_text mt_text lcg64_groups];
    repeat constructor; cbn [group_types type_max u64 u32 i32]; try lia; try (apply repeat_all; cbn; lia); try discriminate.
Qed.
Lemma forall2_repeat T n vs : Forall2 fits (repeat T n) vs <-> length vs = n /\ Forall (fits T) vs.
Proof.
  revert vs. induction n as [|n IH]; intros vs; cbn [repeat]; split.
  - intros H. inversion H; subst. split; [reflexivity | constructor].
  - intros [L _]. destruct vs; [constructor | discriminate L].
  - intros H. inversion H as [|? v ? vs' Hv H']; subst. apply IH in H'. split; [cbn; lia | constructor; [exact Hv | apply H']].
  - intros [L F]. destruct vs as [|v vs]; [discriminate L|]. inversion F; subst. constructor; [assumption|]. apply IH. split; [cbn in L; lia | assumption].
Qed.
(** the object is what its fields say *)
Lemma of_fields e : engine_class e -> forall R R0, te_of e R0 (te_fields e R) = R.
Proof. destruct 1; intros R R0; destruct R; try reflexivity. destruct cs_lcg; reflexivity. Qed.
(** Whatever a group reads has as many numbers as the group. *)
Lemma list_text_length Ts t vs : list_text Ts t vs -> length vs = length Ts.
Proof. induction 1; cbn in *; lia. Qed.
Lemma num_text_fits T t v : type_ok T -> num_text T t v -> fits T v.
Proof.
  intros HT N. destruct N as [w t n S B|w t n S B|sp ds n S D B]; cbn [fits type_ok] in *.
  - apply Z.mod_pos_bound, Z.pow_pos_nonneg; lia.
  - exact B.
  - split; [|exact B]. destruct D as [_ D]. apply decimal_forall in D. destruct D as [F ->]. apply numeral_nonneg, F.
Qed.
Lemma list_text_fits Ts t vs : Forall type_ok Ts -> list_text Ts t vs -> Forall2 fits Ts vs.
Proof.
  intros H L. induction L as [|T t v N|T t v T' Ts u vs N L IH]; [constructor| |]; inversion H; subst.
  - constructor; [eapply num_text_fits; eassumption | constructor].
  - constructor; [eapply num_text_fits; eassumption | apply IH; assumption].
Qed.
Lemma groups_text_fits gs u vss : Forall group_ok gs -> groups_text gs u vss -> Forall2 (fun g vs => Forall2 fits (group_types g) vs) gs vss.
Proof.
  intros H L. induction L as [|g t vs gs u vss L G IH]; [constructor|]. inversion H as [|? ? [K _] H']; subst.
  constructor; [eapply list_text_fits; eassumption | apply IH, H'].
Qed.
Lemma fields_of e : engine_class e -> forall R0 vss, Forall2 (fun g vs => Forall2 fits (group_types g) vs) (tc_groups (te_class e)) vss ->
  te_fields e (te_of e R0 vss) = vss.
Proof.
  destruct 1; intros R0 vss F; cbn [te_class tc_groups te_fields te_of lcg64_text lcg64_shift_text lcs_text c128_text minstd_text mrg_text lf_text xo_text mt_text] in *; unfold lcg64_groups in *;
  try (match goal with F : context [repeat ?a ?n] |- _ => revert F; generalize (repeat a n); intros L F end);
  repeat match goal with
  | H : Forall2 _ (_ :: _) _ |- _ => inversion H; clear H; subst
  | H : Forall2 _ [] _ |- _ => inversion H; clear H; subst
  | H : Forall2 _ (group_types (GList [])) _ |- _ => cbn [group_types] in H
  | H : Forall2 _ (group_types (GList (_ :: _))) _ |- _ => cbn [group_types] in H
  | H : Forall2 _ (group_types (GRange _ _)) _ |- _ => cbn [group_types] in H
  end; reflexivity.
Qed.

(** ** C36 *)
Theorem C36_roundtrip : forall e, engine_class e -> forall R R0 sp rest, representable e R -> Forall gap sp ->
  get e (of_text (sp ++ put e R ++ rest)) R0 = (Istr rest false false, R).
Proof.
  intros e He R R0 sp rest HR Hsp. destruct (class_types e He) as [HT HG]. unfold get, get_engine, put, put_engine.
  assert (GT := put_groups_text _ _ HT HR).
  destruct (proj2 (read_engine_iff (te_class e) (sp ++ write_engine (te_class e) (te_fields e R) ++ rest) (Istr rest false false) (te_fields e R) (te_fields e R0) HG)) as [E _].
  { exists sp, (write_engine (te_class e) (te_fields e R)), rest. split; [reflexivity|]. split; [exact Hsp|]. split; [|reflexivity].
    exists (put_groups (tc_groups (te_class e)) (te_fields e R)). split; [exact GT | reflexivity]. }
  rewrite E, of_fields by exact He. reflexivity.
Qed.
Print Assumptions C36_roundtrip.

(** The states of the engines are representable. *)
Theorem C36_states :
  (forall R, word 64 (lcg_a R) -> word 64 (lcg_b R) -> word 64 (lcg_r R) ->
     representable (TextEngine _ lcg64_text lcg64_fields lcg64_of) R /\ representable (TextEngine _ lcg64_shift_text lcg64_fields lcg64_of) R) /\
  (forall R, word 64 (lcg_a (cs_lcg R)) -> word 64 (lcg_b (cs_lcg R)) -> word 64 (lcg_r (cs_lcg R)) -> word 64 (cs_inc R) -> word 64 (cs_count R) ->
     representable (TextEngine _ lcs_text lcs_fields lcs_of) R) /\
  (forall R, word 128 (c_inc R) -> word 64 (c_a R) -> word 64 (c_b R) -> word 128 (c_r R) -> representable (TextEngine _ c128_text c128_fields c128_of) R) /\
  (forall r, word 32 r -> representable (TextEngine _ minstd_text minstd_fields minstd_of) r) /\
  (forall n cl R, In (n, cl) (combine mrg_names (mrg_classes ++ mrg_classes)) -> mrg_legal cl R -> representable (TextEngine _ (mrg_text n) mrg_fields mrg_of) R) /\
  (forall c R, class_ok c -> valid c R -> representable (TextEngine _ (lf_text c) lf_fields lf_of) R) /\
  (forall R, xstate R -> representable (TextEngine _ xo_text xo_fields xo_of) R) /\
  (forall R, mt_valid std_mt19937 R -> representable (TextEngine _ (mt_text "mt19937" mt32_class) mt_fields mt_of) R) /\
  (forall R, mt_valid std_mt19937_64 R -> representable (TextEngine _ (mt_text "mt19937_64" mt64_class) mt_fields mt_of) R).
Proof.
  unfold representable, word.
  split; [|split; [|split; [|split; [|split; [|split; [|split; [|split]]]]]]].
  - intros R A B C. split; repeat constructor; cbn [fits u64 te_fields]; apply A || apply B || apply C.
  - intros R A B C D E. repeat constructor; cbn [fits u64 te_fields]; apply A || apply B || apply C || apply D || apply E.
  - intros R A B C D. repeat constructor; cbn [fits u64 te_fields]; apply A || apply B || apply C || apply D.
  - intros r A. repeat constructor; cbn [fits u32 te_fields]; apply A.
  - intros n cl R Hin [[La Fa] [Lr Fr]]. assert (H : mc_order cl = snd n /\ mc_modulus cl <= 2147483647).
    { cbn [combine mrg_names mrg_classes app In] in Hin.
      repeat match goal with H : _ \/ _ |- _ => destruct H as [H|H] end; try contradiction; injection Hin as <- <-; split; try reflexivity; cbn; lia. }
    destruct H as [HO HM]. cbn [te_class te_fields mrg_text tc_groups mrg_fields].
    constructor; [|constructor; [|constructor]]; cbn [group_types]; apply forall2_repeat.
    + split; [congruence|]. eapply Forall_impl; [|exact Fa]. intros x Hx. cbn beta in Hx. unfold fits, i32. change (2 ^ (32 - 1)) with 2147483648. lia.
    + split; [congruence|]. eapply Forall_impl; [|exact Fr]. intros x Hx. cbn beta in Hx. unfold fits, i32. change (2 ^ (32 - 1)) with 2147483648. lia.
  - intros c R Hc Hv. assert (Hs := proj1 (valid_ok c R Hc) Hv). destruct Hs as (L & I & F).
    cbn [te_class te_fields lf_text tc_groups lf_fields]. constructor; [|constructor]. cbn [group_types]. constructor.
    + unfold fits, u32. assert (S := sz_bounds c Hc). assert (B := B_pos c Hc). lia.
    + apply forall2_repeat. split; [rewrite L, (size_eq c Hc); reflexivity | exact F].
  - intros R (A & B & C & D). repeat constructor; cbn [fits u64 te_fields]; apply A || apply B || apply C || apply D.
  - intros R (I & L & F). cbn [te_class te_fields mt_text tc_groups mt_fields]. constructor; [constructor|]. constructor; [|constructor]. cbn [group_types].
    constructor; [unfold fits, i32; change (2 ^ (32 - 1)) with 2147483648; change (Z.of_nat (me_n std_mt19937)) with 624 in I; lia|]. apply forall2_repeat. split; [exact L | exact F].
  - intros R (I & L & F). cbn [te_class te_fields mt_text tc_groups mt_fields]. constructor; [constructor|]. constructor; [|constructor]. cbn [group_types].
    constructor; [unfold fits, i32; change (2 ^ (32 - 1)) with 2147483648; change (Z.of_nat (me_n std_mt19937_64)) with 312 in I; lia|]. apply forall2_repeat. split; [exact L | exact F].
Qed.
Print Assumptions C36_states.

Example C36_example : put (TextEngine _ (mrg_text ("mrg2"%string, 2%nat)) mrg_fields mrg_of) (Mrg [1498809829; 1160990996] [7; 0])
    = chars "[mrg2 (1498809829 1160990996) (7 0)]"%string
  /\ get (TextEngine _ c128_text c128_fields c128_of) (of_text (chars " [count128_lcg_shift (5 7 8) (340282366920938463463374607431768211455)] x"%string))
       (C128 1 1 1 1) = (of_text (chars " x"%string), C128 5 7 8 (2 ^ 128 - 1)).
Proof. vm_compute. split; reflexivity. Qed.

(** ** C37 *)
(** Whatever the stream: after a failed read the engine is unchanged. *)
Theorem C37_failed : forall e, engine_class e -> forall s R, i_fail (fst (get e s R)) = true -> snd (get e s R) = R.
Proof.
  intros e He s R. unfold get, get_engine, read_engine. destruct (get_groups _ _) as [s1 vss]. cbv zeta. cbn [fst snd]. intros F. rewrite F.
  apply of_fields, He.
Qed.
Print Assumptions C37_failed.
(** And a read succeeds exactly on the texts of the grammar, storing the numbers written there. *)
Theorem C37_accepts : forall e, engine_class e -> forall t R s' R',
  (get e (of_text t) R = (s', R') /\ i_fail s' = false <->
   exists sp u rest, t = sp ++ u ++ rest /\ Forall gap sp /\ engine_text (te_class e) u (te_fields e R') /\ s' = Istr rest false false).
Proof.
  intros e He t R s' R'. destruct (class_types e He) as [HT HG]. unfold get, get_engine. split.
  - intros [E F]. destruct (read_engine (te_class e) (of_text t) (te_fields e R)) as [s1 vss] eqn:E1. injection E as -> <-.
    destruct (proj1 (read_engine_iff _ t s' vss _ HG) (conj E1 F)) as (sp & u & rest & Et & Gp & ET & Es).
    exists sp, u, rest. split; [exact Et|]. split; [exact Gp|]. split; [|exact Es]. rewrite fields_of; [exact ET | exact He |].
    destruct ET as (v & GT & _). exact (groups_text_fits _ _ _ HG GT).
  - intros (sp & u & rest & Et & Gp & ET & Es).
    destruct (proj2 (read_engine_iff _ t s' (te_fields e R') (te_fields e R) HG)) as [E F]; [exists sp, u, rest; repeat split; assumption|].
    rewrite E, of_fields by exact He. split; [reflexivity | exact F].
Qed.
Print Assumptions C37_accepts.
Example C37_example : get (TextEngine _ lcg64_text lcg64_fields lcg64_of) (of_text (chars "[lcg64 (5 7) (8) ]"%string)) (Lcg64 1 2 3)
    = (Istr (chars "]"%string) false true, Lcg64 1 2 3).
Proof. vm_compute. reflexivity. Qed.

(** ** C64: what a successful read may leave behind *)
(** The numbers read are values of their types, nothing more. *)
Theorem C64_representable : forall e, engine_class e -> forall t R s' R', get e (of_text t) R = (s', R') -> i_fail s' = false -> representable e R'.
Proof.
  intros e He t R s' R' E F. destruct (class_types e He) as [_ HG].
  destruct (proj1 (C37_accepts e He t R s' R') (conj E F)) as (sp & u & rest & _ & _ & (v & GT & _) & _). exact (groups_text_fits _ _ _ HG GT).
Qed.
Print Assumptions C64_representable.
(** Enough for the lagged Fibonacci engines: any state read draws without undefined behaviour. *)
Theorem C64_lagfib : forall c t R s' R', class_ok c -> lf_w c <= 64 ->
  get (TextEngine _ (lf_text c) lf_fields lf_of) (of_text t) R = (s', R') -> i_fail s' = false ->
  forall k, draw (lf_next c) (Some R') k <> None.
Proof.
  intros c t R s' R' Hc Hw E F.
  assert (HR := C64_representable _ (ec_lf c ltac:(destruct Hc; lia)) t R s' R' E F).
  unfold representable in HR. cbn [te_class te_fields lf_text tc_groups] in HR. unfold lf_fields in HR. inversion HR as [|? ? ? ? H1 _]; subst. cbn [group_types] in H1.
  inversion H1 as [|? ? ? ? HI HF]; subst. cbn [fits u32] in HI. apply forall2_repeat in HF. destruct HF as [L FF].
  rewrite (size_eq c Hc) in L. assert (Sp := sz_pos c Hc).
  set (S1 := Lf (lf_r R') (lf_index R' mod 2 ^ Z.log2_up (lf_last c))).
  assert (V : valid c S1).
  { apply valid_ok; [exact Hc|]. split; [exact L|]. split; [apply Z.mod_pos_bound; lia | exact FF]. }
  assert (Est : lf_step c R' = lf_step c S1).
  { unfold lf_step, S1. cbn [lf_index lf_r]. rewrite !(idx c Hc). rewrite Z.add_mod_idemp_l by lia. reflexivity. }
  assert (En : lf_next c (Some R') = lf_next c (Some S1)) by (unfold lf_next; cbn [bind]; rewrite Est; reflexivity).
  intros k. assert (G := proj1 (C27_in_bounds c S1 Hc V k)). intros X. apply G. rewrite <- X. unfold draw. destruct k as [|k].
  - cbn [after Nat.iter nat_rect]. rewrite En. reflexivity.
  - unfold after. rewrite !iter_S_r, En. reflexivity.
Qed.
Print Assumptions C64_lagfib.
(** But mt19937 accepts a negative index, and then the next draw reads outside the array. *)
Theorem C64_mt_refuted : exists t R s' R', get (TextEngine _ (mt_text "mt19937"%string mt32_class) mt_fields mt_of) (of_text t) R = (s', R') /\
  i_fail s' = false /\ fst (mt_next mt32_class (Some R')) = None.
Proof.
  set (R' := Mt (-1) (repeat 0 624)).
  exists (put (TextEngine _ (mt_text "mt19937"%string mt32_class) mt_fields mt_of) R'), R', (Istr [] false false), R'.
  assert (E := C36_roundtrip _ ec_mt32 R' R' [] []). cbn [app] in E. rewrite app_nil_r in E.
  split; [apply E|].
  - unfold representable. cbn [te_class te_fields mt_text tc_groups mt_fields]. constructor; [constructor|]. constructor; [|constructor]. cbn [group_types].
    constructor; [cbn; lia|]. apply forall2_repeat. split; [apply repeat_length | apply repeat_all; cbn; lia].
  - constructor.
  - split; reflexivity.
Qed.
Print Assumptions C64_mt_refuted.
(** minstd accepts 0, from which it draws only 0, a value below min(). *)
Theorem C64_minstd_refuted : exists t s' R', get (TextEngine _ minstd_text minstd_fields minstd_of) (of_text t) 1 = (s', R') /\
  i_fail s' = false /\ fst (minstd_next R') < minstd_min.
Proof. exists (chars "[minstd (0)]"%string), (of_text []), 0. vm_compute. repeat split; reflexivity. Qed.
Print Assumptions C64_minstd_refuted.
(** mrg2 and yarn2 accept a negative state; mrg2 then draws a value below min(), and yarn2 reads its power
    table below its start. *)
Theorem C64_mrg_refuted : exists t s' R', get (TextEngine _ (mrg_text ("mrg2"%string, 2%nat)) mrg_fields mrg_of) (of_text t) (Mrg [1; 1] [1; 1]) = (s', R') /\
  i_fail s' = false /\ fst (mrg_next mrg2_class R') < 0.
Proof. exists (chars "[mrg2 (1000000000 0) (-1 0)]"%string), (of_text []), (Mrg [1000000000; 0] [-1; 0]). vm_compute. repeat split; reflexivity. Qed.
Print Assumptions C64_mrg_refuted.
Theorem C64_yarn_refuted : exists t s' R', get (TextEngine _ (mrg_text ("yarn2"%string, 2%nat)) mrg_fields mrg_of) (of_text t) (Mrg [1; 1] [1; 1]) = (s', R') /\
  i_fail s' = false /\ fst (yarn_next yarn2_class R') = None.
Proof. exists (chars "[yarn2 (1000000000 0) (-1 0)]"%string), (of_text []), (Mrg [1000000000; 0] [-1; 0]). vm_compute. repeat split; reflexivity. Qed.
Print Assumptions C64_yarn_refuted.
