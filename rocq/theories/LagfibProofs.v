(** Proofs about the lagged Fibonacci engines. *)
From Coq Require Import ZArith List Bool Lia Arith Setoid Morphisms.
From Verif Require Import Base BaseFacts Cong Sums IntMathModel IntMathProofs GaussModel GaussProofs
  LinAlgModel LinAlgProofs MinstdModel MrgModel LagfibModel.
Import ListNotations.
Open Scope Z_scope.

(** Template parameters for which the engine is meant to work. *)
Definition class_ok (c : lf_class) : Prop :=
  1 <= lf_w c /\ (length (lf_lags c) = 2%nat \/ length (lf_lags c) = 4%nat) /\
  Forall (fun l => 1 <= l <= lf_last c) (lf_lags c) /\
  lf_last c < 2 ^ 31 /\ (forall k, 0 <= k -> lf_last c <> 2 ^ k).

(** The sequence the lags describe: the fold of the operation over x(k-A), x(k-B), ... *)
Definition lf_term (c : lf_class) (x : Z -> Z) (k : Z) : Z :=
  match lf_lags c with
  | [] => 0
  | l :: ls => fold_left (fun acc l => lf_combine c acc (x (k - l))) ls (x (k - l))
  end.

(* Keeps conversion checks from unfolding whole matrix computations. *)
Opaque mat_power mat_mult mat_vec mmake.

(** The words seed(gen &) writes. *)
Fixpoint seed_list (g : gen) (w : Z) (count : nat) (s : g_state g) : list Z :=
  match count with
  | O => []
  | S k => let '(x, s) := lf_seed_word g w (Z.to_nat w) 0 s in x :: seed_list g w k s
  end.
Lemma seed_list_length g w count s : length (seed_list g w count s) = count.
Proof. revert s. induction count; intros s; cbn [seed_list]; [reflexivity|]. destruct (lf_seed_word _ _ _ _ _). cbn [length]. rewrite IHcount. reflexivity. Qed.
Lemma seed_word_word g w bits r s : 0 <= w -> word w r -> word w (fst (lf_seed_word g w bits r s)).
Proof.
  intros Hw. assert (P : 0 < 2 ^ w) by (apply Z.pow_pos_nonneg; lia). revert r s.
  induction bits; intros r s Hr; cbn [lf_seed_word]; [exact Hr|]. destruct (g_next g s) as [x s']. apply IHbits.
  destruct (_ >? _); apply Z.mod_pos_bound, P.
Qed.
Lemma seed_list_word g w count s : 0 <= w -> Forall (word w) (seed_list g w count s).
Proof.
  intros Hw. assert (P : 0 < 2 ^ w) by (apply Z.pow_pos_nonneg; lia). revert s.
  induction count; intros s; cbn [seed_list]; [constructor|].
  assert (H := seed_word_word g w (Z.to_nat w) 0 s Hw ltac:(split; lia)).
  destruct (lf_seed_word g w (Z.to_nat w) 0 s) as [x s']. constructor; [exact H | apply IHcount].
Qed.
Lemma seed_loop_eq g w count : forall i r s, (i + count <= length r)%nat ->
  exists r', lf_seed_loop g w count i r s = Some r' /\ length r' = length r /\
    forall q, nth q r' 0 = if (i <=? q)%nat && (q <? i + count)%nat then nth (q - i) (seed_list g w count s) 0 else nth q r 0.
Proof.
  induction count; intros i r s H.
  - exists r. split; [reflexivity|]. split; [reflexivity|]. intros q.
    destruct (Nat.leb_spec i q), (Nat.ltb_spec q (i + 0)); cbn [andb]; try reflexivity. lia.
  - cbn [lf_seed_loop seed_list]. destruct (lf_seed_word g w (Z.to_nat w) 0 s) as [x s'].
    unfold wr. destruct (Z.leb_spec 0 (Z.of_nat i)); [|lia]. destruct (Z.ltb_spec (Z.of_nat i) (Z.of_nat (length r))); [|lia].
    cbn [andb bind]. rewrite Nat2Z.id. destruct (IHcount (S i) (upd r i x) s') as (r' & E & L & N); [rewrite upd_length; lia|].
    exists r'. split; [exact E|]. rewrite upd_length in L. split; [exact L|]. intros q. rewrite N, nth_upd by lia.
    destruct (Nat.leb_spec i q), (Nat.ltb_spec q (i + S count)), (Nat.leb_spec (S i) q), (Nat.ltb_spec q (S i + count));
      cbn [andb]; try lia; try (destruct (Nat.eqb_spec q i); [lia | reflexivity]).
    + replace (q - i)%nat with (S (q - S i)) by lia. reflexivity.
    + replace q with i by lia. rewrite Nat.eqb_refl, Nat.sub_diag. reflexivity.
Qed.

Section Lf.
Variable c : lf_class.
Hypothesis Hc : class_ok c.
Let B := lf_last c.
Let e := Z.log2_up B.
Let sz := 2 ^ e.

Lemma lags_ne : lf_lags c <> [].
Proof. destruct Hc as (_ & L & _). destruct (lf_lags c); [cbn in L; lia | discriminate]. Qed.
Lemma B_in : In B (lf_lags c).
Proof.
  unfold B, lf_last. assert (N := lags_ne). destruct (lf_lags c) as [|z l]; [contradiction|]. clear N.
  revert z. induction l as [|y l IH]; intros z; [left; reflexivity|]. right. change (last (z :: y :: l) 0) with (last (y :: l) 0). apply IH.
Qed.
Lemma lag_range l : In l (lf_lags c) -> 1 <= l <= B.
Proof. destruct Hc as (_ & _ & F & _). intros H. rewrite Forall_forall in F. apply F, H. Qed.
Lemma B_pos : 3 <= B < 2 ^ 31.
Proof.
  assert (H := lag_range B B_in). destruct Hc as (_ & _ & _ & H31 & NP). fold B in H31, NP.
  assert (B <> 1) by (apply (NP 0); lia). assert (B <> 2) by (apply (NP 1); lia). lia.
Qed.
Lemma e_range : 2 <= e <= 31.
Proof.
  assert (H := B_pos). unfold e. split.
  - change 2 with (Z.log2_up 3). apply Z.log2_up_le_mono. lia.
  - change 31 with (Z.log2_up (2 ^ 31)). apply Z.log2_up_le_mono. lia.
Qed.
Lemma sz_bounds : B < sz < 2 * B.
Proof.
  assert (H := B_pos). assert (L := Z.log2_up_spec B ltac:(lia)). fold e in L. fold sz in L.
  destruct Hc as (_ & _ & _ & _ & NP). fold B in NP. assert (E := e_range).
  split; [assert (B <> sz) by (apply NP; lia); lia|].
  assert (sz = 2 * 2 ^ Z.pred e); [|lia]. unfold sz. rewrite <- Z.pow_succ_r by lia. f_equal. lia.
Qed.
Lemma sz_pos : 0 < sz. Proof. assert (H := sz_bounds). assert (H2 := B_pos). lia. Qed.
Lemma size_eq : lf_size c = sz.
Proof.
  unfold lf_size. fold B. assert (H := B_pos). assert (E := e_range).
  assert (P : sz <= 2 ^ 31) by (apply Z.pow_le_mono_r; lia).
  rewrite ceil2_eq.
  - reflexivity.
  - apply exact_uint. lia.
  - reflexivity.
  - change (t_max (uint_t 32)) with (2 ^ 32 - 1). lia.
  - fold e. fold sz. change (t_max (uint_t 32)) with (2 ^ 32 - 1). lia.
Qed.
Lemma mask_eq : lf_mask c = sz - 1.
Proof.
  unfold lf_mask. fold B. assert (H := B_pos). rewrite mask_uint_eq by lia.
  replace (Z.log2_up (B + 1)) with e; [reflexivity|]. symmetry. apply Z.log2_up_unique; [assert (E := e_range); lia|].
  assert (S := sz_bounds). assert (L := Z.log2_up_spec B ltac:(lia)). fold e in L. fold sz in L.
  replace (2 ^ e) with sz by reflexivity. lia.
Qed.

Lemma idx z : Z.land (wrap32 z) (lf_mask c) = z mod sz.
Proof.
  rewrite mask_eq. unfold sz. assert (E := e_range).
  replace (2 ^ e - 1) with (Z.ones e) by (rewrite Z.ones_equiv; lia).
  rewrite Z.land_ones by lia. unfold wrap32.
  replace (2 ^ 32) with (2 ^ e * 2 ^ (32 - e)) by (rewrite <- Z.pow_add_r by lia; f_equal; lia).
  assert (0 < 2 ^ e) by (apply Z.pow_pos_nonneg; lia). assert (0 < 2 ^ (32 - e)) by (apply Z.pow_pos_nonneg; lia).
  rewrite Z.rem_mul_r by lia. rewrite (Z.mul_comm (2 ^ e)), Z.mod_add by lia. apply Z.mod_mod. lia.
Qed.

Definition st_ok (S : lf) : Prop :=
  length (lf_r S) = Z.to_nat sz /\ 0 <= lf_index S < sz /\ Forall (word (lf_w c)) (lf_r S).
Definition slot (r : list Z) (z : Z) : Z := nth (Z.to_nat (z mod sz)) r 0.
(** The value drawn i steps ago. *)
Definition win (S : lf) (i : Z) : Z := slot (lf_r S) (lf_index S - i).

Lemma slot_bound z (r : list Z) : length r = Z.to_nat sz -> (Z.to_nat (z mod sz) < length r)%nat.
Proof. intros L. rewrite L. assert (H := Z.mod_pos_bound z sz sz_pos). apply Z2Nat.inj_lt; lia. Qed.
Lemma rd_slot r z : length r = Z.to_nat sz -> rd r (z mod sz) = Some (slot r z).
Proof.
  intros L. unfold rd. assert (H := Z.mod_pos_bound z sz sz_pos).
  destruct (Z.ltb_spec (z mod sz) 0); [lia|]. apply nth_error_nth', slot_bound, L.
Qed.
Lemma wr_slot r z v : length r = Z.to_nat sz -> wr r (z mod sz) v = Some (upd r (Z.to_nat (z mod sz)) v).
Proof.
  intros L. unfold wr. assert (H := Z.mod_pos_bound z sz sz_pos). rewrite L, Z2Nat.id by lia.
  destruct (Z.leb_spec 0 (z mod sz)); [|lia]. destruct (Z.ltb_spec (z mod sz) sz); [|lia]. reflexivity.
Qed.
Lemma slot_upd r z v y : length r = Z.to_nat sz ->
  slot (upd r (Z.to_nat (z mod sz)) v) y = if z mod sz =? y mod sz then v else slot r y.
Proof.
  intros L. unfold slot. rewrite nth_upd by (apply slot_bound, L).
  assert (H := Z.mod_pos_bound z sz sz_pos). assert (H2 := Z.mod_pos_bound y sz sz_pos).
  destruct (Z.eqb_spec (z mod sz) (y mod sz)) as [->|N]; [rewrite Nat.eqb_refl; reflexivity|].
  destruct (Nat.eqb_spec (Z.to_nat (y mod sz)) (Z.to_nat (z mod sz))) as [E|_]; [|reflexivity].
  apply Z2Nat.inj in E; lia.
Qed.
Lemma slot_mod r z y : cong sz z y -> slot r z = slot r y.
Proof. intros C. unfold slot. rewrite (mod_cong sz z y); [reflexivity | assert (H := sz_pos); lia | exact C]. Qed.
Lemma slot_word r z : length r = Z.to_nat sz -> Forall (word (lf_w c)) r -> word (lf_w c) (slot r z).
Proof. intros L F. rewrite Forall_forall in F. apply F, nth_In, slot_bound, L. Qed.

Lemma combine_word x y : word (lf_w c) x -> word (lf_w c) y -> word (lf_w c) (lf_combine c x y).
Proof.
  destruct Hc as (Hw & _). unfold lf_combine, word. intros Hx Hy.
  assert (P : 0 < 2 ^ lf_w c) by (apply Z.pow_pos_nonneg; lia).
  destruct (lf_oper c); [|apply Z.mod_pos_bound; lia].
  assert (N : 0 <= Z.lxor x y) by (apply Z.lxor_nonneg; lia). split; [exact N|].
  destruct (Z.eq_dec (Z.lxor x y) 0) as [->|N0]; [lia|].
  apply Z.log2_lt_pow2; [lia|]. apply Z.le_lt_trans with (Z.max (Z.log2 x) (Z.log2 y)); [apply Z.log2_lxor; lia|].
  assert (G : forall z, 0 <= z < 2 ^ lf_w c -> Z.log2 z < lf_w c).
  { intros z Hz. destruct (Z.eq_dec z 0) as [->|]; [cbn; lia|]. apply Z.log2_lt_pow2; lia. }
  assert (G1 := G x Hx). assert (G2 := G y Hy). lia.
Qed.

Lemma taps_eq r i lags acc : length r = Z.to_nat sz ->
  lf_taps c r i lags acc = Some (fold_left (fun acc l => lf_combine c acc (slot r (i - l))) lags acc).
Proof.
  intros L. revert acc. induction lags as [|l lags IH]; intros acc; [reflexivity|].
  cbn [lf_taps fold_left]. rewrite idx, rd_slot by exact L. cbn [bind]. apply IH.
Qed.
Lemma new_eq r i : length r = Z.to_nat sz -> lf_new c r i = Some (lf_term c (slot r) i).
Proof.
  intros L. unfold lf_new, lf_term. assert (N := lags_ne). destruct (lf_lags c) as [|l ls]; [contradiction|].
  rewrite idx, rd_slot by exact L. cbn [bind]. apply taps_eq, L.
Qed.

Lemma term_ext x y k k' : (forall l, 1 <= l <= B -> x (k - l) = y (k' - l)) -> lf_term c x k = lf_term c y k'.
Proof.
  intros H. assert (G := lag_range). unfold lf_term. destruct (lf_lags c) as [|l ls]; [reflexivity|].
  rewrite (H l) by (apply G; left; reflexivity).
  assert (G' : forall l, In l ls -> 1 <= l <= B) by (intros; apply G; right; assumption). clear G.
  generalize (y (k' - l)). induction ls as [|l2 ls IH]; intros acc; [reflexivity|]. cbn [fold_left].
  rewrite (H l2) by (apply G'; left; reflexivity). apply IH. intros; apply G'; right; assumption.
Qed.
Lemma term_word x k : (forall l, 1 <= l <= B -> word (lf_w c) (x (k - l))) -> word (lf_w c) (lf_term c x k).
Proof.
  intros H. assert (G := lag_range). assert (N := lags_ne). unfold lf_term. destruct (lf_lags c) as [|l ls]; [contradiction|].
  assert (G' : forall l, In l ls -> 1 <= l <= B) by (intros; apply G; right; assumption).
  assert (W : word (lf_w c) (x (k - l))) by (apply H, G; left; reflexivity). clear G N.
  revert W. generalize (x (k - l)). induction ls as [|l2 ls IH]; intros acc W; [exact W|]. cbn [fold_left].
  apply IH; [intros; apply G'; right; assumption|]. apply combine_word; [exact W|]. apply H, G'. left. reflexivity.
Qed.

(** One step. *)
Definition step1 (S : lf) : lf :=
  let i := (lf_index S + 1) mod sz in Lf (upd (lf_r S) (Z.to_nat i) (lf_term c (slot (lf_r S)) i)) i.
Lemma step_eq S : length (lf_r S) = Z.to_nat sz -> lf_step c S = Some (step1 S).
Proof.
  intros L. unfold lf_step. cbv zeta. rewrite idx, new_eq by exact L. cbn [bind].
  rewrite wr_slot by exact L. reflexivity.
Qed.
Lemma step1_len S : length (lf_r S) = Z.to_nat sz -> length (lf_r (step1 S)) = Z.to_nat sz.
Proof. intros L. unfold step1. cbv zeta. cbn [lf_r]. rewrite upd_length. exact L. Qed.

Lemma mod_cancel a b : cong sz a b -> - sz < a - b < sz -> a = b.
Proof. intros (k & E) H. assert (P := sz_pos). assert (k = 0) by nia. lia. Qed.

Lemma win_step S i : length (lf_r S) = Z.to_nat sz -> 0 <= i < sz ->
  win (step1 S) i = if i =? 0 then lf_term c (fun z => win S (- z)) 1 else win S (i - 1).
Proof.
  intros L Hi. unfold win at 1. unfold step1. cbv zeta. cbn [lf_r lf_index].
  assert (Z := sz_pos). rewrite slot_upd by exact L.
  destruct (Z.eqb_spec i 0) as [->|N].
  - rewrite Z.sub_0_r, Z.mod_mod, Z.eqb_refl by lia.
    apply term_ext. intros l Hl. unfold win. apply slot_mod. rewrite cong_mod. exists 0. ring.
  - destruct (Z.eqb_spec ((lf_index S + 1) mod sz) (((lf_index S + 1) mod sz - i) mod sz)) as [E|_].
    + exfalso. apply N. assert (C : cong sz i 0); [|apply mod_cancel; [exact C | lia]].
      apply (proj2 (cong_iff sz _ _ ltac:(lia))) in E. destruct E as (k & Ek).
      destruct (cong_mod sz (lf_index S + 1)) as (k2 & Ek2). exists (k + k2). lia.
    + unfold win. apply slot_mod. rewrite cong_mod. exists 0. ring.
Qed.

Lemma win_word S i : st_ok S -> word (lf_w c) (win S i).
Proof. intros (L & _ & F). apply slot_word; assumption. Qed.
Lemma upd_Forall (P : Z -> Prop) l i v : Forall P l -> P v -> Forall P (upd l i v).
Proof. intros F Pv. revert i. induction F; intros [|i]; cbn [upd]; constructor; auto. Qed.
Lemma step1_ok S : st_ok S -> st_ok (step1 S).
Proof.
  intros (L & I & F). split; [apply step1_len, L|]. split; [apply Z.mod_pos_bound, sz_pos|].
  unfold step1. cbv zeta. cbn [lf_r]. apply upd_Forall; [exact F|].
  apply term_word. intros l _. apply slot_word; assumption.
Qed.

(** After n steps. *)
Definition stn (S : lf) (n : nat) : lf := Nat.iter n step1 S.
Lemma stn_len S n : length (lf_r S) = Z.to_nat sz -> length (lf_r (stn S n)) = Z.to_nat sz.
Proof. intros L. induction n; [exact L | apply step1_len, IHn]. Qed.
Lemma stn_length S n : length (lf_r (stn S n)) = length (lf_r S).
Proof.
  induction n as [|n IH]; [reflexivity|]. rewrite <- IH.
  change (stn S (Datatypes.S n)) with (step1 (stn S n)). unfold step1. cbv zeta. cbn [lf_r]. apply upd_length.
Qed.
Lemma stn_ok S n : st_ok S -> st_ok (stn S n).
Proof. intros L. induction n; [exact L | apply step1_ok, IHn]. Qed.
Lemma stn_index S n : st_ok S -> lf_index (stn S n) = (lf_index S + Z.of_nat n) mod sz.
Proof.
  intros (_ & I & _). assert (P := sz_pos). induction n.
  - change (stn S 0) with S. rewrite Z.add_0_r, Z.mod_small by exact I. reflexivity.
  - change (stn S (Datatypes.S n)) with (step1 (stn S n)). unfold step1. cbv zeta. cbn [lf_index]. rewrite IHn.
    rewrite Zplus_mod_idemp_l. f_equal. lia.
Qed.
Lemma iter_steps S n : length (lf_r S) = Z.to_nat sz ->
  Nat.iter n (fun S => bind S (lf_step c)) (Some S) = Some (stn S n).
Proof.
  intros L. induction n; [reflexivity|].
  change (Nat.iter (Datatypes.S n) (fun S => bind S (lf_step c)) (Some S)) with (bind (Nat.iter n (fun S => bind S (lf_step c)) (Some S)) (lf_step c)).
  rewrite IHn. cbn [bind]. apply step_eq, stn_len, L.
Qed.

(** A sequence x follows the recurrence and describes the state. *)
Definition follows (x : Z -> Z) : Prop := forall k, 1 <= k -> x k = lf_term c x k.
Definition describes (x : Z -> Z) (p len : Z) (S : lf) : Prop := forall i, 0 <= i < len -> win S i = x (p - i).

Lemma describes_step x p len S : length (lf_r S) = Z.to_nat sz -> follows x -> 0 <= p -> B <= len <= sz ->
  describes x p len S -> describes x (p + 1) (Z.min (len + 1) sz) (step1 S).
Proof.
  intros L F Hp Hl D i Hi. assert (Bp := B_pos). rewrite win_step by (try exact L; lia).
  destruct (Z.eqb_spec i 0) as [->|N].
  - rewrite Z.sub_0_r, F by lia. apply term_ext. intros l Hlag. replace (1 - l) with (- (l - 1)) by lia.
    replace (- - (l - 1)) with (l - 1) by lia. rewrite D by lia. f_equal. lia.
  - rewrite D by lia. f_equal. lia.
Qed.

Lemma describes_steps x len S n : st_ok S -> follows x -> B <= len <= sz ->
  forall p, 0 <= p -> describes x p len S -> describes x (p + Z.of_nat n) (Z.min (len + Z.of_nat n) sz) (stn S n).
Proof.
  intros K F Hl. induction n; intros p Hp D.
  - change (stn S 0) with S. replace (p + Z.of_nat 0) with p by lia.
    replace (Z.min (len + Z.of_nat 0) sz) with len by lia. exact D.
  - change (stn S (Datatypes.S n)) with (step1 (stn S n)).
    assert (E := describes_step x (p + Z.of_nat n) (Z.min (len + Z.of_nat n) sz) (stn S n)
                   (proj1 (stn_ok S n K)) F ltac:(lia) ltac:(lia) (IHn p Hp D)).
    replace (p + Z.of_nat (Datatypes.S n)) with (p + Z.of_nat n + 1) by lia.
    replace (Z.min (len + Z.of_nat (Datatypes.S n)) sz) with (Z.min (Z.min (len + Z.of_nat n) sz + 1) sz) by lia.
    exact E.
Qed.

(** The sequence of a state. *)
Definition seqx (S : lf) (k : Z) : Z := if k <=? 0 then win S (- k) else win (stn S (Z.to_nat k)) 0.
Lemma seqx_describes S n : st_ok S -> describes (seqx S) (Z.of_nat n) sz (stn S n).
Proof.
  intros K. induction n; intros i Hi.
  - unfold seqx. destruct (Z.leb_spec (Z.of_nat 0 - i) 0); [|lia]. change (stn S 0) with S. f_equal. lia.
  - change (stn S (Datatypes.S n)) with (step1 (stn S n)).
    destruct (Z.eq_dec i 0) as [->|N].
    + unfold seqx. rewrite Z.sub_0_r. destruct (Z.leb_spec (Z.of_nat (Datatypes.S n)) 0); [lia|].
      rewrite Nat2Z.id. reflexivity.
    + rewrite win_step by (try apply stn_ok; try exact K; lia). destruct (Z.eqb_spec i 0); [lia|].
      rewrite IHn by lia. f_equal. lia.
Qed.
Lemma seqx_follows S : st_ok S -> follows (seqx S).
Proof.
  intros K k Hk. unfold seqx at 1. destruct (Z.leb_spec k 0); [lia|].
  replace (Z.to_nat k) with (Datatypes.S (Z.to_nat (k - 1))) by lia.
  change (stn S (Datatypes.S (Z.to_nat (k - 1)))) with (step1 (stn S (Z.to_nat (k - 1)))).
  assert (P := sz_bounds). assert (P2 := B_pos).
  rewrite win_step by (try apply stn_ok; try exact K; lia). rewrite Z.eqb_refl.
  apply term_ext. intros l Hl.
  rewrite (seqx_describes S (Z.to_nat (k - 1)) K) by lia. f_equal. lia.
Qed.
Lemma follows_unique x y : follows x -> follows y -> forall p, 0 <= p ->
  (forall i, 0 <= i < B -> x (p - i) = y (p - i)) -> forall k, p - B < k -> x k = y k.
Proof.
  intros Fx Fy p Hp E.
  assert (G : forall n : nat, forall k, p - B < k <= p + Z.of_nat n -> x k = y k).
  { induction n; intros k Hk.
    - replace k with (p - (p - k)) by lia. apply E. lia.
    - destruct (Z.eq_dec k (p + Z.of_nat (S n))) as [->|]; [|apply IHn; lia].
      rewrite Fx, Fy by lia. apply term_ext. intros l Hl. apply IHn. lia. }
  intros k Hk. apply (G (Z.to_nat (k - p))). lia.
Qed.

(** Draws. *)
Lemma after_eq S n : st_ok S -> after (lf_next c) n (Some S) = Some (stn S n).
Proof. intros K. unfold after. cbn [lf_next snd]. apply iter_steps, K. Qed.
Lemma draw_eq S n : st_ok S -> draw (lf_next c) (Some S) n = Some (win (stn S (Datatypes.S n)) 0).
Proof.
  intros K. unfold draw. rewrite after_eq by exact K. unfold lf_next. cbv zeta. cbn [bind fst].
  assert (K1 := stn_ok S n K). rewrite step_eq by apply K1. cbn [bind].
  change (stn S (Datatypes.S n)) with (step1 (stn S n)). assert (K2 := step1_ok _ K1). destruct K2 as (L & I & _).
  unfold win. rewrite Z.sub_0_r. rewrite <- rd_slot by exact L. f_equal. rewrite Z.mod_small by exact I. reflexivity.
Qed.
Lemma draw_follows S x n : st_ok S -> follows x -> describes x 0 B S ->
  draw (lf_next c) (Some S) n = Some (x (Z.of_nat n + 1)).
Proof.
  intros K F D. rewrite draw_eq by exact K. f_equal. assert (P := sz_bounds). assert (P2 := B_pos).
  assert (E := describes_steps x B S (Datatypes.S n) K F ltac:(lia) 0 ltac:(lia) D).
  rewrite E by lia. f_equal. lia.
Qed.

(** Equality of states. *)
Lemma lf_ext S1 S2 : st_ok S1 -> st_ok S2 -> lf_index S1 = lf_index S2 ->
  (forall i, 0 <= i < sz -> win S1 i = win S2 i) -> S1 = S2.
Proof.
  intros (L1 & I1 & _) (L2 & I2 & _) E W. destruct S1 as [r1 i1], S2 as [r2 i2]. cbn [lf_r lf_index] in *. subst i2.
  f_equal. apply (nth_ext_len r1 r2 (Z.to_nat sz) 0 L1 L2). intros q Hq. assert (P := sz_pos).
  assert (Hz : 0 <= Z.of_nat q < sz) by lia.
  assert (Hi := W ((i1 - Z.of_nat q) mod sz) (Z.mod_pos_bound _ _ P)).
  unfold win in Hi. cbn [lf_r lf_index] in Hi.
  assert (C : cong sz (i1 - (i1 - Z.of_nat q) mod sz) (Z.of_nat q)).
  { rewrite cong_mod. exists 0. ring. }
  rewrite !(slot_mod _ _ _ C) in Hi. unfold slot in Hi. rewrite Z.mod_small, Nat2Z.id in Hi by exact Hz. exact Hi.
Qed.

(** ** Windows *)
Lemma read_window_eq r i n : length r = Z.to_nat sz ->
  exists v, read_window r i (lf_mask c) n = Some v /\ length v = n /\
    forall j, (j < n)%nat -> nth j v 0 = slot r (i - Z.of_nat (n - 1 - j)).
Proof.
  intros L. induction n as [|n (v & E & Lv & Hv)].
  - exists []. split; [reflexivity|]. split; [reflexivity | intros j Hj; lia].
  - exists (slot r (i - Z.of_nat n) :: v). cbn [read_window]. rewrite idx, rd_slot by exact L. cbn [bind]. rewrite E. cbn [bind].
    split; [reflexivity|]. split; [cbn; lia|]. intros [|j] Hj; cbn [nth].
    + f_equal. lia.
    + rewrite Hv by lia. do 2 f_equal. lia.
Qed.

Lemma write_window_eq i w : forall n k r, length r = Z.to_nat sz -> Z.of_nat (k + n) <= sz ->
  exists r', write_window r i (lf_mask c) w k n = Some r' /\ length r' = Z.to_nat sz /\
    (forall q, (k <= q < k + n)%nat -> slot r' (i - Z.of_nat q) = nth (length w - 1 - q) w 0) /\
    (forall q, 0 <= q < sz -> (q < Z.of_nat k \/ Z.of_nat (k + n) <= q) -> slot r' (i - q) = slot r (i - q)) /\
    (forall P : Z -> Prop, Forall P r -> (forall q, P (nth q w 0)) -> Forall P r').
Proof.
  induction n as [|n IH]; intros k r L H.
  - exists r. split; [reflexivity|]. split; [exact L|]. split; [intros; lia|]. split; [reflexivity | auto].
  - cbn [write_window]. rewrite idx, wr_slot by exact L. cbn [bind].
    set (r1 := upd r _ _). assert (L1 : length r1 = Z.to_nat sz) by (unfold r1; rewrite upd_length; exact L).
    destruct (IH (S k) r1 L1 ltac:(lia)) as (r' & E & L' & A1 & A2 & A3).
    exists r'. split; [exact E|]. split; [exact L'|].
    assert (U : forall q, 0 <= q < sz -> slot r1 (i - q) = if q =? Z.of_nat k then nth (length w - 1 - k) w 0 else slot r (i - q)).
    { intros q Hq. unfold r1. rewrite slot_upd by exact L. destruct (Z.eqb_spec q (Z.of_nat k)) as [->|N]; [rewrite Z.eqb_refl; reflexivity|].
      destruct (Z.eqb_spec ((i - Z.of_nat k) mod sz) ((i - q) mod sz)) as [Em|_]; [|reflexivity].
      exfalso. apply N. assert (P := sz_pos). apply (proj2 (cong_iff sz _ _ ltac:(lia))) in Em.
      destruct Em as (z & Ez). apply mod_cancel; [exists z; lia | lia]. }
    split; [|split].
    + intros q Hq. destruct (Nat.eq_dec q k) as [->|N].
      * rewrite A2 by lia. rewrite U by lia. rewrite Z.eqb_refl. reflexivity.
      * apply A1. lia.
    + intros q Hq Hd. rewrite A2 by lia. rewrite U by lia. destruct (Z.eqb_spec q (Z.of_nat k)); [lia | reflexivity].
    + intros P F W. apply A3; [|exact W]. apply upd_Forall; [exact F | apply W].
Qed.

(** ** Interpretations: the operation is addition modulo m *)
Definition interp (m : Z) (den : Z -> Z) : Prop :=
  forall x y, cong m (den (lf_combine c x y)) (den x + den y).

Definition ls (f : Z -> Z) (l : list Z) : Z := fold_right (fun a s => f a + s) 0 l.
Lemma term_den m den x k : interp m den -> cong m (den (lf_term c x k)) (ls (fun l => den (x (k - l))) (lf_lags c)).
Proof.
  intros I. assert (N := lags_ne). unfold lf_term. destruct (lf_lags c) as [|l l0]; [contradiction|]. clear N.
  cbn [ls fold_right]. generalize (x (k - l)). induction l0 as [|l2 l0 IH]; intros acc; cbn [fold_left fold_right].
  - rewrite Z.add_0_r. reflexivity.
  - rewrite IH, (I acc). rewrite Z.add_assoc. reflexivity.
Qed.

(** The integer companion matrix. *)
Let n := Z.to_nat B.
Definition comp (i j : nat) : Z :=
  if (Nat.eqb (S i) j) || (Nat.eqb (S i) n && existsb (fun l => Z.of_nat j =? B - l) (lf_lags c)) then 1 else 0.

Lemma comp_row v i : NoDup (lf_lags c) -> (i < n)%nat ->
  mv n comp v i = if Nat.eqb (S i) n then ls (fun l => v (Z.to_nat (B - l))) (lf_lags c) else v (S i).
Proof.
  intros ND Hi. assert (Bp := B_pos). unfold mv. destruct (Nat.eqb_spec (S i) n) as [E|E].
  - assert (R := lag_range).
    assert (G : forall lags, NoDup lags -> (forall l, In l lags -> 1 <= l <= B) ->
      sum n (fun j => (if existsb (fun l => Z.of_nat j =? B - l) lags then 1 else 0) * v j) = ls (fun l => v (Z.to_nat (B - l))) lags).
    { clear R ND. induction lags as [|l lags IH]; intros ND R.
      - apply sum_0. intros. cbn. reflexivity.
      - inversion ND as [|y ys N ND']; subst. cbn [ls fold_right]. fold (ls (fun l => v (Z.to_nat (B - l))) lags).
        rewrite <- IH by (try exact ND'; intros; apply R; right; assumption).
        assert (Hl := R l (or_introl eq_refl)).
        assert (Sg : v (Z.to_nat (B - l)) = sum n (fun j => (if Z.of_nat j =? B - l then 1 else 0) * v j)).
        { rewrite (sum_single n (Z.to_nat (B - l))).
          - rewrite Z2Nat.id, Z.eqb_refl, Z.mul_1_l by lia. reflexivity.
          - unfold n. lia.
          - intros j Hj Nj. destruct (Z.eqb_spec (Z.of_nat j) (B - l)); [lia | ring]. }
        rewrite Sg, <- sum_add. apply sum_ext. intros j Hj. cbn [existsb].
        destruct (Z.eqb_spec (Z.of_nat j) (B - l)) as [Ej|Ej]; cbn [orb]; [|ring].
        destruct (existsb (fun l0 => Z.of_nat j =? B - l0) lags) eqn:Ex; [|ring].
        exfalso. apply existsb_exists in Ex. destruct Ex as (l0 & I0 & E0). apply Z.eqb_eq in E0.
        apply N. replace l with l0 by lia. exact I0. }
    rewrite <- G by (try assumption). apply sum_ext. intros j Hj. unfold comp.
    destruct (Nat.eqb_spec (S i) j); [lia|]. rewrite E, Nat.eqb_refl. reflexivity.
  - rewrite (sum_single n (S i)).
    + unfold comp. rewrite Nat.eqb_refl. cbn [orb]. ring.
    + lia.
    + intros j Hj N. unfold comp. destruct (Nat.eqb_spec (S i) j); [lia|].
      destruct (Nat.eqb_spec (S i) n); [lia|]. cbn [andb orb]. ring.
Qed.

Lemma ls_cong m f g l : (forall a, In a l -> cong m (f a) (g a)) -> cong m (ls f l) (ls g l).
Proof.
  induction l as [|a l IH]; intros H; cbn [ls fold_right]; [reflexivity|].
  fold (ls f l) (ls g l). rewrite (H a) by (left; reflexivity). rewrite IH; [reflexivity | intros; apply H; right; assumption].
Qed.

Lemma comp_iter m u v e' : NoDup (lf_lags c) ->
  (forall k, 1 <= k -> cong m (u k) (ls (fun l => u (k - l)) (lf_lags c))) ->
  (forall j, (j < n)%nat -> cong m (v j) (u (1 - B + Z.of_nat j))) ->
  forall j, (j < n)%nat -> cong m (Nat.iter e' (mv n comp) v j) (u (Z.of_nat e' + 1 - B + Z.of_nat j)).
Proof.
  intros ND Hu Hv. assert (Bp := B_pos). assert (Hn : Z.of_nat n = B) by (apply Z2Nat.id; lia).
  induction e' as [|e' IH]; intros j Hj.
  - rewrite (Hv j Hj). replace (Z.of_nat 0 + 1 - B + Z.of_nat j) with (1 - B + Z.of_nat j) by lia. reflexivity.
  - change (Nat.iter (S e') (mv n comp) v j) with (mv n comp (Nat.iter e' (mv n comp) v) j).
    rewrite comp_row by assumption. destruct (Nat.eqb_spec (S j) n) as [E|E].
    + rewrite (Hu (Z.of_nat (S e') + 1 - B + Z.of_nat j)) by lia. apply ls_cong. intros l Hl. apply lag_range in Hl.
      rewrite IH by (unfold n; lia). rewrite Z2Nat.id by lia.
      replace (Z.of_nat e' + 1 - B + (B - l)) with (Z.of_nat (S e') + 1 - B + Z.of_nat j - l) by lia. reflexivity.
    + rewrite IH by lia. replace (Z.of_nat e' + 1 - B + Z.of_nat (S j)) with (Z.of_nat (S e') + 1 - B + Z.of_nat j) by lia.
      reflexivity.
Qed.

(** The matrix has the integer companion matrix as its meaning. *)
Lemma matrix_den T m den i j : cong m (den (s_zero T)) 0 -> cong m (den (s_one T)) 1 ->
  (i < n)%nat -> (j < n)%nat -> cong m (mden T den n (lf_matrix T c) i j) (comp i j).
Proof.
  intros D0 D1 Hi Hj. unfold mden, lf_matrix. fold B. fold n. rewrite mget_make by assumption. unfold comp.
  destruct (_ || _); assumption.
Qed.

Lemma jump_plus e' v i : lf_oper c = OpPlus -> 0 <= e' < 2 ^ 64 -> (i < n)%nat ->
  cong (2 ^ lf_w c) (nth i (lf_jump_vector c e' v) 0) (mv n (mpow n comp (Z.to_nat e')) (fun k => nth k v 0) i).
Proof.
  intros Eo He Hi. unfold lf_jump_vector. rewrite Eo. fold B. fold n. set (T := uint_scalar (lf_w c)).
  destruct (uint_den (lf_w c)) as (D0 & D1 & Da & Dm). fold T in D0, D1, Da, Dm.
  etransitivity; [exact (mat_vec_den T (2 ^ lf_w c) (fun x => x) D0 Da Dm n _ v i Hi)|].
  apply mv_cong; [|reflexivity | exact Hi]. intros a b Ha Hb.
  rewrite (mat_power_den T (2 ^ lf_w c) (fun x => x) D0 D1 Da Dm) by assumption.
  apply mpow_cong; try assumption. intros x y Hx Hy. apply matrix_den; assumption.
Qed.

Lemma fold_xor_bit t (f : nat -> Z) l : forall z,
  cong 2 (Z.b2z (Z.testbit (fold_left (fun s k => Z.lxor s (f k)) l z) t))
         (Z.b2z (Z.testbit z t) + lsum (fun k => Z.b2z (Z.testbit (f k) t)) l).
Proof.
  induction l as [|k l IH]; intros z; cbn [fold_left].
  - cbn [lsum fold_right]. rewrite Z.add_0_r. reflexivity.
  - rewrite IH, Z.lxor_spec, b2z_cong2. cbn [lsum fold_right]. rewrite Z.add_assoc. reflexivity.
Qed.
Lemma gf2_times_bit a x t : Z.b2z (Z.testbit (gf2_times a x) t) = Z.b2z a * Z.b2z (Z.testbit x t).
Proof. destruct a; cbn [gf2_times]; [|rewrite Z.testbit_0_l; reflexivity]. cbn [Z.b2z]. lia. Qed.

Lemma jump_xor e' v i t : lf_oper c = OpXor -> 0 <= e' < 2 ^ 64 -> (i < n)%nat ->
  cong 2 (Z.b2z (Z.testbit (nth i (lf_jump_vector c e' v) 0) t))
         (mv n (mpow n comp (Z.to_nat e')) (fun k => Z.b2z (Z.testbit (nth k v 0) t)) i).
Proof.
  intros Eo He Hi. unfold lf_jump_vector. rewrite Eo. fold B. fold n. cbv zeta. set (M := mat_power _ _ _ _).
  change (nth i (vmake (uint_scalar (lf_w c)) n ?f) 0) with (vget (uint_scalar (lf_w c)) (vmake (uint_scalar (lf_w c)) n f) i).
  rewrite vget_make by exact Hi. rewrite fold_xor_bit, Z.testbit_0_l. cbn [Z.b2z]. rewrite Z.add_0_l, lsum_seq.
  cbn [Nat.add]. unfold mv. apply sum_cong. intros k Hk. rewrite gf2_times_bit.
  assert (E : cong 2 (Z.b2z (mget gf2_scalar n M i k)) (mpow n comp (Z.to_nat e') i k)).
  { assert (Dm : forall x y, cong 2 (Z.b2z (s_mul gf2_scalar x y)) (Z.b2z x * Z.b2z y))
      by (intros x y; cbn [s_mul gf2_scalar]; rewrite b2z_mul; reflexivity).
    assert (H := mat_power_den gf2_scalar 2 Z.b2z ltac:(reflexivity) ltac:(reflexivity) b2z_cong2 Dm n
                   (lf_matrix gf2_scalar c) e' i k He Hi Hk).
    unfold mden at 1 in H. fold M in H. rewrite H.
    apply mpow_cong; try assumption. intros x y Hx Hy. apply matrix_den; try assumption; reflexivity. }
  rewrite E. reflexivity.
Qed.

Lemma jump_word e' v i : (forall k, word (lf_w c) (nth k v 0)) -> (i < n)%nat -> word (lf_w c) (nth i (lf_jump_vector c e' v) 0).
Proof.
  intros Hv Hi. destruct (Hc) as (Hw & _). unfold lf_jump_vector. fold B. fold n. cbv zeta. destruct (lf_oper c) eqn:Eo.
  - change (nth i (vmake (uint_scalar (lf_w c)) n ?f) 0) with (vget (uint_scalar (lf_w c)) (vmake (uint_scalar (lf_w c)) n f) i).
    rewrite vget_make by exact Hi.
    assert (Cx : forall x y, word (lf_w c) x -> word (lf_w c) y -> word (lf_w c) (Z.lxor x y)).
    { intros x y Hx Hy. assert (H := combine_word x y Hx Hy). unfold lf_combine in H. rewrite Eo in H. exact H. }
    assert (W0 : word (lf_w c) 0) by (split; [lia | apply Z.pow_pos_nonneg; lia]).
    assert (G : forall (f : nat -> Z) l z, word (lf_w c) z -> (forall k, word (lf_w c) (f k)) ->
      word (lf_w c) (fold_left (fun s k => Z.lxor s (f k)) l z)).
    { intros f l. induction l as [|k l IH]; intros z Wz Wf; cbn [fold_left]; [exact Wz|]. apply IH; [apply Cx; auto | exact Wf]. }
    apply (G (fun k => gf2_times _ _) (seq 0 n) 0 W0). intros k. destruct (mget _ _ _ _ _); [apply Hv | exact W0].
  - destruct (uint_ok (lf_w c) Hw) as (P0 & P1 & Pa). apply (mat_vec_ok (uint_scalar (lf_w c)) (word (lf_w c))); assumption.
Qed.

Lemma bits_cong x y : word (lf_w c) x -> word (lf_w c) y ->
  (forall t, 0 <= t < lf_w c -> cong 2 (Z.b2z (Z.testbit x t)) (Z.b2z (Z.testbit y t))) -> x = y.
Proof.
  intros Hx Hy H. apply Z.bits_inj'. intros t Ht. destruct (Z.lt_ge_cases t (lf_w c)) as [L|L].
  - assert (E := H t ltac:(lia)). destruct E as (k & E).
    destruct (Z.testbit x t), (Z.testbit y t); cbn [Z.b2z] in E; try reflexivity; lia.
  - assert (G : forall z, word (lf_w c) z -> Z.testbit z t = false).
    { intros z Hz. destruct (Z.eq_dec z 0) as [->|]; [apply Z.testbit_0_l|]. unfold word in Hz.
      apply Z.bits_above_log2; [lia|]. apply Z.lt_le_trans with (lf_w c); [|exact L]. apply Z.log2_lt_pow2; lia. }
    rewrite !G by assumption. reflexivity.
Qed.

Lemma interp_plus : lf_oper c = OpPlus -> interp (2 ^ lf_w c) (fun x => x).
Proof. intros E x y. unfold lf_combine. rewrite E. apply cong_mod. Qed.
Lemma interp_xor t : lf_oper c = OpXor -> interp 2 (fun x => Z.b2z (Z.testbit x t)).
Proof. intros E x y. unfold lf_combine. rewrite E, Z.lxor_spec. apply b2z_cong2. Qed.

(** The jump vector is the window e' steps ahead. *)
Lemma jump_window x v e' j : NoDup (lf_lags c) -> 0 <= e' < 2 ^ 64 -> follows x -> (forall k, word (lf_w c) (x k)) ->
  length v = n -> (forall k, (k < n)%nat -> nth k v 0 = x (1 - B + Z.of_nat k)) -> (j < n)%nat ->
  nth j (lf_jump_vector c e' v) 0 = x (e' + 1 - B + Z.of_nat j).
Proof.
  intros ND He F Wx Lv Hv Hj. destruct (Hc) as (Hw & _).
  assert (P : 0 < 2 ^ lf_w c) by (apply Z.pow_pos_nonneg; lia).
  assert (Wv : forall k, word (lf_w c) (nth k v 0)).
  { intros k. destruct (Nat.lt_ge_cases k n) as [L|L]; [rewrite Hv by exact L; apply Wx|].
    rewrite nth_overflow by lia. split; lia. }
  assert (W1 := jump_word e' v j Wv Hj).
  assert (G : forall m den, interp m den ->
     cong m (mv n (mpow n comp (Z.to_nat e')) (fun k => den (nth k v 0)) j) (den (x (e' + 1 - B + Z.of_nat j)))).
  { intros m den I. rewrite mv_mpow by exact Hj.
    rewrite (comp_iter m (fun k => den (x k)) (fun k => den (nth k v 0)) (Z.to_nat e') ND).
    - rewrite Z2Nat.id by lia. reflexivity.
    - intros k Hk. rewrite (F k Hk). apply term_den, I.
    - intros k Hk. rewrite Hv by exact Hk. reflexivity.
    - exact Hj. }
  destruct (lf_oper c) eqn:Eo.
  - apply bits_cong; [exact W1 | apply Wx|]. intros t Ht. rewrite jump_xor by assumption.
    apply (G 2 (fun x => Z.b2z (Z.testbit x t))), interp_xor, Eo.
  - apply (cong_eq (2 ^ lf_w c)); [exact W1 | apply Wx|]. rewrite jump_plus by assumption.
    apply (G (2 ^ lf_w c) (fun x => x)), interp_plus, Eo.
Qed.

Lemma seqx_word S k : st_ok S -> word (lf_w c) (seqx S k).
Proof. intros K. unfold seqx. destruct (k <=? 0); apply win_word; [exact K | apply stn_ok, K]. Qed.

Lemma wrap64_mod z : wrap64 z mod sz = z mod sz.
Proof.
  unfold wrap64, sz. assert (E := e_range).
  replace (2 ^ 64) with (2 ^ e * 2 ^ (64 - e)) by (rewrite <- Z.pow_add_r by lia; f_equal; lia).
  assert (0 < 2 ^ e) by (apply Z.pow_pos_nonneg; lia). assert (0 < 2 ^ (64 - e)) by (apply Z.pow_pos_nonneg; lia).
  rewrite Z.rem_mul_r by lia. rewrite (Z.mul_comm (2 ^ e)), Z.mod_add by lia. apply Z.mod_mod. lia.
Qed.

Lemma jump_vector_length e' v : length (lf_jump_vector c e' v) = n.
Proof.
  unfold lf_jump_vector. cbv zeta. destruct (lf_oper c); [exact (vmake_length (uint_scalar (lf_w c)) _ _) | exact (mat_vec_length (uint_scalar (lf_w c)) _ _ _)].
Qed.

Lemma jump_part S e' : NoDup (lf_lags c) -> st_ok S -> 0 <= e' < 2 ^ 64 ->
  exists S', bind (read_window (lf_r S) (lf_index S) (lf_mask c) (Z.to_nat (lf_last c))) (fun v =>
      let w := lf_jump_vector c e' v in
      let i := Z.land (wrap32 (wrap64 (lf_index S + e'))) (lf_mask c) in
      bind (write_window (lf_r S) i (lf_mask c) w 0 (Z.to_nat (lf_last c))) (fun r => Some (Lf r i))) = Some S' /\
    stn S' n = stn S (Z.to_nat (e' + B)).
Proof.
  intros ND K He. assert (Bp := B_pos). assert (Sz := sz_bounds). assert (Hn : Z.of_nat n = B) by (apply Z2Nat.id; lia).
  fold B. fold n.
  destruct (read_window_eq (lf_r S) (lf_index S) n (proj1 K)) as (v & Ev & Lv & Hv). rewrite Ev. cbn [bind]. cbv zeta.
  rewrite idx, wrap64_mod. set (i' := (lf_index S + e') mod sz).
  assert (Hi' : 0 <= i' < sz) by (apply Z.mod_pos_bound, sz_pos).
  assert (J : forall j, (j < n)%nat -> nth j (lf_jump_vector c e' v) 0 = seqx S (e' + 1 - B + Z.of_nat j)).
  { intros j Hj. apply jump_window; try assumption.
    - apply seqx_follows, K.
    - intros k. apply seqx_word, K.
    - intros k Hk. rewrite Hv by exact Hk. change (slot (lf_r S) (lf_index S - Z.of_nat (n - 1 - k))) with (win S (Z.of_nat (n - 1 - k))).
      assert (D := seqx_describes S 0 K (Z.of_nat (n - 1 - k)) ltac:(lia)). change (stn S 0) with S in D. rewrite D. f_equal. lia. }
  assert (Lj := jump_vector_length e' v). remember (lf_jump_vector c e' v) as w eqn:Ew. clear Ew.
  destruct (write_window_eq i' w n 0 (lf_r S) (proj1 K) ltac:(lia)) as (r' & Er & Lr & A1 & _ & A3).
  rewrite Er. cbn [bind]. exists (Lf r' i'). split; [reflexivity|].
  assert (K' : st_ok (Lf r' i')).
  { split; [exact Lr|]. split; [exact Hi'|]. cbn [lf_r]. apply A3; [apply K|]. intros q.
    destruct (Nat.lt_ge_cases q n) as [L|L]; [rewrite J by exact L; apply seqx_word, K|].
    rewrite nth_overflow by lia. destruct (Hc) as (Hw & _). split; [lia | apply Z.pow_pos_nonneg; lia]. }
  assert (D : describes (seqx S) e' B (Lf r' i')).
  { intros q Hq. unfold win. cbn [lf_r lf_index]. replace q with (Z.of_nat (Z.to_nat q)) at 1 by lia.
    rewrite A1 by lia. rewrite Lj, J by lia. f_equal. lia. }
  assert (D2 := describes_steps (seqx S) B (Lf r' i') n K' (seqx_follows S K) ltac:(lia) e' ltac:(lia) D).
  rewrite Hn in D2. replace (Z.min (B + B) sz) with sz in D2 by lia.
  assert (D3 := seqx_describes S (Z.to_nat (e' + B)) K).
  apply lf_ext; [apply stn_ok, K' | apply stn_ok, K | |].
  - rewrite !stn_index by assumption. cbn [lf_index]. unfold i'. rewrite Zplus_mod_idemp_l. f_equal. lia.
  - intros q Hq. rewrite D2, D3 by exact Hq. f_equal. lia.
Qed.

Lemma discard_eq S N : NoDup (lf_lags c) -> B <= 2 ^ 19 -> st_ok S -> 0 <= N < 2 ^ 64 ->
  lf_discard c N S = Some (stn S (Z.to_nat (if N =? 1 then 2 ^ 64 + 1 else N))).
Proof.
  intros ND HB K HN. assert (Bp := B_pos). unfold lf_discard. cbv zeta. fold B.
  assert (G : forall e', 0 <= e' < 2 ^ 64 -> wrap64 (N - B) = e' -> wrap64 (N - e') = B -> lf_pivot c N < N ->
    bind (if N >? lf_pivot c N then
       bind (read_window (lf_r S) (lf_index S) (lf_mask c) (Z.to_nat B)) (fun v =>
       bind (write_window (lf_r S) (Z.land (wrap32 (wrap64 (lf_index S + wrap64 (N - B)))) (lf_mask c)) (lf_mask c)
               (lf_jump_vector c (wrap64 (N - B)) v) 0 (Z.to_nat B)) (fun r =>
       Some (Lf r (Z.land (wrap32 (wrap64 (lf_index S + wrap64 (N - B)))) (lf_mask c)), wrap64 (N - wrap64 (N - B)))))
     else Some (S, N)) (fun Sn => Nat.iter (Z.to_nat (snd Sn)) (fun S => bind S (lf_step c)) (Some (fst Sn)))
    = Some (stn S (Z.to_nat (e' + B)))).
  { intros e' He E1 E2 Hp. rewrite E1, E2. destruct (Z.gtb_spec N (lf_pivot c N)) as [_|]; [|lia].
    destruct (jump_part S e' ND K He) as (S' & E & Es). cbv zeta in E. fold B in E.
    destruct (read_window _ _ _ _) as [v|]; [|discriminate E]. cbn [bind] in *.
    destruct (write_window _ _ _ _ _ _) as [r|]; [|discriminate E]. cbn [bind] in *. injection E as <-.
    cbn [fst snd]. fold n. rewrite iter_steps; [f_equal; exact Es|].
    assert (L : length (lf_r (stn (Lf r (Z.land (wrap32 (wrap64 (lf_index S + e'))) (lf_mask c))) n)) = Z.to_nat sz).
    { rewrite Es. apply stn_len, K. }
    rewrite stn_length in L. exact L. }
  destruct (Z.eqb_spec N 1) as [->|N1].
  - rewrite (G (2 ^ 64 + 1 - B)).
    + f_equal. f_equal. f_equal. lia.
    + lia.
    + unfold wrap64. replace (1 - B) with (2 ^ 64 + 1 - B + (-1) * 2 ^ 64) by lia. rewrite Z.mod_add by lia. apply Z.mod_small. lia.
    + unfold wrap64. replace (1 - (2 ^ 64 + 1 - B)) with (B + (-1) * 2 ^ 64) by lia. rewrite Z.mod_add by lia. apply Z.mod_small. lia.
    + reflexivity.
  - destruct (Z.lt_ge_cases (lf_pivot c N) N) as [L|L].
    + destruct (Z.eq_dec N 0) as [->|N0]; [exfalso; revert L; vm_compute; discriminate|].
      assert (Hp : B <= lf_pivot c N).
      { unfold lf_pivot. rewrite log2_ceil_eq; [|apply exact_uint; lia|reflexivity|reflexivity|change (t_max (uint_t 64)) with (2 ^ 64 - 1); lia].
        fold B. assert (U1 : 1 <= Z.log2_up N) by (change 1 with (Z.log2_up 2); apply Z.log2_up_le_mono; lia).
        assert (U2 : Z.log2_up N <= 64) by (change 64 with (Z.log2_up (2 ^ 64)); apply Z.log2_up_le_mono; lia).
        set (u := Z.log2_up N) in *. change (2 ^ 19) with 524288 in HB. clearbody u. clear - Bp HB U1 U2.
        assert (P1 : B * 1 <= u * B <= 64 * 524288) by nia.
        assert (P2 : B * 1 <= u * B * B <= 64 * 524288 * 524288) by nia.
        assert (P3 : B * 1 <= u * B * B * B <= 64 * 524288 * 524288 * 524288) by nia.
        unfold wrap64. change (2 ^ 64) with 18446744073709551616.
        rewrite (Z.mod_small (u * B)) by lia. rewrite (Z.mod_small (u * B * B)) by lia.
        rewrite Z.mod_small by lia. lia. }
      rewrite (G (N - B)).
      * f_equal. f_equal. f_equal. lia.
      * lia.
      * unfold wrap64. apply Z.mod_small. lia.
      * unfold wrap64. replace (N - (N - B)) with B by lia. apply Z.mod_small. lia.
      * exact L.
    + destruct (Z.gtb_spec N (lf_pivot c N)); [lia|]. cbn [bind fst snd]. apply iter_steps, K.
Qed.

(** ** discard(1): a sequence of period 2^64 vanishes modulo 2 *)
Lemma ls_add f g l : ls (fun a => f a + g a) l = ls f l + ls g l.
Proof. induction l as [|a l IH]; cbn [ls fold_right]; [reflexivity|]. unfold ls in *. rewrite IH. ring. Qed.
Lemma ls_double f l : cong 2 (ls (fun a => ls (fun b => f (a + b)) l) l) (ls (fun a => f (2 * a)) l).
Proof.
  induction l as [|x l IH]; [reflexivity|].
  change (ls (fun a => ls (fun b => f (a + b)) (x :: l)) (x :: l)) with
    (f (x + x) + ls (fun b => f (x + b)) l + ls (fun a => f (a + x) + ls (fun b => f (a + b)) l) l).
  rewrite ls_add. change (ls (fun a => f (2 * a)) (x :: l)) with (f (2 * x) + ls (fun a => f (2 * a)) l).
  rewrite IH. replace (x + x) with (2 * x) by lia.
  replace (ls (fun a => f (a + x)) l) with (ls (fun b => f (x + b)) l).
  - exists (ls (fun b => f (x + b)) l). ring.
  - clear IH. induction l as [|y l IH]; [reflexivity|]. cbn [ls fold_right]. unfold ls in IH. rewrite IH, (Z.add_comm x y). reflexivity.
Qed.
Lemma ls_const z l : ls (fun _ => z) l = Z.of_nat (length l) * z.
Proof. induction l as [|a l IH]; [reflexivity|]. cbn [ls fold_right length]. unfold ls in IH. rewrite IH. lia. Qed.
Lemma ls_one m f l b : NoDup l -> In b l -> (forall a, In a l -> a <> b -> cong m (f a) 0) -> cong m (ls f l) (f b).
Proof.
  induction l as [|x l IH]; intros ND I H; [destruct I|]. inversion ND as [|y ys N ND']; subst.
  cbn [ls fold_right]. fold (ls f l). destruct I as [->|I].
  - rewrite (ls_cong m f (fun _ => 0) l), ls_const; [exists 0; ring|].
    intros a Ha. apply H; [right; exact Ha|]. intros ->. exact (N Ha).
  - rewrite (H x) by (try (left; reflexivity); intros ->; exact (N I)).
    rewrite IH; [reflexivity | exact ND' | exact I | intros; apply H; [right|]; assumption].
Qed.

Lemma frobenius u : (forall k, 1 <= k -> cong 2 (u k) (ls (fun l => u (k - l)) (lf_lags c))) ->
  forall j, 0 <= j -> forall k, 2 ^ j * B <= k -> cong 2 (u k) (ls (fun l => u (k - 2 ^ j * l)) (lf_lags c)).
Proof.
  intros R. assert (Bp := B_pos). apply (natlike_ind (fun j => forall k, 2 ^ j * B <= k -> cong 2 (u k) (ls (fun l => u (k - 2 ^ j * l)) (lf_lags c)))).
  - intros k Hk. rewrite (R k) by (change (2 ^ 0) with 1 in Hk; lia). apply ls_cong. intros l _. change (2 ^ 0) with 1. rewrite Z.mul_1_l. reflexivity.
  - intros j Hj IH k Hk. rewrite Z.pow_succ_r in * by exact Hj. assert (P : 0 < 2 ^ j) by (apply Z.pow_pos_nonneg; lia).
    rewrite (IH k) by nia.
    rewrite (ls_cong 2 _ (fun a => ls (fun b => u (k - 2 ^ j * (a + b))) (lf_lags c))).
    + rewrite (ls_double (fun z => u (k - 2 ^ j * z))). apply ls_cong. intros l _.
      replace (2 ^ j * (2 * l)) with (2 * 2 ^ j * l) by ring. reflexivity.
    + intros a Ha. apply lag_range in Ha. rewrite (IH (k - 2 ^ j * a)) by nia. apply ls_cong. intros b _.
      replace (k - 2 ^ j * a - 2 ^ j * b) with (k - 2 ^ j * (a + b)) by ring. reflexivity.
Qed.

Lemma period_zero u : NoDup (lf_lags c) ->
  (forall k, 1 <= k -> cong 2 (u k) (ls (fun l => u (k - l)) (lf_lags c))) ->
  (forall k, 2 - B <= k -> u (k + 2 ^ 64) = u k) -> forall k, 1 - B <= k <= 0 -> cong 2 (u k) 0.
Proof.
  intros ND R Per. assert (Bp := B_pos).
  assert (PerN : forall z, 0 <= z -> forall k, 2 - B <= k -> u (k + 2 ^ 64 * z) = u k).
  { apply (natlike_ind (fun z => forall k, 2 - B <= k -> u (k + 2 ^ 64 * z) = u k)).
    - intros k _. f_equal. lia.
    - intros z Hz IH k Hk. replace (k + 2 ^ 64 * Z.succ z) with (k + 2 ^ 64 * z + 2 ^ 64) by ring. rewrite Per by lia. apply IH, Hk. }
  assert (Z0 : forall k, 2 - B <= k -> cong 2 (u k) 0).
  { intros k Hk. rewrite <- (PerN (2 * B) ltac:(lia) k Hk).
    rewrite (frobenius u R 64 ltac:(lia)) by (change (2 ^ 64) with 18446744073709551616; lia).
    rewrite (ls_cong 2 _ (fun _ => u k)).
    - rewrite ls_const. destruct Hc as (_ & [L|L] & _); rewrite L; [exists (u k) | exists (2 * u k)]; ring.
    - intros l Hl. apply lag_range in Hl. replace (k + 2 ^ 64 * (2 * B) - 2 ^ 64 * l) with (k + 2 ^ 64 * (2 * B - l)) by ring.
      rewrite PerN by lia. reflexivity. }
  intros k Hk. destruct (Z.eq_dec k (1 - B)) as [->|]; [|apply Z0; lia].
  assert (E := R 1 ltac:(lia)). rewrite (Z0 1) in E by lia.
  rewrite (ls_one 2 _ _ B ND B_in) in E; [symmetry; exact E|].
  intros a Ha N. apply lag_range in Ha. apply Z0. lia.
Qed.

Lemma discard1_wrong S den : NoDup (lf_lags c) -> B <= 2 ^ 19 -> st_ok S -> interp 2 den ->
  (exists i, 0 <= i < B /\ ~ cong 2 (den (win S i)) 0) -> lf_discard c 1 S <> lf_step c S.
Proof.
  intros ND HB K I (i & Hi & Nz) E. assert (Bp := B_pos). assert (Sz := sz_bounds).
  rewrite (discard_eq S 1 ND HB K ltac:(lia)) in E. rewrite Z.eqb_refl in E. rewrite step_eq in E by apply K.
  assert (HM : Z.of_nat (Z.to_nat (2 ^ 64 + 1)) = 2 ^ 64 + 1) by (apply Z2Nat.id; lia).
  revert E HM. generalize (Z.to_nat (2 ^ 64 + 1)). intros M E HM. injection E as E.
  change (step1 S) with (stn S 1) in E.
  assert (D1 := seqx_describes S 1 K). assert (D2 := seqx_describes S M K).
  rewrite E in D2. clear E. rewrite HM in D2.
  assert (F := seqx_follows S K).
  assert (Per : forall k, 1 - B < k -> seqx S (k + 2 ^ 64) = seqx S k).
  { intros k Hk. symmetry. revert k Hk. apply (follows_unique (seqx S) (fun k => seqx S (k + 2 ^ 64)) F).
    - intros k Hk. rewrite F by lia. apply term_ext. intros l _. f_equal. lia.
    - lia.
    - intros q Hq. assert (H1 := D1 q ltac:(lia)). rewrite (D2 q) in H1 by lia. change (Z.of_nat 1) with 1 in H1. cbv beta.
      replace (1 - q + 2 ^ 64) with (2 ^ 64 + 1 - q) by lia. symmetry. exact H1. }
  apply Nz. replace (win S i) with (seqx S (- i)).
  - apply (period_zero (fun k => den (seqx S k)) ND).
    + intros k Hk. rewrite (F k Hk). apply term_den, I.
    + intros k Hk. rewrite Per by lia. reflexivity.
    + lia.
  - assert (D0 := seqx_describes S 0 K i ltac:(lia)). change (stn S 0) with S in D0. rewrite D0. reflexivity.
Qed.
Lemma interp_plus2 : lf_oper c = OpPlus -> interp 2 (fun x => x).
Proof.
  intros E x y. destruct (Hc) as (Hw & _). destruct (interp_plus E x y) as (k & Ek). cbv beta in *.
  exists (k * 2 ^ (lf_w c - 1)). rewrite Ek. replace (2 ^ lf_w c) with (2 ^ (lf_w c - 1) * 2); [ring|].
  rewrite <- (Z.pow_1_r 2) at 2. rewrite <- Z.pow_add_r by lia. f_equal. lia.
Qed.

(** ** Seeding *)
Lemma seed_gen_eq g s S : length (lf_r S) = Z.to_nat sz ->
  exists S', lf_seed_gen c g s S = Some S' /\ length (lf_r S') = Z.to_nat sz /\ lf_index S' = B - 1 /\
    (forall i, 0 <= i < B -> win S' i = nth (Z.to_nat (B - 1 - i)) (seed_list g (lf_w c) n s) 0) /\
    (Forall (word (lf_w c)) (lf_r S) -> st_ok S').
Proof.
  intros L. assert (Bp := B_pos). assert (Sz := sz_bounds).
  destruct (seed_loop_eq g (lf_w c) n 0 (lf_r S) s) as (r' & E & Lr & Nr); [unfold n; lia|].
  unfold lf_seed_gen. fold B. fold n. rewrite E. cbn [bind]. exists (Lf r' (B - 1)). split; [reflexivity|].
  cbn [lf_r lf_index]. split; [lia|]. split; [reflexivity|]. split.
  - intros i Hi. unfold win, slot. cbn [lf_r lf_index]. rewrite Z.mod_small by lia. rewrite Nr, Nat.sub_0_r.
    destruct (Nat.ltb_spec (Z.to_nat (B - 1 - i)) (0 + n)); [reflexivity | unfold n in *; lia].
  - intros F. split; [cbn [lf_r]; lia|]. split; [cbn [lf_index]; lia|]. cbn [lf_r].
    apply Forall_forall. intros x Hx. apply In_nth with (d := 0) in Hx. destruct Hx as (q & Hq & <-). rewrite Nr, Nat.sub_0_r.
    destruct (Hc) as (Hw & _).
    destruct (_ && _) eqn:Eb.
    + apply andb_prop in Eb. destruct Eb as (_ & Eb). apply Nat.ltb_lt in Eb.
      assert (W := seed_list_word g (lf_w c) n s ltac:(lia)). rewrite Forall_forall in W. apply W, nth_In. rewrite seed_list_length. lia.
    + rewrite Forall_forall in F. apply F, nth_In. lia.
Qed.

Lemma same_draws S1 S2 k : st_ok S1 -> st_ok S2 -> (forall i, 0 <= i < B -> win S1 i = win S2 i) ->
  draw (lf_next c) (Some S1) k = draw (lf_next c) (Some S2) k.
Proof.
  intros K1 K2 W. assert (Sz := sz_bounds). assert (F := seqx_follows S1 K1).
  rewrite (draw_follows S1 (seqx S1) k K1 F), (draw_follows S2 (seqx S1) k K2 F); [reflexivity | |].
  - intros i Hi. rewrite <- W by exact Hi. apply (seqx_describes S1 0 K1). lia.
  - intros i Hi. apply (seqx_describes S1 0 K1). lia.
Qed.
End Lf.

(** ** The bits of the seeded words *)
Lemma draw_S {E O} (next : E -> O * E) s k : draw next s (S k) = draw next (snd (next s)) k.
Proof. unfold draw, after. rewrite iter_S_r. reflexivity. Qed.
Lemma draw_add {E O} (next : E -> O * E) s j k : draw next s (j + k) = draw next (after next j s) k.
Proof. unfold draw, after. rewrite (Nat.add_comm j k), iter_add. reflexivity. Qed.

Definition high (g : gen) (x : Z) : bool := x - g_min g >? Z.quot (g_max g) 2.
Lemma seed_word_state g w bits r s : snd (lf_seed_word g w bits r s) = after (g_next g) bits s.
Proof.
  revert r s. induction bits; intros r s; cbn [lf_seed_word]; [reflexivity|].
  destruct (g_next g s) as [x s'] eqn:E. rewrite IHbits. unfold after. rewrite iter_S_r, E. reflexivity.
Qed.
Lemma seed_word_bits g w bits : 1 <= w -> forall r s, word w r -> (Z.of_nat bits <= w) ->
  forall t, 0 <= t < w -> Z.testbit (fst (lf_seed_word g w bits r s)) t =
    if t <? Z.of_nat bits then high g (draw (g_next g) s (bits - 1 - Z.to_nat t)) else Z.testbit r (t - Z.of_nat bits).
Proof.
  intros Hw. induction bits; intros r s Hr Hb t Ht.
  - cbn [lf_seed_word fst]. destruct (Z.ltb_spec t (Z.of_nat 0)); [lia|]. f_equal. lia.
  - cbn [lf_seed_word]. destruct (g_next g s) as [x s'] eqn:E.
    assert (P : 2 ^ w = 2 * 2 ^ (w - 1)) by (rewrite <- Z.pow_succ_r by lia; f_equal; lia).
    assert (P1 : 0 < 2 ^ (w - 1)) by (apply Z.pow_pos_nonneg; lia).
    fold (high g x).
    set (r' := if high g x then ((2 * r) mod 2 ^ w + 1) mod 2 ^ w else (2 * r) mod 2 ^ w).
    assert (E2 : r' = 2 * (r mod 2 ^ (w - 1)) + Z.b2z (high g x)).
    { unfold r'. rewrite P, Z.mul_mod_distr_l by lia. assert (B := Z.mod_pos_bound r _ P1).
      destruct (high g x); cbn [Z.b2z]; [|lia]. apply Z.mod_small. lia. }
    rewrite IHbits; [| | lia | exact Ht].
    2:{ assert (B := Z.mod_pos_bound r _ P1). unfold word. rewrite E2, P. destruct (high g x); cbn [Z.b2z]; lia. }
    destruct (Z.ltb_spec t (Z.of_nat bits)) as [L|L], (Z.ltb_spec t (Z.of_nat (S bits))) as [L'|L']; try lia.
    + f_equal. replace (S bits - 1 - Z.to_nat t)%nat with (S (bits - 1 - Z.to_nat t)) by lia. rewrite draw_S, E. reflexivity.
    + replace (t - Z.of_nat bits) with 0 by lia. replace (S bits - 1 - Z.to_nat t)%nat with 0%nat by lia.
      rewrite E2. rewrite Z.add_comm, (Z.mul_comm 2), Z.testbit_0_r || rewrite Z.testbit_0_r.
      unfold draw, after. cbn [Nat.iter nat_rect]. rewrite E. reflexivity.
    + rewrite E2. replace (t - Z.of_nat bits) with (Z.succ (t - Z.of_nat (S bits))) by lia.
      rewrite Z.testbit_succ_r by lia. apply Z.mod_pow2_bits_low. lia.
Qed.
Lemma seed_list_nth g w count : 0 <= w -> forall s i, (i < count)%nat ->
  nth i (seed_list g w count s) 0 = fst (lf_seed_word g w (Z.to_nat w) 0 (after (g_next g) (i * Z.to_nat w) s)).
Proof.
  intros Hw. induction count; intros s i Hi; [lia|]. cbn [seed_list].
  assert (E := seed_word_state g w (Z.to_nat w) 0 s).
  destruct (lf_seed_word g w (Z.to_nat w) 0 s) as [x s'] eqn:Ex. cbn [snd] in E. subst s'.
  destruct i as [|i].
  - cbn [nth Nat.mul]. change (after (g_next g) 0 s) with s. rewrite Ex. reflexivity.
  - cbn [nth]. rewrite IHcount by lia. f_equal. f_equal. unfold after. rewrite <- iter_add. f_equal. lia.
Qed.
Lemma seed_list_bit g w count s i j : 1 <= w -> (i < count)%nat -> (j < Z.to_nat w)%nat ->
  Z.testbit (nth i (seed_list g w count s) 0) (w - 1 - Z.of_nat j) = high g (draw (g_next g) s (i * Z.to_nat w + j)).
Proof.
  intros Hw Hi Hj. assert (P : 0 < 2 ^ w) by (apply Z.pow_pos_nonneg; lia).
  rewrite seed_list_nth by lia. rewrite seed_word_bits; [| lia | split; lia | lia | lia].
  destruct (Z.ltb_spec (w - 1 - Z.of_nat j) (Z.of_nat (Z.to_nat w))); [|lia].
  rewrite draw_add. do 2 f_equal. lia.
Qed.

(** ** A largest lag that is a power of two *)
Lemma pow2_first c k g s S : 0 <= k <= 30 -> lf_last c = 2 ^ k -> length (lf_r S) = Z.to_nat (lf_size c) ->
  bind (lf_seed_gen c g s S) (lf_step c) = None.
Proof.
  intros Hk E L.
  assert (P : 0 < 2 ^ k) by (apply Z.pow_pos_nonneg; lia).
  assert (P30 : 2 ^ k <= 2 ^ 30) by (apply Z.pow_le_mono_r; lia).
  assert (Sz : lf_size c = 2 ^ k).
  { unfold lf_size. rewrite E, ceil2_eq.
    - rewrite Z.log2_up_pow2 by lia. reflexivity.
    - apply exact_uint. lia.
    - reflexivity.
    - change (t_max (uint_t 32)) with (2 ^ 32 - 1). lia.
    - rewrite Z.log2_up_pow2 by lia. change (t_max (uint_t 32)) with (2 ^ 32 - 1). lia. }
  assert (Mk : lf_mask c = 2 ^ (k + 1) - 1).
  { unfold lf_mask. rewrite E, mask_uint_eq by lia. f_equal. f_equal.
    apply Z.log2_up_unique; [lia|]. replace (Z.pred (k + 1)) with k by lia. rewrite Z.pow_add_r by lia. lia. }
  destruct (seed_loop_eq g (lf_w c) (Z.to_nat (lf_last c)) 0 (lf_r S) s) as (r' & Er & Lr & _); [lia|].
  unfold lf_seed_gen. rewrite Er. cbn [bind]. unfold lf_step. cbn [lf_r lf_index]. cbv zeta.
  replace (Z.land (wrap32 (lf_last c - 1 + 1)) (lf_mask c)) with (2 ^ k).
  - destruct (lf_new c r' (2 ^ k)) as [v|]; [|reflexivity]. cbn [bind]. unfold wr. rewrite Lr, L, Sz.
    destruct (Z.leb_spec 0 (2 ^ k)); [|lia]. destruct (Z.ltb_spec (2 ^ k) (Z.of_nat (Z.to_nat (2 ^ k)))); [lia|]. reflexivity.
  - rewrite Mk, E. replace (2 ^ (k + 1) - 1) with (Z.ones (k + 1)) by (rewrite Z.ones_equiv; lia).
    rewrite Z.land_ones by lia. replace (2 ^ k - 1 + 1) with (2 ^ k) by lia. unfold wrap32.
    rewrite (Z.mod_small (2 ^ k) (2 ^ 32)) by lia. rewrite Z.mod_small; [reflexivity|]. rewrite Z.pow_add_r by lia. lia.
Qed.
