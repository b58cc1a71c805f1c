(** The Wolff cluster step flips one cluster. *)
From Coq Require Import ZArith List Bool Lia Permutation.
From Verif Require Import WolffModel WolffSpec.
Import ListNotations.
Open Scope Z_scope.

(** ** Sites *)
Lemma site_eqb_ok p r : site_eqb p r = true <-> p = r.
Proof. destruct p as (a, b), r as (c, d). unfold site_eqb. cbn [fst snd]. rewrite andb_true_iff, !Z.eqb_eq. split; [intros (-> & ->); reflexivity|intros H; injection H; auto]. Qed.
Lemma mem_ok p C : mem p C = true <-> In p C.
Proof. unfold mem. rewrite existsb_exists. split; [intros (x & I & H); apply site_eqb_ok in H; subst; exact I|intros I; exists p; split; [exact I|apply site_eqb_ok; reflexivity]]. Qed.
Lemma mem_no p C : mem p C = false <-> ~ In p C.
Proof. rewrite <- mem_ok. destruct (mem p C); split; congruence. Qed.
Lemma joined_mono L C C' a p : (forall x, In x C -> In x C') -> joined L C a p -> joined L C' a p.
Proof. intros H J. induction J; [apply joined_here; auto|eapply joined_next; eauto]. Qed.

Lemma pos_up_ok L : 1 <= L -> forall n x, (Z.to_nat (- x) < n)%nat -> exists y, pos_up n L x = Some y /\ 0 <= y /\ (x < L -> y < L) /\ (0 <= x -> y = x) /\ y mod L = x mod L.
Proof.
  intros HL. induction n as [|n IH]; intros x H; [lia|]. cbn [pos_up]. destruct (Z.ltb_spec x 0) as [X|X].
  - destruct (IH (x + L)) as (y & E & Y0 & Y1 & _ & M); [lia|]. exists y. split; [exact E|]. split; [exact Y0|]. split; [intros _; apply Y1; lia|]. split; [lia|]. rewrite M. replace (x + L) with (x + 1 * L) by ring. apply Z.mod_add. lia.
  - exists x. split; [reflexivity|]. split; [exact X|]. split; [auto|]. split; auto.
Qed.
Lemma pos_down_ok L : 1 <= L -> forall n x, 0 <= x -> (Z.to_nat x < n)%nat -> pos_down n L x = Some (x mod L).
Proof.
  intros HL. induction n as [|n IH]; intros x H0 H; [lia|]. cbn [pos_down]. destruct (Z.leb_spec L x) as [X|X].
  - rewrite IH by lia. f_equal. replace (x - L) with (x + (-1) * L) by ring. apply Z.mod_add. lia.
  - rewrite Z.mod_small by lia. reflexivity.
Qed.
Lemma lat_pos_ok L x : 1 <= L -> lat_pos L x = Some (x mod L).
Proof.
  intros HL. unfold lat_pos. cbv zeta. destruct (pos_up_ok L HL (S (Z.to_nat (Z.abs x))) x ltac:(lia)) as (y & E & Y0 & Y1 & Y2 & M). rewrite E. cbn [obind]. rewrite <- M. apply pos_down_ok; [exact HL|exact Y0|]. destruct (Z.ltb_spec x L); [specialize (Y1 ltac:(lia)); lia|rewrite (Y2 ltac:(lia)); lia].
Qed.

Section Lattice.
Variables L : Z.
Hypothesis HL : 1 <= L.
Definition norm (r : coord) : site := (cx r mod L, cy r mod L).
Definition ix (p : site) : nat := Z.to_nat (fst p + snd p * L).
Lemma norm_on r : on_lattice L (norm r).
Proof. unfold norm, on_lattice. cbn [fst snd]. split; apply Z.mod_pos_bound; lia. Qed.
Lemma norm_id p : on_lattice L p -> norm (Coord (fst p) (snd p)) = p.
Proof. intros (A & B). destruct p as (x, y). unfold norm. cbn [cx cy fst snd] in *. rewrite !Z.mod_small by lia. reflexivity. Qed.
Lemma ix_lt p : on_lattice L p -> (ix p < Z.to_nat (L * L))%nat.
Proof. intros (A & B). unfold ix. assert (snd p * L <= (L - 1) * L) by (apply Z.mul_le_mono_nonneg_r; lia). assert (0 <= snd p * L) by (apply Z.mul_nonneg_nonneg; lia). lia. Qed.
Lemma ix_inj p r : on_lattice L p -> on_lattice L r -> ix p = ix r -> p = r.
Proof.
  intros P R E. pose proof (proj1 P) as (P1 & P2). pose proof (proj2 P) as (P3 & P4). pose proof (proj1 R) as (R1 & R2). pose proof (proj2 R) as (R3 & R4). unfold ix in E. assert (0 <= snd p * L) by (apply Z.mul_nonneg_nonneg; lia). assert (0 <= snd r * L) by (apply Z.mul_nonneg_nonneg; lia).
  apply Z2Nat.inj in E; [|lia|lia]. assert (S : snd p = snd r). { pose proof (Z.div_add (fst p) (snd p) L ltac:(lia)) as A. pose proof (Z.div_add (fst r) (snd r) L ltac:(lia)) as B. rewrite E in A. rewrite (Z.div_small (fst p)) in A by lia. rewrite (Z.div_small (fst r)) in B by lia. lia. }
  destruct p, r. cbn [fst snd] in *. subst. f_equal. lia.
Qed.
Lemma index_ok l r : lat_L l = L -> int_ok (cx r) = true -> int_ok (cy r) = true -> lat_index l r = Some (ix (norm r)).
Proof. intros E X Y. unfold lat_index. rewrite X, Y, E, !lat_pos_ok by exact HL. reflexivity. Qed.
Lemma nth_put s k v n : (k < length s)%nat -> nth n (put s k v) 0 = if Nat.eqb n k then v else nth n s 0.
Proof.
  intros H. unfold put. assert (F : length (firstn k s) = k) by (rewrite firstn_length; lia). destruct (Nat.eqb_spec n k) as [->|D].
  - rewrite app_nth2, F, Nat.sub_diag by lia. reflexivity.
  - destruct (Nat.lt_ge_cases n k) as [C|C].
    + rewrite app_nth1 by lia. rewrite <- (firstn_skipn k s) at 2. rewrite app_nth1 by lia. reflexivity.
    + rewrite app_nth2, F by lia. destruct (n - k)%nat as [|m] eqn:M; [lia|]. cbn [nth]. rewrite <- (firstn_skipn (S k) s) at 2. assert (F2 : length (firstn (S k) s) = S k) by (rewrite firstn_length; lia). rewrite app_nth2, F2 by lia. f_equal. lia.
Qed.
Lemma put_length s k v : (k < length s)%nat -> length (put s k v) = length s.
Proof. intros H. unfold put. rewrite app_length, firstn_length. cbn [length]. rewrite skipn_length. lia. Qed.
Lemma get_ok l r : lat_L l = L -> Z.of_nat (length (lat_s l)) = L * L -> int_ok (cx r) = true -> int_ok (cy r) = true -> lat_get l r = Some (spin L (lat_s l) (norm r)).
Proof. intros E H X Y. unfold lat_get. rewrite (index_ok _ _ E X Y). cbn [obind]. apply nth_error_nth'. fold (ix (norm r)). pose proof (ix_lt _ (norm_on r)). lia. Qed.
Lemma flipp_ok l r : lat_L l = L -> Z.of_nat (length (lat_s l)) = L * L -> int_ok (cx r) = true -> int_ok (cy r) = true ->
  exists s', lat_flipp l r = Some (Lat L s') /\ length s' = length (lat_s l) /\ forall p, on_lattice L p -> spin L s' p = if site_eqb p (norm r) then - spin L (lat_s l) p else spin L (lat_s l) p.
Proof.
  intros E H X Y. unfold lat_flipp. rewrite (index_ok _ _ E X Y). cbn [obind]. pose proof (ix_lt _ (norm_on r)) as I. assert (I' : (ix (norm r) < length (lat_s l))%nat) by lia. rewrite (nth_error_nth' _ 0 I'). cbn [obind]. rewrite E. eexists. split; [reflexivity|]. split; [apply put_length, I'|].
  intros p P. unfold spin at 1. fold (ix p). rewrite (nth_put _ _ _ _ I'). destruct (Nat.eqb_spec (ix p) (ix (norm r))) as [D|D].
  - apply ix_inj in D; [|exact P|apply norm_on]. subst p. rewrite (proj2 (site_eqb_ok _ _) eq_refl). unfold spin. fold (ix (norm r)). ring.
  - destruct (site_eqb p (norm r)) eqn:Q; [apply site_eqb_ok in Q; subst; contradiction|reflexivity].
Qed.

(** ** The number of sites *)
Lemma zrange_in k : In k (map Z.of_nat (seq 0 (Z.to_nat L))) <-> 0 <= k < L.
Proof. rewrite in_map_iff. split; [intros (n & E & I); apply in_seq in I; lia|intros H; exists (Z.to_nat k); split; [lia|apply in_seq; lia]]. Qed.
Lemma sites_in p : In p (all_sites L) <-> on_lattice L p.
Proof. destruct p as (x, y). pose proof (in_prod_iff (map Z.of_nat (seq 0 (Z.to_nat L))) (map Z.of_nat (seq 0 (Z.to_nat L))) x y) as H. rewrite !zrange_in in H. exact H. Qed.
Lemma sites_length : length (all_sites L) = Z.to_nat (L * L).
Proof. pose proof (prod_length (map Z.of_nat (seq 0 (Z.to_nat L))) (map Z.of_nat (seq 0 (Z.to_nat L)))) as H. rewrite !map_length, !seq_length in H. rewrite Z2Nat.inj_mul by lia. exact H. Qed.
Lemma few C : NoDup C -> (forall p, In p C -> on_lattice L p) -> (length C <= Z.to_nat (L * L))%nat.
Proof. intros N H. rewrite <- sites_length. apply NoDup_incl_length; [exact N|]. intros p I. apply sites_in, H, I. Qed.
End Lattice.

Section Step.
Variable E : Type.
Variable draw : E -> bool * E.
Variables (L : Z) (s0 : list Z) (old : Z) (a : site) (e0 : E).
Hypothesis HL : 1 <= L.
Hypothesis HI : L * L + L < 2 ^ 31.
Hypothesis Hs : spins_ok L s0.
Hypothesis Ha : on_lattice L a.
Hypothesis Hold : spin L s0 a = old.
Notation norm := (norm L).
Definition ob (C : list site) (b : site * site) : bool := negb (mem (snd b) C) && (spin L s0 (snd b) =? old).
Definition cnt (b : bool) (bs : list bool) : nat := count_occ Bool.bool_dec bs b.
Lemma cnt_app b bs cs : cnt b (bs ++ cs) = (cnt b bs + cnt b cs)%nat. Proof. apply count_occ_app. Qed.
Lemma spin_pm p : on_lattice L p -> spin L s0 p = 1 \/ spin L s0 p = -1.
Proof. intros P. destruct Hs as (A & B). apply B. unfold spin. apply nth_In. pose proof (ix_lt L HL p P) as I. unfold ix in I. lia. Qed.

Record Inv (PD : list (site * site)) (C : list site) (q : list coord) (l : lattice) (bs : list bool) (e : E) : Prop := {
  iL : lat_L l = L;
  ilen : Z.of_nat (length (lat_s l)) = L * L;
  ispin : forall p, on_lattice L p -> spin L (lat_s l) p = if mem p C then - spin L s0 p else spin L s0 p;
  ia : In a C;
  inodup : NoDup C;
  iin : forall p, In p C -> on_lattice L p /\ spin L s0 p = old /\ joined L C a p;
  irng : forall r, In r q -> - Z.of_nat (length C) < cx r < L + Z.of_nat (length C) /\ - Z.of_nat (length C) < cy r < L + Z.of_nat (length C);
  icnt : length C = S (cnt true bs);
  iopen : (length (filter (ob C) PD) <= cnt false bs)%nat;
  inum : (length bs <= length PD)%nat;
  idraws : draws draw e0 bs e
}.
Lemma filter_le {A} (f g : A -> bool) l : (forall x, f x = true -> g x = true) -> (length (filter f l) <= length (filter g l))%nat.
Proof. intros H. induction l as [|x l IH]; [reflexivity|]. cbn [filter]. pose proof (H x) as Hx. destruct (f x); [rewrite (Hx eq_refl); cbn [length]; lia|]. destruct (g x); cbn [length]; lia. Qed.
Lemma try_ok PD C P q l bs e r p0 : Inv PD C q l bs e -> C = P ++ map norm q -> In p0 P -> In (norm r) (neighbours L p0) ->
  - Z.of_nat (length C) <= cx r <= L + Z.of_nat (length C) /\ - Z.of_nat (length C) <= cy r <= L + Z.of_nat (length C) ->
  exists C' q' l' bs' e', try_site draw old r (q, l, e) = Some (q', l', e') /\ Inv (PD ++ [(p0, norm r)]) C' q' l' bs' e' /\ C' = P ++ map norm q' /\ (length C <= length C')%nat.
Proof.
  intros I EC HP HN HR. pose proof (few L HL C (inodup _ _ _ _ _ _ I) (fun p K => proj1 (iin _ _ _ _ _ _ I p K))) as F. assert (FZ : Z.of_nat (length C) <= L * L) by lia.
  assert (X : int_ok (cx r) = true) by (unfold int_ok; apply andb_true_iff; split; [apply Z.leb_le|apply Z.ltb_lt]; lia). assert (Y : int_ok (cy r) = true) by (unfold int_ok; apply andb_true_iff; split; [apply Z.leb_le|apply Z.ltb_lt]; lia).
  unfold try_site. rewrite (get_ok L HL l r (iL _ _ _ _ _ _ I) (ilen _ _ _ _ _ _ I) X Y). cbn [obind]. pose proof (norm_on L HL r) as ON. rewrite (ispin _ _ _ _ _ _ I _ ON). pose proof (spin_pm _ ON) as PM. pose proof (spin_pm _ Ha) as PA. rewrite Hold in PA.
  destruct (mem (norm r) C) eqn:M.
  - (* already flipped *)
    assert (K : In (norm r) C) by (apply mem_ok, M). pose proof (proj1 (proj2 (iin _ _ _ _ _ _ I _ K))) as SO. destruct (Z.eqb_spec (- spin L s0 (norm r)) old) as [Z|_]; [lia|].
    exists C, q, l, bs, e. split; [reflexivity|]. split; [|split; [exact EC|lia]]. destruct I. constructor; auto.
    + rewrite filter_app, app_length. cbn [filter]. unfold ob at 2. cbn [snd]. rewrite M. cbn. lia.
    + rewrite app_length. cbn. lia.
  - destruct (Z.eqb_spec (spin L s0 (norm r)) old) as [SS|SS].
    + destruct (draw e) as (b, e') eqn:D. assert (DR : draws draw e0 (bs ++ [b]) e') by (eapply draws_one; [apply (idraws _ _ _ _ _ _ I)|exact D]). destruct b.
      * destruct (flipp_ok L HL l r (iL _ _ _ _ _ _ I) (ilen _ _ _ _ _ _ I) X Y) as (s' & E1 & E2 & E3). rewrite E1. cbn [obind]. assert (NI : ~ In (norm r) C) by (apply mem_no, M).
        exists (C ++ [norm r]), (q ++ [r]), (Lat L s'), (bs ++ [true]), e'. split; [reflexivity|]. assert (LC : length (C ++ [norm r]) = S (length C)) by (rewrite app_length; cbn; lia). split; [|split; [rewrite map_app, app_assoc, <- EC; reflexivity|lia]].
        destruct I as [A1 A2 A3 AA A4 A5 A6 A7 A8 A9 A10]. constructor; cbn [lat_L lat_s].
        -- reflexivity.
        -- rewrite E2. exact A2.
        -- intros p Hp. rewrite (E3 p Hp), (A3 p Hp). unfold mem. rewrite existsb_app. cbn [existsb]. rewrite orb_false_r. fold (mem p C). destruct (site_eqb p (norm r)) eqn:Q; [apply site_eqb_ok in Q; subst p; rewrite M; reflexivity|rewrite orb_false_r; reflexivity].
        -- apply in_or_app. left. exact AA.
        -- apply NoDup_rev in A4. rewrite <- (rev_involutive (C ++ [norm r])). apply NoDup_rev. rewrite rev_app_distr. cbn. constructor; [rewrite <- in_rev; exact NI|exact A4].
        -- assert (J : forall p, joined L C a p -> joined L (C ++ [norm r]) a p) by (intros p; apply joined_mono; intros x Hx; apply in_or_app; left; exact Hx).
           intros p K. apply in_app_or in K. destruct K as [K|[<-|[]]]; [destruct (A5 p K) as (B1 & B2 & B3); split; [exact B1|split; [exact B2|apply J, B3]]|]. split; [exact ON|]. split; [exact SS|]. eapply joined_next; [|exact HN|apply in_or_app; right; left; reflexivity]. apply J, (A5 p0). rewrite EC. apply in_or_app. left. exact HP.
        -- rewrite LC. intros r' K. apply in_app_or in K. destruct K as [K|[<-|[]]]; [pose proof (A6 r' K); lia|lia].
        -- rewrite LC, cnt_app, A7. cbn. lia.
        -- rewrite filter_app, app_length, cnt_app. cbn [filter]. unfold ob at 2. cbn [snd]. replace (mem (norm r) (C ++ [norm r])) with true by (symmetry; apply mem_ok, in_or_app; right; left; reflexivity). cbn [negb andb length cnt count_occ]. assert (FL : (length (filter (ob (C ++ [norm r])) PD) <= length (filter (ob C) PD))%nat). { apply filter_le. intros x. unfold ob. unfold mem. rewrite existsb_app. cbn [existsb]. rewrite orb_false_r, !andb_true_iff, !negb_true_iff, orb_false_iff. tauto. } unfold cnt in *. cbn. lia.
        -- rewrite !app_length. cbn. lia.
        -- exact DR.
      * exists C, q, l, (bs ++ [false]), e'. split; [reflexivity|]. split; [|split; [exact EC|lia]]. destruct I as [A1 A2 A3 AA A4 A5 A6 A7 A8 A9 A10]. constructor; auto.
        -- rewrite cnt_app, A7. cbn. lia.
        -- rewrite filter_app, app_length, cnt_app. cbn [filter]. destruct (ob C (p0, norm r)); cbn; lia.
        -- rewrite !app_length. cbn. lia.
    + exists C, q, l, bs, e. split; [reflexivity|]. split; [|split; [exact EC|lia]]. destruct I as [A1 A2 A3 AA A4 A5 A6 A7 A8 A9 A10]. constructor; auto.
      * rewrite filter_app, app_length. cbn [filter]. unfold ob at 2. cbn [snd]. rewrite (proj2 (Z.eqb_neq _ _) SS), andb_false_r. cbn. lia.
      * rewrite app_length. cbn. lia.
Qed.

Lemma flat_snoc D p : bonds L (D ++ [p]) = bonds L D ++ map (pair p) (neighbours L p).
Proof. unfold bonds. rewrite flat_map_app. cbn [flat_map]. rewrite app_nil_r. reflexivity. Qed.
Lemma loop_ok : forall f D C q l bs e, Inv (bonds L D) C q l bs e -> C = D ++ map norm q -> (Z.to_nat (L * L) < length D + f)%nat ->
  exists C' l' bs' e', wolff_loop draw f old (q, l, e) = Some (l', e') /\ Inv (bonds L C') C' [] l' bs' e'.
Proof.
  induction f as [|f IH]; intros D C q l bs e I EC HF.
  - pose proof (few L HL C (inodup _ _ _ _ _ _ I) (fun p K => proj1 (iin _ _ _ _ _ _ I p K))) as F. rewrite EC, app_length in F. lia.
  - cbn [wolff_loop]. destruct q as [|r q].
    + cbn [map] in EC. rewrite app_nil_r in EC. subst D. exists C, l, bs, e. auto.
    + cbv zeta. cbn [cx cy]. set (P := D ++ [norm r]). assert (EP : C = P ++ map norm q) by (unfold P; rewrite <- app_assoc; exact EC). assert (RP : In (norm r) P) by (unfold P; apply in_or_app; right; left; reflexivity).
      pose proof (irng _ _ _ _ _ _ I r (or_introl eq_refl)) as RR. assert (I0 : Inv (bonds L D) C q l bs e) by (destruct I; constructor; auto; intros r' K; apply irng0; right; exact K).
      assert (NB : forall x y, In (norm (Coord x y)) (neighbours L (norm r)) <-> In (x mod L, y mod L) (neighbours L (cx r mod L, cy r mod L))) by (intros; reflexivity).
      destruct (try_ok _ _ P _ _ _ _ (Coord (cx r - 1) (cy r)) (norm r) I0 EP RP) as (C1 & q1 & l1 & bs1 & e1 & T1 & I1 & E1 & L1). { left. cbn [fst snd cx cy WolffProofs.norm]. rewrite Zminus_mod_idemp_l. reflexivity. } { cbn [cx cy]. lia. }
      rewrite T1. cbn [obind].
      destruct (try_ok _ _ P _ _ _ _ (Coord (cx r - 1 + 1 + 1) (cy r)) (norm r) I1 E1 RP) as (C2 & q2 & l2 & bs2 & e2 & T2 & I2 & E2 & L2). { right. left. unfold WolffProofs.norm. cbn [fst snd cx cy]. rewrite Zplus_mod_idemp_l. do 2 f_equal. lia. } { cbn [cx cy]. lia. }
      rewrite T2. cbn [obind].
      destruct (try_ok _ _ P _ _ _ _ (Coord (cx r - 1 + 1 + 1 - 1) (cy r - 1)) (norm r) I2 E2 RP) as (C3 & q3 & l3 & bs3 & e3 & T3 & I3 & E3 & L3). { right. right. left. unfold WolffProofs.norm. cbn [fst snd cx cy]. rewrite Zminus_mod_idemp_l. do 2 f_equal. lia. } { cbn [cx cy]. lia. }
      rewrite T3. cbn [obind].
      destruct (try_ok _ _ P _ _ _ _ (Coord (cx r - 1 + 1 + 1 - 1) (cy r - 1 + 1 + 1)) (norm r) I3 E3 RP) as (C4 & q4 & l4 & bs4 & e4 & T4 & I4 & E4 & L4). { right. right. right. left. unfold WolffProofs.norm. cbn [fst snd cx cy]. rewrite Zplus_mod_idemp_l. f_equal; f_equal; lia. } { cbn [cx cy]. lia. }
      rewrite T4. cbn [obind].
      assert (B : (((bonds L D ++ [(norm r, norm (Coord (cx r - 1) (cy r)))]) ++ [(norm r, norm (Coord (cx r - 1 + 1 + 1) (cy r)))]) ++ [(norm r, norm (Coord (cx r - 1 + 1 + 1 - 1) (cy r - 1)))]) ++ [(norm r, norm (Coord (cx r - 1 + 1 + 1 - 1) (cy r - 1 + 1 + 1)))] = bonds L P).
      { unfold P. rewrite flat_snoc, <- !app_assoc. f_equal. unfold neighbours, WolffProofs.norm. cbn [map app fst snd cx cy]. rewrite !Zminus_mod_idemp_l, !Zplus_mod_idemp_l. repeat f_equal; lia. }
      rewrite B in I4. destruct (IH P C4 q4 l4 bs4 e4 I4 E4) as (C' & l' & bs' & e' & W & IV). { unfold P. rewrite app_length. cbn [length]. lia. }
      exists C', l', bs', e'. split; [exact W|exact IV].
Qed.
End Step.

Lemma step_ok {E} (draw : E -> bool * E) (pick : E -> Z * E) L s e x e1 y e2 : 1 <= L -> L * L + L < 2 ^ 31 -> spins_ok L s -> pick e = (x, e1) -> pick e1 = (y, e2) -> 0 <= x < L -> 0 <= y < L ->
  exists C bs s' e', wolffstep draw pick (S (Z.to_nat (L * L))) (Lat L s) e = Some (Lat L s', e') /\ length s' = length s /\ cluster L s (x, y) C /\ flipped L s C s' /\ draws draw e2 bs e' /\
    length C = S (cnt true bs) /\ (length (open_bonds L s (spin L s (x, y)) C) <= cnt false bs)%nat /\ (length bs <= 4 * length C)%nat.
Proof.
  intros HL HI Hs P1 P2 Hx Hy. unfold wolffstep. rewrite P1, P2. assert (Ha : on_lattice L (x, y)) by (split; cbn [fst snd]; lia). pose proof (Z.mul_nonneg_nonneg L L ltac:(lia) ltac:(lia)) as LL.
  assert (X : int_ok (cx (Coord x y)) = true) by (cbn [cx]; unfold int_ok; apply andb_true_iff; split; [apply Z.leb_le|apply Z.ltb_lt]; lia). assert (Y : int_ok (cy (Coord x y)) = true) by (cbn [cy]; unfold int_ok; apply andb_true_iff; split; [apply Z.leb_le|apply Z.ltb_lt]; lia).
  assert (N : norm L (Coord x y) = (x, y)) by (exact (norm_id L (x, y) Ha)). pose proof (proj1 Hs) as LS. rewrite (get_ok L HL (Lat L s) _ eq_refl LS X Y), N. cbn [obind lat_s].
  destruct (flipp_ok L HL (Lat L s) _ eq_refl LS X Y) as (s1 & F1 & F2 & F3). rewrite F1, N in *. cbn [obind lat_s] in *. set (old := spin L s (x, y)).
  assert (I : Inv E draw L s old (x, y) e2 (bonds L []) [(x, y)] [Coord x y] (Lat L s1) [] e2).
  { constructor; cbn [lat_L lat_s length].
    - reflexivity.
    - rewrite F2. exact LS.
    - intros p Hp. rewrite (F3 p Hp). unfold mem. cbn [existsb]. rewrite orb_false_r. reflexivity.
    - left. reflexivity.
    - constructor; [intros []|constructor].
    - intros p [<-|[]]. split; [exact Ha|]. split; [reflexivity|]. apply joined_here. left. reflexivity.
    - intros r [<-|[]]. cbn [cx cy]. lia.
    - reflexivity.
    - cbn. lia.
    - lia.
    - constructor. }
  destruct (loop_ok E draw L s old (x, y) e2 HL HI Hs Ha eq_refl (S (Z.to_nat (L * L))) [] [(x, y)] [Coord x y] (Lat L s1) [] e2 I) as (C & l' & bs & e' & W & IV); [cbn [map app]; rewrite N; reflexivity|cbn [length]; lia|].
  rewrite W. destruct IV as [A1 A2 A3 AA A4 A5 A6 A7 A8 A9 A10]. destruct l' as [L' s']. cbn [lat_L lat_s] in *. subst L'. exists C, bs, s', e'. split; [reflexivity|]. split; [lia|]. split; [constructor; [exact A4|exact AA|intros p K; destruct (A5 p K) as (B1 & B2 & B3); auto]|].
  split; [intros p Hp; rewrite (A3 p Hp); split; [intros K; rewrite (proj2 (mem_ok _ _) K); reflexivity|intros K; rewrite (proj2 (mem_no _ _) K); reflexivity]|]. split; [exact A10|]. split; [exact A7|]. split; [exact A8|]. assert (BL : length (bonds L C) = (4 * length C)%nat) by (clear; induction C as [|p C IH]; [reflexivity|]; unfold bonds in *; cbn [flat_map]; rewrite app_length, IH; cbn [length map neighbours]; lia). lia.
Qed.

(** ** The energy *)
Definition pair_energy (L : Z) (s : list Z) (p : site) : Z := spin L s p * (spin L s ((fst p + 1) mod L, snd p) + spin L s (fst p, (snd p + 1) mod L)).
Lemma fold_some {A} (f : A -> Z) : forall (l : list A) (g : option Z -> A -> option Z) e, (forall e x, In x l -> g (Some e) x = Some (e - f x)) -> fold_left g l (Some e) = Some (e - zsum (map f l)).
Proof. induction l as [|x l IH]; intros g e H; [cbn; f_equal; ring|]. cbn [fold_left map]. rewrite H by (left; reflexivity). rewrite IH by (intros; apply H; right; assumption). f_equal. unfold zsum. cbn [fold_right]. ring. Qed.
Lemma zsum_app a b : zsum (a ++ b) = zsum a + zsum b.
Proof. induction a as [|x a IH]; [reflexivity|]. unfold zsum in *. cbn [app fold_right]. rewrite IH. ring. Qed.
Lemma zsum_prod (f : site -> Z) : forall a b, zsum (map (fun i => zsum (map (fun j => f (i, j)) b)) a) = zsum (map f (list_prod a b)).
Proof. induction a as [|x a IH]; intros b; [reflexivity|]. cbn [list_prod]. rewrite map_app, zsum_app, map_map, <- IH. reflexivity. Qed.
Lemma energy_ok L s : 1 <= L -> Z.of_nat (length s) = L * L -> lat_energy (Lat L s) = Some (energy_sum L s).
Proof.
  intros HL HS. unfold lat_energy. cbn [lat_L lat_s]. assert (G : forall p, on_lattice L p -> nth_error s (Z.to_nat (fst p + snd p * L)) = Some (spin L s p)) by (intros p Hp; apply nth_error_nth'; pose proof (ix_lt L HL p Hp) as I; unfold ix in I; lia).
  rewrite (fold_some (fun i => zsum (map (fun j => pair_energy L s (i, j)) (zrange L)))).
  - rewrite (zsum_prod (pair_energy L s)). reflexivity.
  - intros e i Ii. apply (fold_some (fun j => pair_energy L s (i, j))). intros e' j Ij. apply (zrange_in L HL) in Ii. apply (zrange_in L HL) in Ij. pose proof (Z.mod_pos_bound (i + 1) L ltac:(lia)) as M1. pose proof (Z.mod_pos_bound (j + 1) L ltac:(lia)) as M2. cbn [obind].
    pose proof (G (i, j) (conj Ii Ij)) as G1. pose proof (G ((i + 1) mod L, j) (conj M1 Ij)) as G2. pose proof (G (i, (j + 1) mod L) (conj Ii M2)) as G3. cbn [fst snd] in G1, G2, G3. rewrite G1. cbn [obind]. rewrite lat_pos_ok by exact HL. cbn [obind]. rewrite G2. cbn [obind]. rewrite lat_pos_ok by exact HL. cbn [obind]. rewrite G3. reflexivity.
Qed.

(** ** The energy after a cluster flip *)
Lemma zsum_perm (f : site -> Z) a b : Permutation a b -> zsum (map f a) = zsum (map f b).
Proof. intros P. induction P; unfold zsum in *; cbn [map fold_right]; lia. Qed.
Lemma zsum_ext (f g : site -> Z) l : (forall p, In p l -> f p = g p) -> zsum (map f l) = zsum (map g l).
Proof. intros H. f_equal. apply map_ext_in, H. Qed.
Lemma zsum_plus (f g : site -> Z) l : zsum (map (fun p => f p + g p) l) = zsum (map f l) + zsum (map g l).
Proof. induction l as [|x l IH]; [reflexivity|]. unfold zsum in *. cbn [map fold_right]. rewrite IH. ring. Qed.
Lemma zsum_scale (f : site -> Z) k l : zsum (map (fun p => k * f p) l) = k * zsum (map f l).
Proof. induction l as [|x l IH]; [cbn; ring|]. unfold zsum in *. cbn [map fold_right]. rewrite IH. ring. Qed.
Lemma nodup_join {A} (a b : list A) : NoDup a -> NoDup b -> (forall x, In x a -> ~ In x b) -> NoDup (a ++ b).
Proof. intros Na Nb H. induction Na as [|x a X Na IH]; [exact Nb|]. cbn [app]. constructor; [intros K; apply in_app_or in K; destruct K as [K|K]; [exact (X K)|exact (H x (or_introl eq_refl) K)]|]. apply IH. intros y Y. apply H. right. exact Y. Qed.
Lemma nodup_prod (a b : list Z) : NoDup a -> NoDup b -> NoDup (list_prod a b).
Proof.
  intros Na Nb. induction Na as [|x a X Na IH]; [constructor|]. cbn [list_prod]. apply nodup_join; [apply FinFun.Injective_map_NoDup; [intros u v E; congruence|exact Nb]|exact IH|]. intros (u, v) K1 K2. apply in_map_iff in K1. destruct K1 as (w & K1 & _). injection K1 as -> ->. apply in_prod_iff in K2. apply X, K2.
Qed.
Lemma sites_nodup L : NoDup (all_sites L).
Proof. assert (N : NoDup (map Z.of_nat (seq 0 (Z.to_nat L)))) by (apply FinFun.Injective_map_NoDup; [intros x y; lia|apply seq_NoDup]). exact (nodup_prod _ _ N N). Qed.
Section Energy.
Variables (L : Z) (s s' : list Z) (C : list site).
Hypothesis HL : 1 <= L.
Hypothesis HN : NoDup C.
Hypothesis HC : forall p, In p C -> on_lattice L p.
Hypothesis HF : flipped L s C s'.

(** neighbours in the four directions *)
Definition east (p : site) : site := ((fst p + 1) mod L, snd p).
Definition west (p : site) : site := ((fst p - 1) mod L, snd p).
Definition south (p : site) : site := (fst p, (snd p + 1) mod L).
Definition north (p : site) : site := (fst p, (snd p - 1) mod L).
Lemma mod_back x : 0 <= x < L -> ((x - 1) mod L + 1) mod L = x.
Proof. intros H. rewrite Zplus_mod_idemp_l. replace (x - 1 + 1) with x by ring. apply Z.mod_small, H. Qed.
Lemma turn (g h : site -> site) F : (forall p, on_lattice L p -> on_lattice L (g p)) -> (forall p, on_lattice L p -> h (g p) = p) -> zsum (map F (all_sites L)) = zsum (map (fun p => F (g p)) (all_sites L)).
Proof.
  intros G K. transitivity (zsum (map F (map g (all_sites L)))); [|rewrite map_map; reflexivity]. apply zsum_perm, Permutation_sym, NoDup_Permutation_bis.
  - assert (X : forall l, NoDup l -> (forall p, In p l -> on_lattice L p) -> NoDup (map g l)). { induction l as [|p l IH]; intros N O; [constructor|]. inversion N; subst. cbn [map]. constructor; [|apply IH; [assumption|intros; apply O; right; assumption]]. intros I. apply in_map_iff in I. destruct I as (r & E & I). apply H1. rewrite <- (K p), <- E, K; [exact I|apply O; right; exact I|apply O; left; reflexivity]. }
    apply X; [apply sites_nodup|]. intros p I. apply (sites_in L HL), I.
  - rewrite map_length. reflexivity.
  - intros p I. apply in_map_iff in I. destruct I as (r & <- & I). apply (sites_in L HL), G, (sites_in L HL), I.
Qed.
Definition chi (p : site) : Z := if mem p C then 1 else 0.
Definition G (p r : site) : Z := chi p * (1 - chi r) * (spin L s p * spin L s r).
Lemma spin' p : on_lattice L p -> spin L s' p = (1 - 2 * chi p) * spin L s p.
Proof. intros Hp. destruct (HF p Hp) as (A & B). unfold chi. destruct (mem p C) eqn:M; [rewrite (A (proj1 (mem_ok _ _) M)); ring|rewrite (B (proj1 (mem_no _ _) M)); ring]. Qed.
Lemma chi_sum H : zsum (map (fun p => chi p * H p) (all_sites L)) = zsum (map H C).
Proof.
  transitivity (zsum (map H (filter (fun p => mem p C) (all_sites L)))).
  - generalize (all_sites L) as l. induction l as [|p l IH]; [reflexivity|]. cbn [map filter]. unfold chi at 1. destruct (mem p C); unfold zsum in *; cbn [map fold_right]; rewrite IH; ring.
  - apply zsum_perm, NoDup_Permutation; [apply NoDup_filter, sites_nodup|exact HN|]. intros p. rewrite filter_In, mem_ok, (sites_in L HL). split; [tauto|]. intros I. split; [apply HC, I|exact I].
Qed.
Lemma surface_sum : surface L s C = zsum (map (fun p => (1 - chi (west p)) * (spin L s p * spin L s (west p)) + (1 - chi (east p)) * (spin L s p * spin L s (east p)) + (1 - chi (north p)) * (spin L s p * spin L s (north p)) + (1 - chi (south p)) * (spin L s p * spin L s (south p))) C).
Proof.
  unfold surface. enough (X : forall D, zsum (map (fun b => spin L s (fst b) * spin L s (snd b)) (filter (fun b => negb (mem (snd b) C)) (bonds L D))) = zsum (map (fun p => (1 - chi (west p)) * (spin L s p * spin L s (west p)) + (1 - chi (east p)) * (spin L s p * spin L s (east p)) + (1 - chi (north p)) * (spin L s p * spin L s (north p)) + (1 - chi (south p)) * (spin L s p * spin L s (south p))) D)) by apply X.
  induction D as [|p D IH]; [reflexivity|]. unfold bonds in *. cbn [flat_map]. rewrite filter_app, map_app, zsum_app, IH. cbn [map]. unfold zsum at 3. cbn [fold_right]. fold (zsum (map (fun p0 => (1 - chi (west p0)) * (spin L s p0 * spin L s (west p0)) + (1 - chi (east p0)) * (spin L s p0 * spin L s (east p0)) + (1 - chi (north p0)) * (spin L s p0 * spin L s (north p0)) + (1 - chi (south p0)) * (spin L s p0 * spin L s (south p0))) D)). f_equal.
  unfold neighbours. fold (west p) (east p) (north p) (south p). cbn [map filter snd]. unfold chi. destruct (mem (west p) C), (mem (east p) C), (mem (north p) C), (mem (south p) C); unfold zsum; cbn [negb map fold_right fst snd]; ring.
Qed.
Lemma on_dirs p : on_lattice L p -> on_lattice L (east p) /\ on_lattice L (west p) /\ on_lattice L (south p) /\ on_lattice L (north p).
Proof. intros (A & B). unfold on_lattice, east, west, south, north. cbn [fst snd]. repeat split; try apply Z.mod_pos_bound; lia. Qed.
Lemma energy_flip : energy_sum L s' = energy_sum L s + 2 * surface L s C.
Proof.
  unfold energy_sum. rewrite surface_sum, <- chi_sum.
  assert (A : zsum (map (fun p => spin L s' p * (spin L s' (east p) + spin L s' (south p))) (all_sites L)) = zsum (map (fun p => spin L s p * (spin L s (east p) + spin L s (south p))) (all_sites L)) + -2 * (zsum (map (fun p => G p (east p)) (all_sites L)) + zsum (map (fun p => G (east p) p) (all_sites L)) + (zsum (map (fun p => G p (south p)) (all_sites L)) + zsum (map (fun p => G (south p) p) (all_sites L))))).
  { rewrite <- !zsum_plus, <- zsum_scale, <- zsum_plus. apply zsum_ext. intros p I. apply (sites_in L HL) in I. destruct (on_dirs p I) as (O1 & _ & O3 & _). rewrite (spin' p I), (spin' _ O1), (spin' _ O3). unfold G. ring. }
  rewrite (turn west east (fun p => G (east p) p)) in A; [|intros p Hp; apply (on_dirs p Hp)|intros (x, y) (Hx & Hy); unfold east, west; cbn [fst snd] in *; rewrite mod_back by exact Hx; reflexivity].
  rewrite (turn north south (fun p => G (south p) p)) in A; [|intros p Hp; apply (on_dirs p Hp)|intros (x, y) (Hx & Hy); unfold south, north; cbn [fst snd] in *; rewrite mod_back by exact Hy; reflexivity].
  rewrite (zsum_ext (fun p => G (east (west p)) (west p)) (fun p => G p (west p))) in A by (intros (x, y) I; apply (sites_in L HL) in I; destruct I as (Hx & Hy); unfold east, west; cbn [fst snd] in *; rewrite mod_back by exact Hx; reflexivity).
  rewrite (zsum_ext (fun p => G (south (north p)) (north p)) (fun p => G p (north p))) in A by (intros (x, y) I; apply (sites_in L HL) in I; destruct I as (Hx & Hy); unfold south, north; cbn [fst snd] in *; rewrite mod_back by exact Hy; reflexivity).
  change (- zsum (map (fun p => spin L s' p * (spin L s' (east p) + spin L s' (south p))) (all_sites L)) = - zsum (map (fun p => spin L s p * (spin L s (east p) + spin L s (south p))) (all_sites L)) + 2 * zsum (map (fun p => chi p * ((1 - chi (west p)) * (spin L s p * spin L s (west p)) + (1 - chi (east p)) * (spin L s p * spin L s (east p)) + (1 - chi (north p)) * (spin L s p * spin L s (north p)) + (1 - chi (south p)) * (spin L s p * spin L s (south p)))) (all_sites L))).
  rewrite (zsum_ext (fun p => chi p * _) (fun p => G p (east p) + G p (west p) + (G p (south p) + G p (north p))) (all_sites L)) by (intros p _; unfold G; ring). rewrite !zsum_plus. lia.
Qed.
End Energy.
