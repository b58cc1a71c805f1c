(** The coefficients of the asymptotic expansion: scaled to integers, their residual in the differential equation
    g - e g' = g^2 (g + e), bounds of the polynomial, and the array beta. *)
From Coq Require Import Reals Lra Lia Psatz ZArith List.
From Coquelicot Require Import Coquelicot.
From Verif Require Import AsyModel AsyFacts.
Import ListNotations.
Local Open Scope R_scope.

Definition S0 : Z := Eval vm_compute in (10 ^ 52)%Z.
Definition scaled (c : Z * Z) : Z := (fst c * 10 ^ (52 - snd c))%Z.
Definition zd : list Z := Eval vm_compute in map scaled (firstn 26 (tl coefficients)).
Definition zg : list Z := Eval vm_compute in S0 :: zd.
Lemma S0_pos : 0 < IZR S0.
Proof. apply IZR_lt. reflexivity. Qed.
Lemma S0_val : IZR S0 = 10 ^ 52.
Proof. rewrite pow_IZR. reflexivity. Qed.
Lemma used_scaled : used = map (fun z => IZR z / IZR S0) zd.
Proof.
  unfold used. replace (max_index 50 - 1)%nat with 26%nat by (vm_compute; reflexivity).
  assert (K : List.Forall (fun c => (0 <= snd c <= 52)%Z) (firstn 26 (tl coefficients))) by (repeat constructor; cbn; lia).
  change zd with (map scaled (firstn 26 (tl coefficients))). revert K. generalize (firstn 26 (tl coefficients)). intros l. induction l as [|[m e] l IH]; intros K; [reflexivity|].
  apply Forall_cons_iff in K. destruct K as [K K']. cbn [snd] in K. cbn [map]. f_equal; [|exact (IH K')]. unfold coeff, scaled. cbn [fst snd]. rewrite mult_IZR.
  assert (P : IZR (10 ^ e) <> 0) by (apply not_0_IZR; pose proof (Z.pow_pos_nonneg 10 e ltac:(lia) ltac:(lia)); lia).
  replace (IZR S0) with (IZR (10 ^ e) * IZR (10 ^ (52 - e))).
  - assert (P' : IZR (10 ^ (52 - e)) <> 0) by (apply not_0_IZR; pose proof (Z.pow_pos_nonneg 10 (52 - e) ltac:(lia) ltac:(lia)); lia). field. split; assumption.
  - rewrite <- mult_IZR, <- Z.pow_add_r by lia. replace (e + (52 - e))%Z with 52%Z by ring. reflexivity.
Qed.
Lemma scaled_eval l x : peval (map (fun z => IZR z / IZR S0) l) x = peval (zr l) x / IZR S0.
Proof. pose proof S0_pos. induction l as [|z l IH]; cbn [map peval zr]; [field; lra|]. fold (zr l). rewrite IH. field. lra. Qed.
Lemma scaled_pder l x : pder (map (fun z => IZR z / IZR S0) l) x = pder (zr l) x / IZR S0.
Proof. pose proof S0_pos. induction l as [|z l IH]; cbn [map pder zr]; [field; lra|]. fold (zr l). rewrite IH, scaled_eval. field. lra. Qed.

(** the polynomial with all coefficients d[0], ..., d[26] *)
Definition GG (e : R) : R := peval (1 :: used) e.
Definition GG' (e : R) : R := pder (1 :: used) e.
Lemma GG_deriv e : is_derive GG e (GG' e).
Proof. apply peval_deriv. Qed.
Lemma GG_list : 1 :: used = map (fun z => IZR z / IZR S0) zg.
Proof. rewrite used_scaled. change zg with (S0 :: zd). cbn [map]. f_equal. pose proof S0_pos. field. lra. Qed.
Lemma GG_eval e : GG e = peval (zr zg) e / IZR S0.
Proof. unfold GG. rewrite GG_list. apply scaled_eval. Qed.
Lemma GG'_eval e : GG' e = pder (zr zg) e / IZR S0.
Proof. unfold GG'. rewrite GG_list. apply scaled_pder. Qed.
Lemma GG_0 : GG 0 = 1.
Proof. unfold GG. cbn [peval]. ring. Qed.

(** the residual *)
Definition zres : list Z := Eval vm_compute in
  zadd (zscale (S0 * S0) (ztheta 0 zg)) (zscale (-1) (zmul (zmul zg zg) (zadd zg [0; S0]%Z))).
Lemma zres_ok : zadd (zscale (S0 * S0) (ztheta 0 zg)) (zscale (-1) (zmul (zmul zg zg) (zadd zg [0; S0]%Z))) = zres.
Proof. vm_compute. reflexivity. Qed.
Definition res (e : R) : R := GG e - e * GG' e - GG e * GG e * (GG e + e).
Lemma res_eval e : res e = peval (zr zres) e / IZR S0 ^ 3.
Proof.
  rewrite <- zres_ok, zadd_eval, !zscale_eval, ztheta_eval, !zmul_eval, zadd_eval, mult_IZR. unfold res. rewrite GG'_eval, GG_eval. cbn [zr map peval]. fold (zr zg).
  pose proof S0_pos. field. lra.
Qed.
Definition cE : R := 6 / 10 ^ 37.
Definition cK : R := 42 / 10 ^ 17.
Lemma res_bound e : Rabs e <= 12 / 5 -> Rabs (res e) <= cE * Rabs e + 26 * cK * Rabs e ^ 27.
Proof.
  intros He. rewrite res_eval. pose proof S0_pos as SP. assert (S3 : 0 < IZR S0 ^ 3) by (apply pow_lt, SP).
  unfold Rdiv. rewrite Rabs_mult, (Rabs_pos_eq (/ _)) by (left; apply Rinv_0_lt_compat, S3).
  assert (E : peval (zr zres) e = e * peval (zr (firstn 26 (tl zres))) e + e ^ 27 * peval (zr (skipn 27 zres)) e).
  { assert (Z0 : zr zres = 0 :: zr (tl zres)) by reflexivity. rewrite Z0. cbn [peval].
    rewrite (peval_split 26 (zr (tl zres)) e) by (vm_compute; lia). unfold zr. rewrite firstn_map, skipn_map. change (skipn 27 zres) with (skipn 26 (tl zres)). change 27%nat with (S 26). cbn [pow]. ring. }
  rewrite E. pose proof (ub_bound (firstn 26 (tl zres)) e He) as B1. pose proof (ub_bound (skipn 27 zres) e He) as B2.
  assert (C1 : IZR (ub (firstn 26 (tl zres))) <= cE * IZR S0 ^ 3).
  { unfold cE. replace (6 / 10 ^ 37 * IZR S0 ^ 3) with (IZR 6 * IZR (10 ^ 119)). { rewrite <- mult_IZR. apply IZR_le. vm_compute. discriminate. }
    rewrite S0_val. replace ((10 ^ 52) ^ 3) with (10 ^ 37 * 10 ^ 119) by (rewrite <- !pow_mult, <- pow_add; reflexivity). change (10 ^ 119)%Z with (10 ^ Z.of_nat 119)%Z. rewrite <- (pow_IZR 10 119). field; try (apply pow_nonzero; lra). }
  assert (C2 : IZR (ub (skipn 27 zres)) <= 26 * cK * IZR S0 ^ 3).
  { unfold cK. replace (26 * (42 / 10 ^ 17) * IZR S0 ^ 3) with (IZR (26 * 42) * IZR (10 ^ 139)). { rewrite <- mult_IZR. apply IZR_le. vm_compute. discriminate. }
    rewrite S0_val. replace ((10 ^ 52) ^ 3) with (10 ^ 17 * 10 ^ 139) by (rewrite <- !pow_mult, <- pow_add; reflexivity). change (10 ^ 139)%Z with (10 ^ Z.of_nat 139)%Z. rewrite <- (pow_IZR 10 139), mult_IZR. field; try (apply pow_nonzero; lra). }
  apply (Rmult_le_reg_r (IZR S0 ^ 3)); [exact S3|]. rewrite Rmult_assoc, Rinv_l, Rmult_1_r by lra.
  eapply Rle_trans; [apply Rabs_triang|]. rewrite !Rabs_mult, <- RPow_abs.
  replace ((cE * Rabs e + 26 * cK * Rabs e ^ 27) * IZR S0 ^ 3) with (Rabs e * (cE * IZR S0 ^ 3) + Rabs e ^ 27 * (26 * cK * IZR S0 ^ 3)) by ring.
  apply Rplus_le_compat; apply Rmult_le_compat_l; [apply Rabs_pos| |apply pow_le, Rabs_pos|]; lra.
Qed.

(** bounds of the polynomial *)
Lemma GG_head e : exists q, GG e = 1 + IZR (nth 1 zg 0%Z) / IZR S0 * e + IZR (nth 2 zg 0%Z) / IZR S0 * e ^ 2 + IZR (nth 3 zg 0%Z) / IZR S0 * e ^ 3 + e ^ 3 * (e * q) /\
  (Rabs e <= 12 / 5 -> Rabs q <= 42 / 10000).
Proof.
  exists (peval (zr (skipn 4 zg)) e / IZR S0). pose proof S0_pos as SP. split.
  - rewrite GG_eval, (peval_split 4 (zr zg) e) by (vm_compute; lia). unfold zr. rewrite skipn_map.
    change (firstn 4 (map IZR zg)) with [IZR S0; IZR (nth 1 zg 0%Z); IZR (nth 2 zg 0%Z); IZR (nth 3 zg 0%Z)]. cbn [peval]. set (X := peval (map IZR (skipn 4 zg)) e). clearbody X. field. lra.
  - intros He. pose proof (ub_bound (skipn 4 zg) e He) as B. unfold Rdiv. rewrite Rabs_mult, (Rabs_pos_eq (/ _)) by (left; apply Rinv_0_lt_compat, SP).
    apply (Rmult_le_reg_r (IZR S0)); [exact SP|]. rewrite Rmult_assoc, Rinv_l, Rmult_1_r by lra. eapply Rle_trans; [exact B|].
    assert (H : (10000 * ub (skipn 4 zg) <= 42 * S0)%Z) by (vm_compute; discriminate). apply IZR_le in H. rewrite !mult_IZR in H. lra.
Qed.
Lemma coeff_between (z lo hi : Z) (k : Z) : (lo * S0 <= k * z)%Z -> (k * z <= hi * S0)%Z -> (0 < k)%Z -> IZR lo / IZR k <= IZR z / IZR S0 <= IZR hi / IZR k.
Proof.
  intros A B K. apply IZR_le in A, B. rewrite !mult_IZR in A, B. apply IZR_lt in K. pose proof S0_pos. split.
  - apply (proj2 (Rle_div_l _ _ _ K)). unfold Rdiv. rewrite Rmult_assoc, (Rmult_comm (/ _)), <- Rmult_assoc. apply (proj1 (Rle_div_r _ _ _ H)). lra.
  - apply (proj2 (Rle_div_l _ _ _ H)). unfold Rdiv. rewrite Rmult_assoc, (Rmult_comm (/ _)), <- Rmult_assoc. apply (proj1 (Rle_div_r _ _ _ K)). lra.
Qed.
Lemma head_coeffs : -334 / 1000 <= IZR (nth 1 zg 0%Z) / IZR S0 <= -333 / 1000 /\ 83 / 1000 <= IZR (nth 2 zg 0%Z) / IZR S0 <= 84 / 1000 /\ -149 / 10000 <= IZR (nth 3 zg 0%Z) / IZR S0 <= -148 / 10000.
Proof. split; [|split]; apply coeff_between; vm_compute; (reflexivity || discriminate). Qed.
Lemma GG_left s : 0 <= s <= 12 / 5 -> 1 + 333 / 1000 * s + 83 / 1000 * s ^ 2 <= GG (- s).
Proof.
  intros Hs. destruct (GG_head (- s)) as (q & -> & Q). rewrite Rabs_Ropp, Rabs_pos_eq in Q by lra. specialize (Q ltac:(lra)). apply Rabs_le_between in Q.
  destruct head_coeffs as (C1 & C2 & C3). set (c1 := IZR (nth 1 zg 0%Z) / IZR S0) in *. set (c2 := IZR (nth 2 zg 0%Z) / IZR S0) in *. set (c3 := IZR (nth 3 zg 0%Z) / IZR S0) in *. clearbody c1 c2 c3.
  assert (S2 : 0 <= s ^ 2) by (apply pow_le; lra). assert (S3 : 0 <= s ^ 3) by (apply pow_le; lra).
  assert (SQ : - (102 / 10000) <= s * q) by nra. replace ((- s) ^ 2) with (s ^ 2) by ring. replace ((- s) ^ 3) with (- s ^ 3) by ring.
  replace (- s ^ 3 * (- s * q)) with (s ^ 3 * (s * q)) by ring. set (s2 := s ^ 2) in *. set (s3 := s ^ 3) in *. clearbody s2 s3. nra.
Qed.
Lemma GG_right s : 0 <= s <= 12 / 5 -> 1 / 10 <= GG s.
Proof.
  intros Hs. destruct (GG_head s) as (q & -> & Q). rewrite Rabs_pos_eq in Q by lra. specialize (Q ltac:(lra)). apply Rabs_le_between in Q.
  destruct head_coeffs as (C1 & C2 & C3). set (c1 := IZR (nth 1 zg 0%Z) / IZR S0) in *. set (c2 := IZR (nth 2 zg 0%Z) / IZR S0) in *. set (c3 := IZR (nth 3 zg 0%Z) / IZR S0) in *. clearbody c1 c2 c3.
  assert (S2 : 0 <= s ^ 2) by (apply pow_le; lra). assert (S3 : 0 <= s ^ 3) by (apply pow_le; lra). assert (SQ : - (102 / 10000) <= s * q) by nra.
  assert (S3' : s ^ 3 <= 12 / 5 * s ^ 2) by (replace (s ^ 3) with (s * s ^ 2) by ring; nra). set (s2 := s ^ 2) in *. set (s3 := s ^ 3) in *. set (sq := s * q) in *. clearbody s2 s3 sq. nra.
Qed.
Lemma GG_abs_sum : peval (map Rabs (1 :: used)) (12 / 5) <= 263 / 100.
Proof.
  rewrite GG_list, map_map. pose proof S0_pos as SP. pose proof (ub_eval zg) as U.
  assert (E : peval (map (fun z => Rabs (IZR z / IZR S0)) zg) (12 / 5) = peval (map Rabs (zr zg)) (12 / 5) / IZR S0).
  { unfold zr. rewrite map_map. generalize zg. intros l. induction l as [|z l IH]; cbn [map peval]; [field; lra|]. rewrite IH. unfold Rdiv at 1. rewrite Rabs_mult, (Rabs_pos_eq (/ _)) by (left; apply Rinv_0_lt_compat, SP). field. lra. }
  rewrite E. apply (proj2 (Rle_div_l _ _ _ SP)). eapply Rle_trans; [exact U|].
  assert (H : (100 * ub zg <= 263 * S0)%Z) by (vm_compute; discriminate). apply IZR_le in H. rewrite !mult_IZR in H. lra.
Qed.
Lemma GG_near e : Rabs e <= 12 / 5 -> Rabs (GG e) <= 263 / 100.
Proof. intros H. unfold GG. eapply Rle_trans; [apply peval_abs|]. eapply Rle_trans; [|apply GG_abs_sum]. apply peval_abs_mono. split; [apply Rabs_pos|exact H]. Qed.
Lemma GG_far e : 12 / 5 <= Rabs e -> Rabs (GG e) <= 263 / 100 * (Rabs e / (12 / 5)) ^ 81.
Proof.
  intros H. unfold GG. eapply Rle_trans; [apply peval_abs|]. eapply Rle_trans; [apply (peval_growth (1 :: used) 81 (12 / 5)); [|lra]|].
  - rewrite GG_list, map_length. vm_compute. lia.
  - rewrite Rmult_comm. apply Rmult_le_compat_r; [|exact GG_abs_sum]. apply pow_le. lra.
Qed.

(** ** Enclosures of the array beta for 1/a in [lo/den, hi/den], scaled by S0 *)
Definition cd (x y : Z) : Z := (- ((- x) / y))%Z.
Fixpoint ibetas (lo hi den : Z) (i : Z) (zs : list Z) : list (Z * Z) :=
  match zs with
  | [] => []
  | z :: zs =>
      let bs := ibetas lo hi den (i + 1) zs in
      match bs with
      | _ :: (l, u) :: _ => (Z.min (l * lo) (l * hi) * (i + 2) / den + z, cd (Z.max (u * lo) (u * hi) * (i + 2)) den + z)%Z :: bs
      | _ => (z, z) :: bs
      end
  end.
Definition inside (b : R) (c : Z * Z) : Prop := IZR (fst c) <= b * IZR S0 <= IZR (snd c).
Lemma ibetas_sound a lo hi den : (0 <= lo <= hi)%Z -> (0 < den)%Z -> 0 < a -> IZR lo / IZR den <= / a <= IZR hi / IZR den ->
  forall zs i, (0 <= i)%Z -> Forall2 inside (betas a (IZR i) (map (fun z => IZR z / IZR S0) zs)) (ibetas lo hi den i zs).
Proof.
  intros Hl Hd Ha Ht. pose proof S0_pos as SP. apply IZR_lt in Hd as Hd'. assert (Hl1 : 0 <= IZR lo) by (apply IZR_le; lia). assert (Hl2 : IZR lo <= IZR hi) by (apply IZR_le; lia).
  induction zs as [|z zs IH]; intros i Hi; cbn [map betas ibetas]; [constructor|]. specialize (IH (i + 1)%Z ltac:(lia)). rewrite plus_IZR in IH.
  assert (Z1 : inside (IZR z / IZR S0) (z, z)) by (split; cbn [fst snd]; right; field; lra).
  inversion IH as [|b1 c1 bs cs H1 H2 EB EC]; [constructor; [exact Z1|constructor]|].
  inversion H2 as [|b2 [l u] bs' cs' H3 H4 EB' EC']; [constructor; [exact Z1|constructor; [exact H1|constructor]]|].
  constructor; [|constructor; [exact H1|constructor; assumption]]. clear IH Z1 EB EC EB' EC' H1 H2 H4. destruct H3 as [L U]. cbn [fst snd] in L, U. split; cbn [fst snd]; rewrite plus_IZR.
  - replace ((b2 * (IZR i + 2) / a + IZR z / IZR S0) * IZR S0) with (b2 * IZR S0 * / a * (IZR i + 2) + IZR z) by (field; lra). apply Rplus_le_compat_r.
    assert (I0 : 0 <= IZR i + 2) by (apply IZR_le in Hi; lra).
    assert (K : IZR (Z.min (l * lo) (l * hi)) / IZR den <= b2 * IZR S0 * / a).
    { apply Rle_trans with (IZR l * / a); [|apply Rmult_le_compat_r; [left; apply Rinv_0_lt_compat, Ha|exact L]].
      destruct (Z_le_gt_dec 0 l) as [C|C].
      - rewrite Z.min_l by nia. rewrite mult_IZR. unfold Rdiv. rewrite Rmult_assoc. apply Rmult_le_compat_l; [apply IZR_le, C|]. apply Ht.
      - rewrite Z.min_r by nia. rewrite mult_IZR. unfold Rdiv. rewrite Rmult_assoc. apply Rmult_le_compat_neg_l; [apply IZR_le; lia|]. apply Ht. }
    set (m := Z.min (l * lo) (l * hi)) in *. pose proof (Z.mul_div_le (m * (i + 2)) den Hd) as F. apply IZR_le in F. rewrite !mult_IZR, plus_IZR in F.
    apply Rle_trans with (IZR m / IZR den * (IZR i + 2)); [|apply Rmult_le_compat_r; assumption].
    apply (Rmult_le_reg_l (IZR den)); [exact Hd'|]. eapply Rle_trans; [exact F|]. right. field. lra.
  - replace ((b2 * (IZR i + 2) / a + IZR z / IZR S0) * IZR S0) with (b2 * IZR S0 * / a * (IZR i + 2) + IZR z) by (field; lra). apply Rplus_le_compat_r.
    assert (I0 : 0 <= IZR i + 2) by (apply IZR_le in Hi; lra).
    assert (K : b2 * IZR S0 * / a <= IZR (Z.max (u * lo) (u * hi)) / IZR den).
    { apply Rle_trans with (IZR u * / a); [apply Rmult_le_compat_r; [left; apply Rinv_0_lt_compat, Ha|exact U]|].
      destruct (Z_le_gt_dec 0 u) as [C|C].
      - rewrite Z.max_r by nia. rewrite mult_IZR. unfold Rdiv. rewrite Rmult_assoc. apply Rmult_le_compat_l; [apply IZR_le, C|]. apply Ht.
      - rewrite Z.max_l by nia. rewrite mult_IZR. unfold Rdiv. rewrite Rmult_assoc. apply Rmult_le_compat_neg_l; [apply IZR_le; lia|]. apply Ht. }
    set (m := Z.max (u * lo) (u * hi)) in *. unfold cd. pose proof (Z.mul_div_le (- (m * (i + 2))) den Hd) as F.
    assert (F' : (m * (i + 2) <= den * - (- (m * (i + 2)) / den))%Z) by lia. apply IZR_le in F'. rewrite !mult_IZR, plus_IZR in F'.
    apply Rle_trans with (IZR m / IZR den * (IZR i + 2)); [apply Rmult_le_compat_r; assumption|].
    apply (Rmult_le_reg_l (IZR den)); [exact Hd'|]. eapply Rle_trans; [|exact F']. right. field. lra.
Qed.
Lemma beta_inside a lo hi den : (0 <= lo <= hi)%Z -> (0 < den)%Z -> 0 < a -> IZR lo / IZR den <= / a <= IZR hi / IZR den ->
  Forall2 inside (betas a 0 used) (ibetas lo hi den 0 zd).
Proof. intros. rewrite used_scaled. apply (ibetas_sound a lo hi den); try assumption. lia. Qed.
Lemma Forall2_nth (bs : list R) (cs : list (Z * Z)) k : Forall2 inside bs cs -> (k < length cs)%nat -> inside (nth k bs 0) (nth k cs (0, 0)%Z).
Proof. intros H. revert k. induction H as [|b c bs cs H HF IH]; intros k Hk; [cbn in Hk; lia|]. destruct k; cbn [nth]; [exact H|]. apply IH. cbn in Hk. lia. Qed.

(** 1 + beta[1]/a is at least 1 *)
Lemma beta1_nonneg a : 15 <= a -> 0 <= nth 1 (betas a 0 used) 0.
Proof.
  intros Ha. assert (B : Forall2 inside (betas a 0 used) (ibetas 0 1 15 0 zd)).
  { apply beta_inside; [lia|lia|lra|]. assert (0 < / a) by (apply Rinv_0_lt_compat; lra). assert (/ a <= / 15) by (apply Rinv_le_contravar; lra). lra. }
  pose proof (Forall2_nth _ _ 1 B ltac:(vm_compute; lia)) as (L & _). pose proof S0_pos as SP.
  assert (P : (0 <= fst (nth 1 (ibetas 0 1 15 0 zd) (0, 0)%Z))%Z) by (vm_compute; discriminate). apply IZR_le in P.
  apply (Rmult_le_reg_r (IZR S0)); [exact SP|]. lra.
Qed.
(** no element of beta vanishes, so that the summation does not stop early *)
Definition regular (a : R) : Prop := forall k, (k < 26)%nat -> nth k (betas a 0 used) 0 <> 0.
Definition nonzero (c : Z * Z) : bool := (Z.ltb 0 (fst c) || Z.ltb (snd c) 0)%bool.
Lemma regular_check a lo hi den : (0 <= lo <= hi)%Z -> (0 < den)%Z -> 0 < a -> IZR lo / IZR den <= / a <= IZR hi / IZR den ->
  length (ibetas lo hi den 0 zd) = 26%nat -> forallb nonzero (ibetas lo hi den 0 zd) = true -> regular a.
Proof.
  intros H1 H2 H3 H4 HL HN k Hk. pose proof (beta_inside a lo hi den H1 H2 H3 H4) as B. rewrite <- HL in Hk. destruct (Forall2_nth _ _ k B Hk) as (L & U).
  assert (N : nonzero (nth k (ibetas lo hi den 0 zd) (0, 0)%Z) = true) by (apply (proj1 (forallb_forall _ _) HN), nth_In, Hk).
  intros E. rewrite E, Rmult_0_l in L, U. apply Bool.orb_true_iff in N. destruct N as [N|N]; apply Z.ltb_lt in N; apply IZR_lt in N; lra.
Qed.
Lemma regular_range a (p q : Z) : (0 < p <= q)%Z -> IZR p / 100 <= a <= IZR q / 100 ->
  length (ibetas (100 * p) (100 * q) (p * q) 0 zd) = 26%nat -> forallb nonzero (ibetas (100 * p) (100 * q) (p * q) 0 zd) = true -> regular a.
Proof.
  intros Hp Ha HL HN. assert (P : 0 < IZR p) by (apply IZR_lt; lia). assert (Q : 0 < IZR q) by (apply IZR_lt; lia). assert (A : 0 < a) by lra.
  apply (regular_check a (100 * p) (100 * q) (p * q)); [lia|nia|exact A| |exact HL|exact HN]. rewrite !mult_IZR. split.
  - replace (100 * IZR p / (IZR p * IZR q)) with (/ (IZR q / 100)) by (field; lra). apply Rinv_le_contravar; lra.
  - replace (100 * IZR q / (IZR p * IZR q)) with (/ (IZR p / 100)) by (field; lra). apply Rinv_le_contravar; lra.
Qed.
Lemma regular_all a : 15 <= a -> a <= 1617 / 100 \/ 1618 / 100 <= a <= 2652 / 100 \/ 2654 / 100 <= a <= 3939 / 100 \/ 3941 / 100 <= a -> regular a.
Proof.
  intros Ha [H|[H|[H|H]]].
  - destruct (Rle_dec a (1616 / 100)); [apply (regular_range a 1500 1616)|apply (regular_range a 1616 1617)]; (lia || lra || (vm_compute; reflexivity)).
  - destruct (Rle_dec a (1634 / 100)); [|destruct (Rle_dec a (2637 / 100))];
      [apply (regular_range a 1618 1634)|apply (regular_range a 1634 2637)|apply (regular_range a 2637 2652)]; (lia || lra || (vm_compute; reflexivity)).
  - destruct (Rle_dec a (2828 / 100)); [apply (regular_range a 2654 2828)|apply (regular_range a 2828 3939)]; (lia || lra || (vm_compute; reflexivity)).
  - destruct (Rle_dec a 40); [apply (regular_range a 3941 4000); (lia || lra || (vm_compute; reflexivity))|].
    apply (regular_check a 0 1 40); try lia; [lra| |vm_compute; reflexivity|vm_compute; reflexivity].
    assert (0 < / a) by (apply Rinv_0_lt_compat; lra). assert (/ a <= / 40) by (apply Rinv_le_contravar; lra). lra.
Qed.
