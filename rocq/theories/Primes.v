(** Certified primes: the prime factors of the periods of the library's engines. *)
From Coq Require Import ZArith Znumtheory Zpow_facts List Bool Lia Permutation.
From Verif Require Import Base BaseFacts Cong Pratt.
Import ListNotations.
Open Scope Z_scope.

Definition mem (q : Z) (l : list Z) : bool := existsb (Z.eqb q) l.
Lemma mem_in q l : mem q l = true -> In q l.
Proof. unfold mem. rewrite existsb_exists. intros (x & H & E). apply Z.eqb_eq in E. subst. exact H. Qed.

(** ** Fermat's little theorem *)
Definition residues (p : Z) : list Z := map Z.of_nat (seq 1 (Z.to_nat (p - 1))).
Lemma residues_in p x : In x (residues p) <-> 1 <= x < p.
Proof.
  unfold residues. rewrite in_map_iff. split.
  - intros (i & <- & H). apply in_seq in H. lia.
  - intros H. exists (Z.to_nat x). rewrite Z2Nat.id by lia. split; [reflexivity|]. apply in_seq. lia.
Qed.
Lemma residues_nodup p : NoDup (residues p).
Proof. unfold residues. apply FinFun.Injective_map_NoDup; [intros x y; lia | apply seq_NoDup]. Qed.
Lemma prod_perm l l' : Permutation l l' -> prod l = prod l'.
Proof. induction 1; unfold prod in *; cbn [fold_right]; lia. Qed.
Lemma prod_scaled p a l : cong p (prod (map (fun x => (a * x) mod p) l)) (a ^ Z.of_nat (length l) * prod l).
Proof.
  induction l as [|x l IH]; [reflexivity|]. cbn [map prod fold_right length]. fold (prod (map (fun x => (a * x) mod p) l)). fold (prod l).
  rewrite IH, cong_mod, Nat2Z.inj_succ, Z.pow_succ_r by lia. exists 0. ring.
Qed.
Lemma prime_not_divides_prod p l : prime p -> (forall x, In x l -> 1 <= x < p) -> ~ (p | prod l).
Proof.
  intros Hp. induction l as [|x l IH]; intros H D; cbn [prod fold_right] in D.
  - apply Z.divide_1_r_nonneg in D; assert (G := prime_ge_2 p Hp); lia.
  - destruct (prime_mult p Hp _ _ D) as [D'|D'].
    + assert (B := H x (or_introl eq_refl)). apply Z.divide_pos_le in D'; lia.
    + apply IH; [intros y Hy; apply H; right; exact Hy | exact D'].
Qed.
Lemma fermat p a : prime p -> ~ (p | a) -> cong p (a ^ (p - 1)) 1.
Proof.
  intros Hp Ha. assert (G := prime_ge_2 p Hp).
  assert (P : Permutation (map (fun x => (a * x) mod p) (residues p)) (residues p)).
  { apply NoDup_Permutation_bis.
    - assert (I : forall l, (forall x, In x l -> 1 <= x < p) -> NoDup l -> NoDup (map (fun x => (a * x) mod p) l)).
      { induction l as [|x l IH]; intros B N; cbn [map]; [constructor|]. inversion N as [|? ? N1 N2]; subst. constructor.
        - rewrite in_map_iff. intros (y & E & Hy). apply N1. apply (proj2 (cong_iff p _ _ ltac:(lia))) in E.
          unfold cong in E. replace (a * y - a * x) with (a * (y - x)) in E by ring.
          destruct (prime_mult p Hp _ _ E) as [D|D]; [contradiction|].
          assert (Bx := B x (or_introl eq_refl)). assert (By := B y (or_intror Hy)).
          replace x with y; [exact Hy|]. apply (cong_eq p); [lia | lia | exact D].
        - apply IH; [intros y Hy; apply B; right; exact Hy | exact N2]. }
      apply I; [intros x; apply residues_in | apply residues_nodup].
    - rewrite map_length. lia.
    - intros y Hy. apply in_map_iff in Hy. destruct Hy as (x & <- & Hx). apply residues_in in Hx. apply residues_in.
      assert (B := Z.mod_pos_bound (a * x) p ltac:(lia)). assert ((a * x) mod p <> 0); [|lia].
      intros Z0. apply Z.mod_divide in Z0; [|lia]. destruct (prime_mult p Hp _ _ Z0) as [D|D]; [contradiction|].
      apply Z.divide_pos_le in D; lia. }
  apply prod_perm in P. assert (S := prod_scaled p a (residues p)). rewrite P in S.
  unfold residues in S at 2. rewrite map_length, seq_length, Z2Nat.id in S by lia.
  symmetry in S. unfold cong in S. replace (a ^ (p - 1) * prod (residues p) - prod (residues p)) with ((a ^ (p - 1) - 1) * prod (residues p)) in S by ring.
  destruct (prime_mult p Hp _ _ S) as [D|D]; [exact D|].
  elim (prime_not_divides_prod p (residues p) Hp); [intros x; apply residues_in | exact D].
Qed.

(** ** Pocklington's test *)
Section Pocklington.
Variables (N a : Z) (l : list Z).
Hypothesis HN : 1 < N.
Hypothesis Hl : forall q, In q l -> prime q.
Hypothesis Hdup : NoDup l.
Hypothesis Hdiv : forall q, In q l -> (q | N - 1).
Hypothesis H1 : cong N (a ^ (N - 1)) 1.
Hypothesis Hq : forall q, In q l -> rel_prime (a ^ ((N - 1) / q) - 1) N.
Hypothesis Hbig : N < prod l * prod l.

Lemma pock_factor p q : prime p -> (p | N) -> In q l -> (q | p - 1).
Proof.
  intros Hp D Hin. assert (G := prime_ge_2 p Hp). assert (Q2 := prime_ge_2 q (Hl q Hin)).
  destruct (Zdivide_dec q (p - 1)) as [Y|No]; [exact Y|exfalso].
  set (b := a ^ ((N - 1) / q)).
  assert (E0 : 0 <= (N - 1) / q) by (apply Z.div_pos; lia).
  assert (B1 : cong p (b ^ q) 1).
  { unfold b. rewrite <- Z.pow_mul_r by lia. destruct (Hdiv q Hin) as [c Hc].
    replace ((N - 1) / q * q) with (N - 1); [|rewrite Hc, Z.div_mul by lia; reflexivity].
    unfold cong in *. apply Z.divide_trans with N; assumption. }
  assert (Bp : ~ (p | b)).
  { intros [c Hc]. destruct B1 as [d Hd]. rewrite Hc, Z.pow_mul_l in Hd.
    replace q with (Z.succ (q - 1)) in Hd by lia. rewrite (Z.pow_succ_r p) in Hd by lia.
    assert (D1 : (p | 1)) by (exists (c ^ Z.succ (q - 1) * p ^ (q - 1) - d); lia). apply Z.divide_1_r_nonneg in D1; lia. }
  assert (F := fermat p b Hp Bp).
  assert (RP : rel_prime q (p - 1)) by (apply prime_rel_prime; [apply Hl, Hin | exact No]).
  destruct (rel_prime_bezout _ _ RP) as [u v BZ].
  (* u*q + v*(p-1) = 1: choose representatives with nonnegative exponents *)
  set (u' := u mod (p - 1) + (p - 1)).
  assert (U1 : 1 <= u') by (assert (M := Z.mod_pos_bound u (p - 1) ltac:(lia)); unfold u'; lia).
  assert (DM := Z.div_mod u (p - 1) ltac:(lia)).
  set (t := - v - (u / (p - 1)) * q + q).
  assert (E : u' * q = 1 + t * (p - 1)).
  { unfold t, u'. replace (u mod (p - 1)) with (u - (p - 1) * (u / (p - 1))) by lia.
    replace ((u - (p - 1) * (u / (p - 1)) + (p - 1)) * q) with (u * q - (u / (p - 1)) * q * (p - 1) + q * (p - 1)) by ring.
    replace (u * q) with (1 - v * (p - 1)) by lia. ring. }
  assert (T0 : 0 <= t).
  { destruct (Z.lt_ge_cases t 0) as [L|]; [exfalso | assumption].
    assert (1 * 2 <= u' * q) by (apply Z.mul_le_mono_nonneg; lia).
    assert (t * (p - 1) <= (-1) * (p - 1)) by (apply Z.mul_le_mono_nonneg_r; lia). lia. }
  clearbody t u'.
  assert (C : cong p b 1).
  { assert (A1 : cong p (b ^ (u' * q)) 1) by (rewrite Z.mul_comm, Z.pow_mul_r by lia; rewrite B1, Z.pow_1_l by lia; reflexivity).
    rewrite E, Z.pow_add_r, Z.pow_1_r in A1 by nia.
    rewrite (Z.mul_comm t), Z.pow_mul_r, F, Z.pow_1_l, Z.mul_1_r in A1 by lia. exact A1. }
  destruct (rel_prime_bezout _ _ (Hq q Hin)) as [x y XY]. fold b in XY.
  assert (D1 : (p | 1)).
  { rewrite <- XY. apply Z.divide_add_r; apply Z.divide_mul_r; [exact C | exact D]. }
  apply Z.divide_1_r_nonneg in D1; lia.
Qed.

Lemma prod_divides x : forall l', (forall q, In q l' -> prime q) -> NoDup l' -> (forall q, In q l' -> (q | x)) -> (prod l' | x).
Proof.
  induction l' as [|q l' IH]; intros P Nd D; cbn [prod fold_right]; [apply Z.divide_1_l|].
  inversion Nd as [|? ? N1 N2]; subst.
  destruct IH as [c Hc]; [intros; apply P; right; assumption | exact N2 | intros; apply D; right; assumption |].
  fold (prod l') in *. assert (Dq := D q (or_introl eq_refl)). rewrite Hc in Dq.
  assert (RP : rel_prime q (prod l')).
  { clear - P N1. induction l' as [|r l' IH]; [apply rel_prime_sym, rel_prime_1|].
    cbn [prod fold_right]. apply rel_prime_mult.
    - apply prime_rel_prime; [apply P; left; reflexivity|]. intros Dv. apply N1. left.
      symmetry. apply prime_div_prime; [apply P; left; reflexivity | apply P; right; left; reflexivity | exact Dv].
    - apply IH; [intros z [<-|Hz]; apply P; [left; reflexivity | right; right; exact Hz] | intros Hz; apply N1; right; exact Hz]. }
  rewrite Z.mul_comm in Dq. apply Gauss in Dq; [|exact RP]. destruct Dq as [d Hd]. exists d. rewrite Hc, Hd. ring.
Qed.

Theorem pocklington : prime N.
Proof.
  destruct (prime_dec N) as [Y|No]; [exact Y | exfalso].
  destruct (not_prime_divide N HN No) as (d & Hd & [e He]).
  assert (E2 : 1 < e < N) by nia.
  (* a prime factor of the smaller of d and e *)
  assert (K : forall z, 1 < z -> (z | N) -> prod l < z).
  { intros z Hz Dz. assert (PF : exists p, prime p /\ (p | z)).
    { clear - Hz. assert (Z0 : 0 <= z) by lia. revert Hz. pattern z. apply Z_lt_induction; [|exact Z0]. clear z Z0. intros z IH Hz.
      destruct (prime_dec z) as [Y|No]; [exists z; split; [exact Y | apply Z.divide_refl]|].
      destruct (not_prime_divide z Hz No) as (y & Hy & Dy). destruct (IH y) as (p & Pp & Dp); [lia | lia |].
      exists p. split; [exact Pp | apply Z.divide_trans with y; assumption]. }
    destruct PF as (p & Pp & Dp). assert (G := prime_ge_2 p Pp).
    assert (DN : (p | N)) by (apply Z.divide_trans with z; assumption).
    assert (DP : (prod l | p - 1)) by (apply prod_divides; [exact Hl | exact Hdup | intros q Hin; apply (pock_factor p q Pp DN Hin)]).
    apply Z.divide_pos_le in DP; [|lia]. apply Z.divide_pos_le in Dp; lia. }
  assert (K1 := K d ltac:(lia) ltac:(exists e; exact He)). assert (K2 := K e ltac:(lia) ltac:(exists d; lia)).
  assert (0 <= prod l).
  { clear - Hl. induction l as [|q l' IH]; cbn [prod fold_right]; [lia|]. fold (prod l').
    assert (G := prime_ge_2 q (Hl q (or_introl eq_refl))). assert (0 <= prod l') by (apply IH; intros; apply Hl; right; assumption). nia. }
  nia.
Qed.
End Pocklington.

(** ** Tables *)

(** Complete factorisation of N - 1 (with repetition; each prime is tested once), or, for large N, some different
    prime factors with product above the square root of N. *)
Definition pratt_entry (known : list Z) (N g : Z) (l : list Z) : bool :=
  forallb (fun q => mem q known) l && (1 <? N) && (prod l =? N - 1) && (Zpow_mod g (N - 1) N =? 1)
  && forallb (fun q => negb (Zpow_mod g ((N - 1) / q) N =? 1)) (nodup Z.eq_dec l).
Fixpoint nodup_check (l : list Z) : bool := match l with [] => true | x :: l' => negb (mem x l') && nodup_check l' end.
Definition pock_entry (known : list Z) (N a : Z) (l : list Z) : bool :=
  forallb (fun q => mem q known) l && (1 <? N) && nodup_check l && (N <? prod l * prod l)
  && forallb (fun q => (N - 1 =? q * ((N - 1) / q)) && let b := Zpow_mod a ((N - 1) / q) N in (Zpow_mod b q N =? 1) && (Z.gcd (b - 1) N =? 1)) l.
Definition entry_check (known : list Z) (N g : Z) (l : list Z) : bool := pratt_entry known N g l || pock_entry known N g l.
Fixpoint table_check (known : list Z) (T : list (Z * (Z * list Z))) : bool :=
  match T with
  | [] => true
  | (N, (g, l)) :: T' => entry_check known N g l && table_check (N :: known) T'
  end.

Lemma pratt_entry_ok known N g l : (forall q, In q known -> prime q) -> pratt_entry known N g l = true -> prime N.
Proof.
  intros K H. unfold pratt_entry in H. rewrite !andb_true_iff in H. destruct H as ((((Hl & HN) & Hp) & H1) & Hq).
  apply Z.ltb_lt in HN. apply Z.eqb_eq in Hp, H1. rewrite Zpow_mod_correct in H1 by lia.
  rewrite forallb_forall in Hl, Hq. apply (pratt N g l); try assumption.
  - intros q Hin. apply K, mem_in, Hl, Hin.
  - intros q Hin E. assert (In' : In q (nodup Z.eq_dec l)) by (apply nodup_In, Hin).
    specialize (Hq q In'). rewrite Zpow_mod_correct in Hq by lia. rewrite E in Hq. discriminate Hq.
Qed.
Lemma nodup_check_ok l : nodup_check l = true -> NoDup l.
Proof.
  induction l as [|x l IH]; intros H; [constructor|]. cbn [nodup_check] in H. apply andb_prop in H. destruct H as (H1 & H2).
  constructor; [|apply IH, H2]. intros Hin. apply negb_true_iff in H1. unfold mem in H1.
  rewrite <- not_true_iff_false, existsb_exists in H1. apply H1. exists x. split; [exact Hin | apply Z.eqb_refl].
Qed.
Lemma pock_entry_ok known N a l : (forall q, In q known -> prime q) -> pock_entry known N a l = true -> prime N.
Proof.
  intros K H. unfold pock_entry in H. rewrite !andb_true_iff in H. destruct H as ((((Hl & HN) & Hd) & Hb) & Hq).
  apply Z.ltb_lt in HN, Hb. apply nodup_check_ok in Hd. rewrite forallb_forall in Hl, Hq.
  assert (P : forall q, In q l -> prime q) by (intros q Hin; apply K, mem_in, Hl, Hin).
  assert (L0 : exists q, In q l).
  { destruct l as [|q l']; [cbn [prod fold_right] in Hb; lia | exists q; left; reflexivity]. }
  assert (Q : forall q, In q l -> N - 1 = q * ((N - 1) / q) /\ cong N (a ^ (N - 1)) 1 /\ rel_prime (a ^ ((N - 1) / q) - 1) N).
  { intros q Hin. specialize (Hq q Hin). cbv zeta in Hq. rewrite !andb_true_iff, !Z.eqb_eq in Hq. destruct Hq as (E & B1 & G).
    assert (Q2 := prime_ge_2 q (P q Hin)). assert (E0 : 0 <= (N - 1) / q) by (apply Z.div_pos; lia).
    rewrite !Zpow_mod_correct in B1 by lia. rewrite Zpow_mod_correct in G by lia. split; [exact E|]. split.
    - rewrite E at 1. rewrite Z.mul_comm, Z.pow_mul_r by lia. apply cong_iff; [lia|]. rewrite Z.mod_1_l by lia. rewrite Zpower_mod by lia. exact B1.
    - apply Zgcd_1_rel_prime in G. destruct (rel_prime_bezout _ _ G) as [x y XY].
      apply bezout_rel_prime. assert (M := Z.div_mod (a ^ ((N - 1) / q)) N ltac:(lia)).
      apply Bezout_intro with (u := x) (v := y - x * (a ^ ((N - 1) / q) / N)). etransitivity; [|exact XY]. clear - M. set (A := a ^ ((N - 1) / q)) in *. replace (A mod N) with (A - N * (A / N)) by lia. ring. }
  apply (pocklington N a l); try assumption.
  - intros q Hin. exists ((N - 1) / q). rewrite Z.mul_comm. apply Q, Hin.
  - destruct L0 as (q & Hin). apply (Q q Hin).
  - intros q Hin. apply Q, Hin.
Qed.
Lemma table_check_ok T : forall known, (forall q, In q known -> prime q) -> table_check known T = true ->
  forall q, In q known \/ In q (map fst T) -> prime q.
Proof.
  induction T as [|(N & g & l) T IH]; intros known K H q Hq.
  - destruct Hq as [Hq|[]]. apply K, Hq.
  - cbn [table_check] in H. apply andb_prop in H. destruct H as (HE & HT). unfold entry_check in HE. apply orb_prop in HE.
    apply (IH (N :: known)); [|exact HT|].
    + intros q' [<-|Hin]; [|apply K, Hin]. destruct HE as [HE|HE]; [apply (pratt_entry_ok known _ _ _ K HE) | apply (pock_entry_ok known _ _ _ K HE)].
    + destruct Hq as [Hq|[<-|Hq]]; [left; right; exact Hq | left; left; reflexivity | right; exact Hq].
Qed.

Definition small_list : list Z :=
  [2; 3; 5; 7; 11; 13; 17; 19; 23; 31; 37; 41; 43; 47; 61; 67; 71; 83; 107; 131; 137; 139; 151; 173; 181; 193; 197; 211; 233; 251; 257; 269; 271; 311; 331; 347; 349; 373; 457; 461; 601; 641; 647].
Definition prime_table : list (Z * (Z * list Z)) :=
  [(727, (5, [2; 3; 11; 11]));
   (733, (6, [2; 2; 3; 61]));
   (823, (3, [2; 3; 137]));
   (1709, (3, [2; 2; 7; 61]));
   (1783, (10, [2; 3; 3; 3; 3; 11]));
   (1801, (11, [2; 2; 2; 3; 3; 5; 5]));
   (1867, (2, [2; 3; 311]));
   (3313, (10, [2; 2; 2; 2; 3; 3; 23]));
   (3547, (2, [2; 3; 3; 197]));
   (4051, (10, [2; 3; 3; 3; 3; 5; 5]));
   (5503, (3, [2; 3; 7; 131]));
   (10223, (5, [2; 19; 269]));
   (12973, (14, [2; 2; 3; 23; 47]));
   (16657, (5, [2; 2; 2; 2; 3; 347]));
   (17449, (14, [2; 2; 2; 3; 727]));
   (22013, (2, [2; 2; 5503]));
   (27509, (2, [2; 2; 13; 23; 23]));
   (38767, (5, [2; 3; 7; 13; 71]));
   (44027, (2, [2; 22013]));
   (52673, (3, [2; 2; 2; 2; 2; 2; 823]));
   (65537, (3, [2; 2; 2; 2; 2; 2; 2; 2; 2; 2; 2; 2; 2; 2; 2; 2]));
   (98327, (5, [2; 211; 233]));
   (108191, (13, [2; 5; 31; 349]));
   (129401, (3, [2; 2; 2; 5; 5; 647]));
   (166571, (2, [2; 5; 16657]));
   (184711, (3, [2; 3; 5; 47; 131]));
   (196379, (2, [2; 7; 13; 13; 83]));
   (258803, (2, [2; 129401]));
   (274177, (5, [2; 2; 2; 2; 2; 2; 2; 2; 3; 3; 7; 17]));
   (419527, (5, [2; 3; 3; 3; 17; 457]));
   (842887, (3, [2; 3; 3; 3; 3; 11; 11; 43]));
   (1896229, (2, [2; 2; 3; 3; 52673]));
   (2556503, (5, [2; 13; 98327]));
   (2998279, (3, [2; 3; 3; 166571]));
   (6700417, (5, [2; 2; 2; 2; 2; 2; 2; 3; 17449]));
   (6939437, (2, [2; 2; 7; 139; 1783]));
   (35791043, (2, [2; 7; 2556503]));
   (41297327, (5, [2; 7; 67; 44027]));
   (55515497, (3, [2; 2; 2; 6939437]));
   (134275891, (2, [2; 3; 5; 7; 193; 3313]));
   (229668251, (7, [2; 5; 5; 5; 7; 37; 3547]));
   (362122877, (2, [2; 2; 461; 196379]));
   (529510939, (3, [2; 3; 11; 31; 258803]));
   (1073730503, (5, [2; 13; 41297327]));
   (1073731289, (3, [2; 2; 2; 7; 17; 41; 27509]));
   (1569635029, (6, [2; 2; 3; 3; 13; 31; 108191]));
   (2147461007, (5, [2; 1073730503]));
   (2147462579, (2, [2; 1073731289]));
   (2903110321, (7, [2; 2; 2; 2; 3; 5; 11; 19; 31; 1867]));
   (18533742247, (6, [2; 3; 3; 3; 181; 1896229]));
   (225964675249, (2, [362122877]));
   (269089806001, (3, [10223; 107]));
   (368140581013, (3, [38767; 12973]));
   (733803839347, (2, [55515497]));
   (1864388056649, (2, [419527; 173]));
   (17700247951621, (2, [134275891]));
   (67280421310721, (3, [2998279; 373]));
   (116503103764643, (2, [18533742247]));
   (41113485425223749, (2, [1864388056649]));
   (59649589127497217, (3, [116503103764643]));
   (4611595530352793821, (2, [2147462579; 35791043]));
   (4710883168879506001, (3, [842887; 184711]));
   (5519485418336288303251, (3, [41113485425223749]));
   (5704689200685129054721, (3, [733803839347]));
   (1286531238451883917612880674872731, (2, [17700247951621; 1569635029]));
   (21266751054232131901454750443841176801, (2, [225964675249; 2147461007]))].

Lemma small_list_prime q : In q small_list -> prime q.
Proof.
  intros H. apply prime_check_ok. revert q H. apply forallb_forall. vm_compute. reflexivity.
Qed.
Lemma prime_table_ok : table_check small_list prime_table = true.
Proof. vm_compute. reflexivity. Qed.

Definition known_primes : list Z := small_list ++ map fst prime_table.
Theorem known_prime q : mem q known_primes = true -> prime q.
Proof.
  intros H. apply mem_in, in_app_or in H. apply (table_check_ok prime_table small_list small_list_prime prime_table_ok q H).
Qed.
Lemma known_primes_all l : forallb (fun q => mem q known_primes) l = true -> forall q, In q l -> prime q.
Proof. rewrite forallb_forall. intros H q Hq. apply known_prime, H, Hq. Qed.
