(** Property C38: matrix product, matrix-vector product and matrix power. *)
From Coq Require Import ZArith List Bool Lia Arith.
From Verif Require Import Base BaseFacts Cong Sums GaussModel LinAlgModel LinAlgProofs.
Import ListNotations.
Open Scope Z_scope.

(** The mathematical objects: a matrix over Z is a function; [sum n f] is f 0 + ... + f (n-1). *)
Definition product (n : nat) (A B : nat -> nat -> Z) (i j : nat) : Z := sum n (fun k => A i k * B k j).
Definition apply_to (n : nat) (A : nat -> nat -> Z) (v : nat -> Z) (i : nat) : Z := sum n (fun k => A i k * v k).
Fixpoint nth_power (n : nat) (A : nat -> nat -> Z) (e : nat) : nat -> nat -> Z :=
  match e with O => fun i j => if Nat.eqb i j then 1 else 0 | S e => product n (nth_power n A e) A end.
Lemma nth_power_mpow n A e : nth_power n A e = mpow n A e.
Proof. induction e; [reflexivity|]. cbn [nth_power mpow]. rewrite IHe. reflexivity. Qed.

(** ** For every scalar type that represents Z modulo m: [meaning] maps +, *, 0, 1 of the type to those of Z. *)
Definition represents (T : scalar) (m : Z) (meaning : sc T -> Z) : Prop :=
  cong m (meaning (s_zero T)) 0 /\ cong m (meaning (s_one T)) 1 /\
  (forall x y, cong m (meaning (s_add T x y)) (meaning x + meaning y)) /\
  (forall x y, cong m (meaning (s_mul T x y)) (meaning x * meaning y)).

Theorem C38_product : forall T m meaning n a b i j, represents T m meaning -> (i < n)%nat -> (j < n)%nat ->
  cong m (meaning (mget T n (mat_mult T n a b) i j))
         (product n (fun i j => meaning (mget T n a i j)) (fun i j => meaning (mget T n b i j)) i j).
Proof. intros T m mng n a b i j (H0 & H1 & H2 & H3). apply (mat_mult_den T m mng H0 H2 H3). Qed.
Print Assumptions C38_product.

Theorem C38_apply : forall T m meaning n a v i, represents T m meaning -> (i < n)%nat ->
  cong m (meaning (vget T (mat_vec T n a v) i))
         (apply_to n (fun i j => meaning (mget T n a i j)) (fun i => meaning (vget T v i)) i).
Proof. intros T m mng n a v i (H0 & H1 & H2 & H3). apply (mat_vec_den T m mng H0 H2 H3). Qed.
Print Assumptions C38_apply.

Theorem C38_power : forall T m meaning n a e i j, represents T m meaning -> word 64 e -> (i < n)%nat -> (j < n)%nat ->
  cong m (meaning (mget T n (mat_power T n a e) i j))
         (nth_power n (fun i j => meaning (mget T n a i j)) (Z.to_nat e) i j).
Proof.
  intros T m mng n a e i j (H0 & H1 & H2 & H3) He. rewrite nth_power_mpow.
  apply (mat_power_den T m mng H0 H1 H2 H3), He.
Qed.
Print Assumptions C38_power.

(** ** Unsigned integers: exactly the product modulo 2^w *)
Lemma uint_represents w : represents (uint_scalar w) (2 ^ w) (fun x => x).
Proof. apply uint_den. Qed.
Lemma word_mod w x y : 1 <= w -> word w x -> cong (2 ^ w) x y -> x = y mod 2 ^ w.
Proof.
  intros Hw Hx C. assert (0 < 2 ^ w) by (apply Z.pow_pos_nonneg; lia).
  rewrite <- (Z.mod_small x (2 ^ w)) by exact Hx. apply mod_cong; [lia | exact C].
Qed.

Theorem C38_uint : forall w n a b v e, 1 <= w -> word 64 e ->
  let A i j := mget (uint_scalar w) n a i j in let B i j := mget (uint_scalar w) n b i j in
  forall i j, (i < n)%nat -> (j < n)%nat ->
  mget (uint_scalar w) n (mat_mult (uint_scalar w) n a b) i j = product n A B i j mod 2 ^ w /\
  vget (uint_scalar w) (mat_vec (uint_scalar w) n a v) i = apply_to n A (vget (uint_scalar w) v) i mod 2 ^ w /\
  mget (uint_scalar w) n (mat_power (uint_scalar w) n a e) i j = nth_power n A (Z.to_nat e) i j mod 2 ^ w.
Proof.
  intros w n a b v e Hw He A B i j Hi Hj. destruct (uint_ok w Hw) as (P0 & P1 & Pa).
  assert (R := uint_represents w).
  split; [|split]; apply word_mod; try exact Hw.
  - apply (mat_mult_ok (uint_scalar w) (word w)); assumption.
  - exact (C38_product _ _ _ n a b i j R Hi Hj).
  - apply (mat_vec_ok (uint_scalar w) (word w)); assumption.
  - exact (C38_apply _ _ _ n a v i R Hi).
  - apply (mat_power_ok (uint_scalar w) (word w)); assumption.
  - exact (C38_power _ _ _ n a e i j R He Hi Hj).
Qed.
Print Assumptions C38_uint.

(** ** GF2: the entries are the parities *)
Lemma gf2_represents : represents gf2_scalar 2 Z.b2z.
Proof.
  split; [reflexivity|]. split; [reflexivity|]. split; [exact b2z_cong2|].
  intros x y. cbn [s_mul gf2_scalar]. rewrite b2z_mul. reflexivity.
Qed.
Lemma b2z_odd b x : cong 2 (Z.b2z b) x -> b = Z.odd x.
Proof.
  intros (k & E). replace x with (Z.b2z b + 2 * (- k)) by lia. rewrite Z.odd_add_mul_2. destruct b; reflexivity.
Qed.

Theorem C38_gf2 : forall n a b v e, word 64 e ->
  let A i j := Z.b2z (mget gf2_scalar n a i j) in let B i j := Z.b2z (mget gf2_scalar n b i j) in
  forall i j, (i < n)%nat -> (j < n)%nat ->
  mget gf2_scalar n (mat_mult gf2_scalar n a b) i j = Z.odd (product n A B i j) /\
  vget gf2_scalar (mat_vec gf2_scalar n a v) i = Z.odd (apply_to n A (fun k => Z.b2z (vget gf2_scalar v k)) i) /\
  mget gf2_scalar n (mat_power gf2_scalar n a e) i j = Z.odd (nth_power n A (Z.to_nat e) i j).
Proof.
  intros n a b v e He A B i j Hi Hj. assert (R := gf2_represents).
  split; [|split]; apply b2z_odd.
  - exact (C38_product _ _ _ n a b i j R Hi Hj).
  - exact (C38_apply _ _ _ n a v i R Hi).
  - exact (C38_power _ _ _ n a e i j R He Hi Hj).
Qed.
Print Assumptions C38_gf2.

(** ** Entrywise operations *)
Theorem C38_entrywise : forall T n (a b : list (sc T)) c i j, (i < n)%nat -> (j < n)%nat ->
  mget T n (madd T n a b) i j = s_add T (mget T n a i j) (mget T n b i j) /\
  mget T n (mscale T n c a) i j = s_mul T c (mget T n a i j) /\
  mget T n (mscale_r T n a c) i j = s_mul T (mget T n a i j) c /\
  vget T (vadd T n a b) i = s_add T (vget T a i) (vget T b i) /\
  vget T (vscale T n c a) i = s_mul T c (vget T a i) /\
  vget T (vscale_r T n a c) i = s_mul T (vget T a i) c.
Proof.
  intros T n a b c i j Hi Hj. unfold madd, mscale, mscale_r, vadd, vscale, vscale_r.
  rewrite !mget_make, !vget_make by assumption. repeat split.
Qed.
Print Assumptions C38_entrywise.

(** x^3 + x + 1 is primitive over GF(2): its companion matrix has order 7. *)
Example C38_case :
  mat_power gf2_scalar 3 [false; true; false; false; false; true; true; true; false] 7 = unit_matrix gf2_scalar 3 /\
  mat_power gf2_scalar 3 [false; true; false; false; false; true; true; true; false] 6 <> unit_matrix gf2_scalar 3.
Proof. split; [vm_compute; reflexivity | vm_compute; discriminate]. Qed.
Example C38_uint_case :
  mat_power (uint_scalar 64) 2 [1; 1; 1; 0] 100 =
  [573147844013817084101 mod 2 ^ 64; 354224848179261915075 mod 2 ^ 64;
   354224848179261915075 mod 2 ^ 64; 218922995834555169026 mod 2 ^ 64].
Proof. vm_compute. reflexivity. Qed.
