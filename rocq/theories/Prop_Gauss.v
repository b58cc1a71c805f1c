(** Property C22: int_math::gauss. *)
From Coq Require Import ZArith Znumtheory List Bool Arith Lia.
From Verif Require Import Base Cong Sums IntMathModel GaussModel GaussProofs.
Import ListNotations.
Open Scope Z_scope.

(** Legal arguments: an n x n matrix (list of rows) and a right-hand side with entries in [0,m). *)
Definition legal_system (n : nat) (m : Z) (a : list (list Z)) (b : list Z) : Prop :=
  length a = n /\ length b = n /\
  (forall r c, (r < n)%nat -> (c < n)%nat -> 0 <= nth c (nth r a []) 0 < m) /\
  (forall r, (r < n)%nat -> 0 <= nth r b 0 < m).

(** a * x = b modulo m *)
Definition solves (n : nat) (m : Z) (a : list (list Z)) (x b : nat -> Z) : Prop :=
  forall r, (r < n)%nat -> sum n (fun c => nth c (nth r a []) 0 * x c) mod m = b r mod m.

Definition vec (l : list Z) (i : nat) : Z := nth i l 0.

Lemma solves_cong n m a x b : prime m ->
  solves n m a x b <-> forall r, (r < n)%nat -> cong m (row_sum n (matf a) x r) (b r).
Proof.
  intros P. assert (H := prime_ge_2 m P).
  split; intros S r Hr; [apply cong_iff; [lia|] | apply cong_iff; [lia|]]; apply S, Hr.
Qed.

Theorem C22_gauss_sound : forall n m a b, prime m -> m < 2 ^ 31 -> legal_system n m a b ->
  gauss n m a b = RuntimeError \/
  exists x, gauss n m a b = Val x /\ length x = n /\ (forall i, (i < n)%nat -> 0 <= vec x i < m) /\
            solves n m a (vec x) (vec b).
Proof.
  intros n m a b P M L. destruct (gauss_cases n m P M a b L) as [(x & E & Lx & R & S) | (E & _)].
  - right. exists x. split; [exact E|]. split; [exact Lx|]. split; [exact R|].
    apply solves_cong; assumption.
  - left. exact E.
Qed.
Print Assumptions C22_gauss_sound.

(** If only the zero vector is mapped to zero, gauss returns, and what it returns is the only solution. *)
Theorem C22_gauss_invertible : forall n m a b, prime m -> m < 2 ^ 31 -> legal_system n m a b ->
  (forall x, solves n m a x (fun _ => 0) -> forall c, (c < n)%nat -> x c mod m = 0) ->
  exists x, gauss n m a b = Val x /\ solves n m a (vec x) (vec b) /\
    forall y, solves n m a y (vec b) -> forall c, (c < n)%nat -> y c mod m = vec x c.
Proof.
  intros n m a b P M L Inj. assert (H2 := prime_ge_2 m P).
  destruct (gauss_cases n m P M a b L) as [(x & E & Lx & R & S) | (E & i & Hi & (x & X1 & X2 & X3) & _)].
  - exists x. assert (Sx : solves n m a (vec x) (vec b)) by (apply solves_cong; assumption).
    split; [exact E|]. split; [exact Sx|].
    intros y Hy c Hc. 
    assert (Hy' := proj1 (solves_cong n m a _ _ P) Hy). assert (Sx' := proj1 (solves_cong n m a _ _ P) Sx).
    rewrite <- (Z.mod_small (vec x c) m) by (apply R, Hc). apply mod_cong; [lia|].
    assert (D : (y c - vec x c) mod m = 0).
    { apply (Inj (fun c => y c - vec x c)); [|exact Hc]. apply solves_cong; [exact P|]. intros r Hr.
      unfold row_sum. rewrite (sum_ext n _ (fun c0 => matf a r c0 * y c0 - matf a r c0 * vec x c0))
        by (intros; ring).
      rewrite sum_sub. unfold row_sum in Hy', Sx'. rewrite (Hy' r Hr), (Sx' r Hr). exists 0. ring. }
    apply Z.mod_divide in D; [exact D | lia].
  - exfalso. assert (Sx : solves n m a x (fun _ => 0)) by (apply solves_cong; assumption).
    specialize (Inj x Sx i Hi). rewrite X1, Z.mod_small in Inj by lia. discriminate Inj.
Qed.
Print Assumptions C22_gauss_invertible.

(** gauss reports "no solution" for a solvable system: rows (0,1),(0,1), right-hand side (1,1). *)
Theorem C22_gauss_complete_refuted : exists n m a b x, m = 2147483647 /\ legal_system n m a b /\
  solves n m a x (vec b) /\ gauss n m a b = RuntimeError.
Proof.
  exists 2%nat, 2147483647, [[0; 1]; [0; 1]], [1; 1], (fun _ => 1).
  split; [reflexivity|]. split; [|split].
  - split; [reflexivity|]. split; [reflexivity|]. split.
    + intros [|[|r]] [|[|c]] Hr Hc; cbn; lia.
    + intros [|[|r]] Hr; cbn; lia.
  - intros [|[|r]] Hr; [reflexivity | reflexivity | lia].
  - vm_compute. reflexivity.
Qed.
Print Assumptions C22_gauss_complete_refuted.

(** Needs a row exchange and is uniquely solvable. *)
Example C22_case : gauss 3 101 [[0;1;5];[3;1;9];[2;0;7]] [1;1;4] = Val [92; 43; 32] /\
  legal_system 3 101 [[0;1;5];[3;1;9];[2;0;7]] [1;1;4].
Proof.
  split; [vm_compute; reflexivity|]. split; [reflexivity|]. split; [reflexivity|]. split.
  - intros [|[|[|r]]] [|[|[|c]]] Hr Hc; cbn; lia.
  - intros [|[|[|r]]] Hr; cbn; lia.
Qed.
