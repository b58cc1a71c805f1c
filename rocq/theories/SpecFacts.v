(** Facts about the specification vocabulary. *)
From Coq Require Import ZArith List Lia Arith.
From Verif Require Import Base BaseFacts Spec.
Open Scope Z_scope.

Lemma after_step {E O} (next : E -> O * E) (step : E -> E) n R :
  (forall R, snd (next R) = step R) -> after next n R = Nat.iter n step R.
Proof. intros H. apply iter_ext. exact H. Qed.

Lemma draw_after {E O} (next : E -> O * E) R j k : draw next (after next j R) k = draw next R (k + j).
Proof. unfold draw, after. rewrite iter_add. reflexivity. Qed.

Lemma permutes_below_inj m f :
  (forall t, 0 <= t < m -> 0 <= f t < m) ->
  (forall x y, 0 <= x < m -> 0 <= y < m -> f x = f y -> x = y) ->
  permutes_below m f.
Proof.
  intros Hr Hi. split; [exact Hr|]. intros v Hv.
  destruct (inj_surj_Z m f Hr Hi v Hv) as (t & Ht & E).
  exists t. split; [tauto|]. intros y [Hy Ey]. apply Hi; congruence || tauto.
Qed.

Lemma permutes_words_inj w f :
  (forall t, word w t -> word w (f t)) ->
  (forall x y, word w x -> word w y -> f x = f y -> x = y) ->
  permutes_words w f.
Proof. intros Hr Hi. exact (permutes_below_inj (2 ^ w) f Hr Hi). Qed.

Lemma full_cycle_stream_intro {E} (next : E -> Z * E) R lo hi :
  (forall k, lo <= draw next R k < hi) ->
  (forall j k, (j < k)%nat -> (k < Z.to_nat (hi - lo))%nat -> draw next R j <> draw next R k) ->
  (forall k, draw next R (k + Z.to_nat (hi - lo)) = draw next R k) ->
  full_cycle_stream next R lo hi.
Proof.
  intros Hr Hd Hp. split; [exact Hr | split; [|exact Hp]].
  intros v Hv.
  destruct (inj_surj (Z.to_nat (hi - lo)) (fun k => draw next R k - lo)) with (v := v - lo)
    as (k & Hk & Ek).
  - intros i Hi. specialize (Hr i). lia.
  - intros i j Hij E'. apply (Hd i j); lia.
  - lia.
  - exists k. split; [split; [exact Hk | lia]|]. intros j [Hj Ej].
    destruct (Nat.lt_trichotomy j k) as [L|[->|L]]; [|reflexivity|]; exfalso.
    + apply (Hd j k); lia.
    + apply (Hd k j); lia.
Qed.

Lemma tiles_intro {E O} (next : E -> O * E) R (s : Z) (streams : nat -> E) :
  1 <= s ->
  (forall n, 0 <= n < s -> leapfrog next R (streams (Z.to_nat n)) s n) ->
  tiles next R (Z.to_nat s) streams.
Proof.
  intros Hs H.
  assert (H' : forall n k, (n < Z.to_nat s)%nat ->
            draw next (streams n) k = draw next R (k * Z.to_nat s + n)).
  { intros n k Hn. specialize (H (Z.of_nat n) ltac:(lia) k). rewrite Nat2Z.id in H. exact H. }
  assert (N : Z.to_nat s <> 0%nat) by lia.
  split; [|split; [|exact H']].
  - intros i. rewrite H' by (apply Nat.mod_upper_bound; exact N).
    f_equal. assert (D := Nat.div_mod i (Z.to_nat s) N). lia.
  - intros i. exists (Nat.modulo i (Z.to_nat s), Nat.div i (Z.to_nat s)). unfold fst, snd. split.
    + split; [apply Nat.mod_upper_bound; exact N|].
      assert (D := Nat.div_mod i (Z.to_nat s) N). lia.
    + intros [n k] [Hn E']. unfold fst, snd in *. subst i.
      rewrite Nat.add_comm, Nat.mod_add, Nat.div_add, Nat.mod_small, Nat.div_small by assumption.
      reflexivity.
Qed.

(** Streams chosen by a splitting function. *)
Lemma tiles_of_split {E O} (next : E -> O * E) R (s : Z) (split : Z -> outcome E) :
  1 <= s ->
  (forall n, 0 <= n < s -> exists R', split n = Returns R' /\ leapfrog next R R' s n) ->
  exists streams, (forall n, 0 <= n < s -> split n = Returns (streams (Z.to_nat n))) /\
                  tiles next R (Z.to_nat s) streams.
Proof.
  intros Hs H.
  exists (fun n => match split (Z.of_nat n) with Returns R' => R' | _ => R end).
  split.
  - intros n Hn. rewrite Z2Nat.id by lia. destruct (H n Hn) as (R' & -> & _). reflexivity.
  - apply tiles_intro; [exact Hs|]. intros n Hn. rewrite Z2Nat.id by lia.
    destruct (H n Hn) as (R' & -> & L). exact L.
Qed.
