(** C107: the Wolff cluster step of examples/Ising_model.cc. *)
From Coq Require Import ZArith List Bool Lia.
From Verif Require Import WolffModel WolffSpec WolffProofs.
Import ListNotations.
Open Scope Z_scope.

(** The step ends, stays inside the lattice and flips exactly the sites of one cluster of equal
    spins around the first site.  Each accepted draw adds one site; each bond that leads out of the
    cluster to an equal spin was refused by a draw. *)
Theorem C107_wolff : forall E (draw : E -> bool * E) (pick : E -> Z * E) L s e x e1 y e2,
  1 <= L -> L * L + L < 2 ^ 31 -> spins_ok L s -> pick e = (x, e1) -> pick e1 = (y, e2) -> 0 <= x < L -> 0 <= y < L ->
  exists C bs s' e', wolffstep draw pick (S (Z.to_nat (L * L))) (Lat L s) e = Some (Lat L s', e') /\
    spins_ok L s' /\ cluster L s (x, y) C /\ flipped L s C s' /\ draws draw e2 bs e' /\
    length C = S (count_occ Bool.bool_dec bs true) /\
    (length (open_bonds L s (spin L s (x, y)) C) <= count_occ Bool.bool_dec bs false)%nat /\ (length bs <= 4 * length C)%nat.
Proof.
  intros E draw pick L s e x e1 y e2 HL HI Hs P1 P2 Hx Hy. destruct (step_ok draw pick L s e x e1 y e2 HL HI Hs P1 P2 Hx Hy) as (C & bs & s' & e' & A1 & A2 & A3 & A4 & A5 & A6 & A7 & A8).
  exists C, bs, s', e'. split; [exact A1|]. split; [|auto 10]. destruct Hs as (S1 & S2). split; [lia|]. intros v I. apply (In_nth _ _ 0) in I. destruct I as (n & N & <-).
  set (p := (Z.of_nat n mod L, Z.of_nat n / L)). assert (Hp : on_lattice L p). { split; cbn [fst snd p]; [apply Z.mod_pos_bound; lia|]. split; [apply Z.div_pos; lia|]. apply Z.div_lt_upper_bound; lia. }
  assert (Q : forall t, nth n t 0 = spin L t p). { intros t. unfold spin, p. cbn [fst snd]. f_equal. pose proof (Z.div_mod (Z.of_nat n) L ltac:(lia)). lia. }
  rewrite Q. assert (V : spin L s p = 1 \/ spin L s p = -1) by (apply S2; rewrite <- Q; apply nth_In; lia). destruct (A4 p Hp) as (F1 & F2). destruct (mem p C) eqn:M; [rewrite (F1 (proj1 (mem_ok _ _) M)); lia|rewrite (F2 (proj1 (mem_no _ _) M)); exact V].
Qed.
(** If every draw accepts, the whole connected region of equal spins is flipped, if none does, one site. *)
Theorem C107_all : forall E (draw : E -> bool * E) (pick : E -> Z * E) L s e x e1 y e2,
  1 <= L -> L * L + L < 2 ^ 31 -> spins_ok L s -> pick e = (x, e1) -> pick e1 = (y, e2) -> 0 <= x < L -> 0 <= y < L -> (forall d, fst (draw d) = true) ->
  exists C s' e', wolffstep draw pick (S (Z.to_nat (L * L))) (Lat L s) e = Some (Lat L s', e') /\ cluster L s (x, y) C /\ flipped L s C s' /\
    forall p r, In p C -> In r (neighbours L p) -> spin L s r = spin L s p -> In r C.
Proof.
  intros E draw pick L s e x e1 y e2 HL HI Hs P1 P2 Hx Hy T. destruct (step_ok draw pick L s e x e1 y e2 HL HI Hs P1 P2 Hx Hy) as (C & bs & s' & e' & A1 & A2 & A3 & A4 & A5 & A6 & A7 & A8).
  exists C, s', e'. split; [exact A1|]. split; [exact A3|]. split; [exact A4|]. assert (Z0 : cnt false bs = 0%nat). { clear - A5 T. induction A5 as [|bs d b d' _ IH D]; [reflexivity|]. rewrite cnt_app, IH. pose proof (T d) as Td. rewrite D in Td. cbn [fst] in Td. subst b. reflexivity. }
  rewrite Z0 in A7. intros p r Hp Hr S. destruct (mem r C) eqn:M; [apply mem_ok, M|]. exfalso. assert (I : In (p, r) (open_bonds L s (spin L s (x, y)) C)). { unfold open_bonds. apply filter_In. split; [unfold bonds; apply in_flat_map; exists p; split; [exact Hp|apply in_map, Hr]|]. cbn [snd]. rewrite M, S, (proj1 (proj2 (cl_site _ _ _ _ A3 p Hp))), Z.eqb_refl. reflexivity. }
  destruct (open_bonds L s (spin L s (x, y)) C); [exact I|cbn [length] in A7; lia].
Qed.
Theorem C107_none : forall E (draw : E -> bool * E) (pick : E -> Z * E) L s e x e1 y e2,
  1 <= L -> L * L + L < 2 ^ 31 -> spins_ok L s -> pick e = (x, e1) -> pick e1 = (y, e2) -> 0 <= x < L -> 0 <= y < L -> (forall d, fst (draw d) = false) ->
  exists s' e', wolffstep draw pick (S (Z.to_nat (L * L))) (Lat L s) e = Some (Lat L s', e') /\ flipped L s [(x, y)] s'.
Proof.
  intros E draw pick L s e x e1 y e2 HL HI Hs P1 P2 Hx Hy T. destruct (step_ok draw pick L s e x e1 y e2 HL HI Hs P1 P2 Hx Hy) as (C & bs & s' & e' & A1 & A2 & A3 & A4 & A5 & A6 & A7 & A8).
  exists s', e'. split; [exact A1|]. assert (Z0 : cnt true bs = 0%nat). { clear - A5 T. induction A5 as [|bs d b d' _ IH D]; [reflexivity|]. rewrite cnt_app, IH. pose proof (T d) as Td. rewrite D in Td. cbn [fst] in Td. subst b. reflexivity. }
  rewrite Z0 in A6. pose proof (cl_in _ _ _ _ A3) as I. destruct C as [|p [|]]; try discriminate A6. destruct I as [<-|[]]. exact A4.
Qed.
(** energy() is the sum over all bonds, and flipping a set of sites changes it by twice the sum
    over the bonds that leave the set *)
Theorem C107_energy : forall L s, 1 <= L -> spins_ok L s -> lat_energy (Lat L s) = Some (energy_sum L s).
Proof. intros L s HL (H & _). exact (energy_ok L s HL H). Qed.
Theorem C107_flip_energy : forall L s C s', 1 <= L -> spins_ok L s -> spins_ok L s' -> NoDup C -> (forall p, In p C -> on_lattice L p) -> flipped L s C s' ->
  exists a b, lat_energy (Lat L s) = Some a /\ lat_energy (Lat L s') = Some b /\ b - a = 2 * surface L s C.
Proof. intros L s C s' HL (H & _) (H' & _) N O F. exists (energy_sum L s), (energy_sum L s'). rewrite !energy_ok by assumption. split; [reflexivity|]. split; [reflexivity|]. rewrite (energy_flip L s s' C HL N O F). ring. Qed.
(** set, fill, flipp and get on all coordinates, inside the lattice or not *)
Theorem C107_set : forall L s r w r', 1 <= L -> Z.of_nat (length s) = L * L -> int_ok (cx r) = true -> int_ok (cy r) = true -> int_ok (cx r') = true -> int_ok (cy r') = true ->
  exists s', lat_set (Lat L s) r w = Some (Lat L s') /\ length s' = length s /\
    lat_get (Lat L s') r' = if (cx r' mod L =? cx r mod L) && (cy r' mod L =? cy r mod L) then Some w else lat_get (Lat L s) r'.
Proof.
  intros L s r w r' HL HS X Y X' Y'. unfold lat_set. rewrite (index_ok L HL (Lat L s) r eq_refl X Y). cbn [obind lat_s lat_L]. pose proof (ix_lt L HL _ (norm_on L HL r)) as I. assert (I' : (ix L (norm L r) < length s)%nat) by lia. rewrite (nth_error_nth' _ 0 I'). cbn [obind]. eexists. split; [reflexivity|]. split; [apply put_length, I'|].
  rewrite (get_ok L HL (Lat L (put s (ix L (norm L r)) w)) r' eq_refl), (get_ok L HL (Lat L s) r' eq_refl) by (cbn [lat_s]; rewrite ?put_length; assumption). cbn [lat_s]. unfold spin at 1. fold (ix L (norm L r')). rewrite (nth_put _ _ _ _ I'). change ((cx r' mod L =? cx r mod L) && (cy r' mod L =? cy r mod L)) with (site_eqb (norm L r') (norm L r)).
  destruct (Nat.eqb_spec (ix L (norm L r')) (ix L (norm L r))) as [D|D]; [apply (ix_inj L HL) in D; [|apply norm_on, HL|apply norm_on, HL]; rewrite D, (proj2 (site_eqb_ok _ _) eq_refl); reflexivity|]. destruct (site_eqb (norm L r') (norm L r)) eqn:Q; [apply site_eqb_ok in Q; rewrite Q in D; contradiction|reflexivity].
Qed.
Theorem C107_fill : forall L l w r, lat_new L = Some l -> int_ok (cx r) = true -> int_ok (cy r) = true -> lat_get l r = Some 0 /\ lat_get (lat_fill l w) r = Some w.
Proof.
  intros L l w r H X Y. unfold lat_new in H. destruct ((0 <? L) && int_ok (L * L)) eqn:K; [|discriminate]. injection H as <-. apply andb_true_iff in K. destruct K as (K & _). apply Z.ltb_lt in K. assert (HL : 1 <= L) by lia. pose proof (Z.mul_nonneg_nonneg L L ltac:(lia) ltac:(lia)) as LL. unfold lat_fill. cbn [lat_L].
  assert (G : forall v, lat_get (Lat L (repeat v (Z.to_nat (L * L)))) r = Some v). { intros v. rewrite (get_ok L HL (Lat L (repeat v (Z.to_nat (L * L)))) r eq_refl) by (cbn [lat_s]; rewrite ?repeat_length; try assumption; lia). f_equal. cbn [lat_s]. pose proof (ix_lt L HL _ (norm_on L HL r)) as I. unfold spin. fold (ix L (norm L r)). apply (repeat_spec (Z.to_nat (L * L))). apply nth_In. rewrite repeat_length. exact I. }
  split; apply G.
Qed.
(** a lattice filled with equal spins has the lowest energy, -2 per site *)
Theorem C107_ground : forall L l, lat_new L = Some l -> lat_energy (lat_fill l (-1)) = Some (- (2 * (L * L))) /\ forall s, spins_ok L s -> - (2 * (L * L)) <= energy_sum L s <= 2 * (L * L).
Proof.
  intros L l H. unfold lat_new in H. destruct ((0 <? L) && int_ok (L * L)) eqn:K; [|discriminate]. injection H as <-. apply andb_true_iff in K. destruct K as (K & _). apply Z.ltb_lt in K. assert (HL : 1 <= L) by lia. pose proof (Z.mul_nonneg_nonneg L L ltac:(lia) ltac:(lia)) as LL.
  assert (B : forall s, spins_ok L s -> - (2 * (L * L)) <= energy_sum L s <= 2 * (L * L)).
  { intros s (S1 & S2). assert (V : forall p, on_lattice L p -> spin L s p = 1 \/ spin L s p = -1) by (intros p Hp; apply S2; apply nth_In; pose proof (ix_lt L HL p Hp) as I; unfold ix in I; lia).
    unfold energy_sum. assert (G : forall (f : site -> Z) l, (forall p, In p l -> -2 <= f p <= 2) -> - (2 * Z.of_nat (length l)) <= zsum (map f l) <= 2 * Z.of_nat (length l)). { intros f l. induction l as [|p l IH]; intros Hl; [cbn; lia|]. specialize (IH (fun p I => Hl p (or_intror I))). pose proof (Hl p (or_introl eq_refl)). unfold zsum in *. cbn [map fold_right length]. lia. }
    pose proof (G (fun p => spin L s p * (spin L s ((fst p + 1) mod L, snd p) + spin L s (fst p, (snd p + 1) mod L))) (all_sites L)) as GG. rewrite (sites_length L HL) in GG. assert (X : forall p, In p (all_sites L) -> -2 <= spin L s p * (spin L s ((fst p + 1) mod L, snd p) + spin L s (fst p, (snd p + 1) mod L)) <= 2). { intros p I. apply (sites_in L HL) in I. destruct (on_dirs L HL p I) as (O1 & _ & O3 & _). unfold east, south in *. destruct (V p I) as [->| ->], (V _ O1) as [->| ->], (V _ O3) as [->| ->]; lia. } specialize (GG X). lia. }
  split; [|exact B]. unfold lat_fill. cbn [lat_L]. set (s := repeat (-1) (Z.to_nat (L * L))). assert (LS : Z.of_nat (length s) = L * L) by (unfold s; rewrite repeat_length; lia). rewrite (energy_ok L s HL LS). f_equal. unfold energy_sum.
  assert (V : forall p, on_lattice L p -> spin L s p = -1). { intros p Hp. pose proof (ix_lt L HL p Hp) as I. unfold spin. fold (ix L p). apply (repeat_spec (Z.to_nat (L * L))). apply nth_In. rewrite repeat_length. exact I. }
  rewrite (zsum_ext _ (fun _ => 2)); [|intros p I; apply (sites_in L HL) in I; destruct (on_dirs L HL p I) as (O1 & _ & O3 & _); rewrite (V p I); unfold east, south in *; rewrite (V _ O1), (V _ O3); reflexivity].
  assert (G : forall l : list site, zsum (map (fun _ => 2) l) = 2 * Z.of_nat (length l)) by (induction l as [|p l IH]; [reflexivity|]; unfold zsum in *; cbn [map fold_right length]; lia). rewrite G, (sites_length L HL). lia.
Qed.

(** ** Examples: a 3 x 3 lattice, the draws taken from a list *)
Definition from_list (l : list bool) : bool * list bool := match l with b :: t => (b, t) | [] => (false, []) end.
Definition corner (l : list bool) : Z * list bool := (0, l).
Example C107_example : spins_ok 3 [1; 1; -1; -1; -1; -1; 1; 1; 1] /\ corner [true; false; true] = (0, [true; false; true]) /\
  wolffstep from_list corner 10 (Lat 3 [1; 1; -1; -1; -1; -1; 1; 1; 1]) [true; false; true] = Some (Lat 3 [-1; -1; -1; -1; -1; -1; 1; -1; 1], []).
Proof. split; [|split; vm_compute; reflexivity]. split; [reflexivity|]. intros v H. cbn in H. intuition lia. Qed.
Example C107_example_all : (forall l, fst ((fun l : nat => (true, l)) l) = true) /\
  wolffstep (fun l : nat => (true, l)) (fun l => (0, l)) 10 (Lat 3 [1; 1; -1; -1; -1; -1; 1; 1; 1]) 0%nat = Some (Lat 3 [-1; -1; -1; -1; -1; -1; -1; -1; -1], 0%nat).
Proof. split; [reflexivity|vm_compute; reflexivity]. Qed.
Example C107_example_none : wolffstep (fun l : nat => (false, l)) (fun l => (2, l)) 10 (Lat 3 [1; 1; -1; -1; -1; -1; 1; 1; 1]) 0%nat = Some (Lat 3 [1; 1; -1; -1; -1; -1; 1; 1; -1], 0%nat).
Proof. vm_compute. reflexivity. Qed.
Example C107_example_energy : lat_energy (Lat 3 [1; 1; -1; -1; -1; -1; 1; 1; 1]) = Some (-2) /\ lat_energy (Lat 3 [1; 1; -1; -1; -1; -1; 1; 1; -1]) = Some (-2) /\ surface 3 [1; 1; -1; -1; -1; -1; 1; 1; 1] [(2, 2)] = 0 /\
  lat_energy (Lat 3 [-1; -1; -1; -1; -1; -1; -1; -1; -1]) = Some (-18) /\ option_map (fun l => lat_energy (lat_fill l (-1))) (lat_new 3) = Some (Some (-18)).
Proof. repeat split; vm_compute; reflexivity. Qed.

Example C107_example_set : option_map lat_s (lat_set (Lat 3 [1; 1; -1; -1; -1; -1; 1; 1; 1]) (Coord (-1) 4) 7) = Some [1; 1; -1; -1; -1; 7; 1; 1; 1] /\
  lat_get (Lat 3 [1; 1; -1; -1; -1; 7; 1; 1; 1]) (Coord 5 (-2)) = Some 7 /\ option_map (fun l => lat_get (lat_fill l 4) (Coord (-7) 11)) (lat_new 3) = Some (Some 4).
Proof. repeat split; vm_compute; reflexivity. Qed.

Print Assumptions C107_wolff.
Print Assumptions C107_set.
Print Assumptions C107_fill.
Print Assumptions C107_all.
Print Assumptions C107_none.
Print Assumptions C107_energy.
Print Assumptions C107_flip_energy.
Print Assumptions C107_ground.
