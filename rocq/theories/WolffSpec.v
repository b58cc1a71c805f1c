(** Specification of a cluster step on a square lattice with periodic boundaries. *)
From Coq Require Import ZArith List Bool.
Import ListNotations.
Open Scope Z_scope.

Definition site : Type := Z * Z.
Definition on_lattice (L : Z) (p : site) : Prop := 0 <= fst p < L /\ 0 <= snd p < L.
(** the spin at a site; rows are stored one after the other *)
Definition spin (L : Z) (s : list Z) (p : site) : Z := nth (Z.to_nat (fst p + snd p * L)) s 0.
Definition neighbours (L : Z) (p : site) : list site :=
  [((fst p - 1) mod L, snd p); ((fst p + 1) mod L, snd p); (fst p, (snd p - 1) mod L); (fst p, (snd p + 1) mod L)].
(** [joined L C a p]: a path of neighbouring sites of [C] leads from [a] to [p] *)
Inductive joined (L : Z) (C : list site) (a : site) : site -> Prop :=
| joined_here : In a C -> joined L C a a
| joined_next p r : joined L C a p -> In r (neighbours L p) -> In r C -> joined L C a r.

Definition site_eqb (p r : site) : bool := (fst p =? fst r) && (snd p =? snd r).
Definition mem (p : site) (C : list site) : bool := existsb (site_eqb p) C.
(** the bonds that leave [C], and those of them that join equal spins *)
Definition bonds (L : Z) (C : list site) : list (site * site) := flat_map (fun p => map (pair p) (neighbours L p)) C.
Definition open_bonds (L : Z) (s : list Z) (v : Z) (C : list site) : list (site * site) :=
  filter (fun b => negb (mem (snd b) C) && (spin L s (snd b) =? v)) (bonds L C).

(** [draws draw e bs e']: starting from [e] the draws gave [bs] and left [e'] *)
Inductive draws {E} (draw : E -> bool * E) (e : E) : list bool -> E -> Prop :=
| draws_nil : draws draw e [] e
| draws_one bs e1 b e2 : draws draw e bs e1 -> draw e1 = (b, e2) -> draws draw e (bs ++ [b]) e2.

Definition spins_ok (L : Z) (s : list Z) : Prop := Z.of_nat (length s) = L * L /\ forall v, In v s -> v = 1 \/ v = -1.

(** [C] is a cluster of equal spins around [a], [s'] is [s] with the cluster flipped *)
Record cluster (L : Z) (s : list Z) (a : site) (C : list site) : Prop := {
  cl_nodup : NoDup C;
  cl_in : In a C;
  cl_site : forall p, In p C -> on_lattice L p /\ spin L s p = spin L s a /\ joined L C a p
}.
Definition flipped (L : Z) (s : list Z) (C : list site) (s' : list Z) : Prop :=
  forall p, on_lattice L p -> (In p C -> spin L s' p = - spin L s p) /\ (~ In p C -> spin L s' p = spin L s p).

(** twice the energy per pair: minus the sum over all bonds *)
Definition all_sites (L : Z) : list site := list_prod (map Z.of_nat (seq 0 (Z.to_nat L))) (map Z.of_nat (seq 0 (Z.to_nat L))).
Definition zsum (l : list Z) : Z := fold_right Z.add 0 l.
Definition energy_sum (L : Z) (s : list Z) : Z :=
  - zsum (map (fun p => spin L s p * (spin L s ((fst p + 1) mod L, snd p) + spin L s (fst p, (snd p + 1) mod L))) (all_sites L)).
(** the sum of the products of spins over the bonds that leave [C] *)
Definition surface (L : Z) (s : list Z) (C : list site) : Z :=
  zsum (map (fun b => spin L s (fst b) * spin L s (snd b)) (filter (fun b => negb (mem (snd b) C)) (bonds L C))).
