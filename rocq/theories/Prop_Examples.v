(** C104: the parallel example programs give the result of the serial program. *)
From Coq Require Import ZArith List Bool Arith Lia.
From Flocq Require Import BinarySingleNaN.
From Verif Require Import Base Spec SpecFacts Sums IntMathModel MrgModel MrgProofs UniformModel CudaModel CudaProofs ExamplesModel ExamplesProofs.
From Verif Require Import Prop_Mrg Prop_Yarn.
Import ListNotations.
Open Scope Z_scope.

(** What u(r) makes of draw k of the engine, in double and in float. *)
Definition coordinate (y : yarn_class) (R : mrg) (k : nat) : double :=
  uniformco 53 1024 (mc_modulus (yc_mrg y) - 1) (yarn_map y (draw (mrg_next (yc_mrg y)) R k)).
Definition coordinate_float (y : yarn_class) (R : mrg) (k : nat) : float :=
  uniformco 24 128 (mc_modulus (yc_mrg y) - 1) (yarn_map y (draw (mrg_next (yc_mrg y)) R k)).

(** The number of the first n points that lie in the circle; point i has draws 2i and 2i + 1 as coordinates. *)
Definition points_inside (y : yarn_class) (R : mrg) (n : nat) : Z :=
  Z.of_nat (length (filter (fun i => in_circle (coordinate y R (2 * i)) (coordinate y R (2 * i + 1))) (seq 0 n))).
Definition points_inside_float (y : yarn_class) (R : mrg) (n : nat) : Z :=
  Z.of_nat (length (filter (fun i => in_circle_float (coordinate_float y R (2 * i)) (coordinate_float y R (2 * i + 1))) (seq 0 n))).

(** *** The engines fit the programs *)
Definition f_double y (x : Z) : double := uniformco 53 1024 (mc_modulus (yc_mrg y) - 1) (yarn_map y x).
Definition f_float y (x : Z) : float := uniformco 24 128 (mc_modulus (yc_mrg y) - 1) (yarn_map y x).
Lemma ex_legal_next y : In y yarn_classes -> forall R, mrg_legal (yc_mrg y) R -> mrg_legal (yc_mrg y) (snd (mrg_next (yc_mrg y) R)).
Proof. intros Hy R L. apply (C13_mrg_step (yc_mrg y) R (yarn_mrg y Hy) L). Qed.
Lemma ex_u_double y : In y yarn_classes -> forall R, mrg_legal (yc_mrg y) R ->
  u_double y R = Val (f_double y (fst (mrg_next (yc_mrg y) R)), snd (mrg_next (yc_mrg y) R)).
Proof.
  intros Hy R L. destruct (C18_yarn_output y R Hy L) as (E1 & E2 & _). unfold u_double.
  destruct (yarn_next y R) as [o R'] eqn:EY. cbn [fst snd] in E1, E2. rewrite E1, E2. reflexivity.
Qed.
Lemma ex_u_float y : In y yarn_classes -> forall R, mrg_legal (yc_mrg y) R ->
  u_float_cuda y R = Val (f_float y (fst (mrg_next (yc_mrg y) R)), snd (mrg_next (yc_mrg y) R)).
Proof.
  intros Hy R L. unfold u_float_cuda, yarn_next_cuda. destruct (C13_mrg_step (yc_mrg y) R (yarn_mrg y Hy) L) as (E & B & _). cbv zeta in *.
  assert (N : nth 0 (mrg_r (mrg_step (yc_mrg y) R)) 0 = fst (mrg_next (yc_mrg y) R)) by reflexivity. rewrite N.
  rewrite yarn_out_cuda_ok; [reflexivity | exact Hy | rewrite E; cbn [fst]; lia].
Qed.
Lemma ex_jump y : In y yarn_classes -> forall R s, mrg_legal (yc_mrg y) R -> word 64 s ->
  mrg_jump (yc_mrg y) R s = after (mrg_next (yc_mrg y)) (Z.to_nat s) R.
Proof. intros Hy R s L Hs. apply (C14_mrg_jump (yc_mrg y) R s (yarn_mrg y Hy) L Hs). Qed.
Definition leap_classes := [yarn2_class; yarn3_class; yarn3s_class; yarn4_class].
Lemma leap_yarn y : In y leap_classes -> In y yarn_classes.
Proof. cbn [leap_classes yarn_classes In]. tauto. Qed.
Lemma leap_mrg y : In y leap_classes -> In (yc_mrg y) [mrg2_class; mrg3_class; mrg3s_class; mrg4_class].
Proof. cbn [leap_classes In]. intros H. repeat destruct H as [<-|H]; cbn [yc_mrg yarn2_class yarn3_class yarn3s_class yarn4_class]; tauto. Qed.
Lemma ex_split y : In y leap_classes -> forall R s n, mrg_legal (yc_mrg y) R -> 1 <= s < 2 ^ 32 -> 0 <= n < s ->
  exists R', mrg_split (yc_mrg y) R s n = Returns R' /\ mrg_legal (yc_mrg y) R' /\ leapfrog (mrg_next (yc_mrg y)) R R' s n.
Proof. intros Hy R s n L Hs Hn. apply C16_mrg_leapfrog; try assumption. apply leap_mrg, Hy. Qed.
Lemma ex_split_cuda y : In y leap_classes -> forall R s n, mrg_legal (yc_mrg y) R -> 1 <= s < 2 ^ 32 -> 0 <= n < s ->
  exists R', mrg_split_cuda (yc_mrg y) R s n = Returns R' /\ mrg_legal (yc_mrg y) R' /\ leapfrog (mrg_next (yc_mrg y)) R R' s n.
Proof.
  intros Hy R s n L Hs Hn. destruct (ex_split y Hy R s n L Hs Hn) as (R' & E & K). exists R'. split; [|exact K].
  apply mrg_split_cuda_val; [apply yarn_mrg, leap_yarn, Hy | exact E].
Qed.
Lemma inside_sum y R n : points_inside y R n = sum n (pt (mrg_next (yc_mrg y)) (f_double y) in_circle R).
Proof. unfold points_inside. rewrite <- sum_filter. reflexivity. Qed.
Lemma inside_float_sum y R n : points_inside_float y R n = sum n (pt (mrg_next (yc_mrg y)) (f_float y) in_circle_float R).
Proof. unfold points_inside_float. rewrite <- sum_filter. reflexivity. Qed.
Lemma yarn2_in : In yarn2_class yarn_classes. Proof. cbn. tauto. Qed.
Lemma yarn5s_in : In yarn5s_class yarn_classes. Proof. cbn. tauto. Qed.
Lemma yarn2_leap : In yarn2_class leap_classes. Proof. cbn. tauto. Qed.

(** *** pi.cc and its parallel versions *)
Theorem C104_pi_serial : forall R samples, mrg_legal mrg2_class R -> 0 <= samples < 2 ^ 63 ->
  pi_cc R samples = Val (points_inside yarn2_class R (Z.to_nat samples)).
Proof.
  intros R samples L Hs. unfold pi_cc. rewrite inside_sum.
  apply (serial_ok _ _ _ _ _ (ex_legal_next _ yarn2_in) (ex_u_double _ yarn2_in)); assumption.
Qed.
Print Assumptions C104_pi_serial.

(** Block splitting (OpenMP, MPI): any number of threads counts what pi.cc counts. *)
Theorem C104_pi_block : forall R samples size, mrg_legal mrg2_class R -> 0 <= samples -> 1 <= size -> size * samples < 2 ^ 63 ->
  pi_block_openmp R samples size = pi_cc R samples /\
  pi_cc R samples = Val (points_inside yarn2_class R (Z.to_nat samples)).
Proof.
  intros R samples size L H0 H1 H2.
  assert (S : pi_cc R samples = Val (points_inside yarn2_class R (Z.to_nat samples))).
  { apply C104_pi_serial; [exact L|]. assert (1 * samples <= size * samples) by (apply Z.mul_le_mono_nonneg_r; lia). lia. }
  split; [|exact S]. rewrite S, inside_sum. unfold pi_block_openmp.
  apply (blocks_total _ _ _ _ _ _ (ex_legal_next _ yarn2_in) (ex_u_double _ yarn2_in) (ex_jump _ yarn2_in)); assumption.
Qed.
Print Assumptions C104_pi_block.

(** parallel_reduce: any way to cut the range and to hand out the pieces. *)
Theorem C104_pi_tbb : forall R t samples, mrg_legal mrg2_class R -> 0 <= samples < 2 ^ 62 -> schedule_ok t 0 samples ->
  pi_block_tbb R t samples = pi_cc R samples.
Proof.
  intros R t samples L Hs T. rewrite C104_pi_serial by (try assumption; lia). rewrite inside_sum. unfold pi_block_tbb.
  rewrite (tbb_ok _ _ _ _ _ _ (ex_legal_next _ yarn2_in) (ex_u_double _ yarn2_in) (ex_jump _ yarn2_in)) by (try assumption; lia).
  change (Z.to_nat 0) with 0%nat. rewrite Nat.sub_0_r. reflexivity.
Qed.
Print Assumptions C104_pi_tbb.

(** Leapfrog (OpenMP, MPI). *)
Theorem C104_pi_leap : forall R samples size, mrg_legal mrg2_class R -> 0 <= samples -> 1 <= size < 2 ^ 32 -> samples + size <= 2 ^ 63 ->
  pi_leap_openmp R samples size = pi_cc R samples.
Proof.
  intros R samples size L H0 H1 H2. rewrite C104_pi_serial by (try assumption; lia). rewrite inside_sum. unfold pi_leap_openmp.
  apply (leaps_total _ _ _ _ _ _ (ex_legal_next _ yarn2_in) (ex_u_double _ yarn2_in) (ex_split _ yarn2_leap)); assumption.
Qed.
Print Assumptions C104_pi_leap.

(** CUDA, block splitting with yarn5s in float. *)
Theorem C104_pi_block_cuda : forall R samples size, mrg_legal mrg5s_class R -> 0 <= samples -> 1 <= size -> size * samples < 2 ^ 63 ->
  pi_block_cu R samples size = Val (points_inside_float yarn5s_class R (Z.to_nat samples)).
Proof.
  intros R samples size L H0 H1 H2. rewrite inside_float_sum. unfold pi_block_cu.
  apply (blocks_total _ _ _ _ _ _ (ex_legal_next _ yarn5s_in) (ex_u_float _ yarn5s_in) (ex_jump _ yarn5s_in)); assumption.
Qed.
Print Assumptions C104_pi_block_cuda.

(** CUDA, leapfrog with yarn2 in float: the count is that of the serial program if the number of threads divides the
    number of samples. *)
Theorem C104_pi_leap_cuda : forall R q size, mrg_legal mrg2_class R -> 0 <= q -> 1 <= size < 2 ^ 32 -> size * (q * size) < 2 ^ 63 ->
  pi_leap_cu R (q * size) size = Val (points_inside_float yarn2_class R (Z.to_nat (q * size))).
Proof.
  intros R q size L H0 H1 H2. rewrite inside_float_sum. unfold pi_leap_cu.
  apply (leaps_cuda_total _ _ _ _ _ _ (ex_legal_next _ yarn2_in) (ex_u_float _ yarn2_in) (ex_split_cuda _ yarn2_leap)); assumption.
Qed.
Print Assumptions C104_pi_leap_cuda.

(** Otherwise it need not be: three samples on two threads. *)
Definition fib : mrg := Mrg [1; 1] [1; 0].
Lemma fib_legal : mrg_legal mrg2_class fib.
Proof. split; (split; [reflexivity|]); repeat constructor; cbn; lia. Qed.
Theorem C104_pi_leap_cuda_refuted : exists R samples size n, mrg_legal mrg2_class R /\ 0 <= samples /\ 1 <= size < 2 ^ 32 /\
  size * samples < 2 ^ 63 /\ pi_leap_cu R samples size = Val n /\ n <> points_inside_float yarn2_class R (Z.to_nat samples).
Proof.
  exists fib, 3, 2. eexists. split; [exact fib_legal|]. split; [lia|]. split; [lia|]. split; [lia|]. split.
  - unfold pi_leap_cu.
    rewrite (total_ranks 2 _ (fun k => sum (Z.to_nat (first_of 3 2 (Z.of_nat k + 1)) - Z.to_nat (first_of 3 2 (Z.of_nat k)))
      (fun j => pt (mrg_next mrg2_class) (f_float yarn2_class) in_circle_float fib (j * 2 + k)))).
    2:{ intros k Hk. rewrite (leap_cuda_ok _ _ _ _ _ _ (ex_legal_next _ yarn2_in) (ex_u_float _ yarn2_in) (ex_split_cuda _ yarn2_leap)) by
          (try exact fib_legal; lia). rewrite Nat2Z.id. reflexivity. }
    reflexivity.
  - rewrite inside_float_sum. vm_compute. discriminate.
Qed.
Print Assumptions C104_pi_leap_cuda_refuted.

Example C104_pi_case : pi_block_openmp fib 1000 7 = pi_cc fib 1000 /\ pi_leap_openmp fib 1000 7 = pi_cc fib 1000 /\
  pi_block_tbb fib (Split 400 true (Split 10 false Run Run) Run) 1000 = pi_cc fib 1000.
Proof.
  split; [|split].
  - exact (proj1 (C104_pi_block fib 1000 7 fib_legal ltac:(lia) ltac:(lia) ltac:(lia))).
  - apply C104_pi_leap; [exact fib_legal | lia | lia | lia].
  - apply C104_pi_tbb; [exact fib_legal | lia | cbn; lia].
Qed.
Example C104_pi_count : pi_cc fib 4 = Val 3.
Proof. rewrite C104_pi_serial by (try exact fib_legal; lia). vm_compute. reflexivity. Qed.
Example C104_pi_cuda_case : pi_leap_cu fib 4 2 = Val 3 /\ exists R, mrg_legal mrg5s_class R /\ exists n, pi_block_cu R 100 3 = Val n.
Proof.
  split.
  - change 4 with (2 * 2). rewrite C104_pi_leap_cuda by (try exact fib_legal; lia). vm_compute. reflexivity.
  - exists (Mrg [1; 2; 3; 4; 5] [5; 4; 3; 2; 1]).
    assert (L : mrg_legal mrg5s_class (Mrg [1; 2; 3; 4; 5] [5; 4; 3; 2; 1])) by (split; (split; [reflexivity|]); repeat constructor; cbn; lia).
    split; [exact L|]. eexists. apply C104_pi_block_cuda; [exact L | lia | lia | lia].
Qed.

(** *** Site percolation *)

(** Every process computes the realizations i = rank, rank + size, ... of the serial run, with the same lattices. *)
Theorem C104_percolation_embarrassing : forall R P realizations Nx Ny size rank, mrg_legal mrg2_class R ->
  0 <= realizations -> 0 <= Nx < 2 ^ 31 -> 0 <= Ny < 2 ^ 31 -> 0 <= rank < size -> realizations + size <= 2 ^ 31 -> size * (Nx * Ny) < 2 ^ 31 ->
  exists serial part,
    site_percolation_embarrassing R P realizations Nx Ny 1 0 = Val serial /\
    site_percolation_embarrassing R P realizations Nx Ny size rank = Val part /\
    part = filter (fun l => fst l mod size =? rank) serial /\
    map fst serial = map Z.of_nat (seq 0 (Z.to_nat realizations)) /\
    forall i, (i < Z.to_nat realizations)%nat ->
      length (snd (nth i serial (0, []))) = Z.to_nat (Nx * Ny) /\
      forall t, (t < Z.to_nat (Nx * Ny))%nat ->
        nth t (snd (nth i serial (0, []))) false = below P (coordinate yarn2_class R (i * Z.to_nat (Nx * Ny) + t)).
Proof.
  intros R P realizations Nx Ny size rank L H0 Hx Hy Hr H1 H2. unfold site_percolation_embarrassing.
  assert (A : 0 <= Nx * Ny) by (apply Z.mul_nonneg_nonneg; lia).
  assert (A1 : 1 * (Nx * Ny) <= size * (Nx * Ny)) by (apply Z.mul_le_mono_nonneg_r; lia).
  rewrite <- (Z2Nat.id realizations), <- (Z2Nat.id Nx), <- (Z2Nat.id Ny), <- (Z2Nat.id size), <- (Z2Nat.id rank) in * by lia.
  rewrite !Nat2Z.id in *.
  set (nr := Z.to_nat realizations) in *. set (nx := Z.to_nat Nx) in *. set (ny := Z.to_nat Ny) in *.
  set (s := Z.to_nat size) in *. set (r := Z.to_nat rank) in *. clearbody nr nx ny s r. clear realizations Nx Ny size rank.
  change 1 with (Z.of_nat 1) at 1. change 0 with (Z.of_nat 0) at 1.
  assert (OK := fun sz rk => embarrassing_ok _ _ _ _ _ (ex_legal_next _ yarn2_in) (ex_u_double _ yarn2_in) (ex_jump _ yarn2_in)
    (below P) R nr nx ny sz rk L ltac:(lia) ltac:(lia)).
  rewrite OK, OK by lia. do 2 eexists. split; [reflexivity|]. split; [reflexivity|].
  assert (F1 : filter (fun i => Nat.eqb (i mod 1) 0) (seq 0 nr) = seq 0 nr).
  { rewrite filter_strides by lia. replace (cnt nr 1 0) with nr.
    - rewrite <- map_id. apply map_ext. intros k. lia.
    - unfold cnt. cbn [Nat.sub]. rewrite Nat.add_0_r, Nat.div_1_r. reflexivity. }
  rewrite F1. replace (Z.to_nat (Z.of_nat nx * Z.of_nat ny)) with (nx * ny)%nat by (rewrite <- Nat2Z.inj_mul, Nat2Z.id; reflexivity).
  split; [|split].
  - unfold lattices. generalize (seq 0 nr). induction l as [|i l IH]; [reflexivity|]. cbn [filter map fst].
    rewrite <- Nat2Z.inj_mod. destruct (Nat.eqb_spec (i mod s) r) as [E|E].
    + rewrite (proj2 (Z.eqb_eq _ _)) by lia. cbn [map]. rewrite IH. reflexivity.
    + rewrite (proj2 (Z.eqb_neq _ _)) by lia. exact IH.
  - unfold lattices. rewrite map_map. reflexivity.
  - intros i Hi. unfold lattices.
    match goal with |- context [map ?f (seq 0 nr)] => set (F := f) end.
    rewrite (nth_indep (map F _) (0, []) (F 0%nat)) by (rewrite map_length, seq_length; exact Hi).
    rewrite map_nth, seq_nth by exact Hi. unfold F. clear F. cbn [snd Nat.add]. split; [apply sites_length|]. intros t Ht. rewrite sites_nth by exact Ht. reflexivity.
Qed.
Print Assumptions C104_percolation_embarrassing.

(** With many processes the skip between realizations does not fit an int. *)
Theorem C104_percolation_embarrassing_refuted : exists R P realizations Nx Ny size rank, mrg_legal mrg2_class R /\
  0 < realizations < 2 ^ 31 /\ Nx = 250 /\ Ny = 200 /\ 0 <= rank < size /\ size < 2 ^ 31 /\
  site_percolation_embarrassing R P realizations Nx Ny size rank = Overflow.
Proof.
  exists fib, (of_int 53 1024 1), 1000, 250, 200, 42951, 42950. split; [exact fib_legal|].
  repeat split; try lia.
Qed.
Print Assumptions C104_percolation_embarrassing_refuted.

(** The sections of the processes, put together, are the lattices of the serial run. *)
Theorem C104_percolation_fine : forall R P realizations Nx Ny dx dy cx cy, mrg_legal mrg2_class R ->
  0 <= realizations < 2 ^ 31 -> 0 <= Nx < 2 ^ 31 -> 0 <= Ny < 2 ^ 31 -> 0 <= cx < dx -> 0 <= cy < dy ->
  dx * Nx < 2 ^ 31 -> dy * Ny < 2 ^ 31 -> Nx * Ny < 2 ^ 31 ->
  let x0 := cx * Nx / dx in let x1 := (cx + 1) * Nx / dx in let y0 := cy * Ny / dy in let y1 := (cy + 1) * Ny / dy in
  exists serial part,
    site_percolation_fine R P realizations Nx Ny 1 1 0 0 = Val serial /\
    site_percolation_fine R P realizations Nx Ny dx dy cx cy = Val part /\
    length serial = Z.to_nat realizations /\ length part = Z.to_nat realizations /\
    forall i x y, (i < Z.to_nat realizations)%nat -> x0 <= x < x1 -> y0 <= y < y1 ->
      nth (Z.to_nat ((y - y0) * (x1 - x0) + (x - x0))) (nth i part []) false =
        nth (Z.to_nat (Nx * y + x)) (nth i serial []) false /\
      nth (Z.to_nat (Nx * y + x)) (nth i serial []) false =
        below P (coordinate yarn2_class R (i * Z.to_nat (Nx * Ny) + Z.to_nat (Nx * y + x))).
Proof.
  intros R P realizations Nx Ny dx dy cx cy L H0 Hx Hy Hcx Hcy H1 H2 H3. cbv zeta. unfold site_percolation_fine.
  rewrite <- (Z2Nat.id realizations), <- (Z2Nat.id Nx), <- (Z2Nat.id Ny), <- (Z2Nat.id dx), <- (Z2Nat.id dy), <- (Z2Nat.id cx), <- (Z2Nat.id cy) in * by lia.
  rewrite !Nat2Z.id in *.
  set (nr := Z.to_nat realizations) in *. set (nx := Z.to_nat Nx) in *. set (ny := Z.to_nat Ny) in *.
  set (ex := Z.to_nat dx) in *. set (ey := Z.to_nat dy) in *. set (kx := Z.to_nat cx) in *. set (ky := Z.to_nat cy) in *.
  clearbody nr nx ny ex ey kx ky. clear realizations Nx Ny dx dy cx cy.
  assert (OK := fun ex ey kx ky => fine_ok _ _ _ _ _ (ex_legal_next _ yarn2_in) (ex_u_double _ yarn2_in) (ex_jump _ yarn2_in)
    (below P) R nr nx ny ex ey kx ky L).
  assert (S := OK 1%nat 1%nat 0%nat 0%nat ltac:(lia) ltac:(lia) ltac:(lia) ltac:(lia) ltac:(lia) ltac:(lia)).
  change (Z.of_nat 1) with 1 in S. change (Z.of_nat 0) with 0 in S. change (yc_mrg yarn2_class) with mrg2_class in S. rewrite S. clear S.
  assert (S := OK ex ey kx ky ltac:(lia) ltac:(lia) ltac:(lia) ltac:(lia) ltac:(lia) ltac:(lia)).
  change (yc_mrg yarn2_class) with mrg2_class in S. rewrite S. clear S OK.
  do 2 eexists. split; [reflexivity|]. split; [reflexivity|]. rewrite !map_length, seq_length. split; [reflexivity|]. split; [reflexivity|].
  assert (C : forall N d c, (0 < d)%nat -> Z.of_nat c * Z.of_nat N / Z.of_nat d = Z.of_nat (cut N d c)).
  { intros N d c Hd. unfold cut. rewrite Nat2Z.inj_div, Nat2Z.inj_mul. reflexivity. }
  intros i x y Hi. replace (Z.of_nat kx + 1) with (Z.of_nat (kx + 1)) by lia. replace (Z.of_nat ky + 1) with (Z.of_nat (ky + 1)) by lia.
  rewrite !C by lia. intros Bx By.
  assert (Cx : (cut nx ex (kx + 1) <= nx)%nat) by (apply cut_ok; lia). assert (Cy : (cut ny ey (ky + 1) <= ny)%nat) by (apply cut_ok; lia).
  set (x0 := cut nx ex kx) in *. set (x1 := cut nx ex (kx + 1)) in *. set (y0 := cut ny ey ky) in *. set (y1 := cut ny ey (ky + 1)) in *.
  clearbody x0 x1 y0 y1.
  assert (C0 : forall N, cut N 1 0 = 0%nat) by (intros; reflexivity).
  assert (C1 : forall N, cut N 1 (0 + 1) = N) by (intros; unfold cut; rewrite Nat.mul_1_l, Nat.div_1_r; reflexivity).
  rewrite !C0, !C1.
  match goal with |- nth _ (nth i (map ?f _) []) _ = nth _ (nth i (map ?g _) []) _ /\ _ => set (F := f); set (G := g) end.
  rewrite (nth_indep (map F _) [] (F 0%nat)), (nth_indep (map G _) [] (G 0%nat)) by (rewrite map_length, seq_length; exact Hi).
  rewrite !map_nth, seq_nth by exact Hi. cbn [Nat.add]. unfold F, G. clear F G.
  assert (Xn : x = Z.of_nat (Z.to_nat x)) by lia. assert (Yn : y = Z.of_nat (Z.to_nat y)) by lia.
  set (xn := Z.to_nat x) in *. set (yn := Z.to_nat y) in *. clearbody xn yn. subst x y.
  replace (Z.to_nat (Z.of_nat nx * Z.of_nat yn + Z.of_nat xn)) with (nx * yn + xn)%nat by (rewrite <- Nat2Z.inj_mul, <- Nat2Z.inj_add, Nat2Z.id; reflexivity).
  replace (Z.to_nat (Z.of_nat nx * Z.of_nat ny)) with (nx * ny)%nat by (rewrite <- Nat2Z.inj_mul, Nat2Z.id; reflexivity).
  rewrite Nat.sub_0_r, sites_section.
  assert (T : (nx * yn + xn < nx * ny)%nat).
  { assert (nx * (yn + 1) <= nx * ny)%nat by (apply Nat.mul_le_mono_l; lia). lia. }
  rewrite sites_nth by exact T. split; [|reflexivity].
  rewrite (proj1 (section_nth _ _ _ R nx x0 x1 (i * (nx * ny)) (yn - y0) (xn - x0) _ (y1 - y0) ltac:(lia) ltac:(lia)
    ltac:(rewrite <- Nat2Z.id; f_equal; rewrite Nat2Z.inj_add, Nat2Z.inj_mul, !Nat2Z.inj_sub by lia; reflexivity) y0)).
  f_equal. f_equal. replace (y0 + (yn - y0))%nat with yn by lia. lia.
Qed.
Print Assumptions C104_percolation_fine.

(** Every row and every column of the lattice belongs to exactly one section. *)
Theorem C104_sections_partition : forall N dims x, 0 <= N -> 1 <= dims -> 0 <= x < N ->
  exists c, 0 <= c < dims /\ c * N / dims <= x < (c + 1) * N / dims /\
    forall c', 0 <= c' < dims -> c' * N / dims <= x < (c' + 1) * N / dims -> c' = c.
Proof.
  intros N dims x HN Hd Hx. set (f := fun c => c * N / dims).
  assert (Mono : forall a b, a <= b -> f a <= f b) by (intros a b H; apply Z.div_le_mono; [lia | apply Z.mul_le_mono_nonneg_r; lia]).
  assert (F0 : f 0 = 0) by (unfold f; rewrite Z.mul_0_l; apply Z.div_0_l; lia).
  assert (FD : f dims = N) by (unfold f; rewrite Z.mul_comm; apply Z.div_mul; lia).
  assert (Ex : forall n : nat, Z.of_nat n <= dims -> x < f (Z.of_nat n) -> exists c, 0 <= c < Z.of_nat n /\ f c <= x < f (c + 1)).
  { induction n as [|n IH]; intros Hn Hl; [change (Z.of_nat 0) with 0 in Hl; lia|].
    destruct (Z_lt_le_dec x (f (Z.of_nat n))) as [Q|Q].
    - destruct (IH ltac:(lia) Q) as (c & Hc & B). exists c. split; [lia | exact B].
    - exists (Z.of_nat n). split; [lia|]. replace (Z.of_nat n + 1) with (Z.of_nat (S n)) by lia. lia. }
  destruct (Ex (Z.to_nat dims) ltac:(lia)) as (c & Hc & B); [rewrite Z2Nat.id by lia; lia|].
  exists c. split; [lia|]. split; [exact B|]. intros c' Hc' B'. fold (f c') in B'. fold (f (c' + 1)) in B'.
  destruct (Z.lt_trichotomy c' c) as [Q|[Q|Q]]; [|exact Q|].
  - assert (W := Mono (c' + 1) c ltac:(lia)). lia.
  - assert (W := Mono (c + 1) c' ltac:(lia)). lia.
Qed.
Print Assumptions C104_sections_partition.

Example C104_percolation_case : exists serial part,
  site_percolation_embarrassing fib (of_int 53 1024 1) 100 25 20 1 0 = Val serial /\
  site_percolation_embarrassing fib (of_int 53 1024 1) 100 25 20 7 3 = Val part /\ part = filter (fun l => fst l mod 7 =? 3) serial.
Proof.
  destruct (C104_percolation_embarrassing fib (of_int 53 1024 1) 100 25 20 7 3 fib_legal) as (s & p & A & B & C & _); try lia.
  exists s, p. exact (conj A (conj B C)).
Qed.
Example C104_fine_case : exists serial part,
  site_percolation_fine fib (of_int 53 1024 1) 10 25 20 1 1 0 0 = Val serial /\
  site_percolation_fine fib (of_int 53 1024 1) 10 25 20 3 2 1 1 = Val part /\
  nth (Z.to_nat ((12 - 10) * 8 + (9 - 8))) (nth 4 part []) false = nth (Z.to_nat (25 * 12 + 9)) (nth 4 serial []) false.
Proof.
  destruct (C104_percolation_fine fib (of_int 53 1024 1) 10 25 20 3 2 1 1 fib_legal) as (s & p & A & B & _ & _ & C); try lia.
  exists s, p. split; [exact A|]. split; [exact B|]. refine (proj1 (C 4%nat 9 12 _ _ _)).
  - lia.
  - change (8 <= 9 < 16). lia.
  - change (10 <= 12 < 20). lia.
Qed.
