(** Model of inv_Phi, normal_dist::icdf and normal_dist::operator() in IEEE double.

    As in FloatNormModel.v every C++ operation is one correctly rounded operation and the functions of
    the C++ mathematical library are parameters.  Definitions only. *)
From Coq Require Import ZArith Bool.
From Flocq Require Import Core.Zaux IEEE754.BinarySingleNaN.
From Verif Require Import UniformModel FloatDrawModel FloatCdfModel FloatNormModel.
Open Scope Z_scope.

(** a literal: the double m 2^e *)
Definition dlit (m e : Z) : double := binary_normalize 53 1024 eq_refl eq_refl mode_NE m e false.

(** inv_Phi_traits<double> (special_functions.hpp 790-811): the doubles next to the decimal literals *)
Definition fa0 := dlit (-5586832190211365) (-47).
Definition fa1 := dlit 7773849738544027 (-45).
Definition fa2 := dlit (-4854185690741657) (-44).
Definition fa3 := dlit 4868030623072283 (-45).
Definition fa4 := dlit (-8631373321505741) (-48).
Definition fa5 := dlit 5644425088160889 (-51).
Definition fb0 := dlit (-7666829320258756) (-47).
Definition fb1 := dlit 5685296208298615 (-45).
Definition fb2 := dlit (-5478170841241810) (-45).
Definition fb3 := dlit 4700724426959294 (-46).
Definition fb4 := dlit (-7476359061600294) (-49).
Definition fc0 := dlit (-8975371706486752) (-60).
Definition fc1 := dlit (-5807778273198520) (-54).
Definition fc2 := dlit (-5406027041216344) (-51).
Definition fc3 := dlit (-5741487257041434) (-51).
Definition fc4 := dlit 4925433949343175 (-50).
Definition fc5 := dlit 6616157108817826 (-51).
Definition fd0 := dlit 8975143089774548 (-60).
Definition fd1 := dlit 5809051369276260 (-54).
Definition fd2 := dlit 5505952594454038 (-51).
Definition fd3 := dlit 8454176725381401 (-51).
Definition fx_low := dlit 6989586621679010 (-58).
Definition fx_high := dlit 8788774672813523 (-53).
(** math::constants<double>::sqrt_2pi (constants.hpp 75) *)
Definition dsqrt2pi := dlit 5644425081792262 (-51).

(** a * x + b *)
Definition axpb (a x b : double) : double := dadd (dmul a x) b.
Definition tail_fnum (q : double) : double := axpb (axpb (axpb (axpb (axpb fc0 q fc1) q fc2) q fc3) q fc4) q fc5.
Definition tail_fden (q : double) : double := axpb (axpb (axpb (axpb fd0 q fd1) q fd2) q fd3) q (dint 1).
Definition central_fnum (r : double) : double := axpb (axpb (axpb (axpb (axpb fa0 r fa1) r fa2) r fa3) r fa4) r fa5.
Definition central_fden (r : double) : double := axpb (axpb (axpb (axpb (axpb fb0 r fb1) r fb2) r fb3) r fb4) r (dint 1).

Section Functions.
Variable N : libme.
Let M := e_base N.
Let L := x_base M.

(** inv_Phi_approx<double> (special_functions.hpp 826-878) *)
Definition finv_approx (x : double) : double :=
  if Bltb x (dint 0) || Bltb (dint 1) x then dnan
  else if Beqb x (dint 0) then dinf true
  else if Beqb x (dint 1) then dinf false
  else if Bltb x fx_low then
    let q := dsqrt (dmul (dint (-2)) (m_ln L x)) in ddiv (tail_fnum q) (tail_fden q)
  else if Bltb x fx_high then
    let q := dsub x dhalf in let r := dmul q q in ddiv (dmul (central_fnum r) q) (central_fden r)
  else
    let q := dsqrt (dmul (dint (-2)) (x_ln1p M (dopp x))) in ddiv (dopp (tail_fnum q)) (tail_fden q).

(** one refinement by Halley's method (special_functions.hpp 886-888) *)
Definition fhalley (x y : double) : double :=
  let e := dsub (fPhi N y) x in
  let u := dmul (dmul e dsqrt2pi) (x_exp M (dmul (dmul y y) dhalf)) in
  dsub y (ddiv u (dadd (dint 1) (dmul (dmul y u) dhalf))).

(** inv_Phi(double) (special_functions.hpp 880-911, 990-992); sizeof(double) is 8, so there is one step *)
Definition finv_Phi (x : double) : double :=
  let y := finv_approx x in if is_finite y then fhalley x y else y.

(** normal_dist::icdf and operator() (normal_dist.hpp 169-170, 129-131) *)
Definition normal_ficdf (mu sigma x : double) : double := dadd (dmul (finv_Phi x) sigma) mu.
Definition normal_fdraw (mu sigma : double) (D r : Z) : double := normal_ficdf mu sigma (uniformoo 53 1024 D r).
End Functions.
