(** Asymptotic expansion of the incomplete Gamma function (special_functions.hpp 60-77, 282-410), double, over the reals.
    Definitions only.  Rounding is not modelled: the coefficients are the decimal literals of the source, std::erfc, ln1p,
    exp and sqrt are the exact functions, one_over_sqrt_2pi is 1/sqrt(2 pi). *)
From Coq Require Import Reals ZArith List.
From Verif Require Import ContModel NormModel SeriesModel.
Import ListNotations.
Local Open Scope R_scope.

(** the loop of detail::mln1p (67-74): [k] iterations are left, [n] is the loop variable *)
Fixpoint mln1p_loop (k : nat) (n x xn sign y : R) : R :=
  match k with
  | O => y
  | S k =>
      let delta := sign * xn / n in
      let y := y + delta in
      if Rlt_dec (Rabs delta) (eps4 * y) then y else mln1p_loop k (n + 1) x (xn * x) (- sign) y
  end.
(** detail::mln1p (60-77); the loop runs for 2 <= n < digits = 53 *)
Definition mln1p (x : R) : R :=
  if Rle_dec (1 / 32) (Rabs x) then x - ln (1 + x) else mln1p_loop 51 2 x (x * x) 1 0.

(** GammaPQ_asympt_coefficients::d (289-340): mantissa m and exponent e of the literal m * 10^-e *)
Definition coefficients : list (Z * Z) :=
  [(1, 0);
   (-3333333333333333333333333333333333333, 37);
   (8333333333333333333333333333333333333, 38);
   (-1481481481481481481481481481481481481, 38);
   (1157407407407407407407407407407407407, 39);
   (3527336860670194003527336860670194004, 40);
   (-1787551440329218106995884773662551440, 40);
   (3919263178522437781697040956300215559, 41);
   (-2185448510679992161473642955124436606, 42);
   (-1854062210715159960701798836229563253, 42);
   (8296711340953086005016242131664432272, 43);
   (-1766595273682607930436005424574240304, 43);
   (6707853543401498580369397100296135722, 45);
   (1026180978424030804257395732272529509, 44);
   (-4382036018453353186552974622447191234, 45);
   (9147699582236790234182488176331136808, 46);
   (-2551419399494624976687795379938870131, 47);
   (-5830772132550425067464089450400357975, 47);
   (2436194802066741624369406967077899429, 47);
   (-5027669280114175589090549859257443655, 48);
   (1100439203195613477083741744972934113, 49);
   (3371763262400985378827698841692001848, 49);
   (-1392388722418162065919366184895799799, 49);
   (2853489380704744320396690990528282989, 50);
   (-5139111834242572618990645803004942055, 52);
   (-1975228829434944283539624015807109122, 51);
   (8099521156704561334071156687025752553, 52);
   (-1652253121639816181915148202653511616, 52);
   (2530543009747888423270610900602673849, 54);
   (1168693973855957658882308765077934746, 53);
   (-4770037049820484758221678040848165974, 54);
   (9699126059056237124207096858985853544, 55);
   (-1293256553803817501044325677449629120, 56);
   (-6969230253185693380530546315855194520, 56);
   (2835145432176936599923196187131687508, 56);
   (-5750982159007047500162666139520842346, 57);
   (6792953783488914564614965664370431421, 59);
   (4182125426111335857807972609348226866, 58);
   (-1697153962004760373219505695058247317, 58);
   (3436215938394319882960425642469428583, 59);
   (-3643995779628021011969396867845457286, 61);
   (-2522535663578433775881227291922899288, 60);
   (1021727557887676825282765833070338486, 60);
   (-2065618928289515596162988977857018414, 61);
   (1987728212387035132762438621481561682, 63);
   (1528011309299919423610824908396958132, 62);
   (-6179660368053257853966883274340069798, 63);
   (1247824052529354935357309838028423545, 63);
   (-1099129014345020826298528140114925449, 65);
   (-9289074058313414187516698493744758188, 65)]%Z.
(** GammaPQ_asympt_coefficients::max_index (347-352), counting down from the size of the table; epsilon is 2^-52 *)
Fixpoint max_index (index : nat) : nat :=
  match index with
  | O => O
  | S i =>
      let '(m, e) := nth i coefficients (0, 0)%Z in
      if Z.ltb (10 ^ e) (Z.abs m * 2 ^ 52) then index else max_index i
  end.
(** GammaPQ_asympt_coefficients::get (345) *)
Definition coeff (c : Z * Z) : R := IZR (fst c) / IZR (10 ^ snd c).
(** the coefficients d[1], ..., d[n] that GammaPQ_asympt_R uses, n = max_index - 1 (363) *)
Definition used : list R := map coeff (firstn (max_index 50 - 1) (tl coefficients)).

(** the array beta (364-368), filled from its end; [i] is the index of the first element, [ds] the coefficients from d[i+1] *)
Fixpoint betas (a : R) (i : R) (ds : list R) : list R :=
  match ds with
  | [] => []
  | d :: ds =>
      let bs := betas a (i + 1) ds in
      match bs with _ :: b2 :: _ => (b2 * (i + 2) / a + d) :: bs | _ => d :: bs end
  end.
(** the summation loop with its break (371-377) *)
Fixpoint beta_sum (bs : list R) (eta eta_i y : R) : R :=
  match bs with
  | [] => y
  | b :: bs =>
      let y_old := y in
      let y := y + b * eta_i in
      if Req_EM_T y y_old then y else beta_sum bs eta (eta_i * eta) y
  end.
(** GammaPQ_asympt_R (360-380) *)
Definition asympt_R (a eta eta_squared_half : R) : R :=
  let beta := betas a 0 used in
  let y := beta_sum beta eta 1 0 in
  y / (1 + nth 1 beta 0 / a) * exp (- a * eta_squared_half) / sqrt a * (1 / sqrt (2 * PI)).
(** copysign *)
Definition copysign (x s : R) : R := if Rlt_dec s 0 then - Rabs x else Rabs x.
(** GammaP_asympt (387-395) and GammaQ_asympt (402-410) *)
Definition GammaP_asympt (a x : R) : R :=
  let mu := (x - a) / a in
  let eta_squared_half := mln1p mu in
  let eta := copysign (sqrt (2 * eta_squared_half)) mu in
  let leading := erfc (- eta * sqrt (a / 2)) / 2 in
  let correction := - asympt_R a eta eta_squared_half in
  leading + correction.
Definition GammaQ_asympt (a x : R) : R :=
  let mu := (x - a) / a in
  let eta_squared_half := mln1p mu in
  let eta := copysign (sqrt (2 * eta_squared_half)) mu in
  let leading := erfc (eta * sqrt (a / 2)) / 2 in
  let correction := asympt_R a eta eta_squared_half in
  leading + correction.
