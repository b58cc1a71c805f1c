(** Model of the text operators of the engines: operator<< and operator>> of parameter_type, status_type
    and of the engine classes.  All of them set the flags dec | fixed | left, so white space is not
    skipped by >> of a number (uint128 skips it itself); the stream's width is taken to be 0.
    Definitions only. *)
From Coq Require Import ZArith Bool String List.
From Verif Require Import Base IntMathModel Lcg64Model CountShiftModel Count128Model MinstdModel MrgModel LagfibModel XoshiroModel MtModel StreamModel.
Import ListNotations.
Open Scope Z_scope.

(** << and >> of one number of the given type.  The variable read into starts as 0. *)
Definition put_num (T : num_type) (v : Z) : list Z :=
  match T with NUint128 => u128_put Dec false false ALeft 0 32 v | _ => put_int v end.
Definition get_num (T : num_type) (s : istr) : istr * Z :=
  match T with NUint128 => u128_get Dec s 0 | _ => get_int T s 0 end.

(** Numbers separated by single blanks (lcg64.hpp 103, 114-115, 142, 153; lcg64_count_shift.hpp 108, 119-120,
    147, 158-159; count128_lcg_shift.hpp 92, 103-104, 131, 142; minstd.hpp 82, 93; mrg_parameter.hpp 83-87,
    100-104; mrg_status.hpp 85-89, 102-106; lagfib2xor.hpp 97-99, 110-112; xoshiro256plus.hpp 102, 113-115). *)
Fixpoint put_list (Ts : list num_type) (vs : list Z) : list Z :=
  match Ts, vs with
  | T :: Ts', v :: vs' => put_num T v ++ match Ts' with [] => [] | _ => 32 :: put_list Ts' vs' end
  | _, _ => []
  end.
Fixpoint get_list (Ts : list num_type) (s : istr) : istr * list Z :=
  match Ts with
  | [] => (s, [])
  | T :: Ts' =>
      let (s, v) := get_num T s in
      match Ts' with
      | [] => (s, [v])
      | _ => let (s, vs) := get_list Ts' (delim_c 32 s) in (s, v :: vs)
      end
  end.
(** >> of an io_range with delim_str = " " (utility.hpp 178-189); elements not read keep their value. *)
Fixpoint get_range (Ts : list num_type) (s : istr) : istr * list Z :=
  match Ts with
  | [] => (s, [])
  | T :: Ts' =>
      if i_fail s then (s, map (fun _ => 0) Ts)
      else
        let (s, v) := get_num T s in
        let s := match Ts' with [] => s | _ => delim_str [32] s end in
        let (s, vs) := get_range Ts' s in (s, v :: vs)
  end.

(** A parameter_type or status_type: a bracketed list, or (mt19937.hpp 136, 147-148) a number and an io_range. *)
Inductive group := GList (Ts : list num_type) | GRange (T : num_type) (Ts : list num_type).
Definition group_types (g : group) : list num_type := match g with GList Ts => Ts | GRange T Ts => T :: Ts end.
Definition put_group (g : group) (vs : list Z) : list Z := 40 :: put_list (group_types g) vs ++ [41].
(** operator>>: reads into a fresh object and assigns it if the stream is not failed (lcg64.hpp 108-120 etc.);
    [old] is the value of the object. *)
Definition get_group (g : group) (old : list Z) (s : istr) : istr * list Z :=
  let s := delim_c 40 s in
  let (s, vs) := match g with
                 | GList Ts => get_list Ts s
                 | GRange T Ts => let (s, v) := get_num T s in
                                  let (s, vs) := get_range Ts (delim_c 32 s) in (s, v :: vs)
                 end in
  let s := delim_c 41 s in
  (s, if i_fail s then old else vs).

(** An engine class as far as text is concerned: its name and what it consists of. *)
Record text_class := TextClass { tc_name : list Z; tc_groups : list group }.

(** '[' << name() << ' ' << R.P << ' ' << R.S << ']' (lcg64.hpp 194-202 etc.). *)
Fixpoint put_groups (gs : list group) (vss : list (list Z)) : list Z :=
  match gs, vss with
  | g :: gs, vs :: vss => 32 :: put_group g vs ++ put_groups gs vss
  | _, _ => []
  end.
Definition write_engine (c : text_class) (vss : list (list Z)) : list Z :=
  91 :: tc_name c ++ put_groups (tc_groups c) vss ++ [93].

(** operator>> (lcg64.hpp 204-220 etc.): everything is read into fresh objects, the engine is assigned if
    the stream is not failed. *)
Fixpoint get_groups (gs : list group) (s : istr) : istr * list (list Z) :=
  match gs with
  | [] => (s, [])
  | g :: gs =>
      let (s, vs) := get_group g (map (fun _ => 0) (group_types g)) (delim_c 32 s) in
      let (s, vss) := get_groups gs s in (s, vs :: vss)
  end.
Definition read_engine (c : text_class) (s : istr) (old : list (list Z)) : istr * list (list Z) :=
  let s := ignore_spaces s in
  let s := delim_str (tc_name c) (delim_c 91 s) in
  let (s, vss) := get_groups (tc_groups c) s in
  let s := delim_c 93 s in
  (s, if i_fail s then old else vss).

(** ** The engines *)
Definition u64 := NUnsigned 64.
Definition u32 := NUnsigned 32.
Definition i32 := NSigned 32.

(** lcg64.hpp 84-220, lcg64.cc 85; lcg64_shift.hpp, lcg64_shift.cc 98. *)
Definition lcg64_groups := [GList [u64; u64]; GList [u64]].
Definition lcg64_text := TextClass (chars "lcg64") lcg64_groups.
Definition lcg64_shift_text := TextClass (chars "lcg64_shift") lcg64_groups.
Definition lcg64_fields (R : lcg64) : list (list Z) := [[lcg_a R; lcg_b R]; [lcg_r R]].
Definition lcg64_of (R : lcg64) (v : list (list Z)) : lcg64 :=
  match v with [[a; b]; [r]] => Lcg64 a b r | _ => R end.
(** lcg64_count_shift.hpp, lcg64_count_shift.cc 110. *)
Definition lcs_text := TextClass (chars "lcg64_count_shift") [GList [u64; u64; u64]; GList [u64; u64]].
Definition lcs_fields (R : lcs) : list (list Z) :=
  let L := cs_lcg R in [[lcg_a L; lcg_b L; cs_inc R]; [lcg_r L; cs_count R]].
Definition lcs_of (R : lcs) (v : list (list Z)) : lcs :=
  match v with [[a; b; i]; [r; c]] => Lcs (Lcg64 a b r) i c | _ => R end.
(** count128_lcg_shift.hpp, count128_lcg_shift.cc 102. *)
Definition c128_text := TextClass (chars "count128_lcg_shift") [GList [NUint128; u64; u64]; GList [NUint128]].
Definition c128_fields (R : c128) : list (list Z) := [[c_inc R; c_a R; c_b R]; [c_r R]].
Definition c128_of (R : c128) (v : list (list Z)) : c128 :=
  match v with [[i; a; b]; [r]] => C128 i a b r | _ => R end.
(** minstd.hpp, minstd.cc 69. *)
Definition minstd_text := TextClass (chars "minstd") [GList [u32]].
Definition minstd_fields (R : Z) : list (list Z) := [[R]].
Definition minstd_of (R : Z) (v : list (list Z)) : Z := match v with [[r]] => r | _ => R end.
(** mrg2.hpp ... yarn5s.hpp with mrg_parameter.hpp and mrg_status.hpp; the names mrg2.cc 74 ... yarn5s.cc 89.
    The number is the order. *)
Definition mrg_names : list (string * nat) :=
  [("mrg2", 2%nat); ("mrg3", 3%nat); ("mrg3s", 3%nat); ("mrg4", 4%nat); ("mrg5", 5%nat); ("mrg5s", 5%nat);
   ("yarn2", 2%nat); ("yarn3", 3%nat); ("yarn3s", 3%nat); ("yarn4", 4%nat); ("yarn5", 5%nat); ("yarn5s", 5%nat)]%string.
Definition mrg_text (n : string * nat) := TextClass (chars (fst n)) [GList (repeat i32 (snd n)); GList (repeat i32 (snd n))].
Definition mrg_fields (R : mrg) : list (list Z) := [mrg_a R; mrg_r R].
Definition mrg_of (R : mrg) (v : list (list Z)) : mrg := match v with [a; r] => Mrg a r | _ => R end.
(** lagfib2xor.hpp 218-231 etc.: the name contains the number of digits and the lags. *)
Definition lf_name (c : lf_class) : list Z :=
  chars (match lf_oper c, length (lf_lags c) with
         | OpXor, 2%nat => "lagfib2xor_" | OpXor, _ => "lagfib4xor_"
         | OpPlus, 2%nat => "lagfib2plus_" | OpPlus, _ => "lagfib4plus_"
         end)%string ++
  put_int (lf_w c) ++ flat_map (fun l => 95 :: put_int l) (lf_lags c).
Definition lf_text (c : lf_class) :=
  TextClass (lf_name c) [GList (u32 :: repeat (NUnsigned (lf_w c)) (Z.to_nat (lf_size c)))].
Definition lf_fields (R : lf) : list (list Z) := [lf_index R :: lf_r R].
Definition lf_of (R : lf) (v : list (list Z)) : lf := match v with [i :: r] => Lf r i | _ => R end.
(** xoshiro256plus.hpp 97-193, xoshiro256plus.cc 88. *)
Definition xo_text := TextClass (chars "xoshiro256plus") [GList [u64; u64; u64; u64]].
Definition xo_fields (R : xoshiro) : list (list Z) := [[xr0 R; xr1 R; xr2 R; xr3 R]].
Definition xo_of (R : xoshiro) (v : list (list Z)) : xoshiro :=
  match v with [[a; b; c; d]] => Xo a b c d | _ => R end.
(** mt19937.hpp 93-206, mt19937.cc 84; mt19937_64.hpp, mt19937_64.cc 84. *)
Definition mt_text (n : string) (c : mt_class) :=
  TextClass (chars n) [GList []; GRange i32 (repeat (NUnsigned (mt_w c)) (mt_N c))].
Definition mt_fields (R : mt) : list (list Z) := [[]; mt_i R :: mt_v R].
Definition mt_of (R : mt) (v : list (list Z)) : mt := match v with [[]; i :: r] => Mt i r | _ => R end.

(** The two operators of a class with fields [f] and constructor [of]. *)
Definition put_engine {A} (c : text_class) (f : A -> list (list Z)) (R : A) : list Z := write_engine c (f R).
Definition get_engine {A} (c : text_class) (f : A -> list (list Z)) (of : A -> list (list Z) -> A) (s : istr) (R : A) : istr * A :=
  let (s, v) := read_engine c s (f R) in (s, of R v).
