(** Model of the parts of the C++ stream library the text operators use, of trng/utility.hpp 84-189,
    and of the text operators of uint128 (trng/uint128.hpp 46-261).  Definitions only.

    Standard library behaviour modelled here (classic "C" locale, in-memory stream, so badbit never
    occurs; exceptions masks off): an input stream is its unread characters, eofbit and failbit. *)
From Coq Require Import ZArith Bool String Ascii List.
From Verif Require Import Base.
Import ListNotations.
Open Scope Z_scope.

(** Characters are their codes. *)
Definition chars (s : string) : list Z := map (fun c => Z.of_N (N_of_ascii c)) (list_ascii_of_string s).

Record istr := Istr { i_chars : list Z; i_eof : bool; i_fail : bool }.
Definition of_text (t : list Z) : istr := Istr t false false.
Definition i_good (s : istr) : bool := negb (i_eof s) && negb (i_fail s).
Definition set_fail (s : istr) : istr := Istr (i_chars s) (i_eof s) true.

(** istream::peek: the sentry sets failbit on a stream that is not good; at the end eofbit is set. *)
Definition peek (s : istr) : option Z * istr :=
  if i_good s then
    match i_chars s with
    | [] => (None, Istr [] true (i_fail s))
    | c :: _ => (Some c, s)
    end
  else (None, set_fail s).
(** istream::get, both forms: at the end eofbit and failbit are set. *)
Definition get (s : istr) : option Z * istr :=
  if i_good s then
    match i_chars s with
    | [] => (None, Istr [] true true)
    | c :: t => (Some c, Istr t false false)
    end
  else (None, set_fail s).
(** std::ws: extracts white space; eofbit (not failbit) if the end is reached. *)
Definition is_space (c : Z) : bool := (c =? 32) || ((9 <=? c) && (c <=? 13)).
Fixpoint skip_space (t : list Z) : list Z :=
  match t with
  | [] => []
  | c :: t' => if is_space c then skip_space t' else t
  end.
Definition ws (s : istr) : istr :=
  if i_good s then
    let t := skip_space (i_chars s) in Istr t (match t with [] => true | _ => false end) (i_fail s)
  else set_fail s.

(** Decimal digits; [digits_of n] is the output of an unsigned number, most significant digit first.
    The fuel bounds the number of digits. *)
Definition is_dec_digit (c : Z) : bool := (48 <=? c) && (c <=? 57).
Fixpoint digits_rec (base : Z) (to_char : Z -> Z) (fuel : nat) (n : Z) (acc : list Z) : list Z :=
  match fuel with
  | O => acc
  | S k => if n >? 0 then digits_rec base to_char k (n / base) (to_char (n mod base) :: acc) else acc
  end.
Definition put_digits (n : Z) : list Z :=
  if n =? 0 then [48] else digits_rec 10 (fun d => 48 + d) 64 n [].
(** ostream << of an integer with flags dec (and neither showpos nor a width). *)
Definition put_int (n : Z) : list Z := if n <? 0 then 45 :: put_digits (- n) else put_digits n.

(** istream >> of an integer with flags dec and without skipws (num_get): an optional sign and all
    following decimal digits are consumed; failbit if there is no digit or the value does not fit
    (what is stored then is not used by any caller); eofbit if the end was reached.  A minus sign before an
    unsigned number negates modulo 2^w, as strtoull does. *)
Inductive num_type := NUnsigned (w : Z) | NSigned (w : Z) | NUint128.
Fixpoint take_digits (t : list Z) (v : Z) : Z * list Z :=
  match t with
  | [] => (v, [])
  | c :: t' => if is_dec_digit c then take_digits t' (10 * v + (c - 48)) else (v, t)
  end.
Definition num_value (T : num_type) (neg : bool) (v : Z) : option Z :=
  match T with
  | NUnsigned w => if v <? 2 ^ w then Some (if neg then (- v) mod 2 ^ w else v) else None
  | NSigned w => let v := if neg then - v else v in
                 if (- 2 ^ (w - 1) <=? v) && (v <? 2 ^ (w - 1)) then Some v else None
  | NUint128 => None
  end.
Definition get_int (T : num_type) (s : istr) (old : Z) : istr * Z :=
  if i_good s then
    let (neg, t) := match i_chars s with
                    | c :: t => if c =? 45 then (true, t) else if c =? 43 then (false, t) else (false, i_chars s)
                    | [] => (false, [])
                    end in
    let (v, t') := take_digits t 0 in
    let eof := match t' with [] => true | _ => false end in
    if (Z.of_nat (length t) =? Z.of_nat (length t')) then (Istr t' eof true, 0)
    else match num_value T neg v with
         | Some x => (Istr t' eof false, x)
         | None => (Istr t' eof true, old)
         end
  else (set_fail s, old).

(** ** utility.hpp *)

(** delim_c (103-117). *)
Definition delim_c (d : Z) (s : istr) : istr :=
  let (c, s) := get s in
  match c with
  | Some c => if i_good s && (c =? d) then s else set_fail s
  | None => set_fail s
  end.
(** delim_str (84-101): while (i < len and not(in.get(c) and c != str[i])) ++i. *)
Fixpoint delim_str (d : list Z) (s : istr) : istr :=
  match d with
  | [] => s
  | x :: d' =>
      let (c, s) := get s in
      match c with
      | Some c => if c =? x then delim_str d' s else set_fail s
      | None => delim_str d' s
      end
  end.
(** ignore_spaces (124-139): blanks, tabs and newlines.  One round per character and one more. *)
Fixpoint ignore_spaces_loop (fuel : nat) (s : istr) : istr :=
  match fuel with
  | O => s
  | S k =>
      if i_good s then
        let (c, s) := peek s in
        match c with
        | Some c => if (c =? 32) || (c =? 9) || (c =? 10) then ignore_spaces_loop k (snd (get s)) else s
        | None => s
        end
      else s
  end.
Definition ignore_spaces (s : istr) : istr := ignore_spaces_loop (S (length (i_chars s))) s.

(** ** uint128.hpp: text.  Values are integers in [0,2^128); the arithmetic of both implementations is that
    of integers modulo 2^128 (theorems C33, C34). *)
Inductive basefield := Oct | Dec | Hex.
Definition to_hex (upper : bool) (x : Z) : Z := if x <? 10 then 48 + x else (if upper then 65 else 97) + x - 10.
(** The digits (74-105) and the base prefix (107-122) of operator<<; dec is also the default.  128 rounds
    are enough for every base. *)
Definition u128_digits (b : basefield) (upper : bool) (v : Z) : list Z :=
  if v =? 0 then [48]
  else match b with
       | Oct => digits_rec 8 (to_hex upper) 128 v []
       | Dec => digits_rec 10 (fun d => d + 48) 128 v []
       | Hex => digits_rec 16 (to_hex upper) 128 v []
       end.
Definition u128_base (b : basefield) (upper showbase : bool) : list Z :=
  if showbase then match b with Oct => [48] | Dec => [] | Hex => [48; if upper then 88 else 120] end else [].
(** Padding (124-143): left is also the default. *)
Inductive adjust := ALeft | AInternal | ARight.
Definition u128_put (b : basefield) (upper showbase : bool) (a : adjust) (width fill v : Z) : list Z :=
  let digits := u128_digits b upper v in
  let base := u128_base b upper showbase in
  let len := Z.of_nat (length base + length digits) in
  let padding := if len <? width then repeat fill (Z.to_nat (width - len)) else [] in
  match a with
  | ALeft => base ++ digits ++ padding
  | AInternal => base ++ padding ++ digits
  | ARight => padding ++ base ++ digits
  end.

(** operator>> (148-261).  The loops run at most once per character of the stream. *)
Definition is_oct_digit (c : Z) : bool := (48 <=? c) && (c <=? 55).
Definition is_hex_digit (c : Z) : bool := is_dec_digit c || ((97 <=? c) && (c <=? 102)) || ((65 <=? c) && (c <=? 70)).
Definition is_hex_basechar (c : Z) : bool := (c =? 120) || (c =? 88).
Definition hex_value (c : Z) : Z :=
  if is_dec_digit c then c - 48 else if (97 <=? c) && (c <=? 102) then c - 97 + 10 else c - 65 + 10.
Definition peek_is (p : Z -> bool) (s : istr) : bool * istr :=
  let (c, s) := peek s in (match c with Some c => p c | None => false end, s).
Definition get_val (val : Z -> Z) (s : istr) : Z * istr :=
  let (c, s) := get s in (match c with Some c => val c | None => val (-1) end, s).

(** Result: the stream and the new value, [None] if the target keeps its value. *)
Fixpoint oct_loop (fuel : nat) (result : Z) (s : istr) : istr * option Z :=
  match fuel with
  | O => (s, None)
  | S k =>
      let (b, s) := peek_is is_oct_digit s in
      if b then
        if result >=? 2 ^ 125 then (set_fail s, None)
        else let (d, s) := get_val (fun c => c - 48) s in oct_loop k (wrap128 (wrap128 (result * 8) + d)) s
      else (s, Some result)
  end.
Fixpoint dec_loop (fuel : nat) (result : Z) (s : istr) : istr * option Z :=
  match fuel with
  | O => (s, None)
  | S k =>
      let (b, s) := peek_is is_dec_digit s in
      if b then
        if result >=? 0x1999999999999999999999999999999a then (set_fail s, None)
        else
          let result := wrap128 (result * 10) in
          let (d, s) := get_val (fun c => c - 48) s in
          if d >? wrap128 (2 ^ 128 - 1 - result) then (set_fail s, None) else dec_loop k (wrap128 (result + d)) s
      else (s, Some result)
  end.
Fixpoint hex_loop (fuel : nat) (pos : Z) (result : Z) (s : istr) : istr * option Z :=
  match fuel with
  | O => (s, None)
  | S k =>
      let (b, s) := peek_is is_hex_digit s in
      (* or (pos == 1 and is_hex_basechar(in.peek())): evaluated only if the first operand is false *)
      let (go, s) := if b then (true, s) else if pos =? 1 then peek_is is_hex_basechar s else (false, s) in
      if go then
        let (base, s) := if pos =? 1 then peek_is is_hex_basechar s else (false, s) in
        if base then hex_loop k (pos + 1) result (snd (get s))
        else if result >=? 2 ^ 124 then (set_fail s, None)
        else let (d, s) := get_val hex_value s in hex_loop k (pos + 1) (wrap128 (wrap128 (result * 16) + d)) s
      else (s, Some result)
  end.
Definition u128_get (b : basefield) (s : istr) (old : Z) : istr * Z :=
  let s := ws s in
  let fuel := S (length (i_chars s)) in
  let '(ok, s) := peek_is (match b with Oct => is_oct_digit | Dec => is_dec_digit | Hex => is_hex_digit end) s in
  if ok then
    let '(s, r) := match b with Oct => oct_loop fuel 0 s | Dec => dec_loop fuel 0 s | Hex => hex_loop fuel 0 0 s end in
    (s, match r with Some v => v | None => old end)
  else (set_fail s, old).
