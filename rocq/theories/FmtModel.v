(** str.format and the escaping of string literals.

    A byte string is the list of its bytes as unsigned numbers, a str the list of its
    code points.  Not modelled: stream width and flags (the streams are fresh, so width is
    0 and no padding is written), float, container and object arguments of format. *)
From Verif Require Import Base Utf8Model.

(** ** Printing arguments *)

(** The arguments of format considered here: runtime values of type code
    kRuntimeInteger, kRuntimeUnicode, kRuntimeString. *)
Inductive fmt_arg : Type :=
| AInt (z : Z) | AStr (s : list Z) | ABytes (b : list Z).

(** ostream << int64_t of the C++ library: decimal digits of |n|, most significant
    first; [fuel] bounds the number of digits. *)
Fixpoint dec_digits (fuel : nat) (n : Z) (acc : list Z) : list Z :=
  match fuel with
  | O => acc
  | S fuel' =>
    let acc := 48 + n mod 10 :: acc in
    if n <? 10 then acc else dec_digits fuel' (n / 10) acc
  end.
Definition put_int (z : Z) : list Z :=
  if z <? 0 then 45 :: dec_digits 20 (- z) [] else dec_digits 20 z [].

(** operator<<(std::ostream&, string_view), src/runtime/container/string_view.cc:90-117:
    a NUL byte is written as the four characters \x00. *)
Definition put_view (b : list Z) : list Z :=
  flat_map (fun c => if c =? 0 then [92; 120; 48; 48] else [c]) b.

(** operator<<(std::ostream&, const Any&), src/runtime/runtime_value.cc:442-492, with
    operator<<(ostream&, unicode_view), unicode_view.cc:59-63 *)
Definition put_any (a : fmt_arg) : res (list Z) :=
  match a with
  | AInt z => Ok (put_int z)
  | ABytes b => Ok (put_view b)
  | AStr s => let! b := utf8_encode s in Ok (put_view b)
  end.

(** ** UnicodeHelper::Format, src/runtime/container/unicode_helper.cc:501-539 *)

(** The for loop over the bytes of UTF8Encode(sv): [lb], [rb] are left_bracket and
    right_bracket, [args] the arguments from arg_itr on, [out] the stream. *)
Fixpoint format_loop (src : list Z) (lb rb : bool) (args : list fmt_arg) (out : list Z)
  : res (list Z) :=
  match src with
  | [] => if lb then Exn CheckFailed else if rb then Exn CheckFailed else Ok out
  | c :: src' =>
    if lb then
      if c =? 123 then format_loop src' false rb args (out ++ [123])
      else if c =? 125 then
        match args with
        | [] => Exn CheckFailed
        | a :: args' =>
          let! p := put_any a in
          format_loop src' false rb args' (out ++ p)
        end
      else Exn CheckFailed
    else if rb then
      if c =? 125 then format_loop src' lb false args (out ++ [125])
      else Exn CheckFailed
    else
      if c =? 123 then format_loop src' true rb args out
      else if c =? 125 then format_loop src' lb true args out
      else format_loop src' lb rb args (out ++ [c])
  end.

Definition str_format (f : list Z) (args : list fmt_arg) : res (list Z) :=
  let! src := utf8_encode f in
  let! out := format_loop src false false args [] in
  utf8_decode out.

(** ** Escaping, src/runtime/str_escape.cc *)

(** HexDigits[i], str_escape.cc:25-26 *)
Definition hex_digit (i : Z) : Z := if i <? 10 then 48 + i else 55 + i.

(** One iteration of BytesEscape, str_escape.cc:39-87.  The case '\?' of the switch is
    unreachable: '?' is printable. *)
Definition bytes_escape_one (octal : bool) (c : Z) : list Z :=
  if (c >=? 32) && (c <=? 126) && negb (c =? 92) && negb (c =? 34) then [c]
  else 92 ::
    (if c =? 34 then [34]
     else if c =? 92 then [92]
     else if c =? 9 then [116]
     else if c =? 13 then [114]
     else if c =? 10 then [110]
     else if c =? 11 then [118]
     else if c =? 8 then [98]
     else if c =? 12 then [102]
     else if c =? 7 then [97]
     else if c =? 63 then [63]
     else if octal then
       [48 + Z.land (Z.shiftr c 6) 3; 48 + Z.land (Z.shiftr c 3) 7; 48 + Z.land c 7]
     else [120; hex_digit (Z.shiftr c 4); hex_digit (Z.land c 15)]).

(** BytesEscape, str_escape.cc:36-90 *)
Definition bytes_escape (octal : bool) (b : list Z) : list Z :=
  flat_map (bytes_escape_one octal) b.

(** UnicodeEscape, str_escape.cc:92-129 *)
Definition unicode_escape_one (c : Z) : res (list Z) :=
  let h k := hex_digit (Z.land (Z.shiftr c k) 15) in
  if c >=? 128 then
    if (c <=? 0xD7FF) || ((c >=? 0xE000) && (c <=? 0xFFFF)) then
      Ok [92; 117; h 12; h 8; h 4; hex_digit (Z.land c 15)]
    else if (c >=? 0x10000) && (c <=? 0x10FFFF) then
      Ok [92; 85; h 28; h 24; h 20; h 16; h 12; h 8; h 4; hex_digit (Z.land c 15)]
    else Exn CheckFailed
  else Ok [92; 117; 48; 48; hex_digit (Z.shiftr c 4); hex_digit (Z.land c 15)].

Fixpoint unicode_escape (s : list Z) : res (list Z) :=
  match s with
  | [] => Ok []
  | c :: s' =>
    let! x := unicode_escape_one c in
    let! y := unicode_escape s' in
    Ok (x ++ y)
  end.

(** operator<<(std::ostream&, List const&), src/runtime/container/list_ref.cc:679-699, for a
    list of byte strings: the elements after the first are preceded by ", ". *)
Definition print_bytes_item (b : list Z) : list Z := [98; 39] ++ bytes_escape false b ++ [39].
Definition print_bytes_list (l : list (list Z)) : list Z :=
  91 :: match l with
        | [] => []
        | b :: l' => print_bytes_item b ++ flat_map (fun b => [44; 32] ++ print_bytes_item b) l'
        end ++ [93].

(** CodeGenC::VisitExpr_(StringImmNode), src/codegen/codegen_c.cc:939-947: the characters
    between the quotes of the emitted C++ literal and the length passed beside it.
    BytesEscape(String) of str_escape.h:42-44 uses octal escapes. *)
Definition codegen_bytes_literal (b : list Z) : list Z * Z := (bytes_escape true b, Z.of_nat (length b)).
(** CodeGenC::VisitExpr_(UnicodeImmNode), codegen_c.cc:948-956 *)
Definition codegen_str_literal (s : list Z) : res (list Z * Z) :=
  let! x := unicode_escape s in Ok (x, Z.of_nat (length s)).
