(** str.format (Python Library Reference, "Format String Syntax", positional automatic
    fields only) and string literals of C++ and Python. *)
From Verif Require Import Base.

(** [py_format f args r]: formatting [f] with arguments whose str() are [args] gives [r].
    '{{' and '}}' stand for a brace, '{}' for the next argument, every other character
    for itself; arguments left over are ignored.  A format string to which no rule
    applies is an error. *)
Inductive py_format : list Z -> list (list Z) -> list Z -> Prop :=
| pf_end args : py_format [] args []
| pf_open f args r : py_format f args r -> py_format (123 :: 123 :: f) args (123 :: r)
| pf_close f args r : py_format f args r -> py_format (125 :: 125 :: f) args (125 :: r)
| pf_field f a args r : py_format f args r -> py_format (123 :: 125 :: f) (a :: args) (a ++ r)
| pf_char c f args r : c <> 123 -> c <> 125 ->
    py_format f args r -> py_format (c :: f) args (c :: r).

(** str(n): decimal, no leading zero, '-' in front of a negative number. *)
Definition dec_value (ds : list Z) : Z := fold_left (fun v d => 10 * v + (d - 48)) ds 0.
Definition py_nat_str (n : Z) (s : list Z) : Prop :=
  Forall (fun d => 48 <= d <= 57) s /\ dec_value s = n /\
  (s = [48] \/ exists d s', s = d :: s' /\ d <> 48).
Definition py_int_str (n : Z) (s : list Z) : Prop :=
  (0 <= n /\ py_nat_str n s) \/ (n < 0 /\ exists s', s = 45 :: s' /\ py_nat_str (- n) s').

(** ** Literals *)

Definition octal_digit (c : Z) : Prop := 48 <= c <= 55.
Inductive hex_value : Z -> Z -> Prop :=
| hv_digit c : 48 <= c <= 57 -> hex_value c (c - 48)
| hv_upper c : 65 <= c <= 70 -> hex_value c (c - 55)
| hv_lower c : 97 <= c <= 102 -> hex_value c (c - 87).
Definition starts_with_in (P : Z -> Prop) (s : list Z) : Prop := exists c s', s = c :: s' /\ P c.

(** Value of digits in a base, most significant first. *)
Inductive digits_value (base : Z) (dv : Z -> Z -> Prop) : Z -> list Z -> Z -> Prop :=
| dg_nil acc : digits_value base dv acc [] acc
| dg_cons acc c d ds v : dv c d -> digits_value base dv (acc * base + d) ds v ->
    digits_value base dv acc (c :: ds) v.
Definition oct_value (c d : Z) : Prop := octal_digit c /\ d = c - 48.

(** The simple escape sequences common to C++ and Python. *)
Inductive simple_escape : Z -> Z -> Prop :=
| se_quote : simple_escape 39 39 | se_dquote : simple_escape 34 34
| se_back : simple_escape 92 92
| se_a : simple_escape 97 7  | se_b : simple_escape 98 8  | se_f : simple_escape 102 12
| se_n : simple_escape 110 10 | se_r : simple_escape 114 13 | se_t : simple_escape 116 9
| se_v : simple_escape 118 11.

(** Hexadecimal escapes: in C++ all following hexadecimal digits belong to the escape, in
    Python exactly two. *)
Definition cpp_hex_ok (ds rest : list Z) : Prop :=
  ds <> [] /\ ~ starts_with_in (fun c => exists d, hex_value c d) rest.
Definition py_hex_ok (ds rest : list Z) : Prop := length ds = 2%nat.

(** [literal hexok q s b]: the characters [s] between two quotes [q] denote the bytes [b].
    An octal escape takes up to three octal digits, as many as there are. *)
Inductive literal (hexok : list Z -> list Z -> Prop) (q : Z) : list Z -> list Z -> Prop :=
| li_end : literal hexok q [] []
| li_char c s b : 32 <= c <= 126 -> c <> 92 -> c <> q ->
    literal hexok q s b -> literal hexok q (c :: s) (c :: b)
| li_simple e v s b : simple_escape e v ->
    literal hexok q s b -> literal hexok q (92 :: e :: s) (v :: b)
| li_octal ds v s b : (1 <= length ds <= 3)%nat ->
    (length ds = 3%nat \/ ~ starts_with_in octal_digit s) ->
    digits_value 8 oct_value 0 ds v -> v < 256 ->
    literal hexok q s b -> literal hexok q (92 :: ds ++ s) (v :: b)
| li_hex ds v s b : hexok ds s -> digits_value 16 hex_value 0 ds v -> v < 256 ->
    literal hexok q s b -> literal hexok q (92 :: 120 :: ds ++ s) (v :: b).

Definition cpp_literal := literal cpp_hex_ok 34.
Definition py_bytes_literal := literal py_hex_ok.

(** Trigraphs, translation phase 1 of C++11 and C++14 ([lex.phases], [lex.trigraph]):
    ??= ??/ ??' ??( ??) ??! ??< ??> ??- stand for # \ ^ [ ] | { } ~ *)
Definition trigraph_char (c : Z) : option Z :=
  if c =? 61 then Some 35 else if c =? 47 then Some 92 else if c =? 39 then Some 94
  else if c =? 40 then Some 91 else if c =? 41 then Some 93 else if c =? 33 then Some 124
  else if c =? 60 then Some 123 else if c =? 62 then Some 125 else if c =? 45 then Some 126
  else None.
Fixpoint trigraphs (s : list Z) : list Z :=
  match s with
  | a :: ((b :: c :: s') as t) =>
    match (if (a =? 63) && (b =? 63) then trigraph_char c else None) with
    | Some r => r :: trigraphs s'
    | None => a :: trigraphs t
    end
  | _ => s
  end.
Definition cpp14_literal (s b : list Z) : Prop := cpp_literal (trigraphs s) b.
Definition has_trigraph (s : list Z) : Prop :=
  exists p c q, s = p ++ 63 :: 63 :: c :: q /\ trigraph_char c <> None.

(** A U"..." literal of C++: universal character names; each must name a Unicode scalar
    value. *)
Definition cpp_scalar (c : Z) : Prop := 0 <= c < 0xD800 \/ 0xE000 <= c <= 0x10FFFF.
Inductive u_literal : list Z -> list Z -> Prop :=
| ul_end : u_literal [] []
| ul_char c s r : 32 <= c <= 126 -> c <> 92 -> c <> 34 -> u_literal s r -> u_literal (c :: s) (c :: r)
| ul_short ds v s r : length ds = 4%nat -> digits_value 16 hex_value 0 ds v -> cpp_scalar v ->
    u_literal s r -> u_literal (92 :: 117 :: ds ++ s) (v :: r)
| ul_long ds v s r : length ds = 8%nat -> digits_value 16 hex_value 0 ds v -> cpp_scalar v ->
    u_literal s r -> u_literal (92 :: 85 :: ds ++ s) (v :: r).
