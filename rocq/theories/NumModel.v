(** int(s, base) and float(s) of a byte string or str, and the error number they look at.

    A byte string is the list of its bytes as unsigned numbers.  The two calls read [errno],
    so it is a state: every function takes the error number it finds and returns the one it
    leaves.  strtoll is the C library's function, modelled after its definition in the C
    standard (7.22.1.4, "C" locale); strtod is a parameter.  Not modelled: the text of
    messages, int() and float() of a number (a cast). *)
From Verif Require Import Base Utf8Model TextModel.

(** errno after a range error: ERANGE of Linux *)
Definition ERANGE : Z := 34.

(** The bytes seen through [const char*]: up to the first NUL. *)
Fixpoint c_string (s : list Z) : list Z :=
  match s with
  | [] => []
  | c :: s' => if c =? 0 then [] else c :: c_string s'
  end.

(** std::isspace, std::isdigit in the "C" locale.  A byte above 127 is passed as a negative
    number, which is undefined by the standard; the C library's table answers "no". *)
Definition c_isspace (c : Z) : bool := (c =? 32) || ((9 <=? c) && (c <=? 13)).
Definition c_isdigit (c : Z) : bool := (48 <=? c) && (c <=? 57).

(** Reading [p[i]] of a NUL-terminated string. *)
Definition at0 (s : list Z) (i : nat) : Z := nth i s 0.

(** Value of a digit or letter, as for strtoll *)
Definition alnum_val (c : Z) : option Z :=
  if (48 <=? c) && (c <=? 57) then Some (c - 48)
  else if (97 <=? c) && (c <=? 122) then Some (c - 87)
  else if (65 <=? c) && (c <=? 90) then Some (c - 55)
  else None.

(** The longest sequence of digits of [base]: its value and its length. *)
Fixpoint scan_digits (base acc : Z) (s : list Z) : Z * nat :=
  match s with
  | [] => (acc, O)
  | c :: s' =>
    match alnum_val c with
    | Some d =>
      if d <? base then let '(v, n) := scan_digits base (acc * base + d) s' in (v, S n)
      else (acc, O)
    | None => (acc, O)
    end
  end.

Fixpoint drop_while (P : Z -> bool) (s : list Z) : list Z :=
  match s with
  | [] => []
  | c :: s' => if P c then drop_while P s' else s
  end.

(** strtoll(s, &end, base) for a base from 2 to 36: value, end - s, and whether errno is set
    to ERANGE. *)
Definition strtoll (s : list Z) (base : Z) : Z * nat * bool :=
  let p := drop_while c_isspace s in
  let '(sg, p) := if at0 p 0 =? 43 then (1, tl p)
                  else if at0 p 0 =? 45 then (-1, tl p) else (1, p) in
  let p := if (base =? 16) && (at0 p 0 =? 48) && ((at0 p 1 =? 120) || (at0 p 1 =? 88)) &&
              match alnum_val (at0 p 2) with Some d => d <? 16 | None => false end
           then skipn 2 p else p in
  let '(v, n) := scan_digits base 0 p in
  match n with
  | O => (0, O, false)
  | _ =>
    let e := (length s - length p + n)%nat in
    if sg * v <? - two63 then (- two63, e, true)
    else if two63 - 1 <? sg * v then (two63 - 1, e, true)
    else (sg * v, e, false)
  end.

Definition is_x (c : Z) : bool := (c =? 120) || (c =? 88).
Definition is_o (c : Z) : bool := (c =? 111) || (c =? 79).
Definition is_b (c : Z) : bool := (c =? 98) || (c =? 66).

(** Lines 196-208: the base, when 0 is given.  [p] starts after the sign. *)
Definition guess_base (base : Z) (p : list Z) : res Z :=
  if base =? 0 then
    if negb (at0 p 0 =? 48) then Ok 10
    else if is_x (at0 p 1) then Ok 16
    else if is_o (at0 p 1) then Ok 8
    else if is_b (at0 p 1) then Ok 2
    else Exn RuntimeError
  else Ok base.

(** Lines 209-220: skip the prefix *)
Definition skip_prefix (base : Z) (p : list Z) : res (list Z) :=
  if (at0 p 0 =? 48) && negb (at0 p 1 =? 0) && negb (c_isdigit (at0 p 1)) then
    if ((base =? 16) && is_x (at0 p 1)) || ((base =? 8) && is_o (at0 p 1))
       || ((base =? 2) && is_b (at0 p 1))
    then
      let p := skipn 2 p in
      Ok (if at0 p 0 =? 95 then tl p else p)
    else Exn CheckFailed
  else Ok p.

(** string_to_int64, generic_constructor_funcs.cc:178-234, up to the call of strtoll (line
    225): what strtoll is given, the base and the sign. *)
Definition int_start (input : list Z) (base : Z) : res (list Z * Z * Z) :=
  let! str := rstrip uchar_isspace input in
  if (length str =? 0)%nat then Exn CheckFailed
  else if (negb (base =? 0) && (base <? 2)) || (36 <? base) then Exn CheckFailed
  else
    let p := drop_while c_isspace (c_string str) in
    let '(sg, p) := if at0 p 0 =? 43 then (1, tl p)
                    else if at0 p 0 =? 45 then (-1, tl p) else (1, p) in
    let! base := guess_base base p in
    let! p := skip_prefix base p in
    if ascii_isdigit p then Ok (p, base, sg) else Exn CheckFailed.

(** string_to_int64, generic_constructor_funcs.cc:178-234; the first component of the state
    is errno.  Lines 225-233 are the part after [int_start]. *)
Definition string_to_int64 (errno : Z) (input : list Z) (base : Z) : res Z * Z :=
  match int_start input base with
  | Ok (p, base, sg) =>
    let '(ret, e, range) := strtoll p base in
    let errno := if range then ERANGE else errno in
    if (e =? 0)%nat then (Exn RuntimeError, errno)
    else if errno =? ERANGE then (Exn RuntimeError, errno)
    else (chk64 (ret * sg), errno)
  | Exn x => (Exn x, errno)
  | OOB => (OOB, errno)
  | OutOfFuel => (OutOfFuel, errno)
  end.

(** int(bytes, base): Kernel_int64_t::make(const String&, int64_t), lines 236-238 *)
Definition int_bytes (errno : Z) (s : list Z) (base : Z) : res Z * Z :=
  string_to_int64 errno s base.
(** int(str, base): Kernel_int64_t::make(const Unicode&, int64_t), lines 239-241 *)
Definition int_str (errno : Z) (s : list Z) (base : Z) : res Z * Z :=
  match utf8_encode s with
  | Ok b => string_to_int64 errno b base
  | Exn x => (Exn x, errno)
  | OOB => (OOB, errno)
  | OutOfFuel => (OutOfFuel, errno)
  end.

(** string_to_float64, generic_constructor_funcs.cc:271-282.  [strtod] gives the value, the
    number of bytes read and whether errno is set to ERANGE. *)
Definition string_to_float64 {F} (strtod : list Z -> F * nat * bool)
    (errno : Z) (s : list Z) : res F * Z :=
  if (length s =? 0)%nat then (Exn CheckFailed, errno)
  else
    let '(d, e, range) := strtod (c_string s) in
    let errno := if range then ERANGE else errno in
    if (e =? 0)%nat then (Exn RuntimeError, errno)
    else if errno =? ERANGE then (Exn RuntimeError, errno)
    else (Ok d, errno).

(** A run of the program: conversions one after the other in one thread.  Nothing between
    them resets errno. *)
Inductive conversion : Type := CInt (s : list Z) (base : Z) | CFloat (s : list Z).
Definition convert {F} (strtod : list Z -> F * nat * bool) (errno : Z) (c : conversion)
    : res (Z + F) * Z :=
  match c with
  | CInt s b => let '(r, e) := int_bytes errno s b in (rmap inl r, e)
  | CFloat s => let '(r, e) := string_to_float64 strtod errno s in (rmap inr r, e)
  end.
Fixpoint convert_all {F} (strtod : list Z -> F * nat * bool) (errno : Z)
    (calls : list conversion) : list (res (Z + F)) :=
  match calls with
  | [] => []
  | c :: cs => let '(r, errno) := convert strtod errno c in r :: convert_all strtod errno cs
  end.
