(** Methods of bytes (String, string_view) and str (Unicode, unicode_view).

    A byte string is the list of its bytes as unsigned numbers, a str the list of its
    code points.  string_helper.cc and unicode_helper.cc contain the same code for the
    two character types, so one definition models both; the two citations are given.
    A [const char*] into a string is an index into the list; reading outside the list
    is [OOB].  Not modelled: allocation failure, reserve() (no observable effect). *)
From Verif Require Import Base SeqModel.

(** size_type npos = size_t(-1), string_view.h / unicode_view.h *)
Definition npos : Z := two64 - 1.
Definition int64_max : Z := two63 - 1.

(** ** Searching *)

(** memchr(p, c, e - p) of the C library / char_traits::find: the first index in
    [p, e) holding [c]. *)
Fixpoint memchr (fuel : nat) (s : list Z) (p e c : Z) : res (option Z) :=
  if p <? e then
    match fuel with
    | O => OutOfFuel
    | S fuel' =>
      let! x := rdz s p in
      if x =? c then Ok (Some p) else memchr fuel' s (p + 1) e c
    end
  else Ok None.

(** memcmp(s + p, t, |t|) == 0 / char_traits::compare.  All |t| characters count as
    read, also after the first difference. *)
Fixpoint memeq (s : list Z) (p : Z) (t : list Z) : res bool :=
  match t with
  | [] => Ok true
  | c :: t' =>
    let! x := rdz s p in
    let! r := memeq s (p + 1) t' in
    Ok ((x =? c) && r)
  end.

(** The while loop of memmatch, string_view.cc:79-84, unicode_view.cc:47-53.
    [p] is phaystack, [e] is hayend. *)
Fixpoint memmatch_loop (fuel : nat) (s : list Z) (p e : Z) (t : list Z) (c : Z)
  : res (option Z) :=
  match fuel with
  | O => OutOfFuel
  | S fuel' =>
    let! m := memchr (length s) s p e c in
    match m with
    | None => Ok None
    | Some m =>
      let! b := memeq s m t in
      if b then Ok (Some m) else memmatch_loop fuel' s (m + 1) e t c
    end
  end.

(** memmatch(s + p, haylen, t, |t|), string_view.cc:68-86, unicode_view.cc:36-55 *)
Definition memmatch (s : list Z) (p haylen : Z) (t : list Z) : res (option Z) :=
  match t with
  | [] => Ok (Some p)
  | c :: _ =>
    if haylen <? zlen t then Ok None
    else memmatch_loop (S (length s)) s p (p + haylen - zlen t + 1) t c
  end.

(** string_view::find(string_view, size_type), string_view.cc:119-127;
    unicode_view::find, unicode_view.cc:65-73.  [pos] is unsigned. *)
Definition sv_find (s t : list Z) (pos : Z) : res Z :=
  if (zlen s =? 0) || (pos >? zlen s)
  then if (zlen s =? 0) && (pos =? 0) && (zlen t =? 0) then Ok 0 else Ok npos
  else
    let! r := memmatch s pos (zlen s - pos) t in
    Ok (match r with Some i => i | None => npos end).

(** string_view::find(char, size_type), string_view.cc:129-135; unicode_view.cc:75-81 *)
Definition sv_find_char (s : list Z) (c pos : Z) : res Z :=
  if (zlen s =? 0) || (pos >=? zlen s) then Ok npos
  else
    let! r := memchr (length s) s pos (zlen s) c in
    Ok (match r with Some i => i | None => npos end).

(** std::find_end(s, s + e, t, t + |t|): the last start of [t] inside [0, e), or [e].
    [k] counts down from the last possible start. *)
Fixpoint find_end_loop (k : nat) (s : list Z) (e : Z) (t : list Z) : res Z :=
  let! b := memeq s (Z.of_nat k) t in
  if b then Ok (Z.of_nat k)
  else match k with
       | O => Ok e
       | S k' => find_end_loop k' s e t
       end.

(** string_view::rfind(string_view, size_type), string_view.cc:137-145;
    unicode_view.cc:83-91 *)
Definition sv_rfind (s t : list Z) (pos : Z) : res Z :=
  if zlen s <? zlen t then Ok npos
  else if zlen t =? 0 then Ok (Z.min (zlen s) pos)
  else
    let last := Z.min (zlen s - zlen t) pos + zlen t in
    let! r := find_end_loop (Z.to_nat (last - zlen t)) s last t in
    Ok (if r =? last then npos else r).

(** string_view::rfind(char, size_type), string_view.cc:148-160; unicode_view.cc:94-106 *)
Fixpoint rfind_char_loop (k : nat) (s : list Z) (c : Z) : res Z :=
  let! x := rd s k in
  if x =? c then Ok (Z.of_nat k)
  else match k with
       | O => Ok npos
       | S k' => rfind_char_loop k' s c
       end.
Definition sv_rfind_char (s : list Z) (c pos : Z) : res Z :=
  if zlen s =? 0 then Ok npos
  else rfind_char_loop (Z.to_nat (Z.min pos (zlen s - 1))) s c.

(** UnicodeHelper::PyFind, unicode_helper.cc:107-114.  [start] is passed to find as it
    is: a negative value becomes a huge size_t. *)
Definition py_find (s t : list Z) (start end_ : Z) : res Z :=
  let end_ := slice_index_correction end_ (zlen s) in
  let! pos := sv_find s t (wrapu64 start) in
  if (pos =? npos) || (pos >? end_) || (wrapu64 (pos + zlen t) >? end_) then Ok (-1) else Ok pos.

(** StringHelper::Contains, string_helper.cc:94-96; unicode_helper.cc:99-101 *)
Definition contains (s t : list Z) : res bool :=
  let! p := sv_find s t 0 in Ok (negb (p =? npos)).

(** The while loop of Count, string_helper.cc:509-516, unicode_helper.cc:490-497.
    The size_t result of find is stored in an int64_t, so npos becomes -1. *)
Fixpoint count_loop (fuel : nat) (s x : list Z) (start end_ ret : Z) : res Z :=
  if start <? end_ then
    match fuel with
    | O => OutOfFuel
    | S fuel' =>
      let! p := sv_find s x (wrapu64 start) in
      let start := wraps64 p in
      if (start >? end_) || (start =? -1) then Ok ret
      else count_loop fuel' s x (start + zlen x) end_ (ret + 1)
    end
  else Ok ret.

(** StringHelper::Count, string_helper.cc:503-518; UnicodeHelper::Count,
    unicode_helper.cc:484-499 *)
Definition text_count (fuel : nat) (s x : list Z) (start end_ : Z) : res Z :=
  count_loop fuel s x (slice_index_correction start (zlen s))
             (slice_index_correction end_ (zlen s)) 0.

(** ** Splitting and joining *)

(** [while (p < e && isspace( *p)) ++p] *)
Fixpoint skip_while (fuel : nat) (P : Z -> bool) (s : list Z) (p e : Z) : res Z :=
  if p <? e then
    match fuel with
    | O => OutOfFuel
    | S fuel' =>
      let! x := rdz s p in
      if P x then skip_while fuel' P s (p + 1) e else Ok p
    end
  else Ok p.

(** The inner while loop of the whitespace Split, string_helper.cc:149-168,
    unicode_helper.cc:162-181; returns (fields, data_last). *)
Fixpoint split_ws_loop (fuel : nat) (isspace : Z -> bool) (s : list Z)
         (last cur maxsplit : Z) (out : list (list Z)) : res (list (list Z) * Z) :=
  if cur <? zlen s then
    match fuel with
    | O => OutOfFuel
    | S fuel' =>
      let! x := rdz s cur in
      if isspace x then
        if maxsplit >? 0 then
          let! w := vec_range s last cur in
          let! last' := skip_while (length s) isspace s (cur + 1) (zlen s) in
          split_ws_loop fuel' isspace s last' (last' + 1) (maxsplit - 1) (out ++ [w])
        else
          let! w := vec_range s last (zlen s) in
          Ok (out ++ [w], zlen s)
      else split_ws_loop fuel' isspace s last (cur + 1) maxsplit out
    end
  else Ok (out, last).

(** Split with sep None, string_helper.cc:135-171, unicode_helper.cc:148-184 *)
Definition split_ws (isspace : Z -> bool) (s : list Z) (maxsplit : Z) : res (list (list Z)) :=
  let maxsplit := if maxsplit <? 0 then int64_max else maxsplit in
  let! last := skip_while (length s) isspace s 0 (zlen s) in
  let! r := split_ws_loop (length s) isspace s last (last + 1) maxsplit [] in
  let '(out, last) := r in
  if last <? zlen s then
    let! w := vec_range s last (zlen s) in Ok (out ++ [w])
  else Ok out.

(** The for loop of Split with a separator, string_helper.cc:175-183,
    unicode_helper.cc:188-196 *)
Fixpoint split_sep_loop (fuel : nat) (s sep : list Z) (start maxsplit : Z)
         (out : list (list Z)) : res (list (list Z)) :=
  if start <? zlen s then
    match fuel with
    | O => OutOfFuel
    | S fuel' =>
      let! e := (if maxsplit >? 0 then sv_find s sep start else Ok npos) in
      if e =? npos then
        let! w := vec_range s start (zlen s) in Ok (out ++ [w])
      else
        let! w := vec_range s start e in
        split_sep_loop fuel' s sep (e + zlen sep) (maxsplit - 1) (out ++ [w])
    end
  else Ok out.

(** Split with a separator, string_helper.cc:172-185, unicode_helper.cc:185-198 (and the
    FTList versions SplitFT, string_helper.h:110-162, unicode_helper.h) *)
Definition split_sep (s sep : list Z) (maxsplit : Z) : res (list (list Z)) :=
  let maxsplit := if maxsplit <? 0 then int64_max else maxsplit in
  match sep with
  | [] => Exn CheckFailed
  | _ => split_sep_loop (length s) s sep 0 maxsplit []
  end.

(** traits::copy(data, v, |v|) into a buffer with [room] characters left. *)
Definition copy_out (room : Z) (out v : list Z) : res (Z * list Z) :=
  if zlen v <=? room then Ok (room - zlen v, out ++ v) else OOB.

(** Second pass of Join, string_helper.cc:272-278 *)
Fixpoint join_copy (room : Z) (out sep : list Z) (l : list (list Z)) : res (Z * list Z) :=
  match l with
  | [] => Ok (room, out)
  | v :: l' =>
    let! r := copy_out room out sep in
    let! r := copy_out (fst r) (snd r) v in
    join_copy (fst r) (snd r) sep l'
  end.

(** Join over a list, string_helper.cc:249-280 (FTList 282-311, JoinStringList 188-217;
    unicode_helper.cc likewise).  First pass: the capacity; second pass: copying.
    Characters of the buffer not written keep an arbitrary value: the model calls that
    [OOB], so a capacity that is too large is also detected. *)
Definition join_list (sep : list Z) (l : list (list Z)) : res (list Z) :=
  let cap := match l with
             | [] => 0
             | v :: l' => fold_left (fun c w => c + zlen sep + zlen w) l' (zlen v)
             end in
  let! r := match l with
            | [] => Ok (cap, [])
            | v :: l' =>
              let! r := copy_out cap [] v in
              join_copy (fst r) (snd r) sep l'
            end in
  if fst r =? 0 then Ok (snd r) else OOB.

(** Join over an iterator, string_helper.cc:236-247: the iterator yields the elements of
    [l] in order and then reports has_next = false. *)
Definition join_iter (sep : list Z) (l : list (list Z)) : list Z :=
  match l with
  | [] => []
  | v :: l' => fold_left (fun ret w => ret ++ sep ++ w) l' v
  end.

(** ** Replace *)

(** The while loop of Replace, string_helper.cc:325-330, unicode_helper.cc:307-312 *)
Fixpoint replace_loop (fuel : nat) (s old new : list Z) (current count : Z) (ret : list Z)
  : res (list Z) :=
  match fuel with
  | O => OutOfFuel
  | S fuel' =>
    let! next := sv_find s old current in
    if negb (next =? npos) && (count >? 0) then
      let! seg := vec_range s current next in
      replace_loop fuel' s old new (next + zlen old) (count - 1) (ret ++ seg ++ new)
    else
      let! seg := vec_range s current (zlen s) in
      Ok (ret ++ seg)
  end.

(** StringHelper::Replace, string_helper.cc:313-333; UnicodeHelper::Replace,
    unicode_helper.cc:295-315 *)
Definition text_replace (fuel : nat) (s old new : list Z) (count : Z) : res (list Z) :=
  replace_loop fuel s old new 0 (if count <? 0 then int64_max else count) [].

(** ** startswith / endswith *)

(** [v.compare(s.SubStrNoCheck(p, |v|)) == 0] *)
Definition compare_at (s v : list Z) (p : Z) : res bool :=
  let! w := vec_range s p (p + zlen v) in
  memeq w 0 v.

(** StringHelper::StartsWith, string_helper.cc:379-389; unicode_helper.cc:346-357 *)
Definition starts_with (s prefix : list Z) (start end_ : Z) : res bool :=
  let len := zlen s in
  let start := slice_index_correction start len in
  let end_ := slice_index_correction end_ len in
  if (end_ - start <? zlen prefix) || (start >=? len) then Ok false
  else compare_at s prefix start.

(** StringHelper::EndsWith, string_helper.cc:335-346; unicode_helper.cc:317-328 *)
Definition ends_with (s suffix : list Z) (start end_ : Z) : res bool :=
  let len := zlen s in
  let start := slice_index_correction start len in
  let end_ := slice_index_correction end_ len in
  if (end_ - start <? zlen suffix) || (start >=? len) then Ok false
  else compare_at s suffix (end_ - zlen suffix).

(** StartsWith over a tuple, string_helper.cc:391-402; [None] is an element that is not a
    byte string. *)
Fixpoint starts_with_any (s : list Z) (prefixes : list (option (list Z))) (start end_ : Z)
  : res bool :=
  match prefixes with
  | [] => Ok false
  | None :: _ => Exn TypeError
  | Some p :: ps =>
    let! b := starts_with s p start end_ in
    if b then Ok true else starts_with_any s ps start end_
  end.

(** EndsWith over a tuple, string_helper.cc:348-358 *)
Fixpoint ends_with_any (s : list Z) (suffixes : list (option (list Z))) (start end_ : Z)
  : res bool :=
  match suffixes with
  | [] => Ok false
  | None :: _ => Exn TypeError
  | Some p :: ps =>
    let! b := ends_with s p start end_ in
    if b then Ok true else ends_with_any s ps start end_
  end.

(** ** strip *)

(** [while (p >= lo && P( *p)) --p] *)
Fixpoint skip_back (fuel : nat) (P : Z -> bool) (s : list Z) (p lo : Z) : res Z :=
  if p >=? lo then
    match fuel with
    | O => OutOfFuel
    | S fuel' =>
      let! x := rdz s p in
      if P x then skip_back fuel' P s (p - 1) lo else Ok p
    end
  else Ok p.

(** LStrip, string_helper.cc:423-445, unicode_helper.cc:404-426.  [P] is
    UCHAR_ISSPACE / py_unicode_isspace when no character set is given and
    [chars.find(c) != npos] otherwise. *)
Definition lstrip (P : Z -> bool) (s : list Z) : res (list Z) :=
  let! p := skip_while (length s) P s 0 (zlen s) in
  if p <? zlen s then vec_range s p (zlen s) else Ok [].

(** RStrip, string_helper.cc:447-469, unicode_helper.cc:428-450 *)
Definition rstrip (P : Z -> bool) (s : list Z) : res (list Z) :=
  let! p := skip_back (length s) P s (zlen s - 1) 0 in
  if p >=? 0 then vec_range s 0 (p + 1) else Ok [].

(** Strip, string_helper.cc:471-501, unicode_helper.cc:452-482; the second loop runs
    while [data_right > data_left]. *)
Definition strip (P : Z -> bool) (s : list Z) : res (list Z) :=
  let! l := skip_while (length s) P s 0 (zlen s) in
  let! r := skip_back (length s) P s (zlen s - 1) (l + 1) in
  if r >=? l then vec_range s l (r + 1) else Ok [].

(** [chars.find(c) != chars.npos] *)
Definition in_chars (chars : list Z) (c : Z) : bool :=
  match sv_find_char chars c 0 with Ok i => negb (i =? npos) | _ => false end.

(** ** Character tables *)

(** __uchar_type_table restricted to UCHAR_CTF_SPACE (uchar_util.cc:32-289): the entries
    0x09..0x0d and 0x20.  UCHAR_ISSPACE, uchar_util.h:52, masks its argument to 8 bits. *)
Definition uchar_isspace (c : Z) : bool :=
  let c := c mod 256 in ((9 <=? c) && (c <=? 13)) || (c =? 32).

(** _PyUnicode_IsWhitespace, py_unicodetype_db.h:6235-6270: the case labels *)
Definition unicode_spaces : list Z :=
  [0x9; 0xA; 0xB; 0xC; 0xD; 0x1C; 0x1D; 0x1E; 0x1F; 0x20; 0x85; 0xA0; 0x1680;
   0x2000; 0x2001; 0x2002; 0x2003; 0x2004; 0x2005; 0x2006; 0x2007; 0x2008; 0x2009; 0x200A;
   0x2028; 0x2029; 0x202F; 0x205F; 0x3000].
Definition unicode_isspace (c : Z) : bool := existsb (Z.eqb c) unicode_spaces.

(** A byte read through a (signed) char *)
Definition schar (b : Z) : Z := if b <? 128 then b else b - 256.
Definition uchar (c : Z) : Z := c mod 256.

(** AsciiDoLower, utf8_util.cc:94-107 *)
Definition ascii_lower (s : list Z) : list Z :=
  map (fun b => let c := schar b in
                uchar (if (c <=? 90) && (c >=? 65) then c - 65 + 97 else c)) s.
(** AsciiDoUpper, utf8_util.cc:109-122 *)
Definition ascii_upper (s : list Z) : list Z :=
  map (fun b => let c := schar b in
                uchar (if (c <=? 122) && (c >=? 97) then c - 97 + 65 else c)) s.
(** AsciiIsDigit, utf8_util.h:56-58 (std::all_of) *)
Definition ascii_isdigit (s : list Z) : bool :=
  forallb (fun b => let c := schar b in (c >=? 48) && (c <=? 57)) s.
(** AsciiIsAlpha, utf8_util.h:60-64 *)
Definition ascii_isalpha (s : list Z) : bool :=
  forallb (fun b => let c := schar b in
                    ((c >=? 97) && (c <=? 122)) || ((c >=? 65) && (c <=? 90))) s.

(** ** StringUtil (string_util.cc) *)

(** StringUtil::Find on std::string, string_util.cc:135-183 (Sunday's algorithm).
    c_str() of a std::string of size n may be read at indices 0..n, the last being NUL;
    [int] arithmetic is taken not to overflow. *)
Definition c_str (s : list Z) : list Z := s ++ [0].

(** [for (j = target_len - 1; j >= 0; --j) if (target[j] == c) {index = j; break;}] *)
Fixpoint last_index (j : nat) (t : list Z) (c : Z) : res Z :=
  match j with
  | O => Ok (-1)
  | S j' =>
    let! x := rd t j' in
    if x =? c then Ok (Z.of_nat j') else last_index j' t c
  end.

Fixpoint su_find_loop (fuel : nat) (s t : list Z) (i j : Z) : res Z :=
  if i <? zlen s then
    match fuel with
    | O => OutOfFuel
    | S fuel' =>
      let! a := rdz (c_str s) i in
      let! b := rdz (c_str t) j in
      if a =? b then
        if j =? zlen t - 1 then Ok (i - zlen t + 1)
        else su_find_loop fuel' s t (i + 1) (j + 1)
      else
        let p := i - j + zlen t in
        let! c := rdz (c_str s) p in
        let! index := last_index (length t) t c in
        su_find_loop fuel' s t (if index =? -1 then p + 1 else p - index) 0
    end
  else Ok (-1).

Definition su_find (fuel : nat) (s t : list Z) : res Z :=
  let! a := rdz (c_str s) 0 in
  if a =? 0 then Ok (-1)
  else
    let! b := rdz (c_str t) 0 in
    if b =? 0 then Ok 0
    else if zlen s <? zlen t then Ok (-1)
    else su_find_loop fuel s t 0 0.

(** StringUtil::Replace, string_util.cc:42-51; input.find and input.replace of std::string *)
Fixpoint su_replace_loop (fuel : nat) (s t r : list Z) (pos : Z) : res (list Z) :=
  match fuel with
  | O => OutOfFuel
  | S fuel' =>
    let! p := sv_find s t pos in
    if p =? npos then Ok s
    else su_replace_loop fuel'
           (firstn (Z.to_nat p) s ++ r ++ skipn (Z.to_nat (p + zlen t)) s) t r (p + zlen r)
  end.

(** StringUtil::Concat, string_util.cc:115-133 *)
Definition su_concat (l : list (list Z)) (sep : list Z) : list Z := join_iter sep l.
