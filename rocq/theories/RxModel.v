(** * Model for C74: Regex.split and Regex.replace

    Files: src/runtime/regex/regex_helper.cc, regex_sub_helper.cc, regex_ref.cc.

    Texts are lists of bytes (the unicode overloads encode, call these functions and
    decode).  pcre_exec is the parameter [exec], from a start offset to an answer; the text and the
    compiled pattern are fixed.  Lengths and offsets are int in the code: texts are taken to be
    shorter than 2^31 bytes.  Memory allocation always succeeds. *)
From Coq Require Import ZArith List Bool Lia.
From Verif Require Import Base RxSpec.
Import ListNotations.
Local Open Scope Z_scope.

(** Copying [len] bytes from [p + from]; nothing is read when there is nothing to copy. *)
Definition copy (s : list Z) (from len : Z) : res (list Z) :=
  if len =? 0 then Ok []
  else if (0 <=? from) && (0 <=? len) && (from + len <=? Z.of_nat (length s))
       then Ok (firstn (Z.to_nat len) (skipn (Z.to_nat from) s))
       else OOB.

(** ** Split

    regex_helper.cc:340-367, the loop of RegexHelper::Split; [result] and [count] are its
    variables.  Failures of pcre_exec (a return of -1) are [Exn RuntimeError]. *)
Fixpoint split_loop (fuel : nat) (exec : Z -> answer) (s : list Z) (offset cp_offset count : Z)
    (result : list (list Z)) : res (Z * Z * list (list Z)) :=
  match fuel with
  | O => OutOfFuel
  | S fuel =>
      match exec offset with
      | ANoMatch => Ok (count, cp_offset, result)
      | AError => Exn RuntimeError
      | AUndefined => OOB
      | AFound rc captures =>
          if rc =? 0 then Exn RuntimeError
          else
            let! c0 := rd captures 0 in
            let! c1 := rd captures 1 in
            let! piece := copy s cp_offset (c0 - cp_offset) in
            let result := result ++ [piece] in
            if c1 =? c0 then
              if c1 + 1 >? Z.of_nat (length s) then Ok (count + 1, c1, result)
              else split_loop fuel exec s (c1 + 1) c1 (count + 1) result
            else split_loop fuel exec s c1 c1 (count + 1) result
      end
  end.

(** regex_helper.cc:323-379, RegexHelper::Split. *)
Definition helper_split (exec : Z -> answer) (s : list Z) : res (list (list Z)) :=
  let! (count, cp_offset, result) := split_loop (length s + 2) exec s 0 0 0 [] in
  let subject_len := Z.of_nat (length s) in
  if count =? 0 then let! all := copy s 0 subject_len in Ok [all]
  else if cp_offset <? subject_len then
         let! rest := copy s cp_offset (subject_len - cp_offset) in Ok (result ++ [rest])
       else Ok result.

(** regex_ref.cc:78-89, RegexNode::Split: an empty list when the helper fails. *)
Definition regex_split (exec : Z -> answer) (s : list Z) : res (list (list Z)) :=
  match helper_split exec s with
  | Ok result => Ok result
  | Exn _ => Ok []
  | OOB => OOB
  | OutOfFuel => OutOfFuel
  end.

(** ** The template

    regex_sub_helper.h:53-65: the two programs a template is compiled to, one that computes the length of
    the replacement and one that writes it.  They are arrays of bytes in the code, lists here. *)
Inductive len_code : Type := LCopy (len : Z) | LCapture (n : Z).
Inductive val_code : Type := VCopy (bytes : list Z) | VCapture (n : Z).

(** source[i]; the byte behind the last one is the terminating zero of the string. *)
Definition src (t : list Z) (i : nat) : res Z :=
  if (i =? length t)%nat then Ok 0 else rd t i.

Definition is_digit (ch : Z) : bool := (48 <=? ch) && (ch <=? 57).
Definition is_name_char (ch : Z) : bool :=
  ((65 <=? ch) && (ch <=? 90)) || ((97 <=? ch) && (ch <=? 122)) || is_digit ch || (ch =? 95).

(** regex_sub_helper.cc:298-318, the loop over the name of a variable: gives i, bracket,
    name_len and n (a size_t, so modulo 2^64). *)
Fixpoint name_loop (fuel : nat) (t : list Z) (i name_len : nat) (bracket num_var : bool) (n : Z)
    : res (nat * bool * nat * Z) :=
  match fuel with
  | O => OutOfFuel
  | S fuel =>
      if (i <? length t)%nat then
        let! ch := src t i in
        if (ch =? 125) && bracket then Ok (S i, false, name_len, n)
        else if num_var then
               if is_digit ch then name_loop fuel t (S i) (S name_len) bracket num_var (wrapu64 (n * 10 + (ch - 48)))
               else Ok (i, bracket, name_len, n)
             else if is_name_char ch then name_loop fuel t (S i) (S name_len) bracket num_var n
                  else Ok (i, bracket, name_len, n)
      else Ok (i, bracket, name_len, n)
  end.

(** regex_sub_helper.cc:345-351, the loop over ordinary characters. *)
Fixpoint text_loop (fuel : nat) (t : list Z) (i name_len : nat) : res (nat * nat) :=
  match fuel with
  | O => OutOfFuel
  | S fuel =>
      if (i <? length t)%nat then
        let! ch := src t i in
        if ch =? 36 then Ok (i, name_len) else text_loop fuel t (S i) (S name_len)
      else Ok (i, name_len)
  end.

(** regex_sub_helper.cc:245-357, replaceScriptCompile; 359-402 for the two kinds of code.  A
    return of 0 is [Exn ValueError]. *)
Fixpoint script_compile (fuel : nat) (t : list Z) (i : nat) (lengths : list len_code) (values : list val_code)
    : res (list len_code * list val_code) :=
  match fuel with
  | O => OutOfFuel
  | S fuel =>
      if (i <? length t)%nat then
        let! ch := src t i in
        if ch =? 36 then
          let i := S i in
          let! ch := src t i in
          if ch =? 0 then Exn ValueError
          else if ch =? 36 then
            let! bytes := copy t (Z.of_nat i) 1 in
            script_compile fuel t (S i) (lengths ++ [LCopy 1]) (values ++ [VCopy bytes])
          else
            let num_var := is_digit ch in
            let! (i, bracket, num_var) :=
              (if ch =? 123 then
                 let! ch := src t (S i) in
                 if ch =? 0 then Exn ValueError
                 else Ok (S i, true, if is_digit ch then true else num_var)
               else Ok (i, false, num_var)) in
            let! (i, bracket, name_len, n) := name_loop (S (length t)) t i 0 bracket num_var 0 in
            if bracket : bool then Exn ValueError
            else if (name_len =? 0)%nat then Exn ValueError
            else if negb num_var then Exn ValueError
            else
              script_compile fuel t i (lengths ++ [LCapture (wrapu64 (2 * n))])
                (values ++ [VCapture (wrapu64 (2 * n))])
        else
          let! (j, name_len) := text_loop (S (length t)) t i 0 in
          let! bytes := copy t (Z.of_nat i) (Z.of_nat name_len) in
          script_compile fuel t j (lengths ++ [LCopy (Z.of_nat name_len)]) (values ++ [VCopy bytes])
      else Ok (lengths, values)
  end.

(** regex_sub_helper.cc:107-157, Compile: no program ([None]) when there is no dollar. *)
Definition tpl_compile (t : list Z) : res (option (list len_code * list val_code)) :=
  let nv := length (filter (Z.eqb 36) t) in
  if (nv =? 0)%nat then Ok None
  else rmap Some (script_compile (S (length t)) t 0 [] []).

(** regex_sub_helper.cc:31-51, the two length codes. *)
Definition run_len (ncaptures : Z) (cap : list Z) (c : len_code) : res Z :=
  match c with
  | LCopy len => Ok len
  | LCapture n =>
      if n <? ncaptures then
        let! b := rdz cap (n + 1) in
        let! a := rdz cap n in
        Ok (b - a)
      else Ok 0
  end.

(** regex_sub_helper.cc:53-81, the two codes that write: the bytes they write. *)
Definition run_val (subject : list Z) (ncaptures : Z) (cap : list Z) (c : val_code) : res (list Z) :=
  match c with
  | VCopy bytes => Ok bytes
  | VCapture n =>
      if n <? ncaptures then
        let! a := rdz cap n in
        let! b := rdz cap (n + 1) in
        copy subject a (b - a)
      else Ok []
  end.

(** regex_sub_helper.cc:181-185. *)
Fixpoint run_lens (ncaptures : Z) (cap : list Z) (cs : list len_code) (len : Z) : res Z :=
  match cs with
  | [] => Ok len
  | c :: cs => let! k := run_len ncaptures cap c in run_lens ncaptures cap cs (len + k)
  end.

(** regex_sub_helper.cc:193-196; [out] is what lies before e.pos, [size] the size of the
    block p: writing behind it is outside of the memory. *)
Fixpoint run_vals (subject : list Z) (ncaptures : Z) (cap : list Z) (size : Z) (cs : list val_code) (out : list Z)
    : res (list Z) :=
  match cs with
  | [] => Ok out
  | c :: cs =>
      let! bytes := run_val subject ncaptures cap c in
      let out := out ++ bytes in
      if Z.of_nat (length out) <=? size then run_vals subject ncaptures cap size cs out else OOB
  end.

(** regex_sub_helper.cc:159-201, Replace: what is appended to the result.  Appending bytes of p that were
    never written is reading outside of the object ([copy] from what was written). *)
Definition sub_replace (subject : list Z) (offset count : Z) (cap : list Z) (t : list Z)
    (val : option (list len_code * list val_code)) : res (list Z) :=
  match val with
  | None =>
      let! c0 := rd cap 0 in
      let! before := copy subject offset (c0 - offset) in
      Ok (before ++ t)
  | Some (lengths, values) =>
      let ncaptures := count * 2 in
      let! len := run_lens ncaptures cap lengths 0 in
      let! p := run_vals subject ncaptures cap (len + 1) values [] in
      let! c0 := rd cap 0 in
      let! before := copy subject offset (c0 - offset) in
      let! new := copy p 0 len in
      Ok (before ++ new)
  end.

(** regex_helper.cc:413-458, the loop of SubHelper with match_only false. *)
Fixpoint sub_loop (fuel : nat) (exec : Z -> answer) (s t : list Z) (val : option (list len_code * list val_code))
    (global : bool) (offset cp_offset count : Z) (result : list Z) : res (Z * Z * list Z) :=
  match fuel with
  | O => OutOfFuel
  | S fuel =>
      match exec offset with
      | ANoMatch => Ok (count, cp_offset, result)
      | AError => Exn RuntimeError
      | AUndefined => OOB
      | AFound rc captures =>
          if rc =? 0 then Exn RuntimeError
          else
            let! new := sub_replace s cp_offset rc captures t val in
            let result := result ++ new in
            let! c0 := rd captures 0 in
            let! c1 := rd captures 1 in
            if c1 =? c0 then
              if c1 + 1 >? Z.of_nat (length s) then Ok (count + 1, c1, result)
              else if global then sub_loop fuel exec s t val global (c1 + 1) c1 (count + 1) result
                   else Ok (count + 1, c1, result)
            else if global then sub_loop fuel exec s t val global c1 c1 (count + 1) result
                 else Ok (count + 1, c1, result)
      end
  end.

(** regex_helper.cc:381-473, SubHelper with match_only false. *)
Definition sub_helper (exec : Z -> answer) (s t : list Z) (global : bool) : res (list Z) :=
  let! ctpl := tpl_compile t in
  let! (count, cp_offset, result) := sub_loop (length s + 2) exec s t ctpl global 0 0 0 [] in
  let subject_len := Z.of_nat (length s) in
  if count =? 0 then copy s 0 subject_len
  else if cp_offset <? subject_len then
         let! rest := copy s cp_offset (subject_len - cp_offset) in Ok (result ++ rest)
       else Ok result.

(** regex_ref.cc:123-131, RegexNode::Replace: the text itself when the helper fails. *)
Definition regex_replace (exec : Z -> answer) (s t : list Z) : res (list Z) :=
  match sub_helper exec s t true with
  | Ok result => Ok result
  | Exn _ => Ok s
  | OOB => OOB
  | OutOfFuel => OutOfFuel
  end.

(** ** Match

    regex_helper.cc:243-251: the texts of the groups i, i + 1, ..., [k] of them. *)
Fixpoint match_groups (s : list Z) (rc : Z) (captures : list Z) (i : Z) (k : nat) : res (list (list Z)) :=
  match k with
  | O => Ok []
  | S k =>
      let! g :=
        (if i >=? rc then Ok []
         else let! a := rdz captures (2 * i) in
              if a <? 0 then Ok []
              else let! b := rdz captures (2 * i + 1) in copy s a (b - a)) in
      rmap (cons g) (match_groups s rc captures (i + 1) k)
  end.

(** regex_helper.cc:258, [(name_entry[0] << 8) | name_entry[1]] with the two bytes PCRE wrote for group
    [num]; they are char, which is signed. *)
Definition schar (b : Z) : Z := if b <? 128 then b else b - 256.
Definition name_number (num : Z) : Z := Z.lor (schar (num / 256) * 256) (schar (num mod 256)).

(** regex_helper.cc:253-273 (no PCRE_DUPNAMES: the constructor has no such option) together
    with regex_ref.cc:174-182, which looks the numbers up in the groups.  The comparison
    [n >= match_array->size()] is one of unsigned numbers: a negative n is larger. *)
Fixpoint match_names (groups : list (list Z)) (names : list (list Z * Z)) : res (list (list Z * list Z)) :=
  match names with
  | [] => Ok []
  | (name, num) :: names =>
      let n := name_number num in
      if wrapu64 n >=? Z.of_nat (length groups) then match_names groups names
      else let! g := rdz groups n in rmap (cons (name, g)) (match_names groups names)
  end.

(** regex_helper.cc:208-275 and regex_ref.cc:158-184, RegexNode::Match on bytes: two empty containers when
    the helper fails or finds nothing.  [compile_option] says whether the pattern was made with
    ignore_case, dotall or extended: regex_ref.cc:162 passes these to pcre_exec, which accepts none of
    them (PCRE_ERROR_BADOPTION). *)
Definition regex_match (exec : Z -> answer) (compile_option : bool) (ncaptures : nat) (names : list (list Z * Z))
    (s : list Z) (offset : Z) : res (list (list Z) * list (list Z * list Z)) :=
  if Z.of_nat (length s) <=? 0 then Ok ([], [])
  else
    match (if compile_option then AError else exec offset) with
    | ANoMatch => Ok ([], [])
    | AError => Ok ([], [])
    | AUndefined => OOB
    | AFound rc captures =>
        if rc =? 0 then Ok ([], [])
        else
          let! groups := match_groups s rc captures 0 (S ncaptures) in
          let! named := match_names groups names in
          Ok (groups, named)
    end.
