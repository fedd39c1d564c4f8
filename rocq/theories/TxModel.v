(** Text operators: WordPieceTokenizer (text/wordpiece_tokenizer.cc) and EmojiFilter
    (text/emoji_filter.cc, emoji_filter.h), over the double array of TrModel.

    Simplified: the vocabulary is given by its lines, in the order FileReader::ReadLine hands them
    out (what it hands out is C56); the two tables of emoji codes are given by the caller.  [UB]
    is [OOB]: reading or writing outside of an array, or reading what nobody has written. *)
From Verif Require Import Base ListAux Utf8Model TrModel.
Local Open Scope Z_scope.

(** PrefixMapping::PrefixSearch, src/runtime/algorithm/prefix_mapping.cc:48-69; [val] is what
    the caller's variable holds before *)
Definition search (t : da) (w : list Z) (val : Z) : res (Z * Z) :=
  let! l := common_prefix_search t 0 0 w in
  let! l := results l in
  Ok (longest l val).

(** An argument, or an item of the sentence: str, bytes, or something else (None among it) *)
Inductive arg : Type := Text (x : text) | Nothing | Other.
(** commons::details::GetString, text/common_funcs.h:52-70 *)
Definition get_string (a : arg) : res (list Z) :=
  match a with Text x => bytes_of x | _ => Exn TypeError end.

(** ** WordPieceTokenizer *)
(** An item of the result: an id, bytes or str *)
Inductive item : Type := Id (n : Z) | Piece (x : text).

(** The fields, wordpiece_tokenizer.cc:72-80; [unk_id = None]: never written *)
Record tokenizer := Tok { vocab : da; skip_empty : bool; lookup_id : bool; max_bytes : Z;
                          unk : list Z; unk_id : option Z; prefix : list Z }.

(** The loop over the file, wordpiece_tokenizer.cc:100-112 *)
Fixpoint read_vocab (m : list (list Z * Z)) (lines : list (list Z)) (line_no : Z) : list (list Z * Z) :=
  match lines with
  | [] => m
  | [] :: lines => read_vocab m lines line_no
  | line :: lines => read_vocab (emplace m line (wraps32 line_no)) lines (line_no + 1)
  end.

(** Constructor, wordpiece_tokenizer.cc:83-120, and the call, 351-365.  [None]: std::exit in the trie.  The unk token is
    searched for with [unk_id_] uninitialised: a token that is found sets it. *)
Definition make_tokenizer (lines : list (list Z)) (lookup : bool) (unk_token subwords_prefix : arg)
  (skip : bool) (max : Z) : res (option tokenizer) :=
  let! pre := get_string subwords_prefix in
  let! _ := match unk_token with
            | Nothing => if lookup then Exn CheckFailed else Ok tt
            | _ => Ok tt
            end in
  let! u := get_string unk_token in
  let! o := build initial (read_vocab [] lines 0) in
  match o with
  | None => Ok None
  | Some t =>
    match unk_token with
    | Nothing => Ok (Some (Tok t skip lookup (wraps32 max) u (Some (-1)) pre))
    | _ =>
      let! (n, v) := search t u 0 in
      if n =? Z.of_nat (length u)
      then Ok (Some (Tok t skip lookup (wraps32 max) u (if n =? 0 then None else Some v) pre))
      else Exn CheckFailed
    end
  end.

(** post_func, wordpiece_tokenizer.cc:235-237, 244-246, 258-260, 267-269: appends the id, the
    bytes or, for a str, what the bytes decode to *)
Definition post (T : tokenizer) (str : bool) (out : list item) (buf : list Z) (value : option Z)
  : res (list item) :=
  if lookup_id T then
    match value with Some v => Ok (out ++ [Id v]) | None => UB end
  else if str then let! cs := utf8_decode buf in Ok (out ++ [Piece (Str cs)])
  else Ok (out ++ [Piece (Bytes buf)]).
Definition post_unk (T : tokenizer) (str : bool) (out : list item) : res (list item) :=
  post T str out (unk T) (unk_id T).

(** output_tokens.pop_back(), [n] times *)
Fixpoint pop_back (n : nat) (out : list item) : res (list item) :=
  match n with
  | O => Ok out
  | S n => match out with [] => UB | _ => pop_back n (removelast out) end
  end.

(** A char buffer: None where nothing has been written *)
Definition buffer := list (option Z).
(** SmallBuffer<512>, text/common_funcs.h:30-50; the size is an int *)
Definition small_buffer (size : Z) : buffer := repeat None (Z.to_nat (if 512 <? wraps32 size then wraps32 size else 512)).
(** std::memcpy(buf + at, src, n) *)
Definition memcpy (b : buffer) (at_ : nat) (src : list Z) : res buffer :=
  if (length b <? at_ + length src)%nat then UB
  else Ok (firstn at_ b ++ map Some src ++ skipn (at_ + length src) b).
(** The [n] bytes at [at_] *)
Fixpoint written (b : buffer) : res (list Z) :=
  match b with
  | [] => Ok []
  | None :: _ => UB
  | Some c :: b => let! l := written b in Ok (c :: l)
  end.
Definition bytes_at (b : buffer) (at_ n : nat) : res (list Z) :=
  if (length b <? at_ + n)%nat then UB else written (firstn n (skipn at_ b)).

(** The while loop of TokenizeImplWithPrefix, wordpiece_tokenizer.cc:162-180 *)
Fixpoint sub_loop (fuel : nat) (T : tokenizer) (str : bool) (b : buffer) (at_ len : nat) (value : Z)
  (count : nat) (out : list item) : res (list item) :=
  match fuel with
  | O => OutOfFuel
  | S fuel =>
    if (0 <? len)%nat then
      let! w := bytes_at b at_ len in
      let! (m, value) := search (vocab T) w value in
      let m := Z.to_nat m in
      if (m =? len)%nat then post T str out (firstn m w) (Some value)
      else if (m <=? length (prefix T))%nat then
        let! out := pop_back count out in post_unk T str out
      else
        let! out := post T str out (firstn m w) (Some value) in
        let k := (m - length (prefix T))%nat in
        let! b := memcpy b (at_ + k) (prefix T) in
        sub_loop fuel T str b (at_ + k) (len - k) value (S count) out
    else Ok out
  end.

(** TokenizeImplWithPrefix, wordpiece_tokenizer.cc:122-182 *)
Definition tokenize_with_prefix (T : tokenizer) (str : bool) (w : list Z) (out : list item) : res (list item) :=
  let! b := memcpy (small_buffer (Z.of_nat (length w) + Z.of_nat (length (prefix T)))) 0 (prefix T) in
  if skip_empty T && (length w =? 0)%nat then Ok out
  else if max_bytes T <? Z.of_nat (length w) then post_unk T str out
  else
    let! (m, value) := search (vocab T) w (-1) in
    let m := Z.to_nat m in
    if (m =? length w)%nat then post T str out (firstn m w) (Some value)
    else if (m =? 0)%nat then post_unk T str out
    else
      let! out := post T str out (firstn m w) (Some value) in
      let r := skipn m w in
      let! b := memcpy b (length (prefix T)) r in
      sub_loop (S (length w)) T str b 0 (length r + length (prefix T)) value 1 out.

(** The while loop of TokenizeImplNoPrefix, wordpiece_tokenizer.cc:212-229 *)
Fixpoint plain_loop (fuel : nat) (T : tokenizer) (str : bool) (w : list Z) (value : Z)
  (count : nat) (out : list item) : res (list item) :=
  match fuel with
  | O => OutOfFuel
  | S fuel =>
    if (0 <? length w)%nat then
      let! (m, value) := search (vocab T) w value in
      let m := Z.to_nat m in
      if (m =? length w)%nat then post T str out (firstn m w) (Some value)
      else if (m =? 0)%nat then
        let! out := pop_back count out in post_unk T str out
      else
        let! out := post T str out (firstn m w) (Some value) in
        plain_loop fuel T str (skipn m w) value (S count) out
    else Ok out
  end.

(** TokenizeImplNoPrefix, wordpiece_tokenizer.cc:184-231 *)
Definition tokenize_no_prefix (T : tokenizer) (str : bool) (w : list Z) (out : list item) : res (list item) :=
  if skip_empty T && (length w =? 0)%nat then Ok out
  else if max_bytes T <? Z.of_nat (length w) then post_unk T str out
  else
    let! (m, value) := search (vocab T) w (-1) in
    let m := Z.to_nat m in
    if (m =? length w)%nat then post T str out (firstn m w) (Some value)
    else if (m =? 0)%nat then post_unk T str out
    else
      let! out := post T str out (firstn m w) (Some value) in
      plain_loop (S (length w)) T str (skipn m w) value 1 out.

(** tokenize of a string_view or unicode_view, wordpiece_tokenizer.cc:233-276 *)
Definition tokenize_word (T : tokenizer) (x : text) (out : list item) : res (list item) :=
  let! w := bytes_of x in
  let str := match x with Str _ => true | Bytes _ => false end in
  match prefix T with
  | [] => tokenize_no_prefix T str w out
  | _ => tokenize_with_prefix T str w out
  end.

(** tokenize of a List, wordpiece_tokenizer.cc:278-293, 318-331 *)
Fixpoint tokenize (T : tokenizer) (sentence : list arg) (out : list item) : res (list item) :=
  match sentence with
  | [] => Ok out
  | Text x :: sentence => let! out := tokenize_word T x out in tokenize T sentence out
  | _ => Exn CheckFailed
  end.
(** tokenize_with_meta, wordpiece_tokenizer.cc:295-316, 333-347 *)
Fixpoint tokenize_with_meta (T : tokenizer) (sentence : list arg) (out : list item) (lens : list Z)
  : res (list item * list Z) :=
  match sentence with
  | [] => Ok (out, lens)
  | Text x :: sentence =>
    let last_size := Z.of_nat (length out) in
    let! out := tokenize_word T x out in
    tokenize_with_meta T sentence out (lens ++ [Z.of_nat (length out) - last_size])
  | _ => Exn CheckFailed
  end.

(** ** EmojiFilter *)
(** dic[key] = 0 of std::map, for AppendResource, emoji_filter.cc:37-61 *)
Fixpoint append_codes (m : list (list Z * Z)) (codes : list arg) : res (list (list Z * Z)) :=
  match codes with
  | [] => Ok m
  | a :: codes => let! k := get_string a in append_codes (emplace m k 0) codes
  end.
(** Constructor, emoji_filter.cc:63-102: the tables asked for, then the codes of the user (list,
    tuple, set or keys of a dict, in their order; none for None) *)
Definition make_filter (codes : list arg) : res (option da) :=
  let! m := append_codes [] codes in build initial m.

(** Replace with a repl that is not empty, emoji_filter.cc:104-131 *)
Fixpoint replace_loop (fuel : nat) (t : da) (s repl : list Z) (keep_all last_is_emoji : bool) (result : list Z)
  : res (list Z) :=
  match fuel with
  | O => OutOfFuel
  | S fuel =>
    match s with
    | [] => Ok result
    | c :: s' =>
      let! (m, _) := search t s 0 in
      if m <=? 0 then replace_loop fuel t s' repl keep_all false (result ++ [c])
      else replace_loop fuel t (skipn (Z.to_nat m) s) repl keep_all true
             (if keep_all || negb last_is_emoji then result ++ repl else result)
    end
  end.
(** Filter, emoji_filter.cc:133-152 *)
Fixpoint filter_loop (fuel : nat) (t : da) (s : list Z) (result : list Z) : res (list Z) :=
  match fuel with
  | O => OutOfFuel
  | S fuel =>
    match s with
    | [] => Ok result
    | c :: s' =>
      let! (m, _) := search t s 0 in
      if m <=? 0 then filter_loop fuel t s' (result ++ [c])
      else filter_loop fuel t (skipn (Z.to_nat m) s) result
    end
  end.
Definition filter_bytes (t : da) (s : list Z) : res (list Z) := filter_loop (S (length s)) t s [].
Definition replace_bytes (t : da) (s repl : list Z) (keep_all : bool) : res (list Z) :=
  match repl with
  | [] => filter_bytes t s
  | _ => replace_loop (S (length s)) t s repl keep_all false []
  end.

(** filter, emoji_filter.cc:167-187 *)
Definition filter_text (t : da) (s : arg) : res text :=
  match s with
  | Text (Bytes b) => let! r := filter_bytes t b in Ok (Bytes r)
  | Text (Str cs) =>
    let! b := utf8_encode cs in let! r := filter_bytes t b in let! cs := utf8_decode r in Ok (Str cs)
  | _ => Exn TypeError
  end.
(** replace, emoji_filter.cc:188-211; the other kind of repl is refused *)
Definition replace_text (t : da) (s repl : arg) (keep_all : bool) : res text :=
  match s with
  | Text (Bytes b) =>
    match repl with
    | Text (Bytes q) => let! r := replace_bytes t b q keep_all in Ok (Bytes r)
    | _ => Exn TypeError
    end
  | Text (Str cs) =>
    let! b := utf8_encode cs in
    match repl with
    | Text (Str q) =>
      let! q := utf8_encode q in
      let! r := replace_bytes t b q keep_all in let! cs := utf8_decode r in Ok (Str cs)
    | _ => Exn TypeError
    end
  | _ => Exn TypeError
  end.
(** CheckPos, emoji_filter.h:53-58 *)
Definition check_bytes (t : da) (s : list Z) (pos : Z) : res Z :=
  if Z.of_nat (length s) <? pos then Ok 0
  else let! (m, _) := search t (skipn (Z.to_nat pos) s) 0 in Ok m.
(** check_pos, emoji_filter.cc:212-236.  UTF8Encode(us.data() + pos, us.size()) reads as many
    characters as the whole str has, from [pos] on; a str has one NUL behind its end
    (string_core.h), and what follows is not its own. *)
Definition check_text (t : da) (s : arg) (pos : Z) : res Z :=
  match s with
  | Text (Bytes b) => check_bytes t b (slice_index_correction pos (Z.of_nat (length b)))
  | Text (Str cs) =>
    let pos := Z.to_nat (slice_index_correction pos (Z.of_nat (length cs))) in
    if (length cs + 1 <? pos + length cs)%nat then UB
    else
      let! b := utf8_encode (firstn (length cs) (skipn pos (cs ++ [0]))) in
      let! n := check_bytes t b 0 in
      greedy_count (firstn (Z.to_nat n) b)
  | _ => Exn TypeError
  end.
