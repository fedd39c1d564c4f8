(** WordPiece and emoji filtering as their users know them.  Words are over bytes (bytes) or over
    characters (str); a str stands for its UTF-8 encoding [enc] in files and in limits on bytes.
    From the model only the syntax of arguments and results is used. *)
From Verif Require Import Base TrModel TxModel.
From Verif Require TrSpec.
Local Open Scope Z_scope.

Definition enc := TrSpec.enc.
Definition coded := TrSpec.coded.
(** bytes of bytes, or code points of a str *)
Definition proper (x : text) : Prop := TrSpec.proper x.
(** A text of the same kind as [x]: of these bytes or characters; of this text *)
Definition remake (x : text) (cs : list Z) : text := match x with Bytes _ => Bytes cs | Str _ => Str cs end.
Definition same_kind (x : text) (cs : list Z) : text := match x with Bytes _ => Bytes (enc cs) | Str _ => Str cs end.

(** ** WordPiece *)
(** The id of a line: its number among the lines that are not empty, from 0; the first number if the
    line is repeated. *)
Fixpoint id_from (lines : list (list Z)) (n : Z) (k : list Z) : option Z :=
  match lines with
  | [] => None
  | [] :: lines => id_from lines n k
  | l :: lines => if list_eq_dec Z.eq_dec l k then Some n else id_from lines (n + 1) k
  end.
Definition id_of (lines : list (list Z)) (x : text) : option Z := id_from lines 0 (coded x).
Definition known (lines : list (list Z)) (x : text) : bool := match id_of lines x with Some _ => true | None => false end.

(** The greatest number up to [n] of items of [cs] that together, with [pre] before them, are
    known; 0 if there is none *)
Fixpoint longest_known (has : list Z -> bool) (pre cs : list Z) (n : nat) : nat :=
  match n with
  | O => O
  | S m => if has (pre ++ firstn n cs) then n else longest_known has pre cs m
  end.
(** Longest match first, each piece but the first with [pre] before it; None when stuck.
    [fuel]: the length of the word is enough. *)
Fixpoint pieces (fuel : nat) (has : list Z -> bool) (pre : list Z) (first : bool) (cs : list Z) : option (list (list Z)) :=
  match cs with
  | [] => Some []
  | _ =>
    match fuel with
    | O => None
    | S fuel =>
      let q := if first then [] else pre in
      match longest_known has q cs (length cs) with
      | O => None
      | n => match pieces fuel has pre false (skipn n cs) with
             | Some l => Some ((q ++ firstn n cs) :: l)
             | None => None
             end
      end
    end
  end.

(** What a tokenizer shows for a word: the pieces, or the unknown token [u] when the word is too
    long or cannot be made of pieces; as ids or as texts *)
Definition show (lines : list (list Z)) (lookup : bool) (x : text) : item :=
  if lookup then Id (match id_of lines x with Some n => n | None => -1 end) else Piece x.
Definition expected (lines : list (list Z)) (lookup : bool) (u p : list Z) (max : Z) (x : text) : list item :=
  let stuck := [show lines lookup (same_kind x u)] in
  if max <? Z.of_nat (length (coded x)) then stuck
  else match pieces (length (chars x)) (fun cs => known lines (remake x cs)) (chars (same_kind x p)) true (chars x) with
       | None => stuck
       | Some l => map (fun cs => show lines lookup (remake x cs)) l
       end.

(** ** Emoji *)
(** The text cut, from its start, into the longest codes that begin where the last part ended, and
    single items where none does; true for a code *)
Inductive cuts (has : list Z -> bool) : list Z -> list (bool * list Z) -> Prop :=
| cuts_end : cuts has [] []
| cuts_code n cs l : (1 <= n <= length cs)%nat -> has (firstn n cs) = true ->
    (forall m, (n < m <= length cs)%nat -> has (firstn m cs) = false) ->
    cuts has (skipn n cs) l -> cuts has cs ((true, firstn n cs) :: l)
| cuts_item c cs l : (forall m, (1 <= m <= S (length cs))%nat -> has (firstn m (c :: cs)) = false) ->
    cuts has cs l -> cuts has (c :: cs) ((false, [c]) :: l).
(** without the codes *)
Definition without (l : list (bool * list Z)) : list Z :=
  flat_map (fun p : bool * list Z => if fst p then [] else snd p) l.
(** with [repl] for each code, or for each run of codes *)
Fixpoint with_repl (repl : list Z) (each : bool) (after : bool) (l : list (bool * list Z)) : list Z :=
  match l with
  | [] => []
  | (true, _) :: l => (if each || negb after then repl else []) ++ with_repl repl each true l
  | (false, c) :: l => c ++ with_repl repl each false l
  end.
(** one of the codes *)
Definition among (codes : list text) (x : text) : bool :=
  existsb (fun k => if list_eq_dec Z.eq_dec (coded k) (coded x) then true else false) codes.

(** ** Which arguments *)
Definition point (c : Z) : Prop := 0 <= c <= 1114111.
(** at most 64 of the prefixes of any byte string are known *)
Definition shallow (has : text -> bool) : Prop :=
  forall w, (length (filter (fun n => has (Bytes (firstn n w))) (seq 1 (length w))) <= 64)%nat.
(** the lines are bytes without NUL *)
Definition good_lines (lines : list (list Z)) : Prop :=
  Forall (Forall (fun c => 0 < c < 256)) lines /\ Z.of_nat (length lines) < 2 ^ 31 /\ shallow (known lines).
Definition is_text (k : list Z) : Prop := exists cs, Forall point cs /\ k = enc cs.
Definition good_text (x : text) : Prop := proper x /\ ~ In 0 (chars x).
(** a word of a sentence: no NUL; not empty, unless those are skipped; a vocabulary used for str is text *)
Definition good_word (lines : list (list Z)) (skip : bool) (p : list Z) (x : text) : Prop :=
  good_text x /\ (skip = true \/ chars x <> []) /\
  Z.of_nat (length (enc p)) + Z.of_nat (length (coded x)) < 2 ^ 31 /\
  match x with Str _ => Forall is_text lines | Bytes _ => True end.
(** codes: not empty, no NUL *)
Definition good_codes (codes : list text) : Prop :=
  Forall (fun k => good_text k /\ chars k <> []) codes /\ shallow (among codes).
(** codes used for str are text *)
Definition codes_for (codes : list text) (x : text) : Prop :=
  match x with Str _ => Forall (fun k => is_text (coded k)) codes | Bytes _ => True end.
(** a position at the start of a str, or anywhere in bytes *)
Definition start (x : text) (pos : Z) : Prop :=
  match x with Bytes _ => True | Str cs => pos = 0 \/ pos <= - Z.of_nat (length cs) end.
