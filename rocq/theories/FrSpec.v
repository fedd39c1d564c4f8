(** What Python shows of a file that is open for reading.  No reader here: only the characters (or
    bytes) that have not been read yet. *)
From Verif Require Import Base FrModel.
Local Open Scope Z_scope.

(** The lines of a text, each with its newline; the last one may have none *)
Fixpoint lines (s : list Z) : list (list Z) :=
  match s with
  | [] => []
  | c :: s =>
    if c =? 10 then [10] :: lines s
    else match lines s with [] => [[c]] | l :: ls => (c :: l) :: ls end
  end.

(** Text mode makes "\r\n" and "\r" into "\n" *)
Fixpoint universal (s : list Z) : list Z :=
  match s with
  | [] => []
  | c :: t =>
    if c =? 13 then match t with d :: u => if d =? 10 then 10 :: universal u else 10 :: universal t | [] => [10] end
    else c :: universal t
  end.

(** One call: what is left to read, what the script sees *)
Definition pystep (s : list Z) (o : op) : list Z * obs :=
  match o with
  | ReadLine => (concat (tl (lines s)), Text (hd [] (lines s)))
  | ReadLines | ForLines => ([], Texts (lines s))
  | Read n => if n <? 0 then ([], Text s) else (skipn (Z.to_nat n) s, Text (firstn (Z.to_nat n) s))
  end.
Fixpoint pyrun (s : list Z) (ops : list op) : list obs :=
  match ops with
  | [] => []
  | o :: ops => let (s, x) := pystep s o in x :: pyrun s ops
  end.
Definition python (binary : bool) (content : list Z) (ops : list op) : list obs :=
  pyrun (if binary then content else universal content) ops.

(** The bytes of the file with this content: as they are, or the characters in UTF-8 (RFC 3629) *)
Definition utf8 (c : Z) : list Z :=
  if c <? 128 then [c]
  else if c <? 2048 then [192 + c / 64; 128 + c mod 64]
  else if c <? 65536 then [224 + c / 4096; 128 + c / 64 mod 64; 128 + c mod 64]
  else [240 + c / 262144; 128 + c / 4096 mod 64; 128 + c / 64 mod 64; 128 + c mod 64].
Definition file (binary : bool) (content : list Z) : list Z := if binary then content else flat_map utf8 content.
(** Bytes, or characters that UTF-8 can write *)
Definition valid (binary : bool) (content : list Z) : Prop :=
  Forall (fun c => if binary then 0 <= c < 256 else 0 <= c < 55296 \/ 57344 <= c < 1114112) content.

Definition no_cr (s : list Z) : Prop := ~ In 13 s.
(** Every line is terminated; an empty file has no line *)
Definition terminated (s : list Z) : Prop := s = [] \/ exists t, s = t ++ [10].

(** ** Where the lines end
    A reader with a buffer of c bytes, filled to [limit], of which [room] are still to be delivered.  A line
    that ends exactly where the filled part ends is the dangerous one. *)
Fixpoint grown (fuel : nat) (c n : Z) : Z :=
  match fuel with
  | O => c
  | S fuel => if n <=? c then c else grown fuel (2 * c) n
  end.
Fixpoint sound (c limit room : Z) (lens : list Z) : Prop :=
  match lens with
  | [] => True
  | n :: more =>
    if n <? room then sound c limit (room - n) more
    else if n =? room then more = [] \/ (limit = c /\ sound c (c - n) (c - n) more)
    else
      let c := if (room =? limit) && (0 <? room) && (c <=? limit + 1) then 2 * c else c in
      let c := grown (Z.to_nat n) c n in
      sound c c (c - n) more
  end.
Definition line_lengths (s : list Z) : list Z := map (fun l => Z.of_nat (length l)) (lines s).
(** One line, and it has its newline *)
Definition single (s : list Z) : Prop := exists a, s = a ++ [10] /\ ~ In 10 a.
