(** * Specification for C78: upper and lower case of texts

    The database is a parameter: [low] and [up] are the full case mappings of a character, [cased] and [ignorable] its
    properties.  U+03A3 (capital sigma) becomes U+03C2 at the end of a word and U+03C3 elsewhere. *)
From Coq Require Import ZArith List Bool.
From Verif Require Import Base.

(** Python: the nearest character before it that is not case-ignorable is cased, and the nearest one after it is not. *)
Definition nearest (ignorable : Z -> bool) (l : list Z) : option Z := find (fun c => negb (ignorable c)) l.
Definition python_final (cased ignorable : Z -> bool) (before after : list Z) : Prop :=
  (exists x, nearest ignorable (rev before) = Some x /\ cased x = true) /\
  (forall x, nearest ignorable after = Some x -> cased x = false).

(** Unicode Standard, table 3-17: before it, a cased character and then case-ignorable ones; after it, not case-ignorable
    characters and then a cased one. *)
Definition unicode_final (cased ignorable : Z -> bool) (before after : list Z) : Prop :=
  (exists p x g, before = p ++ x :: g /\ cased x = true /\ forall y, In y g -> ignorable y = true) /\
  ~ (exists g x q, after = g ++ x :: q /\ (forall y, In y g -> ignorable y = true) /\ cased x = true).

(** [t] is the lower case of [rest] in the text [before ++ rest]. *)
Inductive lowered (low : Z -> list Z) (final : list Z -> list Z -> Prop) : list Z -> list Z -> list Z -> Prop :=
| lowered_end before : lowered low final before [] []
| lowered_final before rest t : final before rest -> lowered low final (before ++ [0x3A3]) rest t ->
    lowered low final before (0x3A3 :: rest) (0x3C2 :: t)
| lowered_sigma before rest t : ~ final before rest -> lowered low final (before ++ [0x3A3]) rest t ->
    lowered low final before (0x3A3 :: rest) (0x3C3 :: t)
| lowered_char before c rest t : c <> 0x3A3 -> lowered low final (before ++ [c]) rest t ->
    lowered low final before (c :: rest) (low c ++ t).
