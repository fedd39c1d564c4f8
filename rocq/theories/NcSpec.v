(** * Specification for C77: the composed normal forms of Unicode

    Unicode Standard, section 3.11: D114 (primary composite), D115 (blocked), D117 (canonical composition algorithm).
    [primary l c] is the primary composite of the database for the pair, if there is one; those of Hangul are
    computed. *)
From Coq Require Import ZArith List Bool Relation_Operators.
From Verif Require Import Base NfSpec.

Inductive pair_composite (primary : Z -> Z -> option Z) : Z -> Z -> Z -> Prop :=
| composite_LV l v : 0 <= l < 19 -> 0 <= v < 21 -> pair_composite primary (0x1100 + l) (0x1161 + v) (hangul l v 0)
| composite_LVT l v t : 0 <= l < 19 -> 0 <= v < 21 -> 0 < t < 28 ->
    pair_composite primary (hangul l v 0) (0x11A7 + t) (hangul l v t)
| composite_table l c p : primary l c = Some p -> pair_composite primary l c p.

(** [before] is what has been gone through, [l] the last starter in it, [m] what lies between [l] and the next character
    [c]: [c] is not blocked from [l]. *)
Definition open_pair (ccc : Z -> Z) (before p : list Z) (l : Z) (m : list Z) (c : Z) : Prop :=
  before = p ++ l :: m /\ ccc l = 0 /\ forall b, In b m -> 0 < ccc b < ccc c.

(** D117: going through the characters one by one, from left to right. *)
Inductive composition (primary : Z -> Z -> option Z) (ccc : Z -> Z) : list Z -> list Z -> list Z -> Prop :=
| composition_end t : composition primary ccc t [] t
| composition_pair before p l m c x s t :
    open_pair ccc before p l m c -> pair_composite primary l c x ->
    composition primary ccc (p ++ x :: m) s t -> composition primary ccc before (c :: s) t
| composition_keep before c s t :
    (forall p l m x, open_pair ccc before p l m c -> ~ pair_composite primary l c x) ->
    composition primary ccc (before ++ [c]) s t -> composition primary ccc before (c :: s) t.

(** NFC ([k] = false) and NFKC. *)
Definition composed_form (decomp : Z -> bool * list Z) (primary : Z -> Z -> option Z) (ccc : Z -> Z) (k : bool) (s t : list Z) : Prop :=
  exists u, normal_form decomp ccc k s u /\ composition primary ccc [] u t.

(** What the standard says of a character that may always stand in a composed text: its full decomposition is in canonical
    order, begins with a character that is the second of no pair, and is composed to the character again. *)
Definition recomposed (decomp : Z -> bool * list Z) (primary : Z -> Z -> option Z) (ccc : Z -> Z) (k : bool) (c : Z) : Prop :=
  exists b m, full decomp k c (b :: m) /\ ordered ccc (b :: m) /\ (forall l x, ~ pair_composite primary l b x) /\
    composition primary ccc [] (b :: m) [c] /\ (ccc b = 0 \/ m = []).

(** The primary composites of the tables of the code: [first] and [last] number the characters that can be the first and
    the second of a pair, [comp] holds the composite for two numbers, or 0. *)
Definition table (first last : Z -> option Z) (comp : Z -> Z -> Z) (l c : Z) : option Z :=
  match first l, last c with
  | Some f, Some i => if comp f i =? 0 then None else Some (comp f i)
  | _, _ => None
  end.

(** Consonants, vowels and syllables of Hangul. *)
Definition is_hangul (c : Z) : Prop := 0x1100 <= c < 0x1113 \/ 0x1161 <= c < 0x1176 \/ 0x11A7 < c < 0x11C3 \/ syllable c.
