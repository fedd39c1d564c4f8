(** * Specification for C76: the decomposed normal forms of Unicode

    Unicode Standard, section 3.7 (decompositions), 3.11 (canonical ordering: D108 reorderable pair, D109) and 3.12
    (Hangul syllables).  The character database is a parameter: [decomp c] is the decomposition mapping of [c] (empty
    if there is none) with a flag that says whether it is a compatibility mapping, [ccc c] the canonical combining
    class. *)
From Coq Require Import ZArith List Bool Relation_Operators.
From Verif Require Import Base.

(** The syllable with leading consonant [l], vowel [v] and trailing consonant [t] (0: none), and its letters. *)
Definition hangul (l v t : Z) : Z := 0xAC00 + (l * 21 + v) * 28 + t.
Definition letters (l v t : Z) : list Z := [0x1100 + l; 0x1161 + v] ++ (if t =? 0 then [] else [0x11A7 + t]).
Definition hangul_parts (l v t : Z) : Prop := 0 <= l < 19 /\ 0 <= v < 21 /\ 0 <= t < 28.
Definition syllable (c : Z) : Prop := 0xAC00 <= c <= 0xD7A3.

(** The full decomposition of a character and of a text; [k] = true: compatibility mappings are used too. *)
Inductive full (decomp : Z -> bool * list Z) (k : bool) : Z -> list Z -> Prop :=
| full_hangul l v t : hangul_parts l v t -> full decomp k (hangul l v t) (letters l v t)
| full_self c compat ds : ~ syllable c -> decomp c = (compat, ds) -> ds = [] \/ (compat = true /\ k = false) -> full decomp k c [c]
| full_map c compat ds u : ~ syllable c -> decomp c = (compat, ds) -> ds <> [] -> (compat = true -> k = true) ->
    full_text decomp k ds u -> full decomp k c u
with full_text (decomp : Z -> bool * list Z) (k : bool) : list Z -> list Z -> Prop :=
| full_nil : full_text decomp k [] []
| full_cons c s u1 u2 : full decomp k c u1 -> full_text decomp k s u2 -> full_text decomp k (c :: s) (u1 ++ u2).

(** Exchanging a reorderable pair, and canonical order: no such pair is left. *)
Inductive exchange (ccc : Z -> Z) : list Z -> list Z -> Prop :=
| exchange_pair p a b q : ccc a > ccc b -> ccc b > 0 -> exchange ccc (p ++ a :: b :: q) (p ++ b :: a :: q).
Definition ordered (ccc : Z -> Z) (s : list Z) : Prop := forall s', ~ exchange ccc s s'.

(** [t] is the normal form NFD ([k] = false) or NFKD ([k] = true) of [s]. *)
Definition normal_form (decomp : Z -> bool * list Z) (ccc : Z -> Z) (k : bool) (s t : list Z) : Prop :=
  exists u, full_text decomp k s u /\ clos_refl_trans _ (exchange ccc) u t /\ ordered ccc t.
