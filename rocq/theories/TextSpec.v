(** Python's bytes/str methods (Library Reference, "String Methods" / "Bytes and
    Bytearray Operations"), stated with list concatenation only. *)
From Verif Require Import Base SeqSpec.

(** [t] occurs in [s] at index [k]: s == p + t + q with len(p) == k. *)
Definition occurs_at {A} (s t : list A) (k : Z) : Prop :=
  exists p q, s = p ++ t ++ q /\ py_len p = k.

(** "Return the lowest index where t is found within the slice s[a:b]"; -1 if there is
    none.  A start beyond the end of the string is beyond every index. *)
Definition py_find_in {A} (s t : list A) (a b r : Z) : Prop :=
  let n := py_len s in
  let lo := if a <? 0 then Z.max 0 (a + n) else a in
  let hi := py_bound b n in
  let inside k := lo <= k /\ k + py_len t <= hi /\ occurs_at s t k in
  (inside r /\ (forall k, inside k -> r <= k)) \/ (r = -1 /\ forall k, ~ inside k).

(** The window s[a:b] as a string. *)
Definition py_window {A} (s : list A) (a b : Z) : list A := py_slice s a b 1.

(** [s] split around the first occurrence of [t]. *)
Definition first_split {A} (s t p q : list A) : Prop :=
  s = p ++ t ++ q /\ forall p' q', s = p' ++ t ++ q' -> (length p <= length p')%nat.
Definition absent {A} (s t : list A) : Prop := forall p q, s <> p ++ t ++ q.

(** "the number of non-overlapping occurrences", scanning from the left *)
Inductive py_count {A} (t : list A) : list A -> Z -> Prop :=
| pc_none s : absent s t -> py_count t s 0
| pc_some s p q n : first_split s t p q -> py_count t q n -> py_count t s (n + 1).

(** replace(old, new, count): "only the first count occurrences are replaced"; a negative
    count replaces all (it never reaches 0). *)
Inductive py_replace {A} (old new : list A) : Z -> list A -> list A -> Prop :=
| pr_done n s : n = 0 \/ absent s old -> py_replace old new n s s
| pr_step n s p q r : n <> 0 -> first_split s old p q ->
    py_replace old new (n - 1) q r -> py_replace old new n s (p ++ new ++ r).

(** split(sep, maxsplit): the fields between occurrences of the separator; consecutive
    separators delimit empty fields, b''.split(sep) == [b''].  Negative: no limit. *)
Inductive py_split {A} (sep : list A) : Z -> list A -> list (list A) -> Prop :=
| ps_done n s : n = 0 \/ absent s sep -> py_split sep n s [s]
| ps_step n s p q l : n <> 0 -> first_split s sep p q ->
    py_split sep (n - 1) q l -> py_split sep n s (p :: l).

(** split() with no separator: runs of whitespace separate the words, and there are no
    empty strings at the start or end; once maxsplit is used up the rest (without leading
    whitespace) is the last element. *)
Inductive py_split_ws {A} (space : A -> bool) : Z -> list A -> list (list A) -> Prop :=
| pw_blank n s : (forall c, In c s -> space c = true) -> py_split_ws space n s []
| pw_word n s sp w rest l : n <> 0 ->
    s = sp ++ w ++ rest ->
    (forall c, In c sp -> space c = true) ->
    w <> [] -> (forall c, In c w -> space c = false) ->
    (rest = [] \/ exists c r, rest = c :: r /\ space c = true) ->
    py_split_ws space (n - 1) rest l -> py_split_ws space n s (w :: l)
| pw_rest s sp c w :
    s = sp ++ c :: w ->
    (forall c, In c sp -> space c = true) -> space c = false ->
    py_split_ws space 0 s [c :: w].

(** sep.join(l) *)
Fixpoint py_join {A} (sep : list A) (l : list (list A)) : list A :=
  match l with
  | [] => []
  | [v] => v
  | v :: l' => v ++ sep ++ py_join sep l'
  end.

(** lstrip / rstrip / strip of the characters satisfying P *)
Definition py_lstrip {A} (P : A -> Prop) (s r : list A) : Prop :=
  exists p, s = p ++ r /\ (forall c, In c p -> P c) /\
            (forall c r', r = c :: r' -> ~ P c).
Definition py_rstrip {A} (P : A -> Prop) (s r : list A) : Prop :=
  exists q, s = r ++ q /\ (forall c, In c q -> P c) /\
            (forall c r', r = r' ++ [c] -> ~ P c).
Definition py_strip {A} (P : A -> Prop) (s r : list A) : Prop :=
  exists p q, s = p ++ r ++ q /\ (forall c, In c p -> P c) /\ (forall c, In c q -> P c) /\
              (forall c r', r = c :: r' -> ~ P c) /\ (forall c r', r = r' ++ [c] -> ~ P c).

(** startswith / endswith: the window s[a:b] starts / ends with [p].  A window whose start
    lies beyond its end (or beyond the string) matches nothing, not even the empty string. *)
Definition py_window_ok {A} (s : list A) (a b : Z) : Prop :=
  (if a <? 0 then Z.max 0 (a + py_len s) else a) <= py_bound b (py_len s).
Definition py_startswith {A} (s p : list A) (a b : Z) : Prop :=
  py_window_ok s a b /\ exists q, py_window s a b = p ++ q.
Definition py_endswith {A} (s p : list A) (a b : Z) : Prop :=
  py_window_ok s a b /\ exists q, py_window s a b = q ++ p.

(** ASCII whitespace (bytes.isspace) and Unicode whitespace (str.isspace): the characters
    with bidirectional type WS, B or S or category Zs, as CPython documents it. *)
Definition ascii_space (c : Z) : Prop := c = 32 \/ 9 <= c <= 13.
Definition is_upper (c : Z) : Prop := 65 <= c <= 90.
Definition is_lower (c : Z) : Prop := 97 <= c <= 122.
Definition is_digit (c : Z) : Prop := 48 <= c <= 57.
