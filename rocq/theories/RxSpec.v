(** * Specification for C74: splitting and replacing by a regular expression

    What a match is, which matches a text has, what lies between them, and what a
    replacement template stands for.  Nothing here mentions the model. *)
From Coq Require Import ZArith List Bool Lia.
Import ListNotations.
Local Open Scope nat_scope.

(** ** The matcher

    The library that matches (PCRE) is called with a text and a start offset; it answers that
    there is no match, that it failed (match limit reached), with a match, or, when
    the offset is in the middle of a character, with anything ("undefined behaviour").  A match is
    given as the number of groups it set and a vector of integers: start and end of the
    match, then start and end of each group, -1 and -1 for a group that took no part. *)
Inductive answer : Type :=
| ANoMatch
| AError
| AFound (rc : Z) (captures : list Z)
| AUndefined.

(** The same match, as a user sees it. *)
Record match_ : Type := Match { m_from : nat; m_to : nat; m_groups : list (option (nat * nat)) }.

Definition group_numbers (g : option (nat * nat)) : list Z :=
  match g with
  | Some (a, b) => [Z.of_nat a; Z.of_nat b]
  | None => [(-1)%Z; (-1)%Z]
  end.

(** Offsets at which a character of a UTF-8 text starts, and its end. *)
Definition char_start (s : list Z) (i : nat) : Prop :=
  i = length s \/ exists b, nth_error s i = Some b /\ ~ (128 <= b < 192)%Z.

Definition in_text (s : list Z) (g : option (nat * nat)) : Prop :=
  match g with Some (a, b) => a <= b <= length s | None => True end.

(** [exec] is a matcher for the text s that finds, at the start of a character, the match
    [find] says: one that begins there or later, inside of the text. *)
Definition matcher (s : list Z) (exec : Z -> answer) (find : nat -> option match_) : Prop :=
  forall o, char_start s o ->
    match find o with
    | None => exec (Z.of_nat o) = ANoMatch
    | Some m =>
        o <= m_from m /\ m_from m <= m_to m /\ m_to m <= length s /\
        char_start s (m_to m) /\ Forall (in_text s) (m_groups m) /\
        exists unused,
          exec (Z.of_nat o) =
            AFound (Z.of_nat (S (length (m_groups m))))
              (Z.of_nat (m_from m) :: Z.of_nat (m_to m) :: flat_map group_numbers (m_groups m) ++ unused)
    end.

(** ** The matches of a text from an offset on: after a match the next one is looked for where
    it ended, one byte further when it was empty. *)
Inductive finds (s : list Z) (find : nat -> option match_) : nat -> list match_ -> Prop :=
| finds_none o : find o = None -> finds s find o []
| finds_text o m ms : find o = Some m -> m_from m < m_to m ->
    finds s find (m_to m) ms -> finds s find o (m :: ms)
| finds_empty o m ms : find o = Some m -> m_from m = m_to m -> m_to m < length s ->
    finds s find (S (m_to m)) ms -> finds s find o (m :: ms)
| finds_end o m : find o = Some m -> m_from m = m_to m -> m_to m = length s ->
    finds s find o [m].

(** No empty match lies before a character of several bytes: true for every pattern that
    does not match the empty text and for every text of ASCII characters. *)
Definition steps_over_characters (s : list Z) (find : nat -> option match_) : Prop :=
  forall o m, find o = Some m -> m_from m = m_to m -> m_to m < length s -> char_start s (S (m_to m)).

(** ** What lies between matches *)
Definition part (s : list Z) (a b : nat) : list Z := firstn (b - a) (skipn a s).

Fixpoint between (s : list Z) (c : nat) (ms : list match_) : list (list Z) :=
  match ms with
  | [] => []
  | m :: ms => part s c (m_from m) :: between s (m_to m) ms
  end.

Fixpoint after (s : list Z) (c : nat) (ms : list match_) : list Z :=
  match ms with
  | [] => skipn c s
  | m :: ms => after s (m_to m) ms
  end.

(** re.split of Python, for a pattern without groups. *)
Definition python_split (s : list Z) (ms : list match_) : list (list Z) :=
  between s 0 ms ++ [after s 0 ms].

(** Pieces and matched texts, one after the other. *)
Fixpoint weave (ps ts : list (list Z)) : list Z :=
  match ps, ts with
  | p :: ps, t :: ts => p ++ t ++ weave ps ts
  | p :: ps, [] => p ++ weave ps []
  | [], _ => []
  end.

(** ** Replacement templates

    $$ is a dollar, $12 and ${12} the text of group 12 (0 is the whole match), any other
    character itself.  All other uses of $ are errors. *)
Inductive item : Type := ILit (b : Z) | IGroup (n : Z).

Definition digit (b : Z) : Prop := (48 <= b <= 57)%Z.
Definition number (ds : list Z) : Z := fold_left (fun n d => n * 10 + (d - 48))%Z ds 0%Z.

Inductive denotes : list Z -> list item -> Prop :=
| den_nil : denotes [] []
| den_char b t its : b <> 36%Z -> denotes t its -> denotes (b :: t) (ILit b :: its)
| den_dollar t its : denotes t its -> denotes (36%Z :: 36%Z :: t) (ILit 36 :: its)
| den_group ds t its : ds <> [] -> Forall digit ds -> (forall b t', t = b :: t' -> ~ digit b) ->
    denotes t its -> denotes (36%Z :: ds ++ t) (IGroup (number ds) :: its)
| den_braces ds t its : ds <> [] -> Forall digit ds ->
    denotes t its -> denotes (36%Z :: 123%Z :: ds ++ 125%Z :: t) (IGroup (number ds) :: its).

(** Text of a group: empty when it took no part in the match or does not exist. *)
Definition group_text (s : list Z) (m : match_) (n : Z) : list Z :=
  if (n =? 0)%Z then part s (m_from m) (m_to m)
  else match nth (Z.to_nat (n - 1)) (m_groups m) None with
       | Some (a, b) => part s a b
       | None => []
       end.

Definition item_text (s : list Z) (m : match_) (i : item) : list Z :=
  match i with ILit b => [b] | IGroup n => group_text s m n end.

Definition expansion (s : list Z) (its : list item) (m : match_) : list Z :=
  flat_map (item_text s m) its.

(** The text with each match replaced. *)
Fixpoint replaced (s : list Z) (c : nat) (its : list item) (ms : list match_) : list Z :=
  match ms with
  | [] => skipn c s
  | m :: ms => part s c (m_from m) ++ expansion s its m ++ replaced s (m_to m) its ms
  end.

(** ** A single match: the texts of its groups, by number and by name *)
Definition groups_of (s : list Z) (m : match_) (ngroups : nat) : list (list Z) :=
  map (fun i => group_text s m (Z.of_nat i)) (seq 0 (S ngroups)).

Definition named_of (s : list Z) (m : match_) (names : list (list Z * Z)) : list (list Z * list Z) :=
  map (fun x => (fst x, group_text s m (snd x))) names.
