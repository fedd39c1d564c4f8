(** Python sequence semantics (Python Language Reference 3.3.7 / Library Reference
    "Common Sequence Operations"), independent of the implementation. *)
From Verif Require Import Base.

Definition py_len {A} (l : list A) : Z := Z.of_nat (length l).

(** "If i or j is negative, the index is relative to the end of the sequence";
    "if i or j is greater than len(s), use len(s)"; a bound still negative is 0. *)
Definition py_bound (a len : Z) : Z :=
  Z.max 0 (Z.min len (if a <? 0 then a + len else a)).

(** Elements paired with their positions. *)
Fixpoint enum {A} (k : Z) (l : list A) : list (Z * A) :=
  match l with
  | [] => []
  | x :: l' => (k, x) :: enum (k + 1) l'
  end.

(** s[a:b:k], k > 0: "the sequence of items with index x = i + n*k such that
    0 <= n < (j-i)/k". *)
Definition py_selected (lo hi s i : Z) : bool :=
  (lo <=? i) && (i <? hi) && ((i - lo) mod s =? 0).
Definition py_slice {A} (l : list A) (a b s : Z) : list A :=
  let lo := py_bound a (py_len l) in
  let hi := py_bound b (py_len l) in
  map snd (filter (fun p => py_selected lo hi s (fst p)) (enum 0 l)).

(** s[i]: the element, if -len <= i < len. *)
Definition py_index_ok {A} (l : list A) (i : Z) : Prop := - py_len l <= i < py_len l.
Definition py_item {A} (l : list A) (i : Z) (x : A) : Prop :=
  exists l1 l2, l = l1 ++ x :: l2 /\ py_len l1 = (if i <? 0 then i + py_len l else i).

(** s[i] = x *)
Definition py_set_item {A} (l : list A) (i : Z) (x : A) (l' : list A) : Prop :=
  exists l1 y l2, l = l1 ++ y :: l2 /\ py_len l1 = (if i <? 0 then i + py_len l else i)
                  /\ l' = l1 ++ x :: l2.

(** s[a:b] = t: the slice from a to b is replaced (an empty slice sits at a). *)
Definition py_set_slice {A} (l : list A) (a b : Z) (m : list A) : list A :=
  let lo := py_bound a (py_len l) in
  let hi := Z.max lo (py_bound b (py_len l)) in
  firstn (Z.to_nat lo) l ++ m ++ skipn (Z.to_nat hi) l.

(** s.insert(i, x): "same as s[i:i] = [x]". *)
Definition py_insert {A} (l : list A) (i : Z) (x : A) : list A := py_set_slice l i i [x].

(** s.pop(i): "retrieves the item at i and also removes it from s". *)
Definition py_pop {A} (l : list A) (i : Z) (x : A) (l' : list A) : Prop :=
  exists l1 l2, l = l1 ++ x :: l2 /\ l' = l1 ++ l2 /\
                py_len l1 = (if i <? 0 then i + py_len l else i).

(** s.remove(x): "removes the first item from s where s[i] is equal to x". *)
Definition py_remove {A} (eqb : A -> A -> bool) (l : list A) (x : A) (l' : list A) : Prop :=
  exists l1 y l2, l = l1 ++ y :: l2 /\ l' = l1 ++ l2 /\ eqb y x = true /\
                  (forall z, In z l1 -> eqb z x = false).

(** s.index(x, i, j): the least k with i <= k < j and s[k] == x. *)
Definition py_index {A} (eqb : A -> A -> bool) (l : list A) (x : A) (a b k : Z) : Prop :=
  let lo := py_bound a (py_len l) in
  let hi := py_bound b (py_len l) in
  (exists y, lo <= k < hi /\ In (k, y) (enum 0 l) /\ eqb y x = true) /\
  (forall j y, lo <= j < k -> In (j, y) (enum 0 l) -> eqb y x = false).
Definition py_not_found {A} (eqb : A -> A -> bool) (l : list A) (x : A) (a b : Z) : Prop :=
  let lo := py_bound a (py_len l) in
  let hi := py_bound b (py_len l) in
  forall j y, lo <= j < hi -> In (j, y) (enum 0 l) -> eqb y x = false.

(** s * n: "n less than 0 is treated as 0". *)
Definition py_repeat {A} (l : list A) (n : Z) : list A := concat (repeat l (Z.to_nat n)).

(** Lexicographic order: "compare the first two items, and if they differ this
    determines the outcome; ... if one sequence is an initial sub-sequence of the other,
    the shorter sequence is the smaller one". *)
Definition lex_lt {A} (lt : A -> A -> Prop) (l m : list A) : Prop :=
  (exists y m', m = l ++ y :: m') \/
  (exists p x l' y m', l = p ++ x :: l' /\ m = p ++ y :: m' /\ lt x y).

Definition strict_total {A} (lt : A -> A -> Prop) : Prop :=
  (forall x, ~ lt x x) /\ (forall x y z, lt x y -> lt y z -> lt x z) /\
  (forall x y, lt x y \/ x = y \/ lt y x).

(** One list-method call, as Python specifies it: previous contents, call, result, new
    contents.  An error leaves the list unchanged. *)
Inductive py_result (A : Type) := RNone | RValue (x : A) | RError.
Arguments RNone {A}. Arguments RValue {A} x. Arguments RError {A}.

Inductive py_call (A : Type) :=
| CAppend (x : A) | CInsert (i : Z) (x : A) | CPop (i : Z) | CRemove (x : A)
| CReverse | CExtend (m : list A) | CExtendSelf | CSetItem (i : Z) (x : A)
| CSetSlice (a b : Z) (m : list A) | CClear.
Arguments CAppend {A}. Arguments CInsert {A}. Arguments CPop {A}. Arguments CRemove {A}.
Arguments CReverse {A}. Arguments CExtend {A}. Arguments CExtendSelf {A}.
Arguments CSetItem {A}. Arguments CSetSlice {A}. Arguments CClear {A}.

Inductive py_list_call {A} (eqb : A -> A -> bool)
  : list A -> py_call A -> py_result A -> list A -> Prop :=
| pl_append l x : py_list_call eqb l (CAppend x) RNone (l ++ [x])
| pl_insert l i x : py_list_call eqb l (CInsert i x) RNone (py_insert l i x)
| pl_pop l i x l' : py_index_ok l i -> py_pop l i x l' ->
                    py_list_call eqb l (CPop i) (RValue x) l'
| pl_pop_err l i : ~ py_index_ok l i -> py_list_call eqb l (CPop i) RError l
| pl_remove l x l' : py_remove eqb l x l' -> py_list_call eqb l (CRemove x) RNone l'
| pl_remove_err l x : (forall y, In y l -> eqb y x = false) ->
                      py_list_call eqb l (CRemove x) RError l
| pl_reverse l : py_list_call eqb l CReverse RNone (rev l)
| pl_extend l m : py_list_call eqb l (CExtend m) RNone (l ++ m)
| pl_extend_self l : py_list_call eqb l CExtendSelf RNone (l ++ l)
| pl_set_item l i x l' : py_index_ok l i -> py_set_item l i x l' ->
                         py_list_call eqb l (CSetItem i x) RNone l'
| pl_set_item_err l i x : ~ py_index_ok l i -> py_list_call eqb l (CSetItem i x) RError l
| pl_set_slice l a b m :
    py_list_call eqb l (CSetSlice a b m) RNone (py_set_slice l a b m)
| pl_clear l : py_list_call eqb l CClear RNone [].

Inductive py_list_history {A} (eqb : A -> A -> bool)
  : list A -> list (py_call A) -> list (py_result A) -> list A -> Prop :=
| ph_nil l : py_list_history eqb l [] [] l
| ph_cons l c r l1 cs rs l2 :
    py_list_call eqb l c r l1 -> py_list_history eqb l1 cs rs l2 ->
    py_list_history eqb l (c :: cs) (r :: rs) l2.
