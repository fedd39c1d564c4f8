(** Sequence containers: list (List / FTList), tuple, and the subscript operations of
    bytes (String) and str (Unicode).

    A list is the contents of its std::vector, a Coq list.  Simplifications: memory
    allocation always succeeds (reserve calls have no effect); std::vector insert,
    erase, range construction and std::reverse have their C++-standard meaning
    ([vec_insert], [vec_erase], [vec_range], [rev]) and are undefined outside the
    vector; element equality and order are parameters. *)
From Verif Require Import Base.

(** ** include/matxscript/runtime/container/container_slice_helper.h *)

(** index_correction, container_slice_helper.h:27-29 *)
Definition index_correction (i len : Z) : Z := if i <? 0 then i + len else i.

(** slice_index_correction, container_slice_helper.h:31-34 *)
Definition slice_index_correction (s len : Z) : Z :=
  if s <? 0 then (if s <? - len then 0 else s + len)
  else (if s >? len then len else s).

Definition zlen {A} (l : list A) : Z := Z.of_nat (length l).

(** ** std::vector primitives *)

(** [v.insert(v.begin() + i, m.begin(), m.end())] *)
Definition vec_insert {A} (l : list A) (i : Z) (m : list A) : res (list A) :=
  if (0 <=? i) && (i <=? zlen l)
  then Ok (firstn (Z.to_nat i) l ++ m ++ skipn (Z.to_nat i) l) else OOB.

(** [v.erase(v.begin() + i, v.begin() + j)] *)
Definition vec_erase {A} (l : list A) (i j : Z) : res (list A) :=
  if (0 <=? i) && (i <=? j) && (j <=? zlen l)
  then Ok (firstn (Z.to_nat i) l ++ skipn (Z.to_nat j) l) else OOB.

(** [vector(v.begin() + i, v.begin() + j)] *)
Definition vec_range {A} (l : list A) (i j : Z) : res (list A) :=
  if (0 <=? i) && (i <=? j) && (j <=? zlen l)
  then Ok (firstn (Z.to_nat (j - i)) (skipn (Z.to_nat i) l)) else OOB.

(** [v[i] = x] *)
Definition vec_set {A} (l : list A) (i : Z) (x : A) : res (list A) :=
  if (0 <=? i) && (i <? zlen l)
  then Ok (firstn (Z.to_nat i) l ++ x :: skipn (S (Z.to_nat i)) l) else OOB.

(** The element at address [p] of an array of [esz]-byte elements starting at [base]. *)
Definition rd_addr {A} (esz base : Z) (l : list A) (p : Z) : res A :=
  let off := p - base in
  if (off mod esz =? 0) then rdz l (off / esz) else OOB.

(** [for (auto itr = begin() + b; itr < itr_end; itr += step) out.push_back( *itr)]:
    [itr] is a machine address, so the increment wraps at 2^64.
    (list_ref.cc:297-300, ft_list.h:452-455, string_helper.cc:125-128,
    unicode_helper.cc:138-141) *)
Fixpoint ptr_loop {A} (fuel : nat) (esz base : Z) (l : list A) (itr itr_end step : Z)
  : res (list A) :=
  if itr <? itr_end then
    match fuel with
    | O => OutOfFuel
    | S fuel' =>
      let! x := rd_addr esz base l itr in
      rmap (cons x) (ptr_loop fuel' esz base l (wrapu64 (itr + esz * step)) itr_end step)
    end
  else Ok [].

(** ** list *)

(** List::get_item, list_ref.cc:262-268 (FTList::__getitem__ is the same) *)
Definition list_get_item {A} (l : list A) (i : Z) : res A :=
  let len := zlen l in
  if ((i >=? 0) && (i <? len)) || ((i <? 0) && (i >=? - len))
  then rdz l (slice_index_correction i len)
  else Exn CheckFailed.

(** List::set_item, list_ref.cc:270-278 *)
Definition list_set_item {A} (l : list A) (i : Z) (x : A) : res (list A) :=
  let len := zlen l in
  let i := if i <? 0 then i + len else i in
  if (i >=? 0) && (i <? len) then vec_set l i x else Exn CheckFailed.

(** List::get_slice, list_ref.cc:284-304 and FTList::__getslice__, ft_list.h:437-459;
    [base] is the address of the first element, [esz] the element size (16 for
    RTValue). *)
Definition list_get_slice {A} (esz base : Z) (l : list A) (b e step : Z) : res (list A) :=
  if step >? 0 then
    let len := zlen l in
    let b := slice_index_correction b len in
    let e := slice_index_correction e len in
    if e <=? b then Ok []
    else if step =? 1 then vec_range l b e
    else ptr_loop (S (length l)) esz base l (base + esz * b) (base + esz * e) step
  else Exn CheckFailed.

(** List::set_slice, list_ref.cc:306-330, FTList::__setslice__, ft_list.h:467-498;
    [alias]: the right-hand side is this very list, whose own range is then inserted
    into it after the erase (undefined for std::vector). *)
Definition list_set_slice {A} (l : list A) (start end_ : Z) (rhs : list A) (alias : bool)
  : res (list A) :=
  if (start >=? 0) && (end_ >=? 0) && (start <=? end_) then
    let len := zlen l in
    let start := slice_index_correction start len in
    let end_ := slice_index_correction end_ len in
    let! l1 := vec_erase l start end_ in
    if alias then UB else vec_insert l1 start rhs
  else Exn CheckFailed.

(** ListNode::insert, list_private.h:190-202; FTList::insert, ft_list.h:731-745 *)
Definition list_insert {A} (l : list A) (index : Z) (x : A) : res (list A) :=
  let index := index_correction index (zlen l) in
  let index := if index <? 0 then 0 else index in
  if index >=? zlen l then Ok (l ++ [x])
  else vec_insert l index [x].

(** ListNode::pop, list_private.h:204-219; FTList::pop, ft_list.h:713-729 *)
Definition list_pop {A} (l : list A) (index : Z) : res (A * list A) :=
  let index := index_correction index (zlen l) in
  if (index >=? 0) && (index <? zlen l) then
    let! x := rdz l index in
    let! l' := vec_erase l index (index + 1) in
    Ok (x, l')
  else Exn IndexError.

(** List::extend, list_ref.cc:346-368: space is reserved first and the end of [items]
    is read once, so extending a list by itself is well defined. *)
Fixpoint list_extend {A} (l items : list A) : list A :=
  match items with
  | [] => l
  | x :: items' => list_extend (l ++ [x]) items'
  end.

(** List::repeat, list_ref.cc:399-435, repeat_many 477-493; FTList::__mul__,
    ft_list.h:567-577 (the one-element and scalar fast paths store the same values). *)
Fixpoint repeat_loop {A} (n : nat) (out l : list A) : list A :=
  match n with
  | O => out
  | S n' => repeat_loop n' (list_extend out l) l
  end.
Definition list_repeat {A} (l : list A) (times : Z) : list A :=
  if times <=? 0 then [] else repeat_loop (Z.to_nat times) [] l.

(** List::repeat_one(value_type&&), list_ref.cc:456-475: times-1 copies, then the move. *)
Definition list_repeat_one {A} (v : A) (times : Z) : list A :=
  if times <=? 0 then []
  else repeat_loop (Z.to_nat (times - 1)) [] [v] ++ [v].

(** List::Concat<true>, list_ref.cc:608-641; the flag of each argument says whether it
    is the only reference (its node is then reused, or its elements moved from). *)
Definition list_concat {A} (data : list (bool * list A)) : list A :=
  let cap := fold_left (fun c d => c + zlen (snd d)) data 0 in
  if cap <=? 0 then []
  else
    match data with
    | [] => []
    | (true, first) :: rest => fold_left (fun out d => list_extend out (snd d)) rest first
    | _ => fold_left (fun out d => list_extend out (snd d)) data []
    end.

Section WithEq.
Context {A : Type} (eqb gtb : A -> A -> bool).

(** ListNode::remove, list_private.h:221-231; FTList::remove, ft_list.h:773-799:
    index of the first element equal to [x], or the end. *)
Fixpoint find_idx (l : list A) (x : A) (i : Z) : Z :=
  match l with
  | [] => i
  | y :: l' => if eqb y x then i else find_idx l' x (i + 1)
  end.
Definition list_remove (l : list A) (x : A) : res (list A) :=
  let i := find_idx l x 0 in
  if i =? zlen l then Exn ValueError else vec_erase l i (i + 1).

(** List::index, list_ref.h:197-217 (the [int idx] truncation is modelled) and
    find_match_idx_fn, list_ref.cc:219-225; [wrap] is the identity in
    FTList::index, ft_list.h:747-766. *)
Definition int32_of (z : Z) : Z := (z + 2 ^ 31) mod two32 - 2 ^ 31.
Definition list_index (wrap : Z -> Z) (l : list A) (x : A) (start end_ : Z) : res Z :=
  let len := zlen l in
  let start := slice_index_correction start len in
  let end_ := slice_index_correction end_ len in
  if start >=? end_ then Exn ValueError
  else
    let! r := vec_range l start end_ in
    let idx := wrap (find_idx r x start) in
    if idx =? end_ then Exn ValueError else Ok idx.

(** List::find_match_fn, list_ref.cc:211-217 *)
Fixpoint list_contains (l : list A) (x : A) : bool :=
  match l with
  | [] => false
  | y :: l' => if eqb y x then true else list_contains l' x
  end.

(** List::count_match_fn, list_ref.cc:227-239 *)
Fixpoint count_loop (l : list A) (x : A) (cou : Z) : Z :=
  match l with
  | [] => cou
  | y :: l' => count_loop l' x (if eqb y x then cou + 1 else cou)
  end.
Definition list_count (l : list A) (x : A) : Z := count_loop l x 0.

(** Element loop of List::operator==, list_ref.cc:152-158; tuple_ref.cc:172-178 *)
Fixpoint eq_loop (l m : list A) : res bool :=
  match l, m with
  | [], _ => Ok true
  | _ :: _, [] => OOB
  | x :: l', y :: m' => if negb (eqb x y) then Ok false else eq_loop l' m'
  end.

(** List::operator==, list_ref.cc:143-159; [same]: both handles denote one node. *)
Definition list_eq (same : bool) (l m : list A) : res bool :=
  if same then Ok true
  else if negb (zlen l =? zlen m) then Ok false
  else eq_loop l m.

(** List::operator>, list_ref.cc:161-179; ft_list.h:233-251; tuple_ref.cc:181-199 *)
Fixpoint list_gt (l m : list A) : bool :=
  match l, m with
  | x :: l', y :: m' => if gtb x y then true else if gtb y x then false else list_gt l' m'
  | _ :: _, [] => true
  | [], _ => false
  end.

(** List::operator>=, list_ref.cc:181-199; ft_list.h:253-271; tuple_ref.cc:201-219 *)
Fixpoint list_ge (l m : list A) : bool :=
  match l, m with
  | x :: l', y :: m' => if gtb x y then true else if gtb y x then false else list_ge l' m'
  | _, [] => true
  | [], _ :: _ => false
  end.

(** operator<, operator<=: list_ref.h:155-160, tuple_ref.h:135-140 *)
Definition list_lt (l m : list A) : bool := list_gt m l.
Definition list_le (l m : list A) : bool := list_ge m l.

(** ** A list object under a sequence of method calls *)
Inductive list_op :=
| OpAppend (x : A) | OpInsert (i : Z) (x : A) | OpPop (i : Z) | OpRemove (x : A)
| OpReverse | OpExtend (m : list A) | OpExtendSelf | OpSetItem (i : Z) (x : A)
| OpSetSlice (a b : Z) (m : list A) | OpClear.

(** New contents and returned value; a call that throws leaves the list unchanged
    (every check precedes the first modification). *)
Definition list_step (l : list A) (o : list_op) : res (option A) * list A :=
  let upd r := match r with Ok l' => (Ok None, l') | Exn e => (Exn e, l)
                          | OOB => (OOB, l) | OutOfFuel => (OutOfFuel, l) end in
  match o with
  | OpAppend x => (Ok None, l ++ [x])
  | OpInsert i x => upd (list_insert l i x)
  | OpPop i => match list_pop l i with
               | Ok (x, l') => (Ok (Some x), l') | Exn e => (Exn e, l)
               | OOB => (OOB, l) | OutOfFuel => (OutOfFuel, l) end
  | OpRemove x => upd (list_remove l x)
  | OpReverse => (Ok None, rev l)
  | OpExtend m => (Ok None, list_extend l m)
  | OpExtendSelf => (Ok None, list_extend l l)
  | OpSetItem i x => upd (list_set_item l i x)
  | OpSetSlice a b m => upd (list_set_slice l a b m false)
  | OpClear => (Ok None, [])
  end.

Fixpoint list_run (l : list A) (os : list list_op) : list (res (option A)) * list A :=
  match os with
  | [] => ([], l)
  | o :: os' => let '(r, l1) := list_step l o in
                let '(rs, l2) := list_run l1 os' in (r :: rs, l2)
  end.
End WithEq.
Arguments list_op : clear implicits.

(** ** bytes and str subscripts *)

(** StringHelper::GetItem, string_helper.cc:102-107; [char] is signed. *)
Definition schar (b : Z) : Z := if b <? 128 then b else b - 256.
Definition bytes_get_item (s : list Z) (pos : Z) : res Z :=
  let len := zlen s in
  if ((pos >=? 0) && (pos <? len)) || ((pos <? 0) && (pos >=? - len))
  then rmap schar (rdz s (slice_index_correction pos len))
  else Exn CheckFailed.

(** UnicodeHelper::GetItem, unicode_helper.cc:116-121 *)
Definition str_get_item (s : list Z) (pos : Z) : res (list Z) :=
  let len := zlen s in
  if ((pos >=? 0) && (pos <? len)) || ((pos <? 0) && (pos >=? - len))
  then rmap (fun c => [c]) (rdz s (slice_index_correction pos len))
  else Exn CheckFailed.

(** StringHelper::GetSlice, string_helper.cc:109-132 (esz = 1) and
    UnicodeHelper::GetSlice, unicode_helper.cc:123-145 (esz = 4).  The result buffer has
    [new_size] uninitialised characters: writing more is out of bounds, writing fewer
    would expose uninitialised memory, so both are [OOB] here. *)
Definition text_get_slice (esz base : Z) (s : list Z) (b e step : Z) : res (list Z) :=
  if step >? 0 then
    let len := zlen s in
    let b := slice_index_correction b len in
    let e := slice_index_correction e len in
    if e <=? b then Ok []
    else if step =? 1 then vec_range s b e
    else
      let! n := chk64 (e - b + step - 1) in
      let new_size := Z.quot n step in
      let! r := ptr_loop (S (length s)) esz base s (base + esz * b) (base + esz * e) step in
      if zlen r =? new_size then Ok r else OOB
  else Exn CheckFailed.

(** ** tuple: a handle to an immutable node, or null ([None]). *)
Definition tuple (A : Type) : Type := option (list A).

(** Dereferencing the node pointer (MX_DPTR, object.h:634): undefined for null. *)
Definition deref {A} (t : tuple A) : res (list A) :=
  match t with Some l => Ok l | None => UB end.

(** Tuple::Tuple(const Any* begin, const Any* end), tuple_ref.cc:145-155: [begin] is
    never advanced, so each of the n slots is built from the first value. *)
Fixpoint tuple_range_loop {A} (n : nat) (src : list A) : res (list A) :=
  match n with
  | O => Ok []
  | S n' => let! x := rd src 0 in rmap (cons x) (tuple_range_loop n' src)
  end.
Definition tuple_of_any_range {A} (src : list A) : res (tuple A) :=
  rmap Some (tuple_range_loop (length src) src).

(** Tuple::Tuple(Iterator, Iterator), tuple_ref.h:83-89 and Init, tuple_ref.cc:134-143 *)
Fixpoint tuple_init_loop {A} (n : nat) (src : list A) : res (list A) :=
  match n with
  | O => Ok []
  | S n' => let! x := rd src 0 in rmap (cons x) (tuple_init_loop n' (skipn 1 src))
  end.
Definition tuple_of_iter {A} (src : list A) : res (tuple A) :=
  rmap Some (tuple_init_loop (length src) src).

(** Tuple::size, tuple_ref.cc:231-234 *)
Definition tuple_size {A} (t : tuple A) : res Z := rmap zlen (deref t).

(** Tuple::get_item, tuple_ref.cc:226-229: null is reported; the int64_t index is
    converted to size_t and checked by InplaceArrayBase::operator[]
    (inplace_array_base.h:81-96). *)
Definition tuple_get_item {A} (t : tuple A) (idx : Z) : res A :=
  match t with
  | None => Exn CheckFailed
  | Some l => let i := wrapu64 idx in
              if i <? zlen l then rdz l i else Exn CheckFailed
  end.

(** Tuple::repeat, tuple_ref.cc:236-250.  Simplification: negative [times] (where the
    unsigned size wraps and the outcome depends on the allocator) is [UB], and so are
    the int counters [k] and [t] overflowing. *)
Definition tuple_repeat {A} (t : tuple A) (times : Z) : res (tuple A) :=
  let! l := deref t in
  if times <? 0 then UB
  else if (times >=? 2 ^ 31) || (times * zlen l >? 2 ^ 31) then UB
  else Ok (Some (repeat_loop (Z.to_nat times) [] l)).

(** The index loops of Tuple::get_slice, tuple_ref.cc:266-270 and 277-281. *)
Fixpoint idx_loop {A} (fuel : nat) (l : list A) (i e step : Z) : res (list A) :=
  if i <? e then
    match fuel with
    | O => OutOfFuel
    | S fuel' =>
      let! x := rdz l i in
      let! i' := chk64 (i + step) in
      rmap (cons x) (idx_loop fuel' l i' e step)
    end
  else Ok [].

(** Tuple::get_slice, tuple_ref.cc:252-285: an empty selection returns a null tuple. *)
Definition tuple_get_slice {A} (t : tuple A) (b e step : Z) : res (tuple A) :=
  if step >? 0 then
    let! l := deref t in
    let len := zlen l in
    let b := slice_index_correction b len in
    let e := slice_index_correction e len in
    if e <=? b then Ok None
    else if step =? 1 then rmap Some (idx_loop (S (length l)) l b e 1)
    else
      let! n := chk64 (e - b + step - 1) in
      let new_size := Z.quot n step in
      let! r := idx_loop (S (length l)) l b e step in
      if zlen r <=? new_size then Ok (Some r) else OOB
  else Exn CheckFailed.

(** Tuple::Concat, tuple_ref.cc:309-344 (copying or moving stores the same values) *)
Definition tuple_concat {A} (t u : tuple A) : res (tuple A) :=
  let! l := deref t in
  let! m := deref u in
  Ok (Some (list_extend (list_extend [] l) m)).

(** Tuple::operator==, tuple_ref.cc:163-179 *)
Definition tuple_eq {A} (eqb : A -> A -> bool) (same : bool) (t u : tuple A) : res bool :=
  match t, u with
  | None, None => Ok true
  | _, _ =>
    if same then Ok true
    else
      let! l := deref t in
      let! m := deref u in
      if negb (zlen l =? zlen m) then Ok false else eq_loop eqb l m
  end.
