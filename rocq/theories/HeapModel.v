(** Heap and selection helpers on lists:
    src/runtime/container/list_helper.cc (compiled code) and
    python/matx/runtime/_container/_list.py (the same functions run by the interpreter).

    A list is a Coq list; an access outside it is [OOB].  Python's reading of negative
    indices is not modelled: the theorems show that no index is ever negative.  Comparators
    are pure; an exception thrown by one is not modelled. *)
From Verif Require Import Base PdqModel.

Section Heap.
Context {T : Type}.

Definition llen (l : list T) : Z := Z.of_nat (length l).
Definition wr (l : list T) (i : Z) (x : T) : res (list T) :=
  if (0 <=? i) && (i <? llen l) then Ok (upd l (Z.to_nat i) x) else OOB.
(** std::swap(v[i], v[j]); [l[i], l[j] = l[j], l[i]] *)
Definition swap (l : list T) (i j : Z) : res (list T) :=
  let! x := rdz l i in
  let! y := rdz l j in
  let! l := wr l i y in
  wr l j x.

(** ShiftDown, list_helper.cc:142-162; shiftdown, _list.py:404-422 with
    [func x y] = comp(x, y) < 0.  The comparison of child [c] with the current minimum: *)
Definition pick (func : T -> T -> bool) (l : list T) (c min_index : Z) : res Z :=
  if c <? llen l then
    let! x := rdz l c in
    let! y := rdz l min_index in
    Ok (if func x y then c else min_index)
  else Ok min_index.
Fixpoint shift_down (fuel : nat) (func : T -> T -> bool) (l : list T) (i : Z) : res (list T) :=
  match fuel with
  | O => OutOfFuel
  | S fuel' =>
    let left := 2 * i + 1 in
    let right := left + 1 in
    let! min_index := pick func l left i in
    let! min_index := pick func l right min_index in
    if min_index =? i then Ok l
    else
      let! l := swap l i min_index in
      shift_down fuel' func l min_index
  end.
Definition ShiftDown (func : T -> T -> bool) (l : list T) (i : Z) : res (list T) :=
  shift_down (S (length l)) func l i.

(** ** Compiled code *)

(** Heapify(list), list_helper.cc:120-128.  [make_heap less] is std::make_heap. *)
Definition Heapify (ge : T -> T -> bool) (make_heap : (T -> T -> bool) -> list T -> list T)
    (l : list T) : list T :=
  make_heap (fun x y => negb (ge x y)) l.
(** Heapify(list, comp), list_helper.cc:130-140.  [sort less] is std::sort. *)
Definition Heapify_comp (comp : T -> T -> Z) (sort : (T -> T -> bool) -> list T -> list T)
    (l : list T) : list T :=
  sort (fun x y => comp x y <? 0) l.

(** HeapReplace, list_helper.cc:164-183 ([func] is !ge or comp < 0) *)
Definition HeapReplace_with (func : T -> T -> bool) (l : list T) (item : T) : res (list T) :=
  if llen l =? 0 then Exn IndexError
  else
    let! l := wr l 0 item in
    ShiftDown func l 0.
Definition HeapReplace (ge : T -> T -> bool) := HeapReplace_with (fun x y => negb (ge x y)).
Definition HeapReplace_comp (comp : T -> T -> Z) := HeapReplace_with (fun x y => comp x y <? 0).

(** HeapPushPop(list, item), list_helper.cc:185-198 *)
Definition HeapPushPop (ge : T -> T -> bool) (l : list T) (item : T) : res (T * list T) :=
  if llen l =? 0 then Exn IndexError
  else
    let! top := rdz l 0 in
    if ge top item then Ok (item, l)
    else
      let! l := wr l 0 item in
      let! l := ShiftDown (fun x y => negb (ge x y)) l 0 in
      Ok (top, l).
(** HeapPushPop(list, item, comp), list_helper.cc:200-214 *)
Definition HeapPushPop_comp (comp : T -> T -> Z) (l : list T) (item : T) : res (T * list T) :=
  if llen l =? 0 then Exn IndexError
  else
    let! top := rdz l 0 in
    if comp top item >=? 0 then Ok (item, l)
    else
      let! l := wr l 0 item in
      let! l := ShiftDown (fun x y => comp x y <? 0) l 0 in
      Ok (top, l).

(** NthElement, list_helper.cc:96-118: std::nth_element(begin, begin + n - 1, end, less) is
    defined only when begin + n - 1 is in [begin, end]. *)
Definition NthElement (less : T -> T -> bool)
    (nth_element : (T -> T -> bool) -> list T -> Z -> list T) (l : list T) (n : Z) : res (list T) :=
  if llen l =? 0 then Ok l
  else if (0 <=? n - 1) && (n - 1 <=? llen l) then Ok (nth_element less l (n - 1))
  else OOB.

(** ** Interpreted code *)

(** heapify, _list.py:425-434: for i in reversed(range(last_index + 1)) *)
Fixpoint heapify_loop (n : nat) (func : T -> T -> bool) (l : list T) : res (list T) :=
  match n with
  | O => Ok l
  | S n' =>
    let! l := ShiftDown func l (Z.of_nat n') in
    heapify_loop n' func l
  end.
Definition py_heapify (comp : T -> T -> Z) (l : list T) : res (list T) :=
  if llen l <=? 1 then Ok l
  else
    let last_index := (llen l - 2) / 2 in
    heapify_loop (Z.to_nat (last_index + 1)) (fun x y => comp x y <? 0) l.

(** heap_replace, _list.py:437-439 *)
Definition py_heap_replace (comp : T -> T -> Z) (l : list T) (item : T) : res (list T) :=
  if llen l =? 0 then Exn IndexError
  else
    let! l := wr l 0 item in
    ShiftDown (fun x y => comp x y <? 0) l 0.

(** heap_pushpop, _list.py:442-450 *)
Definition py_heap_pushpop (comp : T -> T -> Z) (l : list T) (item : T) : res (T * list T) :=
  if llen l =? 0 then Exn IndexError
  else
    let! top := rdz l 0 in
    if comp item top >? 0 then
      let! l := wr l 0 item in
      let! l := ShiftDown (fun x y => comp x y <? 0) l 0 in
      Ok (top, l)
    else Ok (item, l).

(** ** Sequences of calls on one list *)
Inductive heap_op := Replace (item : T) | PushPop (item : T).
Definition heap_step (replace : list T -> T -> res (list T)) (pushpop : list T -> T -> res (T * list T))
    (l : list T) (o : heap_op) : res (option T * list T) :=
  match o with
  | Replace x => let! l := replace l x in Ok (None, l)
  | PushPop x => let! r := pushpop l x in Ok (Some (fst r), snd r)
  end.
Fixpoint heap_run (replace : list T -> T -> res (list T)) (pushpop : list T -> T -> res (T * list T))
    (l : list T) (ops : list heap_op) : res (list (option T) * list T) :=
  match ops with
  | [] => Ok ([], l)
  | o :: ops' =>
    let! r := heap_step replace pushpop l o in
    let! s := heap_run replace pushpop (snd r) ops' in
    Ok (fst r :: fst s, snd s)
  end.

(** ** Selection, interpreted: _partition and nth_element, _list.py:453-507 *)

(** The search for the maximum, 455-459: for i in reversed(range(s_pos, e_pos)) *)
Fixpoint find_max (n : nat) (comp : T -> T -> Z) (l : list T) (s_pos max_pos : Z) : res Z :=
  match n with
  | O => Ok max_pos
  | S n' =>
    let i := s_pos + Z.of_nat n' in
    let! x := rdz l i in
    let! m := rdz l max_pos in
    find_max n' comp l s_pos (if comp x m >? 0 then i else max_pos)
  end.
(** The search for the minimum, 464-468: for i in range(s_pos + 1, e_pos + 1) *)
Fixpoint find_min (n : nat) (comp : T -> T -> Z) (l : list T) (i min_pos : Z) : res Z :=
  match n with
  | O => Ok min_pos
  | S n' =>
    let! x := rdz l i in
    let! m := rdz l min_pos in
    find_min n' comp l (i + 1) (if comp x m <? 0 then i else min_pos)
  end.

(** The first inner while loop, 476-482; returns the list, i and j *)
Fixpoint part_up (fuel : nat) (comp : T -> T -> Z) (v : T) (l : list T) (i j : Z) : res (list T * Z * Z) :=
  if i <? j then
    match fuel with
    | O => OutOfFuel
    | S fuel' =>
      let! x := rdz l i in
      if comp x v >? 0 then
        let! l := wr l j x in
        Ok (l, i, j - 1)
      else part_up fuel' comp v l (i + 1) j
    end
  else Ok (l, i, j).
(** The second, 483-489 *)
Fixpoint part_down (fuel : nat) (comp : T -> T -> Z) (v : T) (l : list T) (i j : Z) : res (list T * Z * Z) :=
  if i <? j then
    match fuel with
    | O => OutOfFuel
    | S fuel' =>
      let! x := rdz l j in
      if comp x v <? 0 then
        let! l := wr l i x in
        Ok (l, i + 1, j)
      else part_down fuel' comp v l i (j - 1)
    end
  else Ok (l, i, j).
(** The outer while loop, 475-489 *)
Fixpoint part_loop (fuel : nat) (comp : T -> T -> Z) (v : T) (l : list T) (i j : Z) : res (list T * Z) :=
  if i <? j then
    match fuel with
    | O => OutOfFuel
    | S fuel' =>
      let! r := part_up (length l) comp v l i j in
      let '(l, i, j) := r in
      let! r := part_down (length l) comp v l i j in
      let '(l, i, j) := r in
      part_loop fuel' comp v l i j
    end
  else Ok (l, i).

Fixpoint py_partition (fuel : nat) (comp : T -> T -> Z) (l : list T) (s_pos e_pos t_pos : Z) : res (list T) :=
  match fuel with
  | O => OutOfFuel
  | S fuel' =>
    if t_pos =? e_pos then
      let! max_pos := find_max (Z.to_nat (e_pos - s_pos)) comp l s_pos e_pos in
      if max_pos =? e_pos then Ok l else swap l max_pos e_pos
    else if t_pos =? s_pos then
      let! min_pos := find_min (Z.to_nat (e_pos - s_pos)) comp l (s_pos + 1) s_pos in
      if min_pos =? s_pos then Ok l else swap l min_pos s_pos
    else
      let! v := rdz l e_pos in
      let! r := part_loop (length l) comp v l s_pos e_pos in
      let '(l, i) := r in
      let! l := wr l i v in
      if i =? t_pos then Ok l
      else if i >? t_pos then py_partition fuel' comp l s_pos (i - 1) t_pos
      else py_partition fuel' comp l (i + 1) e_pos t_pos
  end.
Definition py_nth_element (comp : T -> T -> Z) (l : list T) (n : Z) : res (list T) :=
  if (llen l <? n) || (n <? 1) then Ok l
  else py_partition (length l) comp l 0 (llen l - 1) (n - 1).
End Heap.
