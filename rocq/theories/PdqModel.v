(** Sorting: include/matxscript/runtime/_pdqsort.h and its callers.

    The range being sorted is a list of cells; a cell is [None] after its value has been
    moved out (std::move), and reading such a cell or an index outside the list is [OOB].
    Iterators are indices (Z, so that running below the first element is visible).
    The comparator is a total boolean function (an exception thrown by a comparison is not
    modelled).  std::make_heap followed by std::sort_heap is a parameter [heap_sort] on the
    values of the range. *)
From Verif Require Import Base.

Section Pdq.
Context {T : Type}.
Variable comp : T -> T -> bool.
Variable heap_sort : list T -> list T.

Definition arr := list (option T).
Definition zlen (a : arr) : Z := Z.of_nat (length a).

Fixpoint upd {A} (l : list A) (n : nat) (x : A) : list A :=
  match l, n with
  | [], _ => []
  | _ :: l', O => x :: l'
  | y :: l', S n' => y :: upd l' n' x
  end.

(** [a[i]] as a cell, as a value, and as a destination. *)
Definition cell (a : arr) (i : Z) : res (option T) := rdz a i.
Definition get (a : arr) (i : Z) : res T :=
  let! c := cell a i in match c with Some x => Ok x | None => OOB end.
Definition set_cell (a : arr) (i : Z) (c : option T) : res arr :=
  if (0 <=? i) && (i <? zlen a) then Ok (upd a (Z.to_nat i) c) else OOB.
Definition put (a : arr) (i : Z) (x : T) : res arr := set_cell a i (Some x).
(** [T tmp = std::move(a[i])] *)
Definition take (a : arr) (i : Z) : res (T * arr) :=
  let! x := get a i in
  let! a := set_cell a i None in
  Ok (x, a).
(** [a[i] = std::move(a[j])] *)
Definition move (a : arr) (i j : Z) : res arr :=
  let! c := cell a j in
  let! a := set_cell a j None in
  set_cell a i c.
(** std::iter_swap(a + i, a + j) *)
Definition iter_swap (a : arr) (i j : Z) : res arr :=
  let! x := get a i in
  let! y := get a j in
  let! a := put a i y in
  put a j x.

(** insertion_sort_threshold, ninther_threshold, partial_insertion_sort_limit, block_size:
    _pdqsort.h:57-71 *)
Definition insertion_sort_threshold : Z := 24.
Definition ninther_threshold : Z := 128.
Definition partial_insertion_sort_limit : Z := 8.
Definition block_size : Z := 64.

(** log2, _pdqsort.h:90-98 *)
Definition log2 (n : Z) : Z := Z.log2 n.

(** The do-while loop of the insertion sorts, _pdqsort.h:117-119 and 177-179 ([guarded]),
    146-148 (not [guarded]).  Returns the array and [sift]. *)
Fixpoint sift_loop (fuel : nat) (guarded : bool) (a : arr) (begin sift : Z) (tmp : T)
  : res (arr * Z) :=
  match fuel with
  | O => OutOfFuel
  | S fuel' =>
    let sift_1 := sift - 1 in
    let! a := move a sift sift_1 in
    let sift := sift - 1 in
    if guarded && (sift =? begin) then Ok (a, sift)
    else
      let! x := get a (sift_1 - 1) in
      if comp tmp x then sift_loop fuel' guarded a begin sift tmp else Ok (a, sift)
  end.

(** The body of the for loops, _pdqsort.h:109-122, 138-151, 169-183.  Returns the array and
    the final [sift] ([cur] if nothing moved). *)
Definition insert_one (guarded : bool) (a : arr) (begin cur : Z) : res (arr * Z) :=
  let! x := get a cur in
  let! y := get a (cur - 1) in
  if comp x y then
    let! ta := take a cur in
    let '(tmp, a) := ta in
    let! r := sift_loop (S (length a)) guarded a begin cur tmp in
    let '(a, sift) := r in
    let! a := put a sift tmp in
    Ok (a, sift)
  else Ok (a, cur).

Fixpoint insertion_loop (fuel : nat) (guarded : bool) (a : arr) (begin cur end_ : Z) : res arr :=
  if cur =? end_ then Ok a
  else match fuel with
       | O => OutOfFuel
       | S fuel' =>
         let! r := insert_one guarded a begin cur in
         insertion_loop fuel' guarded (fst r) begin (cur + 1) end_
       end.

(** insertion_sort, _pdqsort.h:100-124; unguarded_insertion_sort, 126-153 *)
Definition insertion_sort (guarded : bool) (a : arr) (begin end_ : Z) : res arr :=
  if begin =? end_ then Ok a
  else insertion_loop (length a) guarded a begin (begin + 1) end_.

Fixpoint partial_loop (fuel : nat) (a : arr) (begin cur end_ limit : Z) : res (arr * bool) :=
  if cur =? end_ then Ok (a, true)
  else match fuel with
       | O => OutOfFuel
       | S fuel' =>
         let! r := insert_one true a begin cur in
         let limit := limit + (cur - snd r) in
         if limit >? partial_insertion_sort_limit then Ok (fst r, false)
         else partial_loop fuel' (fst r) begin (cur + 1) end_ limit
       end.

(** partial_insertion_sort, _pdqsort.h:155-190 *)
Definition partial_insertion_sort (a : arr) (begin end_ : Z) : res (arr * bool) :=
  if begin =? end_ then Ok (a, true)
  else partial_loop (length a) a begin (begin + 1) end_ 0.

(** sort2, sort3, _pdqsort.h:192-206 *)
Definition sort2 (a : arr) (i j : Z) : res arr :=
  let! y := get a j in
  let! x := get a i in
  if comp y x then iter_swap a i j else Ok a.
Definition sort3 (a : arr) (i j k : Z) : res arr :=
  let! a := sort2 a i j in
  let! a := sort2 a j k in
  sort2 a i j.

(** [while (comp( *++first, pivot));] *)
Fixpoint scan_up (fuel : nat) (test : T -> bool) (a : arr) (first : Z) : res Z :=
  match fuel with
  | O => OutOfFuel
  | S fuel' =>
    let! x := get a (first + 1) in
    if test x then scan_up fuel' test a (first + 1) else Ok (first + 1)
  end.
(** [while (test( *--last));] *)
Fixpoint scan_down (fuel : nat) (test : T -> bool) (a : arr) (last : Z) : res Z :=
  match fuel with
  | O => OutOfFuel
  | S fuel' =>
    let! x := get a (last - 1) in
    if test x then scan_down fuel' test a (last - 1) else Ok (last - 1)
  end.
(** [while (first < last && test( *--last));] *)
Fixpoint scan_down_guarded (fuel : nat) (test : T -> bool) (a : arr) (first last : Z) : res Z :=
  if first <? last then
    match fuel with
    | O => OutOfFuel
    | S fuel' =>
      let! x := get a (last - 1) in
      if test x then scan_down_guarded fuel' test a first (last - 1) else Ok (last - 1)
    end
  else Ok last.
(** [while (first < last && test( *++first));] *)
Fixpoint scan_up_guarded (fuel : nat) (test : T -> bool) (a : arr) (first last : Z) : res Z :=
  if first <? last then
    match fuel with
    | O => OutOfFuel
    | S fuel' =>
      let! x := get a (first + 1) in
      if test x then scan_up_guarded fuel' test a (first + 1) last else Ok (first + 1)
    end
  else Ok first.

(** The first two scans of both right partitions, _pdqsort.h:261-284 and 456-480: returns
    (pivot, array, first, last). *)
Definition partition_right_head (a : arr) (begin end_ : Z) : res (T * arr * Z * Z) :=
  let! pa := take a begin in
  let '(pivot, a) := pa in
  let! first := scan_up (S (length a)) (fun x => comp x pivot) a begin in
  let! last :=
    (if first - 1 =? begin
     then scan_down_guarded (S (length a)) (fun x => negb (comp x pivot)) a first end_
     else scan_down (S (length a)) (fun x => negb (comp x pivot)) a end_) in
  Ok (pivot, a, first, last).

(** [*begin = move( *pivot_pos); *pivot_pos = move(pivot);], _pdqsort.h:434-436, 496-498 *)
Definition place_pivot (a : arr) (begin pivot_pos : Z) (pivot : T) : res arr :=
  let! a := move a begin pivot_pos in
  put a pivot_pos pivot.

(** The while loop of partition_right, _pdqsort.h:487-493 *)
Fixpoint partition_right_loop (fuel : nat) (a : arr) (pivot : T) (first last : Z)
  : res (arr * Z) :=
  if first <? last then
    match fuel with
    | O => OutOfFuel
    | S fuel' =>
      let! a := iter_swap a first last in
      let! first := scan_up (S (length a)) (fun x => comp x pivot) a first in
      let! last := scan_down (S (length a)) (fun x => negb (comp x pivot)) a last in
      partition_right_loop fuel' a pivot first last
    end
  else Ok (a, first).

(** partition_right, _pdqsort.h:441-501 *)
Definition partition_right (a : arr) (begin end_ : Z) : res (arr * Z * bool) :=
  let! h := partition_right_head a begin end_ in
  let '(pivot, a, first, last) := h in
  let already_partitioned := first >=? last in
  let! r := partition_right_loop (S (length a)) a pivot first last in
  let '(a, first) := r in
  let pivot_pos := first - 1 in
  let! a := place_pivot a begin pivot_pos pivot in
  Ok (a, pivot_pos, already_partitioned).

(** The while loop of partition_left, _pdqsort.h:529-535; returns [last]. *)
Fixpoint partition_left_loop (fuel : nat) (a : arr) (pivot : T) (first last : Z)
  : res (arr * Z) :=
  if first <? last then
    match fuel with
    | O => OutOfFuel
    | S fuel' =>
      let! a := iter_swap a first last in
      let! last := scan_down (S (length a)) (fun x => comp pivot x) a last in
      let! first := scan_up (S (length a)) (fun x => negb (comp pivot x)) a first in
      partition_left_loop fuel' a pivot first last
    end
  else Ok (a, last).

(** partition_left, _pdqsort.h:503-542 *)
Definition partition_left (a : arr) (begin end_ : Z) : res (arr * Z) :=
  let! pa := take a begin in
  let '(pivot, a) := pa in
  let! last := scan_down (S (length a)) (fun x => comp pivot x) a end_ in
  let! first :=
    (if last + 1 =? end_
     then scan_up_guarded (S (length a)) (fun x => negb (comp pivot x)) a begin last
     else scan_up (S (length a)) (fun x => negb (comp pivot x)) a begin) in
  let! r := partition_left_loop (S (length a)) a pivot first last in
  let '(a, last) := r in
  let! a := place_pivot a begin last pivot in
  Ok (a, last).

(** ** Branchless partition (arithmetic element types with std::less / std::greater)

    The live part of an offset buffer, offsets[start .. start+num), is a list. *)

(** The filling loops, _pdqsort.h:303-332 and 388-396 (unrolled by 8 in the first case):
    for i = 0 .. n-1, offset i is kept iff !comp(first[i], pivot).  The write at
    offsets[num] must stay below block_size. *)
Fixpoint fill_l (n : nat) (a : arr) (pivot : T) (first i : Z) (buf : list Z) : res (list Z) :=
  match n with
  | O => Ok buf
  | S n' =>
    if Z.of_nat (length buf) <? block_size then
      let! x := get a (first + i) in
      fill_l n' a pivot first (i + 1) (if comp x pivot then buf else buf ++ [i])
    else OOB
  end.
(** _pdqsort.h:333-354 and 397-404: for i = 1 .. n, offset i is kept iff
    comp(last[-i], pivot). *)
Fixpoint fill_r (n : nat) (a : arr) (pivot : T) (last i : Z) (buf : list Z) : res (list Z) :=
  match n with
  | O => Ok buf
  | S n' =>
    if Z.of_nat (length buf) <? block_size then
      let i := i + 1 in
      let! x := get a (last - i) in
      fill_r n' a pivot last i (if comp x pivot then buf ++ [i] else buf)
    else OOB
  end.

(** swap_offsets, _pdqsort.h:220-244, on the [num] pairs of offsets *)
Fixpoint swap_pairs (a : arr) (first last : Z) (ps : list (Z * Z)) : res arr :=
  match ps with
  | [] => Ok a
  | (l, r) :: ps' =>
    let! a := iter_swap a (first + l) (last - r) in
    swap_pairs a first last ps'
  end.
(** The for loop 236-241; [r] is the cell emptied last.  Returns the final [r]. *)
Fixpoint cycle_pairs (a : arr) (first last r : Z) (ps : list (Z * Z)) : res (arr * Z) :=
  match ps with
  | [] => Ok (a, r)
  | (ol, or) :: ps' =>
    let l := first + ol in
    let! a := move a r l in
    let r := last - or in
    let! a := move a l r in
    cycle_pairs a first last r ps'
  end.
Definition swap_offsets (a : arr) (first last : Z) (ps : list (Z * Z)) (use_swaps : bool)
  : res arr :=
  if use_swaps then swap_pairs a first last ps
  else match ps with
       | [] => Ok a
       | (ol, or) :: ps' =>
         let l := first + ol in
         let r := last - or in
         let! ta := take a l in
         let '(tmp, a) := ta in
         let! a := move a l r in
         let! c := cycle_pairs a first last r ps' in
         put (fst c) (snd c) tmp
       end.

Definition is_nil {A} (l : list A) : bool := match l with [] => true | _ => false end.

(** _pdqsort.h:357-367, 406-416: swap min(num_l, num_r) pairs and drop them; a side whose
    buffer is empty advances by its size. *)
Definition swap_block (a : arr) (first last : Z) (bl br : list Z) (l_size r_size : Z)
  : res (arr * Z * Z * list Z * list Z) :=
  let num := Nat.min (length bl) (length br) in
  let! a := swap_offsets a first last (combine (firstn num bl) (firstn num br))
                         (Nat.eqb (length bl) (length br)) in
  let bl := skipn num bl in
  let br := skipn num br in
  Ok (a, (if is_nil bl then first + l_size else first),
         (if is_nil br then last - r_size else last), bl, br).

(** The while loop, _pdqsort.h:301-368 *)
Fixpoint block_loop (fuel : nat) (a : arr) (pivot : T) (first last : Z) (bl br : list Z)
  : res (arr * Z * Z * list Z * list Z) :=
  if last - first >? 2 * block_size then
    match fuel with
    | O => OutOfFuel
    | S fuel' =>
      let! bl := (if is_nil bl then fill_l (Z.to_nat block_size) a pivot first 0 [] else Ok bl) in
      let! br := (if is_nil br then fill_r (Z.to_nat block_size) a pivot last 0 [] else Ok br) in
      let! r := swap_block a first last bl br block_size block_size in
      let '(a, first, last, bl, br) := r in
      block_loop fuel' a pivot first last bl br
    end
  else Ok (a, first, last, bl, br).

(** _pdqsort.h:420-425: [offs] is offsets_l reversed *)
Fixpoint rest_l (a : arr) (first last : Z) (offs : list Z) : res (arr * Z) :=
  match offs with
  | [] => Ok (a, last)
  | o :: offs' =>
    let! a := iter_swap a (first + o) (last - 1) in
    rest_l a first (last - 1) offs'
  end.
(** _pdqsort.h:426-431 *)
Fixpoint rest_r (a : arr) (first last : Z) (offs : list Z) : res (arr * Z) :=
  match offs with
  | [] => Ok (a, first)
  | o :: offs' =>
    let! a := iter_swap a (last - o) first in
    rest_r a (first + 1) last offs'
  end.

(** The blocks, _pdqsort.h:286-431: returns the array and the final [first]. *)
Definition partition_blocks (a : arr) (pivot : T) (first last : Z) : res (arr * Z) :=
  let! b := block_loop (S (length a)) a pivot first last [] [] in
  let '(a, first, last, bl, br) := b in
  let unknown_left := last - first - (if is_nil bl && is_nil br then 0 else block_size) in
  let '(l_size, r_size) :=
    if negb (is_nil br) then (unknown_left, block_size)
    else if negb (is_nil bl) then (block_size, unknown_left)
    else (Z.quot unknown_left 2, unknown_left - Z.quot unknown_left 2) in
  let! bl := (if negb (unknown_left =? 0) && is_nil bl
              then fill_l (Z.to_nat l_size) a pivot first 0 [] else Ok bl) in
  let! br := (if negb (unknown_left =? 0) && is_nil br
              then fill_r (Z.to_nat r_size) a pivot last 0 [] else Ok br) in
  let! r := swap_block a first last bl br l_size r_size in
  let '(a, first, last, bl, br) := r in
  let! af := (if is_nil bl then Ok (a, first, last)
              else let! r := rest_l a first last (rev bl) in Ok (fst r, snd r, snd r)) in
  let '(a, first, last) := af in
  if is_nil br then Ok (a, first) else rest_r a first last (rev br).

(** partition_right_branchless, _pdqsort.h:246-439 *)
Definition partition_right_branchless (a : arr) (begin end_ : Z) : res (arr * Z * bool) :=
  let! h := partition_right_head a begin end_ in
  let '(pivot, a, first, last) := h in
  let already_partitioned := first >=? last in
  let! af := (if already_partitioned then Ok (a, first)
              else let! a := iter_swap a first last in Ok (a, first + 1)) in
  let '(a, first) := af in
  let! af := partition_blocks a pivot first last in
  let '(a, first) := af in
  let pivot_pos := first - 1 in
  let! a := place_pivot a begin pivot_pos pivot in
  Ok (a, pivot_pos, already_partitioned).

(** ** The main loop *)

(** std::make_heap(begin, end, comp); std::sort_heap(begin, end, comp) *)
Fixpoint get_range (n : nat) (a : arr) (i : Z) : res (list T) :=
  match n with
  | O => Ok []
  | S n' => let! x := get a i in let! l := get_range n' a (i + 1) in Ok (x :: l)
  end.
Fixpoint put_range (a : arr) (i : Z) (l : list T) : res arr :=
  match l with
  | [] => Ok a
  | x :: l' => let! a := put a i x in put_range a (i + 1) l'
  end.
Definition heap_sort_range (a : arr) (begin end_ : Z) : res arr :=
  let! l := get_range (Z.to_nat (end_ - begin)) a begin in
  put_range a begin (heap_sort l).

(** Pivot selection, _pdqsort.h:563-572 *)
Definition choose_pivot (a : arr) (begin end_ : Z) : res arr :=
  let size := end_ - begin in
  let s2 := Z.quot size 2 in
  if size >? ninther_threshold then
    let! a := sort3 a begin (begin + s2) (end_ - 1) in
    let! a := sort3 a (begin + 1) (begin + (s2 - 1)) (end_ - 2) in
    let! a := sort3 a (begin + 2) (begin + (s2 + 1)) (end_ - 3) in
    let! a := sort3 a (begin + (s2 - 1)) (begin + s2) (begin + (s2 + 1)) in
    iter_swap a begin (begin + s2)
  else sort3 a (begin + s2) begin (end_ - 1).

(** Breaking patterns, _pdqsort.h:611-633 *)
Definition shuffle_left (a : arr) (begin pivot_pos : Z) : res arr :=
  let l_size := pivot_pos - begin in
  if l_size >=? insertion_sort_threshold then
    let! a := iter_swap a begin (begin + Z.quot l_size 4) in
    let! a := iter_swap a (pivot_pos - 1) (pivot_pos - Z.quot l_size 4) in
    if l_size >? ninther_threshold then
      let! a := iter_swap a (begin + 1) (begin + (Z.quot l_size 4 + 1)) in
      let! a := iter_swap a (begin + 2) (begin + (Z.quot l_size 4 + 2)) in
      let! a := iter_swap a (pivot_pos - 2) (pivot_pos - (Z.quot l_size 4 + 1)) in
      iter_swap a (pivot_pos - 3) (pivot_pos - (Z.quot l_size 4 + 2))
    else Ok a
  else Ok a.
Definition shuffle_right (a : arr) (pivot_pos end_ : Z) : res arr :=
  let r_size := end_ - (pivot_pos + 1) in
  if r_size >=? insertion_sort_threshold then
    let! a := iter_swap a (pivot_pos + 1) (pivot_pos + (1 + Z.quot r_size 4)) in
    let! a := iter_swap a (end_ - 1) (end_ - Z.quot r_size 4) in
    if r_size >? ninther_threshold then
      let! a := iter_swap a (pivot_pos + 2) (pivot_pos + (2 + Z.quot r_size 4)) in
      let! a := iter_swap a (pivot_pos + 3) (pivot_pos + (3 + Z.quot r_size 4)) in
      let! a := iter_swap a (end_ - 2) (end_ - (1 + Z.quot r_size 4)) in
      iter_swap a (end_ - 3) (end_ - (2 + Z.quot r_size 4))
    else Ok a
  else Ok a.
Definition shuffle (a : arr) (begin pivot_pos end_ : Z) : res arr :=
  let! a := shuffle_left a begin pivot_pos in
  shuffle_right a pivot_pos end_.

(** pdqsort_loop, _pdqsort.h:544-652.  One unit of fuel per iteration; the recursive call and
    the next iteration get what is left. *)
Fixpoint pdqsort_loop (fuel : nat) (branchless : bool) (a : arr) (begin end_ : Z)
         (bad_allowed : Z) (leftmost : bool) : res arr :=
  match fuel with
  | O => OutOfFuel
  | S fuel' =>
    let size := end_ - begin in
    if size <? insertion_sort_threshold then insertion_sort leftmost a begin end_
    else
      let! a := choose_pivot a begin end_ in
      let! same :=
        (if leftmost then Ok false
         else
           let! x := get a (begin - 1) in
           let! y := get a begin in
           Ok (negb (comp x y))) in
      if same then
        let! r := partition_left a begin end_ in
        pdqsort_loop fuel' branchless (fst r) (snd r + 1) end_ bad_allowed leftmost
      else
        let! r := (if branchless then partition_right_branchless a begin end_
                   else partition_right a begin end_) in
        let '(a, pivot_pos, already_partitioned) := r in
        let l_size := pivot_pos - begin in
        let r_size := end_ - (pivot_pos + 1) in
        let highly_unbalanced := (l_size <? Z.quot size 8) || (r_size <? Z.quot size 8) in
        if highly_unbalanced && (bad_allowed - 1 =? 0) then heap_sort_range a begin end_
        else
          let bad_allowed := if highly_unbalanced then bad_allowed - 1 else bad_allowed in
          let! r :=
            (if highly_unbalanced then
               let! a := shuffle a begin pivot_pos end_ in Ok (a, false)
             else if already_partitioned then
               let! r := partial_insertion_sort a begin pivot_pos in
               if snd r then partial_insertion_sort (fst r) (pivot_pos + 1) end_ else Ok r
             else Ok (a, false)) in
          let '(a, done) := r in
          if done then Ok a
          else
            let! a := pdqsort_loop fuel' branchless a begin pivot_pos bad_allowed leftmost in
            pdqsort_loop fuel' branchless a (pivot_pos + 1) end_ bad_allowed false
  end.

(** pdqsort, _pdqsort.h:655-672 *)
Definition pdqsort (branchless : bool) (a : arr) : res arr :=
  let n := zlen a in
  if n =? 0 then Ok a
  else pdqsort_loop (S (length a)) branchless a 0 n (log2 n) true.
End Pdq.

(** Values of the cells once no value is moved out. *)
Fixpoint values {T} (a : list (option T)) : res (list T) :=
  match a with
  | [] => Ok []
  | None :: _ => OOB
  | Some x :: a' => let! l := values a' in Ok (x :: l)
  end.

(** ** The callers *)
Section Callers.
Context {T K : Type}.
(** [lt] is ArithOps::lt / Any::LessThan / std::less on keys; Any::GreaterEqual and
    ArithOps::ge are the separate relation [ge] (for the value types that std::less
    supports, the reverse comparator is written !less). *)
Variables lt ge : K -> K -> bool.
Variable heap_sort : (T -> T -> bool) -> list T -> list T.

(** List::sort(key, reverse), src/runtime/container/list_ref.cc:525-554 (without a key
    function, key is the identity); FTList::sort of an element type that is not
    arithmetic, include/matxscript/runtime/container/ft_list.h:820-868.  The key function is
    a pure function here. *)
Definition sort_comp (key : T -> K) (reverse : bool) (x y : T) : bool :=
  if reverse then ge (key x) (key y) else lt (key x) (key y).
Definition list_sort (key : T -> K) (reverse : bool) (l : list T) : res (list T) :=
  let! a := pdqsort (sort_comp key reverse) (heap_sort (sort_comp key reverse)) false (map Some l) in
  values a.

End Callers.

(** FTList::sort(reverse) of an element type that std::less supports, ft_list.h:812-819,
    836-843: for an arithmetic type std::less selects the branchless partition
    (is_default_compare and is_arithmetic, _pdqsort.h:79-87, 662-667); the lambda of the
    reverse order and the string types do not. *)
Definition ft_sort_comp {T} (less : T -> T -> bool) (reverse : bool) (x y : T) : bool :=
  if reverse then negb (less x y) else less x y.
Definition ft_list_sort {T} (less : T -> T -> bool) (heap_sort : (T -> T -> bool) -> list T -> list T)
    (arithmetic reverse : bool) (l : list T) : res (list T) :=
  let comp := ft_sort_comp less reverse in
  let! a := pdqsort comp (heap_sort comp) (arithmetic && negb reverse) (map Some l) in
  values a.
