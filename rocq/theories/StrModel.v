(** The storage of String and Unicode: in place for short strings, a block of their own for
    medium ones, a counted and shared block for long ones.

    A cell is [Some c] when it holds the character [c] and [None] when its content is
    indeterminate.  A block is addressed by its number and never reused, so a pointer kept
    too long is seen as dangling.  Characters are numbers; the capacity [good n] the
    allocator gives for [n] characters, the sizes [ms] and [mm] up to which a string is
    stored in place and in a block of its own are parameters: 16 and 254 for bytes, 4 and 63
    for str.  Not modelled: overflow of size_t, failing allocation, threads (the count is
    sequential), the formal rule that the terminator of a full in-place string is written
    into the const member behind the array. *)
From Verif Require Import Base ListAux StrSpec.
Local Open Scope nat_scope.

Notation cell := (option Z) (only parsing).
Definition zero : option Z := Some 0%Z.

(** MediumBuffer and RefCounted, string_core.h:523-532, 571-576: whether the block is counted,
    the count, and the cells: one more than the capacity. *)
Record block := mkBlock { counted : bool; refs : nat; cells : list (option Z) }.
Notation heap := (list (option block)) (only parsing).

(** The union and category_or_small_len_, string_core.h:647-661.  The cells of a string in
    place are those of small_ and, last, of zero_. *)
Inductive rep : Type :=
| RSmall (c : list (option Z)) (n : nat)
| RMedium (p n : nat)
| RLarge (p n : nat).

Definition hget (h : heap) (p : nat) : res block :=
  match nth_error h p with Some (Some b) => Ok b | _ => UB end.

(** Overwrite the cells from [off] on. *)
Definition splice (l : list (option Z)) (off : nat) (d : list (option Z)) : list (option Z) :=
  firstn off l ++ d ++ skipn (off + length d) l.

(** Reading and writing cells of a block: outside of it is UB. *)
Definition hread (h : heap) (p off n : nat) : res (list (option Z)) :=
  let! b := hget h p in
  if off + n <=? length (cells b) then Ok (firstn n (skipn off (cells b))) else UB.
Definition hwrite (h : heap) (p off : nat) (d : list (option Z)) : res heap :=
  let! b := hget h p in
  if off + length d <=? length (cells b)
  then Ok (lset h p (Some (mkBlock (counted b) (refs b) (splice (cells b) off d))))
  else UB.

Section Core.
Variables (ms mm : nat) (good : nat -> nat).

(** MediumBuffer::create, RefCounted::create, string_core.h:538-544, 606-613 *)
Definition create (cnt : bool) (n : nat) (h : heap) : nat * heap :=
  (length h, h ++ [Some (mkBlock cnt 1 (repeat None (good n + 1)))]).

(** incrementRefs, decrementRefs, MediumBuffer::Destroy, string_core.h:592-604, 565-568; the
    header is at another place in the two kinds of block *)
Definition incref (h : heap) (p : nat) : res heap :=
  let! b := hget h p in
  if counted b then Ok (lset h p (Some (mkBlock true (refs b + 1) (cells b)))) else UB.
Definition decref (h : heap) (p : nat) : res heap :=
  let! b := hget h p in
  if counted b then
    match refs b with
    | O => UB
    | 1 => Ok (lset h p None)
    | S k => Ok (lset h p (Some (mkBlock true k (cells b))))
    end
  else UB.
Definition release (h : heap) (p : nat) : res heap :=
  let! b := hget h p in if counted b then UB else Ok (lset h p None).

(** size, capacity, isShared, string_core.h:467-498 *)
Definition size (s : rep) : nat := match s with RSmall _ n | RMedium _ n | RLarge _ n => n end.
Definition capacity (s : rep) (h : heap) : res nat :=
  match s with
  | RSmall _ _ => Ok ms
  | RMedium p _ => let! b := hget h p in Ok (length (cells b) - 1)
  | RLarge p n => let! b := hget h p in
                  Ok (if 1 <? refs b then n else length (cells b) - 1)
  end.
Definition is_shared (s : rep) (h : heap) : res bool :=
  match s with
  | RLarge p _ => let! b := hget h p in Ok (1 <? refs b)
  | _ => Ok false
  end.

(** [data() + off] read and written *)
Definition peek (s : rep) (h : heap) (off n : nat) : res (list (option Z)) :=
  match s with
  | RSmall c _ => if off + n <=? length c then Ok (firstn n (skipn off c)) else UB
  | RMedium p _ | RLarge p _ => hread h p off n
  end.
Definition poke (s : rep) (h : heap) (off : nat) (d : list (option Z)) : res (rep * heap) :=
  match s with
  | RSmall c n => if off + length d <=? length c then Ok (RSmall (splice c off d) n, h) else UB
  | RMedium p _ | RLarge p _ => let! h := hwrite h p off d in Ok (s, h)
  end.

(** The 16 bytes of a new object: indeterminate, but for zero_ behind them *)
Definition garbage : list (option Z) := repeat None ms ++ [zero].
Definition in_place (s : rep) : list (option Z) :=
  match s with RSmall c _ => c | _ => garbage end.
(** setSmallSize, string_core.h:675-683 *)
Definition set_small (c : list (option Z)) (n : nat) : rep := RSmall (splice c n [zero]) n.
(** reset, string_core.h:508-510 *)
Definition reset (s : rep) : rep := set_small (in_place s) 0.
Definition empty : rep := set_small garbage 0.

(** destructor, string_core.h:381-386, 512-520; DestroyCHost, 243-253, on a boxed string *)
Definition destroy (s : rep) (h : heap) : res heap :=
  match s with
  | RSmall _ _ => Ok h
  | RMedium p _ => release h p
  | RLarge p _ => decref h p
  end.

(** initMedium, initLarge, string_core.h:787-811 *)
Definition init_block (cnt : bool) (d : list (option Z)) (h : heap) : res (rep * heap) :=
  let n := length d in
  let '(p, h) := create cnt n h in
  let! h := hwrite h p 0 d in
  let! h := hwrite h p n [zero] in
  Ok (if cnt then RLarge p n else RMedium p n, h).
(** string_core(data, size), string_core.h:342-352, initSmall 743-784; the word-wise copy of
    aligned data leaves other bytes behind the string than memcpy: indeterminate either way *)
Definition make (d : list (option Z)) (h : heap) : res (rep * heap) :=
  if length d <=? ms then Ok (set_small (splice garbage 0 d) (length d), h)
  else init_block (negb (length d <=? mm)) d h.
(** string_core(data, size, category), string_core.h:275-293.  [share] is the data pointer of
    a view of category isLarge: a block and an offset into it; the count is found in front of
    the pointer, so an offset other than 0 touches something else. *)
Definition make_view (d : list (option Z)) (share : option (nat * nat)) (h : heap)
    : res (rep * heap) :=
  if length d <=? mm then make d h
  else match share with
       | Some (p, off) => if off =? 0 then let! h := incref h p in Ok (RLarge p (length d), h)
                          else UB
       | None => make d h
       end.
(** string_core(size, Char), string_core.h:366-379 *)
Definition make_fill (n : nat) (c : Z) (h : heap) : res (rep * heap) :=
  let d := repeat (Some c) n in
  if n <=? ms then poke (set_small garbage n) h 0 d
  else
    let cnt := negb (n <=? mm) in
    let '(p, h) := create cnt n h in
    let! h := hwrite h p n [zero] in
    poke (if cnt then RLarge p n else RMedium p n) h 0 d.
(** string_core(const string_core&), string_core.h:309-327, copySmall, copyMedium, copyLarge
    711-741 *)
Definition copy (s : rep) (h : heap) : res (rep * heap) :=
  match s with
  | RSmall c n => Ok (RSmall c n, h)
  | RMedium p n => let! d := hread h p 0 n in init_block false d h
  | RLarge p n => let! h := incref h p in Ok (RLarge p n, h)
  end.

(** unshare, mutableData, string_core.h:844-870, 415-426 *)
Definition unshare (p n min : nat) (h : heap) : res (rep * heap) :=
  let! b := hget h p in
  let '(p', h) := create true (Nat.max min (length (cells b) - 1)) h in
  let! d := hread h p 0 (n + 1) in
  let! h := hwrite h p' 0 d in
  let! h := decref h p in
  Ok (RLarge p' n, h).
Definition mutable (s : rep) (h : heap) : res (rep * heap) :=
  match s with
  | RLarge p n => let! b := hget h p in
                  if 1 <? refs b then unshare p n 0 h else Ok (s, h)
  | _ => Ok (s, h)
  end.

(** reallocate, string_core.h:553-563, 625-643: the cells up to the terminator move to a new
    block (smartRealloc) and the old one is gone. *)
Definition reallocate (cnt : bool) (p n new : nat) (h : heap) : res (nat * heap) :=
  let '(p', h) := create cnt new h in
  let! d := hread h p 0 (n + 1) in
  let! h := hwrite h p' 0 d in
  Ok (p', lset h p None).

(** reserveSmall, string_core.h:924-951 *)
Definition reserve_small (c : list (option Z)) (n min : nat) (h : heap) : res (rep * heap) :=
  if min <=? ms then Ok (RSmall c n, h)
  else
    let cnt := negb (min <=? mm) in
    let '(p, h) := create cnt min h in
    let! d := peek (RSmall c n) h 0 (n + 1) in
    let! h := hwrite h p 0 d in
    Ok (if cnt then RLarge p n else RMedium p n, h).
(** reserveMedium, string_core.h:897-921 *)
Definition reserve_medium (p n min : nat) (h : heap) : res (rep * heap) :=
  let! b := hget h p in
  if min <=? length (cells b) - 1 then Ok (RMedium p n, h)
  else if min <=? mm then
    let! (p', h) := reallocate false p n min h in Ok (RMedium p' n, h)
  else
    let! (nascent, h) := reserve_small (splice garbage 0 [zero]) 0 min h in
    let! d := hread h p 0 (n + 1) in
    match nascent with
    | RLarge q _ =>
      let! h := hwrite h q 0 d in
      let! h := release h p in
      Ok (RLarge q n, h)
    | _ => UB
    end.
(** reserveLarge, string_core.h:872-895 *)
Definition reserve_large (p n min : nat) (h : heap) : res (rep * heap) :=
  let! b := hget h p in
  if 1 <? refs b then unshare p n min h
  else if length (cells b) - 1 <? min then
    let! (p', h) := reallocate true p n min h in Ok (RLarge p' n, h)
  else Ok (RLarge p n, h).
(** reserve, string_core.h:445-461 *)
Definition reserve (s : rep) (min : nat) (h : heap) : res (rep * heap) :=
  match s with
  | RSmall c n => reserve_small c n min h
  | RMedium p n => reserve_medium p n min h
  | RLarge p n => reserve_large p n min h
  end.

(** [ml_.size_ = n; ml_.data_[n] = 0] *)
Definition set_size (s : rep) (n : nat) (h : heap) : res (rep * heap) :=
  match s with
  | RSmall _ _ => UB
  | RMedium p _ => let! h := hwrite h p n [zero] in Ok (RMedium p n, h)
  | RLarge p _ => let! h := hwrite h p n [zero] in Ok (RLarge p n, h)
  end.
(** expandNoinit, string_core.h:954-983 *)
Definition expand (s : rep) (delta : nat) (exp : bool) (h : heap) : res (rep * heap) :=
  let new := size s + delta in
  match s with
  | RSmall c n =>
    if new <=? ms then Ok (set_small c new, h)
    else
      let! (s, h) := reserve_small c n (if exp then Nat.max new (2 * ms) else new) h in
      set_size s new h
  | _ =>
    let! cap := capacity s h in
    let! (s, h) := if cap <? new
                    then reserve s (if exp then Nat.max new (1 + cap * 3 / 2) else new) h
                    else Ok (s, h) in
    set_size s new h
  end.
(** shrink, string_core.h:435-443, 985-1012 *)
Definition shrink (s : rep) (delta : nat) (h : heap) : res (rep * heap) :=
  if size s <? delta then UB
  else
  match s with
  | RSmall c n => Ok (set_small c (n - delta), h)
  | RMedium p n => set_size s (n - delta) h
  | RLarge p n =>
    let! b := hget h p in
    if refs b =? 1 then set_size s (n - delta) h
    else if delta =? 0 then Ok (s, h)
    else
      let! d := hread h p 0 (n - delta) in
      let! (t, h) := make d h in
      let! h := destroy s h in
      Ok (t, h)
  end.

(** ** Modifiers of String, string.cc *)

(** Where the characters given to a modifier lie: in a block, in the string itself when it
    is stored in place, or elsewhere. *)
Inductive source : Type :=
| SBlock (p off : nat)
| SSelf (off : nat)
| SMem (l : list (option Z)) (off : nat).
(** Reading [n] cells from there, at the time of the copy.  The storage in place of a string
    that has moved to a block holds the pointer: its content is not characters. *)
Definition read (src : source) (self : rep) (h : heap) (n : nat) : res (list (option Z)) :=
  match src with
  | SBlock p off => hread h p off n
  | SSelf off => match self with RSmall _ _ => peek self h off n | _ => UB end
  | SMem l off => if off + n <=? length l then Ok (firstn n (skipn off l)) else UB
  end.
(** [data() + off] of the string itself, of another one *)
Definition own (s : rep) (off : nat) : source :=
  match s with RSmall _ _ => SSelf off | RMedium p _ | RLarge p _ => SBlock p off end.
Definition of_other (s : rep) (off : nat) : source :=
  match s with RSmall c _ => SMem c off | RMedium p _ | RLarge p _ => SBlock p off end.

(** [x.swap( *this)] where [x] is a temporary: the old string is destroyed. *)
Definition become (t : rep) (s : rep) (h : heap) : res (rep * heap) :=
  let! h := destroy s h in Ok (t, h).

(** assign(s, n), string.cc:404-431 *)
Definition assign (s : rep) (src : source) (n : nat) (h : heap) : res (rep * heap) :=
  if n =? 0 then shrink s (size s) h
  else if n <=? size s then
    let! (s, h) := mutable s h in
    let! d := read src s h n in
    let! (s, h) := poke s h 0 d in
    shrink s (size s - n) h
  else
    let! sh := is_shared s h in
    if sh then
      let! d := read src s h n in
      let! (t, h) := make d h in
      become t s h
    else
      let! (s, h) := expand s (n - size s) false h in
      let! d := read src s h n in
      poke s h 0 d.

(** [le(oldData, s) && !le(oldData + oldSize, s)], string.cc:352-360 *)
Definition inside (src : source) (s : rep) : option nat :=
  match src, s with
  | SSelf off, RSmall _ n => if off <? n then Some off else None
  | SBlock p off, RMedium q n | SBlock p off, RLarge q n =>
      if (p =? q) && (off <? n) then Some off else None
  | _, _ => None
  end.
(** append(s, n), string.cc:338-366 *)
Definition append (s : rep) (src : source) (n : nat) (h : heap) : res (rep * heap) :=
  if n =? 0 then Ok (s, h)
  else
    let old := size s in
    let al := inside src s in
    let! (s, h) := expand s n true h in
    let! d := match al with
              | Some off => peek s h off n
              | None => read src s h n
              end in
    poke s h old d.
(** append(n, c), string.cc:372-377; push_back, string.cc:379-382, string_core.h:463-465 *)
Definition append_fill (s : rep) (n : nat) (c : Z) (h : heap) : res (rep * heap) :=
  let old := size s in
  let! (s, h) := expand s n true h in
  poke s h old (repeat (Some c) n).
(** resize, string.cc:261-271 *)
Definition resize (s : rep) (n : nat) (c : Z) (h : heap) : res (rep * heap) :=
  if n <=? size s then shrink s (size s - n) h
  else
    let old := size s in
    let! (s, h) := expand s (n - old) false h in
    poke s h old (repeat (Some c) (n - old)).
(** shrink_to_fit, string.cc:281-286 *)
Definition shrink_to_fit (s : rep) (h : heap) : res (rep * heap) :=
  let! cap := capacity s h in
  if cap <? size s * 3 / 2 then Ok (s, h)
  else
    let! d := peek s h 0 (size s) in
    let! (t, h) := make d h in
    become t s h.
(** insert, string.cc:454-471: no check of the position; begin() makes the block its own *)
Definition insert (s : rep) (pos : nat) (src : source) (n : nat) (h : heap) : res (rep * heap) :=
  let old := size s in
  let! (s, h) := expand s n true h in
  let! (s, h) := mutable s h in
  if old <? pos then UB
  else
    let! m := peek s h pos (old - pos) in
    let! (s, h) := poke s h (pos + n) m in
    let! d := read src s h n in
    poke s h pos d.
Definition insert_fill (s : rep) (pos n : nat) (c : Z) (h : heap) : res (rep * heap) :=
  insert s pos (SMem (repeat (Some c) n) 0) n h.
(** erase, string.cc:505-514 *)
Definition erase (s : rep) (pos n : nat) (h : heap) : res (rep * heap) :=
  if size s <? pos then Exn IndexError
  else
    let n := Nat.min n (size s - pos) in
    let! (s, h) := mutable s h in
    let! m := peek s h (pos + n) (size s - (pos + n)) in
    let! (s, h) := poke s h pos m in
    resize s (size s - n) 0%Z h.
(** replace, string.cc:524-541, 547-561: built in a temporary.  [mid] appends what is put in. *)
Definition replace_by (s : rep) (pos n1 n2 : nat) (mid : rep -> heap -> res (rep * heap))
    (h : heap) : res (rep * heap) :=
  let len := size s in
  if len <? pos then Exn IndexError
  else
    let n1 := Nat.min n1 (len - pos) in
    let! (t, h) := reserve empty (len - n1 + n2) h in
    let! (t, h) := append t (of_other s 0) pos h in
    let! (t, h) := mid t h in
    let! (t, h) := append t (of_other s (pos + n1)) (len - pos - n1) h in
    become t s h.
(** at(n) = c, string.cc:317-322 *)
Definition set_at (s : rep) (pos : nat) (c : Z) (h : heap) : res (rep * heap) :=
  if size s <=? pos then Exn IndexError
  else let! (s, h) := mutable s h in poke s h pos [Some c].

(** ** Programs *)

(** A variable: not constructed, a String, or a runtime value holding a string. *)
Inductive slot : Type := Free | Str (s : rep) | Box (s : rep).
Definition store := (list slot * list (option block))%type.

Definition get (st : store) (v : nat) : res rep :=
  match nth_error (fst st) v with Some (Str s) => Ok s | _ => UB end.
Definition get_box (st : store) (v : nat) : res rep :=
  match nth_error (fst st) v with Some (Box s) => Ok s | _ => UB end.
(** a place for a new object *)
Definition free_slot (st : store) (v : nat) : res unit :=
  match nth_error (fst st) v with Some Free => Ok tt | _ => UB end.
Definition put (st : store) (v : nat) (x : slot) (h : heap) : store := (lset (fst st) v x, h).
Definition put_str (st : store) (v : nat) (r : res (rep * heap)) : res store :=
  let! (s, h) := r in Ok (put st v (Str s) h).

(** view().substr(pos, n), string_view.h:311-315: the number of characters *)
Definition sub_len (s : rep) (pos n : nat) : res nat :=
  if size s <? pos then Exn IndexError else Ok (Nat.min n (size s - pos)).
(** the characters of [w], as seen from a modifier of [v] *)
Definition from (v w : nat) (t : rep) (off : nat) : source :=
  if v =? w then own t off else of_other t off.
(** a boxed small string: 16 bytes without zero_, of which only [pad] are copied back,
    MoveFromCHost string_core.h:255-273 *)
Definition unbox (s : rep) : rep :=
  match s with
  | RSmall c n => RSmall (splice (in_place empty) 0 (firstn n c)) n
  | _ => s
  end.
Definition share_of (s : rep) (off : nat) : option (nat * nat) :=
  match s with RLarge p _ => Some (p, off) | _ => None end.

Definition step (o : sop) (st : store) : res store :=
  let h := snd st in
  match o with
  | New v l => let! _ := free_slot st v in put_str st v (make (map Some l) h)
  | NewFill v n c => let! _ := free_slot st v in put_str st v (make_fill n c h)
  | Copy v w => let! _ := free_slot st v in let! s := get st w in put_str st v (copy s h)
  | Move v w => let! _ := free_slot st v in let! s := get st w in
                Ok (put (put st v (Str s) h) w (Str (reset s)) h)
  | OfView v w a b =>
      let! _ := free_slot st v in let! s := get st w in
      if size s <? a + b then UB
      else let! d := peek s h a (size s - (a + b)) in put_str st v (make_view d (share_of s a) h)
  | Sub v w pos n =>
      let! _ := free_slot st v in let! s := get st w in let! k := sub_len s pos n in
      let! d := peek s h pos k in put_str st v (make d h)
  | Destroy v => let! s := get st v in let! h := destroy s h in Ok (put st v Free h)
  | Assign v w =>
      (* operator=(const String&), string.cc:139-149 *)
      let! s := get st v in let! t := get st w in
      if v =? w then Ok st
      else match t with
           | RLarge _ _ => put_str st v (let! (x, h) := copy t h in become x s h)
           | _ => put_str st v (assign s (from v w t 0) (size t) h)
           end
  | MoveAssign v w =>
      (* operator=(String&&), string.cc:151-162 *)
      let! s := get st v in let! t := get st w in
      if v =? w then Ok st
      else let! h := destroy s h in Ok (put (put st v (Str t) h) w (Str (reset t)) h)
  | AssignView v w =>
      (* operator=(self_view), string.cc:169-175 *)
      let! s := get st v in let! t := get st w in
      match t with
      | RLarge _ _ =>
          put_str st v (let! d := peek t h 0 (size t) in
                        let! (x, h) := make_view d (share_of t 0) h in become x s h)
      | _ => put_str st v (assign s (from v w t 0) (size t) h)
      end
  | AssignSub v w pos n =>
      let! s := get st v in let! t := get st w in let! k := sub_len t pos n in
      put_str st v (assign s (from v w t pos) k h)
  | AssignLit v l =>
      let! s := get st v in put_str st v (assign s (SMem (map Some l) 0) (length l) h)
  | AssignChar v c =>
      let! s := get st v in put_str st v (let! (x, h) := make [Some c] h in become x s h)
  | Append v w pos n =>
      let! s := get st v in let! t := get st w in let! k := sub_len t pos n in
      put_str st v (append s (from v w t pos) k h)
  | AppendLit v l =>
      let! s := get st v in put_str st v (append s (SMem (map Some l) 0) (length l) h)
  | AppendFill v n c => let! s := get st v in put_str st v (append_fill s n c h)
  | PopBack v => let! s := get st v in put_str st v (shrink s 1 h)
  | Resize v n c => let! s := get st v in put_str st v (resize s n c h)
  | Reserve v n => let! s := get st v in put_str st v (reserve s n h)
  | ShrinkToFit v => let! s := get st v in put_str st v (shrink_to_fit s h)
  | Insert v pos w pos2 n =>
      let! s := get st v in let! t := get st w in let! k := sub_len t pos2 n in
      put_str st v (insert s pos (from v w t pos2) k h)
  | InsertLit v pos l =>
      let! s := get st v in put_str st v (insert s pos (SMem (map Some l) 0) (length l) h)
  | InsertFill v pos n c => let! s := get st v in put_str st v (insert_fill s pos n c h)
  | Erase v pos n => let! s := get st v in put_str st v (erase s pos n h)
  | Replace v pos n w pos2 n2 =>
      let! s := get st v in let! t := get st w in let! k := sub_len t pos2 n2 in
      put_str st v (replace_by s pos n k (fun x h => append x (of_other t pos2) k h) h)
  | ReplaceFill v pos n n2 c =>
      let! s := get st v in
      put_str st v (replace_by s pos n n2 (fun x h => append_fill x n2 c h) h)
  | SetAt v pos c => let! s := get st v in put_str st v (set_at s pos c h)
  | ToBox v w =>
      (* MoveTo, string_core.h:301-304 *)
      let! _ := free_slot st v in let! s := get st w in
      Ok (put (put st v (Box s) h) w (Str (reset s)) h)
  | FromBox v w =>
      let! _ := free_slot st v in let! s := get_box st w in
      Ok (put (put st v (Str (unbox s)) h) w Free h)
  | CopyBox v w =>
      (* StringHelper::CopyFrom, string_helper.cc:534-541 *)
      let! _ := free_slot st v in let! s := get_box st w in
      let! d := peek s h 0 (size s) in
      let! (x, h) := make_view d (share_of s 0) h in
      Ok (put st v (Box x) h)
  | DestroyBox v => let! s := get_box st v in let! h := destroy s h in Ok (put st v Free h)
  end.

(** A program: an exception leaves the state as it was and is noted; undefined behaviour
    ends it. *)
Fixpoint run (os : list sop) (st : store) : res (store * list (option exn)) :=
  match os with
  | [] => Ok (st, [])
  | o :: os =>
    match step o st with
    | Ok st => let! (st, l) := run os st in Ok (st, None :: l)
    | Exn e => let! (st, l) := run os st in Ok (st, Some e :: l)
    | OOB => OOB
    | OutOfFuel => OutOfFuel
    end
  end.

(** What a String shows: its characters, and what c_str() has behind them. *)
Definition chars (s : rep) (h : heap) : res (list (option Z)) := peek s h 0 (size s).
Definition terminator (s : rep) (h : heap) : res (list (option Z)) := peek s h (size s) 1.
End Core.
