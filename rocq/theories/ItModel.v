(** Loops and iterators as compiled: the C++ text of a [for] statement
    (src/codegen/codegen_c.cc:1441-1875, AutoFor), the list iterator object
    (src/runtime/container/list_ref.cc:44-83) and the run-time functions that
    use an iterator up, over a memory of vectors.

    Not modelled: loops over dicts, sets, strings, arrays and user generators;
    loops in generator functions (yield mode); unpacking of an element into
    several loop variables; assignment to a loop variable (the parser then
    gives it a copy of its own, python/matx/script/parser.py:1036-1050). *)
From Coq Require Import List ZArith Bool PeanoNat.
From Verif Require Import Base ItAst.
Import ListNotations.
Local Open Scope nat_scope.

(** ** Memory *)

(** A slot of a vector, and what a view of a slot holds: RTView copies the
    RTValue structure (include/matxscript/runtime/runtime_value.h:862), so a
    value kept in place is copied and a string is a pointer to the slot's
    storage, here the number of a cell. *)
Inductive cval := CNum (z : Z) | CBox (c : nat).

(** std::vector<RTValue>: the buffer (a new number for each allocation, as no
    test can rely on an address coming back), its capacity and the items. *)
Record clist := mkCl { cbuf : nat; ccap : nat; citems : list cval }.

(** ListIteratorNode (list_ref.cc:45-83): the list, and the pair first_, last_
    taken when it was made.  A std::reverse_iterator holds the position one
    past its element. *)
Record citer := mkCi { ci_l : nat; ci_buf : nat; ci_first : nat; ci_last : nat; ci_rev : bool }.

(** [ccells]: the string storage, None once freed.  [cvars]: the iterator
    variables, bound to objects.  [cout]: what the program has shown. *)
Record cst := mkC {
  clists : nat -> clist; cnbuf : nat;
  ccells : nat -> option Z; cncell : nat;
  cvars : nat -> option nat; cobjs : nat -> citer; cnobj : nat;
  cout : list val }.

Inductive cres := CDone (c : ctl) (s : cst) | CRaise (s : cst) | CUB | CFuel.

(** ** Iterators *)

(** list_ref.cc:54-56 HasNext: first_ != last_ *)
Definition ci_more (i : citer) : bool := negb (ci_first i =? ci_last i).

(** [*first_]: reading through a pointer into a buffer the vector has left, or
    outside of the items, is undefined (None). *)
Definition ci_read (s : cst) (i : citer) : option cval :=
  let l := clists s (ci_l i) in
  if ci_buf i =? cbuf l then
    if ci_rev i then
      match ci_first i with O => None | S k => nth_error (citems l) k end
    else nth_error (citems l) (ci_first i)
  else None.

(** [++first_] *)
Definition ci_step (i : citer) : citer :=
  mkCi (ci_l i) (ci_buf i) (if ci_rev i then pred (ci_first i) else S (ci_first i))
    (ci_last i) (ci_rev i).

(** List::iter, builtins_iter, builtins_reversed (list_ref.cc:557-560,662-672) *)
Definition ci_make (s : cst) (l : nat) (rev : bool) : citer :=
  let n := length (citems (clists s l)) in
  if rev then mkCi l (cbuf (clists s l)) n 0 true
  else mkCi l (cbuf (clists s l)) 0 n false.

Definition set_obj (s : cst) (o : nat) (i : citer) : cst :=
  mkC (clists s) (cnbuf s) (ccells s) (cncell s) (cvars s) (upd (cobjs s) o i) (cnobj s) (cout s).

Definition new_obj (s : cst) (v : nat) (i : citer) : cst :=
  mkC (clists s) (cnbuf s) (ccells s) (cncell s) (upd (cvars s) v (Some (cnobj s)))
    (upd (cobjs s) (cnobj s) i) (S (cnobj s)) (cout s).

Definition emit (s : cst) (v : val) : cst :=
  mkC (clists s) (cnbuf s) (ccells s) (cncell s) (cvars s) (cobjs s) (cnobj s) (cout s ++ [v]).

(** ** Values *)

(** The value behind a slot or a view; a freed string is undefined (None). *)
Definition cload (s : cst) (c : cval) : option val :=
  match c with
  | CNum z => Some (Num z)
  | CBox k => match ccells s k with Some t => Some (Str t) | None => None end
  end.

(** A new RTValue of a value: a string gets storage of its own. *)
Definition calloc (s : cst) (v : val) : cval * cst :=
  match v with
  | Num z => (CNum z, s)
  | Str t => (CBox (cncell s),
              mkC (clists s) (cnbuf s) (upd (ccells s) (cncell s) (Some t)) (S (cncell s))
                (cvars s) (cobjs s) (cnobj s) (cout s))
  end.

(** ~RTValue (string_core::Destroy, string_core.h:244-256) *)
Definition cfree (s : cst) (c : cval) : cst :=
  match c with
  | CNum _ => s
  | CBox k => mkC (clists s) (cnbuf s) (upd (ccells s) k None) (cncell s)
                (cvars s) (cobjs s) (cnobj s) (cout s)
  end.

Definition set_list (s : cst) (l : nat) (v : clist) (nb : nat) : cst :=
  mkC (upd (clists s) l v) nb (ccells s) (cncell s) (cvars s) (cobjs s) (cnobj s) (cout s).

(** List::append, emplace_back (list_ref.cc:246-254): at capacity the vector
    moves its items to a buffer of twice the size. *)
Definition cappend (s : cst) (l : nat) (v : val) : cst :=
  let '(c, s1) := calloc s v in
  let q := clists s1 l in
  if length (citems q) <? ccap q then
    set_list s1 l (mkCl (cbuf q) (ccap q) (citems q ++ [c])) (cnbuf s1)
  else
    set_list s1 l (mkCl (cnbuf s1) (Nat.max 1 (2 * ccap q)) (citems q ++ [c])) (S (cnbuf s1)).

(** ListNode::pop of the last item (include/matxscript/runtime/container/
    list_private.h:204-218), its value dropped. *)
Definition cpop (s : cst) (l : nat) : option cst :=
  let q := clists s l in
  match citems q with
  | [] => None
  | _ =>
      let n := pred (length (citems q)) in
      match nth_error (citems q) n with
      | None => None
      | Some c => Some (cfree (set_list s l (mkCl (cbuf q) (ccap q) (firstn n (citems q))) (cnbuf s)) c)
      end
  end.

(** List::set_item (list_ref.cc:270-278); None when the index is refused *)
Definition cset (s : cst) (l : nat) (k : Z) (v : val) : option cst :=
  let n := Z.of_nat (length (citems (clists s l))) in
  let k1 := if (k <? 0)%Z then (k + n)%Z else k in
  if ((0 <=? k1) && (k1 <? n))%Z then
    let '(c, s1) := calloc s v in
    let q := clists s1 l in
    match nth_error (citems q) (Z.to_nat k1) with
    | None => None
    | Some old =>
        Some (cfree (set_list s1 l (mkCl (cbuf q) (ccap q) (lset (citems q) (Z.to_nat k1) c)) (cnbuf s1)) old)
    end
  else None.

(** ** Expressions: loop variables are views of the items
    (python/matx/script/parser.py:160-172,1029-1033) *)

Definition cenv := list (nat * cval).

Fixpoint clook (env : cenv) (x : nat) : option cval :=
  match env with
  | [] => None
  | (y, c) :: r => if x =? y then Some c else clook r x
  end.

Inductive got A := Got (a : A) | NoName | Dangling.
Arguments Got {A} a.
Arguments NoName {A}.
Arguments Dangling {A}.

Definition ceval (s : cst) (env : cenv) (e : expr) : got val :=
  match e with
  | EVal v => Got v
  | EVar x => match clook env x with
              | None => NoName
              | Some c => match cload s c with Some v => Got v | None => Dangling end
              end
  end.

(** ** The loop *)

(** What step 2 of the emitted code makes of a source
    (codegen_c.cc:1624-1652): for a typed list the pair begin(), end(); for an
    untyped one Kernel_Iterable::make (src/runtime/generic/
    generic_constructor_funcs.cc:51-58) and HasNext(); an iterator is used
    itself. *)
Inductive ccur :=
| CuPtr (i : citer)
| CuLoc (i : citer) (more : bool)
| CuObj (o : nat) (more : bool).

Definition cstart (s : cst) (a : src) : option ccur :=
  match a with
  | FromList l => Some (CuPtr (ci_make s l false))
  | FromAny l => let i := ci_make s l false in Some (CuLoc i (ci_more i))
  | FromIter v => match cvars s v with
                  | Some o => Some (CuObj o (ci_more (cobjs s o)))
                  | None => None
                  end
  end.

Fixpoint cstarts (s : cst) (cs : list (nat * src)) : option (list (nat * ccur)) :=
  match cs with
  | [] => Some []
  | (x, a) :: r =>
      match cstart s a, cstarts s r with
      | Some c, Some r' => Some ((x, c) :: r')
      | _, _ => None
      end
  end.

(** Step 3, the condition of the while (codegen_c.cc:1654-1674) *)
Definition cmore (c : ccur) : bool :=
  match c with
  | CuPtr i => ci_more i
  | CuLoc _ more => more
  | CuObj _ more => more
  end.

(** Step 4 (codegen_c.cc:1697-1772): [*it; ++it] or [NextView(&has_next)]
    (list_ref.cc:65-69) *)
Definition cnext (s : cst) (c : ccur) : option (cval * ccur * cst) :=
  match c with
  | CuPtr i =>
      match ci_read s i with
      | Some v => Some (v, CuPtr (ci_step i), s)
      | None => None
      end
  | CuLoc i _ =>
      match ci_read s i with
      | Some v => Some (v, CuLoc (ci_step i) (ci_more (ci_step i)), s)
      | None => None
      end
  | CuObj o _ =>
      match ci_read s (cobjs s o) with
      | Some v => let i := ci_step (cobjs s o) in
                  Some (v, CuObj o (ci_more i), set_obj s o i)
      | None => None
      end
  end.

(** One turn's loop variables, in the order of the sources *)
Fixpoint cturn (s : cst) (env : cenv) (cs : list (nat * ccur))
  : option (cenv * list (nat * ccur) * cst) :=
  match cs with
  | [] => Some (env, [], s)
  | (x, c) :: r =>
      match cnext s c with
      | None => None
      | Some (v, c', s1) =>
          match cturn s1 ((x, v) :: env) r with
          | None => None
          | Some (env', r', s2) => Some (env', (x, c') :: r', s2)
          end
      end
  end.

(** The position of enumerate (codegen_c.cc:1685-1696): read, then [++] on an
    int64_t, undefined on overflow. *)
Definition cpos (env : cenv) (en : option (nat * Z)) : option (cenv * option (nat * Z)) :=
  match en with
  | None => Some (env, None)
  | Some (k, p) =>
      if (p + 1 <? two63)%Z then Some ((k, CNum p) :: env, Some (k, (p + 1)%Z)) else None
  end.

(** List::extend(const Iterator&) (list_ref.cc:370-376) *)
Fixpoint cextend (fuel : nat) (l o : nat) (more : bool) (s : cst) : cres :=
  if more then
    match fuel with
    | O => CFuel
    | S f =>
        match ci_read s (cobjs s o) with
        | None => CUB
        | Some c =>
            match cload s c with
            | None => CUB
            | Some v =>
                let i := ci_step (cobjs s o) in
                cextend f l o (ci_more i) (cappend (set_obj s o i) l v)
            end
        end
    end
  else CDone Nrm s.

(** The loop of container_min and container_max (src/runtime/generic/
    generic_funcs.cc:625-630,638-643); [big] tells which.  Values that cannot
    be compared raise. *)
Fixpoint cbest (fuel : nat) (big : bool) (o : nat) (m : val) (s : cst) : cres :=
  if ci_more (cobjs s o) then
    match fuel with
    | O => CFuel
    | S f =>
        match ci_read s (cobjs s o) with
        | None => CUB
        | Some c =>
            match cload s c with
            | None => CUB
            | Some v =>
                let s1 := set_obj s o (ci_step (cobjs s o)) in
                match (if big then vlt m v else vlt v m) with
                | None => CRaise s1
                | Some b => cbest f big o (if b then v else m) s1
                end
            end
        end
    end
  else CDone Nrm (emit s m).

(** container_min, container_max: the test before the first Next is
    [iter_node || iter_node->HasNext()] (generic_funcs.cc:623,636), true of
    every iterator there is. *)
Definition cminmax (fuel : nat) (big : bool) (o : nat) (s : cst) : cres :=
  if true || ci_more (cobjs s o) then
    match ci_read s (cobjs s o) with
    | None => CUB
    | Some c =>
        match cload s c with
        | None => CUB
        | Some v => cbest fuel big o v (set_obj s o (ci_step (cobjs s o)))
        end
    end
  else CRaise s.

Fixpoint cexec (fuel : nat) (env : cenv) (p : stmt) (s : cst) {struct fuel} : cres :=
  match fuel with
  | O => CFuel
  | S f =>
      match p with
      | SSkip => CDone Nrm s
      | SSeq a b =>
          match cexec f env a s with
          | CDone Nrm s1 => cexec f env b s1
          | r => r
          end
      | SEmit e =>
          match ceval s env e with
          | Got v => CDone Nrm (emit s v)
          | NoName => CRaise s
          | Dangling => CUB
          end
      | SAppend l e =>
          match ceval s env e with
          | Got v => CDone Nrm (cappend s l v)
          | NoName => CRaise s
          | Dangling => CUB
          end
      | SPop l => match cpop s l with Some s1 => CDone Nrm s1 | None => CRaise s end
      | SSet l k e =>
          match ceval s env k with
          | Got (Num z) =>
              match ceval s env e with
              | Got v => match cset s l z v with Some s1 => CDone Nrm s1 | None => CRaise s end
              | NoName => CRaise s
              | Dangling => CUB
              end
          | Got (Str _) => CRaise s
          | NoName => CRaise s
          | Dangling => CUB
          end
      | SIter v l => CDone Nrm (new_obj s v (ci_make s l false))
      | SRev v l => CDone Nrm (new_obj s v (ci_make s l true))
      | SExtend l v =>
          match cvars s v with
          | None => CRaise s
          | Some o => cextend f l o (ci_more (cobjs s o)) s
          end
      | SMin v => match cvars s v with None => CRaise s | Some o => cminmax f false o s end
      | SMax v => match cvars s v with None => CRaise s | Some o => cminmax f true o s end
      | SIf x v a b =>
          match ceval s env (EVar x) with
          | Got w => if veqb w v then cexec f env a s else cexec f env b s
          | NoName => CRaise s
          | Dangling => CUB
          end
      | SBreak => CDone Brk s
      | SContinue => CDone Cnt s
      | SFor en cs body =>
          match cstarts s cs with
          | None => CRaise s
          | Some cu => cloop f env en cu body s
          end
      end
  end
with cloop (fuel : nat) (env : cenv) (en : option (nat * Z)) (cu : list (nat * ccur))
  (body : stmt) (s : cst) {struct fuel} : cres :=
  match fuel with
  | O => CFuel
  | S f =>
      if forallb (fun c => cmore (snd c)) cu then
        match cpos env en with
        | None => CUB
        | Some (env1, en1) =>
            match cturn s env1 cu with
            | None => CUB
            | Some (env2, cu1, s1) =>
                match cexec f env2 body s1 with
                | CDone Brk s2 => CDone Nrm s2
                | CDone _ s2 => cloop f env en1 cu1 body s2
                | r => r
                end
            end
        end
      else CDone Nrm s
  end.

(** The start of a run: every list empty (no buffer), no iterators; a program
    fills its lists itself. *)
Definition cinit : cst :=
  mkC (fun _ => mkCl 0 0 []) 1 (fun _ => None) 0
    (fun _ => None) (fun _ => mkCi 0 0 0 0 false) 0 [].

(** What can be seen of a list *)
Definition clist_vals (s : cst) (l : nat) : list (option val) :=
  map (cload s) (citems (clists s l)).
