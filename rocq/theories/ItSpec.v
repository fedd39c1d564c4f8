(** Loops and iterators as Python has them.

    A list iterator is a list and an index, and looks at the list each time it
    is asked for the next item: it ends when the index is not inside the list,
    and then stays ended.  zip asks its iterators in order and stops at the
    first that has ended; enumerate counts.

    [strict] adds the caller's side of the contract: with [strict = true] a run
    that does one of the six things below is [PDisturbed] instead of going on.
    With [strict = false] this is Python and nothing else.

    - D1: an iterator is asked for an item after its list changed in length
      since the iterator was made;
    - D2: a loop over an iterator object finds it emptied, by the loop body or
      by another source of the same zip, when it still had items at the loop's
      last look at it;
    - D3: a zip stops after it already took an item, in the same turn, from an
      iterator object of the program;
    - D4: a loop variable holding a string is read after the list slot it came
      from was assigned to or removed;
    - D5: the count of an enumerate reaches 2^63 - 1;
    - D6: min or max of an iterator that has nothing left. *)
From Coq Require Import List ZArith Bool PeanoNat.
From Verif Require Import Base ItAst.
Import ListNotations.
Local Open Scope nat_scope.

(** An iterator: ended, or at index [pos] of list [l]; reversed ones hold the
    index plus one.  [ver] is used by D1 only. *)
Inductive piter := PDead | PFwd (l pos ver : nat) | PRev (l pos ver : nat).

(** [pver l]: how many times the length of list l has changed (for D1).
    [pset l k]: how many times slot k of list l was assigned to or removed
    (for D4). *)
Record pst := mkP {
  plists : nat -> list val;
  pver : nat -> nat; pset : nat -> nat -> nat;
  pvars : nat -> option nat; pobjs : nat -> piter; pnobj : nat;
  pout : list val }.

Inductive pres := PDone (c : ctl) (s : pst) | PRaise (s : pst) | PDisturbed | PFuel.

(** The index an iterator reads next, if the list has it. *)
Definition pi_at (s : pst) (i : piter) : option (nat * nat) :=
  match i with
  | PDead => None
  | PFwd l k _ => if k <? length (plists s l) then Some (l, k) else None
  | PRev l O _ => None
  | PRev l (S k) _ => if k <? length (plists s l) then Some (l, k) else None
  end.

Definition pi_step (i : piter) : piter :=
  match i with
  | PDead => PDead
  | PFwd l k v => PFwd l (S k) v
  | PRev l k v => PRev l (pred k) v
  end.

Definition pi_more (s : pst) (i : piter) : bool :=
  match pi_at s i with Some _ => true | None => false end.

(** D1: the list has changed in length since the iterator was made *)
Definition pi_stale (s : pst) (i : piter) : bool :=
  match i with
  | PDead => false
  | PFwd l _ v => negb (v =? pver s l)
  | PRev l _ v => negb (v =? pver s l)
  end.

Definition p_obj (s : pst) (o : nat) (i : piter) : pst :=
  mkP (plists s) (pver s) (pset s) (pvars s) (upd (pobjs s) o i) (pnobj s) (pout s).

Definition p_new (s : pst) (v : nat) (i : piter) : pst :=
  mkP (plists s) (pver s) (pset s) (upd (pvars s) v (Some (pnobj s)))
    (upd (pobjs s) (pnobj s) i) (S (pnobj s)) (pout s).

Definition p_emit (s : pst) (v : val) : pst :=
  mkP (plists s) (pver s) (pset s) (pvars s) (pobjs s) (pnobj s) (pout s ++ [v]).

Definition bump (f : nat -> nat) (k : nat) : nat -> nat := upd f k (S (f k)).

Definition p_append (s : pst) (l : nat) (v : val) : pst :=
  mkP (upd (plists s) l (plists s l ++ [v])) (bump (pver s) l) (pset s)
    (pvars s) (pobjs s) (pnobj s) (pout s).

Definition p_pop (s : pst) (l : nat) : option pst :=
  match plists s l with
  | [] => None
  | xs =>
      let n := pred (length xs) in
      Some (mkP (upd (plists s) l (firstn n xs)) (bump (pver s) l)
              (upd (pset s) l (bump (pset s l) n)) (pvars s) (pobjs s) (pnobj s) (pout s))
  end.

Definition p_set (s : pst) (l : nat) (k : Z) (v : val) : option pst :=
  let n := Z.of_nat (length (plists s l)) in
  let k1 := if (k <? 0)%Z then (k + n)%Z else k in
  if ((0 <=? k1) && (k1 <? n))%Z then
    Some (mkP (upd (plists s) l (lset (plists s l) (Z.to_nat k1) v)) (pver s)
            (upd (pset s) l (bump (pset s l) (Z.to_nat k1))) (pvars s) (pobjs s) (pnobj s) (pout s))
  else None.

(** Loop variables: the value, and for D4 the slot it was read from with the
    slot's count at that time. *)
Record pvar := mkV { pv_val : val; pv_from : option (nat * nat * nat) }.
Definition penv := list (nat * pvar).

Fixpoint plook (env : penv) (x : nat) : option pvar :=
  match env with
  | [] => None
  | (y, v) :: r => if x =? y then Some v else plook r x
  end.

Inductive asked A := Has (a : A) | Unbound | Unsafe.
Arguments Has {A} a.
Arguments Unbound {A}.
Arguments Unsafe {A}.

(** D4 *)
Definition pv_gone (s : pst) (v : pvar) : bool :=
  match pv_val v, pv_from v with
  | Str _, Some (l, k, n) => negb (n =? pset s l k)
  | _, _ => false
  end.

Definition p_eval (strict : bool) (s : pst) (env : penv) (e : expr) : asked val :=
  match e with
  | EVal v => Has v
  | EVar x => match plook env x with
              | None => Unbound
              | Some v => if strict && pv_gone s v then Unsafe else Has (pv_val v)
              end
  end.

(** A source of a loop: an iterator of its own, or an object of the program
    together with (for D2) whether it had items at the last look. *)
Inductive pcur := PcOwn (i : piter) | PcObj (o : nat) (had : bool).

Definition p_start (s : pst) (a : src) : option pcur :=
  match a with
  | FromList l | FromAny l => Some (PcOwn (PFwd l 0 (pver s l)))
  | FromIter v => match pvars s v with
                  | Some o => Some (PcObj o (pi_more s (pobjs s o)))
                  | None => None
                  end
  end.

Fixpoint p_starts (s : pst) (cs : list (nat * src)) : option (list (nat * pcur)) :=
  match cs with
  | [] => Some []
  | (x, a) :: r =>
      match p_start s a, p_starts s r with
      | Some c, Some r' => Some ((x, c) :: r')
      | _, _ => None
      end
  end.

(** Ask a source for its next item. *)
Inductive answer := Item (v : pvar) (c : pcur) (s : pst) | Ended (c : pcur) (s : pst) | Bad.

Definition p_item (s : pst) (l k : nat) : pvar :=
  mkV (nth k (plists s l) (Num 0)) (Some (l, k, pset s l k)).

Definition p_next (strict : bool) (s : pst) (c : pcur) : answer :=
  match c with
  | PcOwn i =>
      if strict && pi_stale s i then Bad else
      match pi_at s i with
      | Some (l, k) => Item (p_item s l k) (PcOwn (pi_step i)) s
      | None => Ended (PcOwn PDead) s
      end
  | PcObj o had =>
      let i := pobjs s o in
      if strict && pi_stale s i then Bad else
      match pi_at s i with
      | Some (l, k) =>
          let s1 := p_obj s o (pi_step i) in
          Item (p_item s l k) (PcObj o (pi_more s1 (pi_step i))) s1
      | None => if strict && had then Bad else Ended (PcObj o false) (p_obj s o PDead)
      end
  end.

(** One turn of the loop: the sources in order.  [took]: an item was already
    taken from an object of the program in this turn (for D3). *)
Inductive turn := Turn (env : penv) (cs : list (nat * pcur)) (s : pst) | Stop (s : pst) | BadTurn.

Fixpoint p_turn (strict took : bool) (s : pst) (env : penv) (cs : list (nat * pcur)) : turn :=
  match cs with
  | [] => Turn env [] s
  | (x, c) :: r =>
      match p_next strict s c with
      | Bad => BadTurn
      | Ended _ s1 => if strict && took then BadTurn else Stop s1
      | Item v c' s1 =>
          let took' := match c with PcObj _ _ => true | PcOwn _ => took end in
          match p_turn strict took' s1 ((x, v) :: env) r with
          | Turn env' r' s2 => Turn env' ((x, c') :: r') s2
          | t => t
          end
      end
  end.

(** enumerate's count, taken once the turn's items are there.  The count is
    bound first only so that an inner name wins over it in both meanings. *)
Definition p_pos (strict : bool) (env : penv) (en : option (nat * Z))
  : option (penv * option (nat * Z)) :=
  match en with
  | None => Some (env, None)
  | Some (k, p) =>
      if strict && negb (p + 1 <? two63)%Z then None
      else Some ((k, mkV (Num p) None) :: env, Some (k, (p + 1)%Z))
  end.

(** l.extend(iterator): append each item as it comes. *)
Fixpoint p_extend (strict : bool) (fuel l o : nat) (s : pst) : pres :=
  match p_next strict s (PcObj o false) with
  | Bad => PDisturbed
  | Ended _ s1 => PDone Nrm s1
  | Item v _ s1 =>
      match fuel with
      | O => PFuel
      | S f => p_extend strict f l o (p_append s1 l (pv_val v))
      end
  end.

(** min and max: the first smallest, the first largest. *)
Fixpoint p_best (strict : bool) (fuel : nat) (big : bool) (o : nat) (m : val) (s : pst) : pres :=
  match p_next strict s (PcObj o false) with
  | Bad => PDisturbed
  | Ended _ s1 => PDone Nrm (p_emit s1 m)
  | Item v _ s1 =>
      match fuel with
      | O => PFuel
      | S f =>
          match (if big then vlt m (pv_val v) else vlt (pv_val v) m) with
          | None => PRaise s1
          | Some b => p_best strict f big o (if b then pv_val v else m) s1
          end
      end
  end.

Definition p_minmax (strict : bool) (fuel : nat) (big : bool) (o : nat) (s : pst) : pres :=
  match p_next strict s (PcObj o false) with
  | Bad => PDisturbed
  | Ended _ s1 => if strict then PDisturbed else PRaise s1      (* D6 *)
  | Item v _ s1 => p_best strict fuel big o (pv_val v) s1
  end.

Fixpoint p_exec (strict : bool) (fuel : nat) (env : penv) (p : stmt) (s : pst) {struct fuel} : pres :=
  match fuel with
  | O => PFuel
  | S f =>
      match p with
      | SSkip => PDone Nrm s
      | SSeq a b =>
          match p_exec strict f env a s with
          | PDone Nrm s1 => p_exec strict f env b s1
          | r => r
          end
      | SEmit e =>
          match p_eval strict s env e with
          | Has v => PDone Nrm (p_emit s v)
          | Unbound => PRaise s
          | Unsafe => PDisturbed
          end
      | SAppend l e =>
          match p_eval strict s env e with
          | Has v => PDone Nrm (p_append s l v)
          | Unbound => PRaise s
          | Unsafe => PDisturbed
          end
      | SPop l => match p_pop s l with Some s1 => PDone Nrm s1 | None => PRaise s end
      | SSet l k e =>
          match p_eval strict s env k with
          | Has (Num z) =>
              match p_eval strict s env e with
              | Has v => match p_set s l z v with Some s1 => PDone Nrm s1 | None => PRaise s end
              | Unbound => PRaise s
              | Unsafe => PDisturbed
              end
          | Has (Str _) => PRaise s
          | Unbound => PRaise s
          | Unsafe => PDisturbed
          end
      | SIter v l => PDone Nrm (p_new s v (PFwd l 0 (pver s l)))
      | SRev v l => PDone Nrm (p_new s v (PRev l (length (plists s l)) (pver s l)))
      | SExtend l v => match pvars s v with None => PRaise s | Some o => p_extend strict f l o s end
      | SMin v => match pvars s v with None => PRaise s | Some o => p_minmax strict f false o s end
      | SMax v => match pvars s v with None => PRaise s | Some o => p_minmax strict f true o s end
      | SIf x v a b =>
          match p_eval strict s env (EVar x) with
          | Has w => if veqb w v then p_exec strict f env a s else p_exec strict f env b s
          | Unbound => PRaise s
          | Unsafe => PDisturbed
          end
      | SBreak => PDone Brk s
      | SContinue => PDone Cnt s
      | SFor en cs body =>
          match p_starts s cs with
          | None => PRaise s
          | Some cu => p_loop strict f env en cu body s
          end
      end
  end
with p_loop (strict : bool) (fuel : nat) (env : penv) (en : option (nat * Z))
  (cu : list (nat * pcur)) (body : stmt) (s : pst) {struct fuel} : pres :=
  match fuel with
  | O => PFuel
  | S f =>
      match p_pos strict env en with
      | None => match p_turn strict false s env cu with Stop s1 => PDone Nrm s1 | _ => PDisturbed end
      | Some (env1, en1) =>
          match p_turn strict false s env1 cu with
          | BadTurn => PDisturbed
          | Stop s1 => PDone Nrm s1
          | Turn env2 cu1 s1 =>
              match p_exec strict f env2 body s1 with
              | PDone Brk s2 => PDone Nrm s2
              | PDone _ s2 => p_loop strict f env en1 cu1 body s2
              | r => r
              end
          end
      end
  end.

Definition pinit : pst :=
  mkP (fun _ => []) (fun _ => 0) (fun _ _ => 0) (fun _ => None) (fun _ => PDead) 0 [].

(** Programs without iterator objects in which no loop body appends to, pops
    from or assigns to a list that an enclosing loop goes over (the lists [W]);
    counts of enumerate start at [M] at most. *)
Definition src_list (a : src) : option nat :=
  match a with FromList l | FromAny l => Some l | FromIter _ => None end.

Fixpoint calm (M : Z) (W : list nat) (p : stmt) : Prop :=
  match p with
  | SSkip | SEmit _ | SBreak | SContinue => True
  | SSeq a b | SIf _ _ a b => calm M W a /\ calm M W b
  | SAppend l _ | SPop l | SSet l _ _ => ~ In l W
  | SIter _ _ | SRev _ _ | SExtend _ _ | SMin _ | SMax _ => False
  | SFor en cs body =>
      match en with Some (_, n) => (n <= M)%Z | None => True end /\
      Forall (fun xa => exists l, src_list (snd xa) = Some l) cs /\
      calm M (flat_map (fun xa => match src_list (snd xa) with Some l => [l] | None => [] end) cs ++ W) body
  end.

(** Programs used in the statements. *)
Fixpoint fill (l : nat) (vs : list val) : stmt :=
  match vs with
  | [] => SSkip
  | v :: r => SSeq (SAppend l (EVal v)) (fill l r)
  end.

Definition show2 (x y : nat) : stmt := SSeq (SEmit (EVar x)) (SEmit (EVar y)).

(** The counted items: (n, v0), (n+1, v1), ... *)
Fixpoint counted (n : Z) (vs : list val) : list (val * val) :=
  match vs with
  | [] => []
  | v :: r => (Num n, v) :: counted (n + 1) r
  end.

Definition both (ab : val * val) : list val := [fst ab; snd ab].

(** The first of the smallest (or, with [big], largest) numbers. *)
Definition least (big : bool) (z : Z) (zs : list Z) : Z :=
  fold_left (fun m x => if big then Z.max m x else Z.min m x) zs z.
