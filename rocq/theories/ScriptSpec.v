(** Python: what the functions of ScriptAst mean, after the Python language reference.

    Nothing here refers to the compiler.  Integers are unbounded, a variable is local to the
    whole function, [range] is evaluated once.  Loops take fuel: [n] is the number of turns
    each loop may make before the outcome is [OFuel].

    The flag [lim] turns on a monitor: with [lim = true] an execution that leaves what the
    compiler claims to support (64-bit integers, see [C48]) has the outcome [OScope]; with
    [lim = false] nothing is monitored.  [monitor_silent] (ScriptProofs) says that the monitor
    changes nothing else. *)
From Verif Require Import Base ScriptAst.

Inductive pval : Type := VInt (z : Z) | VBool (b : bool) | VStr (s : list Z) | VNone.

(** the number an int or a bool stands for *)
Definition number (v : pval) : option Z :=
  match v with
  | VInt z => Some z
  | VBool b => Some (if b then 1 else 0)
  | _ => None
  end.
Definition truth (v : pval) : bool :=
  match v with
  | VInt z => negb (z =? 0)
  | VBool b => b
  | VStr s => negb (Nat.eqb (length s) 0)
  | VNone => false
  end.

Definition within (lim : bool) (z : Z) : res pval :=
  if lim && negb (int64b z) then UB else Ok (VInt z).

(** Python's arithmetic on ints and bools; [str + str]; the other operations on strings are
    not specified here. *)
Definition parith (lim : bool) (o : arith) (v w : pval) : res pval :=
  match v, w with
  | VStr s, VStr t => match o with PAdd => Ok (VStr (s ++ t)) | _ => UB end
  | _, _ =>
      match number v, number w with
      | Some x, Some y =>
          match o with
          | PAdd => within lim (x + y)
          | PSub => within lim (x - y)
          | PMul => within lim (x * y)
          | PFloorDiv => if y =? 0 then Exn ZeroDivisionError else within lim (x / y)
          | PMod => if y =? 0 then Exn ZeroDivisionError else within lim (x mod y)
          end
      | _, _ => UB
      end
  end.
Definition pcompare (o : cmp) (x y : Z) : bool :=
  match o with
  | PLt => x <? y | PLe => x <=? y | PGt => y <? x | PGe => y <=? x
  | PEq => x =? y | PNe => negb (x =? y)
  end.
Definition pcmp (o : cmp) (v w : pval) : res bool :=
  match number v, number w with
  | Some x, Some y => Ok (pcompare o x y)
  | _, _ => UB
  end.

(** [look x] is what reading the name x yields. *)
Fixpoint peval (lim : bool) (look : nat -> res pval) (e : pexp) : res pval :=
  match e with
  | XInt z => within lim z
  | XBool b => Ok (VBool b)
  | XStr s => Ok (VStr s)
  | XName x => look x
  | XBin o a b =>
      let! v := peval lim look a in
      let! w := peval lim look b in
      parith lim o v w
  | XNeg a =>
      let! v := peval lim look a in
      match number v with Some z => within lim (- z) | None => Exn TypeError end
  | XNot a => let! v := peval lim look a in Ok (VBool (negb (truth v)))
  | XAnd a b => let! v := peval lim look a in if truth v then peval lim look b else Ok v
  | XOr a b => let! v := peval lim look a in if truth v then Ok v else peval lim look b
  | XCmp a o b t =>
      let! v := peval lim look a in
      let! w := peval lim look b in
      let! r := pcmp o v w in
      if r then ptails lim look w t else Ok (VBool false)
  | XIf c a b => let! v := peval lim look c in if truth v then peval lim look a else peval lim look b
  end
(** the rest of a chain of comparisons, whose left operand has the value [v] *)
with ptails (lim : bool) (look : nat -> res pval) (v : pval) (t : ptail) : res pval :=
  match t with
  | TEnd => Ok (VBool true)
  | TCons o b t =>
      let! w := peval lim look b in
      let! r := pcmp o v w in
      if r then ptails lim look w t else Ok (VBool false)
  end.

(** ** Constant parts

    The compiler evaluates constant parts of an expression itself, and in doing so can lose a
    ZeroDivisionError (C42).  [calm] is a syntactic condition under which it does not.
    [free e]: no division in [e].  [firm e]: the value of [e] is not known at compile time. *)
Definition nonzero (e : pexp) : bool := match e with XInt z => negb (z =? 0) | _ => false end.
Definition not01 (e : pexp) : bool := match e with XInt z => negb (z =? 0) && negb (z =? 1) | _ => false end.

Fixpoint free (e : pexp) : bool :=
  match e with
  | XInt _ | XBool _ | XStr _ | XName _ => true
  | XBin (PFloorDiv | PMod) _ _ => false
  | XBin _ a b => free a && free b
  | XNeg a | XNot a => free a
  | XAnd a b | XOr a b => free a && free b
  | XCmp a _ b t => free a && free b && free_tail t
  | XIf c a b => free c && free a && free b
  end
with free_tail (t : ptail) : bool :=
  match t with TEnd => true | TCons _ b t => free b && free_tail t end.

Fixpoint firm (loc : nat -> bool) (e : pexp) : bool :=
  match e with
  | XInt _ | XBool _ | XStr _ => false
  | XName x => loc x
  | XBin (PAdd | PSub) a b => firm loc a || firm loc b
  | XBin PFloorDiv a _ => firm loc a
  | XBin _ a b => firm loc a && firm loc b
  | XNeg a | XNot a => firm loc a
  | XAnd a b | XOr a b => firm loc a && firm loc b
  | XCmp a _ b TEnd => firm loc a || firm loc b
  | XCmp _ _ _ _ => false
  | XIf _ a b => firm loc a && firm loc b
  end.

Fixpoint calm (loc : nat -> bool) (e : pexp) : bool :=
  match e with
  | XInt _ | XBool _ | XStr _ | XName _ => true
  | XBin o a b =>
      calm loc a && calm loc b &&
      match o with
      | PAdd | PSub => true
      | PMul => (free a || firm loc b || nonzero b) && (free b || firm loc a || nonzero a)
      | PFloorDiv => firm loc a || nonzero a
      | PMod => (firm loc a || nonzero a) && (free a || firm loc b || not01 b)
      end
  | XNeg a | XNot a => calm loc a
  | XAnd a b | XOr a b => calm loc a && calm loc b && (free a || firm loc b)
  | XCmp a _ b TEnd => calm loc a && calm loc b
  | XCmp a _ b t => free a && free b && free_tail t
  | XIf c a b => calm loc c && calm loc a && calm loc b
  end.

(** ** Statements *)

Inductive out (St V : Type) : Type :=
| ONext (s : St)
| OBreak (s : St)
| OContinue (s : St)
| OReturn (v : V) (s : St)
| ORaise (x : exn) (s : St)
| OScope                                   (* outside what is claimed, or undefined *)
| OFuel.
Arguments ONext {St V} s.
Arguments OBreak {St V} s.
Arguments OContinue {St V} s.
Arguments OReturn {St V} v s.
Arguments ORaise {St V} x s.
Arguments OScope {St V}.
Arguments OFuel {St V}.

(** use the value of an expression, or pass on its exception *)
Definition withv {A St V} (s : St) (r : res A) (k : A -> out St V) : out St V :=
  match r with
  | Ok v => k v
  | Exn x => ORaise x s
  | UB => OScope
  | OutOfFuel => OFuel
  end.

Definition exn_eqb (x y : exn) : bool :=
  match x, y with
  | IndexError, IndexError | ValueError, ValueError | ZeroDivisionError, ZeroDivisionError
  | TypeError, TypeError | KeyError, KeyError | RuntimeError, RuntimeError => true
  | UserError a, UserError b => a =? b
  | _, _ => false
  end.
(** [except:], [except Exception:], [except RuntimeError:] (which catches
    NotImplementedError too), [except X:] *)
Definition catches (h : option exn) (x : exn) : bool :=
  match h with
  | None => true
  | Some c => exn_eqb c PyException || exn_eqb c x ||
              (exn_eqb c RuntimeError && exn_eqb x NotImplemented)
  end.

(** the values of range(a, b, s), s not 0 *)
Definition range_len (a b s : Z) : Z :=
  if 0 <? s then Z.max 0 ((b - a + s - 1) / s) else Z.max 0 ((a - b - s - 1) / (- s)).
Definition range_vals (a b s : Z) : list Z :=
  map (fun i => a + Z.of_nat i * s) (seq 0 (Z.to_nat (range_len a b s))).

(** names assigned in a block *)
Fixpoint assigned_s (s : pstmt) : list nat :=
  match s with
  | SAssign _ x _ | SAug _ x _ _ => [x]
  | SIf _ a b => assigned a ++ assigned b
  | SWhile _ a b => assigned a ++ assigned b
  | SFor x _ a b => x :: assigned a ++ assigned b
  | STry a _ b c d => assigned a ++ assigned b ++ assigned c ++ assigned d
  | _ => []
  end
with assigned (b : pblock) : list nat :=
  match b with BNil => [] | BCons s b => assigned_s s ++ assigned b end.

Definition memb (x : nat) (l : list nat) : bool := existsb (Nat.eqb x) l.
(** A name is local to a function when it is a parameter or assigned anywhere in it. *)
Definition local (f : pfun) (x : nat) : bool := memb x (map fst (params f) ++ assigned (body f)).

Definition env : Type := nat -> option pval.
Definition upd (E : env) (x : nat) (v : pval) : env := fun y => if Nat.eqb y x then Some v else E y.

(** The loops, [k] turns at most: [body] and [els] are what the body and the else part do. *)
Fixpoint pwhile (test : env -> res pval) (body els : env -> out env pval) (k : nat) (E : env)
  : out env pval :=
  withv E (test E) (fun v =>
    if truth v then
      match k with
      | O => OFuel
      | S k =>
          match body E with
          | ONext E' | OContinue E' => pwhile test body els k E'
          | OBreak E' => ONext E'
          | o => o
          end
      end
    else els E).
Fixpoint pfor (x : nat) (body els : env -> out env pval) (k : nat) (vals : list Z) (E : env)
  : out env pval :=
  match vals with
  | [] => els E
  | v :: vals =>
      match k with
      | O => OFuel
      | S k =>
          match body (upd E x (VInt v)) with
          | ONext E' | OContinue E' => pfor x body els k vals E'
          | OBreak E' => ONext E'
          | o => o
          end
      end
  end.
(** A [finally] clause runs after the outcome [r]; its own outcome wins unless it ends. *)
Definition pfinally (fin : option exn -> env -> out env pval) (cur : option exn) (r : out env pval)
  : out env pval :=
  match r with
  | ONext E' => fin cur E'
  | OBreak E' => match fin cur E' with ONext E' => OBreak E' | o => o end
  | OContinue E' => match fin cur E' with ONext E' => OContinue E' | o => o end
  | OReturn v E' => match fin cur E' with ONext E' => OReturn v E' | o => o end
  | ORaise x E' => match fin (Some x) E' with ONext E' => ORaise x E' | o => o end
  | o => o
  end.

Section Exec.
Variables (lim : bool) (n : nat) (glob : nat -> option pval) (loc : nat -> bool).

Definition look (E : env) (x : nat) : res pval :=
  match (if loc x then E x else glob x) with
  | Some v => Ok v
  | None => Exn NameError
  end.
(** the value of an expression that stands alone in a statement *)
Definition pvalue (E : env) (e : pexp) : res pval :=
  match peval lim (look E) e with
  | Exn x => if lim && negb (calm loc e) then UB else Exn x
  | r => r
  end.
Definition pint_of (v : pval) : res Z :=
  match number v with Some z => Ok z | None => Exn TypeError end.
Definition prange_args (E : env) (r : prange) : res (Z * Z * Z) :=
  let int e := let! v := pvalue E e in pint_of v in
  match r with
  | RStop b => let! y := int b in Ok (0, y, 1)
  | RStart a b => let! x := int a in let! y := int b in Ok (x, y, 1)
  | RStep a b c => let! x := int a in let! y := int b in let! z := int c in Ok (x, y, z)
  end.
(** range(a, b, s) *)
Definition prange_vals (r : Z * Z * Z) : res (list Z) :=
  let '(a, b, s) := r in
  if s =? 0 then if lim then UB else Exn ValueError
  else if lim && negb (int64b (a + range_len a b s * s)) then UB
  else Ok (range_vals a b s).

(** [cur] is the exception being handled, which a bare [raise] raises again. *)
Fixpoint pexec_s (cur : option exn) (s : pstmt) (E : env) {struct s} : out env pval :=
  match s with
  | SPass => ONext E
  | SAssign _ x e => withv E (pvalue E e) (fun v => ONext (upd E x v))
  | SAug _ x o e => withv E (pvalue E (XBin o (XName x) e)) (fun v => ONext (upd E x v))
  | SIf c a b => withv E (pvalue E c) (fun v => if truth v then pexec cur a E else pexec cur b E)
  | SWhile c b els =>
      pwhile (fun E => pvalue E c) (pexec cur b) (pexec cur els) n E
  | SFor x r b els =>
      withv E (let! args := prange_args E r in prange_vals args) (fun vals =>
        pfor x (pexec cur b) (pexec cur els) n vals E)
  | SBreak => OBreak E
  | SContinue => OContinue E
  | SReturn e => withv E (pvalue E e) (fun v => OReturn v E)
  | SRaise (Some x) => ORaise x E
  | SRaise None => ORaise (match cur with Some x => x | None => RuntimeError end) E
  | STry b h hd els fin =>
      let r := match pexec cur b E with
               | ORaise x E' => if catches h x then pexec (Some x) hd E' else ORaise x E'
               | ONext E' => pexec cur els E'
               | o => o
               end in
      match fin with
      | BNil => r
      | _ => pfinally (fun cur => pexec cur fin) cur r
      end
  end
with pexec (cur : option exn) (b : pblock) (E : env) {struct b} : out env pval :=
  match b with
  | BNil => ONext E
  | BCons s b =>
      match pexec_s cur s E with
      | ONext E' => pexec cur b E'
      | o => o
      end
  end.
End Exec.

(** Calling the function.  [glob] gives the module-level constants; a function that falls off
    its end returns None. *)
Fixpoint bind_args (ps : list (nat * pty)) (args : list pval) : env :=
  match ps, args with
  | p :: ps, v :: args => upd (bind_args ps args) (fst p) v
  | _, _ => fun _ => None
  end.
Definition py_run (lim : bool) (n : nat) (glob : nat -> option pval) (f : pfun) (args : list pval)
  : res pval :=
  match pexec lim n glob (local f) None (body f) (bind_args (params f) args) with
  | OReturn v _ => Ok v
  | ONext _ => Ok VNone
  | ORaise x _ => Exn x
  | OFuel => OutOfFuel
  | _ => UB
  end.

(** An argument fits its annotation. *)
Definition fits (t : pty) (v : pval) : Prop :=
  match t, v with
  | TI, VInt z => int64 z
  | TB, VBool _ => True
  | TS, VStr _ => True
  | _, _ => False
  end.

(** ** Conditions on functions *)

(** No [else] on a loop, no [else], [finally] or exception class on a [try]. *)
Definition isnil (b : pblock) : bool := match b with BNil => true | _ => false end.
Fixpoint no_extras_s (s : pstmt) : bool :=
  match s with
  | SIf _ a b => no_extras a && no_extras b
  | SWhile _ a e => no_extras a && isnil e
  | SFor _ _ a e => no_extras a && isnil e
  | STry a h b e f => no_extras a && no_extras b && isnil e && isnil f &&
                      match h with None => true | Some _ => false end
  | _ => true
  end
with no_extras (b : pblock) : bool :=
  match b with BNil => true | BCons s b => no_extras_s s && no_extras b end.

(** The names in an expression. *)
Fixpoint names (e : pexp) : list nat :=
  match e with
  | XInt _ | XBool _ | XStr _ => []
  | XName x => [x]
  | XBin _ a b | XAnd a b | XOr a b => names a ++ names b
  | XNeg a | XNot a => names a
  | XCmp a _ b t => names a ++ names b ++ names_tail t
  | XIf c a b => names c ++ names a ++ names b
  end
with names_tail (t : ptail) : list nat :=
  match t with TEnd => [] | TCons _ b t => names b ++ names_tail t end.

(** The stop and the step of a [range] keep their value during the loop: they are sums or the
    like that no compiler can take for a single variable (n - 1, n * m), or the loop assigns to
    none of their names. *)
Definition compound (loc : nat -> bool) (e : pexp) : bool :=
  match e with
  | XBin (PAdd | PSub) a (XInt z) => firm loc a && negb (z =? 0)
  | XBin _ a b => firm loc a && firm loc b
  | _ => false
  end.
Definition steady (loc : nat -> bool) (e : pexp) (l : list nat) : bool :=
  compound loc e || forallb (fun x => negb (memb x l)) (names e).
Definition steady_range (loc : nat -> bool) (r : prange) (l : list nat) : bool :=
  match r with
  | RStop y => steady loc y l
  | RStart _ y => steady loc y l
  | RStep _ y z => steady loc y l && steady loc z l
  end.
Fixpoint steady_bounds_s (loc : nat -> bool) (s : pstmt) : bool :=
  match s with
  | SIf _ a b => steady_bounds loc a && steady_bounds loc b
  | SWhile _ a e => steady_bounds loc a && steady_bounds loc e
  | SFor x r a e => steady_range loc r (x :: assigned a) && steady_bounds loc a && steady_bounds loc e
  | STry a _ b e f => steady_bounds loc a && steady_bounds loc b && steady_bounds loc e && steady_bounds loc f
  | _ => true
  end
with steady_bounds (loc : nat -> bool) (b : pblock) : bool :=
  match b with BNil => true | BCons s b => steady_bounds_s loc s && steady_bounds loc b end.
