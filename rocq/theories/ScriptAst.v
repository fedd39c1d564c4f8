(** The part of Python that the model of the script compiler covers: functions over int, bool
    and str.  Only syntax here; names and strings are numbers and lists of code points.

    Simplifications: [a and b and c] is written left-nested; calls, containers, floats and
    classes are left out; a [try] has exactly one handler. *)
From Verif Require Import Base.

Inductive arith : Type := PAdd | PSub | PMul | PFloorDiv | PMod.
Inductive cmp : Type := PLt | PLe | PGt | PGe | PEq | PNe.

(** expressions; [XCmp a o b t] is the chain [a o b ...], [t] the rest of the chain *)
Inductive pexp : Type :=
| XInt (z : Z)
| XBool (b : bool)
| XStr (s : list Z)
| XName (x : nat)
| XBin (o : arith) (a b : pexp)
| XNeg (a : pexp)
| XNot (a : pexp)
| XAnd (a b : pexp)
| XOr (a b : pexp)
| XCmp (a : pexp) (o : cmp) (b : pexp) (t : ptail)
| XIf (c a b : pexp)                       (* a if c else b *)
with ptail : Type :=
| TEnd
| TCons (o : cmp) (b : pexp) (t : ptail).

(** the argument list of [range] *)
Inductive prange : Type :=
| RStop (b : pexp)
| RStart (a b : pexp)
| RStep (a b c : pexp).

(** statements; the number of an assignment identifies its target (a node of the syntax
    tree); [try: body except h: handler else: els finally: fin] *)
Inductive pstmt : Type :=
| SPass
| SAssign (n x : nat) (e : pexp)
| SAug (n x : nat) (o : arith) (e : pexp)  (* x o= e *)
| SIf (c : pexp) (a b : pblock)
| SWhile (c : pexp) (body els : pblock)
| SFor (x : nat) (r : prange) (body els : pblock)
| SBreak
| SContinue
| SReturn (e : pexp)
| SRaise (x : option exn)
| STry (body : pblock) (h : option exn) (handler els fin : pblock)
with pblock : Type :=
| BNil
| BCons (s : pstmt) (b : pblock).

(** annotations *)
Inductive pty : Type := TI | TB | TS.

Record pfun : Type := { params : list (nat * pty); ret : pty; body : pblock }.

(** Exceptions without a name of their own in [exn]: Exception, NotImplementedError, and
    NameError (of which UnboundLocalError is a kind). *)
Definition PyException : exn := UserError 0.
Definition NotImplemented : exn := UserError 1.
Definition NameError : exn := UserError 2.

Scheme pexp_mind := Induction for pexp Sort Prop
  with ptail_mind := Induction for ptail Sort Prop.
Combined Scheme pexp_ind2 from pexp_mind, ptail_mind.
Scheme pstmt_mind := Induction for pstmt Sort Prop
  with pblock_mind := Induction for pblock Sort Prop.
Combined Scheme pstmt_ind2 from pstmt_mind, pblock_mind.
