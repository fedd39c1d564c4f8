(** The programs of the iteration model: loops over lists and iterators, with
    bodies that change lists, make iterators and use them up.  Shared by the
    model of the compiled code and by the specification.

    Lists are objects of the run, named by numbers (two names of one list are
    the same number); list iterators are objects made by [iter] and [reversed]
    and bound to variables.  Values are of two kinds, told apart by where the
    run-time keeps them. *)
From Coq Require Import List ZArith.

(** A value of a list.  [Num]: a value kept inside the slot itself (a number,
    a bool, None, a string short enough to be stored in place).  [Str]: a
    string whose characters are in storage of their own, owned by the slot
    (include/matxscript/runtime/container/string_core.h:232-290, categories
    Medium and Large); the text is represented by a number, ordered as the
    texts are. *)
Inductive val := Num (z : Z) | Str (z : Z).

Inductive expr :=
| EVar (x : nat)      (* a loop variable *)
| EVal (v : val).     (* a literal *)

(** What a loop goes over. *)
Inductive src :=
| FromList (l : nat)  (* a list of declared type List *)
| FromAny (l : nat)   (* a list held by an untyped variable *)
| FromIter (i : nat). (* the iterator bound to variable i *)

Inductive stmt :=
| SSkip
| SSeq (s1 s2 : stmt)
| SEmit (e : expr)                          (* observe the value of e *)
| SAppend (l : nat) (e : expr)              (* l.append(e) *)
| SPop (l : nat)                            (* l.pop() *)
| SSet (l : nat) (k e : expr)               (* l[k] = e *)
| SIter (i l : nat)                         (* i = iter(l) *)
| SRev (i l : nat)                          (* i = reversed(l) *)
| SExtend (l i : nat)                       (* l.extend(i), i an iterator *)
| SMin (i : nat)                            (* observe min(i), i an iterator *)
| SMax (i : nat)                            (* observe max(i) *)
| SIf (x : nat) (v : val) (s1 s2 : stmt)    (* if x == v: s1 else: s2 *)
| SBreak
| SContinue
(** [for x in a: body] is [SFor None [(x, a)] body]; [for x, y in zip(a, b)]
    has two sources; [for k, x in enumerate(a, s)] is [SFor (Some (k, s))
    [(x, a)] body]. *)
| SFor (en : option (nat * Z)) (cs : list (nat * src)) (body : stmt).

(** How a statement ended. *)
Inductive ctl := Nrm | Brk | Cnt.

Definition upd {A} (f : nat -> A) (k : nat) (v : A) : nat -> A :=
  fun x => if Nat.eqb x k then v else f x.

Fixpoint lset {A} (xs : list A) (k : nat) (v : A) : list A :=
  match xs, k with
  | nil, _ => nil
  | _ :: r, O => v :: r
  | x :: r, S k' => x :: lset r k' v
  end.

(** Order and equality of values of one kind; None for values that cannot be
    compared. *)
Definition vlt (a b : val) : option bool :=
  match a, b with
  | Num x, Num y => Some (Z.ltb x y)
  | Str x, Str y => Some (Z.ltb x y)
  | _, _ => None
  end.

Definition veqb (a b : val) : bool :=
  match a, b with
  | Num x, Num y => Z.eqb x y
  | Str x, Str y => Z.eqb x y
  | _, _ => false
  end.
