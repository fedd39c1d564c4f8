(** Liveness, independently of how it is computed.

    On a graph: a variable is needed at the end of a block when some path from there reaches a
    read of it before any write.  On a program: the value of a variable does not matter at the
    end of a block when anything can be stored in it there without changing what the function
    does. *)
From Verif Require Import Base ScriptAst ScriptSpec LiveModel.

(** ** Graphs *)

(** the first access to [x] in a list of statements is a read; a statement reads before it
    writes *)
Inductive reads_first (x : nat) : list item -> Prop :=
| reads_now it l : In x (loads it) -> reads_first x (it :: l)
| reads_later it l : ~ In x (stores it) -> reads_first x l -> reads_first x (it :: l).
Definition untouched (x : nat) (l : list item) : Prop := forall it, In it l -> ~ In x (stores it).

Definition edge (g : graph) (i j : nat) : Prop := exists b, nth_error g i = Some b /\ In j (next b).
Inductive needed (g : graph) (x : nat) : nat -> Prop :=
| needed_now i j b : edge g i j -> nth_error g j = Some b -> reads_first x (items b) -> needed g x i
| needed_later i j b : edge g i j -> nth_error g j = Some b -> untouched x (items b) ->
    needed g x j -> needed g x i.

(** ** Programs *)

Fixpoint bapp (a b : pblock) : pblock := match a with BNil => b | BCons s a => BCons s (bapp a b) end.
(** statements without statements inside that do not jump *)
Definition plain_s (s : pstmt) : bool :=
  match s with SPass | SAssign _ _ _ | SAug _ _ _ _ | SRaise _ => true | _ => false end.
Fixpoint plain (b : pblock) : bool := match b with BNil => true | BCons s b => plain_s s && plain b end.
(** the statement is the assignment number [n], to [x] *)
Definition sets (n x : nat) (s : pstmt) : bool :=
  match s with SAssign m y _ | SAug m y _ _ => Nat.eqb m n && Nat.eqb y x | _ => false end.

(** The program with [x = v] added at the end of the block in which the assignment number [n]
    to [x] stands, if the rest of that block is plain. *)
Section Overwrite.
Variables (n x : nat) (v : pexp).
Fixpoint overwrite_s (s : pstmt) : pstmt :=
  match s with
  | SIf c a b => SIf c (overwrite a) (overwrite b)
  | SWhile c a b => SWhile c (overwrite a) (overwrite b)
  | SFor y r a b => SFor y r (overwrite a) (overwrite b)
  | STry a h b c d => STry (overwrite a) h (overwrite b) (overwrite c) (overwrite d)
  | s => s
  end
with overwrite (b : pblock) : pblock :=
  match b with
  | BNil => BNil
  | BCons s b =>
      if sets n x s && plain b then BCons s (bapp b (BCons (SAssign n x v) BNil))
      else BCons (overwrite_s s) (overwrite b)
  end.
End Overwrite.
Definition overwritten (n x : nat) (v : pexp) (f : pfun) : pfun :=
  {| params := params f; ret := ret f; body := overwrite n x v (body f) |}.

(** literals *)
Definition literal (e : pexp) : bool := match e with XInt _ | XBool _ | XStr _ => true | _ => false end.

(** the numbers of the assignments in a program *)
Fixpoint numbers_s (s : pstmt) : list nat :=
  match s with
  | SAssign n _ _ | SAug n _ _ _ => [n]
  | SIf _ a b | SWhile _ a b | SFor _ _ a b => numbers a ++ numbers b
  | STry a _ b c d => numbers a ++ numbers b ++ numbers c ++ numbers d
  | _ => []
  end
with numbers (b : pblock) : list nat :=
  match b with BNil => [] | BCons s b => numbers_s s ++ numbers b end.

(** No [try], no [else] on a loop; bodies are not empty, as Python's grammar demands; [x] is not
    the variable of a [for]. *)
Fixpoint tame_s (x : nat) (s : pstmt) : bool :=
  match s with
  | SIf _ a b => negb (isnil a) && tame x a && tame x b
  | SWhile _ a e => negb (isnil a) && tame x a && isnil e
  | SFor y _ a e => negb (Nat.eqb y x) && negb (isnil a) && tame x a && isnil e
  | STry _ _ _ _ _ => false
  | _ => true
  end
with tame (x : nat) (b : pblock) : bool :=
  match b with BNil => true | BCons s b => tame_s x s && tame x b end.
