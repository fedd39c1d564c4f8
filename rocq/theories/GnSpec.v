(** * Generator functions: the source language and what Python does with it

    A generator function of matx script is a Python function whose body contains [yield].
    Calling it gives an object; a loop over the object receives the yielded values in order.
    This file fixes the statements that are modelled and Python's meaning for them.  It does
    not mention the C++ that is generated. *)

From Coq Require Import ZArith List Bool Lia.
From Verif Require Import Base.
Import ListNotations.
Local Open Scope Z_scope.

(** Values of the variables of the function (names are numbers, values are ints). *)
Definition vars := nat -> Z.

Definition upd (s : vars) (x : nat) (v : Z) : vars :=
  fun y => if Nat.eqb x y then v else s y.

(** An expression: any function of the variables that has a value or raises.  (How the
    compiler translates expressions is C48's subject.) *)
Definition expr := vars -> Z + exn.

(** An argument of range: a literal, the name of a variable, or another expression. *)
Inductive bound :=
| BConst (z : Z)
| BVar (x : nat)
| BExpr (e : expr).

(** Statements.  [SDecl] is the first assignment of a name in its scope, [SAssign] a later
    one: Python does the same for both.  [SFor x lo hi st b] is
    [for x in range(lo, hi, st): b] with a literal step. *)
Inductive stmt :=
| SSkip
| SDecl (x : nat) (e : expr)
| SAssign (x : nat) (e : expr)
| SYield (e : expr)
| SSeq (a b : stmt)
| SIf (c : expr) (a b : stmt)
| SWhile (c : expr) (b : stmt)
| SFor (x : nat) (lo hi : bound) (st : Z) (b : stmt)
| SReturn (e : expr)
| SBreak
| SContinue.

(** ** Python *)

(** How a piece of the body ends. *)
Inductive pyend :=
| PNormal (s : vars)
| PBreak (s : vars)
| PContinue (s : vars)
| PReturn
| PRaise (e : exn)
| PMore.                (* not ended within the given number of steps *)

(** Python's range(lo, hi, st) for st <> 0. *)
Definition range_len (lo hi st : Z) : Z :=
  if 0 <? st then (hi - lo + st - 1) / st else (lo - hi - st - 1) / (- st).

Definition range_items (lo hi st : Z) : list Z :=
  map (fun i => lo + Z.of_nat i * st) (seq 0 (Z.to_nat (range_len lo hi st))).

Definition py_bound (b : bound) (s : vars) : Z + exn :=
  match b with
  | BConst z => inl z
  | BVar x => inl (s x)
  | BExpr e => e s
  end.

(** A for loop: the items are fixed when the loop starts; the yielded values of the turns
    follow each other. *)
Fixpoint py_each (body : vars -> list Z * pyend) (x : nat) (l : list Z) (s : vars)
  : list Z * pyend :=
  match l with
  | [] => ([], PNormal s)
  | v :: l' =>
      match body (upd s x v) with
      | (i, PNormal s') | (i, PContinue s') =>
          let r := py_each body x l' s' in (i ++ fst r, snd r)
      | (i, PBreak s') => (i, PNormal s')
      | (i, o) => (i, o)
      end
  end.

(** The values a body yields, in order, and how it ends.  [fuel] bounds the depth of the
    evaluation; when it is too small the values are the first ones and the end is [PMore]. *)
Fixpoint py_run (fuel : nat) (p : stmt) (s : vars) : list Z * pyend :=
  match fuel with
  | O => ([], PMore)
  | S f =>
      match p with
      | SSkip => ([], PNormal s)
      | SDecl x e | SAssign x e =>
          match e s with
          | inl v => ([], PNormal (upd s x v))
          | inr r => ([], PRaise r)
          end
      | SYield e =>
          match e s with
          | inl v => ([v], PNormal s)
          | inr r => ([], PRaise r)
          end
      | SSeq a b =>
          match py_run f a s with
          | (i, PNormal s') => let r := py_run f b s' in (i ++ fst r, snd r)
          | (i, o) => (i, o)
          end
      | SIf c a b =>
          match c s with
          | inl v => if v =? 0 then py_run f b s else py_run f a s
          | inr r => ([], PRaise r)
          end
      | SWhile c b =>
          match c s with
          | inl v =>
              if v =? 0 then ([], PNormal s)
              else
                match py_run f b s with
                | (i, PNormal s') | (i, PContinue s') =>
                    let r := py_run f (SWhile c b) s' in (i ++ fst r, snd r)
                | (i, PBreak s') => (i, PNormal s')
                | (i, o) => (i, o)
                end
          | inr r => ([], PRaise r)
          end
      | SFor x lo hi st b =>
          match py_bound lo s with
          | inl l =>
              match py_bound hi s with
              | inl h =>
                  if st =? 0 then ([], PRaise ValueError)
                  else py_each (py_run f b) x (range_items l h st) s
              | inr r => ([], PRaise r)
              end
          | inr r => ([], PRaise r)
          end
      | SReturn e =>
          match e s with
          | inl _ => ([], PReturn)
          | inr r => ([], PRaise r)
          end
      | SBreak => ([], PBreak s)
      | SContinue => ([], PContinue s)
      end
  end.

(** The variables of a call: the parameters hold the arguments. *)
Fixpoint call_vars (params : list nat) (args : list Z) (s : vars) : vars :=
  match params, args with
  | x :: ps, v :: vs => call_vars ps vs (upd s x v)
  | _, _ => s
  end.

(** ** Which generators the positive theorems are about *)

(** Names a statement assigns. *)
Fixpoint sets (p : stmt) (x : nat) : bool :=
  match p with
  | SDecl y _ | SAssign y _ => Nat.eqb x y
  | SSeq a b | SIf _ a b => sets a x || sets b x
  | SWhile _ b => sets b x
  | SFor y _ _ _ b => Nat.eqb x y || sets b x
  | _ => false
  end.

(** No [return]; steps of range are not 0; the variable given as the end of a range is not
    changed by the loop. *)
Fixpoint plain (p : stmt) : bool :=
  match p with
  | SReturn _ => false
  | SSeq a b | SIf _ a b => plain a && plain b
  | SWhile _ b => plain b
  | SFor y _ hi st b =>
      plain b && negb (st =? 0) &&
      match hi with
      | BVar x => negb (Nat.eqb x y) && negb (sets b x)
      | _ => true
      end
  | _ => true
  end.

(** Generators the compiler is meant to take in any case: no range loop inside a range loop,
    no name first assigned inside a range loop, break and continue only in loops. *)
Fixpoint codable (infor inloop : bool) (p : stmt) : bool :=
  match p with
  | SDecl _ _ => negb infor
  | SSeq a b | SIf _ a b => codable infor inloop a && codable infor inloop b
  | SWhile _ b => codable infor true b
  | SFor _ _ _ _ b => negb infor && codable true true b
  | SBreak | SContinue => inloop
  | _ => true
  end.

(** A range loop inside a range loop. *)
Fixpoint nested_for (infor : bool) (p : stmt) : bool :=
  match p with
  | SSeq a b | SIf _ a b => nested_for infor a || nested_for infor b
  | SWhile _ b => nested_for infor b
  | SFor _ _ _ _ b => infor || nested_for true b
  | _ => false
  end.

(** A statement with a yield in it. *)
Fixpoint yields (p : stmt) : bool :=
  match p with
  | SYield _ => true
  | SSeq a b | SIf _ a b => yields a || yields b
  | SWhile _ b | SFor _ _ _ _ b => yields b
  | _ => false
  end.
