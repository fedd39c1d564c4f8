(** Comparison as the Python language reference defines it (Value comparisons).  From the model
    only the syntax of values is used. *)
From Coq Require Import Floats.SpecFloat.
From Verif Require Import Base KeyModel VcModel.
Local Open Scope Z_scope.

(** Numbers are compared by their mathematical value, whatever their types. *)
Inductive num : Type := NaN | Inf (negative : bool) | Fin (m e : Z).  (* m * 2^e *)
Definition number (v : val) : option num :=
  match v with
  | VInt n => Some (Fin n 0)
  | VFloat S754_nan => Some NaN
  | VFloat (S754_infinity s) => Some (Inf s)
  | VFloat (S754_zero _) => Some (Fin 0 0)
  | VFloat (S754_finite s m e) => Some (Fin (if s then Zneg m else Zpos m) e)
  | _ => None
  end.
Definition num_cmp (a b : num) : option comparison :=
  match a, b with
  | NaN, _ | _, NaN => None
  | Inf s, Inf t => Some (if Bool.eqb s t then Eq else if s then Lt else Gt)
  | Inf s, _ => Some (if s then Lt else Gt)
  | _, Inf t => Some (if t then Gt else Lt)
  | Fin m e, Fin n f => let d := Z.min e f in Some (m * 2 ^ (e - d) ?= n * 2 ^ (f - d))
  end.

(** Strings and bytes: lexicographically *)
Fixpoint lex (s t : list Z) : comparison :=
  match s, t with
  | [], [] => Eq
  | [], _ => Lt
  | _, [] => Gt
  | a :: s, b :: t => match a ?= b with Eq => lex s t | c => c end
  end.

(** == *)
Fixpoint py_eq (a b : val) {struct a} : bool :=
  let items := fix items (l r : list val) : bool :=
    match l, r with
    | [], [] => true
    | x :: l, y :: r => py_eq x y && items l r
    | _, _ => false
    end in
  match a, b with
  | VNone, VNone => true
  | VBytes s, VBytes t | VStr s, VStr t => match lex s t with Eq => true | _ => false end
  | VList l, VList r | VTuple l, VTuple r => items l r
  | _, _ =>
    match number a, number b with
    | Some x, Some y => match num_cmp x y with Some Eq => true | _ => false end
    | _, _ => false
    end
  end.

(** The four orderings; None: TypeError.  Sequences: by the first items that are not equal, or by
    length *)
Inductive op : Type := Gt_ | Ge_ | Lt_ | Le_.
Definition holds (o : op) (c : comparison) : bool :=
  match o, c with
  | Gt_, Gt | Ge_, Gt | Ge_, Eq | Lt_, Lt | Le_, Lt | Le_, Eq => true
  | _, _ => false
  end.
Fixpoint py_cmp (o : op) (a b : val) {struct a} : option bool :=
  let items := fix items (l r : list val) : option bool :=
    match l, r with
    | [], [] => Some (holds o Eq)
    | [], _ => Some (holds o Lt)
    | _, [] => Some (holds o Gt)
    | x :: l, y :: r => if py_eq x y then items l r else py_cmp o x y
    end in
  match a, b with
  | VBytes s, VBytes t | VStr s, VStr t => Some (holds o (lex s t))
  | VList l, VList r | VTuple l, VTuple r => items l r
  | _, _ =>
    match number a, number b with
    | Some x, Some y => Some (match num_cmp x y with Some c => holds o c | None => false end)
    | _, _ => None
    end
  end.
(** The same answer, or the same exception *)
Definition answers (r : res bool) (p : option bool) : Prop :=
  r = match p with Some b => Ok b | None => Exn TypeError end.

(** ** Which values *)
(** no None, no NaN and no tuple in it; its floats are doubles *)
Fixpoint tame (v : val) : bool :=
  match v with
  | VNone | VTuple _ | VFloat S754_nan => false
  | VFloat x => valid_binary 53 1024 x
  | VList l => forallb tame l
  | _ => true
  end.
Fixpoint floatless (v : val) : bool :=
  match v with
  | VFloat _ => false
  | VList l | VTuple l => forallb floatless l
  | _ => true
  end.
(** the ints in it are exact as doubles *)
Fixpoint small_ints (v : val) : bool :=
  match v with
  | VInt n => Z.abs n <=? 2 ^ 53
  | VList l | VTuple l => forallb small_ints l
  | _ => true
  end.
Definition exact_with (a b : val) : bool := floatless a && floatless b || small_ints a && small_ints b.
(** is it a float *)
Definition is_float (v : val) : bool := match v with VFloat _ => true | _ => false end.
(** not a float itself; tame, or a tuple of tame items *)
Definition plain (v : val) : bool :=
  match v with
  | VFloat _ => false
  | VTuple l => forallb tame l
  | _ => tame v
  end.
(** its floats are finite doubles *)
Fixpoint finite_floats (v : val) : bool :=
  match v with
  | VFloat (S754_zero _) => true
  | VFloat (S754_finite s m e) => valid_binary 53 1024 (S754_finite s m e)
  | VFloat _ => false
  | VList l | VTuple l => forallb finite_floats l
  | _ => true
  end.
(** a number that is not a NaN or infinite *)
Definition finite_number (v : val) : bool :=
  match v with VInt _ => true | VFloat _ => finite_floats v | _ => false end.

(** Any two items can be compared, and exactly *)
Definition comparable (l : list val) : Prop :=
  forall x y, In x l -> In y l -> exact_with x y = true /\ py_cmp Lt_ x y <> None.
(** The first greatest, or the first least, item *)
Definition first_best (o : op) (l : list val) (x : val) : Prop :=
  exists p q, l = p ++ x :: q /\ (forall y, In y p -> py_cmp o x y = Some true) /\ (forall y, In y q -> py_cmp o y x = Some false).
(** No item is less than one before it *)
Definition ascending (l : list val) : Prop :=
  forall p x q y r, l = p ++ x :: q ++ y :: r -> py_cmp Lt_ y x = Some false.
