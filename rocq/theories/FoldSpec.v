(** What folding must preserve.

    [plain s] is the expression the source text denotes with nothing folded: every operator
    stays, and an operand of another type is converted at run time.  [eval env (plain s)] is
    what that expression computes.  Folding is right when the expression the compiler builds
    computes the same value. *)
From Coq Require Import Floats.SpecFloat.
From Verif Require Import Base KeyModel FoldModel.

Definition is_cmp (o : binop) : bool :=
  match o with GT | GE | LT | LE | EQ | NE => true | _ => false end.
Definition is_logic (o : binop) : bool := match o with And | Or => true | _ => false end.
Definition is_bit (o : binop) : bool :=
  match o with Shl | Shr | BAnd | BOr | BXor => true | _ => false end.

(** The type in which two operands meet: a float wins over an integer, the wider integer over
    the narrower one, and a signed with an unsigned one meet in the signed type of the larger
    width. *)
Definition join (t u : dtype) : dtype :=
  match t, u with
  | DF64, _ | _, DF64 => DF64
  | DInt a, DInt b => DInt (Z.max a b)
  | DUInt a, DUInt b => DUInt (Z.max a b)
  | DInt a, DUInt b | DUInt a, DInt b => DInt (Z.max a b)
  end.

(** conversion at run time *)
Definition to (t : dtype) (e : expr) : expr := if dtype_eqb (dt e) t then e else ECast t e.

Fixpoint plain (s : src) : expr :=
  match s with
  | SInt d v => EInt d v
  | SFlt x => EFlt x
  | SLeaf d n => ELeaf d n
  | SBin o a b =>
      let p := plain a in
      let q := plain b in
      let t := join (dt p) (dt q) in
      if is_logic o then EBin o p q
      else match o with
           | Div => EBin Div (to DF64 (to t p)) (to DF64 (to t q))
           | _ => EBin o (to t p) (to t q)
           end
  | SNot a => ENot (plain a)
  | SSel c a b =>
      let p := plain a in
      let q := plain b in
      let t := join (dt p) (dt q) in
      ESel (plain c) (to t p) (to t q)
  end.

(** A finite IEEE double. *)
Definition finite_double (x : double) : Prop :=
  match x with
  | S754_zero _ => True
  | S754_finite _ m e => bounded 53 1024 m e = true
  | _ => False
  end.

(** Equal doubles: the same, or both zero. *)
Definition feq (x y : double) : Prop :=
  x = y \/ (exists s s', x = S754_zero s /\ y = S754_zero s').
(** Equal values: the same number. *)
Definition same_value (v w : cval) : Prop :=
  match v, w with
  | VI _ x, VI _ y => x = y
  | VF x, VF y => feq x y
  | _, _ => False
  end.

(** The value of a leaf has the type the leaf is declared with. *)
Definition has_type (d : dtype) (v : cval) : Prop :=
  match d, v with
  | DF64, VF x => finite_double x
  | DF64, VI _ _ => False
  | _, VI t z => t = ctype d /\ conv t z = z
  | _, VF _ => False
  end.

(** The types considered: bool, int32, int64 and float64. *)
Definition std_type (d : dtype) : Prop := d = DBool \/ d = DInt 32 \/ d = DInt 64 \/ d = DF64.

(** The source expressions considered: constants lie in the range of their type (the least
    int32 has no literal of type int); [and], [or] and [not] work on bools, as the front end
    arranges; arithmetic is not done in type bool; a left shift is done on int64. *)
Fixpoint supported (s : src) : Prop :=
  match s with
  | SInt d v => std_type d /\ d <> DF64 /\ conv (ctype d) v = v /\ (d = DInt 32 -> v <> - 2 ^ 31)
  | SFlt x => finite_double x
  | SLeaf d _ => std_type d
  | SBin o a b =>
      supported a /\ supported b /\
      let t := join (dt (plain a)) (dt (plain b)) in
      if is_logic o then dt (plain a) = DBool /\ dt (plain b) = DBool
      else if is_cmp o then True
      else match o with
           | Shl => t = DInt 64
           | Mod => t <> DBool /\ t <> DF64
           | _ => t <> DBool
           end
  | SNot a => supported a /\ dt (plain a) = DBool
  | SSel c a b => supported c /\ supported a /\ supported b /\ dt (plain c) = DBool
  end.

(** Every leaf that evaluates has a value of its type, and every float that the unfolded
    expression computes on the way is finite. *)
Fixpoint good_env (env : nat -> res cval) (s : src) : Prop :=
  match s with
  | SInt _ _ | SFlt _ => True
  | SLeaf d n => forall v, env n = Ok v -> has_type d v
  | SBin _ a b => good_env env a /\ good_env env b /\
                  forall x, eval env (plain s) = Ok (VF x) -> finite_double x
  | SNot a => good_env env a
  | SSel c a b => good_env env c /\ good_env env a /\ good_env env b
  end.

(** Every part of the expression evaluates. *)
Fixpoint all_evaluate (env : nat -> res cval) (s : src) : Prop :=
  (exists v, eval env (plain s) = Ok v) /\
  match s with
  | SInt _ _ | SFlt _ | SLeaf _ _ => True
  | SBin _ a b => all_evaluate env a /\ all_evaluate env b
  | SNot a => all_evaluate env a
  | SSel c a b => all_evaluate env c /\ all_evaluate env a /\ all_evaluate env b
  end.
(** The condition of a conditional expression is not itself an [and], an [or] or a conditional
    expression. *)
Definition simple_condition (c : src) : Prop :=
  match c with
  | SBin o _ _ => is_logic o = false
  | SSel _ _ _ => False
  | _ => True
  end.
Fixpoint simple_conditions (s : src) : Prop :=
  match s with
  | SBin _ a b => simple_conditions a /\ simple_conditions b
  | SNot a => simple_conditions a
  | SSel c a b => simple_condition c /\ simple_conditions c /\ simple_conditions a /\ simple_conditions b
  | _ => True
  end.
