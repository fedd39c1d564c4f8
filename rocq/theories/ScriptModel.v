(** The script compiler: from the syntax tree of a Python function to C++.
    python/matx/script/parser.py, context/scope_context.py, analysis/syntax_check.py,
    transforms/if_bool.py, python/matx/ir/generic.py; src/codegen/codegen_c.cc and
    codegen_c_host.cc for what the generated text does.  No proofs here.

    Simplifications.  What the fragment of ScriptAst does not cover is rejected here with
    [Unmodelled] (the compiler would go on with its untyped operators): operators on strings
    other than +, comparisons of strings, [and]/[or]/[not] on operands that are not bools,
    arithmetic on two bools (wrong, C42), variables of the type int32 (which [True and False]
    gets).  A C++ variable is a number; distinct declarations get distinct numbers (the code
    appends a random number to a second name and relies on C++ scopes for the others). *)
From Verif Require Import Base IntModel KeyModel FoldModel ScriptAst.
From Verif Require ScriptSpec.

Definition Unmodelled : exn := UserError 99.

(** ** Generated code *)

(** values: of a primitive type, or a Unicode string *)
Inductive cv : Type := CVP (v : cval) | CVS (s : list Z).
(** string expressions: UnicodeImm, HLOVar, HLOAdd *)
Inductive sexp : Type := SeLit (s : list Z) | SeVar (n : nat) | SeCat (a b : sexp).
Inductive cexp : Type := CP (e : expr) | CStr (s : sexp).

Inductive cstmt : Type :=
| CDecl (v : nat) (t : pty) (e : cexp)               (* AllocaVarStmt *)
| CAssign (v : nat) (t : pty) (e : cexp)             (* AssignStmt to a variable of type t *)
| CIf (c : expr) (a b : cblock)
| CWhile (c : expr) (b : cblock)
| CFor (t i : nat) (lo hi st : expr) (b : cblock)
| CBreak
| CContinue
| CReturn (t : pty) (e : cexp)
| CReturnNone
| CThrow (x : option exn)
| CTry (b h : cblock)
| CSeq (b : cblock)                                  (* SeqStmt *)
with cblock : Type :=
| CNil
| CCons (s : cstmt) (b : cblock).

Definition dtype_of (t : pty) : dtype := match t with TB => DBool | _ => DInt 64 end.

Definition store : Type := nat -> option cv.
Definition supd (s : store) (x : nat) (v : cv) : store := fun y => if Nat.eqb y x then Some v else s y.
(** reading a variable that has not been initialised is undefined *)
Definition cleaf (s : store) (x : nat) : res cval :=
  match s x with Some (CVP v) => Ok v | _ => UB end.
Fixpoint ceval_s (s : store) (e : sexp) : res (list Z) :=
  match e with
  | SeLit l => Ok l
  | SeVar x => match s x with Some (CVS l) => Ok l | _ => UB end
  | SeCat a b => let! x := ceval_s s a in let! y := ceval_s s b in Ok (x ++ y)
  end.
Definition ceval (s : store) (e : cexp) : res cv :=
  match e with
  | CP e => rmap CVP (eval (cleaf s) e)
  | CStr e => rmap CVS (ceval_s s e)
  end.
(** initialisation and assignment convert to the type of the variable *)
Definition cconvert (t : pty) (v : cv) : res cv :=
  match t, v with
  | TS, CVS l => Ok (CVS l)
  | TS, CVP _ => UB
  | _, CVP v => rmap CVP (cast_val (dtype_of t) v)
  | _, CVS _ => UB
  end.
Definition cstore (s : store) (t : pty) (e : cexp) : res cv :=
  let! v := ceval s e in cconvert t v.

Notation cout := (ScriptSpec.out store cv).
Local Notation ONext := (@ScriptSpec.ONext store cv).
Local Notation OBreak := (@ScriptSpec.OBreak store cv).
Local Notation OContinue := (@ScriptSpec.OContinue store cv).
Local Notation OReturn := (@ScriptSpec.OReturn store cv).
Local Notation ORaise := (@ScriptSpec.ORaise store cv).
Local Notation OScope := (@ScriptSpec.OScope store cv).
Local Notation OFuel := (@ScriptSpec.OFuel store cv).
Definition withc {A} (s : store) (r : res A) (k : A -> cout) : cout :=
  match r with
  | Ok v => k v
  | Exn x => ORaise x s
  | UB => OScope
  | OutOfFuel => OFuel
  end.

(** CodeGenC::VisitStmt_(ForNode), codegen_c.cc:1392-1439: the condition of the loop.  A step
    that is a constant decides the direction at compile time; otherwise the text is
    [step > 0 ? (t < max) : t > max]. *)
Definition for_cond (s : store) (t : nat) (hi st : expr) : res bool :=
  let test o := let! x := cleaf s t in let! h := eval (cleaf s) hi in
                let! r := bin_op o x h in Ok (truthy r) in
  match pint st with
  | Some v => test (if 0 <=? v then LT else GT)
  | None => let! d := eval (cleaf s) st in
            let! p := bin_op GT d (VI (CI true 32) 0) in
            if truthy p then test LT else test GT
  end.
(** [t += step] on an int64_t *)
Definition for_next (s : store) (t : nat) (st : expr) : res cv :=
  let! x := cleaf s t in
  let! d := eval (cleaf s) st in
  let! y := bin_op Add x d in
  rmap CVP (cast_val (DInt 64) y).

(** codegen_c.cc:1883-1900 and 1392-1439: a while loop and a for loop, [k] turns at most *)
Fixpoint cwhile (test : store -> res cval) (body : store -> cout) (k : nat) (m : store) : cout :=
  withc m (test m) (fun v =>
    if truthy v then
      match k with
      | O => OFuel
      | S k =>
          match body m with
          | ScriptSpec.ONext m' | ScriptSpec.OContinue m' => cwhile test body k m'
          | ScriptSpec.OBreak m' => ONext m'
          | o => o
          end
      end
    else ONext m).
Fixpoint cfor (t i : nat) (hi st : expr) (body : store -> cout) (k : nat) (m : store) : cout :=
  withc m (for_cond m t hi st) (fun c =>
    if c then
      match k with
      | O => OFuel
      | S k =>
          withc m (cleaf m t) (fun v =>
            match body (supd m i (CVP v)) with
            | ScriptSpec.ONext m' | ScriptSpec.OContinue m' =>
                withc m' (for_next m' t st) (fun v => cfor t i hi st body k (supd m' t v))
            | ScriptSpec.OBreak m' => ONext m'
            | o => o
            end)
      end
    else ONext m).

Section CExec.
Variable n : nat.       (* the number of turns each loop may make *)

(** codegen_c.cc:1330-1362 (declarations, assignment, return), 1392-1439 (for), 1883-1940
    (while, break, continue, if, sequences); codegen_c_host.cc:674-723 (try, catch, throw).
    [cur] is the exception being handled.  Simplification: leaving a block does not remove its
    variables, the parser hands out only variables of open blocks. *)
Fixpoint cexec_s (cur : option exn) (s : cstmt) (m : store) {struct s} : cout :=
  match s with
  | CDecl x t e => withc m (cstore m t e) (fun v => ONext (supd m x v))
  | CAssign x t e => withc m (cstore m t e) (fun v => ONext (supd m x v))
  | CIf c a b =>
      withc m (eval (cleaf m) c) (fun v => if truthy v then cexec cur a m else cexec cur b m)
  | CWhile c b =>
      cwhile (fun m => eval (cleaf m) c) (cexec cur b) n m
  | CFor t i lo hi st b =>
      withc m (cstore m TI (CP lo)) (fun v =>
        cfor t i hi st (cexec cur b) n (supd m t v))
  | CBreak => OBreak m
  | CContinue => OContinue m
  | CReturn t e => withc m (cstore m t e) (fun v => OReturn v m)
  | CReturnNone => OScope
  | CThrow (Some x) => ORaise x m
  | CThrow None => ORaise (match cur with Some x => x | None => RuntimeError end) m
  | CTry b h =>
      match cexec cur b m with
      | ScriptSpec.ORaise x m' => cexec (Some x) h m'
      | o => o
      end
  | CSeq b => cexec cur b m
  end
with cexec (cur : option exn) (b : cblock) (m : store) {struct b} : cout :=
  match b with
  | CNil => ONext m
  | CCons s b =>
      match cexec_s cur s m with
      | ScriptSpec.ONext m' => cexec cur b m'
      | o => o
      end
  end.
End CExec.

(** ** Symbols: context/scope_context.py:41-97 *)

(** a scope maps Python names to C++ variables with their types *)
Notation scope := (list (nat * (nat * pty))).
Fixpoint sfind (x : nat) (s : scope) : option (nat * pty) :=
  match s with
  | [] => None
  | (y, v) :: s => if Nat.eqb x y then Some v else sfind x s
  end.
(** lookup_symbol_with_level: innermost scope first; the flag says "in the innermost scope"
    (level -1) *)
Fixpoint lookup_from (inner : bool) (x : nat) (l : list scope) : option (bool * (nat * pty)) :=
  match l with
  | [] => None
  | s :: l => match sfind x s with
              | Some v => Some (inner, v)
              | None => lookup_from false x l
              end
  end.
Definition lookup (x : nat) (l : list scope) : option (bool * (nat * pty)) := lookup_from true x l.

(** IsTypeConvertible, src/ir/type.cc:679-760, on int64, bool and unicode: a bool converts to
    an int64, not the other way round; strings convert to strings only *)
Definition convertible (from to : pty) : bool :=
  match from, to with
  | TI, TI | TB, TB | TS, TS => true
  | TB, TI => true
  | _, _ => false
  end.

(** ** Expressions *)
Section Parse.
Variables (same : expr -> expr -> bool) (glob : nat -> option ScriptSpec.pval).
Variable scopes : list scope.

Definition arith_op (o : arith) : binop :=
  match o with PAdd => Add | PSub => Sub | PMul => Mul | PFloorDiv => FloorDiv | PMod => FloorMod end.
Definition cmp_op (o : cmp) : binop :=
  match o with PLt => LT | PLe => LE | PGt => GT | PGe => GE | PEq => EQ | PNe => NE end.

Definition var (v : nat * pty) : cexp :=
  match snd v with TS => CStr (SeVar (fst v)) | t => CP (ELeaf (dtype_of t) (fst v)) end.
(** generic_const: visit_Num, visit_NameConstant, visit_Str, parser.py:2021-2049 *)
Definition constant (v : ScriptSpec.pval) : res cexp :=
  match v with
  | ScriptSpec.VInt z => if int64b z then Ok (CP (EInt (DInt 64) z)) else Exn OverflowError
  | ScriptSpec.VBool b => Ok (CP (EInt DBool (if b then 1 else 0)))
  | ScriptSpec.VStr s => Ok (CStr (SeLit s))
  | ScriptSpec.VNone => Exn Unmodelled
  end.

Definition prim (e : cexp) : res expr := match e with CP a => Ok a | CStr _ => Exn Unmodelled end.
(** an operand that _generic.op_and, op_or and op_not treat as a bool, generic.py:446-544 *)
Definition prim_bool (e : cexp) : res expr :=
  let! a := prim e in if dtype_eqb (dt a) DBool then Ok a else Exn Unmodelled.

(** visit_BinOp 1319-1330, visit_Compare 1332-1359, visit_BoolOp 1361-1369, visit_UnaryOp
    1371-1381 with 203-207, visit_IfExp 1949-1954, visit_Name 1964-2018;
    python/matx/ir/generic.py:199-391, 446-544; builtins_all, python/matx/ir/op.py:119-139 *)
Fixpoint parse (e : pexp) : res cexp :=
  match e with
  | XInt z => constant (ScriptSpec.VInt z)
  | XBool b => constant (ScriptSpec.VBool b)
  | XStr s => constant (ScriptSpec.VStr s)
  | XName x =>
      match lookup x scopes with
      | Some (_, v) => Ok (var v)
      | None => match glob x with Some v => constant v | None => Exn NameError end
      end
  | XBin o a b =>
      let! p := parse a in
      let! q := parse b in
      match p, q with
      | CP a, CP b =>
          if dtype_eqb (dt a) (DInt 64) || dtype_eqb (dt b) (DInt 64)
          then rmap CP (build same (arith_op o) a b) else Exn Unmodelled
      | CStr a, CStr b => match o with PAdd => Ok (CStr (SeCat a b)) | _ => Exn Unmodelled end
      | _, _ => Exn Unmodelled
      end
  | XNeg a =>
      let! p := parse a in let! a := prim p in
      rmap CP (build same Mul a (EInt (DInt 64) (-1)))
  | XNot a => let! p := parse a in let! a := prim_bool p in rmap CP (build_not a)
  | XAnd a b =>
      let! p := parse a in let! q := parse b in
      let! a := prim_bool p in let! b := prim_bool q in
      rmap CP (build same And a b)
  | XOr a b =>
      let! p := parse a in let! q := parse b in
      let! a := prim_bool p in let! b := prim_bool q in
      rmap CP (build same Or a b)
  | XCmp a o b t =>
      let! p := parse a in let! a := prim p in
      let! q := parse b in let! b := prim q in
      let! c := build same (cmp_op o) a b in
      rmap CP (parse_tail c b t)
  | XIf c a b =>
      let! r := parse c in let! p := parse a in let! q := parse b in
      let! c := prim r in let! a := prim p in let! b := prim q in
      rmap CP (build_sel c a b)
  end
(** [acc]: the conjunction of the comparisons so far; [l]: the left operand of the next one *)
with parse_tail (acc l : expr) (t : ptail) : res expr :=
  match t with
  | TEnd => Ok acc
  | TCons o b t =>
      let! q := parse b in let! b := prim q in
      let! c := build same (cmp_op o) l b in
      let! acc := build same And acc c in
      parse_tail acc b t
  end.

(** The test of an [if]: if_bool.py:57-80 wraps the leaves of its and/or/not tree in bool(...),
    a constructor call that is not folded. *)
Fixpoint parse_test (e : pexp) : res expr :=
  match e with
  | XAnd a b => let! a := parse_test a in let! b := parse_test b in build same And a b
  | XOr a b => let! a := parse_test a in let! b := parse_test b in build same Or a b
  | XNot a => let! a := parse_test a in build_not a
  | _ => let! p := parse e in let! a := prim p in Ok (ECast DBool a)
  end.
End Parse.

(** _type_infer of an expression *)
Definition type_of (e : cexp) : res pty :=
  match e with
  | CStr _ => Ok TS
  | CP e => if dtype_eqb (dt e) DBool then Ok TB
            else if dtype_eqb (dt e) (DInt 64) then Ok TI else Exn Unmodelled
  end.

(** ** Statements *)
Section Compile.
Variables (same : expr -> expr -> bool) (glob : nat -> option ScriptSpec.pval).
(** fn_live_out_variables: the verdict of the live variable analysis for an assignment target *)
Variable live : nat -> bool.

(** lookup_or_alloca, parser.py:593-648 *)
Definition assign (cur : scope) (outer : list scope) (k n x : nat) (e : cexp)
  : res (cstmt * scope * nat) :=
  let! t := type_of e in
  match lookup x (cur :: outer) with
  | None => Ok (CDecl k t e, (x, (k, t)) :: cur, S k)
  | Some (inner, (v, u)) =>
      if convertible t u then Ok (CAssign v u e, cur, k)
      else if inner || negb (live n) then Ok (CDecl k t e, (x, (k, t)) :: cur, S k)
      else Exn TypeError
  end.

(** visit_For, parser.py:906-924: a bound that is neither a constant nor a variable is copied *)
Definition bound (k : nat) (e : cexp) : res (cstmt * expr * nat) :=
  match e with
  | CP (EInt d v) => Ok (CSeq CNil, EInt d v, k)
  | CP (ELeaf d v) => Ok (CSeq CNil, ELeaf d v, k)
  | CP e => Ok (CDecl k TI (CP e), ELeaf (DInt 64) k, S k)
  | CStr _ => Exn TypeError
  end.
Definition parse_range (scopes : list scope) (r : prange) : res (cexp * cexp * cexp) :=
  let p := parse same glob scopes in
  let zero := CP (EInt (DInt 64) 0) in
  let one := CP (EInt (DInt 64) 1) in
  match r with
  | RStop b => let! b := p b in Ok (zero, b, one)
  | RStart a b => let! a := p a in let! b := p b in Ok (a, b, one)
  | RStep a b c => let! a := p a in let! b := p b in let! c := p c in Ok (a, b, c)
  end.

(** The statements, parser.py: visit_Return 572-591, visit_Assign 650-713, visit_AugAssign
    818-823, visit_For 863-937, visit_If 1094-1115, visit_ExceptHandler and visit_Try
    1117-1141 (class, else and finally are ignored), visit_Raise 1143-1151, visit_While
    1153-1159; an else on a while makes the control flow graph builder fail
    (analysis/cfg/builder.py:326-353).  [cur] and [outer] are the open scopes, [k] is the next
    C++ variable; the results are the code, the new innermost scope and the next variable. *)
Fixpoint compile_s (rt : pty) (cur : scope) (outer : list scope) (k : nat) (s : pstmt)
  : res (cstmt * scope * nat) :=
  let scopes := cur :: outer in
  match s with
  | SPass => Ok (CSeq CNil, cur, k)
  | SAssign n x e => let! p := parse same glob scopes e in assign cur outer k n x p
  | SAug n x o e => let! p := parse same glob scopes (XBin o (XName x) e) in assign cur outer k n x p
  | SIf c a b =>
      let! c := parse_test same glob scopes c in
      let! (a, k) := compile_b rt [] scopes k a in
      let! (b, k) := compile_b rt [] scopes k b in
      Ok (CIf c a b, cur, k)
  | SWhile c b els =>
      if ScriptSpec.isnil els then
        let! p := parse same glob scopes c in let! c := prim p in
        let! (b, k) := compile_b rt [] scopes k b in
        Ok (CWhile c b, cur, k)
      else Exn TypeError
  | SFor x r b els =>
      match lookup x scopes with
      | Some _ => Exn TypeError
      | None =>
          let! (ab, e) := parse_range scopes r in
          let '(a, b') := ab in
          let t := k in
          let i := S k in
          let! (body, k) := compile_b rt [(x, (i, TI))] scopes (S (S k)) b in
          let! (ga, k) := bound k a in
          let! (gb, k) := bound k b' in
          let! (ge, k) := bound k e in
          Ok (CSeq (CCons (fst ga) (CCons (fst gb) (CCons (fst ge)
                (CCons (CFor t i (snd ga) (snd gb) (snd ge) body) CNil)))), cur, k)
      end
  | SBreak => Ok (CBreak, cur, k)
  | SContinue => Ok (CContinue, cur, k)
  | SReturn e =>
      let! p := parse same glob scopes e in
      let! t := type_of p in
      if convertible t rt then Ok (CReturn rt p, cur, k) else Exn TypeError
  | SRaise x => Ok (CThrow x, cur, k)
  | STry b _ h _ _ =>
      let! (b, k) := compile_b rt [] scopes k b in
      let! (h, k) := compile_b rt [] ([] :: scopes) k h in
      Ok (CTry b h, cur, k)
  end
with compile_b (rt : pty) (cur : scope) (outer : list scope) (k : nat) (b : pblock)
  : res (cblock * nat) :=
  match b with
  | BNil => Ok (CNil, k)
  | BCons s b =>
      let! (sc, k) := compile_s rt cur outer k s in
      let '(s, cur) := sc in
      let! (b, k) := compile_b rt cur outer k b in
      Ok (CCons s b, k)
  end.
End Compile.

(** ** Functions *)

(** FunctionSyntaxCheck.check_control_flow, syntax_check.py:33-46 *)
Fixpoint must_return_s (s : pstmt) : bool :=
  match s with
  | SIf _ a b => must_return a && must_return b
  | SReturn _ => true
  | _ => false
  end
with must_return (b : pblock) : bool :=
  match b with BNil => false | BCons s b => must_return_s s || must_return b end.

(** The visits of FunctionSyntaxCheck, syntax_check.py:131-159 and following: bodies of loops
    are not visited. *)
Fixpoint syntax_ok_s (s : pstmt) : bool :=
  match s with
  | SIf _ a b => syntax_ok a && syntax_ok b
  | SWhile _ _ els => ScriptSpec.isnil els
  | SFor _ _ _ els => ScriptSpec.isnil els
  | STry b h hd els fin =>
      ScriptSpec.isnil els && ScriptSpec.isnil fin && syntax_ok b && syntax_ok hd &&
      match h with None => true | Some _ => false end
  | _ => true
  end
with syntax_ok (b : pblock) : bool :=
  match b with BNil => true | BCons s b => syntax_ok_s s && syntax_ok b end.

(** parse_body(auto_add_return), parser.py:308-325: the appended [return None] *)
Fixpoint capp (a b : cblock) : cblock :=
  match a with CNil => b | CCons s a => CCons s (capp a b) end.
Fixpoint ends_in_return (b : pblock) : bool :=
  match b with
  | BNil => false
  | BCons (SReturn _) BNil => true
  | BCons _ b => ends_in_return b
  end.

Fixpoint param_scope (k : nat) (ps : list (nat * pty)) : scope :=
  match ps with
  | [] => []
  | (x, t) :: ps => (x, (k, t)) :: param_scope (S k) ps
  end.

(** visit_FunctionDef, parser.py:475-570, after the syntax check: parameters are the variables
    0, 1, ... and live in the same scope as the body. *)
Definition compile_fun (same : expr -> expr -> bool) (glob : nat -> option ScriptSpec.pval)
  (live : nat -> bool) (f : pfun) : res cblock :=
  if must_return (body f) && syntax_ok (body f) then
    let! (b, _) := compile_b same glob live (ret f) (param_scope 0 (params f)) []
                             (length (params f)) (body f) in
    Ok (if ends_in_return (body f) then b else capp b (CCons CReturnNone CNil))
  else Exn TypeError.

(** arguments, as the generated function receives them *)
Definition c_arg (v : ScriptSpec.pval) : cv :=
  match v with
  | ScriptSpec.VInt z => CVP (VI (CI true 64) z)
  | ScriptSpec.VBool b => CVP (vbool b)
  | ScriptSpec.VStr s => CVS s
  | ScriptSpec.VNone => CVS []
  end.
Fixpoint c_args (k : nat) (args : list ScriptSpec.pval) : store :=
  match args with
  | [] => fun _ => None
  | v :: args => supd (c_args (S k) args) k (c_arg v)
  end.
Definition c_run (n : nat) (b : cblock) (args : list ScriptSpec.pval) : res cv :=
  match cexec n None b (c_args 0 args) with
  | ScriptSpec.OReturn v _ => Ok v
  | ScriptSpec.ORaise x _ => Exn x
  | ScriptSpec.OFuel => OutOfFuel
  | _ => UB
  end.

(** ** What values stand for *)
(** How the C++ value [c] of a variable declared with type [t] stands for the Python value
    [v]: an int64 holds the number (an int, or a bool that was assigned to an int variable). *)
Definition shows (t : pty) (v : ScriptSpec.pval) (c : cv) : Prop :=
  match t with
  | TI => exists z, ScriptSpec.number v = Some z /\ int64 z /\ c = CVP (VI (CI true 64) z)
  | TB => exists b, v = ScriptSpec.VBool b /\ c = CVP (vbool b)
  | TS => exists s, v = ScriptSpec.VStr s /\ c = CVS s
  end.
(** The outcome of the compiled function against that of the Python function: the same value,
    the same exception, or neither has ended within the given number of turns. *)
Definition same_outcome (t : pty) (py : res ScriptSpec.pval) (c : res cv) : Prop :=
  match py with
  | Ok v => exists w, c = Ok w /\ shows t v w
  | Exn x => c = Exn x
  | OutOfFuel => c = OutOfFuel
  | UB => False
  end.
