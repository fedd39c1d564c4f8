(** * Generator functions: the C++ that is generated for a body with yield

    Modelled: parser.py (visit_For, range), src/codegen/yield_detect.h, var_detect.h,
    codegen_c_host.cc (AddYieldFunction, HLOYield), codegen_c.cc (statements),
    include/matxscript/runtime/generator/*.h and the generic iterator of
    itertor_private.h.  Not modelled: loops over containers inside a generator (AutoFor),
    try statements, the types of variables and values (all are int64 here, without
    overflow), methods, and the conversion of the object at the language border. *)

From Coq Require Import ZArith List Bool Lia.
From Verif Require Import Base GnSpec.
Import ListNotations.
Local Open Scope Z_scope.

(** Hidden variables of the k-th range loop: the counter (ForNode::tmp_loop_var) and the
    temporaries of python/matx/script/parser.py 900-918 (start and stop; the step is a
    literal in this model, so it has none). *)
Inductive tvar := TLoop (k : nat) | TStart (k : nat) | TStop (k : nat).

Definition tvar_eqb (a b : tvar) : bool :=
  match a, b with
  | TLoop i, TLoop j | TStart i, TStart j | TStop i, TStop j => Nat.eqb i j
  | _, _ => false
  end.

(** min and max of a ForNode: an IntImm, a PrimVar of the user, or a temporary. *)
Inductive catom := AConst (z : Z) | AVar (x : nat) | ATmp (t : tvar).

(** The C++ statements that are printed (src/codegen/codegen_c.cc 1330-1437, 1883-1925 and
    codegen_c_host.cc 853-862). *)
Inductive cstmt :=
| CSkip
| CDecl (x : nat) (e : expr)        (* int64_t x = (e);  -- a local of the block *)
| CAssign (x : nat) (e : expr)      (* x = e;            -- a member of the struct *)
| CTemp (t : tvar) (e : expr)
| CYield (n : nat) (e : expr)
| CSeq (a b : cstmt)
| CIf (c : expr) (a b : cstmt)
| CWhile (c : expr) (b : cstmt)
| CFor (k : nat) (x : nat) (lo hi : catom) (st : Z) (b : cstmt)
| CReturn (e : expr)
| CBreak
| CContinue.

(** ** Code generation *)

(** parser.py 900-911: a bound that is neither a literal nor an int variable is stored in a
    temporary before the loop. *)
Definition atom_of (t : tvar) (b : bound) : catom :=
  match b with
  | BConst z => AConst z
  | BVar x => AVar x
  | BExpr _ => ATmp t
  end.

Definition temp_of (t : tvar) (b : bound) : cstmt :=
  match b with
  | BExpr e => CTemp t e
  | _ => CSkip
  end.

(** From the body to the statements of next().  [n] is the next yield label
    (yield_detect.h 46-61: numbered from 1 in the order of the text), [k] the next loop.
    [infor]: inside the body of a range loop.  RemoveVarDefine (var_detect.h 52-70) turns
    definitions into assignments to members and sets yield_mode on loops, but does not go
    into the bodies of loops: there a definition stays a local variable, and an inner range
    loop, without yield_mode, calls AllocVarID for a variable that AddYieldFunction
    (codegen_c_host.cc 880-883) has already entered, which fails
    (codegen_source_base.cc 77-91, "Need input to be in SSA form").  [inloop]: break and
    continue outside loops are syntax errors.  (Simplified: renaming every variable x to
    __target_x (SubstituteYieldFunctionVars) is left out, since the names stay distinct.) *)
Fixpoint codegen (infor inloop : bool) (p : stmt) (n k : nat) : option (cstmt * nat * nat) :=
  match p with
  | SSkip => Some (CSkip, n, k)
  | SDecl x e => Some (if infor then CDecl x e else CAssign x e, n, k)
  | SAssign x e => Some (CAssign x e, n, k)
  | SYield e => Some (CYield n e, Datatypes.S n, k)
  | SSeq a b =>
      match codegen infor inloop a n k with
      | Some (ca, n1, k1) =>
          match codegen infor inloop b n1 k1 with
          | Some (cb, n2, k2) => Some (CSeq ca cb, n2, k2)
          | None => None
          end
      | None => None
      end
  | SIf c a b =>
      match codegen infor inloop a n k with
      | Some (ca, n1, k1) =>
          match codegen infor inloop b n1 k1 with
          | Some (cb, n2, k2) => Some (CIf c ca cb, n2, k2)
          | None => None
          end
      | None => None
      end
  | SWhile c b =>
      match codegen infor true b n k with
      | Some (cb, n1, k1) => Some (CWhile c cb, n1, k1)
      | None => None
      end
  | SFor x lo hi st b =>
      if infor then None
      else
        match codegen true true b n (Datatypes.S k) with
        | Some (cb, n1, k1) =>
            Some (CSeq (temp_of (TStart k) lo)
                    (CSeq (temp_of (TStop k) hi)
                       (CFor k x (atom_of (TStart k) lo) (atom_of (TStop k) hi) st cb)), n1, k1)
        | None => None
        end
  | SReturn e => Some (CReturn e, n, k)
  | SBreak => if inloop then Some (CBreak, n, k) else None
  | SContinue => if inloop then Some (CContinue, n, k) else None
  end.

(** The labels of a statement: the cases of the switch (codegen_c_host.cc 1037-1044) and the
    places goto can go to. *)
Fixpoint labels (c : cstmt) : list nat :=
  match c with
  | CYield n _ => [n]
  | CSeq a b | CIf _ a b => labels a ++ labels b
  | CWhile _ b | CFor _ _ _ _ _ b => labels b
  | _ => []
  end.

Definition has_label (c : cstmt) (n : nat) : bool := existsb (Nat.eqb n) (labels c).

(** A block that declares a local variable at its own level. *)
Fixpoint declares (c : cstmt) : bool :=
  match c with
  | CDecl _ _ => true
  | CSeq a b => declares a || declares b
  | _ => false
  end.

(** A C++ compiler refuses a goto that enters the scope of an initialised local variable:
    no label may follow a declaration in the same block. *)
Fixpoint cpp_accepts (c : cstmt) : bool :=
  match c with
  | CSeq a b =>
      cpp_accepts a && cpp_accepts b &&
      negb (declares a && match labels b with [] => false | _ => true end)
  | CIf _ a b => cpp_accepts a && cpp_accepts b
  | CWhile _ b | CFor _ _ _ _ _ b => cpp_accepts b
  | _ => true
  end.

(** The compiled generator: SubstituteYieldFunctionVars puts the assignments of the
    parameters in front of the body (var_detect.h 107-129). *)
Record gen := { gparams : list nat; gcode : cstmt }.

Definition compile (params : list nat) (p : stmt) : option gen :=
  match codegen false false p 1 0 with
  | Some (c, _, _) => if cpp_accepts c then Some {| gparams := params; gcode := c |} else None
  | None => None
  end.

(** ** The generated object *)

(** The struct of codegen_c_host.cc 921-1013: generator_state__ (yielder.h, 0 at first),
    generator_value__, one member per variable, the hidden variables, and the arguments.
    (Locals of blocks share the table of the members: no goto enters their scope, and the
    parser only lets a name be used after it was defined in its scope.) *)
Record obj := {
  gst : Z;
  gval : Z;
  gvars : vars;
  gtmp : tvar -> Z;
  gargs : list Z
}.

Definition set_st (z : Z) (o : obj) : obj :=
  {| gst := z; gval := gval o; gvars := gvars o; gtmp := gtmp o; gargs := gargs o |}.
Definition set_val (z : Z) (o : obj) : obj :=
  {| gst := gst o; gval := z; gvars := gvars o; gtmp := gtmp o; gargs := gargs o |}.
Definition set_var (x : nat) (z : Z) (o : obj) : obj :=
  {| gst := gst o; gval := gval o; gvars := upd (gvars o) x z; gtmp := gtmp o; gargs := gargs o |}.
Definition set_vars (s : vars) (o : obj) : obj :=
  {| gst := gst o; gval := gval o; gvars := s; gtmp := gtmp o; gargs := gargs o |}.
Definition set_tmp (t : tvar) (z : Z) (o : obj) : obj :=
  {| gst := gst o; gval := gval o; gvars := gvars o;
     gtmp := (fun u => if tvar_eqb t u then z else gtmp o u); gargs := gargs o |}.

(** A call of the generator function makes a new object.  Members that are not parameters
    are not initialised: [junk] and [v0] stand for what they hold. *)
Definition make (args : list Z) (v0 : Z) (junk : vars) (tmp : tvar -> Z) : obj :=
  {| gst := 0; gval := v0; gvars := junk; gtmp := tmp; gargs := args |}.

(** ** Running next() *)

(** Where control enters a statement: at its beginning, at a label inside it, or (for a
    range loop) at the test after a turn. *)
Inductive entry := Start | Goto (n : nat) | Head.

Inductive cres :=
| CNormal (o : obj)
| CBroke (o : obj)
| CContinued (o : obj)
| CRet (v : Z) (o : obj)        (* return from next() *)
| CRaise (e : exn) (o : obj)
| CFuel.

Definition atom_val (a : catom) (o : obj) : Z :=
  match a with
  | AConst z => z
  | AVar x => gvars o x
  | ATmp t => gtmp o t
  end.

(** codegen_c.cc 1392-1424: the test printed for a literal step. *)
Definition for_test (t m st : Z) : bool := if 0 <=? st then t <? m else m <? t.

(** The statements of next().  HLOYield (codegen_c_host.cc 853-862) prints
    [generator_state__ = n; return generator_value__ = (e); yield_pointn:;].
    ReturnStmt (codegen_c.cc 1362-1376) prints [return (e);] also in a generator.
    A range loop prints [for (t = lo; t < hi; t += st) { x = t; ... }] (1392-1437). *)
Fixpoint exec (fuel : nat) (en : entry) (c : cstmt) (o : obj) : cres :=
  match fuel with
  | O => CFuel
  | Datatypes.S f =>
      match c with
      | CSkip => CNormal o
      | CDecl x e | CAssign x e =>
          match e (gvars o) with
          | inl v => CNormal (set_var x v o)
          | inr r => CRaise r o
          end
      | CTemp t e =>
          match e (gvars o) with
          | inl v => CNormal (set_tmp t v o)
          | inr r => CRaise r o
          end
      | CYield n e =>
          match en with
          | Goto _ => CNormal o
          | _ =>
              let o1 := set_st (Z.of_nat n) o in
              match e (gvars o1) with
              | inl v => CRet v (set_val v o1)
              | inr r => CRaise r o1
              end
          end
      | CSeq a b =>
          match en with
          | Goto n =>
              if has_label a n
              then match exec f en a o with CNormal o1 => exec f Start b o1 | r => r end
              else exec f en b o
          | _ => match exec f Start a o with CNormal o1 => exec f Start b o1 | r => r end
          end
      | CIf t a b =>
          match en with
          | Goto n => if has_label a n then exec f en a o else exec f en b o
          | _ =>
              match t (gvars o) with
              | inl v => if v =? 0 then exec f Start b o else exec f Start a o
              | inr r => CRaise r o
              end
          end
      | CWhile t b =>
          let again r :=
            match r with
            | CNormal o1 | CContinued o1 => exec f Start c o1
            | CBroke o1 => CNormal o1
            | r => r
            end in
          match en with
          | Goto n => again (exec f en b o)
          | _ =>
              match t (gvars o) with
              | inl v => if v =? 0 then CNormal o else again (exec f Start b o)
              | inr r => CRaise r o
              end
          end
      | CFor k x lo hi st b =>
          let again r :=
            match r with
            | CNormal o1 | CContinued o1 =>
                exec f Head c (set_tmp (TLoop k) (gtmp o1 (TLoop k) + st) o1)
            | CBroke o1 => CNormal o1
            | r => r
            end in
          match en with
          | Goto n => again (exec f en b o)
          | Start => exec f Head c (set_tmp (TLoop k) (atom_val lo o) o)
          | Head =>
              if for_test (gtmp o (TLoop k)) (atom_val hi o) st
              then again (exec f Start b (set_var x (gtmp o (TLoop k)) o))
              else CNormal o
          end
      | CReturn e =>
          match e (gvars o) with
          | inl v => CRet v o
          | inr r => CRaise r o
          end
      | CBreak => CBroke o
      | CContinue => CContinued o
      end
  end.

Inductive nres := NRet (v : Z) (o : obj) | NRaise (e : exn) (o : obj) | NFuel.

(** codegen_c_host.cc 1037-1078: [switch (generator_state__) { case n: goto yield_pointn; }],
    without a case for other values; the assignments of the parameters and the body; then
    [generator_state__ = -1] and [return result_type()]. *)
Definition next (fuel : nat) (g : gen) (o : obj) : nres :=
  let r :=
    if existsb (fun n => Z.of_nat n =? gst o) (labels (gcode g))
    then exec fuel (Goto (Z.to_nat (gst o))) (gcode g) o
    else exec fuel Start (gcode g) (set_vars (call_vars (gparams g) (gargs o) (gvars o)) o) in
  match r with
  | CNormal o1 | CBroke o1 | CContinued o1 => NRet 0 (set_st (-1) o1)
  | CRet v o1 => NRet v o1
  | CRaise e o1 => NRaise e o1
  | CFuel => NFuel
  end.

(** ** Loops over the object *)

(** How a loop that makes at most k turns leaves the iterator. *)
Inductive lend :=
| LStopped (o : obj)           (* the iterator said that nothing is left *)
| LLeft (o : obj)              (* k turns were made and something may be left *)
| LRaised (e : exn) (o : obj)
| LFuel.

(** itertor_private.h 100-117 over generator.h 55-90: has_next is
    [generator_state__ != -1]; Next reads generator_value__, then calls next(), then hands
    out the value it has read. *)
Fixpoint turns (fuel : nat) (g : gen) (k : nat) (o : obj) : list Z * lend :=
  if gst o =? -1 then ([], LStopped o)
  else
    match k with
    | O => ([], LLeft o)
    | Datatypes.S k' =>
        match next fuel g o with
        | NRet _ o1 => let r := turns fuel g k' o1 in (gval o :: fst r, snd r)
        | NRaise e o1 => ([], LRaised e o1)
        | NFuel => ([], LFuel)
        end
    end.

(** A loop of at most k turns: GeneratorAdapter::begin (generator_ref.h 94-97) calls next()
    and makes an iterator that shares the object. *)
Definition loop (fuel : nat) (g : gen) (k : nat) (o : obj) : list Z * lend :=
  match next fuel g o with
  | NRet _ o1 => turns fuel g k o1
  | NRaise e o1 => ([], LRaised e o1)
  | NFuel => ([], LFuel)
  end.
