(** The passes of the code generator that change how arguments are handed over:
    FuncArgsOptimizer (arguments by constant reference) and AssignOptimizer
    (std::move of an argument at its last use), the C++ meaning of the
    functions they produce, and the choice of an overriding method.

    Values, the objects' attributes and the built-in operations are a record
    [rt]: everything is stated for all of them. *)
From Coq Require Import List ZArith Bool PeanoNat.
From Verif Require Import Base.
Import ListNotations.

(** ** The runtime the generated functions run on *)

(** What the generated code works with: values, the state of all objects and
    containers, attribute access (src/codegen/codegen_c_host.cc:665-668 prints
    [self->x]), the built-in operations, the truth test of a condition, the
    value of a variable that has no initial value, the value of a function that
    ends without return, and what a C++ move leaves in the variable moved from
    (a null reference for NDArray and the containers, None for Any;
    runtime_value.h:761). *)
Record rt := {
  vl : Type;
  st : Type;
  r_get : st -> vl -> nat -> res vl;
  r_set : st -> vl -> nat -> vl -> res st;
  r_op : nat -> list vl -> st -> res vl * st;
  r_truth : vl -> bool;
  r_default : vl;
  r_none : vl;
  r_moved : vl -> vl
}.

(** ** Functions as the code generator receives them *)

(** Types of parameters, include/matxscript/ir/type.h: numbers (PrimType),
    arrays (DynTensorType), and every other type. *)
Inductive ty := TPrim | TTensor | TOther (n : nat).

(** Expressions: variables, constants, attributes (ClassGetItem), built-in
    operations, calls of compiled functions, and HLOMove
    (include/matxscript/ir/hlo_expr.h), which only the pass below makes.
    Conversions of types are not modelled here. *)
Inductive expr (V : Type) :=
| EVar (x : nat)
| EConst (v : V)
| EAttr (e : expr V) (a : nat)
| EOp (o : nat) (es : list (expr V))
| ECall (f : nat) (es : list (expr V))
| EMove (e : expr V).
Arguments EVar {V}. Arguments EConst {V}. Arguments EAttr {V}. Arguments EOp {V}.
Arguments ECall {V}. Arguments EMove {V}.

(** Statements (include/matxscript/ir/stmt.h).  A statement that the passes
    treat by identity carries a number that stands for its node.  SeqStmt holds
    an array; here a sequence has two parts and [SNop] is the empty one. *)
Inductive stmt (V : Type) :=
| SNop
| SAlloca (id : nat) (x : nat) (init : option (expr V))
| SAssign (id : nat) (lhs rhs : expr V)
| SReturn (id : nat) (e : expr V)
| SExpr (e : expr V)
| SSeq (a b : stmt V)
| SIf (c : expr V) (a b : stmt V)
| SWhile (c : expr V) (b : stmt V).
Arguments SNop {V}. Arguments SAlloca {V}. Arguments SAssign {V}. Arguments SReturn {V}.
Arguments SExpr {V}. Arguments SSeq {V}. Arguments SIf {V}. Arguments SWhile {V}.

(** A function: parameters with their types, and the body. *)
Record func (V : Type) := { f_params : list (nat * ty); f_body : stmt V }.
Arguments f_params {V}. Arguments f_body {V}.

(** The functions of a module, by number. *)
Definition prog (V : Type) := list (func V).

(** A function after the passes: each parameter with "RefType" or not
    (src/codegen/codegen_c.cc:770-773 prints a RefType as [const T&]). *)
Record cfunc (V : Type) := { c_params : list (nat * ty * bool); c_body : stmt V }.
Arguments c_params {V}. Arguments c_body {V}.

(** ** FuncArgsOptimizer, src/codegen/func_args_optimizer.h *)

Definition is_prim (t : ty) : bool := match t with TPrim => true | _ => false end.
Definition is_tensor (t : ty) : bool := match t with TTensor => true | _ => false end.

Definition del (x : nat) (l : list nat) : list nat := filter (fun y => negb (y =? x)%nat) l.

(** FuncArgsOptimizerFilter::VisitStmt_, func_args_optimizer.h:78-91, over the
    whole body (StmtExprVisitor enters sequences, branches and loops): an
    argument that a declaration declares or that is itself the left side of an
    assignment is erased from the set. *)
Fixpoint fa_visit {V} (s : stmt V) (args : list nat) : list nat :=
  match s with
  | SAlloca _ x _ => del x args
  | SAssign _ lhs _ => match lhs with EVar x => del x args | _ => args end
  | SSeq a b => fa_visit b (fa_visit a args)
  | SIf _ a b => fa_visit b (fa_visit a args)
  | SWhile _ b => fa_visit b args
  | _ => args
  end.

(** FuncArgsOptimizerFilter::run, func_args_optimizer.h:52-76. *)
Definition fa_filter {V} (f : func V) : list nat :=
  fa_visit (f_body f)
    (map fst (filter (fun p => negb (is_prim (snd p)) && negb (is_tensor (snd p)))%bool
                     (f_params f))).

Definition memb (x : nat) (l : list nat) : bool := existsb (Nat.eqb x) l.

(** FuncArgsOptimizerMutator::run, func_args_optimizer.h:99-130.  The variable
    nodes it replaces keep their names, so the body is unchanged here. *)
Definition fa_run {V} (f : func V) : cfunc V :=
  {| c_params := map (fun p => (fst p, snd p, memb (fst p) (fa_filter f))) (f_params f);
     c_body := f_body f |}.

(** ** AssignOptimizer, src/codegen/assign_optimizer.h *)

(** AssignOptimizerFilter::VisitStmt, assign_optimizer.h:42-49. *)
Fixpoint ao_filter {V} (s : stmt V) : bool :=
  match s with
  | SNop => true
  | SAlloca _ _ _ | SAssign _ _ _ | SReturn _ _ => true
  | SSeq a b => (ao_filter a && ao_filter b)%bool
  | _ => false
  end.

(** AssignOptimizerExprVisitor::run, assign_optimizer.h:57-69: is argument [x]
    in the expression? *)
Fixpoint e_uses {V} (x : nat) (e : expr V) : bool :=
  match e with
  | EVar y => (y =? x)%nat
  | EConst _ => false
  | EAttr e _ => e_uses x e
  | EOp _ es => existsb (e_uses x) es
  | ECall _ es => existsb (e_uses x) es
  | EMove e => e_uses x e
  end.

(** AssignOptimizerLastUsedAnalysis, assign_optimizer.h:75-121, for one
    argument: the number of the last statement that holds it.  The map of the
    code is this function of the argument. *)
Fixpoint ao_last {V} (x : nat) (s : stmt V) (last : option nat) : option nat :=
  match s with
  | SAlloca id y init =>
      if ((y =? x)%nat || match init with Some e => e_uses x e | None => false end)%bool
      then Some id else last
  | SAssign id lhs rhs => if (e_uses x lhs || e_uses x rhs)%bool then Some id else last
  | SReturn id e => if e_uses x e then Some id else last
  | SSeq a b => ao_last x b (ao_last x a last)
  | _ => last
  end.

(** The set last_use_stmt_ of AssignOptimizerMutator::run,
    assign_optimizer.h:140-145. *)
Definition ao_marks {V} (args : list nat) (s : stmt V) : list nat :=
  flat_map (fun x => match ao_last x s None with Some id => [id] | None => [] end) args.

(** Is the expression itself an argument? ([func_args_.count(rhs.get())]). *)
Definition is_arg {V} (args : list nat) (e : expr V) : bool :=
  match e with EVar x => memb x args | _ => false end.

(** AssignOptimizerMutator::VisitStmt_, assign_optimizer.h:160-178. *)
Fixpoint ao_mutate {V} (marks args : list nat) (s : stmt V) : stmt V :=
  match s with
  | SAlloca id x (Some e) =>
      if (memb id marks && is_arg args e)%bool then SAlloca id x (Some (EMove e)) else s
  | SAssign id lhs rhs =>
      if (memb id marks && is_arg args rhs)%bool then SAssign id lhs (EMove rhs) else s
  | SSeq a b => SSeq (ao_mutate marks args a) (ao_mutate marks args b)
  | _ => s
  end.

(** AssignOptimizerMutator::run, assign_optimizer.h:125-158. *)
Definition ao_run {V} (f : cfunc V) : cfunc V :=
  let args := map (fun p => fst (fst p))
                  (filter (fun p => negb (is_prim (snd (fst p)))) (c_params f)) in
  if ao_filter (c_body f)
  then {| c_params := c_params f;
          c_body := ao_mutate (ao_marks args (c_body f)) args (c_body f) |}
  else f.

(** RunOptimizations followed by AddFunction for a function without yield,
    src/codegen/codegen_c_host.cc:1611-1625, 795-811; the two passes that fuse
    item accesses and casts are not part of this model. *)
Definition compile {V} (P : prog V) : list (cfunc V) := map (fun f => ao_run (fa_run f)) P.

(** The same without AssignOptimizer. *)
Definition compile_refs {V} (P : prog V) : list (cfunc V) := map fa_run P.

(** ** What the generated C++ does *)

(** Where a C++ variable lives: a slot of its own (or of a caller), or an
    attribute of an object. *)
Inductive loc (V : Type) := LSlot (n : nat) | LAttr (o : V) (a : nat).
Arguments LSlot {V}. Arguments LAttr {V}.

(** The slots in use and the state of the objects.  Slots are not reused;
    destructors have no effect of their own. *)
Record cst (R : rt) := { c_mem : nat -> vl R; c_nxt : nat; c_st : st R }.
Arguments c_mem {R}. Arguments c_nxt {R}. Arguments c_st {R}.

Definition set_st {R} (c : cst R) (s : st R) : cst R :=
  {| c_mem := c_mem c; c_nxt := c_nxt c; c_st := s |}.

Definition fupd {A} (m : nat -> A) (n : nat) (v : A) : nat -> A :=
  fun k => if (k =? n)%nat then v else m k.

Definition set_slot {R} (c : cst R) (n : nat) (v : vl R) : cst R :=
  {| c_mem := fupd (c_mem c) n v; c_nxt := c_nxt c; c_st := c_st c |}.

(** A new variable that holds [v]. *)
Definition push {R} (c : cst R) (v : vl R) : nat * cst R :=
  (c_nxt c, {| c_mem := fupd (c_mem c) (c_nxt c) v; c_nxt := S (c_nxt c); c_st := c_st c |}).

(** Variables in scope: constant reference or not, and where. *)
Definition cenv (R : rt) := nat -> option (bool * loc (vl R)).

Definition c_read {R} (c : cst R) (l : loc (vl R)) : res (vl R) :=
  match l with
  | LSlot n => Ok (c_mem c n)
  | LAttr o a => r_get R (c_st c) o a
  end.

Definition c_write {R} (c : cst R) (l : loc (vl R)) (v : vl R) : res unit * cst R :=
  match l with
  | LSlot n => (Ok tt, set_slot c n v)
  | LAttr o a =>
      match r_set R (c_st c) o a v with
      | Ok s => (Ok tt, set_st c s)
      | Exn x => (Exn x, c)
      | OOB => (OOB, c)
      | OutOfFuel => (OutOfFuel, c)
      end
  end.

(** Operands and arguments one after another, left to right.  (C++ leaves the
    order open; the order of Python is taken.) *)
Fixpoint each {A B S} (ev : A -> S -> res B * S) (l : list A) (s : S) : res (list B) * S :=
  match l with
  | [] => (Ok [], s)
  | a :: l' =>
      match ev a s with
      | (Ok b, s1) =>
          match each ev l' s1 with
          | (Ok bs, s2) => (Ok (b :: bs), s2)
          | (Exn x, s2) => (Exn x, s2)
          | (OOB, s2) => (OOB, s2)
          | (OutOfFuel, s2) => (OutOfFuel, s2)
          end
      | (Exn x, s1) => (Exn x, s1)
      | (OOB, s1) => (OOB, s1)
      | (OutOfFuel, s1) => (OutOfFuel, s1)
      end
  end.

(** Continue with the value, or hand the failure on. *)
Definition andthen {A B S} (r : res A * S) (k : A -> S -> res B * S) : res B * S :=
  match r with
  | (Ok a, s) => k a s
  | (Exn x, s) => (Exn x, s)
  | (OOB, s) => (OOB, s)
  | (OutOfFuel, s) => (OutOfFuel, s)
  end.

(** The scope of a called function: each parameter is the location handed in. *)
Fixpoint bind_params {R : rt} (ps : list (nat * ty * bool)) (ls : list (bool * loc (vl R)))
  : cenv R :=
  match ps, ls with
  | p :: ps', l :: ls' => fun x => if (x =? fst (fst p))%nat then Some l else bind_params ps' ls' x
  | _, _ => fun _ => None
  end.

(** [std::move(a)] where a value is stored: the expression whose value it is,
    and what becomes of the variable moved from.  Moving from a constant
    reference is a copy. *)
Definition unmove {V} (e : expr V) : expr V := match e with EMove e1 => e1 | _ => e end.

Definition moved_from {R} (env : cenv R) (e : expr (vl R)) (v : vl R) (c : cst R) : cst R :=
  match e with
  | EMove (EVar a) =>
      match env a with
      | Some (false, LSlot k) => set_slot c k (r_moved R v)
      | _ => c
      end
  | _ => c
  end.

(** The generated functions.  [c_eval]: the value of an expression
    (src/codegen/codegen_c.cc, codegen_c_host.cc:665-668).  [c_arg]: what a
    parameter is bound to: a [const T&] parameter is bound to the variable or
    attribute itself when the argument is one, to a temporary otherwise; a [T]
    parameter gets a new variable.  [c_exec]: statements
    (codegen_c.cc:1330-1376); [std::move] of a variable that is not a constant
    reference leaves [r_moved] in it, of a constant reference is a copy.  The
    target of an assignment is found before the move takes effect.
    The result of [c_exec] is the value returned, if any, and the scope. *)
Fixpoint c_eval (R : rt) (C : list (cfunc (vl R))) (fuel : nat) (env : cenv R)
  (e : expr (vl R)) (c : cst R) {struct fuel} : res (vl R) * cst R :=
  match e with
  | EVar x =>
      match env x with
      | Some (_, l) => (c_read c l, c)
      | None => (OOB, c)
      end
  | EConst v => (Ok v, c)
  | _ =>
      match fuel with
      | O => (OutOfFuel, c)
      | S n =>
          match e with
          | EAttr e1 a =>
              andthen (c_eval R C n env e1 c) (fun o c1 => (c_read c1 (LAttr o a), c1))
          | EOp o es =>
              andthen (each (c_eval R C n env) es c) (fun vs c1 =>
                let r := r_op R o vs (c_st c1) in (fst r, set_st c1 (snd r)))
          | ECall f es =>
              match nth_error C f with
              | None => (OOB, c)
              | Some g =>
                  if (length es =? length (c_params g))%nat then
                    andthen
                      (each (fun a => c_arg R C n env (fst a) (snd a))
                            (combine (map snd (c_params g)) es) c)
                      (fun ls c1 =>
                         andthen (c_exec R C n (bind_params (c_params g) ls) (c_body g) c1)
                           (fun r c2 =>
                              (Ok (match fst r with Some v => v | None => r_none R end), c2)))
                  else (OOB, c)
              end
          | EMove e1 => c_eval R C n env e1 c
          | _ => (OOB, c)
          end
      end
  end
with c_arg (R : rt) (C : list (cfunc (vl R))) (fuel : nat) (env : cenv R)
  (ref : bool) (e : expr (vl R)) (c : cst R) {struct fuel} : res (bool * loc (vl R)) * cst R :=
  match ref, e with
  | true, EVar x =>
      match env x with
      | Some (_, l) => (Ok (true, l), c)
      | None => (OOB, c)
      end
  | true, EAttr e1 a =>
      match fuel with
      | O => (OutOfFuel, c)
      | S n => andthen (c_eval R C n env e1 c) (fun o c1 => (Ok (true, LAttr o a), c1))
      end
  | _, EVar x =>
      match env x with
      | Some (_, l) =>
          andthen (c_read c l, c) (fun v c1 =>
            let p := push c1 v in (Ok (ref, LSlot (fst p)), snd p))
      | None => (OOB, c)
      end
  | _, EConst v => let p := push c v in (Ok (ref, LSlot (fst p)), snd p)
  | _, _ =>
      match fuel with
      | O => (OutOfFuel, c)
      | S n =>
          andthen (c_eval R C n env e c) (fun v c1 =>
            let p := push c1 v in (Ok (ref, LSlot (fst p)), snd p))
      end
  end
with c_exec (R : rt) (C : list (cfunc (vl R))) (fuel : nat) (env : cenv R)
  (s : stmt (vl R)) (c : cst R) {struct fuel}
  : res (option (vl R) * cenv R) * cst R :=
  match fuel with
  | O => (OutOfFuel, c)
  | S n =>
      match s with
      | SNop => (Ok (None, env), c)
      | SAlloca _ x None =>
          let p := push c (r_default R) in
          (Ok (None, fupd env x (Some (false, LSlot (fst p)))), snd p)
      | SAlloca _ x (Some e) =>
          andthen (c_eval R C n env (unmove e) c) (fun v c1 =>
            let p := push (moved_from env e v c1) v in
            (Ok (None, fupd env x (Some (false, LSlot (fst p)))), snd p))
      | SAssign _ lhs rhs =>
          andthen (c_eval R C n env (unmove rhs) c) (fun v c1 =>
            andthen
              (match lhs with
               | EVar x => match env x with
                           | Some (false, l) => (Ok l, c1)
                           | _ => (OOB, c1)
                           end
               | EAttr e1 a => andthen (c_eval R C n env e1 c1) (fun o c2 => (Ok (LAttr o a), c2))
               | _ => (OOB, c1)
               end)
              (fun l c2 =>
                 andthen (c_write (moved_from env rhs v c2) l v)
                   (fun _ c4 => (Ok (None, env), c4))))
      | SReturn _ e => andthen (c_eval R C n env e c) (fun v c1 => (Ok (Some v, env), c1))
      | SExpr e => andthen (c_eval R C n env e c) (fun _ c1 => (Ok (None, env), c1))
      | SSeq a b =>
          andthen (c_exec R C n env a c) (fun r c1 =>
            match fst r with
            | Some v => (Ok r, c1)
            | None => c_exec R C n (snd r) b c1
            end)
      | SIf e a b =>
          andthen (c_eval R C n env e c) (fun v c1 =>
            if r_truth R v then c_exec R C n env a c1 else c_exec R C n env b c1)
      | SWhile e b =>
          andthen (c_eval R C n env e c) (fun v c1 =>
            if r_truth R v then
              andthen (c_exec R C n env b c1) (fun r c2 =>
                match fst r with
                | Some w => (Ok r, c2)
                | None => c_exec R C n (snd r) (SWhile e b) c2
                end)
            else (Ok (None, env), c1))
      end
  end.

(** A call from outside: the arguments are held by the caller, a [const T&]
    parameter refers to the caller's, a [T] parameter is a copy
    (PrintPackedFunctionMacro, src/codegen/codegen_c.cc:251-). *)
Fixpoint hold {R : rt} (ps : list (nat * ty * bool)) (vs : list (vl R)) (c : cst R)
  : list (bool * loc (vl R)) * cst R :=
  match ps, vs with
  | p :: ps', v :: vs' =>
      let q := push c v in
      let r := hold ps' vs' (snd q) in
      ((snd p, LSlot (fst q)) :: fst r, snd r)
  | _, _ => ([], c)
  end.

Definition c_run (R : rt) (C : list (cfunc (vl R))) (fuel : nat) (f : nat) (vs : list (vl R))
  (s : st R) : res (vl R) * st R :=
  match nth_error C f with
  | None => (OOB, s)
  | Some g =>
      if (length vs =? length (c_params g))%nat then
        let h := hold (c_params g) vs
                   {| c_mem := fun _ => r_default R; c_nxt := 0; c_st := s |} in
        let r := andthen (c_exec R C fuel (bind_params (c_params g) (fst h)) (c_body g) (snd h))
                   (fun r c2 => (Ok (match fst r with Some v => v | None => r_none R end), c2)) in
        (fst r, c_st (snd r))
      else (OOB, s)
  end.

(** ** Overriding methods *)

(** A class: its methods by name (a number), each with the function it is
    compiled from; the first parameter is [self].  A hierarchy is listed from
    the class of the object up to its last base. *)
Record meth (V : Type) := { m_name : nat; m_fn : func V }.
Arguments m_name {V}. Arguments m_fn {V}.
Definition class (V : Type) := list (meth V).

(** The parameter list printed for a virtual method, first parameter skipped:
    types, each [T] or [const T&] (DefineUserStruct,
    src/codegen/codegen_c_host.cc:341-366, over the function RunOptimizations
    returned, 1632-1640). *)
Definition signature {V} (m : meth V) : list (ty * bool) :=
  map (fun p => (snd (fst p), snd p)) (tl (c_params (fa_run (m_fn m)))).

Definition ty_eqb (a b : ty) : bool :=
  match a, b with
  | TPrim, TPrim => true
  | TTensor, TTensor => true
  | TOther n, TOther m => (n =? m)%nat
  | _, _ => false
  end.

Fixpoint sig_eqb (a b : list (ty * bool)) : bool :=
  match a, b with
  | [], [] => true
  | (t, r) :: a', (t', r') :: b' => (ty_eqb t t' && Bool.eqb r r' && sig_eqb a' b')%bool
  | _, _ => false
  end.

Definition find_method {V} (ok : meth V -> bool) (c : class V) : option (meth V) := find ok c.

(** The first class of the chain with such a method: its place and the method. *)
Fixpoint first_with {V} (ok : meth V -> bool) (chain : list (class V)) : option (nat * meth V) :=
  match chain with
  | [] => None
  | c :: chain' =>
      match find_method ok c with
      | Some m => Some (O, m)
      | None => match first_with ok chain' with
                | Some (k, m) => Some (S k, m)
                | None => None
                end
      end
  end.

(** [obj.name(...)] where the variable's class is the one at place [static] of
    the chain: C++ looks the name up from that class upwards and takes the
    signature found, and the virtual call runs the first method of that name
    and signature from the class of the object upwards. *)
Definition virtual_call {V} (chain : list (class V)) (static : nat) (name : nat)
  : option (nat * meth V) :=
  match first_with (fun m => (m_name m =? name)%nat) (skipn static chain) with
  | None => None
  | Some (_, d) =>
      first_with (fun m => ((m_name m =? name)%nat && sig_eqb (signature m) (signature d))%bool) chain
  end.

(** InheritencyConsistencyCheck.run_impl,
    python/matx/script/analysis/inheritence_consistency_check.py:54-85: methods
    of one name must have the same parameter types in every class of the chain. *)
Definition consistent {V} (chain : list (class V)) : bool :=
  let ms := concat chain in
  forallb (fun m => forallb (fun m' =>
    (negb (m_name m =? m_name m')%nat
     || sig_eqb (map (fun p => (snd p, true)) (tl (f_params (m_fn m))))
                (map (fun p => (snd p, true)) (tl (f_params (m_fn m')))))%bool) ms) ms.
