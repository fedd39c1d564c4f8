(** What a script function means in Python: every parameter is a variable of
    the called function, an assignment binds a name or sets an attribute. *)
From Coq Require Import List ZArith Bool PeanoNat.
From Verif Require Import Base OpModel.
Import ListNotations.

(** ** Python's meaning *)

Definition penv (R : rt) := nat -> option (vl R).

Fixpoint py_bind {V} (ps : list (nat * ty)) (vs : list V) : nat -> option V :=
  match ps, vs with
  | p :: ps', v :: vs' => fun x => if (x =? fst p)%nat then Some v else py_bind ps' vs' x
  | _, _ => fun _ => None
  end.

(** Values of expressions and effects of statements; the fuel bounds the depth
    of the evaluation (running out is a result of its own). *)
Fixpoint py_eval (R : rt) (P : prog (vl R)) (fuel : nat) (env : penv R)
  (e : expr (vl R)) (s : st R) {struct fuel} : res (vl R) * st R :=
  match e with
  | EVar x => match env x with Some v => (Ok v, s) | None => (OOB, s) end
  | EConst v => (Ok v, s)
  | _ =>
      match fuel with
      | O => (OutOfFuel, s)
      | S n =>
          match e with
          | EAttr e1 a =>
              andthen (py_eval R P n env e1 s) (fun o s1 => (r_get R s1 o a, s1))
          | EOp o es => andthen (each (py_eval R P n env) es s) (fun vs s1 => r_op R o vs s1)
          | ECall f es =>
              match nth_error P f with
              | None => (OOB, s)
              | Some g =>
                  if (length es =? length (f_params g))%nat then
                    andthen (each (py_arg R P n env) es s) (fun vs s1 =>
                      andthen (py_exec R P n (py_bind (f_params g) vs) (f_body g) s1)
                        (fun r s2 =>
                           (Ok (match fst r with Some v => v | None => r_none R end), s2)))
                  else (OOB, s)
              end
          | EMove e1 => py_eval R P n env e1 s
          | _ => (OOB, s)
          end
      end
  end
(** An argument of a call: its value. *)
with py_arg (R : rt) (P : prog (vl R)) (fuel : nat) (env : penv R)
  (e : expr (vl R)) (s : st R) {struct fuel} : res (vl R) * st R :=
  match e with
  | EVar x => match env x with Some v => (Ok v, s) | None => (OOB, s) end
  | EConst v => (Ok v, s)
  | _ => match fuel with O => (OutOfFuel, s) | S n => py_eval R P n env e s end
  end
with py_exec (R : rt) (P : prog (vl R)) (fuel : nat) (env : penv R)
  (p : stmt (vl R)) (s : st R) {struct fuel} : res (option (vl R) * penv R) * st R :=
  match fuel with
  | O => (OutOfFuel, s)
  | S n =>
      match p with
      | SNop => (Ok (None, env), s)
      | SAlloca _ x None => (Ok (None, fupd env x (Some (r_default R))), s)
      | SAlloca _ x (Some e) =>
          andthen (py_eval R P n env e s) (fun v s1 => (Ok (None, fupd env x (Some v)), s1))
      | SAssign _ lhs rhs =>
          andthen (py_eval R P n env rhs s) (fun v s1 =>
            match lhs with
            | EVar x => match env x with
                        | Some _ => (Ok (None, fupd env x (Some v)), s1)
                        | None => (OOB, s1)
                        end
            | EAttr e1 a =>
                andthen (py_eval R P n env e1 s1) (fun o s2 =>
                  match r_set R s2 o a v with
                  | Ok s3 => (Ok (None, env), s3)
                  | Exn x => (Exn x, s2)
                  | OOB => (OOB, s2)
                  | OutOfFuel => (OutOfFuel, s2)
                  end)
            | _ => (OOB, s1)
            end)
      | SReturn _ e => andthen (py_eval R P n env e s) (fun v s1 => (Ok (Some v, env), s1))
      | SExpr e => andthen (py_eval R P n env e s) (fun _ s1 => (Ok (None, env), s1))
      | SSeq a b =>
          andthen (py_exec R P n env a s) (fun r s1 =>
            match fst r with
            | Some v => (Ok r, s1)
            | None => py_exec R P n (snd r) b s1
            end)
      | SIf e a b =>
          andthen (py_eval R P n env e s) (fun v s1 =>
            if r_truth R v then py_exec R P n env a s1 else py_exec R P n env b s1)
      | SWhile e b =>
          andthen (py_eval R P n env e s) (fun v s1 =>
            if r_truth R v then
              andthen (py_exec R P n env b s1) (fun r s2 =>
                match fst r with
                | Some w => (Ok r, s2)
                | None => py_exec R P n (snd r) (SWhile e b) s2
                end)
            else (Ok (None, env), s1))
      end
  end.

(** Calling function [f] of the module with values [vs]. *)
Definition py_run (R : rt) (P : prog (vl R)) (fuel : nat) (f : nat) (vs : list (vl R)) (s : st R)
  : res (vl R) * st R :=
  match nth_error P f with
  | None => (OOB, s)
  | Some g =>
      if (length vs =? length (f_params g))%nat then
        andthen (py_exec R P fuel (py_bind (f_params g) vs) (f_body g) s)
          (fun r s2 => (Ok (match fst r with Some v => v | None => r_none R end), s2))
      else (OOB, s)
  end.

(** ** Words used in the conditions *)

(** The variable is mentioned in the expression. *)
Inductive In_expr {V} (x : nat) : expr V -> Prop :=
| In_var : In_expr x (EVar x)
| In_attr e a : In_expr x e -> In_expr x (EAttr e a)
| In_op o es e : In e es -> In_expr x e -> In_expr x (EOp o es)
| In_call f es e : In e es -> In_expr x e -> In_expr x (ECall f es)
| In_move e : In_expr x e -> In_expr x (EMove e).

(** The body is straight-line code: declarations, assignments and returns. *)
Inductive straight {V} : stmt V -> list (stmt V) -> Prop :=
| st_nop : straight SNop []
| st_alloca id x i : straight (SAlloca id x i) [SAlloca id x i]
| st_assign id l r : straight (SAssign id l r) [SAssign id l r]
| st_return id e : straight (SReturn id e) [SReturn id e]
| st_seq a b la lb : straight a la -> straight b lb -> straight (SSeq a b) (la ++ lb).

(** The variable is mentioned in one such statement. *)
Inductive In_step {V} (x : nat) : stmt V -> Prop :=
| In_alloca_var id i : In_step x (SAlloca id x i)
| In_alloca_init id y e : In_expr x e -> In_step x (SAlloca id y (Some e))
| In_assign_l id l r : In_expr x l -> In_step x (SAssign id l r)
| In_assign_r id l r : In_expr x r -> In_step x (SAssign id l r)
| In_return id e : In_expr x e -> In_step x (SReturn id e).

(** The variable is given a new value somewhere in the statement. *)
Inductive Rebinds {V} (x : nat) : stmt V -> Prop :=
| Rb_alloca id i : Rebinds x (SAlloca id x i)
| Rb_assign id r : Rebinds x (SAssign id (EVar x) r)
| Rb_seq1 a b : Rebinds x a -> Rebinds x (SSeq a b)
| Rb_seq2 a b : Rebinds x b -> Rebinds x (SSeq a b)
| Rb_if1 c a b : Rebinds x a -> Rebinds x (SIf c a b)
| Rb_if2 c a b : Rebinds x b -> Rebinds x (SIf c a b)
| Rb_while c b : Rebinds x b -> Rebinds x (SWhile c b).

(** Parameter [x] of type [t] is handed over as [const T&]: it is neither a
    number nor an array and the function never rebinds it. *)
Definition By_ref {V} (f : func V) (x : nat) (t : ty) : Prop :=
  In (x, t) (f_params f) /\ t <> TPrim /\ t <> TTensor /\ ~ Rebinds x (f_body f).

(** Every call in the expression, statement or module satisfies [Q]. *)
Inductive Calls_e {V} (Q : nat -> list (expr V) -> Prop) : expr V -> Prop :=
| Ca_var x : Calls_e Q (EVar x)
| Ca_const v : Calls_e Q (EConst v)
| Ca_attr e a : Calls_e Q e -> Calls_e Q (EAttr e a)
| Ca_op o es : Forall (Calls_e Q) es -> Calls_e Q (EOp o es)
| Ca_call f es : Q f es -> Forall (Calls_e Q) es -> Calls_e Q (ECall f es).

Inductive Calls_s {V} (Q : nat -> list (expr V) -> Prop) : stmt V -> Prop :=
| Cs_nop : Calls_s Q SNop
| Cs_alloca id x : Calls_s Q (SAlloca id x None)
| Cs_alloca_init id x e : Calls_e Q e -> Calls_s Q (SAlloca id x (Some e))
| Cs_assign id l r : Calls_e Q l -> Calls_e Q r -> Calls_s Q (SAssign id l r)
| Cs_return id e : Calls_e Q e -> Calls_s Q (SReturn id e)
| Cs_expr e : Calls_e Q e -> Calls_s Q (SExpr e)
| Cs_seq a b : Calls_s Q a -> Calls_s Q b -> Calls_s Q (SSeq a b)
| Cs_if c a b : Calls_e Q c -> Calls_s Q a -> Calls_s Q b -> Calls_s Q (SIf c a b)
| Cs_while c b : Calls_e Q c -> Calls_s Q b -> Calls_s Q (SWhile c b).

(** A call hands no attribute over as [const T&]. *)
Definition Not_by_attr {V} (P : prog V) (f : nat) (es : list (expr V)) : Prop :=
  forall g i x t e a,
    nth_error P f = Some g ->
    nth_error (f_params g) i = Some (x, t) ->
    nth_error es i = Some (EAttr e a) -> ~ By_ref g x t.

(** The module hands no attribute over as [const T&].  (It contains no HLOMove:
    scripts have none.) *)
Definition Attributes_by_value {V} (P : prog V) : Prop :=
  Forall (fun f => Calls_s (Not_by_attr P) (f_body f)) P.

(** Statement [s] copies the parameter [a] to the variable or attribute on its left. *)
Inductive Copies {V} (a : nat) : stmt V -> Prop :=
| Cp_alloca id x : Copies a (SAlloca id x (Some (EVar a)))
| Cp_assign id l : Copies a (SAssign id l (EVar a)).

(** Argument [b] is mentioned left of the sign "=". *)
Inductive On_left {V} (b : nat) : stmt V -> Prop :=
| Ol_assign id l r : In_expr b l -> On_left b (SAssign id l r).

(** In straight-line functions, a statement that copies one parameter that is
    handed over by value and mentions another one on its left is the last to
    mention the parameter it copies. *)
Definition Copies_last {V} (f : func V) : Prop :=
  forall steps before s after a t b t',
    straight (f_body f) steps -> steps = before ++ s :: after ->
    In (a, t) (f_params f) -> t <> TPrim -> ~ By_ref f a t ->
    In (b, t') (f_params f) -> t' <> TPrim -> b <> a ->
    Copies a s -> On_left b s ->
    Forall (fun s' => ~ In_step a s') after.

(** Names of parameters differ, and so do the numbers of statements; a
    declaration introduces a new name. *)
Inductive Numbers {V} : stmt V -> list nat -> Prop :=
| Nu_nop : Numbers SNop []
| Nu_alloca id x i : Numbers (SAlloca id x i) [id]
| Nu_assign id l r : Numbers (SAssign id l r) [id]
| Nu_return id e : Numbers (SReturn id e) [id]
| Nu_expr e : Numbers (SExpr e) []
| Nu_seq a b la lb : Numbers a la -> Numbers b lb -> Numbers (SSeq a b) (la ++ lb)
| Nu_if c a b la lb : Numbers a la -> Numbers b lb -> Numbers (SIf c a b) (la ++ lb)
| Nu_while c b l : Numbers b l -> Numbers (SWhile c b) l.

Inductive Declares {V} (x : nat) : stmt V -> Prop :=
| De_alloca id i : Declares x (SAlloca id x i)
| De_seq1 a b : Declares x a -> Declares x (SSeq a b)
| De_seq2 a b : Declares x b -> Declares x (SSeq a b)
| De_if1 c a b : Declares x a -> Declares x (SIf c a b)
| De_if2 c a b : Declares x b -> Declares x (SIf c a b)
| De_while c b : Declares x b -> Declares x (SWhile c b).

Definition Well_formed {V} (P : prog V) : Prop :=
  Forall (fun f =>
    NoDup (map fst (f_params f)) /\
    (exists l, Numbers (f_body f) l /\ NoDup l) /\
    (forall x t, In (x, t) (f_params f) -> ~ Declares x (f_body f))) P.

(** ** Overriding: Python runs the method of the first class that has one of
    that name, whatever the class the variable was declared with. *)
Fixpoint py_method {V} (chain : list (class V)) (name : nat) : option (nat * meth V) :=
  match chain with
  | [] => None
  | c :: chain' =>
      match find (fun m => (m_name m =? name)%nat) c with
      | Some m => Some (O, m)
      | None => match py_method chain' name with
                | Some (k, m) => Some (S k, m)
                | None => None
                end
      end
  end.

(** Two methods rebind the same parameters, among those that are neither
    numbers nor arrays (the first, [self], left out). *)
Definition Rebind_alike {V} (m m' : meth V) : Prop :=
  forall i x y t,
    nth_error (tl (f_params (m_fn m))) i = Some (x, t) ->
    nth_error (tl (f_params (m_fn m'))) i = Some (y, t) ->
    t <> TPrim -> t <> TTensor ->
    (Rebinds x (f_body (m_fn m)) <-> Rebinds y (f_body (m_fn m'))).
