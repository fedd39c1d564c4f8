(** C48: the function that the script compiler makes of a Python function does what the Python
    function does.  Syntax: ScriptAst; what Python does: [py_run], ScriptSpec; what the
    compiler does: [compile_fun], and what the generated code does: [c_run], ScriptModel. *)
From Verif Require Import Base IntModel KeyModel FoldModel ScriptAst ScriptSpec ScriptModel ScriptProofs ScriptSim.

(** For all functions of int, bool and str (assignments, if, while, for over a range, break,
    continue, return, raise, try), all arguments of the annotated types, all constants of the
    module and any number of turns: the compiled function returns the same value, raises the
    same exception, or is running as long as the Python function.

    [py_run true ... <> UB] says that the execution in Python stays within the claim: integers
    fit in 64 bits, the step of a range is not 0, expressions that raise have no constant parts
    that could swallow the exception ([calm]).  Missing, therefore the suffix: the conditions
    [no_extras], [steady_bounds], constants that share the name of a local variable, and
    variables whose type changes in an inner block (the compiler is asked to accept the
    function even if it takes every variable for live); each is refuted below, the last in
    C49. *)
Theorem C48_compiled_function_is_python_function_partial :
  forall (same : expr -> expr -> bool) (glob : nat -> option pval) (live : nat -> bool) (f : pfun)
         (c : cblock) (n : nat) (args : list pval),
    compile_fun same glob (fun _ => true) f = Ok c ->
    no_extras (body f) = true ->
    steady_bounds (local f) (body f) = true ->
    (forall x, local f x = true -> glob x = None) ->
    Forall2 (fun p a => fits (snd p) a) (params f) args ->
    py_run true n glob f args <> UB ->
    compile_fun same glob live f = Ok c /\
    same_outcome (ret f) (py_run false n glob f args) (c_run n c args).
Proof. intros. split; [apply live_irrelevant_fun; assumption|eapply function_sim; eassumption]. Qed.
Print Assumptions C48_compiled_function_is_python_function_partial.

(** Within the claim the generated code has no undefined behaviour: no overflow, no read of a
    variable that was not initialised, no end of the function without a return. *)
Theorem C48_no_undefined_behaviour_partial :
  forall same glob f c n args,
    compile_fun same glob (fun _ => true) f = Ok c ->
    no_extras (body f) = true -> steady_bounds (local f) (body f) = true ->
    (forall x, local f x = true -> glob x = None) ->
    Forall2 (fun p a => fits (snd p) a) (params f) args ->
    py_run true n glob f args <> UB ->
    c_run n c args <> UB.
Proof.
  intros same glob f c n args C NE SB GL A NU. assert (O := function_sim same glob f c n args C NE SB GL A NU).
  destruct (py_run false n glob f args); cbn in O.
  - destruct O as (w & -> & _). discriminate.
  - rewrite O. discriminate.
  - contradiction.
  - rewrite O. discriminate.
Qed.
Print Assumptions C48_no_undefined_behaviour_partial.

(** The monitor of the claim changes nothing else. *)
Theorem C48_monitor_changes_nothing :
  forall n glob f args, py_run true n glob f args <> UB -> py_run false n glob f args = py_run true n glob f args.
Proof. exact monitor_silent. Qed.
Print Assumptions C48_monitor_changes_nothing.

(** ** Examples *)
Fixpoint block (l : list pstmt) : pblock := match l with [] => BNil | s :: l => BCons s (block l) end.
Definition no_glob : nat -> option pval := fun _ => None.
Definition differ : expr -> expr -> bool := fun _ _ => false.
Definition v (x : nat) : pexp := XName x.
Definition eq0 (x : nat) : pexp := XCmp (v x) PEq (XInt 0) TEnd.

(** def collatz(a: int) -> int: counts, with a try, a for, a while and a string *)
Definition ex_fun : pfun := {| params := [(0%nat, TI)]; ret := TI; body := block
  [ SAssign 0 1 (XInt 0);
    SAssign 1 2 (XStr [120]);
    SWhile (XCmp (v 0) PNe (XInt 1) TEnd) (block
      [ SIf (XCmp (XBin PMod (v 0) (XInt 2)) PEq (XInt 0) TEnd)
          (block [SAssign 2 0 (XBin PFloorDiv (v 0) (XInt 2))])
          (block [SAssign 3 0 (XBin PAdd (XBin PMul (XInt 3) (v 0)) (XInt 1))]);
        SAug 4 1 PAdd (XInt 1);
        SIf (XCmp (v 1) PGt (XInt 1000) TEnd) (block [SBreak]) BNil ]) BNil;
    STry (block
      [ SFor 3 (RStep (v 1) (XInt 0) (XInt (-1))) (block
          [ SIf (XNot (XCmp (XBin PMod (XInt 7) (v 3)) PNe (XInt 0) TEnd)) (block [SContinue]) BNil;
            SAssign 5 1 (XBin PAdd (v 1) (XBin PFloorDiv (v 3) (XBin PSub (v 3) (XInt 4)))) ]) BNil ])
      None (block [ SAug 6 2 PAdd (XStr [121]); SAssign 7 1 (XBin PSub (v 1) (XInt 100)) ]) BNil BNil;
    SReturn (v 1) ] |}.
Example C48_example :
  exists c, compile_fun differ no_glob (fun _ => true) ex_fun = Ok c /\
    no_extras (body ex_fun) = true /\ steady_bounds (local ex_fun) (body ex_fun) = true /\
    (forall x, local ex_fun x = true -> no_glob x = None) /\
    Forall2 (fun p a => fits (snd p) a) (params ex_fun) [VInt 6] /\
    py_run true 50 no_glob ex_fun [VInt 6] = Ok (VInt (-82)) /\
    c_run 50 c [VInt 6] = Ok (CVP (VI (CI true 64) (-82))).
Proof.
  eexists. split; [vm_compute; reflexivity|]. split; [reflexivity|]. split; [vm_compute; reflexivity|]. split; [reflexivity|]. split.
  { constructor; [unfold fits, int64, two63; cbn; lia|constructor]. }
  split; vm_compute; reflexivity.
Qed.

(** ** What is not so *)

(** A variable that is the stop of a range is read again before every turn.
    def f(a): s = 0; for i in range(a): a = a - 1; s = s + 1; return s *)
Definition bound_fun : pfun := {| params := [(0%nat, TI)]; ret := TI; body := block
  [ SAssign 0 1 (XInt 0);
    SFor 2 (RStop (v 0)) (block [SAssign 1 0 (XBin PSub (v 0) (XInt 1)); SAug 2 1 PAdd (XInt 1)]) BNil;
    SReturn (v 1) ] |}.
Theorem C48_range_bound_refuted :
  exists c, (forall live, compile_fun differ no_glob live bound_fun = Ok c) /\
    no_extras (body bound_fun) = true /\
    py_run true 20 no_glob bound_fun [VInt 10] = Ok (VInt 10) /\
    c_run 20 c [VInt 10] = Ok (CVP (VI (CI true 64) 5)).
Proof.
  eexists. split; [intros live; apply live_irrelevant_fun; vm_compute; reflexivity|]. split; [reflexivity|]. split; vm_compute; reflexivity.
Qed.
Print Assumptions C48_range_bound_refuted.

(** The same through a step of 0 added to the variable, which the compiler folds away. *)
Definition bound_fun' : pfun := {| params := [(0%nat, TI)]; ret := TI; body := block
  [ SAssign 0 1 (XInt 0);
    SFor 2 (RStop (XBin PAdd (v 0) (XInt 0))) (block [SAssign 1 0 (XBin PSub (v 0) (XInt 1)); SAug 2 1 PAdd (XInt 1)]) BNil;
    SReturn (v 1) ] |}.
Theorem C48_folded_range_bound_refuted :
  exists c, (forall live, compile_fun differ no_glob live bound_fun' = Ok c) /\
    py_run true 20 no_glob bound_fun' [VInt 10] = Ok (VInt 10) /\
    c_run 20 c [VInt 10] = Ok (CVP (VI (CI true 64) 5)).
Proof.
  eexists. split; [intros live; apply live_irrelevant_fun; vm_compute; reflexivity|]. split; vm_compute; reflexivity.
Qed.
Print Assumptions C48_folded_range_bound_refuted.

(** A step of 0 is a ValueError in Python.  In C++ a step that is a variable makes no turn (or
    endless ones), a step that is a constant makes endless turns: for every bound on the
    number of turns the loop is still running. *)
Definition step_fun : pfun := {| params := [(0%nat, TI)]; ret := TI; body := block
  [ SAssign 0 1 (XInt 0);
    SFor 2 (RStep (XInt 0) (XInt 5) (v 0)) (block [SAug 1 1 PAdd (XInt 1)]) BNil;
    SReturn (v 1) ] |}.
Definition step0_fun : pfun := {| params := []; ret := TI; body := block
  [ SFor 2 (RStep (XInt 0) (XInt 5) (XInt 0)) (block [SPass]) BNil; SReturn (XInt 1) ] |}.
Lemma step0_loop n k m : m 0%nat = Some (CVP (VI (CI true 64) 0)) ->
  cfor 0 1 (EInt (DInt 64) 5) (EInt (DInt 64) 0) (cexec n None (CCons (CSeq CNil) CNil)) k m = @ScriptSpec.OFuel store cv.
Proof.
  revert m. induction k as [|k IH]; intros m M.
  - assert (C : for_cond m 0 (EInt (DInt 64) 5) (EInt (DInt 64) 0) = Ok true) by (unfold for_cond, cleaf; rewrite M; reflexivity).
    cbn [cfor]. rewrite C. reflexivity.
  - assert (C : for_cond m 0 (EInt (DInt 64) 5) (EInt (DInt 64) 0) = Ok true) by (unfold for_cond, cleaf; rewrite M; reflexivity).
    assert (L : cleaf m 0 = Ok (VI (CI true 64) 0)) by (unfold cleaf; rewrite M; reflexivity).
    assert (N : for_next (supd m 1 (CVP (VI (CI true 64) 0))) 0 (EInt (DInt 64) 0) = Ok (CVP (VI (CI true 64) 0)))
      by (unfold for_next, cleaf; rewrite supd_other by discriminate; rewrite M; reflexivity).
    cbn [cfor]. rewrite C. cbn [withc]. rewrite L. cbn [withc]. rewrite cx_cons.
    change (cexec_s n None (CSeq CNil) (supd m 1 (CVP (VI (CI true 64) 0)))) with (@ScriptSpec.ONext store cv (supd m 1 (CVP (VI (CI true 64) 0)))).
    cbn [cexec]. rewrite N. cbn [withc]. apply IH, supd_same.
Qed.
Theorem C48_zero_step_refuted :
  (exists c, (forall live, compile_fun differ no_glob live step_fun = Ok c) /\
     py_run false 20 no_glob step_fun [VInt 0] = Exn ValueError /\
     c_run 20 c [VInt 0] = Ok (CVP (VI (CI true 64) 0))) /\
  (exists c, (forall live, compile_fun differ no_glob live step0_fun = Ok c) /\
     (forall n, py_run false n no_glob step0_fun [] = Exn ValueError) /\
     (forall n, c_run n c [] = OutOfFuel)).
Proof.
  split.
  - eexists. split; [intros live; apply live_irrelevant_fun; vm_compute; reflexivity|]. split; vm_compute; reflexivity.
  - eexists. split; [intros live; apply live_irrelevant_fun; vm_compute; reflexivity|]. split; [reflexivity|].
    intros n. unfold c_run. rewrite cx_cons, cx_seq3.
    do 3 (change (cexec_s n None (CSeq CNil) (c_args 0 [])) with (@ScriptSpec.ONext store cv (c_args 0 [])); cbv iota beta). rewrite cx_for.
    change (cstore (c_args 0 []) TI (CP (EInt (DInt 64) 0))) with (Ok (CVP (VI (CI true 64) 0))).
    cbn [withc]. rewrite step0_loop by apply supd_same. reflexivity.
Qed.
Print Assumptions C48_zero_step_refuted.

(** The counter of the loop goes past the last value by one step: signed overflow, although
    all values of the range and all values in the Python function fit in 64 bits. *)
Definition count_fun : pfun := {| params := [(0%nat, TI)]; ret := TI; body := block
  [ SAssign 0 1 (XInt 0);
    SFor 2 (RStep (v 0) (XInt 9223372036854775807) (XInt 10)) (block [SAug 1 1 PAdd (XInt 1)]) BNil;
    SReturn (v 1) ] |}.
Theorem C48_counter_overflow_refuted :
  exists c, (forall live, compile_fun differ no_glob live count_fun = Ok c) /\
    no_extras (body count_fun) = true /\ steady_bounds (local count_fun) (body count_fun) = true /\
    py_run false 20 no_glob count_fun [VInt 9223372036854775800] = Ok (VInt 1) /\
    c_run 20 c [VInt 9223372036854775800] = UB.
Proof.
  eexists. split; [intros live; apply live_irrelevant_fun; vm_compute; reflexivity|]. split; [reflexivity|].
  split; [vm_compute; reflexivity|]. split; vm_compute; reflexivity.
Qed.
Print Assumptions C48_counter_overflow_refuted.

(** A local name that has no value yet is taken for a constant of the module with that name.
    a = 7
    def f(): b = a; a = 1; return b *)
Definition glob_fun : pfun := {| params := []; ret := TI; body := block
  [ SAssign 0 1 (v 0); SAssign 1 0 (XInt 1); SReturn (v 1) ] |}.
Theorem C48_module_constant_refuted :
  exists c, (forall live, compile_fun differ (fun x => if Nat.eqb x 0 then Some (VInt 7) else None) live glob_fun = Ok c) /\
    no_extras (body glob_fun) = true /\ steady_bounds (local glob_fun) (body glob_fun) = true /\
    py_run true 20 (fun x => if Nat.eqb x 0 then Some (VInt 7) else None) glob_fun [] = Exn NameError /\
    c_run 20 c [] = Ok (CVP (VI (CI true 64) 7)).
Proof.
  eexists. split; [intros live; apply live_irrelevant_fun; vm_compute; reflexivity|]. split; [reflexivity|].
  split; [vm_compute; reflexivity|]. split; vm_compute; reflexivity.
Qed.
Print Assumptions C48_module_constant_refuted.

(** In the body of a loop nothing is checked: the else part of a loop, the else and finally
    parts of a try and the class of an except are dropped. *)
Definition in_loop (l : list pstmt) : pfun := {| params := [(0%nat, TI)]; ret := TI; body := block
  [ SAssign 0 1 (XInt 0); SFor 2 (RStop (XInt 2)) (block l) BNil; SReturn (v 1) ] |}.
Definition add1 (n : nat) (z : Z) : pblock := block [SAug n 1 PAdd (XInt z)].
Definition else_fun : pfun := in_loop [SFor 3 (RStop (XInt 2)) (add1 1 1) (add1 2 10)].
Definition finally_fun : pfun := in_loop [STry (add1 1 1) None (block [SPass]) BNil (add1 2 10)].
Definition try_else_fun : pfun := in_loop [STry (add1 1 1) None (block [SPass]) (add1 2 10) BNil].
Definition except_fun : pfun := in_loop [STry (block [SRaise (Some KeyError)]) (Some IndexError) (add1 2 10) BNil BNil].
Definition gives (f : pfun) (py : res pval) (c : res cv) : Prop :=
  exists b, (forall live, compile_fun differ no_glob live f = Ok b) /\
    steady_bounds (local f) (body f) = true /\
    py_run true 20 no_glob f [VInt 0] = py /\ c_run 20 b [VInt 0] = c.
Theorem C48_dropped_clauses_refuted :
  gives else_fun (Ok (VInt 24)) (Ok (CVP (VI (CI true 64) 4))) /\
  gives finally_fun (Ok (VInt 22)) (Ok (CVP (VI (CI true 64) 2))) /\
  gives try_else_fun (Ok (VInt 22)) (Ok (CVP (VI (CI true 64) 2))) /\
  gives except_fun (Exn KeyError) (Ok (CVP (VI (CI true 64) 20))).
Proof.
  repeat split; (eexists; split; [intros live; apply live_irrelevant_fun; vm_compute; reflexivity|];
    split; [vm_compute; reflexivity|]; split; vm_compute; reflexivity).
Qed.
Print Assumptions C48_dropped_clauses_refuted.

(** Outside loops the compiler refuses them. *)
Definition outside : pfun := {| params := [(0%nat, TI)]; ret := TI; body := block
  [ SAssign 0 1 (XInt 0); STry (add1 1 1) None (block [SPass]) BNil (add1 2 10); SReturn (v 1) ] |}.
Example C48_refused_outside_loops : forall live, compile_fun differ no_glob live outside = Exn TypeError.
Proof. reflexivity. Qed.

(** A factor 0 swallows the exception of the other factor: def f(a): return 0 * (1 // a) *)
Definition zero_fun : pfun := {| params := [(0%nat, TI)]; ret := TI; body := block
  [ SReturn (XBin PMul (XInt 0) (XBin PFloorDiv (XInt 1) (v 0))) ] |}.
Theorem C48_lost_exception_refuted :
  gives zero_fun UB (Ok (CVP (VI (CI true 64) 0))) /\ py_run false 20 no_glob zero_fun [VInt 0] = Exn ZeroDivisionError.
Proof.
  split; [|vm_compute; reflexivity]. eexists; split; [intros live; apply live_irrelevant_fun; vm_compute; reflexivity|].
  split; [vm_compute; reflexivity|]; split; vm_compute; reflexivity.
Qed.
Print Assumptions C48_lost_exception_refuted.
