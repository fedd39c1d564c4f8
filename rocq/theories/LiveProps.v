(** C49: the analysis of live variables, on whose word the compiler lets an assignment change
    the type of a variable, is right about the variables it calls dead.  Model of the analysis:
    LiveModel; paths and programs: LiveSpec; what Python does: [py_run], ScriptSpec. *)
From Verif Require Import Base IntModel KeyModel FoldModel ScriptAst ScriptSpec ScriptModel ScriptProofs ScriptProps LiveModel LiveSpec LiveProofs.

(** For every graph the iteration comes to an end, and a variable is in the result for a block
    exactly if some path from the end of that block reads it before anything writes it. *)
Theorem C49_live_out_is_liveness :
  forall g : graph, exists L, live_out g = Ok L /\ length L = length g /\
    forall i x, In x (nth i L []) <-> needed g x i.
Proof. exact live_out_exact. Qed.
Print Assumptions C49_live_out_is_liveness.

(** The verdict on an assignment is that of the end of its block in the graph. *)
Theorem C49_verdict_is_liveness :
  forall f n i b it x, NoDup (numbers (body f)) ->
    nth_error (cfg f) i = Some b -> In it (items b) -> In (n, x) (marks it) ->
    (verdict f n = true <-> needed (cfg f) x i).
Proof. exact verdict_exact. Qed.
Print Assumptions C49_verdict_is_liveness.

(** If the verdict on the assignment number [n], to [x], is that [x] is dead, then at the end of
    the block of that assignment [x] can be given any value: the function does the same, for
    all arguments and for any number of turns.  Missing: functions with a try or with an else
    on a loop, and variables that are targets of a for; refuted below for try and for. *)
Theorem C49_dead_variable_does_not_matter_partial :
  forall (f : pfun) (n x : nat) (e : pexp) (k : nat) (glob : nat -> option pval) (args : list pval),
    NoDup (numbers (body f)) ->
    tame x (body f) = true ->
    literal e = true ->
    verdict f n = false ->
    py_run false k glob (overwritten n x e f) args = py_run false k glob f args.
Proof. exact dead_overwrite. Qed.
Print Assumptions C49_dead_variable_does_not_matter_partial.

(** def f(a: int) -> int:
      s = 0; t = 0
      for i in range(a):
        t = i * i
        if t > 10: t = t - 3; s = s + t; continue
        else: s = s + 1; t = s
        u = t
      return s
    The variable t is live after its first assignment in the loop, dead at the ends of both
    branches but for u = t after the else part. *)
Definition live_fun : pfun := {| params := [(0%nat, TI)]; ret := TI; body := block
  [ SAssign 0 1 (XInt 0);
    SAssign 1 2 (XInt 0);
    SFor 3 (RStop (v 0)) (block
      [ SAssign 2 2 (XBin PMul (v 3) (v 3));
        SIf (XCmp (v 2) PGt (XInt 10) TEnd)
          (block [SAssign 3 2 (XBin PSub (v 2) (XInt 3)); SAssign 4 1 (XBin PAdd (v 1) (v 2)); SContinue])
          (block [SAssign 5 1 (XBin PAdd (v 1) (XInt 1)); SAssign 6 2 (v 1); SPass]);
        SAssign 7 4 (v 2) ]) BNil;
    SReturn (v 1) ] |}.
Example C49_example :
  NoDup (numbers (body live_fun)) /\ tame 2 (body live_fun) = true /\ tame 4 (body live_fun) = true /\ literal (XStr [97]) = true /\
  map (verdict live_fun) [1; 2; 3; 6; 7]%nat = [false; true; false; true; false] /\
  overwrite 7 4 (XStr [97]) (body live_fun) <> body live_fun /\
  py_run false 20 no_glob live_fun [VInt 6] = Ok (VInt 39) /\
  py_run false 20 no_glob (overwritten 7 4 (XStr [97]) live_fun) [VInt 6] = Ok (VInt 39) /\
  verdict live_fun 5 = true /\
  py_run false 20 no_glob (overwritten 5 1 (XInt 100) live_fun) [VInt 6] = Ok (VInt 135).
Proof.
  split; [cbn; repeat constructor; cbn; intuition congruence|]. repeat (split; [vm_compute; reflexivity|]). split; [discriminate|].
  repeat (split; [vm_compute; reflexivity|]). vm_compute; reflexivity.
Qed.

(** ** What is not so *)

(** With a try the verdict can be dead for a variable that is read: the end of the body of the
    try leads, in the graph, only to the handler.
    def f(): x = 1
             try: x = 2
             except: return 0
             return x *)
Definition try_fun : pfun := {| params := []; ret := TI; body := block
  [ SAssign 0 1 (XInt 1);
    STry (block [SAssign 1 1 (XInt 2)]) None (block [SReturn (XInt 0)]) BNil BNil;
    SReturn (v 1) ] |}.
Theorem C49_try_refuted :
  NoDup (numbers (body try_fun)) /\ no_extras (body try_fun) = true /\ verdict try_fun 1 = false /\
  py_run false 20 no_glob try_fun [] = Ok (VInt 2) /\
  py_run false 20 no_glob (overwritten 1 1 (XInt 7) try_fun) [] = Ok (VInt 7).
Proof.
  split; [cbn; repeat constructor; cbn; intuition congruence|]. repeat (split; [vm_compute; reflexivity|]). vm_compute; reflexivity.
Qed.
Print Assumptions C49_try_refuted.

(** The head of a for is taken to write its variable, even if the loop makes no turn.
    def f(a: int): x = 1
                   if a == 0: x = 2
                   for x in range(a): pass
                   return x *)
Definition target_fun : pfun := {| params := [(0%nat, TI)]; ret := TI; body := block
  [ SAssign 0 1 (XInt 1);
    SIf (eq0 0) (block [SAssign 1 1 (XInt 2)]) BNil;
    SFor 1 (RStop (v 0)) (block [SPass]) BNil;
    SReturn (v 1) ] |}.
Theorem C49_for_target_refuted :
  NoDup (numbers (body target_fun)) /\ no_extras (body target_fun) = true /\ verdict target_fun 1 = false /\
  py_run false 20 no_glob target_fun [VInt 0] = Ok (VInt 2) /\
  py_run false 20 no_glob (overwritten 1 1 (XInt 7) target_fun) [VInt 0] = Ok (VInt 7).
Proof.
  split; [cbn; repeat constructor; cbn; intuition congruence|]. repeat (split; [vm_compute; reflexivity|]). vm_compute; reflexivity.
Qed.
Print Assumptions C49_for_target_refuted.

(** On a dead verdict the compiler declares a new variable of the new type in the inner block.
    The verdict is that of the end of the block of the graph, the new variable lasts until the
    end of the block of the program: a later assignment there goes to the new variable, and
    after the block the old one is read.
    def f(a: bool) -> int:
      x = 1
      if a:
        x = 'a'
        if a: pass
        x = 5
      return x
    gives 5 in Python and 1 compiled. *)
Definition retyped : pfun := {| params := [(0%nat, TB)]; ret := TI; body := block
  [ SAssign 0 1 (XInt 1);
    SIf (v 0) (block
      [ SAssign 1 1 (XStr [97]);
        SIf (v 0) (block [SPass]) BNil;
        SAssign 2 1 (XInt 5) ]) BNil;
    SReturn (v 1) ] |}.
Theorem C49_retyped_variable_refuted :
  exists c, compile_function differ no_glob retyped = Ok c /\
    no_extras (body retyped) = true /\ steady_bounds (local retyped) (body retyped) = true /\
    tame 1 (body retyped) = true /\ map (verdict retyped) [0; 1; 2]%nat = [true; false; true] /\
    py_run true 20 no_glob retyped [VBool true] = Ok (VInt 5) /\
    c_run 20 c [VBool true] = Ok (CVP (VI (CI true 64) 1)).
Proof. eexists. split; [vm_compute; reflexivity|]. repeat (split; [vm_compute; reflexivity|]). vm_compute; reflexivity. Qed.
Print Assumptions C49_retyped_variable_refuted.

(** The same in the body of a try, where every variable is taken for dead.
    def f() -> int:
      x = 1
      try: x = 'a'; x = 5
      except: return 0
      return x *)
Definition retyped_try : pfun := {| params := []; ret := TI; body := block
  [ SAssign 0 1 (XInt 1);
    STry (block [SAssign 1 1 (XStr [97]); SAssign 2 1 (XInt 5)]) None (block [SReturn (XInt 0)]) BNil BNil;
    SReturn (v 1) ] |}.
Theorem C49_retyped_in_try_refuted :
  exists c, compile_function differ no_glob retyped_try = Ok c /\
    no_extras (body retyped_try) = true /\ steady_bounds (local retyped_try) (body retyped_try) = true /\
    map (verdict retyped_try) [0; 1; 2]%nat = [false; false; false] /\
    py_run true 20 no_glob retyped_try [] = Ok (VInt 5) /\
    c_run 20 c [] = Ok (CVP (VI (CI true 64) 1)).
Proof. eexists. split; [vm_compute; reflexivity|]. repeat (split; [vm_compute; reflexivity|]). vm_compute; reflexivity. Qed.
Print Assumptions C49_retyped_in_try_refuted.
