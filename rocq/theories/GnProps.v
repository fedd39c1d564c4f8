(** * C70: generator functions

    For a generator function: the object a call makes is a [make args ...], a for loop over it
    that makes at most k turns is [loop f g k o] (f large enough: the runs are deterministic,
    f only bounds their length), Python's values are [fst (py_run fuel p ...)].  The values of
    variables that are not assigned yet ([junk], [v0], [tmp]) are arbitrary. *)

From Coq Require Import ZArith List Bool Lia.
From Verif Require Import Base GnSpec GnModel GnProofs.
Import ListNotations.
Local Open Scope Z_scope.

(** A generator that ends hands a loop exactly Python's values, in order, and then stops. *)
Theorem C70_items_partial : forall params p g args v0 junk tmp fuel items s k,
  compile params p = Some g -> plain p = true ->
  py_run fuel p (call_vars params args junk) = (items, PNormal s) ->
  (length items <= k)%nat ->
  exists F o', forall f, (F <= f)%nat ->
    loop f g k (make args v0 junk tmp) = (items, LStopped o').
Proof.
  intros params p g args v0 junk tmp fuel items s k Hc Hp H Hk.
  destruct (start_ready params p g (make args v0 junk tmp) fuel items (PNormal s) Hc Hp
              (or_introl eq_refl) H) as (e & R & (o1 & -> & _) & _).
  destruct (compile_parts _ _ _ Hc) as (_ & G & _).
  destruct (loop_ready g _ items _ G R k) as (_ & B & _).
  destruct (B o1 eq_refl Hk) as [F HF]. exists F, (set_st (-1) o1). exact HF.
Qed.
Print Assumptions C70_items_partial.

(** Also of a generator that does not end, or fails later, a loop that is left after k turns
    has seen Python's first k values, if Python's generator has one value more. *)
Theorem C70_prefix_partial : forall params p g args v0 junk tmp fuel items out k,
  compile params p = Some g -> plain p = true ->
  py_run fuel p (call_vars params args junk) = (items, out) ->
  (k < length items)%nat ->
  exists F o', forall f, (F <= f)%nat ->
    loop f g k (make args v0 junk tmp) = (firstn k items, LLeft o').
Proof.
  intros params p g args v0 junk tmp fuel items out k Hc Hp H Hk.
  destruct (start_ready params p g (make args v0 junk tmp) fuel items out Hc Hp
              (or_introl eq_refl) H) as (e & R & _).
  destruct (compile_parts _ _ _ Hc) as (_ & G & _).
  destruct (loop_ready g e items _ G R k) as (A & _).
  destruct (A Hk) as (F & o' & HF & _). exists F, o'. exact HF.
Qed.
Print Assumptions C70_prefix_partial.

(** A generator that raises: the loop raises the same exception, but it has seen all values
    but the last. *)
Theorem C70_raises_partial : forall params p g args v0 junk tmp fuel items x k,
  compile params p = Some g -> plain p = true ->
  py_run fuel p (call_vars params args junk) = (items, PRaise x) ->
  (length items <= k)%nat ->
  exists F o', forall f, (F <= f)%nat ->
    loop f g k (make args v0 junk tmp) = (removelast items, LRaised x o').
Proof.
  intros params p g args v0 junk tmp fuel items x k Hc Hp H Hk.
  destruct (start_ready params p g (make args v0 junk tmp) fuel items (PRaise x) Hc Hp
              (or_introl eq_refl) H) as (e & R & (o1 & ->) & _).
  destruct (compile_parts _ _ _ Hc) as (_ & G & _).
  destruct (loop_ready g _ items _ G R k) as (_ & _ & C).
  destruct (C x o1 eq_refl Hk) as [F HF]. exists F, o1. exact HF.
Qed.
Print Assumptions C70_raises_partial.

(** Every generator without a range loop in a range loop, and without a name that is first
    assigned in a range loop, is compiled. *)
Theorem C70_compiles_partial : forall params p,
  codable false false p = true -> exists g, compile params p = Some g.
Proof.
  intros params p H. destruct (codable_compiles p false false 1 0 H) as (c & n & k & E & A & _).
  eexists. unfold compile. rewrite E, A. reflexivity.
Qed.
Print Assumptions C70_compiles_partial.

(** A generator with if, while, break, a hoisted bound and two yields:
      def g(n): a = 0
                for i in range(n, n * 2, 2):
                    if i == 7: break
                    yield i
                    while a < i: a = a + 3; yield a *)
Definition sample : stmt :=
  SSeq (SDecl 1 (fun _ => inl 0))
    (SFor 2 (BVar 0) (BExpr (fun s => inl (s 0%nat * 2))) 2
       (SSeq (SIf (fun s => inl (if s 2%nat =? 7 then 1 else 0)) SBreak SSkip)
          (SSeq (SYield (fun s => inl (s 2%nat)))
             (SWhile (fun s => inl (if s 1%nat <? s 2%nat then 1 else 0))
                (SSeq (SAssign 1 (fun s => inl (s 1%nat + 3))) (SYield (fun s => inl (s 1%nat)))))))).

Definition zero_vars : vars := fun _ => 0.

Example C70_items_example :
  codable false false sample = true /\ plain sample = true /\
  (exists s, py_run 20 sample (call_vars [0%nat] [5] zero_vars) = ([5; 3; 6], PNormal s)) /\
  (exists g o, compile [0%nat] sample = Some g /\
     loop 20 g 9 (make [5] 0 zero_vars (fun _ => 0)) = ([5; 3; 6], LStopped o)).
Proof.
  split; [reflexivity|]. split; [reflexivity|]. split.
  - eexists. vm_compute. reflexivity.
  - eexists _, _. split; [vm_compute; reflexivity|vm_compute; reflexivity].
Qed.

(** An endless generator: while 1: yield a; a = a + a *)
Definition doubling : stmt :=
  SWhile (fun _ => inl 1)
    (SSeq (SYield (fun s => inl (s 0%nat))) (SAssign 0 (fun s => inl (s 0%nat + s 0%nat)))).

Example C70_prefix_example :
  plain doubling = true /\
  fst (py_run 9 doubling (call_vars [0%nat] [3] zero_vars)) = [3; 6; 12; 24; 48; 96; 192] /\
  (exists g o, compile [0%nat] doubling = Some g /\
     loop 9 g 4 (make [3] 0 zero_vars (fun _ => 0)) = ([3; 6; 12; 24], LLeft o)).
Proof.
  split; [reflexivity|]. split; [vm_compute; reflexivity|].
  eexists _, _. split; [vm_compute; reflexivity|vm_compute; reflexivity].
Qed.

(** ** Where the compiled generator differs *)

(** A loop over a generator that another loop has left: the value that follows the last one
    the first loop has seen is lost.  Python's second loop begins with it. *)
Theorem C70_left_loop_refuted : forall params p g args v0 junk tmp fuel l x r s,
  compile params p = Some g -> plain p = true ->
  py_run fuel p (call_vars params args junk) = (l ++ x :: r, PNormal s) ->
  exists F o1 o2, forall f, (F <= f)%nat ->
    loop f g (length l) (make args v0 junk tmp) = (l, LLeft o1) /\
    loop f g (length r) o1 = (r, LStopped o2).
Proof.
  intros params p g args v0 junk tmp fuel l x r s Hc Hp H.
  destruct (start_ready params p g (make args v0 junk tmp) fuel _ (PNormal s) Hc Hp
              (or_introl eq_refl) H) as (e & R & (oe & -> & _) & _).
  destruct (compile_parts _ _ _ Hc) as (_ & G & _).
  destruct (loop_ready g _ _ _ G R (length l)) as (A & _).
  destruct A as (F1 & o1 & H1 & R1); [rewrite app_length; cbn; lia|].
  rewrite firstn_app, Nat.sub_diag, firstn_all in H1. cbn [firstn] in H1. rewrite app_nil_r in H1.
  replace (skipn (Datatypes.S (length l)) (l ++ x :: r)) with r in R1.
  2: { rewrite skipn_app, skipn_all2 by lia.
       replace (Datatypes.S (length l) - length l)%nat with 1%nat by lia. reflexivity. }
  destruct (loop_ready g _ _ _ G R1 (length r)) as (_ & B & _).
  destruct (B oe eq_refl (Nat.le_refl _)) as [F2 H2].
  exists (F1 + F2)%nat, o1, (set_st (-1) oe). intros f Hf. split; [apply H1; lia|apply H2; lia].
Qed.
Print Assumptions C70_left_loop_refuted.

(** A generator that has ended runs again when a loop is made over it: the second loop sees
    what the body yields when it is run once more.  Python's second loop sees nothing. *)
Theorem C70_ended_refuted : forall params p g args v0 junk tmp fuel1 items1 s1 fuel2 items2 s2,
  compile params p = Some g -> plain p = true ->
  py_run fuel1 p (call_vars params args junk) = (items1, PNormal s1) ->
  py_run fuel2 p (call_vars params args s1) = (items2, PNormal s2) ->
  exists F o1 o2, forall f, (F <= f)%nat ->
    loop f g (length items1) (make args v0 junk tmp) = (items1, LStopped o1) /\
    loop f g (length items2) o1 = (items2, LStopped o2).
Proof.
  intros params p g args v0 junk tmp fuel1 items1 s1 fuel2 items2 s2 Hc Hp H1 H2.
  destruct (start_ready params p g (make args v0 junk tmp) fuel1 _ (PNormal s1) Hc Hp
              (or_introl eq_refl) H1) as (e & R & (oe & -> & Hs) & Ha).
  destruct (compile_parts _ _ _ Hc) as (_ & G & _).
  destruct (loop_ready g _ _ _ G R (length items1)) as (_ & B & _).
  destruct (B oe eq_refl (Nat.le_refl _)) as [F1 L1].
  destruct (start_ready params p g (set_st (-1) oe) fuel2 items2 (PNormal s2) Hc Hp
              (or_intror eq_refl)) as (e2 & R2 & (o2 & -> & _) & _).
  { cbn. rewrite (Ha _ oe eq_refl eq_refl), Hs. exact H2. }
  destruct (loop_ready g _ _ _ G R2 (length items2)) as (_ & B2 & _).
  destruct (B2 o2 eq_refl (Nat.le_refl _)) as [F2 L2].
  exists (F1 + F2)%nat, (set_st (-1) oe), (set_st (-1) o2).
  intros f Hf. split; [apply L1; lia|apply L2; lia].
Qed.
Print Assumptions C70_ended_refuted.

(** def g(n): for i in range(n): yield i.  Two loops over one g(n) both see all of range(n). *)
Theorem C70_ended_range_refuted : forall n,
  exists g F o1 o2, compile [0%nat] count_up = Some g /\ forall f, (F <= f)%nat ->
    loop f g (length (range_items 0 n 1)) (make [n] 0 zero_vars (fun _ => 0)) =
      (range_items 0 n 1, LStopped o1) /\
    loop f g (length (range_items 0 n 1)) o1 = (range_items 0 n 1, LStopped o2).
Proof.
  intros n.
  assert (P : forall s, exists s', py_run 2 count_up (call_vars [0%nat] [n] s) =
                                   (range_items 0 n 1, PNormal s')).
  { intros s. destruct (count_up_items (range_items 0 n 1) (upd s 0 n) 0) as [s' H].
    exists s'. exact H. }
  destruct (P zero_vars) as [s1 H1]. destruct (P s1) as [s2 H2].
  destruct (C70_compiles_partial [0%nat] count_up eq_refl) as [g Hg].
  destruct (C70_ended_refuted _ _ _ _ 0 _ (fun _ => 0) _ _ _ _ _ _ Hg eq_refl H1 H2)
    as (F & o1 & o2 & H).
  exists g, F, o1, o2. split; [exact Hg|exact H].
Qed.
Print Assumptions C70_ended_range_refuted.

(** def g(): yield 1; return 0.  Python: one value.  Compiled: 1, 1, 1, ... without end. *)
Theorem C70_return_refuted : forall s k,
  py_run 3 one_return s = ([1], PReturn) /\
  exists g o', compile [] one_return = Some g /\
    forall f, (3 <= f)%nat -> loop f g k (make [] 0 s (fun _ => 0)) = (repeat 1 k, LLeft o').
Proof.
  intros s k. split; [reflexivity|].
  eexists _, (set_val 1 (set_st 1 (make [] 0 s (fun _ => 0)))). split; [reflexivity|].
  intros f Hf. unfold loop. rewrite next_start; [|intros m [<-|[]]; lia|left; reflexivity].
  assert (E : exec f Start (CSeq (CYield 1 (fun _ => inl 1)) (CReturn (fun _ => inl 0)))
                (make [] 0 s (fun _ => 0)) = CRet 1 (set_val 1 (set_st 1 (make [] 0 s (fun _ => 0))))).
  { destruct f as [|[|[|f]]]; try lia. reflexivity. }
  cbn [gcode at_start gparams]. change (at_start _ (make [] 0 s (fun _ => 0))) with (make [] 0 s (fun _ => 0)).
  rewrite E. cbn [post].
  apply one_return_turns; try reflexivity. exact Hf.
Qed.
Print Assumptions C70_return_refuted.

(** def g(): yield 1; yield 1 // 0.  Python's loop sees 1 before the exception, the compiled
    loop sees nothing. *)
Theorem C70_exception_refuted :
  exists p g o', compile [] p = Some g /\ plain p = true /\
    (forall s, py_run 3 p s = ([1], PRaise ZeroDivisionError)) /\
    loop 5 g 5 (make [] 0 zero_vars (fun _ => 0)) = ([], LRaised ZeroDivisionError o').
Proof.
  exists (SSeq (SYield (fun _ => inl 1)) (SYield (fun _ => inr ZeroDivisionError))).
  eexists _, _. split; [reflexivity|]. split; [reflexivity|]. split; [reflexivity|].
  vm_compute. reflexivity.
Qed.
Print Assumptions C70_exception_refuted.

(** A range loop inside a range loop: the generator is not compiled at all. *)
Theorem C70_nested_for_refuted : forall params p,
  nested_for false p = true -> compile params p = None.
Proof.
  intros params p H. unfold compile. rewrite (nested_none p false false 1 0 H). reflexivity.
Qed.
Print Assumptions C70_nested_for_refuted.

(** A name that is first assigned in a range loop, before a yield: not compiled. *)
Theorem C70_local_refuted : forall params y lo hi st x e b,
  yields b = true -> compile params (SFor y lo hi st (SSeq (SDecl x e) b)) = None.
Proof. exact local_none. Qed.
Print Assumptions C70_local_refuted.

(** def g(n): for i in range(n): n = 1; yield i.  Python: range(3) is fixed when the loop
    starts.  Compiled: n is read again before every turn. *)
Theorem C70_bound_refuted :
  exists p g o' s, compile [0%nat] p = Some g /\
    py_run 5 p (call_vars [0%nat] [3] zero_vars) = ([0; 1; 2], PNormal s) /\
    loop 9 g 9 (make [3] 0 zero_vars (fun _ => 0)) = ([0], LStopped o').
Proof.
  exists (SFor 1 (BConst 0) (BVar 0) 1
            (SSeq (SAssign 0 (fun _ => inl 1)) (SYield (fun s => inl (s 1%nat))))).
  eexists _, _, _. split; [reflexivity|]. split; vm_compute; reflexivity.
Qed.
Print Assumptions C70_bound_refuted.

Example C70_refutations_example :
  (exists s, py_run 20 sample (call_vars [0%nat] [5] zero_vars) = ([5] ++ 3 :: [6], PNormal s)) /\
  nested_for false (SFor 1 (BConst 0) (BVar 0) 1 (SFor 2 (BConst 0) (BVar 0) 1 (SYield (fun s => inl (s 2%nat)))))
    = true /\
  range_items 0 3 1 = [0; 1; 2].
Proof. split; [eexists; vm_compute; reflexivity|split; reflexivity]. Qed.
