(** * C73: chained subscripts on values of any type *)

From Coq Require Import ZArith List Bool Lia.
From Verif Require Import Base SbSpec SbModel SbProofs.
Import ListNotations.
Local Open Scope Z_scope.

(** e[k], however long the chain of subscripts in e: the compiled code gives Python's value, raises
    when Python does and leaves the heap as Python does.  The root and the key next to it may
    have any effects, the other keys none. *)
Theorem C73_get : forall (e k : expr) (h : heap), later_keys_pure (EGet e k) ->
  py_eval (EGet e k) h =
    (fst (run_get e k h), match snd (run_get e k h) with Ok v => Some v | _ => None end).
Proof. exact run_get_ok. Qed.
Print Assumptions C73_get.

Definition lit (v : val) : expr := EAny (fun h => (h, Some v)).
(** [[1, 2], {"a": A}] where A is [[1, 2, 3], [4, 5, 6]]. *)
Definition example_heap : heap :=
  [OList [VRef 1; VRef 2]; OList [VNum 1; VNum 2];
   ODict [(VText [97], VArr (View 3 0 [2; 3] [3; 1]))]; OBuf [1; 2; 3; 4; 5; 6]].

Example C73_get_example :
  run_get (EGet (EGet (EGet (lit (VRef 0)) (lit (VNum (-1)))) (lit (VText [97]))) (lit (VNum 1))) (lit (VNum (-1)))
    example_heap = (example_heap, Ok (VNum 6)) /\
  run_get (EGet (lit (VArr (View 3 0 [2; 3] [3; 1]))) (lit (VNum 1))) (lit (VNum 0)) example_heap =
    (example_heap, Ok (VNum 4)) /\
  later_keys_pure (EGet (EGet (EGet (EGet (lit (VRef 0)) (lit (VNum (-1)))) (lit (VText [97]))) (lit (VNum 1))) (lit (VNum (-1)))).
Proof. split; [reflexivity|split; [reflexivity|]]. cbn. repeat split; intros h; reflexivity. Qed.

(** Subscripts of an array whose elements lie in its buffer never read outside of it, whatever
    the keys are and however many. *)
Theorem C73_get_safe : forall (h : heap) (w : view) (keys : list val),
  inside h (v_buf w) (v_off w) (v_shape w) (v_strides w) ->
  fused_getitem h (VArr w) keys <> OOB.
Proof. exact fused_inside. Qed.
Print Assumptions C73_get_safe.

Example C73_get_safe_example :
  inside example_heap 3 0 [2; 3] [3; 1] /\
  fused_getitem example_heap (VArr (View 3 0 [2; 3] [3; 1])) [VNum 1; VNum 3] = Exn CheckFailed /\
  fused_getitem example_heap (VArr (View 3 0 [2; 3] [3; 1])) [VNum 1; VNum 2; VNum 0] = Exn CheckFailed.
Proof.
  split; [|split; reflexivity]. intros i Hi j Hj. 
  assert (E : i = 0 \/ i = 1) by lia. assert (F : j = 0 \/ j = 1 \/ j = 2) by lia.
  destruct E as [->| ->], F as [->|[->| ->]]; discriminate.
Qed.

(** e[k] = v, no part of which has effects: when the compiled code finishes, the heap is
    Python's; when it raises, the heap is unchanged. *)
Theorem C73_set : forall (assign : heap -> view -> val -> option heap) (e k v : expr) (h h' : heap),
  chain_pure (EGet e k) -> pure v ->
  (run_set assign e k v h = (h', Ok tt) -> py_assign assign e k v h = (h', true)) /\
  (forall r, run_set assign e k v h = (h', r) -> r <> Ok tt -> h' = h).
Proof.
  intros assign e k v h h' P Pv. destruct (run_set_ok assign e k v h P Pv) as (S1 & _ & S3).
  split; [apply S1|]. intros r R N. rewrite R in S3. exact (S3 N).
Qed.
Print Assumptions C73_set.

(** ... and it finishes whenever Python does, except for a number put into a part of an array
    that is itself an array. *)
Theorem C73_set_partial : forall (assign : heap -> view -> val -> option heap) (e k v : expr) (h h' : heap),
  chain_pure (EGet e k) -> pure v ->
  (forall z w, snd (py_eval v h) = Some (VNum z) -> snd (py_eval e h) = Some (VArr w) ->
     length (v_shape w) = 1%nat) ->
  py_assign assign e k v h = (h', true) -> run_set assign e k v h = (h', Ok tt).
Proof.
  intros assign e k v h h' P Pv. destruct (run_set_ok assign e k v h P Pv) as (_ & S2 & _). apply S2.
Qed.
Print Assumptions C73_set_partial.

Example C73_set_example : let no_array := fun (_ : heap) (_ : view) (_ : val) => None in
  run_set no_array (EGet (EGet (EGet (lit (VRef 0)) (lit (VNum (-1)))) (lit (VText [97]))) (lit (VNum 1)))
    (lit (VNum 0)) (lit (VNum 7)) example_heap =
  ([OList [VRef 1; VRef 2]; OList [VNum 1; VNum 2];
    ODict [(VText [97], VArr (View 3 0 [2; 3] [3; 1]))]; OBuf [1; 2; 3; 7; 5; 6]], Ok tt) /\
  run_set no_array (EGet (lit (VRef 0)) (lit (VNum 0))) (lit (VNum (-2))) (lit (VText [98])) example_heap =
  ([OList [VRef 1; VRef 2]; OList [VText [98]; VNum 2];
    ODict [(VText [97], VArr (View 3 0 [2; 3] [3; 1]))]; OBuf [1; 2; 3; 4; 5; 6]], Ok tt) /\
  chain_pure (EGet (EGet (lit (VRef 0)) (lit (VNum 0))) (lit (VNum (-2)))).
Proof. split; [reflexivity|split; [reflexivity|]]. cbn. repeat split; intros h; reflexivity. Qed.

(** Refuted: x[0][f()] where f sets x[0].  Python has read x[0] before it calls f, the compiled
    code reads it afterwards. *)
Theorem C73_key_effect_refuted :
  let h := [OList [VRef 1]; OList [VNum 10]; OList [VNum 20]] in
  let f := EAny (fun h => (replace h 0 (OList [VRef 2]), Some (VNum 0))) in
  let e := EGet (lit (VRef 0)) (lit (VNum 0)) in
  snd (py_eval (EGet e f) h) = Some (VNum 10) /\
  snd (run_get e f h) = Ok (VNum 20).
Proof. split; reflexivity. Qed.
Print Assumptions C73_key_effect_refuted.

(** Refuted: a[0] = 5 for an array with two axes sets a row in NumPy; the compiled code raises. *)
Theorem C73_number_refuted : forall assign : heap -> view -> val -> option heap,
  let h := [OBuf [1; 2; 3; 4]] in
  let a := lit (VArr (View 0 0 [2; 2] [2; 1])) in
  py_assign assign a (lit (VNum 0)) (lit (VNum 5)) h = ([OBuf [5; 5; 3; 4]], true) /\
  run_set assign a (lit (VNum 0)) (lit (VNum 5)) h = (h, Exn CheckFailed).
Proof. intros assign. split; reflexivity. Qed.
Print Assumptions C73_number_refuted.

(** Refuted: for a[i][j] = l with an array a of one axis and a list l the code reads a's shape
    past its end, for every i within the array; Python raises. *)
Theorem C73_too_many_keys_refuted :
  forall (assign : heap -> view -> val -> option heap) (h : heap) (b : nat) (o n s i : Z) (j : val) (ls : nat),
  0 <= i < n -> (exists z, j = VNum z) ->
  run_set assign (EGet (lit (VArr (View b o [n] [s]))) (lit (VNum i))) (lit j) (lit (VRef ls)) h = (h, OOB) /\
  py_assign assign (EGet (lit (VArr (View b o [n] [s]))) (lit (VNum i))) (lit j) (lit (VRef ls)) h = (h, false).
Proof.
  intros assign h b o n s i j ls Hi [z ->]. split.
  - unfold run_set, lit. cbn [flat app rev run_expr run_list rmap lift fused_setitem mapM as_int bind].
    unfold nd_fused_set_item. cbn [v_shape v_strides v_off descend]. unfold rd, index_correction. cbn [nth_error bind].
    destruct (Z.ltb_spec i 0); [lia|]. cbv zeta.
    replace ((0 <=? i) && (i <? n)) with true by lia. reflexivity.
  - unfold py_assign, lit. cbn [py_eval]. cbn [py_get]. unfold part. cbn [v_shape v_strides v_buf v_off].
    replace ((- n <=? i) && (i <? n)) with true by lia. cbn [v_shape v_buf v_off].
    destruct (cell h b (o + i mod n * s)); reflexivity.
Qed.
Print Assumptions C73_too_many_keys_refuted.

(** Refuted: l[i][j] where l[i] is an array without axes reads its shape past its end; Python
    raises. *)
Theorem C73_scalar_array_refuted : forall (b : nat) (o : Z) (j : Z),
  let h := [OList [VArr (View b o [] [])]] in
  snd (run_get (EGet (lit (VRef 0)) (lit (VNum 0))) (lit (VNum j)) h) = OOB /\
  snd (py_eval (EGet (EGet (lit (VRef 0)) (lit (VNum 0))) (lit (VNum j))) h) = None.
Proof. intros b o j. split; reflexivity. Qed.
Print Assumptions C73_scalar_array_refuted.
