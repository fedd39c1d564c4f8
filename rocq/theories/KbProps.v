(** * C75: element-wise operations in kernels *)

From Coq Require Import Arith List Bool Lia.
From Verif Require Import Base KbSpec KbModel KbProofs.
Import ListNotations.
Local Open Scope nat_scope.

(** Operands in whose shapes no axis is the constant 1: if the kernel compiles, then, whatever sizes the symbols
    have when it runs, the result has NumPy's shape, and each step of the loop reads inside of the
    operands and writes NumPy's element at its place. *)
Theorem C75_elements_partial : forall (sym : Type) (equals : sym -> sym -> bool) (simplify : sym -> sym)
    (same : sym -> sym -> bool) (value : sym -> nat)
    (A B C : Type) (f : A -> B -> C) (l : list nat -> A) (r : list nat -> B) (i j : nat) (s1 s2 out : list (axis sym)),
  (forall x y, equals x y = true -> value x = value y) -> (forall x, value (simplify x) = value x) ->
  no_one s1 -> no_one s2 ->
  binary_op equals simplify same i j s1 s2 = Ok out ->
  let ls := map (size value) s1 in let rs := map (size value) s2 in let os := map (size value) out in
  numpy_shape ls rs = Some os /\
  forall idx, in_bounds os idx -> loop_step f ls l rs r os idx = Ok (idx, numpy_at f ls l rs r idx).
Proof.
  intros sym equals simplify same value A B C f l r i j s1 s2 out He Hs N1 N2 H ls rs os.
  exact (kernel_ok equals simplify same value He Hs f l r i j s1 s2 out N1 N2 H).
Qed.
Print Assumptions C75_elements_partial.

(** Symbols are numbers here, equal when they are the same one; [3; n] and [n]. *)
Example C75_elements_example :
  let s1 := [Num 3; Symb 7] in let s2 := [@Symb nat 7] in
  binary_op Nat.eqb (fun x => x) Nat.eqb 0 1 s1 s2 = Ok [Num 3; Symb 7] /\ no_one s1 /\ no_one s2 /\
  (forall x y, (x =? y) = true -> x = y) /\
  loop_step Nat.add [3; 4] (fun i => nth 0 i 0 * 4 + nth 1 i 0) [4] (fun i => 100 * nth 0 i 0) [3; 4] [2; 3] = Ok ([2; 3], 311) /\
  numpy_at Nat.add [3; 4] (fun i => nth 0 i 0 * 4 + nth 1 i 0) [4] (fun i => 100 * nth 0 i 0) [2; 3] = 311.
Proof.
  cbv zeta. split; [reflexivity|]. split; [intros a [<-|[<-|[]]]; discriminate|]. split; [intros a [<-|[]]; discriminate|].
  split; [intros x y; apply Nat.eqb_eq|]. split; reflexivity.
Qed.

(** Constant shapes without an axis of size 1: the kernel compiles for exactly the shapes NumPy accepts, with
    NumPy's shape. *)
Theorem C75_constant_shapes_partial : forall (sym : Type) (equals : sym -> sym -> bool) (simplify : sym -> sym)
    (same : sym -> sym -> bool) (i j : nat) (a b : list nat),
  i <> j -> ~ In 1 a -> ~ In 1 b ->
  binary_op equals simplify same i j (map Num a) (map Num b) =
    match numpy_shape a b with Some c => Ok (map Num c) | None => Exn ValueError end.
Proof.
  intros sym equals simplify same i j a b Nij N1 N2. unfold binary_op. rewrite graph_num by auto.
  destruct (numpy_shape a b); [|reflexivity]. cbn [bind].
  destruct ((length (map Num a) =? 0) && (length (map Num b) =? 0)); [reflexivity|].
  unfold sub_graph_inputs. apply Nat.eqb_neq in Nij. now rewrite Nij.
Qed.
Print Assumptions C75_constant_shapes_partial.

Example C75_constant_shapes_example :
  binary_op Nat.eqb (fun x => x) Nat.eqb 0 1 (map Num [2; 3; 4]) (map Num [3; 4]) = Ok (map Num [2; 3; 4]) /\
  binary_op Nat.eqb (fun x => x) Nat.eqb 0 1 (map Num [2; 3]) (map Num [2]) = Exn ValueError /\
  numpy_shape [2; 3] [2] = None /\
  binary_op Nat.eqb (fun x => x) Nat.eqb 0 1 (map Num []) (map Num [0; 5]) = Ok (map Num [0; 5]).
Proof. repeat split. Qed.

(** ** Refutations *)

(** A shape whose first axis is 1 is taken for a scalar's: [1, n] with [m, 1] gives [m, 1] instead of
    [m, n], and [1, n] with [k] gives [1, k] although NumPy refuses these shapes. *)
Theorem C75_first_axis_one_refuted : forall (sym : Type) (equals : sym -> sym -> bool) (simplify : sym -> sym)
    (same : sym -> sym -> bool) (m n k : nat),
  m <> 1 -> n <> 1 -> k <> 1 -> n <> k ->
  binary_op equals simplify same 0 1 [Num 1; Num n] [Num m; Num 1] = Ok [Num m; Num 1] /\
  numpy_shape [1; n] [m; 1] = Some [m; n] /\
  binary_op equals simplify same 0 1 [Num 1; Num n] [Num k] = Ok [Num 1; Num k] /\
  numpy_shape [1; n] [k] = None.
Proof.
  intros sym equals simplify same m n k Hm Hn Hk Hnk.
  apply Nat.eqb_neq in Hm, Hn, Hk, Hnk.
  assert (Hm' : (1 =? m) = false) by (apply Nat.eqb_neq; apply Nat.eqb_neq in Hm; auto).
  repeat split.
  - unfold binary_op, graph_broadcast, typing_broadcast, broadcast_with_scalar. cbn [is_scalar_shape bind].
    rewrite Hm. cbn [orb andb bind length Nat.sub repeat app Nat.eqb].
    unfold convert_back. cbn [forallb existsb key_eqb app]. rewrite Nat.eqb_refl. cbn [Nat.eqb orb andb].
    repeat rewrite orb_true_r. cbn [andb]. destruct m as [|[|m]]; reflexivity.
  - unfold numpy_shape. cbn [rev app stretch]. rewrite Hn, Hm'. reflexivity.
  - unfold binary_op, graph_broadcast, typing_broadcast, broadcast_with_scalar. cbn [is_scalar_shape bind].
    rewrite Hk. cbn [orb andb bind length Nat.sub repeat app Nat.eqb].
    unfold convert_back. cbn [forallb existsb key_eqb app]. rewrite Nat.eqb_refl. cbn [Nat.eqb orb andb].
    rewrite Nat.eqb_refl. cbn [orb]. repeat rewrite orb_true_r. reflexivity.
  - unfold numpy_shape. cbn [rev app stretch]. rewrite Hnk, Hn, Hk. reflexivity.
Qed.
Print Assumptions C75_first_axis_one_refuted.

(** [1] with [n]: the shape is NumPy's, but the loop reads the array of one element at every index up to
    n - 1. *)
Theorem C75_one_element_refuted : forall (sym : Type) (equals : sym -> sym -> bool) (simplify : sym -> sym)
    (same : sym -> sym -> bool) (A B C : Type) (f : A -> B -> C) (l : list nat -> A) (r : list nat -> B) (n : nat),
  2 <= n ->
  binary_op equals simplify same 0 1 [Num 1] [Num n] = Ok [Num n] /\ numpy_shape [1] [n] = Some [n] /\
  in_bounds [n] [1] /\ loop_step f [1] l [n] r [n] [1] = OOB.
Proof.
  intros sym equals simplify same A B C f l r n Hn. destruct n as [|[|n]]; [lia|lia|].
  split.
  - unfold binary_op, graph_broadcast, typing_broadcast, broadcast_with_scalar, convert_back.
    cbn [is_scalar_shape bind Nat.eqb orb andb length Nat.sub repeat app forallb existsb key_eqb].
    rewrite Nat.eqb_refl. reflexivity.
  - split; [reflexivity|]. split; [constructor; [lia|constructor]|]. reflexivity.
Qed.
Print Assumptions C75_one_element_refuted.

(** Other axes of size 1 are not stretched: [m, 1] with [m, n] does not compile. *)
Theorem C75_stretch_refuted : forall (sym : Type) (equals : sym -> sym -> bool) (simplify : sym -> sym)
    (same : sym -> sym -> bool) (m n : nat), m <> 1 -> n <> 1 ->
  binary_op equals simplify same 0 1 [Num m; Num 1] [Num m; Num n] = Exn ValueError /\
  numpy_shape [m; 1] [m; n] = Some [m; n].
Proof.
  intros sym equals simplify same m n Hm Hn. apply Nat.eqb_neq in Hm.
  assert (Hn' : (1 =? n) = false) by (apply Nat.eqb_neq; auto).
  split.
  - unfold binary_op, graph_broadcast, typing_broadcast. cbn [is_scalar_shape bind].
    rewrite Hm. cbn [orb bind]. unfold fill.
    cbn [length Nat.max rev app map Nat.sub repeat output_axes calculate_output_axis bind]. rewrite Hn'. reflexivity.
  - unfold numpy_shape. cbn [rev app stretch]. rewrite Hn'. cbn [Nat.eqb]. rewrite Nat.eqb_refl. reflexivity.
Qed.
Print Assumptions C75_stretch_refuted.

(** [1] with [1]: the result is made a scalar, for which the index map of the loop has one index too
    many. *)
Theorem C75_rank_refuted : forall (sym : Type) (equals : sym -> sym -> bool) (simplify : sym -> sym)
    (same : sym -> sym -> bool) (A B C : Type) (f : A -> B -> C) (l : list nat -> A) (r : list nat -> B) (i : nat),
  binary_op equals simplify same 0 1 [Num 1] [Num 1] = Ok [] /\ numpy_shape [1] [1] = Some [1] /\
  loop_step f [1] l [1] r [] [i] = Exn CheckFailed.
Proof. intros. repeat split. Qed.
Print Assumptions C75_rank_refuted.

(** An operation of an array with itself (a + a) does not compile. *)
Theorem C75_same_operand_refuted : forall (sym : Type) (equals : sym -> sym -> bool) (simplify : sym -> sym)
    (same : sym -> sym -> bool) (i : nat) (s : list (axis sym)), s <> [] ->
  (forall out, binary_op equals simplify same i i s s <> Ok out) /\
  (forall a, s = map Num a -> ~ In 1 a -> binary_op equals simplify same i i s s = Exn IndexError /\ numpy_shape a a = Some a).
Proof.
  intros sym equals simplify same i s Ne.
  assert (L : (length s =? 0) = false) by (destruct s; [congruence|reflexivity]).
  split.
  - intros out. unfold binary_op, sub_graph_inputs. rewrite L, Nat.eqb_refl.
    destruct (graph_broadcast equals simplify same s s); discriminate.
  - intros a -> N.
    assert (S : forall c, stretch c c = Some c).
    { induction c as [|x c IH]; [reflexivity|]. cbn [stretch]. now rewrite Nat.eqb_refl, IH. }
    assert (Na : numpy_shape a a = Some a) by (unfold numpy_shape; rewrite S; cbn; now rewrite rev_involutive).
    split; [|exact Na]. unfold binary_op, sub_graph_inputs. rewrite L, Nat.eqb_refl, graph_num, Na by auto. reflexivity.
Qed.
Print Assumptions C75_same_operand_refuted.
