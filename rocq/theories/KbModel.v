(** * Model for C75: element-wise operations of kernels

    Files: python/matx/kernel/typing/broadcast.py, typing/utils.py, graphIR/utils.py, graphIR/ops.py,
    codegen/linalg_printer.py.

    Symbolic sizes are sympy expressions: a type [sym] with sympy's comparison [equals] (simplify(x - y) == 0),
    [simplify], and [same], the equality of dict keys.  SyntaxError is [Exn ValueError]. *)
From Coq Require Import Arith List Bool Lia.
From Verif Require Import Base KbSpec.
Import ListNotations.
Local Open Scope nat_scope.

Section Shapes.
Context {sym : Type}.
Variables (equals : sym -> sym -> bool) (simplify : sym -> sym) (same : sym -> sym -> bool).

(** typing/utils.py:36-43, is_scalar_shape: looks at the first axis only.  Lines 41-43 are for axes that
    are neither numbers nor symbols. *)
Definition is_scalar_shape (shape : list (axis sym)) : res bool :=
  match shape with
  | [] => Exn IndexError
  | Symb _ :: _ => Ok false
  | Num n :: _ => Ok (n =? 1)
  end.

(** typing/broadcast.py:25-54, calculate_output_axis; None is an axis that was filled in. *)
Definition calculate_output_axis (axis1 axis2 : option (axis sym)) : res (axis sym) :=
  match axis1, axis2 with
  | None, None => Exn ValueError
  | None, Some a => Ok a
  | Some a, None => Ok a
  | Some (Symb x), Some (Symb y) => if equals x y then Ok (Symb (simplify x)) else Exn ValueError
  | Some (Symb _), Some (Num _) => Exn ValueError
  | Some (Num _), Some (Symb _) => Exn ValueError
  | Some (Num n), Some (Num k) => if n =? k then Ok (Num n) else Exn ValueError
  end.

(** typing/broadcast.py:57-72, broadcast_with_scalar: the first of the three shapes it gives, the caller
    uses no other. *)
Definition broadcast_with_scalar (arr1_shape arr2_shape : list (axis sym)) : res (list (axis sym)) :=
  let! s1 := is_scalar_shape arr1_shape in
  let! s2 := is_scalar_shape arr2_shape in
  if s1 && s2 then
    if length arr2_shape <? length arr1_shape then Ok arr1_shape else Ok arr2_shape
  else if s1 : bool then Ok (repeat (Num 1) (length arr1_shape - length arr2_shape) ++ arr2_shape)
  else Ok (repeat (Num 1) (length arr2_shape - length arr1_shape) ++ arr1_shape).

(** typing/broadcast.py:82-87: axes up to max_ndim are filled with None. *)
Definition fill (n : nat) (shape : list (axis sym)) : list (option (axis sym)) :=
  map Some shape ++ repeat None (n - length shape).

(** typing/broadcast.py:89-91. *)
Fixpoint output_axes (a b : list (option (axis sym))) : res (list (axis sym)) :=
  match a, b with
  | x :: a, y :: b => let! z := calculate_output_axis x y in let! c := output_axes a b in Ok (z :: c)
  | _, _ => Ok []
  end.

(** typing/broadcast.py:75-96, broadcast. *)
Definition typing_broadcast (arr1_shape arr2_shape : list (axis sym)) : res (list (axis sym)) :=
  let! s1 := is_scalar_shape arr1_shape in
  let! s2 := is_scalar_shape arr2_shape in
  if s1 || s2 then broadcast_with_scalar arr1_shape arr2_shape
  else
    let max_ndim := Nat.max (length arr1_shape) (length arr2_shape) in
    rmap (@rev _) (output_axes (fill max_ndim (rev arr1_shape)) (fill max_ndim (rev arr2_shape))).

(** Equality of the keys of var_map. *)
Definition key_eqb (a b : axis sym) : bool :=
  match a, b with
  | Num n, Num k => n =? k
  | Symb x, Symb y => same x y
  | _, _ => false
  end.

(** graphIR/utils.py:118-122, convert_back. *)
Definition convert_back (var_map shape : list (axis sym)) : res (list (axis sym)) :=
  match shape with
  | [Num 1] => Ok []
  | _ => if forallb (fun a => existsb (key_eqb a) var_map) shape then Ok shape else Exn KeyError
  end.

(** graphIR/utils.py:101-127, broadcast: scalars have the empty shape there.  var_map maps each size to
    the object it came from, which has that size. *)
Definition graph_broadcast (arr1_shape arr2_shape : list (axis sym)) : res (list (axis sym)) :=
  let var_map := arr1_shape ++ arr2_shape in
  let u1 := match arr1_shape with [] => [Num 1] | _ => arr1_shape end in
  let u2 := match arr2_shape with [] => [Num 1] | _ => arr2_shape end in
  let! result_shape := typing_broadcast u1 u2 in
  convert_back var_map result_shape.

(** graphIR/ops.py:59-79 and 90-98, make_subgraph and _sub_graph_maker: the inputs of the sub graph are a
    dict whose keys are the operands (compared by identity, here a number); the second of its values is
    used. *)
Definition sub_graph_inputs (lhs rhs : nat) : list nat := if lhs =? rhs then [lhs] else [lhs; rhs].

(** graphIR/ops.py:100-123, BinaryElementWiseOperator.__call__: the shape of the result. *)
Definition binary_op (lhs rhs : nat) (lhs_shape rhs_shape : list (axis sym)) : res (list (axis sym)) :=
  let! result_shape := graph_broadcast lhs_shape rhs_shape in
  if (length lhs_shape =? 0) && (length rhs_shape =? 0) then Ok result_shape
  else
    match nth_error (sub_graph_inputs lhs rhs) 1 with
    | Some _ => Ok result_shape
    | None => Exn IndexError
    end.
End Shapes.

(** ** The generated loop

    codegen/linalg_printer.py:60, [idx_list[-n:]] (all of it for n = 0). *)
Definition affine_map (n : nat) (idx_list : list nat) : list nat :=
  if n =? 0 then idx_list else skipn (length idx_list - n) idx_list.

(** Reading an element of an array of shape [sh]. *)
Definition in_boundsb (sh idx : list nat) : bool :=
  (length idx =? length sh) && forallb (fun x => snd x <? fst x) (combine sh idx).
Definition read {A} (sh : list nat) (a : list nat -> A) (idx : list nat) : res A :=
  if in_boundsb sh idx then Ok (a idx) else OOB.

(** codegen/linalg_printer.py:52-123: one iteration of the loop, for the values [idx_list] of its variables
    (as many as the largest rank): where it writes in an array of shape [os], and what.  Scalars (empty
    shapes) are not indexed.  An index map with another number of results than the rank of its array is
    refused by the compiler of the generated code. *)
Definition operand {A} (sh : list nat) (a : list nat -> A) (idx_list : list nat) : res A :=
  if length sh =? 0 then Ok (a []) else read sh a (affine_map (length sh) idx_list).

Definition loop_step {A B C} (f : A -> B -> C) (ls : list nat) (l : list nat -> A) (rs : list nat) (r : list nat -> B)
    (os idx_list : list nat) : res (list nat * C) :=
  let out := affine_map (length os) idx_list in
  if length out =? length os then
    let! a := operand ls l idx_list in
    let! b := operand rs r idx_list in
    if in_boundsb os out then Ok (out, f a b) else OOB
  else Exn CheckFailed.
