(** Comparing values whose type is known only at run time: ArithOps::eq, gt, ge, lt and le of two
    Any, src/runtime/generic/generic_hlo_arith_funcs.cc and .h; operators of List and Tuple,
    list_ref.cc and tuple_ref.cc; min, max and sort, which use them.

    Simplified: the values are None, int, float, bytes, str and lists and tuples of values.  Doubles
    are the standard library's specification of binary64 (as in KeyModel). *)
From Coq Require Import Floats.SpecFloat.
From Verif Require Import Base KeyModel PdqModel.
Local Open Scope Z_scope.

Inductive val : Type :=
| VNone
| VInt (n : Z)
| VFloat (x : double)
| VBytes (s : list Z)
| VStr (s : list Z)
| VList (l : list val)
| VTuple (l : list val).

(** traits_type::compare of the common length, memcmp or by code point *)
Fixpoint traits_compare (s t : list Z) : Z :=
  match s, t with
  | a :: s, b :: t => if a <? b then -1 else if b <? a then 1 else traits_compare s t
  | _, _ => 0
  end.
(** CompareImpl and compare, string_view.h:330-337, 453-460; unicode_view.h:317-324 *)
Definition compare_impl (n m r : Z) : Z :=
  if r =? 0 then (if m <? n then 1 else 0) - (if n <? m then 1 else 0)
  else (if 0 <? r then 1 else 0) - (if r <? 0 then 1 else 0).
Definition view_compare (s t : list Z) : Z :=
  compare_impl (Z.of_nat (length s)) (Z.of_nat (length t))
    (if (length s =? 0)%nat || (length t =? 0)%nat then 0 else traits_compare s t).

(** The loop of List::operator> and >=, list_ref.cc:159-199, and of Tuple::operator> and >=,
    tuple_ref.cc:181-219: [gt] of the items both ways; [fin] of what is left *)
Fixpoint seq_loop (gt : val -> val -> res bool) (fin : list val -> list val -> bool) (l r : list val) : res bool :=
  match l, r with
  | x :: l', y :: r' =>
    let! a := gt x y in
    if a then Ok true
    else
      let! b := gt y x in
      if b then Ok false else seq_loop gt fin l' r'
  | _, _ => Ok (fin l r)
  end.
Definition left_over (l r : list val) : bool := match l with [] => false | _ => true end.
Definition right_done (l r : list val) : bool := match r with [] => true | _ => false end.

(** gt(int64_t, Any) and gt(double, Any), generic_hlo_arith_funcs.h:720-737 *)
Definition gt_int (n : Z) (b : val) : res bool :=
  match b with
  | VFloat y => Ok (SFltb y (of_int n))
  | VInt m => Ok (m <? n)
  | _ => Exn TypeError
  end.
Definition gt_float (x : double) (b : val) : res bool :=
  match b with
  | VFloat y => Ok (SFltb y x)
  | VInt m => Ok (SFltb (of_int m) x)
  | _ => Exn TypeError
  end.
(** gt(Any, Any), generic_hlo_arith_funcs.cc:386-417; a tuple is compared with >=.  [fuel]: more
    than both depths. *)
Fixpoint gt_fuel (fuel : nat) (a b : val) : res bool :=
  match fuel with
  | O => OutOfFuel
  | S fuel =>
    match a with
    | VInt n => gt_int n b
    | VFloat x => gt_float x b
    | VBytes s => match b with VBytes t => Ok (0 <? view_compare s t) | _ => Exn TypeError end
    | VStr s => match b with VStr t => Ok (0 <? view_compare s t) | _ => Exn TypeError end
    | VList l => match b with VList r => seq_loop (gt_fuel fuel) left_over l r | _ => Exn TypeError end
    | VTuple l => match b with VTuple r => seq_loop (gt_fuel fuel) right_done l r | _ => Exn TypeError end
    | VNone => Exn TypeError
    end
  end.

(** How deep a value is nested *)
Fixpoint depth (v : val) : nat :=
  match v with
  | VList l | VTuple l => S (fold_right (fun x n => Nat.max (depth x) n) O l)
  | _ => O
  end.
Definition gt (a b : val) : res bool := gt_fuel (S (depth a + depth b)) a b.

(** ge(int64_t, Any) and ge(double, Any), generic_hlo_arith_funcs.h:784-803 *)
Definition ge_int (n : Z) (b : val) : res bool :=
  match b with
  | VFloat y => Ok (almost_equals (of_int n) y || SFltb y (of_int n))
  | VInt m => Ok (m <=? n)
  | _ => Exn TypeError
  end.
Definition ge_float (x : double) (b : val) : res bool :=
  match b with
  | VFloat y => Ok (almost_equals x y || SFltb y x)
  | VInt m => Ok (almost_equals x (of_int m) || SFltb (of_int m) x)
  | _ => Exn TypeError
  end.
(** ge(Any, Any), generic_hlo_arith_funcs.cc:419-451 *)
Definition ge (a b : val) : res bool :=
  match a with
  | VInt n => ge_int n b
  | VFloat x => ge_float x b
  | VBytes s => match b with VBytes t => Ok (0 <=? view_compare s t) | _ => Exn TypeError end
  | VStr s => match b with VStr t => Ok (0 <=? view_compare s t) | _ => Exn TypeError end
  | VList l => match b with VList r => seq_loop (gt_fuel (S (depth a + depth b))) right_done l r | _ => Exn TypeError end
  | VTuple l => match b with VTuple r => seq_loop (gt_fuel (S (depth a + depth b))) right_done l r | _ => Exn TypeError end
  | VNone => Exn TypeError
  end.
(** lt and le, generic_hlo_arith_funcs.h:844-854 *)
Definition lt (a b : val) : res bool := let! c := ge a b in Ok (negb c).
Definition le (a b : val) : res bool := let! c := gt a b in Ok (negb c).

(** eq(Any, Any), generic_hlo_arith_funcs.cc:268-384, with List::operator==, list_ref.cc:141-157,
    and Tuple::operator==, tuple_ref.cc:163-179, for different objects (a list is equal to itself
    without comparing) *)
Fixpoint eq (a b : val) {struct a} : bool :=
  let items := fix items (l r : list val) : bool :=
    match l, r with
    | [], [] => true
    | x :: l, y :: r => if eq x y then items l r else false
    | _, _ => false
    end in
  match a, b with
  | VNone, VNone => true
  | VInt n, VInt m => n =? m
  | VInt n, VFloat y => almost_equals (of_int n) y
  | VFloat x, VFloat y => almost_equals x y
  | VFloat x, VInt m => almost_equals x (of_int m)
  | VBytes s, VBytes t => list_eq s t
  | VStr s, VStr t => list_eq s t
  | VList l, VList r => items l r
  | VTuple l, VTuple r => items l r
  | _, _ => false
  end.

(** _iter_min and _iter_max, src/runtime/generic/generic_funcs.cc:924-949, and their callers *)
Fixpoint best (better : val -> val -> res bool) (m : val) (l : list val) : res val :=
  match l with
  | [] => Ok m
  | x :: l => let! c := better x m in best better (if c then x else m) l
  end.
Definition iter_min (l : list val) : res val := match l with [] => Exn CheckFailed | x :: l => best lt x l end.
Definition iter_max (l : list val) : res val := match l with [] => Exn CheckFailed | x :: l => best gt x l end.

(** List::sort(), list_ref.cc:526-533; simplified: a comparison that raises is false here *)
Definition truth (r : res bool) : bool := match r with Ok b => b | _ => false end.
Definition sort (heap_sort : (val -> val -> bool) -> list val -> list val) (l : list val) : res (list val) :=
  list_sort (fun x y => truth (lt x y)) (fun x y => truth (ge x y)) heap_sort (fun x => x) false l.
