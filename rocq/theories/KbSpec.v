(** * Specification for C75: element-wise operations in kernels

    NumPy's broadcasting, on sizes known at run time.  Nothing here mentions the model. *)
From Coq Require Import Arith List Bool Lia.
Import ListNotations.

(** An axis of an array in a kernel's signature: a constant or a symbol. *)
Inductive axis (sym : Type) : Type := Num (n : nat) | Symb (x : sym).
Arguments Num {sym} n.
Arguments Symb {sym} x.

(** Its size when the kernel runs; [value] gives the sizes the symbols have then. *)
Definition size {sym} (value : sym -> nat) (a : axis sym) : nat :=
  match a with Num n => n | Symb x => value x end.

(** Sizes are compared from the last axis on; equal sizes stay, 1 is stretched, a missing axis too. *)
Fixpoint stretch (a b : list nat) : option (list nat) :=
  match a, b with
  | [], _ => Some b
  | _, [] => Some a
  | x :: a, y :: b =>
      match (if x =? y then Some x else if x =? 1 then Some y else if y =? 1 then Some x else None), stretch a b with
      | Some z, Some c => Some (z :: c)
      | _, _ => None
      end
  end.

Definition numpy_shape (a b : list nat) : option (list nat) := option_map (@rev nat) (stretch (rev a) (rev b)).

(** Where an operand of shape [sh] is read for the element at [idx] of the result. *)
Definition numpy_index (sh idx : list nat) : list nat :=
  map (fun x => if fst x =? 1 then 0 else snd x) (combine sh (skipn (length idx - length sh) idx)).

(** The element at [idx] of [f] of two arrays. *)
Definition numpy_at {A B C} (f : A -> B -> C) (ls : list nat) (l : list nat -> A) (rs : list nat) (r : list nat -> B)
    (idx : list nat) : C := f (l (numpy_index ls idx)) (r (numpy_index rs idx)).

Definition in_bounds (sh idx : list nat) : Prop := Forall2 lt idx sh.

Definition no_one {sym} (sh : list (axis sym)) : Prop := forall a, In a sh -> a <> Num 1.
