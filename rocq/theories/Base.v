(** Shared vocabulary of the model: results of C++ functions as values.

    [Ok a]       the function returned [a];
    [Exn e]      it threw (an exception of the runtime, or a failed MXCHECK);
    [OOB]        undefined behaviour in C++, never a legal outcome: it read or wrote
                 memory outside the object it was given, or a signed integer
                 operation overflowed (written [UB] in that case);
    [OutOfFuel]  the fuel given to a modelled loop was exhausted (an artefact of
                 the model; every theorem excludes it or speaks about it). *)
From Coq Require Export ZArith List Lia Bool.
From Coq Require Export ZifyBool ZifyNat ZifyN.
Export ListNotations.
Global Open Scope Z_scope.

Inductive exn : Type :=
| IndexError | ValueError | ZeroDivisionError | TypeError | KeyError
| RuntimeError | CheckFailed | OverflowError | StackError | FormatError
| ExtraData | Incomplete | UserError (code : Z).

Inductive res (A : Type) : Type :=
| Ok (a : A) | Exn (e : exn) | OOB | OutOfFuel.
Arguments Ok {A} a.
Arguments Exn {A} e.
Arguments OOB {A}.
Arguments OutOfFuel {A}.

Notation UB := OOB (only parsing).

Definition bind {A B} (r : res A) (f : A -> res B) : res B :=
  match r with
  | Ok a => f a
  | Exn e => Exn e
  | OOB => OOB
  | OutOfFuel => OutOfFuel
  end.

Notation "'let!' x := r 'in' k" := (bind r (fun x => k))
  (at level 200, x pattern, r at level 100, k at level 200, right associativity).

Definition rmap {A B} (f : A -> B) (r : res A) : res B :=
  match r with
  | Ok a => Ok (f a)
  | Exn e => Exn e
  | OOB => OOB
  | OutOfFuel => OutOfFuel
  end.

(** Reading [p[i]] from a buffer whose valid part is the list [l]. *)
Definition rd {A} (l : list A) (i : nat) : res A :=
  match nth_error l i with
  | Some a => Ok a
  | None => OOB
  end.

(** Reading with a signed index, as the C++ code does with int64_t. *)
Definition rdz {A} (l : list A) (i : Z) : res A :=
  if i <? 0 then OOB else rd l (Z.to_nat i).

Definition is_byte (b : Z) : Prop := 0 <= b < 256.
Definition is_byteb (b : Z) : bool := (0 <=? b) && (b <? 256).

(** Two's complement 64-bit integers. *)
Definition two63 : Z := 2 ^ 63.
Definition two64 : Z := 2 ^ 64.
Definition two32 : Z := 2 ^ 32.
Definition int64 (z : Z) : Prop := - two63 <= z < two63.
Definition uint64 (z : Z) : Prop := 0 <= z < two64.
Definition int64b (z : Z) : bool := (- two63 <=? z) && (z <? two63).
Definition wrapu64 (z : Z) : Z := z mod two64.
Definition wraps64 (z : Z) : Z := (z + two63) mod two64 - two63.

(** Signed 64-bit arithmetic: overflow is undefined behaviour. *)
Definition chk64 (z : Z) : res Z := if int64b z then Ok z else UB.
(** [x / y] and [x % y] on int64_t: truncating; undefined for y = 0 and INT64_MIN / -1. *)
Definition cdiv64 (x y : Z) : res Z :=
  if y =? 0 then UB else if (x =? - two63) && (y =? -1) then UB else Ok (Z.quot x y).
Definition crem64 (x y : Z) : res Z :=
  if y =? 0 then UB else if (x =? - two63) && (y =? -1) then UB else Ok (Z.rem x y).
