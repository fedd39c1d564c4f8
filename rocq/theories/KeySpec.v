(** What keys mean, by Python: numbers are equal when their values are, and equal values
    hash equally. *)
From Coq Require Import Floats.SpecFloat.
From Verif Require Import Base HashModel HashSpec KeyModel.

(** No floating point number anywhere in the key *)
Fixpoint float_free (k : key) : bool :=
  match k with
  | KFloat _ => false
  | KTuple l => forallb float_free l
  | _ => true
  end.

(** [x] is exactly the rational number num / den *)
Definition is_ratio (x : double) (num den : Z) : Prop :=
  match x with
  | S754_zero _ => num = 0
  | S754_finite s m e =>
      (if s then Zneg m else Zpos m) * 2 ^ Z.max 0 e * den = num * 2 ^ Z.max 0 (- e)
  | _ => False
  end.

(** Python's numeric hash (the language reference, "Hashing of numeric types"): for num / den
    the integer h below P = 2^61 - 1 with h * den = |num| modulo P, with the sign of num, and
    -2 instead of -1; as a size_t. *)
Definition py_hash (num den hash : Z) : Prop :=
  exists h, 0 <= h < 2 ^ 61 - 1 /\ (h * den - Z.abs num) mod (2 ^ 61 - 1) = 0 /\
    hash = (let r := if num <? 0 then - h else h in if r =? -1 then -2 else r) mod 2 ^ 64.

Definition int64_key (n : Z) : Prop := - 2 ^ 63 <= n < 2 ^ 63.
