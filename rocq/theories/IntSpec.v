(** Python's integer division: the unique q, r with a = q*b + r and r between 0 and b
    (0 included, b excluded), so r has the sign of b. *)
From Verif Require Import Base.

Definition py_divmod (a b q r : Z) : Prop :=
  a = q * b + r /\ (0 <= r < b \/ b < r <= 0).
