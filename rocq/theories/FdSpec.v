(** * Division of floats: what /, // and % mean

    Every finite double is a whole number of units of 2^-1074, so a double is written as the
    integer of its units and 1.0 is 2^1074. *)

From Coq Require Import ZArith Bool.
Local Open Scope Z_scope.

(** The finite doubles: 53 bits and an exponent. *)
Definition is_double (x : Z) : Prop :=
  exists c j, 0 <= c < 2 ^ 53 /\ 0 <= j <= 2045 /\ Z.abs x = c * 2 ^ j.

(** A double has a sign and a magnitude (so there are two zeros). *)
Definition signed (s : bool) (v : Z) : Z := if s then - v else v.

(** [r] is a double nearest to the rational number n / d (d > 0). *)
Definition nearest (n d r : Z) : Prop :=
  is_double r /\ forall r', is_double r' -> Z.abs (n - r * d) <= Z.abs (n - r' * d).

(** Python's x % y and x // y without rounding: floor division (Coq's [mod] has the sign of
    the divisor, [/] rounds down, as in Python). *)
Definition exact_mod (x y : Z) : Z := x mod y.
Definition exact_floordiv (x y : Z) : Z := x / y.
