(** * 16 bit floats: what the bits mean, and correct rounding

    IEEE 754: a number in a format with [eb] exponent bits and [mb] mantissa bits is a sign,
    an exponent and a mantissa.  Magnitudes are written in units of the smallest positive
    number of the format: 2^-24 for half (5, 10), 2^-149 for single (8, 23), 2^-1074 for
    double (11, 52). *)

From Coq Require Import ZArith Bool.
Local Open Scope Z_scope.

Inductive fp :=
| Nan
| Inf (negative : bool)
| Fin (negative : bool) (mag : Z).

Definition decode (eb mb w : Z) : fp :=
  let s := Z.odd (w / 2 ^ (eb + mb)) in
  let e := w / 2 ^ mb mod 2 ^ eb in
  let m := w mod 2 ^ mb in
  if e =? 2 ^ eb - 1 then (if m =? 0 then Inf s else Nan)
  else if e =? 0 then Fin s m
  else Fin s ((2 ^ mb + m) * 2 ^ (e - 1)).

Definition half (h : Z) : fp := decode 5 10 h.
Definition single (w : Z) : fp := decode 8 23 w.
Definition double (w : Z) : fp := decode 11 52 w.

Definition signed (s : bool) (v : Z) : Z := if s then - v else v.

(** [h] is the half float for the real number x with sign [s] and |x| = (n / unit) * 2^-24
    (the greater [unit], the finer x is): no half float is nearer to x, and if one with another
    value is as near then the mantissa of [h] is even.  From 65520 on, half way between the
    greatest half float 65504 and 65536, the result is infinite. *)
Definition rounds_to (s : bool) (n unit : Z) (h : Z) : Prop :=
  if n <? 65520 * 2 ^ 24 * unit then
    exists y, half h = Fin s y /\
      forall h' s' y', 0 <= h' < 2 ^ 16 -> half h' = Fin s' y' ->
        Z.abs (signed s n - signed s y * unit) <= Z.abs (signed s n - signed s' y' * unit) /\
        (Z.abs (signed s n - signed s y * unit) = Z.abs (signed s n - signed s' y' * unit) ->
         signed s' y' <> signed s y -> Z.even h = true)
  else half h = Inf s.

(** IEEE 754 product and sum of two half floats, as facts about the result [h]. *)
Definition is_product (x y : fp) (h : Z) : Prop :=
  match x, y with
  | Nan, _ | _, Nan => half h = Nan
  | Inf s, Inf t => half h = Inf (xorb s t)
  | Inf s, Fin t v | Fin t v, Inf s => half h = if v =? 0 then Nan else Inf (xorb s t)
  | Fin s v, Fin t u => rounds_to (xorb s t) (v * u) (2 ^ 24) h
  end.

Definition is_sum (x y : fp) (h : Z) : Prop :=
  match x, y with
  | Nan, _ | _, Nan => half h = Nan
  | Inf s, Inf t => half h = if Bool.eqb s t then Inf s else Nan
  | Inf s, Fin _ _ | Fin _ _, Inf s => half h = Inf s
  | Fin s v, Fin t u =>
      let z := signed s v + signed t u in
      if z =? 0 then half h = Fin (s && t) 0 else rounds_to (z <? 0) (Z.abs z) 1 h
  end.

Definition opposite (x : fp) : fp :=
  match x with
  | Nan => Nan
  | Inf s => Inf (negb s)
  | Fin s v => Fin (negb s) v
  end.
