(** * Division of floats *)

From Coq Require Import ZArith Bool.
From Verif Require Import Base HfModel.
Local Open Scope Z_scope.

(** ** The double operations of the machine (IEEE 754, round to nearest even)

    A finite double is a sign and a magnitude in units of 2^-1074. *)
Inductive d64 :=
| DNan
| DInf (s : bool)
| DFin (s : bool) (v : Z).

(** 1.0 *)
Definition one : Z := 2 ^ 1074.

(** The exact result n * 2^(-1074-k) (n >= 0) as a double. *)
Definition round64 (s : bool) (n k : Z) : d64 :=
  let d := Z.max k (Z.log2 n - 52) in
  let v := rne n d * 2 ^ (d - k) in
  if v <? 2 ^ 2098 then DFin s v else DInf s.

Definition neg64 (x : d64) : d64 :=
  match x with
  | DNan => DNan
  | DInf s => DInf (negb s)
  | DFin s v => DFin (negb s) v
  end.

Definition add64 (x y : d64) : d64 :=
  match x, y with
  | DNan, _ | _, DNan => DNan
  | DInf s, DInf t => if Bool.eqb s t then DInf s else DNan
  | DInf s, DFin _ _ | DFin _ _, DInf s => DInf s
  | DFin s v, DFin t u =>
      let z := (if s then - v else v) + (if t then - u else u) in
      if z =? 0 then DFin (s && t) 0 else round64 (z <? 0) (Z.abs z) 0
  end.

Definition sub64 (x y : d64) : d64 := add64 x (neg64 y).

(** The exact quotient is cut off behind more than 55 bits; a last bit says whether anything
    was cut off, then it is rounded. *)
Definition div64 (x y : d64) : d64 :=
  match x, y with
  | DNan, _ | _, DNan => DNan
  | DInf _, DInf _ => DNan
  | DInf s, DFin t _ => DInf (xorb s t)
  | DFin s _, DInf t => DFin (xorb s t) 0
  | DFin s v, DFin t u =>
      if u =? 0 then (if v =? 0 then DNan else DInf (xorb s t))
      else
        let n := v * 2 ^ 2174 in
        round64 (xorb s t) (2 * (n / u) + (if n mod u =? 0 then 0 else 1)) 1101
  end.

(** C's fmod, floor, copysign(0.0, x), and static_cast<double> of an int *)
Definition fmod64 (x y : d64) : d64 :=
  match x, y with
  | DNan, _ | _, DNan | DInf _, _ => DNan
  | DFin s v, DInf _ => DFin s v
  | DFin s v, DFin _ u => if u =? 0 then DNan else DFin s (v mod u)
  end.

Definition floor64 (x : d64) : d64 :=
  match x with
  | DFin s v =>
      if v mod one =? 0 then x
      else if s then DFin true ((v / one + 1) * one) else DFin false (v / one * one)
  | _ => x
  end.

Definition zero_with_sign (x : d64) : d64 :=
  match x with
  | DNan => DFin false 0
  | DInf s | DFin s _ => DFin s 0
  end.

Definition d64_of_int (z : Z) : d64 := round64 (z <? 0) (Z.abs z * one) 0.

Definition is_zero (x : d64) : bool := match x with DFin _ v => v =? 0 | _ => false end.
Definition negative (x : d64) : bool :=
  match x with DFin s v => s && negb (v =? 0) | DInf s => s | DNan => false end.
(** x > 0.5 *)
Definition half_one : Z := 2 ^ 1073.
Definition more_than_half (x : d64) : bool :=
  match x with DFin s v => negb s && (half_one <? v) | DInf s => negb s | DNan => false end.
(** std::isnan(x) || std::isinf(x) *)
Definition nan_or_inf (x : d64) : bool := match x with DFin _ _ => false | _ => true end.

(** ** src/runtime/builtins_modules/_floatobject.cc *)

(** 34-40 *)
Definition float_div (a b : d64) : res d64 :=
  if is_zero b then Exn ZeroDivisionError else Ok (div64 a b).

(** 42-61 *)
Definition float_rem (vx wx : d64) : res d64 :=
  if is_zero wx then Exn ZeroDivisionError
  else
    let mod_ := fmod64 vx wx in
    Ok (if negb (is_zero mod_) then
          if negb (Bool.eqb (negative wx) (negative mod_)) then add64 mod_ wx else mod_
        else zero_with_sign wx).

(** 63-98, the first part of the pair (the second is float_rem's) *)
Definition float_floor_div (vx wx : d64) : res d64 :=
  if is_zero wx then Exn ZeroDivisionError
  else
    let mod_ := fmod64 vx wx in
    let div := div64 (sub64 vx mod_) wx in
    let div :=
      if negb (is_zero mod_) && negb (Bool.eqb (negative wx) (negative mod_))
      then sub64 div (DFin false one) else div in
    Ok (if negb (is_zero div) then
          let floordiv := floor64 div in
          if more_than_half (sub64 div floordiv) then add64 floordiv (DFin false one) else floordiv
        else zero_with_sign (div64 vx wx)).

(** ** generic_hlo_arith_funcs.h: two doubles *)

(** 506-512, 516-522, 543-549 *)
Definition checked (r : res d64) : res d64 :=
  let! x := r in if nan_or_inf x then Exn ValueError else Ok x.
Definition arith_div (a b : d64) : res d64 := checked (float_div a b).
Definition arith_floordiv (a b : d64) : res d64 := checked (float_floor_div a b).
Definition arith_floormod (a b : d64) : res d64 := checked (float_rem a b).

(** Two ints of known type: ArithOps::div has no overload for ints, they become doubles. *)
Definition int_div (a b : Z) : res d64 := arith_div (d64_of_int a) (d64_of_int b).

(** ** generic_hlo_arith_funcs.cc: an int and a float of which one is dynamic *)

(** 159-174: int // a dynamic float (also when the int is dynamic, 196-211); MXCHECK *)
Definition int_floordiv_any (a : Z) (y : d64) : res d64 :=
  let result := floor64 (div64 (d64_of_int a) y) in
  if nan_or_inf result then Exn CheckFailed else Ok result.

(** 176-194: a dynamic float // int *)
Definition any_floordiv_int (x : d64) (b : Z) : res d64 :=
  let result := floor64 (div64 x (d64_of_int b)) in
  if nan_or_inf result then Exn ValueError else Ok result.

(** 213-229: int % a dynamic float; 231-247: a dynamic float % int *)
Definition int_floormod_any (a : Z) (y : d64) : res d64 :=
  let result := fmod64 (d64_of_int a) y in
  if nan_or_inf result then Exn ValueError else Ok result.
Definition any_floormod_int (x : d64) (b : Z) : res d64 :=
  let result := fmod64 x (d64_of_int b) in
  if nan_or_inf result then Exn ValueError else Ok result.

(** 196-211, 249-264: a dynamic float and a dynamic int: generic_hlo_arith_funcs.h 523, 550 *)
Definition flt_floordiv_int (x : d64) (b : Z) : res d64 := arith_floordiv x (d64_of_int b).
Definition flt_floormod_int (x : d64) (b : Z) : res d64 := arith_floormod x (d64_of_int b).
