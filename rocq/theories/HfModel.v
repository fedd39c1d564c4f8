(** * 16 bit floats: include/matxscript/runtime/half.h *)

From Coq Require Import ZArith Bool.
Local Open Scope Z_scope.

(** ** The float operations of the machine (IEEE 754 single, round to nearest even)

    A finite float is a sign and a magnitude in units of 2^-149.  NaN has no payload here. *)
Inductive f32 :=
| FNan
| FInf (s : bool)
| FFin (s : bool) (v : Z).

(** half.h 64-78, fp32_from_bits *)
Definition fp32_from_bits (w : Z) : f32 :=
  let s := Z.testbit w 31 in
  let e := Z.land (Z.shiftr w 23) 255 in
  let m := Z.land w 8388607 in
  if e =? 255 then (if m =? 0 then FInf s else FNan)
  else if e =? 0 then FFin s m
  else FFin s (Z.shiftl (8388608 + m) (e - 1)).

(** half.h 80-94, fp32_to_bits (of a NaN: the quiet NaN) *)
Definition fp32_to_bits (x : f32) : Z :=
  let sign (s : bool) := if s then 2147483648 else 0 in
  match x with
  | FNan => 2143289344
  | FInf s => sign s + 2139095040
  | FFin s v =>
      if v <? 8388608 then sign s + v
      else
        let d := Z.log2 v - 23 in
        sign s + Z.shiftl (d + 1) 23 + (Z.shiftr v d - 8388608)
  end.

(** n / 2^d to the nearest integer, ties to even *)
Definition rne (n d : Z) : Z :=
  let q := n / 2 ^ d in
  let r := n mod 2 ^ d in
  if 2 * r <? 2 ^ d then q
  else if 2 ^ d <? 2 * r then q + 1
  else if Z.even q then q else q + 1.

(** The exact result n * 2^(-149-k) (n >= 0) as a float: 24 bits of precision, nothing below
    2^-149, infinity from 2^128 on. *)
Definition round32 (s : bool) (n k : Z) : f32 :=
  let d := Z.max k (Z.log2 n - 23) in
  let v := rne n d * 2 ^ (d - k) in
  if v <? 2 ^ 277 then FFin s v else FInf s.

Definition fabs32 (x : f32) : f32 :=
  match x with
  | FNan => FNan
  | FInf _ => FInf false
  | FFin _ v => FFin false v
  end.

Definition neg32 (x : f32) : f32 :=
  match x with
  | FNan => FNan
  | FInf s => FInf (negb s)
  | FFin s v => FFin (negb s) v
  end.

Definition mul32 (x y : f32) : f32 :=
  match x, y with
  | FNan, _ | _, FNan => FNan
  | FInf s, FInf t => FInf (xorb s t)
  | FInf s, FFin t v | FFin t v, FInf s => if v =? 0 then FNan else FInf (xorb s t)
  | FFin s v, FFin t u => round32 (xorb s t) (v * u) 149
  end.

Definition add32 (x y : f32) : f32 :=
  match x, y with
  | FNan, _ | _, FNan => FNan
  | FInf s, FInf t => if Bool.eqb s t then FInf s else FNan
  | FInf s, FFin _ _ | FFin _ _, FInf s => FInf s
  | FFin s v, FFin t u =>
      let z := (if s then - v else v) + (if t then - u else u) in
      if z =? 0 then FFin (s && t) 0 else round32 (z <? 0) (Z.abs z) 0
  end.

Definition sub32 (x y : f32) : f32 := add32 x (neg32 y).

(** static_cast<float> of a double: a sign and a magnitude in units of 2^-1074 *)
Definition f32_of_f64 (s : bool) (v : Z) : f32 := round32 s v 925.

(** ** half.h *)

(** 200-317: fp16_ieee_to_fp32_value *)
Definition fp16_to_fp32 (h : Z) : f32 :=
  let w := Z.shiftl h 16 in
  let sign := Z.land w 2147483648 in
  let two_w := (w + w) mod 2 ^ 32 in
  let exp_offset := Z.shiftl 224 23 in
  let exp_scale := fp32_from_bits (Z.shiftl 15 23) in
  let normalized_value := mul32 (fp32_from_bits ((Z.shiftr two_w 4 + exp_offset) mod 2 ^ 32)) exp_scale in
  let magic_mask := Z.shiftl 126 23 in
  let magic_bias := fp32_from_bits (Z.shiftl 126 23) in
  let denormalized_value := sub32 (fp32_from_bits (Z.lor (Z.shiftr two_w 17) magic_mask)) magic_bias in
  let denormalized_cutoff := Z.shiftl 1 27 in
  let result :=
    Z.lor sign
      (if two_w <? denormalized_cutoff then fp32_to_bits denormalized_value
       else fp32_to_bits normalized_value) in
  fp32_from_bits result.

(** 331-364: fp16_ieee_from_fp32_value *)
Definition fp16_from_fp32 (f : f32) : Z :=
  let scale_to_inf := fp32_from_bits (Z.shiftl 239 23) in
  let scale_to_zero := fp32_from_bits (Z.shiftl 17 23) in
  let base := mul32 (mul32 (fabs32 f) scale_to_inf) scale_to_zero in
  let w := fp32_to_bits f in
  let shl1_w := (w + w) mod 2 ^ 32 in
  let sign := Z.land w 2147483648 in
  let bias0 := Z.land shl1_w 4278190080 in
  let bias := if bias0 <? 1895825408 then 1895825408 else bias0 in
  let base := add32 (fp32_from_bits ((Z.shiftr bias 1 + 125829120) mod 2 ^ 32)) base in
  let bits := fp32_to_bits base in
  let exp_bits := Z.land (Z.shiftr bits 13) 31744 in
  let mantissa_bits := Z.land bits 4095 in
  let nonsign := (exp_bits + mantissa_bits) mod 2 ^ 32 in
  Z.lor (Z.shiftr sign 16) (if 4278190080 <? shl1_w then 32256 else nonsign) mod 2 ^ 16.

(** half-inl.h 33-55: Half(float) and operator float *)
Definition half_of_float (w : Z) : Z := fp16_from_fp32 (fp32_from_bits w).
Definition float_of_half (h : Z) : Z := fp32_to_bits (fp16_to_fp32 h).

(** half-inl.h 78-93: arithmetic of halves, in float *)
Definition half_add (a b : Z) : Z := fp16_from_fp32 (add32 (fp16_to_fp32 a) (fp16_to_fp32 b)).
Definition half_sub (a b : Z) : Z := fp16_from_fp32 (sub32 (fp16_to_fp32 a) (fp16_to_fp32 b)).
Definition half_mul (a b : Z) : Z := fp16_from_fp32 (mul32 (fp16_to_fp32 a) (fp16_to_fp32 b)).

(** list_helper.h 35-38: an item of a list stored in a float16 array (the finite double with
    the given sign and magnitude): As<float>, then Half(float).  runtime_value.h 270-273. *)
Definition half_store (s : bool) (v : Z) : Z := fp16_from_fp32 (f32_of_f64 s v).
