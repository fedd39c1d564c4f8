(** Equality and hashing of the values used as keys: Any::Equal and Any::Hash,
    src/runtime/runtime_value.cc:498-628, ArithOps::eq, generic_hlo_arith_funcs.{h,cc},
    _Py_HashDouble, src/runtime/py_commons/pyhash.cc:44-86.  No proofs here. *)
From Coq Require Import Floats.SpecFloat.
From Verif Require Import Base HashModel.

(** IEEE double: the standard library's specification of binary64 *)
Definition double : Type := spec_float.
Definition dsub : double -> double -> double := SFsub 53 1024.
Definition dadd : double -> double -> double := SFadd 53 1024.
Definition dmul : double -> double -> double := SFmul 53 1024.
(** static_cast<double>(int64_t) *)
Definition of_int (n : Z) : double := binary_normalize 53 1024 n 0 false.
(** DBL_EPSILON = 2^-52, DBL_MIN = 2^-1022, 4.0 *)
Definition eps : double := S754_finite false (2 ^ 52) (-104).
Definition dbl_min : double := S754_finite false (2 ^ 52) (-1074).
Definition four : double := S754_finite false (2 ^ 52) (-50).

(** floating_point::AlmostEquals, include/matxscript/runtime/_almost_equal.h:33-53 *)
Definition almost_equals (x y : double) : bool :=
  SFleb (SFabs (dsub x y)) (dmul (dmul eps (SFabs (dadd x y))) four) ||
  SFltb (SFabs (dsub x y)) dbl_min.

(** Values that can be keys.  Simplification: no opaque handles, data types or user objects,
    which compare and hash by address or by user code. *)
Inductive key : Type :=
| KNone
| KInt (n : Z)             (* int64_t *)
| KFloat (x : double)
| KBytes (s : list Z)
| KStr (s : list Z)        (* code points *)
| KTuple (l : list key).

Fixpoint list_eq (s t : list Z) : bool :=
  match s, t with
  | [], [] => true
  | a :: s', b :: t' => (a =? b) && list_eq s' t'
  | _, _ => false
  end.

(** ArithOps::eq(Any, Any), generic_hlo_arith_funcs.cc:268-384, with eq(double, Any) and
    eq(int64_t, Any), generic_hlo_arith_funcs.h:644-653, and Tuple::operator==,
    tuple_ref.cc:163-179, for two different tuple objects (the same object is equal to
    itself without comparing) *)
Fixpoint any_eq (a b : key) {struct a} : bool :=
  match a, b with
  | KNone, KNone => true
  | KInt n, KInt m => n =? m
  | KInt n, KFloat y => almost_equals (of_int n) y
  | KFloat x, KFloat y => almost_equals x y
  | KFloat x, KInt m => almost_equals x (of_int m)
  | KBytes s, KBytes t => list_eq s t
  | KStr s, KStr t => list_eq s t
  | KTuple l, KTuple r =>
      (fix go (l r : list key) : bool :=
         match l, r with
         | [], [] => true
         | x :: l', y :: r' => if any_eq x y then go l' r' else false
         | _, _ => false
         end) l r
  | _, _ => false
  end.

(** ** _Py_HashDouble, pyhash.cc:44-86 *)
Definition hash_bits : Z := 61.
Definition hash_mod : Z := 2 ^ 61 - 1.
(** ((x << k) & MODULUS) | x >> (BITS - k), in size_t *)
Definition rot61 (x k : Z) : Z :=
  Z.lor (Z.land (wrapu64 (Z.shiftl x k)) hash_mod) (Z.shiftr x (hash_bits - k)).
(** The loop: the fraction m of frexp is [f / 2^w]; multiplying by 2^28 and subtracting the
    integer part are exact in double. *)
Fixpoint hash_loop (fuel : nat) (w f x e : Z) : res (Z * Z) :=
  match fuel with
  | O => OutOfFuel
  | S fuel' =>
    if f =? 0 then Ok (x, e)
    else
      let x := rot61 x 28 in
      let f := f * 268435456 in
      let y := f / 2 ^ w in
      let x := x + y in
      let x := if x >=? hash_mod then x - hash_mod else x in
      hash_loop fuel' w (f mod 2 ^ w) x (e - 28)
  end.
Definition hash_double (v : double) : res Z :=
  match v with
  | S754_nan => Ok 0
  | S754_infinity s => Ok (if s then two64 - 314159 else 314159)
  | S754_zero _ => Ok 0      (* frexp gives 0: the loop does not run *)
  | S754_finite s m e =>
      let w := Z.log2 (Zpos m) + 1 in
      let! (x, e) := hash_loop (S (Z.to_nat w)) w (Zpos m) 0 (e + w) in
      let e := if e >=? 0 then e mod hash_bits else hash_bits - 1 - ((-1 - e) mod hash_bits) in
      let x := rot61 x e in
      let x := if s then wrapu64 (- x) else x in
      Ok (if x =? two64 - 1 then two64 - 2 else x)
  end.

(** ** Any::Hash, runtime_value.cc:536-624 *)
Section Hash.
(** BytesHash of the bytes of a string, and of the code points of a unicode string *)
Variable bytes_hash unicode_hash : list Z -> Z.

(** tuple_hash, runtime_value.cc:499-533.  SIZEOF_PY_UHASH_T is not defined, so the
    constants for 32 bits are used, on size_t. *)
Definition xx1 : Z := 2654435761.
Definition xx2 : Z := 2246822519.
Definition xx5 : Z := 374761393.
Definition xxrotate (x : Z) : Z := Z.lor (wrapu64 (Z.shiftl x 13)) (Z.shiftr x 19).
Fixpoint any_hash (k : key) : res Z :=
  match k with
  | KNone => Ok 0
  | KInt n => Ok (int_hash n)
  | KFloat x => hash_double x
  | KBytes s => Ok (wrapu64 (bytes_hash s))
  | KStr s => Ok (wrapu64 (unicode_hash s))
  | KTuple l =>
      (fix go (l : list key) (acc len : Z) : res Z :=
         match l with
         | [] =>
             let acc := wrapu64 (acc + Z.lxor len (Z.lxor xx5 3527539)) in
             Ok (if acc =? two64 - 1 then 1546275796 else acc)
         | x :: l' =>
             let! lane := any_hash x in
             if lane =? two64 - 1 then Ok (two64 - 1)
             else go l' (wrapu64 (xxrotate (wrapu64 (acc + lane * xx2)) * xx1)) len
         end) l xx5 (Z.of_nat (length l))
  end.
(** As the total functor of the table; a hash always exists, see C47_hash_total *)
Definition key_hash (k : key) : Z := match any_hash k with Ok h => h | _ => 0 end.
End Hash.
