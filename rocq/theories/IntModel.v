(** Integer arithmetic of the runtime and of the compiler's integer helpers. *)
From Verif Require Import Base.

(** [uint64_t(0) - uint64_t(a)] when a < 0, else a (_longobject.cc:46-47) *)
Definition abs_u64 (a : Z) : Z := if a <? 0 then wrapu64 (0 - wrapu64 a) else a.

(** fast_mod_i64_i64, src/runtime/builtins_modules/_longobject.cc:34-58 *)
Definition fast_mod_i64_i64 (a b : Z) : res Z :=
  if b =? 0 then Exn ZeroDivisionError
  else if a =? 0 then Ok 0
  else
    let a_abs := abs_u64 a in
    let b_abs := abs_u64 b in
    let mod_ := if Z.lxor a b >=? 0 then wraps64 (a_abs mod b_abs)
                else wraps64 (wrapu64 (wrapu64 (b_abs - 1) - wrapu64 (a_abs - 1) mod b_abs)) in
    if b >? 0 then Ok mod_ else chk64 (- mod_).

(** fast_mod_u64_i64, _longobject.cc:60-84 *)
Definition fast_mod_u64_i64 (a b : Z) : res Z :=
  if b =? 0 then Exn ZeroDivisionError
  else if a =? 0 then Ok 0
  else
    let b_abs := abs_u64 b in
    let mod_ := if b >=? 0 then wraps64 (a mod b_abs)
                else wraps64 (wrapu64 (wrapu64 (b_abs - 1) - wrapu64 (a - 1) mod b_abs)) in
    if b >? 0 then Ok mod_ else chk64 (- mod_).

(** fast_mod_i64_u64, _longobject.cc:86-109 *)
Definition fast_mod_i64_u64 (a b : Z) : res Z :=
  if b =? 0 then Exn ZeroDivisionError
  else if a =? 0 then Ok 0
  else
    let a_abs := abs_u64 a in
    if a >=? 0 then Ok (wraps64 (a_abs mod b))
    else Ok (wraps64 (wrapu64 (wrapu64 (b - 1) - wrapu64 (a_abs - 1) mod b))).

(** fast_mod_u64_u64, _longobject.cc:111-120 *)
Definition fast_mod_u64_u64 (a b : Z) : res Z :=
  if b =? 0 then Exn ZeroDivisionError
  else if a =? 0 then Ok 0
  else Ok (wraps64 (a mod b)).

(** fast_floor_div_i64_i64, _longobject.cc:123-148; [-1 - (a_abs - 1) / b_abs] is
    computed in uint64_t. *)
Definition fast_floor_div_i64_i64 (a b : Z) : res Z :=
  if b =? 0 then Exn ZeroDivisionError
  else if a =? 0 then Ok 0
  else
    let a_abs := abs_u64 a in
    let b_abs := abs_u64 b in
    if Z.lxor a b >=? 0 then Ok (wraps64 (a_abs / b_abs))
    else Ok (wraps64 (wrapu64 (wrapu64 (-1) - wrapu64 (a_abs - 1) / b_abs))).

(** ** src/ir/int_operator.h *)

(** WillOverflow<PrimAddNode>, int_operator.h:53-63 ([&&] short-circuits) *)
Definition will_overflow_add (x y min_value max_value : Z) : res bool :=
  let! c1 := (if y >? 0 then let! d := chk64 (max_value - y) in Ok (x >? d) else Ok false) in
  if c1 then Ok true
  else
    let! c2 := (if y <? 0 then let! d := chk64 (min_value - y) in Ok (x <? d) else Ok false) in
    Ok c2.

(** WillOverflow<PrimSubNode>, int_operator.h:65-75 *)
Definition will_overflow_sub (x y min_value max_value : Z) : res bool :=
  let! c1 := (if y >? 0 then let! d := chk64 (min_value + y) in Ok (x <? d) else Ok false) in
  if c1 then Ok true
  else
    let! c2 := (if y <? 0 then let! d := chk64 (max_value + y) in Ok (x >? d) else Ok false) in
    Ok c2.

(** WillOverflow<PrimMulNode>, int_operator.h:77-98 *)
Definition will_overflow_mul (x y min_value max_value : Z) : res bool :=
  if y =? 0 then Ok false
  else if y >? 0 then
    let! d := cdiv64 min_value y in
    if x <? d then Ok true
    else let! e := cdiv64 max_value y in Ok (x >? e)
  else if (y =? -1) && (x =? - two63) then Ok true
  else
    let! d := cdiv64 min_value y in
    if x >? d then Ok true
    else let! e := cdiv64 max_value y in Ok (x <? e).

(** WillOverflow<PrimModNode>, int_operator.h:100-106 *)
Definition will_overflow_mod (x y min_value max_value : Z) : res bool := Ok (y =? 0).

(** The loop of ExtendedEuclidean, int_operator.h:172-180: (old_r, old_s) at exit. *)
Fixpoint ext_euclid_loop (fuel : nat) (r old_r s old_s : Z) : res (Z * Z) :=
  if r =? 0 then Ok (old_r, old_s)
  else
    match fuel with
    | O => OutOfFuel
    | S fuel' =>
      let! q := cdiv64 old_r r in
      let! qr := chk64 (q * r) in
      let! r' := chk64 (old_r - qr) in
      let! qs := chk64 (q * s) in
      let! s' := chk64 (old_s - qs) in
      ext_euclid_loop fuel' r' r s' s
    end.

(** ExtendedEuclidean, int_operator.h:156-190: (g, x, y).  130 iterations always
    suffice on 64-bit values (proved). *)
Definition ext_euclid (a b : Z) : res (Z * Z * Z) :=
  let! a_abs := (if a >=? 0 then Ok a else chk64 (- a)) in
  let! p := ext_euclid_loop 130 b a_abs 0 1 in
  let '(old_r, old_s) := p in
  let! x := (if a >=? 0 then Ok old_s else chk64 (- old_s)) in
  if negb (b =? 0) then
    let! xa := chk64 (x * a) in
    let! d := chk64 (old_r - xa) in
    let! y := cdiv64 d b in
    Ok (old_r, x, y)
  else Ok (old_r, x, 1).

(** The loop of ZeroAwareGCD, int_operator.h:209-213. *)
Fixpoint gcd_loop (fuel : nat) (a b : Z) : res Z :=
  let! m := crem64 a b in
  if m =? 0 then Ok b
  else
    match fuel with
    | O => OutOfFuel
    | S fuel' => gcd_loop fuel' b m
    end.

(** ZeroAwareGCD, int_operator.h:198-214 *)
Definition zero_aware_gcd (a b : Z) : res Z :=
  let! a := (if a <? 0 then chk64 (- a) else Ok a) in
  let! b := (if b <? 0 then chk64 (- b) else Ok b) in
  let '(a, b) := if a <? b then (b, a) else (a, b) in
  if b =? 0 then Ok a else gcd_loop 130 a b.

(** LeastCommonMultiple, int_operator.h:222-225 *)
Definition lcm64 (a b : Z) : res Z :=
  let! p := chk64 (a * b) in
  let! e := ext_euclid a b in
  let '(g, _, _) := e in
  cdiv64 p g.
