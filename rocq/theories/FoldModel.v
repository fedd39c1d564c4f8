(** Building and folding primitive expressions: src/ir/prim_ops.cc, src/ir/const_fold.h,
    src/ir/prim_expr.cc; and what the C++ text generated for such an expression computes:
    src/codegen/codegen_c.cc, src/codegen/codegen_c_host.cc.  No proofs here.

    Simplifications: scalar types only (one lane); the only float type is float64; the
    symbolic infinities of the integer analysis and the handle type are left out. *)
From Coq Require Import Floats.SpecFloat.
From Verif Require Import Base IntModel KeyModel.

(** runtime::DataType with one lane; DataType::Bool() is UInt(1). *)
Inductive dtype : Type := DInt (bits : Z) | DUInt (bits : Z) | DF64.
Definition DBool : dtype := DUInt 1.

Definition dtype_eqb (a b : dtype) : bool :=
  match a, b with
  | DInt x, DInt y => x =? y
  | DUInt x, DUInt y => x =? y
  | DF64, DF64 => true
  | _, _ => false
  end.
Definition is_int (t : dtype) : bool := match t with DInt _ => true | _ => false end.
Definition is_uint (t : dtype) : bool := match t with DUInt _ => true | _ => false end.
Definition is_float (t : dtype) : bool := match t with DF64 => true | _ => false end.
Definition dbits (t : dtype) : Z := match t with DInt b => b | DUInt b => b | DF64 => 64 end.

Inductive binop : Type :=
| Add | Sub | Mul | Div | Mod | FloorDiv | FloorMod | Min | Max
| GT | GE | LT | LE | EQ | NE | And | Or
| Shl | Shr | BAnd | BOr | BXor.

(** PrimExpr.  [ELeaf d n] is a variable, or a call or load that folding does not look into. *)
Inductive expr : Type :=
| EInt (d : dtype) (v : Z)             (* IntImm *)
| EFlt (v : double)                    (* FloatImm of type float64 *)
| ELeaf (d : dtype) (n : nat)
| ECast (d : dtype) (e : expr)         (* PrimCast *)
| EBin (o : binop) (a b : expr)
| ENot (a : expr)                      (* PrimNot *)
| EBNot (a : expr)                     (* PrimCall bitwise_not *)
| ESel (c a b : expr).                 (* PrimCall if_then_else *)

(** the dtype field: prim_expr.cc:144-172 (binary and comparison nodes), 260-310, 409-480 *)
Fixpoint dt (e : expr) : dtype :=
  match e with
  | EInt d _ => d
  | EFlt _ => DF64
  | ELeaf d _ => d
  | ECast d _ => d
  | EBin (GT | GE | LT | LE | EQ | NE | And | Or) _ _ => DBool
  | EBin _ a _ => dt a
  | ENot _ => DBool
  | EBNot a => dt a
  | ESel _ a _ => dt a
  end.

(** ** The generated C++ *)

(** C++ integer types; the flag says signed, [CBool] is bool. *)
Inductive cty : Type := CBool | CI (signed : bool) (bits : Z).
Inductive cval : Type := VI (t : cty) (v : Z) | VF (x : double).

Definition ctype (d : dtype) : cty :=
  match d with
  | DUInt b => if b =? 1 then CBool else CI false b
  | DInt b => CI true b
  | DF64 => CI true 64 (* not used *)
  end.

Definition in_signed (b v : Z) : bool := (- 2 ^ (b - 1) <=? v) && (v <? 2 ^ (b - 1)).
(** conversion of an integer to an integer type *)
Definition conv (t : cty) (v : Z) : Z :=
  match t with
  | CBool => if v =? 0 then 0 else 1
  | CI true b => (v + 2 ^ (b - 1)) mod 2 ^ b - 2 ^ (b - 1)
  | CI false b => v mod 2 ^ b
  end.
(** integral promotion, and the usual arithmetic conversions *)
Definition promote (t : cty) : cty :=
  match t with
  | CBool => CI true 32
  | CI s b => if b <? 32 then CI true 32 else CI s b
  end.
Definition common (t u : cty) : cty :=
  match promote t, promote u with
  | CI true a, CI true b => CI true (Z.max a b)
  | CI false a, CI false b => CI false (Z.max a b)
  | CI true a, CI false b => if a <=? b then CI false b else CI true a
  | CI false a, CI true b => if b <=? a then CI false a else CI true b
  | _, _ => CI true 32
  end.
(** the result of an arithmetic operation in type [t]: signed overflow is undefined *)
Definition fit (t : cty) (v : Z) : res cval :=
  match t with
  | CI true b => if in_signed b v then Ok (VI t v) else UB
  | _ => Ok (VI t (conv t v))
  end.

(** ** Floating-point library functions *)
Definition ddiv : double -> double -> double := SFdiv 53 1024.
Definition dzero : double := S754_zero false.
Definition done : double := S754_finite false (2 ^ 52) (-52).
Definition dhalf : double := S754_finite false (2 ^ 52) (-53).
Definition sign_of (x : double) : bool :=
  match x with
  | S754_zero s => s
  | S754_infinity s => s
  | S754_nan => false
  | S754_finite s _ _ => s
  end.
Definition copysign0 (x : double) : double := S754_zero (sign_of x).
Definition is_zero (x : double) : bool := SFeqb x dzero.
(** std::isnan(x) || std::isinf(x) *)
Definition not_finite (x : double) : bool :=
  match x with S754_nan | S754_infinity _ => true | _ => false end.
(** fmod of the C library: exact, with the sign of the first argument *)
Definition fmod (x y : double) : double :=
  match x, y with
  | S754_nan, _ | _, S754_nan | S754_infinity _, _ | _, S754_zero _ => S754_nan
  | _, S754_infinity _ => x
  | S754_zero _, _ => x
  | S754_finite s m e, S754_finite _ m' e' =>
      let k := Z.min e e' in
      let r := (Zpos m * 2 ^ (e - k)) mod (Zpos m' * 2 ^ (e' - k)) in
      binary_normalize 53 1024 (if s then - r else r) k s
  end.
(** floor of the C library *)
Definition dfloor (x : double) : double :=
  match x with
  | S754_finite s m e =>
      if 0 <=? e then x
      else binary_normalize 53 1024 ((if s then Zneg m else Zpos m) / 2 ^ (- e)) 0 s
  | _ => x
  end.

(** float_div, src/runtime/builtins_modules/_floatobject.cc:34-40 *)
Definition float_div (a b : double) : res double :=
  if is_zero b then Exn ZeroDivisionError else Ok (ddiv a b).

(** float_rem, _floatobject.cc:42-61 *)
Definition float_rem (vx wx : double) : res double :=
  if is_zero wx then Exn ZeroDivisionError
  else
    let mod_ := fmod vx wx in
    if negb (is_zero mod_) then
      if Bool.eqb (SFltb wx dzero) (SFltb mod_ dzero) then Ok mod_ else Ok (dadd mod_ wx)
    else Ok (copysign0 wx).

(** float_divmod, _floatobject.cc:63-99 *)
Definition float_divmod (vx wx : double) : res (double * double) :=
  if is_zero wx then Exn ZeroDivisionError
  else
    let mod0 := fmod vx wx in
    let div0 := ddiv (dsub vx mod0) wx in
    let '(mod_, div) :=
      if negb (is_zero mod0) then
        if Bool.eqb (SFltb wx dzero) (SFltb mod0 dzero) then (mod0, div0)
        else (dadd mod0 wx, dsub div0 done)
      else (copysign0 wx, div0) in
    let floordiv :=
      if negb (is_zero div) then
        let f := dfloor div in
        if SFltb dhalf (dsub div f) then dadd f done else f
      else copysign0 (ddiv vx wx) in
    Ok (floordiv, mod_).

(** ArithOps::div, floordiv and floormod on doubles,
    include/matxscript/runtime/generic/generic_hlo_arith_funcs.h:505-522, 543-549 *)
Definition checked (r : res double) : res double :=
  let! x := r in if not_finite x then Exn ValueError else Ok x.
Definition arith_div (a b : double) : res double := checked (float_div a b).
Definition arith_floordiv (a b : double) : res double :=
  checked (let! p := float_divmod a b in Ok (fst p)).
Definition arith_floormod (a b : double) : res double := checked (float_rem a b).

(** ** Evaluating the generated text *)

Definition truthy (v : cval) : bool :=
  match v with VI _ z => negb (z =? 0) | VF x => negb (is_zero x) end.
Definition vbool (b : bool) : cval := VI CBool (if b then 1 else 0).

(** static_cast<double> of an operand, and (T)v, codegen_c.cc:600-608, 996-1000 *)
Definition to_double (v : cval) : double := match v with VI _ z => of_int z | VF x => x end.
(** the truncation towards zero of a finite double *)
Definition trunc (x : double) : option Z :=
  match x with
  | S754_zero _ => Some 0
  | S754_finite s m e =>
      let a := if 0 <=? e then Zpos m * 2 ^ e else Zpos m / 2 ^ (- e) in
      Some (if s then - a else a)
  | _ => None
  end.
Definition cast_val (d : dtype) (v : cval) : res cval :=
  match d, v with
  | DF64, _ => Ok (VF (to_double v))
  | _, VI _ z => Ok (VI (ctype d) (conv (ctype d) z))
  | _, VF x =>
      match ctype d with
      | CBool => Ok (vbool (negb (is_zero x)))
      | t => match trunc x with
             | Some z => if conv t z =? z then Ok (VI t z) else UB
             | None => UB
             end
      end
  end.

(** PrintConst for IntImm, codegen_c.cc:867-878: an int32 constant is printed as a bare
    literal, whose type is int when it fits (the literal after a minus sign must fit), long
    otherwise; every other constant is printed with a C cast. *)
Definition lit (d : dtype) (v : Z) : cval :=
  match d with
  | DInt b => if b =? 32 then if Z.abs v <? 2 ^ 31 then VI (CI true 32) v else VI (CI true 64) v
              else VI (CI true b) (conv (CI true b) v)
  | _ => VI (ctype d) (conv (ctype d) v)
  end.
(** PrintConst for FloatImm, codegen_c.cc:896-929: every infinity is printed as
    std::numeric_limits<double>::infinity(), a NaN as the text "nan", which is not a C++
    expression (the outcome [FormatError]); a finite value is printed with twenty significant
    digits, which read back as the same double. *)
Definition flit (x : double) : res cval :=
  match x with
  | S754_infinity _ => Ok (VF (S754_infinity false))
  | S754_nan => Exn FormatError
  | _ => Ok (VF x)
  end.

Definition zcmp (o : binop) (a b : Z) : bool :=
  match o with
  | GT => b <? a | GE => b <=? a | LT => a <? b | LE => a <=? b | EQ => a =? b | _ => negb (a =? b)
  end.
Definition fcmp (o : binop) (a b : double) : bool :=
  match o with
  | GT => SFltb b a | GE => SFleb b a | LT => SFltb a b | LE => SFleb a b
  | EQ => SFeqb a b | _ => negb (SFeqb a b)
  end.

(** the operators on two integer operands: PrintBinaryExpr and PrintBinaryIntrinsic,
    codegen_c.cc:957-995, 1026-1077, 1117-1137.
    ArithOps::floordiv and floormod are overloaded on (double, double) and
    (int64_t, int64_t): a call with no int64_t argument is ambiguous and does not compile
    ([FormatError]).  A negative left shift operand is undefined, and so is a result that the
    unsigned type cannot hold (C++14). *)
Definition int_op (o : binop) (t : cty) (x : Z) (u : cty) (y : Z) : res cval :=
  let c := common t u in
  let x' := conv c x in
  let y' := conv c y in
  let is64 := match t, u with
              | CI true 64, _ | _, CI true 64 => true
              | _, _ => false
              end in
  match o with
  | Add => fit c (x' + y')
  | Sub => fit c (x' - y')
  | Mul => fit c (x' * y')
  | Mod => if y' =? 0 then UB
           else match c with
                | CI true b => if (x' =? - 2 ^ (b - 1)) && (y' =? -1) then UB else Ok (VI c (Z.rem x' y'))
                | _ => Ok (VI c (Z.rem x' y'))
                end
  | Div => let! q := arith_div (of_int x) (of_int y) in Ok (VF q)
  | FloorDiv => if is64 then let! q := fast_floor_div_i64_i64 (conv (CI true 64) x) (conv (CI true 64) y) in
                             Ok (VI (CI true 64) q)
                else Exn FormatError
  | FloorMod => if is64 then let! r := fast_mod_i64_i64 (conv (CI true 64) x) (conv (CI true 64) y) in
                             Ok (VI (CI true 64) r)
                else Exn FormatError
  | GT | GE | LT | LE | EQ | NE => Ok (vbool (zcmp o x' y'))
  | BAnd => Ok (VI c (conv c (Z.land x' y')))
  | BOr => Ok (VI c (conv c (Z.lor x' y')))
  | BXor => Ok (VI c (conv c (Z.lxor x' y')))
  | Shl => match promote t with
           | CI s b => let x1 := conv (CI s b) x in
                       if negb ((0 <=? y) && (y <? b)) then UB
                       else if s && ((x1 <? 0) || (2 ^ b <=? x1 * 2 ^ y)) then UB
                       else Ok (VI (CI s b) (conv (CI s b) (x1 * 2 ^ y)))
           | CBool => UB
           end
  | Shr => match promote t with
           | CI s b => if negb ((0 <=? y) && (y <? b)) then UB
                       else Ok (VI (CI s b) (Z.shiftr (conv (CI s b) x) y))
           | CBool => UB
           end
  | Min | Max | And | Or => Exn FormatError (* evaluated below *)
  end.

(** the operators when an operand is a double *)
Definition flt_op (o : binop) (x y : double) : res cval :=
  match o with
  | Add => Ok (VF (dadd x y))
  | Sub => Ok (VF (dsub x y))
  | Mul => Ok (VF (dmul x y))
  | Div => let! q := arith_div x y in Ok (VF q)
  | FloorDiv => let! q := arith_floordiv x y in Ok (VF q)
  | FloorMod => let! r := arith_floormod x y in Ok (VF r)
  | GT | GE | LT | LE | EQ | NE => Ok (vbool (fcmp o x y))
  | _ => Exn FormatError   (* % << >> & | ^ do not apply to doubles *)
  end.

Definition bin_op (o : binop) (v w : cval) : res cval :=
  match v, w with
  | VI t x, VI u y => int_op o t x u y
  | VF x, VF y => flt_op o x y
  | _, _ =>
      match o with
      | FloorDiv | FloorMod => Exn FormatError (* ambiguous overload *)
      | _ => flt_op o (to_double v) (to_double w)
      end
  end.

(** CodeGenCHost::PrintTernaryCondExpr, codegen_c_host.cc:1500-1513: the operands are stored
    in variables of their dtype, then compared *)
Definition minmax (o : binop) (v w : cval) : res cval :=
  let! c := bin_op (match o with Min => LT | _ => GT end) v w in
  Ok (if truthy c then v else w).

(** [env n] is the outcome of evaluating leaf [n]: a value, or the exception it raises.
    Simplification: operands are evaluated from left to right (C++ leaves the order open), and
    the two branches of [?:] keep their own type. *)
Fixpoint eval (env : nat -> res cval) (e : expr) : res cval :=
  match e with
  | EInt d v => Ok (lit d v)
  | EFlt x => flit x
  | ELeaf _ n => env n
  | ECast d a => let! v := eval env a in
                 if dtype_eqb (dt a) d then Ok v else cast_val d v
  | EBin o a b =>
      match o with
      | And => let! v := eval env a in
               if truthy v then let! w := eval env b in Ok (vbool (truthy w))
               else Ok (vbool false)
      | Or => let! v := eval env a in
              if truthy v then Ok (vbool true)
              else let! w := eval env b in Ok (vbool (truthy w))
      | Min | Max => let! v := eval env a in let! v' := cast_val (dt a) v in
                     let! w := eval env b in let! w' := cast_val (dt b) w in
                     minmax o v' w'
      | _ => let! v := eval env a in let! w := eval env b in bin_op o v w
      end
  | ENot a => let! v := eval env a in Ok (vbool (negb (truthy v)))
  | EBNot a => let! v := eval env a in
               match v with
               | VI t x => let c := promote t in Ok (VI c (conv c (Z.lnot (conv c x))))
               | VF _ => Exn FormatError
               end
  | ESel c a b => let! v := eval env c in
                  if truthy v then eval env a else eval env b
  end.

(** ** Building expressions *)

(** IntImm::IntImm, prim_expr.cc:43-56 *)
Definition mk_int (d : dtype) (v : Z) : res expr :=
  match d with
  | DF64 => Exn CheckFailed
  | DUInt _ => if v <? 0 then Exn CheckFailed else Ok (EInt d v)
  | DInt _ => Ok (EInt d v)
  end.

(** MakeConstScalar with an int64_t value, include/matxscript/ir/prim_ops.h:762-791 *)
Definition make_const (t : dtype) (v : Z) : res expr :=
  match t with
  | DInt _ => mk_int t v
  | DUInt _ => if v <? 0 then Exn CheckFailed else mk_int t v
  | DF64 => Ok (EFlt (of_int v))
  end.
(** MakeConstScalar with a double value.  Simplification: a value of 2^63 and above becomes a
    two-word constant in the code and an unfolded cast here. *)
Definition make_const_f (t : dtype) (x : double) : res expr :=
  match t with
  | DF64 => Ok (EFlt x)
  | DInt _ => match trunc x with
              | Some z => if int64b z then mk_int t z else UB
              | None => UB
              end
  | DUInt _ => match trunc x with
               | Some z => if (z <? 0) || (two64 <=? z) then UB
                           else if SFltb x dzero then Exn CheckFailed
                           else if z <? two63 then mk_int t z
                           else Ok (ECast t (EFlt x))
               | None => UB
               end
  end.

(** cast, src/ir/prim_ops.cc:227-242, and SimpleCast, prim_ops.cc:73-77 *)
Definition cast (t : dtype) (e : expr) : res expr :=
  if dtype_eqb (dt e) t then Ok e
  else match e with
       | EInt _ v => make_const t v
       | EFlt x => make_const_f t x
       | _ => Ok (ECast t e)
       end.
Definition simple_cast (t : dtype) (e : expr) : expr :=
  if dtype_eqb (dt e) t then e else ECast t e.

(** BinaryOpMatchTypes, prim_ops.cc:94-130 *)
Definition match_types (a b : expr) : res (expr * expr) :=
  if dtype_eqb (dt a) (dt b) then Ok (a, b)
  else if negb (is_float (dt a)) && is_float (dt b) then let! a' := cast (dt b) a in Ok (a', b)
  else if is_float (dt a) && negb (is_float (dt b)) then let! b' := cast (dt a) b in Ok (a, b')
  else if (is_int (dt a) && is_int (dt b)) || (is_uint (dt a) && is_uint (dt b)) then
    if dbits (dt a) <? dbits (dt b) then let! a' := cast (dt b) a in Ok (a', b)
    else let! b' := cast (dt a) b in Ok (a, b')
  else
    let bits := Z.max (dbits (dt a)) (dbits (dt b)) in
    Ok (simple_cast (DInt bits) a, simple_cast (DInt bits) b).

(** ** TryConstFold, src/ir/const_fold.h *)
Definition pint (e : expr) : option Z := match e with EInt _ v => Some v | _ => None end.
Definition pflt (e : expr) : option double := match e with EFlt x => Some x | _ => None end.
Definition isint (e : expr) (k : Z) : bool := match e with EInt _ v => v =? k | _ => false end.
Definition isflt (e : expr) (k : double) : bool := match e with EFlt x => SFeqb x k | _ => false end.
Definition is_index (t : dtype) : bool :=      (* IsIndexType, const_fold.h:79-81 *)
  match t with DInt b => (b =? 32) || (b =? 64) | _ => false end.

Definition some (r : res expr) : res (option expr) := rmap Some r.

Definition fold_add (a b : expr) : res (option expr) :=   (* const_fold.h:100-118 *)
  match pint a, pint b with
  | Some x, Some y => some (let! v := chk64 (x + y) in mk_int (dt a) v)
  | _, _ =>
    if isint a 0 then Ok (Some b)
    else if isint b 0 then Ok (Some a)
    else match pflt a, pflt b with
         | Some x, Some y => Ok (Some (EFlt (dadd x y)))
         | _, _ => if isflt a dzero then Ok (Some b)
                   else if isflt b dzero then Ok (Some a)
                   else Ok None
         end
  end.

Definition fold_sub (a b : expr) : res (option expr) :=   (* const_fold.h:120-134 *)
  match pint a, pint b with
  | Some x, Some y => some (let! v := chk64 (x - y) in mk_int (dt a) v)
  | _, _ =>
    if isint b 0 then Ok (Some a)
    else match pflt a, pflt b with
         | Some x, Some y => Ok (Some (EFlt (dsub x y)))
         | _, _ => if isflt b dzero then Ok (Some a) else Ok None
         end
  end.

Definition fold_mul (a b : expr) : res (option expr) :=   (* const_fold.h:136-170 *)
  match pint a, pint b with
  | Some x, Some y => some (let! v := chk64 (x * y) in mk_int (dt a) v)
  | _, _ =>
    if isint a 1 then Ok (Some b)
    else if isint a 0 then Ok (Some a)
    else if isint b 1 then Ok (Some a)
    else if isint b 0 then Ok (Some b)
    else match pflt a, pflt b with
         | Some x, Some y => Ok (Some (EFlt (dmul x y)))
         | _, _ => if isflt a done then Ok (Some b)
                   else if isflt a dzero then Ok (Some a)
                   else if isflt b done then Ok (Some a)
                   else if isflt b dzero then Ok (Some b)
                   else Ok None
         end
  end.

Definition fold_div (a b : expr) : res (option expr) :=   (* const_fold.h:172-203 *)
  match pint a, pint b with
  | Some x, Some y => if y =? 0 then Exn CheckFailed
                      else some (let! v := cdiv64 x y in mk_int (dt a) v)
  | _, _ =>
    if isint a 0 then Ok (Some a)
    else if isint b 1 then Ok (Some a)
    else if isint b 0 then Exn CheckFailed
    else match pflt a, pflt b with
         | Some x, Some y => if negb (is_zero y) then Ok (Some (EFlt (ddiv x y)))
                             else if is_zero x then Ok (Some a)
                             else Exn CheckFailed
         | _, _ => if isflt a dzero then Ok (Some a)
                   else if isflt b done then Ok (Some a)
                   else if isflt b dzero then Exn CheckFailed
                   else Ok None
         end
  end.

Definition fold_mod (a b : expr) : res (option expr) :=   (* const_fold.h:205-224 *)
  if is_index (dt a) && is_index (dt b) then
    match pint a, pint b with
    | Some x, Some y => if y =? 0 then Exn CheckFailed
                        else some (let! v := crem64 x y in mk_int (dt a) v)
    | _, _ =>
      if isint a 0 then Ok (Some a)
      else if isint b 1 then some (make_const (dt a) 0)
      else if isint b 0 then Exn CheckFailed
      else Ok None
    end
  else Ok None.

Definition fold_floordiv (a b : expr) : res (option expr) :=   (* const_fold.h:226-269 *)
  match pint a, pint b with
  | Some x, Some y => if y =? 0 then Exn CheckFailed
                      else some (let! v := fast_floor_div_i64_i64 x y in mk_int (dt a) v)
  | _, _ =>
    if isint a 0 then some (if is_int (dt b) then Ok a else cast (dt b) a)
    else if isint b 0 then Exn CheckFailed
    else match pflt a, pflt b with
         | Some x, Some y => if negb (is_zero y) then some (let! v := arith_floordiv x y in Ok (EFlt v))
                             else if is_zero x then Ok (Some a)
                             else Exn CheckFailed
         | _, _ => if isflt a dzero then Ok (Some a)
                   else if isflt b dzero then Exn CheckFailed
                   else Ok None
         end
  end.

Definition fold_floormod (a b : expr) : res (option expr) :=   (* const_fold.h:271-295 *)
  if is_index (dt a) && is_index (dt b) then
    match pint a, pint b with
    | Some x, Some y => if y =? 0 then Exn CheckFailed
                        else some (let! v := fast_mod_i64_i64 x y in mk_int (dt a) v)
    | _, _ =>
      if isint a 0 then some (if is_int (dt b) then Ok a else cast (dt b) a)
      else if isint b 1 then some (make_const (dt a) 0)
      else if isint b 0 then Exn CheckFailed
      else Ok None
    end
  else Ok None.

(** std::min and std::max return their first argument unless the second one is smaller
    (greater).  [same] is PrimExpr::same_as, the equality of node addresses.
    const_fold.h:297-323 *)
Definition fold_min (same : expr -> expr -> bool) (a b : expr) : res (option expr) :=
  match pint a, pint b with
  | Some x, Some y => some (mk_int (dt a) (if y <? x then y else x))
  | _, _ =>
    match pflt a, pflt b with
    | Some x, Some y => Ok (Some (EFlt (if SFltb y x then y else x)))
    | _, _ => if same a b then Ok (Some a) else Ok None
    end
  end.
Definition fold_max (same : expr -> expr -> bool) (a b : expr) : res (option expr) :=
  match pint a, pint b with
  | Some x, Some y => some (mk_int (dt a) (if x <? y then y else x))
  | _, _ =>
    match pflt a, pflt b with
    | Some x, Some y => Ok (Some (EFlt (if SFltb x y then y else x)))
    | _, _ => if same a b then Ok (Some a) else Ok None
    end
  end.

Definition fold_cmp (o : binop) (a b : expr) : res (option expr) :=   (* const_fold.h:325-389 *)
  match pint a, pint b with
  | Some x, Some y => some (mk_int DBool (if zcmp o x y then 1 else 0))
  | _, _ =>
    match pflt a, pflt b with
    | Some x, Some y => some (mk_int DBool (if fcmp o x y then 1 else 0))
    | _, _ => Ok None
    end
  end.

(** const_fold.h:391-425.  [return pa->value && pb->value] converts the bool to an int32
    constant through PrimExpr(int32_t), prim_expr.cc:37. *)
Definition fold_and (a b : expr) : res (option expr) :=
  match pint a, pint b with
  | Some x, Some y => Ok (Some (EInt (DInt 32) (if negb (x =? 0) && negb (y =? 0) then 1 else 0)))
  | Some x, None => some (if negb (x =? 0) then cast DBool b else cast DBool a)
  | None, Some y => some (if negb (y =? 0) then cast DBool a else cast DBool b)
  | None, None => Ok None
  end.
Definition fold_or (a b : expr) : res (option expr) :=
  match pint a, pint b with
  | Some x, Some y => Ok (Some (EInt (DInt 32) (if negb (x =? 0) || negb (y =? 0) then 1 else 0)))
  | Some x, None => some (if negb (x =? 0) then cast DBool a else cast DBool b)
  | None, Some y => some (if negb (y =? 0) then cast DBool b else cast DBool a)
  | None, None => Ok None
  end.

(** the folding in right_shift, left_shift, bitwise_and, bitwise_or and bitwise_xor,
    prim_ops.cc:485-568; an int64_t shift of a negative value, or out of range, is undefined *)
Definition shl64 (x y : Z) : res Z :=
  if (x <? 0) || (two64 <=? x * 2 ^ y) then UB else Ok (wraps64 (x * 2 ^ y)).
Definition fold_bit (o : binop) (a b : expr) : res (option expr) :=
  if is_index (dt a) && is_index (dt b) then
    match o with
    | Shl | Shr =>
        match pint b with
        | Some y =>
            if negb ((0 <=? y) && (y <? dbits (dt a))) then Exn CheckFailed
            else match pint a with
                 | Some x => some (let! v := match o with Shl => shl64 x y | _ => Ok (Z.shiftr x y) end in
                                   mk_int (dt a) v)
                 | None => if y =? 0 then Ok (Some a) else Ok None
                 end
        | None => Ok None
        end
    | _ =>
        match pint a, pint b with
        | Some x, Some y =>
            some (mk_int (dt a) (match o with BAnd => Z.land x y | BOr => Z.lor x y | _ => Z.lxor x y end))
        | _, _ => Ok None
        end
    end
  else Ok None.

Definition fold (same : expr -> expr -> bool) (o : binop) (a b : expr) : res (option expr) :=
  match o with
  | Add => fold_add a b
  | Sub => fold_sub a b
  | Mul => fold_mul a b
  | Div => fold_div a b
  | Mod => fold_mod a b
  | FloorDiv => fold_floordiv a b
  | FloorMod => fold_floormod a b
  | Min => fold_min same a b
  | Max => fold_max same a b
  | GT | GE | LT | LE | EQ | NE => fold_cmp o a b
  | And => fold_and a b
  | Or => fold_or a b
  | Shl | Shr | BAnd | BOr | BXor => fold_bit o a b
  end.

Definition or_node (o : binop) (a b : expr) (r : option expr) : expr :=
  match r with Some e => e | None => EBin o a b end.

Definition boolish (t : dtype) : bool := dtype_eqb t DBool || is_int t.

(** the operator functions, prim_ops.cc:252-568: add, sub, mul, div, truncmod, floordiv,
    floormod, min, max, the comparisons, logic_and, logic_or, the shifts and bit operations *)
Definition build (same : expr -> expr -> bool) (o : binop) (a b : expr) : res expr :=
  match o with
  | And | Or =>
      if boolish (dt a) && boolish (dt b) then let! r := fold same o a b in Ok (or_node o a b r)
      else Exn CheckFailed
  | Div =>
      let! (a, b) := match_types a b in
      let! a := cast DF64 a in
      let! b := cast DF64 b in
      let! r := fold same o a b in Ok (or_node o a b r)
  | Shl | Shr | BAnd | BOr | BXor =>
      if negb (is_float (dt a)) && negb (is_float (dt b)) then
        let! (a, b) := match_types a b in
        let! r := fold same o a b in Ok (or_node o a b r)
      else Exn CheckFailed
  | _ =>
      let! (a, b) := match_types a b in
      let! r := fold same o a b in Ok (or_node o a b r)
  end.

(** logic_not, prim_ops.cc:474-480, const_fold.h:427-434; bitwise_not, prim_ops.cc:570-575 *)
Definition build_not (a : expr) : res expr :=
  if boolish (dt a) then
    match pint a with
    | Some x => mk_int DBool (if x =? 0 then 1 else 0)
    | None => Ok (ENot a)
    end
  else Exn CheckFailed.
Definition build_bnot (a : expr) : res expr :=
  if is_float (dt a) then Exn CheckFailed else Ok (EBNot a).

(** if_then_else, prim_ops.cc:389-404 *)
Definition build_sel (c a b : expr) : res expr :=
  if dtype_eqb (dt c) DBool then
    let! (a, b) := match_types a b in
    match pint c with
    | Some v => Ok (if negb (v =? 0) then a else b)
    | None => Ok (ESel c a b)
    end
  else Exn CheckFailed.

(** neg and abs, prim_ops.cc:263-272, 586-610 (abs of a non-constant integer is a select) *)
Definition build_neg (same : expr -> expr -> bool) (a : expr) : res expr :=
  match a with
  | EInt d v => let! w := chk64 (- v) in mk_int d w
  | EFlt x => Ok (EFlt (SFopp x))
  | _ => let! z := make_const (dt a) 0 in build same Sub z a
  end.

(** ** Whole expressions, as the front end builds them bottom up
    (python/matx/script/parser.py:1319-1381, python/matx/ir/generic.py) *)
Inductive src : Type :=
| SInt (d : dtype) (v : Z)
| SFlt (x : double)
| SLeaf (d : dtype) (n : nat)
| SBin (o : binop) (a b : src)
| SNot (a : src)
| SSel (c a b : src).

Fixpoint compile (same : expr -> expr -> bool) (s : src) : res expr :=
  match s with
  | SInt d v => mk_int d v
  | SFlt x => Ok (EFlt x)
  | SLeaf d n => Ok (ELeaf d n)
  | SBin o a b => let! a' := compile same a in let! b' := compile same b in build same o a' b'
  | SNot a => let! a' := compile same a in build_not a'
  | SSel c a b => let! c' := compile same c in let! a' := compile same a in
                  let! b' := compile same b in build_sel c' a' b'
  end.
