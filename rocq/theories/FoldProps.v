(** C42: constant folding. *)
From Verif Require Import Base KeyModel FoldModel FoldSpec FloatAux FoldProofs.
From Coq Require Import Floats.SpecFloat.

(** The expression the compiler builds for [s] evaluates to the same value as the unfolded
    expression, in every environment in which the latter evaluates. *)
Theorem C42_fold_partial : forall same env s e v,
  (forall a b, same a b = true -> a = b) ->
  supported s -> good_env env s ->
  compile same s = Ok e -> eval env (plain s) = Ok v ->
  exists v', eval env e = Ok v' /\ same_value v v'.
Proof. exact compile_preserves. Qed.
Print Assumptions C42_fold_partial.

(** The compiler accepts every expression whose parts all evaluate. *)
Theorem C42_accepted_partial : forall same env s,
  (forall a b, same a b = true -> a = b) ->
  supported s -> good_env env s -> all_evaluate env s -> simple_conditions s ->
  exists e, compile same s = Ok e.
Proof. exact compile_total. Qed.
Print Assumptions C42_accepted_partial.

(** The built expression has the type of the unfolded one, except that [and] and [or] of two
    constants is an int32. *)
Theorem C42_type_partial : forall same env s e,
  (forall a b, same a b = true -> a = b) ->
  supported s -> good_env env s -> compile same s = Ok e ->
  dt e = dt (plain s) \/ (dt (plain s) = DBool /\ dt e = DInt 32).
Proof. intros same env s e HS SU GE CO. destruct (compile_sim same env s HS e SU GE CO) as [(N & _) _]. exact N. Qed.
Print Assumptions C42_type_partial.

(** ** What does not hold *)

Definition i64 (v : Z) : src := SInt (DInt 64) v.
Definition flag (v : Z) : src := SInt DBool v.
Definition var (n : nat) : src := SLeaf (DInt 64) n.

(** An exception of the original disappears: [0 // x] and [0 % x] are folded to 0 although the
    division raises when x is 0; [0 * f()] does not call f, [f() and False] does not either. *)
Theorem C42_exception_refuted : forall same env n,
  (forall o, o = FloorDiv \/ o = FloorMod ->
    compile same (SBin o (i64 0) (var n)) = Ok (EInt (DInt 64) 0) /\
    (env n = Ok (VI (CI true 64) 0) -> eval env (plain (SBin o (i64 0) (var n))) = Exn ZeroDivisionError)) /\
  (compile same (SBin Mul (i64 0) (var n)) = Ok (EInt (DInt 64) 0) /\
   forall x, env n = Exn x -> eval env (plain (SBin Mul (i64 0) (var n))) = Exn x) /\
  (compile same (SBin And (SLeaf DBool n) (flag 0)) = Ok (EInt DBool 0) /\
   forall x, env n = Exn x -> eval env (plain (SBin And (SLeaf DBool n) (flag 0))) = Exn x).
Proof.
  intros same env n. split; [|split; split].
  - intros o [-> | ->]; (split; [reflexivity|]); intros E; cbn -[conv int_op]; rewrite E; vm_compute; reflexivity.
  - reflexivity.
  - intros x E. cbn -[conv int_op lit]. rewrite E. reflexivity.
  - reflexivity.
  - intros x E. cbn -[conv int_op lit]. rewrite E. reflexivity.
Qed.
Print Assumptions C42_exception_refuted.

(** The other way round, the compiler rejects a division by zero that is never evaluated. *)
Theorem C42_dead_division_refuted : forall same env,
  let s := SBin And (flag 0) (SBin EQ (SBin FloorDiv (i64 1) (i64 0)) (i64 0)) in
  eval env (plain s) = Ok (VI CBool 0) /\ compile same s = Exn CheckFailed.
Proof. intros same env s. split; reflexivity. Qed.
Print Assumptions C42_dead_division_refuted.

(** Arithmetic on two bools is folded into a bool: [True + True] is 1 instead of 2, and
    [False - True] is a compile error. *)
Theorem C42_bool_refuted : forall same env,
  compile same (SBin Add (flag 1) (flag 1)) = Ok (EInt DBool 2) /\
  eval env (EInt DBool 2) = Ok (VI CBool 1) /\
  eval env (plain (SBin Add (flag 1) (flag 1))) = Ok (VI (CI true 32) 2) /\
  compile same (SBin Sub (flag 0) (flag 1)) = Exn CheckFailed /\
  eval env (plain (SBin Sub (flag 0) (flag 1))) = Ok (VI (CI true 32) (-1)).
Proof. intros same env. repeat split. Qed.
Print Assumptions C42_bool_refuted.

(** [and] and [or] of two constants change the type, so that the same expression is rejected as
    a condition. *)
Theorem C42_condition_refuted : forall same env,
  let c := SBin Or (flag 1) (flag 0) in
  compile same c = Ok (EInt (DInt 32) 1) /\
  compile same (SSel c (i64 5) (i64 6)) = Exn CheckFailed /\
  eval env (plain (SSel c (i64 5) (i64 6))) = Ok (VI (CI true 64) 5).
Proof. intros same env c. repeat split. Qed.
Print Assumptions C42_condition_refuted.

(** An int32 left shift is folded in 64 bits: [1 << 31] is positive when folded, and the
    folded sum of two large int32 constants is no int32 either. *)
Theorem C42_int32_refuted : forall same env,
  let one := SInt (DInt 32) 1 in
  let s := SBin Shl one (SInt (DInt 32) 31) in
  compile same s = Ok (EInt (DInt 32) (2 ^ 31)) /\
  eval env (EInt (DInt 32) (2 ^ 31)) = Ok (VI (CI true 64) (2 ^ 31)) /\
  eval env (plain s) = Ok (VI (CI true 32) (- 2 ^ 31)).
Proof. intros same env one s. repeat split. Qed.
Print Assumptions C42_int32_refuted.

(** Floats that overflow: the minus infinity computed at compile time is printed as plus
    infinity; a division that raises ValueError at run time yields infinity when folded; a
    product with a constant zero is zero although the other factor is infinite. *)
Definition huge : double := S754_finite false (2 ^ 53 - 1) 971.
Definition tiny : double := S754_finite false 1 (-1074).
Theorem C42_infinity_refuted : forall same env n,
  let inf b := S754_infinity b in
  let m := SBin Mul (SFlt (SFopp huge)) (SFlt huge) in
  let q := SBin Div (SFlt huge) (SFlt tiny) in
  let z := SBin Mul (SFlt dzero) (SLeaf DF64 n) in
  (compile same m = Ok (EFlt (inf true)) /\ eval env (EFlt (inf true)) = Ok (VF (inf false)) /\
   eval env (plain m) = Ok (VF (inf true))) /\
  (compile same q = Ok (EFlt (inf false)) /\ eval env (plain q) = Exn ValueError) /\
  (compile same z = Ok (EFlt dzero) /\ (env n = Ok (VF (inf false)) -> eval env (plain z) = Ok (VF S754_nan))).
Proof.
  intros same env n inf m q z. repeat split; try (vm_compute; reflexivity). intros E. cbn. rewrite E. reflexivity.
Qed.
Print Assumptions C42_infinity_refuted.

(** The sign of a zero is not kept: [x + 0.0] is x. *)
Theorem C42_signed_zero_refuted : forall same env n,
  let s := SBin Add (SLeaf DF64 n) (SFlt dzero) in
  compile same s = Ok (ELeaf DF64 n) /\
  (env n = Ok (VF (S754_zero true)) ->
   eval env (ELeaf DF64 n) = Ok (VF (S754_zero true)) /\ eval env (plain s) = Ok (VF (S754_zero false))).
Proof. intros same env n s. split; [reflexivity|]. intros E. cbn. rewrite E. auto. Qed.
Print Assumptions C42_signed_zero_refuted.

(** A conversion applied to a constant keeps the value although the type cannot hold it, and
    drops the fraction where the conversion to bool at run time asks for a non-zero value. *)
Theorem C42_cast_refuted : forall env,
  cast (DInt 32) (EInt (DInt 64) (2 ^ 40)) = Ok (EInt (DInt 32) (2 ^ 40)) /\
  eval env (EInt (DInt 32) (2 ^ 40)) = Ok (VI (CI true 64) (2 ^ 40)) /\
  eval env (ECast (DInt 32) (EInt (DInt 64) (2 ^ 40))) = Ok (VI (CI true 32) 0) /\
  cast DBool (EFlt dhalf) = Ok (EInt DBool 0) /\
  eval env (ECast DBool (EFlt dhalf)) = Ok (VI CBool 1).
Proof. intros env. repeat split; vm_compute; reflexivity. Qed.
Print Assumptions C42_cast_refuted.

(** ** Examples *)

(** x = 7, y = 2.5, b = True; (x * 1 + 0) // 2 and (3 + 4 * x) % 5 > y, under a condition *)
Definition ex_env (n : nat) : res cval :=
  match n with
  | 0%nat => Ok (VI (CI true 64) 7)
  | 1%nat => Ok (VF (S754_finite false 5629499534213120 (-51)))
  | 2%nat => Ok (VI CBool 1)
  | _ => Exn (UserError 3)
  end.
Definition ex_src : src :=
  SSel (SBin GT (SBin FloorMod (SBin Add (i64 3) (SBin Mul (i64 4) (var 0))) (i64 5)) (SLeaf DF64 1))
       (SBin Div (SBin FloorDiv (SBin Add (SBin Mul (var 0) (i64 1)) (i64 0)) (SBin Sub (i64 5) (i64 3))) (i64 1))
       (SBin Mul (SFlt done) (SLeaf DF64 1)).
Definition never (a b : expr) : bool := false.

Example C42_example :
  (forall a b, never a b = true -> a = b) /\ supported ex_src /\ good_env ex_env ex_src /\
  all_evaluate ex_env ex_src /\ simple_conditions ex_src /\
  compile never ex_src = Ok
    (ESel (EBin GT (ECast DF64 (EBin FloorMod (EBin Add (EInt (DInt 64) 3) (EBin Mul (EInt (DInt 64) 4) (ELeaf (DInt 64) 0))) (EInt (DInt 64) 5)))
                   (ELeaf DF64 1))
          (ECast DF64 (EBin FloorDiv (ELeaf (DInt 64) 0) (EInt (DInt 64) 2)))
          (ELeaf DF64 1)) /\
  eval ex_env (plain ex_src) = Ok (VF (S754_finite false 5629499534213120 (-51))).
Proof.
  split; [discriminate|]. split.
  { cbn -[Z.pow]. unfold std_type. repeat split; auto; try discriminate; try (vm_compute; reflexivity). }
  split.
  { cbn [good_env ex_src i64 var].
    repeat match goal with |- _ /\ _ => split end; try exact Logic.I; intros x E; vm_compute in E; try discriminate E;
      injection E as <-; vm_compute; auto. }
  split; [unfold ex_src, i64, var; repeat (cbn [all_evaluate]; match goal with |- _ /\ _ => split end); try exact Logic.I; repeat match goal with |- _ /\ _ => split end; try exact Logic.I; eexists; vm_compute; reflexivity|]. split; [cbn; tauto|]. split; vm_compute; reflexivity.
Qed.
