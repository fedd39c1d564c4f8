(** * C72: division of floats *)

From Coq Require Import ZArith Bool Lia.
From Verif Require Import Base FdSpec FdModel FdProofs.
Local Open Scope Z_scope.

(** x % y for all finite doubles and y not 0: the result has the sign of y, is not greater than
    y in magnitude, and is the nearest double to the exact modulo; it is exact when x and y have
    the same sign. *)
Theorem C72_mod : forall (s t : bool) (a b : Z), is_double a -> is_double b -> 0 <= a -> 0 < b ->
  exists r, arith_floormod (DFin s a) (DFin t b) = Ok (DFin t r) /\
    0 <= r <= b /\
    nearest (exact_mod (signed s a) (signed t b)) 1 (signed t r) /\
    (s = t -> signed t r = exact_mod (signed s a) (signed t b)).
Proof.
  intros s t a b Da Db Ha Hb. destruct (float_rem_ok s a t b Da Db Ha Hb) as (r & R & C).
  exists r. split; [|exact C]. unfold arith_floormod. rewrite R. reflexivity.
Qed.
Print Assumptions C72_mod.

(** -1.0 % 3.0 = 2.0; 7.5 % -2.0 = -0.5; and -5e-324 % 3.0 = 3.0, as in Python: the exact result
    is no double. *)
Example C72_mod_example :
  arith_floormod (DFin true (2 ^ 1074)) (DFin false (3 * 2 ^ 1074)) = Ok (DFin false (2 * 2 ^ 1074)) /\
  arith_floormod (DFin false (15 * 2 ^ 1073)) (DFin true (2 * 2 ^ 1074)) = Ok (DFin true (2 ^ 1073)) /\
  arith_floormod (DFin true 1) (DFin false (3 * 2 ^ 1074)) = Ok (DFin false (3 * 2 ^ 1074)) /\
  is_double (15 * 2 ^ 1073).
Proof.
  do 3 (split; [vm_compute; reflexivity|]). apply double_mk; lia.
Qed.

(** x // y: the exact floor of the exact quotient, as long as it is at most 2^49. *)
Theorem C72_floordiv_partial : forall (s t : bool) (a b : Z),
  is_double a -> is_double b -> 0 <= a -> 0 < b ->
  Z.abs (exact_floordiv (signed s a) (signed t b)) <= 2 ^ 49 ->
  exists s' r, arith_floordiv (DFin s a) (DFin t b) = Ok (DFin s' r) /\
    signed s' r = exact_floordiv (signed s a) (signed t b) * 2 ^ 1074.
Proof.
  intros s t a b Da Db Ha Hb H. destruct (float_floor_div_ok s a t b Da Db Ha Hb H) as (s' & r & R & V).
  exists s', r. split; [unfold arith_floordiv; rewrite R; reflexivity|]. rewrite V, one_eq. reflexivity.
Qed.
Print Assumptions C72_floordiv_partial.

(** 1.0 // 0.1 is 9.0 (0.1 is a little more than a tenth), -7.0 // 2.0 is -4.0. *)
Example C72_floordiv_example :
  let tenth := 7205759403792794 * 2 ^ (1074 - 56) in
  is_double tenth /\ exact_floordiv (2 ^ 1074) tenth = 9 /\
  arith_floordiv (DFin false (2 ^ 1074)) (DFin false tenth) = Ok (DFin false (9 * 2 ^ 1074)) /\
  arith_floordiv (DFin true (7 * 2 ^ 1074)) (DFin false (2 * 2 ^ 1074)) = Ok (DFin true (4 * 2 ^ 1074)).
Proof.
  cbv zeta. split; [apply double_mk; lia|]. do 2 (split; [vm_compute; reflexivity|]). vm_compute. reflexivity.
Qed.

(** x / y: a double nearest to the exact quotient, with the sign of the quotient; ValueError
    only when the quotient is beyond every finite double. *)
Theorem C72_div : forall (s t : bool) (a b : Z), is_double a -> is_double b -> 0 <= a -> 0 < b ->
  (exists r, arith_div (DFin s a) (DFin t b) = Ok (DFin (xorb s t) r) /\ 0 <= r /\
     nearest (a * 2 ^ 1074) b r) \/
  (arith_div (DFin s a) (DFin t b) = Exn ValueError /\
     forall u, is_double u -> u * b < a * 2 ^ 1074).
Proof.
  intros s t a b Da Db Ha Hb. rewrite <- one_eq. unfold arith_div, float_div.
  replace (is_zero (DFin t b)) with false by (symmetry; apply Z.eqb_neq; lia).
  destruct (div64 (DFin s a) (DFin t b)) as [|i|s' r] eqn:E.
  - right. split; [reflexivity|]. intros u Du. destruct (Z_lt_le_dec (u * b) (a * one)) as [L|L]; [exact L|].
    destruct (div64_ok s a t b u Ha Hb Du L) as (r & R & _). rewrite R in E. discriminate.
  - right. split; [reflexivity|]. intros u Du. destruct (Z_lt_le_dec (u * b) (a * one)) as [L|L]; [exact L|].
    destruct (div64_ok s a t b u Ha Hb Du L) as (r & R & _). rewrite R in E. discriminate.
  - left. destruct (div64_fin s a t b s' r Ha Hb E) as (-> & R0 & N). exists r.
    split; [reflexivity|split; assumption].
Qed.
Print Assumptions C72_div.

Example C72_div_example :
  arith_div (DFin false (2 ^ 1074)) (DFin true (3 * 2 ^ 1074)) = Ok (DFin true (6004799503160661 * 2 ^ 1020)).
Proof. vm_compute. reflexivity. Qed.

(** Division by a zero raises ZeroDivisionError, whatever is divided. *)
Theorem C72_zero : forall (x : d64) (t : bool),
  arith_div x (DFin t 0) = Exn ZeroDivisionError /\
  arith_floordiv x (DFin t 0) = Exn ZeroDivisionError /\
  arith_floormod x (DFin t 0) = Exn ZeroDivisionError.
Proof. intros x t. repeat split. Qed.
Print Assumptions C72_zero.

(** An int and a float of which one is a dynamic value, both whole numbers below 2^53: // is
    the exact floor. *)
Theorem C72_dynamic_floordiv_partial : forall a k : Z, Z.abs a < 2 ^ 53 -> 0 < Z.abs k < 2 ^ 53 ->
  exists s' r,
    int_floordiv_any a (DFin (k <? 0) (Z.abs k * 2 ^ 1074)) = Ok (DFin s' r) /\
    any_floordiv_int (DFin (a <? 0) (Z.abs a * 2 ^ 1074)) k = Ok (DFin s' r) /\
    signed s' r = a / k * 2 ^ 1074.
Proof.
  intros a k Ha Hk. rewrite <- one_eq. destruct (quotient_floor a k Ha Hk) as (s' & r & R & V).
  exists s', r. unfold int_floordiv_any, any_floordiv_int. rewrite !d64_of_int_ok by lia. rewrite R.
  split; [reflexivity|split; [reflexivity|exact V]].
Qed.
Print Assumptions C72_dynamic_floordiv_partial.

Example C72_dynamic_floordiv_example :
  int_floordiv_any (-7) (DFin false (2 * 2 ^ 1074)) = Ok (DFin true (4 * 2 ^ 1074)) /\
  any_floordiv_int (DFin true (9007199254740991 * 2 ^ 1074)) 2 = Ok (DFin true (4503599627370496 * 2 ^ 1074)).
Proof. split; [vm_compute; reflexivity|]. vm_compute. reflexivity. Qed.

(** ... and % is the truncated remainder: Python's only when the operands have the same sign
    (or the remainder is 0). *)
Theorem C72_dynamic_mod_partial : forall (a : Z) (t : bool) (b : Z),
  Z.abs a <= 2 ^ 53 -> 0 < b -> is_double b -> (a <? 0) = t ->
  exists r, int_floormod_any a (DFin t b) = Ok (DFin t r) /\
    signed t r = exact_mod (a * 2 ^ 1074) (signed t b).
Proof.
  intros a t b Ha Hb Db Ht. rewrite <- one_eq. pose proof one_pos as P.
  unfold int_floormod_any. rewrite d64_of_int_ok by lia. unfold fmod64.
  replace (b =? 0) with false by (symmetry; apply Z.eqb_neq; lia). rewrite Ht. cbn [nan_or_inf].
  exists (Z.abs a * one mod b). split; [reflexivity|].
  replace (a * one) with (signed t (Z.abs a * one)).
  2:{ rewrite <- Ht. destruct (Z.ltb_spec a 0) as [L|L]; cbn [signed].
      - rewrite Z.abs_neq by lia. ring.
      - rewrite Z.abs_eq by lia. reflexivity. }
  rewrite exact_mod_sg; [|apply Z.mul_nonneg_nonneg; lia|exact Hb].
  rewrite eqb_reflx. destruct (Z.eqb_spec (Z.abs a * one mod b) 0) as [->|]; [destruct t; reflexivity|reflexivity].
Qed.
Print Assumptions C72_dynamic_mod_partial.

Example C72_dynamic_mod_example :
  int_floormod_any (-7) (DFin true (2 * 2 ^ 1074)) = Ok (DFin true (2 ^ 1074)).
Proof. vm_compute. reflexivity. Qed.

(** Refuted: an int % a dynamic float has the sign of the dividend; -1 % 2.0 is 1.0 in Python
    and for two floats of known type, but -1.0 for a dynamic float (and for a dynamic float
    % an int). *)
Theorem C72_int_mod_refuted :
  (forall (a : Z) (t : bool) (b r : Z) (s' : bool), Z.abs a <= 2 ^ 53 -> 0 < b ->
     int_floormod_any a (DFin t b) = Ok (DFin s' r) -> s' = (a <? 0)) /\
  int_floormod_any (-1) (DFin false (2 * 2 ^ 1074)) = Ok (DFin true (2 ^ 1074)) /\
  any_floormod_int (DFin true (2 ^ 1074)) 2 = Ok (DFin true (2 ^ 1074)) /\
  arith_floormod (DFin true (2 ^ 1074)) (DFin false (2 * 2 ^ 1074)) = Ok (DFin false (2 ^ 1074)) /\
  exact_mod (- 2 ^ 1074) (2 * 2 ^ 1074) = 2 ^ 1074.
Proof.
  split; [|do 3 (split; [vm_compute; reflexivity|]); vm_compute; reflexivity].
  intros a t b r s' Ha Hb. unfold int_floormod_any. rewrite d64_of_int_ok by lia. unfold fmod64.
  replace (b =? 0) with false by (symmetry; apply Z.eqb_neq; lia). cbn [nan_or_inf].
  intros H. inversion H. reflexivity.
Qed.
Print Assumptions C72_int_mod_refuted.

(** Refuted: 1 // 0.1 with a dynamic 0.1 is 10.0, the floor of the rounded quotient; Python
    and two floats of known type give 9.0. *)
Theorem C72_int_floordiv_refuted :
  let tenth := DFin false (7205759403792794 * 2 ^ (1074 - 56)) in
  int_floordiv_any 1 tenth = Ok (DFin false (10 * 2 ^ 1074)) /\
  any_floordiv_int (DFin false (2 ^ 1074)) 1 = Ok (DFin false (2 ^ 1074)) /\
  arith_floordiv (DFin false (2 ^ 1074)) tenth = Ok (DFin false (9 * 2 ^ 1074)) /\
  exact_floordiv (2 ^ 1074) (7205759403792794 * 2 ^ (1074 - 56)) = 9.
Proof. cbv zeta. do 3 (split; [vm_compute; reflexivity|]). vm_compute. reflexivity. Qed.
Print Assumptions C72_int_floordiv_refuted.

Lemma int_not_nan a : (exists s v, d64_of_int a = DFin s v) \/ (exists s, d64_of_int a = DInf s).
Proof.
  unfold d64_of_int, round64. cbv zeta.
  destruct (_ <? 2 ^ 2098); [left; eexists; eexists; reflexivity|right; eexists; reflexivity].
Qed.

(** Refuted: an int // or % a dynamic zero never raises ZeroDivisionError: the first fails a
    check of the runtime, the second raises ValueError. *)
Theorem C72_int_zero_refuted : forall (a : Z) (t : bool),
  int_floordiv_any a (DFin t 0) = Exn CheckFailed /\
  int_floormod_any a (DFin t 0) = Exn ValueError.
Proof.
  intros a t. unfold int_floordiv_any, int_floormod_any.
  destruct (int_not_nan a) as [(s & v & ->)|(s & ->)]; cbn [div64 fmod64].
  - change (0 =? 0) with true. cbv iota. split; [destruct (v =? 0); reflexivity|reflexivity].
  - split; reflexivity.
Qed.
Print Assumptions C72_int_zero_refuted.

(** Refuted: a quotient beyond the doubles, or an infinite operand, raises ValueError; Python's
    result is an infinity. *)
Theorem C72_overflow_refuted :
  is_double ((2 ^ 53 - 1) * 2 ^ 2045) /\
  arith_div (DFin false ((2 ^ 53 - 1) * 2 ^ 2045)) (DFin false (2 ^ 1073)) = Exn ValueError /\
  (forall (s t : bool) (b : Z), 0 < b -> arith_div (DInf s) (DFin t b) = Exn ValueError).
Proof.
  split; [|split].
  - exists (2 ^ 53 - 1), 2045. split; [lia|split; [lia|]]. apply Z.abs_eq.
    apply Z.mul_nonneg_nonneg; [lia|]. apply Z.pow_nonneg. lia.
  - vm_compute. reflexivity.
  - intros s t b Hb. unfold arith_div, float_div.
    replace (is_zero (DFin t b)) with false by (symmetry; apply Z.eqb_neq; lia). reflexivity.
Qed.
Print Assumptions C72_overflow_refuted.

(** Refuted: the quotient of two ints is not always nearest to the exact quotient, as both are
    rounded first: 9007199254740993 / 3 = 3002399751580331 gives 3002399751580330.5. *)
Theorem C72_int_div_refuted :
  int_div 9007199254740993 3 = Ok (DFin false (6004799503160661 * 2 ^ 1073)) /\
  9007199254740993 = 3002399751580331 * 3 /\
  is_double (3002399751580331 * 2 ^ 1074) /\
  ~ nearest (9007199254740993 * 2 ^ 1074) 3 (6004799503160661 * 2 ^ 1073).
Proof.
  assert (D : is_double (3002399751580331 * 2 ^ 1074)) by (apply double_mk; lia).
  split; [vm_compute; reflexivity|split; [reflexivity|split; [exact D|]]].
  intros [_ N]. specialize (N _ D). revert N. vm_compute. intros N. apply N. reflexivity.
Qed.
Print Assumptions C72_int_div_refuted.
