(** Properties C09, C43, C44: integer arithmetic. *)
From Verif Require Import Base IntModel IntSpec IntProofs.

(** C09 *)
Theorem C09_floor_div_mod_is_python : forall a b, int64 a -> int64 b -> b <> 0 ->
  ~ (a = - two63 /\ b = -1) ->
  exists q r, fast_floor_div_i64_i64 a b = Ok q /\ fast_mod_i64_i64 a b = Ok r /\ py_divmod a b q r.
Proof. exact floor_div_mod. Qed.
Example C09_example : fast_floor_div_i64_i64 (-7) 2 = Ok (-4) /\ fast_mod_i64_i64 (-7) 2 = Ok 1 /\
  fast_mod_i64_i64 (- two63) (-1) = Ok 0 /\ fast_floor_div_i64_i64 (- two63) 3 = Ok (-3074457345618258603).
Proof. vm_compute. auto. Qed.
Print Assumptions C09_floor_div_mod_is_python.

Theorem C09_spec_is_unique : forall a b q r q' r',
  py_divmod a b q r -> py_divmod a b q' r' -> q = q' /\ r = r'.
Proof. exact py_divmod_unique. Qed.
Print Assumptions C09_spec_is_unique.

(** The modulo of the excluded pair is still right; its quotient wraps. *)
Theorem C09_mod_always_right : forall a b, int64 a -> int64 b -> b <> 0 ->
  exists q r, fast_mod_i64_i64 a b = Ok r /\ py_divmod a b q r.
Proof.
  intros a b Ha Hb H0. exists (a / b), (a mod b). split; [exact (mod_i64 a b Ha Hb H0)|exact (py_divmod_Z a b H0)].
Qed.
Print Assumptions C09_mod_always_right.

Theorem C09_div_min_by_minus_one_refuted :
  exists a b q, int64 a /\ int64 b /\ fast_floor_div_i64_i64 a b = Ok q /\ forall r, ~ py_divmod a b q r.
Proof.
  exists (- two63), (-1), (- two63). split; [unfold int64, two63; lia|]. split; [unfold int64, two63; lia|].
  split; [vm_compute; reflexivity|]. intros r (H & H1). unfold two63 in *. lia.
Qed.
Print Assumptions C09_div_min_by_minus_one_refuted.

Theorem C09_zero_division : forall a, fast_floor_div_i64_i64 a 0 = Exn ZeroDivisionError /\
  fast_mod_i64_i64 a 0 = Exn ZeroDivisionError /\ fast_mod_u64_i64 a 0 = Exn ZeroDivisionError /\
  fast_mod_i64_u64 a 0 = Exn ZeroDivisionError /\ fast_mod_u64_u64 a 0 = Exn ZeroDivisionError.
Proof. intros a. repeat split. Qed.
Print Assumptions C09_zero_division.

(** The mixed-signedness versions: exact for an unsigned left operand and signed divisor;
    for an unsigned divisor exact whenever the mathematical result fits in int64. *)
Theorem C09_mod_mixed : forall a b q r, py_divmod a b q r -> b <> 0 ->
  (uint64 a -> int64 b -> fast_mod_u64_i64 a b = Ok r) /\
  (int64 a -> uint64 b -> int64 r -> fast_mod_i64_u64 a b = Ok r) /\
  (uint64 a -> uint64 b -> int64 r -> fast_mod_u64_u64 a b = Ok r).
Proof.
  intros a b q r H Hb. destruct (py_divmod_unique _ _ _ _ _ _ H (py_divmod_Z a b Hb)) as (_ & ->).
  split; [|split].
  - intros Ha Hb'. exact (mod_u64_i64 a b Ha Hb' Hb).
  - intros Ha Hb' Hr. rewrite (mod_i64_u64 a b Ha Hb' Hb), wraps64_small by exact Hr. reflexivity.
  - intros Ha Hb' Hr. rewrite (mod_u64_u64 a b Ha Hb' Hb), wraps64_small by exact Hr. reflexivity.
Qed.
Example C09_mixed_example : fast_mod_u64_i64 (two64 - 1) (-10) = Ok (-5) /\
  fast_mod_i64_u64 (-1) (two64 - 1) = Ok (-2).  (* exact result 2^64-2 does not fit *)
Proof. vm_compute. auto. Qed.
Print Assumptions C09_mod_mixed.

(** C43: operands inside a range that contains 0 (signed, unsigned, or any sub-range). *)
Theorem C43_will_overflow_add_sub : forall x y lo hi, int64 lo -> int64 hi -> lo <= 0 <= hi ->
  lo <= x <= hi -> lo <= y <= hi ->
  (exists b, will_overflow_add x y lo hi = Ok b /\ (b = true <-> ~ lo <= x + y <= hi)) /\
  (exists b, will_overflow_sub x y lo hi = Ok b /\ (b = true <-> ~ lo <= x - y <= hi)).
Proof.
  intros x y lo hi Hl Hh Hr Hx Hy. split.
  - eexists. split; [apply wo_add; assumption|]. unfold overflows. lia.
  - eexists. split; [apply wo_sub; assumption|]. unfold overflows. lia.
Qed.
Example C43_example : will_overflow_add (two63 - 1) 1 (- two63) (two63 - 1) = Ok true /\
  will_overflow_sub (- two63) 1 (- two63) (two63 - 1) = Ok true /\
  will_overflow_mul (2 ^ 32) (2 ^ 31) (- two63) (two63 - 1) = Ok true /\
  will_overflow_mul (- 2 ^ 32) (2 ^ 31) (- two63) (two63 - 1) = Ok false.
Proof. vm_compute. auto. Qed.
Print Assumptions C43_will_overflow_add_sub.

Theorem C43_will_overflow_mul_partial : forall x y lo hi, int64 lo -> int64 hi -> lo <= 0 <= hi ->
  lo <= x <= hi -> lo <= y <= hi -> ~ (lo = - two63 /\ y = -1 /\ x <> - two63) ->
  exists b, will_overflow_mul x y lo hi = Ok b /\ (b = true <-> ~ lo <= x * y <= hi).
Proof.
  intros x y lo hi Hl Hh Hr Hx Hy Hn.
  eexists. split; [apply wo_mul; assumption|]. unfold overflows. lia.
Qed.
Print Assumptions C43_will_overflow_mul_partial.

(** With the full 64-bit range and y = -1 the check itself divides INT64_MIN by -1. *)
Theorem C43_mul_by_minus_one_refuted : forall x, x <> - two63 ->
  will_overflow_mul x (-1) (- two63) (two63 - 1) = UB.
Proof.
  intros x Hx. unfold will_overflow_mul. cbn -[two63]. destruct (x =? - two63) eqn:E; [apply Z.eqb_eq in E; contradiction|].
  cbn [andb]. unfold cdiv64. cbn -[two63]. rewrite Z.eqb_refl. reflexivity.
Qed.
Print Assumptions C43_mul_by_minus_one_refuted.

(** C44 *)
Theorem C44_zero_aware_gcd : forall a b, int64 a -> int64 b -> a <> - two63 -> b <> - two63 ->
  zero_aware_gcd a b = Ok (Z.gcd a b).
Proof. exact gcd_ok. Qed.
Example C44_example : zero_aware_gcd (-12) 18 = Ok 6 /\ ext_euclid (-12) 18 = Ok (6, 1, 1) /\ lcm64 4 6 = Ok 12.
Proof. vm_compute. auto. Qed.
Print Assumptions C44_zero_aware_gcd.

Theorem C44_extended_euclid_partial : forall a b, int64 a -> a <> - two63 -> 0 <= b < two63 ->
  Z.abs a * b < two63 - b ->
  exists g x y, ext_euclid a b = Ok (g, x, y) /\ g = Z.gcd a b /\ a * x + b * y = g.
Proof. intros a b Ha Hm Hb Hp. exact (ext_euclid_ok a b Ha Hb Hp Hm). Qed.
Print Assumptions C44_extended_euclid_partial.

Theorem C44_lcm_partial : forall a b, 0 <= a < two63 -> 0 <= b < two63 -> a * b < two63 - b ->
  (a <> 0 \/ b <> 0) -> lcm64 a b = Ok (Z.lcm a b).
Proof.
  intros a b Ha Hb Hp Hn. apply lcm_ok; auto; unfold int64; lia.
Qed.
Print Assumptions C44_lcm_partial.

(** Negative second argument: the returned "gcd" is negative. *)
Theorem C44_ext_euclid_negative_b_refuted : exists a b g x y,
  ext_euclid a b = Ok (g, x, y) /\ g <> Z.gcd a b.
Proof. exists 4, (-2), (-2), 0, 1. split; [vm_compute; reflexivity|vm_compute; discriminate]. Qed.
Print Assumptions C44_ext_euclid_negative_b_refuted.

(** Large arguments: the Bezout coefficient of b is computed from an overflowing product. *)
Theorem C44_ext_euclid_overflow_refuted : exists a b, 0 < a < two63 /\ 0 < b < two63 /\ ext_euclid a b = UB.
Proof. exists (2 ^ 62 - 1), (2 ^ 61 - 3). vm_compute. auto. Qed.
Print Assumptions C44_ext_euclid_overflow_refuted.

(** The least common multiple of a negative number is negative, and lcm(0,0) divides by 0. *)
Theorem C44_lcm_refuted : lcm64 (-4) 6 = Ok (-12) /\ Z.lcm (-4) 6 = 12 /\ lcm64 0 0 = UB.
Proof. vm_compute. auto. Qed.
Print Assumptions C44_lcm_refuted.
