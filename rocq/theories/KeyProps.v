(** C47: equal keys have equal hashes. *)
From Coq Require Import Floats.SpecFloat.
From Verif Require Import Base HashModel HashSpec KeyModel KeySpec KeyProofs HashProps.

(** Hashing any key ends with a size_t. *)
Theorem C47_hash_total : forall bytes_hash unicode_hash k,
  exists h, any_hash bytes_hash unicode_hash k = Ok h /\ 0 <= h < 2 ^ 64.
Proof. exact any_hash_total. Qed.
Print Assumptions C47_hash_total.

(** Keys built from None, integers, bytes, strings and tuples meet what the hash table asks
    of its keys, whatever the hash of strings is; equality is equality of contents. *)
Theorem C47_lawful : forall bytes_hash unicode_hash,
  lawful (fun k : {k | float_free k = true} => key_hash bytes_hash unicode_hash (proj1_sig k))
         (fun a b => any_eq (proj1_sig a) (proj1_sig b)).
Proof. exact sig_lawful. Qed.
Print Assumptions C47_lawful.
Theorem C47_eq_contents : forall a b, float_free a = true -> float_free b = true ->
  (any_eq a b = true <-> a = b).
Proof. intros a b Ha Hb. apply any_eq_iff; assumption. Qed.
Print Assumptions C47_eq_contents.

(** So dicts with such keys are Python dicts, for every history. *)
Theorem C47_dict : forall bytes_hash unicode_hash (V : Type) cap fuel (none : V) ops,
  machine cap fuel -> 2 ^ (inserts ops + 3) <= cap -> Forall (reserve_below cap) ops ->
  let eqb := fun a b : {k | float_free k = true} => any_eq (proj1_sig a) (proj1_sig b) in
  exists outs, dict_run eqb (fun k => key_hash bytes_hash unicode_hash (proj1_sig k)) cap fuel none tempty ops = Ok outs /\
    Forall2 same_out outs (ref_run eqb [] ops).
Proof. intros bh uh V cap fuel none ops M H1 H2 eqb. apply C27_dict_memory; [apply C47_lawful|assumption..]. Qed.
Print Assumptions C47_dict.

(** The hash of a floating point number is Python's hash of its value. *)
Theorem C47_float_hash : forall x num den, 0 < den -> is_ratio x num den ->
  exists h, hash_double x = Ok h /\ py_hash num den h.
Proof. exact hash_double_ratio. Qed.
Print Assumptions C47_float_hash.

(** The values without a ratio hash as CPython says: sys.hash_info.inf with the sign of the
    infinity (modulo 2^64), and 0 for a NaN. *)
Theorem C47_special_hash : 
  hash_double (S754_infinity false) = Ok 314159 /\
  (exists h, hash_double (S754_infinity true) = Ok h /\ 0 <= h < 2 ^ 64 /\ (h + 314159) mod 2 ^ 64 = 0) /\
  hash_double S754_nan = Ok 0.
Proof. split; [reflexivity|]. split; [|reflexivity]. eexists. split; [reflexivity|]. split; [|reflexivity]. vm_compute. split; congruence. Qed.
Print Assumptions C47_special_hash.

(** The hash of an integer is Python's exactly up to 2^61 - 2. *)
Theorem C47_int_hash : forall n, int64_key n -> (py_hash n 1 (int_hash n) <-> Z.abs n < 2 ^ 61 - 1).
Proof.
  intros n H. split; [|apply int_hash_small]. intros PH. destruct (Z.lt_ge_cases (Z.abs n) (2 ^ 61 - 1)) as [L|G]; [assumption|].
  exfalso. apply (int_hash_big n H G PH).
Qed.
Print Assumptions C47_int_hash.

(** 1 and 1.0: an integer and the same number as a float have equal hashes exactly when it is
    below 2^61 - 1 in absolute value.  Missing: larger ones, see the refutation. *)
Theorem C47_int_float_partial : forall bytes_hash unicode_hash n x, int64_key n -> is_ratio x n 1 ->
  (any_hash bytes_hash unicode_hash (KInt n) = any_hash bytes_hash unicode_hash (KFloat x) <-> Z.abs n < 2 ^ 61 - 1).
Proof.
  intros bh uh n x HI HR. cbn [any_hash]. destruct (hash_double_ratio x n 1 ltac:(lia) HR) as (h & E & PH). rewrite E. split.
  - intros Q. injection Q as Q. apply C47_int_hash; [assumption|]. rewrite Q. exact PH.
  - intros L. f_equal. eapply py_hash_unique; [apply int_hash_small; exact L|exact PH].
Qed.
Print Assumptions C47_int_float_partial.
Theorem C47_int_float_refuted : forall bytes_hash unicode_hash n x, int64_key n -> is_ratio x n 1 ->
  of_int n = x -> 2 ^ 61 - 1 <= Z.abs n ->
  any_eq (KInt n) (KFloat x) = true /\
  any_hash bytes_hash unicode_hash (KInt n) <> any_hash bytes_hash unicode_hash (KFloat x).
Proof.
  intros bh uh n x HI HR HX HB. split.
  - cbn [any_eq]. rewrite HX, almost_equals_self. destruct x; try contradiction HR; reflexivity.
  - intros Q. apply (C47_int_float_partial bh uh n x HI HR) in Q. lia.
Qed.
Print Assumptions C47_int_float_refuted.

(** A float is equal to itself exactly when it is finite; Python's infinities are too. *)
Theorem C47_self_partial : forall x, any_eq (KFloat x) (KFloat x) = true <->
  match x with S754_zero _ | S754_finite _ _ _ => True | _ => False end.
Proof. intros x. cbn [any_eq]. rewrite almost_equals_self. destruct x; cbn [finite]; split; intros H; try exact I; try reflexivity; try discriminate H; destruct H. Qed.
Print Assumptions C47_self_partial.
Theorem C47_infinity_refuted : forall bytes_hash unicode_hash, let inf := KFloat (S754_infinity false) in
  any_eq inf inf = false /\
  set_run any_eq (key_hash bytes_hash unicode_hash) (2 ^ 40) 60 tempty [SAdd inf; SContains inf; SAdd inf; SLen] =
    Ok [SDone; SBool false; SDone; SNum 2].
Proof. intros bh uh inf. split; vm_compute; reflexivity. Qed.
Print Assumptions C47_infinity_refuted.

(** Equality of floats is approximate: not transitive, and equal floats hash differently. *)
Definition near_one (k : Z) : key := KFloat (S754_finite false (Z.to_pos (2 ^ 52 + k)) (-52)).
Theorem C47_approximate_refuted : forall bytes_hash unicode_hash,
  any_eq (near_one 0) (near_one 8) = true /\ any_eq (near_one 8) (near_one 16) = true /\
  any_eq (near_one 0) (near_one 16) = false /\
  any_hash bytes_hash unicode_hash (near_one 0) <> any_hash bytes_hash unicode_hash (near_one 8).
Proof. intros bh uh. repeat split; try (vm_compute; reflexivity). vm_compute. discriminate. Qed.
Print Assumptions C47_approximate_refuted.
(** So whether a float is found depends on the size of the table. *)
Theorem C47_two_answers_refuted : forall bytes_hash unicode_hash,
  let h := key_hash bytes_hash unicode_hash in
  set_run any_eq h (2 ^ 40) 60 tempty [SAdd (near_one 0); SContains (near_one 7)] = Ok [SDone; SBool true] /\
  set_run any_eq h (2 ^ 40) 60 tempty [SReserve 8; SAdd (near_one 0); SContains (near_one 7)] = Ok [SDone; SDone; SBool false].
Proof. intros bh uh h. split; vm_compute; reflexivity. Qed.
Print Assumptions C47_two_answers_refuted.

Example C47_example : let h := any_hash (fun s => 7 * fold_left Z.add s 0) (fun s => 5) in
  float_free (KTuple [KInt (-1); KStr [97; 8364]; KTuple [KNone; KBytes [1; 2]]]) = true /\
  h (KTuple [KInt (-1); KStr [97; 8364]; KTuple [KNone; KBytes [1; 2]]]) = Ok 2959616007894545711 /\
  h (KInt (-1)) = Ok (2 ^ 64 - 2) /\
  is_ratio (S754_finite true 6755399441055744 (-51)) (-3) 1 /\
  h (KFloat (S754_finite true 6755399441055744 (-51))) = Ok (2 ^ 64 - 3) /\ h (KInt (-3)) = Ok (2 ^ 64 - 3) /\
  is_ratio (S754_finite false 4503599627370496 (-53)) 1 2 /\
  h (KFloat (S754_finite false 4503599627370496 (-53))) = Ok (2 ^ 60) /\
  is_ratio (of_int (2 ^ 61)) (2 ^ 61) 1 /\
  h (KInt (2 ^ 61)) = Ok (2 ^ 61) /\ h (KFloat (of_int (2 ^ 61))) = Ok 1.
Proof. repeat split; vm_compute; reflexivity. Qed.
