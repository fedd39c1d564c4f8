(** * C71: 16 bit floats *)

From Coq Require Import ZArith Bool Lia.
From Verif Require Import HfSpec HfModel HfProofs.
Local Open Scope Z_scope.

(** Storing a float in a half: for every float, the nearest half, ties to even, overflow to
    infinity, with the sign; infinities and NaN are kept. *)
Theorem C71_narrow : forall w : Z, 0 <= w < 2 ^ 32 ->
  0 <= half_of_float w < 2 ^ 16 /\
  match single w with
  | Nan => half (half_of_float w) = Nan
  | Inf s => half (half_of_float w) = Inf s
  | Fin s v => rounds_to s v (2 ^ 125) (half_of_float w)
  end.
Proof.
  intros w Hw. unfold half_of_float. rewrite (single_from_bits w Hw). split.
  { apply narrow_range. intros s v H. exact (from_bits_repr w s v Hw H). }
  destruct (fp32_from_bits w) as [|s|s v] eqn:F; cbn [f32_fp].
  - reflexivity.
  - rewrite narrow_inf, half_split by lia. reflexivity.
  - destruct (from_bits_repr w s v Hw F) as [V0 R]. apply narrow_rounds; assumption.
Qed.
Print Assumptions C71_narrow.

(** 65519.996 is the greatest float that is not stored as infinity; 2049 is half way between
    two halves, the even one is taken; NaN stays NaN. *)
Example C71_narrow_example :
  half_of_float 1199566847 = 31743 /\ half (half_of_float 1199566847) = Fin false (65504 * 2 ^ 24) /\
  half_of_float 1199566848 = 31744 /\ half (half_of_float 1199566848) = Inf false /\
  half (half_of_float 1157632000) = Fin false (2048 * 2 ^ 24) /\
  half (half_of_float 4290772992) = Nan.
Proof. vm_compute. repeat split; reflexivity. Qed.

(** Reading a half as a float is exact. *)
Theorem C71_widen : forall h : Z, 0 <= h < 2 ^ 16 ->
  single (float_of_half h) =
    match half h with
    | Nan => Nan
    | Inf s => Inf s
    | Fin s y => Fin s (y * 2 ^ 125)
    end.
Proof.
  intros h Hh. unfold float_of_half. pose proof (widen_cases h Hh) as W. destruct (half h) as [|s|s y].
  - rewrite W. reflexivity.
  - destruct W as [-> _]. destruct s; reflexivity.
  - destruct W as (t & Ht & -> & _ & ->).
    apply single_to_bits; [apply hmag_repr; exact Ht|]. pose proof (hmag_nonneg t Ht). lia.
Qed.
Print Assumptions C71_widen.

Example C71_widen_example :
  float_of_half 1 = 864026624 /\ single (float_of_half 1) = Fin false (2 ^ 125) /\
  float_of_half 49152 = 3221225472.
Proof. vm_compute. repeat split; reflexivity. Qed.

(** A half read as a float and stored again is the same half, bit for bit. *)
Theorem C71_round_trip : forall h : Z, 0 <= h < 2 ^ 16 -> half h <> Nan ->
  half_of_float (float_of_half h) = h.
Proof.
  intros h Hh N. unfold half_of_float, float_of_half. pose proof (widen_cases h Hh) as W.
  destruct (half h) as [|s|s y]; [congruence| |].
  - destruct W as [-> ->]. destruct s; reflexivity.
  - destruct W as (t & Ht & _ & -> & ->).
    pose proof (hmag_nonneg t Ht). rewrite to_bits_fin by lia.
    rewrite from_to_bits by (lia || (apply hmag_repr; exact Ht)). apply narrow_widen. exact Ht.
Qed.
Print Assumptions C71_round_trip.

Example C71_round_trip_example : half 33791 = Fin true 1023 /\ half_of_float (float_of_half 33791) = 33791.
Proof. vm_compute. split; reflexivity. Qed.

(** The product of two halves is the correctly rounded product, infinities, NaN and signs of
    zeros included. *)
Theorem C71_mul : forall a b : Z, 0 <= a < 2 ^ 16 -> 0 <= b < 2 ^ 16 ->
  is_product (half a) (half b) (half_mul a b).
Proof.
  intros a b Ha Hb. unfold half_mul, is_product.
  pose proof (widen_cases a Ha) as A. pose proof (widen_cases b Hb) as B.
  destruct (half a) as [|s|s y], (half b) as [|t|t z].
  - rewrite A, B. reflexivity.
  - destruct B as [-> _]. rewrite A. reflexivity.
  - destruct B as (u & _ & _ & _ & ->). rewrite A. reflexivity.
  - destruct A as [-> _]. rewrite B. destruct s; reflexivity.
  - destruct A as [-> _], B as [-> _]. destruct s, t; reflexivity.
  - destruct A as [-> _], B as (u & Hu & -> & _ & ->). cbn [mul32].
    replace (hmag u * 2 ^ 125 =? 0) with (hmag u =? 0).
    2:{ destruct (Z.eqb_spec (hmag u) 0) as [->|]; [reflexivity|]. symmetry. apply Z.eqb_neq. lia. }
    destruct (hmag u =? 0), s, t; reflexivity.
  - destruct A as (u & _ & _ & _ & ->). rewrite B. destruct s; reflexivity.
  - destruct A as (u & Hu & -> & _ & ->), B as [-> _]. cbn [mul32].
    replace (hmag u * 2 ^ 125 =? 0) with (hmag u =? 0).
    2:{ destruct (Z.eqb_spec (hmag u) 0) as [->|]; [reflexivity|]. symmetry. apply Z.eqb_neq. lia. }
    destruct (hmag u =? 0), s, t; reflexivity.
  - destruct A as (u & Hu & -> & _ & ->), B as (u' & Hu' & -> & _ & ->).
    apply mul_rounds; assumption.
Qed.
Print Assumptions C71_mul.

(** 1.0009765625 squared, and 256 squared. *)
Example C71_mul_example :
  half_mul 15361 15361 = 15362 /\ half (half_mul 23552 56320) = Inf true.
Proof. vm_compute. split; reflexivity. Qed.

(** The sum of two halves is the correctly rounded sum: the float in between, with 24 bits,
    never makes a difference. *)
Theorem C71_add : forall a b : Z, 0 <= a < 2 ^ 16 -> 0 <= b < 2 ^ 16 ->
  is_sum (half a) (half b) (half_add a b).
Proof.
  intros a b Ha Hb. unfold half_add, is_sum.
  pose proof (widen_cases a Ha) as A. pose proof (widen_cases b Hb) as B.
  destruct (half a) as [|s|s y], (half b) as [|t|t z].
  - rewrite A, B. reflexivity.
  - destruct B as [-> _]. rewrite A. reflexivity.
  - destruct B as (u & _ & _ & _ & ->). rewrite A. reflexivity.
  - destruct A as [-> _]. rewrite B. reflexivity.
  - destruct A as [-> _], B as [-> _]. destruct s, t; reflexivity.
  - destruct A as [-> _], B as (u & _ & _ & _ & ->). destruct s; reflexivity.
  - destruct A as (u & _ & _ & _ & ->). rewrite B. reflexivity.
  - destruct A as (u & _ & _ & _ & ->), B as [-> _]. destruct t; reflexivity.
  - destruct A as (u & Hu & -> & _ & ->), B as (u' & Hu' & -> & _ & ->).
    apply add_rounds; assumption.
Qed.
Print Assumptions C71_add.

Theorem C71_sub : forall a b : Z, 0 <= a < 2 ^ 16 -> 0 <= b < 2 ^ 16 ->
  is_sum (half a) (opposite (half b)) (half_sub a b).
Proof.
  intros a b Ha Hb. unfold half_sub, sub32, is_sum.
  pose proof (widen_cases a Ha) as A. pose proof (widen_cases b Hb) as B.
  destruct (half a) as [|s|s y], (half b) as [|t|t z]; cbn [opposite].
  - rewrite A, B. reflexivity.
  - destruct B as [-> _]. rewrite A. reflexivity.
  - destruct B as (u & _ & _ & _ & ->). rewrite A. reflexivity.
  - destruct A as [-> _]. rewrite B. reflexivity.
  - destruct A as [-> _], B as [-> _]. destruct s, t; reflexivity.
  - destruct A as [-> _], B as (u & _ & _ & _ & ->). destruct s; reflexivity.
  - destruct A as (u & _ & _ & _ & ->). rewrite B. reflexivity.
  - destruct A as (u & _ & _ & _ & ->), B as [-> _]. destruct t; reflexivity.
  - destruct A as (u & Hu & -> & _ & ->), B as (u' & Hu' & -> & _ & ->).
    apply add_rounds; assumption.
Qed.
Print Assumptions C71_sub.

(** 65504 + 2^-24 needs 40 bits, a float holds 24 of them: 65504 all the same.  2048 + 1 is a tie.
    1 - 1 is the positive zero. *)
Example C71_add_example :
  half_add 31743 1 = 31743 /\ half_add 26624 15360 = 26624 /\ half_add 26625 15360 = 26626 /\
  half_sub 15360 15360 = 0 /\ half_add 32768 32768 = 32768 /\ half (half_add 31743 31743) = Inf false.
Proof. vm_compute. repeat split; reflexivity. Qed.

(** Items of a list stored in a float16 array.  Python's numbers are doubles; those that are
    exactly a float are stored as the nearest half.

    Full statement: for every double. *)
Theorem C71_store_partial : forall (w : Z) (s : bool) (v : Z),
  0 <= w < 2 ^ 32 -> single w = Fin s v ->
  rounds_to s (v * 2 ^ 925) (2 ^ 1050) (half_store s (v * 2 ^ 925)).
Proof.
  intros w s v Hw H. rewrite (single_from_bits w Hw) in H.
  destruct (fp32_from_bits w) as [|s'|s' v'] eqn:F; try discriminate. cbn [f32_fp] in H.
  apply Fin_inj in H. destruct H as [-> ->].
  destruct (from_bits_repr w s v Hw F) as [V0 R]. apply store_rounds; assumption.
Qed.
Print Assumptions C71_store_partial.

(** 1.5 *)
Example C71_store_example :
  single 1069547520 = Fin false (3 * 2 ^ 148) /\ half_store false (3 * 2 ^ 148 * 2 ^ 925) = 15872.
Proof. vm_compute. split; reflexivity. Qed.

(** Other doubles are rounded twice: 1 + 2^-11 + 2^-40 is nearer to 1 + 2^-10 than to 1, but
    the array gets 1 (NumPy's float16 array gets 1 + 2^-10). *)
Theorem C71_store_refuted :
  exists w v, 0 <= w < 2 ^ 64 /\ double w = Fin false v /\
    ~ rounds_to false v (2 ^ 1050) (half_store false v) /\
    rounds_to false v (2 ^ 1050) 15361.
Proof.
  exists (1023 * 2 ^ 52 + 2 ^ 41 + 2 ^ 12), ((2 ^ 52 + 2 ^ 41 + 2 ^ 12) * 2 ^ 1022).
  split; [lia|]. split; [vm_compute; reflexivity|]. split.
  - intros H. unfold rounds_to in H.
    replace ((2 ^ 52 + 2 ^ 41 + 2 ^ 12) * 2 ^ 1022 <? 65520 * 2 ^ 24 * 2 ^ 1050) with true in H
      by (vm_compute; reflexivity).
    replace (half_store false ((2 ^ 52 + 2 ^ 41 + 2 ^ 12) * 2 ^ 1022)) with 15360 in H
      by (vm_compute; reflexivity).
    destruct H as (y & Hy & N).
    replace (half 15360) with (Fin false (2 ^ 24)) in Hy by reflexivity.
    apply Fin_inj in Hy. destruct Hy as [_ <-].
    specialize (N 15361 false (2 ^ 24 + 2 ^ 14) ltac:(lia) ltac:(reflexivity)).
    destruct N as [N _]. revert N. vm_compute. intros N. apply N. reflexivity.
  - replace ((2 ^ 52 + 2 ^ 41 + 2 ^ 12) * 2 ^ 1022) with (((2 ^ 52 + 2 ^ 41 + 2 ^ 12) * 2 ^ 97) * 2 ^ 925)
      by (vm_compute; reflexivity).
    replace (2 ^ 1050) with (2 ^ 125 * 2 ^ 925) by (vm_compute; reflexivity).
    apply scale_rounds_to; [apply pow_pos; lia|].
    exact (formula_rounds false ((2 ^ 52 + 2 ^ 41 + 2 ^ 12) * 2 ^ 97) ltac:(lia)).
Qed.
Print Assumptions C71_store_refuted.
