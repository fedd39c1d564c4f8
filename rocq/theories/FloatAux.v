(** Facts about the standard library's executable IEEE arithmetic (Coq.Floats.SpecFloat),
    proved over the integers. *)
From Verif Require Import Base.
From Coq Require Import Floats.SpecFloat.
Local Notation digits := Zdigits2.
Local Notation fexp64 := (fexp 53 1024).

Lemma digits2_log2 p : Zpos (digits2_pos p) = Z.log2 (Zpos p) + 1.
Proof.
  induction p as [p IH|p IH|]; cbn [digits2_pos]; [| |reflexivity].
  - rewrite Pos2Z.inj_succ, IH. change (Zpos p~1) with (2 * Zpos p + 1).
    rewrite Z.log2_succ_double by lia. lia.
  - rewrite Pos2Z.inj_succ, IH. change (Zpos p~0) with (2 * Zpos p).
    rewrite Z.log2_double by lia. lia.
Qed.
Lemma digits_pos m : 0 < m -> digits m = Z.log2 m + 1.
Proof. destruct m; try lia. intros _. apply digits2_log2. Qed.
Lemma digits_bounds m : 0 < m -> 2 ^ (digits m - 1) <= m < 2 ^ digits m.
Proof.
  intros H. rewrite digits_pos by lia. pose proof (Z.log2_spec m H). split.
  - replace (Z.log2 m + 1 - 1) with (Z.log2 m) by lia. lia.
  - rewrite <- Z.add_1_r in H0. lia.
Qed.
Lemma digits_unique m d : 0 < d -> 2 ^ (d - 1) <= m < 2 ^ d -> digits m = d.
Proof.
  intros Hd H. assert (0 < m). { pose proof (Z.pow_pos_nonneg 2 (d - 1)). lia. }
  rewrite digits_pos by lia. rewrite (Z.log2_unique m (d - 1)); [lia|lia|].
  replace (Z.succ (d - 1)) with d by lia. lia.
Qed.
Lemma digits_nonneg m : 0 <= m -> 0 <= digits m.
Proof. intros. destruct m; cbn; lia. Qed.
Lemma digits_0 m : 0 <= m -> digits m <= 0 -> m = 0.
Proof. intros. destruct m; cbn in *; lia. Qed.
Lemma digits_le m d : 0 <= d -> 0 <= m < 2 ^ d -> digits m <= d.
Proof.
  intros Hd H. destruct (Z.eq_dec m 0) as [->|N]; [cbn; lia|].
  rewrite digits_pos by lia. destruct H as [H0 H]. apply Z.log2_lt_pow2 in H; lia.
Qed.
Lemma digits_mul2 m k : 0 < m -> 0 <= k -> digits (m * 2 ^ k) = digits m + k.
Proof.
  intros Hm Hk. rewrite (digits_pos (m * 2 ^ k)), (digits_pos m) by lia.
  rewrite Z.log2_mul_pow2 by lia. lia.
Qed.
Lemma digits_div2 m k : 0 <= m -> 0 <= k <= digits m -> digits (m / 2 ^ k) = digits m - k.
Proof.
  intros Hm Hk. destruct (Z.eq_dec m 0) as [->|N]. { cbn in Hk. replace k with 0 by lia. reflexivity. }
  assert (B := digits_bounds m ltac:(lia)).
  destruct (Z.eq_dec k (digits m)) as [->|Nk].
  - rewrite Z.div_small by lia. cbn. lia.
  - apply digits_unique; [lia|]. assert (0 < 2 ^ k) by (apply Z.pow_pos_nonneg; lia). split.
    + apply Z.div_le_lower_bound; [lia|]. rewrite <- Z.pow_add_r by lia.
      replace (k + (digits m - k - 1)) with (digits m - 1) by lia. lia.
    + apply Z.div_lt_upper_bound; [lia|]. rewrite <- Z.pow_add_r by lia.
      replace (k + (digits m - k)) with (digits m) by lia. lia.
Qed.

(** ** Shifting right *)
Lemma iter_pos_comm {A} (f : A -> A) p : forall x, iter_pos f p (f x) = f (iter_pos f p x).
Proof.
  induction p as [p IH|p IH|]; intros x; cbn [iter_pos]; [|rewrite !IH|]; try reflexivity.
  rewrite !IH. reflexivity.
Qed.
Lemma iter_pos_add {A} (f : A -> A) p : forall x, iter_pos f (Pos.succ p) x = iter_pos f p (f x).
Proof.
  induction p as [p IH|p IH|]; intros x; cbn [iter_pos Pos.succ]; [|reflexivity|reflexivity].
  rewrite !IH. rewrite <- (iter_pos_comm f p (f x)). reflexivity.
Qed.
Lemma shr_1_m r : 0 <= shr_m r -> shr_m (shr_1 r) = shr_m r / 2 /\ 0 <= shr_m (shr_1 r).
Proof.
  destruct r as [m b s]; cbn [shr_m]. intros H. destruct m as [|p|p]; [easy| |lia].
  assert (G : shr_m (shr_1 {| shr_m := Z.pos p; shr_r := b; shr_s := s |}) = Zpos p / 2).
  { destruct p as [p|p|]; cbn [shr_1 shr_m]; [| |reflexivity].
    - change (Zpos p~1) with (2 * Zpos p + 1). symmetry.
      rewrite Z.add_comm, Z.mul_comm, Z.div_add by lia. reflexivity.
    - change (Zpos p~0) with (2 * Zpos p). rewrite Z.mul_comm, Z.div_mul by lia. reflexivity. }
  rewrite G. split; [reflexivity|]. apply Z.div_pos; lia.
Qed.
Lemma iter_shr_m p : forall r, 0 <= shr_m r -> shr_m (iter_pos shr_1 p r) = shr_m r / 2 ^ Zpos p.
Proof.
  induction p as [|p IH] using Pos.peano_ind; intros r H.
  - cbn [iter_pos]. apply (proj1 (shr_1_m r H)).
  - rewrite iter_pos_add. destruct (shr_1_m r H) as [E N]. rewrite IH, E by exact N.
    rewrite Pos2Z.inj_succ, Z.pow_succ_r, Z.div_div by (try apply Z.pow_pos_nonneg; lia). reflexivity.
Qed.
Lemma shr_spec r e n : 0 <= shr_m r -> exists r', shr r e n = (r', e + Z.max 0 n) /\
  shr_m r' = shr_m r / 2 ^ Z.max 0 n.
Proof.
  intros H. destruct n as [|p|p].
  - exists r. split; [cbn; f_equal; lia|]. cbn. rewrite Z.div_1_r. reflexivity.
  - exists (iter_pos shr_1 p r). split; [reflexivity|]. apply iter_shr_m, H.
  - exists r. split; [cbn; f_equal; lia|]. cbn. rewrite Z.div_1_r. reflexivity.
Qed.
Lemma iter_exact p : forall k, 0 <= k ->
  iter_pos shr_1 p {| shr_m := k * 2 ^ Zpos p; shr_r := false; shr_s := false |}
  = {| shr_m := k; shr_r := false; shr_s := false |}.
Proof.
  induction p as [|p IH] using Pos.peano_ind; intros k H.
  - cbn [iter_pos]. change (2 ^ 1) with 2. destruct k as [|k|k]; [reflexivity| |lia].
    rewrite Z.mul_comm. reflexivity.
  - rewrite iter_pos_add. rewrite <- (IH k H) at 1. f_equal.
    rewrite Pos2Z.inj_succ, Z.pow_succ_r by lia.
    replace (k * (2 * 2 ^ Zpos p)) with (2 * (k * 2 ^ Zpos p)) by ring.
    assert (0 <= k * 2 ^ Zpos p) by (apply Z.mul_nonneg_nonneg; [lia|apply Z.pow_nonneg; lia]).
    destruct (k * 2 ^ Zpos p) as [|q|q]; [reflexivity|reflexivity|lia].
Qed.
Lemma shr_exact k n e : 0 <= k -> 0 <= n ->
  shr {| shr_m := k * 2 ^ n; shr_r := false; shr_s := false |} e n
  = ({| shr_m := k; shr_r := false; shr_s := false |}, e + n).
Proof.
  intros Hk Hn. destruct n as [|p|p]; [|cbn [shr]; rewrite iter_exact by lia; reflexivity|lia].
  cbn. rewrite Z.mul_1_r, Z.add_0_r. reflexivity.
Qed.

(** ** Rounding *)
Lemma round_ne_bounds m l : m <= round_nearest_even m l <= m + 1.
Proof. destruct l as [|[]]; cbn; try lia. destruct (Z.even m); lia. Qed.
Lemma round_exact m : round_nearest_even m loc_Exact = m. Proof. reflexivity. Qed.

Definition valid (x : spec_float) : Prop := valid_binary 53 1024 x = true.

Lemma emin_val : emin 53 1024 = -1074. Proof. reflexivity. Qed.
Lemma fexp_val x : fexp64 x = Z.max (x - 53) (-1074). Proof. reflexivity. Qed.

Lemma record_m m l : shr_m (shr_record_of_loc m l) = m.
Proof. destruct l as [|[]]; reflexivity. Qed.

Lemma canonical_iff m e : canonical_mantissa 53 1024 m e = true <-> Z.max (digits (Zpos m) + e - 53) (-1074) = e.
Proof. unfold canonical_mantissa. rewrite <- Zeq_is_eq_bool. reflexivity. Qed.
Lemma bounded_iff m e : bounded 53 1024 m e = true <->
  Z.max (digits (Zpos m) + e - 53) (-1074) = e /\ e <= 971.
Proof. unfold bounded. rewrite andb_true_iff, canonical_iff. change (1024 - 53) with 971. lia. Qed.

(** Rounding an integer significand whose exponent is not too large gives a double, never a
    NaN. *)
Lemma round_aux_valid s m e l : 0 <= m -> e <= fexp64 (digits m + e) ->
  valid (binary_round_aux 53 1024 s m e l) /\ binary_round_aux 53 1024 s m e l <> S754_nan /\
  (digits m + e <= 1023 -> forall s', binary_round_aux 53 1024 s m e l <> S754_infinity s').
Proof.
  intros Hm He. unfold binary_round_aux, shr_fexp. rewrite fexp_val in *.
  set (n := Z.max (digits m + e - 53) (-1074) - e) in *. assert (Hn : 0 <= n) by (subst n; lia).
  destruct (shr_spec (shr_record_of_loc m l) e n) as (r1 & -> & E1). { rewrite record_m. lia. }
  rewrite record_m, Z.max_r in E1 by lia. rewrite Z.max_r by lia.
  set (l1 := loc_of_shr_record r1). clearbody l1. rewrite E1. clear E1 r1.
  set (m1 := m / 2 ^ n). assert (Hm1 : 0 <= m1 < 2 ^ 53).
  { subst m1. assert (0 < 2 ^ n) by (apply Z.pow_pos_nonneg; lia). split; [apply Z.div_pos; lia|].
    destruct (Z.le_gt_cases n (digits m)) as [L|L].
    - destruct (Z.eq_dec (m / 2 ^ n) 0) as [->|N]; [lia|].
      assert (0 <= m / 2 ^ n) by (apply Z.div_pos; lia).
      pose proof (digits_bounds (m / 2 ^ n) ltac:(lia)) as B. rewrite digits_div2 in B by lia.
      apply Z.lt_le_trans with (1 := proj2 B). apply Z.pow_le_mono_r; lia.
    - rewrite Z.div_small; [lia|]. split; [lia|]. destruct (Z.eq_dec m 0) as [->|N]; [lia|].
      pose proof (digits_bounds m ltac:(lia)). pose proof (Z.pow_le_mono_r 2 (digits m) n). lia. }
  assert (Hsub : m1 < 2 ^ 52 -> e + n = -1074).
  { intros Hlt. destruct (Z.eq_dec (e + n) (-1074)) as [|N]; [assumption|]. exfalso.
    assert (n = digits m - 53) by (subst n; lia).
    assert (0 < m). { destruct (Z.eq_dec m 0) as [->|]; [|lia]. cbn in H. lia. }
    pose proof (digits_bounds m ltac:(lia)).
    assert (2 ^ 52 <= m1); [|lia]. subst m1. apply Z.div_le_lower_bound; [apply Z.pow_pos_nonneg; lia|].
    rewrite <- Z.pow_add_r by lia. replace (n + 52) with (digits m - 1) by lia. lia. }
  assert (Hge : -1074 <= e + n) by (subst n; lia).
  assert (Hle : digits m + e <= 1023 -> e + n <= 970) by (subst n; lia).
  clearbody m1. set (e1 := e + n) in *. clearbody e1. set (small := digits m + e <= 1023) in *. clearbody small. clear n Hn m e He Hm.
  pose proof (round_ne_bounds m1 l1) as R. set (m2 := round_nearest_even m1 l1) in *. clearbody m2.
  rewrite fexp_val. set (n2 := Z.max (digits m2 + e1 - 53) (-1074) - e1).
  destruct (shr_spec (shr_record_of_loc m2 loc_Exact) e1 n2) as (r2 & -> & E2). { rewrite record_m. lia. }
  rewrite record_m in E2. rewrite E2. clear E2 r2.
  destruct (Z.eq_dec m2 (2 ^ 53)) as [Em|Em].
  - assert (D : digits m2 = 54) by (rewrite Em; reflexivity).
    assert (N2 : n2 = 1) by (subst n2; rewrite D; lia). rewrite N2, Em. change (Z.max 0 1) with 1.
    change (2 ^ 53 / 2 ^ 1) with (Zpos (2 ^ 52)).
    destruct (Z.leb_spec (e1 + 1) (1024 - 53)); [|split; [reflexivity|split; [discriminate|intros S; specialize (Hle S); lia]]].
    split; [|split; discriminate]. unfold valid, valid_binary. apply bounded_iff.
    change (digits (Z.pos (2 ^ 52))) with 53. lia.
  - assert (Hm2 : 0 <= m2 < 2 ^ 53) by lia.
    assert (D : digits m2 <= 53) by (apply digits_le; lia).
    destruct (Z.eq_dec m2 0) as [->|Nz].
    { rewrite Z.div_0_l by (apply Z.pow_nonzero; lia). split; [reflexivity|split; discriminate]. }
    assert (Cn : n2 = 0).
    { subst n2. destruct (Z.lt_ge_cases m2 (2 ^ 52)) as [L|L].
      - assert (e1 = -1074) by (apply Hsub; lia). subst e1. lia.
      - pose proof (digits_bounds m2 ltac:(lia)) as B.
        pose proof (digits_nonneg m2). assert (52 < digits m2); [|lia]. apply (Z.pow_lt_mono_r_iff 2); lia. }
    rewrite Cn. change (Z.max 0 0) with 0. rewrite Z.div_1_r, Z.add_0_r.
    destruct m2 as [|p|p]; [lia| |lia].
    destruct (Z.leb_spec e1 (1024 - 53)); [|split; [reflexivity|split; [discriminate|intros S; specialize (Hle S); lia]]].
    split; [|split; discriminate]. unfold valid, valid_binary. apply bounded_iff. subst n2. lia.
Qed.

(** An exactly representable significand is not changed by rounding. *)
Lemma round_aux_exact s k e n : 0 <= n -> bounded 53 1024 k (e + n) = true ->
  binary_round_aux 53 1024 s (Zpos k * 2 ^ n) e loc_Exact = S754_finite s k (e + n).
Proof.
  intros Hn B. apply bounded_iff in B. destruct B as [C E].
  unfold binary_round_aux, shr_fexp. rewrite fexp_val, digits_mul2 by lia.
  replace (Z.max (digits (Z.pos k) + n + e - 53) (-1074) - e) with n by lia.
  unfold shr_record_of_loc. rewrite shr_exact by lia. cbn [shr_m].
  change (loc_of_shr_record {| shr_m := Z.pos k; shr_r := false; shr_s := false |}) with loc_Exact.
  rewrite round_exact, fexp_val.
  replace (Z.max (digits (Z.pos k) + (e + n) - 53) (-1074) - (e + n)) with 0 by lia.
  cbn [shr shr_m]. destruct (Z.leb_spec (e + n) (1024 - 53)); [reflexivity|lia].
Qed.

Lemma shl_align_spec m e e' : let (m', e1) := shl_align m e e' in
  e1 = Z.min e e' /\ Zpos m' = Zpos m * 2 ^ (e - e1).
Proof.
  unfold shl_align. destruct (e' - e) as [|p|p] eqn:D.
  - split; [lia|]. rewrite Z.sub_diag. lia.
  - split; [lia|]. rewrite Z.sub_diag. lia.
  - split; [lia|]. rewrite shift_pos_correct, Z.pow_pos_fold. replace (e - e') with (Zpos p) by lia. lia.
Qed.

(** binary_normalize always gives a double. *)
Lemma round_valid s m e : valid (binary_round 53 1024 s m e) /\ binary_round 53 1024 s m e <> S754_nan /\
  (digits (Zpos m) + e <= 1023 -> forall s', binary_round 53 1024 s m e <> S754_infinity s').
Proof.
  unfold binary_round.
  pose proof (shl_align_spec m e (fexp64 (Zpos (digits2_pos m) + e))) as H.
  destruct (shl_align m e (fexp64 (Z.pos (digits2_pos m) + e))) as [m' e1]. destruct H as [E M].
  change (Zpos (digits2_pos m)) with (digits (Zpos m)) in *.
  destruct (round_aux_valid s (Zpos m') e1 loc_Exact) as (V & N & I); [lia| |].
  - rewrite M. rewrite digits_mul2 by lia. rewrite fexp_val in *. lia.
  - split; [exact V|split; [exact N|]]. intros L. apply I. rewrite M, digits_mul2 by lia. lia.
Qed.
Lemma normalize_valid m e s : valid (binary_normalize 53 1024 m e s) /\ binary_normalize 53 1024 m e s <> S754_nan /\
  (Z.abs m < 2 ^ (1023 - e) -> e <= 1023 -> forall s', binary_normalize 53 1024 m e s <> S754_infinity s').
Proof.
  destruct m as [|p|p]; cbn [binary_normalize]; [split; [reflexivity|split; discriminate]| |].
  - destruct (round_valid false p e) as (V & N & I). split; [exact V|split; [exact N|]]. intros L L'. apply I.
    pose proof (digits_le (Zpos p) (1023 - e)). lia.
  - destruct (round_valid true p e) as (V & N & I). split; [exact V|split; [exact N|]]. intros L L'. apply I.
    pose proof (digits_le (Zpos p) (1023 - e)). lia.
Qed.

(** An integer significand that fits is represented exactly. *)
Lemma round_fits s m e k j : bounded 53 1024 k j = true -> Zpos m * 2 ^ (e - Z.min e j) = Zpos k * 2 ^ (j - Z.min e j) ->
  binary_round 53 1024 s m e = S754_finite s k j.
Proof.
  intros B M. unfold binary_round.
  pose proof (shl_align_spec m e (fexp64 (Zpos (digits2_pos m) + e))) as H.
  destruct (shl_align m e (fexp64 (Z.pos (digits2_pos m) + e))) as [m' e1]. destruct H as [E M1].
  change (Zpos (digits2_pos m)) with (digits (Zpos m)) in *.
  assert (C := B). apply bounded_iff in C. destruct C as [C _].
  assert (D : digits (Zpos m) + e = digits (Zpos k) + j).
  { assert (D := f_equal digits M). rewrite !digits_mul2 in D by lia. lia. }
  rewrite fexp_val, D, C in E.
  assert (Zpos m' = Zpos k * 2 ^ (j - e1)) as ->.
  { rewrite M1, E. exact M. }
  rewrite round_aux_exact by (try replace (e1 + (j - e1)) with j by lia; try exact B; lia).
  f_equal. lia.
Qed.

(** ** The operations give doubles *)
Lemma add_valid x y : valid x -> valid y -> valid (SFadd 53 1024 x y).
Proof.
  destruct x as [s|s| |s m e], y as [s'|s'| |s' m' e']; intros H H'; cbn [SFadd]; try assumption; try reflexivity;
    try (destruct (Bool.eqb _ _); reflexivity). apply normalize_valid.
Qed.
Lemma sub_valid x y : valid x -> valid y -> valid (SFsub 53 1024 x y).
Proof.
  destruct x as [s|s| |s m e], y as [s'|s'| |s' m' e']; intros H H'; cbn [SFsub]; try assumption; try reflexivity;
    try (destruct (Bool.eqb _ _); reflexivity). apply normalize_valid.
Qed.
Lemma mul_valid x y : valid x -> valid y -> valid (SFmul 53 1024 x y).
Proof.
  destruct x as [s|s| |s m e], y as [s'|s'| |s' m' e']; intros H H'; cbn [SFmul]; try reflexivity.
  apply bounded_iff in H, H'. apply round_aux_valid; [lia|]. rewrite fexp_val, Pos2Z.inj_mul.
  pose proof (digits_bounds (Zpos m) ltac:(lia)) as B. pose proof (digits_bounds (Zpos m') ltac:(lia)) as B'.
  set (d := digits (Zpos m)) in *. set (d' := digits (Zpos m')) in *.
  assert (P : 0 < d) by (unfold d; rewrite digits_pos by lia; pose proof (Z.log2_nonneg (Zpos m)); lia).
  assert (P' : 0 < d') by (unfold d'; rewrite digits_pos by lia; pose proof (Z.log2_nonneg (Zpos m')); lia).
  assert (d + d' - 1 <= digits (Zpos m * Zpos m')); [|lia].
  rewrite digits_pos by lia.
  assert (d + d' - 2 <= Z.log2 (Zpos m * Zpos m')); [|lia].
  apply Z.log2_le_pow2; [lia|]. replace (d + d' - 2) with ((d - 1) + (d' - 1)) by lia.
  rewrite Z.pow_add_r by lia. apply Z.mul_le_mono_nonneg; try lia; apply Z.pow_nonneg; lia.
Qed.
Lemma div_core m1 e1 m2 e2 q e' l : 0 < m1 -> 0 < m2 -> SFdiv_core_binary 53 1024 m1 e1 m2 e2 = (q, e', l) ->
  e' = Z.min (fexp64 (digits m1 + e1 - (digits m2 + e2))) (e1 - e2) /\
  q = m1 * 2 ^ (e1 - e2 - e') / m2 /\ l = new_location m2 (m1 * 2 ^ (e1 - e2 - e') mod m2).
Proof.
  intros H1 H2. unfold SFdiv_core_binary.
  set (e := Z.min (fexp64 (digits m1 + e1 - (digits m2 + e2))) (e1 - e2)).
  assert (Hs : 0 <= e1 - e2 - e) by (subst e; lia).
  assert (M : match e1 - e2 - e with 0 => m1 | Zpos _ => Z.shiftl m1 (e1 - e2 - e) | Zneg _ => 0 end
              = m1 * 2 ^ (e1 - e2 - e)).
  { rewrite Z.shiftl_mul_pow2 by lia. destruct (e1 - e2 - e); [cbn; lia|reflexivity|lia]. }
  rewrite M. assert (D := Z_div_mod (m1 * 2 ^ (e1 - e2 - e)) m2 ltac:(lia)).
  unfold Z.div, Z.modulo. intros E. destruct (Z.div_eucl (m1 * 2 ^ (e1 - e2 - e)) m2) as [q0 r0] eqn:Q.
  injection E as <- <- <-. rewrite Q. auto.
Qed.
Lemma digits_mono a b : 0 <= a <= b -> digits a <= digits b.
Proof.
  intros H. destruct (Z.eq_dec a 0) as [->|]; [apply digits_nonneg; lia|].
  rewrite !digits_pos by lia. pose proof (Z.log2_le_mono a b). lia.
Qed.
Lemma div_valid x y : valid x -> valid y -> valid (SFdiv 53 1024 x y).
Proof.
  destruct x as [s|s| |s m e], y as [s'|s'| |s' m' e']; intros H H'; cbn [SFdiv]; try reflexivity.
  destruct (SFdiv_core_binary 53 1024 (Z.pos m) e (Z.pos m') e') as [[q k] l] eqn:D.
  apply div_core in D; [|lia|lia]. destruct D as (K & Q & _).
  assert (Hs : 0 <= e - e' - k) by lia. set (n := e - e' - k) in *.
  assert (0 <= q). { rewrite Q. apply Z.div_pos; [|lia]. apply Z.mul_nonneg_nonneg; [lia|apply Z.pow_nonneg; lia]. }
  apply round_aux_valid; [assumption|].
  set (d1 := digits (Zpos m)) in *. set (d2 := digits (Zpos m')) in *.
  assert (d1 + n - d2 <= digits q).
  { destruct (Z.le_gt_cases (d1 + n - d2) 0) as [L|L]; [pose proof (digits_nonneg q); lia|].
    replace (d1 + n - d2) with (digits (2 ^ (d1 + n - d2 - 1))).
    2:{ apply digits_unique; [lia|]. split; [lia|]. apply Z.pow_lt_mono_r; lia. }
    apply digits_mono. split; [apply Z.pow_nonneg; lia|]. rewrite Q.
    apply Z.div_le_lower_bound; [lia|].
    pose proof (digits_bounds (Zpos m) ltac:(lia)) as B. pose proof (digits_bounds (Zpos m') ltac:(lia)) as B'.
    fold d1 in B. fold d2 in B'.
    assert (P : 0 < d1) by (unfold d1; rewrite digits_pos by lia; pose proof (Z.log2_nonneg (Zpos m)); lia).
    assert (P' : 0 < d2) by (unfold d2; rewrite digits_pos by lia; pose proof (Z.log2_nonneg (Zpos m')); lia).
    apply Z.le_trans with (2 ^ d2 * 2 ^ (d1 + n - d2 - 1)).
    - apply Z.mul_le_mono_nonneg_r; [apply Z.pow_nonneg; lia|lia].
    - rewrite <- Z.pow_add_r by lia. replace (d2 + (d1 + n - d2 - 1)) with ((d1 - 1) + n) by lia.
      rewrite Z.pow_add_r by lia. apply Z.mul_le_mono_nonneg_r; [apply Z.pow_nonneg; lia|lia]. }
  rewrite fexp_val in *. subst n. lia.
Qed.

(** ** One *)
Definition one : spec_float := S754_finite false (2 ^ 52) (-52).
Lemma mul_one_r s m e : bounded 53 1024 m e = true ->
  SFmul 53 1024 (S754_finite s m e) one = S754_finite s m e.
Proof.
  intros B. unfold one. cbn [SFmul]. rewrite xorb_false_r, Pos2Z.inj_mul. change (Zpos (2 ^ 52)) with (2 ^ 52).
  rewrite round_aux_exact by (try replace (e + -52 + 52) with e by lia; try exact B; lia). f_equal. lia.
Qed.
Lemma mul_one_l s m e : bounded 53 1024 m e = true ->
  SFmul 53 1024 one (S754_finite s m e) = S754_finite s m e.
Proof.
  intros B. unfold one. cbn [SFmul]. rewrite xorb_false_l, Pos2Z.inj_mul, Z.mul_comm. change (Zpos (2 ^ 52)) with (2 ^ 52).
  rewrite round_aux_exact by (try replace (-52 + e + 52) with e by lia; try exact B; lia). f_equal. lia.
Qed.
Lemma div_one s m e : bounded 53 1024 m e = true ->
  SFdiv 53 1024 (S754_finite s m e) one = S754_finite s m e.
Proof.
  intros B. unfold one. cbn [SFdiv]. rewrite xorb_false_r.
  destruct (SFdiv_core_binary 53 1024 (Z.pos m) e (Z.pos (2 ^ 52)) (-52)) as [[q k] l] eqn:D.
  apply div_core in D; [|lia|lia]. destruct D as (K & Q & L). apply bounded_iff in B as B'.
  change (digits (Z.pos (2 ^ 52))) with 53 in K. rewrite fexp_val in K.
  assert (Hn : 0 <= e - k) by lia. change (Zpos (2 ^ 52)) with (2 ^ 52) in *.
  assert (F : Zpos m * 2 ^ (e - -52 - k) = Zpos m * 2 ^ (e - k) * 2 ^ 52).
  { replace (e - -52 - k) with ((e - k) + 52) by lia. rewrite Z.pow_add_r by lia. ring. }
  rewrite F in Q, L. rewrite Z.div_mul in Q by lia. rewrite Z.mod_mul in L by lia. subst q l.
  change (new_location (2 ^ 52) 0) with loc_Exact.
  rewrite round_aux_exact by (try replace (k + (e - k)) with e by lia; try exact B; lia). f_equal. lia.
Qed.
