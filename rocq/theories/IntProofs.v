From Verif Require Import Base IntModel IntSpec.
Ltac Zify.zify_post_hook ::= Z.to_euclidean_division_equations.

Lemma py_divmod_unique a b q r q' r' : py_divmod a b q r -> py_divmod a b q' r' -> q = q' /\ r = r'.
Proof. intros (H & H1) (H' & H1'). apply (Z.div_mod_unique b); auto. lia. Qed.

Lemma py_divmod_Z a b : b <> 0 -> py_divmod a b (a / b) (a mod b).
Proof.
  intros Hb. split.
  - pose proof (Z.div_mod a b Hb). lia.
  - destruct (Z_lt_le_dec b 0).
    + right. apply Z.mod_neg_bound. lia.
    + left. apply Z.mod_pos_bound. lia.
Qed.

Lemma abs_u64_ok a : int64 a -> abs_u64 a = Z.abs a.
Proof.
  unfold int64, abs_u64, wrapu64, two63, two64. intros H. destruct (a <? 0) eqn:E; [|lia].
  assert ((a mod 2^64) = a + 2^64) as ->.
  { symmetry. apply Z.mod_unique with (q := -1); lia. }
  replace (0 - (a + 2^64)) with (- a + (-1) * 2^64) by lia. rewrite Z.mod_add by lia.
  rewrite Z.mod_small by lia. lia.
Qed.

Lemma wraps64_small z : int64 z -> wraps64 z = z.
Proof. unfold int64, wraps64, two63, two64. intros H. rewrite Z.mod_small; lia. Qed.

Lemma wrapu64_small z : uint64 z -> wrapu64 z = z.
Proof. unfold uint64, wrapu64, two64. intros H. apply Z.mod_small; lia. Qed.

Lemma wraps_wrapu z : wraps64 (wrapu64 z) = wraps64 z.
Proof. unfold wraps64, wrapu64. rewrite Zplus_mod_idemp_l. reflexivity. Qed.

Lemma chk64_ok z : int64 z -> chk64 z = Ok z.
Proof. unfold chk64, int64b, int64. intros H. destruct (_ && _) eqn:E; [reflexivity|lia]. Qed.

Lemma lxor_sign a b : (Z.lxor a b >=? 0) = Bool.eqb (0 <=? a) (0 <=? b).
Proof.
  pose proof (Z.lxor_nonneg a b) as H.
  destruct (0 <=? a) eqn:Ea, (0 <=? b) eqn:Eb; cbn [Bool.eqb]; lia.
Qed.

Lemma neg_mod_pos a m : 0 < a -> 0 < m -> (- a) mod m = m - 1 - (a - 1) mod m.
Proof.
  intros Ha Hm. symmetry. apply Z.mod_unique with (q := - ((a - 1) / m) - 1).
  - left. pose proof (Z.mod_pos_bound (a - 1) m Hm). lia.
  - pose proof (Z.div_mod (a - 1) m ltac:(lia)). lia.
Qed.

Lemma neg_div_pos a m : 0 < a -> 0 < m -> (- a) / m = - 1 - (a - 1) / m.
Proof.
  intros Ha Hm. symmetry. apply Z.div_unique with (r := m - 1 - (a - 1) mod m).
  - left. pose proof (Z.mod_pos_bound (a - 1) m Hm). lia.
  - pose proof (Z.div_mod (a - 1) m ltac:(lia)). lia.
Qed.

Lemma mod_i64 a b : int64 a -> int64 b -> b <> 0 -> fast_mod_i64_i64 a b = Ok (a mod b).
Proof.
  intros Ha Hb Hb0. unfold fast_mod_i64_i64.
  destruct (b =? 0) eqn:E0; [lia|]. destruct (a =? 0) eqn:E1.
  { assert (a = 0) as -> by lia. rewrite Zmod_0_l. reflexivity. }
  rewrite !abs_u64_ok by assumption. rewrite lxor_sign.
  assert (HA: 0 <= (Z.abs a - 1) mod Z.abs b < Z.abs b) by (apply Z.mod_pos_bound; lia).
  assert (HB: 0 <= Z.abs a mod Z.abs b < Z.abs b) by (apply Z.mod_pos_bound; lia).
  rewrite (wrapu64_small (Z.abs a - 1)) by (unfold uint64, int64, two63, two64 in *; lia).
  rewrite (wrapu64_small (Z.abs b - 1)) by (unfold uint64, int64, two63, two64 in *; lia).
  rewrite wrapu64_small by (unfold uint64, int64, two63, two64 in *; lia).
  destruct (b >? 0) eqn:Es; destruct (0 <=? a) eqn:Ea; destruct (0 <=? b) eqn:Eb; try lia; cbn [Bool.eqb];
    rewrite wraps64_small by (unfold int64, two63 in *; lia).
  - f_equal. rewrite !Z.abs_eq by lia. reflexivity.
  - f_equal. rewrite (Z.abs_neq a), (Z.abs_eq b) by lia. rewrite <- neg_mod_pos by lia. f_equal. lia.
  - rewrite chk64_ok by (unfold int64, two63 in *; lia). f_equal.
    rewrite (Z.abs_eq a), (Z.abs_neq b) in * by lia.
    rewrite <- neg_mod_pos by lia.
    rewrite Zmod_opp_opp. lia.
  - rewrite chk64_ok by (unfold int64, two63 in *; lia). f_equal.
    rewrite !Z.abs_neq by lia. rewrite Zmod_opp_opp. lia.
Qed.

Lemma mod_u64_i64 a b : uint64 a -> int64 b -> b <> 0 -> fast_mod_u64_i64 a b = Ok (a mod b).
Proof.
  intros Ha Hb Hb0. unfold fast_mod_u64_i64.
  destruct (b =? 0) eqn:E0; [lia|]. destruct (a =? 0) eqn:E1.
  { assert (a = 0) as -> by lia. rewrite Zmod_0_l. reflexivity. }
  rewrite !abs_u64_ok by assumption.
  assert (HA: 0 <= (a - 1) mod Z.abs b < Z.abs b) by (apply Z.mod_pos_bound; lia).
  assert (HB: 0 <= a mod Z.abs b < Z.abs b) by (apply Z.mod_pos_bound; lia).
  rewrite (wrapu64_small (a - 1)) by (unfold uint64, int64, two63, two64 in *; lia).
  rewrite (wrapu64_small (Z.abs b - 1)) by (unfold uint64, int64, two63, two64 in *; lia).
  rewrite wrapu64_small by (unfold uint64, int64, two63, two64 in *; lia).
  destruct (b >? 0) eqn:Es; destruct (b >=? 0) eqn:Eb; try lia;
    rewrite wraps64_small by (unfold int64, two63 in *; lia).
  - rewrite Z.abs_eq by lia. reflexivity.
  - unfold uint64 in Ha. rewrite chk64_ok by (unfold int64, two63 in *; lia). f_equal.
    rewrite (Z.abs_neq b) in * by lia. rewrite <- neg_mod_pos by lia.
    rewrite Zmod_opp_opp. lia.
Qed.

Lemma mod_i64_u64 a b : int64 a -> uint64 b -> b <> 0 -> fast_mod_i64_u64 a b = Ok (wraps64 (a mod b)).
Proof.
  intros Ha Hb Hb0. unfold fast_mod_i64_u64.
  destruct (b =? 0) eqn:E0; [lia|]. destruct (a =? 0) eqn:E1.
  { assert (a = 0) as -> by lia. rewrite Zmod_0_l. reflexivity. }
  rewrite !abs_u64_ok by assumption. unfold uint64 in Hb.
  assert (HA: 0 <= (Z.abs a - 1) mod b < b) by (apply Z.mod_pos_bound; lia).
  rewrite (wrapu64_small (Z.abs a - 1)) by (unfold uint64, int64, two63, two64 in *; lia).
  rewrite (wrapu64_small (b - 1)) by (unfold uint64, int64, two63, two64 in *; lia).
  rewrite wrapu64_small by (unfold uint64, int64, two63, two64 in *; lia).
  destruct (a >=? 0) eqn:Ea.
  - rewrite Z.abs_eq by lia. reflexivity.
  - do 2 f_equal. rewrite Z.abs_neq by lia. rewrite <- neg_mod_pos by lia. f_equal. lia.
Qed.

Lemma mod_u64_u64 a b : uint64 a -> uint64 b -> b <> 0 -> fast_mod_u64_u64 a b = Ok (wraps64 (a mod b)).
Proof.
  intros Ha Hb Hb0. unfold fast_mod_u64_u64.
  destruct (b =? 0) eqn:E0; [lia|]. destruct (a =? 0) eqn:E1; [|reflexivity].
  assert (a = 0) as -> by lia. rewrite Zmod_0_l. reflexivity.
Qed.

Lemma div_i64 a b : int64 a -> int64 b -> b <> 0 -> fast_floor_div_i64_i64 a b = Ok (wraps64 (a / b)).
Proof.
  intros Ha Hb Hb0. unfold fast_floor_div_i64_i64.
  destruct (b =? 0) eqn:E0; [lia|]. destruct (a =? 0) eqn:E1.
  { assert (a = 0) as -> by lia. rewrite Zdiv_0_l. reflexivity. }
  rewrite !abs_u64_ok by assumption. rewrite lxor_sign.
  rewrite (wrapu64_small (Z.abs a - 1)) by (unfold uint64, int64, two63, two64 in *; lia).
  rewrite wraps_wrapu.
  assert (forall z, wraps64 (wrapu64 (-1) - z) = wraps64 (-1 - z)) as W.
  { intros z. unfold wraps64, wrapu64, two63, two64.
    replace ((-1) mod 2^64 - z + 2^63) with (-1 - z + 2^63 + 1 * 2^64); [rewrite Z.mod_add by lia; reflexivity|].
    replace ((-1) mod 2^64) with (2^64 - 1) by reflexivity. lia. }
  rewrite W.
  destruct (0 <=? a) eqn:Ea; destruct (0 <=? b) eqn:Eb; cbn [Bool.eqb]; do 2 f_equal.
  - rewrite !Z.abs_eq by lia. reflexivity.
  - rewrite (Z.abs_eq a), (Z.abs_neq b) by lia. rewrite <- neg_div_pos by lia.
    rewrite Zdiv_opp_opp. reflexivity.
  - rewrite (Z.abs_neq a), (Z.abs_eq b) by lia. rewrite <- neg_div_pos by lia. f_equal. lia.
  - rewrite !Z.abs_neq by lia. apply Zdiv_opp_opp.
Qed.

Lemma div_fits a b : int64 a -> int64 b -> b <> 0 -> ~ (a = - two63 /\ b = -1) -> int64 (a / b).
Proof.
  unfold int64, two63. intros Ha Hb H0 Hn.
  destruct (Z.eq_dec b (-1)) as [->|H1].
  { replace (a / -1) with (- a); [lia|]. rewrite <- (Z.opp_involutive a) at 2.
    change (-1) with (- (1)). rewrite Zdiv_opp_opp, Z.div_1_r. reflexivity. }
  pose proof (Z.div_mod a b H0) as HD.
  destruct (Z_lt_le_dec b 0).
  - pose proof (Z.mod_neg_bound a b ltac:(lia)). nia.
  - pose proof (Z.mod_pos_bound a b ltac:(lia)). nia.
Qed.

Lemma floor_div_mod a b : int64 a -> int64 b -> b <> 0 -> ~ (a = - two63 /\ b = -1) ->
  exists q r, fast_floor_div_i64_i64 a b = Ok q /\ fast_mod_i64_i64 a b = Ok r /\ py_divmod a b q r.
Proof.
  intros Ha Hb H0 Hn. exists (a / b), (a mod b).
  rewrite div_i64, mod_i64 by assumption. rewrite wraps64_small by (apply div_fits; assumption).
  split; [reflexivity|]. split; [reflexivity|]. apply py_divmod_Z, H0.
Qed.

(** ** WillOverflow *)
Definition overflows (r min_value max_value : Z) : bool := negb ((min_value <=? r) && (r <=? max_value)).

Lemma chk64_case z : chk64 z = Ok z \/ ~ int64 z.
Proof.
  unfold chk64, int64b, int64. destruct (_ && _) eqn:E; [left; reflexivity|right; lia].
Qed.

Section Overflow.
  Variables x y lo hi : Z.
  Hypothesis Hx : lo <= x <= hi.
  Hypothesis Hr : lo <= 0 <= hi.
  Hypothesis Hy : lo <= y <= hi.
  Hypothesis Hlo : int64 lo.
  Hypothesis Hhi : int64 hi.

  Lemma wo_add : will_overflow_add x y lo hi = Ok (overflows (x + y) lo hi).
  Proof.
    unfold will_overflow_add, overflows. unfold int64, two63 in *.
    destruct (y >? 0) eqn:E1.
    - rewrite chk64_ok by (unfold int64, two63; lia). cbn [bind].
      destruct (x >? hi - y) eqn:E2; [f_equal; lia|]. destruct (y <? 0) eqn:E3; [lia|]. cbn [bind]. f_equal. lia.
    - cbn [bind]. destruct (y <? 0) eqn:E3.
      + rewrite chk64_ok by (unfold int64, two63; lia). cbn [bind]. f_equal. lia.
      + cbn [bind]. f_equal. lia.
  Qed.

  Lemma wo_sub : will_overflow_sub x y lo hi = Ok (overflows (x - y) lo hi).
  Proof.
    unfold will_overflow_sub, overflows. unfold int64, two63 in *.
    destruct (y >? 0) eqn:E1.
    - rewrite chk64_ok by (unfold int64, two63; lia). cbn [bind].
      destruct (x <? lo + y) eqn:E2; [f_equal; lia|]. destruct (y <? 0) eqn:E3; [lia|]. cbn [bind]. f_equal. lia.
    - cbn [bind]. destruct (y <? 0) eqn:E3.
      + rewrite chk64_ok by (unfold int64, two63; lia). cbn [bind]. f_equal. lia.
      + cbn [bind]. f_equal. lia.
  Qed.

  Lemma quot_pos m d : 0 <= m -> 0 < d -> Z.quot m d = m / d.
  Proof. intros. apply Z.quot_div_nonneg; lia. Qed.

  Lemma wo_mul : ~ (lo = - two63 /\ y = -1 /\ x <> - two63) ->
    will_overflow_mul x y lo hi = Ok (overflows (x * y) lo hi).
  Proof.
    intros Hn. unfold will_overflow_mul, overflows.
    destruct (y =? 0) eqn:E0; [f_equal; nia|].
    destruct (y >? 0) eqn:E1.
    - unfold cdiv64. destruct (y =? 0) eqn:E0'; [lia|]. destruct (y =? -1) eqn:E2; [lia|].
      rewrite !andb_false_r. cbn [bind].
      rewrite (quot_pos hi y) by lia.
      assert (Z.quot lo y = - ((- lo) / y)) as ->.
      { rewrite <- quot_pos by lia. rewrite Z.quot_opp_l by lia. lia. }
      destruct (x <? - (- lo / y)) eqn:E3.
      + f_equal. pose proof (Z.mul_div_le (- lo) y ltac:(lia)).
        pose proof (Z.mul_succ_div_gt (- lo) y ltac:(lia)). nia.
      + f_equal.
        pose proof (Z.mul_div_le (- lo) y ltac:(lia)). pose proof (Z.mul_succ_div_gt (- lo) y ltac:(lia)).
        pose proof (Z.mul_div_le hi y ltac:(lia)). pose proof (Z.mul_succ_div_gt hi y ltac:(lia)).
        destruct (x >? hi / y) eqn:E4; nia.
    - destruct ((y =? -1) && (x =? - two63)) eqn:E5.
      { f_equal. unfold int64, two63 in *. assert (x = -2^63) by lia. assert (y = -1) by lia. subst. lia. }
      unfold cdiv64. destruct (y =? 0) eqn:E0'; [lia|].
      destruct ((lo =? - two63) && (y =? -1)) eqn:E6; [lia|].
      destruct ((hi =? - two63) && (y =? -1)) eqn:E7; [unfold two63 in *; lia|].
      cbn [bind].
      assert (Z.quot lo y = (- lo) / (- y)) as ->.
      { rewrite <- quot_pos by lia. rewrite Z.quot_opp_opp by lia. reflexivity. }
      assert (Z.quot hi y = - (hi / (- y))) as ->.
      { rewrite <- quot_pos by lia. rewrite Z.quot_opp_r by lia. lia. }
      pose proof (Z.mul_div_le (- lo) (- y) ltac:(lia)). pose proof (Z.mul_succ_div_gt (- lo) (- y) ltac:(lia)).
      pose proof (Z.mul_div_le hi (- y) ltac:(lia)). pose proof (Z.mul_succ_div_gt hi (- y) ltac:(lia)).
      destruct (x >? - lo / - y) eqn:E8.
      + f_equal. nia.
      + f_equal. destruct (x <? - (hi / - y)) eqn:E9; nia.
  Qed.
End Overflow.

(** ** gcd *)
Lemma quot_rem_nonneg a b : 0 <= a -> 0 < b ->
  cdiv64 a b = Ok (a / b) /\ crem64 a b = Ok (a mod b).
Proof.
  intros Ha Hb. unfold cdiv64, crem64. destruct (b =? 0) eqn:E; [lia|].
  destruct (b =? -1) eqn:E'; [lia|]. rewrite andb_false_r.
  rewrite Z.quot_div_nonneg, Z.rem_mod_nonneg by lia. auto.
Qed.

Lemma half_mod a b : 0 < b <= a -> 2 * (a mod b) <= a.
Proof.
  intros H. pose proof (Z.div_mod a b ltac:(lia)). pose proof (Z.mod_pos_bound a b ltac:(lia)).
  assert (1 <= a / b) by (apply Z.div_le_lower_bound; lia). nia.
Qed.

Lemma gcd_loop_ok k : forall fuel a b, 0 < b <= a -> a * b < 2 ^ Z.of_nat k -> (k <= fuel)%nat ->
  gcd_loop fuel a b = Ok (Z.gcd a b).
Proof.
  induction k as [|k IH]; intros fuel a b Hab Hp Hf.
  - cbn in Hp. nia.
  - destruct fuel as [|fuel]; [lia|]. cbn [gcd_loop].
    destruct (quot_rem_nonneg a b) as (_ & ->); [lia|lia|]. cbn [bind].
    destruct (a mod b =? 0) eqn:E.
    + f_equal. rewrite Z.gcd_comm, <- Z.gcd_mod by lia. assert (a mod b = 0) as -> by lia.
      rewrite Z.gcd_comm. symmetry. apply Z.gcd_0_r_nonneg. lia.
    + pose proof (Z.mod_pos_bound a b ltac:(lia)).
      rewrite IH; [|lia| |lia].
      * f_equal. rewrite Z.gcd_comm, Z.gcd_mod by lia. apply Z.gcd_comm.
      * pose proof (half_mod a b ltac:(lia)).
        replace (Z.of_nat (S k)) with (Z.of_nat k + 1) in Hp by lia. rewrite Z.pow_add_r in Hp by lia. nia.
Qed.

Lemma gcd_ok a b : int64 a -> int64 b -> a <> - two63 -> b <> - two63 ->
  zero_aware_gcd a b = Ok (Z.gcd a b).
Proof.
  intros Ha Hb Ha' Hb'. unfold zero_aware_gcd.
  assert ((if a <? 0 then chk64 (- a) else Ok a) = Ok (Z.abs a)) as ->.
  { destruct (a <? 0) eqn:E; [rewrite chk64_ok by (unfold int64, two63 in *; lia)|]; f_equal; lia. }
  cbn [bind].
  assert ((if b <? 0 then chk64 (- b) else Ok b) = Ok (Z.abs b)) as ->.
  { destruct (b <? 0) eqn:E; [rewrite chk64_ok by (unfold int64, two63 in *; lia)|]; f_equal; lia. }
  cbn [bind].
  assert (HG: Z.gcd a b = Z.gcd (Z.abs a) (Z.abs b)) by (rewrite Z.gcd_abs_l, Z.gcd_abs_r; reflexivity).
  rewrite HG. assert (0 <= Z.abs a < 2^63 /\ 0 <= Z.abs b < 2^63) as HR by (unfold int64, two63 in *; lia).
  remember (Z.abs a) as x. remember (Z.abs b) as y. clear - HR.
  destruct (x <? y) eqn:E; cbv zeta.
  - destruct (x =? 0) eqn:E0.
    + assert (x = 0) as -> by lia. f_equal. symmetry. apply Z.gcd_0_l_nonneg. lia.
    + rewrite (gcd_loop_ok 126) by (try lia; change (2 ^ Z.of_nat 126) with (2^63 * 2^63); nia).
      f_equal. apply Z.gcd_comm.
  - destruct (y =? 0) eqn:E0.
    + assert (y = 0) as -> by lia. f_equal. symmetry. apply Z.gcd_0_r_nonneg. lia.
    + rewrite (gcd_loop_ok 126) by (try lia; change (2 ^ Z.of_nat 126) with (2^63 * 2^63); nia). reflexivity.
Qed.

(** ** Extended Euclid *)
Section Ext.
  Variables A B : Z.    (* |a| and b *)
  Hypothesis HA : 0 <= A < two63.
  Hypothesis HB : 0 <= B < two63.
  Let M := Z.max 1 B.

  Definition einv (r old_r s old_s : Z) : Prop :=
    0 <= r < two63 /\ 0 <= old_r < two63 /\
    Z.abs s * old_r + Z.abs old_s * r <= B /\ Z.abs s <= M /\ Z.abs old_s <= M /\
    Z.gcd old_r r = Z.gcd A B /\
    (exists t, A * old_s + B * t = old_r) /\ (exists t, A * s + B * t = r).

  Lemma einv_step r old_r s old_s : einv r old_r s old_s -> r <> 0 ->
    let q := old_r / r in
    cdiv64 old_r r = Ok q /\ chk64 (q * r) = Ok (q * r) /\ chk64 (old_r - q * r) = Ok (old_r mod r) /\
    chk64 (q * s) = Ok (q * s) /\ chk64 (old_s - q * s) = Ok (old_s - q * s) /\
    einv (old_r mod r) r (old_s - q * s) s.
  Proof.
    intros (H1 & H2 & H3 & H4 & H5 & H6 & (t1 & H7) & (t2 & H8)) Hr q.
    pose proof (Z.div_mod old_r r Hr) as HD. fold q in HD.
    pose proof (Z.mod_pos_bound old_r r ltac:(lia)) as HM.
    assert (Hq: 0 <= q) by (apply Z.div_pos; lia).
    destruct (quot_rem_nonneg old_r r) as (HC & _); [lia|lia|].
    assert (Hqr: q * r <= old_r) by lia.
    assert (Hu: 0 <= Z.abs s) by lia. assert (Hv: 0 <= Z.abs old_s) by lia.
    assert (Hqs: q * Z.abs s * r <= B).
    { replace (q * Z.abs s * r) with (Z.abs s * (q * r)) by ring.
      assert (Z.abs s * (q * r) <= Z.abs s * old_r) by (apply Z.mul_le_mono_nonneg_l; lia).
      assert (0 <= Z.abs old_s * r) by (apply Z.mul_nonneg_nonneg; lia). lia. }
    assert (Hqs0: Z.abs (q * s) = q * Z.abs s) by (rewrite Z.abs_mul, (Z.abs_eq q) by lia; reflexivity).
    assert (Hqs': Z.abs (q * s) <= B).
    { rewrite Hqs0. assert (0 <= q * Z.abs s) by (apply Z.mul_nonneg_nonneg; lia).
      assert (q * Z.abs s * 1 <= q * Z.abs s * r) by (apply Z.mul_le_mono_nonneg_l; lia). lia. }
    assert (Htri: Z.abs (old_s - q * s) <= Z.abs old_s + q * Z.abs s) by lia.
    assert (Hs': Z.abs (old_s - q * s) * r <= B).
    { assert (Z.abs (old_s - q * s) * r <= (Z.abs old_s + q * Z.abs s) * r) by (apply Z.mul_le_mono_nonneg_r; lia).
      assert (Z.abs s * (q * r) <= Z.abs s * old_r) by (apply Z.mul_le_mono_nonneg_l; lia).
      replace ((Z.abs old_s + q * Z.abs s) * r) with (Z.abs old_s * r + Z.abs s * (q * r)) in H by ring. lia. }
    assert (Hs'': Z.abs (old_s - q * s) <= B).
    { assert (Z.abs (old_s - q * s) * 1 <= Z.abs (old_s - q * s) * r) by (apply Z.mul_le_mono_nonneg_l; lia). lia. }
    split; [exact HC|]. split; [assert (0 <= q * r) by (apply Z.mul_nonneg_nonneg; lia); apply chk64_ok; unfold int64, two63 in *; lia|].
    split; [replace (old_r - q * r) with (old_r mod r) by lia; apply chk64_ok; unfold int64, two63 in *; lia|].
    split; [apply chk64_ok; unfold int64, two63 in *; lia|].
    split; [apply chk64_ok; unfold int64, two63 in *; lia|].
    split; [lia|]. split; [lia|]. split.
    { replace (old_r mod r) with (old_r - q * r) by lia.
      assert (Z.abs (old_s - q * s) * r <= (Z.abs old_s + q * Z.abs s) * r) by (apply Z.mul_le_mono_nonneg_r; lia).
      replace ((Z.abs old_s + q * Z.abs s) * r) with (Z.abs old_s * r + Z.abs s * (q * r)) in H by ring.
      replace (Z.abs s * (old_r - q * r)) with (Z.abs s * old_r - Z.abs s * (q * r)) by ring. lia. }
    split; [unfold M; lia|]. split; [assumption|]. split.
    { rewrite <- H6. rewrite Z.gcd_comm, Z.gcd_mod by lia. apply Z.gcd_comm. }
    split; [exists t2; exact H8|]. exists (t1 - q * t2).
    replace (old_r mod r) with (old_r - q * r) by lia. rewrite <- H7 at 1. rewrite <- H8. ring.
  Qed.

  Lemma ext_loop_ok k : forall fuel r old_r s old_s, einv r old_r s old_s -> r <= old_r ->
    old_r * r < 2 ^ Z.of_nat k -> (k <= fuel)%nat ->
    exists g x, ext_euclid_loop fuel r old_r s old_s = Ok (g, x) /\ g = Z.gcd A B /\ Z.abs x <= M /\
      exists t, A * x + B * t = g.
  Proof.
    induction k as [|k IH]; intros fuel r old_r s old_s HI Hle Hp Hf.
    - cbn in Hp. assert (r = 0) as -> by (unfold einv in HI; nia).
      destruct HI as (_ & H2 & _ & _ & H5 & H6 & H7 & _).
      exists old_r, old_s. split; [destruct fuel; reflexivity|].
      split; [rewrite <- H6; symmetry; apply Z.gcd_0_r_nonneg; lia|]. auto.
    - destruct (Z.eq_dec r 0) as [->|Hr].
      { destruct HI as (_ & H2 & _ & _ & H5 & H6 & H7 & _).
        exists old_r, old_s. split; [destruct fuel; reflexivity|].
        split; [rewrite <- H6; symmetry; apply Z.gcd_0_r_nonneg; lia|]. auto. }
      destruct fuel as [|fuel]; [lia|]. cbn [ext_euclid_loop].
      destruct (r =? 0) eqn:E; [lia|].
      destruct (einv_step _ _ _ _ HI Hr) as (-> & E1 & E2 & E3 & E4 & HI'). cbn [bind].
      rewrite E1. cbn [bind]. rewrite E2. cbn [bind]. rewrite E3. cbn [bind]. rewrite E4. cbn [bind].
      assert (0 < r) by (unfold einv in HI; lia).
      pose proof (Z.mod_pos_bound old_r r ltac:(lia)).
      apply IH; [assumption|lia| |lia].
      pose proof (half_mod old_r r ltac:(lia)).
      replace (Z.of_nat (S k)) with (Z.of_nat k + 1) in Hp by lia. rewrite Z.pow_add_r in Hp by lia. nia.
  Qed.

  Lemma ext_loop_start : exists g x, ext_euclid_loop 130 B A 0 1 = Ok (g, x) /\ g = Z.gcd A B /\ Z.abs x <= M /\
      exists t, A * x + B * t = g.
  Proof.
    assert (HI: einv B A 0 1).
    { unfold einv, M. do 6 (split; [lia|]). split; [exists 0; lia|exists 1; lia]. }
    destruct (Z_le_gt_dec B A) as [Hle|Hgt].
    - apply (ext_loop_ok 126); [assumption|lia| |lia]. change (2 ^ Z.of_nat 126) with (2^63 * 2^63). unfold two63 in *. nia.
    - (* first iteration swaps *)
      assert (B <> 0) by lia.
      assert (exists f, 130%nat = S f /\ (126 <= f)%nat) as (f & -> & Hf) by (exists 129%nat; split; [reflexivity|lia]). cbn [ext_euclid_loop]. destruct (B =? 0) eqn:E; [lia|].
      destruct (einv_step _ _ _ _ HI ltac:(lia)) as (-> & E1 & E2 & E3 & E4 & HI'). cbn [bind].
      rewrite E1. cbn [bind]. rewrite E2. cbn [bind]. rewrite E3. cbn [bind]. rewrite E4. cbn [bind].
      pose proof (Z.mod_pos_bound A B ltac:(lia)).
      apply (ext_loop_ok 126); [assumption|lia| |lia].
      change (2 ^ Z.of_nat 126) with (2^63 * 2^63). unfold two63 in *. nia.
  Qed.
End Ext.

Lemma ext_euclid_ok a b : int64 a -> 0 <= b < two63 -> Z.abs a * b < two63 - b -> a <> - two63 ->
  exists g x y, ext_euclid a b = Ok (g, x, y) /\ g = Z.gcd a b /\ a * x + b * y = g.
Proof.
  intros Ha Hb Hp Hm. unfold ext_euclid.
  assert ((if a >=? 0 then Ok a else chk64 (- a)) = Ok (Z.abs a)) as ->.
  { destruct (a >=? 0) eqn:E; [|rewrite chk64_ok by (unfold int64, two63 in *; lia)]; f_equal; lia. }
  cbn [bind].
  destruct (ext_loop_start (Z.abs a) b) as (g & x & -> & Hg & Hx & t & Ht);
    [unfold int64, two63 in *; lia|assumption|]. cbn [bind].
  assert (HG: Z.gcd (Z.abs a) b = Z.gcd a b) by apply Z.gcd_abs_l. rewrite HG in Hg.
  assert (0 <= g) by (subst g; apply Z.gcd_nonneg).
  assert (HX: exists x', (if a >=? 0 then Ok x else chk64 (- x)) = Ok x' /\ a * x' = Z.abs a * x /\ Z.abs x' = Z.abs x).
  { destruct (a >=? 0) eqn:E.
    - exists x. split; [reflexivity|]. split; [rewrite Z.abs_eq by lia; reflexivity|reflexivity].
    - exists (- x). rewrite chk64_ok by (unfold int64, two63 in *; lia). split; [reflexivity|]. split; [rewrite Z.abs_neq by lia; lia|lia]. }
  destruct HX as (x' & -> & Hax & Habs). cbn [bind].
  destruct (b =? 0) eqn:Eb; cbn [negb].
  - exists g, x', 1. split; [reflexivity|]. split; [assumption|]. assert (b = 0) by lia. subst b. nia.
  - assert (1 <= b) by lia. assert (Hxb: Z.abs x' <= b) by lia.
    assert (Hgb: g <= b).
    { subst g. apply Z.divide_pos_le; [lia|apply Z.gcd_divide_r]. }
    assert (Hxa: Z.abs (x' * a) <= Z.abs a * b) by (rewrite Z.abs_mul; nia).
    rewrite chk64_ok by (unfold int64 in *; lia). cbn [bind].
    rewrite chk64_ok by (unfold int64, two63 in *; lia). cbn [bind].
    replace (g - x' * a) with (t * b) by lia.
    unfold cdiv64. rewrite Eb. destruct (b =? -1) eqn:E1; [lia|]. rewrite andb_false_r.
    rewrite Z.quot_mul by lia. cbn [bind].
    exists g, x', t. split; [reflexivity|]. split; [assumption|]. lia.
Qed.

Lemma lcm_ok a b : 0 <= a -> 0 <= b < two63 -> a * b < two63 - b -> int64 a -> (a <> 0 \/ b <> 0) ->
  lcm64 a b = Ok (Z.lcm a b).
Proof.
  intros Ha Hb Hp Hi Hn. unfold lcm64.
  rewrite chk64_ok by (unfold int64, two63 in *; nia). cbn [bind].
  destruct (ext_euclid_ok a b) as (g & x & y & -> & -> & _); auto; [rewrite Z.abs_eq by lia; lia|unfold two63; lia|].
  cbn [bind].
  assert (Z.gcd a b <> 0).
  { intros HH. apply Z.gcd_eq_0 in HH. lia. }
  pose proof (Z.gcd_nonneg a b).
  unfold cdiv64. destruct (Z.gcd a b =? 0) eqn:E; [lia|]. destruct (Z.gcd a b =? -1) eqn:E1; [lia|].
  rewrite andb_false_r. f_equal. rewrite Z.quot_div_nonneg by nia.
  unfold Z.lcm. rewrite Z.abs_eq.
  - destruct (Z.gcd_divide_r a b) as (k & Hk). rewrite Hk at 1 3.
    rewrite Z.mul_assoc, !Z.div_mul by assumption. reflexivity.
  - apply Z.mul_nonneg_nonneg; [lia|]. apply Z.div_pos; lia.
Qed.
