(** Hashes and equality of keys. *)
From Coq Require Import Floats.SpecFloat.
From Verif Require Import Base HashModel HashSpec KeyModel KeySpec.
Ltac Zify.zify_post_hook ::= Z.to_euclidean_division_equations.

(** ** Arithmetic modulo P = 2^61 - 1 *)
Notation P := (2 ^ 61 - 1).
Definition cong (a b : Z) : Prop := exists k, a - b = k * P.
Lemma cong_refl a : cong a a. Proof. exists 0. ring. Qed.
Lemma cong_sym a b : cong a b -> cong b a. Proof. intros (k & H). exists (- k). lia. Qed.
Lemma cong_trans a b c : cong a b -> cong b c -> cong a c. Proof. intros (k & H) (j & H'). exists (k + j). lia. Qed.
Lemma cong_mul a b c d : cong a b -> cong c d -> cong (a * c) (b * d).
Proof.
  intros (k & H) (j & H'). exists (k * c + b * j). replace (a * c - b * d) with ((a - b) * c + b * (c - d)) by ring.
  rewrite H, H'. ring.
Qed.
Lemma cong_mod a b : cong a b -> (a - b) mod P = 0.
Proof. intros (k & ->). apply Z.mod_mul. lia. Qed.
Lemma cong_of_mod a b : (a - b) mod P = 0 -> cong a b.
Proof. intros H. exists ((a - b) / P). pose proof (Z.div_mod (a - b) P ltac:(lia)). lia. Qed.
Lemma cong_small a b : cong a b -> 0 <= a < P -> 0 <= b < P -> a = b.
Proof. intros (k & H) Ha Hb. assert (k = 0) by lia. lia. Qed.

(** Powers of two with any exponent *)
Definition pw (z : Z) : Z := 2 ^ (z mod 61).
Lemma pow61 j : 0 <= j -> cong (2 ^ (61 * j)) 1.
Proof.
  intros Hj. pattern j. apply natlike_ind; [apply cong_refl| |assumption]. intros x Hx IH.
  replace (61 * Z.succ x) with (61 * x + 61) by lia. rewrite Z.pow_add_r by lia.
  rewrite <- (Z.mul_1_r 1). apply cong_mul; [assumption|]. exists 1. lia.
Qed.
Lemma pw_pow n : 0 <= n -> cong (2 ^ n) (pw n).
Proof.
  intros Hn. unfold pw. rewrite (Z.div_mod n 61) at 1 by lia. rewrite Z.pow_add_r by lia.
  rewrite <- (Z.mul_1_l (2 ^ (n mod 61))) at 2. apply cong_mul; [apply pow61; lia|apply cong_refl].
Qed.
Lemma pw_add a b : cong (pw a * pw b) (pw (a + b)).
Proof.
  unfold pw. rewrite <- Z.pow_add_r by lia. eapply cong_trans; [apply pw_pow; lia|]. unfold pw.
  rewrite <- Zplus_mod. apply cong_refl.
Qed.
Lemma pw_0 : pw 0 = 1. Proof. reflexivity. Qed.

(** ** _Py_HashDouble *)
Lemma rot61_ok x k : 0 <= x < P -> 0 <= k < 61 -> 0 <= rot61 x k < P /\ cong (rot61 x k) (x * 2 ^ k).
Proof.
  intros Hx Hk. unfold rot61, hash_mod, hash_bits, wrapu64.
  rewrite Z.shiftl_mul_pow2, Z.shiftr_div_pow2 by lia.
  assert (LA : forall a, Z.land a (2 ^ 61 - 1) = a mod 2 ^ 61).
  { intros a. rewrite <- Z.land_ones by lia. rewrite Z.ones_equiv. reflexivity. }
  rewrite LA. unfold two64.
  assert (MM : forall a, (a mod 18446744073709551616) mod 2 ^ 61 = a mod 2 ^ 61).
  { intros a. change 18446744073709551616 with (2 ^ 61 * 2 ^ 3). symmetry. apply Znumtheory.Zmod_div_mod; [lia|lia|]. exists (2 ^ 3). ring. }
  rewrite MM.
  assert (E61 : 2 ^ 61 = 2 ^ (61 - k) * 2 ^ k) by (rewrite <- Z.pow_add_r by lia; f_equal; lia).
  assert (K0 : 0 < 2 ^ k) by (apply Z.pow_pos_nonneg; lia). assert (J0 : 0 < 2 ^ (61 - k)) by (apply Z.pow_pos_nonneg; lia).
  pose proof (Z.div_mod x (2 ^ (61 - k)) ltac:(lia)) as DM. pose proof (Z.mod_pos_bound x (2 ^ (61 - k)) J0) as MB.
  set (hi := x / 2 ^ (61 - k)) in *. set (lo := x mod 2 ^ (61 - k)) in *.
  assert (HI : 0 <= hi < 2 ^ k).
  { unfold hi. split; [apply Z.div_pos; [apply Hx|exact J0]|]. apply Z.div_lt_upper_bound; [exact J0|]. rewrite <- E61. destruct Hx. clear - H0. lia. }
  clearbody hi lo.
  assert (LO : (x * 2 ^ k) mod 2 ^ 61 = lo * 2 ^ k).
  { symmetry. apply Z.mod_unique with (q := hi).
    - left. split; [apply Z.mul_nonneg_nonneg; lia|]. rewrite E61. apply Z.mul_lt_mono_pos_r; lia.
    - rewrite E61, DM. ring. }
  rewrite LO.
  assert (OR : Z.lor (lo * 2 ^ k) hi = lo * 2 ^ k + hi).
  { rewrite <- Z.lxor_lor, <- Z.add_nocarry_lxor; try reflexivity;
      (apply Z.bits_inj'; intros n Hn; rewrite Z.land_spec, Z.bits_0; rewrite <- Z.shiftl_mul_pow2 by lia;
       rewrite Z.shiftl_spec by lia; destruct (Z.lt_ge_cases n k) as [L|G];
       [rewrite Z.testbit_neg_r by lia; reflexivity|
        destruct (Z.eq_dec hi 0) as [->|NZ]; [rewrite Z.bits_0; apply andb_false_r|];
        rewrite (Z.bits_above_log2 hi n); [apply andb_false_r|lia|];
        apply Z.log2_lt_pow2; [lia|]; apply Z.lt_le_trans with (2 ^ k); [lia|apply Z.pow_le_mono_r; lia]]). }
  rewrite OR. split.
  - split; [apply Z.add_nonneg_nonneg; [apply Z.mul_nonneg_nonneg|]; lia|]. destruct Hx as (_ & Hx). rewrite E61 in *. clear E61 LA MM LO OR.
    set (A := 2 ^ (61 - k)) in *. set (B := 2 ^ k) in *. clearbody A B. rewrite DM in Hx.
    destruct (Z.eq_dec lo (A - 1)) as [->|N].
    + assert (hi <= B - 2) by (destruct (Z.eq_dec hi (B - 1)) as [->|]; lia). lia.
    + assert (lo * B <= (A - 2) * B) by (apply Z.mul_le_mono_nonneg_r; lia). lia.
  - exists (- hi). rewrite DM. replace ((2 ^ (61 - k) * hi + lo) * 2 ^ k) with (hi * (2 ^ (61 - k) * 2 ^ k) + lo * 2 ^ k) by ring.
    rewrite <- E61. ring.
Qed.

Lemma hash_loop_ok w m e0 : 0 <= w -> forall fuel k f x e, 0 <= k -> 0 <= f < 2 ^ w -> 0 <= x < P ->
  cong (x * 2 ^ w + f) (m * pw (28 * k)) -> e = e0 - 28 * k ->
  f mod 2 ^ (w - Z.min w (28 * Z.of_nat fuel - 28)) = 0 -> (0 < fuel)%nat ->
  exists x' k', hash_loop fuel w f x e = Ok (x', e0 - 28 * k') /\ 0 <= k' /\ 0 <= x' < P /\ cong (x' * 2 ^ w) (m * pw (28 * k')).
Proof.
  intros Hw. induction fuel as [|fuel IH]; intros k f x e Hk Hf Hx C E D FP; [lia|]. cbn [hash_loop].
  destruct (Z.eqb_spec f 0) as [->|NZ].
  - exists x, k. subst e. rewrite Z.add_0_r in C. auto.
  - destruct (rot61_ok x 28 Hx ltac:(lia)) as (R1 & R2).
    set (f2 := f * 268435456). set (y := f2 / 2 ^ w). set (f3 := f2 mod 2 ^ w).
    assert (W0 : 0 < 2 ^ w) by (apply Z.pow_pos_nonneg; lia).
    pose proof (Z.div_mod f2 (2 ^ w) ltac:(lia)) as DM. fold y f3 in DM. pose proof (Z.mod_pos_bound f2 (2 ^ w) W0) as MB. fold f3 in MB.
    assert (Y : 0 <= y < 268435456) by (unfold y; split; [apply Z.div_pos; lia|apply Z.div_lt_upper_bound; unfold f2; lia]).
    set (x2 := if rot61 x 28 + y >=? hash_mod then rot61 x 28 + y - hash_mod else rot61 x 28 + y).
    assert (X2 : 0 <= x2 < P /\ cong x2 (rot61 x 28 + y)).
    { unfold x2, hash_mod. destruct (Z.geb_spec (rot61 x 28 + y) P) as [G|L]; split; try lia; [exists (-1); ring|exists 0; ring]. }
    destruct X2 as (X2 & X2c).
    assert (NF : fuel <> 0%nat).
    { intros ->. replace (w - Z.min w (28 * Z.of_nat 1 - 28)) with w in D by lia. rewrite Z.mod_small in D by lia. lia. }
    apply IH with (k := k + 1); [lia|lia|lia| |subst e; lia| |lia].
    + apply cong_trans with ((x * 2 ^ w + f) * pw 28).
      * change (pw 28) with 268435456. apply cong_trans with ((rot61 x 28 + y) * 2 ^ w + f3).
        { destruct X2c as (q & Q). exists (q * 2 ^ w). replace (x2 * 2 ^ w + f3 - ((rot61 x 28 + y) * 2 ^ w + f3)) with ((x2 - (rot61 x 28 + y)) * 2 ^ w) by ring. rewrite Q. ring. }
        destruct R2 as (q & Q). exists (q * 2 ^ w). change (2 ^ 28) with 268435456 in Q.
        replace ((rot61 x 28 + y) * 2 ^ w + f3 - (x * 2 ^ w + f) * 268435456) with ((rot61 x 28 - x * 268435456) * 2 ^ w + ((2 ^ w * y + f3) - f * 268435456)) by ring.
        rewrite Q. fold f2. rewrite <- DM. ring.
      * eapply cong_trans; [apply cong_mul; [exact C|apply cong_refl]|].
        rewrite <- Z.mul_assoc. apply cong_mul; [apply cong_refl|]. replace (28 * (k + 1)) with (28 * k + 28) by lia. apply pw_add.
    + (* divisibility *)
      set (a := w - Z.min w (28 * Z.of_nat fuel - 28)).
      assert (DV : (2 ^ (w - Z.min w (28 * Z.of_nat (S fuel) - 28)) | f)) by (apply Z.mod_divide; [apply Z.pow_nonzero; lia|exact D]).
      assert (A : 0 <= a <= w) by (unfold a; lia).
      assert (DV2 : (2 ^ a | f2)).
      { destruct DV as (q & Q). unfold f2. rewrite Q. change 268435456 with (2 ^ 28).
        rewrite <- Z.mul_assoc, <- Z.pow_add_r by lia.
        exists (q * 2 ^ ((w - Z.min w (28 * Z.of_nat (S fuel) - 28)) + 28 - a)).
        rewrite <- Z.mul_assoc, <- Z.pow_add_r by (unfold a; lia). f_equal. f_equal. lia. }
      apply Z.mod_divide; [apply Z.pow_nonzero; lia|].
      replace f3 with (f2 - 2 ^ w * y) by lia. apply Z.divide_sub_r; [exact DV2|].
      apply Z.divide_mul_l. exists (2 ^ (w - a)). rewrite <- Z.pow_add_r by lia. f_equal. lia.
Qed.

(** The exponent adjustment is the true remainder. *)
Lemma exp_mod e : (if e >=? 0 then e mod hash_bits else hash_bits - 1 - ((-1 - e) mod hash_bits)) = e mod 61.
Proof. unfold hash_bits. destruct (Z.geb_spec e 0); lia. Qed.

Lemma hash_double_finite s m e : exists h, 0 <= h < P /\ cong h (Zpos m * pw e) /\
  hash_double (S754_finite s m e) = Ok ((let r := if s then - h else h in if r =? -1 then -2 else r) mod 2 ^ 64).
Proof.
  cbn [hash_double]. set (w := Z.log2 (Zpos m) + 1).
  assert (W : 1 <= w) by (pose proof (Z.log2_nonneg (Zpos m)); unfold w; lia).
  assert (M : Zpos m < 2 ^ w) by (pose proof (Z.log2_spec (Zpos m) ltac:(lia)); unfold w; rewrite Z.add_1_r; lia).
  destruct (hash_loop_ok w (Zpos m) (e + w) ltac:(lia) (S (Z.to_nat w)) 0 (Zpos m) 0 (e + w)) as (x & k & E & Hk & Hx & C);
    [lia|lia|lia|exists 0; change (pw (28 * 0)) with 1; ring|lia| |lia|].
  { replace (w - Z.min w (28 * Z.of_nat (S (Z.to_nat w)) - 28)) with 0 by lia. apply Z.mod_1_r. }
  rewrite E. cbn [bind]. rewrite exp_mod.
  destruct (rot61_ok x ((e + w - 28 * k) mod 61) Hx ltac:(lia)) as (R1 & R2).
  set (h := rot61 x ((e + w - 28 * k) mod 61)) in *. exists h. split; [assumption|]. split.
  - eapply cong_trans; [exact R2|]. change (2 ^ ((e + w - 28 * k) mod 61)) with (pw (e + w - 28 * k)).
    assert (C1 : cong (x * pw w) (Zpos m * pw (28 * k))).
    { eapply cong_trans; [|exact C]. apply cong_mul; [apply cong_refl|]. apply cong_sym, pw_pow. lia. }
    apply cong_trans with (x * (pw w * pw (e - 28 * k))).
    { apply cong_mul; [apply cong_refl|]. apply cong_sym. replace (e + w - 28 * k) with (w + (e - 28 * k)) by lia. apply pw_add. }
    rewrite Z.mul_assoc. eapply cong_trans; [apply cong_mul; [exact C1|apply cong_refl]|].
    rewrite <- Z.mul_assoc. apply cong_mul; [apply cong_refl|]. replace e with (28 * k + (e - 28 * k)) at 2 by lia. apply pw_add.
  - f_equal. unfold wrapu64, two64. change (2 ^ 64) with 18446744073709551616. cbv zeta.
    destruct s.
    + destruct (Z.eqb_spec (- h mod 18446744073709551616) (18446744073709551616 - 1)), (Z.eqb_spec (- h) (-1)); lia.
    + destruct (Z.eqb_spec h (18446744073709551616 - 1)), (Z.eqb_spec h (-1)); lia.
Qed.

Lemma hash_double_ratio x num den : 0 < den -> is_ratio x num den -> exists h, hash_double x = Ok h /\ py_hash num den h.
Proof.
  intros HD. destruct x as [s|s| |s m e]; cbn [is_ratio]; try contradiction.
  - intros ->. exists 0. split; [reflexivity|]. exists 0. repeat split; lia.
  - intros H. destruct (hash_double_finite s m e) as (h & Hh & C & E). rewrite E. eexists. split; [reflexivity|].
    exists h. split; [exact Hh|]. split.
    + apply cong_mod.
      assert (EP : cong (pw e * 2 ^ Z.max 0 (- e)) (2 ^ Z.max 0 e)).
      { eapply cong_trans; [apply cong_mul; [apply cong_refl|apply pw_pow; lia]|].
        eapply cong_trans; [apply pw_add|]. replace (e + Z.max 0 (- e)) with (Z.max 0 e) by lia. apply cong_sym, pw_pow. lia. }
      assert (AB : Zpos m * 2 ^ Z.max 0 e * den = Z.abs num * 2 ^ Z.max 0 (- e)).
      { assert (Q : Z.abs ((if s then Zneg m else Zpos m) * 2 ^ Z.max 0 e * den) = Z.abs (num * 2 ^ Z.max 0 (- e))) by (rewrite H; reflexivity).
        assert (0 < 2 ^ Z.max 0 e) by (apply Z.pow_pos_nonneg; lia). assert (0 < 2 ^ Z.max 0 (- e)) by (apply Z.pow_pos_nonneg; lia).
        rewrite !Z.abs_mul in Q. rewrite (Z.abs_eq (2 ^ _)), (Z.abs_eq den), (Z.abs_eq (2 ^ Z.max 0 (- e))) in Q by lia.
        rewrite <- Q. destruct s; reflexivity. }
      (* multiply by 2^max 0 (-e), then cancel *)
      assert (C2 : cong (h * den * 2 ^ Z.max 0 (- e)) (Z.abs num * 2 ^ Z.max 0 (- e))).
      { rewrite <- AB. replace (h * den * 2 ^ Z.max 0 (- e)) with (h * (den * 2 ^ Z.max 0 (- e))) by ring.
        eapply cong_trans; [apply cong_mul; [exact C|apply cong_refl]|].
        replace (Zpos m * pw e * (den * 2 ^ Z.max 0 (- e))) with (Zpos m * den * (pw e * 2 ^ Z.max 0 (- e))) by ring.
        replace (Zpos m * 2 ^ Z.max 0 e * den) with (Zpos m * den * 2 ^ Z.max 0 e) by ring.
        apply cong_mul; [apply cong_refl|exact EP]. }
      set (z := Z.max 0 (- e)) in *.
      assert (INV : cong (2 ^ z * pw (- z)) 1).
      { eapply cong_trans; [apply cong_mul; [apply pw_pow; lia|apply cong_refl]|]. eapply cong_trans; [apply pw_add|].
        rewrite Z.add_opp_diag_r. apply cong_refl. }
      assert (CAN : forall a, cong (a * 2 ^ z * pw (- z)) a).
      { intros a. rewrite <- Z.mul_assoc. rewrite <- (Z.mul_1_r a) at 2. apply cong_mul; [apply cong_refl|exact INV]. }
      eapply cong_trans; [apply cong_sym, CAN|]. eapply cong_trans; [|apply CAN]. apply cong_mul; [exact C2|apply cong_refl].
    + assert (SG : (num <? 0) = s).
      { assert (0 < 2 ^ Z.max 0 e) by (apply Z.pow_pos_nonneg; lia). assert (0 < 2 ^ Z.max 0 (- e)) by (apply Z.pow_pos_nonneg; lia).
        assert (0 < 2 ^ Z.max 0 e * den) by nia.
        rewrite <- Z.mul_assoc in H. destruct s; destruct (Z.ltb_spec num 0); try reflexivity; exfalso; nia. }
      rewrite SG. reflexivity.
Qed.

(** ** Integers *)
Lemma int_hash_small n : Z.abs n < P -> py_hash n 1 (int_hash n).
Proof.
  intros H. exists (Z.abs n). split; [lia|]. split; [rewrite Z.mul_1_r, Z.sub_diag; reflexivity|].
  unfold int_hash, wrapu64, two64. cbv zeta. change (2 ^ 64) with 18446744073709551616.
  destruct (Z.ltb_spec n 0).
  - replace (- Z.abs n) with n by lia.
    destruct (Z.eqb_spec (n mod 18446744073709551616) (18446744073709551616 - 1)), (Z.eqb_spec n (-1)); lia.
  - replace (Z.abs n) with n by lia.
    destruct (Z.eqb_spec (n mod 18446744073709551616) (18446744073709551616 - 1)), (Z.eqb_spec n (-1)); lia.
Qed.
Lemma int_hash_big n : int64_key n -> P <= Z.abs n -> ~ py_hash n 1 (int_hash n).
Proof.
  intros HI H (h & Hh & _ & E). unfold int_hash, wrapu64, two64, int64_key in *. cbv zeta in E.
  change (2 ^ 64) with 18446744073709551616 in *. change (2 ^ 63) with 9223372036854775808 in *. change (2 ^ 61) with 2305843009213693952 in *.
  destruct (Z.eqb_spec (n mod 18446744073709551616) (18446744073709551616 - 1)); destruct (Z.ltb_spec n 0);
    destruct (Z.eqb_spec (- h) (-1)); destruct (Z.eqb_spec h (-1)); lia.
Qed.
Lemma py_hash_unique n a b : py_hash n 1 a -> py_hash n 1 b -> a = b.
Proof.
  intros (h & Hh & C & ->) (h' & Hh' & C' & ->).
  assert (h = h') as ->; [|reflexivity]. apply cong_small; [|assumption|assumption].
  rewrite Z.mul_1_r in *. apply cong_trans with (Z.abs n); [apply cong_of_mod; assumption|apply cong_sym, cong_of_mod; assumption].
Qed.

(** ** Equality without floating point *)
Section KeyInd.
Variable Q : key -> Prop.
Hypothesis Hnone : Q KNone.
Hypothesis Hint : forall n, Q (KInt n).
Hypothesis Hfloat : forall x, Q (KFloat x).
Hypothesis Hbytes : forall s, Q (KBytes s).
Hypothesis Hstr : forall s, Q (KStr s).
Hypothesis Htuple : forall l, Forall Q l -> Q (KTuple l).
Fixpoint key_ind' (k : key) : Q k :=
  match k with
  | KNone => Hnone | KInt n => Hint n | KFloat x => Hfloat x | KBytes s => Hbytes s | KStr s => Hstr s
  | KTuple l => Htuple l ((fix go l : Forall Q l := match l with [] => Forall_nil Q | x :: l' => Forall_cons x (key_ind' x) (go l') end) l)
  end.
End KeyInd.

Lemma list_eq_iff s : forall t, list_eq s t = true <-> s = t.
Proof.
  induction s as [|a s IH]; intros [|b t]; cbn [list_eq]; try (split; [discriminate|discriminate]); [split; reflexivity|].
  rewrite andb_true_iff, Z.eqb_eq, IH. split; [intros (-> & ->); reflexivity|intros E; injection E; auto].
Qed.
Lemma any_eq_iff a : float_free a = true -> forall b, float_free b = true -> any_eq a b = true <-> a = b.
Proof.
  induction a as [|n|x|s|s|l IH] using key_ind'; intros Fa b Fb; cbn [float_free] in Fa.
  - destruct b; cbn [any_eq]; split; congruence.
  - destruct b; cbn [any_eq]; try (split; congruence); [|discriminate Fb]. rewrite Z.eqb_eq. split; congruence.
  - discriminate Fa.
  - destruct b; cbn [any_eq]; try (split; congruence). rewrite list_eq_iff. split; congruence.
  - destruct b; cbn [any_eq]; try (split; congruence). rewrite list_eq_iff. split; congruence.
  - destruct b as [|n|y|s|s|r]; cbn [any_eq]; try (split; congruence). cbn [float_free] in Fb.
    revert r Fb Fa. induction IH as [|x l Hx Hl IHl]; intros [|y r] Fb Fa; try (split; congruence).
    cbn [forallb] in Fa, Fb. apply andb_true_iff in Fa, Fb. destruct Fa as (Fx & Fl), Fb as (Fy & Fr).
    specialize (IHl r Fr Fl). specialize (Hx Fx y Fy).
    destruct (any_eq x y).
    + rewrite IHl. split; [intros E; injection E as ->; f_equal; f_equal; apply Hx; reflexivity|intros E; injection E as _ ->; reflexivity].
    + split; [discriminate|]. intros E. injection E as -> _. apply Hx. reflexivity.
Qed.

Lemma sig_lawful bh uh : lawful (fun k : {k | float_free k = true} => key_hash bh uh (proj1_sig k))
  (fun a b => any_eq (proj1_sig a) (proj1_sig b)).
Proof.
  assert (E : forall a b : {k | float_free k = true}, any_eq (proj1_sig a) (proj1_sig b) = true <-> proj1_sig a = proj1_sig b).
  { intros (a & Fa) (b & Fb). apply any_eq_iff; assumption. }
  constructor.
  - intros a. apply E. reflexivity.
  - intros a b. destruct (any_eq (proj1_sig a) (proj1_sig b)) eqn:Q.
    + apply E in Q. symmetry. apply E. congruence.
    + destruct (any_eq (proj1_sig b) (proj1_sig a)) eqn:Q'; [|reflexivity]. apply E in Q'. rewrite <- Q. apply E. congruence.
  - intros a b c. rewrite !E. congruence.
  - intros a b. rewrite E. congruence.
Qed.

(** ** A hash exists for every key *)
Lemma wrap_range z : 0 <= wrapu64 z < 2 ^ 64.
Proof. unfold wrapu64, two64. lia. Qed.
Lemma any_hash_total bh uh k : exists h, any_hash bh uh k = Ok h /\ 0 <= h < 2 ^ 64.
Proof.
  induction k as [|n|x|s|s|l IH] using key_ind'; cbn [any_hash].
  - exists 0. split; [reflexivity|lia].
  - eexists. split; [reflexivity|]. unfold int_hash. cbv zeta. pose proof (wrap_range n) as W. destruct (_ =? _); [unfold two64; lia|exact W].
  - destruct x as [s|s| |s m e].
    + exists 0. split; [reflexivity|lia].
    + eexists. split; [reflexivity|]. unfold two64. destruct s; lia.
    + exists 0. split; [reflexivity|lia].
    + destruct (hash_double_finite s m e) as (h & _ & _ & E). rewrite E. eexists. split; [reflexivity|apply Z.mod_pos_bound; lia].
  - eexists. split; [reflexivity|apply wrap_range].
  - eexists. split; [reflexivity|apply wrap_range].
  - match goal with |- exists h, ?G l xx5 ?n = Ok h /\ _ => cut (forall acc len, exists h, G l acc len = Ok h /\ 0 <= h < 2 ^ 64) end; [auto|]. induction IH as [|x l (h & E & Hh) Hl IHl]; intros acc len.
    + eexists. split; [reflexivity|]. cbv zeta. match goal with |- context [wrapu64 ?z] => pose proof (wrap_range z) end. destruct (_ =? _); lia.
    + rewrite E. cbn [bind]. destruct (h =? two64 - 1); [|apply IHl]. eexists. split; [reflexivity|unfold two64; lia].
Qed.

(** ** A finite number is equal to itself *)
Definition finite (x : double) : bool := match x with S754_zero _ | S754_finite _ _ _ => true | _ => false end.
Lemma almost_equals_self x : almost_equals x x = finite x.
Proof.
  unfold almost_equals. destruct x as [s|s| |s m e].
  - destruct s; vm_compute; reflexivity.
  - destruct s; vm_compute; reflexivity.
  - vm_compute; reflexivity.
  - assert (E : dsub (S754_finite s m e) (S754_finite s m e) = S754_zero false) by (unfold dsub, SFsub; rewrite Z.sub_diag; reflexivity).
    rewrite E. cbn [finite]. apply orb_true_iff. right. vm_compute. reflexivity.
Qed.
