(** * 16 bit floats: proofs *)

From Coq Require Import ZArith Bool Lia.
From Verif Require Import HfSpec HfModel.
Local Open Scope Z_scope.

(** ** Bits *)

Lemma land_field a j k : 0 <= j -> 0 <= k ->
  Z.land a (Z.shiftl (Z.ones j) k) = (a / 2 ^ k mod 2 ^ j) * 2 ^ k.
Proof.
  intros Hj Hk.
  replace (Z.land a (Z.shiftl (Z.ones j) k)) with (Z.shiftl (Z.land (Z.shiftr a k) (Z.ones j)) k).
  - rewrite Z.land_ones, Z.shiftr_div_pow2, Z.shiftl_mul_pow2 by lia. reflexivity.
  - apply Z.bits_inj'. intros n Hn. rewrite Z.land_spec.
    destruct (Z_lt_le_dec n k).
    + rewrite !Z.shiftl_spec_low by lia. rewrite andb_false_r. reflexivity.
    + rewrite !Z.shiftl_spec by lia. rewrite Z.land_spec, Z.shiftr_spec by lia.
      replace (n - k + k) with n by lia. reflexivity.
Qed.

Lemma lor_disjoint a n k : 0 <= k -> 0 <= n < 2 ^ k -> Z.lor (a * 2 ^ k) n = a * 2 ^ k + n.
Proof.
  intros Hk Hn.
  assert (D : Z.land (a * 2 ^ k) n = 0).
  { apply Z.bits_inj'. intros i Hi. rewrite Z.land_spec, Z.bits_0, <- Z.shiftl_mul_pow2 by lia.
    destruct (Z_lt_le_dec i k).
    - rewrite Z.shiftl_spec_low by lia. reflexivity.
    - replace n with (n mod 2 ^ k) by (apply Z.mod_small; exact Hn).
      rewrite Z.mod_pow2_bits_high by lia. apply andb_false_r. }
  rewrite <- Z.lxor_lor by exact D. symmetry. apply Z.add_nocarry_lxor. exact D.
Qed.

Definition sbit (s : bool) (k : Z) : Z := if s then k else 0.

(** ** Rounding to an integer *)

Lemma pow_pos d : 0 <= d -> 0 < 2 ^ d.
Proof. intros. apply Z.pow_pos_nonneg; lia. Qed.

Lemma rne_spec n d : 0 <= d ->
  2 * Z.abs (n - rne n d * 2 ^ d) <= 2 ^ d /\
  (2 * Z.abs (n - rne n d * 2 ^ d) = 2 ^ d -> Z.even (rne n d) = true).
Proof.
  intros Hd. pose proof (pow_pos d Hd) as P.
  pose proof (Z.div_mod n (2 ^ d) ltac:(lia)) as E.
  pose proof (Z.mod_pos_bound n (2 ^ d) P) as B.
  unfold rne. set (q := n / 2 ^ d) in *. set (r := n mod 2 ^ d) in *.
  destruct (Z.ltb_spec (2 * r) (2 ^ d)) as [L|L].
  { replace (n - q * 2 ^ d) with r by nia. split; [lia|]. intros X. lia. }
  destruct (Z.ltb_spec (2 ^ d) (2 * r)) as [L2|L2].
  { replace (n - (q + 1) * 2 ^ d) with (r - 2 ^ d) by nia. split; [lia|]. intros X. lia. }
  destruct (Z.even q) eqn:Ev.
  { replace (n - q * 2 ^ d) with r by nia. split; [lia|]. intros _. exact Ev. }
  replace (n - (q + 1) * 2 ^ d) with (r - 2 ^ d) by nia. split; [lia|]. intros _.
  rewrite Z.even_add, Ev. reflexivity.
Qed.

(** An integer that is as near as possible, even in ties, is the one. *)
Lemma rne_unique n d q : 0 <= d -> 2 * Z.abs (n - q * 2 ^ d) <= 2 ^ d ->
  (2 * Z.abs (n - q * 2 ^ d) = 2 ^ d -> Z.even q = true) -> rne n d = q.
Proof.
  intros Hd H1 H2. destruct (rne_spec n d Hd) as [R1 R2].
  pose proof (pow_pos d Hd) as P. set (r := rne n d) in *.
  destruct (Z.eq_dec r q) as [|N]; [assumption|exfalso].
  assert (X : Z.abs ((r - q) * 2 ^ d) <= 2 ^ d).
  { replace ((r - q) * 2 ^ d) with ((n - q * 2 ^ d) - (n - r * 2 ^ d)) by lia. lia. }
  rewrite Z.abs_mul, (Z.abs_eq (2 ^ d)) in X by lia.
  assert (Y : Z.abs (r - q) = 1) by nia.
  assert (W : Z.abs ((r - q) * 2 ^ d) = 2 ^ d) by (rewrite Z.abs_mul, Y; lia).
  replace ((r - q) * 2 ^ d) with ((n - q * 2 ^ d) - (n - r * 2 ^ d)) in W by lia.
  assert (E1 : Z.even r = true) by (apply R2; lia).
  assert (E2 : Z.even q = true) by (apply H2; lia).
  apply Z.even_spec in E1, E2. destruct E1 as [a ->], E2 as [b ->]. lia.
Qed.

Lemma rne_exact q d : 0 <= d -> rne (q * 2 ^ d) d = q.
Proof.
  intros Hd. pose proof (pow_pos d Hd). apply rne_unique; [exact Hd| |]; rewrite Z.sub_diag; cbn; lia.
Qed.

Lemma rne_shift n c d : 0 <= c -> 0 <= d -> rne (n * 2 ^ c) (d + c) = rne n d.
Proof.
  intros Hc Hd. destruct (rne_spec n d Hd) as [R1 R2]. pose proof (pow_pos c Hc).
  pose proof (pow_pos d Hd).
  assert (X : Z.abs (n * 2 ^ c - rne n d * 2 ^ (d + c)) = Z.abs (n - rne n d * 2 ^ d) * 2 ^ c).
  { rewrite Z.pow_add_r by lia.
    replace (n * 2 ^ c - rne n d * (2 ^ d * 2 ^ c)) with ((n - rne n d * 2 ^ d) * 2 ^ c) by ring.
    rewrite Z.abs_mul, (Z.abs_eq (2 ^ c)) by lia. reflexivity. }
  apply rne_unique; [lia| |]; rewrite X, Z.pow_add_r by lia; [nia|]. intros Y. apply R2. nia.
Qed.

Lemma rne_add q n d : 0 <= d -> Z.even q = true -> rne (q * 2 ^ d + n) d = q + rne n d.
Proof.
  intros Hd Hq. destruct (rne_spec n d Hd) as [R1 R2].
  assert (X : q * 2 ^ d + n - (q + rne n d) * 2 ^ d = n - rne n d * 2 ^ d) by ring.
  apply rne_unique; [exact Hd| |]; rewrite X; [exact R1|].
  intros Y. rewrite Z.even_add, Hq, (R2 Y). reflexivity.
Qed.

Lemma rne_bounds n d a b : 0 <= d -> a * 2 ^ d <= n <= b * 2 ^ d -> a <= rne n d <= b.
Proof.
  intros Hd Hn. destruct (rne_spec n d Hd) as [R1 R2]. pose proof (pow_pos d Hd).
  split; nia.
Qed.

Lemma rne_nearest n d z : 0 <= d ->
  Z.abs (n - rne n d * 2 ^ d) <= Z.abs (n - z * 2 ^ d) /\
  (Z.abs (n - rne n d * 2 ^ d) = Z.abs (n - z * 2 ^ d) -> z <> rne n d -> Z.even (rne n d) = true).
Proof.
  intros Hd. destruct (rne_spec n d Hd) as [R1 R2]. pose proof (pow_pos d Hd) as P.
  destruct (Z.eq_dec z (rne n d)) as [->|N]; [split; [lia|tauto]|].
  assert (X : 2 ^ d <= Z.abs ((rne n d - z) * 2 ^ d))
    by (rewrite Z.abs_mul, (Z.abs_eq (2 ^ d)) by lia; nia).
  replace ((rne n d - z) * 2 ^ d) with ((n - z * 2 ^ d) - (n - rne n d * 2 ^ d)) in X by ring.
  split; [lia|]. intros Y _. apply R2. lia.
Qed.

(** ** Float operations that are exact *)

Definition pow277 : Z := 2 ^ 277.

Lemma log2_lt c k : 0 < c -> c < 2 ^ k -> Z.log2 c < k.
Proof. intros H1 H2. apply Z.log2_lt_pow2; assumption. Qed.

Lemma round32_exact s c j k : 0 <= c < 2 ^ 24 -> 0 <= j -> 0 <= k ->
  round32 s (c * 2 ^ (j + k)) k = if c * 2 ^ j <? 2 ^ 277 then FFin s (c * 2 ^ j) else FInf s.
Proof.
  intros Hc Hj Hk. unfold round32.
  set (n := c * 2 ^ (j + k)). set (d := Z.max k (Z.log2 n - 23)).
  assert (V : rne n d * 2 ^ (d - k) = c * 2 ^ j).
  { destruct (Z.eq_dec c 0) as [->|C0].
    { unfold n. rewrite Z.mul_0_l. pose proof (rne_exact 0 d ltac:(lia)) as X. rewrite Z.mul_0_l in X. rewrite X. reflexivity. }
    assert (Hd : k <= d <= j + k).
    { unfold d. assert (Z.log2 n < 24 + (j + k)); [|lia].
      unfold n. rewrite Z.log2_mul_pow2 by lia. pose proof (log2_lt c 24). lia. }
    unfold n. replace (j + k) with ((j + k - d) + d) by lia.
    rewrite Z.pow_add_r, Z.mul_assoc, rne_exact by lia.
    rewrite <- Z.mul_assoc, <- Z.pow_add_r by lia. do 2 f_equal. lia. }
  cbv zeta. rewrite V. reflexivity.
Qed.

(** Magnitudes a float can have. *)
Definition repr (v : Z) : Prop :=
  exists c j, 0 <= c < 2 ^ 24 /\ 0 <= j /\ v = c * 2 ^ j /\ v < 2 ^ 277.

(** ** Bits of floats *)

Lemma FFin_inj a b c d : FFin a b = FFin c d -> a = c /\ b = d.
Proof. intros H. injection H as -> ->. split; reflexivity. Qed.

Lemma Fin_inj a b c d : Fin a b = Fin c d -> a = c /\ b = d.
Proof. intros H. injection H as -> ->. split; reflexivity. Qed.

Lemma from_bits_split s u : 0 <= u < 2 ^ 31 ->
  fp32_from_bits (sbit s (2 ^ 31) + u) =
    let e := u / 2 ^ 23 in
    let m := u mod 2 ^ 23 in
    if e =? 255 then (if m =? 0 then FInf s else FNan)
    else if e =? 0 then FFin s m
    else FFin s ((2 ^ 23 + m) * 2 ^ (e - 1)).
Proof.
  intros Hu. unfold fp32_from_bits.
  assert (T : Z.testbit (sbit s (2 ^ 31) + u) 31 = s).
  { rewrite Z.testbit_odd, Z.shiftr_div_pow2 by lia. unfold sbit. destruct s.
    - replace ((2 ^ 31 + u) / 2 ^ 31) with 1; [reflexivity|].
      apply (Z.div_unique_pos _ _ _ u); lia.
    - rewrite Z.div_small by lia. reflexivity. }
  rewrite T.
  change (Z.land (Z.shiftr (sbit s (2 ^ 31) + u) 23) 255)
    with (Z.land (Z.shiftr (sbit s (2 ^ 31) + u) 23) (Z.ones 8)).
  change 8388607 with (Z.ones 23).
  rewrite !Z.land_ones, Z.shiftr_div_pow2 by lia.
  assert (E : (sbit s (2 ^ 31) + u) / 2 ^ 23 mod 2 ^ 8 = u / 2 ^ 23).
  { unfold sbit. destruct s.
    - replace (2 ^ 31 + u) with (u + 256 * 2 ^ 23) by reflexivity || lia.
      rewrite Z.div_add by lia. change (2 ^ 8) with 256.
      rewrite <- (Z.mul_1_l 256) at 1. rewrite Z.mod_add by lia.
      apply Z.mod_small. split; [apply Z.div_pos; lia|apply Z.div_lt_upper_bound; lia].
    - rewrite Z.add_0_l. apply Z.mod_small. change (2 ^ 8) with 256.
      split; [apply Z.div_pos; lia|apply Z.div_lt_upper_bound; lia]. }
  assert (M : (sbit s (2 ^ 31) + u) mod 2 ^ 23 = u mod 2 ^ 23).
  { unfold sbit. destruct s; [|rewrite Z.add_0_l; reflexivity].
    replace (2 ^ 31 + u) with (u + 256 * 2 ^ 23) by lia. apply Z.mod_add. lia. }
  rewrite E, M. cbv zeta. change 8388608 with (2 ^ 23).
  destruct (u / 2 ^ 23 =? 255); [reflexivity|].
  destruct (Z.eqb_spec (u / 2 ^ 23) 0) as [|N]; [reflexivity|].
  rewrite Z.shiftl_mul_pow2; [reflexivity|].
  pose proof (Z.div_pos u (2 ^ 23)). lia.
Qed.

(** The bits of a magnitude. *)
Definition ubits (v : Z) : Z :=
  if v <? 2 ^ 23 then v else (Z.log2 v - 22) * 2 ^ 23 + (v / 2 ^ (Z.log2 v - 23) - 2 ^ 23).

Lemma to_bits_fin s v : 0 <= v -> fp32_to_bits (FFin s v) = sbit s (2 ^ 31) + ubits v.
Proof.
  intros Hv. unfold fp32_to_bits, ubits, sbit. change 8388608 with (2 ^ 23).
  change 2147483648 with (2 ^ 31).
  destruct (Z.ltb_spec v (2 ^ 23)) as [L|L]; [reflexivity|].
  assert (23 <= Z.log2 v) by (apply Z.log2_le_pow2; lia).
  cbv zeta. rewrite Z.shiftl_mul_pow2, Z.shiftr_div_pow2 by lia.
  replace (Z.log2 v - 23 + 1) with (Z.log2 v - 22) by lia. lia.
Qed.

Lemma ubits_norm c d : 2 ^ 23 <= c < 2 ^ 24 -> 0 <= d ->
  Z.log2 (c * 2 ^ d) = 23 + d /\ ubits (c * 2 ^ d) = (d + 1) * 2 ^ 23 + (c - 2 ^ 23).
Proof.
  intros Hc Hd. pose proof (pow_pos d Hd).
  assert (L : Z.log2 (c * 2 ^ d) = 23 + d).
  { rewrite Z.log2_mul_pow2 by lia. replace (Z.log2 c) with 23; [lia|].
    symmetry. apply Z.log2_unique; lia. }
  split; [exact L|]. unfold ubits. rewrite L.
  destruct (Z.ltb_spec (c * 2 ^ d) (2 ^ 23)); [nia|].
  replace (23 + d - 23) with d by lia. rewrite Z.div_mul by lia. lia.
Qed.

Lemma repr_norm v : repr v -> 2 ^ 23 <= v -> exists c d, 2 ^ 23 <= c < 2 ^ 24 /\ 0 <= d <= 253 /\ v = c * 2 ^ d.
Proof.
  intros (c & j & Hc & Hj & -> & Hb) Hv.
  assert (C0 : 0 < c) by nia.
  destruct (Z_le_gt_dec (2 ^ 23) c) as [L|L].
  { exists c, j. split; [lia|]. split; [|reflexivity].
    assert (2 ^ (23 + j) < 2 ^ 277) by (rewrite Z.pow_add_r by lia; pose proof (pow_pos j Hj); nia).
    apply Z.pow_lt_mono_r_iff in H; lia. }
  set (k := 23 - Z.log2 c).
  pose proof (Z.log2_spec c C0) as [S1 S2].
  pose proof (Z.log2_nonneg c).
  assert (K : 0 <= k <= 23) by (unfold k; pose proof (log2_lt c 23); lia).
  assert (KJ : k <= j).
  { assert (Z.log2 (c * 2 ^ j) >= 23) by (pose proof (Z.log2_le_pow2 (c * 2 ^ j) 23); lia).
    rewrite Z.log2_mul_pow2 in H0 by lia. unfold k. lia. }
  exists (c * 2 ^ k), (j - k).
  assert (E : 2 ^ 23 = 2 ^ Z.log2 c * 2 ^ k) by (rewrite <- Z.pow_add_r by lia; f_equal; unfold k; lia).
  assert (E2 : 2 ^ 24 = 2 ^ Z.succ (Z.log2 c) * 2 ^ k) by (rewrite <- Z.pow_add_r by lia; f_equal; unfold k; lia).
  pose proof (pow_pos k ltac:(lia)).
  assert (V : c * 2 ^ j = c * 2 ^ k * 2 ^ (j - k))
    by (rewrite <- Z.mul_assoc, <- Z.pow_add_r by lia; do 2 f_equal; lia).
  assert (C : 2 ^ 23 <= c * 2 ^ k < 2 ^ 24).
  { rewrite E, E2. split; [apply Z.mul_le_mono_nonneg_r; lia|apply Z.mul_lt_mono_pos_r; lia]. }
  split; [exact C|]. split; [|exact V].
  split; [lia|].
  assert (2 ^ (23 + (j - k)) < 2 ^ 277).
  { rewrite Z.pow_add_r by lia. rewrite V in Hb. pose proof (pow_pos (j - k) ltac:(lia)).
    eapply Z.le_lt_trans; [|exact Hb]. apply Z.mul_le_mono_nonneg_r; lia. }
  apply Z.pow_lt_mono_r_iff in H1; lia.
Qed.

Lemma ubits_range v : repr v -> 0 <= v -> 0 <= ubits v < 255 * 2 ^ 23.
Proof.
  intros R Hv. destruct (Z_lt_le_dec v (2 ^ 23)) as [L|L].
  - unfold ubits. replace (v <? 2 ^ 23) with true by (symmetry; apply Z.ltb_lt; exact L). lia.
  - destruct (repr_norm v R L) as (c & d & Hc & Hd & ->).
    destruct (ubits_norm c d Hc (proj1 Hd)) as [_ ->]. lia.
Qed.

(** Reading back the bits of a float. *)
Lemma from_to_bits s v : repr v -> 0 <= v -> fp32_from_bits (sbit s (2 ^ 31) + ubits v) = FFin s v.
Proof.
  intros R Hv. pose proof (ubits_range v R Hv) as U. rewrite from_bits_split by lia.
  destruct (Z_lt_le_dec v (2 ^ 23)) as [L|L].
  - unfold ubits. replace (v <? 2 ^ 23) with true by (symmetry; apply Z.ltb_lt; exact L).
    cbv zeta. rewrite Z.div_small, Z.mod_small by lia. reflexivity.
  - destruct (repr_norm v R L) as (c & d & Hc & Hd & ->).
    destruct (ubits_norm c d Hc (proj1 Hd)) as [_ ->]. cbv zeta.
    assert (E : ((d + 1) * 2 ^ 23 + (c - 2 ^ 23)) / 2 ^ 23 = d + 1)
      by (symmetry; apply (Z.div_unique_pos _ _ _ (c - 2 ^ 23)); lia).
    assert (M : ((d + 1) * 2 ^ 23 + (c - 2 ^ 23)) mod 2 ^ 23 = c - 2 ^ 23)
      by (symmetry; apply (Z.mod_unique_pos _ _ (d + 1)); lia).
    rewrite E, M.
    replace (d + 1 =? 255) with false by (symmetry; apply Z.eqb_neq; lia).
    replace (d + 1 =? 0) with false by (symmetry; apply Z.eqb_neq; lia).
    replace (2 ^ 23 + (c - 2 ^ 23)) with c by lia. replace (d + 1 - 1) with d by lia. reflexivity.
Qed.

(** Every pattern of bits is a sign and 31 bits. *)
Lemma bits_split w : 0 <= w < 2 ^ 32 -> exists s u, 0 <= u < 2 ^ 31 /\ w = sbit s (2 ^ 31) + u.
Proof.
  intros Hw. destruct (Z_lt_le_dec w (2 ^ 31)).
  - exists false, w. cbn. lia.
  - exists true, (w - 2 ^ 31). unfold sbit. lia.
Qed.

Lemma from_bits_repr w s v : 0 <= w < 2 ^ 32 -> fp32_from_bits w = FFin s v -> 0 <= v /\ repr v.
Proof.
  intros Hw H. destruct (bits_split w Hw) as (s' & u & Hu & ->).
  rewrite from_bits_split in H by exact Hu. cbv zeta in H.
  pose proof (Z.mod_pos_bound u (2 ^ 23) ltac:(lia)) as M.
  pose proof (Z.div_pos u (2 ^ 23) ltac:(lia) ltac:(lia)) as D.
  assert (D2 : u / 2 ^ 23 < 256) by (apply Z.div_lt_upper_bound; lia).
  destruct (Z.eqb_spec (u / 2 ^ 23) 255).
  { destruct (u mod 2 ^ 23 =? 0); discriminate. }
  destruct (Z.eqb_spec (u / 2 ^ 23) 0); apply FFin_inj in H; destruct H as [_ <-].
  - split; [lia|]. exists (u mod 2 ^ 23), 0. rewrite Z.pow_0_r. lia.
  - assert (P : 0 < 2 ^ (u / 2 ^ 23 - 1)) by (apply pow_pos; lia).
    split; [nia|]. exists (2 ^ 23 + u mod 2 ^ 23), (u / 2 ^ 23 - 1).
    split; [lia|]. split; [lia|]. split; [reflexivity|].
    assert (2 ^ (u / 2 ^ 23 - 1) <= 2 ^ 253) by (apply Z.pow_le_mono_r; lia).
    change (2 ^ 277) with (2 ^ 24 * 2 ^ 253). nia.
Qed.

(** ** Halves *)

(** The magnitude of a half with the 15 bits [t]. *)
Definition hmag (t : Z) : Z :=
  if t <? 1024 then t else (1024 + t mod 1024) * 2 ^ (t / 1024 - 1).

Lemma half_split s t : 0 <= t < 2 ^ 15 ->
  half (sbit s (2 ^ 15) + t) =
    if t <? 31 * 1024 then Fin s (hmag t) else if t =? 31 * 1024 then Inf s else Nan.
Proof.
  intros Ht. unfold half, decode. change (5 + 10) with 15. change (2 ^ 10) with 1024.
  change (2 ^ 5) with 32. change (2 ^ 15) with 32768 in *.
  assert (T : Z.odd ((sbit s 32768 + t) / 32768) = s).
  { unfold sbit. destruct s.
    - replace ((32768 + t) / 32768) with 1; [reflexivity|].
      apply (Z.div_unique_pos _ _ _ t); lia.
    - rewrite Z.div_small by lia. reflexivity. }
  assert (E : (sbit s 32768 + t) / 1024 mod 32 = t / 1024).
  { unfold sbit. destruct s.
    - replace (32768 + t) with (t + 32 * 1024) by lia.
      rewrite Z.div_add by lia. rewrite <- (Z.mul_1_l 32) at 1. rewrite Z.mod_add by lia.
      apply Z.mod_small. split; [apply Z.div_pos; lia|apply Z.div_lt_upper_bound; lia].
    - rewrite Z.add_0_l. apply Z.mod_small.
      split; [apply Z.div_pos; lia|apply Z.div_lt_upper_bound; lia]. }
  assert (M : (sbit s 32768 + t) mod 1024 = t mod 1024).
  { unfold sbit. destruct s; [|rewrite Z.add_0_l; reflexivity].
    replace (32768 + t) with (t + 32 * 1024) by lia. apply Z.mod_add. lia. }
  rewrite T, E, M. cbv zeta. change (32 - 1) with 31. unfold hmag.
  pose proof (Z.div_mod t 1024 ltac:(lia)) as DM.
  pose proof (Z.mod_pos_bound t 1024 ltac:(lia)) as MB.
  set (q := t / 1024) in *. set (m := t mod 1024) in *.
  destruct (Z.eqb_spec q 31) as [Q|Q].
  - replace (t <? 31 * 1024) with false by (symmetry; apply Z.ltb_ge; lia).
    destruct (Z.eqb_spec m 0), (Z.eqb_spec t (31 * 1024)); try lia; reflexivity.
  - replace (t <? 31 * 1024) with true by (symmetry; apply Z.ltb_lt; lia).
    destruct (Z.eqb_spec q 0), (Z.ltb_spec t 1024); try lia; [f_equal; lia|reflexivity].
Qed.

Lemma half_bits h : 0 <= h < 2 ^ 16 -> exists s t, 0 <= t < 2 ^ 15 /\ h = sbit s (2 ^ 15) + t.
Proof.
  intros Hh. destruct (Z_lt_le_dec h (2 ^ 15)).
  - exists false, h. cbn. lia.
  - exists true, (h - 2 ^ 15). unfold sbit. lia.
Qed.

Lemma half_fin h s y : 0 <= h < 2 ^ 16 -> half h = Fin s y ->
  exists t, 0 <= t < 31 * 1024 /\ h = sbit s (2 ^ 15) + t /\ y = hmag t.
Proof.
  intros Hh H. destruct (half_bits h Hh) as (s' & t & Ht & ->).
  rewrite half_split in H by exact Ht.
  destruct (Z.ltb_spec t (31 * 1024)); [|destruct (t =? 31 * 1024); discriminate].
  apply Fin_inj in H. destruct H as [-> <-]. exists t. split; [lia|]. split; reflexivity.
Qed.

Lemma hmag_shape t : 0 <= t < 31 * 1024 ->
  exists c e, 0 <= c < 2048 /\ 0 <= e <= 29 /\ hmag t = c * 2 ^ e /\ (1024 <= c \/ e = 0).
Proof.
  intros Ht. unfold hmag. destruct (Z.ltb_spec t 1024).
  - exists t, 0. rewrite Z.pow_0_r. lia.
  - pose proof (Z.mod_pos_bound t 1024 ltac:(lia)).
    assert (1 <= t / 1024) by (apply Z.div_le_lower_bound; lia).
    assert (t / 1024 < 31) by (apply Z.div_lt_upper_bound; lia).
    exists (1024 + t mod 1024), (t / 1024 - 1). lia.
Qed.

Lemma hmag_nonneg t : 0 <= t < 31 * 1024 -> 0 <= hmag t.
Proof.
  intros Ht. destruct (hmag_shape t Ht) as (c & e & Hc & He & -> & _).
  pose proof (pow_pos e ltac:(lia)). nia.
Qed.

(** Halves from 2^(k+10) on are multiples of 2^k. *)
Lemma hmag_multiple t k : 0 <= t < 31 * 1024 -> 0 <= k -> 2 ^ (k + 10) <= hmag t ->
  exists q, hmag t = q * 2 ^ k.
Proof.
  intros Ht Hk H. destruct (hmag_shape t Ht) as (c & e & Hc & He & E & N). rewrite E in *.
  assert (k <= e).
  { destruct (Z_le_gt_dec k e); [assumption|exfalso].
    rewrite Z.pow_add_r in H by lia. change (2 ^ 10) with 1024 in H.
    assert (2 ^ (e + 1) <= 2 ^ k) by (apply Z.pow_le_mono_r; lia).
    rewrite Z.pow_add_r in H0 by lia. pose proof (pow_pos e ltac:(lia)). nia. }
  exists (c * 2 ^ (e - k)). rewrite <- Z.mul_assoc, <- Z.pow_add_r by lia. do 2 f_equal. lia.
Qed.

(** The bits computed from an exponent and a rounded mantissa. *)
Lemma hmag_encode k r : 0 <= k -> 0 <= r <= 2048 -> (k = 0 \/ 1024 <= r) ->
  hmag (k * 1024 + r) = r * 2 ^ k.
Proof.
  intros Hk Hr N. unfold hmag.
  destruct (Z.ltb_spec (k * 1024 + r) 1024).
  { assert (k = 0) by lia. subst k. rewrite Z.pow_0_r. lia. }
  destruct (Z.eq_dec r 2048) as [->|R].
  { replace (k * 1024 + 2048) with ((k + 2) * 1024) by lia.
    rewrite Z.div_mul, Z.mod_mul by lia. replace (k + 2 - 1) with (k + 1) by lia.
    rewrite Z.pow_add_r by lia. change (2 ^ 1) with 2. lia. }
  assert (D : (k * 1024 + r) / 1024 = k + 1) by (symmetry; apply (Z.div_unique_pos _ _ _ (r - 1024)); lia).
  assert (M : (k * 1024 + r) mod 1024 = r - 1024) by (symmetry; apply (Z.mod_unique_pos _ _ (k + 1)); lia).
  rewrite D, M. replace (k + 1 - 1) with k by lia. f_equal. lia.
Qed.

(** ** Float to half *)

(** Exponent field, at least that of the smallest normal half. *)
Definition expo (v : Z) : Z := Z.max 113 (Z.log2 v - 22).

Lemma ubits_expo v : repr v -> 0 <= v -> Z.max 113 (ubits v / 2 ^ 23) = expo v.
Proof.
  intros R Hv. unfold expo. destruct (Z_lt_le_dec v (2 ^ 23)) as [L|L].
  - unfold ubits. replace (v <? 2 ^ 23) with true by (symmetry; apply Z.ltb_lt; exact L).
    rewrite Z.div_small by lia.
    assert (Z.log2 v <= 23) by (change 23 with (Z.log2 (2 ^ 23)); apply Z.log2_le_mono; lia). lia.
  - destruct (repr_norm v R L) as (c & d & Hc & Hd & ->).
    destruct (ubits_norm c d Hc (proj1 Hd)) as [-> ->].
    replace (((d + 1) * 2 ^ 23 + (c - 2 ^ 23)) / 2 ^ 23) with (d + 1); [lia|].
    apply (Z.div_unique_pos _ _ _ (c - 2 ^ 23)); lia.
Qed.

Lemma expo_bounds v : 0 <= v < 2 ^ 165 -> 113 <= expo v <= 142 /\ v < 2 ^ (expo v + 23) /\ (expo v = 113 \/ 2 ^ (expo v + 22) <= v).
Proof.
  intros Hv. unfold expo. destruct (Z.eq_dec v 0) as [->|V].
  { cbn. lia. }
  pose proof (Z.log2_spec v ltac:(lia)) as [S1 S2].
  assert (Z.log2 v < 165) by (apply log2_lt; lia).
  split; [lia|]. split.
  - eapply Z.lt_le_trans; [exact S2|]. apply Z.pow_le_mono_r; lia.
  - destruct (Z.max_spec 113 (Z.log2 v - 22)) as [[_ ->]|[_ ->]]; [right|left; reflexivity].
    replace (Z.log2 v - 22 + 22) with (Z.log2 v) by lia. exact S1.
Qed.

Lemma scale_up v : repr v -> mul32 (FFin false v) (FFin false (2 ^ 261)) =
  if v * 2 ^ 112 <? 2 ^ 277 then FFin false (v * 2 ^ 112) else FInf false.
Proof.
  intros (c & j & Hc & Hj & -> & _). unfold mul32. change (xorb false false) with false.
  replace (c * 2 ^ j * 2 ^ 261) with (c * 2 ^ ((j + 112) + 149))
    by (rewrite <- Z.mul_assoc, <- Z.pow_add_r by lia; do 2 f_equal; lia).
  rewrite round32_exact by lia. rewrite Z.pow_add_r, Z.mul_assoc by lia. reflexivity.
Qed.

Lemma scale_down v : repr v -> v < 2 ^ 165 -> mul32 (FFin false (v * 2 ^ 112)) (FFin false (2 ^ 39)) = FFin false (4 * v).
Proof.
  intros (c & j & Hc & Hj & E & _) Hv. unfold mul32. change (xorb false false) with false.
  rewrite E.
  replace (c * 2 ^ j * 2 ^ 112 * 2 ^ 39) with (c * 2 ^ ((j + 2) + 149)).
  2:{ rewrite <- !Z.mul_assoc. f_equal. rewrite <- !Z.pow_add_r by lia. f_equal. lia. }
  rewrite round32_exact by lia.
  assert (X : c * 2 ^ (j + 2) = 4 * (c * 2 ^ j)) by (rewrite Z.pow_add_r by lia; change (2 ^ 2) with 4; lia).
  rewrite X, <- E.
  replace (4 * v <? 2 ^ 277) with true; [reflexivity|].
  symmetry. apply Z.ltb_lt. change (2 ^ 277) with (4 * 2 ^ 275).
  assert (2 ^ 165 < 2 ^ 275) by (apply Z.pow_lt_mono_r; lia). lia.
Qed.

Lemma bias_number e : 1 <= e <= 254 -> fp32_from_bits (e * 2 ^ 23) = FFin false (2 ^ (e + 22)).
Proof.
  intros He. pose proof (from_bits_split false (e * 2 ^ 23) ltac:(lia)) as X.
  cbn [sbit] in X. rewrite Z.add_0_l in X. rewrite X. cbv zeta.
  rewrite Z.div_mul, Z.mod_mul by lia.
  replace (e =? 255) with false by (symmetry; apply Z.eqb_neq; lia).
  replace (e =? 0) with false by (symmetry; apply Z.eqb_neq; lia).
  rewrite Z.add_0_r, <- Z.pow_add_r by lia. do 2 f_equal. lia.
Qed.

(** The mantissa after the rounding addition. *)
Lemma mantissa_bounds v : 0 <= v < 2 ^ 165 ->
  let E := expo v in
  0 <= rne v (E + 12) <= 2048 /\ (E = 113 \/ 1024 <= rne v (E + 12)).
Proof.
  intros Hv E. destruct (expo_bounds v Hv) as (HE & U & L). fold E in HE, U, L.
  replace (E + 23) with (11 + (E + 12)) in U by lia. rewrite Z.pow_add_r in U by lia.
  change (2 ^ 11) with 2048 in U.
  split.
  - apply rne_bounds; lia.
  - destruct L as [L|L]; [left; exact L|right].
    replace (E + 22) with (10 + (E + 12)) in L by lia. rewrite Z.pow_add_r in L by lia.
    change (2 ^ 10) with 1024 in L. apply (rne_bounds v (E + 12) 1024 2048); lia.
Qed.

Lemma add_bias v : 0 <= v < 2 ^ 165 ->
  let E := expo v in
  fp32_to_bits (add32 (FFin false (2 ^ (E + 37))) (FFin false (4 * v))) =
    (E + 15) * 2 ^ 23 + rne v (E + 12).
Proof.
  intros Hv E. destruct (expo_bounds v Hv) as (HE & U & _). fold E in HE, U.
  destruct (mantissa_bounds v Hv) as [R _]. fold E in R.
  assert (P : 0 < 2 ^ (E + 14)) by (apply pow_pos; lia).
  assert (P37 : 2 ^ (E + 37) = 2 ^ 23 * 2 ^ (E + 14)) by (rewrite <- Z.pow_add_r by lia; f_equal; lia).
  assert (U4 : 4 * v < 2 ^ 11 * 2 ^ (E + 14)).
  { replace (2 ^ 11 * 2 ^ (E + 14)) with (4 * 2 ^ (E + 23)); [lia|].
    change 4 with (2 ^ 2). rewrite <- !Z.pow_add_r by lia. f_equal. lia. }
  unfold add32. cbv iota.
  replace (2 ^ (E + 37) + 4 * v =? 0) with false by (symmetry; apply Z.eqb_neq; nia).
  replace (2 ^ (E + 37) + 4 * v <? 0) with false by (symmetry; apply Z.ltb_ge; nia).
  rewrite Z.abs_eq by nia. unfold round32.
  assert (L : Z.log2 (2 ^ (E + 37) + 4 * v) = E + 37).
  { apply Z.log2_unique; [lia|]. rewrite Z.pow_succ_r by lia. rewrite P37. nia. }
  rewrite L. replace (Z.max 0 (E + 37 - 23)) with (E + 14) by lia. cbv zeta.
  rewrite P37, rne_add by (lia || reflexivity).
  replace (rne (4 * v) (E + 14)) with (rne v (E + 12)).
  2:{ rewrite <- (rne_shift v 2 (E + 12)) by lia. f_equal; [change (2 ^ 2) with 4|]; lia. }
  rewrite Z.sub_0_r. set (r := rne v (E + 12)) in *.
  assert (B : (2 ^ 23 + r) * 2 ^ (E + 14) < 2 ^ 277).
  { assert (2 ^ (E + 14) <= 2 ^ 253) by (apply Z.pow_le_mono_r; lia).
    change (2 ^ 277) with (2 ^ 24 * 2 ^ 253). nia. }
  replace ((2 ^ 23 + r) * 2 ^ (E + 14) <? 2 ^ 277) with true by (symmetry; apply Z.ltb_lt; exact B).
  rewrite to_bits_fin by nia. cbn [sbit]. rewrite Z.add_0_l.
  destruct (ubits_norm (2 ^ 23 + r) (E + 14) ltac:(lia) ltac:(lia)) as [_ ->]. lia.
Qed.

Lemma sign_bits s u : 0 <= u < 2 ^ 31 ->
  Z.shiftr (Z.land (sbit s (2 ^ 31) + u) 2147483648) 16 = sbit s (2 ^ 15) /\ (sbit s (2 ^ 31) + u + (sbit s (2 ^ 31) + u)) mod 2 ^ 32 = 2 * u.
Proof.
  intros Hu. split.
  - change 2147483648 with (Z.shiftl (Z.ones 1) 31). rewrite land_field by lia.
    replace ((sbit s (2 ^ 31) + u) / 2 ^ 31) with (sbit s 1); [destruct s; reflexivity|].
    apply (Z.div_unique_pos _ _ _ u); [lia|]. destruct s; cbn [sbit]; lia.
  - symmetry. apply (Z.mod_unique_pos _ _ (sbit s 1)); [lia|]. destruct s; cbn [sbit]; lia.
Qed.

Lemma pack s t : 0 <= t < 2 ^ 15 -> Z.lor (sbit s (2 ^ 15)) t mod 2 ^ 16 = sbit s (2 ^ 15) + t.
Proof.
  intros Ht. replace (sbit s (2 ^ 15)) with (sbit s 1 * 2 ^ 15) by (destruct s; reflexivity).
  rewrite lor_disjoint by lia. apply Z.mod_small. destruct s; cbn [sbit]; lia.
Qed.

Lemma narrow_fin s v : repr v -> 0 <= v < 2 ^ 165 ->
  fp16_from_fp32 (FFin s v) = sbit s (2 ^ 15) + ((expo v - 113) * 1024 + rne v (expo v + 12)).
Proof.
  intros R Hv. unfold fp16_from_fp32. cbv zeta.
  change (Z.shiftl 239 23) with (239 * 2 ^ 23). change (Z.shiftl 17 23) with (17 * 2 ^ 23).
  rewrite !bias_number by lia. change (239 + 22) with 261. change (17 + 22) with 39.
  unfold fabs32. rewrite scale_up by exact R.
  replace (v * 2 ^ 112 <? 2 ^ 277) with true.
  2:{ symmetry. apply Z.ltb_lt. change (2 ^ 277) with (2 ^ 165 * 2 ^ 112). nia. }
  rewrite scale_down by (exact R || lia).
  rewrite to_bits_fin by lia.
  pose proof (ubits_range v R (proj1 Hv)) as UR.
  destruct (sign_bits s (ubits v) ltac:(lia)) as [-> ->].
  destruct (expo_bounds v Hv) as (HE & _ & _).
  destruct (mantissa_bounds v Hv) as [HR HR2]. cbv zeta in HR, HR2.
  assert (B : Z.land (2 * ubits v) 4278190080 = ubits v / 2 ^ 23 * 2 ^ 24).
  { change 4278190080 with (Z.shiftl (Z.ones 8) 24). rewrite land_field by lia. f_equal.
    replace (2 ^ 24) with (2 * 2 ^ 23) by reflexivity. rewrite Z.div_mul_cancel_l by lia.
    apply Z.mod_small. split; [apply Z.div_pos; lia|].
    apply Z.div_lt_upper_bound; [lia|]. change (2 ^ 8) with 256. lia. }
  rewrite B.
  assert (BM : (if ubits v / 2 ^ 23 * 2 ^ 24 <? 1895825408 then 1895825408 else ubits v / 2 ^ 23 * 2 ^ 24)
               = expo v * 2 ^ 24).
  { rewrite <- (ubits_expo v R (proj1 Hv)). change 1895825408 with (113 * 2 ^ 24).
    destruct (Z.ltb_spec (ubits v / 2 ^ 23 * 2 ^ 24) (113 * 2 ^ 24)).
    - rewrite Z.max_l; [reflexivity|lia].
    - rewrite Z.max_r; [reflexivity|lia]. }
  rewrite BM.
  assert (BS : (Z.shiftr (expo v * 2 ^ 24) 1 + 125829120) mod 2 ^ 32 = (expo v + 15) * 2 ^ 23).
  { rewrite Z.shiftr_div_pow2 by lia. change (2 ^ 1) with 2.
    replace (expo v * 2 ^ 24) with (expo v * 2 ^ 23 * 2) by lia. rewrite Z.div_mul by lia.
    change 125829120 with (15 * 2 ^ 23). rewrite Z.mod_small; lia. }
  rewrite BS, bias_number by lia. replace (expo v + 15 + 22) with (expo v + 37) by lia.
  rewrite add_bias by exact Hv. cbv zeta. set (E := expo v) in *. set (r := rne v (E + 12)) in *.
  replace (4278190080 <? 2 * ubits v) with false by (symmetry; apply Z.ltb_ge; lia).
  assert (X1 : Z.land (Z.shiftr ((E + 15) * 2 ^ 23 + r) 13) 31744 = (E - 113) * 1024).
  { change 31744 with (Z.shiftl (Z.ones 5) 10). rewrite land_field, Z.shiftr_div_pow2, Z.div_div by lia.
    change (2 ^ 13 * 2 ^ 10) with (2 ^ 23). change (2 ^ 10) with 1024.
    replace (((E + 15) * 2 ^ 23 + r) / 2 ^ 23) with (E + 15).
    2:{ apply (Z.div_unique_pos _ _ _ r); lia. }
    replace ((E + 15) mod 2 ^ 5) with (E - 113); [reflexivity|].
    apply (Z.mod_unique_pos _ _ 4); change (2 ^ 5) with 32; lia. }
  assert (X2 : Z.land ((E + 15) * 2 ^ 23 + r) 4095 = r).
  { change 4095 with (Z.ones 12). rewrite Z.land_ones by lia. symmetry.
    apply (Z.mod_unique_pos _ _ ((E + 15) * 2 ^ 11)); lia. }
  rewrite X1, X2.
  rewrite (Z.mod_small _ (2 ^ 32)) by lia. apply pack. lia.
Qed.

Lemma add_inf x : x <> FNan -> x <> FInf true -> add32 x (FInf false) = FInf false.
Proof. destruct x as [|[|]|s v]; intros H1 H2; try congruence; reflexivity. Qed.

Lemma narrow_big s v : repr v -> 2 ^ 165 <= v ->
  fp16_from_fp32 (FFin s v) = sbit s (2 ^ 15) + 31 * 1024.
Proof.
  intros R Hv.
  assert (V0 : 0 <= v) by lia.
  unfold fp16_from_fp32. cbv zeta.
  change (Z.shiftl 239 23) with (239 * 2 ^ 23). change (Z.shiftl 17 23) with (17 * 2 ^ 23).
  rewrite !bias_number by lia. change (239 + 22) with 261. change (17 + 22) with 39.
  unfold fabs32. rewrite scale_up by exact R.
  replace (v * 2 ^ 112 <? 2 ^ 277) with false.
  2:{ symmetry. apply Z.ltb_ge. change (2 ^ 277) with (2 ^ 165 * 2 ^ 112). nia. }
  replace (mul32 (FInf false) (FFin false (2 ^ 39))) with (FInf false) by reflexivity.
  rewrite to_bits_fin by lia.
  pose proof (ubits_range v R V0) as UR.
  destruct (sign_bits s (ubits v) ltac:(lia)) as [-> ->].
  assert (B : Z.land (2 * ubits v) 4278190080 = ubits v / 2 ^ 23 * 2 ^ 24).
  { change 4278190080 with (Z.shiftl (Z.ones 8) 24). rewrite land_field by lia. f_equal.
    replace (2 ^ 24) with (2 * 2 ^ 23) by reflexivity. rewrite Z.div_mul_cancel_l by lia.
    apply Z.mod_small. split; [apply Z.div_pos; lia|].
    apply Z.div_lt_upper_bound; [lia|]. change (2 ^ 8) with 256. lia. }
  rewrite B.
  assert (D2 : ubits v / 2 ^ 23 < 255) by (apply Z.div_lt_upper_bound; lia).
  assert (D1 : 143 <= ubits v / 2 ^ 23).
  { pose proof (ubits_expo v R V0) as X. unfold expo in X.
    assert (165 <= Z.log2 v) by (apply Z.log2_le_pow2; lia). lia. }
  set (e := ubits v / 2 ^ 23) in *.
  replace (e * 2 ^ 24 <? 1895825408) with false by (symmetry; apply Z.ltb_ge; lia).
  rewrite add_inf.
  - replace (4278190080 <? 2 * ubits v) with false by (symmetry; apply Z.ltb_ge; lia).
    change (fp32_to_bits (FInf false)) with 2139095040. apply (pack s (31 * 1024)). lia.
  - rewrite Z.shiftr_div_pow2 by lia. change (2 ^ 1) with 2.
    replace (e * 2 ^ 24) with (e * 2 ^ 23 * 2) by lia. rewrite Z.div_mul by lia.
    change 125829120 with (15 * 2 ^ 23).
    rewrite Z.mod_small by lia.
    replace (e * 2 ^ 23 + 15 * 2 ^ 23) with ((e + 15) * 2 ^ 23) by lia.
    destruct (Z_lt_le_dec (e + 15) 256) as [L|L].
    + pose proof (from_bits_split false ((e + 15) * 2 ^ 23) ltac:(lia)) as X.
      cbn [sbit] in X. rewrite Z.add_0_l in X. rewrite X. cbv zeta.
      rewrite Z.div_mul, Z.mod_mul by lia.
      destruct (e + 15 =? 255); [discriminate|]. destruct (e + 15 =? 0); discriminate.
    + pose proof (from_bits_split true ((e + 15 - 256) * 2 ^ 23) ltac:(lia)) as X.
      cbn [sbit] in X. replace (2 ^ 31 + (e + 15 - 256) * 2 ^ 23) with ((e + 15) * 2 ^ 23) in X by lia.
      rewrite X. cbv zeta. rewrite Z.div_mul, Z.mod_mul by lia.
      destruct (Z.eqb_spec (e + 15 - 256) 255); [lia|].
      destruct (e + 15 - 256 =? 0); discriminate.
  - rewrite Z.shiftr_div_pow2 by lia. change (2 ^ 1) with 2.
    replace (e * 2 ^ 24) with (e * 2 ^ 23 * 2) by lia. rewrite Z.div_mul by lia.
    change 125829120 with (15 * 2 ^ 23).
    rewrite Z.mod_small by lia.
    replace (e * 2 ^ 23 + 15 * 2 ^ 23) with ((e + 15) * 2 ^ 23) by lia.
    destruct (Z_lt_le_dec (e + 15) 256) as [L|L].
    + pose proof (from_bits_split false ((e + 15) * 2 ^ 23) ltac:(lia)) as X.
      cbn [sbit] in X. rewrite Z.add_0_l in X. rewrite X. cbv zeta.
      rewrite Z.div_mul, Z.mod_mul by lia.
      destruct (e + 15 =? 255); [discriminate|]. destruct (e + 15 =? 0); discriminate.
    + pose proof (from_bits_split true ((e + 15 - 256) * 2 ^ 23) ltac:(lia)) as X.
      cbn [sbit] in X. replace (2 ^ 31 + (e + 15 - 256) * 2 ^ 23) with ((e + 15) * 2 ^ 23) in X by lia.
      rewrite X. cbv zeta. rewrite Z.div_mul, Z.mod_mul by lia.
      destruct (Z.eqb_spec (e + 15 - 256) 255); [lia|].
      destruct (e + 15 - 256 =? 0); discriminate.
Qed.

Lemma narrow_inf s : fp16_from_fp32 (FInf s) = sbit s (2 ^ 15) + 31 * 1024.
Proof. destruct s; reflexivity. Qed.

Lemma narrow_nan : fp16_from_fp32 FNan = 32256.
Proof. reflexivity. Qed.

(** ** Nearest *)

Lemma nearest_core v t : 0 <= v < 2 ^ 165 -> 0 <= t < 31 * 1024 ->
  let E := expo v in
  let y := rne v (E + 12) * 2 ^ (E - 113) in
  Z.abs (v - y * 2 ^ 125) <= Z.abs (v - hmag t * 2 ^ 125) /\
  (Z.abs (v - y * 2 ^ 125) = Z.abs (v - hmag t * 2 ^ 125) -> hmag t <> y ->
   Z.even (rne v (E + 12)) = true).
Proof.
  intros Hv Ht E y. destruct (expo_bounds v Hv) as (HE & U & L). fold E in HE, U, L.
  assert (Y : y * 2 ^ 125 = rne v (E + 12) * 2 ^ (E + 12)).
  { unfold y. rewrite <- Z.mul_assoc, <- Z.pow_add_r by lia. do 2 f_equal. lia. }
  pose proof (pow_pos (E - 113) ltac:(lia)) as P.
  assert (M : forall q, hmag t = q * 2 ^ (E - 113) ->
    Z.abs (v - y * 2 ^ 125) <= Z.abs (v - hmag t * 2 ^ 125) /\
    (Z.abs (v - y * 2 ^ 125) = Z.abs (v - hmag t * 2 ^ 125) -> hmag t <> y ->
     Z.even (rne v (E + 12)) = true)).
  { intros q Q.
    assert (T : hmag t * 2 ^ 125 = q * 2 ^ (E + 12)).
    { rewrite Q, <- Z.mul_assoc, <- Z.pow_add_r by lia. do 2 f_equal. lia. }
    rewrite Y, T. destruct (rne_nearest v (E + 12) q ltac:(lia)) as [N1 N2].
    split; [exact N1|]. intros X Ny. apply N2; [exact X|].
    intros ->. apply Ny. rewrite Q. reflexivity. }
  destruct L as [L|L].
  { apply (M (hmag t)). rewrite L, Z.sub_diag, Z.pow_0_r. lia. }
  destruct (Z_le_gt_dec (2 ^ ((E - 113) + 10)) (hmag t)) as [G|G].
  { destruct (hmag_multiple t (E - 113) Ht ltac:(lia) G) as [q Q]. exact (M q Q). }
  (* a smaller half is farther away than 2^(E-103) *)
  destruct (rne_nearest v (E + 12) 1024 ltac:(lia)) as [N1 _].
  assert (K : 1024 * 2 ^ (E + 12) = 2 ^ (E - 113 + 10) * 2 ^ 125).
  { change 1024 with (2 ^ 10). rewrite <- !Z.pow_add_r by lia. f_equal. lia. }
  assert (K2 : 2 ^ (E + 22) = 1024 * 2 ^ (E + 12)).
  { change 1024 with (2 ^ 10). rewrite <- !Z.pow_add_r by lia. f_equal. lia. }
  pose proof (hmag_nonneg t Ht).
  assert (S : hmag t * 2 ^ 125 < 2 ^ (E - 113 + 10) * 2 ^ 125) by (apply Z.mul_lt_mono_pos_r; lia).
  rewrite Y. split; [lia|]. intros X. lia.
Qed.

Lemma formula_rounds s v : 0 <= v < 2 ^ 165 ->
  rounds_to s v (2 ^ 125) (sbit s (2 ^ 15) + ((expo v - 113) * 1024 + rne v (expo v + 12))).
Proof.
  intros Hv. unfold rounds_to.
  destruct (expo_bounds v Hv) as (HE & U & LE).
  destruct (mantissa_bounds v Hv) as [HR HR2]. cbv zeta in HR, HR2.
  set (E := expo v) in *. set (r := rne v (E + 12)) in *.
  assert (T : v < 65520 * 2 ^ 24 * 2 ^ 125 <-> (E - 113) * 1024 + r < 31 * 1024).
  { destruct (Z.eq_dec E 142) as [E142|E142].
    - destruct (rne_spec v (E + 12) ltac:(lia)) as [R1 R2]. fold r in R1, R2.
      rewrite E142 in *. change (142 + 12) with 154 in *.
      change (2 ^ 154) with (2 * 2 ^ 153) in R1, R2.
      change (65520 * 2 ^ 24 * 2 ^ 125) with (4095 * 2 ^ 153).
      split; intros X.
      + destruct (Z.eq_dec r 2048) as [Q|Q]; [exfalso|lia]. rewrite Q in *. lia.
      + destruct (Z_lt_le_dec v (4095 * 2 ^ 153)) as [|G]; [assumption|exfalso].
        assert (r <= 2047) by lia.
        assert (r = 2047) by lia. subst r. rewrite H0 in *.
        assert (v = 4095 * 2 ^ 153) by lia.
        assert (Z.even 2047 = true) by (apply R2; lia). discriminate.
    - split; intros X; [lia|].
      assert (2 ^ (E + 23) <= 2 ^ 164) by (apply Z.pow_le_mono_r; lia). lia. }
  destruct (Z.ltb_spec v (65520 * 2 ^ 24 * 2 ^ 125)) as [B|B].
  - apply T in B. exists (r * 2 ^ (E - 113)). split.
    { rewrite half_split by lia. replace ((E - 113) * 1024 + r <? 31 * 1024) with true
        by (symmetry; apply Z.ltb_lt; exact B).
      f_equal. apply hmag_encode; [lia|lia|]. destruct HR2; [left; lia|right; assumption]. }
    intros h' s' y' Hh' H'. destruct (half_fin h' s' y' Hh' H') as (t & Ht & _ & ->).
    pose proof (nearest_core v t Hv Ht) as [N1 N2]. cbv zeta in N1, N2. fold E in N1, N2. fold r in N1, N2.
    pose proof (nearest_core v 0 Hv ltac:(lia)) as [Z1 Z2]. cbv zeta in Z1, Z2. fold E in Z1, Z2. fold r in Z1, Z2.
    change (hmag 0) with 0 in Z1, Z2. rewrite Z.mul_0_l, Z.sub_0_r in Z1, Z2.
    pose proof (hmag_nonneg t Ht) as HN.
    assert (EV : Z.even (sbit s (2 ^ 15) + ((E - 113) * 1024 + r)) = Z.even r).
    { rewrite !Z.even_add. replace (Z.even ((E - 113) * 1024)) with true
        by (rewrite Z.even_mul; cbn; rewrite orb_true_r; reflexivity).
      replace (Z.even (sbit s (2 ^ 15))) with true by (destruct s; reflexivity).
      destruct (Z.even r); reflexivity. }
    rewrite EV. set (y := r * 2 ^ (E - 113)) in *.
    assert (A : Z.abs (signed s v - signed s y * 2 ^ 125) = Z.abs (v - y * 2 ^ 125))
      by (unfold signed; destruct s; lia).
    rewrite A.
    destruct (Bool.bool_dec s' s) as [->|Ns].
    + assert (A' : Z.abs (signed s v - signed s (hmag t) * 2 ^ 125) = Z.abs (v - hmag t * 2 ^ 125))
        by (unfold signed; destruct s; lia).
      rewrite A'. split; [exact N1|]. intros X Y. apply N2; [exact X|].
      intros Q. apply Y. rewrite Q. reflexivity.
    + assert (A' : Z.abs (signed s v - signed s' (hmag t) * 2 ^ 125) = v + hmag t * 2 ^ 125)
        by (unfold signed; destruct s, s'; try congruence; lia).
      rewrite A'. split; [lia|]. intros X Y.
      assert (H0 : hmag t = 0) by lia. apply Z2; [lia|].
      intros Q. apply Y. rewrite H0, <- Q. unfold signed. destruct s, s'; reflexivity.
  - assert (Q : (E - 113) * 1024 + r = 31 * 1024).
    { destruct (Z_lt_le_dec ((E - 113) * 1024 + r) (31 * 1024)) as [X|X]; [apply T in X; lia|lia]. }
    rewrite Q, half_split by lia. reflexivity.
Qed.

Lemma infinite_rounds s v : 2 ^ 165 <= v -> rounds_to s v (2 ^ 125) (sbit s (2 ^ 15) + 31 * 1024).
Proof.
  intros L. unfold rounds_to.
  replace (v <? 65520 * 2 ^ 24 * 2 ^ 125) with false by (symmetry; apply Z.ltb_ge; lia).
  rewrite half_split by lia. reflexivity.
Qed.

Lemma narrow_rounds s v : repr v -> 0 <= v ->
  rounds_to s v (2 ^ 125) (fp16_from_fp32 (FFin s v)).
Proof.
  intros R V0. destruct (Z_lt_le_dec v (2 ^ 165)) as [L|L].
  - rewrite narrow_fin by (assumption || lia). apply formula_rounds. lia.
  - rewrite narrow_big by assumption. apply infinite_rounds. exact L.
Qed.

(** ** Half to float *)

Lemma hmag_repr t : 0 <= t < 31 * 1024 -> repr (hmag t * 2 ^ 125).
Proof.
  intros Ht. destruct (hmag_shape t Ht) as (c & e & Hc & He & -> & _).
  exists c, (e + 125). split; [lia|]. split; [lia|].
  assert (X : c * 2 ^ e * 2 ^ 125 = c * 2 ^ (e + 125)) by (rewrite <- Z.mul_assoc, <- Z.pow_add_r by lia; reflexivity).
  split; [exact X|]. rewrite X.
  assert (2 ^ (e + 125) <= 2 ^ 154) by (apply Z.pow_le_mono_r; lia).
  change (2 ^ 277) with (2 ^ 123 * 2 ^ 154). nia.
Qed.

Lemma widen_parts s t : 0 <= t < 2 ^ 15 ->
  Z.land (Z.shiftl (sbit s (2 ^ 15) + t) 16) 2147483648 = sbit s (2 ^ 31) /\
  (Z.shiftl (sbit s (2 ^ 15) + t) 16 + Z.shiftl (sbit s (2 ^ 15) + t) 16) mod 2 ^ 32 = t * 2 ^ 17.
Proof.
  intros Ht. rewrite Z.shiftl_mul_pow2 by lia. split.
  - change 2147483648 with (Z.shiftl (Z.ones 1) 31). rewrite land_field by lia.
    replace ((sbit s (2 ^ 15) + t) * 2 ^ 16 / 2 ^ 31) with (sbit s 1); [destruct s; reflexivity|].
    apply (Z.div_unique_pos _ _ _ (t * 2 ^ 16)); [lia|]. destruct s; cbn [sbit]; lia.
  - symmetry. apply (Z.mod_unique_pos _ _ (sbit s 1)); [lia|]. destruct s; cbn [sbit]; lia.
Qed.

Lemma lor_sign s u : 0 <= u < 2 ^ 31 -> Z.lor (sbit s (2 ^ 31)) u = sbit s (2 ^ 31) + u.
Proof.
  intros Hu. replace (sbit s (2 ^ 31)) with (sbit s 1 * 2 ^ 31) by (destruct s; reflexivity).
  apply lor_disjoint; lia.
Qed.

Lemma denormal_path t : 0 <= t < 1024 ->
  sub32 (fp32_from_bits (Z.lor t (Z.shiftl 126 23))) (fp32_from_bits (Z.shiftl 126 23)) =
    FFin false (t * 2 ^ 125).
Proof.
  intros Ht. change (Z.shiftl 126 23) with (126 * 2 ^ 23).
  rewrite Z.lor_comm, lor_disjoint by lia. rewrite bias_number by lia.
  pose proof (from_bits_split false (126 * 2 ^ 23 + t) ltac:(lia)) as X.
  cbn [sbit] in X. rewrite Z.add_0_l in X. rewrite X. cbv zeta.
  replace ((126 * 2 ^ 23 + t) / 2 ^ 23) with 126 by (apply (Z.div_unique_pos _ _ _ t); lia).
  replace ((126 * 2 ^ 23 + t) mod 2 ^ 23) with t by (apply (Z.mod_unique_pos _ _ 126); lia).
  change (126 =? 255) with false. change (126 =? 0) with false. cbv iota.
  unfold sub32, neg32, add32. cbv zeta. change (negb false) with true. cbv iota.
  change (126 - 1) with 125. change (126 + 22) with 148.
  replace ((2 ^ 23 + t) * 2 ^ 125 + - 2 ^ 148) with (t * 2 ^ 125) by lia.
  destruct (Z.eqb_spec (t * 2 ^ 125) 0) as [Q|Q].
  - change (false && true)%bool with false. f_equal. lia.
  - replace (t * 2 ^ 125 <? 0) with false by (symmetry; apply Z.ltb_ge; lia).
    rewrite Z.abs_eq by lia.
    pose proof (round32_exact false t 125 0 ltac:(lia) ltac:(lia) ltac:(lia)) as Y.
    rewrite Z.add_0_r in Y. rewrite Y.
    replace (t * 2 ^ 125 <? 2 ^ 277) with true by (symmetry; apply Z.ltb_lt; lia). reflexivity.
Qed.

Lemma normal_path t : 1024 <= t < 31 * 1024 ->
  mul32 (fp32_from_bits ((Z.shiftr (t * 2 ^ 17) 4 + Z.shiftl 224 23) mod 2 ^ 32)) (fp32_from_bits (Z.shiftl 15 23)) =
    FFin false (hmag t * 2 ^ 125).
Proof.
  intros Ht. change (Z.shiftl 15 23) with (15 * 2 ^ 23). rewrite bias_number by lia.
  change (Z.shiftl 224 23) with (224 * 2 ^ 23). rewrite Z.shiftr_div_pow2 by lia.
  replace (t * 2 ^ 17) with (t * 2 ^ 13 * 2 ^ 4) by lia. rewrite Z.div_mul by lia.
  rewrite Z.mod_small by lia.
  pose proof (Z.div_mod t 1024 ltac:(lia)) as DM.
  pose proof (Z.mod_pos_bound t 1024 ltac:(lia)) as MB.
  pose proof (from_bits_split false (t * 2 ^ 13 + 224 * 2 ^ 23) ltac:(lia)) as X.
  cbn [sbit] in X. rewrite Z.add_0_l in X. rewrite X. cbv zeta.
  unfold hmag. replace (t <? 1024) with false by (symmetry; apply Z.ltb_ge; lia).
  set (q := t / 1024) in *. set (m := t mod 1024) in *.
  replace ((t * 2 ^ 13 + 224 * 2 ^ 23) / 2 ^ 23) with (q + 224)
    by (apply (Z.div_unique_pos _ _ _ (m * 2 ^ 13)); lia).
  replace ((t * 2 ^ 13 + 224 * 2 ^ 23) mod 2 ^ 23) with (m * 2 ^ 13)
    by (apply (Z.mod_unique_pos _ _ (q + 224)); lia).
  replace (q + 224 =? 255) with false by (symmetry; apply Z.eqb_neq; lia).
  replace (q + 224 =? 0) with false by (symmetry; apply Z.eqb_neq; lia).
  unfold mul32. change (xorb false false) with false. change (15 + 22) with 37.
  replace ((2 ^ 23 + m * 2 ^ 13) * 2 ^ (q + 224 - 1) * 2 ^ 37) with ((1024 + m) * 2 ^ ((q + 124) + 149)).
  2:{ replace (2 ^ 23 + m * 2 ^ 13) with ((1024 + m) * 2 ^ 13) by lia.
      rewrite <- !Z.mul_assoc, <- !Z.pow_add_r by lia. do 2 f_equal. lia. }
  rewrite round32_exact by lia.
  assert (2 ^ (q + 124) <= 2 ^ 154) by (apply Z.pow_le_mono_r; lia).
  replace ((1024 + m) * 2 ^ (q + 124) <? 2 ^ 277) with true.
  2:{ symmetry. apply Z.ltb_lt. change (2 ^ 277) with (2 ^ 123 * 2 ^ 154). nia. }
  f_equal. rewrite <- Z.mul_assoc, <- Z.pow_add_r by lia. do 2 f_equal. lia.
Qed.

Lemma widen_fin s t : 0 <= t < 31 * 1024 -> fp16_to_fp32 (sbit s (2 ^ 15) + t) = FFin s (hmag t * 2 ^ 125).
Proof.
  intros Ht. unfold fp16_to_fp32. cbv zeta.
  destruct (widen_parts s t ltac:(lia)) as [-> ->].
  pose proof (hmag_repr t Ht) as R. pose proof (hmag_nonneg t Ht) as N.
  pose proof (ubits_range _ R ltac:(lia)) as U.
  change (Z.shiftl 1 27) with (1024 * 2 ^ 17).
  destruct (Z.ltb_spec (t * 2 ^ 17) (1024 * 2 ^ 17)) as [L|L].
  - rewrite (Z.shiftr_div_pow2 _ 17), Z.div_mul by lia. rewrite denormal_path by lia.
    assert (H : hmag t = t) by (unfold hmag; destruct (Z.ltb_spec t 1024); [reflexivity|lia]).
    rewrite H in R, U. rewrite to_bits_fin by lia. cbn [sbit]. rewrite Z.add_0_l.
    rewrite lor_sign by lia. rewrite H. apply from_to_bits; [exact R|lia].
  - rewrite normal_path by lia. rewrite to_bits_fin by lia. cbn [sbit]. rewrite Z.add_0_l.
    rewrite lor_sign by lia. apply from_to_bits; [exact R|lia].
Qed.

Lemma widen_inf s : fp16_to_fp32 (sbit s (2 ^ 15) + 31 * 1024) = FInf s.
Proof. destruct s; reflexivity. Qed.

Lemma widen_nan s t : 31 * 1024 < t < 2 ^ 15 -> fp16_to_fp32 (sbit s (2 ^ 15) + t) = FNan.
Proof.
  intros Ht. unfold fp16_to_fp32. cbv zeta.
  destruct (widen_parts s t ltac:(lia)) as [-> ->].
  change (Z.shiftl 1 27) with (1024 * 2 ^ 17).
  replace (t * 2 ^ 17 <? 1024 * 2 ^ 17) with false by (symmetry; apply Z.ltb_ge; lia).
  change (Z.shiftl 15 23) with (15 * 2 ^ 23). rewrite bias_number by lia.
  change (Z.shiftl 224 23) with (224 * 2 ^ 23). rewrite (Z.shiftr_div_pow2 _ 4) by lia.
  replace (t * 2 ^ 17) with (t * 2 ^ 13 * 2 ^ 4) by lia. rewrite Z.div_mul by lia.
  rewrite Z.mod_small by lia.
  pose proof (from_bits_split false (t * 2 ^ 13 + 224 * 2 ^ 23) ltac:(lia)) as X.
  cbn [sbit] in X. rewrite Z.add_0_l in X. rewrite X. cbv zeta.
  replace ((t * 2 ^ 13 + 224 * 2 ^ 23) / 2 ^ 23) with 255
    by (apply (Z.div_unique_pos _ _ _ ((t - 31 * 1024) * 2 ^ 13)); lia).
  replace ((t * 2 ^ 13 + 224 * 2 ^ 23) mod 2 ^ 23) with ((t - 31 * 1024) * 2 ^ 13)
    by (apply (Z.mod_unique_pos _ _ 255); lia).
  change (255 =? 255) with true. cbv iota.
  replace ((t - 31 * 1024) * 2 ^ 13 =? 0) with false by (symmetry; apply Z.eqb_neq; lia).
  destruct s; reflexivity.
Qed.

(** ** Round trip, products and sums *)

Lemma narrow_widen s t : 0 <= t < 31 * 1024 ->
  fp16_from_fp32 (FFin s (hmag t * 2 ^ 125)) = sbit s (2 ^ 15) + t.
Proof.
  intros Ht.
  assert (B : 0 <= hmag t * 2 ^ 125 < 2 ^ 165).
  { destruct (hmag_shape t Ht) as (c & e & Hc & He & -> & _).
    assert (0 < 2 ^ e <= 2 ^ 29) by (split; [apply pow_pos; lia|apply Z.pow_le_mono_r; lia]).
    change (2 ^ 165) with (2048 * 2 ^ 29 * 2 ^ 125). nia. }
  rewrite narrow_fin by (exact B || apply hmag_repr; exact Ht). f_equal.
  unfold hmag, expo. destruct (Z.ltb_spec t 1024) as [L|L].
  - assert (E : Z.max 113 (Z.log2 (t * 2 ^ 125) - 22) = 113).
    { apply Z.max_l. destruct (Z.eq_dec t 0) as [->|T0]; [cbn; lia|].
      rewrite Z.log2_mul_pow2 by lia. pose proof (log2_lt t 10). change (2 ^ 10) with 1024 in *. lia. }
    rewrite E. change (113 + 12) with 125. rewrite rne_exact by lia. lia.
  - pose proof (Z.div_mod t 1024 ltac:(lia)) as DM.
    pose proof (Z.mod_pos_bound t 1024 ltac:(lia)) as MB.
    set (q := t / 1024) in *. set (m := t mod 1024) in *.
    assert (X : (1024 + m) * 2 ^ (q - 1) * 2 ^ 125 = (1024 + m) * 2 ^ (q + 124))
      by (rewrite <- Z.mul_assoc, <- Z.pow_add_r by lia; do 2 f_equal; lia).
    rewrite X.
    assert (E : Z.max 113 (Z.log2 ((1024 + m) * 2 ^ (q + 124)) - 22) = q + 112).
    { rewrite Z.log2_mul_pow2 by lia. replace (Z.log2 (1024 + m)) with 10; [lia|].
      symmetry. apply Z.log2_unique; [lia|]. change (2 ^ 10) with 1024. change (2 ^ Z.succ 10) with 2048. lia. }
    rewrite E. replace (q + 112 + 12) with (q + 124) by lia. rewrite rne_exact by lia. lia.
Qed.

Lemma rounds_to_scale s n u c h : 0 < c -> rounds_to s (n * c) (u * c) h -> rounds_to s n u h.
Proof.
  intros Hc H. unfold rounds_to in *.
  destruct (Z.ltb_spec (n * c) (65520 * 2 ^ 24 * (u * c))) as [A|A],
    (Z.ltb_spec n (65520 * 2 ^ 24 * u)) as [B|B]; try (exfalso; nia); [|exact H].
  destruct H as (y & Hy & N). exists y. split; [exact Hy|].
  intros h' s' y' Hh' H'. destruct (N h' s' y' Hh' H') as [N1 N2].
  assert (F : forall a b w z, Z.abs (signed a (n * c) - signed w z * (b * c)) = Z.abs (signed a n - signed w z * b) * c).
  { intros a b w z. rewrite <- (Z.abs_eq c) at 3 by lia. rewrite <- Z.abs_mul. f_equal.
    unfold signed. destruct a, w; ring. }
  rewrite !F in N1, N2. split; [nia|]. intros X. apply N2. rewrite X. reflexivity.
Qed.

Lemma scale_rounds_to s n u c h : 0 < c -> rounds_to s n u h -> rounds_to s (n * c) (u * c) h.
Proof.
  intros Hc H. unfold rounds_to in *.
  destruct (Z.ltb_spec (n * c) (65520 * 2 ^ 24 * (u * c))) as [A|A],
    (Z.ltb_spec n (65520 * 2 ^ 24 * u)) as [B|B]; try (exfalso; nia); [|exact H].
  destruct H as (y & Hy & N). exists y. split; [exact Hy|].
  intros h' s' y' Hh' H'. destruct (N h' s' y' Hh' H') as [N1 N2].
  assert (F : forall a b w z, Z.abs (signed a (n * c) - signed w z * (b * c)) = Z.abs (signed a n - signed w z * b) * c).
  { intros a b w z. rewrite <- (Z.abs_eq c) at 3 by lia. rewrite <- Z.abs_mul. f_equal.
    unfold signed. destruct a, w; ring. }
  rewrite !F. split; [nia|]. intros X. apply N2. nia.
Qed.

Lemma mul_rounds s t a b : 0 <= a < 31 * 1024 -> 0 <= b < 31 * 1024 ->
  rounds_to (xorb s t) (hmag a * hmag b) (2 ^ 24)
    (fp16_from_fp32 (mul32 (FFin s (hmag a * 2 ^ 125)) (FFin t (hmag b * 2 ^ 125)))).
Proof.
  intros Ha Hb. destruct (hmag_shape a Ha) as (c & e & Hc & He & -> & _).
  destruct (hmag_shape b Hb) as (c' & e' & Hc' & He' & -> & _). unfold mul32.
  replace (c * 2 ^ e * 2 ^ 125 * (c' * 2 ^ e' * 2 ^ 125)) with (c * c' * 2 ^ ((e + e' + 101) + 149)).
  2:{ replace (e + e' + 101 + 149) with (e + e' + 125 + 125) by lia. rewrite !Z.pow_add_r by lia. ring. }
  rewrite round32_exact by nia.
  assert (B : c * c' * 2 ^ (e + e' + 101) < 2 ^ 277).
  { assert (0 < 2 ^ (e + e' + 101) <= 2 ^ 159) by (split; [apply pow_pos; lia|apply Z.pow_le_mono_r; lia]).
    change (2 ^ 277) with (2 ^ 118 * 2 ^ 159). assert (0 <= c * c' < 2 ^ 22) by nia. nia. }
  replace (c * c' * 2 ^ (e + e' + 101) <? 2 ^ 277) with true by (symmetry; apply Z.ltb_lt; exact B).
  pose proof (pow_pos (e + e' + 101) ltac:(lia)) as P.
  apply (rounds_to_scale _ _ _ (2 ^ 101)); [lia|].
  replace (2 ^ 24 * 2 ^ 101) with (2 ^ 125) by reflexivity.
  replace (c * 2 ^ e * (c' * 2 ^ e') * 2 ^ 101) with (c * c' * 2 ^ (e + e' + 101))
    by (rewrite !Z.pow_add_r by lia; ring).
  apply narrow_rounds; [|nia].
  exists (c * c'), (e + e' + 101). split; [nia|]. split; [lia|]. split; [reflexivity|exact B].
Qed.

(** Rounding twice. *)
Lemma rne_twice n d : 0 <= d ->
  (n <> rne n d * 2 ^ d -> forall q, rne n d <> (2 * q + 1) * 2 ^ 12) ->
  rne (rne n d) 13 = rne n (d + 13).
Proof.
  intros Hd H. symmetry. pose proof (pow_pos d Hd) as P.
  destruct (rne_spec n d Hd) as [R1 _]. destruct (rne_spec (rne n d) 13 ltac:(lia)) as [Q1 Q2].
  set (p := rne n d) in *. set (q := rne p 13) in *.
  rewrite <- (Z.add_comm 13 d) in *.
  apply rne_unique; [lia| |].
  - rewrite Z.pow_add_r by lia. change (2 ^ 13) with 8192 in *.
    destruct (Z.eq_dec n (p * 2 ^ d)) as [E|E].
    + rewrite E. replace (p * 2 ^ d - q * (8192 * 2 ^ d)) with ((p - q * 8192) * 2 ^ d) by ring.
      rewrite Z.abs_mul, (Z.abs_eq (2 ^ d)) by lia. nia.
    + assert (T : Z.abs (p - q * 8192) <= 4095).
      { specialize (H E). change (2 ^ 12) with 4096 in H.
        pose proof (H q). pose proof (H (q - 1)). lia. }
      replace (n - q * (8192 * 2 ^ d)) with ((n - p * 2 ^ d) + (p - q * 8192) * 2 ^ d) by ring.
      assert (Z.abs ((p - q * 8192) * 2 ^ d) <= 4095 * 2 ^ d)
        by (rewrite Z.abs_mul, (Z.abs_eq (2 ^ d)) by lia; nia).
      lia.
  - rewrite Z.pow_add_r by lia. change (2 ^ 13) with 8192 in *. intros X.
    destruct (Z.eq_dec n (p * 2 ^ d)) as [E|E].
    + apply Q2. rewrite E in X.
      replace (p * 2 ^ d - q * (8192 * 2 ^ d)) with ((p - q * 8192) * 2 ^ d) in X by ring.
      rewrite Z.abs_mul, (Z.abs_eq (2 ^ d)) in X by lia. nia.
    + exfalso. assert (T : Z.abs (p - q * 8192) <= 4095).
      { specialize (H E). change (2 ^ 12) with 4096 in H.
        pose proof (H q). pose proof (H (q - 1)). lia. }
      replace (n - q * (8192 * 2 ^ d)) with ((n - p * 2 ^ d) + (p - q * 8192) * 2 ^ d) in X by ring.
      assert (Z.abs ((p - q * 8192) * 2 ^ d) <= 4095 * 2 ^ d)
        by (rewrite Z.abs_mul, (Z.abs_eq (2 ^ d)) by lia; nia).
      lia.
Qed.

(** The sum of two halves is never rounded to a number half way between two halves. *)
Lemma no_midpoint n c1 e1 c2 e2 d :
  0 <= d -> 2 ^ (d + 23) <= n -> Z.abs c1 < 2048 -> Z.abs c2 < 2048 -> 0 <= e1 -> 0 <= e2 ->
  n = c1 * 2 ^ e1 + c2 * 2 ^ e2 ->
  n <> rne n d * 2 ^ d -> forall q, rne n d <> (2 * q + 1) * 2 ^ 12.
Proof.
  intros Hd Hn. revert c1 e1 c2 e2.
  assert (W : forall c1 e1 c2 e2, Z.abs c1 < 2048 -> Z.abs c2 < 2048 -> 0 <= e1 -> 0 <= e2 ->
    n = c1 * 2 ^ e1 + c2 * 2 ^ e2 -> e2 < d -> forall q, rne n d <> (2 * q + 1) * 2 ^ 12).
  { intros c1 e1 c2 e2 H1 H2 He1 He2 E Lt q Q.
    destruct (rne_spec n d Hd) as [R1 _]. rewrite Q in R1.
    pose proof (pow_pos d Hd) as P. pose proof (pow_pos e1 He1) as P1. pose proof (pow_pos e2 He2) as P2.
    assert (D : 2 * 2 ^ e2 <= 2 ^ d).
    { change 2 with (2 ^ 1) at 1. rewrite <- Z.pow_add_r by lia. apply Z.pow_le_mono_r; lia. }
    rewrite Z.pow_add_r in Hn by lia. change (2 ^ 23) with 8388608 in Hn. change (2 ^ 12) with 4096 in *.
    assert (B : Z.abs (c2 * 2 ^ e2) < 1024 * 2 ^ d) by (rewrite Z.abs_mul, (Z.abs_eq (2 ^ e2)) by lia; nia).
    set (M := (2 * q + 1) * 4096 * 2 ^ d) in *.
    assert (A : Z.abs (c1 * 2 ^ e1 - M) < 2048 * 2 ^ d) by lia.
    assert (A2 : 8388608 * 2 ^ d - 1024 * 2 ^ d < c1 * 2 ^ e1) by lia.
    assert (G : d + 12 <= e1).
    { destruct (Z_le_gt_dec (d + 12) e1) as [|G]; [assumption|exfalso].
      assert (2 ^ e1 <= 2 ^ (d + 11)) by (apply Z.pow_le_mono_r; lia).
      rewrite Z.pow_add_r in H by lia. change (2 ^ 11) with 2048 in H. nia. }
    set (k := e1 - (d + 12)) in *.
    assert (K : 2 ^ e1 = 2 ^ k * 4096 * 2 ^ d).
    { change 4096 with (2 ^ 12). rewrite <- !Z.pow_add_r by lia. f_equal. unfold k. lia. }
    rewrite K in A, A2.
    assert (J : c1 * 2 ^ k = 2 * q + 1).
    { replace (c1 * (2 ^ k * 4096 * 2 ^ d) - M) with ((c1 * 2 ^ k - (2 * q + 1)) * (4096 * 2 ^ d)) in A
        by (unfold M; ring).
      rewrite Z.abs_mul, (Z.abs_eq (4096 * 2 ^ d)) in A by lia. nia. }
    assert (K0 : k = 0).
    { destruct (Z.eq_dec k 0) as [|Nk]; [assumption|exfalso].
      replace k with (1 + (k - 1)) in J by lia. rewrite Z.pow_add_r in J by lia.
      change (2 ^ 1) with 2 in J. replace (c1 * (2 * 2 ^ (k - 1))) with (2 * (c1 * 2 ^ (k - 1))) in J by ring.
      lia. }
    rewrite K0, Z.pow_0_r, Z.mul_1_r in J.
    (* the number itself is at least 2^(d+23), so M is; but c1 < 2048 *)
    assert (8388608 <= rne n d).
    { destruct (rne_spec n d Hd) as [S1 _]. clear - S1 Hn P. nia. }
    rewrite Q in H. lia. }
  intros c1 e1 c2 e2 H1 H2 He1 He2 E Nn q.
  destruct (Z_lt_le_dec e2 d) as [L|L]; [exact (W c1 e1 c2 e2 H1 H2 He1 He2 E L q)|].
  destruct (Z_lt_le_dec e1 d) as [L1|L1].
  { refine (W c2 e2 c1 e1 H2 H1 He2 He1 _ L1 q). lia. }
  exfalso. apply Nn.
  assert (X : n = (c1 * 2 ^ (e1 - d) + c2 * 2 ^ (e2 - d)) * 2 ^ d).
  { rewrite Z.mul_add_distr_r, <- !Z.mul_assoc, <- !Z.pow_add_r by lia. rewrite E. do 3 f_equal; lia. }
  rewrite X at 2. rewrite rne_exact by lia. exact X.
Qed.

(** The bits for a float just rounded up to the next power of two. *)
Lemma narrow_fin_alt s v E : repr v -> 113 <= E <= 142 -> (E = 113 \/ 2 ^ (E + 22) <= v) ->
  0 <= v <= 2 ^ (E + 23) ->
  fp16_from_fp32 (FFin s v) = sbit s (2 ^ 15) + ((E - 113) * 1024 + rne v (E + 12)).
Proof.
  intros R HE HL HU.
  destruct (Z.eq_dec v (2 ^ (E + 23))) as [Q|Q].
  - assert (X : rne v (E + 12) = 2048).
    { rewrite Q. replace (E + 23) with (11 + (E + 12)) by lia. rewrite Z.pow_add_r by lia. apply rne_exact. lia. }
    rewrite X. destruct (Z.eq_dec E 142) as [->|N].
    + rewrite narrow_big by (exact R || (rewrite Q; reflexivity || (apply Z.le_refl))). reflexivity.
    + assert (EV : expo v = E + 1).
      { unfold expo. rewrite Q, Z.log2_pow2 by lia. lia. }
      rewrite narrow_fin.
      * rewrite EV, Q. replace (E + 23) with (10 + (E + 1 + 12)) by lia.
        rewrite Z.pow_add_r, rne_exact by lia. change (2 ^ 10) with 1024. lia.
      * exact R.
      * split; [lia|]. rewrite Q. apply Z.pow_lt_mono_r; lia.
  - assert (B : 0 <= v < 2 ^ 165).
    { split; [lia|]. apply Z.lt_le_trans with (2 ^ (E + 23)); [lia|]. apply Z.pow_le_mono_r; lia. }
    assert (EV : expo v = E).
    { unfold expo. destruct (Z.eq_dec v 0) as [->|V0].
      { destruct HL as [->|HL]; [reflexivity|]. pose proof (pow_pos (E + 22) ltac:(lia)). lia. }
      assert (U : Z.log2 v < E + 23) by (apply log2_lt; lia).
      destruct HL as [->|HL]; [lia|].
      assert (E + 22 <= Z.log2 v) by (apply Z.log2_le_pow2; lia). lia. }
    rewrite narrow_fin by (exact R || exact B). rewrite EV. reflexivity.
Qed.

Lemma sum_rounds s n c1 e1 c2 e2 : 0 < n < 2 ^ 42 ->
  Z.abs c1 < 2048 -> Z.abs c2 < 2048 -> 0 <= e1 -> 0 <= e2 ->
  n = c1 * 2 ^ e1 + c2 * 2 ^ e2 ->
  rounds_to s n 1 (fp16_from_fp32 (round32 s (n * 2 ^ 125) 0)).
Proof.
  intros Hn H1 H2 He1 He2 E.
  apply (rounds_to_scale _ _ _ (2 ^ 125)); [lia|]. rewrite Z.mul_1_l.
  destruct (Z_lt_le_dec n (2 ^ 24)) as [L|L].
  { pose proof (round32_exact s n 125 0 ltac:(lia) ltac:(lia) ltac:(lia)) as X. rewrite Z.add_0_r in X.
    rewrite X. replace (n * 2 ^ 125 <? 2 ^ 277) with true by (symmetry; apply Z.ltb_lt; lia).
    apply narrow_rounds; [|lia]. exists n, 125. lia. }
  assert (G1 : 24 <= Z.log2 n) by (apply Z.log2_le_pow2; lia).
  assert (G2 : Z.log2 n < 42) by (apply log2_lt; lia).
  destruct (Z.log2_spec n ltac:(lia)) as [S1 S2].
  set (d := Z.log2 n - 23) in *.
  replace (Z.log2 n) with (d + 23) in * by (unfold d; lia).
  assert (Hd : 1 <= d <= 18) by lia.
  unfold round32. rewrite Z.log2_mul_pow2 by lia.
  assert (LN : Z.log2 n = d + 23) by (apply Z.log2_unique; lia). rewrite LN.
  replace (Z.max 0 (d + 23 + 125 - 23)) with (d + 125) by lia.
  replace (Z.max 0 (125 + (d + 23) - 23)) with (d + 125) by lia.
  cbv zeta. rewrite Z.sub_0_r, rne_shift by lia.
  pose proof (no_midpoint n c1 e1 c2 e2 d ltac:(lia) S1 H1 H2 He1 He2 E) as NM.
  pose proof (rne_twice n d ltac:(lia) NM) as TW.
  assert (PB : 2 ^ 23 <= rne n d <= 2 ^ 24).
  { apply rne_bounds; [lia|]. replace (Z.succ (d + 23)) with (24 + d) in S2 by lia.
    replace (d + 23) with (23 + d) in S1 by lia. rewrite Z.pow_add_r in S1, S2 by lia. lia. }
  set (p := rne n d) in *.
  assert (PD : 0 < 2 ^ (d + 125) <= 2 ^ 143) by (split; [apply pow_pos; lia|apply Z.pow_le_mono_r; lia]).
  assert (VB : p * 2 ^ (d + 125) < 2 ^ 277) by (change (2 ^ 277) with (2 ^ 134 * 2 ^ 143); nia).
  replace (p * 2 ^ (d + 125) <? 2 ^ 277) with true by (symmetry; apply Z.ltb_lt; exact VB).
  assert (RV : repr (p * 2 ^ (d + 125))).
  { destruct (Z.eq_dec p (2 ^ 24)) as [->|Np].
    - exists 1, (d + 149). split; [lia|]. split; [lia|]. split; [|exact VB].
      rewrite Z.mul_1_l, <- Z.pow_add_r by lia. f_equal. lia.
    - exists p, (d + 125). split; [lia|]. split; [lia|]. split; [reflexivity|exact VB]. }
  assert (EN : expo (n * 2 ^ 125) = d + 126).
  { unfold expo. rewrite Z.log2_mul_pow2, LN by lia. lia. }
  assert (NB : 2 ^ (d + 148) <= n * 2 ^ 125 < 2 ^ (d + 149)).
  { replace (d + 148) with (d + 23 + 125) by lia. replace (d + 149) with (Z.succ (d + 23) + 125) by lia.
    rewrite !(Z.pow_add_r 2 _ 125) by lia. lia. }
  destruct (Z_lt_le_dec d 17) as [D17|D17].
  - rewrite (narrow_fin_alt s _ (d + 126)).
    + replace (rne (p * 2 ^ (d + 125)) (d + 126 + 12)) with (rne (n * 2 ^ 125) (expo (n * 2 ^ 125) + 12)).
      * rewrite <- EN. apply formula_rounds. split; [lia|].
        eapply Z.lt_le_trans; [apply NB|]. apply Z.pow_le_mono_r; lia.
      * rewrite EN. replace (d + 126 + 12) with (d + 13 + 125) by lia. rewrite rne_shift by lia.
        rewrite <- TW. replace (d + 13 + 125) with (13 + (d + 125)) by lia. rewrite rne_shift by lia. reflexivity.
    + exact RV.
    + lia.
    + right. replace (d + 126 + 22) with (23 + (d + 125)) by lia. rewrite (Z.pow_add_r 2 23) by lia.
      apply Z.mul_le_mono_nonneg_r; lia.
    + split; [apply Z.mul_nonneg_nonneg; lia|].
      replace (d + 126 + 23) with (24 + (d + 125)) by lia. rewrite (Z.pow_add_r 2 24) by lia.
      apply Z.mul_le_mono_nonneg_r; lia.
  - assert (BG : 2 ^ 165 <= 2 ^ (d + 148)) by (apply Z.pow_le_mono_r; lia).
    rewrite narrow_big.
    + apply infinite_rounds. lia.
    + exact RV.
    + eapply Z.le_trans; [exact BG|]. replace (d + 148) with (23 + (d + 125)) by lia.
      rewrite (Z.pow_add_r 2 23) by lia. apply Z.mul_le_mono_nonneg_r; lia.
Qed.

Lemma add_rounds s t a b : 0 <= a < 31 * 1024 -> 0 <= b < 31 * 1024 ->
  let z := signed s (hmag a) + signed t (hmag b) in
  let h := fp16_from_fp32 (add32 (FFin s (hmag a * 2 ^ 125)) (FFin t (hmag b * 2 ^ 125))) in
  if z =? 0 then half h = Fin (s && t) 0 else rounds_to (z <? 0) (Z.abs z) 1 h.
Proof.
  intros Ha Hb z h. unfold h, add32. cbv zeta.
  replace ((if s then - (hmag a * 2 ^ 125) else hmag a * 2 ^ 125) +
           (if t then - (hmag b * 2 ^ 125) else hmag b * 2 ^ 125)) with (z * 2 ^ 125)
    by (unfold z, signed; destruct s, t; lia).
  assert (F0 : (z * 2 ^ 125 =? 0) = (z =? 0)).
  { destruct (Z.eqb_spec z 0) as [->|]; [reflexivity|]. apply Z.eqb_neq. lia. }
  assert (F1 : (z * 2 ^ 125 <? 0) = (z <? 0)).
  { destruct (Z.ltb_spec z 0); [apply Z.ltb_lt|apply Z.ltb_ge]; lia. }
  rewrite F0, F1. destruct (Z.eqb_spec z 0) as [Q|Q].
  { destruct s, t; reflexivity. }
  rewrite Z.abs_mul, (Z.abs_eq (2 ^ 125)) by lia.
  destruct (hmag_shape a Ha) as (c & e & Hc & He & A & _).
  destruct (hmag_shape b Hb) as (c' & e' & Hc' & He' & B & _).
  assert (B1 : hmag a < 2 ^ 40).
  { rewrite A. assert (0 < 2 ^ e <= 2 ^ 29) by (split; [apply pow_pos; lia|apply Z.pow_le_mono_r; lia]).
    change (2 ^ 40) with (2048 * 2 ^ 29). nia. }
  assert (B2 : hmag b < 2 ^ 40).
  { rewrite B. assert (0 < 2 ^ e' <= 2 ^ 29) by (split; [apply pow_pos; lia|apply Z.pow_le_mono_r; lia]).
    change (2 ^ 40) with (2048 * 2 ^ 29). nia. }
  pose proof (hmag_nonneg a Ha). pose proof (hmag_nonneg b Hb).
  apply (sum_rounds _ _ (Z.sgn z * signed s c) e (Z.sgn z * signed t c') e').
  - unfold z, signed in *. destruct s, t; lia.
  - rewrite Z.abs_mul. unfold signed. destruct s; lia.
  - rewrite Z.abs_mul. unfold signed. destruct t; lia.
  - lia.
  - lia.
  - transitivity (Z.sgn z * z); [lia|]. unfold z at 2. rewrite A, B. unfold signed. destruct s, t; ring.
Qed.

(** ** Doubles stored in an array of halves *)

Lemma store_rounds s v : repr v -> 0 <= v ->
  rounds_to s (v * 2 ^ 925) (2 ^ 1050) (half_store s (v * 2 ^ 925)).
Proof.
  intros R V0. unfold half_store, f32_of_f64.
  assert (X : round32 s (v * 2 ^ 925) 925 = FFin s v).
  { destruct R as (c & j & Hc & Hj & -> & HB).
    rewrite <- Z.mul_assoc, <- Z.pow_add_r by lia. rewrite round32_exact by lia.
    replace (c * 2 ^ j <? 2 ^ 277) with true by (symmetry; apply Z.ltb_lt; exact HB). reflexivity. }
  rewrite X. replace (2 ^ 1050) with (2 ^ 125 * 2 ^ 925) by (rewrite <- Z.pow_add_r by lia; reflexivity).
  apply scale_rounds_to; [apply pow_pos; lia|]. apply narrow_rounds; assumption.
Qed.

(** ** The bits of a float as IEEE 754 says *)

Definition f32_fp (x : f32) : fp :=
  match x with
  | FNan => Nan
  | FInf s => Inf s
  | FFin s v => Fin s v
  end.

Lemma single_from_bits w : 0 <= w < 2 ^ 32 -> single w = f32_fp (fp32_from_bits w).
Proof.
  intros Hw. destruct (bits_split w Hw) as (s & u & Hu & ->). rewrite from_bits_split by exact Hu.
  unfold single, decode. cbv zeta. change (8 + 23) with 31. change (2 ^ 8 - 1) with 255.
  assert (T : Z.odd ((sbit s (2 ^ 31) + u) / 2 ^ 31) = s).
  { replace ((sbit s (2 ^ 31) + u) / 2 ^ 31) with (sbit s 1); [destruct s; reflexivity|].
    apply (Z.div_unique_pos _ _ _ u); [lia|]. destruct s; cbn [sbit]; lia. }
  assert (E : (sbit s (2 ^ 31) + u) / 2 ^ 23 mod 2 ^ 8 = u / 2 ^ 23).
  { replace (sbit s (2 ^ 31) + u) with (u + sbit s 1 * 256 * 2 ^ 23) by (destruct s; cbn [sbit]; lia).
    rewrite Z.div_add by lia. change (2 ^ 8) with 256. rewrite Z.mod_add by lia.
    apply Z.mod_small. split; [apply Z.div_pos; lia|apply Z.div_lt_upper_bound; lia]. }
  assert (M : (sbit s (2 ^ 31) + u) mod 2 ^ 23 = u mod 2 ^ 23).
  { replace (sbit s (2 ^ 31) + u) with (u + sbit s 1 * 256 * 2 ^ 23) by (destruct s; cbn [sbit]; lia).
    apply Z.mod_add. lia. }
  rewrite T, E, M.
  destruct (u / 2 ^ 23 =? 255); [destruct (u mod 2 ^ 23 =? 0); reflexivity|].
  destruct (u / 2 ^ 23 =? 0); reflexivity.
Qed.

Lemma to_bits_range s v : repr v -> 0 <= v -> 0 <= fp32_to_bits (FFin s v) < 2 ^ 32.
Proof.
  intros R V0. rewrite to_bits_fin by exact V0. pose proof (ubits_range v R V0).
  destruct s; cbn [sbit]; lia.
Qed.

Lemma single_to_bits s v : repr v -> 0 <= v -> single (fp32_to_bits (FFin s v)) = Fin s v.
Proof.
  intros R V0. rewrite single_from_bits by (apply to_bits_range; assumption).
  rewrite to_bits_fin by exact V0. rewrite from_to_bits by assumption. reflexivity.
Qed.

Lemma narrow_range x : (forall s v, x = FFin s v -> 0 <= v /\ repr v) -> 0 <= fp16_from_fp32 x < 2 ^ 16.
Proof.
  intros H. destruct x as [|s|s v].
  - rewrite narrow_nan. lia.
  - rewrite narrow_inf. destruct s; cbn [sbit]; lia.
  - destruct (H s v eq_refl) as [V0 R]. destruct (Z_lt_le_dec v (2 ^ 165)) as [L|L].
    + rewrite narrow_fin by (assumption || lia).
      destruct (mantissa_bounds v ltac:(lia)) as [M _]. destruct (expo_bounds v ltac:(lia)) as [B _].
      cbv zeta in M. destruct s; cbn [sbit]; lia.
    + rewrite narrow_big by assumption. destruct s; cbn [sbit]; lia.
Qed.

(** A half as the model's float. *)
Lemma widen_cases h : 0 <= h < 2 ^ 16 ->
  match half h with
  | Nan => fp16_to_fp32 h = FNan
  | Inf s => fp16_to_fp32 h = FInf s /\ h = sbit s (2 ^ 15) + 31 * 1024
  | Fin s y => exists t, 0 <= t < 31 * 1024 /\ y = hmag t /\ h = sbit s (2 ^ 15) + t /\
      fp16_to_fp32 h = FFin s (hmag t * 2 ^ 125)
  end.
Proof.
  intros Hh. destruct (half_bits h Hh) as (s & t & Ht & ->). rewrite half_split by exact Ht.
  destruct (Z.ltb_spec t (31 * 1024)) as [L|L].
  - exists t. rewrite widen_fin by lia. repeat split; lia.
  - destruct (Z.eqb_spec t (31 * 1024)) as [->|N].
    + split; [apply widen_inf|reflexivity].
    + apply widen_nan. lia.
Qed.
