(** * Division of floats: proofs *)

From Coq Require Import ZArith Bool Lia.
From Verif Require Import Base HfModel HfProofs FdSpec FdModel.
Local Open Scope Z_scope.

Lemma one_pos : 0 < one.
Proof. apply pow_pos. lia. Qed.
Lemma one_eq : one = 2 ^ 1074.
Proof. reflexivity. Qed.

Definition quarter : Z := 2 ^ 1072.
Lemma quarter_eqs : one = 4 * quarter /\ half_one = 2 * quarter /\ 0 < quarter.
Proof. split; [reflexivity|]. split; [reflexivity|]. apply pow_pos. lia. Qed.
Lemma quarter_eq : quarter = 2 ^ 1072.
Proof. reflexivity. Qed.
Opaque one half_one quarter.

(** ** Doubles *)

Lemma double_mk c j : 0 <= c <= 2 ^ 53 -> 0 <= j <= 2044 -> is_double (c * 2 ^ j).
Proof.
  intros Hc Hj. pose proof (pow_pos j ltac:(lia)) as P.
  destruct (Z.eq_dec c (2 ^ 53)) as [->|N].
  - exists (2 ^ 52), (j + 1). split; [lia|]. split; [lia|].
    rewrite Z.abs_eq by nia. rewrite Z.pow_add_r by lia. change (2 ^ 53) with (2 ^ 52 * 2). ring.
  - exists c, j. split; [lia|]. split; [lia|]. apply Z.abs_eq. nia.
Qed.

Lemma double_0 : is_double 0.
Proof. exists 0, 0. cbn. lia. Qed.

Lemma double_opp x : is_double x -> is_double (- x).
Proof. intros (c & j & H). exists c, j. rewrite Z.abs_opp. exact H. Qed.

Lemma double_sg s x : is_double x -> is_double (signed s x).
Proof. intros H. destruct s; [apply double_opp|]; exact H. Qed.

Lemma double_int k : Z.abs k <= 2 ^ 53 -> is_double (k * one).
Proof.
  intros H. assert (X : is_double (Z.abs k * one)) by (rewrite one_eq; apply double_mk; lia).
  destruct (Z.abs_spec k) as [[_ E]|[_ E]]; rewrite E in X; [exact X|].
  apply double_opp in X. replace (- (- k * one)) with (k * one) in X by ring. exact X.
Qed.

Lemma double_quarters k : 0 <= k <= 2 ^ 53 -> is_double (k * quarter).
Proof. intros H. rewrite quarter_eq. apply double_mk; lia. Qed.

Lemma double_lt v : is_double v -> v < 2 ^ 2098.
Proof.
  intros (c & j & Hc & Hj & E).
  assert (P : 0 < 2 ^ j <= 2 ^ 2045) by (split; [apply pow_pos; lia|apply Z.pow_le_mono_r; lia]).
  assert (X : 2 ^ 2098 = 2 ^ 53 * 2 ^ 2045) by (rewrite <- Z.pow_add_r by lia; reflexivity).
  apply Z.le_lt_trans with (Z.abs v); [lia|]. rewrite E, X.
  apply Z.le_lt_trans with (c * 2 ^ 2045); [apply Z.mul_le_mono_nonneg_l; lia|].
  apply Z.mul_lt_mono_pos_r; lia.
Qed.

Lemma double_max v : is_double v -> v <= (2 ^ 53 - 1) * 2 ^ 2045.
Proof.
  intros (c & j & Hc & Hj & E).
  assert (P : 0 < 2 ^ j <= 2 ^ 2045) by (split; [apply pow_pos; lia|apply Z.pow_le_mono_r; lia]).
  apply Z.le_trans with (Z.abs v); [lia|]. rewrite E.
  apply Z.le_trans with (c * 2 ^ 2045); [apply Z.mul_le_mono_nonneg_l; lia|].
  apply Z.mul_le_mono_nonneg_r; lia.
Qed.

Lemma double_multiple u k d : is_double u -> 0 <= u -> 0 <= k -> 0 <= d -> 2 ^ 52 * 2 ^ d <= u * 2 ^ k ->
  exists q, u * 2 ^ k = q * 2 ^ d.
Proof.
  intros (c & j & Hc & Hj & E) Hu Hk Hd H. rewrite Z.abs_eq in E by exact Hu. subst u.
  assert (E : c * 2 ^ j * 2 ^ k = c * 2 ^ (j + k)) by (rewrite <- Z.mul_assoc, <- Z.pow_add_r by lia; reflexivity).
  rewrite E in *.
  assert (G : d <= j + k).
  { destruct (Z_le_gt_dec d (j + k)) as [|G]; [assumption|exfalso].
    assert (2 ^ (j + k + 1) <= 2 ^ d) by (apply Z.pow_le_mono_r; lia).
    rewrite Z.pow_add_r in H0 by lia. change (2 ^ 1) with 2 in H0.
    pose proof (pow_pos (j + k) ltac:(lia)).
    assert (X : 2 ^ 53 * 2 ^ (j + k) <= c * 2 ^ (j + k)) by lia.
    apply Z.mul_le_mono_pos_r in X; lia. }
  exists (c * 2 ^ (j + k - d)). rewrite <- Z.mul_assoc, <- Z.pow_add_r by lia. do 2 f_equal. lia.
Qed.

(** ** Nearest *)

Lemma nearest_opp n d r : nearest n d r -> nearest (- n) d (- r).
Proof.
  intros [D N]. split; [apply double_opp; exact D|]. intros r' D'.
  specialize (N (- r') (double_opp _ D')).
  replace (- n - - r * d) with (- (n - r * d)) by ring.
  replace (- n - r' * d) with (- (n - - r' * d)) by ring. rewrite !Z.abs_opp. exact N.
Qed.

Lemma nearest_sg s n d r : nearest n d r -> nearest (signed s n) d (signed s r).
Proof. intros N. destruct s; [apply nearest_opp|]; exact N. Qed.

Lemma nearest_exact x r : is_double x -> nearest x 1 r -> r = x.
Proof. intros D [_ N]. specialize (N x D). lia. Qed.

Lemma nearest_le n d r B : 0 < d -> nearest n d r -> is_double B -> n <= B * d -> r <= B.
Proof.
  intros Hd [_ N] D H. specialize (N B D).
  destruct (Z_le_gt_dec r B) as [|G]; [assumption|exfalso]. assert (B * d < r * d) by nia. lia.
Qed.

Lemma nearest_ge n d r B : 0 < d -> nearest n d r -> is_double B -> B * d <= n -> B <= r.
Proof.
  intros Hd [_ N] D H. specialize (N B D).
  destruct (Z_le_gt_dec B r) as [|G]; [assumption|exfalso]. assert (r * d < B * d) by nia. lia.
Qed.

(** There is a double within 2^-53 of a rational number (relatively). *)
Lemma close_double N D B : 0 < D -> 2 ^ 52 * D <= N -> is_double B -> N <= B * D ->
  exists u, is_double u /\ Z.abs (N - u * D) * 2 ^ 53 <= N.
Proof.
  intros HD HL DB HU. pose proof (double_lt B DB) as BL. pose proof (double_max B DB) as BM.
  set (f := N / D).
  assert (F1 : 2 ^ 52 <= f) by (apply Z.div_le_lower_bound; lia).
  assert (F2 : f < 2 ^ 2098).
  { apply Z.le_lt_trans with B; [|exact BL]. apply Z.div_le_upper_bound; lia. }
  pose proof (Z.log2_spec f ltac:(lia)) as [S1 S2].
  assert (L1 : 52 <= Z.log2 f) by (apply Z.log2_le_pow2; lia).
  assert (L2 : Z.log2 f < 2098) by (apply log2_lt; [lia|exact F2]).
  clear F2 BL.
  set (e := Z.log2 f - 52) in *.
  replace (Z.log2 f) with (52 + e) in S1 by (unfold e; lia).
  replace (Z.succ (Z.log2 f)) with (53 + e) in S2 by (unfold e; lia).
  rewrite Z.pow_add_r in S1, S2 by lia.
  pose proof (pow_pos e ltac:(lia)) as P.
  set (W := D * 2 ^ e). assert (HW : 0 < W) by (unfold W; nia).
  pose proof (Z.div_mod N D ltac:(lia)) as DM. pose proof (Z.mod_pos_bound N D HD) as MB. fold f in DM.
  assert (N1 : 2 ^ 52 * W <= N).
  { apply Z.le_trans with (D * f); [|lia]. unfold W.
    replace (2 ^ 52 * (D * 2 ^ e)) with (D * (2 ^ 52 * 2 ^ e)) by ring. apply Z.mul_le_mono_nonneg_l; lia. }
  assert (N2 : N < 2 ^ 53 * W).
  { apply Z.lt_le_trans with (D * (f + 1)); [lia|]. unfold W.
    replace (2 ^ 53 * (D * 2 ^ e)) with (D * (2 ^ 53 * 2 ^ e)) by ring. apply Z.mul_le_mono_nonneg_l; lia. }
  set (p := (2 * N + W) / (2 * W)).
  pose proof (Z.div_mod (2 * N + W) (2 * W) ltac:(lia)) as DM2.
  pose proof (Z.mod_pos_bound (2 * N + W) (2 * W) ltac:(lia)) as MB2. fold p in DM2.
  assert (A : 2 * Z.abs (N - p * W) <= W) by lia.
  assert (PB : 0 <= p <= 2 ^ 53).
  { assert (p < 2 ^ 53 + 1) by (apply Z.div_lt_upper_bound; lia).
    assert (0 <= p) by (apply Z.div_pos; lia). lia. }
  exists (p * 2 ^ e). split.
  - destruct (Z.eq_dec e 2045) as [E45|E45]; [|apply double_mk; [exact PB|unfold e in *; lia]].
    exists p, e. split; [|split; [lia|apply Z.abs_eq; nia]].
    assert (NM : N <= (2 ^ 53 - 1) * W).
    { apply Z.le_trans with (B * D); [exact HU|]. unfold W. rewrite E45.
      replace ((2 ^ 53 - 1) * (D * 2 ^ 2045)) with ((2 ^ 53 - 1) * 2 ^ 2045 * D) by ring.
      apply Z.mul_le_mono_nonneg_r; [lia|exact BM]. }
    assert (p < 2 ^ 53) by (apply Z.div_lt_upper_bound; lia). lia.
  - replace (p * 2 ^ e * D) with (p * W) by (unfold W; ring).
    change (2 ^ 53) with (2 * 2 ^ 52). lia.
Qed.

Lemma nearest_error N D B r : 0 < D -> 2 ^ 52 * D <= N -> is_double B -> N <= B * D -> nearest N D r ->
  Z.abs (N - r * D) * 2 ^ 53 <= N.
Proof.
  intros HD HL DB HU [_ Nr]. destruct (close_double N D B HD HL DB HU) as (u & Du & E).
  specialize (Nr u Du). nia.
Qed.

(** ** Rounding *)

Lemma round_shape n k : 0 <= n -> 0 <= k ->
  let d := Z.max k (Z.log2 n - 52) in
  0 <= rne n d <= 2 ^ 53 /\ (d = k \/ 2 ^ 52 <= rne n d) /\ (k < d -> 2 ^ 52 * 2 ^ d <= n).
Proof.
  intros Hn Hk d. pose proof (pow_pos d ltac:(lia)) as P.
  assert (L : k < d -> 2 ^ 52 * 2 ^ d <= n).
  { intros H. destruct (Z.eq_dec n 0) as [->|N0]; [unfold d in H; cbn in H; lia|].
    destruct (Z.log2_spec n ltac:(lia)) as [S1 _].
    assert (E : Z.log2 n = 52 + d) by (unfold d in *; lia). rewrite E, Z.pow_add_r in S1 by lia. exact S1. }
  assert (U : n <= 2 ^ 53 * 2 ^ d).
  { destruct (Z.eq_dec n 0) as [->|N0]; [lia|].
    destruct (Z.log2_spec n ltac:(lia)) as [_ S2]. rewrite <- Z.pow_add_r by lia.
    apply Z.le_trans with (2 ^ Z.succ (Z.log2 n)); [lia|]. apply Z.pow_le_mono_r; unfold d; lia. }
  split; [apply rne_bounds; lia|]. split; [|exact L].
  destruct (Z.eq_dec d k) as [|N]; [left; assumption|right].
  apply (rne_bounds n d (2 ^ 52) (2 ^ 53)); [lia|]. split; [apply L; unfold d in *; lia|exact U].
Qed.

Lemma round_nearest n k u : 0 <= n -> 0 <= k -> is_double u ->
  let d := Z.max k (Z.log2 n - 52) in
  Z.abs (n - rne n d * 2 ^ (d - k) * 2 ^ k) <= Z.abs (n - u * 2 ^ k).
Proof.
  intros Hn Hk Du d.
  assert (E : rne n d * 2 ^ (d - k) * 2 ^ k = rne n d * 2 ^ d).
  { rewrite <- Z.mul_assoc, <- Z.pow_add_r by lia. do 2 f_equal. lia. }
  rewrite E. pose proof (pow_pos k Hk) as Pk.
  assert (POS : forall u, is_double u -> 0 <= u -> Z.abs (n - rne n d * 2 ^ d) <= Z.abs (n - u * 2 ^ k)).
  { clear u Du. intros u Du Hu. destruct (Z.eq_dec d k) as [Q|Q].
    { rewrite Q. apply rne_nearest. lia. }
    assert (Hd : k < d) by (unfold d in *; lia).
    destruct (round_shape n k Hn Hk) as (_ & _ & L). fold d in L. specialize (L Hd).
    destruct (Z_le_gt_dec (2 ^ 52 * 2 ^ d) (u * 2 ^ k)) as [G|G].
    - destruct (double_multiple u k d Du Hu Hk ltac:(lia) G) as [q ->]. apply rne_nearest. lia.
    - destruct (rne_nearest n d (2 ^ 52) ltac:(lia)) as [N1 _]. lia. }
  destruct (Z_le_gt_dec 0 u) as [G|G]; [apply POS; assumption|].
  specialize (POS 0 double_0 ltac:(lia)). nia.
Qed.

Lemma round_double n k : 0 <= n -> 0 <= k ->
  let d := Z.max k (Z.log2 n - 52) in
  rne n d * 2 ^ (d - k) < 2 ^ 2098 -> is_double (rne n d * 2 ^ (d - k)).
Proof.
  intros Hn Hk d H. destruct (round_shape n k Hn Hk) as (B & S & _). fold d in B, S.
  destruct (Z.eq_dec d k) as [Q|Q].
  { replace (d - k) with 0 by lia. apply double_mk; lia. }
  destruct S as [S|S]; [contradiction|].
  assert (J : d - k < 2046).
  { assert (X : 2 ^ (52 + (d - k)) < 2 ^ 2098).
    { rewrite Z.pow_add_r by lia. pose proof (pow_pos (d - k) ltac:(lia)).
      eapply Z.le_lt_trans; [|exact H]. apply Z.mul_le_mono_nonneg_r; lia. }
    apply Z.pow_lt_mono_r_iff in X; lia. }
  destruct (Z.eq_dec (d - k) 2045) as [J2|J2]; [|apply double_mk; lia].
  (* the greatest exponent: a carry would be infinite *)
  rewrite J2 in *. exists (rne n d), 2045. split; [|split; [lia|]].
  - destruct (Z.eq_dec (rne n d) (2 ^ 53)) as [R|R]; [|lia]. rewrite R in H.
    rewrite <- Z.pow_add_r in H by lia. exfalso. revert H. apply Z.lt_irrefl.
  - apply Z.abs_eq. apply Z.mul_nonneg_nonneg; [lia|]. apply Z.pow_nonneg. lia.
Qed.

Lemma round64_fin s n k s' v : 0 <= n -> 0 <= k -> round64 s n k = DFin s' v ->
  s' = s /\ 0 <= v /\ nearest n (2 ^ k) v.
Proof.
  intros Hn Hk H. unfold round64 in H. cbv zeta in H.
  set (d := Z.max k (Z.log2 n - 52)) in *.
  destruct (Z.ltb_spec (rne n d * 2 ^ (d - k)) (2 ^ 2098)) as [L|L]; [|discriminate].
  assert (E : s = s' /\ rne n d * 2 ^ (d - k) = v) by (split; congruence). destruct E as [<- <-].
  split; [reflexivity|]. split.
  - destruct (round_shape n k Hn Hk) as (B & _). fold d in B.
    apply Z.mul_nonneg_nonneg; [lia|]. apply Z.pow_nonneg. lia.
  - split; [apply round_double; assumption|]. intros u Du. apply round_nearest; assumption.
Qed.

Lemma round64_ok s n k B : 0 <= n -> 0 <= k -> is_double B -> n <= B * 2 ^ k ->
  exists v, round64 s n k = DFin s v /\ 0 <= v <= B /\ nearest n (2 ^ k) v.
Proof.
  intros Hn Hk DB HB.
  set (d := Z.max k (Z.log2 n - 52)).
  assert (V : rne n d * 2 ^ (d - k) <= B).
  { pose proof (round_nearest n k B Hn Hk DB) as N. cbv zeta in N. fold d in N.
    pose proof (pow_pos k Hk).
    destruct (Z_le_gt_dec (rne n d * 2 ^ (d - k)) B) as [|G]; [assumption|exfalso].
    assert (B * 2 ^ k < rne n d * 2 ^ (d - k) * 2 ^ k) by (apply Z.mul_lt_mono_pos_r; lia). lia. }
  assert (R : round64 s n k = DFin s (rne n d * 2 ^ (d - k))).
  { unfold round64. cbv zeta. fold d. pose proof (double_lt B DB).
    destruct (Z.ltb_spec (rne n d * 2 ^ (d - k)) (2 ^ 2098)); [reflexivity|lia]. }
  destruct (round64_fin s n k _ _ Hn Hk R) as (_ & V0 & NR).
  eexists. split; [exact R|]. split; [lia|exact NR].
Qed.

(** ** Operations *)

Lemma add64_ok s v t u B : is_double B -> Z.abs (signed s v + signed t u) <= B ->
  exists s' r, add64 (DFin s v) (DFin t u) = DFin s' r /\ 0 <= r <= B /\
    nearest (signed s v + signed t u) 1 (signed s' r) /\
    (signed s v + signed t u <> 0 -> s' = (signed s v + signed t u <? 0)).
Proof.
  intros DB HB. unfold add64. cbv zeta.
  change ((if s then - v else v) + (if t then - u else u)) with (signed s v + signed t u).
  set (z := signed s v + signed t u) in *.
  destruct (Z.eqb_spec z 0) as [Q|Q].
  - exists (s && t), 0. split; [reflexivity|]. split; [lia|]. split; [|congruence]. rewrite Q.
    replace (signed (s && t) 0) with 0 by (destruct (s && t); reflexivity).
    split; [apply double_0|]. intros r' _. lia.
  - destruct (round64_ok (z <? 0) (Z.abs z) 0 B) as (r & R & Br & N); [lia|lia|exact DB|lia|].
    exists (z <? 0), r. split; [exact R|]. split; [exact Br|]. split; [|reflexivity].
    change (2 ^ 0) with 1 in N. apply (nearest_sg (z <? 0)) in N.
    replace (signed (z <? 0) (Z.abs z)) with z in N; [exact N|].
    destruct (Z.ltb_spec z 0); cbn [signed]; lia.
Qed.

(** The cut off quotient with its last bit compares with even numbers as the quotient does. *)
Lemma sticky N b p : 0 < b ->
  let n' := 2 * (N / b) + (if N mod b =? 0 then 0 else 1) in
  (n' <= 2 * p -> N <= p * b) /\ (2 * p <= n' -> p * b <= N).
Proof.
  intros Hb n'. pose proof (Z.div_mod N b ltac:(lia)) as DM. pose proof (Z.mod_pos_bound N b Hb) as MB.
  unfold n'. destruct (Z.eqb_spec (N mod b) 0) as [Q|Q]; split; intros H; nia.
Qed.

Lemma sticky_nearest a b r : 0 <= a -> 0 < b ->
  let N := a * 2 ^ 2174 in
  nearest (2 * (N / b) + (if N mod b =? 0 then 0 else 1)) (2 ^ 1101) r -> nearest (a * one) b r.
Proof.
  intros Ha Hb N [D H]. split; [exact D|]. intros r' D'. specialize (H r' D').
  assert (E : N = a * one * (2 * 2 ^ 1099)).
  { unfold N. rewrite one_eq. rewrite <- Z.mul_assoc. reflexivity. }
  pose proof (sticky N b ((r + r') * 2 ^ 1099) Hb) as [S1 S2].
  set (n' := 2 * (N / b) + (if N mod b =? 0 then 0 else 1)) in *.
  replace (2 ^ 1101) with (4 * 2 ^ 1099) in H
    by (change 1101 with (2 + 1099); rewrite Z.pow_add_r by lia; reflexivity).
  pose proof (pow_pos 1099 ltac:(lia)) as P.
  rewrite E in S1, S2. clearbody n'. clear E N. set (T := 2 ^ 1099) in *. clearbody T.
  set (A := a * one) in *. clearbody A.
  replace (r * (4 * T)) with (4 * (r * T)) in H by ring.
  replace (r' * (4 * T)) with (4 * (r' * T)) in H by ring.
  replace ((r + r') * T) with (r * T + r' * T) in S1, S2 by ring.
  replace ((r * T + r' * T) * b) with ((r * b + r' * b) * T) in S1, S2 by ring.
  replace (A * (2 * T)) with (2 * A * T) in S1, S2 by ring.
  destruct (Z_lt_le_dec r r') as [L|L].
  - assert (r * T < r' * T) by (apply Z.mul_lt_mono_pos_r; lia).
    assert (r * b < r' * b) by (apply Z.mul_lt_mono_pos_r; lia).
    assert (X : 2 * A * T <= (r * b + r' * b) * T) by (apply S1; lia).
    apply Z.mul_le_mono_pos_r in X; [lia|exact P].
  - assert (r' * T <= r * T) by (apply Z.mul_le_mono_nonneg_r; lia).
    assert (r' * b <= r * b) by (apply Z.mul_le_mono_nonneg_r; lia).
    destruct (Z.eq_dec r r') as [->|N]; [lia|].
    assert (r' * T < r * T) by (apply Z.mul_lt_mono_pos_r; lia).
    assert (X : (r * b + r' * b) * T <= 2 * A * T) by (apply S2; lia).
    apply Z.mul_le_mono_pos_r in X; [lia|exact P].
Qed.

Lemma div64_fin s v t u s' r : 0 <= v -> 0 < u -> div64 (DFin s v) (DFin t u) = DFin s' r ->
  s' = xorb s t /\ 0 <= r /\ nearest (v * one) u r.
Proof.
  intros Hv Hu H. unfold div64 in H. cbv zeta in H.
  destruct (Z.eqb_spec u 0); [lia|].
  assert (N0 : 0 <= 2 * (v * 2 ^ 2174 / u) + (if v * 2 ^ 2174 mod u =? 0 then 0 else 1)).
  { assert (0 <= v * 2 ^ 2174 / u) by (apply Z.div_pos; [apply Z.mul_nonneg_nonneg; [lia|apply Z.pow_nonneg; lia]|lia]).
    generalize dependent (v * 2 ^ 2174 / u). intros q _ Hq. destruct (v * 2 ^ 2174 mod u =? 0); lia. }
  destruct (round64_fin _ _ 1101 _ _ N0 ltac:(lia) H) as (E & R0 & NR).
  split; [exact E|]. split; [exact R0|]. exact (sticky_nearest v u r Hv Hu NR).
Qed.

Lemma div64_ok s v t u B : 0 <= v -> 0 < u -> is_double B -> v * one <= B * u ->
  exists r, div64 (DFin s v) (DFin t u) = DFin (xorb s t) r /\ 0 <= r <= B /\ nearest (v * one) u r.
Proof.
  intros Hv Hu DB HB. unfold div64. cbv zeta. destruct (Z.eqb_spec u 0); [lia|].
  set (N := v * 2 ^ 2174).
  assert (N0 : 0 <= N / u).
  { apply Z.div_pos; [|exact Hu]. apply Z.mul_nonneg_nonneg; [lia|apply Z.pow_nonneg; lia]. }
  assert (E : N = v * one * 2 ^ 1100).
  { unfold N. rewrite one_eq. rewrite <- Z.mul_assoc. reflexivity. }
  assert (NB : N <= B * 2 ^ 1100 * u).
  { rewrite E. pose proof (pow_pos 1100 ltac:(lia)).
    replace (B * 2 ^ 1100 * u) with (B * u * 2 ^ 1100) by ring. apply Z.mul_le_mono_nonneg_r; lia. }
  assert (ST : 2 * (N / u) + (if N mod u =? 0 then 0 else 1) <= B * 2 ^ 1101).
  { replace (2 ^ 1101) with (2 * 2 ^ 1100) by (change 1101 with (1 + 1100); rewrite Z.pow_add_r by lia; reflexivity).
    replace (B * (2 * 2 ^ 1100)) with (2 * (B * 2 ^ 1100)) by ring.
    set (M := B * 2 ^ 1100) in *. clearbody M.
    pose proof (Z.div_mod N u ltac:(lia)) as DM. pose proof (Z.mod_pos_bound N u Hu) as MB.
    destruct (Z.eqb_spec (N mod u) 0); nia. }
  assert (N1 : 0 <= 2 * (N / u) + (if N mod u =? 0 then 0 else 1)) by (destruct (N mod u =? 0); lia).
  destruct (round64_ok (xorb s t) _ 1101 B N1 ltac:(lia) DB ST) as (r & R & Br & NR).
  exists r. split; [exact R|]. split; [exact Br|]. exact (sticky_nearest v u r Hv Hu NR).
Qed.

Lemma floor64_val s v : 0 <= v -> exists s' f, floor64 (DFin s v) = DFin s' f /\ 0 <= f /\
  signed s' f = signed s v / one * one.
Proof.
  intros Hv. pose proof one_pos as P. unfold floor64.
  pose proof (Z.div_mod v one ltac:(lia)) as DM. pose proof (Z.mod_pos_bound v one P) as MB.
  pose proof (Z.div_pos v one Hv P) as DP.
  destruct (Z.eqb_spec (v mod one) 0) as [Q|Q].
  - exists s, v. split; [reflexivity|]. split; [exact Hv|].
    assert (E : v = v / one * one) by lia.
    destruct s; cbn [signed].
    + rewrite E at 2. rewrite <- Z.mul_opp_l, Z.div_mul by lia. lia.
    + exact E.
  - destruct s; cbn [signed].
    + exists true, ((v / one + 1) * one). split; [reflexivity|]. split; [nia|]. cbn [signed].
      replace (- v / one) with (- (v / one + 1)); [ring|].
      apply (Z.div_unique_pos _ _ _ (one - v mod one)); nia.
    + exists false, (v / one * one). split; [reflexivity|]. split; [nia|]. reflexivity.
Qed.

(** ** x % y *)

Lemma mod_double a b : is_double a -> is_double b -> 0 <= a -> 0 < b -> is_double (a mod b).
Proof.
  intros (c1 & j1 & Hc1 & Hj1 & E1) (c2 & j2 & Hc2 & Hj2 & E2) Ha Hb.
  rewrite Z.abs_eq in E1, E2 by lia.
  pose proof (Z.mod_pos_bound a b Hb) as MB.
  assert (ML : a mod b <= a) by (apply Z.mod_le; lia).
  pose proof (Z.mod_eq a b ltac:(lia)) as ME.
  destruct (Z_le_gt_dec j1 j2) as [L|L].
  - (* a multiple of 2^j1 up to a *)
    pose proof (pow_pos j1 ltac:(lia)) as P.
    assert (Q : b = c2 * 2 ^ (j2 - j1) * 2 ^ j1).
    { rewrite E2, <- Z.mul_assoc, <- Z.pow_add_r by lia. do 2 f_equal. lia. }
    assert (X : a mod b = (c1 - c2 * 2 ^ (j2 - j1) * (a / b)) * 2 ^ j1).
    { rewrite ME. rewrite E1 at 1. rewrite Q at 1. ring. }
    rewrite X in *. set (q := c1 - c2 * 2 ^ (j2 - j1) * (a / b)) in *.
    exists q, j1. split; [nia|]. split; [lia|]. apply Z.abs_eq. lia.
  - pose proof (pow_pos j2 ltac:(lia)) as P.
    assert (Q : a = c1 * 2 ^ (j1 - j2) * 2 ^ j2).
    { rewrite E1, <- Z.mul_assoc, <- Z.pow_add_r by lia. do 2 f_equal. lia. }
    assert (X : a mod b = (c1 * 2 ^ (j1 - j2) - c2 * (a / b)) * 2 ^ j2).
    { rewrite ME. rewrite Q at 1. rewrite E2 at 1. ring. }
    rewrite X in *. set (q := c1 * 2 ^ (j1 - j2) - c2 * (a / b)) in *.
    exists q, j2. split; [nia|]. split; [lia|]. apply Z.abs_eq. lia.
Qed.

(** Python's mod by cases of the signs. *)
Lemma exact_mod_sg s a t b : 0 <= a -> 0 < b ->
  exact_mod (signed s a) (signed t b) =
    if a mod b =? 0 then 0
    else if Bool.eqb s t then signed t (a mod b) else signed t (b - a mod b).
Proof.
  intros Ha Hb. unfold exact_mod.
  destruct (Z.eqb_spec (a mod b) 0) as [Q|Q]; destruct s, t; cbn [signed Bool.eqb].
  - rewrite Z.mod_opp_opp by lia. lia.
  - apply Z.mod_opp_l_z; lia.
  - apply Z.mod_opp_r_z; lia.
  - exact Q.
  - rewrite Z.mod_opp_opp by lia. reflexivity.
  - rewrite Z.mod_opp_l_nz by lia. reflexivity.
  - rewrite Z.mod_opp_r_nz by lia. lia.
  - reflexivity.
Qed.

Lemma exact_floordiv_sg s a t b : 0 <= a -> 0 < b ->
  exact_floordiv (signed s a) (signed t b) =
    if Bool.eqb s t then a / b else if a mod b =? 0 then - (a / b) else - (a / b) - 1.
Proof.
  intros Ha Hb. unfold exact_floordiv.
  destruct s, t; cbn [signed Bool.eqb].
  - apply Z.div_opp_opp. lia.
  - destruct (Z.eqb_spec (a mod b) 0); [apply Z.div_opp_l_z|apply Z.div_opp_l_nz]; lia.
  - destruct (Z.eqb_spec (a mod b) 0); [apply Z.div_opp_r_z|apply Z.div_opp_r_nz]; lia.
  - reflexivity.
Qed.

Lemma negative_fin s v : v <> 0 -> negative (DFin s v) = s.
Proof. intros H. cbn. destruct (Z.eqb_spec v 0); [contradiction|]. apply andb_true_r. Qed.

Lemma float_rem_ok s a t b : is_double a -> is_double b -> 0 <= a -> 0 < b ->
  exists r, float_rem (DFin s a) (DFin t b) = Ok (DFin t r) /\ 0 <= r <= b /\
    nearest (exact_mod (signed s a) (signed t b)) 1 (signed t r) /\
    (s = t -> signed t r = exact_mod (signed s a) (signed t b)).
Proof.
  intros Da Db Ha Hb. unfold float_rem.
  replace (is_zero (DFin t b)) with false by (symmetry; apply Z.eqb_neq; lia). cbv zeta.
  unfold fmod64. replace (b =? 0) with false by (symmetry; apply Z.eqb_neq; lia).
  rewrite exact_mod_sg by assumption.
  pose proof (Z.mod_pos_bound a b Hb) as MB. pose proof (mod_double a b Da Db Ha Hb) as Dm.
  cbn [is_zero]. destruct (Z.eqb_spec (a mod b) 0) as [Q|Q]; cbn [negb].
  - exists 0. split; [reflexivity|]. split; [lia|].
    assert (E : signed t 0 = 0) by (destruct t; reflexivity). rewrite E.
    split; [|reflexivity]. split; [apply double_0|]. intros r' _. lia.
  - rewrite !negative_fin by lia.
    destruct (Bool.eqb t s) eqn:ES; cbn [negb].
    + apply eqb_prop in ES. subst s. rewrite Bool.eqb_reflx.
      exists (a mod b). split; [reflexivity|]. split; [lia|]. split; [|reflexivity].
      split; [apply double_sg; exact Dm|]. intros r' _. lia.
    + assert (SN : Bool.eqb s t = false) by (destruct s, t; try discriminate; reflexivity). rewrite SN.
      assert (Z1 : signed s (a mod b) + signed t b = signed t (b - a mod b)) by (destruct s, t; try discriminate; cbn [signed]; lia).
      destruct (add64_ok s (a mod b) t b b Db) as (s' & r & R & Br & N & SS).
      { rewrite Z1. destruct t; cbn [signed]; lia. }
      rewrite Z1 in N, SS.
      assert (s' = t).
      { rewrite SS by (destruct t; cbn [signed]; lia). destruct t; cbn [signed]; [apply Z.ltb_lt|apply Z.ltb_ge]; lia. }
      subst s'. exists r. split; [rewrite R; reflexivity|]. split; [exact Br|]. split; [exact N|].
      intros ->. rewrite Bool.eqb_reflx in SN. discriminate.
Qed.

(** ** x // y *)

(** A quotient that is within a quarter of an integer is rounded to it. *)
Lemma snap s v K : 0 <= v -> Z.abs K <= 2 ^ 50 -> 4 * Z.abs (signed s v - K * one) <= one -> forall z,
  is_zero (zero_with_sign z) = true ->
  exists s' r,
    (if negb (is_zero (DFin s v)) then
       if more_than_half (sub64 (DFin s v) (floor64 (DFin s v)))
       then add64 (floor64 (DFin s v)) (DFin false one) else floor64 (DFin s v)
     else zero_with_sign z) = DFin s' r /\ signed s' r = K * one.
Proof.
  intros Hv HK H z Hz. pose proof one_pos as P.
  destruct quarter_eqs as (O4 & O2 & P2).
  cbn [is_zero]. destruct (Z.eqb_spec v 0) as [V0|V0]; cbn [negb].
  - subst v. assert (K = 0) by (destruct s; cbn [signed] in H; nia). subst K.
    destruct z as [|s'|s' w]; cbn in Hz |- *; eexists _, 0; (split; [reflexivity|]); [|destruct s'|destruct s']; cbn [signed]; lia.
  - destruct (floor64_val s v Hv) as (s1 & f & F & F0 & FV). rewrite F. clear z Hz.
    pose proof double_int as DI. pose proof double_quarters as DQ.
    unfold more_than_half in *.
    set (o := one) in *. set (ho := half_one) in *. set (qu := quarter) in *. clearbody o ho qu.
    assert (S : sub64 (DFin s v) (DFin s1 f) = add64 (DFin s v) (DFin (negb s1) f)) by reflexivity.
    assert (Z1 : signed s v + signed (negb s1) f = signed s v - signed s1 f) by (clear; destruct s, s1; cbn [signed negb]; lia).
    assert (DO : is_double o) by (replace o with (1 * o) by ring; apply DI; lia).
    pose proof (Z.div_mod (signed s v) o ltac:(lia)) as DM. pose proof (Z.mod_pos_bound (signed s v) o P) as MB.
    assert (Z2 : 0 <= signed s v - signed s1 f < o) by (rewrite FV; lia).
    destruct (add64_ok s v (negb s1) f o DO) as (s2 & r & R & Br & N & SS).
    { rewrite Z1. lia. }
    rewrite S, R. rewrite Z1 in N, SS.
    destruct (Z_le_gt_dec (K * o) (signed s v)) as [G|G].
    + assert (D : signed s v / o = K) by (symmetry; apply (Z.div_unique_pos _ _ _ (signed s v - K * o)); lia).
      assert (NL : signed s2 r <= qu).
      { apply (nearest_le (signed s v - signed s1 f) 1 _ (qu)); [lia|exact N| |].
        - replace qu with (1 * qu) by ring. apply DQ. lia.
        - rewrite FV, D. lia. }
      assert (MH : (negb s2 && (ho <? r))%bool = false).
      { destruct s2; [reflexivity|]. cbn [signed negb andb] in *. apply Z.ltb_ge. lia. }
      rewrite MH. exists s1, f. split; [reflexivity|]. rewrite FV, D. reflexivity.
    + assert (D : signed s v / o = K - 1).
      { symmetry. apply (Z.div_unique_pos _ _ _ (signed s v - (K - 1) * o)); lia. }
      assert (NG : 3 * qu <= signed s2 r).
      { apply (nearest_ge (signed s v - signed s1 f) 1 _ (3 * qu)); [lia|exact N| |].
        - apply DQ. lia.
        - rewrite FV, D. lia. }
      assert (MH : (negb s2 && (ho <? r))%bool = true).
      { destruct s2; cbn [signed negb andb] in *; [lia|]. apply Z.ltb_lt. lia. }
      rewrite MH.
      assert (DK : is_double (K * o)) by (apply DI; lia).
      assert (Z3 : signed s1 f + signed false o = K * o) by (rewrite FV, D; cbn [signed]; lia).
      destruct (add64_ok s1 f false o (Z.abs K * o)) as (s3 & r3 & R3 & _ & N3 & _).
      { apply DI. lia. }
      { rewrite Z3. rewrite Z.abs_mul, (Z.abs_eq o) by lia. lia. }
      rewrite Z3 in N3. exists s3, r3. split; [exact R3|]. exact (nearest_exact _ _ DK N3).
Qed.

Lemma float_floor_div_ok s a t b : is_double a -> is_double b -> 0 <= a -> 0 < b ->
  Z.abs (exact_floordiv (signed s a) (signed t b)) <= 2 ^ 49 ->
  exists s' r, float_floor_div (DFin s a) (DFin t b) = Ok (DFin s' r) /\
    signed s' r = exact_floordiv (signed s a) (signed t b) * one.
Proof.
  intros Da Db Ha Hb HQ. unfold float_floor_div.
  replace (is_zero (DFin t b)) with false by (symmetry; apply Z.eqb_neq; lia). cbv zeta.
  assert (FM : fmod64 (DFin s a) (DFin t b) = DFin s (a mod b)).
  { unfold fmod64. replace (b =? 0) with false by (symmetry; apply Z.eqb_neq; lia). reflexivity. }
  rewrite FM. set (m := a mod b) in *. set (Q := a / b) in *.
  assert (EQ : exact_floordiv (signed s a) (signed t b) = if Bool.eqb s t then Q else if m =? 0 then - Q else - Q - 1)
    by (apply exact_floordiv_sg; assumption).
  rewrite EQ in *.
  pose proof (Z.div_mod a b ltac:(lia)) as DM. pose proof (Z.mod_pos_bound a b Hb) as MB. fold m Q in DM, MB.
  assert (Q0 : 0 <= Q) by (apply Z.div_pos; lia).
  assert (QB : Q <= 2 ^ 49) by (destruct (Bool.eqb s t), (m =? 0); lia).
  (* vx - mod *)
  change (sub64 (DFin s a) (DFin s m)) with (add64 (DFin s a) (DFin (negb s) m)).
  assert (Z1 : signed s a + signed (negb s) m = signed s (b * Q)) by (destruct s; cbn [signed negb]; lia).
  assert (bQ0 : 0 <= b * Q) by (apply Z.mul_nonneg_nonneg; lia).
  destruct (add64_ok s a (negb s) m a Da) as (s1 & X & RX & BX & NX & SX).
  { rewrite Z1. destruct s; cbn [signed]; lia. }
  rewrite Z1 in NX, SX. rewrite RX. clear RX.
  assert (HX : Q = 0 /\ X = 0 \/ s1 = s /\ nearest (b * Q) 1 X).
  { destruct (Z.eq_dec Q 0) as [Q00|Q00].
    - left. split; [exact Q00|]. rewrite Q00, Z.mul_0_r in NX.
      replace (signed s 0) with 0 in NX by (destruct s; reflexivity).
      apply nearest_exact in NX; [|apply double_0]. destruct s1; cbn [signed] in NX; lia.
    - right. assert (bQ1 : 0 < b * Q) by (apply Z.mul_pos_pos; lia).
      assert (s1 = s).
      { rewrite SX by (destruct s; cbn [signed]; lia). destruct s; cbn [signed]; [apply Z.ltb_lt|apply Z.ltb_ge]; lia. }
      subst s1. split; [reflexivity|]. apply (nearest_sg s) in NX.
      replace (signed s (signed s (b * Q))) with (b * Q) in NX by (destruct s; cbn [signed]; lia).
      replace (signed s (signed s X)) with X in NX by (destruct s; cbn [signed]; lia). exact NX. }
  assert (EX : Z.abs (b * Q - X) * 2 ^ 53 <= b * Q).
  { destruct HX as [[Q00 ->]|[_ N]].
    - rewrite Q00. lia.
    - destruct (Z_lt_le_dec (b * Q) (2 ^ 52)) as [L|L].
      + assert (X = b * Q); [|lia]. apply nearest_exact; [|exact N].
        replace (b * Q) with (b * Q * 2 ^ 0) by lia. apply double_mk; lia.
      + pose proof (nearest_error (b * Q) 1 a X ltac:(lia) ltac:(lia) Da ltac:(lia) N). lia. }
  clear NX SX.
  (* (vx - mod) / wx *)
  pose proof one_pos as P1.
  assert (D50 : is_double (2 ^ 50 * one)) by (apply double_int; lia).
  assert (XB : X <= 2 ^ 50 * b) by nia.
  destruct (div64_ok s1 X t b (2 ^ 50 * one) ltac:(lia) Hb D50) as (Y & RY & BY & NY).
  { apply Z.le_trans with (2 ^ 50 * b * one); [apply Z.mul_le_mono_nonneg_r; lia|]. lia. }
  rewrite RY. clear RY.
  assert (EY : 8 * Z.abs (Y - Q * one) <= one).
  { assert (DQ : is_double (Q * one)) by (apply double_int; lia).
    destruct NY as [_ NY]. specialize (NY (Q * one) DQ).
    replace (X * one - Q * one * b) with ((X - b * Q) * one) in NY by ring.
    rewrite Z.abs_mul, (Z.abs_eq one) in NY by lia.
    replace (Z.abs (X - b * Q)) with (Z.abs (b * Q - X)) in NY by lia.
    set (E := Z.abs (b * Q - X)) in *.
    (* |Y b - Q one b| <= 2 E one *)
    assert (A : Z.abs ((Y - Q * one) * b) <= 2 * (E * one)).
    { replace ((Y - Q * one) * b) with ((X * one - Q * one * b) - (X * one - Y * b)) by ring.
      assert (Z.abs (X * one - Q * one * b) = E * one).
      { replace (X * one - Q * one * b) with (- ((b * Q - X) * one)) by ring.
        rewrite Z.abs_opp, Z.abs_mul, (Z.abs_eq one) by lia. reflexivity. }
      lia. }
    rewrite Z.abs_mul, (Z.abs_eq b) in A by lia.
    assert (A2 : E * 2 ^ 53 <= b * 2 ^ 49).
    { apply Z.le_trans with (b * Q); [exact EX|]. apply Z.mul_le_mono_nonneg_l; lia. }
    assert (A3 : E * 2 ^ 4 <= b) by lia.
    assert (A4 : 16 * (E * one) <= b * one).
    { replace (16 * (E * one)) with (E * 2 ^ 4 * one) by ring. apply Z.mul_le_mono_nonneg_r; lia. }
    assert (A5 : 8 * Z.abs (Y - Q * one) * b <= one * b) by lia.
    apply Z.mul_le_mono_pos_r in A5; lia. }
  (* the sign of the quotient *)
  assert (SY : signed (xorb s1 t) Y = signed (xorb s t) Y \/ Q = 0 /\ Y = 0).
  { destruct HX as [[Q00 X00]|[-> _]]; [right|left; reflexivity]. split; [exact Q00|].
    subst X. rewrite Z.mul_0_l in NY.
    pose proof (nearest_le 0 b Y 0 Hb NY double_0). lia. }
  assert (VY : signed (xorb s1 t) Y = signed (xorb s t) Y) by (destruct SY as [->|[_ ->]]; [reflexivity|destruct (xorb s1 t), (xorb s t); reflexivity]).
  destruct (Z.eqb_spec m 0) as [M0|M0].
  - (* no remainder *)
    replace (is_zero (DFin s m)) with true by (symmetry; apply Z.eqb_eq; exact M0). cbn [negb andb].
    destruct (snap (xorb s1 t) Y (if Bool.eqb s t then Q else - Q) ltac:(lia)) with (z := div64 (DFin s a) (DFin t b))
      as (s' & r & R & V).
    + destruct (Bool.eqb s t); lia.
    + rewrite VY. destruct s, t; cbn [xorb signed Bool.eqb]; lia.
    + destruct (div64 (DFin s a) (DFin t b)); reflexivity.
    + exists s', r. split; [f_equal; exact R|exact V].
  - replace (is_zero (DFin s m)) with false by (symmetry; apply Z.eqb_neq; exact M0).
    rewrite !negative_fin by lia. cbn [negb andb].
    replace (Bool.eqb t s) with (Bool.eqb s t) by (destruct s, t; reflexivity).
    destruct (Bool.eqb s t) eqn:ES; cbn [negb].
    + destruct (snap (xorb s1 t) Y Q ltac:(lia)) with (z := div64 (DFin s a) (DFin t b)) as (s' & r & R & V).
      * lia.
      * rewrite VY. apply eqb_prop in ES. subst s. rewrite xorb_nilpotent. cbn [signed]. lia.
      * destruct (div64 (DFin s a) (DFin t b)); reflexivity.
      * exists s', r. split; [f_equal; exact R|exact V].
    + (* the quotient minus one *)
      change (sub64 (DFin (xorb s1 t) Y) (DFin false one)) with (add64 (DFin (xorb s1 t) Y) (DFin true one)).
      assert (V1 : signed (xorb s1 t) Y = - Y) by (rewrite VY; destruct s, t; try discriminate; reflexivity).
      assert (D51 : is_double (2 ^ 51 * one)) by (apply double_int; lia).
      destruct (add64_ok (xorb s1 t) Y true one (2 ^ 51 * one) D51) as (s2 & U & RU & BU & NU & _).
      { rewrite V1. cbn [signed]. lia. }
      rewrite V1 in NU. cbn [signed] in NU. rewrite RU.
      assert (DK : is_double ((- Q - 1) * one)) by (apply double_int; lia).
      destruct NU as [_ NU]. specialize (NU _ DK).
      destruct (snap s2 U (- Q - 1) ltac:(lia)) with (z := div64 (DFin s a) (DFin t b)) as (s' & r & R & V).
      * lia.
      * lia.
      * destruct (div64 (DFin s a) (DFin t b)); reflexivity.
      * exists s', r. split; [f_equal; exact R|exact V].
Qed.

(** ** Ints *)

Lemma d64_of_int_ok z : Z.abs z <= 2 ^ 53 -> d64_of_int z = DFin (z <? 0) (Z.abs z * one).
Proof.
  intros H. unfold d64_of_int. pose proof one_pos as P.
  assert (D : is_double (Z.abs z * one)) by (apply double_int; lia).
  destruct (round64_ok (z <? 0) (Z.abs z * one) 0 (Z.abs z * one)) as (v & R & _ & N);
    [apply Z.mul_nonneg_nonneg; lia|lia|exact D|rewrite Z.pow_0_r; lia|].
  rewrite Z.pow_0_r in N. rewrite R. f_equal. exact (nearest_exact _ _ D N).
Qed.

(** The floor of a rounded quotient of two ints. *)
Lemma quotient_floor a k : Z.abs a < 2 ^ 53 -> 0 < Z.abs k < 2 ^ 53 ->
  exists s' r, floor64 (div64 (DFin (a <? 0) (Z.abs a * one)) (DFin (k <? 0) (Z.abs k * one))) = DFin s' r /\
    signed s' r = a / k * one.
Proof.
  intros Ha Hk. pose proof one_pos as P.
  assert (D : is_double (Z.abs a * one)) by (apply double_int; lia).
  assert (U0 : 0 < Z.abs k * one) by (apply Z.mul_pos_pos; lia).
  assert (HB : Z.abs a * one * one <= Z.abs a * one * (Z.abs k * one)).
  { apply Z.mul_le_mono_nonneg_l; [apply Z.mul_nonneg_nonneg; lia|]. nia. }
  assert (A0 : 0 <= Z.abs a * one) by (apply Z.mul_nonneg_nonneg; lia).
  destruct (div64_ok (a <? 0) (Z.abs a * one) (k <? 0) (Z.abs k * one) (Z.abs a * one) A0 U0 D HB)
    as (r & R & Br & N).
  rewrite R. set (w := xorb (a <? 0) (k <? 0)) in *.
  destruct (floor64_val w r (proj1 Br)) as (s' & f & F & _ & FV).
  exists s', f. split; [exact F|]. rewrite FV. f_equal.
  pose proof (Z.div_mod a k ltac:(lia)) as DM.
  set (q := a / k) in *.
  assert (SA : signed w (Z.abs a) = a * Z.sgn k).
  { unfold w. destruct (Z.ltb_spec a 0), (Z.ltb_spec k 0); cbn [xorb signed]; nia. }
  assert (MB : 0 <= a * Z.sgn k - q * Z.abs k < Z.abs k).
  { destruct (Z.ltb_spec k 0).
    - pose proof (Z.mod_neg_bound a k ltac:(lia)). nia.
    - pose proof (Z.mod_pos_bound a k ltac:(lia)). nia. }
  rewrite <- SA in MB.
  assert (QA : Z.abs q <= 2 ^ 53 - 1 + 0 /\ Z.abs (q + 1) <= 2 ^ 53).
  { assert (Z.abs (signed w (Z.abs a)) < 2 ^ 53) by (destruct w; cbn [signed]; lia).
    clear - MB H Hk. split; nia. }
  pose proof (nearest_sg w _ _ _ N) as NS.
  assert (NN : signed w (Z.abs a * one * one) = signed w (Z.abs a) * one * one) by (destruct w; cbn [signed]; ring).
  rewrite NN in NS.
  assert (L1 : q * one <= signed w r).
  { apply (nearest_ge _ (Z.abs k * one) _ (q * one) U0 NS); [apply double_int; lia|].
    replace (q * one * (Z.abs k * one)) with (q * Z.abs k * one * one) by ring.
    apply Z.mul_le_mono_nonneg_r; [lia|]. apply Z.mul_le_mono_nonneg_r; lia. }
  assert (L2 : signed w r <= (q + 1) * one).
  { apply (nearest_le _ (Z.abs k * one) _ ((q + 1) * one) U0 NS); [apply double_int; lia|].
    replace ((q + 1) * one * (Z.abs k * one)) with ((q + 1) * Z.abs k * one * one) by ring.
    apply Z.mul_le_mono_nonneg_r; [lia|]. apply Z.mul_le_mono_nonneg_r; lia. }
  assert (L3 : signed w r <> (q + 1) * one).
  { intros E. destruct (Z.eq_dec a 0) as [A00|A00].
    { subst a. cbn [Z.abs] in *. rewrite Z.mul_0_l in Br. assert (r = 0) by lia. subst r.
      replace (signed w 0) with 0 in * by (destruct w; reflexivity).
      assert (q + 1 = 0) by nia. nia. }
    assert (BIG : 2 ^ 52 * (Z.abs k * one) <= Z.abs a * one * one).
    { assert (O : 2 ^ 105 <= one) by (rewrite one_eq; apply Z.pow_le_mono_r; lia).
      apply Z.le_trans with (2 ^ 105 * one); [|].
      - replace (2 ^ 52 * (Z.abs k * one)) with (2 ^ 52 * Z.abs k * one) by ring.
        apply Z.mul_le_mono_nonneg_r; lia.
      - apply Z.mul_le_mono_nonneg_r; [lia|]. apply Z.le_trans with (1 * one); [lia|].
        apply Z.mul_le_mono_nonneg_r; lia. }
    pose proof (nearest_error _ _ _ r U0 BIG D HB N) as ER.
    assert (RR : r = Z.abs (q + 1) * one).
    { assert (Z.abs (signed w r) = r) by (clear - Br; destruct w; cbn [signed]; lia). rewrite <- H, E, Z.abs_mul, (Z.abs_eq one) by lia. reflexivity. }
    rewrite RR in ER.
    replace (Z.abs a * one * one - Z.abs (q + 1) * one * (Z.abs k * one))
      with ((Z.abs a - Z.abs (q + 1) * Z.abs k) * one * one) in ER by ring.
    rewrite !Z.abs_mul, (Z.abs_eq one) in ER by lia.
    assert (ER2 : Z.abs (Z.abs a - Z.abs (q + 1) * Z.abs k) * 2 ^ 53 <= Z.abs a).
    { replace (Z.abs (Z.abs a - Z.abs (q + 1) * Z.abs k) * one * one * 2 ^ 53)
        with (Z.abs (Z.abs a - Z.abs (q + 1) * Z.abs k) * 2 ^ 53 * one * one) in ER by ring.
      apply Z.mul_le_mono_pos_r in ER; [|exact P]. apply Z.mul_le_mono_pos_r in ER; [exact ER|exact P]. }
    assert (EQ : Z.abs a = Z.abs (q + 1) * Z.abs k) by lia.
    (* signs agree, so the quotient would be q + 1 *)
    assert (SGN : signed w (Z.abs (q + 1)) = q + 1).
    { assert (signed w (Z.abs (q + 1)) * one = (q + 1) * one).
      { rewrite <- E, RR. destruct w; cbn [signed]; ring. }
      apply Z.mul_cancel_r in H; [exact H|lia]. }
    assert (signed w (Z.abs a) = (q + 1) * Z.abs k).
    { rewrite EQ. rewrite <- SGN at 2. destruct w; cbn [signed]; ring. }
    lia. }
  symmetry. apply (Z.div_unique_pos _ _ _ (signed w r - q * one)); lia.
Qed.
