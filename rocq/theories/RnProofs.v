(** The generator draws the sequence of the Mersenne Twister; the integer functions do with it
    what Python's do. *)
From Verif Require Import Base RnModel RnSpec.
Open Scope Z_scope.
Notation length := List.length.

(** *** Bits *)

Lemma testbit_word a i : word a -> 32 <= i -> Z.testbit a i = false.
Proof.
  intros H Hi. unfold word in H. rewrite <- (Z.mod_small a (2 ^ 32)) by assumption.
  apply Z.mod_pow2_bits_high. lia.
Qed.
Lemma word_bits a : 0 <= a -> (forall i, 32 <= i -> Z.testbit a i = false) -> word a.
Proof.
  intros Ha H. unfold word. split; [assumption|]. destruct (Z.eq_dec a 0) as [->|Hne]; [lia|].
  apply Z.log2_lt_pow2; [lia|]. destruct (Z.lt_ge_cases (Z.log2 a) 32) as [|Hl]; [assumption|].
  specialize (H _ Hl). rewrite Z.bit_log2 in H by lia. discriminate.
Qed.
Lemma word_lxor a b : word a -> word b -> word (Z.lxor a b).
Proof.
  intros Ha Hb. apply word_bits.
  - apply Z.lxor_nonneg. unfold word in *. lia.
  - intros i Hi. rewrite Z.lxor_spec, !testbit_word by assumption. reflexivity.
Qed.
Lemma word_land a b : word a -> 0 <= b -> word (Z.land a b).
Proof.
  intros Ha Hb. apply word_bits.
  - apply Z.land_nonneg. unfold word in *. lia.
  - intros i Hi. rewrite Z.land_spec, (testbit_word a) by assumption. reflexivity.
Qed.
Lemma word_shiftr a k : 0 <= k -> word a -> word (Z.shiftr a k).
Proof.
  intros Hk Ha. apply word_bits.
  - apply Z.shiftr_nonneg. unfold word in *. lia.
  - intros i Hi. rewrite Z.shiftr_spec by lia. apply testbit_word; [assumption|lia].
Qed.
Lemma word_w32 z : word (w32 z).
Proof. unfold word, w32. apply Z.mod_pos_bound. lia. Qed.
Lemma temper_word y : word y -> word (temper y).
Proof.
  intros H. unfold temper.
  apply word_lxor; [|apply word_shiftr; [lia|]]; repeat (apply word_lxor || apply word_land || apply word_w32 || assumption || lia || (apply word_shiftr; [lia|])).
Qed.

Lemma joined a b : word a -> word b ->
  Z.lor (Z.land a upper_mask) (Z.land b lower_mask) = a / 2 ^ 31 * 2 ^ 31 + b mod 2 ^ 31.
Proof.
  intros Ha Hb.
  assert (Hu : Z.land a upper_mask = Z.shiftl (a / 2 ^ 31) 31).
  { apply Z.bits_inj'. intros i Hi. rewrite Z.land_spec. change upper_mask with (2 ^ 31).
    rewrite Z.pow2_bits_eqb by lia. rewrite Z.shiftl_spec by lia.
    destruct (Z.eqb_spec 31 i) as [<-|Hne].
    - rewrite andb_true_r. replace (31 - 31) with 0 by lia. rewrite Z.div_pow2_bits by lia. f_equal.
    - rewrite andb_false_r. destruct (Z.lt_ge_cases i 31).
      + rewrite Z.testbit_neg_r by lia. reflexivity.
      + rewrite Z.div_pow2_bits by lia. rewrite testbit_word; [reflexivity|assumption|lia]. }
  rewrite Hu. change lower_mask with (Z.ones 31). rewrite Z.land_ones by lia.
  assert (Hm : 0 <= b mod 2 ^ 31 < 2 ^ 31) by (apply Z.mod_pos_bound; lia).
  rewrite <- Z.shiftl_mul_pow2 by lia. symmetry. 
  rewrite <- Z.lxor_lor; [apply Z.add_nocarry_lxor|];
  (apply Z.bits_inj'; intros i Hi; rewrite Z.land_spec, Z.shiftl_spec, Z.bits_0 by lia;
   destruct (Z.lt_ge_cases i 31);
   [rewrite Z.testbit_neg_r by lia; reflexivity
   |rewrite Z.mod_pow2_bits_high by lia; apply andb_false_r]).
Qed.
Lemma joined_word a b : word a -> word b -> word (a / 2 ^ 31 * 2 ^ 31 + b mod 2 ^ 31).
Proof.
  unfold word. intros Ha Hb. pose proof (Z.mod_pos_bound b (2 ^ 31)).
  pose proof (Z.div_mod a (2 ^ 31)). pose proof (Z.mod_pos_bound a (2 ^ 31)).
  assert (a / 2 ^ 31 < 2) by (apply Z.div_lt_upper_bound; lia).
  assert (0 <= a / 2 ^ 31) by (apply Z.div_pos; lia). lia.
Qed.
Lemma times_a_word y : word y -> word (times_a y).
Proof.
  intros H. unfold times_a. apply word_lxor.
  - unfold word in *. split; [apply Z.div_pos; lia|apply Z.div_lt_upper_bound; lia].
  - destruct (Z.odd y); unfold word, matrix_a; lia.
Qed.
Lemma mix_eq a b w : word a -> word b ->
  mix a b w = Z.lxor w (times_a (a / 2 ^ 31 * 2 ^ 31 + b mod 2 ^ 31)).
Proof.
  intros Ha Hb. unfold mix. rewrite joined by assumption. rewrite Z.lxor_assoc. f_equal. unfold times_a.
  rewrite Z.shiftr_div_pow2 by lia. change (2 ^ 1) with 2. f_equal.
  change 1 with (Z.ones 1) at 1. rewrite Z.land_ones by lia. change (2 ^ 1) with 2. rewrite Zmod_odd.
  destruct (Z.odd _); reflexivity.
Qed.

(** *** Arrays *)

Lemma rd_nth (l : list Z) i v : nth_error l i = Some v -> rd l i = Ok v.
Proof. unfold rd. intros ->. reflexivity. Qed.
Lemma wr_ok l i v : (i < length l)%nat -> exists l', wr l i v = Ok l' /\ length l' = length l
  /\ nth_error l' i = Some v /\ forall j, j <> i -> nth_error l' j = nth_error l j.
Proof.
  intros H. unfold wr. replace (i <? length l)%nat with true by lia.
  exists (firstn i l ++ v :: skipn (S i) l). split; [reflexivity|].
  assert (Hf : length (firstn i l) = i) by (rewrite firstn_length; lia). split; [|split].
  - rewrite app_length. cbn [length]. rewrite Hf, skipn_length. lia.
  - rewrite nth_error_app2 by lia. rewrite Hf, Nat.sub_diag. reflexivity.
  - intros j Hj. destruct (Nat.lt_ge_cases j i).
    + rewrite nth_error_app1 by lia. rewrite <- (firstn_skipn i l) at 2. rewrite nth_error_app1 by lia. reflexivity.
    + rewrite nth_error_app2 by lia. rewrite Hf. destruct (j - i)%nat as [|k] eqn:E; [lia|]. cbn [nth_error].
      rewrite <- (firstn_skipn (S i) l) at 2.
      assert (Hs : length (firstn (S i) l) = S i) by (rewrite firstn_length; lia).
      rewrite nth_error_app2 by lia. rewrite Hs. f_equal. lia.
Qed.

(** *** The sequence *)

Section Sequence.
  Variables (n m : nat) (x : nat -> Z).
  Hypothesis Hm : (1 <= m < n)%nat.
  Hypothesis Hx : recurs n m x.
  Hypothesis Hw : forall i, (i < n)%nat -> word (x i).

  Lemma all_words i : word (x i).
  Proof.
    induction i as [i IH] using (well_founded_induction lt_wf).
    destruct (Nat.lt_ge_cases i n) as [|Hi]; [auto|].
    replace i with (i - n + n)%nat by lia. rewrite Hx.
    apply word_lxor; [apply IH; lia|]. apply times_a_word, joined_word; apply IH; lia.
  Qed.

  (** after [kk] words of the block that follows the one at [base] *)
  Definition partly (base kk : nat) (mt : list Z) : Prop :=
    length mt = n /\ (forall i, (i < n)%nat ->
      nth_error mt i = Some (x (if (i <? kk)%nat then base + n + i else base + i)%nat)).
  Lemma partly_old base kk mt i : partly base kk mt -> (i < n)%nat -> (kk <= i)%nat -> nth_error mt i = Some (x (base + i)%nat).
  Proof. intros (_ & H) Hi Hk. rewrite H by assumption. replace (i <? kk)%nat with false by lia. reflexivity. Qed.
  Lemma partly_new base kk mt i : partly base kk mt -> (i < n)%nat -> (i < kk)%nat -> nth_error mt i = Some (x (base + n + i)%nat).
  Proof. intros (_ & H) Hi Hk. rewrite H by assumption. replace (i <? kk)%nat with true by lia. reflexivity. Qed.
  Lemma partly_step base kk mt v : partly base kk mt -> (kk < n)%nat -> v = x (base + n + kk)%nat ->
    exists mt', wr mt kk v = Ok mt' /\ partly base (S kk) mt'.
  Proof.
    intros (Hl & H) Hk ->. destruct (wr_ok mt kk (x (base + n + kk)%nat)) as (mt' & E & L & Hi & Ho); [lia|].
    exists mt'. split; [assumption|]. split; [lia|]. intros i Hin. destruct (Nat.eq_dec i kk) as [->|Hne].
    - rewrite Hi. replace (kk <? S kk)%nat with true by lia. reflexivity.
    - rewrite Ho, H by assumption. do 2 f_equal.
      destruct (Nat.ltb_spec i kk); destruct (Nat.ltb_spec i (S kk)); lia.
  Qed.
  Lemma next_word base kk : mix (x (base + kk)%nat) (x (base + kk + 1)%nat) (x (base + kk + m)%nat) = x (base + n + kk)%nat.
  Proof.
    rewrite mix_eq by apply all_words. replace (base + n + kk)%nat with (base + kk + n)%nat by lia. rewrite Hx.
    replace (base + kk + 1)%nat with (S (base + kk)) by lia. reflexivity.
  Qed.
  Lemma block1 base cnt : forall kk mt, (kk + cnt = n - m)%nat -> partly base kk mt ->
    exists mt', block cnt (fun kk => (kk + m)%nat) kk mt = Ok mt' /\ partly base (n - m) mt'.
  Proof.
    induction cnt as [|c IH]; intros kk mt Hk P; cbn [block].
    - exists mt. split; [reflexivity|]. replace (n - m)%nat with kk by lia. assumption.
    - rewrite (rd_nth _ _ _ (partly_old _ _ _ kk P ltac:(lia) ltac:(lia))). cbn [bind].
      rewrite (rd_nth _ _ _ (partly_old _ _ _ (kk + 1) P ltac:(lia) ltac:(lia))). cbn [bind].
      rewrite (rd_nth _ _ _ (partly_old _ _ _ (kk + m) P ltac:(lia) ltac:(lia))). cbn [bind].
      destruct (partly_step base kk mt (mix (x (base + kk)%nat) (x (base + (kk + 1))%nat) (x (base + (kk + m))%nat)) P)
        as (mt' & E & P'); [lia|rewrite !Nat.add_assoc; apply next_word|].
      rewrite E. cbn [bind]. apply IH; [lia|assumption].
  Qed.
  Lemma block2 base cnt : forall kk mt, (kk + cnt = n - 1)%nat -> (n - m <= kk)%nat -> partly base kk mt ->
    exists mt', block cnt (fun kk => (kk + m - n)%nat) kk mt = Ok mt' /\ partly base (n - 1) mt'.
  Proof.
    induction cnt as [|c IH]; intros kk mt Hk Hge P; cbn [block].
    - exists mt. split; [reflexivity|]. replace (n - 1)%nat with kk by lia. assumption.
    - rewrite (rd_nth _ _ _ (partly_old _ _ _ kk P ltac:(lia) ltac:(lia))). cbn [bind].
      rewrite (rd_nth _ _ _ (partly_old _ _ _ (kk + 1) P ltac:(lia) ltac:(lia))). cbn [bind].
      rewrite (rd_nth _ _ _ (partly_new _ _ _ (kk + m - n) P ltac:(lia) ltac:(lia))). cbn [bind].
      replace (base + n + (kk + m - n))%nat with (base + kk + m)%nat by lia.
      destruct (partly_step base kk mt (mix (x (base + kk)%nat) (x (base + (kk + 1))%nat) (x (base + kk + m)%nat)) P)
        as (mt' & E & P'); [lia|rewrite !Nat.add_assoc; apply next_word|].
      rewrite E. cbn [bind]. apply IH; [lia|lia|assumption].
  Qed.
  Lemma regenerate_ok base mt : partly base 0 mt ->
    exists mt', regenerate n m mt = Ok mt' /\ partly (base + n) 0 mt'.
  Proof.
    intros P. unfold regenerate.
    destruct (block1 base (n - m) 0 mt) as (mt1 & E1 & P1); [lia|assumption|]. rewrite E1. cbn [bind].
    destruct (block2 base (m - 1) (n - m) mt1) as (mt2 & E2 & P2); [lia|lia|assumption|]. rewrite E2. cbn [bind].
    rewrite (rd_nth _ _ _ (partly_old _ _ _ (n - 1) P2 ltac:(lia) ltac:(lia))). cbn [bind].
    rewrite (rd_nth _ _ _ (partly_new _ _ _ 0 P2 ltac:(lia) ltac:(lia))). cbn [bind].
    rewrite (rd_nth _ _ _ (partly_new _ _ _ (m - 1) P2 ltac:(lia) ltac:(lia))). cbn [bind].
    replace (base + n + 0)%nat with (base + (n - 1) + 1)%nat by lia.
    replace (base + n + (m - 1))%nat with (base + (n - 1) + m)%nat by lia.
    destruct (partly_step base (n - 1) mt2 _ P2 ltac:(lia) (next_word base (n - 1))) as (mt' & E & (L & H)).
    exists mt'. split; [assumption|]. split; [assumption|]. intros i Hi. rewrite H by assumption.
    replace (i <? S (n - 1))%nat with true by lia. reflexivity.
  Qed.

  (** The state [s] when the first [p] words of the sequence are used up. *)
  Definition drawn (s : rng) (p : nat) : Prop :=
    exists base, partly base 0 (r_mt s) /\ 0 <= r_idx s <= Z.of_nat n /\ p = (base + Z.to_nat (r_idx s))%nat.
  Lemma genrand_nm_ok s p : drawn s p ->
    exists s', genrand_nm n m s = Ok (temper (x p), s') /\ drawn s' (S p).
  Proof.
    intros (base & P & Hi & ->). unfold genrand_nm.
    assert (exists base' s', (if Z.of_nat n <=? r_idx s then let! mt := regenerate n m (r_mt s) in Ok (Rng 0 mt) else Ok s) = Ok s'
      /\ partly base' 0 (r_mt s') /\ 0 <= r_idx s' < Z.of_nat n
      /\ (base + Z.to_nat (r_idx s) = base' + Z.to_nat (r_idx s'))%nat) as (base' & s' & E & P' & Hi' & Hb).
    { destruct (Z.leb_spec (Z.of_nat n) (r_idx s)).
      - destruct (regenerate_ok base (r_mt s) P) as (mt' & E & P'). exists (base + n)%nat, (Rng 0 mt').
        rewrite E. cbn [bind r_idx r_mt]. repeat split; try apply P'; lia.
      - exists base, s. repeat split; try apply P; lia. }
    rewrite E. cbn [bind]. unfold rdz. replace (r_idx s' <? 0) with false by lia.
    rewrite (rd_nth _ _ _ (partly_old _ _ _ (Z.to_nat (r_idx s')) P' ltac:(lia) ltac:(lia))). cbn [bind].
    exists (Rng (r_idx s' + 1) (r_mt s')). rewrite Hb. split; [reflexivity|].
    exists base'. cbn [r_mt r_idx]. repeat split; try apply P'; lia.
  Qed.
End Sequence.

(** Such a sequence exists for every state. *)
Section Exists.
  Variables (n m : nat).
  Hypothesis Hm : (1 <= m < n)%nat.
  Definition next (l : list Z) : Z :=
    let k := (length l - n)%nat in
    Z.lxor (nth (k + m) l 0) (times_a (nth k l 0 / 2 ^ 31 * 2 ^ 31 + nth (S k) l 0 mod 2 ^ 31)).
  Fixpoint grow (c : nat) (l : list Z) : list Z :=
    match c with O => l | S c' => let l' := grow c' l in l' ++ [next l'] end.
  Lemma grow_len c l : length (grow c l) = (length l + c)%nat.
  Proof. induction c as [|c IH]; cbn [grow]; [lia|]. rewrite app_length, IH. cbn [length]. lia. Qed.
  Lemma grow_nth c d l i : (c <= d)%nat -> (i < length l + c)%nat -> nth i (grow d l) 0 = nth i (grow c l) 0.
  Proof.
    intros Hc Hi. induction d as [|d IH]; [replace c with O by lia; reflexivity|].
    destruct (Nat.eq_dec c (S d)) as [->|]; [reflexivity|]. cbn [grow].
    rewrite app_nth1 by (rewrite grow_len; lia). apply IH. lia.
  Qed.
  Lemma grow_last k l : nth (length l + k) (grow (S k) l) 0 = next (grow k l).
  Proof.
    cbn [grow]. rewrite app_nth2 by (rewrite grow_len; lia).
    replace (length l + k - length (grow k l))%nat with O by (rewrite grow_len; lia). reflexivity.
  Qed.
  Lemma sequence_exists l : length l = n -> exists x, recurs n m x /\ forall i, (i < n)%nat -> x i = nth i l 0.
  Proof.
    intros Hl. exists (fun i => nth i (grow (S i) l) 0). split.
    - intros k. rewrite (grow_nth (S k) (S (k + n))) by lia.
      replace (k + n)%nat with (length l + k)%nat by lia. rewrite grow_last.
      unfold next. rewrite grow_len. replace (length l + k - n)%nat with k by lia.
      rewrite (grow_nth k (S (k + m))), (grow_nth k (S (S k))), <- (grow_nth k (S k) l k) by lia. reflexivity.
    - intros i Hi. apply (grow_nth 0 (S i)); lia.
  Qed.
End Exists.

(** *** What is made of the words *)

Lemma py_count_one k : 1 <= k <= 32 -> py_count k = 1%nat.
Proof.
  intros H. unfold py_count. replace ((k - 1) / 32) with 0; [reflexivity|].
  symmetry. apply Z.div_small. lia.
Qed.
Lemma py_count_two k : 33 <= k <= 64 -> py_count k = 2%nat.
Proof.
  intros H. unfold py_count. replace ((k - 1) / 32) with 1; [reflexivity|].
  apply (Z.div_unique _ _ _ (k - 33)); lia.
Qed.
Lemma div_pow_range a k : word a -> 0 <= k <= 32 -> 0 <= a / 2 ^ (32 - k) < 2 ^ k.
Proof.
  unfold word. intros Ha Hk. assert (0 < 2 ^ (32 - k)) by (apply Z.pow_pos_nonneg; lia).
  split; [apply Z.div_pos; lia|]. apply Z.div_lt_upper_bound; [lia|].
  rewrite <- Z.pow_add_r by lia. replace (32 - k + k) with 32 by lia. lia.
Qed.
Lemma py_words_range w p c : (forall i, word (w i)) -> 0 <= py_words w p c < 2 ^ (32 * Z.of_nat c).
Proof.
  intros Hw. revert p. induction c as [|c IH]; intros p; cbn [py_words]; [cbn; lia|].
  specialize (IH (S p)). specialize (Hw p). unfold word in Hw.
  replace (32 * Z.of_nat (S c)) with (32 + 32 * Z.of_nat c) by lia. rewrite Z.pow_add_r by lia. nia.
Qed.
Lemma py_bits_range w p k : (forall i, word (w i)) -> 0 < k -> 0 <= py_bits w p k < 2 ^ k.
Proof.
  intros Hw Hk. unfold py_bits. set (c := py_count k).
  assert (Hc : Z.of_nat c = (k - 1) / 32 + 1).
  { unfold c, py_count. rewrite Z2Nat.id; [reflexivity|]. pose proof (Z.div_pos (k - 1) 32). lia. }
  assert (Hd : 32 * ((k - 1) / 32) <= k - 1 < 32 * ((k - 1) / 32) + 32).
  { pose proof (Z.div_mod (k - 1) 32). pose proof (Z.mod_pos_bound (k - 1) 32). lia. }
  assert (Hq : 0 <= (k - 1) / 32) by (apply Z.div_pos; lia).
  assert (Hc1 : Z.of_nat (c - 1) = (k - 1) / 32) by lia.
  pose proof (py_words_range w p (c - 1) Hw) as Hp. rewrite Hc1 in *. rewrite Hc.
  set (q := (k - 1) / 32) in *.
  pose proof (div_pow_range (w (p + (c - 1))%nat) (k - 32 * q) (Hw _) ltac:(lia)) as Hr.
  replace (32 - (k - 32 * q)) with (32 * (q + 1) - k) in Hr by lia.
  replace (2 ^ k) with (2 ^ (32 * q) * 2 ^ (k - 32 * q)) by (rewrite <- Z.pow_add_r by lia; f_equal; lia).
  assert (0 < 2 ^ (32 * q)) by (apply Z.pow_pos_nonneg; lia). nia.
Qed.

Lemma table_ok : forallb (fun d => match nth_error bit_length_table d with
    | Some b => b =? (if (Z.of_nat d =? 0) then 0 else Z.log2 (Z.of_nat d) + 1) | None => false end) (seq 0 32) = true.
Proof. reflexivity. Qed.
Lemma bits_small d : 0 <= d < 32 -> rdz bit_length_table d = Ok (if d =? 0 then 0 else Z.log2 d + 1).
Proof.
  intros H. pose proof table_ok as T. rewrite forallb_forall in T.
  specialize (T (Z.to_nat d) ltac:(apply in_seq; lia)). unfold rdz, rd. replace (d <? 0) with false by lia.
  destruct (nth_error bit_length_table (Z.to_nat d)); [|discriminate]. rewrite Z2Nat.id in T by lia.
  apply Z.eqb_eq in T. rewrite T. reflexivity.
Qed.
Lemma bits_in_digit_ok f : forall d, 0 <= d < 2 ^ (6 * Z.of_nat f) * 32 ->
  bits_in_digit (S f) d = Ok (if d =? 0 then 0 else Z.log2 d + 1).
Proof.
  induction f as [|f IH]; intros d Hd; cbn [bits_in_digit].
  - cbn in Hd. replace (32 <=? d) with false by lia. apply bits_small. lia.
  - destruct (Z.leb_spec 32 d); [|apply bits_small; lia].
    rewrite Z.shiftr_div_pow2 by lia. change (2 ^ 6) with 64.
    fold (bits_in_digit (S f) (d / 64)).
    replace (6 * Z.of_nat (S f)) with (6 + 6 * Z.of_nat f) in Hd by lia. rewrite Z.pow_add_r in Hd by lia.
    change (2 ^ 6) with 64 in Hd.
    change (bind (bits_in_digit (S f) (d / 64)) (fun b => Ok (b + 6)) = Ok (if d =? 0 then 0 else Z.log2 d + 1)).
    rewrite IH by (split; [apply Z.div_pos; lia|apply Z.div_lt_upper_bound; lia]).
    cbn [bind]. replace (d =? 0) with false by lia. f_equal.
    destruct (Z.eqb_spec (d / 64) 0) as [E|E].
    + assert (d < 64) by (pose proof (Z.div_mod d 64); pose proof (Z.mod_pos_bound d 64); lia).
      rewrite (Z.log2_unique d 5) by lia. reflexivity.
    + assert (0 < d / 64) by (pose proof (Z.div_pos d 64); lia).
      assert (64 <= d) by (pose proof (Z.div_mod d 64); pose proof (Z.mod_pos_bound d 64); lia).
      change 64 with (2 ^ 6). rewrite <- Z.shiftr_div_pow2, Z.log2_shiftr by lia.
      assert (6 <= Z.log2 d) by (apply Z.log2_le_pow2; lia). lia.
Qed.
Lemma bits_in_digit_64 d : 0 < d < two63 -> bits_in_digit 12 d = Ok (Z.log2 d + 1).
Proof.
  intros H. rewrite (bits_in_digit_ok 11) by (unfold two63 in H; cbn; lia). replace (d =? 0) with false by lia. reflexivity.
Qed.

Lemma chk_ok z : int64 z -> chk64 z = Ok z.
Proof. intros H. unfold chk64. replace (int64b z) with true; [reflexivity|]. unfold int64b, int64 in *. lia. Qed.

Section Calls.
  Variable (D : rng -> nat -> Prop) (w : nat -> Z).
  Hypothesis Hw : forall i, word (w i).
  Hypothesis HD : forall s p, D s p -> exists s', genrand s = Ok (w p, s') /\ D s' (S p).

  Lemma random_num_ok s p : D s p -> exists s', random_num s = Ok (w p / 2 ^ 5 * 2 ^ 26 + w (S p) / 2 ^ 6, s') /\ D s' (p + 2).
  Proof.
    intros H. unfold random_num. destruct (HD _ _ H) as (s1 & E1 & H1). rewrite E1. cbn [bind].
    destruct (HD _ _ H1) as (s2 & E2 & H2). rewrite E2. cbn [bind].
    exists s2. rewrite !Z.shiftr_div_pow2 by lia. split; [reflexivity|]. replace (p + 2)%nat with (S (S p)) by lia. assumption.
  Qed.
  Lemma getrandbits_ok k s p : D s p -> 1 <= k <= 63 -> exists s', getrandbits k s = Ok (py_bits w p k, s') /\ D s' (p + py_count k).
  Proof.
    intros H Hk. unfold getrandbits.
    assert (Ei : to_int k = k) by (unfold to_int; rewrite Z.mod_small by lia; lia). rewrite Ei.
    replace (k <=? 0) with false by lia. destruct (Z.leb_spec k 32).
    - destruct (HD _ _ H) as (s1 & E1 & H1). rewrite E1. cbn [bind]. exists s1.
      unfold py_bits. rewrite py_count_one by lia. cbn [Nat.sub py_words]. change (32 * Z.of_nat 0) with 0.
      change (32 * Z.of_nat 1) with 32. rewrite Z.shiftr_div_pow2 by lia. rewrite Nat.add_0_r.
      split; [do 2 f_equal; lia|]. replace (p + 1)%nat with (S p) by lia. assumption.
    - replace (64 <? k) with false by lia.
      destruct (HD _ _ H) as (s1 & E1 & H1). rewrite E1. cbn [bind].
      destruct (HD _ _ H1) as (s2 & E2 & H2). rewrite E2. cbn [bind]. exists s2.
      unfold py_bits. rewrite py_count_two by lia. cbn [Nat.sub py_words].
      change (32 * Z.of_nat 1) with 32. change (32 * Z.of_nat 2) with 64.
      rewrite Z.shiftr_div_pow2, Z.shiftl_mul_pow2 by lia.
      split; [|replace (p + 2)%nat with (S (S p)) by lia; assumption].
      do 2 f_equal. replace (p + 1)%nat with (S p) by lia.
      pose proof (Hw p) as Hp. unfold word in Hp.
      pose proof (div_pow_range (w (S p)) (k - 32) (Hw _) ltac:(lia)) as Hr.
      replace (32 - (k - 32)) with (64 - k) in Hr by lia.
      assert (2 ^ (k - 32) <= 2 ^ 31) by (apply Z.pow_le_mono_r; lia).
      unfold wraps64, two63, two64. rewrite Z.mod_small by lia. lia.
  Qed.

  Lemma py_below_fun p n r p' t r2 p2 t2 : py_below w p n r p' t -> py_below w p n r2 p2 t2 -> r = r2 /\ p' = p2 /\ t = t2.
  Proof.
    intros (A & B & -> & ->) (A2 & B2 & -> & ->).
    assert (t = t2); [|subst; auto].
    destruct (Nat.lt_trichotomy t t2) as [H|[H|H]]; [|assumption|].
    - specialize (A2 t H). lia.
    - specialize (A t2 H). lia.
  Qed.
  Lemma py_below_step p n r p' t : let k := Z.log2 n + 1 in n <= py_bits w p k ->
    py_below w (p + py_count k) n r p' t -> py_below w p n r p' (S t).
  Proof.
    intros k Hn (A & B & Hr & Hp). unfold py_below. fold k in A, B, Hr, Hp |- *.
    replace (p + S t * py_count k)%nat with (p + py_count k + t * py_count k)%nat by lia.
    split; [|split; [assumption|split; [assumption|rewrite Hp; lia]]].
    intros i Hi. destruct i as [|i]; [replace (p + 0 * py_count k)%nat with p by lia; assumption|].
    specialize (A i ltac:(lia)). replace (p + S i * py_count k)%nat with (p + py_count k + i * py_count k)%nat by lia. assumption.
  Qed.
  Lemma py_below_unstep p n r p' t : let k := Z.log2 n + 1 in n <= py_bits w p k ->
    py_below w p n r p' t -> exists t', t = S t' /\ py_below w (p + py_count k) n r p' t'.
  Proof.
    intros k Hn (A & B & Hr & Hp). fold k in A, B, Hr, Hp.
    destruct t as [|t]; [replace (p + 0 * py_count k)%nat with p in B by lia; lia|].
    exists t. split; [reflexivity|]. unfold py_below. fold k.
    replace (p + py_count k + t * py_count k)%nat with (p + S t * py_count k)%nat by lia.
    split; [|split; [assumption|split; [assumption|rewrite Hp; lia]]].
    intros i Hi. specialize (A (S i) ltac:(lia)).
    replace (p + py_count k + i * py_count k)%nat with (p + S i * py_count k)%nat by lia. assumption.
  Qed.
  Definition below_result (tries : nat) (n : Z) (p : nat) (f : Z -> Z) (r : res (Z * rng)) : Prop :=
    (exists t v p' s', (t < tries)%nat /\ py_below w p n v p' t /\ r = Ok (f v, s') /\ D s' p')
    \/ (r = OutOfFuel /\ forall t v p', py_below w p n v p' t -> (tries <= t)%nat).
  Lemma below_loop_ok tries n : 0 < n < two63 -> forall s p, D s p ->
    below_result tries n p (fun v => v) (below_loop tries (Z.log2 n + 1) n s).
  Proof.
    intros Hn. assert (Hk : 1 <= Z.log2 n + 1 <= 63).
    { pose proof (Z.log2_nonneg n). assert (Z.log2 n < 63) by (apply Z.log2_lt_pow2; unfold two63 in *; lia). lia. }
    induction tries as [|tries IH]; intros s p H; cbn [below_loop].
    - right. split; [reflexivity|]. intros. lia.
    - destruct (getrandbits_ok (Z.log2 n + 1) s p H Hk) as (s' & E & H'). rewrite E. cbn [bind].
      destruct (Z.leb_spec n (py_bits w p (Z.log2 n + 1))) as [Hl|Hl].
      + destruct (IH s' _ H') as [(t & v & p' & s2 & Ht & B & Er & H2)|(Er & Hno)].
        * left. exists (S t), v, p', s2. split; [lia|]. split; [apply py_below_step; assumption|]. auto.
        * right. split; [assumption|]. intros t v p' B. apply py_below_unstep in B; [|assumption].
          destruct B as (t' & -> & B). apply Hno in B. lia.
      + left. exists O, (py_bits w p (Z.log2 n + 1)), (p + py_count (Z.log2 n + 1))%nat, s'. split; [lia|].
        split; [|auto]. unfold py_below. replace (p + 0 * py_count (Z.log2 n + 1))%nat with p by lia.
        repeat split; [intros; lia|assumption|lia].
  Qed.
  Lemma randbelow_ok tries n s p : 0 < n < two63 -> D s p -> below_result tries n p (fun v => v) (randbelow tries n s).
  Proof. intros Hn H. unfold randbelow. rewrite bits_in_digit_64 by assumption. cbn [bind]. apply below_loop_ok; assumption. Qed.
  Lemma below_range n p r p' t : 0 < n -> py_below w p n r p' t -> 0 <= r < n.
  Proof.
    clear HD D. intros Hn (_ & B & -> & _). split; [|assumption].
    pose proof (Z.log2_nonneg n). apply py_bits_range; [assumption|lia].
  Qed.
  Lemma below_map tries n p r (g : Z -> res Z) h : 0 < n -> below_result tries n p (fun v => v) r ->
    (forall v, 0 <= v < n -> g v = Ok (h v)) ->
    below_result tries n p h (let! (v, s) := r in let! v' := g v in Ok (v', s)).
  Proof.
    intros Hn [(t & v & p' & s' & Ht & B & -> & H)|(-> & Hno)] Hg.
    - left. exists t, v, p', s'. cbn [bind]. rewrite Hg by (eapply below_range; eassumption). auto.
    - right. auto.
  Qed.

  (** what a call does: Python's, or longer than [tries] *)
  Definition call_result (fl : floats) (tries : nat) (c : call) (p : nat) (g : option Z) (r : res (Z * random_obj)) : Prop :=
    (exists v p' o' t, r = Ok (v, o') /\ py_call fl w c p g (inl v) p' (g_next o') t /\ (t < tries)%nat /\ D (g_rng o') p')
    \/ (exists e, r = Exn e /\ py_call fl w c p g (inr e) p g 0)
    \/ (r = OutOfFuel /\ forall o p' g' t, py_call fl w c p g o p' g' t -> (tries <= t)%nat).
  Lemma below_call fl tries c p g n h r0 o : below_result tries n p h r0 ->
    (forall v p' t, py_below w p n v p' t -> py_call fl w c p g (inl (h v)) p' g t) ->
    (forall out p' g' t, py_call fl w c p g out p' g' t -> exists v, py_below w p n v p' t) ->
    g = g_next o ->
    call_result fl tries c p g (let! (v, s) := r0 in Ok (v, RObj s (g_next o))).
  Proof.
    intros [(t & v & p' & s' & Ht & B & -> & H)|(-> & Hno)] H1 H2 ->.
    - left. exists (h v), p', (RObj s' (g_next o)), t. cbn [bind g_next g_rng]. auto.
    - right. right. cbn [bind]. split; [reflexivity|]. intros out p' g' t Hc. apply H2 in Hc. destruct Hc as (v & B).
      eapply Hno. exact B.
  Qed.

  Lemma cdiv_ok a b : b <> 0 -> int64 a -> ~ (a = - two63 /\ b = -1) -> cdiv64 a b = Ok (Z.quot a b).
  Proof.
    intros Hb Ha Hn. unfold cdiv64. replace (b =? 0) with false by lia.
    destruct (Z.eqb_spec a (- two63)); destruct (Z.eqb_spec b (-1)); cbn [andb]; try reflexivity. tauto.
  Qed.
  Lemma range_up a b s : 0 < s -> 0 < range_len a b s -> range_len a b s = Z.quot (b - a + s - 1) s.
  Proof.
    intros Hs H. unfold range_len in *. replace (0 <? s) with true in * by lia.
    assert (0 <= b - a + s - 1).
    { destruct (Z.leb_spec 0 (b - a + s - 1)); [assumption|].
      assert ((b - a + s - 1) / s < 0) by (apply Z.div_lt_upper_bound; lia). lia. }
    rewrite Z.quot_div_nonneg by lia. lia.
  Qed.
  Lemma range_up0 a b s : 0 < s -> range_len a b s = 0 -> Z.quot (b - a + s - 1) s <= 0.
  Proof.
    intros Hs H. unfold range_len in *. replace (0 <? s) with true in * by lia.
    destruct (Z.leb_spec 0 (b - a + s - 1)).
    - rewrite Z.quot_div_nonneg by lia. lia.
    - replace (b - a + s - 1) with (- (1 - s - b + a)) by lia. rewrite Z.quot_opp_l by lia.
      pose proof (Z.quot_pos (1 - s - b + a) s). lia.
  Qed.
  Lemma range_down a b s : s < 0 -> 0 < range_len a b s -> range_len a b s = Z.quot (b - a + s + 1) s.
  Proof.
    intros Hs H. unfold range_len in *. replace (0 <? s) with false in * by lia.
    assert (0 <= a - b - s - 1).
    { destruct (Z.leb_spec 0 (a - b - s - 1)); [assumption|].
      assert ((a - b - s - 1) / - s < 0) by (apply Z.div_lt_upper_bound; lia). lia. }
    replace (b - a + s + 1) with (- (a - b - s - 1)) by lia.
    replace (Z.quot (- (a - b - s - 1)) s) with (Z.quot (a - b - s - 1) (- s))
      by (rewrite Z.quot_opp_l, Z.quot_opp_r by lia; reflexivity).
    rewrite Z.quot_div_nonneg by lia. lia.
  Qed.
  Lemma range_down0 a b s : s < 0 -> range_len a b s = 0 -> Z.quot (b - a + s + 1) s <= 0.
  Proof.
    intros Hs H. unfold range_len in *. replace (0 <? s) with false in * by lia.
    replace (Z.quot (b - a + s + 1) s) with (Z.quot (a - b - s - 1) (- s))
      by (replace (b - a + s + 1) with (- (a - b - s - 1)) by lia; rewrite Z.quot_opp_l, Z.quot_opp_r by lia; reflexivity).
    destruct (Z.leb_spec 0 (a - b - s - 1)).
    - rewrite Z.quot_div_nonneg by lia. lia.
    - replace (a - b - s - 1) with (- (1 + s + b - a)) by lia. rewrite Z.quot_opp_l by lia.
      pose proof (Z.quot_pos (1 + s + b - a) (- s)). lia.
  Qed.
  Lemma range_bounds a b s r : s <> 0 -> 0 <= r < range_len a b s ->
    (0 < s /\ 0 <= s * r < b - a) \/ (s < 0 /\ b - a < s * r <= 0).
  Proof.
    intros Hs Hr. unfold range_len in Hr. destruct (Z.ltb_spec 0 s).
    - left. split; [assumption|]. assert (r < (b - a + s - 1) / s) by lia.
      pose proof (Z.mul_div_le (b - a + s - 1) s ltac:(lia)). nia.
    - right. split; [lia|]. assert (r < (a - b - s - 1) / - s) by lia.
      pose proof (Z.mul_div_le (a - b - s - 1) (- s) ltac:(lia)). nia.
  Qed.
  Lemma range_nonneg a b s : 0 <= range_len a b s.
  Proof. unfold range_len. destruct (0 <? s); lia. Qed.
  Lemma range_len_small a b s : s <> 0 -> int64 (b - a) -> (s = 1 \/ int64 (b - a + s)) -> range_len a b s < two63.
  Proof.
    unfold int64, two63. intros Hs H H1. unfold range_len. destruct (Z.ltb_spec 0 s).
    - assert ((b - a + s - 1) / s <= Z.max 0 (b - a)); [|lia].
      destruct (Z.leb_spec 0 (b - a)).
      + apply Z.le_trans with (b - a); [|lia].
        assert ((b - a + s - 1) / s < b - a + 1); [|lia]. apply Z.div_lt_upper_bound; nia.
      + assert ((b - a + s - 1) / s < 1); [|lia]. apply Z.div_lt_upper_bound; lia.
    - assert (a - b < 9223372036854775808) by lia.
      assert ((a - b - s - 1) / - s <= Z.max 0 (a - b)); [|lia].
      destruct (Z.leb_spec 0 (a - b)).
      + assert ((a - b - s - 1) / - s < a - b + 1); [|lia]. apply Z.div_lt_upper_bound; nia.
      + assert ((a - b - s - 1) / - s < 1); [|lia]. apply Z.div_lt_upper_bound; lia.
  Qed.

  Lemma randrange_ok tries a b s st p : D st p -> small (CRange a (Some b) s) ->
    (s <> 0 /\ 0 < range_len a b s /\
      below_result tries (range_len a b s) p (fun r => a + s * r) (randrange tries a (Some b) s st))
    \/ ((s = 0 \/ range_len a b s = 0) /\ randrange tries a (Some b) s st = Exn ValueError).
  Proof.
    intros H (Ia & Ib & Is & Iw & Iw1). unfold randrange. rewrite (chk_ok (b - a)) by assumption. cbn [bind].
    destruct (Z.eqb_spec s 1) as [->|Hs1]; cbn [andb].
    - assert (El : range_len a b 1 = Z.max 0 (b - a)).
      { unfold range_len. cbn [Z.ltb Z.compare]. rewrite Z.div_1_r. f_equal. lia. }
      destruct (Z.ltb_spec 0 (b - a)) as [Hl|Hl].
      + left. rewrite El. replace (Z.max 0 (b - a)) with (b - a) by lia. split; [lia|]. split; [assumption|].
        apply (below_map tries (b - a) p _ (fun r => chk64 (a + r)) (fun r => a + 1 * r)); [assumption| |].
        * apply randbelow_ok; [|assumption]. unfold int64, two63 in *. lia.
        * intros v Hv. rewrite chk_ok by (unfold int64, two63 in *; lia). f_equal. lia.
      + right. split; [right; lia|reflexivity].
    - destruct Iw1 as [E|Iw1]; [contradiction|].
      assert (G : forall n, s <> 0 -> 0 < range_len a b s -> n = range_len a b s ->
         below_result tries (range_len a b s) p (fun r => a + s * r)
           (if n <=? 0 then Exn ValueError
            else let! (r, s0) := randbelow tries n st in
                 let! p0 := chk64 (s * r) in let! v := chk64 (a + p0) in Ok (v, s0))).
      { intros n Hs Hl ->. replace (range_len a b s <=? 0) with false by lia.
        pose proof (range_len_small a b s Hs Iw ltac:(right; assumption)) as Hb.
        pose proof (randbelow_ok tries _ st p (conj Hl Hb) H) as R.
        pose proof (below_map tries _ p _ (fun r => let! p0 := chk64 (s * r) in chk64 (a + p0)) (fun r => a + s * r) Hl R) as M.
        assert (Hg : forall v, 0 <= v < range_len a b s -> (let! p0 := chk64 (s * v) in chk64 (a + p0)) = Ok (a + s * v)).
        { intros v Hv. pose proof (range_bounds a b s v Hs Hv) as Hbd.
          rewrite chk_ok by (unfold int64, two63 in *; lia). cbn [bind]. apply chk_ok. unfold int64, two63 in *. lia. }
        specialize (M Hg). destruct (randbelow tries (range_len a b s) st) as [[v s0]| | |]; try exact M.
        cbn [bind] in *. destruct (chk64 (s * v)); exact M. }
      destruct (Z.ltb_spec 0 s) as [Hs|Hs].
      + rewrite (chk_ok (b - a + s)) by assumption. cbn [bind].
        rewrite (chk_ok (b - a + s - 1)) by (unfold int64, two63 in *; lia). cbn [bind].
        rewrite cdiv_ok by (unfold int64, two63 in *; lia). cbn [bind].
        destruct (Z.eqb_spec (range_len a b s) 0) as [E|E].
        * right. split; [right; assumption|]. pose proof (range_up0 a b s Hs E).
          replace (Z.quot (b - a + s - 1) s <=? 0) with true by lia. reflexivity.
        * left. pose proof (range_nonneg a b s). split; [lia|]. split; [lia|].
          apply G; [lia|lia|]. symmetry. apply range_up; lia.
      + destruct (Z.ltb_spec s 0) as [Hs0|Hs0].
        * rewrite (chk_ok (b - a + s)) by assumption. cbn [bind].
          rewrite (chk_ok (b - a + s + 1)) by (unfold int64, two63 in *; lia). cbn [bind].
          rewrite cdiv_ok by (unfold int64, two63 in *; lia). cbn [bind].
          destruct (Z.eqb_spec (range_len a b s) 0) as [E|E].
          -- right. split; [right; assumption|]. pose proof (range_down0 a b s Hs0 E).
             replace (Z.quot (b - a + s + 1) s <=? 0) with true by lia. reflexivity.
          -- left. pose proof (range_nonneg a b s). split; [lia|]. split; [lia|].
             apply G; [lia|lia|]. symmetry. apply range_down; lia.
        * right. split; [left; lia|reflexivity].
  Qed.

  Lemma do_call_ok fl tries c o p : (0 < tries)%nat -> D (g_rng o) p -> small c ->
    call_result fl tries c p (g_next o) (do_call fl tries c o).
  Proof.
    intros Ht H Hs. destruct c as [|k|a [b|] s|a b|mu sigma]; cbn [do_call].
    - unfold on_rng. destruct (random_num_ok _ _ H) as (s' & E & H'). rewrite E. cbn [bind].
      left. eexists _, (p + 2)%nat, _, O. split; [reflexivity|]. split; [apply py_random|]. auto.
    - cbn [small] in Hs. destruct (Z.leb_spec k 0) as [Hk|Hk].
      + right. left. exists ValueError. split; [|apply py_getbits_neg; assumption].
        unfold on_rng, getrandbits. assert (E : to_int k = k) by (unfold to_int; rewrite Z.mod_small by lia; lia).
        rewrite E. replace (k <=? 0) with true by lia. reflexivity.
      + unfold on_rng. destruct (getrandbits_ok k (g_rng o) p H ltac:(lia)) as (s' & E & H'). rewrite E. cbn [bind].
        left. eexists _, _, _, O. split; [reflexivity|]. split; [apply py_getbits; assumption|]. auto.
    - destruct (randrange_ok tries a b s (g_rng o) p H Hs) as [(Hn & Hl & R)|(Hn & E)].
      + unfold on_rng. apply (below_call fl tries _ p _ (range_len a b s) (fun r => a + s * r)); [assumption| | |reflexivity].
        * intros. apply py_range; assumption.
        * intros out p' g' t C. inversion C; subst; [eexists; eassumption|exfalso; lia].
      + right. left. exists ValueError. unfold on_rng. rewrite E. split; [reflexivity|]. apply py_range_neg. assumption.
    - cbn [small] in Hs. destruct Hs as (Ia & ->). unfold on_rng. cbn [randrange].
      destruct (Z.ltb_spec 0 a) as [Ha|Ha].
      + apply (below_call fl tries _ p _ a (fun r => r)); [|intros; apply py_range1; assumption| |reflexivity].
        * apply randbelow_ok; [|assumption]. unfold int64, two63 in *. lia.
        * intros out p' g' t C. inversion C; subst; [eexists; eassumption|exfalso; lia].
      + right. left. exists ValueError. split; [reflexivity|]. apply py_range1_neg. assumption.
    - cbn [small] in Hs. destruct Hs as (Ia & Ib & Ib1 & Iw). unfold on_rng, randint.
      rewrite (chk_ok (b + 1)) by assumption. cbn [bind].
      assert (El : range_len a (b + 1) 1 = Z.max 0 (b - a + 1)).
      { unfold range_len. cbn [Z.ltb Z.compare]. rewrite Z.div_1_r. f_equal. lia. }
      destruct (randrange_ok tries a (b + 1) 1 (g_rng o) p H) as [(Hn & Hl & R)|(Hn & E)].
      + cbn [small]. split; [assumption|]. split; [assumption|]. split; [unfold int64, two63; lia|]. split; [assumption|left; reflexivity].
      + rewrite El in *. replace (Z.max 0 (b - a + 1)) with (b - a + 1) in * by lia.
        apply (below_call fl tries _ p _ (b - a + 1) (fun r => a + 1 * r)); [assumption| | |reflexivity].
        * intros v p' t B. replace (a + 1 * v) with (a + v) by lia. apply py_int; [lia|assumption].
        * intros out p' g' t C. inversion C; subst; [eexists; eassumption|exfalso; lia].
      + right. left. exists ValueError. rewrite E. split; [reflexivity|]. apply py_int_neg. lia.
    - unfold gauss. destruct (g_next o) as [z|] eqn:Eg.
      + left. eexists _, p, _, O. split; [reflexivity|]. cbn [g_next g_rng]. split; [apply py_gauss_kept|]. auto.
      + destruct (random_num_ok _ _ H) as (s1 & E1 & H1). rewrite E1. cbn [bind].
        destruct (random_num_ok _ _ H1) as (s2 & E2 & H2). rewrite E2. cbn [bind].
        destruct (pair_of fl _ _) as [z next] eqn:Ep.
        left. eexists _, (p + 4)%nat, _, O. split; [reflexivity|]. cbn [g_next g_rng].
        split; [apply py_gauss|].
        * replace (p + 2)%nat with (S (S p)) in Ep by lia. exact Ep.
        * split; [assumption|]. replace (p + 4)%nat with (p + 2 + 2)%nat by lia. assumption.
  Qed.

  Lemma py_call_fun fl c p g o p' g' t o2 p2 g2 t2 : py_call fl w c p g o p' g' t -> py_call fl w c p g o2 p2 g2 t2 ->
    o = o2 /\ p' = p2 /\ g' = g2 /\ t = t2.
  Proof.
    intros H1 H2.
    inversion H1; subst; inversion H2; subst; auto; try lia;
      try (match goal with A : py_below w _ _ _ _ _, B : py_below w _ _ _ _ _ |- _ =>
             destruct (py_below_fun _ _ _ _ _ _ _ _ A B) as (-> & -> & ->) end; auto; fail).
    match goal with A : pair_of _ _ _ = _, B : pair_of _ _ _ = _ |- _ => rewrite A in B; injection B as -> -> end. auto.
  Qed.

  Lemma py_run_inv fl tries c cs p g out p' g' : py_run fl w tries (c :: cs) p g out p' g' ->
    exists o p1 g1 t out', py_call fl w c p g o p1 g1 t /\ (t < tries)%nat /\ py_run fl w tries cs p1 g1 out' p' g'.
  Proof. intros H. inversion H; subst. do 5 eexists. eauto. Qed.
  Lemma run_ok fl tries cs : (0 < tries)%nat -> Forall small cs -> forall o p, D (g_rng o) p ->
    (exists out o' p', run fl tries cs o = Ok (out, o') /\ py_run fl w tries cs p (g_next o) out p' (g_next o') /\ D (g_rng o') p')
    \/ (run fl tries cs o = OutOfFuel /\ forall out p' g', ~ py_run fl w tries cs p (g_next o) out p' g').
  Proof.
    intros Ht Hs. induction Hs as [|c cs Hc Hs IH]; intros o p H; cbn [run].
    - left. exists [], o, p. split; [reflexivity|]. split; [apply py_nil|assumption].
    - destruct (do_call_ok fl tries c o p Ht H Hc) as [(v & p1 & o1 & t & E & C & Hlt & H1)|[(e & E & C)|(E & Hno)]]; rewrite E.
      + destruct (IH o1 p1 H1) as [(out & o' & p' & Er & R & H')|(Er & Hn)]; rewrite Er; cbn [bind].
        * left. exists (inl v :: out), o', p'. split; [reflexivity|]. split; [|assumption]. eapply py_cons; eassumption.
        * right. split; [reflexivity|]. intros out p' g' R. apply py_run_inv in R.
          destruct R as (o2 & p2 & g2 & t2 & out2 & A & _ & R).
          destruct (py_call_fun _ _ _ _ _ _ _ _ _ _ _ _ C A) as (E1 & E2 & E3 & E4). subst p2 g2.
          eapply Hn; eassumption.
      + destruct (IH o p H) as [(out & o' & p' & Er & R & H')|(Er & Hn)]; rewrite Er; cbn [bind].
        * left. exists (inr e :: out), o', p'. split; [reflexivity|]. split; [|assumption]. eapply py_cons; eassumption.
        * right. split; [reflexivity|]. intros out p' g' R. apply py_run_inv in R.
          destruct R as (o2 & p2 & g2 & t2 & out2 & A & _ & R).
          destruct (py_call_fun _ _ _ _ _ _ _ _ _ _ _ _ C A) as (E1 & E2 & E3 & E4). subst p2 g2.
          eapply Hn; eassumption.
      + right. split; [reflexivity|]. intros out p' g' R. apply py_run_inv in R.
        destruct R as (o2 & p2 & g2 & t2 & out2 & A & Hlt & _). apply Hno in A. lia.
  Qed.
End Calls.

(** *** Tempering *)

Lemma land_w32 a b : word b -> Z.land (w32 a) b = Z.land a b.
Proof.
  intros Hb. apply Z.bits_inj'. intros i Hi. rewrite !Z.land_spec. unfold w32.
  destruct (Z.lt_ge_cases i 32) as [H|H].
  - rewrite Z.mod_pow2_bits_low by lia. reflexivity.
  - rewrite (testbit_word b i Hb H), !andb_false_r. reflexivity.
Qed.
Lemma temper_eq y : temper y = tempered y.
Proof.
  unfold temper, tempered. cbv zeta.
  rewrite !Z.shiftr_div_pow2, !Z.shiftl_mul_pow2 by lia.
  rewrite !land_w32 by (unfold word; lia). reflexivity.
Qed.

(** *** The state *)

Lemma NN_eq : NN = mt_n. Proof. reflexivity. Qed.
Lemma MM_eq : MM = mt_m. Proof. reflexivity. Qed.
Lemma m_small : (1 <= mt_m < mt_n)%nat. Proof. vm_compute. lia. Qed.
Lemma n_large : (2 <= mt_n)%nat. Proof. vm_compute. lia. Qed.
Global Opaque mt_n mt_m NN MM.

Definition draws (x : nat -> Z) (s : rng) (p : nat) : Prop := drawn mt_n x s p.

Lemma state_sequence s : state s -> exists x, sequence_of s x /\ (forall i, word (x i)) /\ draws x s (Z.to_nat (r_idx s)).
Proof.
  intros (Hl & Hi & Hw). destruct (sequence_exists mt_n mt_m m_small (r_mt s) Hl) as (x & Hx & Hn).
  assert (Hn' : forall i, (i < mt_n)%nat -> nth_error (r_mt s) i = Some (x i)).
  { intros i H. rewrite (Hn i H). apply nth_error_nth'. lia. }
  assert (Hx0 : forall i, (i < mt_n)%nat -> word (x i)).
  { intros i H. rewrite Forall_forall in Hw. apply Hw. eapply nth_error_In. apply Hn'. exact H. }
  exists x. split; [split; assumption|]. split; [apply (all_words mt_n mt_m x); [apply m_small|assumption|assumption]|].
  exists O. split; [|split; [assumption|lia]]. split; [assumption|]. intros i H.
  replace (i <? 0)%nat with false by (symmetry; apply Nat.ltb_ge; lia). apply Hn'. exact H.
Qed.
Lemma draws_state (x : nat -> Z) s p : (forall i, word (x i)) -> draws x s p -> state s.
Proof.
  intros Hw (base & (Hl & Hn) & Hi & _). split; [assumption|]. split; [assumption|].
  apply Forall_forall. intros z Hz. apply In_nth_error in Hz. destruct Hz as (i & Hz).
  assert (i < mt_n)%nat by (rewrite <- Hl; apply nth_error_Some; congruence).
  rewrite Hn in Hz by assumption. injection Hz as <-. apply Hw.
Qed.
Lemma draws_step (x : nat -> Z) s p : recurs mt_n mt_m x -> (forall i, word (x i)) -> draws x s p ->
  exists s', genrand s = Ok (tempered (x p), s') /\ draws x s' (S p).
Proof.
  intros Hx Hw H. unfold genrand. rewrite NN_eq, MM_eq, <- temper_eq.
  apply genrand_nm_ok; [apply m_small|assumption|auto|exact H].
Qed.
Lemma tempered_word (x : nat -> Z) : (forall i, word (x i)) -> forall i, word (tempered (x i)).
Proof. intros H i. rewrite <- temper_eq. apply temper_word. apply H. Qed.

Lemma state_run fl tries cs o : (0 < tries)%nat -> Forall small cs -> state (g_rng o) ->
  exists x, sequence_of (g_rng o) x /\
  let w := fun i => tempered (x i) in
  let p := Z.to_nat (r_idx (g_rng o)) in
    (exists out o' p', run fl tries cs o = Ok (out, o') /\ state (g_rng o')
       /\ py_run fl w tries cs p (g_next o) out p' (g_next o'))
    \/ (run fl tries cs o = OutOfFuel /\ forall out p' g', ~ py_run fl w tries cs p (g_next o) out p' g').
Proof.
  intros Ht Hs H. destruct (state_sequence _ H) as (x & Hx & Hw & Hd). exists x. split; [assumption|].
  intros w p. destruct Hx as (Hx & Hn).
  destruct (run_ok (draws x) w (tempered_word x Hw) (fun s q => draws_step x s q Hx Hw) fl tries cs Ht Hs o p Hd)
    as [(out & o' & p' & E & R & H')|Hno]; [left|right; exact Hno].
  exists out, o', p'. split; [assumption|]. split; [|assumption]. eapply draws_state; eassumption.
Qed.

Lemma take_words_ok (x : nat -> Z) n : recurs mt_n mt_m x -> (forall i, word (x i)) -> forall s p, draws x s p ->
  exists s', take_words n s = Ok (words_from x p n, s') /\ draws x s' (p + n).
Proof.
  intros Hx Hw. induction n as [|n IH]; intros s p H; cbn [take_words words_from].
  - exists s. rewrite Nat.add_0_r. auto.
  - destruct (draws_step x s p Hx Hw H) as (s1 & E1 & H1). rewrite E1. cbn [bind].
    destruct (IH s1 (S p) H1) as (s2 & E2 & H2). rewrite E2. cbn [bind]. exists s2.
    replace (p + S n)%nat with (S p + n)%nat by lia. auto.
Qed.

(** *** Saving and restoring *)

Lemma last_app (l : list Z) v d : last (l ++ [v]) d = v.
Proof. induction l as [|a l IH]; [reflexivity|]. cbn [app]. destruct l; [reflexivity|]. exact IH. Qed.
Lemma restore s : state s -> setstate_impl (getstate_impl s) = Ok (Some s).
Proof.
  intros (Hl & Hi & Hw). unfold setstate_impl, getstate_impl. rewrite NN_eq, app_length, Hl. cbn [length].
  replace (Z.of_nat (mt_n + 1) =? Z.of_nat mt_n + 1) with true by lia. cbn [negb].
  rewrite <- Hl, firstn_app, firstn_all, Nat.sub_diag. cbn [firstn]. rewrite app_nil_r, last_app, Hl.
  replace (existsb (fun e => e =? -1) (r_mt s)) with false.
  - replace (r_idx s =? -1) with false by lia. replace ((r_idx s <? 0) || (Z.of_nat mt_n <? r_idx s)) with false by lia.
    do 2 f_equal. destruct s as [i mt]. cbn [r_idx r_mt] in *. f_equal.
    rewrite <- (map_id mt) at 2. apply map_ext_in. intros a Ha. rewrite Forall_forall in Hw. specialize (Hw a Ha).
    unfold w32. apply Z.mod_small. exact Hw.
  - symmetry. apply not_true_is_false. intros E. apply existsb_exists in E. destruct E as (a & Ha & E).
    rewrite Forall_forall in Hw. specialize (Hw a Ha). unfold word in Hw. lia.
Qed.

(** *** Seeding *)

Section Course.
  Variable F : nat -> (nat -> Z) -> Z.
  Hypothesis HF : forall c g h, (forall i, (i < c)%nat -> g i = h i) -> F c g = F c h.
  Fixpoint history (c : nat) : list Z :=
    match c with O => [] | S c' => history c' ++ [F c' (fun i => nth i (history c') 0)] end.
  Lemma history_len c : length (history c) = c.
  Proof. induction c as [|c IH]; [reflexivity|]. cbn [history]. rewrite app_length, IH. cbn. lia. Qed.
  Lemma history_nth c i : (i < c)%nat -> nth i (history c) 0 = nth i (history (S i)) 0.
  Proof.
    induction c as [|c IH]; intros H; [lia|]. destruct (Nat.eq_dec i c) as [->|Hn]; [reflexivity|].
    change (history (S c)) with (history c ++ [F c (fun i => nth i (history c) 0)]).
    rewrite app_nth1 by (rewrite history_len; lia). apply IH. lia.
  Qed.
  Lemma course : exists y, forall c, y c = F c y.
  Proof.
    exists (fun c => nth c (history (S c)) 0). intros c. cbn [history].
    rewrite app_nth2 by (rewrite history_len; lia). rewrite history_len, Nat.sub_diag. cbn [nth].
    apply HF. intros i Hi. apply history_nth. exact Hi.
  Qed.
End Course.

Section Ring.
  Variable n : nat.
  Hypothesis Hn : (2 <= n)%nat.

  Lemma place_bounds c : (1 <= place n c < n)%nat.
  Proof. unfold place. pose proof (Nat.mod_upper_bound c (n - 1)). lia. Qed.
  Lemma place_round c : place n (c + (n - 1)) = place n c.
  Proof. unfold place. rewrite <- (Nat.mul_1_l (n - 1)) at 1. rewrite Nat.mod_add by lia. reflexivity. Qed.
  Lemma place_next c : place n (S c) = if (place n c =? n - 1)%nat then 1%nat else S (place n c).
  Proof.
    unfold place. pose proof (Nat.mod_upper_bound c (n - 1) ltac:(lia)).
    pose proof (Nat.div_mod c (n - 1) ltac:(lia)) as E.
    destruct (Nat.eqb_spec (S (c mod (n - 1))) (n - 1)) as [H1|H1]; f_equal.
    - symmetry. apply Nat.mod_unique with (S (c / (n - 1))); nia.
    - symmetry. apply Nat.mod_unique with (c / (n - 1))%nat; lia.
  Qed.
  Lemma place_inj c d : (0 < d < n - 1)%nat -> place n (c + d) <> place n c.
  Proof.
    unfold place. intros Hd E. injection E as E.
    pose proof (Nat.div_mod c (n - 1) ltac:(lia)) as A. pose proof (Nat.div_mod (c + d) (n - 1) ltac:(lia)) as B.
    rewrite E in B. set (q1 := (c / (n - 1))%nat) in *. set (q2 := ((c + d) / (n - 1))%nat) in *.
    destruct (Nat.le_gt_cases q2 q1); nia.
  Qed.
  Lemma place_onto t q : (1 <= q < n)%nat -> exists d, (d < n - 1)%nat /\ place n (t + d) = q.
  Proof.
    intros Hq. unfold place. set (a := (t mod (n - 1))%nat).
    assert (Ha : (a < n - 1)%nat) by (apply Nat.mod_upper_bound; lia).
    pose proof (Nat.div_mod t (n - 1) ltac:(lia)) as E. fold a in E.
    destruct (Nat.le_gt_cases a (q - 1)).
    - exists (q - 1 - a)%nat. split; [lia|].
      assert (((t + (q - 1 - a)) mod (n - 1)) = q - 1)%nat; [|lia].
      symmetry. apply Nat.mod_unique with (t / (n - 1))%nat; lia.
    - exists (q - 1 + (n - 1) - a)%nat. split; [lia|].
      assert (((t + (q - 1 + (n - 1) - a)) mod (n - 1)) = q - 1)%nat; [|lia].
      symmetry. apply Nat.mod_unique with (S (t / (n - 1)))%nat; nia.
  Qed.

  (** at round [t]: the place [i], the word before it, the words the next rounds will find *)
  Definition ring (t i : nat) (mt : list Z) (pv : Z) (olds : nat -> Z) : Prop :=
    length mt = n /\ i = place n t /\ nth_error mt (i - 1) = Some pv
    /\ forall d, (d < n - 1)%nat -> nth_error mt (place n (t + d)) = Some (olds d).
  Lemma ring_old t i mt pv olds : ring t i mt pv olds -> rd mt i = Ok (olds O).
  Proof. intros (_ & -> & _ & H). apply rd_nth. specialize (H O ltac:(lia)). rewrite Nat.add_0_r in H. exact H. Qed.
  Lemma ring_prev t i mt pv olds : ring t i mt pv olds -> rd mt (i - 1) = Ok pv.
  Proof. intros (_ & _ & H & _). apply rd_nth. exact H. Qed.
  Lemma ring_step t i mt pv olds v olds' : ring t i mt pv olds ->
    (forall d, (S d < n - 1)%nat -> olds' d = olds (S d)) -> olds' (n - 2)%nat = v ->
    exists mt1 i' mt', wr mt i v = Ok mt1 /\ wrap_i n i mt1 = Ok (i', mt') /\ ring (S t) i' mt' v olds'.
  Proof.
    intros (Hl & Ei & Hp & Ho) Ho1 Ho2. pose proof (place_bounds t) as Hb. rewrite <- Ei in Hb.
    destruct (wr_ok mt i v) as (mt1 & E1 & L1 & N1 & O1); [lia|]. exists mt1.
    assert (R1 : forall d, (d < n - 1)%nat -> nth_error mt1 (place n (S t + d)) = Some (olds' d)).
    { intros d Hd. destruct (Nat.eq_dec d (n - 2)) as [->|Hne].
      - replace (S t + (n - 2))%nat with (t + (n - 1))%nat by lia. rewrite place_round, <- Ei, N1. congruence.
      - replace (S t + d)%nat with (t + S d)%nat by lia. rewrite O1 by (rewrite Ei; apply place_inj; lia).
        rewrite Ho by lia. rewrite Ho1 by lia. reflexivity. }
    unfold wrap_i. destruct (Nat.leb_spec n (S i)).
    - assert (i = n - 1)%nat by lia.
      rewrite (rd_nth mt1 (n - 1) v) by (rewrite <- N1; f_equal; lia). cbn [bind].
      destruct (wr_ok mt1 0 v) as (mt2 & E2 & L2 & N2 & O2); [lia|]. rewrite E2. cbn [bind].
      exists 1%nat, mt2. split; [assumption|]. split; [reflexivity|]. split; [lia|].
      split; [rewrite place_next, <- Ei; replace (i =? n - 1)%nat with true by lia; reflexivity|].
      split; [exact N2|]. intros d Hd. rewrite O2 by (pose proof (place_bounds (S t + d)); lia). apply R1. exact Hd.
    - exists (S i), mt1. split; [assumption|]. split; [reflexivity|]. split; [lia|].
      split; [rewrite place_next, <- Ei; replace (i =? n - 1)%nat with false by lia; reflexivity|].
      split; [replace (S i - 1)%nat with i by lia; exact N1|]. exact R1.
  Qed.

  Variables (key : list Z) (f y z : nat -> Z).
  Hypothesis Hk : key <> [].
  Let r := Nat.max n (length key).
  Hypothesis Hf : first_words f 19650218.
  Hypothesis Hy : first_rounds n key f y.
  Hypothesis Hz : second_rounds n r y z.

  Lemma scramble_eq a : Z.lxor a (Z.shiftr a 30) = scramble a.
  Proof. unfold scramble. rewrite Z.shiftr_div_pow2 by lia. reflexivity. Qed.
  Lemma init_words_nth c : forall i d, (d < c)%nat -> nth_error (init_words c (S i) (f i)) d = Some (f (S i + d)%nat).
  Proof.
    destruct Hf as (_ & Hs). induction c as [|c IH]; intros i d Hd; [lia|]. cbn [init_words].
    assert (E : w32 (1812433253 * Z.lxor (f i) (Z.shiftr (f i) 30) + Z.of_nat (S i)) = f (S i)).
    { rewrite Hs, scramble_eq. reflexivity. }
    rewrite E. destruct d as [|d]; cbn [nth_error]; [rewrite Nat.add_0_r; reflexivity|].
    rewrite IH by lia. do 2 f_equal. lia.
  Qed.
  Lemma init_words_len c : forall i p, length (init_words c i p) = c.
  Proof. induction c as [|c IH]; intros i p; [reflexivity|]. cbn [init_words length]. rewrite IH. reflexivity. Qed.
  Lemma init_genrand_nth i : (i < n)%nat -> nth_error (init_genrand n 19650218) i = Some (f i).
  Proof.
    intros Hi. unfold init_genrand. destruct Hf as (H0 & _). destruct i as [|i]; cbn [nth_error]; [congruence|].
    rewrite <- H0. rewrite init_words_nth by lia. f_equal.
  Qed.

  Definition old1 (c : nat) : Z := if (c <? n - 1)%nat then f (S c) else y (c - (n - 1))%nat.
  Definition prev1 (c : nat) : Z := match c with O => f O | S c' => y c' end.
  Lemma by_array1_ok k : forall c i mt, ring c i mt (prev1 c) (fun d => old1 (c + d)) ->
    exists i' mt', by_array1 n key k i (c mod length key) mt = Ok (i', mt')
      /\ ring (c + k) i' mt' (prev1 (c + k)) (fun d => old1 (c + k + d)).
  Proof.
    assert (Hlen : length key <> O) by (destruct key; [congruence|discriminate]).
    induction k as [|k IH]; intros c i mt R; cbn [by_array1].
    - exists i, mt. rewrite Nat.add_0_r. auto.
    - rewrite (ring_old _ _ _ _ _ R). cbn [bind]. rewrite (ring_prev _ _ _ _ _ R). cbn [bind].
      set (j := (c mod length key)%nat). assert (Hj : (j < length key)%nat) by (apply Nat.mod_upper_bound; assumption).
      rewrite (rd_nth key j (nth j key 0)) by (apply nth_error_nth'; assumption). cbn [bind].
      assert (E : w32 (Z.lxor (old1 (c + 0)) (w32 (Z.lxor (prev1 c) (Z.shiftr (prev1 c) 30) * 1664525)) + nth j key 0 + Z.of_nat j) = y c).
      { rewrite scramble_eq, Nat.add_0_r. pose proof (Hy c) as H. unfold w32. symmetry. exact H. }
      rewrite E.
      destruct (ring_step c i mt (prev1 c) (fun d => old1 (c + d)) (y c) (fun d => old1 (S c + d)) R) as (mt1 & i' & mt' & E1 & E2 & R').
      + intros d _. f_equal. lia.
      + unfold old1. replace (S c + (n - 2) <? n - 1)%nat with false by lia. f_equal. lia.
      + rewrite E1. cbn [bind]. rewrite E2. cbn [bind].
        replace (if (length key <=? S j)%nat then O else S j) with (S c mod length key)%nat.
        * replace (c + S k)%nat with (S c + k)%nat by lia. apply IH. exact R'.
        * pose proof (Nat.div_mod c (length key) Hlen) as D. fold j in D.
          destruct (Nat.leb_spec (length key) (S j)).
          -- symmetry. apply Nat.mod_unique with (S (c / length key)); nia.
          -- symmetry. apply Nat.mod_unique with (c / length key)%nat; lia.
  Qed.
  Definition old2 (c : nat) : Z := if (c <? n - 1)%nat then y (r + c - (n - 1))%nat else z (c - (n - 1))%nat.
  Definition prev2 (c : nat) : Z := match c with O => y (r - 1)%nat | S c' => z c' end.
  Lemma by_array2_ok k : forall c i mt, (c + k <= n - 1)%nat -> ring (r + c) i mt (prev2 c) (fun d => old2 (c + d)) ->
    exists mt' i', by_array2 n k i mt = Ok mt' /\ ring (r + c + k) i' mt' (prev2 (c + k)) (fun d => old2 (c + k + d)).
  Proof.
    induction k as [|k IH]; intros c i mt Hc R; cbn [by_array2].
    - exists mt, i. rewrite !Nat.add_0_r. auto.
    - rewrite (ring_old _ _ _ _ _ R). cbn [bind]. rewrite (ring_prev _ _ _ _ _ R). cbn [bind].
      assert (E : w32 (Z.lxor (old2 (c + 0)) (w32 (Z.lxor (prev2 c) (Z.shiftr (prev2 c) 30) * 1566083941)) - Z.of_nat i) = z c).
      { rewrite scramble_eq, Nat.add_0_r. pose proof (Hz c ltac:(lia)) as H. unfold w32.
        destruct R as (_ & -> & _). unfold old2. replace (c <? n - 1)%nat with true by lia. symmetry. exact H. }
      rewrite E.
      destruct (ring_step (r + c) i mt (prev2 c) (fun d => old2 (c + d)) (z c) (fun d => old2 (S c + d)) R) as (mt1 & i' & mt' & E1 & E2 & R').
      + intros d _. f_equal. lia.
      + unfold old2. replace (S c + (n - 2) <? n - 1)%nat with false by lia. f_equal. lia.
      + rewrite E1. cbn [bind]. rewrite E2. cbn [bind].
        replace (S (r + c)) with (r + S c)%nat in R' by lia.
        replace (c + S k)%nat with (S c + k)%nat by lia. replace (r + c + S k)%nat with (r + S c + k)%nat by lia.
        apply IH; [lia|exact R'].
  Qed.
  Lemma init_by_array_run : exists s, init_by_array_n n key = Ok s
    /\ r_idx s = Z.of_nat n /\ length (r_mt s) = n /\ nth_error (r_mt s) 0 = Some (2 ^ 31)
    /\ forall c, (c < n - 1)%nat -> nth_error (r_mt s) (place n (r + c)) = Some (z c).
  Proof.
    unfold init_by_array_n. fold r.
    destruct (by_array1_ok r 0 1 (init_genrand n 19650218)) as (i1 & mt1 & E1 & R1).
    { split; [unfold init_genrand; cbn [length]; rewrite init_words_len; lia|].
      split; [unfold place; rewrite Nat.mod_0_l by lia; reflexivity|].
      split; [apply init_genrand_nth; lia|]. intros d Hd. cbn [Nat.add].
      unfold place, old1. rewrite Nat.mod_small by lia. replace (d <? n - 1)%nat with true by lia. apply init_genrand_nth. lia. }
    replace (0 mod length key)%nat with O in E1 by (symmetry; apply Nat.mod_0_l; destruct key; [congruence|discriminate]).
    rewrite E1. cbn [bind]. cbn [Nat.add] in R1.
    assert (Hr : (n <= r)%nat) by (unfold r; lia).
    assert (R1' : ring (r + 0) i1 mt1 (prev2 0) (fun d => old2 (0 + d))).
    { destruct R1 as (A & B & C & D). rewrite Nat.add_0_r. split; [assumption|]. split; [assumption|]. split.
      - rewrite C. f_equal. unfold prev1, prev2. destruct r as [|r']; [lia|]. f_equal. lia.
      - intros d Hd. rewrite D by assumption. unfold old1, old2. cbn [Nat.add].
        replace (d <? n - 1)%nat with true by lia. replace (r + d <? n - 1)%nat with false by lia. reflexivity. }
    destruct (by_array2_ok (n - 1) 0 i1 mt1 ltac:(lia) R1') as (mt2 & i2 & E2 & (L2 & _ & _ & D2)). rewrite E2. cbn [bind].
    destruct (wr_ok mt2 0 2147483648) as (mt3 & E3 & L3 & N3 & O3); [lia|]. rewrite E3. cbn [bind].
    eexists. split; [reflexivity|]. cbn [r_idx r_mt]. split; [reflexivity|]. split; [lia|]. split; [exact N3|].
    intros c Hc. rewrite O3 by (pose proof (place_bounds (r + c)); lia).
    specialize (D2 c Hc). replace (r + 0 + (n - 1) + c)%nat with (r + c + (n - 1))%nat in D2 by lia.
    rewrite place_round in D2. rewrite D2. unfold old2. replace (0 + (n - 1) + c <? n - 1)%nat with false by lia.
    do 2 f_equal. lia.
  Qed.
End Ring.

Lemma rounds_exist n key : (2 <= n)%nat -> exists f y z, first_words f 19650218 /\ first_rounds n key f y
  /\ second_rounds n (Nat.max n (length key)) y z.
Proof.
  intros Hn. set (r := Nat.max n (length key)).
  destruct (course (fun c g => match c with O => 19650218 | S i => (1812433253 * scramble (g i) + Z.of_nat (S i)) mod 2 ^ 32 end)) as (f & Hf).
  { intros [|c] g h H; [reflexivity|]. rewrite H by lia. reflexivity. }
  destruct (course (fun c g =>
    (Z.lxor (if (c <? n - 1)%nat then f (S c) else g (c - (n - 1))%nat)
       (scramble (match c with O => f O | S c' => g c' end) * 1664525 mod 2 ^ 32)
     + nth (c mod length key) key 0 + Z.of_nat (c mod length key)) mod 2 ^ 32)) as (y & Hy).
  { intros c g h H. destruct (Nat.ltb_spec c (n - 1)); destruct c; rewrite ?H by lia; reflexivity. }
  destruct (course (fun c g =>
    (Z.lxor (y (r + c - (n - 1))%nat) (scramble (match c with O => y (r - 1)%nat | S c' => g c' end) * 1566083941 mod 2 ^ 32)
     - Z.of_nat (place n (r + c))) mod 2 ^ 32)) as (z & Hz).
  { intros [|c] g h H; [reflexivity|]. rewrite H by lia. reflexivity. }
  exists f, y, z. split; [|split].
  - split; [apply (Hf O)|intros i; apply (Hf (S i))].
  - intros c. apply (Hy c).
  - intros c _. apply (Hz c).
Qed.

Lemma nth_ext_error (l l2 : list Z) : (forall i, nth_error l i = nth_error l2 i) -> l = l2.
Proof.
  revert l2. induction l as [|a l IH]; intros [|b l2] H; [reflexivity|specialize (H O); discriminate|specialize (H O); discriminate|].
  f_equal; [specialize (H O); cbn in H; congruence|]. apply IH. intros i. apply (H (S i)).
Qed.
Lemma init_by_array_iff n key s : (2 <= n)%nat -> key <> [] ->
  (init_by_array_n n key = Ok s <-> seeded n key s).
Proof.
  intros Hn Hk. split.
  - intros E. destruct (rounds_exist n key Hn) as (f & y & z & Hf & Hy & Hz).
    destruct (init_by_array_run n Hn key f y z Hk Hf Hy Hz) as (s' & E' & A). rewrite E in E'. injection E' as <-.
    exists f, y, z. cbv zeta. tauto.
  - intros (f & y & z & Hf & Hy & Hz & A & B & C & D).
    destruct (init_by_array_run n Hn key f y z Hk Hf Hy Hz) as (s' & E & A' & B' & C' & D'). rewrite E. f_equal.
    destruct s as [i mt], s' as [i' mt']. cbn [r_idx r_mt] in *. f_equal; [congruence|]. apply nth_ext_error. intros q.
    destruct (Nat.eq_dec q 0) as [->|Hq]; [congruence|]. destruct (Nat.lt_ge_cases q n) as [Hl|Hl].
    + destruct (place_onto n Hn (Nat.max n (length key)) q ltac:(lia)) as (d & Hd & <-). rewrite D, D' by assumption. reflexivity.
    + rewrite !(proj2 (nth_error_None _ _)) by lia. reflexivity.
Qed.
Lemma seeded_total n key : (2 <= n)%nat -> key <> [] -> exists s, init_by_array_n n key = Ok s.
Proof.
  intros Hn Hk. destruct (rounds_exist n key Hn) as (f & y & z & Hf & Hy & Hz).
  destruct (init_by_array_run n Hn key f y z Hk Hf Hy Hz) as (s' & E' & A). eauto.
Qed.
Lemma seeded_state key s : seeded mt_n key s -> state s.
Proof.
  pose proof n_large as Hn. intros (f & y & z & _ & _ & Hz & A & B & C & D). split; [assumption|]. split; [lia|].
  apply Forall_forall. intros v Hv. apply In_nth_error in Hv. destruct Hv as (q & Hq).
  assert (Hl : (q < mt_n)%nat) by (rewrite <- B; apply nth_error_Some; congruence).
  destruct (Nat.eq_dec q 0) as [->|H0].
  - rewrite C in Hq. injection Hq as <-. unfold word. lia.
  - destruct (place_onto mt_n Hn (Nat.max mt_n (length key)) q ltac:(lia)) as (d & Hd & Eq). subst q.
    rewrite D in Hq by assumption. injection Hq as <-. rewrite (Hz d Hd). apply Z.mod_pos_bound. lia.
Qed.

(** *** Keys *)

Lemma mod_add_inj a b k : word a -> word b -> (a + k) mod 2 ^ 32 = (b + k) mod 2 ^ 32 -> a = b.
Proof. unfold word. intros Ha Hb E. Z.div_mod_to_equations. lia. Qed.
Lemma lxor_inj a b k : Z.lxor a k = Z.lxor b k -> a = b.
Proof.
  intros E. assert (H : Z.lxor (Z.lxor a k) k = Z.lxor (Z.lxor b k) k) by congruence.
  rewrite !Z.lxor_assoc, !Z.lxor_nilpotent, !Z.lxor_0_r in H. exact H.
Qed.
Lemma first_words_fun f g seed : first_words f seed -> first_words g seed -> forall i, f i = g i.
Proof. intros (F0 & F) (G0 & G) i. induction i as [|i IH]; [congruence|]. rewrite F, G, IH. reflexivity. Qed.
Lemma first_rounds_word n key f y c : first_rounds n key f y -> word (y c).
Proof. intros H. rewrite (H c). apply Z.mod_pos_bound. lia. Qed.

Lemma seeded_inj n a b s : Forall word a -> Forall word b -> length a = length b -> (0 < length a)%nat -> (3 * length a < n)%nat ->
  seeded n a s -> seeded n b s -> a = b.
Proof.
  intros Wa Wb Hl H0 H3 (f & y & z & Hf & Hy & Hz & _ & _ & _ & D) (f2 & y2 & z2 & Hf2 & Hy2 & Hz2 & _ & _ & _ & D2).
  rewrite <- Hl in *. replace (Nat.max n (length a)) with n in * by lia.
  pose proof (first_words_fun _ _ _ Hf Hf2) as Ef.
  assert (Ez : forall c, (c < n - 1)%nat -> z c = z2 c).
  { intros c Hc. specialize (D c Hc). specialize (D2 c Hc). congruence. }
  assert (Ey : forall c, (1 <= c < n - 1)%nat -> y (S c) = y2 (S c)).
  { intros c Hc. pose proof (Hz c ltac:(lia)) as A. pose proof (Hz2 c ltac:(lia)) as B. cbv zeta in A, B.
    destruct c as [|c]; [lia|]. rewrite (Ez (S c)), (Ez c) in A by lia. rewrite A in B.
    replace (n + S c - (n - 1))%nat with (S (S c)) in B by lia.
    rewrite <- !Z.add_opp_r in B. apply mod_add_inj in B.
    - apply lxor_inj in B. exact B.
    - apply word_lxor; [eapply first_rounds_word; eassumption|apply Z.mod_pos_bound; lia].
    - apply word_lxor; [eapply first_rounds_word; eassumption|apply Z.mod_pos_bound; lia]. }
  assert (Ey1 : y 1%nat = y2 1%nat).
  { pose proof (Hz O ltac:(lia)) as A. pose proof (Hz2 O ltac:(lia)) as B. cbv zeta in A, B.
    rewrite (Ez O) in A by lia. rewrite A in B.
    replace (n + 0 - (n - 1))%nat with 1%nat in B by lia. replace (n - 1)%nat with (S (n - 2)) in B by lia.
    rewrite (Ey (n - 2)%nat) in B by lia.
    rewrite <- !Z.add_opp_r in B. apply mod_add_inj in B.
    - apply lxor_inj in B. exact B.
    - apply word_lxor; [eapply first_rounds_word; eassumption|apply Z.mod_pos_bound; lia].
    - apply word_lxor; [eapply first_rounds_word; eassumption|apply Z.mod_pos_bound; lia]. }
  assert (Ek : forall j, (j < length a)%nat -> nth j a 0 = nth j b 0).
  { intros j Hj. set (c := (j + 2 * length a)%nat).
    assert (Ec : (c mod length a = j)%nat).
    { unfold c. rewrite Nat.mod_add by lia. apply Nat.mod_small. exact Hj. }
    pose proof (Hy c) as A. pose proof (Hy2 c) as B. cbv zeta in A, B. rewrite <- Hl in B. rewrite Ec in A, B.
    assert (Hc : (2 <= c < n - 1)%nat) by (unfold c; lia).
    replace (c <? n - 1)%nat with true in A, B by (symmetry; apply Nat.ltb_lt; lia).
    destruct c as [|[|c']]; [lia|lia|]. rewrite (Ey (S c')) in A by lia.
    assert (Ep : y (S c') = y2 (S c')).
    { destruct c' as [|c'']; [exact Ey1|]. apply Ey. lia. }
    rewrite Ep, Ef in A. rewrite A in B. rewrite <- !Z.add_assoc in B.
    rewrite !(Z.add_comm (Z.lxor _ _)), <- !Z.add_assoc in B. apply mod_add_inj in B; [exact B| |].
    - rewrite Forall_forall in Wa. apply Wa. apply nth_In. exact Hj.
    - rewrite Forall_forall in Wb. apply Wb. apply nth_In. lia. }
  apply nth_ext_error. intros i. destruct (Nat.lt_ge_cases i (length a)).
  - rewrite !(nth_error_nth' _ 0) by lia. f_equal. apply Ek. assumption.
  - rewrite !(proj2 (nth_error_None _ _)) by lia. reflexivity.
Qed.

Lemma py_key_small n : 0 <= n < 2 ^ 32 -> seed_key n = [n].
Proof.
  intros H. unfold seed_key. rewrite Z.mod_small, Z.div_small by lia. reflexivity.
Qed.
Lemma seed_key_large n : 2 ^ 32 <= n -> seed_key n = [n / 2 ^ 32; n mod 2 ^ 32].
Proof.
  intros H. unfold seed_key. assert (0 < n / 2 ^ 32) by (apply Z.div_str_pos; lia).
  replace (0 <? n / 2 ^ 32) with true by lia. reflexivity.
Qed.
Lemma py_key_fun n a b : py_key n a -> py_key n b -> a = b.
Proof.
  intros H. revert b. induction H as [n H|n key H Hk IH]; intros b Hb; inversion Hb; subst; try lia; [reflexivity|].
  f_equal. apply IH. assumption.
Qed.
Lemma py_key_two n : 2 ^ 32 <= n < 2 ^ 64 -> py_key n [n mod 2 ^ 32; n / 2 ^ 32].
Proof.
  intros H. apply py_key_more; [lia|]. apply py_key_one. split; [apply Z.div_pos; lia|]. apply Z.div_lt_upper_bound; lia.
Qed.
Lemma seed_key_words n : 0 <= n < two63 -> Forall word (seed_key n).
Proof.
  unfold two63. intros H. unfold seed_key. pose proof (Z.mod_pos_bound n (2 ^ 32)).
  assert (0 <= n / 2 ^ 32) by (apply Z.div_pos; lia). assert (n / 2 ^ 32 < 2 ^ 32) by (apply Z.div_lt_upper_bound; lia).
  destruct (0 <? n / 2 ^ 32); repeat constructor; unfold word; lia.
Qed.
Lemma seed_key_ne n : seed_key n <> [].
Proof. unfold seed_key. destruct (0 <? n / 2 ^ 32); discriminate. Qed.
Lemma random_seed_iff n s : int64 n -> n <> - two63 -> (random_seed n = Ok s <-> seeded mt_n (seed_key (Z.abs n)) s).
Proof.
  intros Hi Hn. unfold random_seed. replace (n =? - two63) with false by lia. unfold init_by_array. rewrite NN_eq.
  apply init_by_array_iff; [apply n_large|apply seed_key_ne].
Qed.
Lemma random_seed_total n : int64 n -> n <> - two63 -> exists s, random_seed n = Ok s.
Proof.
  intros Hi Hn. unfold random_seed. replace (n =? - two63) with false by lia. unfold init_by_array. rewrite NN_eq.
  apply seeded_total; [apply n_large|apply seed_key_ne].
Qed.
Lemma n_seven : (6 < mt_n)%nat.
Proof. Transparent mt_n. vm_compute. lia. Qed.
Lemma same_state a b s : 0 <= a < two63 -> 0 <= b < two63 -> (a < 2 ^ 32 <-> b < 2 ^ 32) ->
  seeded mt_n (seed_key a) s -> seeded mt_n (seed_key b) s -> a = b.
Proof.
  intros Ha Hb Hs A B. pose proof n_seven as Hn.
  assert (E : seed_key a = seed_key b).
  { eapply seeded_inj; [apply seed_key_words; assumption|apply seed_key_words; assumption| | | |exact A|exact B].
    - destruct (Z.lt_ge_cases a (2 ^ 32)).
      + rewrite !py_key_small by lia. reflexivity.
      + rewrite !seed_key_large by lia. reflexivity.
    - pose proof (seed_key_ne a). destruct (seed_key a); [congruence|cbn; lia].
    - unfold seed_key. destruct (0 <? a / 2 ^ 32); cbn [length]; lia. }
  destruct (Z.lt_ge_cases a (2 ^ 32)).
  - rewrite !py_key_small in E by lia. congruence.
  - rewrite !seed_key_large in E by lia. injection E as E1 E2.
    pose proof (Z.div_mod a (2 ^ 32)) as A1. pose proof (Z.div_mod b (2 ^ 32)) as B1. lia.
Qed.
(** a key of two words with the second one less gives what the first alone gives *)
Lemma collide n k s : (2 <= n)%nat -> seeded n [k] s -> seeded n [k; k - 1] s.
Proof.
  intros Hn (f & y & z & Hf & Hy & Hz & A). exists f, y, z. cbn [length] in *.
  replace (Nat.max n 2) with n by lia. replace (Nat.max n 1) with n in * by lia. cbv zeta.
  split; [assumption|]. split; [|split; assumption].
  intros c. pose proof (Hy c) as B. cbv zeta in B |- *. cbn [length] in *. rewrite Nat.mod_1_r in B. cbn [nth] in B.
  rewrite B. destruct (Nat.eq_dec (c mod 2) 0) as [->|Hc]; [reflexivity|].
  assert (E : (c mod 2 = 1)%nat) by (pose proof (Nat.mod_upper_bound c 2); lia). rewrite E. cbn [nth].
  f_equal. lia.
Qed.

(** *** Histories *)

Lemma setstate_safe st o : state (g_rng o) -> let (r, o') := setstate st o in
  (r = Ok tt \/ r = Exn ValueError \/ r = Exn CheckFailed) /\ state (g_rng o').
Proof.
  intros H. destruct st as [[v words] next]. unfold setstate. destruct (negb (v =? 3)); [auto|].
  unfold setstate_impl. rewrite NN_eq.
  destruct (Z.eqb_spec (Z.of_nat (length words)) (Z.of_nat mt_n + 1)) as [E|E]; cbn [negb]; [|cbn [g_rng]; auto].
  destruct (existsb _ _); [cbn [g_rng]; auto|]. destruct (last words 0 =? -1); [cbn [g_rng]; auto|].
  destruct ((last words 0 <? 0) || (Z.of_nat mt_n <? last words 0)) eqn:Eb; [cbn [g_rng]; auto|].
  split; [auto|]. cbn [g_rng]. unfold state. cbn [r_idx r_mt]. rewrite map_length, firstn_length.
  split; [lia|]. split; [lia|]. apply Forall_forall. intros z Hz. apply in_map_iff in Hz. destruct Hz as (a & <- & _).
  apply word_w32.
Qed.
Definition step_ok (st : step) : Prop :=
  match st with
  | SCalls cs => Forall small cs
  | SSeed n => int64 n /\ n <> - two63
  | SSeedNone entropy => entropy <> []
  | SSet _ => True
  end.
Lemma exec_ok fl tries sts : (0 < tries)%nat -> Forall step_ok sts -> forall o, state (g_rng o) ->
  (exists o', exec fl tries sts o = Ok o' /\ state (g_rng o')) \/ exec fl tries sts o = OutOfFuel.
Proof.
  intros Ht Hs. induction Hs as [|st sts Hst Hs IH]; intros o H; cbn [exec]; [left; eauto|].
  destruct st as [cs|n|entropy|st]; cbn [step_ok] in Hst.
  - destruct (state_run fl tries cs o Ht Hst H) as (x & _ & [(out & o' & p' & E & H' & _)|(E & _)]); rewrite E; cbn [bind]; auto.
  - destruct Hst as (Hi & Hn). destruct (random_seed_total n Hi Hn) as (s & E). unfold seed_obj. rewrite E. cbn [bind].
    apply IH. cbn [g_rng]. eapply seeded_state. apply random_seed_iff; eassumption.
  - unfold seed_none, init_by_array. rewrite NN_eq.
    destruct (seeded_total mt_n entropy n_large Hst) as (s & E). rewrite E. cbn [bind].
    apply IH. cbn [g_rng]. eapply seeded_state. apply init_by_array_iff; [apply n_large|exact Hst|exact E].
  - pose proof (setstate_safe st o H) as G. destruct (setstate st o) as [r o']. destruct G as ([-> | [-> | ->]] & G); apply IH; exact G.
Qed.
