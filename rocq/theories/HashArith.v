(** Arithmetic of the hash table: powers of two, logarithms, indices. *)
From Verif Require Import Base HashModel.
Ltac Zify.zify_post_hook ::= Z.to_euclidean_division_equations.

(** Bits k, k-1, ..., k-m+1 are set and nothing above k is. *)
Definition top (k m x : Z) : Prop :=
  (forall b, k < b -> Z.testbit x b = false) /\
  (forall b, 0 <= b -> k - m < b <= k -> Z.testbit x b = true).
Lemma top_step k m x : 0 < m -> top k m x -> top k (2 * m) (Z.lor x (Z.shiftr x m)).
Proof.
  intros Hm (H1 & H2). split; intros b Hb.
  - destruct (Z_lt_ge_dec b 0) as [L|G]; [apply Z.testbit_neg_r; assumption|].
    rewrite Z.lor_spec, Z.shiftr_spec, H1, H1 by lia. reflexivity.
  - intros Hk. rewrite Z.lor_spec, Z.shiftr_spec by lia.
    destruct (Z_lt_ge_dec (k - m) b) as [L|G].
    + rewrite H2 by lia. reflexivity.
    + rewrite (H2 (b + m)) by lia. apply orb_true_r.
Qed.
Lemma smear_spec v : 0 < v < two64 -> smear v = 2 ^ (Z.log2 v + 1) - 1.
Proof.
  intros Hv. set (k := Z.log2 v). assert (Hk : 0 <= k < 64).
  { unfold k. split; [apply Z.log2_nonneg|]. apply Z.log2_lt_pow2; unfold two64 in *; lia. }
  assert (T : top k 1 v).
  { split; intros b Hb.
    - apply Z.bits_above_log2; [lia|]. unfold k in Hb. lia.
    - intros Hb'. replace b with k by lia. apply Z.bit_log2. lia. }
  apply top_step in T; [|lia]. apply top_step in T; [|lia]. apply top_step in T; [|lia].
  apply top_step in T; [|lia]. apply top_step in T; [|lia]. apply top_step in T; [|lia].
  change (2 * 1) with 2 in T. change (2 * 2) with 4 in T. change (2 * 4) with 8 in T.
  change (2 * 8) with 16 in T. change (2 * 16) with 32 in T. change (2 * 32) with 64 in T.
  destruct T as (T1 & T2).
  replace (2 ^ (k + 1) - 1) with (Z.ones (k + 1)) by (rewrite Z.ones_equiv; lia).
  unfold smear. apply Z.bits_inj'. intros n Hn.
  destruct (Z_lt_ge_dec k n) as [L|G].
  - rewrite T1 by lia. symmetry. apply Z.ones_spec_high. lia.
  - rewrite T2 by lia. symmetry. apply Z.ones_spec_low. lia.
Qed.

Lemma table_ok : forallb (fun k => match rdz log2_table (Z.shiftr (wrapu64 (2 ^ Z.of_nat k * 571347909858961602)) 58) with
  | Ok l => l =? Z.of_nat k | _ => false end) (seq 0 64) = true.
Proof. vm_compute. reflexivity. Qed.
Lemma log2_spec v : 0 < v < two64 -> log2 v = Ok (Z.log2 v).
Proof.
  intros Hv. unfold log2. rewrite smear_spec by assumption. set (k := Z.log2 v).
  assert (Hk : 0 <= k < 64).
  { unfold k. split; [apply Z.log2_nonneg|]. apply Z.log2_lt_pow2; unfold two64 in *; lia. }
  assert (E : 2 ^ (k + 1) - 1 - Z.shiftr (2 ^ (k + 1) - 1) 1 = 2 ^ k).
  { rewrite Z.shiftr_div_pow2 by lia. rewrite Z.pow_add_r by lia. change (2 ^ 1) with 2.
    assert (0 < 2 ^ k) by (apply Z.pow_pos_nonneg; lia). set (p := 2 ^ k) in *. clearbody p. lia. }
  rewrite E. pose proof table_ok as T. rewrite forallb_forall in T.
  specialize (T (Z.to_nat k)). rewrite Z2Nat.id in T by lia.
  destruct (rdz _ _) as [l| | |]; try (discriminate T; apply in_seq; lia).
  f_equal. apply Z.eqb_eq, T. apply in_seq. lia.
Qed.
Lemma log2_pow b : 0 <= b < 64 -> log2 (2 ^ b) = Ok b.
Proof.
  intros H. rewrite log2_spec; [rewrite Z.log2_pow2 by lia; reflexivity|].
  split; [apply Z.pow_pos_nonneg; lia|]. unfold two64. change (2 ^ 64) with (2 ^ 64). apply Z.pow_lt_mono_r; lia.
Qed.

Lemma next_power_small i : 1 <= i <= 2 ^ 63 -> next_power_of_two i = 2 ^ Z.log2_up i.
Proof.
  intros H. unfold next_power_of_two, wrapu64. rewrite (Z.mod_small (i - 1)) by (unfold two64; lia).
  destruct (Z.eq_dec i 1) as [->|N]; [reflexivity|].
  rewrite smear_spec by (unfold two64; lia). rewrite Z.log2_up_eqn by lia.
  replace (Z.succ (Z.log2 (Z.pred i))) with (Z.log2 (i - 1) + 1) by (unfold Z.pred, Z.succ; reflexivity || (f_equal; lia)).
  replace (2 ^ (Z.log2 (i - 1) + 1) - 1 + 1) with (2 ^ (Z.log2 (i - 1) + 1)) by lia.
  apply Z.mod_small. split; [apply Z.pow_nonneg; lia|]. unfold two64. apply Z.pow_lt_mono_r; try lia.
  assert (Z.log2 (i - 1) < 63) by (apply Z.log2_lt_pow2; lia). lia.
Qed.
Lemma next_power_big i : 2 ^ 63 < i < two64 -> next_power_of_two i = 0.
Proof.
  intros H. unfold two64 in H. unfold next_power_of_two, wrapu64. rewrite (Z.mod_small (i - 1)) by (unfold two64; lia).
  rewrite smear_spec by (unfold two64; lia).
  assert (E : Z.log2 (i - 1) = 63).
  { apply Z.log2_unique; lia. }
  rewrite E. reflexivity.
Qed.

Lemma next_size_spec s : 1 <= s < two64 ->
  exists b, 1 <= b <= 63 /\ next_size_over s = Ok (2 ^ b, 64 - b) /\
    (s <= 2 ^ 63 -> s <= 2 ^ b /\ (b = 1 \/ 2 ^ b < 2 * s)) /\ (2 ^ 63 < s -> b = 1).
Proof.
  intros Hs. unfold next_size_over. destruct (Z_le_gt_dec s (2 ^ 63)) as [L|G].
  - rewrite next_power_small by lia. pose proof (Z.log2_up_nonneg s). set (u := Z.log2_up s) in *.
    assert (Hu : u <= 63). { unfold u. apply Z.log2_up_le_pow2; lia. }
    assert (S1 : s <= 2 ^ u). { unfold u. destruct (Z.eq_dec s 1) as [->|N]; [cbn; lia|]. apply Z.log2_up_spec. lia. }
    assert (S2 : u = 0 \/ 2 ^ u < 2 * s).
    { destruct (Z.eq_dec s 1) as [->|N]; [left; reflexivity|right].
      destruct (Z.log2_up_spec s ltac:(lia)) as (A & _). fold u in A.
      replace u with (Z.pred u + 1) at 1 by lia. rewrite Z.pow_add_r; try lia.
      - fold u in A. assert (0 < u) by (apply Z.log2_up_pos; lia). lia. }
    destruct (Z.eq_dec u 0) as [E|E].
    + rewrite E in *. exists 1. change (Z.max 2 (2 ^ 0)) with (2 ^ 1). rewrite log2_pow by lia. cbn [bind].
      split; [lia|]. split; [reflexivity|]. split; [intros _; split; [change (2 ^ 1) with 2; change (2 ^ 0) with 1 in S1; lia|left; reflexivity]|lia].
    + exists u. assert (2 ^ 1 <= 2 ^ u) by (apply Z.pow_le_mono_r; lia). change (2 ^ 1) with 2 in *.
      rewrite Z.max_r by lia. rewrite log2_pow by lia. cbn [bind]. split; [lia|]. split; [reflexivity|].
      split; [intros _; split; [assumption|right; destruct S2; [contradiction|assumption]]|lia].
  - rewrite next_power_big by lia. exists 1. change (Z.max 2 0) with (2 ^ 1). rewrite log2_pow by lia. cbn [bind].
    split; [lia|]. split; [reflexivity|]. split; [lia|reflexivity].
Qed.
Lemma max_lookups_pow b : 0 <= b < 64 -> compute_max_lookups (2 ^ b) = Ok (Z.max 4 b).
Proof. intros H. unfold compute_max_lookups. rewrite log2_pow by assumption. reflexivity. Qed.

Lemma to_double_small n : n < 2 ^ 53 -> to_double n = n.
Proof. intros H. unfold to_double. destruct (Z.ltb_spec n (2 ^ 53)); [reflexivity|lia]. Qed.
Lemma twice_small n : 0 <= n < 2 ^ 53 -> twice n = Ok (2 * n).
Proof.
  intros H. unfold twice. rewrite to_double_small by lia. destruct (Z.ltb_spec (2 * n) two64); [reflexivity|unfold two64 in *; lia].
Qed.
(** Rounding is to within half a unit, in particular positive numbers stay positive. *)
Lemma to_double_pos n : 0 < n -> 0 < to_double n.
Proof.
  intros H. unfold to_double. destruct (Z.ltb_spec n (2 ^ 53)) as [L|G]; [assumption|].
  assert (HL : 53 <= Z.log2 n) by (apply Z.log2_le_pow2; lia).
  destruct (Z.log2_spec n H) as (L1 & _).
  set (u := 2 ^ (Z.log2 n - 52)). assert (0 < u) by (apply Z.pow_pos_nonneg; lia).
  assert (u <= n). { unfold u. transitivity (2 ^ Z.log2 n); [apply Z.pow_le_mono_r; lia|assumption]. }
  assert (1 <= n / u) by (apply Z.div_le_lower_bound; lia).
  cbv zeta. destruct ((2 * (n mod u) <? u) || ((2 * (n mod u) =? u) && Z.even (n / u))); nia.
Qed.

Lemma pow2_gt n : 0 <= n -> n + 1 <= 2 ^ n.
Proof.
  intros H. pattern n. apply natlike_ind; [cbn; lia| |assumption]. intros x Hx IH. rewrite Z.pow_succ_r by assumption. lia.
Qed.

Lemma index_range h b : 1 <= b <= 63 -> 0 <= index_for_hash h (64 - b) < 2 ^ b.
Proof.
  intros H. unfold index_for_hash, wrapu64. set (w := (11400714819323198485 * h) mod two64).
  assert (0 <= w < two64) by (apply Z.mod_pos_bound; reflexivity). clearbody w.
  rewrite Z.shiftr_div_pow2 by lia. assert (0 < 2 ^ (64 - b)) by (apply Z.pow_pos_nonneg; lia).
  split; [apply Z.div_pos; lia|]. apply Z.div_lt_upper_bound; [lia|].
  rewrite <- Z.pow_add_r by lia. replace (64 - b + b) with 64 by lia. change (2 ^ 64) with two64. lia.
Qed.
