(** The random module: what its integer functions return, and how its state moves. *)
From Verif Require Import Base IntProofs RnModel RnSpec RnProofs.
Open Scope Z_scope.

(** A program of calls of random(), getrandbits, randrange, randint and gauss, on any state of the
    generator: its answers, values and exceptions, are those Python's functions give over the
    Mersenne Twister's sequence of that state, each rejection loop ending within [tries] draws
    exactly if Python's does; nothing else happens. *)
Theorem C60_programs_as_python :
  forall fl tries cs o, (0 < tries)%nat -> Forall small cs -> state (g_rng o) ->
  exists x, sequence_of (g_rng o) x /\
  let w := fun i => tempered (x i) in
  let p := Z.to_nat (r_idx (g_rng o)) in
    (exists out o' p', run fl tries cs o = Ok (out, o') /\ state (g_rng o')
       /\ py_run fl w tries cs p (g_next o) out p' (g_next o'))
    \/ (run fl tries cs o = OutOfFuel /\ forall out p' g', ~ py_run fl w tries cs p (g_next o) out p' g').
Proof. intros. apply state_run; assumption. Qed.
Print Assumptions C60_programs_as_python.

Definition fl0 : floats := Floats (fun a b => (a + b, a - b)) (fun mu z sigma => mu + z * sigma).
Definition state0 : rng := Rng 0 (map (fun i => Z.of_nat i * 65537 + 12345) (seq 0 624)).
Lemma state0_ok : state state0.
Proof.
  split; [reflexivity|]. split; [vm_compute; split; discriminate|]. cbn [state0 r_mt].
  apply Forall_forall. intros z H. apply in_map_iff in H. destruct H as (i & <- & H). apply in_seq in H. unfold word. lia.
Qed.
Example C60_programs_as_python_example :
  state state0 /\
  Forall small [CRandom; CBits 40; CBits (-3); CRange 10 None 1; CRange 50 (Some (-50)) (-7); CRange 0 (Some 0) 2;
                CInt (-3) 3; CInt 5 4; CGauss 1 2; CGauss 1 2]
  /\ exists out o', run fl0 20 [CBits 40; CBits (-3); CRange 10 None 1; CRange 50 (Some (-50)) (-7); CInt 5 4; CInt (-3) 3]
       (RObj state0 None) = Ok (out, o') /\ length out = 6%nat /\ nth 1 out (inl 0) = inr ValueError.
Proof.
  split; [apply state0_ok|]. split.
  - repeat (apply Forall_cons || apply Forall_nil); cbn [small]; unfold int64, two63; try exact Logic.I; lia.
  - eexists. eexists. split; [vm_compute; reflexivity|]. split; reflexivity.
Qed.

(** What a call returns lies where Python's documentation says. *)
Theorem C60_results_in_range :
  forall fl tries o v o', (0 < tries)%nat -> state (g_rng o) ->
    (forall a b, small (CInt a b) -> do_call fl tries (CInt a b) o = Ok (v, o') -> a <= v <= b)
    /\ (forall n, small (CRange n None 1) -> do_call fl tries (CRange n None 1) o = Ok (v, o') -> 0 <= v < n)
    /\ (forall a b s, small (CRange a (Some b) s) -> do_call fl tries (CRange a (Some b) s) o = Ok (v, o') ->
          exists k, 0 <= k /\ v = a + s * k /\ ((0 < s /\ a <= v < b) \/ (s < 0 /\ b < v <= a)))
    /\ (forall k, small (CBits k) -> do_call fl tries (CBits k) o = Ok (v, o') -> 0 <= v < 2 ^ k)
    /\ (do_call fl tries CRandom o = Ok (v, o') -> 0 <= v < 2 ^ 53).
Proof.
  intros fl tries o v o' Ht H. destruct (state_sequence _ H) as (x & (Hx & _) & Hw & Hd).
  pose proof (tempered_word x Hw) as Hw'.
  pose proof (fun c => do_call_ok (draws x) (fun i => tempered (x i)) Hw' (fun s q => draws_step x s q Hx Hw) fl tries c o _ Ht Hd) as G.
  assert (K : forall c, small c -> do_call fl tries c o = Ok (v, o') -> exists p' t,
    py_call fl (fun i => tempered (x i)) c (Z.to_nat (r_idx (g_rng o))) (g_next o) (inl v) p' (g_next o') t).
  { intros c Hs E. destruct (G c Hs) as [(v2 & p' & o2 & t & E2 & C & _)|[(e & E2 & _)|(E2 & _)]]; rewrite E in E2; try discriminate.
    injection E2 as -> ->. eauto. }
  clear G. repeat split.
  - destruct (K _ H0 H1) as (p' & t & C). inversion C; subst.
    match goal with B : py_below _ _ _ _ _ _ |- _ => apply (below_range _ Hw') in B; lia end.
  - destruct (K _ H0 H1) as (p' & t & C). inversion C; subst.
    match goal with B : py_below _ _ _ _ _ _ |- _ => apply (below_range _ Hw') in B; lia end.
  - destruct (K _ H0 H1) as (p' & t & C). inversion C; subst.
    match goal with B : py_below _ _ _ _ _ _ |- _ => apply (below_range _ Hw') in B; lia end.
  - destruct (K _ H0 H1) as (p' & t & C). inversion C; subst.
    match goal with B : py_below _ _ _ _ _ _ |- _ => apply (below_range _ Hw') in B; lia end.
  - intros a b s Hs E. destruct (K _ Hs E) as (p' & t & C). inversion C; subst.
    match goal with B : py_below _ _ _ ?r _ _ |- _ => apply (below_range _ Hw') in B; [|lia]; exists r; rename B into Hb end.
    split; [lia|]. split; [reflexivity|].
    match goal with Hn : s <> 0 |- _ => pose proof (range_bounds a b s _ Hn Hb) end. lia.
  - destruct (K _ H0 H1) as (p' & t & C). inversion C; subst.
    apply (py_bits_range (fun i => tempered (x i))); [exact Hw'|assumption].
  - destruct (K _ H0 H1) as (p' & t & C). inversion C; subst.
    apply (py_bits_range (fun i => tempered (x i))); [exact Hw'|assumption].
  - destruct (K CRandom Logic.I H0) as (p' & t & C). inversion C; subst. clear C K.
    pose proof (Hw' (Z.to_nat (r_idx (g_rng o)))) as A. pose proof (Hw' (S (Z.to_nat (r_idx (g_rng o))))) as B. unfold word in A, B.
    Z.div_mod_to_equations. lia.
  - destruct (K CRandom Logic.I H0) as (p' & t & C). inversion C; subst. clear C K.
    pose proof (Hw' (Z.to_nat (r_idx (g_rng o)))) as A. pose proof (Hw' (S (Z.to_nat (r_idx (g_rng o))))) as B. unfold word in A, B.
    Z.div_mod_to_equations. lia.
Qed.
Print Assumptions C60_results_in_range.

Example C60_results_in_range_example :
  exists v o', do_call fl0 20 (CInt (-3) 3) (RObj state0 None) = Ok (v, o') /\ -3 <= v <= 3.
Proof. eexists. eexists. split; [vm_compute; reflexivity|]. lia. Qed.

(** Refuted: getrandbits(64) may be negative; the number of bits is taken modulo 2^32; more than
    64 bits are refused (Python gives any number of bits, never a negative int). *)
Theorem C60_getrandbits_refuted :
  (exists s v s', state s /\ getrandbits 64 s = Ok (v, s') /\ v < 0)
  /\ (forall k s, getrandbits (k + 2 ^ 32) s = getrandbits k s)
  /\ (forall k s, 64 < k < 2 ^ 31 -> getrandbits k s = Exn ValueError).
Proof.
  split; [|split].
  - exists (Rng 0 (map (fun i => 2147483649 + Z.of_nat i) (seq 0 624))). eexists. eexists. split; [|split].
    + split; [reflexivity|]. split; [vm_compute; split; discriminate|]. cbn [r_mt].
      apply Forall_forall. intros z H. apply in_map_iff in H. destruct H as (i & <- & H). apply in_seq in H. unfold word. lia.
    + vm_compute. reflexivity.
    + reflexivity.
  - intros k s. unfold getrandbits, to_int. replace (k + 2 ^ 32 + 2 ^ 31) with (k + 2 ^ 31 + 1 * 2 ^ 32) by lia.
    rewrite Z_mod_plus_full. reflexivity.
  - intros k s H. unfold getrandbits, to_int. rewrite Z.mod_small by lia. replace (k + 2 ^ 31 - 2 ^ 31) with k by lia.
    replace (k <=? 0) with false by lia. replace (k <=? 32) with false by lia. replace (64 <? k) with true by lia. reflexivity.
Qed.
Print Assumptions C60_getrandbits_refuted.

(** Refuted: the largest int as the upper end of randint, and ends further apart than the
    largest int, overflow, whatever the state. *)
Theorem C60_wide_ranges_refuted :
  (forall tries a s, randint tries a (two63 - 1) s = UB)
  /\ (forall tries a b st s, ~ int64 (b - a) -> randrange tries a (Some b) st s = UB).
Proof.
  split.
  - intros tries a s. unfold randint. replace (chk64 (two63 - 1 + 1)) with (@OOB Z) by reflexivity. reflexivity.
  - intros tries a b st s H. unfold randrange. unfold chk64.
    replace (int64b (b - a)) with false; [reflexivity|]. unfold int64b, int64 in *. lia.
Qed.
Print Assumptions C60_wide_ranges_refuted.

(** However many words are drawn, they are the Mersenne Twister's: those of the sequence that
    starts with the state's words, from the state's index on. *)
Theorem C61_draws_are_the_twisters :
  forall n s, state s -> exists x s', sequence_of s x /\ (forall i, word (x i))
    /\ take_words n s = Ok (words_from x (Z.to_nat (r_idx s)) n, s') /\ state s'.
Proof.
  intros n s H. destruct (state_sequence _ H) as (x & Hx & Hw & Hd).
  destruct (take_words_ok x n (proj1 Hx) Hw s _ Hd) as (s' & E & H'). exists x, s'.
  split; [assumption|]. split; [assumption|]. split; [assumption|]. eapply draws_state; eassumption.
Qed.
Print Assumptions C61_draws_are_the_twisters.

Example C61_draws_are_the_twisters_example :
  state state0 /\ exists l s', take_words 3 state0 = Ok (l, s') /\ length l = 3%nat /\ NoDup l.
Proof.
  split; [apply state0_ok|]. eexists. eexists. split; [vm_compute; reflexivity|]. split; [reflexivity|].
  repeat constructor; cbn [In]; lia.
Qed.

(** The sequence is determined by the state. *)
Theorem C61_sequence_unique :
  forall s x x', sequence_of s x -> sequence_of s x' -> forall i, x i = x' i.
Proof.
  intros s x x' (Hx & Hn) (Hx' & Hn') i. pose proof m_small as Hm.
  induction i as [i IH] using (well_founded_induction Wf_nat.lt_wf).
  destruct (Nat.lt_ge_cases i mt_n) as [Hi|Hi].
  - pose proof (Hn i Hi) as A. rewrite (Hn' i Hi) in A. congruence.
  - replace i with (i - mt_n + mt_n)%nat by lia. rewrite Hx, Hx'. rewrite !IH by lia. reflexivity.
Qed.
Print Assumptions C61_sequence_unique.

(** Seeding with a key of words is the authors' init_by_array, for any key. *)
Theorem C61_key_seeding_as_defined :
  forall key, key <> [] -> (exists s, init_by_array key = Ok s)
    /\ forall s, (init_by_array key = Ok s <-> seeded mt_n key s) /\ (init_by_array key = Ok s -> state s).
Proof.
  intros key Hk. unfold init_by_array. rewrite NN_eq.
  split; [apply seeded_total; [apply n_large|assumption]|]. intros s. split; [apply init_by_array_iff; [apply n_large|assumption]|].
  intros E. eapply seeded_state. apply init_by_array_iff; [apply n_large|exact Hk|exact E].
Qed.
Print Assumptions C61_key_seeding_as_defined.

(** seed(n) for n of at most 32 bits: the state Python's seed(n) gives.  (The full property, for
    every int, fails: see the next theorems.) *)
Theorem C61_seed_as_python_partial :
  forall n key o, Z.abs n < 2 ^ 32 -> py_key (Z.abs n) key ->
    (exists s, seed_obj n o = Ok (RObj s None))
    /\ forall s, seed_obj n o = Ok (RObj s None) <-> seeded mt_n key s.
Proof.
  intros n key o H Hk.
  assert (Ek : seed_key (Z.abs n) = key).
  { rewrite py_key_small by lia. eapply py_key_fun; [|exact Hk]. apply py_key_one. lia. }
  assert (Hi : int64 n) by (unfold int64, two63; lia). assert (Hm : n <> - two63) by (unfold two63; lia).
  unfold seed_obj. split.
  - destruct (random_seed_total n Hi Hm) as (s & E). exists s. rewrite E. reflexivity.
  - intros s. rewrite <- Ek. rewrite <- random_seed_iff by assumption.
    destruct (random_seed n); cbn [bind]; split; intros E; try discriminate; injection E as <-; reflexivity.
Qed.
Print Assumptions C61_seed_as_python_partial.

Example C61_seed_as_python_partial_example : py_key (Z.abs (-7)) [7] /\ Z.abs (-7) < 2 ^ 32.
Proof. split; [apply py_key_one; cbn|]; lia. Qed.

(** Refuted: a seed of more than 32 bits gives the state of its two words the wrong way round,
    which is not the state Python's seed gives unless the two words are the same. *)
Theorem C61_long_seed_refuted :
  forall n key s, 2 ^ 32 <= Z.abs n < two63 -> py_key (Z.abs n) key -> random_seed n = Ok s ->
    seeded mt_n (rev key) s
    /\ (Z.abs n mod 2 ^ 32 <> Z.abs n / 2 ^ 32 -> ~ seeded mt_n key s).
Proof.
  intros n key s H Hk E. assert (Hi : int64 n) by (unfold int64, two63 in *; lia).
  assert (Hm : n <> - two63) by (unfold two63 in *; lia). apply random_seed_iff in E; [|assumption|assumption].
  rewrite seed_key_large in E by lia.
  assert (Ek : key = [Z.abs n mod 2 ^ 32; Z.abs n / 2 ^ 32]).
  { eapply py_key_fun; [exact Hk|]. apply py_key_two. unfold two63 in *; lia. }
  subst key. split; [exact E|]. intros Hne Hs.
  assert (Hq : 0 <= Z.abs n / 2 ^ 32 < 2 ^ 32).
  { split; [apply Z.div_pos; lia|apply Z.div_lt_upper_bound; unfold two63 in *; lia]. }
  pose proof (Z.mod_pos_bound (Z.abs n) (2 ^ 32) ltac:(lia)) as Hr.
  pose proof n_seven.
  assert (F : [Z.abs n mod 2 ^ 32; Z.abs n / 2 ^ 32] = [Z.abs n / 2 ^ 32; Z.abs n mod 2 ^ 32]).
  { eapply (seeded_inj mt_n); [| | | | |exact Hs|exact E].
    - repeat constructor; unfold word; lia.
    - repeat constructor; unfold word; lia.
    - reflexivity.
    - cbn; lia.
    - cbn [length]; lia. }
  injection F as F1 F2. contradiction.
Qed.
Print Assumptions C61_long_seed_refuted.

Example C61_long_seed_refuted_example :
  2 ^ 32 <= Z.abs (2 ^ 40 + 5) < two63 /\ py_key (2 ^ 40 + 5) [5; 256] /\ exists s, random_seed (2 ^ 40 + 5) = Ok s.
Proof.
  split; [unfold two63; lia|]. split; [apply (py_key_two (2 ^ 40 + 5)); lia|].
  apply random_seed_total; unfold int64, two63; lia.
Qed.

(** Refuted: the smallest int has no absolute value. *)
Theorem C61_smallest_seed_refuted : forall o, seed_obj (- two63) o = UB.
Proof. intros o. reflexivity. Qed.
Print Assumptions C61_smallest_seed_refuted.

(** Seeds on the same side of 2^32 give the same state exactly if they agree up to sign. *)
Theorem C61_distinct_seeds_partial :
  forall a b o, Z.abs a < two63 -> Z.abs b < two63 -> (Z.abs a < 2 ^ 32 <-> Z.abs b < 2 ^ 32) ->
    (seed_obj a o = seed_obj b o <-> Z.abs a = Z.abs b).
Proof.
  intros a b o Ha Hb Hs.
  assert (Ia : int64 a /\ a <> - two63) by (unfold int64, two63 in *; lia).
  assert (Ib : int64 b /\ b <> - two63) by (unfold int64, two63 in *; lia).
  destruct (random_seed_total a (proj1 Ia) (proj2 Ia)) as (s & Ea). destruct (random_seed_total b (proj1 Ib) (proj2 Ib)) as (s' & Eb).
  unfold seed_obj. rewrite Ea, Eb. cbn [bind]. split.
  - intros E. injection E as <-. apply random_seed_iff in Ea; [|tauto|tauto]. apply random_seed_iff in Eb; [|tauto|tauto].
    eapply same_state; try eassumption; lia.
  - intros E. f_equal. f_equal. apply random_seed_iff in Ea; [|tauto|tauto]. rewrite E in Ea.
    apply random_seed_iff in Ea; [|tauto|tauto]. congruence.
Qed.
Print Assumptions C61_distinct_seeds_partial.

Example C61_distinct_seeds_partial_example :
  seed_obj 41 (RObj state0 None) <> seed_obj 42 (RObj state0 None) /\ seed_obj (-41) (RObj state0 None) = seed_obj 41 (RObj state0 None).
Proof.
  assert (P : 41 < two63 /\ 42 < two63) by (unfold two63; lia).
  split; [intros E; apply C61_distinct_seeds_partial in E; cbn in *; lia|].
  apply C61_distinct_seeds_partial; cbn in *; lia.
Qed.

(** Refuted: a short seed and a long one may give the same state (here, and with the words the
    other way round in Python, n and n, n - 1). *)
Theorem C61_distinct_seeds_refuted :
  forall n o, 1 <= n < 2 ^ 31 -> n <> n * 2 ^ 32 + n - 1 /\ seed_obj n o = seed_obj (n * 2 ^ 32 + n - 1) o.
Proof.
  intros n o H. split; [lia|]. set (b := n * 2 ^ 32 + n - 1).
  assert (Ia : int64 n /\ n <> - two63) by (unfold int64, two63 in *; lia).
  assert (Ib : int64 b /\ b <> - two63) by (unfold b, int64, two63 in *; lia).
  destruct (random_seed_total n (proj1 Ia) (proj2 Ia)) as (s & Ea). unfold seed_obj. rewrite Ea.
  assert (Eb : random_seed b = Ok s); [|rewrite Eb; reflexivity].
  apply random_seed_iff in Ea; [|tauto|tauto]. apply random_seed_iff; [tauto|tauto|].
  replace (Z.abs n) with n in Ea by lia. replace (Z.abs b) with b by (unfold b; lia).
  rewrite py_key_small in Ea by lia. rewrite seed_key_large by (unfold b; lia).
  replace (b / 2 ^ 32) with n by (apply (Z.div_unique _ _ _ (n - 1)); unfold b; lia).
  replace (b mod 2 ^ 32) with (n - 1) by (apply (Z.mod_unique _ _ n); unfold b; lia).
  apply collide; [apply n_large|exact Ea].
Qed.
Print Assumptions C61_distinct_seeds_refuted.

(** getstate and setstate: whatever was done in between, and with whatever object, the state is
    the saved one, and any program answers as it would have then. *)
Theorem C61_state_saved_and_restored :
  forall o other, state (g_rng o) ->
    setstate (getstate o) other = (Ok tt, o)
    /\ forall fl tries cs, run fl tries cs (snd (setstate (getstate o) other)) = run fl tries cs o.
Proof.
  intros o other H. assert (E : setstate (getstate o) other = (Ok tt, o)).
  { unfold setstate, getstate. cbn [Z.eqb Pos.eqb negb]. rewrite restore by assumption. destruct o. reflexivity. }
  rewrite E. auto.
Qed.
Print Assumptions C61_state_saved_and_restored.

Example C61_state_saved_and_restored_example :
  setstate (getstate (RObj state0 (Some 5))) (RObj (Rng 3 []) None) = (Ok tt, RObj state0 (Some 5)).
Proof. apply C61_state_saved_and_restored. apply state0_ok. Qed.

(** Any history of seeding, setstate with any argument and programs of calls keeps a state the
    other theorems speak of, and nothing undefined happens. *)
Theorem C61_histories_safe :
  forall fl tries sts o, (0 < tries)%nat -> Forall step_ok sts -> state (g_rng o) ->
    (exists o', exec fl tries sts o = Ok o' /\ state (g_rng o')) \/ exec fl tries sts o = OutOfFuel.
Proof. intros. apply exec_ok; assumption. Qed.
Print Assumptions C61_histories_safe.

Example C61_histories_safe_example :
  Forall step_ok [SSeed 42; SCalls [CInt 1 6; CBits 5]; SSet (3, [1; 2], None); SSeedNone [1; 2; 3]; SSet (2, [], Some 4)].
Proof. repeat constructor; cbn; unfold int64, two63; try lia; try discriminate. Qed.

(** Refuted: a state with a word -1 is not refused but left out without a sign, except for its
    gauss variate (Python raises). *)
Theorem C61_bad_state_refuted :
  forall words next o, length words = S mt_n -> In (-1) (firstn mt_n words) ->
    setstate (3, words, next) o = (Ok tt, RObj (g_rng o) next).
Proof.
  intros words next o Hl Hin. unfold setstate. cbn [Z.eqb Pos.eqb negb]. unfold setstate_impl. rewrite NN_eq, Hl.
  replace (Z.of_nat (S mt_n) =? Z.of_nat mt_n + 1) with true by lia. cbn [negb].
  replace (existsb (fun e => e =? -1) (firstn mt_n words)) with true; [reflexivity|].
  symmetry. apply existsb_exists. exists (-1). split; [assumption|reflexivity].
Qed.
Print Assumptions C61_bad_state_refuted.

(** Refuted: seed() without a seed does not forget the normal variate gauss keeps: the first
    gauss after it answers with the variate drawn before (Python's is drawn after). *)
Theorem C61_seed_none_refuted :
  forall fl entropy s z, entropy <> [] -> exists s', seed_none entropy (RObj s (Some z)) = Ok (RObj s' (Some z))
    /\ forall mu sigma, gauss fl mu sigma (RObj s' (Some z)) = Ok (scaled fl mu z sigma, RObj s' None).
Proof.
  intros fl entropy s z H. unfold seed_none, init_by_array. rewrite NN_eq.
  destruct (seeded_total mt_n entropy n_large H) as (s' & E). rewrite E. cbn [bind g_next]. exists s'. auto.
Qed.
Print Assumptions C61_seed_none_refuted.
