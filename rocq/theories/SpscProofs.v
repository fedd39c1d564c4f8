(** Proofs about SPSCBoundedQueue. *)
From Coq Require Import Znumtheory.
From Verif Require Import Base ListAux QueueModel QueueSpec MpmcProofs.
Ltac Zify.zify_post_hook ::= idtac.

Section Spsc.
Context {V : Type}.
Notation spsc := (spsc V).
Variable n : Z.
Hypothesis POW : exists k, 0 <= k <= 63 /\ n = 2 ^ k.

Lemma n_pos : 1 <= n.
Proof. destruct POW as (k & K & ->). apply (Z.pow_le_mono_r 2 0); lia. Qed.
Lemma n_div : (n | two64).
Proof.
  destruct POW as (k & K & ->). exists (2 ^ (64 - k)). unfold two64. change (Z.pow_pos 2 64) with (2 ^ 64).
  rewrite <- Z.pow_add_r by lia. f_equal. lia.
Qed.
Lemma wrap_mod x : wrapu64 x mod n = x mod n.
Proof. unfold wrapu64. symmetry. apply Zmod_div_mod; [pose proof n_pos; lia|reflexivity|exact n_div]. Qed.
Lemma land_mod x : Z.land x (n - 1) = x mod n.
Proof. destruct POW as (k & K & ->). rewrite <- Z.land_ones by lia. f_equal. rewrite Z.ones_equiv. lia. Qed.
Lemma sub_mod a b : (wrapu64 a - wrapu64 b) mod n = (a - b) mod n.
Proof. pose proof n_pos. rewrite Zminus_mod, !wrap_mod, <- Zminus_mod. reflexivity. Qed.

Definition sent (s : spsc) : list V := accepted (presults s).
Definition rcvd (s : spsc) : list V := got (cresults s).
Definition hh (s : spsc) : Z := Z.of_nat (length (sent s)).
Definition tt_ (s : spsc) : Z := Z.of_nat (length (rcvd s)).
Definition holds (s : spsc) (i : Z) (v : V) : Prop := nth_error (buffer s) (Z.to_nat (i mod n)) = Some (Some v).

Record sinv (s : spsc) : Prop := {
  s_mask : mask s = n - 1;
  s_len : Z.of_nat (length (buffer s)) = n + 1;
  s_pre : rcvd s = firstn (length (rcvd s)) (sent s);
  s_cnt : tt_ s <= hh s <= tt_ s + n - 1;
  s_head : head_ s = wrapu64 (hh s);
  s_tail : tail_ s = wrapu64 (tt_ s);
  s_buf : forall i v, tt_ s <= i < hh s -> nth_error (sent s) (Z.to_nat i) = Some v -> holds s i v;
  s_prod : match prod s with
    | PTail _ h => h = head_ s
    | PWrite _ h => h = head_ s /\ hh s - tt_ s <= n - 2
    | PStore v h => h = head_ s /\ hh s - tt_ s <= n - 2 /\ holds s (hh s) v
    | _ => True end;
  s_cons : match cons_ s with
    | CHead t => t = tail_ s
    | CRead t => t = tail_ s /\ tt_ s < hh s
    | CStore t v => t = tail_ s /\ nth_error (sent s) (Z.to_nat (tt_ s)) = Some v
    | _ => True end }.

Lemma sent_app (s : spsc) r : accepted (presults s ++ [r]) = sent s ++ accepted [r].
Proof. unfold sent, accepted. rewrite map_app, concat_app. reflexivity. Qed.
Lemma rcvd_app (s : spsc) r : got (cresults s ++ [r]) = rcvd s ++ got [r].
Proof. unfold rcvd, got. rewrite map_app, concat_app. reflexivity. Qed.

Lemma full_test s : sinv s -> Z.land (wrapu64 (tail_ s - wrapu64 (head_ s + 1))) (mask s) = n - 1 - (hh s - tt_ s).
Proof.
  intros I. rewrite (s_mask _ I), land_mod, wrap_mod, (s_tail _ I), (s_head _ I), sub_mod.
  pose proof n_pos. pose proof (s_cnt _ I).
  assert (E : (tt_ s - (wrapu64 (hh s) + 1)) mod n = (tt_ s - (hh s + 1)) mod n).
  { rewrite (Zminus_mod (tt_ s) (wrapu64 (hh s) + 1)), (Zplus_mod (wrapu64 (hh s))), wrap_mod, <- Zplus_mod, <- Zminus_mod. reflexivity. }
  rewrite E. symmetry. apply (Z.mod_unique _ n (-1)); lia.
Qed.
Lemma empty_test s : sinv s -> Z.land (wrapu64 (head_ s - tail_ s)) (mask s) = hh s - tt_ s.
Proof.
  intros I. rewrite (s_mask _ I), land_mod, wrap_mod, (s_tail _ I), (s_head _ I), sub_mod.
  pose proof n_pos. pose proof (s_cnt _ I). apply Z.mod_small. lia.
Qed.
Lemma inc_wrap x : wrapu64 (wrapu64 x + 1) = wrapu64 (x + 1).
Proof. unfold wrapu64. rewrite Zplus_mod_idemp_l. reflexivity. Qed.
Lemma slot_ok s i : sinv s -> exists c, rdz (buffer s) (Z.land (wrapu64 i) (mask s)) = Ok c /\ nth_error (buffer s) (Z.to_nat (i mod n)) = Some c /\ Z.land (wrapu64 i) (mask s) = i mod n.
Proof.
  intros I. pose proof n_pos. rewrite (s_mask _ I), land_mod, wrap_mod. pose proof (Z.mod_pos_bound i n ltac:(lia)). pose proof (s_len _ I).
  unfold rdz, rd. destruct (Z.ltb_spec (i mod n) 0); [lia|]. destruct (nth_error (buffer s) (Z.to_nat (i mod n))) as [c|] eqn:E; [eauto|].
  apply nth_error_None in E. lia.
Qed.

Ltac fl := cbn [buffer mask head_ tail_ to_send to_recv prod cons_ presults cresults].
Lemma pstep_ok s : sinv s -> exists s', pstep s = Ok s' /\ sinv s'.
Proof.
  intros I. pose proof n_pos as NP. pose proof (s_cnt _ I) as CN. unfold pstep. pose proof (s_prod _ I) as SP. destruct (prod s) as [|v|v h|v h|v h] eqn:P.
  - destruct (to_send s) as [|v r]; [eauto|]. eexists. split; [reflexivity|]. destruct I. split; auto.
  - eexists. split; [reflexivity|]. destruct I. unfold pset. split; unfold hh, tt_, sent, rcvd in *; fl; rewrite ?app_nil_r; auto.
  - subst h. rewrite (full_test s I). destruct (Z.geb_spec (n - 1 - (hh s - tt_ s)) 1) as [G|G]; (eexists; split; [reflexivity|]); destruct I; unfold pset.
    + split; unfold hh, tt_, sent, rcvd in *; fl; rewrite ?app_nil_r; auto. split; [reflexivity|lia].
    + assert (E : accepted (presults s ++ [REnqueue v false]) = sent s) by (rewrite sent_app; apply app_nil_r).
      split; unfold hh, tt_, sent, rcvd in *; fl; rewrite ?E; auto.
  - destruct SP as [-> L]. destruct (slot_ok s (hh s) I) as (c & R & N & LM). pose proof (s_head _ I) as HE. rewrite <- HE in R, LM. rewrite R. cbn [bind]. eexists. split; [reflexivity|].
    rewrite LM. assert (HL : (Z.to_nat (hh s mod n) < length (buffer s))%nat) by (apply nth_error_Some; congruence).
    destruct I. split; unfold hh, tt_, sent, rcvd in *; fl; auto.
    + rewrite lset_length. auto.
    + intros i w Hi Hn. unfold holds. cbn. rewrite nth_lset_ne; [exact (s_buf0 i w Hi Hn)|]. intros E.
      pose proof (Z.mod_pos_bound i n ltac:(lia)). pose proof (Z.mod_pos_bound (Z.of_nat (length (accepted (presults s)))) n ltac:(lia)).
      assert (M : Z.of_nat (length (accepted (presults s))) mod n = i mod n) by lia.
      pose proof (mod_near _ _ n ltac:(lia) M ltac:(lia)). lia.
    + split; [reflexivity|]. split; [exact L|]. unfold holds. cbn. apply nth_lset_eq. exact HL.
  - destruct SP as (-> & L & B). eexists. split; [reflexivity|]. 
    assert (E : accepted (presults s ++ [REnqueue v true]) = sent s ++ [v]) by (rewrite sent_app; reflexivity).
    assert (EL : Z.of_nat (length (accepted (presults s ++ [REnqueue v true]))) = hh s + 1) by (rewrite E, app_length; unfold hh; cbn; lia).
    assert (RL : (length (rcvd s) <= length (sent s))%nat) by (unfold hh, tt_ in CN; lia).
    destruct I. split; unfold hh, tt_, sent, rcvd in *; fl; rewrite ?EL; auto; try lia.
    + rewrite E, firstn_app, s_pre0 at 1. replace (length (got (cresults s)) - length (accepted (presults s)))%nat with 0%nat by lia. cbn. rewrite app_nil_r. reflexivity.
    + rewrite s_head0. apply inc_wrap.
    + rewrite E. intros i w Hi Hn. destruct (Z.eq_dec i (Z.of_nat (length (accepted (presults s))))) as [->|NE].
      * rewrite nth_error_app2 in Hn by lia. rewrite Nat2Z.id, Nat.sub_diag in Hn. injection Hn as ->. exact B.
      * rewrite nth_error_app1 in Hn by lia. apply (s_buf0 i w); [lia|exact Hn].
    + rewrite E. destruct (cons_ s); auto.
      * destruct s_cons0. split; [assumption|lia].
      * destruct s_cons0 as [X Y]. split; [exact X|]. rewrite nth_error_app1; [exact Y|]. apply nth_error_Some. congruence.
Qed.
Lemma cstep_ok s : sinv s -> exists s', cstep s = Ok s' /\ sinv s'.
Proof.
  intros I. pose proof n_pos as NP. pose proof (s_cnt _ I) as CN. unfold cstep. pose proof (s_cons _ I) as SP. destruct (cons_ s) as [| |t|t|t v] eqn:P.
  - destruct (to_recv s) as [|m]; [eauto|]. eexists. split; [reflexivity|]. destruct I. split; auto.
  - eexists. split; [reflexivity|]. destruct I. unfold cset. split; unfold hh, tt_, sent, rcvd in *; fl; rewrite ?app_nil_r; auto.
  - subst t. rewrite (empty_test s I). destruct (Z.geb_spec (hh s - tt_ s) 1) as [G|G]; (eexists; split; [reflexivity|]); destruct I; unfold cset.
    + split; unfold hh, tt_, sent, rcvd in *; fl; rewrite ?app_nil_r; auto. split; [reflexivity|lia].
    + assert (E : got (cresults s ++ [RDequeue None]) = rcvd s) by (rewrite rcvd_app; apply app_nil_r).
      split; unfold hh, tt_, sent, rcvd in *; fl; rewrite ?E; auto.
  - destruct SP as [-> L]. destruct (slot_ok s (tt_ s) I) as (c & R & N & LM). pose proof (s_tail _ I) as HE. rewrite <- HE in R, LM. rewrite R. cbn [bind].
    assert (V0 : exists v, nth_error (sent s) (Z.to_nat (tt_ s)) = Some v).
    { destruct (nth_error (sent s) (Z.to_nat (tt_ s))) as [v|] eqn:Q; [eauto|]. apply nth_error_None in Q. unfold hh, tt_ in L, Q. lia. }
    destruct V0 as (v & V0). pose proof (s_buf _ I (tt_ s) v ltac:(lia) V0) as B. unfold holds in B. rewrite N in B. injection B as ->.
    eexists. split; [reflexivity|]. destruct I. unfold cset. split; unfold hh, tt_, sent, rcvd in *; fl; rewrite ?app_nil_r; auto.
  - destruct SP as (-> & B). eexists. split; [reflexivity|].
    assert (E : got (cresults s ++ [RDequeue (Some v)]) = rcvd s ++ [v]) by (rewrite rcvd_app; reflexivity).
    assert (EL : Z.of_nat (length (got (cresults s ++ [RDequeue (Some v)]))) = tt_ s + 1) by (rewrite E, app_length; unfold tt_; cbn; lia).
    assert (HL : tt_ s < hh s). { assert (X : (Z.to_nat (tt_ s) < length (sent s))%nat) by (apply nth_error_Some; congruence). unfold hh, tt_ in *. lia. }
    destruct I. split; unfold hh, tt_, sent, rcvd in *; fl; rewrite ?EL; auto; try lia.
    + rewrite E, app_length. cbn [length]. rewrite Nat2Z.id in B. rewrite s_pre0 at 1.
      clear - B. revert B. generalize (length (got (cresults s))), (accepted (presults s)). intros m l. revert m. induction l as [|x l IH]; intros [|m]; cbn; intros B; try discriminate.
      * injection B as ->. reflexivity.
      * f_equal. apply IH, B.
    + rewrite s_tail0. apply inc_wrap.
    + intros i w Hi Hn. apply (s_buf0 i w); [lia|exact Hn].
    + destruct (prod s); auto.
      * destruct s_prod0 as [X Y]. split; [exact X|lia].
      * destruct s_prod0 as (X & Y & Q). split; [exact X|]. split; [lia|exact Q].
Qed.
Lemma srun_ok sched : forall s, sinv s -> exists s', srun s sched = Ok s' /\ sinv s'.
Proof.
  induction sched as [|b sched IH]; intros s I; cbn [srun]; [eauto|].
  assert (S : exists s', (if b then pstep s else cstep s) = Ok s' /\ sinv s') by (destruct b; [apply pstep_ok|apply cstep_ok]; exact I).
  destruct S as (s' & -> & I'). cbn [bind]. apply IH, I'.
Qed.
Lemma sstart size values m s : Z.of_nat size = n -> smake size values m = Ok s -> sinv s.
Proof.
  intros SZ E. pose proof n_pos. unfold smake in E. destruct (_ && _); [|discriminate]. injection E as <-.
  split; cbn; auto; try lia.
  - rewrite repeat_length. lia.
Qed.
End Spsc.

Lemma smake_pow {V} size (values : list V) m s : Z.of_nat size < two64 -> smake size values m = Ok s -> exists k, 0 <= k <= 63 /\ Z.of_nat size = 2 ^ k.
Proof.
  intros B. unfold smake. destruct (_ && _) eqn:E; [|discriminate]. intros _. apply andb_true_iff in E. destruct E as [A C].
  apply negb_true_iff, Z.eqb_neq in A. apply Z.eqb_eq in C. remember (Z.of_nat size) as z. assert (Z1 : 1 <= z) by lia. clear - B C Z1.
  assert (W : wrapu64 (two64 - 1 - z + 1) = two64 - z) by (unfold wrapu64; rewrite Z.mod_small; lia). rewrite W in C.
  assert (L : Z.land z (z - 1) = 0).
  { apply Z.bits_inj'. intros i Hi. rewrite Z.bits_0, Z.land_spec.
    destruct (Z.testbit z i) eqn:T1; [|reflexivity]. cbn.
    assert (I64 : i < 64). { destruct (Z.lt_ge_cases i 64) as [X|X]; [exact X|]. exfalso. rewrite Z.bits_above_log2 in T1; [discriminate|lia|]. apply Z.log2_lt_pow2; [lia|]. apply Z.lt_le_trans with two64; [exact B|]. unfold two64. apply (Z.pow_le_mono_r 2 64); lia. }
    assert (T2 : Z.testbit (two64 - z) i = true). { rewrite <- C in T1. rewrite Z.land_spec in T1. apply andb_true_iff in T1. apply T1. }
    replace (two64 - z) with (Z.lnot (z - 1) + 1 * 2 ^ 64) in T2 by (unfold Z.lnot, two64; lia).
    rewrite <- (Z.mod_pow2_bits_low _ 64) in T2 by lia. rewrite Z.mod_add in T2 by lia. rewrite Z.mod_pow2_bits_low in T2 by lia.
    rewrite Z.lnot_spec in T2 by lia. apply negb_true_iff in T2. exact T2. }
  exists (Z.log2 z). split; [|apply pow2_land; assumption]. split; [apply Z.log2_nonneg|].
  assert (Z.log2 z < 64); [|lia]. apply Z.log2_lt_pow2; [lia|]. unfold two64 in B. exact B.
Qed.
