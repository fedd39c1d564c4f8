(** Proofs about MPMCBoundedQueue. *)
From Coq Require Import Sorted.
From Verif Require Import Base ListAux QueueModel QueueSpec.
Ltac Zify.zify_post_hook ::= Z.to_euclidean_division_equations.

Lemma wrapu64_id z : 0 <= z < 2 ^ 64 -> wrapu64 z = z.
Proof. intros H. unfold wrapu64, two64. apply Z.mod_small. exact H. Qed.
Lemma wraps64_id z : 0 <= z < 2 ^ 63 -> wraps64 z = z.
Proof. intros H. unfold wraps64, two64, two63. rewrite Z.mod_small; lia. Qed.
Lemma diff_id a b : 0 <= a < 2 ^ 63 -> 0 <= b < 2 ^ 63 -> diff a b = a - b.
Proof. intros A B. unfold diff. rewrite !wraps64_id by assumption. reflexivity. Qed.

Lemma mod_near a b n : 0 < n -> a mod n = b mod n -> - n < a - b < n -> a = b.
Proof.
  intros Hn H L. pose proof (Z.div_mod a n ltac:(lia)). pose proof (Z.div_mod b n ltac:(lia)).
  assert (a - b = n * (a / n - b / n)) by (rewrite Z.mul_sub_distr_l; lia).
  assert (a / n - b / n = 0); [|nia].
  remember (a / n - b / n) as q. clear - Hn L H2. destruct (Z.lt_trichotomy q 0) as [Q|[Q|Q]]; [exfalso; nia|exact Q|exfalso; nia].
Qed.

Lemma nodup_snoc {A} (l : list A) x : NoDup l -> ~ In x l -> NoDup (l ++ [x]).
Proof.
  intros H N. apply NoDup_rev in H. rewrite <- (rev_involutive (l ++ [x])). apply NoDup_rev. rewrite rev_app_distr. cbn.
  constructor; [|exact H]. intros E. apply in_rev in E. exact (N E).
Qed.

Section Mpmc.
Context {V : Type}.
Notation mpmc := (mpmc V).
Variable cap : Z.
Hypothesis CAP : exists k, 1 <= k /\ cap = 2 ^ k.
Hypothesis CAPB : cap <= 2 ^ 62.

Lemma cap2 : 2 <= cap.
Proof. destruct CAP as (k & Hk & ->). replace 2 with (2 ^ 1) by reflexivity. apply Z.pow_le_mono_r; lia. Qed.

Definition at_ (s : mpmc) (p : Z) (c : cell V) : Prop := nth_error (cells s) (Z.to_nat (p mod cap)) = Some c.
Definition ins (s : mpmc) (p : Z) (v : V) : Prop := exists t, nth_error (inserted s) (Z.to_nat p) = Some (t, v).

(** The position a thread has claimed and not yet released. *)
Definition ehold (p : pc V) : option Z := match p with EWrite _ pos | EPublish _ pos => Some pos | _ => None end.
Definition dhold (p : pc V) : option Z := match p with DRead pos | DPublish pos _ => Some pos | _ => None end.
Definition hold (p : pc V) : option Z := match ehold p with Some x => Some x | None => dhold p end.

Definition tinv (s : mpmc) (p : pc V) : Prop :=
  match p with
  | Idle | ELoad _ _ | DLoad _ => True
  | ESeq _ _ pos => 0 <= pos <= epos s
  | ECas _ _ pos => 0 <= pos <= epos s /\ (epos s = pos -> exists c, at_ s pos c /\ seq c = pos)
  | EWrite v pos => dpos s <= pos < epos s /\ ins s pos v /\ exists c, at_ s pos c /\ seq c = pos
  | EPublish v pos => dpos s <= pos < epos s /\ ins s pos v /\ exists c, at_ s pos c /\ seq c = pos /\ data c = Some v
  | DSeq _ pos => 0 <= pos <= dpos s
  | DCas _ pos => 0 <= pos <= dpos s /\ (dpos s = pos -> exists c, at_ s pos c /\ seq c = pos + 1)
  | DRead pos => epos s - cap <= pos < dpos s /\ 0 <= pos /\ (exists c v, at_ s pos c /\ seq c = pos + 1 /\ data c = Some v /\ ins s pos v)
  | DPublish pos v => epos s - cap <= pos < dpos s /\ 0 <= pos /\ exists c, at_ s pos c /\ seq c = pos + 1
  | _ => False
  end.

Definition inflight (p : pc V) : list V := match p with EWrite v _ | EPublish v _ => [v] | _ => [] end.
Definition moved (p : pc V) : list V := match p with DPublish _ v => [v] | _ => [] end.

Record inv (s : mpmc) : Prop := {
  i_len : Z.of_nat (length (cells s)) = cap;
  i_pos : 0 <= dpos s <= epos s /\ epos s <= dpos s + cap;
  i_ins : Z.of_nat (length (inserted s)) = epos s;
  i_thr : forall t th, nth_error (threads s) t = Some th -> tinv s (at_pc th);
  i_uniq : forall t t' th th' p, nth_error (threads s) t = Some th -> nth_error (threads s) t' = Some th' ->
    hold (at_pc th) = Some p -> hold (at_pc th') = Some p -> t = t';
  i_cell : forall p, epos s - cap <= p < epos s -> exists c, at_ s p c /\
    (dpos s <= p -> (seq c = p + 1 /\ exists v, data c = Some v /\ ins s p v) \/
       (seq c = p /\ exists t th, nth_error (threads s) t = Some th /\ ehold (at_pc th) = Some p)) /\
    (p < dpos s -> seq c = p + cap \/ (seq c = p + 1 /\ exists t th, nth_error (threads s) t = Some th /\ dhold (at_pc th) = Some p));
  i_prog : forall t th, nth_error (threads s) t = Some th -> Forall no_bulk (prog th) }.

(** What has happened, thread by thread. *)
Record hist (s : mpmc) : Prop := {
  h_rem : forall t p v, In (t, (p, v)) (removed s) -> 0 <= p < dpos s /\ ins s p v;
  h_nodup : NoDup (map (fun x => fst (snd x)) (removed s));
  h_read : forall t th p, nth_error (threads s) t = Some th -> at_pc th = DRead p -> ~ In p (map (fun x => fst (snd x)) (removed s));
  h_all : forall p, 0 <= p < dpos s -> In p (map (fun x => fst (snd x)) (removed s)) \/
     exists t th, nth_error (threads s) t = Some th /\ at_pc th = DRead p;
  h_enq : forall t th, nth_error (threads s) t = Some th ->
     by_thread t (inserted s) = accepted (results th) ++ inflight (at_pc th);
  h_deq : forall t th, nth_error (threads s) t = Some th ->
     map snd (by_thread t (removed s)) = got (results th) ++ moved (at_pc th);
  h_order : forall t, StronglySorted Z.lt (map fst (by_thread t (removed s)));
  h_last : forall t th p, nth_error (threads s) t = Some th -> at_pc th = DRead p ->
     Forall (fun q => q < p) (map fst (by_thread t (removed s)));
  h_tid : Forall (fun x => fst x < length (threads s))%nat (inserted s) /\ Forall (fun x => fst x < length (threads s))%nat (removed s) }.

Lemma slot_mod s p : inv s -> slot s p = p mod cap.
Proof.
  intros I. unfold slot. rewrite (i_len _ I). destruct CAP as (k & Hk & ->).
  rewrite <- Z.land_ones by lia. f_equal. rewrite Z.ones_equiv. lia.
Qed.
Lemma at_some s p : inv s -> exists c, at_ s p c /\ rdz (cells s) (slot s p) = Ok c.
Proof.
  intros I. pose proof cap2. rewrite slot_mod by exact I. pose proof (Z.mod_pos_bound p cap ltac:(lia)) as B.
  unfold at_, rdz, rd. destruct (nth_error (cells s) (Z.to_nat (p mod cap))) as [c|] eqn:E.
  - exists c. split; [reflexivity|]. destruct (Z.ltb_spec (p mod cap) 0); [lia|]. reflexivity.
  - exfalso. apply nth_error_None in E. pose proof (i_len _ I). lia.
Qed.
Lemma at_fun s p c c' : at_ s p c -> at_ s p c' -> c = c'.
Proof. unfold at_. congruence. Qed.
Lemma at_cong s p q c : p mod cap = q mod cap -> at_ s p c -> at_ s q c.
Proof. unfold at_. intros ->. auto. Qed.

(** The cell of any position up to the next one: what its sequence number can be. *)
Lemma near_mod p q E : E - cap <= p < E -> E - cap <= q < E -> p mod cap = q mod cap -> p = q.
Proof. intros A B M. pose proof cap2. apply (mod_near p q cap); lia. Qed.

(** *** Steps that only move a thread that holds nothing *)
Lemma go_inv s t th p th' : inv s -> nth_error (threads s) t = Some th -> hold (at_pc th) = None ->
  hold (at_pc th') = None -> tinv s (at_pc th') -> Forall no_bulk (prog th') -> p = th' ->
  inv {| cells := cells s; epos := epos s; dpos := dpos s; threads := lset (threads s) t p;
         inserted := inserted s; removed := removed s |}.
Proof.
  intros I ET H0 H1 TI NB ->. assert (HT : (t < length (threads s))%nat) by (apply nth_error_Some; congruence).
  assert (H0e : ehold (at_pc th) = None /\ dhold (at_pc th) = None) by (unfold hold in H0; destruct (ehold (at_pc th)); [discriminate|auto]).
  destruct I as [I1 I2 I3 I4 I5 I6 I7].
  split; cbn [cells epos dpos threads inserted removed]; auto.
  - intros t' u E. apply nth_lset_inv in E. destruct E as [(-> & -> & _)|(N & E)]; [exact TI|exact (I4 _ _ E)].
  - intros a b ta tb q Ea Eb Ha Hb. apply nth_lset_inv in Ea, Eb.
    destruct Ea as [(-> & -> & _)|(Na & Ea)]; [congruence|]. destruct Eb as [(-> & -> & _)|(Nb & Eb)]; [congruence|]. eauto.
  - intros q Hq. destruct (I6 q Hq) as (c & A & B & C). exists c. split; [exact A|]. split.
    + intros D. destruct (B D) as [B'|(B1 & t' & u & E & F)]; [left; exact B'|right]. split; [exact B1|]. exists t', u.
      split; [|exact F]. rewrite nth_lset_ne; [exact E|]. intros <-. rewrite ET in E. injection E as <-. destruct H0e. congruence.
    + intros D. destruct (C D) as [C'|(C1 & t' & u & E & F)]; [left; exact C'|right]. split; [exact C1|]. exists t', u.
      split; [|exact F]. rewrite nth_lset_ne; [exact E|]. intros <-. rewrite ET in E. injection E as <-. destruct H0e. congruence.
  - intros t' u E. apply nth_lset_inv in E. destruct E as [(-> & -> & _)|(N & E)]; [exact NB|exact (I7 _ _ E)].
Qed.
(** ... and what they do to the history. *)
Lemma go_hist s t th th' cs e : hist s -> nth_error (threads s) t = Some th -> (forall p, at_pc th' <> DRead p) -> (forall p, at_pc th <> DRead p) ->
  accepted (results th') ++ inflight (at_pc th') = accepted (results th) ++ inflight (at_pc th) ->
  got (results th') ++ moved (at_pc th') = got (results th) ++ moved (at_pc th) ->
  hist {| cells := cs; epos := e; dpos := dpos s; threads := lset (threads s) t th';
         inserted := inserted s; removed := removed s |}.
Proof.
  intros H ET N1 N0 HA HG. destruct H as [H1 H2 H3 H4 H5 H6 H7 H8 H9].
  split; cbn [cells epos dpos threads inserted removed]; rewrite ?lset_length; auto.
  - intros t' u p E. apply nth_lset_inv in E. destruct E as [(-> & -> & _)|(N & E)]; [intros A; exfalso; exact (N1 _ A)|eauto].
  - intros p Hp. destruct (H4 p Hp) as [A|(t' & u & E & F)]; [left; exact A|right]. exists t', u. split; [|exact F].
    rewrite nth_lset_ne; [exact E|]. intros <-. rewrite ET in E. injection E as <-. exact (N0 _ F).
  - intros t' u E. apply nth_lset_inv in E. destruct E as [(-> & -> & _)|(N & E)]; [rewrite HA; auto|auto].
  - intros t' u E. apply nth_lset_inv in E. destruct E as [(-> & -> & _)|(N & E)]; [rewrite HG; auto|auto].
  - intros t' u p E. apply nth_lset_inv in E. destruct E as [(-> & -> & _)|(N & E)]; [intros A; exfalso; exact (N1 _ A)|eauto].
Qed.

(** *** Claiming a position *)
Lemma hold_range s t th p : inv s -> nth_error (threads s) t = Some th -> hold (at_pc th) = Some p -> epos s - cap <= p < epos s /\ 0 <= p.
Proof.
  intros I ET HH. pose proof (i_thr _ I _ _ ET) as T. pose proof (i_pos _ I) as P.
  destruct (at_pc th); cbn in HH; try discriminate; injection HH as ->; cbn in T; lia.
Qed.
Lemma enq_free s c : inv s -> at_ s (epos s) c -> seq c = epos s ->
  epos s - cap < dpos s /\ forall t th, nth_error (threads s) t = Some th -> hold (at_pc th) <> Some (epos s - cap).
Proof.
  intros I A S. pose proof cap2. destruct (i_cell _ I (epos s - cap) ltac:(lia)) as (c' & A' & B & C).
  assert (HM : (epos s - cap) mod cap = epos s mod cap).
  { replace (epos s - cap) with (epos s + (-1) * cap) by ring. apply Z.mod_add. lia. }
  apply (at_cong _ _ _ _ HM) in A'. pose proof (at_fun _ _ _ _ A A') as <-.
  assert (L : epos s - cap < dpos s).
  { destruct (Z.lt_ge_cases (epos s - cap) (dpos s)) as [L|L]; [exact L|]. exfalso.
    destruct (B L) as [[B' _]|[B' _]]; lia. }
  split; [exact L|]. intros t th ET HH. pose proof (i_thr _ I _ _ ET) as T.
  assert (X : exists c'', at_ s (epos s - cap) c'' /\ (seq c'' = epos s - cap \/ seq c'' = epos s - cap + 1)).
  { destruct (at_pc th) eqn:EP; cbn in HH; try discriminate; injection HH as ->; cbn in T.
    - destruct T as (_ & _ & c'' & X1 & X2). eauto.
    - destruct T as (_ & _ & c'' & X1 & X2 & _). eauto.
    - destruct T as (_ & _ & c'' & v & X1 & X2 & _). eauto.
    - destruct T as (_ & _ & c'' & X1 & X2). eauto. }
  destruct X as (c'' & X1 & X2). apply (at_cong _ _ _ _ HM) in X1. pose proof (at_fun _ _ _ _ A X1) as <-. lia.
Qed.
Lemma deq_ready s c : inv s -> at_ s (dpos s) c -> seq c = dpos s + 1 ->
  dpos s < epos s /\ (exists v, data c = Some v /\ ins s (dpos s) v) /\
  forall t th, nth_error (threads s) t = Some th -> hold (at_pc th) <> Some (dpos s).
Proof.
  intros I A S. pose proof cap2. pose proof (i_pos _ I) as P.
  assert (L : dpos s < epos s).
  { destruct (Z.lt_ge_cases (dpos s) (epos s)) as [L|L]; [exact L|]. exfalso. assert (E : dpos s = epos s) by lia.
    destruct (i_cell _ I (epos s - cap) ltac:(lia)) as (c' & A' & B & C).
    assert (HM : (epos s - cap) mod cap = dpos s mod cap).
    { rewrite E. replace (epos s - cap) with (epos s + (-1) * cap) by ring. apply Z.mod_add. lia. }
    apply (at_cong _ _ _ _ HM) in A'. pose proof (at_fun _ _ _ _ A A') as <-. destruct (C ltac:(lia)) as [C'|[C' _]]; lia. }
  split; [exact L|]. destruct (i_cell _ I (dpos s) ltac:(lia)) as (c' & A' & B & _).
  pose proof (at_fun _ _ _ _ A A') as <-. split.
  - destruct (B ltac:(lia)) as [[_ B']|[B' _]]; [exact B'|lia].
  - intros t th ET HH. pose proof (i_thr _ I _ _ ET) as T.
    destruct (at_pc th) eqn:EP; cbn in HH; try discriminate; injection HH as ->; cbn in T; try lia.
    + destruct T as (_ & _ & c'' & X1 & X2). pose proof (at_fun _ _ _ _ A X1) as <-. lia.
    + destruct T as (_ & _ & c'' & X1 & X2 & _). pose proof (at_fun _ _ _ _ A X1) as <-. lia.
Qed.

Lemma ins_app s p v x : ins s p v -> exists t, nth_error (inserted s ++ x) (Z.to_nat p) = Some (t, v).
Proof.
  intros (t & H). exists t. rewrite nth_error_app1; [exact H|]. apply nth_error_Some. congruence.
Qed.
Lemma hold_none p : hold p = None -> ehold p = None /\ dhold p = None.
Proof. unfold hold. destruct (ehold p); [discriminate|auto]. Qed.
Lemma hold_e p q : ehold p = Some q -> hold p = Some q.
Proof. unfold hold. intros ->. reflexivity. Qed.
Lemma hold_d p q : dhold p = Some q -> hold p = Some q.
Proof. destruct p; cbn; congruence. Qed.

Lemma claim_enq_inv s t th th' v c : inv s -> nth_error (threads s) t = Some th -> hold (at_pc th) = None ->
  at_ s (epos s) c -> seq c = epos s -> at_pc th' = EWrite v (epos s) -> Forall no_bulk (prog th') ->
  inv {| cells := cells s; epos := epos s + 1; dpos := dpos s; threads := lset (threads s) t th';
         inserted := inserted s ++ [(t, v)]; removed := removed s |}.
Proof.
  intros I ET HN A S EP NB. destruct (enq_free s c I A S) as [L FR]. pose proof cap2.
  assert (HT : (t < length (threads s))%nat) by (apply nth_error_Some; congruence).
  pose proof (fun t th p => hold_range s t th p I) as HR. destruct (hold_none _ HN) as [HNe HNd].
  destruct I as [I1 I2 I3 I4 I5 I6 I7].
  split; cbn [cells epos dpos threads inserted removed]; auto; try lia.
  - rewrite app_length. cbn [length]. lia.
  - intros t' u E. apply nth_lset_inv in E. destruct E as [(-> & -> & _)|(N & E)].
    + rewrite EP. cbn. split; [lia|]. split; [|exists c; auto]. exists t'. cbn [inserted]. rewrite nth_error_app2 by lia.
      replace (Z.to_nat (epos s) - length (inserted s))%nat with 0%nat by lia. reflexivity.
    + pose proof (I4 _ _ E) as T. pose proof (FR _ _ E) as NE.
      destruct (at_pc u); cbn in T |- *; cbn in NE; try lia; try exact T.
      * destruct T as (T1 & T2 & T3). split; [lia|]. split; [apply ins_app, T2|exact T3].
      * destruct T as (T1 & T2 & T3). split; [lia|]. split; [apply ins_app, T2|exact T3].
      * destruct T as (T1 & T2 & c' & w & T3 & T4 & T5 & T6). assert (pos <> epos s - cap) by congruence. split; [lia|]. split; [lia|].
        exists c', w. split; [exact T3|]. split; [exact T4|]. split; [exact T5|]. apply ins_app, T6.
      * destruct T as (T1 & T2 & T3). assert (pos <> epos s - cap) by congruence. split; [lia|]. split; [lia|exact T3].
  - intros a b ta tb q Ea Eb Ha Hb. apply nth_lset_inv in Ea, Eb.
    destruct Ea as [(-> & -> & _)|(Na & Ea)]; destruct Eb as [(-> & -> & _)|(Nb & Eb)]; auto.
    + rewrite EP in Ha. injection Ha as <-. pose proof (HR _ _ _ Eb Hb). lia.
    + rewrite EP in Hb. injection Hb as <-. pose proof (HR _ _ _ Ea Ha). lia.
    + eauto.
  - intros q Hq. destruct (Z.eq_dec q (epos s)) as [->|N].
    + exists c. split; [exact A|]. split; [|lia]. intros _. right. split; [exact S|]. exists t, th'.
      rewrite nth_lset_eq by exact HT. rewrite EP. auto.
    + destruct (I6 q ltac:(lia)) as (c' & A' & B & C). exists c'. split; [exact A'|]. split.
      * intros D. destruct (B D) as [(B1 & w & B2 & B3)|(B1 & t' & u & E & F)]; [left|right].
        -- split; [exact B1|]. exists w. split; [exact B2|]. apply ins_app, B3.
        -- split; [exact B1|]. exists t', u. split; [|exact F]. rewrite nth_lset_ne; [exact E|]. intros <-. congruence.
      * intros D. destruct (C D) as [C'|(C1 & t' & u & E & F)]; [left; exact C'|right]. split; [exact C1|]. exists t', u.
        split; [|exact F]. rewrite nth_lset_ne; [exact E|]. intros <-. congruence.
  - intros t' u E. apply nth_lset_inv in E. destruct E as [(-> & -> & _)|(N & E)]; [exact NB|exact (I7 _ _ E)].
Qed.

Lemma claim_deq_inv s t th th' c : inv s -> nth_error (threads s) t = Some th -> hold (at_pc th) = None ->
  at_ s (dpos s) c -> seq c = dpos s + 1 -> at_pc th' = DRead (dpos s) -> Forall no_bulk (prog th') ->
  inv {| cells := cells s; epos := epos s; dpos := dpos s + 1; threads := lset (threads s) t th';
         inserted := inserted s; removed := removed s |}.
Proof.
  intros I ET HN A S EP NB. destruct (deq_ready s c I A S) as (L & (v & DV & IV) & FR). pose proof cap2.
  assert (HT : (t < length (threads s))%nat) by (apply nth_error_Some; congruence).
  destruct (hold_none _ HN) as [HNe HNd].
  destruct I as [I1 I2 I3 I4 I5 I6 I7].
  split; cbn [cells epos dpos threads inserted removed]; auto; try lia.
  - intros t' u E. apply nth_lset_inv in E. destruct E as [(-> & -> & _)|(N & E)].
    + rewrite EP. cbn. split; [lia|]. split; [lia|]. exists c, v. auto.
    + pose proof (I4 _ _ E) as T. pose proof (FR _ _ E) as NE.
      destruct (at_pc u); cbn in T |- *; cbn in NE; try lia; try exact T.
      * destruct T as (T1 & T2). assert (pos <> dpos s) by congruence. split; [lia|exact T2].
      * destruct T as (T1 & T2). assert (pos <> dpos s) by congruence. split; [lia|exact T2].
      * destruct T as (T1 & T2). split; [lia|exact T2].
      * destruct T as (T1 & T2). split; [lia|exact T2].
  - intros a b ta tb q Ea Eb Ha Hb. apply nth_lset_inv in Ea, Eb.
    destruct Ea as [(-> & -> & _)|(Na & Ea)]; destruct Eb as [(-> & -> & _)|(Nb & Eb)]; auto.
    + rewrite EP in Ha. injection Ha as <-. exfalso. exact (FR _ _ Eb Hb).
    + rewrite EP in Hb. injection Hb as <-. exfalso. exact (FR _ _ Ea Ha).
    + eauto.
  - intros q Hq. destruct (Z.eq_dec q (dpos s)) as [->|N].
    + exists c. split; [exact A|]. split; [lia|]. intros _. right. split; [exact S|]. exists t, th'.
      rewrite nth_lset_eq by exact HT. rewrite EP. auto.
    + destruct (I6 q ltac:(lia)) as (c' & A' & B & C). exists c'. split; [exact A'|]. split.
      * intros D. destruct (B ltac:(lia)) as [B1|(B1 & t' & u & E & F)]; [left; exact B1|right].
        split; [exact B1|]. exists t', u. split; [|exact F]. rewrite nth_lset_ne; [exact E|]. intros <-. congruence.
      * intros D. destruct (C ltac:(lia)) as [C'|(C1 & t' & u & E & F)]; [left; exact C'|right]. split; [exact C1|]. exists t', u.
        split; [|exact F]. rewrite nth_lset_ne; [exact E|]. intros <-. congruence.
  - intros t' u E. apply nth_lset_inv in E. destruct E as [(-> & -> & _)|(N & E)]; [exact NB|exact (I7 _ _ E)].
Qed.

(** *** Writing the cell of a claimed position *)
Lemma mod_nat p q : Z.to_nat (p mod cap) = Z.to_nat (q mod cap) -> p mod cap = q mod cap.
Proof. pose proof cap2. pose proof (Z.mod_pos_bound p cap ltac:(lia)). pose proof (Z.mod_pos_bound q cap ltac:(lia)). lia. Qed.

Lemma set_inv s t th th' p c' r : inv s -> nth_error (threads s) t = Some th -> hold (at_pc th) = Some p ->
  let s' := {| cells := lset (cells s) (Z.to_nat (p mod cap)) c'; epos := epos s; dpos := dpos s; threads := lset (threads s) t th';
         inserted := inserted s; removed := r |} in
  (at_ s' p c' -> tinv s' (at_pc th')) -> hold (at_pc th') = Some p \/ hold (at_pc th') = None -> Forall no_bulk (prog th') ->
  (dpos s <= p -> (seq c' = p + 1 /\ exists v, data c' = Some v /\ ins s p v) \/ (seq c' = p /\ ehold (at_pc th') = Some p)) ->
  (p < dpos s -> seq c' = p + cap \/ (seq c' = p + 1 /\ dhold (at_pc th') = Some p)) ->
  inv s'.
Proof.
  intros I ET HH s' TI HH' NB CE CD. pose proof cap2. pose proof (hold_range _ _ _ _ I ET HH) as [PR P0].
  assert (HT : (t < length (threads s))%nat) by (apply nth_error_Some; congruence).
  assert (HL : (Z.to_nat (p mod cap) < length (cells s))%nat).
  { pose proof (i_len _ I). pose proof (Z.mod_pos_bound p cap ltac:(lia)). lia. }
  assert (AP : at_ s' p c') by (unfold at_, s'; cbn [cells]; apply nth_lset_eq, HL).
  assert (AO : forall q x, q mod cap <> p mod cap -> at_ s q x -> at_ s' q x).
  { intros q x N Q. unfold at_, s' in *. cbn [cells]. rewrite nth_lset_ne; [exact Q|]. intros E. apply N. symmetry. apply mod_nat, E. }
  assert (FREE : forall x, at_ s (epos s) x -> seq x = epos s -> epos s mod cap <> p mod cap).
  { intros x X1 X2 M. destruct (enq_free s x I X1 X2) as [_ F]. apply (F _ _ ET). rewrite HH. f_equal.
    apply (near_mod _ _ (epos s)); [lia|lia|]. rewrite <- M. replace (epos s - cap) with (epos s + (-1) * cap) by ring. symmetry. apply Z.mod_add. lia. }
  assert (READY : forall x, at_ s (dpos s) x -> seq x = dpos s + 1 -> dpos s mod cap <> p mod cap).
  { intros x X1 X2 M. destruct (deq_ready s x I X1 X2) as (LT & _ & F). apply (F _ _ ET). rewrite HH. f_equal.
    pose proof (i_pos _ I). apply (near_mod _ _ (epos s)); [lia|lia|]. symmetry. exact M. }
  assert (OTHER : forall t' u q, t' <> t -> nth_error (threads s) t' = Some u -> hold (at_pc u) = Some q -> q mod cap <> p mod cap).
  { intros t' u q N E HQ M. apply N. pose proof (hold_range _ _ _ _ I E HQ) as [QR _].
    rewrite (near_mod q p (epos s) QR PR M) in HQ. exact (i_uniq _ I _ _ _ _ _ E ET HQ HH). }
  destruct I as [I1 I2 I3 I4 I5 I6 I7].
  split; unfold s'; cbn [cells epos dpos threads inserted removed]; auto; try lia.
  - rewrite lset_length. exact I1.
  - intros t' u E. apply nth_lset_inv in E. destruct E as [(-> & -> & _)|(N & E)]; [exact (TI AP)|].
    pose proof (I4 _ _ E) as T. pose proof (fun q => OTHER _ _ q (not_eq_sym N) E) as O.
    destruct (at_pc u) eqn:EU; cbn in T, O |- *; try exact T.
    + destruct T as [T1 T2]. split; [exact T1|]. intros EQ. destruct (T2 EQ) as (x & X1 & X2). exists x. split; [|exact X2].
      apply AO; [|exact X1]. rewrite <- EQ in X1, X2 |- *. exact (FREE _ X1 X2).
    + destruct T as (T1 & T2 & x & X1 & X2). split; [exact T1|]. split; [exact T2|]. exists x. split; [apply AO; [apply O; reflexivity|exact X1]|exact X2].
    + destruct T as (T1 & T2 & x & X1 & X2). split; [exact T1|]. split; [exact T2|]. exists x. split; [apply AO; [apply O; reflexivity|exact X1]|exact X2].
    + destruct T as [T1 T2]. split; [exact T1|]. intros EQ. destruct (T2 EQ) as (x & X1 & X2). exists x. split; [|exact X2].
      apply AO; [|exact X1]. rewrite <- EQ in X1, X2 |- *. exact (READY _ X1 X2).
    + destruct T as (T1 & T2 & x & w & X1 & X2). split; [exact T1|]. split; [exact T2|]. exists x, w. split; [apply AO; [apply O; reflexivity|exact X1]|exact X2].
    + destruct T as (T1 & T2 & x & X1 & X2). split; [exact T1|]. split; [exact T2|]. exists x. split; [apply AO; [apply O; reflexivity|exact X1]|exact X2].
  - intros a b ta tb q Ea Eb Ha Hb. apply nth_lset_inv in Ea, Eb.
    destruct Ea as [(-> & -> & _)|(Na & Ea)]; destruct Eb as [(-> & -> & _)|(Nb & Eb)]; auto.
    + assert (q = p) by (destruct HH'; congruence). subst q. eapply I5; eassumption.
    + assert (q = p) by (destruct HH'; congruence). subst q. eapply I5; eassumption.
    + eapply I5; eassumption.
  - intros q Hq. destruct (Z.eq_dec q p) as [->|N].
    + exists c'. split; [exact AP|]. split.
      * intros D. destruct (CE D) as [CE'|[C1 C2]]; [left; exact CE'|right]. split; [exact C1|]. exists t, th'. split; [apply nth_lset_eq, HT|exact C2].
      * intros D. destruct (CD D) as [CD'|[C1 C2]]; [left; exact CD'|right]. split; [exact C1|]. exists t, th'. split; [apply nth_lset_eq, HT|exact C2].
    + destruct (I6 q Hq) as (x & A' & B & C). exists x.
      assert (NT : forall t' u, nth_error (threads s) t' = Some u -> hold (at_pc u) = Some q -> t <> t').
      { intros t' u E F <-. rewrite ET in E. injection E as <-. congruence. }
      split; [apply AO; [|exact A']; intros M; apply N; exact (near_mod q p (epos s) Hq PR M)|]. split.
      * intros D. destruct (B D) as [B'|(B1 & t' & u & E & F)]; [left; exact B'|right]. split; [exact B1|]. exists t', u.
        split; [|exact F]. rewrite nth_lset_ne; [exact E|]. eapply NT; [exact E|]. apply hold_e, F.
      * intros D. destruct (C D) as [C'|(C1 & t' & u & E & F)]; [left; exact C'|right]. split; [exact C1|]. exists t', u.
        split; [|exact F]. rewrite nth_lset_ne; [exact E|]. eapply NT; [exact E|]. apply hold_d, F.
  - intros t' u E. apply nth_lset_inv in E. destruct E as [(-> & -> & _)|(N & E)]; [exact NB|exact (I7 _ _ E)].
Qed.

(** *** History of the claiming steps *)
Lemma by_thread_app {A} t (l : list (nat * A)) t' x : by_thread t (l ++ [(t', x)]) = by_thread t l ++ (if Nat.eqb t' t then [x] else []).
Proof. unfold by_thread. rewrite filter_app, map_app. cbn. destruct (Nat.eqb t' t); reflexivity. Qed.

Lemma claim_enq_hist s t th th' v cs e : hist s -> nth_error (threads s) t = Some th ->
  (forall p, at_pc th <> DRead p) -> (forall p, at_pc th' <> DRead p) -> inflight (at_pc th) = [] -> moved (at_pc th) = [] ->
  results th' = results th -> inflight (at_pc th') = [v] -> moved (at_pc th') = [] ->
  hist {| cells := cs; epos := e; dpos := dpos s; threads := lset (threads s) t th';
         inserted := inserted s ++ [(t, v)]; removed := removed s |}.
Proof.
  intros H ET N0 N1 F0 M0 ER F1 M1. destruct H as [H1 H2 H3 H4 H5 H6 H7 H8 H9].
  split; cbn [cells epos dpos threads inserted removed]; rewrite ?lset_length; auto.
  - intros t' p w E. destruct (H1 _ _ _ E) as [A B]. split; [exact A|]. apply ins_app, B.
  - intros t' u p E. apply nth_lset_inv in E. destruct E as [(-> & -> & _)|(N & E)]; [intros A; exfalso; exact (N1 _ A)|eauto].
  - intros p Hp. destruct (H4 p Hp) as [A|(t' & u & E & F)]; [left; exact A|right]. exists t', u. split; [|exact F].
    rewrite nth_lset_ne; [exact E|]. intros <-. rewrite ET in E. injection E as <-. exact (N0 _ F).
  - intros t' u E. rewrite by_thread_app. apply nth_lset_inv in E. destruct E as [(-> & -> & _)|(N & E)].
    + rewrite Nat.eqb_refl, F1, ER, (H5 _ _ ET), F0, app_nil_r. reflexivity.
    + destruct (Nat.eqb_spec t t') as [|_]; [congruence|]. rewrite app_nil_r. auto.
  - intros t' u E. apply nth_lset_inv in E. destruct E as [(-> & -> & _)|(N & E)]; [rewrite ER, M1, (H6 _ _ ET), M0; reflexivity|auto].
  - intros t' u p E. apply nth_lset_inv in E. destruct E as [(-> & -> & _)|(N & E)]; [intros A; exfalso; exact (N1 _ A)|eauto].
  - destruct H9 as [H9 H10]. split; [|exact H10]. apply Forall_app. split; [exact H9|]. constructor; [|constructor]. cbn. apply nth_error_Some. congruence.
Qed.

Lemma claim_deq_hist s t th th' : hist s -> inv s -> nth_error (threads s) t = Some th ->
  (forall p, at_pc th <> DRead p) -> inflight (at_pc th) = [] -> moved (at_pc th) = [] ->
  results th' = results th -> at_pc th' = DRead (dpos s) ->
  hist {| cells := cells s; epos := epos s; dpos := dpos s + 1; threads := lset (threads s) t th';
         inserted := inserted s; removed := removed s |}.
Proof.
  intros H I ET N0 F0 M0 ER EP. pose proof (i_pos _ I) as PP.
  assert (HT : (t < length (threads s))%nat) by (apply nth_error_Some; congruence).
  destruct H as [H1 H2 H3 H4 H5 H6 H7 H8 H9].
  assert (LT : forall x, In x (removed s) -> fst (snd x) < dpos s).
  { intros [t' [p v]] Hx. cbn. destruct (H1 _ _ _ Hx). lia. }
  split; cbn [cells epos dpos threads inserted removed]; rewrite ?lset_length; auto.
  - intros t' p w E. destruct (H1 _ _ _ E) as [A B]. split; [lia|exact B].
  - intros t' u p E. apply nth_lset_inv in E. destruct E as [(-> & -> & _)|(N & E)]; [|eauto].
    rewrite EP. intros A. injection A as <-. intros A. apply in_map_iff in A. destruct A as (x & A1 & A2). specialize (LT x A2). lia.
  - intros p Hp. destruct (Z.eq_dec p (dpos s)) as [->|N].
    + right. exists t, th'. split; [apply nth_lset_eq, HT|exact EP].
    + destruct (H4 p ltac:(lia)) as [A|(t' & u & E & F)]; [left; exact A|right]. exists t', u. split; [|exact F].
      rewrite nth_lset_ne; [exact E|]. intros <-. rewrite ET in E. injection E as <-. exact (N0 _ F).
  - intros t' u E. apply nth_lset_inv in E. destruct E as [(-> & -> & _)|(N & E)]; [rewrite ER, EP, (H5 _ _ ET), F0; reflexivity|auto].
  - intros t' u E. apply nth_lset_inv in E. destruct E as [(-> & -> & _)|(N & E)]; [rewrite ER, EP, (H6 _ _ ET), M0; reflexivity|auto].
  - intros t' u p E. apply nth_lset_inv in E. destruct E as [(-> & -> & _)|(N & E)]; [|eauto].
    rewrite EP. intros A. injection A as <-. apply Forall_forall. intros q Hq. unfold by_thread in Hq. rewrite map_map in Hq. apply in_map_iff in Hq.
    destruct Hq as (x & <- & Hx). apply filter_In in Hx. apply LT, Hx.
Qed.

Lemma read_hist s t th th' p v cs : hist s -> inv s -> nth_error (threads s) t = Some th ->
  at_pc th = DRead p -> at_pc th' = DPublish p v -> results th' = results th -> ins s p v ->
  hist {| cells := cs; epos := epos s; dpos := dpos s; threads := lset (threads s) t th';
         inserted := inserted s; removed := removed s ++ [(t, (p, v))] |}.
Proof.
  intros H I ET EP EP' ER IV. pose proof (i_thr _ I _ _ ET) as T. rewrite EP in T. cbn in T.
  assert (HT : (t < length (threads s))%nat) by (apply nth_error_Some; congruence).
  destruct H as [H1 H2 H3 H4 H5 H6 H7 H8 H9].
  split; cbn [cells epos dpos threads inserted removed]; rewrite ?lset_length; auto.
  - intros t' q w E. apply in_app_or in E. destruct E as [E|[E|[]]]; [exact (H1 _ _ _ E)|]. injection E as -> -> ->. split; [lia|exact IV].
  - rewrite map_app. cbn. apply nodup_snoc; [exact H2|exact (H3 _ _ _ ET EP)].
  - intros t' u q E. apply nth_lset_inv in E. destruct E as [(-> & -> & _)|(N & E)]; [congruence|].
    intros F A. rewrite map_app in A. apply in_app_or in A. destruct A as [A|[A|[]]]; [exact (H3 _ _ _ E F A)|]. cbn in A. subst q.
    apply N. assert (HU : hold (at_pc u) = Some p) by (rewrite F; reflexivity). assert (HU' : hold (at_pc th) = Some p) by (rewrite EP; reflexivity).
    exact (i_uniq _ I _ _ _ _ _ ET E HU' HU).
  - intros q Hq. rewrite map_app. destruct (H4 q Hq) as [A|(t' & u & E & F)]; [left; apply in_or_app; left; exact A|].
    destruct (Nat.eq_dec t t') as [<-|N].
    + left. apply in_or_app. right. left. cbn. rewrite ET in E. injection E as <-. congruence.
    + right. exists t', u. split; [|exact F]. rewrite nth_lset_ne; [exact E|exact N].
  - intros t' u E. apply nth_lset_inv in E. destruct E as [(-> & -> & _)|(N & E)]; [rewrite ER, EP', (H5 _ _ ET), EP; reflexivity|auto].
  - intros t' u E. rewrite by_thread_app, map_app. apply nth_lset_inv in E. destruct E as [(-> & -> & _)|(N & E)].
    + rewrite Nat.eqb_refl, ER, EP', (H6 _ _ ET), EP. cbn. rewrite app_nil_r. reflexivity.
    + destruct (Nat.eqb_spec t t') as [|_]; [congruence|]. rewrite app_nil_r. auto.
  - intros t'. rewrite by_thread_app, map_app. destruct (Nat.eqb_spec t t') as [<-|N]; [|cbn; rewrite app_nil_r; auto].
    cbn. specialize (H8 _ _ _ ET EP). specialize (H7 t). revert H7 H8. generalize (map fst (by_thread t (removed s))). clear.
    induction l as [|x l IH]; intros A B; cbn; [constructor; [constructor|constructor]|].
    inversion A as [|x' l' A1 A2]; subst. inversion B as [|x' l' B1 B2]; subst. constructor; [auto|].
    apply Forall_app. split; [exact A2|]. constructor; [exact B1|constructor].
  - intros t' u q E F. apply nth_lset_inv in E. destruct E as [(-> & -> & _)|(N & E)]; [congruence|].
    rewrite by_thread_app. destruct (Nat.eqb_spec t t') as [|_]; [congruence|]. rewrite app_nil_r. eauto.
  - destruct H9 as [H9 H10]. split; [exact H9|]. apply Forall_app. split; [exact H10|]. constructor; [|constructor]. exact HT.
Qed.

(** *** What sequence numbers tell *)
Lemma rep_pos (s : mpmc) q : exists p, epos s - cap <= p < epos s /\ p mod cap = q mod cap.
Proof.
  pose proof cap2. exists (epos s - 1 - (epos s - 1 - q) mod cap). pose proof (Z.mod_pos_bound (epos s - 1 - q) cap ltac:(lia)).
  split; [lia|]. pose proof (Z.div_mod (epos s - 1 - q) cap ltac:(lia)) as D.
  replace (epos s - 1 - (epos s - 1 - q) mod cap) with (q + ((epos s - 1 - q) / cap) * cap) by lia. apply Z.mod_add. lia.
Qed.
(** The cell that serves position [q] at present serves position [p], which is not before [q]
    unless [q] is the next one. *)
Lemma seq_cases s q c : inv s -> at_ s q c -> exists p, epos s - cap <= p < epos s /\ p mod cap = q mod cap /\ at_ s p c /\
  (dpos s <= p -> seq c = p + 1 \/ (seq c = p /\ exists t th, nth_error (threads s) t = Some th /\ ehold (at_pc th) = Some p)) /\
  (p < dpos s -> seq c = p + cap \/ (0 <= p /\ seq c = p + 1 /\ exists t th, nth_error (threads s) t = Some th /\ dhold (at_pc th) = Some p)).
Proof.
  intros I A. destruct (rep_pos s q) as (p & PR & M). exists p. split; [exact PR|]. split; [exact M|].
  destruct (i_cell _ I p PR) as (c' & A' & B & C). pose proof (at_cong _ _ _ _ M A') as A2. pose proof (at_fun _ _ _ _ A A2) as <-.
  split; [exact A'|]. split.
  - intros D. destruct (B D) as [[B1 _]|B1]; [left; exact B1|right; exact B1].
  - intros D. destruct (C D) as [C1|(C1 & t & th & E & F)]; [left; exact C1|right]. split; [|eauto].
    apply hold_d in F. apply (hold_range _ _ _ _ I E F).
Qed.
Lemma seq_bound s q c : inv s -> epos s < 2 ^ 62 -> at_ s q c -> 0 <= seq c < 2 ^ 63.
Proof.
  intros I EB A. destruct (seq_cases s q c I A) as (p & PR & _ & _ & B & C). pose proof (i_pos _ I). pose proof cap2.
  destruct (Z.lt_ge_cases p (dpos s)) as [L|L].
  - destruct (C L) as [X|(X & Y & _)]; lia.
  - destruct (B L) as [X|(X & _)]; lia.
Qed.
Lemma congr_le p q E : p mod cap = q mod cap -> E - cap <= p < E -> q < E -> q <= p.
Proof.
  intros M R Q. pose proof cap2. destruct (Z.lt_ge_cases p q) as [L|L]; [|lia]. exfalso.
  pose proof (mod_near p q cap ltac:(lia) M ltac:(lia)). lia.
Qed.
Lemma enq_full s pos c : inv s -> at_ s pos c -> 0 <= pos <= epos s -> seq c < pos ->
  pos = epos s /\ (epos s - dpos s = cap \/ exists t th, nth_error (threads s) t = Some th /\ dhold (at_pc th) = Some (epos s - cap)).
Proof.
  intros I A P L. pose proof cap2. destruct (seq_cases s pos c I A) as (p & PR & M & A' & B & C). pose proof (i_pos _ I) as IP.
  assert (HS : p <= seq c).
  { destruct (Z.lt_ge_cases p (dpos s)) as [X|X]; [destruct (C X) as [Y|(_ & Y & _)]; lia|destruct (B X) as [Y|[Y _]]; lia]. }
  assert (pos = epos s).
  { destruct (Z.eq_dec pos (epos s)); [assumption|]. pose proof (congr_le p pos (epos s) M PR ltac:(lia)). lia. }
  subst pos. split; [reflexivity|].
  assert (p = epos s - cap).
  { apply (near_mod p (epos s - cap) (epos s) PR); [lia|]. rewrite M. replace (epos s - cap) with (epos s + (-1) * cap) by ring. symmetry. apply Z.mod_add. lia. }
  subst p. destruct (Z.lt_ge_cases (epos s - cap) (dpos s)) as [X|X]; [right|left; lia].
  destruct (C X) as [Y|(_ & _ & Y)]; [lia|exact Y].
Qed.
Lemma deq_empty s pos c : inv s -> at_ s pos c -> 0 <= pos <= dpos s -> seq c < pos + 1 ->
  pos = dpos s /\ (dpos s = epos s \/ exists t th, nth_error (threads s) t = Some th /\ ehold (at_pc th) = Some (dpos s)).
Proof.
  intros I A P L. pose proof cap2. destruct (seq_cases s pos c I A) as (p & PR & M & A' & B & C). pose proof (i_pos _ I) as IP.
  destruct (Z.eq_dec pos (epos s)) as [->|NE]; [split; [lia|left; lia]|].
  pose proof (congr_le p pos (epos s) M PR ltac:(lia)) as LE.
  destruct (Z.lt_ge_cases p (dpos s)) as [X|X]; [destruct (C X) as [Y|(_ & Y & _)]; lia|].
  destruct (B X) as [Y|[Y Q]]; [lia|]. assert (EQ : p = dpos s) by lia. split; [lia|]. right. rewrite EQ in Q. exact Q.
Qed.

(** *** Every step *)
Lemma accepted_app (l : list (result V)) r : accepted (l ++ [r]) = accepted l ++ accepted [r].
Proof. unfold accepted. rewrite map_app, concat_app. reflexivity. Qed.
Lemma got_app (l : list (result V)) r : got (l ++ [r]) = got l ++ got [r].
Proof. unfold got. rewrite map_app, concat_app. reflexivity. Qed.

Definition ext (s s' : mpmc) : Prop :=
  epos s <= epos s' <= epos s + 1 /\ (exists x, inserted s' = inserted s ++ x) /\ (exists x, removed s' = removed s ++ x) /\
  length (threads s') = length (threads s).

Ltac same := split; [cbn; lia|]; split; [|split]; [exists []; cbn; rewrite app_nil_r; reflexivity|exists []; cbn; rewrite app_nil_r; reflexivity|cbn; rewrite ?lset_length; reflexivity].

Lemma step_ok s t w : inv s -> hist s -> epos s < 2 ^ 62 ->
  exists s', step s (t, w) = Ok s' /\ inv s' /\ hist s' /\ ext s s'.
Proof.
  intros I H EB. pose proof cap2 as C2. pose proof (i_pos _ I) as IP. unfold step.
  destruct (nth_error (threads s) t) as [th|] eqn:ET; [|exists s; split; [reflexivity|]; split; [exact I|]; split; [exact H|]; same].
  pose proof (i_thr _ I _ _ ET) as T. pose proof (i_prog _ I _ _ ET) as NB. pose proof (i_len _ I) as IL.
  destruct (at_pc th) as [|v try|v try pos|v try pos|v pos|v pos|try|try pos|try pos|pos|pos v|vs|vs pos|vs pos|vs pos|vs pos] eqn:EP; cbn in T; try contradiction.
  - destruct (prog th) as [|o r] eqn:PG; [exists s; split; [reflexivity|]; split; [exact I|]; split; [exact H|]; same|].
    inversion NB as [|? ? N1 N2]; subst. eexists; split; [reflexivity|]. split; [|split].
    + eapply go_inv; [exact I|exact ET|rewrite EP; reflexivity| | | |reflexivity]; cbn [at_pc prog]; [destruct o|destruct o|exact N2]; cbn; try contradiction; auto.
    + eapply go_hist; [exact H|exact ET| | | |]; cbn [at_pc prog results]; rewrite ?EP; try congruence; destruct o; cbn in N1 |- *; try contradiction; try discriminate; reflexivity.
    + same.
  - eexists; split; [reflexivity|]. split; [|split].
    + eapply go_inv; [exact I|exact ET|rewrite EP; reflexivity| | | |reflexivity]; cbn; auto. lia.
    + eapply go_hist; [exact H|exact ET| | | |]; cbn [at_pc prog results]; rewrite ?EP; try congruence; reflexivity.
    + same.
  - destruct (at_some s pos I) as (c & A & ->). cbn [bind]. pose proof (seq_bound s pos c I EB A) as SB.
    rewrite (diff_id (seq c) pos) by lia. destruct (Z.eqb_spec (seq c - pos) 0) as [E|NE]; [|destruct (try || (seq c - pos <? 0))].
    + eexists; split; [reflexivity|]. split; [|split].
      * eapply go_inv; [exact I|exact ET|rewrite EP; reflexivity| | | |reflexivity]; cbn; auto. split; [lia|]. intros _. exists c. split; [exact A|lia].
      * eapply go_hist; [exact H|exact ET| | | |]; cbn [at_pc prog results]; rewrite ?EP; try congruence; reflexivity.
      * same.
    + eexists; split; [reflexivity|]. split; [|split].
      * eapply go_inv; [exact I|exact ET|rewrite EP; reflexivity| | | |reflexivity]; cbn; auto.
      * eapply go_hist; [exact H|exact ET| | | |]; cbn [at_pc prog results]; rewrite ?EP, ?accepted_app, ?got_app; try congruence; cbn; rewrite ?app_nil_r; reflexivity.
      * same.
    + eexists; split; [reflexivity|]. split; [|split].
      * eapply go_inv; [exact I|exact ET|rewrite EP; reflexivity| | | |reflexivity]; cbn; auto.
      * eapply go_hist; [exact H|exact ET| | | |]; cbn [at_pc prog results]; rewrite ?EP; try congruence; reflexivity.
      * same.
  - destruct T as [T1 T2]. destruct (negb w && (epos s =? pos)) eqn:EC.
    + apply andb_true_iff in EC. destruct EC as [_ EC]. apply Z.eqb_eq in EC. destruct (T2 EC) as (c & A & S). subst pos.
      rewrite wrapu64_id by lia. eexists; split; [reflexivity|]. unfold go, claim_enq. cbn [cells epos dpos threads inserted removed map]. split; [|split].
      * eapply claim_enq_inv; [exact I|exact ET|rewrite EP; reflexivity|exact A|exact S|reflexivity|exact NB].
      * eapply claim_enq_hist; [exact H|exact ET| | | | | | |]; cbn [at_pc results]; rewrite ?EP; try congruence; reflexivity.
      * split; [cbn; lia|]; split; [eexists; reflexivity|split; [exists []; cbn; rewrite app_nil_r; reflexivity|cbn; apply lset_length]].
    + destruct try.
      * eexists; split; [reflexivity|]. split; [|split].
        -- eapply go_inv; [exact I|exact ET|rewrite EP; reflexivity| | | |reflexivity]; cbn; auto.
        -- eapply go_hist; [exact H|exact ET| | | |]; cbn [at_pc prog results]; rewrite ?EP, ?accepted_app, ?got_app; try congruence; cbn; rewrite ?app_nil_r; reflexivity.
        -- same.
      * eexists; split; [reflexivity|]. split; [|split].
        -- eapply go_inv; [exact I|exact ET|rewrite EP; reflexivity| | | |reflexivity]; cbn; auto. lia.
        -- eapply go_hist; [exact H|exact ET| | | |]; cbn [at_pc prog results]; rewrite ?EP; try congruence; reflexivity.
        -- same.
  - destruct T as (T1 & T2 & c0 & A0 & S0). destruct (at_some s pos I) as (c & A & ->). cbn [bind]. pose proof (at_fun _ _ _ _ A A0) as ->.
    eexists; split; [reflexivity|]. unfold go, set_cell. cbn [cells epos dpos threads inserted removed]. rewrite (slot_mod s pos I). split; [|split].
    + eapply set_inv; [exact I|exact ET|rewrite EP; reflexivity| | | | |]; cbn [at_pc prog seq data].
      * intros AP. cbn. split; [exact T1|]. split; [exact T2|]. eexists. split; [exact AP|]. split; [exact S0|reflexivity].
      * left. reflexivity.
      * exact NB.
      * intros _. right. split; [exact S0|reflexivity].
      * lia.
    + eapply go_hist; [exact H|exact ET| | | |]; cbn [at_pc prog results]; rewrite ?EP; try congruence; reflexivity.
    + same.
  - destruct T as (T1 & T2 & c0 & A0 & S0 & D0). destruct (at_some s pos I) as (c & A & ->). cbn [bind]. pose proof (at_fun _ _ _ _ A A0) as ->.
    eexists; split; [reflexivity|]. unfold ret, set_cell. cbn [cells epos dpos threads inserted removed]. rewrite (slot_mod s pos I), wrapu64_id by lia. split; [|split].
    + eapply set_inv; [exact I|exact ET|rewrite EP; reflexivity| | | | |]; cbn [at_pc prog seq data].
      * intros AP. exact Logic.I.
      * right. reflexivity.
      * exact NB.
      * intros _. left. split; [reflexivity|]. exists v. split; [exact D0|exact T2].
      * lia.
    + eapply go_hist; [exact H|exact ET| | | |]; cbn [at_pc prog results]; rewrite ?EP, ?accepted_app, ?got_app; try congruence; cbn; rewrite ?app_nil_r; reflexivity.
    + same.
  - eexists; split; [reflexivity|]. split; [|split].
    + eapply go_inv; [exact I|exact ET|rewrite EP; reflexivity| | | |reflexivity]; cbn; auto. lia.
    + eapply go_hist; [exact H|exact ET| | | |]; cbn [at_pc prog results]; rewrite ?EP; try congruence; reflexivity.
    + same.
  - destruct (at_some s pos I) as (c & A & ->). cbn [bind]. pose proof (seq_bound s pos c I EB A) as SB.
    rewrite wrapu64_id by lia. rewrite (diff_id (seq c) (pos + 1)) by lia.
    destruct (Z.eqb_spec (seq c - (pos + 1)) 0) as [E|NE]; [|destruct (try || (seq c - (pos + 1) <? 0))].
    + eexists; split; [reflexivity|]. split; [|split].
      * eapply go_inv; [exact I|exact ET|rewrite EP; reflexivity| | | |reflexivity]; cbn; auto. split; [lia|]. intros _. exists c. split; [exact A|lia].
      * eapply go_hist; [exact H|exact ET| | | |]; cbn [at_pc prog results]; rewrite ?EP; try congruence; reflexivity.
      * same.
    + eexists; split; [reflexivity|]. split; [|split].
      * eapply go_inv; [exact I|exact ET|rewrite EP; reflexivity| | | |reflexivity]; cbn; auto.
      * eapply go_hist; [exact H|exact ET| | | |]; cbn [at_pc prog results]; rewrite ?EP, ?accepted_app, ?got_app; try congruence; cbn; rewrite ?app_nil_r; reflexivity.
      * same.
    + eexists; split; [reflexivity|]. split; [|split].
      * eapply go_inv; [exact I|exact ET|rewrite EP; reflexivity| | | |reflexivity]; cbn; auto.
      * eapply go_hist; [exact H|exact ET| | | |]; cbn [at_pc prog results]; rewrite ?EP; try congruence; reflexivity.
      * same.
  - destruct T as [T1 T2]. destruct (negb w && (dpos s =? pos)) eqn:EC.
    + apply andb_true_iff in EC. destruct EC as [_ EC]. apply Z.eqb_eq in EC. destruct (T2 EC) as (c & A & S). subst pos.
      rewrite wrapu64_id by lia. eexists; split; [reflexivity|]. unfold go, claim_deq. cbn [cells epos dpos threads inserted removed]. split; [|split].
      * eapply claim_deq_inv; [exact I|exact ET|rewrite EP; reflexivity|exact A|exact S|reflexivity|exact NB].
      * eapply claim_deq_hist; [exact H|exact I|exact ET| | | | |]; cbn [at_pc results]; rewrite ?EP; try congruence; reflexivity.
      * same.
    + destruct try.
      * eexists; split; [reflexivity|]. split; [|split].
        -- eapply go_inv; [exact I|exact ET|rewrite EP; reflexivity| | | |reflexivity]; cbn; auto.
        -- eapply go_hist; [exact H|exact ET| | | |]; cbn [at_pc prog results]; rewrite ?EP, ?accepted_app, ?got_app; try congruence; cbn; rewrite ?app_nil_r; reflexivity.
        -- same.
      * eexists; split; [reflexivity|]. split; [|split].
        -- eapply go_inv; [exact I|exact ET|rewrite EP; reflexivity| | | |reflexivity]; cbn; auto. lia.
        -- eapply go_hist; [exact H|exact ET| | | |]; cbn [at_pc prog results]; rewrite ?EP; try congruence; reflexivity.
        -- same.
  - destruct T as (T1 & T0 & c0 & v & A0 & S0 & D0 & T2). destruct (at_some s pos I) as (c & A & ->). cbn [bind]. pose proof (at_fun _ _ _ _ A A0) as ->.
    rewrite D0. eexists; split; [reflexivity|]. unfold go, set_cell, record_removed. cbn [cells epos dpos threads inserted removed]. rewrite (slot_mod s pos I). split; [|split].
    + eapply set_inv; [exact I|exact ET|rewrite EP; reflexivity| | | | |]; cbn [at_pc prog seq data].
      * intros AP. cbn. split; [exact T1|]. split; [exact T0|]. eexists. split; [exact AP|]. exact S0.
      * left. reflexivity.
      * exact NB.
      * lia.
      * intros _. right. split; [exact S0|reflexivity].
    + eapply read_hist; [exact H|exact I|exact ET|exact EP|reflexivity|reflexivity|exact T2].
    + split; [cbn; lia|]; split; [exists []; cbn; rewrite app_nil_r; reflexivity|split; [eexists; reflexivity|cbn; apply lset_length]].
  - destruct T as (T1 & T0 & c0 & A0 & S0). destruct (at_some s pos I) as (c & A & ->). cbn [bind]. pose proof (at_fun _ _ _ _ A A0) as ->.
    eexists; split; [reflexivity|]. unfold ret, set_cell. cbn [cells epos dpos threads inserted removed]. rewrite (slot_mod s pos I), IL.
    replace (pos + (cap - 1) + 1) with (pos + cap) by ring. rewrite wrapu64_id by lia. split; [|split].
    + eapply set_inv; [exact I|exact ET|rewrite EP; reflexivity| | | | |]; cbn [at_pc prog seq data].
      * intros AP. exact Logic.I.
      * right. reflexivity.
      * exact NB.
      * lia.
      * intros _. left. reflexivity.
    + eapply go_hist; [exact H|exact ET| | | |]; cbn [at_pc prog results]; rewrite ?EP, ?accepted_app, ?got_app; try congruence; cbn; rewrite ?app_nil_r; reflexivity.
    + same.
Qed.

(** *** Owners of dequeued positions *)
Definition owns (s : mpmc) (t : nat) (p : Z) : Prop :=
  (exists v, In (t, (p, v)) (removed s)) \/ (exists th, nth_error (threads s) t = Some th /\ at_pc th = DRead p).
Lemma own_ex s p : hist s -> 0 <= p < dpos s -> exists t, owns s t p.
Proof.
  intros H HP. destruct (h_all _ H p HP) as [A|(t & th & E & F)].
  - apply in_map_iff in A. destruct A as ([t [q v]] & A & B). cbn in A. subst q. exists t. left. exists v. exact B.
  - exists t. right. exists th. auto.
Qed.
Lemma nodup_map_inj {A B} (f : A -> B) l x y : NoDup (map f l) -> In x l -> In y l -> f x = f y -> x = y.
Proof.
  induction l as [|a l IH]; cbn; intros N X Y E; [contradiction|]. inversion N as [|? ? N1 N2]; subst.
  destruct X as [->|X], Y as [->|Y]; auto.
  - exfalso. apply N1. rewrite E. apply in_map, Y.
  - exfalso. apply N1. rewrite <- E. apply in_map, X.
Qed.
Lemma own_uniq s t t' p : inv s -> hist s -> owns s t p -> owns s t' p -> t = t'.
Proof.
  intros I H [(v & A)|(th & A & B)] [(v' & A')|(th' & A' & B')].
  - pose proof (nodup_map_inj _ _ _ _ (h_nodup _ H) A A' eq_refl) as E. congruence.
  - exfalso. apply (h_read _ H _ _ _ A' B'). apply in_map_iff. exists (t, (p, v)). auto.
  - exfalso. apply (h_read _ H _ _ _ A B). apply in_map_iff. exists (t', (p, v')). auto.
  - apply (i_uniq _ I _ _ _ _ p A A'); [rewrite B|rewrite B']; reflexivity.
Qed.
Lemma own_range s t p : inv s -> hist s -> owns s t p -> 0 <= p < dpos s /\ (t < length (threads s))%nat.
Proof.
  intros I H [(v & A)|(th & A & B)].
  - split; [apply (h_rem _ H _ _ _ A)|]. destruct (h_tid _ H) as [_ Q]. rewrite Forall_forall in Q. exact (Q _ A).
  - split; [|apply nth_error_Some; congruence]. pose proof (i_thr _ I _ _ A) as T. rewrite B in T. cbn in T. lia.
Qed.
Lemma step_owns s t w s' u p : inv s -> step s (t, w) = Ok s' -> owns s u p -> owns s' u p.
Proof.
  intros I E O. pose proof (at_some s) as AS. unfold step in E. destruct (nth_error (threads s) t) as [th|] eqn:ET; [|injection E as <-; exact O].
  assert (HT : (t < length (threads s))%nat) by (apply nth_error_Some; congruence).
  assert (G : forall cs e d th' ins0 r, (forall q, at_pc th <> DRead q) -> owns {| cells := cs; epos := e; dpos := d; threads := lset (threads s) t th'; inserted := ins0; removed := removed s ++ r |} u p).
  { intros cs e d th' ins0 r N. destruct O as [(v & A)|(x & A & B)]; [left; exists v; apply in_or_app; left; exact A|right]. exists x. split; [|exact B].
    cbn. rewrite nth_lset_ne; [exact A|]. intros <-. rewrite ET in A. injection A as <-. exact (N _ B). }
  assert (G0 : forall cs e d th' ins0, (forall q, at_pc th <> DRead q) -> owns {| cells := cs; epos := e; dpos := d; threads := lset (threads s) t th'; inserted := ins0; removed := removed s |} u p).
  { intros. rewrite <- (app_nil_r (removed s)). apply G. assumption. }
  destruct (at_pc th) as [|v try|v try pos|v try pos|v pos|v pos|try|try pos|try pos|pos|pos v|vs|vs pos|vs pos|vs pos|vs pos] eqn:EP;
    try (destruct (AS pos I) as (c & A & R); rewrite R in E; cbn [bind] in E).
  10: { destruct (data c) as [v|] eqn:D; [|discriminate]. injection E as <-. destruct O as [(x & B)|(x & B1 & B2)].
    - left. exists x. cbn. apply in_or_app. left. exact B.
    - destruct (Nat.eq_dec t u) as [<-|N].
      + rewrite ET in B1. injection B1 as <-. left. exists v. cbn. apply in_or_app. right. left. congruence.
      + right. exists x. cbn. rewrite nth_lset_ne by exact N. auto. }
  all: repeat match type of E with context [if ?b then _ else _] => destruct b | context [match ?l with [] => _ | _ => _ end] => destruct l end;
    injection E as <-; try exact O; apply G0; congruence.
Qed.
(** The owners of the first [dpos] positions, in order. *)
Definition dlist (s : mpmc) (d : list nat) : Prop :=
  Z.of_nat (length d) = dpos s /\ forall i t, nth_error d i = Some t -> owns s t (Z.of_nat i).
Lemma dlist_ex s : inv s -> hist s -> exists d, dlist s d.
Proof.
  intros I H. pose proof (i_pos _ I) as P. unfold dlist.
  assert (G : forall n, Z.of_nat n <= dpos s -> exists d, length d = n /\ forall i t, nth_error d i = Some t -> owns s t (Z.of_nat i)).
  { induction n as [|n IH]; intros L; [exists []; split; [reflexivity|]; intros [|i] t; discriminate|].
    destruct (IH ltac:(lia)) as (d & D1 & D2). destruct (own_ex s (Z.of_nat n) H ltac:(lia)) as (t & O).
    exists (d ++ [t]). split; [rewrite app_length; cbn; lia|]. intros i u E. destruct (Nat.lt_ge_cases i (length d)) as [Q|Q].
    - rewrite nth_error_app1 in E by exact Q. exact (D2 _ _ E).
    - rewrite nth_error_app2 in E by exact Q. destruct (i - length d)%nat as [|[|k]] eqn:K; cbn in E; [|discriminate|discriminate].
      injection E as <-. replace i with n by lia. exact O. }
  destruct (G (Z.to_nat (dpos s)) ltac:(lia)) as (d & D1 & D2). exists d. split; [lia|exact D2].
Qed.
Lemma ssorted_eq {A} (l l' : list (Z * A)) : StronglySorted Z.lt (map fst l) -> StronglySorted Z.lt (map fst l') ->
  (forall x, In x l <-> In x l') -> l = l'.
Proof.
  revert l'. induction l as [|[p a] l IH]; intros l' S S' E.
  - destruct l' as [|x l']; [reflexivity|]. destruct (proj2 (E x)). left. reflexivity.
  - destruct l' as [|[q b] l']; [destruct (proj1 (E (p, a))); left; reflexivity|].
    cbn in S, S'. inversion S as [|? ? S1 S2]; subst. inversion S' as [|? ? S3 S4]; subst. rewrite Forall_forall in S2, S4.
    assert (X : (p, a) = (q, b)).
    { destruct (proj1 (E (p, a)) (or_introl eq_refl)) as [X|X]; [congruence|].
      destruct (proj2 (E (q, b)) (or_introl eq_refl)) as [Y|Y]; [congruence|].
      apply (in_map fst) in X, Y. apply S4 in X. apply S2 in Y. cbn in X, Y. lia. }
    injection X as -> ->. f_equal. apply IH; auto. intros x. pose proof (E x) as EX. cbn in EX. split; intros Q.
    + destruct (proj1 EX (or_intror Q)) as [R|R]; [|exact R]. exfalso. subst x. apply (in_map fst) in Q. apply S2 in Q. cbn in Q. lia.
    + destruct (proj2 EX (or_intror Q)) as [R|R]; [|exact R]. exfalso. subst x. apply (in_map fst) in Q. apply S4 in Q. cbn in Q. lia.
Qed.
(** The dequeues of the list [d] with positions and values. *)
Fixpoint number {A} (i : nat) (d : list nat) (l : list A) : list (nat * (Z * A)) :=
  match d, l with t :: d', v :: l' => (t, (Z.of_nat i, v)) :: number (S i) d' l' | _, _ => [] end.
Lemma number_by {A} t i d (l : list A) : map snd (by_thread t (number i d l)) = by_thread t (combine d l).
Proof. revert i l. induction d as [|u d IH]; intros i [|v l]; cbn; auto. unfold by_thread in *. cbn. destruct (Nat.eqb u t); cbn; [f_equal|]; apply IH. Qed.
Lemma number_in {A} i d (l : list A) t p v : In (t, (p, v)) (number i d l) <->
  exists k, p = Z.of_nat (i + k) /\ nth_error d k = Some t /\ nth_error l k = Some v.
Proof.
  revert i l. induction d as [|u d IH]; intros i [|w l]; cbn [number In].
  - split; [contradiction|]. intros ([|k] & _ & E & _); discriminate.
  - split; [contradiction|]. intros ([|k] & _ & E & _); discriminate.
  - split; [contradiction|]. intros ([|k] & _ & _ & E); discriminate.
  - rewrite IH. split.
    + intros [E|(k & E1 & E2 & E3)]; [injection E as <- <- <-; exists 0%nat; rewrite Nat.add_0_r; auto|exists (S k); rewrite Nat.add_succ_r; auto].
    + intros ([|k] & E1 & E2 & E3); [left; cbn in E2, E3; rewrite Nat.add_0_r in E1; congruence|right]. exists k. rewrite Nat.add_succ_r in E1. auto.
Qed.
Lemma number_sorted {A} t i d (l : list A) : StronglySorted Z.lt (map fst (by_thread t (number i d l))) /\
  Forall (fun p => Z.of_nat i <= p) (map fst (by_thread t (number i d l))).
Proof.
  revert i l. induction d as [|u d IH]; intros i [|w l]; cbn; try (split; constructor).
  destruct (IH (S i) l) as [S1 S2]. unfold by_thread in *. cbn. destruct (Nat.eqb u t); cbn; [|split; [exact S1|]].
  - split; [constructor; [exact S1|]|constructor; [lia|]]; (eapply Forall_impl; [|exact S2]; intros p Hp; cbn beta in Hp |- *; lia).
  - eapply Forall_impl; [|exact S2]; intros p Hp; cbn beta in Hp |- *; lia.
Qed.
Lemma by_thread_in {A} t (l : list (nat * A)) x : In x (by_thread t l) <-> In (t, x) l.
Proof.
  unfold by_thread. rewrite in_map_iff. split.
  - intros ([u y] & <- & H). apply filter_In in H. cbn in H. destruct H as [H E]. apply Nat.eqb_eq in E. subst u. exact H.
  - intros H. exists (t, x). split; [reflexivity|]. apply filter_In. split; [exact H|]. apply Nat.eqb_refl.
Qed.
Lemma ins_nth s p v : ins s p v <-> nth_error (map snd (inserted s)) (Z.to_nat p) = Some v.
Proof.
  rewrite nth_error_map. unfold ins. split; [intros (t & ->); reflexivity|].
  destruct (nth_error (inserted s) (Z.to_nat p)) as [[t w]|]; cbn; [|discriminate]. intros E. injection E as <-. eauto.
Qed.

Lemma explained s d size : inv s -> hist s -> Z.of_nat size = cap -> dlist s d -> explains size (inserted s) d s.
Proof.
  intros I H SZ [D1 D2]. pose proof (i_pos _ I) as P. pose proof (i_ins _ I) as IL.
  split; [lia|]. split; [apply (h_tid _ H)|]. split.
  { apply Forall_forall. intros t Ht. apply In_nth_error in Ht. destruct Ht as (i & E). apply (own_range s t _ I H (D2 _ _ E)). }
  intros t th ET. split.
  - exists (inflight (at_pc th)). split; [apply (h_enq _ H _ _ ET)|]. split; [destruct (at_pc th); cbn; lia|intros ->; reflexivity].
  - rewrite <- (number_by t 0).
    assert (OI : forall p v, In (p, v) (by_thread t (number 0 d (map snd (inserted s)))) <-> owns s t p /\ ins s p v).
    { intros p v. rewrite by_thread_in, number_in. split.
      - intros (k & -> & E1 & E2). cbn [Nat.add]. split; [apply D2, E1|]. apply ins_nth. rewrite Nat2Z.id. exact E2.
      - intros [O J]. pose proof (own_range s t p I H O) as [R _]. exists (Z.to_nat p). split; [lia|]. apply ins_nth in J. split; [|exact J].
        destruct (nth_error d (Z.to_nat p)) as [u|] eqn:E; [|apply nth_error_None in E; lia]. f_equal. apply (own_uniq s _ _ p I H); [|exact O].
        replace p with (Z.of_nat (Z.to_nat p)) by lia. exact (D2 _ _ E). }
    destruct (number_sorted t 0 d (map snd (inserted s))) as [SS _].
    destruct (at_pc th) eqn:EP.
    10: { pose proof (i_thr _ I _ _ ET) as T. rewrite EP in T. cbn in T. destruct T as (T1 & T2 & c & v & _ & _ & _ & J).
      exists [v]. split; [|split; [cbn; lia|discriminate]].
      rewrite (ssorted_eq _ (by_thread t (removed s) ++ [(pos, v)]) SS).
      - rewrite map_app. f_equal. pose proof (h_deq _ H _ _ ET) as Q. rewrite EP in Q. cbn in Q. rewrite app_nil_r in Q. exact Q.
      - rewrite map_app. cbn. pose proof (h_order _ H t) as Q. pose proof (h_last _ H _ _ _ ET EP) as Q2. revert Q Q2.
        generalize (map fst (by_thread t (removed s))). clear. induction l as [|x l IH]; intros A B; cbn; [constructor; [constructor|constructor]|].
        inversion A as [|x' l' A1 A2]; subst. inversion B as [|x' l' B1 B2]; subst. constructor; [auto|].
        apply Forall_app. split; [exact A2|]. constructor; [exact B1|constructor].
      - intros [p w]. rewrite OI, in_app_iff, by_thread_in. cbn [In]. split.
        + intros [[(w' & O)|(th' & O1 & O2)] J'].
          * left. destruct (h_rem _ H _ _ _ O) as [_ J2]. apply ins_nth in J', J2. congruence.
          * right. left. rewrite ET in O1. injection O1 as <-. rewrite EP in O2. injection O2 as <-. apply ins_nth in J, J'. congruence.
        + intros [O|[O|[]]].
          * split; [left; exists w; exact O|apply (h_rem _ H _ _ _ O)].
          * injection O as <- <-. split; [right; eauto|exact J]. }
    all: exists (moved (at_pc th)); rewrite EP; cbn [moved]; (split; [|split; [cbn; lia|intros; congruence]]);
      pose proof (h_deq _ H _ _ ET) as Q; rewrite EP in Q; cbn [moved] in Q; rewrite <- Q; f_equal;
      (apply ssorted_eq; [exact SS|apply (h_order _ H)|]); intros [p w]; rewrite OI, by_thread_in; (split;
      [intros [[(w' & O)|(th' & O1 & O2)] J']; [destruct (h_rem _ H _ _ _ O) as [_ J2]; apply ins_nth in J', J2; congruence|congruence]
      |intros O; split; [left; exists w; exact O|apply (h_rem _ H _ _ _ O)]]).
Qed.

(** *** Runs *)
Lemma run_ok sched : forall s, inv s -> hist s -> epos s + Z.of_nat (length sched) <= 2 ^ 62 ->
  exists s', run s sched = Ok s' /\ inv s' /\ hist s' /\ epos s' <= epos s + Z.of_nat (length sched) /\
    (exists x, inserted s' = inserted s ++ x) /\ (forall t p, owns s t p -> owns s' t p) /\ length (threads s') = length (threads s) /\ dpos s <= dpos s'.
Proof.
  induction sched as [|[t w] sched IH]; intros s I H L; cbn [run].
  - exists s. split; [reflexivity|]. split; [exact I|]. split; [exact H|]. split; [cbn; lia|]. split; [exists []; rewrite app_nil_r; reflexivity|]. split; [auto|]. split; [reflexivity|lia].
  - cbn [length] in L. destruct (step_ok s t w I H ltac:(lia)) as (s1 & E & I1 & H1 & X1 & X2 & X3 & X4). rewrite E. cbn [bind].
    destruct (IH s1 I1 H1 ltac:(lia)) as (s2 & E2 & I2 & H2 & Y1 & Y2 & Y3 & Y4 & Y5). exists s2. split; [exact E2|]. split; [exact I2|]. split; [exact H2|]. split; [cbn [length]; lia|]. split; [|split; [|split]].
    + destruct X2 as (x & X2). destruct Y2 as (y & Y2). exists (x ++ y). rewrite Y2, X2, app_assoc. reflexivity.
    + intros u p O. apply Y3. exact (step_owns s t w s1 u p I E O).
    + rewrite Y4. exact X4.
    + assert (dpos s <= dpos s1); [|lia]. destruct (Z.eq_dec (dpos s) 0) as [->|N]; [apply (i_pos _ I1)|].
      pose proof (i_pos _ I). destruct (own_ex s (dpos s - 1) H ltac:(lia)) as (u & O).
      pose proof (own_range s1 u _ I1 H1 (step_owns s t w s1 u _ I E O)). lia.
Qed.

Lemma start_inv size progs s : Z.of_nat size = cap -> make size progs = Ok s -> Forall (Forall no_bulk) progs ->
  inv s /\ hist s /\ epos s = 0 /\ (forall t th, nth_error (threads s) t = Some th -> at_pc th = Idle).
Proof.
  intros SZ E NB. pose proof cap2. unfold make in E. destruct (_ && _); [|discriminate]. injection E as <-.
  assert (TH : forall t th, nth_error (map (fun p => {| prog := p; at_pc := Idle; results := [] |}) progs) t = Some th ->
    exists p : list (op V), In p progs /\ th = {| prog := p; at_pc := Idle; results := [] |}).
  { intros t th E. rewrite nth_error_map in E. destruct (nth_error progs t) as [p|] eqn:Q; [|discriminate]. injection E as <-. exists p. split; [exact (nth_error_In _ _ Q)|reflexivity]. }
  rewrite Forall_forall in NB. split; [|split; [|split; [reflexivity|]]].
  - split; cbn [cells epos dpos threads inserted removed].
    + rewrite map_length, seq_length. exact SZ.
    + lia.
    + reflexivity.
    + intros t th E. apply TH in E. destruct E as (p & _ & ->). exact Logic.I.
    + intros t t' th th' p E. apply TH in E. destruct E as (q & _ & ->). discriminate.
    + intros p Hp. exists {| seq := p + cap; data := None |}. split; [|split; [lia|left; reflexivity]].
      unfold at_. cbn [cells]. rewrite nth_error_map. assert (M : p mod cap = p + cap).
      { symmetry. apply (Z.mod_unique p cap (-1)); lia. }
      rewrite M. rewrite (nth_error_nth' _ 0%nat) by (rewrite seq_length; lia). rewrite seq_nth by lia. cbn. f_equal. f_equal. lia.
    + intros t th E. apply TH in E. destruct E as (p & Hp & ->). exact (NB _ Hp).
  - split; cbn [cells epos dpos threads inserted removed].
    + intros t p v [].
    + constructor.
    + intros t th p E. apply TH in E. destruct E as (q & _ & ->). discriminate.
    + lia.
    + intros t th E. apply TH in E. destruct E as (q & _ & ->). reflexivity.
    + intros t th E. apply TH in E. destruct E as (q & _ & ->). reflexivity.
    + intros t. constructor.
    + intros t th p E. apply TH in E. destruct E as (q & _ & ->). discriminate.
    + split; constructor.
  - intros t th E. cbn in E. apply TH in E. destruct E as (q & _ & ->). reflexivity.
Qed.

(** *** A call that runs alone *)
Lemma lset_lset {A} (l : list A) i x y : lset (lset l i x) i y = lset l i y.
Proof. revert i. induction l as [|a l IH]; intros [|i]; cbn; auto. rewrite IH. reflexivity. Qed.

Definition quiet (s : mpmc) : Prop := forall t th, nth_error (threads s) t = Some th -> at_pc th = Idle.
Lemma quiet_cell s p : inv s -> quiet s -> epos s - cap <= p < epos s -> exists c, at_ s p c /\
  (dpos s <= p -> seq c = p + 1 /\ exists v, data c = Some v /\ ins s p v) /\ (p < dpos s -> seq c = p + cap).
Proof.
  intros I Q P. destruct (i_cell _ I p P) as (c & A & B & C). exists c. split; [exact A|]. split.
  - intros D. destruct (B D) as [B'|(_ & t & th & E & F)]; [exact B'|]. rewrite (Q _ _ E) in F. discriminate.
  - intros D. destruct (C D) as [C'|(_ & t & th & E & F)]; [exact C'|]. rewrite (Q _ _ E) in F. discriminate.
Qed.
Lemma next_cell s : inv s -> quiet s -> exists c, at_ s (epos s) c /\ rdz (cells s) (slot s (epos s)) = Ok c /\
  (epos s - dpos s < cap -> seq c = epos s) /\ (epos s - dpos s = cap -> seq c = epos s - cap + 1).
Proof.
  intros I Q. pose proof cap2. pose proof (i_pos _ I).
  destruct (quiet_cell s (epos s - cap) I Q ltac:(lia)) as (c & A & B & C). exists c.
  assert (HM : (epos s - cap) mod cap = epos s mod cap).
  { replace (epos s - cap) with (epos s + (-1) * cap) by ring. apply Z.mod_add. lia. }
  apply (at_cong _ _ _ _ HM) in A. split; [exact A|]. split.
  { destruct (at_some s (epos s) I) as (c' & A' & R). rewrite (at_fun _ _ _ _ A A'). exact R. }
  split; intros L; [rewrite C by lia; lia|]. destruct (B ltac:(lia)) as [B' _]. exact B'.
Qed.
Lemma first_cell s : inv s -> quiet s -> exists c, at_ s (dpos s) c /\ rdz (cells s) (slot s (dpos s)) = Ok c /\
  (dpos s < epos s -> seq c = dpos s + 1 /\ exists v, data c = Some v /\ ins s (dpos s) v) /\ (dpos s = epos s -> seq c = dpos s).
Proof.
  intros I Q. pose proof cap2. pose proof (i_pos _ I). destruct (Z.eq_dec (dpos s) (epos s)) as [E|N].
  - destruct (next_cell s I Q) as (c & A & R & C & _). exists c. rewrite E. split; [exact A|]. split; [exact R|]. split; [lia|]. intros _. apply C. lia.
  - destruct (quiet_cell s (dpos s) I Q ltac:(lia)) as (c & A & B & _). exists c. split; [exact A|]. split; [|split; [intros _; apply B; lia|lia]].
    destruct (at_some s (dpos s) I) as (c' & A' & R). rewrite (at_fun _ _ _ _ A A'). exact R.
Qed.

Definition after (th : thr V) (r : result V) : thr V := {| prog := tl (prog th); at_pc := Idle; results := results th ++ [r] |}.

Definition put (s : mpmc) t th p : mpmc :=
  {| cells := cells s; epos := epos s; dpos := dpos s; threads := lset (threads s) t {| prog := prog th; at_pc := p; results := results th |};
     inserted := inserted s; removed := removed s |}.
Lemma st_idle (s : mpmc) t w th o r : nth_error (threads s) t = Some th -> at_pc th = Idle -> prog th = o :: r ->
  step s (t, w) = Ok (put s t {| prog := r; at_pc := Idle; results := results th |} (begin o)).
Proof. intros E P G. unfold step. rewrite E, P, G. reflexivity. Qed.
Lemma st_eload (s : mpmc) t w th v try : nth_error (threads s) t = Some th -> at_pc th = ELoad v try -> step s (t, w) = Ok (put s t th (ESeq v try (epos s))).
Proof. intros E P. unfold step. rewrite E, P. reflexivity. Qed.
Lemma st_eseq (s : mpmc) t w th v try pos c : nth_error (threads s) t = Some th -> at_pc th = ESeq v try pos -> rdz (cells s) (slot s pos) = Ok c ->
  step s (t, w) = (if diff (seq c) pos =? 0 then Ok (put s t th (ECas v try pos))
        else if try || (diff (seq c) pos <? 0) then Ok (ret s t th (REnqueue v false))
        else Ok (put s t th (ELoad v try))).
Proof. intros E P R. unfold step. rewrite E, P, R. reflexivity. Qed.
Lemma st_ecas (s : mpmc) t th v try : nth_error (threads s) t = Some th -> at_pc th = ECas v try (epos s) ->
  step s (t, false) = Ok {| cells := cells s; epos := wrapu64 (epos s + 1); dpos := dpos s;
     threads := lset (threads s) t {| prog := prog th; at_pc := EWrite v (epos s); results := results th |};
     inserted := inserted s ++ [(t, v)]; removed := removed s |}.
Proof. intros E P. unfold step. rewrite E, P, Z.eqb_refl. reflexivity. Qed.
Lemma st_ewrite (s : mpmc) t w th v pos c : nth_error (threads s) t = Some th -> at_pc th = EWrite v pos -> rdz (cells s) (slot s pos) = Ok c ->
  step s (t, w) = Ok {| cells := lset (cells s) (Z.to_nat (slot s pos)) {| seq := seq c; data := Some v |}; epos := epos s; dpos := dpos s;
     threads := lset (threads s) t {| prog := prog th; at_pc := EPublish v pos; results := results th |};
     inserted := inserted s; removed := removed s |}.
Proof. intros E P R. unfold step. rewrite E, P, R. reflexivity. Qed.
Lemma st_epub (s : mpmc) t w th v pos c : nth_error (threads s) t = Some th -> at_pc th = EPublish v pos -> rdz (cells s) (slot s pos) = Ok c ->
  step s (t, w) = Ok {| cells := lset (cells s) (Z.to_nat (slot s pos)) {| seq := wrapu64 (pos + 1); data := data c |}; epos := epos s; dpos := dpos s;
     threads := lset (threads s) t {| prog := prog th; at_pc := Idle; results := results th ++ [REnqueue v true] |};
     inserted := inserted s; removed := removed s |}.
Proof. intros E P R. unfold step. rewrite E, P, R. reflexivity. Qed.
Lemma st_dload (s : mpmc) t w th try : nth_error (threads s) t = Some th -> at_pc th = DLoad try -> step s (t, w) = Ok (put s t th (DSeq try (dpos s))).
Proof. intros E P. unfold step. rewrite E, P. reflexivity. Qed.
Lemma st_dseq (s : mpmc) t w th try pos c : nth_error (threads s) t = Some th -> at_pc th = DSeq try pos -> rdz (cells s) (slot s pos) = Ok c ->
  step s (t, w) = (if diff (seq c) (wrapu64 (pos + 1)) =? 0 then Ok (put s t th (DCas try pos))
        else if try || (diff (seq c) (wrapu64 (pos + 1)) <? 0) then Ok (ret s t th (RDequeue None))
        else Ok (put s t th (DLoad try))).
Proof. intros E P R. unfold step. rewrite E, P, R. reflexivity. Qed.
Lemma st_dcas (s : mpmc) t th try : nth_error (threads s) t = Some th -> at_pc th = DCas try (dpos s) ->
  step s (t, false) = Ok {| cells := cells s; epos := epos s; dpos := wrapu64 (dpos s + 1);
     threads := lset (threads s) t {| prog := prog th; at_pc := DRead (dpos s); results := results th |};
     inserted := inserted s; removed := removed s |}.
Proof. intros E P. unfold step. rewrite E, P, Z.eqb_refl. reflexivity. Qed.
Lemma st_dread (s : mpmc) t w th pos c v : nth_error (threads s) t = Some th -> at_pc th = DRead pos -> rdz (cells s) (slot s pos) = Ok c -> data c = Some v ->
  step s (t, w) = Ok {| cells := lset (cells s) (Z.to_nat (slot s pos)) {| seq := seq c; data := None |}; epos := epos s; dpos := dpos s;
     threads := lset (threads s) t {| prog := prog th; at_pc := DPublish pos v; results := results th |};
     inserted := inserted s; removed := removed s ++ [(t, (pos, v))] |}.
Proof. intros E P R D. unfold step. rewrite E, P, R. cbn [bind]. rewrite D. reflexivity. Qed.
Lemma st_dpub (s : mpmc) t w th v pos c : nth_error (threads s) t = Some th -> at_pc th = DPublish pos v -> rdz (cells s) (slot s pos) = Ok c -> exists c',
  step s (t, w) = Ok {| cells := lset (cells s) (Z.to_nat (slot s pos)) c'; epos := epos s; dpos := dpos s;
     threads := lset (threads s) t {| prog := prog th; at_pc := Idle; results := results th ++ [RDequeue (Some v)] |};
     inserted := inserted s; removed := removed s |}.
Proof. intros E P R. unfold step. rewrite E, P, R. eexists. reflexivity. Qed.

Ltac tidy := unfold put, ret; cbn [bind cells epos dpos threads inserted removed prog results]; rewrite ?lset_lset.
Ltac nx HT := cbn [threads]; apply nth_lset_eq; exact HT.
Lemma alone_enq s t th v (try : bool) r : inv s -> quiet s -> epos s < 2 ^ 62 -> nth_error (threads s) t = Some th ->
  prog th = (if try then TryEnqueue v else Enqueue v) :: r ->
  (epos s - dpos s < cap -> exists s', run s (repeat (t, false) 6) = Ok s' /\ inserted s' = inserted s ++ [(t, v)] /\ dpos s' = dpos s /\
     threads s' = lset (threads s) t (after th (REnqueue v true))) /\
  (epos s - dpos s = cap -> exists s', run s (repeat (t, false) 3) = Ok s' /\ inserted s' = inserted s /\ dpos s' = dpos s /\
     threads s' = lset (threads s) t (after th (REnqueue v false))).
Proof.
  intros I Q EB ET PG. pose proof cap2. pose proof (i_pos _ I). destruct (next_cell s I Q) as (c & A & R & C & D).
  assert (HT : (t < length (threads s))%nat) by (apply nth_error_Some; congruence).
  pose proof (i_len _ I) as IL.
  assert (BG : forall o, o = (if try then TryEnqueue v else Enqueue v) -> begin o = ELoad v try) by (intros o ->; destruct try; reflexivity).
  assert (RL : exists c', rdz (lset (cells s) (Z.to_nat (slot s (epos s))) {| seq := seq c; data := Some v |}) (slot s (epos s)) = Ok c').
  { unfold rdz, rd in R |- *. destruct (slot s (epos s) <? 0) eqn:X; [discriminate|]. rewrite nth_lset_eq; [eauto|].
    apply nth_error_Some. destruct (nth_error (cells s) (Z.to_nat (slot s (epos s)))); [discriminate|discriminate]. }
  destruct RL as (c' & RL).
  split; intros L.
  - assert (S : seq c = epos s) by (apply C; lia). cbn [repeat].
    cbn [run]. rewrite (st_idle s t false th _ r ET (Q _ _ ET) PG), (BG _ eq_refl). tidy.
    cbn [run]. erewrite st_eload; [|nx HT|reflexivity]. tidy.
    cbn [run]. erewrite st_eseq; [|nx HT|reflexivity|exact R]. rewrite diff_id by lia. replace (seq c - epos s =? 0) with true by (symmetry; apply Z.eqb_eq; lia). tidy.
    cbn [run]. erewrite st_ecas; [|nx HT|reflexivity]. tidy.
    cbn [run]. erewrite st_ewrite; [|nx HT|reflexivity|exact R]. tidy.
    cbn [run]. erewrite st_epub; [|nx HT|reflexivity|]. 2: { unfold slot. cbn [cells]. rewrite lset_length. exact RL. }
    tidy. eexists. split; [reflexivity|]. cbn. unfold after. rewrite PG. auto.
  - assert (S : seq c = epos s - cap + 1) by (apply D; lia). cbn [repeat].
    cbn [run]. rewrite (st_idle s t false th _ r ET (Q _ _ ET) PG), (BG _ eq_refl). tidy.
    cbn [run]. erewrite st_eload; [|nx HT|reflexivity]. tidy.
    cbn [run]. erewrite st_eseq; [|nx HT|reflexivity|exact R]. rewrite diff_id by lia. destruct (Z.eqb_spec (seq c - epos s) 0); [lia|].
    replace (seq c - epos s <? 0) with true by (symmetry; apply Z.ltb_lt; lia). rewrite orb_true_r. tidy.
    eexists. split; [reflexivity|]. cbn. unfold after. rewrite PG. auto.
Qed.
Lemma alone_deq s t th (try : bool) r : inv s -> quiet s -> epos s < 2 ^ 62 -> nth_error (threads s) t = Some th ->
  prog th = (if try then TryDequeue else Dequeue) :: r ->
  (dpos s < epos s -> exists s' v, ins s (dpos s) v /\ run s (repeat (t, false) 6) = Ok s' /\ inserted s' = inserted s /\ dpos s' = dpos s + 1 /\
     removed s' = removed s ++ [(t, (dpos s, v))] /\ threads s' = lset (threads s) t (after th (RDequeue (Some v)))) /\
  (dpos s = epos s -> exists s', run s (repeat (t, false) 3) = Ok s' /\ inserted s' = inserted s /\ dpos s' = dpos s /\
     threads s' = lset (threads s) t (after th (RDequeue None))).
Proof.
  intros I Q EB ET PG. pose proof cap2. pose proof (i_pos _ I). destruct (first_cell s I Q) as (c & A & R & C & D).
  assert (HT : (t < length (threads s))%nat) by (apply nth_error_Some; congruence).
  pose proof (i_len _ I) as IL.
  assert (BG : forall o, o = (if try then @TryDequeue V else Dequeue) -> begin o = DLoad try) by (intros o ->; destruct try; reflexivity).
  assert (RL : exists c', rdz (lset (cells s) (Z.to_nat (slot s (dpos s))) {| seq := seq c; data := None |}) (slot s (dpos s)) = Ok c').
  { unfold rdz, rd in R |- *. destruct (slot s (dpos s) <? 0) eqn:X; [discriminate|]. rewrite nth_lset_eq; [eauto|].
    apply nth_error_Some. destruct (nth_error (cells s) (Z.to_nat (slot s (dpos s)))); [discriminate|discriminate]. }
  destruct RL as (c' & RL).
  split; intros L.
  - destruct (C L) as (S & v & DV & IV). cbn [repeat].
    cbn [run]. rewrite (st_idle s t false th _ r ET (Q _ _ ET) PG), (BG _ eq_refl). tidy.
    cbn [run]. erewrite st_dload; [|nx HT|reflexivity]. tidy.
    cbn [run]. erewrite st_dseq; [|nx HT|reflexivity|exact R]. rewrite wrapu64_id, diff_id by lia. replace (seq c - (dpos s + 1) =? 0) with true by (symmetry; apply Z.eqb_eq; lia). tidy.
    cbn [run]. erewrite st_dcas; [|nx HT|reflexivity]. tidy.
    cbn [run]. erewrite st_dread; [|nx HT|reflexivity|exact R|exact DV]. tidy.
    cbn [run]. edestruct (st_dpub) as (cc & ->); [nx HT|reflexivity| |]. { unfold slot. cbn [cells]. rewrite lset_length. exact RL. }
    tidy. eexists. exists v. split; [exact IV|]. split; [reflexivity|]. cbn. unfold after. rewrite PG, wrapu64_id by lia. auto.
  - assert (S : seq c = dpos s) by (apply D; lia). cbn [repeat].
    cbn [run]. rewrite (st_idle s t false th _ r ET (Q _ _ ET) PG), (BG _ eq_refl). tidy.
    cbn [run]. erewrite st_dload; [|nx HT|reflexivity]. tidy.
    cbn [run]. erewrite st_dseq; [|nx HT|reflexivity|exact R]. rewrite wrapu64_id, diff_id by lia. destruct (Z.eqb_spec (seq c - (dpos s + 1)) 0); [lia|].
    replace (seq c - (dpos s + 1) <? 0) with true by (symmetry; apply Z.ltb_lt; lia). rewrite orb_true_r. tidy.
    eexists. split; [reflexivity|]. cbn. unfold after. rewrite PG. auto.
Qed.
End Mpmc.

Lemma pow2_land n : 1 <= n -> Z.land n (n - 1) = 0 -> n = 2 ^ Z.log2 n.
Proof.
  intros H L. destruct (Z.log2_spec n ltac:(lia)) as [A B]. destruct (Z.eq_dec n (2 ^ Z.log2 n)) as [E|N]; [exact E|exfalso]. assert (A' : 2 ^ Z.log2 n <= n - 1) by lia.
  assert (K : Z.log2 (n - 1) = Z.log2 n). { apply Z.log2_unique; [apply Z.log2_nonneg|]. clear L N. rewrite Z.pow_succ_r in * by apply Z.log2_nonneg. split; [exact A'|lia]. }
  assert (1 <= 2 ^ Z.log2 n) by (apply (Z.pow_le_mono_r 2 0); [lia|apply Z.log2_nonneg]).
  assert (T : Z.testbit (Z.land n (n - 1)) (Z.log2 n) = true).
  { rewrite Z.land_spec, Z.bit_log2 by lia. rewrite <- K. rewrite Z.bit_log2 by lia. reflexivity. }
  rewrite L, Z.bits_0 in T. discriminate.
Qed.
Lemma make_pow {V} size (progs : list (list (op V))) s : make size progs = Ok s -> exists k, 1 <= k /\ Z.of_nat size = 2 ^ k.
Proof.
  unfold make. destruct (_ && _) eqn:E; [|discriminate]. intros _. apply andb_true_iff in E. destruct E as [A B].
  apply Z.leb_le in A. apply Z.eqb_eq in B. exists (Z.log2 (Z.of_nat size)). split; [|apply pow2_land; [lia|exact B]].
  apply Z.log2_le_pow2; lia.
Qed.
