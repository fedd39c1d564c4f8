(** C31, C32: the two bounded queues. *)
From Verif Require Import Base ListAux QueueModel QueueSpec MpmcProofs SpscProofs.

(** A reachable state of the MPMC queue, within the limits of the theorems. *)
Definition reachable {V} (size : nat) (progs : list (list (op V))) (s : mpmc V) : Prop :=
  Z.of_nat size <= 2 ^ 62 /\ Forall (Forall no_bulk) progs /\
  exists s0 sched, make size progs = Ok s0 /\ Z.of_nat (length sched) < 2 ^ 62 - 1 /\ run s0 sched = Ok s.

Lemma reach {V} size (progs : list (list (op V))) s : reachable size progs s ->
  (exists k, 1 <= k /\ Z.of_nat size = 2 ^ k) /\ Z.of_nat size <= 2 ^ 62 /\ inv (Z.of_nat size) s /\ hist s /\ epos s < 2 ^ 62 - 1.
Proof.
  intros (SZ & NB & s0 & sched & E & L & R). pose proof (make_pow _ _ _ E) as CAP. split; [exact CAP|]. split; [exact SZ|].
  destruct (start_inv (Z.of_nat size) CAP SZ size progs s0 eq_refl E NB) as (I & H & E0 & _).
  destruct (run_ok (Z.of_nat size) CAP SZ sched s0 I H ltac:(lia)) as (s' & R' & I' & H' & B & _). rewrite R in R'. injection R' as <-.
  split; [exact I'|]. split; [exact H'|]. lia.
Qed.
Lemma run_app {V} (a b : list (nat * bool)) : forall s : mpmc V, run s (a ++ b) = bind (run s a) (fun s' => run s' b).
Proof. induction a as [|e a IH]; intros s; cbn [run app bind]; [reflexivity|]. destruct (step s e); cbn [bind]; auto. Qed.

Lemma prefix_nth {A} (a : list A) : forall b, (length a <= length b)%nat ->
  (forall i x y, nth_error a i = Some x -> nth_error b i = Some y -> x = y) -> a ++ skipn (length a) b = b.
Proof.
  induction a as [|x a IH]; intros [|y b] L H; cbn in *; try lia; auto. f_equal.
  - exact (H 0%nat x y eq_refl eq_refl).
  - apply IH; [lia|]. intros i u w U W. exact (H (S i) u w U W).
Qed.

(** Every interleaving of any number of threads: no step touches memory it may not, and all results
    are explained by one first-in first-out history. size() is the number of values claimed for
    insertion and not yet for removal. *)
Theorem C31_fifo : forall V (size : nat) (progs : list (list (op V))) sched s0,
  make size progs = Ok s0 -> Z.of_nat size <= 2 ^ 62 -> Forall (Forall no_bulk) progs -> Z.of_nat (length sched) < 2 ^ 62 - 1 ->
  exists s l d, run s0 sched = Ok s /\ explains size l d s /\ size_of s = Z.of_nat (length l) - Z.of_nat (length d).
Proof.
  intros V size progs sched s0 E SZ NB L. pose proof (make_pow _ _ _ E) as CAP.
  destruct (start_inv (Z.of_nat size) CAP SZ size progs s0 eq_refl E NB) as (I & H & E0 & _).
  destruct (run_ok (Z.of_nat size) CAP SZ sched s0 I H ltac:(lia)) as (s & R & I' & H' & B & _).
  destruct (dlist_ex _ s I' H') as (d & D). exists s, (inserted s), d. split; [exact R|].
  split; [exact (explained _ s d size I' H' eq_refl D)|]. destruct D as [D _]. pose proof (i_ins _ _ I') as Q. pose proof (i_pos _ _ I') as P.
  unfold size_of. rewrite wrapu64_id; lia.
Qed.
Print Assumptions C31_fifo.
(** The history only grows at its end: what has returned keeps its place, so calls that do not
    overlap in time are in the order in which they were made. *)
Theorem C31_real_time : forall V (size : nat) (progs : list (list (op V))) sched1 sched2 s0,
  make size progs = Ok s0 -> Z.of_nat size <= 2 ^ 62 -> Forall (Forall no_bulk) progs -> Z.of_nat (length (sched1 ++ sched2)) < 2 ^ 62 - 1 ->
  exists s1 s2 l d x y, run s0 sched1 = Ok s1 /\ run s1 sched2 = Ok s2 /\ explains size l d s1 /\ explains size (l ++ x) (d ++ y) s2.
Proof.
  intros V size progs sched1 sched2 s0 E SZ NB L. rewrite app_length in L. pose proof (make_pow _ _ _ E) as CAP.
  destruct (start_inv (Z.of_nat size) CAP SZ size progs s0 eq_refl E NB) as (I & H & E0 & _).
  destruct (run_ok (Z.of_nat size) CAP SZ sched1 s0 I H ltac:(lia)) as (s1 & R1 & I1 & H1 & B1 & _).
  destruct (run_ok (Z.of_nat size) CAP SZ sched2 s1 I1 H1 ltac:(lia)) as (s2 & R2 & I2 & H2 & B2 & (x & X) & OW & _ & DP).
  destruct (dlist_ex _ s1 I1 H1) as (d & D). destruct (dlist_ex _ s2 I2 H2) as (d2 & D2).
  exists s1, s2, (inserted s1), d, x, (skipn (length d) d2). split; [exact R1|]. split; [exact R2|].
  split; [exact (explained _ s1 d size I1 H1 eq_refl D)|].
  assert (PRE : d ++ skipn (length d) d2 = d2).
  { destruct D as [DL DO]. destruct D2 as [DL2 DO2]. apply prefix_nth; [lia|]. intros i t t2 E1 E2.
    apply (own_uniq _ s2 t t2 (Z.of_nat i) I2 H2); [apply OW, DO, E1|apply DO2, E2]. }
  rewrite PRE, <- X. exact (explained _ s2 d2 size I2 H2 eq_refl D2).
Qed.
Print Assumptions C31_real_time.
(** No two threads access the value of one slot at the same time. *)
Definition touches {V} (p : pc V) : option Z := match p with EWrite _ pos | DRead pos => Some pos | _ => None end.
Theorem C31_exclusive : forall V size (progs : list (list (op V))) s t t' th th' p p', reachable size progs s ->
  nth_error (threads s) t = Some th -> nth_error (threads s) t' = Some th' -> t <> t' ->
  touches (at_pc th) = Some p -> touches (at_pc th') = Some p' -> slot s p <> slot s p'.
Proof.
  intros V size progs s t t' th th' p p' RE E E' N T T' SL. destruct (reach _ _ _ RE) as (CAP & SZ & I & H & _).
  assert (G : forall (q : pc V) x, touches q = Some x -> hold q = Some x) by (intros q x; destruct q; cbn; congruence).
  apply G in T, T'. rewrite !(slot_mod _ CAP SZ s _ I) in SL.
  pose proof (hold_range _ s _ _ _ I E T) as [R _]. pose proof (hold_range _ s _ _ _ I E' T') as [R' _].
  pose proof (near_mod _ CAP SZ p p' (epos s) R R' SL) as ->. apply N. exact (i_uniq _ _ I _ _ _ _ _ E E' T T').
Qed.
Print Assumptions C31_exclusive.
(** enqueue answers false only at a moment when the queue is full, or when the slot it needs is being
    emptied by a dequeue that has not returned. *)
Theorem C31_full_answer : forall V size (progs : list (list (op V))) s t w s' th th' v pos, reachable size progs s ->
  nth_error (threads s) t = Some th -> at_pc th = ESeq v false pos -> step s (t, w) = Ok s' ->
  nth_error (threads s') t = Some th' -> results th' = results th ++ [REnqueue v false] ->
  size_of s = Z.of_nat size \/ exists u th'', nth_error (threads s) u = Some th'' /\
    ((exists p, at_pc th'' = DRead p) \/ (exists p x, at_pc th'' = DPublish p x)).
Proof.
  intros V size progs s t w s' th th' v pos RE ET EP ST ET' ER. destruct (reach _ _ _ RE) as (CAP & SZ & I & H & EB).
  assert (HT : (t < length (threads s))%nat) by (apply nth_error_Some; congruence).
  destruct (at_some _ CAP SZ s pos I) as (c & A & R). rewrite (st_eseq s t w th v false pos c ET EP R) in ST.
  pose proof (i_thr _ _ I _ _ ET) as T. rewrite EP in T. cbn in T.
  rewrite diff_id in ST; [|eapply (seq_bound _ CAP SZ s pos c I); [lia|exact A]|lia].
  assert (NR : forall p, s' <> put s t th p).
  { intros p ->. cbn in ET'. rewrite nth_lset_eq in ET' by exact HT. injection ET' as <-. cbn in ER. apply (f_equal (@length _)) in ER. rewrite app_length in ER. cbn in ER. lia. }
  destruct (Z.eqb_spec (seq c - pos) 0) as [X|X]; [injection ST as <-; destruct (NR _ eq_refl)|]. cbn [orb] in ST.
  destruct (Z.ltb_spec (seq c - pos) 0) as [Y|Y]; [|injection ST as <-; destruct (NR _ eq_refl)].
  destruct (enq_full _ CAP SZ s pos c I A T ltac:(lia)) as [_ [F|(u & th'' & E1 & E2)]].
  - left. unfold size_of. rewrite wrapu64_id; [exact F|]. lia.
  - right. exists u, th''. split; [exact E1|]. destruct (at_pc th''); try discriminate; eauto.
Qed.
Print Assumptions C31_full_answer.
(** dequeue answers false only at a moment when the queue is empty, or when the value that is next
    has not been published by the enqueue that claimed its place. *)
Theorem C31_empty_answer : forall V size (progs : list (list (op V))) s t w s' th th' pos, reachable size progs s ->
  nth_error (threads s) t = Some th -> at_pc th = DSeq false pos -> step s (t, w) = Ok s' ->
  nth_error (threads s') t = Some th' -> results th' = results th ++ [RDequeue None] ->
  size_of s = 0 \/ exists u th'' x, nth_error (threads s) u = Some th'' /\
    (at_pc th'' = EWrite x (dpos s) \/ at_pc th'' = EPublish x (dpos s)).
Proof.
  intros V size progs s t w s' th th' pos RE ET EP ST ET' ER. destruct (reach _ _ _ RE) as (CAP & SZ & I & H & EB).
  assert (HT : (t < length (threads s))%nat) by (apply nth_error_Some; congruence).
  destruct (at_some _ CAP SZ s pos I) as (c & A & R). rewrite (st_dseq s t w th false pos c ET EP R) in ST.
  pose proof (i_thr _ _ I _ _ ET) as T. rewrite EP in T. cbn in T. pose proof (i_pos _ _ I) as IP.
  rewrite wrapu64_id in ST by lia.
  rewrite diff_id in ST; [|eapply (seq_bound _ CAP SZ s pos c I); [lia|exact A]|lia].
  assert (NR : forall p, s' <> put s t th p).
  { intros p ->. cbn in ET'. rewrite nth_lset_eq in ET' by exact HT. injection ET' as <-. cbn in ER. apply (f_equal (@length _)) in ER. rewrite app_length in ER. cbn in ER. lia. }
  destruct (Z.eqb_spec (seq c - (pos + 1)) 0) as [X|X]; [injection ST as <-; destruct (NR _ eq_refl)|]. cbn [orb] in ST.
  destruct (Z.ltb_spec (seq c - (pos + 1)) 0) as [Y|Y]; [|injection ST as <-; destruct (NR _ eq_refl)].
  destruct (deq_empty _ CAP SZ s pos c I A T ltac:(lia)) as [_ [F|(u & th'' & E1 & E2)]].
  - left. unfold size_of. rewrite F, Z.sub_diag. reflexivity.
  - right. exists u, th''. destruct (at_pc th''); try discriminate; cbn in E2; injection E2 as ->; eexists; split; eauto.
Qed.
Print Assumptions C31_empty_answer.
(** enqueue and dequeue go round their loops only because another thread has claimed a position since
    they read it. *)
Theorem C31_retry : forall V size (progs : list (list (op V))) s t s' th th', reachable size progs s ->
  nth_error (threads s) t = Some th -> step s (t, false) = Ok s' -> nth_error (threads s') t = Some th' ->
  (forall v pos, at_pc th = ESeq v false pos -> at_pc th' = ELoad v false -> pos < epos s) /\
  (forall v pos q, at_pc th = ECas v false pos -> at_pc th' = ESeq v false q -> pos < epos s) /\
  (forall pos, at_pc th = DSeq false pos -> at_pc th' = DLoad false -> pos < dpos s) /\
  (forall pos q, at_pc th = DCas false pos -> at_pc th' = DSeq false q -> pos < dpos s).
Proof.
  intros V size progs s t s' th th' RE ET ST ET'. destruct (reach _ _ _ RE) as (CAP & SZ & I & H & EB).
  assert (HT : (t < length (threads s))%nat) by (apply nth_error_Some; congruence).
  pose proof (i_thr _ _ I _ _ ET) as T. pose proof (i_pos _ _ I) as IP. pose proof (cap2 _ CAP SZ) as C2.
  split; [|split; [|split]].
  - intros v pos EP EP'. rewrite EP in T. cbn in T. destruct (at_some _ CAP SZ s pos I) as (c & A & R). rewrite (st_eseq s t false th v false pos c ET EP R) in ST.
    rewrite diff_id in ST; [|eapply (seq_bound _ CAP SZ s pos c I); [lia|exact A]|lia].
    destruct (Z.eqb_spec (seq c - pos) 0) as [X|X]; [injection ST as <-; cbn in ET'; rewrite nth_lset_eq in ET' by exact HT; injection ET' as <-; discriminate|]. cbn [orb] in ST.
    destruct (Z.ltb_spec (seq c - pos) 0) as [Y|Y]; [injection ST as <-; cbn in ET'; rewrite nth_lset_eq in ET' by exact HT; injection ET' as <-; discriminate|].
    destruct (Z.eq_dec pos (epos s)) as [->|]; [exfalso|lia]. destruct (seq_cases _ CAP SZ s _ c I A) as (p & PR & M & A' & B & C).
    assert (p = epos s - Z.of_nat size).
    { apply (near_mod _ CAP SZ p (epos s - Z.of_nat size) (epos s) PR); [lia|]. rewrite M. replace (epos s - Z.of_nat size) with (epos s + (-1) * Z.of_nat size) by ring. symmetry. apply Z.mod_add. lia. }
    subst p. destruct (Z.lt_ge_cases (epos s - Z.of_nat size) (dpos s)) as [Q|Q]; [destruct (C Q) as [K|(_ & K & _)]; lia|destruct (B Q) as [K|[K _]]; lia].
  - intros v pos q EP EP'. rewrite EP in T. cbn in T. destruct T as [T _]. destruct (Z.eq_dec pos (epos s)) as [->|]; [exfalso|lia].
    rewrite (st_ecas s t th v false ET EP) in ST. injection ST as <-. cbn in ET'. rewrite nth_lset_eq in ET' by exact HT. injection ET' as <-. discriminate.
  - intros pos EP EP'. rewrite EP in T. cbn in T. destruct (at_some _ CAP SZ s pos I) as (c & A & R). rewrite (st_dseq s t false th false pos c ET EP R) in ST.
    rewrite wrapu64_id in ST by lia. rewrite diff_id in ST; [|eapply (seq_bound _ CAP SZ s pos c I); [lia|exact A]|lia].
    destruct (Z.eqb_spec (seq c - (pos + 1)) 0) as [X|X]; [injection ST as <-; cbn in ET'; rewrite nth_lset_eq in ET' by exact HT; injection ET' as <-; discriminate|]. cbn [orb] in ST.
    destruct (Z.ltb_spec (seq c - (pos + 1)) 0) as [Y|Y]; [injection ST as <-; cbn in ET'; rewrite nth_lset_eq in ET' by exact HT; injection ET' as <-; discriminate|].
    destruct (Z.eq_dec pos (dpos s)) as [->|]; [exfalso|lia]. destruct (seq_cases _ CAP SZ s _ c I A) as (p & PR & M & A' & B & C).
    destruct (Z.eq_dec (dpos s) (epos s)) as [E|NE].
    + assert (p = epos s - Z.of_nat size).
      { apply (near_mod _ CAP SZ p (epos s - Z.of_nat size) (epos s) PR); [lia|]. rewrite M, E. replace (epos s - Z.of_nat size) with (epos s + (-1) * Z.of_nat size) by ring. symmetry. apply Z.mod_add. lia. }
      subst p. destruct (C ltac:(lia)) as [K|(_ & K & _)]; lia.
    + pose proof (near_mod _ CAP SZ p (dpos s) (epos s) PR ltac:(lia) M) as ->. destruct (B ltac:(lia)) as [K|[K _]]; lia.
  - intros pos q EP EP'. rewrite EP in T. cbn in T. destruct T as [T _]. destruct (Z.eq_dec pos (dpos s)) as [->|]; [exfalso|lia].
    rewrite (st_dcas s t th false ET EP) in ST. injection ST as <-. cbn in ET'. rewrite nth_lset_eq in ET' by exact HT. injection ET' as <-. discriminate.
Qed.
Print Assumptions C31_retry.

Lemma alone_explains {V} size (progs : list (list (op V))) s : reachable size progs s -> exists d, dlist s d /\ explains size (inserted s) d s /\
  Z.of_nat (length (inserted s)) = epos s.
Proof.
  intros RE. destruct (reach _ _ _ RE) as (CAP & SZ & I & H & EB). destruct (dlist_ex _ s I H) as (d & D). exists d. split; [exact D|].
  split; [exact (explained _ s d size I H eq_refl D)|exact (i_ins _ _ I)].
Qed.
Lemma reach_run {V} size (progs : list (list (op V))) s sched s' : reachable size progs s -> run s sched = Ok s' -> Z.of_nat (length sched) <= 1000 -> epos s < 2 ^ 62 - 1000 ->
  inv (Z.of_nat size) s' /\ hist s' /\ (forall t p, owns s t p -> owns s' t p).
Proof.
  intros RE R L B. destruct (reach _ _ _ RE) as (CAP & SZ & I & H & EB).
  destruct (run_ok _ CAP SZ sched s I H ltac:(lia)) as (s2 & R2 & I2 & H2 & _ & _ & OW & _). rewrite R in R2. injection R2 as <-. auto.
Qed.

(** A call that no other thread interrupts, on a queue no thread is in the middle of using: enqueue
    succeeds exactly if the queue is not full, and then the value is the last of the history. *)
Theorem C31_alone_enqueue : forall V size (progs : list (list (op V))) s t th v (try : bool) r, reachable size progs s -> epos s < 2 ^ 62 - 1000 ->
  (forall u thu, nth_error (threads s) u = Some thu -> at_pc thu = Idle) ->
  nth_error (threads s) t = Some th -> prog th = (if try then TryEnqueue v else Enqueue v) :: r ->
  exists l d n s', explains size l d s /\ run s (repeat (t, false) n) = Ok s' /\
    threads s' = lset (threads s) t {| prog := r; at_pc := Idle; results := results th ++ [REnqueue v (Z.of_nat (length l - length d) <? Z.of_nat size)] |} /\
    explains size (if Z.of_nat (length l - length d) <? Z.of_nat size then l ++ [(t, v)] else l) d s'.
Proof.
  intros V size progs s t th v try r RE B Q ET PG. destruct (alone_explains _ _ _ RE) as (d & D & EX & LEN).
  destruct (reach _ _ _ RE) as (CAP & SZ & I & H & EB). pose proof (i_pos _ _ I) as IP.
  destruct (alone_enq _ CAP SZ s t th v try r I Q ltac:(lia) ET PG) as [SUC FUL]. exists (inserted s), d. destruct D as [DL DO].
  destruct (Z.ltb_spec (Z.of_nat (length (inserted s) - length d)) (Z.of_nat size)) as [LT|GE].
  - destruct (SUC ltac:(lia)) as (s' & R & EI & ED & TH). exists 6%nat, s'. split; [exact EX|]. split; [exact R|].
    split; [rewrite TH; unfold after; rewrite PG; reflexivity|]. destruct (reach_run _ _ s _ s' RE R ltac:(rewrite repeat_length; lia) B) as (I' & H' & OW).
    rewrite <- EI. apply (explained _ s' d size I' H' eq_refl). split; [lia|auto].
  - destruct (FUL ltac:(lia)) as (s' & R & EI & ED & TH). exists 3%nat, s'. split; [exact EX|]. split; [exact R|].
    split; [rewrite TH; unfold after; rewrite PG; reflexivity|]. destruct (reach_run _ _ s _ s' RE R ltac:(rewrite repeat_length; lia) B) as (I' & H' & OW).
    rewrite <- EI. apply (explained _ s' d size I' H' eq_refl). split; [lia|auto].
Qed.
Print Assumptions C31_alone_enqueue.
(** ... and dequeue returns the oldest value that is not taken yet, if there is one. *)
Theorem C31_alone_dequeue : forall V size (progs : list (list (op V))) s t th (try : bool) r, reachable size progs s -> epos s < 2 ^ 62 - 1000 ->
  (forall u thu, nth_error (threads s) u = Some thu -> at_pc thu = Idle) ->
  nth_error (threads s) t = Some th -> prog th = (if try then TryDequeue else Dequeue) :: r ->
  exists l d n s', explains size l d s /\ run s (repeat (t, false) n) = Ok s' /\
    threads s' = lset (threads s) t {| prog := r; at_pc := Idle; results := results th ++ [RDequeue (nth_error (map snd l) (length d))] |} /\
    explains size l (if (length d <? length l)%nat then d ++ [t] else d) s'.
Proof.
  intros V size progs s t th try r RE B Q ET PG. destruct (alone_explains _ _ _ RE) as (d & D & EX & LEN).
  destruct (reach _ _ _ RE) as (CAP & SZ & I & H & EB). pose proof (i_pos _ _ I) as IP.
  destruct (alone_deq _ CAP SZ s t th try r I Q ltac:(lia) ET PG) as [SUC FUL]. exists (inserted s), d. destruct D as [DL DO].
  destruct (Nat.ltb_spec (length d) (length (inserted s))) as [LT|GE].
  - destruct (SUC ltac:(lia)) as (s' & w & IN & R & EI & ED & ER & TH). exists 6%nat, s'. split; [exact EX|]. split; [exact R|].
    split. { rewrite TH. unfold after. rewrite PG. apply ins_nth in IN. rewrite <- IN. replace (length d) with (Z.to_nat (dpos s)) by lia. reflexivity. }
    destruct (reach_run _ _ s _ s' RE R ltac:(rewrite repeat_length; lia) B) as (I' & H' & OW).
    rewrite <- EI. apply (explained _ s' _ size I' H' eq_refl). split; [rewrite app_length; cbn; lia|].
    intros i u E. destruct (Nat.lt_ge_cases i (length d)) as [X|X]; [rewrite nth_error_app1 in E by exact X; auto|].
    rewrite nth_error_app2 in E by exact X. destruct (i - length d)%nat as [|[|k]] eqn:K; cbn in E; try discriminate. injection E as <-.
    left. exists w. rewrite ER. apply in_or_app. right. left. replace (Z.of_nat i) with (dpos s) by lia. reflexivity.
  - destruct (FUL ltac:(lia)) as (s' & R & EI & ED & TH). exists 3%nat, s'. split; [exact EX|]. split; [exact R|].
    split. { rewrite TH. unfold after. rewrite PG. rewrite (proj2 (nth_error_None _ _)); [reflexivity|]. rewrite map_length. exact GE. }
    destruct (reach_run _ _ s _ s' RE R ltac:(rewrite repeat_length; lia) B) as (I' & H' & OW).
    rewrite <- EI. apply (explained _ s' d size I' H' eq_refl). split; [lia|auto].
Qed.
Print Assumptions C31_alone_dequeue.

(** enqueue_bulk checks the first slot only: three values enter a queue of two, the call answers true,
    size() is 3, and a dequeue never returns. *)
Theorem C31_bulk_refuted : exists s0 s th, make 2 [[EnqueueBulk [1; 2; 3]; Dequeue]] = Ok s0 /\ run s0 (repeat (0%nat, false) 11) = Ok s /\
  nth_error (threads s) 0 = Some th /\ results th = [RBulk true] /\ size_of s = 3 /\
  forall n, exists s' th', run s (repeat (0%nat, false) n) = Ok s' /\ nth_error (threads s') 0 = Some th' /\ results th' = [RBulk true].
Proof.
  eexists. eexists. eexists. split; [reflexivity|]. split; [vm_compute; reflexivity|]. split; [reflexivity|]. split; [reflexivity|]. split; [reflexivity|].
  assert (G : forall n, exists s' th', run {| cells := [{| seq := 3; data := Some 3 |}; {| seq := 2; data := Some 2 |}]; epos := 3; dpos := 0;
     threads := [{| prog := []; at_pc := DLoad false; results := [RBulk true] |}]; inserted := [(0%nat, 1); (0%nat, 2); (0%nat, 3)]; removed := [] |} (repeat (0%nat, false) n) = Ok s'
     /\ nth_error (threads s') 0 = Some th' /\ results th' = [RBulk true]).
  { intros n. induction n as [n IH] using (well_founded_induction Wf_nat.lt_wf). destruct n as [|[|n]].
    - eexists. eexists. split; [reflexivity|]. split; reflexivity.
    - eexists. eexists. split; [reflexivity|]. split; reflexivity.
    - destruct (IH n ltac:(lia)) as (s' & th' & R & X). exists s', th'. split; [|exact X]. exact R. }
  intros [|n]; [eexists; eexists; split; [reflexivity|]; split; reflexivity|]. destruct (G n) as (s' & th' & R & X). exists s', th'. split; [exact R|exact X].
Qed.
Print Assumptions C31_bulk_refuted.

(** Two producers and a consumer on a queue of two slots: the hypotheses of the theorems are met,
    with a producer in the middle of its call. *)
Definition ex_progs : list (list (op Z)) := [[Enqueue 5; Enqueue 6]; [TryEnqueue 7]; [Dequeue; Dequeue]].
Definition ex_sched : list (nat * bool) := map (fun t => (t, false)) [0; 0; 0; 0; 1; 1; 1; 1; 0; 0; 2; 2; 2; 2; 2; 2; 1; 0; 0; 0; 2; 2; 2]%nat.
Example C31_example : exists s0 s, make 2 ex_progs = Ok s0 /\ Forall (Forall no_bulk) ex_progs /\ run s0 ex_sched = Ok s /\ reachable 2 ex_progs s /\
    map snd (inserted s) = [5; 7] /\ map results (threads s) = [[REnqueue 5 true]; []; [RDequeue (Some 5); RDequeue None]].
Proof.
  assert (NB : Forall (Forall no_bulk) ex_progs) by (repeat constructor).
  assert (M : exists s0 s, make 2 ex_progs = Ok s0 /\ run s0 ex_sched = Ok s /\
    map snd (inserted s) = [5; 7] /\ map results (threads s) = [[REnqueue 5 true]; []; [RDequeue (Some 5); RDequeue None]]).
  { eexists. eexists. split; [vm_compute; reflexivity|]. split; [vm_compute; reflexivity|]. split; vm_compute; reflexivity. }
  destruct M as (s0 & s & M & R & X). exists s0, s. split; [exact M|]. split; [exact NB|]. split; [exact R|]. split; [|exact X].
  split; [vm_compute; discriminate|]. split; [exact NB|]. exists s0, ex_sched. split; [exact M|]. split; [reflexivity|exact R].
Qed.

(** *** C32 *)
(** Every interleaving of one producer and one consumer: no bad access, what came out is the first
    part of what went in, and at most size - 1 values are inside. *)
Theorem C32_fifo : forall V (size : nat) (values : list V) n sched s0, Z.of_nat size < two64 -> smake size values n = Ok s0 ->
  exists s, srun s0 sched = Ok s /\
    (exists rest, accepted (presults s) = got (cresults s) ++ rest /\ (length rest <= size - 1)%nat).
Proof.
  intros V size values n sched s0 B E. pose proof (smake_pow _ _ _ _ B E) as POW.
  pose proof (sstart _ POW size values n s0 eq_refl E) as I. destruct (srun_ok _ POW sched s0 I) as (s & R & I').
  exists s. split; [exact R|]. exists (skipn (length (rcvd s)) (sent s)). split.
  - pose proof (s_pre _ _ I') as P. fold (rcvd s) (sent s). rewrite P at 1. symmetry. apply firstn_skipn.
  - rewrite skipn_length. pose proof (s_cnt _ _ I') as C. unfold hh, tt_ in C. pose proof (n_pos _ POW). lia.
Qed.
Print Assumptions C32_fifo.
(** enqueue answers false exactly if at the moment it looks the queue holds size - 1 values. *)
Theorem C32_full_answer : forall V (size : nat) (values : list V) n sched s0 s s' v h, Z.of_nat size < two64 -> smake size values n = Ok s0 ->
  srun s0 sched = Ok s -> prod s = PTail v h -> pstep s = Ok s' ->
  (Z.of_nat (length (accepted (presults s))) - Z.of_nat (length (got (cresults s))) = Z.of_nat size - 1 ->
     prod s' = PIdle /\ presults s' = presults s ++ [REnqueue v false]) /\
  (Z.of_nat (length (accepted (presults s))) - Z.of_nat (length (got (cresults s))) <> Z.of_nat size - 1 ->
     prod s' = PWrite v h /\ presults s' = presults s).
Proof.
  intros V size values n sched s0 s s' v h B E R P ST. pose proof (smake_pow _ _ _ _ B E) as POW.
  pose proof (sstart _ POW size values n s0 eq_refl E) as I. destruct (srun_ok _ POW sched s0 I) as (s1 & R' & I'). rewrite R in R'. injection R' as <-.
  unfold pstep in ST. rewrite P in ST. pose proof (s_prod _ _ I') as SP. rewrite P in SP. subst h.
  rewrite (full_test _ POW s I') in ST. pose proof (s_cnt _ _ I') as C. unfold hh, tt_, sent, rcvd in *.
  split; intros L; destruct (Z.geb_spec (Z.of_nat size - 1 - (Z.of_nat (length (accepted (presults s))) - Z.of_nat (length (got (cresults s))))) 1) as [X|X]; try lia;
    injection ST as <-; unfold pset; cbn [prod presults]; rewrite ?app_nil_r; auto.
Qed.
Print Assumptions C32_full_answer.
(** dequeue answers false exactly if at the moment it looks the queue is empty. *)
Theorem C32_empty_answer : forall V (size : nat) (values : list V) n sched s0 s s' t, Z.of_nat size < two64 -> smake size values n = Ok s0 ->
  srun s0 sched = Ok s -> cons_ s = CHead t -> cstep s = Ok s' ->
  (length (accepted (presults s)) = length (got (cresults s)) -> cons_ s' = CIdle /\ cresults s' = cresults s ++ [RDequeue None]) /\
  (length (accepted (presults s)) <> length (got (cresults s)) -> cons_ s' = CRead t /\ cresults s' = cresults s).
Proof.
  intros V size values n sched s0 s s' t B E R P ST. pose proof (smake_pow _ _ _ _ B E) as POW.
  pose proof (sstart _ POW size values n s0 eq_refl E) as I. destruct (srun_ok _ POW sched s0 I) as (s1 & R' & I'). rewrite R in R'. injection R' as <-.
  unfold cstep in ST. rewrite P in ST. pose proof (s_cons _ _ I') as SP. rewrite P in SP. subst t.
  rewrite (empty_test _ POW s I') in ST. pose proof (s_cnt _ _ I') as C. unfold hh, tt_, sent, rcvd in *.
  split; intros L; destruct (Z.geb_spec (Z.of_nat (length (accepted (presults s))) - Z.of_nat (length (got (cresults s)))) 1) as [X|X]; try lia;
    injection ST as <-; unfold cset; cbn [cons_ cresults]; rewrite ?app_nil_r; auto.
Qed.
Print Assumptions C32_empty_answer.
(** No call blocks: at most four more steps of its thread finish it, whatever the other has done. *)
Theorem C32_wait_free : forall V (size : nat) (values : list V) n sched s0 s, Z.of_nat size < two64 -> smake size values n = Ok s0 ->
  srun s0 sched = Ok s ->
  (exists k s', (k <= 4)%nat /\ srun s (repeat true k) = Ok s' /\ prod s' = PIdle) /\
  (exists k s', (k <= 4)%nat /\ srun s (repeat false k) = Ok s' /\ cons_ s' = CIdle).
Proof.
  intros V size values n sched s0 s B E R. pose proof (smake_pow _ _ _ _ B E) as POW.
  pose proof (sstart _ POW size values n s0 eq_refl E) as I. destruct (srun_ok _ POW sched s0 I) as (s1 & R' & I'). rewrite R in R'. injection R' as <-.
  set (pr := fun p : ppc V => match p with PIdle => 0 | PHead _ => 4 | PTail _ _ => 3 | PWrite _ _ => 2 | PStore _ _ => 1 end%nat).
  set (cr := fun p : cpc V => match p with CIdle => 0 | CTail => 4 | CHead _ => 3 | CRead _ => 2 | CStore _ _ => 1 end%nat).
  assert (PP : forall m x, sinv (Z.of_nat size) x -> (pr (prod x) <= m)%nat -> exists k x', (k <= m)%nat /\ srun x (repeat true k) = Ok x' /\ prod x' = PIdle).
  { induction m as [|m IH]; intros x IX L.
    - exists 0%nat, x. destruct (prod x) eqn:P; cbn in L; try lia. auto.
    - destruct (pr (prod x)) as [|q] eqn:PQ; [exists 0%nat, x; destruct (prod x) eqn:P; cbn in PQ; try lia; split; [lia|]; split; [reflexivity|]; first [exact P|reflexivity]|].
      destruct (pstep_ok _ POW x IX) as (y & EY & IY).
      assert (LY : (pr (prod y) <= m)%nat).
      { unfold pstep in EY. destruct (prod x); cbn in PQ; try lia.
        - injection EY as <-. cbn. lia.
        - destruct (_ >=? _); injection EY as <-; cbn; lia.
        - destruct (rdz _ _); cbn in EY; try discriminate. injection EY as <-. cbn. lia.
        - injection EY as <-. cbn. lia. }
      destruct (IH y IY LY) as (k & z & K1 & K2 & K3). exists (S k), z. split; [lia|]. split; [|exact K3]. cbn [repeat srun]. rewrite EY. exact K2. }
  assert (CC : forall m x, sinv (Z.of_nat size) x -> (cr (cons_ x) <= m)%nat -> exists k x', (k <= m)%nat /\ srun x (repeat false k) = Ok x' /\ cons_ x' = CIdle).
  { induction m as [|m IH]; intros x IX L.
    - exists 0%nat, x. destruct (cons_ x) eqn:P; cbn in L; try lia. auto.
    - destruct (cr (cons_ x)) as [|q] eqn:PQ; [exists 0%nat, x; destruct (cons_ x) eqn:P; cbn in PQ; try lia; split; [lia|]; split; [reflexivity|]; first [exact P|reflexivity]|].
      destruct (cstep_ok _ POW x IX) as (y & EY & IY).
      assert (LY : (cr (cons_ y) <= m)%nat).
      { unfold cstep in EY. destruct (cons_ x); cbn in PQ; try lia.
        - injection EY as <-. cbn. lia.
        - destruct (_ >=? _); injection EY as <-; cbn; lia.
        - destruct (rdz _ _) as [o| | |]; cbn in EY; try discriminate. destruct o; [|discriminate]. injection EY as <-. cbn. lia.
        - injection EY as <-. cbn. lia. }
      destruct (IH y IY LY) as (k & z & K1 & K2 & K3). exists (S k), z. split; [lia|]. split; [|exact K3]. cbn [repeat srun]. rewrite EY. exact K2. }
  split; [apply PP; [exact I'|destruct (prod s); cbn; lia]|apply CC; [exact I'|destruct (cons_ s); cbn; lia]].
Qed.
Print Assumptions C32_wait_free.
(** A queue of one slot accepts nothing at all. *)
Theorem C32_size_one_useless : forall V (values : list V) n sched s0, smake 1 values n = Ok s0 ->
  exists s, srun s0 sched = Ok s /\ accepted (presults s) = [] /\ got (cresults s) = [].
Proof.
  intros V values n sched s0 E. destruct (C32_fifo V 1 values n sched s0 ltac:(reflexivity) E) as (s & R & rest & EQ & L).
  assert (E1 : smake 1 values n = Ok s0) by exact E. pose proof (smake_pow 1 values n s0 ltac:(reflexivity) E1) as POW.
  pose proof (sstart _ POW 1 values n s0 eq_refl E) as I.
  exists s. split; [exact R|]. assert (A : accepted (presults s) = []).
  { clear EQ L rest. assert (A0 : accepted (presults s0) = []) by (unfold smake in E; destruct (_ && _); [|discriminate]; injection E as <-; reflexivity).
    revert s0 I A0 R E E1. clear. intros s0 I A0 R _ _. revert s0 I A0 R. induction sched as [|b sched IH]; intros s0 I A0 R; [cbn in R; injection R as <-; exact A0|].
    cbn [srun] in R. assert (POW : exists k, 0 <= k <= 63 /\ Z.of_nat 1 = 2 ^ k) by (exists 0; split; [lia|reflexivity]).
    destruct b.
    - destruct (pstep_ok _ POW s0 I) as (s1 & E1 & I1). rewrite E1 in R. cbn [bind] in R. apply (IH s1 I1); [|exact R].
      unfold pstep in E1. destruct (prod s0) as [|v|v h|v h|v h] eqn:P.
      + destruct (to_send s0); injection E1 as <-; exact A0.
      + injection E1 as <-. unfold pset. cbn [presults]. rewrite app_nil_r. exact A0.
      + destruct (_ >=? _); injection E1 as <-; unfold pset; cbn [presults]; [rewrite app_nil_r; exact A0|]. unfold accepted in *. rewrite map_app, concat_app, A0. reflexivity.
      + destruct (rdz _ _); cbn in E1; try discriminate. injection E1 as <-. exact A0.
      + exfalso. pose proof (s_prod _ _ I) as SP. rewrite P in SP. destruct SP as (_ & SP & _). pose proof (s_cnt _ _ I). lia.
    - destruct (cstep_ok _ POW s0 I) as (s1 & E1 & I1). rewrite E1 in R. cbn [bind] in R. apply (IH s1 I1); [|exact R].
      unfold cstep in E1. destruct (cons_ s0).
      + destruct (to_recv s0); injection E1 as <-; exact A0.
      + injection E1 as <-. exact A0.
      + destruct (_ >=? _); injection E1 as <-; exact A0.
      + destruct (rdz _ _) as [o| | |]; cbn in E1; try discriminate. destruct o; [|discriminate]. injection E1 as <-. exact A0.
      + injection E1 as <-. exact A0. }
  split; [exact A|]. rewrite A in EQ. destruct (got (cresults s)); [reflexivity|discriminate].
Qed.
Print Assumptions C32_size_one_useless.
Example C32_example :
  let sched := [true; true; true; true; true; false; false; true; true; false; false; false; true; true; true; true; true; false; false; false] in
  exists s0 s, smake 2 [1; 2; 3] 2 = Ok s0 /\ srun s0 sched = Ok s /\
    presults s = [REnqueue 1 true; REnqueue 2 true] /\ cresults s = [RDequeue (Some 1)] /\ cons_ s = CRead 1.
Proof. eexists. eexists. split; [vm_compute; reflexivity|]. split; [vm_compute; reflexivity|]. vm_compute. auto. Qed.
