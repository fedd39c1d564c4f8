(** Termination under fair scheduling, for any deterministic step function over events. *)
From Verif Require Import Base.
Local Open Scope nat_scope.

Section Fair.
Context {S E H : Type}.
Variable step : S -> E -> S.
Variable inv : S -> Prop.
Variable measure : S -> nat.
Variable goal : S -> Prop.
(** [member h e]: event [e] is a turn of thread [h]. [helpful h s]: a turn of [h] makes progress. *)
Variable member : H -> E -> Prop.
Variable helpful : H -> S -> Prop.
(** How many more turns of [h] it may take. *)
Variable rank : H -> S -> nat.
Hypothesis inv_step : forall s e, inv s -> inv (step s e).
Hypothesis no_increase : forall s e, inv s -> measure (step s e) <= measure s.
Hypothesis someone : forall s, inv s -> goal s \/ exists h, helpful h s.
Hypothesis decrease : forall h s e, inv s -> helpful h s -> member h e ->
  measure (step s e) < measure s \/ helpful h (step s e) /\ rank h (step s e) < rank h s.
Hypothesis persist : forall h s e, inv s -> helpful h s ->
  measure (step s e) < measure s \/ helpful h (step s e) /\ rank h (step s e) <= rank h s.

Definition trace (sched : nat -> E) (i N : nat) (s : S) : S := fold_left step (map sched (seq i N)) s.
Lemma trace_S sched i N s : trace sched i (1 + N) s = trace sched (1 + i) N (step s (sched i)).
Proof. reflexivity. Qed.
Lemma trace_app sched i N M s : trace sched i (N + M) s = trace sched (i + N) M (trace sched i N s).
Proof. unfold trace. rewrite seq_app, map_app, fold_left_app. reflexivity. Qed.
Lemma trace_inv sched N : forall i s, inv s -> inv (trace sched i N s).
Proof. induction N; intros i s I; [exact I|]. change (Datatypes.S N) with (1 + N). rewrite trace_S. auto. Qed.

Lemma until_turn sched h : forall d i s, inv s -> helpful h s -> member h (sched (i + d)) ->
  exists N, inv (trace sched i N s) /\
    (measure (trace sched i N s) < measure s \/
     measure (trace sched i N s) <= measure s /\ helpful h (trace sched i N s) /\ rank h (trace sched i N s) < rank h s).
Proof.
  induction d as [|d IH]; intros i s I HH HM.
  - exists 1. rewrite Nat.add_0_r in HM. cbn. split; [auto|]. pose proof (no_increase s (sched i) I).
    destruct (decrease h s (sched i) I HH HM); auto.
  - destruct (persist h s (sched i) I HH) as [L|[HH' R]].
    + exists 1. split; [apply inv_step, I|]. left. exact L.
    + destruct (IH (1 + i) (step s (sched i)) (inv_step _ _ I) HH') as (N & IN & HN).
      * replace (1 + i + d) with (i + Datatypes.S d) by lia. exact HM.
      * exists (1 + N). rewrite trace_S. split; [exact IN|]. pose proof (no_increase s (sched i) I). destruct HN as [HN|(H1 & H2 & H3)]; [left; lia|right].
        split; [lia|]. split; [exact H2|lia].
Qed.
Lemma until_progress sched h :
  (forall i s, inv s -> helpful h s -> exists j, i <= j /\ member h (sched j)) ->
  forall r i s, rank h s <= r -> inv s -> helpful h s -> exists N, measure (trace sched i N s) < measure s.
Proof.
  intros F. induction r as [|r IH]; intros i s HR I HH; destruct (F i s I HH) as (j & Hj & HM);
    destruct (until_turn sched h (j - i) i s I HH) as (N & IN & HN);
    try (replace (i + (j - i)) with j by lia; exact HM); (destruct HN as [HN|(H1 & H2 & H3)]; [exists N; exact HN|]); [lia|].
  destruct (IH (i + N) (trace sched i N s) ltac:(lia) IN H2) as [M HM']. exists (N + M). rewrite trace_app. lia.
Qed.

Theorem fair_reaches (sched : nat -> E) :
  (forall h i s, inv s -> helpful h s -> exists j, i <= j /\ member h (sched j)) ->
  forall s i, inv s -> exists N, goal (trace sched i N s).
Proof.
  intros F s. remember (measure s) as m eqn:Em. revert s Em. induction m as [m IH] using lt_wf_ind. intros s -> i I.
  destruct (someone s I) as [G|[h HH]]; [exists 0; exact G|].
  destruct (until_progress sched h (F h) _ i s (Nat.le_refl _) I HH) as [N HN].
  destruct (IH _ HN _ eq_refl (i + N) (trace_inv sched N i s I)) as [M HG].
  exists (N + M). rewrite trace_app. exact HG.
Qed.
End Fair.
