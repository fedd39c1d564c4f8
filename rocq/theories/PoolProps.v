(** C33: what the thread pools do with submitted tasks. *)
From Coq Require Import Permutation.
From Verif Require Import Base ListAux Fair PoolModel PoolProofs.
Local Open Scope nat_scope.

Lemma step_clients s e : length (clients (step s e)) = length (clients s).
Proof.
  destruct e as [c pick|w|w|]; cbn [step].
  - unfold client_step. destruct (nth_error (clients s) c) as [[td p]|]; [|reflexivity]. cbn [todo pending].
    destruct p; [|destruct td; [reflexivity|]]; cbn [clients]; apply lset_length.
  - unfold worker_step. destruct (nth_error (workers s) w) as [[| |t|]|]; try reflexivity. destruct (queue s); [destruct (stop s)|]; reflexivity.
  - destruct (nth_error (workers s) w) as [[| |t|]|]; reflexivity.
  - unfold destroy_step. destruct (dt s) as [|i|]; [|destruct (nth_error (workers s) i) as [[| | |]|]; reflexivity|reflexivity].
    destruct (forallb client_done (clients s)); reflexivity.
Qed.
Lemma fstep_clients cap s e : length (fclients (fstep cap s e)) = length (fclients s).
Proof.
  destruct e as [c pick|w|w|]; cbn [fstep]; [| |reflexivity|].
  - unfold fclient_step. destruct (nth_error (fclients s) c) as [[td p]|]; [|reflexivity]. cbn [todo].
    destruct td; [reflexivity|]. destruct (length (fqueue s) <? cap); [|reflexivity]. cbn [fclients]. apply lset_length.
  - unfold fworker_step. destruct (nth_error (fworkers s) w) as [[| | |t|t|]|]; try reflexivity; [destruct (fqueue s)|destruct (fstop s)]; reflexivity.
  - unfold fdestroy_step. destruct (fdt s) as [|i|]; [|destruct (nth_error (fworkers s) i) as [[| | | | |]|]; reflexivity|reflexivity].
    destruct (forallb client_done (fclients s)); reflexivity.
Qed.

(** A fair schedule gives every client and every worker infinitely many turns. *)
Definition fair_threads (nw : nat) (subs : list (list nat)) (sched : nat -> event) : Prop :=
  (forall c i, c < length subs -> exists j pick, i <= j /\ sched j = EClient c pick) /\
  (forall w i, w < nw -> exists j, i <= j /\ sched j = EWorker w).

(** ** The lock-based pool *)

(** When the destructor has returned, every task submitted by any client has been run exactly
    once: whatever the interleaving, and however often a wait returns for no reason. *)
Theorem C33_exactly_once : forall nw subs es, 1 <= nw ->
  let s := run (start nw subs) es in
  dt s = DDone -> Permutation (ran s) (concat subs).
Proof. intros nw subs es Hnw s H. apply (destroyed subs nw); [apply run_inv, start_inv|exact Hnw|exact H]. Qed.
Print Assumptions C33_exactly_once.

(** At every moment, each task has been run, is being run, is queued or is yet to be submitted:
    exactly one of these, exactly once. *)
Theorem C33_conserved : forall nw subs es,
  let s := run (start nw subs) es in
  Permutation (ran s ++ concat (map (fun w => match w with Running t => [t] | _ => [] end) (workers s)) ++
               queue s ++ concat (map todo (clients s))) (concat subs).
Proof. intros nw subs es s. apply (conserved subs nw). apply run_inv, start_inv. Qed.
Print Assumptions C33_conserved.

(** On every fair schedule the destructor does return. *)
Theorem C33_destructor_returns : forall nw subs sched, fair_threads nw subs sched ->
  (forall i, exists j, i <= j /\ sched j = EDestroy) ->
  exists N, dt (run (start nw subs) (map sched (seq 0 N))) = DDone.
Proof.
  intros nw subs sched [FC FW] FD.
  destruct (fair_reaches step (fun s => inv subs nw s /\ length (clients s) = length subs) (measure nw)
    (fun s => dt s = DDone) member helpful (fun _ _ => 0)) with (sched := sched) (s := start nw subs) (i := 0) as [N HN].
  - intros s e [I L]. split; [apply step_inv, I|rewrite step_clients; exact L].
  - intros s e [I L]. apply (measure_step subs nw s e I).
  - intros s [I L]. apply (someone_destroys subs nw s I).
  - intros h s e [I L] HH HM. left. apply (proj2 (measure_step subs nw s e I) h HH HM).
  - intros h s e [I L] HH. destruct (helpful_persists subs nw h s e I HH); auto.
  - intros h i s [I L] HH. destruct h as [c|w|].
    + destruct HH as (cl & A & _). destruct (FC c i) as (j & pick & Hj & E).
      { rewrite <- L. apply nth_error_Some. congruence. }
      exists j. rewrite E. split; [exact Hj|reflexivity].
    + destruct (FW w i) as (j & Hj & E).
      { rewrite <- (i_nw _ _ _ I). apply nth_error_Some. destruct HH as [[t A]|[A _]]; congruence. }
      exists j. rewrite E. split; [exact Hj|reflexivity].
    + destruct (FD i) as (j & Hj & E). exists j. rewrite E. split; [exact Hj|exact Logic.I].
  - split; [apply start_inv|]. cbn. apply map_length.
  - exists N. exact HN.
Qed.
Print Assumptions C33_destructor_returns.

(** On every fair schedule every task is run, whether or not the pool is ever destroyed: no
    wakeup is lost. *)
Theorem C33_all_run : forall nw subs sched, 1 <= nw -> fair_threads nw subs sched ->
  exists N, Permutation (ran (run (start nw subs) (map sched (seq 0 N)))) (concat subs).
Proof.
  intros nw subs sched Hnw [FC FW].
  destruct (fair_reaches step (fun s => inv subs nw s /\ length (clients s) = length subs) (measure nw)
    (fun s => Permutation (ran s) (concat subs)) member (fun h s => helpful h s /\ h <> HDtor) (fun _ _ => 0)) with (sched := sched) (s := start nw subs) (i := 0) as [N HN].
  - intros s e [I L]. split; [apply step_inv, I|rewrite step_clients; exact L].
  - intros s e [I L]. apply (measure_step subs nw s e I).
  - intros s [I L]. apply (someone_runs subs nw s Hnw I).
  - intros h s e [I L] [HH _] HM. left. apply (proj2 (measure_step subs nw s e I) h HH HM).
  - intros h s e [I L] [HH ND]. destruct (helpful_persists subs nw h s e I HH); auto.
  - intros h i s [I L] [HH ND]. destruct h as [c|w|]; [| |congruence].
    + destruct HH as (cl & A & _). destruct (FC c i) as (j & pick & Hj & E).
      { rewrite <- L. apply nth_error_Some. congruence. }
      exists j. rewrite E. split; [exact Hj|reflexivity].
    + destruct (FW w i) as (j & Hj & E).
      { rewrite <- (i_nw _ _ _ I). apply nth_error_Some. destruct HH as [[t A]|[A _]]; congruence. }
      exists j. rewrite E. split; [exact Hj|reflexivity].
  - split; [apply start_inv|]. cbn. apply map_length.
  - exists N. exact HN.
Qed.
Print Assumptions C33_all_run.

(** A pool of no threads accepts tasks and never runs one, and its destructor returns. *)
Theorem C33_no_threads_refuted : forall subs es, ran (run (start 0 subs) es) = [].
Proof.
  intros subs es. assert (G : forall es s, workers s = [] -> ran (run s es) = ran s).
  { clear. unfold run. induction es as [|e es IH]; intros s H; cbn [fold_left]; [reflexivity|].
    assert (HS : workers (step s e) = [] /\ ran (step s e) = ran s).
    { destruct e as [c pick|w|w|]; cbn [step].
      - unfold client_step. destruct (nth_error (clients s) c) as [[td p]|]; [|auto]. cbn [todo pending].
        destruct p; [|destruct td; auto]. cbn. rewrite H. unfold notify_one. destruct pick; auto.
      - unfold worker_step. rewrite H. destruct w; auto.
      - rewrite H. destruct w; auto.
      - unfold destroy_step. destruct (dt s); [|rewrite H; destruct i; cbn; auto|auto].
        destruct (forallb client_done (clients s)); [|auto]. cbn. rewrite H. auto. }
    destruct HS as [A B]. rewrite IH by exact A. exact B. }
  rewrite G; reflexivity.
Qed.
Print Assumptions C33_no_threads_refuted.

(** ** The lock-free pool *)

(** No task is ever run twice or invented: each has been run, is held by a worker, is queued,
    has been thrown away or is yet to be submitted. *)
Theorem C33_lock_free_at_most_once_partial : forall nw cap subs es,
  let s := frun cap (fstart nw subs) es in
  Permutation (fran s ++ concat (map (fun w => match w with FRunning t | FGot t => [t] | _ => [] end) (fworkers s)) ++
               fqueue s ++ fdropped s ++ concat (map todo (fclients s))) (concat subs).
Proof. intros nw cap subs es s. apply (fconserved subs nw). apply frun_inv, fstart_inv. Qed.
Print Assumptions C33_lock_free_at_most_once_partial.

(** On every fair schedule without a destructor every task is run. *)
Theorem C33_lock_free_all_run_partial : forall nw cap subs sched, 1 <= nw -> 1 <= cap -> fair_threads nw subs sched ->
  (forall i, sched i <> EDestroy) ->
  exists N, Permutation (fran (frun cap (fstart nw subs) (map sched (seq 0 N)))) (concat subs).
Proof.
  intros nw cap subs sched Hnw Hcap [FC FW] ND.
  destruct (fair_reaches (fstep cap) (fun s => finv subs nw s /\ length (fclients s) = length subs) fmeasure
    (fun s => Permutation (fran s) (concat subs) \/ fstop s = true) member (fhelpful cap) frank) with (sched := sched) (s := fstart nw subs) (i := 0) as [N HN].
  - intros s e [I L]. split; [apply fstep_inv, I|rewrite fstep_clients; exact L].
  - intros s e _. apply fmeasure_le.
  - intros s [I L]. apply (fsomeone subs nw cap s Hnw Hcap I).
  - intros h s e [I L] HH HM. exact (fdecrease subs nw cap h s e I HH HM).
  - intros h s e [I L] HH. exact (fpersist subs nw cap h s e I HH).
  - intros h i s [I L] [ES HH]. destruct h as [c|w|]; [| |contradiction].
    + destruct HH as (_ & cl & A & _). destruct (FC c i) as (j & pick & Hj & E).
      { rewrite <- L. apply nth_error_Some. congruence. }
      exists j. rewrite E. split; [exact Hj|reflexivity].
    + destruct HH as (o & A & _). destruct (FW w i) as (j & Hj & E).
      { rewrite <- (fi_nw _ _ _ I). apply nth_error_Some. congruence. }
      exists j. rewrite E. split; [exact Hj|reflexivity].
  - split; [apply fstart_inv|]. cbn. apply map_length.
  - exists N. destruct HN as [HN|HN]; [exact HN|]. exfalso. unfold trace in HN. fold (frun cap (fstart nw subs) (map sched (seq 0 N))) in HN.
    rewrite never_stopped in HN; [discriminate|]. intros e He. apply in_map_iff in He. destruct He as (i & <- & _). apply ND.
Qed.
Print Assumptions C33_lock_free_all_run_partial.

(** The destructor, however, throws away every task that no worker has begun to run: from the
    moment it sets the flag no task is started, on any schedule. *)
Theorem C33_lock_free_stop_refuted : forall nw cap subs es es',
  let s := frun cap (fstart nw subs) es in
  let s' := frun cap s es' in
  let begun p := fran p ++ concat (map (fun w => match w with FRunning t => [t] | _ => [] end) (fworkers p)) in
  fstop s = true -> Permutation (begun s') (begun s).
Proof. intros nw cap subs es es' s s' begun H. apply stopped_run. exact H. Qed.
Print Assumptions C33_lock_free_stop_refuted.
Theorem C33_lock_free_lost_refuted : exists es,
  let s := frun 4096 (fstart 2 [[10; 11; 12]]) es in fdt s = DDone /\ fran s = [].
Proof.
  exists (repeat (EClient 0 0) 3 ++ [EDestroy] ++ repeat (EWorker 0) 3 ++ repeat (EWorker 1) 3 ++ repeat EDestroy 3).
  split; reflexivity.
Qed.
Print Assumptions C33_lock_free_lost_refuted.

(** ** Non-vacuity *)

(** Two clients, two workers, one of which is asleep; the destructor returns and all four
    tasks have been run. *)
Example C33_example :
  let s := run (start 2 [[1; 2]; [3; 4]])
    ([EWorker 0; EWorker 1] ++ [EClient 0 1; EClient 1 0; EClient 0 1; EWorker 1; EClient 0 0; EClient 1 0; EClient 1 0; EClient 1 0; EClient 0 0] ++
     repeat (EWorker 1) 3 ++ [EDestroy] ++ repeat (EWorker 0) 9 ++ repeat (EWorker 1) 9 ++ repeat EDestroy 4) in
  dt s = DDone /\ Permutation (ran s) [1; 2; 3; 4].
Proof.
  split; [reflexivity|]. apply (C33_exactly_once 2 [[1; 2]; [3; 4]]); [lia|reflexivity].
Qed.

(** A fair schedule: clients 0 and 1, workers 0 and 1, the destructor, in turn. *)
Example C33_fair_example :
  let sched i := match i mod 5 with 0 => EClient 0 i | 1 => EClient 1 i | 2 => EWorker 0 | 3 => EWorker 1 | _ => EDestroy end in
  fair_threads 2 [[1; 2]; [3; 4]] sched /\ forall i, exists j, i <= j /\ sched j = EDestroy.
Proof.
  intros sched. assert (G : forall i r, r < 5 -> exists j, i <= j /\ j mod 5 = r).
  { intros i r Hr. exists (r + i * 5). split; [lia|]. rewrite Nat.mod_add by lia. apply Nat.mod_small, Hr. }
  split; [split|].
  - intros c i Hc. cbn in Hc. destruct (G i c ltac:(lia)) as (j & Hj & E). exists j, j. split; [exact Hj|]. unfold sched. rewrite E.
    destruct c as [|[|c]]; [reflexivity|reflexivity|lia].
  - intros w i Hw. destruct (G i (2 + w) ltac:(lia)) as (j & Hj & E). exists j. split; [exact Hj|]. unfold sched. rewrite E.
    destruct w as [|[|w]]; [reflexivity|reflexivity|lia].
  - intros i. destruct (G i 4 ltac:(lia)) as (j & Hj & E). exists j. split; [exact Hj|]. unfold sched. rewrite E. reflexivity.
Qed.
