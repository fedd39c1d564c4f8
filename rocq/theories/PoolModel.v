(** Model of the two thread pools and their destruction:
    src/runtime/threadpool/lock_based_thread_pool.cc, lock_free_thread_pool.cc.
    Tasks are numbers; running one (IRunnable::Run, i_runnable.h:32-46, which never throws) is
    one step that records it. Every critical section is one atomic step. *)
From Verif Require Import Base ListAux.
Local Open Scope nat_scope.

(** A client thread: the tasks it still has to enqueue, and whether it has pushed one without
    yet having called notify_one. *)
Record client := { todo : list nat; pending : bool }.
(** Whoever destroys the pool: not started, joining worker i, done. *)
Inductive dtor := DIdle | DJoin (i : nat) | DDone.

Definition client_done (c : client) : bool :=
  match todo c with [] => negb (pending c) | _ => false end.

Inductive event :=
| EClient (c pick : nat)  (* next step of client c; [pick]: which sleeper notify_one wakes *)
| EWorker (w : nat)
| ESpurious (w : nat)     (* worker w's wait returns without a notification *)
| EDestroy.

(** ** LockBasedThreadPool *)

(** ThreadEntry, lock_based_thread_pool.cc:28-50. [Top]: about to lock and test, 35-45. *)
Inductive worker := Top | Waiting | Running (t : nat) | Exited.
Record pool := { queue : list nat; stop : bool; workers : list worker;
                 clients : list client; dt : dtor; ran : list nat }.

Definition wake (w : worker) : worker := match w with Waiting => Top | _ => w end.
Definition is_waiting (w : worker) : bool := match w with Waiting => true | _ => false end.
(** condition_variable::notify_one wakes some sleeper if there is one: the one at [pick] if it
    sleeps, otherwise the first that does. *)
Fixpoint wake_first (ws : list worker) : list worker :=
  match ws with
  | [] => []
  | w :: ws' => if is_waiting w then Top :: ws' else w :: wake_first ws'
  end.
Definition notify_one (ws : list worker) (pick : nat) : list worker :=
  match nth_error ws pick with
  | Some Waiting => lset ws pick Top
  | _ => wake_first ws
  end.

(** 33-49 *)
Definition worker_step (s : pool) (w : nat) : pool :=
  let upd q x r := {| queue := q; stop := stop s; workers := lset (workers s) w x;
                      clients := clients s; dt := dt s; ran := r |} in
  match nth_error (workers s) w with
  | Some Top =>
      match queue s with
      | t :: q => upd q (Running t) (ran s)
      | [] => if stop s then upd [] Exited (ran s) else upd [] Waiting (ran s)
      end
  | Some (Running t) => upd (queue s) Top (ran s ++ [t])
  | _ => s
  end.

(** Enqueue, 91-97: push under the lock, then notify_one outside of it. *)
Definition client_step (s : pool) (c pick : nat) : pool :=
  match nth_error (clients s) c with
  | Some cl =>
      if pending cl then
        {| queue := queue s; stop := stop s; workers := notify_one (workers s) pick;
           clients := lset (clients s) c {| todo := todo cl; pending := false |}; dt := dt s; ran := ran s |}
      else
        match todo cl with
        | [] => s
        | t :: r =>
            {| queue := queue s ++ [t]; stop := stop s; workers := workers s;
               clients := lset (clients s) c {| todo := r; pending := true |}; dt := dt s; ran := ran s |}
        end
  | None => s
  end.

(** ~LockBasedThreadPool, 69-80, in the process that made the pool. It may not be called while
    another thread is inside Enqueue or will call it: the step waits for the clients. *)
Definition destroy_step (s : pool) : pool :=
  let upd st ws d := {| queue := queue s; stop := st; workers := ws; clients := clients s; dt := d; ran := ran s |} in
  match dt s with
  | DIdle => if forallb client_done (clients s) then upd true (map wake (workers s)) (DJoin 0) else s
  | DJoin i =>
      match nth_error (workers s) i with
      | Some Exited => upd (stop s) (workers s) (DJoin (S i))
      | Some _ => s
      | None => upd (stop s) (workers s) DDone
      end
  | DDone => s
  end.

Definition step (s : pool) (e : event) : pool :=
  match e with
  | EClient c pick => client_step s c pick
  | EWorker w => worker_step s w
  | ESpurious w =>
      match nth_error (workers s) w with
      | Some Waiting => {| queue := queue s; stop := stop s; workers := lset (workers s) w Top;
                           clients := clients s; dt := dt s; ran := ran s |}
      | _ => s
      end
  | EDestroy => destroy_step s
  end.
Definition run (s : pool) (es : list event) : pool := fold_left step es s.

(** LockBasedThreadPool(thread_num), 52-61, and clients that will submit [subs]. *)
Definition start (nw : nat) (subs : list (list nat)) : pool :=
  {| queue := []; stop := false; workers := repeat Top nw;
     clients := map (fun l => {| todo := l; pending := false |}) subs; dt := DIdle; ran := [] |}.

(** ** LockFreeThreadPool *)

(** ThreadEntry, lock_free_thread_pool.cc:27-55: [FTop] before try_dequeue (38), [FEmpty] before
    the test of stop_ after a failed one (41), [FLast] before the test in 47 with no task,
    [FGot t] before it with one. *)
Inductive fworker := FTop | FEmpty | FLast | FGot (t : nat) | FRunning (t : nat) | FExited.
Record fpool := { fqueue : list nat; fstop : bool; fworkers : list fworker;
                  fclients : list client; fdt : dtor; fran : list nat; fdropped : list nat }.

Definition fworker_step (s : fpool) (w : nat) : fpool :=
  let upd q x r d := {| fqueue := q; fstop := fstop s; fworkers := lset (fworkers s) w x;
                        fclients := fclients s; fdt := fdt s; fran := r; fdropped := d |} in
  match nth_error (fworkers s) w with
  | Some FTop =>
      match fqueue s with
      | t :: q => upd q (FGot t) (fran s) (fdropped s)
      | [] => upd [] FEmpty (fran s) (fdropped s)
      end
  | Some FEmpty => upd (fqueue s) (if fstop s then FLast else FTop) (fran s) (fdropped s)
  | Some FLast => upd (fqueue s) (if fstop s then FExited else FTop) (fran s) (fdropped s)
  | Some (FGot t) =>
      if fstop s then upd (fqueue s) FExited (fran s) (fdropped s ++ [t])
      else upd (fqueue s) (FRunning t) (fran s) (fdropped s)
  | Some (FRunning t) => upd (fqueue s) FTop (fran s ++ [t]) (fdropped s)
  | _ => s
  end.

(** Enqueue, 97-106: retries while the queue (capacity [cap], 4096) is full. *)
Definition fclient_step (cap : nat) (s : fpool) (c : nat) : fpool :=
  match nth_error (fclients s) c with
  | Some cl =>
      match todo cl with
      | [] => s
      | t :: r =>
          if length (fqueue s) <? cap then
            {| fqueue := fqueue s ++ [t]; fstop := fstop s; fworkers := fworkers s;
               fclients := lset (fclients s) c {| todo := r; pending := false |}; fdt := fdt s;
               fran := fran s; fdropped := fdropped s |}
          else s
      end
  | None => s
  end.

(** ~LockFreeThreadPool, 109-121 *)
Definition fdestroy_step (s : fpool) : fpool :=
  let upd st d := {| fqueue := fqueue s; fstop := st; fworkers := fworkers s; fclients := fclients s; fdt := d;
                     fran := fran s; fdropped := fdropped s |} in
  match fdt s with
  | DIdle => if forallb client_done (fclients s) then upd true (DJoin 0) else s
  | DJoin i =>
      match nth_error (fworkers s) i with
      | Some FExited => upd (fstop s) (DJoin (S i))
      | Some _ => s
      | None => upd (fstop s) DDone
      end
  | DDone => s
  end.

Definition fstep (cap : nat) (s : fpool) (e : event) : fpool :=
  match e with
  | EClient c _ => fclient_step cap s c
  | EWorker w => fworker_step s w
  | ESpurious _ => s
  | EDestroy => fdestroy_step s
  end.
Definition frun (cap : nat) (s : fpool) (es : list event) : fpool := fold_left (fstep cap) es s.
Definition fstart (nw : nat) (subs : list (list nat)) : fpool :=
  {| fqueue := []; fstop := false; fworkers := repeat FTop nw;
     fclients := map (fun l => {| todo := l; pending := false |}) subs; fdt := DIdle; fran := []; fdropped := [] |}.
