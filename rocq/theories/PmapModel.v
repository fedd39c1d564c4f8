(** Model of pmap / pstarmap: ThreadPoolExecutor::ParallelForImpl and the two thread pools it
    runs on (src/runtime/threadpool/, include/matxscript/runtime/threadpool/). *)
From Verif Require Import Base ListAux.

(** ** Splitting the input: thread_pool_executor.cc:116-162 *)

(** The for loop, 135-162: the (position, length) pairs given to the tasks. *)
Fixpoint plan_loop (fuel : nat) (E i pos step step_l size : Z) (need_change : bool) : res (list (Z * Z)) :=
  if (i <? E) && (pos <? size) then
    match fuel with
    | O => OutOfFuel
    | S f =>
      let! switch :=
        if need_change && negb (step_l =? 0) then
          let! m := chk64 (step_l * (E - i)) in
          let! s := chk64 (pos + m) in Ok (s =? size)
        else Ok false in
      let step := if switch then step_l else step in
      let need_change := if switch then false else need_change in
      let! pos' := chk64 (pos + step) in
      let! r := plan_loop f E (i + 1) pos' step step_l size need_change in
      Ok ((pos, step) :: r)
    end
  else Ok [].

(** std::vector<std::shared_ptr<..>>::max_size(): 2^63-1 bytes of 16-byte elements. *)
Definition max_tasks : Z := 576460752303423487.

(** 116-134: [E] is expt_num_threads, [g] group_size, [n] input_size. An MXCHECK failure is
    CheckFailed; tasks.reserve throws std::length_error above max_size (running out of
    memory below it is not modelled). *)
Definition plan (thread_num E g n : Z) : res (list (Z * Z)) :=
  let E := if E <=? 0 then thread_num + 1 else E in
  let g := if g <=? 0 then 1 else g in
  let! rem := crem64 n g in
  if negb (rem =? 0) then Exn CheckFailed else
  let! num_group := cdiv64 n g in
  let! a := chk64 (num_group + E) in
  let! a := chk64 (a - 1) in
  let! q := cdiv64 a E in
  let! step_r := chk64 (g * q) in
  let! step_l := chk64 (step_r - g) in
  if E >? max_tasks then Exn RuntimeError else
  plan_loop (Z.to_nat n) E 0 0 step_r step_l n true.

(** ** Running the tasks *)
Section Run.
Context {V X : Type}.
(** The callable (generic_call), the reading of an item as an argument list (list, tuple or
    FTList), the exception for anything else, None. *)
Variable op : list V -> V + X.
Variable as_args : V -> option (list V).
Variable bad_item : X.
Variable none : V.

(** ParallelForTask::RunImpl, 43-77: what happens with one item. *)
Definition call (unpack : bool) (x : V) : V + X :=
  if unpack then
    match as_args x with
    | Some args => op args
    | None => inr bad_item
    end
  else op [x].

(** A ParallelForTask: input_first_ / output_first_ as index, input_last_, IRunnable::e_ and
    finish_. *)
Record task := { cur : nat; last : nat; exc : option X; fin : bool }.

(** One step of IRunnable::Run (i_runnable.h:32-46) on a task: one turn of the loop of
    RunImpl, or SetDone. The call and the store of its result are one step: no other thread
    touches this item or this slot. *)
Definition task_step (unpack : bool) (inputs : list V) (t : task) (outs : list V) :
    res (task * list V) :=
  if fin t then Ok (t, outs)
  else
    match exc t with
    | Some _ => Ok ({| cur := cur t; last := last t; exc := exc t; fin := true |}, outs)
    | None =>
      if Nat.eqb (cur t) (last t) then
        Ok ({| cur := cur t; last := last t; exc := None; fin := true |}, outs)
      else
        let! x := rd inputs (cur t) in
        match call unpack x with
        | inl v =>
            let! _ := rd outs (cur t) in
            Ok ({| cur := S (cur t); last := last t; exc := None; fin := false |}, lset outs (cur t) v)
        | inr e => Ok ({| cur := cur t; last := last t; exc := Some e; fin := false |}, outs)
        end
    end.

(** The pools. A lock-based pool has one queue that all workers serve
    (lock_based_thread_pool.cc); the lock-free one has a queue of 4096 slots per worker and
    picks it by the sequence number (lock_free_thread_pool.cc:132-151). *)
Inductive pool_kind := LockBased | LockFree.
Definition queue_count (k : pool_kind) (workers : nat) : nat :=
  match k with LockBased => 1%nat | LockFree => workers end.
Definition serves (k : pool_kind) (w : nat) : nat := match k with LockBased => 0%nat | LockFree => w end.
Definition route (k : pool_kind) (workers seq : nat) : res nat :=
  match k with
  | LockBased => Ok 0%nat
  | LockFree => if Nat.leb workers seq then
                  if Nat.eqb workers 0 then UB else Ok (seq mod workers)%nat
                else Ok seq
  end.
Definition room (k : pool_kind) (q : list nat) : bool :=
  match k with LockBased => true | LockFree => Nat.ltb (length q) (Z.to_nat 4096) end.

(** The thread that called pmap: enqueueing task i, running task 0, running task i itself
    (when it is a pool thread: "fix nested pmap"), waiting for task i, returned. *)
Inductive main_state :=
| MEnqueue (i : nat)
| MRunFirst
| MRunAll (i : nat)
| MWait (i : nat) (first : option X)
| MReturned (first : option X).

Record state := { main : main_state; queues : list (list nat); workers : list (option nat);
                  tasks : list task; outs : list V }.

Definition run_task (unpack : bool) (inputs : list V) (s : state) (i : nat) : res state :=
  let! t := rd (tasks s) i in
  let! r := task_step unpack inputs t (outs s) in
  Ok {| main := main s; queues := queues s; workers := workers s;
        tasks := lset (tasks s) i (fst r); outs := snd r |}.
Definition set_main (s : state) (m : main_state) : state :=
  {| main := m; queues := queues s; workers := workers s; tasks := tasks s; outs := outs s |}.

(** One step of the calling thread: thread_pool_executor.cc:164-183 and WaitBulk,
    i_thread_pool.cc:9-23. [seq] is the value of serial_. A full queue makes Enqueue retry. *)
Definition main_step (k : pool_kind) (seq : nat) (unpack : bool) (inputs : list V) (s : state) : res state :=
  match main s with
  | MEnqueue i =>
      if Nat.ltb i (length (tasks s)) then
        let! q := route k (length (workers s)) (seq + i - 1) in
        let! l := rd (queues s) q in
        if room k l then
          Ok {| main := MEnqueue (S i); queues := lset (queues s) q (l ++ [i]); workers := workers s;
                tasks := tasks s; outs := outs s |}
        else Ok s
      else Ok (set_main s MRunFirst)
  | MRunFirst =>
      let! t := rd (tasks s) 0 in
      if fin t then Ok (set_main s (MWait 0 None)) else run_task unpack inputs s 0
  | MRunAll i =>
      if Nat.ltb i (length (tasks s)) then
        let! t := rd (tasks s) i in
        if fin t then Ok (set_main s (MRunAll (S i))) else run_task unpack inputs s i
      else Ok (set_main s (MWait 0 None))
  | MWait i first =>
      if Nat.ltb i (length (tasks s)) then
        let! t := rd (tasks s) i in
        if fin t then
          Ok (set_main s (MWait (S i) (match first with Some e => Some e | None => exc t end)))
        else Ok s
      else Ok (set_main s (MReturned first))
  | MReturned _ => Ok s
  end.

(** One step of worker [w]: lock_based_thread_pool.cc:32-49, lock_free_thread_pool.cc:35-54,
    while the pool is not being destroyed. Waiting is a step that changes nothing. *)
Definition worker_step (k : pool_kind) (w : nat) (unpack : bool) (inputs : list V) (s : state) : res state :=
  let! st := rd (workers s) w in
  match st with
  | None =>
      let! l := rd (queues s) (serves k w) in
      match l with
      | [] => Ok s
      | t :: l' =>
          Ok {| main := main s; queues := lset (queues s) (serves k w) l';
                workers := lset (workers s) w (Some t); tasks := tasks s; outs := outs s |}
      end
  | Some i =>
      let! t := rd (tasks s) i in
      if fin t then
        Ok {| main := main s; queues := queues s; workers := lset (workers s) w None;
              tasks := tasks s; outs := outs s |}
      else run_task unpack inputs s i
  end.

Inductive thread := TMain | TWorker (w : nat).
Definition step (k : pool_kind) (seq : nat) (unpack : bool) (inputs : list V) (s : state) (th : thread) : res state :=
  match th with
  | TMain => main_step k seq unpack inputs s
  | TWorker w => if Nat.ltb w (length (workers s)) then worker_step k w unpack inputs s else Ok s
  end.

(** A schedule names the thread that makes each step. *)
Fixpoint exec (k : pool_kind) (seq : nat) (unpack : bool) (inputs : list V) (s : state) (sched : list thread) : res state :=
  match sched with
  | [] => Ok s
  | th :: sched' => let! s' := step k seq unpack inputs s th in exec k seq unpack inputs s' sched'
  end.

Definition mk_task (c : Z * Z) : task :=
  {| cur := Z.to_nat (fst c); last := Z.to_nat (fst c + snd c); exc := None; fin := false |}.

(** The state when the tasks have been made (:164), the pool idle: [nested] when the caller is
    one of the pool's own threads. *)
Definition start (k : pool_kind) (nw : nat) (nested : bool) (chunks : list (Z * Z)) (inputs : list V) : state :=
  {| main := if nested then MRunAll 0 else MEnqueue 1;
     queues := repeat [] (queue_count k nw); workers := repeat None nw;
     tasks := map mk_task chunks; outs := repeat none (length inputs) |}.

(** What pmap returns (186-280): None while it is still running. *)
Definition result (s : state) : option (list V + X) :=
  match main s with
  | MReturned (Some e) => Some (inr e)
  | MReturned None => Some (inl (outs s))
  | _ => None
  end.

(** ParallelFor / ParallelStarMap up to a given point of a schedule. *)
Definition pmap (k : pool_kind) (nw seq : nat) (nested unpack : bool) (E g : Z) (inputs : list V)
    (sched : list thread) : res (option (list V + X)) :=
  if Nat.eqb (length inputs) 0 then Ok (Some (inl []))
  else
    let! chunks := plan (Z.of_nat nw) E g (Z.of_nat (length inputs)) in
    let! s := exec k seq unpack inputs (start k nw nested chunks inputs) sched in
    Ok (result s).
End Run.
Arguments task : clear implicits.
Arguments state : clear implicits.
Arguments main_state : clear implicits.
