(** Model of the two bounded queues of include/matxscript/runtime/threadpool/:
    mpmc_bounded_queue.h and spsc_bounded_queue.h.  Every access to an atomic or to a cell is one
    step; a schedule names the thread that makes each step. *)
From Verif Require Import Base ListAux.

(** ** MPMCBoundedQueue *)
Section Mpmc.
Context {V : Type}.

(** cell_t (164-167). [data] is None before the first write and after it was moved out. *)
Record cell := { seq : Z; data : option V }.

Inductive op :=
| Enqueue (v : V)       (* enqueue, 57-75 *)
| TryEnqueue (v : V)    (* try_enqueue, 78-92 *)
| Dequeue               (* dequeue, 119-137 *)
| TryDequeue            (* try_dequeue, 139-153 *)
| EnqueueBulk (vs : list V). (* enqueue_bulk, 96-117 *)
Inductive result := REnqueue (v : V) (ok : bool) | RBulk (ok : bool) | RDequeue (v : option V).

(** Where a thread is: before the load of the position (59, 70, 80 / 121, 132, 141), before the
    load of the sequence (62, 82 / 124, 143), before the compare-exchange (65, 85 / 127, 146),
    before the access to the data (72, 86 / 134, 147), before the store of the sequence
    (73, 87 / 135, 148). [try] tells try_enqueue from enqueue. *)
Inductive pc :=
| Idle
| ELoad (v : V) (try : bool) | ESeq (v : V) (try : bool) (pos : Z) | ECas (v : V) (try : bool) (pos : Z)
| EWrite (v : V) (pos : Z) | EPublish (v : V) (pos : Z)
| DLoad (try : bool) | DSeq (try : bool) (pos : Z) | DCas (try : bool) (pos : Z)
| DRead (pos : Z) | DPublish (pos : Z) (v : V)
| BLoad (vs : list V) | BSeq (vs : list V) (pos : Z) | BCas (vs : list V) (pos : Z)
| BWrite (vs : list V) (pos : Z) | BPublish (vs : list V) (pos : Z).

(** A thread: what it will call, where it is, what its calls have returned. *)
Record thr := { prog : list op; at_pc : pc; results : list result }.
(** [inserted], [removed] record history only: (thread, value) in the order in which positions
    were claimed, and (thread, position, value) whenever a value is moved out. *)
Record mpmc := { cells : list cell; epos : Z; dpos : Z; threads : list thr;
                 inserted : list (nat * V); removed : list (nat * (Z * V)) }.

Definition begin (o : op) : pc :=
  match o with
  | Enqueue v => ELoad v false
  | TryEnqueue v => ELoad v true
  | Dequeue => DLoad false
  | TryDequeue => DLoad true
  | EnqueueBulk vs => BLoad vs
  end.

(** [pos & buffer_mask_]; buffer_mask_ is buffer_size - 1 (42). *)
Definition slot (s : mpmc) (pos : Z) : Z := Z.land pos (Z.of_nat (length (cells s)) - 1).
(** [(intptr_t)a - (intptr_t)b] (63): positions 2^63 apart, where this overflows, are not
    modelled separately. *)
Definition diff (a b : Z) : Z := wraps64 a - wraps64 b.

Definition go (s : mpmc) (t : nat) (th : thr) (p : pc) : mpmc :=
  {| cells := cells s; epos := epos s; dpos := dpos s;
     threads := lset (threads s) t {| prog := prog th; at_pc := p; results := results th |};
     inserted := inserted s; removed := removed s |}.
Definition ret (s : mpmc) (t : nat) (th : thr) (r : result) : mpmc :=
  {| cells := cells s; epos := epos s; dpos := dpos s;
     threads := lset (threads s) t {| prog := prog th; at_pc := Idle; results := results th ++ [r] |};
     inserted := inserted s; removed := removed s |}.
Definition set_cell (s : mpmc) (i : Z) (c : cell) : mpmc :=
  {| cells := lset (cells s) (Z.to_nat i) c; epos := epos s; dpos := dpos s; threads := threads s;
     inserted := inserted s; removed := removed s |}.
Definition claim_enq (s : mpmc) (pos : Z) (t : nat) (vs : list V) : mpmc :=
  {| cells := cells s; epos := pos; dpos := dpos s; threads := threads s;
     inserted := inserted s ++ map (pair t) vs; removed := removed s |}.
Definition claim_deq (s : mpmc) (pos : Z) : mpmc :=
  {| cells := cells s; epos := epos s; dpos := pos; threads := threads s;
     inserted := inserted s; removed := removed s |}.
Definition record_removed (s : mpmc) (t : nat) (pos : Z) (v : V) : mpmc :=
  {| cells := cells s; epos := epos s; dpos := dpos s; threads := threads s;
     inserted := inserted s; removed := removed s ++ [(t, (pos, v))] |}.

(** One step of thread [t]. [weak]: if it is a compare-exchange, it fails spuriously. A failed
    compare-exchange has loaded the current value into pos. *)
Definition step (s : mpmc) (e : nat * bool) : res mpmc :=
  let '(t, weak) := e in
  match nth_error (threads s) t with
  | None => Ok s
  | Some th =>
    match at_pc th with
    | Idle =>
        match prog th with
        | [] => Ok s
        | o :: r => Ok (go s t {| prog := r; at_pc := Idle; results := results th |} (begin o))
        end
    | ELoad v try => Ok (go s t th (ESeq v try (epos s)))
    | ESeq v try pos =>
        let! c := rdz (cells s) (slot s pos) in
        let dif := diff (seq c) pos in
        if dif =? 0 then Ok (go s t th (ECas v try pos))
        else if try || (dif <? 0) then Ok (ret s t th (REnqueue v false))
        else Ok (go s t th (ELoad v try))
    | ECas v try pos =>
        if negb weak && (epos s =? pos) then
          Ok (go (claim_enq s (wrapu64 (pos + 1)) t [v]) t th (EWrite v pos))
        else if try then Ok (ret s t th (REnqueue v false))
        else Ok (go s t th (ESeq v try (epos s)))
    | EWrite v pos =>
        let! c := rdz (cells s) (slot s pos) in
        Ok (go (set_cell s (slot s pos) {| seq := seq c; data := Some v |}) t th (EPublish v pos))
    | EPublish v pos =>
        let! c := rdz (cells s) (slot s pos) in
        Ok (ret (set_cell s (slot s pos) {| seq := wrapu64 (pos + 1); data := data c |}) t th (REnqueue v true))
    | DLoad try => Ok (go s t th (DSeq try (dpos s)))
    | DSeq try pos =>
        let! c := rdz (cells s) (slot s pos) in
        let dif := diff (seq c) (wrapu64 (pos + 1)) in
        if dif =? 0 then Ok (go s t th (DCas try pos))
        else if try || (dif <? 0) then Ok (ret s t th (RDequeue None))
        else Ok (go s t th (DLoad try))
    | DCas try pos =>
        if negb weak && (dpos s =? pos) then
          Ok (go (claim_deq s (wrapu64 (pos + 1))) t th (DRead pos))
        else if try then Ok (ret s t th (RDequeue None))
        else Ok (go s t th (DSeq try (dpos s)))
    | DRead pos =>
        let! c := rdz (cells s) (slot s pos) in
        match data c with
        | None => UB
        | Some v =>
            Ok (go (record_removed (set_cell s (slot s pos) {| seq := seq c; data := None |}) t pos v) t th
                   (DPublish pos v))
        end
    | DPublish pos v =>
        let! c := rdz (cells s) (slot s pos) in
        Ok (ret (set_cell s (slot s pos)
                   {| seq := wrapu64 (pos + (Z.of_nat (length (cells s)) - 1) + 1); data := data c |}) t th
                (RDequeue (Some v)))
    | BLoad vs => Ok (go s t th (BSeq vs (epos s)))
    | BSeq vs pos =>
        let! c := rdz (cells s) (slot s pos) in
        let dif := diff (seq c) pos in
        if dif =? 0 then Ok (go s t th (BCas vs pos))
        else if dif <? 0 then Ok (ret s t th (RBulk false))
        else Ok (go s t th (BLoad vs))
    | BCas vs pos =>
        if negb weak && (epos s =? pos) then
          Ok (go (claim_enq s (wrapu64 (pos + Z.of_nat (length vs))) t vs) t th (BWrite vs pos))
        else Ok (go s t th (BSeq vs (epos s)))
    | BWrite vs pos =>
        match vs with
        | [] => Ok (ret s t th (RBulk true))
        | v :: _ =>
            let! c := rdz (cells s) (slot s pos) in
            Ok (go (set_cell s (slot s pos) {| seq := seq c; data := Some v |}) t th (BPublish vs pos))
        end
    | BPublish vs pos =>
        let! c := rdz (cells s) (slot s pos) in
        Ok (go (set_cell s (slot s pos) {| seq := wrapu64 (pos + 1); data := data c |}) t th
               (BWrite (tl vs) (wrapu64 (pos + 1))))
    end
  end.
Fixpoint run (s : mpmc) (sched : list (nat * bool)) : res mpmc :=
  match sched with
  | [] => Ok s
  | e :: sched' => let! s' := step s e in run s' sched'
  end.

(** The constructor, 41-50: abort() unless the size is a power of two of at least 2. *)
Definition make (size : nat) (progs : list (list op)) : res mpmc :=
  if (2 <=? Z.of_nat size) && (Z.land (Z.of_nat size) (Z.of_nat size - 1) =? 0) then
    Ok {| cells := map (fun i => {| seq := Z.of_nat i; data := None |}) (List.seq 0 size); epos := 0; dpos := 0;
          threads := map (fun p => {| prog := p; at_pc := Idle; results := [] |}) progs; inserted := []; removed := [] |}
  else Exn RuntimeError.

(** size(), 155-157 *)
Definition size_of (s : mpmc) : Z := wrapu64 (epos s - dpos s).
End Mpmc.
Arguments cell : clear implicits.
Arguments op : clear implicits.
Arguments result : clear implicits.
Arguments pc : clear implicits.
Arguments thr : clear implicits.
Arguments mpmc : clear implicits.

(** ** SPSCBoundedQueue: one producer, one consumer *)
Section Spsc.
Context {V : Type}.

(** enqueue, 52-61: before the load of _head (53), of _tail (55), the write of the slot (56), the
    store of _head (57). *)
Inductive ppc := PIdle | PHead (v : V) | PTail (v : V) (head : Z) | PWrite (v : V) (head : Z) | PStore (v : V) (head : Z).
(** dequeue, 63-72: before the load of _tail (64), of _head (66), the read of the slot, which loads
    _tail again (67), the store of _tail (68). *)
Inductive cpc := CIdle | CTail | CHead (tail : Z) | CRead (tail : Z) | CStore (tail : Z) (v : V).

(** [buffer] has one more slot than [mask] reaches (42). *)
Record spsc := { buffer : list (option V); mask : Z; head_ : Z; tail_ : Z;
                 to_send : list V; to_recv : nat; prod : ppc; cons_ : cpc;
                 presults : list (result V); cresults : list (result V) }.

Definition pset (s : spsc) (p : ppc) (r : list (result V)) : spsc :=
  {| buffer := buffer s; mask := mask s; head_ := head_ s; tail_ := tail_ s; to_send := to_send s; to_recv := to_recv s;
     prod := p; cons_ := cons_ s; presults := presults s ++ r; cresults := cresults s |}.
Definition cset (s : spsc) (p : cpc) (r : list (result V)) : spsc :=
  {| buffer := buffer s; mask := mask s; head_ := head_ s; tail_ := tail_ s; to_send := to_send s; to_recv := to_recv s;
     prod := prod s; cons_ := p; presults := presults s; cresults := cresults s ++ r |}.

(** One step of the producer; the program is to enqueue the values of [to_send] one by one. *)
Definition pstep (s : spsc) : res spsc :=
  match prod s with
  | PIdle =>
      match to_send s with
      | [] => Ok s
      | v :: r => Ok {| buffer := buffer s; mask := mask s; head_ := head_ s; tail_ := tail_ s; to_send := r; to_recv := to_recv s;
                        prod := PHead v; cons_ := cons_ s; presults := presults s; cresults := cresults s |}
      end
  | PHead v => Ok (pset s (PTail v (head_ s)) [])
  | PTail v head =>
      if Z.land (wrapu64 (tail_ s - wrapu64 (head + 1))) (mask s) >=? 1 then Ok (pset s (PWrite v head) [])
      else Ok (pset s PIdle [REnqueue v false])
  | PWrite v head =>
      let i := Z.land head (mask s) in
      let! _ := rdz (buffer s) i in
      Ok {| buffer := lset (buffer s) (Z.to_nat i) (Some v); mask := mask s; head_ := head_ s; tail_ := tail_ s; to_send := to_send s;
            to_recv := to_recv s; prod := PStore v head; cons_ := cons_ s; presults := presults s; cresults := cresults s |}
  | PStore v head =>
      Ok {| buffer := buffer s; mask := mask s; head_ := wrapu64 (head + 1); tail_ := tail_ s; to_send := to_send s;
            to_recv := to_recv s; prod := PIdle; cons_ := cons_ s; presults := presults s ++ [REnqueue v true]; cresults := cresults s |}
  end.
(** One step of the consumer; the program is to call dequeue [to_recv] times. A read of a slot that
    was never written is an error. *)
Definition cstep (s : spsc) : res spsc :=
  match cons_ s with
  | CIdle =>
      match to_recv s with
      | O => Ok s
      | S n => Ok {| buffer := buffer s; mask := mask s; head_ := head_ s; tail_ := tail_ s; to_send := to_send s; to_recv := n;
                     prod := prod s; cons_ := CTail; presults := presults s; cresults := cresults s |}
      end
  | CTail => Ok (cset s (CHead (tail_ s)) [])
  | CHead tail =>
      if Z.land (wrapu64 (head_ s - tail)) (mask s) >=? 1 then Ok (cset s (CRead tail) [])
      else Ok (cset s CIdle [RDequeue None])
  | CRead tail =>
      let! c := rdz (buffer s) (Z.land (tail_ s) (mask s)) in
      match c with
      | None => UB
      | Some v => Ok (cset s (CStore tail v) [])
      end
  | CStore tail v =>
      Ok {| buffer := buffer s; mask := mask s; head_ := head_ s; tail_ := wrapu64 (tail + 1); to_send := to_send s;
            to_recv := to_recv s; prod := prod s; cons_ := CIdle; presults := presults s; cresults := cresults s ++ [RDequeue (Some v)] |}
  end.
(** A schedule: true for a step of the producer, false for one of the consumer. *)
Fixpoint srun (s : spsc) (sched : list bool) : res spsc :=
  match sched with
  | [] => Ok s
  | b :: sched' => let! s' := (if b then pstep s else cstep s) in srun s' sched'
  end.
(** The constructor, 38-46: abort() unless the size is a power of two. *)
Definition smake (size : nat) (values : list V) (n : nat) : res spsc :=
  if negb (Z.of_nat size =? 0) && (Z.land (Z.of_nat size) (wrapu64 (two64 - 1 - Z.of_nat size + 1)) =? Z.of_nat size) then
    Ok {| buffer := repeat None (size + 1); mask := Z.of_nat size - 1; head_ := 0; tail_ := 0; to_send := values; to_recv := n;
          prod := PIdle; cons_ := CIdle; presults := []; cresults := [] |}
  else Exn RuntimeError.
End Spsc.
Arguments ppc : clear implicits.
Arguments cpc : clear implicits.
Arguments spsc : clear implicits.
