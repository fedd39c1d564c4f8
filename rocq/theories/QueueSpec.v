(** What a bounded queue must do, in terms of what its calls returned. *)
From Verif Require Import Base QueueModel.

Section Spec.
Context {V : Type}.
(** The values a thread's enqueues accepted, and those its dequeues returned, in order. *)
Definition accepted (l : list (result V)) : list V :=
  concat (map (fun r => match r with REnqueue v true => [v] | _ => [] end) l).
Definition got (l : list (result V)) : list V :=
  concat (map (fun r => match r with RDequeue (Some v) => [v] | _ => [] end) l).
Definition by_thread {A} (t : nat) (l : list (nat * A)) : list A := map snd (filter (fun x => Nat.eqb (fst x) t) l).
Definition no_bulk (o : op V) : Prop := match o with EnqueueBulk _ => False | _ => True end.

(** All calls of all threads are explained by one first-in first-out history: [l] lists the enqueues,
    [d] the threads of the dequeues, the i-th dequeue takes the value of the i-th enqueue, and at no
    more than [size] enqueues the dequeue is missing. A thread's calls come in its own order; a call
    that has not returned may be listed already. *)
Definition explains (size : nat) (l : list (nat * V)) (d : list nat) (s : mpmc V) : Prop :=
  (length d <= length l <= length d + size)%nat /\
  Forall (fun x => fst x < length (threads s))%nat l /\ Forall (fun t => t < length (threads s))%nat d /\
  forall t th, nth_error (threads s) t = Some th ->
    (exists x, by_thread t l = accepted (results th) ++ x /\ (length x <= 1)%nat /\ (at_pc th = Idle -> x = [])) /\
    (exists y, by_thread t (combine d (map snd l)) = got (results th) ++ y /\ (length y <= 1)%nat /\ (at_pc th = Idle -> y = [])).
End Spec.
