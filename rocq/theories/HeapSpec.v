(** Specification of heaps, priority queues and selection. *)
From Verif Require Export PdqSpec.
From Verif Require Import Base HeapModel.

(** A binary min-heap: no child is smaller than its parent. *)
Definition is_heap {T} (lt : T -> T -> bool) (l : list T) : Prop :=
  forall i p c, nth_error l i = Some p ->
    nth_error l (2 * i + 1) = Some c \/ nth_error l (2 * i + 2) = Some c -> lt c p = false.

Definition minimum_of {T} (lt : T -> T -> bool) (m : T) (l : list T) : Prop :=
  In m l /\ forall x, In x l -> lt x m = false.

(** A three-way comparator for the order [lt]. *)
Definition three_way {T} (lt : T -> T -> bool) (comp : T -> T -> Z) : Prop :=
  forall x y, (comp x y < 0 <-> lt x y = true) /\ (comp x y > 0 <-> lt y x = true).

(** Calls on a priority queue, seen as a bag (a list up to permutation): the outputs and
    final bags that a sequence of operations may produce. *)
Inductive queue_run {T} (lt : T -> T -> bool) : list T -> list (@heap_op T) -> list (option T) -> list T -> Prop :=
| qr_nil b b' : Permutation b b' -> queue_run lt b [] [] b'
| qr_replace b m r x ops outs b' :
    Permutation b (m :: r) -> minimum_of lt m b ->
    queue_run lt (x :: r) ops outs b' ->
    queue_run lt b (Replace x :: ops) (None :: outs) b'
| qr_pushpop b m r x ops outs b' :
    Permutation (x :: b) (m :: r) -> minimum_of lt m (x :: b) ->
    queue_run lt r ops outs b' ->
    queue_run lt b (PushPop x :: ops) (Some m :: outs) b'.

(** What C++ promises of std::make_heap, std::sort and std::nth_element for a strict weak
    order: a heap whose *largest* element is first; a sorted permutation; a permutation
    split around position k. *)
Definition make_heap_ok {T} (mk : (T -> T -> bool) -> list T -> list T) : Prop :=
  forall c m, strict_weak_order c -> Permutation m (mk c m) /\ is_heap (fun x y => c y x) (mk c m).
Definition sort_ok {T} (srt : (T -> T -> bool) -> list T -> list T) : Prop :=
  forall c m, strict_weak_order c -> sorts_to c m (srt c m).

(** [l'] is [l] rearranged so that position [k] holds what sorting would put there: nothing
    before it is larger and nothing after it is smaller. *)
Definition selects {T} (lt : T -> T -> bool) (k : nat) (l l' : list T) : Prop :=
  Permutation l l' /\
  exists p x q, l' = p ++ x :: q /\ length p = k /\
    (forall y, In y p -> lt x y = false) /\ (forall y, In y q -> lt y x = false).
Definition nth_element_ok {T} (ne : (T -> T -> bool) -> list T -> Z -> list T) : Prop :=
  forall c m k, strict_weak_order c -> (k < length m)%nat -> selects c k m (ne c m (Z.of_nat k)).
