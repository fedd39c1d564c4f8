(** What sorting means. *)
From Coq Require Export Sorting.Permutation.
From Verif Require Import Base.

(** A strict weak order as the C++ standard defines it ([alg.sorting]): irreflexive,
    transitive, and incomparability is transitive. *)
Record strict_weak_order {T} (lt : T -> T -> bool) : Prop := {
  swo_irrefl : forall x, lt x x = false;
  swo_trans : forall x y z, lt x y = true -> lt y z = true -> lt x z = true;
  swo_incomp : forall x y z, lt x y = false -> lt y x = false -> lt y z = false -> lt z y = false ->
    lt x z = false /\ lt z x = false }.

(** No element is smaller than one standing before it. *)
Definition sorted {T} (lt : T -> T -> bool) (l : list T) : Prop :=
  forall p x q y r, l = p ++ x :: q ++ y :: r -> lt y x = false.

(** [l'] is [l] sorted. *)
Definition sorts_to {T} (lt : T -> T -> bool) (l l' : list T) : Prop :=
  Permutation l l' /\ sorted lt l'.

(** Two relations agree on every two elements at different positions of [l]. *)
Definition agree_apart {T} (c lt : T -> T -> bool) (l : list T) : Prop :=
  forall p x q y r, l = p ++ x :: q ++ y :: r -> c x y = lt x y /\ c y x = lt y x.

(** What the C++ standard promises of std::make_heap followed by std::sort_heap, for a
    comparator that is a strict weak order between the elements of the range. *)
Definition heap_sort_ok {T} (hs : (T -> T -> bool) -> list T -> list T) : Prop :=
  forall c lt m, strict_weak_order lt -> agree_apart c lt m -> sorts_to lt m (hs c m).

(** No two elements at different positions of [l] are equivalent. *)
Definition all_distinct {T} (lt : T -> T -> bool) (l : list T) : Prop :=
  forall p x q y r, l = p ++ x :: q ++ y :: r -> lt x y <> lt y x.
