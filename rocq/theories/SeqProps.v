(** Properties C10-C14 and C30: sequences behave like Python's. *)
From Verif Require Import Base SeqModel SeqSpec SeqProofs.

(** ** C10: slicing.  [base] is the address of the first element; the only restriction is
    that stepping once past the end does not wrap the 64-bit address space. *)
Theorem C10_list_slice : forall (A : Type) (base : Z) (l : list A) (a b s : Z),
  0 < s -> 0 <= base -> base + 16 * (py_len l + s) < two64 ->
  list_get_slice 16 base l a b s = Ok (py_slice l a b s).
Proof. intros. apply list_get_slice_ok; [assumption|]. repeat split; assumption || lia. Qed.
Print Assumptions C10_list_slice.

Theorem C10_typed_list_slice : forall (A : Type) (esz base : Z) (l : list A) (a b s : Z),
  0 < s -> 0 < esz -> 0 <= base -> base + esz * (py_len l + s) < two64 ->
  list_get_slice esz base l a b s = Ok (py_slice l a b s).
Proof. intros. apply list_get_slice_ok; [assumption|]. repeat split; assumption. Qed.
Print Assumptions C10_typed_list_slice.

Theorem C10_bytes_slice : forall (base : Z) (x : list Z) (a b s : Z),
  0 < s -> 0 <= base -> py_len x + s <= two63 -> base + 1 * (py_len x + s) < two64 ->
  text_get_slice 1 base x a b s = Ok (py_slice x a b s).
Proof. intros. apply text_get_slice_ok; [assumption|assumption|]. repeat split; assumption || lia. Qed.
Print Assumptions C10_bytes_slice.

Theorem C10_str_slice : forall (base : Z) (x : list Z) (a b s : Z),
  0 < s -> 0 <= base -> py_len x + s <= two63 -> base + 4 * (py_len x + s) < two64 ->
  text_get_slice 4 base x a b s = Ok (py_slice x a b s).
Proof. intros. apply text_get_slice_ok; [assumption|assumption|]. repeat split; assumption || lia. Qed.
Print Assumptions C10_str_slice.

Theorem C10_bad_step_raises : forall (A : Type) (base esz : Z) (l : list A) (x : list Z) (a b s : Z),
  s <= 0 ->
  list_get_slice esz base l a b s = Exn CheckFailed /\
  text_get_slice esz base x a b s = Exn CheckFailed.
Proof. intros. split; [apply step_not_positive|apply text_step_not_positive]; assumption. Qed.
Print Assumptions C10_bad_step_raises.

(** Outside the guard the claim is false: [x[::2**60]] on a non-empty list multiplies the
    step by the element size, the address does not move, and the loop never ends. *)
Theorem C10_huge_step_refuted : forall (A : Type) (base : Z) (x : A) (l : list A) (fuel : nat),
  0 <= base < two64 ->
  ptr_loop fuel 16 base (x :: l) base (base + 16 * py_len (x :: l)) (2 ^ 60) = OutOfFuel.
Proof.
  intros. apply ptr_loop_stuck with (x := x); try reflexivity; unfold py_len; cbn [length]; lia.
Qed.
Print Assumptions C10_huge_step_refuted.

(** ... and for bytes [e - b + step - 1] overflows a signed 64-bit integer. *)
Theorem C10_bytes_step_overflow_refuted :
  exists x a b s, 0 < s < two63 /\ text_get_slice 1 4096 x a b s = UB.
Proof. exists [97; 98; 99], 0, 3, (2 ^ 63 - 1). split; [unfold two63; lia|]. vm_compute. reflexivity. Qed.
Print Assumptions C10_bytes_step_overflow_refuted.

Example C10_example :
  list_get_slice 16 4096 [10; 11; 12; 13; 14; 15] (-5) 100 2 = Ok [11; 13; 15]
  /\ 4096 + 16 * (py_len [10; 11; 12; 13; 14; 15] + 2) < two64
  /\ text_get_slice 4 4096 [97; 98; 99; 100] (-100) (-1) 2 = Ok [97; 99]
  /\ text_get_slice 1 4096 [97; 98; 99; 100] 3 1 1 = Ok [].
Proof. vm_compute. auto. Qed.

(** ** C11: indexing *)
Theorem C11_list_item : forall (A : Type) (l : list A) (i : Z),
  (py_index_ok l i -> exists x, list_get_item l i = Ok x /\ py_item l i x) /\
  (~ py_index_ok l i -> exists e, list_get_item l i = Exn e).
Proof.
  intros. split; intros H; [apply list_get_item_ok; assumption|].
  rewrite list_get_item_err by assumption. eauto.
Qed.
Print Assumptions C11_list_item.

Theorem C11_str_item : forall (x : list Z) (i : Z),
  (py_index_ok x i -> exists c, str_get_item x i = Ok [c] /\ py_item x i c) /\
  (~ py_index_ok x i -> exists e, str_get_item x i = Exn e).
Proof.
  intros. split; intros H; [apply str_get_item_ok; assumption|].
  rewrite str_get_item_err by assumption. eauto.
Qed.
Print Assumptions C11_str_item.

(** bytes: right position and no out-of-bounds read for every index, but the value is
    the signed char, so it is Python's value only below 128. *)
Theorem C11_bytes_item_partial : forall (x : list Z) (i : Z),
  (py_index_ok x i -> exists c, py_item x i c /\
     bytes_get_item x i = Ok (if c <? 128 then c else c - 256)) /\
  (~ py_index_ok x i -> exists e, bytes_get_item x i = Exn e).
Proof.
  intros. split; intros H.
  - destruct (bytes_get_item_ok x i H) as (c & E & P). exists c. split; [exact P|exact E].
  - rewrite bytes_get_item_err by assumption. eauto.
Qed.
Print Assumptions C11_bytes_item_partial.

Theorem C11_bytes_high_item_refuted :
  exists x i c, Forall is_byte x /\ py_item x i c /\ bytes_get_item x i = Ok (c - 256).
Proof.
  exists [255], 0, 255. split; [constructor; [unfold is_byte; lia|constructor]|]. split.
  - exists [], []. split; reflexivity.
  - vm_compute. reflexivity.
Qed.
Print Assumptions C11_bytes_high_item_refuted.

Theorem C11_set_item : forall (A : Type) (l : list A) (i : Z) (x : A),
  (py_index_ok l i -> exists l', list_set_item l i x = Ok l' /\ py_set_item l i x l') /\
  (~ py_index_ok l i -> exists e, list_set_item l i x = Exn e).
Proof.
  intros. split; intros H; [apply list_set_item_ok; assumption|].
  rewrite list_set_item_err by assumption. eauto.
Qed.
Print Assumptions C11_set_item.

Theorem C11_item_unique : forall (A : Type) (l : list A) (i : Z) (x y : A),
  py_item l i x -> py_item l i y -> x = y.
Proof. intros A. apply py_item_unique. Qed.
Print Assumptions C11_item_unique.

(** tuple: right for 0 <= i < len, and no out-of-bounds read for any 64-bit index ... *)
Theorem C11_tuple_item_partial : forall (A : Type) (l : list A) (i : Z), int64 i -> py_len l < two63 ->
  (0 <= i < py_len l -> exists x, tuple_get_item (Some l) i = Ok x /\ py_item l i x) /\
  (~ 0 <= i < py_len l -> exists e, tuple_get_item (Some l) i = Exn e).
Proof.
  intros A l i Hi Hl. unfold tuple_get_item, int64, wrapu64 in *. change (@py_len) with (@zlen) in *.
  split; intros H.
  - rewrite Z.mod_small by (unfold two63, two64 in *; lia).
    replace (i <? zlen l) with true by lia.
    destruct (py_item_rdz l i) as (x & E & P); [unfold py_index_ok; change (@py_len) with (@zlen); lia|].
    exists x. split; [|exact P]. rewrite <- E. f_equal. unfold slice_index_correction.
    destruct (Z.ltb_spec i 0); [lia|]. destruct (Z.gtb_spec i (zlen l)); lia.
  - destruct (Z.ltb_spec i 0).
    + replace (i mod two64) with (i + two64).
      2:{ rewrite <- (Z.mod_add i 1 two64) by (unfold two64; lia).
          rewrite Z.mod_small by (unfold two63, two64 in *; lia). lia. }
      replace (i + two64 <? zlen l) with false by (unfold two63, two64 in *; lia). eauto.
    + rewrite Z.mod_small by (unfold two63, two64 in *; lia).
      replace (i <? zlen l) with false by lia. eauto.
Qed.
Print Assumptions C11_tuple_item_partial.

(** ... but a negative index, which Python accepts, raises. *)
Theorem C11_tuple_negative_index_refuted : exists (t : list Z) (i : Z),
  py_index_ok t i /\ tuple_get_item (Some t) i = Exn CheckFailed.
Proof. exists [1; 2; 3], (-1). split; [unfold py_index_ok; cbn; lia|]. vm_compute. reflexivity. Qed.
Print Assumptions C11_tuple_negative_index_refuted.

Example C11_example : py_index_ok [7; 8; 9] (-3) /\ list_get_item [7; 8; 9] (-3) = Ok 7
  /\ ~ py_index_ok [7; 8; 9] 3 /\ list_set_item [7; 8; 9] (-1) 5 = Ok [7; 8; 5].
Proof. repeat split; try (vm_compute; congruence); intros [H1 H2]; vm_compute in H2; discriminate. Qed.

(** ** C12: slice assignment *)
Theorem C12_set_slice_partial : forall (A : Type) (l m : list A) (a b : Z),
  0 <= a <= b -> list_set_slice l a b m false = Ok (py_set_slice l a b m).
Proof. intros. apply list_set_slice_ok; assumption. Qed.
Print Assumptions C12_set_slice_partial.

(** Missing: Python also accepts negative and reversed bounds; the code rejects all of
    them, leaving the list as it was. *)
Theorem C12_other_bounds_rejected : forall (A : Type) (l m : list A) (a b : Z) (alias : bool),
  ~ 0 <= a <= b -> list_set_slice l a b m alias = Exn CheckFailed.
Proof. intros. apply list_set_slice_rejects; assumption. Qed.
Print Assumptions C12_other_bounds_rejected.

Theorem C12_negative_bounds_refuted : exists (l m : list Z) (a b : Z),
  list_set_slice l a b m false = Exn CheckFailed /\ py_set_slice l a b m <> l.
Proof. exists [1; 2; 3], [9], (-1), 3. split; [reflexivity|]. vm_compute. discriminate. Qed.
Print Assumptions C12_negative_bounds_refuted.

(** [l[a:b] = l] inserts the list's own range into itself: undefined behaviour. *)
Theorem C12_self_assignment_refuted : forall (A : Type) (l : list A) (a b : Z),
  0 <= a <= b -> list_set_slice l a b l true = UB.
Proof.
  intros A l a b H. pose proof (list_set_slice_ok l l a b H) as E. unfold list_set_slice in *.
  destruct ((a >=? 0) && (b >=? 0) && (a <=? b)); [|discriminate].
  destruct (vec_erase l _ _); cbn [bind] in *; [reflexivity|discriminate|reflexivity|discriminate].
Qed.
Print Assumptions C12_self_assignment_refuted.

Example C12_example : list_set_slice [1; 2; 3; 4; 5] 1 3 [7; 8; 9] false = Ok [1; 7; 8; 9; 4; 5]
  /\ list_set_slice [1; 2] 5 9 [7] false = Ok [1; 2; 7].
Proof. vm_compute. auto. Qed.

(** ** C13: mutation methods, for every finite sequence of calls *)
Theorem C13_list_methods_follow_python :
  forall (A : Type) (eqb : A -> A -> bool) (l : list A) (os : list (list_op A)),
  Forall op_supported os ->
  let '(rs, l') := list_run eqb l os in
  Forall is_ok_or_exn rs /\ py_list_history eqb l (map call_of os) (map result_of rs) l'.
Proof. intros. apply list_run_ok. assumption. Qed.
Print Assumptions C13_list_methods_follow_python.

(** Python's specification leaves nothing open, so the history above is the only one. *)
Theorem C13_python_spec_deterministic :
  forall (A : Type) (eqb : A -> A -> bool) cs (l : list A) rs1 l1 rs2 l2,
  py_list_history eqb l cs rs1 l1 -> py_list_history eqb l cs rs2 l2 -> rs1 = rs2 /\ l1 = l2.
Proof. intros A eqb cs. apply py_list_history_det. Qed.
Print Assumptions C13_python_spec_deterministic.

Theorem C13_insert : forall (A : Type) (l : list A) (i : Z) (x : A),
  list_insert l i x = Ok (py_insert l i x).
Proof. intros. apply list_insert_ok. Qed.
Print Assumptions C13_insert.

(** index(x, a, b) on a typed list, and on a list of fewer than 2^31 elements. *)
Theorem C13_index : forall (A : Type) (eqb : A -> A -> bool) (wrap : Z -> Z) (l : list A) (x : A) (a b : Z),
  wrap = (fun z => z) \/ (wrap = int32_of /\ py_len l < 2 ^ 31) ->
  (exists k, list_index eqb wrap l x a b = Ok k /\ py_index eqb l x a b k) \/
  (list_index eqb wrap l x a b = Exn ValueError /\ py_not_found eqb l x a b).
Proof.
  intros A eqb wrap l x a b H. apply list_index_core. intros z Hz.
  destruct H as [->|[-> H]]; [reflexivity|]. change (@py_len) with (@zlen) in H.
  unfold int32_of, two32. rewrite Z.mod_small by lia. lia.
Qed.
Print Assumptions C13_index.

Theorem C13_contains_count : forall (A : Type) (eqb : A -> A -> bool) (l : list A) (x : A),
  (list_contains eqb l x = true <-> exists y, In y l /\ eqb y x = true) /\
  list_count eqb l x = py_len (filter (fun y => eqb y x) l).
Proof. intros. split; [apply list_contains_ok|apply list_count_ok]. Qed.
Print Assumptions C13_contains_count.

Theorem C13_repeat_concat : forall (A : Type) (l : list A) (v : A) (n : Z) (data : list (bool * list A)),
  list_repeat l n = py_repeat l n /\ list_repeat_one v n = py_repeat [v] n /\
  list_concat data = concat (map snd data).
Proof. intros. split; [apply list_repeat_ok|split; [apply list_repeat_one_ok|apply list_concat_ok]]. Qed.
Print Assumptions C13_repeat_concat.

Example C13_example :
  list_run Z.eqb [1; 2; 3]
    [OpInsert (-1) 9; OpPop 0; OpRemove 3; OpReverse; OpExtendSelf; OpPop 10; OpInsert (-100) 0;
     OpSetSlice 1 2 [4; 4]; OpSetItem (-1) 6; OpRemove 77]
  = ([Ok None; Ok (Some 1); Ok None; Ok None; Ok None; Exn IndexError; Ok None; Ok None; Ok None;
      Exn ValueError], [0; 4; 4; 2; 9; 6])
  /\ list_index Z.eqb int32_of [5; 6; 5; 6] 6 (-2) 100 = Ok 3
  /\ list_concat [(true, [1]); (false, [2; 3]); (true, [])] = [1; 2; 3].
Proof. vm_compute. auto. Qed.

(** ** C14: comparison *)
Theorem C14_equality : forall (A : Type) (eqb : A -> A -> bool) (l m : list A),
  exists r, list_eq eqb false l m = Ok r /\ (r = true <-> Forall2 (fun x y => eqb x y = true) l m).
Proof. intros. apply list_eq_ok. Qed.
Print Assumptions C14_equality.

(** With a total order on the elements, the four order operators are the lexicographic
    order, which is itself a strict total order. *)
Theorem C14_order_is_lexicographic :
  forall (A : Type) (gtb : A -> A -> bool) (lt : A -> A -> Prop),
  (forall x y, gtb x y = true <-> lt y x) -> strict_total lt ->
  (forall l m, list_lt gtb l m = true <-> lex_lt lt l m) /\
  (forall l m, list_le gtb l m = true <-> lex_lt lt l m \/ l = m) /\
  (forall l m, list_gt gtb l m = true <-> lex_lt lt m l) /\
  (forall l m, list_ge gtb l m = true <-> lex_lt lt m l \/ l = m) /\
  strict_total (lex_lt lt).
Proof.
  intros A gtb lt Hgt Hst. unfold list_lt, list_le.
  split; [intros; apply list_gt_ok; assumption|].
  split; [intros; rewrite (list_ge_ok gtb lt Hgt Hst); intuition congruence|].
  split; [intros; apply list_gt_ok; assumption|].
  split; [intros; apply list_ge_ok; assumption|].
  apply (lex_strict_total gtb lt); assumption.
Qed.
Print Assumptions C14_order_is_lexicographic.

Theorem C14_equality_is_equivalence : forall (A : Type) (eqb : A -> A -> bool),
  (forall x, eqb x x = true) -> (forall x y, eqb x y = true -> eqb y x = true) ->
  (forall x y z, eqb x y = true -> eqb y z = true -> eqb x z = true) ->
  (forall s l, list_eq eqb s l l = Ok true) /\
  (forall l m, list_eq eqb false l m = Ok true -> list_eq eqb false m l = Ok true) /\
  (forall l m k, list_eq eqb false l m = Ok true -> list_eq eqb false m k = Ok true ->
                 list_eq eqb false l k = Ok true).
Proof.
  intros A eqb Hr Hsym Ht.
  assert (K : forall l m, list_eq eqb false l m = Ok true <-> Forall2 (fun x y => eqb x y = true) l m).
  { intros l m. destruct (list_eq_ok eqb l m) as (r & E & I). rewrite E. rewrite <- I.
    split; [injection 1; auto|intros ->; reflexivity]. }
  split; [|split].
  - intros [] l; [reflexivity|]. apply K. induction l; constructor; auto.
  - intros l m H. apply K. apply K in H. induction H; constructor; auto.
  - intros l m k H1 H2. apply K. apply K in H1. apply K in H2. revert k H2.
    induction H1; intros k H2; inversion H2; subst; constructor; eauto.
Qed.
Print Assumptions C14_equality_is_equivalence.

Example C14_example : strict_total Z.lt /\ (forall x y, (x >? y) = true <-> y < x) /\
  list_lt Z.gtb [1; 2] [1; 2; 0] = true /\ list_le Z.gtb [1; 3] [1; 2; 0] = false /\
  list_eq Z.eqb false [1; 2] [1; 3] = Ok false.
Proof. repeat split; intros; try reflexivity; lia. Qed.

(** ** C30: tuples *)
Theorem C30_construct_from_iterator : forall (A : Type) (l : list A),
  tuple_of_iter l = Ok (Some l).
Proof. intros. unfold tuple_of_iter. rewrite tuple_init_loop_ok. reflexivity. Qed.
Print Assumptions C30_construct_from_iterator.

(** The overload for a range of Any values copies the first value n times. *)
Theorem C30_construct_from_any_range_refuted :
  (forall (A : Type) (x : A) (l : list A),
     tuple_of_any_range (x :: l) = Ok (Some (repeat x (length (x :: l))))) /\
  exists l : list Z, tuple_of_any_range l <> Ok (Some l).
Proof.
  split.
  - intros. unfold tuple_of_any_range. rewrite tuple_range_loop_ok. reflexivity.
  - exists [1; 2]. vm_compute. discriminate.
Qed.
Print Assumptions C30_construct_from_any_range_refuted.

Theorem C30_slice_partial : forall (A : Type) (l : list A) (a b s : Z),
  0 < s -> py_len l + s <= two63 -> py_slice l a b s <> [] ->
  tuple_get_slice (Some l) a b s = Ok (Some (py_slice l a b s)).
Proof. intros. apply tuple_get_slice_ok; assumption. Qed.
Print Assumptions C30_slice_partial.

(** An empty selection gives a null handle instead of an empty tuple: taking its length,
    slicing it again, repeating or concatenating it dereferences a null pointer. *)
Theorem C30_empty_slice_refuted : forall (A : Type) (l u : list A) (a b s : Z),
  0 < s -> py_slice l a b s = [] ->
  exists t, tuple_get_slice (Some l) a b s = Ok t /\ tuple_size t = UB /\
    (forall n, tuple_repeat t n = UB) /\ tuple_concat t (Some u) = UB /\
    tuple_get_slice t a b s = UB.
Proof.
  intros. exists None. split; [apply tuple_get_slice_empty; assumption|].
  repeat split. unfold tuple_get_slice. destruct (Z.gtb_spec s 0); [reflexivity|lia].
Qed.
Print Assumptions C30_empty_slice_refuted.

Theorem C30_repeat_partial : forall (A : Type) (l : list A) (n : Z),
  0 <= n < 2 ^ 31 -> n * py_len l <= 2 ^ 31 ->
  tuple_repeat (Some l) n = Ok (Some (py_repeat l n)).
Proof.
  intros A l n H1 H2. unfold tuple_repeat, deref. cbn [bind]. change (@py_len) with (@zlen) in H2.
  destruct (Z.ltb_spec n 0); [lia|].
  replace ((n >=? 2 ^ 31) || (n * zlen l >? 2 ^ 31)) with false by lia.
  rewrite repeat_loop_ok. reflexivity.
Qed.
Print Assumptions C30_repeat_partial.

Theorem C30_concat : forall (A : Type) (l m : list A),
  tuple_concat (Some l) (Some m) = Ok (Some (l ++ m)).
Proof. intros. unfold tuple_concat, deref. cbn [bind]. rewrite !list_extend_ok. reflexivity. Qed.
Print Assumptions C30_concat.

Theorem C30_equality : forall (A : Type) (eqb : A -> A -> bool) (l m : list A),
  exists r, tuple_eq eqb false (Some l) (Some m) = Ok r /\
            (r = true <-> Forall2 (fun x y => eqb x y = true) l m).
Proof. intros. apply (list_eq_ok eqb l m). Qed.
Print Assumptions C30_equality.

Example C30_example : py_slice [1; 2; 3; 4; 5] (-4) 100 2 = [2; 4]
  /\ tuple_get_slice (Some [1; 2; 3; 4; 5]) (-4) 100 2 = Ok (Some [2; 4])
  /\ py_slice [1; 2] 2 1 1 = [] /\ tuple_repeat (Some [1; 2]) 2 = Ok (Some [1; 2; 1; 2]).
Proof. vm_compute. auto. Qed.
