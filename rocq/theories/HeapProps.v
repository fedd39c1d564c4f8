(** C17 (heap helpers) and C46 (nth_element). *)
From Verif Require Import Base PdqModel PdqSpec PdqProofs PdqProps HeapModel HeapSpec HeapProofs.
Ltac Zify.zify_post_hook ::= Z.to_euclidean_division_equations.

Section Glue.
Context {T : Type}.
Variable lt : T -> T -> bool.
Hypothesis SWO : strict_weak_order lt.

Lemma nil_heap : is_heap lt [].
Proof. intros [|i] p c H; discriminate. Qed.
Lemma ge_func ge : (forall x y, ge x y = negb (lt x y)) -> forall x y : T, negb (ge x y) = lt x y.
Proof. intros H x y. rewrite H. apply negb_involutive. Qed.

Lemma replace_spec func : (forall x y, func x y = lt x y) -> forall x l item, is_heap lt (x :: l) ->
  exists l', HeapReplace_with func (x :: l) item = Ok l' /\ Permutation (item :: l) l' /\ is_heap lt l'.
Proof.
  intros F x l item H. unfold HeapReplace_with. replace (llen (x :: l) =? 0) with false by (unfold llen; cbn [length]; lia).
  apply (replace_top x lt SWO func F x item l H).
Qed.
Lemma pushpop_spec func (test : T -> bool) item x l : (forall x y, func x y = lt x y) -> test item = negb (lt x item) -> is_heap lt (x :: l) ->
  exists out l', (if test item then Ok (item, x :: l)
                  else let! l := wr (x :: l) 0 item in let! l := ShiftDown func l 0 in Ok (x, l)) = Ok (out, l') /\
    Permutation (item :: x :: l) (out :: l') /\ is_heap lt l' /\ minimum_of lt out (item :: x :: l).
Proof.
  intros F T0 H. pose proof (heap_head_min x lt SWO x l H) as [_ M]. rewrite T0. destruct (lt x item) eqn:E; cbn [negb].
  - destruct (replace_top x lt SWO func F x item l H) as (l' & E1 & P & Q).
    exists x, l'. split.
    + revert E1. destruct (wr (x :: l) 0 item) as [m| | |]; cbn [bind]; try discriminate. intros E1. rewrite E1. reflexivity.
    + split; [rewrite perm_swap; constructor; exact P|]. split; [exact Q|]. split; [right; left; reflexivity|].
      intros y [<-|Hy]; [apply (asym lt SWO); exact E|apply M; exact Hy].
  - exists item, (x :: l). split; [reflexivity|]. split; [reflexivity|]. split; [exact H|]. split; [left; reflexivity|].
    intros y [<-|Hy]; [apply (lerefl lt SWO)|]. apply (letr lt SWO _ x); [exact E|apply M; exact Hy].
Qed.

Lemma min_perm m b c : Permutation b c -> minimum_of lt m c -> minimum_of lt m b.
Proof.
  intros P [I M]. split; [apply (Permutation_in _ (Permutation_sym P)); exact I|].
  intros y Hy. apply M. apply (Permutation_in _ P). exact Hy.
Qed.
Lemma queue_run_perm b c ops outs b' : Permutation b c -> queue_run lt c ops outs b' -> queue_run lt b ops outs b'.
Proof.
  intros P H. inversion H; subst.
  - apply qr_nil. etransitivity; eassumption.
  - eapply qr_replace; [etransitivity; eassumption|eapply min_perm; eassumption|assumption].
  - eapply qr_pushpop; [etransitivity; [constructor; exact P|eassumption]|eapply min_perm; [constructor; exact P|assumption]|assumption].
Qed.
Lemma run_spec rep pp :
  (forall x l item, is_heap lt (x :: l) -> exists l', rep (x :: l) item = Ok l' /\ Permutation (item :: l) l' /\ is_heap lt l') ->
  (forall x l item, is_heap lt (x :: l) -> exists out l', pp (x :: l) item = Ok (out, l') /\
      Permutation (item :: x :: l) (out :: l') /\ is_heap lt l' /\ minimum_of lt out (item :: x :: l)) ->
  forall ops l, l <> [] -> is_heap lt l ->
  exists outs l', heap_run rep pp l ops = Ok (outs, l') /\ is_heap lt l' /\ queue_run lt l ops outs l'.
Proof.
  intros R P. induction ops as [|o ops IH]; intros l N H; cbn [heap_run].
  - exists [], l. split; [reflexivity|]. split; [exact H|]. constructor. reflexivity.
  - destruct l as [|x l]; [congruence|]. destruct o as [item|item]; cbn [heap_step].
    + destruct (R x l item H) as (l1 & E1 & P1 & H1). rewrite E1. cbn [bind fst snd].
      destruct (IH l1) as (outs & l2 & E2 & H2 & Q2); [intros ->; apply Permutation_length in P1; discriminate|exact H1|].
      rewrite E2. cbn [bind fst snd]. exists (None :: outs), l2. split; [reflexivity|]. split; [exact H2|].
      apply (qr_replace lt (x :: l) x l); [reflexivity|apply (heap_head_min x lt SWO); exact H|].
      apply (queue_run_perm _ l1); assumption.
    + destruct (P x l item H) as (out & l1 & E1 & P1 & H1 & M1). rewrite E1. cbn [bind fst snd].
      destruct (IH l1) as (outs & l2 & E2 & H2 & Q2); [intros ->; apply Permutation_length in P1; discriminate|exact H1|].
      rewrite E2. cbn [bind fst snd]. exists (Some out :: outs), l2. split; [reflexivity|]. split; [exact H2|].
      apply (qr_pushpop lt (x :: l) out l1); assumption.
Qed.
End Glue.

(** ** C17: the interpreted functions *)
Theorem C17_py_heapify {T} (lt : T -> T -> bool) comp l : strict_weak_order lt -> three_way lt comp ->
  exists l', py_heapify comp l = Ok l' /\ Permutation l l' /\ is_heap lt l'.
Proof.
  intros S W. destruct l as [|d l]; [exists []; split; [reflexivity|split; [constructor|apply nil_heap]]|].
  unfold py_heapify. change (llen (d :: l)) with (len (d :: l)). destruct (Z.leb_spec (len (d :: l)) 1) as [H|H].
  - exists (d :: l). split; [reflexivity|]. split; [reflexivity|]. apply (is_heap_iff d). intros p c Hp (A & B & C). lia.
  - destruct (heapify_loop_ok d lt S (fun x y => comp x y <? 0) (comp_lt lt comp W) (Z.to_nat ((len (d :: l) - 2) / 2 + 1)) (d :: l)) as (l' & E & P & Q).
    + lia.
    + intros p c Hp (A & B & C). lia.
    + exists l'. split; [exact E|]. split; [exact P|]. apply (is_heap_iff d). exact Q.
Qed.
Print Assumptions C17_py_heapify.

Theorem C17_py_heap_replace {T} (lt : T -> T -> bool) comp x l item : strict_weak_order lt -> three_way lt comp -> is_heap lt (x :: l) ->
  exists l', py_heap_replace comp (x :: l) item = Ok l' /\ Permutation (item :: l) l' /\ is_heap lt l'.
Proof.
  intros S W H. exact (replace_spec lt S (fun x y => comp x y <? 0) (comp_lt lt comp W) x l item H).
Qed.
Print Assumptions C17_py_heap_replace.

Theorem C17_py_heap_pushpop {T} (lt : T -> T -> bool) comp x l item : strict_weak_order lt -> three_way lt comp -> is_heap lt (x :: l) ->
  exists out l', py_heap_pushpop comp (x :: l) item = Ok (out, l') /\
    Permutation (item :: x :: l) (out :: l') /\ is_heap lt l' /\ minimum_of lt out (item :: x :: l).
Proof.
  intros S W H.
  destruct (pushpop_spec lt S (fun x y => comp x y <? 0) (fun item => negb (comp item x >? 0)) item x l (comp_lt lt comp W)) as (out & l' & E & R).
  - rewrite (comp_gt lt comp W). reflexivity.
  - exact H.
  - exists out, l'. split; [|exact R]. rewrite <- E. unfold py_heap_pushpop. cbn.
    destruct (comp item x >? 0); reflexivity.
Qed.
Print Assumptions C17_py_heap_pushpop.

(** Any sequence of calls behaves as a priority queue: refinement of a bag. *)
Theorem C17_py_history {T} (lt : T -> T -> bool) comp l ops : strict_weak_order lt -> three_way lt comp -> l <> [] ->
  exists h outs l', py_heapify comp l = Ok h /\
    heap_run (py_heap_replace comp) (py_heap_pushpop comp) h ops = Ok (outs, l') /\ is_heap lt l' /\ queue_run lt h ops outs l' /\ Permutation l h.
Proof.
  intros S W N. destruct (C17_py_heapify lt comp l S W) as (h & E & P & Q).
  destruct (run_spec lt S (py_heap_replace comp) (py_heap_pushpop comp)) with (ops := ops) (l := h) as (outs & l' & E2 & H2 & Q2).
  - intros. apply C17_py_heap_replace; assumption.
  - intros. apply C17_py_heap_pushpop; assumption.
  - intros ->. apply Permutation_sym, Permutation_nil in P. congruence.
  - exact Q.
  - exists h, outs, l'. split; [exact E|]. split; [exact E2|]. split; [exact H2|]. split; [exact Q2|exact P].
Qed.
Print Assumptions C17_py_history.

(** An empty list: an IndexError, interpreted or compiled, never a read or a write. *)
Theorem C17_empty {T} (ge : T -> T -> bool) (comp : T -> T -> Z) item :
  py_heap_replace comp [] item = Exn IndexError /\ py_heap_pushpop comp [] item = Exn IndexError /\
  HeapReplace ge [] item = Exn IndexError /\ HeapReplace_comp comp [] item = Exn IndexError /\
  HeapPushPop ge [] item = Exn IndexError /\ HeapPushPop_comp comp [] item = Exn IndexError.
Proof. repeat split. Qed.
Print Assumptions C17_empty.

(** ** C17: the compiled functions *)
Theorem C17_heap_replace {T} (lt ge : T -> T -> bool) x l item : strict_weak_order lt -> (forall x y, ge x y = negb (lt x y)) -> is_heap lt (x :: l) ->
  exists l', HeapReplace ge (x :: l) item = Ok l' /\ Permutation (item :: l) l' /\ is_heap lt l'.
Proof. intros S G H. exact (replace_spec lt S _ (ge_func lt ge G) x l item H). Qed.
Print Assumptions C17_heap_replace.

Theorem C17_heap_replace_comp {T} (lt : T -> T -> bool) comp x l item : strict_weak_order lt -> three_way lt comp -> is_heap lt (x :: l) ->
  exists l', HeapReplace_comp comp (x :: l) item = Ok l' /\ Permutation (item :: l) l' /\ is_heap lt l'.
Proof. intros S W H. exact (replace_spec lt S _ (comp_lt lt comp W) x l item H). Qed.
Print Assumptions C17_heap_replace_comp.

Theorem C17_heap_pushpop {T} (lt ge : T -> T -> bool) x l item : strict_weak_order lt -> (forall x y, ge x y = negb (lt x y)) -> is_heap lt (x :: l) ->
  exists out l', HeapPushPop ge (x :: l) item = Ok (out, l') /\
    Permutation (item :: x :: l) (out :: l') /\ is_heap lt l' /\ minimum_of lt out (item :: x :: l).
Proof. intros S G H. exact (pushpop_spec lt S _ (ge x) item x l (ge_func lt ge G) (G x item) H). Qed.
Print Assumptions C17_heap_pushpop.

Theorem C17_heap_pushpop_comp {T} (lt : T -> T -> bool) comp x l item : strict_weak_order lt -> three_way lt comp -> is_heap lt (x :: l) ->
  exists out l', HeapPushPop_comp comp (x :: l) item = Ok (out, l') /\
    Permutation (item :: x :: l) (out :: l') /\ is_heap lt l' /\ minimum_of lt out (item :: x :: l).
Proof.
  intros S W H. refine (pushpop_spec lt S _ (fun item => comp x item >=? 0) item x l (comp_lt lt comp W) _ H).
  rewrite Z.geb_leb, Z.leb_antisym, (comp_lt lt comp W). reflexivity.
Qed.
Print Assumptions C17_heap_pushpop_comp.

(** heapify with a comparator sorts, and a sorted list is a heap. *)
Theorem C17_heapify_comp {T} (lt : T -> T -> bool) comp srt l : strict_weak_order lt -> three_way lt comp -> sort_ok srt ->
  Permutation l (Heapify_comp comp srt l) /\ is_heap lt (Heapify_comp comp srt l).
Proof.
  intros S W O. unfold Heapify_comp.
  assert (S' : strict_weak_order (fun x y => comp x y <? 0)).
  { destruct S as [A B C]. split; intros *; rewrite !(comp_lt lt comp W); eauto. }
  destruct (O _ l S') as [P Q]. split; [exact P|].
  intros i p c Hp Hc. rewrite <- (comp_lt lt comp W).
  assert (W2 : exists j, (i < j)%nat /\ nth_error (srt (fun x y => comp x y <? 0) l) j = Some c) by (destruct Hc as [Hc|Hc]; eexists; (split; [|exact Hc]); lia).
  destruct W2 as (j & Hij & Hj). apply nth_error_split in Hp. destruct Hp as (l1 & l2 & E & L).
  rewrite E in Hj. rewrite nth_error_app2 in Hj by lia.
  replace (j - length l1)%nat with (1 + (j - length l1 - 1))%nat in Hj by lia. cbn [nth_error Nat.add] in Hj.
  apply nth_error_split in Hj. destruct Hj as (q & r & E2 & _). rewrite E2 in E. exact (Q l1 p q c r E).
Qed.
Print Assumptions C17_heapify_comp.

Theorem C17_history_comp {T} (lt : T -> T -> bool) comp srt l ops : strict_weak_order lt -> three_way lt comp -> sort_ok srt -> l <> [] ->
  exists outs l',
    heap_run (HeapReplace_comp comp) (HeapPushPop_comp comp) (Heapify_comp comp srt l) ops = Ok (outs, l') /\
    is_heap lt l' /\ queue_run lt (Heapify_comp comp srt l) ops outs l'.
Proof.
  intros S W O N. destruct (C17_heapify_comp lt comp srt l S W O) as [P Q]. apply (run_spec lt S).
  - intros. apply C17_heap_replace_comp; assumption.
  - intros. apply C17_heap_pushpop_comp; assumption.
  - intros E. rewrite E in P. apply Permutation_sym, Permutation_nil in P. congruence.
  - exact Q.
Qed.
Print Assumptions C17_history_comp.

(** Compiled heapify(l) without a comparator: never a min-heap unless all the elements are
    equivalent, while heap_replace and heap_pushpop expect one. *)
Theorem C17_heapify_refuted {T} (lt ge : T -> T -> bool) mk l : strict_weak_order lt -> (forall x y, ge x y = negb (lt x y)) -> make_heap_ok mk ->
  (exists x y, In x l /\ In y l /\ lt x y = true) -> ~ is_heap lt (Heapify ge mk l).
Proof.
  intros S G M (x & y & Hx & Hy & Hlt) H. unfold Heapify in H. set (c := fun x y => negb (ge x y)) in *.
  assert (Ec : forall a b, c a b = lt a b) by (intros; apply ge_func; exact G).
  assert (S' : strict_weak_order c) by (destruct S as [A B C]; split; intros *; rewrite !Ec; eauto).
  destruct (M c l S') as [P Q].
  apply (Permutation_in _ P) in Hx, Hy. destruct (mk c l) as [|t r]; [contradiction|].
  pose proof (heap_head_min t lt S t r H) as [_ M1].
  pose proof (heap_head_min t (fun x y => c y x) (swo_flip c S') t r Q) as [_ M2].
  specialize (M1 x Hx). specialize (M2 y Hy). cbn in M2. rewrite Ec in M2.
  pose proof (letr lt S _ _ _ M2 M1) as E. congruence.
Qed.
Print Assumptions C17_heapify_refuted.

(** The consequence: after compiled heapify, heap_pushpop can return an element that is not the
    smallest. *)
Theorem C17_heapify_pushpop_refuted : forall mk, make_heap_ok mk ->
  exists out l', HeapPushPop Z.geb (Heapify Z.geb mk [1; 2]) 3 = Ok (out, l') /\ ~ minimum_of Z.ltb out [3; 1; 2].
Proof.
  intros mk M. unfold Heapify. set (c := fun x y => negb (x >=? y)).
  assert (S' : strict_weak_order c).
  { destruct Zltb_swo as [A B C]. assert (Ec : forall a b, c a b = (a <? b)) by (intros; unfold c; rewrite Z.geb_leb, Z.leb_antisym; apply negb_involutive).
    split; intros *; rewrite !Ec; eauto. }
  destruct (M c [1; 2] S') as [P Q].
  apply Permutation_length_2_inv in P. destruct P as [E|E]; rewrite E in *.
  - exfalso. specialize (Q 0%nat 1 2 eq_refl (or_introl eq_refl)). cbn in Q. discriminate.
  - exists 2, [1; 3]. split; [reflexivity|]. intros [_ H]. specialize (H 1). cbn in H. discriminate H. auto.
Qed.
Print Assumptions C17_heapify_pushpop_refuted.

(** ** C46: nth_element *)
Theorem C46_py_nth_element {T} (lt : T -> T -> bool) comp l n : strict_weak_order lt -> three_way lt comp ->
  1 <= n <= Z.of_nat (length l) ->
  exists l', py_nth_element comp l n = Ok l' /\ selects lt (Z.to_nat (n - 1)) l l'.
Proof.
  intros SW W Hn. destruct l as [|d l]; [cbn in Hn; lia|]. unfold py_nth_element. change (llen (d :: l)) with (len (d :: l)).
  change (Z.of_nat (length (d :: l))) with (len (d :: l)) in Hn.
  replace (len (d :: l) <? n) with false by lia. replace (n <? 1) with false by lia. cbn [orb].
  destruct (py_partition_ok d lt SW comp W (length (d :: l)) (d :: l) 0 (len (d :: l) - 1) (n - 1)) as (l' & E & P & A & B);
    [lia|lia|lia|unfold len; cbn [length]; lia|].
  exists l'. split; [exact E|]. pose proof (perm_in_len _ _ _ _ P) as L. apply perm_in_perm in P. split; [exact P|].
  assert (Hk : (Z.to_nat (n - 1) < length l')%nat) by (unfold len in *; lia).
  exists (firstn (Z.to_nat (n - 1)) l'), (at_ d l' (n - 1)), (skipn (S (Z.to_nat (n - 1))) l').
  split; [apply nth_split; exact Hk|]. split; [apply firstn_length_le; lia|]. split.
  - intros y Hy. apply (In_nth _ _ d) in Hy. destruct Hy as (k & Hk2 & <-). rewrite firstn_length_le in Hk2 by lia.
    rewrite nth_firstn by lia. specialize (A (Z.of_nat k)). unfold at_ in A at 2. rewrite Nat2Z.id in A. apply A. lia.
  - intros y Hy. apply (In_nth _ _ d) in Hy. destruct Hy as (k & Hk2 & <-). rewrite skipn_length in Hk2.
    rewrite nth_skipn. specialize (B (Z.of_nat (S (Z.to_nat (n - 1)) + k))). unfold at_ in B at 1. rewrite Nat2Z.id in B. apply B. unfold len in *. lia.
Qed.
Print Assumptions C46_py_nth_element.

Theorem C46_py_out_of_range {T} comp (l : list T) n : n < 1 \/ Z.of_nat (length l) < n -> py_nth_element comp l n = Ok l.
Proof.
  intros H. unfold py_nth_element, llen. destruct (Z.ltb_spec (Z.of_nat (length l)) n); [reflexivity|].
  destruct (Z.ltb_spec n 1); [reflexivity|lia].
Qed.
Print Assumptions C46_py_out_of_range.

Theorem C46_nth_element {T} (lt : T -> T -> bool) ne l n : strict_weak_order lt -> nth_element_ok ne -> 1 <= n <= Z.of_nat (length l) ->
  exists l', NthElement lt ne l n = Ok l' /\ selects lt (Z.to_nat (n - 1)) l l'.
Proof.
  intros S O Hn. unfold NthElement, llen. replace (Z.of_nat (length l) =? 0) with false by lia.
  replace (0 <=? n - 1) with true by lia. replace (n - 1 <=? Z.of_nat (length l)) with true by lia. cbn [andb].
  eexists. split; [reflexivity|]. replace (n - 1) with (Z.of_nat (Z.to_nat (n - 1))) at 2 by lia. apply O; [exact S|lia].
Qed.
Print Assumptions C46_nth_element.

(** The compiled function does not check n: the interpreted one leaves the list alone. *)
Theorem C46_range_refuted {T} (lt : T -> T -> bool) ne x l n : n < 1 \/ Z.of_nat (length (x :: l)) + 1 < n ->
  NthElement lt ne (x :: l) n = OOB.
Proof.
  intros H. unfold NthElement, llen. replace (Z.of_nat (length (x :: l)) =? 0) with false by (cbn [length]; lia).
  destruct (Z.leb_spec 0 (n - 1)), (Z.leb_spec (n - 1) (Z.of_nat (length (x :: l)))); cbn [andb]; try reflexivity. lia.
Qed.
Print Assumptions C46_range_refuted.

(** ** The hypotheses can be met *)
Definition zcmp (x y : Z) : Z := if x <? y then -1 else if x >? y then 1 else 0.
Lemma zcmp_three_way : three_way Z.ltb zcmp.
Proof.
  intros x y. unfold zcmp. rewrite Z.gtb_ltb. destruct (Z.ltb_spec x y), (Z.ltb_spec y x); split; split; intros; try discriminate; try lia; try reflexivity.
Qed.
Lemma sorted_is_heap {T} (lt : T -> T -> bool) l : sorted lt l -> is_heap lt l.
Proof.
  intros Q i p c Hp Hc.
  assert (W2 : exists j, (i < j)%nat /\ nth_error l j = Some c) by (destruct Hc as [Hc|Hc]; eexists; (split; [|exact Hc]); lia).
  destruct W2 as (j & Hij & Hj). apply nth_error_split in Hp. destruct Hp as (l1 & l2 & E & L).
  rewrite E in Hj. rewrite nth_error_app2 in Hj by lia.
  replace (j - length l1)%nat with (1 + (j - length l1 - 1))%nat in Hj by lia. cbn [nth_error Nat.add] in Hj.
  apply nth_error_split in Hj. destruct Hj as (q & r & E2 & _). rewrite E2 in E. exact (Q l1 p q c r E).
Qed.
Lemma agree_self {T} (c : T -> T -> bool) l : agree_apart c c l.
Proof. intros p x q y r _. split; reflexivity. Qed.
Lemma some_sort_ok {T} : sort_ok (@isort T).
Proof. intros c m S. apply isort_ok; [exact S|apply agree_self]. Qed.
Lemma some_make_heap_ok {T} : make_heap_ok (fun (c : T -> T -> bool) m => isort (fun x y => c y x) m).
Proof.
  intros c m S. destruct (isort_ok (fun x y => c y x) (fun x y => c y x) m (swo_flip c S) (agree_self _ _)) as [P Q].
  split; [exact P|]. apply sorted_is_heap. exact Q.
Qed.
Lemma some_nth_element_ok {T} : nth_element_ok (fun (c : T -> T -> bool) m _ => isort c m).
Proof.
  intros c m k S Hk. destruct (some_sort_ok c m S) as [P Q]. split; [exact P|].
  destruct m as [|d m]; [cbn in Hk; lia|].
  assert (Hk' : (k < length (isort c (d :: m)))%nat) by (rewrite <- (Permutation_length P); exact Hk).
  pose proof (nth_split d _ k Hk') as E. eexists _, _, _. split; [exact E|]. split; [apply firstn_length_le; lia|]. split.
  - intros y Hy. apply in_split in Hy. destruct Hy as (a & b & Ey). rewrite Ey in E. rewrite <- app_assoc in E. exact (Q _ _ _ _ _ E).
  - intros y Hy. apply in_split in Hy. destruct Hy as (a & b & Ey). rewrite Ey in E. exact (Q _ _ _ _ _ E).
Qed.
Example C17_example :
  strict_weak_order Z.ltb /\ three_way Z.ltb zcmp /\ (forall x y, Z.geb x y = negb (Z.ltb x y)) /\
  sort_ok (@isort Z) /\ make_heap_ok (fun (c : Z -> Z -> bool) m => isort (fun x y => c y x) m) /\
  py_heapify zcmp [9; 4; 7; 1; 8; 2] = Ok [1; 4; 2; 9; 8; 7] /\
  heap_run (py_heap_replace zcmp) (py_heap_pushpop zcmp) [1; 4; 2; 9; 8; 7] [PushPop 5; Replace 0; PushPop 0; PushPop 3]
    = Ok ([Some 1; None; Some 0; Some 0], [3; 4; 5; 9; 8; 7]) /\
  HeapPushPop Z.geb [1; 4; 2; 9; 8; 7] 6 = Ok (1, [2; 4; 6; 9; 8; 7]).
Proof.
  split; [apply Zltb_swo|]. split; [apply zcmp_three_way|]. split; [intros; rewrite Z.geb_leb, Z.leb_antisym; reflexivity|].
  split; [apply some_sort_ok|]. split; [apply some_make_heap_ok|]. repeat split; vm_compute; reflexivity.
Qed.
Example C46_example :
  nth_element_ok (fun (c : Z -> Z -> bool) m _ => isort c m) /\
  py_nth_element zcmp [5; 3; 9; 1; 7; 3] 3 = Ok [1; 3; 3; 9; 7; 5] /\
  NthElement Z.ltb (fun c m _ => isort c m) [5; 3; 9] 0 = OOB.
Proof. split; [apply some_nth_element_ok|]. split; vm_compute; reflexivity. Qed.
