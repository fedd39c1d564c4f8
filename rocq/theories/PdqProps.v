(** C15 and C16: sorting. *)
From Verif Require Import Base PdqModel PdqSpec PdqProofs.
Ltac Zify.zify_post_hook ::= Z.to_euclidean_division_equations.

(** ** Occurrences at different positions *)
Lemma pairs_cons {T} (R : T -> T -> Prop) x l :
  (forall p a q b r, x :: l = p ++ a :: q ++ b :: r -> R a b) <->
  (forall y, In y l -> R x y) /\ (forall p a q b r, l = p ++ a :: q ++ b :: r -> R a b).
Proof.
  split.
  - intros H. split.
    + intros y Hy. apply in_split in Hy. destruct Hy as (q & r & ->). apply (H [] x q y r). reflexivity.
    + intros p a q b r E. apply (H (x :: p) a q b r). rewrite E. reflexivity.
  - intros [H1 H2] [|z p] a q b r E; cbn in E; injection E as -> E.
    + apply H1. rewrite E. apply in_or_app. right. left. reflexivity.
    + apply (H2 p a q b r E).
Qed.
Lemma pairs_perm {T} (R : T -> T -> Prop) l l' : (forall x y, R x y -> R y x) -> Permutation l l' ->
  (forall p a q b r, l = p ++ a :: q ++ b :: r -> R a b) -> (forall p a q b r, l' = p ++ a :: q ++ b :: r -> R a b).
Proof.
  intros Sym. induction 1 as [|x l l' P IH|x y l|l l' l'' P1 IH1 P2 IH2]; intros H.
  - exact H.
  - apply pairs_cons in H. destruct H as [H1 H2]. apply pairs_cons. split; [|exact (IH H2)].
    intros y Hy. apply H1. apply (Permutation_in _ (Permutation_sym P)). exact Hy.
  - apply pairs_cons in H. destruct H as [H1 H2]. apply pairs_cons in H2. destruct H2 as [H2 H3].
    apply pairs_cons. split.
    + intros z [<-|Hz]; [apply Sym; apply H1; left; reflexivity|apply H2; exact Hz].
    + apply pairs_cons. split; [|exact H3]. intros z Hz. apply H1. right. exact Hz.
  - exact (IH2 (IH1 H)).
Qed.
Lemma agree_perm {T} (c lt : T -> T -> bool) l l' : Permutation l l' -> agree_apart c lt l -> agree_apart c lt l'.
Proof.
  intros P H. unfold agree_apart in *. apply (pairs_perm (fun x y => c x y = lt x y /\ c y x = lt y x) l l'); tauto.
Qed.
Lemma agree_app {T} (c lt : T -> T -> bool) m s : agree_apart c lt (m ++ s) -> agree_apart c lt m.
Proof.
  intros H p x q y r ->. apply (H p x q y (r ++ s)). rewrite <- !app_assoc. cbn. rewrite <- app_assoc. reflexivity.
Qed.
Lemma nth_split {T} (d : T) l u : (u < length l)%nat -> l = firstn u l ++ nth u l d :: skipn (S u) l.
Proof.
  revert u. induction l as [|x l IH]; intros [|u] H; cbn [length firstn nth skipn app] in *; try lia; [reflexivity|].
  f_equal. apply IH. lia.
Qed.
Lemma agree_at {T} (d : T) (c lt : T -> T -> bool) l i j : agree_apart c lt l -> inr l i -> inr l j -> i <> j ->
  c (at_ d l i) (at_ d l j) = lt (at_ d l i) (at_ d l j).
Proof.
  intros H Hi Hj N. unfold inr, len in *.
  assert (W : forall u v, (u < v < length l)%nat -> c (nth u l d) (nth v l d) = lt (nth u l d) (nth v l d) /\ c (nth v l d) (nth u l d) = lt (nth v l d) (nth u l d)).
  { intros u v Huv. pose proof (nth_split d l u ltac:(lia)) as E1.
    assert (E2 : nth v l d = nth (v - S u) (skipn (S u) l) d) by (rewrite nth_skipn; f_equal; lia).
    pose proof (nth_split d (skipn (S u) l) (v - S u) ltac:(rewrite skipn_length; lia)) as E3.
    rewrite E3 in E1. rewrite E2. exact (H _ _ _ _ _ E1). }
  unfold at_. destruct (Z_lt_ge_dec i j); [apply (W (Z.to_nat i) (Z.to_nat j)); lia|apply (W (Z.to_nat j) (Z.to_nat i)); lia].
Qed.

Lemma swo_asym {T} (lt : T -> T -> bool) : strict_weak_order lt -> forall x y, lt x y = true -> lt y x = false.
Proof.
  intros S x y H. destruct (lt y x) eqn:E; [|reflexivity].
  pose proof (swo_trans _ S _ _ _ H E). pose proof (swo_irrefl _ S x). congruence.
Qed.
Lemma swo_key {T K} (lt : K -> K -> bool) (key : T -> K) : strict_weak_order lt ->
  strict_weak_order (fun x y => lt (key x) (key y)).
Proof. intros [H1 H2 H3]. split; intros; eauto. Qed.
Lemma swo_flip {T} (lt : T -> T -> bool) : strict_weak_order lt -> strict_weak_order (fun x y => lt y x).
Proof. intros [H1 H2 H3]. split; intros; eauto. Qed.

(** pdqsort with a comparator that agrees with a strict weak order between different positions. *)
Lemma pdqsort_sorts {T} (hs : (T -> T -> bool) -> list T -> list T) c lt br l : heap_sort_ok hs -> strict_weak_order lt ->
  agree_apart c lt l -> exists l', (let! a := pdqsort c (hs c) br (map Some l) in values a) = Ok l' /\ sorts_to lt l l'.
Proof.
  intros HH S A. destruct l as [|d l]; [exists []; split; [reflexivity|]; split; [constructor|]; intros [|] x q y r E; discriminate|].
  destruct (pdqsort_ok d lt (swo_asym lt S) c (d :: l)) with (hs := hs c) (branchless := br) (l := d :: l) as (l' & HE & P & So).
  - intros l1 i j P. apply agree_at. eapply agree_perm; eassumption.
  - exact S.
  - intros m rest P. apply HH; [exact S|]. eapply agree_app. eapply agree_perm; eassumption.
  - reflexivity.
  - fold (full (d :: l)). rewrite HE. cbn [bind]. exists l'. split; [apply values_full|]. split; assumption.
Qed.

(** ** C15 *)

(** List.sort() and List.sort(key=...): for every strict weak order. *)
Theorem C15_sort {T K} (lt ge : K -> K -> bool) hs (key : T -> K) l :
  heap_sort_ok hs -> strict_weak_order lt ->
  exists l', list_sort lt ge hs key false l = Ok l' /\ sorts_to (fun x y => lt (key x) (key y)) l l'.
Proof.
  intros HH S. unfold list_sort. apply pdqsort_sorts; [exact HH|apply swo_key; exact S|].
  intros p x q y r _. split; reflexivity.
Qed.
Print Assumptions C15_sort.

(** FTList.sort(), with the branchless partition when the elements are arithmetic. *)
Theorem C15_ft_sort {T} (less : T -> T -> bool) hs arithmetic l :
  heap_sort_ok hs -> strict_weak_order less ->
  exists l', ft_list_sort less hs arithmetic false l = Ok l' /\ sorts_to less l l'.
Proof.
  intros HH S. unfold ft_list_sort. apply pdqsort_sorts; [exact HH|exact S|].
  intros p x q y r _. split; reflexivity.
Qed.
Print Assumptions C15_ft_sort.

(** reverse=True, when no two keys are equivalent. *)
Theorem C15_reverse_distinct_partial {T K} (lt ge : K -> K -> bool) hs (key : T -> K) l :
  heap_sort_ok hs -> strict_weak_order lt -> (forall x y, ge x y = negb (lt x y)) ->
  all_distinct (fun x y => lt (key x) (key y)) l ->
  exists l', list_sort lt ge hs key true l = Ok l' /\ sorts_to (fun x y => lt (key y) (key x)) l l'.
Proof.
  intros HH S G D. unfold list_sort. apply pdqsort_sorts; [exact HH|apply swo_flip, swo_key; exact S|].
  intros p x q y r E. unfold sort_comp. rewrite !G. specialize (D p x q y r E).
  destruct (lt (key x) (key y)), (lt (key y) (key x)); split; cbn; congruence.
Qed.
Print Assumptions C15_reverse_distinct_partial.
Theorem C15_ft_reverse_distinct_partial {T} (less : T -> T -> bool) hs arithmetic l :
  heap_sort_ok hs -> strict_weak_order less -> all_distinct less l ->
  exists l', ft_list_sort less hs arithmetic true l = Ok l' /\ sorts_to (fun x y => less y x) l l'.
Proof.
  intros HH S D. unfold ft_list_sort. apply pdqsort_sorts; [exact HH|apply swo_flip; exact S|].
  intros p x q y r E. unfold ft_sort_comp. specialize (D p x q y r E).
  destruct (less x y), (less y x); split; cbn; congruence.
Qed.
Print Assumptions C15_ft_reverse_distinct_partial.

(** reverse=True, fewer than 24 elements, with equivalent keys or not. *)
Theorem C15_reverse_short_partial {T K} (lt ge : K -> K -> bool) hs (key : T -> K) l :
  strict_weak_order lt -> (forall x y, ge x y = negb (lt x y)) -> (length l < 24)%nat ->
  exists l', list_sort lt ge hs key true l = Ok l' /\ sorts_to (fun x y => lt (key y) (key x)) l l'.
Proof.
  intros S G Hl. unfold list_sort.
  destruct l as [|d l]; [exists []; split; [reflexivity|]; split; [constructor|]; intros [|] x q y r E; discriminate|].
  destruct (wpdqsort_short d (fun x y => lt (key y) (key x)) (swo_flip _ (swo_key lt key S)) (sort_comp lt ge key true)) with
    (hs := hs (sort_comp lt ge key true)) (br := false) (l := d :: l) as (l' & HE & P & So).
  - intros x y. apply G.
  - unfold len. cbn [length] in *. lia.
  - fold (full (d :: l)). rewrite HE. cbn [bind]. exists l'. split; [apply values_full|]. split; assumption.
Qed.
Print Assumptions C15_reverse_short_partial.

(** Python's sort is stable; this one is not from 24 elements on.  (Elements carry their
    original position; the key is the first component.) *)
Definition stable_input : list (Z * Z) := combine (repeat 1 23 ++ [0; 1]) (map Z.of_nat (seq 0 25)).
Theorem C15_stability_refuted : forall hs, exists l', list_sort Z.ltb Z.geb hs (fst : Z * Z -> Z) false stable_input = Ok l' /\
  exists p x q y r, l' = p ++ x :: q ++ y :: r /\ fst x = fst y /\ snd y < snd x.
Proof.
  intros hs. eexists. split; [vm_compute; reflexivity|].
  match goal with |- exists p x q y r, ?l = _ /\ _ =>
    let rec go p l := lazymatch l with
      | ?x :: ?t => let rec go2 q t := lazymatch t with
          | ?y :: ?r => first [exists (rev p), x, (rev q), y, r; split; [reflexivity|split; reflexivity] | go2 (y :: q) r]
          | nil => fail end in
          first [go2 (@nil (Z * Z)) t | go (x :: p) t]
      | nil => fail end in go (@nil (Z * Z)) l end.
Qed.
Print Assumptions C15_stability_refuted.

(** ** C16 *)

(** No access outside the list (and no read of a moved-out element), for every comparison
    that is asymmetric -- transitivity is not needed, so floats with NaN are covered. *)
Theorem C16_sort_in_bounds {T K} (lt ge : K -> K -> bool) hs (key : T -> K) l :
  (forall c m, Permutation m (hs c m)) -> (forall x y, lt x y = true -> lt y x = false) ->
  exists l', list_sort lt ge hs key false l = Ok l' /\ Permutation l l'.
Proof.
  intros HH A. unfold list_sort. destruct l as [|d l]; [exists []; split; [reflexivity|constructor]|].
  destruct (pdqsort_safe d (fun x y => lt (key x) (key y)) (fun x y => A (key x) (key y)) (sort_comp lt ge key false) (d :: l)) with
    (hs := hs (sort_comp lt ge key false)) (branchless := false) (l := d :: l) as (l' & HE & P).
  - intros; reflexivity.
  - intros; apply HH.
  - reflexivity.
  - fold (full (d :: l)). rewrite HE. cbn [bind]. exists l'. split; [apply values_full|exact P].
Qed.
Print Assumptions C16_sort_in_bounds.
Theorem C16_ft_sort_in_bounds {T} (less : T -> T -> bool) hs arithmetic l :
  (forall c m, Permutation m (hs c m)) -> (forall x y, less x y = true -> less y x = false) ->
  exists l', ft_list_sort less hs arithmetic false l = Ok l' /\ Permutation l l'.
Proof.
  intros HH A. unfold ft_list_sort. destruct l as [|d l]; [exists []; split; [reflexivity|constructor]|].
  destruct (pdqsort_safe d less A (ft_sort_comp less false) (d :: l)) with
    (hs := hs (ft_sort_comp less false)) (branchless := arithmetic && negb false) (l := d :: l) as (l' & HE & P).
  - intros; reflexivity.
  - intros; apply HH.
  - reflexivity.
  - fold (full (d :: l)). rewrite HE. cbn [bind]. exists l'. split; [apply values_full|exact P].
Qed.
Print Assumptions C16_ft_sort_in_bounds.

(** reverse=True with at least 24 elements whose keys are all equivalent always reads past
    the end of the list. *)
Theorem C16_reverse_equal_refuted {T K} (lt ge : K -> K -> bool) hs (key : T -> K) l :
  (24 <= length l)%nat -> (forall x y, In x l -> In y l -> ge (key x) (key y) = true) ->
  list_sort lt ge hs key true l = OOB.
Proof.
  intros Hl A. unfold list_sort. destruct l as [|d l]; [cbn in Hl; lia|].
  fold (full (d :: l)). rewrite (rpdqsort d); [reflexivity|exact A|unfold len; lia].
Qed.
Print Assumptions C16_reverse_equal_refuted.
Theorem C16_ft_reverse_equal_refuted {T} (less : T -> T -> bool) hs arithmetic l :
  (24 <= length l)%nat -> (forall x y, In x l -> In y l -> less x y = false) ->
  ft_list_sort less hs arithmetic true l = OOB.
Proof.
  intros Hl A. unfold ft_list_sort. destruct l as [|d l]; [cbn in Hl; lia|]. rewrite andb_false_r.
  fold (full (d :: l)). rewrite (rpdqsort d); [reflexivity| |unfold len; lia].
  intros x y Hx Hy. unfold ft_sort_comp. rewrite A by assumption. reflexivity.
Qed.
Print Assumptions C16_ft_reverse_equal_refuted.

(** ** The hypotheses can be met *)

Lemma Zltb_swo : strict_weak_order Z.ltb.
Proof. split; intros; rewrite ?Z.ltb_lt, ?Z.ltb_ge in *; lia. Qed.

(** Insertion into a sorted list: a concrete function with the property asked of the heap
    sort. *)
Fixpoint ins {T} (c : T -> T -> bool) (x : T) (l : list T) : list T :=
  match l with
  | [] => [x]
  | y :: l' => if c y x then y :: ins c x l' else x :: l
  end.
Fixpoint isort {T} (c : T -> T -> bool) (l : list T) : list T :=
  match l with [] => [] | x :: l' => ins c x (isort c l') end.
Lemma ins_perm {T} (c : T -> T -> bool) x l : Permutation (x :: l) (ins c x l).
Proof.
  induction l as [|y l IH]; cbn; [reflexivity|]. destruct (c y x); [|reflexivity].
  rewrite perm_swap. constructor. exact IH.
Qed.
Lemma isort_perm {T} (c : T -> T -> bool) l : Permutation l (isort c l).
Proof. induction l as [|x l IH]; cbn; [reflexivity|]. rewrite <- ins_perm. constructor. exact IH. Qed.
Lemma sorted_cons {T} (lt : T -> T -> bool) x l :
  sorted lt (x :: l) <-> (forall y, In y l -> lt y x = false) /\ sorted lt l.
Proof. exact (pairs_cons (fun a b => lt b a = false) x l). Qed.
Lemma isort_ok {T} : heap_sort_ok (@isort T).
Proof.
  intros c lt m S. induction m as [|x m IH]; intros A; [split; [constructor|intros [|] ? ? ? ? E; discriminate]|].
  assert (A' : (forall y, In y m -> c x y = lt x y /\ c y x = lt y x) /\ agree_apart c lt m) by (apply (pairs_cons (fun a b => c a b = lt a b /\ c b a = lt b a)); exact A).
  destruct A' as [A1 A2]. destruct (IH A2) as [P So]. split; [apply (isort_perm c (x :: m))|]. cbn [isort].
  assert (A3 : forall y, In y (isort c m) -> c y x = lt y x).
  { intros y Hy. apply A1. apply (Permutation_in _ (Permutation_sym P)). exact Hy. }
  clear A A1 A2 IH P. revert A3 So. generalize (isort c m). clear m. intros l. induction l as [|y l IH]; intros A3 So.
  - intros [|? [|]] ? [|] ? ? E; discriminate.
  - cbn [ins]. apply sorted_cons in So. destruct So as [S1 S2].
    rewrite A3 by (left; reflexivity). destruct (lt y x) eqn:E.
    + apply sorted_cons. split; [|apply IH; [intros; apply A3; right; assumption|exact S2]].
      intros z Hz. apply (Permutation_in _ (Permutation_sym (ins_perm c x l))) in Hz. destruct Hz as [<-|Hz]; [|apply S1; exact Hz].
      apply (swo_asym lt S). exact E.
    + apply sorted_cons. split; [|apply sorted_cons; split; assumption].
      intros z [<-|Hz]; [exact E|]. specialize (S1 z Hz). apply (le_trans lt S x y z); unfold le; assumption.
Qed.

Definition down (n : nat) : list Z := map (fun i => Z.of_nat n - Z.of_nat i) (seq 0 n).
Example C15_example :
  heap_sort_ok (@isort Z) /\ strict_weak_order Z.ltb /\ (forall x y, Z.geb x y = negb (Z.ltb x y)) /\
  list_sort Z.ltb Z.geb isort (fun x => x) false (down 40) = Ok (rev (down 40)) /\
  ft_list_sort Z.ltb isort true false (down 60) = Ok (rev (down 60)) /\
  list_sort Z.ltb Z.geb isort (fun x => x) true (rev (down 30)) = Ok (down 30) /\
  list_sort Z.ltb Z.geb isort Z.abs false [3; -1; 2; -7; 0] = Ok [0; -1; 2; 3; -7] /\
  list_sort Z.ltb Z.geb isort (fun x => x) true [1; 1; 2; 1] = Ok [2; 1; 1; 1].
Proof.
  split; [apply isort_ok|]. split; [apply Zltb_swo|]. split; [intros; rewrite Z.geb_leb, Z.leb_antisym; reflexivity|].
  repeat split; vm_compute; reflexivity.
Qed.
Example C16_example :
  list_sort Z.ltb Z.geb isort (fun x => x) true (repeat 5 24) = OOB /\
  list_sort Z.ltb Z.geb isort (fun x => x) true (repeat 5 23) = Ok (repeat 5 23) /\
  ft_list_sort Z.ltb isort true true (repeat 5 24) = OOB.
Proof. repeat split; vm_compute; reflexivity. Qed.
