(** Theorems about loops and iterators (C65, C66). *)
From Coq Require Import List ZArith Bool PeanoNat Lia.
From Verif Require Import Base ItAst ItModel ItSpec ItProofs.
Import ListNotations.
Local Open Scope nat_scope.

(** The compiled state shows what the Python state shows: the same output and
    the same items in every list, none of them freed. *)
Definition same_view (p : pst) (c : cst) : Prop :=
  pout p = cout c /\ forall l, clist_vals c l = map Some (plists p l).

Lemma INV_view p c : INV p c -> same_view p c.
Proof.
  intros I. split; [apply (i_out _ _ I)|]. intro l. unfold clist_vals.
  pose proof (i_len _ _ I l) as L. pose proof (i_item _ _ I l) as H.
  revert L H. generalize (plists p l) (citems (clists c l)). clear. intros vs.
  induction vs as [|v vs IH]; intros [|cv cvs] L H; cbn in L; try lia; auto.
  cbn. f_equal.
  - destruct (H 0 v eq_refl) as (x & [= <-] & E). exact E.
  - apply IH; [lia|]. intros k w Hk. apply (H (S k) w Hk).
Qed.

(** ** C65: a for loop goes over what Python goes over *)

(** A strict run that is not disturbed is Python's run, and the compiled
    program runs in the same way: same outcome, same output, same lists, with
    no undefined behaviour.  Missing: the runs [strict] rules out (D1 to D6 of
    ItSpec), for which the claim is false (the refutations below). *)
Theorem C65_loops_partial : forall fuel s,
  p_exec true fuel [] s pinit <> PDisturbed ->
  match p_exec false fuel [] s pinit with
  | PDone k p => exists c, cexec fuel [] s cinit = CDone k c /\ same_view p c
  | PRaise p => exists c, cexec fuel [] s cinit = CRaise c /\ same_view p c
  | PFuel => cexec fuel [] s cinit = CFuel
  | PDisturbed => False
  end.
Proof.
  intros fuel s H. rewrite <- (proj1 (exec_plain fuel) [] s pinit H).
  pose proof (proj1 (exec_ok fuel) [] [] s pinit cinit INV_init (Forall2_nil _)) as R.
  destruct (p_exec true fuel [] s pinit) as [k p|p| |]; cbn in R; auto.
  - destruct R as (c & -> & I & _). eauto using INV_view.
  - destruct R as (c & -> & I). eauto using INV_view.
Qed.
Print Assumptions C65_loops_partial.

(** Two lists of numbers and strings, an iterator over the first shared by two
    loops one after the other (the first leaves it with a break), the second
    loop a zip that ends with it, its body storing into the other list. *)
Definition mixed_program : stmt :=
  SSeq (fill 0 [Num 1; Str 7; Num 3; Str 9]) (SSeq (fill 1 [Str 5; Num 6; Num 8])
    (SSeq (SIter 0 0)
      (SSeq (SFor None [(0, FromIter 0)] (SSeq (SEmit (EVar 0)) (SIf 0 (Str 7) SBreak SSkip)))
        (SFor None [(0, FromAny 1); (1, FromIter 0)]
           (SSeq (SEmit (EVar 0)) (SSeq (SEmit (EVar 1)) (SSet 0 (EVal (Num (-4))) (EVar 1)))))))).

Example C65_loops_partial_example :
  p_exec true 30 [] mixed_program pinit <> PDisturbed /\
  match cexec 30 [] mixed_program cinit with
  | CDone Nrm c => cout c = [Num 1; Str 7; Str 5; Num 3; Num 6; Str 9] /\
                   clist_vals c 0 = map Some [Str 9; Str 7; Num 3; Str 9]
  | _ => False
  end.
Proof. split; [vm_compute; discriminate|vm_compute; auto]. Qed.

(** Programs without iterator objects whose loop bodies leave the lists of the
    enclosing loops alone: no side condition on the run is needed. *)
Theorem C65_calm_loops : forall M fuel s,
  calm M [] s -> (M + Z.of_nat fuel < two63)%Z ->
  match p_exec false fuel [] s pinit with
  | PDone k p => exists c, cexec fuel [] s cinit = CDone k c /\ same_view p c
  | PRaise p => exists c, cexec fuel [] s cinit = CRaise c /\ same_view p c
  | PFuel => cexec fuel [] s cinit = CFuel
  | PDisturbed => False
  end.
Proof.
  intros M fuel s C H. apply C65_loops_partial.
  pose proof (proj1 (calm_exec M fuel H) [] [] s pinit C (Forall_nil _)) as Q.
  intro E. now rewrite E in Q.
Qed.
Print Assumptions C65_calm_loops.

Definition calm_program : stmt :=
  SSeq (fill 0 [Num 1; Str 2; Num 3]) (SSeq (fill 1 [Str 4; Num 5])
    (SFor (Some (2, 10%Z)) [(0, FromList 0)]
      (SSeq (SAppend 2 (EVar 0))
        (SFor None [(1, FromAny 1); (3, FromList 1)] (SSeq (SAppend 2 (EVar 3)) (SEmit (EVar 2))))))).

Example C65_calm_loops_example :
  calm 10 [] calm_program /\
  match cexec 30 [] calm_program cinit with
  | CDone Nrm c => cout c = map Num [10; 10; 11; 11; 12; 12]%Z /\
      clist_vals c 2 = map Some [Num 1; Str 4; Num 5; Str 2; Str 4; Num 5; Num 3; Str 4; Num 5]
  | _ => False
  end.
Proof.
  split; [|vm_compute; auto]. cbn -[In Z.le].
  repeat (match goal with |- _ /\ _ => split end); auto; try discriminate;
    try (intros []; discriminate); repeat (constructor; cbn; eauto).
  all: cbn; lia.
Qed.

(** zip: the pairs of the items, up to the shorter list. *)
Theorem C65_zip : forall vs ws fuel,
  length vs + length ws + 10 <= fuel ->
  exists c,
    cexec fuel [] (SSeq (fill 0 vs) (SSeq (fill 1 ws)
      (SFor None [(0, FromList 0); (1, FromAny 1)] (show2 0 1)))) cinit = CDone Nrm c /\
    cout c = flat_map both (combine vs ws).
Proof.
  intros vs ws fuel H. destruct fuel as [|[|[|f]]]; try lia.
  set (prog := SSeq _ _).
  assert (X : exists p, p_exec true (S (S (S f))) [] prog pinit = PDone Nrm p /\
                        pout p = flat_map both (combine vs ws)).
  { unfold prog. erewrite seq_next; [|apply fill_ok; lia].
    erewrite seq_next; [|apply fill_ok; lia].
    destruct (appends_facts vs pinit 0) as (A0 & B0 & _ & _ & _ & O0).
    destruct (appends_facts ws (appends pinit 0 vs) 1) as (A1 & B1 & _ & _ & _ & O1).
    set (p2 := appends (appends pinit 0 vs) 1 ws) in *.
    assert (L0 : plists p2 0 = vs) by (rewrite B1 by lia; rewrite A0; reflexivity).
    assert (L1 : plists p2 1 = ws) by (rewrite A1, B0 by lia; reflexivity).
    cbn [p_exec p_starts p_start].
    destruct (zip_loop (min (length vs) (length ws)) f [] vs ws 0 1 0 1 0 (pver p2 0) (pver p2 1) p2)
      as (p' & E & O); auto; try lia.
    exists p'. split; [exact E|]. rewrite O, O1, O0. reflexivity. }
  destruct X as (p & E & O).
  assert (D : p_exec true (S (S (S f))) [] prog pinit <> PDisturbed) by congruence.
  pose proof (C65_loops_partial _ _ D) as R.
  rewrite <- (proj1 (exec_plain _) [] prog pinit D), E in R.
  destruct R as (c & C & V & _). exists c. split; auto. congruence.
Qed.
Print Assumptions C65_zip.

Example C65_zip_example :
  flat_map both (combine [Num 1; Num 2; Num 3] [Str 4; Str 5]) = [Num 1; Str 4; Num 2; Str 5].
Proof. reflexivity. Qed.

(** enumerate: the items with their counts. *)
Theorem C65_enumerate : forall vs n fuel,
  length vs + 10 <= fuel -> (n + Z.of_nat (length vs) < two63)%Z ->
  exists c,
    cexec fuel [] (SSeq (fill 0 vs)
      (SFor (Some (0, n)) [(1, FromList 0)] (show2 0 1))) cinit = CDone Nrm c /\
    cout c = flat_map both (counted n vs).
Proof.
  intros vs n fuel H Hn. destruct fuel as [|[|f]]; try lia.
  set (prog := SSeq _ _).
  assert (X : exists p, p_exec true (S (S f)) [] prog pinit = PDone Nrm p /\
                        pout p = flat_map both (counted n vs)).
  { unfold prog. erewrite seq_next; [|apply fill_ok; lia].
    destruct (appends_facts vs pinit 0) as (A0 & B0 & _ & _ & _ & O0).
    set (p2 := appends pinit 0 vs) in *.
    cbn [p_exec p_starts p_start].
    destruct (enum_loop (length vs) f [] vs 0 1 0 0 (pver p2 0) n p2)
      as (p' & E & O); auto; try lia.
    exists p'. split; [exact E|]. rewrite O, O0. reflexivity. }
  destruct X as (p & E & O).
  assert (D : p_exec true (S (S f)) [] prog pinit <> PDisturbed) by congruence.
  pose proof (C65_loops_partial _ _ D) as R.
  rewrite <- (proj1 (exec_plain _) [] prog pinit D), E in R.
  destruct R as (c & C & V & _). exists c. split; auto. congruence.
Qed.
Print Assumptions C65_enumerate.

Example C65_enumerate_example :
  counted 5 [Str 1; Num 2] = [(Num 5, Str 1); (Num 6, Num 2)].
Proof. reflexivity. Qed.

(** A body that appends to the list: Python goes on to the new item, the
    compiled loop keeps the end it started with. *)
Theorem C65_append_refuted : forall a v, a <> v ->
  let prog src := SSeq (fill 0 [v]) (SFor None [(0, src 0)]
                    (SSeq (SEmit (EVar 0)) (SIf 0 v (SAppend 0 (EVal a)) SSkip))) in
  forall src, src = FromList \/ src = FromAny ->
  (exists p, p_exec false 9 [] (prog src) pinit = PDone Nrm p /\ pout p = [v; a]) /\
  (exists c, cexec 9 [] (prog src) cinit = CDone Nrm c /\ cout c = [v]).
Proof.
  intros a v N prog src Hs.
  assert (R : veqb v v = true) by (destruct v; cbn; apply Z.eqb_refl).
  assert (Q : veqb a v = false).
  { destruct a, v; cbn; auto; apply Z.eqb_neq; congruence. }
  split.
  - destruct Hs as [-> | ->]; eexists; cbn; rewrite R; cbn; rewrite Q; split; reflexivity.
  - destruct Hs as [-> | ->]; destruct v; destruct a; eexists; cbn; rewrite Z.eqb_refl; split; reflexivity.
Qed.
Print Assumptions C65_append_refuted.

(** With two items, the append moves the items elsewhere and the loop reads
    its second item from the buffer the list has left. *)
Theorem C65_append_memory_refuted : forall a v w, v <> w -> a <> v ->
  let prog := SSeq (fill 0 [v; w]) (SFor None [(0, FromList 0)]
                (SIf 0 v (SAppend 0 (EVal a)) SSkip)) in
  (exists p, p_exec false 9 [] prog pinit = PDone Nrm p /\ plists p 0 = [v; w; a]) /\
  cexec 9 [] prog cinit = CUB.
Proof.
  intros a v w N1 N2 prog.
  assert (R : veqb v v = true) by (destruct v; cbn; apply Z.eqb_refl).
  assert (Q : forall x y, x <> y -> veqb x y = false).
  { intros [] [] H; cbn; auto; apply Z.eqb_neq; congruence. }
  split.
  - eexists; cbn. rewrite R. cbn. rewrite (Q w v) by congruence. cbn. rewrite (Q a v) by auto.
    split; reflexivity.
  - destruct v, w, a; cbn; rewrite Z.eqb_refl; reflexivity.
Qed.
Print Assumptions C65_append_memory_refuted.

(** A body that pops: the compiled loop reads items that are gone. *)
Theorem C65_pop_refuted : forall a b,
  let prog src := SSeq (fill 0 [a; b]) (SFor None [(0, src 0)] (SSeq (SEmit (EVar 0)) (SPop 0))) in
  forall src, src = FromList \/ src = FromAny ->
  (exists p, p_exec false 9 [] (prog src) pinit = PDone Nrm p /\ pout p = [a] /\ plists p 0 = [a]) /\
  cexec 9 [] (prog src) cinit = CUB.
Proof.
  intros a b prog src Hs. split.
  - destruct Hs as [-> | ->]; eexists; cbn; repeat split; reflexivity.
  - destruct Hs as [-> | ->]; destruct a, b; reflexivity.
Qed.
Print Assumptions C65_pop_refuted.

(** A body that replaces the string it is looking at: the loop variable is a
    view of freed storage. *)
Theorem C65_replace_refuted : forall t v,
  let prog src := SSeq (fill 0 [Str t]) (SFor None [(0, src 0)]
                    (SSeq (SSet 0 (EVal (Num 0)) (EVal v)) (SEmit (EVar 0)))) in
  forall src, src = FromList \/ src = FromAny ->
  (exists p, p_exec false 9 [] (prog src) pinit = PDone Nrm p /\ pout p = [Str t]) /\
  cexec 9 [] (prog src) cinit = CUB.
Proof.
  intros t v prog src Hs. split.
  - destruct Hs as [-> | ->]; eexists; cbn; repeat split; reflexivity.
  - destruct Hs as [-> | ->]; destruct v; reflexivity.
Qed.
Print Assumptions C65_replace_refuted.

(** ** C66: an iterator hands out each item once *)

(** list.extend with an iterator: the items in order; with a reversed one:
    in the opposite order. *)
Theorem C66_extend : forall vs ws fuel,
  length vs + length ws + 10 <= fuel ->
  (exists c, cexec fuel [] (SSeq (fill 0 vs) (SSeq (fill 1 ws) (SSeq (SIter 0 0) (SExtend 1 0)))) cinit
               = CDone Nrm c /\ clist_vals c 1 = map Some (ws ++ vs)) /\
  (exists c, cexec fuel [] (SSeq (fill 0 vs) (SSeq (fill 1 ws) (SSeq (SRev 0 0) (SExtend 1 0)))) cinit
               = CDone Nrm c /\ clist_vals c 1 = map Some (ws ++ rev vs)).
Proof.
  intros vs ws fuel H. destruct fuel as [|[|[|[|[|f]]]]]; try lia.
  assert (X : forall st W, (forall p2, plists p2 0 = vs -> plists p2 1 = ws ->
                exists p', p_exec true (S (S (S f))) [] (SSeq st (SExtend 1 0)) p2 = PDone Nrm p' /\ plists p' 1 = W) ->
              exists c, cexec (S (S (S (S (S f))))) [] (SSeq (fill 0 vs) (SSeq (fill 1 ws) (SSeq st (SExtend 1 0)))) cinit
                 = CDone Nrm c /\ clist_vals c 1 = map Some W).
  { intros st W HW. set (prog := SSeq (fill 0 vs) _).
    destruct (appends_facts vs pinit 0) as (A0 & B0 & _).
    destruct (appends_facts ws (appends pinit 0 vs) 1) as (A1 & B1 & _).
    set (p2 := appends (appends pinit 0 vs) 1 ws) in *.
    assert (L0 : plists p2 0 = vs) by (rewrite B1 by lia; rewrite A0; reflexivity).
    assert (L1 : plists p2 1 = ws) by (rewrite A1, B0 by lia; reflexivity).
    destruct (HW p2 L0 L1) as (p' & E & O).
    assert (E' : p_exec true (S (S (S (S (S f))))) [] prog pinit = PDone Nrm p').
    { unfold prog. erewrite seq_next; [|apply fill_ok; lia].
      erewrite seq_next; [exact E|apply fill_ok; lia]. }
    assert (D : p_exec true (S (S (S (S (S f))))) [] prog pinit <> PDisturbed) by congruence.
    pose proof (C65_loops_partial _ _ D) as R.
    rewrite <- (proj1 (exec_plain _) [] prog pinit D), E' in R.
    destruct R as (c & C & _ & V). exists c. split; auto. now rewrite V, O. }
  split; apply X; intros p2 L0 L1.
  - cbn [p_exec p_new pvars]. rewrite upd_same.
    edestruct (extend_fwd (length vs) (S f) 1 0 (pnobj p2) 0 vs (p_new p2 0 (PFwd 0 0 (pver p2 0))))
      as (p' & E & O); auto; try lia.
    { cbn. now rewrite upd_same. }
    exists p'. split; [exact E|]. rewrite O. cbn. now rewrite L1.
  - cbn [p_exec p_new pvars]. rewrite upd_same.
    edestruct (extend_rev (length vs) (S f) 1 0 (pnobj p2) vs
                 (p_new p2 0 (PRev 0 (length (plists p2 0)) (pver p2 0)))) as (p' & E & O); auto; try lia.
    { cbn. now rewrite upd_same, L0. }
    exists p'. split; [exact E|]. rewrite O. cbn. now rewrite L1, firstn_all.
Qed.
Print Assumptions C66_extend.

Example C66_extend_example :
  match cexec 20 [] (SSeq (fill 0 [Num 1; Str 2; Num 3]) (SSeq (fill 1 [Num 9]) (SSeq (SRev 0 0) (SExtend 1 0)))) cinit with
  | CDone Nrm c => clist_vals c 1 = map Some [Num 9; Num 3; Str 2; Num 1]
  | _ => False
  end.
Proof. vm_compute. reflexivity. Qed.

(** min and max of an iterator over numbers, when it has some. *)
Theorem C66_min_max_partial : forall z zs fuel,
  length zs + 10 <= fuel ->
  forall big : bool,
  exists c, cexec fuel [] (SSeq (fill 0 (map Num (z :: zs)))
              (SSeq (SIter 0 0) (if big then SMax 0 else SMin 0))) cinit = CDone Nrm c /\
            cout c = [Num (least big z zs)].
Proof.
  intros z zs fuel H big. destruct fuel as [|[|[|[|f]]]]; try lia.
  set (prog := SSeq (fill _ _) _).
  assert (X : exists p, p_exec true (S (S (S (S f)))) [] prog pinit = PDone Nrm p /\
                        pout p = [Num (least big z zs)]).
  { unfold prog. erewrite seq_next; [|apply fill_ok; cbn [map length]; rewrite map_length; lia].
    destruct (appends_facts (map Num (z :: zs)) pinit 0) as (A0 & _ & _ & _ & _ & O0).
    set (p2 := appends pinit 0 (map Num (z :: zs))) in *. cbn [plists pinit app] in A0.
    erewrite seq_next; [|reflexivity].
    set (p3 := p_new p2 0 _).
    assert (M : exists p', p_minmax true (S f) big (pnobj p2) p3 = PDone Nrm p' /\
                           pout p' = [Num (least big z zs)]).
    { unfold p_minmax, p_next. cbn [p3 p_new pobjs]. rewrite upd_same. cbn [andb pi_stale pi_at].
      cbn [pver p_new p3]. rewrite Nat.eqb_refl. cbn [negb]. change (plists p3 0) with (plists p2 0).
      rewrite A0. cbn [map length Nat.ltb Nat.leb].
      cbn [p_item pv_val nth]. change (plists p3 0) with (plists p2 0). rewrite A0.
      cbn [map nth].
      edestruct (best_fwd zs (S f) big (pnobj p2) 1 0 (map Num (z :: zs)) z
                   (p_obj p3 (pnobj p2) (PFwd 0 1 (pver p2 0)))) as (p' & E & O); auto; try lia.
      { cbn. now rewrite upd_same. }
      { cbn [map length]. rewrite map_length. lia. }
      exists p'. split; [exact E|]. rewrite O.
      transitivity (pout p2 ++ [Num (least big z zs)]); [reflexivity|]. now rewrite O0. }
    destruct M as (p' & M & O). exists p'. split; [|exact O].
    destruct big; cbn [p_exec p3 p_new pvars]; rewrite upd_same; exact M. }
  destruct X as (p & E & O).
  assert (D : p_exec true (S (S (S (S f)))) [] prog pinit <> PDisturbed) by congruence.
  pose proof (C65_loops_partial _ _ D) as R.
  rewrite <- (proj1 (exec_plain _) [] prog pinit D), E in R.
  destruct R as (c & C & V & _). exists c. split; auto. congruence.
Qed.
Print Assumptions C66_min_max_partial.

Example C66_min_max_partial_example :
  least false 4 [7; -2; 3]%Z = (-2)%Z /\ least true 4 [7; -2; 3]%Z = 7%Z.
Proof. split; reflexivity. Qed.

(** Of an iterator that has nothing left: Python raises, the compiled function
    reads past the end. *)
Theorem C66_min_empty_refuted : forall big : bool,
  let prog := SSeq (SIter 0 0) (if big then SMax 0 else SMin 0) in
  (exists p, p_exec false 4 [] prog pinit = PRaise p) /\ cexec 4 [] prog cinit = CUB.
Proof. intros [|]; split; [eexists; reflexivity|reflexivity|eexists; reflexivity|reflexivity]. Qed.
Print Assumptions C66_min_empty_refuted.

(** zip(it, it) over three items: Python pairs the first two, the compiled
    loop then reads past the end. *)
Theorem C66_zip_with_itself_refuted : forall a b d,
  let prog := SSeq (fill 0 [a; b; d]) (SSeq (SIter 0 0)
                (SFor None [(0, FromIter 0); (1, FromIter 0)] (show2 0 1))) in
  (exists p, p_exec false 9 [] prog pinit = PDone Nrm p /\ pout p = [a; b]) /\
  cexec 9 [] prog cinit = CUB.
Proof.
  intros a b d prog. split.
  - eexists; split; vm_compute; reflexivity.
  - destruct a, b, d; vm_compute; reflexivity.
Qed.
Print Assumptions C66_zip_with_itself_refuted.

(** A loop over an iterator whose body uses the iterator up. *)
Theorem C66_nested_refuted : forall a b,
  let prog := SSeq (fill 0 [a; b]) (SSeq (SIter 0 0)
                (SFor None [(0, FromIter 0)] (SFor None [(1, FromIter 0)] (show2 0 1)))) in
  (exists p, p_exec false 9 [] prog pinit = PDone Nrm p /\ pout p = [a; b]) /\
  cexec 9 [] prog cinit = CUB.
Proof.
  intros a b prog. split.
  - eexists; split; vm_compute; reflexivity.
  - destruct a, b; vm_compute; reflexivity.
Qed.
Print Assumptions C66_nested_refuted.

(** After zip(it, xs) has ended with xs, Python's zip has taken one more item
    from the iterator; the compiled loop has not. *)
Theorem C66_zip_ahead_refuted : forall a b d,
  let prog := SSeq (fill 0 [a; b]) (SSeq (SIter 0 0)
                (SSeq (SAppend 1 (EVal d)) (SSeq (SFor None [(0, FromIter 0); (1, FromList 1)] SSkip)
                   (SFor None [(0, FromIter 0)] (SEmit (EVar 0)))))) in
  (exists p, p_exec false 9 [] prog pinit = PDone Nrm p /\ pout p = []) /\
  (exists c, cexec 9 [] prog cinit = CDone Nrm c /\ cout c = [b]).
Proof.
  intros a b d prog. split.
  - eexists; split; vm_compute; reflexivity.
  - destruct a, b, d; eexists; split; vm_compute; reflexivity.
Qed.
Print Assumptions C66_zip_ahead_refuted.
