(** C45: an array handle behaves as a value, however its storage is shared. *)
From Verif Require Import Base ListAux CowModel CowSpec CowProofs.

(** Whatever calls are made, on whatever variables, the answers and the content of every
    variable are those of a program in which each variable owns its list. *)
Theorem C45_value_semantics_partial : forall n ops vals bs,
  tame_run (repeat VNull n) ops ->
  run_v (repeat VNull n) ops = Ok (vals, bs) ->
  exists s, run (start n) ops = Ok (s, bs) /\ Forall2 (reads (hp s)) (vars s) vals.
Proof.
  intros n ops vals bs T X. destruct (run_ok ops _ _ _ _ (R_start n) T X) as (s & Q & HR).
  exists s. split; [exact Q|]. now apply R_reads.
Qed.
Print Assumptions C45_value_semantics_partial.

(** A handle never reads as two values. *)
Theorem C45_reads_once : forall h r v w, reads h r v -> reads h r w -> v = w.
Proof. intros h r v w. apply (reads_fun h (vsize v)). lia. Qed.
Print Assumptions C45_reads_once.

(** At every moment, an object that exists can be reached from a variable: what is not
    needed any more has been freed. *)
Theorem C45_no_garbage_partial : forall n ops vals bs s bs' a c,
  tame_run (repeat VNull n) ops ->
  run_v (repeat VNull n) ops = Ok (vals, bs) ->
  run (start n) ops = Ok (s, bs') ->
  lookup (hp s) a = Some c -> reach (hp s) (vars s) a.
Proof.
  intros n ops vals bs s bs' a c T X Q L. destruct (run_ok ops _ _ _ _ (R_start n) T X) as (s' & Q' & HR).
  rewrite Q in Q'. injection Q' as <- <-. eapply R_reach; eauto.
Qed.
Print Assumptions C45_no_garbage_partial.

(** So nothing is left when the last handle goes. *)
Theorem C45_no_leak_partial : forall n ops vals bs s bs' a,
  tame_run (repeat VNull n) ops ->
  run_v (repeat VNull n) ops = Ok (vals, bs) ->
  run (start n) ops = Ok (s, bs') ->
  Forall (fun r => r = None) (vars s) -> lookup (hp s) a = None.
Proof.
  intros n ops vals bs s bs' a T X Q F. destruct (lookup (hp s) a) as [c|] eqn:L; [|reflexivity].
  destruct (no_roots (hp s) _ F a). eapply C45_no_garbage_partial; eauto.
Qed.
Print Assumptions C45_no_leak_partial.

(** A concrete history: two handles on one array; the second is pushed to, erased from,
    mapped, and the first keeps its content. *)
Definition bump (k : kind) : action :=
  match k with KLeaf z => Fresh (z + 1) | KNull => Use 2%nat | KArr => Keep end.
Definition history : list op :=
  [NewArr 0; New 1 7; Push 0 1; Push 0 1; New 2 8; Copy 3 0; Push 3 2; Insert 3 1 0; Erase 3 0;
   Resize 3 4; Size 3; Size 0; Pop 0; Map 0 3 bump; Mutate 3 bump; Get 1 0 7; Get 1 0 0; Concat 2 0 1; Set_ 2 9 2;
   Reserve 0 30; InsertRange 0 1 [1; 2]%nat; EraseRange 0 0 2; Assign 1 [0; 3; 0]%nat].
Example C45_example :
  tame_run (repeat VNull 4) history /\
  exists vals bs, run_v (repeat VNull 4) history = Ok (vals, bs) /\
    nth_error vals 2 = Some (VArr [VArr [VLeaf 7; VLeaf 7]; VLeaf 8; VLeaf 9; VLeaf 8; VLeaf 7; VLeaf 7]) /\
    nth_error bs 11 = Some (Answer 2) /\ nth_error bs 15 = Some (Raised IndexError).
Proof.
  split.
  - unfold history. cbn [tame_run repeat]. 
    repeat (split; [cbn; try (intros [| |]; cbn; split; congruence); try congruence; try exact Logic.I; try lia|
                    intros vs' b E; vm_compute in E; injection E as <- <-]).
    exact Logic.I.
  - eexists _, _. split; [vm_compute; reflexivity|]. repeat split.
Qed.

(** What is missing, one call at a time.  Pushing (or inserting) an array into itself while
    nobody else holds it ties a knot: the variable reads as no value at all, and dropping it
    frees nothing. *)
Theorem C45_self_push_refuted : forall item, item = Push 0 0 \/ item = Insert 0 0 0 ->
  exists s s' bs bs', run (start 1) [NewArr 0; item] = Ok (s, bs) /\
    (forall r v, In r (vars s) -> ~ reads (hp s) r v) /\
    run (start 1) [NewArr 0; item; Drop 0] = Ok (s', bs') /\
    vars s' = [None] /\ lookup (hp s') 0 <> None.
Proof.
  intros item H.
  assert (KNOT : forall h v, size_of h 0 = Ok 1%nat -> get_slot h 0 0 = Ok (Some 0%nat) -> ~ reads h (Some 0%nat) v).
  { intros h v S G A. inversion A as [|? ? ? L|? l S' B]; subst.
    - unfold size_of, arr_of in S. rewrite L in S. discriminate.
    - rewrite S in S'. destruct l as [|u [|? ?]]; try discriminate.
      destruct (B O u eq_refl) as (r & G' & A'). rewrite G in G'. injection G' as <-.
      pose proof (C45_reads_once _ _ _ _ A A') as E. apply (f_equal vsize) in E. cbn in E. lia. }
  destruct H as [-> | ->]; (eexists _, _, _, _; split; [vm_compute; reflexivity|]; split; [|split; [vm_compute; reflexivity|]]).
  - intros r v [<-|[]]. apply KNOT; reflexivity.
  - split; [reflexivity|discriminate].
  - intros r v [<-|[]]. apply KNOT; reflexivity.
  - split; [reflexivity|discriminate].
Qed.
Print Assumptions C45_self_push_refuted.

(** [resize(n)] on a null handle answers an empty array, whatever [n] is. *)
Theorem C45_resize_null_refuted : forall n, 0 <= n ->
  exists s, run (start 1) [Resize 0 n; Size 0] = Ok (s, [Done; Answer 0]).
Proof.
  intros n H. cbn [run]. unfold step at 1. cbn [exec start hp vars repeat]. 
  destruct (Z.ltb_spec n 0) as [X|_]; [lia|].
  unfold var_arr. cbn [rd nth_error bind switch_container]. unfold empty_node.
  destruct (Z.ltb_spec n 0) as [X|_]; [lia|]. cbn [bind alloc done lset].
  eexists. reflexivity.
Qed.
Print Assumptions C45_resize_null_refuted.

(** Adding a null handle on the right is undefined: [end()] reads through a null pointer. *)
Theorem C45_null_iteration_refuted : 
  run_v (repeat VNull 3) [NewArr 0; Concat 2 0 1] = Ok ([VArr []; VNull; VArr []], [Done; Done]) /\
  run (start 3) [NewArr 0; Concat 2 0 1] = OOB.
Proof. split; reflexivity. Qed.
Print Assumptions C45_null_iteration_refuted.

(** A callback of [MutateByApply] that throws takes the array with it: the handle is null
    afterwards, whatever it held. *)
Theorem C45_mutate_throw_refuted : forall z,
  exists s, run (start 2) [NewArr 0; New 1 z; Push 0 1; Mutate 0 (fun _ => Throw)] =
              Ok (s, [Done; Done; Done; Raised (UserError 0)]) /\ 
            vars s = [None; Some 1%nat].
Proof. intros z. eexists. split; [vm_compute; reflexivity|reflexivity]. Qed.
Print Assumptions C45_mutate_throw_refuted.
