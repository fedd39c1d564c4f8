(** C36, C37 and C38: order of a pipeline's nodes, serial and parallel runs, unique names. *)
From Verif Require Import Base ListAux FmtModel FmtSpec GraphModel GraphSpec NameProofs GraphProofs SessionProofs.

(** * C36: topological order and groups *)

(** Whatever program built the graph, it has no cycle and no dangling argument. *)
Theorem C36_built_acyclic : forall fuel bytes_hash prog st,
  build fuel bytes_hash gempty prog = Ok st -> acyclic (gs_nodes st) /\ closed (gs_nodes st).
Proof.
  intros fuel bh prog st E.
  destruct (build_ordered fuel bh prog gempty st) as (O & C); [| |assumption|].
  - intros n nd e X. destruct n; discriminate.
  - intros n nd e X. destruct n; discriminate.
  - split; [apply ordered_acyclic; assumption|assumption].
Qed.
Print Assumptions C36_built_acyclic.

(** Every acyclic graph is listed in topological order, each needed node once. *)
Theorem C36_topological : forall g outs, acyclic g -> closed g ->
  (forall n, In n outs -> (n < length g)%nat) ->
  exists f0, forall fuel, (f0 <= fuel)%nat ->
    exists d, topo_sort fuel g outs = Ok d /\ topological g outs (d_nodes d).
Proof.
  intros g outs HA HC HO. destruct (topo_ok g outs HA HC HO) as (f0 & H). exists f0. intros f Hf.
  destruct (H f Hf) as (d & E & _ & T). exists d. auto.
Qed.
Print Assumptions C36_topological.

(** On a cycle the visit cannot return, however long it runs. *)
Theorem C36_returns_only_acyclic : forall fuel g outs d n,
  topo_sort fuel g outs = Ok d -> In n outs -> Acc (feeds g) n.
Proof.
  intros fuel g outs d n E I. unfold topo_sort in E.
  destruct (fold_res_ok (fun st n => dfs_visit fuel g st n) _ _ _ E n I) as (s1 & s2 & E2).
  eapply visit_acc; eassumption.
Qed.
Print Assumptions C36_returns_only_acyclic.

(** The number of calls doubles with every level of sharing: n operators that each use
    their predecessor twice need 2^(n+1) - 1 calls, for a graph of n + 1 nodes. *)
Theorem C36_linear_time_refuted : forall n fuel, (n < fuel)%nat ->
  length (diamond n) = S n /\
  exists d, topo_sort fuel (diamond n) [n] = Ok d /\ S (d_calls d) = (2 ^ S n)%nat.
Proof.
  intros n fuel H. split; [apply diamond_length|]. unfold topo_sort. cbn [fold_left bind].
  destruct (diamond_calls n n (Nat.le_refl n) fuel {| d_nodes := []; d_visited := []; d_calls := 0 |} H) as (d & -> & E).
  exists d. split; [reflexivity|exact E].
Qed.
Print Assumptions C36_linear_time_refuted.

(** Grouping: a graph whose operators can all be started in some order is split into good
    groups; any other graph (one read from a damaged file) is refused. *)
Theorem C36_groups : forall ns fuel, ns <> [] -> (length ns < fuel)%nat ->
  (exists gs, build_run_nodes fuel ns = Ok gs /\ good_groups ns gs /\ forall S, ~ deadlock ns S) \/
  (build_run_nodes fuel ns = Exn RuntimeError /\ exists S, deadlock ns S).
Proof.
  intros ns fuel NE HF. destruct (groups_ok ns fuel NE HF) as [(gs & E & G)|R]; [left|right; assumption].
  exists gs. split; [assumption|]. split; [assumption|]. intros S. eapply good_groups_no_deadlock; eassumption.
Qed.
Print Assumptions C36_groups.

(** A diamond: x feeds a and b, both feed c; tracing c gives x, a, b, c and the groups
    {a, b}, {c}. *)
Definition ex_hash (k : key) : Z := 5.
Definition ex_prog : list build_op :=
  [BVar [120]; BCompose 1 [(0%nat, 0%nat)] 1 []; BCompose 2 [(0%nat, 0%nat)] 2 [];
   BCompose 3 [(1%nat, 0%nat); (2%nat, 1%nat); (2%nat, 0%nat)] 1 []].
Definition ex_graph : list gnode :=
  match build 10 ex_hash gempty ex_prog with Ok st => gs_nodes st | _ => [] end.
Definition ex_session : session :=
  match trace 20 ex_graph [3%nat; 0%nat] [(3%nat, 0%nat); (0%nat, 0%nat)] [] with
  | Ok s => s
  | _ => {| ss_nodes := []; ss_groups := []; ss_outs := []; ss_out_names := [] |}
  end.
Example C36_example :
  build 10 ex_hash gempty ex_prog = Ok {| gs_nodes := ex_graph; gs_sigs := [8589934597; 4294967301; 5] |} /\
  rmap d_nodes (topo_sort 10 ex_graph [3%nat]) = Ok [0; 1; 2; 3]%nat /\
  ss_groups ex_session = [[1; 2]; [3]]%nat /\
  build_run_nodes 5 [{| s_var := false; s_op := 0; s_ins := [(0%nat, [])]; s_outs := []; s_exported := [] |}]
    = Exn RuntimeError.
Proof. vm_compute. auto. Qed.
Lemma ex_user : user_graph ex_graph.
Proof.
  exists 10%nat, ex_hash, ex_prog, {| gs_nodes := ex_graph; gs_sigs := [8589934597; 4294967301; 5] |}.
  split; [intros k; unfold ex_hash, two64; lia|]. split; [apply C36_example|].
  split; [repeat constructor; unfold two64; lia|]. split; [repeat constructor; intros []|].
  split; [|reflexivity]. constructor; [|constructor]. exists 120, []. split; [reflexivity|lia].
Qed.

(** * C37: serial and parallel runs *)

Lemma user_good g : user_graph g -> acyclic g /\ closed g /\ distinct_keys g.
Proof.
  intros (fuel & bh & prog & st & Hb & E & SO & ND & PN & ->).
  destruct (build_good fuel bh prog st Hb E SO ND PN) as (O & C & K). split; [apply ordered_acyclic; assumption|auto].
Qed.

(** Tracing any existing symbols of a built graph succeeds, in whatever order the set of
    output nodes is iterated, and a serial run returns the right answer or raises an error
    some operator raises. *)
Theorem C37_serial : forall (V : Type) (process : Z -> list V -> V + exn) as_tuple feed
  g out_nodes outs names,
  user_graph g -> good_outs g outs -> (forall n, In n out_nodes <-> In n (map fst outs)) ->
  exists f0, forall fuel, (f0 <= fuel)%nat -> exists s, trace fuel g out_nodes outs names = Ok s /\
    ((exists r, run_serial process as_tuple feed s = Ok r /\
        right_answer process as_tuple feed g outs names r) \/
     (exists e, run_serial process as_tuple feed s = Exn e /\
        right_error process as_tuple feed g outs e)).
Proof.
  intros V process as_tuple feed g out_nodes outs names U (NE & HE & HN) HO.
  destruct (user_good g U) as (HA & HC & HK).
  destruct (trace_ok g out_nodes outs names HA HC HK NE HE HO) as (f0 & T). exists f0. intros f Hf.
  destruct (T f Hf) as (s & order & E & TR). exists s. split; [assumption|].
  eapply serial_ok; eassumption.
Qed.
Print Assumptions C37_serial.

(** A parallel run, under every schedule of every group's tasks: while tasks are unfinished
    the caller waits; with enough turns it returns; what it returns is the right answer,
    and what it raises is an error some operator raises. *)
Theorem C37_parallel : forall (V : Type) (process : Z -> list V -> V + exn) as_tuple feed
  g out_nodes outs names o,
  user_graph g -> good_outs g outs -> (forall n, In n out_nodes <-> In n (map fst outs)) ->
  good_options o ->
  (exists n nd, needed g (map fst outs) n /\ nth_error g n = Some nd /\ n_var nd = false) ->
  exists f0, forall fuel, (f0 <= fuel)%nat -> exists s, trace fuel g out_nodes outs names = Ok s /\
    forall scheds,
    (run_parallel process as_tuple feed o s scheds = Ok None /\ ~ complete (ss_groups s) scheds) \/
    (exists r, run_parallel process as_tuple feed o s scheds = Ok (Some r) /\
        right_answer process as_tuple feed g outs names r) \/
    (exists e, run_parallel process as_tuple feed o s scheds = Exn e /\
        right_error process as_tuple feed g outs e).
Proof.
  intros V process as_tuple feed g out_nodes outs names o U (NE & HE & HN) HO GO (n & nd & ND & En & Va).
  destruct (user_good g U) as (HA & HC & HK).
  destruct (trace_ok g out_nodes outs names HA HC HK NE HE HO) as (f0 & T). exists f0. intros f Hf.
  destruct (T f Hf) as (s & order & E & TR). exists s. split; [assumption|]. intros scheds.
  eapply parallel_ok; try eassumption.
  intros EG. pose proof TR as ((_ & T2 & _) & _ & SN & _ & (_ & _ & OPS & _) & _).
  apply T2 in ND. apply In_nth_error in ND. destruct ND as (i & Ei).
  destruct (forall2_nth _ _ _ SN i n Ei) as (sd & Esd & nd' & En' & Ev & _).
  assert (I : In i (concat (ss_groups s))) by (apply OPS; exists sd; split; [assumption|congruence]).
  rewrite EG in I. destruct I.
Qed.
Print Assumptions C37_parallel.

(** The answer is unique and excludes an error, so that both ways of running agree: the
    same results, or an error in both. *)
Theorem C37_agree : forall (V : Type) (process : Z -> list V -> V + exn) as_tuple feed
  g out_nodes outs names o,
  user_graph g -> good_outs g outs -> (forall n, In n out_nodes <-> In n (map fst outs)) ->
  good_options o ->
  (exists n nd, needed g (map fst outs) n /\ nth_error g n = Some nd /\ n_var nd = false) ->
  exists f0, forall fuel, (f0 <= fuel)%nat -> exists s, trace fuel g out_nodes outs names = Ok s /\
    forall scheds, complete (ss_groups s) scheds ->
    (exists r, run_serial process as_tuple feed s = Ok r /\
               run_parallel process as_tuple feed o s scheds = Ok (Some r)) \/
    (exists e e', run_serial process as_tuple feed s = Exn e /\
                  run_parallel process as_tuple feed o s scheds = Exn e').
Proof.
  intros V process as_tuple feed g out_nodes outs names o U GO HO OP OPS.
  destruct (C37_serial V process as_tuple feed g out_nodes outs names U GO HO) as (f1 & H1).
  destruct (C37_parallel V process as_tuple feed g out_nodes outs names o U GO HO OP OPS) as (f2 & H2).
  destruct (user_good g U) as (HA & HC & HK).
  exists (max f1 f2). intros f Hf. destruct (H1 f ltac:(lia)) as (s & E & S1). destruct (H2 f ltac:(lia)) as (s' & E' & S2).
  rewrite E in E'. injection E' as <-. exists s. split; [assumption|]. intros scheds C.
  destruct S1 as [(r & R1 & A1)|(e & R1 & A1)]; destruct (S2 scheds) as [(_ & NC)|[(r' & R2 & A2)|(e' & R2 & A2)]];
    try contradiction.
  - left. exists r. split; [assumption|]. rewrite R2. do 2 f_equal. eapply answer_unique; eassumption.
  - exfalso. eapply answer_error; eassumption.
  - exfalso. eapply answer_error; eassumption.
  - right. eauto.
Qed.
Print Assumptions C37_agree.

(** The specification is single-valued. *)
Theorem C37_answer_unique : forall (V : Type) (process : Z -> list V -> V + exn) as_tuple feed
  g outs names r r' e, user_graph g ->
  right_answer process as_tuple feed g outs names r ->
  (right_answer process as_tuple feed g outs names r' -> r' = r) /\
  ~ right_error process as_tuple feed g outs e.
Proof.
  intros V process as_tuple feed g outs names r r' e U A. destruct (user_good g U) as (HA & HC & HK). split.
  - intros A'. eapply answer_unique; eassumption.
  - intros R. eapply answer_error; eassumption.
Qed.
Print Assumptions C37_answer_unique.

(** Operators on integers and tuples, for examples. *)
Inductive exv : Type := EI (z : Z) | ET (l : list exv).
Definition ex_process (op : Z) (args : list exv) : exv + exn :=
  match op, args with
  | 1, [EI a] => inl (EI (a + 1))
  | 2, [EI a] => inl (ET [EI (a * 2); EI (a * 3)])
  | 3, [EI a; EI b; EI c] => inl (EI (100 * a + 10 * b + c))
  | 9, _ => inl (EI 77)
  | _, _ => inr (UserError op)
  end.
Definition ex_tuple (v : exv) : option (list exv) := match v with ET l => Some l | _ => None end.
Definition ex_feed (k : key) : option exv := if key_eqb k [120] then Some (EI 2) else None.
Definition ex_options : options := {| o_threads := 2; o_min := 1; o_max := 1; o_meta := false |}.

Example C37_example :
  good_outs ex_graph [(3%nat, 0%nat); (0%nat, 0%nat)] /\ good_options ex_options /\
  complete (ss_groups ex_session) [[1; 0; 1; 0]; [0]]%nat /\
  run_serial ex_process ex_tuple ex_feed ex_session = Ok [([48], EI 364); ([49], EI 2)] /\
  run_parallel ex_process ex_tuple ex_feed ex_options ex_session [[1; 0]]%nat
    = Ok (Some [([48], EI 364); ([49], EI 2)]) /\
  run_parallel ex_process ex_tuple ex_feed ex_options ex_session [[1; 1]]%nat = Ok None /\
  run_parallel ex_process ex_tuple (fun _ => None) ex_options ex_session [[1; 0]]%nat = Exn CheckFailed.
Proof.
  split.
  { split; [discriminate|]. split; [|cbn; unfold two64; lia].
    intros e [<-|[<-|[]]]; eexists; (split; [vm_compute; reflexivity|cbn; lia]). }
  split; [unfold good_options; cbn; lia|]. split.
  { rewrite (proj1 (proj2 (proj2 C36_example))). intros j gr E.
    destruct j as [|[|j]]; [| |destruct j; discriminate]; injection E as <-; intros i Hi;
      (destruct i as [|[|i]]; [vm_compute; lia|cbn in Hi |- *; lia|cbn in Hi; lia]). }
  vm_compute. auto.
Qed.

(** A pipeline that returns one of its inputs and has no operator: the serial run returns
    the input, the parallel run returns nothing at all. *)
Theorem C37_inputs_only_refuted : forall (V : Type) (process : Z -> list V -> V + exn) as_tuple v o,
  exists s, trace 5 [{| n_var := true; n_op := 0; n_ins := []; n_outs := [[120]] |}] [0%nat] [(0%nat, 0%nat)] [] = Ok s /\
    run_serial process as_tuple (fun _ => Some v) s = Ok [([48], v)] /\
    forall scheds, run_parallel process as_tuple (fun _ => Some v) o s scheds = Ok (Some []).
Proof.
  intros. eexists. split; [vm_compute; reflexivity|]. split; [vm_compute; reflexivity|]. intros scheds. reflexivity.
Qed.
Print Assumptions C37_inputs_only_refuted.

(** More than one node a task without profiling: the second node of a task is given the
    address null + 1. *)
Theorem C37_task_size_refuted :
  run_parallel ex_process ex_tuple ex_feed {| o_threads := 1; o_min := 1; o_max := 2; o_meta := false |}
    ex_session [[0; 0]]%nat = UB /\
  run_parallel ex_process ex_tuple ex_feed {| o_threads := 1; o_min := 1; o_max := 2; o_meta := true |}
    ex_session [[0; 0]]%nat = Ok (Some [([48], EI 364); ([49], EI 2)]).
Proof. vm_compute. auto. Qed.
Print Assumptions C37_task_size_refuted.

(** No threads, or a maximal task size of zero: division by zero in every group of two or
    more nodes. *)
Theorem C37_zero_options_refuted : forall (V : Type) o n m gr,
  (o_threads o = 0 \/ (1 <= o_threads o /\ o_max o = 0)) ->
  make_tasks (V := V) o (n :: m :: gr) = UB.
Proof.
  intros V o n m gr [H|(H1 & H2)]; unfold make_tasks, idiv.
  - rewrite H. reflexivity.
  - destruct (Z.eqb_spec (o_threads o) 0) as [E|E]; [lia|]. cbn [bind]. rewrite H2.
    set (L := Z.of_nat (length (n :: m :: gr))). assert (2 <= L) by (unfold L; cbn [length]; lia).
    clearbody L. rewrite Z.quot_div_nonneg by lia.
    assert (1 <= (L + o_threads o - 1) / o_threads o) by (apply Z.div_le_lower_bound; lia).
    set (q := (L + o_threads o - 1) / o_threads o) in *. clearbody q.
    destruct (Z.ltb_spec q (o_min o)) as [Lq|Lq].
    + destruct (Z.gtb_spec (o_min o) 0); [|lia]. reflexivity.
    + destruct (Z.gtb_spec q 0); [|lia]. reflexivity.
Qed.
Print Assumptions C37_zero_options_refuted.

(** An input whose name is the key of some operator's output is taken for it: the hypothesis
    on names is needed.  Here the input is called "7_0" and has the value 2, the operator of
    signature 7 returns 77, and the last one adds 100 * 77 but reads 2. *)
Definition clash_graph : list gnode :=
  match build 5 (fun _ => 7) gempty
    [BVar [55; 95; 48]; BCompose 9 [] 1 []; BCompose 3 [(1%nat, 0%nat); (0%nat, 0%nat); (0%nat, 0%nat)] 1 []] with
  | Ok st => gs_nodes st | _ => [] end.
Definition clash_graph' : list gnode :=
  match build 5 (fun _ => 7) gempty
    [BVar [120]; BCompose 9 [] 1 []; BCompose 3 [(1%nat, 0%nat); (0%nat, 0%nat); (0%nat, 0%nat)] 1 []] with
  | Ok st => gs_nodes st | _ => [] end.
Theorem C37_name_clash_refuted :
  let run g := let! s := trace 9 g [0; 2]%nat [(0%nat, 0%nat); (2%nat, 0%nat)] [] in
               run_serial ex_process ex_tuple (fun _ => Some (EI 2)) s in
  run clash_graph = Ok [([48], EI 2); ([49], EI 222)] /\
  run clash_graph' = Ok [([48], EI 2); ([49], EI 7722)].
Proof. vm_compute. auto. Qed.
Print Assumptions C37_name_clash_refuted.

(** * C38: unique names *)

(** However requests for names and for bare indices are interleaved, no name is given twice,
    for any hash function and fewer than 2^64 requests. *)
Theorem C38_names_unique : forall std_hash rs, Z.of_nat (length rs) < two64 ->
  NoDup (names_given std_hash [] rs).
Proof.
  intros h rs H. apply (names_from h [] rs 0); [|lia]. intros k. cbn. lia.
Qed.
Print Assumptions C38_names_unique.
(** The same for the numbers gen_index gives under one name. *)
Theorem C38_indices_unique : forall std_hash name rs, Z.of_nat (length rs) < two64 ->
  NoDup (indices_given std_hash name [] rs).
Proof.
  intros h name rs H. apply (indices_from h name [] rs 0); [|lia]. intros k. cbn. lia.
Qed.
Print Assumptions C38_indices_unique.
(** Signatures: whatever the hash values, fewer than 2^32 requests all get an answer, after
    at most as many attempts as there were requests, and no signature is given twice. *)
Theorem C38_signatures_unique : forall fuel bytes_hash seeds, (forall k, 0 <= bytes_hash k < two64) ->
  (length seeds <= fuel)%nat -> Z.of_nat (length seeds) < two32 ->
  exists rs, sigs_given fuel bytes_hash [] seeds = Ok rs /\ length rs = length seeds /\ NoDup rs /\
    Forall (fun r => 0 <= r < two64) rs.
Proof.
  intros fuel bh seeds Hb Hf Hl. destruct (sigs_given_spec fuel bh [] seeds Hb Hf Hl) as (rs & E & L & ND & D).
  exists rs. split; [assumption|]. split; [assumption|]. split; [assumption|].
  apply Forall_forall. intros r I. apply D. assumption.
Qed.
Print Assumptions C38_signatures_unique.
(** Without that bound the generator does not answer: when the 2^32 signatures that agree
    with the hash value in the low half are taken, it searches forever. *)
Theorem C38_signatures_exhausted_refuted : forall h, 0 <= h < two64 ->
  exists sigs, NoDup sigs /\ length sigs = Z.to_nat two32 /\
    forall fuel seed, gen_uniq_signature fuel (fun _ => h) sigs seed = OutOfFuel.
Proof.
  intros h Hh. assert (HN : Z.of_nat (Z.to_nat two32) = two32) by (apply Z2Nat.id; unfold two32; lia).
  set (N := Z.to_nat two32) in *. clearbody N.
  exists (map (fun k => cand h (Z.of_nat k)) (seq 0 N)).
  split; [|split; [rewrite map_length, seq_length; reflexivity|]].
  - apply nodup_map_in; [|apply seq_NoDup]. intros a b Ia Ib E. rewrite in_seq in Ia, Ib.
    apply cand_inj in E; lia.
  - assert (A : forall k, In (cand h k) (map (fun k => cand h (Z.of_nat k)) (seq 0 N))).
    { intros k. apply in_map_iff. exists (Z.to_nat (k mod two32)).
      assert (0 <= k mod two32 < two32) by (apply Z.mod_pos_bound; reflexivity).
      split; [|apply in_seq; lia]. rewrite Z2Nat.id by lia. unfold cand, wrapu64.
      f_equal. f_equal. change two64 with (2 ^ 32 * 2 ^ 32). change two32 with (2 ^ 32).
      rewrite !Zmult_mod_distr_r, Z.mod_mod by lia. reflexivity. }
    intros fuel seed. unfold gen_uniq_signature. rewrite sig_loop_forever; [reflexivity| |assumption].
    replace h with (cand h 0) at 1; [apply A|]. unfold cand, wrapu64. rewrite Z.mul_0_l, Z.mod_0_l, Z.add_0_r by discriminate.
    apply Z.mod_small. assumption.
Qed.
Print Assumptions C38_signatures_exhausted_refuted.
(** In every graph a program builds from inputs with different plain names, all outputs of
    all nodes have different keys. *)
Theorem C38_keys_unique : forall g, user_graph g -> NoDup (flat_map n_outs g).
Proof. intros g U. apply (user_good g U). Qed.
Print Assumptions C38_keys_unique.

Example C38_example :
  names_given (fun _ => 12) [] [RName [97] [1]; RName [97] [2]; RIndex [97; 95; 49; 50]; RName [97] []; RName [98] []] =
    [[97; 95; 49; 50; 95; 48]; [97; 95; 49; 50; 95; 49]; [97; 95; 49; 50; 95; 51]; [98; 95; 49; 50; 95; 48]] /\
  sigs_given 3 (fun _ => 18446744073709551615) [] [[]; []; []] =
    Ok [18446744073709551615; 4294967295; 8589934591] /\
  user_graph ex_graph.
Proof. split; [vm_compute; reflexivity|]. split; [vm_compute; reflexivity|]. apply ex_user. Qed.
