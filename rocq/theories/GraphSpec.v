(** What a traced pipeline must do, stated on the graph the user built: no order of
    execution, no hash tables, no tasks. *)
From Verif Require Import Base GraphModel FmtSpec.

(** ** Shape of the graph *)

(** Node [m] feeds node [n]: some output of [m] is an argument of [n]. *)
Definition feeds (g : list gnode) (m n : nat) : Prop :=
  exists nd i, nth_error g n = Some nd /\ In (m, i) (n_ins nd).
(** No cycles. *)
Definition acyclic (g : list gnode) : Prop := well_founded (feeds g).
(** Every argument is an existing output of an existing node. *)
Definition entry (g : list gnode) (e : nat * nat) : Prop :=
  exists nd, nth_error g (fst e) = Some nd /\ (snd e < length (n_outs nd))%nat.
Definition closed (g : list gnode) : Prop :=
  forall n nd e, nth_error g n = Some nd -> In e (n_ins nd) -> entry g e.
(** Node [n] is needed to compute the nodes [outs]. *)
Inductive needed (g : list gnode) (outs : list nat) : nat -> Prop :=
| nd_out n : In n outs -> needed g outs n
| nd_in m n : needed g outs n -> feeds g m n -> needed g outs m.

(** [m] comes before [n] in [l]. *)
Definition before (l : list nat) (m n : nat) : Prop :=
  exists a b c, l = a ++ m :: b ++ n :: c.

(** The needed nodes, each once, each after everything that feeds it. *)
Definition topological (g : list gnode) (outs order : list nat) : Prop :=
  NoDup order /\ (forall n, In n order <-> needed g outs n) /\
  (forall m n, In n order -> feeds g m n -> before order m n).

(** Groups for parallel execution of the nodes [ns]: no empty group, every operator in
    exactly one group and no input among them, and what feeds a node is an input or lies
    in an earlier group. *)
Definition good_groups (ns : list snode) (groups : list (list nat)) : Prop :=
  Forall (fun gr => gr <> []) groups /\
  NoDup (concat groups) /\
  (forall n, In n (concat groups) <-> exists nd, nth_error ns n = Some nd /\ s_var nd = false) /\
  (forall a gr b n nd m k, groups = a ++ gr :: b -> In n gr -> nth_error ns n = Some nd ->
     In (m, k) (s_ins nd) ->
     In m (concat a) \/ exists md, nth_error ns m = Some md /\ s_var md = true).

(** A set of operators none of which can ever start: each takes an argument from the set,
    or from a node that does not exist. *)
Definition deadlock (ns : list snode) (S : nat -> Prop) : Prop :=
  (exists n, S n) /\
  forall n, S n -> exists nd m k, nth_error ns n = Some nd /\ s_var nd = false /\
    In (m, k) (s_ins nd) /\ (S m \/ nth_error ns m = None).

(** ** Values *)
Section Values.
Context {V : Type}.
Variable process : Z -> list V -> V + exn.
Variable as_tuple : V -> option (list V).
Variable feed : key -> option V.
Variable g : list gnode.

(** The outputs that the result [r] of an operator with [k] outputs stands for: the items
    of a tuple of that size, or [r] itself when there is one output. *)
Definition outputs (k : nat) (r : V) (vs : list V) : Prop :=
  (k = 1%nat /\ vs = [r]) \/ ((1 < k)%nat /\ as_tuple r = Some vs /\ length vs = k).

Inductive node_outputs : nat -> list V -> Prop :=
| no_op n nd args r vs :
    nth_error g n = Some nd -> n_var nd = false ->
    Forall2 entry_value (n_ins nd) args ->
    process (n_op nd) args = inl r ->
    outputs (length (n_outs nd)) r vs ->
    node_outputs n vs
with entry_value : nat * nat -> V -> Prop :=
| ev_input m i nd name v :
    nth_error g m = Some nd -> n_var nd = true -> nth_error (n_outs nd) i = Some name ->
    feed name = Some v -> entry_value (m, i) v
| ev_node m i vs v :
    node_outputs m vs -> nth_error vs i = Some v -> entry_value (m, i) v.

(** The entry is a pipeline input that the caller did not supply. *)
Definition unfed (e : nat * nat) : Prop :=
  exists nd name, nth_error g (fst e) = Some nd /\ n_var nd = true /\
    nth_error (n_outs nd) (snd e) = Some name /\ feed name = None.

(** Operator [n] itself fails with [e]: an input it takes was not supplied, or it throws on
    its arguments, or its result does not have the announced number of items. *)
Inductive raises : nat -> exn -> Prop :=
| ra_feed n nd e :
    nth_error g n = Some nd -> n_var nd = false -> In e (n_ins nd) -> unfed e ->
    raises n CheckFailed
| ra_op n nd args e :
    nth_error g n = Some nd -> n_var nd = false ->
    Forall2 entry_value (n_ins nd) args -> process (n_op nd) args = inr e -> raises n e
| ra_shape n nd args r :
    nth_error g n = Some nd -> n_var nd = false ->
    Forall2 entry_value (n_ins nd) args -> process (n_op nd) args = inl r ->
    (forall vs, ~ outputs (length (n_outs nd)) r vs) -> raises n CheckFailed.

(** The names under which results are returned: the given ones if there is one for each
    output, positions otherwise. *)
Definition result_name (names : list key) (k i : nat) (nm : key) : Prop :=
  (length names = k /\ nth_error names i = Some nm) \/
  (length names <> k /\ py_nat_str (Z.of_nat i) nm).

(** The right answer for the outputs [outs]: every needed operator has a value, and the
    results are the values of the traced entries, in order. *)
Definition right_answer (outs : list (nat * nat)) (names : list key) (res : list (key * V)) : Prop :=
  (forall n nd, needed g (map fst outs) n -> nth_error g n = Some nd -> n_var nd = false ->
     exists vs, node_outputs n vs) /\
  Forall2 entry_value outs (map snd res) /\
  (forall i nm, nth_error (map fst res) i = Some nm -> result_name names (length outs) i nm).

(** A legitimate error: some needed operator fails that way, or a traced input is missing. *)
Definition right_error (outs : list (nat * nat)) (e : exn) : Prop :=
  (exists n, needed g (map fst outs) n /\ raises n e) \/
  (e = CheckFailed /\ exists en, In en outs /\ unfed en).
End Values.

(** ** Names *)

(** Requests to the name generator, in the order in which its lock lets them through. *)
Inductive name_req : Type :=
| RName (prefix seed : key)
| RIndex (name : key).
Fixpoint names_given (std_hash : key -> Z) (idx : list (key * Z)) (rs : list name_req) : list key :=
  match rs with
  | [] => []
  | RName p s :: rs' =>
      let '(nm, idx) := gen_uniq_name std_hash idx p s in nm :: names_given std_hash idx rs'
  | RIndex n :: rs' => let '(_, idx) := gen_index idx n in names_given std_hash idx rs'
  end.
Fixpoint indices_given (std_hash : key -> Z) (name : key) (idx : list (key * Z)) (rs : list name_req)
  : list Z :=
  match rs with
  | [] => []
  | RName p s :: rs' => indices_given std_hash name (snd (gen_uniq_name std_hash idx p s)) rs'
  | RIndex n :: rs' =>
      let '(i, idx) := gen_index idx n in
      (if key_eqb n name then [i] else []) ++ indices_given std_hash name idx rs'
  end.
(** The signatures handed out for a sequence of seeds. *)
Fixpoint sigs_given (fuel : nat) (bytes_hash : key -> Z) (sigs : list Z) (seeds : list key)
  : res (list Z) :=
  match seeds with
  | [] => Ok []
  | s :: seeds' =>
      let! (r, sigs) := gen_uniq_signature fuel bytes_hash sigs s in
      let! rs := sigs_given fuel bytes_hash sigs seeds' in Ok (r :: rs)
  end.

(** A name that is not a generated key: it does not start with a digit. *)
Definition plain_name (k : key) : Prop := exists c k', k = c :: k' /\ ~ (48 <= c <= 57).

(** ** What users build and run *)

Definition var_names (prog : list build_op) : list key :=
  flat_map (fun o => match o with BVar n => [n] | _ => [] end) prog.
Definition small_outputs (prog : list build_op) : Prop :=
  Forall (fun o => match o with BCompose _ _ k _ => Z.of_nat k <= two64 | _ => True end) prog.
(** A graph some program builds, whose inputs have different names, none of which starts with
    a digit (Python parameter names, for instance). *)
Definition user_graph (g : list gnode) : Prop :=
  exists fuel bytes_hash prog st, (forall k, 0 <= bytes_hash k < two64) /\
    build fuel bytes_hash gempty prog = Ok st /\ small_outputs prog /\
    NoDup (var_names prog) /\ Forall plain_name (var_names prog) /\ g = gs_nodes st.
(** [outs] are existing symbols, at least one. *)
Definition good_outs (g : list gnode) (outs : list (nat * nat)) : Prop :=
  outs <> [] /\ (forall e, In e outs -> entry g e) /\ Z.of_nat (length outs) < two64.

(** A pool with threads, task sizes that make sense, and either profiling on or one node a
    task (the default). *)
Definition good_options (o : options) : Prop :=
  1 <= o_threads o /\ 1 <= o_max o /\ (o_meta o = true \/ o_max o = 1).
(** Every task of the group gets at least as many turns as there are nodes in the group. *)
Definition enough (gr sched : list nat) : Prop :=
  forall i, (i < length gr)%nat -> (length gr <= count_occ Nat.eq_dec sched i)%nat.
Definition complete (groups scheds : list (list nat)) : Prop :=
  forall j gr, nth_error groups j = Some gr -> enough gr (nth j scheds []).
