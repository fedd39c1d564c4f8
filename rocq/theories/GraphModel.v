(** The compute graph of a traced pipeline and the session that runs it:
    include/matxscript/pipeline/global_unique_index.h, include/matxscript/pipeline/node.h,
    src/pipeline/{variable_op,constant_op,symbolic_executor,graph,node,tx_session}.cc.
    No proofs here. *)
From Verif Require Import Base ListAux FmtModel.

(** A byte string used as a key of a hash table. *)
Definition key := list Z.
Fixpoint key_eqb (a b : key) : bool :=
  match a, b with
  | [], [] => true
  | x :: a', y :: b' => (x =? y) && key_eqb a' b'
  | _, _ => false
  end.

(** Hash tables with [key] keys (std::unordered_map, ska::flat_hash_map), as association
    lists: [find] and [emplace], which leaves an existing binding alone.  Simplification:
    the order of iteration of the real tables is not modelled; no result here depends on it. *)
Fixpoint dfind {A} (d : list (key * A)) (k : key) : option A :=
  match d with
  | [] => None
  | (k', a) :: d' => if key_eqb k k' then Some a else dfind d' k
  end.
Definition demplace {A} (d : list (key * A)) (k : key) (a : A) : list (key * A) :=
  match dfind d k with Some _ => d | None => d ++ [(k, a)] end.
(** itr->second = a for a key already in the table *)
Fixpoint dupdate {A} (d : list (key * A)) (k : key) (a : A) : list (key * A) :=
  match d with
  | [] => []
  | (k', b) :: d' => if key_eqb k k' then (k', a) :: d' else (k', b) :: dupdate d' k a
  end.

(** ** Unique names, global_unique_index.h:30-80 *)

(** GlobalUniqueIndex::gen_index, global_unique_index.h:34-42.  The mutex makes a call
    atomic; the counter is a uint64_t. *)
Definition gen_index (idx : list (key * Z)) (name : key) : Z * list (key * Z) :=
  let idx := match dfind idx name with Some _ => idx | None => demplace idx name 0 end in
  match dfind idx name with
  | Some n => (n, dupdate idx name (wrapu64 (n + 1)))
  | None => (0, idx)
  end.

(** GlobalUniqueIndex::gen_uniq_name, global_unique_index.h:44-56; [std_hash] is
    std::hash<string_view>; 95 is '_'; std::to_string of a uint64_t is [dec_digits 20]. *)
Definition gen_uniq_name (std_hash : key -> Z) (idx : list (key * Z)) (prefix seed : key)
  : key * list (key * Z) :=
  let result := prefix ++ [95] ++ dec_digits 20 (std_hash seed) [] in
  let '(suffix, idx) := gen_index idx result in
  (result ++ [95] ++ dec_digits 20 suffix [], idx).

(** The loop of GlobalUniqueIndex::gen_uniq_signature, global_unique_index.h:63-65, in
    uint64_t arithmetic *)
Fixpoint sig_loop (fuel : nat) (sigs : list Z) (hash result offset : Z) : res Z :=
  match fuel with
  | O => OutOfFuel
  | S fuel' =>
    if existsb (Z.eqb result) sigs then
      sig_loop fuel' sigs hash (wrapu64 (hash + wrapu64 (offset * 2 ^ 32))) (wrapu64 (offset + 1))
    else Ok result
  end.
(** GlobalUniqueIndex::gen_uniq_signature, global_unique_index.h:58-68 *)
Definition gen_uniq_signature (fuel : nat) (bytes_hash : key -> Z) (sigs : list Z) (seed : key)
  : res (Z * list Z) :=
  let! r := sig_loop fuel sigs (bytes_hash seed) (bytes_hash seed) 1 in
  Ok (r, r :: sigs).

(** NodeEntry::init(node, i, n_sig), node.h:64-70: snprintf "%llu_%u" *)
Definition entry_key (sg : Z) (i : nat) : key :=
  dec_digits 20 sg [] ++ [95] ++ dec_digits 20 (Z.of_nat i) [].

(** ** Symbolic graph *)

(** struct Node, node.h:129-152, at the address given by its position in the list of all
    nodes ever made.  [n_op] stands for the operator (class and name); an input is a
    NodeEntry, given by the address of its node and its index there; [n_outs] lists the
    keys of the node's own entries.  A null [NodeEntry::node] does not occur: every
    symbol's entry is made together with its node. *)
Record gnode : Type := { n_var : bool; n_op : Z; n_ins : list (nat * nat); n_outs : list key }.

Record gstate : Type := { gs_nodes : list gnode; gs_sigs : list Z }.

(** What the user can do to build a graph: CreateVariable, CreateConstant, Compose.
    The seed of the signature (the node's name) is arbitrary: nothing else depends on it. *)
Inductive build_op : Type :=
| BVar (name : key)
| BConst (op : Z) (seed : key)
| BCompose (op : Z) (args : list (nat * nat)) (num_output : nat) (seed : key).

(** The entry (node, index) exists: the user holds a Symbol for it. *)
Definition entryb (nodes : list gnode) (e : nat * nat) : bool :=
  match nth_error nodes (fst e) with
  | Some nd => Nat.ltb (snd e) (length (n_outs nd))
  | None => false
  end.

(** VariableOp::make_symbol, variable_op.cc:29-43 (the key is the given name);
    ConstantOp::make_symbol, constant_op.cc:38-49; SymbolicExecutor::Compose,
    symbolic_executor.cc:27-71.  An argument that is not an existing symbol cannot be
    passed; the model answers ValueError. *)
Definition build_step (fuel : nat) (bytes_hash : key -> Z) (st : gstate) (o : build_op)
  : res gstate :=
  match o with
  | BVar name =>
      Ok {| gs_nodes := gs_nodes st ++
              [{| n_var := true; n_op := 0; n_ins := []; n_outs := [name] |}];
            gs_sigs := gs_sigs st |}
  | BConst op seed =>
      let! (sg, sigs) := gen_uniq_signature fuel bytes_hash (gs_sigs st) seed in
      Ok {| gs_nodes := gs_nodes st ++
              [{| n_var := false; n_op := op; n_ins := []; n_outs := [entry_key sg 0] |}];
            gs_sigs := sigs |}
  | BCompose op args num_output seed =>
      if forallb (entryb (gs_nodes st)) args then
        let! (sg, sigs) := gen_uniq_signature fuel bytes_hash (gs_sigs st) seed in
        Ok {| gs_nodes := gs_nodes st ++
                [{| n_var := false; n_op := op; n_ins := args;
                    n_outs := map (entry_key sg) (seq 0 num_output) |}];
              gs_sigs := sigs |}
      else Exn ValueError
  end.
Fixpoint build (fuel : nat) (bytes_hash : key -> Z) (st : gstate) (prog : list build_op)
  : res gstate :=
  match prog with
  | [] => Ok st
  | o :: prog' => let! st := build_step fuel bytes_hash st o in build fuel bytes_hash st prog'
  end.
Definition gempty : gstate := {| gs_nodes := []; gs_sigs := [] |}.

(** ** Topological order, graph.cc:40-78 *)

(** [nodes] and [visited] of Graph::topo_sort; [d_calls] counts the calls of dfs_visit and
    is not in the code. *)
Record dstate : Type := { d_nodes : list nat; d_visited : list nat; d_calls : nat }.

(** Graph::dfs_visit, graph.cc:64-78: first the inputs, each by a recursive call whether
    it was visited or not, then the node itself unless it was visited. *)
Fixpoint dfs_visit (fuel : nat) (g : list gnode) (st : dstate) (n : nat) : res dstate :=
  match fuel with
  | O => OutOfFuel
  | S fuel' =>
    let st := {| d_nodes := d_nodes st; d_visited := d_visited st; d_calls := S (d_calls st) |} in
    let! nd := rd g n in
    let! st := fold_left (fun (acc : res dstate) e =>
                 let! st := acc in dfs_visit fuel' g st (fst e)) (n_ins nd) (Ok st) in
    if existsb (Nat.eqb n) (d_visited st) then Ok st
    else Ok {| d_nodes := d_nodes st ++ [n]; d_visited := n :: d_visited st;
               d_calls := d_calls st |}
  end.
(** Graph::topo_sort, graph.cc:40-47 *)
Definition topo_sort (fuel : nat) (g : list gnode) (outputs : list nat) : res dstate :=
  fold_left (fun (acc : res dstate) n => let! st := acc in dfs_visit fuel g st n)
    outputs (Ok {| d_nodes := []; d_visited := []; d_calls := 0 |}).

(** ** From symbols to a session *)

(** One element of Graph::ToGenericList (Node::ToDict, node.cc:94-134): operator, keys of
    the inputs, keys of the outputs, keys of the exported outputs. *)
Record dnode : Type :=
  { dn_var : bool; dn_op : Z; dn_ins : list key; dn_outs : list key; dn_exported : list key }.

(** The key of an entry *)
Definition key_of (g : list gnode) (e : nat * nat) : res key :=
  let! nd := rd g (fst e) in rd (n_outs nd) (snd e).
Fixpoint map_res {A B} (f : A -> res B) (l : list A) : res (list B) :=
  match l with
  | [] => Ok []
  | a :: l' => let! b := f a in let! bs := map_res f l' in Ok (b :: bs)
  end.

Definition entry_eqb (a b : nat * nat) : bool :=
  Nat.eqb (fst a) (fst b) && Nat.eqb (snd a) (snd b).

(** Node::ToDict, node.cc:94-134; [outs] are the entries marked exported by Trace,
    tx_session.cc:412-420. *)
Definition to_dict (g : list gnode) (outs : list (nat * nat)) (n : nat) : res dnode :=
  let! nd := rd g n in
  let! ins := map_res (key_of g) (n_ins nd) in
  let exported := flat_map (fun '(i, k) => if existsb (entry_eqb (n, i)) outs then [k] else [])
                    (combine (seq 0 (length (n_outs nd))) (n_outs nd)) in
  Ok {| dn_var := n_var nd; dn_op := n_op nd; dn_ins := ins; dn_outs := n_outs nd;
        dn_exported := exported |}.

(** A node of the session's graph: inputs are (node, key). *)
Record snode : Type :=
  { s_var : bool; s_op : Z; s_ins : list (nat * key); s_outs : list key; s_exported : list key }.

(** key2node of Graph::FromGenericList, graph.cc:114-134: emplace keeps the first node *)
Definition key2node (l : list dnode) : list (key * nat) :=
  fold_left (fun d '(i, nd) => fold_left (fun d k => demplace d k i) (dn_outs nd) d)
    (combine (seq 0 (length l)) l) [].

(** unordered_map::at throws std::out_of_range *)
Definition dat {A} (d : list (key * A)) (k : key) : res A :=
  match dfind d k with Some a => Ok a | None => Exn KeyError end.

(** Graph::FromGenericList, graph.cc:108-148.  Simplification: sess->FindOp finds the
    operator of that class and name; Node::FromDict's type checks hold for what ToDict
    wrote. *)
Definition from_generic (l : list dnode) : res (list snode) :=
  let k2n := key2node l in
  let! ns := map_res (fun nd =>
               let! ins := map_res (fun k => let! n := dat k2n k in Ok (n, k)) (dn_ins nd) in
               Ok {| s_var := dn_var nd; s_op := dn_op nd; s_ins := ins; s_outs := dn_outs nd;
                     s_exported := dn_exported nd |}) l in
  if existsb (fun nd => negb (match dn_exported nd with [] => true | _ => false end)) l
  then Ok ns else Exn CheckFailed.

(** TXSession, the fields used to run: serial_nodes_ (the nodes of the graph, in order,
    named by their position), parallel_nodes_, outputs_, output_keys_ *)
Record session : Type :=
  { ss_nodes : list snode; ss_groups : list (list nat); ss_outs : list (nat * key);
    ss_out_names : list key }.

Definition memn (n : nat) (l : list nat) : bool := existsb (Nat.eqb n) l.

(** The loop of TXSession::BuildRunNodes, tx_session.cc:477-511 *)
Fixpoint group_loop (fuel : nat) (ns : list snode) (finish : list nat) (groups : list (list nat))
  : res (list (list nat)) :=
  match fuel with
  | O => OutOfFuel
  | S fuel' =>
    let todo := filter (fun '(i, _) => negb (memn i finish)) (combine (seq 0 (length ns)) ns) in
    let run := filter (fun '(_, nd) => forallb (fun e => memn (fst e) finish) (s_ins nd)) todo in
    match todo, run with
    | [], _ => Ok groups
    | _ :: _, [] => Exn RuntimeError
    | _ :: _, _ :: _ =>
        group_loop fuel' ns (map fst run ++ finish) (groups ++ [map fst run])
    end
  end.
(** TXSession::BuildRunNodes, tx_session.cc:453-512; MXLOG(FATAL) throws. *)
Definition build_run_nodes (fuel : nat) (ns : list snode) : res (list (list nat)) :=
  match ns with
  | [] => Exn CheckFailed
  | _ =>
    let vars := map fst (filter (fun '(_, nd) => s_var nd) (combine (seq 0 (length ns)) ns)) in
    group_loop fuel ns vars []
  end.

(** name2entry, tx_session.cc:436-444 *)
Definition name2entry (ns : list snode) : list (key * nat) :=
  fold_left (fun d '(i, nd) =>
      fold_left (fun d k => if existsb (key_eqb k) (s_exported nd) then demplace d k i else d)
        (s_outs nd) d)
    (combine (seq 0 (length ns)) ns) [].

(** TXSession::Trace, tx_session.cc:408-451; [out_nodes] is the content of the set
    [visited] in its order of iteration, [outs] the traced output symbols. *)
Definition trace (fuel : nat) (g : list gnode) (out_nodes : list nat) (outs : list (nat * nat))
  (out_names : list key) : res session :=
  let! d := topo_sort fuel g out_nodes in
  let! l := map_res (to_dict g outs) (d_nodes d) in
  let! ns := from_generic l in
  let n2e := name2entry ns in
  let! souts := map_res (fun e =>
      let! k := key_of g e in
      match dfind n2e k with Some i => Ok (i, k) | None => Exn CheckFailed end) outs in
  let! groups := build_run_nodes fuel ns in
  Ok {| ss_nodes := ns; ss_groups := groups; ss_outs := souts; ss_out_names := out_names |}.

(** ** Running *)
Section Run.
Context {V : Type}.
(** op->Process: an operator maps its arguments to a value or throws.  Simplification: the
    answer depends on the arguments only (no hidden state, no dependence on the thread). *)
Variable process : Z -> list V -> V + exn.
(** rets.IsObjectRef<Tuple>() and the items *)
Variable as_tuple : V -> option (list V).
Variable feed : key -> option V.

Definition dict := list (key * V).

(** One input of TXSessionRunOneNode, tx_session.cc:584-595 *)
Definition get_input (ns : list snode) (dp : dict) (e : nat * key) : res V :=
  let! nd := rd ns (fst e) in
  if s_var nd then
    match feed (snd e) with Some v => Ok v | None => Exn CheckFailed end
  else
    match dfind dp (snd e) with Some v => Ok v | None => Exn CheckFailed end.

(** TXSessionRunOneNode, tx_session.cc:573-643, writing to [out]; the profiling record is
    not modelled except for its address: [stat] is [false] when the pointer passed is the
    result of adding a non-zero offset to a null pointer. *)
Definition run_one (ns : list snode) (dp out : dict) (stat : bool) (n : nat) : res dict :=
  let! nd := rd ns n in
  if s_var nd then Ok out
  else if negb stat then UB
  else
    let! args := map_res (get_input ns dp) (s_ins nd) in
    match process (s_op nd) args with
    | inr e => Exn e
    | inl r =>
        if Nat.ltb 1 (length (s_outs nd)) then
          match as_tuple r with
          | None => Exn CheckFailed
          | Some vs =>
              if Nat.eqb (length vs) (length (s_outs nd)) then
                Ok (fold_left (fun d '(k, v) => demplace d k v) (combine (s_outs nd) vs) out)
              else Exn CheckFailed
          end
        else
          match s_outs nd with
          | [] => Exn CheckFailed
          | k :: _ => Ok (demplace out k r)
          end
    end.

(** TXSession::SetOutput, tx_session.cc:645-671 *)
Definition set_output (s : session) (dp : dict) : res (list (key * V)) :=
  let use_sig := Nat.eqb (length (ss_out_names s)) (length (ss_outs s)) in
  map_res (fun '(i, e) =>
      let! v := get_input (ss_nodes s) dp e in
      let! name := if use_sig then rd (ss_out_names s) i
                   else Ok (dec_digits 20 (Z.of_nat i) []) in
      Ok (name, v))
    (combine (seq 0 (length (ss_outs s))) (ss_outs s)).

(** TXSession::RunImpl, tx_session.cc:729-755: every node in order, reading and writing the
    same table *)
Definition run_serial (s : session) : res (list (key * V)) :=
  match ss_nodes s with
  | [] => Ok []
  | _ =>
    let! dp := fold_left (fun (acc : res dict) n => let! dp := acc in run_one (ss_nodes s) dp dp true n)
                 (seq 0 (length (ss_nodes s))) (Ok []) in
    set_output s dp
  end.

(** *** Parallel execution *)

(** TXSessionRunnable, tx_session.cc:888-948: the nodes still to run, the number already
    run, the private output table, the stored exception *)
Record task : Type := { t_todo : list nat; t_i : nat; t_out : dict; t_err : option exn }.

Definition task_done (t : task) : bool :=
  match t_err t, t_todo t with Some _, _ | _, [] => true | _, _ => false end.

(** One iteration of the loop of TXSessionRunnable::RunImpl, tx_session.cc:920-935.  The
    shared table [dp] is only read.  An exception ends the task (LockBasedRunnable::Run
    stores it).  [meta]: the caller asked for profiling, so that the address passed is
    a real one; without it the address is null + i. *)
Definition task_step (ns : list snode) (dp : dict) (meta : bool) (t : task) : res task :=
  match t_err t, t_todo t with
  | Some _, _ | _, [] => Ok t
  | None, n :: todo =>
      match run_one ns dp (t_out t) (meta || Nat.eqb (t_i t) 0) n with
      | Ok out => Ok {| t_todo := todo; t_i := S (t_i t); t_out := out; t_err := None |}
      | Exn e => Ok {| t_todo := todo; t_i := S (t_i t); t_out := t_out t; t_err := Some e |}
      | OOB => OOB
      | OutOfFuel => OutOfFuel
      end
  end.

(** A schedule: the tasks that take a step, in order.  Some task runs in the calling
    thread, the others on the pool; every interleaving of their steps is a schedule. *)
Fixpoint run_sched (ns : list snode) (dp : dict) (meta : bool) (ts : list task) (sched : list nat)
  : res (list task) :=
  match sched with
  | [] => Ok ts
  | i :: sched' =>
      match nth_error ts i with
      | None => run_sched ns dp meta ts sched'
      | Some t => let! t := task_step ns dp meta t in run_sched ns dp meta (lset ts i t) sched'
      end
  end.

Record options : Type := { o_threads : Z; o_min : Z; o_max : Z; o_meta : bool }.

(** int division: by zero it is undefined *)
Definition idiv (a b : Z) : res Z := if b =? 0 then UB else Ok (Z.quot a b).

(** [run_nodes.data() + off, .. + len], reading only inside the vector *)
Definition slice (l : list nat) (off len : Z) : res (list nat) :=
  if (0 <=? off) && (0 <=? len) && (off + len <=? Z.of_nat (length l))
  then Ok (firstn (Z.to_nat len) (skipn (Z.to_nat off) l)) else OOB.

(** The tasks of one group, tx_session.cc:984-1013.  Simplification: int does not overflow. *)
Definition make_tasks (o : options) (group : list nat) : res (list task) :=
  let n := Z.of_nat (length group) in
  let! step := idiv (n + o_threads o - 1) (o_threads o) in
  let step := if step <? o_min o then o_min o else step in
  let step := if step >? o_max o then o_max o else step in
  let! num := idiv (n + step - 1) step in
  if num <? 0 then Exn ValueError          (* reserve: std::length_error *)
  else if num =? 0 then UB                 (* runnables.back() of an empty vector *)
  else
    map_res (fun i =>
        let i := Z.of_nat i in
        let real := if i + 1 =? num then n - i * step else step in
        if real <? 1 then Exn CheckFailed
        else
          let! nodes := slice group (step * i) real in
          Ok {| t_todo := nodes; t_i := 0; t_out := []; t_err := None |})
      (seq 0 (Z.to_nat num)).

(** The first stored exception in the order of the tasks, tx_session.cc:1018-1037 *)
Fixpoint first_error (ts : list task) : option exn :=
  match ts with
  | [] => None
  | t :: ts' => match t_err t with Some e => Some e | None => first_error ts' end
  end.

(** datapack.insert(output_dict.begin(), output_dict.end()), tx_session.cc:1038-1040 *)
Definition merge (dp : dict) (ts : list task) : dict :=
  fold_left (fun dp t => fold_left (fun d '(k, v) => demplace d k v) (t_out t) dp) ts dp.

(** One group of RunImplMultiThread, tx_session.cc:961-1041; [None]: some task has not
    finished yet, the caller waits. *)
Definition run_group (o : options) (ns : list snode) (dp : dict) (group sched : list nat)
  : res (option dict) :=
  match group with
  | [] => Ok (Some dp)
  | [n] => let! dp := run_one ns dp dp true n in Ok (Some dp)
  | _ =>
      let! ts := make_tasks o group in
      let! ts := run_sched ns dp (o_meta o) ts sched in
      if forallb task_done ts then
        match first_error ts with
        | Some e => Exn e
        | None => Ok (Some (merge dp ts))
        end
      else Ok None
  end.

Fixpoint run_groups (o : options) (ns : list snode) (dp : dict) (groups scheds : list (list nat))
  : res (option dict) :=
  match groups with
  | [] => Ok (Some dp)
  | g :: groups' =>
      let! r := run_group o ns dp g (hd [] scheds) in
      match r with
      | None => Ok None
      | Some dp => run_groups o ns dp groups' (tl scheds)
      end
  end.

(** TXSession::RunImplMultiThread, tx_session.cc:950-1045, with one schedule for each
    group; [None]: the call has not returned under this (unfinished) schedule. *)
Definition run_parallel (o : options) (s : session) (scheds : list (list nat))
  : res (option (list (key * V))) :=
  match ss_groups s with
  | [] => Ok (Some [])
  | groups =>
      let! r := run_groups o (ss_nodes s) [] groups scheds in
      match r with
      | None => Ok None
      | Some dp => let! out := set_output s dp in Ok (Some out)
      end
  end.

End Run.
