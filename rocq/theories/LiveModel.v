(** The live variable analysis of the script compiler: python/matx/cfg/builder.py,
    python/matx/cfg/model.py, python/matx/script/analysis/live_variable_analysis.py.
    No proofs here.

    Simplifications.  The nodes of the syntax tree are those of ScriptAst; a set of names is a
    list.  Names of builtins that a statement loads (range, bool, exception classes) are left
    out.  [separate_block] compares line numbers, which is taken to mean that the block has
    more than one statement.  The else part of a while, on which [build_While] breaks
    (common_tails.append(tail_list), builder.py:349), is left out; the compiler refuses it. *)
From Verif Require Import Base IntModel KeyModel FoldModel ScriptAst ScriptModel.
From Verif Require ScriptSpec.
Local Notation names := ScriptSpec.names.
Local Notation memb := ScriptSpec.memb.

(** What LoadStoreSeparator finds in a statement, builder.py:193-218: names loaded, names
    stored; [marks] are the nodes of the targets, with their names. *)
Record item : Type := { loads : list nat; stores : list nat; marks : list (nat * nat) }.
Definition idle : item := {| loads := []; stores := []; marks := [] |}.
Definition test_item (e : pexp) : item := {| loads := names e; stores := []; marks := [] |}.
Definition range_names (r : prange) : list nat :=
  match r with
  | RStop b => names b
  | RStart a b => names a ++ names b
  | RStep a b c => names a ++ names b ++ names c
  end.
(** ForIter, builder.py:159-168 *)
Definition for_item (x : nat) (r : prange) : item :=
  {| loads := range_names r; stores := [x]; marks := [] |}.
Definition simple_item (s : pstmt) : option item :=
  match s with
  | SPass => Some idle
  | SAssign n x e => Some {| loads := names e; stores := [x]; marks := [(n, x)] |}
  | SAug n x _ e => Some {| loads := x :: names e; stores := [x]; marks := [(n, x)] |}
  | SRaise _ => Some idle
  | _ => None
  end.

(** model.py:57-93: a block has statements and next blocks; block_list is the graph, a block is
    its index there *)
Record blk : Type := { items : list item; next : list nat }.
Notation graph := (list blk).
Definition add (g : graph) (l : list item) : graph := g ++ [{| items := l; next := [] |}].
(** connect_2_blocks, builder.py:512-516 *)
Fixpoint connect (g : graph) (i j : nat) : graph :=
  match g, i with
  | [], _ => []
  | b :: g, O => {| items := items b; next := next b ++ [j] |} :: g
  | b :: g, S i => b :: connect g i j
  end.
Definition connect' (g : graph) (i : nat) (o : option nat) : graph :=
  match o with Some j => connect g i j | None => g end.
(** link_tail_to_cur_block, builder.py:266-269 *)
Fixpoint link (g : graph) (l : list nat) (j : nat) : graph :=
  match l with [] => g | t :: l => link (connect g t j) l j end.
Definition link' (g : graph) (l : list nat) (o : option nat) : graph :=
  match o with Some j => link g l j | None => g end.
Definition orelse (o : option nat) (i : nat) : nat := match o with Some j => j | None => i end.

(** loop tails: (block ends in break rather than continue, block) *)
Definition breaks (l : list (bool * nat)) : list nat := map snd (filter fst l).
Definition continues (l : list (bool * nat)) : list nat := map snd (filter (fun p => negb (fst p)) l).

(** The loop head stands alone in its block (separate_block, builder.py:495-510). *)
Definition loop_head (g : graph) (cache : list item) (it : item) : graph * nat :=
  match cache with
  | [] => (add g [it], length g)
  | _ => (connect (add (add g (rev cache)) [it]) (length g) (S (length g)), S (length g))
  end.

(** [cfg_s]: a statement that ends a block, whose first statements are [rev cache]
    (BasicBlocksBuilder.visit_..., builder.py:97-144; CFG.build_If 282-302, build_Return ...
    314-324, build_While 326-353, build_For 355-383, build_Try 385-478).  The new block has the
    index [length g].  Results: statements that follow are dead; common tails; loop tails; graph.
    [cfg_b]: CFG.parse with CFG.build and get_basic_block, builder.py:79-95, 271-280, 486-493.
    Results: head, common tails, loop tails, graph. *)
Fixpoint cfg_s (s : pstmt) (cache : list item) (g : graph) {struct s}
  : bool * list nat * list (bool * nat) * graph :=
  let i := length g in
  match s with
  | SIf c a b =>
      let g := add g (rev (test_item c :: cache)) in
      let '(h, t, l, g) := cfg_b a [] None [] [] g in
      let g := connect' g i h in
      let '(h', t', l', g) := cfg_b b [] None [] [] g in
      match h' with
      | Some _ => (false, t ++ t', l ++ l', connect' g i h')
      | None => (false, t ++ [i], l, g)
      end
  | SWhile c b _ =>
      let '(g, w) := loop_head g cache (test_item c) in
      let '(h, t, l, g) := cfg_b b [] None [] [] g in
      let g := connect' g w h in
      let g := link g t w in
      let g := link g (continues l) w in
      (false, breaks l ++ [w], [], g)
  | SFor x r b els =>
      let '(g, w) := loop_head g cache (for_item x r) in
      let '(h, t, l, g) := cfg_b b [] None [] [] g in
      let g := connect' g w h in
      let g := link g t w in
      let g := link g (continues l) w in
      match els with
      | BNil => (false, breaks l ++ [w], [], g)
      | _ =>
          let '(h', t', l', g) := cfg_b els [] None [] [] g in
          (false, breaks l ++ t', l', connect' g w h')
      end
  | STry body _ handler els fin =>
      let g := add g (rev (idle :: cache)) in
      let '(h, t, l, g) := cfg_b body [] None [] [] g in
      let e := length g in
      let g := add g [idle] in
      let '(h1, t1, l1, g) := cfg_b handler [] None [] [] g in
      let g := connect' g e h1 in
      let '(h2, t2, l2, g) := cfg_b els [] None [] [] g in
      let g := connect' g i h in
      match fin with
      | BNil =>
          let g := connect g i e in
          let g := link g t e in                (* empties the list *)
          (false, t1 ++ t2, l ++ l1 ++ l2, g)
      | _ =>
          let '(h3, t3, l3, g) := cfg_b fin [] None [] [] g in
          let g := connect g i e in
          let g := link g t e in                (* empties the list *)
          let g := connect' g e h3 in
          let g := link' g t1 h3 in
          let g := link' g t2 h3 in
          (false, t3, l ++ l1 ++ l2 ++ l3, g)
      end
  | SReturn e => (false, [], [], add g (rev (test_item e :: cache)))
  | SBreak => (true, [], [(true, i)], add g (rev (idle :: cache)))
  | SContinue => (true, [], [(false, i)], add g (rev (idle :: cache)))
  | _ => (false, [], [], g)                     (* a simple statement: see cfg_b *)
  end
with cfg_b (b : pblock) (cache : list item) (head : option nat) (tails : list nat)
           (loops : list (bool * nat)) (g : graph) {struct b}
  : option nat * list nat * list (bool * nat) * graph :=
  let i := length g in
  match b with
  | BNil =>
      match cache with
      | [] => (head, tails, loops, g)
      | _ => (Some (orelse head i), [i], loops, link (add g (rev cache)) tails i)
      end
  | BCons s b =>
      match simple_item s with
      | Some it => cfg_b b (it :: cache) head tails loops g
      | None =>
          let '(dead, t, l, g) := cfg_s s cache g in
          let g := link g tails i in
          if dead then (Some (orelse head i), t, loops ++ l, g)
          else cfg_b b [] (Some (orelse head i)) t (loops ++ l) g
      end
  end.

(** CFG.__init__ with build_FunctionDef, builder.py:304-312: block 0 stores the parameters. *)
Definition cfg (f : pfun) : graph :=
  let g := add [] [{| loads := []; stores := map fst (params f); marks := [] |}] in
  let '(h, _, _, g) := cfg_b (body f) [] None [] [] g in
  connect' g 0 h.

(** ** Liveness *)

(** init_var_life_info, builder.py:523-536: what the block reads before it writes it, and what
    it writes *)
Fixpoint life (l : list item) (ue kill : list nat) : list nat * list nat :=
  match l with
  | [] => (ue, kill)
  | it :: l =>
      life l (ue ++ filter (fun x => negb (memb x kill)) (loads it)) (kill ++ stores it)
  end.
Definition ue_var (b : blk) : list nat := fst (life (items b) [] []).
Definition var_kill (b : blk) : list nat := snd (life (items b) [] []).

(** live_out of every block *)
Notation lives := (list (list nat)).
(** recompute_live_out_var, model.py:115-125 *)
Definition live_of (g : graph) (L : lives) (j : nat) : list nat :=
  match nth_error g j with
  | Some b => ue_var b ++ filter (fun x => negb (memb x (var_kill b))) (nth j L [])
  | None => []
  end.
Definition new_live_out (g : graph) (L : lives) (b : blk) : list nat := flat_map (live_of g L) (next b).
Fixpoint set_nth (L : lives) (i : nat) (s : list nat) : lives :=
  match L, i with
  | [], _ => []
  | _ :: L, O => s :: L
  | t :: L, S i => t :: set_nth L i s
  end.
Definition recompute (g : graph) (L : lives) (i : nat) (b : blk) : lives * bool :=
  let new := new_live_out g L b in
  if forallb (fun x => memb x (nth i L [])) new then (L, false) else (set_nth L i new, true).
(** compute_live_out_var, builder.py:538-544 *)
Fixpoint sweep (g : graph) (l : list blk) (i : nat) (L : lives) (changed : bool) : lives * bool :=
  match l with
  | [] => (L, changed)
  | b :: l => let '(L, c) := recompute g L i b in sweep g l (S i) L (changed || c)
  end.
Fixpoint compute (g : graph) (fuel : nat) (L : lives) : res lives :=
  match fuel with
  | O => OutOfFuel
  | S fuel => let '(L, changed) := sweep g g 0 L false in
              if changed then compute g fuel L else Ok L
  end.
Definition all_loads (g : graph) : list nat := flat_map (fun b => flat_map loads (items b)) g.
Definition live_out (g : graph) : res lives :=
  compute g (S (length g * length (all_loads g))) (map (fun _ => []) g).

(** collect_ast_live_out_info, builder.py:546-558, and the lookup with default True,
    parser.py:683: the verdict for the target [n] of an assignment *)
Definition block_verdict (live : list nat) (b : blk) (n : nat) (acc : option bool) : option bool :=
  fold_left (fun acc it => fold_left (fun acc p => if Nat.eqb (fst p) n then Some (memb (snd p) live) else acc)
                                     (marks it) acc)
            (items b) acc.
Fixpoint collect (g : graph) (L : lives) (n : nat) (acc : option bool) : option bool :=
  match g, L with
  | b :: g, l :: L => collect g L n (block_verdict l b n acc)
  | _, _ => acc
  end.
Definition verdict (f : pfun) (n : nat) : bool :=
  match live_out (cfg f) with
  | Ok L => match collect (cfg f) L n None with Some v => v | None => true end
  | _ => true
  end.

(** visit_FunctionDef, parser.py:484-485: the compiler with its own analysis *)
Definition compile_function (same : expr -> expr -> bool) (glob : nat -> option ScriptSpec.pval)
  (f : pfun) : res cblock := compile_fun same glob (verdict f) f.
