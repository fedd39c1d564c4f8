(** Trie: the double array of cedar and what TrieNode makes of it.

    Files: include/matxscript/runtime/algorithm/cedar.h, src/runtime/algorithm/trie_private.cc.
    The instance is da<int>: ORDERED, MAX_TRIAL = 1, no tracking nodes, none of USE_REDUCED_TRIE,
    USE_FAST_LOAD, USE_EXACT_FIT.

    An array is a function together with [size]; reading or writing at or above the size, or
    below 0, is UB.  Simplified: memory between _size and _capacity is not modelled, since
    nothing but _add_block touches it; int and short do not overflow except where a value is
    added to a value; allocation does not fail.  Indexes, labels and characters are Z. *)
From Verif Require Import Base ListAux Utf8Model.
Local Open Scope Z_scope.

(** struct node, cedar.h:49-59: base_ and value share their place *)
Record node := Node { base_ : Z; check : Z }.
(** struct ninfo, cedar.h:60-64 *)
Record ninfo := Info { sibling : Z; child : Z }.
(** struct block, cedar.h:65-73 *)
Record block := Block { prev : Z; next : Z; num : Z; reject : Z; trial : Z; ehead : Z }.
Definition block0 : block := Block 0 0 256 257 0 0.
(** class da, cedar.h:36-, fields 371-380; [ready]: _ninfo and _block are there *)
Record da := Da { arr : Z -> node; inf : Z -> ninfo; blk : Z -> block;
                  headF : Z; headC : Z; headO : Z; size : Z; rej : Z -> Z; ready : bool }.
Definition MAX_TRIAL : Z := 1.
Definition NO_VALUE : Z := -1.
Definition NO_PATH : Z := -2.

Definition upd {A} (f : Z -> A) (i : Z) (x : A) : Z -> A := fun j => if j =? i then x else f j.
Definition inside (n i : Z) : bool := (0 <=? i) && (i <? n).

Definition get_a (t : da) (i : Z) : res node := if inside (size t) i then Ok (arr t i) else UB.
Definition set_a (t : da) (i : Z) (n : node) : res da :=
  if inside (size t) i
  then Ok (Da (upd (arr t) i n) (inf t) (blk t) (headF t) (headC t) (headO t) (size t) (rej t) (ready t))
  else UB.
Definition set_base (t : da) (i b : Z) : res da := let! n := get_a t i in set_a t i (Node b (check n)).
Definition set_check (t : da) (i c : Z) : res da := let! n := get_a t i in set_a t i (Node (base_ n) c).
Definition get_i (t : da) (i : Z) : res ninfo :=
  if ready t && inside (size t) i then Ok (inf t i) else UB.
Definition set_i (t : da) (i : Z) (n : ninfo) : res da :=
  if ready t && inside (size t) i
  then Ok (Da (arr t) (upd (inf t) i n) (blk t) (headF t) (headC t) (headO t) (size t) (rej t) (ready t))
  else UB.
Definition set_sibling (t : da) (i s : Z) : res da := let! n := get_i t i in set_i t i (Info s (child n)).
Definition set_child (t : da) (i c : Z) : res da := let! n := get_i t i in set_i t i (Info (sibling n) c).
Definition get_b (t : da) (bi : Z) : res block :=
  if ready t && inside (size t / 256) bi then Ok (blk t bi) else UB.
Definition set_b (t : da) (bi : Z) (b : block) : res da :=
  if ready t && inside (size t / 256) bi
  then Ok (Da (arr t) (inf t) (upd (blk t) bi b) (headF t) (headC t) (headO t) (size t) (rej t) (ready t))
  else UB.
Definition set_prev (t : da) (bi p : Z) : res da :=
  let! b := get_b t bi in set_b t bi (Block p (next b) (num b) (reject b) (trial b) (ehead b)).
Definition set_next (t : da) (bi n : Z) : res da :=
  let! b := get_b t bi in set_b t bi (Block (prev b) n (num b) (reject b) (trial b) (ehead b)).
Definition set_num (t : da) (bi n : Z) : res da :=
  let! b := get_b t bi in set_b t bi (Block (prev b) (next b) n (reject b) (trial b) (ehead b)).
Definition set_reject (t : da) (bi r : Z) : res da :=
  let! b := get_b t bi in set_b t bi (Block (prev b) (next b) (num b) r (trial b) (ehead b)).
Definition set_trial (t : da) (bi n : Z) : res da :=
  let! b := get_b t bi in set_b t bi (Block (prev b) (next b) (num b) (reject b) n (ehead b)).
Definition set_ehead (t : da) (bi e : Z) : res da :=
  let! b := get_b t bi in set_b t bi (Block (prev b) (next b) (num b) (reject b) (trial b) e).
(** _reject[257] *)
Definition get_r (t : da) (n : Z) : res Z := if inside 257 n then Ok (rej t n) else UB.
Definition set_r (t : da) (n r : Z) : res da :=
  if inside 257 n
  then Ok (Da (arr t) (inf t) (blk t) (headF t) (headC t) (headO t) (size t) (upd (rej t) n r) (ready t))
  else UB.

(** _bheadF, _bheadC, _bheadO, passed by reference *)
Inductive which : Type := Full | Closed | Open.
Definition head (t : da) (w : which) : Z :=
  match w with Full => headF t | Closed => headC t | Open => headO t end.
Definition set_head (t : da) (w : which) (x : Z) : da :=
  Da (arr t) (inf t) (blk t)
     (match w with Full => x | _ => headF t end) (match w with Closed => x | _ => headC t end)
     (match w with Open => x | _ => headO t end) (size t) (rej t) (ready t).

(** da::_initialize, cedar.h:393-408 *)
Definition initial : da :=
  Da (fun i => if i =? 0 then Node 0 (-1)
               else Node (if i =? 1 then -255 else - (i - 1)) (if i =? 255 then -1 else - (i + 1)))
     (fun _ => Info 0 0)
     (upd (fun _ => block0) 0 (Block 0 0 256 257 0 1))
     0 0 0 256 (fun i => i + 1) true.

(** _pop_block, cedar.h:472-481 *)
Definition pop_block (t : da) (bi : Z) (w : which) (last : bool) : res da :=
  if last then Ok (set_head t w 0)
  else
    let! b := get_b t bi in
    let! t := set_next t (prev b) (next b) in
    let! b := get_b t bi in
    let! t := set_prev t (next b) (prev b) in
    let! b := get_b t bi in
    Ok (if bi =? head t w then set_head t w (next b) else t).
(** _push_block, cedar.h:482-492 *)
Definition push_block (t : da) (bi : Z) (w : which) (empty : bool) : res da :=
  if empty then
    let! t := set_prev t bi bi in
    let! t := set_next t bi bi in
    Ok (set_head t w bi)
  else
    let h := head t w in
    let! hb := get_b t h in
    let! t := set_prev t bi (prev hb) in
    let! t := set_next t bi h in
    let! hb := get_b t h in
    let! t := set_next t (prev hb) bi in
    let! t := set_prev t h bi in
    Ok (set_head t w bi).
(** _add_block, cedar.h:493-512: 256 more elements, the ring of empty ones *)
Definition add_block (t : da) : res (da * Z) :=
  if negb (ready t) then UB
  else
    let n := size t in
    let a i := if (n <=? i) && (i <? n + 256) then
                 if i =? n then Node (- (n + 255)) (- (n + 1))
                 else if i =? n + 255 then Node (- (n + 254)) (- n)
                 else Node (- (i - 1)) (- (i + 1))
               else arr t i in
    let f i := if (n <=? i) && (i <? n + 256) then Info 0 0 else inf t i in
    let t := Da a f (upd (blk t) (n / 256) (Block 0 0 256 257 0 n)) (headF t) (headC t) (headO t)
                (n + 256) (rej t) (ready t) in
    let! t := push_block t (n / 256) Open (head t Open =? 0) in
    Ok (t, n / 256).
(** _transfer_block, cedar.h:514-517 *)
Definition transfer_block (t : da) (bi : Z) (w v : which) : res da :=
  let! b := get_b t bi in
  let! t := pop_block t bi w (bi =? next b) in
  let! b := get_b t bi in
  push_block t bi v ((head t v =? 0) && negb (num b =? 0)).

(** _find_place(), cedar.h:593-597 *)
Definition find_place (t : da) : res (da * Z) :=
  if negb (headC t =? 0) then let! b := get_b t (headC t) in Ok (t, ehead b)
  else if negb (headO t =? 0) then let! b := get_b t (headO t) in Ok (t, ehead b)
  else let! (t, bi) := add_block t in Ok (t, bi * 256).

(** _pop_enode, cedar.h:519-542: the cell e leaves the ring of its block *)
Definition unlink_enode (t : da) (e : Z) : res da :=
  let bi := e / 256 in
  let! b := get_b t bi in
  let! t := set_num t bi (num b - 1) in
  if num b - 1 =? 0 then
    if negb (bi =? 0) then transfer_block t bi Closed Full else Ok t
  else
    let! n := get_a t e in
    let! t := set_check t (- base_ n) (check n) in
    let! n := get_a t e in
    let! t := set_base t (- check n) (base_ n) in
    let! n := get_a t e in
    let! b := get_b t bi in
    let! t := if e =? ehead b then set_ehead t bi (- check n) else Ok t in
    let! b := get_b t bi in
    if negb (bi =? 0) && (num b =? 1) && negb (trial b =? MAX_TRIAL)
    then transfer_block t bi Open Closed else Ok t.
Definition pop_enode (t : da) (base label from : Z) : res (da * Z) :=
  let! (t, e) := if base <? 0 then find_place t else Ok (t, Z.lxor base label) in
  let! t := unlink_enode t e in
  let! t := set_a t e (Node (if label =? 0 then 0 else -1) from) in
  let! t := if base <? 0 then set_base t from (Z.lxor e label) else Ok t in
  Ok (t, e).
(** _push_enode, cedar.h:544-562 *)
Definition push_enode (t : da) (e : Z) : res da :=
  let bi := e / 256 in
  let! b := get_b t bi in
  let! t := set_num t bi (num b + 1) in
  let! t :=
    if num b + 1 =? 1 then
      let! t := set_ehead t bi e in
      let! t := set_a t e (Node (- e) (- e)) in
      if negb (bi =? 0) then transfer_block t bi Full Closed else Ok t
    else
      let prv := ehead b in
      let! n := get_a t prv in
      let nxt := - check n in
      let! t := set_a t e (Node (- prv) (- nxt)) in
      let! t := set_base t nxt (- e) in
      let! t := set_check t prv (- e) in
      let! b := get_b t bi in
      let! t := if (num b =? 2) || (trial b =? MAX_TRIAL)
                then if negb (bi =? 0) then transfer_block t bi Closed Open else Ok t
                else Ok t in
      set_trial t bi 0 in
  let! b := get_b t bi in
  let! r := get_r t (num b) in
  let! t := if reject b <? r then set_reject t bi r else Ok t in
  set_i t e (Info 0 0).

(** uchar* c: where _push_sibling writes *)
Inductive place : Type := PChild (i : Z) | PSib (i : Z).
Definition deref (t : da) (p : place) : res Z :=
  match p with
  | PChild i => let! n := get_i t i in Ok (child n)
  | PSib i => let! n := get_i t i in Ok (sibling n)
  end.
Definition write (t : da) (p : place) (x : Z) : res da :=
  match p with PChild i => set_child t i x | PSib i => set_sibling t i x end.
(** the loop of _push_sibling: the place before the label *)
Fixpoint sib_place (fuel : nat) (t : da) (base label : Z) (p : place) : res place :=
  match fuel with
  | O => OutOfFuel
  | S fuel =>
    let! c := deref t p in
    let p := PSib (Z.lxor base c) in
    let! c := deref t p in
    if negb (c =? 0) && (c <? label) then sib_place fuel t base label p else Ok p
  end.
(** _push_sibling, cedar.h:564-569 *)
Definition push_sibling (t : da) (from base label : Z) (flag : bool) : res da :=
  let! c := deref t (PChild from) in
  let! p := if flag && (c <? label) then sib_place 257 t base label (PChild from) else Ok (PChild from) in
  let! c := deref t p in
  let! t := set_sibling t (Z.lxor base label) c in
  write t p label.
(** _consult, cedar.h:577-581 *)
Fixpoint consult (fuel : nat) (t : da) (base_n base_p c_n c_p : Z) : res bool :=
  match fuel with
  | O => OutOfFuel
  | S fuel =>
    let! n := get_i t (Z.lxor base_n c_n) in
    let! p := get_i t (Z.lxor base_p c_p) in
    if negb (sibling n =? 0) && negb (sibling p =? 0)
    then consult fuel t base_n base_p (sibling n) (sibling p)
    else Ok (negb (sibling p =? 0))
  end.
(** _set_child, cedar.h:583-591: the labels from [c] on, [label] among them.  [placed]: label is
    written or there is none. *)
Fixpoint siblings_from (fuel : nat) (t : da) (base c label : Z) (placed : bool) : res (list Z) :=
  match fuel with
  | O => OutOfFuel
  | S fuel =>
    if negb placed && ((c =? 0) || (label <=? c)) then
      let! l := siblings_from fuel t base c label true in Ok (label :: l)
    else if c =? 0 then Ok []
    else
      let! n := get_i t (Z.lxor base c) in
      let! l := siblings_from fuel t base (sibling n) label placed in Ok (c :: l)
  end.
Definition list_children (t : da) (base c : Z) (label : option Z) : res (list Z) :=
  let rest c := match label with
    | Some x => siblings_from 260 t base c x false
    | None => siblings_from 260 t base c 0 true
    end in
  let! l := if c =? 0 then
              let! n := get_i t (Z.lxor base c) in let! l := rest (sibling n) in Ok (c :: l)
            else rest c in
  if (256 <? length l)%nat then UB else Ok l.

(** _find_place(first, last), cedar.h:598-620: the search in the ring of a block *)
Fixpoint all_empty (t : da) (base : Z) (cs : list Z) : res bool :=
  match cs with
  | [] => Ok true
  | c :: cs =>
    let! n := get_a t (Z.lxor base c) in
    if check n <? 0 then all_empty t base cs else Ok false
  end.
Fixpoint scan_ring (fuel : nat) (t : da) (eh first : Z) (cs : list Z) (e : Z) : res (option Z) :=
  match fuel with
  | O => OutOfFuel
  | S fuel =>
    let! ok := all_empty t (Z.lxor e first) cs in
    if ok then Ok (Some e)
    else
      let! n := get_a t e in
      if - check n =? eh then Ok None else scan_ring fuel t eh first cs (- check n)
  end.
Fixpoint scan_blocks (fuel : nat) (t : da) (bi bz : Z) (first : Z) (cs : list Z) : res (da * option Z) :=
  match fuel with
  | O => OutOfFuel
  | S fuel =>
    let nc := Z.of_nat (length cs) + 1 in
    let! b := get_b t bi in
    let! r := if (nc <=? num b) && (nc <? reject b)
              then scan_ring 257 t (ehead b) first cs (ehead b) else Ok None in
    match r with
    | Some e => let! t := set_ehead t bi e in Ok (t, Some e)
    | None =>
      let! t := set_reject t bi nc in
      let! x := get_r t (num b) in
      let! t := if nc <? x then set_r t (num b) nc else Ok t in
      let! t := set_trial t bi (trial b + 1) in
      let! t := if trial b + 1 =? MAX_TRIAL then transfer_block t bi Open Closed else Ok t in
      if bi =? bz then Ok (t, None) else scan_blocks fuel t (next b) bz first cs
    end
  end.
Definition find_place_for (t : da) (first : Z) (cs : list Z) : res (da * Z) :=
  let! (t, r) :=
    if negb (headO t =? 0) then
      let! b := get_b t (headO t) in
      scan_blocks (S (Z.to_nat (size t / 256))) t (headO t) (prev b) first cs
    else Ok (t, None) in
  match r with
  | Some e => Ok (t, e)
  | None => let! (t, bi) := add_block t in Ok (t, bi * 256)
  end.

(** The loop over the sons of a node that moved, cedar.h:660-662 *)
Fixpoint adopt (fuel : nat) (t : da) (base c to : Z) : res da :=
  match fuel with
  | O => OutOfFuel
  | S fuel =>
    let! t := set_check t (Z.lxor base c) to in
    let! n := get_i t (Z.lxor base c) in
    if sibling n =? 0 then Ok t else adopt fuel t base (sibling n) to
  end.
(** _resolve, cedar.h:652-663: what the moved node takes with it *)
Definition carry (t : da) (to to' p : Z) : res da :=
  let! n' := get_a t to' in
  let! t := set_base t to (base_ n') in
  if (0 <? base_ n') && negb (p =? 0) then
    let! i := get_i t to' in
    let! t := set_child t to (child i) in
    adopt 257 t (base_ n') (child i) to
  else Ok t.
(** The loop of _resolve over the children to move, cedar.h:646-681; returns from_n too *)
Fixpoint move_all (t : da) (flag : bool) (from base old to_pn label_n from_n : Z) (ps : list Z)
  : res (da * Z) :=
  match ps with
  | [] => Ok (t, from_n)
  | p :: ps =>
    let! (t, to) := pop_enode t base p from in
    let to' := Z.lxor old p in
    let! t := set_sibling t to (match ps with [] => 0 | q :: _ => q end) in
    if flag && (to' =? to_pn) then move_all t flag from base old to_pn label_n from_n ps
    else
      let! t := carry t to to' p in
      let from_n := if negb flag && (to' =? from_n) then to else from_n in
      let! t :=
        if negb flag && (to' =? to_pn) then
          let! t := push_sibling t from_n (Z.lxor to_pn label_n) label_n true in
          let! t := set_child t to' 0 in
          set_a t to' (Node (if label_n =? 0 then 0 else -1) from_n)
        else push_enode t to' in
      move_all t flag from base old to_pn label_n from_n ps
  end.
(** _resolve, cedar.h:623-683 *)
Definition resolve (t : da) (from_n base_n label_n : Z) : res (da * Z * Z) :=
  let to_pn := Z.lxor base_n label_n in
  let! n := get_a t to_pn in
  let from_p := check n in
  let! np := get_a t from_p in
  let base_p := base_ np in
  let! i_n := get_i t from_n in
  let! i_p := get_i t from_p in
  let! flag := consult 257 t base_n base_p (child i_n) (child i_p) in
  let! ch := if (flag : bool) then list_children t base_n (child i_n) (Some label_n)
             else list_children t base_p (child i_p) None in
  match ch with
  | [] => UB
  | first :: rest =>
    let! (t, e) := match rest with [] => find_place t | _ => find_place_for t first rest end in
    let base := Z.lxor e first in
    let from := if flag then from_n else from_p in
    let old := if flag then base_n else base_p in
    let! t := if flag && (first =? label_n) then set_child t from label_n else Ok t in
    let! t := set_base t from base in
    let! (t, from_n) := move_all t flag from base old to_pn label_n from_n ch in
    Ok (t, from_n, if flag then Z.lxor base label_n else to_pn)
  end.
(** _follow, cedar.h:411-420: the trie, [from], the node reached *)
Definition follow (t : da) (from label : Z) : res (da * Z * Z) :=
  let! n := get_a t from in
  let base := base_ n in
  let to := Z.lxor base label in
  let! absent := if base <? 0 then Ok true else let! m := get_a t to in Ok (check m <? 0) in
  if (absent : bool) then
    let! (t, to) := pop_enode t base label from in
    let! t := push_sibling t from (Z.lxor to label) label (0 <=? base) in
    Ok (t, from, to)
  else
    let! m := get_a t to in
    if negb (check m =? from) then resolve t from base label else Ok (t, from, to).

(** _restore_ninfo, cedar.h:442-452 *)
Fixpoint restore_ninfo (todo : nat) (to : Z) (t : da) : res da :=
  match todo with
  | O => Ok t
  | S todo =>
    let! n := get_a t to in
    let from := check n in
    if from <? 0 then restore_ninfo todo (to + 1) t
    else
      let! m := get_a t from in
      let base := base_ m in
      let label := Z.lxor base to mod 256 in
      let! t :=
        if label =? 0 then Ok t
        else
          let! i := get_i t from in
          let! z := get_a t base in
          push_sibling t from base label ((from =? 0) || negb (child i =? 0) || (check z =? from)) in
      restore_ninfo todo (to + 1) t
  end.
(** _restore_block, cedar.h:453-464: the empty elements of a block, and the first *)
Fixpoint count_empty (todo : nat) (e : Z) (t : da) (n first : Z) : res (Z * Z) :=
  match todo with
  | O => Ok (n, first)
  | S todo =>
    let! x := get_a t e in
    if check x <? 0 then count_empty todo (e + 1) t (n + 1) (if n + 1 =? 1 then e else first)
    else count_empty todo (e + 1) t n first
  end.
Fixpoint restore_block (todo : nat) (bi : Z) (t : da) : res da :=
  match todo with
  | O => Ok t
  | S todo =>
    let! (n, first) := count_empty 256 (bi * 256) t 0 (ehead block0) in
    let! t := set_num t bi n in
    let! t := set_ehead t bi first in
    let w := if n =? 1 then Closed else if n =? 0 then Full else Open in
    let! t := push_block t bi w ((head t w =? 0) && negb (n =? 0)) in
    restore_block todo (bi + 1) t
  end.
(** restore, cedar.h:302-306 *)
Definition restore (t : da) : res da :=
  let t := Da (arr t) (fun _ => Info 0 0) (fun _ => block0) 0 0 0 (size t) (rej t) true in
  let! t := restore_block (Z.to_nat (size t / 256)) 0 t in
  restore_ninfo (Z.to_nat (size t)) 0 t.

(** update, cedar.h:171-194: the loop over the key *)
Fixpoint walk (t : da) (from : Z) (key : list Z) : res (da * Z) :=
  match key with
  | [] => Ok (t, from)
  | c :: key => let! (t, _, to) := follow t from c in walk t to key
  end.
Definition int32 (x : Z) : bool := (- 2 ^ 31 <=? x) && (x <? 2 ^ 31).
(** _array[to].value += val *)
Definition add_value (t : da) (to val : Z) : res da :=
  let! n := get_a t to in
  if int32 (base_ n + val) then set_base t to (base_ n + val) else UB.
(** [None]: std::exit *)
Definition update (t : da) (key : list Z) (val : Z) : res (option da) :=
  match key with
  | [] => Ok None
  | _ =>
    let! t := if ready t then Ok t else restore t in
    let! (t, from) := walk t 0 key in
    let! (t, _, to) := follow t from 0 in
    let! t := add_value t to val in
    Ok (Some t)
  end.

(** _find for one more character, cedar.h:422-440 *)
Definition find1 (t : da) (from c : Z) : res (Z * Z) :=
  let! n := get_a t from in
  let to := Z.lxor (base_ n) c in
  let! m := get_a t to in
  if negb (check m =? from) then Ok (NO_PATH, from)
  else
    let! x := get_a t (base_ m) in
    Ok (if check x =? to then base_ x else NO_VALUE, to).
(** commonPrefixSearch, cedar.h:119-130: lengths and values *)
Fixpoint common_prefix_search (t : da) (from pos : Z) (key : list Z) : res (list (Z * Z)) :=
  match key with
  | [] => Ok []
  | c :: key =>
    let! (v, from) := find1 t from c in
    if v =? NO_PATH then Ok []
    else
      let! l := common_prefix_search t from (pos + 1) key in
      Ok (if v =? NO_VALUE then l else (pos + 1, v) :: l)
  end.
(** trie_results[kResultSize] with the number of nodes found: reading more is UB *)
Definition results (l : list (Z * Z)) : res (list (Z * Z)) := if (64 <? length l)%nat then UB else Ok l.
(** TrieNode::PrefixSearch, trie_private.cc:66-89 *)
Definition longest (l : list (Z * Z)) (val : Z) : Z * Z :=
  fold_left (fun r x => if fst r <? fst x then x else r) l (0, val).
Definition prefix_search (t : da) (w : list Z) : res (Z * Z) :=
  let! l := common_prefix_search t 0 0 w in
  let! l := results l in
  Ok (longest l (-1)).
(** TrieNode::PrefixSearchAll, trie_private.cc:97-114 *)
Definition prefix_search_all (t : da) (w : list Z) : res (list (Z * Z)) :=
  let! l := common_prefix_search t 0 0 w in results l.

(** slice_index_correction, container_slice_helper.h:27-30 *)
Definition slice_index_correction (slice len : Z) : Z :=
  if slice <? 0 then (if slice <? - len then 0 else slice + len)
  else if len <? slice then len else slice.
Definition substr (w : list Z) (pos : Z) : list Z :=
  skipn (Z.to_nat (slice_index_correction pos (Z.of_nat (length w)))) w.

(** save, open, cedar.h:236-256, 257-300: the file holds the nodes *)
Definition save (t : da) : Z * (Z -> node) := (size t, arr t).
Definition load (f : Z * (Z -> node)) (t : da) : da :=
  Da (snd f) (inf t) (blk t) 0 0 0 (fst f) (rej t) false.

(** ** TrieNode *)
(** str or bytes: an Any holding a Unicode or a String *)
Inductive text : Type := Bytes (b : list Z) | Str (cs : list Z).
Definition chars (x : text) : list Z := match x with Bytes b => b | Str cs => cs end.
Definition bytes_of (x : text) : res (list Z) := match x with Bytes b => Ok b | Str cs => utf8_encode cs end.
(** (int32_t)val *)
Definition wraps32 (x : Z) : Z := (x + 2 ^ 31) mod 2 ^ 32 - 2 ^ 31.
(** TrieNode::update, Update, trie_private.cc:56-63, 139-158 *)
Definition trie_update (t : da) (x : text) (val : Z) : res (option da) :=
  let! key := bytes_of x in update t key (wraps32 val).
(** build, cedar.h:221-225 *)
Fixpoint build (t : da) (l : list (list Z * Z)) : res (option da) :=
  match l with
  | [] => Ok (Some t)
  | (key, val) :: l =>
    let! o := update t key (wraps32 val) in
    match o with Some t => build t l | None => Ok None end
  end.
(** std::map<string_view, int64_t>: ordered by bytes; emplace keeps the value that is there *)
Fixpoint key_lt (a b : list Z) : bool :=
  match a, b with
  | _, [] => false
  | [], _ :: _ => true
  | x :: a, y :: b => (x <? y) || ((x =? y) && key_lt a b)
  end.
Fixpoint emplace (m : list (list Z * Z)) (key : list Z) (val : Z) : list (list Z * Z) :=
  match m with
  | [] => [(key, val)]
  | (k, v) :: m' =>
    if key_lt k key then (k, v) :: emplace m' key val
    else if key_lt key k then (key, val) :: m
    else m
  end.
(** Kernel_Trie::make, src/runtime/generic/generic_constructor_funcs.cc:757-778, over the items of
    the dict; TrieNode::TrieNode, trie_private.cc:36-54 *)
Fixpoint make_map (m : list (list Z * Z)) (dic : list (text * Z)) : res (list (list Z * Z)) :=
  match dic with
  | [] => Ok m
  | (x, v) :: dic => let! key := bytes_of x in make_map (emplace m key v) dic
  end.
Definition make (dic : list (text * Z)) : res (option da) := let! m := make_map [] dic in build initial m.

(** TrieNode::prefix_search and PrefixSearch, trie_private.cc:65-95, 160-172 *)
Definition trie_prefix_search (t : da) (x : text) (pos : Z) : res (Z * Z) :=
  match x with
  | Bytes b => prefix_search t (substr b pos)
  | Str cs =>
    let! u8s := utf8_encode (substr cs pos) in
    let! (bytes_len, val) := prefix_search t u8s in
    let! n := greedy_count (firstn (Z.to_nat bytes_len) u8s) in
    Ok (n, val)
  end.
(** OneCharLen, include/matxscript/runtime/utf8_util.h:32-36 *)
Definition one_char_len (b : Z) : res Z := rdz [1; 1; 1; 1; 1; 1; 1; 1; 1; 1; 1; 1; 2; 2; 3; 4] (b / 16).
(** len2count, trie_private.cc:120-131 *)
Fixpoint len2count (fuel : nat) (s : list Z) (count length : Z) : res (list (Z * Z)) :=
  match fuel with
  | O => OutOfFuel
  | S fuel =>
    match s with
    | [] => Ok []
    | b :: _ =>
      let! n := one_char_len b in
      let! m := len2count fuel (skipn (Z.to_nat n) s) (count + 1) (length + n) in
      Ok ((length + n, count + 1) :: m)
    end
  end.
Definition lookup (m : list (Z * Z)) (k : Z) : option Z :=
  match find (fun x => fst x =? k) m with Some x => Some (snd x) | None => None end.
(** trie_private.cc:133-142 *)
Fixpoint rename (m : list (Z * Z)) (l : list (Z * Z)) : list (Z * Z) :=
  match l with
  | [] => []
  | (n, v) :: l => match lookup m n with Some c => (c, v) :: rename m l | None => rename m l end
  end.
(** TrieNode::prefix_search_all and PrefixSearchAll, trie_private.cc:97-146, 184-204 *)
Definition trie_prefix_search_all (t : da) (x : text) (pos : Z) : res (list (Z * Z)) :=
  match x with
  | Bytes b => prefix_search_all t (substr b pos)
  | Str cs =>
    let! u8s := utf8_encode (substr cs pos) in
    let! l := prefix_search_all t u8s in
    let! m := len2count (S (length u8s)) u8s 0 0 in
    Ok (rename m l)
  end.

(** ** Programs
    Tries by number, files by name.  Simplified: fopen fails only on a file that is not there, and
    only to read; nothing else writes the files. *)
Inductive op : Type :=
| New (dic : list (text * Z))
| Update (i : nat) (x : text) (val : Z)
| Search (i : nat) (x : text) (pos : Z)
| SearchAll (i : nat) (x : text) (pos : Z)
| Save (i : nat) (name : Z)
| Load (i : nat) (name : Z).
Inductive obs : Type := Done | Pair (n v : Z) | Pairs (l : list (Z * Z)) | Code (rc : Z) | Exited.
Record state := St { tries : list da; files : Z -> option (Z * (Z -> node)) }.
Definition start : state := St [] (fun _ => None).
Definition trie (s : state) (i : nat) : res da := match nth_error (tries s) i with Some t => Ok t | None => Exn TypeError end.
Definition put_trie (s : state) (i : nat) (t : da) : state := St (lset (tries s) i t) (files s).
(** [None]: the process has ended *)
Definition step (s : state) (o : op) : res (option state * obs) :=
  match o with
  | New dic =>
    let! r := make dic in
    match r with Some t => Ok (Some (St (tries s ++ [t]) (files s)), Done) | None => Ok (None, Exited) end
  | Update i x val =>
    let! t := trie s i in
    let! r := trie_update t x val in
    match r with Some t => Ok (Some (put_trie s i t), Done) | None => Ok (None, Exited) end
  | Search i x pos =>
    let! t := trie s i in
    let! (n, v) := trie_prefix_search t x pos in
    Ok (Some s, Pair n v)
  | SearchAll i x pos =>
    let! t := trie s i in
    let! l := trie_prefix_search_all t x pos in
    Ok (Some s, Pairs l)
  | Save i name =>
    let! t := trie s i in
    Ok (Some (St (tries s) (upd (files s) name (Some (save t)))), Code 0)
  | Load i name =>
    let! t := trie s i in
    match files s name with
    | None => Ok (Some s, Code (-1))
    | Some f => Ok (Some (put_trie s i (load f t)), Code 0)
    end
  end.
Fixpoint run (s : state) (ops : list op) : res (list obs) :=
  match ops with
  | [] => Ok []
  | o :: ops =>
    let! (s', r) := step s o in
    match s' with
    | None => Ok [r]
    | Some s' => let! l := run s' ops in Ok (r :: l)
    end
  end.
