(** What a trie is to its user: a dictionary from byte strings to ints; a str stands for its UTF-8
    encoding.  From TrModel only the syntax of texts, programs and observations is used. *)
From Verif Require Import Base TrModel.
Local Open Scope Z_scope.

(** UTF-8, Unicode Standard, table 3-6 *)
Definition enc1 (c : Z) : list Z :=
  if c <? 128 then [c]
  else if c <? 2048 then [192 + c / 64; 128 + c mod 64]
  else if c <? 65536 then [224 + c / 4096; 128 + (c / 64) mod 64; 128 + c mod 64]
  else [240 + c / 262144; 128 + (c / 4096) mod 64; 128 + (c / 64) mod 64; 128 + c mod 64].
Definition enc (cs : list Z) : list Z := flat_map enc1 cs.
Definition coded (x : text) : list Z := match x with Bytes b => b | Str cs => enc cs end.
Definition proper (x : text) : Prop :=
  match x with Bytes b => Forall (fun c => 0 <= c < 256) b | Str cs => Forall (fun c => 0 <= c <= 1114111) cs end.
Definition prefix (n : nat) (x : text) : text := match x with Bytes b => Bytes (firstn n b) | Str cs => Str (firstn n cs) end.
(** x[pos:] *)
Definition from (pos : Z) (l : list Z) : list Z :=
  let len := Z.of_nat (length l) in
  skipn (Z.to_nat (if pos <? 0 then Z.max 0 (len + pos) else Z.min pos len)) l.
Definition rest (x : text) (pos : Z) : text := match x with Bytes b => Bytes (from pos b) | Str cs => Str (from pos cs) end.

Definition dict : Type := list Z -> option Z.
Definition none : dict := fun _ => None.
Definition bind_key (d : dict) (k : list Z) (v : Z) : dict := fun k' => if list_eq_dec Z.eq_dec k' k then Some v else d k'.
(** the prefixes of [x] that are keys, shortest first: how many characters, and the value *)
Definition matches (d : dict) (x : text) : list (Z * Z) :=
  flat_map (fun n => match d (coded (prefix n x)) with Some v => [(Z.of_nat n, v)] | None => [] end) (seq 1 (length (chars x))).
(** of a dict, the value at the key written [k] *)
Fixpoint items (l : list (text * Z)) : dict :=
  match l with [] => none | (x, v) :: l => bind_key (items l) (coded x) v end.

(** ** Programs.  [how]: what a value becomes where there may be one already *)
Record sstate := Sp { dicts : list dict; saved : Z -> option dict }.
Definition sstart : sstate := Sp [] (fun _ => None).
Definition replace (old : option Z) (v : Z) : Z := v.
Definition add (old : option Z) (v : Z) : Z := match old with Some x => x + v | None => v end.
Definition at_ (s : sstate) (i : nat) : dict := nth i (dicts s) none.
Definition put (s : sstate) (i : nat) (d : dict) : sstate := Sp (firstn i (dicts s) ++ d :: skipn (S i) (dicts s)) (saved s).
Definition sstep (how : option Z -> Z -> Z) (s : sstate) (o : op) : sstate * obs :=
  match o with
  | New dic => (Sp (dicts s ++ [items dic]) (saved s), Done)
  | Update i x v => (put s i (bind_key (at_ s i) (coded x) (how (at_ s i (coded x)) v)), Done)
  | Search i x pos => let '(n, v) := last (matches (at_ s i) (rest x pos)) (0, -1) in (s, Pair n v)
  | SearchAll i x pos => (s, Pairs (matches (at_ s i) (rest x pos)))
  | Save i name => (Sp (dicts s) (fun n => if n =? name then Some (at_ s i) else saved s n), Code 0)
  | Load i name => match saved s name with Some d => (put s i d, Code 0) | None => (s, Code (-1)) end
  end.
Fixpoint srun (how : option Z -> Z -> Z) (s : sstate) (ops : list op) : list obs :=
  match ops with
  | [] => []
  | o :: ops => let '(s', r) := sstep how s o in r :: srun how s' ops
  end.

(** ** Which programs *)
(** no empty key, no NUL in a key *)
Definition key (x : text) : Prop := proper x /\ chars x <> [] /\ ~ In 0 (chars x).
(** fits 32 bits and is not one of the values the search uses itself *)
Definition fits (v : Z) : Prop := - 2 ^ 31 <= v < 2 ^ 31.
Definition plain (v : Z) : Prop := fits v /\ v <> -1 /\ v <> -2.
Definition searchable (d : dict) (x : text) : Prop :=
  proper x /\
  (* no key in [x] is followed by a NUL *)
  (forall k r, coded x = k ++ 0 :: r -> d k = None) /\
  (* at most 64 answers *)
  (length (matches d x) <= 64)%nat /\
  (* the keys of a trie searched for a str are text *)
  (match x with Str _ => forall k, d k <> None -> exists cs, proper (Str cs) /\ k = enc cs | Bytes _ => True end).
Definition fine (how : option Z -> Z -> Z) (fresh : bool) (s : sstate) (o : op) : Prop :=
  match o with
  | New dic => Forall (fun p => key (fst p) /\ plain (snd p)) dic /\ NoDup (map (fun p => coded (fst p)) dic)
  | Update i x v =>
    (i < length (dicts s))%nat /\ key x /\ fits v /\ plain (how (at_ s i (coded x)) v) /\ (fresh = true -> at_ s i (coded x) = None)
  | Search i x pos | SearchAll i x pos => (i < length (dicts s))%nat /\ searchable (at_ s i) (rest x pos)
  | Save i _ | Load i _ => (i < length (dicts s))%nat
  end.
Fixpoint fines (how : option Z -> Z -> Z) (fresh : bool) (s : sstate) (ops : list op) : Prop :=
  match ops with
  | [] => True
  | o :: ops => fine how fresh s o /\ fines how fresh (fst (sstep how s o)) ops
  end.
(** the dictionaries after a program, where updates add *)
Fixpoint send (s : sstate) (ops : list op) : sstate := match ops with [] => s | o :: ops => send (fst (sstep add s o)) ops end.
(** does not write, does not read the file *)
Definition keeps (name : Z) (o : op) : Prop := match o with Save _ n => n <> name | _ => True end.
Definition avoids (name : Z) (o : op) : Prop := match o with Load _ n => n <> name | _ => True end.
