(** What a dict and a set are, by Python: independent of hashing.  A dictionary is a list of
    pairs with pairwise different keys; a set is a list of pairwise different elements.
    The order in which the table lists its contents is not specified. *)
From Coq Require Import Permutation.
From Verif Require Import Base HashModel.

(** Key equality must be an equivalence that the hash respects. *)
Record lawful {K : Type} (hash : K -> Z) (eqb : K -> K -> bool) : Prop := {
  law_refl : forall a, eqb a a = true;
  law_sym : forall a b, eqb a b = eqb b a;
  law_trans : forall a b c, eqb a b = true -> eqb b c = true -> eqb a c = true;
  law_hash : forall a b, eqb a b = true -> hash a = hash b }.

(** What the address space allows: no array of more than 2^52 entries.  [fuel] only bounds
    the nesting of two mutually recursive functions of the model. *)
Definition machine (cap : Z) (fuel : nat) : Prop := cap <= 2 ^ 52 /\ (52 <= fuel)%nat.

Section Ref.
Context {K V : Type}.
Variable eqb : K -> K -> bool.

(** ** Dictionaries *)
Fixpoint ref_get (l : list (K * V)) (k : K) : option V :=
  match l with
  | [] => None
  | (k', v) :: l' => if eqb k k' then Some v else ref_get l' k
  end.
(** d[k] = v: a new pair at the end, or the value replaced and the old key kept *)
Fixpoint ref_set (l : list (K * V)) (k : K) (v : V) : list (K * V) :=
  match l with
  | [] => [(k, v)]
  | (k', v') :: l' => if eqb k k' then (k', v) :: l' else (k', v') :: ref_set l' k v
  end.
Definition ref_del (l : list (K * V)) (k : K) : list (K * V) := filter (fun p => negb (eqb k (fst p))) l.

Inductive dict_op : Type :=
| DSet (k : K) (v : V)            (* d[k] = v *)
| DEmplace (k : K) (v : V)        (* the C++ API's emplace: only if k is absent *)
| DGet (k : K)                    (* d[k] *)
| DGetDefault (k : K) (d : V)     (* d.get(k, d) *)
| DContains (k : K)               (* k in d *)
| DPop (k : K) (d : option V)     (* d.pop(k) and d.pop(k, d) *)
| DClear | DLen | DItems
| DReserve (n : Z).               (* d.reserve(n) *)
Inductive dict_out : Type :=
| Done | Missing | Bool (b : bool) | Val (v : V) | Len (n : Z) | Pairs (l : list (K * V)).

(** Python's dict: the result and the dictionary afterwards *)
Definition ref_step (l : list (K * V)) (o : dict_op) : dict_out * list (K * V) :=
  match o with
  | DSet k v => (Done, ref_set l k v)
  | DEmplace k v =>
      match ref_get l k with Some _ => (Bool false, l) | None => (Bool true, ref_set l k v) end
  | DGet k => (match ref_get l k with Some v => Val v | None => Missing end, l)
  | DGetDefault k d => (match ref_get l k with Some v => Val v | None => Val d end, l)
  | DContains k => (Bool (match ref_get l k with Some _ => true | None => false end), l)
  | DPop k d =>
      match ref_get l k, d with
      | Some v, _ => (Val v, ref_del l k)
      | None, Some v => (Val v, l)
      | None, None => (Missing, l)
      end
  | DClear => (Done, [])
  | DLen => (Len (Z.of_nat (length l)), l)
  | DItems => (Pairs l, l)
  | DReserve _ => (Done, l)
  end.
Fixpoint ref_run (l : list (K * V)) (ops : list dict_op) : list dict_out :=
  match ops with
  | [] => []
  | o :: ops' => let (out, l') := ref_step l o in out :: ref_run l' ops'
  end.

(** The same history on the table: an exception for a missing key is a result, anything else
    that is not a normal return ends the history. *)
Variable hash : K -> Z.
Variable cap : Z.
Variable fuel : nat.
Variable none : V.
Definition missing {A} (r : res A) (f : A -> dict_out) : res dict_out :=
  match r with
  | Ok a => Ok (f a)
  | Exn CheckFailed | Exn KeyError => Ok Missing
  | Exn e => Exn e
  | OOB => OOB
  | OutOfFuel => OutOfFuel
  end.
Definition dict_step (t : table (K * V)) (o : dict_op) : res (dict_out * table (K * V)) :=
  match o with
  | DSet k v => let! t := dict_set hash eqb cap fuel none t k v in Ok (Done, t)
  | DEmplace k v => let! (t, b) := dict_emplace hash eqb cap fuel t k v in Ok (Bool b, t)
  | DGet k => let! out := missing (dict_get hash eqb t k) Val in Ok (out, t)
  | DGetDefault k d => let! v := dict_get_default hash eqb t k d in Ok (Val v, t)
  | DContains k => let! b := dict_contains hash eqb t k in Ok (Bool b, t)
  | DPop k d =>
      match dict_pop hash eqb t k d with
      | Ok (v, t) => Ok (Val v, t)
      | Exn KeyError => Ok (Missing, t)
      | Exn e => Exn e
      | OOB => OOB
      | OutOfFuel => OutOfFuel
      end
  | DClear => Ok (Done, dict_clear t)
  | DLen => Ok (Len (dict_size t), t)
  | DItems => let! l := items t in Ok (Pairs l, t)
  | DReserve n => let! t := dict_reserve hash eqb cap fuel t n in Ok (Done, t)
  end.
Fixpoint dict_run (t : table (K * V)) (ops : list dict_op) : res (list dict_out) :=
  match ops with
  | [] => Ok []
  | o :: ops' => let! (out, t) := dict_step t o in let! outs := dict_run t ops' in Ok (out :: outs)
  end.

(** Equal results; lists of pairs up to order *)
Definition same_out (a b : dict_out) : Prop :=
  match a, b with Pairs l, Pairs l' => Permutation l l' | _, _ => a = b end.

(** How many insertions a history makes *)
Definition inserts (ops : list dict_op) : Z :=
  Z.of_nat (length (filter (fun o => match o with DSet _ _ | DEmplace _ _ => true | _ => false end) ops)).
(** Arguments of reserve that fit size_t after doubling *)
Definition reserve_fits (o : dict_op) : Prop := match o with DReserve n => n <= 2 ^ 62 | _ => True end.
Definition reserve_below (bound : Z) (o : dict_op) : Prop := match o with DReserve n => 8 * n <= bound | _ => True end.

(** Python's dict built from pairs: later values win *)
Definition ref_of_pairs (l : list (K * V)) : list (K * V) :=
  fold_left (fun d p => ref_set d (fst p) (snd p)) l [].
(** Equal dictionaries: the same keys, equal values *)
Definition ref_eq (veq : V -> V -> bool) (l l' : list (K * V)) : Prop :=
  forall k, match ref_get l k, ref_get l' k with
            | Some v, Some v' => veq v v' = true
            | None, None => True
            | _, _ => False
            end.
End Ref.
Arguments dict_op : clear implicits.
Arguments dict_out : clear implicits.

(** ** Sets *)
Section RefSet.
Context {K : Type}.
Variable eqb : K -> K -> bool.
Definition member (x : K) (l : list K) : bool := existsb (eqb x) l.

Inductive set_op : Type :=
| SAdd (x : K) | SDiscard (x : K) | SContains (x : K) | SClear | SLen | SItems | SReserve (n : Z).
Inductive set_out : Type := SDone | SBool (b : bool) | SNum (n : Z) | SList (l : list K).
Definition sref_step (l : list K) (o : set_op) : set_out * list K :=
  match o with
  | SAdd x => (SDone, if member x l then l else l ++ [x])
  | SDiscard x => (SDone, filter (fun y => negb (eqb x y)) l)
  | SContains x => (SBool (member x l), l)
  | SClear => (SDone, [])
  | SLen => (SNum (Z.of_nat (length l)), l)
  | SItems => (SList l, l)
  | SReserve _ => (SDone, l)
  end.
Fixpoint sref_run (l : list K) (ops : list set_op) : list set_out :=
  match ops with
  | [] => []
  | o :: ops' => let (out, l') := sref_step l o in out :: sref_run l' ops'
  end.

Variable hash : K -> Z.
Variable cap : Z.
Variable fuel : nat.
Definition set_step (t : table K) (o : set_op) : res (set_out * table K) :=
  match o with
  | SAdd x => let! t := set_add hash eqb cap fuel t x in Ok (SDone, t)
  | SDiscard x => let! t := set_discard hash eqb t x in Ok (SDone, t)
  | SContains x => let! b := set_contains hash eqb t x in Ok (SBool b, t)
  | SClear => Ok (SDone, set_clear t)
  | SLen => Ok (SNum (num t), t)
  | SItems => let! l := items t in Ok (SList l, t)
  | SReserve n => let! t := set_reserve hash eqb cap fuel t n in Ok (SDone, t)
  end.
Fixpoint set_run (t : table K) (ops : list set_op) : res (list set_out) :=
  match ops with
  | [] => Ok []
  | o :: ops' => let! (out, t) := set_step t o in let! outs := set_run t ops' in Ok (out :: outs)
  end.
Definition same_sout (a b : set_out) : Prop :=
  match a, b with SList l, SList l' => Permutation l l' | _, _ => a = b end.
Definition sinserts (ops : list set_op) : Z :=
  Z.of_nat (length (filter (fun o => match o with SAdd _ => true | _ => false end) ops)).
Definition sreserve_fits (o : set_op) : Prop := match o with SReserve n => n <= 2 ^ 62 | _ => True end.
Definition sreserve_below (bound : Z) (o : set_op) : Prop := match o with SReserve n => 8 * n <= bound | _ => True end.
End RefSet.
Arguments set_op : clear implicits.
Arguments set_out : clear implicits.

(** Whether [y] is among the values of an argument of update, union or difference; [own] is
    membership in the set itself *)
Definition arg_member {K} (eqb : K -> K -> bool) (own : K -> bool) (y : K) (a : iterable (K := K)) : bool :=
  match a with Values l => member eqb y l | Self => own y end.

(** Tables that a program can hold: made by the constructors and the operations *)
Inductive reachable_dict {K V} (hash : K -> Z) (eqb : K -> K -> bool) (cap : Z) (fuel : nat) (none : V)
  : table (K * V) -> Prop :=
| rd_empty : reachable_dict hash eqb cap fuel none tempty
| rd_step t o out t' : reachable_dict hash eqb cap fuel none t -> reserve_fits o ->
    dict_step eqb hash cap fuel none t o = Ok (out, t') -> reachable_dict hash eqb cap fuel none t'
| rd_random l t : Z.of_nat (length l) < 2 ^ 53 -> dict_init_random hash eqb cap fuel l = Ok t ->
    reachable_dict hash eqb cap fuel none t
| rd_forward l t : dict_init_forward hash eqb cap fuel l = Ok t -> reachable_dict hash eqb cap fuel none t
| rd_list l t : dict_init_list hash eqb cap fuel l = Ok t -> reachable_dict hash eqb cap fuel none t
| rd_copy t t' : reachable_dict hash eqb cap fuel none t -> dict_make hash eqb cap fuel t = Ok t' ->
    reachable_dict hash eqb cap fuel none t'.
Inductive reachable_set {K} (hash : K -> Z) (eqb : K -> K -> bool) (cap : Z) (fuel : nat) : table K -> Prop :=
| rs_empty : reachable_set hash eqb cap fuel tempty
| rs_step t o out t' : reachable_set hash eqb cap fuel t -> sreserve_fits o ->
    set_step eqb hash cap fuel t o = Ok (out, t') -> reachable_set hash eqb cap fuel t'
| rs_make l t : Z.of_nat (length l) < 2 ^ 53 -> set_make hash eqb cap fuel l = Ok t ->
    reachable_set hash eqb cap fuel t
| rs_update t args t' : reachable_set hash eqb cap fuel t ->
    set_update hash eqb cap fuel t args = Ok t' -> reachable_set hash eqb cap fuel t'
| rs_diff_update t ls t' : reachable_set hash eqb cap fuel t ->
    set_difference_update hash eqb t (map Values ls) = Ok t' -> reachable_set hash eqb cap fuel t'
| rs_union t args t' : reachable_set hash eqb cap fuel t ->
    set_union hash eqb cap fuel t args = Ok t' -> reachable_set hash eqb cap fuel t'
| rs_difference t args t' : reachable_set hash eqb cap fuel t ->
    set_difference hash eqb cap fuel t args = Ok t' -> reachable_set hash eqb cap fuel t'.

(** Integers hash to their bits, so anyone can choose keys that all start at the same entry
    of every table: the i-th multiple of the inverse of the Fibonacci constant. *)
Definition attack (i : Z) : Z := wraps64 (i * 17428512612931826493).
