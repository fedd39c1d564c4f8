(** The hash table under dict and set, ska::detailv3::sherwood_v3_table with the Fibonacci
    policy, include/matxscript/runtime/container/_flat_hash_map.h, and the operations of
    Dict and Set on it, src/runtime/container/{dict_ref,set_ref}.cc.  No proofs here. *)
From Verif Require Import Base ListAux.

(** std::bad_alloc or std::length_error thrown by the allocator *)
Definition bad_alloc : exn := RuntimeError.

(** ** Powers of two *)

(** x |= x >> 1; ... x |= x >> 32, _flat_hash_map.h:264-269 and 299-304 *)
Definition smear (v : Z) : Z :=
  let v := Z.lor v (Z.shiftr v 1) in
  let v := Z.lor v (Z.shiftr v 2) in
  let v := Z.lor v (Z.shiftr v 4) in
  let v := Z.lor v (Z.shiftr v 8) in
  let v := Z.lor v (Z.shiftr v 16) in
  Z.lor v (Z.shiftr v 32).

Definition log2_table : list Z :=
  [63;  0; 58;  1; 59; 47; 53;  2; 60; 39; 48; 27; 54; 33; 42;  3;
   61; 51; 37; 40; 49; 18; 28; 20; 55; 30; 34; 11; 43; 14; 22;  4;
   62; 57; 46; 52; 38; 26; 32; 41; 50; 36; 17; 19; 29; 10; 13; 21;
   56; 45; 25; 31; 35; 16;  9; 12; 44; 24; 15;  8; 23;  7;  6;  5].

(** detailv3::log2, _flat_hash_map.h:251-271 *)
Definition log2 (v : Z) : res Z :=
  let v := smear v in
  rdz log2_table (Z.shiftr (wrapu64 ((v - Z.shiftr v 1) * 571347909858961602)) 58).

(** detailv3::next_power_of_two, _flat_hash_map.h:296-307, in size_t arithmetic *)
Definition next_power_of_two (i : Z) : Z := wrapu64 (smear (wrapu64 (i - 1)) + 1).

(** static_cast<double> of a size_t: round to 53 bits, ties to even *)
Definition to_double (n : Z) : Z :=
  if n <? 2 ^ 53 then n
  else
    let u := 2 ^ (Z.log2 n - 52) in
    let q := n / u in
    let r := n mod u in
    if (2 * r <? u) || ((2 * r =? u) && Z.even q) then q * u else (q + 1) * u.

(** std::ceil(n / 0.5) converted to size_t; undefined when it does not fit.  The maximal
    load factor is 0.5 and nothing in the project changes it. *)
Definition twice (n : Z) : res Z :=
  let d := 2 * to_double n in if d <? two64 then Ok d else UB.

(** fibonacci_hash_policy::index_for_hash, _flat_hash_map.h:1347-1350 *)
Definition index_for_hash (hash shift : Z) : Z :=
  Z.shiftr (wrapu64 (11400714819323198485 * hash)) shift.

(** fibonacci_hash_policy::next_size_over, _flat_hash_map.h:1356-1360 *)
Definition next_size_over (size : Z) : res (Z * Z) :=
  let size := Z.max 2 (next_power_of_two size) in
  let! l := log2 size in Ok (size, 64 - l).

(** compute_max_lookups, _flat_hash_map.h:874-878; min_lookups is 4 *)
Definition compute_max_lookups (num_buckets : Z) : res Z :=
  let! l := log2 num_buckets in Ok (Z.max 4 l).

(** ScalarHash<int64_t>, include/matxscript/runtime/bytes_hash.h:62-76: the hash of an int *)
Definition int_hash (n : Z) : Z :=
  let a := wrapu64 n in if a =? two64 - 1 then two64 - 2 else a.

Section Table.
Context {E K : Type}.
(** The key of a stored element; the hash functor and the equality functor.  Simplification:
    they are total functions without effects. *)
Variable kof : E -> K.
Variable hash : K -> Z.
Variable eqb : K -> K -> bool.
(** The allocator refuses arrays of more than [cap] entries. *)
Variable cap : Z.

(** sherwood_v3_entry, _flat_hash_map.h:202-249; [e_val] is [None] while no value is
    constructed.  Simplification: int8_t arithmetic on distances does not wrap (they stay
    below 64, see [wf]). *)
Record ent : Type := { e_dist : Z; e_val : option E }.
Definition free : ent := {| e_dist := -1; e_val := None |}.
Definition end_ent : ent := {| e_dist := 0; e_val := None |}.

(** The fields, _flat_hash_map.h:867-872; [shift] is that of the hash policy. *)
Record table : Type :=
  { ents : list ent; nsm1 : Z; shift : Z; maxl : Z; num : Z }.

(** sherwood_v3_table(), with Entry::empty_default_table(), _flat_hash_map.h:215-219, 360-362.
    That array is shared by all empty tables; the model gives each its own copy, and the
    invariant says it is never written. *)
Definition tempty : table :=
  {| ents := [free; free; free; end_ent]; nsm1 := 0; shift := 63; maxl := 3; num := 0 |}.

Definition with_ents (t : table) (l : list ent) : table :=
  {| ents := l; nsm1 := nsm1 t; shift := shift t; maxl := maxl t; num := num t |}.
Definition with_num (t : table) (n : Z) : table :=
  {| ents := ents t; nsm1 := nsm1 t; shift := shift t; maxl := maxl t; num := n |}.
(** Writing an entry; outside the array it is undefined. *)
Definition wr (t : table) (i : Z) (e : ent) : res table :=
  if (0 <=? i) && (i <? Z.of_nat (length (ents t)))
  then Ok (with_ents t (lset (ents t) (Z.to_nat i) e)) else OOB.

(** bucket_count, _flat_hash_map.h:832-835 *)
Definition bucket_count (t : table) : Z := if nsm1 t =? 0 then 0 else nsm1 t + 1.

(** The loop of find and of emplace, _flat_hash_map.h:603-607 and 657-662: where the key is,
    or the entry and the distance at which the loop stops *)
Fixpoint probe (fuel : nat) (t : table) (k : K) (i d : Z) : res (Z + Z * Z) :=
  match fuel with
  | O => OutOfFuel
  | S fuel' =>
    let! e := rdz (ents t) i in
    if e_dist e >=? d then
      match e_val e with
      | None => UB
      | Some x => if eqb k (kof x) then Ok (inl i) else probe fuel' t k (i + 1) (d + 1)
      end
    else Ok (inr (i, d))
  end.
Definition home (t : table) (k : K) : Z := index_for_hash (hash k) (shift t).
Definition lookup (t : table) (k : K) : res (Z + Z * Z) :=
  probe (S (length (ents t))) t k (home t k) 0.

(** find, _flat_hash_map.h:599-625: the index of the entry, [None] for end() *)
Definition find (t : table) (k : K) : res (option Z) :=
  let! r := lookup t k in
  match r with inl i => Ok (Some i) | inr _ => Ok None end.
(** *it *)
Definition deref (t : table) (i : Z) : res E :=
  let! e := rdz (ents t) i in match e_val e with Some x => Ok x | None => UB end.

(** The loop of emplace_new_key, _flat_hash_map.h:919-943: [to_insert] and its distance,
    looking at entry [i].  Answers the table and what could not be placed. *)
Fixpoint displace (fuel : nat) (t : table) (i d : Z) (x : E) : res (table * option E) :=
  match fuel with
  | O => OutOfFuel
  | S fuel' =>
    let! e := rdz (ents t) i in
    if e_dist e <? 0 then
      let! t := wr t i {| e_dist := d; e_val := Some x |} in
      Ok (with_num t (num t + 1), None)
    else if e_dist e <? d then
      match e_val e with
      | None => UB
      | Some y =>
          let! t := wr t i {| e_dist := d; e_val := Some x |} in
          displace fuel' t (i + 1) (e_dist e + 1) y
      end
    else
      let d := d + 1 in
      if d =? maxl t then Ok (t, Some x) else displace fuel' t (i + 1) d x
  end.

(** The array of a new table of [nb] buckets, _flat_hash_map.h:712-724 *)
Definition new_table (nb sh ml : Z) : table :=
  {| ents := repeat free (Z.to_nat (nb + ml - 1)) ++ [end_ent];
     nsm1 := nb - 1; shift := sh; maxl := ml; num := 0 |}.

(** The values of the entries [it .. end), _flat_hash_map.h:725-732.  Moving a value out and
    destroying it does not matter any more: the array is thrown away. *)
Definition old_values (t : table) : res (list E) :=
  fold_right (fun e (acc : res (list E)) =>
      let! l := acc in
      if e_dist e >=? 0 then match e_val e with Some x => Ok (x :: l) | None => UB end else Ok l)
    (Ok []) (firstn (Z.to_nat (nsm1 t + maxl t)) (ents t)).

(** rehash, _flat_hash_map.h:701-734, given how to emplace *)
Definition rehash_with (emplace : table -> E -> res (table * (Z * bool))) (t : table) (nb : Z)
  : res table :=
  let! need := twice (num t) in
  let nb := Z.max nb need in
  if nb =? 0 then Ok tempty
  else
    let! (nb, sh) := next_size_over nb in
    if nb =? bucket_count t then Ok t
    else
      let! ml := compute_max_lookups nb in
      if nb + ml >? cap then Exn bad_alloc
      else
        let! vs := old_values t in
        fold_left (fun (acc : res table) x =>
            let! t := acc in let! (t, _) := emplace t x in Ok t)
          vs (Ok (new_table nb sh ml)).

(** emplace, _flat_hash_map.h:652-664, with emplace_new_key, 900-944, grow, 946-949, and
    rehash; [fuel] bounds the nesting of grow.  Answers the table, the index of the entry,
    and whether it is new. *)
Fixpoint emplace (fuel : nat) (t : table) (x : E) : res (table * (Z * bool)) :=
  match fuel with
  | O => OutOfFuel
  | S fuel' =>
    let grow t := rehash_with (emplace fuel') t (Z.max 4 (2 * bucket_count t)) in
    let! r := lookup t (kof x) in
    match r with
    | inl i => Ok (t, (i, false))
    | inr (i, d) =>
        if (nsm1 t =? 0) || (d =? maxl t) || (2 * (num t + 1) >? nsm1 t + 1) then
          let! t := grow t in emplace fuel' t x
        else
          let! e := rdz (ents t) i in
          let! t' := wr t i {| e_dist := d; e_val := Some x |} in
          if e_dist e <? 0 then Ok (with_num t' (num t' + 1), (i, true))
          else
            match e_val e with
            | None => UB
            | Some y =>
                let! (t', rest) := displace (length (ents t')) t' (i + 1) (e_dist e + 1) y in
                match rest with
                | None => Ok (t', (i, true))
                | Some z =>
                    let! e := rdz (ents t') i in
                    let! t' := wr t' i {| e_dist := e_dist e; e_val := Some z |} in
                    let! t' := grow t' in
                    match e_val e with None => UB | Some x => emplace fuel' t' x end
                end
            end
    end
  end.

(** rehash and reserve, _flat_hash_map.h:701-741, 880-883 *)
Definition rehash (fuel : nat) (t : table) (nb : Z) : res table := rehash_with (emplace fuel) t nb.
Definition reserve (fuel : nat) (t : table) (n : Z) : res table :=
  let! nb := twice n in
  if nb >? bucket_count t then rehash fuel t nb else Ok t.

(** The loop of erase, _flat_hash_map.h:752-756: [i] is [current] *)
Fixpoint shift_back (fuel : nat) (t : table) (i : Z) : res table :=
  match fuel with
  | O => OutOfFuel
  | S fuel' =>
    let! e := rdz (ents t) (i + 1) in
    if e_dist e <=? 0 then Ok t
    else
      match e_val e with
      | None => UB
      | Some x =>
          let! t := wr t i {| e_dist := e_dist e - 1; e_val := Some x |} in
          let! t := wr t (i + 1) free in
          shift_back fuel' t (i + 1)
      end
  end.
(** erase(const_iterator), _flat_hash_map.h:747-758 *)
Definition erase_at (t : table) (i : Z) : res table :=
  let! _ := deref t i in
  let! t := wr t i free in
  shift_back (S (length (ents t))) (with_num t (wrapu64 (num t - 1))) i.
(** clear, _flat_hash_map.h:799-807 *)
Definition tclear (t : table) : table :=
  let n := Z.to_nat (nsm1 t + maxl t) in
  with_num (with_ents t
    (map (fun e => if e_dist e >=? 0 then free else e) (firstn n (ents t)) ++ skipn n (ents t))) 0.

(** ** Iteration *)

(** The first entry from [i] on that has a value (the end entry counts as having one),
    _flat_hash_map.h:533-541, 566-573 *)
Fixpoint seek (fuel : nat) (t : table) (i : Z) : res Z :=
  match fuel with
  | O => OutOfFuel
  | S fuel' => let! e := rdz (ents t) i in if e_dist e <? 0 then seek fuel' t (i + 1) else Ok i
  end.
Definition tbegin (t : table) : res Z := seek (S (length (ents t))) t 0.
Definition tnext (t : table) (i : Z) : res Z := seek (S (length (ents t))) t (i + 1).
(** end(), _flat_hash_map.h:586-593 *)
Definition tend (t : table) : Z := nsm1 t + maxl t.
(** for (x : table): all values in order, on a table that does not change *)
Fixpoint walk (fuel : nat) (t : table) (i : Z) : res (list E) :=
  match fuel with
  | O => OutOfFuel
  | S fuel' =>
    if i =? tend t then Ok []
    else
      let! x := deref t i in
      let! j := tnext t i in
      let! l := walk fuel' t j in
      Ok (x :: l)
  end.
Definition items (t : table) : res (list E) :=
  let! i := tbegin t in walk (S (length (ents t))) t i.

(** insert(It begin, It end), _flat_hash_map.h:688-695 *)
Definition insert_all (fuel : nat) (t : table) (l : list E) : res table :=
  fold_left (fun (acc : res table) x =>
      let! t := acc in let! (t, _) := emplace fuel t x in Ok t) l (Ok t).
(** The copy constructor, _flat_hash_map.h:411-429, 884-887 *)
Definition tcopy (fuel : nat) (other : table) : res table :=
  let! nb := twice (num other) in
  let! t := rehash fuel tempty (Z.min nb (bucket_count other)) in
  let! l := items other in
  insert_all fuel t l.
(** The constructors from a range and from an initializer list, _flat_hash_map.h:380-385,
    396-402 *)
Definition of_range (fuel : nat) (l : list E) : res table := insert_all fuel tempty l.
Definition of_initializer_list (fuel : nat) (l : list E) : res table :=
  let! t := rehash fuel tempty (Z.of_nat (length l)) in insert_all fuel t l.

End Table.
Arguments ent : clear implicits.
Arguments table : clear implicits.

(** ** Dict, dict_ref.cc: a flat_hash_map, elements are pairs *)
Section Dict.
Context {K V : Type}.
Variable hash : K -> Z.
Variable eqb : K -> K -> bool.
Variable cap : Z.
Variable fuel : nat.
(** RTValue() is None *)
Variable none : V.

Notation dict := (table (K * V)).

(** Dict::emplace, dict_ref.cc:356-364: whether the pair was inserted *)
Definition dict_emplace (t : dict) (k : K) (v : V) : res (dict * bool) :=
  let! (t, (_, b)) := emplace fst hash eqb cap fuel t (k, v) in Ok (t, b).
(** Dict::set_item, dict_ref.cc:336-339, through operator[], _flat_hash_map.h:1409-1416: the
    stored key stays, only the value is assigned *)
Definition dict_set (t : dict) (k : K) (v : V) : res dict :=
  let! (t, (i, _)) := emplace fst hash eqb cap fuel t (k, none) in
  let! e := rdz (ents t) i in
  match e_val e with
  | None => UB
  | Some (k', _) => wr t i {| e_dist := e_dist e; e_val := Some (k', v) |}
  end.
(** Dict::get_item, dict_ref.cc:257-283: MXCHECK throws *)
Definition dict_get (t : dict) (k : K) : res V :=
  let! r := find fst hash eqb t k in
  match r with
  | None => Exn CheckFailed
  | Some i => let! x := deref t i in Ok (snd x)
  end.
(** Dict::get_default, dict_ref.cc:285-312 *)
Definition dict_get_default (t : dict) (k : K) (d : V) : res V :=
  let! r := find fst hash eqb t k in
  match r with None => Ok d | Some i => let! x := deref t i in Ok (snd x) end.
(** Dict::contains, dict_ref.cc:392-410 *)
Definition dict_contains (t : dict) (k : K) : res bool :=
  let! r := find fst hash eqb t k in Ok (match r with None => false | Some _ => true end).
(** Dict::pop, dict_ref.cc:314-334 *)
Definition dict_pop (t : dict) (k : K) (d : option V) : res (V * dict) :=
  let! r := find fst hash eqb t k in
  match r with
  | None => match d with Some v => Ok (v, t) | None => Exn KeyError end
  | Some i => let! x := deref t i in let! t := erase_at t i in Ok (snd x, t)
  end.
(** Dict::clear, size, reserve, dict_ref.cc:366-381 *)
Definition dict_clear (t : dict) : dict := tclear t.
Definition dict_size (t : dict) : Z := num t.
Definition dict_reserve (t : dict) (n : Z) : res dict :=
  if n >? 0 then reserve fst hash eqb cap fuel t n else Ok t.

(** Dict(first, last), Dict::Init, dict_ref.cc:185-203: reserve, then emplace each *)
Definition dict_init_random (l : list (K * V)) : res dict :=
  let! t := dict_reserve tempty (Z.of_nat (length l)) in
  insert_all fst hash eqb cap fuel t l.
Definition dict_init_forward (l : list (K * V)) : res dict :=
  let! t := dict_reserve tempty 4 in insert_all fst hash eqb cap fuel t l.
(** Dict({...}) and Dict(vector), dict_ref.cc:221-227, dict_private.h:60-62: make_object of a
    range *)
Definition dict_init_list (l : list (K * V)) : res dict := of_range fst hash eqb cap fuel l.
(** dict(d), generic_constructor_funcs.cc:407-416 *)
Definition dict_make (d : dict) : res dict :=
  let! l := items d in insert_all fst hash eqb cap fuel tempty l.

(** The loop of Dict::operator==, dict_ref.cc:241-250 *)
Fixpoint dict_eq_loop (veq : V -> V -> bool) (l : list (K * V)) (rhs : dict) : res bool :=
  match l with
  | [] => Ok true
  | (k, v) :: l' =>
      let! r := find fst hash eqb rhs k in
      match r with
      | None => Ok false
      | Some i =>
          let! x := deref rhs i in
          if veq v (snd x) then dict_eq_loop veq l' rhs else Ok false
      end
  end.
(** Dict::operator==, dict_ref.cc:229-251, of two different nodes *)
Definition dict_eq (veq : V -> V -> bool) (lhs rhs : dict) : res bool :=
  if negb (num lhs =? num rhs) then Ok false
  else if num lhs =? 0 then Ok true
  else let! l := items lhs in dict_eq_loop veq l rhs.
End Dict.

(** ** Set, set_ref.cc: a flat_hash_set, elements are their own keys *)
Section SetOps.
Context {K : Type}.
Variable hash : K -> Z.
Variable eqb : K -> K -> bool.
Variable cap : Z.
Variable fuel : nat.

Notation set := (table K).
Notation id_key := (fun x : K => x).

(** Set::emplace and add, set_ref.cc:162-165, set_ref.h:150-158 *)
Definition set_add (t : set) (x : K) : res set :=
  let! (t, _) := emplace id_key hash eqb cap fuel t x in Ok t.
(** Set::contains, set_ref.cc:193-211 *)
Definition set_contains (t : set) (x : K) : res bool :=
  let! r := find id_key hash eqb t x in Ok (match r with None => false | Some _ => true end).
(** Set::discard, set_ref.cc:213-221 *)
Definition set_discard (t : set) (x : K) : res set :=
  let! r := find id_key hash eqb t x in
  match r with None => Ok t | Some i => erase_at t i end.
(** Set::clear, reserve, set_ref.cc:167-177, set_private.h:104-112 *)
Definition set_clear (t : set) : set := tclear t.
Definition set_reserve (t : set) (n : Z) : res set :=
  if n >? 0 then reserve id_key hash eqb cap fuel t n else Ok t.
(** set(iterable): Kernel_Set::make of an iterator of known length,
    generic_constructor_funcs.cc:477-495 *)
Definition set_make (l : list K) : res set :=
  let! t := set_reserve tempty (Z.of_nat (length l)) in
  fold_left (fun (acc : res set) x => let! t := acc in set_add t x) l (Ok t).

(** An argument of update or difference_update: another iterable, of which only the values
    matter, or the set itself *)
Inductive iterable : Type := Values (l : list K) | Self.

(** difference_update_iter and update_iter, set_ref.cc:223-239, over another container *)
Definition discard_all (t : set) (l : list K) : res set :=
  fold_left (fun (acc : res set) x => let! t := acc in set_discard t x) l (Ok t).
Definition add_all (t : set) (l : list K) : res set :=
  fold_left (fun (acc : res set) x => let! t := acc in set_add t x) l (Ok t).
(** The same over the set itself: SetIteratorNode, set_ref.cc:32-58, holds two positions in
    the table, [last_] being fixed at the start; Next copies the value after moving on.
    Positions stay meaningful as long as the array is not replaced. *)
Fixpoint self_loop (steps : nat) (f : set -> K -> res set) (t : set) (first last : Z) : res set :=
  match steps with
  | O => OutOfFuel
  | S steps' =>
    if first =? last then Ok t
    else
      let! next := tnext t first in
      let! x := deref t first in
      let! t := f t x in
      self_loop steps' f t next last
  end.
Definition self_iter (f : set -> K -> res set) (t : set) : res set :=
  let! i := tbegin t in self_loop (S (length (ents t))) f t i (tend t).

(** Set::update and difference_update, set_ref.cc:241-265 *)
Definition set_update (t : set) (args : list iterable) : res set :=
  fold_left (fun (acc : res set) a =>
      let! t := acc in
      match a with Values l => add_all t l | Self => self_iter set_add t end) args (Ok t).
Definition set_difference_update (t : set) (args : list iterable) : res set :=
  fold_left (fun (acc : res set) a =>
      let! t := acc in
      match a with Values l => discard_all t l | Self => self_iter set_discard t end) args (Ok t).
(** Set::set_union and difference, set_ref.cc:251-271: on a copy, so that the set itself is
    just another container *)
Definition values_of (t : set) (a : iterable) : res (list K) :=
  match a with Values l => Ok l | Self => items t end.
Definition set_union (t : set) (args : list iterable) : res set :=
  let! c := tcopy id_key hash eqb cap fuel t in
  fold_left (fun (acc : res set) a =>
      let! c := acc in let! l := values_of t a in add_all c l) args (Ok c).
Definition set_difference (t : set) (args : list iterable) : res set :=
  let! c := tcopy id_key hash eqb cap fuel t in
  fold_left (fun (acc : res set) a =>
      let! c := acc in let! l := values_of t a in discard_all c l) args (Ok c).

Fixpoint set_eq_loop (l : list K) (rhs : set) : res bool :=
  match l with
  | [] => Ok true
  | x :: l' => let! b := set_contains rhs x in if b then set_eq_loop l' rhs else Ok false
  end.
(** Set::operator==, set_ref.cc:136-156, of two different nodes.  The second iterator only
    moves along. *)
Definition set_eq (lhs rhs : set) : res bool :=
  if negb (num lhs =? num rhs) then Ok false
  else if num lhs =? 0 then Ok true
  else let! l := items lhs in set_eq_loop l rhs.
End SetOps.
