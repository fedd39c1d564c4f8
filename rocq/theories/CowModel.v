(** The copy-on-write array of the IR, down to the slots of its storage and the
    reference counts of everything it points at.

    Files: include/matxscript/ir/_base/cow_array_ref.h (ArrayNode 52-279, Array 298-872,
    Concat 880-887), include/matxscript/runtime/object.h (ObjectPtr 341-489, IncRef and
    DecRef 849-886), include/matxscript/runtime/container/inplace_array_base.h 73-154.

    Simplifications.  Element types: every reference is an [ObjectRef], so the type
    checks of the template parameters are not modelled; [Map] is modelled for U = T.
    Objects other than arrays are leaves holding an integer.  Freed cells are never
    reused, so a stale reference is always noticed ([OOB]).  Capacities do not overflow
    int64_t.  One thread. *)
From Verif Require Import Base ListAux.

(** object.h:341, 465: an [ObjectPtr] is a pointer to an object or nullptr. *)
Notation ref := (option nat).

(** One element of an array's storage: memory holding no [ObjectRef] (never constructed
    or already destroyed), or a constructed [ObjectRef]. *)
Inductive slot := Raw | Obj (r : ref).

(** cow_array_ref.h:258-262 ([size_], [capacity_] = length of the slots) and the header
    every object has: its reference count. *)
Inductive cell :=
| Leaf (rc : Z) (z : Z)
| Arr (rc : Z) (size : nat) (slots : list slot).

(** The objects ever allocated; [None] once freed. *)
Definition heap := list (option cell).

Definition lookup (h : heap) (a : nat) : option cell :=
  match nth_error h a with Some (Some c) => Some c | _ => None end.
Definition store (h : heap) (a : nat) (c : cell) : heap := lset h a (Some c).
Definition alloc (h : heap) (c : cell) : nat * heap := (length h, h ++ [Some c]).

Definition cell_rc (c : cell) : Z := match c with Leaf rc _ => rc | Arr rc _ _ => rc end.
Definition set_rc (c : cell) (rc : Z) : cell :=
  match c with Leaf _ z => Leaf rc z | Arr _ n s => Arr rc n s end.

(** object.h:849-851 [IncRef]; the copy constructor of [ObjectPtr], 353 and 470-474. *)
Definition incref (h : heap) (r : ref) : res heap :=
  match r with
  | None => Ok h
  | Some a => match lookup h a with
              | Some c => Ok (store h a (set_rc c (cell_rc c + 1)))
              | None => OOB
              end
  end.

(** inplace_array_base.h:101-109: the destructor of an array destroys the first [size_]
    elements.  What is in a slot that holds no object is not a reference. *)
Definition children (c : cell) : res (list ref) :=
  match c with
  | Leaf _ _ => Ok []
  | Arr _ n s =>
      (fix go (n : nat) (s : list slot) : res (list ref) :=
         match n, s with
         | O, _ => Ok []
         | S n', Obj r :: s' => let! l := go n' s' in Ok (r :: l)
         | S _, _ => OOB
         end) n s
  end.

(** object.h:432-437 [reset], 853-864 [DecRef] and the deleter: a list of references to
    drop, in order.  An object whose count is 1 is destroyed, which drops its elements
    first.  (The object is marked freed before its elements are dropped, the code frees
    it after; nothing can refer to it in between.) *)
Fixpoint release (fuel : nat) (todo : list ref) (h : heap) : res heap :=
  match fuel with
  | O => OutOfFuel
  | S fuel' =>
      match todo with
      | [] => Ok h
      | None :: t => release fuel' t h
      | Some a :: t =>
          match lookup h a with
          | None => OOB
          | Some c =>
              if cell_rc c =? 1 then
                let! l := children c in
                release fuel' (l ++ t) (lset h a None)
              else release fuel' t (store h a (set_rc c (cell_rc c - 1)))
          end
      end
  end.

(** Enough fuel: every live element is dropped at most once. *)
Definition weight (o : option cell) : nat :=
  match o with Some (Arr _ n _) => n | _ => O end.
Definition heap_weight (h : heap) : nat := fold_right (fun o k => (weight o + k)%nat) O h.
Definition decref (h : heap) (r : ref) : res heap := release (2 + heap_weight h) [r] h.
Fixpoint decrefs (h : heap) (l : list ref) : res heap :=
  match l with
  | [] => Ok h
  | r :: l' => let! h := decref h r in decrefs h l'
  end.
Fixpoint increfs (h : heap) (l : list ref) : res heap :=
  match l with
  | [] => Ok h
  | r :: l' => let! h := incref h r in increfs h l'
  end.

(** The storage of the array at [a]. *)
Definition arr_of (h : heap) (a : nat) : res (Z * nat * list slot) :=
  match lookup h a with Some (Arr rc n s) => Ok (rc, n, s) | _ => OOB end.
Definition size_of (h : heap) (a : nat) : res nat :=
  let! (_, n, _) := arr_of h a in Ok n.
Definition cap_of (h : heap) (a : nat) : res nat :=
  let! (_, _, s) := arr_of h a in Ok (length s).
Definition set_size (h : heap) (a n : nat) : res heap :=
  let! (rc, _, s) := arr_of h a in Ok (store h a (Arr rc n s)).

(** Reading [begin()[i]]. *)
Definition get_slot (h : heap) (a i : nat) : res ref :=
  let! (_, _, s) := arr_of h a in
  let! x := rd s i in
  match x with Obj r => Ok r | Raw => OOB end.
(** [new (begin() + i) ObjectRef(std::move(r))]: construction on top of a live non-null
    reference would lose that reference, and counts as an error here. *)
Definition place (h : heap) (a i : nat) (r : ref) : res heap :=
  let! (rc, n, s) := arr_of h a in
  let! x := rd s i in
  match x with
  | Raw | Obj None => Ok (store h a (Arr rc n (lset s i (Obj r))))
  | Obj (Some _) => OOB
  end.
(** [std::move(begin()[i])]: object.h:368-370, the source becomes nullptr. *)
Definition move_out (h : heap) (a i : nat) : res (ref * heap) :=
  let! (rc, n, s) := arr_of h a in
  let! x := rd s i in
  match x with
  | Obj r => Ok (r, store h a (Arr rc n (lset s i (Obj None))))
  | Raw => OOB
  end.
(** [begin()[i] = std::move(r)]: object.h:426-430, the old content is dropped. *)
Definition assign_slot (h : heap) (a i : nat) (r : ref) : res heap :=
  let! (rc, n, s) := arr_of h a in
  let! x := rd s i in
  match x with
  | Obj old => decref (store h a (Arr rc n (lset s i (Obj r)))) old
  | Raw => OOB
  end.
(** [(begin() + i)->~ObjectRef()] *)
Definition destroy_slot (h : heap) (a i : nat) : res heap :=
  let! (rc, n, s) := arr_of h a in
  let! x := rd s i in
  match x with
  | Obj r => decref (store h a (Arr rc n (lset s i Raw))) r
  | Raw => OOB
  end.

(** cow_array_ref.h:171-177 [Empty]: the new array has count 1. *)
Definition empty_node (h : heap) (cap : Z) : res (nat * heap) :=
  if cap <? 0 then Exn CheckFailed
  else Ok (alloc h (Arr 1 0 (repeat Raw (Z.to_nat cap)))).

(** cow_array_ref.h:105-107: the loop of [CopyFrom]. *)
Fixpoint copy_loop (h : heap) (src dst i k : nat) : res heap :=
  match k with
  | O => Ok h
  | S k' =>
      let! r := get_slot h src i in
      let! h := incref h r in
      let! h := place h dst i r in
      let! h := set_size h dst (S i) in
      copy_loop h src dst (S i) k'
  end.
(** cow_array_ref.h:98-109 *)
Definition copy_from (h : heap) (cap : Z) (src : nat) : res (nat * heap) :=
  let! n := size_of h src in
  if cap <? Z.of_nat n then Exn ValueError else
  let! (p, h) := empty_node h cap in
  let! h := copy_loop h src p O n in
  Ok (p, h).
(** cow_array_ref.h:124-126: the loop of [MoveFrom]. *)
Fixpoint move_loop (h : heap) (src dst i k : nat) : res heap :=
  match k with
  | O => Ok h
  | S k' =>
      let! (r, h) := move_out h src i in
      let! h := place h dst i r in
      let! h := set_size h dst (S i) in
      move_loop h src dst (S i) k'
  end.
(** cow_array_ref.h:117-129 *)
Definition move_from (h : heap) (cap : Z) (src : nat) : res (nat * heap) :=
  let! n := size_of h src in
  if cap <? Z.of_nat n then Exn ValueError else
  let! (p, h) := empty_node h cap in
  let! h := move_loop h src p O n in
  let! h := set_size h src O in
  Ok (p, h).
(** cow_array_ref.h:140-142 *)
Fixpoint repeat_loop (h : heap) (dst : nat) (v : ref) (i k : nat) : res heap :=
  match k with
  | O => Ok h
  | S k' =>
      let! h := incref h v in
      let! h := place h dst i v in
      let! h := set_size h dst (S i) in
      repeat_loop h dst v (S i) k'
  end.
(** cow_array_ref.h:137-144 *)
Definition create_repeated (h : heap) (n : Z) (v : ref) : res (nat * heap) :=
  let! (p, h) := empty_node h n in
  let! h := repeat_loop h p v O (Z.to_nat n) in
  Ok (p, h).

(** cow_array_ref.h:188-195 [InitRange] from a list of references to copy. *)
Fixpoint init_range (h : heap) (a i : nat) (l : list ref) : res heap :=
  match l with
  | [] => Ok h
  | r :: l' =>
      let! h := incref h r in
      let! h := place h a i r in
      init_range h a (S i) l'
  end.
(** cow_array_ref.h:204-211 [MoveElementsLeft]: [k] elements from [src] to [dst]. *)
Fixpoint move_left (h : heap) (a dst src k : nat) : res heap :=
  match k with
  | O => Ok h
  | S k' =>
      let! (r, h) := move_out h a src in
      let! h := assign_slot h a dst r in
      move_left h a (S dst) (S src) k'
  end.
(** cow_array_ref.h:220-227 [MoveElementsRight]: [k] elements from [src] to [dst], last first. *)
Fixpoint move_right (h : heap) (a dst src k : nat) : res heap :=
  match k with
  | O => Ok h
  | S k' =>
      let! (r, h) := move_out h a (src + k') in
      let! h := assign_slot h a (dst + k') r in
      move_right h a dst src k'
  end.
(** cow_array_ref.h:235-242 [EnlargeBy] with the default value nullptr. *)
Fixpoint enlarge (h : heap) (a k : nat) : res heap :=
  match k with
  | O => Ok h
  | S k' =>
      let! n := size_of h a in
      let! h := place h a n None in
      let! h := set_size h a (S n) in
      enlarge h a k'
  end.
(** cow_array_ref.h:249-256 [ShrinkBy] *)
Fixpoint shrink (h : heap) (a k : nat) : res heap :=
  match k with
  | O => Ok h
  | S k' =>
      let! n := size_of h a in
      match n with
      | O => OOB
      | S n' =>
          let! h := destroy_slot h a n' in
          let! h := set_size h a n' in
          shrink h a k'
      end
  end.

(** object.h:443-445 [unique] *)
Definition unique (h : heap) (a : nat) : res bool :=
  match lookup h a with Some c => Ok (cell_rc c =? 1) | None => OOB end.

(** The functions below take [data_] and return the new [data_].
    cow_array_ref.h:753-762 [SwitchContainer]; the assignment drops the old array. *)
Definition switch_container (h : heap) (data : ref) (cap : Z) : res (nat * heap) :=
  match data with
  | None => empty_node h cap
  | Some a =>
      let! u := unique h a in
      let! (p, h) := (if u then move_from h cap a else copy_from h cap a) in
      let! h := decref h (Some a) in
      Ok (p, h)
  end.
(** cow_array_ref.h:265, 268 *)
Definition init_size : Z := 4.
Definition inc_factor : Z := 2.
(** cow_array_ref.h:715-723 [CopyOnWrite] *)
Definition cow (h : heap) (data : ref) : res (nat * heap) :=
  match data with
  | None => switch_container h data init_size
  | Some a =>
      let! u := unique h a in
      if negb u then
        let! c := cap_of h a in switch_container h data (Z.of_nat c)
      else Ok (a, h)
  end.
(** cow_array_ref.h:734-747 [CopyOnWrite(reserve_extra)] *)
Definition cow_extra (h : heap) (data : ref) (extra : nat) : res (nat * heap) :=
  match data with
  | None => switch_container h data (Z.max init_size (Z.of_nat extra))
  | Some a =>
      let! n := size_of h a in
      let! c := cap_of h a in
      if Z.of_nat c >=? Z.of_nat n + Z.of_nat extra then cow h data
      else switch_container h data
             (Z.max (Z.of_nat c * inc_factor) (Z.of_nat n + Z.of_nat extra))
  end.

(** What the caller's variables hold. *)
Record st := mkst { hp : heap; vars : list ref }.

(** What the callback given to [Map] does with an element, and the kind of element it can
    tell apart: it may look at a leaf's integer, not at identities. *)
Inductive kind := KNull | KLeaf (z : Z) | KArr.
Inductive action := Keep | Use (y : nat) | Fresh (z : Z) | Throw.

Inductive op :=
| New (x : nat) (z : Z)                 (* x = a new leaf object *)
| NewArr (x : nat)                      (* x = Array() *)
| Repeat (x : nat) (n : Z) (y : nat)    (* x = Array(n, y) *)
| Copy (x y : nat)                      (* x = y *)
| Move (x y : nat)                      (* x = std::move(y) *)
| Drop (x : nat)                        (* x = nullptr *)
| Push (x y : nat)                      (* x.push_back(y) *)
| Insert (x : nat) (i : nat) (y : nat)  (* x.insert(x.begin() + i, y) *)
| InsertRange (x : nat) (i : nat) (ys : list nat)
| Pop (x : nat)
| Erase (x : nat) (i : Z)
| EraseRange (x : nat) (i j : Z)
| Resize (x : nat) (n : Z)
| Reserve (x : nat) (n : Z)
| Clear (x : nat)
| Set_ (x : nat) (i : Z) (y : nat)      (* x.Set(i, y) *)
| Assign (x : nat) (ys : list nat)      (* x.Assign over a vector holding the ys *)
| Get (x y : nat) (i : Z)               (* x = y[i] *)
| Front (x y : nat)
| Back (x y : nat)
| Size (x : nat)
| Map (x y : nat) (f : kind -> action)  (* x = y.Map(f) *)
| Mutate (x : nat) (f : kind -> action) (* x.MutateByApply(f) *)
| Concat (x y z : nat).                 (* x = Concat(y, z) *)

(** What a call gives back. *)
Inductive obs := Done | Answer (n : Z) | Raised (e : exn).

(** [x = std::move(r)] for a variable: object.h:426-430. *)
Definition set_var (h : heap) (vs : list ref) (x : nat) (r : ref) : res st :=
  let! old := rd vs x in
  let! h := decref h old in
  Ok (mkst h (lset vs x r)).
Definition var_arr (h : heap) (vs : list ref) (x : nat) : res ref :=
  let! r := rd vs x in
  match r with
  | None => Ok None
  | Some a => match lookup h a with
              | Some (Arr _ _ _) => Ok r
              | Some (Leaf _ _) => Exn TypeError
              | None => OOB
              end
  end.
(** Reading the variables named by [ys]. *)
Fixpoint rds (vs : list ref) (ys : list nat) : res (list ref) :=
  match ys with
  | [] => Ok []
  | y :: ys' => let! r := rd vs y in let! l := rds vs ys' in Ok (r :: l)
  end.

(** cow_array_ref.h:500-503 [push_back]: the argument is a reference to the variable [y],
    read after the array has been made unique. *)
Definition push_back (h : heap) (data : ref) (item : nat -> res ref) : res (nat * heap) :=
  let! (p, h) := cow_extra h data 1 in
  let! n := size_of h p in
  let! h := set_size h p (S n) in
  let! r := item p in
  let! h := incref h r in
  let! h := place h p n r in
  Ok (p, h).

(** The value of the variable [y] while the array of [x] is at [p]. *)
Definition item_of (vs : list ref) (x y p : nat) : res ref := rd (lset vs x (Some p)) y.

(** Calling the callback on a reference the caller owns: the result is owned, the argument
    is dropped. *)
Definition kind_of (h : heap) (r : ref) : res kind :=
  match r with
  | None => Ok KNull
  | Some a => match lookup h a with
              | Some (Leaf _ z) => Ok (KLeaf z)
              | Some (Arr _ _ _) => Ok KArr
              | None => OOB
              end
  end.
Definition call (h : heap) (vs : list ref) (f : kind -> action) (arg : ref)
  : res (option ref * heap) :=
  let! k := kind_of h arg in
  match f k with
  | Keep => let! h := incref h arg in
            let! h := decref h arg in Ok (Some arg, h)
  | Use y => let! r := rd vs y in
             let! h := incref h r in
             let! h := decref h arg in Ok (Some r, h)
  | Fresh z => let (p, h) := alloc h (Leaf 1 z) in
               let! h := decref h arg in Ok (Some (Some p), h)
  | Throw => let! h := decref h arg in Ok (None, h)
  end.

(** cow_array_ref.h:801-804: the in-place loop of [MapHelper]; [false] if the callback threw. *)
Fixpoint mutate_loop (h : heap) (vs : list ref) (f : kind -> action) (a i k : nat)
  : res (bool * heap) :=
  match k with
  | O => Ok (true, h)
  | S k' =>
      let! (r, h) := move_out h a i in
      let! (m, h) := call h vs f r in
      match m with
      | None => Ok (false, h)
      | Some r' => let! h := assign_slot h a i r' in mutate_loop h vs f a (S i) k'
      end
  end.
(** ObjectRef::same_as *)
Definition same_as (r s : ref) : bool :=
  match r, s with
  | None, None => true
  | Some a, Some b => Nat.eqb a b
  | _, _ => false
  end.
(** cow_array_ref.h:821-836: up to the first element that changes. *)
Fixpoint scan_loop (h : heap) (vs : list ref) (f : kind -> action) (a i k : nat)
  : res (option (nat * option ref) * heap) :=
  match k with
  | O => Ok (None, h)
  | S k' =>
      let! r := get_slot h a i in
      let! h := incref h r in
      let! (m, h) := call h vs f r in
      match m with
      | None => Ok (Some (i, None), h)
      | Some r' =>
          let! r := get_slot h a i in
          if same_as r' r then
            let! h := decref h r' in scan_loop h vs f a (S i) k'
          else Ok (Some (i, Some r'), h)
      end
  end.
(** cow_array_ref.h:865-868 *)
Fixpoint map_loop (h : heap) (vs : list ref) (f : kind -> action) (a out i k : nat)
  : res (bool * heap) :=
  match k with
  | O => Ok (true, h)
  | S k' =>
      let! r := get_slot h a i in
      let! h := incref h r in
      let! (m, h) := call h vs f r in
      match m with
      | None => Ok (false, h)
      | Some r' => let! h := assign_slot h out i r' in map_loop h vs f a out (S i) k'
      end
  end.
(** cow_array_ref.h:831, 188-195: [InitRange] over the elements of another array. *)
Fixpoint init_from (h : heap) (dst src i k : nat) : res heap :=
  match k with
  | O => Ok h
  | S k' =>
      let! r := get_slot h src i in
      let! h := incref h r in
      let! h := place h dst i r in
      init_from h dst src (S i) k'
  end.
(** cow_array_ref.h:788-871 [MapHelper]; [data] is owned and either returned or dropped. *)
Definition map_helper (h : heap) (vs : list ref) (data : ref) (f : kind -> action)
  : res (option ref * heap) :=
  match data with
  | None => Ok (Some None, h)
  | Some a =>
      let! n := size_of h a in
      let! u := unique h a in
      if u then
        let! (b, h) := mutate_loop h vs f a O n in
        if b : bool then Ok (Some data, h)
        else let! h := decref h data in Ok (None, h)
      else
        let! (s, h) := scan_loop h vs f a O n in
        match s with
        | None => Ok (Some data, h)
        | Some (_, None) => let! h := decref h data in Ok (None, h)
        | Some (i, Some r) =>
            let! (out, h) := create_repeated h (Z.of_nat n) None in
            let! h := init_from h out a O i in
            let! h := assign_slot h out i r in
            let! (b, h) := map_loop h vs f a out (S i) (n - S i) in
            if b : bool then let! h := decref h data in Ok (Some (Some out), h)
            else
              let! h := decref h (Some out) in
              let! h := decref h data in Ok (None, h)
        end
  end.

(** cow_array_ref.h:882-887: the loop of [Concat]; [src] is what the iterators of [rhs]
    point into, each element is copied out before it is pushed. *)
Fixpoint concat_loop (h : heap) (lhs : ref) (src i k : nat) : res (ref * heap) :=
  match k with
  | O => Ok (lhs, h)
  | S k' =>
      let! r := get_slot h src i in
      let! h := incref h r in
      let! (p, h) := push_back h lhs (fun _ => Ok r) in
      let! h := decref h r in
      concat_loop h (Some p) src (S i) k'
  end.

(** cow_array_ref.h:702-704: the loop of [Assign]. *)
Fixpoint assign_loop (h : heap) (a i : nat) (l : list ref) : res heap :=
  match l with
  | [] => Ok h
  | r :: l' =>
      let! h := incref h r in
      let! h := place h a i r in
      let! h := set_size h a (S i) in
      assign_loop h a (S i) l'
  end.

Definition done (s : st) : res (st * obs) := Ok (s, Done).
(** An exception thrown before anything was changed. *)
Definition throw (s : st) (e : exn) : res (st * obs) := Ok (s, Raised e).

(** One call of the API, in the order of [op]. *)
Definition exec (s : st) (o : op) : res (st * obs) :=
  let h := hp s in
  let vs := vars s in
  match o with
  | New x z =>
      let (p, h) := alloc h (Leaf 1 z) in
      let! s := set_var h vs x (Some p) in done s
  | NewArr x =>                                            (* 327-329 *)
      let! (p, h) := empty_node h init_size in
      let! s := set_var h vs x (Some p) in done s
  | Repeat x n y =>                                        (* 388-390 *)
      let! v := rd vs y in
      let! (p, h) := create_repeated h n v in
      let! s := set_var h vs x (Some p) in done s
  | Copy x y =>                                            (* 407-410 *)
      let! r := rd vs y in
      let! h := incref h r in
      let! s := set_var h vs x r in done s
  | Move x y =>                                            (* 397-400 *)
      let! r := rd vs y in
      let! s := set_var h (lset vs y None) x r in done s
  | Drop x => let! s := set_var h vs x None in done s
  | Push x y =>
      let! d := var_arr h vs x in
      let! (p, h) := push_back h d (item_of vs x y) in
      done (mkst h (lset vs x (Some p)))
  | Insert x i y =>                                        (* 510-519 *)
      let! d := var_arr h vs x in
      match d with
      | None => throw s ValueError
      | Some a =>
          let! n := size_of h a in
          if (n <? i)%nat then OOB else
          let! (p, h) := cow_extra h d 1 in
          let! h := enlarge h p 1 in
          let! h := move_right h p (i + 1) i (n - i) in
          let! r := item_of vs x y p in
          let! h := incref h r in
          let! h := place h p i r in
          done (mkst h (lset vs x (Some p)))
      end
  | InsertRange x i ys =>                                  (* 528-542 *)
      let! l := rds vs ys in
      let! d := var_arr h vs x in
      match l with
      | [] => done s
      | _ =>
        match d with
        | None => throw s ValueError
        | Some a =>
          let! n := size_of h a in
          if (n <? i)%nat then OOB else
          let! h := increfs h l in            (* the caller's vector *)
          let! (p, h) := cow_extra h d (length l) in
          let! h := enlarge h p (length l) in
          let! h := move_right h p (i + length l) i (n - i) in
          let! h := init_range h p i l in
          let! h := decrefs h l in
          done (mkst h (lset vs x (Some p)))
        end
      end
  | Pop x =>                                               (* 545-550 *)
      let! d := var_arr h vs x in
      match d with
      | None => throw s ValueError
      | Some a =>
          let! n := size_of h a in
          match n with
          | O => throw s ValueError
          | S _ =>
              let! (p, h) := cow h d in
              let! h := shrink h p 1 in
              done (mkst h (lset vs x (Some p)))
          end
      end
  | Erase x i =>                                           (* 556-565 *)
      let! d := var_arr h vs x in
      match d with
      | None => throw s ValueError
      | Some a =>
          let! n := size_of h a in
          if (0 <=? i) && (i <? Z.of_nat n) then
            let! (p, h) := cow h d in
            let st := Z.to_nat i in
            let! h := move_left h p st (st + 1) (n - (st + 1)) in
            let! h := shrink h p 1 in
            done (mkst h (lset vs x (Some p)))
          else throw s ValueError
      end
  | EraseRange x i j =>                                    (* 572-587 *)
      let! d := var_arr h vs x in
      if i =? j then done s else
      match d with
      | None => throw s ValueError
      | Some a =>
          let! n := size_of h a in
          if negb (i <? j) then throw s ValueError else
          if (0 <=? i) && (i <=? Z.of_nat n) && (0 <=? j) && (j <=? Z.of_nat n) then
            let! (p, h) := cow h d in
            let! h := move_left h p (Z.to_nat i) (Z.to_nat j) (n - Z.to_nat j) in
            let! h := shrink h p (Z.to_nat j - Z.to_nat i) in
            done (mkst h (lset vs x (Some p)))
          else throw s ValueError
      end
  | Resize x n =>                                          (* 593-605 *)
      let! d := var_arr h vs x in
      if n <? 0 then throw s ValueError else
      match d with
      | None =>
          let! (p, h) := switch_container h d n in
          done (mkst h (lset vs x (Some p)))
      | Some a =>
          let! m := size_of h a in
          if Z.of_nat m <? n then
            let! (p, h) := cow_extra h d (Z.to_nat n - m) in
            let! h := enlarge h p (Z.to_nat n - m) in
            done (mkst h (lset vs x (Some p)))
          else if Z.of_nat m >? n then
            let! (p, h) := cow h d in
            let! h := shrink h p (m - Z.to_nat n) in
            done (mkst h (lset vs x (Some p)))
          else done s
      end
  | Reserve x n =>                                         (* 611-615 *)
      let! d := var_arr h vs x in
      match d with
      | None =>
          let! (p, h) := switch_container h d n in
          done (mkst h (lset vs x (Some p)))
      | Some a =>
          let! c := cap_of h a in
          if n >? Z.of_nat c then
            let! (p, h) := switch_container h d n in
            done (mkst h (lset vs x (Some p)))
          else done s
      end
  | Clear x =>                                             (* 618-623 *)
      let! d := var_arr h vs x in
      match d with
      | None => done s
      | Some _ =>
          let! (p, h) := cow h d in
          let! n := size_of h p in
          let! h := shrink h p n in
          done (mkst h (lset vs x (Some p)))
      end
  | Set_ x i y =>                                          (* 633-638: [value] is a copy *)
      let! v := rd vs y in
      let! d := var_arr h vs x in
      let! h := incref h v in
      let! (p, h) := cow h d in
      let! n := size_of h p in
      if (0 <=? i) && (i <? Z.of_nat n) then
        let! h := assign_slot h p (Z.to_nat i) v in
        done (mkst h (lset vs x (Some p)))
      else
        let! h := decref h v in
        Ok (mkst h (lset vs x (Some p)), Raised IndexError)
  | Assign x ys =>                                         (* 688-705 *)
      let! l := rds vs ys in
      let! d := var_arr h vs x in
      let! h := increfs h l in                 (* the caller's vector *)
      let! u := match d with None => Ok false | Some a =>
                  let! u := unique h a in
                  let! c := cap_of h a in
                  Ok (u && (length l <=? c)%nat) end in
      let! (p, h) := match d with
                     | Some a =>
                         if u then
                           let! n := size_of h a in
                           let! h := shrink h a n in Ok (a, h)
                         else
                           let! (p, h) := empty_node h (Z.of_nat (length l)) in
                           let! h := decref h d in Ok (p, h)
                     | None => empty_node h (Z.of_nat (length l))
                     end in
      let! h := set_size h p O in
      let! h := assign_loop h p O l in
      let! h := decrefs h l in
      done (mkst h (lset vs x (Some p)))
  | Get x y i =>                                           (* 452-458 *)
      let! d := var_arr h vs y in
      match d with
      | None => throw s ValueError
      | Some a =>
          let! n := size_of h a in
          if (0 <=? i) && (i <? Z.of_nat n) then
            let! r := get_slot h a (Z.to_nat i) in
            let! h := incref h r in
            let! s := set_var h vs x r in done s
          else throw s IndexError
      end
  | Front x y =>                                           (* 478-483 *)
      let! d := var_arr h vs y in
      match d with
      | None => throw s ValueError
      | Some a =>
          let! n := size_of h a in
          match n with
          | O => throw s IndexError
          | S _ =>
              let! r := get_slot h a O in
              let! h := incref h r in
              let! s := set_var h vs x r in done s
          end
      end
  | Back x y =>                                            (* 486-491 *)
      let! d := var_arr h vs y in
      match d with
      | None => throw s ValueError
      | Some a =>
          let! n := size_of h a in
          match n with
          | O => throw s IndexError
          | S m =>
              let! r := get_slot h a m in
              let! h := incref h r in
              let! s := set_var h vs x r in done s
          end
      end
  | Size x =>                                              (* 461-464 *)
      let! d := var_arr h vs x in
      match d with
      | None => Ok (s, Answer 0)
      | Some a => let! n := size_of h a in Ok (s, Answer (Z.of_nat n))
      end
  | Map x y f =>                                           (* 666-668: a copy of data_ *)
      let! d := var_arr h vs y in
      let! h := incref h d in
      let! (r, h) := map_helper h vs d f in
      match r with
      | Some r => let! s := set_var h vs x r in done s
      | None => Ok (mkst h vs, Raised (UserError 0))
      end
  | Mutate x f =>                                          (* 677-679: data_ moved away *)
      let! d := var_arr h vs x in
      let! (r, h) := map_helper h (lset vs x None) d f in
      match r with
      | Some r => done (mkst h (lset vs x r))
      | None => Ok (mkst h (lset vs x None), Raised (UserError 0))
      end
  | Concat x y z =>
      let! d := var_arr h vs y in
      let! e := var_arr h vs z in
      let! h := incref h d in
      match e with
      | None => OOB        (* 429, 74: end() reads size_ through nullptr *)
      | Some b =>
          let! n := size_of h b in
          let! (r, h) := concat_loop h d b O n in
          let! s := set_var h vs x r in done s
      end
  end.

(** The exceptions thrown inside a call before anything was changed. *)
Definition step (s : st) (o : op) : res (st * obs) :=
  match exec s o with
  | Exn e => Ok (s, Raised e)
  | r => r
  end.

(** A history of calls and the answers they gave. *)
Fixpoint run (s : st) (l : list op) : res (st * list obs) :=
  match l with
  | [] => Ok (s, [])
  | o :: l' =>
      let! (s, b) := step s o in
      let! (s, bs) := run s l' in
      Ok (s, b :: bs)
  end.

(** [n] variables, all null. *)
Definition start (n : nat) : st := mkst [] (repeat None n).
