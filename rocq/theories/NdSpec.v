(** Arrays as NumPy describes them: an array is a shape and, in row-major order, the cells of
    memory its elements live in.  Views share cells, copies get new ones. *)
From Verif Require Import Base ListAux.
Local Open Scope Z_scope.

(** Element types and the conversion of a number to them: modulo 2^bits. *)
Inductive dtype : Type := I8 | I16 | I32 | I64 | U8 | U16.
Definition signed (d : dtype) : bool := match d with U8 | U16 => false | _ => true end.
Definition bits (d : dtype) : Z :=
  match d with I8 | U8 => 8 | I16 | U16 => 16 | I32 => 32 | I64 => 64 end.
Definition dtype_eqb (d e : dtype) : bool :=
  match d, e with
  | I8, I8 | I16, I16 | I32, I32 | I64, I64 | U8, U8 | U16, U16 => true
  | _, _ => false
  end.
Definition fits (d : dtype) (x : Z) : bool :=
  if signed d then (- 2 ^ (bits d - 1) <=? x) && (x <? 2 ^ (bits d - 1))
  else (0 <=? x) && (x <? 2 ^ bits d).
Definition cast (d : dtype) (x : Z) : Z :=
  let r := x mod 2 ^ bits d in if fits d r then r else r - 2 ^ bits d.
Definition convert (from to : dtype) (x : Z) : Z := if dtype_eqb from to then x else cast to x.

(** Nested lists of numbers. *)
Inductive tree : Type := Leaf (x : Z) | Node (l : list tree).

(** The operations of a program on numbered variables. *)
Inductive arith : Type := Plus | Minus | Times.
Inductive nop : Type :=
| Make (v : nat) (d : dtype) (l : list tree) (sh : list Z)   (* v = NDArray(l, sh, d) *)
| Fill (v : nat) (d : dtype) (x : Z) (sh : list Z)           (* v = NDArray(x, sh, d) *)
| Import (v : nat) (d : dtype) (sh : list Z) (st : option (list Z)) (off : Z) (data : list Z)
                                        (* v = a DLPack tensor over [data] from element [off] on *)
| Alias (v w : nat)                                          (* v = w *)
| Del (v : nat)                                              (* del v *)
| Item (v w : nat) (i : Z)                                   (* v = w[i] *)
| Items (v w : nat) (is : list Z)                            (* v = w[i, j, ...] *)
| Slice (v w : nat) (b e s : Z)                              (* v = w[b:e:s] *)
| Transpose (v w : nat) (axes : option (list Z))             (* v = w.transpose(axes) *)
| Reshape (v w : nat) (sh : list Z)                          (* v = w.reshape(sh) *)
| Squeeze (v w : nat) (axes : list Z)                        (* v = w.squeeze(axes) *)
| Unsqueeze (v w : nat) (d : Z)                              (* v = w.unsqueeze(d) *)
| Contiguous (v w : nat)                                     (* v = w.contiguous() *)
| AsType (v w : nat) (d : dtype)                             (* v = w.as_type(d) *)
| CopyTo (v w : nat)                                         (* v = w.CopyTo(cpu) *)
| Arith (o : arith) (v w1 w2 : nat)                          (* v = w1 + w2 *)
| ArithNum (o : arith) (v w : nat) (x : Z)                   (* v = w + x *)
| NumMinus (v : nat) (x : Z) (w : nat)                       (* v = x - w *)
| Concat (v : nat) (ws : list nat) (axis : Z)                (* v = concatenate(ws, axis) *)
| Stack (v : nat) (ws : list nat) (axis : Z)                 (* v = stack(ws, axis) *)
| SetNum (v : nat) (is : list Z) (x : Z)                     (* v[i, j, ...] = x *)
| SetArr (v : nat) (is : list Z) (w : nat)                   (* v[i, j, ...] = w *)
| SetList (v : nat) (is : list Z) (l : list tree)            (* v[i, j, ...] = l *)
| SetSlice (v : nat) (b e : Z) (w : nat)                     (* v[b:e] = w *)
| SetSliceList (v : nat) (b e : Z) (l : list tree)           (* v[b:e] = l *)
| ToList (w : nat)                                           (* w.tolist() *)
| ShapeOf (w : nat)                                          (* w.shape() *)
| LenOf (w : nat)                                            (* len(w) *)
| IsEqual (w1 w2 : nat).                                     (* w1 == w2 *)

(** What an operation shows. *)
Inductive obs : Type := ONum (x : Z) | OTrees (l : list tree) | OShape (sh : list Z) | OBool (b : bool).
Inductive result : Type := Done | Raised | Shown (o : obs).

(** An array: its element type, shape, strides in elements (they say only whether it is
    contiguous), its cells (block and position), whether its memory came from a DLPack tensor with
    an offset and whether it is itself a DLPack tensor that came with strides. *)
Notation cell := (nat * Z)%type (only parsing).
Record arr := Arr { a_dt : dtype; a_shape : list Z; a_strides : list Z;
                    a_cells : list (nat * Z); a_offset : bool; a_given : bool }.

Definition zrange (n : Z) : list Z := map Z.of_nat (seq 0 (Z.to_nat n)).
Definition size (sh : list Z) : Z := fold_right Z.mul 1 sh.
Fixpoint row_major (sh : list Z) : list Z :=
  match sh with [] => [] | _ :: sh => size sh :: row_major sh end.
Fixpoint list_eqb (a b : list Z) : bool :=
  match a, b with
  | [], [] => true
  | x :: a, y :: b => (x =? y) && list_eqb a b
  | _, _ => false
  end.
Definition contiguous (a : arr) : bool := list_eqb (a_strides a) (row_major (a_shape a)).
Definition empty (a : arr) : bool := size (a_shape a) =? 0.

(** Dimensions are not negative and, leaving out zeros, multiply to less than 2^63. *)
Definition sizable (sh : list Z) : bool :=
  forallb (fun n => 0 <=? n) sh && (size (map (Z.max 1) sh) <? two63).

(** Multi-indices in row-major order, the position of one, the element at one. *)
Fixpoint indices (sh : list Z) : list (list Z) :=
  match sh with
  | [] => [[]]
  | n :: sh => flat_map (fun i => map (cons i) (indices sh)) (zrange n)
  end.
Fixpoint position (sh idx : list Z) : Z :=
  match sh, idx with
  | _ :: sh, i :: idx => i * size sh + position sh idx
  | _, _ => 0
  end.
Definition at_index {A} (d : A) (sh : list Z) (l : list A) (idx : list Z) : A :=
  nth (Z.to_nat (position sh idx)) l d.

(** The elements of the [i]-th part along the first axis; [n] is the number of elements of a
    part. *)
Definition part {A} (n : Z) (l : list A) (i : Z) : list A :=
  firstn (Z.to_nat n) (skipn (Z.to_nat (i * n)) l).

(** Python's index: from the end if negative, none if out of range. *)
Definition norm (n i : Z) : option Z :=
  let j := if i <? 0 then i + n else i in
  if (0 <=? j) && (j <? n) then Some j else None.
Definition clamp (n i : Z) : Z := if i <? 0 then Z.max 0 (i + n) else Z.min i n.

(** [a[i, j, ...]]: none if an index is out of range or there are too many. *)
Fixpoint pick (sh st : list Z) (l : list cell) (is : list Z) {struct is} : option (list Z * list Z * list cell) :=
  match is with
  | [] => Some (sh, st, l)
  | i :: is =>
    match sh, st with
    | n :: sh, _ :: st =>
      match norm n i with
      | Some j => pick sh st (part (size sh) l j) is
      | None => None
      end
    | _, _ => None
    end
  end.

(** The positions of [b:e:s] on an axis of length [n]. *)
Definition slice_positions (n b e s : Z) : list Z :=
  filter (fun i => (clamp n b <=? i) && (i <? clamp n e) && ((i - clamp n b) mod s =? 0)) (zrange n).

(** Memory: blocks of numbers that are never given up. *)
Notation memory := (list (list Z)) (only parsing).
Definition value (m : memory) (c : cell) : Z := nth (Z.to_nat (snd c)) (nth (fst c) m []) 0.
Definition values (m : memory) (a : arr) : list Z := map (value m) (a_cells a).
Definition put (m : memory) (c : cell) (x : Z) : memory :=
  lset m (fst c) (lset (nth (fst c) m []) (Z.to_nat (snd c)) x).
Fixpoint puts (m : memory) (cs : list cell) (xs : list Z) : memory :=
  match cs, xs with
  | c :: cs, x :: xs => puts (put m c x) cs xs
  | _, _ => m
  end.
Definition fresh (m : memory) (d : dtype) (sh : list Z) : arr :=
  Arr d sh (row_major sh) (map (pair (length m)) (zrange (size sh))) false false.

(** A state: the memory and what the variables hold. *)
Record state := State { mem : list (list Z); vars : list (option arr) }.
Definition holds (s : state) (v : nat) : option arr :=
  match nth_error (vars s) v with Some x => x | None => None end.
Definition free (s : state) (v : nat) : bool :=
  match nth_error (vars s) v with Some None => true | _ => false end.

(** What may happen; [None]: nothing is said about the operation. *)
Inductive outcome : Type :=
| Raise
| Nothing
| Show (o : obs)
| Bind (v : nat) (a : option arr)                  (* the variable holds [a], or nothing any more *)
| New (v : nat) (d : dtype) (sh : list Z) (xs : list Z) (* the variable holds a new array *)
| Adopt (v : nat) (a : arr) (xs : list Z)          (* the variable holds [a], over a new block *)
| Write (cs : list cell) (xs : list Z).
Notation effect := (option (list outcome)) (only parsing).

Definition with_free (s : state) (v : nat) (k : effect) : effect := if free s v then k else None.
Definition with_arr (s : state) (v : nat) (k : arr -> effect) : effect :=
  match holds s v with Some a => k a | None => None end.
Fixpoint with_arrs (s : state) (vs : list nat) (k : list arr -> effect) : effect :=
  match vs with
  | [] => k []
  | v :: vs => with_arr s v (fun a => with_arrs s vs (fun l => k (a :: l)))
  end.
Definition unless (b : bool) (k : effect) : effect := if b then None else k.
Definition raise_if (b : bool) (k : effect) : effect := if b then Some [Raise] else k.

(** A regular nested list without empty lists: its shape and its numbers. *)
Fixpoint leaves (t : tree) : list Z :=
  match t with Leaf x => [x] | Node l => flat_map leaves l end.
Fixpoint has_shape (sh : list Z) (t : tree) : bool :=
  match t, sh with
  | Leaf _, [] => true
  | Node l, n :: sh => (0 <? n) && (Z.of_nat (length l) =? n) && forallb (has_shape sh) l
  | _, _ => false
  end.
Fixpoint first_shape (t : tree) : list Z :=
  match t with
  | Leaf _ => []
  | Node l => Z.of_nat (length l) :: match l with [] => [] | t :: _ => first_shape t end
  end.
Definition shape_of (t : tree) : option (list Z) :=
  if has_shape (first_shape t) t then Some (first_shape t) else None.

(** The nested list of an array of at least one dimension. *)
Fixpoint trees (sh : list Z) (xs : list Z) : list tree :=
  match sh with
  | [] => []
  | n :: sh' =>
    match sh' with
    | [] => map Leaf xs
    | _ => map (fun i => Node (trees sh' (part (size sh') xs i))) (zrange n)
    end
  end.

(** The axes of a transposition; none if they are no permutation. *)
Fixpoint norms (n : Z) (l : list Z) : option (list Z) :=
  match l with
  | [] => Some []
  | x :: l => match norm n x, norms n l with
              | Some y, Some l => Some (y :: l)
              | _, _ => None
              end
  end.
Fixpoint distinct (l : list Z) : bool :=
  match l with
  | [] => true
  | x :: l => negb (existsb (Z.eqb x) l) && distinct l
  end.
Definition permutation (n : Z) (axes : option (list Z)) : option (list Z) :=
  match axes with
  | None => Some (rev (zrange n))
  | Some l =>
    match norms n l with
    | Some p => if (Z.of_nat (length p) =? n) && distinct p then Some p else None
    | None => None
    end
  end.
(** Axis [k] of the result is axis [p_k] of the source: the index in the source for an index of
    the result. *)
Fixpoint find (p idx : list Z) (a : Z) : Z :=
  match p, idx with
  | x :: p, i :: idx => if x =? a then i else find p idx a
  | _, _ => 0
  end.
Definition source_index (p idx : list Z) : list Z :=
  map (find p idx) (zrange (Z.of_nat (length p))).
Definition permute (p l : list Z) : list Z := map (fun a => nth (Z.to_nat a) l 0) p.

(** Broadcasting: shapes aligned at their ends, 1 stretches. *)
Definition pad (n : nat) (sh : list Z) : list Z := repeat 1 (n - length sh) ++ sh.
Fixpoint stretch (a b : list Z) : option (list Z) :=
  match a, b with
  | [], [] => Some []
  | x :: a, y :: b =>
    match stretch a b with
    | Some l => if x =? y then Some (x :: l) else if x =? 1 then Some (y :: l)
                else if y =? 1 then Some (x :: l) else None
    | None => None
    end
  | _, _ => None
  end.
Definition broadcast (a b : list Z) : option (list Z) :=
  stretch (pad (length b) a) (pad (length a) b).
Fixpoint narrow (sh idx : list Z) : list Z :=
  match sh, idx with
  | n :: sh, i :: idx => (if n =? 1 then 0 else i) :: narrow sh idx
  | _, _ => []
  end.
Definition stretched (sh : list Z) (xs : list Z) (idx : list Z) : Z :=
  at_index 0 sh xs (narrow sh (skipn (length idx - length sh) idx)).

(** Arithmetic of an element type.  C computes in int or, for 64 bits, in int64_t, where
    overflow has no meaning; the result is reduced to the element type. *)
Definition compute (d : dtype) (o : arith) (x y : Z) : option Z :=
  let r := match o with Plus => x + y | Minus => x - y | Times => x * y end in
  if fits (match d with I64 => I64 | _ => I32 end) r then Some (cast d r) else None.
Fixpoint all {A} (l : list (option A)) : option (list A) :=
  match l with
  | [] => Some []
  | Some x :: l => match all l with Some r => Some (x :: r) | None => None end
  | None :: _ => None
  end.
Definition promote (a b : dtype) : option dtype :=
  if signed a && signed b then Some (if bits a <? bits b then b else a) else None.

(** Joining arrays, given with their shapes, along axis [k]. *)
Fixpoint cat {A} (k : nat) (l : list (list Z * list A)) : list A :=
  match k with
  | O => flat_map snd l
  | S k =>
    match l with
    | (n :: _, _) :: _ =>
      flat_map (fun i => cat k (map (fun p => (tl (fst p), part (size (tl (fst p))) (snd p) i)) l)) (zrange n)
    | _ => []
    end
  end.
Fixpoint insert (k : nat) (x : Z) (l : list Z) : list Z :=
  match k, l with
  | O, _ => x :: l
  | S k, y :: l => y :: insert k x l
  | S _, [] => [x]
  end.
Fixpoint remove (k : nat) (l : list Z) : list Z :=
  match k, l with
  | _, [] => []
  | O, _ :: l => l
  | S k, y :: l => y :: remove k l
  end.
Definition sum (l : list Z) : Z := fold_right Z.add 0 l.
Definition joined_shape (k : nat) (shs : list (list Z)) : list Z :=
  match shs with
  | [] => []
  | sh :: _ => lset sh k (sum (map (fun s => nth k s 0) shs))
  end.
Definition joinable (k : nat) (shs : list (list Z)) : bool :=
  match shs with
  | [] => false
  | sh :: _ => forallb (fun s => (length s =? length sh)%nat && list_eqb (remove k s) (remove k sh)) shs
  end.

Definition disjoint (a b : list cell) : bool :=
  forallb (fun c => negb (existsb (fun d => (fst c =? fst d)%nat && (snd c =? snd d)) b)) a.

(** A view with another shape: not of an array that is not contiguous.  (Without elements an
    array may or may not count as contiguous; a tensor that came with strides may be refused.) *)
Definition view (a : arr) (v : nat) (sh : list Z) : effect :=
  let b := Bind v (Some (Arr (a_dt a) sh (row_major sh) (a_cells a) (a_offset a) false)) in
  if empty a || a_given a && contiguous a then Some [b; Raise] else if contiguous a then Some [b] else Some [Raise].

(** The shape meant by reshape: at most one dimension is negative and stands for what is left. *)
Definition reshaped (n : Z) (sh : list Z) : option (list Z) :=
  let known := filter (fun d => 0 <=? d) sh in
  match (length sh - length known)%nat with
  | O => if size sh =? n then Some sh else None
  | S O => if size known =? 0 then None
           else Some (map (fun d => if d <? 0 then n / size known else d) sh)
  | _ => None
  end.
(** A shape with an unknown dimension that does not divide; one with dimensions too large. *)
Definition uneven (n : Z) (sh : list Z) : bool :=
  let known := filter (fun d => 0 <=? d) sh in
  existsb (fun d => d <? 0) sh && negb (size known =? 0) && negb (n mod size known =? 0).
Definition oversized (sh : list Z) : bool := negb (sizable (filter (fun d => 0 <=? d) sh)).

(** The elements or parts of [a] at indices, as a new binding or a number shown. *)
Definition selected (m : memory) (v : nat) (a : arr) (is : list Z) : effect :=
  match pick (a_shape a) (a_strides a) (a_cells a) is with
  | None => Some [Raise]
  | Some ([], _, l) => Some [Show (ONum (value m (nth 0 l (0%nat, 0))))]
  | Some (sh, st, l) => Some [Bind v (Some (Arr (a_dt a) sh st l (a_offset a) false))]
  end.

(** Assigning numbers of shape [sh'] to cells of shape [sh]: the shapes must be equal. *)
Definition assigned (sh sh' : list Z) (cs : list cell) (xs : list Z) : effect :=
  if list_eqb sh sh' then Some [Write cs xs] else Some [Raise].

Definition nonempty (sh : list Z) : bool := match sh with [] => false | _ => true end.

Definition meaning (o : nop) (s : state) : effect :=
  let m := mem s in
  match o with
  | Make v d l sh =>
      with_free s v (unless (negb (sizable sh) || negb (sizable (first_shape (Node l))))
      match l, sh with
      | [], [] => Some [Raise]
      | [], _ => None
      | [Leaf x], _ :: _ => Some [New v d sh (repeat (convert I64 d x) (Z.to_nat (size sh)))]
      | _, _ =>
        match shape_of (Node l) with
        | None => Some [Raise]
        | Some sh' =>
          let xs := map (convert I64 d) (flat_map leaves l) in
          if negb (nonempty sh) then Some [New v d sh' xs]
          else if list_eqb sh' sh || list_eqb sh' [size sh] then Some [New v d sh xs]
          else Some [Raise]
        end
      end)
  | Fill v d x sh =>
      with_free s v (unless (negb (sizable sh))
        (raise_if (negb (nonempty sh)) (Some [New v d sh (repeat (convert I64 d x) (Z.to_nat (size sh)))])))
  | Import v d sh st off data =>
      with_free s v
        (let given := match st with Some _ => true | None => false end in
         let st := match st with Some st => st | None => row_major sh end in
         let cs := map (fun idx => (length m, off + sum (map (fun p => fst p * snd p) (combine idx st))))
                       (indices sh) in
         unless (negb (sizable sh) || negb (length st =? length sh)%nat
                 || negb (forallb (fun c => (0 <=? snd c) && (snd c <? Z.of_nat (length data))) cs))
           (Some [Adopt v (Arr d sh st cs (negb (off =? 0)) given) data]))
  | Alias v w => with_free s v (with_arr s w (fun a => Some [Bind v (Some a)]))
  | Del v => with_arr s v (fun _ => Some [Bind v None])
  | Item v w i =>
      with_free s v (with_arr s w (fun a => unless (negb (nonempty (a_shape a))) (selected m v a [i])))
  | Items v w is => with_free s v (with_arr s w (fun a => selected m v a is))
  | Slice v w b e t =>
      with_free s v (with_arr s w (fun a =>
        match a_shape a, a_strides a with
        | n :: sh, d :: st =>
            raise_if (t <=? 0)
              (unless ((two63 <=? n + t) || negb (int64b (d * t)))
                (let ps := slice_positions n b e t in
                 Some [Bind v (Some (Arr (a_dt a) (Z.of_nat (length ps) :: sh) (d * t :: st)
                                         (flat_map (part (size sh) (a_cells a)) ps) (a_offset a) false))]))
        | _, _ => None
        end))
  | Transpose v w axes =>
      with_free s v (with_arr s w (fun a =>
        match permutation (Z.of_nat (length (a_shape a))) axes with
        | None => Some [Raise]
        | Some p =>
            let sh := permute p (a_shape a) in
            Some [Bind v (Some (Arr (a_dt a) sh (permute p (a_strides a))
              (map (fun idx => at_index (0%nat, 0) (a_shape a) (a_cells a) (source_index p idx)) (indices sh))
              (a_offset a) false))]
        end))
  | Reshape v w sh =>
      with_free s v (with_arr s w (fun a =>
        unless (oversized sh || uneven (size (a_shape a)) sh)
          match reshaped (size (a_shape a)) sh with
          | Some sh => view a v sh
          | None => Some [Raise]
          end))
  | Squeeze v w axes =>
      with_free s v (with_arr s w (fun a =>
        let sh := a_shape a in
        match axes with
        | [] => unless (existsb (fun d => 2 ^ 31 <=? d) sh) (view a v (filter (fun d => negb (d =? 1)) sh))
        | _ =>
          unless (existsb (fun x => x <? 0) axes)
            (if distinct axes &&
                forallb (fun x => (x <? Z.of_nat (length sh)) && (nth (Z.to_nat x) sh 0 =? 1)) axes
             then view a v (map (fun k => nth (Z.to_nat k) sh 0)
                               (filter (fun k => negb (existsb (Z.eqb k) axes)) (zrange (Z.of_nat (length sh)))))
             else Some [Raise])
        end))
  | Unsqueeze v w d =>
      with_free s v (with_arr s w (fun a =>
        match norm (Z.of_nat (length (a_shape a)) + 1) d with
        | Some k => view a v (insert (Z.to_nat k) 1 (a_shape a))
        | None => Some [Raise]
        end))
  | Contiguous v w =>
      with_free s v (with_arr s w (fun a =>
        let copy := New v (a_dt a) (a_shape a) (values m a) in
        if empty a then Some [Bind v (Some a); copy]
        else if contiguous a then Some [Bind v (Some a)] else Some [copy]))
  | AsType v w d =>
      with_free s v (with_arr s w (fun a =>
        unless (negb (nonempty (a_shape a)))
          (Some [New v d (a_shape a) (map (convert (a_dt a) d) (values m a))])))
  | CopyTo v w =>
      with_free s v (with_arr s w (fun a =>
        unless (negb (empty a) && negb (contiguous a)) (Some [New v (a_dt a) (a_shape a) (values m a)])))
  | Arith o v w1 w2 =>
      with_free s v (with_arr s w1 (fun a => with_arr s w2 (fun b =>
        match promote (a_dt a) (a_dt b), broadcast (a_shape a) (a_shape b) with
        | Some d, Some sh =>
            unless (negb (sizable sh))
              match all (map (fun idx =>
                  compute d o (convert (a_dt a) d (stretched (a_shape a) (values m a) idx))
                              (convert (a_dt b) d (stretched (a_shape b) (values m b) idx))) (indices sh)) with
              | Some xs => Some [New v d sh xs]
              | None => None
              end
        | _, _ => Some [Raise]
        end)))
  | ArithNum o v w x =>
      with_free s v (with_arr s w (fun a =>
        let d := a_dt a in
        let '(o, x) := match o with Minus => (Plus, - x) | _ => (o, x) end in
        unless (negb (int64b x))
          match all (map (fun y => compute d o y (convert I64 d x)) (values m a)) with
          | Some xs => Some [New v d (a_shape a) xs]
          | None => None
          end))
  | NumMinus v x w =>
      with_free s v (with_arr s w (fun a =>
        let d := a_dt a in
        match all (map (fun y => compute d Minus (convert I64 d x) y) (values m a)) with
        | Some xs => Some [New v d (a_shape a) xs]
        | None => None
        end))
  | Concat v ws axis =>
      with_free s v (with_arrs s ws (fun l =>
        match l with
        | [] => Some [Raise]
        | a :: _ =>
          match norm (Z.of_nat (length (a_shape a))) axis with
          | None => Some [Raise]
          | Some k =>
            let k := Z.to_nat k in
            let shs := map a_shape l in
            raise_if (negb (joinable k shs))
              (unless (negb (sizable (joined_shape k shs)))
                (Some [New v (a_dt a) (joined_shape k shs)
                  (cat k (map (fun b => (a_shape b, map (convert (a_dt b) (a_dt a)) (values m b))) l))]))
          end
        end))
  | Stack v ws axis =>
      with_free s v (with_arrs s ws (fun l =>
        match l with
        | [] => Some [Raise]
        | a :: _ =>
          match norm (Z.of_nat (length (a_shape a)) + 1) axis with
          | None => Some [Raise]
          | Some k =>
            let k := Z.to_nat k in
            let sh := insert k (Z.of_nat (length l)) (a_shape a) in
            raise_if (negb (forallb (fun b => list_eqb (a_shape b) (a_shape a)) l))
              (unless (negb (sizable sh))
                (Some [New v (a_dt a) sh
                  (cat k (map (fun b => (insert k 1 (a_shape b), map (convert (a_dt b) (a_dt a)) (values m b))) l))]))
          end
        end))
  | SetNum v is x =>
      with_arr s v (fun a =>
        raise_if (negb (length is =? length (a_shape a))%nat)
          match pick (a_shape a) (a_strides a) (a_cells a) is with
          | Some (_, _, cs) => Some [Write cs [convert I64 (a_dt a) x]]
          | None => Some [Raise]
          end)
  | SetArr v is w =>
      with_arr s v (fun a => with_arr s w (fun b =>
        unless (length (a_shape a) <? length is)%nat
          match pick (a_shape a) (a_strides a) (a_cells a) is with
          | Some (sh, _, cs) =>
              unless (negb (nonempty sh) && negb (nonempty (a_shape b)) || negb (disjoint cs (a_cells b)))
                (assigned sh (a_shape b) cs (map (convert (a_dt b) (a_dt a)) (values m b)))
          | None => Some [Raise]
          end))
  | SetList v is l =>
      with_arr s v (fun a =>
        unless ((length (a_shape a) <? length is)%nat || negb (sizable (first_shape (Node l))))
          match pick (a_shape a) (a_strides a) (a_cells a) is, shape_of (Node l) with
          | Some (sh, _, cs), Some sh' => assigned sh sh' cs (map (convert I64 (a_dt a)) (flat_map leaves l))
          | _, _ => Some [Raise]
          end)
  | SetSlice v b e w =>
      with_arr s v (fun a => with_arr s w (fun c =>
        match a_shape a with
        | [] => None
        | n :: sh =>
          let ps := slice_positions n b e 1 in
          let cs := flat_map (part (size sh) (a_cells a)) ps in
          match ps with
          | [] => Some [Nothing]
          | _ => unless (negb (disjoint cs (a_cells c)))
                   (assigned (Z.of_nat (length ps) :: sh) (a_shape c) cs
                      (map (convert (a_dt c) (a_dt a)) (values m c)))
          end
        end))
  | SetSliceList v b e l =>
      with_arr s v (fun a =>
        match a_shape a with
        | [] => None
        | n :: sh =>
          let ps := slice_positions n b e 1 in
          let cs := flat_map (part (size sh) (a_cells a)) ps in
          unless (negb (sizable (first_shape (Node l))))
            match ps, shape_of (Node l) with
            | [], _ => Some [Nothing]
            | _, None => Some [Raise]
            | _, Some sh' => assigned (Z.of_nat (length ps) :: sh) sh' cs (map (convert I64 (a_dt a)) (flat_map leaves l))
            end
        end)
  | ToList w =>
      with_arr s w (fun a => unless (negb (nonempty (a_shape a))) (Some [Show (OTrees (trees (a_shape a) (values m a)))]))
  | ShapeOf w => with_arr s w (fun a => Some [Show (OShape (a_shape a))])
  | LenOf w => with_arr s w (fun a => unless (negb (nonempty (a_shape a))) (Some [Show (ONum (hd 0 (a_shape a)))]))
  | IsEqual w1 w2 =>
      with_arr s w1 (fun a => with_arr s w2 (fun b =>
        let r := Show (OBool (dtype_eqb (a_dt a) (a_dt b) && list_eqb (a_shape a) (a_shape b)
                              && list_eqb (values m a) (values m b))) in
        unless (a_offset a || a_offset b)
          (if empty a || empty b || negb (contiguous a) || negb (contiguous b)
           then Some [Raise; r] else Some [r])))
  end.

Definition apply (x : outcome) (s : state) : state * result :=
  let bind v a m := State m (lset (vars s) v a) in
  match x with
  | Raise => (s, Raised)
  | Nothing => (s, Done)
  | Show o => (s, Shown o)
  | Bind v a => (bind v a (mem s), Done)
  | New v d sh xs => (bind v (Some (fresh (mem s) d sh)) (mem s ++ [xs]), Done)
  | Adopt v a xs => (bind v (Some a) (mem s ++ [xs]), Done)
  | Write cs xs => (State (puts (mem s) cs xs) (vars s), Done)
  end.

(** [behaves os s s' rs]: the program may lead from [s] to [s'] with the results [rs]. *)
Inductive behaves : list nop -> state -> state -> list result -> Prop :=
| bh_end s : behaves [] s s []
| bh_step o os s l x s1 r s' rs :
    meaning o s = Some l -> In x l -> apply x s = (s1, r) -> behaves os s1 s' rs ->
    behaves (o :: os) s s' (r :: rs).

(** Something is said about every operation of the program. *)
Fixpoint meaningful (os : list nop) (s : state) : Prop :=
  match os with
  | [] => True
  | o :: os => exists l, meaning o s = Some l /\ forall x, In x l -> meaningful os (fst (apply x s))
  end.

(** At the start the [k] variables hold nothing. *)
Definition start (k : nat) : state := State [] (repeat None k).
