(** NDArray: containers with a data pointer, a shape and strides over blocks of memory.

    Files: src/runtime/container/ndarray.cc, ndarray_helper.cc, ndarray_operator.cc,
    include/matxscript/runtime/container/ndarray_private.h, list_helper.h, container_slice_helper.h,
    src/runtime/generic/generic_constructor_funcs.cc, generic_funcs.cc.

    A pointer is a block and a position in elements; a byte offset is counted in elements too.
    Memory of the device is a list of blocks that are not reused; a cell is [None] before it is
    written.  Reading or writing outside a block, in a released block or through nullptr,
    reading a cell never written, reading shape or strides past their end and signed overflow of
    element arithmetic are UB.  Modelled: element types int8, int16, int32, int64, uint8, uint16
    on the CPU.  Not modelled: float16, float32, float64, bool, other devices and streams,
    failing allocation, threads.  Pointer arithmetic is exact; int64_t arithmetic on strides and
    size_t arithmetic on sizes wraps. *)
From Verif Require Import Base ListAux NdSpec.
Local Open Scope Z_scope.

(** manager_ctx and the deleter: DefaultDeleter without and with manager_ctx, DLPackDeleter,
    ndarray.cc:421-446 *)
Inductive owner : Type := Own | View (p : nat) | Ext.

(** NDArray::Container, ndarray_private.h:33-140: ref_counter_, dl_tensor.data,
    dl_tensor.byte_offset, shape_, strides_, whether dl_tensor.strides is set, dl_tensor.dtype. *)
Record cont := Cont { c_rc : nat; c_data : option (nat * Z); c_off : Z;
                      c_shape : list Z; c_strides : list Z; c_dl : bool; c_dt : dtype;
                      c_owner : owner }.
Notation blocks := (list (option (list (option Z)))) (only parsing).
Record heap := Heap { conts : list (option cont); blks : list (option (list (option Z))) }.

(** data + k on element pointers *)
Definition padd (p : option (nat * Z)) (k : Z) : option (nat * Z) :=
  match p with Some (b, o) => Some (b, o + k) | None => None end.

(** *p *)
Definition load (m : blocks) (p : option (nat * Z)) : res Z :=
  match p with
  | Some (b, o) =>
    match nth_error m b with
    | Some (Some l) => let! x := rdz l o in match x with Some z => Ok z | None => UB end
    | _ => UB
    end
  | None => UB
  end.
(** *p = x *)
Definition store (m : blocks) (p : option (nat * Z)) (x : Z) : res (list (option (list (option Z)))) :=
  match p with
  | Some (b, o) =>
    match nth_error m b with
    | Some (Some l) =>
        if (0 <=? o) && (o <? Z.of_nat (length l))
        then Ok (lset m b (Some (lset l (Z.to_nat o) (Some x)))) else UB
    | _ => UB
    end
  | None => UB
  end.

(** for (int64_t i = 0; i < n; ++i), over the list of its values *)
Fixpoint for_each {A S} (l : list A) (f : A -> S -> res S) (s : S) : res S :=
  match l with
  | [] => Ok s
  | i :: l => let! s := f i s in for_each l f s
  end.
(** The same loop pushing back one value each time. *)
Fixpoint collect {A} (l : list Z) (f : Z -> res A) : res (list A) :=
  match l with
  | [] => Ok []
  | i :: l => let! x := f i in let! r := collect l f in Ok (x :: r)
  end.

(** Conversion between integer types in C++: none for the same type, else modulo 2^bits. *)
Definition conv (from to : dtype) (x : Z) : Z :=
  if dtype_eqb from to then x
  else if signed to then (x + 2 ^ (bits to - 1)) mod 2 ^ bits to - 2 ^ (bits to - 1)
  else x mod 2 ^ bits to.

(** index_correction, slice_index_correction, container_slice_helper.h:27-34 *)
Definition index_correction (index len : Z) : Z := if index <? 0 then index + len else index.
Definition slice_index_correction (slice len : Z) : Z :=
  if slice <? 0 then (if slice <? - len then 0 else slice + len)
  else if len <? slice then len else slice.

(** GetDataSize, ndarray.cc:137-144, in elements: size_t *)
Definition data_size (sh : list Z) : Z := fold_left (fun s n => wrapu64 (s * n)) sh 1.
(** NDArrayHelper::GetItemNum, ndarray_helper.cc:203-209 *)
Definition item_num (sh : list Z) : Z := fold_left (fun s n => wraps64 (s * n)) sh 1.

(** IsContiguous(shape, strides, ndim), ndarray.cc:146-158: from the last dimension to the
    first; returns the stride expected next, or nothing.  Takes the lists reversed. *)
Fixpoint is_contig_from (expected : Z) (rsh rst : list Z) : bool :=
  match rsh, rst with
  | n :: rsh, s :: rst => if s =? expected then is_contig_from (wraps64 (expected * n)) rsh rst else false
  | _, _ => true
  end.
Definition is_contig (sh st : list Z) : bool := is_contig_from 1 (rev sh) (rev st).
(** IsContiguous(arr), NDArray::IsContiguous, ndarray.cc:160-165, 235-237 *)
Definition is_contiguous (c : cont) : bool :=
  if c_dl c then is_contig (c_shape c) (c_strides c) else true.

(** NDArray::GenStridesFromShape, ndarray.cc:765-777 *)
Fixpoint gen_strides (sh : list Z) : list Z :=
  match sh with
  | [] => []
  | [_] => [1]
  | _ :: (n :: _) as sh' =>
    match gen_strides sh' with
    | s :: st => wraps64 (s * n) :: s :: st
    | [] => []
    end
  end.

(** static_cast<char*>(data) + byte_offset *)
Definition raw (c : cont) : option (nat * Z) := padd (c_data c) (c_off c).

(** A container of the heap, dangling handles are UB. *)
Definition hget (h : heap) (i : nat) : res cont :=
  match nth_error (conts h) i with Some (Some c) => Ok c | _ => UB end.
Definition set_rc (c : cont) (n : nat) : cont :=
  Cont n (c_data c) (c_off c) (c_shape c) (c_strides c) (c_dl c) (c_dt c) (c_owner c).
(** Object::IncRef *)
Definition incref (h : heap) (i : nat) : res heap :=
  let! c := hget h i in Ok (Heap (lset (conts h) i (Some (set_rc c (c_rc c + 1)))) (blks h)).

(** DeviceAPI::Free: a second time is UB. *)
Definition free_block (m : blocks) (p : option (nat * Z)) : res (list (option (list (option Z)))) :=
  match p with
  | Some (b, _) => match nth_error m b with Some (Some _) => Ok (lset m b None) | _ => UB end
  | None => Ok m
  end.
(** Object::DecRef and the deleters, ndarray.cc:421-446: the last handle releases the memory, or
    the handle on the array viewed. *)
Fixpoint release (fuel : nat) (h : heap) (i : nat) : res heap :=
  match fuel with
  | O => OutOfFuel
  | S fuel =>
    let! c := hget h i in
    match c_rc c with
    | O => UB
    | S (S n) => Ok (Heap (lset (conts h) i (Some (set_rc c (S n)))) (blks h))
    | S O =>
      let h' := Heap (lset (conts h) i None) (blks h) in
      match c_owner c with
      | View p => release fuel h' p
      | _ => let! m := free_block (blks h) (c_data c) in Ok (Heap (conts h') m)
      end
    end
  end.

(** A new container with one handle on it. *)
Definition add_cont (h : heap) (c : cont) : heap * nat := (Heap (conts h ++ [Some c]) (blks h), length (conts h)).
(** A container that views container [p]: IncRef and manager_ctx. *)
Definition add_view (h : heap) (p : nat) (c : cont) : res (heap * nat) :=
  let! h := incref h p in Ok (add_cont h c).

(** NDArray::Empty, ndarray.cc:779-788: memory with indeterminate content *)
Definition empty_array (h : heap) (sh : list Z) (d : dtype) : heap * cont :=
  (Heap (conts h) (blks h ++ [Some (repeat None (Z.to_nat (data_size sh)))]),
   Cont 1 (Some (length (blks h), 0)) 0 sh (gen_strides sh) false d Own).

(** NDArray::CreateView, ndarray.cc:721-737 *)
Definition create_view (h : heap) (p : nat) (c : cont) (sh : list Z) : res (heap * nat) :=
  if c_dl c then Exn CheckFailed
  else if data_size (c_shape c) <? data_size sh then Exn CheckFailed
  else add_view h p (Cont 1 (c_data c) (c_off c) sh (gen_strides sh) false (c_dt c) (View p)).

(** What get_item returns: an array or an element. *)
Inductive item : Type := IArr (h : heap) (i : nat) | INum (x : Z).

(** NDArray::get_item(int64_t), ndarray.cc:900-929, Internal::Create with pointers 476-507 *)
Definition get_item (h : heap) (p : nat) (index : Z) : res item :=
  let! c := hget h p in
  match c_shape c with
  | [] => UB
  | n :: sh =>
    let idx := index_correction index n in
    if negb ((0 <=? idx) && (idx <? n)) then Exn CheckFailed
    else match c_strides c with
    | [] => UB
    | s :: st =>
      match sh with
      | [] => rmap INum (load (blks h) (padd (raw c) (idx * s)))
      | _ =>
        let! (h, i) := add_view h p (Cont 1 (padd (c_data c) (s * idx)) (c_off c) sh st
                                          (negb (is_contig sh st)) (c_dt c) (View p)) in
        Ok (IArr h i)
      end
    end
  end.

(** The loop of fused_get_item and fused_set_item over the indexes, ndarray.cc:1024-1031,
    1330-1336, 1389-1395: reads shape[i] for each. *)
Fixpoint descend (sh st : list Z) (p : option (nat * Z)) (is : list Z) {struct is} : res (list Z * list Z * option (nat * Z)) :=
  match is with
  | [] => Ok (sh, st, p)
  | i :: is =>
    match sh, st with
    | n :: sh, s :: st =>
      let index := index_correction i n in
      if negb ((0 <=? index) && (index <? n)) then Exn CheckFailed
      else descend sh st (padd p (s * index)) is
    | _, _ => UB
    end
  end.

(** NDArray::fused_get_item, ndarray.cc:1018-1052 *)
Definition fused_get_item (h : heap) (p : nat) (is : list Z) : res item :=
  let! c := hget h p in
  if (length (c_shape c) <? length is)%nat then Exn CheckFailed
  else
    let! (sh, st, q) := descend (c_shape c) (c_strides c) (raw c) is in
    if (length (c_shape c) =? length is)%nat then rmap INum (load (blks h) q)
    else
      let! (h, i) := add_view h p (Cont 1 q 0 sh st (negb (is_contig sh st)) (c_dt c) (View p)) in
      Ok (IArr h i).

(** NDArray::get_slice, ndarray.cc:1417-1446; Internal::Create with vectors 446-474: the array
    without elements owns nothing and counts as contiguous. *)
Definition get_slice (h : heap) (p : nat) (b e step : Z) : res (heap * nat) :=
  if step <=? 0 then Exn CheckFailed
  else
    let! c := hget h p in
    match c_shape c with
    | [] => UB
    | n :: sh =>
      let b := slice_index_correction b n in
      let e := slice_index_correction e n in
      if e <=? b then
        Ok (add_cont h (Cont 1 None 0 (0 :: sh) (c_strides c) false (c_dt c) Own))
      else
        match c_strides c with
        | [] => UB
        | s :: st =>
          let shape := Z.quot (wraps64 (e - b + step - 1)) step :: sh in
          let strides := wraps64 (s * step) :: st in
          add_view h p (Cont 1 (padd (c_data c) (s * b)) (c_off c) shape strides
                             (negb (is_contig shape strides)) (c_dt c) (View p))
        end
    end.

(** NDArray::transpose, ndarray.cc:1476-1531 *)
Fixpoint correct_axes (ndim : Z) (l : list Z) : res (list Z) :=
  match l with
  | [] => Ok []
  | e :: l =>
    let axis := index_correction e ndim in
    if (0 <=? axis) && (axis <? ndim) then let! r := correct_axes ndim l in Ok (axis :: r)
    else Exn CheckFailed
  end.
(** unordered_set(permutation).size(): how many different values there are *)
Fixpoint count_distinct (l : list Z) : Z :=
  match l with
  | [] => 0
  | x :: l => if existsb (Z.eqb x) l then count_distinct l else 1 + count_distinct l
  end.
(** Shape(permutation[i]), Strides(permutation[i]) *)
Fixpoint gather (l p : list Z) : res (list Z) :=
  match p with
  | [] => Ok []
  | a :: p => let! x := rdz l a in let! r := gather l p in Ok (x :: r)
  end.
Definition transpose (h : heap) (p : nat) (axes : option (list Z)) : res (heap * nat) :=
  let! c := hget h p in
  let ndim := Z.of_nat (length (c_shape c)) in
  let! perm := match axes with
    | None => Ok (map (fun i => ndim - 1 - i) (zrange ndim))
    | Some l => if Z.of_nat (length l) =? ndim then correct_axes ndim l else Exn CheckFailed
    end in
  if negb (count_distinct perm =? ndim) then Exn CheckFailed
  else
    let! shape := gather (c_shape c) perm in
    let! strides := gather (c_strides c) perm in
    add_view h p (Cont 1 (c_data c) (c_off c) shape strides (negb (is_contig shape strides)) (c_dt c) (View p)).

(** NDArray::Reshape, ndarray.cc:565-598: the loop over the new shape: given_size, the position
    of the unknown dimension, has_zero *)
Fixpoint scan_shape (i : Z) (sh : list Z) (given newaxis : Z) (zero : bool) : res (Z * Z * bool) :=
  match sh with
  | [] => Ok (given, newaxis, zero)
  | n :: sh =>
    if n <? 0 then
      if newaxis =? -1 then scan_shape (i + 1) sh given i zero else Exn CheckFailed
    else scan_shape (i + 1) sh (wrapu64 (given * n)) newaxis (zero || (n =? 0))
  end.
Definition reshape (h : heap) (p : nat) (sh : list Z) : res (heap * nat) :=
  let! c := hget h p in
  if negb (is_contiguous c) then Exn CheckFailed
  else
    let curr := data_size (c_shape c) in
    let! (given, newaxis, zero) := scan_shape 0 sh 1 (-1) false in
    if (newaxis =? -1) && negb (given =? curr) then Exn CheckFailed
    else if zero && negb (newaxis =? -1) then Exn CheckFailed
    else if newaxis =? -1 then create_view h p c sh
    else create_view h p c (lset sh (Z.to_nat newaxis) (curr / given)).

(** NDArray::Squeeze, ndarray.cc:645-678.  int e : curr_shape keeps 32 bits; the axes are
    sorted first *)
Definition to_int (n : Z) : Z := (n + 2 ^ 31) mod 2 ^ 32 - 2 ^ 31.
Fixpoint insert_sorted (x : Z) (l : list Z) : list Z :=
  match l with
  | [] => [x]
  | y :: l' => if x <=? y then x :: l else y :: insert_sorted x l'
  end.
Definition sort_axes (l : list Z) : list Z := fold_right insert_sorted [] l.
Fixpoint squeeze_axes (i : Z) (sh axes : list Z) : res (list Z) :=
  match sh, axes with
  | n :: sh', a :: axes' =>
    if i =? a then if n =? 1 then squeeze_axes (i + 1) sh' axes' else Exn CheckFailed
    else let! r := squeeze_axes (i + 1) sh' axes in Ok (n :: r)
  | [], _ :: _ => Exn CheckFailed
  | _, [] => Ok sh
  end.
Definition squeeze (h : heap) (p : nat) (axes : list Z) : res (heap * nat) :=
  let! c := hget h p in
  match axes with
  | [] => reshape h p (filter (fun e => negb (e =? 1)) (map to_int (c_shape c)))
  | _ => let! sh := squeeze_axes 0 (c_shape c) (sort_axes axes) in reshape h p sh
  end.

(** NDArray::Unsqueeze, ndarray.cc:702-715 *)
Definition unsqueeze (h : heap) (p : nat) (dim : Z) : res (heap * nat) :=
  let! c := hget h p in
  let nd := Z.of_nat (length (c_shape c)) in
  if negb ((0 - nd - 1 <=? dim) && (dim <? nd + 1)) then Exn CheckFailed
  else
    let dim := if dim <? 0 then dim + nd + 1 else dim in
    reshape h p (firstn (Z.to_nat dim) (c_shape c) ++ 1 :: skipn (Z.to_nat dim) (c_shape c)).

(** Assign over strides, ndarray.cc:1114-1136, ndarray_helper.cc:37-58 *)
Fixpoint assign (from to : dtype) (pd ps : option (nat * Z)) (dst src sh : list Z) (m : blocks)
  : res (list (option (list (option Z)))) :=
  match sh with
  | [] => UB
  | n :: sh' =>
    match dst, src with
    | d :: dst', s :: src' =>
      match sh' with
      | [] => for_each (zrange n) (fun i m =>
                let! x := load m (padd ps (i * s)) in store m (padd pd (i * d)) (conv from to x)) m
      | _ => for_each (zrange n) (fun i m =>
                assign from to (padd pd (i * d)) (padd ps (i * s)) dst' src' sh' m) m
      end
    | _, _ => UB
    end
  end.
(** memcpy of [n] elements: overlapping regions are UB.  A copy of bytes may copy cells never
    written. *)
Definition overlap (p q : option (nat * Z)) (n : Z) : bool :=
  match p, q with
  | Some (b, o), Some (b', o') => (b =? b')%nat && (o <? o' + n) && (o' <? o + n)
  | _, _ => false
  end.
Definition copy_elements (from to : dtype) (pd ps : option (nat * Z)) (n : Z) (m : blocks)
  : res (list (option (list (option Z)))) :=
  for_each (zrange n) (fun i m =>
    let! x := load m (padd ps i) in store m (padd pd i) (conv from to x)) m.
(** Assign(dst, src, element_num), ndarray.cc:1138-1149 *)
Definition assign_flat (from to : dtype) (pd ps : option (nat * Z)) (n : Z) (m : blocks)
  : res (list (option (list (option Z)))) :=
  if dtype_eqb from to && (0 <? n) && overlap pd ps n then UB else copy_elements from to pd ps n m.

(** shape[0] * strides[0] *)
Definition first_product (sh st : list Z) : res Z :=
  match sh, st with n :: _, s :: _ => Ok (n * s) | _, _ => UB end.

(** NDArray::AssignNDArray, ndarray.cc:1575-1599 *)
Definition assign_nd (src dst : cont) (m : blocks) : res (list (option (list (option Z)))) :=
  if is_contiguous src && is_contiguous dst then
    let! n := first_product (c_shape src) (c_strides src) in
    assign_flat (c_dt src) (c_dt dst) (raw dst) (raw src) n m
  else assign (c_dt src) (c_dt dst) (raw dst) (raw src) (c_strides dst) (c_strides src) (c_shape src) m.

(** An array made by NDArray::Empty whose memory is filled by [f]. *)
Definition filled (h : heap) (sh : list Z) (d : dtype)
  (f : cont -> list (option (list (option Z))) -> res (list (option (list (option Z))))) : res (heap * nat) :=
  let (h, c) := empty_array h sh d in
  let! m := f c (blks h) in
  Ok (add_cont (Heap (conts h) m) c).

(** NDArray::Contiguous, ndarray.cc:1601-1615 *)
Definition to_contiguous (h : heap) (p : nat) : res (heap * nat) :=
  let! c := hget h p in
  if is_contiguous c then let! h := incref h p in Ok (h, p)
  else filled h (c_shape c) (c_dt c) (fun r m => assign_nd c r m).

(** NDArray::as_type, ndarray.cc:1533-1564 *)
Definition as_type (h : heap) (p : nat) (d : dtype) : res (heap * nat) :=
  let! c := hget h p in
  filled h (c_shape c) d (fun r m =>
    if is_contiguous c then
      let! n := first_product (c_shape c) (c_strides c) in
      assign_flat (c_dt c) d (raw r) (raw c) n m
    else assign (c_dt c) d (raw r) (raw c) (c_strides r) (c_strides c) (c_shape r) m).

(** NDArray::CopyTo(device), CopyFromTo, ndarray.cc:261-268, 816-846: the bytes as they lie *)
Definition copy_to (h : heap) (p : nat) : res (heap * nat) :=
  let! c := hget h p in
  filled h (c_shape c) (c_dt c) (fun r m =>
    copy_elements (c_dt c) (c_dt c) (raw r) (raw c) (data_size (c_shape c)) m).

(** AddOP, SubOP, MulOP, ndarray_operator.cc:9-35 on values converted to DType: C++ computes in
    int or int64_t, overflow is UB, and converts the result to DType. *)
Definition int_of (d : dtype) : dtype := match d with I64 => I64 | _ => I32 end.
Definition map_op (d : dtype) (o : arith) (x y : Z) : res Z :=
  let r := match o with Plus => x + y | Minus => x - y | Times => x * y end in
  if fits (int_of d) r then Ok (conv (int_of d) d r) else UB.

(** ScalarAssign, ndarray_operator.cc:51-75, with a number for the right operand; [rev] for
    RSubOP *)
Definition num_op (d : dtype) (o : arith) (rev : bool) (from : dtype) (x y : Z) : res Z :=
  if rev then map_op d o (conv I64 d y) (conv from d x) else map_op d o (conv from d x) (conv I64 d y).
Fixpoint scalar_assign (f : Z -> res Z) (pd pl : option (nat * Z)) (dst lst sh : list Z) (m : blocks)
  : res (list (option (list (option Z)))) :=
  match sh with
  | [] => UB
  | n :: sh' =>
    match dst, lst with
    | d :: dst', s :: lst' =>
      match sh' with
      | [] => for_each (zrange n) (fun i m =>
                let! x := load m (padd pl (i * s)) in let! r := f x in store m (padd pd (i * d)) r) m
      | _ => for_each (zrange n) (fun i m =>
                scalar_assign f (padd pd (i * d)) (padd pl (i * s)) dst' lst' sh' m) m
      end
    | _, _ => UB
    end
  end.
(** BinaryAssign, ndarray_operator.cc:77-103 *)
Fixpoint binary_assign (f : Z -> Z -> res Z) (pd pl pr : option (nat * Z)) (dst lst rst sh : list Z) (m : blocks)
  : res (list (option (list (option Z)))) :=
  match sh with
  | [] => UB
  | n :: sh' =>
    match dst, lst, rst with
    | d :: dst', s :: lst', t :: rst' =>
      match sh' with
      | [] => for_each (zrange n) (fun i m =>
                let! x := load m (padd pl (i * s)) in let! y := load m (padd pr (i * t)) in
                let! r := f x y in store m (padd pd (i * d)) r) m
      | _ => for_each (zrange n) (fun i m =>
                binary_assign f (padd pd (i * d)) (padd pl (i * s)) (padd pr (i * t)) dst' lst' rst' sh' m) m
      end
    | _, _, _ => UB
    end
  end.

(** NDArrayHelper::GetBroadcastShape, ndarray_helper.cc:118-149: on reversed shapes *)
Fixpoint broadcast_rev (a b : list Z) : option (list Z) :=
  match a, b with
  | x :: a, y :: b =>
    match (if x =? y then Some x else if x =? 1 then Some y else if y =? 1 then Some x else None) with
    | Some z => match broadcast_rev a b with Some l => Some (z :: l) | None => None end
    | None => None
    end
  | [], l => Some l
  | l, [] => Some l
  end.
Definition broadcast_shape (a b : list Z) : option (list Z) :=
  match broadcast_rev (rev a) (rev b) with Some l => Some (rev l) | None => None end.
(** broadcast_stride, ndarray_operator.cc:105-120 *)
Definition broadcast_stride (bsh sh st : list Z) : list Z :=
  repeat 0 (length bsh - length sh) ++ map (fun p => if 1 <? fst p then snd p else 0) (combine sh st).

(** NDArrayHelper::DTypePromotion, ndarray_helper.cc:169-185, integer types *)
Definition dtype_promotion (a b : dtype) : res dtype :=
  if signed a && signed b then Ok (if bits a <? bits b then b else a) else Exn RuntimeError.

(** IsSameShape, ndarray_helper.cc:151-167 *)
Definition same_shape (a b : list Z) : bool := list_eqb a b.

(** NDArrayOperate::Add, Sub, Mul of arrays, ndarray_operator.cc:207-214, 237-244, 300-307;
    contiguous_binary_nd 170-188, broadcast_binary_nd 124-153 *)
Definition binary (h : heap) (o : arith) (p q : nat) : res (heap * nat) :=
  let! l := hget h p in
  let! r := hget h q in
  let! d := dtype_promotion (c_dt l) (c_dt r) in
  let f x y := map_op d o (conv (c_dt l) d x) (conv (c_dt r) d y) in
  if same_shape (c_shape l) (c_shape r) && is_contiguous l && is_contiguous r then
    filled h (c_shape l) d (fun t m =>
      for_each (zrange (item_num (c_shape t))) (fun i m =>
        let! x := load m (padd (raw l) i) in let! y := load m (padd (raw r) i) in
        let! z := f x y in store m (padd (raw t) i) z) m)
  else
    match broadcast_shape (c_shape l) (c_shape r) with
    | None => Exn RuntimeError
    | Some sh =>
      filled h sh d (fun t m =>
        binary_assign f (raw t) (raw l) (raw r) (c_strides t)
          (broadcast_stride sh (c_shape l) (c_strides l)) (broadcast_stride sh (c_shape r) (c_strides r)) sh m)
    end.

(** NDArrayOperate::Add, Mul with an int64_t, Sub(int64_t, NDArray), ndarray_operator.cc:216-224,
    246-254, 309-317; contiguous_binary_scalar 190-204, broadcast_binary_scalar 155-168 *)
Definition with_number (h : heap) (o : arith) (rev : bool) (p : nat) (x : Z) : res (heap * nat) :=
  let! l := hget h p in
  let d := c_dt l in
  let f y := num_op d o rev d y x in
  filled h (c_shape l) d (fun t m =>
    if is_contiguous l then
      for_each (zrange (item_num (c_shape t))) (fun i m =>
        let! y := load m (padd (raw l) i) in let! z := f y in store m (padd (raw t) i) z) m
    else scalar_assign f (raw t) (raw l) (c_strides t) (c_strides l) (c_shape t) m).
(** kernel_nd_module_add, sub, mul with a number on the right, generic_funcs.cc:648-757:
    a - x is a + (-x) *)
Definition arith_num (h : heap) (o : arith) (p : nat) (x : Z) : res (heap * nat) :=
  match o with
  | Minus => let! y := chk64 (- x) in with_number h Plus false p y
  | _ => with_number h o false p x
  end.

(** The arrays of a list of handles. *)
Fixpoint hgets (h : heap) (ps : list nat) : res (list cont) :=
  match ps with
  | [] => Ok []
  | p :: ps => let! c := hget h p in let! l := hgets h ps in Ok (c :: l)
  end.

(** NDArrayOperate::Concatenate, ndarray_helper.cc:231-303: the loops over the dimensions and
    arrays; idim counts from [i].  Sums of dimensions are exact (no wrap at 2^63). *)
Fixpoint add_shape (i axis : Z) (shape arr_shape : list Z) : res (list Z) :=
  match shape, arr_shape with
  | [], _ => Ok []
  | n :: shape, k :: arr_shape =>
    if i =? axis then let! r := add_shape (i + 1) axis shape arr_shape in Ok (n + k :: r)
    else if n =? k then let! r := add_shape (i + 1) axis shape arr_shape in Ok (n :: r)
    else Exn CheckFailed
  | _ :: _, [] => UB
  end.
Fixpoint add_shapes (axis : Z) (shape : list Z) (l : list cont) : res (list Z) :=
  match l with
  | [] => Ok shape
  | c :: l =>
    if negb (length (c_shape c) =? length shape)%nat then Exn CheckFailed
    else let! shape := add_shape 0 axis shape (c_shape c) in add_shapes axis shape l
  end.
(** The sliding view: its own container, not counted here since it lives only in this function;
    its byte offset moves on. *)
Fixpoint slide (axis : nat) (view : cont) (l : list cont) (m : blocks) : res (list (option (list (option Z)))) :=
  match l with
  | [] => Ok m
  | c :: l =>
    let! n := rd (c_shape c) axis in
    let view := Cont 1 (c_data view) (c_off view) (lset (c_shape view) axis n) (c_strides view) true
                     (c_dt view) (c_owner view) in
    let! m := assign_nd c view m in
    let! s := rd (c_strides view) axis in
    slide axis (Cont 1 (c_data view) (c_off view + n * s) (c_shape view) (c_strides view) true
                     (c_dt view) (c_owner view)) l m
  end.
Definition concatenate (h : heap) (ps : list nat) (axis : Z) : res (heap * nat) :=
  let! l := hgets h ps in
  match l with
  | [] => Exn RuntimeError
  | a :: rest =>
    let ndim := Z.of_nat (length (c_shape a)) in
    if ndim =? 0 then Exn RuntimeError
    else
      let axis := index_correction axis ndim in
      if (axis <? 0) || (ndim <=? axis) then Exn TypeError
      else
        let! shape := add_shapes axis (c_shape a) rest in
        filled h shape (c_dt a) (fun r m => slide (Z.to_nat axis) r l m)
  end.

(** NDArrayOperate::Stack, ndarray_helper.cc:305-386 *)
Fixpoint stack_fill (axis : Z) (i : Z) (r : cont) (axis_stride : Z) (shrink arg_shape : list Z) (num : Z)
  (l : list cont) (m : blocks) : res (list (option (list (option Z)))) :=
  match l with
  | [] => Ok m
  | c :: l =>
    let target := padd (raw r) (i * axis_stride) in
    let! m :=
      if is_contiguous c && (axis =? 0) then assign_flat (c_dt c) (c_dt r) target (raw c) num m
      else assign (c_dt c) (c_dt r) target (raw c) shrink (c_strides c) arg_shape m in
    stack_fill axis (i + 1) r axis_stride shrink arg_shape num l m
  end.
Definition stack (h : heap) (ps : list nat) (axis : Z) : res (heap * nat) :=
  let! l := hgets h ps in
  match l with
  | [] => Exn RuntimeError
  | a :: _ =>
    if negb (forallb (fun c => same_shape (c_shape a) (c_shape c)) l) then Exn RuntimeError
    else
      let ndim := Z.of_nat (length (c_shape a)) + 1 in
      let axis := index_correction axis ndim in
      if (axis <? 0) || (ndim <=? axis) then Exn TypeError
      else
        let k := Z.to_nat axis in
        let shape := firstn k (c_shape a) ++ Z.of_nat (length l) :: skipn k (c_shape a) in
        filled h shape (c_dt a) (fun r m =>
          let! s := rd (c_strides r) k in
          stack_fill axis 0 r s (firstn k (c_strides r) ++ skipn (S k) (c_strides r)) (c_shape a)
            (item_num (c_shape a)) l m)
  end.

(** ListHelper::FirstShape, list_helper.cc:55-67 *)
Fixpoint first_dims (t : tree) : option (list Z) :=
  match t with
  | Leaf _ => Some []
  | Node [] => None
  | Node (t :: l) =>
    match first_dims t with
    | Some sh => Some (Z.of_nat (S (length l)) :: sh)
    | None => None
    end
  end.
(** ListHelper::IsNDArrayImpl, list_helper.h:72-104: whether it returned true, and the values
    pushed back by then.  shape[depth] is the head of the remaining shape. *)
Fixpoint flatten (d : dtype) (sh : list Z) (t : tree) : bool * list Z :=
  match t with
  | Leaf x => match sh with [] => (true, [conv I64 d x]) | _ => (false, []) end
  | Node l =>
    match l, sh with
    | [], _ => (false, [])
    | _, [] => (false, [])
    | _, n :: sh =>
      if negb (Z.of_nat (length l) =? n) then (false, [])
      else (fix go (l : list tree) : bool * list Z :=
              match l with
              | [] => (true, [])
              | t :: l =>
                let (ok, xs) := flatten d sh t in
                if ok then let (ok, ys) := go l in (ok, xs ++ ys) else (false, xs)
              end) l
    end
  end.
(** data_[index_++] = val *)
Fixpoint push_all (m : blocks) (p : option (nat * Z)) (xs : list Z) : res (list (option (list (option Z)))) :=
  match xs with
  | [] => Ok m
  | x :: xs => let! m := store m p x in push_all m (padd p 1) xs
  end.

(** make_from_scalar, generic_constructor_funcs.cc:587-624, on the CPU *)
Definition make_from_scalar (h : heap) (x : Z) (sh : list Z) (d : dtype) : res (heap * nat) :=
  match sh with
  | [] => Exn ValueError
  | _ => filled h sh d (fun r m =>
           for_each (zrange (item_num sh)) (fun i m => store m (padd (raw r) i) (conv I64 d x)) m)
  end.
(** Kernel_NDArray::make(List), generic_constructor_funcs.cc:688-750, on the CPU *)
Definition make (h : heap) (l : list tree) (sh : list Z) (d : dtype) : res (heap * nat) :=
  match l, sh with
  | [Leaf x], _ :: _ => make_from_scalar h x sh d
  | [], [] => Exn RuntimeError
  | [], _ => filled h sh d (fun r m => Ok m)
  | _, _ =>
    match first_dims (Node l) with
    | None => Exn CheckFailed
    | Some lsh =>
      let! sh := match sh with
        | [] => Ok lsh
        | _ =>
          if (match lsh with [n] => n =? item_num sh | _ => false end) || list_eqb lsh sh
          then Ok sh else Exn CheckFailed
        end in
      filled h sh d (fun r m =>
        let (ok, xs) := flatten d lsh (Node l) in
        let! m := push_all m (raw r) xs in
        if ok then Ok m else Exn CheckFailed)
    end
  end.

(** Internal::FromDLPack, ndarray.cc:509-531; the memory of the tensor is a block of its own *)
Definition from_dlpack (h : heap) (d : dtype) (sh : list Z) (st : option (list Z)) (off : Z) (data : list Z)
  : heap * nat :=
  let h' := Heap (conts h) (blks h ++ [Some (map Some data)]) in
  let b := length (blks h) in
  match st with
  | None => add_cont h' (Cont 1 (Some (b, 0)) off sh (gen_strides sh) false d Ext)
  | Some st => add_cont h' (Cont 1 (Some (b, 0)) off sh st true d Ext)
  end.

(** NDArray::set_item_helper with an array, ndarray.cc:1151-1183 *)
Definition set_from_array (m : blocks) (d : dtype) (dst : option (nat * Z)) (sh st : list Z) (src : cont)
  : res (list (option (list (option Z)))) :=
  if negb (length sh =? length (c_shape src))%nat then Exn CheckFailed
  else if negb (list_eqb sh (c_shape src)) then Exn CheckFailed
  else if is_contig sh st && is_contiguous src then
    let! n := first_product sh st in assign_flat (c_dt src) d dst (raw src) n m
  else assign (c_dt src) d dst (raw src) st (c_strides src) sh m.
(** set_item_helper with a list, ndarray.cc:1184-1208; ListHelper::IsNDArray list_helper.h:120-138.
    The values are collected in a buffer of their own: a block that is given up at the end. *)
Definition set_from_list (m : blocks) (d : dtype) (dst : option (nat * Z)) (sh st : list Z) (l : list tree)
  : res (list (option (list (option Z)))) :=
  match first_dims (Node l) with
  | None => Exn CheckFailed
  | Some lsh =>
    let (ok, xs) := flatten d lsh (Node l) in
    if Z.of_nat (length xs) >? item_num lsh then UB
    else if negb ok then Exn CheckFailed
    else if negb (length sh =? length lsh)%nat then Exn CheckFailed
    else if negb (list_eqb sh lsh) then Exn CheckFailed
    else
      let buf := Some (length m, 0) in
      let m' := m ++ [Some (map Some xs)] in
      let! m' :=
        if is_contig sh st then
          let! n := first_product sh st in assign_flat d d dst buf n m'
        else assign d d dst buf st (gen_strides lsh) sh m' in
      Ok (firstn (length m) m')
  end.

(** set_item(int64_t, int64_t), fused_set_item with a number, ndarray.cc:1210-1226, 1326-1345 *)
Definition set_number (h : heap) (p : nat) (is : list Z) (x : Z) : res heap :=
  let! c := hget h p in
  if negb (length is =? length (c_shape c))%nat then Exn CheckFailed
  else
    let! (_, _, q) := descend (c_shape c) (c_strides c) (raw c) is in
    let! m := store (blks h) q (conv I64 (c_dt c) x) in
    Ok (Heap (conts h) m).
(** set_item, fused_set_item with an array or a list, ndarray.cc:1246-1273, 1376-1411: the number
    of indexes is not compared with the number of dimensions *)
Definition set_array (h : heap) (p : nat) (is : list Z) (q : nat) : res heap :=
  let! c := hget h p in
  let! s := hget h q in
  let! (sh, st, dst) := descend (c_shape c) (c_strides c) (raw c) is in
  let! m := set_from_array (blks h) (c_dt c) dst sh st s in
  Ok (Heap (conts h) m).
Definition set_list (h : heap) (p : nat) (is : list Z) (l : list tree) : res heap :=
  let! c := hget h p in
  let! (sh, st, dst) := descend (c_shape c) (c_strides c) (raw c) is in
  let! m := set_from_list (blks h) (c_dt c) dst sh st l in
  Ok (Heap (conts h) m).

(** NDArray::set_slice, ndarray.cc:1448-1465 *)
Definition set_slice_with (h : heap) (p : nat) (b e : Z)
  (f : dtype -> option (nat * Z) -> list Z -> list Z -> res (list (option (list (option Z))))) : res heap :=
  let! c := hget h p in
  match c_shape c with
  | [] => UB
  | n :: sh =>
    let b := slice_index_correction b n in
    let e := slice_index_correction e n in
    if e <=? b then Ok h
    else match c_strides c with
    | [] => UB
    | s :: _ =>
      let! m := f (c_dt c) (padd (raw c) (s * b)) (e - b :: sh) (c_strides c) in
      Ok (Heap (conts h) m)
    end
  end.
Definition set_slice (h : heap) (p : nat) (b e : Z) (q : nat) : res heap :=
  let! s := hget h q in
  set_slice_with h p b e (fun d dst sh st => set_from_array (blks h) d dst sh st s).
Definition set_slice_list (h : heap) (p : nat) (b e : Z) (l : list tree) : res heap :=
  set_slice_with h p b e (fun d dst sh st => set_from_list (blks h) d dst sh st l).

(** ToListImpl, NDArray::ToList, ndarray.cc:384-418 *)
Fixpoint to_list (m : blocks) (p : option (nat * Z)) (sh st : list Z) : res (list tree) :=
  match sh with
  | [] => Ok []
  | n :: sh' =>
    match st with
    | [] => UB
    | s :: st' =>
      match sh' with
      | [] => collect (zrange n) (fun i => rmap Leaf (load m (padd p (i * s))))
      | _ => collect (zrange n) (fun i => rmap Node (to_list m (padd p (i * s)) sh' st'))
      end
    end
  end.

(** NDArray::operator==, ndarray.cc:206-233: memcmp from data on, without byte_offset *)
Fixpoint mem_equal (m : blocks) (p q : option (nat * Z)) (l : list Z) : res bool :=
  match l with
  | [] => Ok true
  | i :: l =>
    let! x := load m (padd p i) in
    let! y := load m (padd q i) in
    if x =? y then mem_equal m p q l else Ok false
  end.
Definition equal (h : heap) (p q : nat) : res bool :=
  let! l := hget h p in
  let! r := hget h q in
  if (p =? q)%nat then Ok true
  else if negb (is_contiguous l) then Exn CheckFailed
  else if negb (is_contiguous r) then Exn CheckFailed
  else if negb (list_eqb (c_shape l) (c_shape r)) then Ok false
  else if dtype_eqb (c_dt l) (c_dt r)
  then mem_equal (blks h) (c_data l) (c_data r) (zrange (data_size (c_shape l)))
  else Ok false.

(** A program: variables are handles.  An operation that throws leaves the heap as it was: what
    it had made is released again. *)
Record mstate := MState { m_heap : heap; m_vars : list (option nat) }.
Definition handle (s : mstate) (v : nat) : res nat :=
  match nth_error (m_vars s) v with Some (Some i) => Ok i | _ => UB end.
Fixpoint handles (s : mstate) (vs : list nat) : res (list nat) :=
  match vs with
  | [] => Ok []
  | v :: vs => let! i := handle s v in let! l := handles s vs in Ok (i :: l)
  end.
(** The new variable [v] holds a handle; using a variable twice is no program. *)
Definition bound (s : mstate) (v : nat) (r : res (heap * nat)) : res (mstate * result) :=
  match nth_error (m_vars s) v with
  | Some None => let! (h, i) := r in Ok (MState h (lset (m_vars s) v (Some i)), Done)
  | _ => UB
  end.
Definition got (s : mstate) (v : nat) (r : res item) : res (mstate * result) :=
  match nth_error (m_vars s) v with
  | Some None =>
    let! x := r in
    match x with
    | IArr h i => Ok (MState h (lset (m_vars s) v (Some i)), Done)
    | INum z => Ok (s, Shown (ONum z))
    end
  | _ => UB
  end.
Definition changed (s : mstate) (r : res heap) : res (mstate * result) :=
  let! h := r in Ok (MState h (m_vars s), Done).

Definition step (o : nop) (s : mstate) : res (mstate * result) :=
  let h := m_heap s in
  match o with
  | Make v d l sh => bound s v (make h l sh d)
  | Fill v d x sh => bound s v (make_from_scalar h x sh d)
  | Import v d sh st off data => bound s v (Ok (from_dlpack h d sh st off data))
  | Alias v w => let! i := handle s w in bound s v (let! h := incref h i in Ok (h, i))
  | Del v =>
      let! i := handle s v in
      let! h := release (S i) h i in
      Ok (MState h (lset (m_vars s) v None), Done)
  | Item v w i => let! p := handle s w in got s v (get_item h p i)
  | Items v w is => let! p := handle s w in got s v (fused_get_item h p is)
  | Slice v w b e t => let! p := handle s w in bound s v (get_slice h p b e t)
  | Transpose v w axes => let! p := handle s w in bound s v (transpose h p axes)
  | Reshape v w sh => let! p := handle s w in bound s v (reshape h p sh)
  | Squeeze v w axes => let! p := handle s w in bound s v (squeeze h p axes)
  | Unsqueeze v w d => let! p := handle s w in bound s v (unsqueeze h p d)
  | Contiguous v w => let! p := handle s w in bound s v (to_contiguous h p)
  | AsType v w d => let! p := handle s w in bound s v (as_type h p d)
  | CopyTo v w => let! p := handle s w in bound s v (copy_to h p)
  | Arith o v w1 w2 => let! p := handle s w1 in let! q := handle s w2 in bound s v (binary h o p q)
  | ArithNum o v w x => let! p := handle s w in bound s v (arith_num h o p x)
  | NumMinus v x w => let! p := handle s w in bound s v (with_number h Minus true p x)
  | Concat v ws axis => let! l := handles s ws in bound s v (concatenate h l axis)
  | Stack v ws axis => let! l := handles s ws in bound s v (stack h l axis)
  | SetNum v is x => let! p := handle s v in changed s (set_number h p is x)
  | SetArr v is w => let! p := handle s v in let! q := handle s w in changed s (set_array h p is q)
  | SetList v is l => let! p := handle s v in changed s (set_list h p is l)
  | SetSlice v b e w => let! p := handle s v in let! q := handle s w in changed s (set_slice h p b e q)
  | SetSliceList v b e l => let! p := handle s v in changed s (set_slice_list h p b e l)
  | ToList w =>
      let! p := handle s w in
      let! c := hget h p in
      let! t := to_list (blks h) (raw c) (c_shape c) (c_strides c) in
      Ok (s, Shown (OTrees t))
  | ShapeOf w => let! p := handle s w in let! c := hget h p in Ok (s, Shown (OShape (c_shape c)))
  | LenOf w =>
      let! p := handle s w in
      let! c := hget h p in
      Ok (s, Shown (ONum (match c_shape c with [] => 0 | n :: _ => n end)))
  | IsEqual w1 w2 =>
      let! p := handle s w1 in
      let! q := handle s w2 in
      let! b := equal h p q in
      Ok (s, Shown (OBool b))
  end.

Fixpoint run (os : list nop) (s : mstate) : res (mstate * list result) :=
  match os with
  | [] => Ok (s, [])
  | o :: os =>
    match step o s with
    | Ok (s, r) => let! (s, l) := run os s in Ok (s, r :: l)
    | Exn _ => let! (s, l) := run os s in Ok (s, Raised :: l)
    | OOB => OOB
    | OutOfFuel => OutOfFuel
    end
  end.
Definition init (k : nat) : mstate := MState (Heap [] []) (repeat None k).
