(** Model of the msgpack serialiser: src/runtime/msgpack/ (msgpack.cc, pack_template.h,
    unpack_template.h, unpack.h), exported as pickle/serialisation helpers
    msgpack_dumps / msgpack_loads (msgpack.cc:387-400). *)
From Verif Require Import Base Utf8Model.

(** The runtime values the serialiser knows (switch of msgpack.cc:102-256): a float is its
    64-bit pattern, a str its code points, bytes its bytes, a dict/set its entries in
    iteration order; an NDArray its dtype (code, bits, lanes), shape and the bytes that
    CopyToBytes yields (ndarray.cc:362-381, contiguous arrays only). *)
Inductive value : Type :=
| VNil | VInt (z : Z) | VFloat (bits : Z) | VBytes (s : list Z) | VStr (u : list Z)
| VList (l : list value) | VTuple (l : list value)
| VDict (l : list (value * value)) | VSet (l : list value)
| VNd (code bits lanes : Z) (shape : list Z) (data : list Z).

Definition zlen {A} (l : list A) : Z := Z.of_nat (length l).

(** _msgpack_store16/32/64, sysdep.h:178-184: [k] bytes, most significant first, of the
    value converted to an unsigned integer of that width. *)
Fixpoint be (k : nat) (n : Z) : list Z :=
  match k with
  | O => []
  | S k' => (n / 256 ^ Z.of_nat k') mod 256 :: be k' n
  end.

(** memcpy of an integer of [k] bytes on a little-endian machine (msgpack.cc:231-247). *)
Fixpoint le (k : nat) (n : Z) : list Z :=
  match k with
  | O => []
  | S k' => n mod 256 :: le k' (n / 256)
  end.

(** ** The packer *)

(** msgpack_pack_real_int64, pack_template.h:212-268. *)
Definition pack_int64 (d : Z) : list Z :=
  if d <? - 2 ^ 5 then
    if d <? - 2 ^ 15 then
      if d <? - 2 ^ 31 then 211 :: be 8 d
      else 210 :: be 4 d
    else
      if d <? - 2 ^ 7 then 209 :: be 2 d
      else [208; d mod 256]
  else if d <? 2 ^ 7 then [d mod 256]
  else
    if d <? 2 ^ 16 then
      if d <? 2 ^ 8 then [204; d mod 256]
      else 205 :: be 2 d
    else
      if d <? 2 ^ 32 then 206 :: be 4 d
      else 207 :: be 8 d.

(** msgpack_pack_array, pack_template.h:627-641 ([n] is an unsigned int). *)
Definition pack_array (n : Z) : list Z :=
  if n <? 16 then [Z.lor 144 n]
  else if n <? 65536 then 220 :: be 2 n
  else 221 :: be 4 n.

(** msgpack_pack_map, pack_template.h:648-662. *)
Definition pack_map (n : Z) : list Z :=
  if n <? 16 then [Z.lor 128 n]
  else if n <? 65536 then 222 :: be 2 n
  else 223 :: be 4 n.

(** msgpack_pack_raw, pack_template.h:669-686, with use_bin_type on (the default options,
    msgpack.cc:40-46). *)
Definition pack_raw (l : Z) : list Z :=
  if l <? 32 then [Z.lor 160 l]
  else if l <? 256 then [217; l]
  else if l <? 65536 then 218 :: be 2 l
  else 219 :: be 4 l.

(** msgpack_pack_bin, pack_template.h:691-708. *)
Definition pack_bin (l : Z) : list Z :=
  if l <? 256 then [196; l]
  else if l <? 65536 then 197 :: be 2 l
  else 198 :: be 4 l.

(** msgpack_pack_ext, pack_template.h:719-771. *)
Definition pack_ext (typecode l : Z) : list Z :=
  if l =? 1 then [212; typecode]
  else if l =? 2 then [213; typecode]
  else if l =? 4 then [214; typecode]
  else if l =? 8 then [215; typecode]
  else if l =? 16 then [216; typecode]
  else if l <? 256 then [199; l; typecode]
  else if l <? 65536 then 200 :: be 2 l ++ [typecode]
  else 201 :: be 4 l ++ [typecode].

(** ITEM_LIMIT, msgpack.cc:41. *)
Definition ITEM_LIMIT : Z := 2 ^ 32 - 1.
(** TypeIndex::kRuntimeSet and kRuntimeNDArray, include/matxscript/runtime/global_type_index.h:65,79. *)
Definition kRuntimeSet : Z := 9.
Definition kRuntimeNDArray : Z := 2.

(** GetDataSize, include/matxscript/runtime/dlpack.h:183-190 (and msgpack.cc:327-335):
    size_t arithmetic, so every product wraps. *)
Definition nd_size (bits lanes : Z) (shape : list Z) : Z :=
  wrapu64 (fold_left (fun size s => wrapu64 (size * wrapu64 s)) shape 1 * ((bits * lanes + 7) / 8)).

(** BasicMessagePacker::pack, msgpack.cc:95-258. Every branch writes to the packer's buffer;
    the model returns what it appended. A list, tuple or set iterates its elements, a dict
    its (key, value) items. [VNd] assumes a contiguous array (CopyToBytes throws otherwise). *)
Fixpoint pack (o : value) (nest_limit : Z) {struct o} : res (list Z) :=
  if nest_limit <? 0 then Exn ValueError else
  match o with
  | VNil => Ok [192]
  | VInt d => Ok (pack_int64 d)
  | VFloat bits => Ok (203 :: be 8 bits)
  | VBytes s =>
      if zlen s >? ITEM_LIMIT then Exn ValueError else Ok (pack_bin (zlen s) ++ s)
  | VStr u =>
      let! bytes := utf8_encode u in
      if zlen bytes >? ITEM_LIMIT then Exn ValueError else Ok (pack_raw (zlen bytes) ++ bytes)
  | VList v =>
      if zlen v >? ITEM_LIMIT then Exn ValueError else
      let! body := (fix items v := match v with
                    | [] => Ok []
                    | x :: v' => let! a := pack x (nest_limit - 1) in
                                 let! b := items v' in Ok (a ++ b)
                    end) v in
      Ok (pack_array (zlen v) ++ body)
  | VTuple v =>
      if zlen v >? ITEM_LIMIT then Exn ValueError else
      let! body := (fix items v := match v with
                    | [] => Ok []
                    | x :: v' => let! a := pack x (nest_limit - 1) in
                                 let! b := items v' in Ok (a ++ b)
                    end) v in
      Ok (pack_array (zlen v) ++ body)
  | VDict v =>
      if zlen v >? ITEM_LIMIT then Exn ValueError else
      let! body := (fix items v := match v with
                    | [] => Ok []
                    | (k, x) :: v' => let! a := pack k (nest_limit - 1) in
                                      let! b := pack x (nest_limit - 1) in
                                      let! c := items v' in Ok (a ++ b ++ c)
                    end) v in
      Ok (pack_map (zlen v) ++ body)
  | VSet v =>
      if zlen v >? ITEM_LIMIT then Exn ValueError else
      let! body := (fix items v := match v with
                    | [] => Ok []
                    | x :: v' => let! a := pack x (nest_limit - 1) in
                                 let! b := items v' in Ok (a ++ b)
                    end) v in
      let set_packed := pack_array (zlen v) ++ body in
      Ok (pack_ext kRuntimeSet (zlen set_packed) ++ set_packed)
  | VNd code bits lanes shape data =>
      let ndim := zlen shape in
      let L := 4 + 4 + 8 * ndim + nd_size bits lanes shape in
      Ok (pack_ext kRuntimeNDArray L ++
          [code; bits] ++ le 2 lanes ++ le 4 ndim ++ concat (map (le 8) shape) ++ data)
  end.

(** MessagePacker::pack with the default recursion limit, msgpack.cc:260-276; msgpack_dumps. *)
Definition dumps (o : value) : res (list Z) := pack o 511.

(** ** The unpacker *)

(** A pointer into the input is modelled by the bytes from it to the end [pe]; [pe - p] is
    their number. Reading past the end is OOB. *)

(** _msgpack_load16/32/64, sysdep.h:130-192 (unsigned result). *)
Fixpoint load (k : nat) (p : list Z) : res Z :=
  match k with
  | O => Ok 0
  | S k' => let! b := rd p 0 in
            let! r := load k' (tl p) in
            Ok (b * 256 ^ Z.of_nat k' + r)
  end.

(** memcpy into an integer of [k] bytes, little endian (unsigned result). *)
Fixpoint load_le (k : nat) (p : list Z) : res Z :=
  match k with
  | O => Ok 0
  | S k' => let! b := rd p 0 in
            let! r := load_le k' (tl p) in
            Ok (b + 256 * r)
  end.

(** Conversion of an unsigned integer of [w] bits to the signed type of that width. *)
Definition sext (w : Z) (z : Z) : Z := if z <? 2 ^ (w - 1) then z else z - 2 ^ w.

(** The [l] bytes at [p] as a string_view / memcpy source. *)
Definition slice (p : list Z) (l : Z) : res (list Z) :=
  if l <=? zlen p then Ok (firstn (Z.to_nat l) p) else OOB.

Definition advance (p : list Z) (n : Z) : list Z := skipn (Z.to_nat n) p.

(** Any::Hash, runtime_value.cc:536-624 and tuple_hash, :513-533: which values can be a
    dict key or a set element (others throw TypeError). An NDArray hashes by address. *)
Fixpoint hashable (v : value) : bool :=
  match v with
  | VList _ | VDict _ | VSet _ => false
  | VTuple l => forallb hashable l
  | _ => true
  end.

(** One item recognised by the header switch of unpack_execute. *)
Inductive item : Type :=
| IVal (obj : value) (p : list Z)       (* goto _push, with the pointer after the item *)
| IArray (n : Z) (p : list Z)           (* start_container(_array, n) *)
| IMap (n : Z) (p : list Z)             (* start_container(_map, n) *)
| IEnd (ret : Z).                       (* goto _end with that return code *)

(** What [unpack_execute] returns: ret = 1 with the object and the unread rest, or another
    return code. *)
Inductive outcome : Type :=
| Finish (v : value) (rest : list Z)
| Ret (ret : Z).

(** unpack_stack, unpack_template.h:29-35: an array under construction, a map waiting for a
    key, a map waiting for the value of [k]. *)
Inductive frame : Type :=
| FArray (size count : Z) (obj : list value)
| FMapKey (size count : Z) (obj : list (value * value))
| FMapValue (size count : Z) (obj : list (value * value)) (k : value).

(** VerifyDataType, src/runtime/container/ndarray.cc:314-333 (kDLInt 0, kDLUInt 1, kDLFloat 2). *)
Definition verify_dtype (code bits lanes : Z) : bool :=
  if lanes <? 1 then false
  else
    let pow2 := Z.land bits (bits - 1) =? 0 in
    if code =? 2 then (bits mod 8 =? 0) && pow2
    else if (bits =? 1) && (code =? 1) then true
    else if (bits =? 1) && (code =? 0) then true
    else if (bits =? 4) && (code =? 1) then true
    else if (bits =? 4) && (code =? 0) then true
    else (bits mod 8 =? 0) && pow2.

Section Unpack.
(** Key equality of the dict and set containers (Any::Equal), and the double that
    [double(tv_sec) + tv_nsec / 1e9] evaluates to (unpack.h:252), as bit pattern. *)
Variable keq : value -> value -> bool.
Variable ts_double : Z -> Z -> Z.

(** dict_node->emplace(k, v), unpack.h:186-191: an existing key is kept. *)
Definition dict_emplace (d : list (value * value)) (k v : value) : res (list (value * value)) :=
  if negb (hashable k) then Exn TypeError
  else if existsb (fun e => keq (fst e) k) d then Ok d
  else Ok (d ++ [(k, v)]).

(** Set(begin, end), set_ref.cc:79-86. *)
Fixpoint set_emplace_all (s : list value) (l : list value) : res (list value) :=
  match l with
  | [] => Ok s
  | x :: l' =>
      if negb (hashable x) then Exn TypeError
      else if existsb (fun e => keq e x) s then set_emplace_all s l'
      else set_emplace_all (s ++ [x]) l'
  end.

(** The shapes loop of the NDArray branch, msgpack.cc:328-334. *)
Fixpoint load_shapes (n : nat) (buf : list Z) : res (list Z * list Z) :=
  match n with
  | O => Ok ([], buf)
  | S n' =>
      let! s := load_le 8 buf in
      let! r := load_shapes n' (advance buf 8) in
      Ok (sext 64 s :: fst r, snd r)
  end.

(** custom_ext_callback, NDArray branch, msgpack.cc:308-343. A negative ndim makes
    reserve() throw. The strides of the new array are not modelled. *)
Definition unpack_nd (pos : list Z) (length : Z) : res value :=
  if length <? 8 then Exn CheckFailed else
  let! code := rd pos 0 in
  let! bits := rd pos 1 in
  let! lanes := load_le 2 (advance pos 2) in
  let! ndim_u := load_le 4 (advance pos 4) in
  let ndim := sext 32 ndim_u in
  if length <? wrapu64 (8 + wrapu64 (ndim * 8)) then Exn CheckFailed else
  if ndim <? 0 then Exn RuntimeError else
  let! sh := load_shapes (Z.to_nat ndim) (advance pos 8) in
  let size := nd_size bits lanes (fst sh) in
  if negb (length =? wrapu64 (8 + wrapu64 (ndim * 8) + size)) then Exn CheckFailed else
  if negb (verify_dtype code bits lanes) then Exn CheckFailed else
  let! data := slice (snd sh) size in
  Ok (VNd code bits lanes (fst sh) data).

(** unpack_timestamp, unpack.h:218-240: (tv_sec, tv_nsec), or None for return code -1. *)
Definition unpack_timestamp (buf : list Z) (buflen : Z) : res (option (Z * Z)) :=
  if buflen =? 4 then
    let! v := load 4 buf in Ok (Some (v, 0))
  else if buflen =? 8 then
    let! v := load 8 buf in
    Ok (Some (Z.land v 17179869183, wrapu64 (Z.shiftr v 34) mod two32))
  else if buflen =? 12 then
    let! ns := load 4 buf in
    let! s := load 8 (advance buf 4) in
    Ok (Some (sext 64 s, ns))
  else Ok None.

(** [o->data.v_float64 = d] while [o->code] keeps the type of the object that was in [o]
    before (unpack.h:252): a float becomes [d], an int the bits of [d], None stays None; a
    heap object would become a wild pointer, undefined behaviour when it is next used. *)
Definition retag (o : value) (bits : Z) : res value :=
  match o with
  | VNil => Ok VNil
  | VInt _ => Ok (VInt (sext 64 bits))
  | VFloat _ => Ok (VFloat bits)
  | _ => UB
  end.

(** The parser body, with the recursive call of the set extension as a parameter. *)
Section Body.
Variable unpackb_rec : list Z -> bool -> res value.
Variable use_list : bool.

(** custom_ext_callback, msgpack.cc:294-350. *)
Definition ext_hook (typecode : Z) (pos : list Z) (length : Z) : res value :=
  if typecode =? kRuntimeSet then
    let! s := slice pos length in
    let! value := unpackb_rec s false in
    match value with
    | VTuple tup => let! s := set_emplace_all [] tup in Ok (VSet s)
    | _ => Exn ValueError
    end
  else if typecode =? kRuntimeNDArray then unpack_nd pos length
  else Exn ValueError.

(** unpack_callback_ext, unpack.h:242-257, at label _ext_zero; [n] points to the type code,
    [trail] (unsigned int) counts it. [p] is the pointer after the item. *)
Definition ext_value (obj : value) (n : list Z) (trail : Z) (p : list Z) : res item :=
  let! tc := rd n 0 in
  let typecode := sext 8 tc in
  let pos := tl n in
  let len := (trail - 1) mod two32 in
  if typecode =? -1 then
    let! ts := unpack_timestamp pos len in
    match ts with
    | None => Ok (IEnd (-1))
    | Some (s, ns) => let! o := retag obj (ts_double s ns) in Ok (IVal o p)
    end
  else
    let! o := ext_hook typecode pos len in Ok (IVal o p).

(** unpack_callback_raw / _bin at labels _raw_zero and _bin_zero, unpack.h:198-208. *)
Definition raw_value (n : list Z) (trail : Z) (p : list Z) : res item :=
  let! s := slice n trail in
  let! u := utf8_decode s in Ok (IVal (VStr u) p).
Definition bin_value (n : list Z) (trail : Z) (p : list Z) : res item :=
  let! s := slice n trail in Ok (IVal (VBytes s) p).

(** The second trip through _fixed_trail_again for ACS_RAW_VALUE, ACS_BIN_VALUE and
    ACS_EXT_VALUE (unpack_template.h:232-237, 285-301); [p] already points to the body, [n0]
    is the stale [n] used when trail is zero (again_fixed_trail_if_zero, :123-127). *)
Definition raw_trail (n0 p : list Z) (trail : Z) : res item :=
  if trail =? 0 then raw_value n0 0 p
  else if zlen p <? trail then Ok (IEnd 0)
  else raw_value p trail (advance p trail).
Definition bin_trail (n0 p : list Z) (trail : Z) : res item :=
  if trail =? 0 then bin_value n0 0 p
  else if zlen p <? trail then Ok (IEnd 0)
  else bin_value p trail (advance p trail).
Definition ext_trail (obj : value) (n0 p : list Z) (trail : Z) : res item :=
  if trail =? 0 then ext_value obj n0 0 p
  else if zlen p <? trail then Ok (IEnd 0)
  else ext_value obj p trail (advance p trail).

(** unpack_callback_float: a float is widened to double (bit pattern of it). *)
Variable widen : Z -> Z.

(** _fixed_trail_again, unpack_template.h:232-237, after ++p: if fewer than [trail] bytes are
    left goto _out, else load the number there and step over it. *)
Definition fixed_trail (q : list Z) (trail : nat) (k : Z -> list Z -> res item) : res item :=
  if zlen q <? Z.of_nat trail then Ok (IEnd 0)
  else let! x := load trail q in k x (advance q (Z.of_nat trail)).

(** One turn of the header loop of unpack_execute, unpack_template.h:156-318, [p] at the
    header byte. *)
Definition header (p : list Z) (obj : value) : res item :=
  let! b := rd p 0 in
  let q := tl p in
  if (0 <=? b) && (b <=? 127) then Ok (IVal (VInt b) q)
  else if (224 <=? b) && (b <=? 255) then Ok (IVal (VInt (sext 8 b)) q)
  else if (192 <=? b) && (b <=? 223) then
    if b =? 192 then Ok (IVal VNil q)
    else if b =? 194 then Ok (IVal (VInt 0) q)
    else if b =? 195 then Ok (IVal (VInt 1) q)
    else if b =? 196 then fixed_trail q 1%nat (fun x r => bin_trail q r x)
    else if b =? 197 then fixed_trail q 2%nat (fun x r => bin_trail q r x)
    else if b =? 198 then fixed_trail q 4%nat (fun x r => bin_trail q r x)
    else if b =? 199 then fixed_trail q 1%nat (fun x r => ext_trail obj q r ((x + 1) mod two32))
    else if b =? 200 then fixed_trail q 2%nat (fun x r => ext_trail obj q r ((x + 1) mod two32))
    else if b =? 201 then fixed_trail q 4%nat (fun x r => ext_trail obj q r ((x + 1) mod two32))
    else if b =? 202 then fixed_trail q 4%nat (fun x r => Ok (IVal (VFloat (widen x)) r))
    else if b =? 203 then fixed_trail q 8%nat (fun x r => Ok (IVal (VFloat x) r))
    else if b =? 204 then fixed_trail q 1%nat (fun x r => Ok (IVal (VInt x) r))
    else if b =? 205 then fixed_trail q 2%nat (fun x r => Ok (IVal (VInt x) r))
    else if b =? 206 then fixed_trail q 4%nat (fun x r => Ok (IVal (VInt x) r))
    else if b =? 207 then fixed_trail q 8%nat (fun x r => Ok (IVal (VInt (sext 64 x)) r))
    else if b =? 208 then fixed_trail q 1%nat (fun x r => Ok (IVal (VInt (sext 8 x)) r))
    else if b =? 209 then fixed_trail q 2%nat (fun x r => Ok (IVal (VInt (sext 16 x)) r))
    else if b =? 210 then fixed_trail q 4%nat (fun x r => Ok (IVal (VInt (sext 32 x)) r))
    else if b =? 211 then fixed_trail q 8%nat (fun x r => Ok (IVal (VInt (sext 64 x)) r))
    else if b =? 212 then ext_trail obj q q 2
    else if b =? 213 then ext_trail obj q q 3
    else if b =? 214 then ext_trail obj q q 5
    else if b =? 215 then ext_trail obj q q 9
    else if b =? 216 then ext_trail obj q q 17
    else if b =? 217 then fixed_trail q 1%nat (fun x r => raw_trail q r x)
    else if b =? 218 then fixed_trail q 2%nat (fun x r => raw_trail q r x)
    else if b =? 219 then fixed_trail q 4%nat (fun x r => raw_trail q r x)
    else if b =? 220 then fixed_trail q 2%nat (fun x r => Ok (IArray x r))
    else if b =? 221 then fixed_trail q 4%nat (fun x r => Ok (IArray x r))
    else if b =? 222 then fixed_trail q 2%nat (fun x r => Ok (IMap x r))
    else if b =? 223 then fixed_trail q 4%nat (fun x r => Ok (IMap x r))
    else Ok (IEnd (-2))
  else if (160 <=? b) && (b <=? 191) then raw_trail q q (Z.land b 31)
  else if (144 <=? b) && (b <=? 159) then Ok (IArray (Z.land b 15) q)
  else if (128 <=? b) && (b <=? 143) then Ok (IMap (Z.land b 15) q)
  else Ok (IEnd (-2)).

(** The finished array object (unpack_callback_array, unpack.h:146-158). *)
Definition mk_array (l : list value) : value := if use_list then VList l else VTuple l.

(** Label _push, unpack_template.h:320-352: [inl v] is _finish, [inr (obj, stk)] is
    _header_again. The topmost frame is the head of the list. *)
Fixpoint push (obj : value) (stk : list frame) : res (value + value * list frame) :=
  match stk with
  | [] => Ok (inl obj)
  | FArray size count l :: stk' =>
      let l' := l ++ [obj] in
      if count + 1 =? size then push (mk_array l') stk'
      else Ok (inr (obj, FArray size (count + 1) l' :: stk'))
  | FMapKey size count d :: stk' => Ok (inr (obj, FMapValue size count d obj :: stk'))
  | FMapValue size count d k :: stk' =>
      let! d' := dict_emplace d k obj in
      if count + 1 =? size then push (VDict d') stk'
      else Ok (inr (obj, FMapKey size (count + 1) d' :: stk'))
  end.

(** MSGPACK_EMBED_STACK_SIZE, unpack.h:26: the capacity of [stack]. *)
Definition STACK_SIZE : Z := 1024.

(** start_container, unpack_template.h:129-139: [inl ret] leaves the loop, [inr] carries the
    frame to push or (count 0) the finished object. Writing stack[top] with top at or beyond
    the capacity is OOB. *)
Definition start_container (n : Z) (fr : frame) (empty : value) (stk : list frame) :
    res (Z + (frame + value)) :=
  let top := zlen stk in
  if top >=? STACK_SIZE then Ok (inl (-3))
  else if negb (top <? 1024) then OOB
  else if n =? 0 then Ok (inr (inr empty))
  else Ok (inr (inl fr)).

(** unpack_execute<true>, unpack_template.h:82-387. *)
Fixpoint execute (fuel : nat) (p : list Z) (obj : value) (stk : list frame) : res outcome :=
  match fuel with
  | O => OutOfFuel
  | S f =>
      match p with
      | [] => Ok (Ret 0)
      | _ =>
          let do_push (obj' : value) (p' : list Z) : res outcome :=
            let! r := push obj' stk in
            match r with
            | inl v => Ok (Finish v p')
            | inr (obj'', stk') => execute f p' obj'' stk'
            end in
          let! it := header p obj in
          match it with
          | IEnd ret => Ok (Ret ret)
          | IVal v p' => do_push v p'
          | IArray n p' =>
              let! s := start_container n (FArray n 0 []) (mk_array []) stk in
              match s with
              | inl ret => Ok (Ret ret)
              | inr (inr v) => do_push v p'
              | inr (inl fr) => execute f p' obj (fr :: stk)
              end
          | IMap n p' =>
              let! s := start_container n (FMapKey n 0 []) (VDict []) stk in
              match s with
              | inl ret => Ok (Ret ret)
              | inr (inr v) => do_push v p'
              | inr (inl fr) => execute f p' obj (fr :: stk)
              end
          end
      end
  end.

(** MessageUnpacker::unpackb, msgpack.cc:352-381: all errors are ValueErrors, told apart
    here by the message. Every turn consumes a byte: the fuel is never short. *)
Definition unpackb_body (packed : list Z) : res value :=
  let! r := execute (S (length packed)) packed VNil [] in
  match r with
  | Finish v rest => if 0 <? zlen rest then Exn ExtraData else Ok v
  | Ret ret =>
      if ret =? 0 then Exn Incomplete
      else if ret =? -2 then Exn FormatError
      else if ret =? -3 then Exn StackError
      else Exn ValueError
  end.
End Body.

(** The set extension calls unpackb again (msgpack.cc:300): [depth] bounds that recursion,
    which the code does not. *)
Fixpoint unpackb (widen : Z -> Z) (depth : nat) (packed : list Z) (use_list : bool) : res value :=
  match depth with
  | O => OutOfFuel
  | S d => unpackb_body (unpackb widen d) use_list widen packed
  end.

(** msgpack_loads, msgpack.cc:387-389. Each level of recursion consumes two bytes or more. *)
Definition loads (widen : Z -> Z) (packed : list Z) : res value :=
  unpackb widen (S (length packed)) packed true.
End Unpack.
