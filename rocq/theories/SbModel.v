(** * Chained subscripts on values of any type, compiled to one call

    Files: src/codegen/fuse_cont_get_set_item.h, src/runtime/generic/generic_funcs.cc,
    src/runtime/container/ndarray.cc.  The elements of arrays are int64 here; array handles have
    no reference counts (C53). *)

From Coq Require Import ZArith List Bool.
From Verif Require Import Base SbSpec.
Import ListNotations.
Local Open Scope Z_scope.

(** Any::As<int64_t>, runtime_value.h 278-282 *)
Definition as_int (k : val) : res Z := match k with VNum z => Ok z | _ => Exn TypeError end.

(** index_correction, container_slice_helper.h 32-34 *)
Definition index_correction (index len : Z) : Z := if index <? 0 then index + len else index.

(** List, Tuple, unicode get_item: list_ref.cc, tuple_ref.cc, unicode_helper.cc: correct the
    index, check it, read *)
Definition seq_get {A} (l : list A) (index : Z) : res A :=
  let i := index_correction index (Z.of_nat (length l)) in
  if (0 <=? i) && (i <? Z.of_nat (length l)) then rdz l i else Exn IndexError.

(** dl_tensor->data + byte_offset, shape and strides: a view has a pointer in elements *)
Definition load (h : heap) (b : nat) (o : Z) : res Z :=
  match nth_error h b with Some (OBuf l) => rdz l o | _ => OOB end.
Definition store (h : heap) (b : nat) (o z : Z) : res heap :=
  match nth_error h b with
  | Some (OBuf l) =>
      if (0 <=? o) && (o <? Z.of_nat (length l))
      then Ok (replace h b (OBuf (replace l (Z.to_nat o) z))) else OOB
  | _ => OOB
  end.

(** ndarray.cc 900-929: NDArray::get_item(int64_t); shape[0] of an array without axes is read
    outside of the shape *)
Definition nd_get_item (h : heap) (w : view) (index : Z) : res val :=
  let! n := rd (v_shape w) 0 in
  let idx := index_correction index n in
  if (0 <=? idx) && (idx <? n) then
    let! s := rd (v_strides w) 0 in
    if (length (v_shape w) =? 1)%nat then
      let! z := load h (v_buf w) (v_off w + idx * s) in Ok (VNum z)
    else Ok (VArr (View (v_buf w) (v_off w + s * idx) (skipn 1 (v_shape w)) (skipn 1 (v_strides w))))
  else Exn CheckFailed.

(** The loop over the indexes in fused_get_item and fused_set_item, 1024-1032, 1334-1341: i is
    the axis, p the pointer *)
Fixpoint descend (sh st : list Z) (i : nat) (p : Z) (indexes : list Z) : res Z :=
  match indexes with
  | [] => Ok p
  | x :: indexes =>
      let! n := rd sh i in
      let index := index_correction x n in
      if (0 <=? index) && (index <? n) then
        let! s := rd st i in descend sh st (S i) (p + s * index) indexes
      else Exn CheckFailed
  end.

(** 1018-1052: NDArray::fused_get_item *)
Definition nd_fused_get_item (h : heap) (w : view) (indexes : list Z) : res val :=
  let num := length indexes in
  if (num <=? length (v_shape w))%nat then
    let! p := descend (v_shape w) (v_strides w) 0 (v_off w) indexes in
    if (length (v_shape w) =? num)%nat then let! z := load h (v_buf w) p in Ok (VNum z)
    else Ok (VArr (View (v_buf w) p (skipn num (v_shape w)) (skipn num (v_strides w))))
  else Exn CheckFailed.

(** generic_funcs.cc 106-145: kernel_object___getitem__ *)
Definition kernel_getitem (h : heap) (self key : val) : res val :=
  match self with
  | VRef a =>
      match nth_error h a with
      | Some (OList l) => let! i := as_int key in seq_get l i
      | Some (ODict d) =>
          if hashable key then match lookup d key with Some v => Ok v | None => Exn KeyError end
          else Exn TypeError
      | _ => Exn TypeError
      end
  | VText l => let! i := as_int key in let! c := seq_get l i in Ok (VText [c])
  | VTup l => let! i := as_int key in seq_get l i
  | VArr w => match key with VNum i => nd_get_item h w i | _ => Exn TypeError end
  | _ => Exn TypeError
  end.

Fixpoint mapM {A B} (f : A -> res B) (l : list A) : res (list B) :=
  match l with
  | [] => Ok []
  | x :: l => let! y := f x in let! r := mapM f l in Ok (y :: r)
  end.

(** o = getitem(o, keys[i]) for i = ... *)
Fixpoint getitems (h : heap) (o : val) (keys : list val) : res val :=
  match keys with
  | [] => Ok o
  | k :: keys => let! o := kernel_getitem h o k in getitems h o keys
  end.

(** generic_funcs.cc 337-354: kernel_object___fused_getitem__ *)
Definition fused_getitem (h : heap) (self : val) (keys : list val) : res val :=
  match self with
  | VArr w => let! int_keys := mapM as_int keys in nd_fused_get_item h w int_keys
  | _ => getitems h self keys
  end.

(** What set_item_helper does (ndarray.cc 1151-1208) is a parameter. *)
Definition helper (assign : heap -> view -> val -> option heap) (h : heap) (w : view) (v : val) : res heap :=
  match assign h w v with Some h => Ok h | None => Exn CheckFailed end.

(** ndarray.cc 1210-1273: NDArray::set_item(int64_t, Any) *)
Definition nd_set_item (assign : heap -> view -> val -> option heap) (h : heap) (w : view) (index : Z) (item : val) : res heap :=
  match item with
  | VNum z =>
      if (length (v_shape w) =? 1)%nat then
        let! n := rd (v_shape w) 0 in
        let i := index_correction index n in
        if (0 <=? i) && (i <? n) then
          let! s := rd (v_strides w) 0 in store h (v_buf w) (v_off w + s * i) z
        else Exn CheckFailed
      else Exn CheckFailed
  | _ =>
      let! n := rd (v_shape w) 0 in
      let i := index_correction index n in
      if (0 <=? i) && (i <? n) then
        let! s := rd (v_strides w) 0 in
        helper assign h (View (v_buf w) (v_off w + s * i) (skipn 1 (v_shape w)) (skipn 1 (v_strides w))) item
      else Exn CheckFailed
  end.

(** 1326-1411: NDArray::fused_set_item; for an item that is no number the number of indexes is
    not checked *)
Definition nd_fused_set_item (assign : heap -> view -> val -> option heap) (h : heap) (w : view) (indexes : list Z) (item : val) : res heap :=
  let num := length indexes in
  match item with
  | VNum z =>
      if (num =? length (v_shape w))%nat then
        let! p := descend (v_shape w) (v_strides w) 0 (v_off w) indexes in store h (v_buf w) p z
      else Exn CheckFailed
  | _ =>
      let! p := descend (v_shape w) (v_strides w) 0 (v_off w) indexes in
      helper assign h (View (v_buf w) p (skipn num (v_shape w)) (skipn num (v_strides w))) item
  end.

(** generic_funcs.cc 147-173: kernel_object___setitem__; list_ref.cc set_item *)
Definition kernel_setitem (assign : heap -> view -> val -> option heap) (h : heap) (self key item : val) : res heap :=
  match self with
  | VRef a =>
      match nth_error h a with
      | Some (OList l) =>
          let! index := as_int key in
          let i := index_correction index (Z.of_nat (length l)) in
          if (0 <=? i) && (i <? Z.of_nat (length l))
          then Ok (replace h a (OList (replace l (Z.to_nat i) item))) else Exn IndexError
      | Some (ODict d) =>
          if hashable key then Ok (replace h a (ODict (insert d key item))) else Exn TypeError
      | _ => Exn TypeError
      end
  | VArr w => match key with VNum i => nd_set_item assign h w i item | _ => Exn TypeError end
  | _ => Exn TypeError
  end.

(** generic_funcs.cc 357-378: kernel_object___fused_setitem__ *)
Definition fused_setitem (assign : heap -> view -> val -> option heap) (h : heap) (self : val) (keys : list val) (item : val) : res heap :=
  match self with
  | VArr w => let! int_keys := mapM as_int keys in nd_fused_set_item assign h w int_keys item
  | _ =>
      match keys with
      | [] => OOB
      | k0 :: _ =>
          if (1 <? length keys)%nat then
            let! o := getitems h self (firstn (length keys - 1) keys) in
            let! k := rd keys (length keys - 1) in
            kernel_setitem assign h o k item
          else kernel_setitem assign h self k0 item
      end
  end.

(** ** The compiled code *)

(** Calls that the pass leaves: subscripts inside of keys stay calls of __getitem__ (the
    mutator does not visit the arguments of a fused call). *)
Definition lift (r : option val) : res val := match r with Some v => Ok v | None => Exn RuntimeError end.
Fixpoint run_expr (e : expr) (h : heap) : heap * res val :=
  match e with
  | EAny c => let (h, r) := c h in (h, lift r)
  | EGet e k =>
      match run_expr e h with
      | (h, Ok x) =>
          match run_expr k h with
          | (h, Ok kv) => (h, kernel_getitem h x kv)
          | (h, r) => (h, r)
          end
      | (h, r) => (h, r)
      end
  end.

(** fuse_cont_get_set_item.h 76-89: FlatContCallArgs, keys are pushed back *)
Fixpoint flat (op : expr) (keys : list expr) : expr * list expr :=
  match op with
  | EAny _ => (op, keys)
  | EGet e k => flat e (keys ++ [k])
  end.

(** The initializer list of keys, evaluated from left to right (C++ [dcl.init.list]). *)
Fixpoint run_list (ks : list expr) (h : heap) : heap * res (list val) :=
  match ks with
  | [] => (h, Ok [])
  | k :: ks =>
      match run_expr k h with
      | (h, Ok v) => let (h, r) := run_list ks h in (h, rmap (cons v) r)
      | (h, Exn e) => (h, Exn e)
      | (h, OOB) => (h, OOB)
      | (h, OutOfFuel) => (h, OutOfFuel)
      end
  end.

(** 38-74: VisitExpr_ of __getitem__, and the call it makes.  C++ leaves the order of self and
    the list open; the model takes self first. *)
Definition run_get (e k : expr) (h : heap) : heap * res val :=
  let (self, keys) := flat e [k] in
  let reverse_keys := rev keys in
  match run_expr self h with
  | (h, Ok x) =>
      match run_list reverse_keys h with
      | (h, Ok ks) => (h, fused_getitem h x ks)
      | (h, Exn e) => (h, Exn e)
      | (h, OOB) => (h, OOB)
      | (h, OutOfFuel) => (h, OutOfFuel)
      end
  | (h, r) => (h, r)
  end.

(** 39-56: VisitExpr_ of __setitem__; the model takes self, keys, item in this order. *)
Definition run_set (assign : heap -> view -> val -> option heap) (e k v : expr) (h : heap) : heap * res unit :=
  let (self, keys) := flat e [k] in
  let reverse_keys := rev keys in
  match run_expr self h with
  | (h, Ok x) =>
      match run_list reverse_keys h with
      | (h, Ok ks) =>
          match run_expr v h with
          | (h, Ok item) =>
              match fused_setitem assign h x ks item with
              | Ok h' => (h', Ok tt)
              | Exn e => (h, Exn e)
              | OOB => (h, OOB)
              | OutOfFuel => (h, OutOfFuel)
              end
          | (h, Exn e) => (h, Exn e)
          | (h, OOB) => (h, OOB)
          | (h, OutOfFuel) => (h, OutOfFuel)
          end
      | (h, Exn e) => (h, Exn e)
      | (h, OOB) => (h, OOB)
      | (h, OutOfFuel) => (h, OutOfFuel)
      end
  | (h, Exn e) => (h, Exn e)
  | (h, OOB) => (h, OOB)
  | (h, OutOfFuel) => (h, OutOfFuel)
  end.
