(** * Chained subscripts: what x[k1][k2]...[kn] and x[k1]...[kn] = v mean in Python *)

From Coq Require Import ZArith List Bool.
Import ListNotations.
Local Open Scope Z_scope.

(** An array is a view of a buffer: where it starts, its shape and strides in elements. *)
Record view := View { v_buf : nat; v_off : Z; v_shape : list Z; v_strides : list Z }.

(** Values; lists and dicts are references to objects of the heap. *)
Inductive val :=
| VNone
| VNum (z : Z)
| VText (l : list Z)
| VTup (l : list val)
| VRef (a : nat)
| VArr (w : view).

Inductive obj :=
| OList (l : list val)
| ODict (l : list (val * val))
| OBuf (l : list Z).
Definition heap := list obj.

(** Item k of a sequence: -len <= k < len, counted from the end when negative. *)
Definition item_at {A} (l : list A) (k : Z) : option A :=
  let n := Z.of_nat (length l) in
  if (- n <=? k) && (k <? n) then nth_error l (Z.to_nat (k mod n)) else None.

Fixpoint replace {A} (l : list A) (n : nat) (x : A) : list A :=
  match l, n with
  | [], _ => []
  | _ :: l, O => x :: l
  | y :: l, S n => y :: replace l n x
  end.

(** Keys of dicts: None, numbers and texts (tuples as keys are left out). *)
Fixpoint text_eqb (a b : list Z) : bool :=
  match a, b with
  | [], [] => true
  | x :: a, y :: b => (x =? y) && text_eqb a b
  | _, _ => false
  end.
Definition hashable (k : val) : bool :=
  match k with VNone | VNum _ | VText _ => true | _ => false end.
Definition key_eqb (a b : val) : bool :=
  match a, b with
  | VNone, VNone => true
  | VNum x, VNum y => x =? y
  | VText x, VText y => text_eqb x y
  | _, _ => false
  end.
Fixpoint lookup (d : list (val * val)) (k : val) : option val :=
  match d with
  | [] => None
  | (k', v) :: d => if key_eqb k' k then Some v else lookup d k
  end.
Fixpoint insert (d : list (val * val)) (k v : val) : list (val * val) :=
  match d with
  | [] => [(k, v)]
  | (k', v') :: d => if key_eqb k' k then (k', v) :: d else (k', v') :: insert d k v
  end.

(** w[i] of an array: the part at index i of the first axis. *)
Definition part (w : view) (i : Z) : option view :=
  match v_shape w, v_strides w with
  | n :: sh, s :: st =>
      if (- n <=? i) && (i <? n) then Some (View (v_buf w) (v_off w + i mod n * s) sh st) else None
  | _, _ => None
  end.

(** The number in a cell of a buffer. *)
Definition cell (h : heap) (b : nat) (o : Z) : option Z :=
  match nth_error h b with
  | Some (OBuf l) => if 0 <=? o then nth_error l (Z.to_nat o) else None
  | _ => None
  end.
Definition set_cell (h : heap) (b : nat) (o z : Z) : option heap :=
  match nth_error h b with
  | Some (OBuf l) =>
      if (0 <=? o) && (o <? Z.of_nat (length l))
      then Some (replace h b (OBuf (replace l (Z.to_nat o) z))) else None
  | _ => None
  end.

(** All cells of a view get the number z. *)
Fixpoint fill (h : heap) (b : nat) (o : Z) (sh st : list Z) (z : Z) : option heap :=
  match sh, st with
  | n :: sh, s :: st =>
      fold_left (fun r i => match r with Some h => fill h b (o + Z.of_nat i * s) sh st z | None => None end)
        (seq 0 (Z.to_nat n)) (Some h)
  | _, _ => set_cell h b o z
  end.

(** x[k]; [None]: raises. *)
Definition py_get (h : heap) (x k : val) : option val :=
  match x, k with
  | VRef a, _ =>
      match nth_error h a, k with
      | Some (OList l), VNum i => item_at l i
      | Some (ODict d), _ => if hashable k then lookup d k else None
      | _, _ => None
      end
  | VTup l, VNum i => item_at l i
  | VText l, VNum i => option_map (fun c => VText [c]) (item_at l i)
  | VArr w, VNum i =>
      match part w i with
      | Some w' =>
          match v_shape w' with
          | [] => option_map VNum (cell h (v_buf w') (v_off w'))
          | _ => Some (VArr w')
          end
      | None => None
      end
  | _, _ => None
  end.

(** x[k] = v.  [assign h w v] puts an array or a nested list into the cells of the view w (the
    subject of C52 and C53). *)
Definition py_set (assign : heap -> view -> val -> option heap) (h : heap) (x k v : val) : option heap :=
  match x, k with
  | VRef a, _ =>
      match nth_error h a, k with
      | Some (OList l), VNum i =>
          match item_at l i with
          | Some _ => Some (replace h a (OList (replace l (Z.to_nat (i mod Z.of_nat (length l))) v)))
          | None => None
          end
      | Some (ODict d), _ => if hashable k then Some (replace h a (ODict (insert d k v))) else None
      | _, _ => None
      end
  | VArr w, VNum i =>
      match part w i with
      | Some w' =>
          match v with
          | VNum z => fill h (v_buf w') (v_off w') (v_shape w') (v_strides w') z
          | _ => assign h w' v
          end
      | None => None
      end
  | _, _ => None
  end.

(** Expressions: subscripts, and anything else as a function that may change the heap and
    raise. *)
Definition comp := heap -> heap * option val.
Inductive expr :=
| EAny (c : comp)
| EGet (e k : expr).

Fixpoint py_eval (e : expr) (h : heap) : heap * option val :=
  match e with
  | EAny c => c h
  | EGet e k =>
      match py_eval e h with
      | (h, Some x) =>
          match py_eval k h with
          | (h, Some kv) => (h, py_get h x kv)
          | (h, None) => (h, None)
          end
      | (h, None) => (h, None)
      end
  end.

(** e[k] = v: first the value, then the object, then the key. *)
Definition py_assign (assign : heap -> view -> val -> option heap) (e k v : expr) (h : heap) : heap * bool :=
  match py_eval v h with
  | (h, Some vv) =>
      match py_eval e h with
      | (h, Some x) =>
          match py_eval k h with
          | (h, Some kv) =>
              match py_set assign h x kv vv with
              | Some h => (h, true)
              | None => (h, false)
              end
          | (h, None) => (h, false)
          end
      | (h, None) => (h, false)
      end
  | (h, None) => (h, false)
  end.

(** An expression that does not change the heap. *)
Definition pure (e : expr) : Prop := forall h, fst (py_eval e h) = h.

(** The keys of a chain, all but the first (the one next to the root), do not change the heap. *)
Fixpoint later_keys_pure (e : expr) : Prop :=
  match e with
  | EAny _ => True
  | EGet (EAny _) _ => True
  | EGet e k => later_keys_pure e /\ pure k
  end.
(** The root and all keys of a chain do not change the heap. *)
Fixpoint chain_pure (e : expr) : Prop :=
  match e with
  | EAny _ => pure e
  | EGet e k => chain_pure e /\ pure k
  end.

(** Every element of the array lies in its buffer. *)
Fixpoint inside (h : heap) (b : nat) (o : Z) (sh st : list Z) : Prop :=
  match sh, st with
  | [], [] => cell h b o <> None
  | n :: sh, s :: st => forall i, 0 <= i < n -> inside h b (o + i * s) sh st
  | _, _ => False
  end.
