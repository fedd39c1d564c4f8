(** What an array handle is to somebody who has never heard of sharing: a variable holds a
    value, and a value is nothing (a null handle), a leaf, or a list of values.  Every call
    acts on the value of the variables it names and on no other. *)
From Verif Require Import Base ListAux CowModel.

Inductive val := VNull | VLeaf (z : Z) | VArr (l : list val).

(** What reading a handle through the API gives: [size()] and, for each index, the element,
    read in turn. *)
Inductive reads (h : heap) : ref -> val -> Prop :=
| reads_null : reads h None VNull
| reads_leaf a rc z : lookup h a = Some (Leaf rc z) -> reads h (Some a) (VLeaf z)
| reads_arr a l :
    size_of h a = Ok (length l) ->
    (forall i v, nth_error l i = Some v ->
       exists r, get_slot h a i = Ok r /\ reads h r v) ->
    reads h (Some a) (VArr l).

Definition kind_v (v : val) : kind :=
  match v with VNull => KNull | VLeaf z => KLeaf z | VArr _ => KArr end.
(** The list a variable holds; a null handle has none. *)
Definition arr_v (vs : list val) (x : nat) : res (option (list val)) :=
  let! v := rd vs x in
  match v with VNull => Ok None | VArr l => Ok (Some l) | VLeaf _ => Exn TypeError end.
(** The list of a handle that must not be null. *)
Definition list_v (vs : list val) (x : nat) : res (list val) :=
  let! o := arr_v vs x in
  match o with None => Exn ValueError | Some l => Ok l end.
Fixpoint rds_v (vs : list val) (ys : list nat) : res (list val) :=
  match ys with
  | [] => Ok []
  | y :: ys' => let! v := rd vs y in let! l := rds_v vs ys' in Ok (v :: l)
  end.
Definition set_v (vs : list val) (x : nat) (v : val) : res (list val * obs) :=
  let! _ := rd vs x in Ok (lset vs x v, Done).

(** The callback, applied to each element in order. *)
Definition act (vs : list val) (f : kind -> action) (v : val) : res val :=
  match f (kind_v v) with
  | Keep => Ok v
  | Use y => rd vs y
  | Fresh z => Ok (VLeaf z)
  | Throw => Exn (UserError 0)
  end.
Fixpoint map_v (vs : list val) (f : kind -> action) (l : list val) : res (list val) :=
  match l with
  | [] => Ok []
  | v :: l' => let! w := act vs f v in let! m := map_v vs f l' in Ok (w :: m)
  end.

(** The calls, on values.  [Exn e]: the call raises and changes nothing.  [OOB]: the call is
    outside the API's contract (a variable or a position that does not exist). *)
Definition exec_v (vs : list val) (o : op) : res (list val * obs) :=
  match o with
  | New x z => set_v vs x (VLeaf z)
  | NewArr x => set_v vs x (VArr [])
  | Repeat x n y =>
      let! v := rd vs y in
      if n <? 0 then Exn CheckFailed else set_v vs x (VArr (repeat v (Z.to_nat n)))
  | Copy x y => let! v := rd vs y in set_v vs x v
  | Move x y => let! v := rd vs y in set_v (lset vs y VNull) x v
  | Drop x => set_v vs x VNull
  | Push x y =>
      let! o := arr_v vs x in
      let! v := rd vs y in
      set_v vs x (VArr (match o with Some l => l | None => [] end ++ [v]))
  | Insert x i y =>
      let! l := list_v vs x in
      let! v := rd vs y in
      if (length l <? i)%nat then OOB
      else set_v vs x (VArr (firstn i l ++ v :: skipn i l))
  | InsertRange x i ys =>
      let! m := rds_v vs ys in
      let! _ := arr_v vs x in
      match m with
      | [] => Ok (vs, Done)
      | _ =>
          let! l := list_v vs x in
          if (length l <? i)%nat then OOB
          else set_v vs x (VArr (firstn i l ++ m ++ skipn i l))
      end
  | Pop x =>
      let! l := list_v vs x in
      match l with [] => Exn ValueError | _ => set_v vs x (VArr (removelast l)) end
  | Erase x i =>
      let! l := list_v vs x in
      if (0 <=? i) && (i <? Z.of_nat (length l))
      then set_v vs x (VArr (firstn (Z.to_nat i) l ++ skipn (S (Z.to_nat i)) l))
      else Exn ValueError
  | EraseRange x i j =>
      let! o := arr_v vs x in
      if i =? j then Ok (vs, Done) else
      let! l := list_v vs x in
      if (0 <=? i) && (i <? j) && (j <=? Z.of_nat (length l))
      then set_v vs x (VArr (firstn (Z.to_nat i) l ++ skipn (Z.to_nat j) l))
      else Exn ValueError
  | Resize x n =>
      let! o := arr_v vs x in
      let l := match o with Some l => l | None => [] end in
      if n <? 0 then Exn ValueError
      else set_v vs x (VArr (firstn (Z.to_nat n) l ++ repeat VNull (Z.to_nat n - length l)))
  | Reserve x n =>
      let! o := arr_v vs x in
      match o with
      | Some l => Ok (vs, Done)
      | None => if n <? 0 then Exn CheckFailed else set_v vs x (VArr [])
      end
  | Clear x =>
      let! o := arr_v vs x in
      match o with Some _ => set_v vs x (VArr []) | None => Ok (vs, Done) end
  | Set_ x i y =>
      let! v := rd vs y in
      let! o := arr_v vs x in
      let l := match o with Some l => l | None => [] end in
      if (0 <=? i) && (i <? Z.of_nat (length l))
      then set_v vs x (VArr (lset l (Z.to_nat i) v))
      else Ok (lset vs x (VArr l), Raised IndexError)   (* a null handle is empty afterwards *)
  | Assign x ys =>
      let! m := rds_v vs ys in
      let! _ := arr_v vs x in
      set_v vs x (VArr m)
  | Get x y i =>
      let! l := list_v vs y in
      if (0 <=? i) && (i <? Z.of_nat (length l))
      then let! v := rd l (Z.to_nat i) in set_v vs x v
      else Exn IndexError
  | Front x y =>
      let! l := list_v vs y in
      match l with [] => Exn IndexError | v :: _ => set_v vs x v end
  | Back x y =>
      let! l := list_v vs y in
      match l with [] => Exn IndexError | v :: _ => set_v vs x (last l v) end
  | Size x =>
      let! o := arr_v vs x in
      Ok (vs, Answer (match o with Some l => Z.of_nat (length l) | None => 0 end))
  | Map x y f =>
      let! o := arr_v vs y in
      match o with
      | None => set_v vs x VNull
      | Some l => let! m := map_v vs f l in set_v vs x (VArr m)
      end
  | Mutate x f =>
      let! o := arr_v vs x in
      match o with
      | None => Ok (vs, Done)
      | Some l => let! m := map_v vs f l in set_v vs x (VArr m)
      end
  | Concat x y z =>
      let! o := arr_v vs y in
      let! o' := arr_v vs z in
      let m := match o' with Some l => l | None => [] end in
      set_v vs x (match o, m with
                  | None, [] => VNull
                  | None, _ => VArr m
                  | Some l, _ => VArr (l ++ m)
                  end)
  end.
Definition step_v (vs : list val) (o : op) : res (list val * obs) :=
  match exec_v vs o with
  | Exn e => Ok (vs, Raised e)
  | r => r
  end.
Fixpoint run_v (vs : list val) (l : list op) : res (list val * list obs) :=
  match l with
  | [] => Ok (vs, [])
  | o :: l' =>
      let! (vs, b) := step_v vs o in
      let! (vs, bs) := run_v vs l' in
      Ok (vs, b :: bs)
  end.

(** The calls for which the code keeps its word; the others are refuted one by one. *)
Definition tame (vs : list val) (o : op) : Prop :=
  match o with
  | Push x y | Insert x _ y => x <> y             (* the argument is the array itself *)
  | Resize x n => arr_v vs x = Ok None -> n <= 0  (* a null handle given a size *)
  | Mutate x f => forall k, f k <> Throw /\ f k <> Use x
  | Concat _ _ z => arr_v vs z <> Ok None         (* iterating a null handle *)
  | _ => True
  end.
Fixpoint tame_run (vs : list val) (l : list op) : Prop :=
  match l with
  | [] => True
  | o :: l' => tame vs o /\ forall vs' b, step_v vs o = Ok (vs', b) -> tame_run vs' l'
  end.

(** The objects somebody can still get at: those in the variables, and the elements of
    arrays that can be got at. *)
Inductive reach (h : heap) (vs : list ref) : nat -> Prop :=
| reach_var a : In (Some a) vs -> reach h vs a
| reach_elem b n i a : reach h vs b -> size_of h b = Ok n -> (i < n)%nat ->
    get_slot h b i = Ok (Some a) -> reach h vs a.
