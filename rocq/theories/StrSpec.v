(** Strings as values: a variable holds a list of characters and no operation on one variable
    changes another. *)
From Verif Require Import Base ListAux.
Local Open Scope nat_scope.

(** The operations of a program on numbered variables, as C++ writes them. *)
Inductive sop : Type :=
| New (v : nat) (l : list Z)            (* String v(l.data(), l.size()) *)
| NewFill (v n : nat) (c : Z)           (* String v(n, c) *)
| Copy (v w : nat)                      (* String v(w) *)
| Move (v w : nat)                      (* String v(std::move(w)) *)
| OfView (v w cut1 cut2 : nat)          (* string_view x = w; x.remove_prefix(cut1);
                                           x.remove_suffix(cut2); String v(x) *)
| Sub (v w pos n : nat)                 (* String v(w, pos, n) *)
| Destroy (v : nat)
| Assign (v w : nat)                    (* v = w *)
| MoveAssign (v w : nat)                (* v = std::move(w) *)
| AssignView (v w : nat)                (* v = w.view() *)
| AssignSub (v w pos n : nat)           (* v.assign(w, pos, n) *)
| AssignLit (v : nat) (l : list Z)      (* v.assign(l.data(), l.size()) *)
| AssignChar (v : nat) (c : Z)          (* v = c *)
| Append (v w pos n : nat)              (* v.append(w, pos, n) *)
| AppendLit (v : nat) (l : list Z)
| AppendFill (v n : nat) (c : Z)        (* v.append(n, c); v.push_back(c) for n = 1 *)
| PopBack (v : nat)
| Resize (v n : nat) (c : Z)            (* v.resize(n, c); v.clear() for n = 0 *)
| Reserve (v n : nat)
| ShrinkToFit (v : nat)
| Insert (v pos w pos2 n : nat)         (* v.insert(pos, w, pos2, n) *)
| InsertLit (v pos : nat) (l : list Z)
| InsertFill (v pos n : nat) (c : Z)
| Erase (v pos n : nat)
| Replace (v pos n w pos2 n2 : nat)     (* v.replace(pos, n, w, pos2, n2) *)
| ReplaceFill (v pos n n2 : nat) (c : Z)
| SetAt (v pos : nat) (c : Z)           (* v.at(pos) = c *)
| ToBox (v w : nat)                     (* RTValue v(std::move(w)) *)
| FromBox (v w : nat)                   (* String v = std::move(w).As<String>() *)
| CopyBox (v w : nat)                   (* RTValue v(w), v and w runtime values *)
| DestroyBox (v : nat).

(** A variable: not constructed, a String, or a runtime value holding a string. *)
Inductive vslot : Type := VFree | VStr (l : list Z) | VBox (l : list Z).

Definition str_of (x : option vslot) : option (list Z) :=
  match x with Some (VStr l) => Some l | _ => None end.
Definition box_of (x : option vslot) : option (list Z) :=
  match x with Some (VBox l) => Some l | _ => None end.
Definition is_free (x : option vslot) : bool :=
  match x with Some VFree => true | _ => false end.

(** What an operation does: nothing is said ([Misuse]: a variable that does not hold what is
    used, an empty string popped, a position of insert past the end, a string inserted into
    itself, a view cut with remove_prefix or remove_suffix), an exception, or new values. *)
Inductive effect : Type := Misuse | Raises (e : exn) | Sets (vs : list (nat * vslot)).

Definition substring (l : list Z) (pos n : nat) : list Z := firstn n (skipn pos l).

Definition with_str (st : list vslot) (v : nat) (k : list Z -> effect) : effect :=
  match str_of (nth_error st v) with Some l => k l | None => Misuse end.
Definition with_free (st : list vslot) (v : nat) (k : effect) : effect :=
  if is_free (nth_error st v) then k else Misuse.
Definition with_box (st : list vslot) (v : nat) (k : list Z -> effect) : effect :=
  match box_of (nth_error st v) with Some l => k l | None => Misuse end.
Definition checked (pos : nat) (l : list Z) (k : effect) : effect :=
  if length l <? pos then Raises IndexError else k.

Definition meaning (o : sop) (st : list vslot) : effect :=
  match o with
  | New v l => with_free st v (Sets [(v, VStr l)])
  | NewFill v n c => with_free st v (Sets [(v, VStr (repeat c n))])
  | Copy v w => with_free st v (with_str st w (fun l => Sets [(v, VStr l)]))
  | Move v w => with_free st v (with_str st w (fun l => Sets [(v, VStr l); (w, VStr [])]))
  | OfView v w a b =>
      with_free st v (with_str st w (fun l =>
        if (a =? 0) && (b =? 0) then Sets [(v, VStr l)] else Misuse))
  | Sub v w pos n =>
      with_free st v (with_str st w (fun l => checked pos l (Sets [(v, VStr (substring l pos n))])))
  | Destroy v => with_str st v (fun _ => Sets [(v, VFree)])
  | Assign v w => with_str st v (fun _ => with_str st w (fun l => Sets [(v, VStr l)]))
  | MoveAssign v w =>
      with_str st v (fun _ => with_str st w (fun l =>
        if v =? w then Sets [] else Sets [(v, VStr l); (w, VStr [])]))
  | AssignView v w => with_str st v (fun _ => with_str st w (fun l => Sets [(v, VStr l)]))
  | AssignSub v w pos n =>
      with_str st v (fun _ => with_str st w (fun l =>
        checked pos l (Sets [(v, VStr (substring l pos n))])))
  | AssignLit v l => with_str st v (fun _ => Sets [(v, VStr l)])
  | AssignChar v c => with_str st v (fun _ => Sets [(v, VStr [c])])
  | Append v w pos n =>
      with_str st v (fun a => with_str st w (fun l =>
        checked pos l (Sets [(v, VStr (a ++ substring l pos n))])))
  | AppendLit v l => with_str st v (fun a => Sets [(v, VStr (a ++ l))])
  | AppendFill v n c => with_str st v (fun a => Sets [(v, VStr (a ++ repeat c n))])
  | PopBack v => with_str st v (fun a => match a with
                                         | [] => Misuse
                                         | _ => Sets [(v, VStr (removelast a))]
                                         end)
  | Resize v n c => with_str st v (fun a => Sets [(v, VStr (firstn n a ++ repeat c (n - length a)))])
  | Reserve v _ => with_str st v (fun a => Sets [(v, VStr a)])
  | ShrinkToFit v => with_str st v (fun a => Sets [(v, VStr a)])
  | Insert v pos w pos2 n =>
      with_str st v (fun a => with_str st w (fun l =>
        checked pos2 l (if (v =? w) || (length a <? pos) then Misuse
                        else Sets [(v, VStr (firstn pos a ++ substring l pos2 n ++ skipn pos a))])))
  | InsertLit v pos l =>
      with_str st v (fun a => if length a <? pos then Misuse
                              else Sets [(v, VStr (firstn pos a ++ l ++ skipn pos a))])
  | InsertFill v pos n c =>
      with_str st v (fun a => if length a <? pos then Misuse
                              else Sets [(v, VStr (firstn pos a ++ repeat c n ++ skipn pos a))])
  | Erase v pos n =>
      with_str st v (fun a => checked pos a (Sets [(v, VStr (firstn pos a ++ skipn (pos + n) a))]))
  | Replace v pos n w pos2 n2 =>
      with_str st v (fun a => with_str st w (fun l =>
        checked pos2 l (checked pos a
          (Sets [(v, VStr (firstn pos a ++ substring l pos2 n2 ++ skipn (pos + n) a))]))))
  | ReplaceFill v pos n n2 c =>
      with_str st v (fun a => checked pos a
        (Sets [(v, VStr (firstn pos a ++ repeat c n2 ++ skipn (pos + n) a))]))
  | SetAt v pos c =>
      with_str st v (fun a => if length a <=? pos then Raises IndexError
                              else Sets [(v, VStr (lset a pos c))])
  | ToBox v w => with_free st v (with_str st w (fun l => Sets [(v, VBox l); (w, VStr [])]))
  | FromBox v w => with_free st v (with_box st w (fun l => Sets [(v, VStr l); (w, VFree)]))
  | CopyBox v w => with_free st v (with_box st w (fun l => Sets [(v, VBox l)]))
  | DestroyBox v => with_box st v (fun _ => Sets [(v, VFree)])
  end.

Fixpoint set_all (st : list vslot) (vs : list (nat * vslot)) : list vslot :=
  match vs with
  | [] => st
  | (v, x) :: vs => set_all (lset st v x) vs
  end.

(** [behaves os st st' l]: the program [os] leads from the values [st] to [st'] with the
    exceptions [l], and is no misuse. *)
Inductive behaves : list sop -> list vslot -> list vslot -> list (option exn) -> Prop :=
| bh_end st : behaves [] st st []
| bh_set o os st vs st' l : meaning o st = Sets vs -> behaves os (set_all st vs) st' l ->
    behaves (o :: os) st st' (None :: l)
| bh_raise o os st e st' l : meaning o st = Raises e -> behaves os st st' l ->
    behaves (o :: os) st st' (Some e :: l).
