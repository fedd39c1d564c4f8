(** What it means that a value survives: the two values are the same, up to what Python does
    not define (the order in which a dict or set is iterated) and what cannot survive (the
    address of an object). *)
From Coq Require Import Permutation.
From Verif Require Import Base Utf8Spec PkModel.
From Coq Require Import String.
Close Scope string_scope.

Inductive same : value -> value -> Prop :=
| same_none : same VNone VNone
| same_int z : same (VInt z) (VInt z)
| same_float f : same (VFloat f) (VFloat f)
| same_bytes s : same (VBytes s) (VBytes s)
| same_str u : same (VStr u) (VStr u)
| same_list l l' : Forall2 same l l' -> same (VList l) (VList l')
| same_tuple l l' : Forall2 same l l' -> same (VTuple l) (VTuple l')
| same_set l l' l2 : Forall2 same l l2 -> Permutation l2 l' -> same (VSet l) (VSet l')
| same_dict l l' l2 :
    Forall2 (fun p q => same (fst p) (fst q) /\ same (snd p) (snd q)) l l2 ->
    Permutation l2 l' -> same (VDict l) (VDict l')
| same_arr a : same (VArr a) (VArr a)
| same_obj o o' : o_tag o = o_tag o' -> o_vars o = o_vars o' -> o_kind o = o_kind o' ->
    o_native o = o_native o' -> o_jit o = o_jit o' -> o_class o = o_class o' ->
    o_name o = o_name o' -> same (VObj o) (VObj o')
| same_handle p : same (VHandle p) (VHandle p).

(** The text of a double is a numeral that is no integer, and is read back exactly. *)
Definition exact (fl : flt) (f : Z) : Prop :=
  Forall (fun c => In c (txt "0123456789+-.eENaInfity")) (dtoa fl f)
  /\ (exists c r, dtoa fl f = c :: r /\ In c (txt "-0123456789NI"))
  /\ (exists c, In c (dtoa fl f) /\ In c (txt ".eENI"))
  /\ strtod fl (dtoa fl f) = Some f.

(** The tables only reorder. *)
Definition reorders (tb : tables) : Prop :=
  (forall l, Permutation l (dict_order tb l)) /\ (forall l, Permutation l (set_order tb l)).

(** The element types of arrays that are written, and what their elements can be. *)
Definition element (fl : flt) (c b x : Z) : Prop :=
  (c = 0 /\ In b [8; 16; 32; 64] /\ - 2 ^ (b - 1) <= x < 2 ^ (b - 1))
  \/ (c = 1 /\ In b [8; 16] /\ 0 <= x < 2 ^ b)
  \/ (c = 2 /\ exact fl x /\ (b = 64 \/ In b [16; 32] /\ narrow fl b x = x)).
Definition element_type (c b n : Z) : Prop :=
  n = 1 /\ (c = 0 /\ In b [8; 16; 32; 64] \/ c = 1 /\ In b [8; 16] \/ c = 2 /\ In b [16; 32; 64]).

Definition utf8_text (s : list Z) : Prop := exists cs, wf cs s.

(** Keys no two of which are equal: what a dict or set holds. *)
Inductive distinct (tb : tables) : list value -> Prop :=
| distinct_nil : distinct tb []
| distinct_cons k l : Forall (fun k' => keq tb k k' = false) l -> distinct tb l ->
    distinct tb (k :: l).

(** The values that are written: numbers, texts, lists, tuples, sets, dicts, contiguous
    arrays of the element types above, native operators, handles. *)
Inductive storable (fl : flt) (tb : tables) : value -> Prop :=
| st_none : storable fl tb VNone
| st_int z : int64 z -> storable fl tb (VInt z)
| st_float f : exact fl f -> storable fl tb (VFloat f)
| st_bytes s : Forall is_byte s -> storable fl tb (VBytes s)
| st_str u : Forall scalar u -> storable fl tb (VStr u)
| st_list l : Forall (storable fl tb) l -> storable fl tb (VList l)
| st_tuple l : Forall (storable fl tb) l -> Z.of_nat (List.length l) < 2 ^ 32 ->
    storable fl tb (VTuple l)
| st_set l : Forall (storable fl tb) l -> Forall (fun k => hashable k = true) l ->
    distinct tb l -> storable fl tb (VSet l)
| st_dict l : Forall (fun p => storable fl tb (fst p) /\ storable fl tb (snd p)) l ->
    Forall (fun p => hashable (fst p) = true) l -> distinct tb (map fst l) ->
    storable fl tb (VDict l)
| st_arr c b n sh xs : element_type c b n -> Forall (element fl c b) xs ->
    Forall (fun d => 0 <= d < 2 ^ 63) sh -> Z.of_nat (List.length xs) = fold_right Z.mul 1 sh ->
    storable fl tb (VArr (Arr c b n sh true xs))
| st_obj tag vars cls addr jit class name :
    0 <= tag < 2 ^ 32 -> 0 <= vars < 2 ^ 32 -> 0 <= addr < 2 ^ 64 ->
    utf8_text cls -> utf8_text class -> utf8_text name -> ~ In 0 class -> ~ In 0 name ->
    storable fl tb (VObj (Obj tag vars 2 cls addr true jit class name))
| st_handle p : 0 <= p < 2 ^ 64 -> storable fl tb (VHandle p).

(** No infinity and no NaN anywhere. *)
Inductive no_inf : value -> Prop :=
| ni_float f : (f / 2 ^ 52) mod 2048 <> 2047 -> no_inf (VFloat f)
| ni_list l : Forall no_inf l -> no_inf (VList l)
| ni_tuple l : Forall no_inf l -> no_inf (VTuple l)
| ni_set l : Forall no_inf l -> no_inf (VSet l)
| ni_dict l : Forall (fun p => no_inf (fst p) /\ no_inf (snd p)) l -> no_inf (VDict l)
| ni_arr a : a_code a = 2 -> Forall (fun f => (f / 2 ^ 52) mod 2048 <> 2047) (a_data a) ->
    no_inf (VArr a)
| ni_arr_int a : a_code a <> 2 -> no_inf (VArr a)
| ni_none : no_inf VNone | ni_int z : no_inf (VInt z) | ni_bytes s : no_inf (VBytes s)
| ni_str u : no_inf (VStr u) | ni_obj o : no_inf (VObj o) | ni_handle p : no_inf (VHandle p).

(** The values json.dumps writes as Python does: None, ints, floats, strs, lists, and dicts
    whose keys are strs. *)
Inductive jsonable (fl : flt) (tb : tables) : value -> Prop :=
| js_none : jsonable fl tb VNone
| js_int z : int64 z -> jsonable fl tb (VInt z)
| js_float f : exact fl f -> jsonable fl tb (VFloat f)
| js_str u : Forall scalar u -> jsonable fl tb (VStr u)
| js_list l : Forall (jsonable fl tb) l -> jsonable fl tb (VList l)
| js_dict l :
    Forall (fun p => (exists u, fst p = VStr u /\ Forall scalar u) /\ jsonable fl tb (snd p)) l ->
    distinct tb (map fst l) -> jsonable fl tb (VDict l).
