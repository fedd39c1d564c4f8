(** Serialised values: pickle.serialize / pickle.deserialize, the configuration file of a
    saved session, and json.dumps / json.loads of compiled code.

    A byte string is the list of its bytes, a str the list of its code points.  A double is
    its 64-bit pattern.  Not modelled: the memory of the JSON documents (allocators, copies),
    the address of a rebuilt native object and everything it is bound to later, the custom
    data types of String2DLDataType, stack exhaustion on deeply nested values. *)
From Coq Require Import String Ascii.
From Verif Require Import Base Utf8Model FmtModel.
Close Scope string_scope.

Definition txt (s : string) : list Z :=
  map (fun a => Z.of_N (N_of_ascii a)) (list_ascii_of_string s).
Fixpoint eqs (a b : list Z) : bool :=
  match a, b with
  | [], [] => true
  | x :: a', y :: b' => (x =? y) && eqs a' b'
  | _, _ => false
  end.

(** ** Values

    What the code sees of a runtime value (include/matxscript/runtime/runtime_value.h): its
    type code and payload.  A dict or set is the list of what its iterator yields, in that
    order.  bool has no type code of its own: it is an integer. *)

(** NDArray: DLDataType (code 0 int, 1 uint, 2 float; bits; lanes), shape, whether it is
    C-contiguous (ndarray.cc:147-165) and its elements in C order.  An element is the integer,
    or the pattern of the double equal to it. *)
Record arr := Arr { a_code : Z; a_bits : Z; a_lanes : Z; a_shape : list Z;
                    a_contig : bool; a_data : list Z }.
(** UserDataRef and the NativeObject inside
    (include/matxscript/runtime/container/native_object_private.h:33-90). *)
Record obj := Obj { o_tag : Z; o_vars : Z; o_kind : Z; o_cls : list Z; o_addr : Z;
                    o_native : bool; o_jit : bool; o_class : list Z; o_name : list Z }.

Inductive value : Type :=
| VNone | VInt (z : Z) | VFloat (f : Z) | VBytes (s : list Z) | VStr (u : list Z)
| VList (l : list value) | VTuple (l : list value) | VSet (l : list value)
| VDict (l : list (value * value))
| VArr (a : arr) | VObj (o : obj)
| VHandle (p : Z)                (* kRuntimeOpaqueHandle *)
| VFunc (p : Z)                  (* kRuntimePackedFuncHandle *)
| VOther (name : list Z).        (* any other type code: Regex, Trie, File, FTList, ... *)

(** rapidjson::Value.  A number is an integer (signed or unsigned, up to 64 bits) or a
    double. *)
Inductive json : Type :=
| JNull | JBool (b : bool) | JInt (z : Z) | JDouble (f : Z) | JStr (s : list Z)
| JArr (l : list json) | JObj (l : list (list Z * json)).

Definition mmap {A B} (f : A -> res B) : list A -> res (list B) :=
  fix go (l : list A) : res (list B) :=
    match l with
    | [] => Ok []
    | x :: r => let! y := f x in let! ys := go r in Ok (y :: ys)
    end.

(** TypeIndex2Str, src/runtime/global_type_index.cc:27-97, for the type codes here;
    Any::type_name, src/runtime/runtime_value.cc:34-41. *)
Definition type_name (v : value) : list Z :=
  match v with
  | VNone => txt "nullptr" | VInt _ => txt "int" | VFloat _ => txt "float"
  | VBytes _ => txt "String" | VStr _ => txt "Unicode"
  | VList _ => txt "List" | VTuple _ => txt "Tuple" | VSet _ => txt "Set"
  | VDict _ => txt "Dict" | VArr _ => txt "NDArray" | VObj _ => txt "UserData"
  | VHandle _ => txt "handle" | VFunc _ => txt "MATXFunctionHandle" | VOther n => n
  end.

(** rapidjson FindMember: the first member of that name. *)
Fixpoint member (k : list Z) (l : list (list Z * json)) : option json :=
  match l with
  | [] => None
  | (k', v) :: r => if eqs k k' then Some v else member k r
  end.
(** JsonUtil::Set, src/runtime/json_util.cc:163-173: replaces or appends. *)
Fixpoint jset (l : list (list Z * json)) (k : list Z) (v : json) : list (list Z * json) :=
  match l with
  | [] => [(k, v)]
  | (k', v') :: r => if eqs k k' then (k', v) :: r else (k', v') :: jset r k v
  end.

(** ** Data types as text, src/runtime/data_type.cc *)

(** DLDataTypeCode2Str, data_type.cc:106-122: kDLInt 0, kDLUInt 1, kDLFloat 2, kHandle 3,
    kDLBfloat 4. *)
Definition code_text (c : Z) : res (list Z) :=
  if c =? 0 then Ok (txt "int") else if c =? 1 then Ok (txt "uint")
  else if c =? 2 then Ok (txt "float") else if c =? 3 then Ok (txt "handle")
  else if c =? 4 then Ok (txt "bfloat") else Exn CheckFailed.
(** DLDataType2String and operator<<, data_type.cc:173-202; custom types left out. *)
Definition dtype_text (c b n : Z) : res (list Z) :=
  if b =? 0 then Ok []
  else if (b =? 1) && (n =? 1) && (c =? 1) then Ok (txt "bool")
  else
    let! t := code_text c in
    if c =? 3 then Ok t
    else Ok (t ++ dec_digits 20 b [] ++ (if n =? 1 then [] else 120 :: dec_digits 20 n [])).

Fixpoint prefix (p s : list Z) : option (list Z) :=
  match p, s with
  | [], _ => Some s
  | x :: p', y :: s' => if x =? y then prefix p' s' else None
  | _, [] => None
  end.
(** strtoul in base 10: value of the leading digits and what follows.  (Leading blanks and
    signs, and saturation above 2^64, left out.) *)
Fixpoint strtoul (acc : Z) (s : list Z) : Z * list Z :=
  match s with
  | c :: r => if (48 <=? c) && (c <=? 57) then strtoul (acc * 10 + (c - 48)) r else (acc, s)
  | [] => (acc, [])
  end.
(** the end of String2DLDataType, data_type.cc:161-170 *)
Definition dtype_rest (c b : Z) (s : list Z) : res (Z * Z * Z) :=
  let '(v, r) := strtoul 0 s in
  let bits := if v mod 256 =? 0 then b else v mod 256 in
  let '(lanes, r') :=
    match r with
    | x :: r1 => if x =? 120 then let '(n, r2) := strtoul 0 r1 in (n mod 65536, r2) else (1, r)
    | [] => (1, r)
    end in
  match r' with
  | [] => Ok (c, bits, lanes)
  | _ => Exn CheckFailed
  end.
(** String2DLDataType, data_type.cc:124-171; Void is the handle type with 0 bits and lanes. *)
Definition dtype_parse (s : list Z) : res (Z * Z * Z) :=
  match s with
  | [] => Ok (3, 0, 0)
  | _ =>
    match prefix (txt "int") s with
    | Some r => dtype_rest 0 32 r
    | None =>
    match prefix (txt "uint") s with
    | Some r => dtype_rest 1 32 r
    | None =>
    match prefix (txt "float") s with
    | Some r => dtype_rest 2 32 r
    | None =>
    match prefix (txt "handle") s with
    | Some r => dtype_rest 3 64 r
    | None =>
      if eqs s (txt "bool") then Ok (1, 1, 1)
      else
      match prefix (txt "bfloat") s with
      | Some r => dtype_rest 4 32 r
      | None => Exn CheckFailed
      end
    end end end end
  end.

(** MATX_NDARRAY_TYPE_SWITCH, include/matxscript/runtime/data_type.h:359-411. *)
Definition switched (c b n : Z) : bool :=
  (n =? 1) &&
  (((c =? 0) && ((b =? 8) || (b =? 16) || (b =? 32) || (b =? 64)))
   || ((c =? 2) && ((b =? 16) || (b =? 32) || (b =? 64)))
   || ((c =? 1) && ((b =? 8) || (b =? 16)))).

Definition product (l : list Z) : Z := fold_right Z.mul 1 l.

(** The text up to its first NUL: a String made from a [const char*]. *)
Fixpoint cstr (s : list Z) : list Z :=
  match s with
  | [] => []
  | c :: r => if c =? 0 then [] else c :: cstr r
  end.

(** ** Text of a JSON document

    rapidjson (3rdparty/rapidjson, not in /repo) is modelled from RFC 8259 and its documented
    flags.  The conversions between doubles and decimal text are parameters. *)
Record flt := Flt {
  dtoa : Z -> list Z;             (* Writer::WriteDouble *)
  strtod : list Z -> option Z;    (* Reader::ParseNumber on a token that is no integer *)
  fmt16 : Z -> list Z;            (* snprintf "%.16g" *)
  strf : Z -> list Z;             (* str of a float *)
  of_int : Z -> Z;                (* static_cast<double>(int64_t) *)
  narrow : Z -> Z -> Z            (* to a float of that many bits, and back to double *)
}.

(** Writer, PrettyWriter: target encoding ASCII<> or UTF8<>; indentation; the flags
    kWriteNanAndInfFlag and kWriteValidateEncodingFlag. *)
Record style := Style { s_ascii : bool; s_indent : option Z; s_nan : bool; s_valid : bool }.

(** A finite double: its exponent field is not all ones. *)
Definition finite (f : Z) : bool := negb ((f / 2 ^ 52) mod 2048 =? 2047).

Definition between (a c b : Z) : bool := (a <=? c) && (c <=? b).
(** UTF8<>::Decode / Validate: one well-formed sequence. *)
Definition u8_next (s : list Z) : option (Z * list Z) :=
  match s with
  | [] => None
  | b0 :: r =>
    if between 0 b0 127 then Some (b0, r) else
    match r with
    | [] => None
    | b1 :: r1 =>
      if negb (between 128 b1 191) then None else
      if between 194 b0 223 then Some ((b0 - 192) * 64 + (b1 - 128), r1) else
      match r1 with
      | [] => None
      | b2 :: r2 =>
        if negb (between 128 b2 191) then None else
        if between 224 b0 239 then
          if (b0 =? 224) && (b1 <? 160) then None
          else if (b0 =? 237) && (159 <? b1) then None
          else Some ((b0 - 224) * 4096 + (b1 - 128) * 64 + (b2 - 128), r2)
        else
        match r2 with
        | [] => None
        | b3 :: r3 =>
          if negb (between 128 b3 191) then None else
          if between 240 b0 244 then
            if (b0 =? 240) && (b1 <? 144) then None
            else if (b0 =? 244) && (143 <? b1) then None
            else Some ((b0 - 240) * 262144 + (b1 - 128) * 4096 + (b2 - 128) * 64 + (b3 - 128), r3)
          else None
        end
      end
    end
  end.

Definition hex (d : Z) : Z := if d <? 10 then 48 + d else 55 + d.
Definition hex4 (c : Z) : list Z :=
  [92; 117; hex (c / 4096); hex (c / 256 mod 16); hex (c / 16 mod 16); hex (c mod 16)].
(** a code point written with \u escapes *)
Definition escaped (c : Z) : list Z :=
  if c <? 65536 then hex4 c
  else hex4 (55296 + (c - 65536) / 1024) ++ hex4 (56320 + (c - 65536) mod 1024).
(** one character below 128 in a string *)
Definition esc_char (c : Z) : list Z :=
  if c =? 8 then [92; 98] else if c =? 9 then [92; 116] else if c =? 10 then [92; 110]
  else if c =? 12 then [92; 102] else if c =? 13 then [92; 114]
  else if c <? 32 then hex4 c
  else if c =? 34 then [92; 34] else if c =? 92 then [92; 92] else [c].

(** what of [s] comes before its end [r] *)
Definition before (s r : list Z) : list Z := firstn (List.length s - List.length r) s.
(** Writer::WriteString; [None]: the writer gives up. *)
Fixpoint wchars (st : style) (fuel : nat) (s : list Z) : option (list Z) :=
  match s, fuel with
  | [], _ => Some []
  | _, O => None
  | c :: r, S fuel' =>
    if c <? 128 then
      match wchars st fuel' r with Some t => Some (esc_char c ++ t) | None => None end
    else if s_ascii st || s_valid st then
      match u8_next s with
      | None => None
      | Some (cp, r') =>
        match wchars st fuel' r' with
        | None => None
        | Some t =>
          Some ((if s_ascii st then escaped cp
                 else before s r') ++ t)
        end
      end
    else match wchars st fuel' r with Some t => Some (c :: t) | None => None end
  end.
Definition wstring (st : style) (s : list Z) : option (list Z) :=
  match wchars st (List.length s) s with Some t => Some (34 :: t ++ [34]) | None => None end.

(** PrettyWriter::PrettyPrefix, WriteIndent *)
Definition newline (st : style) (lvl : nat) : list Z :=
  match s_indent st with
  | None => []
  | Some k => 10 :: repeat 32 (lvl * Z.to_nat k)
  end.
Definition colon (st : style) : list Z :=
  match s_indent st with None => [58] | Some _ => [58; 32] end.

(** Value::Accept(writer) *)
Fixpoint wvalue (fl : flt) (st : style) (lvl : nat) (j : json) : option (list Z) :=
  match j with
  | JNull => Some (txt "null")
  | JBool b => Some (if b then txt "true" else txt "false")
  | JInt z => Some (put_int z)
  | JDouble f => if finite f || s_nan st then Some (dtoa fl f) else None
  | JStr s => wstring st s
  | JArr l =>
    match (fix go (first : bool) (l : list json) : option (list Z) :=
             match l with
             | [] => Some []
             | x :: r =>
               match wvalue fl st (S lvl) x with
               | None => None
               | Some a =>
                 match go false r with
                 | None => None
                 | Some b => Some ((if first then [] else [44]) ++ newline st (S lvl) ++ a ++ b)
                 end
               end
             end) true l with
    | None => None
    | Some b => Some (91 :: b ++ (match l with [] => [] | _ => newline st lvl end) ++ [93])
    end
  | JObj l =>
    match (fix go (first : bool) (l : list (list Z * json)) : option (list Z) :=
             match l with
             | [] => Some []
             | (k, x) :: r =>
               match wstring st k with
               | None => None
               | Some kk =>
                 match wvalue fl st (S lvl) x with
                 | None => None
                 | Some a =>
                   match go false r with
                   | None => None
                   | Some b => Some ((if first then [] else [44]) ++ newline st (S lvl)
                                     ++ kk ++ colon st ++ a ++ b)
                   end
                 end
               end
             end) true l with
    | None => None
    | Some b => Some (123 :: b ++ (match l with [] => [] | _ => newline st lvl end) ++ [125])
    end
  end.

(** Reader: blanks *)
Fixpoint skip (s : list Z) : list Z :=
  match s with
  | c :: r => if (c =? 32) || (c =? 10) || (c =? 13) || (c =? 9) then skip r else s
  | [] => []
  end.

Definition unhex (c : Z) : option Z :=
  if between 48 c 57 then Some (c - 48) else if between 65 c 70 then Some (c - 55)
  else if between 97 c 102 then Some (c - 87) else None.
Definition unhex4 (s : list Z) : option (Z * list Z) :=
  match s with
  | a :: b :: c :: d :: r =>
    match unhex a, unhex b, unhex c, unhex d with
    | Some a, Some b, Some c, Some d => Some (a * 4096 + b * 256 + c * 16 + d, r)
    | _, _, _, _ => None
    end
  | _ => None
  end.
(** the character after a backslash *)
Definition unesc (c : Z) : option Z :=
  if c =? 34 then Some 34 else if c =? 92 then Some 92 else if c =? 47 then Some 47
  else if c =? 98 then Some 8 else if c =? 102 then Some 12 else if c =? 110 then Some 10
  else if c =? 114 then Some 13 else if c =? 116 then Some 9 else None.

(** Reader::ParseString after the opening quote. *)
Fixpoint pstring (fuel : nat) (s : list Z) : res (list Z * list Z) :=
  match fuel with
  | O => OutOfFuel
  | S fuel' =>
    match s with
    | [] => Exn RuntimeError
    | c :: r =>
      if c =? 34 then Ok ([], r)
      else if c =? 92 then
        match r with
        | [] => Exn RuntimeError
        | e :: r1 =>
          if e =? 117 then
            match unhex4 r1 with
            | None => Exn RuntimeError
            | Some (h, r2) =>
              if between 55296 h 57343 then
                match r2 with
                | b :: u :: r3 =>
                  if (h <? 56320) && (b =? 92) && (u =? 117) then
                    match unhex4 r3 with
                    | Some (w, r4) =>
                      if between 56320 w 57343 then
                        let! (t, q) := pstring fuel' r4 in
                        Ok (greedy_encode_one ((h - 55296) * 1024 + (w - 56320) + 65536) ++ t, q)
                      else Exn RuntimeError
                    | None => Exn RuntimeError
                    end
                  else Exn RuntimeError
                | _ => Exn RuntimeError
                end
              else
                let! (t, q) := pstring fuel' r2 in Ok (greedy_encode_one h ++ t, q)
            end
          else
            match unesc e with
            | None => Exn RuntimeError
            | Some x => let! (t, q) := pstring fuel' r1 in Ok (x :: t, q)
            end
        end
      else if c <? 32 then Exn RuntimeError
      else let! (t, q) := pstring fuel' r in Ok (c :: t, q)
    end
  end.

(** Reader::ParseNumber: the token, then what it denotes.  The letters are those of NaN, Inf
    and Infinity (kParseNanAndInfFlag). *)
Definition num_char (c : Z) : bool :=
  between 48 c 57 || existsb (Z.eqb c) (txt "+-.eENaInfity").
Fixpoint token (s : list Z) : list Z * list Z :=
  match s with
  | c :: r => if num_char c then let '(t, q) := token r in (c :: t, q) else ([], s)
  | [] => ([], [])
  end.
(** digits without a superfluous leading zero *)
Definition digits_only (s : list Z) : bool :=
  match s with
  | [] => false
  | c :: r => forallb (fun d => between 48 d 57) s && ((c =? 48) && (match r with [] => true | _ => false end)
                                                   || negb (c =? 48))
  end.
Definition int_token (t : list Z) : option Z :=
  match t with
  | c :: r =>
    if c =? 45 then (if digits_only r then Some (- fst (strtoul 0 r)) else None)
    else if digits_only t then Some (fst (strtoul 0 t)) else None
  | [] => None
  end.
Definition pnumber (fl : flt) (s : list Z) : res (json * list Z) :=
  let '(t, q) := token s in
  match int_token t with
  | Some z =>
    if (- two63 <=? z) && (z <? two64) then Ok (JInt z, q)
    else match strtod fl t with Some f => Ok (JDouble f, q) | None => Exn RuntimeError end
  | None =>
    match strtod fl t with Some f => Ok (JDouble f, q) | None => Exn RuntimeError end
  end.

Definition literal (w : list Z) (j : json) (s : list Z) : res (json * list Z) :=
  match prefix w s with Some r => Ok (j, r) | None => Exn RuntimeError end.

(** Reader::ParseValue, ParseArray, ParseObject.  [PItems]: after a '[' or ',' of an array;
    [PMembers]: after a '{' or ',' of an object. *)
Fixpoint pvalue (fl : flt) (fuel : nat) (s : list Z) : res (json * list Z) :=
  match fuel with
  | O => OutOfFuel
  | S fuel' =>
    match s with
    | [] => Exn RuntimeError
    | c :: r =>
      if c =? 110 then literal (txt "null") JNull s
      else if c =? 116 then literal (txt "true") (JBool true) s
      else if c =? 102 then literal (txt "false") (JBool false) s
      else if c =? 34 then
        let! (t, q) := pstring (S (List.length r)) r in Ok (JStr t, q)
      else if c =? 91 then
        match skip r with
        | [] => Exn RuntimeError
        | c1 :: q =>
          if c1 =? 93 then Ok (JArr [], q)
          else let! (l, q) := pitems fl fuel' r in Ok (JArr l, q)
        end
      else if c =? 123 then
        match skip r with
        | [] => Exn RuntimeError
        | c1 :: q =>
          if c1 =? 125 then Ok (JObj [], q)
          else let! (l, q) := pmembers fl fuel' r in Ok (JObj l, q)
        end
      else pnumber fl s
    end
  end
with pitems (fl : flt) (fuel : nat) (s : list Z) : res (list json * list Z) :=
  match fuel with
  | O => OutOfFuel
  | S fuel' =>
    let! (x, q) := pvalue fl fuel' (skip s) in
    match skip q with
    | c :: q' =>
      if c =? 44 then let! (l, q2) := pitems fl fuel' q' in Ok (x :: l, q2)
      else if c =? 93 then Ok ([x], q')
      else Exn RuntimeError
    | [] => Exn RuntimeError
    end
  end
with pmembers (fl : flt) (fuel : nat) (s : list Z) : res (list (list Z * json) * list Z) :=
  match fuel with
  | O => OutOfFuel
  | S fuel' =>
    match skip s with
    | c :: r =>
      if c =? 34 then
        let! (k, q) := pstring (S (List.length r)) r in
        match skip q with
        | c1 :: q1 =>
          if c1 =? 58 then
            let! (x, q2) := pvalue fl fuel' (skip q1) in
            match skip q2 with
            | c3 :: q3 =>
              if c3 =? 44 then let! (l, q4) := pmembers fl fuel' q3 in Ok ((k, x) :: l, q4)
              else if c3 =? 125 then Ok ([(k, x)], q3)
              else Exn RuntimeError
            | [] => Exn RuntimeError
            end
          else Exn RuntimeError
        | [] => Exn RuntimeError
        end
      else Exn RuntimeError
    | [] => Exn RuntimeError
    end
  end.

(** JsonUtil::FromString, src/runtime/json_util.cc:36-44. *)
Definition from_string (fl : flt) (s : list Z) : res json :=
  let! (j, q) := pvalue fl (2 * List.length s + 2) (skip s) in
  match skip q with
  | [] => Ok j
  | _ => Exn RuntimeError
  end.

(** The writers of JsonUtil::ToString, json_util.cc:72-108.  Without [escape] the pretty
    writer indents by 2 whatever it is asked; the pretty writers have no flags. *)
Definition style_of (pretty escape : bool) (indent : Z) : style :=
  if escape then
    if pretty then Style true (Some indent) false false else Style true None true true
  else
    if pretty then Style false (Some 2) false false else Style false None true true.
(** JsonUtil::ToString, json_util.cc:62-139. *)
Definition to_string (fl : flt) (j : json) (pretty escape : bool) (indent : Z) : res (list Z) :=
  match j with
  | JNull => Ok []
  | JBool b => Ok (if b then txt "true" else txt "false")
  | JObj _ | JArr _ =>
    match wvalue fl (style_of pretty escape indent) 0 j with
    | Some t => Ok t
    | None => Exn CheckFailed
    end
  | JStr s => Ok s
  | JDouble f => Ok (fmt16 fl f)
  | JInt z => Ok (put_int z)
  end.

(** ** ToJsonStruct, src/pipeline/pickle.cc:491-652 *)

(** FromValue<T>, pickle.cc:318-366: an element as a JSON number. *)
Definition elem_json (c : Z) (x : Z) : json := if c =? 2 then JDouble x else JInt x.

(** ToJsonStructNDArray, pickle.cc:558-592. *)
Definition arr_json (a : arr) : res json :=
  if negb (a_contig a) then Exn CheckFailed
  else
    let! dt := dtype_text (a_code a) (a_bits a) (a_lanes a) in
    let m := jset [] (txt "dtype") (JStr dt) in
    let m := jset m (txt "shape") (JArr (map JInt (a_shape a))) in
    if switched (a_code a) (a_bits a) (a_lanes a) then
      Ok (JObj (jset m (txt "data") (JArr (map (elem_json (a_code a)) (a_data a)))))
    else Exn CheckFailed.

(** ToJsonStructUserData, pickle.cc:519-542; kNativeData is 2
    (include/matxscript/runtime/container/user_data_interface.h:33). *)
Definition obj_json (o : obj) : res json :=
  let m := jset [] (txt "tag") (JInt (o_tag o)) in
  let m := jset m (txt "type") (JInt (o_kind o)) in
  let m := jset m (txt "class_name") (JStr (o_cls o)) in
  let m := jset m (txt "var_num") (JInt (o_vars o)) in
  let m := m ++ [(txt "ud_ptr", JInt (o_addr o))] in
  if negb (o_kind o =? 2) then Exn CheckFailed
  else if negb (o_native o) then Exn CheckFailed
  else
    let m := jset m (txt "is_native_op") (JBool (o_native o)) in
    let m := jset m (txt "is_jit_object") (JBool (o_jit o)) in
    let m := jset m (txt "native_class_name") (JStr (o_class o)) in
    Ok (JObj (jset m (txt "native_instance_name") (JStr (o_name o)))).

(** pickle.cc:628-646: bytes are an array if one of them is NUL or above 126. *)
Definition bytes_json (s : list Z) : json :=
  if existsb (fun c => (127 <=? c) || (c =? 0)) s then JArr (map JInt s) else JStr s.

(** ToJsonStruct, pickle.cc:611-652, with ToJsonStructList, Set, Dict, ADT (491-557) and
    OpaqueData, PackedFunc (594-609). *)
Fixpoint to_struct (v : value) : res json :=
  let! p :=
    match v with
    | VNone => Ok JNull
    | VInt z => Ok (JInt z)
    | VFloat f => Ok (JDouble f)
    | VBytes s => Ok (bytes_json s)
    | VStr u => let! s := utf8_encode u in Ok (JStr s)
    | VObj o => obj_json o
    | VHandle p => Ok (JObj [(txt "user_ptr", JInt p)])
    | VFunc p => Ok (JObj [(txt "ptr", JInt p)])
    | VList l | VSet l => let! js := mmap to_struct l in Ok (JArr js)
    | VDict l =>
      let! js :=
        (fix go (l : list (value * value)) : res (list json) :=
           match l with
           | [] => Ok []
           | (k, x) :: r =>
             let! jk := to_struct k in
             let! jx := to_struct x in
             let! js := go r in Ok (jk :: jx :: js)
           end) l in
      Ok (JArr js)
    | VArr a => arr_json a
    | VTuple l =>
      let! js := mmap to_struct l in
      Ok (JObj (jset (jset [] (txt "size") (JInt (Z.of_nat (List.length l)))) (txt "data") (JArr js)))
    | VOther _ => Exn RuntimeError
    end in
  Ok (JObj [(txt "t", JStr (type_name v)); (txt "v", p)]).

(** ** FromJsonStruct, src/pipeline/pickle.cc:197-484

    A getter of rapidjson on a value of another kind fails an assertion that release builds
    do not check (pickle.h includes rapidjson before it defines RAPIDJSON_ASSERT): [UB]. *)
Definition get_int64 (j : json) : res Z :=
  match j with JInt z => if int64b z then Ok z else UB | _ => UB end.
Definition get_int (j : json) : res Z :=
  match j with JInt z => if between (- 2 ^ 31) z (2 ^ 31 - 1) then Ok z else UB | _ => UB end.
Definition get_uint (j : json) : res Z :=
  match j with JInt z => if between 0 z (2 ^ 32 - 1) then Ok z else UB | _ => UB end.
Definition get_double (fl : flt) (j : json) : res Z :=
  match j with JDouble f => Ok f | JInt z => Ok (of_int fl z) | _ => UB end.
Definition get_string (j : json) : res (list Z) := match j with JStr s => Ok s | _ => UB end.
Definition get_array (j : json) : res (list json) := match j with JArr l => Ok l | _ => UB end.

(** JSON_GET, include/matxscript/runtime/json_util.h:112-117: checked getters. *)
Definition jget {A} (m : list (list Z * json)) (k : list Z) (is : json -> option A) : res A :=
  match member k m with
  | None => Exn CheckFailed
  | Some j => match is j with Some a => Ok a | None => Exn CheckFailed end
  end.
Definition is_uint (j : json) : option Z :=
  match j with JInt z => if between 0 z (2 ^ 32 - 1) then Some z else None | _ => None end.
Definition is_uint64 (j : json) : option Z :=
  match j with JInt z => if between 0 z (two64 - 1) then Some z else None | _ => None end.
Definition is_bool (j : json) : option bool := match j with JBool b => Some b | _ => None end.
Definition is_string (j : json) : option (list Z) := match j with JStr s => Some s | _ => None end.
Definition is_array (j : json) : option (list json) := match j with JArr l => Some l | _ => None end.

(** FromJsonStructUserData, pickle.cc:230-252: what it rebuilds; the address is that of the
    new object (0 here). *)
Definition obj_of (j : json) : res obj :=
  match j with
  | JObj m =>
    let! tag := jget m (txt "tag") is_uint in
    let! kind := jget m (txt "type") is_uint in
    let! vars := jget m (txt "var_num") is_uint in
    if negb (kind =? 2) then Exn CheckFailed else
    let! native := jget m (txt "is_native_op") is_bool in
    if negb native then Exn CheckFailed else
    let! jit := jget m (txt "is_jit_object") is_bool in
    let! cls := jget m (txt "native_class_name") is_string in
    let! name := jget m (txt "native_instance_name") is_string in
    Ok (Obj tag vars 2 (txt "NativeObject") 0 native jit (cstr cls) (cstr name))
  | _ => Exn CheckFailed
  end.

Definition wraps (b z : Z) : Z := (z + 2 ^ (b - 1)) mod 2 ^ b - 2 ^ (b - 1).
(** AsValue<T>, pickle.cc:268-316. *)
Definition as_value (fl : flt) (c b : Z) (j : json) : res Z :=
  if c =? 2 then
    let! f := get_double fl j in Ok (if b =? 64 then f else narrow fl b f)
  else if b =? 64 then get_int64 j
  else
    let! z := get_int j in
    Ok (if c =? 1 then z mod 2 ^ b else if b =? 32 then z else wraps b z).
(** FromJsonStructNDArray and GetNumericDataFromJson, pickle.cc:318-330, 370-399.  Elements
    that get no value stay uninitialised memory: [UB]. *)
Definition arr_of (fl : flt) (j : json) : res arr :=
  match j with
  | JObj m =>
    match member (txt "dtype") m, member (txt "shape") m, member (txt "data") m with
    | Some _, Some _, Some data =>
      let! ds := jget m (txt "dtype") is_string in
      let! (c, b, n) := dtype_parse (cstr ds) in
      let! shape := jget m (txt "shape") is_array in
      let! dims := mmap get_int64 shape in
      if switched c b n then
        let! items := get_array data in
        let! xs := mmap (as_value fl c b) (firstn (Z.to_nat (product dims)) items) in
        if product dims <? Z.of_nat (List.length items) then Exn IndexError
        else if Z.of_nat (List.length items) <? product dims then UB
        else Ok (Arr c b n dims true xs)
      else Exn CheckFailed
    | _, _, _ => Exn CheckFailed
    end
  | _ => Exn CheckFailed
  end.

(** What a key can be: Any::Hash (src/runtime/runtime_value.cc) knows None, numbers, byte
    strings, strs and tuples of these. *)
Fixpoint hashable (v : value) : bool :=
  match v with
  | VNone | VInt _ | VFloat _ | VBytes _ | VStr _ => true
  | VTuple l => forallb hashable l
  | _ => false
  end.

(** The tables: equality of keys, and the order in which a dict or set built by the given
    insertions is iterated (the hash table is the subject of C27-C29). *)
Record tables := Tables {
  keq : value -> value -> bool;
  dict_order : list (value * value) -> list (value * value);
  set_order : list value -> list value
}.

(** Dict::set_item and Set::emplace on the insertions so far. *)
Fixpoint dict_set (tb : tables) (d : list (value * value)) (k v : value) : list (value * value) :=
  match d with
  | [] => [(k, v)]
  | (k', v') :: r => if keq tb k' k then (k', v) :: r else (k', v') :: dict_set tb r k v
  end.
Definition set_add (tb : tables) (s : list value) (k : value) : list value :=
  if existsb (fun k' => keq tb k' k) s then s else s ++ [k].
Definition put (tb : tables) (d : list (value * value)) (k v : value) : res (list (value * value)) :=
  if hashable k then Ok (dict_set tb d k v) else Exn TypeError.
Definition add (tb : tables) (s : list value) (k : value) : res (list value) :=
  if hashable k then Ok (set_add tb s k) else Exn TypeError.

(** FromJsonStruct, pickle.cc:406-484, with FromJsonStructArray, Dict, Set, ADT, OpaqueData
    (197-228, 254-266, 401-405); Str2TypeIndex, global_type_index.cc:99-141. *)
Fixpoint from_struct (fl : flt) (tb : tables) (fuel : nat) (j : json) : res value :=
  match fuel with
  | O => OutOfFuel
  | S fuel' =>
    match j with
    | JObj m =>
      match member (txt "t") m, member (txt "v") m with
      | Some type, Some val =>
        if negb (Z.of_nat (List.length m) =? 2) then Exn CheckFailed else
        match type with
        | JStr t0 =>
          let t := if eqs t0 (txt "ADT") then txt "Tuple" else t0 in
          if eqs t (txt "int") then let! z := get_int64 val in Ok (VInt z)
          else if eqs t (txt "float") then let! f := get_double fl val in Ok (VFloat f)
          else if eqs t (txt "handle") then
            match val with
            | JObj m' => let! p := jget m' (txt "user_ptr") is_uint64 in Ok (VHandle p)
            | _ => Exn CheckFailed
            end
          else if eqs t (txt "nullptr") then Ok VNone
          else if eqs t (txt "String") then
            match val with
            | JStr s => Ok (VBytes s)
            | _ =>
              let! l := get_array val in
              let! bs := mmap get_uint l in Ok (VBytes (map (fun b => b mod 256) bs))
            end
          else if eqs t (txt "Unicode") then
            let! s := get_string val in let! u := utf8_decode s in Ok (VStr u)
          else if eqs t (txt "List") then
            match val with
            | JArr l => let! vs := mmap (from_struct fl tb fuel') l in Ok (VList vs)
            | _ => Exn CheckFailed
            end
          else if eqs t (txt "Dict") then
            match val with
            | JArr l =>
              if negb (Z.of_nat (List.length l) mod 2 =? 0) then Exn CheckFailed else
              let! d :=
                (fix go (l : list json) (d : list (value * value)) : res (list (value * value)) :=
                   match l with
                   | jk :: jx :: r =>
                     let! k := from_struct fl tb fuel' jk in
                     let! x := from_struct fl tb fuel' jx in
                     let! d' := put tb d k x in go r d'
                   | _ => Ok d
                   end) l [] in
              Ok (VDict (dict_order tb d))
            | _ => Exn CheckFailed
            end
          else if eqs t (txt "Set") then
            match val with
            | JArr l =>
              let! s :=
                (fix go (l : list json) (s : list value) : res (list value) :=
                   match l with
                   | x :: r => let! k := from_struct fl tb fuel' x in
                               let! s' := add tb s k in go r s'
                   | [] => Ok s
                   end) l [] in
              Ok (VSet (set_order tb s))
            | _ => Exn CheckFailed
            end
          else if eqs t (txt "NDArray") then let! a := arr_of fl val in Ok (VArr a)
          else if eqs t (txt "Tuple") then
            match val with
            | JObj m' =>
              let! size := jget m' (txt "size") is_uint in
              let! data := jget m' (txt "data") is_array in
              let! vs := mmap (from_struct fl tb fuel') data in Ok (VTuple vs)
            | _ => Exn CheckFailed
            end
          else if eqs t (txt "UserData") then let! o := obj_of val in Ok (VObj o)
          else Exn CheckFailed
        | _ => Exn CheckFailed
        end
      | _, _ => Exn CheckFailed
      end
    | _ => Exn CheckFailed
    end
  end.

(** How deep a JSON value is nested: enough fuel to walk it. *)
Fixpoint depth (j : json) : nat :=
  match j with
  | JArr l => S (fold_right (fun x n => Nat.max (depth x) n) O l)
  | JObj l => S (fold_right (fun x n => Nat.max (depth (snd x)) n) O l)
  | _ => 1%nat
  end.
Definition of_struct (fl : flt) (tb : tables) (j : json) : res value :=
  from_struct fl tb (S (depth j)) j.

(** Serialize, pickle.cc:656-664. *)
Definition serialize (fl : flt) (v : value) : res (list Z) :=
  let m := jset [] (txt "version") (JStr (txt "v1.0")) in
  let! j := to_struct v in
  to_string fl (JObj (jset m (txt "doc") j)) false false 2.
(** DeSerialize, pickle.cc:666-677. *)
Definition deserialize (fl : flt) (tb : tables) (s : list Z) : res value :=
  let! d := from_string fl s in
  match d with
  | JObj m =>
    match member (txt "version") m, member (txt "doc") m with
    | Some _, Some j =>
      let! ver := jget m (txt "version") is_string in
      if eqs (cstr ver) (txt "v1.0") then of_struct fl tb j else Exn CheckFailed
    | _, _ => Exn CheckFailed
    end
  | _ => UB
  end.
(** kernel_pickle_serialize / kernel_pickle_deserialize,
    src/runtime/generic/generic_funcs.cc:2467-2473. *)
Definition pickle_serialize (fl : flt) (v : value) : res (list Z) :=
  let! s := serialize fl v in utf8_decode s.
Definition pickle_deserialize (fl : flt) (tb : tables) (u : list Z) : res value :=
  let! s := utf8_encode u in deserialize fl tb s.

(** The configuration of TXSession::Save and Load, src/pipeline/tx_session.cc:1111-1125 and
    1143-1145, and JsonUtil::FromFile, json_util.cc:46-60, which hands on a C string. *)
Definition session_save (fl : flt) (v : value) : res (list Z) :=
  let! j := to_struct v in to_string fl j true false 2.
Definition session_load (fl : flt) (tb : tables) (file : list Z) : res value :=
  let! j := from_string fl (cstr file) in of_struct fl tb j.

(** ** json.dumps and json.loads *)

(** ToJsonDict's keys, pickle.cc:124-138. *)
Definition key_text (fl : flt) (k : value) : res (list Z) :=
  match k with
  | VInt z => Ok (put_int z)
  | VFloat f => Ok (strf fl f)
  | VStr u => utf8_encode u
  | VNone => Ok (txt "null")
  | _ => Exn CheckFailed
  end.
(** ToJson, pickle.cc:145-187, with ToJsonList and ToJsonDict (107-143). *)
Fixpoint to_json (fl : flt) (v : value) : res json :=
  match v with
  | VNone => Ok JNull
  | VInt z => Ok (JInt z)
  | VFloat f => Ok (JDouble f)
  | VBytes s => Ok (JStr s)
  | VStr u => let! s := utf8_encode u in Ok (JStr s)
  | VList l => let! js := mmap (to_json fl) l in Ok (JArr js)
  | VDict l =>
    let! ms :=
      (fix go (l : list (value * value)) : res (list (list Z * json)) :=
         match l with
         | [] => Ok []
         | (k, x) :: r =>
           let! kt := key_text fl k in
           let! jx := to_json fl x in
           let! ms := go r in Ok ((kt, jx) :: ms)
         end) l in
    Ok (JObj ms)
  | _ => Exn CheckFailed
  end.

(** FromJson, pickle.cc:61-105, with FromJsonArray and FromJsonDict (38-59), for str
    (use_unicode): an unsigned number above 2^63 - 1 is cast to int64_t. *)
Fixpoint from_json (tb : tables) (j : json) : res value :=
  match j with
  | JNull => Ok VNone
  | JBool b => Ok (VInt (if b then 1 else 0))
  | JInt z => Ok (VInt (wraps64 z))
  | JDouble f => Ok (VFloat f)
  | JStr s => let! u := utf8_decode s in Ok (VStr u)
  | JArr l => let! vs := mmap (from_json tb) l in Ok (VList vs)
  | JObj l =>
    let! d :=
      (fix go (l : list (list Z * json)) (d : list (value * value)) : res (list (value * value)) :=
         match l with
         | [] => Ok d
         | (k, x) :: r =>
           let! u := utf8_decode k in
           let! v := from_json tb x in
           let! d' := put tb d (VStr u) v in go r d'
         end) l [] in
    Ok (VDict (dict_order tb d))
  end.

(** json_loads, src/runtime/jsonlib/json.cc:31-35; kernel_json_loads of a str,
    generic_funcs.cc:2122-2128. *)
Definition json_loads (fl : flt) (tb : tables) (u : list Z) : res value :=
  let! s := utf8_encode u in
  let! j := from_string fl s in from_json tb j.
(** json_dumps, jsonlib/json.cc:44-52. *)
Definition json_dumps (fl : flt) (v : value) (indent : Z) (ensure_ascii : bool) : res (list Z) :=
  let! j := to_json fl v in
  let! s := if indent =? -1 then to_string fl j false ensure_ascii 2
            else to_string fl j true ensure_ascii indent in
  utf8_decode s.
(** kernel_json_dumps, generic_funcs.cc:2131-2140, called with three arguments
    (python/matx/ir/op.py:2386-2390: indent -1 for None): the second argument is passed for
    both. *)
Definition kernel_json_dumps (fl : flt) (v : value) (indent : Z) (ensure_ascii : bool) : res (list Z) :=
  json_dumps fl v indent (negb (indent =? 0)).
