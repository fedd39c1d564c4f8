(** Specification for C39-C41: the MessagePack format (github.com/msgpack/msgpack/spec.md)
    as a grammar relating values to byte strings, independent of packer and parser. The only
    thing shared with the model is the type [value] of runtime values and which of them are
    hashable in Python terms, restated here. *)
From Verif Require Import Base MsgModel.

(** Big- and little-endian numbers. *)
Definition num (bs : list Z) : Z := fold_left (fun a b => a * 256 + b) bs 0.
Definition num_le (bs : list Z) : Z := fold_right (fun b a => b + 256 * a) 0 bs.
(** [bs] are [k] bytes. *)
Definition bytes (k : nat) (bs : list Z) : Prop := length bs = k /\ Forall is_byte bs.
(** Two's complement reading of a [w]-bit number. *)
Definition signed (w n : Z) : Z := if n <? 2 ^ (w - 1) then n else n - 2 ^ w.

(** Integer formats. *)
Inductive int_enc : Z -> list Z -> Prop :=
| ie_posfix : forall z, 0 <= z <= 127 -> int_enc z [z]
| ie_negfix : forall z, -32 <= z <= -1 -> int_enc z [256 + z]
| ie_uint : forall h k bs, In (h, k) [(204, 1%nat); (205, 2%nat); (206, 4%nat); (207, 8%nat)] ->
    bytes k bs -> int_enc (num bs) (h :: bs)
| ie_int : forall h k bs, In (h, k) [(208, 1%nat); (209, 2%nat); (210, 4%nat); (211, 8%nat)] ->
    bytes k bs -> int_enc (signed (8 * Z.of_nat k) (num bs)) (h :: bs).

(** A header byte followed by a length of [k] bytes. *)
Inductive sized (l : list (Z * nat)) (n : Z) : list Z -> Prop :=
| sized_intro : forall h k bs, In (h, k) l -> bytes k bs -> num bs = n -> sized l n (h :: bs).

Definition str_hdr (n : Z) (hd : list Z) : Prop :=
  (0 <= n <= 31 /\ hd = [160 + n]) \/ sized [(217, 1%nat); (218, 2%nat); (219, 4%nat)] n hd.
Definition bin_hdr (n : Z) (hd : list Z) : Prop :=
  sized [(196, 1%nat); (197, 2%nat); (198, 4%nat)] n hd.
Definition arr_hdr (n : Z) (hd : list Z) : Prop :=
  (0 <= n <= 15 /\ hd = [144 + n]) \/ sized [(220, 2%nat); (221, 4%nat)] n hd.
Definition map_hdr (n : Z) (hd : list Z) : Prop :=
  (0 <= n <= 15 /\ hd = [128 + n]) \/ sized [(222, 2%nat); (223, 4%nat)] n hd.
(** fixext 1/2/4/8/16 and ext 8/16/32, with the type byte; an ext 32 of exactly 2^32-1 bytes
    is left out: the parser counts the type byte in the same 32-bit number. *)
Inductive ext_hdr (ty n : Z) : list Z -> Prop :=
| eh_fix : forall h, In (h, n) [(212, 1); (213, 2); (214, 4); (215, 8); (216, 16)] ->
    ext_hdr ty n [h; ty]
| eh_ext : forall hd, sized [(199, 1%nat); (200, 2%nat); (201, 4%nat)] n hd ->
    n < 2 ^ 32 - 1 -> ext_hdr ty n (hd ++ [ty]).

(** Which values Python can hash: scalars, str, bytes and tuples of such. *)
Inductive can_hash : value -> Prop :=
| ch_nil : can_hash VNil
| ch_int : forall z, can_hash (VInt z)
| ch_float : forall b, can_hash (VFloat b)
| ch_bytes : forall s, can_hash (VBytes s)
| ch_str : forall u, can_hash (VStr u)
| ch_tuple : forall l, Forall can_hash l -> can_hash (VTuple l).

(** No two entries are equal keys. *)
Definition distinct (keq : value -> value -> bool) (l : list value) : Prop :=
  forall a x b y c, l = a ++ x :: b ++ y :: c -> keq x y = false.

(** Element types an NDArray can have: floats of 8, 16, .. bits (a power of two), one-bit and
    four-bit integers, and integers or handles of 0, 8, 16, .. 128 bits. *)
Definition good_dtype (code bits lanes : Z) : Prop :=
  1 <= lanes < 65536 /\ 0 <= code < 256 /\
  (In bits [0; 8; 16; 32; 64; 128] \/ (In bits [1; 4] /\ In code [0; 1])).

Definition elem_size (bits lanes : Z) : Z := (bits * lanes + 7) / 8.
Definition volume (shape : list Z) : Z := fold_right Z.mul 1 shape.

(** An array whose extents are non-negative and whose buffer has the size they announce. *)
Definition good_nd (code bits lanes : Z) (shape data : list Z) : Prop :=
  good_dtype code bits lanes /\ Forall (fun s => 0 <= s < two63) shape /\
  zlen data = volume shape * elem_size bits lanes.

Section Grammar.
(** How a str is spelled in bytes; the double of a float32; equality of dict keys. *)
Variable text : list Z -> list Z -> Prop.
Variable widen : Z -> Z.
Variable keq : value -> value -> bool.

(** [enc ul n d v bs]: [bs] is a MessagePack encoding of [v], with arrays read as lists if
    [ul] and as tuples otherwise, containers nested at most [n] deep and set extensions at
    most [d] deep. A set is extension type 9 around the array of its elements, an NDArray
    extension type 2. *)
Inductive enc : bool -> nat -> nat -> value -> list Z -> Prop :=
| e_nil : forall ul n d, enc ul n d VNil [192]
| e_false : forall ul n d, enc ul n d (VInt 0) [194]
| e_true : forall ul n d, enc ul n d (VInt 1) [195]
| e_int : forall ul n d z bs, int_enc z bs -> int64 z -> enc ul n d (VInt z) bs
| e_f32 : forall ul n d bs, bytes 4 bs -> enc ul n d (VFloat (widen (num bs))) (202 :: bs)
| e_f64 : forall ul n d bs, bytes 8 bs -> enc ul n d (VFloat (num bs)) (203 :: bs)
| e_bin : forall ul n d s hd, bin_hdr (zlen s) hd -> enc ul n d (VBytes s) (hd ++ s)
| e_str : forall ul n d u s hd, text u s -> str_hdr (zlen s) hd -> enc ul n d (VStr u) (hd ++ s)
| e_list : forall n d l hd bs, arr_hdr (zlen l) hd -> enc_list true n d l bs ->
    enc true (S n) d (VList l) (hd ++ bs)
| e_tuple : forall n d l hd bs, arr_hdr (zlen l) hd -> enc_list false n d l bs ->
    enc false (S n) d (VTuple l) (hd ++ bs)
| e_dict : forall ul n d l hd bs, map_hdr (zlen l) hd -> enc_pairs ul n d l bs ->
    Forall can_hash (map fst l) -> distinct keq (map fst l) ->
    enc ul (S n) d (VDict l) (hd ++ bs)
| e_set : forall ul n d m l hd bs, enc false m d (VTuple l) bs -> (m <= 1024)%nat ->
    Forall can_hash l -> distinct keq l -> ext_hdr 9 (zlen bs) hd ->
    enc ul n (S d) (VSet l) (hd ++ bs)
| e_nd : forall ul n d code bits lanes shape data lb nb sb hd,
    good_nd code bits lanes shape data ->
    bytes 2 lb -> num_le lb = lanes -> bytes 4 nb -> num_le nb = zlen shape -> zlen shape < 2 ^ 31 ->
    Forall2 (fun s b => bytes 8 b /\ num_le b = s) shape sb ->
    ext_hdr 2 (zlen ([code; bits] ++ lb ++ nb ++ concat sb ++ data)) hd ->
    enc ul n d (VNd code bits lanes shape data) (hd ++ [code; bits] ++ lb ++ nb ++ concat sb ++ data)
with enc_list : bool -> nat -> nat -> list value -> list Z -> Prop :=
| el_nil : forall ul n d, enc_list ul n d [] []
| el_cons : forall ul n d x l bx bl, enc ul n d x bx -> enc_list ul n d l bl ->
    enc_list ul n d (x :: l) (bx ++ bl)
with enc_pairs : bool -> nat -> nat -> list (value * value) -> list Z -> Prop :=
| ep_nil : forall ul n d, enc_pairs ul n d [] []
| ep_cons : forall ul n d k x l bk bx bl, enc ul n d k bk -> enc ul n d x bx ->
    enc_pairs ul n d l bl -> enc_pairs ul n d ((k, x) :: l) (bk ++ bx ++ bl).
End Grammar.

(** ** Round trip vocabulary *)

(** What a value becomes: tuples come back as lists (except inside sets). *)
Fixpoint norm (v : value) : value :=
  match v with
  | VList l => VList (map norm l)
  | VTuple l => VList (map norm l)
  | VDict l => VDict (map (fun e => (fst e, norm (snd e))) l)
  | v => v
  end.

(** Dict keys that survive: scalars, str and bytes (no tuples). *)
Definition flat_key (v : value) : Prop := can_hash v /\ forall l, v <> VTuple l.

(** A value the runtime can hold: integers of 64 bits, floats as 64-bit patterns, str of code
    points, dict keys and set elements hashable and pairwise different. *)
Inductive good (keq : value -> value -> bool) : value -> Prop :=
| g_nil : good keq VNil
| g_int : forall z, int64 z -> good keq (VInt z)
| g_float : forall b, 0 <= b < two64 -> good keq (VFloat b)
| g_bytes : forall s, Forall is_byte s -> good keq (VBytes s)
| g_str : forall u, Forall (fun c => 0 <= c <= 1114111) u -> good keq (VStr u)
| g_list : forall l, Forall (good keq) l -> good keq (VList l)
| g_tuple : forall l, Forall (good keq) l -> good keq (VTuple l)
| g_dict : forall l, Forall (good keq) (map fst l) -> Forall (good keq) (map snd l) ->
    Forall flat_key (map fst l) -> distinct keq (map fst l) -> good keq (VDict l)
| g_set : forall l, Forall (good keq) l -> Forall can_hash l -> distinct keq l -> good keq (VSet l)
| g_nd : forall code bits lanes shape data, good_nd code bits lanes shape data ->
    zlen shape < 2 ^ 31 -> good keq (VNd code bits lanes shape data).

(** Nesting depth of containers, sets included. *)
Fixpoint depth (v : value) : Z :=
  match v with
  | VList l | VTuple l | VSet l => 1 + fold_right (fun x m => Z.max (depth x) m) 0 l
  | VDict l => 1 + fold_right (fun e m => Z.max (depth (fst e)) (Z.max (depth (snd e)) m)) 0 l
  | _ => 0
  end.

(** ** Timestamps *)

(** The input contains the header of a timestamp (extension type -1, 4, 8 or 12 bytes). *)
Definition ts_marks : list (list Z) :=
  [[214; 255]; [215; 255];
   [199; 4; 255]; [199; 8; 255]; [199; 12; 255];
   [200; 0; 4; 255]; [200; 0; 8; 255]; [200; 0; 12; 255];
   [201; 0; 0; 0; 4; 255]; [201; 0; 0; 0; 8; 255]; [201; 0; 0; 0; 12; 255]].
Definition has_timestamp (bs : list Z) : Prop :=
  exists a m b, In m ts_marks /\ bs = a ++ m ++ b.

(** Every str, bytes and container has fewer than 2^32 entries (a str: 2^30 characters). *)
Inductive fits : value -> Prop :=
| f_nil : fits VNil
| f_int : forall z, fits (VInt z)
| f_float : forall b, fits (VFloat b)
| f_bytes : forall s, zlen s < 2 ^ 32 -> fits (VBytes s)
| f_str : forall u, zlen u < 2 ^ 30 -> fits (VStr u)
| f_list : forall l, zlen l < 2 ^ 32 -> Forall fits l -> fits (VList l)
| f_tuple : forall l, zlen l < 2 ^ 32 -> Forall fits l -> fits (VTuple l)
| f_dict : forall l, zlen l < 2 ^ 32 -> Forall fits (map fst l) -> Forall fits (map snd l) ->
    fits (VDict l)
| f_set : forall l, zlen l < 2 ^ 32 -> Forall fits l -> fits (VSet l)
| f_nd : forall code bits lanes shape data, fits (VNd code bits lanes shape data).
