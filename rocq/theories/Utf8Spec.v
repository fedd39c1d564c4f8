(** Independent specification of UTF-8: Unicode Standard, Table 3-6 (bit
    distribution) and Table 3-7 (well-formed byte sequences).  Nothing here refers
    to the model of the code. *)
From Verif Require Import Base.

(** A Unicode scalar value: a code point that is not a surrogate. *)
Definition scalar (c : Z) : Prop := 0 <= c < 55296 \/ 57344 <= c <= 1114111.

(** Any Unicode code point, surrogates included (what a Python [str] may hold). *)
Definition code_point (c : Z) : Prop := 0 <= c <= 1114111.

(** [wf_seq c bs]: [bs] is the well-formed UTF-8 sequence of code point [c]
    (Table 3-7 rows; values from Table 3-6). *)
Inductive wf_seq : Z -> list Z -> Prop :=
| wf_1 b0 : 0 <= b0 <= 127 -> wf_seq b0 [b0]
| wf_2 b0 b1 : 194 <= b0 <= 223 -> 128 <= b1 <= 191 ->
    wf_seq ((b0 - 192) * 64 + (b1 - 128)) [b0; b1]
| wf_3_E0 b1 b2 : 160 <= b1 <= 191 -> 128 <= b2 <= 191 ->
    wf_seq ((b1 - 128) * 64 + (b2 - 128)) [224; b1; b2]
| wf_3 b0 b1 b2 : 225 <= b0 <= 236 \/ 238 <= b0 <= 239 ->
    128 <= b1 <= 191 -> 128 <= b2 <= 191 ->
    wf_seq ((b0 - 224) * 4096 + (b1 - 128) * 64 + (b2 - 128)) [b0; b1; b2]
| wf_3_ED b1 b2 : 128 <= b1 <= 159 -> 128 <= b2 <= 191 ->
    wf_seq (53248 + (b1 - 128) * 64 + (b2 - 128)) [237; b1; b2]
| wf_4_F0 b1 b2 b3 : 144 <= b1 <= 191 -> 128 <= b2 <= 191 -> 128 <= b3 <= 191 ->
    wf_seq ((b1 - 128) * 4096 + (b2 - 128) * 64 + (b3 - 128)) [240; b1; b2; b3]
| wf_4 b0 b1 b2 b3 : 241 <= b0 <= 243 ->
    128 <= b1 <= 191 -> 128 <= b2 <= 191 -> 128 <= b3 <= 191 ->
    wf_seq ((b0 - 240) * 262144 + (b1 - 128) * 4096 + (b2 - 128) * 64 + (b3 - 128))
           [b0; b1; b2; b3]
| wf_4_F4 b1 b2 b3 : 128 <= b1 <= 143 -> 128 <= b2 <= 191 -> 128 <= b3 <= 191 ->
    wf_seq (1048576 + (b1 - 128) * 4096 + (b2 - 128) * 64 + (b3 - 128))
           [244; b1; b2; b3].

(** [wf cs bs]: the byte string [bs] is well-formed UTF-8 and denotes [cs]. *)
Inductive wf : list Z -> list Z -> Prop :=
| wf_nil : wf [] []
| wf_cons c s cs bs : wf_seq c s -> wf cs bs -> wf (c :: cs) (s ++ bs).

(** ** Byte-wise replacement decoding (the behaviour wanted on malformed input)

    [lead_size b] is how many bytes a sequence starting with [b] announces,
    0 if [b] cannot start a sequence. *)
Definition cont (b : Z) : Prop := 128 <= b <= 191.

Inductive lead : Z -> nat -> Z -> Prop :=   (* byte, total length, payload bits *)
| lead_1 b : 0 <= b <= 127 -> lead b 1 b
| lead_2 b : 194 <= b <= 223 -> lead b 2 (b - 192)
| lead_3 b : 224 <= b <= 239 -> lead b 3 (b - 224)
| lead_4 b : 240 <= b <= 244 -> lead b 4 (b - 240).

(** Payload of a complete sequence: six bits per continuation byte. *)
Fixpoint payload (acc : Z) (conts : list Z) : Z :=
  match conts with
  | [] => acc
  | b :: r => payload (acc * 64 + (b - 128)) r
  end.

(** [complete b conts c]: lead byte [b] with all the continuation bytes it announces;
    no check for overlong forms, surrogates or the upper limit ("greedy" reading). *)
Definition complete (b : Z) (conts : list Z) (c : Z) : Prop :=
  exists n p, lead b n p /\ length conts = (n - 1)%nat /\ Forall cont conts /\ c = payload p conts.

(** The same for strictly well-formed sequences. *)
Definition complete_strict (b : Z) (conts : list Z) (c : Z) : Prop := wf_seq c (b :: conts).

(** Replacement decoding with a notion [good] of acceptable sequence: an acceptable
    sequence yields its code point; otherwise exactly one byte yields U+FFFD and
    decoding goes on with the next byte. *)
Inductive repl (good : Z -> list Z -> Z -> Prop) : list Z -> list Z -> Prop :=
| repl_nil : repl good [] []
| repl_good b conts c rest cs :
    good b conts c -> repl good rest cs -> repl good (b :: conts ++ rest) (c :: cs)
| repl_bad b rest cs :
    (forall conts r c, rest = conts ++ r -> ~ good b conts c) ->
    repl good rest cs -> repl good (b :: rest) (65533 :: cs).

(** A multi-byte sequence starting at the last byte of [p] does not fit before the
    end of [p ++ q]. *)
Definition truncated_at (p q : list Z) : Prop :=
  exists p' b n pl, p = p' ++ [b] /\ lead b n pl /\ (S (length q) < n)%nat.
