(** Base 64 encoding as defined by RFC 4648, section 4. *)
From Verif Require Import Base.

(** Table 1: the character of a 6-bit value. *)
Definition b64_char (v : Z) : Z :=
  if v <? 26 then 65 + v                 (* A-Z *)
  else if v <? 52 then 97 + (v - 26)     (* a-z *)
  else if v <? 62 then 48 + (v - 52)     (* 0-9 *)
  else if v =? 62 then 43                (* + *)
  else 47.                               (* / *)

Definition sextet (v : Z) : Prop := 0 <= v < 64.
Definition b64_alphabet (c : Z) : Prop := exists v, sextet v /\ c = b64_char v.

(** "A 24-bit input group is formed by concatenating 3 8-bit input groups.  These 24
    bits are then treated as 4 concatenated 6-bit groups"; the last quantum is padded
    with zero bits and '=' (61). *)
Inductive rfc_b64 : list Z -> list Z -> Prop :=
| b64_nil : rfc_b64 [] []
| b64_full b0 b1 b2 s t :
    let n := b0 * 65536 + b1 * 256 + b2 in
    rfc_b64 s t ->
    rfc_b64 (b0 :: b1 :: b2 :: s)
      (b64_char (n / 262144) :: b64_char (n / 4096 mod 64) ::
       b64_char (n / 64 mod 64) :: b64_char (n mod 64) :: t)
| b64_two b0 b1 :
    let n := (b0 * 256 + b1) * 4 in
    rfc_b64 [b0; b1] [b64_char (n / 4096); b64_char (n / 64 mod 64); b64_char (n mod 64); 61]
| b64_one b0 :
    let n := b0 * 16 in
    rfc_b64 [b0] [b64_char (n / 64); b64_char (n mod 64); 61; 61].

(** Bytes carried by a sequence of 6-bit values: whole 24-bit groups, then the bytes
    that are complete in the last one. *)
Inductive b64_bytes : list Z -> list Z -> Prop :=
| bb_nil : b64_bytes [] []
| bb_one v0 : b64_bytes [v0] []
| bb_two v0 v1 : b64_bytes [v0; v1] [(v0 * 64 + v1) / 16]
| bb_three v0 v1 v2 :
    let n := (v0 * 4096 + v1 * 64 + v2) / 4 in
    b64_bytes [v0; v1; v2] [n / 256; n mod 256]
| bb_full v0 v1 v2 v3 vs bs :
    let n := v0 * 262144 + v1 * 4096 + v2 * 64 + v3 in
    b64_bytes vs bs ->
    b64_bytes (v0 :: v1 :: v2 :: v3 :: vs) (n / 65536 :: n / 256 mod 256 :: n mod 256 :: bs).
