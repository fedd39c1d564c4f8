(** UTF-8 encoder and decoders of the matxscript runtime.
    Buffers are lists of bytes ([Z] in 0..255); a source pointer [pSrc] into a
    buffer ending at [pSrcEnd] is the list of the bytes from [pSrc] to the end, so
    [pSrcEnd - pSrc] is its length and [pSrc[i]] is [rd src i] (OOB past the end). *)
From Verif Require Import Base.

(** src/runtime/utf8/utf8_greedy_table_decoder.cc:29-171, [smTables.maFirstUnitTable]:
    entry for first byte 0x80+i is (mFirstOctet, size). *)
Definition greedy_first_unit_table : list (Z * Z) :=
  [
   (0, 0); (1, 0); (2, 0); (3, 0); (4, 0); (5, 0); (6, 0); (7, 0);
   (8, 0); (9, 0); (10, 0); (11, 0); (12, 0); (13, 0); (14, 0); (15, 0);
   (16, 0); (17, 0); (18, 0); (19, 0); (20, 0); (21, 0); (22, 0); (23, 0);
   (24, 0); (25, 0); (26, 0); (27, 0); (28, 0); (29, 0); (30, 0); (31, 0);
   (32, 0); (33, 0); (34, 0); (35, 0); (36, 0); (37, 0); (38, 0); (39, 0);
   (40, 0); (41, 0); (42, 0); (43, 0); (44, 0); (45, 0); (46, 0); (47, 0);
   (48, 0); (49, 0); (50, 0); (51, 0); (52, 0); (53, 0); (54, 0); (55, 0);
   (56, 0); (57, 0); (58, 0); (59, 0); (60, 0); (61, 0); (62, 0); (63, 0);
   (192, 0); (193, 0); (2, 2); (3, 2); (4, 2); (5, 2); (6, 2); (7, 2);
   (8, 2); (9, 2); (10, 2); (11, 2); (12, 2); (13, 2); (14, 2); (15, 2);
   (16, 2); (17, 2); (18, 2); (19, 2); (20, 2); (21, 2); (22, 2); (23, 2);
   (24, 2); (25, 2); (26, 2); (27, 2); (28, 2); (29, 2); (30, 2); (31, 2);
   (0, 3); (1, 3); (2, 3); (3, 3); (4, 3); (5, 3); (6, 3); (7, 3);
   (8, 3); (9, 3); (10, 3); (11, 3); (12, 3); (13, 3); (14, 3); (15, 3);
   (0, 4); (1, 4); (2, 4); (3, 4); (4, 4); (245, 0); (246, 0); (247, 0);
   (248, 0); (249, 0); (250, 0); (251, 0); (252, 0); (253, 0); (254, 0); (255, 0)
  ].

(** [smTables.maFirstUnitTable[unit - 0x80]] (decoder.cc:188,218,257,283). *)
Definition greedy_first_unit (unit : Z) : res (Z * Z) :=
  rdz greedy_first_unit_table (unit - 128).

(** include/matxscript/runtime/utf8/utf8_greedy_table_decoder.h:72-84.
    Returns the code point and the advanced source pointer. *)
Definition advance_greedy_2 (src : list Z) (cdpt : Z) : res (Z * list Z) :=
  let! unit2 := rd src 0 in
  if negb (Z.land unit2 192 =? 128) then Ok (65533, src)
  else Ok (Z.lor (Z.shiftl cdpt 6) (Z.land unit2 63), skipn 1 src).

(** utf8_greedy_table_decoder.h:92-107 *)
Definition advance_greedy_3 (src : list Z) (cdpt : Z) : res (Z * list Z) :=
  let! unit2 := rd src 0 in
  let! unit3 := rd src 1 in
  if negb (Z.land unit2 192 =? 128) || negb (Z.land unit3 192 =? 128) then Ok (65533, src)
  else Ok (Z.lor (Z.lor (Z.shiftl cdpt 12) (Z.shiftl (Z.land unit2 63) 6)) (Z.land unit3 63),
           skipn 2 src).

(** utf8_greedy_table_decoder.h:115-132 *)
Definition advance_greedy_4 (src : list Z) (cdpt : Z) : res (Z * list Z) :=
  let! unit2 := rd src 0 in
  let! unit3 := rd src 1 in
  let! unit4 := rd src 2 in
  if negb (Z.land unit2 192 =? 128) || negb (Z.land unit3 192 =? 128)
     || negb (Z.land unit4 192 =? 128) then Ok (65533, src)
  else Ok (Z.lor (Z.lor (Z.lor (Z.shiftl cdpt 18) (Z.shiftl (Z.land unit2 63) 12))
                        (Z.shiftl (Z.land unit3 63) 6)) (Z.land unit4 63),
           skipn 3 src).

(** The [switch (info.size)] of decoder.cc:190-206 and 224-240. *)
Definition greedy_switch (size : Z) (src : list Z) (cdpt : Z) : res (Z * list Z) :=
  if size =? 2 then advance_greedy_2 src cdpt
  else if size =? 3 then advance_greedy_3 src cdpt
  else if size =? 4 then advance_greedy_4 src cdpt
  else Ok (65533, src).

(** Tail loop, decoder.cc:213-243: bounds check with early return at 220-223.
    [Z.of_nat (length src)] is [pSrcEnd - pSrc] after [pSrc++]. *)
Fixpoint greedy_tail (fuel : nat) (src : list Z) : res (list Z) :=
  match fuel with
  | O => OutOfFuel
  | S fuel' =>
    match src with
    | [] => Ok []
    | unit :: src1 =>
      if unit <? 128 then rmap (cons unit) (greedy_tail fuel' src1)
      else
        let! info := greedy_first_unit unit in
        let '(cdpt, size) := info in
        if size - 1 >? Z.of_nat (length src1) then Ok [65533]
        else
          let! r := greedy_switch size src1 cdpt in
          let '(cdpt', src2) := r in
          rmap (cons cdpt') (greedy_tail fuel' src2)
    end
  end.

(** Head loop, decoder.cc:181-209: runs while [pSrc < pSrcEnd - 3], no bounds check;
    then falls into the tail loop. *)
Fixpoint greedy_head (fuel : nat) (src : list Z) : res (list Z) :=
  match fuel with
  | O => OutOfFuel
  | S fuel' =>
    if Z.of_nat (length src) >? 3 then
      let! unit := rd src 0 in
      let src1 := skipn 1 src in
      if unit <? 128 then rmap (cons unit) (greedy_head fuel' src1)
      else
        let! info := greedy_first_unit unit in
        let '(cdpt, size) := info in
        let! r := greedy_switch size src1 cdpt in
        let '(cdpt', src2) := r in
        rmap (cons cdpt') (greedy_head fuel' src2)
    else greedy_tail fuel src
  end.

(** GreedyTableDecoder::Convert, decoder.cc:175-246.  Fuel: one step per byte. *)
Definition greedy_convert (src : list Z) : res (list Z) :=
  greedy_head (S (length src)) src.

(** SkipByGreedy_2/3/4, utf8_greedy_table_decoder.h:66-70, 86-90, 109-113
    ([&&] short-circuits, so a later byte is only read if the earlier ones match). *)
Definition skip_greedy_2 (src : list Z) : res (list Z) :=
  let! u := rd src 0 in
  if Z.land u 192 =? 128 then Ok (skipn 1 src) else Ok src.
Definition skip_greedy_3 (src : list Z) : res (list Z) :=
  let! u := rd src 0 in
  if Z.land u 192 =? 128 then
    let! v := rd src 1 in
    if Z.land v 192 =? 128 then Ok (skipn 2 src) else Ok src
  else Ok src.
Definition skip_greedy_4 (src : list Z) : res (list Z) :=
  let! u := rd src 0 in
  if Z.land u 192 =? 128 then
    let! v := rd src 1 in
    if Z.land v 192 =? 128 then
      let! w := rd src 2 in
      if Z.land w 192 =? 128 then Ok (skipn 3 src) else Ok src
    else Ok src
  else Ok src.

(** The [switch (info.size)] of decoder.cc:258-273 and 287-302. *)
Definition skip_switch (size : Z) (src : list Z) : res (list Z) :=
  if size =? 2 then skip_greedy_2 src
  else if size =? 3 then skip_greedy_3 src
  else if size =? 4 then skip_greedy_4 src
  else Ok src.

(** CountUnitSize tail loop, decoder.cc:277-304. *)
Fixpoint count_tail (fuel : nat) (src : list Z) : res Z :=
  match fuel with
  | O => OutOfFuel
  | S fuel' =>
    match src with
    | [] => Ok 0
    | unit :: src1 =>
      if unit >=? 128 then
        let! info := greedy_first_unit unit in
        let '(_, size) := info in
        if size - 1 >? Z.of_nat (length src1) then Ok 1
        else
          let! src2 := skip_switch size src1 in
          rmap (Z.add 1) (count_tail fuel' src2)
      else rmap (Z.add 1) (count_tail fuel' src1)
    end
  end.

(** CountUnitSize head loop, decoder.cc:251-275. *)
Fixpoint count_head (fuel : nat) (src : list Z) : res Z :=
  match fuel with
  | O => OutOfFuel
  | S fuel' =>
    if Z.of_nat (length src) >? 3 then
      let! unit := rd src 0 in
      let src1 := skipn 1 src in
      if unit >=? 128 then
        let! info := greedy_first_unit unit in
        let '(_, size) := info in
        let! src2 := skip_switch size src1 in
        rmap (Z.add 1) (count_head fuel' src2)
      else rmap (Z.add 1) (count_head fuel' src1)
    else count_tail fuel src
  end.

(** GreedyTableDecoder::CountUnitSize, decoder.cc:248-307; also the runtime's
    UTF8CharCounts (src/runtime/utf8_util.cc:67-70). *)
Definition greedy_count (src : list Z) : res Z := count_head (S (length src)) src.

(** UTF8Decode, src/runtime/utf8_util.cc:34-49.  The destination buffer is 64 code
    points for inputs of at most 64 bytes, otherwise exactly [CountUnitSize] code
    points; writing more than that is OOB (the C++ [assert] is off in release
    builds, and a shorter result leaves uninitialised code points: also OOB here). *)
Definition utf8_decode (src : list Z) : res (list Z) :=
  if Z.of_nat (length src) <=? 64 then
    let! out := greedy_convert src in
    if Z.of_nat (length out) >? 64 then OOB else Ok out
  else
    let! n := greedy_count src in
    let! out := greedy_convert src in
    if Z.of_nat (length out) =? n then Ok out else OOB.

(** GreedyOneCharLen, src/runtime/utf8/utf8_greedy_encoder.cc:37-49
    ([invalid_char_len] is the length of the UTF-8 literal for U+FFFD: 3). *)
Definition greedy_one_char_len (x : Z) : Z :=
  if x <? 128 then 1
  else if x <=? 2047 then 2
  else if x <=? 65535 then 3
  else if x <=? 1114111 then 4
  else 3.

(** GreedyCountBytesSize, utf8_greedy_encoder.cc:51-58 *)
Fixpoint greedy_count_bytes (s : list Z) : Z :=
  match s with
  | [] => 0
  | x :: s' => greedy_one_char_len x + greedy_count_bytes s'
  end.

(** GreedyUTF8EncodeOne, utf8_greedy_encoder.cc:60-83 *)
Definition greedy_encode_one (x : Z) : list Z :=
  if x <? 128 then [x]
  else if x <=? 2047 then
    [Z.lor 192 (Z.land (Z.shiftr x 6) 31); Z.lor 128 (Z.land x 63)]
  else if x <=? 65535 then
    [Z.lor 224 (Z.land (Z.shiftr x 12) 15);
     Z.lor 128 (Z.land (Z.shiftr x 6) 63);
     Z.lor 128 (Z.land x 63)]
  else if x <=? 1114111 then
    [Z.lor 240 (Z.land (Z.shiftr x 18) 7);
     Z.lor 128 (Z.land (Z.shiftr x 12) 63);
     Z.lor 128 (Z.land (Z.shiftr x 6) 63);
     Z.lor 128 (Z.land x 63)]
  else [239; 191; 189].

(** GreedyEncoder, utf8_greedy_encoder.cc:85-94 *)
Fixpoint greedy_encode (s : list Z) : list Z :=
  match s with
  | [] => []
  | x :: s' => greedy_encode_one x ++ greedy_encode s'
  end.

(** UTF8Encode, src/runtime/utf8_util.cc:55-61: the buffer has GreedyCountBytesSize
    bytes; writing a different number is OOB (as in [utf8_decode]). *)
Definition utf8_encode (s : list Z) : res (list Z) :=
  let bytes_size := greedy_count_bytes s in
  let out := greedy_encode s in
  if Z.of_nat (length out) =? bytes_size then Ok out else OOB.

(** ** The DFA decoder *)

(** enum State, include/matxscript/runtime/utf8/utf8_dfa_decoder.h:95-111
    (END = BGN, err = ERR) and enum CharClass, :75-93. *)
Definition BGN := 0.  Definition ERR := 12.
Definition CS1 := 24. Definition CS2 := 36. Definition CS3 := 48.
Definition P3A := 60. Definition P3B := 72. Definition P4A := 84. Definition P4B := 96.
Definition ILL := 0.  Definition ASC := 1.
Definition CR1 := 2.  Definition CR2 := 3.  Definition CR3 := 4.
Definition L2A := 5.  Definition L3A := 6.  Definition L3B := 7.  Definition L3C := 8.
Definition L4A := 9.  Definition L4B := 10. Definition L4C := 11.

(** src/runtime/utf8/utf8_dfa_decoder.cc:24-158: (mFirstOctet, mNextState, size). *)
Definition dfa_first_unit_table : list (Z * Z * Z) :=
  [
   (0, ERR, 0); (1, ERR, 0); (2, ERR, 0); (3, ERR, 0); (4, ERR, 0); (5, ERR, 0); (6, ERR, 0); (7, ERR, 0);
   (8, ERR, 0); (9, ERR, 0); (10, ERR, 0); (11, ERR, 0); (12, ERR, 0); (13, ERR, 0); (14, ERR, 0); (15, ERR, 0);
   (16, ERR, 0); (17, ERR, 0); (18, ERR, 0); (19, ERR, 0); (20, ERR, 0); (21, ERR, 0); (22, ERR, 0); (23, ERR, 0);
   (24, ERR, 0); (25, ERR, 0); (26, ERR, 0); (27, ERR, 0); (28, ERR, 0); (29, ERR, 0); (30, ERR, 0); (31, ERR, 0);
   (32, ERR, 0); (33, ERR, 0); (34, ERR, 0); (35, ERR, 0); (36, ERR, 0); (37, ERR, 0); (38, ERR, 0); (39, ERR, 0);
   (40, ERR, 0); (41, ERR, 0); (42, ERR, 0); (43, ERR, 0); (44, ERR, 0); (45, ERR, 0); (46, ERR, 0); (47, ERR, 0);
   (48, ERR, 0); (49, ERR, 0); (50, ERR, 0); (51, ERR, 0); (52, ERR, 0); (53, ERR, 0); (54, ERR, 0); (55, ERR, 0);
   (56, ERR, 0); (57, ERR, 0); (58, ERR, 0); (59, ERR, 0); (60, ERR, 0); (61, ERR, 0); (62, ERR, 0); (63, ERR, 0);
   (192, ERR, 0); (193, ERR, 0); (2, CS1, 2); (3, CS1, 2); (4, CS1, 2); (5, CS1, 2); (6, CS1, 2); (7, CS1, 2);
   (8, CS1, 2); (9, CS1, 2); (10, CS1, 2); (11, CS1, 2); (12, CS1, 2); (13, CS1, 2); (14, CS1, 2); (15, CS1, 2);
   (16, CS1, 2); (17, CS1, 2); (18, CS1, 2); (19, CS1, 2); (20, CS1, 2); (21, CS1, 2); (22, CS1, 2); (23, CS1, 2);
   (24, CS1, 2); (25, CS1, 2); (26, CS1, 2); (27, CS1, 2); (28, CS1, 2); (29, CS1, 2); (30, CS1, 2); (31, CS1, 2);
   (0, P3A, 3); (1, CS2, 3); (2, CS2, 3); (3, CS2, 3); (4, CS2, 3); (5, CS2, 3); (6, CS2, 3); (7, CS2, 3);
   (8, CS2, 3); (9, CS2, 3); (10, CS2, 3); (11, CS2, 3); (12, CS2, 3); (13, P3B, 3); (14, CS2, 3); (15, CS2, 3);
   (0, P4A, 4); (1, CS3, 4); (2, CS3, 4); (3, CS3, 4); (4, P4B, 4); (245, ERR, 0); (246, ERR, 0); (247, ERR, 0);
   (248, ERR, 0); (249, ERR, 0); (250, ERR, 0); (251, ERR, 0); (252, ERR, 0); (253, ERR, 0); (254, ERR, 0); (255, ERR, 0)
  ].

(** utf8_dfa_decoder.cc:166-186, [maOctetCategory]. *)
Definition dfa_category_table : list Z :=
  [
   ASC; ASC; ASC; ASC; ASC; ASC; ASC; ASC; ASC; ASC; ASC; ASC; ASC; ASC; ASC; ASC;
   ASC; ASC; ASC; ASC; ASC; ASC; ASC; ASC; ASC; ASC; ASC; ASC; ASC; ASC; ASC; ASC;
   ASC; ASC; ASC; ASC; ASC; ASC; ASC; ASC; ASC; ASC; ASC; ASC; ASC; ASC; ASC; ASC;
   ASC; ASC; ASC; ASC; ASC; ASC; ASC; ASC; ASC; ASC; ASC; ASC; ASC; ASC; ASC; ASC;
   ASC; ASC; ASC; ASC; ASC; ASC; ASC; ASC; ASC; ASC; ASC; ASC; ASC; ASC; ASC; ASC;
   ASC; ASC; ASC; ASC; ASC; ASC; ASC; ASC; ASC; ASC; ASC; ASC; ASC; ASC; ASC; ASC;
   ASC; ASC; ASC; ASC; ASC; ASC; ASC; ASC; ASC; ASC; ASC; ASC; ASC; ASC; ASC; ASC;
   ASC; ASC; ASC; ASC; ASC; ASC; ASC; ASC; ASC; ASC; ASC; ASC; ASC; ASC; ASC; ASC;
   CR1; CR1; CR1; CR1; CR1; CR1; CR1; CR1; CR1; CR1; CR1; CR1; CR1; CR1; CR1; CR1;
   CR2; CR2; CR2; CR2; CR2; CR2; CR2; CR2; CR2; CR2; CR2; CR2; CR2; CR2; CR2; CR2;
   CR3; CR3; CR3; CR3; CR3; CR3; CR3; CR3; CR3; CR3; CR3; CR3; CR3; CR3; CR3; CR3;
   CR3; CR3; CR3; CR3; CR3; CR3; CR3; CR3; CR3; CR3; CR3; CR3; CR3; CR3; CR3; CR3;
   ILL; ILL; L2A; L2A; L2A; L2A; L2A; L2A; L2A; L2A; L2A; L2A; L2A; L2A; L2A; L2A;
   L2A; L2A; L2A; L2A; L2A; L2A; L2A; L2A; L2A; L2A; L2A; L2A; L2A; L2A; L2A; L2A;
   L3A; L3B; L3B; L3B; L3B; L3B; L3B; L3B; L3B; L3B; L3B; L3B; L3B; L3C; L3B; L3B;
   L4A; L4B; L4B; L4B; L4C; ILL; ILL; ILL; ILL; ILL; ILL; ILL; ILL; ILL; ILL; ILL
  ].

(** utf8_dfa_decoder.cc:193-206, [maTransitions] (END written BGN, err written ERR). *)
Definition dfa_transition_table : list Z :=
  [
   ERR; BGN; ERR; ERR; ERR; CS1; P3A; CS2; P3B; P4A; CS3; P4B;
   ERR; ERR; ERR; ERR; ERR; ERR; ERR; ERR; ERR; ERR; ERR; ERR;
   ERR; ERR; BGN; BGN; BGN; ERR; ERR; ERR; ERR; ERR; ERR; ERR;
   ERR; ERR; CS1; CS1; CS1; ERR; ERR; ERR; ERR; ERR; ERR; ERR;
   ERR; ERR; CS2; CS2; CS2; ERR; ERR; ERR; ERR; ERR; ERR; ERR;
   ERR; ERR; ERR; ERR; CS1; ERR; ERR; ERR; ERR; ERR; ERR; ERR;
   ERR; ERR; CS1; CS1; ERR; ERR; ERR; ERR; ERR; ERR; ERR; ERR;
   ERR; ERR; ERR; CS2; CS2; ERR; ERR; ERR; ERR; ERR; ERR; ERR;
   ERR; ERR; CS2; ERR; ERR; ERR; ERR; ERR; ERR; ERR; ERR; ERR
  ].

(** utf8_dfa_decoder.cc:211-229, [maFirstOctetMask]. *)
Definition dfa_mask_table : list Z :=
  [255; 127; 63; 63; 63; 31; 15; 15; 15; 7; 7; 7].

Definition dfa_cat (u : Z) : res Z := rdz dfa_category_table u.
Definition dfa_trans (i : Z) : res Z := rdz dfa_transition_table i.

(** AdvanceWithTable_2/3/4, utf8_dfa_decoder.h:186-256. *)
Definition dfa_advance_2 (src : list Z) (curr cdpt : Z) : res (Z * list Z) :=
  let! unit2 := rd src 0 in
  let! t2 := dfa_cat unit2 in
  let! curr := dfa_trans (curr + t2) in
  if curr =? ERR then Ok (65533, src)
  else Ok (Z.lor (Z.shiftl cdpt 6) (Z.land unit2 63), skipn 1 src).
Definition dfa_advance_3 (src : list Z) (curr cdpt : Z) : res (Z * list Z) :=
  let! unit2 := rd src 0 in
  let! unit3 := rd src 1 in
  let! t2 := dfa_cat unit2 in
  let! curr := dfa_trans (curr + t2) in
  let! t3 := dfa_cat unit3 in
  let! curr := dfa_trans (curr + t3) in
  if curr =? ERR then Ok (65533, src)
  else Ok (Z.lor (Z.lor (Z.shiftl cdpt 12) (Z.shiftl (Z.land unit2 63) 6)) (Z.land unit3 63),
           skipn 2 src).
Definition dfa_advance_4 (src : list Z) (curr cdpt : Z) : res (Z * list Z) :=
  let! unit2 := rd src 0 in
  let! unit3 := rd src 1 in
  let! unit4 := rd src 2 in
  let! t2 := dfa_cat unit2 in
  let! curr := dfa_trans (curr + t2) in
  let! t3 := dfa_cat unit3 in
  let! curr := dfa_trans (curr + t3) in
  let! t4 := dfa_cat unit4 in
  let! curr := dfa_trans (curr + t4) in
  if curr =? ERR then Ok (65533, src)
  else Ok (Z.lor (Z.lor (Z.lor (Z.shiftl cdpt 18) (Z.shiftl (Z.land unit2 63) 12))
                        (Z.shiftl (Z.land unit3 63) 6)) (Z.land unit4 63),
           skipn 3 src).

(** switch of utf8_dfa_decoder.cc:287-306 and 325-344 *)
Definition dfa_switch (size : Z) (src : list Z) (state cdpt : Z) : res (Z * list Z) :=
  if size =? 2 then dfa_advance_2 src state cdpt
  else if size =? 3 then dfa_advance_3 src state cdpt
  else if size =? 4 then dfa_advance_4 src state cdpt
  else Ok (65533, src).

(** DFADecoder::Convert tail loop, utf8_dfa_decoder.cc:311-347 *)
Fixpoint dfa_tail (fuel : nat) (src : list Z) : res (list Z) :=
  match fuel with
  | O => OutOfFuel
  | S fuel' =>
    match src with
    | [] => Ok []
    | unit :: src1 =>
      if unit <? 128 then rmap (cons unit) (dfa_tail fuel' src1)
      else
        let! info := rdz dfa_first_unit_table (unit - 128) in
        let '(cdpt, state, size) := info in
        if size - 1 >? Z.of_nat (length src1) then Ok [65533]
        else
          let! r := dfa_switch size src1 state cdpt in
          let '(cdpt', src2) := r in
          rmap (cons cdpt') (dfa_tail fuel' src2)
    end
  end.

(** DFADecoder::Convert head loop, utf8_dfa_decoder.cc:276-309 *)
Fixpoint dfa_head (fuel : nat) (src : list Z) : res (list Z) :=
  match fuel with
  | O => OutOfFuel
  | S fuel' =>
    if Z.of_nat (length src) >? 3 then
      let! unit := rd src 0 in
      let src1 := skipn 1 src in
      if unit <? 128 then rmap (cons unit) (dfa_head fuel' src1)
      else
        let! info := rdz dfa_first_unit_table (unit - 128) in
        let '(cdpt, state, size) := info in
        let! r := dfa_switch size src1 state cdpt in
        let '(cdpt', src2) := r in
        rmap (cons cdpt') (dfa_head fuel' src2)
    else dfa_tail fuel src
  end.

(** DFADecoder::Convert, utf8_dfa_decoder.cc:270-350 *)
Definition dfa_convert (src : list Z) : res (list Z) := dfa_head (S (length src)) src.

(** The [while (next > ERR)] loop of AdvanceWithTrace, utf8_dfa_decoder.h:293-304:
    returns the final state, the code point and the remaining input. *)
Fixpoint dfa_trace_loop (next : Z) (src : list Z) (cdpt : Z) : res (Z * Z * list Z) :=
  if next >? ERR then
    match src with
    | unit :: src' =>
      let cdpt' := Z.lor (Z.shiftl cdpt 6) (Z.land unit 63) in
      let! type := dfa_cat unit in
      let! next' := dfa_trans (next + type) in
      dfa_trace_loop next' src' cdpt'
    | [] => Ok (ERR, cdpt, src)
    end
  else Ok (next, cdpt, src).

(** AdvanceWithTrace, utf8_dfa_decoder.h:277-306 (the printing is not modelled). *)
Definition dfa_advance_trace (src : list Z) : res (Z * Z * list Z) :=
  let! unit := rd src 0 in
  let! type := dfa_cat unit in
  let! mask := rdz dfa_mask_table type in
  let! next := dfa_trans type in
  dfa_trace_loop next (skipn 1 src) (Z.land mask unit).

(** ConvertWithTrace, utf8_dfa_decoder.cc:372-387: [None] is the -1 result. *)
Fixpoint dfa_convert_trace_loop (fuel : nat) (src : list Z) : res (option (list Z)) :=
  match fuel with
  | O => OutOfFuel
  | S fuel' =>
    match src with
    | [] => Ok (Some [])
    | _ :: _ =>
      let! r := dfa_advance_trace src in
      let '(st, cdpt, src') := r in
      if negb (st =? ERR) then
        rmap (option_map (cons cdpt)) (dfa_convert_trace_loop fuel' src')
      else Ok None
    end
  end.
Definition dfa_convert_trace (src : list Z) : res (option (list Z)) :=
  dfa_convert_trace_loop (S (length src)) src.
