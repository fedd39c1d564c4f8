(** base64_encode / base64_decode of the runtime
    (src/runtime/builtins_modules/_base64_util.cc). *)
From Verif Require Import Base.

(** base64_chars, include/matxscript/runtime/builtins_modules/_base64_util.h:35-38 *)
Definition base64_chars : list Z :=
  [65;66;67;68;69;70;71;72;73;74;75;76;77;78;79;80;81;82;83;84;85;86;87;88;89;90;
   97;98;99;100;101;102;103;104;105;106;107;108;109;110;111;112;113;114;115;116;117;118;
   119;120;121;122;
   48;49;50;51;52;53;54;55;56;57;43;47].

(** is_base64, _base64_util.h:40-42; [isalnum] of the C locale. *)
Definition isalnum (c : Z) : bool :=
  ((48 <=? c) && (c <=? 57)) || ((65 <=? c) && (c <=? 90)) || ((97 <=? c) && (c <=? 122)).
Definition is_base64 (c : Z) : bool := isalnum c || (c =? 43) || (c =? 47).

(** Lines 44-47 = 59-62: char_array_3 to char_array_4 (unsigned char arithmetic). *)
Definition to4 (b0 b1 b2 : Z) : list Z :=
  [ Z.shiftr (Z.land b0 252) 2;
    (Z.shiftl (Z.land b0 3) 4 + Z.shiftr (Z.land b1 240) 4) mod 256;
    (Z.shiftl (Z.land b1 15) 2 + Z.shiftr (Z.land b2 192) 6) mod 256;
    Z.land b2 63 ].

(** [ret += base64_chars[char_array_4[j]]] for the given indices. *)
Fixpoint emit (idx : list Z) : res (list Z) :=
  match idx with
  | [] => Ok []
  | v :: idx' =>
    let! c := rdz base64_chars v in
    let! r := emit idx' in
    Ok (c :: r)
  end.

(** base64_encode, _base64_util.cc:41-70.  [cnt] is the counter in_len (unsigned int),
    [arr] the first i entries of char_array_3, [src] the bytes from
    bytes_to_encode on. *)
Fixpoint encode_loop (cnt : nat) (arr src : list Z) : res (list Z) :=
  match cnt with
  | O =>
    match arr with
    | [] => Ok []                                          (* if (i) *)
    | _ =>
      let i := length arr in
      let arr3 := arr ++ repeat 0 (3 - i) in               (* 56-57 *)
      let! b0 := rd arr3 0 in let! b1 := rd arr3 1 in let! b2 := rd arr3 2 in
      let! t := emit (firstn (i + 1) (to4 b0 b1 b2)) in    (* 59-65 *)
      Ok (t ++ repeat 61 (3 - i))                          (* 67-68 *)
    end
  | S cnt' =>
    let! b := rd src 0 in
    let arr := arr ++ [b] in
    if (length arr =? 3)%nat then
      let! b0 := rd arr 0 in let! b1 := rd arr 1 in let! b2 := rd arr 2 in
      let! t := emit (to4 b0 b1 b2) in
      let! r := encode_loop cnt' [] (skipn 1 src) in
      Ok (t ++ r)
    else encode_loop cnt' arr (skipn 1 src)
  end.

(** _base64_util.cc:32-41: [unsigned int in_len = input_string.size()] truncates. *)
Definition base64_encode (s : list Z) : res (list Z) :=
  encode_loop (Z.to_nat (Z.of_nat (length s) mod two32)) [] s.

(** base64_chars.find(c) stored into an unsigned char (npos becomes 0xFF). *)
Fixpoint find_from (i : Z) (l : list Z) (c : Z) : Z :=
  match l with
  | [] => 255
  | x :: l' => if x =? c then i else find_from (i + 1) l' c
  end.
Definition find_char (c : Z) : Z := find_from 0 base64_chars c.

(** Lines 88-90 = 105-107: char_array_4 to char_array_3 (truncation to unsigned char). *)
Definition to3 (a0 a1 a2 a3 : Z) : list Z :=
  [ (Z.shiftl a0 2 + Z.shiftr (Z.land a1 48) 4) mod 256;
    (Z.shiftl (Z.land a1 15) 4 + Z.shiftr (Z.land a2 60) 2) mod 256;
    (Z.shiftl (Z.land a2 3) 6 + a3) mod 256 ].

(** base64_decode, _base64_util.cc:81-114.  [in_len] is the C int; the loop condition
    [in_len-- && s[in_] != '=' && is_base64(s[in_])] reads s[in_] only if in_len was
    not zero.  [arr]: first i entries of char_array_4; [src]: characters from in_ on;
    the recursion is on fuel because a negative in_len does not bound the loop. *)
Definition decode_tail (arr : list Z) : res (list Z) :=
  match arr with
  | [] => Ok []
  | _ =>
    let i := length arr in
    let a := map find_char (arr ++ repeat 0 (4 - i)) in
    let! a0 := rd a 0 in let! a1 := rd a 1 in let! a2 := rd a 2 in let! a3 := rd a 3 in
    Ok (firstn (i - 1) (to3 a0 a1 a2 a3))
  end.

Fixpoint decode_loop (fuel : nat) (in_len : Z) (arr src : list Z) : res (list Z) :=
  match fuel with
  | O => OutOfFuel
  | S fuel' =>
    if in_len =? 0 then decode_tail arr
    else
      let! c := rd src 0 in
      if negb (c =? 61) && is_base64 c then
        let arr := arr ++ [c] in
        if (length arr =? 4)%nat then
          let a := map find_char arr in
          let! a0 := rd a 0 in let! a1 := rd a 1 in let! a2 := rd a 2 in let! a3 := rd a 3 in
          let! r := decode_loop fuel' (in_len - 1) [] (skipn 1 src) in
          Ok (to3 a0 a1 a2 a3 ++ r)
        else decode_loop fuel' (in_len - 1) arr (skipn 1 src)
      else decode_tail arr
  end.

(** [int in_len = encoded_string.size()] truncates to 32 bits, signed. *)
Definition wraps32 (z : Z) : Z := (z + 2 ^ 31) mod two32 - 2 ^ 31.
Definition base64_decode (t : list Z) : res (list Z) :=
  decode_loop (S (length t)) (wraps32 (Z.of_nat (length t))) [] t.
