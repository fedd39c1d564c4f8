(** int(x, base) of Python (Library Reference, "Built-in Functions", and Lexical analysis,
    "Integer literals"). *)
From Verif Require Import Base.

(** The value of a character as a digit: 0-9, a-z and A-Z for 10 to 35. *)
Inductive digit_of : Z -> Z -> Prop :=
| do_dec c : 48 <= c <= 57 -> digit_of c (c - 48)
| do_low c : 97 <= c <= 122 -> digit_of c (c - 87)
| do_up c : 65 <= c <= 90 -> digit_of c (c - 55).
(** The decimal digits alone *)
Inductive decimal_of : Z -> Z -> Prop :=
| de_dec c : 48 <= c <= 57 -> decimal_of c (c - 48).

Section Grammar.
(** What a digit is, and whether an underscore may stand between two digits. *)
Variable dig : Z -> Z -> Prop.
Variable underscore : Prop.

(** [digits b acc s v]: the digits [s], read in base [b] after the value [acc], give [v];
    there is at least one digit. *)
Inductive digits (b : Z) : Z -> list Z -> Z -> Prop :=
| dg_last acc c d : dig c d -> d < b -> digits b acc [c] (acc * b + d)
| dg_next acc c d s v : dig c d -> d < b -> digits b (acc * b + d) s v ->
    digits b acc (c :: s) v
| dg_under acc c d s v : underscore -> dig c d -> d < b -> digits b (acc * b + d) s v ->
    digits b acc (c :: 95 :: s) v.

(** 0x, 0o, 0b *)
Inductive prefix : Z -> Z -> Prop :=
| pr_x : prefix 16 120 | pr_X : prefix 16 88
| pr_o : prefix 8 111 | pr_O : prefix 8 79
| pr_b : prefix 2 98 | pr_B : prefix 2 66.

(** A prefix, perhaps an underscore, and digits *)
Definition prefixed (b : Z) (s : list Z) (v : Z) : Prop :=
  exists c s', prefix b c /\ (s = 48 :: c :: s' \/ s = 48 :: c :: 95 :: s') /\
               digits b 0 s' v.

(** [magnitude b s v]: [s] is the text of [v] in base [b] without a sign.  The prefix may be
    left out unless the base is 0; base 0 reads a literal of the language, in which a
    decimal number does not start with 0 unless it is zero. *)
Definition magnitude (b : Z) (s : list Z) (v : Z) : Prop :=
  (2 <= b <= 36 /\ (digits b 0 s v \/ prefixed b s v)) \/
  (b = 0 /\ ((exists b', prefixed b' s v) \/
             (digits 10 0 s v /\ (v = 0 \/ hd 0 s <> 48)))).

(** [int_text space b s v]: int(s, b) is [v] *)
Definition int_text (space : Z -> Prop) (b : Z) (s : list Z) (v : Z) : Prop :=
  exists before sign body after m,
    s = before ++ sign ++ body ++ after /\
    Forall space before /\ Forall space after /\ magnitude b body m /\
    ((sign = [] /\ v = m) \/ (sign = [43] /\ v = m) \/ (sign = [45] /\ v = - m)).
End Grammar.

(** White space around a number in a byte string, and among the ASCII characters of a str *)
Definition bytes_space (c : Z) : Prop := c = 32 \/ 9 <= c <= 13.
Definition str_space (c : Z) : Prop := c = 32 \/ 9 <= c <= 13 \/ 28 <= c <= 31.

(** int(s, b) of a byte string, and of a str whose characters are all ASCII *)
Definition py_int_bytes := int_text digit_of True bytes_space.
Definition py_int_str := int_text digit_of True str_space.

(** No decimal digit of [s] is too large for the base: that of the call, or with base 0 the
    one a prefix 0b or 0o in [s] can select. *)
Definition digits_fit (b : Z) (s : list Z) : Prop :=
  forall c, In c s -> 48 <= c <= 57 ->
    (b <> 0 -> c - 48 < b) /\
    (b = 0 -> In 98 s \/ In 66 s -> c - 48 < 2) /\
    (b = 0 -> In 111 s \/ In 79 s -> c - 48 < 8).

(** Texts that float() reads (Library Reference, "float"): a decimal number with an optional
    fraction and exponent, "inf", "infinity" or "nan", with white space around it. *)
Inductive dec_part : list Z -> Prop :=
| dp_one c : 48 <= c <= 57 -> dec_part [c]
| dp_next c s : 48 <= c <= 57 -> dec_part s -> dec_part (c :: s)
| dp_under c s : 48 <= c <= 57 -> dec_part s -> dec_part (c :: 95 :: s).
Definition optional (P : list Z -> Prop) (s : list Z) : Prop := s = [] \/ P s.
Definition exponent (s : list Z) : Prop :=
  exists e sign ds, s = e :: sign ++ ds /\ (e = 101 \/ e = 69) /\
    (sign = [] \/ sign = [43] \/ sign = [45]) /\ dec_part ds.
Definition float_number (s : list Z) : Prop :=
  exists i point f x, s = i ++ point ++ f ++ x /\ optional dec_part i /\ optional dec_part f /\
    optional exponent x /\ (point = [] /\ f = [] \/ point = [46]) /\ (i <> [] \/ f <> []).
Definition same_letters (word s : list Z) : Prop :=
  Forall2 (fun w c => c = w \/ c = w - 32) word s.
Definition py_float_text (s : list Z) : Prop :=
  exists before sign body after, s = before ++ sign ++ body ++ after /\
    Forall bytes_space before /\ Forall bytes_space after /\
    (sign = [] \/ sign = [43] \/ sign = [45]) /\
    (float_number body \/ same_letters [105; 110; 102] body \/
     same_letters [105; 110; 102; 105; 110; 105; 116; 121] body \/
     same_letters [110; 97; 110] body).
