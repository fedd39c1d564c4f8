(** * Model for C78: lower and upper of texts

    File: src/runtime/unicodelib/unicode_ops.cc (py_unicode_do_lower_optimize and py_unicode_do_upper_optimize are what
    UnicodeHelper::Lower and Upper call; py_unicode_do_lower and py_unicode_do_upper, 62-91, are the same loops).

    [low] and [up] are what _PyUnicode_ToLowerFull and _PyUnicode_ToUpperFull write into [mapped]
    (src/runtime/unicodelib/py_unicodectype.cc:244-290), an array of 3 characters; [cased] and [ignorable] are
    _PyUnicode_IsCased and _PyUnicode_IsCaseIgnorable (307-319). *)
From Coq Require Import ZArith List Bool.
From Verif Require Import Base.

Definition at_ (data : list Z) (i : nat) : res Z := match nth_error data i with Some c => Ok c | None => OOB end.

Section Database.
Variables (low up : Z -> list Z) (cased ignorable : Z -> bool).

(** 36-40: the loop from i - 1 down; [n] is j + 1.  It gives j + 1 and c. *)
Fixpoint loop_back (data : list Z) (n : nat) (c : Z) : res (nat * Z) :=
  match n with
  | O => Ok (O, c)
  | S j => let! c := at_ data j in if negb (ignorable c) then Ok (n, c) else loop_back data j c
  end.

(** 43-47: the loop from j up to length = j + [n].  It gives j and c. *)
Fixpoint loop_forward (data : list Z) (j n : nat) (c : Z) : res (nat * Z) :=
  match n with
  | O => Ok (j, c)
  | S n => let! c := at_ data j in if negb (ignorable c) then Ok (j, c) else loop_forward data (S j) n c
  end.

(** 27-51, handle_capital_sigma. *)
Definition handle_capital_sigma (data : list Z) (length i : nat) : res Z :=
  let! (j, c) := loop_back data i 0 in
  let final_sigma := (0 <? j)%nat && cased c in
  let! final_sigma :=
    (if final_sigma : bool then
       let! (j, c) := loop_forward data (i + 1) (length - (i + 1)) c in
       Ok ((j =? length)%nat || negb (cased c))
     else Ok false) in
  Ok (if final_sigma : bool then 0x3C2 else 0x3C3).

(** The array mapped. *)
Definition full_mapping (l : list Z) : res (list Z) := if (length l <=? 3)%nat then Ok l else OOB.

(** 53-60, lower_ucs4. *)
Definition lower_ucs4 (data : list Z) (length i : nat) (c : Z) : res (list Z) :=
  if c =? 0x3A3 then let! m := handle_capital_sigma data length i in Ok [m]
  else full_mapping (low c).

(** 108-121, py_unicode_do_lower_optimize: the loop on i, with [n] characters to go. *)
Fixpoint lower_loop (input : list Z) (i n : nat) (result : list Z) : res (list Z) :=
  match n with
  | O => Ok result
  | S n =>
      let! c := at_ input i in
      let! mapped := lower_ucs4 input (length input) i c in
      lower_loop input (S i) n (result ++ mapped)
  end.
Definition do_lower (input : list Z) : res (list Z) := lower_loop input 0 (length input) [].

(** 93-106, py_unicode_do_upper_optimize. *)
Fixpoint upper_loop (input : list Z) (i n : nat) (result : list Z) : res (list Z) :=
  match n with
  | O => Ok result
  | S n =>
      let! c := at_ input i in
      let! mapped := full_mapping (up c) in
      upper_loop input (S i) n (result ++ mapped)
  end.
Definition do_upper (input : list Z) : res (list Z) := upper_loop input 0 (length input) [].
End Database.
