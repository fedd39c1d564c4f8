(** * Model for C76: unicodedata.normalize for NFD and NFKD

    File: src/runtime/unicodelib/py_unicodedata.cc.

    The generated tables are parameters: [decomp code] is what get_decomp_record (333-351) finds, the prefix (true: not
    0) and the characters decomp_data[index .. index + count); [ccc] the field combining of _getrecord_ex (94-106),
    [quick] its field normalization_quick_check.  The user's function uses the current database (previous_ucd_ is null,
    src/runtime/generic/generic_funcs.cc:2047-2067). *)
From Coq Require Import ZArith List Bool.
From Verif Require Import Base.

Section Database.
Variables (decomp : Z -> bool * list Z) (ccc quick : Z -> Z).

(** 353-361. *)
Definition SBase := 0xAC00.
Definition LBase := 0x1100.
Definition VBase := 0x1161.
Definition TBase := 0x11A7.
Definition LCount := 19.
Definition VCount := 21.
Definition TCount := 28.
Definition NCount := VCount * TCount.
Definition SCount := LCount * NCount.

(** 384-430: the loop on the stack, whose top is the head of the list.  The array has 20 elements: pushing more is out
    of bounds. *)
Fixpoint stack_loop (fuel : nat) (k : bool) (stack result : list Z) : res (list Z) :=
  match fuel with
  | O => OutOfFuel
  | S fuel =>
      match stack with
      | [] => Ok result
      | code :: stack =>
          if (SBase <=? code) && (code <? SBase + SCount) then
            let SIndex := code - SBase in
            let L := LBase + SIndex / NCount in
            let V := VBase + (SIndex mod NCount) / TCount in
            let T := TBase + SIndex mod TCount in
            let result := result ++ [L; V] in
            let result := if T =? TBase then result else result ++ [T] in
            stack_loop fuel k stack result
          else
            let (prefix, data) := decomp code in
            if (length data =? 0)%nat || (prefix && negb k) then stack_loop fuel k stack (result ++ [code])
            else if (20 <? length (data ++ stack))%nat then OOB
            else stack_loop fuel k (data ++ stack) result
      end
  end.

(** 382-430. *)
Fixpoint decompose (fuel : nat) (k : bool) (input result : list Z) : res (list Z) :=
  match input with
  | [] => Ok result
  | c :: input => let! result := stack_loop fuel k [c] result in decompose fuel k input result
  end.

(** 442-454: the inner loop moves result[i] = c, of class [cur], to the left.  [before] is what lies before it, the
    nearest first; it gives everything up to the position i, the nearest first.  The array is split at i instead of
    indexed. *)
Fixpoint move_left (c cur : Z) (before : list Z) : list Z :=
  match before with
  | [] => [c]
  | p :: before =>
      p :: match before with
           | [] => [c]
           | q :: _ => let prev := ccc q in if (prev =? 0) || (prev <=? cur) then c :: before else move_left c cur before
           end
  end.

(** 435-456: the loop on i; [prev] is the class of result[i - 1]. *)
Fixpoint sort_loop (prev : Z) (before rest : list Z) : list Z :=
  match rest with
  | [] => rev before
  | c :: rest =>
      let cur := ccc c in
      if (prev =? 0) || (cur =? 0) || (prev <=? cur) then sort_loop cur (c :: before) rest
      else
        let before := move_left c cur before in
        sort_loop (match before with [] => 0 | p :: _ => ccc p end) before rest
  end.

(** 363-457, nfd_nfkd: result[0] is read before the loop. *)
Definition nfd_nfkd (fuel : nat) (input : list Z) (k : bool) : res (list Z) :=
  let! result := decompose fuel k input [] in
  match result with
  | [] => OOB
  | c :: rest => Ok (sort_loop (ccc c) [c] rest)
  end.

(** 609-655, is_normalized_quickcheck with yes_only: is the answer YES? *)
Fixpoint quickcheck (quickcheck_shift : Z) (prev_combining : Z) (input : list Z) : bool :=
  match input with
  | [] => true
  | ch :: input =>
      let combining := ccc ch in
      if negb (combining =? 0) && (prev_combining >? combining) then false
      else if negb (Z.land (quick ch) (Z.shiftl 3 quickcheck_shift) =? 0) then false
      else quickcheck quickcheck_shift combining input
  end.

(** 690-696 and 709-720, normalize for the forms NFD ([k] = false) and NFKD. *)
Definition normalize (fuel : nat) (k : bool) (input : list Z) : res (list Z) :=
  match input with
  | [] => Ok []
  | _ =>
      if quickcheck (if k then 2 else 0) 0 input then Ok input else nfd_nfkd fuel input k
  end.
End Database.
