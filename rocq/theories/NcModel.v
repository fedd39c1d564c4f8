(** * Model for C77: unicodedata.normalize for NFC and NFKC

    File: src/runtime/unicodelib/py_unicodedata.cc.

    The tables are parameters, as in NfModel: [first] and [last] are find_nfc_index (459-471) on nfc_first and nfc_last, None
    for -1, [comp f l] the entry of comp_data for the index f * TOTAL_LAST + l (0: none). *)
From Coq Require Import ZArith List Bool.
From Verif Require Import Base NfModel.

Section Database.
Variables (decomp : Z -> bool * list Z) (ccc quick : Z -> Z).
Variables (first last : Z -> option Z) (comp : Z -> Z -> Z).

(** 535-577: the loop on i1.  [cur] is result[o], [f] its index, [rest] data[i1 ..]; it gives result[o] and what is left of the
    data after i.  Simplified: characters that were composed are taken out of the data instead of being recorded in the array
    skipped, so that its bound of 20 is not modelled. *)
Fixpoint scan (f cur comb : Z) (rest : list Z) : Z * list Z :=
  match rest with
  | [] => (cur, [])
  | code1 :: rest1 =>
      let comb1 := ccc code1 in
      let not_combinable :=
        if comb1 =? 0 then (cur, rest) else let (c, r) := scan f cur comb1 rest1 in (c, code1 :: r) in
      if negb (comb =? 0) && (comb1 =? 0) then (cur, rest)
      else if negb (comb =? 0) && (comb >=? comb1) then let (c, r) := scan f cur comb rest1 in (c, code1 :: r)
      else
        match last code1 with
        | None => not_combinable
        | Some l =>
            let code := comp f l in
            if code =? 0 then not_combinable
            else match first code with
                 | None => (code, rest1)
                 | Some f => scan f code comb rest1
                 end
        end
  end.

(** 493-583: the loop on i; [data] is data[i ..]. *)
Fixpoint compose_loop (fuel : nat) (data result : list Z) : res (list Z) :=
  match data with
  | [] => Ok result
  | code :: rest =>
      match fuel with
      | O => OutOfFuel
      | S fuel =>
          let other :=
            match first code with
            | None => compose_loop fuel rest (result ++ [code])
            | Some f => let (c, r) := scan f code 0 rest in compose_loop fuel r (result ++ [c])
            end in
          if (LBase <=? code) && (code <? LBase + LCount) then
            match rest with
            | [] => other
            | v :: rest1 =>
                if (VBase <=? v) && (v <? VBase + VCount) then
                  let LIndex := code - LBase in
                  let VIndex := v - VBase in
                  let code := SBase + (LIndex * VCount + VIndex) * TCount in
                  match rest1 with
                  | [] => compose_loop fuel rest1 (result ++ [code])
                  | t :: rest2 =>
                      if (TBase <? t) && (t <? TBase + TCount) then compose_loop fuel rest2 (result ++ [code + (t - TBase)])
                      else compose_loop fuel rest1 (result ++ [code])
                  end
                else other
            end
          else other
      end
  end.

(** 473-589, nfc_nfkc. *)
Definition nfc_nfkc (fuel : nat) (input : list Z) (k : bool) : res (list Z) :=
  let! data := nfd_nfkd decomp ccc fuel input k in
  let! result := compose_loop (length data) data [] in
  if (length result =? length data)%nat then Ok data else Ok result.

(** 690-708, normalize for the forms NFC ([k] = false) and NFKC. *)
Definition normalize_c (fuel : nat) (k : bool) (input : list Z) : res (list Z) :=
  match input with
  | [] => Ok []
  | _ => if quickcheck ccc quick (4 + (if k then 2 else 0)) 0 input then Ok input else nfc_nfkc fuel input k
  end.
End Database.
