(** * C74: splitting, replacing and matching by a regular expression *)

From Coq Require Import ZArith List Bool Lia.
From Verif Require Import Base RxSpec RxModel RxProofs.
Import ListNotations.
Local Open Scope Z_scope.

(** split gives the texts between the successive matches and what follows the last one, if
    that is not empty; the text itself when nothing matches.  It terminates and never
    reads outside of the text. *)
Theorem C74_split_partial : forall (s : list Z) (exec : Z -> answer) (find : nat -> option match_),
  matcher s exec find -> char_start s 0 -> steps_over_characters s find ->
  exists ms, finds s find 0 ms /\
    regex_split exec s =
      Ok (match ms with
          | [] => [s]
          | _ => between s 0 ms ++ match after s 0 ms with [] => [] | r => [r] end
          end).
Proof.
  intros s exec find Hm St Hs. destruct (start_0 s exec find Hm Hs St) as (ms & F & _ & R). eauto.
Qed.
Print Assumptions C74_split_partial.

(** Nothing is lost: the pieces and the matched texts between them are the text again. *)
Theorem C74_split_join : forall (s : list Z) (exec : Z -> answer) (find : nat -> option match_),
  matcher s exec find -> char_start s 0 -> steps_over_characters s find ->
  exists ms pieces, finds s find 0 ms /\ regex_split exec s = Ok pieces /\
    weave pieces (map (fun m => part s (m_from m) (m_to m)) ms) = s.
Proof.
  intros s exec find Hm St Hs. destruct (start_0 s exec find Hm Hs St) as (ms & F & _ & R).
  exists ms. eexists. split; [exact F|]. split; [exact R|]. destruct ms as [|m ms].
  - cbn. apply app_nil_r.
  - rewrite (weave_finds s exec find Hm Hs 0 (m :: ms) F 0 (le_n 0) St). reflexivity.
Qed.
Print Assumptions C74_split_join.

(** A matcher that answers as [f] does. *)
Definition exec_of (f : nat -> option match_) (o : Z) : answer :=
  match f (Z.to_nat o) with
  | Some m => AFound (Z.of_nat (S (length (m_groups m))))
                (Z.of_nat (m_from m) :: Z.of_nat (m_to m) :: flat_map group_numbers (m_groups m) ++ [7; 7])
  | None => ANoMatch
  end.

(** "a,b,c" and the pattern "," *)
Definition text1 : list Z := [97; 44; 98; 44; 99].
Definition comma1 (o : nat) : option match_ :=
  if (o <=? 1)%nat then Some (Match 1 2 []) else if (o <=? 3)%nat then Some (Match 3 4 []) else None.
(** "xaab" and the pattern "(a)(c)?" *)
Definition text2 : list Z := [120; 97; 97; 98].
Definition group2 (o : nat) : option match_ :=
  if (o <=? 1)%nat then Some (Match 1 2 [Some (1, 2)%nat; None])
  else if (o <=? 2)%nat then Some (Match 2 3 [Some (2, 3)%nat; None]) else None.

Ltac start_here := right; eexists; split; [reflexivity|lia].

Lemma matcher1 : matcher text1 (exec_of comma1) comma1.
Proof.
  intros o St. unfold comma1, exec_of. rewrite Nat2Z.id. unfold comma1.
  destruct (Nat.leb_spec o 1); [|destruct (Nat.leb_spec o 3); [|reflexivity]]; cbn [m_from m_to m_groups length text1];
    (repeat split; try lia; try (start_here); try constructor; eexists; reflexivity).
Qed.

Lemma matcher2 : matcher text2 (exec_of group2) group2.
Proof.
  intros o St. unfold group2, exec_of. rewrite Nat2Z.id. unfold group2.
  destruct (Nat.leb_spec o 1); [|destruct (Nat.leb_spec o 2); [|reflexivity]]; cbn [m_from m_to m_groups length text2];
    (split; [lia|]; split; [lia|]; split; [lia|]; split; [start_here|]; split;
     [repeat constructor; cbn; lia|eexists; reflexivity]).
Qed.

Lemma steps1 : steps_over_characters text1 comma1.
Proof.
  intros o m. unfold comma1. destruct (o <=? 1)%nat; [intros [= <-]; cbn; lia|].
  destruct (o <=? 3)%nat; [intros [= <-]; cbn; lia|discriminate].
Qed.
Lemma steps2 : steps_over_characters text2 group2.
Proof.
  intros o m. unfold group2. destruct (o <=? 1)%nat; [intros [= <-]; cbn; lia|].
  destruct (o <=? 2)%nat; [intros [= <-]; cbn; lia|discriminate].
Qed.

Example C74_split_example :
  matcher text1 (exec_of comma1) comma1 /\ char_start text1 0 /\ steps_over_characters text1 comma1 /\
  finds text1 comma1 0 [Match 1 2 []; Match 3 4 []] /\
  regex_split (exec_of comma1) text1 = Ok [[97]; [98]; [99]].
Proof.
  split; [apply matcher1|]. split; [start_here|]. split; [apply steps1|]. split; [|reflexivity].
  apply finds_text; [reflexivity|cbn; lia|]. apply finds_text; [reflexivity|cbn; lia|]. now apply finds_none.
Qed.

(** An ASCII text and a pattern that also matches the empty text: "ab" and "b*". *)
Definition text3 : list Z := [97; 98].
Definition star3 (o : nat) : option match_ :=
  match o with 0%nat => Some (Match 0 0 []) | 1%nat => Some (Match 1 2 []) | _ => Some (Match 2 2 []) end.
Example C74_split_join_example :
  matcher text3 (exec_of star3) star3 /\ char_start text3 0 /\ steps_over_characters text3 star3 /\
  finds text3 star3 0 [Match 0 0 []; Match 1 2 []; Match 2 2 []] /\
  regex_split (exec_of star3) text3 = Ok [[]; [97]; []] /\
  weave [[]; [97]; []] [[]; [98]; []] = text3.
Proof.
  split.
  { intros o St. assert (L : (o <= 2)%nat).
    { destruct St as [->|(b & E & _)]; [cbn; lia|].
      assert (K : nth_error text3 o <> None) by congruence. apply nth_error_Some in K. cbn in K. lia. }
    unfold exec_of. rewrite Nat2Z.id. destruct o as [|[|[|o]]]; [| | |lia]; cbn [star3 m_from m_to m_groups length text3];
      (split; [lia|]; split; [lia|]; split; [lia|]; split; [first [start_here|left; reflexivity]|];
       split; [constructor|eexists; reflexivity]). }
  split; [start_here|]. split.
  { intros [|[|o]] m; intros [= <-]; cbn; intros; try lia. start_here. }
  split; [|split; reflexivity].
  apply finds_empty; [reflexivity|reflexivity|cbn; lia|]. apply finds_text; [reflexivity|cbn; lia|]. now apply finds_end.
Qed.

(** replace gives the text with each of the successive matches replaced by what the template stands
    for.  It terminates, never reads outside of the text or the vector of groups, and never
    writes outside of the block it allocated for the replacement. *)
Theorem C74_replace_partial : forall (s t : list Z) (its : list item) (exec : Z -> answer) (find : nat -> option match_),
  matcher s exec find -> char_start s 0 -> steps_over_characters s find ->
  denotes t its -> (forall n, In (IGroup n) its -> n < 2 ^ 63) ->
  exists ms, finds s find 0 ms /\ regex_replace exec s t = Ok (replaced s 0 its ms).
Proof. intros s t its exec find Hm St Hs D S. now apply (regex_replace_ok s exec find t its). Qed.
Print Assumptions C74_replace_partial.

(** <$1$2${0}$$> *)
Definition template2 : list Z := [60; 36; 49; 36; 50; 36; 123; 48; 125; 36; 36; 62].
Lemma denotes2 : denotes template2 [ILit 60; IGroup 1; IGroup 2; IGroup 0; ILit 36; ILit 62].
Proof.
  unfold template2. apply den_char; [lia|].
  apply (den_group [49]); [discriminate|repeat constructor; unfold digit; lia|intros b t' [= <- _]; unfold digit; lia|].
  apply (den_group [50]); [discriminate|repeat constructor; unfold digit; lia|intros b t' [= <- _]; unfold digit; lia|].
  apply (den_braces [48]); [discriminate|repeat constructor; unfold digit; lia|].
  apply den_dollar. apply den_char; [lia|]. apply den_nil.
Qed.

Example C74_replace_example :
  matcher text2 (exec_of group2) group2 /\ char_start text2 0 /\ steps_over_characters text2 group2 /\
  denotes template2 [ILit 60; IGroup 1; IGroup 2; IGroup 0; ILit 36; ILit 62] /\
  finds text2 group2 0 [Match 1 2 [Some (1, 2)%nat; None]; Match 2 3 [Some (2, 3)%nat; None]] /\
  regex_replace (exec_of group2) text2 template2 =
    Ok ([120] ++ [60; 97; 97; 36; 62] ++ [60; 97; 97; 36; 62] ++ [98]).
Proof.
  split; [apply matcher2|]. split; [start_here|]. split; [apply steps2|]. split; [apply denotes2|]. split; [|reflexivity].
  apply finds_text; [reflexivity|cbn; lia|]. apply finds_text; [reflexivity|cbn; lia|]. now apply finds_none.
Qed.

(** A template that stands for nothing is not an error: the text comes back unchanged, whatever the
    pattern matches. *)
Theorem C74_replace_invalid : forall (s t : list Z) (exec : Z -> answer),
  (forall its, ~ denotes t its) -> regex_replace exec s t = Ok s.
Proof. intros s t exec N. now apply regex_replace_bad. Qed.
Print Assumptions C74_replace_invalid.

(** "$x" *)
Example C74_replace_invalid_example :
  (forall its, ~ denotes [36; 120] its) /\ regex_replace (exec_of comma1) text1 [36; 120] = Ok text1.
Proof. split; [|reflexivity]. intros its. apply inv_dollar_bad; unfold digit; lia. Qed.

(** match at the start of a character of a text that is not empty: the texts of all groups by
    number, and by name for the groups below 128. *)
Theorem C74_match_partial : forall (s : list Z) (exec : Z -> answer) (find : nat -> option match_)
    (ngroups : nat) (names : list (list Z * Z)) (o : nat),
  matcher s exec find -> char_start s o -> s <> [] -> Z.of_nat ngroups < 2 ^ 63 ->
  (forall name num, In (name, num) names -> 0 <= num < 128 /\ num <= Z.of_nat ngroups) ->
  regex_match exec false ngroups names s (Z.of_nat o) =
    Ok (match find o with Some m => (groups_of s m ngroups, named_of s m names) | None => ([], []) end).
Proof. intros s exec find ng names o Hm St Ne Hg Hn. now apply regex_match_ok. Qed.
Print Assumptions C74_match_partial.

Example C74_match_example :
  matcher text2 (exec_of group2) group2 /\ char_start text2 0 /\
  regex_match (exec_of group2) false 2 [([110], 1); ([113], 2)] text2 (Z.of_nat 0) =
    Ok ([[97]; [97]; []], [([110], [97]); ([113], [])]).
Proof. split; [apply matcher2|]. split; [start_here|reflexivity]. Qed.

(** ** Refutations *)

(** Python's split also gives the empty text behind a match at the end: "a," is split into
    "a" and "", here into "a" only. *)
Theorem C74_last_piece_refuted : forall (s : list Z) (exec : Z -> answer) (find : nat -> option match_) (ms : list match_),
  matcher s exec find -> char_start s 0 -> steps_over_characters s find ->
  finds s find 0 ms -> ms <> [] -> after s 0 ms = [] ->
  exists pieces, regex_split exec s = Ok pieces /\ python_split s ms = pieces ++ [[]].
Proof.
  intros s exec find ms Hm St Hs F N A. destruct (start_0 s exec find Hm Hs St) as (ms' & F' & _ & R).
  rewrite <- (finds_unique s find 0 ms F ms' F') in R. rewrite A in R. destruct ms as [|m ms]; [congruence|].
  rewrite app_nil_r in R. eexists. split; [exact R|]. unfold python_split. now rewrite A.
Qed.
Print Assumptions C74_last_piece_refuted.

Example C74_last_piece_refuted_example :
  regex_split (exec_of comma1) [97; 44; 98; 44] = Ok [[97]; [98]] /\
  python_split [97; 44; 98; 44] [Match 1 2 []; Match 3 4 []] = [[97]; [98]; []].
Proof. split; reflexivity. Qed.

(** After an empty match the search goes on one byte further, which can be the middle of a character:
    the text is one character of two bytes, the pattern matches the empty text. *)
Definition two_bytes : list Z := [195; 169].
Definition empty_matches (o : nat) : option match_ := Some (Match o o []).
Definition careful_exec (o : Z) : answer :=
  if o =? 1 then AUndefined else exec_of empty_matches o.

Theorem C74_middle_of_character_refuted :
  matcher two_bytes careful_exec empty_matches /\ char_start two_bytes 0 /\
  regex_split careful_exec two_bytes = OOB /\ regex_replace careful_exec two_bytes [120] = OOB.
Proof.
  split; [|split; [start_here|split; reflexivity]].
  intros o St. assert (L : o = 0%nat \/ o = 2%nat).
  { destruct St as [->|(b & E & N)]; [right; reflexivity|]. destruct o as [|[|o]]; [now left| |destruct o; discriminate].
    injection E as <-. lia. }
  destruct L as [->| ->]; cbn [empty_matches m_from m_to m_groups length two_bytes];
    (split; [lia|]; split; [lia|]; split; [lia|]; split; [first [start_here|left; reflexivity]|];
     split; [constructor|eexists; reflexivity]).
Qed.
Print Assumptions C74_middle_of_character_refuted.

(** When the matcher fails (its match limit is reached), split gives no piece at all: the text is
    lost and nothing is raised.  replace gives the text back. *)
Theorem C74_failure_refuted : forall (s t : list Z) (exec : Z -> answer),
  exec 0 = AError -> s <> [] ->
  regex_split exec s = Ok [] /\ (forall ts, weave [] ts <> s) /\
  ((exists its, denotes t its /\ forall n, In (IGroup n) its -> n < 2 ^ 63) -> regex_replace exec s t = Ok s).
Proof.
  intros s t exec E N. unfold regex_split, helper_split, regex_replace, sub_helper.
  rewrite Nat.add_comm. cbn [Nat.add split_loop sub_loop]. rewrite E. cbn [bind].
  split; [reflexivity|]. split; [intros ts K; now apply N|].
  intros (its & D & S). destruct (tpl_compile_ok t its D S) as (val & -> & _). reflexivity.
Qed.
Print Assumptions C74_failure_refuted.

Example C74_failure_refuted_example :
  regex_split (fun _ => AError) [97; 98] = Ok [] /\ regex_replace (fun _ => AError) [97; 98] [120] = Ok [97; 98].
Proof. split; reflexivity. Qed.

(** Group numbers are doubled modulo 2^64: "$9223372036854775808" (2^63) is the whole match instead of a
    group that does not exist.  The text is "xaab", the pattern "(a)(c)?". *)
Definition huge : list Z := [57; 50; 50; 51; 51; 55; 50; 48; 51; 54; 56; 53; 52; 55; 55; 53; 56; 48; 56].
Theorem C74_group_number_refuted :
  denotes (36 :: huge) [IGroup (2 ^ 63)] /\
  replaced text2 0 [IGroup (2 ^ 63)] [Match 1 2 [Some (1, 2)%nat; None]; Match 2 3 [Some (2, 3)%nat; None]] = [120; 98] /\
  regex_replace (exec_of group2) text2 (36 :: huge) = Ok [120; 97; 97; 98].
Proof.
  split; [|split].
  - rewrite <- (app_nil_r huge). replace (2 ^ 63) with (number huge) by reflexivity.
    apply den_group; [discriminate|unfold huge; repeat constructor; unfold digit; lia|discriminate|apply den_nil].
  - unfold replaced, expansion, flat_map, item_text, group_text. change (2 ^ 63 =? 0) with false. cbn iota.
    rewrite !nth_overflow by (cbn [m_groups length]; lia). reflexivity.
  - vm_compute. reflexivity.
Qed.
Print Assumptions C74_group_number_refuted.

(** match with a pattern made with ignore_case, dotall or extended never finds anything, nor does it
    in the empty text. *)
Theorem C74_match_refuted : forall (exec : Z -> answer) (ngroups : nat) (names : list (list Z * Z)) (s : list Z) (o : Z),
  regex_match exec true ngroups names s o = Ok ([], []) /\
  (forall option, regex_match exec option ngroups names [] o = Ok ([], [])).
Proof.
  intros exec ng names s o. split; [|reflexivity]. unfold regex_match. now destruct (Z.of_nat (length s) <=? 0).
Qed.
Print Assumptions C74_match_refuted.

Example C74_match_refuted_example :
  group2 0 = Some (Match 1 2 [Some (1, 2)%nat; None]) /\
  regex_match (exec_of group2) true 2 [] text2 0 = Ok ([], []) /\
  regex_match (exec_of group2) false 2 [] text2 0 = Ok ([[97]; [97]; []], []).
Proof. repeat split. Qed.

(** The names of groups 128 to 255 are lost. *)
Theorem C74_names_refuted : forall (s : list Z) (exec : Z -> answer) (find : nat -> option match_)
    (ngroups : nat) (names : list (list Z * Z)) (o : nat) (m : match_),
  matcher s exec find -> char_start s o -> s <> [] -> Z.of_nat ngroups < 2 ^ 63 - 1 ->
  (forall name num, In (name, num) names -> 128 <= num < 256) -> find o = Some m ->
  regex_match exec false ngroups names s (Z.of_nat o) = Ok (groups_of s m ngroups, []) /\
  length (named_of s m names) = length names.
Proof.
  intros s exec find ng names o m Hm St Ne Hg Hn F. split; [|apply map_length].
  assert (K : regex_match exec false ng [] s (Z.of_nat o) = Ok (groups_of s m ng, [])).
  { rewrite (regex_match_ok s exec find ng [] o Hm St Ne); [now rewrite F|unfold two63; lia|intros ? ? []]. }
  unfold regex_match in *. destruct (Z.of_nat (length s) <=? 0); [discriminate K|].
  destruct (exec (Z.of_nat o)) as [| |rc cap|]; try discriminate K.
  destruct (rc =? 0); [discriminate K|].
  destruct (match_groups s rc cap 0 (S ng)) as [gs| | |]; try discriminate K. cbn [bind match_names] in *.
  injection K as ->. rewrite match_names_lost; [reflexivity| |exact Hn].
  unfold groups_of. rewrite map_length, seq_length. unfold two63. lia.
Qed.
Print Assumptions C74_names_refuted.

Example C74_names_refuted_example :
  regex_match (exec_of group2) false 130 [([110], 130)] text2 0 =
    rmap (fun r => (fst r, [])) (regex_match (exec_of group2) false 130 [([110], 30)] text2 0) /\
  regex_match (exec_of group2) false 130 [([110], 30)] text2 0 <> Ok ([], []).
Proof. split; [reflexivity|discriminate]. Qed.
