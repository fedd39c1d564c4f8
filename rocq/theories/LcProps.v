(** * C78: lower and upper of texts *)

From Coq Require Import ZArith List Bool.
From Verif Require Import Base LcSpec LcModel LcProofs.

(** lower() is Python's, for all texts and all databases with mappings of at most three characters, and reads nothing
    outside of the text. *)
Theorem C78_lower : forall (low : Z -> list Z) (cased ignorable : Z -> bool) (s : list Z),
  (forall c, In c s -> (length (low c) <= 3)%nat) ->
  exists t, do_lower low cased ignorable s = Ok t /\ lowered low (python_final cased ignorable) [] s t.
Proof.
  intros low cased ignorable s H. destruct (lower_loop_ok low cased ignorable s [] [] H) as (t & E & L).
  exists t. split; [exact E|exact L].
Qed.
Print Assumptions C78_lower.

(** It is the one of the Unicode standard for texts in which no character is both cased and case-ignorable. *)
Theorem C78_lower_unicode_partial : forall (low : Z -> list Z) (cased ignorable : Z -> bool) (s : list Z),
  (forall c, In c s -> (length (low c) <= 3)%nat) ->
  (forall c, In c s -> cased c = true -> ignorable c = false) ->
  exists t, do_lower low cased ignorable s = Ok t /\ lowered low (unicode_final cased ignorable) [] s t.
Proof.
  intros low cased ignorable s H D. destruct (C78_lower low cased ignorable s H) as (t & E & L).
  exists t. split; [exact E|]. eapply lowered_iff; [exact L|]. intros b r Eb. apply final_iff. intros c Hc. apply D.
  cbn [app] in Eb. rewrite <- Eb. apply in_app_iff in Hc. apply in_or_app. destruct Hc; [now left|]. right. now right.
Qed.
Print Assumptions C78_lower_unicode_partial.

(** After a character that is both, as U+02B0, a capital sigma at the end of the text is not made a final one. *)
Theorem C78_sigma_refuted : forall (low : Z -> list Z) (cased ignorable : Z -> bool) (x : Z),
  x <> 0x3A3 -> (length (low x) <= 3)%nat -> cased x = true -> ignorable x = true ->
  do_lower low cased ignorable [x; 0x3A3] = Ok (low x ++ [0x3C3]) /\ unicode_final cased ignorable [x] [].
Proof.
  intros low cased ignorable x N L C I. split.
  - unfold do_lower. cbn [length lower_loop at_ nth_error bind]. unfold lower_ucs4, full_mapping.
    replace (x =? 0x3A3) with false by lia. replace (length (low x) <=? 3)%nat with true by (symmetry; apply Nat.leb_le; auto).
    cbn [bind]. change (0x3A3 =? 0x3A3) with true. unfold handle_capital_sigma. cbn [loop_back at_ nth_error bind]. rewrite I. reflexivity.
  - split; [exists [], x, []; split; [reflexivity|split; [exact C|intros y []]]|]. intros (g & y & q & E & _). destruct g; discriminate.
Qed.
Print Assumptions C78_sigma_refuted.

(** upper() maps each character, so it is the same on the parts of a text. *)
Theorem C78_upper : forall (up : Z -> list Z) (s : list Z),
  (forall c, In c s -> (length (up c) <= 3)%nat) -> do_upper up s = Ok (concat (map up s)).
Proof. intros up s H. rewrite <- flat_map_concat_map. exact (upper_loop_ok up s [] [] H). Qed.
Print Assumptions C78_upper.

(** Letters a, b with capitals, sharp s (upper case: two letters), sigma, and an ignorable dot. *)
Definition some_low (c : Z) : list Z := if (65 <=? c) && (c <=? 66) then [c + 32] else [c].
Definition some_up (c : Z) : list Z := if (97 <=? c) && (c <=? 98) then [c - 32] else if c =? 0xDF then [83; 83] else [c].
Definition some_cased (c : Z) : bool := ((65 <=? c) && (c <=? 66)) || ((97 <=? c) && (c <=? 98)) || (c =? 0x3A3) || (c =? 0x2B0).
Definition some_ignorable (c : Z) : bool := (c =? 46) || (c =? 0x2B0).

Example C78_example :
  do_lower some_low some_cased some_ignorable [65; 46; 0x3A3; 46; 32; 65; 0x3A3; 66; 0x3A3] =
    Ok [97; 46; 0x3C2; 46; 32; 97; 0x3C3; 98; 0x3C2] /\
  do_lower some_low some_cased some_ignorable [32; 0x3A3] = Ok [32; 0x3C3] /\
  do_lower some_low some_cased some_ignorable [65; 0x3A3; 46; 66] = Ok [97; 0x3C3; 46; 98] /\
  do_upper some_up [97; 0xDF; 46] = Ok [65; 83; 83; 46] /\
  do_lower some_low some_cased some_ignorable [0x2B0; 0x3A3] = Ok [0x2B0; 0x3C3] /\
  (forall c, (length (some_low c) <= 3)%nat) /\ (forall c, (length (some_up c) <= 3)%nat) /\
  (forall c, In c [65; 46; 0x3A3] -> some_cased c = true -> some_ignorable c = false).
Proof.
  split; [reflexivity|]. split; [reflexivity|]. split; [reflexivity|]. split; [reflexivity|]. split; [reflexivity|].
  split; [|split].
  - intros c. unfold some_low. destruct ((65 <=? c) && (c <=? 66)); cbn; lia.
  - intros c. unfold some_up. destruct ((97 <=? c) && (c <=? 98)); [cbn; lia|]. destruct (c =? 0xDF); cbn; lia.
  - intros c [<-|[<-|[<-|[]]]]; cbn; congruence.
Qed.
