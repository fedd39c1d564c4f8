(** * C77: unicodedata.normalize gives the composed normal forms *)

From Coq Require Import ZArith List Bool Relation_Operators.
From Verif Require Import Base NfSpec NfModel NfProofs NfProps NcSpec NcModel NcProofs.

(** The tables: combining classes; the characters that can be the first of a pair are starters and not Hangul, which is
    computed; composites are starters and not Hangul; full decompositions have at most 20 characters; a character with the
    quick check value YES is composed again from its decomposition. *)
Theorem C77_compose : forall (decomp : Z -> bool * list Z) (ccc quick : Z -> Z) (first last : Z -> option Z) (comp : Z -> Z -> Z)
    (k : bool) (s : list Z),
  (forall c, 0 <= ccc c) ->
  (forall c, first c <> None -> ccc c = 0) -> (forall c, is_hangul c -> first c = None) -> (forall c, is_hangul c -> ccc c = 0) ->
  (forall l c x, table first last comp l c = Some x -> ccc x = 0 /\ ~ is_hangul x) ->
  (forall c, In c s -> exists u, full decomp k c u /\ (length u <= 20)%nat) ->
  (forall c, In c s -> Z.land (quick c) (Z.shiftl 3 (4 + (if k then 2 else 0))) = 0 -> recomposed decomp (table first last comp) ccc k c) ->
  exists t f0, composed_form decomp (table first last comp) ccc k s t /\
    forall fuel, (f0 <= fuel)%nat -> normalize_c decomp ccc quick first last comp fuel k s = Ok t.
Proof.
  intros decomp ccc quick first last comp k s P F1 F2 F3 F4 F R.
  destruct (list_eq_dec Z.eq_dec s []) as [->|Ne].
  { exists [], O. split; [|reflexivity]. exists []. split; [|constructor]. exists []. split; [constructor|]. split; [apply rt_refl|].
    apply asc_ordered; exact I. }
  destruct (quickcheck ccc quick (4 + (if k then 2 else 0)) 0 s) eqn:Q.
  - exists s, O. split; [eapply quick_form; eauto|]. intros fuel _. unfold normalize_c. rewrite Q. destruct s; [congruence|reflexivity].
  - destruct (nfc_ok decomp ccc first last comp k s P F1 F2 F3 F4 F Ne) as (t & f0 & C & H).
    exists t, f0. split; [exact C|]. intros fuel Hf. unfold normalize_c. rewrite Q. destruct s; [congruence|]. auto.
Qed.
Print Assumptions C77_compose.

(** A text has one composed form. *)
Theorem C77_unique : forall (decomp : Z -> bool * list Z) (ccc : Z -> Z) (first last : Z -> option Z) (comp : Z -> Z -> Z)
    (k : bool) (s t t' : list Z),
  (forall c, 0 <= ccc c) -> (forall c, is_hangul c -> first c = None) ->
  composed_form decomp (table first last comp) ccc k s t -> composed_form decomp (table first last comp) ccc k s t' -> t = t'.
Proof. exact composed_form_fun. Qed.
Print Assumptions C77_unique.

(** Composing what normalize made of a text by decomposition gives the same as composing the text. *)
Theorem C77_after_decomposition : forall (decomp : Z -> bool * list Z) (ccc : Z -> Z) (first last : Z -> option Z) (comp : Z -> Z -> Z)
    (k : bool) (s u t : list Z),
  (forall c, 0 <= ccc c) ->
  (forall l v t c, hangul_parts l v t -> In c (letters l v t) -> full decomp k c [c]) ->
  normal_form decomp ccc k s u ->
  (composed_form decomp (table first last comp) ccc k u t <-> composed_form decomp (table first last comp) ccc k s t).
Proof.
  intros decomp ccc first last comp k s u t P J N. pose proof (normal_form_idem _ _ _ _ _ J N) as Nu. split; intros (w & Nw & C).
  - exists u. split; [exact N|]. now rewrite (normal_form_fun _ _ _ _ _ _ P Nu Nw).
  - exists u. split; [exact Nu|]. now rewrite (normal_form_fun _ _ _ _ _ _ P N Nw).
Qed.
Print Assumptions C77_after_decomposition.

(** Normalizing twice is normalizing once; a primary composite is a character whose canonical mapping is the pair. *)
Theorem C77_idempotent : forall (decomp : Z -> bool * list Z) (ccc quick : Z -> Z) (first last : Z -> option Z) (comp : Z -> Z -> Z)
    (k : bool) (s : list Z),
  (forall c, 0 <= ccc c) ->
  (forall c, first c <> None -> ccc c = 0) -> (forall c, is_hangul c -> first c = None) -> (forall c, is_hangul c -> ccc c = 0) ->
  (forall l c x, table first last comp l c = Some x -> ccc x = 0 /\ ~ is_hangul x) ->
  (forall l c x, table first last comp l c = Some x -> decomp x = (false, [l; c])) ->
  (forall l v t c, hangul_parts l v t -> In c (letters l v t) -> full decomp k c [c]) ->
  (forall c, exists u, full decomp k c u /\ (length u <= 20)%nat) ->
  (forall c, Z.land (quick c) (Z.shiftl 3 (4 + (if k then 2 else 0))) = 0 -> recomposed decomp (table first last comp) ccc k c) ->
  exists t f0, forall fuel, (f0 <= fuel)%nat ->
    normalize_c decomp ccc quick first last comp fuel k s = Ok t /\ normalize_c decomp ccc quick first last comp fuel k t = Ok t.
Proof.
  intros decomp ccc quick first last comp k s P F1 F2 F3 F4 D J F R.
  destruct (C77_compose decomp ccc quick first last comp k s P F1 F2 F3 F4 (fun c _ => F c) (fun c _ => R c)) as (t & f1 & C1 & H1).
  destruct (C77_compose decomp ccc quick first last comp k t P F1 F2 F3 F4 (fun c _ => F c) (fun c _ => R c)) as (t' & f2 & C2 & H2).
  pose proof (composed_form_idem _ _ _ _ _ _ _ _ F3 F4 D J C1) as C3.
  rewrite (composed_form_fun _ _ _ _ _ _ _ _ _ P F2 C2 C3) in H2.
  exists t, (Nat.max f1 f2). intros fuel Hf. split; [apply H1|apply H2]; lia.
Qed.
Print Assumptions C77_idempotent.

(** Texts of Hangul syllables are decomposed and composed again without loss, whatever the quick check says. *)
Theorem C77_hangul : forall (decomp : Z -> bool * list Z) (ccc quick : Z -> Z) (first last : Z -> option Z) (comp : Z -> Z -> Z)
    (k : bool) (s : list Z),
  (forall c, 0 <= ccc c) ->
  (forall c, first c <> None -> ccc c = 0) -> (forall c, is_hangul c -> first c = None) -> (forall c, is_hangul c -> ccc c = 0) ->
  (forall l c x, table first last comp l c = Some x -> ccc x = 0 /\ ~ is_hangul x) ->
  (forall c, In c s -> 0xAC00 <= c <= 0xD7A3) ->
  exists f0, forall fuel, (f0 <= fuel)%nat -> normalize_c decomp ccc quick first last comp fuel k s = Ok s.
Proof.
  intros decomp ccc quick first last comp k s P F1 F2 F3 F4 H. destruct s as [|c0 s]; [exists O; reflexivity|].
  pose proof (hangul_form decomp ccc first last comp k (c0 :: s) P F2 F3 H) as Hs.
  destruct (nfc_ok decomp ccc first last comp k (c0 :: s) P F1 F2 F3 F4) as (t & f0 & C & E); [|discriminate|].
  - intros c Hc. destruct (syllables_parts [c]) as ([|[[l v] j] ts] & Ec & Hp).
    + intros d [<-|[]]. now apply H.
    + discriminate.
    + cbn [map fst snd] in Ec. assert (E1 : c = hangul l v j) by congruence. rewrite E1. exists (letters l v j). split; [constructor; apply Hp; now left|].
      unfold letters. destruct (_ =? 0); cbn; lia.
  - rewrite (composed_form_fun _ _ _ _ _ _ _ _ _ P F2 C Hs) in E. exists f0. intros fuel Hf. unfold normalize_c.
    destruct (quickcheck _ _ _ _ _); [reflexivity|auto].
Qed.
Print Assumptions C77_hangul.

(** The database of NfProps with its two canonical pairs. *)
Definition some_first (c : Z) : option Z := if c =? 0x73 then Some 0 else if c =? 0x1E63 then Some 1 else None.
Definition some_last (c : Z) : option Z := if c =? 0x323 then Some 0 else if c =? 0x307 then Some 1 else None.
Definition some_comp (f l : Z) : Z :=
  if (f =? 0) && (l =? 0) then 0x1E63 else if (f =? 1) && (l =? 1) then 0x1E69 else 0.
Definition maybe_quick (c : Z) : Z := if (c =? 0x307) || (c =? 0x323) then 80 else 0.

Example C77_example :
  normalize_c some_decomp some_ccc maybe_quick some_first some_last some_comp 20 false [0x73; 0x307; 0x323; 0xD55C; 0x73; 0x307; 0x307] =
    Ok [0x1E69; 0xD55C; 0x73; 0x307; 0x307] /\
  normalize_c some_decomp some_ccc maybe_quick some_first some_last some_comp 20 false [0xAC00; 0x307; 0x11A8] = Ok [0xAC00; 0x307; 0x11A8] /\
  normalize_c some_decomp some_ccc maybe_quick some_first some_last some_comp 20 false [0xAC00; 0x11A8; 0x323] = Ok [0xAC01; 0x323] /\
  quickcheck some_ccc maybe_quick 4 0 [0x73; 0x307; 0x323] = false /\
  (forall c, some_first c <> None -> some_ccc c = 0) /\ (forall c, is_hangul c -> some_first c = None) /\
  (forall c, is_hangul c -> some_ccc c = 0) /\
  (forall l c x, table some_first some_last some_comp l c = Some x -> some_ccc x = 0 /\ ~ is_hangul x).
Proof.
  split; [reflexivity|]. split; [reflexivity|]. split; [reflexivity|]. split; [reflexivity|]. split; [|split; [|split]].
  - intros c H. destruct (Z.eq_dec c 0x73) as [E|N1]; [rewrite E; reflexivity|].
    destruct (Z.eq_dec c 0x1E63) as [E|N2]; [rewrite E; reflexivity|]. exfalso. apply H. unfold some_first.
    replace (c =? 0x73) with false by lia. replace (c =? 0x1E63) with false by lia. reflexivity.
  - intros c H. unfold is_hangul, syllable in H. unfold some_first. destruct (Z.eqb_spec c 0x73); [lia|]. destruct (Z.eqb_spec c 0x1E63); [lia|reflexivity].
  - intros c H. unfold is_hangul, syllable in H. unfold some_ccc. destruct (Z.eqb_spec c 0x307); [lia|]. destruct (Z.eqb_spec c 0x323); [lia|reflexivity].
  - intros l c x H. unfold table in H. destruct (some_first l) as [f|]; [|discriminate]. destruct (some_last c) as [i|]; [|discriminate].
    assert (E : some_comp f i = x) by (destruct (some_comp f i =? 0); congruence).
    assert (N : some_comp f i <> 0) by (destruct (Z.eqb_spec (some_comp f i) 0); [discriminate|assumption]).
    unfold some_comp in *. destruct ((f =? 0) && (i =? 0)); [subst x; split; [reflexivity|unfold is_hangul, syllable; lia]|].
    destruct ((f =? 1) && (i =? 1)); [subst x; split; [reflexivity|unfold is_hangul, syllable; lia]|]. contradiction.
Qed.

(** A text for which the quick check answers YES although two of its characters are composed of three. *)
Example C77_quick_example :
  quickcheck some_ccc maybe_quick 4 0 [0x1E69; 0xD55C; 0x1E69] = true /\
  recomposed some_decomp (table some_first some_last some_comp) some_ccc false 0x1E69.
Proof.
  split; [reflexivity|]. exists 0x73, [0x323; 0x307]. split; [|split; [|split; [|split]]].
  - eapply full_map; [unfold syllable; lia|reflexivity|discriminate|discriminate|].
    change [0x73; 0x323; 0x307] with ([0x73; 0x323] ++ [0x307] ++ []). constructor; [|constructor; [|constructor]].
    + eapply full_map; [unfold syllable; lia|reflexivity|discriminate|discriminate|].
      change [0x73; 0x323] with ([0x73] ++ [0x323] ++ []).
      constructor; [|constructor; [|constructor]]; (eapply full_self; [unfold syllable; lia|reflexivity|now left]).
    + eapply full_self; [unfold syllable; lia|reflexivity|now left].
  - apply asc_ordered. cbn. unfold fine. cbn. lia.
  - intros l x H. remember 0x73 as d eqn:Ed. destruct H as [l0 v Hl Hv|l0 v t Hl Hv Ht|l0 c p T]; [lia|lia|]. rewrite Ed in T.
    unfold table in T. destruct (some_first l0); discriminate.
  - apply composition_keep; [intros [|y p] l m x (E & _); discriminate|]. cbn [app].
    apply composition_pair with (p := []) (l := 0x73) (m := []) (x := 0x1E63).
    + split; [reflexivity|]. split; [reflexivity|intros b []].
    + apply composite_table. reflexivity.
    + cbn [app]. apply composition_pair with (p := []) (l := 0x1E63) (m := []) (x := 0x1E69).
      * split; [reflexivity|]. split; [reflexivity|intros b []].
      * apply composite_table. reflexivity.
      * constructor.
  - left. reflexivity.
Qed.

(** A quick check for that database, and its characters with the value YES. *)
Definition jamo_quick (c : Z) : Z :=
  if (c =? 0x307) || (c =? 0x323) || ((0x1161 <=? c) && (c <? 0x1176)) || ((0x11A7 <? c) && (c <? 0x11C3)) then 80 else 0.

Example C77_recomposed_example : forall c, Z.land (jamo_quick c) (Z.shiftl 3 4) = 0 ->
  recomposed some_decomp (table some_first some_last some_comp) some_ccc false c.
Proof.
  intros c H.
  assert (N : c <> 0x307 /\ c <> 0x323 /\ ~ (0x1161 <= c < 0x1176) /\ ~ (0x11A7 < c < 0x11C3)).
  { unfold jamo_quick in H. destruct ((c =? 0x307) || (c =? 0x323) || ((0x1161 <=? c) && (c <? 0x1176)) || ((0x11A7 <? c) && (c <? 0x11C3))) eqn:E; [discriminate|lia]. }
  assert (S : forall b, b <> 0x307 -> b <> 0x323 -> ~ (0x1161 <= b < 0x1176) -> ~ (0x11A7 < b < 0x11C3) ->
    forall l x, ~ pair_composite (table some_first some_last some_comp) l b x).
  { clear. intros b N1 N2 N3 N4 l x P. destruct P as [l v Hl Hv|l v t Hl Hv Ht|l b p T]; [lia|lia|]. unfold table, some_last in T.
    replace (b =? 0x323) with false in T by lia. replace (b =? 0x307) with false in T by lia. destruct (some_first l); discriminate. }
  destruct C77_example as (_ & _ & _ & _ & _ & F2 & F3 & _).
  destruct (Z.eq_dec c 0x1E69) as [->|N1]; [exact (proj2 C77_quick_example)|].
  destruct (Z.eq_dec c 0x1E63) as [->|N2].
  { exists 0x73, [0x323]. split; [|split; [|split; [|split]]].
    - eapply full_map; [unfold syllable; lia|reflexivity|discriminate|discriminate|]. change [0x73; 0x323] with ([0x73] ++ [0x323] ++ []) at 2.
      constructor; [|constructor; [|constructor]]; (eapply full_self; [unfold syllable; lia|reflexivity|now left]).
    - apply asc_ordered. cbn. unfold fine. cbn. lia.
    - apply S; lia.
    - apply composition_keep; [intros [|y p] l m x (E & _); discriminate|]. cbn [app].
      apply composition_pair with (p := []) (l := 0x73) (m := []) (x := 0x1E63); [split; [reflexivity|]; split; [reflexivity|intros b []]|apply composite_table; reflexivity|constructor].
    - left. reflexivity. }
  assert (Sy : syllable c \/ ~ syllable c) by (unfold syllable; lia). destruct Sy as [Sy|Sy].
  - destruct (syllables_parts [c]) as ([|[[l v] j] [|]] & E & Hp); [intros d [<-|[]]; exact Sy|discriminate| |discriminate].
    cbn [map fst snd] in E. assert (Ec : c = hangul l v j) by congruence. specialize (Hp l v j (or_introl eq_refl)).
    exists (0x1100 + l), ([0x1161 + v] ++ if j =? 0 then [] else [0x11A7 + j]).
    change (0x1100 + l :: ([0x1161 + v] ++ if j =? 0 then [] else [0x11A7 + j])) with (letters l v j).
    assert (Hh : forall d, In d (letters l v j) -> is_hangul d).
    { intros d Hd. unfold letters, hangul_parts, is_hangul in *. destruct (Z.eqb_spec j 0); cbn [app In] in Hd; lia. }
    split; [rewrite Ec; now constructor|]. split; [|split; [|split]].
    + apply asc_ordered. assert (A : forall w, (forall d, In d w -> is_hangul d) -> asc some_ccc w); [|now apply A].
      clear - F3. induction w as [|a [|b w] IH]; intros Hw; [exact I|exact I|]. split.
      * unfold fine. rewrite (F3 b) by (apply Hw; right; now left). lia.
      * apply IH. intros d Hd. apply Hw. now right.
    + unfold hangul_parts in Hp. apply S; lia.
    + pose proof (hangul_composition some_ccc some_first some_last some_comp F2 F3 [(l, v, j)] []) as G.
      cbn [flat_map map fst snd app] in G. rewrite app_nil_r in G. rewrite Ec. apply G; [|now left]. intros l' v' t' [E'|[]].
      assert (l' = l /\ v' = v /\ t' = j) as (-> & -> & ->) by (split; [|split]; congruence). exact Hp.
    + left. apply F3. apply Hh. now left.
  - exists c, []. split; [|split; [|split; [|split]]].
    + unfold some_decomp. destruct (Z.eq_dec c 0xFB01) as [->|N3].
      * eapply full_self; [exact Sy|reflexivity|right; auto].
      * eapply full_self; [exact Sy| |left; reflexivity]. unfold some_decomp.
        replace (c =? 0x1E69) with false by lia. replace (c =? 0x1E63) with false by lia. replace (c =? 0xFB01) with false by lia. reflexivity.
    + apply asc_ordered. exact I.
    + apply S; lia.
    + apply composition_keep; [intros [|y p] l m x (E & _); discriminate|]. constructor.
    + now right.
Qed.

Example C77_idempotent_example :
  (forall l c x, table some_first some_last some_comp l c = Some x -> some_decomp x = (false, [l; c])) /\
  normalize_c some_decomp some_ccc jamo_quick some_first some_last some_comp 20 false [0x73; 0x307; 0x323; 0x1112; 0x1161; 0x11AB] = Ok [0x1E69; 0xD55C].
Proof.
  split; [|reflexivity]. intros l c x H. unfold table, some_first, some_last in H.
  destruct (Z.eqb_spec l 0x73) as [E1|E1]; [|destruct (Z.eqb_spec l 0x1E63) as [E2|E2]; [|discriminate]];
    (destruct (Z.eqb_spec c 0x323) as [E3|E3]; [|destruct (Z.eqb_spec c 0x307) as [E4|E4]; [|discriminate]]);
    cbn in H; try discriminate; injection H as <-; subst; reflexivity.
Qed.
