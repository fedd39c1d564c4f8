(** C67, C68: text operators. *)
From Verif Require Import Base ListAux TrModel TxModel TxSpec TxProofs.
From Verif Require TrSpec TrProofs Utf8Proofs.
From Coq Require Import Lia.
Local Open Scope Z_scope.

(** ** C67: a sentence is tokenized word by word into the longest pieces of the vocabulary *)
Theorem C67_wordpiece_partial : forall lines lookup ux px u p skip max,
  good_lines lines -> Forall point u -> ~ In 0 u -> Forall point p -> ~ In 0 p ->
  (ux = Str u \/ ux = Bytes (enc u)) -> (px = Str p \/ px = Bytes (enc p)) ->
  known lines (Str u) = true -> 0 <= max < 2 ^ 31 ->
  exists T, make_tokenizer lines lookup (Text ux) (Text px) skip max = Ok (Some T) /\
    forall words, Forall (good_word lines skip p) words ->
      let shown := expected lines lookup u p max in
      tokenize T (map Text words) [] = Ok (flat_map shown words) /\
      tokenize_with_meta T (map Text words) [] [] = Ok (flat_map shown words, map (fun x => Z.of_nat (length (shown x))) words).
Proof.
  intros lines lookup ux px u p skip max GL PU ZU PP ZP EU EP K M. pose proof GL as (CL & LN & SH).
  destruct (make_ok lines lookup ux px u p skip max CL LN (SH (enc u)) PU ZU PP ZP EU EP K M)
    as (T & uid & E & H & HP & HUK & HU & HI & HM & HL & HS).
  exists T. split; [exact E|]. intros words F. rewrite <- HS in F. cbv zeta. rewrite <- HL. split.
  - now rewrite (words_ok lines T u p uid max GL H PU ZU PP ZP HP HUK HU HI HM (proj1 M) words []).
  - now rewrite (words_meta lines T u p uid max GL H PU ZU PP ZP HP HUK HU HI HM (proj1 M) words [] []).
Qed.

(** vocabulary [UNK], un, ##aff, ##able, é; u = [UNK], p = ## *)
Definition example_lines : list (list Z) :=
  [ [91; 85; 78; 75; 93]; [117; 110]; [35; 35; 97; 102; 102]; []; [35; 35; 97; 98; 108; 101]; [195; 169] ].
Lemma few_lines lines w : (length lines <= 64)%nat -> (nested lines w <= length lines)%nat.
Proof.
  intros L. unfold nested.
  assert (E : filter (fun n => match id_from lines 0 (firstn n w) with Some _ => true | None => false end) (seq 1 (length w))
    = filter (fun n => match id_from lines 0 (firstn n w) with Some _ => true | None => false end) (seq 1 (length w))) by reflexivity.
  set (l := filter _ _) in *.
  assert (ND : NoDup (map (fun n => firstn n w) l)).
  { assert (B : forall n, In n l -> (n <= length w)%nat) by (intros n I; apply filter_In in I as [I _]; apply in_seq in I; lia).
    assert (N : NoDup l) by (apply NoDup_filter, seq_NoDup). clearbody l. clear E. induction N as [|n l NI N IH]; [constructor|]. cbn [map]. constructor.
    - intros I. apply in_map_iff in I as (m & EQ & I). apply (f_equal (@length Z)) in EQ. rewrite !firstn_length in EQ.
      assert (m <= length w)%nat by (apply B; now right). assert (n <= length w)%nat by (apply B; now left). replace n with m in NI by lia. easy.
    - apply IH. intros m I. apply B. now right. }
  rewrite <- (map_length (fun n => firstn n w) l). apply NoDup_incl_length; [exact ND|].
  intros k I. apply in_map_iff in I as (n & <- & I). apply filter_In in I as [_ I]. apply (id_from_in lines 0). now destruct (id_from lines 0 (firstn n w)).
Qed.
Lemma few_good lines : (length lines <= 64)%nat -> Forall (Forall (fun c => 0 < c < 256)) lines -> good_lines lines.
Proof.
  intros L F. split; [exact F|]. split; [lia|]. intros w. pose proof (few_lines lines w L) as B. unfold nested in B. eapply Nat.le_trans; [exact B|exact L].
Qed.
Local Ltac listed := repeat (apply Forall_cons; [try (unfold point; lia)|]); try apply Forall_nil.
Local Ltac absent := intros I; cbn in I; repeat (destruct I as [I|I]; [discriminate I|]); destruct I.
Example C67_wordpiece_partial_example :
  good_lines example_lines /\ known example_lines (Str [91; 85; 78; 75; 93]) = true /\
  (* unaffable as str; é as str; un\195\169 as bytes, which is stuck; the empty word *)
  let words := [ Str [117; 110; 97; 102; 102; 97; 98; 108; 101]; Str [233]; Bytes [117; 110; 195; 169]; Str [] ] in
  Forall (good_word example_lines true [35; 35]) words /\
  flat_map (expected example_lines true [91; 85; 78; 75; 93] [35; 35] 100) words = [Id 1; Id 2; Id 3; Id 4; Id 0] /\
  flat_map (expected example_lines false [91; 85; 78; 75; 93] [35; 35] 100) words
  = [Piece (Str [117; 110]); Piece (Str [35; 35; 97; 102; 102]); Piece (Str [35; 35; 97; 98; 108; 101]); Piece (Str [233]); Piece (Bytes [91; 85; 78; 75; 93])].
Proof.
  split; [apply few_good; [cbn; lia|unfold example_lines; repeat (apply Forall_cons; [listed|]); apply Forall_nil]|]. split; [reflexivity|]. cbv zeta.
  split; [|split; vm_compute; reflexivity].
  assert (TX : Forall is_text example_lines).
  { unfold example_lines. repeat (apply Forall_cons; [|]); try apply Forall_nil;
      match goal with |- is_text ?k => first [exists [233]; split; [listed|reflexivity] | exists k; split; [listed|reflexivity]] end. }
  repeat (apply Forall_cons; [split; [split; [cbn; listed; lia|absent]|split; [now left|split; [cbn; lia|exact TX || exact Logic.I]]]|]); apply Forall_nil.
Qed.
Print Assumptions C67_wordpiece_partial.

(** What is shown is the word again: the pieces, the later ones without their prefix, are not empty
    and together are the word, and each is a line of the vocabulary. *)
Theorem C67_join : forall lines u p max x,
  chars x <> [] ->
  expected lines false u p max x = [Piece (same_kind x u)] \/
  exists first later, expected lines false u p max x
      = Piece (remake x first) :: map (fun q => Piece (remake x (chars (same_kind x p) ++ q))) later /\
    first ++ concat later = chars x /\ first <> [] /\ Forall (fun q => q <> []) later /\
    known lines (remake x first) = true /\ Forall (fun q => known lines (remake x (chars (same_kind x p) ++ q)) = true) later.
Proof.
  intros lines u p max x NE. unfold expected. destruct (_ <? _); [now left|].
  set (has := fun cs => known lines (remake x cs)). set (pre := chars (same_kind x p)).
  assert (X : forall f cs l, pieces f has pre false cs = Some l -> exists later, l = map (app pre) later /\ concat later = cs /\
    Forall (fun q => q <> []) later /\ Forall (fun q => has (pre ++ q) = true) later).
  { induction f as [|f IH]; intros [|c cs] l E; cbn [pieces] in E; try easy; try (injection E as <-; exists []; repeat split; constructor).
    cbv zeta in E. pose proof (longest_spec has pre (c :: cs) (length (c :: cs))) as (L & K & _). destruct (longest_known has pre (c :: cs) _) as [|n]; [easy|].
    destruct (pieces f has pre false (skipn (S n) (c :: cs))) as [l'|] eqn:E'; [|easy]. injection E as <-. destruct (IH _ _ E') as (later & -> & J & NN & KK).
    exists (firstn (S n) (c :: cs) :: later). split; [reflexivity|]. split; [cbn [concat]; rewrite J; apply firstn_skipn|].
    split; constructor; auto; [easy|]. destruct K as [K|K]; [easy|exact K]. }
  destruct (chars x) as [|c cs] eqn:EC; [easy|]. rewrite (pieces_unfold _ has pre true (c :: cs)) by (cbn; try easy; lia). cbv zeta.
  pose proof (longest_spec has [] (c :: cs) (length (c :: cs))) as (L & K & _). destruct (longest_known has [] (c :: cs) _) as [|n]; [now left|].
  destruct (pieces _ has pre false (skipn (S n) (c :: cs))) as [l'|] eqn:E'; [|now left]. destruct (X _ _ _ E') as (later & -> & J & NN & KK).
  right. exists (firstn (S n) (c :: cs)), later. cbn [app]. split; [cbn [map]; now rewrite map_map|].
  split; [rewrite J; apply firstn_skipn|]. split; [easy|]. split; [exact NN|]. split; [|exact KK]. destruct K as [K|K]; [easy|exact K].
Qed.
Example C67_join_example : let x := Str [117; 110; 97; 102; 102] in
  expected example_lines false [91; 85; 78; 75; 93] [35; 35] 100 x
  = Piece (remake x [117; 110]) :: map (fun q => Piece (remake x (chars (same_kind x [35; 35]) ++ q))) [ [97; 102; 102] ].
Proof. vm_compute. reflexivity. Qed.
Print Assumptions C67_join.

(** With skip_empty=False an empty word is no unknown word: it gets the id -1, which no line has, or
    is a piece of its own. *)
Theorem C67_empty_word_refuted : forall lines lookup u p max,
  good_lines lines -> Forall point u -> ~ In 0 u -> Forall point p -> ~ In 0 p ->
  known lines (Str u) = true -> 0 <= max < 2 ^ 31 -> Z.of_nat (length (enc p)) < 2 ^ 31 ->
  exists T, make_tokenizer lines lookup (Text (Str u)) (Text (Str p)) false max = Ok (Some T) /\
    tokenize T [Text (Str [])] [] = Ok [if lookup then Id (-1) else Piece (Str [])] /\
    known lines (Str []) = false /\ forall x, id_of lines x <> Some (-1).
Proof.
  intros lines lookup u p max GL PU ZU PP ZP K M LP. pose proof GL as (CL & LN & SH).
  destruct (make_ok lines lookup (Str u) (Str p) u p false max CL LN (SH (enc u)) PU ZU PP ZP (or_introl eq_refl) (or_introl eq_refl) K M)
    as (T & uid & E & H & HP & HUK & HU & HI & HM & HL & HS).
  exists T. split; [exact E|]. split; [|split].
  - assert (DP : deep (id_from lines 0)) by exact SH.
    destruct (search_ok (vocab T) (id_from lines 0) [] (-1) H DP (Forall_nil _)) as (n & v & ES & L & V & _). cbn in L.
    destruct V as [[-> ->]|[? _]]; [|lia].
    assert (ML : (max <? 0) = false) by (apply Z.ltb_ge; lia).
    assert (PO : post T true [] [] (Some (-1)) = Ok [if lookup then Id (-1) else Piece (Str [])]) by (unfold post; rewrite HL; now destruct lookup).
    cbn [tokenize]. unfold tokenize_word. cbn [bytes_of]. change (Utf8Model.utf8_encode []) with (@Ok (list Z) []). cbn [bind].
    destruct (prefix T) as [|c0 p0] eqn:EP.
    + unfold tokenize_no_prefix. rewrite HS, HM. cbn [andb length Nat.eqb Z.of_nat]. rewrite ML, ES. cbn [bind Z.to_nat Nat.eqb firstn Z.of_nat]. rewrite PO. reflexivity.
    + unfold tokenize_with_prefix. rewrite HS, HM. cbn [andb length Z.of_nat].
      pose proof (small_holds T [] ltac:(rewrite EP, HP; cbn [length Z.of_nat]; lia)) as SB. cbn [length Z.of_nat] in SB.
      rewrite memcpy_ok by lia. cbn [bind]. rewrite ML, ES. cbn [bind Z.to_nat Nat.eqb firstn Z.of_nat]. rewrite PO. reflexivity.
  - unfold known, id_of. change (coded (Str [])) with (@nil Z). destruct (id_from lines 0 []) eqn:E0; [|reflexivity]. exfalso. assert (X : id_from lines 0 [] <> None) by congruence. now apply id_from_in in X as [_ X].
  - intros x E'. apply id_from_range in E'. lia.
Qed.
Example C67_empty_word_refuted_example : good_lines example_lines /\ known example_lines (Str [91; 85; 78; 75; 93]) = true.
Proof. split; [apply C67_wordpiece_partial_example|reflexivity]. Qed.
Print Assumptions C67_empty_word_refuted.

(** unk_token=None, which the code provides for when lookup_id=False, is always refused. *)
Theorem C67_unk_none_refuted : forall lines lookup px skip max,
  make_tokenizer lines lookup Nothing (Text px) skip max = Exn (if lookup then CheckFailed else TypeError).
Proof.
  intros lines lookup px skip max. unfold make_tokenizer. cbn [get_string].
  assert (E : exists b, bytes_of px = Ok b) by (destruct px as [b|cs]; [now exists b|eexists; apply Utf8Proofs.utf8_encode_ok]).
  destruct E as (b & ->). now destruct lookup.
Qed.
Print Assumptions C67_unk_none_refuted.

(** A word with more than 64 of its prefixes in the vocabulary: the search writes past the end of
    its array of results. *)
Theorem C67_many_refuted : forall lines lookup u p skip max,
  Forall (Forall (fun c => 0 < c < 256)) lines -> Z.of_nat (length lines) < 2 ^ 31 ->
  Forall point u -> ~ In 0 u -> (length (enc u) <= 64)%nat -> Forall point p -> ~ In 0 p ->
  known lines (Str u) = true -> 0 <= max < 2 ^ 31 ->
  exists T, make_tokenizer lines lookup (Text (Str u)) (Text (Str p)) skip max = Ok (Some T) /\
    forall w, Forall (fun c => 0 < c < 256) w -> Z.of_nat (length w) <= max -> Z.of_nat (length (enc p)) + Z.of_nat (length w) < 2 ^ 31 ->
      (64 < length (filter (fun n => known lines (Bytes (firstn n w))) (seq 1 (length w))))%nat ->
      tokenize T [Text (Bytes w)] [] = UB.
Proof.
  intros lines lookup u p skip max CL LN PU ZU LU PP ZP K M.
  assert (NS : (nested lines (enc u) <= 64)%nat).
  { unfold nested. eapply Nat.le_trans; [|exact LU]. rewrite <- (seq_length (length (enc u)) 1) at 2. clear. induction (seq 1 _) as [|n l IH]; [cbn; lia|]. cbn [filter]. destruct (id_from _ _ _); cbn [length]; lia. }
  destruct (make_ok lines lookup (Str u) (Str p) u p skip max CL LN NS PU ZU PP ZP (or_introl eq_refl) (or_introl eq_refl) K M)
    as (T & uid & E & H & HP & HUK & HU & HI & HM & HL & HS).
  exists T. split; [exact E|]. intros w W LW LP MANY. pose proof (search_far (vocab T) (id_from lines 0) w (-1) H MANY W) as ES.
  assert (NE : (length w =? 0)%nat = false) by (apply Nat.eqb_neq; intros E0; rewrite E0 in MANY; cbn in MANY; lia).
  assert (ML : (max <? Z.of_nat (length w)) = false) by (apply Z.ltb_ge; lia).
  cbn [tokenize]. unfold tokenize_word. cbn [bytes_of bind]. destruct (prefix T) as [|c0 p0] eqn:EP.
  - unfold tokenize_no_prefix. now rewrite NE, andb_false_r, HM, ML, ES.
  - unfold tokenize_with_prefix. pose proof (small_holds T w ltac:(rewrite EP, HP; lia)) as SB. rewrite memcpy_ok by lia. cbn [bind]. now rewrite NE, andb_false_r, HM, ML, ES.
Qed.
Example C67_many_refuted_example : let lines := [91] :: map (fun n => repeat 97 n) (seq 1 65) in
  Forall (Forall (fun c => 0 < c < 256)) lines /\ known lines (Str [91]) = true /\
  (64 < length (filter (fun n => known lines (Bytes (firstn n (repeat 97%Z 65)))) (seq 1 (length (repeat 97%Z 65)))))%nat.
Proof.
  cbv zeta. split; [|split; [reflexivity|]].
  - apply Forall_cons; [listed; lia|]. apply Forall_forall. intros k I. apply in_map_iff in I as (n & <- & _). apply Forall_forall. intros c I. apply repeat_spec in I. lia.
  - vm_compute. lia.
Qed.
Print Assumptions C67_many_refuted.

(** ** C68: an emoji filter takes out, or replaces, the longest codes from the start of the text *)
Lemma no_code_empty codes x : good_codes codes -> among codes (remake x []) = false.
Proof.
  intros [F _]. unfold among. assert (E : coded (remake x []) = []) by now destruct x. rewrite E.
  induction F as [|k codes [_ NE] F IH]; [reflexivity|]. cbn [existsb]. rewrite IH.
  destruct (list_eq_dec Z.eq_dec (coded k) []) as [E0|]; [|reflexivity]. exfalso. destruct k as [w|cs]; [now apply NE|].
  now apply (enc_nonempty cs) in NE.
Qed.
Theorem C68_filter_partial : forall codes, good_codes codes ->
  exists t, make_filter (map Text codes) = Ok (Some t) /\
    forall x, good_text x -> codes_for codes x ->
    exists l, cuts (fun cs => among codes (remake x cs)) (chars x) l /\
      (forall l', cuts (fun cs => among codes (remake x cs)) (chars x) l' -> l' = l) /\
      flat_map snd l = chars x /\
      filter_text t (Text x) = Ok (remake x (without l)) /\
      forall repl each, proper (remake x repl) ->
        replace_text t (Text x) (Text (remake x repl)) each = Ok (remake x (with_repl repl each false l)).
Proof.
  intros codes GC. destruct (filter_made codes GC) as (t & d & E & H & D & HK & _). exists t. split; [exact E|]. intros x GT CF.
  destruct (cuts_exists (fun cs => among codes (remake x cs)) (chars x) (no_code_empty codes x GC)) as (l & C).
  exists l. split; [exact C|]. split; [intros l' C'; exact (cuts_unique _ _ _ C' _ C)|]. split; [exact (cuts_all _ _ _ C)|].
  split; [now apply (filter_ok codes t d)|]. intros repl each PR. now apply (replace_ok codes t d).
Qed.
(** codes :x: and :x:: and a character outside the first plane *)
Definition example_codes : list text := [Str [58; 120; 58]; Bytes [58; 120; 58; 58]; Str [128512]].
Lemma few_codes codes : (length codes <= 64)%nat -> shallow (among codes).
Proof.
  intros L w. eapply Nat.le_trans; [|exact L]. set (l := filter _ _).
  assert (ND : NoDup (map (fun n => firstn n w) l)).
  { assert (B : forall n, In n l -> (n <= length w)%nat) by (intros n I; apply filter_In in I as [I _]; apply in_seq in I; lia).
    assert (N : NoDup l) by (apply NoDup_filter, seq_NoDup). clearbody l. induction N as [|n l NI N IH]; [constructor|]. cbn [map]. constructor.
    - intros I. apply in_map_iff in I as (m & EQ & I). apply (f_equal (@length Z)) in EQ. rewrite !firstn_length in EQ.
      assert (m <= length w)%nat by (apply B; now right). assert (n <= length w)%nat by (apply B; now left). replace n with m in NI by lia. easy.
    - apply IH. intros m I. apply B. now right. }
  rewrite <- (map_length (fun n => firstn n w) l), <- (map_length coded codes). apply NoDup_incl_length; [exact ND|].
  intros k I. apply in_map_iff in I as (n & <- & I). apply filter_In in I as [_ I]. unfold among in I. apply existsb_exists in I as (x & IX & EX).
  destruct (list_eq_dec Z.eq_dec (coded x) (coded (Bytes (firstn n w)))) as [E|]; [|easy]. apply in_map_iff. exists x. split; [exact E|exact IX].
Qed.
Local Ltac one_text := split; [cbn; listed; try lia|absent].
Lemma example_good : good_codes example_codes.
Proof.
  split; [|apply few_codes; cbn; lia]. unfold example_codes. repeat (apply Forall_cons; [split; [one_text|easy]|]). apply Forall_nil.
Qed.
Lemma example_str : Forall (fun k => is_text (coded k)) example_codes.
Proof.
  unfold example_codes. apply Forall_cons; [exists [58; 120; 58]; split; [listed|reflexivity]|]. apply Forall_cons; [exists [58; 120; 58; 58]; split; [listed|reflexivity]|].
  apply Forall_cons; [exists [128512]; split; [listed|reflexivity]|apply Forall_nil].
Qed.
Local Ltac small_m := intros m Lm; cbn [length] in Lm;
  do 11 (destruct m as [|m]; [first [exfalso; lia | vm_compute; reflexivity]|]); exfalso; lia.
(** a 😀 :x:: :x: b *)
Example C68_filter_partial_example : let x := Str [97; 128512; 58; 120; 58; 58; 58; 120; 58; 98] in
  let l := [(false, [97]); (true, [128512]); (true, [58; 120; 58; 58]); (true, [58; 120; 58]); (false, [98])] in
  good_codes example_codes /\ good_text x /\ codes_for example_codes x /\
  cuts (fun cs => among example_codes (remake x cs)) (chars x) l /\
  without l = [97; 98] /\ with_repl [63] false false l = [97; 63; 98] /\ with_repl [63] true false l = [97; 63; 63; 63; 98].
Proof.
  cbv zeta. split; [exact example_good|]. split; [one_text|]. split; [exact example_str|]. split; [|repeat split; reflexivity].
  cbn [chars]. apply cuts_item; [small_m|].
  apply (cuts_code _ 1); [cbn; lia|reflexivity|small_m|]. cbn [skipn].
  apply (cuts_code _ 4); [cbn; lia|reflexivity|small_m|]. cbn [skipn].
  apply (cuts_code _ 3); [cbn; lia|reflexivity|small_m|]. cbn [skipn].
  apply cuts_item; [small_m|]. apply cuts_end.
Qed.
Print Assumptions C68_filter_partial.

(** check_pos: the length of the longest code at a place, 0 if there is none *)
Theorem C68_check_pos_partial : forall codes, good_codes codes ->
  exists t, make_filter (map Text codes) = Ok (Some t) /\
    forall x pos, good_text x -> codes_for codes x -> start x pos ->
      let s := TrSpec.from pos (chars x) in
      exists n, check_text t (Text x) pos = Ok (Z.of_nat n) /\ (n <= length s)%nat /\
        (n = O \/ among codes (remake x (firstn n s)) = true) /\
        forall m, (n < m <= length s)%nat -> among codes (remake x (firstn m s)) = false.
Proof.
  intros codes GC. destruct (filter_made codes GC) as (t & d & E & H & D & HK & _). exists t. split; [exact E|]. intros x pos GT CF ST s.
  exists (longest_known (fun cs => among codes (remake x cs)) [] s (length s)). split; [now apply (check_ok codes t d)|]. exact (longest_spec (fun cs => among codes (remake x cs)) [] s (length s)).
Qed.
Example C68_check_pos_partial_example : good_codes example_codes /\ good_text (Bytes [97; 58; 120; 58; 58]) /\
  start (Bytes [97; 58; 120; 58; 58]) (-4) /\ among example_codes (Bytes (firstn 4 (TrSpec.from (-4) [97; 58; 120; 58; 58]))) = true /\
  good_text (Str [128512; 97]) /\ start (Str [128512; 97]) 0 /\ codes_for example_codes (Str [128512; 97]).
Proof.
  split; [exact example_good|]. split; [one_text|]. split; [exact Logic.I|]. split; [reflexivity|]. split; [one_text|]. split; [now left|exact example_str].
Qed.
Print Assumptions C68_check_pos_partial.

(** In a str, check_pos at any place from the third character on reads past the end of the str. *)
Theorem C68_check_pos_refuted : forall t cs pos, 2 <= pos <= Z.of_nat (length cs) ->
  check_text t (Text (Str cs)) pos = UB.
Proof.
  intros t cs pos L. cbn [check_text]. unfold slice_index_correction. destruct (Z.ltb_spec pos 0); [lia|]. destruct (Z.ltb_spec (Z.of_nat (length cs)) pos); [lia|].
  destruct (Nat.ltb_spec (length cs + 1) (Z.to_nat pos + length cs)); [reflexivity|lia].
Qed.
Example C68_check_pos_refuted_example : 2 <= 2 <= Z.of_nat (length [97; 98; 128512]). Proof. cbn. lia. Qed.
Print Assumptions C68_check_pos_refuted.

(** A filtered text may still hold a code: ::x:x: becomes :x: *)
Theorem C68_filter_again_refuted : exists codes t x y, good_codes codes /\ make_filter (map Text codes) = Ok (Some t) /\
  good_text x /\ filter_text t (Text x) = Ok y /\ among codes y = true /\ filter_text t (Text y) <> Ok y.
Proof.
  set (codes := [Str [58; 120; 58]]).
  assert (GC : good_codes codes) by (split; [apply Forall_cons; [split; [one_text|easy]|apply Forall_nil]|apply few_codes; cbn; lia]).
  assert (CF : forall cs, codes_for codes (Str cs)) by (intros cs; apply Forall_cons; [exists [58; 120; 58]; split; [listed|reflexivity]|apply Forall_nil]).
  destruct (C68_filter_partial codes GC) as (t & E & F).
  exists codes, t, (Str [58; 58; 120; 58; 120; 58]), (Str [58; 120; 58]). split; [exact GC|]. split; [exact E|].
  assert (G1 : good_text (Str [58; 58; 120; 58; 120; 58])) by one_text. assert (G2 : good_text (Str [58; 120; 58])) by one_text.
  split; [exact G1|].
  destruct (F _ G1 (CF _)) as (l1 & _ & U1 & _ & E1 & _). destruct (F _ G2 (CF _)) as (l2 & _ & U2 & _ & E2 & _).
  assert (C1 : cuts (fun cs => among codes (Str cs)) [58; 58; 120; 58; 120; 58] [(false, [58]); (true, [58; 120; 58]); (false, [120]); (false, [58])]).
  { apply cuts_item; [small_m|]. apply (cuts_code _ 3); [cbn; lia|reflexivity|small_m|]. cbn [skipn]. apply cuts_item; [small_m|]. apply cuts_item; [small_m|]. apply cuts_end. }
  assert (C2 : cuts (fun cs => among codes (Str cs)) [58; 120; 58] [(true, [58; 120; 58])]).
  { apply (cuts_code _ 3); [cbn; lia|reflexivity|small_m|]. apply cuts_end. }
  rewrite <- (U1 _ C1) in E1. rewrite <- (U2 _ C2) in E2. split; [exact E1|]. split; [reflexivity|]. rewrite E2. discriminate.
Qed.
Print Assumptions C68_filter_again_refuted.
