(** C18-C24: methods of bytes and str. *)
From Verif Require Import Base SeqModel SeqSpec SeqProofs TextModel TextSpec TextProofs.

(** ** C18: find / rfind *)

(** s.find(t, a, b) for a start counted from the front.  Missing from the full property:
    negative a (next theorem). *)
Theorem C18_find_partial : forall (s t : list Z) a b,
  int64 a -> int64 b -> zlen s < two63 -> zlen t < two63 -> 0 <= a ->
  exists r, py_find s t a b = Ok r /\ py_find_in s t a b r.
Proof. intros. apply py_find_ok; auto. unfold two63, two64 in *. lia. Qed.
Print Assumptions C18_find_partial.

Theorem C18_find_negative_start_refuted :
  (forall (s t : list Z) a b, int64 a -> a < 0 -> zlen s < two63 -> py_find s t a b = Ok (-1)) /\
  py_find [97; 98; 99] [99] (-1) 3 = Ok (-1) /\ ~ py_find_in [97; 98; 99] [99] (-1) 3 (-1) /\
  py_find_in [97; 98; 99] [99] (-1) 3 2.
Proof.
  assert (G : forall (s t : list Z) a b, int64 a -> a < 0 -> zlen s < two63 -> py_find s t a b = Ok (-1)).
  { intros s t a b Ha Hneg Hs. unfold py_find.
    assert (Hw : wrapu64 a = a + two64).
    { unfold wrapu64, int64, two63, two64 in *. symmetry. apply (Z.mod_unique _ _ (-1)); lia. }
    rewrite Hw. unfold sv_find. pose proof (zlen_nonneg s).
    unfold int64, two63, two64 in *.
    destruct (Z.eqb_spec (zlen s) 0); cbn [orb andb].
    - destruct (Z.eqb_spec (a + 2 ^ 64) 0); [lia|]. reflexivity.
    - rewrite Z.gtb_ltb. destruct (Z.ltb_spec (zlen s) (a + 2 ^ 64)); [|lia]. reflexivity. }
  split; [exact G|]. split; [reflexivity|]. split.
  - intros [((H1 & H2 & H3) & _)|(_ & H)].
    + cbn in H1. lia.
    + apply (H 2). cbn. repeat split; try lia. exists [97; 98], []. split; reflexivity.
  - left. split.
    + cbn. repeat split; try lia. exists [97; 98], []. split; reflexivity.
    + cbn. intros k (H1 & H2 & _). lia.
Qed.
Print Assumptions C18_find_negative_start_refuted.

(** t in s *)
Theorem C18_contains : forall s t : list Z, zlen s < two63 ->
  exists b, contains s t = Ok b /\ (b = true <-> exists p q, s = p ++ t ++ q).
Proof. exact contains_ok. Qed.
Print Assumptions C18_contains.

(** find from a position: the lowest index; npos iff there is none *)
Theorem C18_find_from : forall (s t : list Z) pos, 0 <= pos -> zlen s < two63 ->
  (exists i, sv_find s t pos = Ok i /\ i <> npos /\ pos <= i /\ occurs_at s t i /\
             forall j, pos <= j -> occurs_at s t j -> i <= j) \/
  (sv_find s t pos = Ok npos /\ forall j, pos <= j -> ~ occurs_at s t j).
Proof. exact sv_find_ok. Qed.
Print Assumptions C18_find_from.

Theorem C18_find_char : forall (s : list Z) c pos, 0 <= pos -> zlen s < two63 ->
  (exists i, sv_find_char s c pos = Ok i /\ i <> npos /\ pos <= i /\ occurs_at s [c] i /\
             forall j, pos <= j -> occurs_at s [c] j -> i <= j) \/
  (sv_find_char s c pos = Ok npos /\ forall j, pos <= j -> ~ occurs_at s [c] j).
Proof. exact sv_find_char_ok. Qed.
Print Assumptions C18_find_char.

(** rfind up to a position: the highest index; npos iff there is none *)
Theorem C18_rfind : forall (s t : list Z) pos, 0 <= pos -> zlen s < two63 ->
  (exists i, sv_rfind s t pos = Ok i /\ i <> npos /\ i <= pos /\ occurs_at s t i /\
             forall j, j <= pos -> occurs_at s t j -> j <= i) \/
  (sv_rfind s t pos = Ok npos /\ forall j, j <= pos -> ~ occurs_at s t j).
Proof. exact sv_rfind_ok. Qed.
Print Assumptions C18_rfind.

Theorem C18_rfind_char : forall (s : list Z) c pos, 0 <= pos -> zlen s < two63 ->
  (exists i, sv_rfind_char s c pos = Ok i /\ i <> npos /\ i <= pos /\ occurs_at s [c] i /\
             forall j, j <= pos -> occurs_at s [c] j -> j <= i) \/
  (sv_rfind_char s c pos = Ok npos /\ forall j, j <= pos -> ~ occurs_at s [c] j).
Proof. exact sv_rfind_char_ok. Qed.
Print Assumptions C18_rfind_char.

(** StringUtil::Find: whenever it returns, it returns the lowest index (texts without NUL). *)
Theorem C18_string_util_find_partial : forall fuel (s t : list Z) r,
  ~ In 0 t -> hd_error s <> Some 0 -> s <> [] -> su_find fuel s t = Ok r ->
  (0 <= r /\ occurs_at s t r /\ forall k, occurs_at s t k -> r <= k) \/
  (r = -1 /\ forall k, ~ occurs_at s t k).
Proof. exact su_find_ok. Qed.
Print Assumptions C18_string_util_find_partial.

(** ... but it may read past the terminating NUL: "aaaxd" / "xyz". *)
Theorem C18_string_util_find_out_of_bounds_refuted :
  su_find 100 [97; 97; 97; 120; 100] [120; 121; 122] = OOB.
Proof. vm_compute. reflexivity. Qed.
Print Assumptions C18_string_util_find_out_of_bounds_refuted.

Example C18_example :
  py_find [97; 98; 97; 98; 99] [97; 98; 99] 0 int64_max = Ok 2 /\
  py_find [97; 98; 97; 98; 99] [97; 98; 99] 0 4 = Ok (-1) /\
  sv_rfind [97; 98; 97; 98; 99] [97; 98] npos = Ok 2 /\
  sv_rfind [97; 98; 97; 98; 99] [97; 98] 1 = Ok 0 /\
  sv_rfind_char [97; 98; 97] 97 1 = Ok 0 /\
  su_find 100 [97; 98; 97; 98; 99] [98; 99] = Ok 3.
Proof. vm_compute. repeat split. Qed.

(** ** C19: count *)

(** Correct when no occurrence straddles the end of the window (in particular for the
    default end) and the pattern is not empty.  Missing: the two cases refuted below. *)
Theorem C19_count_partial : forall (s x : list Z) a b fuel,
  x <> [] -> zlen s < two63 -> (length s <= fuel)%nat ->
  (forall k, k <= py_bound b (zlen s) < k + zlen x -> ~ occurs_at s x k) ->
  exists n, text_count fuel s x a b = Ok n /\ py_count x (py_window s a b) n.
Proof. exact text_count_ok. Qed.
Print Assumptions C19_count_partial.

(** The default end is covered. *)
Theorem C19_count_to_end : forall (s x : list Z) a b fuel,
  x <> [] -> zlen s < two63 -> (length s <= fuel)%nat -> zlen s <= b ->
  exists n, text_count fuel s x a b = Ok n /\ py_count x (py_window s a b) n.
Proof.
  intros s x a b fuel Hx Hs Hf Hb. apply text_count_ok; auto.
  intros k Hk Ho. apply occurs_nonneg in Ho. pose proof (zlen_nonneg s).
  unfold py_bound in Hk. destruct (Z.ltb_spec b 0); lia.
Qed.
Print Assumptions C19_count_to_end.

Theorem C19_count_unique : forall (t s : list Z) n m, py_count t s n -> py_count t s m -> n = m.
Proof. intros. eapply py_count_unique; eauto. Qed.
Print Assumptions C19_count_unique.

(** b"ab".count(b"b", 0, 1) is 1 here, 0 in Python. *)
Theorem C19_window_end_refuted :
  text_count 10 [97; 98] [98] 0 1 = Ok 1 /\ py_count [98] (py_window [97; 98] 0 1) 0 /\
  text_count 10 [97; 98] [97; 98] 0 1 = Ok 1 /\ py_count [97; 98] (py_window [97; 98] 0 1) 0.
Proof.
  assert (H : forall t : list Z, t = [98] \/ t = [97; 98] -> py_count t (py_window [97; 98] 0 1) 0).
  { intros t Ht. constructor. intros p q E. cbn in E.
    destruct Ht as [-> | ->]; destruct p as [|? [|]]; cbn in E; discriminate. }
  repeat split; auto; vm_compute; reflexivity.
Qed.
Print Assumptions C19_window_end_refuted.

(** Counting the empty string never terminates when the window is not empty. *)
Theorem C19_empty_pattern_diverges_refuted : forall (s : list Z) a b fuel, zlen s < two63 ->
  py_bound a (zlen s) < py_bound b (zlen s) -> text_count fuel s [] a b = OutOfFuel.
Proof.
  intros s a b fuel Hs H. unfold text_count. rewrite !slice_correction_is_py by apply zlen_nonneg.
  pose proof (py_bound_range a (zlen s) (zlen_nonneg s)). pose proof (py_bound_range b (zlen s) (zlen_nonneg s)).
  apply count_empty_stuck; auto; lia.
Qed.
Print Assumptions C19_empty_pattern_diverges_refuted.

Example C19_example :
  text_count 10 [97; 97; 97; 97; 97] [97; 97] 0 int64_max = Ok 2 /\
  text_count 10 [97; 97; 97; 97; 97] [97] (-3) (-1) = Ok 2 /\
  text_count 10 [97; 98; 97; 98; 97] [97] (-3) 4 = Ok 2.
Proof. vm_compute. repeat split. Qed.

(** ** C20: split and join *)

(** The fields are Python's, except that an empty last field is dropped. *)
Definition without_empty_last (l : list (list Z)) : list (list Z) :=
  match last l [1] with
  | [] => removelast l
  | _ => l
  end.

Lemma without_empty_last_eq l : l <> [] -> drop_last_empty l = without_empty_last l.
Proof.
  intros H. unfold drop_last_empty, without_empty_last.
  destruct (exists_last H) as (l' & x & ->). rewrite rev_app_distr, last_last, removelast_last. cbn.
  destruct x; [|reflexivity]. apply rev_involutive.
Qed.

Theorem C20_split_partial : forall (s sep : list Z) n, sep <> [] -> zlen s < int64_max ->
  exists l, py_split sep n s l /\ split_sep s sep n = Ok (without_empty_last l).
Proof.
  intros s sep n Hsep Hs. destruct (split_sep_ok s sep n Hsep Hs) as (l & Hl & Hp).
  exists l. split; [exact Hp|]. rewrite Hl, without_empty_last_eq; [reflexivity|]. eapply py_split_nonempty; eauto.
Qed.
Print Assumptions C20_split_partial.

(** If the text does not end with the separator (and is not empty) the fields are exactly
    Python's, and joining them gives the text back. *)
Theorem C20_split_exact : forall (s sep : list Z) n, sep <> [] -> s <> [] -> zlen s < int64_max ->
  (forall p, s <> p ++ sep) ->
  exists l, split_sep s sep n = Ok l /\ py_split sep n s l /\ join_list sep l = Ok s.
Proof.
  intros s sep n Hsep Hne Hs Hend. destruct (split_sep_ok s sep n Hsep Hs) as (l & Hl & Hp).
  exists l. assert (E : drop_last_empty l = l).
  { destruct (list_eq_dec (list_eq_dec Z.eq_dec) (drop_last_empty l) l) as [E|E]; auto.
    exfalso. destruct (py_split_ends sep n s l Hp Hne E) as (p & Ep). apply (Hend p Ep). }
  rewrite E in Hl. repeat split; auto. rewrite join_list_ok. f_equal. eapply join_split; eauto.
Qed.
Print Assumptions C20_split_exact.

Theorem C20_split_unique : forall (sep s : list Z) n l l',
  py_split sep n s l -> py_split sep n s l' -> l = l'.
Proof. intros. eapply py_split_unique; eauto. Qed.
Print Assumptions C20_split_unique.

(** b"a,".split(b",") is [b"a"] (Python: [b"a", b""]) and b"".split(b",") is [] (Python:
    [b""]); joining does not give b"a," back. *)
Theorem C20_trailing_field_refuted :
  split_sep [97; 44] [44] (-1) = Ok [[97]] /\ py_split [44] (-1) [97; 44] [[97]; []] /\
  join_list [44] [[97]] <> Ok [97; 44] /\
  split_sep [] [44] (-1) = Ok [] /\ py_split [44] (-1) [] [[]].
Proof.
  split; [vm_compute; reflexivity|]. split.
  { apply ps_step with (q := []); [lia| |].
    - split; [reflexivity|]. intros [|x [|]] q E; cbn in *; try discriminate; lia.
    - apply ps_done. right. apply absent_empty. discriminate. }
  split; [vm_compute; discriminate|]. split; [reflexivity|].
  apply ps_done. right. apply absent_empty. discriminate.
Qed.
Print Assumptions C20_trailing_field_refuted.

Theorem C20_empty_separator_raises : forall (s : list Z) n, split_sep s [] n = Exn CheckFailed.
Proof. reflexivity. Qed.
Print Assumptions C20_empty_separator_raises.

(** split() on whitespace: bytes and str *)
Theorem C20_split_whitespace : forall (s : list Z) n, zlen s < int64_max ->
  (exists l, split_ws uchar_isspace s n = Ok l /\ py_split_ws uchar_isspace n s l) /\
  (exists l, split_ws unicode_isspace s n = Ok l /\ py_split_ws unicode_isspace n s l).
Proof. intros. split; apply split_ws_ok; assumption. Qed.
Print Assumptions C20_split_whitespace.

(** The words of an unlimited whitespace split are the maximal runs of non-space characters. *)
Theorem C20_split_whitespace_words : forall (s : list Z) n l, n < 0 ->
  py_split_ws uchar_isspace n s l ->
  (forall w, In w l -> w <> [] /\ forall c, In c w -> uchar_isspace c = false) /\
  concat l = filter (fun c => negb (uchar_isspace c)) s.
Proof.
  intros s n l Hn H. 
  assert (Fsp : forall sp, (forall c, In c sp -> uchar_isspace c = true) ->
                filter (fun c => negb (uchar_isspace c)) sp = []).
  { induction sp as [|c sp IH]; intros Hc; [reflexivity|]. cbn. rewrite (Hc c (or_introl eq_refl)). cbn.
    apply IH. intros d Hd. apply Hc. right. exact Hd. }
  assert (Fw : forall w, (forall c, In c w -> uchar_isspace c = false) ->
                filter (fun c => negb (uchar_isspace c)) w = w).
  { induction w as [|c w IH]; intros Hc; [reflexivity|]. cbn. rewrite (Hc c (or_introl eq_refl)). cbn.
    f_equal. apply IH. intros d Hd. apply Hc. right. exact Hd. }
  induction H as [n s H|n s sp w rest l Hn' E Hsp Hw Hw2 Hr Hp IH|s sp c w E Hsp Hc]; [| |lia].
  - split; [intros w []|]. cbn. rewrite Fsp; auto.
  - destruct IH as [IH1 IH2]; [lia|]. split.
    + intros w' [<-|Hin]; auto.
    + cbn. rewrite IH2, E, !filter_app, (Fsp sp Hsp), (Fw w Hw2). reflexivity.
Qed.
Print Assumptions C20_split_whitespace_words.

(** join: list and iterator versions; the list version fills its buffer exactly. *)
Theorem C20_join : forall sep l, join_list sep l = Ok (py_join sep l) /\ join_iter sep l = py_join sep l.
Proof. intros. split; [apply join_list_ok|apply join_iter_ok]. Qed.
Print Assumptions C20_join.

Example C20_example :
  split_sep [97; 44; 44; 98] [44] (-1) = Ok [[97]; []; [98]] /\
  split_sep [97; 44; 44; 98] [44] 1 = Ok [[97]; [44; 98]] /\
  split_ws uchar_isspace [32; 97; 98; 9; 10; 99; 32] (-1) = Ok [[97; 98]; [99]] /\
  split_ws uchar_isspace [32; 97; 98; 9; 10; 99; 32] 1 = Ok [[97; 98]; [99; 32]] /\
  join_list [44; 32] [[97]; []; [98; 99]] = Ok [97; 44; 32; 44; 32; 98; 99] /\
  (forall p, [97; 44; 44; 98] <> p ++ [44]).
Proof.
  repeat (split; [vm_compute; reflexivity|]).
  intros p E. change [97; 44; 44; 98] with ([97; 44; 44] ++ [98]) in E.
  apply app_inj_tail in E. destruct E as [_ E]. discriminate.
Qed.

(** ** C21: replace *)
Theorem C21_replace_partial : forall (s old new : list Z) count fuel,
  old <> [] -> zlen s < int64_max -> (length s < fuel)%nat ->
  exists r, text_replace fuel s old new count = Ok r /\ py_replace old new count s r.
Proof. exact text_replace_ok. Qed.
Print Assumptions C21_replace_partial.

Theorem C21_replace_unique : forall (old new s : list Z) n r r',
  py_replace old new n s r -> py_replace old new n s r' -> r = r'.
Proof. intros. eapply py_replace_unique; eauto. Qed.
Print Assumptions C21_replace_unique.

(** replace(b"", x): with no count the loop runs 2^63 - 1 times without progress; with a
    count all insertions happen at the front ("abc".replace("", "x", 2) is "xxabc", Python
    gives "xaxbc"). *)
Theorem C21_empty_pattern_refuted :
  (forall (s new : list Z) fuel, zlen s < two63 -> Z.of_nat fuel <= int64_max ->
     text_replace fuel s [] new (-1) = OutOfFuel) /\
  text_replace 10 [97; 98; 99] [] [120] 2 = Ok [120; 120; 97; 98; 99].
Proof.
  split; [|vm_compute; reflexivity].
  intros s new fuel Hs Hf. unfold text_replace. apply replace_empty_stuck; auto.
Qed.
Print Assumptions C21_empty_pattern_refuted.

(** StringUtil::Replace replaces every occurrence (non-empty pattern). *)
Theorem C21_string_util_replace_partial : forall (s t r : list Z) fuel,
  t <> [] -> (length s < fuel)%nat -> zlen s * (1 + zlen r) < two63 ->
  exists x, su_replace_loop fuel s t r 0 = Ok x /\ py_replace t r (-1) s x.
Proof.
  intros s t r fuel Ht Hf Hb. destruct (su_replace_ok t r Ht fuel [] s Hf Hb) as (x & Hx & Hp).
  exists x. split; [exact Hx|]. apply Hp. lia.
Qed.
Print Assumptions C21_string_util_replace_partial.

Theorem C21_string_util_empty_pattern_refuted : forall fuel,
  su_replace_loop fuel [97] [] [] 0 = OutOfFuel.
Proof. induction fuel as [|fuel IH]; [reflexivity|]. exact IH. Qed.
Print Assumptions C21_string_util_empty_pattern_refuted.

Example C21_example :
  text_replace 10 [97; 97; 97; 98] [97; 97] [120] (-1) = Ok [120; 97; 98] /\
  text_replace 10 [97; 98; 97; 98] [97] [] 1 = Ok [98; 97; 98] /\
  su_replace_loop 10 [97; 98; 97] [97] [97; 97] 0 = Ok [97; 97; 98; 97; 97].
Proof. vm_compute. repeat split. Qed.

(** ** C22: strip *)
Theorem C22_strip_chars : forall (s chars : list Z), zlen chars < two63 ->
  (exists r, lstrip (in_chars chars) s = Ok r /\ py_lstrip (fun c => In c chars) s r) /\
  (exists r, rstrip (in_chars chars) s = Ok r /\ py_rstrip (fun c => In c chars) s r) /\
  (exists r, strip (in_chars chars) s = Ok r /\ py_strip (fun c => In c chars) s r).
Proof.
  intros s chars Hc. pose proof (fun c => in_chars_ok chars c Hc) as HI.
  destruct (lstrip_ok (in_chars chars) s) as (r1 & H1 & p1 & E1 & A1 & B1).
  destruct (rstrip_ok (in_chars chars) s) as (r2 & H2 & q2 & E2 & A2 & B2).
  destruct (strip_ok (in_chars chars) s) as (r3 & H3 & p3 & q3 & E3 & A3 & A3' & B3 & B3').
  split; [|split].
  - exists r1. split; [exact H1|]. exists p1. split; [exact E1|]. split.
    + intros c Hin. apply HI. auto.
    + intros c r' E Hin. apply (B1 c r' E). apply HI. exact Hin.
  - exists r2. split; [exact H2|]. exists q2. split; [exact E2|]. split.
    + intros c Hin. apply HI. auto.
    + intros c r' E Hin. apply (B2 c r' E). apply HI. exact Hin.
  - exists r3. split; [exact H3|]. exists p3, q3. split; [exact E3|]. split; [|split; [|split]].
    + intros c Hin. apply HI. auto.
    + intros c Hin. apply HI. auto.
    + intros c r' E Hin. apply (B3 c r' E). apply HI. exact Hin.
    + intros c r' E Hin. apply (B3' c r' E). apply HI. exact Hin.
Qed.
Print Assumptions C22_strip_chars.

Lemma uchar_isspace_ok b : is_byte b -> uchar_isspace b = true <-> ascii_space b.
Proof.
  unfold is_byte, uchar_isspace, ascii_space. intros H. cbv zeta. rewrite Z.mod_small by lia. lia.
Qed.

Lemma Forall_app_iff {A} (P : A -> Prop) l m : Forall P (l ++ m) <-> Forall P l /\ Forall P m.
Proof. split; [apply Forall_app|intros [? ?]; apply Forall_app; auto]. Qed.

(** Default: ASCII whitespace for bytes. *)
Theorem C22_strip_default_bytes : forall s : list Z, Forall is_byte s ->
  (exists r, lstrip uchar_isspace s = Ok r /\ py_lstrip ascii_space s r) /\
  (exists r, rstrip uchar_isspace s = Ok r /\ py_rstrip ascii_space s r) /\
  (exists r, strip uchar_isspace s = Ok r /\ py_strip ascii_space s r).
Proof.
  intros s Hs.
  assert (HI : forall l m n, s = l ++ m ++ n -> forall c, In c m -> uchar_isspace c = true <-> ascii_space c).
  { intros l m n E c Hc. apply uchar_isspace_ok. rewrite Forall_forall in Hs. apply Hs. rewrite E.
    apply in_or_app; right; apply in_or_app; left; exact Hc. }
  destruct (lstrip_ok uchar_isspace s) as (r1 & H1 & p1 & E1 & A1 & B1).
  destruct (rstrip_ok uchar_isspace s) as (r2 & H2 & q2 & E2 & A2 & B2).
  destruct (strip_ok uchar_isspace s) as (r3 & H3 & p3 & q3 & E3 & A3 & A3' & B3 & B3').
  assert (E1' : s = p1 ++ r1 ++ []) by (rewrite app_nil_r; exact E1).
  assert (E2' : s = r2 ++ q2 ++ []) by (rewrite app_nil_r; exact E2).
  assert (E3' : s = (p3 ++ r3) ++ q3 ++ []) by (rewrite app_nil_r, <- app_assoc; exact E3).
  split; [|split].
  - exists r1. split; [exact H1|]. exists p1. split; [exact E1|]. split.
    + intros c Hin. apply (HI [] p1 r1 E1 c Hin). auto.
    + intros c r' E Hin. apply (B1 c r' E). apply (HI p1 r1 [] E1' c); [rewrite E; left; reflexivity|exact Hin].
  - exists r2. split; [exact H2|]. exists q2. split; [exact E2|]. split.
    + intros c Hin. apply (HI r2 q2 [] E2' c Hin). auto.
    + intros c r' E Hin. apply (B2 c r' E). apply (HI [] r2 q2 E2 c); [rewrite E; apply in_or_app; right; left; reflexivity|exact Hin].
  - exists r3. split; [exact H3|]. exists p3, q3. split; [exact E3|]. split; [|split; [|split]].
    + intros c Hin. apply (HI [] p3 (r3 ++ q3) E3 c Hin). auto.
    + intros c Hin. apply (HI (p3 ++ r3) q3 [] E3' c Hin). auto.
    + intros c r' E Hin. apply (B3 c r' E). apply (HI p3 r3 q3 E3 c); [rewrite E; left; reflexivity|exact Hin].
    + intros c r' E Hin. apply (B3' c r' E). apply (HI p3 r3 q3 E3 c); [rewrite E; apply in_or_app; right; left; reflexivity|exact Hin].
Qed.
Print Assumptions C22_strip_default_bytes.

(** str: the characters of Python's str.isspace() (Unicode White_Space plus the
    separators 0x1C-0x1F). *)
Definition python_str_space (c : Z) : Prop :=
  9 <= c <= 13 \/ 28 <= c <= 32 \/ c = 0x85 \/ c = 0xA0 \/ c = 0x1680 \/ 0x2000 <= c <= 0x200A \/
  c = 0x2028 \/ c = 0x2029 \/ c = 0x202F \/ c = 0x205F \/ c = 0x3000.

Theorem C22_str_whitespace_set : forall c, unicode_isspace c = true <-> python_str_space c.
Proof.
  intros c. unfold unicode_isspace, python_str_space. cbn [existsb unicode_spaces]. lia.
Qed.
Print Assumptions C22_str_whitespace_set.

Theorem C22_strip_default_str : forall s : list Z,
  (exists r, lstrip unicode_isspace s = Ok r /\ py_lstrip python_str_space s r) /\
  (exists r, rstrip unicode_isspace s = Ok r /\ py_rstrip python_str_space s r) /\
  (exists r, strip unicode_isspace s = Ok r /\ py_strip python_str_space s r).
Proof.
  intros s.
  destruct (lstrip_ok unicode_isspace s) as (r1 & H1 & p1 & E1 & A1 & B1).
  destruct (rstrip_ok unicode_isspace s) as (r2 & H2 & q2 & E2 & A2 & B2).
  destruct (strip_ok unicode_isspace s) as (r3 & H3 & p3 & q3 & E3 & A3 & A3' & B3 & B3').
  pose proof C22_str_whitespace_set as HI.
  split; [|split].
  - exists r1. split; [exact H1|]. exists p1. split; [exact E1|]. split.
    + intros c Hin. apply HI. auto.
    + intros c r' E Hin. apply (B1 c r' E). apply HI. exact Hin.
  - exists r2. split; [exact H2|]. exists q2. split; [exact E2|]. split.
    + intros c Hin. apply HI. auto.
    + intros c r' E Hin. apply (B2 c r' E). apply HI. exact Hin.
  - exists r3. split; [exact H3|]. exists p3, q3. split; [exact E3|]. split; [|split; [|split]].
    + intros c Hin. apply HI. auto.
    + intros c Hin. apply HI. auto.
    + intros c r' E Hin. apply (B3 c r' E). apply HI. exact Hin.
    + intros c r' E Hin. apply (B3' c r' E). apply HI. exact Hin.
Qed.
Print Assumptions C22_strip_default_str.

Example C22_example :
  strip uchar_isspace [32; 9; 97; 32; 98; 10] = Ok [97; 32; 98] /\
  strip uchar_isspace [32; 32] = Ok [] /\ strip uchar_isspace [97] = Ok [97] /\
  lstrip (in_chars [97; 98]) [98; 97; 99; 97] = Ok [99; 97] /\
  rstrip (in_chars [97; 98]) [98; 97; 99; 97] = Ok [98; 97; 99].
Proof. vm_compute. repeat split. Qed.

(** ** C23: startswith / endswith *)

(** Missing from the full property: the empty prefix at the very end of the string. *)
Theorem C23_startswith_partial : forall (s p : list Z) a b,
  p <> [] \/ py_bound a (zlen s) < zlen s ->
  exists r, starts_with s p a b = Ok r /\ (r = true <-> py_startswith s p a b).
Proof. exact starts_with_ok. Qed.
Print Assumptions C23_startswith_partial.

Theorem C23_endswith_partial : forall (s p : list Z) a b,
  p <> [] \/ py_bound a (zlen s) < zlen s ->
  exists r, ends_with s p a b = Ok r /\ (r = true <-> py_endswith s p a b).
Proof. exact ends_with_ok. Qed.
Print Assumptions C23_endswith_partial.

(** b"".startswith(b"") is False here, True in Python. *)
Theorem C23_empty_prefix_refuted :
  starts_with [] [] 0 int64_max = Ok false /\ py_startswith (@nil Z) [] 0 int64_max /\
  ends_with [97] [] 1 int64_max = Ok false /\ py_endswith [97] [] 1 int64_max.
Proof.
  repeat split; try (vm_compute; reflexivity); try (unfold py_window_ok; vm_compute; discriminate).
  - exists []. reflexivity.
  - exists []. reflexivity.
Qed.
Print Assumptions C23_empty_prefix_refuted.

(** A tuple of prefixes: true iff one of them matches (all elements of the right type). *)
Theorem C23_tuple_partial : forall (s : list Z) (ps : list (list Z)) a b,
  (forall p, In p ps -> p <> []) \/ py_bound a (zlen s) < zlen s ->
  (exists r, starts_with_any s (map Some ps) a b = Ok r /\
     (r = true <-> exists p, In p ps /\ py_startswith s p a b)) /\
  (exists r, ends_with_any s (map Some ps) a b = Ok r /\
     (r = true <-> exists p, In p ps /\ py_endswith s p a b)).
Proof.
  intros s ps a b Hg. induction ps as [|p ps IH].
  - split; exists false; (split; [reflexivity|]); (split; [discriminate|]); intros (p & [] & _).
  - assert (Hp : p <> [] \/ py_bound a (zlen s) < zlen s) by (destruct Hg as [Hg|Hg]; [left; apply Hg; left; auto|auto]).
    destruct IH as [(r1 & R1 & I1) (r2 & R2 & I2)].
    { destruct Hg as [Hg|Hg]; [left|auto]. intros q Hq. apply Hg. right. exact Hq. }
    destruct (starts_with_ok s p a b Hp) as (x1 & X1 & J1).
    destruct (ends_with_ok s p a b Hp) as (x2 & X2 & J2).
    split.
    + cbn [map starts_with_any]. rewrite X1. cbn [bind]. destruct x1.
      * exists true. split; [reflexivity|]. split; [|reflexivity]. intros _. exists p. split; [left; auto|]. apply J1; auto.
      * exists r1. split; [exact R1|]. rewrite I1. split; intros (q & Hq & Hs).
        -- exists q. split; [right; auto|auto].
        -- destruct Hq as [<-|Hq]; [apply J1 in Hs; discriminate|]. exists q; auto.
    + cbn [map ends_with_any]. rewrite X2. cbn [bind]. destruct x2.
      * exists true. split; [reflexivity|]. split; [|reflexivity]. intros _. exists p. split; [left; auto|]. apply J2; auto.
      * exists r2. split; [exact R2|]. rewrite I2. split; intros (q & Hq & Hs).
        -- exists q. split; [right; auto|auto].
        -- destruct Hq as [<-|Hq]; [apply J2 in Hs; discriminate|]. exists q; auto.
Qed.
Print Assumptions C23_tuple_partial.

Example C23_example :
  starts_with [97; 98; 99] [98; 99] 1 int64_max = Ok true /\
  starts_with [97; 98; 99] [98; 99] 1 2 = Ok false /\
  starts_with [97; 98; 99] [] 1 2 = Ok true /\
  ends_with [97; 98; 99] [97; 98] 0 (-1) = Ok true /\
  ends_with [97; 98; 99] [97; 98] 1 (-1) = Ok false /\
  starts_with_any [97; 98] [Some [98]; Some [97]] 0 2 = Ok true /\
  py_bound 1 (zlen [97; 98; 99]) < zlen [97; 98; 99].
Proof. vm_compute. repeat split. Qed.

(** ** C24: ASCII case and classification *)
Theorem C24_lower_upper : forall s : list Z, Forall is_byte s ->
  ascii_lower s = map (fun b => if (65 <=? b) && (b <=? 90) then b + 32 else b) s /\
  ascii_upper s = map (fun b => if (97 <=? b) && (b <=? 122) then b - 32 else b) s.
Proof.
  intros s Hs. rewrite Forall_forall in Hs. split; apply map_ext_in; intros b Hb.
  - apply lower_byte; auto.
  - apply upper_byte; auto.
Qed.
Print Assumptions C24_lower_upper.

Lemma ascii_bytes s : Forall is_byte s -> Forall is_byte (ascii_lower s) /\ Forall is_byte (ascii_upper s).
Proof.
  intros _. unfold ascii_lower, ascii_upper. split; apply Forall_forall; intros x Hx; apply in_map_iff in Hx;
  destruct Hx as (b & <- & _); unfold uchar, is_byte; apply Z.mod_pos_bound; lia.
Qed.

Theorem C24_case_laws : forall s : list Z, Forall is_byte s ->
  length (ascii_lower s) = length s /\ length (ascii_upper s) = length s /\
  ascii_lower (ascii_lower s) = ascii_lower s /\ ascii_upper (ascii_upper s) = ascii_upper s /\
  ascii_lower (ascii_upper s) = ascii_lower s /\ ascii_upper (ascii_lower s) = ascii_upper s /\
  (forall b, In b (ascii_lower s) -> ~ is_upper b) /\ (forall b, In b (ascii_upper s) -> ~ is_lower b).
Proof.
  intros s Hs. destruct (ascii_bytes s Hs) as [HL HU].
  destruct (C24_lower_upper s Hs) as [EL EU].
  destruct (C24_lower_upper _ HL) as [ELL ELU]. destruct (C24_lower_upper _ HU) as [EUL EUU].
  rewrite ELL, ELU, EUL, EUU, EL, EU, !map_map, !map_length.
  split; [reflexivity|]. split; [reflexivity|].
  assert (M : forall f g : Z -> Z, (forall b, f b = g b) -> map f s = map g s) by (intros; apply map_ext; auto).
  repeat split.
  1-4: apply M; intros b;
    destruct ((65 <=? b) && (b <=? 90)) eqn:E1; destruct ((97 <=? b) && (b <=? 122)) eqn:E2;
    repeat match goal with |- context [if ?c then _ else _] => destruct c eqn:?; [|] || idtac end; try lia.
  - intros b Hb. apply in_map_iff in Hb. destruct Hb as (a & <- & _). unfold is_upper.
    destruct ((65 <=? a) && (a <=? 90)) eqn:E; lia.
  - intros b Hb. apply in_map_iff in Hb. destruct Hb as (a & <- & _). unfold is_lower.
    destruct ((97 <=? a) && (a <=? 122)) eqn:E; lia.
Qed.
Print Assumptions C24_case_laws.

Theorem C24_isdigit_isalpha : forall s : list Z, Forall is_byte s ->
  (ascii_isdigit s = true <-> forall b, In b s -> is_digit b) /\
  (ascii_isalpha s = true <-> forall b, In b s -> is_lower b \/ is_upper b).
Proof.
  intros s Hs. rewrite Forall_forall in Hs. unfold ascii_isdigit, ascii_isalpha.
  rewrite !forallb_forall. split; split; intros H b Hb.
  - apply (isdigit_byte b (Hs b Hb)). apply H; exact Hb.
  - apply (isdigit_byte b (Hs b Hb)). apply H; exact Hb.
  - apply (isalpha_byte b (Hs b Hb)). apply H; exact Hb.
  - apply (isalpha_byte b (Hs b Hb)). apply H; exact Hb.
Qed.
Print Assumptions C24_isdigit_isalpha.

(** Python's isdigit/isalpha are False on the empty string; here they are True. *)
Theorem C24_empty_classification_refuted :
  ascii_isdigit [] = true /\ ascii_isalpha [] = true.
Proof. split; reflexivity. Qed.
Print Assumptions C24_empty_classification_refuted.

Example C24_example :
  ascii_lower [65; 90; 91; 200; 97] = [97; 122; 91; 200; 97] /\
  ascii_upper [65; 122; 123; 200; 97] = [65; 90; 123; 200; 65] /\
  ascii_isdigit [48; 57] = true /\ ascii_isdigit [48; 58] = false /\
  ascii_isalpha [97; 90] = true /\ ascii_isalpha [97; 91] = false.
Proof. vm_compute. repeat split. Qed.
