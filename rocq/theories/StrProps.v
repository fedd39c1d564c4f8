(** C51: strings are values, however their storage is shared. *)
From Verif Require Import Base ListAux StrSpec StrModel StrProofs.
Local Open Scope nat_scope.

(** Whatever a program does with its String variables and runtime values, it meets no
    undefined behaviour, raises what the operations say, and each variable holds exactly the
    characters of a program in which it owns a list of its own.  For any sizes of the in-place
    and medium storage and any allocator that gives at least what is asked for. *)
Theorem C51_strings_are_values_partial : forall ms mm good k os vs excs,
  ms <= mm -> (forall n, n <= good n) ->
  behaves os (repeat VFree k) vs excs ->
  exists slots h,
    run ms mm good os (repeat Free k, []) = Ok (slots, h, excs) /\
    length slots = k /\ length vs = k /\
    (forall v l, nth_error vs v = Some (VStr l) ->
       exists s, nth_error slots v = Some (Str s) /\ size s = length l /\ chars s h = Ok (map Some l)) /\
    (forall v l, nth_error vs v = Some (VBox l) ->
       exists s, nth_error slots v = Some (Box s) /\ size s = length l /\ chars s h = Ok (map Some l)) /\
    (forall v, nth_error vs v = Some VFree -> nth_error slots v = Some Free).
Proof.
  intros ms mm good k os vs excs Hm Hg B.
  destruct (run_ok ms mm good Hm Hg false os _ _ _ B (repeat Free k, []) (rel_start ms false k))
    as ([slots h] & E & Rl); [discriminate|].
  exists slots, h. split; [exact E|].
  assert (Lk : length slots = k /\ length vs = k).
  { assert (L : length vs = k).
    { clear - B. remember (repeat VFree k) as st eqn:Es.
      assert (L0 : length st = k) by (subst; apply repeat_length). clear Es.
      induction B as [st|o os st ch st' l _ _ IH|o os st e st' l _ _ IH]; auto.
      apply IH. clear - L0. revert st L0. induction ch as [|[v x] ch IH]; intros st L; cbn; auto.
      apply IH. now rewrite lset_length. }
    split; [|exact L]. rewrite <- L. exact (rel_length ms false (slots, h) vs Rl). }
  destruct Lk as [L1 L2]. split; [exact L1|]. split; [exact L2|]. repeat split.
  - intros v l H. destruct (rel_chars ms mm good Hm Hg false (slots, h) vs v l Rl) as (s & A & C & D & _); [now rewrite H|].
    exists s. auto.
  - intros v l H. apply (rel_boxed ms mm good Hm Hg false (slots, h) vs v l Rl). now rewrite H.
  - intros v H. apply (rel_free ms false (slots, h) vs v Rl). now rewrite H.
Qed.
Print Assumptions C51_strings_are_values_partial.

(** Every block that is still allocated is the storage of a variable: nothing is lost, and
    nothing is left when the variables are gone. *)
Theorem C51_no_leak_partial : forall ms mm good k os vs excs slots h,
  ms <= mm -> (forall n, n <= good n) ->
  behaves os (repeat VFree k) vs excs ->
  run ms mm good os (repeat Free k, []) = Ok (slots, h, excs) ->
  (forall p b, nth_error h p = Some (Some b) ->
     exists v s n, (nth_error slots v = Some (Str s) \/ nth_error slots v = Some (Box s)) /\
                   (s = RMedium p n \/ s = RLarge p n)) /\
  ((forall v x, nth_error vs v = Some x -> x = VFree) -> forall p b, nth_error h p <> Some (Some b)).
Proof.
  intros ms mm good k os vs excs slots h Hm Hg B E.
  destruct (run_ok ms mm good Hm Hg false os _ _ _ B (repeat Free k, []) (rel_start ms false k))
    as ([slots' h'] & E' & Rl); [discriminate|].
  rewrite E in E'. injection E' as <- <-.
  assert (Bl : forall p b, nth_error h p = Some (Some b) ->
     exists v s n, (nth_error slots v = Some (Str s) \/ nth_error slots v = Some (Box s)) /\
                   (s = RMedium p n \/ s = RLarge p n)).
  { intros p b H. destruct (rel_blocks ms mm good Hm Hg false (slots, h) vs p b Rl H) as (v & s & A & O).
    destruct s as [c n|q n|q n]; [discriminate| |]; injection O as ->; exists v; eexists; exists n; eauto. }
  split; [exact Bl|]. intros F p b H. destruct (Bl p b H) as (v & s & n & A & _).
  destruct Rl as [Ag _]. cbn [fst] in Ag.
  assert (Lv : v < length vs).
  { rewrite <- (Forall2_length _ _ _ Ag). apply nth_error_Some. destruct A; congruence. }
  destruct (nth_error vs v) as [x|] eqn:Ex; [|apply nth_error_Some in Lv; congruence].
  pose proof (F v x Ex) as ->. destruct (agree_nth _ _ _ _ Ag Ex) as (y & Ey & Ay).
  destruct A as [A|A]; rewrite A in Ey; injection Ey as <-; destruct Ay.
Qed.
Print Assumptions C51_no_leak_partial.

(** c_str(): behind the characters of every String is a zero, as long as no String is taken
    back out of a runtime value. *)
Theorem C51_terminated_partial : forall ms mm good k os vs excs slots h v s,
  ms <= mm -> (forall n, n <= good n) ->
  behaves os (repeat VFree k) vs excs ->
  (forall a b, ~ In (FromBox a b) os) ->
  run ms mm good os (repeat Free k, []) = Ok (slots, h, excs) ->
  nth_error slots v = Some (Str s) ->
  terminator s h = Ok [Some 0%Z].
Proof.
  intros ms mm good k os vs excs slots h v s Hm Hg B NB E Es.
  assert (T : forallb no_unbox os = true).
  { apply forallb_forall. intros o H. destruct o; try reflexivity. now destruct (NB v0 w). }
  destruct (run_ok ms mm good Hm Hg true os _ _ _ B (repeat Free k, []) (rel_start ms true k) (fun _ => T))
    as ([slots' h'] & E' & Rl).
  rewrite E in E'. injection E' as <- <-.
  destruct Rl as [Ag I]. cbn [fst] in Ag.
  assert (Lv : v < length vs).
  { rewrite <- (Forall2_length _ _ _ Ag). apply nth_error_Some. congruence. }
  destruct (nth_error vs v) as [x|] eqn:Ex; [|apply nth_error_Some in Lv; congruence].
  destruct (agree_nth _ _ _ _ Ag Ex) as (y & Ey & Ay). rewrite Es in Ey. injection Ey as <-.
  destruct x as [|l|l]; try destruct Ay.
  destruct (rel_chars ms mm good Hm Hg true (slots, h) vs v l (conj Ag I)) as (s' & A & _ & _ & Z); [now rewrite Ex|].
  cbn [fst] in A. rewrite Es in A. injection A as <-. now apply Z.
Qed.
Print Assumptions C51_terminated_partial.

(** A String taken back out of a runtime value, short enough to be stored in place: c_str()
    has an indeterminate character behind it. *)
Theorem C51_unboxed_terminator_refuted : forall ms mm good l,
  l <> [] -> length l < ms ->
  exists slots h s,
    run ms mm good [New 0 l; ToBox 1 0; FromBox 2 1] ([Free; Free; Free], []) =
      Ok (slots, h, [None; None; None]) /\
    nth_error slots 2 = Some (Str s) /\ chars s h = Ok (map Some l) /\ terminator s h = Ok [None].
Proof.
  intros ms mm good l N L.
  assert (X : exists c, make ms mm good (map Some l) [] = Ok (RSmall c (length l), []) /\
                        firstn (length l) c = map Some l).
  { unfold make. rewrite map_length. destruct (Nat.leb_spec (length l) ms); [|lia]. eexists.
    split; [reflexivity|].
    pose proof (hold_fresh true (garbage ms) (map Some l)) as H1. rewrite map_length in H1.
    pose proof (hold_first _ _ _ (H1 ltac:(rewrite garbage_length; lia))) as H2. now rewrite map_length in H2. }
  destruct X as (c & X & Fc).
  eexists. eexists. eexists. split; [|split; [|split]].
  - cbn [run step free_slot fst nth_error bind snd]. rewrite X.
    cbn [put_str bind put fst snd lset free_slot nth_error get get_box unbox reset]. reflexivity.
  - reflexivity.
  - unfold chars. cbn [unbox size peek]. rewrite Fc.
    assert (G : length (in_place ms (empty ms)) = ms + 1).
    { cbn [empty set_small in_place]. rewrite splice_length; rewrite garbage_length; cbn; lia. }
    rewrite splice_length by (rewrite map_length; lia). rewrite G.
    destruct (Nat.leb_spec (0 + length l) (ms + 1)); [|lia]. cbn [skipn]. unfold splice. cbn [firstn app].
    f_equal. apply firstn_app_l. now rewrite map_length.
  - unfold terminator. cbn [unbox size peek]. rewrite Fc.
    assert (G : length (in_place ms (empty ms)) = ms + 1).
    { cbn [empty set_small in_place]. rewrite splice_length; rewrite garbage_length; cbn; lia. }
    rewrite splice_length by (rewrite map_length; lia). rewrite G.
    destruct (Nat.leb_spec (length l + 1) (ms + 1)); [|lia]. f_equal.
    apply nth_ext_len.
    + rewrite firstn_length, skipn_length, splice_length by (rewrite map_length; lia). rewrite G. cbn [length]. lia.
    + intros i Hi. rewrite firstn_length in Hi. assert (i = 0) as -> by lia.
      rewrite nth_firstn, nth_skipn, Nat.add_0_r. cbn [Nat.ltb Nat.leb nth_error].
      rewrite splice_nth by (rewrite map_length; lia). rewrite map_length.
      destruct (Nat.ltb_spec (length l) 0); [lia|].
      destruct (Nat.ltb_spec (length l) (0 + length l)); [lia|].
      cbn [empty set_small in_place]. rewrite splice_nth by (rewrite garbage_length; cbn; lia).
      destruct l as [|z l]; [congruence|]. cbn [length Nat.ltb Nat.leb Nat.add].
      unfold garbage. rewrite nth_error_app1 by (rewrite repeat_length; cbn [length] in L; lia).
      apply nth_error_repeat. cbn [length] in L. lia.
Qed.
Print Assumptions C51_unboxed_terminator_refuted.

(** s.insert(0, s, 1, 1) on "ab" gives "aab", not "bab"; on a longer string the characters are
    read from a freed block. *)
Theorem C51_self_insert_refuted :
  (exists slots h s, run 16 254 (fun n => n) [New 0 [97; 98]%Z; Insert 0 0 0 1 1] ([Free], []) =
      Ok (slots, h, [None; None]) /\
    nth_error slots 0 = Some (Str s) /\ chars s h = Ok (map Some [97; 97; 98]%Z)) /\
  run 16 254 (fun n => n) [NewFill 0 20 97%Z; Insert 0 0 0 0 20] ([Free], []) = UB.
Proof.
  split.
  - eexists. eexists. eexists. split; [vm_compute; reflexivity|]. split; [reflexivity|]. vm_compute. reflexivity.
  - vm_compute. reflexivity.
Qed.
Print Assumptions C51_self_insert_refuted.

(** insert does not check its position: past the end it is undefined behaviour, where the other
    modifiers raise an exception. *)
Theorem C51_insert_past_end_refuted : forall l pos,
  length l < pos ->
  run 16 254 (fun n => n) [New 0 l; InsertLit 0 pos [99]%Z] ([Free], []) = UB /\
  run 16 254 (fun n => n) [New 0 l; Erase 0 pos 1] ([Free], []) =
    rmap (fun r => (fst r, [None; Some IndexError])) (run 16 254 (fun n => n) [New 0 l] ([Free], [])).
Proof.
  intros l pos L.
  destruct (make_ok 16 254 (fun n => n) ltac:(lia) (fun n => le_n n) false [] []  (map Some l)) as (s & h & E & I & _).
  { pose proof (rel_start 16 false 0) as [_ X]. exact X. }
  destruct (inv_valid _ _ _ _ I s (map Some l) (or_introl eq_refl)) as [Sz _]. rewrite map_length in Sz.
  split.
  - cbn [run step free_slot fst nth_error bind snd]. rewrite E.
    cbn [put_str bind put fst snd lset get nth_error]. unfold insert.
    destruct (expand_ok 16 254 (fun n => n) ltac:(lia) (fun n => le_n n) false h [] s (map Some l) 1 true I)
      as (g & s' & h' & _ & X & I' & _).
    cbn [length map]. rewrite X. cbn [bind].
    destruct (mutable_ok 16 254 (fun n => n) ltac:(lia) (fun n => le_n n) false h' [] s' _ I') as (s2 & h2 & M & _).
    rewrite M. cbn [bind]. rewrite Sz. destruct (Nat.ltb_spec (length l) pos); [reflexivity|lia].
  - cbn [run step free_slot fst nth_error bind snd]. rewrite E.
    cbn [put_str bind put fst snd lset get nth_error]. unfold erase. rewrite Sz.
    destruct (Nat.ltb_spec (length l) pos); [reflexivity|lia].
Qed.
Print Assumptions C51_insert_past_end_refuted.

(** A view that has lost its last character still says that it is a whole shared string.  A
    String made of it shares the block with the old one, and appending nothing to the new
    String changes the old one: its last character becomes a zero. *)
Theorem C51_cut_view_shares_refuted :
  exists slots h s, run 16 254 (fun n => n)
      [NewFill 0 300 97%Z; OfView 1 0 0 1; AppendFill 1 0 98%Z] ([Free; Free], []) =
      Ok (slots, h, [None; None; None]) /\
    nth_error slots 0 = Some (Str s) /\
    chars s h = Ok (repeat (Some 97%Z) 299 ++ [Some 0%Z]).
Proof.
  eexists. eexists. eexists. split; [vm_compute; reflexivity|]. split; [reflexivity|]. vm_compute. reflexivity.
Qed.
Print Assumptions C51_cut_view_shares_refuted.

(** Without its first character, the count is looked for at the wrong place. *)
Theorem C51_cut_view_count_refuted :
  run 16 254 (fun n => n) [NewFill 0 300 97%Z; OfView 1 0 1 0] ([Free; Free], []) = UB.
Proof. vm_compute. reflexivity. Qed.
Print Assumptions C51_cut_view_count_refuted.

(** A program with short, medium and long strings, shared, changed, boxed and destroyed. *)
Example C51_example :
  exists vs excs,
    behaves (NewFill 0 6 97%Z :: Copy 1 0 :: New 2 [98; 99]%Z ::
             Assign 2 0 :: Append 2 2 1 3 :: SetAt 0 5 100%Z :: SetAt 0 6 100%Z :: Insert 0 1 1 0 2 ::
             Erase 1 1 3 :: ToBox 3 0 :: CopyBox 4 3 :: FromBox 5 3 :: Replace 5 1 2 2 0 4 ::
             Resize 2 2 0%Z :: MoveAssign 1 5 :: ShrinkToFit 2 :: Append 1 2 7 1 ::
             AssignSub 5 1 2 3 :: PopBack 5 :: OfView 3 1 0 0 :: Destroy 1 :: [])
            (repeat VFree 6) vs excs /\
    nth_error vs 0 = Some (VStr []) /\
    nth_error vs 1 = Some VFree /\
    nth_error vs 3 = Some (VStr [97; 97; 97; 97; 97; 97; 97; 97; 97; 100]%Z) /\
    nth_error vs 4 = Some (VBox [97; 97; 97; 97; 97; 97; 97; 100]%Z) /\
    nth_error excs 6 = Some (Some IndexError) /\ nth_error excs 16 = Some (Some IndexError) /\
    (exists slots h, run 2 4 (fun n => n)
       [NewFill 0 6 97%Z; Copy 1 0; SetAt 1 0 98%Z; Destroy 0; Destroy 1] ([Free; Free], []) =
       Ok (slots, h, [None; None; None; None; None]) /\ h = [None; None]).
Proof.
  eexists. eexists. split.
  - repeat (first [ eapply bh_end
                  | eapply bh_set; [vm_compute; reflexivity|cbn [set_all lset repeat]]
                  | eapply bh_raise; [vm_compute; reflexivity|] ]).
  - cbn. repeat (split; [reflexivity|]). eexists. eexists. split; vm_compute; reflexivity.
Qed.
