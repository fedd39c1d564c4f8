(** Proofs about the storage of strings. *)
From Coq Require Import Permutation.
From Verif Require Import Base ListAux StrSpec StrModel.
Local Open Scope nat_scope.

(** ** Cells *)

Lemma splice_length l off d : off + length d <= length l -> length (splice l off d) = length l.
Proof.
  intros H. unfold splice. rewrite !app_length, firstn_length, skipn_length. lia.
Qed.

Lemma splice_nth l off d i : off + length d <= length l ->
  nth_error (splice l off d) i =
    if i <? off then nth_error l i
    else if i <? off + length d then nth_error d (i - off) else nth_error l i.
Proof.
  intros H. unfold splice.
  assert (Lf : length (firstn off l) = off) by (rewrite firstn_length; lia).
  destruct (Nat.ltb_spec i off) as [A|A].
  - rewrite nth_error_app1 by lia. rewrite <- (firstn_skipn off l) at 2.
    rewrite nth_error_app1 by lia. reflexivity.
  - rewrite nth_error_app2 by lia. rewrite Lf.
    destruct (Nat.ltb_spec i (off + length d)) as [B|B].
    + rewrite nth_error_app1 by lia. reflexivity.
    + rewrite nth_error_app2 by lia. rewrite <- (firstn_skipn (off + length d) l) at 2.
      rewrite nth_error_app2; rewrite firstn_length; [|lia].
      f_equal. lia.
Qed.

Lemma nth_ext_len {A} (a b : list A) : length a = length b ->
  (forall i, i < length a -> nth_error a i = nth_error b i) -> a = b.
Proof.
  revert b. induction a as [|x a IH]; intros [|y b] L H; try discriminate; [reflexivity|].
  pose proof (H 0 ltac:(cbn; lia)) as H0. cbn in H0. injection H0 as ->.
  f_equal. apply IH; [now injection L|]. intros i Hi. apply (H (S i)). cbn. lia.
Qed.

Lemma nth_firstn {A} (l : list A) n i : nth_error (firstn n l) i = if i <? n then nth_error l i else None.
Proof.
  revert n i. induction l as [|x l IH]; intros n i.
  - rewrite firstn_nil. destruct i; cbn [nth_error]; match goal with |- context [?t <? ?u] => now destruct (t <? u) end.
  - destruct n as [|n]; [now destruct i|]. destruct i as [|i]; [reflexivity|].
    cbn [firstn nth_error]. rewrite IH. reflexivity.
Qed.

Lemma nth_skipn {A} (l : list A) n i : nth_error (skipn n l) i = nth_error l (n + i).
Proof.
  revert n. induction l as [|x l IH]; intros [|n]; cbn; try reflexivity.
  - now destruct i.
  - apply IH.
Qed.

(** The cells [c] hold the string [l] (and its terminator, if [tz]). *)
Definition hold (tz : bool) (c l : list (option Z)) : Prop :=
  length l < length c /\ (forall i, i < length l -> nth_error c i = nth_error l i) /\
  (tz = true -> nth_error c (length l) = Some zero).

Lemma hold_sub tz c l off n : hold tz c l -> off + n <= length l ->
  firstn n (skipn off c) = firstn n (skipn off l).
Proof.
  intros (L & E & _) H. apply nth_ext_len.
  - rewrite !firstn_length, !skipn_length. lia.
  - intros i Hi. rewrite firstn_length, skipn_length in Hi.
    rewrite !nth_firstn, !nth_skipn. destruct (Nat.ltb_spec i n); [|reflexivity]. apply E. lia.
Qed.

Lemma hold_first tz c l : hold tz c l -> firstn (length l) c = l.
Proof.
  intros H. pose proof (hold_sub tz c l 0 (length l) H ltac:(lia)) as X. cbn in X.
  now rewrite X, firstn_all.
Qed.

(** Writing inside the string *)
Lemma hold_splice tz c l off d : hold tz c l -> off + length d <= length l ->
  hold tz (splice c off d) (splice l off d).
Proof.
  intros (L & E & T) H. repeat split.
  - rewrite !splice_length; lia.
  - intros i Hi. rewrite splice_length in Hi by lia.
    rewrite !splice_nth by lia. destruct (i <? off); [now apply E|].
    destruct (i <? off + length d); [reflexivity|now apply E].
  - intros Tz. rewrite splice_length by lia. rewrite splice_nth by lia.
    destruct (Nat.ltb_spec (length l) off); [lia|].
    destruct (Nat.ltb_spec (length l) (off + length d)); [lia|]. auto.
Qed.

(** Writing the terminator of a shorter or longer string *)
Lemma hold_end tz c n : n < length c -> hold tz (splice c n [zero]) (firstn n c).
Proof.
  intros H. assert (L : length (firstn n c) = n) by (rewrite firstn_length; lia).
  repeat split; rewrite ?L.
  - rewrite splice_length; cbn; lia.
  - intros i Hi. rewrite splice_nth by (cbn; lia). rewrite nth_firstn.
    destruct (Nat.ltb_spec i n); [reflexivity|lia].
  - intros _. rewrite splice_nth by (cbn; lia). destruct (Nat.ltb_spec n n); [lia|].
    cbn [length]. destruct (Nat.ltb_spec n (n + 1)); [|lia]. now rewrite Nat.sub_diag.
Qed.

Lemma hold_weaken tz c l : hold tz c l -> hold false c l.
Proof. intros (A & B & _). repeat split; auto. discriminate. Qed.

(** Copying a string with its terminator into fresh cells *)
Lemma hold_copy tz c l c' : hold tz c l -> length l < length c' ->
  hold tz (splice c' 0 (firstn (length l + 1) c)) l.
Proof.
  intros (L & E & T) H.
  assert (Lf : length (firstn (length l + 1) c) = length l + 1) by (rewrite firstn_length; lia).
  repeat split.
  - rewrite splice_length; lia.
  - intros i Hi. rewrite splice_nth by lia. rewrite Lf.
    destruct (Nat.ltb_spec i 0); [lia|]. destruct (Nat.ltb_spec i (0 + (length l + 1))); [|lia].
    rewrite nth_firstn, Nat.sub_0_r. destruct (Nat.ltb_spec i (length l + 1)); [|lia]. auto.
  - intros Tz. rewrite splice_nth by lia. rewrite Lf.
    destruct (Nat.ltb_spec (length l) 0); [lia|].
    destruct (Nat.ltb_spec (length l) (0 + (length l + 1))); [|lia].
    rewrite nth_firstn, Nat.sub_0_r. destruct (Nat.ltb_spec (length l) (length l + 1)); [|lia]. auto.
Qed.

(** Filling fresh cells: the characters, then the terminator *)
Lemma hold_fresh tz c d : length d < length c -> hold tz (splice (splice c 0 d) (length d) [zero]) d.
Proof.
  intros H. assert (E : firstn (length d) (splice c 0 d) = d).
  { unfold splice. cbn [firstn app]. rewrite firstn_app, Nat.sub_diag, firstn_O, app_nil_r.
    apply firstn_all. }
  rewrite <- E at 3. apply hold_end. rewrite splice_length; lia.
Qed.
Lemma hold_fresh' tz c d : length d < length c -> hold tz (splice (splice c (length d) [zero]) 0 d) d.
Proof.
  intros H. repeat split.
  - rewrite !splice_length; cbn; try lia. rewrite splice_length; cbn; lia.
  - intros i Hi. rewrite splice_nth by (rewrite splice_length; cbn; lia).
    destruct (Nat.ltb_spec i 0); [lia|]. destruct (Nat.ltb_spec i (0 + length d)); [|lia].
    f_equal. lia.
  - intros _. rewrite splice_nth by (rewrite splice_length; cbn; lia).
    destruct (Nat.ltb_spec (length d) 0); [lia|].
    destruct (Nat.ltb_spec (length d) (0 + length d)); [lia|].
    rewrite splice_nth by (cbn; lia). destruct (Nat.ltb_spec (length d) (length d)); [lia|].
    cbn [length]. destruct (Nat.ltb_spec (length d) (length d + 1)); [|lia].
    now rewrite Nat.sub_diag.
Qed.

(** ** Ownership *)

Definition owned (s : rep) : option nat :=
  match s with RSmall _ _ => None | RMedium p _ | RLarge p _ => Some p end.
Definition owns (p : nat) (x : rep * list (option Z)) : bool :=
  match owned (fst x) with Some q => q =? p | None => false end.
Notation owners := (list (rep * list (option Z))) (only parsing).
Definition count (p : nat) (R : owners) : nat := length (filter (owns p) R).
Definition block_rep (cnt : bool) (p n : nat) : rep := if cnt then RLarge p n else RMedium p n.

Section Core.
Variables (ms mm : nat) (good : nat -> nat).
Hypothesis Hms : ms <= mm.
Hypothesis Hgood : forall n, n <= good n.

(** The string [s] holds [l]. *)
Definition valid (tz : bool) (h : heap) (s : rep) (l : list (option Z)) : Prop :=
  size s = length l /\
  match s with
  | RSmall c _ => length c = ms + 1 /\ hold tz c l
  | RMedium p _ => exists b, nth_error h p = Some (Some b) /\ counted b = false /\ hold tz (cells b) l
  | RLarge p _ => exists b, nth_error h p = Some (Some b) /\ counted b = true /\ hold tz (cells b) l
  end.

(** The strings [R] are all there is: each holds its characters, and every block is counted
    as often as it is owned; strings that share a block have the same size. *)
Record Inv (tz : bool) (h : heap) (R : owners) : Prop := {
  inv_valid : forall s l, In (s, l) R -> valid tz h s l;
  inv_count : forall p b, nth_error h p = Some (Some b) ->
              refs b = count p R /\ 1 <= refs b /\ (counted b = false -> refs b = 1);
  inv_size : forall p n l n' l', In (RLarge p n, l) R -> In (RLarge p n', l') R -> n = n' }.

Lemma count_perm p R R' : Permutation R R' -> count p R = count p R'.
Proof.
  unfold count. induction 1 as [|x R R' _ IH|x y R|R R' R'' _ IH1 _ IH2]; cbn; auto.
  - destruct (owns p x); cbn; auto.
  - destruct (owns p x), (owns p y); reflexivity.
  - congruence.
Qed.

Lemma Inv_perm tz h R R' : Permutation R R' -> Inv tz h R -> Inv tz h R'.
Proof.
  intros P [V C S]. pose proof (Permutation_sym P) as P'. split.
  - intros s l H. apply V. eapply Permutation_in; eassumption.
  - intros p b H. rewrite <- (count_perm p R R' P). auto.
  - intros p n l n' l' H1 H2. apply (S p n l n' l'); eapply Permutation_in; eassumption.
Qed.

Lemma count_in p s l R : In (s, l) R -> owned s = Some p -> 1 <= count p R.
Proof.
  intros H O. unfold count. induction R as [|x R IH]; [destruct H|]. cbn.
  destruct H as [->|H].
  - assert (E : owns p (s, l) = true) by (unfold owns; cbn; rewrite O; apply Nat.eqb_refl).
    rewrite E. cbn. lia.
  - destruct (owns p x); cbn; [lia|auto].
Qed.

Lemma count_cons p s l R : count p ((s, l) :: R) =
  (if match owned s with Some q => q =? p | None => false end then 1 else 0) + count p R.
Proof.
  unfold count. cbn [filter]. unfold owns at 1. cbn [fst].
  destruct (match owned s with Some q => q =? p | None => false end); reflexivity.
Qed.

(** An owned block is there. *)
Lemma inv_live tz h R s l p : Inv tz h R -> In (s, l) R -> owned s = Some p ->
  exists b, nth_error h p = Some (Some b) /\ size s = length l /\ hold tz (cells b) l /\
            s = block_rep (counted b) p (length l).
Proof.
  intros I H O. destruct (inv_valid _ _ _ I s l H) as [Sz V].
  destruct s as [c n|q n|q n]; [discriminate| |]; cbn in O, Sz; injection O as ->; subst n;
    destruct V as (b & E & Cn & Ho); exists b; rewrite Cn; auto.
Qed.

Lemma hget_live h p b : nth_error h p = Some (Some b) -> hget h p = Ok b.
Proof. unfold hget. intros ->. reflexivity. Qed.

Lemma peek_ok tz h R s l off n : Inv tz h R -> In (s, l) R -> off + n <= length l ->
  peek s h off n = Ok (firstn n (skipn off l)).
Proof.
  intros I H L. destruct (inv_valid _ _ _ I s l H) as [Sz V].
  destruct s as [c k|p k|p k]; cbn [peek].
  - destruct V as [Lc Ho]. destruct Ho as (L' & Ho'). destruct (Nat.leb_spec (off + n) (length c)); [|lia].
    f_equal. eapply hold_sub; [split; eassumption|exact L].
  - destruct V as (b & E & _ & Ho). unfold hread. rewrite (hget_live _ _ _ E). cbn [bind].
    pose proof Ho as (L' & _). destruct (Nat.leb_spec (off + n) (length (cells b))); [|lia].
    f_equal. eapply hold_sub; eassumption.
  - destruct V as (b & E & _ & Ho). unfold hread. rewrite (hget_live _ _ _ E). cbn [bind].
    pose proof Ho as (L' & _). destruct (Nat.leb_spec (off + n) (length (cells b))); [|lia].
    f_equal. eapply hold_sub; eassumption.
Qed.

(** ** Changes of the heap *)

Lemma valid_other tz h h' s l : valid tz h s l ->
  (forall p, owned s = Some p -> nth_error h' p = nth_error h p) -> valid tz h' s l.
Proof.
  intros [Sz V] E. split; [exact Sz|]. destruct s as [c n|p n|p n]; [exact V| |];
    rewrite (E p eq_refl); exact V.
Qed.

Lemma inv_small tz h R c l : Inv tz h R -> length c = ms + 1 -> hold tz c l ->
  Inv tz h ((RSmall c (length l), l) :: R).
Proof.
  intros [V C S] Lc Ho. split.
  - intros s k [X|H]; [injection X as <- <-; split; [reflexivity|split; assumption]|auto].
  - intros p b E. rewrite count_cons. cbn. auto.
  - intros p n k n' k' [X|H1] [Y|H2]; try discriminate. eauto.
Qed.

Lemma inv_drop_small tz h R c n l : Inv tz h ((RSmall c n, l) :: R) -> Inv tz h R.
Proof.
  intros [V C S]. split.
  - intros s k H. apply V. now right.
  - intros p b E. pose proof (C p b E) as X. now rewrite count_cons in X.
  - intros p n' k n'' k' H1 H2. apply (S p n' k n'' k'); now right.
Qed.

Lemma nth_app_last {A} (l : list A) x : nth_error (l ++ [x]) (length l) = Some x.
Proof. rewrite nth_error_app2, Nat.sub_diag; [reflexivity|lia]. Qed.

Lemma nth_app_old {A} (l : list A) x p y : nth_error l p = Some y -> nth_error (l ++ [x]) p = Some y.
Proof. intros H. rewrite nth_error_app1; [exact H|]. apply nth_error_Some. congruence. Qed.

Lemma count_new tz h R : Inv tz h R -> forall p, length h <= p -> count p R = 0.
Proof.
  intros I p Hp. destruct (count p R) as [|k] eqn:E; [reflexivity|exfalso].
  unfold count in E. destruct (filter (owns p) R) as [|[s l] f] eqn:F; [discriminate|].
  assert (In (s, l) (filter (owns p) R)) as X by (rewrite F; now left).
  apply filter_In in X. destruct X as [X O]. unfold owns in O. cbn in O.
  destruct (owned s) as [q|] eqn:Os; [|discriminate]. apply Nat.eqb_eq in O. subst q.
  destruct (inv_live _ _ _ _ _ _ I X Os) as (b & Eb & _).
  assert (p < length h) by (apply nth_error_Some; congruence). lia.
Qed.

(** A new block *)
Lemma inv_alloc tz h R cnt c l : Inv tz h R -> hold tz c l ->
  Inv tz (h ++ [Some (mkBlock cnt 1 c)]) ((block_rep cnt (length h) (length l), l) :: R).
Proof.
  intros I Ho. pose proof (count_new _ _ _ I (length h) (le_n _)) as C0.
  assert (Ob : owned (block_rep cnt (length h) (length l)) = Some (length h)) by (destruct cnt; reflexivity).
  assert (Old : forall s k p, In (s, k) R -> owned s = Some p ->
            nth_error (h ++ [Some (mkBlock cnt 1 c)]) p = nth_error h p /\ p < length h).
  { intros s k p H O. destruct (inv_live _ _ _ _ _ _ I H O) as (b & E & _).
    assert (p < length h) by (apply nth_error_Some; congruence).
    rewrite nth_error_app1 by lia. auto. }
  destruct I as [V C S]. split.
  - intros s k [X|H].
    + injection X as <- <-. split; [destruct cnt; reflexivity|].
      destruct cnt; cbn [block_rep]; rewrite nth_app_last; eexists; repeat split; auto; apply Ho.
    + apply (valid_other tz h); [now apply V|]. intros p O. now destruct (Old s k p H O).
  - intros p b E. rewrite count_cons, Ob. destruct (Nat.eqb_spec (length h) p) as [<-|N].
    + rewrite nth_app_last in E. injection E as <-. cbn. rewrite C0. lia.
    + assert (p < length (h ++ [Some (mkBlock cnt 1 c)])) as Lp by (apply nth_error_Some; congruence).
      rewrite app_length in Lp. cbn in Lp. rewrite nth_error_app1 in E by lia. cbn. auto.
  - intros p n k n' k' [X|H1] [Y|H2].
    + rewrite X in Y. now injection Y.
    + destruct cnt; [|discriminate]. injection X as <- <- <-.
      destruct (Old _ _ (length h) H2 eq_refl). lia.
    + destruct cnt; [|discriminate]. injection Y as <- <- <-.
      destruct (Old _ _ (length h) H1 eq_refl). lia.
    + eauto.
Qed.

(** Writing through the only owner *)
Lemma inv_write tz h R s l p b c l' : Inv tz h ((s, l) :: R) -> owned s = Some p ->
  nth_error h p = Some (Some b) -> refs b = 1 -> hold tz c l' ->
  Inv tz (lset h p (Some (mkBlock (counted b) 1 c))) ((block_rep (counted b) p (length l'), l') :: R).
Proof.
  intros I O E R1 Ho.
  assert (Lp : p < length h) by (apply nth_error_Some; congruence).
  assert (C0 : count p R = 0).
  { destruct (inv_count _ _ _ I p b E) as (X & _). rewrite count_cons, O, Nat.eqb_refl in X. lia. }
  assert (No : forall s k, In (s, k) R -> owned s <> Some p).
  { intros s' k H X. pose proof (count_in p s' k R H X). lia. }
  assert (Ob : owned (block_rep (counted b) p (length l')) = Some p) by (destruct (counted b); reflexivity).
  destruct I as [V C S]. split.
  - intros s' k [X|H].
    + injection X as <- <-. split; [destruct (counted b); reflexivity|].
      destruct (counted b) eqn:Cn; cbn [block_rep]; rewrite nth_lset_eq by exact Lp;
        eexists; repeat split; auto; apply Ho.
    + apply (valid_other tz h); [apply V; now right|]. intros q Oq. apply nth_lset_ne.
      intros <-. exact (No s' k H Oq).
  - intros q b' E'. rewrite count_cons, Ob. destruct (Nat.eqb_spec p q) as [<-|N].
    + rewrite nth_lset_eq in E' by exact Lp. injection E' as <-. cbn. rewrite C0. lia.
    + rewrite nth_lset_ne in E' by exact N. destruct (C q b' E') as (X & Y & Z).
      rewrite count_cons, O in X. replace (p =? q) with false in X by (symmetry; now apply Nat.eqb_neq).
      cbn in X |- *. auto.
  - intros q n k n' k' [X|H1] [Y|H2].
    + rewrite X in Y. now injection Y.
    + destruct (counted b); [|discriminate]. injection X as <- <- <-.
      now destruct (No _ _ H2).
    + destruct (counted b); [|discriminate]. injection Y as <- <- <-.
      now destruct (No _ _ H1).
    + apply (S q n k n' k'); now right.
Qed.

(** Writing the terminator again *)
Lemma inv_term tz h R s l p b : Inv tz h ((s, l) :: R) -> owned s = Some p ->
  nth_error h p = Some (Some b) ->
  Inv tz (lset h p (Some (mkBlock (counted b) (refs b) (splice (cells b) (length l) [zero]))))
      ((s, l) :: R).
Proof.
  intros I O E.
  assert (Lp : p < length h) by (apply nth_error_Some; congruence).
  set (b' := mkBlock _ _ _).
  assert (Ho : forall s' l', In (s', l') ((s, l) :: R) -> owned s' = Some p -> length l' = length l).
  { intros s' l' H O'. destruct (inv_live _ _ _ _ _ _ I H O') as (b1 & E1 & Sz & _ & Sh).
    rewrite E in E1. injection E1 as <-.
    destruct (inv_live _ _ _ _ _ _ I (or_introl eq_refl) O) as (b1 & E1 & Sz0 & _ & Sh0).
    rewrite E in E1. injection E1 as <-.
    destruct (counted b) eqn:Cn; cbn in Sh, Sh0.
    - subst s s'. now apply (inv_size _ _ _ I p (length l') l' (length l) l); [|left].
    - destruct H as [X|H]; [now injection X as <- <-|].
      destruct (inv_count _ _ _ I p b E) as (X & _ & Y). rewrite count_cons, O, Nat.eqb_refl in X.
      pose proof (count_in p s' l' R H O'). specialize (Y Cn). lia. }
  assert (Hh : forall s' l', In (s', l') ((s, l) :: R) -> owned s' = Some p -> hold tz (cells b') l').
  { intros s' l' H O'. pose proof (Ho _ _ H O') as Le.
    destruct (inv_live _ _ _ _ _ _ I H O') as (b1 & E1 & _ & (H1 & H2 & H3) & _).
    rewrite E in E1. injection E1 as <-. cbn [cells b']. unfold b'. cbn [cells]. rewrite <- Le.
    repeat split.
    - rewrite splice_length; cbn; lia.
    - intros i Hi. rewrite splice_nth by (cbn; lia). destruct (Nat.ltb_spec i (length l')); [auto|lia].
    - intros _. rewrite splice_nth by (cbn; lia). destruct (Nat.ltb_spec (length l') (length l')); [lia|].
      cbn [length]. destruct (Nat.ltb_spec (length l') (length l' + 1)); [|lia]. now rewrite Nat.sub_diag. }
  destruct I as [V C S]. split.
  - intros s' l' H. specialize (V s' l' H). destruct (owned s') as [q|] eqn:O'.
    + destruct (Nat.eq_dec q p) as [->|N].
      * specialize (Hh s' l' H O'). destruct V as [Sz V]. split; [exact Sz|].
        destruct s' as [c n|q n|q n]; [discriminate| |]; injection O' as ->;
          rewrite nth_lset_eq by exact Lp; destruct V as (b1 & E1 & Cn & _);
          rewrite E in E1; injection E1 as <-; exists b'; auto.
      * apply (valid_other tz h); [exact V|]. intros q' X. rewrite O' in X. injection X as <-.
        apply nth_lset_ne; congruence.
    + apply (valid_other tz h); [exact V|]. intros q' X. congruence.
  - intros q b1 E1. destruct (Nat.eq_dec p q) as [<-|N].
    + rewrite nth_lset_eq in E1 by exact Lp. injection E1 as <-. apply (C p b E).
    + rewrite nth_lset_ne in E1 by exact N. auto.
  - exact S.
Qed.

(** Sharing *)
Lemma incref_ok tz h R p n l : Inv tz h ((RLarge p n, l) :: R) ->
  exists h', incref h p = Ok h' /\ Inv tz h' ((RLarge p n, l) :: (RLarge p n, l) :: R).
Proof.
  intros I. destruct (inv_live _ _ _ _ _ _ I (or_introl eq_refl) eq_refl) as (b & E & Sz & Ho & Sh).
  assert (Cn : counted b = true) by (destruct (counted b); [reflexivity|discriminate]).
  assert (Lp : p < length h) by (apply nth_error_Some; congruence).
  unfold incref. rewrite (hget_live _ _ _ E). cbn [bind]. rewrite Cn. eexists. split; [reflexivity|].
  destruct I as [V C S].
  assert (V' : forall s' l', In (s', l') ((RLarge p n, l) :: R) ->
             valid tz (lset h p (Some (mkBlock true (refs b + 1) (cells b)))) s' l').
  { intros s' l' H. specialize (V s' l' H). destruct (owned s') as [q|] eqn:O'.
    - destruct (Nat.eq_dec q p) as [->|N].
      + destruct V as [Sz' V]. split; [exact Sz'|].
        destruct s' as [c k|q k|q k]; [discriminate| |]; injection O' as ->;
          rewrite nth_lset_eq by exact Lp; destruct V as (b1 & E1 & Cn1 & Ho1);
          rewrite E in E1; injection E1 as <-; [congruence|eexists; repeat split; auto; apply Ho1].
      + apply (valid_other tz h); [exact V|]. intros q' X. rewrite O' in X. injection X as <-.
        apply nth_lset_ne; congruence.
    - apply (valid_other tz h); [exact V|]. intros q' X. congruence. }
  split.
  - intros s' l' [X|H]; [injection X as <- <-; apply V'; now left|auto].
  - intros q b1 E1. rewrite count_cons. cbn [owned].
    destruct (Nat.eqb_spec p q) as [<-|N].
    + rewrite nth_lset_eq in E1 by exact Lp. injection E1 as <-. cbn [refs counted].
      destruct (C p b E) as (X & Y & _). rewrite X. split; [lia|split; [lia|discriminate]].
    + rewrite nth_lset_ne in E1 by exact N. exact (C q b1 E1).
  - intros q k l1 k' l1' H1 H2.
    assert (T : forall x, In x ((RLarge p n, l) :: (RLarge p n, l) :: R) -> In x ((RLarge p n, l) :: R)).
    { intros x [<-|H]; [now left|exact H]. }
    apply (S q k l1 k' l1'); now apply T.
Qed.

(** Destruction *)
Lemma destroy_ok tz h R s l : Inv tz h ((s, l) :: R) ->
  exists h', destroy s h = Ok h' /\ Inv tz h' R.
Proof.
  intros I. destruct s as [c n|p n|p n].
  - exists h. split; [reflexivity|]. eapply inv_drop_small; eassumption.
  - destruct (inv_live _ _ _ _ _ _ I (or_introl eq_refl) eq_refl) as (b & E & Sz & Ho & Sh).
    assert (Cn : counted b = false) by (destruct (counted b); [discriminate|reflexivity]).
    assert (Lp : p < length h) by (apply nth_error_Some; congruence).
    cbn [destroy]. unfold release. rewrite (hget_live _ _ _ E). cbn [bind]. rewrite Cn.
    eexists. split; [reflexivity|].
    destruct (inv_count _ _ _ I p b E) as (X & _ & Y). rewrite count_cons in X. cbn [owned] in X.
    rewrite Nat.eqb_refl in X. specialize (Y Cn).
    assert (No : forall s k, In (s, k) R -> owned s <> Some p).
    { intros s' k H O. pose proof (count_in p s' k R H O). lia. }
    destruct I as [V C S]. split.
    + intros s' l' H. apply (valid_other tz h); [apply V; now right|]. intros q O.
      apply nth_lset_ne. intros <-. exact (No _ _ H O).
    + intros q b1 E1. destruct (Nat.eq_dec p q) as [<-|N].
      * rewrite nth_lset_eq in E1 by exact Lp. discriminate.
      * rewrite nth_lset_ne in E1 by exact N. pose proof (C q b1 E1) as Z. rewrite count_cons in Z.
        cbn [owned] in Z. replace (p =? q) with false in Z by (symmetry; now apply Nat.eqb_neq). exact Z.
    + intros q k l1 k' l1' H1 H2. apply (S q k l1 k' l1'); now right.
  - destruct (inv_live _ _ _ _ _ _ I (or_introl eq_refl) eq_refl) as (b & E & Sz & Ho & Sh).
    assert (Cn : counted b = true) by (destruct (counted b); [reflexivity|discriminate]).
    assert (Lp : p < length h) by (apply nth_error_Some; congruence).
    cbn [destroy]. unfold decref. rewrite (hget_live _ _ _ E). cbn [bind]. rewrite Cn.
    destruct (inv_count _ _ _ I p b E) as (X & Y & _). rewrite count_cons in X. cbn [owned] in X.
    rewrite Nat.eqb_refl in X.
    assert (Keep : forall q b1, p <> q -> nth_error h q = Some (Some b1) ->
              refs b1 = count q R /\ 1 <= refs b1 /\ (counted b1 = false -> refs b1 = 1)).
    { intros q b1 N E1. pose proof (inv_count _ _ _ I q b1 E1) as Z. rewrite count_cons in Z.
      cbn [owned] in Z. replace (p =? q) with false in Z by (symmetry; now apply Nat.eqb_neq). exact Z. }
    destruct (refs b) as [|[|k]] eqn:Rb; [lia| |].
    + eexists. split; [reflexivity|].
      assert (No : forall s k, In (s, k) R -> owned s <> Some p).
      { intros s' k H O. pose proof (count_in p s' k R H O). lia. }
      destruct I as [V C S]. split.
      * intros s' l' H. apply (valid_other tz h); [apply V; now right|]. intros q O.
        apply nth_lset_ne. intros <-. exact (No _ _ H O).
      * intros q b1 E1. destruct (Nat.eq_dec p q) as [<-|N].
        -- rewrite nth_lset_eq in E1 by exact Lp. discriminate.
        -- rewrite nth_lset_ne in E1 by exact N. auto.
      * intros q k l1 k' l1' H1 H2. apply (S q k l1 k' l1'); now right.
    + eexists. split; [reflexivity|]. destruct I as [V C S]. split.
      * intros s' l' H. specialize (V s' l' (or_intror H)). destruct (owned s') as [q|] eqn:O'.
        -- destruct (Nat.eq_dec q p) as [->|N].
           ++ destruct V as [Sz' V]. split; [exact Sz'|].
              destruct s' as [c m|q m|q m]; [discriminate| |]; injection O' as ->;
                rewrite nth_lset_eq by exact Lp; destruct V as (b1 & E1 & Cn1 & Ho1);
                rewrite E in E1; injection E1 as <-; [congruence|eexists; repeat split; auto; apply Ho1].
           ++ apply (valid_other tz h); [exact V|]. intros q' Z. rewrite O' in Z. injection Z as <-.
              apply nth_lset_ne; congruence.
        -- apply (valid_other tz h); [exact V|]. intros q' Z. congruence.
      * intros q b1 E1. destruct (Nat.eq_dec p q) as [<-|N].
        -- rewrite nth_lset_eq in E1 by exact Lp. injection E1 as <-. cbn [refs counted].
           split; [lia|split; [lia|discriminate]].
        -- rewrite nth_lset_ne in E1 by exact N. auto.
      * intros q k' l1 k'' l1' H1 H2. apply (S q k' l1 k'' l1'); now right.
Qed.

(** ** Operations *)

Definition gives (tz : bool) (R : owners) (r : res (rep * heap)) (l : list (option Z)) : Prop :=
  exists s h, r = Ok (s, h) /\ Inv tz h ((s, l) :: R).
(** No other string shares the block: it may be written. *)
Definition unique (h : heap) (s : rep) : Prop :=
  match s with RLarge p _ => exists b, nth_error h p = Some (Some b) /\ refs b = 1 | _ => True end.
Definition gives1 (tz : bool) (R : owners) (r : res (rep * heap)) (l : list (option Z)) : Prop :=
  exists s h, r = Ok (s, h) /\ Inv tz h ((s, l) :: R) /\ unique h s.
Definition room (h : heap) (s : rep) (k : nat) : Prop :=
  match s with
  | RSmall _ _ => k <= ms
  | RMedium p _ | RLarge p _ => exists b, nth_error h p = Some (Some b) /\ k < length (cells b)
  end.

Lemma gives1_gives tz R r l : gives1 tz R r l -> gives tz R r l.
Proof. intros (s & h & E & I & _). exists s, h. auto. Qed.

Lemma inv_swap tz h x y R : Inv tz h (x :: y :: R) -> Inv tz h (y :: x :: R).
Proof. apply Inv_perm. apply perm_swap. Qed.

Lemma lset_last {A} (l : list A) x y : lset (l ++ [x]) (length l) y = l ++ [y].
Proof. induction l as [|z l IH]; cbn; [reflexivity|]. now rewrite IH. Qed.

Lemma fresh_write h b off d : off + length d <= length (cells b) ->
  hwrite (h ++ [Some b]) (length h) off d =
    Ok (h ++ [Some (mkBlock (counted b) (refs b) (splice (cells b) off d))]).
Proof.
  intros H. unfold hwrite. rewrite (hget_live _ _ b) by apply nth_app_last. cbn [bind].
  destruct (Nat.leb_spec (off + length d) (length (cells b))); [|lia]. now rewrite lset_last.
Qed.

Lemma fresh_read h x p off n : p < length h -> hread (h ++ [x]) p off n = hread h p off n.
Proof. intros H. unfold hread, hget. now rewrite nth_error_app1 by exact H. Qed.

Lemma live_lt (h : heap) p b : nth_error h p = Some (Some b) -> p < length h.
Proof. intros E. apply nth_error_Some. congruence. Qed.

Lemma unique_block h cnt p n b : nth_error h p = Some (Some b) -> refs b = 1 ->
  unique h (block_rep cnt p n).
Proof. intros E R. destruct cnt; cbn; eauto. Qed.

Lemma init_block_ok tz h R cnt d : Inv tz h R -> gives1 tz R (init_block good cnt d h) d.
Proof.
  intros I. unfold init_block, create. pose proof (Hgood (length d)) as G.
  set (k := repeat None (good (length d) + 1)).
  assert (Lk : length k = good (length d) + 1) by apply repeat_length.
  rewrite fresh_write by (cbn [cells]; lia). cbn [bind counted refs cells].
  rewrite fresh_write by (cbn [cells length]; rewrite splice_length; lia).
  cbn [bind counted refs cells].
  exists (block_rep cnt (length h) (length d)). eexists. split; [reflexivity|]. split.
  - apply inv_alloc; [exact I|]. apply hold_fresh. lia.
  - eapply unique_block; [apply nth_app_last|reflexivity].
Qed.

Lemma garbage_length : length (garbage ms) = ms + 1.
Proof. unfold garbage. rewrite app_length, repeat_length. reflexivity. Qed.

Lemma make_ok tz h R d : Inv tz h R -> gives1 tz R (make ms mm good d h) d.
Proof.
  intros I. unfold make. destruct (Nat.leb_spec (length d) ms) as [L|L].
  - eexists. eexists. split; [reflexivity|]. split; [|exact Logic.I]. unfold set_small.
    apply inv_small; [exact I| |].
    + assert (X : length (splice (garbage ms) 0 d) = ms + 1)
        by (rewrite splice_length; rewrite garbage_length; lia).
      rewrite splice_length; rewrite X; cbn [length]; lia.
    + apply hold_fresh. rewrite garbage_length. lia.
  - now apply init_block_ok.
Qed.

Lemma poke_ok tz h R s l off d : Inv tz h ((s, l) :: R) -> unique h s ->
  off + length d <= length l -> gives1 tz R (poke s h off d) (splice l off d).
Proof.
  intros I U L. destruct (owned s) as [p|] eqn:O.
  - destruct (inv_live _ _ _ _ _ _ I (or_introl eq_refl) O) as (b & E & Sz & Ho & Sh).
    assert (R1 : refs b = 1).
    { destruct (counted b) eqn:Cn.
      - rewrite Sh in U. destruct U as (b1 & E1 & X). congruence.
      - now apply (inv_count _ _ _ I p b E). }
    pose proof Ho as (Lc & _).
    assert (W : hwrite h p off d = Ok (lset h p (Some (mkBlock (counted b) 1 (splice (cells b) off d))))).
    { unfold hwrite. rewrite (hget_live _ _ _ E). cbn [bind].
      destruct (Nat.leb_spec (off + length d) (length (cells b))); [|lia]. now rewrite R1. }
    assert (X : poke s h off d =
              Ok (s, lset h p (Some (mkBlock (counted b) 1 (splice (cells b) off d))))).
    { rewrite Sh. destruct (counted b); cbn [poke block_rep]; rewrite W; reflexivity. }
    exists s. eexists. split; [exact X|]. split.
    + rewrite Sh. replace (length l) with (length (splice l off d)) by (apply splice_length; lia).
      apply (inv_write tz h R s l p b); auto. now apply hold_splice.
    + rewrite Sh. eapply unique_block; [apply nth_lset_eq; now apply live_lt in E|reflexivity].
  - destruct s as [c n|q n|q n]; try discriminate. clear O.
    destruct (inv_valid _ _ _ I _ _ (or_introl eq_refl)) as [Sz [Lc Ho]]. cbn [size] in Sz. subst n.
    apply inv_drop_small in I. cbn [poke]. pose proof Ho as (L' & _).
    destruct (Nat.leb_spec (off + length d) (length c)); [|lia].
    eexists. eexists. split; [reflexivity|]. split; [|exact Logic.I].
    replace (length l) with (length (splice l off d)) by (apply splice_length; lia).
    apply inv_small; [exact I| |now apply hold_splice]. rewrite splice_length; lia.
Qed.

Lemma splice_all l d : length l = length d -> splice l 0 d = d.
Proof.
  intros E. unfold splice. cbn [firstn app Nat.add]. rewrite skipn_all2 by lia. apply app_nil_r.
Qed.

Lemma make_fill_ok tz h R n c : Inv tz h R -> gives1 tz R (make_fill ms mm good n c h) (repeat (Some c) n).
Proof.
  intros I. unfold make_fill. set (d := repeat (Some c) n).
  assert (Ld : length d = n) by apply repeat_length.
  destruct (Nat.leb_spec n ms) as [L|L].
  - unfold set_small. set (g := splice (garbage ms) n [zero]).
    assert (Lg : length g = ms + 1) by (unfold g; rewrite splice_length; rewrite garbage_length; cbn; lia).
    assert (Hg : hold tz g (firstn n (garbage ms))) by (apply hold_end; rewrite garbage_length; lia).
    assert (Ln : length (firstn n (garbage ms)) = n) by (rewrite firstn_length, garbage_length; lia).
    pose proof (inv_small tz h R g _ I Lg Hg) as I'. rewrite Ln in I'.
    pose proof (poke_ok tz h R _ _ 0 d I' Logic.I ltac:(lia)) as X.
    now rewrite splice_all in X by lia.
  - unfold create. pose proof (Hgood n) as G.
    set (k := repeat None (good n + 1)).
    assert (Lk : length k = good n + 1) by apply repeat_length.
    rewrite fresh_write by (cbn [cells length]; lia). cbn [bind counted refs cells].
    assert (Ln : length (firstn n k) = n) by (rewrite firstn_length; lia).
    pose proof (inv_alloc tz h R (negb (n <=? mm)) _ _ I (hold_end tz k n ltac:(lia))) as I'.
    rewrite Ln in I'.
    match type of I' with Inv _ ?hh ((?s, _) :: _) =>
      assert (U : unique hh s) by (eapply unique_block; [apply nth_app_last|reflexivity]) end.
    pose proof (poke_ok tz _ R _ _ 0 d I' U ltac:(lia)) as X.
    rewrite splice_all in X by lia. exact X.
Qed.

Lemma copy_ok tz h R s l : Inv tz h ((s, l) :: R) -> gives tz ((s, l) :: R) (copy good s h) l.
Proof.
  intros I. destruct s as [c n|p n|p n]; cbn [copy].
  - destruct (inv_valid _ _ _ I _ _ (or_introl eq_refl)) as [Sz [Lc Ho]]. cbn [size] in Sz. subst n.
    eexists. eexists. split; [reflexivity|]. apply inv_small; assumption.
  - destruct (inv_valid _ _ _ I _ _ (or_introl eq_refl)) as [Sz _]. cbn [size] in Sz. subst n.
    pose proof (peek_ok _ _ _ _ _ 0 (length l) I (or_introl eq_refl) ltac:(lia)) as P. cbn [peek skipn] in P.
    rewrite P. cbn [bind]. rewrite firstn_all. apply gives1_gives. apply init_block_ok. exact I.
  - destruct (incref_ok _ _ _ _ _ _ I) as (h' & E & I'). rewrite E. cbn [bind]. exists (RLarge p n), h'. auto.
Qed.

(** Another owner of the same block *)
Lemma sharer tz h R p n l b : Inv tz h ((RLarge p n, l) :: R) -> nth_error h p = Some (Some b) ->
  1 < refs b -> In (RLarge p n, l) R.
Proof.
  intros I E H. destruct (inv_count _ _ _ I p b E) as (X & _). rewrite count_cons in X.
  cbn [owned] in X. rewrite Nat.eqb_refl in X.
  unfold count in X. destruct (filter (owns p) R) as [|[s l'] f] eqn:F; [cbn in X; lia|].
  assert (In (s, l') (filter (owns p) R)) as Y by (rewrite F; now left).
  apply filter_In in Y. destruct Y as [Y O]. unfold owns in O. cbn in O.
  destruct (owned s) as [q|] eqn:Os; [|discriminate]. apply Nat.eqb_eq in O. subst q.
  destruct (inv_live _ _ _ _ _ _ I (or_intror Y) Os) as (b1 & E1 & S1 & H1 & Sh1).
  destruct (inv_live _ _ _ _ _ _ I (or_introl eq_refl) eq_refl) as (b2 & E2 & S2 & H2 & Sh2).
  rewrite E in E1, E2. injection E1 as <-. injection E2 as <-.
  destruct (counted b) eqn:Cn; [|discriminate]. cbn in Sh1. cbn in S2. subst n.
  assert (Le : length l' = length l).
  { apply (inv_size _ _ _ I p (length l') l' (length l) l); [right; now rewrite <- Sh1|now left]. }
  assert (l' = l) as ->.
  { rewrite <- (hold_first _ _ _ H1), <- (hold_first _ _ _ H2). now rewrite Le. }
  now rewrite Sh1 in Y.
Qed.

(** Moving a string into a new block *)
Lemma move_block tz h R s l cnt k : Inv tz h ((s, l) :: R) -> length l <= k ->
  exists c, peek s h 0 (length l + 1) = Ok c /\ length c = length l + 1 /\
    forall c0, length c0 = k + 1 ->
    Inv tz (h ++ [Some (mkBlock cnt 1 (splice c0 0 c))])
        ((block_rep cnt (length h) (length l), l) :: (s, l) :: R).
Proof.
  intros I Lk.
  assert (exists c, peek s h 0 (length l + 1) = Ok (firstn (length l + 1) c) /\ hold tz c l) as (c & E & Ho).
  { destruct (inv_valid _ _ _ I _ _ (or_introl eq_refl)) as [Sz V].
    destruct s as [c n|p n|p n]; cbn [peek].
    - destruct V as [Lc Ho]. exists c. split; [|exact Ho]. destruct Ho as (L & _).
      destruct (Nat.leb_spec (0 + (length l + 1)) (length c)); [reflexivity|lia].
    - destruct V as (b & E & _ & Ho). exists (cells b). split; [|exact Ho]. destruct Ho as (L & _).
      unfold hread. rewrite (hget_live _ _ _ E). cbn [bind].
      destruct (Nat.leb_spec (0 + (length l + 1)) (length (cells b))); [reflexivity|lia].
    - destruct V as (b & E & _ & Ho). exists (cells b). split; [|exact Ho]. destruct Ho as (L & _).
      unfold hread. rewrite (hget_live _ _ _ E). cbn [bind].
      destruct (Nat.leb_spec (0 + (length l + 1)) (length (cells b))); [reflexivity|lia]. }
  exists (firstn (length l + 1) c). split; [exact E|]. split.
  - rewrite firstn_length. destruct Ho as (L & _). lia.
  - intros c0 L0. apply inv_alloc; [exact I|]. apply hold_copy; [exact Ho|lia].
Qed.

Lemma unshare_ok tz h R p n l min : Inv tz h ((RLarge p n, l) :: R) ->
  exists p' h', unshare good p n min h = Ok (RLarge p' n, h') /\ Inv tz h' ((RLarge p' n, l) :: R) /\
    unique h' (RLarge p' n) /\ room h' (RLarge p' n) min.
Proof.
  intros I. destruct (inv_live _ _ _ _ _ _ I (or_introl eq_refl) eq_refl) as (b & E & Sz & Ho & _).
  cbn [size] in Sz. subst n. unfold unshare. rewrite (hget_live _ _ _ E). cbn [bind]. unfold create.
  set (g := good (Nat.max min (length (cells b) - 1))).
  pose proof (Hgood (Nat.max min (length (cells b) - 1))) as G. fold g in G.
  pose proof Ho as (Lc & _). pose proof (live_lt _ _ _ E) as Lp.
  destruct (move_block tz h R _ l true g I ltac:(lia)) as (c & Rd & Lcc & Mv). cbn [peek] in Rd.
  rewrite fresh_read by exact Lp. rewrite Rd. cbn [bind].
  rewrite fresh_write by (cbn [cells]; rewrite repeat_length; lia). cbn [bind counted refs cells].
  pose proof (Mv (repeat None (g + 1)) (repeat_length _ _)) as I'. cbn [block_rep] in I'.
  apply inv_swap in I'. destruct (destroy_ok _ _ _ _ _ I') as (h' & D & I2). cbn [destroy] in D.
  rewrite D. cbn [bind]. exists (length h), h'. split; [reflexivity|]. split; [exact I2|].
  destruct (inv_live _ _ _ _ _ _ I2 (or_introl eq_refl) eq_refl) as (b2 & E2 & _).
  assert (N : p <> length h) by lia.
  assert (X : nth_error h' (length h) =
            Some (Some (mkBlock true 1 (splice (repeat None (g + 1)) 0 c)))).
  { unfold decref in D. match type of D with (bind ?t _) = _ => destruct t as [b0| | |] end; try discriminate.
    cbn [bind] in D. destruct (counted b0); [|discriminate].
    destruct (refs b0) as [|[|k]]; [discriminate| |]; injection D as <-;
      rewrite nth_lset_ne by exact N; apply nth_app_last. }
  cbn [unique room]. split; eexists; (split; [exact X|]); cbn [refs cells]; [reflexivity|].
  rewrite splice_length; rewrite repeat_length; lia.
Qed.

Lemma mutable_ok tz h R s l : Inv tz h ((s, l) :: R) -> gives1 tz R (mutable good s h) l.
Proof.
  intros I. destruct s as [c n|p n|p n]; cbn [mutable];
    try (eexists; eexists; split; [reflexivity|split; [exact I|exact Logic.I]]).
  destruct (inv_live _ _ _ _ _ _ I (or_introl eq_refl) eq_refl) as (b & E & _).
  rewrite (hget_live _ _ _ E). cbn [bind]. destruct (Nat.ltb_spec 1 (refs b)) as [H|H].
  - destruct (unshare_ok tz h R p n l 0 I) as (p' & h' & X & Y & Z & _).
    exists (RLarge p' n), h'. auto.
  - eexists; eexists; split; [reflexivity|split; [exact I|]]. exists b. split; [exact E|].
    destruct (inv_count _ _ _ I p b E). lia.
Qed.

Lemma mutable_own tz h R s l off n s' h' : Inv tz h ((s, l) :: R) -> off + n <= length l ->
  mutable good s h = Ok (s', h') -> Inv tz h' ((s', l) :: R) ->
  read (own s off) s' h' n = Ok (firstn n (skipn off l)).
Proof.
  intros I L M I'. destruct s as [c k|p k|p k]; cbn [mutable] in M.
  - injection M as <- <-. cbn [own read]. eapply peek_ok; [exact I|now left|exact L].
  - injection M as <- <-. cbn [own read].
    apply (peek_ok _ _ _ (RMedium p k) l off n I (or_introl eq_refl) L).
  - destruct (inv_live _ _ _ _ _ _ I (or_introl eq_refl) eq_refl) as (b & E & _).
    rewrite (hget_live _ _ _ E) in M. cbn [bind] in M. cbn [own read].
    destruct (Nat.ltb_spec 1 (refs b)) as [H|H].
    + pose proof (sharer _ _ _ _ _ _ _ I E H) as Sh.
      apply (peek_ok _ _ _ (RLarge p k) l off n I' (or_intror Sh) L).
    + injection M as <- <-. apply (peek_ok _ _ _ (RLarge p k) l off n I (or_introl eq_refl) L).
Qed.

Lemma room_le h s k k' : k <= k' -> room h s k' -> room h s k.
Proof.
  intros H. destruct s as [c n|p n|p n]; cbn; [lia| |]; intros (b & E & L); exists b; split; auto; lia.
Qed.

Lemma hold_grow tz c l k : hold tz c l -> length l <= k -> k < length c ->
  exists g, length g = k - length l /\ firstn k c = l ++ g.
Proof.
  intros Ho L1 L2. exists (skipn (length l) (firstn k c)).
  rewrite skipn_length, firstn_length. split; [lia|].
  rewrite <- (firstn_skipn (length l) (firstn k c)) at 1. f_equal.
  rewrite firstn_firstn, Nat.min_l by lia. eapply hold_first; eassumption.
Qed.

Lemma hold_cut tz c l k : hold tz c l -> k <= length l -> firstn k c = firstn k l.
Proof. intros Ho L. apply (hold_sub tz c l 0 k Ho). lia. Qed.

(** Setting the size of a string in a block *)
Lemma set_size_ok tz h R s l p b k : Inv tz h ((s, l) :: R) -> owned s = Some p ->
  nth_error h p = Some (Some b) -> unique h s -> k < length (cells b) ->
  gives1 tz R (set_size s k h) (firstn k (cells b)).
Proof.
  intros I O E U L.
  destruct (inv_live _ _ _ _ _ _ I (or_introl eq_refl) O) as (b1 & E1 & Sz & Ho & Sh).
  rewrite E in E1. injection E1 as <-.
  assert (R1 : refs b = 1).
  { destruct (counted b) eqn:Cn.
    - rewrite Sh in U. destruct U as (b1 & E1 & X). congruence.
    - now apply (inv_count _ _ _ I p b E). }
  assert (W : hwrite h p k [zero] = Ok (lset h p (Some (mkBlock (counted b) 1 (splice (cells b) k [zero]))))).
  { unfold hwrite. rewrite (hget_live _ _ _ E). cbn [bind length].
    destruct (Nat.leb_spec (k + 1) (length (cells b))); [|lia]. now rewrite R1. }
  pose proof (inv_write tz h R s l p b _ _ I O E R1 (hold_end tz (cells b) k L)) as I'.
  replace (length (firstn k (cells b))) with k in I' by (rewrite firstn_length; lia).
  exists (block_rep (counted b) p k). eexists. split; [|split; [exact I'|]].
  - rewrite Sh. destruct (counted b); cbn [set_size block_rep]; rewrite W; reflexivity.
  - eapply unique_block; [apply nth_lset_eq; now apply live_lt in E|reflexivity].
Qed.

Lemma set_size_grow tz h R s l k : Inv tz h ((s, l) :: R) -> owned s <> None ->
  unique h s -> room h s k -> length l <= k ->
  exists g, length g = k - length l /\ gives1 tz R (set_size s k h) (l ++ g).
Proof.
  intros I O U Rm L. destruct (owned s) as [p|] eqn:Os; [clear O|congruence].
  destruct (inv_live _ _ _ _ _ _ I (or_introl eq_refl) Os) as (b & E & Sz & Ho & Sh).
  assert (Lk : k < length (cells b)).
  { rewrite Sh in Rm. destruct (counted b); cbn in Rm; destruct Rm as (b1 & E1 & X);
      rewrite E in E1; injection E1 as <-; exact X. }
  destruct (hold_grow _ _ _ k Ho L Lk) as (g & Lg & Eg). exists g. split; [exact Lg|].
  rewrite <- Eg. eapply set_size_ok; eassumption.
Qed.

Lemma set_size_cut tz h R s l k : Inv tz h ((s, l) :: R) -> owned s <> None ->
  unique h s -> k <= length l -> gives1 tz R (set_size s k h) (firstn k l).
Proof.
  intros I O U L. destruct (owned s) as [p|] eqn:Os; [clear O|congruence].
  destruct (inv_live _ _ _ _ _ _ I (or_introl eq_refl) Os) as (b & E & Sz & Ho & Sh).
  rewrite <- (hold_cut _ _ _ k Ho L). pose proof Ho as (Lc & _).
  eapply set_size_ok; try eassumption. lia.
Qed.

(** ** Capacity *)

Definition reserved (tz : bool) (R : owners) (r : res (rep * heap)) (l : list (option Z)) (k : nat)
    (blk : Prop) : Prop :=
  exists s h, r = Ok (s, h) /\ Inv tz h ((s, l) :: R) /\ unique h s /\ room h s k /\
              (blk -> owned s <> None).

Lemma owned_block cnt p n : owned (block_rep cnt p n) = Some p.
Proof. destruct cnt; reflexivity. Qed.
Lemma room_block h cnt p n k b : nth_error h p = Some (Some b) -> k < length (cells b) ->
  room h (block_rep cnt p n) k.
Proof. intros E L. destruct cnt; cbn; eauto. Qed.

Lemma reserve_small_ok tz h R c n l min : Inv tz h ((RSmall c n, l) :: R) ->
  reserved tz R (reserve_small ms mm good c n min h) l min (ms < min).
Proof.
  intros I. destruct (inv_valid _ _ _ I _ _ (or_introl eq_refl)) as [Sz [Lc Ho]].
  cbn [size] in Sz. subst n. pose proof Ho as (Ll & _). unfold reserve_small.
  destruct (Nat.leb_spec min ms) as [L|L].
  - eexists. eexists. split; [reflexivity|]. split; [exact I|]. split; [exact Logic.I|].
    split; [exact L|]. lia.
  - unfold create. pose proof (Hgood min) as G.
    destruct (move_block tz h R _ l (negb (min <=? mm)) (good min) I ltac:(lia)) as (d & Rd & Ld & Mv).
    replace (peek (RSmall c (length l)) (h ++ _) 0 (length l + 1)) with
      (peek (RSmall c (length l)) h 0 (length l + 1)) by reflexivity.
    rewrite Rd. cbn [bind].
    rewrite fresh_write by (cbn [cells]; rewrite repeat_length; lia). cbn [bind counted refs cells].
    exists (block_rep (negb (min <=? mm)) (length h) (length l)). eexists. split; [reflexivity|].
    split.
    + eapply inv_drop_small, inv_swap. apply Mv. apply repeat_length.
    + split; [eapply unique_block; [apply nth_app_last|reflexivity]|]. split.
      * eapply room_block; [apply nth_app_last|]. cbn [cells].
        rewrite splice_length; rewrite repeat_length; lia.
      * intros _. rewrite owned_block. discriminate.
Qed.

(** A move to a new block of the same kind *)
Lemma reallocate_ok tz h R cnt p n l b new : Inv tz h ((block_rep cnt p n, l) :: R) ->
  nth_error h p = Some (Some b) -> refs b = 1 -> length l <= new ->
  exists p' h', reallocate good cnt p n new h = Ok (p', h') /\
    Inv tz h' ((block_rep cnt p' n, l) :: R) /\
    unique h' (block_rep cnt p' n) /\ room h' (block_rep cnt p' n) new.
Proof.
  intros I E R1 L. pose proof (live_lt _ _ _ E) as Lp.
  destruct (inv_live _ _ _ _ _ _ I (or_introl eq_refl) (owned_block _ _ _)) as (b1 & E1 & Sz & Ho & Sh).
  rewrite E in E1. injection E1 as <-.
  assert (Sn : size (block_rep cnt p n) = n) by (destruct cnt; reflexivity).
  rewrite Sn in Sz. subst n.
  assert (Cn : counted b = cnt) by (destruct (counted b), cnt; try reflexivity; discriminate).
  unfold reallocate, create. pose proof (Hgood new) as G.
  destruct (move_block tz h R _ l cnt (good new) I ltac:(lia)) as (d & Rd & Ld & Mv).
  assert (Rd' : hread h p 0 (length l + 1) = Ok d) by (destruct cnt; exact Rd).
  rewrite fresh_read by exact Lp. rewrite Rd'. cbn [bind].
  rewrite fresh_write by (cbn [cells]; rewrite repeat_length; lia). cbn [bind counted refs cells].
  pose proof (Mv (repeat None (good new + 1)) (repeat_length _ _)) as I'. apply inv_swap in I'.
  destruct (destroy_ok _ _ _ _ _ I') as (h' & D & I2).
  assert (h' = lset (h ++ [Some (mkBlock cnt 1 (splice (repeat None (good new + 1)) 0 d))]) p None) as ->.
  { destruct cnt; cbn [destroy block_rep] in D; unfold decref, release in D;
      rewrite (hget_live _ _ b) in D by (now apply nth_app_old); cbn [bind] in D; rewrite Cn in D;
      rewrite ?R1 in D; now injection D. }
  exists (length h). eexists. split; [reflexivity|]. split; [exact I2|].
  assert (N : p <> length h) by lia.
  split.
  - eapply unique_block; [rewrite nth_lset_ne by exact N; apply nth_app_last|reflexivity].
  - eapply room_block; [rewrite nth_lset_ne by exact N; apply nth_app_last|]. cbn [cells].
    rewrite splice_length; rewrite repeat_length; lia.
Qed.

Lemma reserve_medium_ok tz h R p n l min : Inv tz h ((RMedium p n, l) :: R) ->
  reserved tz R (reserve_medium ms mm good p n min h) l min True.
Proof.
  intros I. destruct (inv_live _ _ _ _ _ _ I (or_introl eq_refl) eq_refl) as (b & E & Sz & Ho & Sh).
  cbn [size] in Sz. subst n. pose proof (live_lt _ _ _ E) as Lp. pose proof Ho as (Lc & _).
  assert (Cn : counted b = false) by (destruct (counted b); [discriminate|reflexivity]).
  assert (R1 : refs b = 1) by now apply (inv_count _ _ _ I p b E).
  unfold reserve_medium. rewrite (hget_live _ _ _ E). cbn [bind].
  destruct (Nat.leb_spec min (length (cells b) - 1)) as [L|L].
  - eexists. eexists. split; [reflexivity|]. split; [exact I|]. split; [exact Logic.I|].
    split; [|discriminate]. exists b. split; [exact E|lia].
  - destruct (Nat.leb_spec min mm) as [L'|L'].
    + destruct (reallocate_ok tz h R false p _ l b min I E R1 ltac:(lia)) as (p' & h' & X & Y & Z & W).
      rewrite X. cbn [bind]. eexists. eexists. split; [reflexivity|]. split; [exact Y|].
      split; [exact Z|]. split; [exact W|discriminate].
    + unfold reserve_small. destruct (Nat.leb_spec min ms); [lia|].
      replace (min <=? mm) with false by (symmetry; now apply Nat.leb_gt). cbn [negb].
      unfold create. pose proof (Hgood min) as G. cbn [peek Nat.add].
      set (g := repeat None (good min + 1)).
      assert (Lg : length g = good min + 1) by apply repeat_length.
      assert (Z : exists z, firstn 1 (skipn 0 (splice (garbage ms) 0 [zero])) = z /\ length z = 1).
      { eexists. split; [reflexivity|]. reflexivity. }
      destruct Z as (z & Ez & Lz).
      destruct (Nat.leb_spec 1 (length (splice (garbage ms) 0 [zero]))) as [_|X].
      2: { rewrite splice_length in X; rewrite garbage_length in *; cbn [length] in *; lia. }
      rewrite Ez. cbn [bind].
      rewrite fresh_write by (cbn [cells]; lia). cbn [bind counted refs cells].
      destruct (move_block tz h R _ l true (good min) I ltac:(lia)) as (d & Rd & Ld & Mv).
      cbn [peek] in Rd. rewrite fresh_read by exact Lp. rewrite Rd. cbn [bind].
      assert (Lz' : length (splice g 0 z) = good min + 1) by (rewrite splice_length; lia).
      rewrite fresh_write by (cbn [cells]; lia). cbn [bind counted refs cells].
      pose proof (Mv (splice g 0 z) Lz') as I'. apply inv_swap in I'.
      destruct (destroy_ok _ _ _ _ _ I') as (h' & D & I2). cbn [destroy] in D. rewrite D. cbn [bind].
      eexists. eexists. split; [reflexivity|]. split; [exact I2|].
      assert (N : p <> length h) by lia.
      unfold release in D. rewrite (hget_live _ _ b) in D by (now apply nth_app_old).
      cbn [bind] in D. rewrite Cn in D. injection D as <-.
      split; [|split; [|discriminate]].
      * eexists. rewrite nth_lset_ne by exact N. split; [apply nth_app_last|reflexivity].
      * eexists. rewrite nth_lset_ne by exact N. split; [apply nth_app_last|]. cbn [cells].
        rewrite splice_length; lia.
Qed.

Lemma reserve_large_ok tz h R p n l min : Inv tz h ((RLarge p n, l) :: R) ->
  reserved tz R (reserve_large good p n min h) l min True.
Proof.
  intros I. destruct (inv_live _ _ _ _ _ _ I (or_introl eq_refl) eq_refl) as (b & E & Sz & Ho & Sh).
  pose proof (live_lt _ _ _ E) as Lp. pose proof Ho as (Lc & _).
  unfold reserve_large. rewrite (hget_live _ _ _ E). cbn [bind].
  destruct (Nat.ltb_spec 1 (refs b)) as [H|H].
  - destruct (unshare_ok tz h R p n l min I) as (p' & h' & X & Y & Z & W).
    rewrite X. eexists. eexists. split; [reflexivity|]. split; [exact Y|].
    split; [exact Z|]. split; [exact W|discriminate].
  - assert (R1 : refs b = 1) by (destruct (inv_count _ _ _ I p b E); lia).
    destruct (Nat.ltb_spec (length (cells b) - 1) min) as [L|L].
    + destruct (reallocate_ok tz h R true p n l b min I E R1 ltac:(lia)) as (p' & h' & X & Y & Z & W).
      rewrite X. cbn [bind]. eexists. eexists. split; [reflexivity|]. split; [exact Y|].
      split; [exact Z|]. split; [exact W|discriminate].
    + eexists. eexists. split; [reflexivity|]. split; [exact I|].
      split; [|split; [|discriminate]]; exists b; (split; [exact E|]); [exact R1|lia].
Qed.

Lemma reserve_ok tz h R s l min : Inv tz h ((s, l) :: R) ->
  reserved tz R (reserve ms mm good s min h) l min (owned s <> None).
Proof.
  intros I. destruct s as [c n|p n|p n]; cbn [reserve].
  - destruct (reserve_small_ok _ _ _ _ _ _ min I) as (s & h' & A & B & C & D & _).
    exists s, h'. split; [exact A|]. split; [exact B|]. split; [exact C|]. split; [exact D|].
    intros X. now destruct X.
  - destruct (reserve_medium_ok _ _ _ _ _ _ min I) as (s & h' & A & B & C & D & F).
    exists s, h'. auto 6.
  - destruct (reserve_large_ok _ _ _ _ _ _ min I) as (s & h' & A & B & C & D & F).
    exists s, h'. auto 6.
Qed.

Lemma reserve_gives tz h R s l min : Inv tz h ((s, l) :: R) -> gives1 tz R (reserve ms mm good s min h) l.
Proof. intros I. destruct (reserve_ok _ _ _ _ _ min I) as (s' & h' & A & B & C & _). exists s', h'. auto. Qed.

Lemma expand_ok tz h R s l delta exp : Inv tz h ((s, l) :: R) ->
  exists g s' h', length g = delta /\ expand ms mm good s delta exp h = Ok (s', h') /\
    Inv tz h' ((s', l ++ g) :: R) /\ (0 < delta -> unique h' s').
Proof.
  intros I. destruct (inv_valid _ _ _ I _ _ (or_introl eq_refl)) as [Sz V].
  destruct (owned s) as [p|] eqn:O.
  - destruct (inv_live _ _ _ _ _ _ I (or_introl eq_refl) O) as (b & E & _ & Ho & Sh).
    pose proof Ho as (Lc & _).
    assert (X : expand ms mm good s delta exp h =
      let new := size s + delta in
      let! cap := capacity ms s h in
      let! (s, h) := if cap <? new
                      then reserve ms mm good s (if exp then Nat.max new (1 + cap * 3 / 2) else new) h
                      else Ok (s, h) in
      set_size s new h) by (destruct s; [discriminate|reflexivity|reflexivity]).
    rewrite X. clear X. cbv zeta. rewrite Sz.
    assert (Cap : exists cap, capacity ms s h = Ok cap /\ length l <= cap /\
               (length l < cap -> cap < length (cells b) /\ unique h s)).
    { rewrite Sh. destruct (counted b); cbn [block_rep capacity]; rewrite (hget_live _ _ _ E); cbn [bind];
        eexists; (split; [reflexivity|]).
      - destruct (Nat.ltb_spec 1 (refs b)) as [H|H]; (split; [lia|]); [lia|].
        intros _. split; [lia|]. exists b. split; [exact E|].
        destruct (inv_count _ _ _ I p b E); lia.
      - split; [lia|]. intros _. split; [lia|exact Logic.I]. }
    destruct Cap as (cap & -> & C1 & C2). cbn [bind].
    destruct (Nat.ltb_spec cap (length l + delta)) as [H|H].
    + destruct (reserve_ok tz h R s l (if exp then Nat.max (length l + delta) (1 + cap * 3 / 2)
                                       else length l + delta) I) as (s' & h' & A & B & C & D & F).
      rewrite A. cbn [bind].
      destruct (set_size_grow tz h' R s' l (length l + delta) B (F ltac:(congruence)) C) as (g & Lg & s2 & h2 & G1 & G2 & G3);
        [eapply room_le; [|exact D]; destruct exp; lia|lia|].
      exists g, s2, h2. split; [lia|auto].
    + destruct (Nat.eq_dec delta 0) as [->|N].
      * rewrite Nat.add_0_r. cbn [bind]. exists [], s. eexists. split; [reflexivity|].
        rewrite app_nil_r. split; [|split; [exact (inv_term tz h R s l p b I O E)|lia]].
        assert (W : hwrite h p (length l) [zero] = Ok (lset h p (Some (mkBlock (counted b) (refs b)
                      (splice (cells b) (length l) [zero]))))).
        { unfold hwrite. rewrite (hget_live _ _ _ E). cbn [bind length].
          destruct (Nat.leb_spec (length l + 1) (length (cells b))); [reflexivity|lia]. }
        rewrite Sh. destruct (counted b); cbn [set_size block_rep]; rewrite W; reflexivity.
      * destruct (C2 ltac:(lia)) as [C3 U]. cbn [bind].
        destruct (set_size_grow tz h R s l (length l + delta) I ltac:(congruence) U) as (g & Lg & s2 & h2 & G1 & G2 & G3);
          [rewrite Sh; eapply room_block; [exact E|lia]|lia|].
        exists g, s2, h2. split; [lia|auto].
  - destruct s as [c n|q n|q n]; try discriminate. cbn [size] in Sz. subst n.
    destruct V as [Lc Ho]. cbn [expand size].
    destruct (Nat.leb_spec (length l + delta) ms) as [L|L].
    + destruct (hold_grow tz c l (length l + delta) Ho ltac:(lia) ltac:(lia)) as (g & Lg & Eg).
      exists g. eexists. eexists. split; [lia|]. split; [reflexivity|]. split; [|intros _; exact Logic.I].
      unfold set_small. rewrite <- Eg. apply inv_drop_small in I.
      replace (length l + delta) with (length (firstn (length l + delta) c)) at 2
        by (rewrite firstn_length; lia).
      apply inv_small; [exact I| |apply hold_end; lia]. rewrite splice_length; cbn [length]; lia.
    + destruct (reserve_small_ok tz h R c (length l) l
                 (if exp then Nat.max (length l + delta) (2 * ms) else length l + delta) I)
        as (s' & h' & A & B & C & D & F).
      rewrite A. cbn [bind].
      assert (Bl : owned s' <> None) by (apply F; destruct exp; lia).
      destruct (set_size_grow tz h' R s' l (length l + delta) B Bl C) as (g & Lg & s2 & h2 & G1 & G2 & G3);
        [eapply room_le; [|exact D]; destruct exp; lia|lia|].
      exists g, s2, h2. split; [lia|auto].
Qed.

Lemma shrink_ok tz h R s l delta : Inv tz h ((s, l) :: R) -> delta <= length l ->
  gives tz R (shrink ms mm good s delta h) (firstn (length l - delta) l).
Proof.
  intros I L. destruct (inv_valid _ _ _ I _ _ (or_introl eq_refl)) as [Sz V].
  unfold shrink. rewrite Sz. destruct (Nat.ltb_spec (length l) delta); [lia|].
  destruct s as [c n|p n|p n]; cbn [size] in Sz; subst n.
  - destruct V as [Lc Ho]. eexists. eexists. split; [reflexivity|]. unfold set_small.
    pose proof Ho as (L1 & _).
    rewrite <- (hold_cut _ _ _ _ Ho) by lia. apply inv_drop_small in I.
    replace (length l - delta) with (length (firstn (length l - delta) c)) at 2
      by (rewrite firstn_length; lia).
    apply inv_small; [exact I| |apply hold_end; lia]. rewrite splice_length; cbn [length]; lia.
  - apply gives1_gives. apply set_size_cut; [exact I|discriminate|exact Logic.I|lia].
  - destruct V as (b & E & Cn & Ho). rewrite (hget_live _ _ _ E). cbn [bind].
    destruct (Nat.eqb_spec (refs b) 1) as [R1|R1].
    + apply gives1_gives. apply set_size_cut; [exact I|discriminate|exists b; auto|lia].
    + destruct (Nat.eqb_spec delta 0) as [->|N].
      * rewrite Nat.sub_0_r, firstn_all. eexists. eexists. split; [reflexivity|exact I].
      * pose proof (peek_ok tz h _ _ l 0 (length l - delta) I (or_introl eq_refl) ltac:(lia)) as P.
        cbn [peek skipn] in P. rewrite P. cbn [bind].
        destruct (make_ok tz h _ (firstn (length l - delta) l) I) as (t & h' & A & B & _).
        rewrite A. cbn [bind]. apply inv_swap in B.
        destruct (destroy_ok _ _ _ _ _ B) as (h2 & D & I2). rewrite D. cbn [bind].
        exists t, h2. auto.
Qed.

(** ** Modifiers *)

(** Characters that are there whatever happens to the string being modified *)
Definition steady (tz : bool) (R : owners) (src : source) (n : nat) (d : list (option Z)) : Prop :=
  forall h s l, Inv tz h ((s, l) :: R) -> read src s h n = Ok d.

Lemma steady_other tz R t lt off n h0 x0 : Inv tz h0 (x0 :: R) -> In (t, lt) R -> off + n <= length lt ->
  steady tz R (of_other t off) n (firstn n (skipn off lt)).
Proof.
  intros I0 H L h s l I. pose proof (peek_ok _ _ _ _ _ off n I (or_intror H) L) as P.
  destruct t as [c k|p k|p k]; exact P.
Qed.

Lemma steady_mem tz R l : steady tz R (SMem l 0) (length l) l.
Proof.
  intros h s k _. cbn [read]. destruct (Nat.leb_spec (0 + length l) (length l)); [|lia].
  cbn [skipn]. now rewrite firstn_all.
Qed.

Lemma become_ok tz h R s l t lt : Inv tz h ((t, lt) :: (s, l) :: R) -> gives tz R (become t s h) lt.
Proof.
  intros I. apply inv_swap in I. destruct (destroy_ok _ _ _ _ _ I) as (h' & D & I').
  unfold become. rewrite D. cbn [bind]. exists t, h'. auto.
Qed.

Lemma splice_mid a x y d : length x = length d -> splice (a ++ x ++ y) (length a) d = a ++ d ++ y.
Proof.
  intros E. unfold splice. rewrite firstn_app, Nat.sub_diag, firstn_O, app_nil_r, firstn_all.
  f_equal. f_equal. rewrite skipn_app. rewrite skipn_all2 by lia. cbn [app].
  replace (length a + length d - length a) with (length x) by lia.
  rewrite skipn_app, skipn_all2, Nat.sub_diag by lia. reflexivity.
Qed.

Lemma splice_end a x d : length x = length d -> splice (a ++ x) (length a) d = a ++ d.
Proof. intros E. pose proof (splice_mid a x [] d E) as H. now rewrite !app_nil_r in H. Qed.

Lemma splice_front x y d : length x = length d -> splice (x ++ y) 0 d = d ++ y.
Proof. intros E. exact (splice_mid [] x y d E). Qed.

Lemma firstn_app_l {A} (a b : list A) n : n = length a -> firstn n (a ++ b) = a.
Proof. intros ->. rewrite firstn_app, Nat.sub_diag, firstn_O, app_nil_r. apply firstn_all. Qed.
Lemma skipn_app_l {A} (a b : list A) n : n = length a -> skipn n (a ++ b) = b.
Proof. intros ->. rewrite skipn_app, skipn_all, Nat.sub_diag. reflexivity. Qed.

Lemma sub_app_l {A} (a b : list A) off n : off + n <= length a ->
  firstn n (skipn off (a ++ b)) = firstn n (skipn off a).
Proof.
  intros L. rewrite skipn_app, firstn_app, skipn_length.
  replace (n - (length a - off)) with 0 by lia. rewrite firstn_O. apply app_nil_r.
Qed.

Lemma assign_ok tz h R s l src n d : Inv tz h ((s, l) :: R) -> length d = n ->
  steady tz R src n d \/
  (exists off, src = own s off /\ off + n <= length l /\ d = firstn n (skipn off l)) ->
  gives tz R (assign ms mm good s src n h) d.
Proof.
  intros I Ld Src. destruct (inv_valid _ _ _ I _ _ (or_introl eq_refl)) as [Sz V]. unfold assign.
  destruct (Nat.eqb_spec n 0) as [->|N].
  - destruct d; [|discriminate]. rewrite Sz. replace (@nil (option Z)) with (firstn (length l - length l) l)
      by (now rewrite Nat.sub_diag). now apply shrink_ok.
  - rewrite Sz. destruct (Nat.leb_spec n (length l)) as [L|L].
    + destruct (mutable_ok _ _ _ _ _ I) as (s' & h' & M & I' & U). rewrite M. cbn [bind].
      assert (Rd : read src s' h' n = Ok d).
      { destruct Src as [St|(off & -> & Lo & ->)]; [now apply (St h' s' l)|].
        now apply (mutable_own tz h R s l). }
      rewrite Rd. cbn [bind].
      destruct (poke_ok tz h' R s' l 0 d I' U ltac:(lia)) as (s2 & h2 & P & I2 & U2).
      rewrite P. cbn [bind].
      destruct (inv_valid _ _ _ I2 _ _ (or_introl eq_refl)) as [Sz2 _].
      assert (Ls : length (splice l 0 d) = length l) by (apply splice_length; lia).
      assert (Ed : d = firstn (length (splice l 0 d) - (length (splice l 0 d) - n)) (splice l 0 d)).
      { rewrite Ls. replace (length l - (length l - n)) with n by lia. unfold splice. cbn [firstn app].
        now rewrite firstn_app_l. }
      rewrite Ed at 1. rewrite Sz2. apply shrink_ok; [exact I2|lia].
    + assert (St : steady tz R src n d).
      { destruct Src as [St|(off & _ & Lo & _)]; [exact St|lia]. }
      clear Src.
      assert (Sh : exists b, is_shared s h = Ok b) .
      { destruct s as [c k|p k|p k]; cbn [is_shared]; eauto.
        destruct V as (b & E & _). rewrite (hget_live _ _ _ E). cbn [bind]. eauto. }
      destruct Sh as (sh & ->). cbn [bind]. destruct sh.
      * rewrite (St h s l I). cbn [bind].
        destruct (make_ok tz h _ d I) as (t & h' & A & B & _). rewrite A. cbn [bind].
        now apply (become_ok tz h' R s l).
      * destruct (expand_ok tz h R s l (n - length l) false I) as (g & s' & h' & Lg & X & I' & U).
        rewrite X. cbn [bind]. rewrite (St h' s' _ I'). cbn [bind].
        apply gives1_gives.
        replace d with (splice (l ++ g) 0 d) at 2 by (apply splice_all; rewrite app_length; lia).
        apply poke_ok; [exact I'|apply U; lia|rewrite app_length; lia].
Qed.

Lemma append_ok tz h R s l src n d : Inv tz h ((s, l) :: R) -> length d = n ->
  (forall off, inside src s = Some off -> off + n <= length l /\ d = firstn n (skipn off l)) ->
  (inside src s = None -> n <> 0 -> steady tz R src n d) ->
  gives tz R (append ms mm good s src n h) (l ++ d).
Proof.
  intros I Ld H1 H2. destruct (inv_valid _ _ _ I _ _ (or_introl eq_refl)) as [Sz _]. unfold append.
  destruct (Nat.eqb_spec n 0) as [->|N].
  - destruct d; [|discriminate]. rewrite app_nil_r. exists s, h. auto.
  - rewrite Sz. destruct (expand_ok tz h R s l n true I) as (g & s' & h' & Lg & X & I' & U).
    rewrite X. cbn [bind].
    assert (Rd : match inside src s with Some off => peek s' h' off n | None => read src s' h' n end = Ok d).
    { destruct (inside src s) as [off|] eqn:Al.
      - destruct (H1 off eq_refl) as [Lo ->]. rewrite <- (sub_app_l l g) by exact Lo.
        eapply peek_ok; [exact I'|now left|rewrite app_length; lia].
      - now apply (H2 eq_refl N h' s' (l ++ g)). }
    rewrite Rd. cbn [bind]. apply gives1_gives.
    rewrite <- (splice_end l g d) by lia. apply poke_ok; [exact I'|apply U; lia|rewrite app_length; lia].
Qed.

(** Appending part of the string itself, of another one, or what lies elsewhere *)
Lemma append_own tz h R s l off n : Inv tz h ((s, l) :: R) -> off + n <= length l ->
  gives tz R (append ms mm good s (own s off) n h) (l ++ firstn n (skipn off l)).
Proof.
  intros I L. destruct (inv_valid _ _ _ I _ _ (or_introl eq_refl)) as [Sz _].
  assert (Ld : length (firstn n (skipn off l)) = n) by (rewrite firstn_length, skipn_length; lia).
  apply append_ok; [exact I|exact Ld| |].
  - intros off' Al. assert (off' = off) as ->; [|auto].
    destruct s as [c k|p k|p k]; cbn [own inside] in Al; rewrite ?Nat.eqb_refl in Al; cbn [andb] in Al;
      destruct (off <? k); try discriminate; now injection Al.
  - intros Al N. exfalso.
    destruct s as [c k|p k|p k]; cbn [own inside size] in *; rewrite ?Nat.eqb_refl in Al; cbn [andb] in Al;
      destruct (Nat.ltb_spec off k); try discriminate; lia.
Qed.

Lemma append_other tz h R s l t lt off n : Inv tz h ((s, l) :: R) -> In (t, lt) R -> off + n <= length lt ->
  gives tz R (append ms mm good s (of_other t off) n h) (l ++ firstn n (skipn off lt)).
Proof.
  intros I H L.
  assert (Ld : length (firstn n (skipn off lt)) = n) by (rewrite firstn_length, skipn_length; lia).
  apply append_ok; [exact I|exact Ld| |].
  - intros off' Al.
    (* both in the same block: the same characters *)
    destruct (owned t) as [p|] eqn:Ot; [|destruct t; discriminate].
    assert (Et : of_other t off = SBlock p off).
    { destruct t as [c k|q k|q k]; [discriminate| |]; injection Ot as ->; reflexivity. }
    rewrite Et in Al.
    assert (Os : owned s = Some p /\ off' = off).
    { destruct s as [c k|q k|q k]; [discriminate| |]; cbn [inside] in Al;
        destruct (Nat.eqb_spec p q) as [Epq|]; cbn [andb] in Al; try discriminate;
        destruct (off <? k); try discriminate; injection Al as <-; cbn [owned]; split; congruence. }
    destruct Os as [Os ->].
    destruct (inv_live _ _ _ _ _ _ I (or_introl eq_refl) Os) as (b & E & Sz & Ho & Sh).
    destruct (inv_live _ _ _ _ _ _ I (or_intror H) Ot) as (b1 & E1 & Sz1 & Ho1 & Sh1).
    rewrite E in E1. injection E1 as <-.
    destruct (counted b) eqn:Cn.
    + cbn [block_rep] in Sh, Sh1.
      assert (Le : length lt = length l).
      { apply (inv_size _ _ _ I p _ lt _ l); [right; now rewrite <- Sh1|left; now rewrite <- Sh]. }
      assert (lt = l) as ->; [|auto].
      rewrite <- (hold_first _ _ _ Ho), <- (hold_first _ _ _ Ho1). now rewrite Le.
    + exfalso. destruct (inv_count _ _ _ I p b E) as (X & _ & Y). specialize (Y Cn).
      rewrite count_cons, Os, Nat.eqb_refl in X. pose proof (count_in p t lt R H Ot). lia.
  - intros _ _. eapply steady_other; eassumption.
Qed.

Lemma append_mem tz h R s l d : Inv tz h ((s, l) :: R) ->
  gives tz R (append ms mm good s (SMem d 0) (length d) h) (l ++ d).
Proof.
  intros I. apply append_ok; [exact I|reflexivity| |].
  - intros off Al. destruct s; discriminate.
  - intros _ _. apply steady_mem.
Qed.

Lemma append_fill_ok tz h R s l n c : Inv tz h ((s, l) :: R) ->
  gives tz R (append_fill ms mm good s n c h) (l ++ repeat (Some c) n).
Proof.
  intros I. destruct (inv_valid _ _ _ I _ _ (or_introl eq_refl)) as [Sz _]. unfold append_fill. rewrite Sz.
  destruct (expand_ok tz h R s l n true I) as (g & s' & h' & Lg & X & I' & U).
  rewrite X. cbn [bind].
  assert (Lr : length (repeat (Some c) n) = n) by apply repeat_length.
  destruct (Nat.eq_dec n 0) as [->|N].
  - destruct g; [|discriminate]. cbn [repeat]. rewrite app_nil_r in I' |- *.
    (* a write of nothing *)
    destruct (inv_valid _ _ _ I' _ _ (or_introl eq_refl)) as [Sz' V'].
    destruct s' as [c' k|p k|p k]; cbn [poke].
    + cbn [length]. destruct V' as [Lc (L1 & _)].
      destruct (Nat.leb_spec (length l + 0) (length c')); [|lia].
      assert (Es : splice c' (length l) [] = c').
      { unfold splice. cbn [length app]. rewrite Nat.add_0_r. apply firstn_skipn. }
      rewrite Es. eexists. eexists. split; [reflexivity|exact I'].
    + destruct V' as (b & E & Cn & (L1 & _)). unfold hwrite. rewrite (hget_live _ _ _ E). cbn [bind length].
      destruct (Nat.leb_spec (length l + 0) (length (cells b))); [|lia].
      assert (Es : splice (cells b) (length l) [] = cells b).
      { unfold splice. cbn [length app]. rewrite Nat.add_0_r. apply firstn_skipn. }
      rewrite Es. cbn [bind]. replace (mkBlock (counted b) (refs b) (cells b)) with b by (now destruct b).
      rewrite lset_same by exact E. eexists. eexists. split; [reflexivity|exact I'].
    + destruct V' as (b & E & Cn & (L1 & _)). unfold hwrite. rewrite (hget_live _ _ _ E). cbn [bind length].
      destruct (Nat.leb_spec (length l + 0) (length (cells b))); [|lia].
      assert (Es : splice (cells b) (length l) [] = cells b).
      { unfold splice. cbn [length app]. rewrite Nat.add_0_r. apply firstn_skipn. }
      rewrite Es. cbn [bind]. replace (mkBlock (counted b) (refs b) (cells b)) with b by (now destruct b).
      rewrite lset_same by exact E. eexists. eexists. split; [reflexivity|exact I'].
  - apply gives1_gives. rewrite <- (splice_end l g) by lia.
    apply poke_ok; [exact I'|apply U; lia|rewrite app_length; lia].
Qed.

Lemma resize_ok tz h R s l n c : Inv tz h ((s, l) :: R) ->
  gives tz R (resize ms mm good s n c h) (firstn n l ++ repeat (Some c) (n - length l)).
Proof.
  intros I. destruct (inv_valid _ _ _ I _ _ (or_introl eq_refl)) as [Sz _]. unfold resize. rewrite Sz.
  destruct (Nat.leb_spec n (length l)) as [L|L].
  - replace (n - length l) with 0 by lia. cbn [repeat]. rewrite app_nil_r.
    replace n with (length l - (length l - n)) at 2 by lia. apply shrink_ok; [exact I|lia].
  - rewrite firstn_all2 by lia.
    destruct (expand_ok tz h R s l (n - length l) false I) as (g & s' & h' & Lg & X & I' & U).
    rewrite X. cbn [bind]. apply gives1_gives.
    assert (Lr : length (repeat (Some c) (n - length l)) = n - length l) by apply repeat_length.
    rewrite <- (splice_end l g) by lia. apply poke_ok; [exact I'|apply U; lia|rewrite app_length; lia].
Qed.

Lemma shrink_to_fit_ok tz h R s l : Inv tz h ((s, l) :: R) ->
  gives tz R (shrink_to_fit ms mm good s h) l.
Proof.
  intros I. destruct (inv_valid _ _ _ I _ _ (or_introl eq_refl)) as [Sz V]. unfold shrink_to_fit.
  assert (Cap : exists cap, capacity ms s h = Ok cap).
  { destruct s as [c k|p k|p k]; cbn [capacity]; eauto; destruct V as (b & E & _);
      rewrite (hget_live _ _ _ E); cbn [bind]; eauto. }
  destruct Cap as (cap & ->). cbn [bind]. destruct (cap <? size s * 3 / 2).
  - exists s, h. auto.
  - rewrite Sz. rewrite (peek_ok tz h _ s l 0 (length l) I (or_introl eq_refl)) by lia. cbn [bind skipn].
    rewrite firstn_all. destruct (make_ok tz h _ l I) as (t & h' & A & B & _). rewrite A. cbn [bind].
    now apply (become_ok tz h' R s l).
Qed.

Lemma insert_ok tz h R s l pos src n d : Inv tz h ((s, l) :: R) -> length d = n ->
  steady tz R src n d -> pos <= length l ->
  gives tz R (insert ms mm good s pos src n h) (firstn pos l ++ d ++ skipn pos l).
Proof.
  intros I Ld St Lp. destruct (inv_valid _ _ _ I _ _ (or_introl eq_refl)) as [Sz _].
  unfold insert. rewrite Sz.
  destruct (expand_ok tz h R s l n true I) as (g & s1 & h1 & Lg & X & I1 & _).
  rewrite X. cbn [bind].
  destruct (mutable_ok _ _ _ _ _ I1) as (s2 & h2 & M & I2 & U2). rewrite M. cbn [bind].
  destruct (Nat.ltb_spec (length l) pos); [lia|].
  set (a := firstn pos l). set (m := skipn pos l).
  assert (La : length a = pos) by (unfold a; rewrite firstn_length; lia).
  assert (Lm : length m = length l - pos) by (unfold m; apply skipn_length).
  assert (El : l = a ++ m) by (symmetry; apply firstn_skipn).
  rewrite (peek_ok tz h2 _ s2 (l ++ g) pos (length l - pos) I2 (or_introl eq_refl))
    by (rewrite app_length; lia).
  rewrite (sub_app_l l g pos (length l - pos)) by lia. fold m. rewrite <- Lm, firstn_all. cbn [bind].
  destruct (poke_ok tz h2 R s2 (l ++ g) (pos + n) m I2 U2) as (s3 & h3 & P & I3 & U3);
    [rewrite app_length; lia|].
  rewrite P. cbn [bind]. rewrite (St h3 s3 _ I3). cbn [bind].
  apply gives1_gives.
  set (u := firstn n (m ++ g)). set (w := skipn n (m ++ g)).
  assert (Lu : length u = n) by (unfold u; rewrite firstn_length, app_length; lia).
  assert (Lw : length w = length m) by (unfold w; rewrite skipn_length, app_length; lia).
  assert (E1 : l ++ g = (a ++ u) ++ w).
  { rewrite El, <- !app_assoc. f_equal. symmetry. apply firstn_skipn. }
  assert (E2 : splice (l ++ g) (pos + n) m = a ++ u ++ m).
  { rewrite E1. replace (pos + n) with (length (a ++ u)) by (rewrite app_length; lia).
    rewrite splice_end by lia. now rewrite app_assoc. }
  rewrite E2 in I3. rewrite <- (splice_mid a u m d) by lia. rewrite La.
  apply poke_ok; [exact I3|exact U3|]. rewrite !app_length. lia.
Qed.

Lemma erase_ok tz h R s l pos n : Inv tz h ((s, l) :: R) -> pos <= length l ->
  gives tz R (erase ms mm good s pos n h) (firstn pos l ++ skipn (pos + n) l).
Proof.
  intros I Lp. destruct (inv_valid _ _ _ I _ _ (or_introl eq_refl)) as [Sz _].
  unfold erase. rewrite Sz. destruct (Nat.ltb_spec (length l) pos); [lia|].
  set (n' := Nat.min n (length l - pos)).
  assert (Es : skipn (pos + n) l = skipn (pos + n') l).
  { unfold n'. destruct (Nat.le_gt_cases n (length l - pos)).
    - now rewrite Nat.min_l by lia.
    - rewrite Nat.min_r by lia. rewrite !skipn_all2 by lia. reflexivity. }
  rewrite Es. assert (Ln : pos + n' <= length l) by (unfold n'; lia). clearbody n'. clear Es.
  destruct (mutable_ok _ _ _ _ _ I) as (s2 & h2 & M & I2 & U2). rewrite M. cbn [bind].
  destruct (inv_valid _ _ _ I2 _ _ (or_introl eq_refl)) as [Sz2 _]. rewrite Sz2.
  rewrite (peek_ok tz h2 _ s2 l (pos + n') _ I2 (or_introl eq_refl)) by lia. cbn [bind].
  set (m := skipn (pos + n') l). set (a := firstn pos l).
  assert (Lm : length m = length l - (pos + n')) by (unfold m; apply skipn_length).
  assert (La : length a = pos) by (unfold a; rewrite firstn_length; lia).
  rewrite <- Lm, firstn_all.
  destruct (poke_ok tz h2 R s2 l pos m I2 U2 ltac:(lia)) as (s3 & h3 & P & I3 & U3).
  rewrite P. cbn [bind].
  destruct (inv_valid _ _ _ I3 _ _ (or_introl eq_refl)) as [Sz3 _]. rewrite Sz3.
  assert (Ls : length (splice l pos m) = length l) by (apply splice_length; lia).
  pose proof (resize_ok tz h3 R s3 _ (length (splice l pos m) - n') 0%Z I3) as X.
  replace (length (splice l pos m) - n' - length (splice l pos m)) with 0 in X by lia.
  cbn [repeat] in X. rewrite app_nil_r in X.
  assert (E : firstn (length (splice l pos m) - n') (splice l pos m) = a ++ m).
  { rewrite Ls. unfold splice. rewrite app_assoc. apply firstn_app_l. fold a. rewrite app_length. lia. }
  rewrite E in X. exact X.
Qed.

Lemma set_at_ok tz h R s l pos c : Inv tz h ((s, l) :: R) -> pos < length l ->
  gives tz R (set_at good s pos c h) (lset l pos (Some c)).
Proof.
  intros I L. destruct (inv_valid _ _ _ I _ _ (or_introl eq_refl)) as [Sz _].
  unfold set_at. rewrite Sz. destruct (Nat.leb_spec (length l) pos); [lia|].
  destruct (mutable_ok _ _ _ _ _ I) as (s2 & h2 & M & I2 & U2). rewrite M. cbn [bind].
  apply gives1_gives.
  assert (E : lset l pos (Some c) = splice l pos [Some c]).
  { apply nth_ext_len.
    - rewrite lset_length. rewrite splice_length; cbn; lia.
    - intros i Hi. rewrite splice_nth by (cbn; lia). cbn [length].
      destruct (Nat.eq_dec pos i) as [<-|N].
      + rewrite nth_lset_eq by lia. destruct (Nat.ltb_spec pos pos); [lia|].
        destruct (Nat.ltb_spec pos (pos + 1)); [|lia]. now rewrite Nat.sub_diag.
      + rewrite nth_lset_ne by exact N. destruct (Nat.ltb_spec i pos); [reflexivity|].
        destruct (Nat.ltb_spec i (pos + 1)); [lia|reflexivity]. }
  rewrite E. apply poke_ok; [exact I2|exact U2|cbn; lia].
Qed.

Lemma empty_ok tz h R : Inv tz h R -> Inv tz h ((empty ms, []) :: R).
Proof.
  intros I. unfold empty, set_small. change 0 with (@length (option Z) []) at 2.
  apply inv_small; [exact I| |].
  - rewrite splice_length; rewrite garbage_length; cbn; lia.
  - apply (hold_end tz (garbage ms) 0). rewrite garbage_length. lia.
Qed.

(** Moved-from strings *)
Lemma reset_ok tz h R s l : Inv tz h ((s, l) :: R) -> Inv tz h ((reset ms s, []) :: (s, l) :: R).
Proof.
  intros I. destruct (inv_valid _ _ _ I _ _ (or_introl eq_refl)) as [Sz V]. unfold reset.
  assert (Lc : length (in_place ms s) = ms + 1).
  { destruct s as [c k|p k|p k]; cbn [in_place]; [apply V|apply garbage_length|apply garbage_length]. }
  unfold set_small. change 0 with (@length (option Z) []) at 2. apply inv_small; [exact I| |].
  - rewrite splice_length; rewrite Lc; cbn; lia.
  - apply (hold_end tz (in_place ms s) 0). lia.
Qed.

Lemma replace_ok tz h R s l pos n1 n2 d mid : Inv tz h ((s, l) :: R) -> pos <= length l ->
  (forall t lt h, Inv tz h ((t, lt) :: (s, l) :: R) -> gives tz ((s, l) :: R) (mid t h) (lt ++ d)) ->
  gives tz R (replace_by ms mm good s pos n1 n2 mid h) (firstn pos l ++ d ++ skipn (pos + n1) l).
Proof.
  intros I Lp Mid. destruct (inv_valid _ _ _ I _ _ (or_introl eq_refl)) as [Sz _].
  unfold replace_by. rewrite Sz. destruct (Nat.ltb_spec (length l) pos); [lia|].
  set (n' := Nat.min n1 (length l - pos)).
  assert (Es : skipn (pos + n1) l = skipn (pos + n') l).
  { unfold n'. destruct (Nat.le_gt_cases n1 (length l - pos)).
    - now rewrite Nat.min_l by lia.
    - rewrite Nat.min_r by lia. rewrite !skipn_all2 by lia. reflexivity. }
  rewrite Es. assert (Ln : pos + n' <= length l) by (unfold n'; lia). clearbody n'. clear Es.
  destruct (reserve_gives tz h _ (empty ms) [] (length l - n' + n2) (empty_ok _ _ _ I)) as (t1 & h1 & A & I1 & _).
  rewrite A. cbn [bind].
  destruct (append_other tz h1 _ t1 [] s l 0 pos I1 (or_introl eq_refl) ltac:(lia)) as (t2 & h2 & B & I2).
  rewrite B. cbn [bind]. cbn [app skipn] in I2.
  destruct (Mid _ _ _ I2) as (t3 & h3 & C & I3). rewrite C. cbn [bind].
  destruct (append_other tz h3 _ t3 _ s l (pos + n') (length l - pos - n') I3 (or_introl eq_refl) ltac:(lia))
    as (t4 & h4 & D & I4).
  rewrite D. cbn [bind].
  replace (firstn (length l - pos - n') (skipn (pos + n') l)) with (skipn (pos + n') l) in I4.
  2: { symmetry. apply firstn_all2. rewrite skipn_length. lia. }
  rewrite <- app_assoc in I4. now apply (become_ok tz h4 R s l).
Qed.

Lemma make_view_ok tz h R d s n : Inv tz h R ->
  In (s, d) R -> n = 0 -> gives tz R (make_view ms mm good d (share_of s n) h) d.
Proof.
  intros I H ->. unfold make_view. destruct (Nat.leb_spec (length d) mm).
  - apply gives1_gives. now apply make_ok.
  - destruct s as [c k|p k|p k]; cbn [share_of]; try (apply gives1_gives; now apply make_ok).
    cbn [Nat.eqb]. destruct (inv_valid _ _ _ I _ _ H) as [Sz _]. cbn [size] in Sz. subst k.
    destruct (in_split _ _ H) as (R1 & R2 & ->).
    assert (P : Permutation (R1 ++ (RLarge p (length d), d) :: R2) ((RLarge p (length d), d) :: R1 ++ R2))
      by (symmetry; apply Permutation_middle).
    apply (Inv_perm _ _ _ _ P) in I. destruct (incref_ok _ _ _ _ _ _ I) as (h' & E & I').
    rewrite E. cbn [bind]. eexists. eexists. split; [reflexivity|].
    eapply Inv_perm; [|exact I']. apply perm_skip. apply Permutation_middle.
Qed.

(** Taking a string out of a runtime value: the terminator is lost *)
Lemma unbox_ok h R s l : Inv false h ((s, l) :: R) -> Inv false h ((unbox ms s, l) :: R).
Proof.
  intros I. destruct s as [c n|p n|p n]; cbn [unbox]; [|exact I|exact I].
  destruct (inv_valid _ _ _ I _ _ (or_introl eq_refl)) as [Sz [Lc Ho]]. cbn [size] in Sz. subst n.
  apply inv_drop_small in I. rewrite (hold_first _ _ _ Ho). destruct Ho as (L1 & _).
  assert (Le : length (in_place ms (empty ms)) = ms + 1).
  { cbn [empty set_small in_place]. rewrite splice_length; rewrite garbage_length; cbn; lia. }
  apply inv_small; [exact I| |].
  - rewrite splice_length; lia.
  - repeat split.
    + rewrite splice_length; lia.
    + intros i Hi. rewrite splice_nth by lia. destruct (Nat.ltb_spec i 0); [lia|].
      destruct (Nat.ltb_spec i (0 + length l)); [|lia]. f_equal. lia.
    + discriminate.
Qed.

(** ** Programs *)

Definition own_slot (x : slot) (y : vslot) : owners :=
  match x, y with
  | Str s, VStr l | Box s, VBox l => [(s, map Some l)]
  | _, _ => []
  end.
Fixpoint owners_of (xs : list slot) (ys : list vslot) : owners :=
  match xs, ys with
  | x :: xs, y :: ys => own_slot x y ++ owners_of xs ys
  | _, _ => []
  end.
Definition agree (x : slot) (y : vslot) : Prop :=
  match x, y with Free, VFree | Str _, VStr _ | Box _, VBox _ => True | _, _ => False end.
Definition Rel (tz : bool) (st : store) (vs : list vslot) : Prop :=
  Forall2 agree (fst st) vs /\ Inv tz (snd st) (owners_of (fst st) vs).

Lemma agree_nth xs ys v y : Forall2 agree xs ys -> nth_error ys v = Some y ->
  exists x, nth_error xs v = Some x /\ agree x y.
Proof.
  intros F. revert v. induction F as [|x y' xs ys A F IH]; intros [|v] H; cbn in *; try discriminate.
  - injection H as <-. eauto.
  - eauto.
Qed.

Lemma agree_lset xs ys v x y : Forall2 agree xs ys -> agree x y -> Forall2 agree (lset xs v x) (lset ys v y).
Proof.
  intros F A. revert v. induction F as [|x' y' xs ys A' F IH]; intros [|v]; cbn; constructor; auto.
Qed.

Lemma owners_take xs ys v x y : nth_error xs v = Some x -> nth_error ys v = Some y ->
  Permutation (owners_of xs ys) (own_slot x y ++ owners_of (lset xs v Free) (lset ys v VFree)).
Proof.
  revert ys v. induction xs as [|x' xs IH]; intros [|y' ys] [|v] Hx Hy; cbn in *; try discriminate.
  - injection Hx as ->. injection Hy as ->. apply Permutation_refl.
  - specialize (IH ys v Hx Hy).
    eapply Permutation_trans; [apply Permutation_app_head; exact IH|].
    rewrite !app_assoc. apply Permutation_app_tail. apply Permutation_app_comm.
Qed.

Lemma owners_put xs ys v x y : v < length xs -> v < length ys ->
  Permutation (owners_of (lset xs v x) (lset ys v y))
              (own_slot x y ++ owners_of (lset xs v Free) (lset ys v VFree)).
Proof.
  intros Lx Ly. pose proof (owners_take (lset xs v x) (lset ys v y) v x y
    (nth_lset_eq _ _ _ Lx) (nth_lset_eq _ _ _ Ly)) as P.
  assert (T : forall {A} (l : list A) n a b, lset (lset l n a) n b = lset l n b).
  { induction l as [|z l IH]; intros [|n] a b; cbn; auto. now rewrite IH. }
  rewrite !T in P. exact P.
Qed.

Lemma lset_comm {A} (l : list A) v w a b : v <> w -> lset (lset l v a) w b = lset (lset l w b) v a.
Proof.
  revert v w. induction l as [|z l IH]; intros [|v] [|w] H; cbn; auto; [congruence|].
  rewrite IH; auto.
Qed.

Definition rest (st : store) (vs : list vslot) (v : nat) : owners :=
  owners_of (lset (fst st) v Free) (lset vs v VFree).

Lemma Forall2_length {A B} (P : A -> B -> Prop) xs ys : Forall2 P xs ys -> length xs = length ys.
Proof. induction 1; cbn; congruence. Qed.

Lemma rel_length tz st vs : Rel tz st vs -> length (fst st) = length vs.
Proof. intros [F _]. eapply Forall2_length; eassumption. Qed.

Lemma rel_str tz st vs v l : Rel tz st vs -> str_of (nth_error vs v) = Some l ->
  exists s, nth_error (fst st) v = Some (Str s) /\ get st v = Ok s /\ v < length (fst st) /\
            Inv tz (snd st) ((s, map Some l) :: rest st vs v).
Proof.
  intros [F I] H. destruct (nth_error vs v) as [y|] eqn:E; [|discriminate].
  destruct y as [|l'|l']; try discriminate. injection H as ->.
  destruct (agree_nth _ _ _ _ F E) as (x & Ex & A). destruct x as [|s|s]; try destruct A.
  exists s. split; [exact Ex|]. unfold get. rewrite Ex. split; [reflexivity|].
  split; [apply nth_error_Some; congruence|].
  eapply Inv_perm; [exact (owners_take _ _ _ _ _ Ex E)|exact I].
Qed.

Lemma rel_box tz st vs v l : Rel tz st vs -> box_of (nth_error vs v) = Some l ->
  exists s, nth_error (fst st) v = Some (Box s) /\ get_box st v = Ok s /\ v < length (fst st) /\
            Inv tz (snd st) ((s, map Some l) :: rest st vs v).
Proof.
  intros [F I] H. destruct (nth_error vs v) as [y|] eqn:E; [|discriminate].
  destruct y as [|l'|l']; try discriminate. injection H as ->.
  destruct (agree_nth _ _ _ _ F E) as (x & Ex & A). destruct x as [|s|s]; try destruct A.
  exists s. split; [exact Ex|]. unfold get_box. rewrite Ex. split; [reflexivity|].
  split; [apply nth_error_Some; congruence|].
  eapply Inv_perm; [exact (owners_take _ _ _ _ _ Ex E)|exact I].
Qed.

Lemma rel_free tz st vs v : Rel tz st vs -> is_free (nth_error vs v) = true ->
  nth_error (fst st) v = Some Free /\ nth_error vs v = Some VFree /\ free_slot st v = Ok tt /\
  v < length (fst st) /\ Inv tz (snd st) (rest st vs v).
Proof.
  intros [F I] H. destruct (nth_error vs v) as [y|] eqn:E; [|discriminate].
  destruct y as [|l'|l']; try discriminate.
  destruct (agree_nth _ _ _ _ F E) as (x & Ex & A). destruct x as [|s|s]; try destruct A.
  split; [exact Ex|]. split; [reflexivity|]. unfold free_slot. rewrite Ex. split; [reflexivity|].
  split; [apply nth_error_Some; congruence|].
  exact (Inv_perm tz _ _ _ (owners_take _ _ _ _ _ Ex E) I).
Qed.

(** another variable *)
Lemma rest_in st vs v w x y s l : v <> w -> nth_error (fst st) w = Some x -> nth_error vs w = Some y ->
  own_slot x y = [(s, l)] -> In (s, l) (rest st vs v).
Proof.
  intros N Ex Ey O. unfold rest.
  pose proof (owners_take (lset (fst st) v Free) (lset vs v VFree) w x y) as P.
  rewrite !nth_lset_ne in P by exact N. specialize (P Ex Ey). rewrite O in P.
  eapply Permutation_in; [symmetry; exact P|]. now left.
Qed.

Lemma rel_put tz st vs v x y h : Forall2 agree (fst st) vs -> v < length (fst st) -> agree x y ->
  Inv tz h (own_slot x y ++ rest st vs v) -> Rel tz (put st v x h) (lset vs v y).
Proof.
  intros F L A I. split; cbn [put fst snd].
  - now apply agree_lset.
  - pose proof (Forall2_length _ _ _ F) as Le.
    eapply Inv_perm; [symmetry; apply owners_put; lia|exact I].
Qed.

Lemma rel_put_str tz st vs v r l : Forall2 agree (fst st) vs -> v < length (fst st) ->
  gives tz (rest st vs v) r (map Some l) ->
  exists st', put_str st v r = Ok st' /\ Rel tz st' (lset vs v (VStr l)).
Proof.
  intros F L (s & h & E & I). unfold put_str. rewrite E. cbn [bind]. eexists. split; [reflexivity|].
  now apply rel_put.
Qed.

Lemma rel_put2 tz st vs v w x y x' y' h : v <> w -> Forall2 agree (fst st) vs ->
  v < length (fst st) -> w < length (fst st) -> agree x y -> agree x' y' ->
  Inv tz h (own_slot x' y' ++ own_slot x y ++
            owners_of (lset (lset (fst st) w Free) v Free) (lset (lset vs w VFree) v VFree)) ->
  Rel tz (put (put st v x h) w x' h) (lset (lset vs v y) w y').
Proof.
  intros N F Lv Lw A A' I. pose proof (Forall2_length _ _ _ F) as Le. apply rel_put; cbn [put fst snd].
  - now apply agree_lset.
  - now rewrite lset_length.
  - exact A'.
  - eapply Inv_perm; [|exact I]. apply Permutation_app_head. unfold rest. cbn [put fst snd].
    rewrite (lset_comm (fst st) v w), (lset_comm vs v w) by exact N.
    symmetry. apply owners_put; rewrite lset_length; lia.
Qed.

Lemma map_substring (l : list Z) pos n :
  map (@Some Z) (substring l pos n) = firstn n (skipn pos (map Some l)).
Proof. unfold substring. now rewrite <- firstn_map, <- skipn_map. Qed.

Lemma sub_len_ok tz h R s l pos n : Inv tz h R -> In (s, map Some l) R ->
  (length l < pos -> sub_len s pos n = Exn IndexError) /\
  (pos <= length l -> exists k, sub_len s pos n = Ok k /\ pos + k <= length l /\
                      substring l pos n = substring l pos k /\ length (substring l pos k) = k).
Proof.
  intros I H. destruct (inv_valid _ _ _ I _ _ H) as [Sz _]. rewrite map_length in Sz.
  unfold sub_len. rewrite Sz. split; intros L; destruct (Nat.ltb_spec (length l) pos); try lia; [reflexivity|].
  exists (Nat.min n (length l - pos)). split; [reflexivity|]. split; [lia|]. unfold substring. split.
  - destruct (Nat.le_gt_cases n (length l - pos)).
    + now rewrite Nat.min_l by lia.
    + rewrite Nat.min_r by lia. rewrite !firstn_all2; rewrite ?skipn_length; try lia. reflexivity.
  - rewrite firstn_length, skipn_length. lia.
Qed.

Definition no_unbox (o : sop) : bool := match o with FromBox _ _ => false | _ => true end.

(** One operation with another variable, or the same one *)
Lemma other_in tz st vs v w l : Rel tz st vs -> v <> w -> str_of (nth_error vs w) = Some l ->
  exists t, get st w = Ok t /\ In (t, map Some l) (rest st vs v).
Proof.
  intros Rl N H. destruct (rel_str _ _ _ _ _ Rl H) as (t & Et & G & _). exists t. split; [exact G|].
  destruct (nth_error vs w) as [y|] eqn:E; [|discriminate]. destruct y; try discriminate.
  injection H as ->. eapply rest_in; [exact N|exact Et|exact E|reflexivity].
Qed.

Lemma rest_free st vs v : nth_error (fst st) v = Some Free -> nth_error vs v = Some VFree ->
  rest st vs v = owners_of (fst st) vs.
Proof. intros A B. unfold rest. now rewrite !lset_same. Qed.

Lemma map_repeat {A B} (f : A -> B) x n : map f (repeat x n) = repeat (f x) n.
Proof. induction n; cbn; congruence. Qed.

Lemma same_str vs v w (a l : list Z) : v = w -> str_of (nth_error vs v) = Some a ->
  str_of (nth_error vs w) = Some l -> a = l.
Proof. intros -> H1 H2. congruence. Qed.

Lemma assign_from tz st vs v w a l s t pos k : Rel tz st vs ->
  str_of (nth_error vs v) = Some a -> get st v = Ok s ->
  str_of (nth_error vs w) = Some l -> get st w = Ok t ->
  pos + k <= length l ->
  gives tz (rest st vs v) (assign ms mm good s (from v w t pos) k (snd st)) (map Some (substring l pos k)).
Proof.
  intros Rl Hv Gv Hw Gw L. destruct (rel_str _ _ _ _ _ Rl Hv) as (s' & _ & G & Lv & I).
  rewrite Gv in G. injection G as <-.
  rewrite map_substring. unfold from.
  assert (Ld : length (firstn k (skipn pos (map (@Some Z) l))) = k)
    by (rewrite firstn_length, skipn_length, map_length; lia).
  destruct (Nat.eqb_spec v w) as [E|N].
  - assert (a = l) as -> by (eapply same_str; eassumption).
    assert (s = t) as -> by (subst w; congruence).
    eapply assign_ok; [exact I|exact Ld|]. right. exists pos. rewrite map_length. auto.
  - destruct (other_in _ _ _ _ _ _ Rl N Hw) as (t' & Gt & Ht). rewrite Gw in Gt. injection Gt as <-.
    eapply assign_ok; [exact I|exact Ld|]. left.
    eapply steady_other; [exact I|exact Ht|now rewrite map_length].
Qed.

Lemma append_from tz st vs v w a l s t pos k : Rel tz st vs ->
  str_of (nth_error vs v) = Some a -> get st v = Ok s ->
  str_of (nth_error vs w) = Some l -> get st w = Ok t ->
  pos + k <= length l ->
  gives tz (rest st vs v) (append ms mm good s (from v w t pos) k (snd st)) (map Some (a ++ substring l pos k)).
Proof.
  intros Rl Hv Gv Hw Gw L. destruct (rel_str _ _ _ _ _ Rl Hv) as (s' & _ & G & Lv & I).
  rewrite Gv in G. injection G as <-.
  rewrite map_app, map_substring. unfold from.
  destruct (Nat.eqb_spec v w) as [E|N].
  - assert (a = l) as -> by (eapply same_str; eassumption).
    assert (s = t) as -> by (subst w; congruence).
    apply append_own; [exact I|now rewrite map_length].
  - destruct (other_in _ _ _ _ _ _ Rl N Hw) as (t' & Gt & Ht). rewrite Gw in Gt. injection Gt as <-.
    apply append_other; [exact I|exact Ht|now rewrite map_length].
Qed.

Lemma substring_all (l : list Z) : substring l 0 (length l) = l.
Proof. unfold substring. apply firstn_all. Qed.

Definition does (tz : bool) (o : sop) (st : store) (vs : list vslot) : Prop :=
  match meaning o vs with
  | Misuse => True
  | Raises e => step ms mm good o st = Exn e
  | Sets ch => exists st', step ms mm good o st = Ok st' /\ Rel tz st' (set_all vs ch)
  end.

Ltac begin := unfold does; cbn [meaning step]; unfold with_free, with_str, with_box.
Ltac free v := match goal with |- context [is_free (nth_error ?vs v)] =>
  let F := fresh "Fr" in destruct (is_free (nth_error vs v)) eqn:F; [|exact Logic.I] end.
Ltac str v l H := match goal with |- context [str_of (nth_error ?vs v)] =>
  destruct (str_of (nth_error vs v)) as [l|] eqn:H; [|exact Logic.I] end.
Ltac box v l H := match goal with |- context [box_of (nth_error ?vs v)] =>
  destruct (box_of (nth_error vs v)) as [l|] eqn:H; [|exact Logic.I] end.

Lemma does_new tz st vs v l : Rel tz st vs -> does tz (New v l) st vs.
Proof.
  intros Rl. begin. free v. destruct (rel_free _ _ _ _ Rl Fr) as (_ & _ & G & Lv & I).
  rewrite G. cbn [bind set_all]. apply rel_put_str; [apply Rl|exact Lv|]. apply gives1_gives. now apply make_ok.
Qed.

Lemma does_new_fill tz st vs v n c : Rel tz st vs -> does tz (NewFill v n c) st vs.
Proof.
  intros Rl. begin. free v. destruct (rel_free _ _ _ _ Rl Fr) as (_ & _ & G & Lv & I).
  rewrite G. cbn [bind set_all]. apply rel_put_str; [apply Rl|exact Lv|]. apply gives1_gives.
  rewrite map_repeat. now apply make_fill_ok.
Qed.

Lemma free_ne vs v w l : is_free (nth_error vs v) = true -> str_of (nth_error vs w) = Some l -> v <> w.
Proof. intros F S ->. destruct (nth_error vs w) as [y|]; [destruct y|]; discriminate. Qed.
Lemma free_ne' vs v w l : is_free (nth_error vs v) = true -> box_of (nth_error vs w) = Some l -> v <> w.
Proof. intros F S ->. destruct (nth_error vs w) as [y|]; [destruct y|]; discriminate. Qed.

(** With a free variable, the others are all owners. *)
Lemma free_rest tz st vs v w l s : Rel tz st vs -> is_free (nth_error vs v) = true ->
  nth_error (fst st) w = Some (Str s) -> str_of (nth_error vs w) = Some l ->
  Permutation ((s, map Some l) :: owners_of (lset (lset (fst st) w Free) v Free) (lset (lset vs w VFree) v VFree))
              (rest st vs v).
Proof.
  intros Rl F Ex H. pose proof (free_ne _ _ _ _ F H) as N.
  destruct (rel_free _ _ _ _ Rl F) as (A & B & _).
  destruct (nth_error vs w) as [y|] eqn:Ey; [|discriminate]. destruct y; try discriminate. injection H as ->.
  rewrite (rest_free _ _ _ A B). rewrite (lset_same (lset (fst st) w Free) v) by (rewrite nth_lset_ne; congruence).
  rewrite (lset_same (lset vs w VFree) v) by (rewrite nth_lset_ne; congruence).
  symmetry. exact (owners_take _ _ _ _ _ Ex Ey).
Qed.
Lemma free_rest' tz st vs v w l s : Rel tz st vs -> is_free (nth_error vs v) = true ->
  nth_error (fst st) w = Some (Box s) -> box_of (nth_error vs w) = Some l ->
  Permutation ((s, map Some l) :: owners_of (lset (lset (fst st) w Free) v Free) (lset (lset vs w VFree) v VFree))
              (rest st vs v).
Proof.
  intros Rl F Ex H. pose proof (free_ne' _ _ _ _ F H) as N.
  destruct (rel_free _ _ _ _ Rl F) as (A & B & _).
  destruct (nth_error vs w) as [y|] eqn:Ey; [|discriminate]. destruct y; try discriminate. injection H as ->.
  rewrite (rest_free _ _ _ A B). rewrite (lset_same (lset (fst st) w Free) v) by (rewrite nth_lset_ne; congruence).
  rewrite (lset_same (lset vs w VFree) v) by (rewrite nth_lset_ne; congruence).
  symmetry. exact (owners_take _ _ _ _ _ Ex Ey).
Qed.

Lemma does_copy tz st vs v w : Rel tz st vs -> does tz (Copy v w) st vs.
Proof.
  intros Rl. begin. free v. str w l Hw.
  destruct (rel_free _ _ _ _ Rl Fr) as (_ & _ & G & Lv & I).
  destruct (rel_str _ _ _ _ _ Rl Hw) as (s & Es & Gs & _).
  rewrite G, Gs. cbn [bind set_all]. apply rel_put_str; [apply Rl|exact Lv|].
  pose proof (free_rest _ _ _ _ _ _ _ Rl Fr Es Hw) as P.
  destruct (copy_ok tz (snd st) _ s (map Some l) (Inv_perm _ _ _ _ (Permutation_sym P) I)) as (s' & h' & E & I').
  exists s', h'. split; [exact E|]. eapply Inv_perm; [|exact I']. now apply perm_skip.
Qed.

Lemma does_move tz st vs v w : Rel tz st vs -> does tz (Move v w) st vs.
Proof.
  intros Rl. begin. free v. str w l Hw.
  destruct (rel_free _ _ _ _ Rl Fr) as (_ & _ & G & Lv & I).
  destruct (rel_str _ _ _ _ _ Rl Hw) as (s & Es & Gs & Lw & _).
  rewrite G, Gs. cbn [bind set_all]. eexists. split; [reflexivity|].
  pose proof (free_rest _ _ _ _ _ _ _ Rl Fr Es Hw) as P.
  apply rel_put2; try exact Logic.I; try assumption; [eapply free_ne; eassumption|apply Rl|].
  cbn [own_slot map app]. apply reset_ok. eapply Inv_perm; [symmetry; exact P|exact I].
Qed.

Lemma does_of_view tz st vs v w a b : Rel tz st vs -> does tz (OfView v w a b) st vs.
Proof.
  intros Rl. begin. free v. str w l Hw.
  destruct (Nat.eqb_spec a 0) as [->|]; cbn [andb]; [|exact Logic.I].
  destruct (Nat.eqb_spec b 0) as [->|]; [|exact Logic.I].
  destruct (rel_free _ _ _ _ Rl Fr) as (_ & _ & G & Lv & I).
  destruct (other_in _ _ _ _ _ _ Rl (free_ne _ _ _ _ Fr Hw) Hw) as (s & Gs & H).
  rewrite G, Gs. cbn [bind set_all]. rewrite Nat.add_0_r, Nat.sub_0_r. cbn [Nat.ltb Nat.leb].
  destruct (inv_valid _ _ _ I _ _ H) as [Sz _]. rewrite Sz. cbn [Nat.add].
  replace (length (map Some l) <? 0) with false by (symmetry; apply Nat.ltb_ge; lia).
  rewrite (peek_ok tz _ _ s (map Some l) 0 _ I H) by lia. cbn [bind skipn]. rewrite firstn_all.
  apply rel_put_str; [apply Rl|exact Lv|]. now apply make_view_ok.
Qed.

Lemma does_sub tz st vs v w pos n : Rel tz st vs -> does tz (Sub v w pos n) st vs.
Proof.
  intros Rl. begin. free v. str w l Hw. unfold checked.
  destruct (rel_free _ _ _ _ Rl Fr) as (_ & _ & G & Lv & I).
  destruct (other_in _ _ _ _ _ _ Rl (free_ne _ _ _ _ Fr Hw) Hw) as (s & Gs & H).
  rewrite G, Gs. cbn [bind]. destruct (sub_len_ok tz _ _ s l pos n I H) as [Hx Hok].
  destruct (Nat.ltb_spec (length l) pos) as [L|L].
  - now rewrite (Hx L).
  - destruct (Hok L) as (k & Ek & Lk & Es & _). rewrite Ek. cbn [bind].
    rewrite (peek_ok tz _ _ s (map Some l) pos k I H) by (rewrite map_length; lia). cbn [bind set_all].
    rewrite Es. apply rel_put_str; [apply Rl|exact Lv|]. rewrite map_substring. apply gives1_gives. now apply make_ok.
Qed.

Lemma does_destroy tz st vs v : Rel tz st vs -> does tz (Destroy v) st vs.
Proof.
  intros Rl. begin. str v l Hv. destruct (rel_str _ _ _ _ _ Rl Hv) as (s & Es & Gs & Lv & I).
  rewrite Gs. cbn [bind set_all]. destruct (destroy_ok _ _ _ _ _ I) as (h' & D & I'). rewrite D. cbn [bind].
  eexists. split; [reflexivity|]. apply rel_put; [apply Rl|exact Lv|exact Logic.I|exact I'].
Qed.

Lemma put_same tz st vs v l : Rel tz st vs -> str_of (nth_error vs v) = Some l -> Rel tz st (lset vs v (VStr l)).
Proof.
  intros Rl H. destruct (nth_error vs v) as [y|] eqn:E; [|discriminate]. destruct y; try discriminate.
  injection H as ->. now rewrite lset_same.
Qed.

Lemma does_assign tz st vs v w : Rel tz st vs -> does tz (Assign v w) st vs.
Proof.
  intros Rl. begin. str v a Hv. str w l Hw.
  destruct (rel_str _ _ _ _ _ Rl Hv) as (s & Es & Gs & Lv & I).
  destruct (rel_str _ _ _ _ _ Rl Hw) as (t & Et & Gt & Lw & Iw).
  rewrite Gs, Gt. cbn [bind set_all]. destruct (Nat.eqb_spec v w) as [E|N].
  - eexists. split; [reflexivity|]. subst w. now apply put_same.
  - destruct (inv_valid _ _ _ Iw _ _ (or_introl eq_refl)) as [Sz _].
    destruct t as [c k|p k|p k].
    1,2: rewrite Sz; rewrite map_length; apply rel_put_str; [apply Rl|exact Lv|];
         rewrite <- (substring_all l) at 2;
         replace 0 with 0 by reflexivity; eapply assign_from; try eassumption; reflexivity.
    apply rel_put_str; [apply Rl|exact Lv|].
    destruct (other_in _ _ _ _ _ _ Rl N Hw) as (t' & Gt' & Ht). rewrite Gt in Gt'. injection Gt' as <-.
    destruct (in_split _ _ Ht) as (R1 & R2 & ER). rewrite ER in I.
    assert (P : Permutation ((s, map Some a) :: R1 ++ (RLarge p k, map Some l) :: R2)
                            ((RLarge p k, map Some l) :: (s, map Some a) :: R1 ++ R2)).
    { symmetry. apply (Permutation_middle ((s, map Some a) :: R1)). }
    destruct (copy_ok tz _ _ _ _ (Inv_perm _ _ _ _ P I)) as (x & h' & C & I'). rewrite C. cbn [bind].
    apply (become_ok tz h' _ s (map Some a)). rewrite ER.
    eapply Inv_perm; [|exact I']. apply perm_skip. now symmetry.
Qed.

Lemma does_move_assign tz st vs v w : Rel tz st vs -> does tz (MoveAssign v w) st vs.
Proof.
  intros Rl. begin. str v a Hv. str w l Hw.
  destruct (rel_str _ _ _ _ _ Rl Hv) as (s & Es & Gs & Lv & I).
  destruct (rel_str _ _ _ _ _ Rl Hw) as (t & Et & Gt & Lw & Iw).
  rewrite Gs, Gt. cbn [bind]. destruct (Nat.eqb_spec v w) as [E|N].
  - eexists. split; [reflexivity|]. exact Rl.
  - destruct (destroy_ok _ _ _ _ _ I) as (h' & D & I'). rewrite D. cbn [bind set_all].
    eexists. split; [reflexivity|]. apply rel_put2; try exact Logic.I; try assumption; [apply Rl|].
    cbn [own_slot map app]. apply reset_ok. eapply Inv_perm; [|exact I'].
    unfold rest. rewrite (lset_comm (fst st) w v), (lset_comm vs w v) by congruence.
    destruct (nth_error vs w) as [y|] eqn:Ey; [|discriminate]. destruct y; try discriminate. injection Hw as ->.
    apply (owners_take (lset (fst st) v Free) (lset vs v VFree) w (Str t) (VStr l));
      rewrite nth_lset_ne by exact N; assumption.
Qed.

Lemma does_assign_view tz st vs v w : Rel tz st vs -> does tz (AssignView v w) st vs.
Proof.
  intros Rl. begin. str v a Hv. str w l Hw.
  destruct (rel_str _ _ _ _ _ Rl Hv) as (s & Es & Gs & Lv & I).
  destruct (rel_str _ _ _ _ _ Rl Hw) as (t & Et & Gt & Lw & Iw).
  rewrite Gs, Gt. cbn [bind set_all].
  destruct (inv_valid _ _ _ Iw _ _ (or_introl eq_refl)) as [Sz _].
  destruct t as [c k|p k|p k].
  1,2: rewrite Sz; rewrite map_length; apply rel_put_str; [apply Rl|exact Lv|];
       rewrite <- (substring_all l) at 2; eapply assign_from; try eassumption; reflexivity.
  apply rel_put_str; [apply Rl|exact Lv|]. cbn [size] in Sz. subst k.
  assert (Ht : In (RLarge p (length (map Some l)), map Some l) ((s, map Some a) :: rest st vs v)).
  { destruct (Nat.eq_dec v w) as [E|N].
    - left. assert (a = l) as -> by (eapply same_str; eassumption). subst w. congruence.
    - right. destruct (other_in _ _ _ _ _ _ Rl N Hw) as (t' & Gt' & Ht). rewrite Gt in Gt'.
      injection Gt' as <-. exact Ht. }
  rewrite (peek_ok tz _ _ _ (map Some l) 0 _ I Ht) by (cbn [size]; lia). cbn [bind skipn size].
  rewrite firstn_all.
  destruct (make_view_ok tz _ _ (map Some l) _ 0 I Ht eq_refl) as (x & h' & C & I'). rewrite C. cbn [bind].
  now apply (become_ok tz h' _ s (map Some a)).
Qed.

Lemma does_assign_sub tz st vs v w pos n : Rel tz st vs -> does tz (AssignSub v w pos n) st vs.
Proof.
  intros Rl. begin. str v a Hv. str w l Hw. unfold checked.
  destruct (rel_str _ _ _ _ _ Rl Hv) as (s & Es & Gs & Lv & I).
  destruct (rel_str _ _ _ _ _ Rl Hw) as (t & Et & Gt & Lw & Iw).
  rewrite Gs, Gt. cbn [bind]. destruct (sub_len_ok tz _ _ t l pos n Iw (or_introl eq_refl)) as [Hx Hok].
  destruct (Nat.ltb_spec (length l) pos) as [L|L].
  - now rewrite (Hx L).
  - destruct (Hok L) as (k & Ek & Lk & Esub & _). rewrite Ek. cbn [bind set_all]. rewrite Esub.
    apply rel_put_str; [apply Rl|exact Lv|]. eapply assign_from; eassumption.
Qed.

Lemma does_append tz st vs v w pos n : Rel tz st vs -> does tz (Append v w pos n) st vs.
Proof.
  intros Rl. begin. str v a Hv. str w l Hw. unfold checked.
  destruct (rel_str _ _ _ _ _ Rl Hv) as (s & Es & Gs & Lv & I).
  destruct (rel_str _ _ _ _ _ Rl Hw) as (t & Et & Gt & Lw & Iw).
  rewrite Gs, Gt. cbn [bind]. destruct (sub_len_ok tz _ _ t l pos n Iw (or_introl eq_refl)) as [Hx Hok].
  destruct (Nat.ltb_spec (length l) pos) as [L|L].
  - now rewrite (Hx L).
  - destruct (Hok L) as (k & Ek & Lk & Esub & _). rewrite Ek. cbn [bind set_all]. rewrite Esub.
    apply rel_put_str; [apply Rl|exact Lv|]. eapply append_from; eassumption.
Qed.

Lemma does_insert tz st vs v pos w pos2 n : Rel tz st vs -> does tz (Insert v pos w pos2 n) st vs.
Proof.
  intros Rl. begin. str v a Hv. str w l Hw. unfold checked.
  destruct (rel_str _ _ _ _ _ Rl Hv) as (s & Es & Gs & Lv & I).
  destruct (rel_str _ _ _ _ _ Rl Hw) as (t & Et & Gt & Lw & Iw).
  rewrite Gs, Gt. cbn [bind]. destruct (sub_len_ok tz _ _ t l pos2 n Iw (or_introl eq_refl)) as [Hx Hok].
  destruct (Nat.ltb_spec (length l) pos2) as [L|L].
  - now rewrite (Hx L).
  - destruct (Nat.eqb_spec v w) as [|N]; cbn [orb]; [exact Logic.I|].
    destruct (Nat.ltb_spec (length a) pos) as [|Lp]; [exact Logic.I|].
    destruct (Hok L) as (k & Ek & Lk & Esub & Ls). rewrite Ek. cbn [bind set_all]. rewrite Esub.
    apply rel_put_str; [apply Rl|exact Lv|].
    destruct (other_in _ _ _ _ _ _ Rl N Hw) as (t' & Gt' & Ht). rewrite Gt in Gt'. injection Gt' as <-.
    rewrite !map_app, <- firstn_map, <- skipn_map. unfold from. destruct (Nat.eqb_spec v w); [congruence|].
    apply insert_ok; [exact I|now rewrite map_length| |now rewrite map_length].
    rewrite map_substring. eapply steady_other; [exact I|exact Ht|now rewrite map_length].
Qed.

Lemma does_replace tz st vs v pos n w pos2 n2 : Rel tz st vs -> does tz (Replace v pos n w pos2 n2) st vs.
Proof.
  intros Rl. begin. str v a Hv. str w l Hw. unfold checked.
  destruct (rel_str _ _ _ _ _ Rl Hv) as (s & Es & Gs & Lv & I).
  destruct (rel_str _ _ _ _ _ Rl Hw) as (t & Et & Gt & Lw & Iw).
  rewrite Gs, Gt. cbn [bind]. destruct (sub_len_ok tz _ _ t l pos2 n2 Iw (or_introl eq_refl)) as [Hx Hok].
  destruct (Nat.ltb_spec (length l) pos2) as [L|L].
  - now rewrite (Hx L).
  - destruct (Hok L) as (k & Ek & Lk & Esub & Ls). rewrite Ek. cbn [bind].
    destruct (inv_valid _ _ _ I _ _ (or_introl eq_refl)) as [Sz _]. rewrite map_length in Sz.
    destruct (Nat.ltb_spec (length a) pos) as [Lp|Lp].
    + unfold put_str, replace_by. rewrite Sz. destruct (Nat.ltb_spec (length a) pos); [reflexivity|lia].
    + cbn [set_all]. rewrite Esub. apply rel_put_str; [apply Rl|exact Lv|].
      rewrite !map_app, <- firstn_map, <- skipn_map, map_substring.
      apply replace_ok; [exact I|now rewrite map_length|].
      intros x lx h Ix.
      assert (Ht : In (t, map Some l) ((s, map Some a) :: rest st vs v)).
      { destruct (Nat.eq_dec v w) as [E|N].
        - left. assert (a = l) as -> by (eapply same_str; eassumption). subst w. congruence.
        - right. destruct (other_in _ _ _ _ _ _ Rl N Hw) as (t' & Gt' & Ht). rewrite Gt in Gt'.
          injection Gt' as <-. exact Ht. }
      apply append_other; [exact Ix|exact Ht|now rewrite map_length].
Qed.

Lemma does_replace_fill tz st vs v pos n n2 c : Rel tz st vs -> does tz (ReplaceFill v pos n n2 c) st vs.
Proof.
  intros Rl. begin. str v a Hv. unfold checked.
  destruct (rel_str _ _ _ _ _ Rl Hv) as (s & Es & Gs & Lv & I). rewrite Gs. cbn [bind].
  destruct (inv_valid _ _ _ I _ _ (or_introl eq_refl)) as [Sz _]. rewrite map_length in Sz.
  destruct (Nat.ltb_spec (length a) pos) as [Lp|Lp].
  - unfold put_str, replace_by. rewrite Sz. destruct (Nat.ltb_spec (length a) pos); [reflexivity|lia].
  - cbn [set_all]. apply rel_put_str; [apply Rl|exact Lv|].
    rewrite !map_app, <- firstn_map, <- skipn_map, map_repeat.
    apply replace_ok; [exact I|now rewrite map_length|].
    intros x lx h Ix. now apply append_fill_ok.
Qed.

(** A modifier of one variable *)
Ltac one v a Hv s Lv Iv :=
  begin; str v a Hv;
  let G := fresh "G" in
  match goal with Rl : Rel _ _ _ |- _ =>
    destruct (rel_str _ _ _ _ _ Rl Hv) as (s & _ & G & Lv & Iv); rewrite G; clear G; cbn [bind] end.
Ltac fin Lv := match goal with Rl : Rel _ _ _ |- _ => apply rel_put_str; [apply Rl|exact Lv|] end.

Lemma does_simple tz o st vs : Rel tz st vs ->
  match o with
  | AssignLit _ _ | AssignChar _ _ | AppendLit _ _ | AppendFill _ _ _ | PopBack _ | Resize _ _ _
  | Reserve _ _ | ShrinkToFit _ | InsertLit _ _ _ | InsertFill _ _ _ _ | Erase _ _ _ | SetAt _ _ _ =>
      does tz o st vs
  | _ => True
  end.
Proof.
  intros Rl. destruct o; try exact Logic.I; cbv beta iota.
  - (* AssignLit *) one v a Hv s Lv Iv. cbn [set_all]. fin Lv.
    eapply assign_ok; [exact Iv|now rewrite map_length|]. left.
    rewrite <- (map_length Some l) at 1. apply steady_mem.
  - (* AssignChar *) one v a Hv s Lv Iv. cbn [set_all]. fin Lv.
    destruct (make_ok tz _ _ [Some c] Iv) as (t & h' & A & B & _). rewrite A. cbn [bind].
    now apply (become_ok tz h' _ s (map Some a)).
  - (* AppendLit *) one v a Hv s Lv Iv. cbn [set_all]. fin Lv.
    rewrite map_app. rewrite <- (map_length Some l) at 1. now apply append_mem.
  - (* AppendFill *) one v a Hv s Lv Iv. cbn [set_all]. fin Lv.
    rewrite map_app, map_repeat. now apply append_fill_ok.
  - (* PopBack *) one v a Hv s Lv Iv. destruct a as [|z a]; [exact Logic.I|]. cbn [set_all]. fin Lv.
    pose proof (shrink_ok tz _ _ _ _ 1 Iv) as X.
    assert (E : map Some (removelast (z :: a)) =
                firstn (length (map Some (z :: a)) - 1) (map Some (z :: a))).
    { rewrite map_length, firstn_map. f_equal. rewrite removelast_firstn_len. f_equal. lia. }
    rewrite E. apply X. rewrite map_length. cbn [length]. lia.
  - (* Resize *) one v a Hv s Lv Iv. cbn [set_all]. fin Lv.
    rewrite map_app, <- firstn_map, map_repeat. rewrite <- (map_length Some a). now apply resize_ok.
  - (* Reserve *) one v a Hv s Lv Iv. cbn [set_all]. fin Lv. apply gives1_gives. now apply reserve_gives.
  - (* ShrinkToFit *) one v a Hv s Lv Iv. cbn [set_all]. fin Lv. now apply shrink_to_fit_ok.
  - (* InsertLit *) one v a Hv s Lv Iv. destruct (Nat.ltb_spec (length a) pos) as [|L]; [exact Logic.I|].
    cbn [set_all]. fin Lv. rewrite !map_app, <- firstn_map, <- skipn_map.
    eapply insert_ok; [exact Iv|now rewrite map_length| |now rewrite map_length].
    rewrite <- (map_length Some l) at 1. apply steady_mem.
  - (* InsertFill *) one v a Hv s Lv Iv. destruct (Nat.ltb_spec (length a) pos) as [|L]; [exact Logic.I|].
    cbn [set_all]. fin Lv. rewrite !map_app, <- firstn_map, <- skipn_map, map_repeat. unfold insert_fill.
    eapply insert_ok; [exact Iv|now rewrite repeat_length| |now rewrite map_length].
    rewrite <- (repeat_length (Some c) n) at 2. apply steady_mem.
  - (* Erase *) one v a Hv s Lv Iv. unfold checked.
    destruct (inv_valid _ _ _ Iv _ _ (or_introl eq_refl)) as [Sz _]. rewrite map_length in Sz.
    destruct (Nat.ltb_spec (length a) pos) as [L|L].
    + unfold put_str, erase. rewrite Sz. destruct (Nat.ltb_spec (length a) pos); [reflexivity|lia].
    + cbn [set_all]. fin Lv. rewrite !map_app, <- firstn_map, <- skipn_map.
      apply erase_ok; [exact Iv|now rewrite map_length].
  - (* SetAt *) one v a Hv s Lv Iv.
    destruct (inv_valid _ _ _ Iv _ _ (or_introl eq_refl)) as [Sz _]. rewrite map_length in Sz.
    destruct (Nat.leb_spec (length a) pos) as [L|L].
    + unfold put_str, set_at. rewrite Sz. destruct (Nat.leb_spec (length a) pos); [reflexivity|lia].
    + cbn [set_all]. fin Lv.
      assert (E : map Some (lset a pos c) = lset (map Some a) pos (Some c)).
      { clear. revert pos. induction a as [|z a IH]; intros [|pos]; cbn; congruence. }
      rewrite E. apply set_at_ok; [exact Iv|now rewrite map_length].
Qed.

Lemma does_to_box tz st vs v w : Rel tz st vs -> does tz (ToBox v w) st vs.
Proof.
  intros Rl. begin. free v. str w l Hw.
  destruct (rel_free _ _ _ _ Rl Fr) as (_ & _ & G & Lv & I).
  destruct (rel_str _ _ _ _ _ Rl Hw) as (s & Es & Gs & Lw & _).
  rewrite G, Gs. cbn [bind set_all]. eexists. split; [reflexivity|].
  pose proof (free_rest _ _ _ _ _ _ _ Rl Fr Es Hw) as P.
  apply rel_put2; try exact Logic.I; try assumption; [eapply free_ne; eassumption|apply Rl|].
  cbn [own_slot map app]. apply reset_ok. eapply Inv_perm; [symmetry; exact P|exact I].
Qed.

Lemma does_from_box st vs v w : Rel false st vs -> does false (FromBox v w) st vs.
Proof.
  intros Rl. begin. free v. box w l Hw.
  destruct (rel_free _ _ _ _ Rl Fr) as (_ & _ & G & Lv & I).
  destruct (rel_box _ _ _ _ _ Rl Hw) as (s & Es & Gs & Lw & _).
  rewrite G, Gs. cbn [bind set_all]. eexists. split; [reflexivity|].
  pose proof (free_rest' _ _ _ _ _ _ _ Rl Fr Es Hw) as P.
  apply rel_put2; try exact Logic.I; try assumption; [eapply free_ne'; eassumption|apply Rl|].
  cbn [own_slot map app]. apply unbox_ok. eapply Inv_perm; [symmetry; exact P|exact I].
Qed.

Lemma does_copy_box tz st vs v w : Rel tz st vs -> does tz (CopyBox v w) st vs.
Proof.
  intros Rl. begin. free v. box w l Hw.
  destruct (rel_free _ _ _ _ Rl Fr) as (_ & _ & G & Lv & I).
  destruct (rel_box _ _ _ _ _ Rl Hw) as (s & Es & Gs & Lw & _).
  rewrite G, Gs. cbn [bind set_all].
  assert (H : In (s, map Some l) (rest st vs v)).
  { eapply Permutation_in; [eapply free_rest'; eassumption|now left]. }
  destruct (inv_valid _ _ _ I _ _ H) as [Sz _]. rewrite Sz.
  rewrite (peek_ok tz _ _ s (map Some l) 0 _ I H) by lia. cbn [bind skipn]. rewrite firstn_all.
  destruct (make_view_ok tz _ _ (map Some l) s 0 I H eq_refl) as (x & h' & C & I'). rewrite C. cbn [bind].
  eexists. split; [reflexivity|]. apply rel_put; [apply Rl|exact Lv|exact Logic.I|exact I'].
Qed.

Lemma does_destroy_box tz st vs v : Rel tz st vs -> does tz (DestroyBox v) st vs.
Proof.
  intros Rl. begin. box v l Hv. destruct (rel_box _ _ _ _ _ Rl Hv) as (s & Es & Gs & Lv & I).
  rewrite Gs. cbn [bind set_all]. destruct (destroy_ok _ _ _ _ _ I) as (h' & D & I'). rewrite D. cbn [bind].
  eexists. split; [reflexivity|]. apply rel_put; [apply Rl|exact Lv|exact Logic.I|exact I'].
Qed.

Lemma step_does tz o st vs : Rel tz st vs -> (tz = true -> no_unbox o = true) -> does tz o st vs.
Proof.
  intros Rl T. pose proof (does_simple tz o st vs Rl) as X.
  destruct o; try exact X; clear X.
  - now apply does_new.
  - now apply does_new_fill.
  - now apply does_copy.
  - now apply does_move.
  - now apply does_of_view.
  - now apply does_sub.
  - now apply does_destroy.
  - now apply does_assign.
  - now apply does_move_assign.
  - now apply does_assign_view.
  - now apply does_assign_sub.
  - now apply does_append.
  - now apply does_insert.
  - now apply does_replace.
  - now apply does_replace_fill.
  - now apply does_to_box.
  - destruct tz; [now specialize (T eq_refl)|]. now apply does_from_box.
  - now apply does_copy_box.
  - now apply does_destroy_box.
Qed.

Lemma run_ok tz os vs vs' l : behaves os vs vs' l -> forall st, Rel tz st vs ->
  (tz = true -> forallb no_unbox os = true) ->
  exists st', run ms mm good os st = Ok (st', l) /\ Rel tz st' vs'.
Proof.
  induction 1 as [vs|o os vs ch vs' l M _ IH|o os vs e vs' l M _ IH]; intros st Rl T.
  - exists st. auto.
  - assert (T1 : tz = true -> no_unbox o = true) by (intros X; apply T, andb_prop in X; tauto).
    assert (T2 : tz = true -> forallb no_unbox os = true) by (intros X; apply T, andb_prop in X; tauto).
    pose proof (step_does tz o st vs Rl T1) as D. unfold does in D. rewrite M in D.
    destruct D as (st1 & E & R1). destruct (IH st1 R1 T2) as (st2 & E2 & R2).
    exists st2. cbn [run]. rewrite E, E2. auto.
  - assert (T1 : tz = true -> no_unbox o = true) by (intros X; apply T, andb_prop in X; tauto).
    assert (T2 : tz = true -> forallb no_unbox os = true) by (intros X; apply T, andb_prop in X; tauto).
    pose proof (step_does tz o st vs Rl T1) as D. unfold does in D. rewrite M in D.
    destruct (IH st Rl T2) as (st2 & E2 & R2). exists st2. cbn [run]. rewrite D, E2. auto.
Qed.

Lemma rel_start tz k : Rel tz (repeat Free k, []) (repeat VFree k).
Proof.
  split; cbn [fst snd].
  - induction k; cbn; constructor; auto. exact Logic.I.
  - assert (E : owners_of (repeat Free k) (repeat VFree k) = []) by (induction k; auto).
    rewrite E. split.
    + intros s l [].
    + intros p b H. now destruct p.
    + intros p n l n' l' [].
Qed.

(** What can be seen of the store *)
Lemma rel_chars tz st vs v l : Rel tz st vs -> str_of (nth_error vs v) = Some l ->
  exists s, nth_error (fst st) v = Some (Str s) /\ size s = length l /\
            chars s (snd st) = Ok (map Some l) /\
            (tz = true -> terminator s (snd st) = Ok [zero]).
Proof.
  intros Rl H. destruct (rel_str _ _ _ _ _ Rl H) as (s & E & _ & _ & I). exists s. split; [exact E|].
  destruct (inv_valid _ _ _ I _ _ (or_introl eq_refl)) as [Sz V]. split; [now rewrite map_length in Sz|].
  split.
  - unfold chars. rewrite Sz. rewrite (peek_ok tz _ _ s (map Some l) 0 _ I (or_introl eq_refl)) by lia.
    cbn [skipn]. now rewrite firstn_all.
  - intros T. unfold terminator. rewrite Sz.
    assert (X : forall c, hold tz c (map Some l) -> firstn 1 (skipn (length (map Some l)) c) = [zero]
                /\ length (map Some l) + 1 <= length c).
    { intros c (L1 & _ & Z). specialize (Z T). split; [|lia].
      apply nth_ext_len.
      - rewrite firstn_length, skipn_length. cbn [length]. lia.
      - intros i Hi. rewrite firstn_length in Hi. assert (i = 0) as -> by lia.
        rewrite nth_firstn, nth_skipn, Nat.add_0_r. exact Z. }
    destruct s as [c n|p n|p n]; cbn [peek].
    + destruct V as [Lc Ho]. destruct (X c Ho) as [-> L].
      destruct (Nat.leb_spec (length (map Some l) + 1) (length c)); [reflexivity|lia].
    + destruct V as (b & Eb & _ & Ho). unfold hread. rewrite (hget_live _ _ _ Eb). cbn [bind].
      destruct (X _ Ho) as [-> L]. destruct (Nat.leb_spec (length (map Some l) + 1) (length (cells b))); [reflexivity|lia].
    + destruct V as (b & Eb & _ & Ho). unfold hread. rewrite (hget_live _ _ _ Eb). cbn [bind].
      destruct (X _ Ho) as [-> L]. destruct (Nat.leb_spec (length (map Some l) + 1) (length (cells b))); [reflexivity|lia].
Qed.

Lemma rel_boxed tz st vs v l : Rel tz st vs -> box_of (nth_error vs v) = Some l ->
  exists s, nth_error (fst st) v = Some (Box s) /\ size s = length l /\ chars s (snd st) = Ok (map Some l).
Proof.
  intros Rl H. destruct (rel_box _ _ _ _ _ Rl H) as (s & E & _ & _ & I). exists s. split; [exact E|].
  destruct (inv_valid _ _ _ I _ _ (or_introl eq_refl)) as [Sz V]. split; [now rewrite map_length in Sz|].
  unfold chars. rewrite Sz. rewrite (peek_ok tz _ _ s (map Some l) 0 _ I (or_introl eq_refl)) by lia.
  cbn [skipn]. now rewrite firstn_all.
Qed.

Lemma owner_slot xs ys s l : In (s, l) (owners_of xs ys) ->
  exists v, nth_error xs v = Some (Str s) \/ nth_error xs v = Some (Box s).
Proof.
  revert ys. induction xs as [|x xs IH]; intros [|y ys] H; try (now destruct H).
  cbn [owners_of] in H. apply in_app_or in H. destruct H as [H|H].
  - exists 0. destruct x as [|s'|s'], y as [|l'|l']; try (now destruct H); cbn in H;
      destruct H as [H|[]]; injection H as <- <-; cbn; auto.
  - destruct (IH ys H) as (v & E). exists (S v). exact E.
Qed.

(** No block is forgotten: each belongs to some variable. *)
Lemma rel_blocks tz st vs p b : Rel tz st vs -> nth_error (snd st) p = Some (Some b) ->
  exists v s, (nth_error (fst st) v = Some (Str s) \/ nth_error (fst st) v = Some (Box s)) /\ owned s = Some p.
Proof.
  intros [_ I] E. destruct (inv_count _ _ _ I p b E) as (X & Y & _).
  unfold count in X. destruct (filter (owns p) _) as [|[s l] f] eqn:F; [cbn in X; lia|].
  assert (H : In (s, l) (filter (owns p) (owners_of (fst st) vs))) by (rewrite F; now left).
  apply filter_In in H. destruct H as [H O]. unfold owns in O. cbn in O.
  destruct (owned s) as [q|] eqn:Os; [|discriminate]. apply Nat.eqb_eq in O. subst q.
  destruct (owner_slot _ _ _ _ H) as (v & Ev). exists v, s. auto.
Qed.
End Core.
