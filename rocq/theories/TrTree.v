(** The tree in the double array: where each path is, its children in order. *)
From Verif Require Import Base ListAux TrModel TrRing TrFree TrCells TrRoom TrPlace.
From Coq Require Import Sorted.
Local Open Scope Z_scope.

Definition locs := list Z -> option Z.
Definition updp (loc : locs) (p : list Z) (i : Z) : locs := fun q => if list_eq_dec Z.eq_dec q p then Some i else loc q.
Lemma updp_eq loc p i : updp loc p i p = Some i.
Proof. unfold updp. now destruct (list_eq_dec Z.eq_dec p p). Qed.
Lemma updp_ne loc p i q : q <> p -> updp loc p i q = loc q.
Proof. intros H. unfold updp. now destruct (list_eq_dec Z.eq_dec q p). Qed.
Lemma snoc_ne {A} (p : list A) c : p <> p ++ [c].
Proof. intros H. apply (f_equal (@length A)) in H. rewrite app_length in H. cbn in H. lia. Qed.
Lemma snoc2_ne {A} (p : list A) c d : p <> (p ++ [c]) ++ [d].
Proof. intros H. apply (f_equal (@length A)) in H. rewrite !app_length in H. cbn in H. lia. Qed.

Definition inP (c : Z) (ps : list Z) : bool := existsb (Z.eqb c) ps.
Lemma inP_true c ps : inP c ps = true <-> In c ps.
Proof. unfold inP. rewrite existsb_exists. split; [intros (x & I & E); apply Z.eqb_eq in E; now subst|]. intros I. exists c. now rewrite Z.eqb_refl. Qed.
Lemma inP_false c ps : inP c ps = false <-> ~ In c ps.
Proof. rewrite <- inP_true. destruct (inP c ps); intuition congruence. Qed.

(** While the children of [mv] move, those in [ps] are still at [old]. *)
Definition bof (t : da) (mv old : Z) (ps : list Z) (j c : Z) : Z :=
  if (j =? mv) && inP c ps then old else base_ (arr t j).
Record Tree (t : da) (loc : locs) (mv old : Z) (ps : list Z) (hole : list Z) (orph : Z) : Prop := {
  t_root : loc [] = Some 0;
  t_rbase : base_ (arr t 0) = 0;
  t_inj : forall p q i, loc p = Some i -> loc q = Some i -> p = q;
  t_all : forall i, 0 < i < size t -> 0 <= check (arr t i) -> i = orph \/ exists p, loc p = Some i;
  t_in : forall p i, loc p = Some i -> 0 <= i < size t /\ ~ freec t i /\ i <> orph;
  t_node : forall p c i, loc (p ++ [c]) = Some i ->
    0 <= c < 256 /\ ~ In 0 p /\ (p = [] -> c <> 0) /\
    exists j, loc p = Some j /\ check (arr t i) = j /\ i = Z.lxor (bof t mv old ps j c) c;
  t_base : forall p j, loc p = Some j -> ~ In 0 p -> p <> [] ->
    (base_ (arr t j) = -1 /\ p = hole /\ forall c, loc (p ++ [c]) = None) \/
    (256 <= base_ (arr t j) < size t /\ exists c, loc (p ++ [c]) <> None) }.

Fixpoint sibs (s : Z -> Z) (b : Z) (K : list Z) (e : Z) : Prop :=
  match K with [] => True | c :: K => s (Z.lxor b c) = hd e K /\ sibs s b K e end.
Definition sib (t : da) (x : Z) : Z := sibling (inf t x).
Definition chd (t : da) (x : Z) : Z := child (inf t x).
Record kidsof (t : da) (loc : locs) (p : list Z) (j : Z) (K : list Z) : Prop := {
  h_sorted : StronglySorted Z.lt K;
  h_in : forall c, In c K <-> loc (p ++ [c]) <> None \/ (p = [] /\ c = 0);
  h_child : chd t j = hd 0 K;
  h_sibs : sibs (sib t) (base_ (arr t j)) K 0 }.
Record Links (t : da) (loc : locs) (sk : list (list Z)) : Prop := {
  n_kids : forall p j, loc p = Some j -> ~ In 0 p -> ~ In p sk -> exists K, kidsof t loc p j K;
  n_leaf : forall p i, loc (p ++ [0]) = Some i -> chd t i = 0;
  n_free : forall i, freec t i -> inf t i = Info 0 0 }.

Lemma sibs_app s b K1 : forall c K2 e, sibs s b (K1 ++ c :: K2) e <-> sibs s b K1 c /\ sibs s b (c :: K2) e.
Proof.
  induction K1 as [|a K1 IH]; intros c K2 e; [cbn; tauto|]. cbn [app sibs]. rewrite IH.
  assert (hd e (K1 ++ c :: K2) = hd c K1) as -> by (destruct K1; easy). cbn [sibs]. tauto.
Qed.
Lemma sibs_ext s s' b K e : (forall c, In c K -> s' (Z.lxor b c) = s (Z.lxor b c)) -> sibs s b K e -> sibs s' b K e.
Proof.
  induction K as [|c K IH]; intros H; cbn; [easy|]. intros [A B]. split; [rewrite H by (now left); easy|]. apply IH; [|easy]. intros x I. apply H. now right.
Qed.
Lemma sorted_nodup K : StronglySorted Z.lt K -> NoDup K.
Proof.
  induction 1 as [|a K S IH F]; constructor; [|easy]. intros I. rewrite Forall_forall in F. specialize (F a I). lia.
Qed.
Lemma labels_length K : StronglySorted Z.lt K -> (forall c, In c K -> 0 <= c < 256) -> (length K <= 256)%nat.
Proof.
  intros S H. rewrite <- (zseq_length 256 0). apply NoDup_incl_length; [now apply sorted_nodup|]. intros x I. apply H in I. apply in_zseq. lia.
Qed.
(** in a list of labels the only 0 is the first *)
Lemma tail_pos c K : StronglySorted Z.lt (c :: K) -> (forall x, In x (c :: K) -> 0 <= x) -> forall x, In x K -> 0 < x.
Proof. intros S H x I. inversion S as [|? ? S' F]; subst. rewrite Forall_forall in F. specialize (F x I). specialize (H c (or_introl eq_refl)). lia. Qed.
Lemma hd_tail_zero c K : StronglySorted Z.lt (c :: K) -> (forall x, In x (c :: K) -> 0 <= x) -> hd 0 K = 0 -> K = [].
Proof. intros S H E. destruct K as [|d K]; [easy|]. cbn in E. pose proof (tail_pos _ _ S H d (or_introl eq_refl)). lia. Qed.

(** ** Walks along the children *)
Section Walks.
Variables (t : da) (b : Z).
Hypothesis R : ready t = true.
Lemma consult_ok b2 K2 : forall K1 c1 c2 K2' fuel,
  StronglySorted Z.lt (c1 :: K1) -> (forall x, In x (c1 :: K1) -> 0 <= x /\ 0 <= Z.lxor b x < size t) -> sibs (sib t) b (c1 :: K1) 0 ->
  K2 = c2 :: K2' ->
  (forall x, In x K2 -> 0 <= x /\ 0 <= Z.lxor b2 x < size t) -> sibs (sib t) b2 K2 0 -> StronglySorted Z.lt K2 ->
  (length K1 < fuel)%nat -> exists f, consult fuel t b b2 c1 c2 = Ok f.
Proof.
  intros K1. revert K2. induction K1 as [|d1 K1 IH]; intros K2 c1 c2 K2' [|fuel] S1 B1 H1 -> B2 H2 S2 LF; cbn [length] in LF; try lia; cbn [consult].
  - rewrite get_i_ok by (try easy; apply B1; now left). cbn [bind]. rewrite get_i_ok by (try easy; apply B2; now left). cbn [bind].
    destruct H1 as [H1 _]. unfold sib in H1. rewrite H1. cbn. eauto.
  - rewrite get_i_ok by (try easy; apply B1; now left). cbn [bind]. rewrite get_i_ok by (try easy; apply B2; now left). cbn [bind].
    destruct H1 as [H1 H1']. destruct H2 as [H2 H2']. unfold sib in H1, H2. rewrite H1, H2. cbn [hd].
    destruct K2' as [|d2 K2]; cbn [hd]; [rewrite andb_false_r; eauto|].
    destruct (negb (d1 =? 0) && negb (d2 =? 0)); [|eauto].
    apply (IH (d2 :: K2) d1 d2 K2); try easy; try lia.
    + now inversion S1.
    + intros x I. apply B1. now right.
    + intros x I. apply B2. now right.
    + now inversion S2.
Qed.

Lemma siblings_none K : forall fuel l0, StronglySorted Z.lt K -> (forall x, In x K -> 0 < x /\ 0 <= Z.lxor b x < size t) -> sibs (sib t) b K 0 ->
  (length K < fuel)%nat -> siblings_from fuel t b (hd 0 K) l0 true = Ok K.
Proof.
  induction K as [|c K IH]; intros [|fuel] l0 SS B H LF; cbn [length] in LF; try lia; cbn [siblings_from negb andb hd]; [easy|].
  destruct (B c (or_introl eq_refl)) as [P Q]. destruct (Z.eqb_spec c 0); [lia|]. rewrite get_i_ok by easy. cbn [bind]. destruct H as [H1 H2]. unfold sib in H1. rewrite H1.
  rewrite IH; [easy| | |easy|lia]. { now inversion SS. } intros x I. apply B. now right.
Qed.
Lemma siblings_some K label : forall fuel, StronglySorted Z.lt K -> (forall x, In x K -> 0 < x /\ 0 <= Z.lxor b x < size t) -> sibs (sib t) b K 0 ->
  ~ In label K -> (S (length K) < fuel)%nat ->
  exists A B, K = A ++ B /\ siblings_from fuel t b (hd 0 K) label false = Ok (A ++ label :: B) /\ StronglySorted Z.lt (A ++ label :: B).
Proof.
  induction K as [|c K IH]; intros [|fuel] SS B H NI LF; cbn [length] in LF; try lia; cbn [siblings_from negb hd].
  - exists [], []. split; [easy|]. cbn [andb]. rewrite Z.eqb_refl. cbn [orb]. destruct fuel as [|fuel]; [lia|]. cbn. split; [easy|]. constructor; constructor.
  - destruct (B c (or_introl eq_refl)) as [P Q]. cbn [andb]. destruct (Z.eqb_spec c 0); [lia|]. cbn [orb]. destruct (Z.leb_spec label c) as [L|L].
    + exists [], (c :: K). split; [easy|]. change c with (hd 0 (c :: K)) at 1. rewrite (siblings_none (c :: K)) by (try easy; cbn [length]; lia). split; [easy|].
      cbn [app]. constructor; [easy|]. assert (label <> c) by (intros ->; apply NI; now left). inversion SS as [|? ? S' F]; subst. constructor; [lia|].
      rewrite Forall_forall in *. intros x I. specialize (F x I). lia.
    + rewrite get_i_ok by easy. cbn [bind]. destruct H as [H1 H2]. unfold sib in H1. rewrite H1.
      inversion SS as [|? ? S' F]; subst.
      destruct (IH fuel S') as (A & B' & E & E2 & S2); [intros x I; apply B; now right|easy|intros I; apply NI; now right|lia|].
      rewrite E2. exists (c :: A), B'. split; [now rewrite E|]. split; [easy|]. cbn [app]. constructor; [easy|].
      rewrite Forall_forall in *. intros x I. rewrite in_app_iff in I. cbn in I. destruct I as [I|[I|I]]; [apply F; rewrite E, in_app_iff; now left|lia|apply F; rewrite E, in_app_iff; now right].
Qed.
Lemma list_children_ok K label : StronglySorted Z.lt K -> K <> [] -> (forall x, In x K -> 0 <= x < 256 /\ 0 <= Z.lxor b x < size t) -> sibs (sib t) b K 0 ->
  match label with Some x => ~ In x K /\ 0 <= x < 256 | None => True end ->
  exists L, list_children t b (hd 0 K) label = Ok L /\ StronglySorted Z.lt L /\ (forall c, In c L <-> In c K \/ label = Some c) /\ (label = None -> L = K) /\ (In 0 K -> hd 0 L = 0).
Proof.
  intros SS NE B H LB. unfold list_children.
  assert (LK : (length K <= 256)%nat) by (apply labels_length; [easy|intros c I; now apply B]).
  assert (FIN : forall L, StronglySorted Z.lt L -> (forall c, In c L <-> In c K \/ label = Some c) -> (256 <? length L)%nat = false).
  { intros L SL IL. apply Nat.ltb_ge. apply labels_length; [easy|]. intros c I. apply IL in I as [I|I]; [now apply B|]. rewrite I in LB. apply LB. }
  destruct K as [|c K]; [easy|]. cbn [hd] in *. cbn [length] in LK. inversion SS as [|? ? S' F]; subst. destruct H as [H1 H2]. unfold sib in H1.
  pose proof (tail_pos c K SS ltac:(intros x I; apply B in I; lia)) as TP.
  destruct (Z.eqb_spec c 0) as [->|NZ].
  - rewrite get_i_ok by (try easy; apply B; now left). cbn [bind]. rewrite H1. destruct label as [x|].
    + destruct LB as [NI LB]. destruct (siblings_some K x 260 S') as (A & B' & E & E2 & S2); [intros y I; split; [now apply TP|apply B; now right]|easy|intros I; apply NI; now right|lia|].
      rewrite E2. cbn [bind]. assert (SL : StronglySorted Z.lt (0 :: A ++ x :: B')).
      { constructor; [easy|]. rewrite Forall_forall in *. intros y I. rewrite in_app_iff in I. cbn in I.
        assert (x <> 0) by (intros ->; apply NI; now left). destruct I as [I|[I|I]]; [apply F; rewrite E, in_app_iff; now left|lia|apply F; rewrite E, in_app_iff; now right]. }
      assert (IL : forall c, In c (0 :: A ++ x :: B') <-> In c (0 :: K) \/ Some x = Some c).
      { intros y. rewrite E. cbn. rewrite !in_app_iff. cbn. split; [intuition congruence|]. intros [[?|?]|Q]; [tauto|tauto|injection Q as ->; tauto]. }
      rewrite (FIN _ SL IL). exists (0 :: A ++ x :: B'). split; [reflexivity|]. split; [exact SL|]. split; [exact IL|]. split; [discriminate|reflexivity].
    + change (siblings_from 260 t b (hd 0 K) 0 true) with (siblings_from 260 t b (hd 0 K) 0 true). rewrite siblings_none; [|easy|intros y I; split; [now apply TP|apply B; now right]|easy|lia]. cbn [bind].
      assert (IL : forall c, In c (0 :: K) <-> In c (0 :: K) \/ None = Some c) by (intros y; intuition congruence).
      rewrite (FIN _ SS IL). exists (0 :: K). split; [reflexivity|]. split; [exact SS|]. split; [exact IL|]. split; reflexivity.
  - assert (PP : forall y, In y (c :: K) -> 0 < y /\ 0 <= Z.lxor b y < size t).
    { intros y [<-|I]; [|split; [now apply TP|apply B; now right]]. destruct (B c (or_introl eq_refl)). lia. }
    destruct label as [x|].
    + destruct LB as [NI LB]. destruct (siblings_some (c :: K) x 260 SS PP) as (A & B' & E & E2 & S2); [easy|easy|cbn [length]; lia|].
      cbn [hd] in E2. rewrite E2. cbn [bind].
      assert (IL : forall y, In y (A ++ x :: B') <-> In y (c :: K) \/ Some x = Some y).
      { intros y. rewrite E. rewrite !in_app_iff. cbn. split; [intuition congruence|]. intros [[?|?]|Q]; [tauto|tauto|injection Q as ->; tauto]. }
      rewrite (FIN _ S2 IL). exists (A ++ x :: B'). split; [reflexivity|]. split; [exact S2|]. split; [exact IL|]. split; [discriminate|].
      intros I0. destruct (PP 0 I0). lia.
    + pose proof (siblings_none (c :: K) 260%nat 0 SS PP ltac:(easy) ltac:(cbn [length]; lia)) as E. cbn [hd] in E. rewrite E. cbn [bind].
      assert (IL : forall y, In y (c :: K) <-> In y (c :: K) \/ None = Some y) by (intros y; intuition congruence).
      rewrite (FIN _ SS IL). exists (c :: K). split; [reflexivity|]. split; [exact SS|]. split; [exact IL|]. split; [reflexivity|]. intros I0. destruct (PP 0 I0). lia.
Qed.

(** ** Putting a label among the children *)
Lemma sib_place_ok label : forall K c fuel p, deref t p = Ok c -> c < label -> StronglySorted Z.lt (c :: K) ->
  (forall x, In x (c :: K) -> 0 <= x /\ 0 <= Z.lxor b x < size t) -> sibs (sib t) b (c :: K) 0 -> ~ In label K -> (length K < fuel)%nat ->
  exists A c0 B, c :: K = A ++ c0 :: B /\ sib_place fuel t b label p = Ok (PSib (Z.lxor b c0)) /\ c0 < label /\ (forall x, In x B -> label < x).
Proof.
  induction K as [|d K IH]; intros c [|fuel] p D L SS B H NI LF; cbn [length] in LF; try lia; cbn [sib_place]; rewrite D; cbn [bind].
  - cbn [deref]. rewrite get_i_ok by (try easy; apply B; now left). cbn [bind]. destruct H as [H _]. unfold sib in H. rewrite H. cbn. exists [], c, []. easy.
  - cbn [deref]. rewrite get_i_ok by (try easy; apply B; now left). cbn [bind]. destruct H as [H1 H2]. unfold sib in H1. rewrite H1. cbn [hd].
    inversion SS as [|? ? S' F]; subst. assert (P : 0 < d) by (inversion F; subst; destruct (B c (or_introl eq_refl)); lia).
    destruct (Z.eqb_spec d 0); [lia|]. cbn [negb andb]. destruct (Z.ltb_spec d label) as [L2|L2].
    + destruct (IH d fuel (PSib (Z.lxor b c))) as (A & c0 & B' & E & E2 & X); try easy; try lia.
      * cbn [deref]. rewrite get_i_ok by (try easy; apply B; now left). cbn [bind]. now rewrite H1.
      * intros x I. apply B. now right.
      * intros I. apply NI. now right.
      * exists (c :: A), c0, B'. split; [now rewrite E|]. easy.
    + exists [], c, (d :: K). split; [easy|]. split; [easy|]. split; [easy|]. intros x [<-|I]; [assert (label <> d) by (intros ->; apply NI; now left); lia|].
      assert (label <> d) by (intros ->; apply NI; now left). inversion S' as [|? ? S2 F2]; subst. rewrite Forall_forall in F2. specialize (F2 x I). lia.
Qed.
End Walks.

Definition with_inf (t : da) (f : Z -> ninfo) : da := Da (arr t) f (blk t) (headF t) (headC t) (headO t) (size t) (rej t) (ready t).
Lemma push_sibling_ok t b j K label : ready t = true -> 0 <= j < size t -> StronglySorted Z.lt K ->
  (forall x, In x (label :: K) -> 0 <= x < 256 /\ 0 <= Z.lxor b x < size t) ->
  chd t j = hd 0 K -> sibs (sib t) b K 0 -> ~ In label K ->
  exists f K', push_sibling t j b label (match K with [] => false | _ => true end) = Ok (with_inf t f) /\
    StronglySorted Z.lt K' /\ (forall c, In c K' <-> In c K \/ c = label) /\
    child (f j) = hd 0 K' /\ sibs (fun x => sibling (f x)) b K' 0 /\
    (forall x, x <> j -> child (f x) = chd t x) /\
    (forall x, (forall c, In c K' -> x <> Z.lxor b c) -> sibling (f x) = sib t x).
Proof.
  intros R J SS B CH H NI. unfold push_sibling. cbn [deref]. rewrite get_i_ok by easy. cbn [bind]. unfold chd in CH. rewrite CH.
  assert (FRONT : (forall x, In x K -> label < x) -> exists f K', (let! c := deref t (PChild j) in let! t := set_sibling t (Z.lxor b label) c in write t (PChild j) label) = Ok (with_inf t f) /\
    StronglySorted Z.lt K' /\ (forall c, In c K' <-> In c K \/ c = label) /\ child (f j) = hd 0 K' /\ sibs (fun x => sibling (f x)) b K' 0 /\
    (forall x, x <> j -> child (f x) = chd t x) /\ (forall x, (forall c, In c K' -> x <> Z.lxor b c) -> sibling (f x) = sib t x)).
  { intros LT. cbn [deref]. rewrite get_i_ok by easy. cbn [bind]. rewrite set_sibling_ok by (try easy; apply B; now left). cbn [bind write].
    rewrite set_child_ok by easy. cbn [inf arr blk headF headC headO size rej ready].
    match goal with |- exists f K', Ok (Da _ ?g _ _ _ _ _ _ _) = _ /\ _ => exists g end. exists (label :: K). split; [easy|].
    assert (G : forall x, sibling (upd (upd (inf t) (Z.lxor b label) {| sibling := child (inf t j); child := child (inf t (Z.lxor b label)) |}) j
      {| sibling := sibling (upd (inf t) (Z.lxor b label) {| sibling := child (inf t j); child := child (inf t (Z.lxor b label)) |} j); child := label |} x)
      = if x =? Z.lxor b label then hd 0 K else sib t x).
    { intros x. unfold upd, sib. destruct (Z.eqb_spec x j) as [->|]; cbn; [destruct (Z.eqb_spec j (Z.lxor b label)); easy|]. destruct (Z.eqb_spec x (Z.lxor b label)); easy. }
    split; [constructor; [easy|]; rewrite Forall_forall; easy|]. split; [intros c; cbn; intuition congruence|]. split; [rewrite upd_eq; easy|]. split; [|split].
    - cbn [sibs]. rewrite G, Z.eqb_refl. split; [easy|]. eapply sibs_ext; [|exact H]. intros c I. cbn beta. rewrite G. destruct (Z.eqb_spec (Z.lxor b c) (Z.lxor b label)) as [E|]; [|easy].
      apply lxor_inj_r in E. subst c. easy.
    - intros x X. rewrite upd_ne by easy. unfold upd, chd. destruct (Z.eqb_spec x (Z.lxor b label)) as [->|]; easy.
    - intros x X. rewrite G. destruct (Z.eqb_spec x (Z.lxor b label)) as [E|]; [|easy]. elim (X label (or_introl eq_refl)). easy. }
  destruct K as [|c K].
  - cbn [andb]. cbn [bind]. apply FRONT. easy.
  - cbn [hd andb]. destruct (Z.ltb_spec c label) as [L|L].
    + assert (LK : (length (c :: K) <= 256)%nat) by (apply labels_length; [easy|]; intros x I; apply B; now right). cbn [length] in LK.
      destruct (sib_place_ok t b R label K c 257 (PChild j)) as (A & c0 & B' & E & E2 & L0 & LB); try easy.
      { cbn [deref]. rewrite get_i_ok by easy. cbn [bind]. now rewrite CH. } { intros x I. destruct (B x (or_intror I)). lia. } { intros I. apply NI. now right. } { lia. }
      rewrite E2. cbn [bind deref].
      assert (I0 : In c0 (c :: K)) by (rewrite E, in_app_iff; right; now left).
      rewrite get_i_ok by (try easy; apply B; now right). cbn [bind]. rewrite set_sibling_ok by (try easy; apply B; now left). cbn [bind write].
      rewrite set_sibling_ok by (try easy; apply B; now right). cbn [inf arr blk headF headC headO size rej ready].
      match goal with |- exists f K', Ok (Da _ ?g _ _ _ _ _ _ _) = _ /\ _ => exists g; set (f := g) end. exists (A ++ c0 :: label :: B'). split; [easy|].
      assert (NE : Z.lxor b c0 <> Z.lxor b label) by (intros Q; apply lxor_inj_r in Q; subst c0; easy).
      assert (G : forall x, sibling (f x) = if x =? Z.lxor b c0 then label else if x =? Z.lxor b label then sib t (Z.lxor b c0) else sib t x).
      { intros x. unfold f, upd, sib. destruct (Z.eqb_spec x (Z.lxor b c0)) as [->|]; cbn; [easy|]. destruct (Z.eqb_spec x (Z.lxor b label)); easy. }
      assert (GC : forall x, child (f x) = chd t x).
      { intros x. unfold f, upd, chd. destruct (Z.eqb_spec x (Z.lxor b c0)) as [->|]; cbn; [destruct (Z.eqb_spec (Z.lxor b c0) (Z.lxor b label)); [easy|easy]|]. destruct (Z.eqb_spec x (Z.lxor b label)) as [->|]; easy. }
      rewrite E in H, SS, NI. apply sibs_app in H as [H1 H2]. cbn [sibs] in H2. destruct H2 as [H2 H3].
      assert (DIS : forall x, In x A \/ In x B' -> x <> c0).
      { intros x I ->. apply sorted_nodup in SS. apply NoDup_remove_2 in SS. apply SS. rewrite in_app_iff. easy. }
      assert (NL : forall x, In x A \/ In x B' -> x <> label).
      { intros x I ->. apply NI. rewrite in_app_iff. cbn. tauto. }
      split; [|split; [|split; [|split; [|split]]]].
      * clear -SS LB L0. induction A as [|a A IH]; cbn [app] in *.
        -- inversion SS as [|? ? S1 F1]; subst. constructor; [constructor; [easy|rewrite Forall_forall; easy]|]. constructor; [easy|easy].
        -- inversion SS as [|? ? S1 F1]; subst. constructor; [now apply IH|]. rewrite Forall_forall in *. intros x I. rewrite in_app_iff in I. cbn in I.
           assert (a < c0) by (apply F1; rewrite in_app_iff; right; now left).
           destruct I as [I|[I|[I|I]]]; [apply F1; rewrite in_app_iff; now left|lia|lia|apply F1; rewrite in_app_iff; right; now right].
      * intros x. rewrite E, !in_app_iff. cbn. intuition congruence.
      * rewrite GC. unfold chd. rewrite CH. cbn [hd]. destruct A as [|a A]; cbn in E |- *; now injection E.
      * apply sibs_app. split; [|cbn [sibs hd]; split; [|split]].
        -- eapply sibs_ext; [|exact H1]. intros x I. cbn beta. rewrite G.
           destruct (Z.eqb_spec (Z.lxor b x) (Z.lxor b c0)) as [Q|]; [apply lxor_inj_r in Q; elim (DIS x); tauto|].
           destruct (Z.eqb_spec (Z.lxor b x) (Z.lxor b label)) as [Q|]; [apply lxor_inj_r in Q; elim (NL x); tauto|easy].
        -- rewrite G, Z.eqb_refl. easy.
        -- rewrite G. destruct (Z.eqb_spec (Z.lxor b label) (Z.lxor b c0)); [congruence|]. rewrite Z.eqb_refl. exact H2.
        -- eapply sibs_ext; [|exact H3]. intros x I. cbn beta. rewrite G.
           destruct (Z.eqb_spec (Z.lxor b x) (Z.lxor b c0)) as [Q|]; [apply lxor_inj_r in Q; elim (DIS x); tauto|].
           destruct (Z.eqb_spec (Z.lxor b x) (Z.lxor b label)) as [Q|]; [apply lxor_inj_r in Q; elim (NL x); tauto|easy].
      * intros x _. apply GC.
      * intros x X. rewrite G. destruct (Z.eqb_spec x (Z.lxor b c0)) as [Q|]; [elim (X c0); [rewrite in_app_iff; right; now left|easy]|].
        destruct (Z.eqb_spec x (Z.lxor b label)) as [Q|]; [elim (X label); [rewrite in_app_iff; right; right; now left|easy]|easy].
    + cbn [bind]. apply FRONT. intros x I. assert (label <> c) by (intros ->; apply NI; now left).
      destruct I as [<-|I]; [lia|]. inversion SS as [|? ? S1 F1]; subst. rewrite Forall_forall in F1. specialize (F1 x I). lia.
Qed.

(** the children of a moved node *)
Definition with_arr (t : da) (f : Z -> node) : da := Da f (inf t) (blk t) (headF t) (headC t) (headO t) (size t) (rej t) (ready t).
Lemma adopt_ok b to : forall K c fuel t, ready t = true -> StronglySorted Z.lt (c :: K) -> (forall x, In x (c :: K) -> 0 <= x /\ 0 <= Z.lxor b x < size t) ->
  sibs (sib t) b (c :: K) 0 -> (length K < fuel)%nat ->
  exists f, adopt fuel t b c to = Ok (with_arr t f) /\
    (forall x, In x (map (Z.lxor b) (c :: K)) -> f x = Node (base_ (arr t x)) to) /\ (forall x, ~ In x (map (Z.lxor b) (c :: K)) -> f x = arr t x).
Proof.
  induction K as [|d K IH]; intros c [|fuel] t R SS B H LF; cbn [length] in LF; try lia; cbn [adopt].
  - destruct (B c (or_introl eq_refl)) as [_ Bc]. rewrite set_check_ok by easy. cbn [bind]. rewrite get_i_ok by easy. cbn [bind inf]. destruct H as [H _]. unfold sib in H. rewrite H. cbn [hd].
    rewrite Z.eqb_refl. eexists. split; [reflexivity|]. split; intros x X.
    + destruct X as [<-|[]]. apply upd_eq.
    + apply upd_ne. intros ->. apply X. now left.
  - destruct (B c (or_introl eq_refl)) as [_ Bc]. rewrite set_check_ok by easy. cbn [bind]. rewrite get_i_ok by easy. cbn [bind inf]. destruct H as [H1 H2]. unfold sib in H1. rewrite H1. cbn [hd].
    inversion SS as [|? ? S' F]; subst. assert (P : 0 < d) by (inversion F; subst; destruct (B c (or_introl eq_refl)); lia).
    destruct (Z.eqb_spec d 0); [lia|].
    match goal with |- context [adopt fuel ?x b d to] => set (t1 := x) end.
    destruct (IH d fuel t1) as (f & E & X1 & X2); try easy; [intros x I; apply B; now right|lia|].
    exists f. split; [easy|].
    assert (NC : ~ In (Z.lxor b c) (map (Z.lxor b) (d :: K))).
    { intros I. apply in_map_iff in I as (y & Q & I). apply lxor_inj_r in Q. subst y. apply sorted_nodup in SS. apply NoDup_cons_iff in SS. easy. }
    split; intros x X.
    + destruct (in_dec Z.eq_dec x (map (Z.lxor b) (d :: K))) as [I|NI].
      * rewrite X1 by easy. cbn. rewrite upd_ne by (intros ->; easy). easy.
      * rewrite X2 by easy. destruct X as [<-|X]; [|easy]. cbn. now rewrite upd_eq.
    + rewrite X2 by (intros I; apply X; now right). cbn. apply upd_ne. intros ->. apply X. now left.
Qed.
