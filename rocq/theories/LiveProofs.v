From Verif Require Import Base IntModel KeyModel FoldModel ScriptAst ScriptSpec ScriptModel ScriptProofs LiveModel LiveSpec.

(** ** Sets as lists *)
Lemma memb_in x l : memb x l = true <-> In x l.
Proof.
  unfold memb. rewrite existsb_exists. split.
  - intros (y & I & E). apply Nat.eqb_eq in E. subst. exact I.
  - intros I. exists x. rewrite Nat.eqb_refl. auto.
Qed.
Lemma memb_notin x l : memb x l = false <-> ~ In x l.
Proof. rewrite <- memb_in. destruct (memb x l); split; congruence. Qed.
Lemma in_minus x l k : In x (filter (fun y => negb (memb y k)) l) <-> In x l /\ ~ In x k.
Proof. rewrite filter_In, negb_true_iff, memb_notin. reflexivity. Qed.

(** ** What a block reads and writes *)
Lemma reads_first_cons x it l :
  reads_first x (it :: l) <-> In x (loads it) \/ (~ In x (stores it) /\ reads_first x l).
Proof.
  split.
  - intros R. inversion R; subst; auto.
  - intros [A|[A B]]; [apply reads_now; exact A|apply reads_later; assumption].
Qed.
Lemma untouched_cons x it l : untouched x (it :: l) <-> ~ In x (stores it) /\ untouched x l.
Proof.
  unfold untouched. split.
  - intros U. split; [apply U; left; reflexivity|intros i I; apply U; right; exact I].
  - intros [A B] i [<-|I]; auto.
Qed.
Lemma reads_first_nil x : ~ reads_first x [].
Proof. intros R. inversion R. Qed.
Lemma life_ue x l ue kill :
  In x (fst (life l ue kill)) <-> In x ue \/ (~ In x kill /\ reads_first x l).
Proof.
  revert ue kill. induction l as [|it l IH]; intros ue kill; cbn [life].
  - cbn [fst]. pose proof (reads_first_nil x). tauto.
  - rewrite IH, reads_first_cons, !in_app_iff, in_minus.
    destruct (in_dec Nat.eq_dec x kill); destruct (in_dec Nat.eq_dec x (stores it)); tauto.
Qed.
Lemma life_kill x l ue kill :
  In x (snd (life l ue kill)) <-> In x kill \/ ~ untouched x l.
Proof.
  revert ue kill. induction l as [|it l IH]; intros ue kill; cbn [life].
  - cbn [snd]. assert (untouched x []) by (intros i []). tauto.
  - rewrite IH, untouched_cons, in_app_iff. destruct (in_dec Nat.eq_dec x (stores it)); tauto.
Qed.
Lemma untouched_dec x l : untouched x l \/ ~ untouched x l.
Proof.
  induction l as [|it l IH]; [left; intros i []|]. rewrite untouched_cons.
  destruct (in_dec Nat.eq_dec x (stores it)); tauto.
Qed.
Lemma ue_var_in x b : In x (ue_var b) <-> reads_first x (items b).
Proof. unfold ue_var. rewrite life_ue. cbn [In]. tauto. Qed.
Lemma var_kill_in x b : ~ In x (var_kill b) <-> untouched x (items b).
Proof. unfold var_kill. rewrite life_kill. cbn [In]. destruct (untouched_dec x (items b)); tauto. Qed.

Lemma live_of_in g L j x :
  In x (live_of g L j) <->
  exists b, nth_error g j = Some b /\
    (reads_first x (items b) \/ (untouched x (items b) /\ In x (nth j L []))).
Proof.
  unfold live_of. destruct (nth_error g j) as [b|].
  - rewrite in_app_iff, in_minus, ue_var_in, var_kill_in. split.
    + intros H. exists b. split; [reflexivity|tauto].
    + intros (b' & [= <-] & H). tauto.
  - split; [intros []|intros (b & X & _); discriminate].
Qed.
Lemma new_in g L b x :
  In x (new_live_out g L b) <-> exists j, In j (next b) /\ In x (live_of g L j).
Proof. unfold new_live_out. apply in_flat_map. Qed.

(** ** The iteration *)
Lemma length_set_nth L i s : length (set_nth L i s) = length L.
Proof. revert i. induction L as [|t L IH]; intros [|i]; cbn; auto. Qed.
Lemma nth_set_same L i s : (i < length L)%nat -> nth i (set_nth L i s) [] = s.
Proof. revert i. induction L as [|t L IH]; intros [|i] I; cbn in *; try lia; [reflexivity|]. apply IH; lia. Qed.
Lemma nth_set_other L i j s : j <> i -> nth j (set_nth L i s) [] = nth j L [].
Proof. revert i j. induction L as [|t L IH]; intros [|i] [|j] N; cbn; auto; try congruence. Qed.

Section Iterate.
Variable g : graph.

(** every entry is justified by a path, and is found again when recomputed *)
Definition sound (L : lives) : Prop := forall i x, In x (nth i L []) -> needed g x i.
Definition grows (L : lives) : Prop :=
  forall i b x, nth_error g i = Some b -> In x (nth i L []) -> In x (new_live_out g L b).
Definition below (L M : lives) : Prop := forall i x, In x (nth i L []) -> In x (nth i M []).

Lemma live_of_mono L M j x : below L M -> In x (live_of g L j) -> In x (live_of g M j).
Proof.
  intros B. rewrite !live_of_in. intros (b & N & [R|[U I]]); exists b; split; auto.
Qed.
Lemma new_mono L M b x : below L M -> In x (new_live_out g L b) -> In x (new_live_out g M b).
Proof.
  intros B. rewrite !new_in. intros (j & N & I). exists j. split; [exact N|]. eapply live_of_mono; eassumption.
Qed.
Lemma new_sound L i b x : sound L -> nth_error g i = Some b -> In x (new_live_out g L b) -> needed g x i.
Proof.
  intros S N. rewrite new_in. intros (j & J & I). apply live_of_in in I. destruct I as (c & C & [R|[U I]]).
  - eapply needed_now; [exists b; eauto|exact C|exact R].
  - eapply needed_later; [exists b; eauto|exact C|exact U|apply S; exact I].
Qed.

Definition U : list nat := all_loads g.
Definition count (l : list nat) : nat := length (filter (fun u => memb u l) U).
Definition total (L : lives) : nat := list_sum (map count L).

Lemma count_bound l : (count l <= length U)%nat.
Proof. unfold count. induction U as [|u l' IH]; cbn [filter length]; [lia|]. destruct (memb u l); cbn [length]; lia. Qed.
Lemma total_bound L : (total L <= length L * length U)%nat.
Proof.
  unfold total. induction L as [|l L IH]; cbn [map list_sum fold_right length]; [lia|].
  change (fold_right Nat.add 0 (map count L))%nat with (list_sum (map count L)). pose proof (count_bound l). lia.
Qed.
Lemma filter_len_mono {A} (p q : A -> bool) l : (forall x, In x l -> p x = true -> q x = true) ->
  (length (filter p l) <= length (filter q l))%nat.
Proof.
  induction l as [|a l IH]; intros H; cbn [filter]; [lia|].
  assert (IH' := IH (fun x I => H x (or_intror I))). specialize (H a (or_introl eq_refl)).
  destruct (p a); [rewrite H by reflexivity|destruct (q a)]; cbn [length]; lia.
Qed.
Lemma filter_len_strict {A} (p q : A -> bool) l y : (forall x, In x l -> p x = true -> q x = true) ->
  In y l -> p y = false -> q y = true -> (length (filter p l) < length (filter q l))%nat.
Proof.
  induction l as [|a l IH]; intros H I P Q; [destruct I|]. cbn [filter].
  assert (M := filter_len_mono p q l (fun x I => H x (or_intror I))).
  destruct I as [->|I].
  - rewrite P, Q. cbn [length]. lia.
  - assert (IH' := IH (fun x I => H x (or_intror I)) I P Q). specialize (H a (or_introl eq_refl)).
    destruct (p a); [rewrite H by reflexivity|destruct (q a)]; cbn [length]; lia.
Qed.
Lemma total_set L i s : (i < length L)%nat -> (total (set_nth L i s) + count (nth i L []) = total L + count s)%nat.
Proof.
  unfold total. revert i. induction L as [|t L IH]; intros [|i] I; cbn [length set_nth map nth] in *; try lia.
  - change (list_sum (?a :: ?l)) with (a + list_sum l)%nat. lia.
  - change (list_sum (?a :: ?l)) with (a + list_sum l)%nat. specialize (IH i ltac:(lia)). lia.
Qed.

Lemma reads_loads x l : reads_first x l -> exists it, In it l /\ In x (loads it).
Proof. induction 1 as [it l I|it l N R IH]; [exists it; cbn; auto|]. destruct IH as (i & A & B). exists i. cbn. auto. Qed.
Lemma needed_universe x i : needed g x i -> In x U.
Proof.
  unfold U, all_loads. induction 1 as [i j b E N R|]; [|assumption].
  apply in_flat_map. exists b. split; [eapply nth_error_In; eassumption|]. apply in_flat_map. apply reads_loads. exact R.
Qed.

Definition good (L : lives) : Prop := length L = length g /\ sound L /\ grows L.

Lemma recompute_good L i b L' c : good L -> nth_error g i = Some b -> recompute g L i b = (L', c) ->
  good L' /\ below L L' /\ (total L <= total L')%nat /\
  (c = true -> (total L < total L')%nat) /\ (c = false -> L' = L /\ forall x, In x (new_live_out g L b) -> In x (nth i L [])).
Proof.
  intros (LL & S & G) N. unfold recompute. destruct (forallb _ _) eqn:F; intros [= <- <-].
  - split; [split; auto|]. split; [intros j x I; exact I|]. split; [lia|]. split; [discriminate|]. intros _.
    split; [reflexivity|]. intros x I. rewrite forallb_forall in F. apply memb_in, F, I.
  - assert (IL : (i < length L)%nat). { rewrite LL. apply nth_error_Some. rewrite N. discriminate. }
    assert (B : below L (set_nth L i (new_live_out g L b))).
    { intros j x I. destruct (Nat.eq_dec j i) as [->|NE].
      - rewrite nth_set_same by exact IL. eapply G; eassumption.
      - rewrite nth_set_other by exact NE. exact I. }
    assert (S' : sound (set_nth L i (new_live_out g L b))).
    { intros j x. destruct (Nat.eq_dec j i) as [->|NE].
      - rewrite nth_set_same by exact IL. eapply new_sound; eassumption.
      - rewrite nth_set_other by exact NE. apply S. }
    assert (T : (total L < total (set_nth L i (new_live_out g L b)))%nat).
    { pose proof (total_set L i (new_live_out g L b) IL) as E.
      enough (count (nth i L []) < count (new_live_out g L b))%nat by lia.
      assert (X : exists x, In x (new_live_out g L b) /\ memb x (nth i L []) = false).
      { clear -F. induction (new_live_out g L b) as [|a l IH]; [discriminate F|]. cbn in F. destruct (memb a (nth i L [])) eqn:A.
        - destruct (IH F) as (x & I & M). exists x. cbn; auto.
        - exists a. cbn; auto. }
      destruct X as (x & I & M). unfold count. eapply filter_len_strict with (y := x).
      - intros y _ Y. apply memb_in in Y. apply memb_in. eapply G; eassumption.
      - eapply needed_universe, (new_sound L i b x S N I).
      - exact M.
      - apply memb_in, I. }
    split; [|split; [exact B|]; split; [lia|]; split; [auto|discriminate]].
    split; [rewrite length_set_nth; exact LL|]. split; [exact S'|].
    intros j b' x N' I. eapply new_mono; [exact B|]. destruct (Nat.eq_dec j i) as [->|NE].
    + rewrite nth_set_same in I by exact IL. assert (b' = b) by congruence. subst. exact I.
    + rewrite nth_set_other in I by exact NE. eapply G; eassumption.
Qed.

Lemma sweep_good l : forall i L c0 L' c, good L -> (forall k b, nth_error l k = Some b -> nth_error g (i + k) = Some b) ->
  sweep g l i L c0 = (L', c) ->
  good L' /\ (total L <= total L')%nat /\ (c0 = true -> c = true) /\
  (c = true -> c0 = true \/ (total L < total L')%nat) /\
  (c = false -> L' = L /\ forall k b x, nth_error l k = Some b -> In x (new_live_out g L b) -> In x (nth (i + k) L [])).
Proof.
  induction l as [|b l IH]; intros i L c0 L' c G E; cbn [sweep].
  - intros [= <- <-]. split; [exact G|]. split; [lia|]. split; [auto|]. split; [auto|]. intros _. split; [reflexivity|]. intros [|k] b x; discriminate.
  - destruct (recompute g L i b) as [L1 c1] eqn:R. intros SW.
    assert (N : nth_error g i = Some b). { specialize (E 0%nat b eq_refl). rewrite Nat.add_0_r in E. exact E. }
    destruct (recompute_good L i b L1 c1 G N R) as (G1 & B1 & T1 & C1 & D1).
    assert (E' : forall k b, nth_error l k = Some b -> nth_error g (S i + k) = Some b).
    { intros k b' K. replace (S i + k)%nat with (i + S k)%nat by lia. apply E. exact K. }
    destruct (IH (S i) L1 (c0 || c1) L' c G1 E' SW) as (G' & T' & M & C' & D').
    split; [exact G'|]. split; [lia|]. split; [intros ->; apply M; reflexivity|]. split.
    + intros H. destruct (C' H) as [X|X]; [|right; lia]. apply orb_prop in X. destruct X as [X|X]; [auto|]. right. specialize (C1 X). lia.
    + intros H. destruct (D' H) as (-> & D2). destruct c1.
      { assert (c = true) by (apply M; apply orb_true_r). congruence. }
      destruct (D1 eq_refl) as (-> & D3). split; [reflexivity|]. intros [|k] b' x K I.
      * injection K as <-. rewrite Nat.add_0_r. apply D3. exact I.
      * replace (i + S k)%nat with (S i + k)%nat by lia. eapply D2; [exact K|exact I].
Qed.

Lemma compute_good fuel : forall L, good L -> (length g * length U < fuel + total L)%nat ->
  exists L', compute g fuel L = Ok L' /\ good L' /\
    forall i b x, nth_error g i = Some b -> In x (new_live_out g L' b) -> In x (nth i L' []).
Proof.
  induction fuel as [|fuel IH]; intros L G F; cbn [compute].
  - destruct G as (LL & _). pose proof (total_bound L). rewrite LL in *. lia.
  - destruct (sweep g g 0 L false) as [L1 c] eqn:SW.
    destruct (sweep_good g 0 L false L1 c G (fun k b H => H) SW) as (G1 & T & _ & C & D).
    destruct c.
    + destruct (C eq_refl) as [X|X]; [discriminate|]. apply IH; [exact G1|lia].
    + destruct (D eq_refl) as (-> & D'). exists L. split; [reflexivity|]. split; [exact G|]. intros i b x N I. apply (D' i b x N I).
Qed.

Lemma good_start : good (map (fun _ => []) g).
Proof.
  split; [apply map_length|]. assert (E : forall i, nth i (map (fun _ : blk => @nil nat) g) [] = []).
  { clear. induction g as [|b l IH]; intros [|i]; cbn; auto. }
  split; [intros i x; rewrite E; intros []|intros i b x _; rewrite E; intros []].
Qed.
Theorem live_out_exact : exists L, live_out g = Ok L /\ length L = length g /\
  forall i x, In x (nth i L []) <-> needed g x i.
Proof.
  unfold live_out. destruct (compute_good (S (length g * length (all_loads g))) _ good_start) as (L & C & G & F).
  { unfold U. lia. }
  exists L. split; [exact C|]. destruct G as (LL & S & _). split; [exact LL|]. intros i x. split; [apply S|].
  induction 1 as [i j b (a & A & J) N R|i j b (a & A & J) N U0 ND IH].
  - eapply F; [exact A|]. apply new_in. exists j. split; [exact J|]. apply live_of_in. exists b. auto.
  - eapply F; [exact A|]. apply new_in. exists j. split; [exact J|]. apply live_of_in. exists b. auto.
Qed.
End Iterate.
(** ** Liveness on programs

    [live x b kn kb kc]: the value of [x] is needed at the start of [b], when it is needed after
    [b] ([kn]), after a break ([kb]), at a continue ([kc]). *)
Fixpoint lv_s (x : nat) (s : pstmt) (kn kb kc : bool) {struct s} : bool :=
  match s with
  | SPass => kn
  | SAssign _ y e => memb x (names e) || (negb (Nat.eqb y x) && kn)
  | SAug _ y _ e => Nat.eqb y x || memb x (names e) || kn
  | SIf c a b => memb x (names c) || lv x a kn kb kc || lv x b kn kb kc
  | SWhile c a _ => memb x (names c) || lv x a false kn false || kn
  | SFor y r a _ => memb x (range_names r) || (negb (Nat.eqb y x) && lv x a false kn false) || kn
  | SBreak => kb
  | SContinue => kc
  | SReturn e => memb x (names e)
  | SRaise _ => false
  | STry _ _ _ _ _ => true
  end
with lv (x : nat) (b : pblock) (kn kb kc : bool) {struct b} : bool :=
  match b with
  | BNil => kn
  | BCons s b => lv_s x s (lv x b kn kb kc) kb kc
  end.

Section Same.
Variables (x n : nat) (glob : nat -> option pval) (loc loc' : nat -> bool).
Hypothesis loc_same : forall y, loc y = loc' y.
Notation run := (pexec false n glob loc).
Notation runs := (pexec_s false n glob loc).
Notation run' := (pexec false n glob loc').
Notation runs' := (pexec_s false n glob loc').

Definition agree (d : bool) (E E' : env) : Prop := forall y, y <> x \/ d = true -> E y = E' y.
Lemma agree_mono d d' E E' : (d' = true -> d = true) -> agree d E E' -> agree d' E E'.
Proof. intros H A y [Y|Y]; apply A; auto. Qed.
Lemma agree_full d E E' : agree true E E' -> agree d E E'.
Proof. apply agree_mono. auto. Qed.
Lemma agree_upd d d' E E' y v : agree d E E' -> (d' = true -> y = x \/ d = true) -> agree d' (upd E y v) (upd E' y v).
Proof.
  intros A D z Z. unfold upd. destruct (Nat.eqb_spec z y) as [->|N]; [reflexivity|]. apply A.
  destruct Z as [Z|Z]; [auto|]. destruct (Nat.eq_dec z x) as [->|]; [|auto]. destruct (D Z) as [->|D']; [congruence|auto].
Qed.

Definition related (kn kb kc : bool) (o o' : out env pval) : Prop :=
  match o, o' with
  | ONext E, ONext E' => agree kn E E'
  | OBreak E, OBreak E' => agree kb E E'
  | OContinue E, OContinue E' => agree kc E E'
  | OReturn v _, OReturn w _ => v = w
  | ORaise e _, ORaise e' _ => e = e'
  | OScope, OScope => True
  | OFuel, OFuel => True
  | _, _ => False
  end.

Lemma value_agree d E E' e : agree d E E' -> (memb x (names e) = true -> d = true) ->
  pvalue false glob loc E e = pvalue false glob loc' E' e.
Proof.
  intros A D. unfold pvalue. rewrite (proj1 (eval_names false (look glob loc E) (look glob loc' E')) e).
  - destruct (peval _ _ e); reflexivity.
  - intros y Y. unfold look. rewrite <- loc_same. destruct (loc y); [|reflexivity]. rewrite (A y); [reflexivity|].
    destruct (Nat.eq_dec y x) as [->|]; auto.
Qed.
Lemma range_agree d E E' r : agree d E E' -> (memb x (range_names r) = true -> d = true) ->
  prange_args false glob loc E r = prange_args false glob loc' E' r.
Proof.
  intros A D. destruct r as [b|a b|a b c]; cbn [range_names] in D; rewrite ?memb_app in D; cbn [prange_args].
  - rewrite (value_agree d E E') by auto. reflexivity.
  - rewrite (value_agree d E E' a), (value_agree d E E' b); auto; intros H; apply D; rewrite H; auto using orb_true_r.
  - rewrite (value_agree d E E' a), (value_agree d E E' b), (value_agree d E E' c); auto; intros H; apply D; rewrite H; auto using orb_true_r.
    rewrite !orb_true_r. reflexivity.
Qed.

Definition ok_s (kn kb kc : bool) (s s' : pstmt) : Prop := forall cur E E',
  agree (lv_s x s kn kb kc) E E' -> related kn kb kc (runs cur s E) (runs' cur s' E').
Definition ok (kn kb kc : bool) (b b' : pblock) : Prop := forall cur E E',
  agree (lv x b kn kb kc) E E' -> related kn kb kc (run cur b E) (run' cur b' E').

Lemma ok_nil kn kb kc : ok kn kb kc BNil BNil.
Proof. intros cur E E' A. exact A. Qed.
Lemma ok_cons kn kb kc s s' b b' : ok_s (lv x b kn kb kc) kb kc s s' -> ok kn kb kc b b' -> ok kn kb kc (BCons s b) (BCons s' b').
Proof.
  intros OS OB cur E E' A. rewrite !px_cons. assert (R := OS cur E E' A).
  destruct (runs cur s E), (runs' cur s' E'); try contradiction; auto.
Qed.
Lemma ok_if kn kb kc c a a' b b' : ok kn kb kc a a' -> ok kn kb kc b b' -> ok_s kn kb kc (SIf c a b) (SIf c a' b').
Proof.
  intros OA OB cur E E' A. rewrite !px_if. cbn [lv_s] in A.
  rewrite <- (value_agree _ E E' c A) by (intros ->; reflexivity).
  destruct (pvalue false glob loc E c) as [v|e| |]; cbn [withv related]; auto.
  destruct (truth v).
  - apply OA. eapply agree_mono; [|exact A]. intros ->. rewrite orb_true_r. reflexivity.
  - apply OB. eapply agree_mono; [|exact A]. intros ->. apply orb_true_r.
Qed.
Lemma ok_while kn kb kc c a a' : ok (lv_s x (SWhile c a BNil) kn kb kc) kn (lv_s x (SWhile c a BNil) kn kb kc) a a' ->
  ok_s kn kb kc (SWhile c a BNil) (SWhile c a' BNil).
Proof.
  set (L := lv_s x (SWhile c a BNil) kn kb kc). intros OA cur E E' A. fold L in A. rewrite !px_while.
  assert (LK : kn = true -> L = true) by (intros ->; unfold L; cbn [lv_s]; apply orb_true_r).
  enough (X : forall k E E', agree L E E' -> related kn kb kc (pwhile (fun E => pvalue false glob loc E c) (run cur a) (run cur BNil) k E)
    (pwhile (fun E => pvalue false glob loc' E c) (run' cur a') (run' cur BNil) k E')) by (apply X; exact A).
  clear E E' A. induction k as [|k IH]; intros E E' A; cbn [pwhile].
  - rewrite <- (value_agree L E E' c A) by (intros H; unfold L; cbn [lv_s]; rewrite H; reflexivity).
    destruct (pvalue false glob loc E c) as [v|e| |]; cbn [withv related]; auto.
    destruct (truth v); cbn [related]; [trivial|]. eapply agree_mono; [exact LK|exact A].
  - rewrite <- (value_agree L E E' c A) by (intros H; unfold L; cbn [lv_s]; rewrite H; reflexivity).
    destruct (pvalue false glob loc E c) as [v|e| |]; cbn [withv related]; auto.
    destruct (truth v); [|cbn [related]; eapply agree_mono; [exact LK|exact A]].
    assert (AB : agree (lv x a L kn L) E E').
    { destruct L eqn:EL; [apply agree_full; exact A|]. eapply agree_mono; [|exact A]. intros H. unfold L in EL. cbn [lv_s] in EL.
      rewrite H, orb_true_r in EL. discriminate. }
    assert (R := OA cur E E' AB).
    destruct (run cur a E), (run' cur a' E'); cbn [related] in *; try contradiction; auto.
Qed.
Lemma ok_for kn kb kc y r a a' (L := (negb (Nat.eqb y x) && lv x a false kn false) || kn) :
  ok L kn L a a' -> ok_s kn kb kc (SFor y r a BNil) (SFor y r a' BNil).
Proof.
  intros OA cur E E' A. rewrite !px_for. cbn [lv_s] in A.
  rewrite <- (range_agree _ E E' r A) by (intros ->; reflexivity).
  destruct (let! args := prange_args false glob loc E r in prange_vals false args) as [vals|e| |]; cbn [withv related]; auto.
  assert (AL : agree L E E'). { eapply agree_mono; [|exact A]. unfold L. intros H. rewrite <- orb_assoc, H. apply orb_true_r. }
  enough (X : forall vals k E E', agree L E E' -> related kn kb kc (pfor y (run cur a) (run cur BNil) k vals E)
    (pfor y (run' cur a') (run' cur BNil) k vals E')) by (apply X; exact AL).
  clear vals E E' A AL. induction vals as [|z vals IH]; intros k E E' A.
  - destruct k; cbn [pfor]; change (related kn kb kc (ONext E) (ONext E')); cbn [related]; (eapply agree_mono; [|exact A]); unfold L; intros ->; apply orb_true_r.
  - destruct k as [|k]; cbn [pfor]; [exact Logic.I|].
    assert (AB : agree (lv x a L kn L) (upd E y (VInt z)) (upd E' y (VInt z))).
    { eapply agree_upd; [exact A|]. intros H. destruct (Nat.eqb_spec y x) as [Y|Y]; [auto|]. right.
      destruct L eqn:EL; [reflexivity|]. unfold L in EL. rewrite H in EL. cbn in EL. discriminate. }
    assert (R := OA cur _ _ AB).
    destruct (run cur a (upd E y (VInt z))), (run' cur a' (upd E' y (VInt z))); cbn [related] in *; try contradiction; auto.
Qed.
Lemma ok_simple kn kb kc s : plain_s s = true -> ok_s kn kb kc s s.
Proof.
  intros P cur E E' A. destruct s as [|m y e|m y o e| | | | | |e|[e|]|]; try discriminate P; cbn [pexec_s lv_s related] in *; auto.
  - rewrite <- (value_agree _ E E' e A) by (intros ->; reflexivity).
    destruct (pvalue false glob loc E e) as [w|q| |]; cbn [withv related]; auto.
    eapply agree_upd; [exact A|]. intros ->. destruct (Nat.eqb_spec y x); [auto|]. right. apply orb_true_r.
  - rewrite <- (value_agree _ E E' (XBin o (XName y) e) A).
    2:{ cbn [names]. rewrite memb_app. cbn [memb existsb]. rewrite orb_false_r, Nat.eqb_sym. intros H. rewrite H. reflexivity. }
    destruct (pvalue false glob loc E _) as [w|q| |]; cbn [withv related]; auto.
    eapply agree_upd; [exact A|]. intros ->. right. apply orb_true_r.
Qed.
Lemma ok_refl : (forall s, tame_s x s = true -> forall kn kb kc, ok_s kn kb kc s s) /\
  (forall b, tame x b = true -> forall kn kb kc, ok kn kb kc b b).
Proof.
  apply pstmt_ind2; intros; cbn [tame_s tame] in *; try (apply ok_simple; reflexivity).
  - apply andb_prop in H1. destruct H1 as (H1 & T2). apply andb_prop in H1. destruct H1 as (_ & T1). apply ok_if; auto.
  - apply andb_prop in H1. destruct H1 as (H1 & T2). apply andb_prop in H1. destruct H1 as (_ & T1).
    destruct els; [|discriminate]. apply ok_while. auto.
  - apply andb_prop in H1. destruct H1 as (H1 & T2). apply andb_prop in H1. destruct H1 as (_ & T1).
    destruct els; [|discriminate]. apply ok_for. auto.
  - intros cur E E' A. exact A.
  - intros cur E E' A. exact A.
  - intros cur E E' A. cbn [pexec_s lv_s] in *. rewrite <- (value_agree _ E E' e A) by auto.
    destruct (pvalue false glob loc E e) as [w|q| |]; cbn [withv related]; auto.
  - discriminate.
  - apply ok_nil.
  - apply andb_prop in H1. destruct H1 as (T1 & T2). apply ok_cons; auto.
Qed.

Lemma run_bapp l cur a b E : pexec false n glob l cur (bapp a b) E = match pexec false n glob l cur a E with ONext E' => pexec false n glob l cur b E' | o => o end.
Proof.
  revert E. induction a as [|s a IH]; intros E; [reflexivity|]. cbn [bapp]. rewrite !px_cons. destruct (pexec_s false n glob l cur s E); auto.
Qed.
Lemma ok_end kb kc b m v : tame x b = true -> literal v = true -> ok false kb kc b (bapp b (BCons (SAssign m x v) BNil)).
Proof.
  intros T LV cur E E' A. assert (R := proj2 ok_refl b T false kb kc cur E E' A). rewrite run_bapp.
  destruct (run cur b E), (run' cur b E'); try contradiction; auto.
  rewrite px_cons. cbn [pexec_s pexec]. 
  assert (V : exists w, pvalue false glob loc' s0 v = Ok w) by (destruct v; try discriminate LV; eexists; reflexivity).
  destruct V as (w & ->). cbn [withv related] in *. intros y [Y|Y]; [|discriminate]. unfold upd.
  destruct (Nat.eqb_spec y x); [congruence|]. apply R. auto.
Qed.
End Same.
(** ** The graph of a program *)
Definition ext (g G : graph) : Prop := forall i b, nth_error g i = Some b ->
  exists b', nth_error G i = Some b' /\ items b' = items b /\ incl (next b) (next b').
Lemma ext_refl g : ext g g.
Proof. intros i b N. exists b. split; [exact N|]. split; [reflexivity|apply incl_refl]. Qed.
Lemma ext_trans g h k : ext g h -> ext h k -> ext g k.
Proof.
  intros A B i b N. destruct (A i b N) as (b1 & N1 & I1 & S1). destruct (B i b1 N1) as (b2 & N2 & I2 & S2).
  exists b2. split; [exact N2|]. split; [congruence|eapply incl_tran; eassumption].
Qed.
Lemma ext_len g G : ext g G -> (length g <= length G)%nat.
Proof.
  intros E. destruct g as [|b g]; [cbn; lia|].
  assert (N : nth_error (b :: g) (length g) <> None) by (apply nth_error_Some; cbn; lia).
  destruct (nth_error (b :: g) (length g)) as [c|] eqn:C; [|congruence]. destruct (E _ _ C) as (c' & N' & _).
  assert (length g < length G)%nat by (apply nth_error_Some; congruence). cbn. lia.
Qed.
Lemma ext_add g l : ext g (add g l).
Proof.
  intros i b N. exists b. split; [unfold add; rewrite nth_error_app1 by (apply nth_error_Some; congruence); exact N|].
  split; [reflexivity|apply incl_refl].
Qed.
Lemma ext_connect g i j : ext g (connect g i j).
Proof.
  revert i. induction g as [|b g IH]; intros i; [intros k c N; destruct k; discriminate|].
  destruct i as [|i]; cbn [connect]; intros [|k] c N; cbn in N |- *.
  - injection N as <-. eexists. split; [reflexivity|]. cbn. split; [reflexivity|]. apply incl_appl, incl_refl.
  - eexists. split; [exact N|]. split; [reflexivity|apply incl_refl].
  - eexists. split; [exact N|]. split; [reflexivity|apply incl_refl].
  - exact (IH i k c N).
Qed.
Lemma ext_connect' g i o : ext g (connect' g i o).
Proof. destruct o; [apply ext_connect|apply ext_refl]. Qed.
Lemma ext_link l : forall g j, ext g (link g l j).
Proof. induction l as [|t l IH]; intros g j; [apply ext_refl|]. cbn [link]. eapply ext_trans; [apply ext_connect|apply IH]. Qed.
Lemma len_connect g i j : length (connect g i j) = length g.
Proof. revert i. induction g as [|b g IH]; intros [|i]; cbn; auto. Qed.
Lemma len_connect' g i o : length (connect' g i o) = length g.
Proof. destruct o; [apply len_connect|reflexivity]. Qed.
Lemma len_link l : forall g j, length (link g l j) = length g.
Proof. induction l as [|t l IH]; intros g j; [reflexivity|]. cbn [link]. rewrite IH, len_connect. reflexivity. Qed.
Lemma len_add g l : length (add g l) = S (length g).
Proof. unfold add. rewrite app_length. cbn. lia. Qed.
Lemma nth_add g l : nth_error (add g l) (length g) = Some {| items := l; next := [] |}.
Proof. unfold add. rewrite nth_error_app2 by lia. rewrite Nat.sub_diag. reflexivity. Qed.

Lemma edge_ext g G i j : ext g G -> edge g i j -> edge G i j.
Proof. intros E (b & N & I). destruct (E i b N) as (b' & N' & _ & S). exists b'. auto. Qed.
Lemma edge_connect g i j : (i < length g)%nat -> edge (connect g i j) i j.
Proof.
  revert i. induction g as [|b g IH]; intros [|i] H; cbn in H; try lia.
  - eexists. split; [reflexivity|]. cbn. apply in_or_app. right. left. reflexivity.
  - destruct (IH i ltac:(lia)) as (c & N & I). exists c. auto.
Qed.
Lemma edge_link l : forall g j t, In t l -> (t < length g)%nat -> edge (link g l j) t j.
Proof.
  induction l as [|u l IH]; intros g j t I H; [destruct I|]. cbn [link]. destruct I as [->|I].
  - eapply edge_ext; [apply ext_link|apply edge_connect; exact H].
  - apply IH; [exact I|rewrite len_connect; exact H].
Qed.
Lemma nth_ext g G i l nx : ext g G -> nth_error g i = Some {| items := l; next := nx |} -> exists b, nth_error G i = Some b /\ items b = l.
Proof. intros E N. destruct (E i _ N) as (b & N' & I & _). exists b. auto. Qed.

Lemma loop_head_ok g cache it g1 w : loop_head g cache it = (g1, w) ->
  ext g g1 /\ (length g <= w < length g1)%nat /\ nth_error g1 w = Some {| items := [it]; next := [] |} /\
  match cache with [] => w = length g | _ => (exists nx, nth_error g1 (length g) = Some {| items := rev cache; next := nx |}) /\ edge g1 (length g) w end.
Proof.
  unfold loop_head. destruct cache as [|c cache]; intros [= <- <-].
  - split; [apply ext_add|]. rewrite len_add. split; [lia|]. split; [apply nth_add|reflexivity].
  - set (l := rev (c :: cache)).
    assert (N1 : nth_error (add (add g l) [it]) (S (length g)) = Some {| items := [it]; next := [] |}).
    { rewrite <- (len_add g l). apply nth_add. }
    assert (N0 : nth_error (add (add g l) [it]) (length g) = Some {| items := l; next := [] |}).
    { unfold add at 1. rewrite nth_error_app1 by (rewrite len_add; lia). apply nth_add. }
    split; [eapply ext_trans; [apply ext_add|eapply ext_trans; [apply ext_add|apply ext_connect]]|].
    rewrite len_connect, !len_add. split; [lia|].
    assert (C : forall (g : graph) i j k b, nth_error g k = Some b -> k <> i -> nth_error (connect g i j) k = Some b).
    { clear. intros g. induction g as [|a g IH]; intros i j k b N D; [destruct k; discriminate|]. destruct i as [|i], k as [|k]; cbn in *; auto; congruence. }
    split; [apply C; [exact N1|lia]|]. split.
    + destruct (ext_connect (add (add g l) [it]) (length g) (S (length g)) _ _ N0) as ([li nx] & N & I & _). cbn in I. subst li. exists nx. exact N.
    + apply edge_connect. rewrite !len_add. lia.
Qed.

Section Graph.
Variable x : nat.

Definition nonempty (cache : list item) (b : pblock) : Prop := cache <> [] \/ b <> BNil.
Lemma plain_simple s : plain_s s = match simple_item s with Some _ => true | None => false end.
Proof. destruct s; reflexivity. Qed.
Definition bounded (g : graph) (l : list nat) : Prop := forall t, In t l -> (t < length g)%nat.
Definition bounded2 (g : graph) (l : list (bool * nat)) : Prop := forall p, In p l -> (snd p < length g)%nat.
Lemma bounded_mono g G l : (length g <= length G)%nat -> bounded g l -> bounded G l.
Proof. intros H B t I. specialize (B t I). lia. Qed.
Lemma bounded2_mono g G l : (length g <= length G)%nat -> bounded2 g l -> bounded2 G l.
Proof. intros H B t I. specialize (B t I). lia. Qed.
Lemma bounded_app g l m : bounded g l -> bounded g m -> bounded g (l ++ m).
Proof. intros A B t I. apply in_app_or in I. destruct I; auto. Qed.
Lemma bounded2_app g l m : bounded2 g l -> bounded2 g m -> bounded2 g (l ++ m).
Proof. intros A B t I. apply in_app_or in I. destruct I; auto. Qed.
Lemma bounded_breaks g l : bounded2 g l -> bounded g (breaks l).
Proof. intros B t I. unfold breaks in I. apply in_map_iff in I. destruct I as (p & <- & I). apply filter_In in I. apply B, I. Qed.
Lemma bounded_continues g l : bounded2 g l -> bounded g (continues l).
Proof. intros B t I. unfold continues in I. apply in_map_iff in I. destruct I as (p & <- & I). apply filter_In in I. apply B, I. Qed.
Lemma bounded_nil g : bounded g []. Proof. intros t []. Qed.
Lemma bounded2_nil g : bounded2 g []. Proof. intros t []. Qed.

(** The shape of the results. *)
Definition shape_s (g : graph) (r : bool * list nat * list (bool * nat) * graph) : Prop :=
  let '(d, t, l, g') := r in ext g g' /\ (length g < length g')%nat /\ bounded g' t /\ bounded2 g' l.
Definition shape_b (cache : list item) (b : pblock) (head : option nat) (tails : list nat) (loops : list (bool * nat)) (g : graph)
    (r : option nat * list nat * list (bool * nat) * graph) : Prop :=
  let '(h, t, l, g') := r in ext g g' /\ bounded g' t /\ bounded2 g' l /\ (exists l', l = loops ++ l') /\
    (nonempty cache b -> h = Some (orelse head (length g)) /\ (length g < length g')%nat /\ forall u, In u tails -> edge g' u (length g)).

Lemma nonempty_nil b : isnil b = false -> nonempty [] b.
Proof. intros H. right. intros ->. discriminate. Qed.

Lemma shapes : (forall s, tame_s x s = true -> simple_item s = None -> forall cache g, shape_s g (cfg_s s cache g)) /\
  (forall b, tame x b = true -> forall cache head tails loops g, bounded g tails -> bounded2 g loops -> shape_b cache b head tails loops g (cfg_b b cache head tails loops g)).
Proof.
  apply pstmt_ind2; intros; cbn [tame_s tame] in *; try discriminate.
  - (* if *) apply andb_prop in H1. destruct H1 as (H1 & T2). apply andb_prop in H1. destruct H1 as (NE & T1).
    cbn [cfg_s]. set (g1 := add g (rev (test_item c :: cache))).
    assert (S1 := H T1 [] None [] [] g1 (bounded_nil _) (bounded2_nil _)).
    destruct (cfg_b a [] None [] [] g1) as [[[h t] l] g2]. destruct S1 as (E1 & B1 & L1 & _ & N1).
    destruct (N1 (nonempty_nil a ltac:(destruct a; [discriminate|reflexivity]))) as (Eh & Le & _).
    assert (LEN1 : length g1 = S (length g)) by apply len_add.
    assert (S2 := H0 T2 [] None [] [] (connect' g2 (length g) h) (bounded_nil _) (bounded2_nil _)).
    destruct (cfg_b b [] None [] [] (connect' g2 (length g) h)) as [[[h' t'] l'] g3]. destruct S2 as (E2 & B2 & L2 & _ & N2).
    assert (X : ext g g3) by (eapply ext_trans; [apply ext_add|eapply ext_trans; [exact E1|eapply ext_trans; [apply ext_connect'|exact E2]]]).
    assert (LEN2 := ext_len _ _ E2). rewrite len_connect' in LEN2.
    destruct h' as [h'|]; cbn [shape_s].
    + split; [eapply ext_trans; [exact X|apply ext_connect']|]. rewrite len_connect'. split; [lia|].
      split; [apply bounded_app|apply bounded2_app]; (eapply bounded_mono + eapply bounded2_mono); try eassumption; rewrite ?len_connect'; lia.
    + split; [exact X|]. split; [lia|]. split; [apply bounded_app|]; [eapply bounded_mono; [|exact B1]; lia| |eapply bounded2_mono; [|exact L1]; lia].
      intros u [<-|[]]. lia.
  - (* while *) apply andb_prop in H1. destruct H1 as (H1 & T2). apply andb_prop in H1. destruct H1 as (NE & T1).
    cbn [cfg_s]. destruct (loop_head g cache (test_item c)) as [g1 w] eqn:LH. apply loop_head_ok in LH. destruct LH as (X1 & W & _ & _).
    assert (S1 := H T1 [] None [] [] g1 (bounded_nil _) (bounded2_nil _)).
    destruct (cfg_b body [] None [] [] g1) as [[[h t] l] g2]. destruct S1 as (E1 & B1 & L1 & _ & _).
    assert (LEN1 := ext_len _ _ E1). cbn [shape_s].
    split; [eapply ext_trans; [exact X1|eapply ext_trans; [exact E1|eapply ext_trans; [apply ext_connect'|eapply ext_trans; apply ext_link]]]|].
    rewrite !len_link, len_connect'. split; [lia|]. split; [|apply bounded2_nil]. apply bounded_app.
    + eapply bounded_mono; [|apply bounded_breaks; exact L1]. rewrite !len_link, len_connect'. lia.
    + intros u [<-|[]]. rewrite !len_link, len_connect'. lia.
  - (* for *) apply andb_prop in H1. destruct H1 as (H1 & T2). apply andb_prop in H1. destruct H1 as (NE & T1).
    destruct els; [|discriminate].
    cbn [cfg_s]. destruct (loop_head g cache (for_item x0 r)) as [g1 w] eqn:LH. apply loop_head_ok in LH. destruct LH as (X1 & W & _ & _).
    assert (S1 := H T1 [] None [] [] g1 (bounded_nil _) (bounded2_nil _)).
    destruct (cfg_b body [] None [] [] g1) as [[[h t] l] g2]. destruct S1 as (E1 & B1 & L1 & _ & _).
    assert (LEN1 := ext_len _ _ E1). cbn [shape_s].
    split; [eapply ext_trans; [exact X1|eapply ext_trans; [exact E1|eapply ext_trans; [apply ext_connect'|eapply ext_trans; apply ext_link]]]|].
    rewrite !len_link, len_connect'. split; [lia|]. split; [|apply bounded2_nil]. apply bounded_app.
    + eapply bounded_mono; [|apply bounded_breaks; exact L1]. rewrite !len_link, len_connect'. lia.
    + intros u [<-|[]]. rewrite !len_link, len_connect'. lia.
  - cbn [cfg_s shape_s]. split; [apply ext_add|]. rewrite len_add. split; [lia|]. split; [apply bounded_nil|].
    intros p [<-|[]]. cbn [snd]. rewrite len_add. lia.
  - cbn [cfg_s shape_s]. split; [apply ext_add|]. rewrite len_add. split; [lia|]. split; [apply bounded_nil|].
    intros p [<-|[]]. cbn [snd]. rewrite len_add. lia.
  - cbn [cfg_s shape_s]. split; [apply ext_add|]. rewrite len_add. split; [lia|]. split; [apply bounded_nil|apply bounded2_nil].
  - (* nil *) cbn [cfg_b]. destruct cache as [|c cache]; cbn [shape_b].
    + split; [apply ext_refl|]. split; [assumption|]. split; [assumption|]. split; [exists []; symmetry; apply app_nil_r|].
      intros [N|N]; congruence.
    + split; [eapply ext_trans; [apply ext_add|apply ext_link]|]. rewrite !len_link, len_add.
      split; [intros u [<-|[]]; rewrite len_link, len_add; lia|]. split; [eapply bounded2_mono; [|eassumption]; rewrite len_link, len_add; lia|].
      split; [exists []; symmetry; apply app_nil_r|]. intros _. split; [reflexivity|]. split; [lia|].
      intros u I. apply edge_link; [exact I|]. rewrite len_add. specialize (H0 u I). lia.
  - (* cons *) apply andb_prop in H1. destruct H1 as (T1 & T2). cbn [cfg_b].
    destruct (simple_item s) as [it|] eqn:SI.
    + assert (S2 := H0 T2 (it :: cache) head tails loops g H2 H3).
      destruct (cfg_b b (it :: cache) head tails loops g) as [[[h t] l] g']. destruct S2 as (E & B & L & LP & N).
      cbn [shape_b]. split; [exact E|]. split; [exact B|]. split; [exact L|]. split; [exact LP|]. intros _. apply N. left. discriminate.
    + assert (S1 := H T1 eq_refl cache g). destruct (cfg_s s cache g) as [[[d t] l] g1]. destruct S1 as (E1 & LE & B1 & L1).
      assert (EL : forall u, In u tails -> edge (link g1 tails (length g)) u (length g)).
      { intros u I. apply edge_link; [exact I|]. specialize (H2 u I). lia. }
      assert (BL : bounded2 (link g1 tails (length g)) (loops ++ l)).
      { apply bounded2_app; (eapply bounded2_mono; [|eassumption]); rewrite len_link; lia. }
      destruct d.
      * cbn [shape_b]. split; [eapply ext_trans; [exact E1|apply ext_link]|]. split; [eapply bounded_mono; [|exact B1]; rewrite len_link; lia|].
        split; [exact BL|]. split; [exists l; reflexivity|]. intros _. split; [reflexivity|]. split; [rewrite len_link; lia|exact EL].
      * assert (BT : bounded (link g1 tails (length g)) t) by (eapply bounded_mono; [|exact B1]; rewrite len_link; lia).
        assert (S2 := H0 T2 [] (Some (orelse head (length g))) t (loops ++ l) _ BT BL).
        assert (HB : nonempty [] b \/ b = BNil) by (destruct b; [auto|left; right; discriminate]).
        destruct HB as [HB| ->].
        -- destruct (cfg_b b [] (Some (orelse head (length g))) t (loops ++ l) (link g1 tails (length g))) as [[[h' t'] l'] g2].
           destruct S2 as (E2 & B2 & L2 & (lp & ->) & N2). cbn [shape_b].
           split; [eapply ext_trans; [exact E1|eapply ext_trans; [apply ext_link|exact E2]]|]. split; [exact B2|]. split; [exact L2|].
           split; [exists (l ++ lp); rewrite app_assoc; reflexivity|]. intros _. destruct (N2 HB) as (Eh & Le & _).
           split; [exact Eh|]. rewrite len_link in Le. split; [lia|]. intros u I. eapply edge_ext; [exact E2|]. apply EL. exact I.
        -- cbn [cfg_b]. cbn [shape_b]. split; [eapply ext_trans; [exact E1|apply ext_link]|]. split; [exact BT|]. split; [exact BL|].
           split; [exists l; reflexivity|]. intros _. split; [reflexivity|]. rewrite len_link. split; [lia|exact EL].
Qed.
End Graph.
Section Paths.
Variables (x : nat) (G : graph).

Definition entry (j : nat) : Prop :=
  exists b, nth_error G j = Some b /\ (reads_first x (items b) \/ (untouched x (items b) /\ needed G x j)).
Lemma entry_needed i j : edge G i j -> entry j -> needed G x i.
Proof. intros E (b & N & [R|[U D]]); [eapply needed_now|eapply needed_later]; eassumption. Qed.
Definition expose (l : list item) (k : bool) : Prop := reads_first x l \/ (untouched x l /\ k = true).
Lemma expose_app l m k : expose (l ++ m) k <-> reads_first x l \/ (untouched x l /\ expose m k).
Proof.
  unfold expose. induction l as [|it l IH]; cbn [app].
  - pose proof (reads_first_nil x). assert (untouched x []) by (intros i []). tauto.
  - rewrite !reads_first_cons, !untouched_cons. tauto.
Qed.
Lemma expose_nil k : expose [] k <-> k = true.
Proof. unfold expose. pose proof (reads_first_nil x). assert (untouched x []) by (intros i []). tauto. Qed.
Lemma expose_mono l (k k' : bool) : (k = true -> k' = true) -> expose l k -> expose l k'.
Proof. unfold expose. tauto. Qed.

(** a block whose statements are [l] and whose end needs [x] if [k] *)
Lemma entry_block j b k : nth_error G j = Some b -> (k = true -> needed G x j) -> expose (items b) k -> entry j.
Proof. intros N K [R|[U E]]; exists b; split; auto. Qed.

Definition all_needed (k : bool) (l : list nat) : Prop := k = true -> forall t, In t l -> needed G x t.
Definition just (kn kb kc : bool) (t : list nat) (l : list (bool * nat)) : Prop :=
  all_needed kn t /\ all_needed kb (breaks l) /\ all_needed kc (continues l).
Lemma all_needed_app k l m : all_needed k (l ++ m) -> all_needed k l /\ all_needed k m.
Proof. intros A. split; intros K t I; apply A; auto using in_or_app. Qed.
Lemma breaks_app l m : breaks (l ++ m) = breaks l ++ breaks m.
Proof. unfold breaks. rewrite filter_app, map_app. reflexivity. Qed.
Lemma continues_app l m : continues (l ++ m) = continues l ++ continues m.
Proof. unfold continues. rewrite filter_app, map_app. reflexivity. Qed.

Lemma in_memb y l : memb y l = true -> In y l. Proof. apply memb_in. Qed.

(** the test of an if or while, or the value of a return *)
Lemma expose_test e k : memb x (names e) || k = true -> expose [test_item e] k.
Proof.
  intros H. apply orb_prop in H. destruct H as [H|H]; [left; apply reads_now; apply in_memb, H|right].
  split; [intros it [<-|[]] []|exact H].
Qed.
Lemma expose_for y r k : Nat.eqb y x = false -> memb x (range_names r) || k = true -> expose [for_item y r] k.
Proof.
  intros Y H. apply orb_prop in H. destruct H as [H|H]; [left; apply reads_now; apply in_memb, H|right].
  split; [|exact H]. intros it [<-|[]] [E|[]]. rewrite E, Nat.eqb_refl in Y. discriminate.
Qed.

Lemma head_entry g cache it g1 w k : loop_head g cache it = (g1, w) -> ext g1 G ->
  (k = true -> entry w) -> expose (rev cache) k -> entry (length g).
Proof.
  intros LH X K E. apply loop_head_ok in LH. destruct LH as (_ & _ & _ & S). destruct cache as [|c cache].
  - change (rev (@nil item)) with (@nil item) in E. apply (proj1 (expose_nil k)) in E. rewrite <- S. exact (K E).
  - destruct S as ((nx & N) & D). destruct (nth_ext _ _ _ _ _ X N) as (b & N' & I). apply (entry_block (length g) b k N'); [|rewrite I; exact E].
    intros H. eapply entry_needed; [eapply edge_ext; [exact X|exact D]|exact (K H)].
Qed.

Definition exposed_s (s : pstmt) : Prop := forall cache g d t l g' kn kb kc,
  cfg_s s cache g = (d, t, l, g') -> ext g' G -> just kn kb kc t l -> expose (rev cache) (lv_s x s kn kb kc) -> entry (length g).
Definition exposed (b : pblock) : Prop := forall cache head tails loops g h t l g' kn kb kc,
  bounded g tails -> bounded2 g loops ->
  cfg_b b cache head tails loops g = (h, t, l, g') -> ext g' G -> just kn kb kc t l -> nonempty cache b ->
  expose (rev cache) (lv x b kn kb kc) -> entry (length g).

(** The loops: [w] is the loop head, [a] the body *)
Lemma loop_entry a g1 w it h t l g2 L k (out : list nat) :
  tame x a = true -> isnil a = false -> exposed a ->
  cfg_b a [] None [] [] g1 = (h, t, l, g2) -> ext (link (link (connect' g2 w h) t w) (continues l) w) G ->
  nth_error g1 w = Some {| items := [it]; next := [] |} -> (w < length g1)%nat ->
  all_needed k (breaks l ++ [w]) ->
  (L = true -> reads_first x [it] \/ (untouched x [it] /\ (lv x a false k false = true \/ k = true))) ->
  (L = true -> entry w) /\ (L = true -> all_needed L t /\ all_needed L (continues l)) /\ all_needed k (breaks l).
Proof.
  intros T NE EX C X NW W AN HL.
  assert (SH := proj2 (shapes x) a T [] None [] [] g1 (bounded_nil _) (bounded2_nil _)). rewrite C in SH.
  destruct SH as (E1 & B1 & L1 & _ & N1). destruct (N1 (nonempty_nil a NE)) as (Eh & Le & _). cbn [orelse] in Eh. subst h.
  cbn [connect'] in X. apply all_needed_app in AN. destruct AN as (AB & AW).
  assert (X2 : ext g2 G). { eapply ext_trans; [|exact X]. eapply ext_trans; [apply ext_connect|eapply ext_trans; apply ext_link]. }
  assert (LEN := ext_len _ _ E1).
  assert (EN : L = true -> entry w).
  { intros HT. destruct (nth_ext g1 G w [it] [] (ext_trans _ _ _ E1 X2) NW) as (b & NB & IB). exists b. split; [exact NB|]. rewrite IB.
    destruct (HL HT) as [R|(U & [V|V])]; [auto| |].
    - right. split; [exact U|]. eapply entry_needed with (j := length g1).
      + eapply edge_ext; [exact X|]. eapply edge_ext; [eapply ext_trans; apply ext_link|]. apply edge_connect. lia.
      + eapply (EX [] None [] [] g1 _ t l g2 false k false (bounded_nil _) (bounded2_nil _) C X2); [|apply nonempty_nil; exact NE|apply expose_nil; exact V].
        split; [discriminate|]. split; [exact AB|discriminate].
    - right. split; [exact U|]. apply AW; [exact V|left; reflexivity]. }
  split; [exact EN|]. split; [|exact AB]. intros HT. split; intros _ u I; (eapply entry_needed; [|apply EN; exact HT]).
  - eapply edge_ext; [exact X|]. eapply edge_ext; [apply ext_link|]. apply edge_link; [exact I|]. rewrite len_connect. apply B1. exact I.
  - eapply edge_ext; [exact X|]. apply edge_link; [exact I|]. rewrite len_link, len_connect. apply (bounded_continues _ _ L1). exact I.
Qed.

Lemma tame_if c a b : tame_s x (SIf c a b) = true -> isnil a = false /\ tame x a = true /\ tame x b = true.
Proof. cbn [tame_s]. intros H. apply andb_prop in H. destruct H as (H & T2). apply andb_prop in H. destruct H as (NE & T1). destruct (isnil a); auto; discriminate. Qed.
Lemma tame_while c a e : tame_s x (SWhile c a e) = true -> isnil a = false /\ tame x a = true /\ e = BNil.
Proof. cbn [tame_s]. intros H. apply andb_prop in H. destruct H as (H & T2). apply andb_prop in H. destruct H as (NE & T1). destruct e; [|discriminate]. destruct (isnil a); auto; discriminate. Qed.
Lemma tame_for y r a e : tame_s x (SFor y r a e) = true -> Nat.eqb y x = false /\ isnil a = false /\ tame x a = true /\ e = BNil.
Proof. cbn [tame_s]. intros H. apply andb_prop in H. destruct H as (H & T2). apply andb_prop in H. destruct H as (H & T1). apply andb_prop in H. destruct H as (Y & NE). destruct e; [|discriminate]. destruct (isnil a), (Nat.eqb y x); auto; discriminate. Qed.

(** what is known after an if *)
Lemma if_parts c a b cache g d t l g' kn kb kc : tame_s x (SIf c a b) = true ->
  cfg_s (SIf c a b) cache g = (d, t, l, g') -> ext g' G -> just kn kb kc t l ->
  exists g1 h1 t1 l1 g2 h2 t2 l2 g3, g1 = add g (rev (test_item c :: cache)) /\
    cfg_b a [] None [] [] g1 = (h1, t1, l1, g2) /\ ext g2 G /\ just kn kb kc t1 l1 /\
    edge G (length g) (length g1) /\
    cfg_b b [] None [] [] (connect' g2 (length g) h1) = (h2, t2, l2, g3) /\ ext g3 G /\ just kn kb kc t2 l2 /\
    (isnil b = false -> edge G (length g) (length (connect' g2 (length g) h1))) /\
    (isnil b = true -> all_needed kn [length g]).
Proof.
  intros T C X (JN & JB & JC). destruct (tame_if _ _ _ T) as (NE & T1 & T2). cbn [cfg_s] in C.
  set (g1 := add g (rev (test_item c :: cache))) in *.
  assert (LEN1 : length g1 = S (length g)) by apply len_add.
  assert (S1 := proj2 (shapes x) a T1 [] None [] [] g1 (bounded_nil _) (bounded2_nil _)).
  destruct (cfg_b a [] None [] [] g1) as [[[h1 t1] l1] g2] eqn:C1. destruct S1 as (E1 & B1 & L1 & _ & N1).
  destruct (N1 (nonempty_nil a NE)) as (Eh & Le & _). cbn [orelse] in Eh. subst h1.
  assert (S2 := proj2 (shapes x) b T2 [] None [] [] (connect' g2 (length g) (Some (length g1))) (bounded_nil _) (bounded2_nil _)).
  destruct (cfg_b b [] None [] [] (connect' g2 (length g) (Some (length g1)))) as [[[h2 t2] l2] g3] eqn:C2. destruct S2 as (E2 & B2 & L2 & _ & N2).
  exists g1, (Some (length g1)), t1, l1, g2, h2, t2, l2, g3.
  assert (X3 : ext g3 G). { destruct h2; injection C as <- <- <- <-; [eapply ext_trans; [apply ext_connect|exact X]|exact X]. }
  assert (X2 : ext g2 G) by (eapply ext_trans; [apply ext_connect'|eapply ext_trans; eassumption]).
  assert (ED : edge G (length g) (length g1)). { eapply edge_ext; [exact X3|]. eapply edge_ext; [exact E2|]. apply edge_connect. lia. }
  split; [reflexivity|]. split; [exact C1|]. split; [exact X2|].
  destruct b as [|s b].
  - cbn [cfg_b] in C2. injection C2 as <- <- <- <-. injection C as <- <- <- <-. apply all_needed_app in JN. destruct JN as (JN1 & JN2).
    split; [split; auto|]. split; [exact ED|]. split; [reflexivity|]. split; [exact X3|].
    split; [split; [|split]; intros _ u []|]. split; [discriminate|auto].
  - destruct (N2 (nonempty_nil (BCons s b) eq_refl)) as (Eh2 & Le2 & _). cbn [orelse] in Eh2. subst h2. injection C as <- <- <- <-.
    apply all_needed_app in JN. rewrite breaks_app in JB. apply all_needed_app in JB. rewrite continues_app in JC. apply all_needed_app in JC.
    split; [split; [|split]; tauto|]. split; [exact ED|]. split; [exact C2|]. split; [exact X3|]. split; [split; [|split]; tauto|].
    split; [|discriminate]. intros _. eapply edge_ext; [exact X|]. apply edge_connect. rewrite len_connect' in Le2. assert (H := ext_len _ _ E2). rewrite len_connect' in H. lia.
Qed.

Lemma exposed_all : (forall s, tame_s x s = true -> simple_item s = None -> exposed_s s) /\ (forall b, tame x b = true -> exposed b).
Proof.
  apply pstmt_ind2; intros; try (cbn in *; discriminate).
  - (* if *) intros cache g d t l g' kn kb kc C X J E.
    destruct (if_parts _ _ _ _ _ _ _ _ _ _ _ _ H1 C X J) as (g1 & h1 & t1 & l1 & g2 & h2 & t2 & l2 & g3 & G1 & C1 & X2 & J1 & ED & C2 & X3 & J2 & ED2 & LAST).
    destruct (tame_if _ _ _ H1) as (NE & T1 & T2).
    assert (X1 : ext g1 G). { assert (S1 := proj2 (shapes x) a T1 [] None [] [] g1 (bounded_nil _) (bounded2_nil _)). rewrite C1 in S1. eapply ext_trans; [apply S1|exact X2]. }
    rewrite G1 in X1. destruct (nth_ext _ G _ _ _ X1 (nth_add g _)) as (bb & NB & IB).
    eapply entry_block with (k := lv x a kn kb kc || lv x b kn kb kc); [exact NB| |].
    + intros K. apply orb_prop in K. destruct K as [K|K].
      * eapply entry_needed; [exact ED|]. eapply (H T1 [] None [] [] g1 _ _ _ _ kn kb kc (bounded_nil _) (bounded2_nil _) C1 X2 J1); [apply nonempty_nil; exact NE|apply expose_nil; exact K].
      * destruct (isnil b) eqn:NB'.
        -- destruct b; [|discriminate]. cbn [lv] in K. apply (LAST eq_refl K). left. reflexivity.
        -- eapply entry_needed; [apply ED2; reflexivity|]. eapply (H0 T2 [] None [] [] _ _ _ _ _ kn kb kc (bounded_nil _) (bounded2_nil _) C2 X3 J2); [apply nonempty_nil; exact NB'|apply expose_nil; exact K].
    + rewrite IB. cbn [rev]. apply expose_app. cbn [lv_s] in E. destruct E as [R|[U K]]; [auto|]. right. split; [exact U|].
      apply expose_test. rewrite orb_assoc. exact K.
  - (* while *) intros cache g d t l g' kn kb kc C X J E. destruct (tame_while _ _ _ H1) as (NE & T1 & ->). cbn [cfg_s] in C.
    destruct (loop_head g cache (test_item c)) as [g1 w] eqn:LH. destruct (cfg_b body [] None [] [] g1) as [[[h t1] l1] g2] eqn:C1.
    injection C as <- <- <- <-. destruct (loop_head_ok _ _ _ _ _ LH) as (X1 & W & NW & _). destruct J as (JN & _ & _).
    destruct (loop_entry body g1 w (test_item c) h t1 l1 g2 (lv_s x (SWhile c body BNil) kn kb kc) kn [] T1 NE (H T1) C1 X NW) as (EN & _ & _); [lia|exact JN| |].
    { cbn [lv_s]. intros K. apply orb_prop in K. destruct K as [K|K]; [apply orb_prop in K; destruct K as [K|K]|].
      - left. apply reads_now. apply in_memb, K.
      - right. split; [intros it [<-|[]] []|auto].
      - right. split; [intros it [<-|[]] []|auto]. }
    assert (XG1 : ext g1 G).
    { assert (S1 := proj2 (shapes x) body T1 [] None [] [] g1 (bounded_nil _) (bounded2_nil _)). rewrite C1 in S1. eapply ext_trans; [apply S1|].
      eapply ext_trans; [|exact X]. eapply ext_trans; [apply ext_connect'|eapply ext_trans; apply ext_link]. }
    eapply head_entry; [exact LH|exact XG1| |exact E]. exact EN.
  - (* for *) intros cache g d t l g' kn kb kc C X J E. destruct (tame_for _ _ _ _ H1) as (Y & NE & T1 & ->). cbn [cfg_s] in C.
    destruct (loop_head g cache (for_item x0 r)) as [g1 w] eqn:LH. destruct (cfg_b body [] None [] [] g1) as [[[h t1] l1] g2] eqn:C1.
    injection C as <- <- <- <-. destruct (loop_head_ok _ _ _ _ _ LH) as (X1 & W & NW & _). destruct J as (JN & _ & _).
    assert (UN : untouched x [for_item x0 r]). { intros it [<-|[]] [E'|[]]. rewrite E', Nat.eqb_refl in Y. discriminate. }
    destruct (loop_entry body g1 w (for_item x0 r) h t1 l1 g2 (lv_s x (SFor x0 r body BNil) kn kb kc) kn [] T1 NE (H T1) C1 X NW) as (EN & _ & _); [lia|exact JN| |].
    { cbn [lv_s]. intros K. apply orb_prop in K. destruct K as [K|K]; [apply orb_prop in K; destruct K as [K|K]|].
      - left. apply reads_now. apply in_memb, K.
      - right. apply andb_prop in K. split; [exact UN|]. left. apply K.
      - right. split; [exact UN|auto]. }
    assert (XG1 : ext g1 G).
    { assert (S1 := proj2 (shapes x) body T1 [] None [] [] g1 (bounded_nil _) (bounded2_nil _)). rewrite C1 in S1. eapply ext_trans; [apply S1|].
      eapply ext_trans; [|exact X]. eapply ext_trans; [apply ext_connect'|eapply ext_trans; apply ext_link]. }
    eapply head_entry; [exact LH|exact XG1| |exact E]. exact EN.
  - intros cache g d t l g' kn kb kc C X (JN & JB & JC) E. cbn [cfg_s] in C. injection C as <- <- <- <-. cbn [lv_s] in E.
    destruct (nth_ext _ G _ _ _ X (nth_add g _)) as (bb & NB & IB). eapply entry_block with (k := kb); [exact NB|intros K; apply JB; [exact K|left; reflexivity]|].
    rewrite IB. cbn [rev]. apply expose_app. destruct E as [R|[U K]]; [auto|]. right. split; [exact U|]. right. split; [intros it [<-|[]] []|exact K].
  - intros cache g d t l g' kn kb kc C X (JN & JB & JC) E. cbn [cfg_s] in C. injection C as <- <- <- <-. cbn [lv_s] in E.
    destruct (nth_ext _ G _ _ _ X (nth_add g _)) as (bb & NB & IB). eapply entry_block with (k := kc); [exact NB|intros K; apply JC; [exact K|left; reflexivity]|].
    rewrite IB. cbn [rev]. apply expose_app. destruct E as [R|[U K]]; [auto|]. right. split; [exact U|]. right. split; [intros it [<-|[]] []|exact K].
  - intros cache g d t l g' kn kb kc C X J E. cbn [cfg_s] in C. injection C as <- <- <- <-. cbn [lv_s] in E.
    destruct (nth_ext _ G _ _ _ X (nth_add g _)) as (bb & NB & IB). eapply entry_block with (k := false); [exact NB|discriminate|].
    rewrite IB. cbn [rev]. apply expose_app. destruct E as [R|[U K]]; [auto|]. right. split; [exact U|]. apply expose_test. rewrite K. reflexivity.
  - (* nil *) intros cache head tails loops g h t l g' kn kb kc BT BL C X (JN & _ & _) NE E. cbn [cfg_b lv] in *. destruct cache as [|c cache]; [destruct NE; congruence|].
    injection C as <- <- <- <-. assert (X1 : ext (add g (rev (c :: cache))) G) by (eapply ext_trans; [apply ext_link|exact X]).
    destruct (nth_ext _ G _ _ _ X1 (nth_add g _)) as (bb & NB & IB). eapply entry_block; [exact NB|intros K; apply JN; [exact K|left; reflexivity]|]. rewrite IB. exact E.
  - (* cons *) intros cache head tails loops g h t l g' kn kb kc BT BL C X J NE E. cbn [tame] in H1. apply andb_prop in H1. destruct H1 as (T1 & T2).
    cbn [cfg_b] in C. destruct (simple_item s) as [it|] eqn:SI.
    + eapply (H0 T2 (it :: cache) head tails loops g h t l g' kn kb kc BT BL C X J); [left; discriminate|].
      cbn [rev]. apply expose_app. cbn [lv] in E. destruct E as [R|[U K]]; [auto|]. right. split; [exact U|].
      destruct s; try discriminate SI; injection SI as <-; cbn [lv_s] in K.
      * right. split; [intros i [<-|[]] []|exact K].
      * apply orb_prop in K. destruct K as [K|K]; [left; apply reads_now; apply in_memb, K|]. apply andb_prop in K. destruct K as (Y & K).
        right. split; [|exact K]. intros i [<-|[]] [->|[]]. rewrite Nat.eqb_refl in Y. discriminate.
      * apply orb_prop in K. destruct K as [K|K]; [left; apply reads_now|].
        { cbn [loads]. apply orb_prop in K. destruct K as [K|K]; [left; apply Nat.eqb_eq, K|right; apply in_memb, K]. }
        destruct (Nat.eqb_spec x0 x) as [->|Y]; [left; apply reads_now; left; reflexivity|].
        right. split; [|exact K]. intros i [<-|[]] [->|[]]. congruence.
      * discriminate.
    + assert (S1 := proj1 (shapes x) s T1 SI cache g). destruct (cfg_s s cache g) as [[[dd ts] ls] g1] eqn:CS. destruct S1 as (E1 & LE & B1 & L1).
      destruct J as (JN & JB & JC).
      destruct dd.
      * injection C as <- <- <- <-. rewrite breaks_app in JB. apply all_needed_app in JB. rewrite continues_app in JC. apply all_needed_app in JC.
        eapply (H T1 eq_refl cache g true ts ls g1 (lv x b kn kb kc) kb kc CS); [eapply ext_trans; [apply ext_link|exact X]| |exact E].
        split; [|tauto]. destruct s; try discriminate SI; cbn [cfg_s] in CS; try discriminate CS; try discriminate T1.
        -- destruct (cfg_b a [] None [] [] _) as [[[? ?] ?] ?]. destruct (cfg_b b0 _ _ _ _ _) as [[[[?|] ?] ?] ?]; discriminate.
        -- destruct (loop_head _ _ _). destruct (cfg_b body _ _ _ _ _) as [[[? ?] ?] ?]. discriminate.
        -- destruct (loop_head _ _ _). destruct (cfg_b body _ _ _ _ _) as [[[? ?] ?] ?]. destruct els; [discriminate|]. destruct (cfg_b (BCons _ _) _ _ _ _ _) as [[[? ?] ?] ?]. discriminate.
        -- injection CS as <- _ _. intros _ u [].
        -- injection CS as <- _ _. intros _ u [].
      * assert (BT' : bounded (link g1 tails (length g)) ts) by (eapply bounded_mono; [|exact B1]; rewrite len_link; lia).
        assert (BL' : bounded2 (link g1 tails (length g)) (loops ++ ls)).
        { apply bounded2_app; (eapply bounded2_mono; [|eassumption]); rewrite len_link; lia. }
        assert (S2 := proj2 (shapes x) b T2 [] (Some (orelse head (length g))) ts (loops ++ ls) _ BT' BL'). rewrite C in S2.
        destruct S2 as (E2 & B2 & L2 & (lp & LP) & N2).
        assert (XL : ext (link g1 tails (length g)) G) by (eapply ext_trans; eassumption).
        eapply (H T1 eq_refl cache g false ts ls g1 (lv x b kn kb kc) kb kc CS); [eapply ext_trans; [apply ext_link|exact XL]| |exact E].
        assert (JB' := JB). assert (JC' := JC). rewrite LP in JB', JC'. rewrite !breaks_app in JB'. rewrite !continues_app in JC'.
        apply all_needed_app in JB'. destruct JB' as (JB' & _). apply all_needed_app in JB'.
        apply all_needed_app in JC'. destruct JC' as (JC' & _). apply all_needed_app in JC'.
        split; [|tauto]. intros K u I. destruct (isnil b) eqn:NB.
        -- destruct b; [|discriminate]. cbn [cfg_b] in C. injection C as <- <- <- <-. apply JN; [exact K|exact I].
        -- eapply entry_needed; [eapply edge_ext; [exact X|]; apply (N2 (nonempty_nil b NB)); exact I|].
           eapply (H0 T2 [] _ ts (loops ++ ls) _ h t l g' kn kb kc BT' BL' C X); [split; auto|apply nonempty_nil; exact NB|apply expose_nil; exact K].
Qed.
End Paths.
(** ** Overwriting a dead variable *)
Section Over.
Variables (x m : nat) (v : pexp) (G : graph).
Variables (n : nat) (glob : nat -> option pval) (loc loc' : nat -> bool).
Hypothesis loc_same : forall y, loc y = loc' y.
Hypothesis lit : literal v = true.
(** the verdict of the analysis *)
Hypothesis dead : forall i b it, nth_error G i = Some b -> In it (items b) -> In (m, x) (marks it) -> ~ needed G x i.
Notation ok_s := (ok_s x n glob loc loc').
Notation ok := (ok x n glob loc loc').
Notation ow := (overwrite m x v).
Notation ow_s := (overwrite_s m x v).

Lemma plain_tame b : plain b = true -> tame x b = true.
Proof. induction b as [|s b IH]; [reflexivity|]. cbn. intros H. apply andb_prop in H. destruct H as (P & H). rewrite IH by exact H. destruct s; try discriminate P; reflexivity. Qed.
Lemma plain_items b : plain b = true -> forall cache head tails loops g, cache <> [] ->
  exists its, cfg_b b cache head tails loops g = (Some (orelse head (length g)), [length g], loops, link (add g (rev cache ++ its)) tails (length g)).
Proof.
  induction b as [|s b IH]; intros P cache head tails loops g NE.
  - exists []. rewrite app_nil_r. cbn [cfg_b]. destruct cache; [congruence|reflexivity].
  - cbn in P. apply andb_prop in P. destruct P as (P & PB). cbn [cfg_b]. rewrite plain_simple in P. destruct (simple_item s) as [it|]; [|discriminate].
    destruct (IH PB (it :: cache) head tails loops g ltac:(discriminate)) as (its & E). exists (it :: its). rewrite E. cbn [rev]. rewrite <- app_assoc. reflexivity.
Qed.
Lemma simple_ow s : plain_s s = true -> ow_s s = s.
Proof. destruct s; try discriminate; reflexivity. Qed.

Definition over_s (s : pstmt) : Prop := forall cache g d t l g' kn kb kc,
  cfg_s s cache g = (d, t, l, g') -> ext g' G -> just x G kn kb kc t l -> ok_s kn kb kc s (ow_s s).
Definition over (b : pblock) : Prop := forall cache head tails loops g h t l g' kn kb kc,
  bounded g tails -> bounded2 g loops ->
  cfg_b b cache head tails loops g = (h, t, l, g') -> ext g' G -> just x G kn kb kc t l -> ok kn kb kc b (ow b).

Lemma dead_stops s cache g t l g' : cfg_s s cache g = (true, t, l, g') -> s = SBreak \/ s = SContinue.
Proof.
  destruct s; cbn [cfg_s]; try discriminate; auto.
  - destruct (cfg_b a [] None [] [] _) as [[[? ?] ?] ?]. destruct (cfg_b b _ _ _ _ _) as [[[[?|] ?] ?] ?]; discriminate.
  - destruct (loop_head _ _ _). destruct (cfg_b body _ _ _ _ _) as [[[? ?] ?] ?]. discriminate.
  - destruct (loop_head _ _ _). destruct (cfg_b body _ _ _ _ _) as [[[? ?] ?] ?]. destruct els; [discriminate|]. destruct (cfg_b (BCons _ _) _ _ _ _ _) as [[[? ?] ?] ?]. discriminate.
  - destruct (cfg_b body _ _ _ _ _) as [[[? ?] ?] ?]. destruct (cfg_b handler _ _ _ _ _) as [[[? ?] ?] ?]. destruct (cfg_b els _ _ _ _ _) as [[[? ?] ?] ?].
    destruct fin; [discriminate|]. destruct (cfg_b (BCons _ _) _ _ _ _ _) as [[[? ?] ?] ?]. discriminate.
Qed.

Lemma over_all : (forall s, tame_s x s = true -> simple_item s = None -> over_s s) /\ (forall b, tame x b = true -> over b).
Proof.
  apply pstmt_ind2; intros; try (cbn in *; discriminate).
  - (* if *) intros cache g d t l g' kn kb kc C X J. destruct (tame_if _ _ _ _ H1) as (NE & T1 & T2).
    destruct (if_parts _ _ _ _ _ _ _ _ _ _ _ _ _ _ H1 C X J) as (g1 & h1 & t1 & l1 & g2 & h2 & t2 & l2 & g3 & G1 & C1 & X2 & J1 & ED & C2 & X3 & J2 & ED2 & LAST).
    cbn [overwrite_s]. apply ok_if; [exact loc_same| |].
    + eapply (H T1 [] None [] [] g1); [apply bounded_nil|apply bounded2_nil|exact C1|exact X2|exact J1].
    + destruct b; [apply ok_nil|]. eapply (H0 T2 [] None [] []); [apply bounded_nil|apply bounded2_nil|exact C2|exact X3|exact J2].
  - (* while *) intros cache g d t l g' kn kb kc C X J. destruct (tame_while _ _ _ _ H1) as (NE & T1 & ->). cbn [cfg_s] in C.
    destruct (loop_head g cache (test_item c)) as [g1 w] eqn:LH. destruct (cfg_b body [] None [] [] g1) as [[[h t1] l1] g2] eqn:C1.
    injection C as <- <- <- <-. destruct (loop_head_ok _ _ _ _ _ LH) as (X1 & W & NW & _). destruct J as (JN & _ & _).
    destruct (loop_entry x G body g1 w (test_item c) h t1 l1 g2 (lv_s x (SWhile c body BNil) kn kb kc) kn [] T1 NE (proj2 (exposed_all x G) body T1) C1 X NW) as (EN & TL & BR); [lia|exact JN| |].
    { cbn [lv_s]. intros K. apply orb_prop in K. destruct K as [K|K]; [apply orb_prop in K; destruct K as [K|K]|].
      - left. apply reads_now. apply in_memb, K.
      - right. split; [intros it [<-|[]] []|auto].
      - right. split; [intros it [<-|[]] []|auto]. }
    cbn [overwrite_s]. apply ok_while; [exact loc_same|].
    eapply (H T1 [] None [] [] g1); [apply bounded_nil|apply bounded2_nil|exact C1| |].
    + eapply ext_trans; [|exact X]. eapply ext_trans; [apply ext_connect'|eapply ext_trans; apply ext_link].
    + split; [|split; [exact BR|]]; intros K; apply TL; exact K.
  - (* for *) intros cache g d t l g' kn kb kc C X J. destruct (tame_for _ _ _ _ _ H1) as (Y & NE & T1 & ->). cbn [cfg_s] in C.
    destruct (loop_head g cache (for_item x0 r)) as [g1 w] eqn:LH. destruct (cfg_b body [] None [] [] g1) as [[[h t1] l1] g2] eqn:C1.
    injection C as <- <- <- <-. destruct (loop_head_ok _ _ _ _ _ LH) as (X1 & W & NW & _). destruct J as (JN & _ & _).
    assert (UN : untouched x [for_item x0 r]). { intros it [<-|[]] [E'|[]]. rewrite E', Nat.eqb_refl in Y. discriminate. }
    destruct (loop_entry x G body g1 w (for_item x0 r) h t1 l1 g2 ((negb (Nat.eqb x0 x) && lv x body false kn false) || kn) kn [] T1 NE (proj2 (exposed_all x G) body T1) C1 X NW) as (EN & TL & BR); [lia|exact JN| |].
    { intros K. right. split; [exact UN|]. apply orb_prop in K. destruct K as [K|K]; [apply andb_prop in K; left; apply K|auto]. }
    cbn [overwrite_s]. apply ok_for; [exact loc_same|].
    eapply (H T1 [] None [] [] g1); [apply bounded_nil|apply bounded2_nil|exact C1| |].
    + eapply ext_trans; [|exact X]. eapply ext_trans; [apply ext_connect'|eapply ext_trans; apply ext_link].
    + split; [|split; [exact BR|]]; intros K; apply TL; exact K.
  - intros cache g d t l g' kn kb kc C X J. apply ok_refl; [exact loc_same|reflexivity].
  - intros cache g d t l g' kn kb kc C X J. apply ok_refl; [exact loc_same|reflexivity].
  - intros cache g d t l g' kn kb kc C X J. apply ok_refl; [exact loc_same|reflexivity].
  - (* nil *) intros cache head tails loops g h t l g' kn kb kc BT BL C X J. apply ok_nil.
  - (* cons *) intros cache head tails loops g h t l g' kn kb kc BT BL C X J. assert (TT := H1). cbn [tame] in H1. apply andb_prop in H1. destruct H1 as (T1 & T2).
    cbn [overwrite]. destruct (sets m x s && plain b) eqn:SP.
    + apply andb_prop in SP. destruct SP as (SS & PB).
      assert (PS : exists it, simple_item s = Some it /\ In (m, x) (marks it)).
      { destruct s; try discriminate SS; cbn [sets] in SS; apply andb_prop in SS; destruct SS as (E1 & E2); apply Nat.eqb_eq in E1, E2; subst; eexists; (split; [reflexivity|left; reflexivity]). }
      destruct PS as (it & SI & MK). cbn [cfg_b] in C. rewrite SI in C.
      destruct (plain_items b PB (it :: cache) head tails loops g ltac:(discriminate)) as (its & E). rewrite E in C. injection C as <- <- <- <-.
      assert (kn = false) as ->.
      { destruct kn; [|reflexivity]. exfalso. destruct J as (JN & _). assert (XA : ext (add g (rev (it :: cache) ++ its)) G) by (eapply ext_trans; [apply ext_link|exact X]).
        destruct (nth_ext _ G _ _ _ XA (nth_add g _)) as (bb & NB & IB). apply (dead (length g) bb it NB).
        - rewrite IB. cbn [rev]. apply in_or_app. left. apply in_or_app. right. left. reflexivity.
        - exact MK.
        - apply JN; [reflexivity|left; reflexivity]. }
      apply (ok_end x n glob loc loc' loc_same kb kc (BCons s b) m v TT lit).
    + cbn [cfg_b] in C. destruct (simple_item s) as [it|] eqn:SI.
      * rewrite simple_ow by (rewrite plain_simple, SI; reflexivity). apply ok_cons; [apply ok_simple; [exact loc_same|rewrite plain_simple, SI; reflexivity]|].
        eapply (H0 T2 (it :: cache) head tails loops g); eassumption.
      * assert (S1 := proj1 (shapes x) s T1 SI cache g). destruct (cfg_s s cache g) as [[[dd ts] ls] g1] eqn:CS. destruct S1 as (E1 & LE & B1 & L1).
        destruct J as (JN & JB & JC). destruct dd.
        -- injection C as <- <- <- <-. rewrite breaks_app in JB. apply all_needed_app in JB. rewrite continues_app in JC. apply all_needed_app in JC.
           destruct (dead_stops _ _ _ _ _ _ CS) as [-> | ->]; intros cur E E' A; exact A.
        -- assert (BT' : bounded (link g1 tails (length g)) ts) by (eapply bounded_mono; [|exact B1]; rewrite len_link; lia).
           assert (BL' : bounded2 (link g1 tails (length g)) (loops ++ ls)).
           { apply bounded2_app; (eapply bounded2_mono; [|eassumption]); rewrite len_link; lia. }
           assert (S2 := proj2 (shapes x) b T2 [] (Some (orelse head (length g))) ts (loops ++ ls) _ BT' BL'). rewrite C in S2.
           destruct S2 as (E2 & B2 & L2 & (lp & LP) & N2).
           assert (XL : ext (link g1 tails (length g)) G) by (eapply ext_trans; eassumption).
           assert (JB' := JB). assert (JC' := JC). rewrite LP in JB', JC'. rewrite !breaks_app in JB'. rewrite !continues_app in JC'.
           apply all_needed_app in JB'. destruct JB' as (JB' & _). apply all_needed_app in JB'.
           apply all_needed_app in JC'. destruct JC' as (JC' & _). apply all_needed_app in JC'.
           apply ok_cons.
           ++ eapply (H T1 eq_refl cache g false ts ls g1 (lv x b kn kb kc) kb kc CS); [eapply ext_trans; [apply ext_link|exact XL]|].
              split; [|tauto]. intros K u I. destruct (isnil b) eqn:NB.
              ** destruct b; [|discriminate]. cbn [cfg_b] in C. injection C as <- <- <- <-. apply JN; [exact K|exact I].
              ** eapply entry_needed; [eapply edge_ext; [exact X|]; apply (N2 (nonempty_nil b NB)); exact I|].
                 eapply (proj2 (exposed_all x G) b T2 [] _ ts (loops ++ ls) _ h t l g' kn kb kc BT' BL' C X); [split; auto|apply nonempty_nil; exact NB|apply expose_nil; exact K].
           ++ eapply (H0 T2 [] _ ts (loops ++ ls) _ h t l g' kn kb kc BT' BL' C X). split; auto.
Qed.
End Over.

(** ** The verdict *)
Section Verdict.
Variable n : nat.
Notation occ l := (count_occ Nat.eq_dec l n).
Definition ids (l : list item) : list nat := flat_map (fun it => map fst (marks it)) l.
Definition gids (g : graph) : list nat := flat_map (fun b => ids (items b)) g.
Lemma occ_app l k : occ (l ++ k) = (occ l + occ k)%nat. Proof. apply count_occ_app. Qed.
Lemma ids_app l k : ids (l ++ k) = ids l ++ ids k. Proof. apply flat_map_app. Qed.
Lemma occ_rev l : occ (ids (rev l)) = occ (ids l).
Proof. induction l as [|it l IH]; [reflexivity|]. cbn [rev]. rewrite ids_app, occ_app, IH. cbn [ids flat_map]. rewrite app_nil_r, occ_app. fold (ids l). lia. Qed.
Lemma gids_add g l : gids (add g l) = gids g ++ ids l.
Proof. unfold gids, add. rewrite flat_map_app. cbn. rewrite app_nil_r. reflexivity. Qed.
Lemma gids_connect g i j : gids (connect g i j) = gids g.
Proof. unfold gids. revert i. induction g as [|b g IH]; intros [|i]; cbn; [reflexivity..|]. rewrite IH. reflexivity. Qed.
Lemma gids_connect' g i o : gids (connect' g i o) = gids g.
Proof. destruct o; [apply gids_connect|reflexivity]. Qed.
Lemma gids_link l : forall g j, gids (link g l j) = gids g.
Proof. induction l as [|t l IH]; intros g j; [reflexivity|]. cbn [link]. rewrite IH. apply gids_connect. Qed.
Lemma gids_link' l g o : gids (link' g l o) = gids g.
Proof. destruct o; [apply gids_link|reflexivity]. Qed.
Lemma gids_head g cache it g1 w : loop_head g cache it = (g1, w) -> occ (gids g1) = (occ (gids g) + occ (ids cache) + occ (ids [it]))%nat.
Proof.
  unfold loop_head. destruct cache as [|c cache]; intros [= <- <-].
  - rewrite gids_add, occ_app. cbn [ids flat_map count_occ]. lia.
  - rewrite gids_connect, !gids_add, !occ_app. change (rev cache ++ [c]) with (rev (c :: cache)). rewrite occ_rev. lia.
Qed.

Lemma simple_ids s it : simple_item s = Some it -> map fst (marks it) = numbers_s s.
Proof. destruct s; intros [= <-]; reflexivity. Qed.
Lemma marks_count : (forall s cache g d t l g', simple_item s = None -> cfg_s s cache g = (d, t, l, g') -> (occ (gids g') <= occ (gids g) + occ (ids cache) + occ (numbers_s s))%nat) /\
  (forall b cache head tails loops g h t l g', cfg_b b cache head tails loops g = (h, t, l, g') -> (occ (gids g') <= occ (gids g) + occ (ids cache) + occ (numbers b))%nat).
Proof.
  assert (AD : forall g it cache, map fst (marks it) = [] -> occ (gids (add g (rev cache ++ [it]))) = (occ (gids g) + occ (ids cache))%nat).
  { intros g it cache M. change (rev cache ++ [it]) with (rev (it :: cache)). rewrite gids_add, occ_app, occ_rev. cbn [ids flat_map]. rewrite M. reflexivity. }
  apply pstmt_ind2; intros; cbn [cfg_s cfg_b numbers_s numbers] in *; try discriminate.
  - destruct (cfg_b a _ _ _ _ _) as [[[h1 t1] l1] g1] eqn:C1. destruct (cfg_b b _ _ _ _ _) as [[[h2 t2] l2] g2] eqn:C2.
    apply H in C1. apply H0 in C2. cbn [rev] in C1. rewrite AD in C1 by reflexivity. rewrite gids_connect' in C2. cbn [ids flat_map count_occ] in C1, C2. rewrite occ_app.
    destruct h2; injection H2 as <- <- <- <-; rewrite ?gids_connect; lia.
  - destruct (loop_head _ _ _) as [g0 w] eqn:LH. destruct (cfg_b body _ _ _ _ _) as [[[h1 t1] l1] g1] eqn:C1. injection H2 as <- <- <- <-.
    apply gids_head in LH. apply H in C1. cbn in LH, C1. rewrite !gids_link, gids_connect', occ_app. lia.
  - destruct (loop_head _ _ _) as [g0 w] eqn:LH. destruct (cfg_b body _ _ _ _ _) as [[[h1 t1] l1] g1] eqn:C1.
    apply gids_head in LH. apply H in C1. cbn in LH, C1. rewrite occ_app. destruct els as [|s els].
    + injection H2 as <- <- <- <-. rewrite !gids_link, gids_connect'. lia.
    + destruct (cfg_b (BCons s els) _ _ _ _ _) as [[[h2 t2] l2] g2] eqn:C2. apply H0 in C2. injection H2 as <- <- <- <-.
      rewrite !gids_link, gids_connect' in C2. cbn [ids flat_map count_occ] in C2. rewrite gids_connect'. lia.
  - injection H0 as <- <- <- <-. rewrite AD by reflexivity. lia.
  - injection H0 as <- <- <- <-. rewrite AD by reflexivity. lia.
  - injection H0 as <- <- <- <-. rewrite AD by reflexivity. lia.
  - destruct (cfg_b body _ _ _ _ _) as [[[h1 t1] l1] g1] eqn:C1. destruct (cfg_b handler _ _ _ _ _) as [[[h2 t2] l2] g2] eqn:C2.
    destruct (cfg_b els _ _ _ _ _) as [[[h3' t3'] l3'] g3'] eqn:C3. apply H in C1. apply H0 in C2. apply H1 in C3.
    cbn [rev] in C1. rewrite AD in C1 by reflexivity. change [idle] with (rev [] ++ [idle]) in C2. rewrite AD in C2 by reflexivity. rewrite gids_connect' in C3. cbn [ids flat_map count_occ] in C1, C2, C3. rewrite !occ_app.
    destruct fin as [|s fin].
    + injection H4 as <- <- <- <-. rewrite gids_link, gids_connect, gids_connect'. lia.
    + destruct (cfg_b (BCons s fin) _ _ _ _ _) as [[[h4 t4] l4] g4] eqn:C4. apply H2 in C4. rewrite gids_connect' in C4. cbn [ids flat_map count_occ] in C4.
      injection H4 as <- <- <- <-. rewrite !gids_link', gids_connect', gids_link, gids_connect. lia.
  - destruct cache; [injection H as <- <- <- <-; cbn; lia|]. injection H as <- <- <- <-. rewrite gids_link, gids_add, occ_app. change (rev cache ++ [i]) with (rev (i :: cache)). rewrite occ_rev. cbn [count_occ]. lia.
  - rewrite occ_app. destruct (simple_item s) as [it|] eqn:SI.
    + apply H0 in H1. cbn [ids flat_map] in H1. rewrite occ_app, (simple_ids s it SI) in H1. unfold ids. lia.
    + destruct (cfg_s s cache g) as [[[dd ts] ls] g1] eqn:CS. apply H in CS; [|reflexivity]. destruct dd.
      * injection H1 as <- <- <- <-. rewrite gids_link. lia.
      * apply H0 in H1. rewrite gids_link in H1. cbn [ids flat_map count_occ] in H1. lia.
Qed.

Lemma verdict_none l it acc : occ (map fst (marks it)) = 0%nat ->
  fold_left (fun acc p => if Nat.eqb (fst p) n then Some (memb (snd p) l) else acc) (marks it) acc = acc.
Proof.
  generalize (marks it) as ms. intros ms. revert acc. induction ms as [|[k y] ms IH]; intros acc H; [reflexivity|]. cbn [map fst count_occ] in H. cbn [fold_left fst snd].
  destruct (Nat.eq_dec k n) as [E|NE]; [discriminate|]. destruct (Nat.eqb_spec k n); [congruence|]. apply IH, H.
Qed.
Lemma verdict_marks l ms y : forall acc, (occ (map fst ms) <= 1)%nat -> In (n, y) ms ->
  fold_left (fun acc p => if Nat.eqb (fst p) n then Some (memb (snd p) l) else acc) ms acc = Some (memb y l).
Proof.
  induction ms as [|[k z] ms IH]; intros acc O I; [destruct I|]. cbn [map fst count_occ fold_left snd] in *. destruct I as [[= -> ->]|I].
  - rewrite Nat.eqb_refl. destruct (Nat.eq_dec n n); [|congruence]. assert (O' : occ (map fst ms) = 0%nat) by lia.
    apply (verdict_none l {| loads := []; stores := []; marks := ms |}). exact O'.
  - destruct (Nat.eq_dec k n) as [->|NE].
    + exfalso. assert (count_occ Nat.eq_dec (map fst ms) n > 0)%nat; [|lia]. apply count_occ_In. apply (in_map fst) in I. exact I.
    + destruct (Nat.eqb_spec k n); [congruence|]. apply IH; assumption.
Qed.
Lemma block_none l b acc : occ (ids (items b)) = 0%nat -> block_verdict l b n acc = acc.
Proof.
  unfold block_verdict. generalize (items b). intros its. revert acc. induction its as [|it its IH]; intros acc H; [reflexivity|].
  cbn [ids flat_map] in H. fold (ids its) in H. rewrite occ_app in H. cbn [fold_left]. rewrite verdict_none by lia. apply IH. lia.
Qed.
Lemma block_some l b it y : forall acc, (occ (ids (items b)) <= 1)%nat -> In it (items b) -> In (n, y) (marks it) -> block_verdict l b n acc = Some (memb y l).
Proof.
  unfold block_verdict. generalize (items b). intros its. induction its as [|i its IH]; intros acc O I M; [destruct I|].
  cbn [ids flat_map fold_left] in *. fold (ids its) in O. rewrite occ_app in O. destruct I as [->|I].
  - assert (P : (0 < occ (map fst (marks it)))%nat). { apply (count_occ_In Nat.eq_dec). apply (in_map fst) in M. exact M. }
    rewrite (verdict_marks l (marks it) y) by (auto; lia). 
    apply (block_none l {| items := its; next := [] |}). cbn [items]. lia.
  - destruct (Nat.eq_dec (occ (map fst (marks i))) 0) as [Z|Z]; [rewrite verdict_none by exact Z; apply IH; [lia|exact I|exact M]|].
    exfalso. assert (0 < occ (ids its))%nat; [|lia]. apply (count_occ_In Nat.eq_dec). unfold ids. apply in_flat_map. exists it. split; [exact I|]. apply (in_map fst) in M. exact M.
Qed.
Lemma collect_none g : forall L acc, occ (gids g) = 0%nat -> collect g L n acc = acc.
Proof.
  induction g as [|b g IH]; intros [|l L] acc O; try reflexivity. cbn [collect]. unfold gids in O. cbn [flat_map] in O. fold (gids g) in O. rewrite occ_app in O.
  rewrite block_none by lia. apply IH. lia.
Qed.
Lemma collect_some g : forall L acc i b it y, (occ (gids g) <= 1)%nat -> length L = length g ->
  nth_error g i = Some b -> In it (items b) -> In (n, y) (marks it) -> collect g L n acc = Some (memb y (nth i L [])).
Proof.
  induction g as [|a g IH]; intros L acc i b it y O LL N I M; [destruct i; discriminate|]. destruct L as [|l L]; [discriminate|].
  cbn [collect]. unfold gids in O. cbn [flat_map] in O. fold (gids g) in O. rewrite occ_app in O.
  assert (P : In n (ids (items b))). { unfold ids. apply in_flat_map. exists it. split; [exact I|]. apply (in_map fst) in M. exact M. }
  destruct i as [|i]; cbn [nth_error nth] in *.
  - injection N as ->. apply (count_occ_In Nat.eq_dec) in P. rewrite (block_some l b it y) by (auto; lia). apply collect_none. lia.
  - assert (P' : (0 < occ (gids g))%nat). { apply (count_occ_In Nat.eq_dec). unfold gids. apply in_flat_map. exists b. split; [eapply nth_error_In; exact N|exact P]. }
    rewrite block_none by lia. eapply IH; try eassumption; [lia|]. cbn in LL. lia.
Qed.
End Verdict.

Lemma cfg_marks f n : NoDup (numbers (body f)) -> (count_occ Nat.eq_dec (gids (cfg f)) n <= 1)%nat.
Proof.
  intros ND. unfold cfg. destruct (cfg_b (body f) _ _ _ _ _) as [[[h t] l] g] eqn:C. rewrite gids_connect'.
  apply (proj2 (marks_count n)) in C. rewrite gids_add in C. cbn in C. 
  assert (H := proj1 (NoDup_count_occ Nat.eq_dec _) ND n). lia.
Qed.
(** The verdict is that of the paths of the graph. *)
Theorem verdict_exact f n i b it x : NoDup (numbers (body f)) ->
  nth_error (cfg f) i = Some b -> In it (items b) -> In (n, x) (marks it) ->
  (verdict f n = true <-> needed (cfg f) x i).
Proof.
  intros ND N I M. unfold verdict. destruct (live_out_exact (cfg f)) as (L & -> & LL & EX).
  rewrite (collect_some n (cfg f) L None i b it x (cfg_marks f n ND) LL N I M). rewrite memb_in. apply EX.
Qed.
Lemma overwrite_assigned m x v : (forall s y, memb y (assigned_s (overwrite_s m x v s)) = memb y (assigned_s s)) /\
  (forall b y, memb y (assigned (overwrite m x v b)) = memb y (assigned b)).
Proof.
  assert (AP : forall a c, assigned (bapp a c) = assigned a ++ assigned c).
  { induction a as [|s a IH]; intros c; [reflexivity|]. cbn. rewrite IH, app_assoc. reflexivity. }
  assert (MC : forall y a l, memb y (a :: l) = Nat.eqb y a || memb y l) by reflexivity.
  apply pstmt_ind2; intros; cbn [overwrite_s overwrite assigned_s assigned]; rewrite ?memb_app, ?H, ?H0; try reflexivity.
  - rewrite !MC, !memb_app, H, H0. reflexivity.
  - rewrite H1, H2. reflexivity.
  - destruct (sets m x s && plain b) eqn:SP; cbn [assigned]; rewrite !memb_app.
    + rewrite AP, memb_app. cbn [assigned assigned_s]. rewrite app_nil_r. apply andb_prop in SP. destruct SP as (SS & _).
      assert (E : memb y (assigned_s s) = Nat.eqb y x).
      { destruct s; try discriminate SS; cbn [sets] in SS; apply andb_prop in SS; destruct SS as (_ & E2); apply Nat.eqb_eq in E2; subst; cbn; apply orb_false_r. }
      rewrite E. cbn [memb existsb]. rewrite orb_false_r. destruct (Nat.eqb y x), (memb y (assigned b)); reflexivity.
    + rewrite H, H0. reflexivity.
Qed.
Theorem dead_overwrite f m x v k glob args : NoDup (numbers (body f)) -> tame x (body f) = true -> literal v = true ->
  verdict f m = false -> py_run false k glob (overwritten m x v f) args = py_run false k glob f args.
Proof.
  intros ND T LV VD.
  assert (LS : forall y, local f y = local (overwritten m x v f) y).
  { intros y. unfold local, overwritten. cbn [params body]. rewrite !memb_app, (proj2 (overwrite_assigned m x v)). reflexivity. }
  assert (D : forall i b it, nth_error (cfg f) i = Some b -> In it (items b) -> In (m, x) (marks it) -> ~ needed (cfg f) x i).
  { intros i b it N I M ND'. apply (verdict_exact f m i b it x ND N I M) in ND'. congruence. }
  assert (O : ok x k glob (local f) (local (overwritten m x v f)) false false false (body f) (overwrite m x v (body f))).
  { remember (cfg f) as G eqn:EG. unfold cfg in EG. destruct (cfg_b (body f) _ _ _ _ _) as [[[h t] l] g] eqn:C.
    eapply (proj2 (over_all x m v G k glob _ _ LS LV D) (body f) T); [apply bounded_nil|apply bounded2_nil|exact C| |].
    - subst G. apply ext_connect'.
    - split; [discriminate|]. split; discriminate. }
  assert (R := O None (bind_args (params f) args) (bind_args (params f) args) (fun y _ => eq_refl)).
  unfold py_run. change (params (overwritten m x v f)) with (params f). change (body (overwritten m x v f)) with (overwrite m x v (body f)).
  revert R. generalize (pexec false k glob (local f) None (body f) (bind_args (params f) args)).
  generalize (pexec false k glob (local (overwritten m x v f)) None (overwrite m x v (body f)) (bind_args (params f) args)).
  intros o o'. destruct o', o; cbn; intros R; try contradiction; congruence.
Qed.
