(** Reference counts, views and the memory they keep. *)
From Verif Require Import Base ListAux NdSpec NdModel NdAux NdMem.
Local Open Scope nat_scope.

Definition cnt {A} (f : A -> bool) (l : list A) : nat := length (filter f l).
Definition b2n (b : bool) : nat := if b then 1 else 0.
Lemma cnt_app {A} (f : A -> bool) l l' : cnt f (l ++ l') = cnt f l + cnt f l'.
Proof. unfold cnt. now rewrite filter_app, app_length. Qed.
Lemma cnt_cons {A} (f : A -> bool) x l : cnt f (x :: l) = b2n (f x) + cnt f l.
Proof. unfold cnt. cbn. now destruct (f x). Qed.
Lemma cnt_lset {A} (f : A -> bool) l k x y : nth_error l k = Some y -> cnt f (lset l k x) + b2n (f y) = cnt f l + b2n (f x).
Proof.
  revert k; induction l as [|z l IH]; intros [|k]; cbn [nth_error lset]; try easy.
  - injection 1 as ->. rewrite !cnt_cons. lia.
  - intros H. specialize (IH _ H). rewrite !cnt_cons. lia.
Qed.
Lemma cnt_pos {A} (f : A -> bool) l x : In x l -> f x = true -> 0 < cnt f l.
Proof. induction l as [|z l IH]; [easy|]. rewrite cnt_cons. intros [->|I] H; [rewrite H; cbn; lia|]. specialize (IH I H). lia. Qed.
Lemma cnt_ex {A} (f : A -> bool) l : 0 < cnt f l -> exists x, In x l /\ f x = true.
Proof.
  induction l as [|z l IH]; [cbn; lia|]. rewrite cnt_cons. destruct (f z) eqn:E; cbn.
  - intros _. exists z. split; [now left|easy].
  - intros H. destruct (IH H) as [x [I F]]. exists x. split; [now right|easy].
Qed.

Definition is_h (i : nat) (x : option nat) := match x with Some j => j =? i | None => false end.
Definition is_kid (i : nat) (x : option cont) :=
  match x with Some c => match c_owner c with View p => p =? i | _ => false end | None => false end.
Definition cont_at (h : heap) (i : nat) (c : cont) := nth_error (conts h) i = Some (Some c).
Definition blk_of (c : cont) : option nat := option_map fst (c_data c).
Definition root (c : cont) := match c_owner c with View _ => False | _ => True end.
Definition links (ext : list nat) (vs : list (option nat)) (h : heap) (i : nat) : nat :=
  cnt (is_h i) vs + cnt (is_kid i) (conts h) + cnt (Nat.eqb i) ext.

Record inv (ext : list nat) (vs : list (option nat)) (h : heap) : Prop := {
  i_var : forall i, In (Some i) vs -> exists c, cont_at h i c;
  i_ext : forall i, In i ext -> exists c, cont_at h i c;
  i_rc : forall i c, cont_at h i c -> c_rc c = links ext vs h i;
  i_pos : forall i c, cont_at h i c -> 0 < links ext vs h i;
  i_view : forall i c p, cont_at h i c -> c_owner c = View p ->
    p < i /\ exists cp, cont_at h p cp /\ blk_of c = blk_of cp;
  i_root : forall i c b, cont_at h i c -> root c -> blk_of c = Some b -> alive (blks h) b;
  i_uniq : forall i c j d b, cont_at h i c -> cont_at h j d -> root c -> root d ->
    blk_of c = Some b -> blk_of d = Some b -> i = j;
  i_own : forall b, alive (blks h) b -> exists i c, cont_at h i c /\ root c /\ blk_of c = Some b }.

Lemma cont_lt h i c : cont_at h i c -> i < length (conts h).
Proof. intros H. apply nth_error_Some. unfold cont_at in H. congruence. Qed.
Lemma cont_fun h i c d : cont_at h i c -> cont_at h i d -> c = d.
Proof. unfold cont_at. congruence. Qed.

Lemma chain ext vs h : inv ext vs h -> forall i c b, cont_at h i c -> blk_of c = Some b ->
  exists r d, cont_at h r d /\ root d /\ blk_of d = Some b /\ r <= i /\ (r = i \/ 0 < cnt (is_kid r) (conts h)).
Proof.
  intros I. induction i as [i IH] using (well_founded_induction lt_wf). intros c b C B.
  destruct (c_owner c) eqn:O; [| |].
  - exists i, c. unfold root. rewrite O. auto 6.
  - destruct (i_view _ _ _ I _ _ _ C O) as [L [cp [Cp E]]].
    assert (K : 0 < cnt (is_kid p) (conts h)).
    { eapply cnt_pos; [eapply nth_error_In; exact C|]. cbn. now rewrite O, Nat.eqb_refl. }
    destruct (IH p L cp b Cp ltac:(congruence)) as (r & d & D & R & Bd & Lr & H).
    exists r, d. do 3 (split; [easy|]). split; [lia|]. right. destruct H as [->|H]; easy.
  - exists i, c. unfold root. rewrite O. auto 6.
Qed.
Lemma block_alive ext vs h i c b : inv ext vs h -> cont_at h i c -> blk_of c = Some b -> alive (blks h) b.
Proof. intros I C B. destruct (chain _ _ _ I _ _ _ C B) as (r & d & D & R & Bd & _). eapply i_root; eauto. Qed.

(** A new container at the end. *)
Lemma nth_app_last {A} (l : list A) x i y : nth_error (l ++ [x]) i = Some y ->
  nth_error l i = Some y \/ (i = length l /\ y = x).
Proof.
  intros H. destruct (Nat.lt_ge_cases i (length l)) as [L|L].
  - rewrite nth_error_app1 in H by easy. auto.
  - rewrite nth_error_app2 in H by easy. destruct (i - length l) as [|k] eqn:E; cbn in H; [|destruct k; easy].
    injection H as <-. right. split; [lia|easy].
Qed.
Lemma nth_app_l {A} (l l' : list A) i y : nth_error l i = Some y -> nth_error (l ++ l') i = Some y.
Proof. intros H. rewrite nth_error_app1; [easy|]. apply nth_error_Some. congruence. Qed.
Lemma nth_app_here {A} (l : list A) x : nth_error (l ++ [x]) (length l) = Some x.
Proof. now rewrite nth_error_app2, Nat.sub_diag. Qed.
Lemma in_lset {A} (l : list A) k x y : In y (lset l k x) -> y = x \/ In y l.
Proof. revert k; induction l as [|z l IH]; intros [|k]; cbn; try easy; intuition. destruct (IH _ H0); auto. Qed.

Lemma no_link ext vs h : inv ext vs h -> links ext vs h (length (conts h)) = 0.
Proof.
  intros I. unfold links.
  destruct (Nat.eq_dec (cnt (is_h (length (conts h))) vs) 0) as [->|N].
  2:{ destruct (cnt_ex (is_h (length (conts h))) vs) as [x [X E]]; [lia|]. destruct x as [j|]; [|easy]. cbn in E.
      apply Nat.eqb_eq in E. subst j. destruct (i_var _ _ _ I _ X) as [c C]. apply cont_lt in C. lia. }
  destruct (Nat.eq_dec (cnt (is_kid (length (conts h))) (conts h)) 0) as [->|N].
  2:{ destruct (cnt_ex (is_kid (length (conts h))) (conts h)) as [x [X E]]; [lia|]. destruct x as [c|]; [|easy]. cbn in E.
      destruct (c_owner c) eqn:O; try easy. apply Nat.eqb_eq in E. subst p. apply In_nth_error in X as [k K].
      destruct (i_view _ _ _ I k c _ K O) as [L _]. pose proof (cont_lt h k c K). lia. }
  destruct (Nat.eq_dec (cnt (Nat.eqb (length (conts h))) ext) 0) as [->|N]; [easy|].
  destruct (cnt_ex (Nat.eqb (length (conts h))) ext) as [x [X E]]; [lia|]. apply Nat.eqb_eq in E. subst x.
  destruct (i_ext _ _ _ I _ X) as [c C]. apply cont_lt in C. lia.
Qed.

Definition kid_of (c : cont) (i : nat) : nat := b2n (is_kid i (Some c)).
Lemma root_kid c i : root c -> kid_of c i = 0.
Proof. unfold root, kid_of. cbn. now destruct (c_owner c). Qed.

Lemma inv_root ext vs h v c w : inv ext vs h -> nth_error vs v = Some None -> root c -> c_rc c = 1 ->
  blk_of c = Some (length (blks h)) ->
  inv ext (lset vs v (Some (length (conts h)))) (Heap (conts h ++ [Some c]) (blks h ++ [Some w])).
Proof.
  intros I V R Rc B.
  assert (LK : forall i, links ext (lset vs v (Some (length (conts h)))) (Heap (conts h ++ [Some c]) (blks h ++ [Some w])) i
               = links ext vs h i + b2n (length (conts h) =? i)).
  { intros i. unfold links. cbn [conts]. pose proof (cnt_lset (is_h i) vs v (Some (length (conts h))) None V) as E. cbn in E.
    rewrite cnt_app, cnt_cons. change (cnt (is_kid i) []) with 0. change (b2n (is_kid i (Some c))) with (kid_of c i). rewrite root_kid by easy.
    unfold b2n in *. lia. }
  assert (CA : forall i d, cont_at (Heap (conts h ++ [Some c]) (blks h ++ [Some w])) i d <-> cont_at h i d \/ (i = length (conts h) /\ d = c)).
  { intros i d. unfold cont_at. cbn [conts]. split.
    - intros H. apply nth_app_last in H as [H|[H E]]; [auto|]. injection E as ->. auto.
    - intros [H|[-> ->]]; [now apply nth_app_l|apply nth_app_here]. }
  assert (AL : forall b, alive (blks h ++ [Some w]) b <-> alive (blks h) b \/ b = length (blks h)).
  { intros b. unfold alive. split.
    - intros [l H]. apply nth_app_last in H as [H|[H E]]; [eauto|auto].
    - intros [[l H]| ->]; [exists l; now apply nth_app_l|exists w; apply nth_app_here]. }
  assert (NB : forall i d, cont_at h i d -> blk_of d = Some (length (blks h)) -> False).
  { intros i d D E. destruct (block_alive _ _ _ _ _ _ I D E) as [l H]. assert (length (blks h) < length (blks h)) by (apply nth_error_Some; congruence). lia. }
  constructor; cbn [blks].
  - intros i H. apply in_lset in H as [H|H].
    + injection H as ->. exists c. apply CA. auto.
    + destruct (i_var _ _ _ I _ H) as [d D]. exists d. apply CA. auto.
  - intros i H. destruct (i_ext _ _ _ I _ H) as [d D]. exists d. apply CA. auto.
  - intros i d H. rewrite LK. apply CA in H as [H|[-> ->]].
    + rewrite (i_rc _ _ _ I _ _ H). destruct (Nat.eqb_spec (length (conts h)) i); cbn; [|lia]. apply cont_lt in H. lia.
    + rewrite no_link by easy. rewrite Nat.eqb_refl. easy.
  - intros i d H. rewrite LK. apply CA in H as [H|[-> ->]].
    + pose proof (i_pos _ _ _ I _ _ H). lia.
    + rewrite Nat.eqb_refl. cbn. lia.
  - intros i d p H O. apply CA in H as [H|[-> ->]].
    + destruct (i_view _ _ _ I _ _ _ H O) as [L [cp [Cp E]]]. split; [easy|]. exists cp. split; [apply CA; auto|easy].
    + unfold root in R. rewrite O in R. easy.
  - intros i d b H R' B'. apply AL. apply CA in H as [H|[-> ->]]; [left; eapply i_root; eauto|right; congruence].
  - intros i d j e b Hi Hj Rd Re Bd Be. apply CA in Hi as [Hi|[-> ->]]; apply CA in Hj as [Hj|[-> ->]].
    + eapply (i_uniq _ _ _ I); eauto.
    + exfalso. eapply NB; [exact Hi|congruence].
    + exfalso. eapply NB; [exact Hj|congruence].
    + easy.
  - intros b H. apply AL in H as [H| ->].
    + destruct (i_own _ _ _ I _ H) as (i & d & D & Rd & Bd). exists i, d. split; [apply CA; auto|easy].
    + exists (length (conts h)), c. split; [apply CA; auto|easy].
Qed.
(** A container without memory: the old one of an empty slice; [ext'] is what is left of [ext]. *)
Lemma inv_add ext ext' vs h v c : inv ext vs h -> nth_error vs v = Some None -> c_rc c = 1 ->
  (forall i, cnt (Nat.eqb i) ext = kid_of c i + cnt (Nat.eqb i) ext') -> (forall i, In i ext' -> In i ext) ->
  match c_owner c with
  | View p => p < length (conts h) /\ exists cp, cont_at h p cp /\ blk_of c = blk_of cp
  | _ => blk_of c = None
  end ->
  inv ext' (lset vs v (Some (length (conts h)))) (Heap (conts h ++ [Some c]) (blks h)).
Proof.
  intros I V Rc X XI B.
  assert (LK : forall i, links ext' (lset vs v (Some (length (conts h)))) (Heap (conts h ++ [Some c]) (blks h)) i
               = links ext vs h i + b2n (length (conts h) =? i)).
  { intros i. unfold links. cbn [conts]. pose proof (cnt_lset (is_h i) vs v (Some (length (conts h))) None V) as E. cbn in E.
    rewrite cnt_app, cnt_cons, X. change (cnt (is_kid i) []) with 0. change (b2n (is_kid i (Some c))) with (kid_of c i).
    unfold b2n in *. lia. }
  assert (CA : forall i d, cont_at (Heap (conts h ++ [Some c]) (blks h)) i d <-> cont_at h i d \/ (i = length (conts h) /\ d = c)).
  { intros i d. unfold cont_at. cbn [conts]. split.
    - intros H. apply nth_app_last in H as [H|[H E]]; [auto|]. injection E as ->. auto.
    - intros [H|[-> ->]]; [now apply nth_app_l|apply nth_app_here]. }
  constructor; cbn [blks].
  - intros i H. apply in_lset in H as [H|H].
    + injection H as ->. exists c. apply CA. auto.
    + destruct (i_var _ _ _ I _ H) as [d D]. exists d. apply CA. auto.
  - intros i H. destruct (i_ext _ _ _ I i (XI _ H)) as [d D]. exists d. apply CA. auto.
  - intros i d H. rewrite LK. apply CA in H as [H|[-> ->]].
    + rewrite (i_rc _ _ _ I _ _ H). destruct (Nat.eqb_spec (length (conts h)) i); cbn; [|lia]. apply cont_lt in H. lia.
    + rewrite no_link by easy. rewrite Nat.eqb_refl. easy.
  - intros i d H. rewrite LK. apply CA in H as [H|[-> ->]].
    + pose proof (i_pos _ _ _ I _ _ H). lia.
    + rewrite Nat.eqb_refl. cbn. lia.
  - intros i d p H O. apply CA in H as [H|[-> ->]].
    + destruct (i_view _ _ _ I _ _ _ H O) as [L [cp [Cp E]]]. split; [easy|]. exists cp. split; [apply CA; auto|easy].
    + rewrite O in B. destruct B as [L [cp [Cp E]]]. split; [easy|]. exists cp. split; [apply CA; auto|easy].
  - intros i d b H R' B'. apply CA in H as [H|[-> ->]]; [eapply i_root; eauto|].
    unfold root in R'. destruct (c_owner c); congruence || easy.
  - intros i d j e b Hi Hj Rd Re Bd Be. 
    assert (K : root c -> blk_of c = Some b -> False) by (unfold root; destruct (c_owner c); congruence || easy).
    apply CA in Hi as [Hi|[-> ->]]; apply CA in Hj as [Hj|[-> ->]]; try (exfalso; apply K; easy).
    eapply (i_uniq _ _ _ I); eauto.
  - intros b H. destruct (i_own _ _ _ I _ H) as (i & d & D & Rd & Bd). exists i, d. split; [apply CA; auto|easy].
Qed.

(** Changing the count of one container. *)
Lemma cont_lset h i c n j d : cont_at h i c ->
  cont_at (Heap (lset (conts h) i (Some (set_rc c n))) (blks h)) j d <->
  (j = i /\ d = set_rc c n) \/ (j <> i /\ cont_at h j d).
Proof.
  intros C. pose proof (cont_lt _ _ _ C) as L. unfold cont_at. cbn [conts]. destruct (Nat.eq_dec j i) as [->|N].
  - rewrite nth_lset_eq by easy. split; [intros H; left; split; congruence|]. intros [[_ ->]|[? _]]; easy.
  - rewrite nth_lset_ne by congruence. split; [auto|]. intros [[? _]|[_ H]]; easy.
Qed.
Lemma kids_rc h i c n k : cont_at h i c -> cnt (is_kid k) (lset (conts h) i (Some (set_rc c n))) = cnt (is_kid k) (conts h).
Proof.
  intros C. pose proof (cnt_lset (is_kid k) (conts h) i (Some (set_rc c n)) (Some c) C) as E.
  change (is_kid k (Some (set_rc c n))) with (is_kid k (Some c)) in E. lia.
Qed.
Lemma inv_set_rc ext ext' vs vs' h i c n : inv ext vs h -> cont_at h i c ->
  (forall j, In (Some j) vs' -> In (Some j) vs \/ j = i) -> (forall j, In j ext' -> In j ext \/ j = i) ->
  (forall j, j <> i -> cnt (is_h j) vs' + cnt (Nat.eqb j) ext' = cnt (is_h j) vs + cnt (Nat.eqb j) ext) ->
  n = cnt (is_h i) vs' + cnt (is_kid i) (conts h) + cnt (Nat.eqb i) ext' -> 0 < n ->
  inv ext' vs' (Heap (lset (conts h) i (Some (set_rc c n))) (blks h)).
Proof.
  intros I C HV HE HL Hn Hp.
  set (h' := Heap (lset (conts h) i (Some (set_rc c n))) (blks h)).
  assert (CA : forall j d, cont_at h j d -> exists d', cont_at h' j d' /\ c_owner d' = c_owner d /\ blk_of d' = blk_of d).
  { intros j d D. destruct (Nat.eq_dec j i) as [->|N].
    - rewrite (cont_fun _ _ _ _ D C). exists (set_rc c n). split; [apply cont_lset; auto|easy].
    - exists d. split; [apply cont_lset; auto|easy]. }
  assert (CB : forall j d', cont_at h' j d' -> exists d, cont_at h j d /\ c_owner d' = c_owner d /\ blk_of d' = blk_of d).
  { intros j d D. apply cont_lset in D as [[-> ->]|[N D]]; [exists c|exists d|]; easy. }
  assert (LK : forall j, links ext' vs' h' j = if j =? i then n else links ext vs h j).
  { intros j. unfold links, h'. cbn [conts]. rewrite kids_rc by easy. destruct (Nat.eqb_spec j i) as [->|N]; [lia|].
    specialize (HL j N). lia. }
  constructor.
  - intros j H. destruct (HV j H) as [H'| ->].
    + destruct (i_var _ _ _ I _ H') as [d D]. destruct (CA _ _ D) as [d' [D' _]]. eauto.
    + destruct (CA _ _ C) as [d' [D' _]]. eauto.
  - intros j H. destruct (HE j H) as [H'| ->].
    + destruct (i_ext _ _ _ I _ H') as [d D]. destruct (CA _ _ D) as [d' [D' _]]. eauto.
    + destruct (CA _ _ C) as [d' [D' _]]. eauto.
  - intros j d D. rewrite LK. apply cont_lset in D as [[-> ->]|[N D]]; [| |easy].
    + now rewrite Nat.eqb_refl.
    + destruct (Nat.eqb_spec j i); [easy|]. eapply i_rc; eauto.
  - intros j d D. rewrite LK. apply cont_lset in D as [[-> ->]|[N D]]; [| |easy].
    + now rewrite Nat.eqb_refl.
    + destruct (Nat.eqb_spec j i); [easy|]. eapply i_pos; eauto.
  - intros j d p D O. destruct (CB _ _ D) as [e [E [Eo Eb]]]. destruct (i_view _ _ _ I _ _ _ E ltac:(rewrite <- Eo; exact O)) as [L [cp [Cp B]]].
    split; [easy|]. destruct (CA _ _ Cp) as [cp' [Cp' [_ Bp]]]. exists cp'. split; [easy|congruence].
  - intros j d b D R B. destruct (CB _ _ D) as [e [E [Eo Eb]]]. eapply (i_root _ _ _ I); [exact E| |congruence].
    unfold root in *. now rewrite <- Eo.
  - intros j d k e b D E Rd Re Bd Be. destruct (CB _ _ D) as [d0 [D0 [Od Bd0]]]. destruct (CB _ _ E) as [e0 [E0 [Oe Be0]]].
    eapply (i_uniq _ _ _ I); [exact D0|exact E0|unfold root in *; now rewrite <- Od|unfold root in *; now rewrite <- Oe| |]; [rewrite <- Bd0; exact Bd|rewrite <- Be0; exact Be].
  - intros b H. destruct (i_own _ _ _ I _ H) as (j & d & D & Rd & Bd). destruct (CA _ _ D) as [d' [D' [Od Bd']]].
    exists j, d'. split; [easy|]. split; [unfold root in *; now rewrite Od|congruence].
Qed.
Lemma inv_inc ext vs h i c : inv ext vs h -> cont_at h i c ->
  inv (i :: ext) vs (Heap (lset (conts h) i (Some (set_rc c (c_rc c + 1)))) (blks h)).
Proof.
  intros I C. eapply inv_set_rc; eauto.
  - intros j [->|H]; auto.
  - intros j N. rewrite cnt_cons. destruct (Nat.eqb_spec j i); [easy|]. cbn. lia.
  - rewrite (i_rc _ _ _ I _ _ C). rewrite cnt_cons, Nat.eqb_refl. unfold links. cbn. lia.
  - lia.
Qed.
(** A handle kept by the machine becomes one kept by a variable, and back. *)
Lemma inv_move ext ext' vs vs' h : inv ext vs h ->
  (forall i, In (Some i) vs' -> In (Some i) vs \/ In i ext) -> (forall i, In i ext' -> In i ext \/ In (Some i) vs) ->
  (forall i, cnt (is_h i) vs' + cnt (Nat.eqb i) ext' = cnt (is_h i) vs + cnt (Nat.eqb i) ext) -> inv ext' vs' h.
Proof.
  intros I HV HE HL.
  assert (LK : forall i, links ext' vs' h i = links ext vs h i) by (intros i; unfold links; specialize (HL i); lia).
  constructor.
  - intros i H. destruct (HV i H) as [H'|H']; [eapply i_var|eapply i_ext]; eauto.
  - intros i H. destruct (HE i H) as [H'|H']; [eapply i_ext|eapply i_var]; eauto.
  - intros i c C. rewrite LK. eapply i_rc; eauto.
  - intros i c C. rewrite LK. eapply i_pos; eauto.
  - apply (i_view _ _ _ I).
  - apply (i_root _ _ _ I).
  - apply (i_uniq _ _ _ I).
  - apply (i_own _ _ _ I).
Qed.
Lemma inv_take ext vs h v i : inv (i :: ext) vs h -> nth_error vs v = Some None -> inv ext (lset vs v (Some i)) h.
Proof.
  intros I V. eapply inv_move; [exact I| | |].
  - intros j H. apply in_lset in H as [H|H]; [injection H as ->; right; now left|auto].
  - intros j H. left. now right.
  - intros j. pose proof (cnt_lset (is_h j) vs v (Some i) None V) as E. cbn [is_h] in E. rewrite cnt_cons.
    rewrite (Nat.eqb_sym i j) in E. unfold b2n in *. lia.
Qed.
Lemma in_lset_none (vs : list (option nat)) v i : In (Some i) (lset vs v None) -> In (Some i) vs.
Proof. intros H. apply in_lset in H as [H|H]; easy. Qed.
Lemma inv_drop ext vs h v i : inv ext vs h -> nth_error vs v = Some (Some i) -> inv (i :: ext) (lset vs v None) h.
Proof.
  intros I V. eapply inv_move; [exact I| | |].
  - intros j H. left. eapply in_lset_none; eauto.
  - intros j [->|H]; [right; eapply nth_error_In; eauto|auto].
  - intros j. pose proof (cnt_lset (is_h j) vs v None (Some i) V) as E. cbn [is_h] in E. rewrite cnt_cons.
    rewrite (Nat.eqb_sym i j) in E. unfold b2n in *. lia.
Qed.
Lemma inv_life ext vs h bl : inv ext vs h -> same_life (blks h) bl -> inv ext vs (Heap (conts h) bl).
Proof.
  intros I [L S]. constructor; cbn [conts blks].
  - apply (i_var _ _ _ I). 
  - apply (i_ext _ _ _ I).
  - apply (i_rc _ _ _ I).
  - apply (i_pos _ _ _ I).
  - apply (i_view _ _ _ I).
  - intros i c b C R B. apply S. eapply (i_root _ _ _ I); eauto.
  - apply (i_uniq _ _ _ I).
  - intros b H. apply S in H. apply (i_own _ _ _ I _ H).
Qed.

(** Releasing a handle. *)
Lemma release_ok fuel : forall ext vs h i, inv (i :: ext) vs h -> i < fuel ->
  exists h', release fuel h i = Ok h' /\ inv ext vs h' /\
    (forall j d, cont_at h' j d -> exists n c, cont_at h j c /\ d = set_rc c n) /\
    length (blks h') = length (blks h) /\
    (forall b, nth_error (blks h') b = nth_error (blks h) b \/ nth_error (blks h') b = Some None).
Proof.
  induction fuel as [|fuel IH]; intros ext vs h i I Hf; [lia|]. cbn [release].
  destruct (i_ext _ _ _ I i (or_introl eq_refl)) as [c C]. unfold hget. rewrite C. cbn [bind].
  pose proof (i_rc _ _ _ I _ _ C) as Rc. unfold links in Rc. rewrite cnt_cons, Nat.eqb_refl in Rc. cbn [b2n] in Rc.
  destruct (c_rc c) as [|[|n]] eqn:E; [lia| |].
  - (* the last handle *)
    set (h1 := Heap (lset (conts h) i None) (blks h)).
    assert (Z1 : cnt (is_h i) vs = 0) by lia. assert (Z2 : cnt (is_kid i) (conts h) = 0) by lia. assert (Z3 : cnt (Nat.eqb i) ext = 0) by lia.
    pose proof (cont_lt _ _ _ C) as Li.
    assert (CA : forall j d, cont_at h1 j d <-> cont_at h j d /\ j <> i).
    { intros j d. unfold cont_at, h1. cbn [conts]. destruct (Nat.eq_dec j i) as [->|N].
      - rewrite nth_lset_eq by easy. split; easy.
      - rewrite nth_lset_ne by congruence. split; [auto|easy]. }
    assert (KD : forall j, cnt (is_kid j) (lset (conts h) i None) + kid_of c j = cnt (is_kid j) (conts h)).
    { intros j. pose proof (cnt_lset (is_kid j) (conts h) i None (Some c) C) as K.
      change (b2n (is_kid j None)) with 0 in K. change (b2n (is_kid j (Some c))) with (kid_of c j) in K. lia. }
    assert (NV : forall j, In (Some j) vs -> j <> i).
    { intros j H ->. pose proof (cnt_pos (is_h i) vs (Some i) H) as P. cbn in P. rewrite Nat.eqb_refl in P. specialize (P eq_refl). lia. }
    assert (NE : forall j, In j ext -> j <> i).
    { intros j H ->. pose proof (cnt_pos (Nat.eqb i) ext i H (Nat.eqb_refl i)). lia. }
    assert (NP : forall j d p, cont_at h j d -> c_owner d = View p -> p <> i).
    { intros j d p D O ->. pose proof (cnt_pos (is_kid i) (conts h) (Some d)) as P. cbn in P. rewrite O, Nat.eqb_refl in P.
      specialize (P (nth_error_In _ _ D) eq_refl). lia. }
    destruct (c_owner c) as [|p|] eqn:O.
    2:{ (* a view *)
      destruct (i_view _ _ _ I _ _ _ C O) as [Lp [cp [Cp Eb]]].
      assert (I1 : inv (p :: ext) vs h1).
      { assert (LK : forall j, j <> i -> links (p :: ext) vs h1 j = links (i :: ext) vs h j).
        { intros j N. unfold links, h1. cbn [conts]. specialize (KD j). unfold kid_of in KD. cbn [is_kid] in KD. rewrite O in KD.
          rewrite !cnt_cons. destruct (Nat.eqb_spec j i); [easy|]. rewrite (Nat.eqb_sym j p). unfold b2n in *. lia. }
        constructor; cbn [blks].
        - intros j H. destruct (i_var _ _ _ I _ H) as [d D]. exists d. apply CA. split; [easy|now apply NV].
        - intros j [<-|H]; [exists cp; apply CA; split; [easy|lia]|].
          destruct (i_ext _ _ _ I j (or_intror H)) as [d D]. exists d. apply CA. split; [easy|now apply NE].
        - intros j d D. apply CA in D as [D N]. rewrite LK by easy. eapply i_rc; eauto.
        - intros j d D. apply CA in D as [D N]. rewrite LK by easy. eapply i_pos; eauto.
        - intros j d q D Oq. apply CA in D as [D N]. destruct (i_view _ _ _ I _ _ _ D Oq) as [L [cq [Cq B]]]. split; [easy|].
          exists cq. split; [apply CA; split; [easy|]|easy]. exact (NP _ _ _ D Oq).
        - intros j d b D R B. apply CA in D as [D N]. eapply (i_root _ _ _ I); eauto.
        - intros j d k e b D E' Rd Re Bd Be. apply CA in D as [D _]. apply CA in E' as [E' _]. eapply (i_uniq _ _ _ I); eauto.
        - intros b H. destruct (i_own _ _ _ I _ H) as (j & d & D & Rd & Bd). exists j, d. split; [apply CA; split; [easy|]|easy].
          intros ->. rewrite (cont_fun _ _ _ _ D C) in Rd. unfold root in Rd. now rewrite O in Rd. }
      destruct (IH ext vs h1 p I1 ltac:(lia)) as (h' & E1 & I' & HC & HB & HB'). exists h'. split; [easy|]. split; [easy|]. split; [|easy].
      intros j d D. destruct (HC j d D) as (n & e & De & Ee). apply CA in De as [De _]. exists n, e. easy. }
    all: assert (RT : root c) by (unfold root; now rewrite O).
    all: assert (KZ : forall j, kid_of c j = 0) by (intros j; now apply root_kid).
    all: assert (FIN : forall m, (match blk_of c with None => m = blks h
             | Some b => length m = length (blks h) /\ (forall b', b' <> b -> nth_error m b' = nth_error (blks h) b') /\ nth_error m b = Some None end) ->
       inv ext vs (Heap (lset (conts h) i None) m)).
    1,3: (intros m Hm;
      assert (LK : forall j, j <> i -> links ext vs (Heap (lset (conts h) i None) m) j = links (i :: ext) vs h j) by
        (intros j N; unfold links; cbn [conts]; specialize (KD j); rewrite KZ in KD; rewrite cnt_cons; destruct (Nat.eqb_spec j i); [easy|]; cbn [b2n]; lia);
      assert (CA' : forall j d, cont_at (Heap (lset (conts h) i None) m) j d <-> cont_at h j d /\ j <> i) by exact CA;
      assert (OTHER : forall j d b, cont_at h j d -> j <> i -> root d -> blk_of d = Some b -> blk_of c <> Some b) by
        (intros j d b D N R B Bc; apply N; eapply (i_uniq _ _ _ I); eauto);
      constructor; cbn [blks];
      [ intros j H; destruct (i_var _ _ _ I _ H) as [d D]; exists d; apply CA'; split; [easy|now apply NV]
      | intros j H; destruct (i_ext _ _ _ I j (or_intror H)) as [d D]; exists d; apply CA'; split; [easy|now apply NE]
      | intros j d D; apply CA' in D as [D N]; rewrite LK by easy; eapply i_rc; eauto
      | intros j d D; apply CA' in D as [D N]; rewrite LK by easy; eapply i_pos; eauto
      | intros j d q D Oq; apply CA' in D as [D N]; destruct (i_view _ _ _ I _ _ _ D Oq) as [L [cq [Cq B]]]; split; [easy|];
        exists cq; split; [apply CA'; split; [easy|exact (NP _ _ _ D Oq)]|easy]
      | intros j d b D R B; apply CA' in D as [D N]; pose proof (i_root _ _ _ I _ _ _ D R B) as [l A];
        pose proof (OTHER _ _ _ D N R B) as Q; exists l; destruct (blk_of c) as [b0|]; [|now subst m];
        destruct Hm as (_ & Hm & _); rewrite Hm; [easy|congruence]
      | intros j d k e b D E' Rd Re Bd Be; apply CA' in D as [D _]; apply CA' in E' as [E' _]; eapply (i_uniq _ _ _ I); eauto
      | intros b [l H]; destruct (blk_of c) as [b0|] eqn:Bc;
        [ destruct Hm as (_ & Hm & Hn); destruct (Nat.eq_dec b b0) as [->|Nb]; [congruence|];
          rewrite Hm in H by easy; destruct (i_own _ _ _ I b (ex_intro _ l H)) as (j & d & D & Rd & Bd);
          exists j, d; split; [apply CA'; split; [easy|]|easy]; intros ->; rewrite (cont_fun _ _ _ _ D C) in Bd; congruence
        | subst m; destruct (i_own _ _ _ I b (ex_intro _ l H)) as (j & d & D & Rd & Bd);
          exists j, d; split; [apply CA'; split; [easy|]|easy]; intros ->; rewrite (cont_fun _ _ _ _ D C) in Bd; congruence ] ]).
    all: assert (HC : forall m j d, cont_at (Heap (lset (conts h) i None) m) j d -> exists n e, cont_at h j e /\ d = set_rc e n) by
        (intros m j d D; apply (CA j d) in D as [D _]; exists (c_rc d), d; split; [easy|now destruct d]).
    all: unfold free_block; unfold blk_of in FIN; destruct (c_data c) as [[b o]|] eqn:Dc; cbn [option_map fst] in FIN.
    1,3: destruct (i_root _ _ _ I i c b C RT) as [l A]; [unfold blk_of; now rewrite Dc|]; rewrite A; cbn [bind];
      assert (Lb : b < length (blks h)) by (apply nth_error_Some; congruence);
      eexists; split; [reflexivity|]; split; [apply FIN; split; [apply lset_length|]; split; [intros b' N; apply nth_lset_ne; congruence|now apply nth_lset_eq]|];
      split; [apply HC|]; cbn [blks]; split; [apply lset_length|]; intros b';
      destruct (Nat.eq_dec b b') as [<-|N]; [right; now apply nth_lset_eq|left; now apply nth_lset_ne].
    all: cbn [bind]; eexists; split; [reflexivity|]; split; [now apply FIN|]; split; [apply HC|]; cbn [blks]; split; [easy|]; auto.
  - (* others remain *)
    eexists. split; [reflexivity|]. split; [|split; [|split]].
    + eapply inv_set_rc; [exact I|exact C|auto| | |lia|lia].
      * intros j H. left. now right.
      * intros j N. rewrite cnt_cons. destruct (Nat.eqb_spec j i); [easy|]. cbn [b2n]. lia.
    + intros j d D. apply cont_lset in D as [[-> ->]|[N D]]; [exists (S n), c; easy| |easy].
      exists (c_rc d), d. split; [easy|]. now destruct d.
    + easy.
    + auto.
Qed.
