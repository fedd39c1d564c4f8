(** * Generator functions: proofs *)

From Coq Require Import ZArith List Bool Lia.
From Verif Require Import Base GnSpec GnModel.
Import ListNotations.
Local Open Scope Z_scope.
Notation S := Datatypes.S.

(** ** Fuel *)

Lemma exec_S : forall f en c o r, exec f en c o = r -> r <> CFuel -> exec (S f) en c o = r.
Proof.
  induction f as [|f IH]; intros en c o r H Hn; [cbn in H; congruence|].
  assert (IH' : forall en c o, exec f en c o <> CFuel -> exec (S f) en c o = exec f en c o)
    by (intros; apply IH; auto).
  clear IH.
  remember (S f) as g eqn:Eg.
  destruct c as [|x e|x e|t e|n e|c1 c2|c c1 c2|c c0|k x lo hi st c|e| |]; rewrite Eg in H; cbn [exec] in H |- *; rewrite Eg in *; clear Eg; try exact H.
  - destruct en as [|n|]; try destruct (has_label c1 n).
    all: match type of H with
         | match exec ?f ?e ?c ?o with _ => _ end = _ =>
             assert (X : exec f e c o <> CFuel) by (intros E; rewrite E in H; congruence);
             rewrite (IH' _ _ _ X); destruct (exec f e c o); try exact H
         | _ => idtac
         end.
    all: rewrite IH'; [exact H|intros E; rewrite E in H; congruence].
  - destruct en as [|n|]; try destruct (has_label c1 n).
    all: try (destruct (c (gvars o)); [|exact H]; destruct (z =? 0)).
    all: try (rewrite IH'; [exact H|intros E; rewrite E in H; congruence]).
    all: destruct (c (gvars o)); [|exact H]; destruct (z =? 0);
         (rewrite IH'; [exact H|intros E; rewrite E in H; congruence]).
  - destruct en as [|n|].
    all: try (destruct (c (gvars o)); [|exact H]; destruct (z =? 0); [exact H|]).
    all: match type of H with
         | match exec ?f ?e ?c ?o with _ => _ end = _ =>
             assert (X : exec f e c o <> CFuel) by (intros E; rewrite E in H; congruence);
             rewrite (IH' _ _ _ X); destruct (exec f e c o); try exact H
         end.
    all: rewrite IH'; [exact H|intros E; rewrite E in H; congruence].
  - destruct en as [|n|].
    1: rewrite IH'; [exact H|intros E; rewrite E in H; congruence].
    all: try (destruct (for_test _ _ _); [|exact H]).
    all: match type of H with
         | match exec ?f ?e ?c ?o with _ => _ end = _ =>
             assert (X : exec f e c o <> CFuel) by (intros E; rewrite E in H; congruence);
             rewrite (IH' _ _ _ X); destruct (exec f e c o); try exact H
         end.
    all: rewrite IH'; [exact H|intros E; rewrite E in H; congruence].
Qed.

Lemma exec_le : forall f f' en c o r,
  exec f en c o = r -> r <> CFuel -> (f <= f')%nat -> exec f' en c o = r.
Proof.
  intros f f' en c o r H Hn Hle. induction Hle as [|m Hle IH]; [exact H|].
  apply exec_S; assumption.
Qed.

(** ** What a statement leaves alone *)

(** The object a result carries. *)
Definition robj (r : cres) : option obj :=
  match r with
  | CNormal o | CBroke o | CContinued o | CRet _ o | CRaise _ o => Some o
  | CFuel => None
  end.

Fixpoint csets (c : cstmt) (x : nat) : bool :=
  match c with
  | CDecl y _ | CAssign y _ => Nat.eqb x y
  | CSeq a b | CIf _ a b => csets a x || csets b x
  | CWhile _ b => csets b x
  | CFor _ y _ _ _ b => Nat.eqb x y || csets b x
  | _ => false
  end.

Fixpoint ctemps (c : cstmt) : bool :=
  match c with
  | CTemp _ _ | CFor _ _ _ _ _ _ => true
  | CSeq a b | CIf _ a b => ctemps a || ctemps b
  | CWhile _ b => ctemps b
  | _ => false
  end.

Ltac keep_tac IH H :=
  match type of H with
  | match exec ?f ?e ?c ?o with _ => _ end = _ =>
      let E := fresh "E" in
      destruct (exec f e c o) eqn:E
  | _ => idtac
  end.

(** A relation between objects that every step of the statement respects. *)
Lemma exec_rel : forall (R : obj -> obj -> Prop),
  (forall o, R o o) -> (forall a b c, R a b -> R b c -> R a c) ->
  (forall o z, R o (set_st z o)) -> (forall o z, R o (set_val z o)) ->
  forall (Pv : nat -> bool) (Pt : bool),
  (forall x z o, Pv x = true -> R o (set_var x z o)) ->
  (forall t z o, Pt = true -> R o (set_tmp t z o)) ->
  forall f c en o r o',
  (forall x, csets c x = true -> Pv x = true) -> (ctemps c = true -> Pt = true) ->
  exec f en c o = r -> robj r = Some o' -> R o o'.
Proof.
  intros R Rr Rt Rs Rv Pv Pt Hv Ht.
  induction f as [|f IH]; intros c en o r o' Cv Ct H Ho; [cbn in H; subst r; discriminate|].
  destruct c as [|x e|x e|t e|n e|c1 c2|c c1 c2|c c0|k x lo hi st c|e| |]; cbn [exec] in H; cbv zeta in H.
  - subst r. injection Ho as <-. apply Rr.
  - destruct (e (gvars o)); subst r; injection Ho as <-; [|apply Rr].
    apply Hv, Cv. cbn. apply Nat.eqb_refl.
  - destruct (e (gvars o)); subst r; injection Ho as <-; [|apply Rr].
    apply Hv, Cv. cbn. apply Nat.eqb_refl.
  - destruct (e (gvars o)); subst r; injection Ho as <-; [|apply Rr].
    apply Ht, Ct. reflexivity.
  - assert (X : r = match e (gvars (set_st (Z.of_nat n) o)) with
                    | inl v => CRet v (set_val v (set_st (Z.of_nat n) o))
                    | inr e0 => CRaise e0 (set_st (Z.of_nat n) o) end \/ r = CNormal o)
      by (destruct en; auto).
    clear H. destruct X as [X|X]; subst r; [|injection Ho as <-; apply Rr].
    destruct (e _); injection Ho as <-; [|apply Rs].
    eapply Rt; [apply Rs|apply Rv].
  - assert (Cv1 : forall x, csets c1 x = true -> Pv x = true)
      by (intros x Hx; apply Cv; cbn; rewrite Hx; reflexivity).
    assert (Cv2 : forall x, csets c2 x = true -> Pv x = true)
      by (intros x Hx; apply Cv; cbn; rewrite Hx; apply orb_true_r).
    assert (Ct1 : ctemps c1 = true -> Pt = true)
      by (intros Hx; apply Ct; cbn; rewrite Hx; reflexivity).
    assert (Ct2 : ctemps c2 = true -> Pt = true)
      by (intros Hx; apply Ct; cbn; rewrite Hx; apply orb_true_r).
    assert (A : forall en1, match exec f en1 c1 o with
                | CNormal o1 => exec f Start c2 o1 | r0 => r0 end = r -> R o o').
    { intros en1 H1. clear H. destruct (exec f en1 c1 o) as [o1|o1|o1|v o1|e o1|] eqn:E1;
        try (subst r; injection Ho as <-; exact (IH c1 _ _ _ _ Cv1 Ct1 E1 eq_refl));
        try (subst r; discriminate).
      exact (Rt _ _ _ (IH c1 _ _ _ _ Cv1 Ct1 E1 eq_refl) (IH c2 _ _ _ _ Cv2 Ct2 H1 Ho)). }
    destruct en as [|n|]; [exact (A _ H)| |exact (A _ H)].
    destruct (has_label c1 n); [exact (A _ H)|exact (IH c2 _ _ _ _ Cv2 Ct2 H Ho)].
  -
    assert (A1 : forall x, csets c1 x = true -> Pv x = true)
      by (intros x Hx; apply Cv; cbn; rewrite Hx; reflexivity).
    assert (A2 : forall x, csets c2 x = true -> Pv x = true)
      by (intros x Hx; apply Cv; cbn; rewrite Hx; apply orb_true_r).
    assert (B1 : ctemps c1 = true -> Pt = true)
      by (intros Hx; apply Ct; cbn; rewrite Hx; reflexivity).
    assert (B2 : ctemps c2 = true -> Pt = true)
      by (intros Hx; apply Ct; cbn; rewrite Hx; apply orb_true_r).
    destruct en as [|n|].
    2: destruct (has_label c1 n); [exact (IH c1 _ _ _ _ A1 B1 H Ho)|exact (IH c2 _ _ _ _ A2 B2 H Ho)].
    all: destruct (c (gvars o)); [|subst r; injection Ho as <-; apply Rr].
    all: destruct (z =? 0); [exact (IH c2 _ _ _ _ A2 B2 H Ho)|exact (IH c1 _ _ _ _ A1 B1 H Ho)].
  - assert (A : forall en1, match exec f en1 c0 o with
                | CNormal o1 | CContinued o1 => exec f Start (CWhile c c0) o1
                | CBroke o1 => CNormal o1 | _ => exec f en1 c0 o end = r -> R o o').
    { intros en1 H1. clear H. destruct (exec f en1 c0 o) as [o1|o1|o1|v o1|e o1|] eqn:E1;
        try (subst r; injection Ho as <-; exact (IH c0 _ _ _ _ Cv Ct E1 eq_refl));
        try (subst r; discriminate).
      all: eapply Rt; [exact (IH c0 _ _ _ _ Cv Ct E1 eq_refl)|exact (IH (CWhile c c0) _ _ _ _ Cv Ct H1 Ho)]. }
    destruct en as [|n|]; [|exact (A _ H)|].
    all: destruct (c (gvars o)); [|rewrite <- H in Ho; cbn in Ho; assert (o = o') by congruence; subst; apply Rr].
    all: destruct (z =? 0); [rewrite <- H in Ho; cbn in Ho; assert (o = o') by congruence; subst; apply Rr|exact (A _ H)].
  - assert (P : Pt = true) by (apply Ct; reflexivity).
    assert (A1 : forall y, csets c y = true -> Pv y = true)
      by (intros y Hy; apply Cv; cbn; rewrite Hy; apply orb_true_r).
    assert (B1 : ctemps c = true -> Pt = true) by (intros _; exact P).
    assert (A : forall en1 o0, R o o0 -> match exec f en1 c o0 with
                | CNormal o1 | CContinued o1 =>
                    exec f Head (CFor k x lo hi st c) (set_tmp (TLoop k) (gtmp o1 (TLoop k) + st) o1)
                | CBroke o1 => CNormal o1 | _ => exec f en1 c o0 end = r -> R o o').
    { intros en1 o0 R0 H1. clear H. eapply Rt; [exact R0|].
      destruct (exec f en1 c o0) as [o1|o1|o1|v o1|e o1|] eqn:E1;
        try (subst r; injection Ho as <-; exact (IH c _ _ _ _ A1 B1 E1 eq_refl));
        try (subst r; discriminate).
      all: eapply Rt; [exact (IH c _ _ _ _ A1 B1 E1 eq_refl)|].
      all: eapply Rt; [apply Ht; exact P|exact (IH (CFor k x lo hi st c) _ _ _ _ Cv Ct H1 Ho)]. }
    destruct en as [|n|].
    + eapply Rt; [apply Ht; exact P|exact (IH (CFor k x lo hi st c) _ _ _ _ Cv Ct H Ho)].
    + eapply A; [apply Rr|exact H].
    + destruct (for_test _ _ _); [|rewrite <- H in Ho; cbn in Ho; assert (o = o') by congruence; subst; apply Rr].
      eapply A; [|exact H]. apply Hv, Cv. cbn. rewrite Nat.eqb_refl. reflexivity.
  - destruct (e (gvars o)); rewrite <- H in Ho; cbn in Ho; assert (o = o') by congruence; subst; apply Rr.
  - subst r. injection Ho as <-. apply Rr.
  - subst r. injection Ho as <-. apply Rr.
Qed.

Lemma exec_args : forall f c en o r o',
  exec f en c o = r -> robj r = Some o' -> gargs o' = gargs o.
Proof.
  intros f c en o r o' H Ho.
  eapply (exec_rel (fun a b => gargs b = gargs a)) with (Pv := fun _ => true) (Pt := true);
    eauto; intros; try reflexivity; congruence.
Qed.

Lemma exec_tmp : forall f c en o r o',
  ctemps c = false -> exec f en c o = r -> robj r = Some o' -> gtmp o' = gtmp o.
Proof.
  intros f c en o r o' Hc H Ho.
  eapply (exec_rel (fun a b => gtmp b = gtmp a)) with (Pv := fun _ => true) (Pt := false);
    eauto; intros; try reflexivity; congruence.
Qed.

Lemma exec_var : forall y f c en o r o',
  csets c y = false -> exec f en c o = r -> robj r = Some o' -> gvars o' y = gvars o y.
Proof.
  intros y f c en o r o' Hc H Ho.
  eapply (exec_rel (fun a b => gvars b y = gvars a y))
    with (Pv := fun x => negb (Nat.eqb x y)) (Pt := true);
    eauto; intros; try reflexivity; try congruence.
  - cbn. unfold upd. destruct (Nat.eqb x y); [discriminate|reflexivity].
  - destruct (Nat.eqb x y) eqn:E; [|reflexivity]. apply Nat.eqb_eq in E. subst x. congruence.
Qed.

(** ** The values a statement yields, over all calls of next() *)

Inductive cend := EMore | EEnd (r : cres).

Definition ended (r : cres) : Prop :=
  match r with CRet _ _ | CFuel => False | _ => True end.

Inductive run (c : cstmt) : entry -> obj -> list Z -> cend -> Prop :=
| run_more : forall en o, run c en o [] EMore
| run_end : forall f en o r, exec f en c o = r -> ended r -> run c en o [] (EEnd r)
| run_item : forall f en o v o' n i e,
    exec f en c o = CRet v o' -> gval o' = v -> gst o' = Z.of_nat n -> In n (labels c) ->
    run c (Goto n) o' i e -> run c en o (v :: i) e.

Lemma run_head : forall c en1 o1 en2 o2 i e,
  (forall f r, exec f en1 c o1 = r -> r <> CFuel -> exists f', exec f' en2 c o2 = r) ->
  run c en1 o1 i e -> run c en2 o2 i e.
Proof.
  intros c en1 o1 en2 o2 i e H R. inversion R; subst.
  - apply run_more.
  - destruct (H f _ eq_refl) as [f' Hf']; [intros E; rewrite E in *; contradiction|].
    eapply run_end; eauto.
  - destruct (H f _ H0) as [f' Hf']; [discriminate|]. eapply run_item; eauto.
Qed.

Lemma run_rel : forall (R : obj -> obj -> Prop) c,
  (forall a b d, R a b -> R b d -> R a d) ->
  (forall f en o r o', exec f en c o = r -> robj r = Some o' -> R o o') ->
  forall en o i e r o', run c en o i e -> e = EEnd r -> robj r = Some o' -> R o o'.
Proof.
  intros R c Rt He en o i e r o' H. induction H as [| f en o r1 H1 H2 | f en o v o1 n i e H1 H2 H3 H4 H5 IH];
    intros E Ho.
  - discriminate.
  - injection E as ->. eapply He; eauto.
  - eapply Rt; [eapply He; [exact H1|reflexivity]|apply IH; assumption].
Qed.

(** Running a part of a statement is running the statement. *)
Lemma lift : forall c0 C (ent : entry -> entry -> obj -> Prop) (K : cres -> list Z -> cend -> Prop),
  (forall n, In n (labels c0) -> In n (labels C)) ->
  (forall n o, In n (labels c0) -> ent (Goto n) (Goto n) o) ->
  (forall f en en' o v o', ent en en' o -> exec f en c0 o = CRet v o' ->
     exists f', exec f' en' C o = CRet v o') ->
  (forall f en en' o r i e, ent en en' o -> exec f en c0 o = r -> ended r -> K r i e ->
     run C en' o i e) ->
  forall en o i e0, run c0 en o i e0 -> forall en', ent en en' o ->
    (e0 = EMore -> run C en' o i EMore) /\
    (forall r i2 e, e0 = EEnd r -> K r i2 e -> run C en' o (i ++ i2) e).
Proof.
  intros c0 C ent K Hl Hg Hr He en o i e0 H.
  induction H as [en o|f en o r H1 H2|f en o v o1 n i e H1 H2 H3 H4 H5 IH]; intros en' Hen.
  - split; [intros _; apply run_more|discriminate].
  - split; [discriminate|]. intros r' i2 e E HK. injection E as <-. eapply He; eauto.
  - destruct (IH (Goto n) (Hg _ _ H4)) as [A B].
    destruct (Hr _ _ _ _ _ _ Hen H1) as [f' Hf'].
    split.
    + intros E. eapply run_item; eauto.
    + intros r i2 e' E HK. cbn. eapply run_item; eauto.
Qed.

Lemma has_label_true : forall c n, In n (labels c) -> has_label c n = true.
Proof.
  intros c n H. unfold has_label. apply existsb_exists. exists n. split; [exact H|apply Nat.eqb_refl].
Qed.

Lemma has_label_false : forall c n, ~ In n (labels c) -> has_label c n = false.
Proof.
  intros c n H. unfold has_label. destruct (existsb (Nat.eqb n) (labels c)) eqn:E; [|reflexivity].
  apply existsb_exists in E. destruct E as (m & Hm & E). apply Nat.eqb_eq in E. subst m. contradiction.
Qed.

(** Entries that a part hands to the whole unchanged. *)
Definition same_entry (c0 : cstmt) (en en' : entry) (o : obj) : Prop :=
  (en = Start /\ en' = Start) \/ exists n, In n (labels c0) /\ en = Goto n /\ en' = Goto n.

Lemma same_goto : forall c0 n o, In n (labels c0) -> same_entry c0 (Goto n) (Goto n) o.
Proof. intros. right. eauto. Qed.

(** Only at labels. *)
Definition goto_entry (c0 : cstmt) (en en' : entry) (o : obj) : Prop :=
  exists n, In n (labels c0) /\ en = Goto n /\ en' = Goto n.

(** *** Sequences *)

Lemma seq_right : forall a b n o i e,
  (forall m, In m (labels b) -> ~ In m (labels a)) -> In n (labels b) ->
  run b (Goto n) o i e -> run (CSeq a b) (Goto n) o i e.
Proof.
  intros a b n o i e Hd Hn H.
  destruct (lift b (CSeq a b) (goto_entry b) (fun r i e => i = [] /\ e = EEnd r))
    with (en := Goto n) (o := o) (i := i) (e0 := e) (en' := Goto n) as [A B].
  - intros m Hm. cbn. apply in_or_app. right; exact Hm.
  - intros m o0 Hm. exists m. auto.
  - intros f en en' o0 v o' (m & Hm & -> & ->) E. exists (S f). cbn [exec].
    rewrite (has_label_false a m (Hd _ Hm)). exact E.
  - intros f en en' o0 r i0 e0 (m & Hm & -> & ->) E Hr (-> & ->).
    apply run_end with (f := S f); [|exact Hr]. cbn [exec].
    rewrite (has_label_false a m (Hd _ Hm)). exact E.
  - exact H.
  - exists n. auto.
  - destruct e as [|r]; [apply A; reflexivity|].
    rewrite <- (app_nil_r i). eapply B; [reflexivity|auto].
Qed.

Lemma seq_start : forall a b o i e,
  (forall m, In m (labels b) -> ~ In m (labels a)) ->
  run a Start o i e ->
  (e = EMore -> run (CSeq a b) Start o i EMore) /\
  (forall o1 i2 e2, e = EEnd (CNormal o1) -> run b Start o1 i2 e2 ->
     run (CSeq a b) Start o (i ++ i2) e2) /\
  (forall r, e = EEnd r -> (forall o1, r <> CNormal o1) -> run (CSeq a b) Start o i (EEnd r)).
Proof.
  intros a b o i e Hd H.
  pose (K := fun (r : cres) (i : list Z) (e : cend) =>
     match r with CNormal o1 => run b Start o1 i e | _ => i = [] /\ e = EEnd r end).
  destruct (lift a (CSeq a b) (same_entry a) K)
    with (en := Start) (o := o) (i := i) (e0 := e) (en' := Start) as [A B].
  - intros m Hm. cbn. apply in_or_app. left; exact Hm.
  - apply same_goto.
  - intros f en en' o0 v o' [[-> ->]|(m & Hm & -> & ->)] E; exists (S f); cbn [exec];
      rewrite ?(has_label_true a m Hm), E; reflexivity.
  - intros f en en' o0 r i0 e0 Hen E Hr HK.
    assert (X : forall g r2, (f <= g)%nat ->
      match r with CNormal o1 => exec g Start b o1 | _ => r end = r2 ->
      exec (S g) en' (CSeq a b) o0 = r2).
    { intros g r2 Hg Hx.
      assert (E' : exec g en a o0 = r)
        by (apply (exec_le f g _ _ _ _ E); [intros ->; exact Hr|exact Hg]).
      destruct Hen as [[-> ->]|(m & Hm & -> & ->)]; cbn [exec];
        rewrite ?(has_label_true a m Hm), E'; destruct r; exact Hx. }
    unfold K in HK. destruct r as [o1|o1|o1|v o1|x o1|]; try contradiction.
    2-4: destruct HK as [-> ->]; apply run_end with (f := S f); [apply X; [lia|reflexivity]|exact Logic.I].
    inversion HK; subst.
    + apply run_more.
    + apply run_end with (f := S (f + f0)); [|assumption].
      apply X; [lia|]. apply (exec_le f0); [reflexivity| |lia].
      intros E2. rewrite E2 in *. contradiction.
    + apply run_item with (f := S (f + f0)) (o' := o') (n := n); try assumption; try reflexivity.
      * apply X; [lia|]. apply (exec_le f0); [assumption|discriminate|lia].
      * cbn. apply in_or_app. right; assumption.
      * apply seq_right; assumption.
  - exact H.
  - left; auto.
  - split; [exact A|split].
    + intros o1 i2 e2 -> Hb. eapply B; [reflexivity|exact Hb].
    + intros r -> Hn. rewrite <- (app_nil_r i). eapply B; [reflexivity|].
      unfold K. destruct r; try (exfalso; eapply Hn; reflexivity); auto.
Qed.

(** *** Branches *)

Lemma if_part : forall t a b (left : bool) o i e v,
  (forall m, In m (labels b) -> ~ In m (labels a)) ->
  t (gvars o) = inl v -> (v =? 0) = negb left ->
  run (if left then a else b) Start o i e -> run (CIf t a b) Start o i e.
Proof.
  intros t a b left o i e v Hd Ht Hv H.
  pose (c0 := if left then a else b).
  pose (ent := fun en en' (o0 : obj) =>
     (en = Start /\ en' = Start /\ o0 = o) \/ exists n, In n (labels c0) /\ en = Goto n /\ en' = Goto n).
  assert (X : forall f en en' o0 r, ent en en' o0 -> exec f en c0 o0 = r ->
              exec (S f) en' (CIf t a b) o0 = r).
  { intros f en en' o0 r [(-> & -> & ->)|(n & Hn & -> & ->)] E; cbn [exec].
    - rewrite Ht, Hv. unfold c0 in E. destruct left; exact E.
    - unfold c0 in *. destruct left.
      + rewrite (has_label_true a n Hn). exact E.
      + rewrite (has_label_false a n (Hd _ Hn)). exact E. }
  destruct (lift c0 (CIf t a b) ent (fun r i e => i = [] /\ e = EEnd r))
    with (en := Start) (o := o) (i := i) (e0 := e) (en' := Start) as [A B].
  - intros m Hm. cbn. apply in_or_app. unfold c0 in Hm. destruct left; auto.
  - intros m o0 Hm. right. eauto.
  - intros f en en' o0 v0 o' Hen E. exists (S f). eapply X; eauto.
  - intros f en en' o0 r i0 e0 Hen E Hr (-> & ->). eapply run_end; [eapply X; eauto|exact Hr].
  - exact H.
  - left; auto.
  - destruct e as [|r]; [apply A; reflexivity|].
    rewrite <- (app_nil_r i). eapply B; [reflexivity|auto].
Qed.

(** *** While *)

Lemma while_turn : forall t b o i e v,
  t (gvars o) = inl v -> (v =? 0) = false ->
  run b Start o i e ->
  (e = EMore -> run (CWhile t b) Start o i EMore) /\
  (forall r o1 i2 e2, e = EEnd r -> r = CNormal o1 \/ r = CContinued o1 ->
     run (CWhile t b) Start o1 i2 e2 -> run (CWhile t b) Start o (i ++ i2) e2) /\
  (forall o1, e = EEnd (CBroke o1) -> run (CWhile t b) Start o i (EEnd (CNormal o1))) /\
  (forall x o1, e = EEnd (CRaise x o1) -> run (CWhile t b) Start o i (EEnd (CRaise x o1))).
Proof.
  intros t b o i e v Ht Hv H.
  pose (ent := fun en en' (o0 : obj) =>
     (en = Start /\ en' = Start /\ o0 = o) \/ exists n, In n (labels b) /\ en = Goto n /\ en' = Goto n).
  pose (K := fun (r : cres) (i : list Z) (e : cend) =>
     match r with
     | CNormal o1 | CContinued o1 => run (CWhile t b) Start o1 i e
     | CBroke o1 => i = [] /\ e = EEnd (CNormal o1)
     | _ => i = [] /\ e = EEnd r end).
  assert (X : forall f g en en' o0 r r2, ent en en' o0 -> exec f en b o0 = r -> r <> CFuel ->
     (f <= g)%nat ->
     match r with
     | CNormal o1 | CContinued o1 => exec g Start (CWhile t b) o1
     | CBroke o1 => CNormal o1 | _ => r end = r2 ->
     exec (S g) en' (CWhile t b) o0 = r2).
  { intros f g en en' o0 r r2 Hen E Hr Hg Hx.
    assert (E' : exec g en b o0 = r) by (apply (exec_le f g _ _ _ _ E); assumption).
    destruct Hen as [(-> & -> & ->)|(m & Hm & -> & ->)]; cbn [exec]; rewrite ?Ht, ?Hv, E';
      destruct r; exact Hx. }
  destruct (lift b (CWhile t b) ent K)
    with (en := Start) (o := o) (i := i) (e0 := e) (en' := Start) as [A B].
  - intros m Hm. exact Hm.
  - intros m o0 Hm. right. eauto.
  - intros f en en' o0 v0 o' Hen E. exists (S f).
    apply (X f f en en' o0 _ _ Hen E); [discriminate|lia|reflexivity].
  - intros f en en' o0 r i0 e0 Hen E Hr HK. unfold K in HK.
    assert (Hf : r <> CFuel) by (intros ->; exact Hr).
    destruct r as [o1|o1|o1|v1 o1|x o1|]; try contradiction.
    1,3: eapply run_head; [|exact HK]; intros g r2 Hg Hr2; exists (S (f + g));
         eapply X; [exact Hen|exact E|exact Hf|lia|];
         apply (exec_le g); [exact Hg|exact Hr2|lia].
    all: destruct HK as [-> ->]; apply run_end with (f := S f); [|exact Logic.I];
         eapply X; [exact Hen|exact E|exact Hf|lia|reflexivity].
  - exact H.
  - left; auto.
  - split; [exact A|split; [|split]].
    + intros r o1 i2 e2 -> Hr Hb. eapply B; [reflexivity|].
      destruct Hr as [-> | ->]; exact Hb.
    + intros o1 ->. rewrite <- (app_nil_r i). eapply B; [reflexivity|]. split; reflexivity.
    + intros x o1 ->. rewrite <- (app_nil_r i). eapply B; [reflexivity|]. split; reflexivity.
Qed.

(** *** Range loops *)

Lemma for_turn : forall k x lo hi st b o i e,
  for_test (gtmp o (TLoop k)) (atom_val hi o) st = true ->
  run b Start (set_var x (gtmp o (TLoop k)) o) i e ->
  (e = EMore -> run (CFor k x lo hi st b) Head o i EMore) /\
  (forall r o1 i2 e2, e = EEnd r -> r = CNormal o1 \/ r = CContinued o1 ->
     run (CFor k x lo hi st b) Head (set_tmp (TLoop k) (gtmp o1 (TLoop k) + st) o1) i2 e2 ->
     run (CFor k x lo hi st b) Head o (i ++ i2) e2) /\
  (forall o1, e = EEnd (CBroke o1) -> run (CFor k x lo hi st b) Head o i (EEnd (CNormal o1))) /\
  (forall y o1, e = EEnd (CRaise y o1) -> run (CFor k x lo hi st b) Head o i (EEnd (CRaise y o1))).
Proof.
  intros k x lo hi st b o i e Ht H.
  set (C := CFor k x lo hi st b).
  (* the first part starts from the object with the loop variable set; afterwards at labels *)
  pose (K := fun (r : cres) (i : list Z) (e : cend) =>
     match r with
     | CNormal o1 | CContinued o1 =>
         run C Head (set_tmp (TLoop k) (gtmp o1 (TLoop k) + st) o1) i e
     | CBroke o1 => i = [] /\ e = EEnd (CNormal o1)
     | _ => i = [] /\ e = EEnd r end).
  pose (after := fun g r =>
     match r with
     | CNormal o1 | CContinued o1 => exec g Head C (set_tmp (TLoop k) (gtmp o1 (TLoop k) + st) o1)
     | CBroke o1 => CNormal o1 | _ => r end).
  assert (X1 : forall f g n o0 r r2, exec f (Goto n) b o0 = r -> r <> CFuel -> (f <= g)%nat ->
     after g r = r2 -> exec (S g) (Goto n) C o0 = r2).
  { intros f g n o0 r r2 E Hr Hg Hx. cbn [exec C].
    rewrite (exec_le f g _ _ _ _ E Hr Hg). destruct r; exact Hx. }
  assert (X2 : forall f g r r2, exec f Start b (set_var x (gtmp o (TLoop k)) o) = r -> r <> CFuel ->
     (f <= g)%nat -> after g r = r2 -> exec (S g) Head C o = r2).
  { intros f g r r2 E Hr Hg Hx. cbn [exec C]. rewrite Ht.
    rewrite (exec_le f g _ _ _ _ E Hr Hg). destruct r; exact Hx. }
  assert (Y : forall en' o0 r f i0 e0,
     (forall g r2, (f <= g)%nat -> after g r = r2 -> exec (S g) en' C o0 = r2) ->
     ended r -> K r i0 e0 -> run C en' o0 i0 e0).
  { intros en' o0 r f i0 e0 X Hr HK.
    destruct r as [o1|o1|o1|v1 o1|y o1|]; try contradiction; unfold K in HK.
    1,3: eapply run_head; [|exact HK]; intros g r2 Hg Hr2; exists (S (f + g));
         apply X; [lia|]; cbn [after]; apply (exec_le g); [exact Hg|exact Hr2|lia].
    all: destruct HK as [-> ->]; apply run_end with (f := S f); [|exact Logic.I];
         apply X; [lia|reflexivity]. }
  assert (G : forall en o0 i e0, run b en o0 i e0 -> forall n, en = Goto n -> In n (labels b) ->
    (e0 = EMore -> run C (Goto n) o0 i EMore) /\
    (forall r i2 e, e0 = EEnd r -> K r i2 e -> run C (Goto n) o0 (i ++ i2) e)).
  { intros en o0 i0 e0 Hb n -> Hn.
    apply (lift b C (goto_entry b) K) with (en := Goto n); auto.
    - intros m o2 Hm. exists m. auto.
    - intros f en en' o2 v o' (m & Hm & -> & ->) E. exists (S f).
      eapply X1; [exact E|discriminate|lia|reflexivity].
    - intros f en en' o2 r i2 e2 (m & Hm & -> & ->) E Hr HK.
      eapply (Y _ _ r f); [|exact Hr|exact HK]. intros g r2 Hg Hx.
      eapply X1; [exact E|intros ->; exact Hr|exact Hg|exact Hx].
    - exists n. auto. }
  assert (F : (e = EMore -> run C Head o i EMore) /\
    (forall r i2 e2, e = EEnd r -> K r i2 e2 -> run C Head o (i ++ i2) e2)).
  { inversion H; subst.
    - split; [intros _; apply run_more|discriminate].
    - split; [discriminate|]. intros r i2 e2 E HK. injection E as <-. cbn.
      eapply (Y _ _ _ f); [|eassumption|exact HK]. intros g r2 Hg Hx.
      eapply X2; [reflexivity|intros E; rewrite E in *; contradiction|exact Hg|exact Hx].
    - destruct (G _ _ _ _ H4 n eq_refl H3) as [A B].
      assert (E : exec (S f) Head C o = CRet (gval o') o')
        by (eapply X2; [exact H0|discriminate|lia|reflexivity]).
      split.
      + intros E2. eapply run_item; eauto.
      + intros r i2 e2 E2 HK. cbn. eapply run_item; eauto. }
  destruct F as [A B].
  split; [exact A|split; [|split]].
  - intros r o1 i2 e2 -> Hr Hb. eapply B; [reflexivity|]. destruct Hr as [-> | ->]; exact Hb.
  - intros o1 ->. rewrite <- (app_nil_r i). eapply B; [reflexivity|]. split; reflexivity.
  - intros y o1 ->. rewrite <- (app_nil_r i). eapply B; [reflexivity|]. split; reflexivity.
Qed.

(** ** range *)

Lemma range_items_nil : forall lo hi st,
  st <> 0 -> for_test lo hi st = false -> range_items lo hi st = [].
Proof.
  intros lo hi st Hst H. unfold for_test in H. unfold range_items.
  replace (Z.to_nat (range_len lo hi st)) with 0%nat; [reflexivity|].
  enough (range_len lo hi st <= 0) by lia.
  unfold range_len. destruct (0 <? st) eqn:E.
  - apply Z.ltb_lt in E. replace (0 <=? st) with true in H by (symmetry; apply Z.leb_le; lia).
    apply Z.ltb_ge in H. assert ((hi - lo + st - 1) / st < 1); [apply Z.div_lt_upper_bound; nia|lia].
  - apply Z.ltb_ge in E. replace (0 <=? st) with false in H by (symmetry; apply Z.leb_gt; lia).
    apply Z.ltb_ge in H. assert ((lo - hi - st - 1) / (- st) < 1); [apply Z.div_lt_upper_bound; nia|lia].
Qed.

Lemma range_items_cons : forall lo hi st,
  st <> 0 -> for_test lo hi st = true ->
  range_items lo hi st = lo :: range_items (lo + st) hi st.
Proof.
  intros lo hi st Hst H. unfold for_test in H. unfold range_items.
  assert (L : 0 <= range_len (lo + st) hi st /\ range_len lo hi st = range_len (lo + st) hi st + 1).
  { unfold range_len. destruct (0 <? st) eqn:E.
    - apply Z.ltb_lt in E. replace (0 <=? st) with true in H by (symmetry; apply Z.leb_le; lia).
      apply Z.ltb_lt in H. split; [apply Z.div_pos; lia|].
      replace (hi - lo + st - 1) with ((hi - (lo + st) + st - 1) + 1 * st) by lia.
      rewrite Z.div_add by lia. lia.
    - apply Z.ltb_ge in E. replace (0 <=? st) with false in H by (symmetry; apply Z.leb_gt; lia).
      apply Z.ltb_lt in H. split; [apply Z.div_pos; lia|].
      replace (lo - hi - st - 1) with ((lo + st - hi - st - 1) + 1 * (- st)) by lia.
      rewrite Z.div_add by lia. lia. }
  destruct L as [L1 L2]. rewrite L2, Z2Nat.inj_add by lia.
  rewrite Nat.add_1_r. cbn [seq map]. f_equal; [lia|].
  rewrite <- seq_shift, map_map. apply map_ext. intros a. rewrite Nat2Z.inj_succ. nia.
Qed.

(** ** The statements that are generated *)

Lemma cg_labels : forall p f l n k c n' k',
  codegen f l p n k = Some (c, n', k') ->
  (n <= n')%nat /\ forall m, In m (labels c) -> (n <= m < n')%nat.
Proof.
  induction p as [|x e|x e|e|a IHa b IHb|t a IHa b IHb|t b IHb|x lo hi st b IHb|e| |];
    intros f l n k c n' k' H; cbn [codegen] in H.
  - injection H as <- <- <-. split; [lia|intros m []].
  - injection H as <- <- <-. split; [lia|]. destruct f; intros m [].
  - injection H as <- <- <-. split; [lia|intros m []].
  - injection H as <- <- <-. split; [lia|]. intros m [<-|[]]. lia.
  - destruct (codegen f l a n k) as [[[ca n1] k1]|] eqn:Ea; [|discriminate].
    destruct (codegen f l b n1 k1) as [[[cb n2] k2]|] eqn:Eb; [|discriminate].
    injection H as <- <- <-. apply IHa in Ea. apply IHb in Eb. split; [lia|].
    intros m Hm. cbn in Hm. apply in_app_or in Hm.
    destruct Hm as [Hm|Hm]; [apply Ea in Hm|apply Eb in Hm]; lia.
  - destruct (codegen f l a n k) as [[[ca n1] k1]|] eqn:Ea; [|discriminate].
    destruct (codegen f l b n1 k1) as [[[cb n2] k2]|] eqn:Eb; [|discriminate].
    injection H as <- <- <-. apply IHa in Ea. apply IHb in Eb. split; [lia|].
    intros m Hm. cbn in Hm. apply in_app_or in Hm.
    destruct Hm as [Hm|Hm]; [apply Ea in Hm|apply Eb in Hm]; lia.
  - destruct (codegen f true b n k) as [[[cb n1] k1]|] eqn:Eb; [|discriminate].
    injection H as <- <- <-. apply IHb in Eb. exact Eb.
  - destruct f; [discriminate|].
    destruct (codegen true true b n (S k)) as [[[cb n1] k1]|] eqn:Eb; [|discriminate].
    injection H as <- <- <-. apply IHb in Eb. split; [lia|].
    intros m Hm. apply Eb. cbn in Hm.
    destruct lo, hi; exact Hm.
  - injection H as <- <- <-. split; [lia|intros m []].
  - destruct l; [|discriminate]. injection H as <- <- <-. split; [lia|intros m []].
  - destruct l; [|discriminate]. injection H as <- <- <-. split; [lia|intros m []].
Qed.

Lemma cg_disjoint : forall p q f l f' l' n k a n1 k1 b n2 k2,
  codegen f l p n k = Some (a, n1, k1) -> codegen f' l' q n1 k1 = Some (b, n2, k2) ->
  forall m, In m (labels b) -> ~ In m (labels a).
Proof.
  intros p q f l f' l' n k a n1 k1 b n2 k2 Ha Hb m Hm Hm'.
  apply cg_labels in Ha. apply cg_labels in Hb.
  apply Ha in Hm'. apply Hb in Hm. lia.
Qed.

Lemma cg_sets : forall p f l n k c n' k',
  codegen f l p n k = Some (c, n', k') -> forall x, csets c x = sets p x.
Proof.
  induction p as [|x e|x e|e|a IHa b IHb|t a IHa b IHb|t b IHb|x lo hi st b IHb|e| |];
    intros f l n k c n' k' H y; cbn [codegen] in H.
  - injection H as <- <- <-. reflexivity.
  - injection H as <- <- <-. destruct f; reflexivity.
  - injection H as <- <- <-. reflexivity.
  - injection H as <- <- <-. reflexivity.
  - destruct (codegen f l a n k) as [[[ca n1] k1]|] eqn:Ea; [|discriminate].
    destruct (codegen f l b n1 k1) as [[[cb n2] k2]|] eqn:Eb; [|discriminate].
    injection H as <- <- <-. cbn. rewrite (IHa _ _ _ _ _ _ _ Ea), (IHb _ _ _ _ _ _ _ Eb). reflexivity.
  - destruct (codegen f l a n k) as [[[ca n1] k1]|] eqn:Ea; [|discriminate].
    destruct (codegen f l b n1 k1) as [[[cb n2] k2]|] eqn:Eb; [|discriminate].
    injection H as <- <- <-. cbn. rewrite (IHa _ _ _ _ _ _ _ Ea), (IHb _ _ _ _ _ _ _ Eb). reflexivity.
  - destruct (codegen f true b n k) as [[[cb n1] k1]|] eqn:Eb; [|discriminate].
    injection H as <- <- <-. cbn. exact (IHb _ _ _ _ _ _ _ Eb y).
  - destruct f; [discriminate|].
    destruct (codegen true true b n (S k)) as [[[cb n1] k1]|] eqn:Eb; [|discriminate].
    injection H as <- <- <-. cbn. rewrite (IHb _ _ _ _ _ _ _ Eb). destruct lo, hi; reflexivity.
  - injection H as <- <- <-. reflexivity.
  - destruct l; [|discriminate]. injection H as <- <- <-. reflexivity.
  - destruct l; [|discriminate]. injection H as <- <- <-. reflexivity.
Qed.

Lemma cg_temps : forall p l n k c n' k',
  codegen true l p n k = Some (c, n', k') -> ctemps c = false.
Proof.
  induction p as [|x e|x e|e|a IHa b IHb|t a IHa b IHb|t b IHb|x lo hi st b IHb|e| |];
    intros l n k c n' k' H; cbn [codegen] in H.
  1-4,9: injection H as <- <- <-; reflexivity.
  - destruct (codegen true l a n k) as [[[ca n1] k1]|] eqn:Ea; [|discriminate].
    destruct (codegen true l b n1 k1) as [[[cb n2] k2]|] eqn:Eb; [|discriminate].
    injection H as <- <- <-. cbn. rewrite (IHa _ _ _ _ _ _ Ea), (IHb _ _ _ _ _ _ Eb). reflexivity.
  - destruct (codegen true l a n k) as [[[ca n1] k1]|] eqn:Ea; [|discriminate].
    destruct (codegen true l b n1 k1) as [[[cb n2] k2]|] eqn:Eb; [|discriminate].
    injection H as <- <- <-. cbn. rewrite (IHa _ _ _ _ _ _ Ea), (IHb _ _ _ _ _ _ Eb). reflexivity.
  - destruct (codegen true true b n k) as [[[cb n1] k1]|] eqn:Eb; [|discriminate].
    injection H as <- <- <-. cbn. exact (IHb _ _ _ _ _ _ Eb).
  - discriminate.
  - destruct l; [|discriminate]. injection H as <- <- <-. reflexivity.
  - destruct l; [|discriminate]. injection H as <- <- <-. reflexivity.
Qed.

(** ** The simulation *)

Definition corr (out : pyend) (e : cend) : Prop :=
  match out with
  | PNormal s => exists o, e = EEnd (CNormal o) /\ gvars o = s
  | PBreak s => exists o, e = EEnd (CBroke o) /\ gvars o = s
  | PContinue s => exists o, e = EEnd (CContinued o) /\ gvars o = s
  | PRaise x => exists o, e = EEnd (CRaise x o)
  | PMore => e = EMore
  | PReturn => False
  end.

Definition simulates (p : stmt) (c : cstmt) (f : nat) : Prop :=
  forall o i out, py_run f p (gvars o) = (i, out) -> exists e, run c Start o i e /\ corr out e.

(** The end of the range as the loop sees it. *)
Definition stable (hi : catom) (x : nat) (k : nat) (b : cstmt) : Prop :=
  match hi with
  | AConst _ => True
  | AVar y => y <> x /\ csets b y = false
  | ATmp t => t = TStop k
  end.

Lemma stable_val : forall hi x k b o o',
  stable hi x k b -> (forall y, y <> x -> csets b y = false -> gvars o' y = gvars o y) ->
  (forall t, t <> TLoop k -> gtmp o' t = gtmp o t) -> atom_val hi o' = atom_val hi o.
Proof.
  intros hi x k b o o' Hs Hv Ht. destruct hi as [z|y|t]; cbn in *.
  - reflexivity.
  - apply Hv; tauto.
  - apply Ht. subst t. discriminate.
Qed.

Lemma tmp_other : forall k t o z, t <> TLoop k -> gtmp (set_tmp (TLoop k) z o) t = gtmp o t.
Proof.
  intros k t o z H. cbn. destruct t as [j|j|j]; try reflexivity.
  destruct (Nat.eqb k j) eqn:E; [|reflexivity]. apply Nat.eqb_eq in E. subst j. congruence.
Qed.

Lemma tmp_same : forall k o z, gtmp (set_tmp (TLoop k) z o) (TLoop k) = z.
Proof. intros k o z. cbn. rewrite Nat.eqb_refl. reflexivity. Qed.

Lemma for_sim : forall f p b k x lo hi st,
  simulates p b f -> ctemps b = false -> st <> 0 -> stable hi x k b ->
  forall l o, l = range_items (gtmp o (TLoop k)) (atom_val hi o) st ->
  forall i out, py_each (py_run f p) x l (gvars o) = (i, out) ->
  exists e, run (CFor k x lo hi st b) Head o i e /\ corr out e.
Proof.
  intros f p b k x lo hi st Hb Hc Hst Hs.
  induction l as [|v l IH]; intros o Hl i out H.
  - cbn in H. injection H as <- <-.
    destruct (for_test (gtmp o (TLoop k)) (atom_val hi o) st) eqn:Et.
    { rewrite range_items_cons in Hl by assumption. discriminate. }
    exists (EEnd (CNormal o)). split; [|exists o; auto].
    apply run_end with (f := 1%nat); [|exact Logic.I]. cbn. rewrite Et. reflexivity.
  - destruct (for_test (gtmp o (TLoop k)) (atom_val hi o) st) eqn:Et.
    2: { rewrite range_items_nil in Hl by assumption. discriminate. }
    rewrite range_items_cons in Hl by assumption. injection Hl as Hv Hl. subst v.
    cbn [py_each] in H.
    destruct (py_run f p (upd (gvars o) x (gtmp o (TLoop k)))) as [i1 o1] eqn:E1.
    destruct (Hb (set_var x (gtmp o (TLoop k)) o) i1 o1 E1) as (e1 & R1 & C1).
    destruct (for_turn k x lo hi st b o i1 e1 Et R1) as (A1 & A2 & A3 & A4).
    assert (N : forall r oo, e1 = EEnd r -> robj r = Some oo ->
      gtmp oo = gtmp o /\
      (forall y, y <> x -> csets b y = false -> gvars oo y = gvars o y)).
    { intros r oo Er Ho. split.
      - change (gtmp o) with (gtmp (set_var x (gtmp o (TLoop k)) o)).
        eapply (run_rel (fun a b => gtmp b = gtmp a)) with (c := b); eauto.
        + intros; congruence.
        + intros f0 en o0 r0 o0' HH HH'. eapply exec_tmp; eauto.
      - intros y Hy Hcy.
        transitivity (gvars (set_var x (gtmp o (TLoop k)) o) y).
        + eapply (run_rel (fun a b => gvars b y = gvars a y)) with (c := b); eauto.
          * intros; congruence.
          * intros f0 en o0 r0 o0' HH HH'. eapply exec_var; eauto.
        + cbn. unfold upd. destruct (Nat.eqb x y) eqn:E; [|reflexivity].
          apply Nat.eqb_eq in E. congruence. }
    assert (M : forall r oo, e1 = EEnd r -> r = CNormal oo \/ r = CContinued oo ->
      (let q := py_each (py_run f p) x l (gvars oo) in (i1 ++ fst q, snd q)) = (i, out) ->
      exists e, run (CFor k x lo hi st b) Head o i e /\ corr out e).
    { intros r oo Er Hr Hq.
      destruct (N r oo Er) as [N1 N2]; [destruct Hr as [-> | ->]; reflexivity|].
      destruct (py_each (py_run f p) x l (gvars oo)) as [i2 o2] eqn:E2.
      cbn in Hq. injection Hq as <- <-.
      set (o' := set_tmp (TLoop k) (gtmp oo (TLoop k) + st) oo).
      destruct (IH o') with (i := i2) (out := o2) as (e & R2 & C2).
      - rewrite Hl. f_equal.
        + unfold o'. rewrite tmp_same, N1. reflexivity.
        + symmetry. apply (stable_val hi x k b); [exact Hs|exact N2|].
          intros t Htt. unfold o'. rewrite tmp_other by exact Htt. rewrite N1. reflexivity.
      - exact E2.
      - exists e. split; [|exact C2]. eapply A2; eauto. }
    destruct o1 as [s1|s1|s1| |y|]; cbn in C1.
    + destruct C1 as (oo & -> & <-). eapply M; eauto.
    + destruct C1 as (oo & -> & <-). injection H as <- <-.
      exists (EEnd (CNormal oo)). split; [apply A3; reflexivity|exists oo; auto].
    + destruct C1 as (oo & -> & <-). eapply M; eauto.
    + contradiction.
    + destruct C1 as (oo & ->). injection H as <- <-.
      exists (EEnd (CRaise y oo)). split; [apply A4; reflexivity|exists oo; auto].
    + subst e1. injection H as <- <-. exists EMore. split; [apply A1; reflexivity|reflexivity].
Qed.

Lemma run_one : forall c o r, exec 1 Start c o = r -> ended r -> run c Start o [] (EEnd r).
Proof. intros. eapply run_end; eauto. Qed.

Lemma sim : forall f p fo lo n k c n' k',
  codegen fo lo p n k = Some (c, n', k') -> plain p = true -> simulates p c f.
Proof.
  induction f as [|f IH]; intros p fo l n k c n' k' H Hp o i out Hr.
  { cbn in Hr. injection Hr as <- <-. exists EMore. split; [apply run_more|reflexivity]. }
  destruct p as [|x e|x e|e|a b|t a b|t b|x lo hi st b|e| |]; cbn [codegen] in H; cbn [py_run] in Hr.
  - injection H as <- <- <-. injection Hr as <- <-.
    exists (EEnd (CNormal o)). split; [apply run_one; [reflexivity|exact Logic.I]|exists o; auto].
  - injection H as <- <- <-.
    assert (X : exec 1 Start (if fo then CDecl x e else CAssign x e) o =
                match e (gvars o) with inl v => CNormal (set_var x v o) | inr r => CRaise r o end)
      by (destruct fo; reflexivity).
    destruct (e (gvars o)) as [v|r]; injection Hr as <- <-; eexists; (split;
      [apply run_one; [exact X|exact Logic.I]|cbn; eauto]).
  - injection H as <- <- <-.
    assert (X : exec 1 Start (CAssign x e) o =
                match e (gvars o) with inl v => CNormal (set_var x v o) | inr r => CRaise r o end)
      by reflexivity.
    destruct (e (gvars o)) as [v|r]; injection Hr as <- <-; eexists; (split;
      [apply run_one; [exact X|exact Logic.I]|cbn; eauto]).
  - injection H as <- <- <-.
    assert (X : exec 1 Start (CYield n e) o =
                match e (gvars o) with
                | inl v => CRet v (set_val v (set_st (Z.of_nat n) o))
                | inr r => CRaise r (set_st (Z.of_nat n) o) end)
      by reflexivity.
    destruct (e (gvars o)) as [v|r]; injection Hr as <- <-.
    + exists (EEnd (CNormal (set_val v (set_st (Z.of_nat n) o)))). split; [|eexists; split; reflexivity].
      eapply run_item; [exact X|reflexivity|reflexivity|left; reflexivity|].
      apply run_end with (f := 1%nat); [reflexivity|exact Logic.I].
    + eexists. split; [apply run_one; [exact X|exact Logic.I]|cbn; eauto].
  - destruct (codegen fo l a n k) as [[[ca n1] k1]|] eqn:Ea; [|discriminate].
    destruct (codegen fo l b n1 k1) as [[[cb n2] k2]|] eqn:Eb; [|discriminate].
    injection H as <- <- <-. cbn in Hp. apply andb_prop in Hp. destruct Hp as [Pa Pb].
    destruct (py_run f a (gvars o)) as [i1 o1] eqn:E1.
    destruct (IH _ _ _ _ _ _ _ _ Ea Pa o i1 o1 E1) as (e1 & R1 & C1).
    destruct (seq_start ca cb o i1 e1 (cg_disjoint _ _ _ _ _ _ _ _ _ _ _ _ _ _ Ea Eb) R1) as (A1 & A2 & A3).
    destruct o1 as [s1|s1|s1| |y|]; cbn in C1.
    + destruct C1 as (oo & -> & <-).
      destruct (py_run f b (gvars oo)) as [i2 o2] eqn:E2. cbn in Hr. injection Hr as <- <-.
      destruct (IH _ _ _ _ _ _ _ _ Eb Pb oo i2 o2 E2) as (e2 & R2 & C2).
      exists e2. split; [eapply A2; eauto|exact C2].
    + destruct C1 as (oo & -> & <-). injection Hr as <- <-.
      eexists. split; [apply A3; [reflexivity|discriminate]|cbn; eauto].
    + destruct C1 as (oo & -> & <-). injection Hr as <- <-.
      eexists. split; [apply A3; [reflexivity|discriminate]|cbn; eauto].
    + contradiction.
    + destruct C1 as (oo & ->). injection Hr as <- <-.
      eexists. split; [apply A3; [reflexivity|discriminate]|cbn; eauto].
    + subst e1. injection Hr as <- <-. exists EMore. split; [apply A1; reflexivity|reflexivity].
  - destruct (codegen fo l a n k) as [[[ca n1] k1]|] eqn:Ea; [|discriminate].
    destruct (codegen fo l b n1 k1) as [[[cb n2] k2]|] eqn:Eb; [|discriminate].
    injection H as <- <- <-. cbn in Hp. apply andb_prop in Hp. destruct Hp as [Pa Pb].
    assert (D := cg_disjoint _ _ _ _ _ _ _ _ _ _ _ _ _ _ Ea Eb).
    destruct (t (gvars o)) as [v|r] eqn:Et.
    + destruct (v =? 0) eqn:Ev.
      * destruct (IH _ _ _ _ _ _ _ _ Eb Pb o i out Hr) as (e & R & C).
        exists e. split; [|exact C]. eapply (if_part t ca cb false); eauto.
      * destruct (IH _ _ _ _ _ _ _ _ Ea Pa o i out Hr) as (e & R & C).
        exists e. split; [|exact C]. eapply (if_part t ca cb true); eauto.
    + injection Hr as <- <-. exists (EEnd (CRaise r o)). split; [|cbn; eauto].
      apply run_one; [cbn; rewrite Et; reflexivity|exact Logic.I].
  - destruct (codegen fo true b n k) as [[[cb n1] k1]|] eqn:Eb; [|discriminate].
    injection H as <- <- <-. cbn in Hp.
    destruct (t (gvars o)) as [v|r] eqn:Et.
    + destruct (v =? 0) eqn:Ev.
      * injection Hr as <- <-. exists (EEnd (CNormal o)). split; [|cbn; eauto].
        apply run_one; [cbn; rewrite Et, Ev; reflexivity|exact Logic.I].
      * destruct (py_run f b (gvars o)) as [i1 o1] eqn:E1.
        destruct (IH _ _ _ _ _ _ _ _ Eb Hp o i1 o1 E1) as (e1 & R1 & C1).
        destruct (while_turn t cb o i1 e1 v Et Ev R1) as (A1 & A2 & A3 & A4).
        assert (W : codegen fo l (SWhile t b) n k = Some (CWhile t cb, n1, k1))
          by (cbn; rewrite Eb; reflexivity).
        assert (M : forall r oo, e1 = EEnd r -> r = CNormal oo \/ r = CContinued oo ->
          (let q := py_run f (SWhile t b) (gvars oo) in (i1 ++ fst q, snd q)) = (i, out) ->
          exists e, run (CWhile t cb) Start o i e /\ corr out e).
        { intros r oo Er Hrr Hq.
          destruct (py_run f (SWhile t b) (gvars oo)) as [i2 o2] eqn:E2.
          cbn in Hq. injection Hq as <- <-.
          destruct (IH _ _ _ _ _ _ _ _ W Hp oo i2 o2 E2) as (e2 & R2 & C2).
          exists e2. split; [|exact C2]. eapply A2; eauto. }
        destruct o1 as [s1|s1|s1| |y|]; cbn in C1.
        -- destruct C1 as (oo & -> & <-). eapply M; eauto.
        -- destruct C1 as (oo & -> & <-). injection Hr as <- <-.
           exists (EEnd (CNormal oo)). split; [apply A3; reflexivity|cbn; eauto].
        -- destruct C1 as (oo & -> & <-). eapply M; eauto.
        -- contradiction.
        -- destruct C1 as (oo & ->). injection Hr as <- <-.
           exists (EEnd (CRaise y oo)). split; [apply A4; reflexivity|cbn; eauto].
        -- subst e1. injection Hr as <- <-. exists EMore. split; [apply A1; reflexivity|reflexivity].
    + injection Hr as <- <-. exists (EEnd (CRaise r o)). split; [|cbn; eauto].
      apply run_one; [cbn; rewrite Et; reflexivity|exact Logic.I].
  - destruct fo; [discriminate|].
    destruct (codegen true true b n (S k)) as [[[cb n1] k1]|] eqn:Eb; [|discriminate].
    injection H as <- <- <-. cbn [plain] in Hp.
    apply andb_prop in Hp. destruct Hp as [Hp Phi]. apply andb_prop in Hp. destruct Hp as [Pb Pst].
    assert (Hst : st <> 0) by (intros ->; discriminate).
    replace (st =? 0) with false in Hr by (symmetry; apply Z.eqb_neq; exact Hst).
    set (F := CFor k x (atom_of (TStart k) lo) (atom_of (TStop k) hi) st cb).
    assert (Hstab : stable (atom_of (TStop k) hi) x k cb).
    { destruct hi as [z|y|e]; cbn; auto. rewrite (cg_sets _ _ _ _ _ _ _ _ Eb).
      apply andb_prop in Phi. destruct Phi as [Q1 Q2]. apply negb_true_iff in Q1, Q2.
      split; [apply Nat.eqb_neq; exact Q1|exact Q2]. }
    (* the loop itself, once the bounds are in place *)
    assert (L : forall o' lv hv, gvars o' = gvars o -> atom_val (atom_of (TStart k) lo) o' = lv ->
        atom_val (atom_of (TStop k) hi) o' = hv ->
        py_each (py_run f b) x (range_items lv hv st) (gvars o) = (i, out) ->
        exists e, run F Start o' i e /\ corr out e).
    { intros o' lv hv Hv1 Hlv Hhv Hq.
      set (o2 := set_tmp (TLoop k) lv o').
      destruct (for_sim f b cb k x (atom_of (TStart k) lo) (atom_of (TStop k) hi) st) with
        (l := range_items lv hv st) (o := o2) (i := i) (out := out) as (e & R & C).
      - exact (IH _ _ _ _ _ _ _ _ Eb Pb).
      - exact (cg_temps _ _ _ _ _ _ _ Eb).
      - exact Hst.
      - exact Hstab.
      - f_equal; [symmetry; apply tmp_same|]. rewrite <- Hhv. symmetry.
        apply (stable_val _ x k cb); [exact Hstab|reflexivity|].
        intros tt Htt. apply tmp_other; exact Htt.
      - unfold o2. cbn [set_tmp gvars]. rewrite Hv1. exact Hq.
      - exists e. split; [|exact C].
        eapply run_head; [|exact R]. intros g r Hg Hgr. exists (S g). cbn [exec F].
        rewrite Hlv. exact Hg. }
    (* one bound *)
    assert (T : forall tv bd o1, gvars o1 = gvars o ->
        match py_bound bd (gvars o) with
        | inl v => exists o2, run (temp_of tv bd) Start o1 [] (EEnd (CNormal o2)) /\ gvars o2 = gvars o /\
                     atom_val (atom_of tv bd) o2 = v /\ (forall u, u <> tv -> gtmp o2 u = gtmp o1 u)
        | inr r => run (temp_of tv bd) Start o1 [] (EEnd (CRaise r o1))
        end).
    { intros tv bd o1 Ho1. destruct bd as [z|y|e]; cbn [py_bound temp_of atom_of].
      - exists o1. split; [apply run_one; [reflexivity|exact Logic.I]|]. cbn. auto.
      - exists o1. split; [apply run_one; [reflexivity|exact Logic.I]|]. cbn. rewrite Ho1. auto.
      - destruct (e (gvars o)) as [v|r] eqn:Ee.
        + exists (set_tmp tv v o1). split; [apply run_one; [cbn; rewrite Ho1, Ee; reflexivity|exact Logic.I]|].
          split; [exact Ho1|]. split.
          * cbn. destruct tv; cbn; rewrite Nat.eqb_refl; reflexivity.
          * intros u Hu. cbn. destruct (tvar_eqb tv u) eqn:Eu; [|reflexivity].
            exfalso. apply Hu. destruct tv, u; cbn in Eu; try discriminate;
              apply Nat.eqb_eq in Eu; subst; reflexivity.
        + apply run_one; [cbn; rewrite Ho1, Ee; reflexivity|exact Logic.I]. }
    assert (NL : forall tv bd, labels (temp_of tv bd) = []) by (intros tv [z|y|e]; reflexivity).
    assert (D2 : forall m, In m (labels F) -> ~ In m (labels (temp_of (TStop k) hi)))
      by (intros m _; rewrite NL; intros []).
    assert (D1 : forall m, In m (labels (CSeq (temp_of (TStop k) hi) F)) -> ~ In m (labels (temp_of (TStart k) lo)))
      by (intros m _; rewrite NL; intros []).
    pose proof (T (TStart k) lo o eq_refl) as T1.
    destruct (py_bound lo (gvars o)) as [lv|r] eqn:Elo.
    + destruct T1 as (o1 & R1 & V1 & W1 & U1).
      destruct (seq_start _ (CSeq (temp_of (TStop k) hi) F) _ _ _ D1 R1) as (_ & A2 & _).
      pose proof (T (TStop k) hi o1 V1) as T2.
      destruct (py_bound hi (gvars o)) as [hv|r] eqn:Ehi.
      * destruct T2 as (o2 & R2 & V2 & W2 & U2).
        destruct (L o2 lv hv V2) as (e & R & C); [|exact W2|exact Hr|].
        { rewrite <- W1. destruct lo as [z|y|el]; cbn; [reflexivity|rewrite V1, V2; reflexivity|].
          apply U2. discriminate. }
        exists e. split; [|exact C].
        apply (A2 o1 i e eq_refl).
        destruct (seq_start _ F _ _ _ D2 R2) as (_ & B2 & _).
        exact (B2 o2 i e eq_refl R).
      * injection Hr as <- <-. exists (EEnd (CRaise r o1)). split; [|cbn; eauto].
        apply (A2 o1 [] _ eq_refl).
        destruct (seq_start _ F _ _ _ D2 T2) as (_ & _ & B3).
        apply B3; [reflexivity|discriminate].
    + injection Hr as <- <-. exists (EEnd (CRaise r o)). split; [|cbn; eauto].
      destruct (seq_start _ (CSeq (temp_of (TStop k) hi) F) _ _ _ D1 T1) as (_ & _ & A3).
      apply A3; [reflexivity|discriminate].
  - discriminate.
  - destruct l; [|discriminate]. injection H as <- <- <-. injection Hr as <- <-.
    exists (EEnd (CBroke o)). split; [apply run_one; [reflexivity|exact Logic.I]|cbn; eauto].
  - destruct l; [|discriminate]. injection H as <- <- <-. injection Hr as <- <-.
    exists (EEnd (CContinued o)). split; [apply run_one; [reflexivity|exact Logic.I]|cbn; eauto].
Qed.

(** ** Calls of next() and loops *)

Definition post (r : cres) : nres :=
  match r with
  | CNormal o1 | CBroke o1 | CContinued o1 => NRet 0 (set_st (-1) o1)
  | CRet v o1 => NRet v o1
  | CRaise e o1 => NRaise e o1
  | CFuel => NFuel
  end.

Lemma next_goto : forall f g o n,
  In n (labels (gcode g)) -> gst o = Z.of_nat n ->
  next f g o = post (exec f (Goto n) (gcode g) o).
Proof.
  intros f g o n Hn Ho. unfold next.
  replace (existsb (fun m => Z.of_nat m =? gst o) (labels (gcode g))) with true.
  - rewrite Ho, Nat2Z.id. reflexivity.
  - symmetry. apply existsb_exists. exists n. split; [exact Hn|]. rewrite Ho. apply Z.eqb_refl.
Qed.

Definition positive_labels (g : gen) : Prop := forall n, In n (labels (gcode g)) -> (1 <= n)%nat.

Definition at_start (g : gen) (o : obj) : obj :=
  set_vars (call_vars (gparams g) (gargs o) (gvars o)) o.

Lemma next_start : forall f g o,
  positive_labels g -> gst o = 0 \/ gst o = -1 ->
  next f g o = post (exec f Start (gcode g) (at_start g o)).
Proof.
  intros f g o Hp Ho. unfold next.
  replace (existsb (fun m => Z.of_nat m =? gst o) (labels (gcode g))) with false; [reflexivity|].
  symmetry. destruct (existsb _ _) eqn:E; [|reflexivity].
  apply existsb_exists in E. destruct E as (n & Hn & E). apply Hp in Hn. apply Z.eqb_eq in E. lia.
Qed.

(** The object will yield [i] and then end as [e]. *)
Definition ready (g : gen) (o : obj) (i : list Z) (e : cend) : Prop :=
  (exists n, In n (labels (gcode g)) /\ gst o = Z.of_nat n /\ run (gcode g) (Goto n) o i e) \/
  ((gst o = 0 \/ gst o = -1) /\ run (gcode g) Start (at_start g o) i e).

(** One call of next(). *)
Lemma ready_next : forall g o i e,
  positive_labels g -> ready g o i e ->
  match i with
  | [] => match e with
          | EEnd (CNormal o1) =>
              exists F, forall f, (F <= f)%nat -> next f g o = NRet 0 (set_st (-1) o1)
          | EEnd (CRaise x o1) => exists F, forall f, (F <= f)%nat -> next f g o = NRaise x o1
          | _ => True
          end
  | v :: i' => exists F o', (forall f, (F <= f)%nat -> next f g o = NRet v o') /\
                 gval o' = v /\ gst o' <> -1 /\ ready g o' i' e
  end.
Proof.
  intros g o i e Hp H.
  assert (X : exists en o1, run (gcode g) en o1 i e /\ forall f, next f g o = post (exec f en (gcode g) o1)).
  { destruct H as [(n & Hn & Ho & R)|[Ho R]].
    - exists (Goto n), o. split; [exact R|]. intros f. apply next_goto; assumption.
    - exists Start, (at_start g o). split; [exact R|]. intros f. apply next_start; assumption. }
  destruct X as (en & o1 & R & N). inversion R; subst.
  - exact Logic.I.
  - remember (exec f en (gcode g) o1) as r eqn:E. symmetry in E.
    destruct r; try exact Logic.I; exists f; intros f' Hf; rewrite N;
      rewrite (exec_le f f' _ _ _ _ E); try discriminate; try assumption; reflexivity.
  - exists f, o'. split; [|split; [reflexivity|split]].
    + intros f' Hf. rewrite N. rewrite (exec_le f f' _ _ _ _ H0); [reflexivity|discriminate|exact Hf].
    + rewrite H2. lia.
    + left. exists n. auto.
Qed.

Lemma turns_ready : forall g e i o, positive_labels g -> gst o <> -1 -> ready g o i e ->
  forall k,
  ((k <= length i)%nat -> exists F o', (forall f, (F <= f)%nat ->
      turns f g k o = (firstn k (gval o :: i), LLeft o')) /\ ready g o' (skipn k i) e) /\
  (forall o1, e = EEnd (CNormal o1) -> (length i < k)%nat -> exists F, forall f, (F <= f)%nat ->
      turns f g k o = (gval o :: i, LStopped (set_st (-1) o1))) /\
  (forall x o1, e = EEnd (CRaise x o1) -> (length i < k)%nat -> exists F, forall f, (F <= f)%nat ->
      turns f g k o = (removelast (gval o :: i), LRaised x o1)).
Proof.
  intros g e. induction i as [|v i IH]; intros o Hp Ho Hr k;
    assert (E0 : (gst o =? -1) = false) by (apply Z.eqb_neq; exact Ho).
  - split; [|split].
    + intros Hk. assert (k = 0%nat) by (cbn in Hk; lia). subst k.
      exists 0%nat, o. split; [|exact Hr]. intros f _. cbn. rewrite E0. reflexivity.
    + intros o1 -> Hk. destruct k as [|k]; [cbn in Hk; lia|].
      destruct (ready_next _ _ _ _ Hp Hr) as [F HF]. exists F. intros f Hf.
      cbn [turns]. rewrite E0, (HF f Hf). destruct k; reflexivity.
    + intros x o1 -> Hk. destruct k as [|k]; [cbn in Hk; lia|].
      destruct (ready_next _ _ _ _ Hp Hr) as [F HF]. exists F. intros f Hf.
      cbn [turns]. rewrite E0, (HF f Hf). reflexivity.
  - destruct (ready_next _ _ _ _ Hp Hr) as (F1 & o' & N1 & V1 & S1 & R1).
    destruct k as [|k].
    { split; [|split; intros; cbn in *; lia].
      intros _. exists 0%nat, o. split; [|exact Hr]. intros f _. cbn. rewrite E0. reflexivity. }
    destruct (IH o' Hp S1 R1 k) as (A & B & C).
    split; [|split].
    + intros Hk. destruct A as (F & o2 & HF & R2); [cbn in Hk; lia|].
      exists (F1 + F)%nat, o2. split; [|exact R2]. intros f Hf.
      cbn [turns]. rewrite E0, N1, HF by lia. rewrite V1. reflexivity.
    + intros o1 He Hk. destruct (B o1 He) as [F HF]; [cbn in Hk; lia|].
      exists (F1 + F)%nat. intros f Hf. cbn [turns]. rewrite E0, N1, HF by lia. rewrite V1. reflexivity.
    + intros x o1 He Hk. destruct (C x o1 He) as [F HF]; [cbn in Hk; lia|].
      exists (F1 + F)%nat. intros f Hf. cbn [turns]. rewrite E0, N1, HF by lia. rewrite V1. reflexivity.
Qed.

Lemma loop_ready : forall g e i o, positive_labels g -> ready g o i e ->
  forall k,
  ((k < length i)%nat -> exists F o', (forall f, (F <= f)%nat ->
      loop f g k o = (firstn k i, LLeft o')) /\ ready g o' (skipn (S k) i) e) /\
  (forall o1, e = EEnd (CNormal o1) -> (length i <= k)%nat -> exists F, forall f, (F <= f)%nat ->
      loop f g k o = (i, LStopped (set_st (-1) o1))) /\
  (forall x o1, e = EEnd (CRaise x o1) -> (length i <= k)%nat -> exists F, forall f, (F <= f)%nat ->
      loop f g k o = (removelast i, LRaised x o1)).
Proof.
  intros g e i o Hp Hr k. pose proof (ready_next _ _ _ _ Hp Hr) as N. destruct i as [|v i].
  - split; [cbn; lia|split].
    + intros o1 -> _. destruct N as [F HF]. exists F. intros f Hf. unfold loop. rewrite (HF f Hf).
      destruct k; reflexivity.
    + intros x o1 -> _. destruct N as [F HF]. exists F. intros f Hf. unfold loop. rewrite (HF f Hf).
      reflexivity.
  - destruct N as (F1 & o' & N1 & V1 & S1 & R1).
    destruct (turns_ready g e i o' Hp S1 R1 k) as (A & B & C). rewrite V1 in A, B, C.
    split; [|split].
    + intros Hk. destruct A as (F & o2 & HF & R2); [cbn in Hk; lia|].
      exists (F1 + F)%nat, o2. split; [|exact R2]. intros f Hf. unfold loop. rewrite N1, HF by lia. reflexivity.
    + intros o1 He Hk. destruct (B o1 He) as [F HF]; [cbn in Hk; lia|].
      exists (F1 + F)%nat. intros f Hf. unfold loop. rewrite N1, HF by lia. reflexivity.
    + intros x o1 He Hk. destruct (C x o1 He) as [F HF]; [cbn in Hk; lia|].
      exists (F1 + F)%nat. intros f Hf. unfold loop. rewrite N1, HF by lia. reflexivity.
Qed.

(** ** From a compiled generator *)

Lemma compile_parts : forall params p g, compile params p = Some g ->
  gparams g = params /\ positive_labels g /\
  exists n k, codegen false false p 1 0 = Some (gcode g, n, k).
Proof.
  intros params p g H. unfold compile in H.
  destruct (codegen false false p 1 0) as [[[c n] k]|] eqn:E; [|discriminate].
  destruct (cpp_accepts c); [|discriminate]. injection H as <-. cbn.
  split; [reflexivity|split; [|exists n, k; reflexivity]].
  intros m Hm. apply cg_labels in E. apply E in Hm. lia.
Qed.

Lemma start_ready : forall params p g o fuel i out,
  compile params p = Some g -> plain p = true -> gst o = 0 \/ gst o = -1 ->
  py_run fuel p (call_vars params (gargs o) (gvars o)) = (i, out) ->
  exists e, ready g o i e /\ corr out e /\
    (forall r o1, e = EEnd r -> robj r = Some o1 -> gargs o1 = gargs o).
Proof.
  intros params p g o fuel i out Hc Hp Ho H.
  destruct (compile_parts _ _ _ Hc) as (G1 & G2 & n & k & G3).
  destruct (sim fuel p false false 1 0 (gcode g) n k G3 Hp (at_start g o) i out) as (e & R & C).
  - unfold at_start. cbn. rewrite G1. exact H.
  - exists e. split; [right; split; assumption|split; [exact C|]].
    intros r o1 He Hr. change (gargs o) with (gargs (at_start g o)).
    eapply (run_rel (fun a b => gargs b = gargs a)) with (c := gcode g); eauto.
    + intros; congruence.
    + intros; eapply exec_args; eauto.
Qed.

(** ** What the compiler takes *)

Lemma codable_compiles : forall p f l n k, codable f l p = true ->
  exists c n' k', codegen f l p n k = Some (c, n', k') /\ cpp_accepts c = true /\ declares c = false.
Proof.
  induction p as [|x e|x e|e|a IHa b IHb|t a IHa b IHb|t b IHb|x lo hi st b IHb|e| |];
    intros f l n k H; cbn [codable] in H; cbn [codegen].
  - eexists _, _, _; split; [reflexivity|split; reflexivity].
  - destruct f; [discriminate|]. eexists _, _, _; split; [reflexivity|split; reflexivity].
  - eexists _, _, _; split; [reflexivity|split; reflexivity].
  - eexists _, _, _; split; [reflexivity|split; reflexivity].
  - apply andb_prop in H. destruct H as [Ha Hb].
    destruct (IHa _ _ n k Ha) as (ca & n1 & k1 & E1 & A1 & D1). rewrite E1.
    destruct (IHb _ _ n1 k1 Hb) as (cb & n2 & k2 & E2 & A2 & D2). rewrite E2.
    eexists _, _, _. split; [reflexivity|]. cbn. rewrite A1, A2, D1, D2. auto.
  - apply andb_prop in H. destruct H as [Ha Hb].
    destruct (IHa _ _ n k Ha) as (ca & n1 & k1 & E1 & A1 & D1). rewrite E1.
    destruct (IHb _ _ n1 k1 Hb) as (cb & n2 & k2 & E2 & A2 & D2). rewrite E2.
    eexists _, _, _. split; [reflexivity|]. cbn. rewrite A1, A2. auto.
  - destruct (IHb _ _ n k H) as (cb & n2 & k2 & E2 & A2 & D2). rewrite E2.
    eexists _, _, _. split; [reflexivity|]. cbn. auto.
  - apply andb_prop in H. destruct H as [Hf Hb]. destruct f; [discriminate|].
    destruct (IHb _ _ n (S k) Hb) as (cb & n2 & k2 & E2 & A2 & D2). rewrite E2.
    eexists _, _, _. split; [reflexivity|]. destruct lo, hi; cbn; rewrite A2; auto.
  - eexists _, _, _; split; [reflexivity|split; reflexivity].
  - rewrite H. eexists _, _, _; split; [reflexivity|split; reflexivity].
  - rewrite H. eexists _, _, _; split; [reflexivity|split; reflexivity].
Qed.

Lemma nested_none : forall p f l n k, nested_for f p = true -> codegen f l p n k = None.
Proof.
  induction p as [|x e|x e|e|a IHa b IHb|t a IHa b IHb|t b IHb|x lo hi st b IHb|e| |];
    intros f l n k H; cbn [nested_for] in H; try discriminate; cbn [codegen].
  - apply orb_prop in H. destruct H as [H|H].
    + rewrite (IHa _ _ _ _ H). reflexivity.
    + destruct (codegen f l a n k) as [[[ca n1] k1]|]; [|reflexivity]. rewrite (IHb _ _ _ _ H). reflexivity.
  - apply orb_prop in H. destruct H as [H|H].
    + rewrite (IHa _ _ _ _ H). reflexivity.
    + destruct (codegen f l a n k) as [[[ca n1] k1]|]; [|reflexivity]. rewrite (IHb _ _ _ _ H). reflexivity.
  - rewrite (IHb _ _ _ _ H). reflexivity.
  - destruct f; [reflexivity|]. cbn in H. rewrite (IHb _ _ _ _ H). reflexivity.
Qed.

Lemma yields_labels : forall p f l n k c n' k',
  codegen f l p n k = Some (c, n', k') -> yields p = true -> labels c <> [].
Proof.
  induction p as [|x e|x e|e|a IHa b IHb|t a IHa b IHb|t b IHb|x lo hi st b IHb|e| |];
    intros f l n k c n' k' H Hy; cbn [yields] in Hy; try discriminate; cbn [codegen] in H.
  - injection H as <- <- <-. discriminate.
  - destruct (codegen f l a n k) as [[[ca n1] k1]|] eqn:Ea; [|discriminate].
    destruct (codegen f l b n1 k1) as [[[cb n2] k2]|] eqn:Eb; [|discriminate].
    injection H as <- <- <-. cbn. intros E. apply app_eq_nil in E. destruct E as [E1 E2].
    apply orb_prop in Hy. destruct Hy as [Hy|Hy]; [eapply IHa|eapply IHb]; eauto.
  - destruct (codegen f l a n k) as [[[ca n1] k1]|] eqn:Ea; [|discriminate].
    destruct (codegen f l b n1 k1) as [[[cb n2] k2]|] eqn:Eb; [|discriminate].
    injection H as <- <- <-. cbn. intros E. apply app_eq_nil in E. destruct E as [E1 E2].
    apply orb_prop in Hy. destruct Hy as [Hy|Hy]; [eapply IHa|eapply IHb]; eauto.
  - destruct (codegen f true b n k) as [[[cb n1] k1]|] eqn:Eb; [|discriminate].
    injection H as <- <- <-. exact (IHb _ _ _ _ _ _ _ Eb Hy).
  - destruct f; [discriminate|].
    destruct (codegen true true b n (S k)) as [[[cb n1] k1]|] eqn:Eb; [|discriminate].
    injection H as <- <- <-. destruct lo, hi; exact (IHb _ _ _ _ _ _ _ Eb Hy).
Qed.

Lemma local_none : forall params y lo hi st x e b,
  yields b = true -> compile params (SFor y lo hi st (SSeq (SDecl x e) b)) = None.
Proof.
  intros params y lo hi st x e b Hy. unfold compile. cbn [codegen].
  destruct (codegen true true b 1 1) as [[[cb n1] k1]|] eqn:Eb; [|reflexivity].
  pose proof (yields_labels _ _ _ _ _ _ _ _ Eb Hy) as L.
  destruct (labels cb) as [|m ms] eqn:El; [contradiction|].
  destruct lo, hi; cbn; rewrite El, ?andb_false_r; reflexivity.
Qed.

(** ** Two small generators *)

Definition count_up : stmt := SFor 1 (BConst 0) (BVar 0) 1 (SYield (fun s => inl (s 1%nat))).

Lemma count_up_items : forall l s f, exists s',
  py_each (py_run (S f) (SYield (fun s => inl (s 1%nat)))) 1 l s = (l, PNormal s').
Proof.
  induction l as [|v l IH]; intros s f; [eexists; reflexivity|].
  destruct (IH (upd s 1 v) f) as [s' H]. exists s'. cbn [py_each]. cbn [py_run].
  cbn [py_run] in H. rewrite H. reflexivity.
Qed.

Definition one_return : stmt := SSeq (SYield (fun _ => inl 1)) (SReturn (fun _ => inl 0)).

Lemma one_return_turns : forall f g k o,
  (3 <= f)%nat -> compile [] one_return = Some g -> gst o = 1 -> gval o = 1 ->
  turns f g k o = (repeat 1 k, LLeft o).
Proof.
  intros f g k o Hf Hg Hs Hv. injection Hg as <-.
  assert (N : next f {| gparams := []; gcode := CSeq (CYield 1 (fun _ => inl 1)) (CReturn (fun _ => inl 0)) |} o
              = NRet 0 o).
  { rewrite (next_goto f _ o 1%nat); [|left; reflexivity|exact Hs].
    destruct f as [|[|[|f]]]; try lia. reflexivity. }
  induction k as [|k IH]; cbn [turns]; rewrite Hs; cbn [Z.eqb]; [reflexivity|].
  rewrite N, IH, Hv. reflexivity.
Qed.
