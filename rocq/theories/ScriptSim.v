From Verif Require Import Base IntModel IntProofs KeyModel FoldModel FoldSpec FloatAux FoldProofs
  ScriptAst ScriptSpec ScriptModel ScriptProofs.

(** ** Scopes *)
Definition vis (x : nat) (l : list scope) (v : nat) (t : pty) : Prop := exists fl, lookup x l = Some (fl, (v, t)).
Lemma lookup_flag b b' x l fl e : lookup_from b x l = Some (fl, e) -> exists fl', lookup_from b' x l = Some (fl', e).
Proof.
  revert b b'. induction l as [|s l IH]; intros b b'; cbn [lookup_from]; [discriminate|].
  destruct (sfind x s); [intros [= <- <-]; eauto|apply IH].
Qed.
Lemma lookup_none b b' x l : lookup_from b x l = None -> lookup_from b' x l = None.
Proof.
  intros H. destruct (lookup_from b' x l) as [[fl e]|] eqn:Q; [|reflexivity]. destruct (lookup_flag _ b _ _ _ _ Q). congruence.
Qed.
Lemma vis_cons x s l v t : vis x (s :: l) v t <-> sfind x s = Some (v, t) \/ (sfind x s = None /\ vis x l v t).
Proof.
  unfold vis, lookup. cbn [lookup_from]. destruct (sfind x s) as [e|].
  - split; [intros [fl [= <- ->]]; auto|]. intros [[= ->]|[K _]]; [eauto|discriminate].
  - split.
    + intros [fl H]. right. split; [reflexivity|]. eapply lookup_flag, H.
    + intros [K|[_ [fl H]]]; [discriminate|]. eapply lookup_flag, H.
Qed.
Lemma vis_fun x l v t v' t' : vis x l v t -> vis x l v' t' -> v = v' /\ t = t'.
Proof. intros [fl H] [fl' H']. rewrite H in H'. injection H'. auto. Qed.
Lemma lookup_vis x l : lookup x l = None <-> forall v t, ~ vis x l v t.
Proof.
  split; [intros H v t [fl K]; congruence|]. intros H. destruct (lookup x l) as [[fl [v t]]|] eqn:Q; [|reflexivity].
  destruct (H v t). exists fl. exact Q.
Qed.

Definition fresh (l : list scope) (k : nat) : Prop := forall x v t, vis x l v t -> (v < k)%nat.
Definition inj (l : list scope) : Prop := forall x y v t u, vis x l v t -> vis y l v u -> x = y.
(** no name of an inner scope hides a name of an outer scope *)
Fixpoint nosh (l : list scope) : Prop :=
  match l with
  | [] => True
  | s :: l => (forall x e, sfind x s = Some e -> lookup x l = None) /\ nosh l
  end.
Definition inv (l : list scope) (k : nat) : Prop := fresh l k /\ inj l /\ nosh l.

Lemma vis_outer s l x v t : nosh (s :: l) -> vis x l v t -> vis x (s :: l) v t.
Proof.
  intros [N _] V. apply vis_cons. destruct (sfind x s) as [e|] eqn:Q; [|auto].
  apply N in Q. rewrite lookup_vis in Q. destruct (Q v t V).
Qed.
Lemma inv_outer s l k : inv (s :: l) k -> inv l k.
Proof.
  intros (F & J & N). split; [|split; [|apply N]].
  - intros x v t V. eapply F, vis_outer; eassumption.
  - intros x y v t u V W. eapply J; eapply vis_outer; eassumption.
Qed.
Lemma vis_nil x l v t : vis x ([] :: l) v t <-> vis x l v t.
Proof. rewrite vis_cons. cbn. split; [intros [K|[_ K]]; [discriminate|exact K]|auto]. Qed.
Lemma inv_nil l k : inv l k -> inv ([] :: l) k.
Proof.
  intros (F & J & N). split; [|split].
  - intros x v t V. rewrite vis_nil in V. eapply F, V.
  - intros x y v t u V W. rewrite vis_nil in V, W. eapply J; eassumption.
  - split; [discriminate|exact N].
Qed.
Lemma inv_mono l k k' : (k <= k')%nat -> inv l k -> inv l k'.
Proof. intros L (F & J & N). split; [|auto]. intros x v t V. apply F in V. lia. Qed.
(** a new variable for a name not in the outer scopes *)
Lemma inv_new x t s l k : inv (s :: l) k -> lookup x l = None -> inv (((x, (k, t)) :: s) :: l) (S k).
Proof.
  intros (F & J & N) L.
  assert (V : forall y v u, vis y (((x, (k, t)) :: s) :: l) v u -> (y = x /\ v = k) \/ (y <> x /\ vis y (s :: l) v u)).
  { intros y v u. rewrite !vis_cons. cbn [sfind]. destruct (Nat.eqb y x) eqn:Q.
    - apply Nat.eqb_eq in Q. intros [[= <- <-]|[K _]]; [auto|discriminate].
    - apply Nat.eqb_neq in Q. auto. }
  split; [|split].
  - intros y v u K. destruct (V _ _ _ K) as [[_ ->]|[_ W]]; [lia|]. apply F in W. lia.
  - intros y z v u w K1 K2. destruct (V _ _ _ K1) as [[-> ->]|[_ W1]], (V _ _ _ K2) as [[-> E2]|[_ W2]]; auto.
    + apply F in W2. lia.
    + apply F in W1. lia.
    + eapply J; eassumption.
  - split; [|apply N]. intros y e. cbn [sfind]. destruct (Nat.eqb y x) eqn:Q; [|apply N].
    apply Nat.eqb_eq in Q. subst y. auto.
Qed.

Section Sim.
Variables (n : nat) (same : expr -> expr -> bool) (glob : nat -> option pval) (loc : nat -> bool) (rt : pty).
Hypothesis GL : forall x, loc x = true -> glob x = None.
Notation live := (fun _ : nat => true).
Notation compile_s := (compile_s same glob live rt).
Notation compile_b := (compile_b same glob live rt).

(** the scopes after a statement *)
Lemma assign_static cur outer k i x e c cur' k' : assign live cur outer k i x e = Ok (c, cur', k') -> inv (cur :: outer) k ->
  (k <= k')%nat /\ inv (cur' :: outer) k' /\ (forall y v t, vis y (cur' :: outer) v t -> vis y (cur :: outer) v t \/ (k <= v < k')%nat).
Proof.
  unfold assign. intros A V. apply bind_ok in A. destruct A as (t & _ & A).
  assert (NEW : lookup x outer = None -> Ok (CDecl k t e, (x, (k, t)) :: cur, S k) = Ok (c, cur', k') ->
    (k <= k')%nat /\ inv (cur' :: outer) k' /\ (forall y v t, vis y (cur' :: outer) v t -> vis y (cur :: outer) v t \/ (k <= v < k')%nat)).
  { intros L [= <- <- <-]. split; [lia|]. split; [apply inv_new; assumption|]. intros y v u. rewrite !vis_cons. cbn [sfind].
    destruct (Nat.eqb y x); [|auto]. intros [[= <- <-]|[K _]]; [right; lia|discriminate]. }
  destruct (lookup x (cur :: outer)) as [[inner [v u]]|] eqn:L.
  - destruct (convertible t u).
    + injection A as <- <- <-. split; [lia|]. auto.
    + rewrite orb_false_r in A. destruct inner; [|discriminate]. apply NEW; [|exact A].
      unfold lookup in L. cbn [lookup_from] in L. destruct (sfind x cur) eqn:Q.
      * destruct V as (_ & _ & N). eapply N, Q.
      * exfalso. clear - L. assert (H : forall l e, lookup_from false x l = Some (true, e) -> False).
        { induction l as [|s l IH]; intros e; cbn [lookup_from]; [discriminate|]. destruct (sfind x s); [discriminate|apply IH]. }
        eapply H, L.
  - apply NEW; [|exact A]. unfold lookup in L. cbn [lookup_from] in L. destruct (sfind x cur); [discriminate|]. eapply lookup_none, L.
Qed.
Lemma bound_le k p g x k1 : bound k p = Ok (g, x, k1) -> (k <= k1)%nat.
Proof. unfold bound. destruct p as [[]|]; try discriminate; intros [= <- <- <-]; lia. Qed.

Lemma static : (forall s cur outer k c cur' k', compile_s cur outer k s = Ok (c, cur', k') -> inv (cur :: outer) k ->
    (k <= k')%nat /\ inv (cur' :: outer) k' /\ (forall y v t, vis y (cur' :: outer) v t -> vis y (cur :: outer) v t \/ (k <= v < k')%nat)) /\
  (forall b cur outer k c k', compile_b cur outer k b = Ok (c, k') -> inv (cur :: outer) k -> (k <= k')%nat).
Proof.
  assert (SAME : forall cur outer k k', (k <= k')%nat -> inv (cur :: outer) k ->
    (k <= k')%nat /\ inv (cur :: outer) k' /\ (forall y v t, vis y (cur :: outer) v t -> vis y (cur :: outer) v t \/ (k <= v < k')%nat)).
  { intros. split; [assumption|]. split; [eapply inv_mono; eassumption|auto]. }
  apply pstmt_ind2.
  - intros cur outer k c cur' k' [= <- <- <-]. apply SAME. lia.
  - intros i x e cur outer k c cur' k' C. cbn [ScriptModel.compile_s] in C. apply bind_ok in C. destruct C as (p & _ & A). eapply assign_static, A.
  - intros i x o e cur outer k c cur' k' C. cbn [ScriptModel.compile_s] in C. apply bind_ok in C. destruct C as (p & _ & A). eapply assign_static, A.
  - intros e a IHa b IHb cur outer k c cur' k' C V. cbn [ScriptModel.compile_s] in C. fold compile_b in C. apply bind_ok in C. destruct C as (q & _ & C).
    apply bind_ok in C. destruct C as ([ca k1] & C1 & C). apply bind_ok in C. destruct C as ([cb k2] & C2 & C). injection C as <- <- <-.
    apply IHa in C1; [|apply inv_nil, V]. apply IHb in C2; [|apply inv_nil; eapply inv_mono; eassumption]. apply SAME; [lia|exact V].
  - intros e a IHa b IHb cur outer k c cur' k' C V. cbn [ScriptModel.compile_s] in C. destruct (isnil b); [|discriminate].
    apply bind_ok in C. destruct C as (q & _ & C). apply bind_ok in C. destruct C as (q' & _ & C).
    apply bind_ok in C. destruct C as ([ca k1] & C1 & C). injection C as <- <- <-. apply IHa in C1; [|apply inv_nil, V]. apply SAME; assumption.
  - intros x r a IHa b IHb cur outer k c cur' k' C V. cbn [ScriptModel.compile_s] in C.
    destruct (lookup x (cur :: outer)) eqn:L; [discriminate|]. apply bind_ok in C. destruct C as ([[pa pb] pc] & _ & C).
    apply bind_ok in C. destruct C as ([ca k1] & C1 & C). apply bind_ok in C. destruct C as ([[ga xa] k2] & C2 & C).
    apply bind_ok in C. destruct C as ([[gb xb] k3] & C3 & C). apply bind_ok in C. destruct C as ([[gc xc] k4] & C4 & C). injection C as <- <- <-.
    apply bound_le in C2, C3, C4. apply IHa in C1; [apply SAME; [lia|exact V]|].
    apply inv_new; [|exact L]. apply inv_nil. eapply inv_mono; [|exact V]. lia.
  - intros cur outer k c cur' k' [= <- <- <-]. apply SAME. lia.
  - intros cur outer k c cur' k' [= <- <- <-]. apply SAME. lia.
  - intros e cur outer k c cur' k' C. cbn [ScriptModel.compile_s] in C. apply bind_ok in C. destruct C as (p & _ & C). apply bind_ok in C. destruct C as (t & _ & C).
    destruct (convertible t rt); [|discriminate]. injection C as <- <- <-. apply SAME. lia.
  - intros x cur outer k c cur' k' [= <- <- <-]. apply SAME. lia.
  - intros b IHb h hd IHh els _ fin _ cur outer k c cur' k' C V. cbn [ScriptModel.compile_s] in C.
    apply bind_ok in C. destruct C as ([ca k1] & C1 & C). apply bind_ok in C. destruct C as ([cb k2] & C2 & C). injection C as <- <- <-.
    apply IHb in C1; [|apply inv_nil, V]. apply IHh in C2; [|apply inv_nil, inv_nil; eapply inv_mono; eassumption]. apply SAME; [lia|exact V].
  - intros cur outer k c k' [= <- <-] _. lia.
  - intros s IHs b IHb cur outer k c k' C V. cbn [ScriptModel.compile_b] in C. apply bind_ok in C. destruct C as ([[cs cur'] k1] & C1 & C).
    apply bind_ok in C. destruct C as ([cb k2] & C2 & C). injection C as <- <-.
    destruct (IHs _ _ _ _ _ _ C1 V) as (L1 & V1 & _). apply IHb in C2; [lia|exact V1].
Qed.

(** ** Stores *)
Definition R (l : list scope) (E : env) (m : store) : Prop :=
  forall x v t, vis x l v t -> loc x = true /\ exists pv c, E x = Some pv /\ m v = Some c /\ shows t pv c.
Lemma R_outer s l E m : nosh (s :: l) -> R (s :: l) E m -> R l E m.
Proof. intros N H x v t V. eapply H, vis_outer; eassumption. Qed.
Lemma R_nil l E m : R l E m -> R ([] :: l) E m.
Proof. intros H x v t V. rewrite vis_nil in V. eapply H, V. Qed.
Lemma R_look l E m : R l E m -> forall x fl v t, lookup x l = Some (fl, (v, t)) ->
  loc x = true /\ exists pv c, look glob loc E x = Ok pv /\ m v = Some c /\ shows t pv c.
Proof.
  intros H x fl v t L. destruct (H x v t (ex_intro _ fl L)) as (Lx & pv & c & Ex & M & S). split; [exact Lx|].
  exists pv, c. unfold look. rewrite Lx, Ex. auto.
Qed.
Lemma R_glob E (l : list scope) x c : lookup x l = None -> glob x = Some c -> look glob loc E x = Ok c /\ loc x = false.
Proof.
  intros _ G. destruct (loc x) eqn:Q; [apply GL in Q; congruence|]. unfold look. rewrite Q, G. auto.
Qed.
Lemma R_parse l E m e p : R l E m -> parse same glob l e = Ok p -> good (look glob loc E) m loc e p.
Proof. intros H. apply parse_good; [apply R_look, H|apply R_glob]. Qed.

Lemma supd_same m x c : supd m x c x = Some c. Proof. unfold supd. rewrite Nat.eqb_refl. reflexivity. Qed.
Lemma supd_other m x c y : y <> x -> supd m x c y = m y.
Proof. intros H. unfold supd. apply Nat.eqb_neq in H. rewrite H. reflexivity. Qed.
Lemma upd_same E x v : upd E x v x = Some v. Proof. unfold upd. rewrite Nat.eqb_refl. reflexivity. Qed.

(** variables that are not visible do not matter *)
Lemma R_store l E m m' : R l E m -> (forall x v t, vis x l v t -> m' v = m v) -> R l E m'.
Proof. intros H K x v t V. rewrite (K _ _ _ V). apply H, V. Qed.

(** ** Values *)
Lemma cstore_good E m e p t u : good (look glob loc E) m loc e p -> type_of p = Ok t -> convertible t u = true ->
  match pvalue true glob loc E e with
  | Ok v => exists c, cstore m u p = Ok c /\ shows u v c
  | Exn x => cstore m u p = Exn x
  | UB => True
  | OutOfFuel => False
  end.
Proof.
  intros G T C. assert (NF := value_nofuel glob loc true E e). unfold pvalue in *.
  destruct p as [x|s]; cbn [good type_of] in *.
  - destruct G as (W & _ & _ & V & X & _).
    destruct (peval true (look glob loc E) e) as [v|ex| |] eqn:PE; try exact Logic.I; try congruence.
    + destruct (V v eq_refl) as (z & (ct & Ev & Ty) & N & B). unfold cstore. cbn [ceval]. rewrite Ev. cbn [rmap bind].
      assert (Z64 : range 64 z) by (eapply tyok_range, Ty).
      destruct (dtype_eqb (dt x) DBool) eqn:Q.
      * injection T as <-. apply dtype_eqb_eq in Q. destruct (B ltac:(rewrite Q; discriminate)) as [b ->]. cbn [number] in N. injection N as <-.
        destruct Ty as [(D & _)|[(_ & -> & _)|(D & _)]]; try (rewrite Q in D; discriminate D).
        destruct u; try discriminate C; cbn [cconvert dtype_of cast_val ctype rmap bind].
        -- eexists. split; [reflexivity|]. exists (b2z b). split; [reflexivity|]. split; [destruct b; unfold int64, two63; cbn; lia|]. destruct b; reflexivity.
        -- eexists. split; [reflexivity|]. exists b. split; [reflexivity|]. destruct b; reflexivity.
      * destruct (dtype_eqb (dt x) (DInt 64)) eqn:Q'; [|discriminate]. injection T as <-. destruct u; try discriminate C.
        cbn [cconvert dtype_of cast_val ctype rmap bind]. eexists. split; [reflexivity|]. exists z. split; [exact N|]. split; [apply int64_range, Z64|].
        change (CI true 64) with s64. rewrite conv64 by exact Z64. reflexivity.
    + destruct (calm loc e) eqn:CM; cbn [andb negb]; [|exact Logic.I]. unfold cstore. cbn [ceval]. rewrite (X ex eq_refl eq_refl). reflexivity.
  - destruct G as (V & X). injection T as <-. destruct u; try discriminate C.
    destruct (peval true (look glob loc E) e) as [v|ex| |] eqn:PE; try exact Logic.I; try congruence.
    + destruct (V v eq_refl) as (l & -> & Ev). unfold cstore. cbn [ceval]. rewrite Ev. cbn. eexists. split; [reflexivity|]. exists l. auto.
Qed.
Lemma convertible_refl t : convertible t t = true. Proof. destruct t; reflexivity. Qed.

(** ** Outcomes *)
Definition orel (scN scO : list scope) (fr : store -> Prop) (o : out env pval) (c : cout) : Prop :=
  match o with
  | OScope => True
  | OFuel => c = OFuel
  | ONext E => exists m, c = ONext m /\ R scN E m /\ fr m
  | OBreak E => exists m, c = OBreak m /\ R scO E m /\ fr m
  | OContinue E => exists m, c = OContinue m /\ R scO E m /\ fr m
  | OReturn v _ => exists w m, c = OReturn w m /\ shows rt v w
  | ORaise x E => exists m, c = ORaise x m /\ R scO E m /\ fr m
  end.
Lemma orel_mono scN scO scN' scO' (fr fr' : store -> Prop) o c :
  (forall E m, R scN E m -> R scN' E m) -> (forall E m, R scO E m -> R scO' E m) -> (forall m, fr m -> fr' m) ->
  orel scN scO fr o c -> orel scN' scO' fr' o c.
Proof.
  intros A B F. destruct o; cbn; auto.
  - intros (m & -> & X & Y). exists m. auto.
  - intros (m & -> & X & Y). exists m. auto.
  - intros (m & -> & X & Y). exists m. auto.
  - intros (m & -> & X & Y). exists m. auto.
Qed.
(** what a block may write: the visible variables and those numbered from k to k' *)
Definition cframe (k k' : nat) (l : list scope) (m m' : store) : Prop :=
  forall v, ~ (k <= v < k')%nat -> (forall x t, ~ vis x l v t) -> m' v = m v.
Lemma cframe_refl k k' l m : cframe k k' l m m. Proof. intros v _ _. reflexivity. Qed.
Lemma cframe_trans k k' l m m' m'' : cframe k k' l m m' -> cframe k k' l m' m'' -> cframe k k' l m m''.
Proof. intros A B v K V. rewrite B, A; auto. Qed.
Lemma cframe_mono k k' j j' l l' m m' : (j <= k)%nat -> (k' <= j')%nat ->
  (forall x v t, vis x l v t -> vis x l' v t \/ (j <= v < j')%nat) -> cframe k k' l m m' -> cframe j j' l' m m'.
Proof.
  intros A B K F v Z V. apply F; [lia|]. intros x t W. destruct (K _ _ _ W) as [W'|]; [exact (V _ _ W')|contradiction].
Qed.
Lemma cframe_upd k k' l m v c : (k <= v < k')%nat \/ (exists x t, vis x l v t) -> cframe k k' l m (supd m v c).
Proof.
  intros H u K V. apply supd_other. intros ->. destruct H as [H|(x & t & H)]; [contradiction|exact (V _ _ H)].
Qed.

Definition sim_s (s : pstmt) : Prop :=
  no_extras_s s = true -> steady_bounds_s loc s = true -> (forall x, memb x (assigned_s s) = true -> loc x = true) ->
  forall cur outer k c cur' k', compile_s cur outer k s = Ok (c, cur', k') -> inv (cur :: outer) k ->
  forall cx E m, R (cur :: outer) E m ->
  orel (cur' :: outer) outer (cframe k k' (cur :: outer) m) (pexec_s true n glob loc cx s E) (cexec_s n cx c m).
Definition sim_b (b : pblock) : Prop :=
  no_extras b = true -> steady_bounds loc b = true -> (forall x, memb x (assigned b) = true -> loc x = true) ->
  forall cur outer k c k', compile_b cur outer k b = Ok (c, k') -> inv (cur :: outer) k ->
  forall cx E m, R (cur :: outer) E m ->
  orel outer outer (cframe k k' (cur :: outer) m) (pexec true n glob loc cx b E) (cexec n cx c m).

Lemma assign_sim cur outer k i x e p c cur' k' : loc x = true ->
  parse same glob (cur :: outer) e = Ok p -> assign live cur outer k i x p = Ok (c, cur', k') -> inv (cur :: outer) k ->
  forall cx E m, R (cur :: outer) E m ->
  orel (cur' :: outer) outer (cframe k k' (cur :: outer) m)
    (withv E (pvalue true glob loc E e) (fun v => ONext (upd E x v))) (cexec_s n cx c m).
Proof.
  intros Lx P A V cx E m H. assert (G := R_parse _ _ _ _ _ H P). destruct (assign_static _ _ _ _ _ _ _ _ _ A V) as (L & V' & W).
  unfold assign in A. apply bind_ok in A. destruct A as (t & T & A).
  assert (RO : R outer E m) by (eapply R_outer; [apply V|exact H]).
  (* a declaration *)
  assert (NEW : Ok (CDecl k t p, (x, (k, t)) :: cur, S k) = Ok (c, cur', k') ->
    orel (cur' :: outer) outer (cframe k k' (cur :: outer) m)
      (withv E (pvalue true glob loc E e) (fun v => ONext (upd E x v))) (cexec_s n cx c m)).
  { intros [= <- <- <-]. assert (S := cstore_good E m e p t t G T (convertible_refl t)). cbn [cexec_s].
    destruct (pvalue true glob loc E e) as [v|ex| |]; cbn [withv]; try exact Logic.I; try contradiction.
    - destruct S as (w & -> & Sw). cbn [withc]. exists (supd m k w). split; [reflexivity|]. split.
      + intros y u s. rewrite vis_cons. cbn [sfind]. destruct (Nat.eqb y x) eqn:Q.
        * apply Nat.eqb_eq in Q. subst y. intros [[= <- <-]|[K _]]; [|discriminate]. split; [exact Lx|]. exists v, w. rewrite upd_same, supd_same. auto.
        * intros Y. assert (Y' : vis y (cur :: outer) u s) by (apply vis_cons; exact Y). destruct (H _ _ _ Y') as (Ly & pv & cc & X1 & X2 & X3).
          split; [exact Ly|]. exists pv, cc. rewrite upd_other by exact Q. assert (u < k)%nat by (eapply V, Y'). rewrite supd_other by lia. auto.
      + apply cframe_upd. left. lia.
    - rewrite S. cbn [withc]. exists m. split; [reflexivity|]. split; [exact RO|apply cframe_refl]. }
  destruct (lookup x (cur :: outer)) as [[inner [v u]]|] eqn:LK; [|apply NEW, A].
  destruct (convertible t u) eqn:CV; [|rewrite orb_false_r in A; destruct inner; [apply NEW, A|discriminate]].
  injection A as <- <- <-. assert (S := cstore_good E m e p t u G T CV). cbn [cexec_s].
  assert (VX : vis x (cur :: outer) v u) by (exists inner; exact LK).
  destruct (pvalue true glob loc E e) as [pv|ex| |]; cbn [withv]; try exact Logic.I; try contradiction.
  - destruct S as (w & -> & Sw). cbn [withc]. exists (supd m v w). split; [reflexivity|]. split.
    + intros y v' s Y. destruct (Nat.eqb y x) eqn:Q.
      * apply Nat.eqb_eq in Q. subst y. destruct (vis_fun _ _ _ _ _ _ VX Y) as [<- <-]. split; [exact Lx|]. exists pv, w. rewrite upd_same, supd_same. auto.
      * destruct (H _ _ _ Y) as (Ly & pv' & cc & X1 & X2 & X3). split; [exact Ly|]. exists pv', cc. rewrite upd_other by exact Q.
        rewrite supd_other; [auto|]. intros ->. apply Nat.eqb_neq in Q. apply Q. eapply V; eassumption.
    + apply cframe_upd. right. eauto.
  - rewrite S. cbn [withc]. exists m. split; [reflexivity|]. split; [exact RO|apply cframe_refl].
Qed.

(** ** The bounds of a loop *)
Definition pint_value (E : env) (e : pexp) : res Z := let! v := pvalue true glob loc E e in pint_of v.

Lemma build_compound o x y r : wf x -> wf y -> dt x = DInt 64 \/ dt y = DInt 64 -> pint x = None ->
  pint y = None \/ ((o = PAdd \/ o = PSub) /\ exists z, z <> 0 /\ y = EInt (DInt 64) z) ->
  build same (ScriptModel.arith_op o) x y = Ok r -> exists a b, r = EBin (ScriptModel.arith_op o) a b.
Proof.
  intros Wx Wy D Px Py B. rewrite build_arith in B. apply bind_ok in B. destruct B as ([x' y'] & M & B).
  destruct (match_keeps (fun _ => UB) x y x' y' Wx Wy M) as ((_ & _ & K3) & (_ & _ & L3) & Wx' & Wy' & _ & _ & _).
  assert (Px' : pint x' = None).
  { destruct (pint x') eqn:Q; [|reflexivity]. rewrite (K3 _ eq_refl) in Px. discriminate. }
  assert (Fx : pflt x' = None) by (apply pflt_none; destruct (proj1 Wx') as [-> | [-> | ->]]; discriminate).
  assert (Fy : pflt y' = None) by (apply pflt_none; destruct (proj1 Wy') as [-> | [-> | ->]]; discriminate).
  assert (Ix : forall k, isint x' k = false) by (intros k; destruct x'; try reflexivity; discriminate Px').
  assert (Gx : forall k, isflt x' k = false) by (intros k; destruct x'; try reflexivity; discriminate Fx).
  assert (Gy : forall k, isflt y' k = false) by (intros k; destruct y'; try reflexivity; discriminate Fy).
  apply bind_ok in B. destruct B as (ro & F & [= <-]).
  assert (RO : ro = None).
  { destruct Py as [Py|[O (z & Z & ->)]].
    - assert (Py' : pint y' = None).
      { destruct (pint y') eqn:Q; [|reflexivity]. rewrite (L3 _ eq_refl) in Py. discriminate. }
      assert (Iy : forall k, isint y' k = false) by (intros k; destruct y'; try reflexivity; discriminate Py').
      destruct o; cbn [ScriptModel.arith_op fold] in F; unfold fold_add, fold_sub, fold_mul, fold_floordiv, fold_floormod in F;
       rewrite ?Px', ?Ix, ?Iy, ?Fx, ?Gx, ?Gy in F; try congruence. destruct (is_index (dt x') && is_index (dt y')); congruence.
    - assert (Iy : isint y' 0 = false).
      { destruct y' as [d v| | | | | | |]; try reflexivity. cbn. specialize (L3 v eq_refl). cbn in L3. injection L3 as ->. apply Z.eqb_neq, Z. }
      destruct O as [-> | ->]; cbn [ScriptModel.arith_op fold] in F; unfold fold_add, fold_sub in F;
       rewrite ?Px', ?Ix, ?Iy, ?Fx, ?Gx, ?Gy in F; congruence. }
  subst ro. cbn [or_node]. eauto.
Qed.
Lemma parse_compound l E m e p : R l E m -> compound loc e = true -> parse same glob l e = Ok (CP p) -> exists o a b, p = EBin o a b.
Proof.
  intros H C P. destruct e as [| | | |o a b| | | | | |]; try discriminate C. cbn [parse] in P.
  apply bind_ok in P. destruct P as (pa & Pa & P). apply bind_ok in P. destruct P as (pb & Pb & P).
  assert (Ga := R_parse _ _ _ _ _ H Pa). assert (Gb := R_parse _ _ _ _ _ H Pb).
  destruct pa as [x|], pb as [y|]; try discriminate P; [|destruct o; discriminate P].
  destruct (dtype_eqb (dt x) (DInt 64) || dtype_eqb (dt y) (DInt 64)) eqn:D; [|discriminate].
  assert (D' : dt x = DInt 64 \/ dt y = DInt 64) by (apply orb_prop in D; destruct D as [D|D]; apply dtype_eqb_eq in D; auto).
  apply rmap_ok in P. destruct P as (r & P & [= ->]). cbn [good] in Ga, Gb.
  destruct Ga as (Wa & Fa & _), Gb as (Wb & Fb & Zb & _).
  assert (Q : firm loc a = true /\ (firm loc b = true \/ ((o = PAdd \/ o = PSub) /\ exists z, z <> 0 /\ b = XInt z))).
  { destruct o; cbn [compound] in C; try (apply andb_prop in C; destruct C; auto; fail).
    - destruct b; apply andb_prop in C; destruct C as [C1 C2]; auto. split; [exact C1|]. right. split; [auto|]. exists z. split; [|reflexivity].
      intros ->. discriminate.
    - destruct b; apply andb_prop in C; destruct C as [C1 C2]; auto. split; [exact C1|]. right. split; [auto|]. exists z. split; [|reflexivity].
      intros ->. discriminate. }
  destruct Q as [Q1 Q2].
  destruct (build_compound o x y r Wa Wb D' (Fa Q1)) as (u & v & ->); [|exact P|eauto].
  destruct Q2 as [Q2|(O & z & Z & ->)]; [left; apply Fb, Q2|]. right. split; [exact O|]. exists z. split; [exact Z|]. apply Zb. reflexivity.
Qed.

Lemma bound_sim l k p g x k1 e : parse same glob l e = Ok p -> bound k p = Ok (g, x, k1) -> fresh l k ->
  forall cx E m, R l E m ->
  match pint_value E e with
  | Ok z => wf x /\ exists m1, cexec_s n cx g m = ONext m1 /\ (forall v, ~ (k <= v < k1)%nat -> m1 v = m v) /\
      (forall E' m', R l E' m' -> (forall v, (k <= v < k1)%nat -> m' v = m1 v) ->
         compound loc e = true \/ (forall y, memb y (names e) = true -> E' y = E y) -> den (cleaf m') x z)
  | Exn ex => cexec_s n cx g m = ORaise ex m
  | UB => True
  | OutOfFuel => False
  end.
Proof.
  intros P B F cx E m H. assert (G := R_parse _ _ _ _ _ H P). unfold pint_value.
  destruct p as [q|s]; [|discriminate B]. pose proof G as G0. cbn [good] in G0. destruct G0 as (W & _ & _ & V & X & _).
  assert (T : exists t, type_of (CP q) = Ok t /\ convertible t TI = true \/ dt q = DInt 32).
  { cbn [type_of]. destruct (proj1 W) as [-> | [-> | ->]]; [exists TI; left; split; reflexivity|exists TB; left; split; reflexivity|exists TI; right; reflexivity]. }
  (* the value stays when the names keep theirs *)
  assert (KEEP : forall v z, pvalue true glob loc E e = Ok v -> number v = Some z -> forall E' m', R l E' m' ->
     (forall y, memb y (names e) = true -> E' y = E y) -> den (cleaf m') q z).
  { intros v z PV N E' m' H' NM. assert (G' := R_parse _ _ _ _ _ H' P). cbn [good] in G'. destruct G' as (_ & _ & _ & V' & _).
    unfold pvalue in PV. destruct (peval true (look glob loc E) e) as [v0|ex| |] eqn:PE; try discriminate PV; [|destruct (true && negb (calm loc e)); discriminate PV].
    injection PV as ->. destruct (V' v) as (z' & D & N' & _).
    - rewrite <- PE. apply eval_names. intros y Y. unfold look. rewrite (NM y Y). reflexivity.
    - rewrite N in N'. injection N' as ->. exact D. }
  assert (NUM : forall v, pvalue true glob loc E e = Ok v -> exists z, number v = Some z /\ den (cleaf m) q z).
  { intros v PV. unfold pvalue in PV. destruct (peval true (look glob loc E) e) as [v0|ex| |] eqn:PE; try discriminate PV; [|destruct (true && negb (calm loc e)); discriminate PV].
    injection PV as ->. destruct (V v eq_refl) as (z & D & N & _). eauto. }
  assert (EXC : forall ex, pvalue true glob loc E e = Exn ex -> eval (cleaf m) q = Exn ex).
  { intros ex PV. unfold pvalue in PV. destruct (peval true (look glob loc E) e) as [v0|ex'| |] eqn:PE; try discriminate PV.
    destruct (calm loc e) eqn:CM; [|discriminate PV]. injection PV as ->. apply X; reflexivity. }
  assert (NF := value_nofuel glob loc true E e).
  (* literals and variables *)
  assert (PLAIN : (exists d v, q = EInt d v) \/ (exists d v, q = ELeaf d v) -> Ok (CSeq CNil, q, k) = Ok (g, x, k1) ->
    match (let! v := pvalue true glob loc E e in pint_of v) with
    | Ok z => wf x /\ exists m1, cexec_s n cx g m = ONext m1 /\ (forall v, ~ (k <= v < k1)%nat -> m1 v = m v) /\
        (forall E' m', R l E' m' -> (forall v, (k <= v < k1)%nat -> m' v = m1 v) ->
           compound loc e = true \/ (forall y, memb y (names e) = true -> E' y = E y) -> den (cleaf m') x z)
    | Exn ex => cexec_s n cx g m = ORaise ex m
    | UB => True
    | OutOfFuel => False
    end).
  { intros Sh [= <- <- <-]. destruct (pvalue true glob loc E e) as [v|ex| |] eqn:PV; cbn [bind]; try exact Logic.I; try congruence.
    - destruct (NUM v eq_refl) as (z & N & D). unfold pint_of. rewrite N. split; [exact W|]. exists m. split; [reflexivity|]. split; [reflexivity|].
      intros E' m' H' _ K. destruct K as [K|K].
      + destruct (parse_compound l E m e q H K P) as (o & a & b & ->). destruct Sh as [(d & w & Sh)|(d & w & Sh)]; discriminate Sh.
      + eapply KEEP; eauto.
    - specialize (EXC ex eq_refl). destruct Sh as [(d & w & ->)|(d & w & ->)]; cbn [eval] in EXC; [discriminate|].
      unfold cleaf in EXC. destruct (m w) as [[]|]; discriminate. }
  (* other expressions are copied *)
  assert (COPY : Ok (CDecl k TI (CP q), ELeaf (DInt 64) k, S k) = Ok (g, x, k1) ->
    match (let! v := pvalue true glob loc E e in pint_of v) with
    | Ok z => wf x /\ exists m1, cexec_s n cx g m = ONext m1 /\ (forall v, ~ (k <= v < k1)%nat -> m1 v = m v) /\
        (forall E' m', R l E' m' -> (forall v, (k <= v < k1)%nat -> m' v = m1 v) ->
           compound loc e = true \/ (forall y, memb y (names e) = true -> E' y = E y) -> den (cleaf m') x z)
    | Exn ex => cexec_s n cx g m = ORaise ex m
    | UB => True
    | OutOfFuel => False
    end).
  { intros [= <- <- <-]. destruct (pvalue true glob loc E e) as [v|ex| |] eqn:PV; cbn [bind]; try exact Logic.I; try congruence.
    - destruct (NUM v eq_refl) as (z & N & (ct & Ev & Ty)). unfold pint_of. rewrite N. split; [split; [left; reflexivity|intros ? K; discriminate K]|].
      assert (Z64 : range 64 z) by (eapply tyok_range, Ty).
      exists (supd m k (CVP (VI s64 z))). split; [|split].
      + cbn [cexec_s]. unfold cstore. cbn [ceval]. rewrite Ev. cbn [rmap bind cconvert dtype_of cast_val ctype]. change (CI true 64) with s64. rewrite conv64 by exact Z64. reflexivity.
      + intros v' K. apply supd_other. lia.
      + intros E' m' _ K _. exists s64. cbn [eval]. unfold cleaf. rewrite (K k) by lia. rewrite supd_same. split; [reflexivity|]. left. auto.
    - cbn [cexec_s]. unfold cstore. cbn [ceval]. rewrite (EXC ex eq_refl). reflexivity. }
  cbn [bound] in B. destruct q; try (apply COPY, B); apply PLAIN; eauto.
Qed.

(** ** range *)
Lemma range_len_turn a b s j : s <> 0 -> 0 <= j -> (j < range_len a b s <-> (if 0 <? s then a + j * s < b else b < a + j * s)).
Proof.
  intros N J. unfold range_len. destruct (Z.ltb_spec 0 s) as [P|P].
  - assert (Q : 0 < s) by lia. pose proof (Z.div_mod (b - a + s - 1) s ltac:(lia)) as DM. pose proof (Z.mod_pos_bound (b - a + s - 1) s Q) as MB.
    set (q := (b - a + s - 1) / s) in *. split; intros K; nia.
  - assert (Q : 0 < - s) by lia. pose proof (Z.div_mod (a - b - s - 1) (- s) ltac:(lia)) as DM. pose proof (Z.mod_pos_bound (a - b - s - 1) (- s) Q) as MB.
    set (q := (a - b - s - 1) / (- s)) in *. split; intros K; nia.
Qed.
Lemma range_len_pos a b s : 0 <= range_len a b s.
Proof. unfold range_len. destruct (0 <? s); lia. Qed.

Lemma tyok_fits' d t z : tyok d t z -> FoldProofs.fits t z. Proof. apply tyok_fits. Qed.
Lemma fits_s64 z : range 64 z -> FoldProofs.fits s64 z. Proof. intros H. right. right. auto. Qed.

Lemma for_cond_ok m t hi st x b s : m t = Some (CVP (VI s64 x)) -> range 64 x -> wf st -> den (cleaf m) hi b -> den (cleaf m) st s -> s <> 0 ->
  for_cond m t hi st = Ok (if 0 <? s then x <? b else b <? x).
Proof.
  intros T X Ws (u & Hu & Tu) Ds N.
  assert (TR : forall c, truthy (vbool c) = c) by (intros []; reflexivity).
  assert (TEST : forall o, is_cmp o = true ->
    (let! x := cleaf m t in let! h := eval (cleaf m) hi in let! r := bin_op o x h in Ok (truthy r)) = Ok (zcmp o x b)).
  { intros o O. unfold cleaf at 1. rewrite T. cbn [bind]. rewrite Hu. cbn [bind bin_op].
    rewrite cmp_int; [|exact O|apply fits_s64, X|eapply tyok_fits, Tu]. cbn [bind]. rewrite TR. reflexivity. }
  unfold for_cond. cbv zeta beta. destruct (pint st) as [v|] eqn:P.
  - rewrite (lit_is _ _ _ _ Ws P Ds) in *. rewrite TEST by (destruct (0 <=? v); reflexivity).
    destruct (Z.leb_spec 0 v), (Z.ltb_spec 0 v); try lia; reflexivity.
  - destruct Ds as (w & Hw & Tw). rewrite Hw. cbn [bind bin_op].
    rewrite cmp_int; [|reflexivity|eapply tyok_fits, Tw|right; left; split; [reflexivity|unfold range; change (32 - 1) with 31; lia]].
    cbn [bind]. rewrite TR. cbn [zcmp]. rewrite !TEST by reflexivity. destruct (0 <? s); reflexivity.
Qed.
Lemma for_next_ok m t st x s : m t = Some (CVP (VI s64 x)) -> range 64 x -> den (cleaf m) st s -> range 64 (x + s) ->
  for_next m t st = Ok (CVP (VI s64 (x + s))).
Proof.
  intros T X (u & Hu & Tu) Y. unfold for_next, cleaf at 1. rewrite T. cbn [bind]. rewrite Hu. cbn [bind bin_op].
  assert (C : common s64 u = s64) by (destruct Tu as [(_ & -> & _)|[(_ & -> & _)|(_ & -> & _)]]; reflexivity).
  unfold int_op. rewrite C, !conv64 by (try exact X; eapply tyok_range, Tu).
  unfold fit, s64. rewrite (proj2 (in_signed_iff 64 (x + s)) Y). cbn [bind cast_val ctype rmap]. change (CI true 64) with s64. rewrite conv64 by exact Y. reflexivity.
Qed.

Lemma seq_cons j k : (j < k)%nat -> seq j (k - j) = j :: seq (S j) (k - S j).
Proof. intros H. replace (k - j)%nat with (S (k - S j)) by lia. reflexivity. Qed.

(** the turns of a for loop: [hi] and [st] keep their values in the states [J] *)
Lemma for_sim (sc : list scope) (fr : store -> Prop) (J : env -> store -> Prop) x t i hi st (pb : env -> out env pval) (cb : store -> cout) a b s :
  s <> 0 -> range 64 a -> range 64 (a + range_len a b s * s) -> wf st ->
  (forall E m, J E m -> R sc E m /\ fr m /\ den (cleaf m) hi b /\ den (cleaf m) st s) ->
  (forall E m z, J E m -> m t = Some (CVP (VI s64 z)) -> range 64 z ->
     match pb (upd E x (VInt z)) with
     | OScope => True
     | OFuel => cb (supd m i (CVP (VI s64 z))) = OFuel
     | ONext E' => exists m', cb (supd m i (CVP (VI s64 z))) = ONext m' /\ m' t = m t /\ J E' m' /\ (forall c, J E' (supd m' t c))
     | OContinue E' => exists m', cb (supd m i (CVP (VI s64 z))) = OContinue m' /\ m' t = m t /\ J E' m' /\ (forall c, J E' (supd m' t c))
     | OBreak E' => exists m', cb (supd m i (CVP (VI s64 z))) = OBreak m' /\ R sc E' m' /\ fr m'
     | OReturn v _ => exists w m', cb (supd m i (CVP (VI s64 z))) = OReturn w m' /\ shows rt v w
     | ORaise ex E' => exists m', cb (supd m i (CVP (VI s64 z))) = ORaise ex m' /\ R sc E' m' /\ fr m'
     end) ->
  forall k j E m, (j <= Z.to_nat (range_len a b s))%nat -> J E m -> m t = Some (CVP (VI s64 (a + Z.of_nat j * s))) ->
  orel sc sc fr (pfor x pb ONext k (map (fun i => a + Z.of_nat i * s) (seq j (Z.to_nat (range_len a b s) - j))) E) (cfor t i hi st cb k m).
Proof.
  intros N A AL W HJ BD. pose proof (range_len_pos a b s) as LP. set (L := range_len a b s) in *.
  assert (RG : forall j, 0 <= j <= L -> range 64 (a + j * s)).
  { intros j Hj. unfold range in *. change (64 - 1) with 63 in *. destruct (Z.lt_trichotomy s 0) as [|[|]]; [|lia|]; nia. }
  induction k as [|k IH]; intros j E m Hj HJ0 T.
  - destruct (HJ _ _ HJ0) as (H & F & Dh & Ds). assert (Rj := RG (Z.of_nat j) ltac:(lia)). cbn [cfor]. rewrite (for_cond_ok m t hi st _ b s T Rj W Dh Ds N).
    pose proof (range_len_turn a b s (Z.of_nat j) N ltac:(lia)) as TU. fold L in TU. destruct (Nat.eq_dec j (Z.to_nat L)) as [->|NE].
    + rewrite Nat.sub_diag. cbn [seq map pfor]. replace (if 0 <? s then a + Z.of_nat (Z.to_nat L) * s <? b else b <? a + Z.of_nat (Z.to_nat L) * s) with false; [cbn [withc]; exists m; auto|].
      destruct (0 <? s); symmetry; apply Z.ltb_ge; lia.
    + rewrite seq_cons by lia. cbn [map pfor]. replace (if 0 <? s then a + Z.of_nat j * s <? b else b <? a + Z.of_nat j * s) with true; [reflexivity|].
      destruct (0 <? s); symmetry; apply Z.ltb_lt, TU; lia.
  - destruct (HJ _ _ HJ0) as (H & F & Dh & Ds). assert (Rj := RG (Z.of_nat j) ltac:(lia)). cbn [cfor]. rewrite (for_cond_ok m t hi st _ b s T Rj W Dh Ds N).
    pose proof (range_len_turn a b s (Z.of_nat j) N ltac:(lia)) as TU. fold L in TU. destruct (Nat.eq_dec j (Z.to_nat L)) as [->|NE].
    + rewrite Nat.sub_diag. cbn [seq map pfor]. replace (if 0 <? s then a + Z.of_nat (Z.to_nat L) * s <? b else b <? a + Z.of_nat (Z.to_nat L) * s) with false; [cbn [withc]; exists m; auto|].
      destruct (0 <? s); symmetry; apply Z.ltb_ge; lia.
    + rewrite seq_cons by lia. cbn [map pfor]. replace (if 0 <? s then a + Z.of_nat j * s <? b else b <? a + Z.of_nat j * s) with true by (destruct (0 <? s); symmetry; apply Z.ltb_lt, TU; lia).
      cbn [withc]. unfold cleaf at 1. rewrite T. cbn [withc]. specialize (BD E m _ HJ0 T Rj).
      assert (STEP : forall E' m', m' t = m t -> J E' m' -> (forall c, J E' (supd m' t c)) ->
        orel sc sc fr (pfor x pb ONext k (map (fun i => a + Z.of_nat i * s) (seq (S j) (Z.to_nat L - S j))) E')
          (withc m' (for_next m' t st) (fun v => cfor t i hi st cb k (supd m' t v)))).
      { intros E' m' T' J' JU. destruct (HJ _ _ J') as (H' & F' & Dh' & Ds'). assert (Rn := RG (Z.of_nat (S j)) ltac:(lia)).
        assert (EQ : a + Z.of_nat j * s + s = a + Z.of_nat (S j) * s) by lia.
        rewrite (for_next_ok m' t st (a + Z.of_nat j * s) s); [|rewrite T'; exact T|exact Rj|exact Ds'|rewrite EQ; exact Rn].
        cbn [withc]. rewrite EQ. apply IH; [lia|apply JU|apply supd_same]. }
      destruct (pb (upd E x (VInt (a + Z.of_nat j * s)))) as [E'|E'|E'|v E'|ex E'| |].
      * destruct BD as (m' & -> & T' & J' & JU). apply STEP; assumption.
      * destruct BD as (m' & -> & H' & F'). exists m'. auto.
      * destruct BD as (m' & -> & T' & J' & JU). apply STEP; assumption.
      * destruct BD as (w & m' & -> & S'). exists w, m'. auto.
      * destruct BD as (m' & -> & H' & F'). exists m'. auto.
      * exact Logic.I.
      * rewrite BD. reflexivity.
Qed.

(** the three bounds of a range *)
Definition ra (r : prange) : pexp := match r with RStop _ => XInt 0 | RStart a _ | RStep a _ _ => a end.
Definition rb (r : prange) : pexp := match r with RStop b | RStart _ b | RStep _ b _ => b end.
Definition rc (r : prange) : pexp := match r with RStep _ _ c => c | _ => XInt 1 end.
Lemma parse_range_ok l r pa pb pc : parse_range same glob l r = Ok (pa, pb, pc) ->
  parse same glob l (ra r) = Ok pa /\ parse same glob l (rb r) = Ok pb /\ parse same glob l (rc r) = Ok pc.
Proof.
  destruct r; cbn [parse_range ra rb rc]; intros P; repeat (apply bind_ok in P; destruct P as (? & ? & P)); injection P as <- <- <-; auto.
Qed.
Lemma pint_lit E z : int64b z = true -> pint_value E (XInt z) = Ok z.
Proof. intros I. unfold pint_value, pvalue. cbn [peval]. unfold within. rewrite I. reflexivity. Qed.
Lemma range_args_ok E r : prange_args true glob loc E r =
  (let! x := pint_value E (ra r) in let! y := pint_value E (rb r) in let! z := pint_value E (rc r) in Ok (x, y, z)).
Proof.
  destruct r; cbn [prange_args ra rb rc]; rewrite ?pint_lit by reflexivity; cbn [bind]; reflexivity.
Qed.
Lemma steady_range_ok r l : steady_range loc r l = true -> steady loc (rb r) l = true /\ steady loc (rc r) l = true.
Proof.
  destruct r; cbn [steady_range rb rc]; intros S; [auto|auto|]. apply andb_prop in S. auto.
Qed.
Lemma steady_names e l (E E' : env) : steady loc e l = true -> (forall y, memb y l = false -> E' y = E y) ->
  compound loc e = true \/ (forall y, memb y (names e) = true -> E' y = E y).
Proof.
  unfold steady. intros S K. apply orb_prop in S. destruct S as [S|S]; [auto|]. right. intros y Y. apply K.
  rewrite forallb_forall in S. apply existsb_exists in Y. destruct Y as (z & I & Z). apply Nat.eqb_eq in Z. subst z. apply negb_true_iff, S, I.
Qed.

Lemma cx_seq3 cx a b c d m : cexec_s n cx (CSeq (CCons a (CCons b (CCons c (CCons d CNil))))) m =
  match cexec_s n cx a m with ONext m => match cexec_s n cx b m with ONext m => match cexec_s n cx c m with ONext m => 
    match cexec_s n cx d m with ONext m => ONext m | o => o end | o => o end | o => o end | o => o end.
Proof. reflexivity. Qed.
Lemma cx_for cx t i lo hi st b m : cexec_s n cx (CFor t i lo hi st b) m =
  withc m (cstore m TI (CP lo)) (fun v => cfor t i hi st (cexec n cx b) n (supd m t v)).
Proof. reflexivity. Qed.
Lemma cx_while cx c b m : cexec_s n cx (CWhile c b) m = cwhile (fun m => eval (cleaf m) c) (cexec n cx b) n m.
Proof. reflexivity. Qed.
Lemma cx_if cx c a b m : cexec_s n cx (CIf c a b) m = withc m (eval (cleaf m) c) (fun v => if truthy v then cexec n cx a m else cexec n cx b m).
Proof. reflexivity. Qed.
Lemma cx_try cx b h m : cexec_s n cx (CTry b h) m = match cexec n cx b m with ORaise x m' => cexec n (Some x) h m' | o => o end.
Proof. reflexivity. Qed.
Lemma cx_cons cx s b m : cexec n cx (CCons s b) m = match cexec_s n cx s m with ONext m' => cexec n cx b m' | o => o end.
Proof. reflexivity. Qed.

Lemma orel_next sc scN fr o c : orel sc sc fr o c -> (forall E m, R sc E m -> R scN E m) -> 
  orel scN sc fr o c.
Proof. intros O K. eapply orel_mono; [exact K| | |exact O]; auto. Qed.
Lemma sim_for x r b els : sim_b b -> sim_s (SFor x r b els).
Proof.
  intros IH NE SB AS cur outer k c cur' k' C V cx E m H. cbn [no_extras_s steady_bounds_s assigned_s] in *.
  apply andb_prop in NE. destruct NE as [NE1 NE2]. destruct els; [|discriminate NE2]. apply andb_prop in SB. destruct SB as [SB _]. apply andb_prop in SB. destruct SB as [SR SB].
  cbn [ScriptModel.compile_s] in C. set (scopes := cur :: outer) in *.
  destruct (lookup x scopes) eqn:LX; [discriminate|]. apply bind_ok in C. destruct C as ([[pa pb] pc] & PR & C).
  apply bind_ok in C. destruct C as ([cb k1] & C1 & C). apply bind_ok in C. destruct C as ([[ga xa] k2] & C2 & C).
  apply bind_ok in C. destruct C as ([[gb xb] k3] & C3 & C). apply bind_ok in C. destruct C as ([[gc xc] k4] & C4 & C). injection C as <- <- <-.
  apply parse_range_ok in PR. destruct PR as (Pa & Pb & Pc). apply steady_range_ok in SR. destruct SR as [Sb Sc].
  pose proof (bound_le _ _ _ _ _ C2) as L2. pose proof (bound_le _ _ _ _ _ C3) as L3. pose proof (bound_le _ _ _ _ _ C4) as L4.
  assert (VB : inv ([(x, (S k, TI))] :: scopes) (S (S k))).
  { apply inv_new; [|exact LX]. apply inv_nil. eapply inv_mono; [|exact V]. lia. }
  pose proof (proj2 static b _ _ _ _ _ C1 VB) as L1.
  assert (FR : forall j, (k <= j)%nat -> fresh scopes j) by (intros j Hj y v t Y; assert (v < k)%nat by (eapply V, Y); lia).
  assert (OUT : forall E m, R scopes E m -> R outer E m) by (intros E0 m0; apply R_outer; apply V).
  assert (SELF : orel scopes outer (cframe k k4 scopes m) (ORaise NameError E) (ORaise NameError m)) by (exists m; split; [reflexivity|]; split; [apply OUT, H|apply cframe_refl]).
  rewrite px_for, range_args_ok. cbn [fst snd]. rewrite cx_seq3.
  (* first bound *)
  assert (Ba := bound_sim scopes k1 pa ga xa k2 (ra r) Pa C2 (FR k1 ltac:(lia)) cx E m H).
  destruct (pint_value E (ra r)) as [a|ex| |]; cbn [bind withv]; try exact Logic.I; try contradiction.
  2:{ rewrite Ba. exists m. split; [reflexivity|]. split; [apply OUT, H|apply cframe_refl]. }
  destruct Ba as (Wa & m1 & -> & F1 & D1).
  assert (H1 : R scopes E m1).
  { eapply R_store; [exact H|]. intros y v t Y. apply F1. assert (v < k)%nat by (eapply V, Y). lia. }
  assert (CF1 : cframe k k4 scopes m m1) by (intros v K _; apply F1; lia).
  assert (Bb := bound_sim scopes k2 pb gb xb k3 (rb r) Pb C3 (FR k2 ltac:(lia)) cx E m1 H1).
  destruct (pint_value E (rb r)) as [b'|ex| |]; cbn [bind withv]; try exact Logic.I; try contradiction.
  2:{ rewrite Bb. exists m1. split; [reflexivity|]. split; [apply OUT, H1|exact CF1]. }
  destruct Bb as (Wb & m2 & -> & F2 & D2).
  assert (H2 : R scopes E m2).
  { eapply R_store; [exact H1|]. intros y v t Y. apply F2. assert (v < k)%nat by (eapply V, Y). lia. }
  assert (CF2 : cframe k k4 scopes m m2) by (intros v K Y; rewrite F2 by lia; apply CF1; assumption).
  assert (Bc := bound_sim scopes k3 pc gc xc k4 (rc r) Pc C4 (FR k3 ltac:(lia)) cx E m2 H2).
  destruct (pint_value E (rc r)) as [s|ex| |]; cbn [bind withv]; try exact Logic.I; try contradiction.
  2:{ rewrite Bc. exists m2. split; [reflexivity|]. split; [apply OUT, H2|exact CF2]. }
  destruct Bc as (Wc & m3 & -> & F3 & D3).
  assert (H3 : R scopes E m3).
  { eapply R_store; [exact H2|]. intros y v t Y. apply F3. assert (v < k)%nat by (eapply V, Y). lia. }
  assert (CF3 : cframe k k4 scopes m m3) by (intros v K Y; rewrite F3 by lia; apply CF2; assumption).
  (* the loop *)
  unfold prange_vals. destruct (Z.eqb_spec s 0) as [|NZ]; [exact Logic.I|]. cbn [andb].
  destruct (int64b (a + range_len a b' s * s)) eqn:IL; [|exact Logic.I]. cbn [negb withv]. apply range64_b in IL.
  assert (Da : den (cleaf m3) xa a).
  { apply (D1 E m3 H3); [|right; reflexivity]. intros v K. rewrite F3, F2 by lia. reflexivity. }
  assert (A64 : range 64 a) by (eapply den_range, Da).
  rewrite cx_for. destruct Da as (ta & Ea & Ta). unfold cstore. cbn [ceval]. rewrite Ea. cbn [rmap bind cconvert dtype_of cast_val ctype withc].
  change (CI true 64) with s64. rewrite (conv64 a A64).
  set (m4 := supd m3 k (CVP (VI s64 a))).
  set (J := fun (E' : env) (m' : store) => R scopes E' m' /\ cframe k k4 scopes m m' /\ (forall v, (k2 <= v < k4)%nat -> m' v = m3 v) /\
              (forall y, memb y (x :: assigned b) = false -> E' y = E y)).
  assert (JU : forall E' m' c, J E' m' -> J E' (supd m' k c)).
  { intros E' m' c (J1 & J2 & J3 & J4). split; [|split; [|split; [|exact J4]]].
    - eapply R_store; [exact J1|]. intros y v t Y. apply supd_other. assert (v < k)%nat by (eapply V, Y). lia.
    - eapply cframe_trans; [exact J2|]. apply cframe_upd. left. lia.
    - intros v K. rewrite supd_other by lia. apply J3, K. }
  assert (J4 : J E m4).
  { apply JU. split; [exact H3|]. split; [exact CF3|]. split; [reflexivity|reflexivity]. }
  assert (NIL : forall o : cout, match o with ONext m => ONext m | OBreak m => OBreak m | OContinue m => OContinue m | OReturn v m => OReturn v m
       | ORaise x m => ORaise x m | OScope => OScope | OFuel => OFuel end = o) by (intros []; reflexivity). rewrite NIL.
  apply (orel_mono scopes scopes scopes outer (cframe k k4 scopes m) (cframe k k4 scopes m)); [auto|exact OUT|auto|].
  replace (range_vals a b' s) with (map (fun i => a + Z.of_nat i * s) (seq 0 (Z.to_nat (range_len a b' s) - 0))) by (rewrite Nat.sub_0_r; reflexivity).
  apply (for_sim scopes (cframe k k4 scopes m) J x k (S k) xb xc (pexec true n glob loc cx b) (cexec n cx cb) a b' s NZ A64 IL Wc).
  - intros E' m' (J1 & J2 & J3 & JN). split; [exact J1|]. split; [exact J2|]. split.
    + apply (D2 E' m' J1); [|eapply steady_names; [exact Sb|exact JN]]. intros v K. rewrite J3, F3 by lia. reflexivity.
    + apply (D3 E' m' J1); [|eapply steady_names; [exact Sc|exact JN]]. intros v K. apply J3. lia.
  - intros E' m' z (J1 & J2 & J3 & JN) Tz Rz.
    set (mz := supd m' (S k) (CVP (VI s64 z))).
    assert (Hz : R ([(x, (S k, TI))] :: scopes) (upd E' x (VInt z)) mz).
    { intros y v t. rewrite vis_cons. cbn [sfind]. destruct (Nat.eqb y x) eqn:Q.
      - apply Nat.eqb_eq in Q. subst y. intros [[= <- <-]|[K _]]; [|discriminate]. split; [apply AS; cbn; rewrite Nat.eqb_refl; reflexivity|].
        exists (VInt z), (CVP (VI s64 z)). rewrite upd_same. split; [reflexivity|]. split; [apply supd_same|]. exists z. split; [reflexivity|]. split; [apply int64_range, Rz|reflexivity].
      - intros [K|[_ Y]]; [discriminate|]. destruct (J1 _ _ _ Y) as (Ly & pv & cc & X1 & X2 & X3). split; [exact Ly|]. exists pv, cc. rewrite upd_other by exact Q.
        assert (v < k)%nat by (eapply V, Y). unfold mz. rewrite supd_other by lia. auto. }
    assert (O := IH NE1 SB (fun y Y => AS y ltac:(change (Nat.eqb y x || memb y (assigned b ++ []) = true); rewrite app_nil_r, Y; apply orb_true_r)) _ _ _ _ _ C1 VB cx _ mz Hz).
    assert (PF := proj2 (exec_frame n glob loc true) b cx (upd E' x (VInt z))).
    (* what the body leaves alone *)
    assert (CF : forall m'', cframe (S (S k)) k1 ([(x, (S k, TI))] :: scopes) mz m'' -> m'' k = m' k /\ (forall v, (k2 <= v < k4)%nat -> m'' v = m3 v) /\ cframe k k4 scopes m m'').
    { intros m'' F.
      assert (NV : forall v, (v = k \/ k1 <= v)%nat -> forall y t, ~ vis y ([(x, (S k, TI))] :: scopes) v t).
      { intros v K y t Y. assert (v < S (S k))%nat by (eapply VB, Y). rewrite vis_cons in Y. cbn [sfind] in Y. destruct (Nat.eqb y x).
        - destruct Y as [[= E1 _]|[Y _]]; [lia|discriminate].
        - destruct Y as [Y|[_ Y]]; [discriminate|]. assert (v < k)%nat by (eapply V, Y). lia. }
      split; [|split].
      - rewrite F; [apply supd_other; lia|lia|apply NV; auto].
      - intros v K. rewrite F; [unfold mz; rewrite supd_other by lia; apply J3, K|lia|apply NV; lia].
      - eapply cframe_trans; [exact J2|]. eapply cframe_trans; [apply (cframe_upd k k4 scopes m' (S k)); left; lia|]. 
        eapply cframe_mono; [| | |exact F]; [lia|lia|]. intros y v t. rewrite vis_cons. cbn [sfind]. destruct (Nat.eqb y x).
        + intros [[= <- <-]|[Y _]]; [right; lia|discriminate].
        + intros [Y|[_ Y]]; [discriminate|auto]. }
    assert (MK : forall E'' m'', R scopes E'' m'' -> cframe (S (S k)) k1 ([(x, (S k, TI))] :: scopes) mz m'' ->
        (forall y, memb y (assigned b) = false -> E'' y = upd E' x (VInt z) y) -> m'' k = m' k /\ J E'' m'' /\ (forall c, J E'' (supd m'' k c))).
    { intros E'' m'' R'' F'' P''. destruct (CF m'' F'') as (K1 & K2 & K3). assert (JJ : J E'' m'').
      { split; [exact R''|]. split; [exact K3|]. split; [exact K2|]. intros y Y. cbn in Y. apply orb_false_elim in Y. destruct Y as [Y1 Y2].
        rewrite P'' by exact Y2. rewrite upd_other by exact Y1. apply JN. cbn. rewrite Y1, Y2. reflexivity. }
      split; [exact K1|]. split; [exact JJ|]. intros c. apply JU, JJ. }
    destruct (pexec true n glob loc cx b (upd E' x (VInt z))) as [E''|E''|E''|w E''|ex E''| |]; cbn [orel pframe] in O, PF.
    + destruct O as (m'' & -> & R'' & F''). exists m''. split; [reflexivity|]. apply MK; assumption.
    + destruct O as (m'' & -> & R'' & F''). exists m''. split; [reflexivity|]. split; [exact R''|]. apply CF, F''.
    + destruct O as (m'' & -> & R'' & F''). exists m''. split; [reflexivity|]. apply MK; assumption.
    + exact O.
    + destruct O as (m'' & -> & R'' & F''). exists m''. split; [reflexivity|]. split; [exact R''|]. apply CF, F''.
    + exact Logic.I.
    + exact O.
  - lia.
  - exact J4.
  - unfold m4. rewrite supd_same. do 3 f_equal. lia.
Qed.

(** conditions *)
Lemma truthy_den m q z : den (cleaf m) q z -> exists w, eval (cleaf m) q = Ok w /\ truthy w = negb (z =? 0).
Proof. intros (t & E & _). eauto. Qed.
Lemma cond_good l E m e q : R l E m -> parse same glob l e = Ok (CP q) ->
  match pvalue true glob loc E e with
  | Ok v => exists w, eval (cleaf m) q = Ok w /\ truthy w = truth v
  | Exn x => eval (cleaf m) q = Exn x
  | UB => True
  | OutOfFuel => False
  end.
Proof.
  intros H P. assert (G := R_parse _ _ _ _ _ H P). cbn [good] in G. destruct G as (W & _ & _ & V & X & _).
  assert (NF := value_nofuel glob loc true E e). unfold pvalue in *.
  destruct (peval true (look glob loc E) e) as [v|ex| |] eqn:PE; try exact Logic.I; try congruence.
  - destruct (V v eq_refl) as (z & D & N & _). rewrite (truth_number _ _ N). apply truthy_den, D.
  - destruct (calm loc e) eqn:CM; [|exact Logic.I]. cbn [andb negb]. apply X; reflexivity.
Qed.
Lemma iftest_good l E m e q : R l E m -> parse_test same glob l e = Ok q ->
  match pvalue true glob loc E e with
  | Ok v => exists w, eval (cleaf m) q = Ok w /\ truthy w = truth v
  | Exn x => eval (cleaf m) q = Exn x
  | UB => True
  | OutOfFuel => False
  end.
Proof.
  intros H P. destruct (test_good same glob l (look glob loc E) m loc (R_look _ _ _ H) (R_glob E l) e q P) as (_ & _ & _ & V & X).
  assert (NF := value_nofuel glob loc true E e). unfold pvalue in *.
  destruct (peval true (look glob loc E) e) as [v|ex| |] eqn:PE; try exact Logic.I; try congruence.
  - destruct (truthy_den _ _ _ (V v eq_refl)) as (w & -> & T). exists w. split; [reflexivity|]. rewrite T. destruct (truth v); reflexivity.
  - destruct (calm loc e) eqn:CM; [|exact Logic.I]. cbn [andb negb]. apply X; reflexivity.
Qed.

Lemma sim_while e b els : sim_b b -> sim_s (SWhile e b els).
Proof.
  intros IH NE SB AS cur outer k c cur' k' C V cx E m H. cbn [no_extras_s steady_bounds_s assigned_s] in *.
  apply andb_prop in NE. destruct NE as [NE1 NE2]. destruct els; [|discriminate NE2]. apply andb_prop in SB. destruct SB as [SB _].
  cbn [ScriptModel.compile_s isnil] in C. set (scopes := cur :: outer) in *.
  apply bind_ok in C. destruct C as (p & P & C). apply bind_ok in C. destruct C as (q & Q & C). apply prim_inv in Q. subst p.
  apply bind_ok in C. destruct C as ([cb k1] & C1 & C). injection C as <- <- <-.
  assert (OUT : forall E m, R scopes E m -> R outer E m) by (intros E0 m0; apply R_outer; apply V).
  rewrite px_while, cx_while.
  apply (orel_mono scopes scopes scopes outer (cframe k k1 scopes m) (cframe k k1 scopes m)); [auto|exact OUT|auto|].
  assert (GO : forall j E m0, R scopes E m0 -> cframe k k1 scopes m m0 ->
    orel scopes scopes (cframe k k1 scopes m) (pwhile (fun E => pvalue true glob loc E e) (pexec true n glob loc cx b) (pexec true n glob loc cx BNil) j E)
      (cwhile (fun m => eval (cleaf m) q) (cexec n cx cb) j m0)).
  2:{ apply GO; [exact H|apply cframe_refl]. }
  clear E H. induction j as [|j IHj]; intros E m0 H F.
  - cbn [pwhile cwhile]. assert (T := cond_good scopes E m0 e q H P).
    destruct (pvalue true glob loc E e) as [v|ex| |]; cbn [withv]; try exact Logic.I; try contradiction.
    + destruct T as (w & -> & T). cbn [withc]. rewrite T. destruct (truth v); [reflexivity|]. exists m0. auto.
    + rewrite T. exists m0. auto.
  - cbn [pwhile cwhile]. assert (T := cond_good scopes E m0 e q H P).
    destruct (pvalue true glob loc E e) as [v|ex| |]; cbn [withv]; try exact Logic.I; try contradiction.
    + destruct T as (w & -> & T). cbn [withc]. rewrite T. destruct (truth v); [|exists m0; auto].
      assert (O := IH NE1 SB (fun y Y => AS y ltac:(change (memb y (assigned b ++ []) = true); rewrite app_nil_r; exact Y)) _ _ _ _ _ C1 (inv_nil _ _ V) cx E m0 (R_nil _ _ _ H)).
      assert (FT : forall m', cframe k k1 ([] :: scopes) m0 m' -> cframe k k1 scopes m m').
      { intros m' F'. eapply cframe_trans; [exact F|]. eapply cframe_mono; [| | |exact F']; [lia|lia|]. intros y u t. rewrite vis_nil. auto. }
      destruct (pexec true n glob loc cx b E) as [E''|E''|E''|w' E''|ex E''| |]; cbn [orel] in O.
      * destruct O as (m' & -> & R' & F'). apply IHj; auto.
      * destruct O as (m' & -> & R' & F'). exists m'. auto.
      * destruct O as (m' & -> & R' & F'). apply IHj; auto.
      * destruct O as (w'' & m' & -> & S'). exists w'', m'. auto.
      * destruct O as (m' & -> & R' & F'). exists m'. auto.
      * exact Logic.I.
      * rewrite O. reflexivity.
    + rewrite T. exists m0. auto.
Qed.

Lemma sim_all : (forall s, sim_s s) /\ (forall b, sim_b b).
Proof.
  apply pstmt_ind2.
  - (* pass *) intros _ _ _ cur outer k c cur' k' [= <- <- <-] V cx E m H. exists m. split; [reflexivity|]. split; [exact H|apply cframe_refl].
  - (* assign *) intros i x e _ _ AS cur outer k c cur' k' C V cx E m H. cbn [ScriptModel.compile_s] in C. apply bind_ok in C. destruct C as (p & P & C).
    cbn [pexec_s]. eapply assign_sim; try eassumption. apply AS. cbn. rewrite Nat.eqb_refl. reflexivity.
  - (* aug *) intros i x o e _ _ AS cur outer k c cur' k' C V cx E m H. cbn [ScriptModel.compile_s] in C. apply bind_ok in C. destruct C as (p & P & C).
    cbn [pexec_s]. eapply assign_sim; try eassumption. apply AS. cbn. rewrite Nat.eqb_refl. reflexivity.
  - (* if *) intros e a IHa b IHb NE SB AS cur outer k c cur' k' C V cx E m H. cbn [no_extras_s steady_bounds_s assigned_s] in *.
    apply andb_prop in NE. destruct NE as [NE1 NE2]. apply andb_prop in SB. destruct SB as [SB1 SB2].
    cbn [ScriptModel.compile_s] in C. apply bind_ok in C. destruct C as (q & P & C).
    apply bind_ok in C. destruct C as ([ca k1] & C1 & C). apply bind_ok in C. destruct C as ([cb k2] & C2 & C). injection C as <- <- <-.
    pose proof (proj2 static a _ _ _ _ _ C1 (inv_nil _ _ V)) as L1.
    assert (V2 : inv ([] :: cur :: outer) k1) by (apply inv_nil; eapply inv_mono; eassumption).
    pose proof (proj2 static b _ _ _ _ _ C2 V2) as L2.
    assert (OUT : forall E m, R (cur :: outer) E m -> R outer E m) by (intros E0 m0; apply R_outer; apply V).
    rewrite px_if, cx_if. assert (T := iftest_good (cur :: outer) E m e q H P).
    destruct (pvalue true glob loc E e) as [v|ex| |]; cbn [withv]; try exact Logic.I; try contradiction.
    + destruct T as (w & -> & T). cbn [withc]. rewrite T. destruct (truth v).
      * assert (O := IHa NE1 SB1 (fun y Y => AS y ltac:(rewrite memb_app, Y; reflexivity)) _ _ _ _ _ C1 (inv_nil _ _ V) cx E m (R_nil _ _ _ H)).
        eapply orel_mono; [| | |exact O]; [auto|exact OUT|]. intros m' F. eapply cframe_mono; [| | |exact F]; [lia|lia|]. intros y u t. rewrite vis_nil. auto.
      * assert (O := IHb NE2 SB2 (fun y Y => AS y ltac:(rewrite memb_app, Y; apply orb_true_r)) _ _ _ _ _ C2 V2 cx E m (R_nil _ _ _ H)).
        eapply orel_mono; [| | |exact O]; [auto|exact OUT|]. intros m' F. eapply cframe_mono; [| | |exact F]; [lia|lia|]. intros y u t. rewrite vis_nil. auto.
    + rewrite T. exists m. split; [reflexivity|]. split; [apply OUT, H|apply cframe_refl].
  - intros e b IHb els _. apply sim_while, IHb.
  - intros x r b IHb els _. apply sim_for, IHb.
  - (* break *) intros _ _ _ cur outer k c cur' k' [= <- <- <-] V cx E m H. exists m. split; [reflexivity|]. split; [eapply R_outer; [apply V|exact H]|apply cframe_refl].
  - (* continue *) intros _ _ _ cur outer k c cur' k' [= <- <- <-] V cx E m H. exists m. split; [reflexivity|]. split; [eapply R_outer; [apply V|exact H]|apply cframe_refl].
  - (* return *) intros e _ _ _ cur outer k c cur' k' C V cx E m H. cbn [ScriptModel.compile_s] in C. apply bind_ok in C. destruct C as (p & P & C).
    apply bind_ok in C. destruct C as (t & T & C). destruct (convertible t rt) eqn:CV; [|discriminate]. injection C as <- <- <-.
    assert (G := R_parse _ _ _ _ _ H P). assert (S := cstore_good E m e p t rt G T CV). cbn [pexec_s cexec_s].
    destruct (pvalue true glob loc E e) as [v|ex| |]; cbn [withv]; try exact Logic.I; try contradiction.
    + destruct S as (w & -> & S). exists w, m. auto.
    + rewrite S. exists m. split; [reflexivity|]. split; [eapply R_outer; [apply V|exact H]|apply cframe_refl].
  - (* raise *) intros x _ _ _ cur outer k c cur' k' [= <- <- <-] V cx E m H.
    destruct x; (exists m; split; [reflexivity|]; split; [eapply R_outer; [apply V|exact H]|apply cframe_refl]).
  - (* try *) intros b IHb h hd IHh els _ fin _ NE SB AS cur outer k c cur' k' C V cx E m H. cbn [no_extras_s steady_bounds_s assigned_s] in *.
    apply andb_prop in NE. destruct NE as [NE NE5]. apply andb_prop in NE. destruct NE as [NE NE4]. apply andb_prop in NE. destruct NE as [NE NE3]. apply andb_prop in NE. destruct NE as [NE1 NE2].
    apply andb_prop in SB. destruct SB as [SB _]. apply andb_prop in SB. destruct SB as [SB _]. apply andb_prop in SB. destruct SB as [SB1 SB2].
    destruct h; [discriminate NE5|]. destruct els; [|discriminate NE3]. destruct fin; [|discriminate NE4].
    cbn [ScriptModel.compile_s] in C. apply bind_ok in C. destruct C as ([ca k1] & C1 & C). apply bind_ok in C. destruct C as ([cb k2] & C2 & C). injection C as <- <- <-.
    pose proof (proj2 static b _ _ _ _ _ C1 (inv_nil _ _ V)) as L1.
    assert (V2 : inv ([] :: [] :: cur :: outer) k1) by (apply inv_nil, inv_nil; eapply inv_mono; eassumption).
    pose proof (proj2 static hd _ _ _ _ _ C2 V2) as L2.
    assert (OUT : forall E m, R (cur :: outer) E m -> R outer E m) by (intros E0 m0; apply R_outer; apply V).
    rewrite px_try, cx_try. cbv zeta.
    assert (O := IHb NE1 SB1 (fun y Y => AS y ltac:(rewrite memb_app, Y; reflexivity)) _ _ _ _ _ C1 (inv_nil _ _ V) cx E m (R_nil _ _ _ H)).
    assert (FT : forall m', cframe k k1 ([] :: cur :: outer) m m' -> cframe k k2 (cur :: outer) m m').
    { intros m' F'. eapply cframe_mono; [| | |exact F']; [lia|lia|]. intros y u t. rewrite vis_nil. auto. }
    destruct (pexec true n glob loc cx b E) as [E''|E''|E''|w' E''|ex E''| |]; cbn [orel] in O.
    + destruct O as (m' & -> & R' & F'). cbn [pexec]. exists m'. auto.
    + destruct O as (m' & -> & R' & F'). exists m'. auto.
    + destruct O as (m' & -> & R' & F'). exists m'. auto.
    + destruct O as (w'' & m' & -> & S'). exists w'', m'. auto.
    + destruct O as (m' & -> & R' & F'). cbn [catches].
      assert (O2 := IHh NE2 SB2 (fun y Y => AS y ltac:(rewrite !memb_app, Y; apply orb_true_r)) _ _ _ _ _ C2 V2 (Some ex) E'' m' (R_nil _ _ _ (R_nil _ _ _ R'))).
      eapply orel_mono; [| | |exact O2]; [intros E0 m0 K; eapply R_outer; [|exact K]; apply V2|intros E0 m0 K; apply OUT; eapply R_outer; [|exact K]; apply V2|].
      intros m'' F. eapply cframe_trans; [apply FT, F'|]. eapply cframe_mono; [| | |exact F]; [lia|lia|]. intros y u t. rewrite !vis_nil. auto.
    + exact Logic.I.
    + rewrite O. reflexivity.
  - (* nil *) intros _ _ _ cur outer k c k' [= <- <-] V cx E m H. exists m. split; [reflexivity|]. split; [eapply R_outer; [apply V|exact H]|apply cframe_refl].
  - (* cons *) intros s IHs b IHb NE SB AS cur outer k c k' C V cx E m H. cbn [no_extras steady_bounds assigned] in *.
    apply andb_prop in NE. destruct NE as [NE1 NE2]. apply andb_prop in SB. destruct SB as [SB1 SB2].
    cbn [ScriptModel.compile_b] in C. apply bind_ok in C. destruct C as ([[cs cur'] k1] & C1 & C).
    apply bind_ok in C. destruct C as ([cb k2] & C2 & C). injection C as <- <-.
    destruct (proj1 static s _ _ _ _ _ _ C1 V) as (L1 & V1 & W1). pose proof (proj2 static b _ _ _ _ _ C2 V1) as L2.
    rewrite px_cons, cx_cons.
    assert (O := IHs NE1 SB1 (fun y Y => AS y ltac:(rewrite memb_app, Y; reflexivity)) _ _ _ _ _ _ C1 V cx E m H).
    assert (FT : forall m', cframe k k1 (cur :: outer) m m' -> cframe k k2 (cur :: outer) m m').
    { intros m' F'. eapply cframe_mono; [| | |exact F']; [lia|lia|auto]. }
    destruct (pexec_s true n glob loc cx s E) as [E''|E''|E''|w' E''|ex E''| |]; cbn [orel] in O.
    + destruct O as (m' & -> & R' & F').
      assert (O2 := IHb NE2 SB2 (fun y Y => AS y ltac:(rewrite memb_app, Y; apply orb_true_r)) _ _ _ _ _ C2 V1 cx E'' m' R').
      eapply orel_mono; [| | |exact O2]; auto. intros m'' F. eapply cframe_trans; [apply FT, F'|]. eapply cframe_mono; [| | |exact F]; [lia|lia|].
      intros y u t Y. destruct (W1 _ _ _ Y); [auto|right; lia].
    + destruct O as (m' & -> & R' & F'). exists m'. auto.
    + destruct O as (m' & -> & R' & F'). exists m'. auto.
    + destruct O as (w'' & m' & -> & S'). exists w'', m'. auto.
    + destruct O as (m' & -> & R' & F'). exists m'. auto.
    + exact Logic.I.
    + rewrite O. reflexivity.
Qed.
End Sim.
(** ** Functions *)
Lemma capp_exec n cx a b m : cexec n cx (capp a b) m = match cexec n cx a m with ONext m' => cexec n cx b m' | o => o end.
Proof.
  revert m. induction a as [|s a IH]; intros m; [reflexivity|]. cbn [capp]. rewrite !cx_cons.
  destruct (cexec_s n cx s m); auto.
Qed.

(** If the compiler accepts a function although it takes every variable for live, then the
    verdicts of the live variable analysis make no difference. *)
Lemma live_irrelevant same glob live rt :
  (forall s cur outer k r, compile_s same glob (fun _ => true) rt cur outer k s = Ok r -> compile_s same glob live rt cur outer k s = Ok r) /\
  (forall b cur outer k r, compile_b same glob (fun _ => true) rt cur outer k b = Ok r -> compile_b same glob live rt cur outer k b = Ok r).
Proof.
  assert (AS : forall cur outer k i x e r, assign (fun _ => true) cur outer k i x e = Ok r -> assign live cur outer k i x e = Ok r).
  { intros cur outer k i x e r. unfold assign. destruct (type_of e); cbn [bind]; auto. destruct (lookup x (cur :: outer)) as [[inner [v u]]|]; auto.
    destruct (convertible a u); auto. rewrite orb_false_r. destruct inner; [auto|discriminate]. }
  assert (BE : forall A B (r r' : res A) (q q' : A -> res B) y, (forall a, r = Ok a -> r' = Ok a) -> (forall a y, q a = Ok y -> q' a = Ok y) -> bind r q = Ok y -> bind r' q' = Ok y).
  { intros A B r r' q q' y H1 H2 H. apply bind_ok in H. destruct H as (a & Ha & H). rewrite (H1 _ Ha). cbn [bind]. auto. }
  apply pstmt_ind2; intros; cbn [compile_s compile_b] in *; try assumption.
  - eapply BE; [| |exact H]; [auto|]. intros a y A. apply AS, A.
  - eapply BE; [| |exact H]; [auto|]. intros a y A. apply AS, A.
  - eapply BE; [| |exact H1]; auto. intros q y Y. eapply BE; [| |exact Y]; [intros ? K; apply H, K|]. intros [ca k1] z Z.
    eapply BE; [| |exact Z]; [intros ? K; apply H0, K|]. auto.
  - destruct (isnil els); [|discriminate]. eapply BE; [| |exact H1]; auto. intros q y Y. eapply BE; [| |exact Y]; auto. intros q' z Z.
    eapply BE; [| |exact Z]; [intros ? K; apply H, K|]. auto.
  - destruct (lookup x (cur :: outer)); [discriminate|]. eapply BE; [| |exact H1]; auto. intros [[a b'] e] y Y.
    eapply BE; [| |exact Y]; [intros ? K; apply H, K|]. auto.
  - eapply BE; [| |exact H3]; [intros ? K; apply H, K|]. intros [ca k1] z Z. eapply BE; [| |exact Z]; [intros ? K; apply H0, K|]. auto.
  - eapply BE; [| |exact H1]; [intros ? K; apply H, K|]. intros [[cs cur'] k1] z Z. eapply BE; [| |exact Z]; [intros ? K; apply H0, K|]. auto.
Qed.
Lemma live_irrelevant_fun same glob live f c : compile_fun same glob (fun _ => true) f = Ok c -> compile_fun same glob live f = Ok c.
Proof.
  unfold compile_fun. destruct (must_return (body f) && syntax_ok (body f)); auto. intros H. apply bind_ok in H. destruct H as (r & R1 & H).
  rewrite (proj2 (live_irrelevant same glob live (ret f)) _ _ _ _ _ R1). exact H.
Qed.

Lemma param_vis ps k x v t : sfind x (param_scope k ps) = Some (v, t) -> (k <= v < k + length ps)%nat.
Proof.
  revert k. induction ps as [|[y u] ps IH]; intros k; cbn [param_scope sfind length]; [discriminate|].
  destruct (Nat.eqb x y); [intros [= <- <-]; lia|]. intros H. apply IH in H. lia.
Qed.
Lemma param_inj ps k x y v t u : sfind x (param_scope k ps) = Some (v, t) -> sfind y (param_scope k ps) = Some (v, u) -> x = y.
Proof.
  revert k. induction ps as [|[z w] ps IH]; intros k; cbn [param_scope sfind]; [discriminate|].
  destruct (Nat.eqb x z) eqn:X, (Nat.eqb y z) eqn:Y.
  - apply Nat.eqb_eq in X, Y. congruence.
  - intros [= <- <-] H. apply param_vis in H. lia.
  - intros H [= <- <-]. apply param_vis in H. lia.
  - apply IH.
Qed.
Lemma param_sim ps args k x v t : Forall2 (fun p a => fits (snd p) a) ps args -> sfind x (param_scope k ps) = Some (v, t) ->
  memb x (map fst ps) = true /\ exists pv c, bind_args ps args x = Some pv /\ c_args k args v = Some c /\ shows t pv c.
Proof.
  intros F. revert k. induction F as [|[y u] a ps args A F IH]; intros k; cbn [param_scope sfind bind_args c_args map fst snd memb existsb]; [discriminate|].
  destruct (Nat.eqb x y) eqn:Q.
  - intros [= <- <-]. split; [reflexivity|]. exists a, (c_arg a). unfold upd. cbn [fst]. rewrite Q, supd_same. split; [reflexivity|]. split; [reflexivity|].
    cbn [snd] in A. destruct u, a; try contradiction; cbn; eauto.
  - intros H. destruct (IH (S k) H) as (M & pv & c & X1 & X2 & X3). split; [exact M|]. exists pv, c. unfold upd. cbn [fst]. rewrite Q.
    apply param_vis in H. rewrite supd_other by lia. auto.
Qed.

Theorem function_sim same glob f c n args :
  compile_fun same glob (fun _ => true) f = Ok c ->
  no_extras (body f) = true -> steady_bounds (local f) (body f) = true ->
  (forall x, local f x = true -> glob x = None) ->
  Forall2 (fun p a => fits (snd p) a) (params f) args ->
  py_run true n glob f args <> UB ->
  same_outcome (ret f) (py_run false n glob f args) (c_run n c args).
Proof.
  intros C NE SB GL A NU. rewrite monitor_silent by exact NU. unfold compile_fun in C.
  destruct (must_return (body f)) eqn:MR; [|discriminate]. destruct (syntax_ok (body f)); [|discriminate]. cbn [andb] in C.
  apply bind_ok in C. destruct C as ([b k'] & C & E).
  assert (V : inv [param_scope 0 (params f)] (length (params f))).
  { assert (VI : forall x v t, vis x [param_scope 0 (params f)] v t -> sfind x (param_scope 0 (params f)) = Some (v, t)).
    { intros x v t. rewrite vis_cons. intros [K|[_ [fl K]]]; [exact K|discriminate]. }
    split; [|split].
    - intros x v t K. apply VI, param_vis in K. lia.
    - intros x y v t u K L. apply VI in K, L. eapply param_inj; eassumption.
    - split; [reflexivity|exact Logic.I]. }
  assert (H : R (local f) [param_scope 0 (params f)] (bind_args (params f) args) (c_args 0 args)).
  { intros x v t. rewrite vis_cons. intros [K|[_ [fl K]]]; [|discriminate]. destruct (param_sim _ _ _ _ _ _ A K) as (M & pv & w & X1 & X2 & X3).
    split; [|eauto]. unfold local. rewrite memb_app, M. reflexivity. }
  assert (AS : forall x, memb x (assigned (body f)) = true -> local f x = true).
  { intros x M. unfold local. rewrite memb_app, M. apply orb_true_r. }
  assert (O := proj2 (sim_all n same glob (local f) (ret f) GL) (body f) NE SB AS _ _ _ _ _ C V None _ _ H).
  assert (NN := proj2 (must_return_ok n glob (local f) true) (body f) MR None (bind_args (params f) args)).
  unfold py_run in *. unfold c_run.
  assert (CX : forall o, cexec n None b (c_args 0 args) = o -> (forall m, o <> ONext m) -> cexec n None c (c_args 0 args) = o).
  { intros o Ho K. injection E as <-. destruct (ends_in_return (body f)); [exact Ho|]. rewrite capp_exec, Ho. destruct o; try reflexivity. destruct (K s eq_refl). }
  destruct (pexec true n glob (local f) None (body f) (bind_args (params f) args)) as [E''|E''|E''|w' E''|ex E''| |]; cbn [orel] in O.
  - destruct (NN E'' eq_refl).
  - destruct (NU eq_refl).
  - destruct (NU eq_refl).
  - destruct O as (w & m & O & S). rewrite (CX _ O) by discriminate. exists w. auto.
  - destruct O as (m & O & _). rewrite (CX _ O) by discriminate. reflexivity.
  - destruct (NU eq_refl).
  - rewrite (CX _ O) by discriminate. reflexivity.
Qed.
