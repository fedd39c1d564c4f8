(** The free cells of the double array: rings of empty cells, the lists of blocks. *)
From Verif Require Import Base ListAux TrModel TrRing.
Local Open Scope Z_scope.

Lemma inside_ok n i : 0 <= i < n -> inside n i = true.
Proof. intros H. unfold inside. destruct (Z.leb_spec 0 i), (Z.ltb_spec i n); lia || easy. Qed.
Lemma get_a_ok t i : 0 <= i < size t -> get_a t i = Ok (arr t i).
Proof. intros H. unfold get_a. now rewrite inside_ok. Qed.
Lemma set_a_ok t i n : 0 <= i < size t -> set_a t i n =
  Ok (Da (upd (arr t) i n) (inf t) (blk t) (headF t) (headC t) (headO t) (size t) (rej t) (ready t)).
Proof. intros H. unfold set_a. now rewrite inside_ok. Qed.
Lemma set_base_ok t i b : 0 <= i < size t -> set_base t i b =
  Ok (Da (upd (arr t) i (Node b (check (arr t i)))) (inf t) (blk t) (headF t) (headC t) (headO t) (size t) (rej t) (ready t)).
Proof. intros H. unfold set_base. rewrite get_a_ok by easy. cbn [bind]. now rewrite set_a_ok. Qed.
Lemma set_check_ok t i b : 0 <= i < size t -> set_check t i b =
  Ok (Da (upd (arr t) i (Node (base_ (arr t i)) b)) (inf t) (blk t) (headF t) (headC t) (headO t) (size t) (rej t) (ready t)).
Proof. intros H. unfold set_check. rewrite get_a_ok by easy. cbn [bind]. now rewrite set_a_ok. Qed.
Lemma get_i_ok t i : ready t = true -> 0 <= i < size t -> get_i t i = Ok (inf t i).
Proof. intros R H. unfold get_i. now rewrite inside_ok, R. Qed.
Lemma set_i_ok t i n : ready t = true -> 0 <= i < size t -> set_i t i n =
  Ok (Da (arr t) (upd (inf t) i n) (blk t) (headF t) (headC t) (headO t) (size t) (rej t) (ready t)).
Proof. intros R H. unfold set_i. now rewrite inside_ok, R. Qed.
Lemma set_sibling_ok t i s : ready t = true -> 0 <= i < size t -> set_sibling t i s =
  Ok (Da (arr t) (upd (inf t) i (Info s (child (inf t i)))) (blk t) (headF t) (headC t) (headO t) (size t) (rej t) (ready t)).
Proof. intros R H. unfold set_sibling. rewrite get_i_ok by easy. cbn [bind]. now apply set_i_ok. Qed.
Lemma set_child_ok t i s : ready t = true -> 0 <= i < size t -> set_child t i s =
  Ok (Da (arr t) (upd (inf t) i (Info (sibling (inf t i)) s)) (blk t) (headF t) (headC t) (headO t) (size t) (rej t) (ready t)).
Proof. intros R H. unfold set_child. rewrite get_i_ok by easy. cbn [bind]. now apply set_i_ok. Qed.
Lemma get_b_ok t i : ready t = true -> 0 <= i < size t / 256 -> get_b t i = Ok (blk t i).
Proof. intros R H. unfold get_b. now rewrite inside_ok, R. Qed.
Lemma set_b_ok t i b : ready t = true -> 0 <= i < size t / 256 -> set_b t i b =
  Ok (Da (arr t) (inf t) (upd (blk t) i b) (headF t) (headC t) (headO t) (size t) (rej t) (ready t)).
Proof. intros R H. unfold set_b. now rewrite inside_ok, R. Qed.
Lemma upd_eq {A} (f : Z -> A) i x : upd f i x i = x.
Proof. unfold upd. now rewrite Z.eqb_refl. Qed.
Lemma upd_ne {A} (f : Z -> A) i x j : j <> i -> upd f i x j = f j.
Proof. intros H. unfold upd. destruct (Z.eqb_spec j i); easy. Qed.

(** ** The lists of blocks *)
Definition bnx (t : da) (x : Z) : Z := next (blk t x).
Definition bpv (t : da) (x : Z) : Z := prev (blk t x).
Record LInv (t : da) (ls : which -> list Z) : Prop := {
  l_ring : forall w, ring (bnx t) (bpv t) (ls w);
  l_head : forall w, head t w = hd 0 (ls w);
  l_in : forall w x, In x (ls w) -> 0 <= x < size t / 256;
  l_dis : forall w v x, In x (ls w) -> In x (ls v) -> w = v;
  l_zero : forall w, In 0 (ls w) <-> w = Full }.
(** only links and heads differ *)
Record relinked (t t' : da) : Prop := {
  k_arr : arr t' = arr t; k_inf : inf t' = inf t; k_size : size t' = size t; k_rej : rej t' = rej t;
  k_ready : ready t' = ready t;
  k_num : forall x, num (blk t' x) = num (blk t x);
  k_reject : forall x, reject (blk t' x) = reject (blk t x);
  k_trial : forall x, trial (blk t' x) = trial (blk t x);
  k_ehead : forall x, ehead (blk t' x) = ehead (blk t x) }.
Lemma relinked_trans t t' t'' : relinked t t' -> relinked t' t'' -> relinked t t''.
Proof. intros [] []. split; try congruence; intros x; congruence. Qed.

Definition updw (ls : which -> list Z) (w : which) (l : list Z) : which -> list Z :=
  fun v => match w, v with Full, Full => l | Closed, Closed => l | Open, Open => l | _, _ => ls v end.
Lemma updw_eq ls w l : updw ls w l w = l.
Proof. now destruct w. Qed.
Lemma updw_ne ls w l v : v <> w -> updw ls w l v = ls v.
Proof. destruct w, v; easy. Qed.
Definition which_dec (w v : which) : {w = v} + {w <> v}.
Proof. decide equality. Defined.
Lemma head_set t w x v : head (set_head t w x) v = if which_dec v w then x else head t v.
Proof. destruct w, v; easy. Qed.

Lemma set_next_ok t i x : ready t = true -> 0 <= i < size t / 256 -> exists t', set_next t i x = Ok t' /\
  relinked t t' /\ (forall w, head t' w = head t w) /\
  (forall y, bnx t' y = if y =? i then x else bnx t y) /\ (forall y, bpv t' y = bpv t y).
Proof.
  intros R H. unfold set_next. rewrite get_b_ok by easy. cbn [bind]. rewrite set_b_ok by easy. eexists. split; [easy|].
  split; [split; cbn; try easy; intros y; unfold upd; destruct (Z.eqb_spec y i); subst; easy|].
  split; [easy|]. unfold bnx, bpv, upd; cbn. split; intros y; destruct (Z.eqb_spec y i); subst; easy.
Qed.
Lemma set_prev_ok t i x : ready t = true -> 0 <= i < size t / 256 -> exists t', set_prev t i x = Ok t' /\
  relinked t t' /\ (forall w, head t' w = head t w) /\
  (forall y, bpv t' y = if y =? i then x else bpv t y) /\ (forall y, bnx t' y = bnx t y).
Proof.
  intros R H. unfold set_prev. rewrite get_b_ok by easy. cbn [bind]. rewrite set_b_ok by easy. eexists. split; [easy|].
  split; [split; cbn; try easy; intros y; unfold upd; destruct (Z.eqb_spec y i); subst; easy|].
  split; [easy|]. unfold bnx, bpv, upd; cbn. split; intros y; destruct (Z.eqb_spec y i); subst; easy.
Qed.
Lemma relinked_head t w x : relinked t (set_head t w x).
Proof. now split. Qed.

Lemma pop_ok t ls bi w : ready t = true -> LInv t ls -> In bi (ls w) -> bi <> 0 ->
  exists t' l', pop_block t bi w (bi =? next (blk t bi)) = Ok t' /\ relinked t t' /\ LInv t' (updw ls w l') /\
    (forall x, In x l' <-> In x (ls w) /\ x <> bi) /\ (forall l, ls w = bi :: l -> l' = l).
Proof.
  intros R L I NZ. pose proof (l_in _ _ L _ _ I) as B. pose proof (l_ring _ _ L w) as RG. assert (ND : NoDup (ls w)) by apply RG.
  unfold pop_block. destruct (Z.eqb_spec bi (next (blk t bi))) as [E|NE].
  - pose proof (ring_alone _ _ _ _ RG I (eq_sym E)) as A. exists (set_head t w 0), []. split; [easy|]. split; [apply relinked_head|]. split.
    + split.
      * intros v. destruct (which_dec v w) as [->|N]; [rewrite updw_eq; split; [constructor|easy]|]. rewrite updw_ne by easy. apply (l_ring _ _ L v).
      * intros v. rewrite head_set. destruct (which_dec v w) as [->|N]; [now rewrite updw_eq|]. rewrite updw_ne by easy. apply (l_head _ _ L v).
      * intros v x. destruct (which_dec v w) as [->|N]; [rewrite updw_eq; easy|]. rewrite updw_ne by easy. apply (l_in _ _ L).
      * intros v u x. destruct (which_dec v w) as [->|N]; [rewrite updw_eq; easy|]. rewrite (updw_ne _ _ _ v) by easy.
        destruct (which_dec u w) as [->|N']; [rewrite updw_eq; easy|]. rewrite updw_ne by easy. apply (l_dis _ _ L).
      * intros v. destruct (which_dec v w) as [->|N]; [rewrite updw_eq|rewrite updw_ne by easy; apply (l_zero _ _ L)].
        split; [easy|]. intros ->. assert (In 0 (ls Full)) by now apply (l_zero _ _ L). rewrite A in *. cbn in *. lia.
    + split; [intros x; rewrite A; cbn; intuition congruence|]. intros l E'. rewrite A in E'. congruence.
  - assert (Bp : 0 <= prev (blk t bi) < size t / 256) by (eapply (l_in _ _ L w), (ring_prev_in _ _ _ _ RG I)).
    assert (Bn : 0 <= next (blk t bi) < size t / 256) by (eapply (l_in _ _ L w), (ring_next_in _ _ _ _ RG I)).
    rewrite get_b_ok by easy. cbn [bind].
    destruct (set_next_ok t (prev (blk t bi)) (next (blk t bi)) R Bp) as (t1 & -> & K1 & H1 & N1 & P1). cbn [bind].
    assert (R1 : ready t1 = true) by (rewrite (k_ready _ _ K1); easy). assert (S1 : size t1 = size t) by apply K1.
    assert (PN : prev (blk t bi) <> bi).
    { intros E. pose proof (in_split _ _ I) as (l1 & l2 & EQ). rewrite EQ in RG. pose proof (ring_rotate _ _ _ _ RG) as RG'. destruct RG' as [ND' C].
      cbn in C. pose proof (chain_prev _ _ _ _ _ C) as P. unfold bpv in P. rewrite E in P.
      destruct (l2 ++ l1) as [|b l] eqn:F.
      - cbn in C. destruct C as [C _]. unfold bnx in C. congruence.
      - cbn in ND'. rewrite F in ND'. apply NoDup_cons_iff in ND' as [X _]. apply X. rewrite P at 1. now apply last_in. }
    assert (G1 : next (blk t1 bi) = next (blk t bi)).
    { specialize (N1 bi). unfold bnx in N1. rewrite N1. destruct (Z.eqb_spec bi (prev (blk t bi))); congruence. }
    assert (G2 : prev (blk t1 bi) = prev (blk t bi)) by apply P1.
    rewrite get_b_ok by (rewrite ?S1; easy). cbn [bind]. rewrite G1, G2.
    destruct (set_prev_ok t1 (next (blk t bi)) (prev (blk t bi)) R1 ltac:(rewrite S1; easy)) as (t2 & -> & K2 & H2 & P2 & N2). cbn [bind].
    assert (R2 : ready t2 = true) by (rewrite (k_ready _ _ K2); easy). assert (S2 : size t2 = size t) by (rewrite (k_size _ _ K2); easy).
    rewrite get_b_ok by (rewrite ?S2; easy). cbn [bind].
    assert (G3 : next (blk t2 bi) = next (blk t bi)) by (transitivity (bnx t1 bi); [apply N2|apply G1]). rewrite G3.
    destruct (in_split _ _ I) as (l1 & l2 & EQ).
    assert (RR : forall t3, (forall y, bnx t3 y = bnx t2 y) -> (forall y, bpv t3 y = bpv t2 y) -> ring (bnx t3) (bpv t3) (l1 ++ l2)).
    { intros t3 X Y. apply ring_rotate. apply ring_remove with (nx := bnx t) (pv := bpv t) (e := bi).
      - rewrite EQ in RG. apply ring_rotate in RG. exact RG.
      - intros F. apply app_eq_nil in F as [-> ->]. rewrite EQ in RG. cbn in RG. apply ring_self in RG. unfold bnx in RG. congruence.
      - unfold bnx at 2, bpv at 1. rewrite X, N2, N1, Z.eqb_refl. easy.
      - unfold bnx at 1, bpv at 2. rewrite Y, P2, Z.eqb_refl. easy.
      - intros x _ N. rewrite X, N2, N1. unfold bpv in N. destruct (Z.eqb_spec x (prev (blk t bi))); [congruence|easy].
      - intros x _ N. rewrite Y, P2, P1. unfold bnx in N. destruct (Z.eqb_spec x (next (blk t bi))); [congruence|easy]. }
    assert (OT : forall t3, (forall y, bnx t3 y = bnx t2 y) -> (forall y, bpv t3 y = bpv t2 y) -> forall v, v <> w -> ring (bnx t3) (bpv t3) (ls v)).
    { intros t3 X Y v N. apply ring_ext with (nx := bnx t) (pv := bpv t); [| |apply (l_ring _ _ L v)].
      - intros x J. rewrite X, N2, N1. destruct (Z.eqb_spec x (prev (blk t bi))) as [E|]; [|easy]. elim N. apply (l_dis _ _ L _ _ x J).
        rewrite E. apply (ring_prev_in _ _ _ _ RG I).
      - intros x J. rewrite Y, P2, P1. destruct (Z.eqb_spec x (next (blk t bi))) as [E|]; [|easy]. elim N. apply (l_dis _ _ L _ _ x J).
        rewrite E. apply (ring_next_in _ _ _ _ RG I). }
    assert (IN : forall x, In x (l1 ++ l2) <-> In x (ls w) /\ x <> bi).
    { intros x. rewrite EQ, !in_app_iff. cbn. rewrite EQ in ND. split.
      - intros J. split; [tauto|]. intros ->. apply NoDup_remove_2 in ND. apply ND. rewrite in_app_iff. easy.
      - intros [[J|[->|J]] N]; tauto. }
    set (t3 := if bi =? head t2 w then set_head t2 w (next (blk t bi)) else t2).
    assert (X3 : forall y, bnx t3 y = bnx t2 y) by (intros y; unfold t3; now destruct (bi =? head t2 w)).
    assert (Y3 : forall y, bpv t3 y = bpv t2 y) by (intros y; unfold t3; now destruct (bi =? head t2 w)).
    assert (S3 : size t3 = size t) by (unfold t3; now destruct (bi =? head t2 w)).
    exists t3, (l1 ++ l2). split; [easy|].
    split; [apply (relinked_trans _ t1); [easy|]; apply (relinked_trans _ t2); [easy|]; unfold t3; destruct (bi =? head t2 w); [apply relinked_head|now split]|].
    split; [|split; [easy|]; intros l E'; rewrite EQ in E', ND; destruct l1 as [|a l1]; [now injection E'|];
      injection E' as -> _; cbn in ND; apply NoDup_cons_iff in ND as [X _]; elim X; rewrite in_app_iff; right; now left]. split.
    + intros v. destruct (which_dec v w) as [->|N]; [rewrite updw_eq; now apply RR|]. rewrite updw_ne by easy. now apply OT.
    + intros v. destruct (which_dec v w) as [->|N].
      * rewrite updw_eq. assert (HW : head t2 w = hd 0 (ls w)) by (rewrite H2, H1; apply (l_head _ _ L)).
        unfold t3. destruct (Z.eqb_spec bi (head t2 w)) as [E|NE'].
        -- rewrite head_set. destruct (which_dec w w); [|easy]. rewrite HW, EQ in E. destruct l1 as [|a l1].
           ++ cbn in *. rewrite EQ in RG. destruct RG as [_ C]. apply chain_next in C. unfold bnx in C. rewrite C.
              destruct l2; [|easy]. unfold bnx in *. congruence.
           ++ cbn in E. subst a. rewrite EQ in ND. cbn in ND. apply NoDup_cons_iff in ND as [X _]. elim X. rewrite in_app_iff. right. now left.
        -- rewrite HW, EQ. destruct l1 as [|a l1]; [|easy]. rewrite HW, EQ in NE'. cbn in NE'. congruence.
      * rewrite updw_ne by easy. rewrite <- (l_head _ _ L v), <- H1, <- H2. unfold t3. destruct (bi =? head t2 w); [|easy].
        rewrite head_set. destruct (which_dec v w); easy.
    + intros v x. rewrite S3. destruct (which_dec v w) as [->|N]; [rewrite updw_eq; intros J; apply IN in J; now apply (l_in _ _ L w)|]. rewrite updw_ne by easy. apply (l_in _ _ L).
    + intros v u x J K. apply (l_dis _ _ L v u x).
      * destruct (which_dec v w) as [->|N]; [rewrite updw_eq in J; now apply IN|now rewrite updw_ne in J].
      * destruct (which_dec u w) as [->|N]; [rewrite updw_eq in K; now apply IN|now rewrite updw_ne in K].
    + intros v. rewrite <- (l_zero _ _ L v). destruct (which_dec v w) as [->|N]; [rewrite updw_eq, IN; intuition congruence|now rewrite updw_ne].
Qed.

Lemma push_ok t ls bi v : ready t = true -> LInv t ls -> 0 < bi < size t / 256 -> (forall w, ~ In bi (ls w)) ->
  (num (blk t bi) = 0 <-> v = Full) ->
  exists t', push_block t bi v ((head t v =? 0) && negb (num (blk t bi) =? 0)) = Ok t' /\ relinked t t' /\ LInv t' (updw ls v (bi :: ls v)).
Proof.
  intros R L B NI NF. pose proof (l_ring _ _ L v) as RG. pose proof (l_head _ _ L v) as HD. unfold push_block.
  assert (DIS : forall t' , size t' = size t -> (forall w, ring (bnx t') (bpv t') (updw ls v (bi :: ls v) w)) -> (forall w, head t' w = if which_dec w v then bi else head t w) ->
    LInv t' (updw ls v (bi :: ls v))).
  { intros t' S1 RG' HD'. split; [easy| | | |].
    - intros w. rewrite HD'. destruct (which_dec w v) as [->|N]; [now rewrite updw_eq|]. rewrite updw_ne by easy. apply (l_head _ _ L).
    - intros w x. rewrite S1. destruct (which_dec w v) as [->|N]; [rewrite updw_eq; intros [<-|J]; [lia|now apply (l_in _ _ L v)]|]. rewrite updw_ne by easy. apply (l_in _ _ L).
    - intros w u x J K. destruct (which_dec w v) as [->|N], (which_dec u v) as [->|N']; rewrite ?updw_eq, ?updw_ne in * by easy; try easy.
      + destruct J as [<-|J]; [elim (NI _ K)|]. now apply (l_dis _ _ L _ _ x).
      + destruct K as [<-|K]; [elim (NI _ J)|]. now apply (l_dis _ _ L _ _ x).
      + now apply (l_dis _ _ L _ _ x).
    - intros w. rewrite <- (l_zero _ _ L w). destruct (which_dec w v) as [->|N]; [rewrite updw_eq; cbn; intuition lia|now rewrite updw_ne]. }
  assert (EMP : (head t v =? 0) && negb (num (blk t bi) =? 0) = match ls v with [] => true | _ => false end).
  { destruct (ls v) as [|h l] eqn:E; cbn in HD; rewrite HD.
    - destruct (Z.eqb_spec (num (blk t bi)) 0) as [F|]; [|easy]. apply NF in F. assert (In 0 (ls Full)) by now apply (l_zero _ _ L). subst v. now rewrite E in *.
    - destruct (Z.eqb_spec h 0) as [->|]; [|easy]. assert (v = Full) by (apply (l_zero _ _ L); rewrite E; now left). apply NF in H. now rewrite H. }
  rewrite EMP. destruct (ls v) as [|h l] eqn:E.
  - destruct (set_prev_ok t bi bi R ltac:(lia)) as (t1 & -> & K1 & H1 & P1 & N1). cbn [bind].
    assert (R1 : ready t1 = true) by (rewrite (k_ready _ _ K1); easy). assert (S1 : size t1 = size t) by apply K1.
    destruct (set_next_ok t1 bi bi R1 ltac:(rewrite S1; lia)) as (t2 & -> & K2 & H2 & N2 & P2). cbn [bind].
    eexists. split; [easy|]. split; [apply (relinked_trans _ t1); [easy|]; apply (relinked_trans _ t2); [easy|apply relinked_head]|].
    apply DIS.
    + cbn. rewrite (k_size _ _ K2). easy.
    + intros w. change (bnx (set_head t2 v bi)) with (bnx t2). change (bpv (set_head t2 v bi)) with (bpv t2).
      destruct (which_dec w v) as [->|N].
      * rewrite updw_eq. apply ring_single; [rewrite N2, Z.eqb_refl; easy|rewrite P2, P1, Z.eqb_refl; easy].
      * rewrite updw_ne by easy. apply ring_ext with (nx := bnx t) (pv := bpv t); [| |apply (l_ring _ _ L w)].
        -- intros x J. rewrite N2, N1. destruct (Z.eqb_spec x bi) as [->|]; [elim (NI _ J)|easy].
        -- intros x J. rewrite P2, P1. destruct (Z.eqb_spec x bi) as [->|]; [elim (NI _ J)|easy].
    + intros w. rewrite head_set, H2, H1. easy.
  - cbn in HD. assert (Ih : In h (ls v)) by (rewrite E; now left). pose proof (l_in _ _ L _ _ Ih) as Bh. rewrite <- E in *.
    assert (Bp : 0 <= prev (blk t h) < size t / 256) by (eapply (l_in _ _ L v), (ring_prev_in _ _ _ _ RG Ih)).
    assert (Ip : In (prev (blk t h)) (ls v)) by apply (ring_prev_in _ _ _ _ RG Ih).
    rewrite HD. rewrite get_b_ok by easy. cbn [bind].
    destruct (set_prev_ok t bi (prev (blk t h)) R ltac:(lia)) as (t1 & -> & K1 & H1 & P1 & N1). cbn [bind].
    assert (R1 : ready t1 = true) by (rewrite (k_ready _ _ K1); easy). assert (S1 : size t1 = size t) by apply K1.
    destruct (set_next_ok t1 bi h R1 ltac:(rewrite S1; lia)) as (t2 & -> & K2 & H2 & N2 & P2). cbn [bind].
    assert (R2 : ready t2 = true) by (rewrite (k_ready _ _ K2); easy). assert (S2 : size t2 = size t) by (rewrite (k_size _ _ K2); easy).
    assert (HB : h <> bi) by (intros ->; apply (NI v); easy).
    rewrite get_b_ok by (rewrite ?S2; easy). cbn [bind].
    assert (G : prev (blk t2 h) = prev (blk t h)). { transitivity (bpv t1 h); [apply P2|]. rewrite P1. destruct (Z.eqb_spec h bi); easy. }
    rewrite G.
    destruct (set_next_ok t2 (prev (blk t h)) bi R2 ltac:(rewrite S2; lia)) as (t3 & -> & K3 & H3 & N3 & P3). cbn [bind].
    assert (R3 : ready t3 = true) by (rewrite (k_ready _ _ K3); easy). assert (S3 : size t3 = size t) by (rewrite (k_size _ _ K3); easy).
    destruct (set_prev_ok t3 h bi R3 ltac:(rewrite S3; lia)) as (t4 & -> & K4 & H4 & P4 & N4). cbn [bind].
    eexists. split; [easy|].
    split; [apply (relinked_trans _ t1); [easy|]; apply (relinked_trans _ t2); [easy|]; apply (relinked_trans _ t3); [easy|]; apply (relinked_trans _ t4); [easy|apply relinked_head]|].
    assert (NX : forall y, bnx (set_head t4 v bi) y = if y =? prev (blk t h) then bi else if y =? bi then h else bnx t y).
    { intros y. change (bnx (set_head t4 v bi) y) with (bnx t4 y). rewrite N4, N3, N2, N1. easy. }
    assert (PX : forall y, bpv (set_head t4 v bi) y = if y =? h then bi else if y =? bi then prev (blk t h) else bpv t y).
    { intros y. change (bpv (set_head t4 v bi) y) with (bpv t4 y). rewrite P4, P3, P2, P1. easy. }
    assert (PB : prev (blk t h) <> bi) by (intros F; apply (NI v); rewrite <- F; easy).
    apply DIS.
    + cbn. rewrite (k_size _ _ K4). easy.
    + intros w. destruct (which_dec w v) as [->|N].
      * rewrite updw_eq, E. apply ring_insert_before with (nx := bnx t) (pv := bpv t).
        -- rewrite <- E. easy.
        -- rewrite <- E. apply NI.
        -- rewrite PX, Z.eqb_refl. easy.
        -- rewrite PX. destruct (Z.eqb_spec bi h); [congruence|]. rewrite Z.eqb_refl. easy.
        -- unfold bpv at 1. rewrite NX, Z.eqb_refl. easy.
        -- rewrite NX. destruct (Z.eqb_spec bi (prev (blk t h))); [congruence|]. now rewrite Z.eqb_refl.
        -- intros x J N. rewrite <- E in J. rewrite NX. unfold bpv in N. destruct (Z.eqb_spec x (prev (blk t h))); [congruence|]. destruct (Z.eqb_spec x bi) as [->|]; [elim (NI _ J)|easy].
        -- intros x J N. rewrite <- E in J. rewrite PX. destruct (Z.eqb_spec x h); [congruence|]. destruct (Z.eqb_spec x bi) as [->|]; [elim (NI _ J)|easy].
      * rewrite updw_ne by easy. apply ring_ext with (nx := bnx t) (pv := bpv t); [| |apply (l_ring _ _ L w)].
        -- intros x J. rewrite NX. destruct (Z.eqb_spec x (prev (blk t h))) as [->|]; [elim N; now apply (l_dis _ _ L _ _ _ J)|]. destruct (Z.eqb_spec x bi) as [->|]; [elim (NI _ J)|easy].
        -- intros x J. rewrite PX. destruct (Z.eqb_spec x h) as [->|]; [elim N; now apply (l_dis _ _ L _ _ _ J)|]. destruct (Z.eqb_spec x bi) as [->|]; [elim (NI _ J)|easy].
    + intros w. rewrite head_set, H4, H3, H2, H1. easy.
Qed.

Lemma transfer_ok t ls bi w v : ready t = true -> LInv t ls -> In bi (ls w) -> bi <> 0 -> w <> v -> (num (blk t bi) = 0 <-> v = Full) ->
  exists t' ls', transfer_block t bi w v = Ok t' /\ relinked t t' /\ LInv t' ls' /\
    (forall x, In x (ls' w) <-> In x (ls w) /\ x <> bi) /\ ls' v = bi :: ls v /\ (forall u, u <> w -> u <> v -> ls' u = ls u) /\
    (forall l, ls w = bi :: l -> ls' w = l).
Proof.
  intros R L I NZ WV NF. pose proof (l_in _ _ L _ _ I) as B. unfold transfer_block. rewrite get_b_ok by easy. cbn [bind].
  destruct (pop_ok t ls bi w R L I NZ) as (t1 & l' & -> & K1 & L1 & IN & HD). cbn [bind].
  assert (R1 : ready t1 = true) by (rewrite (k_ready _ _ K1); easy). assert (S1 : size t1 = size t) by apply K1.
  rewrite get_b_ok by (rewrite ?S1; easy). cbn [bind].
  destruct (push_ok t1 (updw ls w l') bi v R1 L1) as (t2 & E & K2 & L2).
  - rewrite S1. lia.
  - intros u. destruct (which_dec u w) as [->|N]; [rewrite updw_eq, IN; tauto|]. rewrite updw_ne by congruence. intros J. apply N. now apply (l_dis _ _ L _ _ bi).
  - rewrite (k_num _ _ K1). easy.
  - exists t2. eexists. split; [exact E|]. split; [now apply (relinked_trans _ t1)|]. split; [exact L2|]. split; [|split; [|split]].
    + intros x. rewrite updw_ne, updw_eq by congruence. apply IN.
    + rewrite updw_eq, updw_ne by congruence. easy.
    + intros u U1 U2. rewrite updw_ne, updw_ne by congruence. easy.
    + intros l. rewrite updw_ne, updw_eq by congruence. apply HD.
Qed.
