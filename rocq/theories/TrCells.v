(** The free cells: taking one, giving one back, finding room. *)
From Verif Require Import Base ListAux TrModel TrRing TrFree.
Local Open Scope Z_scope.

Definition freec (t : da) (i : Z) : Prop := 0 < i < size t /\ check (arr t i) < 0.
Definition enx (t : da) (i : Z) : Z := - check (arr t i).
Definition epv (t : da) (i : Z) : Z := - base_ (arr t i).
Record Cells (t : da) (es : Z -> list Z) : Prop := {
  c_size : size t = 256 * (size t / 256);
  c_pos : 0 < size t / 256;
  c_root : check (arr t 0) < 0;
  c_ring : forall b, 0 <= b < size t / 256 -> ring (enx t) (epv t) (es b);
  c_in : forall b i, 0 <= b < size t / 256 -> (In i (es b) <-> freec t i /\ i / 256 = b) }.
Record Blocks (t : da) (es : Z -> list Z) (ls : which -> list Z) : Prop := {
  b_list : LInv t ls;
  b_num : forall b, 0 <= b < size t / 256 -> num (blk t b) = Z.of_nat (length (es b)) + (if b =? 0 then 1 else 0);
  b_ehead : forall b, 0 < b < size t / 256 -> es b <> [] -> ehead (blk t b) = hd 0 (es b);
  b_trial : forall b, 0 < b < size t / 256 -> trial (blk t b) = 0 \/ trial (blk t b) = 1;
  b_full : forall b, 0 < b < size t / 256 -> (In b (ls Full) <-> length (es b) = 0%nat);
  b_closed : forall b, 0 < b < size t / 256 -> (In b (ls Closed) <-> length (es b) = 1%nat \/ ((1 < length (es b))%nat /\ trial (blk t b) = 1));
  b_open : forall b, 0 < b < size t / 256 -> (In b (ls Open) <-> (1 < length (es b))%nat /\ trial (blk t b) = 0) }.
Definition FI (t : da) : Prop := ready t = true /\ exists es ls, Cells t es /\ Blocks t es ls.

Fixpoint zseq (a : Z) (n : nat) : list Z := match n with O => [] | S n => a :: zseq (a + 1) n end.
Lemma in_zseq n : forall a x, In x (zseq a n) <-> a <= x < a + Z.of_nat n.
Proof. induction n as [|n IH]; intros a x; cbn [zseq In]; [lia|]. rewrite IH. lia. Qed.
Lemma zseq_length n : forall a, length (zseq a n) = n.
Proof. induction n as [|n IH]; intros a; cbn; [easy|]. now rewrite IH. Qed.
Lemma zseq_nodup n : forall a, NoDup (zseq a n).
Proof. induction n as [|n IH]; intros a; cbn; constructor; [rewrite in_zseq; lia|apply IH]. Qed.
Lemma chain_zseq nx pv k : forall a z, (forall x, a <= x < a + Z.of_nat k -> nx x = x + 1) -> (forall x, a < x <= a + Z.of_nat k -> pv x = x - 1) ->
  nx (a + Z.of_nat k) = z -> pv z = a + Z.of_nat k -> chain nx pv a (zseq (a + 1) k) z.
Proof.
  induction k as [|k IH]; intros a z N P A B; cbn [zseq chain].
  - replace (a + Z.of_nat 0) with a in * by lia. easy.
  - split; [apply N; lia|]. split; [rewrite P by lia; lia|]. apply IH.
    + intros x Hx. apply N. lia.
    + intros x Hx. apply P. lia.
    + rewrite <- A. f_equal. lia.
    + rewrite B. lia.
Qed.

Lemma div_in i n : 0 <= i < 256 * n -> 0 <= i / 256 < n.
Proof. intros H. split; [apply Z.div_pos; lia|apply Z.div_lt_upper_bound; lia]. Qed.
Lemma in_div i b : i / 256 = b -> 256 * b <= i < 256 * b + 256.
Proof. intros <-. pose proof (Z.div_mod i 256 ltac:(lia)). pose proof (Z.mod_pos_bound i 256 ltac:(lia)). lia. Qed.
Lemma freec_block t es i : Cells t es -> freec t i -> 0 <= i / 256 < size t / 256.
Proof. intros C [H _]. apply div_in. pose proof (c_size _ _ C). lia. Qed.
Lemma es_length t es b : Cells t es -> 0 <= b < size t / 256 -> (length (es b) <= 256)%nat.
Proof.
  intros C B. rewrite <- (zseq_length 256 (256 * b)). apply NoDup_incl_length; [apply (c_ring _ _ C b B)|].
  intros x I. apply (c_in _ _ C b x B) in I as [_ D]. apply in_div in D. apply in_zseq. lia.
Qed.
Lemma es_length0 t es : Cells t es -> (length (es 0%Z) <= 255)%nat.
Proof.
  intros C. pose proof (c_pos _ _ C) as P. rewrite <- (zseq_length 255 1). apply NoDup_incl_length; [apply (c_ring _ _ C 0); lia|].
  intros x I. apply (c_in _ _ C 0 x ltac:(lia)) in I as [[F _] D]. apply in_div in D. apply in_zseq. lia.
Qed.

(** ** Fields of a block *)
Record sameA (t t' : da) : Prop := {
  s_arr : arr t' = arr t; s_inf : inf t' = inf t; s_size : size t' = size t; s_ready : ready t' = ready t }.
Record sameL (t t' : da) : Prop := {
  s_head : forall w, head t' w = head t w; s_nx : forall x, bnx t' x = bnx t x; s_pv : forall x, bpv t' x = bpv t x }.
Lemma LInv_same t t' ls : size t' = size t -> sameL t t' -> LInv t ls -> LInv t' ls.
Proof.
  intros Z [H N P] [A B C D E]. split; try easy.
  - intros w. apply ring_ext with (nx := bnx t) (pv := bpv t); [easy|easy|apply A].
  - intros w. rewrite H. apply B.
  - intros w x. rewrite Z. apply C.
Qed.
Ltac fields := intros R B; match goal with |- exists _, ?f _ _ _ = _ /\ _ => unfold f end; rewrite get_b_ok by easy; cbn [bind]; rewrite set_b_ok by easy;
  eexists; split; [reflexivity|]; split; [now split|]; split; [split; [easy| |]; intros y; unfold bnx, bpv, upd; cbn; match goal with |- context [?u =? ?v] => destruct (Z.eqb_spec u v) end; subst; easy|];
  repeat split; intros y; unfold upd; cbn; match goal with |- context [?u =? ?v] => destruct (Z.eqb_spec u v) end; subst; easy.
Lemma set_num_ok t i x : ready t = true -> 0 <= i < size t / 256 -> exists t', set_num t i x = Ok t' /\ sameA t t' /\ sameL t t' /\
  (forall y, num (blk t' y) = if y =? i then x else num (blk t y)) /\ (forall y, trial (blk t' y) = trial (blk t y)) /\
  (forall y, ehead (blk t' y) = ehead (blk t y)).
Proof. fields. Qed.
Lemma set_trial_ok t i x : ready t = true -> 0 <= i < size t / 256 -> exists t', set_trial t i x = Ok t' /\ sameA t t' /\ sameL t t' /\
  (forall y, num (blk t' y) = num (blk t y)) /\ (forall y, trial (blk t' y) = if y =? i then x else trial (blk t y)) /\
  (forall y, ehead (blk t' y) = ehead (blk t y)).
Proof. fields. Qed.
Lemma set_ehead_ok t i x : ready t = true -> 0 <= i < size t / 256 -> exists t', set_ehead t i x = Ok t' /\ sameA t t' /\ sameL t t' /\
  (forall y, num (blk t' y) = num (blk t y)) /\ (forall y, trial (blk t' y) = trial (blk t y)) /\
  (forall y, ehead (blk t' y) = if y =? i then x else ehead (blk t y)).
Proof. fields. Qed.
Lemma set_reject_ok t i x : ready t = true -> 0 <= i < size t / 256 -> exists t', set_reject t i x = Ok t' /\ sameA t t' /\ sameL t t' /\
  (forall y, num (blk t' y) = num (blk t y)) /\ (forall y, trial (blk t' y) = trial (blk t y)) /\
  (forall y, ehead (blk t' y) = ehead (blk t y)).
Proof. fields. Qed.
Lemma set_r_ok t i x : 0 <= i < 257 -> exists t', set_r t i x = Ok t' /\ sameA t t' /\ sameL t t' /\
  (forall y, num (blk t' y) = num (blk t y)) /\ (forall y, trial (blk t' y) = trial (blk t y)) /\
  (forall y, ehead (blk t' y) = ehead (blk t y)).
Proof. intros B. unfold set_r. rewrite inside_ok by easy. eexists. split; [easy|]. now repeat split. Qed.

(** ** Taking a cell *)
Definition put (t : da) (e : Z) (n : node) : da :=
  Da (upd (arr t) e n) (inf t) (blk t) (headF t) (headC t) (headO t) (size t) (rej t) (ready t).
Record takes (t t' : da) (e : Z) (n : node) : Prop := {
  k_fi : FI t';
  k_at : arr t' e = n;
  k_keep : forall y, y <> e -> ~ freec t y -> arr t' y = arr t y;
  k_free : forall y, freec t' y <-> freec t y /\ y <> e;
  k_i : inf t' = inf t;
  k_sz : size t' = size t }.

(** the arrays after the cell left its ring *)
Definition unlinked (t t' : da) (e : Z) : Prop :=
  (forall y, enx t' y = if y =? epv t e then enx t e else enx t y) /\
  (forall y, epv t' y = if y =? enx t e then epv t e else epv t y).
Lemma unlinked_cells t es e l1 l2 n t1 : Cells t es -> freec t e -> es (e / 256) = l1 ++ e :: l2 -> 0 <= check n ->
  size t1 = size t -> inf t1 = inf t ->
  (forall y, y <> e -> ~ freec t y -> arr t1 y = arr t y) ->
  (arr t1 = arr t /\ l1 = [] /\ l2 = [] \/ unlinked t t1 e) ->
  let t' := put t1 e n in
  let es' := upd es (e / 256) (l1 ++ l2) in
  Cells t' es' /\ arr t' e = n /\ (forall y, y <> e -> ~ freec t y -> arr t' y = arr t y) /\ (forall y, freec t' y <-> freec t y /\ y <> e).
Proof.
  intros C F EQ N S1 I1 K U t' es'. pose proof (freec_block _ _ _ C F) as B. pose proof (c_ring _ _ C _ B) as RG.
  assert (Ie : In e (es (e / 256))) by (apply (c_in _ _ C _ _ B); easy).
  assert (PF : In (epv t e) (es (e / 256))) by apply (ring_prev_in _ _ _ _ RG Ie).
  assert (NF : In (enx t e) (es (e / 256))) by apply (ring_next_in _ _ _ _ RG Ie).
  assert (CH : forall y, y <> e -> (check (arr t1 y) < 0 <-> check (arr t y) < 0)).
  { intros y Y. destruct U as [(-> & _)|[U1 U2]]; [easy|]. pose proof (U1 y) as V. unfold enx at 1 in V. destruct (Z.eqb_spec y (epv t e)) as [E|NE].
    - rewrite <- E in PF. apply (c_in _ _ C _ _ B) in PF, NF. destruct PF as [[_ PF] _], NF as [[NF _] _]. lia.
    - unfold enx in V. lia. }
  assert (FR : forall y, freec t' y <-> freec t y /\ y <> e).
  { intros y. unfold freec, t'; cbn. rewrite S1. destruct (Z.eq_dec y e) as [->|Y].
    - rewrite upd_eq. lia.
    - rewrite upd_ne by easy. rewrite (CH y Y). tauto. }
  split; [|split; [apply upd_eq|split; [intros y Y NF'; unfold t'; cbn; rewrite upd_ne by easy; now apply K|easy]]]. split.
  - cbn. rewrite S1. apply (c_size _ _ C).
  - cbn. rewrite S1. apply (c_pos _ _ C).
  - cbn. destruct F as [F _]. rewrite upd_ne by lia. apply CH; [lia|]. apply (c_root _ _ C).
  - intros b Hb. cbn in Hb. rewrite S1 in Hb. unfold es'. destruct (Z.eq_dec b (e / 256)) as [->|NB].
    + rewrite upd_eq. destruct U as [(_ & -> & ->)|[U1 U2]]; [split; [constructor|easy]|].
      assert (ND : NoDup (l1 ++ e :: l2)) by (rewrite <- EQ; apply RG).
      assert (NE : ~ In e (l1 ++ l2)) by now apply NoDup_remove_2.
      destruct (list_eq_dec Z.eq_dec (l2 ++ l1) []) as [E|E]; [apply app_eq_nil in E as [-> ->]; split; [constructor|easy]|].
      apply ring_rotate. 
      assert (RG' : ring (enx t) (epv t) (e :: l2 ++ l1)). { rewrite EQ in RG. apply ring_rotate in RG. exact RG. }
      assert (NEP : epv t e <> e). { intros X. destruct RG' as [ND' CC]. pose proof (chain_prev _ _ _ _ _ CC) as L. rewrite X in L.
        apply NoDup_cons_iff in ND' as [Y _]. apply Y. rewrite L at 1. now apply last_in. }
      assert (NEN : enx t e <> e). { intros X. pose proof (ring_alone _ _ _ _ RG' (or_introl eq_refl) X) as L. injection L as L. now apply E. }
      apply ring_remove with (nx := enx t) (pv := epv t) (e := e); [exact RG'|easy| | | |].
      * unfold enx at 1. cbn. rewrite upd_ne by easy. change (- check (arr t1 (epv t e))) with (enx t1 (epv t e)). rewrite U1, Z.eqb_refl. easy.
      * unfold epv at 1. cbn. rewrite upd_ne by easy. change (- base_ (arr t1 (enx t e))) with (epv t1 (enx t e)). rewrite U2, Z.eqb_refl. easy.
      * intros x J X. assert (x <> e) by (intros ->; apply NE; rewrite in_app_iff in *; tauto). unfold enx at 1. cbn. rewrite upd_ne by easy.
        change (- check (arr t1 x)) with (enx t1 x). rewrite U1. destruct (Z.eqb_spec x (epv t e)); easy.
      * intros x J X. assert (x <> e) by (intros ->; apply NE; rewrite in_app_iff in *; tauto). unfold epv at 1. cbn. rewrite upd_ne by easy.
        change (- base_ (arr t1 x)) with (epv t1 x). rewrite U2. destruct (Z.eqb_spec x (enx t e)); easy.
    + rewrite upd_ne by easy. assert (X : forall x, In x (es b) -> arr t' x = arr t x).
      { intros x J. apply (c_in _ _ C b x Hb) in J as [J D]. assert (x <> e) by (intros E; apply NB; rewrite <- D, E; easy). unfold t'; cbn. rewrite upd_ne by easy.
        destruct U as [(-> & _)|[U1 U2]]; [easy|]. pose proof (U1 x) as V1. pose proof (U2 x) as V2.
        destruct (Z.eqb_spec x (epv t e)) as [E|]; [apply (c_in _ _ C _ _ B) in PF as [_ PF]; congruence|].
        destruct (Z.eqb_spec x (enx t e)) as [E|]; [apply (c_in _ _ C _ _ B) in NF as [_ NF]; congruence|].
        unfold enx, epv in V1, V2. destruct (arr t1 x), (arr t x). cbn in *. f_equal; lia. }
      apply ring_ext with (nx := enx t) (pv := epv t); [intros x J; unfold enx; now rewrite X|intros x J; unfold epv; now rewrite X|]. now apply (c_ring _ _ C).
  - intros b i Hb. cbn in Hb. rewrite S1 in Hb. rewrite FR. unfold es'. destruct (Z.eq_dec b (e / 256)) as [->|NB].
    + rewrite upd_eq. assert (ND : NoDup (l1 ++ e :: l2)) by (rewrite <- EQ; apply RG). assert (NE : ~ In e (l1 ++ l2)) by now apply NoDup_remove_2.
      pose proof (c_in _ _ C (e / 256) i B) as CI. rewrite EQ in CI. rewrite in_app_iff in *. cbn in CI. split.
      * intros J. assert (i <> e) by (intros ->; tauto). tauto.
      * intros [[J1 J2] J3]. assert (J : In i l1 \/ e = i \/ In i l2) by tauto. destruct J as [J|[J|J]]; [tauto|congruence|tauto].
    + rewrite upd_ne by easy. rewrite (c_in _ _ C b i Hb). split; [|tauto]. intros [J D]. split; [split; [exact J|]|exact D]. intros E. apply NB. rewrite <- D, E. easy.
Qed.

Lemma unlink_ok t e n : FI t -> freec t e -> 0 <= check n -> exists t1, unlink_enode t e = Ok t1 /\ size t1 = size t /\ takes t (put t1 e n) e n.
Proof.
  intros (R & es & ls & C & BK) F N. pose proof (freec_block _ _ _ C F) as B. pose proof (c_ring _ _ C _ B) as RG. pose proof (c_size _ _ C) as SZ.
  assert (Ie : In e (es (e / 256))) by (apply (c_in _ _ C _ _ B); easy).
  destruct (in_split _ _ Ie) as (l1 & l2 & EQ). set (bi := e / 256) in *.
  assert (LEN : length (es bi) = S (length (l1 ++ l2))) by (rewrite EQ, !app_length; cbn; lia).
  pose proof (b_num _ _ _ BK bi B) as NUM. pose proof (b_list _ _ _ BK) as LI.
  unfold unlink_enode. fold bi. rewrite get_b_ok by easy. cbn [bind].
  destruct (set_num_ok t bi (num (blk t bi) - 1) R B) as (t1 & -> & A1 & L1 & NU1 & TR1 & EH1). cbn [bind].
  pose proof (LInv_same _ _ _ (s_size _ _ A1) L1 LI) as LI1. assert (R1 : ready t1 = true) by (rewrite (s_ready _ _ A1); easy).
  assert (SZ1 : size t1 = size t) by apply A1.
  destruct (Z.eqb_spec (num (blk t bi) - 1) 0) as [Z0|NZ0].
  - (* the last cell of its block *)
    destruct (Z.eqb_spec bi 0) as [B0|NB0]; [destruct (bi =? 0) eqn:E0; [lia|apply Z.eqb_neq in E0; lia]|].
    assert (L0 : length (l1 ++ l2) = 0%nat) by (destruct (bi =? 0) eqn:E0; lia). rewrite app_length in L0. destruct l1; [|easy]. destruct l2; [|easy].
    assert (IC : In bi (ls Closed)) by (apply (b_closed _ _ _ BK); [lia|]; left; rewrite LEN; easy).
    cbn [negb]. destruct (transfer_ok t1 ls bi Closed Full R1 LI1 IC NB0 ltac:(easy)) as (t2 & ls' & -> & K2 & LI2 & IN1 & IN2 & IN3 & _).
    { rewrite NU1, Z.eqb_refl. intuition lia. }
    assert (AR : arr t2 = arr t) by (rewrite (k_arr _ _ K2); apply A1). assert (SZ2 : size t2 = size t) by (rewrite (k_size _ _ K2); easy).
    assert (IN : inf t2 = inf t) by (rewrite (k_inf _ _ K2); apply A1).
    destruct (unlinked_cells t es e [] [] n t2 C F EQ N SZ2 IN) as (C' & AT & KE & FR); [intros; now rewrite AR|now left|].
    exists t2. split; [easy|]. split; [easy|]. split; try easy. split; [cbn; rewrite (k_ready _ _ K2); easy|]. exists (upd es bi []), ls'. split; [exact C'|].
    assert (X : forall b, ls' Open = ls Open /\ (In b (ls' Full) <-> b = bi \/ In b (ls Full)) /\ (In b (ls' Closed) <-> In b (ls Closed) /\ b <> bi)).
    { intros b. split; [now apply IN3|]. split; [rewrite IN2; cbn; intuition congruence|apply IN1]. }
    split; cbn [put size blk]; rewrite ?SZ2.
    + apply (LInv_same t2); [easy|now split|easy].
    + intros b Hb. rewrite (k_num _ _ K2), NU1. unfold upd. destruct (Z.eqb_spec b bi) as [->|NB]; [|apply (b_num _ _ _ BK b Hb)]. rewrite Z0. destruct (Z.eqb_spec bi 0); easy.
    + intros b Hb. rewrite (k_ehead _ _ K2), EH1. unfold upd. destruct (Z.eqb_spec b bi) as [->|NB]; [easy|]. apply (b_ehead _ _ _ BK b Hb).
    + intros b Hb. rewrite (k_trial _ _ K2), TR1. apply (b_trial _ _ _ BK b Hb).
    + intros b Hb. destruct (X b) as (_ & -> & _). rewrite (b_full _ _ _ BK b Hb). unfold upd. destruct (Z.eqb_spec b bi) as [->|NB]; cbn; tauto.
    + intros b Hb. destruct (X b) as (_ & _ & ->). rewrite (k_trial _ _ K2), TR1, (b_closed _ _ _ BK b Hb). unfold upd. destruct (Z.eqb_spec b bi) as [->|NB]; cbn; [|tauto]. intuition lia.
    + intros b Hb. destruct (X b) as (-> & _ & _). rewrite (k_trial _ _ K2), TR1, (b_open _ _ _ BK b Hb). unfold upd. destruct (Z.eqb_spec b bi) as [->|NB]; cbn; [|tauto]. rewrite LEN. cbn. lia.
  - assert (AR1 : arr t1 = arr t) by apply A1.
    assert (PI : In (epv t e) (es bi)) by apply (ring_prev_in _ _ _ _ RG Ie).
    assert (NI : In (enx t e) (es bi)) by apply (ring_next_in _ _ _ _ RG Ie).
    assert (PB : 0 <= epv t e < size t) by (apply (c_in _ _ C _ _ B) in PI as [[PI _] _]; lia).
    assert (NB : 0 <= enx t e < size t) by (apply (c_in _ _ C _ _ B) in NI as [[NI _] _]; lia).
    rewrite get_a_ok by (rewrite SZ1; destruct F; lia). cbn [bind]. rewrite AR1. change (- base_ (arr t e)) with (epv t e).
    rewrite set_check_ok by (rewrite SZ1; easy). cbn [bind]. rewrite AR1.
    set (a2 := upd (arr t) (epv t e) (Node (base_ (arr t (epv t e))) (check (arr t e)))).
    set (t2 := Da a2 (inf t1) (blk t1) (headF t1) (headC t1) (headO t1) (size t1) (rej t1) (ready t1)).
    assert (A2e : a2 e = arr t e).
    { unfold a2, upd. destruct (Z.eqb_spec e (epv t e)) as [X|]; [|easy]. rewrite <- X. destruct (arr t e); easy. }
    rewrite get_a_ok by (cbn; rewrite SZ1; destruct F; lia). cbn [bind]. change (arr t2 e) with (a2 e). rewrite A2e. change (- check (arr t e)) with (enx t e).
    rewrite set_base_ok by (cbn; rewrite SZ1; easy). cbn [bind]. change (arr t2 (enx t e)) with (a2 (enx t e)). change (arr t2) with a2.
    set (a3 := upd a2 (enx t e) (Node (base_ (arr t e)) (check (a2 (enx t e))))).
    cbn [inf blk headF headC headO size rej ready t2].
    set (t3 := Da a3 (inf t1) (blk t1) (headF t1) (headC t1) (headO t1) (size t1) (rej t1) (ready t1)).
    assert (A3e : check (a3 e) = check (arr t e)).
    { unfold a3, upd. destruct (Z.eqb_spec e (enx t e)) as [X|]; [|now rewrite A2e]. rewrite <- X. cbn. now rewrite A2e. }
    assert (U3 : unlinked t t3 e).
    { unfold unlinked, enx at 1, epv at 2. unfold t3; cbn. split; intros y.
      - unfold a3, upd. destruct (Z.eqb_spec y (enx t e)) as [->|Y]; cbn; unfold a2, upd; [destruct (Z.eqb_spec (enx t e) (epv t e)); easy|]. destruct (Z.eqb_spec y (epv t e)) as [->|]; easy.
      - unfold a3, upd. destruct (Z.eqb_spec y (enx t e)) as [->|Y]; cbn; [easy|]. unfold a2, upd. destruct (Z.eqb_spec y (epv t e)) as [->|]; easy. }
    assert (K3 : forall y, y <> e -> ~ freec t y -> a3 y = arr t y).
    { intros y Y NF. unfold a3, upd. destruct (Z.eqb_spec y (enx t e)) as [->|]; [elim NF; apply (c_in _ _ C _ _ B); easy|]. unfold a2, upd.
      destruct (Z.eqb_spec y (epv t e)) as [->|]; [elim NF; apply (c_in _ _ C _ _ B); easy|easy]. }
    rewrite get_a_ok by (cbn; rewrite SZ1; destruct F; lia). cbn [bind]. change (arr t3 e) with (a3 e). rewrite A3e. change (- check (arr t e)) with (enx t e).
    assert (A3 : inf t3 = inf t) by (cbn; apply A1). assert (S3 : size t3 = size t) by (cbn; easy). assert (R3 : ready t3 = true) by easy.
    assert (LI3 : LInv t3 ls) by (apply (LInv_same t1); [easy|now split|easy]).
    rewrite get_b_ok by (rewrite ?S3; easy). cbn [bind].
    assert (T4 : exists t4, (if e =? ehead (blk t3 bi) then set_ehead t3 bi (enx t e) else Ok t3) = Ok t4 /\ sameA t3 t4 /\ sameL t3 t4 /\
      (forall y, num (blk t4 y) = num (blk t1 y)) /\ (forall y, trial (blk t4 y) = trial (blk t1 y)) /\
      (forall y, ehead (blk t4 y) = if (y =? bi) && (e =? ehead (blk t bi)) then enx t e else ehead (blk t y))).
    { change (blk t3) with (blk t1). rewrite EH1. destruct (Z.eqb_spec e (ehead (blk t bi))) as [X|X].
      - destruct (set_ehead_ok t3 bi (enx t e) R3 ltac:(rewrite S3; easy)) as (t4 & -> & ? & ? & ? & ? & Q). exists t4. split; [easy|]. repeat (split; [easy|]).
        intros y. rewrite Q. change (blk t3) with (blk t1). rewrite EH1, andb_true_r. easy.
      - exists t3. split; [easy|]. split; [now split|]. split; [now split|]. split; [easy|]. split; [easy|]. intros y. rewrite andb_false_r. apply EH1. }
    destruct T4 as (t4 & -> & A4 & L4 & NU4 & TR4 & EH4). cbn [bind].
    assert (S4 : size t4 = size t) by (rewrite (s_size _ _ A4); easy). assert (R4 : ready t4 = true) by (rewrite (s_ready _ _ A4); easy).
    pose proof (LInv_same _ _ _ (s_size _ _ A4) L4 LI3) as LI4.
    rewrite get_b_ok by (rewrite ?S4; easy). cbn [bind].
    assert (EHN : 0 < bi -> (l1 ++ l2) <> [] -> (if e =? ehead (blk t bi) then enx t e else ehead (blk t bi)) = hd 0 (l1 ++ l2)).
    { intros P NE. pose proof (b_ehead _ _ _ BK bi ltac:(lia)) as EH. rewrite EQ in EH.
      assert (EH' : ehead (blk t bi) = hd 0 (l1 ++ e :: l2)) by (apply EH; destruct l1; easy). rewrite EH'.
      assert (ND : NoDup (l1 ++ e :: l2)) by (rewrite <- EQ; apply RG).
      destruct l1 as [|a l1]; cbn.
      - rewrite Z.eqb_refl. rewrite EQ in RG. destruct RG as [_ CC]. apply chain_next in CC. rewrite CC. destruct l2; easy.
      - destruct (Z.eqb_spec e a) as [->|]; [|easy]. cbn in ND. apply NoDup_cons_iff in ND as [X _]. elim X. rewrite in_app_iff. right. now left. }
    rewrite NU4, NU1, Z.eqb_refl, TR4, TR1.
    assert (FIN : forall t5 ls', relinked t4 t5 -> LInv t5 ls' ->
      (forall b, 0 < b < size t / 256 -> (In b (ls' Full) <-> In b (ls Full)) /\
         (In b (ls' Closed) <-> if b =? bi then length (l1 ++ l2) = 1%nat \/ (1 < length (l1 ++ l2))%nat /\ trial (blk t b) = 1 else In b (ls Closed)) /\
         (In b (ls' Open) <-> if b =? bi then (1 < length (l1 ++ l2))%nat /\ trial (blk t b) = 0 else In b (ls Open))) ->
      takes t (put t5 e n) e n).
    { intros t5 ls' K5 LI5 X. assert (S5 : size t5 = size t) by (rewrite (k_size _ _ K5); easy).
      assert (A5 : arr t5 = a3) by (rewrite (k_arr _ _ K5); apply A4). assert (I5 : inf t5 = inf t) by (rewrite (k_inf _ _ K5), (s_inf _ _ A4); easy).
      destruct (unlinked_cells t es e l1 l2 n t5 C F EQ N S5 I5) as (C' & AT & KE & FR).
      - intros y Y NF. rewrite A5. now apply K3.
      - right. destruct U3 as [U1 U2]. split; intros y; [rewrite <- U1; unfold enx; now rewrite A5|rewrite <- U2; unfold epv; now rewrite A5].
      - fold bi in C'. split; try easy. split; [cbn; rewrite (k_ready _ _ K5); easy|]. exists (upd es bi (l1 ++ l2)), ls'. split; [exact C'|].
        assert (NF0 : 0 < bi -> length (l1 ++ l2) <> 0%nat). { intros P E. rewrite NUM, LEN in NZ0. rewrite E in NZ0. destruct (Z.eqb_spec bi 0); lia. }
        split; cbn [put size blk]; rewrite ?S5.
        + apply (LInv_same t5); [easy|now split|easy].
        + intros b Hb. rewrite (k_num _ _ K5), NU4, NU1. unfold upd. destruct (Z.eqb_spec b bi) as [->|Nb]; [|apply (b_num _ _ _ BK b Hb)]. lia.
        + intros b Hb. rewrite (k_ehead _ _ K5), EH4. unfold upd. destruct (Z.eqb_spec b bi) as [->|Nb]; [|apply (b_ehead _ _ _ BK b Hb)]. intros NE. cbn [andb]. apply EHN; [lia|easy].
        + intros b Hb. rewrite (k_trial _ _ K5), TR4, TR1. apply (b_trial _ _ _ BK b Hb).
        + intros b Hb. destruct (X b Hb) as (-> & _ & _). rewrite (b_full _ _ _ BK b Hb). unfold upd. destruct (Z.eqb_spec b bi) as [->|Nb]; [|tauto]. rewrite LEN. specialize (NF0 ltac:(lia)). lia.
        + intros b Hb. destruct (X b Hb) as (_ & -> & _). rewrite (k_trial _ _ K5), TR4, TR1. unfold upd. destruct (Z.eqb_spec b bi) as [->|Nb]; [easy|apply (b_closed _ _ _ BK b Hb)].
        + intros b Hb. destruct (X b Hb) as (_ & _ & ->). rewrite (k_trial _ _ K5), TR4, TR1. unfold upd. destruct (Z.eqb_spec b bi) as [->|Nb]; [easy|apply (b_open _ _ _ BK b Hb)]. }
    destruct (negb (bi =? 0) && (num (blk t bi) - 1 =? 1) && negb (trial (blk t bi) =? MAX_TRIAL)) eqn:CND.
    + apply andb_prop in CND as [CND T1]. apply andb_prop in CND as [B0 N1]. apply negb_true_iff, Z.eqb_neq in B0. apply Z.eqb_eq in N1. apply negb_true_iff, Z.eqb_neq in T1. unfold MAX_TRIAL in T1.
      assert (HB : 0 < bi < size t / 256) by lia. pose proof (b_trial _ _ _ BK bi HB) as T. assert (T0 : trial (blk t bi) = 0) by lia.
      rewrite (proj2 (Z.eqb_neq bi 0) B0) in NUM. assert (L1' : length (l1 ++ l2) = 1%nat) by lia.
      assert (IO : In bi (ls Open)) by (apply (b_open _ _ _ BK bi HB); split; [lia|easy]).
      destruct (transfer_ok t4 ls bi Open Closed R4 LI4 IO B0 ltac:(easy)) as (t5 & ls' & -> & K5 & LI5 & IN1 & IN2 & IN3 & _).
      { rewrite NU4, NU1, Z.eqb_refl. split; [lia|easy]. }
      exists t5. split; [easy|]. split; [rewrite (k_size _ _ K5); easy|]. apply (FIN t5 ls'); [easy|easy|]. intros b Hb. split; [now rewrite IN3|]. split.
      * rewrite IN2. cbn. destruct (Z.eqb_spec b bi) as [->|Nb]; [tauto|]. intuition congruence.
      * rewrite IN1. destruct (Z.eqb_spec b bi) as [->|Nb]; [|tauto]. split; [tauto|]. lia.
    + exists t4. split; [easy|]. split; [easy|]. apply (FIN t4 ls); [now split|easy|]. intros b Hb. split; [tauto|].
      destruct (Z.eqb_spec b bi) as [->|Nb]; [|tauto]. rewrite (b_closed _ _ _ BK bi Hb), (b_open _ _ _ BK bi Hb). rewrite LEN.
      destruct (Z.eqb_spec bi 0) as [|_]; [lia|]. cbn in CND. pose proof (b_trial _ _ _ BK bi Hb) as T. unfold MAX_TRIAL in CND.
      destruct (Z.eqb_spec (num (blk t bi) - 1) 1), (Z.eqb_spec (trial (blk t bi)) 1); cbn in CND; try discriminate; lia.
Qed.
