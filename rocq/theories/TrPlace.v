(** Finding room for a set of children, and the first state. *)
From Verif Require Import Base ListAux TrModel TrRing TrFree TrCells TrRoom.
Local Open Scope Z_scope.
Local Arguments zseq : simpl never.

Record grow (t t' : da) : Prop := {
  w_size : size t <= size t';
  w_arr : forall y, y < size t -> arr t' y = arr t y;
  w_free : forall y, freec t' y <-> freec t y \/ size t <= y < size t';
  w_inf : forall y, y < size t -> inf t' y = inf t y;
  w_new : forall y, size t <= y < size t' -> inf t' y = Info 0 0 }.
Lemma grow_refl t : grow t t.
Proof. split; [lia|easy|intros y; intuition lia|easy|lia]. Qed.
Lemma grow_trans t t1 t2 : 0 < size t -> grow t t1 -> grow t1 t2 -> grow t t2.
Proof.
  intros P [A1 B1 C1 D1 E1] [A2 B2 C2 D2 E2]. split.
  - lia.
  - intros y Y. rewrite B2 by lia. now apply B1.
  - intros y. rewrite C2, C1. intuition lia.
  - intros y Y. rewrite D2 by lia. now apply D1.
  - intros y Y. destruct (Z.lt_ge_cases y (size t1)); [rewrite D2 by lia; apply E1; lia|apply E2; lia].
Qed.
Lemma grow_same t t' : sameA t t' -> grow t t'.
Proof.
  intros [A I S _]. split; rewrite ?A, ?I, ?S; [lia|easy|intros y; unfold freec; rewrite A, S; intuition lia|easy|lia].
Qed.
Lemma grow_relinked t t' : relinked t t' -> grow t t'.
Proof. intros K. apply grow_same. split; apply K. Qed.

Lemma add_block_ok t : FI t -> exists t', add_block t = Ok (t', size t / 256) /\ grow t t' /\ FI t' /\ size t' = size t + 256.
Proof.
  intros (R & es & ls & C & BK). pose proof (c_size _ _ C) as SZ. pose proof (c_pos _ _ C) as PZ. unfold add_block. rewrite R. cbn [negb].
  set (n := size t) in *. set (nb := n / 256) in *.
  match goal with |- context [push_block ?x _ _ _] => set (t1 := x) end.
  assert (NB1 : size t1 / 256 = nb + 1) by (cbn; rewrite SZ; fold nb; replace (256 * nb + 256) with ((nb + 1) * 256) by lia; apply Z.div_mul; easy).
  assert (OLD : forall y, y < n -> arr t1 y = arr t y). { intros y Y. cbn. destruct (Z.leb_spec n y); [lia|easy]. }
  assert (NEW : forall y, n <= y < n + 256 -> arr t1 y = Node (if y =? n then - (n + 255) else - (y - 1)) (if y =? n + 255 then - n else - (y + 1))).
  { intros y Y. cbn. destruct (Z.leb_spec n y), (Z.ltb_spec y (n + 256)); try lia. cbn. destruct (Z.eqb_spec y n), (Z.eqb_spec y (n + 255)); try lia; try easy; f_equal; lia. }
  assert (FR : forall y, freec t1 y <-> freec t y \/ n <= y < n + 256).
  { intros y. unfold freec. change (size t1) with (n + 256). fold n. destruct (Z.lt_ge_cases y n); [rewrite OLD by easy; lia|].
    destruct (Z.lt_ge_cases y (n + 256)); [|lia]. rewrite NEW by lia. cbn. destruct (y =? n + 255); lia. }
  set (es1 := upd es nb (zseq n 256)).
  assert (C1 : Cells t1 es1).
  { split; rewrite ?NB1.
    - change (size t1) with (n + 256). lia.
    - lia.
    - rewrite OLD by lia. apply C.
    - intros b Hb. unfold es1. destruct (Z.eq_dec b nb) as [->|NE].
      + rewrite upd_eq. split; [apply zseq_nodup|]. change (zseq n 256) with (n :: zseq (n + 1) 255). apply chain_zseq.
        * intros x Hx. unfold enx. rewrite NEW by lia. cbn. destruct (Z.eqb_spec x (n + 255)); lia.
        * intros x Hx. unfold epv. rewrite NEW by lia. cbn. destruct (Z.eqb_spec x n); lia.
        * unfold enx. rewrite NEW by lia. cbn. destruct (Z.eqb_spec (n + 255) (n + 255)); lia.
        * unfold epv. rewrite NEW by lia. cbn [base_]. rewrite Z.eqb_refl. lia.
      + rewrite upd_ne by easy. apply ring_ext with (nx := enx t) (pv := epv t); [| |apply (c_ring _ _ C); fold n nb; lia].
        * intros x J. apply (c_in _ _ C) in J as [[J _] _]; [|fold n nb; lia]. unfold enx. rewrite OLD; [easy|fold n in J; lia].
        * intros x J. apply (c_in _ _ C) in J as [[J _] _]; [|fold n nb; lia]. unfold epv. rewrite OLD; [easy|fold n in J; lia].
    - intros b i Hb. rewrite FR. unfold es1. destruct (Z.eq_dec b nb) as [->|NE].
      + rewrite upd_eq, in_zseq. split.
        * intros Hi. split; [lia|]. symmetry. apply (Z.div_unique_pos i 256 nb (i - n)); lia.
        * intros [[J|J] D]; [|lia]. destruct J as [J _]. fold n in J. apply in_div in D. lia.
      + rewrite upd_ne by easy. rewrite (c_in _ _ C) by (fold n nb; lia). split; [tauto|]. intros [[J|J] D]; [tauto|]. apply in_div in D. lia. }
  assert (L1 : LInv t1 ls).
  { pose proof (b_list _ _ _ BK) as LI. split; try apply LI.
    - intros w. apply ring_ext with (nx := bnx t) (pv := bpv t); [| |apply LI]; intros x J; apply (l_in _ _ LI) in J; fold n nb in J; unfold bnx, bpv; cbn; now rewrite upd_ne by (fold n nb; lia).
    - intros w x J. rewrite NB1. apply (l_in _ _ LI) in J. fold n nb in J. lia. }
  destruct (push_ok t1 ls nb Open eq_refl L1) as (t2 & E & K2 & L2).
  { rewrite NB1. lia. }
  { intros w J. apply (l_in _ _ (b_list _ _ _ BK)) in J. fold n nb in J. lia. }
  { cbn. rewrite upd_eq. cbn. split; easy. }
  assert (NUM : num (blk t1 nb) = 256) by (cbn; now rewrite upd_eq).
  rewrite NUM in E. replace ((head t1 Open =? 0) && negb (256 =? 0)) with (head t1 Open =? 0) in E by (cbn; now rewrite andb_true_r).
  rewrite E. cbn [bind]. exists t2. split; [easy|]. assert (SZ2 : size t2 = n + 256) by (rewrite (k_size _ _ K2); easy).
  split; [|split; [|easy]].
  - split; fold n; rewrite ?SZ2.
    + lia.
    + intros y Y. rewrite (k_arr _ _ K2). now apply OLD.
    + intros y. rewrite <- FR. unfold freec. rewrite (k_arr _ _ K2), (k_size _ _ K2). easy.
    + intros y Y. rewrite (k_inf _ _ K2). cbn. fold n. destruct (Z.leb_spec n y); [lia|easy].
    + intros y Y. rewrite (k_inf _ _ K2). cbn. fold n. destruct (Z.leb_spec n y), (Z.ltb_spec y (n + 256)); lia || easy.
  - split; [rewrite (k_ready _ _ K2); easy|]. exists es1. eexists. split; [|split; [exact L2| | | | | |]]; rewrite ?(k_size _ _ K2), ?NB1.
    + destruct C1 as [X1 X2 X3 X4 X5]. split; unfold freec, enx, epv; rewrite ?(k_size _ _ K2), ?(k_arr _ _ K2); easy.
    + intros b Hb. rewrite (k_num _ _ K2). unfold es1. destruct (Z.eq_dec b nb) as [->|NE].
      * rewrite NUM, upd_eq, zseq_length. destruct (Z.eqb_spec nb 0); lia.
      * rewrite upd_ne by easy. cbn. fold n nb. rewrite upd_ne by easy. apply (b_num _ _ _ BK). fold n nb. lia.
    + intros b Hb NN. rewrite (k_ehead _ _ K2). unfold es1 in *. cbn. fold n nb. destruct (Z.eq_dec b nb) as [->|NE].
      * rewrite !upd_eq. easy.
      * rewrite upd_ne in NN by easy. rewrite !upd_ne by easy. apply (b_ehead _ _ _ BK); [fold n nb; lia|easy].
    + intros b Hb. rewrite (k_trial _ _ K2). cbn. fold n nb. destruct (Z.eq_dec b nb) as [->|NE]; [rewrite upd_eq; now left|rewrite upd_ne by easy]. apply (b_trial _ _ _ BK). fold n nb. lia.
    + intros b Hb. unfold es1. rewrite updw_ne by easy. destruct (Z.eq_dec b nb) as [->|NE].
      * rewrite upd_eq, zseq_length. split; [|easy]. intros J. apply (l_in _ _ (b_list _ _ _ BK)) in J. fold n nb in J. lia.
      * rewrite upd_ne by easy. apply (b_full _ _ _ BK). fold n nb. lia.
    + intros b Hb. unfold es1. rewrite (k_trial _ _ K2), updw_ne by easy. cbn. fold n nb. destruct (Z.eq_dec b nb) as [->|NE].
      * rewrite !upd_eq, zseq_length. cbn. split; [|lia]. intros J. apply (l_in _ _ (b_list _ _ _ BK)) in J. fold n nb in J. lia.
      * rewrite !upd_ne by easy. apply (b_closed _ _ _ BK). fold n nb. lia.
    + intros b Hb. unfold es1. rewrite (k_trial _ _ K2), updw_eq. cbn [In]. cbn [t1 blk]. fold n nb. destruct (Z.eq_dec b nb) as [->|NE].
      * rewrite !upd_eq, zseq_length. cbn. split; [intros _; lia|now left].
      * rewrite !upd_ne by easy. rewrite <- (b_open _ _ _ BK) by (fold n nb; lia). intuition congruence.
Qed.

Lemma find_place_ok t : FI t -> exists t' e, find_place t = Ok (t', e) /\ grow t t' /\ FI t' /\ freec t' e /\ 256 <= e.
Proof.
  intros F. pose proof F as (R & es & ls & C & BK). pose proof (b_list _ _ _ BK) as LI. unfold find_place.
  assert (X : forall w, w <> Full -> head t w <> 0 -> get_b t (head t w) = Ok (blk t (head t w)) /\ freec t (ehead (blk t (head t w))) /\ 256 <= ehead (blk t (head t w))).
  { intros w W H. pose proof (l_head _ _ LI w) as HD. destruct (ls w) as [|h l] eqn:E; [easy|]. cbn in HD. rewrite HD in *.
    assert (I : In h (ls w)) by (rewrite E; now left). pose proof (l_in _ _ LI _ _ I) as B. split; [now apply get_b_ok|].
    assert (NE : es h <> []). { destruct w; [easy| |]; [apply (b_closed _ _ _ BK) in I|apply (b_open _ _ _ BK) in I]; try lia; intros Q; rewrite Q in I; cbn in I; lia. }
    rewrite (b_ehead _ _ _ BK h) by (lia || easy). assert (J : In (hd 0 (es h)) (es h)) by (destruct (es h); [easy|now left]).
    apply (c_in _ _ C) in J as [J D]; [|easy]. split; [easy|]. apply in_div in D. lia. }
  destruct (Z.eqb_spec (headC t) 0) as [_|NC]; cbn [negb].
  - destruct (Z.eqb_spec (headO t) 0) as [_|NO]; cbn [negb].
    + destruct (add_block_ok t F) as (t' & -> & G & F' & S'). cbn [bind]. exists t', (size t / 256 * 256). split; [easy|]. split; [easy|]. split; [easy|].
      pose proof (c_size _ _ C). pose proof (c_pos _ _ C). split; [|lia]. apply (w_free _ _ G). lia.
    + destruct (X Open ltac:(easy) NO) as (E & FR & L). cbn in E. rewrite E. cbn [bind]. eexists _, _. split; [easy|]. split; [apply grow_refl|]. easy.
  - destruct (X Closed ltac:(easy) NC) as (E & FR & L). cbn in E. rewrite E. cbn [bind]. eexists _, _. split; [easy|]. split; [apply grow_refl|]. easy.
Qed.

(** ** The search in the blocks *)
Lemma all_empty_ok t base cs : (forall c, In c cs -> 0 <= Z.lxor base c < size t) ->
  exists r, all_empty t base cs = Ok r /\ (r = true -> forall c, In c cs -> check (arr t (Z.lxor base c)) < 0).
Proof.
  induction cs as [|c cs IH]; intros B; cbn [all_empty]; [now exists true|]. rewrite get_a_ok by (apply B; now left). cbn [bind].
  destruct (Z.ltb_spec (check (arr t (Z.lxor base c))) 0) as [L|G].
  - destruct IH as (r & E & H); [intros x I; apply B; now right|]. exists r. split; [easy|]. intros T x [<-|I]; [easy|now apply H].
  - now exists false.
Qed.
Lemma scan_ring_ok t eh first cs : forall l fuel e, chain (enx t) (epv t) e l eh -> (length l < fuel)%nat ->
  (forall x, In x (e :: l) -> 0 <= x < size t /\ forall c, In c cs -> 0 <= Z.lxor (Z.lxor x first) c < size t) ->
  exists r, scan_ring fuel t eh first cs e = Ok r /\
    match r with Some x => In x (e :: l) /\ forall c, In c cs -> check (arr t (Z.lxor (Z.lxor x first) c)) < 0 | None => True end.
Proof.
  induction l as [|b l IH]; intros [|fuel] e CH LF B; cbn [length] in LF; try lia; cbn [scan_ring].
  - destruct (all_empty_ok t (Z.lxor e first) cs) as (r & -> & H); [apply B; now left|]. cbn [bind]. destruct r.
    + exists (Some e). split; [easy|]. split; [now left|]. now apply H.
    + rewrite get_a_ok by (apply B; now left). cbn [bind]. destruct CH as [CH _]. unfold enx in CH. rewrite CH, Z.eqb_refl. now exists None.
  - destruct (all_empty_ok t (Z.lxor e first) cs) as (r & -> & H); [apply B; now left|]. cbn [bind]. destruct r.
    + exists (Some e). split; [easy|]. split; [now left|]. now apply H.
    + rewrite get_a_ok by (apply B; now left). cbn [bind]. destruct CH as (CH & _ & CH2). unfold enx in CH. rewrite CH.
      destruct (Z.eqb_spec b eh); [now exists None|]. destruct (IH fuel b CH2 ltac:(lia)) as (r & E & X); [intros x I; apply B; now right|].
      exists r. split; [easy|]. destruct r; [|easy]. split; [right; apply X|apply X].
Qed.
(** the ring may start at another of its cells *)
Lemma FI_rotate t bi e t' : FI t -> 0 < bi < size t / 256 -> freec t e -> e / 256 = bi -> set_ehead t bi e = Ok t' -> FI t' /\ sameA t t'.
Proof.
  intros (R & es & ls & C & BK) B F D E. destruct (set_ehead_ok t bi e R ltac:(lia)) as (t1 & E1 & A1 & L1 & N1 & T1 & H1). rewrite E in E1. injection E1 as <-.
  split; [|easy]. assert (Ie : In e (es bi)) by (apply (c_in _ _ C); [lia|easy]).
  destruct (ring_head _ _ _ _ (c_ring _ _ C bi ltac:(lia)) Ie) as (l' & RG & IN & LEN).
  split; [rewrite (s_ready _ _ A1); easy|]. exists (upd es bi (e :: l')), ls. split.
  - split; unfold freec, enx, epv; rewrite ?(s_size _ _ A1), ?(s_arr _ _ A1); try apply C.
    + intros b Hb. destruct (Z.eq_dec b bi) as [->|NE]; [rewrite upd_eq; exact RG|rewrite upd_ne by easy]. now apply (c_ring _ _ C).
    + intros b i Hb. destruct (Z.eq_dec b bi) as [->|NE]; [rewrite upd_eq, <- IN|rewrite upd_ne by easy]; now apply (c_in _ _ C).
  - assert (LE : forall b, length (upd es bi (e :: l') b) = length (es b)) by (intros b; unfold upd; destruct (Z.eqb_spec b bi) as [->|]; easy).
    split; rewrite ?(s_size _ _ A1).
    + apply (LInv_same t); [apply A1|easy|apply BK].
    + intros b Hb. rewrite N1, LE. now apply BK.
    + intros b Hb. rewrite H1. unfold upd. destruct (Z.eqb_spec b bi) as [->|]; [easy|]. now apply BK.
    + intros b Hb. rewrite T1. now apply BK.
    + intros b Hb. rewrite LE. now apply BK.
    + intros b Hb. rewrite LE, T1. now apply BK.
    + intros b Hb. rewrite LE, T1. now apply BK.
Qed.

Definition room (t : da) (e first : Z) (cs : list Z) : Prop :=
  256 <= e /\ forall c, In c (first :: cs) -> freec t (Z.lxor (Z.lxor e first) c).
(** a block that had no room is closed *)
Lemma close_block t es ls bi l t1 : ready t = true -> Cells t es -> Blocks t es ls -> ls Open = bi :: l -> sameA t t1 -> sameL t t1 ->
  (forall y, num (blk t1 y) = num (blk t y)) -> (forall y, trial (blk t1 y) = if y =? bi then 1 else trial (blk t y)) ->
  (forall y, ehead (blk t1 y) = ehead (blk t y)) ->
  exists t2 ls', transfer_block t1 bi Open Closed = Ok t2 /\ sameA t t2 /\ Cells t2 es /\ Blocks t2 es ls' /\ ls' Open = l /\ (bi <> 0 /\ forall x, bnx t1 x = bnx t x).
Proof.
  intros R C BK EO A1 L1 N1 T1 H1. assert (LI1 : LInv t1 ls) by (apply (LInv_same t); [apply A1|easy|apply BK]).
  assert (I : In bi (ls Open)) by (rewrite EO; now left). pose proof (l_in _ _ (b_list _ _ _ BK) _ _ I) as B.
  assert (NZ : bi <> 0). { intros ->. apply (l_zero _ _ (b_list _ _ _ BK)) in I. easy. }
  pose proof (proj1 (b_open _ _ _ BK bi ltac:(lia)) I) as [LN T0].
  assert (NUM : num (blk t bi) = Z.of_nat (length (es bi))) by (rewrite (b_num _ _ _ BK bi) by lia; destruct (Z.eqb_spec bi 0); lia).
  destruct (transfer_ok t1 ls bi Open Closed) as (t2 & ls' & E & K & LI2 & IN1 & IN2 & IN3 & IN4); try easy.
  { rewrite (s_ready _ _ A1); easy. } { rewrite N1, NUM. split; [lia|easy]. }
  assert (A2 : sameA t t2). { split; [rewrite (k_arr _ _ K)|rewrite (k_inf _ _ K)|rewrite (k_size _ _ K)|rewrite (k_ready _ _ K)]; apply A1. }
  exists t2, ls'. split; [easy|]. split; [easy|]. split; [|split; [|split; [now apply IN4|split; [easy|apply L1]]]].
  - split; unfold freec, enx, epv; rewrite ?(s_size _ _ A2), ?(s_arr _ _ A2); apply C.
  - split; rewrite ?(s_size _ _ A2); try easy.
    + intros b Hb. rewrite (k_num _ _ K), N1. now apply BK.
    + intros b Hb. rewrite (k_ehead _ _ K), H1. now apply BK.
    + intros b Hb. rewrite (k_trial _ _ K), T1. destruct (b =? bi); [now right|now apply BK].
    + intros b Hb. rewrite IN3 by easy. now apply BK.
    + intros b Hb. rewrite (k_trial _ _ K), T1, IN2. cbn [In]. rewrite (b_closed _ _ _ BK b Hb). destruct (Z.eqb_spec b bi) as [->|]; [|intuition congruence]. tauto.
    + intros b Hb. rewrite (k_trial _ _ K), T1, IN1. rewrite (b_open _ _ _ BK b Hb). destruct (Z.eqb_spec b bi) as [->|]; [lia|tauto].
Qed.
Lemma last_snoc_cons {A} (l : list A) a b d : last (a :: b :: l) d = last (b :: l) d.
Proof. easy. Qed.
Lemma scan_blocks_ok first cs : 0 <= first < 256 -> (forall c, In c cs -> 0 <= c < 256) ->
  forall l fuel t es ls bi bz, ready t = true -> Cells t es -> Blocks t es ls -> ls Open = bi :: l -> bz = last (bi :: l) 0 -> (length l < fuel)%nat ->
  exists t' r, scan_blocks fuel t bi bz first cs = Ok (t', r) /\ FI t' /\ sameA t t' /\
    match r with Some e => room t' e first cs | None => True end.
Proof.
  intros HF HC. induction l as [|b2 l IH]; intros [|fuel] t es ls bi bz R C BK EO BZ LF; cbn [length] in LF; try lia.
  all: assert (FT : FI t) by (split; [easy|]; now exists es, ls).
  all: assert (I : In bi (ls Open)) by (rewrite EO; now left); pose proof (l_in _ _ (b_list _ _ _ BK) _ _ I) as B.
  all: assert (NZ : bi <> 0) by (intros ->; apply (l_zero _ _ (b_list _ _ _ BK)) in I; easy).
  all: pose proof (proj1 (b_open _ _ _ BK bi ltac:(lia)) I) as [LN T0].
  all: assert (NUM : num (blk t bi) = Z.of_nat (length (es bi))) by (rewrite (b_num _ _ _ BK bi) by lia; destruct (Z.eqb_spec bi 0); lia).
  all: pose proof (es_length _ _ bi C ltac:(lia)) as LM; pose proof (c_size _ _ C) as SZ.
  all: cbn [scan_blocks]; rewrite get_b_ok by easy; cbn [bind].
  all: set (nc := Z.of_nat (length cs) + 1) in *.
  all: assert (SR : exists r, (if (nc <=? num (blk t bi)) && (nc <? reject (blk t bi)) then scan_ring 257 t (ehead (blk t bi)) first cs (ehead (blk t bi)) else Ok None) = Ok r /\
      match r with Some e => freec t e /\ e / 256 = bi /\ room t e first cs | None => True end).
  1, 3: (destruct ((nc <=? num (blk t bi)) && (nc <? reject (blk t bi))); [|now exists None];
    destruct (es bi) as [|h le] eqn:EQ; [cbn in LN; lia|];
    pose proof (b_ehead _ _ _ BK bi ltac:(lia)) as EH; rewrite EQ in EH; specialize (EH ltac:(easy)); cbn in EH; rewrite EH;
    pose proof (c_ring _ _ C bi ltac:(lia)) as RG; rewrite EQ in RG; destruct RG as [_ RG];
    assert (IN : forall x, In x (h :: le) -> freec t x /\ x / 256 = bi) by (intros x J; apply (c_in _ _ C); [lia|now rewrite EQ]);
    assert (CB : forall x c, In x (h :: le) -> 0 <= c < 256 -> 0 <= Z.lxor (Z.lxor x first) c < size t /\ 256 <= Z.lxor (Z.lxor x first) c) by
      (intros x c J Hc; destruct (IN x J) as [[J1 _] J2]; assert (D : Z.lxor (Z.lxor x first) c / 256 = bi) by (rewrite !lxor_div; try easy; try apply lxor_ge0; lia);
       apply in_div in D; lia);
    destruct (scan_ring_ok t h first cs le 257 h RG) as (r & E & X); [cbn [length] in LM; lia| |];
    [intros x J; split; [apply IN in J as [[J _] _]; lia|intros c Hc; apply (CB x c J); now apply HC]|];
    exists r; split; [easy|]; destruct r as [e|]; [|easy]; destruct X as [X1 X2]; destruct (IN e X1) as [F D]; split; [easy|]; split; [easy|]; split;
    [pose proof (in_div e bi D); lia|]; intros c [<-|Hc]; [now rewrite lxor_twice|]; destruct (CB e c X1 (HC c Hc)); split; [lia|now apply X2]).
  all: destruct SR as ([e|] & -> & X); cbn [bind].
  1, 3: (destruct X as (F & D & RM); destruct (set_ehead_ok t bi e R ltac:(lia)) as (t1 & E1 & _); rewrite E1; cbn [bind];
    destruct (FI_rotate t bi e t1 FT ltac:(lia) F D E1) as [F1 A1]; exists t1, (Some e); split; [easy|]; split; [easy|]; split; [easy|];
    destruct RM as [RM1 RM2]; split; [easy|]; intros c Hc; specialize (RM2 c Hc); unfold freec in *; now rewrite (s_size _ _ A1), (s_arr _ _ A1)).
  all: destruct (set_reject_ok t bi nc R ltac:(lia)) as (t1 & -> & A1 & L1 & N1 & T1 & H1); cbn [bind].
  all: unfold get_r; rewrite inside_ok by lia; cbn [bind].
  all: assert (Y : exists t2, (if nc <? rej t1 (num (blk t bi)) then set_r t1 (num (blk t bi)) nc else Ok t1) = Ok t2 /\ sameA t t2 /\ sameL t t2 /\
      (forall y, num (blk t2 y) = num (blk t y)) /\ (forall y, trial (blk t2 y) = trial (blk t y)) /\ (forall y, ehead (blk t2 y) = ehead (blk t y))).
  1, 3: (destruct (nc <? rej t1 (num (blk t bi))); [|exists t1; split; [easy|]; split; [easy|]; split; [easy|]; easy];
    destruct (set_r_ok t1 (num (blk t bi)) nc ltac:(lia)) as (t2 & -> & A2 & L2 & N2 & T2 & H2); exists t2; split; [easy|];
    split; [split; [rewrite (s_arr _ _ A2)|rewrite (s_inf _ _ A2)|rewrite (s_size _ _ A2)|rewrite (s_ready _ _ A2)]; apply A1|];
    split; [split; intros; [rewrite (s_head _ _ L2)|rewrite (s_nx _ _ L2)|rewrite (s_pv _ _ L2)]; apply L1|];
    split; [intros; now rewrite N2|]; split; [intros; now rewrite T2|]; intros; now rewrite H2).
  all: destruct Y as (t2 & -> & A2 & L2 & N2 & T2 & H2); cbn [bind].
  all: destruct (set_trial_ok t2 bi (trial (blk t bi) + 1)) as (t3 & -> & A3 & L3 & N3 & T3 & H3); [rewrite (s_ready _ _ A2); easy|rewrite (s_size _ _ A2); lia|cbn [bind]].
  all: rewrite T0; change (0 + 1 =? MAX_TRIAL) with true; cbn [bind].
  all: destruct (close_block t es ls bi _ t3 R C BK EO) as (t4 & ls' & -> & A4 & C4 & BK4 & EO4 & _ & NX4);
    [split; [rewrite (s_arr _ _ A3)|rewrite (s_inf _ _ A3)|rewrite (s_size _ _ A3)|rewrite (s_ready _ _ A3)]; apply A2
    |split; intros; [rewrite (s_head _ _ L3)|rewrite (s_nx _ _ L3)|rewrite (s_pv _ _ L3)]; apply L2
    |intros; now rewrite N3
    |intros y; rewrite T3, T2, T0; easy
    |intros; now rewrite H3|cbn [bind]].
  - cbn in BZ. subst bz. rewrite Z.eqb_refl. exists t4, None. split; [easy|]. split; [|easy]. split; [rewrite (s_ready _ _ A4); easy|]. now exists es, ls'.
  - pose proof (l_ring _ _ (b_list _ _ _ BK) Open) as RG. rewrite EO in RG.
    destruct (Z.eqb_spec bi bz) as [E|NE].
    + exists t4, None. split; [easy|]. split; [|easy]. split; [rewrite (s_ready _ _ A4); easy|]. now exists es, ls'.
    + destruct RG as [_ RG]. apply chain_next in RG. unfold bnx in RG. rewrite RG.
      destruct (IH fuel t4 es ls' b2 bz) as (t5 & r & E & F5 & A5 & X5); try easy; [rewrite (s_ready _ _ A4); easy|lia|].
      exists t5, r. split; [easy|]. split; [easy|]. split; [|easy].
      split; [rewrite (s_arr _ _ A5)|rewrite (s_inf _ _ A5)|rewrite (s_size _ _ A5)|rewrite (s_ready _ _ A5)]; apply A4.
Qed.

Lemma find_place_for_ok t first cs : FI t -> 0 <= first < 256 -> (forall c, In c cs -> 0 <= c < 256) ->
  exists t' e, find_place_for t first cs = Ok (t', e) /\ grow t t' /\ FI t' /\ room t' e first cs.
Proof.
  intros F HF HC. pose proof F as (R & es & ls & C & BK). pose proof (b_list _ _ _ BK) as LI. pose proof (c_size _ _ C) as SZ. pose proof (c_pos _ _ C) as PZ. unfold find_place_for.
  assert (X : exists t1 r, (if negb (headO t =? 0) then let! b := get_b t (headO t) in scan_blocks (S (Z.to_nat (size t / 256))) t (headO t) (prev b) first cs else Ok (t, None)) = Ok (t1, r) /\
    FI t1 /\ sameA t t1 /\ match r with Some e => room t1 e first cs | None => True end).
  { destruct (Z.eqb_spec (headO t) 0) as [_|NO]; cbn [negb]; [exists t, None; split; [easy|]; split; [easy|]; split; [now split|easy]|].
    pose proof (l_head _ _ LI Open) as HD. cbn in HD. destruct (ls Open) as [|h l] eqn:EO; [easy|]. cbn in HD. rewrite HD in *.
    assert (I : In h (ls Open)) by (rewrite EO; now left). pose proof (l_in _ _ LI _ _ I) as B. rewrite get_b_ok by easy. cbn [bind].
    assert (PV : prev (blk t h) = last (h :: l) 0).
    { pose proof (l_ring _ _ LI Open) as RG. rewrite EO in RG. destruct RG as [_ RG]. apply chain_prev in RG. unfold bpv in RG. rewrite RG.
      destruct l as [|b l]; [easy|]. rewrite last_snoc_cons. clear. revert b. induction l as [|c l IH]; intros b; [easy|]. rewrite !last_snoc_cons. apply IH. }
    rewrite PV. apply scan_blocks_ok with (es := es) (ls := ls) (l := l); try easy.
    assert (LN : (length (ls Open) <= length (zseq 0 (Z.to_nat (size t / 256))))%nat).
    { apply NoDup_incl_length; [apply (l_ring _ _ LI Open)|]. intros x J. apply (l_in _ _ LI) in J. apply in_zseq. lia. }
    rewrite zseq_length, EO in LN. cbn [length] in LN. lia. }
  destruct X as (t1 & r & -> & F1 & A1 & X). cbn [bind]. destruct r as [e|].
  - exists t1, e. split; [easy|]. split; [now apply grow_same|]. easy.
  - destruct (add_block_ok t1 F1) as (t2 & -> & G & F2 & S2). cbn [bind]. exists t2, (size t1 / 256 * 256). split; [easy|].
    split; [apply (grow_trans _ t1); [lia|now apply grow_same|easy]|]. split; [easy|]. rewrite (s_size _ _ A1) in *.
    split; [lia|]. intros c Hc. apply (w_free _ _ G). rewrite (s_size _ _ A1). right.
    assert (HCc : 0 <= c < 256) by (destruct Hc as [<-|Hc]; [easy|now apply HC]).
    assert (D : Z.lxor (Z.lxor (size t / 256 * 256) first) c / 256 = size t / 256).
    { rewrite !lxor_div; try easy; try apply lxor_ge0; try lia.  }
    apply in_div in D. lia.
Qed.

(** ** pop_enode *)
Lemma pop_at t base label from : FI t -> 0 <= base -> 0 <= from -> freec t (Z.lxor base label) ->
  exists t', pop_enode t base label from = Ok (t', Z.lxor base label) /\ takes t t' (Z.lxor base label) (Node (if label =? 0 then 0 else -1) from).
Proof.
  intros F B FR FC. unfold pop_enode. destruct (Z.ltb_spec base 0); [lia|]. cbn [bind].
  destruct (unlink_ok t _ (Node (if label =? 0 then 0 else -1) from) F FC) as (t1 & -> & S1 & K); [easy|]. cbn [bind].
  rewrite set_a_ok by (rewrite S1; destruct FC; lia). cbn [bind]. eexists. split; [easy|]. exact K.
Qed.
Lemma pop_new t base label from : FI t -> base < 0 -> 0 <= from < size t -> ~ freec t from ->
  exists t1 t' e, pop_enode t base label from = Ok (t', e) /\ grow t t1 /\ FI t1 /\ freec t1 e /\ 256 <= e /\
    exists t2, takes t1 t2 e (Node (if label =? 0 then 0 else -1) from) /\ set_base t2 from (Z.lxor e label) = Ok t'.
Proof.
  intros F B FR NF. unfold pop_enode. destruct (Z.ltb_spec base 0); [|lia]. cbn [bind].
  destruct (find_place_ok t F) as (t1 & e & -> & G & F1 & FC & E). cbn [bind].
  destruct (unlink_ok t1 _ (Node (if label =? 0 then 0 else -1) from) F1 FC) as (t2 & -> & S2 & K); [cbn; lia|]. cbn [bind].
  rewrite set_a_ok by (rewrite S2; destruct FC; lia). cbn [bind]. change (Da _ _ _ _ _ _ _ _ _) with (put t2 e (Node (if label =? 0 then 0 else -1) from)).
  pose proof (w_size _ _ G). rewrite set_base_ok by (cbn; lia). cbn [bind]. exists t1. eexists _, e. split; [easy|]. split; [easy|]. split; [easy|]. split; [easy|]. split; [easy|].
  exists (put t2 e (Node (if label =? 0 then 0 else -1) from)). split; [easy|]. rewrite set_base_ok by (cbn; lia). easy.
Qed.

(** ** The first state *)
Lemma initial_FI : FI initial.
Proof.
  split; [easy|]. exists (fun _ => zseq 1 255), (fun w => match w with Full => [0] | _ => [] end).
  assert (A : forall i, 0 < i -> arr initial i = Node (if i =? 1 then -255 else - (i - 1)) (if i =? 255 then -1 else - (i + 1))).
  { intros i Hi. unfold initial. cbn [arr]. destruct (Z.eqb_spec i 0); [lia|easy]. }
  split.
  - split; try easy.
    + intros b Hb. split; [apply zseq_nodup|]. change (zseq 1 255) with (1 :: zseq (1 + 1) 254). apply chain_zseq.
      * intros x Hx. unfold enx. rewrite A by lia. cbn [check]. destruct (Z.eqb_spec x 255); lia.
      * intros x Hx. unfold epv. rewrite A by lia. cbn [base_]. destruct (Z.eqb_spec x 1); lia.
      * easy.
      * easy.
    + intros b i Hb. change (size initial / 256) with 1 in Hb. rewrite in_zseq. unfold freec. change (size initial) with 256. split.
      * intros Hi. split; [split; [lia|]|]; [rewrite A by lia; cbn [check]; destruct (Z.eqb_spec i 255); lia|]. rewrite Z.div_small; lia.
      * lia.
  - split; change (size initial / 256) with 1; try (intros b Hb; lia).
    + split.
      * intros [| |]; [apply ring_single; easy|split; [constructor|easy]|split; [constructor|easy]].
      * now intros [| |].
      * intros [| |] x; cbn; try easy. change (size initial / 256) with 1. intros [<-|[]]. lia.
      * intros [| |] [| |] x; cbn; easy.
      * intros [| |]; cbn; intuition congruence.
    + intros b Hb. assert (b = 0) by lia. subst b. easy.
Qed.
