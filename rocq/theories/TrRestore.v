(** What is rebuilt from the nodes alone. *)
From Verif Require Import Base ListAux TrModel TrRing TrFree TrCells TrRoom TrPlace TrTree TrMove TrLoop TrFollow TrSearch.
From Coq Require Import Sorted Permutation.
Local Open Scope Z_scope.
Local Arguments zseq : simpl never.

(** ** Blocks *)
Definition vacant (t : da) (e : Z) : bool := check (arr t e) <? 0.
Lemma count_empty_ok t : forall todo e n f, 0 <= n -> (forall x, In x (zseq e todo) -> 0 <= x < size t) ->
  count_empty todo e t n f = Ok (n + Z.of_nat (length (filter (vacant t) (zseq e todo))), if n =? 0 then hd f (filter (vacant t) (zseq e todo)) else f).
Proof.
  induction todo as [|todo IH]; intros e n f HN B.
  - change (zseq e 0) with (@nil Z). cbn [count_empty filter length hd]. do 2 f_equal; [lia|]. now destruct (n =? 0).
  - cbn [count_empty]. change (zseq e (S todo)) with (e :: zseq (e + 1) todo) in *. rewrite get_a_ok by (apply B; now left). cbn [bind filter]. change (vacant t e) with (check (arr t e) <? 0). destruct (Z.ltb_spec (check (arr t e)) 0) as [L|L].
    + rewrite IH by (lia || (intros x I; apply B; now right)). cbn [length hd]. do 2 f_equal; [lia|].
      destruct (Z.eqb_spec n 0) as [->|NN]; [easy|]. destruct (Z.eqb_spec (n + 1) 0); [lia|]. destruct (Z.eqb_spec (n + 1) 1); [lia|easy].
    + rewrite IH by (lia || (intros x I; apply B; now right)). easy.
Qed.
Lemma vacant_cells t es b : Cells t es -> 0 <= b < size t / 256 ->
  Z.of_nat (length (filter (vacant t) (zseq (b * 256) 256))) = Z.of_nat (length (es b)) + (if b =? 0 then 1 else 0) /\
  (0 < b -> es b <> [] -> In (hd 0 (filter (vacant t) (zseq (b * 256) 256))) (es b)).
Proof.
  intros C B. pose proof (c_size _ _ C) as SZ.
  assert (IFF : forall x, In x (filter (vacant t) (zseq (b * 256) 256)) <-> In x (es b) \/ (b = 0 /\ x = 0)).
  { intros x. rewrite filter_In, in_zseq. unfold vacant. rewrite Z.ltb_lt. rewrite (c_in _ _ C) by easy. unfold freec. split.
    - intros [I V]. destruct (Z.eq_dec x 0) as [->|]; [right; lia|left]. split; [lia|]. assert (X : x / 256 = b); [|easy]. symmetry. apply Z.div_unique with (x - 256 * b); lia.
    - intros [[[I V] D]|[-> ->]]; [apply in_div in D; lia|]. pose proof (c_root _ _ C). lia. }
  assert (ND : NoDup (filter (vacant t) (zseq (b * 256) 256))) by (apply NoDup_filter, zseq_nodup).
  assert (NE : NoDup (es b)) by apply (c_ring _ _ C b B).
  split.
  - destruct (Z.eqb_spec b 0) as [->|NB].
    + assert (P : Permutation (filter (vacant t) (zseq (0 * 256) 256)) (0 :: es 0)).
      { apply NoDup_Permutation; [easy| |].
        - constructor; [|easy]. rewrite (c_in _ _ C) by easy. unfold freec. lia.
        - intros x. rewrite IFF. cbn. intuition. }
      apply Permutation_length in P. rewrite P. cbn [length]. lia.
    + assert (P : Permutation (filter (vacant t) (zseq (b * 256) 256)) (es b)).
      { apply NoDup_Permutation; [easy|easy|]. intros x. rewrite IFF. intuition. }
      apply Permutation_length in P. rewrite P. lia.
  - intros B0 N. destruct (filter (vacant t) (zseq (b * 256) 256)) as [|x l] eqn:E.
    + destruct (es b) as [|y l] eqn:E2; [easy|]. assert (X : In y []) by (apply IFF; left; now left). easy.
    + cbn [hd]. destruct (proj1 (IFF x) (or_introl eq_refl)) as [X|[X _]]; [easy|lia].
Qed.

Record RB (t0 t : da) (es : Z -> list Z) (ls : which -> list Z) (bi : Z) : Prop := {
  r_same : sameA t0 t;
  r_cells : Cells t es;
  r_list : LInv t ls;
  r_low : forall w x, In x (ls w) -> x < bi;
  r_num : forall b, 0 <= b < bi -> num (blk t b) = Z.of_nat (length (es b)) + (if b =? 0 then 1 else 0);
  r_ehead : forall b, 0 < b < bi -> es b <> [] -> ehead (blk t b) = hd 0 (es b);
  r_trial : forall b, trial (blk t b) = 0;
  r_full : forall b, 0 < b < bi -> (In b (ls Full) <-> length (es b) = 0%nat);
  r_closed : forall b, 0 < b < bi -> (In b (ls Closed) <-> length (es b) = 1%nat);
  r_open : forall b, 0 < b < bi -> (In b (ls Open) <-> (1 < length (es b))%nat) }.

Lemma restore_block_step t0 t es ls bi n first : RB t0 t es ls bi -> ready t = true -> 0 < bi < size t / 256 ->
  n = Z.of_nat (length (es bi)) -> (es bi <> [] -> In first (es bi)) ->
  exists t' es' ls', (let! t := set_num t bi n in let! t := set_ehead t bi first in
    push_block t bi (if n =? 1 then Closed else if n =? 0 then Full else Open) ((head t (if n =? 1 then Closed else if n =? 0 then Full else Open) =? 0) && negb (n =? 0))) = Ok t' /\ RB t0 t' es' ls' (bi + 1).
Proof.
  intros P R B LN HN. pose proof (r_cells _ _ _ _ _ P) as C.
  destruct (set_num_ok t bi n R ltac:(lia)) as (t1 & -> & A1 & L1 & N1 & T1 & H1). cbn [bind]. assert (R1 : ready t1 = true) by (rewrite (s_ready _ _ A1); easy). pose proof (s_size _ _ A1) as S1.
  destruct (set_ehead_ok t1 bi first R1 ltac:(lia)) as (t2 & -> & A2 & L2 & N2 & T2 & H2). cbn [bind]. assert (R2 : ready t2 = true) by (rewrite (s_ready _ _ A2); easy). pose proof (s_size _ _ A2) as S2.
  set (w := if n =? 1 then Closed else if n =? 0 then Full else Open).
  assert (LI2 : LInv t2 ls). { apply (LInv_same t1); [easy|easy|]. apply (LInv_same t); [easy|easy|apply P]. }
  assert (N2b : num (blk t2 bi) = n) by (rewrite N2, N1, Z.eqb_refl; easy).
  destruct (push_ok t2 ls bi w R2 LI2 ltac:(rewrite S2, S1; lia)) as (t3 & E3 & K3 & LI3).
  { intros v I. apply (r_low _ _ _ _ _ P) in I. lia. }
  { rewrite N2b. unfold w. clear - n. destruct (Z.eqb_spec n 1) as [X|]; [rewrite X; split; intros Y; discriminate Y|]. destruct (Z.eqb_spec n 0); split; intros Y; (exact eq_refl || assumption || contradiction || discriminate Y). }
  rewrite N2b in E3. rewrite E3.
  assert (RO : exists l, (es bi <> [] -> l = first :: tl l) /\ ring (enx t) (epv t) l /\ (forall x, In x l <-> In x (es bi)) /\ length l = length (es bi)).
  { destruct (list_eq_dec Z.eq_dec (es bi) []) as [E|NE]; [exists (es bi); rewrite E; split; [easy|]; split; [split; [constructor|easy]|easy]|].
    specialize (HN NE). destruct (ring_head _ _ _ _ (c_ring _ _ C bi ltac:(lia)) HN) as (l' & RG & IN & LEN). exists (first :: l'). split; [easy|]. split; [exact RG|]. split; [intros x; now rewrite <- IN|easy]. }
  destruct RO as (l & RO1 & RO2 & RO3 & RO4). exists t3, (upd es bi l), (updw ls w (bi :: ls w)). split; [easy|].
  assert (LE : forall b, length (upd es bi l b) = length (es b)) by (intros b; unfold upd; destruct (Z.eqb_spec b bi) as [->|]; easy).
  assert (AA : arr t3 = arr t) by (rewrite (k_arr _ _ K3), (s_arr _ _ A2); apply A1). assert (SS : size t3 = size t) by (rewrite (k_size _ _ K3); lia).
  assert (NN : forall b, num (blk t3 b) = if b =? bi then n else num (blk t b)) by (intros b; now rewrite (k_num _ _ K3), N2, N1).
  assert (IW : forall v b, b <> bi -> (In b (updw ls w (bi :: ls w) v) <-> In b (ls v))).
  { intros v b NB. destruct (which_dec v w) as [->|NV]; [rewrite updw_eq; cbn; intuition congruence|now rewrite updw_ne]. }
  assert (IB : forall v, In bi (updw ls w (bi :: ls w) v) <-> v = w).
  { intros v. destruct (which_dec v w) as [->|NV]; [rewrite updw_eq; cbn; tauto|]. rewrite updw_ne by easy. split; [|easy]. intros I. apply (r_low _ _ _ _ _ P) in I. lia. }
  split.
  - pose proof (r_same _ _ _ _ _ P) as [X1 X2 X3 X4]. split; [now rewrite AA| |now rewrite SS|now rewrite (k_ready _ _ K3), R2, <- R].
    rewrite (k_inf _ _ K3), (s_inf _ _ A2), (s_inf _ _ A1). easy.
  - split; unfold freec, enx, epv; rewrite ?SS, ?AA; try apply C.
    + intros b Hb. destruct (Z.eq_dec b bi) as [->|NE]; [rewrite upd_eq; exact RO2|rewrite upd_ne by easy]. now apply (c_ring _ _ C).
    + intros b i Hb. destruct (Z.eq_dec b bi) as [->|NE]; [rewrite upd_eq, RO3|rewrite upd_ne by easy]; now apply (c_in _ _ C).
  - exact LI3.
  - intros v x I. destruct (Z.eq_dec x bi) as [->|NX]; [lia|]. apply IW in I; [|easy]. apply (r_low _ _ _ _ _ P) in I. lia.
  - intros b Hb. rewrite NN, LE. destruct (Z.eqb_spec b bi) as [->|NB]; [destruct (Z.eqb_spec bi 0); lia|]. apply P. lia.
  - intros b Hb. rewrite (k_ehead _ _ K3), H2, H1. destruct (Z.eqb_spec b bi) as [->|NB]; [rewrite upd_eq|rewrite upd_ne by easy; intros X; apply P; [lia|easy]].
    intros X. assert (Y : es bi <> []) by (intros Y; rewrite Y in RO4; destruct l; [now apply X|discriminate RO4]). rewrite (RO1 Y). reflexivity.
  - intros b. rewrite (k_trial _ _ K3), T2, T1. apply P.
  - intros b Hb. rewrite LE. destruct (Z.eq_dec b bi) as [->|NB]; [rewrite IB|rewrite IW by easy; apply P; lia]. unfold w. destruct (Z.eqb_spec n 1); [split; intros Y; (discriminate Y || lia)|]. destruct (Z.eqb_spec n 0); split; intros Y; (exact eq_refl || discriminate Y || lia).
  - intros b Hb. rewrite LE. destruct (Z.eq_dec b bi) as [->|NB]; [rewrite IB|rewrite IW by easy; apply P; lia]. unfold w. destruct (Z.eqb_spec n 1); [split; intros Y; (exact eq_refl || lia)|]. destruct (Z.eqb_spec n 0); split; intros Y; (discriminate Y || lia).
  - intros b Hb. rewrite LE. destruct (Z.eq_dec b bi) as [->|NB]; [rewrite IB|rewrite IW by easy; apply P; lia]. unfold w. destruct (Z.eqb_spec n 1); [split; intros Y; (discriminate Y || lia)|]. destruct (Z.eqb_spec n 0); split; intros Y; (exact eq_refl || discriminate Y || lia).
Qed.
Lemma block_count t es bi k : Cells t es -> 0 <= bi < size t / 256 -> k = 256%nat ->
  exists first, count_empty k (bi * 256) t 0 0 = Ok (Z.of_nat (length (es bi)) + (if bi =? 0 then 1 else 0), first) /\ (0 < bi -> es bi <> [] -> In first (es bi)).
Proof.
  intros C B K. pose proof (c_size _ _ C) as SZ. destruct (vacant_cells t es bi C B) as [LN HN]. rewrite <- K in LN, HN.
  exists (hd 0 (filter (vacant t) (zseq (bi * 256) k))). split; [|exact HN].
  rewrite count_empty_ok; [|lia|intros x I; apply in_zseq in I; lia]. rewrite LN. destruct (Z.eqb_spec 0 0) as [_|]; [|lia]. do 2 f_equal.
Qed.
Lemma restore_block_S todo bi t : restore_block (S todo) bi t =
    let! (n, first) := count_empty 256 (bi * 256) t 0 0 in
    let! t := set_num t bi n in
    let! t := set_ehead t bi first in
    let w := if n =? 1 then Closed else if n =? 0 then Full else Open in
    let! t := push_block t bi w ((head t w =? 0) && negb (n =? 0)) in
    restore_block todo (bi + 1) t.
Proof. reflexivity. Qed.
Lemma restore_block_ok t0 : forall todo bi t es ls, RB t0 t es ls bi -> ready t = true -> 0 < bi -> bi + Z.of_nat todo = size t / 256 ->
  exists t' es' ls', restore_block todo bi t = Ok t' /\ RB t0 t' es' ls' (size t / 256).
Proof.
  induction todo as [|todo IH]; intros bi t es ls P R B E.
  - exists t, es, ls. split; [reflexivity|]. assert (bi = size t / 256) as <- by lia. exact P.
  - rewrite restore_block_S. destruct (block_count t es bi 256 (r_cells _ _ _ _ _ P) ltac:(lia) eq_refl) as (first & CE & HF). rewrite CE. cbn [bind]. clear CE.
    specialize (HF B). set (n := Z.of_nat (length (es bi)) + (if bi =? 0 then 1 else 0)). assert (EN : n = Z.of_nat (length (es bi))) by (unfold n; destruct (Z.eqb_spec bi 0); lia). clearbody n.
    destruct (restore_block_step t0 t es ls bi n first P R ltac:(lia) EN HF) as (t' & es' & ls' & E' & P').
    pose proof (r_same _ _ _ _ _ P) as [_ _ X3 X4]. pose proof (r_same _ _ _ _ _ P') as [_ _ Y3 Y4].
    destruct (IH (bi + 1) t' es' ls' P') as (t2 & es2 & ls2 & E2 & P2); [congruence|lia|rewrite Y3, <- X3; lia|].
    destruct (set_num t bi n) as [t1| | |]; cbn [bind] in E' |- *; try discriminate E'. destruct (set_ehead t1 bi first) as [t3| | |]; cbn [bind] in E' |- *; try discriminate E'. rewrite E'. cbn [bind]. exists t2, es2, ls2. split; [exact E2|]. rewrite Y3, <- X3 in P2. exact P2.
Qed.
Lemma first_block t es : ready t = true -> Cells t es -> (forall b, blk t b = block0) -> (forall w, head t w = 0) ->
  exists t', restore_block 1 0 t = Ok t' /\ RB t t' es (fun w => match w with Full => [0] | _ => [] end) 1.
Proof.
  intros R C BK HD. pose proof (c_pos _ _ C) as POS. rewrite restore_block_S. destruct (block_count t es 0 256 C ltac:(lia) eq_refl) as (first & CE & _). rewrite CE. cbn [bind]. clear CE.
  set (n := Z.of_nat (length (es 0)) + (if 0 =? 0 then 1 else 0)). assert (EN : n = Z.of_nat (length (es 0)) + 1) by (unfold n; destruct (Z.eqb_spec 0 0); lia). clearbody n.
  destruct (set_num_ok t 0 n R ltac:(lia)) as (t1 & -> & A1 & L1 & N1 & T1 & H1). cbn [bind]. assert (R1 : ready t1 = true) by (rewrite (s_ready _ _ A1); easy). pose proof (s_size _ _ A1) as S1.
  destruct (set_ehead_ok t1 0 first R1 ltac:(lia)) as (t2 & -> & A2 & L2 & N2 & T2 & H2). cbn [bind]. assert (R2 : ready t2 = true) by (rewrite (s_ready _ _ A2); easy). pose proof (s_size _ _ A2) as S2.
  set (w := if n =? 1 then Closed else if n =? 0 then Full else Open). cbn zeta.
  assert (HD2 : forall v, head t2 v = 0) by (intros v; rewrite (s_head _ _ L2), (s_head _ _ L1); apply HD).
  rewrite HD2. destruct (Z.eqb_spec 0 0) as [_|]; [|lia]. destruct (Z.eqb_spec n 0) as [|_]; [lia|]. cbn [andb negb]. unfold push_block.
  destruct (set_prev_ok t2 0 0 R2 ltac:(lia)) as (t3 & -> & K3 & H3 & P3 & X3). cbn [bind].
  assert (R3 : ready t3 = true) by (rewrite (k_ready _ _ K3); easy). pose proof (k_size _ _ K3) as S3.
  destruct (set_next_ok t3 0 0 R3 ltac:(lia)) as (t4 & -> & K4 & H4 & X4 & P4). cbn [bind restore_block].
  exists (set_head t4 w 0). split; [reflexivity|].
  assert (HDF : forall v, head (set_head t4 w 0) v = 0) by (intros v; rewrite head_set, H4, H3, HD2; destruct (which_dec v w); easy).
  assert (KH : relinked t2 (set_head t4 w 0)) by (apply (relinked_trans _ t3); [easy|]; apply (relinked_trans _ t4); [easy|apply relinked_head]).
  set (t5 := set_head t4 w 0) in *. assert (BN : bnx t5 0 = 0) by (change (bnx t4 0 = 0); rewrite X4; easy). assert (BP : bpv t5 0 = 0) by (change (bpv t4 0 = 0); rewrite P4, P3; easy). clearbody t5.
  split.
  - split; [rewrite (k_arr _ _ KH), (s_arr _ _ A2); apply A1|rewrite (k_inf _ _ KH), (s_inf _ _ A2); apply A1|rewrite (k_size _ _ KH); lia|rewrite (k_ready _ _ KH), R2; easy].
  - assert (AA : arr t5 = arr t) by (rewrite (k_arr _ _ KH), (s_arr _ _ A2); apply A1). assert (SS : size t5 = size t) by (rewrite (k_size _ _ KH); lia).
    destruct C as [C1 C2 C3 C4 C5]. split; unfold freec, enx, epv; rewrite ?SS, ?AA; assumption.
  - split.
    + intros [| |]; [apply ring_single; easy|split; [constructor|easy]|split; [constructor|easy]].
    + intros [| |]; rewrite HDF; reflexivity.
    + intros [| |] x; [intros [<-|[]]|intros []|intros []]. rewrite (k_size _ _ KH), S2, S1. lia.
    + intros [| |] [| |] x I J; try reflexivity; destruct I, J.
    + intros [| |]; split; intros I; try easy; try (now left).
  - intros [| |] x; [intros [<-|[]]; lia|intros []|intros []].
  - intros b Hb. assert (b = 0) by lia. subst b. rewrite (k_num _ _ KH), N2, N1. destruct (Z.eqb_spec 0 0); lia.
  - intros b Hb. lia.
  - intros b. rewrite (k_trial _ _ KH), T2, T1, BK. reflexivity.
  - intros b Hb. lia.
  - intros b Hb. lia.
  - intros b Hb. lia.
Qed.
Lemma restore_block_split todo t : restore_block (S todo) 0 t = let! t := restore_block 1 0 t in restore_block todo 1 t.
Proof.
  rewrite !restore_block_S. destruct (count_empty 256 (0 * 256) t 0 0) as [[n first]| | |]; cbn [bind]; try reflexivity.
  destruct (set_num t 0 n) as [t1| | |]; cbn [bind]; try reflexivity. destruct (set_ehead t1 0 first) as [t2| | |]; cbn [bind]; try reflexivity.
  cbn zeta. set (w := if n =? 1 then Closed else if n =? 0 then Full else Open). destruct (push_block t2 0 w _) as [t3| | |]; cbn [bind]; reflexivity.
Qed.
Lemma blocks_ok t es : ready t = true -> Cells t es -> (forall b, blk t b = block0) -> (forall w, head t w = 0) ->
  exists t', restore_block (Z.to_nat (size t / 256)) 0 t = Ok t' /\ sameA t t' /\ FI t'.
Proof.
  intros R C BK HD. pose proof (c_pos _ _ C) as POS. destruct (Z.to_nat (size t / 256)) as [|todo] eqn:E; [lia|]. rewrite restore_block_split.
  destruct (first_block t es R C BK HD) as (t1 & -> & P1). cbn [bind]. pose proof (r_same _ _ _ _ _ P1) as A1. pose proof (s_size _ _ A1) as S1.
  destruct (restore_block_ok t todo 1 t1 _ _ P1) as (t' & es' & ls' & -> & P'); [rewrite (s_ready _ _ A1); easy|lia|rewrite S1; lia|].
  pose proof (r_same _ _ _ _ _ P') as A'. exists t'. split; [reflexivity|]. split; [exact A'|]. split; [rewrite (s_ready _ _ A'); exact R|]. exists es', ls'. split; [apply P'|].
  rewrite S1, <- (s_size _ _ A') in P'. split.
  - apply P'.
  - apply P'.
  - apply P'.
  - intros b _. left. apply P'.
  - apply P'.
  - intros b Hb. rewrite (r_closed _ _ _ _ _ P' b Hb), (r_trial _ _ _ _ _ P'). split; [tauto|]. intros [X|[_ X]]; [easy|lia].
  - intros b Hb. rewrite (r_open _ _ _ _ _ P' b Hb), (r_trial _ _ _ _ _ P'). tauto.
Qed.

(** ** Children *)
Definition part (loc : locs) (lim : Z) : locs := fun q =>
  match loc q with Some i => if (i <? lim) || (last q 1 =? 0) then Some i else None | None => None end.
Lemma part_snoc loc lim p c : part loc lim (p ++ [c]) <> None <-> exists i, loc (p ++ [c]) = Some i /\ (i < lim \/ c = 0).
Proof.
  unfold part. destruct (loc (p ++ [c])) as [i|]; [|split; [easy|intros (i & X & _); discriminate X]]. rewrite last_last. split.
  - intros H. exists i. split; [easy|]. destruct (Z.ltb_spec i lim); [now left|]. destruct (Z.eqb_spec c 0); [now right|]. elim H. reflexivity.
  - intros (i' & E & H). injection E as <-. destruct (Z.ltb_spec i lim), (Z.eqb_spec c 0); cbn; (discriminate || lia).
Qed.
Record Part (t : da) (loc : locs) (lim : Z) : Prop := {
  p_kids : forall p j, loc p = Some j -> ~ In 0 p -> exists K, kidsof t (part loc lim) p j K;
  p_leaf : forall p i, loc (p ++ [0]) = Some i -> chd t i = 0;
  p_free : forall i, freec t i -> inf t i = Info 0 0 }.
Lemma Part_ext t loc lim lim' : Part t loc lim -> (forall p c, part loc lim' (p ++ [c]) <> None <-> part loc lim (p ++ [c]) <> None) -> Part t loc lim'.
Proof.
  intros [A B C] H. split; [|easy|easy]. intros p j LP ZP. destruct (A p j LP ZP) as (K & [K1 K2 K3 K4]). exists K. split; try easy. intros c. now rewrite K2, H.
Qed.
Lemma part_start t loc hole : Tree t loc 0 0 [] hole (-1) -> (forall i, inf t i = Info 0 0) -> Part t loc 0.
Proof.
  intros T I0. assert (CH : forall x, chd t x = 0) by (intros x; unfold chd; now rewrite I0). assert (SB : forall x, sib t x = 0) by (intros x; unfold sib; now rewrite I0).
  split; [|intros; apply CH|intros; apply I0]. intros p j LP ZP.
  assert (PS : forall c, part loc 0 (p ++ [c]) <> None <-> c = 0 /\ loc (p ++ [0]) <> None).
  { intros c. rewrite part_snoc. split.
    - intros (i & E & [H| ->]); [|split; [easy|congruence]]. destruct (t_in _ _ _ _ _ _ _ T _ _ E). lia.
    - intros [-> H]. destruct (loc (p ++ [0])) as [i|]; [|easy]. exists i. split; [easy|now right]. }
  assert (D : p = [] \/ loc (p ++ [0]) <> None \/ (p <> [] /\ loc (p ++ [0]) = None)) by (destruct p; [now left|]; destruct (loc ((z :: p) ++ [0])); [right; left|right; right]; easy).
  destruct D as [D|[D|D]].
  - exists [0]. split; [repeat constructor| |apply CH|cbn; rewrite SB; easy]. intros c. rewrite PS. subst p. cbn. split; [intros [<-|[]]; now right|]. intros [[-> _]|[_ ->]]; now left.
  - exists [0]. split; [repeat constructor| |apply CH|cbn; rewrite SB; easy]. intros c. rewrite PS. cbn. split; [intros [<-|[]]; now left|]. intros [[-> _]|[_ ->]]; now left.
  - exists []. split; [constructor| |apply CH|easy]. intros c. rewrite PS. cbn. split; [easy|]. intros [[_ X]|[X _]]; [now apply X|now apply D].
Qed.

Lemma lxor_self b c : Z.lxor b c = b -> c = 0.
Proof. intros H. apply (f_equal (Z.lxor b)) in H. rewrite <- Z.lxor_assoc, Z.lxor_nilpotent, Z.lxor_0_l in H. easy. Qed.

Section Ninfo.
Variables (loc : locs).
Lemma kid_cell t p j c i : Tree t loc 0 0 [] [0] (-1) -> loc p = Some j -> loc (p ++ [c]) = Some i -> i = Z.lxor (base_ (arr t j)) c.
Proof. intros T LP LC. eapply (kid_at t loc 0 0 [] [0] (-1) [] p j c i); eauto. now left. Qed.
Lemma part_kid t p j c K lim : Tree t loc 0 0 [] [0] (-1) -> loc p = Some j -> kidsof t (part loc lim) p j K -> In c K ->
  0 <= c < 256 /\ exists q, loc q = Some (Z.lxor (base_ (arr t j)) c) /\ (q = p ++ [c] \/ (q = [] /\ p = [] /\ c = 0)).
Proof.
  intros T LP H I. apply (h_in _ _ _ _ _ H) in I as [I|[X Y]].
  - apply part_snoc in I as (i & E & _). split; [eapply (loc_label t loc 0 0 [] [0] (-1) T p c); congruence|]. exists (p ++ [c]). split; [|now left]. rewrite E. f_equal. now apply (kid_cell t p).
  - subst p c. split; [lia|]. exists []. split; [|now right]. rewrite (t_root _ _ _ _ _ _ _ T) in LP. injection LP as <-. rewrite (t_rbase _ _ _ _ _ _ _ T). apply (t_root _ _ _ _ _ _ _ T).
Qed.
Lemma base_kid t p j c i : Tree t loc 0 0 [] [0] (-1) -> loc p = Some j -> loc (p ++ [c]) = Some i -> (p = [] /\ j = 0 /\ base_ (arr t j) = 0) \/ (p <> [] /\ 0 < j /\ 256 <= base_ (arr t j) < size t).
Proof.
  intros T LP LC. destruct (list_eq_dec Z.eq_dec p []) as [E|NE].
  - subst p. left. rewrite (t_root _ _ _ _ _ _ _ T) in LP. injection LP as <-. split; [easy|]. split; [easy|apply T].
  - right. split; [easy|]. destruct (t_node _ _ _ _ _ _ _ T _ _ _ LC) as (_ & ZP & _). split; [now apply (loc_pos t loc 0 0 [] [0] (-1) T p)|].
    destruct (t_base _ _ _ _ _ _ _ T _ _ LP ZP NE) as [(_ & _ & X)|(X & _)]; [now rewrite X in LC|easy].
Qed.
Lemma zero_kid t p j : Tree t loc 0 0 [] [0] (-1) -> loc p = Some j -> 0 < j -> 256 <= base_ (arr t j) < size t -> (check (arr t (base_ (arr t j))) = j <-> loc (p ++ [0]) <> None).
Proof.
  intros T LP J B. split.
  - intros CK. destruct (t_all _ _ _ _ _ _ _ T (base_ (arr t j)) ltac:(lia) ltac:(lia)) as [X|[r LR]]; [lia|].
    assert (NR : r <> []). { intros ->. rewrite (t_root _ _ _ _ _ _ _ T) in LR. injection LR. lia. }
    destruct (exists_last NR) as (pp & lp & ->). destruct (t_node _ _ _ _ _ _ _ T _ _ _ LR) as (_ & _ & _ & fp & LPP & CK' & ET).
    assert (EF : fp = j) by congruence. rewrite EF in *. pose proof (t_inj _ _ _ _ _ _ _ T pp p j LPP LP) as ->.
    pose proof (kid_cell t p j lp _ T LP LR) as E. symmetry in E. apply lxor_self in E. subst lp. rewrite LR. discriminate.
  - intros H. destruct (loc (p ++ [0])) as [i|] eqn:E; [|easy]. destruct (t_node _ _ _ _ _ _ _ T _ _ _ E) as (_ & _ & _ & j' & LP' & CK & _).
    pose proof (kid_cell t p j 0 i T LP E) as EI. rewrite Z.lxor_0_r in EI. rewrite <- EI. congruence.
Qed.
Lemma ninfo_step t p c j lim : ready t = true -> Tree t loc 0 0 [] [0] (-1) -> loc p = Some j -> loc (p ++ [c]) = Some lim -> c <> 0 -> Part t loc lim ->
  exists f, push_sibling t j (base_ (arr t j)) c ((j =? 0) || negb (chd t j =? 0) || (check (arr t (base_ (arr t j))) =? j)) = Ok (with_inf t f) /\ Part (with_inf t f) loc (lim + 1).
Proof.
  intros R T LP LC C0 P. destruct (t_node _ _ _ _ _ _ _ T _ _ _ LC) as (HC & ZP & _). destruct (p_kids _ _ _ P p j LP ZP) as (K & HK).
  pose proof (base_kid t p j c lim T LP LC) as BK. pose proof (kid_cell t p j c lim T LP LC) as EL.
  assert (KB : forall x, In x (c :: K) -> 0 <= x < 256 /\ 0 <= Z.lxor (base_ (arr t j)) x < size t).
  { intros x [<-|I]; [split; [easy|]; rewrite <- EL; now apply (t_in _ _ _ _ _ _ _ T) in LC|]. destruct (part_kid t p j x K lim T LP HK I) as (HX & q & LQ & _). split; [easy|]. now apply (t_in _ _ _ _ _ _ _ T) in LQ. }
  assert (NI : ~ In c K).
  { intros I. apply (h_in _ _ _ _ _ HK) in I as [I|[_ I]]; [|easy]. apply part_snoc in I as (i & E & [H|H]); [|easy]. rewrite LC in E. injection E as <-. lia. }
  assert (FL : (j =? 0) || negb (chd t j =? 0) || (check (arr t (base_ (arr t j))) =? j) = match K with [] => false | _ => true end).
  { destruct BK as [(EP & EJ & _)|(NP & J & B)].
    - rewrite EJ. cbn [Z.eqb orb]. destruct K as [|x K]; [|reflexivity]. assert (I : In 0 []) by (apply (h_in _ _ _ _ _ HK); right; easy). destruct I.
    - destruct (Z.eqb_spec j 0) as [|_]; [lia|]. cbn [orb]. rewrite (h_child _ _ _ _ _ HK). pose proof (zero_kid t p j T LP J B) as ZK.
      assert (I0 : In 0 K <-> loc (p ++ [0]) <> None).
      { rewrite (h_in _ _ _ _ _ HK), part_snoc. split; [intros [(i & E & _)|[X _]]; [congruence|easy]|]. intros X. left. destruct (loc (p ++ [0])) as [i|]; [|easy]. exists i. split; [easy|now right]. }
      destruct K as [|x K]; cbn [hd].
      + destruct (Z.eqb_spec 0 0); [|lia]. cbn [negb orb]. apply Z.eqb_neq. intros X. apply ZK, I0 in X. destruct X.
      + destruct (Z.eqb_spec x 0) as [->|]; [|reflexivity]. cbn [negb orb]. apply Z.eqb_eq. apply ZK, I0. now left. }
  rewrite FL. destruct (t_in _ _ _ _ _ _ _ T _ _ LP) as (JB & JF & _).
  destruct (push_sibling_ok t (base_ (arr t j)) j K c R JB (h_sorted _ _ _ _ _ HK) KB (h_child _ _ _ _ _ HK) (h_sibs _ _ _ _ _ HK) NI) as (f & K' & E & SK & IK & CH & SB & CE & SE).
  exists f. split; [exact E|].
  assert (PN : forall q d, part loc (lim + 1) (q ++ [d]) <> None <-> part loc lim (q ++ [d]) <> None \/ q ++ [d] = p ++ [c]).
  { intros q d. rewrite !part_snoc. split.
    - intros (i & E1 & [H|H]); [|left; eauto]. destruct (Z.eq_dec i lim) as [->|]; [|left; exists i; split; [easy|lia]]. right. apply (t_inj _ _ _ _ _ _ _ T _ _ _ E1 LC).
    - intros [(i & E1 & H)|E1]; [exists i; split; [easy|lia]|]. rewrite E1. exists lim. split; [easy|left; lia]. }
  (* the cells whose links change are those of the children of [p], or the root *)
  assert (CELL : forall x, In x K' -> exists q, loc q = Some (Z.lxor (base_ (arr t j)) x) /\ (q = p ++ [x] \/ (q = [] /\ p = [] /\ x = 0))).
  { intros x I. apply IK in I as [I| ->]; [now apply (part_kid t p j x K lim)|]. exists (p ++ [c]). split; [now rewrite <- EL|now left]. }
  split.
  - intros q j' LQ ZQ. destruct (list_eq_dec Z.eq_dec q p) as [->|NQ].
    + assert (j' = j) by congruence. subst j'. exists K'. split; [easy| |exact CH|exact SB].
      intros d. rewrite IK, PN, (h_in _ _ _ _ _ HK). split.
      * intros [[X|X]| ->]; [left; now left|now right|left; now right].
      * intros [[X|X]|X]; [left; now left| |left; now right]. apply app_inj_tail in X as [_ ->]. now right.
    + destruct (p_kids _ _ _ P q j' LQ ZQ) as (K2 & HK2). exists K2. split; [apply HK2| | |].
      * intros d. rewrite PN, (h_in _ _ _ _ _ HK2). split; [tauto|]. intros [[X|X]|X]; [now left| |now right]. apply app_inj_tail in X as [X _]. easy.
      * unfold chd. cbn [inf with_inf]. rewrite CE; [apply HK2|]. intros ->. apply NQ. apply (t_inj _ _ _ _ _ _ _ T _ _ _ LQ LP).
      * apply sibs_ext with (s := sib t); [|apply HK2]. intros d I. unfold sib at 1. cbn [inf with_inf arr]. apply SE. intros x IX EX.
        destruct (part_kid t q j' d K2 lim T LQ HK2 I) as (_ & r & LR & HR). destruct (CELL x IX) as (r' & LR' & HR'). rewrite EX in LR. pose proof (t_inj _ _ _ _ _ _ _ T _ _ _ LR LR') as ER. subst r'.
        destruct HR as [HR|(HR & HQ & _)], HR' as [HR'|(HR' & HP & _)].
        -- rewrite HR in HR'. apply app_inj_tail in HR' as [X _]. easy.
        -- rewrite HR in HR'. now destruct q.
        -- rewrite HR in HR'. now destruct p.
        -- congruence.
  - intros q i LQ. unfold chd. cbn [inf with_inf]. destruct (Z.eq_dec i j) as [->|NE]; [|rewrite CE by easy; now apply (p_leaf _ _ _ P q)].
    pose proof (t_inj _ _ _ _ _ _ _ T _ _ _ LQ LP) as X. elim ZP. rewrite <- X, in_app_iff. right. now left.
  - intros i F. assert (F' : freec t i) by exact F. pose proof (p_free _ _ _ P i F') as I0. assert (NL : forall q, loc q <> Some i) by (intros q LQ; apply (t_in _ _ _ _ _ _ _ T) in LQ; now apply (proj1 (proj2 LQ))).
    cbn [inf with_inf]. assert (X1 : child (f i) = 0). { rewrite CE; [unfold chd; now rewrite I0|]. intros ->. now apply (NL p). }
    assert (X2 : sibling (f i) = 0). { rewrite SE; [unfold sib; now rewrite I0|]. intros x IX ->. destruct (CELL x IX) as (q & LQ & _). now apply (NL q). }
    destruct (f i) as [a b]. cbn in X1, X2. now subst.
Qed.
Lemma ninfo_ok : forall todo lim t, ready t = true -> Tree t loc 0 0 [] [0] (-1) -> check (arr t 0) < 0 -> 0 <= lim -> lim + Z.of_nat todo = size t -> Part t loc lim ->
  exists f, restore_ninfo todo lim t = Ok (with_inf t f) /\ Part (with_inf t f) loc (size t).
Proof.
  induction todo as [|todo IH]; intros lim t R T C0 L0 E P; cbn [restore_ninfo].
  - exists (inf t). assert (EW : with_inf t (inf t) = t) by (destruct t; reflexivity). rewrite EW. split; [reflexivity|]. assert (lim = size t) as <- by lia. exact P.
  - rewrite get_a_ok by lia. cbn [bind]. destruct (Z.ltb_spec (check (arr t lim)) 0) as [CF|CF].
    + apply IH; try easy; [lia|lia|]. apply (Part_ext t loc lim); [easy|]. intros p c. rewrite !part_snoc. split; intros (i & LP & H); exists i; (split; [easy|]); [|lia].
      destruct (Z.eq_dec i lim) as [->|]; [|lia]. pose proof (loc_nonfree t loc 0 0 [] [0] (-1) T _ _ LP ltac:(intros X; destruct p; discriminate X)). lia.
    + assert (LP0 : 0 < lim) by (destruct (Z.eq_dec lim 0) as [X|]; [rewrite X in CF; lia|lia]).
      destruct (t_all _ _ _ _ _ _ _ T lim ltac:(lia) CF) as [X|[r LR]]; [lia|].
      assert (NR : r <> []). { intros ->. rewrite (t_root _ _ _ _ _ _ _ T) in LR. injection LR. lia. }
      destruct (exists_last NR) as (p & c & ->). destruct (t_node _ _ _ _ _ _ _ T _ _ _ LR) as (HC & ZP & _ & j & LP & CK & _). rewrite CK. destruct (t_in _ _ _ _ _ _ _ T _ _ LP) as (JB & _).
      rewrite get_a_ok by lia. cbn [bind]. cbn zeta. pose proof (kid_cell t p j c lim T LP LR) as EL.
      assert (LB : Z.lxor (base_ (arr t j)) lim mod 256 = c). { rewrite EL, <- Z.lxor_assoc, Z.lxor_nilpotent, Z.lxor_0_l. apply Z.mod_small. lia. }
      rewrite LB. destruct (Z.eqb_spec c 0) as [->|NC].
      * cbn [bind]. apply IH; try easy; [lia|lia|]. apply (Part_ext t loc lim); [easy|]. intros q d. rewrite !part_snoc. split; intros (i & LQ & H); exists i; (split; [easy|]); [|lia].
        destruct (Z.eq_dec i lim) as [X|]; [|lia]. right. rewrite X in LQ. pose proof (t_inj _ _ _ _ _ _ _ T _ _ _ LQ LR) as EQ. now apply app_inj_tail in EQ.
      * rewrite get_i_ok by easy. cbn [bind]. pose proof (base_kid t p j c lim T LP LR) as BK.
        rewrite get_a_ok by (destruct BK as [(_ & _ & X)|(_ & _ & X)]; lia). cbn [bind].
        destruct (ninfo_step t p c j lim R T LP LR NC P) as (f & EF & PF). unfold chd in EF. rewrite EF. cbn [bind].
        destruct (IH (lim + 1) (with_inf t f) R) as (f2 & E2 & P2); [now apply (Tree_same t)|exact C0|lia|cbn [size with_inf]; lia|exact PF|].
        exists f2. split; [exact E2|exact P2].
Qed.
End Ninfo.

Definition stripped (t : da) : da := Da (arr t) (fun _ => Info 0 0) (fun _ => block0) 0 0 0 (size t) (rej t) true.
(** From the nodes of a trie at rest, the same trie is rebuilt. *)
Lemma restore_ok t0 t loc : Rest t0 loc -> arr t = arr t0 -> size t = size t0 -> exists t', restore t = Ok t' /\ Rest t' loc /\ arr t' = arr t /\ size t' = size t.
Proof.
  intros (F & T & L) A S. destruct F as (_ & es & ls & C & _).
  assert (C1 : Cells (stripped t) es). { destruct C as [C1 C2 C3 C4 C5]. split; unfold freec, enx, epv, stripped in *; cbn [size arr]; rewrite ?A, ?S; assumption. }
  assert (T1 : Tree (stripped t) loc 0 0 [] [0] (-1)) by (apply (Tree_same t0); [exact A|exact S|exact T]).
  unfold restore. fold (stripped t). destruct (blocks_ok (stripped t) es eq_refl C1 ltac:(reflexivity) ltac:(intros [| |]; reflexivity)) as (t1 & E1 & A1 & F1). rewrite E1. cbn [bind].
  pose proof (s_arr _ _ A1) as AA. pose proof (s_size _ _ A1) as SS. assert (T2 : Tree t1 loc 0 0 [] [0] (-1)) by (apply (Tree_same (stripped t)); easy).
  destruct (ninfo_ok loc (Z.to_nat (size t1)) 0 t1) as (f & E2 & P2); [apply F1|exact T2| |lia| | |].
  { rewrite AA. apply (c_root _ _ C1). }
  { pose proof (c_size _ _ C1). pose proof (c_pos _ _ C1). rewrite SS. lia. }
  { apply (part_start t1 loc [0]); [exact T2|]. intros i. rewrite (s_inf _ _ A1). reflexivity. }
  exists (with_inf t1 f). split; [exact E2|]. split; [|split; [exact AA|exact SS]].
  split; [now apply (FI_with_inf t1)|]. split; [now apply (Tree_same t1)|]. split.
  - intros p j LP ZP _. destruct (p_kids _ _ _ P2 p j LP ZP) as (K & [K1 K2 K3 K4]). exists K. split; try easy. intros c. rewrite K2, part_snoc. split; (intros [X|X]; [left|now right]).
    + destruct X as (i & X & _). congruence.
    + destruct (loc (p ++ [c])) as [i|] eqn:EI; [|easy]. exists i. split; [easy|]. left. apply (t_in _ _ _ _ _ _ _ T2) in EI. lia.
  - apply P2.
  - apply P2.
Qed.

Lemma initial_rest : Rest initial (fun p => match p with [] => Some 0 | _ => None end).
Proof.
  split; [apply initial_FI|]. split.
  - split; try easy.
    + intros [|? ?] [|? ?] i; easy.
    + intros i Hi. unfold initial. cbn [arr]. destruct (Z.eqb_spec i 0); [lia|]. cbn [check]. destruct (i =? 255); lia.
    + intros [|? ?] i; [|easy]. intros X. injection X as <-. split; [cbn; lia|]. split; [unfold freec; lia|lia].
    + intros [|? ?] c i; easy.
    + intros [|? ?] j; easy.
  - split; [|intros [|? ?]; easy|intros i _; reflexivity]. intros [|? ?] j LP; [|easy]. injection LP as <-. intros _ _. exists [0]. split; [repeat constructor| |reflexivity|split; reflexivity].
    intros c. cbn. split; [intros [<-|[]]; now right|]. intros [X|[_ ->]]; [easy|now left].
Qed.
