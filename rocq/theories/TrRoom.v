(** Giving a cell back, adding a block, finding room. *)
From Verif Require Import Base ListAux TrModel TrRing TrFree TrCells.
Local Open Scope Z_scope.

(** ** What keeps the free cells as they are *)
Lemma FI_ext t t' : FI t -> size t' = size t -> ready t' = ready t -> blk t' = blk t -> (forall w, head t' w = head t w) ->
  (forall x, freec t x -> arr t' x = arr t x) ->
  (forall x, 0 < x < size t -> 0 <= check (arr t x) -> 0 <= check (arr t' x)) -> check (arr t' 0) < 0 ->
  FI t' /\ (forall x, freec t' x <-> freec t x).
Proof.
  intros (R & es & ls & C & BK) S R' BL H A N Z.
  assert (FR : forall x, freec t' x <-> freec t x).
  { intros x. unfold freec. rewrite S. split.
    - intros [I L]. split; [easy|]. destruct (Z.lt_ge_cases (check (arr t x)) 0) as [X|X]; [easy|]. specialize (N x I X). lia.
    - intros [I L]. split; [easy|]. rewrite A; easy. }
  split; [|easy]. split; [congruence|]. exists es, ls. split.
  - split; rewrite ?S; try apply C; [easy| |].
    + intros b B. apply ring_ext with (nx := enx t) (pv := epv t); [| |now apply (c_ring _ _ C)].
      * intros x J. apply (c_in _ _ C b x B) in J as [J _]. unfold enx. now rewrite A.
      * intros x J. apply (c_in _ _ C b x B) in J as [J _]. unfold epv. now rewrite A.
    + intros b i B. rewrite FR. now apply (c_in _ _ C).
  - split; rewrite ?S, ?BL; try apply BK. apply (LInv_same t); [easy| |apply BK]. split; [easy| |]; intros x; unfold bnx, bpv; now rewrite BL.
Qed.
(** only what is not an empty cell may differ, and the blocks' own fields *)
Lemma FI_fields t t' : FI t -> sameA t t' -> sameL t t' -> (forall y, num (blk t' y) = num (blk t y)) ->
  (forall y, trial (blk t' y) = trial (blk t y)) -> (forall y, ehead (blk t' y) = ehead (blk t y)) -> FI t'.
Proof.
  intros (R & es & ls & C & BK) A L N T E. split; [rewrite (s_ready _ _ A); easy|]. exists es, ls. split.
  - split; unfold freec, enx, epv; rewrite ?(s_size _ _ A), ?(s_arr _ _ A); apply C.
  - split; rewrite ?(s_size _ _ A).
    + apply (LInv_same t); [apply A|easy|apply BK].
    + intros b B. rewrite N. now apply BK.
    + intros b B. rewrite E. now apply BK.
    + intros b B. rewrite T. now apply BK.
    + intros b B. now apply BK.
    + intros b B. rewrite T. now apply BK.
    + intros b B. rewrite T. now apply BK.
Qed.

(** ** Giving a cell back *)
Record gives (t t' : da) (e : Z) : Prop := {
  g_fi : FI t';
  g_keep : forall y, y <> e -> ~ freec t y -> arr t' y = arr t y;
  g_free : forall y, freec t' y <-> freec t y \/ y = e;
  g_inf : inf t' = upd (inf t) e (Info 0 0);
  g_sz : size t' = size t }.

Lemma linked_cells t es e h l t1 : Cells t es -> 0 < e < size t -> ~ freec t e -> es (e / 256) = h :: l -> size t1 = size t ->
  (forall y, enx t1 y = if y =? h then e else if y =? e then enx t h else enx t y) ->
  (forall y, epv t1 y = if y =? enx t h then e else if y =? e then h else epv t y) ->
  Cells t1 (upd es (e / 256) (h :: e :: l)) /\ (forall y, y <> e -> ~ freec t y -> arr t1 y = arr t y) /\
  (forall y, freec t1 y <-> freec t y \/ y = e).
Proof.
  intros C E NF EQ S1 U1 U2. assert (B : 0 <= e / 256 < size t / 256) by (apply div_in; pose proof (c_size _ _ C); lia).
  pose proof (c_ring _ _ C _ B) as RG. assert (Ih : In h (es (e / 256))) by (rewrite EQ; now left).
  assert (In_ : In (enx t h) (es (e / 256))) by apply (ring_next_in _ _ _ _ RG Ih).
  assert (Fh : freec t h) by (apply (c_in _ _ C _ _ B); easy). assert (Fn : freec t (enx t h)) by (apply (c_in _ _ C _ _ B); easy).
  assert (he : h <> e) by (intros ->; easy). assert (ne : enx t h <> e) by (intros X; rewrite X in Fn; easy).
  assert (KE : forall y, y <> e -> ~ freec t y -> arr t1 y = arr t y).
  { intros y Y NFy. pose proof (U1 y) as V1. pose proof (U2 y) as V2. destruct (Z.eqb_spec y h) as [X|]; [subst y; easy|].
    destruct (Z.eqb_spec y (enx t h)) as [X|]; [rewrite X in NFy; easy|]. destruct (Z.eqb_spec y e); [easy|].
    unfold enx, epv in V1, V2. destruct (arr t1 y), (arr t y). cbn in *. f_equal; lia. }
  assert (FR : forall y, freec t1 y <-> freec t y \/ y = e).
  { intros y. pose proof (U1 y) as V. destruct (Z.eqb_spec y h) as [X|X]; [subst y|destruct (Z.eqb_spec y e) as [Y|Y]; [subst y|]].
    - split; [now left|]. intros _. unfold freec, enx in *. rewrite S1. split; [apply Fh|lia].
    - split; [now right|]. intros _. unfold freec. rewrite S1. split; [easy|]. unfold enx at 1 in V. destruct Fn as [Fn _]. lia.
    - unfold freec. rewrite S1. unfold enx in V. split; [|intuition lia]. intros Q. left. lia. }
  split; [|split; easy]. split; rewrite ?S1; try apply C.
  - destruct (Z.lt_ge_cases (check (arr t1 0)) 0) as [|G]; [easy|]. rewrite KE in G; [pose proof (c_root _ _ C); lia|lia|]. unfold freec. lia.
  - intros b Hb. destruct (Z.eq_dec b (e / 256)) as [->|NB].
    + rewrite upd_eq. rewrite EQ in RG. apply ring_insert_after with (nx := enx t) (pv := epv t); [exact RG| | | | | | |].
      * intros J. apply NF. apply (c_in _ _ C _ _ B). rewrite EQ. exact J.
      * rewrite U1, Z.eqb_refl. easy.
      * rewrite U1. destruct (Z.eqb_spec e h); [congruence|]. rewrite Z.eqb_refl. easy.
      * rewrite U2, Z.eqb_refl. easy.
      * rewrite U2. destruct (Z.eqb_spec e (enx t h)); [congruence|]. now rewrite Z.eqb_refl.
      * intros x J N. rewrite U1. destruct (Z.eqb_spec x h); [easy|]. destruct (Z.eqb_spec x e) as [X|]; [|easy]. subst x. elim NF. apply (c_in _ _ C _ _ B). rewrite EQ. exact J.
      * intros x J N. rewrite U2. destruct (Z.eqb_spec x (enx t h)); [easy|]. destruct (Z.eqb_spec x e) as [X|]; [|easy]. subst x. elim NF. apply (c_in _ _ C _ _ B). rewrite EQ. exact J.
    + rewrite upd_ne by easy. apply ring_ext with (nx := enx t) (pv := epv t); [| |now apply (c_ring _ _ C)].
      * intros x J. apply (c_in _ _ C b x Hb) in J as [J D]. rewrite U1. destruct (Z.eqb_spec x h) as [X|]; [subst x; apply (c_in _ _ C _ _ B) in Ih as [_ Ih]; congruence|].
        destruct (Z.eqb_spec x e) as [X|]; [subst x; easy|easy].
      * intros x J. apply (c_in _ _ C b x Hb) in J as [J D]. rewrite U2. destruct (Z.eqb_spec x (enx t h)) as [X|]; [rewrite <- X in In_; apply (c_in _ _ C _ _ B) in In_ as [_ In_]; congruence|].
        destruct (Z.eqb_spec x e) as [X|]; [subst x; easy|easy].
  - intros b i Hb. rewrite FR. destruct (Z.eq_dec b (e / 256)) as [->|NB].
    + rewrite upd_eq. pose proof (c_in _ _ C (e / 256) i B) as CI. rewrite EQ in CI. cbn in *. split.
      * intros [J|[J|J]]; [subst; tauto|subst; tauto|tauto].
      * intros [[J| ->] D]; [|tauto]. assert (h = i \/ In i l) by tauto. tauto.
    + rewrite upd_ne by easy. rewrite (c_in _ _ C b i Hb). split; [tauto|]. intros [[J|J] D]; [tauto|]. subst i. congruence.
Qed.

Lemma single_cells t es e t1 : Cells t es -> 0 < e < size t -> ~ freec t e -> es (e / 256) = [] -> size t1 = size t ->
  arr t1 = upd (arr t) e (Node (- e) (- e)) -> Cells t1 (upd es (e / 256) [e]) /\ (forall y, freec t1 y <-> freec t y \/ y = e).
Proof.
  intros C E NF EQ S1 A1. assert (B : 0 <= e / 256 < size t / 256) by (apply div_in; pose proof (c_size _ _ C); lia).
  assert (FR : forall y, freec t1 y <-> freec t y \/ y = e).
  { intros y. unfold freec. rewrite S1, A1. unfold upd. destruct (Z.eqb_spec y e) as [X|X]; [subst y; cbn; lia|]. tauto. }
  split; [|easy]. split; rewrite ?S1; try apply C.
  - rewrite A1, upd_ne by lia. apply C.
  - intros b Hb. destruct (Z.eq_dec b (e / 256)) as [->|NB].
    + rewrite upd_eq. apply ring_single; unfold enx, epv; rewrite A1, upd_eq; cbn; lia.
    + rewrite upd_ne by easy. assert (X : forall x, In x (es b) -> arr t1 x = arr t x).
      { intros x J. rewrite A1. apply upd_ne. intros ->. apply (c_in _ _ C b e Hb) in J. easy. }
      apply ring_ext with (nx := enx t) (pv := epv t); [| |now apply (c_ring _ _ C)]; intros x J; unfold enx, epv; now rewrite X.
  - intros b i Hb. rewrite FR. destruct (Z.eq_dec b (e / 256)) as [->|NB].
    + rewrite upd_eq. pose proof (c_in _ _ C (e / 256) i B) as CI. rewrite EQ in CI. cbn in *. split; [intros [J|[]]; subst; tauto|]. intros [[J| ->] D]; [tauto|now left].
    + rewrite upd_ne by easy. rewrite (c_in _ _ C b i Hb). split; [tauto|]. intros [[J|J] D]; [tauto|]. subst i. congruence.
Qed.

Lemma push_enode_ok t e : FI t -> 256 <= e < size t -> ~ freec t e -> exists t', push_enode t e = Ok t' /\ gives t t' e.
Proof.
  intros (R & es & ls & C & BK) HE NF. pose proof (c_size _ _ C) as SZ. assert (B : 0 <= e / 256 < size t / 256) by (apply div_in; lia).
  assert (B1 : 1 <= e / 256) by (apply Z.div_le_lower_bound; lia). set (bi := e / 256) in *.
  pose proof (b_num _ _ _ BK bi B) as NUM. destruct (Z.eqb_spec bi 0) as [|NZ] in NUM; [lia|]. pose proof (b_list _ _ _ BK) as LI.
  pose proof (es_length _ _ bi C B) as LE.
  unfold push_enode. fold bi. rewrite get_b_ok by easy. cbn [bind].
  destruct (set_num_ok t bi (num (blk t bi) + 1) R B) as (t1 & -> & A1 & L1 & NU1 & TR1 & EH1). cbn [bind].
  pose proof (LInv_same _ _ _ (s_size _ _ A1) L1 LI) as LI1. assert (R1 : ready t1 = true) by (rewrite (s_ready _ _ A1); easy).
  assert (SZ1 : size t1 = size t) by apply A1. destruct (Z.eqb_spec bi 0) as [|_]; [lia|]. cbn [negb].
  assert (MID : exists t2, (if num (blk t bi) + 1 =? 1 then
      let! t := set_ehead t1 bi e in let! t := set_a t e (Node (- e) (- e)) in transfer_block t bi Full Closed
    else
      let prv := ehead (blk t bi) in
      let! n := get_a t1 prv in
      let nxt := - check n in
      let! t := set_a t1 e (Node (- prv) (- nxt)) in
      let! t := set_base t nxt (- e) in
      let! t := set_check t prv (- e) in
      let! b := get_b t bi in
      let! t := if (num b =? 2) || (trial b =? MAX_TRIAL) then transfer_block t bi Closed Open else Ok t in
      set_trial t bi 0) = Ok t2 /\ FI t2 /\ (forall y, y <> e -> ~ freec t y -> arr t2 y = arr t y) /\ (forall y, freec t2 y <-> freec t y \/ y = e) /\
      inf t2 = inf t /\ size t2 = size t).
  { destruct (Z.eqb_spec (num (blk t bi) + 1) 1) as [N1|N1].
    - assert (EQ : es bi = []) by (destruct (es bi); [easy|cbn [length] in NUM; lia]).
      destruct (set_ehead_ok t1 bi e R1 ltac:(rewrite SZ1; easy)) as (t2 & -> & A2 & L2 & NU2 & TR2 & EH2). cbn [bind].
      assert (SZ2 : size t2 = size t) by (rewrite (s_size _ _ A2); easy). assert (R2 : ready t2 = true) by (rewrite (s_ready _ _ A2); easy).
      rewrite set_a_ok by (rewrite SZ2; lia). cbn [bind]. change (Da _ _ _ _ _ _ _ _ _) with (put t2 e (Node (- e) (- e))). set (t3 := put t2 e (Node (- e) (- e))).
      assert (LI3 : LInv t3 ls) by (apply (LInv_same t1); [cbn; apply A2|split; apply L2|easy]).
      assert (IF : In bi (ls Full)) by (apply (b_full _ _ _ BK); [lia|]; now rewrite EQ).
      destruct (transfer_ok t3 ls bi Full Closed R2 LI3 IF ltac:(lia) ltac:(easy)) as (t4 & ls' & -> & K4 & LI4 & IN1 & IN2 & IN3 & _).
      { cbn. rewrite NU2, NU1, Z.eqb_refl. split; [lia|easy]. }
      assert (A4 : arr t4 = upd (arr t) e (Node (- e) (- e))) by (rewrite (k_arr _ _ K4); cbn; rewrite (s_arr _ _ A2), (s_arr _ _ A1); easy).
      assert (SZ4 : size t4 = size t) by (rewrite (k_size _ _ K4); easy).
      destruct (single_cells t es e t4 C ltac:(lia) NF EQ SZ4 A4) as [C4 FR]. fold bi in C4.
      exists t4. split; [easy|]. split; [|split; [|split; [easy|split; [|easy]]]].
      + split; [rewrite (k_ready _ _ K4); easy|]. exists (upd es bi [e]), ls'. split; [easy|]. split; rewrite ?SZ4; try easy.
        * intros b Hb. rewrite (k_num _ _ K4). cbn. rewrite NU2, NU1. unfold upd. destruct (Z.eqb_spec b bi) as [->|NB]; [|apply (b_num _ _ _ BK b Hb)]. cbn. destruct (Z.eqb_spec bi 0); lia.
        * intros b Hb. rewrite (k_ehead _ _ K4). cbn. rewrite EH2, EH1. unfold upd. destruct (Z.eqb_spec b bi) as [->|NB]; [easy|apply (b_ehead _ _ _ BK b Hb)].
        * intros b Hb. rewrite (k_trial _ _ K4). cbn. rewrite TR2, TR1. apply (b_trial _ _ _ BK b Hb).
        * intros b Hb. rewrite IN1, (b_full _ _ _ BK b Hb). unfold upd. destruct (Z.eqb_spec b bi) as [->|NB]; cbn; intuition lia.
        * intros b Hb. rewrite (k_trial _ _ K4). cbn. rewrite TR2, TR1, IN2. cbn. rewrite (b_closed _ _ _ BK b Hb). unfold upd. destruct (Z.eqb_spec b bi) as [->|NB]; cbn; [tauto|]. intuition lia.
        * intros b Hb. rewrite (k_trial _ _ K4). cbn. rewrite TR2, TR1, IN3 by easy. rewrite (b_open _ _ _ BK b Hb). unfold upd. destruct (Z.eqb_spec b bi) as [->|NB]; cbn; [rewrite EQ; cbn; lia|easy].
      + intros y Y _. rewrite A4. now apply upd_ne.
      + rewrite (k_inf _ _ K4). cbn. rewrite (s_inf _ _ A2). apply A1.
    - destruct (es bi) as [|h l] eqn:EQ; [cbn in NUM; lia|].
      pose proof (b_ehead _ _ _ BK bi ltac:(lia)) as EH. rewrite EQ in EH. specialize (EH ltac:(easy)). cbn in EH. rewrite EH.
      pose proof (c_ring _ _ C _ B) as RG. assert (Ih : In h (es bi)) by (rewrite EQ; now left).
      assert (In_ : In (enx t h) (es bi)) by apply (ring_next_in _ _ _ _ RG Ih).
      assert (Fh : freec t h) by (apply (c_in _ _ C _ _ B); easy). assert (Fn : freec t (enx t h)) by (apply (c_in _ _ C _ _ B); easy).
      assert (he : h <> e) by (intros ->; easy). assert (ne : enx t h <> e) by (intros X; rewrite X in Fn; easy).
      assert (AR1 : arr t1 = arr t) by apply A1. destruct Fh as [Fh _]. destruct Fn as [Fn _].
      cbv zeta. rewrite get_a_ok by (rewrite SZ1; lia). cbn [bind]. rewrite AR1. change (- check (arr t h)) with (enx t h).
      rewrite set_a_ok by (rewrite SZ1; lia). cbn [bind]. rewrite AR1. rewrite set_base_ok by (cbn; rewrite SZ1; lia). cbn [bind arr inf blk headF headC headO size rej ready].
      rewrite set_check_ok by (cbn; rewrite SZ1; lia). cbn [bind arr inf blk headF headC headO size rej ready].
      match goal with |- context [get_b (Da ?x _ _ _ _ _ _ _ _) bi] => set (a3 := x) end.
      set (t3 := Da a3 (inf t1) (blk t1) (headF t1) (headC t1) (headO t1) (size t1) (rej t1) (ready t1)).
      assert (U1 : forall y, enx t3 y = if y =? h then e else if y =? e then enx t h else enx t y).
      { intros y. unfold enx at 1. unfold t3; cbn. unfold a3, upd. destruct (Z.eqb_spec y h) as [->|]; [cbn; lia|].
        destruct (Z.eqb_spec y (enx t h)) as [->|]; cbn; [rewrite (proj2 (Z.eqb_neq _ _) ne); easy|]. destruct (Z.eqb_spec y e) as [->|]; cbn; [lia|easy]. }
      assert (U2 : forall y, epv t3 y = if y =? enx t h then e else if y =? e then h else epv t y).
      { intros y. unfold epv at 1. unfold t3; cbn. unfold a3, upd. destruct (Z.eqb_spec y h) as [->|]; cbn.
        - destruct (Z.eqb_spec h (enx t h)); cbn; [lia|]. destruct (Z.eqb_spec h e); [easy|easy].
        - destruct (Z.eqb_spec y (enx t h)) as [->|]; cbn; [lia|]. destruct (Z.eqb_spec y e) as [->|]; cbn; [lia|easy]. }
      assert (R3 : ready t3 = true) by easy. assert (S3 : size t3 = size t) by easy.
      assert (LI3 : LInv t3 ls) by (apply (LInv_same t1); [easy|now split|easy]).
      rewrite get_b_ok by (rewrite ?S3; easy). cbn [bind]. change (blk t3) with (blk t1). rewrite NU1, Z.eqb_refl, TR1.
      destruct (linked_cells t es e h l t3 C ltac:(lia) NF EQ S3 U1 U2) as (C3 & KE & FR). fold bi in C3.
      pose proof (b_trial _ _ _ BK bi ltac:(lia)) as T.
      assert (X : exists t4 ls', (if (num (blk t bi) + 1 =? 2) || (trial (blk t bi) =? MAX_TRIAL) then transfer_block t3 bi Closed Open else Ok t3) = Ok t4 /\ relinked t3 t4 /\ LInv t4 ls' /\
        forall b, 0 < b < size t / 256 -> (In b (ls' Full) <-> In b (ls Full)) /\ (In b (ls' Closed) <-> In b (ls Closed) /\ b <> bi) /\ (In b (ls' Open) <-> In b (ls Open) \/ b = bi)).
      { destruct ((num (blk t bi) + 1 =? 2) || (trial (blk t bi) =? MAX_TRIAL)) eqn:CND.
        - assert (IC : In bi (ls Closed)).
          { apply (b_closed _ _ _ BK); [lia|]. apply orb_prop in CND as [CND|CND]; apply Z.eqb_eq in CND; [left; rewrite EQ; cbn [length] in *; lia|]. unfold MAX_TRIAL in CND.
            rewrite EQ. cbn [length] in *. destruct l; [now left|right; cbn; split; [lia|easy]]. }
          destruct (transfer_ok t3 ls bi Closed Open R3 LI3 IC ltac:(lia) ltac:(easy)) as (t4 & ls' & -> & K4 & LI4 & IN1 & IN2 & IN3 & _).
          { change (blk t3) with (blk t1). rewrite NU1, Z.eqb_refl. split; [lia|easy]. }
          exists t4, ls'. split; [easy|]. split; [easy|]. split; [easy|]. intros b Hb. rewrite IN1, IN2, IN3 by easy. cbn. intuition congruence.
        - exists t3, ls. split; [easy|]. split; [now split|]. split; [easy|]. intros b Hb. apply orb_false_elim in CND as [CN1 CN2]. apply Z.eqb_neq in CN1, CN2. unfold MAX_TRIAL in CN2.
          rewrite (b_closed _ _ _ BK b Hb), (b_open _ _ _ BK b Hb). split; [tauto|]. destruct (Z.eq_dec b bi) as [->|]; [|tauto]. rewrite EQ in *. cbn [length] in *. lia. }
      destruct X as (t4 & ls' & -> & K4 & LI4 & IN). cbn [bind].
      assert (SZ4 : size t4 = size t) by (rewrite (k_size _ _ K4); easy). assert (R4 : ready t4 = true) by (rewrite (k_ready _ _ K4); easy).
      destruct (set_trial_ok t4 bi 0 R4 ltac:(rewrite SZ4; easy)) as (t5 & -> & A5 & L5 & NU5 & TR5 & EH5).
      assert (SZ5 : size t5 = size t) by (rewrite (s_size _ _ A5); easy). assert (AR5 : arr t5 = arr t3) by (rewrite (s_arr _ _ A5); apply K4).
      assert (FR5 : forall y, freec t5 y <-> freec t3 y) by (intros y; unfold freec; rewrite SZ5, AR5, S3; easy).
      exists t5. split; [easy|]. split; [|split; [intros y; rewrite AR5; apply KE|split; [intros y; rewrite FR5; apply FR|split; [|easy]]]].
      2:{ rewrite (s_inf _ _ A5), (k_inf _ _ K4). cbn. apply A1. }
      split; [rewrite (s_ready _ _ A5); easy|]. exists (upd es bi (h :: e :: l)), ls'. split.
      + split; rewrite ?SZ5, ?AR5; try apply C3; try (apply C).
        * intros b Hb. apply ring_ext with (nx := enx t3) (pv := epv t3); [intros; unfold enx; now rewrite AR5|intros; unfold epv; now rewrite AR5|]. apply (c_ring _ _ C3). rewrite S3. easy.
        * intros b i Hb. rewrite FR5. apply (c_in _ _ C3). rewrite S3. easy.
      + split; rewrite ?SZ5.
        * apply (LInv_same t4); [apply A5|easy|easy].
        * intros b Hb. rewrite NU5, (k_num _ _ K4). cbn. rewrite NU1. unfold upd. destruct (Z.eqb_spec b bi) as [->|NB]; [|apply (b_num _ _ _ BK b Hb)]. cbn [length] in *. destruct (Z.eqb_spec bi 0); lia.
        * intros b Hb. rewrite EH5, (k_ehead _ _ K4). cbn. rewrite EH1. unfold upd. destruct (Z.eqb_spec b bi) as [->|NB]; [easy|apply (b_ehead _ _ _ BK b Hb)].
        * intros b Hb. rewrite TR5, (k_trial _ _ K4). cbn. rewrite TR1. destruct (Z.eqb_spec b bi) as [->|NB]; [now left|]. apply (b_trial _ _ _ BK b Hb).
        * intros b Hb. destruct (IN b Hb) as (-> & _ & _). rewrite (b_full _ _ _ BK b Hb). unfold upd. destruct (Z.eqb_spec b bi) as [->|NB]; [|easy]. rewrite EQ. cbn. lia.
        * intros b Hb. destruct (IN b Hb) as (_ & -> & _). rewrite TR5, (k_trial _ _ K4). cbn. rewrite TR1, (b_closed _ _ _ BK b Hb). unfold upd. destruct (Z.eqb_spec b bi) as [->|NB]; [|intuition lia]. cbn [length]. lia.
        * intros b Hb. destruct (IN b Hb) as (_ & _ & ->). rewrite TR5, (k_trial _ _ K4). cbn. rewrite TR1, (b_open _ _ _ BK b Hb). unfold upd. destruct (Z.eqb_spec b bi) as [->|NB]; [|intuition lia]. cbn [length]. intuition lia. }
  destruct MID as (t2 & E2 & FI2 & KE & FR & IN2 & SZ2). cbv zeta in E2. rewrite E2. clear E2. cbn [bind]. assert (R2 : ready t2 = true) by apply FI2.
  rewrite get_b_ok by (rewrite ?SZ2; easy). cbn [bind].
  assert (NB : 0 <= num (blk t2 bi) < 257).
  { destruct FI2 as (_ & es2 & ls2 & C2 & BK2). rewrite (b_num _ _ _ BK2 bi) by (rewrite SZ2; easy). pose proof (es_length _ _ bi C2 ltac:(rewrite SZ2; easy)). destruct (Z.eqb_spec bi 0); lia. }
  unfold get_r. rewrite inside_ok by easy. cbn [bind].
  assert (X : exists t3, (if reject (blk t2 bi) <? rej t2 (num (blk t2 bi)) then set_reject t2 bi (rej t2 (num (blk t2 bi))) else Ok t2) = Ok t3 /\ FI t3 /\ sameA t2 t3).
  { destruct (reject (blk t2 bi) <? rej t2 (num (blk t2 bi))); [|exists t2; split; [easy|]; split; [easy|now split]].
    destruct (set_reject_ok t2 bi (rej t2 (num (blk t2 bi))) R2 ltac:(rewrite SZ2; easy)) as (t3 & -> & A3 & L3 & N3 & T3 & E3). exists t3. split; [easy|]. split; [|easy].
    now apply (FI_fields t2). }
  destruct X as (t3 & -> & FI3 & A3). cbn [bind]. assert (SZ3 : size t3 = size t) by (rewrite (s_size _ _ A3); easy).
  rewrite set_i_ok by (try apply FI3; rewrite SZ3; lia). eexists. split; [easy|].
  match goal with |- gives _ ?x _ => set (t4 := x) end.
  destruct (FI_ext t3 t4 FI3) as [F4 FR4]; try easy; [destruct FI3 as (_ & es3 & ls3 & C3 & _); apply C3|].
  split; [easy| | | |easy].
  - intros y Y NFy. cbn. rewrite (s_arr _ _ A3). now apply KE.
  - intros y. rewrite FR4. rewrite <- FR. unfold freec. rewrite SZ3, SZ2, (s_arr _ _ A3). easy.
  - cbn. rewrite (s_inf _ _ A3), IN2. easy.
Qed.
