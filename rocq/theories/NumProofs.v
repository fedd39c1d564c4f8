(** Proofs about int() and float() of text. *)
From Verif Require Import Base Utf8Model TextModel TextSpec TextProofs NumModel NumSpec.
From Verif Require FmtModel FmtSpec FmtProofs.

Definition is_dec (c : Z) : Prop := 48 <= c <= 57.
Definition byte1 (c : Z) : Prop := 0 < c < 256.

Lemma c_string_id s : Forall byte1 s -> c_string s = s.
Proof.
  induction 1 as [|c s H _ IH]; [reflexivity|]. cbn. unfold byte1 in H.
  destruct (Z.eqb_spec c 0); [lia|]. now rewrite IH.
Qed.

Lemma drop_while_split P s : exists q, s = q ++ drop_while P s /\ Forall (fun c => P c = true) q /\
  (forall c r, drop_while P s = c :: r -> P c = false).
Proof.
  induction s as [|c s (q & E & F & G)]; cbn.
  - exists []. repeat split; [constructor|discriminate].
  - destruct (P c) eqn:Pc.
    + exists (c :: q). cbn. rewrite <- E. repeat split; [constructor; assumption|exact G].
    + exists []. repeat split; [constructor|]. intros c' r X. now injection X as -> ->.
Qed.

Lemma drop_while_app P q c r : Forall (fun x => P x = true) q -> P c = false ->
  drop_while P (q ++ c :: r) = c :: r.
Proof.
  induction 1 as [|x q Hx _ IH]; intros Hc; cbn; [now rewrite Hc|]. rewrite Hx. auto.
Qed.

Lemma c_isspace_iff c : c_isspace c = true <-> bytes_space c.
Proof. unfold c_isspace, bytes_space. lia. Qed.

Lemma uchar_isspace_iff c : byte1 c -> uchar_isspace c = true <-> bytes_space c.
Proof.
  unfold uchar_isspace, bytes_space, byte1. intros H. rewrite Z.mod_small by lia. lia.
Qed.

Lemma isdigit_iff p : Forall (fun c => 0 <= c < 256) p -> ascii_isdigit p = true <-> Forall is_dec p.
Proof.
  intros F. unfold ascii_isdigit. rewrite forallb_forall, Forall_forall. rewrite Forall_forall in F.
  split; intros H c Hc; specialize (H c Hc); specialize (F c Hc); cbn in F.
  - unfold is_dec, schar in *. destruct (c <? 128) eqn:E; lia.
  - unfold is_dec, schar in *. destruct (c <? 128) eqn:E; lia.
Qed.

Lemma alnum_dec c : is_dec c -> alnum_val c = Some (c - 48).
Proof.
  unfold is_dec, alnum_val. intros H.
  replace ((48 <=? c) && (c <=? 57)) with true by lia. reflexivity.
Qed.

(** The longest run of digits of the base *)
Lemma scan_digits_spec b p : 2 <= b -> Forall is_dec p -> forall acc, 0 <= acc ->
  exists v n, scan_digits b acc p = (v, n) /\ (n <= length p)%nat /\ 0 <= v /\
    (n = O -> v = acc) /\
    (n <> O -> digits decimal_of False b acc (firstn n p) v) /\
    (n = length p \/ exists c, nth_error p n = Some c /\ b <= c - 48).
Proof.
  intros Hb. induction 1 as [|c p Hc Hp IH]; intros acc Ha; cbn [scan_digits].
  - exists acc, O. repeat split; try lia; try congruence. now left.
  - rewrite (alnum_dec c Hc). destruct (Z.ltb_spec (c - 48) b) as [L|L].
    + unfold is_dec in Hc.
      destruct (IH (acc * b + (c - 48)) ltac:(nia)) as (v & n & E & Hn & Hv & H0 & H1 & H2).
      rewrite E. exists v, (S n). cbn [length firstn nth_error].
      repeat split; try lia.
      * intros _. destruct n as [|n].
        -- cbn. rewrite (H0 eq_refl). constructor; [now constructor|lia].
        -- econstructor 2; [now constructor|lia|]. apply H1. lia.
      * destruct H2 as [H2|H2]; [left; lia|right; exact H2].
    + exists acc, O. repeat split; try lia; try congruence.
      right. exists c. split; [reflexivity|lia].
Qed.

Lemma scan_digits_all b p : forall acc m, digits decimal_of False b acc p m ->
  scan_digits b acc p = (m, length p) /\ p <> [].
Proof.
  intros acc m H. induction H as [acc c d D L|acc c d s v D L H IH|acc c d s v F D L H IH];
    [| |contradiction].
  - inversion D; subst. cbn. rewrite alnum_dec by assumption.
    replace (c - 48 <? b) with true by lia. split; [reflexivity|discriminate].
  - inversion D; subst. cbn. rewrite alnum_dec by assumption.
    replace (c - 48 <? b) with true by lia. destruct IH as [-> _].
    split; [reflexivity|discriminate].
Qed.

Lemma digits_dec b acc p m : digits decimal_of False b acc p m ->
  Forall is_dec p /\ (0 <= acc -> 2 <= b -> 0 <= m).
Proof.
  induction 1 as [acc c d D L|acc c d s v D L H IH|acc c d s v F D L H IH]; [| |contradiction].
  - inversion D; subst. split; [repeat constructor; unfold is_dec; lia|nia].
  - inversion D; subst. destruct IH as [IH1 IH2].
    split; [constructor; [unfold is_dec; lia|exact IH1]|]. intros. apply IH2; nia.
Qed.

Lemma digits_mono (dig dig' : Z -> Z -> Prop) (u u' : Prop) b acc p m :
  (forall c d, dig c d -> dig' c d) -> (u -> u') ->
  digits dig u b acc p m -> digits dig' u' b acc p m.
Proof. intros H1 H2. induction 1; [constructor 1|econstructor 2|econstructor 3]; eauto. Qed.

(** strtoll on decimal digits *)
Lemma strtoll_dec b p : 2 <= b <= 36 -> Forall is_dec p ->
  strtoll p b = let '(v, n) := scan_digits b 0 p in
                match n with
                | O => (0, O, false)
                | _ => if two63 - 1 <? v then (two63 - 1, n, true) else (v, n, false)
                end.
Proof.
  intros Hb F. unfold strtoll.
  assert (D : drop_while c_isspace p = p).
  { destruct F as [|c p Hc F]; [reflexivity|]. cbn. unfold is_dec in Hc.
    replace (c_isspace c) with false; [reflexivity|]. unfold c_isspace. lia. }
  rewrite D.
  assert (S1 : (if at0 p 0 =? 43 then (1, tl p) else if at0 p 0 =? 45 then (-1, tl p) else (1, p))
               = (1, p)).
  { destruct F as [|c p Hc F]; [reflexivity|]. cbn. unfold is_dec in Hc.
    replace (c =? 43) with false by lia. replace (c =? 45) with false by lia. reflexivity. }
  rewrite S1.
  assert (X : ((at0 p 1 =? 120) || (at0 p 1 =? 88)) = false).
  { destruct F as [|c p Hc F]; [reflexivity|]. destruct F as [|c' p Hc' F]; [reflexivity|].
    cbn. unfold is_dec in Hc'. lia. }
  rewrite X, andb_false_r. cbn [andb].
  destruct (scan_digits_spec b p ltac:(lia) F 0 ltac:(lia)) as (v & n & E & Hn & Hv & _).
  rewrite E. destruct n as [|n]; [reflexivity|].
  rewrite Nat.sub_diag, Nat.add_0_l, Z.mul_1_l.
  replace (v <? - two63) with false by (unfold two63; lia). reflexivity.
Qed.

(** ** The text in front of the digits *)

Definition sign_of (sign : list Z) (sg : Z) : Prop :=
  (sign = [] /\ sg = 1) \/ (sign = [43] /\ sg = 1) \/ (sign = [45] /\ sg = -1).

(** What stands before the digits, and the base it selects *)
Definition lead (b b' : Z) (pre p : list Z) : Prop :=
  (exists c, prefix b' c /\ (b = b' \/ b = 0) /\ (pre = [48; c] \/ pre = [48; c; 95])) \/
  (pre = [] /\ 2 <= b <= 36 /\ b' = b) \/
  (pre = [] /\ b = 0 /\ b' = 10 /\ at0 p 0 <> 48).

Lemma prefix_range b c : prefix b c -> 2 <= b <= 36 /\ 0 < c < 256.
Proof. inversion 1; lia. Qed.

Lemma lead_range b b' pre p : lead b b' pre p -> 2 <= b' <= 36.
Proof.
  intros [(c & H & _)|[(_ & H & ->)|(_ & _ & -> & _)]]; try lia. now apply prefix_range in H.
Qed.

Lemma is_x_iff c : is_x c = true <-> c = 120 \/ c = 88. Proof. unfold is_x. lia. Qed.
Lemma is_o_iff c : is_o c = true <-> c = 111 \/ c = 79. Proof. unfold is_o. lia. Qed.
Lemma is_b_iff c : is_b c = true <-> c = 98 \/ c = 66. Proof. unfold is_b. lia. Qed.

Lemma valid_prefix_iff b c :
  (((b =? 16) && is_x c) || ((b =? 8) && is_o c) || ((b =? 2) && is_b c)) = true <-> prefix b c.
Proof.
  rewrite !orb_true_iff, !andb_true_iff, !Z.eqb_eq, is_x_iff, is_o_iff, is_b_iff. split.
  - intros [[[-> [->| ->]]|[-> [->| ->]]]|[-> [->| ->]]]; constructor.
  - inversion 1; auto 6.
Qed.

(** What the two steps between the sign and the digits accept *)
Lemma lead_sound b b' q p : (b = 0 \/ 2 <= b <= 36) ->
  guess_base b q = Ok b' -> skip_prefix b' q = Ok p -> Forall is_dec p ->
  exists pre, q = pre ++ p /\ lead b b' pre p.
Proof.
  intros Hb G S F. unfold skip_prefix in S.
  destruct (at0 q 0 =? 48) eqn:E0; cbn [andb] in S.
  - apply Z.eqb_eq in E0. destruct q as [|c0 q]; [discriminate E0|]. cbn in E0. subst c0.
    destruct q as [|c q].
    + cbn in S. injection S as <-. exists []. split; [reflexivity|].
      unfold guess_base in G. destruct (Z.eqb_spec b 0) as [->|N].
      * cbn in G. discriminate.
      * injection G as <-. right; left. repeat split; lia.
    + change (at0 (48 :: c :: q) 1) with c in S.
      destruct (negb (c =? 0) && negb (c_isdigit c)) eqn:C; cbn [andb] in S.
      * destruct (((b' =? 16) && is_x c) || ((b' =? 8) && is_o c) || ((b' =? 2) && is_b c)) eqn:V;
          [|discriminate].
        apply valid_prefix_iff in V. injection S as S.
        assert (Hb' : b = b' \/ b = 0).
        { unfold guess_base in G. destruct (Z.eqb_spec b 0); [now right|].
          injection G as <-. now left. }
        cbn [skipn] in S. destruct (at0 q 0 =? 95) eqn:U.
        -- destruct q as [|u q]; [discriminate U|]. cbn in U. apply Z.eqb_eq in U. subst u.
           cbn in S. subst q. exists [48; c; 95]. split; [reflexivity|].
           left. exists c. split; [exact V|]. split; [exact Hb'|now right].
        -- subst q. exists [48; c]. split; [reflexivity|].
           left. exists c. split; [exact V|]. split; [exact Hb'|now left].
      * injection S as <-. exists []. split; [reflexivity|].
        unfold guess_base in G. destruct (Z.eqb_spec b 0) as [->|N].
        -- exfalso. inversion F as [|x l H1 H2 E]. inversion H2 as [|x2 l2 H3 H4 E2]. subst.
           unfold is_dec in H3. change (at0 (48 :: c :: q) 0) with 48 in G.
           change (at0 (48 :: c :: q) 1) with c in G. cbn [negb Z.eqb Pos.eqb] in G.
           replace (is_x c) with false in G by (unfold is_x; lia).
           replace (is_o c) with false in G by (unfold is_o; lia).
           replace (is_b c) with false in G by (unfold is_b; lia). discriminate.
        -- injection G as <-. right; left. repeat split; lia.
  - injection S as <-. exists []. split; [reflexivity|].
    unfold guess_base in G. destruct (Z.eqb_spec b 0) as [->|N].
    + rewrite E0 in G. cbn in G. injection G as <-. right; right. repeat split. lia.
    + injection G as <-. right; left. repeat split; lia.
Qed.

(** ... and they accept every prefix and every number without one *)
Lemma lead_complete b b' pre p : lead b b' pre p -> Forall is_dec p -> p <> [] ->
  guess_base b (pre ++ p) = Ok b' /\ skip_prefix b' (pre ++ p) = Ok p.
Proof.
  intros L F NE. destruct p as [|d p]; [congruence|]. clear NE.
  assert (Hd : is_dec d) by now inversion F.
  unfold is_dec in Hd.
  destruct L as [(c & P & Hb & Hpre)|[(-> & Hb & ->)|(-> & -> & -> & Hz)]].
  - assert (G : guess_base b (48 :: c :: tl (tl pre) ++ d :: p) = Ok b').
    { unfold guess_base. destruct Hb as [->| ->].
      - destruct (Z.eqb_spec b' 0) as [->|N]; [inversion P|reflexivity].
      - inversion P; reflexivity. }
    assert (S : forall r, skip_prefix b' (48 :: c :: r) = Ok (if at0 r 0 =? 95 then tl r else r)).
    { intros r. unfold skip_prefix. change (at0 (48 :: c :: r) 0) with 48.
      change (at0 (48 :: c :: r) 1) with c.
      pose proof (proj2 (valid_prefix_iff b' c) P) as V. rewrite V, <- andb_assoc.
      replace (negb (c =? 0) && negb (c_isdigit c)) with true
        by (inversion P; reflexivity).
      reflexivity. }
    destruct Hpre as [->| ->]; cbn [tl app] in G |- *; (split; [exact G|]); rewrite S; cbn.
    + replace (d =? 95) with false by lia. reflexivity.
    + reflexivity.
  - cbn [app]. split.
    + unfold guess_base. destruct (Z.eqb_spec b 0); [lia|reflexivity].
    + unfold skip_prefix. cbn. destruct p as [|d' p]; cbn.
      * now rewrite andb_false_r.
      * assert (Hd' : is_dec d') by (inversion F as [|? ? ? F']; now inversion F').
        unfold is_dec in Hd'. replace (c_isdigit d') with true by (unfold c_isdigit; lia).
        cbn. now rewrite andb_false_r.
  - cbn [app]. cbn in Hz. split.
    + unfold guess_base. cbn. replace (d =? 48) with false by lia. reflexivity.
    + unfold skip_prefix. cbn. replace (d =? 48) with false by lia. reflexivity.
Qed.

Lemma rstrip_unique {A} (P : A -> Prop) s r1 r2 :
  py_rstrip P s r1 -> py_rstrip P s r2 -> r1 = r2.
Proof.
  intros (q1 & E1 & A1 & B1) (q2 & E2 & A2 & B2). subst s. revert r2 q2 E2 A2 B2.
  induction q1 as [|x q1 IH] using rev_ind; intros r2 q2 E2 A2 B2.
  - destruct q2 as [|y q2 _] using rev_ind; [now rewrite !app_nil_r in E2|exfalso].
    rewrite app_nil_r in E2. apply (B1 y (r2 ++ q2)); [now rewrite E2, app_assoc|].
    apply A2, in_app_iff. right; now left.
  - destruct q2 as [|y q2 _] using rev_ind.
    + exfalso. rewrite app_nil_r in E2. apply (B2 x (r1 ++ q1)); [now rewrite <- E2, app_assoc|].
      apply A1, in_app_iff. right; now left.
    + rewrite !app_assoc in E2. apply app_inj_tail in E2. destruct E2 as [E2 ->].
      apply (IH (fun c H => A1 c (proj2 (in_app_iff _ _ _) (or_introl H))) r2 q2 E2); [|exact B2].
      intros c H. apply A2, in_app_iff. now left.
Qed.

(** What int() gives to strtoll *)
Lemma int_start_sound s b p b' sg : Forall byte1 s -> int_start s b = Ok (p, b', sg) ->
  Forall is_dec p /\
  exists before sign pre after, s = before ++ sign ++ (pre ++ p) ++ after /\
    Forall bytes_space before /\ Forall bytes_space after /\ sign_of sign sg /\ lead b b' pre p.
Proof.
  intros F H. unfold int_start in H.
  destruct (rstrip_ok uchar_isspace s) as (r & E & q & Es & Hq & _). rewrite E in H. cbn [bind] in H.
  destruct (length r =? 0)%nat; [discriminate|].
  destruct ((negb (b =? 0) && (b <? 2)) || (36 <? b)) eqn:B; [discriminate|].
  assert (Hb : b = 0 \/ 2 <= b <= 36) by lia.
  assert (Fr : Forall byte1 r) by (subst s; now apply Forall_app in F).
  assert (Fq : Forall byte1 q) by (subst s; now apply Forall_app in F).
  rewrite (c_string_id r Fr) in H.
  destruct (drop_while_split c_isspace r) as (w & Er & Hw & _).
  remember (drop_while c_isspace r) as t eqn:Et. clear Et.
  destruct (if at0 t 0 =? 43 then (1, tl t) else if at0 t 0 =? 45 then (-1, tl t) else (1, t))
    as [sg' u] eqn:SG.
  assert (Hs : exists sign, t = sign ++ u /\ sign_of sign sg').
  { unfold sign_of. destruct t as [|c t]; cbn in SG.
    - injection SG as <- <-. exists []. auto.
    - destruct (Z.eqb_spec c 43) as [->|N1]; [injection SG as <- <-; exists [43]; auto|].
      destruct (Z.eqb_spec c 45) as [->|N2]; [injection SG as <- <-; exists [45]; auto|].
      injection SG as <- <-. exists []. auto. }
  destruct Hs as (sign & -> & Hs).
  destruct (guess_base b u) as [bb| | |] eqn:G; try discriminate. cbn [bind] in H.
  destruct (skip_prefix bb u) as [pp| | |] eqn:S; try discriminate. cbn [bind] in H.
  destruct (ascii_isdigit pp) eqn:D; [|discriminate]. injection H as <- <- <-.
  assert (Fu : Forall byte1 u).
  { subst r. apply Forall_app in Fr. destruct Fr as [_ Fr]. now apply Forall_app in Fr. }
  assert (Fp : Forall byte1 pp).
  { assert (T : forall n (l : list Z), Forall byte1 l -> Forall byte1 (skipn n l)).
    { intros n l Hl. rewrite <- (firstn_skipn n l) in Hl. now apply Forall_app in Hl. }
    unfold skip_prefix in S.
    destruct ((at0 u 0 =? 48) && negb (at0 u 1 =? 0) && negb (c_isdigit (at0 u 1)));
      [|injection S as <-; exact Fu].
    match type of S with (if ?t then _ else _) = _ => destruct t end; [|discriminate].
    assert (S' : (if at0 (skipn 2 u) 0 =? 95 then tl (skipn 2 u) else skipn 2 u) = pp)
      by (now injection S).
    clear S. rename S' into S.
    destruct (at0 (skipn 2 u) 0 =? 95); rewrite <- S; [|now apply (T 2%nat)].
    assert (T1 : forall l, tl l = skipn 1 l :> list Z) by (intros [|]; reflexivity).
    rewrite T1. apply (T 1%nat), (T 2%nat), Fu. }
  apply isdigit_iff in D.
  2:{ eapply Forall_impl; [|exact Fp]. unfold byte1. intros; lia. }
  split; [exact D|].
  destruct (lead_sound b bb u pp Hb G S D) as (pre & -> & L).
  exists w, sign, pre, q. subst r s. rewrite <- !app_assoc.
  repeat split; try assumption.
  - eapply Forall_impl; [|exact Hw]. intros c. apply c_isspace_iff.
  - rewrite Forall_forall in Fq |- *. intros c Hc. apply (uchar_isspace_iff c (Fq c Hc)), Hq, Hc.
Qed.

Lemma int_start_complete before sign pre p after b b' sg :
  Forall bytes_space before -> Forall bytes_space after -> sign_of sign sg ->
  Forall is_dec p -> p <> [] -> lead b b' pre p ->
  int_start (before ++ sign ++ (pre ++ p) ++ after) b = Ok (p, b', sg).
Proof.
  intros Fb Fa Hs Fp NE L.
  assert (Hb : b = 0 \/ 2 <= b <= 36).
  { destruct L as [(c & P & [->| ->] & _)|[(_ & H & _)|(_ & -> & _)]]; auto.
    right. now apply prefix_range in P. }
  assert (Bs : forall l, Forall bytes_space l -> Forall byte1 l).
  { intros l. apply Forall_impl. unfold bytes_space, byte1. lia. }
  assert (Bp : Forall byte1 p).
  { eapply Forall_impl; [|exact Fp]. unfold is_dec, byte1. lia. }
  assert (Bpre : Forall byte1 pre).
  { unfold byte1. destruct L as [(c & P & _ & Hpre)|[(-> & _)|(-> & _)]]; [|constructor..].
    apply prefix_range in P. destruct Hpre as [->| ->]; repeat constructor; lia. }
  assert (Bsg : Forall byte1 sign).
  { unfold byte1. destruct Hs as [[-> _]|[[-> _]|[-> _]]]; repeat constructor; lia. }
  unfold int_start. set (X := before ++ sign ++ pre ++ p).
  assert (BX : Forall byte1 X) by (unfold X; rewrite !Forall_app; auto).
  destruct (rstrip_ok uchar_isspace (before ++ sign ++ (pre ++ p) ++ after)) as (r & E & PR).
  assert (r = X) as ->.
  { apply (rstrip_unique _ _ _ _ PR). exists after. unfold X. rewrite <- !app_assoc.
    split; [reflexivity|]. split.
    - rewrite Forall_forall in Fa. intros c Hc. specialize (Fa c Hc).
      apply uchar_isspace_iff; [|exact Fa]. revert Fa. unfold bytes_space, byte1. lia.
    - intros c r' Hr. destruct p as [|d p _] using rev_ind; [congruence|].
      rewrite !app_assoc in Hr. apply app_inj_tail in Hr. destruct Hr as [_ <-].
      apply Forall_app in Fp. destruct Fp as [_ Fd]. inversion Fd as [|? ? Hd]. subst.
      unfold is_dec in Hd. unfold uchar_isspace. rewrite Z.mod_small by lia. lia. }
  rewrite E. cbn [bind].
  assert (LX : (length X =? 0)%nat = false).
  { unfold X. rewrite !app_length. destruct p; [congruence|]. cbn [length]. lia. }
  rewrite LX.
  replace ((negb (b =? 0) && (b <? 2)) || (36 <? b)) with false by lia.
  rewrite (c_string_id X BX).
  assert (HF : exists c t, pre ++ p = c :: t /\ is_dec c).
  { destruct L as [(c & P & _ & [->| ->])|[(-> & _)|(-> & _)]].
    - cbn. eexists _, _. split; [reflexivity|]. unfold is_dec; lia.
    - cbn. eexists _, _. split; [reflexivity|]. unfold is_dec; lia.
    - destruct p; [congruence|]. inversion Fp; subst. cbn. eauto.
    - destruct p; [congruence|]. inversion Fp; subst. cbn. eauto. }
  assert (DW : drop_while c_isspace X = sign ++ pre ++ p).
  { unfold X. destruct HF as (c & t & Ec & Hc). unfold is_dec in Hc.
    assert (Fb' : Forall (fun x => c_isspace x = true) before).
    { eapply Forall_impl; [|exact Fb]. intros x. apply c_isspace_iff. }
    destruct Hs as [[-> _]|[[-> _]|[-> _]]]; cbn [app].
    - rewrite Ec. apply drop_while_app; [exact Fb'|]. unfold c_isspace. lia.
    - apply drop_while_app; [exact Fb'|reflexivity].
    - apply drop_while_app; [exact Fb'|reflexivity]. }
  rewrite DW.
  assert (SG : (if at0 (sign ++ pre ++ p) 0 =? 43 then (1, tl (sign ++ pre ++ p))
                else if at0 (sign ++ pre ++ p) 0 =? 45 then (-1, tl (sign ++ pre ++ p))
                else (1, sign ++ pre ++ p)) = (sg, pre ++ p)).
  { destruct Hs as [[-> ->]|[[-> ->]|[-> ->]]]; [|reflexivity..].
    destruct HF as (c & t & Ec & Hc). unfold is_dec in Hc. cbn [app]. rewrite Ec. cbn.
    replace (c =? 43) with false by lia. replace (c =? 45) with false by lia. reflexivity. }
  rewrite SG. destruct (lead_complete b b' pre p L Fp NE) as [G S]. rewrite G. cbn [bind].
  rewrite S. cbn [bind].
  rewrite (proj2 (isdigit_iff p ltac:(eapply Forall_impl; [|exact Bp]; unfold byte1; lia)) Fp).
  reflexivity.
Qed.

Lemma guess_not_bad b p : (exists v, guess_base b p = Ok v) \/ exists e, guess_base b p = Exn e.
Proof.
  unfold guess_base. destruct (b =? 0); [|eauto].
  destruct (negb _); [eauto|]. destruct (is_x _); [eauto|]. destruct (is_o _); [eauto|].
  destruct (is_b _); eauto.
Qed.

Lemma int_start_total s b : (exists t, int_start s b = Ok t) \/ exists e, int_start s b = Exn e.
Proof.
  unfold int_start. destruct (rstrip_ok uchar_isspace s) as (r & E & _). rewrite E. cbn [bind].
  destruct (length r =? 0)%nat; [eauto|]. destruct (_ || _); [eauto|].
  destruct (if at0 _ 0 =? 43 then _ else _) as [sg u].
  destruct (guess_not_bad b u) as [(bb & ->)|(e & ->)]; cbn [bind]; [|eauto].
  unfold skip_prefix. destruct (_ && _ && _); cbn [bind].
  - destruct (_ || _ || _); cbn [bind]; [|eauto]. destruct (ascii_isdigit _); eauto.
  - destruct (ascii_isdigit _); eauto.
Qed.

(** ** int() *)

Lemma lead_magnitude b b' pre p m : lead b b' pre p -> digits decimal_of False b' 0 p m ->
  magnitude decimal_of False b (pre ++ p) m.
Proof.
  intros L D. unfold magnitude.
  destruct L as [(c & P & Hb & Hpre)|[(-> & Hb & ->)|(-> & -> & -> & Hz)]].
  - assert (Q : prefixed decimal_of False b' (pre ++ p) m).
    { exists c, p. split; [exact P|]. split; [|exact D].
      destruct Hpre as [->| ->]; [left|right]; reflexivity. }
    pose proof (prefix_range _ _ P) as [R _]. destruct Hb as [->| ->].
    + left. split; [exact R|]. now right.
    + right. split; [reflexivity|]. left. now exists b'.
  - left. split; [exact Hb|]. left. exact D.
  - right. split; [reflexivity|]. right. split; [exact D|]. right.
    cbn. destruct p; [inversion D|]. exact Hz.
Qed.

Lemma magnitude_lead b s m : magnitude decimal_of False b s m -> (b <> 0 \/ m <> 0) ->
  exists b' pre p, s = pre ++ p /\ lead b b' pre p /\ digits decimal_of False b' 0 p m.
Proof.
  intros [(Hb & [D|Q])|(-> & [(b' & Q)|(D & Hz)])] NZ.
  - exists b, [], s. split; [reflexivity|]. split; [|exact D]. right; left. auto.
  - destruct Q as (c & p & P & Hs & D). destruct Hs as [->| ->].
    + exists b, [48; c], p. split; [reflexivity|]. split; [|exact D]. left. eauto 6.
    + exists b, [48; c; 95], p. split; [reflexivity|]. split; [|exact D]. left. eauto 6.
  - destruct Q as (c & p & P & Hs & D). destruct Hs as [->| ->].
    + exists b', [48; c], p. split; [reflexivity|]. split; [|exact D]. left. eauto 6.
    + exists b', [48; c; 95], p. split; [reflexivity|]. split; [|exact D]. left. eauto 6.
  - exists 10, [], s. split; [reflexivity|]. split; [|exact D]. right; right.
    repeat split. destruct Hz as [->|Hz]; [lia|]. destruct s; [inversion D|]. exact Hz.
Qed.

Lemma magnitude_mono (dig dig' : Z -> Z -> Prop) (u u' : Prop) b s m :
  (forall c d, dig c d -> dig' c d) -> (u -> u') ->
  magnitude dig u b s m -> magnitude dig' u' b s m.
Proof.
  intros H1 H2. unfold magnitude, prefixed.
  intros [(Hb & [D|(c & p & P & Hs & D)])|(-> & [(b' & c & p & P & Hs & D)|(D & Hz)])].
  - left. split; [exact Hb|]. left. eapply digits_mono; eauto.
  - left. split; [exact Hb|]. right. exists c, p. repeat split; auto. eapply digits_mono; eauto.
  - right. split; [reflexivity|]. left. exists b', c, p. repeat split; auto. eapply digits_mono; eauto.
  - right. split; [reflexivity|]. right. split; auto. eapply digits_mono; eauto.
Qed.

Lemma decimal_digit c d : decimal_of c d -> digit_of c d.
Proof. inversion 1. now constructor. Qed.

Lemma int_text_mono (space space' : Z -> Prop) b s v : (forall c, space c -> space' c) ->
  int_text decimal_of False space b s v -> int_text digit_of True space' b s v.
Proof.
  intros H (w1 & sg & body & w2 & m & -> & F1 & F2 & M & S).
  exists w1, sg, body, w2, m. repeat split; auto.
  - eapply Forall_impl; [|exact F1]. auto.
  - eapply Forall_impl; [|exact F2]. auto.
  - eapply magnitude_mono; [exact decimal_digit| |exact M]. auto.
Qed.

(** The digits that follow the prefix all fit the base *)
Lemma fit_lead s b b' before sign pre p after : lead b b' pre p ->
  s = before ++ sign ++ (pre ++ p) ++ after -> digits_fit b s ->
  forall c, In c p -> is_dec c -> c - 48 < b'.
Proof.
  intros L Es DF c Hc Dc.
  assert (Is : forall x, In x pre \/ In x p -> In x s).
  { intros x Hx. subst s. rewrite !in_app_iff. tauto. }
  destruct (DF c (Is c (or_intror Hc)) Dc) as (F1 & F2 & F3).
  destruct L as [(k & P & [->| ->] & Hpre)|[(-> & Hb & ->)|(-> & -> & -> & Hz)]].
  - apply F1. apply prefix_range in P. lia.
  - unfold is_dec in Dc.
    assert (Ik : In k s) by (apply Is; left; destruct Hpre as [->| ->]; cbn; auto).
    inversion P; subst; [lia|lia|apply F3; auto|apply F3; auto|apply F2; auto|apply F2; auto].
  - apply F1. lia.
  - unfold is_dec in Dc. lia.
Qed.

(** One call: it is decided by the decomposition of the text *)
Lemma int_call_shape e s b : Forall byte1 s -> digits_fit b s ->
  (exists x, int_bytes e s b = (Exn x, e)) \/
  (exists v, int_text decimal_of False bytes_space b s v /\
     int_bytes e s b = (if two63 - 1 <? Z.abs v then (Exn RuntimeError, ERANGE)
                        else if e =? ERANGE then (Exn RuntimeError, e) else (Ok v, e))).
Proof.
  intros F DF. unfold int_bytes, string_to_int64.
  destruct (int_start_total s b) as [([[p b'] sg] & E)|(x & E)]; rewrite E; [|eauto].
  destruct (int_start_sound s b p b' sg F E) as (Fp & before & sign & pre & after & Es & F1 & F2 & Hs & L).
  pose proof (lead_range _ _ _ _ L) as Hb'.
  rewrite (strtoll_dec b' p Hb' Fp).
  destruct (scan_digits_spec b' p ltac:(lia) Fp 0 ltac:(lia)) as (m & n & Em & Hn & Hm & _ & Hd & Hfull).
  rewrite Em. destruct n as [|n]; [left; eexists; reflexivity|]. right.
  assert (n_all : S n = length p).
  { destruct Hfull as [H|(c & Hc & Hge)]; [exact H|exfalso].
    apply nth_error_In in Hc. pose proof (proj1 (Forall_forall _ _) Fp c Hc) as Dc.
    pose proof (fit_lead _ _ _ _ _ _ _ _ L Es DF c Hc Dc). lia. }
  rewrite n_all, firstn_all in Hd. specialize (Hd ltac:(lia)).
  exists (m * sg). split.
  { exists before, sign, (pre ++ p), after, m. split; [exact Es|]. repeat split; auto.
    - exact (lead_magnitude _ _ _ _ _ L Hd).
    - destruct Hs as [[-> ->]|[[-> ->]|[-> ->]]]; [left|right;left|right;right]; split; auto; lia. }
  assert (A : Z.abs (m * sg) = m) by (destruct Hs as [[_ ->]|[[_ ->]|[_ ->]]]; lia).
  rewrite A. destruct (Z.ltb_spec (two63 - 1) m) as [Big|Small]; [reflexivity|].
  cbn [Nat.eqb]. destruct (e =? ERANGE); [reflexivity|].
  unfold chk64. replace (int64b (m * sg)) with true; [reflexivity|].
  unfold int64b. lia.
Qed.

Lemma int_complete e s b v : e <> ERANGE -> int_text decimal_of False bytes_space b s v ->
  - two63 < v < two63 -> (b <> 0 \/ v <> 0) -> int_bytes e s b = (Ok v, e).
Proof.
  intros He (before & sign & body & after & m & Es & F1 & F2 & M & Hv) R NZ.
  assert (NZ' : b <> 0 \/ m <> 0).
  { destruct NZ as [H|H]; [now left|]. right. intros ->.
    destruct Hv as [(_ & ->)|[(_ & ->)|(_ & ->)]]; lia. }
  destruct (magnitude_lead b body m M NZ') as (b' & pre & p & -> & L & D).
  destruct (digits_dec _ _ _ _ D) as [Fp Hm]. pose proof (lead_range _ _ _ _ L) as Hb'.
  specialize (Hm ltac:(lia) ltac:(lia)). destruct (scan_digits_all _ _ _ _ D) as [Sc NE].
  assert (exists sg, sign_of sign sg /\ v = m * sg) as (sg & Hs & ->).
  { unfold sign_of. destruct Hv as [(-> & ->)|[(-> & ->)|(-> & ->)]]; eexists; (split; [eauto|lia]). }
  assert (Hsg : sg = 1 \/ sg = -1) by (destruct Hs as [[_ ->]|[[_ ->]|[_ ->]]]; auto).
  unfold int_bytes, string_to_int64. rewrite Es.
  rewrite (int_start_complete before sign pre p after b b' sg F1 F2 Hs Fp NE L).
  rewrite (strtoll_dec b' p Hb' Fp), Sc.
  destruct p as [|d p]; [congruence|]. cbn [length].
  replace (two63 - 1 <? m) with false by (destruct Hsg as [->| ->]; lia).
  cbn [Nat.eqb]. replace (e =? ERANGE) with false by lia.
  unfold chk64. replace (int64b (m * sg)) with true; [reflexivity|].
  unfold int64b. lia.
Qed.

Lemma int_stuck s b : forall v, fst (int_bytes ERANGE s b) <> Ok v.
Proof.
  intros v. unfold int_bytes, string_to_int64.
  destruct (int_start s b) as [[[p b'] sg]| | |]; try discriminate.
  destruct (strtoll p b') as [[r n] rg]. destruct rg; destruct (n =? 0)%nat; discriminate.
Qed.

Lemma int_stuck_errno s b : snd (int_bytes ERANGE s b) = ERANGE.
Proof.
  unfold int_bytes, string_to_int64.
  destruct (int_start s b) as [[[p b'] sg]| | |]; try reflexivity.
  destruct (strtoll p b') as [[r n] rg]. destruct rg; destruct (n =? 0)%nat; reflexivity.
Qed.

(** ** Ten digits: str() and back *)

Lemma py_nat_str_digits n t : FmtSpec.py_nat_str n t -> digits decimal_of False 10 0 t n.
Proof.
  intros (F & V & NE). assert (N : t <> []) by (destruct NE as [->|(d & t' & -> & _)]; discriminate).
  clear NE. revert V. unfold FmtSpec.dec_value. generalize 0 as acc.
  induction F as [|d t Hd F IH]; [congruence|]. intros acc V. cbn [fold_left] in V.
  destruct t as [|d' t].
  - cbn [fold_left] in V. replace n with (acc * 10 + (d - 48)) by lia. constructor; [now constructor|lia].
  - econstructor 2; [now constructor|lia|]. apply IH; [discriminate|].
    rewrite <- V. cbn [fold_left]. do 2 f_equal. lia.
Qed.

Lemma put_int_text n : int64 n -> int_text decimal_of False bytes_space 10 (FmtModel.put_int n) n.
Proof.
  intros H. destruct (FmtProofs.put_int_ok n H) as [(H1 & P)|(H1 & t & Et & P)].
  - exists [], [], (FmtModel.put_int n), [], n. rewrite app_nil_r.
    repeat split; auto; try (now constructor).
    left. split; [lia|]. left. now apply py_nat_str_digits.
  - exists [], [45], t, [], (- n). rewrite app_nil_r, Et. repeat split; auto; try (now constructor).
    + left. split; [lia|]. left. now apply py_nat_str_digits.
    + right; right. split; [reflexivity|lia].
Qed.

(** ** Every byte string *)

Lemma c_string_byte1 s : Forall is_byte s -> Forall byte1 (c_string s).
Proof.
  induction 1 as [|c s H _ IH]; cbn; [constructor|]. unfold is_byte in H.
  destruct (Z.eqb_spec c 0); constructor; auto. unfold byte1. lia.
Qed.

Lemma skipn_byte1 n (l : list Z) : Forall byte1 l -> Forall byte1 (skipn n l).
Proof. intros Hl. rewrite <- (firstn_skipn n l) in Hl. now apply Forall_app in Hl. Qed.

Lemma tl_skipn (l : list Z) : tl l = skipn 1 l.
Proof. destruct l; reflexivity. Qed.

Lemma int_start_digits s b p b' sg : Forall is_byte s -> int_start s b = Ok (p, b', sg) ->
  Forall is_dec p /\ 2 <= b' <= 36 /\ (sg = 1 \/ sg = -1).
Proof.
  intros F H. unfold int_start in H.
  destruct (rstrip_ok uchar_isspace s) as (r & E & q & Es & Hq & _). rewrite E in H. cbn [bind] in H.
  destruct (length r =? 0)%nat; [discriminate|].
  destruct ((negb (b =? 0) && (b <? 2)) || (36 <? b)) eqn:B; [discriminate|].
  assert (Hb : b = 0 \/ 2 <= b <= 36) by lia.
  assert (Fr : Forall byte1 (c_string r)).
  { apply c_string_byte1. subst s. now apply Forall_app in F. }
  destruct (drop_while_split c_isspace (c_string r)) as (w & Er & _).
  remember (drop_while c_isspace (c_string r)) as t eqn:Et. clear Et.
  assert (Ft : Forall byte1 t) by (rewrite Er in Fr; now apply Forall_app in Fr).
  destruct (if at0 t 0 =? 43 then (1, tl t) else if at0 t 0 =? 45 then (-1, tl t) else (1, t))
    as [sg' u] eqn:SG.
  assert (Hs : Forall byte1 u /\ (sg' = 1 \/ sg' = -1)).
  { destruct (at0 t 0 =? 43), (at0 t 0 =? 45); injection SG as <- <-; auto;
      rewrite tl_skipn; auto using skipn_byte1. }
  destruct Hs as [Fu Hs].
  destruct (guess_base b u) as [bb| | |] eqn:G; try discriminate. cbn [bind] in H.
  destruct (skip_prefix bb u) as [pp| | |] eqn:S; try discriminate. cbn [bind] in H.
  destruct (ascii_isdigit pp) eqn:D; [|discriminate]. injection H as <- <- <-.
  assert (Fp : Forall byte1 pp).
  { unfold skip_prefix in S.
    destruct ((at0 u 0 =? 48) && negb (at0 u 1 =? 0) && negb (c_isdigit (at0 u 1)));
      [|injection S as <-; exact Fu].
    match type of S with (if ?t then _ else _) = _ => destruct t end; [|discriminate].
    assert (S' : (if at0 (skipn 2 u) 0 =? 95 then tl (skipn 2 u) else skipn 2 u) = pp)
      by (now injection S).
    destruct (at0 (skipn 2 u) 0 =? 95); rewrite <- S'; [|now apply skipn_byte1].
    rewrite tl_skipn. now apply skipn_byte1, skipn_byte1. }
  apply isdigit_iff in D.
  2:{ eapply Forall_impl; [|exact Fp]. unfold byte1. intros; lia. }
  split; [exact D|]. split; [|exact Hs].
  destruct (lead_sound b bb u pp Hb G S D) as (pre & -> & L). exact (lead_range _ _ _ _ L).
Qed.

Lemma int_total e s b : Forall is_byte s ->
  (exists v, fst (int_bytes e s b) = Ok v /\ - two63 < v < two63) \/
  (exists x, fst (int_bytes e s b) = Exn x).
Proof.
  intros F. unfold int_bytes, string_to_int64.
  destruct (int_start_total s b) as [([[p b'] sg] & E)|(x & E)]; rewrite E; [|cbn; eauto].
  destruct (int_start_digits s b p b' sg F E) as (Fp & Hb' & Hs).
  rewrite (strtoll_dec b' p Hb' Fp).
  destruct (scan_digits_spec b' p ltac:(lia) Fp 0 ltac:(lia)) as (m & n & Em & Hn & Hm & _).
  rewrite Em. destruct n as [|n]; [right; eexists; reflexivity|].
  destruct (Z.ltb_spec (two63 - 1) m) as [Big|Small]; [right; eexists; reflexivity|].
  cbn [Nat.eqb]. destruct (e =? ERANGE); [right; eexists; reflexivity|]. left.
  exists (m * sg). unfold chk64. cbn [fst].
  assert (R : - two63 < m * sg < two63) by (destruct Hs as [->| ->]; lia).
  split; [|exact R]. replace (int64b (m * sg)) with true; [reflexivity|]. unfold int64b. lia.
Qed.

(** A character that is neither white space, sign, digit, underscore nor letter of a prefix *)
Lemma int_rejects e s b c : Forall byte1 s -> In c s ->
  ~ bytes_space c -> c <> 43 -> c <> 45 -> c <> 95 -> ~ is_dec c -> (forall k, ~ prefix k c) ->
  forall v, fst (int_bytes e s b) <> Ok v.
Proof.
  intros F Hc H1 H2 H3 H4 H5 H6 v X. unfold int_bytes, string_to_int64 in X.
  destruct (int_start s b) as [[[p b'] sg]| | |] eqn:E; try discriminate.
  destruct (int_start_sound s b p b' sg F E) as (Fp & before & sign & pre & after & Es & F1 & F2 & Hs & L).
  subst s. rewrite !in_app_iff in Hc. rewrite Forall_forall in F1, F2, Fp.
  destruct Hc as [Hc|[Hc|[[Hc|Hc]|Hc]]].
  - apply H1, F1, Hc.
  - destruct Hs as [[-> _]|[[-> _]|[-> _]]]; cbn in Hc; lia.
  - destruct L as [(k & P & _ & Hpre)|[(-> & _)|(-> & _)]]; [|destruct Hc..].
    assert (c = 48 \/ c = k \/ c = 95) as [->|[->| ->]].
    { destruct Hpre as [->| ->]; cbn in Hc; intuition. }
    + apply H5. unfold is_dec. lia.
    + exact (H6 _ P).
    + now apply H4.
  - apply H5, Fp, Hc.
  - apply H1, F2, Hc.
Qed.

(** An underscore with no prefix in front *)
Lemma int_rejects_under e s b : Forall byte1 s -> In 95 s -> (forall c k, In c s -> ~ prefix k c) ->
  forall v, fst (int_bytes e s b) <> Ok v.
Proof.
  intros F Hc H6 v X. unfold int_bytes, string_to_int64 in X.
  destruct (int_start s b) as [[[p b'] sg]| | |] eqn:E; try discriminate.
  destruct (int_start_sound s b p b' sg F E) as (Fp & before & sign & pre & after & Es & F1 & F2 & Hs & L).
  assert (pre = []) as ->.
  { destruct L as [(k & P & _ & Hpre)|[(-> & _)|(-> & _)]]; [|reflexivity..]. exfalso.
    apply (H6 k b'); [|exact P]. rewrite Es, !in_app_iff.
    destruct Hpre as [->| ->]; cbn; tauto. }
  rewrite Es in Hc. rewrite !in_app_iff in Hc. rewrite Forall_forall in F1, F2, Fp.
  destruct Hc as [Hc|[Hc|[[[]|Hc]|Hc]]].
  - apply F1 in Hc. unfold bytes_space in Hc. lia.
  - destruct Hs as [[-> _]|[[-> _]|[-> _]]]; cbn in Hc; lia.
  - apply Fp in Hc. unfold is_dec in Hc. lia.
  - apply F2 in Hc. unfold bytes_space in Hc. lia.
Qed.

(** ** Texts Python does not read *)

Lemma digits_chars (dig : Z -> Z -> Prop) u b acc s v : digits dig u b acc s v ->
  forall c, In c s -> c = 95 \/ exists d, dig c d /\ d < b.
Proof.
  induction 1 as [acc c d D L|acc c d s v D L H IH|acc c d s v F D L H IH]; intros x Hx; cbn in Hx.
  - destruct Hx as [->|[]]. right. eauto.
  - destruct Hx as [->|Hx]; [right; eauto|auto].
  - destruct Hx as [->|[->|Hx]]; [right; eauto|now left|auto].
Qed.

Lemma digit_of_range c d : digit_of c d -> 48 <= c <= 122.
Proof. inversion 1; lia. Qed.

Lemma magnitude_chars b s m : magnitude digit_of True b s m -> forall c, In c s -> 48 <= c <= 122.
Proof.
  assert (D : forall b acc s m, digits digit_of True b acc s m -> forall c, In c s -> 48 <= c <= 122).
  { intros b0 acc s0 m0 H c Hc. destruct (digits_chars _ _ _ _ _ _ H c Hc) as [->|(d & H1 & _)]; [lia|].
    now apply digit_of_range in H1. }
  assert (P : forall b s m, prefixed digit_of True b s m -> forall c, In c s -> 48 <= c <= 122).
  { intros b0 s0 m0 (k & p & P & Hs & H) c Hc.
    assert (Hk : 48 <= k <= 122) by (inversion P; lia).
    destruct Hs as [->| ->]; cbn in Hc; destruct Hc as [<-|[<-|Hc]]; try lia.
    - eapply D; eassumption.
    - destruct Hc as [<-|Hc]; [lia|]. eapply D; eassumption. }
  intros [(_ & [H|H])|(_ & [(b' & H)|(H & _)])]; eauto.
Qed.

Lemma no_nul_in_text b s v : py_int_bytes b s v -> ~ In 0 s.
Proof.
  intros (w1 & sg & body & w2 & m & -> & F1 & F2 & M & S) H. rewrite !in_app_iff in H.
  rewrite Forall_forall in F1, F2. unfold bytes_space in *.
  destruct H as [H|[H|[H|H]]].
  - apply F1 in H. lia.
  - destruct S as [(-> & _)|[(-> & _)|(-> & _)]]; cbn in H; lia.
  - pose proof (magnitude_chars _ _ _ M 0 H). lia.
  - apply F2 in H. lia.
Qed.

(** A number written with decimal digits alone has no digit too large for the base. *)
Lemma text_of_digits b s v : 2 <= b -> Forall is_dec s -> py_int_bytes b s v ->
  forall c, In c s -> c - 48 < b.
Proof.
  intros Hb F (w1 & sg & body & w2 & m & Es & F1 & F2 & M & S) c Hc.
  assert (W : forall w, Forall bytes_space w -> (forall x, In x w -> In x s) -> w = []).
  { intros [|x w] H1 H2; [reflexivity|]. exfalso. inversion H1 as [|? ? H3]; subst.
    rewrite Forall_forall in F. pose proof (F x (H2 x (or_introl eq_refl))) as H4.
    unfold is_dec, bytes_space in *. lia. }
  assert (w1 = []) as -> by (apply W; [exact F1|intros x Hx; subst s; rewrite !in_app_iff; tauto]).
  assert (w2 = []) as -> by (apply W; [exact F2|intros x Hx; subst s; rewrite !in_app_iff; tauto]).
  assert (sg = []) as ->.
  { destruct S as [(-> & _)|[(-> & _)|(-> & _)]]; [reflexivity| |]; exfalso; subst s; cbn in F;
      inversion F as [|? ? H3]; unfold is_dec in H3; lia. }
  cbn in Es. rewrite app_nil_r in Es. subst body.
  rewrite Forall_forall in F. specialize (F c Hc) as Dc.
  destruct M as [(_ & [H|H])|(-> & _)]; [| |lia].
  - destruct (digits_chars _ _ _ _ _ _ H c Hc) as [->|(d & H1 & H2)]; unfold is_dec in Dc; [lia|].
    inversion H1; subst; lia.
  - destruct H as (k & p & P & Hs & _). exfalso.
    assert (Dk : is_dec k) by (apply F; destruct Hs as [->| ->]; cbn; auto).
    unfold is_dec in Dk. inversion P; lia.
Qed.

Lemma float_chars s : py_float_text s -> ~ In 98 s.
Proof.
  assert (DP : forall s, dec_part s -> forall c, In c s -> c = 95 \/ 48 <= c <= 57).
  { induction 1 as [c H|c s0 H H' IH|c s0 H H' IH]; cbn; intros x Hx.
    - destruct Hx as [->|[]]. lia.
    - destruct Hx as [->|Hx]; [lia|auto].
    - destruct Hx as [->|[->|Hx]]; [lia|lia|auto]. }
  assert (W : forall w s0, same_letters w s0 -> ~ In 98 w -> ~ In 130 w -> ~ In 98 s0).
  { intros w s0 H. induction H as [|x y w l Hxy H IH]; cbn; [tauto|].
    intros H1 H2 [->|H3]; [|apply IH; tauto]. destruct Hxy; lia. }
  intros (w1 & sg & body & w2 & -> & F1 & F2 & S & B) H. rewrite !in_app_iff in H.
  rewrite Forall_forall in F1, F2. unfold bytes_space in *.
  destruct H as [H|[H|[H|H]]].
  - apply F1 in H. lia.
  - destruct S as [->|[->| ->]]; cbn in H; lia.
  - destruct B as [(i & pt & f & x & -> & Hi & Hf & Hx & Hp & _)|[B|[B|B]]].
    + rewrite !in_app_iff in H. destruct H as [H|[H|[H|H]]].
      * destruct Hi as [->|Hi]; [destruct H|]. apply DP in H; [lia|exact Hi].
      * destruct Hp as [(-> & _)| ->]; cbn in H; lia.
      * destruct Hf as [->|Hf]; [destruct H|]. apply DP in H; [lia|exact Hf].
      * destruct Hx as [->|(e & sgn & ds & -> & He & Hsg & Hd)]; [destruct H|]. cbn in H.
        rewrite in_app_iff in H. destruct H as [H|[H|H]]; [lia| |apply DP in H; [lia|exact Hd]].
        destruct Hsg as [->|[->| ->]]; cbn in H; lia.
    + revert H. eapply W; [exact B| |]; cbn; lia.
    + revert H. eapply W; [exact B| |]; cbn; lia.
    + revert H. eapply W; [exact B| |]; cbn; lia.
  - apply F2 in H. lia.
Qed.

(** ** Texts accepted by mistake *)

Lemma c_string_app x t : Forall byte1 x -> c_string (x ++ 0 :: t) = x.
Proof.
  induction 1 as [|c x H _ IH]; [reflexivity|]. cbn. unfold byte1 in H.
  destruct (Z.eqb_spec c 0); [lia|]. now rewrite IH.
Qed.

(** Everything from a NUL byte on is ignored. *)
Lemma int_start_nul s t b p b' sg : Forall byte1 s -> (forall c s', s = s' ++ [c] -> ~ bytes_space c) ->
  int_start s b = Ok (p, b', sg) -> int_start (s ++ 0 :: t) b = Ok (p, b', sg).
Proof.
  intros F NS H. unfold int_start in H |- *.
  destruct (rstrip_ok uchar_isspace s) as (r & E & PR). rewrite E in H. cbn [bind] in H.
  assert (r = s) as ->.
  { apply (rstrip_unique _ _ _ _ PR). exists []. rewrite app_nil_r. split; [reflexivity|].
    split; [intros c []|]. intros c r' Hr X. apply (NS c r' Hr).
    apply uchar_isspace_iff; [|exact X]. subst s. apply Forall_app in F. destruct F as [_ F].
    now inversion F. }
  destruct (rstrip_ok uchar_isspace (s ++ 0 :: t)) as (r & E2 & q & Eq & Hq & _).
  assert (Hr : exists t', r = s ++ 0 :: t').
  { assert (L : (length s < length r)%nat).
    { destruct (Nat.lt_ge_cases (length s) (length r)) as [L|L]; [exact L|exfalso].
      assert (In 0 q).
      { assert (X : nth_error (s ++ 0 :: t) (length s) = Some 0)
          by (rewrite nth_error_app2, Nat.sub_diag; [reflexivity|lia]).
        rewrite Eq, nth_error_app2 in X by lia. now apply nth_error_In in X. }
      apply Hq in H0. discriminate. }
    pose proof (f_equal (firstn (length s)) Eq) as X.
    rewrite firstn_app, Nat.sub_diag, firstn_all, firstn_O, app_nil_r in X.
    rewrite firstn_app in X. replace (length s - length r)%nat with O in X by lia.
    rewrite firstn_O, app_nil_r in X.
    pose proof (firstn_skipn (length s) r) as Y. rewrite <- X in Y.
    destruct (skipn (length s) r) as [|c t'] eqn:Sk.
    - rewrite app_nil_r in Y. subst r. lia.
    - exists t'. rewrite <- Y in Eq. rewrite <- app_assoc in Eq. apply app_inv_head in Eq.
      cbn in Eq. injection Eq as <- _. now rewrite <- Y. }
  destruct Hr as (t' & ->). rewrite E2. cbn [bind].
  rewrite (c_string_app s t' F). rewrite (c_string_id s F) in H.
  replace (length (s ++ 0%Z :: t') =? 0)%nat with false
    by (rewrite app_length; cbn [length]; lia).
  destruct (length s =? 0)%nat; [discriminate|]. exact H.
Qed.
