(** * Proofs for C78 *)
From Coq Require Import ZArith List Bool.
From Verif Require Import Base LcSpec LcModel.

Lemma at_app : forall before c rest, at_ (before ++ c :: rest) (length before) = Ok c.
Proof. intros. unfold at_. rewrite nth_error_app2 by auto. now rewrite Nat.sub_diag. Qed.

Section Sigma.
Variables (cased ignorable : Z -> bool).

Lemma loop_back_ok : forall before rest c0,
  exists j c, loop_back ignorable (before ++ rest) (length before) c0 = Ok (j, c) /\
    match nearest ignorable (rev before) with Some x => j <> O /\ c = x | None => j = O end.
Proof.
  intros before. induction before as [|x before IH] using rev_ind; intros rest c0.
  - exists O, c0. split; reflexivity.
  - rewrite app_length, Nat.add_1_r, <- app_assoc. cbn [app loop_back]. rewrite at_app. cbn [bind].
    rewrite rev_app_distr. unfold nearest. cbn [rev app find]. destruct (ignorable x); cbn [negb].
    + apply (IH (x :: rest) x).
    + exists (S (length before)), x. split; [reflexivity|]. split; [discriminate|reflexivity].
Qed.

Lemma loop_forward_ok : forall rest before c0,
  exists j c, loop_forward ignorable (before ++ rest) (length before) (length rest) c0 = Ok (j, c) /\
    match nearest ignorable rest with
    | Some x => (j < length before + length rest)%nat /\ c = x
    | None => j = (length before + length rest)%nat
    end.
Proof.
  induction rest as [|x rest IH]; intros before c0; cbn [length loop_forward].
  - exists (length before), c0. split; [reflexivity|]. cbn. lia.
  - rewrite at_app. cbn [bind]. unfold nearest. cbn [find]. destruct (ignorable x); cbn [negb].
    + destruct (IH (before ++ [x]) x) as (j & c & E & H). exists j, c. rewrite app_length in E, H. cbn [length] in E, H.
      rewrite Nat.add_1_r, <- app_assoc in E. cbn [app] in E. split; [exact E|]. unfold nearest in H.
      destruct (find (fun c => negb (ignorable c)) rest); [destruct H; split; [lia|auto]|lia].
    + exists (length before), x. split; [reflexivity|]. split; [lia|reflexivity].
Qed.

Lemma sigma_ok : forall before rest,
  (handle_capital_sigma cased ignorable (before ++ 0x3A3 :: rest) (length (before ++ 0x3A3 :: rest)) (length before) = Ok 0x3C2 /\
   python_final cased ignorable before rest) \/
  (handle_capital_sigma cased ignorable (before ++ 0x3A3 :: rest) (length (before ++ 0x3A3 :: rest)) (length before) = Ok 0x3C3 /\
   ~ python_final cased ignorable before rest).
Proof.
  intros before rest. unfold handle_capital_sigma, python_final.
  destruct (loop_back_ok before (0x3A3 :: rest) 0) as (j & c & E & H). rewrite E. cbn [bind].
  destruct (nearest ignorable (rev before)) as [x|] eqn:En.
  - destruct H as [Hj ->]. replace (0 <? j)%nat with true by (symmetry; apply Nat.ltb_lt; lia). cbn [andb].
    destruct (cased x) eqn:Ec.
    + rewrite app_length. cbn [length]. replace (length before + S (length rest) - (length before + 1))%nat with (length rest) by lia.
      destruct (loop_forward_ok rest (before ++ [0x3A3]) x) as (j' & c' & E' & H').
      rewrite app_length, <- app_assoc in E'. cbn [app length] in E'. rewrite E'. cbn [bind].
      rewrite app_length in H'. cbn [length] in H'.
      destruct (nearest ignorable rest) as [y|] eqn:Ey.
      * destruct H' as [Hj' ->]. replace (j' =? length before + S (length rest))%nat with false by (symmetry; apply Nat.eqb_neq; lia).
        cbn [orb]. destruct (cased y) eqn:Ecy; cbn [negb].
        -- right. split; [reflexivity|]. intros [_ N]. specialize (N y eq_refl). congruence.
        -- left. split; [reflexivity|]. split; [eauto|]. intros z Ez. congruence.
      * replace (j' =? length before + S (length rest))%nat with true by (symmetry; apply Nat.eqb_eq; lia).
        left. split; [reflexivity|]. split; [eauto|]. intros z Ez. discriminate.
    + right. split; [reflexivity|]. intros [(z & Ez & Hz) _]. congruence.
  - subst j. right. split; [reflexivity|]. intros [(z & Ez & _) _]. discriminate.
Qed.
End Sigma.

Lemma lower_loop_ok : forall low cased ignorable rest before result,
  (forall c, In c rest -> (length (low c) <= 3)%nat) ->
  exists t, lower_loop low cased ignorable (before ++ rest) (length before) (length rest) result = Ok (result ++ t) /\
    lowered low (python_final cased ignorable) before rest t.
Proof.
  intros low cased ignorable. induction rest as [|c rest IH]; intros before result H.
  - exists []. split; [cbn [length lower_loop]; now rewrite app_nil_r|constructor].
  - assert (Rec : forall result', exists t, lower_loop low cased ignorable (before ++ c :: rest) (S (length before)) (length rest) result' = Ok (result' ++ t) /\
        lowered low (python_final cased ignorable) (before ++ [c]) rest t).
    { intros r'. destruct (IH (before ++ [c]) r') as (t & E & L); [intros d Hd; apply H; now right|].
      rewrite app_length, Nat.add_1_r, <- app_assoc in E. eauto. }
    cbn [length lower_loop]. rewrite at_app. cbn [bind]. unfold lower_ucs4. destruct (Z.eqb_spec c 0x3A3) as [->|N].
    + destruct (sigma_ok cased ignorable before rest) as [[E F]|[E F]]; rewrite E; cbn [bind].
      * destruct (Rec (result ++ [0x3C2])) as (t & Et & L). rewrite Et, <- app_assoc. exists (0x3C2 :: t).
        split; [reflexivity|]. now apply lowered_final.
      * destruct (Rec (result ++ [0x3C3])) as (t & Et & L). rewrite Et, <- app_assoc. exists (0x3C3 :: t).
        split; [reflexivity|]. now apply lowered_sigma.
    + unfold full_mapping. replace (length (low c) <=? 3)%nat with true by (symmetry; apply Nat.leb_le, H; now left). cbn [bind].
      destruct (Rec (result ++ low c)) as (t & Et & L). rewrite Et, <- app_assoc. eexists. split; [reflexivity|]. constructor; auto.
Qed.

Lemma upper_loop_ok : forall up rest before result, (forall c, In c rest -> (length (up c) <= 3)%nat) ->
  upper_loop up (before ++ rest) (length before) (length rest) result = Ok (result ++ flat_map up rest).
Proof.
  intros up. induction rest as [|c rest IH]; intros before result H.
  - cbn. now rewrite app_nil_r.
  - cbn [length upper_loop flat_map]. rewrite at_app. cbn [bind]. unfold full_mapping.
    replace (length (up c) <=? 3)%nat with true by (symmetry; apply Nat.leb_le, H; now left). cbn [bind].
    specialize (IH (before ++ [c]) (result ++ up c)). rewrite app_length, Nat.add_1_r, <- !app_assoc in IH. cbn [app] in IH.
    apply IH. intros d Hd. apply H. now right.
Qed.

(** Without characters that are both cased and ignorable the two conditions are the same. *)
Lemma find_split : forall (ignorable : Z -> bool) l x, nearest ignorable l = Some x ->
  exists g q, l = g ++ x :: q /\ (forall y, In y g -> ignorable y = true) /\ ignorable x = false.
Proof.
  intros ignorable. induction l as [|a l IH]; intros x H; [discriminate|]. unfold nearest in H. cbn [find] in H.
  destruct (ignorable a) eqn:E; cbn [negb] in H.
  - destruct (IH x H) as (g & q & -> & A & B). exists (a :: g), q. split; [reflexivity|]. split; [|exact B]. intros y [<-|Hy]; auto.
  - injection H as <-. exists [], l. split; [reflexivity|]. split; [intros y []|exact E].
Qed.

Lemma find_app : forall (ignorable : Z -> bool) g x q, (forall y, In y g -> ignorable y = true) -> ignorable x = false ->
  nearest ignorable (g ++ x :: q) = Some x.
Proof.
  intros ignorable. induction g as [|a g IH]; intros x q H E; unfold nearest; cbn [app find].
  - now rewrite E.
  - rewrite (H a (or_introl eq_refl)). cbn [negb]. apply IH; auto. intros y Hy. apply H. now right.
Qed.

Lemma final_iff : forall cased ignorable before after,
  (forall c, In c (before ++ after) -> cased c = true -> ignorable c = false) ->
  (python_final cased ignorable before after <-> unicode_final cased ignorable before after).
Proof.
  intros cased ignorable before after D. split; intros [H1 H2].
  - split.
    + destruct H1 as (x & E & Hx). apply find_split in E. destruct E as (g & q & E & A & B).
      exists (rev q), x, (rev g). split; [|split; [exact Hx|intros y Hy; apply A; now apply in_rev]].
      rewrite <- (rev_involutive before), E, rev_app_distr. cbn [rev]. now rewrite <- app_assoc.
    + intros (g & x & q & -> & A & Hx). specialize (H2 x). rewrite find_app in H2; [rewrite H2 in Hx; [discriminate|reflexivity]|exact A|].
      apply D; auto. apply in_or_app. right. apply in_or_app. right. now left.
  - split.
    + destruct H1 as (p & x & g & -> & Hx & A). exists x. split; [|exact Hx]. rewrite rev_app_distr. cbn [rev]. rewrite <- app_assoc. cbn [app].
      apply find_app; [intros y Hy; apply A; now apply in_rev|]. apply D; auto. apply in_or_app. left. apply in_or_app. right. now left.
    + intros x E. apply find_split in E. destruct E as (g & q & -> & A & B). destruct (cased x) eqn:Ex; [|reflexivity].
      exfalso. apply H2. eauto 6.
Qed.

Lemma lowered_iff : forall low (P Q : list Z -> list Z -> Prop) before s t, lowered low P before s t ->
  (forall b r, b ++ 0x3A3 :: r = before ++ s -> (P b r <-> Q b r)) -> lowered low Q before s t.
Proof.
  intros low P Q before s t H. induction H; intros E; try constructor; auto.
  - now apply E.
  - apply IHlowered. intros b r Eb. apply E. rewrite Eb, <- app_assoc. reflexivity.
  - intros F. apply H. now apply E.
  - apply IHlowered. intros b r Eb. apply E. rewrite Eb, <- app_assoc. reflexivity.
  - apply IHlowered. intros b r Eb. apply E. rewrite Eb, <- app_assoc. reflexivity.
Qed.
