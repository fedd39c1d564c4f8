(** * Proofs for C76 *)
From Coq Require Import ZArith List Bool Relation_Operators Permutation.
From Verif Require Import Base NfSpec NfModel.

Scheme full_mut := Minimality for full Sort Prop
  with full_text_mut := Minimality for full_text Sort Prop.

(** ** Full decomposition *)
Lemma hangul_syllable : forall l v t, hangul_parts l v t -> syllable (hangul l v t).
Proof. unfold hangul_parts, syllable, hangul. lia. Qed.

Lemma hangul_arith : forall l v t, hangul_parts l v t ->
  (hangul l v t - SBase) / NCount = l /\ ((hangul l v t - SBase) mod NCount) / TCount = v /\
  (hangul l v t - SBase) mod TCount = t.
Proof.
  unfold hangul_parts, hangul, SBase, NCount, VCount, TCount. intros l v t (Hl & Hv & Ht).
  replace (0xAC00 + (l * 21 + v) * 28 + t - 0xAC00) with ((l * 21 + v) * 28 + t) by lia.
  change (21 * 28) with 588. Z.div_mod_to_equations. lia.
Qed.

Lemma hangul_inj : forall l v t l' v' t', hangul_parts l v t -> hangul_parts l' v' t' ->
  hangul l v t = hangul l' v' t' -> l = l' /\ v = v' /\ t = t'.
Proof.
  intros l v t l' v' t' H H' E. destruct (hangul_arith l v t H) as (A & B & C). destruct (hangul_arith l' v' t' H') as (A' & B' & C').
  rewrite E in A, B, C. repeat split; congruence.
Qed.

Lemma full_length : forall decomp k c u, full decomp k c u -> (1 <= length u)%nat.
Proof.
  intros decomp k.
  apply (full_mut decomp k (fun c u => (1 <= length u)%nat) (fun s u => (length s <= length u)%nat)); intros; cbn [length]; auto.
  - unfold letters. rewrite app_length. cbn [length]. lia.
  - destruct ds; [congruence|]. cbn [length] in *. lia.
  - rewrite app_length. lia.
Qed.

Lemma full_text_length : forall decomp k s u, full_text decomp k s u -> (length s <= length u)%nat.
Proof. induction 1; [auto|]. cbn [length]. rewrite app_length. apply full_length in H. lia. Qed.

Lemma full_text_app : forall decomp k s1 u1 s2 u2, full_text decomp k s1 u1 -> full_text decomp k s2 u2 ->
  full_text decomp k (s1 ++ s2) (u1 ++ u2).
Proof. induction 1; intros; [auto|]. cbn [app]. rewrite <- app_assoc. constructor; auto. Qed.

Section Loop.
Variables (decomp : Z -> bool * list Z) (k : bool).

Lemma stack_steps : forall c u, full decomp k c u ->
  exists n, forall fuel stack result w, full_text decomp k stack w -> (length (u ++ w) <= 20)%nat ->
    stack_loop decomp (n + fuel) k (c :: stack) result = stack_loop decomp fuel k stack (result ++ u).
Proof.
  apply (full_mut decomp k
    (fun c u => exists n, forall fuel stack result w, full_text decomp k stack w -> (length (u ++ w) <= 20)%nat ->
      stack_loop decomp (n + fuel) k (c :: stack) result = stack_loop decomp fuel k stack (result ++ u))
    (fun s u => exists n, forall fuel stack result w, full_text decomp k stack w -> (length (u ++ w) <= 20)%nat ->
      stack_loop decomp (n + fuel) k (s ++ stack) result = stack_loop decomp fuel k stack (result ++ u))).
  - intros l v t H. exists 1%nat. intros fuel stack result w _ _. cbn [Nat.add stack_loop].
    pose proof (hangul_syllable l v t H) as Hs. unfold syllable in Hs.
    replace (SBase <=? hangul l v t) with true by (unfold SBase; lia).
    replace (hangul l v t <? SBase + SCount) with true by (unfold SBase, SCount, LCount, NCount, VCount, TCount; lia).
    destruct (hangul_arith l v t H) as (A & B & C). cbn [andb]. rewrite A, B, C. unfold letters, LBase, VBase, TBase.
    destruct H as (Hl & Hv & Ht).
    destruct (Z.eqb_spec t 0) as [->|N].
    + change (0x11A7 + 0 =? 0x11A7) with true. now rewrite app_nil_r.
    + replace (0x11A7 + t =? 0x11A7) with false by lia. rewrite <- app_assoc. reflexivity.
  - intros c compat ds Hs E Hd. exists 1%nat. intros fuel stack result w _ _. cbn [Nat.add stack_loop].
    replace ((SBase <=? c) && (c <? SBase + SCount)) with false
      by (unfold syllable in Hs; unfold SBase, SCount, LCount, NCount, VCount, TCount; lia).
    rewrite E. destruct Hd as [-> | [-> ->]]; [reflexivity|]. cbn [andb negb]. now rewrite orb_true_r.
  - intros c compat ds u Hs E Hd Hc Ht (n & IH). exists (S n). intros fuel stack result w Hw Hl. cbn [Nat.add stack_loop].
    replace ((SBase <=? c) && (c <? SBase + SCount)) with false
      by (unfold syllable in Hs; unfold SBase, SCount, LCount, NCount, VCount, TCount; lia).
    rewrite E. replace (length ds =? 0)%nat with false by (destruct ds; [congruence|reflexivity]).
    replace (compat && negb k) with false by (destruct compat; [rewrite Hc by auto; reflexivity|reflexivity]).
    cbn [orb]. pose proof (full_text_length _ _ _ _ (full_text_app _ _ _ _ _ _ Ht Hw)) as L.
    replace (20 <? length (ds ++ stack))%nat with false by (symmetry; apply Nat.ltb_ge; lia).
    eapply IH; eauto.
  - exists O. intros. cbn [Nat.add app]. now rewrite app_nil_r.
  - intros c s u1 u2 H1 (n1 & IH1) H2 (n2 & IH2). exists (n1 + n2)%nat. intros fuel stack result w Hw Hl.
    rewrite <- app_assoc in Hl. rewrite <- Nat.add_assoc. cbn [app].
    rewrite (IH1 _ _ _ (u2 ++ w)); [|apply full_text_app; auto|exact Hl].
    rewrite (IH2 _ _ _ w); [now rewrite app_assoc|auto|]. rewrite !app_length in *. lia.
Qed.

Lemma decompose_ok : forall s, (forall c, In c s -> exists u, full decomp k c u /\ (length u <= 20)%nat) ->
  exists u f0, full_text decomp k s u /\ forall fuel result, (f0 <= fuel)%nat -> decompose decomp fuel k s result = Ok (result ++ u).
Proof.
  induction s as [|c s IH]; intros H.
  - exists [], O. split; [constructor|]. intros. cbn [decompose]. now rewrite app_nil_r.
  - destruct (H c (or_introl eq_refl)) as (u1 & H1 & L1). destruct IH as (u2 & f2 & H2 & F2); [firstorder|].
    destruct (stack_steps c u1 H1) as (n & Hn). exists (u1 ++ u2), (Nat.max (S n) f2). split; [constructor; auto|].
    intros fuel result Hf. cbn [decompose].
    replace fuel with (n + S (fuel - n - 1))%nat at 1 by lia.
    rewrite (Hn _ _ _ []); [|constructor|rewrite app_nil_r; auto]. cbn [stack_loop bind].
    rewrite F2 by lia. now rewrite app_assoc.
Qed.
End Loop.

(** ** Canonical order *)
Section Order.
Variable ccc : Z -> Z.
Hypothesis ccc_pos : forall c, 0 <= ccc c.

Definition fine (a b : Z) : Prop := ~ (ccc a > ccc b /\ ccc b > 0).
Fixpoint asc (l : list Z) : Prop :=
  match l with a :: ((b :: _) as r) => fine a b /\ asc r | _ => True end.
Fixpoint desc (l : list Z) : Prop :=
  match l with b :: ((a :: _) as r) => fine a b /\ desc r | _ => True end.

Lemma asc_ordered : forall s, asc s <-> ordered ccc s.
Proof.
  intros s. split.
  - intros H s' E. inversion E as [p a b q Hab Hb E1 E2]; subst. clear E. revert H. induction p as [|x p IH]; intros H.
    + destruct H as [F _]. apply F. auto.
    + apply IH. cbn [app asc] in H. destruct p; cbn [app] in *; apply H.
  - induction s as [|a [|b r] IH]; intros H; [exact I|exact I|]. split.
    + intros [H1 H2]. apply (H (b :: a :: r)). apply (exchange_pair ccc [] a b r); auto.
    + apply IH. intros s' E. inversion E as [p x y q Hab Hb E1 E2]; subst. apply (H (a :: p ++ y :: x :: q)).
      rewrite <- E1. apply (exchange_pair ccc (a :: p) x y q); auto.
Qed.

Lemma asc_snoc : forall l a b, asc (l ++ [a]) -> fine a b -> asc (l ++ [a; b]).
Proof.
  induction l as [|x [|y l] IH]; intros a b H F.
  - cbn. auto.
  - cbn in *. intuition.
  - cbn [app asc] in *. destruct H. split; [auto|]. apply IH; auto.
Qed.

Lemma desc_asc : forall l, desc l -> asc (rev l).
Proof.
  induction l as [|b [|a r] IH]; intros H; [exact I|exact I|]. destruct H as [F H].
  cbn [rev] in *. rewrite <- app_assoc. apply asc_snoc; auto.
Qed.

Lemma exchange_right : forall s t q, clos_refl_trans _ (exchange ccc) s t -> clos_refl_trans _ (exchange ccc) (s ++ q) (t ++ q).
Proof.
  induction 1.
  - inversion H; subst. apply rt_step. rewrite <- !app_assoc. cbn [app]. constructor; auto.
  - apply rt_refl.
  - eapply rt_trans; eauto.
Qed.

Lemma move_left_ok : forall c before p, desc (p :: before) -> ccc p > ccc c -> ccc c > 0 ->
  exists r, move_left ccc c (ccc c) (p :: before) = p :: r /\ desc (p :: r) /\
    clos_refl_trans _ (exchange ccc) (rev (p :: before) ++ [c]) (rev (p :: r)).
Proof.
  intros c before. induction before as [|q before IH]; intros p Hd Hp Hc.
  - exists [c]. split; [reflexivity|]. split; [cbn; split; [unfold fine; lia|auto]|].
    cbn. apply rt_step. apply (exchange_pair ccc [] p c []); auto.
  - cbn [move_left].
    assert (St : clos_refl_trans _ (exchange ccc) (rev (p :: q :: before) ++ [c]) ((rev (q :: before) ++ [c]) ++ [p])).
    { cbn [rev]. rewrite <- !app_assoc. cbn [app]. apply rt_step.
      replace (rev before ++ [q; p; c]) with ((rev before ++ [q]) ++ p :: c :: []) by (now rewrite <- app_assoc).
      replace (rev before ++ [q; c; p]) with ((rev before ++ [q]) ++ c :: p :: []) by (now rewrite <- app_assoc).
      constructor; auto. }
    destruct Hd as [Hpq Hd].
    destruct ((ccc q =? 0) || (ccc q <=? ccc c)) eqn:E.
    + exists (c :: q :: before). split; [reflexivity|]. split.
      * split; [unfold fine; lia|]. split; [|exact Hd]. unfold fine. pose proof (ccc_pos q). lia.
      * exact St.
    + destruct (IH q Hd) as (r & E2 & D & C); [lia|auto|]. exists (q :: r). split.
      * f_equal. exact E2.
      * split; [split; [exact Hpq|exact D]|]. eapply rt_trans; [exact St|].
        change (rev (p :: q :: r)) with (rev (q :: r) ++ [p]). apply exchange_right. exact C.
Qed.

Lemma sort_loop_ok : forall rest before p, desc (p :: before) ->
  clos_refl_trans _ (exchange ccc) (rev (p :: before) ++ rest) (sort_loop ccc (ccc p) (p :: before) rest) /\
  ordered ccc (sort_loop ccc (ccc p) (p :: before) rest).
Proof.
  induction rest as [|c rest IH]; intros before p Hd; cbn [sort_loop].
  - rewrite app_nil_r. split; [apply rt_refl|]. apply asc_ordered. now apply desc_asc.
  - destruct ((ccc p =? 0) || (ccc c =? 0) || (ccc p <=? ccc c)) eqn:E.
    + destruct (IH (p :: before) c) as [C O].
      * split; [unfold fine; pose proof (ccc_pos p); pose proof (ccc_pos c); lia|exact Hd].
      * split; [|exact O]. change (c :: rest) with ([c] ++ rest). rewrite app_assoc. exact C.
    + destruct (move_left_ok c before p Hd) as (r & Em & D & C); [lia|pose proof (ccc_pos c); lia|].
      rewrite Em. destruct (IH r p D) as [C2 O]. split; [|exact O].
      change (c :: rest) with ([c] ++ rest). rewrite app_assoc. eapply rt_trans; [apply exchange_right; exact C|exact C2].
Qed.

(** Only one arrangement is ordered. *)
Definition run (n : Z) (s : list Z) : list Z := filter (fun c => (ccc c =? 0) || (ccc c =? n)) s.

Lemma run_exchange : forall n s t, clos_refl_trans _ (exchange ccc) s t -> run n s = run n t.
Proof.
  intros n s t. induction 1; [|auto|congruence]. inversion H; subst. unfold run. rewrite !filter_app. f_equal. cbn [filter].
  destruct ((ccc a =? 0) || (ccc a =? n)) eqn:Ea; destruct ((ccc b =? 0) || (ccc b =? n)) eqn:Eb; try reflexivity. lia.
Qed.

Lemma asc_tail : forall a s, asc (a :: s) -> asc s.
Proof. intros a [|b s]; [intros _; exact I|intros [_ H]; exact H]. Qed.

Lemma first_of_run : forall s m y n x r, asc (y :: s) -> ccc y = m -> 0 < n < m -> run n (y :: s) = x :: r -> ccc x = 0.
Proof.
  induction s as [|z s IH]; intros m y n x r Ha Hy Hn Hr.
  - unfold run in Hr. cbn [filter] in Hr. replace ((ccc y =? 0) || (ccc y =? n)) with false in Hr by lia. discriminate.
  - unfold run in Hr. cbn [filter] in Hr. replace ((ccc y =? 0) || (ccc y =? n)) with false in Hr by lia.
    destruct Ha as [F Ha]. destruct (Z.eq_dec (ccc z) 0) as [E|E].
    + rewrite E in Hr. cbn in Hr. inversion Hr; subst. exact E.
    + apply (IH (ccc z) z n x r); auto. unfold fine in F. pose proof (ccc_pos z). lia.
Qed.

Lemma run_inj : forall s t, asc s -> asc t -> (forall n, 0 < n -> run n s = run n t) -> s = t.
Proof.
  induction s as [|x s IH]; intros t Hs Ht H.
  - destruct t as [|y t]; [reflexivity|]. specialize (H (ccc y + 1 - Z.b2z (0 <? ccc y))). unfold run in H. cbn [filter] in H.
    destruct (0 <? ccc y) eqn:E; cbn [Z.b2z] in H; pose proof (ccc_pos y).
    + replace ((ccc y =? 0) || (ccc y =? ccc y + 1 - 1)) with true in H by lia. discriminate H. lia.
    + replace ((ccc y =? 0) || (ccc y =? ccc y + 1 - 0)) with true in H by lia. discriminate H. lia.
  - destruct t as [|y t].
    { specialize (H (ccc x + 1 - Z.b2z (0 <? ccc x))). unfold run in H. cbn [filter] in H.
      destruct (0 <? ccc x) eqn:E; cbn [Z.b2z] in H; pose proof (ccc_pos x).
      - replace ((ccc x =? 0) || (ccc x =? ccc x + 1 - 1)) with true in H by lia. discriminate H. lia.
      - replace ((ccc x =? 0) || (ccc x =? ccc x + 1 - 0)) with true in H by lia. discriminate H. lia. }
    assert (x = y).
    { pose proof (ccc_pos x). pose proof (ccc_pos y).
      assert (Hx : forall n, ccc x = 0 \/ ccc x = n -> run n (x :: s) = x :: run n s).
      { intros n Hn. unfold run. cbn [filter]. replace ((ccc x =? 0) || (ccc x =? n)) with true by lia. reflexivity. }
      assert (Hy : forall n, ccc y = 0 \/ ccc y = n -> run n (y :: t) = y :: run n t).
      { intros n Hn. unfold run. cbn [filter]. replace ((ccc y =? 0) || (ccc y =? n)) with true by lia. reflexivity. }
      destruct (Z.eq_dec (ccc x) 0) as [Ex|Ex]; destruct (Z.eq_dec (ccc y) 0) as [Ey|Ey].
      - specialize (H 1 ltac:(lia)). rewrite Hx, Hy in H by auto. congruence.
      - specialize (H (ccc y) ltac:(lia)). rewrite Hx, Hy in H by auto. congruence.
      - specialize (H (ccc x) ltac:(lia)). rewrite Hx, Hy in H by auto. congruence.
      - destruct (Z.lt_trichotomy (ccc x) (ccc y)) as [L|[L|L]].
        + specialize (H (ccc x) ltac:(lia)). rewrite Hx in H by auto. symmetry in H.
          apply (first_of_run t (ccc y) y (ccc x) x) in H; auto; lia.
        + specialize (H (ccc x) ltac:(lia)). rewrite Hx in H by auto. rewrite L in H. rewrite Hy in H by auto. congruence.
        + specialize (H (ccc y) ltac:(lia)). rewrite (Hy (ccc y)) in H by auto.
          apply (first_of_run s (ccc x) x (ccc y) y) in H; auto; lia. }
    subst y. f_equal. apply IH; [eapply asc_tail; eauto|eapply asc_tail; eauto|].
    intros n Hn. specialize (H n Hn). unfold run in *. cbn [filter] in H.
    destruct ((ccc x =? 0) || (ccc x =? n)); congruence.
Qed.

Lemma order_unique : forall u t t', clos_refl_trans _ (exchange ccc) u t -> ordered ccc t ->
  clos_refl_trans _ (exchange ccc) u t' -> ordered ccc t' -> t = t'.
Proof.
  intros u t t' C O C' O'. apply run_inj; try (apply asc_ordered; assumption).
  intros n _. rewrite <- (run_exchange n u t C). exact (run_exchange n u t' C').
Qed.
End Order.

(** ** The function *)
Lemma full_fun : forall decomp k c u, full decomp k c u -> forall u', full decomp k c u' -> u = u'.
Proof.
  intros decomp k.
  apply (full_mut decomp k (fun c u => forall u', full decomp k c u' -> u = u') (fun s u => forall u', full_text decomp k s u' -> u = u')).
  - intros l v t H u' H'. remember (hangul l v t) as c eqn:Ec. pose proof (hangul_syllable l v t H) as S.
    destruct H' as [l' v' t' H'|c compat ds N|c compat ds u' N]; [|subst; contradiction|subst; contradiction].
    apply hangul_inj in Ec; auto. destruct Ec as (-> & -> & ->). reflexivity.
  - intros c compat ds N E Hd u' H'. destruct H' as [l' v' t' H'|c compat' ds' N' E' Hd'|c compat' ds' u' N' E' Hd' Hc' Ht'].
    + now apply hangul_syllable in H'.
    + reflexivity.
    + rewrite E in E'. injection E' as <- <-. destruct Hd as [Hd|[-> ->]]; [contradiction|]. discriminate Hc'; auto.
  - intros c compat ds u N E Hd Hc Ht IH u' H'. destruct H' as [l' v' t' H'|c compat' ds' N' E' Hd'|c compat' ds' u' N' E' Hd' Hc' Ht'].
    + now apply hangul_syllable in H'.
    + rewrite E in E'. injection E' as <- <-. destruct Hd' as [Hd'|[-> ->]]; [contradiction|]. discriminate Hc; auto.
    + rewrite E in E'. injection E' as <- <-. auto.
  - intros u' H'. inversion H'. reflexivity.
  - intros c s u1 u2 H1 IH1 H2 IH2 u' H'. inversion H'; subst. f_equal; auto.
Qed.

Lemma full_text_fun : forall decomp k s u, full_text decomp k s u -> forall u', full_text decomp k s u' -> u = u'.
Proof.
  induction 1; intros u' H'; inversion H'; subst; [reflexivity|]. f_equal; [|auto]. eapply full_fun; eauto.
Qed.

Lemma full_text_self : forall decomp k s, (forall c, In c s -> full decomp k c [c]) -> full_text decomp k s s.
Proof.
  induction s as [|c s IH]; intros H; [constructor|]. change (c :: s) with ([c] ++ s) at 2. constructor; [apply H; now left|].
  apply IH. intros d Hd. apply H. now right.
Qed.

Lemma quickcheck_ok : forall ccc quick shift s prev, (forall c, 0 <= ccc c) -> quickcheck ccc quick shift prev s = true ->
  (forall c, In c s -> Z.land (quick c) (Z.shiftl 3 shift) = 0) /\ asc ccc s /\
  match s with [] => True | c :: _ => ~ (prev > ccc c /\ ccc c > 0) end.
Proof.
  intros ccc quick shift s prev P. revert prev. induction s as [|c s IH]; intros prev H; [repeat split; intros; contradiction|].
  cbn [quickcheck] in H. destruct (negb (ccc c =? 0) && (prev >? ccc c)) eqn:E1; [discriminate|].
  destruct (Z.eqb_spec (Z.land (quick c) (Z.shiftl 3 shift)) 0) as [E2|]; [|discriminate].
  cbn [negb] in H. destruct (IH _ H) as (A & B & C). split; [|split].
  - intros d [<-|Hd]; auto.
  - destruct s; [exact I|]. split; [exact C|exact B].
  - pose proof (P c). lia.
Qed.

Lemma normalize_ok : forall decomp ccc quick k s,
  (forall c, 0 <= ccc c) ->
  (forall c, In c s -> exists u, full decomp k c u /\ (length u <= 20)%nat) ->
  (forall c, In c s -> Z.land (quick c) (Z.shiftl 3 (if k then 2 else 0)) = 0 -> full decomp k c [c]) ->
  exists t f0, normal_form decomp ccc k s t /\ forall fuel, (f0 <= fuel)%nat -> normalize decomp ccc quick fuel k s = Ok t.
Proof.
  intros decomp ccc quick k s P F Q. destruct s as [|c s].
  - exists [], O. split; [|intros; reflexivity]. exists []. split; [constructor|]. split; [apply rt_refl|]. apply asc_ordered. exact I.
  - unfold normalize. destruct (quickcheck ccc quick (if k then 2 else 0) 0 (c :: s)) eqn:E.
    + exists (c :: s), O. split; [|auto]. destruct (quickcheck_ok _ _ _ _ _ P E) as (A & B & _).
      exists (c :: s). split; [apply full_text_self; auto|]. split; [apply rt_refl|]. apply asc_ordered; auto.
    + destruct (decompose_ok decomp k (c :: s) F) as (u & f0 & Hu & Hf).
      destruct u as [|d u].
      { apply full_text_length in Hu. cbn [length] in Hu. lia. }
      exists (sort_loop ccc (ccc d) [d] u), f0. split.
      * exists (d :: u). split; [exact Hu|]. apply (sort_loop_ok ccc P u [] d). exact I.
      * intros fuel Hl. unfold nfd_nfkd. rewrite Hf by auto. reflexivity.
Qed.

Lemma normal_form_fun : forall decomp ccc k s t t', (forall c, 0 <= ccc c) ->
  normal_form decomp ccc k s t -> normal_form decomp ccc k s t' -> t = t'.
Proof.
  intros decomp ccc k s t t' P (u & F & C & O) (u' & F' & C' & O').
  rewrite <- (full_text_fun _ _ _ _ F _ F') in C'. eapply order_unique; eauto.
Qed.

Lemma exchange_in : forall ccc s t c, clos_refl_trans _ (exchange ccc) s t -> In c t -> In c s.
Proof.
  intros ccc s t c. induction 1; [|auto|auto]. inversion H; subst. rewrite !in_app_iff. cbn [In]. intuition.
Qed.

Lemma full_members : forall decomp k,
  (forall l v t c, hangul_parts l v t -> In c (letters l v t) -> full decomp k c [c]) ->
  forall s u, full_text decomp k s u -> forall c, In c u -> full decomp k c [c].
Proof.
  intros decomp k J.
  assert (A : forall c u, full decomp k c u -> forall d, In d u -> full decomp k d [d]).
  { apply (full_mut decomp k (fun c u => forall d, In d u -> full decomp k d [d]) (fun s u => forall d, In d u -> full decomp k d [d])).
    - intros l v t H d Hd. eapply J; eauto.
    - intros c compat ds N E Hd d [<-|[]]. eapply full_self; eauto.
    - auto.
    - intros d [].
    - intros c s u1 u2 H1 IH1 H2 IH2 d Hd. apply in_app_iff in Hd. destruct Hd; auto. }
  induction 1; intros d Hd; [contradiction|]. apply in_app_iff in Hd. destruct Hd; eauto.
Qed.

Lemma normal_form_idem : forall decomp ccc k s t,
  (forall l v t c, hangul_parts l v t -> In c (letters l v t) -> full decomp k c [c]) ->
  normal_form decomp ccc k s t -> normal_form decomp ccc k t t.
Proof.
  intros decomp ccc k s t J (u & F & C & O). exists t. split; [|split; [apply rt_refl|exact O]].
  apply full_text_self. intros c Hc. eapply full_members; eauto. eapply exchange_in; eauto.
Qed.
