(** * Proofs for C77 *)
From Coq Require Import ZArith List Bool Relation_Operators.
From Verif Require Import Base NfSpec NfModel NfProofs NcSpec NcModel.

Lemma full_no_syllable : forall decomp k s u, full_text decomp k s u -> forall c, In c u -> ~ syllable c.
Proof.
  intros decomp k.
  assert (A : forall c u, full decomp k c u -> forall d, In d u -> ~ syllable d).
  { apply (full_mut decomp k (fun c u => forall d, In d u -> ~ syllable d) (fun s u => forall d, In d u -> ~ syllable d)).
    - intros l v t (Hl & Hv & Ht) d Hd. unfold letters in Hd. unfold syllable. destruct (t =? 0); cbn [app In] in Hd; lia.
    - intros c compat ds N _ _ d [<-|[]]. exact N.
    - auto.
    - intros d [].
    - intros c s u1 u2 H1 IH1 H2 IH2 d Hd. apply in_app_iff in Hd. destruct Hd; auto. }
  induction 1; intros d Hd; [contradiction|]. apply in_app_iff in Hd. destruct Hd; eauto.
Qed.

Section Composition.
Variables (ccc : Z -> Z) (first last : Z -> option Z) (comp : Z -> Z -> Z).

Notation table := (NcSpec.table first last comp).

Hypothesis ccc_pos : forall c, 0 <= ccc c.
Hypothesis first_starter : forall c, first c <> None -> ccc c = 0.
Hypothesis hangul_first : forall c, is_hangul c -> first c = None.
Hypothesis hangul_ccc : forall c, is_hangul c -> ccc c = 0.
Hypothesis table_starter : forall l c x, table l c = Some x -> ccc x = 0 /\ ~ is_hangul x.

Notation pairc := (pair_composite table).
Notation composition := (composition table ccc).

Lemma pair_table : forall l c x, ~ is_hangul l -> pairc l c x -> table l c = Some x.
Proof.
  intros l c x N H. destruct H as [l v Hl Hv|l v t Hl Hv Ht|]; [| |assumption]; exfalso; apply N; unfold is_hangul.
  - lia.
  - right; right; right. apply hangul_syllable. unfold hangul_parts. lia.
Qed.

Lemma table_first : forall l c x, table l c = Some x -> first l <> None.
Proof. unfold NcSpec.table. intros l c x H. destruct (first l); [congruence|discriminate]. Qed.

Lemma not_first : forall l c x, first l = None -> ~ is_hangul l -> ~ pairc l c x.
Proof. intros l c x H N P. apply pair_table in P; auto. apply table_first in P. contradiction. Qed.

(** Nothing in [data], up to the next starter, can be composed with the last starter of [out]. *)
Definition settled (out data : list Z) : Prop :=
  forall q c s p l m x, data = q ++ c :: s -> (forall b, In b q -> ccc b <> 0) -> open_pair ccc (out ++ q) p l (m ++ q) c ->
    out = p ++ l :: m -> ~ pairc l c x.

Lemma split_last : forall p p' l l' m m', p ++ l :: m = p' ++ l' :: m' -> ccc l = 0 -> ccc l' = 0 ->
  (forall b, In b m -> ccc b <> 0) -> (forall b, In b m' -> ccc b <> 0) -> p = p' /\ l = l' /\ m = m'.
Proof.
  induction p as [|a p IH]; intros p' l l' m m' E H H' N N'.
  - destruct p' as [|a' p']; cbn [app] in E; injection E as -> E; [subst; auto|].
    exfalso. apply (N l'); [rewrite E; apply in_or_app; right; now left|auto].
  - destruct p' as [|a' p']; cbn [app] in E; injection E as -> E.
    + exfalso. apply (N' l); [rewrite <- E; apply in_or_app; right; now left|auto].
    + destruct (IH _ _ _ _ _ E) as (-> & -> & ->); auto.
Qed.

(** The last starter [l] of [p ++ l :: m]: what is settled depends on it alone. *)
Lemma settled_intro : forall p l m data, ccc l = 0 -> (forall b, In b m -> ccc b <> 0) ->
  (forall q c s x, data = q ++ c :: s -> (forall b, In b q -> ccc b <> 0) -> (forall b, In b (m ++ q) -> 0 < ccc b < ccc c) -> ~ pairc l c x) ->
  settled (p ++ l :: m) data.
Proof.
  intros p l m data Hl Hm H q c s p' l' m' x E Hq (_ & Hl' & Hb) E2.
  destruct (split_last p p' l l' m m') as (-> & -> & ->); auto.
  - intros b Hb'. specialize (Hb b ltac:(apply in_or_app; auto)). lia.
  - eapply H; eauto.
Qed.

Lemma settled_keep : forall out c s t, settled out (c :: s) -> composition (out ++ [c]) s t -> composition out (c :: s) t.
Proof.
  intros out c s t S C. apply composition_keep; [|exact C]. intros p l m x O.
  apply (S [] c s p l m x); [reflexivity|intros b []| |apply O]. rewrite !app_nil_r. exact O.
Qed.

Lemma settled_push : forall out c s, settled out (c :: s) -> ccc c <> 0 -> settled (out ++ [c]) s.
Proof.
  intros out c s S Hc q d r p l m x E Hq (E1 & Hl & Hb) E2.
  destruct (exists_last (l := l :: m)) as (m0 & z & Em); [discriminate|].
  rewrite Em in E2. rewrite app_assoc in E2. apply app_inj_tail in E2. destruct E2 as [E2 <-].
  destruct m0 as [|l0 m0]; cbn [app] in Em.
  - injection Em as -> ->. contradiction.
  - injection Em as <- ->. apply (S (c :: q) d r p l m0 x).
    + now rewrite E.
    + intros b [<-|Hb']; auto.
    + split; [|split; [exact Hl|]].
      * rewrite E2. rewrite <- app_assoc. reflexivity.
      * intros b Hb'. apply Hb. rewrite <- app_assoc. exact Hb'.
    + exact E2.
Qed.

(** The loop on i1. *)
Lemma scan_ok : forall rest f l comb p m cur rest',
  scan ccc first last comp f l comb rest = (cur, rest') ->
  first l = Some f -> ccc l = 0 -> ~ is_hangul l -> (forall b, In b m -> 0 < ccc b <= comb) ->
  (comb = 0 \/ exists b, In b m /\ ccc b = comb) -> 
  exists m' tail, rest' = m' ++ tail /\ (forall b, In b m' -> ccc b <> 0) /\ ccc cur = 0 /\ ~ is_hangul cur /\
    (forall t, composition (p ++ cur :: m ++ m') tail t -> composition (p ++ l :: m) rest t) /\
    settled (p ++ cur :: m ++ m') tail /\ (forall c, In c tail -> In c rest) /\ (length m' + length tail <= length rest)%nat /\
    (length rest' = length rest -> cur = l /\ rest' = rest).
Proof.
  induction rest as [|c rest IH]; intros f l comb p m cur rest' H Hf Hl Nl Hm Hx; cbn [scan] in H.
  - injection H as <- <-. exists [], []. rewrite !app_nil_r. split; [reflexivity|]. split; [intros b []|]. split; [exact Hl|]. split; [exact Nl|].
    split; [auto|]. split; [intros q c s p' l' m' x E; destruct q; discriminate|]. split; [auto|]. split; [cbn; lia|auto].
  - assert (Hm0 : forall b, In b m -> ccc b <> 0) by (intros b Hb; specialize (Hm b Hb); lia).
    (* leaving the loop at a starter *)
    assert (Leave : forall x0, (forall x, ccc c = 0 -> m = [] -> ~ pairc l c x) -> ccc c = 0 -> x0 = (l, c :: rest) -> x0 = (cur, rest') ->
      exists m' tail, rest' = m' ++ tail /\ (forall b, In b m' -> ccc b <> 0) /\ ccc cur = 0 /\ ~ is_hangul cur /\
        (forall t, composition (p ++ cur :: m ++ m') tail t -> composition (p ++ l :: m) (c :: rest) t) /\
        settled (p ++ cur :: m ++ m') tail /\ (forall d, In d tail -> In d (c :: rest)) /\
        (length m' + length tail <= length (c :: rest))%nat /\
        (length rest' = length (c :: rest) -> cur = l /\ rest' = c :: rest)).
    { intros x0 Hp Hc E0 E1. rewrite E0 in E1. injection E1 as <- <-. exists [], (c :: rest). rewrite !app_nil_r.
      split; [reflexivity|]. split; [intros b []|]. split; [exact Hl|]. split; [exact Nl|]. split; [auto|].
      split; [|split; [auto|split; [cbn; lia|auto]]].
      apply settled_intro; auto. intros q d s x E Hq Hb. destruct q as [|q0 q].
      - cbn [app] in E. injection E as <- <-. apply Hp; auto. destruct m as [|b m]; [reflexivity|].
        specialize (Hb b ltac:(rewrite app_nil_r; now left)). lia.
      - cbn [app] in E. injection E as <- E. exfalso. apply (Hq c); [now left|auto]. }
    (* keeping a mark *)
    assert (Keep : forall comb', ccc c <> 0 -> (forall p0 l0 m0 x, open_pair ccc (p ++ l :: m) p0 l0 m0 c -> ~ pairc l0 c x) ->
      (forall b, In b (m ++ [c]) -> 0 < ccc b <= comb') -> (comb' = 0 \/ exists b, In b (m ++ [c]) /\ ccc b = comb') ->
      (let (c0, r) := scan ccc first last comp f l comb' rest in (c0, c :: r)) = (cur, rest') ->
      exists m' tail, rest' = m' ++ tail /\ (forall b, In b m' -> ccc b <> 0) /\ ccc cur = 0 /\ ~ is_hangul cur /\
        (forall t, composition (p ++ cur :: m ++ m') tail t -> composition (p ++ l :: m) (c :: rest) t) /\
        settled (p ++ cur :: m ++ m') tail /\ (forall d, In d tail -> In d (c :: rest)) /\
        (length m' + length tail <= length (c :: rest))%nat /\
        (length rest' = length (c :: rest) -> cur = l /\ rest' = c :: rest)).
    { intros comb' Hc Hn Hm' Hx' E. destruct (scan ccc first last comp f l comb' rest) as [c0 r] eqn:Es. injection E as <- <-.
      destruct (IH f l comb' p (m ++ [c]) c0 r Es Hf Hl Nl Hm' Hx') as (m' & tail & E1 & A & B & B' & C & D & F & G & K).
      exists (c :: m'), tail. rewrite <- app_assoc in D. cbn [app] in D.
      split; [now rewrite E1|]. split; [intros b [<-|Hb]; auto|]. split; [exact B|]. split; [exact B'|]. split; [|split; [exact D|]].
      - intros t Ht. apply composition_keep; [exact Hn|].
        rewrite <- app_assoc. cbn [app]. apply C. rewrite <- app_assoc. exact Ht.
      - split; [intros d Hd; right; auto|]. cbn [length]. split; [lia|]. intros El. destruct K as [K1 K2]; [lia|]. subst. auto. }
    assert (Open : forall p0 l0 m0, open_pair ccc (p ++ l :: m) p0 l0 m0 c -> p = p0 /\ l = l0 /\ m = m0 /\ forall b, In b m -> 0 < ccc b < ccc c).
    { intros p0 l0 m0 (E & Hl0 & Hb). destruct (split_last p p0 l l0 m m0) as (-> & -> & ->); auto.
      intros b Hb'. specialize (Hb b Hb'). lia. }
    (* the pair is not in the table *)
    assert (NotComb : table l c = None -> (comb = 0 \/ comb < ccc c) ->
      (if ccc c =? 0 then (l, c :: rest) else let (c0, r) := scan ccc first last comp f l (ccc c) rest in (c0, c :: r)) = (cur, rest') ->
      exists m' tail, rest' = m' ++ tail /\ (forall b, In b m' -> ccc b <> 0) /\ ccc cur = 0 /\ ~ is_hangul cur /\
        (forall t, composition (p ++ cur :: m ++ m') tail t -> composition (p ++ l :: m) (c :: rest) t) /\
        settled (p ++ cur :: m ++ m') tail /\ (forall d, In d tail -> In d (c :: rest)) /\
        (length m' + length tail <= length (c :: rest))%nat /\
        (length rest' = length (c :: rest) -> cur = l /\ rest' = c :: rest)).
    { intros Ht Hlt E.
      assert (NP : forall x, ~ pairc l c x) by (intros x P; apply pair_table in P; auto; congruence).
      destruct (Z.eqb_spec (ccc c) 0) as [E0|E0].
      - eapply Leave; eauto.
      - apply (Keep (ccc c)); auto.
        + intros p0 l0 m0 x O. apply Open in O. destruct O as (_ & <- & _). apply NP.
        + intros b Hb. apply in_app_iff in Hb. pose proof (ccc_pos c). destruct Hb as [Hb|[<-|[]]]; [|lia].
          specialize (Hm b Hb). lia.
        + right. exists c. split; [apply in_or_app; right; now left|reflexivity]. }
    destruct (negb (comb =? 0) && (ccc c =? 0)) eqn:E1.
    { eapply Leave; [|lia|reflexivity|exact H]. intros x _ ->. destruct Hx as [Hx|(b & [] & _)]. lia. }
    destruct (negb (comb =? 0) && (comb >=? ccc c)) eqn:E2.
    { apply (Keep comb); auto; [lia| | |].
      - intros p0 l0 m0 x O. apply Open in O. destruct O as (_ & _ & _ & Hb). exfalso.
        destruct Hx as [Hx|(b & Hb1 & Hb2)]; [lia|]. specialize (Hb b Hb1). lia.
      - intros b Hb. apply in_app_iff in Hb. destruct Hb as [Hb|[<-|[]]]; [auto|]. pose proof (ccc_pos c). lia.
      - right. destruct Hx as [Hx|(b & Hb1 & Hb2)]; [lia|]. exists b. split; [apply in_or_app; auto|auto]. }
    assert (Hlt : comb = 0 \/ comb < ccc c) by lia.
    destruct (last c) as [i|] eqn:El.
    2: { apply NotComb; auto. unfold NcSpec.table. now rewrite Hf, El. }
    destruct (Z.eqb_spec (comp f i) 0) as [E3|E3].
    { apply NotComb; auto. unfold NcSpec.table. rewrite Hf, El. now rewrite E3. }
    assert (Ht : table l c = Some (comp f i)).
    { unfold NcSpec.table. rewrite Hf, El. destruct (Z.eqb_spec (comp f i) 0); [contradiction|reflexivity]. }
    destruct (table_starter _ _ _ Ht) as [Hs Nh].
    assert (Hpair : forall s t, composition (p ++ comp f i :: m) s t -> composition (p ++ l :: m) (c :: s) t).
    { intros s t C. apply (composition_pair table ccc (p ++ l :: m) p l m c (comp f i)); auto.
      - split; [reflexivity|]. split; [exact Hl|]. intros b Hb. specialize (Hm b Hb). lia.
      - now constructor. }
    destruct (first (comp f i)) as [f'|] eqn:Ef.
    + destruct (IH f' (comp f i) comb p m cur rest' H Ef Hs Nh Hm Hx) as (m' & tail & E4 & A & B & B' & C & D & F & G & K).
      exists m', tail. split; [exact E4|]. split; [exact A|]. split; [exact B|]. split; [exact B'|]. split; [auto|]. split; [exact D|].
      split; [intros d Hd; right; auto|]. cbn [length]. split; [lia|].
      intros Ln. rewrite E4, app_length in Ln. lia.
    + injection H as <- <-. exists [], rest. rewrite !app_nil_r. split; [reflexivity|]. split; [intros b []|]. split; [exact Hs|]. split; [exact Nh|].
      split; [auto|]. split; [|split; [intros d Hd; now right|cbn [length]; split; [lia|intros Ln; lia]]].
      apply settled_intro; auto. intros q d s x _ _ _. apply not_first; auto.
Qed.

Lemma loop_push : forall m fuel tail out, (forall b, In b m -> ccc b <> 0) ->
  compose_loop ccc first last comp (length m + fuel) (m ++ tail) out = compose_loop ccc first last comp fuel tail (out ++ m).
Proof.
  induction m as [|c m IH]; intros fuel tail out H; [now rewrite app_nil_r|].
  cbn [length Nat.add app compose_loop].
  assert (Hc : ccc c <> 0) by (apply H; now left).
  replace ((LBase <=? c) && (c <? LBase + LCount)) with false.
  2: { symmetry. apply not_true_iff_false. intros E. apply Hc, hangul_ccc. unfold is_hangul. unfold LBase, LCount in E. lia. }
  destruct (first c) eqn:E; [exfalso; apply Hc, first_starter; congruence|].
  rewrite IH by (intros b Hb; apply H; now right). now rewrite <- app_assoc.
Qed.

Lemma pair_cases : forall l c x, pairc l c x ->
  (0x1100 <= l < 0x1113 /\ 0x1161 <= c < 0x1176) \/ (syllable l /\ (l - 0xAC00) mod 28 = 0 /\ 0x11A7 < c < 0x11C3) \/ table l c = Some x.
Proof.
  clear ccc_pos first_starter hangul_first hangul_ccc table_starter.
  intros l c x H. destruct H as [l v Hl Hv|l v t Hl Hv Ht|]; [left; lia| |auto].
  right; left. split; [apply hangul_syllable; unfold hangul_parts; lia|]. split; [|lia].
  apply (hangul_arith l v 0). unfold hangul_parts. lia.
Qed.

Lemma settled_starter : forall out l data, ccc l = 0 ->
  (forall c s x, data = c :: s -> ccc c = 0 -> ~ pairc l c x) ->
  (forall c x, ccc c <> 0 -> ~ pairc l c x) \/ (first l = None) -> settled (out ++ [l]) data.
Proof.
  intros out l data Hl H1 H2. apply settled_intro; [exact Hl|intros b []|]. cbn [app]. intros q c s x E Hq Hb P.
  destruct (Z.eq_dec (ccc c) 0) as [E0|E0].
  - destruct q as [|b q]; [apply (H1 c s x E E0 P)|]. specialize (Hb b (or_introl eq_refl)). lia.
  - destruct H2 as [H2|H2]; [exact (H2 c x E0 P)|]. apply pair_cases in P. destruct P as [[_ P]|[(_ & _ & P)|P]].
    + apply E0, hangul_ccc. unfold is_hangul. lia.
    + apply E0, hangul_ccc. unfold is_hangul. lia.
    + apply table_first in P. contradiction.
Qed.

Lemma loop_ok : forall n data fuel out, (length data <= n)%nat -> (length data <= fuel)%nat ->
  (forall c, In c data -> ~ syllable c) -> settled out data ->
  exists t, compose_loop ccc first last comp fuel data out = Ok t /\ composition out data t /\
    (length t <= length out + length data)%nat /\ (length t = (length out + length data)%nat -> t = out ++ data).
Proof.
  induction n as [|n IH]; intros data fuel out Hn Hf Hs S.
  - destruct data; [|cbn in Hn; lia]. exists out. destruct fuel; cbn [compose_loop length]; rewrite app_nil_r;
      (split; [reflexivity|]; split; [constructor|]; split; [lia|auto]).
  - destruct data as [|code rest].
    { exists out. destruct fuel; cbn [compose_loop length]; rewrite app_nil_r;
      (split; [reflexivity|]; split; [constructor|]; split; [lia|auto]). }
    destruct fuel as [|fuel]; [cbn in Hf; lia|]. cbn [length] in Hn, Hf. cbn [compose_loop].
    assert (Other : (forall v s, rest = v :: s -> 0x1100 <= code < 0x1113 -> ~ 0x1161 <= v < 0x1176) ->
      exists t,
        match first code with
        | None => compose_loop ccc first last comp fuel rest (out ++ [code])
        | Some f => let (c, r) := scan ccc first last comp f code 0 rest in compose_loop ccc first last comp fuel r (out ++ [c])
        end = Ok t /\ composition out (code :: rest) t /\ (length t <= length out + length (code :: rest))%nat /\
        (length t = (length out + length (code :: rest))%nat -> t = out ++ code :: rest)).
    { intros HO. destruct (first code) as [f|] eqn:Ef.
      - assert (Hc : ccc code = 0) by (apply first_starter; congruence).
        assert (Nh : ~ is_hangul code) by (intros A; apply hangul_first in A; congruence).
        destruct (scan ccc first last comp f code 0 rest) as [cur rest'] eqn:Es.
        destruct (scan_ok rest f code 0 out [] cur rest' Es Ef Hc Nh) as (m' & tail & -> & A & B & _ & C & D & F & G & K);
          [intros b []|auto|]. cbn [app] in C, D.
        replace fuel with (length m' + (fuel - length m'))%nat by lia. rewrite loop_push by exact A.
        destruct (IH tail (fuel - length m')%nat ((out ++ [cur]) ++ m')) as (t & T1 & T2 & T3 & T4).
        + lia.
        + lia.
        + intros c Hc'. apply Hs. right. auto.
        + rewrite <- app_assoc. exact D.
        + exists t. split; [exact T1|]. split; [|].
          * apply settled_keep; [exact S|]. apply C. rewrite <- app_assoc in T2. exact T2.
          * rewrite !app_length in T3. cbn [length] in *. split; [lia|]. intros El. rewrite T4.
            -- destruct K as [-> K]; [rewrite app_length; rewrite !app_length in *; lia|]. rewrite <- K, <- !app_assoc. reflexivity.
            -- rewrite !app_length. cbn [length]. lia.
      - destruct (IH rest fuel (out ++ [code])) as (t & T1 & T2 & T3 & T4).
        + lia.
        + lia.
        + intros c Hc'. apply Hs. now right.
        + destruct (Z.eq_dec (ccc code) 0) as [E0|E0].
          * apply settled_starter; auto. intros c s x E Ec P. apply pair_cases in P.
            destruct P as [[P1 P2]|[(P1 & _)|P]].
            -- exact (HO c s E P1 P2).
            -- exact (Hs code (or_introl eq_refl) P1).
            -- apply table_first in P. contradiction.
          * apply settled_push; auto.
        + exists t. split; [exact T1|]. split; [apply settled_keep; auto|]. rewrite app_length in T3. cbn [length] in *.
          split; [lia|]. intros El. rewrite T4; [now rewrite <- app_assoc|]. rewrite app_length. cbn [length]. lia. }
    destruct ((LBase <=? code) && (code <? LBase + LCount)) eqn:EL.
    2: { apply Other. intros v s _ H. unfold LBase, LCount in EL. lia. }
    destruct rest as [|v rest1].
    { apply Other. intros v s E. discriminate. }
    destruct ((VBase <=? v) && (v <? VBase + VCount)) eqn:EV.
    2: { apply Other. intros v' s E _. injection E as <- <-. unfold VBase, VCount in EV. lia. }
    clear Other. unfold LBase, LCount in EL. unfold VBase, VCount in EV.
    pose (l := code - 0x1100). pose (w := v - 0x1161). cbn [length] in Hn, Hf.
    assert (Hl : 0 <= l < 19) by (unfold l; lia). assert (Hw : 0 <= w < 21) by (unfold w; lia).
    assert (Ec : SBase + ((code - LBase) * VCount + (v - VBase)) * TCount = hangul l w 0)
      by (unfold SBase, LBase, VBase, VCount, TCount, hangul, l, w; lia).
    cbv zeta. rewrite Ec.
    assert (Hy : forall t, 0 <= t < 28 -> is_hangul (hangul l w t)).
    { intros t Ht. right; right; right. apply hangul_syllable. unfold hangul_parts. lia. }
    assert (Hcode : ccc code = 0) by (apply hangul_ccc; unfold is_hangul; lia).
    assert (LV : forall s t, composition (out ++ [hangul l w 0]) s t -> composition (out ++ [code]) (v :: s) t).
    { intros s t C. apply (composition_pair table ccc (out ++ [code]) out code [] v (hangul l w 0)); [|replace code with (0x1100 + l) by (unfold l; lia)|exact C].
      - split; [reflexivity|]. split; [exact Hcode|intros b []].
      - replace v with (0x1161 + w) by (unfold w; lia). now constructor. }
    assert (Stop : (forall t s, rest1 = t :: s -> ~ 0x11A7 < t < 0x11C3) ->
      exists t, compose_loop ccc first last comp fuel rest1 (out ++ [hangul l w 0]) = Ok t /\ composition out (code :: v :: rest1) t /\
        (length t <= length out + length (code :: v :: rest1))%nat /\
        (length t = (length out + length (code :: v :: rest1))%nat -> t = out ++ code :: v :: rest1)).
    { intros HT. destruct (IH rest1 fuel (out ++ [hangul l w 0])) as (t & T1 & T2 & T3 & _).
      - lia.
      - lia.
      - intros c Hc'. apply Hs. right. now right.
      - apply settled_starter; [apply hangul_ccc, Hy; lia| |right; apply hangul_first, Hy; lia].
        intros c s x E _ P. apply pair_cases in P. destruct P as [[P1 _]|[(_ & _ & P)|P]].
        + unfold hangul in P1. lia.
        + exact (HT c s E P).
        + apply table_first in P. apply P, hangul_first, Hy. lia.
      - exists t. split; [exact T1|]. split; [apply settled_keep; auto|]. rewrite app_length in T3. cbn [length] in *.
        split; [lia|]. intros El. lia. }
    destruct rest1 as [|t0 rest2]; [apply Stop; discriminate|].
    destruct ((TBase <? t0) && (t0 <? TBase + TCount)) eqn:ET.
    2: { apply Stop. intros t s E. injection E as <- <-. unfold TBase, TCount in ET. lia. }
    clear Stop. unfold TBase, TCount in ET. pose (j := t0 - 0x11A7). assert (Hj : 0 < j < 28) by (unfold j; lia).
    replace (hangul l w 0 + (t0 - TBase)) with (hangul l w j) by (unfold hangul, TBase, j; lia).
    destruct (IH rest2 fuel (out ++ [hangul l w j])) as (t & T1 & T2 & T3 & _).
    + cbn [length] in Hn. lia.
    + cbn [length] in Hf. lia.
    + intros c Hc'. apply Hs. right. right. now right.
    + apply settled_starter; [apply hangul_ccc, Hy; lia| |right; apply hangul_first, Hy; lia].
      intros c s x E _ P. apply pair_cases in P. destruct P as [[P1 _]|[(_ & P & _)|P]].
      * unfold hangul in P1. lia.
      * destruct (hangul_arith l w j) as (_ & _ & A); [unfold hangul_parts; lia|].
        change ((hangul l w j - 0xAC00) mod 28 = j) in A. lia.
      * apply table_first in P. apply P, hangul_first, Hy. lia.
    + exists t. split; [exact T1|]. split.
      * apply settled_keep; auto. apply LV.
        apply (composition_pair table ccc (out ++ [hangul l w 0]) out (hangul l w 0) [] t0 (hangul l w j)); [| |exact T2].
        -- split; [reflexivity|]. split; [apply hangul_ccc, Hy; lia|intros b []].
        -- replace t0 with (0x11A7 + j) by (unfold j; lia). now constructor.
      * rewrite app_length in T3. cbn [length] in *. split; [lia|]. intros El. lia.
Qed.
End Composition.

Lemma nfc_ok : forall decomp ccc first last comp k s,
  (forall c, 0 <= ccc c) ->
  (forall c, first c <> None -> ccc c = 0) -> (forall c, is_hangul c -> first c = None) -> (forall c, is_hangul c -> ccc c = 0) ->
  (forall l c x, table first last comp l c = Some x -> ccc x = 0 /\ ~ is_hangul x) ->
  (forall c, In c s -> exists u, full decomp k c u /\ (length u <= 20)%nat) -> s <> [] ->
  exists t f0, composed_form decomp (table first last comp) ccc k s t /\
    forall fuel, (f0 <= fuel)%nat -> nfc_nfkc decomp ccc first last comp fuel s k = Ok t.
Proof.
  intros decomp ccc first last comp k s P F1 F2 F3 F4 F Ne.
  destruct (decompose_ok decomp k s F) as (u & f0 & Hu & Hf).
  destruct u as [|d u].
  { apply full_text_length in Hu. destruct s; [congruence|]. cbn [length] in Hu. lia. }
  pose (data := sort_loop ccc (ccc d) [d] u).
  destruct (sort_loop_ok ccc P u [] d I) as [C O]. change (sort_loop ccc (ccc d) [d] u) with data in C, O. cbn [rev app] in C.
  assert (Nf : normal_form decomp ccc k s data) by (exists (d :: u); auto).
  destruct (loop_ok ccc first last comp P F1 F2 F3 F4 (length data) data (length data) []) as (t & T1 & T2 & T3 & T4); auto.
  - intros c Hc. eapply full_no_syllable; [exact Hu|]. eapply exchange_in; eauto.
  - intros q c0 s0 p l m x _ _ _ E. destruct p; discriminate.
  - exists t, f0. split; [exists data; auto|]. intros fuel Hl. unfold nfc_nfkc, nfd_nfkd. rewrite Hf by auto. cbn [app bind].
    change (sort_loop ccc (ccc d) [d] u) with data. rewrite T1. cbn [bind].
    destruct (Nat.eqb_spec (length t) (length data)) as [E|E]; [|reflexivity]. now rewrite (T4 E).
Qed.

Lemma composition_fun : forall primary ccc before s t, composition primary ccc before s t ->
  (forall l c x x', pair_composite primary l c x -> pair_composite primary l c x' -> x = x') ->
  forall t', composition primary ccc before s t' -> t = t'.
Proof.
  intros primary ccc before s t H U. induction H as [t|before p l m c x s t O Pc H IH|before c s t N H IH]; intros t' H'.
  - inversion H'. reflexivity.
  - inversion H' as [|before' p' l' m' c' x' s' t'' O' P' H2|before' c' s' t'' N' H2]; subst.
    + apply IH. destruct O as (E & Hl & Hb). destruct O' as (E' & Hl' & Hb'). rewrite E in E'.
      destruct (split_last ccc p p' l l' m m') as (-> & -> & ->); auto.
      * intros b Hb1. specialize (Hb b Hb1). lia.
      * intros b Hb1. specialize (Hb' b Hb1). lia.
      * now rewrite (U _ _ _ _ Pc P').
    + exfalso. eapply N'; eauto.
  - inversion H' as [|before' p' l' m' c' x' s' t'' O' P' H2|before' c' s' t'' N' H2]; subst.
    + exfalso. eapply N; eauto.
    + auto.
Qed.

Lemma pair_fun : forall first last comp,
  (forall c, is_hangul c -> first c = None) ->
  forall l c x x', pair_composite (table first last comp) l c x -> pair_composite (table first last comp) l c x' -> x = x'.
Proof.
  intros first last comp F2.
  assert (NT : forall l c x, is_hangul l -> table first last comp l c <> Some x).
  { intros l c x H E. apply table_first in E. apply E, F2, H. }
  assert (HL : forall l, 0 <= l < 19 -> is_hangul (0x1100 + l)) by (intros; unfold is_hangul; lia).
  assert (HS : forall l v, 0 <= l < 19 -> 0 <= v < 21 -> is_hangul (hangul l v 0)).
  { intros. right; right; right. apply hangul_syllable. unfold hangul_parts. lia. }
  intros l c x x' H H'. destruct H as [l v Hl Hv|l v t Hl Hv Ht|l c x E].
  - remember (0x1100 + l) as a eqn:Ea. remember (0x1161 + v) as b eqn:Eb. destruct H' as [l' v' Hl' Hv'|l' v' t' Hl' Hv' Ht'|a b x E].
    + f_equal; lia.
    + unfold hangul in Ea. lia.
    + exfalso. subst. eapply NT; eauto.
  - remember (hangul l v 0) as a eqn:Ea. remember (0x11A7 + t) as b eqn:Eb. destruct H' as [l' v' Hl' Hv'|l' v' t' Hl' Hv' Ht'|a b x E].
    + unfold hangul in Ea. lia.
    + apply hangul_inj in Ea; [|unfold hangul_parts; lia|unfold hangul_parts; lia]. destruct Ea as (-> & -> & _). f_equal. lia.
    + exfalso. subst a. exact (NT _ _ _ (HS l v Hl Hv) E).
  - destruct H' as [l' v' Hl' Hv'|l' v' t' Hl' Hv' Ht'|a b x' E'].
    + exfalso. eapply NT; [|exact E]; auto.
    + exfalso. eapply NT; [|exact E]; auto.
    + congruence.
Qed.

Lemma hangul_composition : forall ccc first last comp,
  (forall c, is_hangul c -> first c = None) -> (forall c, is_hangul c -> ccc c = 0) ->
  forall ts out, (forall l v t, In (l, v, t) ts -> hangul_parts l v t) ->
    (out = [] \/ exists p y, out = p ++ [y] /\ is_hangul y) ->
    composition (table first last comp) ccc out (flat_map (fun x => letters (fst (fst x)) (snd (fst x)) (snd x)) ts)
      (out ++ map (fun x => hangul (fst (fst x)) (snd (fst x)) (snd x)) ts).
Proof.
  intros ccc first last comp F2 F3. induction ts as [|[[l v] t] ts IH]; intros out Hp Ho; cbn [flat_map map fst snd].
  - rewrite app_nil_r. constructor.
  - destruct (Hp l v t (or_introl eq_refl)) as (Hl & Hv & Ht).
    assert (Hy : forall j, 0 <= j < 28 -> is_hangul (hangul l v j)).
    { intros j Hj. right; right; right. apply hangul_syllable. unfold hangul_parts. lia. }
    assert (HL : is_hangul (0x1100 + l)) by (unfold is_hangul; lia).
    unfold letters. cbn [app]. apply composition_keep.
    { intros p a m x (E & Ha & Hb) P. apply (pair_cases ccc) in P. destruct P as [[_ P]|[(_ & _ & P)|P]]; [lia|lia|].
      assert (m = []).
      { destruct m as [|b m]; [reflexivity|]. specialize (Hb b (or_introl eq_refl)). rewrite (F3 _ HL) in Hb. lia. }
      subst m. destruct Ho as [->|(p' & y & E' & Hy')]; [destruct p; discriminate|].
      rewrite E' in E. apply app_inj_tail in E. destruct E as [_ ->]. apply table_first in P. apply P, F2, Hy'. }
    apply (composition_pair _ _ (out ++ [0x1100 + l]) out (0x1100 + l) [] (0x1161 + v) (hangul l v 0)).
    { split; [reflexivity|]. split; [apply F3, HL|intros b []]. }
    { now constructor. }
    assert (Rest : composition (table first last comp) ccc (out ++ [hangul l v t])
        (flat_map (fun x => letters (fst (fst x)) (snd (fst x)) (snd x)) ts)
        (out ++ hangul l v t :: map (fun x => hangul (fst (fst x)) (snd (fst x)) (snd x)) ts)).
    { replace (out ++ hangul l v t :: map (fun x => hangul (fst (fst x)) (snd (fst x)) (snd x)) ts) with
        ((out ++ [hangul l v t]) ++ map (fun x => hangul (fst (fst x)) (snd (fst x)) (snd x)) ts) by (now rewrite <- app_assoc).
      apply IH; [intros; apply Hp; now right|]. right. exists out, (hangul l v t). auto. }
    destruct (Z.eqb_spec t 0) as [->|N]; cbn [app]; [exact Rest|].
    apply (composition_pair _ _ (out ++ [hangul l v 0]) out (hangul l v 0) [] (0x11A7 + t) (hangul l v t)); [| |exact Rest].
    + split; [reflexivity|]. split; [apply F3, Hy; lia|intros b []].
    + constructor; auto. lia.
Qed.

Lemma syllables_parts : forall s, (forall c, In c s -> syllable c) ->
  exists ts, s = map (fun x => hangul (fst (fst x)) (snd (fst x)) (snd x)) ts /\ forall l v t, In (l, v, t) ts -> hangul_parts l v t.
Proof.
  induction s as [|c s IH]; intros H; [exists []; split; [reflexivity|intros l v t []]|].
  destruct IH as (ts & E & Hp); [intros; apply H; now right|].
  pose (i := c - 0xAC00). specialize (H c (or_introl eq_refl)). unfold syllable in H.
  exists ((i / 588, (i mod 588) / 28, i mod 28) :: ts). split.
  - cbn [map fst snd]. f_equal; [|exact E]. unfold hangul, i. Z.div_mod_to_equations. lia.
  - intros l v t [E1|Hin]; [|auto]. injection E1 as <- <- <-. unfold hangul_parts, i. Z.div_mod_to_equations. lia.
Qed.

Lemma hangul_form : forall decomp ccc first last comp k s,
  (forall c, 0 <= ccc c) ->
  (forall c, is_hangul c -> first c = None) -> (forall c, is_hangul c -> ccc c = 0) ->
  (forall c, In c s -> syllable c) -> composed_form decomp (table first last comp) ccc k s s.
Proof.
  intros decomp ccc first last comp k s P F2 F3 H. destruct (syllables_parts s H) as (ts & -> & Hp).
  exists (flat_map (fun x => letters (fst (fst x)) (snd (fst x)) (snd x)) ts). split.
  - exists (flat_map (fun x => letters (fst (fst x)) (snd (fst x)) (snd x)) ts).
    assert (In0 : forall c, In c (flat_map (fun x => letters (fst (fst x)) (snd (fst x)) (snd x)) ts) -> ccc c = 0).
    { intros c Hc. apply in_flat_map in Hc. destruct Hc as ([[l v] t] & Hin & Hc). apply Hp in Hin. destruct Hin as (Hl & Hv & Ht).
      apply F3. unfold letters in Hc. cbn [fst snd] in Hc. unfold is_hangul. destruct (Z.eqb_spec t 0); cbn [app In] in Hc; lia. }
    split; [|split; [apply rt_refl|]].
    + clear H In0. induction ts as [|[[l v] t] ts IH]; [constructor|]. cbn [flat_map map fst snd]. constructor.
      * constructor. apply Hp. now left.
      * apply IH. intros; apply Hp; now right.
    + intros s' E. inversion E as [p a b q Hab Hb E1 E2]. assert (B : ccc b = 0).
      { apply In0. rewrite <- E1. apply in_or_app. right. right. now left. }
      lia.
  - apply (hangul_composition ccc first last comp F2 F3 ts []); auto.
Qed.

Lemma composed_form_fun : forall decomp ccc first last comp k s t t',
  (forall c, 0 <= ccc c) -> (forall c, is_hangul c -> first c = None) ->
  composed_form decomp (table first last comp) ccc k s t -> composed_form decomp (table first last comp) ccc k s t' -> t = t'.
Proof.
  intros decomp ccc first last comp k s t t' P F2 (u & N & C) (u' & N' & C').
  rewrite (normal_form_fun _ _ _ _ _ _ P N' N) in C'. eapply composition_fun; eauto. now apply pair_fun.
Qed.

(** ** Texts for which the quick check answers YES *)
Section Quick.
Variables (primary : Z -> Z -> option Z) (ccc : Z -> Z).
Notation second := (fun d => exists l x, pair_composite primary l d x).

Lemma composition_app : forall before s t, composition primary ccc before s t -> forall s2 t2, composition primary ccc t s2 t2 ->
  composition primary ccc before (s ++ s2) t2.
Proof.
  induction 1 as [t|before p l m c x s t O Pc H IH|before c s t N H IH]; intros s2 t2 C; [exact C| |]; cbn [app].
  - eapply composition_pair; eauto.
  - apply composition_keep; auto.
Qed.

Lemma open_in : forall out b m p l m0 c, ccc b = 0 -> open_pair ccc (out ++ b :: m) p l m0 c ->
  exists p', p = out ++ p' /\ open_pair ccc (b :: m) p' l m0 c.
Proof.
  induction out as [|o out IH]; intros b m p l m0 c Hb (E & Hl & Hm).
  - exists p. split; [reflexivity|]. split; auto.
  - destruct p as [|o' p]; cbn [app] in E.
    + exfalso. assert (Em : m0 = out ++ b :: m) by congruence. specialize (Hm b). rewrite Em in Hm.
      assert (0 < ccc b < ccc c) by (apply Hm; apply in_or_app; right; now left). lia.
    + assert (E1 : o = o') by congruence. assert (E2 : out ++ b :: m = p ++ l :: m0) by congruence.
      destruct (IH b m p l m0 c Hb) as (p' & -> & O); [split; auto|]. exists p'. split; [cbn [app]; congruence|exact O].
Qed.

Hypothesis pair_starter : forall l c x, pair_composite primary l c x -> ccc x = 0.

Lemma composition_prefix : forall before s t, composition primary ccc before s t ->
  forall b m out, before = b :: m -> ccc b = 0 -> composition primary ccc (out ++ before) s (out ++ t).
Proof.
  induction 1 as [t|before p l m0 c x s t O Pc H IH|before c s t N H IH]; intros b m out E Hb.
  - constructor.
  - destruct O as (Eo & Hl & Hm). apply composition_pair with (p := out ++ p) (l := l) (m := m0) (x := x); [|exact Pc|].
    + split; [rewrite Eo; now rewrite app_assoc|auto].
    + rewrite <- app_assoc. destruct p as [|p0 p].
      * apply (IH x m0); [reflexivity|]. eapply pair_starter; eauto.
      * apply (IH p0 (p ++ x :: m0)); [reflexivity|]. rewrite E in Eo. cbn [app] in Eo. congruence.
  - apply composition_keep.
    + intros p l m0 x O. rewrite E in O. destruct (open_in _ _ _ _ _ _ _ Hb O) as (p' & _ & O'). apply (N p' l m0 x). now rewrite E.
    + rewrite <- app_assoc. apply (IH b (m ++ [c])); [now rewrite E|exact Hb].
Qed.

Lemma keep_not_second : forall before c s t, ~ second c -> composition primary ccc (before ++ [c]) s t -> composition primary ccc before (c :: s) t.
Proof. intros before c s t N H. apply composition_keep; [|exact H]. intros p l m x _ P. apply N. eauto. Qed.

(** Marks that stay, stay where they are. *)
Lemma kept_pair : forall before s t, composition primary ccc before s t -> forall p a d q, before = p ++ a :: d :: q -> ccc a <> 0 -> ccc d <> 0 ->
  exists p' q', t = p' ++ a :: d :: q'.
Proof.
  induction 1 as [t|before p l m0 c x s t O Pc H IH|before c s t N H IH]; intros p1 a d q E Ha Hd.
  - eauto.
  - destruct O as (Eo & Hl & Hm). rewrite Eo in E. clear Eo.
    assert (G : exists p2 q2, p ++ x :: m0 = p2 ++ a :: d :: q2).
    { clear - E Ha Hd Hl. revert p E. induction p1 as [|y p1 IH]; intros p E.
      - destruct p as [|z p]; cbn [app] in E; [exfalso; congruence|]. assert (z = a) by congruence. subst z.
        destruct p as [|z p]; cbn [app] in E; [exfalso; congruence|]. assert (z = d) by congruence. subst z.
        exists [], (p ++ x :: m0). reflexivity.
      - destruct p as [|z p]; cbn [app] in E.
        + assert (m0 = p1 ++ a :: d :: q) by congruence. subst m0. exists (x :: p1), q. reflexivity.
        + assert (E' : p ++ l :: m0 = p1 ++ a :: d :: q) by congruence. destruct (IH p E') as (p2 & q2 & E2).
          exists (z :: p2), q2. cbn [app]. now rewrite E2. }
    destruct G as (p2 & q2 & E2). eapply IH; eauto.
  - apply (IH p1 a d (q ++ [c])); auto. rewrite E. rewrite <- app_assoc. reflexivity.
Qed.

(** A mark that is the second of no pair may be moved before one of a higher class. *)
Lemma composition_exchange : forall p before a d q t, ccc a > ccc d -> ccc d > 0 -> ~ second d -> ordered ccc t ->
  composition primary ccc before (p ++ a :: d :: q) t -> composition primary ccc before (p ++ d :: a :: q) t.
Proof.
  induction p as [|y p IH]; intros before a d q t Ha Hd Nd Ot C; cbn [app] in *.
  - inversion C as [|? p l m c x s t' O Pc C1|? c s t' N C1]; subst.
    + destruct O as (-> & Hl & Hm). inversion C1 as [|? p1 l1 m1 c1 x1 s1 t1 O1 Pc1 C2|? c1 s1 t1 N1 C2]; subst; [exfalso; apply Nd; eauto|].
      apply keep_not_second; [exact Nd|]. apply composition_pair with (p := p) (l := l) (m := m ++ [d]) (x := x); [|exact Pc|].
      * split; [now rewrite <- app_assoc|]. split; [exact Hl|]. intros b Hb. apply in_app_iff in Hb. destruct Hb as [Hb|[<-|[]]]; [auto|lia].
      * rewrite <- app_assoc in C2. exact C2.
    + exfalso. inversion C1 as [|? p1 l1 m1 c1 x1 s1 t1 O1 Pc1 C2|? c1 s1 t1 N1 C2]; subst; [apply Nd; eauto|].
      destruct (kept_pair _ _ _ C2 before a d []) as (p' & q' & E); [now rewrite <- app_assoc|lia|lia|].
      apply (Ot (p' ++ d :: a :: q')). rewrite E. constructor; auto.
  - inversion C as [|? p1 l m c x s t' O Pc C1|? c s t' N C1]; subst.
    + eapply composition_pair; eauto.
    + apply composition_keep; eauto.
Qed.

(** Before the second of a pair there is no mark of a higher class up to the last starter; [hi] is the highest class so far. *)
Fixpoint graded (hi : Z) (w : list Z) : Prop :=
  match w with
  | [] => True
  | c :: w => if ccc c =? 0 then graded 0 w else (second c -> hi <= ccc c) /\ graded (Z.max hi (ccc c)) w
  end.

Hypothesis ccc_pos : forall c, 0 <= ccc c.

Lemma graded_exchange : forall p hi a d q, ccc a > ccc d -> ccc d > 0 -> graded hi (p ++ a :: d :: q) ->
  ~ second d /\ graded hi (p ++ d :: a :: q).
Proof.
  clear pair_starter. induction p as [|y p IH]; intros hi a d q Ha Hd G; cbn [app graded] in *.
  - destruct (Z.eqb_spec (ccc a) 0); [lia|]. destruct (Z.eqb_spec (ccc d) 0); [lia|]. destruct G as (G1 & G2 & G3).
    assert (N : ~ second d) by (intros S; apply G2 in S; lia). split; [exact N|]. split; [intros S; contradiction|].
    split; [intros S; apply G1 in S; lia|]. replace (Z.max (Z.max hi (ccc d)) (ccc a)) with (Z.max (Z.max hi (ccc a)) (ccc d)) by lia. exact G3.
  - destruct (ccc y =? 0); [apply IH; auto|]. destruct G as (G1 & G2). destruct (IH _ _ _ _ Ha Hd G2) as (N & G3). auto.
Qed.

Lemma graded_order : forall w w', clos_refl_trans _ (exchange ccc) w w' -> forall t, ordered ccc t ->
  graded 0 w -> composition primary ccc [] w t -> graded 0 w' /\ composition primary ccc [] w' t.
Proof.
  induction 1 as [w w' E|w|w w1 w2 H1 IH1 H2 IH2]; intros t Ot G C.
  - inversion E as [p a d q Ha Hd E1 E2]; subst. destruct (graded_exchange _ _ _ _ _ Ha Hd G) as (N & G').
    split; [exact G'|]. eapply composition_exchange; eauto.
  - auto.
  - destruct (IH1 t Ot G C) as (G1 & C1). auto.
Qed.

Lemma graded_asc : forall m x rest, asc ccc (x :: m) -> (forall h, graded h rest) -> graded (ccc x) (m ++ rest).
Proof.
  clear pair_starter. induction m as [|y m IH]; intros x rest A R; [apply R|]. destruct A as [F A]. specialize (IH y rest A R). cbn [app graded].
  unfold fine in F. pose proof (ccc_pos y). destruct (Z.eqb_spec (ccc y) 0) as [E|E]; [now rewrite <- E at 1|].
  split; [intros _; lia|]. replace (Z.max (ccc x) (ccc y)) with (ccc y) by lia. exact IH.
Qed.

Variables (decomp : Z -> bool * list Z) (k : bool).

Lemma quick_text : forall s u, full_text decomp k s u -> (forall c, In c s -> recomposed decomp primary ccc k c) ->
  (forall hi, graded hi u) /\ forall out, composition primary ccc out u (out ++ s).
Proof.
  induction s as [|c s IH]; intros u Hu H; inversion Hu as [|c0 s0 u1 u2 F1 F2]; subst.
  - split; [intros; exact I|]. intros out. rewrite app_nil_r. constructor.
  - destruct (IH u2 F2) as (G & C); [intros d Hd; apply H; now right|].
    destruct (H c (or_introl eq_refl)) as (b & m & Fc & Oc & Nb & Cc & Hb).
    rewrite (full_fun _ _ _ _ F1 _ Fc) in *. clear Hu F1 u1.
    assert (Ns : ~ second b) by (intros (l & x & P); exact (Nb l x P)).
    assert (Cb : composition primary ccc [b] m [c]).
    { inversion Cc as [|? p l m0 c1 x s1 t1 O1 P1 C1|? c1 s1 t1 N1 C1]; subst; [|exact C1].
      destruct O1 as (E & _). destruct p; discriminate. }
    split.
    + intros hi. cbn [app graded]. destruct (Z.eqb_spec (ccc b) 0) as [E|E].
      * rewrite <- E at 1. apply graded_asc; [now apply asc_ordered|exact G].
      * destruct Hb as [Hb| ->]; [contradiction|]. split; [intros S; contradiction|]. apply G.
    + intros out. change (c :: s) with ([c] ++ s). rewrite app_assoc. apply composition_app with (t := out ++ [c]); [|apply C].
      apply keep_not_second; [exact Ns|]. destruct Hb as [Hb| ->].
      * eapply composition_prefix; [exact Cb|reflexivity|exact Hb].
      * inversion Cb; subst. constructor.
Qed.
End Quick.

Lemma quick_form : forall decomp ccc quick first last comp k shift s,
  (forall c, 0 <= ccc c) -> (forall c, is_hangul c -> ccc c = 0) ->
  (forall l c x, table first last comp l c = Some x -> ccc x = 0 /\ ~ is_hangul x) ->
  (forall c, In c s -> Z.land (quick c) (Z.shiftl 3 shift) = 0 -> recomposed decomp (table first last comp) ccc k c) ->
  quickcheck ccc quick shift 0 s = true -> s <> [] -> composed_form decomp (table first last comp) ccc k s s.
Proof.
  intros decomp ccc quick first last comp k shift s P F3 F4 R Q Ne.
  destruct (quickcheck_ok _ _ _ _ _ P Q) as (A & B & _).
  assert (R' : forall c, In c s -> recomposed decomp (table first last comp) ccc k c) by (intros c Hc; apply R; auto).
  assert (U : exists u, full_text decomp k s u).
  { clear - R'. induction s as [|c s IH]; [exists []; constructor|]. destruct (R' c (or_introl eq_refl)) as (b & m & Fc & _).
    destruct IH as (u & Hu); [intros d Hd; apply R'; now right|]. exists ((b :: m) ++ u). constructor; auto. }
  destruct U as (u & Hu).
  assert (S0 : forall l c x, pair_composite (table first last comp) l c x -> ccc x = 0).
  { intros l c x H. destruct H as [l v Hl Hv|l v t Hl Hv Ht|l c x H]; [| |now apply F4 in H];
      apply F3; right; right; right; apply hangul_syllable; unfold hangul_parts; lia. }
  destruct (quick_text (table first last comp) ccc S0 P decomp k s u Hu R') as (G & C).
  destruct u as [|d u]; [apply full_text_length in Hu; destruct s; [congruence|cbn [length] in Hu; lia]|].
  destruct (sort_loop_ok ccc P u [] d I) as [E O]. cbn [rev app] in E.
  exists (sort_loop ccc (ccc d) [d] u). split; [exists (d :: u); auto|].
  assert (Os : ordered ccc s) by now apply asc_ordered.
  apply (graded_order (table first last comp) ccc S0 P _ _ E s Os (G 0) (C [])).
Qed.

(** ** The composed form of a composed form *)
Lemma move_right : forall ccc c m p q, (forall b, In b m -> 0 < ccc b < ccc c) ->
  clos_refl_trans _ (exchange ccc) (p ++ c :: m ++ q) (p ++ m ++ c :: q).
Proof.
  intros ccc c. induction m as [|b m IH]; intros p q H; [apply rt_refl|]. cbn [app].
  eapply rt_trans; [apply rt_step; constructor; destruct (H b (or_introl eq_refl)); lia|].
  replace (p ++ b :: c :: m ++ q) with ((p ++ [b]) ++ c :: m ++ q) by now rewrite <- app_assoc.
  replace (p ++ b :: m ++ c :: q) with ((p ++ [b]) ++ m ++ c :: q) by now rewrite <- app_assoc.
  apply IH. intros d Hd. apply H. now right.
Qed.

Lemma full_text_split : forall decomp k s1 s2 u, full_text decomp k (s1 ++ s2) u ->
  exists u1 u2, u = u1 ++ u2 /\ full_text decomp k s1 u1 /\ full_text decomp k s2 u2.
Proof.
  induction s1 as [|c s1 IH]; intros s2 u H; [exists [], u; split; [reflexivity|split; [constructor|exact H]]|].
  cbn [app] in H. inversion H as [|c0 s0 v1 v2 F1 F2]; subst. destruct (IH _ _ F2) as (w1 & w2 & -> & A & B).
  exists (v1 ++ w1), w2. split; [now rewrite app_assoc|]. split; [constructor; auto|exact B].
Qed.

Lemma composition_equivalent : forall decomp primary ccc k before s t, composition primary ccc before s t ->
  (forall l c x wl, pair_composite primary l c x -> full decomp k c [c] -> full decomp k l wl -> full decomp k x (wl ++ [c])) ->
  (forall l c x, pair_composite primary l c x -> ccc x = 0) ->
  (forall c, In c s -> full decomp k c [c]) -> (forall c, In c before -> ccc c > 0 -> full decomp k c [c]) ->
  forall wb, full_text decomp k before wb ->
  exists wt, full_text decomp k t wt /\ clos_refl_trans _ (exchange ccc) wt (wb ++ s).
Proof.
  intros decomp primary ccc k before s t H X S0.
  induction H as [t|before p l m c x s t O Pc H IH|before c s t N H IH]; intros Fs Fb wb Hb.
  - exists wb. split; [exact Hb|]. rewrite app_nil_r. apply rt_refl.
  - destruct O as (Eo & Hl & Hm). rewrite Eo in Hb, Fb. destruct (full_text_split _ _ _ _ _ Hb) as (wp & w2 & -> & Hp & H2).
    inversion H2 as [|l0 m0 wl wm Fl Fm]; subst.
    assert (Em : full_text decomp k m m).
    { apply full_text_self. intros b Hbm. apply Fb; [apply in_or_app; right; now right|]. apply Hm in Hbm. lia. }
    rewrite (full_text_fun _ _ _ _ Fm _ Em).
    assert (Fc : full decomp k c [c]) by (apply Fs; now left).
    destruct (IH) with (wb := wp ++ (wl ++ [c]) ++ m) as (wt & Ht & Et).
    + intros d Hd. apply Fs. now right.
    + intros d Hd Pd. apply in_app_iff in Hd. destruct Hd as [Hd|[<-|Hd]].
      * apply Fb; [apply in_or_app; now left|exact Pd].
      * apply S0 in Pc. lia.
      * apply Fb; [apply in_or_app; right; now right|exact Pd].
    + apply full_text_app; [exact Hp|]. constructor; [|exact Em]. eapply X; eauto.
    + exists wt. split; [exact Ht|]. eapply rt_trans; [exact Et|].
      replace ((wp ++ (wl ++ [c]) ++ m) ++ s) with ((wp ++ wl) ++ c :: m ++ s) by (rewrite <- !app_assoc; reflexivity).
      replace ((wp ++ wl ++ m) ++ c :: s) with ((wp ++ wl) ++ m ++ c :: s) by (rewrite <- !app_assoc; reflexivity).
      apply move_right. exact Hm.
  - assert (Fc : full decomp k c [c]) by (apply Fs; now left).
    destruct (IH) with (wb := wb ++ [c]) as (wt & Ht & Et).
    + intros d Hd. apply Fs. now right.
    + intros d Hd Pd. apply in_app_iff in Hd. destruct Hd as [Hd|[<-|[]]]; auto.
    + apply full_text_app; [exact Hb|]. change [c] with ([c] ++ []) at 2. constructor; [exact Fc|constructor].
    + exists wt. split; [exact Ht|]. rewrite <- app_assoc in Et. exact Et.
Qed.

Lemma composed_form_idem : forall decomp ccc first last comp k s t,
  (forall c, is_hangul c -> ccc c = 0) ->
  (forall l c x, table first last comp l c = Some x -> ccc x = 0 /\ ~ is_hangul x) ->
  (forall l c x, table first last comp l c = Some x -> decomp x = (false, [l; c])) ->
  (forall l v t c, hangul_parts l v t -> In c (letters l v t) -> full decomp k c [c]) ->
  composed_form decomp (table first last comp) ccc k s t -> composed_form decomp (table first last comp) ccc k t t.
Proof.
  intros decomp ccc first last comp k s t F3 F4 D J (u & (w & Fw & Ew & Ou) & C).
  destruct (composition_equivalent decomp (table first last comp) ccc k [] u t C) with (wb := @nil Z) as (wt & Ht & Et).
  - intros l c x wl H. destruct H as [l v Hl Hv|l v j Hl Hv Hj|l c x H]; intros Fc Fl.
    + assert (P : hangul_parts l v 0) by (unfold hangul_parts; lia).
      rewrite <- (full_fun _ _ _ _ (J l v 0 (0x1100 + l) P (or_introl eq_refl)) _ Fl). exact (full_hangul decomp k l v 0 P).
    + assert (P : hangul_parts l v 0) by (unfold hangul_parts; lia).
      assert (P' : hangul_parts l v j) by (unfold hangul_parts; lia).
      rewrite <- (full_fun _ _ _ _ (full_hangul decomp k l v 0 P) _ Fl).
      replace (letters l v 0 ++ [0x11A7 + j]) with (letters l v j); [constructor; exact P'|].
      unfold letters. destruct (Z.eqb_spec j 0); [lia|]. reflexivity.
    + eapply full_map; [|eapply D; eauto|discriminate|discriminate|].
      * intros S. apply F4 in H. apply H. now right; right; right.
      * constructor; [exact Fl|]. change [c] with ([c] ++ []) at 2. constructor; [exact Fc|constructor].
  - intros l c x H. destruct H as [l v Hl Hv|l v j Hl Hv Hj|l c x H]; [| |now apply F4 in H];
      apply F3; right; right; right; apply hangul_syllable; unfold hangul_parts; lia.
  - intros c Hc. eapply full_members; eauto. eapply exchange_in; eauto.
  - intros c [].
  - constructor.
  - exists u. split; [|exact C]. exists wt. auto.
Qed.
