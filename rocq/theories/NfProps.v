(** * C76: unicodedata.normalize gives the decomposed normal forms *)

From Coq Require Import ZArith List Bool Relation_Operators.
From Verif Require Import Base NfSpec NfModel NfProofs.

(** For every database in which each character of the text has a full decomposition of at most 20 characters and a quick
    check that answers YES only for characters that stand for themselves: NFD and NFKD are computed, inside of the stack,
    and are the normal form. *)
Theorem C76_normalize : forall (decomp : Z -> bool * list Z) (ccc quick : Z -> Z) (k : bool) (s : list Z),
  (forall c, 0 <= ccc c) ->
  (forall c, In c s -> exists u, full decomp k c u /\ (length u <= 20)%nat) ->
  (forall c, In c s -> Z.land (quick c) (Z.shiftl 3 (if k then 2 else 0)) = 0 -> full decomp k c [c]) ->
  exists t f0, normal_form decomp ccc k s t /\ forall fuel, (f0 <= fuel)%nat -> normalize decomp ccc quick fuel k s = Ok t.
Proof. exact normalize_ok. Qed.
Print Assumptions C76_normalize.

(** A text has one normal form. *)
Theorem C76_unique : forall (decomp : Z -> bool * list Z) (ccc : Z -> Z) (k : bool) (s t t' : list Z),
  (forall c, 0 <= ccc c) -> normal_form decomp ccc k s t -> normal_form decomp ccc k s t' -> t = t'.
Proof. exact normal_form_fun. Qed.
Print Assumptions C76_unique.

(** Normalizing again changes nothing; the letters of Hangul stand for themselves. *)
Theorem C76_idempotent : forall (decomp : Z -> bool * list Z) (ccc quick : Z -> Z) (k : bool) (s : list Z),
  (forall c, 0 <= ccc c) ->
  (forall c, In c s -> exists u, full decomp k c u /\ (length u <= 20)%nat) ->
  (forall c, Z.land (quick c) (Z.shiftl 3 (if k then 2 else 0)) = 0 -> full decomp k c [c]) ->
  (forall l v t c, hangul_parts l v t -> In c (letters l v t) -> full decomp k c [c]) ->
  exists t f0, forall fuel, (f0 <= fuel)%nat ->
    normalize decomp ccc quick fuel k s = Ok t /\ normalize decomp ccc quick fuel k t = Ok t.
Proof.
  intros decomp ccc quick k s P F Q J.
  destruct (normalize_ok decomp ccc quick k s P F ltac:(auto)) as (t & f1 & N1 & H1).
  destruct (normalize_ok decomp ccc quick k t P) as (t' & f2 & N2 & H2).
  - intros c Hc. exists [c]. split; [|cbn; lia]. destruct N1 as (u & Fu & C & _).
    eapply full_members; eauto. eapply exchange_in; eauto.
  - auto.
  - pose proof (normal_form_idem _ _ _ _ _ J N1) as N3.
    rewrite (normal_form_fun _ _ _ _ _ _ P N2 N3) in H2.
    exists t, (Nat.max f1 f2). intros fuel Hf. split; [apply H1|apply H2]; lia.
Qed.
Print Assumptions C76_idempotent.

(** A small database: U+1E69 (s with dots) is U+1E63 U+0307, U+1E63 is s U+0323; the ligature U+FB01 stands for f i
    when compatibility mappings are used; U+0307 has class 230, U+0323 class 220. *)
Definition some_decomp (c : Z) : bool * list Z :=
  if c =? 0x1E69 then (false, [0x1E63; 0x307]) else if c =? 0x1E63 then (false, [0x73; 0x323])
  else if c =? 0xFB01 then (true, [0x66; 0x69]) else (false, []).
Definition some_ccc (c : Z) : Z := if c =? 0x307 then 230 else if c =? 0x323 then 220 else 0.
Definition some_quick (c : Z) : Z :=
  if (c =? 0x1E69) || (c =? 0x1E63) || ((0xAC00 <=? c) && (c <=? 0xD7A3)) then 10 else if c =? 0xFB01 then 8 else 0.

Example C76_example :
  normalize some_decomp some_ccc some_quick 20 false [0x73; 0x307; 0x323; 0x1E69; 0xD55C; 0xFB01] =
    Ok [0x73; 0x323; 0x307; 0x73; 0x323; 0x307; 0x1112; 0x1161; 0x11AB; 0xFB01] /\
  normalize some_decomp some_ccc some_quick 20 true [0xFB01; 0xAC00] = Ok [0x66; 0x69; 0x1100; 0x1161] /\
  normalize some_decomp some_ccc some_quick 20 false [0x73; 0x323; 0x307] = Ok [0x73; 0x323; 0x307] /\
  (forall c, 0 <= some_ccc c) /\
  (forall k c, exists u, full some_decomp k c u /\ (length u <= 20)%nat) /\
  (forall k c, Z.land (some_quick c) (Z.shiftl 3 (if k : bool then 2 else 0)) = 0 -> full some_decomp k c [c]) /\
  (forall k l v t c, hangul_parts l v t -> In c (letters l v t) -> full some_decomp k c [c]).
Proof.
  assert (Plain : forall k c, c <> 0x1E69 -> c <> 0x1E63 -> (c = 0xFB01 -> k = false) -> ~ syllable c -> full some_decomp k c [c]).
  { intros k c N1 N2 N3 N4. destruct (Z.eq_dec c 0xFB01) as [->|N].
    - apply (full_self _ _ _ true [0x66; 0x69]); auto.
    - apply (full_self _ _ _ false []); auto. unfold some_decomp.
      replace (c =? 0x1E69) with false by lia. replace (c =? 0x1E63) with false by lia. replace (c =? 0xFB01) with false by lia. reflexivity. }
  assert (Dot : forall k, full some_decomp k 0x1E63 [0x73; 0x323]).
  { intros k. apply (full_map _ _ _ false [0x73; 0x323]); [unfold syllable; lia|reflexivity|discriminate|discriminate|].
    apply (full_cons _ _ 0x73 [0x323] [0x73] [0x323]); [apply Plain; try lia; unfold syllable; lia|].
    apply (full_cons _ _ 0x323 [] [0x323] []); [apply Plain; try lia; unfold syllable; lia|constructor]. }
  split; [reflexivity|]. split; [reflexivity|]. split; [reflexivity|]. split; [|split; [|split]].
  - intros c. unfold some_ccc. destruct (c =? 0x307); [lia|]. destruct (c =? 0x323); lia.
  - intros k c. destruct (Z.eq_dec c 0x1E69) as [->|N1].
    { exists [0x73; 0x323; 0x307]. split; [|cbn; lia].
      apply (full_map _ _ _ false [0x1E63; 0x307]); [unfold syllable; lia|reflexivity|discriminate|discriminate|].
      apply (full_cons _ _ 0x1E63 [0x307] [0x73; 0x323] [0x307]); [apply Dot|].
      apply (full_cons _ _ 0x307 [] [0x307] []); [apply Plain; try lia; unfold syllable; lia|constructor]. }
    destruct (Z.eq_dec c 0x1E63) as [->|N2]; [exists [0x73; 0x323]; split; [apply Dot|cbn; lia]|].
    destruct (Z.eq_dec c 0xFB01) as [->|N3].
    { destruct k.
      - exists [0x66; 0x69]. split; [|cbn; lia].
        apply (full_map _ _ _ true [0x66; 0x69]); [unfold syllable; lia|reflexivity|discriminate|auto|].
        apply (full_cons _ _ 0x66 [0x69] [0x66] [0x69]); [apply Plain; try lia; unfold syllable; lia|].
        apply (full_cons _ _ 0x69 [] [0x69] []); [apply Plain; try lia; unfold syllable; lia|constructor].
      - exists [0xFB01]. split; [apply Plain; try lia; unfold syllable; lia|cbn; lia]. }
    destruct (Z_le_dec 0xAC00 c) as [H1|H1]; [destruct (Z_le_dec c 0xD7A3) as [H2|H2]|].
    + pose (i := c - 0xAC00). exists (letters (i / 588) ((i mod 588) / 28) (i mod 28)). split.
      * replace c with (hangul (i / 588) ((i mod 588) / 28) (i mod 28)) at 1.
        -- constructor. unfold hangul_parts, i. Z.div_mod_to_equations. lia.
        -- unfold hangul, i. Z.div_mod_to_equations. lia.
      * unfold letters. destruct (_ =? 0); cbn; lia.
    + exists [c]. split; [apply Plain; try lia; unfold syllable; lia|cbn; lia].
    + exists [c]. split; [apply Plain; try lia; unfold syllable; lia|cbn; lia].
  - intros k c H. unfold some_quick in H.
    destruct ((c =? 0x1E69) || (c =? 0x1E63) || ((0xAC00 <=? c) && (c <=? 0xD7A3))) eqn:E; [destruct k; discriminate|].
    apply Plain; [lia|lia| |unfold syllable; lia]. intros ->. destruct k; [discriminate|reflexivity].
  - intros k l v t c (Hl & Hv & Ht) Hc. assert (B : 0x1100 <= c < 0x1200).
    { unfold letters in Hc. destruct (t =? 0); cbn [app In] in Hc; lia. }
    apply Plain; try lia. unfold syllable. lia.
Qed.
