(** The JSON text of a document is read back as that document. *)
From Coq Require Import Permutation String.
From Verif Require Import Base Utf8Model Utf8Spec Utf8Proofs FmtModel FmtSpec FmtProofs NameProofs
  PkModel PkSpec.
Close Scope string_scope.
Open Scope list_scope.
Open Scope Z_scope.
Notation length := List.length.

(** ** UTF-8 sequences *)

Lemma wf_app cs b cs' b' : wf cs b -> wf cs' b' -> wf (cs ++ cs') (b ++ b').
Proof. intros H H'. induction H; cbn; [assumption|]. rewrite <- app_assoc. constructor; assumption. Qed.
Lemma text_app a b : utf8_text a -> utf8_text b -> utf8_text (a ++ b).
Proof. intros (x & H) (y & H'). exists (x ++ y). apply wf_app; assumption. Qed.
Lemma text_nil : utf8_text [].
Proof. exists []. constructor. Qed.
Lemma text_ascii s : Forall (fun c => 0 <= c <= 127) s -> utf8_text s.
Proof.
  intros H. exists s. induction H; [constructor|]. change (x :: l) with ([x] ++ l) at 2.
  constructor; [constructor; lia|assumption].
Qed.

Ltac bnd := repeat match goal with
  | H : between _ _ _ = true |- _ => unfold between in H
  | H : between _ _ _ = false |- _ => unfold between in H
  end.

Lemma wf_seq_fun c s : wf_seq c s -> s = greedy_encode_one c.
Proof.
  intros H. assert (Hs : scalar c) by (eapply wf_seq_scalar; eassumption).
  rewrite encode_one_arith by (unfold scalar in Hs; lia). unfold enc_arith.
  inversion H; subst; clear H.
  - destruct (c <? 128) eqn:E; [reflexivity|lia].
  - repeat match goal with |- context [if ?b then _ else _] => destruct b eqn:?; try lia end.
    f_equal; [|f_equal]; Z.div_mod_to_equations; lia.
  - repeat match goal with |- context [if ?b then _ else _] => destruct b eqn:?; try lia end.
    f_equal; [|f_equal; [|f_equal]]; Z.div_mod_to_equations; lia.
  - repeat match goal with |- context [if ?b then _ else _] => destruct b eqn:?; try lia end.
    f_equal; [|f_equal; [|f_equal]]; Z.div_mod_to_equations; lia.
  - repeat match goal with |- context [if ?b then _ else _] => destruct b eqn:?; try lia end.
    f_equal; [|f_equal; [|f_equal]]; Z.div_mod_to_equations; lia.
  - repeat match goal with |- context [if ?b then _ else _] => destruct b eqn:?; try lia end.
    f_equal; [|f_equal; [|f_equal; [|f_equal]]]; Z.div_mod_to_equations; lia.
  - repeat match goal with |- context [if ?b then _ else _] => destruct b eqn:?; try lia end.
    f_equal; [|f_equal; [|f_equal; [|f_equal]]]; Z.div_mod_to_equations; lia.
  - repeat match goal with |- context [if ?b then _ else _] => destruct b eqn:?; try lia end.
    f_equal; [|f_equal; [|f_equal; [|f_equal]]]; Z.div_mod_to_equations; lia.
Qed.
Lemma wf_fun cs s : wf cs s -> s = greedy_encode cs.
Proof. intros H. induction H; [reflexivity|]. cbn. rewrite <- (wf_seq_fun _ _ H). congruence. Qed.

Lemma u8_next_sound s c r : u8_next s = Some (c, r) -> s = greedy_encode_one c ++ r /\ wf_seq c (greedy_encode_one c).
Proof.
  intros H. assert (exists p, s = p ++ r /\ wf_seq c p) as (p & -> & Hp).
  { destruct s as [|b0 s]; [discriminate|]. cbn [u8_next] in H. unfold between in H.
    destruct ((0 <=? b0) && (b0 <=? 127)) eqn:E0.
    { injection H as <- <-. exists [b0]. split; [reflexivity|constructor; lia]. }
    destruct s as [|b1 s]; [discriminate|].
    destruct (negb ((128 <=? b1) && (b1 <=? 191))) eqn:E1; [discriminate|].
    destruct ((194 <=? b0) && (b0 <=? 223)) eqn:E2.
    { injection H as <- <-. exists [b0; b1]. split; [reflexivity|constructor; lia]. }
    destruct s as [|b2 s]; [discriminate|].
    destruct (negb ((128 <=? b2) && (b2 <=? 191))) eqn:E3; [discriminate|].
    destruct ((224 <=? b0) && (b0 <=? 239)) eqn:E4.
    { destruct ((b0 =? 224) && (b1 <? 160)) eqn:E5; [discriminate|].
      destruct ((b0 =? 237) && (159 <? b1)) eqn:E6; [discriminate|].
      injection H as <- <-. exists [b0; b1; b2]. split; [reflexivity|].
      destruct (Z.eq_dec b0 224) as [->|].
      { replace ((224 - 224) * 4096 + (b1 - 128) * 64 + (b2 - 128)) with ((b1 - 128) * 64 + (b2 - 128)) by lia.
        constructor; lia. }
      destruct (Z.eq_dec b0 237) as [->|].
      { replace ((237 - 224) * 4096 + (b1 - 128) * 64 + (b2 - 128)) with (53248 + (b1 - 128) * 64 + (b2 - 128)) by lia.
        constructor; lia. }
      apply wf_3; lia. }
    destruct s as [|b3 s]; [discriminate|].
    destruct (negb ((128 <=? b3) && (b3 <=? 191))) eqn:E7; [discriminate|].
    destruct ((240 <=? b0) && (b0 <=? 244)) eqn:E8; [|discriminate].
    destruct ((b0 =? 240) && (b1 <? 144)) eqn:E9; [discriminate|].
    destruct ((b0 =? 244) && (143 <? b1)) eqn:E10; [discriminate|].
    injection H as <- <-. exists [b0; b1; b2; b3]. split; [reflexivity|].
    destruct (Z.eq_dec b0 240) as [->|].
    { replace ((240 - 240) * 262144 + (b1 - 128) * 4096 + (b2 - 128) * 64 + (b3 - 128))
        with ((b1 - 128) * 4096 + (b2 - 128) * 64 + (b3 - 128)) by lia.
      constructor; lia. }
    destruct (Z.eq_dec b0 244) as [->|].
    { replace ((244 - 240) * 262144 + (b1 - 128) * 4096 + (b2 - 128) * 64 + (b3 - 128))
        with (1048576 + (b1 - 128) * 4096 + (b2 - 128) * 64 + (b3 - 128)) by lia.
      constructor; lia. }
    apply wf_4; lia. }
  rewrite <- (wf_seq_fun _ _ Hp). auto.
Qed.
Lemma u8_next_complete c p r : wf_seq c p -> u8_next (p ++ r) = Some (c, r).
Proof.
  intros H. inversion H; subst; cbn [app u8_next]; unfold between;
    repeat match goal with |- context [if ?b then _ else _] =>
      let E := fresh "E" in destruct b eqn:E; try lia end;
    try (f_equal; f_equal; lia); reflexivity.
Qed.
Lemma u8_next_shorter s c r : u8_next s = Some (c, r) -> (length r < length s)%nat.
Proof.
  intros H. apply u8_next_sound in H. destruct H as (-> & Hw). rewrite app_length.
  revert Hw. generalize (greedy_encode_one c). intros p Hw.
  assert (length p <> 0)%nat by (destruct Hw; discriminate). lia.
Qed.

Lemma text_decode s : utf8_text s -> exists u, utf8_decode s = Ok u /\ utf8_encode u = Ok s /\ wf u s.
Proof.
  intros (cs & H). exists cs. repeat split; [apply utf8_decode_wf; assumption| |assumption].
  rewrite utf8_encode_ok, <- (wf_fun _ _ H). reflexivity.
Qed.

(** ** Strings *)

Lemma hex_unhex d : 0 <= d < 16 -> unhex (hex d) = Some d.
Proof.
  intros H. unfold hex. destruct (d <? 10) eqn:E; unfold unhex, between.
  - replace ((48 <=? 48 + d) && (48 + d <=? 57)) with true by lia. f_equal. lia.
  - replace ((48 <=? 55 + d) && (55 + d <=? 57)) with false by lia.
    replace ((65 <=? 55 + d) && (55 + d <=? 70)) with true by lia. f_equal. lia.
Qed.
Lemma unhex4_hex4 c r : 0 <= c < 65536 ->
  unhex4 (hex (c / 4096) :: hex (c / 256 mod 16) :: hex (c / 16 mod 16) :: hex (c mod 16) :: r) = Some (c, r).
Proof.
  intros H. cbn [unhex4]. rewrite !hex_unhex by (Z.div_mod_to_equations; lia).
  f_equal. f_equal. Z.div_mod_to_equations. lia.
Qed.
Lemma hex_range d : 0 <= d < 16 -> 48 <= hex d <= 70.
Proof. intros. unfold hex. destruct (d <? 10) eqn:E; lia. Qed.

(** reading one \u escape outside the surrogates *)
Lemma pstring_u c f t : (0 <= c < 55296 \/ 57344 <= c < 65536) ->
  pstring (S f) (hex4 c ++ t) = let! (s, q) := pstring f t in Ok (greedy_encode_one c ++ s, q).
Proof.
  intros H. unfold hex4. cbn [app].
  change (pstring (S f) (92 :: 117 :: hex (c / 4096) :: hex (c / 256 mod 16) :: hex (c / 16 mod 16)
    :: hex (c mod 16) :: t)) with
    (match unhex4 (hex (c / 4096) :: hex (c / 256 mod 16) :: hex (c / 16 mod 16) :: hex (c mod 16) :: t) with
     | None => Exn RuntimeError
     | Some (h, r2) =>
       if between 55296 h 57343 then
         match r2 with
         | b :: u :: r3 =>
           if (h <? 56320) && (b =? 92) && (u =? 117) then
             match unhex4 r3 with
             | Some (w, r4) =>
               if between 56320 w 57343 then
                 let! (t, q) := pstring f r4 in
                 Ok (greedy_encode_one ((h - 55296) * 1024 + (w - 56320) + 65536) ++ t, q)
               else Exn RuntimeError
             | None => Exn RuntimeError
             end
           else Exn RuntimeError
         | _ => Exn RuntimeError
         end
       else let! (t, q) := pstring f r2 in Ok (greedy_encode_one h ++ t, q)
     end).
  rewrite unhex4_hex4 by lia. unfold between.
  replace ((55296 <=? c) && (c <=? 57343)) with false by lia. reflexivity.
Qed.
Lemma pstring_pair c f t : 65536 <= c <= 1114111 ->
  pstring (S f) (escaped c ++ t) = let! (s, q) := pstring f t in Ok (greedy_encode_one c ++ s, q).
Proof.
  intros H. unfold escaped. replace (c <? 65536) with false by lia.
  set (h := 55296 + (c - 65536) / 1024). set (w := 56320 + (c - 65536) mod 1024).
  assert (Hh : 55296 <= h < 56320) by (unfold h; Z.div_mod_to_equations; lia).
  assert (Hw : 56320 <= w < 57344) by (unfold w; Z.div_mod_to_equations; lia).
  assert (Hc : (h - 55296) * 1024 + (w - 56320) + 65536 = c) by (unfold h, w; Z.div_mod_to_equations; lia).
  clearbody h w. rewrite <- app_assoc. unfold hex4 at 1. cbn [app].
  change (pstring (S f) (92 :: 117 :: hex (h / 4096) :: hex (h / 256 mod 16) :: hex (h / 16 mod 16)
    :: hex (h mod 16) :: hex4 w ++ t)) with
    (match unhex4 (hex (h / 4096) :: hex (h / 256 mod 16) :: hex (h / 16 mod 16) :: hex (h mod 16) :: hex4 w ++ t) with
     | None => Exn RuntimeError
     | Some (h, r2) =>
       if between 55296 h 57343 then
         match r2 with
         | b :: u :: r3 =>
           if (h <? 56320) && (b =? 92) && (u =? 117) then
             match unhex4 r3 with
             | Some (w, r4) =>
               if between 56320 w 57343 then
                 let! (t, q) := pstring f r4 in
                 Ok (greedy_encode_one ((h - 55296) * 1024 + (w - 56320) + 65536) ++ t, q)
               else Exn RuntimeError
             | None => Exn RuntimeError
             end
           else Exn RuntimeError
         | _ => Exn RuntimeError
         end
       else let! (t, q) := pstring f r2 in Ok (greedy_encode_one h ++ t, q)
     end).
  rewrite unhex4_hex4 by lia. unfold between.
  replace ((55296 <=? h) && (h <=? 57343)) with true by lia.
  unfold hex4. cbn [app].
  replace ((h <? 56320) && (92 =? 92) && (117 =? 117)) with true by lia.
  rewrite unhex4_hex4 by lia. replace ((56320 <=? w) && (w <=? 57343)) with true by lia.
  rewrite Hc. reflexivity.
Qed.
Lemma pstring_escaped c f t : scalar c ->
  pstring (S f) (escaped c ++ t) = let! (s, q) := pstring f t in Ok (greedy_encode_one c ++ s, q).
Proof.
  intros H. unfold scalar in H. destruct (c <? 65536) eqn:E.
  - unfold escaped. rewrite E. apply pstring_u. lia.
  - apply pstring_pair. lia.
Qed.

Lemma pstring_copy1 c f t : c <> 34 -> c <> 92 -> 32 <= c ->
  pstring (S f) (c :: t) = let! (s, q) := pstring f t in Ok (c :: s, q).
Proof.
  intros H1 H2 H3. cbn [pstring].
  replace (c =? 34) with false by lia. replace (c =? 92) with false by lia.
  replace (c <? 32) with false by lia. reflexivity.
Qed.
Lemma pstring_esc c f t : 0 <= c < 128 ->
  pstring (S f) (esc_char c ++ t) = let! (s, q) := pstring f t in Ok (c :: s, q).
Proof.
  intros H. unfold esc_char.
  destruct (Z.eqb_spec c 8); [subst; reflexivity|]. destruct (Z.eqb_spec c 9); [subst; reflexivity|].
  destruct (Z.eqb_spec c 10); [subst; reflexivity|]. destruct (Z.eqb_spec c 12); [subst; reflexivity|].
  destruct (Z.eqb_spec c 13); [subst; reflexivity|].
  destruct (Z.ltb_spec c 32).
  { rewrite pstring_u by lia. rewrite encode_one_arith by lia. unfold enc_arith.
    replace (c <? 128) with true by lia. reflexivity. }
  destruct (Z.eqb_spec c 34); [subst; reflexivity|]. destruct (Z.eqb_spec c 92); [subst; reflexivity|].
  apply pstring_copy1; lia.
Qed.
Lemma pstring_mono f g s r : pstring f s = Ok r -> (f <= g)%nat -> pstring g s = Ok r.
Proof.
  revert g s r. induction f as [|f IH]; intros g s r H L; [discriminate|].
  destruct g as [|g]; [lia|]. cbn [pstring] in *. destruct s as [|c s]; [discriminate|].
  destruct (c =? 34); [assumption|].
  destruct (c =? 92).
  - destruct s as [|e s]; [discriminate|]. destruct (e =? 117).
    + destruct (unhex4 s) as [[h r2]|]; [|discriminate].
      destruct (between 55296 h 57343).
      * destruct r2 as [|b [|u r3]]; try discriminate.
        destruct ((h <? 56320) && (b =? 92) && (u =? 117)); [|discriminate].
        destruct (unhex4 r3) as [[w r4]|]; [|discriminate].
        destruct (between 56320 w 57343); [|discriminate].
        destruct (pstring f r4) as [[t q]| | |] eqn:E; try discriminate.
        rewrite (IH g _ _ E) by lia. assumption.
      * destruct (pstring f r2) as [[t q]| | |] eqn:E; try discriminate.
        rewrite (IH g _ _ E) by lia. assumption.
    + destruct (unesc e); [|discriminate].
      destruct (pstring f s) as [[t q]| | |] eqn:E; try discriminate.
      rewrite (IH g _ _ E) by lia. assumption.
  - destruct (c <? 32); [discriminate|].
    destruct (pstring f s) as [[t q]| | |] eqn:E; try discriminate.
    rewrite (IH g _ _ E) by lia. assumption.
Qed.
Lemma pstring_copy p f t : Forall (fun c => 128 <= c) p ->
  pstring (length p + f) (p ++ t) = let! (s, q) := pstring f t in Ok (p ++ s, q).
Proof.
  induction 1 as [|c p Hc Hp IH]; cbn [length Nat.add app].
  - destruct (pstring f t) as [[s q]| | |]; reflexivity.
  - rewrite pstring_copy1 by lia. rewrite IH. destruct (pstring f t) as [[s q]| | |]; reflexivity.
Qed.

Lemma esc_char_len c : (1 <= length (esc_char c))%nat.
Proof.
  unfold esc_char. repeat match goal with |- context [if ?b then _ else _] => destruct b end; cbn; lia.
Qed.
Lemma escaped_len c : (1 <= length (escaped c))%nat.
Proof. unfold escaped. destruct (c <? 65536); cbn; lia. Qed.
Lemma seq_high c p : wf_seq c p -> hd 0 p >= 128 -> Forall (fun c => 128 <= c) p.
Proof. intros H Hh. inversion H; subst; cbn in Hh; repeat constructor; lia. Qed.
Lemma firstn_seq (p r : list Z) : before (p ++ r) r = p.
Proof.
  unfold before. rewrite app_length. replace (length p + length r - length r)%nat with (length p + 0)%nat by lia.
  rewrite firstn_app_2. cbn. apply app_nil_r.
Qed.

(** Whatever the writer makes of a string, the reader makes the string of. *)
Lemma wchars_read st n s t : wchars st n s = Some t -> Forall (fun c => 0 <= c) s ->
  forall q f, (length t < f)%nat -> pstring f (t ++ 34 :: q) = Ok (s, q).
Proof.
  revert s t. induction n as [|n IH]; intros s t H Hb q f Hf.
  - destruct s; [|discriminate]. injection H as <-. destruct f; [lia|]. reflexivity.
  - destruct s as [|c s]. { injection H as <-. destruct f; [lia|]. reflexivity. }
    cbn [wchars] in H.
    destruct (c <? 128) eqn:E.
    + destruct (wchars st n s) as [t'|] eqn:E'; [|discriminate]. injection H as <-.
      inversion Hb; subst. rewrite app_length in Hf. pose proof (esc_char_len c).
      destruct f as [|f]; [lia|]. rewrite <- app_assoc, pstring_esc by lia.
      rewrite (IH _ _ E') by (assumption || lia). reflexivity.
    + destruct (s_ascii st || s_valid st) eqn:Ea.
      * destruct (u8_next (c :: s)) as [[cp r]|] eqn:Eu; [|discriminate].
        destruct (wchars st n r) as [t'|] eqn:E'; [|discriminate]. injection H as <-.
        apply u8_next_sound in Eu. destruct Eu as (Es & Hw).
        assert (Hr : Forall (fun c => 0 <= c) r).
        { rewrite Es in Hb. apply Forall_app in Hb. apply Hb. }
        rewrite Es. destruct (s_ascii st).
        -- rewrite app_length in Hf. pose proof (escaped_len cp). destruct f as [|f]; [lia|].
           rewrite <- app_assoc, pstring_escaped by (eapply wf_seq_scalar; eassumption).
           rewrite (IH _ _ E' Hr) by lia. reflexivity.
        -- rewrite Es in Hf. rewrite firstn_seq in Hf. rewrite firstn_seq. rewrite app_length in Hf. rewrite <- app_assoc.
           assert (Hp : Forall (fun c => 128 <= c) (greedy_encode_one cp)).
           { apply (seq_high _ _ Hw). clear - Hw Es E. revert Hw Es. generalize (greedy_encode_one cp).
             intros [|x p] Hw Es; [inversion Hw|]. cbn [app] in Es. injection Es as <- _. cbn [hd]. lia. }
           set (g := (f - length (greedy_encode_one cp))%nat).
           replace f with (length (greedy_encode_one cp) + g)%nat by lia.
           rewrite pstring_copy by assumption. rewrite (IH _ _ E' Hr) by lia. reflexivity.
      * destruct (wchars st n s) as [t'|] eqn:E'; [|discriminate]. injection H as <-.
        inversion Hb; subst. cbn [length] in Hf. destruct f as [|f]; [lia|]. cbn [app].
        rewrite pstring_copy1 by lia. rewrite (IH _ _ E') by (assumption || lia). reflexivity.
Qed.

Lemma esc_char_text c : 0 <= c < 128 -> utf8_text (esc_char c).
Proof.
  intros H. apply text_ascii. unfold esc_char.
  repeat match goal with |- context [if ?b then _ else _] => destruct b eqn:? end;
    repeat constructor; try lia;
    match goal with |- context [hex ?d] => pose proof (hex_range d); Z.div_mod_to_equations; lia end.
Qed.
Lemma hex4_text c : 0 <= c < 65536 -> utf8_text (hex4 c).
Proof.
  intros H. apply text_ascii. unfold hex4. repeat constructor; try lia;
    match goal with |- context [hex ?d] => pose proof (hex_range d); Z.div_mod_to_equations; lia end.
Qed.
Lemma escaped_text c : scalar c -> utf8_text (escaped c).
Proof.
  intros H. unfold scalar in H. unfold escaped. destruct (c <? 65536) eqn:E; [apply hex4_text; lia|].
  apply text_app; apply hex4_text; Z.div_mod_to_equations; lia.
Qed.

Lemma wf_cut n s cs : (length s <= n)%nat -> wf cs s -> forall st,
  exists t, wchars st n s = Some t /\ utf8_text t.
Proof.
  revert s cs. induction n as [|n IH]; intros s cs L H st.
  - destruct s; [|cbn in L; lia]. exists []. split; [reflexivity|apply text_nil].
  - destruct H as [|c p cs bs Hp H]. { exists []. split; [reflexivity|apply text_nil]. }
    assert (Hne : p <> []) by (inversion Hp; discriminate).
    destruct p as [|b p]; [congruence|]. cbn [app wchars].
    destruct (b <? 128) eqn:E.
    + assert (p = [] /\ 0 <= b /\ c = b) as (-> & Hb & ->) by (inversion Hp; subst; try lia; repeat split; lia).
      cbn [app] in *. cbn [length] in L.
      destruct (IH bs cs ltac:(lia) H st) as (t & -> & Ht). exists (esc_char b ++ t).
      split; [reflexivity|]. apply text_app; [apply esc_char_text; lia|assumption].
    + rewrite app_length in L. cbn [length] in L.
      destruct (s_ascii st || s_valid st) eqn:Ea.
      * change (b :: p ++ bs) with ((b :: p) ++ bs). rewrite (u8_next_complete _ _ _ Hp).
        destruct (IH bs cs ltac:(lia) H st) as (t & -> & Ht). eexists. split; [reflexivity|].
        apply text_app; [|assumption]. destruct (s_ascii st).
        -- apply escaped_text. eapply wf_seq_scalar; eassumption.
        -- rewrite firstn_seq. exists [c]. rewrite <- (app_nil_r (b :: p)). constructor; [assumption|constructor].
      * assert (Hall : Forall (fun c => 128 <= c) (b :: p)) by (apply (seq_high _ _ Hp); cbn; lia).
        assert (Hgo : forall p, Forall (fun c => 128 <= c) p -> forall m, (length p + length bs <= m)%nat ->
          (m <= n)%nat -> exists t, wchars st m (p ++ bs) = Some (p ++ t) /\ utf8_text t).
        { clear -IH H Ea. induction 1 as [|x p Hx Hp IHp]; intros m L1 L2.
          - cbn [length Nat.add] in L1. cbn [app].
            (* fuel m <= n : use the induction hypothesis at n, then lower *)
            destruct (IH bs cs ltac:(lia) H st) as (t & E & Ht). exists t. split; [|assumption].
            clear -E L1 L2 Ea. revert m n t E L1 L2.
            assert (forall bs m n t, wchars st n bs = Some t -> (length bs <= m)%nat -> (m <= n)%nat ->
              wchars st m bs = Some t) as G.
            { intros bs0 m0. revert bs0. induction m0 as [|m0 IHm]; intros bs0 n0 t0 E L1 L2.
              - destruct bs0; [|cbn in L1; lia]. destruct n0; exact E.
              - destruct n0 as [|n0]; [lia|]. destruct bs0 as [|x b0]; [exact E|]. cbn [wchars length] in *.
                rewrite Ea in *. destruct (x <? 128).
                + destruct (wchars st n0 b0) eqn:E'; [|discriminate]. rewrite (IHm _ _ _ E') by lia. assumption.
                + destruct (wchars st n0 b0) eqn:E'; [|discriminate]. rewrite (IHm _ _ _ E') by lia. assumption. }
            intros. eapply G; eassumption.
          - cbn [length Nat.add] in L1. destruct m as [|m]; [lia|]. cbn [app wchars].
            replace (x <? 128) with false by lia. rewrite Ea.
            destruct (IHp m) as (t & -> & Ht); [lia|lia|]. exists t. split; [reflexivity|assumption]. }
        inversion Hall; subst. destruct (Hgo p ltac:(assumption) n) as (t & -> & Ht); [lia|lia|].
        exists (b :: p ++ t). split; [reflexivity|].
        change (b :: p ++ t) with ((b :: p) ++ t). apply text_app; [|assumption].
        exists [c]. rewrite <- (app_nil_r (b :: p)). constructor; [assumption|constructor].
Qed.

Lemma text_nonneg s : utf8_text s -> Forall (fun c => 0 <= c) s.
Proof.
  intros (cs & H). induction H as [|c p cs bs Hp H IH]; [constructor|]. apply Forall_app. split; [|assumption].
  inversion Hp; subst; repeat constructor; lia.
Qed.

(** The string of a well-formed text: written, in UTF-8, and read back. *)
Lemma wstring_ok st s : utf8_text s -> exists t, wstring st s = Some (34 :: t) /\ utf8_text t
  /\ forall q f, (length t <= f)%nat -> pstring f (t ++ q) = Ok (s, q).
Proof.
  intros Hs. destruct Hs as (cs & Hw). destruct (wf_cut (length s) s cs (le_n _) Hw st) as (t & E & Ht).
  exists (t ++ [34]). unfold wstring. rewrite E. split; [reflexivity|].
  split. { apply text_app; [assumption|]. apply text_ascii. repeat constructor; lia. }
  intros q f L. rewrite app_length in L. cbn in L. rewrite <- app_assoc. cbn [app].
  eapply wchars_read; [eassumption| |lia]. apply text_nonneg. exists cs. assumption.
Qed.

(** ** Numbers *)

Definition stops (q : list Z) : Prop :=
  match q with [] => True | c :: _ => num_char c = false end.

Lemma token_app t q : Forall (fun c => num_char c = true) t -> stops q -> token (t ++ q) = (t, q).
Proof.
  induction 1 as [|c t Hc Ht IH]; intros Hq; cbn [app].
  - destruct q as [|c q]; [reflexivity|]. cbn in *. rewrite Hq. reflexivity.
  - cbn [token]. rewrite Hc, IH by assumption. reflexivity.
Qed.
Lemma num_char_in c : In c (txt "0123456789+-.eENaInfity") -> num_char c = true /\ 0 <= c <= 127.
Proof. cbn. intros H. repeat (destruct H as [<-|H]; [split; [reflexivity|lia]|]). contradiction. Qed.
Lemma num_char_digit c : 48 <= c <= 57 -> num_char c = true.
Proof. intros H. unfold num_char, between. replace ((48 <=? c) && (c <=? 57)) with true by lia. reflexivity. Qed.

Lemma strtoul_digits s : Forall (fun d => 48 <= d <= 57) s -> forall acc q, stops q ->
  strtoul acc (s ++ q) = (fold_left (fun v d => 10 * v + (d - 48)) s acc, q).
Proof.
  induction 1 as [|c s Hc Hs IH]; intros acc q Hq; cbn [app fold_left].
  - destruct q as [|c q]; [reflexivity|]. cbn [strtoul]. cbn [stops] in Hq.
    destruct ((48 <=? c) && (c <=? 57)) eqn:E; [|reflexivity]. rewrite num_char_digit in Hq by lia. discriminate.
  - cbn [strtoul]. replace ((48 <=? c) && (c <=? 57)) with true by lia.
    rewrite IH by assumption. do 2 f_equal. lia.
Qed.
Lemma digits_only_nat n s : py_nat_str n s -> digits_only s = true /\ fst (strtoul 0 s) = n
  /\ Forall (fun d => 48 <= d <= 57) s /\ s <> [].
Proof.
  intros (F & V & S). assert (s <> []) by (destruct S as [->|(? & ? & -> & _)]; discriminate).
  repeat split; try assumption.
  - destruct s as [|c r]; [congruence|]. unfold digits_only.
    apply andb_true_iff. split.
    + apply forallb_forall. intros d Hd. rewrite Forall_forall in F. specialize (F _ Hd). unfold between. lia.
    + destruct S as [S|(d & s' & S & N)]; injection S as -> ->; [reflexivity|].
      replace (d =? 48) with false by lia. reflexivity.
  - rewrite <- (app_nil_r s). rewrite (strtoul_digits s F 0 []) by exact Logic.I. cbn [fst]. exact V.
Qed.
Lemma put_int_token z : - two63 <= z < two64 -> int_token (put_int z) = Some z
  /\ Forall (fun c => num_char c = true) (put_int z)
  /\ exists c r, put_int z = c :: r /\ (48 <= c <= 57 \/ c = 45).
Proof.
  intros H. unfold put_int. destruct (z <? 0) eqn:E.
  - assert (Hn : 0 <= - z < two64) by (unfold two63, two64 in *; lia).
    destruct (digits_only_nat _ _ (dec20 _ Hn)) as (D & V & F & _). cbn [int_token].
    change (45 =? 45) with true. cbn [orb]. rewrite D, V. split; [f_equal; lia|]. split.
    + constructor; [reflexivity|]. eapply Forall_impl; [|exact F]. intros. apply num_char_digit. assumption.
    + eexists _, _. split; [reflexivity|auto].
  - assert (Hn : 0 <= z < two64) by lia.
    destruct (digits_only_nat _ _ (dec20 _ Hn)) as (D & V & F & N).
    destruct (dec_digits 20 z []) as [|c r] eqn:Ed; [congruence|].
    assert (Hc : 48 <= c <= 57) by (inversion F; assumption). unfold int_token.
    replace (c =? 45) with false by lia. rewrite D, V. split; [reflexivity|]. split.
    + eapply Forall_impl; [|exact F]. intros. apply num_char_digit. assumption.
    + eexists _, _. split; [reflexivity|auto].
Qed.
Lemma int_token_chars t z c : int_token t = Some z -> In c t -> 48 <= c <= 57 \/ c = 45.
Proof.
  assert (D : forall s, digits_only s = true -> In c s -> 48 <= c <= 57).
  { intros s H Hi. destruct s as [|x r]; [discriminate|]. unfold digits_only in H.
    apply andb_true_iff in H. destruct H as (H & _). rewrite forallb_forall in H.
    specialize (H _ Hi). unfold between in H. lia. }
  destruct t as [|x r]; [discriminate|]. cbn [int_token].
  destruct (x =? 45) eqn:E.
  - destruct (digits_only r) eqn:Ed; [|discriminate]. intros _ [<-|Hi]; [lia|]. left. eapply D; eassumption.
  - destruct (digits_only (x :: r)) eqn:Ed; [|discriminate]. intros _ Hi. left. eapply D; eassumption.
Qed.

(** ** Values *)

Section JsonInd.
  Variable P : json -> Prop.
  Hypothesis Hnull : P JNull.
  Hypothesis Hbool : forall b, P (JBool b).
  Hypothesis Hint : forall z, P (JInt z).
  Hypothesis Hdouble : forall f, P (JDouble f).
  Hypothesis Hstr : forall s, P (JStr s).
  Hypothesis Harr : forall l, Forall P l -> P (JArr l).
  Hypothesis Hobj : forall l, Forall (fun p => P (snd p)) l -> P (JObj l).
  Fixpoint json_ind' (j : json) : P j :=
    match j with
    | JNull => Hnull | JBool b => Hbool b | JInt z => Hint z | JDouble f => Hdouble f
    | JStr s => Hstr s
    | JArr l => Harr l ((fix go l : Forall P l :=
        match l with [] => Forall_nil _ | x :: r => Forall_cons _ (json_ind' x) (go r) end) l)
    | JObj l => Hobj l ((fix go l : Forall (fun p => P (snd p)) l :=
        match l with [] => Forall_nil _ | x :: r => Forall_cons _ (json_ind' (snd x)) (go r) end) l)
    end.
End JsonInd.

(** Documents that are written and read back. *)
Inductive jgood (fl : flt) (nan : bool) : json -> Prop :=
| jg_null : jgood fl nan JNull
| jg_bool b : jgood fl nan (JBool b)
| jg_int z : - two63 <= z < two64 -> jgood fl nan (JInt z)
| jg_double f : exact fl f -> nan = true \/ finite f = true -> jgood fl nan (JDouble f)
| jg_str s : utf8_text s -> jgood fl nan (JStr s)
| jg_arr l : Forall (jgood fl nan) l -> jgood fl nan (JArr l)
| jg_obj l : Forall (fun p => utf8_text (fst p) /\ jgood fl nan (snd p)) l -> jgood fl nan (JObj l).

Definition witems (fl : flt) (st : style) (lvl : nat) :=
  fix go (first : bool) (l : list json) : option (list Z) :=
    match l with
    | [] => Some []
    | x :: r =>
      match wvalue fl st (S lvl) x with
      | None => None
      | Some a =>
        match go false r with
        | None => None
        | Some b => Some ((if first then [] else [44]) ++ newline st (S lvl) ++ a ++ b)
        end
      end
    end.
Definition wmembers (fl : flt) (st : style) (lvl : nat) :=
  fix go (first : bool) (l : list (list Z * json)) : option (list Z) :=
    match l with
    | [] => Some []
    | (k, x) :: r =>
      match wstring st k with
      | None => None
      | Some kk =>
        match wvalue fl st (S lvl) x with
        | None => None
        | Some a =>
          match go false r with
          | None => None
          | Some b => Some ((if first then [] else [44]) ++ newline st (S lvl)
                            ++ kk ++ colon st ++ a ++ b)
          end
        end
      end
    end.
Definition close {A} (st : style) (lvl : nat) (l : list A) : list Z :=
  match l with [] => [] | _ => newline st lvl end.
Lemma wvalue_arr fl st lvl l : wvalue fl st lvl (JArr l) =
  match witems fl st lvl true l with None => None | Some b => Some (91 :: b ++ close st lvl l ++ [93]) end.
Proof. reflexivity. Qed.
Lemma wvalue_obj fl st lvl l : wvalue fl st lvl (JObj l) =
  match wmembers fl st lvl true l with None => None | Some b => Some (123 :: b ++ close st lvl l ++ [125]) end.
Proof. reflexivity. Qed.

Definition blank (c : Z) : bool := (c =? 32) || (c =? 10) || (c =? 13) || (c =? 9).
Definition blanks (s : list Z) : Prop := Forall (fun c => blank c = true) s.
Lemma skip_blanks s r : blanks s -> skip (s ++ r) = skip r.
Proof. induction 1 as [|c s Hc Hs IH]; [reflexivity|]. cbn [app skip]. unfold blank in Hc. rewrite Hc. exact IH. Qed.
Lemma skip_here c r : blank c = false -> skip (c :: r) = c :: r.
Proof. intros H. unfold blank in H. cbn [skip]. rewrite H. reflexivity. Qed.
Lemma newline_blanks st lvl : blanks (newline st lvl).
Proof.
  unfold newline, blanks. destruct (s_indent st); [|constructor]. constructor; [reflexivity|].
  apply Forall_forall. intros c H. apply repeat_spec in H. subst. reflexivity.
Qed.
Lemma blanks_text s : blanks s -> utf8_text s.
Proof. intros H. apply text_ascii. eapply Forall_impl; [|exact H]. unfold blank. cbn. intros. lia. Qed.
Lemma close_blanks {A} st lvl (l : list A) : blanks (close st lvl l).
Proof. unfold close. destruct l; [constructor|apply newline_blanks]. Qed.

(** the first characters of values *)
Definition starts (c : Z) : Prop := In c (txt "ntf[{-0123456789NI") \/ c = 34.
Lemma starts_props c : starts c -> blank c = false /\ c <> 93 /\ c <> 125.
Proof.
  intros [H| ->]; [|repeat split; lia]. cbn in H.
  repeat (destruct H as [<-|H]; [repeat split; lia|]). contradiction.
Qed.
Lemma txt_cons_starts c : In c (txt "-0123456789NI") -> starts c /\
  c <> 110 /\ c <> 116 /\ c <> 102 /\ c <> 34 /\ c <> 91 /\ c <> 123.
Proof.
  intros H. cbn in H. unfold starts. cbn.
  repeat (destruct H as [<-|H]; [split; [left; tauto|lia]|]). contradiction.
Qed.

Fixpoint need (j : json) : nat :=
  match j with
  | JArr l => S (fold_right (fun x n => S (need x + n)) O l)
  | JObj l => S (fold_right (fun x n => S (need (snd x) + n)) O l)
  | _ => 1%nat
  end.

Lemma pvalue_number fl f t q : (exists c r, t = c :: r /\ In c (txt "-0123456789NI")) ->
  pvalue fl (S f) (t ++ q) = pnumber fl (t ++ q).
Proof.
  intros (c & r & -> & H). destruct (txt_cons_starts c H) as (_ & H1 & H2 & H3 & H4 & H5 & H6).
  cbn [app pvalue]. rewrite !(proj2 (Z.eqb_neq _ _)) by assumption. reflexivity.
Qed.

Definition reads (fl : flt) (j : json) (t : list Z) : Prop :=
  utf8_text t /\ (exists c r, t = c :: r /\ starts c) /\ (need j <= 2 * length t - 1)%nat
  /\ forall q f, stops q -> (need j <= f)%nat -> pvalue fl f (t ++ q) = Ok (j, q).

Lemma skip_start t q : (exists c r, t = c :: r /\ starts c) -> skip (t ++ q) = t ++ q.
Proof. intros (c & r & -> & H). cbn [app]. apply skip_here. apply starts_props. assumption. Qed.

Lemma reads_int fl z : - two63 <= z < two64 -> reads fl (JInt z) (put_int z).
Proof.
  intros H. destruct (put_int_token z H) as (Ht & Hn & c & r & Ec & Hc).
  assert (Hi : In c (txt "-0123456789NI")).
  { cbn. assert (c = 45 \/ c = 48 \/ c = 49 \/ c = 50 \/ c = 51 \/ c = 52 \/ c = 53 \/ c = 54 \/ c = 55
      \/ c = 56 \/ c = 57) by lia. intuition. }
  split; [|split; [|split]].
  - apply text_ascii. apply Forall_forall. intros x Hx.
    destruct (int_token_chars _ _ _ Ht Hx); lia.
  - exists c, r. split; [assumption|]. apply txt_cons_starts. assumption.
  - rewrite Ec. cbn. lia.
  - intros q f Hq Hf. destruct f as [|f]; [cbn in Hf; lia|].
    rewrite pvalue_number by eauto. unfold pnumber. rewrite token_app by assumption. rewrite Ht.
    replace ((- two63 <=? z) && (z <? two64)) with true by lia. reflexivity.
Qed.
Lemma reads_double fl f : exact fl f -> reads fl (JDouble f) (dtoa fl f).
Proof.
  intros (F & (c & r & Ec & Hc) & (d & Hd & Hd') & Hs).
  split; [|split; [|split]].
  - apply text_ascii. eapply Forall_impl; [|exact F]. intros x Hx. apply num_char_in. assumption.
  - exists c, r. split; [assumption|]. apply txt_cons_starts. assumption.
  - rewrite Ec. cbn. lia.
  - intros q g Hq Hg. destruct g as [|g]; [cbn in Hg; lia|].
    rewrite pvalue_number by eauto. unfold pnumber.
    rewrite token_app; [|eapply Forall_impl; [|exact F]; intros; apply num_char_in; assumption|assumption].
    destruct (int_token (dtoa fl f)) eqn:Ei.
    { exfalso. pose proof (int_token_chars _ _ _ Ei Hd). cbn in Hd'. lia. }
    rewrite Hs. reflexivity.
Qed.
Lemma reads_str fl st s : utf8_text s -> exists t, wstring st s = Some t /\ reads fl (JStr s) t.
Proof.
  intros H. destruct (wstring_ok st s H) as (t & E & Ht & Hp). exists (34 :: t). split; [assumption|].
  split; [|split; [|split]].
  - change (34 :: t) with ([34] ++ t). apply text_app; [|assumption]. apply text_ascii. repeat constructor; lia.
  - exists 34, t. split; [reflexivity|right; reflexivity].
  - cbn. lia.
  - intros q f Hq Hf. destruct f as [|f]; [cbn in Hf; lia|]. cbn [app pvalue].
    change (34 =? 110) with false. change (34 =? 116) with false. change (34 =? 102) with false.
    change (34 =? 34) with true. cbn [orb].
    rewrite Hp by (rewrite app_length; lia). reflexivity.
Qed.
Lemma reads_lit fl w j : (w, j) = (txt "null", JNull) \/ (w, j) = (txt "true", JBool true)
  \/ (w, j) = (txt "false", JBool false) -> reads fl j w.
Proof.
  intros [E|[E|E]]; injection E as -> ->.
  all: split; [apply text_ascii; cbn; repeat constructor; lia|]; split;
    [eexists _, _; split; [reflexivity|left; cbn; tauto]|]; split; [cbn; lia|];
    intros q f Hq Hf; destruct f as [|f]; [cbn in Hf; lia|]; reflexivity.
Qed.

Lemma witems_ok fl st lvl l :
  Forall (fun j => exists t, wvalue fl st (S lvl) j = Some t /\ reads fl j t) l -> l <> [] ->
  exists b, witems fl st lvl true l = Some b /\ witems fl st lvl false l = Some (44 :: b)
  /\ utf8_text b /\ (exists c r, skip b = c :: r /\ starts c)
  /\ (fold_right (fun x n => S (need x + n)) O l <= 2 * length b)%nat
  /\ forall tail q f, blanks tail -> (fold_right (fun x n => S (need x + n)) O l <= f)%nat ->
     pitems fl f (b ++ tail ++ 93 :: q) = Ok (l, q).
Proof.
  induction 1 as [|j l (a & Ea & Ra) Hl IH]; [congruence|]. intros _.
  destruct Ra as (Ta & Sa & La & Pa).
  assert (Hskip : forall r, skip (newline st (S lvl) ++ a ++ r) = a ++ r).
  { intros r. rewrite skip_blanks by apply newline_blanks. apply skip_start. assumption. }
  destruct l as [|j' l].
  - exists (newline st (S lvl) ++ a ++ []). cbn [witems]. rewrite Ea.
    split; [reflexivity|]. split; [reflexivity|].
    split. { apply text_app; [apply blanks_text; apply newline_blanks|]. apply text_app; [assumption|apply text_nil]. }
    split. { rewrite Hskip. destruct Sa as (c & r & -> & Hc). eexists _, _. split; [reflexivity|assumption]. }
    split. { cbn [fold_right]. rewrite !app_length. destruct Sa as (c & r & -> & _). cbn [length] in *. lia. }
    intros tail q f Ht Hf. cbn [fold_right] in Hf. destruct f as [|f]; [lia|]. cbn [pitems].
    rewrite <- !app_assoc. rewrite Hskip. cbn [app].
    rewrite Pa; [| |lia].
    2:{ destruct tail as [|x tail]; [reflexivity|]. inversion Ht; subst. cbn [app stops].
        unfold blank in *. assert (x = 32 \/ x = 10 \/ x = 13 \/ x = 9) as Hx by lia.
        destruct Hx as [ -> | [ -> | [ -> | -> ] ] ]; reflexivity. }
    cbn [bind]. rewrite skip_blanks by assumption. rewrite skip_here by reflexivity. reflexivity.
  - destruct IH as (b & E1 & E2 & Tb & Sb & Lb & Pb); [discriminate|].
    exists (newline st (S lvl) ++ a ++ 44 :: b).
    change (witems fl st lvl true (j :: j' :: l)) with
      (match wvalue fl st (S lvl) j with None => None | Some a =>
        match witems fl st lvl false (j' :: l) with None => None
        | Some b => Some ([] ++ newline st (S lvl) ++ a ++ b) end end).
    change (witems fl st lvl false (j :: j' :: l)) with
      (match wvalue fl st (S lvl) j with None => None | Some a =>
        match witems fl st lvl false (j' :: l) with None => None
        | Some b => Some ([44] ++ newline st (S lvl) ++ a ++ b) end end).
    rewrite Ea, E2. split; [reflexivity|]. split; [reflexivity|].
    split. { apply text_app; [apply blanks_text; apply newline_blanks|]. apply text_app; [assumption|].
      change (44 :: b) with ([44] ++ b). apply text_app; [apply text_ascii; repeat constructor; lia|assumption]. }
    split. { rewrite Hskip. destruct Sa as (c & r & -> & Hc). eexists _, _. split; [reflexivity|assumption]. }
    split. { change (fold_right (fun x n => S (need x + n)) O (j :: j' :: l)) with
        (S (need j + fold_right (fun x n => S (need x + n)) O (j' :: l))).
      rewrite !app_length. cbn [length]. destruct Sa as (c & r & -> & _). cbn [length] in *. lia. }
    intros tail q f Ht Hf. change (fold_right (fun x n => S (need x + n)) O (j :: j' :: l)) with
        (S (need j + fold_right (fun x n => S (need x + n)) O (j' :: l))) in Hf.
    destruct f as [|f]; [lia|]. cbn [pitems].
    rewrite <- !app_assoc. rewrite Hskip. cbn [app].
    rewrite Pa; [|reflexivity|lia]. cbn [bind]. rewrite skip_here by reflexivity.
    change (44 =? 44) with true. cbn iota. rewrite Pb by (assumption || lia). reflexivity.
Qed.

Lemma colon_blank st : exists t, colon st = 58 :: t /\ blanks t.
Proof. unfold colon. destruct (s_indent st); eexists; split; try reflexivity; repeat constructor. Qed.

Lemma pmembers_step fl f s k kt x a q : skip s = (34 :: kt) ++ q ->
  (forall q f, (length kt <= f)%nat -> pstring f (kt ++ q) = Ok (k, q)) ->
  forall r, q = 58 :: r -> forall q2, skip r = a ++ q2 -> pvalue fl f (a ++ q2) = Ok (x, q2) ->
  pmembers fl (S f) s =
    match skip q2 with
    | c3 :: q3 =>
      if c3 =? 44 then let! (l, q4) := pmembers fl f q3 in Ok ((k, x) :: l, q4)
      else if c3 =? 125 then Ok ([(k, x)], q3)
      else Exn RuntimeError
    | [] => Exn RuntimeError
    end.
Proof.
  intros Hs Hk r -> q2 Hr Hv. cbn [pmembers]. rewrite Hs. cbn [app].
  change (34 =? 34) with true. cbn iota.
  rewrite Hk by (rewrite app_length; lia). cbn [bind]. rewrite skip_here by reflexivity.
  change (58 =? 58) with true. cbn iota. rewrite Hr, Hv. reflexivity.
Qed.

Lemma wmembers_ok fl st lvl l :
  Forall (fun p => utf8_text (fst p) /\ exists t, wvalue fl st (S lvl) (snd p) = Some t /\ reads fl (snd p) t) l ->
  l <> [] ->
  exists b, wmembers fl st lvl true l = Some b /\ wmembers fl st lvl false l = Some (44 :: b)
  /\ utf8_text b /\ (exists r, skip b = 34 :: r)
  /\ (fold_right (fun x n => S (need (snd x) + n)) O l <= 2 * length b)%nat
  /\ forall tail q f, blanks tail -> (fold_right (fun x n => S (need (snd x) + n)) O l <= f)%nat ->
     pmembers fl f (b ++ tail ++ 125 :: q) = Ok (l, q).
Proof.
  induction 1 as [|[k j] l (Tk & a & Ea & Ra) Hl IH]; [congruence|]. intros _. cbn [fst snd] in *.
  destruct Ra as (Ta & Sa & La & Pa).
  destruct (wstring_ok st k Tk) as (kt & Ek & Tkt & Pk).
  destruct (colon_blank st) as (ct & Ec & Hct).
  assert (Hskip : forall r, skip (newline st (S lvl) ++ (34 :: kt) ++ r) = (34 :: kt) ++ r).
  { intros r. rewrite skip_blanks by apply newline_blanks. apply skip_here. reflexivity. }
  assert (Hskip2 : forall r, skip (ct ++ a ++ r) = a ++ r).
  { intros r. rewrite skip_blanks by assumption. apply skip_start. assumption. }
  assert (T0 : utf8_text (newline st (S lvl) ++ (34 :: kt) ++ colon st ++ a)).
  { apply text_app; [apply blanks_text; apply newline_blanks|].
    apply text_app. { change (34 :: kt) with ([34] ++ kt). apply text_app; [apply text_ascii; repeat constructor; lia|assumption]. }
    apply text_app; [|assumption]. rewrite Ec. change (58 :: ct) with ([58] ++ ct).
    apply text_app; [apply text_ascii; repeat constructor; lia|apply blanks_text; assumption]. }
  destruct l as [|p' l].
  - exists (newline st (S lvl) ++ (34 :: kt) ++ colon st ++ a ++ []). cbn [wmembers]. rewrite Ek, Ea.
    split; [reflexivity|]. split; [reflexivity|].
    split. { rewrite app_nil_r. assumption. }
    split. { rewrite Hskip. eexists. reflexivity. }
    split. { cbn [fold_right snd]. rewrite Ec. rewrite !app_length. cbn [length]. lia. }
    intros tail q f Ht Hf. cbn [fold_right snd] in Hf. destruct f as [|f]; [lia|].
    rewrite (pmembers_step fl f _ k kt j a (58 :: ct ++ a ++ tail ++ 125 :: q))
      with (r := ct ++ a ++ tail ++ 125 :: q) (q2 := tail ++ 125 :: q).
    + rewrite skip_blanks by assumption. rewrite skip_here by reflexivity. reflexivity.
    + rewrite <- !app_assoc. rewrite Hskip. rewrite Ec. cbn [app]. reflexivity.
    + exact Pk.
    + reflexivity.
    + apply Hskip2.
    + apply Pa; [|lia]. destruct tail as [|x tail]; [reflexivity|]. inversion Ht; subst. cbn [app stops].
      unfold blank in *. assert (x = 32 \/ x = 10 \/ x = 13 \/ x = 9) as Hx by lia.
      destruct Hx as [ -> | [ -> | [ -> | -> ] ] ]; reflexivity.
  - destruct IH as (b & E1 & E2 & Tb & Sb & Lb & Pb); [discriminate|].
    exists (newline st (S lvl) ++ (34 :: kt) ++ colon st ++ a ++ 44 :: b).
    change (wmembers fl st lvl true ((k, j) :: p' :: l)) with
      (match wstring st k with None => None | Some kk =>
       match wvalue fl st (S lvl) j with None => None | Some a =>
        match wmembers fl st lvl false (p' :: l) with None => None
        | Some b => Some ([] ++ newline st (S lvl) ++ kk ++ colon st ++ a ++ b) end end end).
    change (wmembers fl st lvl false ((k, j) :: p' :: l)) with
      (match wstring st k with None => None | Some kk =>
       match wvalue fl st (S lvl) j with None => None | Some a =>
        match wmembers fl st lvl false (p' :: l) with None => None
        | Some b => Some ([44] ++ newline st (S lvl) ++ kk ++ colon st ++ a ++ b) end end end).
    rewrite Ek, Ea, E2. split; [reflexivity|]. split; [reflexivity|].
    split. { rewrite !app_assoc in *. apply text_app; [assumption|].
      change (44 :: b) with ([44] ++ b). apply text_app; [apply text_ascii; repeat constructor; lia|assumption]. }
    split. { rewrite Hskip. eexists. reflexivity. }
    change (fold_right (fun x n => S (need (snd x) + n)) O ((k, j) :: p' :: l)) with
        (S (need j + fold_right (fun x n => S (need (snd x) + n)) O (p' :: l))).
    split. { rewrite Ec. rewrite !app_length. cbn [length] in *. lia. }
    intros tail q f Ht Hf. destruct f as [|f]; [lia|].
    rewrite (pmembers_step fl f _ k kt j a (58 :: ct ++ a ++ 44 :: b ++ tail ++ 125 :: q))
      with (r := ct ++ a ++ 44 :: b ++ tail ++ 125 :: q) (q2 := 44 :: b ++ tail ++ 125 :: q).
    + rewrite skip_here by reflexivity. change (44 =? 44) with true. cbn iota.
      rewrite Pb by (assumption || lia). reflexivity.
    + rewrite <- !app_assoc. rewrite Hskip. rewrite Ec. cbn [app]. reflexivity.
    + exact Pk.
    + reflexivity.
    + apply Hskip2.
    + apply Pa; [reflexivity|lia].
Qed.

(** A document is written, in UTF-8, and read back. *)
Lemma wvalue_reads fl nan st j : jgood fl nan j -> nan = false \/ s_nan st = true -> forall lvl,
  exists t, wvalue fl st lvl j = Some t /\ reads fl j t.
Proof.
  intros G Hn. revert G. induction j using json_ind'; intros G lvl; inversion G; subst; cbn [wvalue].
  - eexists. split; [reflexivity|]. apply reads_lit. auto.
  - eexists. split; [reflexivity|]. apply reads_lit. destruct b; auto.
  - eexists. split; [reflexivity|]. apply reads_int. assumption.
  - exists (dtoa fl f). split; [|apply reads_double; assumption].
    replace (finite f || s_nan st) with true; [reflexivity|]. destruct Hn as [ -> | -> ]; [|rewrite orb_true_r; reflexivity].
    match goal with H : false = true \/ finite f = true |- _ => destruct H as [H|H]; [discriminate|]; rewrite H end.
    reflexivity.
  - apply reads_str. assumption.
  - change (exists t, wvalue fl st lvl (JArr l) = Some t /\ reads fl (JArr l) t).
    rewrite wvalue_arr.
    assert (Hall : Forall (fun j => exists t, wvalue fl st (S lvl) j = Some t /\ reads fl j t) l).
    { rewrite Forall_forall in *. intros x Hx. apply H; [assumption|]. auto. }
    destruct l as [|x l].
    + cbn [witems]. eexists. split; [reflexivity|]. cbn [app close].
      split; [apply text_ascii; repeat constructor; lia|]. split.
      { eexists _, _. split; [reflexivity|]. left. cbn. tauto. }
      split; [cbn; lia|]. intros q f _ Hf. destruct f as [|f]; [cbn in Hf; lia|]. reflexivity.
    + destruct (witems_ok fl st lvl (x :: l) Hall ltac:(discriminate)) as (b & -> & _ & Tb & Sb & Lb & Pb).
      eexists. split; [reflexivity|].
      assert (Hcl : blanks (close st lvl (x :: l))) by apply close_blanks.
      split; [|split; [|split]].
      * change (91 :: b ++ close st lvl (x :: l) ++ [93]) with ([91] ++ b ++ close st lvl (x :: l) ++ [93]).
        repeat apply text_app; try assumption; try (apply text_ascii; repeat constructor; lia).
        apply blanks_text. assumption.
      * eexists _, _. split; [reflexivity|]. left. cbn. tauto.
      * change (need (JArr (x :: l))) with (S (fold_right (fun x n => S (need x + n)) O (x :: l))).
        cbn [length]. rewrite !app_length. cbn [length]. lia.
      * intros q f _ Hf. change (need (JArr (x :: l))) with (S (fold_right (fun x n => S (need x + n)) O (x :: l))) in Hf.
        destruct f as [|f]; [lia|]. cbn [app pvalue].
        change (91 =? 110) with false. change (91 =? 116) with false. change (91 =? 102) with false.
        change (91 =? 34) with false. change (91 =? 91) with true. cbn iota.
        rewrite <- !app_assoc. cbn [app].
        specialize (Pb (close st lvl (x :: l)) q f Hcl ltac:(lia)).
        destruct Sb as (c & r & Sb & Hc).
        assert (Hs : skip (b ++ close st lvl (x :: l) ++ 93 :: q) = c :: r ++ close st lvl (x :: l) ++ 93 :: q).
        { clear - Sb. revert Sb. induction b as [|y b IH]; intros Sb; [discriminate|].
          cbn [app skip] in *. destruct ((y =? 32) || (y =? 10) || (y =? 13) || (y =? 9)); [apply IH; assumption|].
          injection Sb as -> ->. reflexivity. }
        rewrite Hs. destruct (starts_props c Hc) as (_ & N & _). replace (c =? 93) with false by lia.
        rewrite Pb. reflexivity.
  - change (exists t, wvalue fl st lvl (JObj l) = Some t /\ reads fl (JObj l) t).
    rewrite wvalue_obj.
    assert (Hall : Forall (fun p => utf8_text (fst p) /\ exists t, wvalue fl st (S lvl) (snd p) = Some t /\ reads fl (snd p) t) l).
    { rewrite Forall_forall in *. intros x Hx. destruct (H1 x Hx) as (A & B). split; [assumption|].
      apply H; assumption. }
    destruct l as [|x l].
    + cbn [wmembers]. eexists. split; [reflexivity|]. cbn [app close].
      split; [apply text_ascii; repeat constructor; lia|]. split.
      { eexists _, _. split; [reflexivity|]. left. cbn. tauto. }
      split; [cbn; lia|]. intros q f _ Hf. destruct f as [|f]; [cbn in Hf; lia|]. reflexivity.
    + destruct (wmembers_ok fl st lvl (x :: l) Hall ltac:(discriminate)) as (b & -> & _ & Tb & Sb & Lb & Pb).
      eexists. split; [reflexivity|].
      assert (Hcl : blanks (close st lvl (x :: l))) by apply close_blanks.
      split; [|split; [|split]].
      * change (123 :: b ++ close st lvl (x :: l) ++ [125]) with ([123] ++ b ++ close st lvl (x :: l) ++ [125]).
        repeat apply text_app; try assumption; try (apply text_ascii; repeat constructor; lia).
        apply blanks_text. assumption.
      * eexists _, _. split; [reflexivity|]. left. cbn. tauto.
      * change (need (JObj (x :: l))) with (S (fold_right (fun x n => S (need (snd x) + n)) O (x :: l))).
        cbn [length]. rewrite !app_length. cbn [length]. lia.
      * intros q f _ Hf. change (need (JObj (x :: l))) with (S (fold_right (fun x n => S (need (snd x) + n)) O (x :: l))) in Hf.
        destruct f as [|f]; [lia|]. cbn [app pvalue].
        change (123 =? 110) with false. change (123 =? 116) with false. change (123 =? 102) with false.
        change (123 =? 34) with false. change (123 =? 91) with false. change (123 =? 123) with true. cbn iota.
        rewrite <- !app_assoc. cbn [app].
        specialize (Pb (close st lvl (x :: l)) q f Hcl ltac:(lia)).
        destruct Sb as (r & Sb).
        assert (Hs : skip (b ++ close st lvl (x :: l) ++ 125 :: q) = 34 :: r ++ close st lvl (x :: l) ++ 125 :: q).
        { clear - Sb. revert Sb. induction b as [|y b IH]; intros Sb; [discriminate|].
          cbn [app skip] in *. destruct ((y =? 32) || (y =? 10) || (y =? 13) || (y =? 9)); [apply IH; assumption|].
          injection Sb as -> ->. reflexivity. }
        rewrite Hs. change (34 =? 125) with false. cbn iota.
        rewrite Pb. reflexivity.
Qed.

Lemma reads_doc fl j t : reads fl j t -> from_string fl t = Ok j.
Proof.
  intros (_ & S & L & P). unfold from_string. pose proof (skip_start t [] S) as Hs.
  rewrite app_nil_r in Hs. rewrite Hs.
  specialize (P [] (2 * length t + 2)%nat Logic.I ltac:(lia)). rewrite app_nil_r in P. rewrite P. reflexivity.
Qed.

(** The texts of JsonUtil::ToString for objects and arrays, read by JsonUtil::FromString. *)
Lemma to_string_reads fl nan j pretty escape indent : jgood fl nan j ->
  (nan = false \/ pretty = false) -> (exists l, j = JArr l) \/ (exists l, j = JObj l) ->
  exists t, to_string fl j pretty escape indent = Ok t /\ utf8_text t /\ from_string fl t = Ok j
  /\ t = skip t.
Proof.
  intros G Hn Hj.
  destruct (wvalue_reads fl nan (style_of pretty escape indent) j G) with (lvl := O) as (t & E & R).
  { destruct Hn as [ -> | -> ]; [auto|]. right. destruct escape; reflexivity. }
  exists t. split; [|split; [apply R|split; [apply reads_doc; assumption|]]].
  - unfold to_string. destruct Hj as [(l & ->)|(l & ->)]; rewrite E; reflexivity.
  - destruct R as (_ & S & _). pose proof (skip_start t [] S) as Hs. rewrite app_nil_r in Hs. congruence.
Qed.
