(** Properties C01-C06: UTF-8 conversion between str and bytes. *)
From Verif Require Import Base Utf8Model Utf8Spec Utf8Proofs Utf8DfaProofs.

(** C01: decode (encode s) = s for every sequence of code points. *)
Theorem C01_utf8_round_trip : forall s, Forall code_point s ->
  (let! bs := utf8_encode s in utf8_decode bs) = Ok s.
Proof. exact utf8_round_trip. Qed.
Example C01_example : Forall code_point [65; 233; 8364; 55296; 128512; 1114111].
Proof. repeat constructor; unfold code_point; lia. Qed.
Print Assumptions C01_utf8_round_trip.

(** C02: on well-formed UTF-8 the decoder returns what the standard says. *)
Theorem C02_utf8_decode_well_formed : forall cs bs, wf cs bs -> utf8_decode bs = Ok cs.
Proof. exact utf8_decode_wf. Qed.
Example C02_example : wf [65; 8364; 128512] [65; 226; 130; 172; 240; 159; 152; 128].
Proof.
  apply (wf_cons 65 [65]); [constructor; lia|].
  apply (wf_cons 8364 [226; 130; 172]); [exact (wf_3 226 130 172 ltac:(lia) ltac:(lia) ltac:(lia))|].
  apply (wf_cons 128512 [240; 159; 152; 128] [] []); [|constructor].
  exact (wf_4_F0 159 152 128 ltac:(lia) ltac:(lia) ltac:(lia)).
Qed.
Print Assumptions C02_utf8_decode_well_formed.

(** C03: decoding any bytes succeeds (no out-of-bounds access, no endless loop), yields at
    most one code point per byte, and exactly as many as the counting pass announces. *)
Theorem C03_utf8_decode_total : forall src, Forall is_byte src ->
  exists cs, utf8_decode src = Ok cs /\ (length cs <= length src)%nat /\
             greedy_count src = Ok (Z.of_nat (length cs)).
Proof.
  intros src Hs. destruct (utf8_decode_outcome src Hs) as (cs & HE & HC & HL & _). eauto.
Qed.
Example C03_example : Forall is_byte [255; 228; 128; 240; 159].
Proof. repeat constructor; unfold is_byte; lia. Qed.
Print Assumptions C03_utf8_decode_total.

(** C04 is false of the code: a valid 'A' after a truncated sequence is dropped ... *)
Theorem C04_malformed_keeps_text_refuted : exists src cs, Forall is_byte src /\ repl complete src cs /\
  utf8_decode src <> Ok cs /\ In 65 src /\ (exists out, utf8_decode src = Ok out /\ ~ In 65 out).
Proof. exact lost_ascii. Qed.
Print Assumptions C04_malformed_keeps_text_refuted.

(** ... and some ill-formed input (overlong forms) is accepted without replacement. *)
Theorem C04_malformed_is_flagged_refuted : exists src cs, Forall is_byte src /\ utf8_decode src = Ok cs /\
  ~ In 65533 cs /\ forall cs', ~ wf cs' src.
Proof. exact silent_overlong. Qed.
Print Assumptions C04_malformed_is_flagged_refuted.

(** What does hold: byte-wise replacement decoding whenever no announced sequence is cut
    off by the end of the input (except at the very last byte) ... *)
Theorem C04_decode_replaces_partial : forall src cs, Forall is_byte src ->
  (forall p q, src = p ++ q -> truncated_at p q -> q = []) ->
  (utf8_decode src = Ok cs <-> repl complete src cs).
Proof. exact decode_replaces. Qed.
Example C04_example : forall p q, [255; 65; 228] = p ++ q -> truncated_at p q -> q = [].
Proof.
  intros p q H (p' & b & n & pl & -> & HL & Hn).
  destruct p' as [|x [|y [|z p']]]; cbn in H; inversion H; subst; try reflexivity.
  - inversion HL; subst; lia.
  - inversion HL; subst; cbn in Hn; lia.
  - destruct p'; discriminate.
Qed.
Print Assumptions C04_decode_replaces_partial.

(** ... and in general at most the last two bytes are lost. *)
Theorem C04_decode_loss_bounded : forall src, Forall is_byte src ->
  exists cs p q, utf8_decode src = Ok cs /\ src = p ++ q /\ (length q <= 2)%nat /\ repl complete p cs.
Proof. exact decode_loss. Qed.
Print Assumptions C04_decode_loss_bounded.

(** C05: the validating decoder succeeds exactly on well-formed UTF-8. *)
Theorem C05_strict_decoder_decides_utf8 : forall src, Forall is_byte src ->
  (exists r, dfa_convert_trace src = Ok r) /\
  forall cs, dfa_convert_trace src = Ok (Some cs) <-> wf cs src.
Proof.
  intros src Hs. exact (conj (convert_trace_total src Hs) (convert_trace_iff src Hs)).
Qed.
Print Assumptions C05_strict_decoder_decides_utf8.

(** C05: the replacing DFA decoder replaces exactly the strictly ill-formed bytes
    (same restriction on truncated input as C04). *)
Theorem C05_dfa_replaces_partial : forall src cs, Forall is_byte src ->
  (forall p q, src = p ++ q -> truncated_at p q -> q = []) ->
  (dfa_convert src = Ok cs <-> repl complete_strict src cs).
Proof. exact dfa_replaces. Qed.
Print Assumptions C05_dfa_replaces_partial.

(** C06: encoding fills its buffer exactly; on scalar values the output is well-formed;
    it is injective; out-of-range code points are encoded like U+FFFD. *)
Theorem C06_utf8_encode_total : forall s, exists bs, utf8_encode s = Ok bs /\
  Z.of_nat (length bs) = greedy_count_bytes s.
Proof.
  intros s. exists (greedy_encode s). split; [apply utf8_encode_ok|apply greedy_encode_len].
Qed.
Print Assumptions C06_utf8_encode_total.

Theorem C06_utf8_encode_well_formed : forall s, Forall scalar s ->
  exists bs, utf8_encode s = Ok bs /\ wf s bs.
Proof.
  intros s Hs. exists (greedy_encode s). split; [apply utf8_encode_ok|apply greedy_encode_wf, Hs].
Qed.
Example C06_example : Forall scalar [0; 55295; 57344; 1114111].
Proof. repeat constructor; unfold scalar; lia. Qed.
Print Assumptions C06_utf8_encode_well_formed.

Theorem C06_utf8_encode_injective : forall s t, Forall code_point s -> Forall code_point t ->
  utf8_encode s = utf8_encode t -> s = t.
Proof. exact encode_inj. Qed.
Print Assumptions C06_utf8_encode_injective.

Theorem C06_utf8_encode_out_of_range : forall s t x, 1114111 < x ->
  utf8_encode (s ++ x :: t) = utf8_encode (s ++ 65533 :: t).
Proof. exact encode_out_of_range. Qed.
Print Assumptions C06_utf8_encode_out_of_range.
