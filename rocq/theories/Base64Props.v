(** Properties C07, C08: base64. *)
From Verif Require Import Base Base64Model Base64Spec Base64Proofs.

(** C07: encoding is RFC 4648 (size below 2^32) ... *)
Theorem C07_encode_is_rfc4648 : forall s, Forall is_byte s -> Z.of_nat (length s) < two32 ->
  exists t, base64_encode s = Ok t /\ rfc_b64 s t /\
            Z.of_nat (length t) = 4 * ((Z.of_nat (length s) + 2) / 3) /\
            exists p k, t = p ++ repeat 61 k /\ Forall b64_alphabet p /\ (k <= 2)%nat.
Proof.
  intros s Hs Hl. destruct (encode_rfc s Hs Hl) as (t & HE & HR).
  destruct (rfc_chars s t Hs HR) as (p & k & Ht & Hp & Hk).
  exists t. split; [exact HE|]. split; [exact HR|]. split; [exact (rfc_len s t HR)|].
  exists p, k. split; [exact Ht|]. split; [exact Hp|lia].
Qed.
Example C07_example : base64_encode [0; 255; 77; 97] = Ok [65; 80; 57; 78; 89; 81; 61; 61].
Proof. vm_compute. reflexivity. Qed.
Print Assumptions C07_encode_is_rfc4648.

(** ... and decoding gives the bytes back, as long as the text is shorter than 2^31. *)
Theorem C07_base64_round_trip : forall s, Forall is_byte s ->
  4 * ((Z.of_nat (length s) + 2) / 3) < 2 ^ 31 ->
  (let! t := base64_encode s in base64_decode t) = Ok s.
Proof. exact round_trip. Qed.
Print Assumptions C07_base64_round_trip.

(** The size limit is real: the length is truncated to 32 bits. *)
Theorem C07_huge_input_refuted : exists s, Forall is_byte s /\ s <> [] /\ base64_encode s = Ok [].
Proof. exact encode_huge_wrong. Qed.
Print Assumptions C07_huge_input_refuted.

(** C08: decoding any text below 2^31 characters succeeds; the result is made of the
    6-bit values of the longest prefix over the alphabet, nothing else. *)
Theorem C08_decode_safe : forall t, Z.of_nat (length t) < 2 ^ 31 ->
  exists vs q bs, t = map b64_char vs ++ q /\ Forall sextet vs /\
    (q = [] \/ exists c q', q = c :: q' /\ ~ b64_alphabet c) /\
    base64_decode t = Ok bs /\ b64_bytes vs bs.
Proof. exact decode_safe. Qed.
Example C08_example : base64_decode [81; 85; 69; 10; 65] = Ok [65; 65].
Proof. vm_compute. reflexivity. Qed.
Print Assumptions C08_decode_safe.

(** C08: above that size the loop counter is negative and the code reads past the end. *)
Theorem C08_decode_huge_refuted : exists t, Forall is_byte t /\ base64_decode t = OOB.
Proof. exact decode_huge_oob. Qed.
Print Assumptions C08_decode_huge_refuted.
