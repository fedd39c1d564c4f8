From Verif Require Import Base Utf8Proofs Base64Model Base64Spec.
Ltac Zify.zify_post_hook ::= Z.to_euclidean_division_equations.

Lemma to4_arith b0 b1 b2 : is_byte b0 -> is_byte b1 -> is_byte b2 ->
  to4 b0 b1 b2 = [b0 / 4; (b0 mod 4) * 16 + b1 / 16; (b1 mod 16) * 4 + b2 / 64; b2 mod 64].
Proof.
  unfold is_byte. intros H0 H1 H2. unfold to4.
  assert (E: forall b, is_byte b -> Z.shiftr (Z.land b 252) 2 = b / 4 /\ Z.shiftr (Z.land b 240) 4 = b / 16
     /\ Z.shiftr (Z.land b 192) 6 = b / 64).
  { intros b Hb.
    enough (forallb (fun b => (Z.shiftr (Z.land b 252) 2 =? b / 4) && (Z.shiftr (Z.land b 240) 4 =? b / 16)
       && (Z.shiftr (Z.land b 192) 6 =? b / 64)) (map Z.of_nat (seq 0 256)) = true) as HF.
    { rewrite forallb_forall in HF. assert (In b (map Z.of_nat (seq 0 256))) as HI.
      { apply in_map_iff. exists (Z.to_nat b). split; [unfold is_byte in *; lia|]. apply in_seq. unfold is_byte in *; lia. }
      apply HF in HI. lia. }
    vm_compute. reflexivity. }
  destruct (E b0 H0) as (-> & _ & _). destruct (E b1 H1) as (_ & -> & _). destruct (E b2 H2) as (_ & _ & ->).
  rewrite !Z.shiftl_mul_pow2 by lia.
  change 3 with (Z.ones 2). change 15 with (Z.ones 4). change 63 with (Z.ones 6).
  rewrite !Z.land_ones by lia. change (2^2) with 4. change (2^4) with 16. change (2^6) with 64.
  repeat rewrite (Z.mod_small (_ + _) 256) by lia. reflexivity.
Qed.

Lemma chars_ok v : sextet v -> rdz base64_chars v = Ok (b64_char v) /\ find_char (b64_char v) = v /\
   is_base64 (b64_char v) = true /\ b64_char v <> 61.
Proof.
  unfold sextet. intros Hv.
  enough (forallb (fun v => match rdz base64_chars v with Ok c => c =? b64_char v | _ => false end &&
     (find_char (b64_char v) =? v) && is_base64 (b64_char v) && negb (b64_char v =? 61)) (map Z.of_nat (seq 0 64)) = true) as HF.
  { rewrite forallb_forall in HF. assert (In v (map Z.of_nat (seq 0 64))) as HI.
    { apply in_map_iff. exists (Z.to_nat v). split; [lia|]. apply in_seq. lia. }
    apply HF in HI. destruct (rdz base64_chars v); cbn in HI; try discriminate.
    rewrite !andb_true_iff in HI. destruct HI as (((A & B) & C) & D).
    apply Z.eqb_eq in A, B. subst a. apply negb_true_iff, Z.eqb_neq in D. auto. }
  vm_compute. reflexivity.
Qed.

Lemma emit_ok vs : Forall sextet vs -> emit vs = Ok (map b64_char vs).
Proof.
  induction 1 as [|v vs Hv _ IH]; [reflexivity|]. cbn [emit map].
  destruct (chars_ok v Hv) as (-> & _). cbn. rewrite IH. reflexivity.
Qed.

Lemma encode_loop_ok s : Forall is_byte s ->
  exists t, encode_loop (length s) [] s = Ok t /\ rfc_b64 s t.
Proof.
  remember (length s) as n eqn:Hn. revert s Hn.
  induction n as [n IH] using lt_wf_ind. intros s Hn HF.
  destruct s as [|b0 [|b1 [|b2 s]]]; cbn [length] in Hn; subst n.
  - exists []. split; [reflexivity|constructor].
  - inversion HF as [|? ? H0 _]; subst. eexists. split.
    + cbn -[to4 emit]. rewrite to4_arith by (unfold is_byte in *; lia). cbn -[emit Z.mul Z.add Z.div Z.modulo].
      rewrite emit_ok by (repeat constructor; unfold is_byte, sextet in *; lia). reflexivity.
    + cbn -[b64_char Z.mul Z.add Z.div Z.modulo].
      replace (b0 / 4) with (b0 * 16 / 64) by lia.
      replace (b0 mod 4 * 16 + 0 / 16) with (b0 * 16 mod 64) by lia. apply b64_one.
  - inversion HF as [|? ? H0 HF1]; subst. inversion HF1 as [|? ? H1 _]; subst. eexists. split.
    + cbn -[to4 emit]. rewrite to4_arith by (unfold is_byte in *; lia). cbn -[emit Z.mul Z.add Z.div Z.modulo].
      rewrite emit_ok by (repeat constructor; unfold is_byte, sextet in *; lia). reflexivity.
    + cbn -[b64_char Z.mul Z.add Z.div Z.modulo]. unfold is_byte in *.
      replace (b0 / 4) with ((b0 * 256 + b1) * 4 / 4096) by lia.
      replace (b0 mod 4 * 16 + b1 / 16) with ((b0 * 256 + b1) * 4 / 64 mod 64) by lia.
      replace (b1 mod 16 * 4 + 0 / 64) with ((b0 * 256 + b1) * 4 mod 64) by lia. apply b64_two.
  - inversion HF as [|? ? H0 HF1]; subst. inversion HF1 as [|? ? H1 HF2]; subst.
    inversion HF2 as [|? ? H2 HF3]; subst.
    destruct (IH (length s)) with (s := s) as (t & HE & HR); [lia|reflexivity|assumption|].
    eexists. split.
    + cbn -[to4 emit]. rewrite to4_arith by assumption.
      rewrite emit_ok by (repeat constructor; unfold is_byte, sextet in *; lia). cbn -[b64_char Z.mul Z.add Z.div Z.modulo]. rewrite HE. reflexivity.
    + cbn -[b64_char Z.mul Z.add Z.div Z.modulo]. unfold is_byte in *.
      replace (b0 / 4) with ((b0 * 65536 + b1 * 256 + b2) / 262144) by lia.
      replace (b0 mod 4 * 16 + b1 / 16) with ((b0 * 65536 + b1 * 256 + b2) / 4096 mod 64) by lia.
      replace (b1 mod 16 * 4 + b2 / 64) with ((b0 * 65536 + b1 * 256 + b2) / 64 mod 64) by lia.
      replace (b2 mod 64) with ((b0 * 65536 + b1 * 256 + b2) mod 64) by lia.
      apply b64_full. assumption.
Qed.

Lemma encode_rfc s : Forall is_byte s -> Z.of_nat (length s) < two32 ->
  exists t, base64_encode s = Ok t /\ rfc_b64 s t.
Proof.
  intros HF Hl. unfold base64_encode. rewrite Z.mod_small by (unfold two32 in *; lia).
  rewrite Nat2Z.id. apply encode_loop_ok, HF.
Qed.

Lemma rfc_det s t t' : rfc_b64 s t -> rfc_b64 s t' -> t = t'.
Proof.
  intros H. revert t'. induction H; intros t' H'; inversion H'; subst; try reflexivity.
  erewrite IHrfc_b64 by eassumption. reflexivity.
Qed.

Lemma rfc_len s t : rfc_b64 s t -> Z.of_nat (length t) = 4 * ((Z.of_nat (length s) + 2) / 3).
Proof. induction 1; cbn [length]; try reflexivity. lia. Qed.

Lemma rfc_chars s t : Forall is_byte s -> rfc_b64 s t ->
  exists p k, t = p ++ repeat 61 k /\ Forall b64_alphabet p /\ (k = 0 \/ k = 1 \/ k = 2)%nat.
Proof.
  assert (HC: forall v, sextet v -> b64_alphabet (b64_char v)) by (intros v Hv; exists v; auto).
  intros HF H. induction H as [|b0 b1 b2 s t n H IH|b0 b1|b0].
  - exists [], 0%nat. split; [reflexivity|]. split; [constructor|tauto].
  - inversion HF as [|? ? H0 HF1]; subst. inversion HF1 as [|? ? H1 HF2]; subst.
    inversion HF2 as [|? ? H2 HF3]; subst. destruct (IH HF3) as (p & k & -> & Hp & Hk).
    exists (b64_char (n / 262144) :: b64_char (n / 4096 mod 64) ::
       b64_char (n / 64 mod 64) :: b64_char (n mod 64) :: p), k.
    split; [reflexivity|]. split; [|assumption].
    unfold n, is_byte in *. repeat constructor; try assumption; apply HC; unfold sextet; lia.
  - inversion HF as [|? ? H0 HF1]; subst. inversion HF1 as [|? ? H1 HF2]; subst.
    eexists [_; _; _], 1%nat. split; [reflexivity|]. split; [|tauto].
    unfold n, is_byte in *. repeat constructor; apply HC; unfold sextet; lia.
  - inversion HF as [|? ? H0 HF1]; subst.
    eexists [_; _], 2%nat. split; [reflexivity|]. split; [|tauto].
    unfold n, is_byte in *. repeat constructor; apply HC; unfold sextet; lia.
Qed.

(** ** Decoding *)
Lemma is_base64_iff c : is_base64 c = true <-> b64_alphabet c.
Proof.
  split.
  - intros H. unfold b64_alphabet, sextet, b64_char.
    unfold is_base64, isalnum in H.
    assert (D: 65 <= c <= 90 \/ 97 <= c <= 122 \/ 48 <= c <= 57 \/ c = 43 \/ c = 47) by lia.
    destruct D as [D|[D|[D|[D|D]]]].
    + exists (c - 65). split; [lia|]. destruct (c - 65 <? 26) eqn:?; lia.
    + exists (c - 71). split; [lia|]. destruct (c - 71 <? 26) eqn:?; [lia|]. destruct (c - 71 <? 52) eqn:?; lia.
    + exists (c + 4). split; [lia|]. destruct (c + 4 <? 26) eqn:?; [lia|]. destruct (c + 4 <? 52) eqn:?; [lia|].
      destruct (c + 4 <? 62) eqn:?; lia.
    + exists 62. split; [lia|]. subst. reflexivity.
    + exists 63. split; [lia|]. subst. reflexivity.
  - intros (v & Hv & ->). apply chars_ok, Hv.
Qed.

Lemma alphabet_map p : Forall b64_alphabet p -> exists vs, Forall sextet vs /\ p = map b64_char vs.
Proof.
  induction 1 as [|c p (v & Hv & ->) _ (vs & HF & ->)]; [exists []; auto|].
  exists (v :: vs). auto.
Qed.

Lemma to3_arith a0 a1 a2 a3 : sextet a0 -> sextet a1 -> sextet a2 -> sextet a3 ->
  to3 a0 a1 a2 a3 = [a0 * 4 + a1 / 16; (a1 mod 16) * 16 + a2 / 4; (a2 mod 4) * 64 + a3].
Proof.
  unfold sextet. intros H0 H1 H2 H3. unfold to3.
  assert (E: forall b, 0 <= b < 64 -> Z.shiftr (Z.land b 48) 4 = b / 16 /\ Z.shiftr (Z.land b 60) 2 = b / 4).
  { intros b Hb.
    enough (forallb (fun b => (Z.shiftr (Z.land b 48) 4 =? b / 16) && (Z.shiftr (Z.land b 60) 2 =? b / 4)) (map Z.of_nat (seq 0 64)) = true) as HF.
    { rewrite forallb_forall in HF. assert (In b (map Z.of_nat (seq 0 64))) as HI.
      { apply in_map_iff. exists (Z.to_nat b). split; [lia|]. apply in_seq. lia. }
      apply HF in HI. lia. }
    vm_compute. reflexivity. }
  destruct (E a1 H1) as (-> & _). destruct (E a2 H2) as (_ & ->).
  rewrite !Z.shiftl_mul_pow2 by lia.
  change 15 with (Z.ones 4). change 3 with (Z.ones 2).
  rewrite !Z.land_ones by lia. change (2^2) with 4. change (2^4) with 16. change (2^6) with 64.
  repeat rewrite (Z.mod_small (_ + _) 256) by lia. reflexivity.
Qed.

Definition stop_at (q : list Z) : Prop := q = [] \/ exists c q', q = c :: q' /\ ~ b64_alphabet c.

Lemma not_alpha_stop c : ~ b64_alphabet c -> negb (c =? 61) && is_base64 c = false.
Proof.
  intros H. destruct (is_base64 c) eqn:E; [|now rewrite andb_false_r].
  apply is_base64_iff in E. contradiction.
Qed.

Lemma decode_stop fuel arr q : stop_at q ->
  decode_loop (S fuel) (Z.of_nat (length q)) arr q = decode_tail arr.
Proof.
  intros [->|(c & q' & -> & Hc)]; [reflexivity|].
  cbn [decode_loop]. destruct (_ =? 0) eqn:E; [reflexivity|].
  cbn [rd nth_error bind]. rewrite not_alpha_stop by assumption. reflexivity.
Qed.

Lemma decode_push fuel arr c src : b64_alphabet c -> (length arr < 3)%nat ->
  decode_loop (S fuel) (Z.of_nat (length (c :: src))) arr (c :: src) =
  decode_loop fuel (Z.of_nat (length src)) (arr ++ [c]) src.
Proof.
  intros Hc Hl. cbn [decode_loop]. destruct (_ =? 0) eqn:E; [cbn [length] in E; lia|].
  cbn [rd nth_error bind].
  assert (negb (c =? 61) && is_base64 c = true) as ->.
  { destruct Hc as (v & Hv & ->). destruct (chars_ok v Hv) as (_ & _ & -> & Hn).
    rewrite andb_true_r. lia. }
  cbv zeta. destruct (length (arr ++ [c]) =? 4)%nat eqn:E4.
  { rewrite app_length in E4. cbn [length] in E4. apply Nat.eqb_eq in E4. lia. }
  f_equal. cbn [length]. lia.
Qed.

Lemma decode_push4 fuel c0 c1 c2 c3 src : b64_alphabet c3 ->
  decode_loop (S fuel) (Z.of_nat (length (c3 :: src))) [c0; c1; c2] (c3 :: src) =
  bind (decode_loop fuel (Z.of_nat (length src)) [] src)
    (fun r => Ok (to3 (find_char c0) (find_char c1) (find_char c2) (find_char c3) ++ r)).
Proof.
  intros Hc. cbn [decode_loop]. destruct (_ =? 0) eqn:E; [cbn [length] in E; lia|].
  cbn [rd nth_error bind].
  assert (negb (c3 =? 61) && is_base64 c3 = true) as ->.
  { destruct Hc as (v & Hv & ->). destruct (chars_ok v Hv) as (_ & _ & -> & Hn).
    rewrite andb_true_r. lia. }
  cbn [app length Nat.eqb map rd nth_error bind skipn].
  replace (Z.of_nat (S (length src)) - 1) with (Z.of_nat (length src)) by lia. reflexivity.
Qed.

Lemma decode_loop_ok vs q fuel : Forall sextet vs -> stop_at q ->
  (length vs < fuel)%nat ->
  exists bs, decode_loop fuel (Z.of_nat (length (map b64_char vs ++ q))) [] (map b64_char vs ++ q) = Ok bs
    /\ b64_bytes vs bs.
Proof.
  remember (length vs) as n eqn:Hn. revert vs Hn q fuel.
  induction n as [n IH] using lt_wf_ind. intros vs Hn q fuel HF Hq Hfuel.
  assert (HA: forall v, sextet v -> b64_alphabet (b64_char v)) by (intros v Hv; exists v; auto).
  destruct vs as [|v0 [|v1 [|v2 [|v3 vs]]]]; cbn [length] in Hn; subst n; cbn [map app].
  - destruct fuel as [|fuel]; [lia|]. exists []. rewrite decode_stop by assumption. split; [reflexivity|constructor].
  - inversion HF as [|? ? H0 _]; subst.
    destruct fuel as [|[|fuel]]; try lia.
    rewrite decode_push by (auto; cbn; lia). rewrite decode_stop by assumption. cbn [app].
    exists []. split; [reflexivity|constructor].
  - inversion HF as [|? ? H0 HF1]; subst. inversion HF1 as [|? ? H1 _]; subst.
    destruct fuel as [|[|[|fuel]]]; try lia.
    rewrite !decode_push by (auto; cbn; lia). rewrite decode_stop by assumption. cbn [app].
    destruct (chars_ok v0 H0) as (_ & E0 & _). destruct (chars_ok v1 H1) as (_ & E1 & _).
    eexists. split.
    + cbn -[to3 find_char b64_char]. rewrite E0, E1. cbn [to3]. reflexivity.
    + replace (Z.shiftl v0 2 + Z.shiftr (Z.land v1 48) 4) with ((v0 * 64 + v1) / 16).
      * rewrite Z.mod_small by (unfold sextet in *; lia). constructor.
      * pose proof (to3_arith v0 v1 0 0 H0 H1 ltac:(unfold sextet; lia) ltac:(unfold sextet; lia)) as T.
        unfold to3 in T. apply (f_equal (hd 0)) in T. cbn [hd] in T. unfold sextet in *.
        assert (0 <= Z.shiftl v0 2 + Z.shiftr (Z.land v1 48) 4 < 256).
        { rewrite Z.shiftl_mul_pow2, Z.shiftr_div_pow2 by lia. change (2^2) with 4. change (2^4) with 16.
          assert (0 <= Z.land v1 48 <= 48); [|lia]. split; [apply Z.land_nonneg; lia|].
          apply Z.ldiff_le. lia. rewrite Z.ldiff_land, <- Z.land_assoc. 
          replace (Z.land 48 (Z.lnot 48)) with 0 by reflexivity. apply Z.land_0_r. }
        rewrite Z.mod_small in T by lia. lia.
  - inversion HF as [|? ? H0 HF1]; subst. inversion HF1 as [|? ? H1 HF2]; subst. inversion HF2 as [|? ? H2 _]; subst.
    destruct fuel as [|[|[|[|fuel]]]]; try lia.
    rewrite !decode_push by (auto; cbn; lia). rewrite decode_stop by assumption. cbn [app].
    destruct (chars_ok v0 H0) as (_ & E0 & _). destruct (chars_ok v1 H1) as (_ & E1 & _).
    destruct (chars_ok v2 H2) as (_ & E2 & _).
    eexists. split.
    + cbn -[to3 find_char b64_char]. rewrite E0, E1, E2. reflexivity.
    + change (b64_bytes [v0; v1; v2] (firstn 2 (to3 v0 v1 v2 0))).
      rewrite to3_arith by (unfold sextet in *; lia). cbn [firstn].
      unfold sextet in *.
      replace (v0 * 4 + v1 / 16) with ((v0 * 4096 + v1 * 64 + v2) / 4 / 256) by lia.
      replace (v1 mod 16 * 16 + v2 / 4) with ((v0 * 4096 + v1 * 64 + v2) / 4 mod 256) by lia.
      constructor.
  - inversion HF as [|? ? H0 HF1]; subst. inversion HF1 as [|? ? H1 HF2]; subst.
    inversion HF2 as [|? ? H2 HF3]; subst. inversion HF3 as [|? ? H3 HF4]; subst.
    cbn [length] in Hfuel.
    destruct fuel as [|[|[|[|fuel]]]]; try lia.
    rewrite !decode_push by (auto; cbn; lia). cbn [app]. rewrite decode_push4 by auto.
    destruct (IH (length vs)) with (vs := vs) (q := q) (fuel := fuel) as (bs & -> & HB); auto; try lia.
    destruct (chars_ok v0 H0) as (_ & E0 & _). destruct (chars_ok v1 H1) as (_ & E1 & _).
    destruct (chars_ok v2 H2) as (_ & E2 & _). destruct (chars_ok v3 H3) as (_ & E3 & _).
    rewrite E0, E1, E2, E3. cbn [bind]. rewrite to3_arith by assumption.
    eexists. split; [reflexivity|]. cbn [app]. unfold sextet in *.
    replace (v0 * 4 + v1 / 16) with ((v0 * 262144 + v1 * 4096 + v2 * 64 + v3) / 65536) by lia.
    replace (v1 mod 16 * 16 + v2 / 4) with ((v0 * 262144 + v1 * 4096 + v2 * 64 + v3) / 256 mod 256) by lia.
    replace (v2 mod 4 * 64 + v3) with ((v0 * 262144 + v1 * 4096 + v2 * 64 + v3) mod 256) by lia.
    constructor. assumption.
Qed.

Lemma alphabet_split t : exists p q, t = p ++ q /\ Forall b64_alphabet p /\ stop_at q.
Proof.
  induction t as [|c t (p & q & -> & Hp & Hq)].
  - exists [], []. split; [reflexivity|]. split; [constructor|left; reflexivity].
  - destruct (is_base64 c) eqn:E.
    + exists (c :: p), q. split; [reflexivity|]. split; [constructor; [apply is_base64_iff, E|assumption]|assumption].
    + exists [], (c :: p ++ q). split; [reflexivity|]. split; [constructor|]. right.
      exists c, (p ++ q). split; [reflexivity|]. intros HA. apply is_base64_iff in HA. congruence.
Qed.

Lemma wraps32_small z : 0 <= z < 2 ^ 31 -> wraps32 z = z.
Proof. intros H. unfold wraps32, two32. rewrite Z.mod_small; lia. Qed.

Lemma decode_spec vs q : Forall sextet vs -> stop_at q ->
  Z.of_nat (length (map b64_char vs ++ q)) < 2 ^ 31 ->
  exists bs, base64_decode (map b64_char vs ++ q) = Ok bs /\ b64_bytes vs bs.
Proof.
  intros HF Hq Hl. unfold base64_decode. rewrite wraps32_small by lia.
  apply decode_loop_ok; auto. rewrite app_length, map_length. lia.
Qed.

Lemma bb_det vs bs bs' : b64_bytes vs bs -> b64_bytes vs bs' -> bs = bs'.
Proof.
  intros H. revert bs'. induction H; intros bs' H'; inversion H'; subst; try reflexivity.
  erewrite IHb64_bytes by eassumption. reflexivity.
Qed.

Lemma rfc_values s t : Forall is_byte s -> rfc_b64 s t ->
  exists vs k, t = map b64_char vs ++ repeat 61 k /\ Forall sextet vs /\ b64_bytes vs s.
Proof.
  intros HF H. induction H as [|b0 b1 b2 s t n H IH|b0 b1|b0].
  - exists [], 0%nat. repeat constructor.
  - inversion HF as [|? ? H0 HF1]; subst. inversion HF1 as [|? ? H1 HF2]; subst.
    inversion HF2 as [|? ? H2 HF3]; subst. destruct (IH HF3) as (vs & k & -> & Hv & HB).
    unfold is_byte in *.
    exists (n / 262144 :: n / 4096 mod 64 :: n / 64 mod 64 :: n mod 64 :: vs), k.
    split; [reflexivity|]. split; [unfold n, sextet; repeat constructor; try lia; assumption|].
    replace (b0 :: b1 :: b2 :: s) with
      ((n / 262144 * 262144 + n / 4096 mod 64 * 4096 + n / 64 mod 64 * 64 + n mod 64) / 65536 ::
       (n / 262144 * 262144 + n / 4096 mod 64 * 4096 + n / 64 mod 64 * 64 + n mod 64) / 256 mod 256 ::
       (n / 262144 * 262144 + n / 4096 mod 64 * 4096 + n / 64 mod 64 * 64 + n mod 64) mod 256 :: s).
    + constructor. assumption.
    + replace (n / 262144 * 262144 + n / 4096 mod 64 * 4096 + n / 64 mod 64 * 64 + n mod 64) with n by lia.
      unfold n. f_equal; [lia|]. f_equal; [lia|]. f_equal. lia.
  - inversion HF as [|? ? H0 HF1]; subst. inversion HF1 as [|? ? H1 HF2]; subst. unfold is_byte in *.
    exists [n / 4096; n / 64 mod 64; n mod 64], 1%nat.
    split; [reflexivity|]. split; [unfold n, sextet; repeat constructor; lia|].
    replace [b0; b1] with [(n / 4096 * 4096 + n / 64 mod 64 * 64 + n mod 64) / 4 / 256;
       (n / 4096 * 4096 + n / 64 mod 64 * 64 + n mod 64) / 4 mod 256]; [constructor|].
    replace (n / 4096 * 4096 + n / 64 mod 64 * 64 + n mod 64) with n by lia.
    unfold n. f_equal; [lia|]. f_equal. lia.
  - inversion HF as [|? ? H0 HF1]; subst. unfold is_byte in *.
    exists [n / 64; n mod 64], 2%nat.
    split; [reflexivity|]. split; [unfold n, sextet; repeat constructor; lia|].
    replace [b0] with [(n / 64 * 64 + n mod 64) / 16]; [constructor|].
    replace (n / 64 * 64 + n mod 64) with n by lia. unfold n. f_equal. lia.
Qed.

Lemma not_alpha_61 : ~ b64_alphabet 61.
Proof. intros H. apply is_base64_iff in H. discriminate. Qed.

Lemma stop_pad k : stop_at (repeat 61 k).
Proof.
  destruct k; [left; reflexivity|]. right. exists 61, (repeat 61 k). split; [reflexivity|apply not_alpha_61].
Qed.

Lemma decode_rfc s t : Forall is_byte s -> rfc_b64 s t -> Z.of_nat (length t) < 2 ^ 31 ->
  base64_decode t = Ok s.
Proof.
  intros HF H Hl. destruct (rfc_values s t HF H) as (vs & k & -> & Hv & HB).
  destruct (decode_spec vs (repeat 61 k) Hv (stop_pad k) Hl) as (bs & -> & HB').
  f_equal. eapply bb_det; eassumption.
Qed.

Lemma round_trip s : Forall is_byte s -> 4 * ((Z.of_nat (length s) + 2) / 3) < 2 ^ 31 ->
  (let! t := base64_encode s in base64_decode t) = Ok s.
Proof.
  intros HF Hl. destruct (encode_rfc s HF) as (t & -> & HR); [unfold two32; lia|].
  cbn [bind]. apply decode_rfc; auto. rewrite (rfc_len _ _ HR). assumption.
Qed.

Lemma decode_safe t : Z.of_nat (length t) < 2 ^ 31 ->
  exists vs q bs, t = map b64_char vs ++ q /\ Forall sextet vs /\
    (q = [] \/ exists c q', q = c :: q' /\ ~ b64_alphabet c) /\
    base64_decode t = Ok bs /\ b64_bytes vs bs.
Proof.
  intros Hl. destruct (alphabet_split t) as (p & q & -> & Hp & Hq).
  destruct (alphabet_map p Hp) as (vs & Hv & ->).
  destruct (decode_spec vs q Hv Hq Hl) as (bs & HE & HB).
  exists vs, q, bs. auto.
Qed.

Lemma decode_prefix p q : Forall b64_alphabet p -> stop_at q ->
  Z.of_nat (length (p ++ q)) < 2 ^ 31 -> base64_decode (p ++ q) = base64_decode p.
Proof.
  intros Hp Hq Hl. destruct (alphabet_map p Hp) as (vs & Hv & ->).
  destruct (decode_spec vs q Hv Hq Hl) as (bs & -> & HB).
  destruct (decode_spec vs [] Hv (or_introl eq_refl)) as (bs' & HE & HB').
  - rewrite app_nil_r. rewrite app_length in Hl. lia.
  - rewrite app_nil_r in HE. rewrite HE. f_equal. eapply bb_det; eassumption.
Qed.

Lemma encode_truncates n : Z.of_nat n = two32 -> base64_encode (repeat 0 n) = Ok [].
Proof.
  intros H. unfold base64_encode. rewrite repeat_length, H, Z.mod_same by (unfold two32; lia). reflexivity.
Qed.

Lemma encode_huge_wrong : exists s, Forall is_byte s /\ s <> [] /\ base64_encode s = Ok [].
Proof.
  exists (repeat 0 (Z.to_nat two32)). split; [|split].
  - apply Forall_forall. intros x Hx. apply repeat_spec in Hx. subst. unfold is_byte. lia.
  - intros H. apply (f_equal (@length Z)) in H. rewrite repeat_length in H. cbn [length] in H.
    unfold two32 in H. lia.
  - apply encode_truncates. unfold two32. lia.
Qed.

(** With 2^31 or more characters in_len starts negative and the loop runs off the end. *)
Lemma decode_neg_oob src : forall fuel in_len arr, Forall b64_alphabet src -> in_len < 0 ->
  (length arr < 4)%nat -> (length src < fuel)%nat ->
  decode_loop fuel in_len arr src = OOB.
Proof.
  induction src as [|c src IH]; intros fuel in_len arr HF Hn Ha Hf; (destruct fuel as [|fuel]; [cbn in Hf; lia|]); cbn [decode_loop].
  - destruct (in_len =? 0) eqn:E; [lia|]. reflexivity.
  - destruct (in_len =? 0) eqn:E; [lia|]. inversion HF as [|? ? Hc HF']; subst.
    cbn [rd nth_error bind].
    assert (negb (c =? 61) && is_base64 c = true) as ->.
    { destruct Hc as (v & Hv & ->). destruct (chars_ok v Hv) as (_ & _ & -> & Hn').
      rewrite andb_true_r. lia. }
    cbv zeta. cbn [length] in Hf. destruct (length (arr ++ [c]) =? 4)%nat eqn:E4.
    + apply Nat.eqb_eq in E4. destruct (arr ++ [c]) as [|x0 [|x1 [|x2 [|x3 [|]]]]]; cbn in E4; try lia.
      cbn [map rd nth_error bind skipn]. rewrite IH; [reflexivity|assumption|lia|cbn; lia|lia].
    + apply Nat.eqb_neq in E4. cbn [skipn]. apply IH; [assumption|lia|rewrite app_length in *; cbn [length] in *; lia|lia].
Qed.

Lemma decode_huge_oob : exists t, Forall is_byte t /\ base64_decode t = OOB.
Proof.
  exists (repeat 65 (Z.to_nat (2 ^ 31))). split.
  - apply Forall_forall. intros x Hx. apply repeat_spec in Hx. subst. unfold is_byte. lia.
  - unfold base64_decode. apply decode_neg_oob.
    + apply Forall_forall. intros x Hx. apply repeat_spec in Hx. subst. exists 0. split; [unfold sextet; lia|reflexivity].
    + rewrite repeat_length. rewrite Z2Nat.id by lia. reflexivity.
    + cbn [length]; lia.
    + lia.
Qed.
