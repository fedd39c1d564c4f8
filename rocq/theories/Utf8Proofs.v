From Verif Require Import Base Utf8Model Utf8Spec.
Ltac Zify.zify_post_hook ::= Z.to_euclidean_division_equations.

(** ** Finite sweeps over bytes *)
Definition bytes256 : list Z := map Z.of_nat (seq 0 256).

Lemma bytes256_in b : 0 <= b < 256 -> In b bytes256.
Proof.
  intros H. unfold bytes256. apply in_map_iff. exists (Z.to_nat b). split.
  - apply Z2Nat.id; lia.
  - apply in_seq. lia.
Qed.

Lemma byte_sweep (P : Z -> bool) :
  forallb P bytes256 = true -> forall b, 0 <= b < 256 -> P b = true.
Proof.
  intros H b Hb. rewrite forallb_forall in H. apply H, bytes256_in, Hb.
Qed.

Definition pair_eqb (x y : res (Z * Z)) : bool :=
  match x, y with
  | Ok (a, b), Ok (c, d) => (a =? c) && (b =? d)
  | _, _ => false
  end.
Lemma pair_eqb_eq x y : pair_eqb x y = true -> x = y.
Proof.
  destruct x as [[a b]| | |], y as [[c d]| | |]; cbn; try discriminate.
  rewrite andb_true_iff, !Z.eqb_eq. intros [-> ->]; reflexivity.
Qed.

Definition first_unit_val (b : Z) : Z * Z :=
  if b <? 192 then (b - 128, 0)
  else if b <? 194 then (b, 0)
  else if b <? 224 then (b - 192, 2)
  else if b <? 240 then (b - 224, 3)
  else if b <? 245 then (b - 240, 4)
  else (b, 0).

Lemma greedy_first_unit_val b :
  128 <= b < 256 -> greedy_first_unit b = Ok (first_unit_val b).
Proof.
  intros Hb. apply pair_eqb_eq.
  assert (H : (negb (128 <=? b) || pair_eqb (greedy_first_unit b) (Ok (first_unit_val b))) = true).
  { apply (byte_sweep (fun b => negb (128 <=? b) ||
      pair_eqb (greedy_first_unit b) (Ok (first_unit_val b)))); [|lia].
    vm_compute; reflexivity. }
  destruct (pair_eqb _ _); [reflexivity|]. lia.
Qed.

Definition contb (b : Z) : bool := (128 <=? b) && (b <=? 191).

Lemma contb_cont b : contb b = true <-> cont b.
Proof. unfold contb, cont. lia. Qed.

Lemma land_c0 u : 0 <= u < 256 -> (Z.land u 192 =? 128) = contb u.
Proof.
  intros H. apply eqb_prop.
  apply (byte_sweep (fun u => Bool.eqb (Z.land u 192 =? 128) (contb u))); [|lia].
  vm_compute; reflexivity.
Qed.

Lemma land_63 u : Z.land u 63 = u mod 64.
Proof. change 63 with (Z.ones 6). rewrite Z.land_ones by lia. reflexivity. Qed.

Lemma land_63_cont u : cont u -> Z.land u 63 = u - 128.
Proof. unfold cont. intros. rewrite land_63. lia. Qed.

Lemma lor_shiftl_add a b n :
  0 <= n -> 0 <= b < 2 ^ n -> Z.lor (Z.shiftl a n) b = a * 2 ^ n + b.
Proof.
  intros Hn Hb. rewrite Z.shiftl_mul_pow2 by lia.
  rewrite <- Z.lxor_lor, <- Z.add_nocarry_lxor; [reflexivity| |].
  - apply Z.bits_inj'. intros k Hk. rewrite Z.land_spec, Z.bits_0.
    destruct (Z.lt_ge_cases k n) as [L|L].
    + rewrite Z.mul_pow2_bits_low by lia. reflexivity.
    + replace (Z.testbit b k) with false; [apply andb_false_r|].
      symmetry. destruct (Z.eq_dec b 0) as [->|]; [apply Z.bits_0|].
      apply Z.bits_above_log2; [lia|].
      apply Z.log2_lt_pow2; [lia|].
      apply Z.lt_le_trans with (2 ^ n); [lia|]. apply Z.pow_le_mono_r; lia.
  - apply Z.bits_inj'. intros k Hk. rewrite Z.land_spec, Z.bits_0.
    destruct (Z.lt_ge_cases k n) as [L|L].
    + rewrite Z.mul_pow2_bits_low by lia. reflexivity.
    + replace (Z.testbit b k) with false; [apply andb_false_r|].
      symmetry. destruct (Z.eq_dec b 0) as [->|]; [apply Z.bits_0|].
      apply Z.bits_above_log2; [lia|].
      apply Z.log2_lt_pow2; [lia|].
      apply Z.lt_le_trans with (2 ^ n); [lia|]. apply Z.pow_le_mono_r; lia.
Qed.

Lemma comb2 c u : cont u -> Z.lor (Z.shiftl c 6) (Z.land u 63) = payload c [u].
Proof.
  intros H. rewrite land_63_cont by assumption. unfold cont in H. cbn [payload].
  rewrite lor_shiftl_add; [reflexivity|lia|]. change (2 ^ 6) with 64. lia.
Qed.

Lemma comb3 c u v : cont u -> cont v ->
  Z.lor (Z.lor (Z.shiftl c 12) (Z.shiftl (Z.land u 63) 6)) (Z.land v 63) = payload c [u; v].
Proof.
  intros Hu Hv. rewrite !land_63_cont by assumption. unfold cont in *. cbn [payload].
  rewrite <- Z.lor_assoc. rewrite (lor_shiftl_add (u - 128)) by (change (2 ^ 6) with 64; lia).
  rewrite lor_shiftl_add by (change (2 ^ 6) with 64; change (2 ^ 12) with 4096; lia).
  change (2 ^ 6) with 64; change (2 ^ 12) with 4096. lia.
Qed.

Lemma comb4 c u v w : cont u -> cont v -> cont w ->
  Z.lor (Z.lor (Z.lor (Z.shiftl c 18) (Z.shiftl (Z.land u 63) 12))
               (Z.shiftl (Z.land v 63) 6)) (Z.land w 63) = payload c [u; v; w].
Proof.
  intros Hu Hv Hw. rewrite !land_63_cont by assumption. unfold cont in *. cbn [payload].
  rewrite <- !Z.lor_assoc. rewrite (lor_shiftl_add (v - 128)) by (change (2 ^ 6) with 64; lia).
  rewrite (lor_shiftl_add (u - 128)) by
    (change (2 ^ 6) with 64; change (2 ^ 12) with 4096; lia).
  rewrite lor_shiftl_add by
    (change (2 ^ 6) with 64; change (2 ^ 12) with 4096; change (2 ^ 18) with 262144; lia).
  change (2 ^ 6) with 64; change (2 ^ 12) with 4096; change (2 ^ 18) with 262144. lia.
Qed.

(** ** One step of the greedy loops, as a pure function *)
Definition gstep (b : Z) (src1 : list Z) : Z * list Z :=
  if b <? 128 then (b, src1)
  else
    let '(p, size) := first_unit_val b in
    if size =? 2 then
      match src1 with
      | u :: r => if contb u then (payload p [u], r) else (65533, src1)
      | _ => (65533, src1)
      end
    else if size =? 3 then
      match src1 with
      | u :: v :: r => if contb u && contb v then (payload p [u; v], r) else (65533, src1)
      | _ => (65533, src1)
      end
    else if size =? 4 then
      match src1 with
      | u :: v :: w :: r =>
        if contb u && contb v && contb w then (payload p [u; v; w], r) else (65533, src1)
      | _ => (65533, src1)
      end
    else (65533, src1).

Definition lead_len (b : Z) : Z := if b <? 128 then 1 else snd (first_unit_val b).

Lemma first_unit_size b : 128 <= b < 256 ->
  snd (first_unit_val b) = 0 \/ snd (first_unit_val b) = 2 \/ snd (first_unit_val b) = 3 \/
  snd (first_unit_val b) = 4.
Proof.
  intros. unfold first_unit_val.
  repeat match goal with |- context [if ?c then _ else _] => destruct c end; cbn; tauto.
Qed.

Lemma greedy_switch_step b src1 :
  128 <= b < 256 -> Forall is_byte src1 ->
  lead_len b - 1 <= Z.of_nat (length src1) ->
  greedy_switch (snd (first_unit_val b)) src1 (fst (first_unit_val b)) = Ok (gstep b src1).
Proof.
  intros Hb Hs Hlen. unfold gstep, lead_len in *.
  destruct (b <? 128) eqn:E; [lia|].
  destruct (first_unit_size b Hb) as [S|[S|[S|S]]];
    destruct (first_unit_val b) as [p size]; cbn [snd fst] in *; subst size; cbn [Z.eqb Pos.eqb].
  - reflexivity.
  - change (greedy_switch 2 src1 p) with (advance_greedy_2 src1 p). unfold advance_greedy_2.
    destruct src1 as [|u r]; [cbn in Hlen; lia|].
    apply Forall_inv in Hs as Hu. unfold is_byte in Hu. cbn [rd nth_error bind].
    rewrite land_c0 by lia. destruct (contb u) eqn:Cu; cbn [negb]; [|reflexivity].
    rewrite comb2 by (apply contb_cont; assumption). reflexivity.
  - change (greedy_switch 3 src1 p) with (advance_greedy_3 src1 p). unfold advance_greedy_3.
    destruct src1 as [|u [|v r]]; try (cbn in Hlen; lia).
    inversion Hs as [|? ? Hu Hs']; subst. inversion Hs' as [|? ? Hv Hs'']; subst.
    unfold is_byte in *. unfold rd; cbn [nth_error bind].
    rewrite !land_c0 by lia.
    destruct (contb u) eqn:Cu; cbn [negb orb andb]; [|reflexivity].
    destruct (contb v) eqn:Cv; cbn [negb orb andb]; [|reflexivity].
    rewrite comb3 by (apply contb_cont; assumption). reflexivity.
  - change (greedy_switch 4 src1 p) with (advance_greedy_4 src1 p). unfold advance_greedy_4.
    destruct src1 as [|u [|v [|w r]]]; try (cbn in Hlen; lia).
    inversion Hs as [|? ? Hu Hs']; subst. inversion Hs' as [|? ? Hv Hs'']; subst.
    inversion Hs'' as [|? ? Hw Hs3]; subst.
    unfold is_byte in *. unfold rd; cbn [nth_error bind].
    rewrite !land_c0 by lia.
    destruct (contb u) eqn:Cu; cbn [negb orb andb]; [|reflexivity].
    destruct (contb v) eqn:Cv; cbn [negb orb andb]; [|reflexivity].
    destruct (contb w) eqn:Cw; cbn [negb orb andb]; [|reflexivity].
    rewrite comb4 by (apply contb_cont; assumption). reflexivity.
Qed.

(** The loops, rewritten with [gstep]. *)
Lemma greedy_tail_step f b src1 :
  is_byte b -> Forall is_byte src1 ->
  greedy_tail (S f) (b :: src1) =
    if lead_len b - 1 >? Z.of_nat (length src1) then Ok [65533]
    else rmap (cons (fst (gstep b src1))) (greedy_tail f (snd (gstep b src1))).
Proof.
  intros Hb Hs. unfold is_byte in Hb. cbn [greedy_tail].
  destruct (b <? 128) eqn:E.
  - unfold lead_len, gstep. rewrite E. cbn [fst snd].
    destruct (1 - 1 >? Z.of_nat (length src1)) eqn:F; [lia|reflexivity].
  - rewrite greedy_first_unit_val by lia. cbn [bind].
    assert (L : lead_len b = snd (first_unit_val b)) by (unfold lead_len; rewrite E; reflexivity).
    pose proof (greedy_switch_step b src1) as SW.
    destruct (first_unit_val b) as [p size] eqn:FV. cbn [fst snd] in *.
    rewrite L.
    destruct (size - 1 >? Z.of_nat (length src1)) eqn:F; [reflexivity|].
    rewrite SW by (try assumption; lia). cbn [bind].
    destruct (gstep b src1) as [c r]; reflexivity.
Qed.

Lemma greedy_head_step f b src1 :
  is_byte b -> Forall is_byte src1 -> (3 <= length src1)%nat ->
  greedy_head (S f) (b :: src1) =
    rmap (cons (fst (gstep b src1))) (greedy_head f (snd (gstep b src1))).
Proof.
  intros Hb Hs Hl. unfold is_byte in Hb. cbn [greedy_head].
  destruct (Z.of_nat (length (b :: src1)) >? 3) eqn:E0; [|cbn [length] in E0; lia].
  unfold rd; cbn [nth_error bind skipn].
  destruct (b <? 128) eqn:E.
  - unfold gstep. rewrite E. reflexivity.
  - rewrite greedy_first_unit_val by lia. cbn [bind].
    assert (L : lead_len b = snd (first_unit_val b)) by (unfold lead_len; rewrite E; reflexivity).
    pose proof (first_unit_size b ltac:(lia)) as FS.
    pose proof (greedy_switch_step b src1) as SW.
    destruct (first_unit_val b) as [p size] eqn:FV. cbn [fst snd] in *.
    rewrite SW by (try assumption; lia). cbn [bind].
    destruct (gstep b src1) as [c r]; reflexivity.
Qed.

Lemma greedy_head_tail f src :
  (length src <= 3)%nat -> greedy_head (S f) src = greedy_tail (S f) src.
Proof.
  intros H. cbn [greedy_head].
  destruct (Z.of_nat (length src) >? 3) eqn:E; [lia|reflexivity].
Qed.

(** What a step consumes. *)
Lemma gstep_shape b src1 :
  is_byte b ->
  (exists conts r, src1 = conts ++ r /\ complete b conts (fst (gstep b src1)) /\
                   snd (gstep b src1) = r) \/
  (gstep b src1 = (65533, src1) /\
   forall conts r c, src1 = conts ++ r -> ~ complete b conts c).
Proof.
  intros Hb. unfold is_byte in Hb. unfold gstep.
  destruct (b <? 128) eqn:E.
  - left. exists [], src1. split; [reflexivity|]. split; [|reflexivity].
    exists 1%nat, b. repeat split; [constructor; lia|constructor].
  - assert (B : 128 <= b < 256) by lia.
    assert (NL : forall n p, lead b n p -> n <> 1%nat) by (intros n p L; inversion L; subst; lia).
    destruct (first_unit_val b) as [p size] eqn:FV.
    assert (FL : forall n q, lead b n q -> Z.of_nat n = size /\ q = p).
    { intros n q L; inversion L; subst; unfold first_unit_val in FV;
      repeat match type of FV with context [if ?c then _ else _] => destruct c eqn:? end;
      inversion FV; subst; lia. }
    assert (LF : size = 0 \/ (size = 2 \/ size = 3 \/ size = 4) /\ lead b (Z.to_nat size) p).
    { unfold first_unit_val in FV.
      repeat match type of FV with context [if ?c then _ else _] => destruct c eqn:? end;
      inversion FV; subst; try (left; reflexivity); right; split; try lia; cbn; constructor; lia. }
    destruct LF as [->|[[->|[->| ->]] L]]; cbn [Z.eqb Pos.eqb].
    + right. split; [reflexivity|]. intros conts r c -> (n & q & Ln & _).
      pose proof (FL _ _ Ln). pose proof (NL _ _ Ln). inversion Ln; subst; lia.
    + destruct src1 as [|u r].
      { right. split; [reflexivity|]. intros conts r c Heq (n & q & Ln & Hlen & _).
        destruct (FL _ _ Ln). destruct conts; [cbn in Hlen; lia|discriminate]. }
      destruct (contb u) eqn:Cu.
      * left. exists [u], r. repeat split. exists 2%nat, p.
        repeat split; [exact L|constructor; [apply contb_cont; assumption|constructor]].
      * right. split; [reflexivity|]. intros conts r' c Heq (n & q & Ln & Hlen & HF & _).
        destruct (FL _ _ Ln). destruct conts as [|x conts]; [cbn in Hlen; lia|].
        cbn in Heq. inversion Heq; subst. apply Forall_inv in HF. apply contb_cont in HF. congruence.
    + destruct src1 as [|u [|v r]].
      1,2: right; split; [reflexivity|]; intros conts r' c Heq (n & q & Ln & Hlen & _);
        destruct (FL _ _ Ln); destruct conts as [|x [|y conts]]; cbn in Hlen; try lia; discriminate.
      destruct (contb u && contb v) eqn:C.
      * apply andb_true_iff in C as [Cu Cv].
        left. exists [u; v], r. repeat split. exists 3%nat, p.
        repeat split; [exact L|repeat constructor; apply contb_cont; assumption].
      * right. split; [reflexivity|]. intros conts r' c Heq (n & q & Ln & Hlen & HF & _).
        destruct (FL _ _ Ln). destruct conts as [|x [|y conts]]; try (cbn in Hlen; lia).
        cbn in Heq. inversion Heq; subst. inversion HF as [|? ? F1 HF']; subst. apply Forall_inv in HF'.
        apply contb_cont in F1, HF'. rewrite F1, HF' in C. discriminate.
    + destruct src1 as [|u [|v [|w r]]].
      1,2,3: right; split; [reflexivity|]; intros conts r' c Heq (n & q & Ln & Hlen & _);
        destruct (FL _ _ Ln); destruct conts as [|x [|y [|z conts]]]; cbn in Hlen; try lia; discriminate.
      destruct (contb u && contb v && contb w) eqn:C.
      * apply andb_true_iff in C as [C Cw]. apply andb_true_iff in C as [Cu Cv].
        left. exists [u; v; w], r. repeat split. exists 4%nat, p.
        repeat split; [exact L|repeat constructor; apply contb_cont; assumption].
      * right. split; [reflexivity|]. intros conts r' c Heq (n & q & Ln & Hlen & HF & _).
        destruct (FL _ _ Ln). destruct conts as [|x [|y [|z conts]]]; try (cbn in Hlen; lia).
        cbn in Heq. inversion Heq; subst. inversion HF as [|? ? F1 HF']; subst.
        inversion HF' as [|? ? F2 HF'']; subst. apply Forall_inv in HF''.
        apply contb_cont in F1, F2, HF''. rewrite F1, F2, HF'' in C. discriminate.
Qed.

Lemma complete_lead_len b conts c :
  is_byte b -> complete b conts c -> Z.of_nat (length conts) = lead_len b - 1 /\ (length conts <= 3)%nat.
Proof.
  intros Hb (n & p & L & Hlen & _). unfold is_byte in Hb. unfold lead_len, first_unit_val.
  inversion L; subst;
    repeat match goal with |- context [if ?c then _ else _] => destruct c eqn:? end;
    cbn [snd]; lia.
Qed.

(** [complete] determines the step. *)
Lemma gstep_complete b conts c rest :
  is_byte b -> complete b conts c -> gstep b (conts ++ rest) = (c, rest).
Proof.
  intros Hb HC. destruct (gstep_shape b (conts ++ rest) Hb) as [(conts' & r & Heq & HC' & Hr)|[_ HN]].
  - destruct (complete_lead_len _ _ _ Hb HC) as [L1 _].
    destruct (complete_lead_len _ _ _ Hb HC') as [L2 _].
    assert (length conts = length conts') as HL by lia.
    assert (conts = conts' /\ rest = r) as [<- <-].
    { apply app_inj_tail_iff || idtac.
      clear -Heq HL. revert conts' HL Heq. induction conts as [|x conts IH]; intros [|y conts'] HL Heq;
        cbn in *; try discriminate; [auto|].
      inversion Heq; subst. destruct (IH conts') as [-> ->]; auto. }
    destruct HC as (n & p & Ln & _ & _ & ->). destruct HC' as (n' & p' & Ln' & _ & _ & HC').
    assert (p = p') as <- by (inversion Ln; subst; inversion Ln'; subst; lia).
    rewrite (surjective_pairing (gstep _ _)). rewrite <- HC', Hr. reflexivity.
  - exfalso. exact (HN conts rest c eq_refl HC).
Qed.

(** ** Decoding a concatenation of complete sequences *)
Inductive gseq : list Z -> list Z -> Prop :=
| gseq_nil : gseq [] []
| gseq_cons b conts c cs bs : is_byte b -> Forall is_byte conts ->
    complete b conts c -> gseq cs bs -> gseq (c :: cs) (b :: conts ++ bs).

Lemma gseq_bytes cs bs : gseq cs bs -> Forall is_byte bs.
Proof.
  induction 1; [constructor|]. constructor; [assumption|]. apply Forall_app; auto.
Qed.

Lemma greedy_tail_gseq cs bs : gseq cs bs -> forall f, (length bs < f)%nat ->
  greedy_tail f bs = Ok cs.
Proof.
  induction 1 as [|b conts c cs bs Hb Hc HC HG IH]; intros f Hf.
  - destruct f; [lia|reflexivity].
  - destruct f as [|f]; [lia|]. rewrite greedy_tail_step; [|assumption|].
    2:{ apply Forall_app; split; [assumption|]. eapply gseq_bytes; eassumption. }
    rewrite (gstep_complete b conts c bs) by assumption. cbn [fst snd].
    destruct (complete_lead_len _ _ _ Hb HC) as [L _].
    rewrite app_length in *. cbn [length] in Hf. rewrite app_length in Hf.
    destruct (lead_len b - 1 >? Z.of_nat (length conts + length bs)) eqn:E; [lia|].
    rewrite IH by lia. reflexivity.
Qed.

Lemma greedy_head_gseq cs bs : gseq cs bs -> forall f, (length bs < f)%nat ->
  greedy_head f bs = Ok cs.
Proof.
  induction 1 as [|b conts c cs bs Hb Hc HC HG IH]; intros f Hf.
  - destruct f; [lia|reflexivity].
  - destruct f as [|f]; [lia|].
    assert (HB : Forall is_byte (conts ++ bs)).
    { apply Forall_app; split; [assumption|]. eapply gseq_bytes; eassumption. }
    destruct (le_lt_dec 3 (length (conts ++ bs))) as [Hl|Hl].
    + rewrite greedy_head_step by assumption.
      rewrite (gstep_complete b conts c bs) by assumption. cbn [fst snd].
      cbn [length] in Hf. rewrite app_length in Hf.
      rewrite IH by lia. reflexivity.
    + rewrite greedy_head_tail by (cbn [length]; lia).
      apply greedy_tail_gseq; [|assumption]. constructor; assumption.
Qed.

(** ** Counting agrees with converting *)
Lemma rd0 {A} (x : A) l : rd (x :: l) 0 = Ok x. Proof. reflexivity. Qed.

Lemma skip_switch_step b src1 :
  128 <= b < 256 -> Forall is_byte src1 ->
  lead_len b - 1 <= Z.of_nat (length src1) ->
  skip_switch (snd (first_unit_val b)) src1 = Ok (snd (gstep b src1)).
Proof.
  intros Hb Hs Hlen. unfold gstep, lead_len in *.
  destruct (b <? 128) eqn:E; [lia|].
  destruct (first_unit_size b Hb) as [S|[S|[S|S]]];
    destruct (first_unit_val b) as [p size]; cbn [snd fst] in *; subst size; cbn [Z.eqb Pos.eqb].
  - reflexivity.
  - change (skip_switch 2 src1) with (skip_greedy_2 src1). unfold skip_greedy_2.
    destruct src1 as [|u r]; [cbn in Hlen; lia|].
    apply Forall_inv in Hs as Hu. unfold is_byte in Hu. cbn [rd nth_error bind].
    rewrite land_c0 by lia. destruct (contb u) eqn:Cu; reflexivity.
  - change (skip_switch 3 src1) with (skip_greedy_3 src1). unfold skip_greedy_3.
    destruct src1 as [|u [|v r]]; try (cbn in Hlen; lia).
    inversion Hs as [|? ? Hu Hs']; subst. inversion Hs' as [|? ? Hv Hs'']; subst.
    unfold is_byte in *. unfold rd; cbn [nth_error bind].
    rewrite !land_c0 by lia.
    destruct (contb u) eqn:Cu; cbn [andb]; [|reflexivity].
    destruct (contb v) eqn:Cv; reflexivity.
  - change (skip_switch 4 src1) with (skip_greedy_4 src1). unfold skip_greedy_4.
    destruct src1 as [|u [|v [|w r]]]; try (cbn in Hlen; lia).
    inversion Hs as [|? ? Hu Hs']; subst. inversion Hs' as [|? ? Hv Hs'']; subst.
    inversion Hs'' as [|? ? Hw Hs3]; subst.
    unfold is_byte in *. unfold rd; cbn [nth_error bind].
    rewrite !land_c0 by lia.
    destruct (contb u) eqn:Cu; cbn [andb]; [|reflexivity].
    destruct (contb v) eqn:Cv; cbn [andb]; [|reflexivity].
    destruct (contb w) eqn:Cw; reflexivity.
Qed.

Lemma gstep_bytes b src1 : Forall is_byte src1 -> is_byte b -> Forall is_byte (snd (gstep b src1)).
Proof.
  intros Hs Hb. destruct (gstep_shape b src1 Hb) as [(conts & r & -> & _ & ->)|[-> _]].
  - apply Forall_app in Hs. tauto.
  - assumption.
Qed.

Lemma gstep_len b src1 : is_byte b -> (length (snd (gstep b src1)) <= length src1)%nat.
Proof.
  intros Hb. destruct (gstep_shape b src1 Hb) as [(conts & r & -> & _ & ->)|[-> _]].
  - rewrite app_length. lia.
  - reflexivity.
Qed.

Definition zlen {A} (l : list A) : Z := Z.of_nat (length l).

Lemma rmap_rmap {A B C} (f : B -> C) (g : A -> B) r : rmap f (rmap g r) = rmap (fun x => f (g x)) r.
Proof. destruct r; reflexivity. Qed.
Lemma rmap_ext {A B} (f g : A -> B) r : (forall x, f x = g x) -> rmap f r = rmap g r.
Proof. intros H. destruct r; cbn; congruence. Qed.

Lemma count_tail_len f src : Forall is_byte src ->
  count_tail f src = rmap zlen (greedy_tail f src).
Proof.
  revert src. induction f as [|f IH]; intros src Hs; [reflexivity|].
  destruct src as [|b src1]; [reflexivity|].
  inversion Hs as [|? ? Hb Hs1]; subst.
  rewrite greedy_tail_step by assumption. unfold is_byte in Hb. cbn [count_tail].
  destruct (b >=? 128) eqn:E.
  - rewrite greedy_first_unit_val by lia. cbn [bind].
    assert (L : lead_len b = snd (first_unit_val b))
      by (unfold lead_len; destruct (b <? 128) eqn:?; [lia|reflexivity]).
    pose proof (skip_switch_step b src1) as SW.
    destruct (first_unit_val b) as [p size] eqn:FV. cbn [fst snd] in *. rewrite L.
    destruct (size - 1 >? Z.of_nat (length src1)) eqn:F; [reflexivity|].
    rewrite SW by (try assumption; lia). cbn [bind].
    rewrite IH by (apply gstep_bytes; [assumption|unfold is_byte; lia]).
    rewrite !rmap_rmap. apply rmap_ext. intros x. unfold zlen. cbn [length]. lia.
  - unfold lead_len. destruct (b <? 128) eqn:E'; [|lia].
    destruct (1 - 1 >? Z.of_nat (length src1)) eqn:F; [lia|].
    rewrite IH by assumption. unfold gstep. rewrite E'. cbn [fst snd].
    rewrite !rmap_rmap. apply rmap_ext. intros x. unfold zlen. cbn [length]. lia.
Qed.

Lemma count_head_len f src : Forall is_byte src ->
  count_head f src = rmap zlen (greedy_head f src).
Proof.
  revert src. induction f as [|f IH]; intros src Hs; [reflexivity|].
  destruct (le_lt_dec (length src) 3) as [Hl|Hl].
  - rewrite greedy_head_tail by assumption. rewrite <- count_tail_len by assumption.
    cbn [count_head]. destruct (Z.of_nat (length src) >? 3) eqn:E; [lia|reflexivity].
  - destruct src as [|b src1]; [cbn in Hl; lia|]. cbn [length] in Hl.
    inversion Hs as [|? ? Hb Hs1]; subst.
    rewrite greedy_head_step by (try assumption; lia). unfold is_byte in Hb. cbn [count_head].
    destruct (Z.of_nat (length (b :: src1)) >? 3) eqn:E0; [|cbn [length] in E0; lia].
    rewrite rd0. cbn [bind skipn].
    destruct (b >=? 128) eqn:E.
    + rewrite greedy_first_unit_val by lia. cbn [bind].
      assert (L : lead_len b = snd (first_unit_val b))
        by (unfold lead_len; destruct (b <? 128) eqn:?; [lia|reflexivity]).
      pose proof (first_unit_size b ltac:(lia)) as FS.
      pose proof (skip_switch_step b src1) as SW.
      destruct (first_unit_val b) as [p size] eqn:FV. cbn [fst snd] in *.
      rewrite SW by (try assumption; lia). cbn [bind].
      rewrite IH by (apply gstep_bytes; [assumption|unfold is_byte; lia]).
      rewrite !rmap_rmap. apply rmap_ext. intros x. unfold zlen. cbn [length]. lia.
    + rewrite IH by assumption. unfold gstep. destruct (b <? 128) eqn:E'; [|lia]. cbn [fst snd].
      rewrite !rmap_rmap. apply rmap_ext. intros x. unfold zlen. cbn [length]. lia.
Qed.

(** ** General behaviour on arbitrary bytes *)
Definition outcome (src cs : list Z) : Prop :=
  (length cs <= length src)%nat /\
  exists p q, src = p ++ q /\ repl complete p cs /\ (q = [] \/ truncated_at p q).

Lemma lead_of_len b : is_byte b -> 1 < lead_len b -> exists n p, lead b n p /\ Z.of_nat n = lead_len b.
Proof.
  intros Hb. unfold is_byte in Hb. unfold lead_len, first_unit_val.
  repeat match goal with |- context [if ?c then _ else _] => destruct c eqn:? end; cbn [snd]; try lia;
  intros _.
  - exists 2%nat, (b - 192). split; [constructor; lia|reflexivity].
  - exists 3%nat, (b - 224). split; [constructor; lia|reflexivity].
  - exists 4%nat, (b - 240). split; [constructor; lia|reflexivity].
Qed.

Lemma truncated_at_app x p q : truncated_at p q -> truncated_at (x ++ p) q.
Proof.
  intros (p' & b & n & pl & -> & H). exists (x ++ p'), b, n, pl.
  rewrite app_assoc. auto.
Qed.

Lemma outcome_step b src1 cs :
  is_byte b ->
  outcome (snd (gstep b src1)) cs -> outcome (b :: src1) (fst (gstep b src1) :: cs).
Proof.
  intros Hb (HL & p & q & Hsplit & HR & HQ).
  destruct (gstep_shape b src1 Hb) as [(conts & r & -> & HC & Hr)|[HG HN]].
  - rewrite Hr in *. subst r. split.
    { cbn [length]. rewrite !app_length in *. lia. }
    exists (b :: conts ++ p), q. split; [cbn; rewrite app_assoc; reflexivity|]. split.
    + constructor; assumption.
    + destruct HQ as [->|HT]; [left; reflexivity|right].
      change (b :: conts ++ p) with ((b :: conts) ++ p). apply truncated_at_app, HT.
  - rewrite HG in *. cbn [fst snd] in *. subst src1. split.
    { cbn [length]. lia. }
    exists (b :: p), q. split; [reflexivity|]. split.
    + apply repl_bad; [|assumption]. intros conts r c Heq. apply (HN conts (r ++ q) c).
      rewrite Heq, app_assoc. reflexivity.
    + destruct HQ as [->|HT]; [left; reflexivity|right].
      change (b :: p) with ([b] ++ p). apply truncated_at_app, HT.
Qed.

Lemma greedy_tail_outcome f src : Forall is_byte src -> (length src < f)%nat ->
  exists cs, greedy_tail f src = Ok cs /\ outcome src cs.
Proof.
  revert src. induction f as [|f IH]; intros src Hs Hf; [lia|].
  destruct src as [|b src1].
  { exists []. split; [reflexivity|]. split; [lia|]. exists [], []. repeat split; [constructor|auto]. }
  inversion Hs as [|? ? Hb Hs1]; subst. rewrite greedy_tail_step by assumption.
  destruct (lead_len b - 1 >? Z.of_nat (length src1)) eqn:F.
  - exists [65533]. split; [reflexivity|]. split; [cbn; lia|].
    destruct (lead_of_len b Hb ltac:(lia)) as (n & pl & HL & Hn).
    exists [b], src1. split; [reflexivity|]. split.
    + apply repl_bad; [|constructor]. intros conts r c Heq HC.
      destruct (complete_lead_len _ _ _ Hb HC) as [Hlen _].
      symmetry in Heq. apply app_eq_nil in Heq as [-> _]. cbn in Hlen. lia.
    + right. exists [], b, n, pl. repeat split; [assumption|lia].
  - destruct (IH (snd (gstep b src1))) as (cs & HE & HO).
    + apply gstep_bytes; assumption.
    + pose proof (gstep_len b src1 Hb). cbn [length] in Hf. lia.
    + rewrite HE. cbn [rmap]. eexists. split; [reflexivity|]. apply outcome_step; assumption.
Qed.

Lemma greedy_head_outcome f src : Forall is_byte src -> (length src < f)%nat ->
  exists cs, greedy_head f src = Ok cs /\ outcome src cs.
Proof.
  revert src. induction f as [|f IH]; intros src Hs Hf; [lia|].
  destruct (le_lt_dec (length src) 3) as [Hl|Hl].
  { rewrite greedy_head_tail by assumption. apply greedy_tail_outcome; assumption. }
  destruct src as [|b src1]; [cbn in Hl; lia|]. cbn [length] in *.
  inversion Hs as [|? ? Hb Hs1]; subst. rewrite greedy_head_step by (try assumption; lia).
  destruct (IH (snd (gstep b src1))) as (cs & HE & HO).
  + apply gstep_bytes; assumption.
  + pose proof (gstep_len b src1 Hb). lia.
  + rewrite HE. cbn [rmap]. eexists. split; [reflexivity|]. apply outcome_step; assumption.
Qed.

Lemma utf8_decode_outcome src : Forall is_byte src ->
  exists cs, utf8_decode src = Ok cs /\ greedy_count src = Ok (zlen cs) /\ outcome src cs.
Proof.
  intros Hs. destruct (greedy_head_outcome (S (length src)) src Hs ltac:(lia)) as (cs & HE & HO).
  assert (HC : greedy_count src = Ok (zlen cs)).
  { unfold greedy_count. rewrite count_head_len by assumption. rewrite HE. reflexivity. }
  exists cs. split; [|split; assumption].
  unfold utf8_decode. destruct (Z.of_nat (length src) <=? 64) eqn:E.
  - unfold greedy_convert. rewrite HE. cbn [bind]. destruct HO as [HL _].
    destruct (Z.of_nat (length cs) >? 64) eqn:E2; [lia|reflexivity].
  - rewrite HC. cbn [bind]. unfold greedy_convert. rewrite HE. cbn [bind].
    unfold zlen. rewrite Z.eqb_refl. reflexivity.
Qed.

Lemma utf8_decode_gseq cs bs : gseq cs bs -> utf8_decode bs = Ok cs.
Proof.
  intros HG. pose proof (gseq_bytes _ _ HG) as Hs.
  destruct (utf8_decode_outcome bs Hs) as (cs' & HE & HC & _).
  assert (cs' = cs) as ->; [|assumption].
  unfold greedy_count in HC. rewrite count_head_len in HC by assumption.
  unfold utf8_decode in HE.
  rewrite (greedy_head_gseq cs bs HG) in HC by lia.
  unfold greedy_convert in HE. rewrite (greedy_head_gseq cs bs HG) in HE by lia.
  cbn [bind] in HE. destruct (_ <=? 64).
  - destruct (_ >? 64) in HE; congruence.
  - destruct (greedy_count bs); cbn [bind] in HE; try discriminate.
    destruct (_ =? _) in HE; congruence.
Qed.

(** ** The encoder *)
Lemma land_63_bound x : 0 <= Z.land x 63 < 64.
Proof. rewrite land_63. lia. Qed.

Lemma lor_128 x : 0 <= x < 64 -> Z.lor 128 x = 128 + x.
Proof. intros. change 128 with (Z.shiftl 2 6) at 1. rewrite lor_shiftl_add; [lia|lia|].
  change (2^6) with 64. lia. Qed.
Lemma lor_192 x : 0 <= x < 32 -> Z.lor 192 x = 192 + x.
Proof. intros. change 192 with (Z.shiftl 6 5) at 1. rewrite lor_shiftl_add; [lia|lia|].
  change (2^5) with 32. lia. Qed.
Lemma lor_224 x : 0 <= x < 16 -> Z.lor 224 x = 224 + x.
Proof. intros. change 224 with (Z.shiftl 14 4) at 1. rewrite lor_shiftl_add; [lia|lia|].
  change (2^4) with 16. lia. Qed.
Lemma lor_240 x : 0 <= x < 8 -> Z.lor 240 x = 240 + x.
Proof. intros. change 240 with (Z.shiftl 30 3) at 1. rewrite lor_shiftl_add; [lia|lia|].
  change (2^3) with 8. lia. Qed.
Lemma land_31 u : Z.land u 31 = u mod 32.
Proof. change 31 with (Z.ones 5). rewrite Z.land_ones by lia. reflexivity. Qed.
Lemma land_15 u : Z.land u 15 = u mod 16.
Proof. change 15 with (Z.ones 4). rewrite Z.land_ones by lia. reflexivity. Qed.
Lemma land_7 u : Z.land u 7 = u mod 8.
Proof. change 7 with (Z.ones 3). rewrite Z.land_ones by lia. reflexivity. Qed.

(** Arithmetic form of one encoded character. *)
Definition enc_arith (x : Z) : list Z :=
  if x <? 128 then [x]
  else if x <=? 2047 then [192 + x / 64; 128 + x mod 64]
  else if x <=? 65535 then [224 + x / 4096; 128 + (x / 64) mod 64; 128 + x mod 64]
  else if x <=? 1114111 then
    [240 + x / 262144; 128 + (x / 4096) mod 64; 128 + (x / 64) mod 64; 128 + x mod 64]
  else [239; 191; 189].

Ltac list_lia := repeat (apply f_equal2; [lia|]); reflexivity.

Lemma encode_one_arith x : 0 <= x -> greedy_encode_one x = enc_arith x.
Proof.
  intros Hx. unfold greedy_encode_one, enc_arith.
  rewrite !land_63, land_31, land_15, land_7, !Z.shiftr_div_pow2 by lia.
  change (2 ^ 6) with 64; change (2 ^ 12) with 4096; change (2 ^ 18) with 262144.
  rewrite !lor_128 by lia. rewrite lor_192, lor_224, lor_240 by lia.
  destruct (x <? 128) eqn:E1; [reflexivity|].
  destruct (x <=? 2047) eqn:E2; [list_lia|].
  destruct (x <=? 65535) eqn:E3; [list_lia|].
  destruct (x <=? 1114111) eqn:E4; [list_lia|reflexivity].
Qed.

Lemma encode_one_complete x : code_point x ->
  exists b conts, greedy_encode_one x = b :: conts /\ is_byte b /\ Forall is_byte conts /\
                  complete b conts x.
Proof.
  unfold code_point. intros Hx. rewrite encode_one_arith by lia. unfold enc_arith.
  destruct (x <? 128) eqn:E1.
  { exists x, []. repeat split; try (unfold is_byte; lia); [constructor|].
    exists 1%nat, x. repeat split; [constructor; lia|constructor]. }
  destruct (x <=? 2047) eqn:E2.
  { eexists _, _. split; [reflexivity|]. repeat split; try (unfold is_byte; lia).
    - repeat constructor; unfold is_byte; lia.
    - exists 2%nat, (192 + x / 64 - 192). repeat split; [constructor; lia| |cbn [payload]; lia].
      repeat constructor; unfold cont; lia. }
  destruct (x <=? 65535) eqn:E3.
  { eexists _, _. split; [reflexivity|]. repeat split; try (unfold is_byte; lia).
    - repeat constructor; unfold is_byte; lia.
    - exists 3%nat, (224 + x / 4096 - 224). repeat split; [constructor; lia| |cbn [payload]; lia].
      repeat constructor; unfold cont; lia. }
  destruct (x <=? 1114111) eqn:E4; [|lia].
  { eexists _, _. split; [reflexivity|]. repeat split; try (unfold is_byte; lia).
    - repeat constructor; unfold is_byte; lia.
    - exists 4%nat, (240 + x / 262144 - 240). repeat split; [constructor; lia| |cbn [payload]; lia].
      repeat constructor; unfold cont; lia. }
Qed.

Lemma greedy_encode_gseq s : Forall code_point s -> gseq s (greedy_encode s).
Proof.
  induction 1 as [|x s Hx Hs IH]; cbn [greedy_encode]; [constructor|].
  destruct (encode_one_complete x Hx) as (b & conts & -> & Hb & Hc & HC).
  cbn [app]. constructor; assumption.
Qed.

Lemma encode_one_len x : zlen (greedy_encode_one x) = greedy_one_char_len x.
Proof.
  unfold greedy_encode_one, greedy_one_char_len.
  repeat match goal with |- context [if ?c then _ else _] => destruct c end; reflexivity.
Qed.

Lemma greedy_encode_len s : zlen (greedy_encode s) = greedy_count_bytes s.
Proof.
  induction s as [|x s IH]; [reflexivity|]. cbn [greedy_encode greedy_count_bytes].
  unfold zlen in *. rewrite app_length, Nat2Z.inj_add, IH. rewrite <- encode_one_len. reflexivity.
Qed.

Lemma utf8_encode_ok s : utf8_encode s = Ok (greedy_encode s).
Proof.
  unfold utf8_encode. rewrite <- greedy_encode_len. unfold zlen. rewrite Z.eqb_refl. reflexivity.
Qed.

Lemma utf8_round_trip s : Forall code_point s ->
  (let! bs := utf8_encode s in utf8_decode bs) = Ok s.
Proof.
  intros H. rewrite utf8_encode_ok. cbn [bind]. apply utf8_decode_gseq, greedy_encode_gseq, H.
Qed.

(** ** Well-formed input *)
Lemma wf_seq_complete c s : wf_seq c s ->
  exists b conts, s = b :: conts /\ is_byte b /\ Forall is_byte conts /\ complete b conts c.
Proof.
  intros H; inversion H; subst; eexists _, _; (split; [reflexivity|]);
    (split; [unfold is_byte; lia|]);
    (split; [repeat constructor; unfold is_byte; lia|]).
  - exists 1%nat, c. split; [exact (lead_1 c ltac:(lia))|split; [reflexivity|split; [|cbn [payload]; lia]]].
    repeat constructor; unfold cont; lia.
  - exists 2%nat, (b0 - 192). split; [exact (lead_2 b0 ltac:(lia))|split; [reflexivity|split; [|cbn [payload]; lia]]].
    repeat constructor; unfold cont; lia.
  - exists 3%nat, 0. split; [exact (lead_3 224 ltac:(lia))|split; [reflexivity|split; [|cbn [payload]; lia]]].
    repeat constructor; unfold cont; lia.
  - exists 3%nat, (b0 - 224). split; [exact (lead_3 b0 ltac:(lia))|split; [reflexivity|split; [|cbn [payload]; lia]]].
    repeat constructor; unfold cont; lia.
  - exists 3%nat, 13. split; [exact (lead_3 237 ltac:(lia))|split; [reflexivity|split; [|cbn [payload]; lia]]].
    repeat constructor; unfold cont; lia.
  - exists 4%nat, 0. split; [exact (lead_4 240 ltac:(lia))|split; [reflexivity|split; [|cbn [payload]; lia]]].
    repeat constructor; unfold cont; lia.
  - exists 4%nat, (b0 - 240). split; [exact (lead_4 b0 ltac:(lia))|split; [reflexivity|split; [|cbn [payload]; lia]]].
    repeat constructor; unfold cont; lia.
  - exists 4%nat, 4. split; [exact (lead_4 244 ltac:(lia))|split; [reflexivity|split; [|cbn [payload]; lia]]].
    repeat constructor; unfold cont; lia.
Qed.

Lemma wf_gseq cs bs : wf cs bs -> gseq cs bs.
Proof.
  induction 1 as [|c s cs bs Hc Hw IH]; [constructor|].
  destruct (wf_seq_complete c s Hc) as (b & conts & -> & Hb & HF & HC).
  cbn [app]. constructor; assumption.
Qed.

Lemma utf8_decode_wf cs bs : wf cs bs -> utf8_decode bs = Ok cs.
Proof. intros H. apply utf8_decode_gseq, wf_gseq, H. Qed.

Lemma encode_one_wf c : scalar c -> wf_seq c (greedy_encode_one c).
Proof.
  unfold scalar. intros Hc. rewrite encode_one_arith by lia. unfold enc_arith.
  destruct (c <? 128) eqn:E1; [constructor; lia|].
  destruct (c <=? 2047) eqn:E2.
  { replace c with ((192 + c / 64 - 192) * 64 + (128 + c mod 64 - 128)) at 1 by lia.
    constructor; lia. }
  destruct (c <=? 65535) eqn:E3.
  { destruct (Z.eq_dec (c / 4096) 0) as [Z0|N0].
    { replace (224 + c / 4096) with 224 by lia.
      replace c with ((128 + (c / 64) mod 64 - 128) * 64 + (128 + c mod 64 - 128)) at 1 by lia.
      constructor; lia. }
    destruct (Z.eq_dec (c / 4096) 13) as [Z13|N13].
    { replace (224 + c / 4096) with 237 by lia.
      replace c with (53248 + (128 + (c / 64) mod 64 - 128) * 64 + (128 + c mod 64 - 128)) at 1 by lia.
      constructor; lia. }
    replace c with ((224 + c / 4096 - 224) * 4096 + (128 + (c / 64) mod 64 - 128) * 64
                    + (128 + c mod 64 - 128)) at 1 by lia.
    constructor; lia. }
  destruct (c <=? 1114111) eqn:E4; [|lia].
  destruct (Z.eq_dec (c / 262144) 0) as [Z0|N0].
  { replace (240 + c / 262144) with 240 by lia.
    replace c with ((128 + (c / 4096) mod 64 - 128) * 4096 + (128 + (c / 64) mod 64 - 128) * 64
                    + (128 + c mod 64 - 128)) at 1 by lia.
    constructor; lia. }
  destruct (Z.eq_dec (c / 262144) 4) as [Z4|N4].
  { replace (240 + c / 262144) with 244 by lia.
    replace c with (1048576 + (128 + (c / 4096) mod 64 - 128) * 4096 + (128 + (c / 64) mod 64 - 128) * 64
                    + (128 + c mod 64 - 128)) at 1 by lia.
    constructor; lia. }
  replace c with ((240 + c / 262144 - 240) * 262144 + (128 + (c / 4096) mod 64 - 128) * 4096
                  + (128 + (c / 64) mod 64 - 128) * 64 + (128 + c mod 64 - 128)) at 1 by lia.
  constructor; lia.
Qed.

Lemma greedy_encode_wf s : Forall scalar s -> wf s (greedy_encode s).
Proof.
  induction 1 as [|x s Hx Hs IH]; cbn [greedy_encode]; [constructor|].
  constructor; [apply encode_one_wf; assumption|assumption].
Qed.

(** Sanity of the specification: exactly the scalars have a sequence. *)
Lemma wf_seq_scalar c s : wf_seq c s -> scalar c.
Proof. unfold scalar. inversion 1; subst; lia. Qed.
